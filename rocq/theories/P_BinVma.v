(** Virtual addresses in bin-objfmt.c (C66). *)
From Coq Require Import ZArith List Bool Lia Permutation Sorted.
From Verif Require Import Lib LibBits M_BitVect P_BitVect M_Intnum P_Intnum P_IntnumIO M_BinObj P_BinNum P_BinForest P_BinObj P_BinLay.
Import ListNotations.
Open Scope Z_scope.

Fixpoint assign_vlist (tmp : intnum) (l : list group) (mm : mem) (w : list bwarn) (e : list berr) : vres :=
  match l with
  | [] => VOk mm w e
  | f :: r => match assign_vstart f tmp mm with
              | Crash => Crash
              | VOk mm' w' e' => assign_vlist tmp r mm' (w ++ w') (e ++ e')
              end
  end.
Lemma assign_vstart_eq : forall i b fs st m, assign_vstart (Group i b fs) st m =
  let v := bin_align st (vma_align b) in
  let next := assign_vlist (iadd v (blen b)) fs (set_ivstart m i v) (warn_valign i b) in
  match ivstart m i with
  | None => next []
  | Some _ => if compare st v =? 0 then next [] else match vstart b with None => Crash | Some _ => next [VInconsistent i] end
  end.
Proof.
  intros. cbn [assign_vstart]. cbv zeta. set (tmp := iadd (bin_align st (vma_align b)) (blen b)).
  assert (K : forall l mm w e, (fix go l (mm : mem) (w : list bwarn) (e : list berr) : vres :=
         match l with
         | [] => VOk mm w e
         | f :: r => match assign_vstart f tmp mm with
                     | Crash => Crash
                     | VOk mm' w' e' => go r mm' (w ++ w') (e ++ e')
                     end
         end) l mm w e = assign_vlist tmp l mm w e).
  { induction l as [|f r IH]; intros mm w e; [reflexivity|]. cbn [assign_vlist]. destruct (assign_vstart f tmp mm); auto. }
  rewrite !K. reflexivity.
Qed.
Fixpoint vplaced (V : nat -> option Z) (st : Z) (g : group) : Prop :=
  match g with
  | Group i b fs => exists x, V i = Some x /\ is_up st (vl b) x /\
      (fix all l := match l with [] => True | f :: r => vplaced V (x + len b) f /\ all r end) fs
  end.
Lemma vplaced_eq : forall I st i b fs, vplaced I st (Group i b fs) <-> exists x, I i = Some x /\ is_up st (vl b) x /\ Forall (vplaced I (x + len b)) fs.
Proof.
  intros. cbn [vplaced]. split; intros (x & A & B & C); exists x; (split; [auto|]); (split; [auto|]).
  - clear A B. induction fs as [|f r IH]; constructor; destruct C; auto.
  - clear A B. induction C as [|f r H1 H2 IH]; auto.
Qed.
Lemma vplaced_ext : forall I J g st, agree (ids g) I J -> vplaced I st g -> vplaced J st g.
Proof.
  intros I J. induction g as [i b fs IH] using group_ind2. intros st A P. apply vplaced_eq in P. destruct P as (x & P1 & P2 & P3). apply vplaced_eq. exists x. split; [rewrite <- A; [auto|left; auto]|]. split; auto.
  assert (A' : agree (fids fs) I J) by (intros k K; apply A; right; exact K). clear A P1 P2. induction fs as [|f r IHf]; constructor; inversion_clear P3; inversion_clear IH; rewrite fids_cons in A'.
  - apply H1; auto. intros k K. apply A'. apply in_or_app. auto.
  - apply IHf; auto. intros k K. apply A'. apply in_or_app. auto.
Qed.
Definition vpost (ms : list node) (m m' : mem) : Prop :=
  (forall j, istart m' j = istart m j) /\ (forall j, ~ In j (map fst ms) -> ivstart m' j = ivstart m j).
Definition VB (c : Z) : Z := 2 ^ 202 + c * 2 ^ 34.
Definition quiet (F : list group) (m : mem) : Prop := forall n, In n (fmembers F) -> ivstart m (fst n) = None.
Definition vbad (st : Z) (g : group) : Prop := ~ (vl (gsect g) | st).
Definition vok (g : group) (st : intnum) (m : mem) (e : list berr) : Prop :=
  exists m' w, assign_vstart g st m = VOk m' w e /\ vpost (members g) m m' /\ vplaced (VMA m') (ival st) g.
Definition vtree (g : group) : Prop := forall c st m, NoDup (ids g) -> Forall (fun n => sect_ok (snd n)) (members g) -> 0 <= c -> c + sz g <= 2 ^ 65 ->
  canon st -> Z.abs (ival st) <= VB c -> quiet (gfollow g) m ->
  match ivstart m (gid g) with
  | None => vok g st m []
  | Some _ => (~ vbad (ival st) g -> vok g st m []) /\
              (vbad (ival st) g -> match vstart (gsect g) with None => assign_vstart g st m = Crash | Some _ => vok g st m [VInconsistent (gid g)] end)
  end.
Lemma vlist_ok : forall tmp fs, Forall vtree fs -> forall c m w e, NoDup (fids fs) -> Forall (fun n => sect_ok (snd n)) (fmembers fs) -> 0 <= c -> c + fsz fs <= 2 ^ 65 ->
  canon tmp -> Z.abs (ival tmp) <= VB c -> quiet fs m ->
  exists m' w', assign_vlist tmp fs m w e = VOk m' w' e /\ vpost (fmembers fs) m m' /\ Forall (vplaced (VMA m') (ival tmp)) fs.
Proof.
  intros tmp fs H. induction H as [|f r Hf Hr IH]; intros c m w e N S C1 C2 Ct Bt Q.
  - exists m, w. split; [reflexivity|]. split; [split; auto|constructor].
  - rewrite fids_cons in N. assert (MF : fmembers (f :: r) = members f ++ fmembers r) by reflexivity. unfold quiet in Q. rewrite MF in *. apply Forall_app in S. destruct S as [S1 S2].
    assert (SZ : fsz (f :: r) = sz f + fsz r) by (unfold fsz, sz; rewrite MF, app_length; lia). pose proof (sz_pos f) as SP. assert (0 <= fsz r) by (unfold fsz; lia).
    assert (Qf : ivstart m (gid f) = None) by (apply (Q (root f)); apply in_or_app; left; apply root_member).
    specialize (Hf c tmp m (NoDup_app_l _ _ _ N) S1 C1 ltac:(lia) Ct Bt). rewrite Qf in Hf. destruct Hf as (m1 & w1 & E1 & [P1 P2] & P3); [intros n I; apply Q; apply in_or_app; left; destruct f as [i b fs]; right; exact I|].
    assert (Q' : quiet r m1).
    { intros n I. rewrite P2; [apply Q; apply in_or_app; auto|]. intro J. eapply NoDup_app_disj; [exact N|exact J|apply in_map; auto]. }
    destruct (IH (c + sz f) m1 (w ++ w1) (e ++ []) (NoDup_app_r _ _ _ N) S2 ltac:(lia) ltac:(lia) Ct ltac:(unfold VB in *; lia) Q') as (m2 & w2 & E2 & [P4 P5] & P6).
    rewrite app_nil_r in E2. exists m2, w2. cbn [assign_vlist]. rewrite E1, app_nil_r. split; [auto|]. split.
    + split; [intro j; rewrite P4; auto|]. intros j J. rewrite map_app, in_app_iff in J. rewrite P5 by tauto. apply P2. tauto.
    + constructor; auto. eapply vplaced_ext; [|exact P3]. intros j J. unfold VMA. rewrite P5; auto. intro K. eapply NoDup_app_disj; [exact N|exact J|exact K].
Qed.
Lemma vtree_all : forall g, vtree g.
Proof.
  induction g as [i b fs IH] using group_ind2. intros c st m N S C1 C2 Cs Bs Q. cbn [gid gsect gfollow] in *. pose proof (assign_vstart_eq i b fs st m) as EQ. cbv zeta in EQ.
  unfold ids in N. cbn [members map fst] in N. cbn [members] in S. inversion_clear N as [|? ? N1 N2]. inversion_clear S as [|? ? S1 S2]. cbn [snd] in S1.
  assert (SZ : sz (Group i b fs) = 1 + fsz fs) by (unfold sz, fsz, fmembers; cbn [members length]; lia). assert (0 <= fsz fs) by (unfold fsz; lia).
  destruct (vl_ok b S1) as (G & Ea & Pa). pose proof (pow2_range _ Pa) as Ra. destruct (blen_ok b S1) as [Gl El]. assert (Rl := proj1 S1).
  assert (X65 : 2 ^ 65 * 2 ^ 34 < 2 ^ 120) by (vm_compute; reflexivity). assert (XC : c * 2 ^ 34 <= 2 ^ 65 * 2 ^ 34) by lia. bigs. assert (2 ^ 202 = 4 * 2 ^ 200) by reflexivity. unfold VB in *.
  destruct (bin_align_ok st (vma_align b) Cs G) as [Ci Vi]; [rewrite Ea; auto|lia|]. rewrite Ea in Vi. set (v := bin_align st (vma_align b)) in *. clearbody v. pose proof (up_ok (ival st) (vl b) ltac:(lia)) as U. rewrite <- Vi in U. assert (U2 := proj2 U).
  destruct (iadd_ok v (blen b) (canon_good _ Ci) Gl) as [Ct Vt]; [lia|]. rewrite El in Vt. set (tmp := iadd v (blen b)) in *. clearbody tmp.
  assert (Qm : quiet fs (set_ivstart m i v)).
  { intros n I. cbn. unfold upd. destruct (Nat.eqb_spec (fst n) i) as [e|_]; [|apply Q; auto]. destruct N1. rewrite <- e. apply in_map. auto. }
  assert (R : forall e, exists m' w, assign_vlist tmp fs (set_ivstart m i v) (warn_valign i b) e = VOk m' w e /\ vpost (members (Group i b fs)) m m' /\ vplaced (VMA m') (ival st) (Group i b fs)).
  { intro e. destruct (vlist_ok tmp fs IH (c + 1) (set_ivstart m i v) (warn_valign i b) e N2 S2 ltac:(lia) ltac:(lia) Ct ltac:(unfold VB; lia) Qm) as (m' & w & E & [P1 P2] & P3).
    exists m', w. split; [auto|]. split.
    - split; [intro j; rewrite P1; reflexivity|]. intros j J. cbn [members map fst] in J. rewrite P2 by (intro; apply J; right; auto). cbn. unfold upd. destruct (Nat.eqb_spec j i) as [->|_]; [destruct J; left; auto|auto].
    - apply vplaced_eq. exists (ival v). split; [|split; [auto|rewrite <- Vt; auto]]. unfold VMA. rewrite P2 by auto. cbn. unfold upd. rewrite Nat.eqb_refl. reflexivity. }
  assert (CMP : (compare st v =? 0) = true <-> (vl b | ival st)).
  { rewrite compare_ok by auto. rewrite Z.eqb_eq. split; intro X.
    - replace (ival st) with (ival v) by lia. apply U.
    - rewrite Vi, up_id by (auto; lia). rewrite Z.sub_diag. reflexivity. }
  unfold vok. rewrite EQ. destruct (ivstart m i) as [s|].
  - destruct (compare st v =? 0).
    + destruct CMP as [CMP _]. specialize (CMP eq_refl). split; [intros _; apply R|]. intro B. destruct (B CMP).
    + assert (NB : vbad (ival st) (Group i b fs)) by (intro D; apply CMP in D; discriminate). split; [intro B; destruct (B NB)|]. intros _. destruct (vstart b); auto.
  - apply R.
Qed.

(** The top level groups. *)
Definition vfail (m : mem) (g : group) : Prop := exists s, ivstart m (gid g) = Some s /\ vbad (ival s) g /\ vstart (gsect g) = None.
Definition vwrong (m : mem) (g : group) : list berr :=
  match ivstart m (gid g) with Some s => if ival s mod vl (gsect g) =? 0 then [] else [VInconsistent (gid g)] | None => [] end.
Lemma vwrong_ext : forall m m' F, (forall g, In g F -> ivstart m' (gid g) = ivstart m (gid g)) -> flat_map (vwrong m') F = flat_map (vwrong m) F.
Proof.
  intros m m' F. induction F as [|f r IH]; intros H; cbn [flat_map]; auto. rewrite IH by (intros; apply H; right; auto). unfold vwrong. rewrite H by (left; auto). reflexivity.
Qed.
Lemma vall_ok : forall F c m w e, NoDup (fids F) -> Forall (fun n => sect_ok (snd n)) (fmembers F) -> 0 <= c -> c + fsz F <= 2 ^ 65 ->
  (forall g, In g F -> exists s, ivstart m (gid g) = Some s /\ canon s /\ Z.abs (ival s) <= 2 ^ 202) -> (forall g, In g F -> quiet (gfollow g) m) ->
  (assign_vall F m w e = Crash /\ Exists (vfail m) F) \/
  (Forall (fun g => ~ vfail m g) F /\ exists m' w', assign_vall F m w e = VOk m' w' (e ++ flat_map (vwrong m) F) /\ vpost (fmembers F) m m' /\
   Forall (fun g => exists s, VMA m (gid g) = Some s /\ vplaced (VMA m') s g) F).
Proof.
  induction F as [|g r IH]; intros c m w e N S C1 C2 K Q.
  - right. split; [constructor|]. exists m, w. cbn [flat_map]. rewrite app_nil_r. split; [reflexivity|]. split; [split; auto|constructor].
  - rewrite fids_cons in N. assert (MF : fmembers (g :: r) = members g ++ fmembers r) by reflexivity. rewrite MF in *. apply Forall_app in S. destruct S as [S1 S2].
    assert (SZ : fsz (g :: r) = sz g + fsz r) by (unfold fsz, sz; rewrite MF, app_length; lia). pose proof (sz_pos g) as SP. assert (0 <= fsz r) by (unfold fsz; lia).
    cbn [assign_vall]. destruct (K g ltac:(left; auto)) as (s & Es & Cs & Bs). rewrite Es.
    pose proof (vtree_all g c s m (NoDup_app_l _ _ _ N) S1 C1 ltac:(lia) Cs ltac:(unfold VB; lia) (Q g ltac:(left; auto))) as T. rewrite Es in T. destruct T as [T1 T2].
    assert (PL : 0 < vl (gsect g)).
    { assert (SO : sect_ok (gsect g)) by (rewrite Forall_forall in S1; apply (S1 (root g)); apply root_member). destruct (vl_ok _ SO) as (_ & _ & P). pose proof (pow2_range _ P). lia. }
    assert (DEC : vwrong m g = (if ival s mod vl (gsect g) =? 0 then [] else [VInconsistent (gid g)])) by (unfold vwrong; rewrite Es; auto).
    assert (CASES : (assign_vstart g s m = Crash /\ vfail m g) \/ (~ vfail m g /\ vok g s m (vwrong m g))).
    { rewrite DEC. destruct (Z.eqb_spec (ival s mod vl (gsect g)) 0) as [e0|n0].
      - right. assert (D : (vl (gsect g) | ival s)) by (apply Z.mod_divide; lia). split; [intros (s' & E' & B & _); rewrite Es in E'; injection E' as <-; exact (B D)|]. apply T1. intro B. exact (B D).
      - assert (B : vbad (ival s) g) by (intro D; apply n0; apply Z.mod_divide; [lia|auto]). specialize (T2 B). destruct (vstart (gsect g)) eqn:Ev.
        + right. split; auto. intros (s' & _ & _ & E'). congruence.
        + left. split; auto. exists s. auto. }
    destruct CASES as [[E F]|[NF (m1 & w1 & E & [P1 P2] & P3)]].
    + left. rewrite E. split; auto.
    + rewrite E. assert (R0 : forall h, In h r -> ivstart m1 (gid h) = ivstart m (gid h)).
      { intros h I. apply P2. intro J. eapply NoDup_app_disj; [exact N|exact J|]. apply in_map_iff. exists (root h). split; auto. apply in_flat_map. exists h. split; auto. apply root_member. }
      assert (R1 : forall h, In h r -> quiet (gfollow h) m1).
      { intros h I n J. rewrite P2; [apply (Q h); [right; auto|auto]|]. intro L. eapply NoDup_app_disj; [exact N|exact L|]. apply in_map. apply in_flat_map. exists h. split; auto. destruct h as [i b fs]. right. exact J. }
      specialize (IH (c + sz g) m1 (w ++ w1) (e ++ vwrong m g) (NoDup_app_r _ _ _ N) S2 ltac:(lia) ltac:(lia)). destruct IH as [[E2 X]|(X & m2 & w2 & E2 & [P4 P5] & P6)].
      * intros h I. rewrite R0 by auto. apply K. right. auto.
      * exact R1.
      * left. split; auto. right. apply Exists_exists in X. destruct X as (h & I & s' & X1 & X2). apply Exists_exists. exists h. split; auto. exists s'. rewrite R0 in X1 by auto. auto.
      * right. split.
        -- constructor; auto. rewrite Forall_forall in *. intros h I (s' & X1 & X2). apply (X h I). exists s'. rewrite R0 by auto. auto.
        -- exists m2, w2. rewrite E2. cbn [flat_map]. rewrite <- app_assoc, (vwrong_ext m m1 r R0). split; [auto|]. split; [split|].
           ++ intro j. rewrite P4. auto.
           ++ intros j J. rewrite map_app, in_app_iff in J. rewrite P5 by tauto. apply P2. tauto.
           ++ constructor.
              ** exists (ival s). split; [unfold VMA; rewrite Es; auto|]. eapply vplaced_ext; [|exact P3]. intros j J. unfold VMA. rewrite P5; auto. intro L. eapply NoDup_app_disj; [exact N|exact J|exact L].
              ** rewrite Forall_forall in *. intros h I. destruct (P6 h I) as (s' & X1 & X2). exists s'. split; auto. unfold VMA in *. rewrite <- R0; auto.
Qed.
