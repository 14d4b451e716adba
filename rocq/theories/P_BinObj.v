(** Specification and proofs for the addresses in bin-objfmt.c (C37, C66). *)
From Coq Require Import ZArith List Bool Lia Permutation Sorted.
From Verif Require Import Lib LibBits M_BitVect P_BitVect M_Intnum P_Intnum P_IntnumIO M_BinObj P_BinNum P_BinForest.
Import ListNotations.
Open Scope Z_scope.

(** * Specification *)
(** Alignment of load and virtual address. *)
Definition al (b : sect) : Z := match align b with Some a => ival a | None => Z.max 4 (salign b) end.
Definition vl (b : sect) : Z := match valign b with Some a => ival a | None => al b end.
Definition attr_ok (o : option intnum) : Prop := match o with Some a => canon a /\ pow2 (ival a) | None => True end.
Definition addr_ok (o : option (option intnum)) : Prop :=
  match o with Some (Some s) => canon s /\ - 2 ^ 200 <= ival s <= 2 ^ 200 | _ => True end.
(** Sections of less than 4 GiB, with alignments that are powers of two up to 2^31 and addresses
    up to 2^200. *)
Definition sect_ok (b : sect) : Prop :=
  0 <= len b < 2 ^ 32 /\ (salign b = 0 \/ pow2 (salign b)) /\ attr_ok (align b) /\ attr_ok (valign b) /\
  addr_ok (start b) /\ addr_ok (vstart b) /\ (start b = None \/ follows b = None) /\ (vstart b = None \/ vfollows b = None).
Definition wf (l : list sect) : Prop := Forall sect_ok l /\ NoDup (map name l) /\ Z.of_nat (length l) <= 2 ^ 64.
(** The addresses as integers. *)
Definition LMA (m : mem) (i : nat) : option Z := option_map ival (istart m i).
Definition VMA (m : mem) (i : nat) : option Z := option_map ival (ivstart m i).
(** [x] is the greatest of [a] and the elements of [s]. *)
Definition greatest (a : Z) (s : Z -> Prop) (x : Z) : Prop := (x = a \/ s x) /\ a <= x /\ forall y, s y -> y <= x.
(** Virtual addresses of the sections [ms], which are placed in this order: a section with neither
    vstart, vfollows nor valign keeps the distance [d] to its load address; one with valign only is
    aligned, and the distance grows accordingly. *)
Inductive vwalk (I V : nat -> option Z) : Z -> list node -> Z -> Prop :=
| vw_nil : forall d, vwalk I V d [] d
| vw_plain : forall i b x d t d', vstart b = None -> vfollows b = None -> valign b = None -> I i = Some x ->
    V i = Some (x + d) -> vwalk I V d t d' -> vwalk I V d ((i, b) :: t) d'
| vw_align : forall i b a x v d t d', vstart b = None -> vfollows b = None -> valign b = Some a -> I i = Some x ->
    is_up (x + d) (ival a) v -> V i = Some v -> vwalk I V (v - x) t d' -> vwalk I V d ((i, b) :: t) d'
| vw_other : forall i b d t d', vstart b <> None \/ vfollows b <> None -> vwalk I V d t d' -> vwalk I V d ((i, b) :: t) d'.

(** * Numbers *)
Definition BND (c : Z) : Z := 2 ^ 200 + c * 2 ^ 34.
Lemma al_ok : forall b, sect_ok b -> good (lma_align b) /\ ival (lma_align b) = al b /\ pow2 (al b).
Proof.
  intros b (_ & S1 & A & _). unfold lma_align, al. destruct (align b) as [a|].
  - destruct A as [C P]. split; [apply canon_good; auto|auto].
  - assert (P : pow2 (Z.max 4 (salign b))).
    { destruct S1 as [->|P]; [exists 2; split; [lia|reflexivity]|]. destruct (Z.max_spec 4 (salign b)) as [[_ ->]|[_ ->]]; auto. exists 2. split; [lia|reflexivity]. }
    pose proof (pow2_range _ P). destruct (uint_good (if 4 <? salign b then salign b else 4)) as [G I]; [destruct (Z.ltb_spec 4 (salign b)); lia|]. split; auto. split; auto. rewrite I. destruct (Z.ltb_spec 4 (salign b)); lia.
Qed.
Lemma vl_ok : forall b, sect_ok b -> good (vma_align b) /\ ival (vma_align b) = vl b /\ pow2 (vl b).
Proof.
  intros b H. pose proof (al_ok b H) as A. destruct H as (_ & _ & _ & A2 & _). unfold vma_align, vl. destruct (valign b) as [a|]; auto. destruct A2 as [C P]. split; [apply canon_good; auto|auto].
Qed.
Lemma blen_ok : forall b, sect_ok b -> good (blen b) /\ ival (blen b) = len b.
Proof. intros b (L & _). apply uint_good; auto. Qed.

(** * Walks *)
Definition agree (ns : list nat) (I J : nat -> option Z) : Prop := forall i, In i ns -> I i = J i.
Definition other (b : sect) : Prop := vstart b <> None \/ vfollows b <> None.
Lemma vwalk_ext : forall I V J W d ms d', vwalk I V d ms d' -> agree (map fst ms) I J -> agree (map fst ms) V W -> vwalk J W d ms d'.
Proof.
  induction 1; intros A B; cbn [map fst] in *.
  - constructor.
  - apply vw_plain with (x := x); auto; [rewrite <- A; [auto|left; auto]|rewrite <- B; [auto|left; auto]|]. apply IHvwalk; intros j Hj; [apply A|apply B]; right; auto.
  - apply vw_align with (a := a) (x := x) (v := v); auto; [rewrite <- A; [auto|left; auto]|rewrite <- B; [auto|left; auto]|]. apply IHvwalk; intros j Hj; [apply A|apply B]; right; auto.
  - apply vw_other; auto. apply IHvwalk; intros j Hj; [apply A|apply B]; right; auto.
Qed.
Lemma vwalk_app : forall I V d a e b f, vwalk I V d a e -> vwalk I V e b f -> vwalk I V d (a ++ b) f.
Proof.
  induction 1; intros B; cbn [app]; auto.
  - apply vw_plain with (x := x); auto.
  - apply vw_align with (a := a) (x := x) (v := v); auto.
  - apply vw_other; auto.
Qed.
Definition endof (I : nat -> option Z) (n : node) : Z := match I (fst n) with Some x => x + len (snd n) | None => 0 end.
Definition ends (I : nat -> option Z) (ms : list node) : list Z := map (endof I) ms.
Lemma ends_ext : forall I J ms, agree (map fst ms) I J -> ends I ms = ends J ms.
Proof. intros I J ms A. apply map_ext_in. intros n N. unfold endof. rewrite (A (fst n)); auto. apply in_map. auto. Qed.
Definition maxl (a : Z) (l : list Z) : Z := fold_right Z.max a l.
Lemma maxl_app : forall e1 e2 a, maxl (maxl a e1) e2 = maxl a (e1 ++ e2).
Proof.
  unfold maxl. induction e2 as [|x e2 IH] using rev_ind; intro a; [rewrite app_nil_r; reflexivity|]. rewrite app_assoc. rewrite !fold_right_app. cbn [fold_right].
  assert (K : forall l x a, fold_right Z.max (Z.max x a) l = Z.max x (fold_right Z.max a l)) by (clear; induction l as [|y l IH]; intros; cbn [fold_right]; auto; rewrite IH; lia).
  rewrite !K, IH, fold_right_app. reflexivity.
Qed.

(** * Placing groups *)
Fixpoint assign_list (tmp : intnum) (l : list group) (s : astate) : astate :=
  match l with
  | [] => s
  | f :: r => let '(la, vd, mm, ww) := s in
              let '(la', vd', mm', ww') := assign_start f tmp la vd mm in
              assign_list tmp r (la', vd', mm', ww ++ ww')
  end.
Definition start_warn (m : mem) (i : nat) (st ist : intnum) : list bwarn :=
  match istart m i with Some _ => if compare st ist =? 0 then [] else [WStart i] | None => [] end.
Lemma assign_start_eq : forall i b fs st last vdelta m, assign_start (Group i b fs) st last vdelta m =
  let ist := bin_align st (lma_align b) in
  let '(m1, vdelta1) := assign_v i b ist vdelta (set_istart m i ist) in
  let tmp := iadd ist (blen b) in
  assign_list tmp fs (if 0 <? compare tmp last then tmp else last, vdelta1, m1, start_warn m i st ist).
Proof.
  intros. cbn [assign_start]. fold (start_warn m i st (bin_align st (lma_align b))). cbv zeta. destruct (assign_v i b (bin_align st (lma_align b)) vdelta (set_istart m i (bin_align st (lma_align b)))) as [m1 v1].
  generalize (if 0 <? compare (iadd (bin_align st (lma_align b)) (blen b)) last then iadd (bin_align st (lma_align b)) (blen b) else last, v1, m1, start_warn m i st (bin_align st (lma_align b))).
  induction fs as [|f r IH]; intros [[[la vd] mm] ww]; [reflexivity|]. cbn [assign_list]. destruct (assign_start f (iadd (bin_align st (lma_align b)) (blen b)) la vd mm) as [[[? ?] ?] ?]. apply IH.
Qed.
Definition keeps (ns : list nat) (m m' : mem) : Prop := forall j, ~ In j ns -> istart m' j = istart m j /\ ivstart m' j = ivstart m j.
Definition post (c : Z) (ms : list node) (la vd : Z) (m : mem) (la' vd' : intnum) (m' : mem) : Prop :=
  canon la' /\ canon vd' /\ Z.abs (ival la') <= BND c /\ Z.abs (ival vd') <= c * 2 ^ 32 /\
  keeps (map fst ms) m m' /\ vwalk (LMA m') (VMA m') vd ms (ival vd') /\ ival la' = maxl la (ends (LMA m') ms) /\
  (forall n, In n ms -> exists x, istart m' (fst n) = Some x /\ canon x /\ Z.abs (ival x) <= BND c) /\
  (forall n, In n ms -> other (snd n) -> ivstart m' (fst n) = ivstart m (fst n)) /\
  (forall n, In n ms -> ~ other (snd n) -> exists v, ivstart m' (fst n) = Some v /\ canon v /\ Z.abs (ival v) <= 2 * BND c).
Lemma keeps_agree : forall ns ns' m m', keeps ns m m' -> (forall i, In i ns -> In i ns' -> False) -> agree ns' (LMA m) (LMA m') /\ agree ns' (VMA m) (VMA m').
Proof. intros ns ns' m m' K D. split; intros i I; destruct (K i) as [A B]; try (intro; eauto); unfold LMA, VMA; congruence. Qed.
Lemma BND_mono : forall a b, a <= b -> BND a <= BND b.
Proof. intros. unfold BND. lia. Qed.
Lemma post_app : forall c1 c2 ms1 ms2 la vd m la1 vd1 m1 la2 vd2 m2, c1 <= c2 -> NoDup (map fst (ms1 ++ ms2)) ->
  post c1 ms1 la vd m la1 vd1 m1 -> post c2 ms2 (ival la1) (ival vd1) m1 la2 vd2 m2 -> post c2 (ms1 ++ ms2) la vd m la2 vd2 m2.
Proof.
  intros c1 c2 ms1 ms2 la vd m la1 vd1 m1 la2 vd2 m2 C N (A1 & A2 & A3 & A4 & A5 & A6 & A7 & A8 & A9 & A10) (B1 & B2 & B3 & B4 & B5 & B6 & B7 & B8 & B9 & B10).
  rewrite map_app in N. assert (D : forall i, In i (map fst ms2) -> In i (map fst ms1) -> False) by (intros i X Y; eapply NoDup_app_disj; eauto).
  destruct (keeps_agree _ (map fst ms1) _ _ B5 D) as [G1 G2]. pose proof (BND_mono _ _ C) as BM.
  assert (K1 : forall n, In n ms1 -> istart m2 (fst n) = istart m1 (fst n) /\ ivstart m2 (fst n) = ivstart m1 (fst n)) by (intros n X; apply B5; intro Y; apply (D (fst n)); auto; apply in_map; auto).
  do 4 (split; [auto|]). split; [|split; [|split; [|split; [|split]]]].
  - intros j J. rewrite map_app, in_app_iff in J. destruct (B5 j) as [P Q]; [tauto|]. destruct (A5 j) as [P' Q']; [tauto|]. split; congruence.
  - eapply vwalk_app; [|exact B6]. eapply vwalk_ext; eauto.
  - rewrite B7, A7, maxl_app. unfold ends. rewrite map_app. fold (ends (LMA m1) ms1). fold (ends (LMA m2) ms1). rewrite (ends_ext _ _ _ G1). reflexivity.
  - intros n X. apply in_app_or in X. destruct X as [X|X]; auto. destruct (A8 n X) as (x & P & Q & R). exists x. destruct (K1 n X) as [-> _]. split; [auto|]. split; [auto|]. lia.
  - intros n X O'. apply in_app_or in X. destruct X as [X|X].
    + destruct (K1 n X) as [_ ->]. auto.
    + rewrite B9 by auto. apply A5. intro Y. apply (D (fst n)); auto. apply in_map; auto.
  - intros n X O'. apply in_app_or in X. destruct X as [X|X]; auto. destruct (A10 n X O') as (x & P & Q & R). exists x. destruct (K1 n X) as [_ ->]. split; [auto|]. split; [auto|]. lia.
Qed.

Fixpoint placed (I : nat -> option Z) (st : Z) (g : group) : Prop :=
  match g with
  | Group i b fs => exists x, I i = Some x /\ is_up st (al b) x /\
      (fix all l := match l with [] => True | f :: r => placed I (x + len b) f /\ all r end) fs
  end.
Lemma placed_eq : forall I st i b fs, placed I st (Group i b fs) <-> exists x, I i = Some x /\ is_up st (al b) x /\ Forall (placed I (x + len b)) fs.
Proof.
  intros. cbn [placed]. split; intros (x & A & B & C); exists x; (split; [auto|]); (split; [auto|]).
  - clear A B. induction fs as [|f r IH]; constructor; destruct C; auto.
  - clear A B. induction C as [|f r H1 H2 IH]; auto.
Qed.
Lemma placed_ext : forall I J g st, agree (ids g) I J -> placed I st g -> placed J st g.
Proof.
  intros I J. induction g as [i b fs IH] using group_ind2. intros st A P. apply placed_eq in P. destruct P as (x & P1 & P2 & P3). apply placed_eq. exists x. split; [rewrite <- A; [auto|left; auto]|]. split; auto.
  assert (A' : agree (fids fs) I J) by (intros k K; apply A; right; exact K). clear A P1 P2. induction fs as [|f r IHf]; constructor; inversion_clear P3; inversion_clear IH; rewrite fids_cons in A'.
  - apply H1; auto. intros k K. apply A'. apply in_or_app. auto.
  - apply IHf; auto. intros k K. apply A'. apply in_or_app. auto.
Qed.

Definition sz (g : group) : Z := Z.of_nat (length (members g)).
Definition fsz (F : list group) : Z := Z.of_nat (length (fmembers F)).
Definition pre (c : Z) (la vd : intnum) : Prop := canon la /\ canon vd /\ Z.abs (ival la) <= BND c /\ Z.abs (ival vd) <= c * 2 ^ 32.

Ltac bigs := assert (2 ^ 255 = 2 * 2 ^ 254) by reflexivity; assert (2 ^ 254 = 2 * 2 ^ 253) by reflexivity; assert (2 ^ 253 = 2 * 2 ^ 252) by reflexivity;
  assert (8 * 2 ^ 200 < 2 ^ 252) by (vm_compute; reflexivity); assert (2 ^ 120 < 2 ^ 200) by (vm_compute; reflexivity).
Lemma node_ok : forall c i b st la vd m m1 vd1, sect_ok b -> 0 <= c <= 2 ^ 65 -> canon st -> Z.abs (ival st) <= BND c -> pre c la vd ->
  let ist := bin_align st (lma_align b) in
  let tmp := iadd ist (blen b) in
  assign_v i b ist vd (set_istart m i ist) = (m1, vd1) ->
  post (c + 1) [(i, b)] (ival la) (ival vd) m (if 0 <? compare tmp la then tmp else la) vd1 m1 /\
  canon tmp /\ Z.abs (ival tmp) <= BND (c + 1) /\ exists x, LMA m1 i = Some x /\ is_up (ival st) (al b) x /\ ival tmp = x + len b.
Proof.
  intros c i b st la vd m m1 vd1 H C Cs Bs (P1 & P2 & P3 & P4) ist tmp E. destruct (al_ok b H) as (G & Ea & Pa). pose proof (pow2_range _ Pa) as Ra. destruct (blen_ok b H) as [Gl El]. assert (Rl := proj1 H).
  assert (X65 : 2 ^ 65 * 2 ^ 34 < 2 ^ 120) by (vm_compute; reflexivity). assert (XC : c * 2 ^ 34 <= 2 ^ 65 * 2 ^ 34) by lia. bigs. unfold BND in *.
  destruct (bin_align_ok st (lma_align b) Cs G) as [Ci Vi]; [rewrite Ea; auto|lia|]. fold ist in Ci, Vi. rewrite Ea in Vi. pose proof (up_ok (ival st) (al b) ltac:(lia)) as U. rewrite <- Vi in U. assert (U2 := proj2 U).
  destruct (iadd_ok ist (blen b) (canon_good _ Ci) Gl) as [Ct Vt]; [lia|]. fold tmp in Ct, Vt. rewrite El in Vt. clearbody tmp. clearbody ist.
  assert (La : canon (if 0 <? compare tmp la then tmp else la) /\ ival (if 0 <? compare tmp la then tmp else la) = Z.max (ival tmp) (ival la)).
  { rewrite compare_ok by auto. destruct (Z.ltb_spec 0 (Z.sgn (ival tmp - ival la))); split; auto; lia. }
  destruct La as [La1 La2]. set (la1 := if 0 <? compare tmp la then tmp else la) in *. clearbody la1.
  assert (IS : istart m1 i = Some ist /\ (forall j, j <> i -> istart m1 j = istart m j /\ ivstart m1 j = ivstart m j)).
  { unfold assign_v in E. assert (Q : forall v, istart (set_ivstart (set_istart m i ist) i v) i = Some ist) by (intro; cbn; unfold upd; rewrite Nat.eqb_refl; auto).
    assert (Q2 : forall v j, j <> i -> istart (set_ivstart (set_istart m i ist) i v) j = istart m j /\ ivstart (set_ivstart (set_istart m i ist) i v) j = ivstart m j) by (intros v j J; cbn; unfold upd; destruct (Nat.eqb_spec j i); [congruence|auto]).
    assert (Q3 : istart (set_istart m i ist) i = Some ist) by (cbn; unfold upd; rewrite Nat.eqb_refl; auto).
    assert (Q4 : forall j, j <> i -> istart (set_istart m i ist) j = istart m j /\ ivstart (set_istart m i ist) j = ivstart m j) by (intros j J; cbn; unfold upd; destruct (Nat.eqb_spec j i); [congruence|auto]).
    destruct (vstart b), (vfollows b), (valign b); assert (M := f_equal fst E); cbn [fst] in M; subst m1; auto. }
  destruct IS as [IS1 IS2]. assert (IL1 : LMA m1 i = Some (ival ist)) by (unfold LMA; rewrite IS1; reflexivity).
  assert (VD : canon vd1 /\ Z.abs (ival vd1) <= (c + 1) * 2 ^ 32 /\ vwalk (LMA m1) (VMA m1) (ival vd) [(i, b)] (ival vd1) /\
    (other b -> ivstart m1 i = ivstart m i) /\ (~ other b -> exists v, ivstart m1 i = Some v /\ canon v /\ Z.abs (ival v) <= 2 * (2 ^ 200 + (c + 1) * 2 ^ 34))).
  { unfold assign_v in E. destruct (vstart b) as [?|] eqn:Ev.
    { assert (M := f_equal fst E). assert (N := f_equal snd E). cbn [fst snd] in M, N. subst m1 vd1. split; auto. split; [lia|]. split; [apply vw_other; [left; congruence|constructor]|]. split; [reflexivity|]. intro Q. destruct Q. left. congruence. }
    destruct (vfollows b) as [?|] eqn:Ef.
    { assert (M := f_equal fst E). assert (N := f_equal snd E). cbn [fst snd] in M, N. subst m1 vd1. split; auto. split; [lia|]. split; [apply vw_other; [right; congruence|constructor]|]. split; [reflexivity|]. intro Q. destruct Q. right. congruence. }
    assert (NO : ~ other b) by (intros [Q|Q]; congruence).
    destruct (iadd_ok ist vd (canon_good _ Ci) (canon_good _ P2)) as [Cu Vu]; [lia|]. set (u := iadd ist vd) in *. clearbody u.
    destruct (valign b) as [va|] eqn:Eva.
    - assert (AV : canon va /\ pow2 (ival va)) by (destruct H as (_ & _ & _ & A & _); rewrite Eva in A; exact A). destruct AV as [AV1 AV2]. pose proof (pow2_range _ AV2) as RV.
      destruct (bin_align_ok u va Cu (canon_good _ AV1) AV2) as [Cv Vv]; [lia|]. set (v := bin_align u va) in *. clearbody v. pose proof (up_ok (ival u) (ival va) ltac:(lia)) as UV. rewrite <- Vv in UV. assert (UV2 := proj2 UV).
      destruct (iadd_ok vd v (canon_good _ P2) (canon_good _ Cv)) as [Cw Vw]; [lia|]. destruct (isub_ok (iadd vd v) u Cw Cu) as [Cz Vz]; [lia|].
      assert (M := f_equal fst E). assert (N := f_equal snd E). cbn [fst snd] in M, N. subst m1 vd1. split; auto. split; [lia|].
      assert (IV : ivstart (set_ivstart (set_istart m i ist) i v) i = Some v) by (cbn; unfold upd; rewrite Nat.eqb_refl; auto).
      split; [|split; [tauto|]].
      + apply vw_align with (a := va) (x := ival ist) (v := ival v); auto; [rewrite <- Vu; auto|unfold VMA; rewrite IV; auto|]. replace (ival (isub (iadd vd v) u)) with (ival v - ival ist) by lia. constructor.
      + intros _. exists v. split; auto. split; auto. lia.
    - assert (M := f_equal fst E). assert (N := f_equal snd E). cbn [fst snd] in M, N. subst m1 vd1. split; auto. split; [lia|].
      assert (IV : ivstart (set_ivstart (set_istart m i ist) i u) i = Some u) by (cbn; unfold upd; rewrite Nat.eqb_refl; auto).
      split; [|split; [tauto|]].
      + apply vw_plain with (x := ival ist); auto; [unfold VMA; rewrite IV; cbn [option_map]; rewrite Vu; auto|constructor].
      + intros _. exists u. split; auto. split; auto. lia. }
  destruct VD as (D1 & D2 & D3 & D4 & D5). split; [|split; [auto|split; [lia|exists (ival ist); auto]]].
  unfold post, BND. split; auto. split; auto. split; [rewrite La2; lia|]. split; [lia|]. split; [intros j J; apply IS2; intro; subst; apply J; left; auto|]. split; auto. split.
  - unfold ends, endof, maxl. cbn [map fold_right fst snd]. rewrite IL1, La2. lia.
  - split; [|split].
    + intros n [<-|[]]. exists ist. cbn [fst]. split; auto. split; auto. lia.
    + intros n [<-|[]]. cbn [fst snd]. auto.
    + intros n [<-|[]]. cbn [fst snd]. auto.
Qed.
