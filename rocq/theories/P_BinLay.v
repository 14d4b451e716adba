(** Load and virtual addresses of all sections in bin-objfmt.c (C37, C66). *)
From Coq Require Import ZArith List Bool Lia Permutation Sorted.
From Verif Require Import Lib LibBits M_BitVect P_BitVect M_Intnum P_Intnum P_IntnumIO M_BinObj P_BinNum P_BinForest P_BinObj.
Import ListNotations.
Open Scope Z_scope.

Lemma post_nil : forall c la vd m, pre c la vd -> post c [] (ival la) (ival vd) m la vd m.
Proof.
  intros c la vd m (A & B & C & D). unfold post. do 4 (split; [auto|]). split; [intros j _; auto|]. split; [constructor|]. split; [reflexivity|]. split; [intros n []|]. split; intros n [].
Qed.
Lemma post_pre : forall c ms la vd m la' vd' m', post c ms la vd m la' vd' m' -> pre c la' vd'.
Proof. intros c ms la vd m la' vd' m' (A & B & C & D & _). unfold pre. auto. Qed.
Lemma sz_pos : forall g, 1 <= sz g.
Proof. intros [i b fs]. unfold sz. cbn [members length]. lia. Qed.
Definition tree_ok (g : group) : Prop := forall c st la vd m la' vd' m' w, assign_start g st la vd m = (la', vd', m', w) -> NoDup (ids g) ->
  Forall (fun n => sect_ok (snd n)) (members g) -> 0 <= c -> c + sz g <= 2 ^ 65 -> canon st -> Z.abs (ival st) <= BND c -> pre c la vd ->
  post (c + sz g) (members g) (ival la) (ival vd) m la' vd' m' /\ placed (LMA m') (ival st) g.
Lemma assign_list_ok : forall tmp fs, Forall tree_ok fs -> forall c la vd m w la' vd' m' w', assign_list tmp fs (la, vd, m, w) = (la', vd', m', w') -> NoDup (fids fs) ->
  Forall (fun n => sect_ok (snd n)) (fmembers fs) -> 0 <= c -> c + fsz fs <= 2 ^ 65 -> canon tmp -> Z.abs (ival tmp) <= BND c -> pre c la vd ->
  post (c + fsz fs) (fmembers fs) (ival la) (ival vd) m la' vd' m' /\ Forall (placed (LMA m') (ival tmp)) fs.
Proof.
  intros tmp fs H. induction H as [|f r Hf Hr IH]; intros c la vd m w la' vd' m' w' E N S C1 C2 Ct Bt P.
  - cbn [assign_list] in E. injection E as <- <- <- <-. split; [|constructor]. replace (c + fsz []) with c by (cbn; lia). apply post_nil; auto.
  - cbn [assign_list] in E. destruct (assign_start f tmp la vd m) as [[[la1 vd1] m1] w1] eqn:E1. rewrite fids_cons in N. unfold fmembers in S. cbn [flat_map] in S. apply Forall_app in S. destruct S as [S1 S2].
    assert (Q : fsz (f :: r) = sz f + fsz r) by (unfold fsz, sz, fmembers; cbn [flat_map]; rewrite app_length; lia). pose proof (sz_pos f) as SP. assert (0 <= fsz r) by (unfold fsz; lia).
    destruct (Hf c tmp la vd m la1 vd1 m1 w1 E1 (NoDup_app_l _ _ _ N) S1 C1 ltac:(lia) Ct Bt P) as [P1 P2]. pose proof (BND_mono c (c + sz f) ltac:(lia)).
    destruct (IH (c + sz f) la1 vd1 m1 (w ++ w1) la' vd' m' w' E (NoDup_app_r _ _ _ N) S2 ltac:(lia) ltac:(lia) Ct ltac:(lia) (post_pre _ _ _ _ _ _ _ _ P1)) as [P3 P4].
    assert (MF : fmembers (f :: r) = members f ++ fmembers r) by reflexivity. split.
    + rewrite MF, Q, Z.add_assoc. eapply post_app; [| |exact P1|exact P3]; [lia|]. rewrite map_app. exact N.
    + constructor; auto. eapply placed_ext; [|exact P2]. destruct P3 as (_ & _ & _ & _ & K & _). apply (keeps_agree _ _ _ _ K). intros i I J. eapply NoDup_app_disj; [exact N|exact J|exact I].
Qed.
Lemma assign_tree : forall g, tree_ok g.
Proof.
  induction g as [i b fs IH] using group_ind2. intros c st la vd m la' vd' m' w E N S C1 C2 Cs Bs P. rewrite assign_start_eq in E. cbv zeta in E.
  destruct (assign_v i b (bin_align st (lma_align b)) vd (set_istart m i (bin_align st (lma_align b)))) as [m1 vd1] eqn:Ev.
  unfold ids in N. cbn [members map fst] in N. cbn [members] in S. inversion_clear N as [|? ? N1 N2]. inversion_clear S as [|? ? S1 S2]. cbn [snd] in S1.
  assert (Q : sz (Group i b fs) = 1 + fsz fs) by (unfold sz, fsz, fmembers; cbn [members length]; lia). assert (0 <= fsz fs) by (unfold fsz; lia).
  destruct (node_ok c i b st la vd m m1 vd1 S1 ltac:(lia) Cs Bs P Ev) as (P1 & T1 & T2 & x & X1 & X2 & X3).
  destruct (assign_list_ok _ fs IH (c + 1) _ vd1 m1 _ la' vd' m' w E N2 S2 ltac:(lia) ltac:(lia) T1 T2 (post_pre _ _ _ _ _ _ _ _ P1)) as [P2 P3].
  assert (MF : members (Group i b fs) = [(i, b)] ++ fmembers fs) by reflexivity. split.
  - rewrite MF, Q, Z.add_assoc. eapply post_app; [| |exact P1|exact P2]; [lia|]. cbn [app map fst]. constructor; auto.
  - apply placed_eq. exists x. split; [|split; [auto|rewrite <- X3; auto]]. destruct P2 as (_ & _ & _ & _ & K & _). unfold LMA in *. destruct (K i N1) as [-> _]. auto.
Qed.

(** The top level groups, in order. *)
Inductive rplaced (I : nat -> option Z) (m0 : mem) : Z -> list group -> Prop :=
| rp_nil : forall la, rplaced I m0 la []
| rp_cons : forall la g r, placed I (match LMA m0 (gid g) with Some s => s | None => la end) g ->
    rplaced I m0 (maxl la (ends I (members g))) r -> rplaced I m0 la (g :: r).
Lemma assign_all_ok : forall R c la vd m0 m m' w, assign_all R la la vd m = (m', w) -> NoDup (fids R) -> Forall (fun n => sect_ok (snd n)) (fmembers R) ->
  0 <= c -> c + fsz R <= 2 ^ 65 -> pre c la vd -> (forall n, In n (fmembers R) -> istart m (fst n) = istart m0 (fst n)) ->
  (forall n s, In n (fmembers R) -> istart m0 (fst n) = Some s -> canon s /\ Z.abs (ival s) <= 2 ^ 200) ->
  exists la' vd', post (c + fsz R) (fmembers R) (ival la) (ival vd) m la' vd' m' /\ rplaced (LMA m') m0 (ival la) R.
Proof.
  induction R as [|g r IH]; intros c la vd m0 m m' w E N S C1 C2 P K0 K1.
  - cbn [assign_all] in E. injection E as <- <-. exists la, vd. split; [|constructor]. replace (c + fsz []) with c by (cbn; lia). apply post_nil; auto.
  - cbn [assign_all] in E. assert (MF : fmembers (g :: r) = members g ++ fmembers r) by reflexivity. rewrite MF in *. rewrite fids_cons in N. apply Forall_app in S. destruct S as [S1 S2].
    set (st := match istart m (gid g) with Some s => s | None => la end) in *. destruct (assign_start g st la vd m) as [[[la1 vd1] m1] w1] eqn:E1. destruct (assign_all r la1 la1 vd1 m1) as [m2 w2] eqn:E2. injection E as <- <-.
    assert (Q : fsz (g :: r) = sz g + fsz r) by (unfold fsz, sz; rewrite MF, app_length; lia). pose proof (sz_pos g) as SP. assert (0 <= fsz r) by (unfold fsz; lia).
    assert (G0 : In (root g) (members g ++ fmembers r)) by (apply in_or_app; left; apply root_member).
    assert (CS : canon st /\ Z.abs (ival st) <= BND c /\ ival st = match LMA m0 (gid g) with Some s => s | None => ival la end).
    { unfold st, LMA. pose proof (K0 (root g) G0) as K. pose proof (K1 (root g)) as K'. cbn [root fst] in K, K'. rewrite K. destruct (istart m0 (gid g)) as [s|].
      - destruct (K' s G0 eq_refl) as [A B]. split; auto. split; [unfold BND; lia|reflexivity].
      - destruct P as (A & _ & B & _). auto. }
    destruct CS as (CS1 & CS2 & CS3). clearbody st.
    destruct (assign_tree g c st la vd m la1 vd1 m1 w1 E1 (NoDup_app_l _ _ _ N) S1 C1 ltac:(lia) CS1 CS2 P) as [P1 P2].
    assert (KK : keeps (ids g) m m1) by (apply P1).
    destruct (IH (c + sz g) la1 vd1 m0 m1 m2 w2 E2 (NoDup_app_r _ _ _ N) S2 ltac:(lia) ltac:(lia) (post_pre _ _ _ _ _ _ _ _ P1)) as (la' & vd' & P3 & P4).
    { intros n I. destruct (KK (fst n)) as [-> _]; [|apply K0; apply in_or_app; auto]. intro J. eapply NoDup_app_disj; [exact N|exact J|]. apply in_map; auto. }
    { intros n s I. apply K1. apply in_or_app; auto. }
    exists la', vd'. assert (K3 : keeps (fids r) m1 m2) by (apply P3). assert (AG : agree (ids g) (LMA m1) (LMA m2)) by (apply (keeps_agree _ _ _ _ K3); intros i I J; eapply NoDup_app_disj; [exact N|exact J|exact I]). split.
    + rewrite Q, Z.add_assoc. eapply post_app; [| |exact P1|exact P3]; [lia|]. rewrite map_app. exact N.
    + constructor; [rewrite <- CS3; eapply placed_ext; eauto|]. replace (maxl (ival la) (ends (LMA m2) (members g))) with (ival la1); auto. destruct P1 as (_ & _ & _ & _ & _ & _ & -> & _). f_equal. apply ends_ext. auto.
Qed.

(** * Sorting *)
Definition startof (m : mem) (g : group) : option Z := LMA m (gid g).
Definition with_start (m : mem) (g : group) : bool := match istart m (gid g) with Some _ => true | None => false end.
Definition late (m : mem) (g : group) : bool := negb (with_start m g) && bss (gsect g).
Definition plain (m : mem) (g : group) : bool := negb (with_start m g) && negb (bss (gsect g)).
Definition by_start (m : mem) (g h : group) : Prop := forall x y, istart m (gid g) = Some x -> istart m (gid h) = Some y -> ival x <= ival y.
Lemma insert_perm : forall m s g l, Permutation (insert_sorted m s g l) (g :: l).
Proof.
  induction l as [|h t IH]; cbn [insert_sorted]; auto. destruct (istart m (gid h)) as [s'|]; [destruct (0 <? compare s' s); auto|]; rewrite IH; apply perm_swap.
Qed.
Lemma insert_filter : forall m s g l (p : group -> bool), p g = false -> filter p (insert_sorted m s g l) = filter p l.
Proof.
  intros m s g l p Hp. induction l as [|h t IH]; cbn [insert_sorted filter]; [rewrite Hp; auto|]. destruct (istart m (gid h)) as [s'|]; [destruct (0 <? compare s' s)|]; cbn [filter]; rewrite ?Hp, ?IH; auto.
Qed.
Lemma insert_sorts : forall m s g l, istart m (gid g) = Some s -> canon s -> (forall h x, In h l -> istart m (gid h) = Some x -> canon x) ->
  StronglySorted (by_start m) (filter (with_start m) l) -> StronglySorted (by_start m) (filter (with_start m) (insert_sorted m s g l)).
Proof.
  intros m s g l G C K. assert (WG : with_start m g = true) by (unfold with_start; rewrite G; auto). induction l as [|h t IH]; intros S; cbn [insert_sorted].
  - cbn [filter]. rewrite WG. constructor; [constructor|constructor].
  - assert (WH : with_start m h = match istart m (gid h) with Some _ => true | None => false end) by reflexivity. cbn [filter] in S. assert (Kt : forall h0 x, In h0 t -> istart m (gid h0) = Some x -> canon x) by (intros; eapply K; [right|]; eauto). destruct (istart m (gid h)) as [s'|] eqn:Eh.
    + rewrite WH in S. pose proof (K h s' ltac:(left; auto) Eh) as C'. rewrite compare_ok by auto. inversion_clear S as [|? ? S1 S2]. destruct (Z.ltb_spec 0 (Z.sgn (ival s' - ival s))).
      * cbn [filter]. rewrite WG, WH. constructor; [constructor; auto|]. constructor; [intros x y X Y; rewrite G in X; rewrite Eh in Y; injection X as <-; injection Y as <-; lia|].
        rewrite Forall_forall in *. intros z Iz x y X Y. rewrite G in X. injection X as <-. specialize (S2 z Iz s' y Eh Y). lia.
      * cbn [filter]. rewrite WH. constructor; [auto|]. rewrite Forall_forall in *. intros z Iz x y X Y. rewrite Eh in X. injection X as <-.
        apply filter_In in Iz. destruct Iz as [Iz Wz]. apply (Permutation_in _ (insert_perm m s g t)) in Iz. destruct Iz as [<-|Iz]; [rewrite G in Y; injection Y as <-; lia|]. apply (S2 z); auto. apply filter_In. auto.
    + rewrite WH in S. cbn [filter]. rewrite WH. auto.
Qed.
Lemma sort_ok : forall m T S B, (forall h x, In h (T ++ S) -> istart m (gid h) = Some x -> canon x) -> Forall (fun g => late m g = false) S -> StronglySorted (by_start m) (filter (with_start m) S) ->
  exists A, sort_groups m T S B = A ++ B ++ filter (late m) T /\ Forall (fun g => late m g = false) A /\
    filter (plain m) A = filter (plain m) (S ++ T) /\ StronglySorted (by_start m) (filter (with_start m) A) /\ Permutation A (S ++ filter (fun g => negb (late m g)) T).
Proof.
  intros m. induction T as [|g t IH]; intros S B K F SS; cbn [sort_groups].
  - exists S. cbn [filter]. rewrite !app_nil_r. auto.
  - destruct (istart m (gid g)) as [s|] eqn:Eg.
    + assert (WG : with_start m g = true) by (unfold with_start; rewrite Eg; auto). assert (LG : late m g = false) by (unfold late; rewrite WG; auto). assert (PG : plain m g = false) by (unfold plain; rewrite WG; auto).
      destruct (IH (insert_sorted m s g S) B) as (A & E & A1 & A2 & A3 & A4).
      * intros h x I X. apply (K h x); auto. apply in_app_or in I. destruct I as [I|I]; [right; apply in_or_app; auto|]. apply (Permutation_in _ (insert_perm m s g S)) in I. destruct I as [<-|I]; [left; auto|right; apply in_or_app; auto].
      * eapply Permutation_Forall; [apply Permutation_sym, insert_perm|]. constructor; auto.
      * apply insert_sorts; auto; [eapply K; [left; auto|auto]|]. intros h x I X. apply (K h x); auto. right. apply in_or_app; auto.
      * exists A. rewrite E. cbn [filter]. rewrite LG. cbn [negb]. do 2 (split; [auto|]). split; [rewrite A2, !filter_app; cbn [filter]; rewrite PG, insert_filter by auto; auto|]. split; auto. rewrite A4, (insert_perm m s g S). cbn [app]. apply Permutation_middle.
    + assert (WG : with_start m g = false) by (unfold with_start; rewrite Eg; auto). destruct (bss (gsect g)) eqn:Bg.
      * assert (LG : late m g = true) by (unfold late; rewrite WG, Bg; auto). assert (PG : plain m g = false) by (unfold plain; rewrite WG, Bg; auto).
        destruct (IH S (B ++ [g])) as (A & E & A1 & A2 & A3 & A4); auto; [intros h x I X; apply (K h x); auto; right; auto|]. exists A. rewrite E. cbn [filter]. rewrite LG. cbn [negb]. split; [rewrite <- app_assoc; auto|]. split; [auto|]. split; [rewrite A2, !filter_app; cbn [filter]; rewrite PG; auto|auto].
      * assert (LG : late m g = false) by (unfold late; rewrite WG, Bg; auto). assert (PG : plain m g = true) by (unfold plain; rewrite WG, Bg; auto).
        destruct (IH (S ++ [g]) B) as (A & E & A1 & A2 & A3 & A4).
        -- intros h x I X. apply (K h x); auto. apply in_app_or in I. destruct I as [I|I]; [right; apply in_or_app; auto|]. apply in_app_or in I. destruct I as [I|[<-|[]]]; [right; apply in_or_app; auto|left; auto].
        -- apply Forall_app. auto.
        -- rewrite filter_app. cbn [filter]. rewrite WG, app_nil_r. auto.
        -- exists A. rewrite E. cbn [filter]. rewrite LG. cbn [negb]. rewrite <- app_assoc in *. auto.
Qed.
