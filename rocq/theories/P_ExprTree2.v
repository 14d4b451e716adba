(** Whole expression trees, continued: the recursion, distances, constants (C30-C32, C55, C56). *)
From Coq Require Import ZArith List Bool Lia Permutation Arith Relations.
From Verif Require Import Lib M_BitVect P_BitVect P_BitVectIO M_Intnum P_Intnum M_Expr P_Expr P_ExprLevel P_ExprTree.
Import ListNotations.
Open Scope Z_scope.

Lemma leaves_mono : forall (P Q : item -> Prop) t, (forall x, P x -> Q x) -> leaves P t -> leaves Q t.
Proof.
  intros P Q t H. induction t as [| | | | | | |o ts IH] using item_ind2; intros L; auto. - exact (H _ L). - exact (H _ L). - exact (H _ L). - exact (H _ L).
  - apply leaves_expr in L. apply leaves_expr. rewrite Forall_forall in *. auto.
Qed.
(** * SEG of SEG:OFF *)
Lemma seg_of_ok : forall e, ready (eitem e) -> ready (eitem (seg_of e)) /\ (forall E, le E (eitem e) (eitem (seg_of e))) /\ forall P, leaves P (eitem e) -> leaves P (eitem (seg_of e)).
Proof.
  intros [o ts] RD. destruct o; try (split; [exact RD|split; [intros; apply le_refl|auto]]). destruct ts as [|[| | | | | | |o' s] r]; try (split; [exact RD|split; [intros; apply le_refl|auto]]).
  destruct o'; try (split; [exact RD|split; [intros; apply le_refl|auto]]). destruct s as [|a s]; [split; [exact RD|split; [intros; apply le_refl|auto]]|].
  cbn [eitem fst snd ready] in RD. destruct RD as [A G]. cbn in A. destruct r; [|discriminate A]. inversion G as [|? ? G1 _]; subst. apply good_expr in G1. destruct G1 as (A1 & _ & G1). cbn in A1. destruct s as [|b [|]]; try discriminate A1. inversion G1 as [|? ? Ga G2]; subst. inversion G2 as [|? ? Gb _]; subst.
  split; [|split].
  - cbn [seg_of eitem fst snd ready]. split; [reflexivity|]. constructor; [|constructor]. apply good_ident. exact Ga.
  - intros E v H. cbn [seg_of eitem fst snd] in *. apply ev_ident, ev_ident. apply ev_expr in H. destruct H as (vs & B & O). inversion B as [|? v1 ? ? B1 B2]; subst. inversion B2; subst. apply ev_expr in B1. destruct B1 as (ws & B3 & B4). inversion B3 as [|? w1 ? ? B5 B6]; subst. inversion B6 as [|? w2 ? ? B7 B8]; subst. inversion B8; subst.
    cbn [opsem] in *. destruct w1 as [x|], w2 as [y|]; try discriminate B4. injection B4 as <-. injection O as <-. exact B5.
  - intros P L. cbn [seg_of eitem fst snd] in *. apply leaves_expr in L. inversion L as [|? ? L1 _]; subst. apply leaves_expr in L1. inversion L1; subst. apply leaves_expr. constructor; [|constructor]. apply leaves_expr. constructor; [assumption|constructor].
Qed.

(** * The recursion *)
Section Rec.
Variable C : env -> list (Z * Z) -> Prop.
Variable Pf : list (Z * Z) -> item -> Prop.
Hypothesis Cmono : forall E st ext, C E (st ++ ext) -> C E st.
Hypothesis Pmono : forall st ext x, Pf st x -> Pf (st ++ ext) x.
Definition step (st st' : list (Z * Z)) (t t' : item) : Prop :=
  (exists ext, st' = st ++ ext) /\ (forall E, C E st' -> le E t t') /\ (leaves (Pf st) t -> leaves (Pf st') t').
Lemma step_refl : forall st t, step st st t t.
Proof. intros st t. split; [exists []; rewrite app_nil_r; auto|]. split; auto. intros. apply le_refl. Qed.
Lemma step_trans : forall s1 s2 s3 a b c, step s1 s2 a b -> step s2 s3 b c -> step s1 s3 a c.
Proof.
  intros s1 s2 s3 a b c ([e1 ->] & L1 & P1) ([e2 ->] & L2 & P2). split; [exists (e1 ++ e2); rewrite app_assoc; auto|]. split; auto. intros E H. eapply le_trans; [apply L1; eapply Cmono; exact H|auto].
Qed.
Lemma step_pure : forall st a b, (forall E, le E a b) -> (forall P, leaves P a -> leaves P b) -> step st st a b.
Proof. intros st a b H L. split; [exists []; rewrite app_nil_r; auto|]. split; auto. Qed.
Definition fok (F : item -> list (Z * Z) -> res (item * list (Z * Z))) : Prop :=
  forall a st a' st', is_expr a = true -> shaped a -> F a st = Fin (a', st') -> good a' /\ step st st' a a'.
Lemma leaves_ext : forall st ext t, leaves (Pf st) t -> leaves (Pf (st ++ ext)) t.
Proof. intros st ext t. apply leaves_mono. intros. apply Pmono. auto. Qed.
Lemma over_ok : forall F, fok F -> forall l st l' st', Forall shaped l -> over F l st = Fin (l', st') ->
  length l' = length l /\ Forall good l' /\ (exists ext, st' = st ++ ext) /\ (forall E, C E st' -> Forall2 (le E) l l') /\ (Forall (leaves (Pf st)) l -> Forall (leaves (Pf st')) l').
Proof.
  intros F K. induction l as [|a r IH]; intros st l' st' S H; cbn [over] in H.
  - injection H as <- <-. split; auto. split; auto. split; [exists []; rewrite app_nil_r; auto|]. split; auto.
  - inversion S as [|? ? S1 S2]; subst. destruct (match a with TExpr _ _ => F a st | _ => Fin (a, st) end) as [[a' st1]| |] eqn:X; try discriminate.
    assert (ST : good a' /\ step st st1 a a').
    { destruct (is_expr a) eqn:Y; [apply K; auto; destruct a; try discriminate Y; exact X|]. assert (Q : Fin (a, st) = Fin (a', st1)) by (destruct a; try discriminate Y; exact X). injection Q as <- <-. split; [|apply step_refl]. destruct a; try discriminate Y; auto. }
    destruct ST as [Ga ([e1 ->] & L1 & P1)]. destruct (over F r (st ++ e1)) as [[r' st2]| |] eqn:O; try discriminate. injection H as <- <-. apply IH in O; auto. destruct O as (LN & Gr & [e2 ->] & L2 & P2).
    split; [cbn [length]; lia|]. split; [constructor; auto|]. split; [exists (e1 ++ e2); rewrite app_assoc; auto|]. split.
    + intros E H. constructor; auto. apply L1. eapply Cmono. exact H.
    + intros FL. inversion FL; subst. constructor; [apply leaves_ext; auto|]. apply P2. eapply Forall_impl; [|eassumption]. intros. apply leaves_ext; auto.
Qed.
(** one node: negation, the terms, SEG, levelling *)
Definition node (F : item -> list (Z * Z) -> res (item * list (Z * Z))) (srm : bool) (t : item) (st : list (Z * Z)) : res (expr * list (Z * Z)) :=
  let (o, ts) := xform_neg (of_item t) in
  match over F ts st with
  | Fin (ts', st1) => match level_op true true srm (seg_of (o, ts')) with Fin e => Fin (e, st1) | Fault => Fault | Deep => Deep end
  | Fault => Fault
  | Deep => Deep
  end.
Lemma node_ok : forall F srm t st e st', fok F -> is_expr t = true -> shaped t -> node F srm t st = Fin (e, st') -> good (eitem e) /\ step st st' t (eitem e).
Proof.
  intros F srm t st e st' K X S H. destruct t as [| | | | | | |o0 ts0]; try discriminate X. unfold node in H. cbn [of_item] in H.
  pose proof (xform_neg_shaped o0 ts0 S) as S1. pose proof (fun E => xform_neg_le E o0 ts0) as L0. pose proof (fun P => xform_neg_leaves P o0 ts0) as P0. destruct (xform_neg (o0, ts0)) as [o ts]. cbn [eitem fst snd] in *.
  apply shaped_expr in S1. destruct S1 as [A1 S1]. destruct (over F ts st) as [[ts' st1]| |] eqn:O; try discriminate. apply over_ok in O; auto. destruct O as (LN & G & EXT & L1 & P1).
  assert (RD : ready (eitem (o, ts'))) by (cbn; split; [rewrite LN; auto|auto]). destruct (seg_of_ok (o, ts') RD) as (RD2 & L2 & P2).
  destruct (level_op true true srm (seg_of (o, ts'))) as [e1| |] eqn:LO; try discriminate. injection H as <- <-. destruct (level_op_ok srm _ _ RD2 LO) as [G3 L3]. split; auto.
  split; auto. split.
  - intros E CE. eapply le_trans; [apply L0|]. eapply le_trans; [apply le_expr, (L1 E CE)|]. eapply le_trans; [apply L2|]. intros v V. apply L3. exact V.
  - intros LV. apply P0, leaves_expr in LV. apply P1 in LV. apply (lv_level_op _ _ _ _ _ _ (P2 _ (proj2 (leaves_expr _ _ _) LV)) LO).
Qed.
Lemma ltree_node : forall n srm t st, ltree (S n) true true srm t st = match node (ltree n true true srm) srm t st with Fin (e, st') => Fin (eitem e, st') | Fault => Fault | Deep => Deep end.
Proof. intros n srm t st. cbn [ltree]. unfold node. destruct (xform_neg (of_item t)) as [o ts]. destruct (over _ ts st) as [[ts' st1]| |]; auto. destruct (level_op true true srm _) as [[o1 l1]| |]; auto. Qed.
Lemma ltree_ok : forall n srm, fok (ltree n true true srm).
Proof.
  induction n as [|n IH]; intros srm a st a' st' X S H; [discriminate H|]. rewrite ltree_node in H. destruct (node _ srm a st) as [[e s]| |] eqn:N; try discriminate. injection H as <- <-. eapply node_ok; eauto.
Qed.
Definition xok (x : xform) : Prop := forall e st e' st', shaped (eitem e) -> x e st = (e', st') -> shaped (eitem e') /\ step st st' (eitem e) (eitem e').
Lemma xs_ok : forall xs, Forall xok xs -> forall e st e' st', shaped (eitem e) -> fold_left (fun s x => x (fst s) (snd s)) xs (e, st) = (e', st') -> shaped (eitem e') /\ step st st' (eitem e) (eitem e').
Proof.
  intros xs F. induction F as [|x xs K F IH]; intros e st e' st' S H; cbn [fold_left fst snd] in H.
  - injection H as <- <-. split; auto. apply step_refl.
  - destruct (x e st) as [e1 s1] eqn:Q. destruct (K _ _ _ _ S Q) as [S1 T1]. destruct (IH _ _ _ _ S1 H) as [S2 T2]. split; auto. eapply step_trans; eauto.
Qed.
Lemma ltreex_node : forall n srm xs t st, ltreex (S n) true true srm xs t st =
  match node (ltreex n true true srm xs) srm t st with
  | Fin (e1, st1) => let '((o2, l2), st2) := fold_left (fun s x => x (fst s) (snd s)) xs (e1, st1) in ltree (S (depth (TExpr o2 l2))) true true srm (TExpr o2 l2) st2
  | Fault => Fault | Deep => Deep end.
Proof. intros n srm xs t st. cbn [ltreex]. unfold node. destruct (xform_neg (of_item t)) as [o ts]. destruct (over _ ts st) as [[ts' st1]| |]; auto. destruct (level_op true true srm _) as [e1| |]; auto. Qed.
Lemma ltreex_ok : forall n srm xs, Forall xok xs -> fok (ltreex n true true srm xs).
Proof.
  intros n srm xs K. induction n as [|n IH]; intros a st a' st' X S H; [discriminate H|]. rewrite ltreex_node in H. destruct (node _ srm a st) as [[e1 s1]| |] eqn:N; try discriminate. apply node_ok in N; auto. destruct N as [G1 T1].
  match type of H with (let '(_, _) := ?f in _) = _ => destruct f as [[o2 l2] s2] eqn:Q end. apply xs_ok in Q; auto using good_shaped. destruct Q as [S2 T2]. apply (ltree_ok _ _ _ _ _ _ (eq_refl : is_expr (TExpr o2 l2) = true)) in H; auto. destruct H as [G3 T3]. split; auto. eapply step_trans; [exact T1|]. eapply step_trans; [exact T2|exact T3].
Qed.

(** * Distances *)
Section Distances.
Variable label : Z -> option Z.
Variable sect : Z -> Z.
Variable cb : Z -> Z -> list (Z * Z) -> option (item * list (Z * Z)).
Hypothesis Clab : forall E st, C E st -> env_labels label E.
Hypothesis cb_ok : forall p p2 st t' st', cb p p2 st = Some (t', st') ->
  (exists ext, st' = st ++ ext) /\ live t' = true /\ shaped t' /\ leaves (Pf st') t' /\ forall E, C E st' -> exists z, ev E t' = Some (VNum z) /\ wrap256 z = wrap256 (bcv E p2 - bcv E p).
Definition upd (i : nat) (x : item) (l : list item) : list item := firstn i l ++ x :: skipn (S i) l.
Definition sv (E : env) (t : item) : Z := match ev E t with Some (VNum z) => z | _ => 0 end.
Definition total (E : env) (l : list item) : Z := fold_right (fun t s => sv E t + s) 0 l.
Lemma upd_mid : forall A t B x, upd (length A) x (A ++ t :: B) = A ++ x :: B.
Proof. intros. unfold upd. destruct (mid_split A t B) as [-> ->]. reflexivity. Qed.
Lemma nth_mid : forall i (l : list item) t, nth_error l i = Some t -> exists A B, l = A ++ t :: B /\ length A = i.
Proof. intros i l t H. apply nth_error_split in H. exact H. Qed.
Lemma total_app : forall E l l', total E (l ++ l') = total E l + total E l'.
Proof. intros E l l'. unfold total. induction l; cbn [app fold_right]; lia. Qed.
Lemma total_upd : forall E i l t x, nth_error l i = Some t -> total E (upd i x l) = total E l - sv E t + sv E x.
Proof. intros E i l t x H. apply nth_mid in H. destruct H as (A & B & -> & <-). rewrite upd_mid, !total_app. cbn [total fold_right]. lia. Qed.
Lemma upd_len : forall i l t x, nth_error l i = Some t -> length (upd i x l) = length l.
Proof. intros i l t x H. apply nth_mid in H. destruct H as (A & B & -> & <-). rewrite upd_mid, !app_length. reflexivity. Qed.
Lemma upd_all : forall (Q : item -> Prop) i l t x, nth_error l i = Some t -> Forall Q l -> Q x -> Forall Q (upd i x l).
Proof. intros Q i l t x H F X. apply nth_mid in H. destruct H as (A & B & -> & <-). rewrite upd_mid. apply Forall_app in F. destruct F as [F1 F2]. inversion F2; subst. apply Forall_app. auto. Qed.
Lemma upd_same : forall i l t x, nth_error l i = Some t -> nth_error (upd i x l) i = Some x.
Proof. intros i l t x H. apply nth_mid in H. destruct H as (A & B & -> & <-). rewrite upd_mid, nth_error_app2, Nat.sub_diag by lia. reflexivity. Qed.
Lemma upd_other : forall i j l t x, nth_error l i = Some t -> i <> j -> nth_error (upd i x l) j = nth_error l j.
Proof.
  intros i j l t x H N. apply nth_mid in H. destruct H as (A & B & -> & <-). rewrite upd_mid. destruct (Nat.lt_ge_cases j (length A)); [rewrite !nth_error_app1; auto|]. rewrite !nth_error_app2 by lia. destruct (j - length A)%nat eqn:Q; [lia|]. reflexivity.
Qed.
Lemma match_pos_ok : forall p l st l' st', match_pos _ label sect cb p l st = Some (l', st') ->
  exists j t p2 t', nth_error l j = Some t /\ bc_of label t = Some p2 /\ cb p p2 st = Some (t', st') /\ l' = upd j t' l.
Proof.
  intros p l. induction l as [|t r IH]; intros st l' st' H; cbn [match_pos] in H; [discriminate|].
  assert (NX : (match match_pos _ label sect cb p r st with Some (r', st'0) => Some (t :: r', st'0) | None => None end) = Some (l', st') -> exists j t0 p2 t', nth_error (t :: r) j = Some t0 /\ bc_of label t0 = Some p2 /\ cb p p2 st = Some (t', st') /\ l' = upd j t' (t :: r)).
  { intros Q. destruct (match_pos _ label sect cb p r st) as [[r' s]|] eqn:M; [|discriminate]. injection Q as <- <-. destruct (IH _ _ _ M) as (j & t0 & p2 & t' & A & B & D & ->). exists (S j), t0, p2, t'. auto. }
  destruct (bc_of label t) as [p2|] eqn:B; [|auto]. destruct (sect p2 =? sect p); [|auto]. destruct (cb p p2 st) as [[t' s]|] eqn:Q; [|auto]. injection H as <- <-. exists 0%nat, t, p2, t'. auto.
Qed.
Lemma neg_bc_inv : forall t p, neg_bc label t = Some p -> exists n x, (t = TExpr MUL [TInt n; x] \/ t = TExpr MUL [x; TInt n]) /\ is_neg1 n = true /\ bc_of label x = Some p.
Proof.
  intros t p H. destruct t as [| | | | | | |o ts]; try discriminate H. destruct o; try discriminate H. destruct ts as [|a [|b [|c r]]]; [discriminate H|destruct a; discriminate H| |destruct a; try discriminate H; destruct b; discriminate H].
  cbn [neg_bc] in H. destruct a; try discriminate H; destruct b; try discriminate H; destruct (is_neg1 _) eqn:Q in H; try discriminate H; eexists; eexists; (split; [eauto|]); auto.
Qed.
Lemma bc_val : forall E st x p z, C E st -> bc_of label x = Some p -> ev E x = Some (VNum z) -> z = wrap256 (bcv E p).
Proof.
  intros E st x p z K B V. destruct x; try discriminate B; cbn [bc_of] in B.
  - cbn [ev] in V. rewrite (Clab E st K s p B) in V. cbn [option_map wrapv] in V. congruence.
  - cbn [ev] in V. congruence.
Qed.
Lemma neg1_ev : forall E n z, is_neg1 n = true -> ev E (TInt n) = Some (VNum z) -> z = -1.
Proof. intros E n z H V. apply ev_int in V. destruct V as [K <-]. rewrite is_neg1_ok in H by auto. apply Z.eqb_eq. exact H. Qed.
Lemma neg_val : forall E st t p z, C E st -> neg_bc label t = Some p -> ev E t = Some (VNum z) -> z = wrap256 (- bcv E p).
Proof.
  intros E st t p z K B V. apply neg_bc_inv in B. destruct B as (n & x & T & N & B).
  assert (S : sem E MUL [TInt n; x] z).
  { destruct T as [-> | ->]; apply ev_nary in V; auto; destruct V as (_ & w & Q & S); injection Q as <-; auto. eapply sem_perm; [|exact S]. apply perm_swap. }
  destruct S as (zs & A & D). inversion A as [|? z1 ? ? A1 A2]; subst. inversion A2 as [|? z2 ? ? A3 A4]; subst. inversion A4; subst. apply (neg1_ev E n) in A1; auto. apply (bc_val E st x p) in A3; auto. subst. apply asem_fl in D. destruct D as (_ & _ & D). cbn [fl fold_left comb] in D. rewrite <- D. rewrite wrap_mul_r. f_equal; lia.
Qed.
Definition okd (E : env) (t : item) : Prop := live t = true -> exists z, ev E t = Some (VNum z).
Definition Dv (E : env) (l : list item) (w : Z) : Prop := Forall (okd E) l /\ wrap256 (total E l) = w.
Definition lsh (t : item) : Prop := t = TNone \/ shaped t.
Lemma dist_loop_ok : forall k i l st l' st', dist_loop _ label sect cb k i l st = (l', st') -> Forall lsh l -> (exists j t, nth_error l j = Some t /\ live t = true) ->
  length l' = length l /\ Forall lsh l' /\ (exists j t, nth_error l' j = Some t /\ live t = true) /\ (exists ext, st' = st ++ ext) /\
  (forall E w, C E st' -> Dv E l w -> Dv E l' w) /\ (Forall (leaves (Pf st)) l -> Forall (leaves (Pf st')) l').
Proof.
  assert (REFL : forall l (st : list (Z * Z)), Forall lsh l -> (exists j t, nth_error l j = Some t /\ live t = true) -> length l = length l /\ Forall lsh l /\ (exists j t, nth_error l j = Some t /\ live t = true) /\ (exists ext, st = st ++ ext) /\
    (forall E w, C E st -> Dv E l w -> Dv E l w) /\ (Forall (leaves (Pf st)) l -> Forall (leaves (Pf st)) l)).
  { intros l st F X. split; auto. split; auto. split; auto. split; [exists []; rewrite app_nil_r; auto|]. split; auto. }
  induction k as [|k IH]; intros i l st l' st' H F X; cbn [dist_loop] in H; [injection H as <- <-; apply REFL; auto|].
  destruct (nth_error l i) as [t|] eqn:NI; [|injection H as <- <-; apply REFL; auto].
  destruct (neg_bc label t) as [p|] eqn:NB; [|apply IH in H; auto]. destruct (match_pos _ label sect cb p l st) as [[l1 s1]|] eqn:MP; [|apply IH in H; auto].
  apply match_pos_ok in MP. destruct MP as (j & t0 & p2 & t' & NJ & B & CB & ->). change (firstn i (upd j t' l) ++ TNone :: skipn (S i) (upd j t' l)) with (upd i TNone (upd j t' l)) in H.
  assert (IJ : j <> i). { intros ->. rewrite NI in NJ. injection NJ as ->. apply neg_bc_inv in NB. destruct NB as (n & x & [-> | ->] & _); discriminate B. }
  pose proof (upd_other j i l t0 t' NJ IJ) as NI2. rewrite NI in NI2. destruct (cb_ok _ _ _ _ _ CB) as ([e1 ->] & LV & SH & LP & VA).
  assert (NJ2 : nth_error (upd i TNone (upd j t' l)) j = Some t') by (rewrite (upd_other i j _ t TNone NI2) by auto; apply (upd_same j l t0); auto).
  apply IH in H.
  - destruct H as (LN & F2 & X2 & [e2 ->] & V2 & P2). split; [rewrite LN, (upd_len i _ t), (upd_len j _ t0); auto|]. split; auto. split; auto. split; [exists (e1 ++ e2); rewrite app_assoc; auto|]. split.
    + intros E w CE [D1 D2]. apply V2; auto. assert (CE1 : C E (st ++ e1)) by (eapply Cmono; exact CE). destruct (VA E CE1) as (z & EV & WZ).
      split.
      * apply (upd_all _ i _ t); auto; [apply (upd_all _ j _ t0); auto; intros _; eauto|]. intros Q. discriminate Q.
      * rewrite (total_upd E i _ t) by auto. rewrite (total_upd E j _ t0) by auto. unfold sv at 2 4. cbn [ev]. rewrite EV.
        assert (O1 : okd E t0) by (rewrite Forall_forall in D1; apply D1; apply (nth_error_In _ _ NJ)). assert (O2 : okd E t) by (rewrite Forall_forall in D1; apply D1; apply (nth_error_In _ _ NI)).
        destruct O1 as [z0 E0]; [destruct t0; try discriminate B; reflexivity|]. destruct O2 as [z1 E1]; [apply neg_bc_inv in NB; destruct NB as (n & x & [-> | ->] & _); reflexivity|].
        unfold sv. rewrite E0, E1. rewrite (bc_val E _ _ _ _ CE1 B E0). rewrite (neg_val E _ _ _ _ CE1 NB E1). rewrite <- D2.
        replace (total E l - wrap256 (bcv E p2) + z - wrap256 (- bcv E p) + 0) with (z + (total E l - wrap256 (bcv E p2) - wrap256 (- bcv E p))) by lia. rewrite <- wrap_add_l, WZ, wrap_add_l.
        replace (bcv E p2 - bcv E p + (total E l - wrap256 (bcv E p2) - wrap256 (- bcv E p))) with (- wrap256 (bcv E p2) + (bcv E p2 - bcv E p + total E l + - wrap256 (- bcv E p))) by lia.
        rewrite <- wrap_add_l, wrap_opp, wrap_add_l. replace (- bcv E p2 + (bcv E p2 - bcv E p + total E l + - wrap256 (- bcv E p))) with (- wrap256 (- bcv E p) + (- bcv E p + total E l)) by lia.
        rewrite <- wrap_add_l, wrap_opp, wrap_add_l. f_equal; lia.
    + intros FL. apply P2. apply (upd_all _ i _ t); auto; [|exact I]. apply (upd_all _ j _ t0); auto. eapply Forall_impl; [|exact FL]. intros. apply leaves_ext. auto.
  - apply (upd_all _ i _ t); auto; [|left; auto]. apply (upd_all _ j _ t0); auto. right. exact SH.
  - exists j, t'. auto.
Qed.
Lemma sums : forall E l w, Dv E l w -> exists zs, evn E (filter live l) zs /\ wrap256 (fold_right Z.add 0 zs) = w.
Proof.
  intros E l w [F T]. assert (K : exists zs, evn E (filter live l) zs /\ fold_right Z.add 0 zs = total E l).
  { clear T. induction F as [|t l O F IH]; [exists []; split; [constructor|reflexivity]|]. destruct IH as (zs & A & B). cbn [filter total fold_right]. fold (total E l). destruct (live t) eqn:L.
    - destruct (O L) as [z V]. exists (z :: zs). split; [constructor; auto|]. cbn [fold_right]. unfold sv. rewrite V, B. auto.
    - exists zs. split; auto. destruct t; try discriminate L. cbn. lia. }
  destruct K as (zs & A & B). exists zs. split; auto. congruence.
Qed.
Lemma dist_xok : xok (bc_dist_base _ label sect cb).
Proof.
  intros [o ts] st [o' l'] st' S H. cbn [bc_dist_base] in H. destruct (op_eq o ADD) eqn:O; [|injection H as <- <- <-; split; [exact S|apply step_refl]]. apply op_eq_ok in O. subst o.
  cbn [eitem fst snd] in *. apply shaped_expr in S. destruct S as [A F]. cbn in A. destruct (dist_loop _ label sect cb (length ts) 0 ts st) as [l s1] eqn:D.
  assert (F1 : Forall lsh ts) by (eapply Forall_impl; [|exact F]; intros; right; auto).
  assert (X : exists j t, nth_error ts j = Some t /\ live t = true). { destruct ts as [|t r]; [cbn in A; lia|]. exists 0%nat, t. split; auto. inversion F; subst. destruct t; auto. }
  destruct (dist_loop_ok _ _ _ _ _ _ D F1 X) as (LN & F2 & (j & t & NJ & LT) & EXT & V & P).
  assert (NE : filter live l <> []). { intros Q. assert (In t (filter live l)) as IN by (apply filter_In; split; auto; apply (nth_error_In _ _ NJ)). rewrite Q in IN. destruct IN. }
  assert (SHL : Forall shaped (filter live l)). { apply Forall_forall. intros x IN. apply filter_In in IN. destruct IN as [IN LX]. rewrite Forall_forall in F2. destruct (F2 x IN) as [->|]; [discriminate|auto]. }
  assert (L1 : Nat.eqb (length l) 1 = false) by (apply Nat.eqb_neq; lia). rewrite L1, andb_true_r in H.
  assert (VAL : forall E v, C E s1 -> ev E (TExpr ADD ts) = Some v -> exists w zs, v = VNum w /\ evn E (filter live l) zs /\ wrap256 (fold_right Z.add 0 zs) = w).
  { intros E v CE H1. apply ev_nary in H1; auto. destruct H1 as (_ & w & -> & zs & A1 & B1). apply asem_fl in B1. destruct B1 as (_ & _ & B1). rewrite fl_add in B1 by (apply (evn_R E ts); auto). exists w.
    assert (DV : Dv E ts w). { subst w. clear - A1. split.
      - unfold evn in A1. induction A1; constructor; auto. intros _. eauto.
      - f_equal. unfold evn in A1. induction A1; cbn [total fold_right]; auto. fold (total E l). rewrite IHA1. unfold sv. rewrite H. auto. }
    destruct (sums E l w (V E w CE DV)) as (zs2 & A2 & B2). eauto. }
  destruct (Nat.eqb_spec (length (filter live l)) 1) as [L|L].
  - destruct (filter live l) as [|x [|]] eqn:Q; try discriminate L. injection H as <- <- <-. split; [apply shaped_expr; split; auto|]. split; auto. split.
    + intros E CE v H1. destruct (VAL E v CE H1) as (w & zs & -> & A1 & B1). inversion A1 as [|? z ? ? A2 A3]; subst. inversion A3; subst. cbn [fold_right]. apply ev_ident. rewrite A2. rewrite Z.add_0_r. rewrite wrap_id; auto. apply (ev_R E x _ A2).
    + intros LV. apply leaves_expr in LV. apply P in LV. apply leaves_expr. rewrite <- Q. apply Forall_forall. intros y IN. apply filter_In in IN. rewrite Forall_forall in LV. apply LV. tauto.
  - injection H as <- <- <-. assert (L2 : (2 <= length (filter live l))%nat) by (destruct (filter live l) as [|? [|]]; cbn [length] in *; [congruence|congruence|lia]). split; [apply shaped_expr; split; auto|]. split; auto. split.
    + intros E CE v H1. destruct (VAL E v CE H1) as (w & zs & -> & A1 & B1). apply sem_ge; auto. rewrite <- B1. apply sem_add; auto.
    + intros LV. apply leaves_expr in LV. apply P in LV. apply leaves_expr. apply Forall_forall. intros y IN. apply filter_In in IN. rewrite Forall_forall in LV. apply LV. tauto.
Qed.
End Distances.
End Rec.
