(** Levelling one node keeps its value and its shape (C30, C55). *)
From Coq Require Import ZArith List Bool Lia Permutation Arith.
From Verif Require Import Lib M_BitVect P_BitVect P_BitVectIO M_Intnum P_Intnum M_Expr P_Expr.
Import ListNotations.
Open Scope Z_scope.

(** * Specification: well-shaped expressions *)
Definition arity (o : op) (n : nat) : Prop :=
  match o with
  | IDENT | NEG | NOT | LNOT | SEG => n = 1%nat
  | _ => if nary o then (2 <= n)%nat else n = 2%nat
  end.
Fixpoint good (t : item) : Prop :=
  match t with
  | TNone => False
  | TExpr o ts => arity o (length ts) /\ (nary o = true -> (length (filter is_int ts) <= 1)%nat) /\
                  (fix goods l := match l with [] => True | a :: r => good a /\ goods r end) ts
  | _ => True
  end.

Lemma good_expr : forall o ts, good (TExpr o ts) <-> arity o (length ts) /\ (nary o = true -> (length (its ts) <= 1)%nat) /\ Forall good ts.
Proof.
  intros o ts. cbn [good]. change (length (filter is_int ts)) with (ints ts). rewrite ints_its.
  assert (K : forall l, (fix goods l := match l with [] => True | a :: r => good a /\ goods r end) l <-> Forall good l).
  { induction l as [|a r IH]; [split; auto|]. split; [intros [A B]; constructor; auto; apply IH; auto|intros H; inversion H; subst; split; auto; apply IH; auto]. }
  rewrite K. tauto.
Qed.
Lemma arity_nary : forall o n, nary o = true -> arity o n <-> (2 <= n)%nat.
Proof. intros o n H. destruct o; try discriminate H; reflexivity. Qed.

(** * Flattening and folding *)
Lemma sem_flat : forall E o l acc w, nary o = true -> sem E o (acc ++ l) w -> sem E o (acc ++ flat o l) w.
Proof.
  intros E o l. induction l as [|t r IH]; intros acc w N S; auto. cbn [flat flat_map]. fold (flat o r). rewrite app_assoc. apply IH; auto.
  assert (C : (exists s, t = TExpr o s) \/ out o t = [t]).
  { destruct t as [| | | | | | |o' s]; auto. cbn [out]. destruct (op_eq o' o) eqn:Q; auto. apply op_eq_ok in Q. subst. eauto. }
  destruct C as [[s ->]|C].
  - cbn [out]. rewrite op_eq_refl. apply (sem_perm E o (s ++ acc ++ r)).
    + rewrite <- app_assoc, !app_assoc. apply Permutation_app_tail, Permutation_app_comm.
    + apply sem_flat1; auto. eapply sem_perm; [|exact S]. apply Permutation_sym, Permutation_middle.
  - rewrite C. rewrite <- app_assoc. exact S.
Qed.
Lemma sem_folds : forall E o l h r w, nary o = true -> sem E o (TInt h :: map TInt l ++ r) w -> sem E o (TInt (icalf o l h) :: r) w.
Proof. intros E o. induction l as [|a l IH]; intros h r w N S; auto. cbn [map app] in S. apply sem_fold1 in S; auto. apply IH in S; auto. Qed.
Lemma sem_fold_perm : forall E o l h tl w, nary o = true -> Permutation (its l) (h :: tl) -> sem E o l w -> sem E o (TInt (icalf o tl h) :: non l) w.
Proof.
  intros E o l h tl w N P S. apply sem_folds; auto. eapply sem_perm; [|exact S]. eapply perm_trans; [apply perm_ints|].
  change (TInt h :: map TInt tl ++ non l) with (map TInt (h :: tl) ++ non l). apply Permutation_app_tail, Permutation_map. auto.
Qed.

(** * expr_simplify_identity *)
Lemma remove_mid : forall A (p : list A) x q, remove_nth (length p) (p ++ x :: q) = p ++ q.
Proof.
  intros A p x q. unfold remove_nth. rewrite firstn_app, Nat.sub_diag, firstn_all, firstn_O, app_nil_r. f_equal. rewrite skipn_app, skipn_all2 by lia. replace (S (length p) - length p)%nat with 1%nat by lia. reflexivity.
Qed.
Definition simp_out (o : op) (p1 : list item) (n : intnum) (p2 : list item) (r : op * list item * bool) : Prop :=
  let l := p1 ++ TInt n :: p2 in
  (r = (o, l, true) /\ (2 <= length l)%nat)
  \/ (r = (o, p1 ++ p2, false) /\ (2 <= length (p1 ++ p2))%nat /\ (destroy_left o n = true \/ destroy_right o n = true))
  \/ (exists t, p1 ++ p2 = [t] /\ r = (IDENT, [t], false) /\ (destroy_left o n = true \/ destroy_right o n = true))
  \/ (r = (IDENT, [TInt n], true) /\ (2 <= length l)%nat /\ is_constant o n = true)
  \/ (r = (IDENT, [TInt n], true) /\ l = [TInt n]).
Lemma simp_nary : forall o p1 n p2 stale srm r, nary o = true ->
  simplify_identity o (p1 ++ TInt n :: p2) (length p1) n stale srm = Fin r -> simp_out o p1 n p2 r.
Proof.
  intros o p1 n p2 stale srm r N H. unfold simplify_identity in H. unfold simp_out. set (l := p1 ++ TInt n :: p2) in *.
  set (g := negb (negb srm && op_eq o MUL && is_pos1 n && contains 1 (o, l)) && _) in H.
  assert (L : length l = S (length (p1 ++ p2))) by (unfold l; rewrite !app_length; cbn [length]; lia).
  assert (RM : remove_nth (length p1) l = p1 ++ p2) by apply remove_mid.
  assert (U : match o with NOT | NEG | LNOT => true | _ => false end = false) by (destruct o; try discriminate N; auto). rewrite U in H.
  destruct g eqn:G.
  - cbn [negb andb] in H. rewrite RM in H. unfold g in G. apply andb_true_iff in G. destruct G as [_ G].
    assert (D : (destroy_left o n = true \/ destroy_right o n = true) /\ p1 ++ p2 <> []).
    { destruct (Nat.eqb_spec (length p1) 0) as [Z|Z].
      - apply andb_true_iff in G. destruct G as [G1 G2]. apply Nat.ltb_lt in G1. split; auto. intros Q. rewrite Q in L. cbn [length] in L. lia.
      - split; auto. destruct p1; [cbn in Z; lia|discriminate]. }
    destruct D as [D NE]. destruct (p1 ++ p2) as [|t [|t2 q]]; [congruence| |].
    + injection H as <-. right; right; left. eauto.
    + injection H as <-. right; left. cbn [length]. split; auto. split; auto. lia.
  - cbn [negb andb] in H. destruct ((1 <? length l)%nat && is_constant o n) eqn:C.
    + apply andb_true_iff in C. destruct C as [C1 C2]. apply Nat.ltb_lt in C1. destruct (existsb _ stale); [discriminate|]. injection H as <-. right; right; right; left. split; auto.
    + rewrite andb_false_r in H. assert (H' : (match l with [t] => Fin (IDENT, [t], true) | _ => Fin (o, l, true) end) = Fin r) by (destruct l as [|? [|]]; exact H). clear H. destruct l as [|t [|t2 q]] eqn:Q.
      * discriminate L.
      * injection H' as <-. unfold l in Q. assert (p1 = []) by (destruct p1 as [|a [|b p1]]; auto; cbn in Q; injection Q as ?; discriminate). subst p1. cbn [app] in Q. injection Q as <- ->. right; right; right; right. auto.
      * injection H' as <-. left. cbn [length]. split; auto. lia.
Qed.
Lemma simp_out_value : forall E o p1 n p2 o' l' h w, nary o = true -> simp_out o p1 n p2 (o', l', h) -> sem E o (p1 ++ TInt n :: p2) w ->
  (o' = o /\ sem E o l' w /\ (2 <= length l')%nat) \/ (exists t, o' = IDENT /\ l' = [t] /\ ev E t = Some (VNum w)).
Proof.
  intros E o p1 n p2 o' l' h w N O S.
  assert (S2 : sem E o (TInt n :: p1 ++ p2) w) by (eapply sem_perm; [|exact S]; apply Permutation_sym, Permutation_middle).
  destruct O as [[A B]|[[A [B C]]|[(t & Q & A & C)|[[A [B C]]|[A B]]]]]; injection A as -> -> ->.
  - left. auto.
  - left. split; auto. split; auto. eapply sem_gone; [auto|exact C| |exact S2]. intros X. rewrite X in B. cbn in B. lia.
  - right. exists t. split; auto. split; auto. rewrite Q in S2. apply (sem_one E o). eapply sem_gone; [auto|exact C|discriminate|exact S2].
  - right. exists (TInt n). split; auto. split; auto. eapply (sem_const E o); [auto|exact C| |exact S2]. intros X. rewrite app_length in B. cbn [length] in B. apply (f_equal (@length _)) in X. rewrite app_length in X. cbn [length] in X. lia.
  - right. exists (TInt n). split; auto. split; auto. rewrite B in S. apply (sem_one E o). auto.
Qed.

(** * Levelling: lengths *)
Lemma arity_len : forall o s, nary o = true -> good (TExpr o s) -> non s <> [] /\ (2 <= length s)%nat /\ (length (its s) <= 1)%nat.
Proof.
  intros o s N G. apply good_expr in G. destruct G as (A & B & _). apply arity_nary in A; auto. specialize (B N). pose proof (len_ints s). split; [|split; auto]. intros X. rewrite X in H. cbn [length] in H. lia.
Qed.
Lemma good_fat : forall o t, nary o = true -> good t -> fat o t.
Proof. intros o t N G. destruct t; cbn [fat]; auto. intros ->. apply (arity_len o ts N G). Qed.
Lemma goods_fat : forall o l, nary o = true -> Forall good l -> Forall (fat o) l.
Proof. intros o l N G. eapply Forall_impl; [|exact G]. intros t. apply good_fat; auto. Qed.
Lemma zsum_extra : forall o l, Z.of_nat (length l) + zsum (lv_extra o) l = Z.of_nat (length (flat o l)).
Proof.
  intros o l. induction l as [|t r IH]; auto. cbn [zsum fold_right flat flat_map length]. fold (zsum (lv_extra o) r). fold (flat o r). rewrite app_length.
  assert (K : lv_extra o t = Z.of_nat (length (out o t)) - 1) by (destruct t; auto; cbn [lv_extra out]; destruct (op_eq o0 o); auto). rewrite K. lia.
Qed.
Lemma zsum_ints : forall o l, Z.of_nat (length (its l)) + zsum (lv_ints o) l = Z.of_nat (length (its (flat o l))).
Proof.
  intros o l. induction l as [|t r IH]; auto. cbn [zsum fold_right flat flat_map]. fold (zsum (lv_ints o) r). fold (flat o r). rewrite its_app, app_length.
  assert (K : Z.of_nat (length (its [t])) + lv_ints o t = Z.of_nat (length (its (out o t)))).
  { destruct t; auto. cbn [lv_ints out its length]. destruct (op_eq o0 o); auto. rewrite ints_its. lia. }
  change (t :: r) with ([t] ++ r). rewrite its_app, app_length. lia.
Qed.
Lemma first_pad : forall (l : list item) n, (length l <= n)%nat -> firstn n (l ++ repeat TNone n) = l ++ repeat TNone (n - length l).
Proof.
  intros l n H. rewrite firstn_app, firstn_all2 by lia. f_equal. rewrite <- (firstn_all (repeat TNone (n - length l))), repeat_length.
  replace (repeat TNone n) with (repeat TNone (n - length l) ++ repeat TNone (length l)) by (rewrite <- repeat_app; f_equal; lia).
  rewrite firstn_app, repeat_length, Nat.sub_diag, firstn_O, app_nil_r. auto.
Qed.
Lemma get_len : forall (d1 : list item) t d2, get_nth (d1 ++ t :: d2) (Z.of_nat (length d1)) = Some t.
Proof. intros. apply get_mid. auto. Qed.

(** the integer of a node, if there is one *)
Definition where_int (l : list item) (f : option (nat * intnum)) : Prop :=
  match f with
  | None => its l = []
  | Some (k, n) => exists p1 p2, l = p1 ++ TInt n :: p2 /\ its p1 = [] /\ its p2 = [] /\ k = length p1
  end.
Definition up_out (o : op) (l : list item) (srm : bool) (oldn : nat) (r : op * list item) : Prop :=
  r = (o, l) \/ (r = (o, flat o l) /\ its (flat o l) = []) \/
  exists h tl d1 d2 b, Permutation (its (flat o l)) (h :: tl) /\ d1 ++ d2 = non (flat o l) /\
    simplify_identity o (d1 ++ TInt (icalf o tl h) :: d2) (length d1) (icalf o tl h) (repeat None (oldn - S (length (non (flat o l))))) srm = Fin (fst r, snd r, b).
(* what level_up does, also when simplify_identity faults *)
Lemma level_up_eq2 : forall srm o l f oldn lvl lvlf, nary o = true -> Forall good l -> where_int l f -> (2 <= length l)%nat ->
  lvl = Z.of_nat (length (flat o l)) -> lvlf = zsum (lv_ints o) l ->
  (level_up true true srm o l f oldn lvl lvlf = Fin (o, l) /\ (length (flat o l) <= length l)%nat) \/
  (level_up true true srm o l f oldn lvl lvlf = Fin (o, flat o l) /\ its (flat o l) = []) \/
  exists h tl d1 d2, Permutation (its (flat o l)) (h :: tl) /\ d1 ++ d2 = non (flat o l) /\ (length l <= S (length (non (flat o l))))%nat /\
    level_up true true srm o l f oldn lvl lvlf =
    match simplify_identity o (d1 ++ TInt (icalf o tl h) :: d2) (length d1) (icalf o tl h) (repeat None (oldn - S (length (non (flat o l))))) srm with
    | Fin (o', l', _) => Fin (o', l') | Fault => Fault | Deep => Deep end.
Proof.
  intros srm o l f oldn lvl lvlf N G W L2 Hl Hf. unfold level_up. rewrite N. cbn [negb orb andb].
  destruct (lvl <=? Z.of_nat (length l)) eqn:LV; [left; apply Z.leb_le in LV; split; [auto|lia]|]. right. cbv zeta.
  pose proof (zsum_ints o l) as ZI. pose proof (len_ints (flat o l)) as LF. pose proof (goods_fat o l N G) as FT.
  destruct f as [[k n]|]; cbn [where_int] in W.
  - destruct W as (p1 & p2 & -> & I1 & I2 & ->). apply Forall_app in FT. destruct FT as [F1 F2]. inversion F2 as [|? ? _ F3]; subst x l. clear F2.
    assert (FL : flat o (p1 ++ TInt n :: p2) = flat o p1 ++ TInt n :: flat o p2) by (rewrite flat_app; reflexivity).
    pose proof (flat_non_len o p1 I1 F1) as Q1. pose proof (flat_non_len o p2 I2 F3) as Q2.
    assert (IL : its (p1 ++ TInt n :: p2) = [n]) by (rewrite its_app, I1; cbn [app its]; rewrite I2; auto). rewrite IL in ZI. cbn [length] in ZI.
    assert (NL : non (flat o (p1 ++ TInt n :: p2)) = non (flat o p1) ++ non (flat o p2)) by (rewrite FL, non_app; reflexivity).
    change (false && negb (lvlf =? 0)) with false. cbv iota.
    replace (lvl - lvlf + 0) with (Z.of_nat (S (length (non (flat o (p1 ++ TInt n :: p2)))))) by lia. rewrite Nat2Z.id. set (m := S (length (non (flat o (p1 ++ TInt n :: p2))))) in *.
    assert (LL : (length (p1 ++ TInt n :: p2) <= m)%nat) by (unfold m; rewrite NL, !app_length; cbn [length]; lia).
    rewrite first_pad by auto.
    pose proof (copy_B o p2 p1 n (repeat TNone (m - length (p1 ++ TInt n :: p2))) [] (Z.of_nat m - 1) I1 I2 F1 F3) as C. rewrite app_nil_r in C.
    rewrite C; clear C.
    + set (nn := icalf o _ (icalf o _ n)). change (true && negb (Z.of_nat (length (non (flat o p1))) =? -1)) with (negb (Z.of_nat (length (non (flat o p1))) =? -1)).
      destruct (Z.eqb_spec (Z.of_nat (length (non (flat o p1)))) (-1)); [lia|]. cbn [negb]. rewrite app_nil_r, get_len, Nat2Z.id.
      right. exists n, (its (rev (flat o p2)) ++ its (rev (flat o p1))), (non (flat o p1)), (non (flat o p2)). split; [|split; [auto|split; [fold m; exact LL|]]].
      * rewrite FL, its_app. cbn [its]. apply Permutation_sym, Permutation_cons_app. rewrite !its_rev. eapply perm_trans; [apply Permutation_app_comm|]. apply Permutation_app; apply Permutation_sym, Permutation_rev.
      * assert (EQ : nn = icalf o (its (rev (flat o p2)) ++ its (rev (flat o p1))) n) by (unfold nn, icalf; rewrite fold_left_app; auto). rewrite <- EQ. reflexivity.
    + rewrite repeat_length. unfold m in *. rewrite NL, !app_length in *. cbn [length] in *. lia.
    + rewrite repeat_length. rewrite app_length in *. cbn [length] in *. lia.
  - rewrite W in ZI. cbn [length] in ZI. pose proof (flat_non_len o l W FT) as Q.
    assert (EX : (if true && negb (lvlf =? 0) then 1 else 0) = match its (flat o l) with [] => 0 | _ => 1 end).
    { cbn [andb]. destruct (its (flat o l)) as [|a r]; cbn [length] in ZI; destruct (Z.eqb_spec lvlf 0); cbn [negb]; auto; lia. }
    rewrite EX. set (x := match its (flat o l) with [] => 0%nat | _ => 1%nat end).
    replace (lvl - lvlf + _) with (Z.of_nat (length (non (flat o l)) + x)) by (unfold x; destruct (its (flat o l)); cbn [length] in *; lia). rewrite Nat2Z.id. set (m := (length (non (flat o l)) + x)%nat) in *.
    assert (LL : (length l <= m)%nat) by (unfold m; lia). rewrite first_pad by auto.
    pose proof (copy_A o l (repeat TNone (m - length l)) [] (Z.of_nat m - 1) W FT) as C. rewrite app_nil_r in C. rewrite repeat_length in C. fold x in C. specialize (C ltac:(unfold m in *; lia) ltac:(lia)).
    destruct (its (rev (flat o l))) as [|h tl] eqn:IR.
    + left. rewrite C. change (true && negb (-1 =? -1)) with false. cbv iota. assert (I0 : its (flat o l) = []) by (rewrite its_rev in IR; destruct (its (flat o l)) as [|a r]; auto; cbn [rev] in IR; destruct (rev r); discriminate).
      rewrite app_nil_r. destruct (Nat.eqb_spec m 1); [lia|]. auto.
    + destruct C as (d1 & d2 & D & C). rewrite C. destruct (Z.eqb_spec (Z.of_nat (length d1)) (-1)); [lia|]. cbn [negb andb]. rewrite get_len, Nat2Z.id. right. exists h, tl, d1, d2. rewrite app_nil_r in D.
      assert (X : x = 1%nat). { unfold x. rewrite its_rev in IR. destruct (its (flat o l)); [discriminate|auto]. }
      replace m with (S (length (non (flat o l)))) in * by (unfold m; lia). split; [|split; auto]. rewrite <- IR, its_rev. apply Permutation_rev.
Qed.
Lemma level_up_eq : forall srm o l f oldn lvl lvlf, nary o = true -> Forall good l -> where_int l f -> (2 <= length l)%nat ->
  lvl = Z.of_nat (length (flat o l)) -> lvlf = zsum (lv_ints o) l ->
  level_up true true srm o l f oldn lvl lvlf = Fin (o, l) \/
  (level_up true true srm o l f oldn lvl lvlf = Fin (o, flat o l) /\ its (flat o l) = []) \/
  exists h tl d1 d2, Permutation (its (flat o l)) (h :: tl) /\ d1 ++ d2 = non (flat o l) /\ (length l <= S (length (non (flat o l))))%nat /\
    level_up true true srm o l f oldn lvl lvlf =
    match simplify_identity o (d1 ++ TInt (icalf o tl h) :: d2) (length d1) (icalf o tl h) (repeat None (oldn - S (length (non (flat o l))))) srm with
    | Fin (o', l', _) => Fin (o', l') | Fault => Fault | Deep => Deep end.
Proof. intros srm o l f oldn lvl lvlf N G W L2 Hl Hf. destruct (level_up_eq2 srm o l f oldn lvl lvlf N G W L2 Hl Hf) as [[A _]|H]; auto. Qed.
Lemma level_up_nary : forall srm o l f oldn lvl lvlf o' l', nary o = true -> Forall good l -> where_int l f -> (2 <= length l)%nat ->
  lvl = Z.of_nat (length (flat o l)) -> lvlf = zsum (lv_ints o) l -> level_up true true srm o l f oldn lvl lvlf = Fin (o', l') -> up_out o l srm oldn (o', l').
Proof.
  intros srm o l f oldn lvl lvlf o' l' N G W L2 Hl Hf H. destruct (level_up_eq srm o l f oldn lvl lvlf N G W L2 Hl Hf) as [A|[[A B]|(h & tl & d1 & d2 & A & B & _ & C)]].
  - left. congruence.
  - right; left. split; auto. congruence.
  - right; right. rewrite H in C. destruct (simplify_identity _ _ _ _ _ _) as [[[o1 l1] b]| |] eqn:S; try discriminate. injection C as -> ->. exists h, tl, d1, d2, b. cbn [fst snd]. auto.
Qed.
Lemma sem_ge : forall E o l w, nary o = true -> (2 <= length l)%nat -> sem E o l w -> ev E (TExpr o l) = Some (VNum w).
Proof. intros E o l w N L S. apply ev_nary; auto. split; auto. exists w. auto. Qed.
Lemma flat_ge : forall o l, nary o = true -> Forall good l -> (length l <= length (flat o l))%nat.
Proof.
  intros o l N G. induction G as [|t l G1 G2 IH]; auto. cbn [flat flat_map length]. fold (flat o l). rewrite app_length. assert (1 <= length (out o t))%nat; [|lia].
  destruct t; cbn [out length]; auto. destruct (op_eq o0 o) eqn:Q; auto. apply op_eq_ok in Q. subst. apply arity_len in G1; auto. lia.
Qed.
Lemma up_value : forall E o l srm oldn o' l' w, nary o = true -> Forall good l -> (2 <= length l)%nat -> sem E o l w -> up_out o l srm oldn (o', l') ->
  ev E (TExpr o' l') = Some (VNum w).
Proof.
  intros E o l srm oldn o' l' w N G L S [A|[[A B]|(h & tl & d1 & d2 & b & P & D & H)]].
  - injection A as -> ->. apply sem_ge; auto.
  - injection A as -> ->. apply sem_ge; auto; [pose proof (flat_ge o l N G); lia|]. apply (sem_flat E o l []); auto.
  - cbn [fst snd] in H. apply simp_nary in H; auto. apply (sem_flat E o l []) in S; auto. cbn [app] in S. apply (sem_fold_perm E o _ h tl w N P) in S. rewrite <- D in S.
    assert (S3 : sem E o (d1 ++ TInt (icalf o tl h) :: d2) w) by (eapply sem_perm; [|exact S]; apply Permutation_middle).
    destruct (simp_out_value E _ _ _ _ _ _ _ _ N H S3) as [(-> & A & B)|(t & -> & -> & A)]; [apply sem_ge; auto|]. apply le_ident. auto.
Qed.
(** shape *)
Lemma good_out : forall o t, good t -> Forall good (out o t).
Proof. intros o t G. destruct t; cbn [out]; auto. destruct (op_eq o0 o); auto. apply good_expr in G. tauto. Qed.
Lemma good_flat : forall o l, Forall good l -> Forall good (flat o l).
Proof. intros o l G. induction G; [constructor|]. cbn [flat flat_map]. apply Forall_app. split; auto using good_out. Qed.
Lemma good_non : forall l, Forall good l -> Forall good (non l).
Proof. intros l G. apply Forall_forall. intros t I. apply filter_In in I. rewrite Forall_forall in G. apply G. tauto. Qed.
Lemma good_ident : forall t, good t -> good (TExpr IDENT [t]).
Proof. intros t G. apply good_expr. repeat split; auto. discriminate. Qed.
Lemma non_its : forall l, its (non l) = [].
Proof. unfold non. induction l as [|t r IH]; auto. cbn [filter]. destruct t; cbn [is_int negb its]; auto. Qed.
Lemma simp_good : forall o p1 n p2 o' l' h, nary o = true -> simp_out o p1 n p2 (o', l', h) -> its p1 = [] -> its p2 = [] -> Forall good p1 -> Forall good p2 ->
  good (TExpr o' l').
Proof.
  intros o p1 n p2 o' l' h N O I1 I2 G1 G2. destruct O as [[A B]|[[A [B C]]|[(t & Q & A & C)|[[A [B C]]|[A B]]]]]; injection A as -> -> ->.
  - apply good_expr. split; [apply arity_nary; auto|]. split.
    + intros _. rewrite its_app, I1. cbn [its app]. rewrite I2. cbn; auto.
    + apply Forall_app. split; auto. constructor; auto. exact I.
  - apply good_expr. split; [apply arity_nary; auto|]. split.
    + intros _. rewrite its_app, I1, I2. cbn; auto.
    + apply Forall_app. auto.
  - apply good_ident. assert (Forall good (p1 ++ p2)) as X by (apply Forall_app; auto). rewrite Q in X. inversion X; auto.
  - apply good_ident. exact I.
  - apply good_ident. exact I.
Qed.
Lemma up_good : forall o l f srm oldn o' l', nary o = true -> Forall good l -> where_int l f -> (2 <= length l)%nat -> up_out o l srm oldn (o', l') -> good (TExpr o' l').
Proof.
  intros o l f srm oldn o' l' N G W L [A|[[A B]|(h & tl & d1 & d2 & b & P & D & H)]].
  - injection A as -> ->. apply good_expr. split; [apply arity_nary; auto|]. split; auto. intros _. destruct f as [[k n]|]; cbn [where_int] in W; [|rewrite W; auto].
    destruct W as (p1 & p2 & -> & I1 & I2 & _). rewrite its_app, I1. cbn [its app]. rewrite I2. cbn; auto.
  - injection A as -> ->. apply good_expr. split; [apply arity_nary; auto; pose proof (flat_ge o l N G); lia|]. split; auto using good_flat. rewrite B. cbn; auto.
  - cbn [fst snd] in H. apply simp_nary in H; auto. assert (X : Forall good (d1 ++ d2)) by (rewrite D; auto using good_non, good_flat). apply Forall_app in X. destruct X as [X1 X2].
    assert (Y : its (d1 ++ d2) = []) by (rewrite D; apply non_its). rewrite its_app in Y. apply app_eq_nil in Y. destruct Y. eapply simp_good; eauto.
Qed.

(** * The first folding pass *)
Lemma first_int_ok : forall l, match first_int l with
  | None => its l = []
  | Some (k, n) => exists p1 p2, l = p1 ++ TInt n :: p2 /\ its p1 = [] /\ k = length p1
  end.
Proof.
  induction l as [|t r IH]; [reflexivity|].
  assert (C : (exists n, t = TInt n) \/ is_int t = false) by (destruct t; eauto). destruct C as [[n ->]|C].
  - cbn [first_int]. exists [], r. auto.
  - assert (E : first_int (t :: r) = match first_int r with Some (k, n) => Some (S k, n) | None => None end /\ its (t :: r) = its r) by (destruct t; try discriminate C; auto). destruct E as [-> I2].
    destruct (first_int r) as [[k n]|]; [|congruence]. destruct IH as (p1 & p2 & -> & I & ->). exists (t :: p1), p2. repeat split; auto. destruct t; try discriminate C; auto.
Qed.
Lemma fold_ints_eq : forall o r n, fold_ints o n r = (icalf o (its r) n, non r).
Proof.
  intros o r. induction r as [|t r IH]; intros n; auto. destruct t; cbn [fold_ints its]; rewrite IH; reflexivity.
Qed.
Lemma flat_its_nil : forall o l, zsum (lv_ints o) l = zsum (lv_ints o) (non l) /\ zsum (lv_extra o) l = zsum (lv_extra o) (non l).
Proof.
  intros o l. unfold non. induction l as [|t r [A B]]; auto. destruct t; cbn [zsum fold_right filter is_int negb]; fold (zsum (lv_ints o) r) (zsum (lv_extra o) r); split; rewrite ?A, ?B; auto; cbn [lv_ints lv_extra]; auto.
Qed.
Lemma zsum_app : forall f l l', zsum f (l ++ l') = zsum f l + zsum f l'.
Proof. intros f l l'. unfold zsum. induction l as [|a l IH]; cbn [app fold_right]; lia. Qed.

(** the part of expr_level_op after IDENT nodes have been removed *)
Definition body (srm : bool) (o : op) (ts : list item) : res expr :=
  let fc := negb (nonnum o) in
  let oldn := length ts in
  let lvl := Z.of_nat oldn + zsum (lv_extra o) ts in
  let lvlf := if fc then zsum (lv_ints o) ts else 0 in
  match (if fc then first_int ts else None) with
  | None => level_up fc true srm o ts None oldn lvl lvlf
  | Some (k, n) =>
      let (n', post) := fold_ints o n (skipn (S k) ts) in
      let l := firstn k ts ++ TInt n' :: post in
      let foldn := length l in
      let lvl1 := lvl - (Z.of_nat oldn - Z.of_nat foldn) in
      let stale := map Some (skipn foldn ts) in
      match simplify_identity o l k n' stale srm with
      | Fin (o', l', here) =>
          level_up fc true srm o' l' (if here then Some (k, n') else None) oldn
                   (lvl1 - (Z.of_nat foldn - Z.of_nat (length l'))) lvlf
      | Fault => Fault
      | Deep => Deep
      end
  end.
Lemma level_op_body : forall srm e, level_op true true srm e = body srm (fst (strip_top e)) (map strip (snd (strip_top e))).
Proof. intros srm e. unfold level_op. destruct (strip_top e) as [o ts]. reflexivity. Qed.
Lemma level_up_not : forall fc srm o l f oldn lvl lvlf, nary o = false -> level_up fc true srm o l f oldn lvl lvlf = Fin (o, l).
Proof. intros. unfold level_up. rewrite H. reflexivity. Qed.
Lemma mid_split : forall (p1 : list item) x p2, firstn (length p1) (p1 ++ x :: p2) = p1 /\ skipn (S (length p1)) (p1 ++ x :: p2) = p2.
Proof.
  intros. split; [rewrite firstn_app, Nat.sub_diag, firstn_all, firstn_O, app_nil_r; auto|]. rewrite skipn_app, skipn_all2 by lia. replace (S (length p1) - length p1)%nat with 1%nat by lia. reflexivity.
Qed.
(** what the node looks like on the way into level_up *)
Lemma body_nary : forall srm o ts, nary o = true -> Forall good ts -> (2 <= length ts)%nat ->
  (its ts = [] /\ body srm o ts = level_up true true srm o ts None (length ts) (Z.of_nat (length (flat o ts))) (zsum (lv_ints o) ts)) \/
  exists p1 n p2, ts = p1 ++ TInt n :: p2 /\ its p1 = [] /\
    let n' := icalf o (its p2) n in let l := p1 ++ TInt n' :: non p2 in
    match simplify_identity o l (length p1) n' (map Some (skipn (length l) ts)) srm with
    | Fin (o', l', here) =>
        simp_out o p1 n' (non p2) (o', l', here) /\
        ((o' = IDENT /\ body srm o ts = Fin (IDENT, l')) \/
         (o' = o /\ (2 <= length l')%nat /\ exists f, where_int l' f /\ Forall good l' /\
          body srm o ts = level_up true true srm o l' f (length ts) (Z.of_nat (length (flat o l'))) (zsum (lv_ints o) l')))
    | Fault => body srm o ts = Fault
    | Deep => False
    end.
Proof.
  intros srm o ts N G L. assert (NN : nonnum o = false) by (destruct o; try discriminate N; auto). unfold body. rewrite NN. cbn [negb]. cbv zeta. rewrite zsum_extra. pose proof (first_int_ok ts) as F.
  destruct (first_int ts) as [[k n]|]; [|left; auto]. right. destruct F as (p1 & p2 & -> & I & ->). exists p1, n, p2. split; auto. split; auto.
  destruct (mid_split p1 (TInt n) p2) as [M1 M2]. rewrite M1, M2, fold_ints_eq.
  apply Forall_app in G. destruct G as [G1 G2]. inversion G2 as [|? ? _ G3]; subst x l. clear G2.
  set (n' := icalf o (its p2) n). set (l := p1 ++ TInt n' :: non p2).
  assert (NS : forall st, simplify_identity o l (length p1) n' st srm <> Deep).
  { intros st. unfold simplify_identity. destruct (negb _ && _ && _); [destruct (existsb _ st); discriminate|]. match goal with |- match ?x with _ => _ end <> _ => destruct x as [|? [|? ?]]; discriminate end. }
  destruct (simplify_identity o l (length p1) n' (map Some (skipn (length l) (p1 ++ TInt n :: p2))) srm) as [[[o' l'] here]| |] eqn:S; [|auto|apply (NS _ S)].
  apply simp_nary in S; auto. split; auto.
  assert (EX : Z.of_nat (length (flat o (p1 ++ TInt n :: p2))) - (Z.of_nat (length (p1 ++ TInt n :: p2)) - Z.of_nat (length l)) = Z.of_nat (length (flat o l))).
  { rewrite <- !zsum_extra. unfold l. rewrite !zsum_app. cbn [zsum fold_right lv_extra]. fold (zsum (lv_extra o) p2) (zsum (lv_extra o) (non p2)). rewrite (proj2 (flat_its_nil o p2)). lia. }
  rewrite EX. assert (ZI : zsum (lv_ints o) (p1 ++ TInt n :: p2) = zsum (lv_ints o) l).
  { unfold l. rewrite !zsum_app. cbn [zsum fold_right lv_ints]. fold (zsum (lv_ints o) p2) (zsum (lv_ints o) (non p2)). rewrite (proj1 (flat_its_nil o p2)). lia. }
  rewrite ZI. unfold simp_out in S. fold l in S.
  destruct S as [[A B]|[[A [B C]]|[(t & Q & A & C)|[[A [B C]]|[A B]]]]]; injection A as -> -> ->; try (left; split; auto; rewrite level_up_not; auto).
  - right. split; auto. split; auto. exists (Some (length p1, n')). cbn [where_int]. split; [exists p1, (non p2); repeat split; auto using non_its|]. split; [apply Forall_app; split; auto; constructor; auto using good_non; exact Logic.I|].
    rewrite Z.sub_diag, Z.sub_0_r. reflexivity.
  - right. split; auto. split; auto. exists None. cbn [where_int]. split; [rewrite its_app, I, non_its; auto|]. split; [apply Forall_app; auto using good_non|].
    replace (Z.of_nat (length (flat o l)) - (Z.of_nat (length l) - Z.of_nat (length (p1 ++ non p2)))) with (Z.of_nat (length (flat o (p1 ++ non p2)))).
    + f_equal. unfold l. rewrite !zsum_app. cbn [zsum fold_right lv_ints]. fold (zsum (lv_ints o) (non p2)). lia.
    + rewrite <- !zsum_extra. unfold l. rewrite !zsum_app. cbn [zsum fold_right lv_extra]. fold (zsum (lv_extra o) (non p2)). lia.
Qed.
Lemma body_nary_ok : forall srm o ts o' l', nary o = true -> Forall good ts -> (2 <= length ts)%nat -> body srm o ts = Fin (o', l') ->
  good (TExpr o' l') /\ forall E w, sem E o ts w -> ev E (TExpr o' l') = Some (VNum w).
Proof.
  intros srm o ts o' l' N G L H. destruct (body_nary srm o ts N G L) as [[I B]|(p1 & n & p2 & -> & I & B)].
  - rewrite H in B. symmetry in B. apply level_up_nary in B; auto. split; [eapply (up_good o ts None); eauto|]. intros E w S. eapply up_value; eauto.
  - cbv zeta in B. apply Forall_app in G. destruct G as [G1 G2]. inversion G2 as [|? ? _ G3]; subst x l. clear G2.
    destruct (simplify_identity _ _ _ _ _ _) as [[[o1 l1] here]| |]; [|congruence|tauto]. destruct B as [SO B].
    assert (SE : forall E w, sem E o (p1 ++ TInt n :: p2) w -> sem E o (p1 ++ TInt (icalf o (its p2) n) :: non p2) w).
    { intros E w S. apply (sem_perm E o (TInt (icalf o (its p2) n) :: p1 ++ non p2)); [apply Permutation_middle|]. apply sem_folds; auto. eapply sem_perm; [|exact S].
      apply Permutation_sym, Permutation_cons_app. rewrite !app_assoc. eapply perm_trans; [apply Permutation_app_tail, Permutation_app_comm|]. rewrite <- app_assoc. apply Permutation_app_head, Permutation_sym, perm_ints. }
    destruct B as [[-> B]|(-> & L1 & f & W & GL & B)].
    + rewrite H in B. injection B as -> ->. split; [eapply simp_good; eauto using non_its, good_non|]. intros E w S. apply SE in S. destruct (simp_out_value E _ _ _ _ _ _ _ _ N SO S) as [(Q & _)|(t & _ & -> & A)]; [subst o; discriminate N|]. apply le_ident; auto.
    + rewrite H in B. symmetry in B. apply level_up_nary in B; auto. split; [exact (up_good o l1 f srm _ o' l' N GL W L1 B)|]. intros E w S. apply SE in S. apply (up_value E o l1 srm (length (p1 ++ TInt n :: p2)) o' l' w N GL L1); [|exact B].
      destruct (simp_out_value E _ _ _ _ _ _ _ _ N SO S) as [(_ & A & _)|(t & Q & _)]; auto. subst o. discriminate N.
Qed.

(** * Operators with a fixed number of terms *)
Lemma arity_unary : forall o n, unary o = true -> arity o n -> n = 1%nat. Proof. intros o n U A. destruct o; try discriminate U; exact A. Qed.
Lemma simp_single : forall o n stale srm, simplify_identity o [TInt n] 0 n stale srm =
  Fin (IDENT, [if unary o then TInt (ical n o None) else TInt n], true).
Proof.
  intros o n stale srm. unfold simplify_identity. cbn [length Nat.eqb Nat.ltb Nat.leb andb]. rewrite andb_false_r. cbn [negb andb length Nat.ltb Nat.leb]. destruct o; reflexivity.
Qed.
Lemma body_ident : forall srm t, body srm IDENT [t] = Fin (IDENT, [t]).
Proof.
  intros srm t. assert (C : (exists n, t = TInt n) \/ is_int t = false) by (destruct t; eauto). destruct C as [[n ->]|C].
  - unfold body. cbn [nonnum negb first_int skipn fold_ints firstn app]. rewrite simp_single. cbn [unary]. apply level_up_not. reflexivity.
  - unfold body. cbn [nonnum negb]. assert (F : first_int [t] = None) by (destruct t; try discriminate C; reflexivity). rewrite F. apply level_up_not. reflexivity.
Qed.
Lemma body_unary : forall srm o t, unary o = true -> body srm o [t] = match t with TInt n => Fin (IDENT, [TInt (ical n o None)]) | _ => Fin (o, [t]) end.
Proof.
  intros srm o t U. assert (NN : nonnum o = false) by (destruct o; try discriminate U; auto). assert (NA : nary o = false) by (destruct o; try discriminate U; auto).
  unfold body. rewrite NN. cbn [negb]. destruct t; try (cbn [first_int]; apply level_up_not; exact NA).
  cbn [first_int skipn fold_ints firstn app]. rewrite simp_single, U. apply level_up_not. reflexivity.
Qed.
Definition binary (o : op) : bool := negb (nary o) && negb (unary o) && negb (nonnum o) && negb (op_eq o IDENT).
Lemma body_binary : forall srm o a b, binary o = true ->
  body srm o [a; b] =
  match a, b with
  | TInt x, TInt y => Fin (IDENT, [TInt (ical x o (Some y))])
  | _, TInt y => if destroy_right o y then Fin (IDENT, [a]) else Fin (o, [a; b])
  | _, _ => Fin (o, [a; b])
  end.
Proof.
  intros srm o a b B. unfold binary in B. rewrite !andb_true_iff, !negb_true_iff in B. destruct B as [[[NA UN] NN] NI].
  assert (DL : forall n, destroy_left o n = false) by (intros; destruct o; try discriminate NA; reflexivity).
  assert (KC : forall n, is_constant o n = false) by (intros; destruct o; try discriminate NA; reflexivity).
  assert (OM : op_eq o MUL = false) by (destruct o; try discriminate NA; reflexivity).
  assert (UM : match o with NOT | NEG | LNOT => true | _ => false end = false) by (destruct o; try discriminate UN; reflexivity).
  unfold body. rewrite NN. cbn [negb].
  assert (X1 : forall y, is_int a = false -> body srm o [a; TInt y] = if destroy_right o y then Fin (IDENT, [a]) else Fin (o, [a; TInt y])).
  { intros y C. unfold body. rewrite NN. cbn [negb]. assert (F : first_int [a; TInt y] = Some (1%nat, y)) by (destruct a; try discriminate C; reflexivity). rewrite F. cbn [skipn fold_ints firstn app length]. cbv zeta. cbn [skipn map].
    unfold simplify_identity. rewrite OM, DL, KC, UM, !andb_false_r. cbn [andb negb length Nat.ltb Nat.leb Nat.eqb]. destruct (destroy_right o y); cbn [negb andb remove_nth firstn skipn app length Nat.ltb Nat.leb]; apply level_up_not; auto. }
  assert (X2 : forall x, is_int b = false -> body srm o [TInt x; b] = Fin (o, [TInt x; b])).
  { intros x C. unfold body. rewrite NN. cbn [negb first_int skipn]. assert (F : fold_ints o x [b] = (x, [b])) by (rewrite fold_ints_eq; destruct b; try discriminate C; reflexivity). rewrite F. cbn [firstn app length]. cbv zeta. cbn [skipn map].
    unfold simplify_identity. rewrite OM, DL, KC, UM, !andb_false_r. cbn [andb negb length Nat.ltb Nat.leb Nat.eqb]. apply level_up_not; auto. }
  assert (X3 : forall x y, body srm o [TInt x; TInt y] = Fin (IDENT, [TInt (ical x o (Some y))])).
  { intros x y. unfold body. rewrite NN. cbn [negb first_int skipn fold_ints firstn app length]. cbv zeta. cbn [skipn map]. rewrite simp_single, UN. apply level_up_not. reflexivity. }
  assert (X4 : is_int a = false -> is_int b = false -> body srm o [a; b] = Fin (o, [a; b])).
  { intros C D. unfold body. rewrite NN. cbn [negb]. assert (F : first_int [a; b] = None) by (destruct a; try discriminate C; destruct b; try discriminate D; reflexivity). rewrite F. apply level_up_not; auto. }
  unfold body in X1, X2, X3, X4. rewrite NN in *. cbn [negb] in *. destruct a, b; auto.
Qed.
Lemma meaning_right : forall o a n m, binary o = true -> destroy_right o n = true -> canon n -> R a -> meaning o a (ival n) = Some m -> wrap256 m = a.
Proof.
  intros o a n m B D C Ra M. destruct o; try discriminate B; try discriminate D; cbn [destroy_right] in D; rewrite ?is_zero_ok, ?is_pos1_ok in D by auto; apply Z.eqb_eq in D; rewrite D in M; cbn [meaning] in M.
  - injection M as <-. rewrite Z.sub_0_r. apply wrap_id. auto.
  - cbn in M. injection M as <-. rewrite Z.quot_1_r. apply wrap_id. auto.
  - cbn in M. injection M as <-. rewrite Z.mul_1_r. apply wrap_id. auto.
  - cbn in M. injection M as <-. rewrite Z.div_1_r. apply wrap_id. auto.
Qed.
Lemma ev_binary : forall E o a b v, binary o = true -> ev E (TExpr o [a; b]) = Some v ->
  exists x y m, ev E a = Some (VNum x) /\ ev E b = Some (VNum y) /\ meaning o x y = Some m /\ v = VNum (wrap256 m).
Proof.
  intros E o a b v B H. apply ev_expr in H. destruct H as (vs & A & O). inversion A as [|? v1 ? ? A1 A2]; subst. inversion A2 as [|? v2 ? ? A3 A4]; subst. inversion A4; subst.
  unfold binary in B. rewrite !andb_true_iff, !negb_true_iff in B. destruct B as [[[NA UN] NN] NI].
  assert (K : opsem E o [v1; v2] = match nums [v1; v2] with Some [x; y] => option_map (fun m => VNum (wrap256 m)) (meaning o x y) | _ => None end).
  { destruct o; try discriminate NA; try discriminate UN; try discriminate NN; try discriminate NI; cbn [opsem]; destruct (nums [v1; v2]) as [[|? [|? [|]]]|]; reflexivity. }
  rewrite K in O. destruct (nums [v1; v2]) as [zs|] eqn:NU; [|discriminate]. apply nums_ok in NU. destruct zs as [|x [|y [|]]]; try discriminate. cbn [map] in NU. injection NU as -> ->.
  destruct (meaning o x y) as [m|] eqn:M; [|discriminate]. cbn [option_map] in O. injection O as <-. exists x, y, m. auto.
Qed.
Lemma ev_unary : forall E o a v, unary o = true -> ev E (TExpr o [a]) = Some v ->
  exists x m, ev E a = Some (VNum x) /\ meaning o x 0 = Some m /\ v = VNum (wrap256 m).
Proof.
  intros E o a v U H. apply ev_expr in H. destruct H as (vs & A & O). inversion A as [|? v1 ? ? A1 A2]; subst. inversion A2; subst.
  assert (K : opsem E o [v1] = match nums [v1] with Some [x] => option_map (fun m => VNum (wrap256 m)) (meaning o x 0) | _ => None end).
  { destruct o; try discriminate U; cbn [opsem]; destruct (nums [v1]) as [[|? [|]]|]; reflexivity. }
  rewrite K in O. destruct (nums [v1]) as [zs|] eqn:NU; [|discriminate]. apply nums_ok in NU. destruct zs as [|x [|]]; try discriminate. cbn [map] in NU. injection NU as ->.
  destruct (meaning o x 0) as [m|] eqn:M; [|discriminate]. cbn [option_map] in O. injection O as <-. exists x, m. auto.
Qed.
Lemma ev_ident : forall E a v, ev E (TExpr IDENT [a]) = Some v <-> ev E a = Some v.
Proof. intros E a v. split; apply le_ident. Qed.
(** what operators there are *)
Lemma op_cases : forall o, nary o = true \/ o = IDENT \/ unary o = true \/ binary o = true \/ nonnum o = true.
Proof. intros o. destruct o; cbv; auto 10. Qed.
Lemma body_fix_good : forall srm o ts o' l', nary o = false -> arity o (length ts) -> Forall good ts -> body srm o ts = Fin (o', l') -> good (TExpr o' l').
Proof.
  intros srm o ts o' l' NA A G H.
  assert (SAME : body srm o ts = Fin (o, ts) -> good (TExpr o' l')).
  { intros Q. rewrite Q in H. injection H as <- <-. apply good_expr. repeat split; auto. congruence. }
  destruct (op_cases o) as [X|[->|[U|[B|NN]]]]; [congruence| | | |].
  - cbn in A. destruct ts as [|t [|]]; try discriminate A. apply SAME, body_ident.
  - apply arity_unary in A; auto. destruct ts as [|t [|]]; try discriminate A. pose proof (body_unary srm o t U) as BU. destruct t; auto. rewrite BU in H. injection H as <- <-. apply good_ident. exact I.
  - assert (A2 : length ts = 2%nat) by (unfold binary in B; rewrite !andb_true_iff, !negb_true_iff in B; destruct o; try discriminate NA; try exact A; destruct B as [[[? ?] ?] ?]; discriminate).
    destruct ts as [|a [|b [|]]]; try discriminate A2. pose proof (body_binary srm o a b B) as BB. inversion G; subst.
    destruct a; destruct b; auto; try (destruct (destroy_right o n); auto); try (destruct (destroy_right o n0); auto); rewrite BB in H; injection H as <- <-; apply good_ident; auto; exact I.
  - apply SAME. unfold body. rewrite NN. cbn [negb]. apply level_up_not; auto.
Qed.
Lemma body_fix_value : forall srm o ts o' l' E v, nary o = false -> body srm o ts = Fin (o', l') -> ev E (TExpr o ts) = Some v -> ev E (TExpr o' l') = Some v.
Proof.
  intros srm o ts o' l' E v NA H V.
  assert (SAME : body srm o ts = Fin (o, ts) -> ev E (TExpr o' l') = Some v) by congruence.
  pose proof V as V0. apply ev_expr in V0. destruct V0 as (vs & A & O). apply F2_length in A. symmetry in A.
  destruct (op_cases o) as [X|[->|[U|[B|NN]]]]; [congruence| | | |].
  - cbn [opsem] in O. destruct vs as [|? [|]]; try discriminate O. destruct ts as [|t [|]]; try discriminate A. apply SAME, body_ident.
  - assert (L : length ts = 1%nat). { rewrite <- A. destruct o; try discriminate U; cbn [opsem nary unary] in O; destruct (nums vs) as [zs|] eqn:NU; try discriminate; apply nums_ok in NU; subst vs; rewrite map_length; destruct zs as [|? [|]]; try discriminate; auto. }
    destruct ts as [|t [|]]; try discriminate L. pose proof (body_unary srm o t U) as BU. destruct t; auto. rewrite BU in H. injection H as <- <-. apply ev_ident.
    apply ev_unary in V; auto. destruct V as (x & m & V1 & M & ->). apply ev_int in V1. destruct V1 as [C <-]. apply ev_int. destruct (ical_un n o m C U M). auto.
  - assert (L : length ts = 2%nat). { rewrite <- A. unfold binary in B. destruct o; try discriminate B; cbn [opsem nary unary] in O; destruct (nums vs) as [zs|] eqn:NU; try discriminate; apply nums_ok in NU; subst vs; rewrite map_length; destruct zs as [|? [|? [|]]]; try discriminate; auto. }
    destruct ts as [|a [|b [|]]]; try discriminate L. pose proof (body_binary srm o a b B) as BB. rewrite H in BB.
    apply ev_binary in V as V2; auto. destruct V2 as (x & y & m & V1 & V2 & M & EQ).
    assert (RT : forall n, b = TInt n -> (if destroy_right o n then Fin (IDENT, [a]) else Fin (o, [a; b])) = Fin (o', l') -> ev E (TExpr o' l') = Some v).
    { intros n -> Q. destruct (destroy_right o n) eqn:D; [|injection Q as <- <-; exact V]. injection Q as <- <-. apply ev_ident. apply ev_int in V2. destruct V2 as [C <-]. pose proof (ev_R E a _ V1) as Ra. cbn [Rv] in Ra. rewrite (meaning_right o x n m B D C Ra M) in EQ. congruence. }
    assert (OTHER : Fin (o', l') = Fin (o, [a; b]) -> ev E (TExpr o' l') = Some v) by (intros Q; injection Q as -> ->; exact V).
    destruct b; try (apply OTHER; destruct a; exact BB). specialize (RT n eq_refl). destruct a; try (apply RT; symmetry; exact BB).
    injection BB as -> ->. apply ev_ident. apply ev_int in V1. apply ev_int in V2. destruct V1 as [C1 <-]. destruct V2 as [C2 <-]. subst v. apply ev_int. apply ical_ok; auto. intros ->. discriminate NA.
  - apply SAME. unfold body. rewrite NN. cbn [negb]. apply level_up_not; auto.
Qed.

(** * expr_level_op *)
Lemma strip_good : forall t, good t -> good (strip t).
Proof.
  fix IH 1. intros t G. destruct t as [| | | | | | |o ts]; try exact G. destruct ts as [|a r]; [exact G|]. cbn [strip]. destruct (op_eq o IDENT); [|exact G]. apply IH. apply good_expr in G. destruct G as (_ & _ & G). inversion G. assumption.
Qed.
Definition eitem (e : expr) : item := TExpr (fst e) (snd e).
Lemma top_good : forall t, is_expr t = true -> good t -> good (eitem (top t)).
Proof.
  fix IH 1. intros t X G. destruct t as [| | | | | | |o ts]; try discriminate X. destruct ts as [|a r]; [exact G|]. cbn [top]. destruct (op_eq o IDENT && is_expr a) eqn:C; [|exact G]. apply andb_true_iff in C. destruct C as [_ C]. apply IH; [exact C|]. apply good_expr in G. destruct G as (_ & _ & G). inversion G. assumption.
Qed.
(** a node about to be levelled: the right number of terms, which are well shaped *)
Definition ready (t : item) : Prop := match t with TExpr o ts => arity o (length ts) /\ Forall good ts | _ => False end.
Lemma good_ready : forall o ts, good (TExpr o ts) -> ready (TExpr o ts). Proof. intros o ts G. apply good_expr in G. cbn [ready]. tauto. Qed.
Lemma top_ready : forall t, ready t -> ready (eitem (top t)).
Proof.
  intros t G. destruct t as [| | | | | | |o ts]; try destruct G. destruct ts as [|a r]; [split; auto|]. cbn [top]. destruct (op_eq o IDENT && is_expr a) eqn:C; [|split; auto]. apply andb_true_iff in C. destruct C as [_ C].
  inversion H0; subst. pose proof (top_good a C ltac:(auto)) as G. unfold eitem in *. apply good_ready; auto.
Qed.
Lemma level_op_ok : forall srm e e', ready (eitem e) -> level_op true true srm e = Fin e' ->
  good (eitem e') /\ forall E v, eval E e = Some v -> eval E e' = Some v.
Proof.
  intros srm [o0 ts0] [o' l'] RD H. rewrite level_op_body in H. unfold strip_top in H. cbn [fst snd] in H. unfold eval, eitem in *. cbn [fst snd] in *.
  pose proof (top_ready _ RD) as R2. pose proof (fun E => top_le E (TExpr o0 ts0) eq_refl) as TL. cbv zeta in TL. unfold eitem in R2. destruct (top (TExpr o0 ts0)) as [o ts]. cbn [fst snd] in *. destruct R2 as [A G].
  assert (GS : Forall good (map strip ts)) by (rewrite Forall_map; eapply Forall_impl; [|exact G]; intros; apply strip_good; auto).
  assert (SL : forall E, le E (TExpr o ts) (TExpr o (map strip ts))).
  { intros E. apply le_expr. clear. induction ts as [|a r IH]; cbn [map]; constructor; auto. apply strip_le. }
  assert (A2 : arity o (length (map strip ts))) by (rewrite map_length; auto).
  destruct (nary o) eqn:N.
  - destruct (body_nary_ok srm o _ o' l' N GS) as [Q1 Q2]; [apply arity_nary in A2; auto|auto|]. split; auto. intros E v V. apply TL, SL in V. apply ev_nary in V; auto. destruct V as (_ & w & -> & S). auto.
  - split; [eapply body_fix_good; eauto|]. intros E v V. apply TL, SL in V. eapply body_fix_value; eauto.
Qed.

(** * Building expressions: no fault *)
Lemma simp_no_fault : forall o l f n st srm, existsb (fun s => match s with Some t => owned t | None => true end) st = false -> exists r, simplify_identity o l f n st srm = Fin r.
Proof.
  intros o l f n st srm H. unfold simplify_identity. rewrite H. destruct (negb _ && _ && _); eauto. match goal with |- exists r, match ?x with _ => _ end = _ => destruct x as [|? [|? ?]]; eauto end.
Qed.
(** terms that are integers and therefore leave nothing behind when folded away *)
Lemma body_no_fault : forall srm o ts, nary o = true -> Forall good ts -> length ts = 2%nat -> exists r, body srm o ts = Fin r.
Proof.
  intros srm o ts N G L. assert (L2 : (2 <= length ts)%nat) by lia.
  assert (UP : forall l f lvl lvlf, Forall good l -> where_int l f -> length l = 2%nat -> lvl = Z.of_nat (length (flat o l)) -> lvlf = zsum (lv_ints o) l -> exists r, level_up true true srm o l f (length ts) lvl lvlf = Fin r).
  { intros l f lvl lvlf GL W LL H1 H2. destruct (level_up_eq srm o l f (length ts) lvl lvlf N GL W ltac:(lia) H1 H2) as [A|[[A B]|(h & tl & d1 & d2 & A & B & LE & C)]]; eauto.
    rewrite C. replace (length ts - S (length (non (flat o l))))%nat with 0%nat by lia. cbn [repeat]. destruct (simp_no_fault o (d1 ++ TInt (icalf o tl h) :: d2) (length d1) (icalf o tl h) [] srm eq_refl) as [[[o1 l1] b] Q]. rewrite Q. eauto. }
  destruct (body_nary srm o ts N G L2) as [[I B]|(p1 & n & p2 & -> & I & B)].
  - rewrite B. apply UP; auto.
  - cbv zeta in B. set (l := p1 ++ TInt (icalf o (its p2) n) :: non p2) in *.
    assert (ST : existsb (fun s => match s with Some t => owned t | None => true end) (map Some (skipn (length l) (p1 ++ TInt n :: p2))) = false).
    { unfold l. rewrite app_length in L. cbn [length] in L. destruct p1 as [|a [|b p1]]; cbn [length] in L; [|destruct p2; [reflexivity|cbn [length] in L; lia]|lia]. destruct p2 as [|x [|]]; cbn [length] in L; try lia. destruct x; reflexivity. }
    destruct (simp_no_fault o l (length p1) (icalf o (its p2) n) _ srm ST) as [[[o1 l1] here] Q]. rewrite Q in B. destruct B as [SO B]. destruct B as [[-> B]|(-> & L1 & f & W & GL & B)]; [rewrite B; eauto|].
    rewrite B. apply UP; auto. assert (length l1 <= length l)%nat.
    { unfold simp_out in SO. fold l in SO. destruct SO as [[A _]|[[A [_ _]]|[(t & X & A & _)|[[A [_ _]]|[A _]]]]]; injection A; intros; subst; auto; unfold l; rewrite ?app_length; cbn [length]; rewrite ?app_length; lia. }
    assert (length l <= 2)%nat; [|lia]. unfold l. rewrite app_length in *. cbn [length] in *. pose proof (len_ints p2). lia.
Qed.
Lemma body_fix_no_fault : forall srm o ts, nary o = false -> arity o (length ts) -> exists r, body srm o ts = Fin r.
Proof.
  intros srm o ts NA A. destruct (op_cases o) as [X|[->|[U|[B|NN]]]]; [congruence| | | |].
  - cbn in A. destruct ts as [|t [|]]; try discriminate A. rewrite body_ident. eauto.
  - apply arity_unary in A; auto. destruct ts as [|t [|]]; try discriminate A. rewrite body_unary; auto. destruct t; eauto.
  - assert (A2 : length ts = 2%nat) by (unfold binary in B; rewrite !andb_true_iff, !negb_true_iff in B; destruct o; try discriminate NA; try exact A; destruct B as [[[? ?] ?] ?]; discriminate).
    destruct ts as [|a [|b [|]]]; try discriminate A2. rewrite body_binary; auto. destruct a, b; eauto; destruct (destroy_right o _); eauto.
  - unfold body. rewrite NN. cbn [negb]. rewrite level_up_not; eauto.
Qed.
