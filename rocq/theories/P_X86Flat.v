(** The shape of levelled expressions: sums are flat, registers stay under sums and products (for C33). *)
From Coq Require Import ZArith List Bool Arith Lia Permutation.
From Verif Require Import Lib M_BitVect M_Intnum P_Intnum M_Expr P_Expr P_ExprLevel P_ExprTree P_ExprTree2 P_ExprTop.
Import ListNotations.
Open Scope Z_scope.

(** * A property of subterms that survives levelling *)
Section Keep.
Variable Q : item -> Prop.
Hypothesis QE : forall o ts, Q (TExpr o ts) -> Forall Q ts.
Hypothesis QI : forall n, Q (TInt n).
Hypothesis QN : Q TNone.
Hypothesis QD : forall a, Q a -> Q (TExpr IDENT [a]).
Lemma q_strip : forall t, Q t -> Q (strip t).
Proof.
  fix IH 1. intros t G. destruct t as [| | | | | | |o ts]; try exact G. destruct ts as [|a r]; [exact G|]. cbn [strip]. destruct (op_eq o IDENT); [|exact G]. apply IH. apply QE in G. inversion G. assumption.
Qed.
Lemma q_top : forall t, is_expr t = true -> Q t -> Forall Q (snd (top t)).
Proof.
  fix IH 1. intros t X G. destruct t as [| | | | | | |o ts]; try discriminate X. destruct ts as [|a r]; [constructor|]. cbn [top]. apply QE in G. destruct (op_eq o IDENT && is_expr a) eqn:C; [|exact G].
  apply andb_true_iff in C. apply IH; [tauto|]. inversion G. assumption.
Qed.
Lemma q_set : forall a k t a', Forall Q a -> Q t -> set_nth a k t = Some a' -> Forall Q a'.
Proof.
  intros a k t a' F L H. unfold set_nth in H. destruct (_ && _); [|discriminate]. injection H as <-. rewrite Forall_forall in *. intros x I. apply in_app_or in I. destruct I as [I|[<-|I]]; auto; apply F.
  - rewrite <- (firstn_skipn (Z.to_nat k) a). apply in_or_app. auto.
  - rewrite <- (firstn_skipn (S (Z.to_nat k)) a). apply in_or_app. auto.
Qed.
Lemma q_up : forall fc o ts a k f a' k' f', Forall Q ts -> Forall Q a -> up_sub fc o ts (a, k, f) = Some (a', k', f') -> Forall Q a'.
Proof.
  intros fc o. induction ts as [|t r IH]; intros a k f a' k' f' Ft Fa H; cbn [up_sub] in H; [injection H as <- _ _; auto|]. inversion Ft as [|? ? L Fr]; subst.
  assert (PL : (match set_nth a (if k =? f then k - 1 else k) t with Some a'0 => up_sub fc o r (a'0, (if k =? f then k - 1 else k) - 1, f) | None => None end) = Some (a', k', f') -> Forall Q a').
  { intros X. destruct (set_nth a _ t) eqn:E; [|discriminate]. eapply IH; [exact Fr| |exact X]. eapply q_set; [exact Fa|exact L|exact E]. }
  destruct fc; [|destruct t; apply PL; exact H]. destruct t; try (apply PL; exact H).
  destruct (f =? -1).
  - destruct (set_nth a k (TInt n)) eqn:E; [|discriminate]. eapply IH; [exact Fr| |exact H]. eapply q_set; [exact Fa|exact L|exact E].
  - destruct (get_nth a f) as [[]|]; try discriminate. destruct (set_nth a f _) eqn:E; [|discriminate]. eapply IH; [exact Fr| |exact H]. eapply q_set; [exact Fa| |exact E]. apply QI.
Qed.
Lemma q_copy : forall fc o i a k f a' k' f', Forall Q a -> copy_up fc o i (a, k, f) = Some (a', k', f') -> Forall Q a'.
Proof.
  intros fc o. induction i as [|j IH]; intros a k f a' k' f' Fa H; cbn [copy_up] in H; [injection H as <- _ _; auto|]. destruct (nth_error a j) as [t|] eqn:N; [|discriminate].
  assert (L : Q t). { rewrite Forall_forall in Fa. apply Fa. apply (nth_error_In _ _ N). }
  assert (PL : (if k =? Z.of_nat j then copy_up fc o j (a, k - 1, f) else match set_nth a (if k =? f then k - 1 else k) t with Some a'0 => copy_up fc o j (a'0, (if k =? f then k - 1 else k) - 1, if Z.of_nat j =? f then (if k =? f then k - 1 else k) else f) | None => None end) = Some (a', k', f') -> Forall Q a').
  { intros X. destruct (k =? Z.of_nat j); [eapply IH; eauto|]. destruct (set_nth a _ t) eqn:E; [|discriminate]. eapply IH; [|exact X]. eapply q_set; [exact Fa|exact L|exact E]. }
  destruct t; try (apply PL; exact H). destruct (op_eq o0 o); [|apply PL; exact H]. destruct (up_sub fc o (rev ts) (a, k, f)) as [[[a1 k1] f1]|] eqn:U; [|discriminate]. eapply IH; [|exact H]. eapply q_up; [|exact Fa|exact U]. apply Forall_rev. apply (QE _ _ L).
Qed.
Lemma q_remove : forall k l, Forall Q l -> Forall Q (remove_nth k l).
Proof.
  intros k l F. unfold remove_nth. apply Forall_app. split; rewrite Forall_forall in *; intros x I; apply F.
  - rewrite <- (firstn_skipn k l). apply in_or_app. auto.
  - rewrite <- (firstn_skipn (S k) l). apply in_or_app. auto.
Qed.
Lemma q_simp : forall o l f n st srm o' l' h, Forall Q l -> simplify_identity o l f n st srm = Fin (o', l', h) -> Forall Q l' /\ (o' = o \/ o' = IDENT).
Proof.
  intros o l f n st srm o' l' h F H. unfold simplify_identity in H. set (g := negb (negb srm && op_eq o MUL && is_pos1 n && contains 1 (o, l)) && _) in H. assert (F1 : Forall Q (if g then remove_nth f l else l)) by (destruct g; auto using q_remove). set (l1 := if g then remove_nth f l else l) in *.
  destruct (negb g && (1 <? length l1)%nat && is_constant o n).
  - destruct (existsb _ st); [discriminate|]. injection H as <- <- <-. auto.
  - destruct l1 as [|t [|t2 r]]; [injection H as <- <- <-; auto| |injection H as <- <- <-; auto]. injection H as <- <- <-. split; [|auto]. constructor; [|constructor]. inversion F1; subst. match goal with |- Q (if ?b then _ else _) => destruct b; [apply QI|assumption] end.
Qed.
Lemma q_level_up : forall fc si srm o l f oldn lvl lvlf o' l', Forall Q l -> level_up fc si srm o l f oldn lvl lvlf = Fin (o', l') -> Forall Q l' /\ (o' = o \/ o' = IDENT).
Proof.
  intros fc si srm o l f oldn lvl lvlf o' l' F H. unfold level_up in H. destruct (_ || _); [injection H as <- <-; auto|]. cbv zeta in H. set (lv' := if fc then lvl - lvlf + _ else lvl) in H.
  assert (FA : Forall Q (firstn (Z.to_nat lv') (l ++ repeat TNone (Z.to_nat lv')))).
  { assert (X : Forall Q (l ++ repeat TNone (Z.to_nat lv'))). { apply Forall_app. split; auto. apply Forall_forall. intros x I. apply repeat_spec in I. subst. exact QN. }
    rewrite <- (firstn_skipn (Z.to_nat lv')) in X. apply Forall_app in X. tauto. }
  destruct (copy_up _ _ _ _) as [[[a' k'] f']|] eqn:C; [|discriminate]. apply q_copy in C; auto. destruct (si && _); [|injection H as <- <-; split; [auto|destruct (Nat.eqb _ 1); auto]]. destruct (get_nth a' f') as [[]|]; try discriminate. destruct (simplify_identity _ _ _ _ _ _) as [[[o1 l1] h]| |] eqn:E; try discriminate. injection H as <- <-. exact (q_simp _ _ _ _ _ _ _ _ _ C E).
Qed.
Lemma q_fold : forall o r n, Forall Q r -> Forall Q (snd (fold_ints o n r)).
Proof. intros o r n F. rewrite fold_ints_eq. cbn [snd]. apply Forall_forall. intros x I. apply filter_In in I. rewrite Forall_forall in F. apply F. tauto. Qed.
Lemma q_level_op : forall fc si srm e e', Forall Q (snd (strip_top e)) -> level_op fc si srm e = Fin e' -> Forall Q (snd e') /\ (fst e' = fst (strip_top e) \/ fst e' = IDENT).
Proof.
  intros fc si srm e [o' l'] T H. unfold level_op in H. destruct (strip_top e) as [o ts0]. cbn [fst snd] in *.
  assert (TS : Forall Q (map strip ts0)) by (rewrite Forall_map; eapply Forall_impl; [|exact T]; intros; apply q_strip; auto). set (ts := map strip ts0) in *. cbv zeta in H.
  match type of H with match ?x with _ => _ end = _ => destruct x as [[k n]|] end.
  - pose proof (q_fold o (skipn (S k) ts) n) as FO. destruct (fold_ints o n (skipn (S k) ts)) as [n' post]. cbn [snd] in FO.
    assert (FL : Forall Q (firstn k ts ++ TInt n' :: post)).
    { assert (F1 : Forall Q (firstn k ts)) by (rewrite <- (firstn_skipn k ts) in TS; apply Forall_app in TS; tauto). assert (F2 : Forall Q (skipn (S k) ts)) by (rewrite <- (firstn_skipn (S k) ts) in TS; apply Forall_app in TS; tauto).
      apply Forall_app. split; auto. }
    set (l := firstn k ts ++ TInt n' :: post) in *. match type of H with match ?x with _ => _ end = _ => destruct x as [[[o1 l1] h]| |] eqn:E end; try discriminate.
    assert (K : Forall Q l1 /\ (o1 = o \/ o1 = IDENT)).
    { destruct si; [exact (q_simp _ _ _ _ _ _ _ _ _ FL E)|]. injection E as <- <- <-. split; [exact FL|destruct (Nat.eqb _ 1); auto]. }
    destruct K as [K1 K2]. apply q_level_up in H; auto. destruct H as [H1 H2]. split; auto. destruct H2 as [-> | ->]; auto.
  - apply q_level_up in H; auto.
Qed.
Lemma q_seg : forall o ts, Forall Q ts -> Forall Q (snd (seg_of (o, ts))).
Proof.
  intros o ts F. destruct o; try exact F. cbn [seg_of]. destruct ts as [|[| | | | | | |[] l] r]; try exact F. destruct l as [|a l]; [exact F|]. cbn [snd]. inversion F as [|? ? F1 F2]; subst. constructor; auto. apply QD. apply QE in F1. inversion F1. auto.
Qed.
End Keep.

(** * No node of an operator directly under a node of the same operator *)
Definition top_op (o : op) (t : item) : bool := match t with TExpr o' _ => op_eq o' o | _ => false end.
Fixpoint fl (t : item) : Prop :=
  match t with
  | TExpr o ts => (nary o = true -> Forall (fun x => top_op o x = false) ts) /\ (fix go (l : list item) : Prop := match l with [] => True | a :: r => fl a /\ go r end) ts
  | _ => True
  end.
Lemma fl_expr : forall o ts, fl (TExpr o ts) <-> (nary o = true -> Forall (fun x => top_op o x = false) ts) /\ Forall fl ts.
Proof.
  intros o ts. cbn [fl]. set (P := nary o = true -> _). assert (K : (fix go (l : list item) : Prop := match l with [] => True | a :: r => fl a /\ go r end) ts <-> Forall fl ts); [|tauto].
  clear P. induction ts as [|a r IH]; [split; auto|]. rewrite Forall_cons_iff. tauto.
Qed.
Lemma op_eq_refl : forall o, op_eq o o = true. Proof. intros o. unfold op_eq. destruct (op_dec o o); auto. Qed.
Lemma op_eq_ok : forall a b, op_eq a b = true -> a = b. Proof. intros a b. unfold op_eq. destruct (op_dec a b); auto. discriminate. Qed.
Lemma flat_none : forall o l, nary o = true -> Forall good l -> (length (flat o l) <= length l)%nat -> Forall (fun x => top_op o x = false) l.
Proof.
  intros o l N G. induction l as [|t r IH]; intros L; [constructor|]. inversion G as [|? ? G1 G2]; subst. unfold flat in L. cbn [flat_map length] in L. fold (flat o r) in L. rewrite app_length in L. pose proof (flat_ge o r N G2) as GE.
  assert (O1 : (1 <= length (out o t))%nat /\ (top_op o t = true -> (2 <= length (out o t))%nat)).
  { destruct t as [| | | | | | |o' s]; cbn [out top_op length]; auto; try (split; [lia|discriminate]). destruct (op_eq o' o) eqn:E; [|cbn [length]; split; [lia|discriminate]]. apply op_eq_ok in E. subst o'. destruct (arity_len o s N G1) as (_ & A & _). split; [lia|auto]. }
  destruct O1 as [O1 O2]. constructor; [destruct (top_op o t); auto; specialize (O2 eq_refl); lia|]. apply IH; auto. lia.
Qed.
Lemma flat_flat : forall o l, nary o = true -> Forall fl l -> Forall (fun x => top_op o x = false) (flat o l).
Proof.
  intros o l N F. induction F as [|t r F1 F2 IH]; [constructor|]. unfold flat. cbn [flat_map]. apply Forall_app. split; auto.
  destruct t as [| | | | | | |o' s]; cbn [out]; try (constructor; [auto|constructor]). destruct (op_eq o' o) eqn:E; [|constructor; [exact E|constructor]]. apply op_eq_ok in E. subst o'. apply fl_expr in F1. apply F1. auto.
Qed.
Lemma simp_in : forall o p1 n p2 o' l' h, simp_out o p1 n p2 (o', l', h) -> forall x, In x l' -> is_int x = true \/ In x (p1 ++ p2).
Proof.
  intros o p1 n p2 o' l' h S x I. unfold simp_out in S. destruct S as [[A B]|[[A [B C]]|[(t & Q & A & C)|[[A [B C]]|[A B]]]]]; injection A as -> -> ->.
  - apply in_app_or in I. destruct I as [I|[<-|I]]; [right; apply in_or_app; auto|left; auto|right; apply in_or_app; auto].
  - auto.
  - rewrite Q. auto.
  - destruct I as [<-|[]]. auto.
  - destruct I as [<-|[]]. auto.
Qed.
Lemma level_up_fl : forall srm o l f oldn lvl lvlf o' l', nary o = true -> Forall good l -> where_int l f -> (2 <= length l)%nat ->
  lvl = Z.of_nat (length (flat o l)) -> lvlf = zsum (lv_ints o) l -> Forall fl l -> level_up true true srm o l f oldn lvl lvlf = Fin (o', l') ->
  o' = IDENT \/ o' = o /\ Forall (fun x => top_op o x = false) l'.
Proof.
  intros srm o l f oldn lvl lvlf o' l' N G W L2 Hl Hf F H. destruct (level_up_eq2 srm o l f oldn lvl lvlf N G W L2 Hl Hf) as [[A B]|[[A B]|(h & tl & d1 & d2 & A & B & _ & C)]].
  - rewrite A in H. injection H as <- <-. right. split; auto. apply flat_none; auto.
  - rewrite A in H. injection H as <- <-. right. split; auto. apply flat_flat; auto.
  - rewrite H in C. destruct (simplify_identity _ _ _ _ _ _) as [[[o1 l1] b]| |] eqn:S; try discriminate. injection C as -> ->. apply simp_nary in S; auto. pose proof (simp_in _ _ _ _ _ _ _ S) as SI.
    assert (OO : o1 = IDENT \/ o1 = o) by (unfold simp_out in S; destruct S as [[E _]|[[E _]|[(t & _ & E & _)|[[E _]|[E _]]]]]; injection E as -> _ _; auto).
    destruct OO as [->|E]; [auto|right]. split; auto. apply Forall_forall. intros x I. apply SI in I. rewrite B in I. destruct I as [I|I]; [destruct x; try discriminate I; auto|].
    apply filter_In in I. pose proof (flat_flat o l N F) as FF. rewrite Forall_forall in FF. apply FF. tauto.
Qed.
Lemma fl_simp : forall o p1 n p2 o' l' h, simp_out o p1 n p2 (o', l', h) -> Forall fl p1 -> Forall fl p2 -> Forall fl l'.
Proof.
  intros o p1 n p2 o' l' h S F1 F2. apply Forall_forall. intros x I. apply (simp_in _ _ _ _ _ _ _ S) in I. destruct I as [I|I]; [destruct x; try discriminate I; exact Logic.I|]. apply in_app_or in I. rewrite Forall_forall in F1, F2. destruct I; auto.
Qed.
Lemma body_fl : forall srm o ts o' l', nary o = true -> Forall good ts -> (2 <= length ts)%nat -> Forall fl ts -> body srm o ts = Fin (o', l') ->
  o' = IDENT \/ o' = o /\ Forall (fun x => top_op o x = false) l'.
Proof.
  intros srm o ts o' l' N G L F H. destruct (body_nary srm o ts N G L) as [[I E]|(p1 & n & p2 & -> & I & E)].
  - rewrite E in H. apply level_up_fl in H; auto.
  - cbv zeta in E. destruct (simplify_identity _ _ _ _ _ _) as [[[o1 l1] here]| |] eqn:S; [|congruence|destruct E]. destruct E as [SO [[-> E]|(-> & L1 & f & W & G1 & E)]]; rewrite E in H; [injection H as <- <-; auto|].
    apply level_up_fl in H; auto. apply Forall_app in F. destruct F as [F1 F2]. inversion F2; subst. apply (fl_simp _ _ _ _ _ _ _ SO F1).
    apply Forall_forall. intros x J. apply filter_In in J. rewrite Forall_forall in H3. apply H3. tauto.
Qed.
Lemma fl_ident : forall a, fl a -> fl (TExpr IDENT [a]). Proof. intros a F. apply fl_expr. split; [discriminate|auto]. Qed.
Lemma level_op_fl : forall srm o ts e', ready (eitem (o, ts)) -> Forall fl ts -> level_op true true srm (o, ts) = Fin e' -> fl (eitem e').
Proof.
  intros srm o ts e' RD F H.
  assert (FT : Forall fl (snd (strip_top (o, ts)))).
  { unfold strip_top. cbn [fst snd]. destruct ts as [|a r]; [constructor|]. cbn [top]. destruct (op_eq o IDENT && is_expr a) eqn:C; [|exact F]. apply andb_true_iff in C. apply q_top; [intros o1 t1 Q; apply fl_expr in Q; tauto|tauto|inversion F; auto]. }
  pose proof (q_level_op fl (fun o ts Q => proj2 (proj1 (fl_expr o ts) Q)) (fun _ => Logic.I) Logic.I _ _ _ _ _ FT H) as [F' OO].
  rewrite level_op_body in H. pose proof (top_ready _ RD) as RT. change (eitem (top (eitem (o, ts)))) with (eitem (strip_top (o, ts))) in RT. destruct (strip_top (o, ts)) as [o1 ts1]. cbn [fst snd eitem ready] in *. destruct e' as [o' l']. cbn [fst snd] in *.
  apply fl_expr. split; auto. intros N'. destruct OO as [->|E]; [|rewrite E in N'; discriminate].
  destruct RT as [AR GT]. apply body_fl in H; auto.
  - destruct H as [->|[_ H]]; [discriminate N'|exact H].
  - rewrite Forall_map. eapply Forall_impl; [|exact GT]. intros; apply strip_good; auto.
  - rewrite map_length. apply arity_nary in AR; auto.
  - rewrite Forall_map. eapply Forall_impl; [|exact FT]. intros a Fa. apply q_strip; auto. intros o2 t2 Q. apply fl_expr in Q. tauto.
Qed.

(** * Registers only under sums, products and plain nodes *)
Definition notreg (x : item) : Prop := match x with TReg _ => False | _ => True end.
Definition noreg (t : item) : Prop := leaves notreg t.
Definition linop (o : op) : bool := match o with ADD | MUL | IDENT => true | _ => false end.
Fixpoint regok (t : item) : Prop :=
  match t with
  | TExpr o ts => (linop o = true \/ Forall noreg ts) /\ (fix go (l : list item) : Prop := match l with [] => True | a :: r => regok a /\ go r end) ts
  | _ => True
  end.
Lemma regok_expr : forall o ts, regok (TExpr o ts) <-> (linop o = true \/ Forall noreg ts) /\ Forall regok ts.
Proof.
  intros o ts. cbn [regok]. set (P := linop o = true \/ _). assert (K : (fix go (l : list item) : Prop := match l with [] => True | a :: r => regok a /\ go r end) ts <-> Forall regok ts); [|tauto].
  clear P. induction ts as [|a r IH]; [split; auto|]. rewrite Forall_cons_iff. tauto.
Qed.
Lemma noreg_regok : forall t, noreg t -> regok t.
Proof.
  fix IH 1. intros t N. destruct t as [| | | | | | |o ts]; try exact Logic.I. unfold noreg in N. apply leaves_expr in N. apply regok_expr. split; [auto|].
  induction ts as [|a r IHr]; [constructor|]. inversion N; subst. constructor; auto.
Qed.
Lemma over_each : forall F l st l' st', over F l st = Fin (l', st') -> Forall2 (fun a a' => (is_expr a = false /\ a' = a) \/ (is_expr a = true /\ exists s s', F a s = Fin (a', s'))) l l'.
Proof.
  intros F. induction l as [|a r IH]; intros st l' st' H; cbn [over] in H; [injection H as <- _; constructor|].
  destruct (match a with TExpr _ _ => F a st | _ => Fin (a, st) end) as [[a' s1]| |] eqn:A; try discriminate. destruct (over F r s1) as [[r' s2]| |] eqn:O; try discriminate. injection H as <- _. constructor; [|eapply IH; eauto].
  destruct a; try (left; split; [auto|congruence]). right. eauto.
Qed.
Lemma top_regok : forall t, is_expr t = true -> regok t -> regok (eitem (top t)).
Proof.
  fix IH 1. intros t X G. destruct t as [| | | | | | |o ts]; try discriminate X. destruct ts as [|a r]; [exact G|]. cbn [top]. destruct (op_eq o IDENT && is_expr a) eqn:C; [|exact G].
  apply andb_true_iff in C. apply IH; [tauto|]. apply regok_expr in G. destruct G as [_ G]. inversion G. assumption.
Qed.
Lemma regok_ident : forall a, regok a -> regok (TExpr IDENT [a]). Proof. intros a F. apply regok_expr. split; [left; auto|auto]. Qed.
Lemma noreg_ident : forall a, noreg a -> noreg (TExpr IDENT [a]). Proof. intros a F. apply leaves_expr. auto. Qed.
Lemma level_op_regok : forall fc si srm o ts e', regok (TExpr o ts) -> level_op fc si srm (o, ts) = Fin e' -> regok (eitem e').
Proof.
  intros fc si srm o ts e' G H. pose proof (top_regok (TExpr o ts) eq_refl G) as GT. change (top (TExpr o ts)) with (strip_top (o, ts)) in GT. apply regok_expr in GT. destruct GT as [LT FT].
  destruct (q_level_op regok (fun o ts Q => proj2 (proj1 (regok_expr o ts) Q)) (fun _ => Logic.I) Logic.I _ _ _ _ _ FT H) as [F' OO].
  apply regok_expr. split; auto. destruct OO as [OO|OO]; rewrite OO; [|left; auto]. destruct LT as [LT|LT]; [auto|right].
  apply (q_level_op noreg (fun o ts Q => proj1 (leaves_expr notreg o ts) Q) (fun _ => Logic.I) Logic.I _ _ _ _ _ LT H).
Qed.
Lemma seg_regok : forall o ts, regok (TExpr o ts) -> regok (eitem (seg_of (o, ts))).
Proof.
  intros o ts G. destruct (seg_of (o, ts)) as [o' ts'] eqn:E. assert (C : (o', ts') = (o, ts) \/ o' = IDENT).
  { destruct o; cbn [seg_of] in E; try (left; congruence). destruct ts as [|[| | | | | | |[] l] r]; try (left; congruence). destruct l; [left; congruence|right; congruence]. }
  apply regok_expr in G. destruct G as [L F]. pose proof (q_seg regok (fun o ts Q => proj2 (proj1 (regok_expr o ts) Q)) regok_ident o ts F) as F'. rewrite E in F'. cbn [snd] in F'.
  apply regok_expr. split; auto. destruct C as [C| ->]; [|left; auto]. injection C as -> ->. auto.
Qed.
Lemma xform_regok : forall o ts, regok (TExpr o ts) -> regok (eitem (xform_neg (o, ts))).
Proof.
  intros o ts G. assert (C : linop o = true \/ Forall noreg ts) by (apply regok_expr in G; tauto). destruct C as [C|C].
  - destruct o; try discriminate C; exact G.
  - apply noreg_regok. apply xform_neg_leaves. apply leaves_expr. exact C.
Qed.
(** the whole recursion *)
Lemma ltree_noreg : forall n srm t st t' st', is_expr t = true -> noreg t -> ltree n true true srm t st = Fin (t', st') -> noreg t' /\ is_expr t' = true.
Proof.
  induction n as [|n IH]; intros srm t st t' st' X G H; [discriminate H|]. rewrite ltree_node in H. unfold node in H. destruct t as [| | | | | | |o0 ts0]; try discriminate X. cbn [of_item] in H.
  apply (xform_neg_leaves notreg) in G. destruct (xform_neg (o0, ts0)) as [o ts]. cbn [eitem fst snd] in G. apply leaves_expr in G.
  destruct (over _ ts st) as [[ts' st1]| |] eqn:O; try discriminate. destruct (level_op true true srm (seg_of (o, ts'))) as [e| |] eqn:L; try discriminate. injection H as <- <-. split; [|auto].
  apply over_each in O. assert (G2 : Forall noreg ts').
  { clear L. revert G. induction O as [|a a' r r' A O IHO]; intros G; [constructor|]. inversion G; subst. constructor; auto. destruct A as [[_ ->]|[XA (s & s' & A)]]; auto. eapply IH; eauto. }
  apply leaves_expr. pose proof (q_seg noreg (fun o ts Q => proj1 (leaves_expr notreg o ts) Q) noreg_ident o ts' G2) as G3. destruct (seg_of (o, ts')) as [o2 ts2]. cbn [snd] in G3.
  assert (G4 : Forall noreg (snd (strip_top (o2, ts2)))) by (unfold strip_top; apply q_top; [intros o1 t1 Q; apply leaves_expr in Q; exact Q|auto|apply leaves_expr; exact G3]).
  apply (q_level_op noreg (fun o ts Q => proj1 (leaves_expr notreg o ts) Q) (fun _ => Logic.I) Logic.I _ _ _ _ _ G4 L).
Qed.
Lemma ltree_regok : forall n srm t st t' st', is_expr t = true -> regok t -> ltree n true true srm t st = Fin (t', st') -> regok t'.
Proof.
  induction n as [|n IH]; intros srm t st t' st' X G H; [discriminate H|]. rewrite ltree_node in H. unfold node in H. destruct t as [| | | | | | |o0 ts0]; try discriminate X. cbn [of_item] in H.
  apply xform_regok in G. destruct (xform_neg (o0, ts0)) as [o ts]. cbn [eitem fst snd] in G.
  destruct (over _ ts st) as [[ts' st1]| |] eqn:O; try discriminate. destruct (level_op true true srm (seg_of (o, ts'))) as [e| |] eqn:L; try discriminate. injection H as <- <-.
  apply over_each in O. assert (G2 : regok (TExpr o ts')).
  { clear L. apply regok_expr in G. destruct G as [LO G]. apply regok_expr. split.
    - destruct LO as [LO|LO]; [auto|right]. clear G. revert LO. induction O as [|a a' r r' A O IHO]; intros LO; [constructor|]. inversion LO; subst. constructor; auto. destruct A as [[_ ->]|[XA (s & s' & A)]]; auto. eapply ltree_noreg; eauto.
    - clear LO. revert G. induction O as [|a a' r r' A O IHO]; intros G; [constructor|]. inversion G; subst. constructor; auto. destruct A as [[_ ->]|[XA (s & s' & A)]]; auto. eapply IH; eauto. }
  apply seg_regok in G2. destruct (seg_of (o, ts')) as [o2 ts2]. apply (level_op_regok _ _ _ _ _ _ G2 L).
Qed.
Lemma ltree_fl : forall n srm t st t' st', is_expr t = true -> shaped t -> ltree n true true srm t st = Fin (t', st') -> fl t'.
Proof.
  induction n as [|n IH]; intros srm t st t' st' X S H; [discriminate H|]. rewrite ltree_node in H. unfold node in H. destruct t as [| | | | | | |o0 ts0]; try discriminate X. cbn [of_item] in H.
  pose proof (xform_neg_shaped o0 ts0 S) as S1. destruct (xform_neg (o0, ts0)) as [o ts]. cbn [eitem fst snd] in S1. apply shaped_expr in S1. destruct S1 as [A1 S1].
  destruct (over _ ts st) as [[ts' st1]| |] eqn:O; try discriminate. destruct (level_op true true srm (seg_of (o, ts'))) as [e| |] eqn:L; try discriminate. injection H as <- <-.
  destruct (over_ok (fun _ _ => True) (fun _ _ => True) ltac:(auto) ltac:(auto) _ (ltree_ok (fun _ _ => True) (fun _ _ => True) ltac:(auto) ltac:(auto) n srm) ts st ts' st1 S1 O) as (LN & G & _).
  assert (RD : ready (eitem (o, ts'))) by (cbn; split; [rewrite LN; auto|auto]). destruct (seg_of_ok (o, ts') RD) as (RD2 & _ & _).
  apply over_each in O. assert (F2 : Forall fl ts').
  { clear L RD RD2 LN G A1. revert S1. induction O as [|a a' r r' A O IHO]; intros S1; [constructor|]. inversion S1; subst. constructor; auto. destruct A as [[A ->]|[XA (s & s' & A)]]; [destruct a; try discriminate A; exact Logic.I|]. eapply IH; eauto. }
  pose proof (q_seg fl (fun o ts Q => proj2 (proj1 (fl_expr o ts) Q)) fl_ident o ts' F2) as F3. destruct (seg_of (o, ts')) as [o2 ts2]. apply (level_op_fl _ _ _ _ RD2 F3 L).
Qed.
Lemma Exp_regok : forall equ, (forall s d, equ s = Some d -> noreg (eitem d)) -> (forall seen t t' b, Exp equ seen t t' b -> regok t -> regok t') /\ (forall seen l l' b, ExpL equ seen l l' b -> Forall regok l -> Forall regok l').
Proof.
  intros equ K. apply Exp_both; intros; auto.
  - apply noreg_regok. apply (proj1 (Exp_leaves equ notreg K) _ _ _ _ e0). exact (K _ _ e).
  - apply regok_expr in H0. destruct H0 as [L F]. apply regok_expr. split; auto. destruct L as [L|L]; [auto|right]. apply (proj2 (Exp_leaves equ notreg K) _ _ _ _ e). exact L.
  - inversion H1; subst. constructor; auto.
Qed.
Lemma level_tree_flat : forall nequ equ srm e e' st b, shaped (eitem e) -> (forall s d, equ s = Some d -> shaped (eitem d)) ->
  level_tree nequ equ true true srm [] e = Fin (e', st, b) ->
  fl (eitem e') /\ ((forall s d, equ s = Some d -> noreg (eitem d)) -> regok (eitem e) -> regok (eitem e')).
Proof.
  intros nequ equ srm e e' st b S SD H. unfold level_tree in H. fold (eitem e) in H. destruct (expand nequ equ [] (eitem e)) as [[t b']| |] eqn:X; try discriminate. apply expand_Exp in X. pose proof (Exp_expr _ _ _ _ _ _ X) as IE.
  destruct (ltree _ _ _ _ _ _) as [[t' s']| |] eqn:L; try discriminate. injection H as <- <- <-.
  assert (IE' : eitem (of_item t') = t' \/ eitem (of_item t') = TExpr IDENT [t']) by (destruct t'; cbn; auto).
  pose proof (ltree_fl _ _ _ _ _ _ IE (proj1 (Exp_shaped equ SD) _ _ _ _ X S) L) as F.
  assert (RG : (forall s d, equ s = Some d -> noreg (eitem d)) -> regok (eitem e) -> regok t') by (intros K G; eapply ltree_regok; [exact IE| |exact L]; apply (proj1 (Exp_regok equ K) _ _ _ _ X); auto).
  destruct IE' as [-> | ->]; [auto|]. split; [apply fl_ident; auto|]. intros K G. apply regok_ident; auto.
Qed.
