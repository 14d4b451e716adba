(** Whole expression trees: negation, levelling, distances, constants (C30-C32, C55, C56). *)
From Coq Require Import ZArith List Bool Lia Permutation Arith Relations.
From Verif Require Import Lib M_BitVect P_BitVect P_BitVectIO M_Intnum P_Intnum M_Expr P_Expr P_ExprLevel.
Import ListNotations.
Open Scope Z_scope.

(** * Specification *)
(** Every node has as many terms as its operator takes. *)
Fixpoint shaped (t : item) : Prop :=
  match t with
  | TNone => False
  | TExpr o ts => arity o (length ts) /\ (fix all l := match l with [] => True | a :: r => shaped a /\ all r end) ts
  | _ => True
  end.
(** Every register, symbol, bytecode and placeholder in the term satisfies [P]. *)
Fixpoint leaves (P : item -> Prop) (t : item) : Prop :=
  match t with
  | TExpr _ ts => (fix all l := match l with [] => True | a :: r => leaves P a /\ all r end) ts
  | TReg _ | TSym _ | TPrecbc _ | TSubst _ => P t
  | _ => True
  end.
(** The environment knows the labels and the constants. *)
Definition env_labels (label : Z -> option Z) (E : env) : Prop := forall s b, label s = Some b -> symv E s = Some (VNum (bcv E b)).
Definition env_equ (equ : Z -> option expr) (E : env) : Prop := forall s d, equ s = Some d -> symv E s = eval E d.
Definition env_dist (dist : Z -> Z -> option intnum) (E : env) : Prop :=
  forall p p2 n, dist p p2 = Some n -> canonb n = true /\ ival n = wrap256 (bcv E p2 - bcv E p).
(** Placeholder k stands for the k-th recorded distance. *)
Definition env_subst (E : env) (st : list (Z * Z)) : Prop :=
  forall k p p2, nth_error st k = Some (p, p2) -> sub E (Z.of_nat k) = bcv E p2 - bcv E p.

Lemma shaped_expr : forall o ts, shaped (TExpr o ts) <-> arity o (length ts) /\ Forall shaped ts.
Proof.
  intros o ts. cbn [shaped]. assert (K : forall l, (fix all l := match l with [] => True | a :: r => shaped a /\ all r end) l <-> Forall shaped l).
  { induction l as [|a r IH]; [split; auto|]. split; [intros [A B]; constructor; auto; apply IH; auto|intros H; inversion H; subst; split; auto; apply IH; auto]. }
  rewrite K. tauto.
Qed.
Lemma leaves_expr : forall P o ts, leaves P (TExpr o ts) <-> Forall (leaves P) ts.
Proof.
  intros P o ts. cbn [leaves]. revert ts. induction ts as [|a r IH]; [split; auto|]. split; [intros [A B]; constructor; auto; apply IH; auto|intros H; inversion H; subst; split; auto; apply IH; auto].
Qed.
Lemma good_shaped : forall t, good t -> shaped t.
Proof.
  induction t as [| | | | | | |o ts IH] using item_ind2; intros G; auto. apply good_expr in G. destruct G as (A & _ & G). apply shaped_expr. split; auto. rewrite Forall_forall in *. auto.
Qed.
(** a value needs the right shape *)
Lemma opsem_arity : forall E o vs v, opsem E o vs = Some v -> arity o (length vs).
Proof.
  intros E o vs v H.
  assert (NU : forall zs, nums vs = Some zs -> length vs = length zs) by (intros zs Q; apply nums_ok in Q; subst vs; apply map_length).
  destruct o; cbn [opsem nary unary] in H; try (destruct (nums vs) as [zs|]; [|discriminate]; rewrite (NU zs eq_refl); destruct zs as [|? [|? [|]]]; try discriminate H; cbn; lia).
  - destruct vs as [|? [|]]; try discriminate. reflexivity.
  - destruct vs as [|[] [|]]; try discriminate; reflexivity.
  - destruct vs as [|[] [|[] [|]]]; try discriminate; reflexivity.
  - destruct vs as [|[] [|[] [|]]]; try discriminate; reflexivity.
Qed.
Lemma ev_shaped : forall E t v, ev E t = Some v -> shaped t.
Proof.
  intros E t. induction t as [| | | | | | |o ts IH] using item_ind2; intros v H; try exact I; [discriminate H|]. apply ev_expr in H. destruct H as (vs & A & B). apply shaped_expr. split.
  - apply opsem_arity in B. apply F2_length in A. rewrite A. auto.
  - clear B. induction A as [|t0 v0 ts vs A1 A2 IHA]; constructor; inversion IH; subst; eauto.
Qed.

(** * Negation *)
Definition opp (z : Z) : Z := wrap256 (- z).
Lemma m1_ev : forall E, ev E (TInt m1) = Some (VNum (-1)). Proof. intros. reflexivity. Qed.
Lemma evn_one : forall E t z l zs, ev E t = Some (VNum z) -> evn E l zs -> evn E (t :: l) (z :: zs).
Proof. intros. constructor; auto. Qed.
Lemma mul_m1 : forall E t z, ev E t = Some (VNum z) -> ev E (TExpr MUL [TInt m1; t]) = Some (VNum (opp z)) /\ ev E (TExpr MUL [t; TInt m1]) = Some (VNum (opp z)).
Proof.
  intros E t z H. pose proof (ev_R E t _ H) as Rz. cbn [Rv] in Rz.
  assert (S : sem E MUL [TInt m1; t] (opp z)).
  { exists [-1; z]. split; [repeat constructor; auto|]. apply asem_fl. split; [discriminate|]. split.
    - cbn [domb existsb prod fold_right]. rewrite Z.mul_1_r. unfold R in Rz. destruct (Z.eqb_spec 0 z); [rewrite !orb_true_r; auto|]. change (0 =? -1) with false. cbn [orb].
      destruct (Z.ltb_spec (Z.abs (-1 * z)) (2 ^ 255)); [reflexivity|]. cbn [orb]. apply andb_true_iff. split; [apply Z.eqb_eq; lia|]. apply orb_true_iff. right. apply orb_true_iff. left. apply Z.eqb_eq. lia.
    - cbn [fl fold_left comb]. unfold opp. f_equal; lia. }
  split; apply sem_ge; cbn [length]; auto. eapply sem_perm; [|exact S]. apply perm_swap.
Qed.
Lemma float_none : forall E t, contains_i 8 t = true -> ev E t = None.
Proof.
  intros E t. induction t as [| | | | | | |o ts IH] using item_ind2; intros H; try (cbn in H; discriminate H); auto. cbn [contains_i] in H. cbn [ev].
  assert (K : all (map (ev E) ts) = None); [|rewrite K; auto]. induction IH as [|a r A B IHl]; [discriminate|]. cbn [existsb map all] in *. apply orb_true_iff in H. destruct H as [H|H]; [rewrite (A H); auto|]. destruct (ev E a); auto. rewrite IHl; auto.
Qed.
Lemma sum_opp : forall zs, wrap256 (fold_right Z.add 0 (map opp zs)) = opp (fold_right Z.add 0 zs).
Proof.
  unfold opp. induction zs as [|a r IH]; [reflexivity|]. cbn [map fold_right]. rewrite wrap_add_l, <- wrap_add_r, IH, wrap_add_r. f_equal; lia.
Qed.
Lemma sem_add : forall E ts zs, evn E ts zs -> ts <> [] -> sem E ADD ts (wrap256 (fold_right Z.add 0 zs)).
Proof. intros E ts zs A N. exists zs. split; auto. apply asem_fl. split; [intros ->; inversion A; subst; congruence|]. split; [reflexivity|]. apply fl_add. apply (evn_R E ts); auto. Qed.
Lemma neg_ok : forall E t z, ev E t = Some (VNum z) -> ev E (neg t) = Some (VNum (opp z)).
Proof.
  intros E t. induction t as [| | | | | | |o ts IH] using item_ind2; intros z H; try discriminate H; try (apply mul_m1; exact H).
  assert (OTHER : ev E (TExpr MUL [TInt m1; TExpr o ts]) = Some (VNum (opp z))) by (apply mul_m1; exact H).
  destruct o; try exact OTHER; clear OTHER; cbn [neg].
  - (* IDENT *)
    apply ev_expr in H. destruct H as (vs & A & B). cbn [opsem] in B. destruct vs as [|v [|]]; try discriminate B. injection B as ->. inversion A as [|a ? r ? A1 A2]; subst. inversion A2; subst. clear A A2.
    inversion IH as [|? ? IH1 _]; subst.
    destruct a as [| | | | | | |o' s]; try discriminate A1; try (apply mul_m1; exact A1).
    + apply ev_int in A1. destruct A1 as [C <-]. apply ev_ident, ev_int. apply (ical_un n NEG (- ival n)); auto.
    + destruct (contains_i 8 (TExpr o' s)) eqn:Q; [rewrite (float_none E _ Q) in A1; discriminate|]. apply mul_m1. exact A1.
  - (* ADD *)
    apply ev_nary in H; auto. destruct H as (L & w & Q & zs & A & B). injection Q as <-. apply asem_fl in B. destruct B as (_ & _ & B). pose proof (evn_R E ts zs A) as Rz. rewrite fl_add in B by auto. subst z.
    assert (A2 : evn E (map neg ts) (map opp zs)). { clear L Rz. unfold evn in *. induction A as [|t z ts zs A1 A2 IHA]; cbn [map]; constructor; inversion IH; subst; auto. }
    apply sem_ge; [auto|rewrite map_length; auto|]. pose proof (sem_add E _ _ A2) as S. unfold opp at 1. rewrite wrap_opp. rewrite sum_opp in S. apply S. destruct ts; [cbn in L; lia|discriminate].
  - (* SUB *)
    destruct ts as [|a [|b [|]]].
    + discriminate H.
    + apply ev_shaped, shaped_expr in H. destruct H as [H _]. discriminate H.
    + apply ev_binary in H; [|reflexivity]. destruct H as (x & y & m & A & B & M & Q). injection Q as ->. cbn [meaning] in M. injection M as <-. inversion IH as [|? ? IH1 _]; subst.
      apply sem_ge; cbn [length]; auto. replace (opp (wrap256 (x - y))) with (wrap256 (fold_right Z.add 0 [opp x; y])).
      * apply sem_add; [|discriminate]. apply evn_one; auto. apply evn_one; auto. constructor.
      * cbn [fold_right]. unfold opp. rewrite wrap_add_l, wrap_opp. f_equal; lia.
    + apply ev_shaped, shaped_expr in H. destruct H as [H _]. discriminate H.
  - (* NEG *)
    destruct ts as [|a [|]]; try (apply ev_shaped, shaped_expr in H; destruct H as [H _]; discriminate H).
    apply ev_unary in H; [|reflexivity]. destruct H as (x & m & A & M & Q). injection Q as ->. cbn [meaning] in M. injection M as <-. apply ev_ident. unfold opp. rewrite wrap_opp. rewrite A. do 2 f_equal. symmetry. rewrite Z.opp_involutive. apply wrap_id. apply (ev_R E a _ A).
Qed.
Lemma neg_expr : forall t, is_expr (neg t) = true.
Proof. intros t. destruct t as [| | | | | | |o ts]; auto. destruct o; auto. cbn [neg]. destruct ts as [|[] r]; auto. destruct (contains_i 8 _); auto. Qed.
Lemma of_eitem : forall t, is_expr t = true -> eitem (of_item t) = t. Proof. intros t H. destruct t; try discriminate H. reflexivity. Qed.
Lemma xform_neg_le : forall E o ts, le E (TExpr o ts) (eitem (xform_neg (o, ts))).
Proof.
  intros E o ts v H. destruct o; try exact H.
  - destruct ts as [|a [|b [|]]]; try (apply ev_shaped, shaped_expr in H; destruct H as [H _]; discriminate H).
    apply ev_binary in H; [|reflexivity]. destruct H as (x & y & m & A & B & M & ->). cbn [meaning] in M. injection M as <-. apply neg_ok in B. cbn [xform_neg eitem fst snd].
    apply sem_ge; cbn [length]; auto. replace (wrap256 (x - y)) with (wrap256 (fold_right Z.add 0 [x; opp y])); [apply sem_add; [|discriminate]; apply evn_one; auto; apply evn_one; auto; constructor|].
    cbn [fold_right]. unfold opp. rewrite Z.add_0_r, wrap_add_r. f_equal; lia.
  - destruct ts as [|a [|]]; try (apply ev_shaped, shaped_expr in H; destruct H as [H _]; discriminate H).
    apply ev_unary in H; [|reflexivity]. destruct H as (x & m & A & M & ->). cbn [meaning] in M. injection M as <-. cbn [xform_neg]. rewrite of_eitem by apply neg_expr. apply neg_ok. apply ev_ident. exact A.
Qed.
(** shape and depth *)
Lemma neg_shaped : forall t, shaped t -> shaped (neg t).
Proof.
  induction t as [| | | | | | |o ts IH] using item_ind2; intros S; try exact S; try (apply shaped_expr; split; [cbn; lia|repeat constructor; auto]).
  assert (OTHER : shaped (TExpr MUL [TInt m1; TExpr o ts])) by (apply shaped_expr; split; [cbn; lia|constructor; [exact I|constructor; [exact S|constructor]]]).
  assert (MM : forall x, shaped x -> shaped (TExpr MUL [x; TInt m1])) by (intros; apply shaped_expr; split; [cbn; lia|constructor; [assumption|constructor; [exact I|constructor]]]).
  apply shaped_expr in S. destruct S as [A F]. destruct o; try exact OTHER; clear OTHER; cbn [neg].
  - cbn in A. destruct ts as [|a [|]]; try discriminate A. inversion F as [|? ? F1 _]; subst. inversion IH as [|? ? I1 _]; subst. specialize (I1 F1).
    assert (ID : forall x, shaped x -> shaped (TExpr IDENT [x])) by (intros; apply shaped_expr; split; [reflexivity|constructor; [assumption|constructor]]).
    destruct a as [| | | | | | |o' s]; auto; try (apply MM; exact F1); try (apply ID; exact I). destruct (contains_i 8 (TExpr o' s)); [|apply MM; exact F1]. apply ID. destruct o'; auto.
  - apply shaped_expr. rewrite map_length. split; auto. rewrite Forall_map. rewrite Forall_forall in *. auto.
  - cbn in A. destruct ts as [|a [|b [|]]]; try discriminate A. inversion F as [|? ? F1 F2]; subst. inversion IH as [|? ? I1 _]; subst. apply shaped_expr. split; [cbn; lia|]. constructor; auto.
  - apply shaped_expr. split; auto.
Qed.
Lemma xform_neg_shaped : forall o ts, shaped (TExpr o ts) -> shaped (eitem (xform_neg (o, ts))).
Proof.
  intros o ts S. destruct o; try exact S.
  - apply shaped_expr in S. destruct S as [A F]. cbn in A. destruct ts as [|a [|b [|]]]; try discriminate A. inversion F as [|? ? F1 F2]; subst. inversion F2; subst. apply shaped_expr. split; [cbn; lia|]. constructor; [assumption|constructor; [apply neg_shaped; assumption|constructor]].
  - cbn [xform_neg]. rewrite of_eitem by apply neg_expr. apply neg_shaped. apply shaped_expr in S. apply shaped_expr. exact S.
Qed.
Definition maxd (ts : list item) : nat := fold_right (fun a m => Nat.max (depth a) m) 0%nat ts.
Lemma maxd_map : forall ts, Forall (fun t => (depth (neg t) <= depth t + 1)%nat) ts -> (maxd (map neg ts) <= maxd ts + 1)%nat.
Proof. intros ts F. induction F; cbn [map maxd fold_right]; [lia|]. fold (maxd (map neg l)) (maxd l). lia. Qed.
Lemma neg_depth : forall t, (depth (neg t) <= depth t + 1)%nat.
Proof.
  induction t as [| | | | | | |o ts IH] using item_ind2; try (cbn; lia).
  assert (OTHER : (depth (TExpr MUL [TInt m1; TExpr o ts]) <= depth (TExpr o ts) + 1)%nat) by (cbn [depth fold_right]; lia).
  destruct o; try exact OTHER; clear OTHER; cbn [neg].
  - destruct ts as [|a r]; [cbn; lia|]. inversion IH; subst. destruct a as [| | | | | | |o' s]; try (cbn; lia). destruct (contains_i 8 _); [|cbn [depth fold_right]; lia].
    destruct o'; cbn [depth fold_right] in *; lia.
  - pose proof (maxd_map ts IH). cbn [depth]. fold (maxd ts) (maxd (map neg ts)). lia.
  - destruct ts as [|a r]; [cbn; lia|]. inversion IH; subst. cbn [depth fold_right]. lia.
  - cbn [depth]. lia.
Qed.
Lemma depth_max : forall o ts, (maxd ts < depth (TExpr o ts))%nat. Proof. intros. cbn [depth]. fold (maxd ts). destruct o; lia. Qed.
Lemma xform_neg_depth : forall o ts, (maxd (snd (xform_neg (o, ts))) < depth (TExpr o ts))%nat.
Proof.
  intros o ts. destruct o; try apply depth_max.
  - destruct ts as [|a [|b r]]; cbn [xform_neg snd]; try (cbn; lia). pose proof (neg_depth b). cbn [maxd fold_right depth]. lia.
  - cbn [xform_neg]. pose proof (neg_depth (TExpr IDENT ts)) as D. pose proof (neg_expr (TExpr IDENT ts)) as X. destruct (neg (TExpr IDENT ts)) as [| | | | | | |o' l]; try discriminate X. cbn [of_item snd]. pose proof (depth_max o' l). cbn [depth] in D |- *. fold (maxd ts) (maxd l) in *. cbn [depth] in *. fold (maxd l) in *. lia.
Qed.
Lemma neg_leaves : forall P t, leaves P t -> leaves P (neg t).
Proof.
  intros P. induction t as [| | | | | | |o ts IH] using item_ind2; intros S; try (apply leaves_expr; constructor; [exact I|constructor; [exact S|constructor]]).
  assert (OTHER : leaves P (TExpr MUL [TInt m1; TExpr o ts])) by (apply leaves_expr; constructor; [exact I|constructor; [exact S|constructor]]).
  assert (MM : forall x, leaves P x -> leaves P (TExpr MUL [x; TInt m1])) by (intros; apply leaves_expr; constructor; [assumption|constructor; [exact I|constructor]]).
  apply leaves_expr in S. destruct o; try exact OTHER; clear OTHER; cbn [neg].
  - destruct ts as [|a r]; [apply MM; exact I|]. inversion S as [|? ? S1 S2]; subst. inversion IH as [|? ? I1 _]; subst. specialize (I1 S1).
    destruct a as [| | | | | | |o' s]; try (apply MM; exact S1); try (apply leaves_expr; constructor; [exact I|exact S2]).
    destruct (contains_i 8 _); [|apply MM; exact S1]. apply leaves_expr. constructor; auto. destruct o'; auto.
  - apply leaves_expr. rewrite Forall_map. rewrite Forall_forall in *. auto.
  - destruct ts as [|a r]; apply leaves_expr; auto. inversion S; subst. inversion IH; subst. constructor; auto.
  - apply leaves_expr. exact S.
Qed.
Lemma xform_neg_leaves : forall P o ts, leaves P (TExpr o ts) -> leaves P (eitem (xform_neg (o, ts))).
Proof.
  intros P o ts S. destruct o; try exact S.
  - apply leaves_expr in S. destruct ts as [|a [|b r]]; try (apply leaves_expr; exact S). inversion S as [|? ? S1 S2]; subst. inversion S2; subst. apply leaves_expr. cbn [xform_neg snd]. constructor; [assumption|constructor; [apply neg_leaves; assumption|assumption]].
  - cbn [xform_neg]. rewrite of_eitem by apply neg_expr. apply neg_leaves. apply leaves_expr in S. apply leaves_expr. exact S.
Qed.

(** * Levelling brings in no new leaves *)
Section Leaves.
Variable P : item -> Prop.
Notation lv := (leaves P).
Lemma lv_strip : forall t, lv t -> lv (strip t).
Proof.
  fix IH 1. intros t G. destruct t as [| | | | | | |o ts]; try exact G. destruct ts as [|a r]; [exact G|]. cbn [strip]. destruct (op_eq o IDENT); [|exact G]. apply IH. apply leaves_expr in G. inversion G. assumption.
Qed.
Lemma lv_top : forall t, lv t -> lv (eitem (top t)).
Proof.
  fix IH 1. intros t G. assert (D : forall x, (forall o ts, x <> TExpr o ts) -> lv x -> lv (eitem (of_item x))).
  { intros x _ L. destruct x; try exact L; apply leaves_expr; repeat constructor; exact L. }
  destruct t as [| | | | | | |o ts]; try (apply D; [discriminate|exact G]). destruct ts as [|a r]; [exact G|]. cbn [top]. destruct (op_eq o IDENT && is_expr a); [|exact G]. apply IH. apply leaves_expr in G. inversion G. assumption.
Qed.
Lemma lv_set : forall a k t a', Forall lv a -> lv t -> set_nth a k t = Some a' -> Forall lv a'.
Proof.
  intros a k t a' F L H. unfold set_nth in H. destruct (_ && _); [|discriminate]. injection H as <-. rewrite Forall_forall in *. intros x I. apply in_app_or in I. destruct I as [I|[<-|I]]; auto; apply F.
  - rewrite <- (firstn_skipn (Z.to_nat k) a). apply in_or_app. auto.
  - rewrite <- (firstn_skipn (S (Z.to_nat k)) a). apply in_or_app. auto.
Qed.
Lemma lv_up : forall fc o ts a k f a' k' f', Forall lv ts -> Forall lv a -> up_sub fc o ts (a, k, f) = Some (a', k', f') -> Forall lv a'.
Proof.
  intros fc o. induction ts as [|t r IH]; intros a k f a' k' f' Ft Fa H; cbn [up_sub] in H; [injection H as <- _ _; auto|]. inversion Ft as [|? ? L Fr]; subst.
  assert (PL : (match set_nth a (if k =? f then k - 1 else k) t with Some a'0 => up_sub fc o r (a'0, (if k =? f then k - 1 else k) - 1, f) | None => None end) = Some (a', k', f') -> Forall lv a').
  { intros Q. destruct (set_nth a _ t) eqn:S; [|discriminate]. eapply IH; [exact Fr| |exact Q]. eapply lv_set; [exact Fa| |eassumption]; first [exact L|exact I]. }
  destruct fc; [|destruct t; apply PL; exact H]. destruct t; try (apply PL; exact H).
  destruct (f =? -1).
  - destruct (set_nth a k (TInt n)) eqn:S; [|discriminate]. eapply IH; [exact Fr| |exact H]. eapply lv_set; [exact Fa| |eassumption]; first [exact L|exact I].
  - destruct (get_nth a f) as [[]|]; try discriminate. destruct (set_nth a f _) eqn:S; [|discriminate]. eapply IH; [exact Fr| |exact H]. eapply lv_set; [exact Fa| |exact S]. exact I.
Qed.
Lemma lv_copy : forall fc o i a k f a' k' f', Forall lv a -> copy_up fc o i (a, k, f) = Some (a', k', f') -> Forall lv a'.
Proof.
  intros fc o. induction i as [|j IH]; intros a k f a' k' f' Fa H; cbn [copy_up] in H; [injection H as <- _ _; auto|]. destruct (nth_error a j) as [t|] eqn:Q; [|discriminate].
  assert (L : lv t). { rewrite Forall_forall in Fa. apply Fa. apply (nth_error_In _ _ Q). }
  assert (PL : (if k =? Z.of_nat j then copy_up fc o j (a, k - 1, f) else match set_nth a (if k =? f then k - 1 else k) t with Some a'0 => copy_up fc o j (a'0, (if k =? f then k - 1 else k) - 1, if Z.of_nat j =? f then (if k =? f then k - 1 else k) else f) | None => None end) = Some (a', k', f') -> Forall lv a').
  { intros X. destruct (k =? Z.of_nat j); [eapply IH; eauto|]. destruct (set_nth a _ t) eqn:S; [|discriminate]. eapply IH; [|exact X]. eapply lv_set; [exact Fa| |eassumption]; first [exact L|exact I]. }
  destruct t; try (apply PL; exact H). destruct (op_eq o0 o); [|apply PL; exact H]. destruct (up_sub fc o (rev ts) (a, k, f)) as [[[a1 k1] f1]|] eqn:U; [|discriminate]. eapply IH; [|exact H]. eapply lv_up; [|exact Fa|exact U]. apply leaves_expr in L. apply Forall_rev. exact L.
Qed.
Lemma lv_remove : forall k l, Forall lv l -> Forall lv (remove_nth k l).
Proof.
  intros k l F. unfold remove_nth. apply Forall_app. split; rewrite Forall_forall in *; intros x I; apply F.
  - rewrite <- (firstn_skipn k l). apply in_or_app. auto.
  - rewrite <- (firstn_skipn (S k) l). apply in_or_app. auto.
Qed.
Lemma lv_simp : forall o l f n st srm o' l' h, Forall lv l -> simplify_identity o l f n st srm = Fin (o', l', h) -> Forall lv l'.
Proof.
  intros o l f n st srm o' l' h F H. unfold simplify_identity in H. set (g := negb (negb srm && op_eq o MUL && is_pos1 n && contains 1 (o, l)) && _) in H. assert (F1 : Forall lv (if g then remove_nth f l else l)) by (destruct g; auto using lv_remove). set (l1 := if g then remove_nth f l else l) in *.
  destruct (negb g && (1 <? length l1)%nat && is_constant o n).
  - destruct (existsb _ st); [discriminate|]. injection H as <- <- <-. repeat constructor.
  - destruct l1 as [|t [|t2 r]]; [injection H as <- <- <-; auto| |injection H as <- <- <-; auto]. injection H as <- <- <-. constructor; [|constructor]. inversion F1; subst. match goal with |- leaves P (if ?b then _ else _) => destruct b; [exact I|assumption] end.
Qed.
Lemma lv_level_up : forall fc si srm o l f oldn lvl lvlf o' l', Forall lv l -> level_up fc si srm o l f oldn lvl lvlf = Fin (o', l') -> Forall lv l'.
Proof.
  intros fc si srm o l f oldn lvl lvlf o' l' F H. unfold level_up in H. destruct (_ || _); [injection H as <- <-; auto|]. cbv zeta in H. set (lv' := if fc then lvl - lvlf + _ else lvl) in H.
  assert (FA : Forall lv (firstn (Z.to_nat lv') (l ++ repeat TNone (Z.to_nat lv')))).
  { assert (X : Forall lv (l ++ repeat TNone (Z.to_nat lv'))). { apply Forall_app. split; auto. apply Forall_forall. intros x I. apply repeat_spec in I. subst. exact Logic.I. }
    rewrite <- (firstn_skipn (Z.to_nat lv')) in X. apply Forall_app in X. tauto. }
  destruct (copy_up _ _ _ _) as [[[a' k'] f']|] eqn:C; [|discriminate]. apply lv_copy in C; auto. destruct (si && _); [|injection H as <- <-; auto]. destruct (get_nth a' f') as [[]|]; try discriminate. destruct (simplify_identity _ _ _ _ _ _) as [[[o1 l1] h]| |] eqn:S; try discriminate. injection H as <- <-. exact (lv_simp _ _ _ _ _ _ _ _ _ C S).
Qed.
Lemma lv_fold : forall o r n, Forall lv r -> Forall lv (snd (fold_ints o n r)).
Proof. intros o r n F. rewrite fold_ints_eq. cbn [snd]. apply Forall_forall. intros x I. apply filter_In in I. rewrite Forall_forall in F. apply F. tauto. Qed.
Lemma lv_level_op : forall fc si srm e e', lv (eitem e) -> level_op fc si srm e = Fin e' -> lv (eitem e').
Proof.
  intros fc si srm e [o' l'] L H. unfold level_op in H. assert (T : lv (eitem (strip_top e))) by (apply lv_top; exact L). destruct (strip_top e) as [o ts0]. apply leaves_expr in T. cbn [snd] in T.
  assert (TS : Forall lv (map strip ts0)) by (rewrite Forall_map; eapply Forall_impl; [|exact T]; intros; apply lv_strip; auto). set (ts := map strip ts0) in *. cbv zeta in H. apply leaves_expr. cbn [snd].
  match type of H with match ?x with _ => _ end = _ => destruct x as [[k n]|] end.
  - pose proof (lv_fold o (skipn (S k) ts) n) as FO. destruct (fold_ints o n (skipn (S k) ts)) as [n' post]. cbn [snd] in FO.
    assert (FL : Forall lv (firstn k ts ++ TInt n' :: post)).
    { assert (F1 : Forall lv (firstn k ts)) by (rewrite <- (firstn_skipn k ts) in TS; apply Forall_app in TS; tauto). assert (F2 : Forall lv (skipn (S k) ts)) by (rewrite <- (firstn_skipn (S k) ts) in TS; apply Forall_app in TS; tauto).
      apply Forall_app. split; auto. constructor; auto. exact I. }
    set (l := firstn k ts ++ TInt n' :: post) in *. match type of H with match ?x with _ => _ end = _ => destruct x as [[[o1 l1] h]| |] eqn:S end; try discriminate. eapply lv_level_up; [|exact H].
    destruct si; [exact (lv_simp _ _ _ _ _ _ _ _ _ FL S)|]. injection S as <- <- <-. exact FL.
  - exact (lv_level_up _ _ _ _ _ _ _ _ _ _ _ TS H).
Qed.
End Leaves.
