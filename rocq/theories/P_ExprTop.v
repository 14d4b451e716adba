(** yasm_expr_create, yasm_expr_simplify, yasm_expr_get_intnum and substitution (C30-C32, C55, C56). *)
From Coq Require Import ZArith List Bool Lia Permutation Arith Relations.
From Verif Require Import Lib M_BitVect P_BitVect P_BitVectIO M_Intnum P_Intnum M_Expr P_Expr P_ExprLevel P_ExprTree P_ExprTree2.
Import ListNotations.
Open Scope Z_scope.

(** * Specification *)
(** The symbols a term mentions. *)
Fixpoint syms (t : item) : list Z :=
  match t with TSym s => [s] | TExpr _ ts => flat_map syms ts | _ => [] end.
(** Constant [s] is defined by an expression that mentions constant [s']. *)
Definition dep (equ : Z -> option expr) (s s' : Z) : Prop :=
  exists d, equ s = Some d /\ In s' (syms (eitem d)) /\ equ s' <> None.
(** A constant mentioned in [e] leads to one that depends on itself. *)
Definition circular (equ : Z -> option expr) (e : expr) : Prop :=
  exists s0 s, In s0 (syms (eitem e)) /\ equ s0 <> None /\ clos_refl_trans Z (dep equ) s0 s /\ clos_trans Z (dep equ) s s.
(** Only integers and symbols in [S], under numeric operators. *)
Fixpoint closed (S : Z -> Prop) (t : item) : Prop :=
  match t with
  | TInt _ => True
  | TSym s => S s
  | TExpr o ts => nonnum o = false /\ (fix all l := match l with [] => True | a :: r => closed S a /\ all r end) ts
  | _ => False
  end.
Definition consts (equ : Z -> option expr) (S : Z -> Prop) : Prop := forall s, S s -> exists d, equ s = Some d /\ shaped (eitem d) /\ closed S (eitem d).
(** At most [n] constants. *)
Definition few (equ : Z -> option expr) (n : nat) : Prop := exists l : list Z, (length l <= n)%nat /\ forall s, equ s <> None -> In s l.
Definition with_sub (E : env) (f : Z -> Z) : env := Env (reg E) f (bcv E) (symv E) (segf E) (wrtf E).
Definition nosub (x : item) : Prop := match x with TSubst _ => False | _ => True end.

(** * No recursion is cut short *)
Lemma simp_nodeep : forall o l f n st srm, simplify_identity o l f n st srm <> Deep.
Proof.
  intros o l f n st srm. unfold simplify_identity. destruct (negb _ && _ && _); [destruct (existsb _ st); discriminate|]. match goal with |- match ?x with _ => _ end <> _ => destruct x as [|? [|? ?]]; discriminate end.
Qed.
Lemma level_up_nodeep : forall fc si srm o l f oldn lvl lvlf, level_up fc si srm o l f oldn lvl lvlf <> Deep.
Proof.
  intros. unfold level_up. destruct (_ || _); [discriminate|]. cbv zeta. destruct (copy_up _ _ _ _) as [[[a k] f']|]; [|discriminate]. destruct (_ && _); [|discriminate]. destruct (get_nth a f') as [[]|]; try discriminate.
  pose proof (simp_nodeep o a (Z.to_nat f') n) as K. match goal with |- context [simplify_identity ?o ?a ?k ?n ?st ?srm] => specialize (K st srm); destruct (simplify_identity o a k n st srm) as [[[? ?] ?]| |] end; [discriminate|discriminate|congruence].
Qed.
Lemma level_op_nodeep : forall srm e, level_op true true srm e <> Deep.
Proof.
  intros srm e. rewrite level_op_body. unfold body. cbv zeta. destruct (if negb _ then first_int _ else None) as [[k n]|]; [|apply level_up_nodeep]. destruct (fold_ints _ _ _) as [n' post].
  match goal with |- context [simplify_identity ?o ?a ?k ?n ?st ?srm] => pose proof (simp_nodeep o a k n st srm); destruct (simplify_identity o a k n st srm) as [[[? ?] ?]| |] end; [apply level_up_nodeep|discriminate|congruence].
Qed.
Lemma over_nodeep : forall F l st, (forall a st, In a l -> is_expr a = true -> F a st <> Deep) -> over F l st <> Deep.
Proof.
  intros F l. induction l as [|a r IH]; intros st H; cbn [over]; [discriminate|].
  assert (K : (match a with TExpr _ _ => F a st | _ => Fin (a, st) end) <> Deep).
  { destruct (is_expr a) eqn:X; [|destruct a; try discriminate X; discriminate]. pose proof (H a st (or_introl eq_refl) X). destruct a; try discriminate X. auto. }
  destruct (match a with TExpr _ _ => F a st | _ => Fin (a, st) end) as [[a' st1]| |]; [|discriminate|congruence].
  pose proof (IH st1 (fun b s I => H b s (or_intror I))). destruct (over F r st1) as [[? ?]| |]; [discriminate|discriminate|congruence].
Qed.
Lemma in_maxd : forall a l, In a l -> (depth a <= maxd l)%nat.
Proof. intros a l. induction l as [|b r IH]; intros H; [destruct H|]. cbn [maxd fold_right]. fold (maxd r). destruct H as [->|H]; [lia|]. specialize (IH H). lia. Qed.
Lemma node_nodeep : forall F srm t st n, is_expr t = true -> (depth t < S n)%nat -> (forall a st, is_expr a = true -> (depth a < n)%nat -> F a st <> Deep) -> node F srm t st <> Deep.
Proof.
  intros F srm t st n X D H. destruct t as [| | | | | | |o0 ts0]; try discriminate X. unfold node. cbn [of_item]. pose proof (xform_neg_depth o0 ts0) as XD. destruct (xform_neg (o0, ts0)) as [o ts]. cbn [snd] in XD.
  pose proof (over_nodeep F ts st) as K. destruct (over F ts st) as [[ts' st1]| |]; [|discriminate|].
  - pose proof (level_op_nodeep srm (seg_of (o, ts'))). destruct (level_op _ _ _ _); [discriminate|discriminate|congruence].
  - exfalso. apply K; auto. intros a s I Y. apply H; auto. apply in_maxd in I. lia.
Qed.
Lemma ltree_nodeep : forall n srm t st, is_expr t = true -> (depth t < n)%nat -> ltree n true true srm t st <> Deep.
Proof.
  induction n as [|n IH]; intros srm t st X D; [lia|]. rewrite ltree_node. pose proof (node_nodeep (ltree n true true srm) srm t st n X D (fun a s => IH srm a s)). destruct (node _ _ _ _) as [[? ?]| |]; [discriminate|discriminate|congruence].
Qed.
Lemma ltreex_nodeep : forall n srm xs t st, is_expr t = true -> (depth t < n)%nat -> ltreex n true true srm xs t st <> Deep.
Proof.
  induction n as [|n IH]; intros srm xs t st X D; [lia|]. rewrite ltreex_node. pose proof (node_nodeep (ltreex n true true srm xs) srm t st n X D (fun a s => IH srm xs a s)). destruct (node _ _ _ _) as [[e1 s1]| |]; [|discriminate|congruence].
  match goal with |- (let '(_, _) := ?f in _) <> _ => destruct f as [[o2 l2] s2] end. apply ltree_nodeep; auto.
Qed.

(** * Expansion of constants *)
Section Expand.
Variable equ : Z -> option expr.
Definition circ (seen : list Z) (a : item) : bool :=
  match a with TSym s => match equ s with Some _ => existsb (Z.eqb s) seen | None => false end | _ => false end.
Fixpoint eterms (go : item -> res (item * bool)) (seen : list Z) (l : list item) : res (list item * bool) :=
  match l with
  | [] => Fin ([], false)
  | a :: r =>
      if circ seen a then Fin (a :: r, true)
      else match go a with
           | Fin (a', e1) => match eterms go seen r with Fin (r', e2) => Fin (a' :: r', e1 || e2) | Fault => Fault | Deep => Deep end
           | Fault => Fault
           | Deep => Deep
           end
  end.
Lemma expand_expr : forall fuel seen o ts, expand fuel equ seen (TExpr o ts) =
  match eterms (expand fuel equ seen) seen ts with Fin (ts', e) => Fin (TExpr o ts', e) | Fault => Fault | Deep => Deep end.
Proof.
  intros fuel seen o ts.
  assert (K : forall f l, (fix terms (l : list item) : res (list item * bool) :=
      match l with
      | [] => Fin ([], false)
      | a :: r =>
          if match a with TSym s => match equ s with Some _ => existsb (Z.eqb s) seen | None => false end | _ => false end then Fin (a :: r, true)
          else match f a with
               | Fin (a', e1) => match terms r with Fin (r', e2) => Fin (a' :: r', e1 || e2) | Fault => Fault | Deep => Deep end
               | Fault => Fault | Deep => Deep end
      end) l = eterms f seen l).
  { intros f. induction l as [|a r IH]; [reflexivity|]. cbn [eterms]. rewrite <- IH. reflexivity. }
  destruct fuel as [|fuel]; rewrite <- (K _ ts); reflexivity.
Qed.
Lemma expand_leaf : forall fuel seen t, is_expr t = false -> expand fuel equ seen t =
  match t with
  | TSym s => match equ s with Some d => match fuel with O => Deep | S n => expand n equ (s :: seen) (eitem d) end | None => Fin (t, false) end
  | _ => Fin (t, false)
  end.
Proof. intros fuel seen t H. destruct t; try discriminate H; destruct fuel; cbn [expand]; try reflexivity; destruct (equ s) as [[o ts]|]; reflexivity. Qed.
(** the expansion as a relation *)
Inductive Exp : list Z -> item -> item -> bool -> Prop :=
  | X_leaf : forall seen t, is_expr t = false -> (forall s, t = TSym s -> equ s = None) -> Exp seen t t false
  | X_sym : forall seen s d t' b, equ s = Some d -> Exp (s :: seen) (eitem d) t' b -> Exp seen (TSym s) t' b
  | X_expr : forall seen o ts ts' b, ExpL seen ts ts' b -> Exp seen (TExpr o ts) (TExpr o ts') b
with ExpL : list Z -> list item -> list item -> bool -> Prop :=
  | XL_nil : forall seen, ExpL seen [] [] false
  | XL_circ : forall seen s r, equ s <> None -> In s seen -> ExpL seen (TSym s :: r) (TSym s :: r) true
  | XL_cons : forall seen a r a' r' b b', circ seen a = false -> Exp seen a a' b -> ExpL seen r r' b' -> ExpL seen (a :: r) (a' :: r') (b || b').
Scheme Exp_mut := Induction for Exp Sort Prop with ExpL_mut := Induction for ExpL Sort Prop.
Combined Scheme Exp_both from Exp_mut, ExpL_mut.
Lemma circ_true : forall seen a, circ seen a = true -> exists s, a = TSym s /\ equ s <> None /\ In s seen.
Proof.
  intros seen a H. destruct a; try discriminate H. cbn [circ] in H. destruct (equ s) eqn:Q; [|discriminate]. exists s. split; auto. split; [congruence|]. apply existsb_exists in H. destruct H as (x & I & X). apply Z.eqb_eq in X. subst. auto.
Qed.
Lemma expand_Exp : forall fuel seen t t' b, expand fuel equ seen t = Fin (t', b) -> Exp seen t t' b.
Proof.
  induction fuel as [|fuel IHf]; intros seen t; induction t as [| | | | | | |o ts IH] using item_ind2; intros t' bb H;
    try (rewrite expand_leaf in H by reflexivity; injection H as <- <-; apply X_leaf; [reflexivity|discriminate]).
  1,3: rewrite expand_leaf in H by reflexivity; destruct (equ s) as [d|] eqn:Q; [|injection H as <- <-; apply X_leaf; [reflexivity|congruence]]; [discriminate H || (eapply X_sym; [exact Q|apply IHf; exact H])].
  all: rewrite expand_expr in H; destruct (eterms _ seen ts) as [[ts' e]| |] eqn:T; try discriminate; injection H as <- <-; apply X_expr; clear -IH T; revert ts' e T; induction IH as [|a r A B IHl]; intros ts' e T; cbn [eterms] in T;
    [injection T as <- <-; constructor|]; destruct (circ seen a) eqn:C;
    [apply circ_true in C; destruct C as (s & -> & N & I); injection T as <- <-; constructor; auto|];
    destruct (expand _ equ seen a) as [[a' e1]| |] eqn:X; try discriminate; destruct (eterms _ seen r) as [[r' e2]| |] eqn:Y; try discriminate; injection T as <- <-; constructor; auto.
Qed.
Lemma syms_cons : forall o ts s, In s (syms (TExpr o ts)) <-> exists t, In t ts /\ In s (syms t).
Proof. intros. cbn [syms]. apply in_flat_map. Qed.
Definition cyc (t : item) : Prop := exists s0 s, In s0 (syms t) /\ equ s0 <> None /\ clos_refl_trans Z (dep equ) s0 s /\ clos_trans Z (dep equ) s s.
Definition cycL (l : list item) : Prop := exists t, In t l /\ cyc t.
Definition below (seen : list Z) (t : item) : Prop := forall x s, In x seen -> In s (syms t) -> equ s <> None -> clos_trans Z (dep equ) x s.
Lemma Exp_true : (forall seen t t' b, Exp seen t t' b -> b = true -> below seen t -> cyc t) /\
  (forall seen l l' b, ExpL seen l l' b -> b = true -> (forall t, In t l -> below seen t) -> cycL l).
Proof.
  apply Exp_both; intros; try discriminate.
  - assert (B2 : below (s :: seen) (eitem d)).
    { intros x s' [->|I] J N; [apply t_step; exists d; auto|]. apply t_trans with s; [apply H1; auto; [left; auto|congruence]|apply t_step; exists d; auto]. }
    destruct (H H0 B2) as (s0 & s1 & A1 & A2 & A3 & A4). exists s, s1. split; [left; auto|]. split; [congruence|]. split; auto. apply rt_trans with s0; auto. apply rt_step. exists d. auto.
  - destruct (H H0) as (t & I & s0 & s1 & A1 & A2 & A3 & A4).
    + intros t I x s J K N. apply H1; auto. apply syms_cons. eauto.
    + exists s0, s1. split; [apply syms_cons; eauto|auto].
  - exists (TSym s). split; [left; auto|]. exists s, s. split; [left; auto|]. split; auto. split; [apply rt_refl|]. apply (H0 (TSym s)); cbn; auto.
  - apply orb_true_iff in H1. destruct H1 as [-> | ->].
    + exists a. split; [left; auto|]. apply H; auto. apply H2. left; auto.
    + destruct H0 as (t & I & K); auto; [intros t I; apply H2; right; auto|]. exists t. split; [right; auto|auto].
Qed.
Definition safe (t : item) : Prop := forall s, In s (syms t) -> equ s <> None -> Acc (fun y x => dep equ x y) s.
Lemma Exp_false : (forall seen t t' b, Exp seen t t' b -> b = false -> safe t) /\ (forall seen l l' b, ExpL seen l l' b -> b = false -> forall t, In t l -> safe t).
Proof.
  apply Exp_both; intros; try discriminate.
  - intros s I N. destruct t; try destruct I; try discriminate; subst; try contradiction. rewrite (e0 s eq_refl) in N. congruence.
  - intros x [<-|[]] N. constructor. intros y (d' & Q & I & M). rewrite e in Q. injection Q as <-. apply (H H0); auto.
  - intros s I N. apply syms_cons in I. destruct I as (t & I & J). apply (H H0 t I); auto.
  - destruct H0.
  - apply orb_false_iff in H1. destruct H1 as [-> ->]. destruct H2 as [<-|H2]; auto.
Qed.
Lemma acc_nocycle : forall s, Acc (fun y x => dep equ x y) s -> ~ clos_trans Z (dep equ) s s.
Proof.
  intros s A. induction A as [s _ IH]. intros K. assert (N : exists y, dep equ s y /\ clos_refl_trans Z (dep equ) y s).
  { clear IH. apply clos_trans_t1n in K. inversion K; subst; [exists s; split; auto; apply rt_refl|]. exists y. split; auto. apply clos_trans_t1n_iff in H0. apply clos_rt_t with (y := s) (z := s) in H0 || idtac. clear -H0. induction H0; [apply rt_step; auto|eapply rt_trans; eauto]. }
  destruct N as (y & D & C). apply (IH y D). apply clos_rt_rt1n in C. assert (R1 : clos_refl_trans Z (dep equ) y s) by (apply clos_rt1n_rt; auto). eapply clos_rt_t; [exact R1|]. apply t_step. exact D.
Qed.
Lemma acc_reach : forall s s', clos_refl_trans Z (dep equ) s s' -> Acc (fun y x => dep equ x y) s -> Acc (fun y x => dep equ x y) s'.
Proof. intros s s' R. induction R; auto. intros A. inversion A. auto. Qed.
Lemma Exp_iff : forall t t' b, Exp [] t t' b -> (b = true <-> cyc t).
Proof.
  intros t t' b X. split.
  - intros H. apply (proj1 Exp_true _ _ _ _ X H). intros x s [].
  - intros (s0 & s & A1 & A2 & A3 & A4). destruct b; auto. exfalso. apply (acc_nocycle s); auto. apply (acc_reach s0); auto. apply (proj1 Exp_false _ _ _ _ X eq_refl); auto.
Qed.
(** what expansion preserves *)
Lemma Exp_le : forall E, env_equ equ E -> (forall seen t t' b, Exp seen t t' b -> le E t t') /\ (forall seen l l' b, ExpL seen l l' b -> Forall2 (le E) l l').
Proof.
  intros E K. apply Exp_both; intros; auto using le_refl.
  - intros v V. apply H. cbn [ev] in V. rewrite (K s d e) in V. unfold eval in V. fold (eitem d) in V. destruct (ev E (eitem d)) as [w|] eqn:Q; [|discriminate]. cbn [option_map] in V. injection V as <-. f_equal. apply ev_R in Q. destruct w as [z|x y]; cbn [Rv] in Q; cbn [wrapv]; [rewrite (wrap_id z) by exact Q|rewrite (wrap_id x (proj1 Q)), (wrap_id y (proj2 Q))]; reflexivity.
  - apply le_expr. auto.
  - constructor; [apply le_refl|]. clear. induction r; constructor; auto using le_refl.
Qed.
Lemma Exp_shaped : (forall s d, equ s = Some d -> shaped (eitem d)) -> (forall seen t t' b, Exp seen t t' b -> shaped t -> shaped t') /\ (forall seen l l' b, ExpL seen l l' b -> Forall shaped l -> Forall shaped l' /\ length l' = length l).
Proof.
  intros K. apply Exp_both; intros; auto.
  - apply H. eauto.
  - apply shaped_expr in H0. destruct H0 as [A B]. destruct (H B) as [C D]. apply shaped_expr. rewrite D. auto.
  - inversion H1; subst. destruct (H0 ltac:(auto)) as [A B]. split; [constructor; auto|cbn [length]; lia].
Qed.
Lemma Exp_leaves : forall P, (forall s d, equ s = Some d -> leaves P (eitem d)) -> (forall seen t t' b, Exp seen t t' b -> leaves P t -> leaves P t') /\ (forall seen l l' b, ExpL seen l l' b -> Forall (leaves P) l -> Forall (leaves P) l').
Proof.
  intros P K. apply Exp_both; intros; auto.
  - apply H. eauto.
  - apply leaves_expr in H0. apply leaves_expr. auto.
  - inversion H1; subst. constructor; auto.
Qed.
Definition noequ (x : item) : Prop := forall s, x = TSym s -> equ s = None.
Lemma Exp_noequ : (forall seen t t' b, Exp seen t t' b -> b = false -> leaves noequ t') /\ (forall seen l l' b, ExpL seen l l' b -> b = false -> Forall (leaves noequ) l').
Proof.
  apply Exp_both; intros; auto; try discriminate.
  - destruct t; try discriminate e; try exact I; try (intros s Q; discriminate Q). exact e0.
  - apply leaves_expr. auto.
  - apply orb_false_iff in H1. destruct H1 as [-> ->]. constructor; auto.
Qed.
Lemma closed_expr : forall S o ts, closed S (TExpr o ts) <-> nonnum o = false /\ Forall (closed S) ts.
Proof.
  intros S o ts. cbn [closed]. assert (K : forall l, (fix all l := match l with [] => True | a :: r => closed S a /\ all r end) l <-> Forall (closed S) l).
  { induction l as [|a r IH]; [split; auto|]. split; [intros [A B]; constructor; auto; apply IH; auto|intros H; inversion H; subst; split; auto; apply IH; auto]. }
  rewrite K. tauto.
Qed.
Definition none (s : Z) : Prop := False.
Lemma Exp_closed : forall S, consts equ S -> (forall seen t t' b, Exp seen t t' b -> b = false -> closed S t -> shaped t -> closed none t' /\ shaped t') /\
  (forall seen l l' b, ExpL seen l l' b -> b = false -> Forall (closed S) l -> Forall shaped l -> Forall (closed none) l' /\ Forall shaped l' /\ length l' = length l).
Proof.
  intros S K. apply Exp_both; intros; auto; try discriminate.
  - destruct t; try discriminate e; try destruct H0; auto. exfalso. destruct (K s H0) as (d & Q & _). rewrite (e0 s eq_refl) in Q. discriminate.
  - cbn [closed] in H1. destruct (K s H1) as (d' & Q & A & B). rewrite e in Q. injection Q as <-. auto.
  - apply closed_expr in H1. apply shaped_expr in H2. destruct H1 as [A B], H2 as [C D]. destruct (H H0 B D) as (X & Y & Z). split; [apply closed_expr; auto|]. apply shaped_expr. rewrite Z. auto.
  - apply orb_false_iff in H1. destruct H1 as [-> ->]. inversion H2; subst. inversion H3; subst. destruct (H eq_refl ltac:(auto) ltac:(auto)). destruct (H0 eq_refl ltac:(auto) ltac:(auto)) as (A & B & L). repeat split; auto. cbn [length]. lia.
Qed.
(** and it ends *)
Lemma expand_nodeep : forall l, (forall s, equ s <> None -> In s l) -> forall fuel seen t, NoDup seen -> incl seen l -> (length l <= fuel + length seen)%nat -> circ seen t = false -> exists t' b, expand fuel equ seen t = Fin (t', b).
Proof.
  intros l AL. induction fuel as [|fuel IHf]; intros seen t ND IC LE; induction t as [| | | | | | |o ts IH] using item_ind2; intros CI; try (rewrite expand_leaf by reflexivity; eauto).
  1,3: destruct (equ s) as [d|] eqn:Q; [|eauto]; assert (NI : ~ In s seen) by (intros I; cbn [circ] in CI; rewrite Q in CI; assert (X : existsb (Z.eqb s) seen = true) by (apply existsb_exists; exists s; split; auto; apply Z.eqb_refl); congruence);
    assert (ND2 : NoDup (s :: seen)) by (constructor; auto); assert (IC2 : incl (s :: seen) l) by (intros x [<-|I]; [apply AL; congruence|auto]); pose proof (NoDup_incl_length ND2 IC2) as LL; cbn [length] in LL;
    first [exfalso; lia|apply IHf; auto; cbn [length]; lia].
  all: rewrite expand_expr; match goal with |- context [eterms ?f ?x ?y] => assert (K : exists ts' e, eterms f x y = Fin (ts', e)) end;
    [clear CI; induction IH as [|a r A B IHl]; cbn [eterms]; [eauto|]; destruct (circ seen a) eqn:C; [eauto|]; destruct (A eq_refl) as (a' & e1 & AA); rewrite AA; destruct IHl as (r' & e2 & ->); eauto|destruct K as (ts' & e & ->); eauto].
Qed.
End Expand.

(** * Constant expressions fold to an integer *)
Definition numb (t : item) : Prop := exists n, t = TInt n \/ t = TExpr IDENT [TInt n].
Lemma body_ints : forall srm o n r, nonnum o = false -> exists m, body srm o (TInt n :: map TInt r) = Fin (IDENT, [TInt m]).
Proof.
  intros srm o n r N. unfold body. rewrite N. cbn [negb first_int skipn firstn app]. rewrite fold_ints_eq. assert (Q : non (map TInt r) = []) by (clear; induction r; auto). rewrite Q. cbv zeta. rewrite simp_single.
  exists (let h := icalf o (its (map TInt r)) n in if unary o then ical h o None else h). cbv zeta. destruct (unary o); apply level_up_not; reflexivity.
Qed.
Lemma numb_strip : forall l, Forall numb l -> exists r, map strip l = map TInt r /\ length r = length l.
Proof.
  intros l F. induction F as [|t l (n & [-> | ->]) F (r & A & B)]; [exists []; auto|..]; exists (n :: r); cbn [map strip length op_eq]; rewrite A, B; auto.
Qed.
Lemma level_op_num : forall srm o ts, nonnum o = false -> arity o (length ts) -> Forall numb ts -> exists m, level_op true true srm (o, ts) = Fin (IDENT, [TInt m]).
Proof.
  intros srm o ts N A F. rewrite level_op_body. unfold strip_top. cbn [fst snd].
  assert (K : exists l, top (TExpr o ts) = (o, l) /\ Forall numb l /\ l <> []).
  { destruct ts as [|a r]; [exfalso; destruct o; cbn in A; lia|]. inversion F as [|? ? (n & F1) F2]; subst. cbn [top]. destruct (op_eq o IDENT && is_expr a) eqn:Q; [|exists (a :: r); repeat split; auto; discriminate].
    apply andb_true_iff in Q. destruct Q as [Q1 Q2]. apply op_eq_ok in Q1. subst o. destruct F1 as [-> | ->]; [discriminate Q2|]. exists [TInt n]. split; auto. split; [|discriminate]. constructor; [exists n; auto|constructor]. }
  destruct K as (l & -> & FL & NE). cbn [fst snd]. destruct (numb_strip l FL) as (r & -> & L). destruct r as [|n r]; [destruct l; [congruence|discriminate L]|]. cbn [map]. apply body_ints; auto.
Qed.
Lemma neg_closed : forall S t, shaped t -> closed S t -> closed S (neg t).
Proof.
  intros S. assert (MM : forall x, closed S x -> closed S (TExpr MUL [x; TInt m1])) by (intros; apply closed_expr; split; auto; constructor; [assumption|constructor; [exact I|constructor]]).
  assert (M1 : forall x, closed S x -> closed S (TExpr MUL [TInt m1; x])) by (intros; apply closed_expr; split; auto; constructor; [exact I|constructor; [assumption|constructor]]).
  induction t as [| | | | | | |o ts IH] using item_ind2; intros SH K; try destruct K; try (apply M1; exact I || assumption).
  assert (K : closed S (TExpr o ts)) by (split; auto). clear H H0. pose proof (M1 _ K) as OTHER. apply closed_expr in K. destruct K as [A F]. apply shaped_expr in SH. destruct SH as [AR SH]. destruct o; try exact OTHER; clear OTHER; cbn [neg].
  - destruct ts as [|a r]; [discriminate AR|]. inversion F as [|? ? F1 F2]; subst; inversion IH as [|? ? I1 _]; subst; inversion SH as [|? ? SH1 _]; subst; specialize (I1 SH1 F1).
    destruct a as [| | | | | | |o' s]; try (destruct F1; fail); try (apply MM; exact F1); [apply closed_expr; split; auto; constructor; auto|]. destruct (contains_i 8 _); [|apply MM; exact F1]. apply closed_expr. split; auto. constructor; auto. destruct o'; auto.
  - apply closed_expr. split; auto. rewrite Forall_map. rewrite Forall_forall in *. auto.
  - destruct ts as [|a r]; apply closed_expr; split; auto. inversion F; subst. inversion IH; subst. inversion SH; subst. constructor; auto.
  - apply closed_expr. split; auto.
Qed.
Lemma xform_neg_closed : forall S o ts, shaped (TExpr o ts) -> closed S (TExpr o ts) -> closed S (eitem (xform_neg (o, ts))).
Proof.
  intros S o ts SH K. destruct o; try exact K.
  - apply shaped_expr in SH. destruct SH as [A SH]. apply closed_expr in K. destruct K as [_ K]. cbn in A. destruct ts as [|a [|b [|]]]; try discriminate A. inversion K as [|? ? K1 K2]; subst. inversion K2; subst. inversion SH as [|? ? S1 S2]; subst. inversion S2; subst.
    apply closed_expr. split; auto. cbn [xform_neg snd]. constructor; [assumption|constructor; [apply neg_closed; assumption|constructor]].
  - cbn [xform_neg]. rewrite of_eitem by apply neg_expr. apply neg_closed; [apply shaped_expr in SH; apply shaped_expr; exact SH|]. apply closed_expr in K. apply closed_expr. split; auto. apply K.
Qed.
Definition nok (n : nat) (F : item -> list (Z * Z) -> res (item * list (Z * Z))) : Prop :=
  forall a st, is_expr a = true -> (depth a < n)%nat -> shaped a -> closed none a -> exists m, F a st = Fin (TExpr IDENT [TInt m], st).
Lemma over_num : forall n F l st, nok n F -> (maxd l < n)%nat -> Forall shaped l -> Forall (closed none) l -> exists l', over F l st = Fin (l', st) /\ Forall numb l' /\ length l' = length l.
Proof.
  intros n F l st K. induction l as [|a r IH]; intros D SH CL; cbn [over]; [exists []; auto|]. cbn [maxd fold_right] in D. fold (maxd r) in D. inversion SH; subst. inversion CL; subst. destruct IH as (r' & O & NR & LR); auto; [lia|].
  destruct (is_expr a) eqn:X.
  - destruct (K a st X ltac:(lia) ltac:(auto) ltac:(auto)) as (m & Q). exists (TExpr IDENT [TInt m] :: r'). destruct a; try discriminate X. rewrite Q, O. split; auto. split; [constructor; auto; exists m; auto|cbn [length]; lia].
  - exists (a :: r'). destruct a; try discriminate X; try match goal with H : closed none _ |- _ => destruct H end. rewrite O. split; auto. split; [constructor; auto; exists n0; auto|cbn [length]; lia].
Qed.
Lemma node_num : forall n F srm t st, nok n F -> is_expr t = true -> (depth t < Datatypes.S n)%nat -> shaped t -> closed none t -> exists m, node F srm t st = Fin ((IDENT, [TInt m]), st).
Proof.
  intros n F srm t st K X D SH CL. destruct t as [| | | | | | |o0 ts0]; try discriminate X. unfold node. cbn [of_item].
  pose proof (xform_neg_shaped o0 ts0 SH) as S1. pose proof (xform_neg_closed _ o0 ts0 SH CL) as C1. pose proof (xform_neg_depth o0 ts0) as D1. destruct (xform_neg (o0, ts0)) as [o ts]. cbn [eitem fst snd] in *.
  apply shaped_expr in S1. destruct S1 as [A1 S1]. apply closed_expr in C1. destruct C1 as [N1 C1]. destruct (over_num n F ts st K ltac:(lia) S1 C1) as (ts' & -> & NT & LT).
  assert (SG : seg_of (o, ts') = (o, ts')) by (destruct o; try discriminate N1; reflexivity). rewrite SG. destruct (level_op_num srm o ts' N1) as (m & ->); auto; [rewrite LT; auto|]. exists m. reflexivity.
Qed.
Lemma ltree_num : forall n srm, nok n (ltree n true true srm).
Proof.
  induction n as [|n IH]; intros srm a st X D SH CL; [lia|]. rewrite ltree_node. destruct (node_num n _ srm a st (IH srm) X D SH CL) as (m & ->). exists m. reflexivity.
Qed.
Lemma ltreex_num : forall n srm (xs : list xform), (forall (x : xform) m st, In x xs -> x (IDENT, [TInt m]) st = ((IDENT, [TInt m]), st)) -> nok n (ltreex n true true srm xs).
Proof.
  intros n srm xs K. induction n as [|n IH]; intros a st X D SH CL; [lia|]. rewrite ltreex_node. destruct (node_num n _ srm a st IH X D SH CL) as (m & ->).
  assert (Q : fold_left (fun (s : expr * list (Z * Z)) (x : xform) => x (fst s) (snd s)) xs ((IDENT, [TInt m]) : expr, st) = ((IDENT, [TInt m]), st)).
  { clear -K. induction xs as [|x xs IH]; auto. cbn [fold_left fst snd]. rewrite K by (left; auto). apply IH. intros. apply K. right. auto. }
  unfold xform in Q. unfold expr in *. rewrite Q. apply ltree_num; auto; [apply shaped_expr; split; [reflexivity|constructor; [exact I|constructor]]|apply closed_expr; split; auto; constructor; [exact I|constructor]].
Qed.

(** * The whole simplification *)
Lemma eitem_circular : forall equ e, cyc equ (eitem e) <-> circular equ e. Proof. intros. reflexivity. Qed.
Lemma Exp_expr : forall equ seen o ts t' b, Exp equ seen (TExpr o ts) t' b -> is_expr t' = true.
Proof. intros equ seen o ts t' b H. inversion H; subst; auto. Qed.
Lemma level_tree_ok : forall (C : env -> list (Z * Z) -> Prop) (Pf : list (Z * Z) -> item -> Prop) nequ equ srm xs e e' st b,
  (forall E st ext, C E (st ++ ext) -> C E st) -> (forall st ext x, Pf st x -> Pf (st ++ ext) x) -> Forall (xok C Pf) xs ->
  shaped (eitem e) -> (forall s d, equ s = Some d -> shaped (eitem d)) ->
  level_tree nequ equ true true srm xs e = Fin (e', st, b) ->
  good (eitem e') /\ (b = true <-> circular equ e) /\
  (forall E v, C E st -> env_equ equ E -> eval E e = Some v -> eval E e' = Some v) /\
  exists t, Exp equ [] (eitem e) t b /\ (leaves (Pf []) t -> leaves (Pf st) (eitem e')).
Proof.
  intros C Pf nequ equ srm xs e e' st b Cm Pm XS SH SD H. unfold level_tree in H. fold (eitem e) in H.
  destruct (expand nequ equ [] (eitem e)) as [[t b']| |] eqn:X; try discriminate. apply expand_Exp in X. pose proof (Exp_expr _ _ _ _ _ _ X) as IE.
  assert (K : fok C Pf (match xs with [] => ltree (Datatypes.S (depth t)) true true srm | _ => ltreex (Datatypes.S (depth t)) true true srm xs end)) by (destruct xs; [apply ltree_ok; auto|apply ltreex_ok; auto]).
  assert (H2 : exists t' , (match xs with [] => ltree (Datatypes.S (depth t)) true true srm | _ => ltreex (Datatypes.S (depth t)) true true srm xs end) t [] = Fin (t', st) /\ e' = of_item t' /\ b = b').
  { destruct xs; match type of H with match ?x with _ => _ end = _ => destruct x as [[t' s']| |] eqn:Q end; try discriminate; injection H as <- <- <-; eauto. }
  destruct H2 as (t' & H2 & -> & ->). apply K in H2; auto; [|apply (proj1 (Exp_shaped equ SD) _ _ _ _ X); auto]. destruct H2 as [G (EXT & LE & LV)].
  assert (IE' : eitem (of_item t') = t' \/ eitem (of_item t') = TExpr IDENT [t']) by (destruct t'; cbn; auto).
  assert (GL : good (eitem (of_item t')) /\ (forall E, le E t' (eitem (of_item t'))) /\ (forall P, leaves P t' -> leaves P (eitem (of_item t')))).
  { destruct IE' as [-> | ->]; [auto using le_refl|]. split; [apply good_ident; auto|]. split; [intros E v V; apply ev_ident; auto|]. intros P L. apply leaves_expr. constructor; auto. }
  destruct GL as (G2 & L2 & P2). split; auto. split; [apply (Exp_iff equ _ _ _ X)|]. split; [|exists t; split; auto].
  intros E v CE EE V. apply L2, LE; auto. apply (proj1 (Exp_le equ E EE) _ _ _ _ X). exact V.
Qed.
Lemma level_tree_nodeep : forall nequ equ srm xs e, few equ nequ -> level_tree nequ equ true true srm xs e <> Deep.
Proof.
  intros nequ equ srm xs e (l & L & AL). unfold level_tree. destruct (expand_nodeep equ l AL nequ [] (TExpr (fst e) (snd e))) as (t & b & X); auto; [constructor|intros x []|cbn [length]; lia|]. rewrite X. apply expand_Exp in X. pose proof (Exp_expr _ _ _ _ _ _ X) as IE.
  destruct xs as [|x xs]; [pose proof (ltree_nodeep (Datatypes.S (depth t)) srm t [] IE ltac:(lia))|pose proof (ltreex_nodeep (Datatypes.S (depth t)) srm (x :: xs) t [] IE ltac:(lia))];
    match goal with |- match ?x with _ => _ end <> _ => destruct x as [[? ?]| |]; [discriminate|discriminate|congruence] end.
Qed.
Lemma level_tree_closed : forall nequ equ srm (xs : list xform) S e, few equ nequ -> consts equ S -> shaped (eitem e) -> closed S (eitem e) -> ~ circular equ e ->
  (forall (x : xform) m st, In x xs -> x (IDENT, [TInt m]) st = ((IDENT, [TInt m]), st)) ->
  exists m, level_tree nequ equ true true srm xs e = Fin ((IDENT, [TInt m]), [], false).
Proof.
  intros nequ equ srm xs S e (l & L & AL) CS SH CL NC XS. unfold level_tree. fold (eitem e). destruct (expand_nodeep equ l AL nequ [] (eitem e)) as (t & b & X); auto; [constructor|intros x []|cbn [length]; lia|]. rewrite X. apply expand_Exp in X. pose proof (Exp_expr _ _ _ _ _ _ X) as IE.
  assert (b = false) by (destruct b; auto; exfalso; apply NC; apply (Exp_iff equ _ _ _ X); auto). subst b. destruct (proj1 (Exp_closed equ S CS) _ _ _ _ X eq_refl CL SH) as [C1 S1].
  destruct xs as [|x xs]; [destruct (ltree_num (Datatypes.S (depth t)) srm t [] IE ltac:(lia) S1 C1) as (m & Q)|destruct (ltreex_num (Datatypes.S (depth t)) srm (x :: xs) XS t [] IE ltac:(lia) S1 C1) as (m & Q)]; rewrite Q; exists m; reflexivity.
Qed.
