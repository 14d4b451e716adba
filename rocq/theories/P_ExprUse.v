(** Simplification, integer values, building and substitution of expressions (C30-C32, C55, C56). *)
From Coq Require Import ZArith List Bool Lia Permutation Arith Relations.
From Verif Require Import Lib M_BitVect P_BitVect P_BitVectIO M_Intnum P_Intnum M_Expr P_Expr P_ExprLevel P_ExprTree P_ExprTree2 P_ExprTop.
Import ListNotations.
Open Scope Z_scope.

(** * Simplification *)
Lemma dist_cb_ok : forall label dist cbd (P : item -> Prop) p p2 st t' st',
  dist_cb dist p p2 st = Some (t', st') ->
  (exists ext, st' = st ++ ext) /\ live t' = true /\ shaped t' /\ leaves P t' /\
  forall E, (cbd = true -> env_labels label E /\ env_dist dist E) -> cbd = true -> exists z, ev E t' = Some (VNum z) /\ wrap256 z = wrap256 (bcv E p2 - bcv E p).
Proof.
  intros label dist cbd P p p2 st t' st' H. unfold dist_cb in H. destruct (dist p p2) as [n|] eqn:D; [|discriminate]. injection H as <- <-. split; [exists []; rewrite app_nil_r; auto|]. split; auto. split; [exact I|]. split; [exact I|].
  intros E C T. destruct (C T) as [_ ED]. destruct (ED _ _ _ D) as [K V]. exists (ival n). cbn [ev]. rewrite K. split; auto. rewrite V. apply wrap_id, R_wrap.
Qed.
Lemma simplify_ok : forall nequ equ label sect dist cbd e e' st b,
  shaped (eitem e) -> (forall s d, equ s = Some d -> shaped (eitem d)) ->
  simplify nequ equ label sect dist cbd e = Fin (e', st, b) ->
  good (eitem e') /\ (b = true <-> circular equ e) /\
  (forall E v, (cbd = true -> env_labels label E /\ env_dist dist E) -> env_equ equ E -> eval E e = Some v -> eval E e' = Some v) /\
  (forall P : item -> Prop, leaves P (eitem e) -> (forall s d, equ s = Some d -> leaves P (eitem d)) -> leaves P (eitem e')) /\
  (b = false -> leaves (fun x => forall s, x = TSym s -> equ s = None) (eitem e')).
Proof.
  intros nequ equ label sect dist cbd e e' st b SH SD H. unfold simplify in H.
  pose (C := fun (E : env) (_ : list (Z * Z)) => cbd = true -> env_labels label E /\ env_dist dist E).
  assert (K : forall P : item -> Prop, Forall (xok C (fun _ => P)) (if cbd then [bc_dist_base _ label sect (dist_cb dist)] else [])).
  { intros P. destruct cbd; [|constructor]. constructor; [|constructor]. apply dist_xok; unfold C; auto.
    - intros E s HE. apply HE. auto.
    - intros p p2 s t' s' Q. destruct (dist_cb_ok label dist true P p p2 s t' s' Q) as (A1 & A2 & A3 & A4 & A5). repeat split; auto. }
  assert (M : forall P : item -> Prop, _) by (intros P; exact (level_tree_ok C (fun _ => P) nequ equ true _ e e' st b (fun E s x h => h) (fun s x y h => h) (K P) SH SD H)).
  destruct (M (fun _ => True)) as (G & CI & V & _). split; auto. split; auto. split; [intros E v CE; apply V; exact CE|]. split.
  - intros P L LD. destruct (M P) as (_ & _ & _ & t & X & Y). apply Y. apply (proj1 (Exp_leaves equ P LD) _ _ _ _ X). auto.
  - intros ->. destruct (M (noequ equ)) as (_ & _ & _ & t & X & Y). apply Y. apply (proj1 (Exp_noequ equ) _ _ _ _ X). auto.
Qed.
Lemma get_intnum_ok : forall nequ equ label sect dist cbd e n, (forall s d, equ s = Some d -> shaped (eitem d)) ->
  get_intnum nequ equ label sect dist cbd e = Fin (Some n) ->
  forall E v, (cbd = true -> env_labels label E /\ env_dist dist E) -> env_equ equ E -> eval E e = Some v -> canonb n = true /\ v = VNum (ival n).
Proof.
  intros nequ equ label sect dist cbd e n SD H E v CE EE V. unfold get_intnum in H. destruct (simplify nequ equ label sect dist cbd e) as [[[[o l] st] b]| |] eqn:S; try discriminate.
  pose proof (ev_shaped E (eitem e) v V) as SH. destruct (simplify_ok _ _ _ _ _ _ _ _ _ _ SH SD S) as (G & _ & K & _). specialize (K E v CE EE V). destruct o; try discriminate H. destruct l as [|[] r]; try discriminate H. injection H as <-.
  unfold eitem in G. cbn [fst snd] in G. apply good_expr in G. destruct G as (A & _). cbn in A. destruct r; [|discriminate A]. unfold eval in K. cbn [fst snd] in K. apply (proj1 (ev_ident _ _ _)) in K. cbn [ev] in K. destruct (canonb n0); [|discriminate]. injection K as <-. auto.
Qed.
Lemma get_intnum_closed : forall nequ equ label sect dist cbd S e, few equ nequ -> consts equ S -> shaped (eitem e) -> closed S (eitem e) -> ~ circular equ e ->
  exists n, get_intnum nequ equ label sect dist cbd e = Fin (Some n).
Proof.
  intros nequ equ label sect dist cbd S e F CS SH CL NC. unfold get_intnum, simplify.
  destruct (level_tree_closed nequ equ true (if cbd then [bc_dist_base _ label sect (dist_cb dist)] else []) S e F CS SH CL NC) as (m & ->); [|exists m; reflexivity].
  intros x m st I. destruct cbd; [|destruct I]. destruct I as [<-|[]]. reflexivity.
Qed.

(** * Building *)
(** operands the callers pass: one for a unary operator, two otherwise *)
Lemma create_ok : forall o l r, good l -> match r with Some x => good x | None => True end ->
  arity o (match r with Some _ => 2%nat | None => 1%nat end) -> (o = IDENT -> is_expr (strip l) = false) ->
  exists e, create o l r = Fin e /\ good (eitem e) /\
  forall E v, eval E (o, l :: match r with Some x => [x] | None => [] end) = Some v -> eval E e = Some v.
Proof.
  intros o l r Gl Gr A SI. unfold create. set (ts := strip l :: match r with Some x => [strip x] | None => [] end).
  assert (LN : length ts = match r with Some _ => 2%nat | None => 1%nat end) by (unfold ts; destruct r; reflexivity).
  assert (GT : Forall good ts) by (unfold ts; destruct r; repeat (constructor; [apply strip_good; assumption|]); constructor).
  assert (RD : ready (eitem (o, ts))) by (split; [cbn [snd]; rewrite LN; exact A|exact GT]).
  assert (F : exists e, level_op true true false (o, ts) = Fin e).
  { rewrite level_op_body. unfold strip_top. cbn [fst snd]. assert (T : top (TExpr o ts) = (o, ts)).
    { unfold ts at 1. cbn [top]. fold ts. destruct (op_eq o IDENT) eqn:Q; auto. apply op_eq_ok in Q. rewrite SI by auto. reflexivity. }
    rewrite T. cbn [fst snd]. assert (GS : Forall good (map strip ts)) by (rewrite Forall_map; eapply Forall_impl; [|exact GT]; intros; apply strip_good; auto).
    destruct (nary o) eqn:N; [apply body_no_fault; auto; rewrite map_length|apply body_fix_no_fault; auto; rewrite map_length, LN; auto]. rewrite <- LN in A. apply (arity_nary o _ N) in A. destruct r; lia. }
  destruct F as (e & H). exists e. split; auto. destruct (level_op_ok _ _ _ RD H) as [G V]. split; auto. intros E v W. apply V. unfold eval in *. cbn [fst snd] in *. assert (LE : le E (TExpr o (l :: match r with Some x => [x] | None => [] end)) (TExpr o ts)); [|apply LE; auto].
  apply le_expr. unfold ts. destruct r; repeat (constructor; [apply strip_le|]); constructor.
Qed.

(** * Substitution of distances *)
Fixpoint subl (items : list item) (l : list item) : option (list item) :=
  match l with
  | [] => Some []
  | a :: r => match subst_i items a, subl items r with Some a', Some r' => Some (a' :: r') | _, _ => None end
  end.
Lemma subst_expr : forall items o ts, subst_i items (TExpr o ts) = match subl items ts with Some ts' => Some (TExpr o ts') | None => None end.
Proof.
  intros items o ts. cbn [subst_i]. match goal with |- match ?x with _ => _ end = match ?y with _ => _ end => assert (K : x = y) end; [|rewrite K; reflexivity]. clear o. induction ts as [|a r IH]; auto. cbn [subl]. rewrite IH. reflexivity.
Qed.
Lemma ev_nosub : forall E f t, leaves nosub t -> ev (with_sub E f) t = ev E t.
Proof.
  intros E f t. induction t as [| | | | | | |o ts IH] using item_ind2; intros L; try reflexivity; [destruct L|]. apply leaves_expr in L. cbn [ev]. assert (K : map (ev (with_sub E f)) ts = map (ev E) ts) by (apply map_ext_in; intros a I; rewrite Forall_forall in *; auto). rewrite K. reflexivity.
Qed.
Lemma subst_ok : forall E f items t, (forall k x, nth_error items k = Some x -> ev E x = Some (VNum (wrap256 (f (Z.of_nat k))))) ->
  leaves (fun x => match x with TSubst k => 0 <= k < Z.of_nat (length items) | _ => True end) t -> exists t', subst_i items t = Some t' /\ ev E t' = ev (with_sub E f) t.
Proof.
  intros E f items t K. induction t as [| | | | | | |o ts IH] using item_ind2; intros L; try (eexists; split; reflexivity).
  - cbn [leaves] in L. cbn [subst_i]. replace (0 <=? k) with true by (symmetry; apply Z.leb_le; lia). replace (k <? _) with true by (symmetry; apply Z.ltb_lt; lia). cbn [andb].
    destruct (nth_error items (Z.to_nat k)) as [x|] eqn:Q; [|apply nth_error_None in Q; lia]. exists x. split; auto. rewrite (K _ _ Q). rewrite Z2Nat.id by lia. reflexivity.
  - rewrite subst_expr. apply leaves_expr in L. assert (M : exists ts', subl items ts = Some ts' /\ map (ev E) ts' = map (ev (with_sub E f)) ts).
    { induction ts as [|a r IHr]; [exists []; auto|]. inversion IH as [|? ? I1 I2]; subst. inversion L as [|? ? L1 L2]; subst. destruct (I1 L1) as (a' & A1 & A2). destruct (IHr I2 L2) as (r' & R1 & R2). exists (a' :: r'). cbn [subl map]. rewrite A1, R1, A2, R2. auto. }
    destruct M as (ts' & -> & M). eexists. split; [reflexivity|]. cbn [ev]. rewrite M. reflexivity.
Qed.
Lemma bc_dist_subst_ok : forall nequ equ label sect e e' st b items,
  leaves nosub (eitem e) -> (forall s d, equ s = Some d -> shaped (eitem d) /\ leaves nosub (eitem d)) -> shaped (eitem e) ->
  bc_dist_subst nequ equ label sect e = Fin (e', st, b) -> length items = length st ->
  (exists t', subst_i items (eitem e') = Some t') /\
  forall E v, env_labels label E -> env_equ equ E -> eval E e = Some v ->
    (forall k p p2 x, nth_error st k = Some (p, p2) -> nth_error items k = Some x -> ev E x = Some (VNum (wrap256 (bcv E p2 - bcv E p)))) ->
    exists t', subst_i items (eitem e') = Some t' /\ ev E t' = Some v.
Proof.
  intros nequ equ label sect e e' st b items NS DF SH H LN. unfold bc_dist_subst in H.
  pose (C := fun (E : env) (s : list (Z * Z)) => env_labels label E /\ env_subst E s).
  pose (Pf := fun (s : list (Z * Z)) x => match x with TSubst k => 0 <= k < Z.of_nat (length s) | _ => True end).
  assert (Cm : forall E s ext, C E (s ++ ext) -> C E s).
  { intros E s ext [A B]. split; auto. intros k p p2 Q. apply B. rewrite nth_error_app1; auto. apply nth_error_Some. congruence. }
  assert (Pm : forall s ext x, Pf s x -> Pf (s ++ ext) x) by (intros s ext x P; destruct x; auto; unfold Pf in *; rewrite app_length; lia).
  assert (XK : Forall (xok C Pf) [bc_dist_base _ label sect subst_cb]).
  { constructor; [|constructor]. apply dist_xok; auto; [intros E s [A _]; exact A|]. intros p p2 s t' s' Q. unfold subst_cb in Q. injection Q as <- <-. split; [eauto|]. split; auto. split; [exact I|]. split; [cbn [leaves]; unfold Pf; rewrite app_length; cbn [length]; lia|].
    intros E [_ B]. eexists. split; [reflexivity|]. rewrite wrap_id by apply R_wrap. f_equal. apply B. rewrite nth_error_app2, Nat.sub_diag by lia. reflexivity. }
  destruct (level_tree_ok C Pf nequ equ true _ e e' st b Cm Pm XK SH (fun s d Q => proj1 (DF s d Q)) H) as (G & _ & V & t & X & Y).
  assert (L : leaves (Pf st) (eitem e')).
  { apply Y. eapply leaves_mono; [|apply (proj1 (Exp_leaves equ nosub (fun s d Q => proj2 (DF s d Q))) _ _ _ _ X NS)]. intros x N. destruct x; try exact I. destruct N. }
  assert (L2 : leaves (fun x => match x with TSubst k => 0 <= k < Z.of_nat (length items) | _ => True end) (eitem e')) by (rewrite LN; exact L).
  split.
  - clear -L2. induction (eitem e') as [| | | | | | |o ts IH] using item_ind2; try (eexists; reflexivity).
    + cbn [leaves] in L2. cbn [subst_i]. replace (0 <=? k) with true by (symmetry; apply Z.leb_le; lia). replace (k <? _) with true by (symmetry; apply Z.ltb_lt; lia). cbn [andb]. destruct (nth_error items (Z.to_nat k)) eqn:Q; [eauto|apply nth_error_None in Q; lia].
    + rewrite subst_expr. apply leaves_expr in L2. assert (M : exists ts', subl items ts = Some ts'); [|destruct M as (ts' & ->); eauto]. induction ts as [|a r IHr]; [exists []; auto|]. inversion IH as [|? ? I1 I2]; subst. inversion L2 as [|? ? L1 L3]; subst. destruct (I1 L1) as (a' & A1). destruct (IHr I2 L3) as (r' & R1). exists (a' :: r'). cbn [subl]. rewrite A1, R1. auto.
  - intros E v EL EE EV IT. pose (f := fun k : Z => match nth_error st (Z.to_nat k) with Some (p, p2) => bcv E p2 - bcv E p | None => 0 end).
    assert (IT2 : forall k x, nth_error items k = Some x -> ev E x = Some (VNum (wrap256 (f (Z.of_nat k))))).
    { intros k x Q. unfold f. rewrite Nat2Z.id. destruct (nth_error st k) as [[p p2]|] eqn:Q2; [eapply IT; eauto|]. exfalso. apply nth_error_None in Q2. assert (k < length items)%nat by (apply nth_error_Some; congruence). lia. }
    destruct (subst_ok E f items (eitem e') IT2 L2) as (t' & S1 & S2). exists t'. split; auto. rewrite S2. apply (V (with_sub E f) v).
    + split; [exact EL|]. intros k p p2 Q. cbn [with_sub sub bcv]. unfold f. rewrite Nat2Z.id, Q. reflexivity.
    + intros s d Q. cbn [with_sub symv]. rewrite (EE s d Q). symmetry. apply (ev_nosub E f (eitem d)). apply (DF s d Q).
    + etransitivity; [apply (ev_nosub E f (eitem e)); auto|exact EV].
Qed.

(** * Logical identities *)
Lemma land_refuted : forall nequ equ label sect dist n s, canonb n = true -> ival n <> 0 -> equ s = None ->
  simplify nequ equ label sect dist false (LAND, [TInt n; TSym s]) = Fin ((IDENT, [TSym s]), [], false).
Proof.
  intros nequ equ label sect dist n s C V Q. unfold simplify, level_tree. cbn [fst snd]. rewrite expand_expr. cbn [eterms circ]. rewrite !(expand_leaf equ) by reflexivity. rewrite Q. cbn [orb].
  assert (Z0 : is_zero n = false) by (rewrite is_zero_ok by (apply canonb_ok; auto); apply Z.eqb_neq; auto).
  assert (ND : node (ltree 1 true true true) true (TExpr LAND [TInt n; TSym s]) [] = Fin ((IDENT, [TSym s]), [])).
  { unfold node. cbn [of_item xform_neg over seg_of]. rewrite level_op_body. match goal with |- context [strip_top ?e] => change (strip_top e) with e end. cbn [fst snd map strip]. unfold body. cbn [nonnum negb first_int skipn fold_ints firstn app]. cbv zeta. unfold simplify_identity.
    cbn [negb op_eq andb length Nat.eqb Nat.ltb Nat.leb destroy_left]. rewrite Z0. cbn [negb andb remove_nth firstn skipn app length]. reflexivity. }
  change (depth (TExpr LAND [TInt n; TSym s])) with 1%nat. rewrite ltree_node, ND. reflexivity.
Qed.
Lemma lor_refuted : forall nequ equ label sect dist n s, canonb n = true -> ival n = 0 -> equ s = None ->
  simplify nequ equ label sect dist false (LOR, [TInt n; TSym s]) = Fin ((IDENT, [TSym s]), [], false).
Proof.
  intros nequ equ label sect dist n s C V Q. unfold simplify, level_tree. cbn [fst snd]. rewrite expand_expr. cbn [eterms circ]. rewrite !(expand_leaf equ) by reflexivity. rewrite Q. cbn [orb].
  assert (Z0 : is_zero n = true) by (rewrite is_zero_ok by (apply canonb_ok; auto); apply Z.eqb_eq; auto).
  assert (ND : node (ltree 1 true true true) true (TExpr LOR [TInt n; TSym s]) [] = Fin ((IDENT, [TSym s]), [])).
  { unfold node. cbn [of_item xform_neg over seg_of]. rewrite level_op_body. match goal with |- context [strip_top ?e] => change (strip_top e) with e end. cbn [fst snd map strip]. unfold body. cbn [nonnum negb first_int skipn fold_ints firstn app]. cbv zeta. unfold simplify_identity.
    cbn [negb op_eq andb length Nat.eqb Nat.ltb Nat.leb destroy_left]. rewrite Z0. cbn [negb andb remove_nth firstn skipn app length]. reflexivity. }
  change (depth (TExpr LOR [TInt n; TSym s])) with 1%nat. rewrite ltree_node, ND. reflexivity.
Qed.
Lemma logical_wrong :
  (exists n s, canonb n = true /\ ival n <> 0 /\ symv (Env (fun _ => 0) (fun _ => 0) (fun _ => 0) (fun _ => Some (VNum 5)) (fun z => z) (fun a _ => a)) s = Some (VNum 5) /\
     truth (nzb (ival n) && nzb 5) = 1 /\
     simplify 0 (fun _ => None) (fun _ => None) (fun _ => 0) (fun _ _ => None) false (LAND, [TInt n; TSym s]) = Fin ((IDENT, [TSym s]), [], false)).
Proof. exists (IL 2), 3. repeat split; try (vm_compute; reflexivity). vm_compute. discriminate. Qed.
Lemma create_fault : exists equ a b c m d p,
  create MUL (TSym a) (Some (TSym b)) = Fin m /\ create DIV (TSym c) (Some (TInt (IL 3))) = Fin d /\
  create MUL (eitem m) (Some (eitem d)) = Fin p /\ equ a = Some (IDENT, [TInt (IL 0)]) /\ equ b = Some (IDENT, [TInt (IL 2)]) /\
  simplify 2 equ (fun _ => None) (fun _ => 0) (fun _ _ => None) false p = Fault.
Proof.
  exists (fun s => if s =? 1 then Some (IDENT, [TInt (IL 0)]) else if s =? 2 then Some (IDENT, [TInt (IL 2)]) else None), 1, 2, 3, (MUL, [TSym 1; TSym 2]), (DIV, [TSym 3; TInt (IL 3)]), (MUL, [TSym 1; TSym 2; TExpr DIV [TSym 3; TInt (IL 3)]]).
  repeat split; vm_compute; reflexivity.
Qed.
