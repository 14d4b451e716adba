(** Expressions: C30, C31, C32, C55, C56. *)
From Coq Require Import ZArith List Bool Lia Relations.
From Verif Require Import Lib M_BitVect P_BitVect M_Intnum P_Intnum M_Expr P_Expr P_ExprLevel P_ExprTree P_ExprTree2 P_ExprTop P_ExprUse.
Import ListNotations.
Open Scope Z_scope.

(** C30.  Whenever simplification finishes, the result is well formed (every n-ary node has at most
    one integer), has the value of the original under every assignment that agrees with the
    constants (and, when distances are computed, with the labels), and mentions nothing new. *)
Theorem C30_simplify : forall nequ equ label sect dist cbd e e' st b,
  shaped (eitem e) -> (forall s d, equ s = Some d -> shaped (eitem d)) ->
  simplify nequ equ label sect dist cbd e = Fin (e', st, b) ->
  good (eitem e') /\ (b = true <-> circular equ e) /\
  (forall E v, (cbd = true -> env_labels label E /\ env_dist dist E) -> env_equ equ E -> eval E e = Some v -> eval E e' = Some v) /\
  (forall P : item -> Prop, leaves P (eitem e) -> (forall s d, equ s = Some d -> leaves P (eitem d)) -> leaves P (eitem e')) /\
  (b = false -> leaves (fun x => forall s, x = TSym s -> equ s = None) (eitem e')).
Proof. exact simplify_ok. Qed.
Print Assumptions C30_simplify.
(** C30.  An integer obtained from an expression is its value. *)
Theorem C30_intnum : forall nequ equ label sect dist cbd e n, (forall s d, equ s = Some d -> shaped (eitem d)) ->
  get_intnum nequ equ label sect dist cbd e = Fin (Some n) ->
  forall E v, (cbd = true -> env_labels label E /\ env_dist dist E) -> env_equ equ E -> eval E e = Some v -> canonb n = true /\ v = VNum (ival n).
Proof. exact get_intnum_ok. Qed.
Print Assumptions C30_intnum.
(** C30.  An expression of integers and constants made of such always has one. *)
Theorem C30_constant : forall nequ equ label sect dist cbd S e, few equ nequ -> consts equ S -> shaped (eitem e) -> closed S (eitem e) -> ~ circular equ e ->
  exists n, get_intnum nequ equ label sect dist cbd e = Fin (Some n).
Proof. exact get_intnum_closed. Qed.
Print Assumptions C30_constant.
Definition ex_equ (s : Z) : option expr :=
  if s =? 1 then Some (IDENT, [TInt (IL 7)]) else if s =? 2 then Some (SUB, [TSym 1; TInt (IL 3)]) else if s =? 8 then Some (ADD, [TSym 9; TInt (IL 1)]) else if s =? 9 then Some (NEG, [TSym 8]) else None.
Definition ex_label (s : Z) : option Z := if (20 <=? s) && (s <? 30) then Some (s + 1000) else None.
Definition ex_dist (p q : Z) : option intnum := Some (IL (4 * (q - p))).
(* (x - (3*const2 + y)) + (label21 - label20)*2 + 10 *)
Definition ex_e : expr :=
  (ADD, [TExpr ADD [TExpr SUB [TSym 50; TExpr ADD [TExpr MUL [TInt (IL 3); TSym 2]; TSym 51]]; TExpr MUL [TExpr SUB [TSym 21; TSym 20]; TInt (IL 2)]]; TInt (IL 10)]).
Example C30_ex : shaped (eitem ex_e) /\ (forall s d, ex_equ s = Some d -> shaped (eitem d)) /\
  simplify 4 ex_equ ex_label (fun _ => 0) ex_dist true ex_e = Fin ((ADD, [TSym 50; TExpr MUL [TInt (IL (-1)); TSym 51]; TInt (IL 6)]), [], false) /\
  (let E := Env (fun _ => 0) (fun _ => 0) (fun b => 4 * b)
                (fun s => match ex_label s with Some b => Some (VNum (4 * b)) | None => if s =? 1 then Some (VNum 7) else if s =? 2 then Some (VNum 4) else if s =? 50 then Some (VNum 1000) else if s =? 51 then Some (VNum (-5)) else None end) (fun z => z) (fun a _ => a) in
   eval E ex_e = Some (VNum 1011) /\ eval E (ADD, [TSym 50; TExpr MUL [TInt (IL (-1)); TSym 51]; TInt (IL 6)]) = Some (VNum 1011)) /\
  get_intnum 4 ex_equ ex_label (fun _ => 0) ex_dist true (SIGNDIV, [TExpr SHL [TSym 2; TSym 1]; TInt (IL (-10))]) = Fin (Some (IL (-51))) /\
  few ex_equ 4 /\ consts ex_equ (fun s => s = 1 \/ s = 2) /\ closed (fun s => s = 1 \/ s = 2) (TExpr SIGNDIV [TExpr SHL [TSym 2; TSym 1]; TInt (IL (-10))]).
Proof.
  split; [vm_compute; repeat split; repeat constructor|]. split; [|split; [vm_compute; reflexivity|split; [split; vm_compute; reflexivity|split; [vm_compute; reflexivity|]]]].
  - intros s d H. unfold ex_equ in H. repeat match type of H with (if ?x then _ else _) = _ => destruct x end; try discriminate; injection H as <-; vm_compute; repeat split; repeat constructor.
  - split; [exists [1; 2; 8; 9]; split; [cbn; lia|]; intros s H; unfold ex_equ in H|split].
    + destruct (Z.eqb_spec s 1); [subst; cbn; auto|]. destruct (Z.eqb_spec s 2); [subst; cbn; auto|]. destruct (Z.eqb_spec s 8); [subst; cbn; auto|]. destruct (Z.eqb_spec s 9); [subst; cbn; auto|congruence].
    + intros s [-> | ->]; eexists; (split; [reflexivity|]); vm_compute; repeat split; repeat constructor; auto.
    + vm_compute. repeat split; auto.
Qed.

(** C31.  The value of && and || is not kept: (non-zero && x) and (0 || x) become x. *)
Theorem C31_and : forall nequ equ label sect dist n s, canonb n = true -> ival n <> 0 -> equ s = None ->
  simplify nequ equ label sect dist false (LAND, [TInt n; TSym s]) = Fin ((IDENT, [TSym s]), [], false).
Proof. exact land_refuted. Qed.
Print Assumptions C31_and.
Theorem C31_or : forall nequ equ label sect dist n s, canonb n = true -> ival n = 0 -> equ s = None ->
  simplify nequ equ label sect dist false (LOR, [TInt n; TSym s]) = Fin ((IDENT, [TSym s]), [], false).
Proof. exact lor_refuted. Qed.
Print Assumptions C31_or.
(** C31.  2 && x with x = 5 is 1 but is simplified to x. *)
Theorem C31_refuted :
  exists n s, canonb n = true /\ ival n <> 0 /\ symv (Env (fun _ => 0) (fun _ => 0) (fun _ => 0) (fun _ => Some (VNum 5)) (fun z => z) (fun a _ => a)) s = Some (VNum 5) /\
     truth (nzb (ival n) && nzb 5) = 1 /\
     simplify 0 (fun _ => None) (fun _ => None) (fun _ => 0) (fun _ _ => None) false (LAND, [TInt n; TSym s]) = Fin ((IDENT, [TSym s]), [], false).
Proof. exact logical_wrong. Qed.
Print Assumptions C31_refuted.

(** C32.  Simplification always ends, and the circular reference error is set exactly when some
    constant reachable from the expression depends on itself (see also C30_simplify). *)
Theorem C32_terminates : forall nequ equ srm xs e, few equ nequ -> level_tree nequ equ true true srm xs e <> Deep.
Proof. exact level_tree_nodeep. Qed.
Print Assumptions C32_terminates.
Theorem C32_circular : forall nequ equ label sect dist cbd e e' st b,
  shaped (eitem e) -> (forall s d, equ s = Some d -> shaped (eitem d)) ->
  simplify nequ equ label sect dist cbd e = Fin (e', st, b) -> (b = true <-> circular equ e).
Proof. intros nequ equ label sect dist cbd e e' st b A B H. exact (proj1 (proj2 (simplify_ok nequ equ label sect dist cbd e e' st b A B H))). Qed.
Print Assumptions C32_circular.
Example C32_ex : simplify 4 ex_equ ex_label (fun _ => 0) ex_dist false (ADD, [TSym 2; TSym 9]) = Fin ((ADD, [TInt (IL 4); TExpr MUL [TExpr ADD [TSym 9; TInt (IL 1)]; TInt (IL (-1))]]), [], true) /\
  circular ex_equ (ADD, [TSym 2; TSym 9]) /\ ~ circular ex_equ (ADD, [TSym 2; TSym 50]).
Proof.
  split; [vm_compute; reflexivity|]. split.
  - exists 9, 9. split; [vm_compute; auto|]. split; [discriminate|]. split; [apply rt_refl|]. apply t_trans with 8; apply t_step.
    + exists (NEG, [TSym 8]). split; [reflexivity|]. split; [vm_compute; auto|discriminate].
    + exists (ADD, [TSym 9; TInt (IL 1)]). split; [reflexivity|]. split; [vm_compute; auto|discriminate].
  - intros H. assert (X : exists r, simplify 4 ex_equ ex_label (fun _ => 0) ex_dist false (ADD, [TSym 2; TSym 50]) = Fin (r, [], false)) by (eexists; vm_compute; reflexivity).
    destruct X as (r & X). apply simplify_ok in X; [destruct X as (_ & X & _); apply X in H; discriminate|vm_compute; repeat split; repeat constructor|apply C30_ex].
Qed.

(** C55.  Building an expression from well-formed operands always succeeds, gives a well-formed
    expression and keeps the value. *)
Theorem C55_create : forall o l r, good l -> match r with Some x => good x | None => True end ->
  arity o (match r with Some _ => 2%nat | None => 1%nat end) -> (o = IDENT -> is_expr (strip l) = false) ->
  exists e, create o l r = Fin e /\ good (eitem e) /\
  forall E v, eval E (o, l :: match r with Some x => [x] | None => [] end) = Some v -> eval E e = Some v.
Proof. exact create_ok. Qed.
Print Assumptions C55_create.
(** C55.  Simplifying what was built may not: a*b*(c/3) with a and b constants of value 0 and 2
    destroys c/3 twice. *)
Theorem C55_refuted : exists equ a b c m d p,
  create MUL (TSym a) (Some (TSym b)) = Fin m /\ create DIV (TSym c) (Some (TInt (IL 3))) = Fin d /\
  create MUL (eitem m) (Some (eitem d)) = Fin p /\ equ a = Some (IDENT, [TInt (IL 0)]) /\ equ b = Some (IDENT, [TInt (IL 2)]) /\
  simplify 2 equ (fun _ => None) (fun _ => 0) (fun _ _ => None) false p = Fault.
Proof. exact create_fault. Qed.
Print Assumptions C55_refuted.
Example C55_ex : good (TExpr ADD [TSym 1; TInt (IL 4)]) /\ create ADD (TExpr ADD [TSym 1; TInt (IL 4)]) (Some (TExpr IDENT [TInt (IL (-4))])) = Fin (IDENT, [TSym 1]).
Proof. split; [vm_compute; repeat split; auto; repeat constructor|vm_compute; reflexivity]. Qed.

(** C56.  Replacing label distances by placeholders and the placeholders by the distances gives the
    value of the original expression; every placeholder is one that was recorded. *)
Theorem C56_substitute : forall nequ equ label sect e e' st b items,
  leaves nosub (eitem e) -> (forall s d, equ s = Some d -> shaped (eitem d) /\ leaves nosub (eitem d)) -> shaped (eitem e) ->
  bc_dist_subst nequ equ label sect e = Fin (e', st, b) -> length items = length st ->
  (exists t', subst_i items (eitem e') = Some t') /\
  forall E v, env_labels label E -> env_equ equ E -> eval E e = Some v ->
    (forall k p p2 x, nth_error st k = Some (p, p2) -> nth_error items k = Some x -> ev E x = Some (VNum (wrap256 (bcv E p2 - bcv E p)))) ->
    exists t', subst_i items (eitem e') = Some t' /\ ev E t' = Some v.
Proof. exact bc_dist_subst_ok. Qed.
Print Assumptions C56_substitute.
Example C56_ex : bc_dist_subst 4 ex_equ ex_label (fun _ => 0) ex_e = Fin ((ADD, [TSym 50; TExpr MUL [TInt (IL (-1)); TSym 51]; TExpr MUL [TSubst 0; TInt (IL 2)]; TInt (IL (-2))]), [(1020, 1021)], false) /\
  subst_i [TInt (IL 4)] (TExpr MUL [TSubst 0; TInt (IL 2)]) = Some (TExpr MUL [TInt (IL 4); TInt (IL 2)]) /\ leaves nosub (eitem ex_e).
Proof. split; [vm_compute; reflexivity|]. split; [vm_compute; reflexivity|]. vm_compute. repeat split. Qed.
