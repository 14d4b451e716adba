(** Theorems on values: C70, C71, C72. *)
From Coq Require Import ZArith List Bool Lia.
From Verif Require Import M_Intnum P_Intnum M_Expr P_Expr P_ExprLevel P_ExprTree P_ExprTree2 P_ExprTop M_Value P_Value P_ValueTop P_ValueSum P_ValueOut.
Import ListNotations.
Open Scope Z_scope.

(** C70: splitting keeps what the expression stands for. *)
Theorem C70_value : forall label sect equ curpos special precbc dot base pos, (forall s d, equ s = Some d -> shaped (eitem d)) ->
  forall nequ err e sz v, shaped (eitem e) ->
  (forall e1 st b, level_tree nequ equ true true false [] e = Fin (e1, st, b) -> tame false (core (unmask (sz mod 2 ^ 8) e1))) ->
  finalize_expr label sect equ curpos special precbc dot nequ err (Some e) sz = FOk v ->
  forall E z, env_value curpos dot base pos E -> env_equ equ E -> eval E e = Some (VNum z) ->
  kept sz v /\ exists y, means base pos E v = Some y /\ (2 ^ (if no_warn v then size v else 256) | y - z).
Proof. exact finalize_ok. Qed.
Print Assumptions C70_value.

(** Symbols: 1, 2 labels of section 0 after bytecodes 10 and 11; 3, 5 labels of section 1; 4, 6
    external; 7 the symbol for the position after bytecode 9; 8 that for the position of the value,
    after bytecode 12.  The value is in section 0, at 16. *)
Definition xlabel (s : Z) : option Z :=
  match s with 1 => Some 10 | 2 => Some 11 | 3 => Some 20 | 5 => Some 21 | 7 => Some 9 | 8 => Some 12 | _ => None end.
Definition xsect (p : Z) : Z := if p <? 15 then 0 else 1.
Definition xnext (p : Z) : Z := if p =? 9 then 4 else if p =? 10 then 8 else if p =? 11 then 12 else if p =? 12 then 16 else if p =? 20 then 40 else 48.
Definition xcur (s : Z) : bool := (s =? 8) || (s =? 9).
Definition xcur7 (s : Z) : bool := (s =? 7) || xcur s.
Definition xstart (s : Z) : Z := if s =? 0 then 1000 else 2000.
Definition xsym (s : Z) : option value :=
  match xlabel s with Some p => Some (VNum (xstart (xsect p) + xnext p)) | None => if s =? 9 then Some (VNum 1016) else Some (VNum (5000 + s)) end.
Definition xbase (b : Z) : Z := b - b mod 16.
Definition xE : env := Env (fun _ => 0) (fun _ => 0) (fun b => b) xsym (fun a => a / 16) (fun a b => a - xbase b).
Definition noequ : Z -> option expr := fun _ => None.
Definition nospec : Z -> bool := fun _ => false.
Definition neg (s : Z) : item := TExpr MUL [TInt (IL (-1)); TSym s].
Definition split (cur : Z -> bool) (e : expr) (sz : Z) : fres := finalize_expr xlabel xsect noequ cur nospec (Some 12) 9 0 false (Some e) sz.

Lemma xE_value : env_value xcur 9 xbase 1016 xE.
Proof. split; [reflexivity|]. intros s [H| ->]; [|reflexivity]. unfold xcur in H. apply orb_true_iff in H. destruct H as [H|H]; apply Z.eqb_eq in H; subst s; reflexivity. Qed.
(** (t - here) + 5 with a label t elsewhere; (ext + 7) & 0xffff in 16 bits; (seg ext) wrt a label; ext >> 3. *)
Example C70_ex :
  env_value xcur 9 xbase 1016 xE /\ env_equ noequ xE /\
  (split xcur (ADD, [TSym 3; neg 2; TInt (IL 5)]) 32 = FOk (Val (Some (ADD, [TSym 9; neg 2; TInt (IL 5)])) (Some 3) None false 0 true false false false false false 32) /\
   eval xE (ADD, [TSym 3; neg 2; TInt (IL 5)]) = Some (VNum 1033)) /\
  (split xcur (AND, [TExpr ADD [TSym 4; TInt (IL 7)]; TInt (IL 65535)]) 16 = FOk (Val (Some (IDENT, [TInt (IL 7)])) (Some 4) None false 0 false false false false true false 16) /\
   eval xE (AND, [TExpr ADD [TSym 4; TInt (IL 7)]; TInt (IL 65535)]) = Some (VNum 5011)) /\
  split xcur (WRT, [TExpr SEG [TSym 4]; TSym 1]) 16 = FOk (Val None (Some 4) (Some 1) true 0 false false false false false false 16) /\
  split xcur (SHR, [TSym 4; TInt (IL 3)]) 16 = FOk (Val None (Some 4) None false 3 false false false false false false 16).
Proof. split; [exact xE_value|]. split; [intros s d H; discriminate H|]. repeat split; vm_compute; reflexivity. Qed.
Print Assumptions C70_ex.

(** The symbol of another position is taken for the current one: with [here equ $] at 4, the value
    ext - here at 16 becomes the distance of ext from 16. *)
Theorem C70_here_refuted : exists v y, env_place xlabel xsect xnext xstart xE /\ 
  split xcur7 (ADD, [TSym 4; neg 7]) 32 = FOk v /\ eval xE (ADD, [TSym 4; neg 7]) = Some (VNum 4000) /\ means xbase 1016 xE v = Some y /\ y = 3988 /\ no_warn v = false.
Proof.
  exists (Val None (Some 4) None false 0 true false false false false false 32), 3988. split; [|repeat split; vm_compute; reflexivity].
  intros s p H. unfold xsym, env_place. assert (S : In s [1; 2; 3; 5; 7; 8]). { unfold xlabel in H. do 9 (destruct s as [|s|s]; try discriminate H; try (destruct s as [s|s|]; try discriminate H); try (cbn; tauto)). }
  cbn [In] in S. repeat (destruct S as [<-|S]; [injection H as <-; split; [reflexivity|vm_compute; split; [discriminate|reflexivity]]|]). destruct S.
Qed.
Print Assumptions C70_here_refuted.
(** A symbol shifted right by a negative number is left as it is. *)
Theorem C70_shift_refuted : exists v y, split xcur (SHR, [TSym 4; TInt (IL (-1))]) 32 = FOk v /\ eval xE (SHR, [TSym 4; TInt (IL (-1))]) = Some (VNum 0) /\ means xbase 1016 xE v = Some y /\ y = 5004 /\ no_warn v = false.
Proof. exists (Val None (Some 4) None false 0 false false false false false false 32), 5004. repeat split; vm_compute; reflexivity. Qed.
Print Assumptions C70_shift_refuted.
(** WRT below a product is taken for that of the whole: ext + 3 * (5 wrt label). *)
Theorem C70_wrt_refuted : let e := (ADD, [TSym 4; TExpr MUL [TInt (IL 3); TExpr WRT [TInt (IL 5); TSym 1]]]) in
  exists v y, split xcur e 32 = FOk v /\ eval xE e = Some (VNum 1995) /\ means xbase 1016 xE v = Some y /\ y = 4011 /\ no_warn v = false.
Proof. exists (Val (Some (IDENT, [TInt (IL 15)])) (Some 4) (Some 1) false 0 false false false false false false 32), 4011. repeat split; vm_compute; reflexivity. Qed.
Print Assumptions C70_wrt_refuted.

(** C71: a sum of symbols is split exactly if each subtracted symbol is cancelled by an added one and
    at most one added symbol is left. *)
Theorem C71_sums : forall label sect equ curpos special precbc dot nequ e sz ts st,
  level_tree nequ equ true true false [] e = Fin ((ADD, ts), st, false) ->
  (length ts <= 32)%nat -> Forall term ts ->
  (forall s, In s (minus ts) -> curpos s = false /\ match label s, precbc with Some p, Some q => sect p <> sect q | _, _ => True end) ->
  (finalize_expr label sect equ curpos special precbc dot nequ false (Some e) sz = FBad <-> ~ balanced label sect ts) /\
  forall v, finalize_expr label sect equ curpos special precbc dot nequ false (Some e) sz = FOk v ->
    curpos_rel v = false /\ wrt v = None /\ segof v = false /\ rshift v = 0 /\ no_warn v = false /\
    match rel v with
    | None => length (plus ts) = length (minus ts)
    | Some s => In s (plus ts) /\ forall c, count label sect c (plus ts) = (count label sect c (minus ts) + if class_eqb (class_of label sect s) c then 1 else 0)%nat
    end.
Proof. exact finalize_sum. Qed.
Print Assumptions C71_sums.

(** ext - t + t2 + 4*reg - ext2 + ext2 *)
Definition sum : expr := (ADD, [TSym 4; neg 3; TSym 5; TExpr MUL [TInt (IL 4); TReg 1]; neg 6; TSym 6]).
Example C71_ex : level_tree 0 noequ true true false [] sum = Fin (sum, [], false) /\ Forall term (snd sum) /\ plus (snd sum) = [4; 5; 6] /\ minus (snd sum) = [3; 6] /\
  balanced xlabel xsect (snd sum) /\ (forall s, In s (minus (snd sum)) -> xcur s = false /\ match xlabel s with Some p => xsect p <> xsect 12 | None => True end) /\
  match split xcur sum 32 with FOk v => rel v = Some 4 | _ => False end /\
  split xcur (ADD, [TSym 4; TSym 6]) 32 = FBad /\ split xcur (ADD, [TSym 4; neg 6]) 32 = FBad /\ split xcur (ADD, [TSym 4; neg 3]) 32 = FBad.
Proof.
  split; [vm_compute; reflexivity|]. split; [repeat apply Forall_cons; try apply Forall_nil; try exact I; first [left; eexists; reflexivity|right; repeat split; discriminate]|]. split; [reflexivity|]. split; [reflexivity|]. split; [|split; [|repeat split; vm_compute; reflexivity]].
  - split; [|vm_compute; lia]. intros c. change (minus (snd sum)) with [3; 6]. change (plus (snd sum)) with [4; 5; 6]. unfold count. cbn [filter]. change (class_of xlabel xsect 3) with (CSect 1). change (class_of xlabel xsect 6) with (CSym 6). change (class_of xlabel xsect 4) with (CSym 4). change (class_of xlabel xsect 5) with (CSect 1). destruct (class_eqb (CSect 1) c), (class_eqb (CSym 6) c), (class_eqb (CSym 4) c); cbn [length]; lia.
  - intros s I. vm_compute in I. destruct I as [<-|[<-|[]]]; vm_compute; repeat split; discriminate.
Qed.
(** With a label of the current section subtracted, it depends on the order of the terms. *)
Theorem C71_order_refuted : split xcur (ADD, [TSym 3; neg 2; TSym 4; neg 5]) 32 = FBad /\
  exists v, split xcur (ADD, [TSym 4; neg 2; TSym 3; neg 5]) 32 = FOk v /\ rel v = Some 4 /\ curpos_rel v = true.
Proof. split; [vm_compute; reflexivity|]. eexists. split; [vm_compute; reflexivity|]. split; reflexivity. Qed.
Print Assumptions C71_order_refuted.

(** C72: a number written without a relocation is the value of the expression. *)
Theorem C72_written : forall label sect next base start equ curpos special precbc dot, (forall s d, equ s = Some d -> shaped (eitem d)) ->
  forall nequ err e sz v num num2 here off warn m w E z, shaped (eitem e) ->
  (forall e1 st b, level_tree nequ equ true true false [] e = Fin (e1, st, b) -> tame false (core (unmask (sz mod 2 ^ 8) e1))) ->
  finalize_expr label sect equ curpos special precbc dot nequ err (Some e) sz = FOk v ->
  env_value curpos dot base (start here + off) E -> env_equ equ E -> env_place label sect next start E -> num_ok E num -> num_ok E num2 -> 0 <= off < 2 ^ 31 ->
  (rel v = None -> wrt v = None) -> eval E e = Some (VNum z) ->
  output_basic label sect next num num2 v here off warn = ONum m w \/ get_intnum label sect next num v (Some (here, off)) = Some m ->
  canonb m = true /\ (2 ^ (if no_warn v then size v else 256) | ival m - z).
Proof. exact whole_ok. Qed.
Print Assumptions C72_written.
(** What has a relative part is left to a relocation unless it is the distance of a label of the
    same section from the current position. *)
Theorem C72_relocated : forall label sect next num num2 v here off warn s e n, rel v = Some s ->
  match abs v with None => n = None | Some x => x = e /\ contains 8 e = false /\ n <> None /\ n = match num e with Some i => Some i | None => num2 e end end ->
  output_basic label sect next num num2 v here off warn = OTodo <->
  ~ exists p, label s = Some p /\ sect p = here /\ curpos_rel v = true /\ wrt v = None /\ segof v = false /\ section_rel v = false.
Proof. exact todo_iff. Qed.
Print Assumptions C72_relocated.
(** A number with respect to a symbol is written as it is. *)
Definition xnum (e : expr) : option intnum := match e with (IDENT, [TInt n]) => Some n | _ => None end.
Theorem C72_wrt_refuted : exists v w, split xcur (WRT, [TInt (IL 5); TSym 1]) 32 = FOk v /\ eval xE (WRT, [TInt (IL 5); TSym 1]) = Some (VNum (-1003)) /\
  output_basic xlabel xsect xnext xnum xnum v 0 16 true = ONum (IL 5) w /\ no_warn v = false.
Proof. exists (Val (Some (IDENT, [TInt (IL 5)])) None (Some 1) false 0 false false false false false false 32), 1. repeat split; vm_compute; reflexivity. Qed.
Print Assumptions C72_wrt_refuted.
(** label - $ + 3 in section 0; label - $ for a label of section 1. *)
Example C72_ex : match split xcur (ADD, [TSym 1; neg 8; TInt (IL 3)]) 32 with
                 | FOk v => output_basic xlabel xsect xnext (fun _ => Some (IL (-5))) xnum v 0 16 true = ONum (IL (-5)) 1 /\ rel v = None
                 | _ => False end /\
  match split xcur (ADD, [TSym 3; neg 8; TInt (IL 3)]) 32 with
  | FOk v => output_basic xlabel xsect xnext xnum xnum v 0 16 true = OTodo /\ output_basic xlabel xsect xnext xnum xnum v 1 16 true = ONum (IL 27) 1 /\ get_intnum xlabel xsect xnext xnum v (Some (1, 16)) = Some (IL 27)
  | _ => False end.
Proof. vm_compute. repeat split. Qed.
