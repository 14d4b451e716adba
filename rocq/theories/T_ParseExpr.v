(** Expressions in NASM and GAS source: C81, C82, C83. *)
From Coq Require Import ZArith List Bool Lia.
From Verif Require Import Lib M_Intnum P_Intnum M_Expr P_Expr P_ExprLevel M_ParseExpr P_ParseExpr P_ParseExprN.
Import ListNotations.
Open Scope Z_scope.

(** C81.  Every text of the NASM grammar is read: what is left is the rest, the symbols used are those of the text in order, and
    the expression built has the value of the one the text stands for.  [b] tells parse_bexpr from parse_expr. *)
Theorem C81_accepts : forall W ty, wok W -> forall b l rest a er, gram (nasm W ty) true (entry ty b) l rest a er ->
  exists e, nasm_parse W ty b (l ++ rest) = Fin (Some e, St rest er) /\ denotes a e.
Proof. exact nasm_accepts. Qed.
Print Assumptions C81_accepts.
(** C81.  Any text is read like that, or NULL is returned, and then no such reading exists. *)
Theorem C81_verdict : forall W ty, wok W -> forall b l,
  (exists e pre rest a er, nasm_parse W ty b l = Fin (Some e, St rest er) /\ l = pre ++ rest /\ gram (nasm W ty) true (entry ty b) pre rest a er /\ denotes a e) \/
  (exists left er, nasm_parse W ty b l = Fin (None, St left er) /\ forall pre rest a er, l = pre ++ rest -> ~ gram (nasm W ty) true (entry ty b) pre rest a er).
Proof. exact nasm_total. Qed.
Print Assumptions C81_verdict.
(** C81.  The text of an expression with the fewest parentheses, up to something that cannot continue it, gives the expression back without errors. *)
Theorem C81_print : forall W ty b text a rest, wok W -> printable (nasm W ty) tok2 tok1 text a -> calm (nasm W ty) (entry ty b) rest ->
  exists e er, nasm_parse W ty b (print (nasm W ty) tok2 tok1 text (entry ty b) a ++ rest) = Fin (Some e, St rest er) /\ quiet er /\ denotes a e.
Proof. exact nasm_print. Qed.
Print Assumptions C81_print.

(** C82.  When the NASM parser gives up, either nothing was consumed or reported and the first token begins no operand, or the
    first error reported (besides too long strings before it) tells where: [culprit]. *)
Theorem C82_message : forall W ty, wok W -> forall b l left er, nasm_parse W ty b l = Fin (None, St left er) ->
  (left = l /\ er = [] /\ ~ begins ty l) \/ (exists ok m more, er = ok ++ Err m :: more /\ Forall harmless ok /\ culprit ty l left m).
Proof. exact nasm_message. Qed.
Print Assumptions C82_message.
(** C82.  For the operators [:], WRT, [|], [^] and [&] the message names another character: that of the operator's number. *)
Theorem C82_refuted : forall W ty b t, wok W -> In t [TkColon; TkWrt; TkOr; TkXor; TkAnd] -> (t = TkWrt -> ty <> DIR \/ b = true) -> (t = TkColon -> ty <> DIR /\ b = false) ->
  exists k o more, ninfix t = Some (k, o) /\ 0 <= code o <= 32 /\ nasm_parse W ty b [TkNum (IL 1); t] = Fin (None, St [] (Err (MAfterCode (code o)) :: more)).
Proof. exact nasm_misnamed. Qed.
Print Assumptions C82_refuted.

(** C83.  The GAS parser follows its grammar in the same sense. *)
Theorem C83_accepts : forall W l rest a er, gram (gas W) true 0 l rest a er -> exists e, gas_expr W (l ++ rest) = Fin (Some e, St rest er) /\ denotes a e.
Proof. exact gas_accepts. Qed.
Print Assumptions C83_accepts.
(** C83.  Any text is read like that, or NULL is returned, and then no such reading exists; reported are at most a missing parenthesis or a missing name after [@]. *)
Theorem C83_verdict : forall W l,
  (exists e pre rest a er, gas_expr W l = Fin (Some e, St rest er) /\ l = pre ++ rest /\ gram (gas W) true 0 pre rest a er /\ denotes a e) \/
  (exists left er, gas_expr W l = Fin (None, St left er) /\
    (exists ok last, er = ok ++ last /\ Forall (fun e => forall m, e <> Err m) ok /\ In last [[]; [Err MParen]; [Err MIdent]]) /\
    forall pre rest a er, l = pre ++ rest -> ~ gram (gas W) true 0 pre rest a er).
Proof. exact gas_verdict. Qed.
Print Assumptions C83_verdict.
Theorem C83_print : forall W text a rest, printable (gas W) tok2 tok1 text a -> calm (gas W) 0 rest ->
  exists e er, gas_expr W (print (gas W) tok2 tok1 text 0 a ++ rest) = Fin (Some e, St rest er) /\ quiet er /\ denotes a e.
Proof. exact gas_print. Qed.
Print Assumptions C83_print.

(** Symbols are their only character; "P" is a special symbol, 200; the absolute section starts at 256 *)
Definition first (x : list Z) : Z := match x with c :: _ => c | [] => 0 end.
Definition spec (x : list Z) : option Z := match x with [80] => Some 200 | _ => None end.
Definition w1 : world := World first spec 300 301 None None false.
Definition w2 : world := World first spec 300 301 (Some (IDENT, [TInt (IL 256)])) None true.
Lemma w1_ok : wok w1. Proof. intros e [H|H]; discriminate H. Qed.
Lemma w2_ok : wok w2. Proof. intros e [H|H]; [|discriminate H]. injection H as <-. apply good_expr. repeat split; repeat constructor; discriminate. Qed.
Definition num (z : Z) : token := TkNum (IL z).
(** 10 - 4 - 3 << 1 | 1, and the same in GAS, where + and - bind loosest *)
Definition text1 : list token := [num 10; TkMinus; num 4; TkMinus; num 3; TkShl; num 1; TkOr; num 1].
Definition nast1 : ast := Bin OR (Bin SHL (Bin SUB (Bin SUB (Lit (IL 10)) (Lit (IL 4))) (Lit (IL 3))) (Lit (IL 1))) (Lit (IL 1)).
Definition gast1 : ast := Bin SUB (Bin SUB (Lit (IL 10)) (Lit (IL 4))) (Bin OR (Bin SHL (Lit (IL 3)) (Lit (IL 1))) (Lit (IL 1))).
Example C81_ex_text : print (nasm w1 NORM) tok2 tok1 (fun s => [s]) 1 nast1 = text1 /\ print (gas w1) tok2 tok1 (fun s => [s]) 0 gast1 = text1 /\
  nasm_parse w1 NORM true text1 = Fin (Some (IDENT, [TInt (IL 7)]), St [] []) /\ gas_expr w1 text1 = Fin (Some (IDENT, [TInt (IL (-1))]), St [] []).
Proof. repeat match goal with |- _ /\ _ => split end; vm_compute; reflexivity. Qed.
(** x - $ wrt P + 1: WRT takes P only, and "+ 1" is left; SEG x : HIGH (y + $) *)
Definition text2 : list token := [TkId [120]; TkMinus; TkHere; TkWrt; TkSpecial [46; 46; 80]; TkPlus; num 1].
Definition ast3 : ast := Bin SEGOFF (Un SEG (Name 120)) (High (Bin ADD (Name 121) (Lit (IL 512)))).
Definition env1 : env := Env (fun _ => 0) (fun _ => 0) (fun _ => 0) (fun s => Some (VNum (s * 256))) (fun z => z / 16) (fun a b => a - b).
Example C81_ex_gram : gram (nasm w1 NORM) true 1 (firstn 5 text2) (skipn 5 text2) (Bin WRT (Bin SUB (Name 120) (Name 300)) (Name 200)) [Use [120]].
Proof.
  cbn [firstn skipn text2]. apply g_end; [|cbn; discriminate].
  apply (g_bin (nasm w1 NORM) 1 [TkId [120]; TkMinus; TkHere] TkWrt [TkSpecial [46; 46; 80]] _ WRT (Bin SUB (Name 120) (Name 300)) (Name 200) [Use [120]] []); [reflexivity| |apply g_atom; apply na_special; [discriminate|reflexivity]].
  do 4 (apply g_one; [cbn; lia|]; apply g_end; [|cbn; discriminate]). apply g_one; [cbn; lia|]. apply g_end; [|cbn; discriminate].
  apply (g_bin (nasm w1 NORM) 6 [TkId [120]] TkMinus [TkHere] _ SUB (Name 120) (Name 300) [Use [120]] []); [reflexivity| |].
  - apply g_one; [cbn; lia|]. apply g_end; [|cbn; discriminate]. apply g_one; [cbn; lia|]. apply g_atom. apply (na_id w1 NORM [120]).
  - apply g_end; [|cbn; discriminate]. apply g_one; [cbn; lia|]. apply g_atom. apply (na_here w1 NORM). discriminate.
Qed.
Example C81_ex_run : (exists e, nasm_parse w1 NORM true text2 = Fin (Some e, St [TkPlus; num 1] [Use [120]]) /\ eval env1 e = Some (VNum ((120 - 300) * 256 - 200 * 256))) /\
  printable (nasm w2 NORM) tok2 tok1 (fun s => [s]) ast3 /\
  print (nasm w2 NORM) tok2 tok1 (fun s => [s]) 0 ast3 = [TkSeg; TkId [120]; TkColon; TkHigh; TkLParen; TkId [121]; TkPlus; num 512; TkRParen] /\
  (exists e, nasm_parse w2 NORM false (print (nasm w2 NORM) tok2 tok1 (fun s => [s]) 0 ast3) = Fin (Some e, St [] [Use [120]; Use [121]]) /\ eval env1 e = Some (VPair (120 * 16) 123)) /\
  aev env1 ast3 = Some (VPair (120 * 16) 123) /\
  nasm_parse w2 NORM true [TkHere; TkPlus; TkStr [1; 2]] = Fin (Some (IDENT, [TInt (IL (256 + 258))]), St [] []).
Proof.
  split; [eexists; split; [vm_compute; reflexivity|vm_compute; reflexivity]|]. split.
  - cbn [printable ast3]. repeat match goal with |- _ /\ _ => split end; try reflexivity; try (eexists; split; [reflexivity|cbn; lia]);
    intros rest _; eexists; (split; [apply (na_id w2 NORM [120]) || apply (na_id w2 NORM [121]) || apply na_num|repeat constructor; eauto]).
  - split; [vm_compute; reflexivity|]. split; [eexists; split; [vm_compute; reflexivity|vm_compute; reflexivity]|]. split; vm_compute; reflexivity.
Qed.
(** 2 * (x + ), (x, dw eax + 1, 1 | *)
Example C82_ex : nasm_parse w1 NORM true [num 2; TkMul; TkLParen; TkId [120]; TkPlus; TkRParen] = Fin (None, St [TkRParen] [Use [120]; Err (MAfter TkPlus); Err (MAfter TkLParen); Err (MAfter TkMul)]) /\
  nasm_parse w1 NORM true [TkLParen; TkId [120]] = Fin (None, St [TkNone] [Use [120]; Err MParen]) /\
  nasm_parse w1 DV true [TkReg 0; TkPlus; num 1] = Fin (None, St [TkReg 0; TkPlus; num 1] [Err MReg]) /\
  nasm_parse w1 NORM true [num 1; TkOr] = Fin (None, St [] [Err (MAfterCode 10)]) /\
  nasm_parse w1 NORM true [TkOr] = Fin (None, St [TkOr] []) /\ ~ begins NORM [TkOr].
Proof. repeat match goal with |- _ /\ _ => split end; try (vm_compute; reflexivity). intros []. Qed.
(** x@P - . + 4 ! 1 and x@Q *)
Example C83_ex_gram : gram (gas w1) true 0 [TkId [120]; TkAt; TkId [80]; TkMinus; TkId [46]] [] (Bin SUB (Bin WRT (Name 120) (Name 200)) (Name 300)) [Use [120]].
Proof.
  apply g_end; [|exact Logic.I]. apply (g_bin (gas w1) 0 [TkId [120]; TkAt; TkId [80]] TkMinus [TkId [46]] [] SUB (Bin WRT (Name 120) (Name 200)) (Name 300) [Use [120]] []); [reflexivity| |].
  - do 2 (apply g_one; [cbn; lia|]; apply g_end; [|cbn; discriminate]). apply g_one; [cbn; lia|]. apply g_atom. apply ga_at; [right; repeat split; discriminate|reflexivity].
  - do 2 (apply g_end; [|exact Logic.I]; apply g_one; [cbn; lia|]). apply g_atom. apply ga_id; [left; auto|intros []].
Qed.
Example C83_ex_run : (exists e, gas_expr w1 [TkId [120]; TkAt; TkId [80]; TkMinus; TkId [46]; TkPlus; num 4; TkBang; num 1] = Fin (Some e, St [] [Use [120]]) /\ eval env1 e = Some (VNum ((120 - 200 - 300) * 256 - 6))) /\
  gas_expr w1 [TkId [120]; TkAt; TkId [81]; TkPlus] = Fin (None, St [] [Use [120]; Warn]) /\
  gas_expr w1 [TkId [120]; TkAt; num 1] = Fin (None, St [TkNone] [Use [120]; Err MIdent]).
Proof. split; [eexists; split; [vm_compute; reflexivity|vm_compute; reflexivity]|]. split; vm_compute; reflexivity. Qed.
