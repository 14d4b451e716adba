(** Expressions of the NASM and GAS preprocessors: C46. *)
From Coq Require Import ZArith List Bool Lia.
From Verif Require Import Lib M_Intnum P_Intnum M_Expr P_Expr P_ExprLevel M_NasmEval P_NasmEval.
Import ListNotations.
Open Scope Z_scope.

(** C46.  Every text of the grammar, up to a token that cannot continue it, is read: what is left is the rest, the errors are
    those of the grammar, and the expression built has the value of the one the text stands for. *)
Theorem C46_accepts : forall symtab critical pre rest a er, gram symtab critical (loosest critical) pre a er -> follow (loosest critical) rest ->
  exists e, evaluate symtab critical (pre ++ rest) = Fin (Some e, St rest er) /\ denotes a e.
Proof. exact accepts. Qed.
Print Assumptions C46_accepts.
(** C46.  Any text is read like that, or NULL is returned with an error reported last, and then no such reading exists. *)
Theorem C46_verdict : forall symtab critical l,
  (exists e pre rest a er, evaluate symtab critical l = Fin (Some e, St rest er) /\ l = pre ++ rest /\ gram symtab critical (loosest critical) pre a er /\ follow (loosest critical) rest /\ denotes a e) \/
  (exists rest er x, evaluate symtab critical l = Fin (None, St rest (er ++ [x])) /\ (x = ESyntax \/ x = EParen) /\
    forall pre rest a er, l = pre ++ rest -> gram symtab critical (loosest critical) pre a er -> ~ follow (loosest critical) rest).
Proof. exact verdict. Qed.
Print Assumptions C46_verdict.
(** C46.  The text of an expression with the fewest parentheses gives the expression back, without errors. *)
Theorem C46_print : forall get critical a, printable get (loosest critical) a ->
  exists e, evaluate (Some get) critical (print (loosest critical) a) = Fin (Some e, St [] []) /\ denotes a e.
Proof. exact print_reads. Qed.
Print Assumptions C46_print.

(** 10 - 4 - 3 << 1 | 1 and -(2 + x) * 3, then a comma; in a relational context the first is compared *)
Definition lit (z : Z) : ast := Lit (IL z).
Definition ex1 : ast := Bin OR (Bin SHL (Bin SUB (Bin SUB (lit 10) (lit 4)) (lit 3)) (lit 1)) (lit 1).
Definition ex2 : ast := Bin MUL (Neg (Bin ADD (lit 2) (Name 7))) (lit 3).
Example C46_ex_text : print 0 ex1 = [TkNum (IL 10); TkMinus; TkNum (IL 4); TkMinus; TkNum (IL 3); TkShl; TkNum (IL 1); TkOr; TkNum (IL 1)] /\
  print 4 ex2 = [TkMinus; TkLParen; TkNum (IL 2); TkPlus; TkId 7; TkRParen; TkMul; TkNum (IL 3)] /\ printable (fun s => Some s) 4 ex2 /\ cval ex1 7.
Proof.
  split; [reflexivity|]. split; [reflexivity|]. split; [cbn; repeat split; lia|].
  assert (C : forall z, - 2 ^ 31 < z < 2 ^ 31 -> cval (lit z) z) by (intros z H; apply (c_lit (IL z)); exact H).
  replace 7 with (wrap256 (Z.lor (wrap256 (if 0 <=? 1 then wrap256 (wrap256 (10 - 4) - 3) * 2 ^ 1 else 0)) 1)) by (vm_compute; reflexivity).
  repeat (eapply c_bin; [| |cbn [meaning]; reflexivity|discriminate]); apply C; lia.
Qed.
Example C46_ex_run : evaluate None false (print 4 ex1 ++ [TkOther 44]) = Fin (Some (IDENT, [TInt (IL 7)]), St [TkOther 44] []) /\
  (exists e, evaluate (Some (fun s => Some s)) false (print 4 ex2) = Fin (Some e, St [] []) /\ eval (Env (fun _ => 0) (fun _ => 0) (fun _ => 0) (fun _ => Some (VNum 5)) (fun z => z) (fun a _ => a)) e = Some (VNum (-21))) /\
  evaluate None true (print 4 ex1 ++ [TkLe; TkNum (IL 7); TkDblAnd; TkHere]) = Fin (Some (IDENT, [TInt (IL 1)]), St [] [ERef TkHere]) /\
  (exists s, evaluate None false [TkLParen; TkNum (IL 1); TkEq; TkNum (IL 1); TkRParen] = Fin (None, St s [EParen])).
Proof.
  split; [vm_compute; reflexivity|]. split; [eexists; split; [vm_compute; reflexivity|vm_compute; reflexivity]|]. split; [vm_compute; reflexivity|]. eexists. vm_compute. reflexivity.
Qed.
