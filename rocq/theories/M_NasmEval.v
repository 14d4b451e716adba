(** Model of modules/preprocs/nasm/nasm-eval.c, the recursive-descent evaluator of preprocessor
    expressions.  modules/preprocs/gas/gas-eval.c is the same text up to the arguments of the error
    function.

    The scanner is a list of tokens, the current token [i] its head; past the end it gives TkEnd
    (ppscan, nasm-pp.c).  Names are numbers.  The reports of the error function, all of them
    nonfatal, are a list.  Line numbers and memory are left out: the code destroys the operands it
    drops except for one missing parenthesis. *)
From Coq Require Import ZArith List Bool.
From Verif Require Import Lib M_BitVect M_Intnum M_Expr.
Import ListNotations.
Open Scope Z_scope.

(** nasm.h:165-180 and the characters used as tokens *)
Inductive token :=
| TkNum (n : intnum) | TkId (s : Z) | TkHere | TkBase | TkSeg
| TkDblOr | TkDblXor | TkDblAnd | TkEq | TkNe | TkLt | TkGt | TkLe | TkGe
| TkOr | TkXor | TkAnd | TkShl | TkShr | TkPlus | TkMinus | TkMul | TkDiv | TkMod | TkSDiv | TkSMod
| TkNot | TkLParen | TkRParen | TkOther (k : Z) | TkEnd.
(** The messages *)
Inductive err := ESeg | EParen | EUndef (s : Z) | ERef (t : token) | ESyntax.
Record st := St { toks : list token; errs : list err }.
Definition cur (s : st) : token := match toks s with t :: _ => t | [] => TkEnd end.
(** i = scan(scpriv, tokval) *)
Definition next (s : st) : st := St (tl (toks s)) (errs s).
Definition report (e : err) (s : st) : st := St (toks s) (errs s ++ [e]).
(** A function that returns an expression or NULL *)
Definition out : Type := res (option expr * st).
(** The rest of a function once an operand was not NULL *)
Definition bind (r : out) (f : expr -> st -> out) : out :=
  match r with
  | Fin (Some e, s) => f e s
  | Fin (None, s) => Fin (None, s)
  | Fault => Fault
  | Deep => Deep
  end.
(** expr.h:143-161 yasm_expr_create_tree, _branch, _ident *)
Definition made (r : res expr) (f : expr -> out) : out := match r with Fin e => f e | Fault => Fault | Deep => Deep end.
Definition as_item (e : expr) : item := TExpr (fst e) (snd e).
Definition tree (o : op) (e f : expr) : res expr := create o (as_item e) (Some (as_item f)).
Definition branch (o : op) (e : expr) : res expr := create o (as_item e) None.
Definition ident (t : item) : res expr := create IDENT t None.

(** The while loop of rexp0 to expr5: which tokens are operators and what they build *)
Fixpoint loop (n : nat) (ops : token -> option op) (sub : st -> out) (e : expr) (s : st) : out :=
  match n with
  | O => Deep
  | S n' =>
      match ops (cur s) with
      | None => Fin (Some e, s)
      | Some o => bind (sub (next s)) (fun f s1 => made (tree o e f) (fun e1 => loop n' ops sub e1 s1))
      end
  end.
Definition level (n : nat) (ops : token -> option op) (sub : st -> out) (s : st) : out := bind (sub s) (fun e s1 => loop n ops sub e s1).

(** Each function over the next one, the innermost being [expr6] *)
Section Levels.
Variables (n : nat) (e6 : st -> out).
(** nasm-eval.c:305-345 *)
Definition expr5 : st -> out := level n (fun t => match t with TkMul => Some MUL | TkDiv => Some DIV | TkMod => Some MOD | TkSDiv => Some SIGNDIV | TkSMod => Some SIGNMOD | _ => None end) e6.
(** nasm-eval.c:276-303 *)
Definition expr4 : st -> out := level n (fun t => match t with TkPlus => Some ADD | TkMinus => Some SUB | _ => None end) expr5.
(** nasm-eval.c:246-274 *)
Definition expr3 : st -> out := level n (fun t => match t with TkShl => Some SHL | TkShr => Some SHR | _ => None end) expr4.
(** nasm-eval.c:225-244 *)
Definition expr2 : st -> out := level n (fun t => match t with TkAnd => Some AND | _ => None end) expr3.
(** nasm-eval.c:204-223 *)
Definition expr1 : st -> out := level n (fun t => match t with TkXor => Some XOR | _ => None end) expr2.
(** nasm-eval.c:182-202 *)
Definition expr0 : st -> out := level n (fun t => match t with TkOr => Some OR | _ => None end) expr1.
(** nasm-eval.c:137-180 *)
Definition rexp3 : st -> out := level n (fun t => match t with TkEq => Some EQ | TkLt => Some LT | TkGt => Some GT | TkNe => Some NE | TkLe => Some LE | TkGe => Some GE | _ => None end) expr0.
(** nasm-eval.c:116-135 *)
Definition rexp2 : st -> out := level n (fun t => match t with TkDblAnd => Some LAND | _ => None end) rexp3.
(** nasm-eval.c:95-114 *)
Definition rexp1 : st -> out := level n (fun t => match t with TkDblXor => Some LXOR | _ => None end) rexp2.
(** nasm-eval.c:74-93 *)
Definition rexp0 : st -> out := level n (fun t => match t with TkDblOr => Some LOR | _ => None end) rexp1.
(** nasm-eval.c:424-428: which function bexpr points to *)
Definition bexpr (critical : bool) : st -> out := if critical then rexp0 else expr0.
End Levels.

Section Eval.
(** nasm_symtab: none, or what yasm_symtab_get finds *)
Variables (symtab : option (Z -> option Z)) (critical : bool).
Definition one : item := TInt (IL 1).
(** nasm-eval.c:347-419 *)
Fixpoint expr6 (n : nat) (s : st) : out :=
  match n with
  | O => Deep
  | S n' =>
      let ret s r := made r (fun e => Fin (Some e, next s)) in
      match cur s with
      | TkMinus => bind (expr6 n' (next s)) (fun e s1 => made (branch NEG e) (fun e1 => Fin (Some e1, s1)))
      | TkPlus => expr6 n' (next s)
      | TkNot => bind (expr6 n' (next s)) (fun e s1 => made (branch NOT e) (fun e1 => Fin (Some e1, s1)))
      | TkSeg => bind (expr6 n' (next s)) (fun e s1 => Fin (Some e, report ESeg s1))
      | TkLParen => bind (bexpr n' (expr6 n') critical (next s)) (fun e s1 =>
                      match cur s1 with TkRParen => Fin (Some e, next s1) | _ => Fin (None, report EParen s1) end)
      | TkNum k => ret s (ident (TInt k))
      | TkId x =>
          match symtab with
          | Some get => match get x with Some y => ret s (ident (TSym y)) | None => ret (report (EUndef x) s) (ident one) end
          | None => ret (report (ERef (TkId x)) s) (ident one)
          end
      | TkHere => ret (report (ERef TkHere) s) (ident one)
      | TkBase => ret (report (ERef TkBase) s) (ident one)
      | _ => Fin (None, report ESyntax s)
      end
  end.
(** nasm-eval.c:421-441 nasm_evaluate, the current token being the first of the list; one level of recursion more than tokens suffices *)
Definition evaluate (l : list token) : out := let n := S (length l) in bexpr n (expr6 n) critical (St l []).
End Eval.
