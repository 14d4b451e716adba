(** Model of the expression parsers of the two assembler syntaxes: modules/parsers/nasm/nasm-parse.c
    and modules/parsers/gas/gas-parse.c.

    The lexer is a list of tokens, curtok its head; past the end it gives TkEnd (token 0).  What the
    parsers do besides building an expression is a list of events: symbols marked as used
    (yasm_symtab_use), calls of yasm_error_set and yasm_warn_set.  All calls are recorded; the
    message a user sees is the first one, since yasm_error_set does nothing once an error is set
    (errwarn.c:273-274).  Line numbers and memory are left out: the code destroys the operands it
    drops except after a missing parenthesis. *)
From Coq Require Import ZArith List Bool.
From Verif Require Import Lib M_BitVect M_Intnum M_Expr.
Import ListNotations.
Open Scope Z_scope.

(** nasm-parser.h:36-76, gas-parser.h:37-52 and the characters used as tokens.  Names and
    strings are lists of characters. *)
Inductive token :=
| TkNum (n : intnum) | TkFlt (neg : bool) (f : Z) | TkStr (s : list Z) | TkReg (r : Z)
| TkId (x : list Z) | TkLocal (x : list Z) | TkNonlocal (x : list Z) | TkSpecial (x : list Z)
| TkHere | TkStart | TkSeg | TkWrt | TkLow | TkHigh
| TkColon | TkOr | TkXor | TkAnd | TkBang | TkShl | TkShr | TkPlus | TkMinus | TkMul | TkDiv | TkMod | TkSDiv | TkSMod
| TkNot | TkLParen | TkRParen | TkAt | TkOther (k : Z) | TkNone | TkEnd.
(** The messages: "expected expression after" a token or the character of a code, "expected `)'", "data
    values can't have registers", a character constant too long, "expected identifier" after `@' *)
Inductive msg := MAfter (t : token) | MAfterCode (c : Z) | MParen | MReg | MChar | MIdent.
Inductive event := Use (x : list Z) | Err (m : msg) | Warn.
Record st := St { toks : list token; evts : list event }.
Definition cur (s : st) : token := match toks s with t :: _ => t | [] => TkEnd end.
(** nasm-parse.c:86, gas-parse.c:83 get_next_token *)
Definition next (s : st) : st := St (tl (toks s)) (evts s).
Definition note (l : list event) (s : st) : st := St (toks s) (evts s ++ l).
(** nasm-parse.c:100-129, gas-parse.c:97-118 destroy_curtok *)
Definition drop (s : st) : st := St (TkNone :: tl (toks s)) (evts s).
(** A function that returns an expression or NULL *)
Definition out : Type := res (option expr * st).
Definition made (r : res expr) (f : expr -> out) : out := match r with Fin e => f e | Fault => Fault | Deep => Deep end.
(** What follows a call that may return NULL: [f] with the expression, or NULL after reporting [l] *)
Definition bind (r : out) (l : list event) (f : expr -> st -> out) : out :=
  match r with
  | Fin (Some e, s) => f e s
  | Fin (None, s) => Fin (None, note l s)
  | Fault => Fault
  | Deep => Deep
  end.
(** nasm-parser.h:115-117, gas-parser.h:152-155 p_expr_new_tree, _branch, _ident *)
Definition as_item (e : expr) : item := TExpr (fst e) (snd e).
Definition tree (o : op) (e f : expr) : res expr := create o (as_item e) (Some (as_item f)).
Definition branch (o : op) (e : expr) : res expr := create o (as_item e) None.
Definition ident (t : item) : res expr := create IDENT t None.
(** coretype.h:218-253: the number of an operator *)
Definition code (o : op) : Z :=
  match o with
  | IDENT => 0 | ADD => 1 | SUB => 2 | MUL => 3 | DIV => 4 | SIGNDIV => 5 | MOD => 6 | SIGNMOD => 7 | NEG => 8 | NOT => 9
  | OR => 10 | AND => 11 | XOR => 12 | XNOR => 13 | NOR => 14 | SHL => 15 | SHR => 16
  | LOR => 17 | LAND => 18 | LNOT => 19 | LXOR => 20 | LXNOR => 21 | LNOR => 22
  | LT => 23 | GT => 24 | EQ => 25 | LE => 26 | GE => 27 | NE => 28 | NONNUM => 29 | SEG => 30 | WRT => 31 | SEGOFF => 32
  end.

(** The while loops: the tokens that are operators, what they build, and what is reported when no operand follows *)
Fixpoint loop (n : nat) (ops : token -> option (op * list event)) (right : st -> out) (e : expr) (s : st) : out :=
  match n with
  | O => Deep
  | S n' =>
      match ops (cur s) with
      | None => Fin (Some e, s)
      | Some (o, l) => bind (right (next s)) l (fun f s1 => made (tree o e f) (fun e1 => loop n' ops right e1 s1))
      end
  end.
Definition level (n : nat) (ops : token -> option (op * list event)) (left right : st -> out) (s : st) : out :=
  bind (left s) [] (fun e s1 => loop n ops right e s1).

(** * NASM *)
(** nasm-parse.c:36-41 expr_type *)
Inductive etype := NORM | DIR | DV.
Section Nasm.
(** nasm-parse.c:1187-1206 parse_expr_common: describe_token is given the operator, not the token, and makes a
    character of it (155-200, 193-196: no operator's number is that of a token) *)
Definition macro (o : op) : op * list event := (o, [Err (MAfterCode (code o))]).
(** nasm-parse.c:1259-1261, 1286-1288, 1315-1317: the token is named *)
Definition named (o : op) (t : token) : op * list event := (o, [Err (MAfter t)]).
Section Levels.
Variables (n : nat) (e6 : st -> out).
(** nasm-parse.c:1301-1331 *)
Definition nexpr5 : st -> out := level n (fun t => match t with
  | TkMul => Some (named MUL t) | TkDiv => Some (named DIV t) | TkMod => Some (named MOD t)
  | TkSDiv => Some (named SIGNDIV t) | TkSMod => Some (named SIGNMOD t) | _ => None end) e6 e6.
(** nasm-parse.c:1274-1299 *)
Definition nexpr4 : st -> out := level n (fun t => match t with TkPlus => Some (named ADD t) | TkMinus => Some (named SUB t) | _ => None end) nexpr5 nexpr5.
(** nasm-parse.c:1247-1272 *)
Definition nexpr3 : st -> out := level n (fun t => match t with TkShl => Some (named SHL t) | TkShr => Some (named SHR t) | _ => None end) nexpr4 nexpr4.
(** nasm-parse.c:1241-1245 *)
Definition nexpr2 : st -> out := level n (fun t => match t with TkAnd => Some (macro AND) | _ => None end) nexpr3 nexpr3.
(** nasm-parse.c:1235-1239 *)
Definition nexpr1 : st -> out := level n (fun t => match t with TkXor => Some (macro XOR) | _ => None end) nexpr2 nexpr2.
(** nasm-parse.c:1229-1233 *)
Definition nexpr0 : st -> out := level n (fun t => match t with TkOr => Some (macro OR) | _ => None end) nexpr1 nexpr1.
(** nasm-parse.c:1222-1226 parse_bexpr *)
Definition nbexpr : st -> out := level n (fun t => match t with TkWrt => Some (macro WRT) | _ => None end) nexpr0 e6.
(** nasm-parse.c:1208-1220 parse_expr *)
Definition nexpr (ty : etype) : st -> out :=
  match ty with
  | DIR => nexpr0
  | _ => level n (fun t => match t with TkColon => Some (macro SEGOFF) | _ => None end) nbexpr nbexpr
  end.
End Levels.
(** The symbol of a name (yasm_symtab_use), the special symbol of a name if the object format has one
    (yasm_objfmt_get_special_sym), the symbols made for $ and $$, the expressions of an absolute
    section, if in one, and whether the syntax is TASM's *)
Record world := World { use : list Z -> Z; special : list Z -> option Z; here : Z; start : Z; abspos : option expr; absstart : option expr; tasm : bool }.
Variables (W : world) (ty : etype).
(** nasm-parse.c:1443-1453, 1433-1435: a name *)
Definition nname (x : list Z) (s : st) : out := made (ident (TSym (use W x))) (fun e => Fin (Some e, next (note [Use x] s))).
(** nasm-parse.c:1333-1489 parse_expr6 *)
Fixpoint nexpr6 (n : nat) (s : st) : out :=
  match n with
  | O => Deep
  | S n' =>
      let ret e s := Fin (Some e, next s) in
      let sub f := bind (nexpr6 n' (next s)) [Err (MAfter (cur s))] f in
      match cur s with
      | TkPlus => sub (fun e s1 => Fin (Some e, s1))
      | TkMinus => sub (fun e s1 => made (branch NEG e) (fun e1 => Fin (Some e1, s1)))
      | TkNot => sub (fun e s1 => made (branch NOT e) (fun e1 => Fin (Some e1, s1)))
      | TkLow => sub (fun e s1 => made (ident (TInt (create_uint 255))) (fun m => made (tree AND e m) (fun e1 => Fin (Some e1, s1))))
      | TkHigh => sub (fun e s1 => made (ident (TInt (create_uint 8))) (fun k => made (tree SHR e k) (fun e1 =>
                    made (ident (TInt (create_uint 255))) (fun m => made (tree AND e1 m) (fun e2 => Fin (Some e2, s1))))))
      | TkSeg => sub (fun e s1 => made (branch SEG e) (fun e1 => Fin (Some e1, s1)))
      | TkLParen => bind (nexpr n' (nexpr6 n') ty (next s)) [Err (MAfter TkLParen)] (fun e s1 =>
                      match cur s1 with TkRParen => Fin (Some e, next s1) | _ => Fin (None, drop (note [Err MParen] s1)) end)
      | TkNum k => made (ident (TInt k)) (fun e => ret e s)
      | TkReg r => match ty with DV => Fin (None, note [Err MReg] s) | _ => made (ident (TReg r)) (fun e => ret e s) end
      | t =>
          match ty with
          | DIR => match t with TkId x => nname x s | _ => Fin (None, s) end
          | _ =>
              match t with
              | TkFlt neg f => made (ident (TFloat neg f)) (fun e => ret e s)
              | TkStr x =>
                  let (v, long) := if tasm W then charconst_tasm x else charconst_nasm x in
                  made (ident (TInt v)) (fun e => ret e (note (if long then [Err MChar] else []) s))
              | TkSpecial x =>
                  match special W (tl (tl x)) with
                  | Some y => made (ident (TSym y)) (fun e => ret e s)
                  | None => nname x s
                  end
              | TkId x | TkLocal x | TkNonlocal x => nname x s
              | TkHere => match abspos W with Some e => ret e s | None => made (ident (TSym (here W))) (fun e => ret e s) end
              | TkStart => match absstart W with Some e => ret e s | None => made (ident (TSym (start W))) (fun e => ret e s) end
              | _ => Fin (None, s)
              end
          end
      end
  end.
(** The two functions the rest of the parser calls, the current token being the first of the list; one level of recursion more than tokens suffices *)
Definition nasm_expr (l : list token) : out := let n := S (length l) in nexpr n (nexpr6 n) ty (St l []).
Definition nasm_bexpr (l : list token) : out := let n := S (length l) in nbexpr n (nexpr6 n) (St l []).
End Nasm.

(** * GAS *)
Section Gas.
Definition isdot (x : list Z) : bool := match x with [c] => c =? 46 | _ => false end.
Section Levels.
Variables (n : nat) (e2 : st -> out).
(** gas-parse.c:1385-1411 parse_expr1 *)
Definition gexpr1 : st -> out := level n (fun t => match t with
  | TkMul => Some (MUL, []) | TkDiv => Some (DIV, []) | TkMod => Some (MOD, []) | TkShl => Some (SHL, []) | TkShr => Some (SHR, []) | _ => None end) e2 e2.
(** gas-parse.c:1358-1383 parse_expr0 *)
Definition gexpr0 : st -> out := level n (fun t => match t with
  | TkOr => Some (OR, []) | TkXor => Some (XOR, []) | TkAnd => Some (AND, []) | TkBang => Some (NOR, []) | _ => None end) gexpr1 gexpr1.
(** gas-parse.c:1333-1356 parse_expr *)
Definition gexpr : st -> out := level n (fun t => match t with TkPlus => Some (ADD, []) | TkMinus => Some (SUB, []) | _ => None end) gexpr0 gexpr0.
End Levels.
Variables (W : world).
(** gas-parse.c:1413-1493 parse_expr2 *)
Fixpoint gexpr2 (n : nat) (s : st) : out :=
  match n with
  | O => Deep
  | S n' =>
      let ret e s := Fin (Some e, next s) in
      match cur s with
      | TkPlus => gexpr2 n' (next s)
      | TkMinus => bind (gexpr2 n' (next s)) [] (fun e s1 => made (branch NEG e) (fun e1 => Fin (Some e1, s1)))
      | TkNot => bind (gexpr2 n' (next s)) [] (fun e s1 => made (branch NOT e) (fun e1 => Fin (Some e1, s1)))
      | TkLParen => bind (gexpr n' (gexpr2 n') (next s)) [] (fun e s1 =>
                      match cur s1 with TkRParen => Fin (Some e, next s1) | _ => Fin (None, drop (note [Err MParen] s1)) end)
      | TkNum k => made (ident (TInt k)) (fun e => ret e s)
      | TkFlt neg f => made (ident (TFloat neg f)) (fun e => ret e s)
      | TkId x =>
          let '(y, l) := if isdot x then (here W, []) else (use W x, [Use x]) in
          let s1 := note l (next s) in
          match cur s1 with
          | TkAt =>
              match cur (next s1) with
              | TkId w =>
                  match special W w with
                  | None => made (ident (TSym y)) (fun e => ret e (note [Warn] (next s1)))
                  | Some z => made (create WRT (TSym y) (Some (TSym z))) (fun e => ret e (next s1))
                  end
              | _ => Fin (None, drop (note [Err MIdent] (next s1)))
              end
          | _ => made (ident (TSym y)) (fun e => Fin (Some e, s1))
          end
      | _ => Fin (None, s)
      end
  end.
(** gas-parse.c:1333-1356 as called *)
Definition gas_expr (l : list token) : out := let n := S (length l) in gexpr n (gexpr2 n) (St l []).
End Gas.
