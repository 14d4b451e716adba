(** Model of libyasm/expr.c: building, levelling, folding and simplifying expressions, expanding
    constants, replacing label differencesand substitution.

    An expression is an operator with its list of terms (the array e->terms[0..numterms-1]); a
    subexpression is a term.  Line numbers, the item pool and the printing functions are left out.
    Freed memory is tracked where it matters: expr_simplify_identity destroys array slots, and a
    slot that still holds a pointer that was moved elsewhere, or lies past the array, is a fault.
    An error set by yasm_intnum_calc is left out (expr.c ignores the returned code).
    Symbols and bytecodes are numbers; floats are opaque with a sign. *)
From Coq Require Import ZArith List Bool Arith.
From Verif Require Import Lib M_BitVect M_Intnum.
Import ListNotations.
Open Scope Z_scope.

(** expr.h:42-51, 54-67, 70-77 *)
Inductive item :=
| TNone | TReg (r : Z) | TInt (n : intnum) | TSubst (k : Z) | TFloat (neg : bool) (f : Z)
| TSym (s : Z) | TPrecbc (b : Z) | TExpr (o : op) (ts : list item).
Definition expr : Type := op * list item.
Definition of_item (t : item) : expr := match t with TExpr o ts => (o, ts) | _ => (IDENT, [t]) end.
(** expr.h:42-51: the type bit of a term *)
Definition ty (t : item) : Z :=
  match t with
  | TNone => 0 | TReg _ => 1 | TInt _ => 2 | TSubst _ => 4 | TFloat _ _ => 8 | TSym _ => 16 | TPrecbc _ => 32
  | TExpr _ _ => 64
  end.
(** Outcome of a computation: a value, a use of freed or foreign memory, or recursion deeper than
    the bound the model allows (never reached, see P_Expr). *)
Inductive res (A : Type) := Fin (a : A) | Fault | Deep.
Arguments Fin {A} a. Arguments Fault {A}. Arguments Deep {A}.

Lemma op_dec : forall a b : op, {a = b} + {a <> b}. Proof. decide equality. Defined.
Definition op_eq (a b : op) : bool := if op_dec a b then true else false.
(** coretype.h:248: op > YASM_EXPR_NONNUM *)
Definition nonnum (o : op) : bool := match o with SEG | WRT | SEGOFF => true | _ => false end.
(** expr.c:714-717, 938-946: operators that take more than two terms *)
Definition nary (o : op) : bool := match o with ADD | MUL | OR | AND | LOR | LAND | LXOR | XOR => true | _ => false end.
Definition ical (a : intnum) (o : op) (b : option intnum) : intnum := fst (fst (calc scratch a o b)).
Definition m1 : intnum := IL (-1).

(** expr.c:1066-1070 yasm_expr__contains, 1131-1151 *)
Fixpoint contains_i (t : Z) (i : item) : bool :=
  match i with TExpr _ ts => existsb (contains_i t) ts | _ => negb (Z.land (ty i) t =? 0) end.
Definition contains (t : Z) (e : expr) : bool := existsb (contains_i t) (snd e).

(** expr.c:361-378 expr_xform_neg_item and 386-449 expr_xform_neg_helper, on a term.  In the
    IDENT case over a float (424-426) the returned node is dropped: only changes made in place
    to the subexpression are seen. *)
Fixpoint neg (t : item) : item :=
  match t with
  | TExpr o ts =>
      match o with
      | ADD => TExpr ADD (map neg ts)
      | SUB => TExpr ADD (match ts with a :: r => neg a :: r | [] => [] end)
      | NEG => TExpr IDENT ts
      | IDENT =>
          match ts with
          | TFloat s f :: r => TExpr IDENT (TFloat (negb s) f :: r)
          | TInt n :: r => TExpr IDENT (TInt (ical n NEG None) :: r)
          | a :: r =>
              match a with
              | TExpr o' _ =>
                  if contains_i 8 a then
                    TExpr IDENT ((match o' with ADD | SUB | NEG | IDENT => neg a | _ => a end) :: r)
                  else TExpr MUL [a; TInt m1]
              | _ => TExpr MUL [a; TInt m1]
              end
          | [] => TExpr MUL [TNone; TInt m1]
          end
      | _ => TExpr MUL [TInt m1; t]
      end
  | _ => TExpr MUL [TInt m1; t]
  end.
(** expr.c:459-483 expr_xform_neg *)
Definition xform_neg (e : expr) : expr :=
  match e with
  | (NEG, ts) => of_item (neg (TExpr IDENT ts))
  | (SUB, a :: b :: r) => (ADD, a :: neg b :: r)
  | (SUB, ts) => (ADD, ts)
  | _ => e
  end.

(** expr.c:488-496 *)
Definition is_constant (o : op) (n : intnum) : bool :=
  match o with MUL | AND | LAND => is_zero n | OR => is_neg1 n | _ => false end.
(** expr.c:499-509 *)
Definition destroy_left (o : op) (n : intnum) : bool :=
  match o with
  | MUL => is_pos1 n | ADD => is_zero n | AND => is_neg1 n | LAND => negb (is_zero n)
  | OR => is_zero n | LOR => is_zero n | _ => false
  end.
(** expr.c:512-527 *)
Definition destroy_right (o : op) (n : intnum) : bool :=
  match o with
  | MUL => is_pos1 n | DIV => is_pos1 n | ADD => is_zero n | SUB => is_zero n | AND => is_neg1 n
  | LAND => negb (is_zero n) | OR => is_zero n | LOR => is_zero n | SHL => is_zero n | SHR => is_zero n
  | _ => false
  end.
(** expr.c:1016-1033: deleting this term frees memory reachable from it (an integer that was folded
    away is NULL, which yasm_intnum_destroy ignores) *)
Definition owned (t : item) : bool := match t with TFloat _ _ | TExpr _ _ => true | _ => false end.

(** expr.c:536-604 expr_simplify_identity.  [l] are the numterms live terms, of which [l[f]] is
    the integer [n]; [stale] is the content of the slots numterms..e->numterms-1 ([None] for a slot
    outside the allocated array).  Result: operator, terms, whether the integer is still there. *)
Definition remove_nth {A} (k : nat) (l : list A) : list A := firstn k l ++ skipn (S k) l.
Definition simplify_identity (o : op) (l : list item) (f : nat) (n : intnum) (stale : list (option item)) (srm : bool)
  : res (op * list item * bool) :=
  let keep := negb srm && op_eq o MUL && is_pos1 n && contains 1 (o, l) in
  let gone := negb keep &&
    (if Nat.eqb f 0 then (1 <? length l)%nat && destroy_left o n else destroy_right o n) in
  let l1 := if gone then remove_nth f l else l in
  if negb gone && (1 <? length l1)%nat && is_constant o n then
    if existsb (fun s => match s with Some t => owned t | None => true end) stale then Fault
    else Fin (IDENT, [TInt n], true)
  else
    match l1 with
    | [t] =>
        Fin (IDENT,
             [if negb gone && Nat.eqb f 0 && match o with NOT | NEG | LNOT => true | _ => false end
              then TInt (ical n o None) else t], negb gone)
    | _ => Fin (o, l1, negb gone)
    end.

(** expr.c:644-649: bring up the value of IDENT subexpressions *)
Fixpoint strip (t : item) : item :=
  match t with TExpr o (a :: _) => if op_eq o IDENT then strip a else t | _ => t end.
(** expr.c:628-632: the node reached through IDENT nodes over subexpressions *)
Definition is_expr (t : item) : bool := match t with TExpr _ _ => true | _ => false end.
Fixpoint top (t : item) : expr :=
  match t with
  | TExpr o (a :: r) => if op_eq o IDENT && is_expr a then top a else (o, a :: r)
  | _ => of_item t
  end.
Definition strip_top (e : expr) : expr := top (TExpr (fst e) (snd e)).

Definition is_int (t : item) : bool := match t with TInt _ => true | _ => false end.
Definition ints (l : list item) : nat := length (filter is_int l).
(** expr.c:651-666: what one term contributes to level_numterms and level_fold_numterms *)
Definition lv_extra (o : op) (t : item) : Z :=
  match t with TExpr o' s => if op_eq o' o then Z.of_nat (length s) - 1 else 0 | _ => 0 end.
Definition lv_ints (o : op) (t : item) : Z :=
  match t with TExpr o' s => if op_eq o' o then Z.of_nat (ints s) else 0 | _ => 0 end.
(** expr.c:671-673 *)
Fixpoint first_int (l : list item) : option (nat * intnum) :=
  match l with
  | [] => None
  | TInt n :: _ => Some (O, n)
  | _ :: r => match first_int r with Some (k, n) => Some (S k, n) | None => None end
  end.
(** expr.c:682-696: the terms after the first integer; integers are folded into [n], the others
    move left over the gaps *)
Fixpoint fold_ints (o : op) (n : intnum) (r : list item) : intnum * list item :=
  match r with
  | [] => (n, [])
  | TInt m :: r' => fold_ints o (ical n o (Some m)) r'
  | t :: r' => let (n', l) := fold_ints o n r' in (n', t :: l)
  end.

(** expr.c:745-788: copying terms up, right to left, in place.  [a] is the array, [k] the slot
    written next, [f] the slot of the integer; -1 stands for "none". *)
Definition set_nth (a : list item) (k : Z) (t : item) : option (list item) :=
  if (0 <=? k) && (k <? Z.of_nat (length a)) then Some (firstn (Z.to_nat k) a ++ t :: skipn (S (Z.to_nat k)) a) else None.
Definition get_nth (a : list item) (k : Z) : option item := if 0 <=? k then nth_error a (Z.to_nat k) else None.
Definition astate : Type := list item * Z * Z.
(** expr.c:752-771; [ts] is the subexpression's terms from the right *)
Fixpoint up_sub (fc : bool) (o : op) (ts : list item) (s : astate) : option astate :=
  match ts with
  | [] => Some s
  | t :: r =>
      let '(a, k, f) := s in
      match (if fc then t else TNone), t with
      | TInt m, _ =>
          if f =? -1 then match set_nth a k t with Some a' => up_sub fc o r (a', k - 1, k) | None => None end
          else match get_nth a f with
               | Some (TInt n) =>
                   match set_nth a f (TInt (ical n o (Some m))) with Some a' => up_sub fc o r (a', k, f) | None => None end
               | _ => None
               end
      | _, _ =>
          let k' := if k =? f then k - 1 else k in
          match set_nth a k' t with Some a' => up_sub fc o r (a', k' - 1, f) | None => None end
      end
  end.
(** expr.c:745-788; [i] counts the terms still to visit *)
Fixpoint copy_up (fc : bool) (o : op) (i : nat) (s : astate) : option astate :=
  match i with
  | O => Some s
  | S j =>
      let '(a, k, f) := s in
      match nth_error a j with
      | None => None
      | Some t =>
          let plain :=
            if k =? Z.of_nat j then copy_up fc o j (a, k - 1, f)
            else
              let k' := if k =? f then k - 1 else k in
              match set_nth a k' t with
              | Some a' => copy_up fc o j (a', k' - 1, if Z.of_nat j =? f then k' else f)
              | None => None
              end in
          match t with
          | TExpr o' sub =>
              if op_eq o' o then match up_sub fc o (rev sub) s with Some s' => copy_up fc o j s' | None => None end
              else plain
          | _ => plain
          end
      end
  end.

(** expr.c:618-801 expr_level_op *)
Definition level_up (fc si srm : bool) (o : op) (l : list item) (f : option (nat * intnum)) (oldn : nat) (lvl lvlf : Z) : res expr :=
  if negb (nary o) || (lvl <=? Z.of_nat (length l)) then Fin (o, l)
  else
    let lvl' := if fc then lvl - lvlf + (if match f with None => true | _ => false end && negb (lvlf =? 0) then 1 else 0) else lvl in
    let n := Z.to_nat lvl' in
    let a := firstn n (l ++ repeat TNone n) in
    match copy_up fc o (length l) (a, lvl' - 1, match f with Some (k, _) => Z.of_nat k | None => -1 end) with
    | None => Fault
    | Some (a', _, f') =>
        if si && negb (f' =? -1) then
          match get_nth a' f' with
          | Some (TInt m) =>
              match simplify_identity o a' (Z.to_nat f') m (repeat None (oldn - n)) srm with
              | Fin (o', l', _) => Fin (o', l')
              | Fault => Fault
              | Deep => Deep
              end
          | _ => Fault
          end
        else Fin (if Nat.eqb n 1 then IDENT else o, a')
    end.
Definition zsum (f : item -> Z) (l : list item) : Z := fold_right (fun t s => f t + s) 0 l.
Definition level_op (fc si srm : bool) (e0 : expr) : res expr :=
  let (o, ts0) := strip_top e0 in
  let fc := fc && negb (nonnum o) in
  let ts := map strip ts0 in
  let oldn := length ts in
  let lvl := Z.of_nat oldn + zsum (lv_extra o) ts in
  let lvlf := if fc then zsum (lv_ints o) ts else 0 in
  match (if fc then first_int ts else None) with
  | None => level_up fc si srm o ts None oldn lvl lvlf
  | Some (k, n) =>
      let (n', post) := fold_ints o n (skipn (S k) ts) in
      let l := firstn k ts ++ TInt n' :: post in
      let foldn := length l in
      let lvl1 := lvl - (Z.of_nat oldn - Z.of_nat foldn) in
      let stale := map Some (skipn foldn ts) in
      match (if si then simplify_identity o l k n' stale srm
             else Fin (if Nat.eqb foldn 1 then IDENT else o, l, true)) with
      | Fin (o', l', here) =>
          level_up fc si srm o' l' (if here then Some (k, n') else None) oldn
                   (lvl1 - (Z.of_nat foldn - Z.of_nat (length l'))) lvlf
      | Fault => Fault
      | Deep => Deep
      end
  end.

(** expr.c:63-122 yasm_expr_create *)
Definition create (o : op) (left : item) (right : option item) : res expr :=
  level_op true true false
    (o, strip left :: match right with Some r => [strip r] | None => [] end).

(** expr.c:810-848 expr_expand_equ.  [equ] is yasm_symrec_get_equ; the list of definitions being
    expanded holds the symbols.  Result: the term, and whether the circular reference error was
    set; the terms of a node after one that closes a circle are not expanded. *)
Fixpoint expand (fuel : nat) (equ : Z -> option expr) (seen : list Z) : item -> res (item * bool) :=
  fix go (t : item) : res (item * bool) :=
    let terms := fix terms (l : list item) : res (list item * bool) :=
      match l with
      | [] => Fin ([], false)
      | a :: r =>
          let circular := match a with
                          | TSym s => match equ s with Some _ => existsb (Z.eqb s) seen | None => false end
                          | _ => false
                          end in
          if circular then Fin (a :: r, true)
          else match go a with
               | Fin (a', e1) => match terms r with
                                 | Fin (r', e2) => Fin (a' :: r', e1 || e2)
                                 | Fault => Fault
                                 | Deep => Deep
                                 end
               | Fault => Fault
               | Deep => Deep
               end
      end in
    match t with
    | TSym s =>
        match equ s with
        | Some (o, ts) => match fuel with
                          | O => Deep
                          | S n => expand n equ (s :: seen) (TExpr o ts)
                          end
        | None => Fin (t, false)
        end
    | TExpr o ts => match terms ts with
                    | Fin (ts', e) => Fin (TExpr o ts', e)
                    | Fault => Fault
                    | Deep => Deep
                    end
    | _ => Fin (t, false)
    end.

(** expr.c:201-293 expr_xform_bc_dist_base.  [label] is yasm_symrec_get_label, [sect]
    yasm_bc_get_section, and [cb prec prec2 st] the callback on the term it is given. *)
Section Dist.
Variable St : Type.
Variable label : Z -> option Z.
Variable sect : Z -> Z.
Variable cb : Z -> Z -> St -> option (item * St).
(** expr.c:229-259: the bytecode of a (-1*symrec) or (-1*precbc) term *)
Definition bc_of (t : item) : option Z := match t with TSym s => label s | TPrecbc b => Some b | _ => None end.
Definition neg_bc (t : item) : option Z :=
  match t with
  | TExpr MUL [TInt n; x] => match x with TSym _ | TPrecbc _ => if is_neg1 n then bc_of x else None | _ => None end
  | TExpr MUL [x; TInt n] => match x with TSym _ | TPrecbc _ => if is_neg1 n then bc_of x else None | _ => None end
  | _ => None
  end.
(** expr.c:262-275: the first term in the same section for which the callback succeeds *)
Fixpoint match_pos (p : Z) (l : list item) (st : St) : option (list item * St) :=
  match l with
  | [] => None
  | t :: r =>
      let next := match match_pos p r st with Some (r', st') => Some (t :: r', st') | None => None end in
      match bc_of t with
      | Some p2 => if sect p2 =? sect p then
                     match cb p p2 st with Some (t', st') => Some (t' :: r, st') | None => next end
                   else next
      | None => next
      end
  end.
Fixpoint dist_loop (k : nat) (i : nat) (l : list item) (st : St) : list item * St :=
  match k with
  | O => (l, st)
  | S k' =>
      match nth_error l i with
      | Some t =>
          match neg_bc t with
          | Some p => match match_pos p l st with
                      | Some (l', st') => dist_loop k' (S i) (firstn i l' ++ TNone :: skipn (S i) l') st'
                      | None => dist_loop k' (S i) l st
                      end
          | None => dist_loop k' (S i) l st
          end
      | None => (l, st)
      end
  end.
Definition live (t : item) : bool := match t with TNone => false | _ => true end.
Definition bc_dist_base (e : expr) (st : St) : expr * St :=
  let (o, ts) := e in
  if op_eq o ADD then
    let (l, st') := dist_loop (length ts) 0 ts st in
    let l' := filter live l in
    ((if Nat.eqb (length l') 1 && negb (Nat.eqb (length l) 1) then IDENT else ADD, l'), st')
  else (e, st).
End Dist.
(** expr.c:295-315; [dist] is yasm_calc_bc_dist *)
Definition dist_cb (dist : Z -> Z -> option intnum) (p p2 : Z) (st : list (Z * Z)) : option (item * list (Z * Z)) :=
  match dist p p2 with Some n => Some (TInt n, st) | None => None end.
(** expr.c:324-343; the pairs handed to the higher-level callback are recorded in order *)
Definition subst_cb (p p2 : Z) (st : list (Z * Z)) : option (item * list (Z * Z)) :=
  Some (TSubst (Z.of_nat (length st)), st ++ [(p, p2)]).

(** expr.c:850-891 expr_level_tree.  [xs] lists the transformations applied after levelling
    (expr_xform_bc_dist and expr_xform_extra); they may record pairs. *)
Definition xform : Type := expr -> list (Z * Z) -> expr * list (Z * Z).
(** Bound on the recursion: a - b and -x turn into deeper trees. *)
Fixpoint depth (t : item) : nat :=
  match t with
  | TExpr o ts => (match o with SUB | NEG => 3 | _ => 1 end + fold_right (fun a m => Nat.max (depth a) m) 0 ts)%nat
  | _ => O
  end.
Definition edepth (e : expr) : nat := depth (TExpr (fst e) (snd e)).
(** expr.c:870-878: SEG of seg:off *)
Definition seg_of (e : expr) : expr :=
  match e with
  | (SEG, TExpr SEGOFF (a :: _) :: r) => (IDENT, TExpr IDENT [a] :: r)
  | _ => e
  end.
Section Tree.
Variable F : item -> list (Z * Z) -> res (item * list (Z * Z)).
(** expr.c:860-868: the recursion over the terms *)
Fixpoint over (l : list item) (st : list (Z * Z)) : res (list item * list (Z * Z)) :=
  match l with
  | [] => Fin ([], st)
  | a :: r =>
      match (match a with TExpr _ _ => F a st | _ => Fin (a, st) end) with
      | Fin (a', st1) => match over r st1 with
                         | Fin (r', st2) => Fin (a' :: r', st2)
                         | Fault => Fault
                         | Deep => Deep
                         end
      | Fault => Fault
      | Deep => Deep
      end
  end.
End Tree.
(** expr.c:858-881, 890; the result is a term holding the expression *)
Fixpoint ltree (fuel : nat) (fc si srm : bool) (t : item) (st : list (Z * Z)) : res (item * list (Z * Z)) :=
  match fuel with
  | O => Deep
  | S n =>
      let (o, ts) := xform_neg (of_item t) in
      match over (ltree n fc si srm) ts st with
      | Fin (ts', st1) =>
          match level_op fc si srm (seg_of (o, ts')) with
          | Fin (o1, l1) => Fin (TExpr o1 l1, st1)
          | Fault => Fault
          | Deep => Deep
          end
      | Fault => Fault
      | Deep => Deep
      end
  end.
(** expr.c:850-891 with calc_bc_dist or an extra transformation: after each node the
    transformations run and the node is levelled again without them *)
Fixpoint ltreex (fuel : nat) (fc si srm : bool) (xs : list xform) (t : item) (st : list (Z * Z)) : res (item * list (Z * Z)) :=
  match fuel with
  | O => Deep
  | S n =>
      let (o, ts) := xform_neg (of_item t) in
      match over (ltreex n fc si srm xs) ts st with
      | Fin (ts', st1) =>
          match level_op fc si srm (seg_of (o, ts')) with
          | Fin e1 =>
              let '((o2, l2), st2) := fold_left (fun s x => x (fst s) (snd s)) xs (e1, st1) in
              ltree (S (depth (TExpr o2 l2))) fc si srm (TExpr o2 l2) st2
          | Fault => Fault
          | Deep => Deep
          end
      | Fault => Fault
      | Deep => Deep
      end
  end.
(** expr.c:894-911 yasm_expr__level_tree.  [nequ] bounds the number of constants. *)
Definition level_tree (nequ : nat) (equ : Z -> option expr) (fc si srm : bool) (xs : list xform) (e : expr)
  : res (expr * list (Z * Z) * bool) :=
  match expand nequ equ [] (TExpr (fst e) (snd e)) with
  | Fin (t, circ) =>
      match (match xs with [] => ltree (S (depth t)) fc si srm t [] | _ => ltreex (S (depth t)) fc si srm xs t [] end) with
      | Fin (t', st) => Fin (of_item t', st, circ)
      | Fault => Fault
      | Deep => Deep
      end
  | Fault => Fault
  | Deep => Deep
  end.
(** expr.h:222-223 yasm_expr_simplify; expr.c:345-359 yasm_expr__bc_dist_subst *)
Definition simplify nequ equ label sect dist (cbd : bool) (e : expr) :=
  level_tree nequ equ true true true (if cbd then [bc_dist_base _ label sect (dist_cb dist)] else []) e.
Definition bc_dist_subst nequ equ label sect (e : expr) :=
  level_tree nequ equ true true true [bc_dist_base _ label sect subst_cb] e.
(** expr.c:1262-1271 yasm_expr_get_intnum *)
Definition get_intnum nequ equ label sect dist (cbd : bool) (e : expr) : res (option intnum) :=
  match simplify nequ equ label sect dist cbd e with
  | Fin ((IDENT, TInt n :: _), _, _) => Fin (Some n)
  | Fin _ => Fin None
  | Fault => Fault
  | Deep => Deep
  end.
(** expr.c:1089-1097 yasm_expr__subst with 1077-1087, 1158-1177: [None] when an index is out of range *)
Fixpoint subst_i (items : list item) (t : item) : option item :=
  match t with
  | TExpr o ts =>
      match (fix go (l : list item) : option (list item) :=
               match l with
               | [] => Some []
               | a :: r => match subst_i items a, go r with Some a', Some r' => Some (a' :: r') | _, _ => None end
               end) ts with
      | Some ts' => Some (TExpr o ts')
      | None => None
      end
  | TSubst k => if (0 <=? k) && (k <? Z.of_nat (length items)) then nth_error items (Z.to_nat k) else None
  | _ => Some t
  end.
