(** Model of libyasm/value.c: splitting an expression into an absolute and a relocated part, and
    the values that need no relocation.

    Expressions are those of M_Expr.  What a symbol is comes from parameters: [label] is
    yasm_symrec_get_label, [sect] yasm_bc_get_section, [equ] yasm_symrec_get_equ, [curpos] and
    [special] yasm_symrec_is_curpos and yasm_symrec_is_special.  [precbc] is the bytecode before the
    one that holds the value and [dot] the symbol that yasm_symtab_define_curpos makes for it.
    Printing, copying and freeing values are left out. *)
From Coq Require Import ZArith List Bool Arith.
From Verif Require Import Lib M_BitVect M_Intnum M_Expr.
Import ListNotations.
Open Scope Z_scope.

(** coretype.h:121-184 yasm_value *)
Record val := Val { abs : option expr; rel : option Z; wrt : option Z; segof : bool; rshift : Z; curpos_rel : bool;
  ip_rel : bool; jump_target : bool; section_rel : bool; no_warn : bool; signed : bool; size : Z }.
(** value.c:46-62 yasm_value_initialize; the size is a field of 8 bits *)
Definition init (e : option expr) (sz : Z) : val :=
  Val e None None false 0 false false false false false false (sz mod 2 ^ 8).
Definition set_abs (v : val) (e : option expr) : val :=
  Val e (rel v) (wrt v) (segof v) (rshift v) (curpos_rel v) (ip_rel v) (jump_target v) (section_rel v) (no_warn v) (signed v) (size v).
Definition set_rel (v : val) (s : Z) (cr : bool) : val :=
  Val (abs v) (Some s) (wrt v) (segof v) (rshift v) (cr || curpos_rel v) (ip_rel v) (jump_target v) (section_rel v) (no_warn v) (signed v) (size v).
Definition set_shift (v : val) (s n : Z) : val :=
  Val (abs v) (Some s) (wrt v) (segof v) (rshift v + n) (curpos_rel v) (ip_rel v) (jump_target v) (section_rel v) (no_warn v) (signed v) (size v).
Definition set_seg (v : val) (s : Z) : val :=
  Val (abs v) (Some s) (wrt v) true (rshift v) (curpos_rel v) (ip_rel v) (jump_target v) (section_rel v) (no_warn v) (signed v) (size v).
Definition set_wrt (v : val) (s : Z) : val :=
  Val (abs v) (rel v) (Some s) (segof v) (rshift v) (curpos_rel v) (ip_rel v) (jump_target v) (section_rel v) (no_warn v) (signed v) (size v).
Definition set_nowarn (v : val) : val :=
  Val (abs v) (rel v) (wrt v) (segof v) (rshift v) (curpos_rel v) (ip_rel v) (jump_target v) (section_rel v) true (signed v) (size v).
(** value.c:106-120 yasm_value_set_curpos_rel; [abs_sym] is yasm_symtab_abs_sym *)
Definition set_curpos_rel (abs_sym : Z) (v : val) (ip : bool) : val :=
  Val (abs v) (Some (match rel v with Some s => s | None => abs_sym end)) (wrt v) (segof v) (rshift v) true ip (jump_target v) (section_rel v) (no_warn v) (signed v) (size v).

Definition zero : item := TInt (create_uint 0).
Definition is_none {A} (o : option A) : bool := match o with None => true | Some _ => false end.
Definition put (i : nat) (x : item) (l : list item) : list item := firstn i l ++ x :: skipn (S i) l.
Definition mem (i : nat) (l : list nat) : bool := existsb (Nat.eqb i) l.
(** the first term satisfying [p] whose bit in [used] is not set *)
Fixpoint findi (p : item -> bool) (used : list nat) (j : nat) (l : list item) : option nat :=
  match l with
  | [] => None
  | t :: r => if p t && negb (mem j used) then Some j else findi p used (S j) r
  end.
(** value.c:176-207: the symbol of a (-1*symrec) term *)
Definition neg_sym (t : item) : option Z :=
  match t with
  | TExpr MUL [TInt n; TSym s] => if is_neg1 n then Some s else None
  | TExpr MUL [TSym s; TInt n] => if is_neg1 n then Some s else None
  | _ => None
  end.
(** What the scan gives: the term as it is left, or 1 (the expression cannot be split), or the
    fatal error for more than 32 terms *)
Inductive sres := SOk (t : item) (v : val) | SBad | SFatal.
Inductive lres := LOk (l : list item) (used : list nat) (v : val) | LBad | LFatal.
Definition RSHIFT_MAX : Z := 127.

Section Scan.
Variable label : Z -> option Z.
Variable sect : Z -> Z.
Variable equ : Z -> option expr.
Variable curpos special : Z -> bool.
Variable precbc : option Z.
Variable dot : Z.

Definition is_sym (s : Z) (t : item) : bool := match t with TSym s' => s' =? s | _ => false end.
Definition in_sect (p : Z) (t : item) : bool :=
  match t with TSym s => match label s with Some p2 => sect p2 =? sect p | None => false end | _ => false end.
Definition relocatable (t : item) : bool := match t with TSym s => is_none (equ s) && negb (special s) | _ => false end.
(** value.c:209-304: a (-1*symrec) term [i] of [cur]; [None] when the term is scanned as any other *)
Definition pair (s : Z) (i : nat) (cur : list item) (used : list nat) (v : val) (ssym : bool) : option lres :=
  match findi (is_sym s) used O cur with
  | Some j => Some (LOk (put i zero (put j zero cur)) (j :: used) v)
  | None =>
      match label s with
      | None => None
      | Some p => Some
          (match findi (in_sect p) used O cur with
           | Some j => LOk cur (j :: used) v
           | None =>
               if negb (curpos_rel v) && (curpos s || match precbc with Some q => sect p =? sect q | None => false end) then
                 match findi relocatable used O cur with
                 | Some j =>
                     match nth_error cur j with
                     | Some (TSym s2) =>
                         if negb (is_none (rel v)) || ssym then LBad
                         else LOk (if curpos s then put i zero (put j zero cur) else put j (TSym dot) cur) (j :: used) (set_rel v s2 true)
                     | _ => LBad
                     end
                 | None => LBad
                 end
               else LBad
           end)
      end
  end.
(** value.c:306-319: the symbols that are left *)
Fixpoint leftover (i : nat) (l : list item) (used : list nat) (v : val) (ssym : bool) : option (list item * val) :=
  match l with
  | [] => Some ([], v)
  | t :: r =>
      match t with
      | TSym s => if mem i used then match leftover (S i) r used v ssym with Some (r', v') => Some (t :: r', v') | None => None end
                  else if negb (is_none (rel v)) || ssym then None
                  else match leftover (S i) r used (set_rel v s false) ssym with Some (r', v') => Some (zero :: r', v') | None => None end
      | _ => match leftover (S i) r used v ssym with Some (r', v') => Some (t :: r', v') | None => None end
      end
  end.
(** value.c:122-443 value_finalize_scan.  The default case returns after its first subexpression.
    A term that is missing from the array is taken as a refusal. *)
Fixpoint scan (t : item) (v : val) (ssym : bool) : sres :=
  match t with
  | TExpr o ts =>
      match o with
      | ADD =>
          if (32 <? length ts)%nat then SFatal
          else match (fix go (i : nat) (l cur : list item) (used : list nat) (v : val) : lres :=
                        match l with
                        | [] => LOk cur used v
                        | a :: r =>
                            match a with
                            | TExpr _ _ =>
                                let plain := match scan a v ssym with
                                             | SOk a' v' => go (S i) r (put i a' cur) used v'
                                             | SBad => LBad
                                             | SFatal => LFatal
                                             end in
                                match neg_sym a with
                                | None => plain
                                | Some s => match pair s i cur used v ssym with
                                            | None => plain
                                            | Some (LOk cur' used' v') => go (S i) r cur' used' v'
                                            | Some x => x
                                            end
                                end
                            | _ => go (S i) r cur used v
                            end
                        end) O ts ts [] v with
               | LOk cur used v' => match leftover O cur used v' ssym with Some (ts', v2) => SOk (TExpr ADD ts') v2 | None => SBad end
               | LBad => SBad
               | LFatal => SFatal
               end
      | SHR =>
          match ts with
          | TSym s :: b :: r =>
              if negb (is_none (rel v)) || ssym then SBad
              else match b with
                   | TInt n => if RSHIFT_MAX <? u64 (get_uint n + rshift v) then SBad
                               else SOk (TExpr SHR (zero :: b :: r)) (set_shift v s (get_uint n))
                   | _ => SBad
                   end
          | _ => SOk t v
          end
      | SEG =>
          match ts with
          | TSym s :: r => if segof v then SBad else if negb (is_none (rel v)) || ssym then SBad else SOk (TExpr IDENT (zero :: r)) (set_seg v s)
          | _ => SBad
          end
      | WRT =>
          let lhs o a r v := match a with
                             | TSym s => if negb (is_none (rel v)) || ssym then SBad else SOk (TExpr o (zero :: r)) (set_rel v s false)
                             | TExpr _ _ => match scan a v ssym with SOk a' v' => SOk (TExpr o (a' :: r)) v' | x => x end
                             | _ => SOk (TExpr o (a :: r)) v
                             end in
          match ts with
          | a :: b :: r =>
              match b with
              | TSym y => if is_none (wrt v) then lhs IDENT a [] (set_wrt v y) else SBad
              | TReg _ => lhs WRT a (b :: r) v
              | _ => SBad
              end
          | _ => SBad
          end
      | _ =>
          (fix go (pre l : list item) : sres :=
             match l with
             | [] => SOk t v
             | a :: r => match a with
                         | TSym _ => SBad
                         | TExpr _ _ => match scan a v true with SOk a' v' => SOk (TExpr o (pre ++ a' :: r)) v' | x => x end
                         | _ => go (pre ++ [a]) r
                         end
             end) [] ts
      end
  | _ => SOk t v
  end.

(** value.c:475-513: removing the mask of all ones from a conjunction *)
Definition mask (sz : Z) : intnum := ical (ical (create_uint 1) SHL (Some (create_uint sz))) SUB (Some (create_uint 1)).
Definition is_mask (m : intnum) (t : item) : bool := match t with TInt n => compare n m =? 0 | _ => false end.
Definition strip_mask (e : expr) (v : val) : expr * val :=
  match e with
  | (AND, ts) =>
      let l := filter (fun t => negb (is_mask (mask (size v)) t)) ts in
      (((if Nat.eqb (length l) 1 then IDENT else AND), l), if Nat.eqb (length l) (length ts) then v else set_nowarn v)
  | _ => (e, v)
  end.
(** value.c:531-539 *)
Fixpoint lower (t : item) : item :=
  match t with
  | TExpr IDENT (a :: _) => match a with TExpr _ _ => lower a | _ => t end
  | _ => t
  end.
Definition zero_none (e : expr) : option expr :=
  match e with (IDENT, TInt n :: _) => if is_zero n then None else Some e | _ => Some e end.

(** value.c:458-556 yasm_value_finalize.  [err]: an error was set before. [FMem], [FDeep]: the
    outcomes of level_tree that are not results. *)
Inductive fres := FOk (v : val) | FBad | FFatal | FInternal | FMem | FDeep.
Definition finish (nequ : nat) (v : val) (t : item) : fres :=
  match scan t v false with
  | SBad => FBad
  | SFatal => FFatal
  | SOk t' v' =>
      match level_tree nequ equ true true false [] (of_item t') with
      | Fin (e', _, _) => FOk (set_abs v' (zero_none e'))
      | Fault => FMem
      | Deep => FDeep
      end
  end.
Definition finalize (nequ : nat) (err : bool) (v : val) : fres :=
  match abs v with
  | None => FOk v
  | Some e =>
      match level_tree nequ equ true true false [] e with
      | Fault => FMem
      | Deep => FDeep
      | Fin (e1, _, circ) =>
          if err || circ then FBad
          else let (e2, v1) := strip_mask e1 v in
               match e2 with
               | (IDENT, a :: _) =>
                   match a with
                   | TInt _ => FOk (set_abs v1 (zero_none e2))
                   | TReg _ | TFloat _ _ => FOk (set_abs v1 (Some e2))
                   | TSym s => FOk (set_abs (set_rel v1 s false) None)
                   | TExpr _ _ => finish nequ v1 (lower a)
                   | _ => FInternal
                   end
               | _ => finish nequ v1 (TExpr (fst e2) (snd e2))
               end
      end
  end.
(** value.c:445-456 yasm_value_finalize_expr *)
Definition finalize_expr (nequ : nat) (err : bool) (e : option expr) (sz : Z) : fres := finalize nequ err (init e sz).

(** value.c:586-610, 690-715: the distance of a label of this section, shifted, plus the absolute part.
    [next] is yasm_bc_next_offset. *)
Variable next : Z -> Z.
Definition reloc (v : val) (p off : Z) (n : option intnum) : intnum :=
  let d := if next p <? off then ical (create_uint (u64 (off - next p))) NEG None else create_uint (u64 (next p - off)) in
  let d := if 0 <? rshift v then ical d SHR (Some (create_uint (rshift v))) else d in
  match n with Some i => ical d ADD (Some i) | None => d end.
(** value.c:572-586, 678-690: whether the relative part is a label of this section, relative to the
    current position *)
Definition local (v : val) (s : Z) (here : Z) : option Z :=
  match label s with
  | None => None
  | Some p => if is_none (wrt v) && negb (segof v) && negb (section_rel v) && (sect p =? here) && curpos_rel v then Some p else None
  end.
(** value.c:558-619 yasm_value_get_intnum.  [num] is yasm_expr_get_intnum; [bc] the section and
    offset of the bytecode; [None] is NULL. *)
Definition get_intnum (num : expr -> option intnum) (v : val) (bc : option (Z * Z)) : option intnum :=
  let absolute k := match abs v with None => k None | Some e => match num e with None => None | Some n => k (Some n) end end in
  absolute (fun n =>
    match rel v with
    | Some s => match bc with
                | None => None
                | Some (here, off) => match local v s here with Some p => Some (reloc v p off n) | None => None end
                end
    | None => Some (match n with Some i => i | None => create_uint 0 end)
    end).
(** value.c:621-740 yasm_value_output_basic: what is written, and the kind of range warning asked
    for.  [tofloat], [toint] tell whether writing succeeds; [OTodo] is 0, [OErr] is -1.  [num2] is
    the second attempt of lines 655-664. *)
Inductive ores := OTodo | OErr | OFloat (neg : bool) (f : Z) (warn : bool) | ONum (n : intnum) (warn : Z).
Definition output_basic (num num2 : expr -> option intnum) (v : val) (here off : Z) (warn : bool) : ores :=
  let warn := warn && negb (no_warn v) in
  let w := if warn then (if signed v then -1 else 1) else 0 in
  let rest n :=
    match rel v with
    | Some s => match local v s here with Some p => ONum (reloc v p off n) w | None => OTodo end
    | None => if segof v || (0 <? rshift v) || curpos_rel v || ip_rel v || section_rel v then OTodo
              else ONum (match n with Some i => i | None => create_uint 0 end) w
    end in
  match abs v with
  | None => rest None
  | Some e =>
      match is_none (rel v), e with
      | true, (IDENT, TFloat s f :: _) => OFloat s f warn
      | _, _ => if contains 8 e then OErr
                else match num e with
                     | Some n => rest (Some n)
                     | None => match num2 e with Some n => rest (Some n) | None => OErr end
                     end
      end
  end.
End Scan.
