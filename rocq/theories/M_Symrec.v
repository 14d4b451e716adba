(** Model of libyasm/symrec.c: the symbol table.  It runs on the hash-trie model (M_Hamt) and
    on the error-indicator model (M_Errwarn).

    A symbol record is a heap cell; pointers are heap indices; a freed cell is [None] and
    touching it is the outcome [None] of the call, as is a hash insertion that does not return.
    Names are character codes without NUL.  A diagnostic text is the number [text k args] of
    its format string [k] and arguments.  Expressions and bytecodes are opaque numbers.
    Not modelled: size, segment, associated data (see M_Assocdat), printing, destruction, the
    bytecode's list of labels (yasm_bc__add_symrec), output names with prefix/suffix. *)
From Coq Require Import ZArith List Bool.
From Verif Require Import Lib M_Hamt.
From Verif Require M_Errwarn.
Import ListNotations.
Open Scope Z_scope.

(** symrec.c:49-58 *)
Inductive sym_type := TUnknown | TEqu | TLabel | TCurpos | TSpecial.
(** symrec.c:67-72: the union; [VNone] is uninitialised memory *)
Inductive sval := VNone | VExpr (e : Z) | VBc (b : option Z).

(** symrec.h:41-58 *)
Definition USED := 1.  Definition DEFINED := 2.  Definition VALUED := 4.  Definition NOTINTABLE := 8.
Definition LOCAL := 0. Definition GLOBAL := 1. Definition COMMON := 2. Definition EXTERN := 4.
Definition DLOCAL := 8.
(** x & flag, as a truth value *)
Definition has (x flag : Z) : bool := negb (Z.land x flag =? 0).

(** symrec.c:60-80 *)
Record symrec := Sym { s_name : str; s_type : sym_type; s_status : Z; s_vis : Z;
  s_def : Z; s_decl : Z; s_use : Z; s_val : sval }.

(** symrec.c:88-95, plus the error indicators of errwarn.c *)
Record st := St { heap : list (option symrec); tab : hamt; case_sens : bool; err : M_Errwarn.st }.

(** symrec.c:133-141 yasm_symtab_create *)
Definition init : st := St [] create true M_Errwarn.init.

(** Text of a diagnostic: format string number and arguments (characters or line numbers). *)
Definition text (k : Z) (args : list Z) : Z :=
  fold_left (fun a c => a * (2 * w64) + (c + 256)) args k.
Definition M_XREF := 1.     (* "`%s' previously defined here" *)
Definition M_REDEF := 2.    (* "redefinition of `%s'" *)
Definition M_BOTH := 3.     (* "`%s' both defined and declared extern" *)
Definition M_DUP := 4.      (* "duplicate definition of `%s'; first defined on line %lu" *)
Definition M_UNDEF := 5.    (* "undefined symbol `%s' (first use)" *)
Definition M_ONCE := 6.     (* " (Each undefined symbol is reported only once.)" *)
Definition W_GENERAL := 1.  (* errwarn.h YASM_WARN_GENERAL *)

(** A call into errwarn.c *)
Definition ecall (s : st) (o : M_Errwarn.op) : option st :=
  match M_Errwarn.step (err s) o with
  | Some (e, _) => Some (St (heap s) (tab s) (case_sens s) e)
  | None => None
  end.
(** errwarn.h yasm_error_occurred (a macro testing yasm_eclass) *)
Definition error_occurred (s : st) : bool := negb (M_Errwarn.eclass (err s) =? 0).

(** symrec.c:160-181 symrec_new_common *)
Definition fix_case (cs : bool) (n : str) : str := if cs then n else map lower n.
Definition new_rec (cs : bool) (n : str) (status : Z) : symrec :=
  Sym (fix_case cs n) TUnknown status LOCAL 0 0 0 VNone.

Definition load (s : st) (p : Z) : option symrec :=
  if p <? 0 then None else match nth_error (heap s) (Z.to_nat p) with Some (Some r) => Some r | _ => None end.
Definition store (s : st) (p : Z) (r : symrec) : st :=
  St (upd (heap s) (Z.to_nat p) (Some r)) (tab s) (case_sens s) (err s).
Definition free (h : list (option symrec)) (p : Z) : list (option symrec) := upd h (Z.to_nat p) None.

(** symrec.c:183-199 symtab_get_or_new_in_table: the new record is freed by the hash table
    (symrec_destroy_one) when the name is already there *)
Definition get_or_new_in_table (fuel : nat) (s : st) (n : str) : option (st * Z) :=
  let r := new_rec (case_sens s) n 0 in
  let p := Z.of_nat (length (heap s)) in
  match insert fuel false (tab s) (s_name r) p false with
  | None => None
  | Some (t, res) =>
      Some (St (fold_left free (r_deleted res) (heap s ++ [Some r])) t (case_sens s) (err s), r_data res)
  end.
(** symrec.c:201-212 symtab_get_or_new_not_in_table *)
Definition get_or_new_not_in_table (s : st) (n : str) : option (st * Z) :=
  let r := new_rec (case_sens s) n NOTINTABLE in
  Some (St (heap s ++ [Some r]) (tab s) (case_sens s) (err s), Z.of_nat (length (heap s))).
(** symrec.c:216-225 symtab_get_or_new *)
Definition get_or_new (fuel : nat) (s : st) (n : str) (in_table : bool) : option (st * Z) :=
  if in_table then get_or_new_in_table fuel s n else get_or_new_not_in_table s n.

Definition set_status (r : symrec) (x : Z) := Sym (s_name r) (s_type r) x (s_vis r) (s_def r) (s_decl r) (s_use r) (s_val r).
Definition set_vis (r : symrec) (x : Z) := Sym (s_name r) (s_type r) (s_status r) x (s_def r) (s_decl r) (s_use r) (s_val r).
Definition set_val (r : symrec) (x : sval) := Sym (s_name r) (s_type r) (s_status r) (s_vis r) (s_def r) (s_decl r) (s_use r) x.

(** Apply [f] to the record at [p]. *)
Definition modify (s : st) (p : Z) (f : symrec -> symrec) : option st :=
  match load s p with Some r => Some (store s p (f r)) | None => None end.

(** symrec.c:253-265 yasm_symtab_abs_sym; [VExpr 0] stands for the constant expression 0 *)
Definition abs_sym (fuel : nat) (s : st) : option (st * Z) :=
  match get_or_new fuel s [] true with
  | None => None
  | Some (s1, p) =>
      match modify s1 p (fun r => Sym (s_name r) TEqu (Z.lor (s_status r) (Z.lor (Z.lor DEFINED VALUED) USED))
                                   (s_vis r) 0 0 0 (VExpr 0)) with
      | Some s2 => Some (s2, p)
      | None => None
      end
  end.

(** symrec.c:267-275 yasm_symtab_use *)
Definition use (fuel : nat) (s : st) (n : str) (line : Z) : option (st * Z) :=
  match get_or_new fuel s n true with
  | None => None
  | Some (s1, p) =>
      match modify s1 p (fun r => Sym (s_name r) (s_type r) (Z.lor (s_status r) USED) (s_vis r)
                          (s_def r) (s_decl r) (if s_use r =? 0 then line else s_use r) (s_val r)) with
      | Some s2 => Some (s2, p)
      | None => None
      end
  end.

(** symrec.c:277-291 yasm_symtab_get; [None] is NULL *)
Definition get (s : st) (n : str) : option Z := search false (tab s) (fix_case (case_sens s) n).

(** symrec.c:293-316 symtab_define *)
Definition define (fuel : nat) (s : st) (n : str) (ty : sym_type) (in_table : bool) (line : Z)
  : option (st * Z) :=
  match get_or_new fuel s n in_table with
  | None => None
  | Some (s1, p) =>
      match load s1 p with
      | None => None
      | Some r =>
          if has (s_status r) DEFINED then
            match ecall s1 (M_Errwarn.EXref (if negb (s_def r =? 0) then s_def r else s_decl r)
                                            (text M_XREF n)) with
            | None => None
            | Some s2 =>
                match ecall s2 (M_Errwarn.ESet M_Errwarn.E_GENERAL (text M_REDEF n)) with
                | None => None
                | Some s3 => Some (s3, p)
                end
            end
          else
            match (if has (s_vis r) EXTERN then ecall s1 (M_Errwarn.WSet W_GENERAL (text M_BOTH n))
                   else Some s1) with
            | None => None
            | Some s2 =>
                Some (store s2 p (Sym (s_name r) ty (Z.lor (s_status r) DEFINED) (s_vis r) line
                                      (s_decl r) (s_use r) (s_val r)), p)
            end
      end
  end.

(** Common shape of symrec.c:318-365: define, stop if any error is pending, else [f]. *)
Definition define_then (fuel : nat) (s : st) (n : str) (ty : sym_type) (in_table : bool) (line : Z)
  (f : symrec -> symrec) : option (st * Z) :=
  match define fuel s n ty in_table line with
  | None => None
  | Some (s1, p) =>
      if error_occurred s1 then Some (s1, p)
      else match modify s1 p f with Some s2 => Some (s2, p) | None => None end
  end.
(** symrec.c:318-328 yasm_symtab_define_equ *)
Definition define_equ fuel s n e line :=
  define_then fuel s n TEqu true line (fun r => set_status (set_val r (VExpr e)) (Z.lor (s_status r) VALUED)).
(** symrec.c:330-342 yasm_symtab_define_label; precbc NULL is [None] *)
Definition define_label fuel s n (bc : option Z) (in_table : bool) line :=
  define_then fuel s n TLabel in_table line (fun r => set_val r (VBc bc)).
(** symrec.c:344-353 yasm_symtab_define_curpos *)
Definition define_curpos fuel s n (bc : option Z) line :=
  define_then fuel s n TCurpos false line (fun r => set_val r (VBc bc)).
(** symrec.c:355-365 yasm_symtab_define_special *)
Definition define_special fuel s n vis :=
  define_then fuel s n TSpecial true 0 (fun r => set_vis (set_status r (Z.lor (s_status r) VALUED)) vis).

(** symrec.c:390-394: is the declaration allowed? *)
Definition may_declare (r : symrec) (vis : Z) : bool :=
  (vis =? GLOBAL) ||
  (negb (has (s_status r) DEFINED) &&
   (negb (has (s_vis r) (Z.lor COMMON EXTERN)) ||
    (has (s_vis r) COMMON && (vis =? COMMON)) ||
    (has (s_vis r) EXTERN && (vis =? EXTERN)))).
(** symrec.c:376-401 yasm_symrec_declare *)
Definition declare_rec (s : st) (p : Z) (vis line : Z) : option st :=
  match load s p with
  | None => None
  | Some r =>
      if may_declare r vis then
        Some (store s p (Sym (s_name r) (s_type r) (s_status r) (Z.lor (s_vis r) vis) (s_def r) line
                             (s_use r) (s_val r)))
      else ecall s (M_Errwarn.ESet M_Errwarn.E_GENERAL
                     (text M_DUP (s_name r ++ [if negb (s_def r =? 0) then s_def r else s_decl r])))
  end.
(** symrec.c:367-374 yasm_symtab_declare *)
Definition declare (fuel : nat) (s : st) (n : str) (vis line : Z) : option (st * Z) :=
  match get_or_new fuel s n true with
  | None => None
  | Some (s1, p) => match declare_rec s1 p vis line with Some s2 => Some (s2, p) | None => None end
  end.

(** symrec.c:409-429 symtab_parser_finalize_checksym *)
Definition checksym (undef_extern : bool) (p : Z) (s : st) (first : Z) : option (st * Z) :=
  match load s p with
  | None => None
  | Some r =>
      if has (s_status r) USED && negb (has (s_status r) DEFINED) && negb (has (s_vis r) (Z.lor EXTERN COMMON)) then
        if undef_extern then Some (store s p (set_vis r (Z.lor (s_vis r) EXTERN)), first)
        else
          match ecall s (M_Errwarn.ESet M_Errwarn.E_GENERAL (text M_UNDEF (s_name r))) with
          | None => None
          | Some s1 =>
              match ecall s1 (M_Errwarn.Propagate (s_use r)) with
              | None => None
              | Some s2 => Some (s2, if s_use r <? first then s_use r else first)
              end
          end
      else Some (s, first)
  end.
Definition ULONG_MAX := w64 - 1.
(** symrec.c:431-445 yasm_symtab_parser_finalize; the callback never stops the traversal *)
Definition finalize (s : st) (undef_extern : bool) : option st :=
  let cb (p : Z) (x : option (st * Z)) :=
    (match x with Some (s', first) => checksym undef_extern p s' first | None => None end, 0) in
  match fst (traverse (tab s) cb (Some (s, ULONG_MAX))) with
  | None => None
  | Some (s1, first) =>
      if first <? ULONG_MAX then
        match ecall s1 (M_Errwarn.ESet M_Errwarn.E_GENERAL (text M_ONCE [])) with
        | None => None
        | Some s2 => ecall s2 (M_Errwarn.Propagate first)
        end
      else Some s1
  end.

(** symrec.c:539-545 yasm_symrec_get_equ.  Outer [None]: reads uninitialised memory. *)
Definition get_equ (r : symrec) : option (option Z) :=
  match s_type r with
  | TEqu => if has (s_status r) VALUED
            then match s_val r with VExpr e => Some (Some e) | _ => None end
            else Some None
  | _ => Some None
  end.
(** symrec.c:547-558 yasm_symrec_get_label *)
Definition get_label (r : symrec) : option (option Z) :=
  match s_type r with
  | TLabel | TCurpos => match s_val r with VBc b => Some b | _ => None end
  | _ => Some None
  end.

(** One API call; the result pointer is -1 when the call returns none. *)
Inductive op :=
| OUse (n : str) (line : Z)
| OEqu (n : str) (e line : Z)
| OLabel (n : str) (bc : option Z) (in_table : bool) (line : Z)
| OCurpos (n : str) (bc : option Z) (line : Z)
| OSpecial (n : str) (vis : Z)
| ODeclare (n : str) (vis line : Z)
| OAbs
| OCase (sensitive : bool)
| OFinalize (undef_extern : bool)
| OErr (o : M_Errwarn.op).     (* any call of the rest of the program into errwarn.c *)

Definition nores (x : option st) : option (st * Z) :=
  match x with Some s => Some (s, -1) | None => None end.
Definition step (fuel : nat) (s : st) (o : op) : option (st * Z) :=
  match o with
  | OUse n l => use fuel s n l
  | OEqu n e l => define_equ fuel s n e l
  | OLabel n b t l => define_label fuel s n b t l
  | OCurpos n b l => define_curpos fuel s n b l
  | OSpecial n v => define_special fuel s n v
  | ODeclare n v l => declare fuel s n v l
  | OAbs => abs_sym fuel s
  | OCase b => Some (St (heap s) (tab s) b (err s), -1)
  | OFinalize u => nores (finalize s u)
  | OErr e => nores (ecall s e)
  end.
Fixpoint run_from (fuel : nat) (s : st) (ops : list op) : option st :=
  match ops with
  | [] => Some s
  | o :: ops' => match step fuel s o with Some (s', _) => run_from fuel s' ops' | None => None end
  end.
Definition run (fuel : nat) (ops : list op) : option st := run_from fuel init ops.
