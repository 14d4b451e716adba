(** Model of modules/arch/x86/x86expr.c (effective addresses) and x86bc.c (instructions and jumps).
    Expressions are those of M_Expr.  Bytes written by output_value are the low bytes of a value that the
    object format supplies ([ov]).  Warnings are left out. *)
From Coq Require Import ZArith List Bool Arith.
From Verif Require Import Lib M_BitVect M_Intnum M_Expr.
From Verif Require P_Intnum.
Import ListNotations.
Open Scope Z_scope.

(** Outcome: a value, an error that is reported, or an internal error (or a read out of bounds). *)
Inductive out (A : Type) := Ok (a : A) | Err | Bug.
Arguments Ok {A} a. Arguments Err {A}. Arguments Bug {A}.
Definition bind {A B} (x : out A) (f : A -> out B) : out B := match x with Ok a => f a | Err => Err | Bug => Bug end.

(** x86arch.h:128-142 *)
Definition REG8 : Z := 16.
Definition REG8X : Z := 32.
Definition REG16 : Z := 48.
Definition REG32 : Z := 64.
Definition REG64 : Z := 80.
Definition XMMREG : Z := 128.
Definition YMMREG : Z := 144.
Definition RIP : Z := 208.
Definition rsize (r : Z) : Z := Z.land r (Z.lnot 15).
Definition rnum (r : Z) : Z := Z.land r 15.

(** x86bc.c:109-139 yasm_x86__set_rex_from_reg: the new REX and the low 3 bits *)
Definition set_rex (rex reg bits rexbit : Z) : out (Z * Z) :=
  let low3 := Z.land reg 7 in
  if bits =? 64 then
    if (rsize reg =? REG8X) || (8 <=? rnum reg) then
      if rex =? 255 then Err
      else Ok (Z.lor rex (Z.lor 64 (Z.shiftl (Z.shiftr (Z.land reg 8) 3) rexbit)), low3)
    else if (rsize reg =? REG8) && (4 <=? low3) then
      if negb (rex =? 0) && negb (rex =? 255) then Err else Ok (255, low3)
    else Ok (rex, low3)
  else Ok (rex, low3).

(** coretype.h:121-184 yasm_value, in part: absolute and relative parts, size *)
Record value := Value { v_abs : option expr; v_rel : option Z; v_curpos : bool; v_iprel : bool; v_size : Z }.
Definition with_abs (a : option expr) (v : value) : value := Value a (v_rel v) (v_curpos v) (v_iprel v) (v_size v).
Definition with_size (n : Z) (v : value) : value := Value (v_abs v) (v_rel v) (v_curpos v) (v_iprel v) n.
(** value.c:106-120 yasm_value_set_curpos_rel; symbol -1 is the absolute symbol *)
Definition set_curpos (ip : bool) (v : value) : value :=
  Value (v_abs v) (match v_rel v with Some s => Some s | None => Some (-1) end) true ip (v_size v).
(** value.c:97-104 yasm_value_delete *)
Definition value_delete (v : value) : value := Value None None (v_curpos v) (v_iprel v) (v_size v).

(** x86arch.h:186-204 x86_effaddr with insn.h:41-66 yasm_effaddr *)
Record ea := Ea { disp : value; nonzero : bool; need_disp : bool; nosplit : bool; segreg : Z; pc_rel : bool; vsib : Z;
  modrm : Z; valid_modrm : bool; need_modrm : bool; sib : Z; valid_sib : bool; need_sib : Z }.
Definition set_disp (v : value) (a : ea) : ea := Ea v (nonzero a) (need_disp a) (nosplit a) (segreg a) (pc_rel a) (vsib a) (modrm a) (valid_modrm a) (need_modrm a) (sib a) (valid_sib a) (need_sib a).
Definition set_nonzero (a : ea) : ea := Ea (disp a) true (need_disp a) (nosplit a) (segreg a) (pc_rel a) (vsib a) (modrm a) (valid_modrm a) (need_modrm a) (sib a) (valid_sib a) (need_sib a).
Definition set_nodisp (a : ea) : ea := Ea (disp a) (nonzero a) false (nosplit a) (segreg a) (pc_rel a) (vsib a) (modrm a) (valid_modrm a) (need_modrm a) (sib a) (valid_sib a) (need_sib a).
Definition set_pcrel (b : bool) (a : ea) : ea := Ea (disp a) (nonzero a) (need_disp a) (nosplit a) (segreg a) b (vsib a) (modrm a) (valid_modrm a) (need_modrm a) (sib a) (valid_sib a) (need_sib a).
Definition set_modrm (m : Z) (valid : bool) (a : ea) : ea := Ea (disp a) (nonzero a) (need_disp a) (nosplit a) (segreg a) (pc_rel a) (vsib a) m valid (need_modrm a) (sib a) (valid_sib a) (need_sib a).
Definition set_needmodrm (a : ea) : ea := Ea (disp a) (nonzero a) (need_disp a) (nosplit a) (segreg a) (pc_rel a) (vsib a) (modrm a) (valid_modrm a) true (sib a) (valid_sib a) (need_sib a).
Definition set_sib (s : Z) (valid : bool) (need : Z) (a : ea) : ea := Ea (disp a) (nonzero a) (need_disp a) (nosplit a) (segreg a) (pc_rel a) (vsib a) (modrm a) (valid_modrm a) (need_modrm a) s valid need.
Definition or_modrm (m : Z) (a : ea) : ea := set_modrm (Z.lor (modrm a) m) (valid_modrm a) a.
(** x86bc.c:179-202 ea_create, 222-256 yasm_x86__ea_create_expr (after the GAS adjustment), 159-168 yasm_x86__ea_init *)
Definition ea_of (v : value) (nosplit : bool) (segreg : Z) (pc_rel : bool) (vsib spare : Z) : ea :=
  Ea v false true nosplit segreg pc_rel vsib (Z.land (Z.shiftl spare 3) 56) false true 0 false 255.
(** x86bc.c:204-220 yasm_x86__ea_create_reg, then ea_init *)
Definition ea_reg (reg rex bits segreg spare : Z) : out (ea * Z) :=
  bind (set_rex rex reg bits 0) (fun p => let (rex', rm) := p in
    Ok (Ea (Value None None false false 0) false false false segreg false 0 (Z.lor (Z.land (Z.lor 192 rm) 199) (Z.land (Z.shiftl spare 3) 56)) true true 0 false 0, rex')).
(** x86bc.c:170-177 yasm_x86__ea_set_disponly, 259-269 yasm_x86__ea_create_imm *)
Definition ea_imm (v : value) (segreg : Z) : ea := Ea v false true false segreg false 0 0 false false 0 false 0.

(** * Register usage *)

(** How often each register is used: 0-15 general, 16 RIP, 17-32 SIMD; an int *)
Definition mults : Type := Z -> Z.
Definition no_regs : mults := fun _ => 0.
Definition add_reg (m : mults) (r d : Z) : mults := fun i => if i =? r then s32 (m i + d) else m i.
(** x86expr.c:44-90 x86_expr_checkea_get_reg3264 *)
Definition get_reg3264 (vsib_mode bits addrsize r : Z) : option Z :=
  let k := rsize r in
  if k =? REG32 then if addrsize =? 32 then Some (rnum r) else None
  else if k =? REG64 then if addrsize =? 64 then Some (rnum r) else None
  else if k =? XMMREG then
    if negb (vsib_mode =? 1) then None else if negb (bits =? 64) && (Z.land r 8 =? 8) then None else Some (17 + rnum r)
  else if k =? YMMREG then
    if negb (vsib_mode =? 2) then None else if negb (bits =? 64) && (Z.land r 8 =? 8) then None else Some (17 + rnum r)
  else if k =? RIP then if bits =? 64 then Some 16 else None
  else None.
(** x86expr.c:99-130 x86_expr_checkea_get_reg16: only BX, BP, SI, DI *)
Definition get_reg16 (r : Z) : option Z :=
  if negb (rsize r =? REG16) then None
  else let n := Z.land r 7 in if existsb (Z.eqb n) [3; 5; 6; 7] then Some n else None.

(** expr.c:931-957 yasm_expr__order_terms (a stable sort by type) *)
Fixpoint insert (t : item) (l : list item) : list item :=
  match l with [] => [t] | x :: r => if ty t <=? ty x then t :: l else x :: insert t r end.
Definition order_terms (o : op) (l : list item) : list item := if nary o then fold_right insert [] l else l.

Definition zero : item := TInt (IL 0).
(** State of the scan: multiplicities, index register (-1: none), its value, and whether by a product *)
Record scan := Scan { s_mult : mults; s_index : Z; s_val : Z; s_bymul : bool }.
(** x86expr.c:342-353, a register term *)
Definition scan_reg (useidx : bool) (r : Z) (s : scan) : scan :=
  let m := add_reg (s_mult s) r 1 in
  if useidx && (0 <? m r) && (s_val s <=? m r) && negb (s_bymul s) then Scan m r (m r) (s_bymul s)
  else Scan m (s_index s) (s_val s) (s_bymul s).
(** x86expr.c:354-382, a product of a register and an integer *)
Definition scan_mul (useidx : bool) (r delta : Z) (s : scan) : scan :=
  let m := add_reg (s_mult s) r delta in
  if useidx && (0 <? delta) && (s_val s <=? m r) then Scan m r (m r) true
  else if useidx && (s_index s =? r) && (delta <? 0) && (m r <=? 1) then Scan m (-1) 0 false
  else Scan m (s_index s) (s_val s) (s_bymul s).
(** x86expr.c:319-385: the terms of a sum (prescan, which orders nested terms, and scan) or, not ordered, of a lone
    subexpression; the registers become 0 *)
Fixpoint scan_terms (ord : bool) (get : Z -> option Z) (useidx : bool) (l : list item) (s : scan) : out (list item * scan) :=
  match l with
  | [] => Ok ([], s)
  | t :: rest =>
      bind (match t with
            | TReg r => match get r with Some n => Ok (zero, scan_reg useidx n s) | None => Err end
            | TExpr o ts =>
                match (if ord then order_terms o ts else ts) with
                | TReg r :: TInt k :: more =>
                    if ord && (0 <? length more)%nat then Err
                    else match get r with Some n => Ok (TExpr o (zero :: TInt k :: more), scan_mul useidx n (get_int k) s) | None => Err end
                | TReg _ :: _ :: _ => if ord then Err else Bug
                | [TReg _] => Bug
                | ts' => Ok (TExpr o ts', s)
                end
            | _ => Ok (t, s)
            end) (fun p => let (t', s') := p in
      bind (scan_terms ord get useidx rest s') (fun q => let (rest', s'') := q in Ok (t' :: rest', s'')))
  end.
(** The right side of a WRT and the rest (expr.c:1234-1259 yasm_expr_extract_wrt) *)
Definition extract_wrt (e : expr) : option expr * expr :=
  match e with (WRT, a :: b :: _) => (Some (of_item b), (IDENT, [a])) | _ => (None, e) end.
(** State of the loop over the terms: a register was seen, the last subexpression with one, something was changed *)
Record dist_state := DistState { have : bool; have_expr : option nat; changed : bool }.
Section Dist.
Variable F : item -> out (item * bool).
(** x86expr.c:159-210: the loop of x86_expr_checkea_distcheck_reg; [i] counts the terms *)
Fixpoint dist_terms (o : op) (i : nat) (l : list item) (s : dist_state) : out (list item * dist_state) :=
  match l with
  | [] => Ok ([], s)
  | t :: rest =>
      bind (match t with
            | TReg _ =>
                if op_eq o MUL then if have s then Err else Ok (t, DistState true (have_expr s) (changed s))
                else if op_eq o ADD || op_eq o IDENT then Ok (t, DistState true (have_expr s) (changed s))
                else Err
            | TFloat _ _ => Err
            | TExpr o' ts =>
                if contains_i 1 t then
                  if negb (op_eq o ADD) && negb (op_eq o MUL) then Err
                  else if op_eq o MUL && have s then Err
                  else bind (F t) (fun p => let (t', c) := p in Ok (t', DistState true (Some i) (changed s || c)))
                else if contains_i 8 t then Err else Ok (t, s)
            | _ => Ok (t, s)
            end) (fun p => let (t', s') := p in
      bind (dist_terms o (S i) rest s') (fun q => let (rest', s'') := q in Ok (t' :: rest', s'')))
  end.
End Dist.
(** x86expr.c:151-249 x86_expr_checkea_distcheck_reg: illegal, or the expression and whether it was changed *)
Fixpoint distcheck (n : nat) (t : item) : out (item * bool) :=
  match n, t with
  | S n', TExpr o ts =>
      bind (dist_terms (distcheck n') o 0 ts (DistState false None false)) (fun p => let (ts', s) := p in
      match have_expr s with
      | Some k =>
          if op_eq o MUL then
            match nth_error ts' k with
            | Some (TExpr ADD us) => Ok (TExpr ADD (map (fun u => TExpr MUL (firstn k ts' ++ u :: skipn (S k) ts')) us), true)
            | _ => Bug
            end
          else Ok (TExpr o ts', changed s)
      | None => Ok (TExpr o ts', changed s)
      end)
  | _, _ => Bug
  end.
(** x86expr.c:317-418: the registers of a levelled expression *)
Definition regs_of (get : Z -> option Z) (useidx : bool) (m0 : mults) (e : expr) : out (expr * scan) :=
  let s0 := Scan m0 (-1) 0 false in
  match e with
  | (ADD, ts) => bind (scan_terms true get useidx ts s0) (fun q => let (ts', s) := q in Ok ((ADD, ts'), s))
  | (IDENT, ts) => bind (scan_terms false get useidx ts s0) (fun q => let (ts', s) := q in Ok ((IDENT, ts'), s))
  | (MUL, ts) =>
      match order_terms MUL ts with
      | TReg r :: TInt k :: [] =>
          match get r with
          | None => Err
          | Some n =>
              let delta := get_int k in
              let m := add_reg m0 n delta in
              Ok ((MUL, [zero; TInt k]), if useidx then if (delta <? 0) && (m n <=? 1) then Scan m (-1) 0 false else Scan m n 0 false else Scan m (-1) 0 false)
          end
      | TReg _ :: _ :: _ => Err
      | [TReg _] => Bug
      | ts' => Ok ((MUL, ts'), s0)
      end
  | (SEGOFF, ts) => if contains 1 e then Err else Ok (e, s0)
  | _ => Bug
  end.
(** * Effective addresses *)
Section Assembly.
(** Constants and labels, as in M_Expr *)
Variables (nequ : nat) (equ : Z -> option expr) (label : Z -> option Z) (sect : Z -> Z) (dist : Z -> Z -> option intnum).

(** value.c:558-619 yasm_value_get_intnum without a bytecode *)
Definition value_intnum (v : value) : out (option intnum) :=
  match v_abs v with
  | Some e =>
      match get_intnum nequ equ label sect dist false e with
      | Fin (Some n) => Ok (match v_rel v with Some _ => None | None => Some n end)
      | Fin None => Ok None
      | _ => Bug
      end
  | None => Ok (match v_rel v with Some _ => None | None => Some (IL 0) end)
  end.

(** x86expr.c:438-555 x86_checkea_calc_displen *)
Definition calc_displen (wordsize : Z) (noreg dispreq : bool) (a0 : ea) : out ea :=
  let a := set_modrm (modrm a0) false a0 in
  let d := disp a in
  let done m a := set_modrm (Z.lor (modrm a) m) true a in
  if v_size d =? 8 then
    if noreg then Ok (done 0 (set_disp (with_size wordsize d) a)) else Ok (done 64 a)
  else if (v_size d =? 16) || (v_size d =? 32) then
    if negb (wordsize =? v_size d) then Err
    else Ok (done (if noreg then 0 else 128) a)
  else if negb (v_size d =? 0) then Bug
  else if noreg then Ok (done 0 (set_disp (with_size wordsize d) a))
  else
    let a1 := if dispreq then set_nonzero a else a in
    match v_rel d with
    | Some _ => Ok (done 128 (set_disp (with_size wordsize d) a1))
    | None =>
        bind (value_intnum d) (fun x =>
        match x with
        | None => Ok (done 64 (set_nonzero a1))
        | Some n =>
            if is_zero n && negb (nonzero a1) then Ok (done 0 (set_nodisp (set_disp (value_delete d) a1)))
            else if in_range n (-128) 127 then Ok (done 64 (set_disp (with_size 8 d) a1))
            else Ok (done 128 (set_disp (with_size wordsize d) a1))
        end)
    end.

(** x86expr.c:723-738: base and index registers, no negative multiplicities *)
Fixpoint find_regs (m : mults) (l : list Z) (base index : Z) : option (Z * Z) :=
  match l with
  | [] => Some (base, index)
  | i :: r =>
      if m i <? 0 then None
      else if negb (i =? index) && (m i =? 1) && (base =? -1) then find_regs m r i index
      else if (index =? -1) && (0 <? m i) then find_regs m r base i
      else find_regs m r base index
  end.
Definition upto (n : Z) : list Z := map Z.of_nat (seq 0 (Z.to_nat n)).
(** x86expr.c:740-781: VSIB, or splitting a single index register; gives base, index and new multiplicities *)
Definition adjust (vsib_mode : Z) (nosplit : bool) (m : mults) (base index : Z) : option (Z * Z * mults) :=
  if negb (vsib_mode =? 0) then
    let (b, i) := if (17 <=? base) && ((index =? -1) || (m index =? 1)) then (index, base) else (base, index) in
    if (16 <=? b) || (i <? 17) then None else Some (b, i, m)
  else if negb (index =? -1) && (base =? -1) then
    let set d := fun i => if i =? index then d else m i in
    if m index =? 1 then if nosplit then Some (base, index, m) else Some (index, -1, m)
    else if m index =? 2 then if nosplit then Some (base, index, m) else Some (index, index, set 1)
    else if (m index =? 3) || (m index =? 5) || (m index =? 9) then Some (index, index, set (m index - 1))
    else Some (base, index, m)
  else Some (base, index, m).
(** x86expr.c:783-822: the remaining checks; ESP cannot be an index *)
Definition check_regs (regcount : Z) (m : mults) (base index : Z) : option (Z * Z) :=
  if existsb (fun i => negb (i =? base) && negb (i =? index) && negb (m i =? 0)) (upto regcount) then None
  else if negb (index =? -1) && negb (existsb (Z.eqb (m index)) [1; 2; 4; 8]) then None
  else
    match (if index =? 4 then if (1 <? m 4) || (base =? 4) then None else Some (4, base) else Some (base, index)) with
    | None => None
    | Some (b, i) => if (i =? 16) || ((b =? 16) && negb (i =? -1)) then None else Some (b, i)
    end.
(** x86expr.c:828-939: ModRM and SIB from base and index *)
Definition encode3264 (bits : Z) (m : mults) (base0 index : Z) (rex : Z) (a0 : ea) : out (ea * Z) :=
  let (base, a1) := if (base0 =? -1) && (index =? -1) && pc_rel a0 then (16, set_disp (set_curpos true (disp a0)) a0) else (base0, a0) in
  let a := set_needmodrm a1 in
  if base =? 16 then
    Ok (set_disp (with_size 32 (disp a)) (set_modrm (Z.lor (modrm a) 5) true (set_sib 0 false 0 a)), rex)
  else
    bind (if (base =? -1) && (index =? -1) then
            if bits =? 64 then Ok (set_sib (sib a) (valid_sib a) 1 (or_modrm 4 a), rex)
            else Ok (set_sib 0 false 0 (or_modrm 5 a), rex)
          else if index =? -1 then
            bind (set_rex rex (Z.lor REG64 base) bits 0) (fun p => let (rex', low3) := p in
            if (base =? 4) || (base =? 12) then Ok (set_sib (sib a) (valid_sib a) 1 (or_modrm low3 a), rex')
            else Ok (set_sib 0 false 0 (or_modrm low3 a), rex'))
          else Ok (set_sib (sib a) (valid_sib a) 1 (or_modrm 4 a), rex)) (fun p => let (a2, rex1) := p in
    bind (if need_sib a2 =? 1 then
            bind (if base =? -1 then Ok (rex1, 5) else set_rex rex1 (Z.lor REG64 base) bits 0) (fun p => let (rex2, sb) := p in
            bind (if index =? -1 then Ok (rex2, Z.lor sb 32)
                  else bind (if 17 <=? index then set_rex rex2 (Z.lor XMMREG (index - 17)) bits 1 else set_rex rex2 (Z.lor REG64 index) bits 1)
                         (fun q => let (rex3, low3) := q in
                          Ok (rex3, Z.lor (Z.lor sb (Z.shiftl low3 3)) (if m index =? 2 then 64 else if m index =? 4 then 128 else if m index =? 8 then 192 else 0))))
              (fun q => let (rex3, s) := q in Ok (set_sib s true 1 a2, rex3)))
          else Ok (a2, rex1)) (fun p => let (a3, rex2) := p in
    bind (calc_displen 32 (base =? -1) ((base =? 5) || (base =? 13)) a3) (fun a4 => Ok (a4, rex2)))).

(** x86expr.c:274-315: levelling, WRT, distribution and levelling again.  Gives the multiplicities from a WRT and whether there was one. *)
Definition prepare (get : Z -> option Z) (useidx : bool) (bits : Z) (e0 : expr) : out (expr * mults * bool) :=
  match level_tree nequ equ true true (negb useidx) [] e0 with
  | Fin (e1, _, _) =>
      let (wrt, e2) := extract_wrt e1 in
      bind (match wrt with
            | None => Ok (no_regs, false)
            | Some (IDENT, TReg r :: _) =>
                if negb (bits =? 64) then Err
                else match get r with
                     | Some n => if n =? 16 then Ok (add_reg no_regs n 1, true) else Err
                     | None => Err
                     end
            | Some _ => Err
            end) (fun p => let (m0, pcrel) := p in
      bind (distcheck (S (edepth e2)) (TExpr (fst e2) (snd e2))) (fun q => let (t, c) := q in
      if c then match level_tree nequ equ true true (negb useidx) [] (of_item t) with Fin (e3, _, _) => Ok (e3, m0, pcrel) | _ => Bug end
      else Ok (of_item t, m0, pcrel)))
  | _ => Bug
  end.
(** x86expr.c:261-427 x86_expr_checkea_getregusage and its use in 692-714, 968-988 *)
Definition usage (get : Z -> option Z) (useidx : bool) (bits : Z) (d : value) : out (value * scan) :=
  match v_abs d with
  | None => Ok (d, Scan no_regs (-1) 0 false)
  | Some e0 =>
      bind (prepare get useidx bits e0) (fun p => let '(e1, m0, pcrel) := p in
      bind (regs_of get useidx m0 e1) (fun q => let (e, s) := q in
      match simplify nequ equ label sect dist false e with
      | Fin (e', _, _) => let d' := with_abs (Some e') d in Ok ((if pcrel then set_curpos true d' else d'), s)
      | _ => Bug
      end))
  end.
Definition check3264 (addrsize bits : Z) (rex : Z) (a0 : ea) : out (ea * Z) :=
  let regcount := if vsib a0 =? 0 then 17 else 33 in
  if (addrsize =? 64) && negb (bits =? 64) then Err
  else
    let a := if pc_rel a0 && negb (bits =? 64) then set_pcrel false a0 else a0 in
    bind (usage (get_reg3264 (vsib a) bits addrsize) true bits (disp a)) (fun p => let (d, s) := p in
    let m := s_mult s in
    let index := if negb (s_index s =? -1) && (m (s_index s) =? 0) then -1 else s_index s in
    match find_regs m (upto regcount) (-1) index with
    | None => Err
    | Some (b1, i1) =>
        match adjust (vsib a) (nosplit a) m b1 i1 with
        | None => Err
        | Some (b2, i2, m') =>
            match check_regs regcount m' b2 i2 with
            | None => Err
            | Some (base, idx) => encode3264 bits m' base idx rex (set_disp d a)
            end
        end
    end).
(** x86expr.c:940-1019: 16-bit addresses *)
Definition modrm16 : list Z := [6; 7; 4; 0; 5; 1; 255; 255; 6; 255; 2; 255; 3; 255; 255; 255].
Definition check16 (bits : Z) (address16_op : bool) (a0 : ea) : out ea :=
  if (bits =? 64) && negb address16_op then Err
  else
    let a := set_sib 0 false 0 a0 in
    bind (usage get_reg16 false bits (disp a)) (fun p => let (d, s) := p in
    let m := s_mult s in
    if existsb (fun r => negb (m r =? 0) && negb (m r =? 1)) [3; 6; 7; 5] then Err
    else
      let bit r v := if 0 <? m r then v else 0 in
      let have := bit 3 1 + bit 6 2 + bit 7 4 + bit 5 8 in
      let e := nth (Z.to_nat have) modrm16 255 in
      if negb (Z.land e 56 =? 0) then Err
      else calc_displen 16 (have =? 0) (have =? 8) (or_modrm e (set_disp d a))).

(** x86expr.c:558-581 and 591-641: the address size from the registers, the displacement size or the mode *)
Fixpoint reg_width (t : item) : option Z :=
  match t with
  | TReg r => let k := rsize r in
              if k =? REG16 then Some 16 else if k =? REG32 then Some 32 else if (k =? REG64) || (k =? RIP) then Some 64 else None
  | TExpr _ ts => (fix go (l : list item) : option Z := match l with [] => None | x :: r => match reg_width x with Some w => Some w | None => go r end end) ts
  | _ => None
  end.
Definition addr_size (addrsize bits : Z) (a : ea) : out Z :=
  if negb (addrsize =? 0) then Ok addrsize
  else
    let from_regs :=
      if (bits =? 16) && (need_sib a =? 1) then Ok 32
      else Ok (match v_abs (disp a) with
               | Some e => match reg_width (TExpr (fst e) (snd e)) with Some w => w | None => bits end
               | None => bits
               end) in
    if v_size (disp a) =? 16 then Ok 16
    else if v_size (disp a) =? 64 then if need_modrm a || negb (need_sib a =? 0) then Err else Ok 64
    else if v_size (disp a) =? 32 then
      if negb (bits =? 64) || (negb (need_modrm a) && (need_sib a =? 0)) then Ok 32 else from_regs
    else from_regs.
(** x86expr.c:583-1046 yasm_x86__expr_checkea: the address, its size and REX *)
Definition checkea (addrsize0 bits : Z) (address16_op : bool) (rex : Z) (a : ea) : out (ea * Z * Z) :=
  bind (addr_size addrsize0 bits a) (fun addrsize =>
  if ((addrsize =? 32) || (addrsize =? 64)) && ((need_modrm a && negb (valid_modrm a)) || (negb (need_sib a =? 0) && negb (valid_sib a))) then
    bind (check3264 addrsize bits rex a) (fun p => let (a', rex') := p in Ok (a', addrsize, rex'))
  else if (addrsize =? 16) && need_modrm a && negb (valid_modrm a) then
    bind (check16 bits address16_op a) (fun a' => Ok (a', addrsize, rex))
  else if negb (need_modrm a) && (need_sib a =? 0) then
    if addrsize =? 64 then if negb (bits =? 64) then Err else Ok (set_disp (with_size 64 (disp a)) a, addrsize, rex)
    else if addrsize =? 32 then Ok (set_disp (with_size 32 (disp a)) a, addrsize, rex)
    else if addrsize =? 16 then if (bits =? 64) && negb address16_op then Err else Ok (set_disp (with_size 16 (disp a)) a, addrsize, rex)
    else Ok (a, addrsize, rex)
  else Ok (a, addrsize, rex)).

(** * Instructions *)
(** x86arch.h:227-240 *)
Record common := Common { addrsize : Z; opersize : Z; lockrep : Z; acqrel : Z; mode : Z }.
Definition set_addrsize (n : Z) (c : common) : common := Common n (opersize c) (lockrep c) (acqrel c) (mode c).
Record opcode := Opcode { op_bytes : list Z; op_len : Z }.
(** The [len]-th byte of an opcode; past the array: out of bounds *)
Definition op_next (o : opcode) : out Z :=
  match nth_error (op_bytes o) (Z.to_nat (op_len o)) with Some b => Ok b | None => Bug end.
Definition op_set (k : nat) (b : Z) (o : opcode) : opcode := Opcode (firstn k (op_bytes o) ++ b :: skipn (S k) (op_bytes o)) (op_len o).
(** opcode[0] = opcode[len]; len = 1 *)
Definition op_second (o : opcode) : out opcode := bind (op_next o) (fun b => Ok (Opcode (op_bytes (op_set 0 b o)) 1)).
Inductive postop := NoPost | SignExt8 | Address16.
(** x86arch.h:242-274 x86_insn *)
Record insn := Insn { i_common : common; i_op : opcode; i_ea : option ea; i_imm : option value; i_special : Z; i_rex : Z; i_post : postop }.
(** What add_span is told: id and thresholds *)
Definition span : Type := Z * value * Z * Z.

(** x86bc.c:525-543 x86_common_calc_len *)
Definition has67 (c : common) : bool := negb (addrsize c =? 0) && negb (addrsize c =? mode c).
Definition has66 (c : common) : bool :=
  negb (opersize c =? 0) && ((negb (mode c =? 64) && negb (opersize c =? mode c)) || ((mode c =? 64) && (opersize c =? 16))).
Definition b2z (b : bool) : Z := if b then 1 else 0.
Definition common_len (c : common) : Z := b2z (has67 c) + b2z (has66 c) + b2z (negb (lockrep c =? 0)) + b2z (negb (acqrel c =? 0)).
(** x86bc.c:545-649 x86_bc_insn_calc_len, starting from length 0: instruction, length, spans *)
Definition insn_calc_len (i : insn) : out (insn * Z * list span) :=
  bind (match i_ea i with
        | None => Ok (i_common i, None, i_rex i, 0, [])
        | Some a0 =>
            bind (checkea (addrsize (i_common i)) (mode (i_common i)) (match i_post i with Address16 => true | _ => false end) (i_rex i) a0) (fun p =>
            let '(a1, asz, rex) := p in
            let (a, sp) := if (v_size (disp a1) =? 0) && nonzero a1
                           then let a2 := set_disp (with_size 8 (disp a1)) a1 in (a2, [(1, disp a2, -128, 127)]) else (a1, []) in
            Ok (set_addrsize (match i_post i with Address16 => 0 | _ => asz end) (i_common i), Some a, rex,
                v_size (disp a) / 8 + b2z (need_modrm a) + b2z (negb (need_sib a =? 0)) + b2z (negb (segreg a =? 0)), sp))
        end) (fun p => let '(c, a, rex, len1, sp1) := p in
  bind (match i_imm i with
        | None => Ok (i_op i, None, i_post i, 0, [])
        | Some v =>
            match i_post i with
            | SignExt8 =>
                bind (value_intnum v) (fun x =>
                match x with
                | None => Ok (i_op i, Some v, SignExt8, 1, [(2, v, -128, 127)])
                | Some n => if in_range n (-128) 127 then Ok (i_op i, Some (with_size 8 v), NoPost, 1, [])
                            else bind (op_second (i_op i)) (fun o => Ok (o, Some v, NoPost, v_size v / 8, []))
                end)
            | q => Ok (i_op i, Some v, q, v_size v / 8, [])
            end
        end) (fun p => let '(o1, imm, post, len2, sp2) := p in
  let ob k := nth k (op_bytes o1) 0 in
  let short := (i_special i =? 196) && (Z.land (ob 0%nat) 31 =? 1) && (Z.land (ob 1%nat) 128 =? 0) && ((rex =? 255) || (Z.land rex 11 =? 0)) in
  let o2 := if short then Opcode [ob 1%nat; ob 2%nat; 0] 2 else o1 in
  let special := if short then 197 else i_special i in
  let rexlen := if i_special i =? 196 then 0
                else b2z (negb (rex =? 255) && negb (rex =? 0) && negb (i_special i =? 197) && negb (i_special i =? 143)) in
  Ok (Insn c o2 a imm special rex post, len1 + len2 + rexlen + op_len o2 + common_len c + b2z (negb (special =? 0)), sp1 ++ sp2))).
(** x86bc.c:651-687 x86_bc_insn_expand *)
Definition insn_expand (sp : Z) (i : insn) (len : Z) : out (insn * Z) :=
  let (i1, len1) :=
    match i_ea i with
    | Some a => if (sp =? 1) && (v_size (disp a) =? 8) then
                  let n := if addrsize (i_common i) =? 16 then 16 else 32 in
                  (Insn (i_common i) (i_op i) (Some (set_modrm (Z.lor (Z.land (modrm a) (Z.lnot 192)) 128) (valid_modrm a) (set_disp (with_size n (disp a)) a)))
                     (i_imm i) (i_special i) (i_rex i) (i_post i), len - 1 + n / 8)
                else (i, len)
    | None => (i, len)
    end in
  match i_imm i1, i_post i1 with
  | Some v, SignExt8 =>
      if sp =? 2 then
        bind (op_second (i_op i1)) (fun o => Ok (Insn (i_common i1) o (i_ea i1) (i_imm i1) (i_special i1) (i_rex i1) NoPost, len1 - op_len (i_op i1) + v_size v / 8))
      else Ok (i1, len1)
  | _, _ => Ok (i1, len1)
  end.

(** value.c:621-740 yasm_value_output_basic at offset [here]; [place]: the offset of a symbol of this section.  Gives the number
    that is written ([P_Intnum.ival]).  [Err] also for what is left to the object format; the simplified expression is not kept. *)
Definition output_basic (place : Z -> option Z) (here : Z) (v : value) : out Z :=
  bind (match v_abs v with
        | None => Ok None
        | Some e => match get_intnum nequ equ label sect dist true e with Fin (Some n) => Ok (Some n) | Fin None => Err | _ => Bug end
        end) (fun n =>
  match v_rel v with
  | Some s =>
      match place s with
      | Some p =>
          if negb (v_curpos v) then Err
          else
            let d := if p <? here then fst (fst (calc scratch (create_uint (here - p)) NEG None)) else create_uint (p - here) in
            Ok (P_Intnum.ival (match n with Some k => fst (fst (calc scratch d ADD (Some k))) | None => d end))
      | None => Err
      end
  | None => if v_curpos v || v_iprel v then Err else Ok (match n with Some k => P_Intnum.ival k | None => 0 end)
  end).

(** The object format's output_value: the value written *)
Variable ov : value -> out Z.
(** file.h:249-276: [n] bytes, low byte first *)
Fixpoint le (n : nat) (v : Z) : list Z := match n with O => [] | S m => v mod 256 :: le m (v / 256) end.
(** x86bc.c:807-832 x86_common_tobytes and x86_opcode_tobytes *)
Definition common_bytes (c : common) (seg : Z) : list Z :=
  (if seg =? 0 then [] else [seg mod 256]) ++ (if has67 c then [103] else []) ++ (if has66 c then [102] else []) ++
  (if acqrel c =? 0 then [] else [acqrel c]) ++ (if lockrep c =? 0 then [] else [lockrep c]).
Definition opcode_bytes (o : opcode) : list Z := firstn (Z.to_nat (op_len o)) (op_bytes o).
(** abs + delta, or delta (x86bc.c:896-909) *)
Definition add_delta (delta : Z) (v : value) : out value :=
  match v_abs v with
  | None => Ok (with_abs (Some (IDENT, [TInt (create_int delta)])) v)
  | Some e => match create ADD (TExpr (fst e) (snd e)) (Some (TInt (create_int delta))) with Fin e' => Ok (with_abs (Some e') v) | _ => Bug end
  end.
(** x86bc.c:834-934 x86_bc_insn_tobytes for one copy: the instruction afterwards and its bytes *)
Definition insn_bytes (len : Z) (i : insn) : out (insn * list Z) :=
  let rex := i_rex i in
  let ob k := nth k (op_bytes (i_op i)) 0 in
  bind (if (i_special i =? 196) || (i_special i =? 143) then
          let b0 := Z.land (ob 0%nat) 31 in
          let o1 := op_set 0 (if rex =? 255 then b0 else Z.lor b0 (Z.shiftl (Z.land (Z.lnot rex) 7) 5)) (i_op i) in
          Ok (if negb (rex =? 255) && negb (Z.land rex 8 =? 0) then op_set 1 (Z.lor (ob 1%nat) 128) o1 else o1, [])
        else if i_special i =? 197 then
          let b0 := Z.land (ob 0%nat) 127 in
          if negb (rex =? 255) && negb (Z.land rex 11 =? 0) then Bug
          else Ok (op_set 0 (if negb (rex =? 255) && (Z.land rex 4 =? 0) then Z.lor b0 128 else b0) (i_op i), [])
        else if negb (rex =? 255) && negb (rex =? 0) then
          if negb (mode (i_common i) =? 64) then Bug else Ok (i_op i, [rex])
        else Ok (i_op i, [])) (fun p => let (o, rexb) := p in
  let pre := common_bytes (i_common i) (match i_ea i with Some a => Z.shiftr (segreg a) 8 | None => 0 end) ++
             (if i_special i =? 0 then [] else [i_special i]) ++ rexb ++ opcode_bytes o in
  bind (match i_ea i with
        | None => Ok (None, [])
        | Some a =>
            if need_modrm a && negb (valid_modrm a) then Bug
            else if negb (need_sib a =? 0) && negb (valid_sib a) then Bug
            else
              let bytes := (if need_modrm a then [modrm a] else []) ++ (if need_sib a =? 0 then [] else [sib a]) in
              if need_disp a then
                bind (if v_iprel (disp a) then add_delta (- len) (disp a) else Ok (disp a)) (fun d =>
                bind (ov d) (fun x => Ok (Some (set_disp d a), bytes ++ le (Z.to_nat (v_size d / 8)) x)))
              else Ok (Some a, bytes)
        end) (fun p => let (a, eab) := p in
  bind (match i_imm i with
        | None => Ok (None, [])
        | Some v =>
            let v1 := match i_post i with SignExt8 => with_size 8 v | _ => v end in
            bind (ov v1) (fun x => Ok (Some v1, le (Z.to_nat (v_size v1 / 8)) x))
        end) (fun p => let (imm, immb) := p in
  Ok (Insn (i_common i) o a imm (i_special i) rex (i_post i), pre ++ eab ++ immb)))).

(** * Jumps *)
Inductive sel := JNone | JShort | JNear | JShortForced | JNearForced.
(** x86arch.h:276-285 x86_jmp *)
Record jmp := Jmp { j_common : common; j_short : opcode; j_near : opcode; j_target : value; j_sel : sel }.
Definition set_sel (s : sel) (j : jmp) : jmp := Jmp (j_common j) (j_short j) (j_near j) (j_target j) s.
Definition set_target (v : value) (j : jmp) : jmp := Jmp (j_common j) (j_short j) (j_near j) v (j_sel j).
Definition j_opersize (j : jmp) : Z := if opersize (j_common j) =? 0 then mode (j_common j) else opersize (j_common j).
Definition near_size (j : jmp) : Z := if j_opersize j =? 16 then 2 else 4.
Definition is_none (s : sel) : bool := match s with JNone => true | _ => false end.
Definition is_sf (s : sel) : bool := match s with JShortForced => true | _ => false end.
Definition is_nf (s : sel) : bool := match s with JNearForced => true | _ => false end.
(** x86bc.c:689-756 x86_bc_jmp_calc_len; [local]: the target is in the same section (or has no relative part) *)
Definition jmp_calc_len (local : bool) (j : jmp) : out (jmp * Z * list span) :=
  let len0 := common_len (j_common j) in
  let nearlen := op_len (j_near j) + near_size j in
  let shortlen := op_len (j_short j) + 1 in
  if is_nf (j_sel j) || (op_len (j_short j) =? 0) then
    if op_len (j_near j) =? 0 then Err
    else Ok (if op_len (j_short j) =? 0 then set_sel JNear j else j, len0 + nearlen, [])
  else if negb local then
    if is_sf (j_sel j) || (op_len (j_near j) =? 0) then Ok (if is_none (j_sel j) then set_sel JShort j else j, len0 + shortlen, [])
    else Ok (set_sel JNear j, len0 + nearlen, [])
  else
    let j1 := if is_none (j_sel j) then set_sel JShort j else j in
    Ok (j1, len0 + shortlen, [(1, j_target j1, -128 + (len0 + shortlen), 127 + (len0 + shortlen))]).
(** x86bc.c:758-787 x86_bc_jmp_expand *)
Definition jmp_expand (sp : Z) (j : jmp) (len : Z) : out (jmp * Z) :=
  if negb (sp =? 1) then Bug
  else if is_sf (j_sel j) || (op_len (j_near j) =? 0) then Err
  else match j_sel j with
       | JNear => Bug
       | _ => Ok (set_sel JNear j, len - (op_len (j_short j) + 1) + op_len (j_near j) + near_size j)
       end.
(** x86bc.c:936-1021 x86_bc_jmp_tobytes for one copy *)
Definition jmp_bytes (len : Z) (j : jmp) : out (jmp * list Z) :=
  let go o n :=
    bind (add_delta (- len) (j_target j)) (fun t0 =>
    let t := with_size (8 * n) t0 in
    bind (ov t) (fun x => Ok (set_target t j, common_bytes (j_common j) 0 ++ opcode_bytes o ++ le (Z.to_nat n) x))) in
  match j_sel j with
  | JShort | JShortForced => if op_len (j_short j) =? 0 then Bug else go (j_short j) 1
  | JNear | JNearForced => if op_len (j_near j) =? 0 then Err else go (j_near j) (near_size j)
  | JNone => Bug
  end.
End Assembly.
