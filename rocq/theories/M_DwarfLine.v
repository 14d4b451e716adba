(** Model of modules/dbgfmts/dwarf2/dwarf2-line.c: the .debug_line section, and of the header
    written by dwarf2-dbgfmt.c.  WITH_DWARF3 is defined (dwarf2-dbgfmt.h:30).
    A bytecode is its virtual line, final offset, length and the labels attached to it.
    Simplified: the growth of the directory and file arrays, memory management; yasm_linemap_lookup
    (modelled in M_Linemap) is given as a function; the address field of DW_LNE_set_address is
    written as it is after linking, [resolve] giving the final address of a symbol; the offset
    size is 4 (32-bit DWARF, dwarf2-dbgfmt.c:101).  After an error nothing is output. *)
From Coq Require Import ZArith List Bool.
From Verif Require Import Lib M_Intnum M_File.
Import ListNotations.
Open Scope Z_scope.

(** What a function comes to: a result, an error, an access to a null pointer or beyond a buffer,
    or yasm_internal_error *)
Inductive res (A : Type) := Good (a : A) | Err | Ub | Internal.
Arguments Good {A}. Arguments Err {A}. Arguments Ub {A}. Arguments Internal {A}.
Definition bind {A B} (r : res A) (f : A -> res B) : res B :=
  match r with Good a => f a | Err => Err | Ub => Ub | Internal => Internal end.

(** dwarf2-line.c:37-55 *)
Definition DW_LNS_extended_op := 0.
Definition DW_LNS_copy := 1.
Definition DW_LNS_advance_pc := 2.
Definition DW_LNS_advance_line := 3.
Definition DW_LNS_set_file := 4.
Definition DW_LNS_set_column := 5.
Definition DW_LNS_negate_stmt := 6.
Definition DW_LNS_set_basic_block := 7.
Definition DW_LNS_const_add_pc := 8.
Definition DW_LNS_set_prologue_end := 10.
Definition DW_LNS_set_epilogue_begin := 11.
Definition DW_LNS_set_isa := 12.
Definition OPCODE_BASE := 13.
(** dwarf2-line.c:57-73 line_opcode_num_operands *)
Definition num_operands : list Z := [0; 1; 1; 1; 1; 0; 0; 0; 1; 0; 0; 1].
(** dwarf2-line.c:76-81 *)
Definition DW_LNE_end_sequence := 1.
Definition DW_LNE_set_address := 2.
Definition DW_LNE_set_discriminator := 4.
(** dwarf2-line.c:84-92 *)
Definition LINE_BASE := -5.
Definition LINE_RANGE := 14.
Definition MAX_DELTA (min_insn_len : Z) : Z := ((255 - OPCODE_BASE) / LINE_RANGE) * min_insn_len.
Definition DEFAULT_IS_STMT := 1.

(** bytecode.h: line, offset, length (len * mult_int) and symrecs of a bytecode *)
Record bcode := Bc { b_line : Z; b_off : Z; b_len : Z; b_syms : list Z }.
(** bytecode.c:219-223 yasm_bc_next_offset *)
Definition next_off (b : bcode) : Z := u64 (b_off b + b_len b).

(** dwarf2-dbgfmt.h:60-84 struct dwarf2_loc *)
Inductive stmt := NoChange | SetStmt | ClearStmt.
Record loc := Loc { l_vline : Z; l_file : Z; l_line : Z; l_col : Z; l_disc : Z; l_isach : bool; l_isa : Z;
  l_stmt : stmt; l_bb : bool; l_pe : bool; l_eb : bool; l_bc : option bcode; l_sym : option Z }.

(** dwarf2-line.c:116-125 struct dwarf2_line_op *)
Record line_op := LineOp { o_opcode : Z; o_operand : option intnum; o_ext : Z; o_sym : option Z; o_int : option intnum; o_size : Z }.
(** dwarf2-line.c:247-269 dwarf2_dbgfmt_append_line_op *)
Definition op (opcode : Z) (operand : option intnum) : line_op := LineOp opcode operand 0 None None 0.
(** dwarf2-line.c:274-296 dwarf2_dbgfmt_append_line_ext_op *)
Definition ext_op (ext size : Z) (sym : option Z) : line_op :=
  LineOp DW_LNS_extended_op (Some (create_uint (size + 1))) ext sym None size.
(** dwarf2-line.c:298-320 dwarf2_dbgfmt_append_line_ext_op_int *)
Definition ext_op_int (ext : Z) (v : intnum) : line_op :=
  let size := intnum_size_leb128 v false in
  LineOp DW_LNS_extended_op (Some (create_uint (size + 1))) ext None (Some v) size.
(** dwarf2-line.c:262-265, 291-292, 315-316 the length of the bytecode *)
Definition op_len (o : line_op) : Z :=
  if o_opcode o =? DW_LNS_extended_op then
    2 + match o_operand o with Some i => intnum_size_leb128 i false | None => 0 end + o_size o
  else 1 + match o_operand o with Some i => intnum_size_leb128 i (o_opcode o =? DW_LNS_advance_line) | None => 0 end.

(** file.h:249-276 YASM_WRITE_8 and its like; yasm_arch_intnum_tobytes for x86 *)
Fixpoint le (n : nat) (v : Z) : list Z := match n with O => [] | S m => v mod 256 :: le m (v / 256) end.

(** dwarf2-line.c:863-893 dwarf2_line_op_bc_tobytes *)
Definition put_leb (i : option intnum) (s : bool) : res (list Z) :=
  match i with
  | None => Good []
  | Some i => match intnum_leb128 i s with Some l => Good l | None => Ub end
  end.
Definition op_bytes (resolve : Z -> Z) (o : line_op) : res (list Z) :=
  bind (put_leb (o_operand o) (o_opcode o =? DW_LNS_advance_line)) (fun a =>
  bind (if 0 <? o_ext o then
          bind (put_leb (o_int o) false) (fun c =>
          Good (le 1 (o_ext o) ++ (match o_sym o with Some s => le (Z.to_nat (o_size o)) (resolve s) | None => [] end) ++ c))
        else Good []) (fun b =>
  Good (le 1 (o_opcode o) ++ a ++ b))).
Fixpoint ops_bytes (resolve : Z -> Z) (l : list line_op) : res (list Z) :=
  match l with
  | [] => Good []
  | o :: t => bind (op_bytes resolve o) (fun a => bind (ops_bytes resolve t) (fun b => Good (a ++ b)))
  end.

(** dwarf2-line.c:322-352 dwarf2_dbgfmt_finalize_locs.  The inner loop: last symbol seen and the
    bytecodes from the one found on *)
Fixpoint last_sym (sym : option Z) (l : list Z) : option Z := match l with [] => sym | s :: t => last_sym (Some s) t end.
Fixpoint walk (v : Z) (bcs : list bcode) (sym : option Z) : list bcode * option Z :=
  match bcs with
  | [] => ([], sym)
  | b :: t => if b_line b <=? v then walk v t (last_sym sym (b_syms b)) else (bcs, sym)
  end.
Definition set_site (l : loc) (b : option bcode) (s : option Z) : loc :=
  Loc (l_vline l) (l_file l) (l_line l) (l_col l) (l_disc l) (l_isach l) (l_isa l) (l_stmt l) (l_bb l) (l_pe l) (l_eb l) b s.
Fixpoint finalize_locs (bcs : list bcode) (sym : option Z) (locs : list loc) : list loc :=
  match locs with
  | [] => []
  | l :: t => let '(bcs', sym') := walk (l_vline l) bcs sym in
              set_site l (hd_error bcs') sym' :: finalize_locs bcs' sym' t
  end.

(** dwarf2-line.c:95-109 struct dwarf2_line_state, 601-609 its initial value *)
Record state := State { s_file : Z; s_line : Z; s_col : Z; s_isa : Z; s_stmt : Z; s_prec : option bcode }.
Definition state0 : state := State 1 1 0 0 DEFAULT_IS_STMT None.

(** dwarf2-line.c:364-410 the registers other than address and line: operations and new state *)
Definition gen_regs (s : state) (l : loc) : list line_op * state :=
  let f := if s_file s =? l_file l then [] else [op DW_LNS_set_file (Some (create_uint (l_file l)))] in
  let c := if s_col s =? l_col l then [] else [op DW_LNS_set_column (Some (create_uint (l_col l)))] in
  let d := if l_disc l =? 0 then [] else [ext_op_int DW_LNE_set_discriminator (create_uint (l_disc l))] in
  let i := if l_isach l then [op DW_LNS_set_isa (Some (create_uint (l_isa l)))] else [] in
  let '(n, st) := match l_stmt l with
                  | SetStmt => if s_stmt s =? 0 then ([op DW_LNS_negate_stmt None], 1) else ([], s_stmt s)
                  | ClearStmt => if s_stmt s =? 1 then ([op DW_LNS_negate_stmt None], 0) else ([], s_stmt s)
                  | NoChange => ([], s_stmt s)
                  end in
  let b := if l_bb l then [op DW_LNS_set_basic_block None] else [] in
  let p := if l_pe l then [op DW_LNS_set_prologue_end None] else [] in
  let e := if l_eb l then [op DW_LNS_set_epilogue_begin None] else [] in
  (f ++ c ++ d ++ i ++ n ++ b ++ p ++ e,
   State (l_file l) (s_line s) (l_col l) (if l_isach l then l_isa l else s_isa s) st (s_prec s)).
(** dwarf2-line.c:432-473 line and address deltas and the row; all in unsigned long, the opcodes int *)
Definition gen_row (mil : Z) (line_delta addr_delta : Z) : list line_op :=
  let '(a, ld) := if (line_delta <? LINE_BASE) || (LINE_BASE + LINE_RANGE <=? line_delta)
                  then ([op DW_LNS_advance_line (Some (create_int line_delta))], 0) else ([], line_delta) in
  let opcode1 := s32 (u64 (OPCODE_BASE + ld - LINE_BASE + LINE_RANGE * (addr_delta / mil))) in
  let opcode2 := s32 (u64 (OPCODE_BASE + ld - LINE_BASE + LINE_RANGE * (u64 (addr_delta - MAX_DELTA mil) / mil))) in
  a ++
  if (ld =? 0) && (addr_delta =? 0) then [op DW_LNS_copy None]
  else if (addr_delta <=? MAX_DELTA mil) && (opcode1 <=? 255) then [op opcode1 None]
  else if (addr_delta <=? 2 * MAX_DELTA mil) && (opcode2 <=? 255) then [op DW_LNS_const_add_pc None; op opcode2 None]
  else op DW_LNS_advance_pc (Some (create_uint addr_delta))
       :: [if ld =? 0 then op DW_LNS_copy None else op (OPCODE_BASE + ld - LINE_BASE) None].
(** dwarf2-line.c:354-475 dwarf2_dbgfmt_gen_line_op; [asz] is sizeof_address *)
Definition gen_line_op (mil asz : Z) (s : state) (l : loc) (next : option loc) : res (list line_op * state) :=
  let '(pre, s1) := gen_regs s l in
  let go :=
    let row addr d := Good (pre ++ addr ++ gen_row mil (s64 (l_line l - s_line s1)) d,
                            State (s_file s1) (l_line l) (s_col s1) (s_isa s1) (s_stmt s1) (l_bc l)) in
    match s_prec s1 with
    | None => match l_sym l with
              | None => Err
              | Some y => row [ext_op DW_LNE_set_address asz (Some y)] 0
              end
    | Some p => match l_bc l with
                | None => Good (pre, s1)
                | Some b => if b_off b <? b_off p then Internal else row [] (b_off b - b_off p)
                end
    end in
  match next with
  | None => go
  | Some n => match l_bc n, l_bc l with
              | Some nb, Some b => if b_off nb =? b_off b then Good (pre, s1) else go
              | _, _ => Ub
              end
  end.

(** dwarf2-line.c:649-653 *)
Fixpoint gen_locs (mil asz : Z) (s : state) (locs : list loc) : res (list line_op * state) :=
  match locs with
  | [] => Good ([], s)
  | l :: t => bind (gen_line_op mil asz s l (hd_error t)) (fun '(o1, s1) =>
              bind (gen_locs mil asz s1 t) (fun '(o2, s2) => Good (o1 ++ o2, s2)))
  end.
(** dwarf2-line.c:656-671 the end of the sequence; [first] and [last] bytecode of the section *)
Definition gen_end (mil : Z) (s : state) (first last : bcode) : list line_op :=
  let d := u64 (next_off last - b_off (match s_prec s with Some p => p | None => first end)) in
  (if d =? MAX_DELTA mil then [op DW_LNS_const_add_pc None]
   else if 0 <? d then [op DW_LNS_advance_pc (Some (create_uint d))] else [])
  ++ [ext_op DW_LNE_end_sequence 0 None].

(** ** File and directory tables *)
(** dwarf2-dbgfmt.h:32-47: a file is its name and the number of its directory (0: none) *)
Record tables := Tables { t_dirs : list str; t_files : list (option (str * Z)) }.
Definition str_eqb (a b : str) : bool := if list_eq_dec Z.eq_dec a b then true else false.
(** number of the first element satisfying [f], counting from [i]; the length if there is none *)
Fixpoint index {A} (f : A -> bool) (i : Z) (l : list A) : Z :=
  match l with [] => i | a :: t => if f a then i else index f (i + 1) t end.
Fixpoint put {A} (n : nat) (a : A) (d : A) (l : list A) : list A :=
  match n, l with
  | O, [] => [a]
  | O, _ :: t => a :: t
  | S m, [] => d :: put m a d []
  | S m, x :: t => x :: put m a d t
  end.
(** dwarf2-line.c:172-245 dwarf2_dbgfmt_add_file; strncmp with the NUL test compares the whole
    directory with the first dirlen characters of the path *)
Definition add_file (t : tables) (filenum : Z) (path : str) : tables :=
  let '(dirlen, name) := splitpath path in
  let d := firstn (Z.to_nat dirlen) path in
  let dir := if 0 <? dirlen then index (str_eqb d) 1 (t_dirs t) else 0 in
  let dirs := if (0 <? dirlen) && (Z.of_nat (length (t_dirs t)) + 1 <=? dir) then t_dirs t ++ [d] else t_dirs t in
  let n := if filenum =? 0 then
             index (fun f => match f with None => true | Some (g, e) => (e =? dir) && str_eqb g name end) 0 (t_files t)
           else filenum - 1 in
  Tables dirs (put (Z.to_nat n) (Some (name, dir)) None (t_files t)).
(** dwarf2-line.c:676-682, 698-702 dwarf2_generate_filename over the linemap's file names *)
Definition add_files (t : tables) (l : list str) : tables := fold_left (fun t p => add_file t 0 p) l t.
(** dwarf2-line.c:487-506 dwarf2_filename_equals; [None]: the name or the directory is not there *)
Definition filename_equals (t : tables) (f : option (str * Z)) (path : str) : option bool :=
  match f with
  | None => None
  | Some (name, dir) =>
      let '(dirlen, tail) := splitpath path in
      let same := if dir =? 0 then Some (dirlen =? 0)
                  else match nth_error (t_dirs t) (Z.to_nat (dir - 1)) with
                       | Some d => Some (str_eqb d (firstn (Z.to_nat dirlen) path)) | None => None end in
      match same with Some true => Some (str_eqb name tail) | Some false => Some false | None => None end
  end.
(** dwarf2-line.c:535-553 the file number of a path; [last] is lastfile *)
Fixpoint find_file (t : tables) (path : str) (i : Z) (l : list (option (str * Z))) : res Z :=
  match l with
  | [] => Internal
  | f :: r => match filename_equals t f path with
              | None => Ub | Some true => Good (i + 1) | Some false => find_file t path (i + 1) r end
  end.
Definition file_number (t : tables) (path : str) (last : Z) : res Z :=
  match (if 0 <? last then
           match nth_error (t_files t) (Z.to_nat (last - 1)) with
           | Some f => match filename_equals t f path with Some b => Good b | None => Ub end | None => Ub end
         else Good false) with
  | Good true => Good last
  | Good false => find_file t path 0 (t_files t)
  | Err => Err | Ub => Ub | Internal => Internal
  end.

(** ** Line information of the assembler source *)
(** dwarf2-line.c:508-558 dwarf2_generate_line_bc over the bytecodes after the first one;
    [sym] is info->loc.sym and [lastf] info->lastfile *)
Fixpoint gen_bcs (mil asz : Z) (lookup : Z -> str * Z) (t : tables) (s : state) (sym : option Z) (lastf : Z)
  (bcs : list bcode) : res (list line_op * state) :=
  match bcs with
  | [] => Good ([], s)
  | b :: r =>
      if match r with n :: _ => b_off b =? b_off n | [] => false end then gen_bcs mil asz lookup t s sym lastf r
      else
        let sym' := last_sym sym (b_syms b) in
        let '(path, line) := lookup (b_line b) in
        bind (file_number t path lastf) (fun f =>
        bind (gen_line_op mil asz s (Loc (b_line b) f line 0 0 false 0 NoChange false false false (Some b) sym') None) (fun '(o1, s1) =>
        bind (gen_bcs mil asz lookup t s1 sym' f r) (fun '(o2, s2) => Good (o1 ++ o2, s2))))
  end.

(** ** Sections *)
(** A section: is it code, its .loc directives (None: no data attached), its bytecodes *)
Record sect := Sect { x_code : bool; x_locs : option (list loc); x_bcs : list bcode }.
(** dwarf2-line.c:578-674 dwarf2_generate_line_section; a section has at least one bytecode *)
Definition gen_section (mil asz : Z) (lookup : Z -> str * Z) (t : tables) (asm : bool) (x : sect) : res (list line_op) :=
  match x_locs x, asm && x_code x with
  | None, false => Good []
  | locs, _ =>
      match x_bcs x with
      | [] => Ub
      | first :: rest =>
          bind (if asm then gen_bcs mil asz lookup t state0 (last_sym None (b_syms first)) 0 rest
                else gen_locs mil asz state0 (finalize_locs (x_bcs x) None (match locs with Some l => l | None => [] end)))
               (fun '(o, s) => Good (o ++ gen_end mil s first (last (x_bcs x) first)))
      end
  end.
Fixpoint gen_sections (mil asz : Z) (lookup : Z -> str * Z) (t : tables) (asm : bool) (l : list sect) : res (list line_op) :=
  match l with
  | [] => Good []
  | x :: r => bind (gen_section mil asz lookup t asm x) (fun a => bind (gen_sections mil asz lookup t asm r) (fun b => Good (a ++ b)))
  end.

(** ** The unit *)
Fixpoint sum (l : list Z) : Z := match l with [] => 0 | a :: t => a + sum t end.
(** dwarf2-line.c:717-740 the length of the prologue; an unassigned file number is an error *)
Fixpoint file_lens (l : list (option (str * Z))) : res (list Z) :=
  match l with
  | [] => Good []
  | None :: _ => Err
  | Some (n, d) :: t => bind (file_lens t) (fun r => Good (Z.of_nat (length n) + 1 + size_uleb128 d + 2 :: r))
  end.
Definition spp_len (t : tables) : res Z :=
  bind (file_lens (t_files t)) (fun fl =>
  Good (u64 (4 + 5 + Z.of_nat (length num_operands) + sum (map (fun d => Z.of_nat (length d) + 1) (t_dirs t)) + 1 + sum fl + 1))).
(** dwarf2-line.c:778-835 dwarf2_spp_bc_tobytes *)
Fixpoint file_bytes (l : list (option (str * Z))) : res (list Z) :=
  match l with
  | [] => Good []
  | None :: _ => Ub
  | Some (n, d) :: t =>
      match get_uleb128 d with
      | None => Ub
      | Some u => bind (file_bytes t) (fun r => Good (n ++ [0] ++ u ++ [0; 0] ++ r))
      end
  end.
Definition spp_bytes (mil : Z) (t : tables) (len : Z) : res (list Z) :=
  bind (file_bytes (t_files t)) (fun fb =>
  Good (le 4 (u64 (len - 4)) ++ le 1 mil ++ le 1 DEFAULT_IS_STMT ++ le 1 LINE_BASE ++ le 1 LINE_RANGE ++ le 1 OPCODE_BASE ++
        num_operands ++ flat_map (fun d => d ++ [0]) (t_dirs t) ++ [0] ++ fb ++ [0])).
(** dwarf2-dbgfmt.c:188-220 yasm_dwarf2__add_head, 249-300 dwarf2_head_bc_tobytes without pointer,
    address or segment size; dwarf2-line.c:684-755 yasm_dwarf2__generate_line and the output of the
    section, empty before *)
Definition debug_line (mil asz : Z) (resolve : Z -> Z) (lookup : Z -> str * Z) (t : tables) (asm : bool) (names : list str) (l : list sect) : res (list Z) :=
  let t := if asm then add_files t names else t in
  bind (spp_len t) (fun len =>
  bind (gen_sections mil asz lookup t asm l) (fun ops =>
  bind (spp_bytes mil t len) (fun spp =>
  bind (ops_bytes resolve ops) (fun prog =>
  Good (le 4 (6 + len + sum (map op_len ops) - 4) ++ le 2 2 ++ spp ++ prog))))).

(** dwarf2-dbgfmt.c:148-161 dwarf2_dbgfmt_generate: without .file directives the line information
    is that of the assembler source *)
Definition generate (mil asz : Z) (resolve : Z -> Z) (lookup : Z -> str * Z) (t : tables) (names : list str) (l : list sect) : res (list Z) :=
  debug_line mil asz resolve lookup t (match t_files t with [] => true | _ => false end) names l.

(** ** The .file and .loc directives *)
(** valparam.h: a parameter's name and its value - identifier (as yasm_vp_id gives it), string or
    expression; identifiers and expressions have their integer value if they are constant *)
Inductive pval := PId (s : str) (v : option intnum) | PStr (s : str) | PExpr (v : option intnum).
Record param := Param { p_val : option str; p_what : pval }.
(** valparam.c:131-143 yasm_vp_id; valparam.c:100-114 yasm_vp_expr with yasm_expr_get_intnum *)
Definition vp_id (p : param) : option str := match p_what p with PId s _ => Some s | _ => None end.
Definition vp_int (p : param) : option intnum := match p_what p with PExpr v => v | PId _ v => v | PStr _ => None end.
(** valparam.c:116-129 yasm_vp_string *)
Definition vp_string (p : param) : option str := match p_what p with PId s _ => Some s | PStr s => Some s | PExpr _ => None end.
(** dwarf2-line.c:1105-1144 yasm_dwarf2__dir_file; [None]: an error.  A bare name only sets the name
    of the source *)
Definition dir_file (t : tables) (ps : list param) : option tables :=
  match ps with
  | [] => None
  | p :: q =>
      match vp_string p with
      | Some _ => Some t
      | None =>
          match p_what p, q with
          | PExpr (Some i), p2 :: _ => match vp_string p2 with Some s => Some (add_file t (get_uint i) s) | None => None end
          | _, _ => None
          end
      end
  end.
Definition lower (c : Z) : Z := if (65 <=? c) && (c <=? 90) then c + 32 else c.
Definition same_word (a b : str) : bool := str_eqb (map lower a) (map lower b).
Definition w_is_stmt : str := [105; 115; 95; 115; 116; 109; 116].
Definition w_isa : str := [105; 115; 97].
Definition w_discriminator : str := [100; 105; 115; 99; 114; 105; 109; 105; 110; 97; 116; 111; 114].
Definition w_basic_block : str := [98; 97; 115; 105; 99; 95; 98; 108; 111; 99; 107].
Definition w_prologue_end : str := [112; 114; 111; 108; 111; 103; 117; 101; 95; 101; 110; 100].
Definition w_epilogue_begin : str := [101; 112; 105; 108; 111; 103; 117; 101; 95; 98; 101; 103; 105; 110].
Inductive want := WNone | WStmt | WIsa | WDisc.
(** dwarf2-line.c:992-1014 *)
Definition take_stmt (l : loc) (v : option intnum) : option loc :=
  match v with
  | None => None
  | Some i =>
      let set s := Some (Loc (l_vline l) (l_file l) (l_line l) (l_col l) (l_disc l) (l_isach l) (l_isa l) s (l_bb l) (l_pe l) (l_eb l) (l_bc l) (l_sym l)) in
      if is_zero i then set SetStmt else if is_pos1 i then set ClearStmt else None
  end.
(** dwarf2-line.c:1015-1035 *)
Definition take_isa (l : loc) (v : option intnum) : option loc :=
  match v with
  | None => None
  | Some i => if sign i <? 0 then None else
      Some (Loc (l_vline l) (l_file l) (l_line l) (l_col l) (l_disc l) true (get_uint i) (l_stmt l) (l_bb l) (l_pe l) (l_eb l) (l_bc l) (l_sym l))
  end.
(** dwarf2-line.c:1036-1054 *)
Definition take_disc (l : loc) (v : option intnum) : option loc :=
  match v with
  | None => None
  | Some i => if sign i <? 0 then None else
      Some (Loc (l_vline l) (l_file l) (l_line l) (l_col l) (get_uint i) (l_isach l) (l_isa l) (l_stmt l) (l_bb l) (l_pe l) (l_eb l) (l_bc l) (l_sym l))
  end.
Definition set_flags (l : loc) (b p e : bool) : loc :=
  Loc (l_vline l) (l_file l) (l_line l) (l_col l) (l_disc l) (l_isach l) (l_isa l) (l_stmt l) (l_bb l || b) (l_pe l || p) (l_eb l || e) (l_bc l) (l_sym l).
(** dwarf2-line.c:987-1097 the options, [w] being in_is_stmt, in_isa, in_discriminator *)
Fixpoint options (l : loc) (w : want) (ps : list param) : option loc :=
  match ps with
  | [] => match w with WNone => Some l | _ => None end
  | p :: t =>
      let next r := match r with Some l' => options l' WNone t | None => None end in
      match w with
      | WStmt => next (take_stmt l (vp_int p))
      | WIsa => next (take_isa l (vp_int p))
      | WDisc => next (take_disc l (vp_int p))
      | WNone =>
          match p_val p with
          | None =>
              match vp_id p with
              | Some s =>
                  if same_word s w_is_stmt then options l WStmt t
                  else if same_word s w_isa then options l WIsa t
                  else if same_word s w_discriminator then options l WDisc t
                  else if same_word s w_basic_block then options (set_flags l true false false) WNone t
                  else if same_word s w_prologue_end then options (set_flags l false true false) WNone t
                  else if same_word s w_epilogue_begin then options (set_flags l false false true) WNone t
                  else options l WNone t
              | None => options l WNone t
              end
          | Some v =>
              if same_word v w_is_stmt then next (take_stmt l (vp_int p))
              else if same_word v w_isa then next (take_isa l (vp_int p))
              else if same_word v w_discriminator then next (take_disc l (vp_int p))
              else options l WNone t
          end
      end
  end.
(** dwarf2-line.c:895-1103 yasm_dwarf2__dir_loc inside a section at virtual line [vline]; [None]: an error *)
Definition dir_loc (vline : Z) (ps : list param) : option loc :=
  match ps with
  | Param None (PExpr (Some f)) :: Param None (PExpr (Some n)) :: t =>
      if negb (sign f =? 1) then None else
      let l c := Loc vline (get_uint f) (get_uint n) c 0 false 0 NoChange false false false None None in
      match t with
      | Param None (PExpr v) :: t' => match v with Some c => options (l (get_uint c)) WNone t' | None => None end
      | _ => options (l 0) WNone t
      end
  | _ => None
  end.
