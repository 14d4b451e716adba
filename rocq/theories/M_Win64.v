(** Unwind information of win64 objects: win64-except.c and the directives of coff-objfmt.c:1950-2292. *)
From Coq Require Import ZArith List Bool.
From Verif Require Import Lib M_BitVect M_Intnum.
Import ListNotations.
Open Scope Z_scope.

Inductive werr := Nested | NoProc | AfterPrologue | NeedsRegister | NeedsOffset | NoPrologueEnd | EndOfFile
  | FrameRange | FrameScale | PrologueSize | TooManyCodes | Negative | NotMultiple | OffsetRange | TooComplex | Internal.

(** A position: section and offset after layout.  A symbol is a number; the world maps it to its
    position when it is a label of the file. *)
Definition pos := (Z * Z)%type.
Definition world := Z -> option pos.

(** A yasm_value with an expression, finalized: what yasm_value_get_intnum gives before layout
    (calc_bc_dist = 0), the values the optimizer computes for its span, what
    yasm_value_get_intnum gives at output (calc_bc_dist = 1). *)
Record offs := Off { early : option intnum; seen : list Z; late : option intnum }.
(** value.c:556-616 yasm_value_get_intnum: a value without expression is 0 *)
Definition early_of (v : option offs) : option intnum := match v with None => Some (IL 0) | Some o => early o end.
Definition late_of (v : option offs) : option intnum := match v with None => Some (IL 0) | Some o => late o end.
Definition seen_of (v : option offs) : list Z := match v with None => [] | Some o => seen o end.

(** coff-objfmt.h:31-50 coff_unwind_code, the opcodes *)
Definition UWOP_PUSH_NONVOL := 0.
Definition UWOP_ALLOC_LARGE := 1.
Definition UWOP_ALLOC_SMALL := 2.
Definition UWOP_SET_FPREG := 3.
Definition UWOP_SAVE_NONVOL := 4.
Definition UWOP_SAVE_NONVOL_FAR := 5.
Definition UWOP_SAVE_XMM128 := 8.
Definition UWOP_SAVE_XMM128_FAR := 9.
Definition UWOP_PUSH_MACHFRAME := 10.
Record code := Code { c_proc : Z; c_loc : pos; c_op : Z; c_info : Z; c_off : option offs }.
(** coff-objfmt.h:52-71 coff_unwind_info *)
Record info := Info { u_proc : Z; u_prolog : option pos; u_handler : option Z; u_framereg : Z; u_frameoff : option offs; u_codes : list code }.

(** * Directives *)
(** The directives, with their parameters as the functions read them: a register parameter is what
    yasm_expr_get_reg returns, an offset parameter what yasm_vp_expr returns, [None] for NULL. *)
Inductive dir :=
  | PROC_FRAME (f : Z) (handler : option Z)
  | PUSHREG (r : option Z)
  | SETFRAME (r : option Z) (o : option offs)
  | ALLOCSTACK (o : option offs)
  | SAVEREG (r : option Z) (o : option offs)
  | SAVEXMM128 (r : option Z) (o : option offs)
  | PUSHFRAME (param : bool)
  | ENDPROLOG
  | ENDPROC_FRAME.
(** What the source does: a directive at a position, or data of its own put into section .xdata. *)
Inductive event := At (p : pos) (d : dir) | Data (l : list Z).
(** Contents of section .xdata, one item for all the bytecodes of one yasm_win64__unwind_generate *)
Inductive item := Unwind (u : info) | User (l : list Z).
(** An entry of .pdata, coff-objfmt.c:2279-2289: the procedure, its end, and the end of the last
    bytecode of .xdata before the unwind information, given by the number of items before it. *)
Record entry := Entry { e_proc : Z; e_end : pos; e_items : nat }.
(** coff-objfmt.c:179-182: proc_frame and done_prolog, as flags, and unwind; the sections; the errors *)
Record st := St { frame : bool; done : bool; unwind : option info; xdata : list item; pdata : list entry; errs : list werr }.
Definition start : st := St false false None [] [] [].
Definition err (e : werr) (s : st) : st := St (frame s) (done s) (unwind s) (xdata s) (pdata s) (errs s ++ [e]).

(** coff-objfmt.c:1978-1997 procframe_checkstate, then the rest of the directive on the unwind information *)
Definition checked (s : st) (k : info -> st) : st :=
  if negb (frame s) then err NoProc s
  else if done s then err AfterPrologue s
  else match unwind s with None => err Internal s | Some u => k u end.
(** SLIST_INSERT_HEAD of a new code *)
Definition push (s : st) (u : info) (c : code) : st :=
  St (frame s) (done s) (Some (Info (u_proc u) (u_prolog u) (u_handler u) (u_framereg u) (u_frameoff u) (c :: u_codes u)))
     (xdata s) (pdata s) (errs s).
(** coff-objfmt.c:2114-2154 dir_save_common *)
Definition save (s : st) (p : pos) (r : option Z) (o : option offs) (op : Z) : st :=
  checked s (fun u =>
    match r with
    | None => err NeedsRegister s
    | Some r =>
        match o with
        | None => err NeedsOffset s
        | Some o => push s u (Code (u_proc u) p op (Z.land r 15) (Some o))
        end
    end).
(** coff-objfmt.c:1950-2292: the directives.  get_curpos (2001-2013) is the position: a current
    section always exists in the parsers. *)
Definition step (s : st) (e : event) : st :=
  match e with
  | Data l => St (frame s) (done s) (unwind s) (xdata s ++ [User l]) (pdata s) (errs s)
  | At p (PROC_FRAME f h) =>
      if frame s then err Nested s
      else St true false (Some (Info f None h 0 None [])) (xdata s) (pdata s) (errs s)
  | At p (PUSHREG r) =>
      checked s (fun u => match r with
        | None => err NeedsRegister s
        | Some r => push s u (Code (u_proc u) p UWOP_PUSH_NONVOL (Z.land r 15) None)
        end)
  | At p (SETFRAME r o) =>
      checked s (fun u => match r with
        | None => err NeedsRegister s
        | Some r => push s (Info (u_proc u) (u_prolog u) (u_handler u) r o (u_codes u))
                      (Code (u_proc u) p UWOP_SET_FPREG (Z.land r 15) o)
        end)
  | At p (ALLOCSTACK o) =>
      checked s (fun u => match o with
        | None => err NeedsOffset s
        | Some o => push s u (Code (u_proc u) p UWOP_ALLOC_SMALL 0 (Some o))
        end)
  | At p (SAVEREG r o) => save s p r o UWOP_SAVE_NONVOL
  | At p (SAVEXMM128 r o) => save s p r o UWOP_SAVE_XMM128
  | At p (PUSHFRAME b) =>
      checked s (fun u => push s u (Code (u_proc u) p UWOP_PUSH_MACHFRAME (if b then 1 else 0) None))
  | At p ENDPROLOG =>
      checked s (fun u => St (frame s) true (Some (Info (u_proc u) (Some p) (u_handler u) (u_framereg u) (u_frameoff u) (u_codes u)))
                            (xdata s) (pdata s) (errs s))
  | At p ENDPROC_FRAME =>
      if negb (frame s) then err NoProc s
      else if negb (done s) then err NoPrologueEnd (St false (done s) None (xdata s) (pdata s) (errs s))
      else match unwind s with
           | None => err Internal s
           | Some u => St false false None (xdata s ++ [Unwind u])
                         (pdata s ++ [Entry (u_proc u) p (length (xdata s))]) (errs s)
           end
  end.
Definition run (es : list event) : st := fold_left step es start.

(** * Sizes of the codes *)
(** The bytecode of a code: opcode and info as they are changed, and its length *)
Record bc := BC { b_op : Z; b_info : Z; b_len : Z }.
(** win64-except.c:422-459 win64_uwcode_bc_expand: result, bytecode, positive threshold, errors *)
Definition expand (span v : Z) (b : bc) (pos : Z) : Z * bc * Z * list werr :=
  if v <? 0 then (-1, b, pos, [Negative])
  else if span =? 1 then
    if (b_op b =? UWOP_ALLOC_LARGE) && (b_info b =? 1) then (-1, b, pos, [Internal])
    else
      let b := if (b_op b =? UWOP_ALLOC_SMALL) && (128 <? v) then BC UWOP_ALLOC_LARGE (b_info b) (b_len b + 2) else b in
      if v <=? 8 * 64 * 1024 - 8 then (1, b, 8 * 64 * 1024 - 8, [])
      else (0, BC (b_op b) 1 (b_len b + 2), pos, [])
  else if (b_op b =? UWOP_SAVE_NONVOL) && (span =? 2) then (0, BC UWOP_SAVE_NONVOL_FAR (b_info b) (b_len b + 2), pos, [])
  else if (b_op b =? UWOP_SAVE_XMM128) && (span =? 3) then (0, BC UWOP_SAVE_XMM128_FAR (b_info b) (b_len b + 2), pos, [])
  else (0, b, pos, []).
(** win64-except.c:399-419: the offset against the smallest form: bytecode, errors, the span added
    (identifier, thresholds) *)
Definition first_form (v : option intnum) (b : bc) (span low high mask : Z) : bc * list werr * option (Z * Z * Z) :=
  match v with
  | None => (b, [], Some (span, low, high))
  | Some i =>
      let v := get_int i in
      let tests := (if v <? low then [Negative] else []) ++ (if nz (Z.land v mask) then [NotMultiple] else []) in
      if high <? v then
        let '(ret, b, high, es) := expand span v b high in
        (b, es ++ tests, if 0 <? ret then Some (span, low, high) else None)
      else (b, tests, None)
  end.
(** win64-except.c:351-420 win64_uwcode_bc_calc_len *)
Definition calc_len (c : code) : bc * list werr * option (Z * Z * Z) :=
  let op := c_op c in
  let v := early_of (c_off c) in
  if (op =? UWOP_PUSH_NONVOL) || (op =? UWOP_SET_FPREG) || (op =? UWOP_PUSH_MACHFRAME) then (BC op (c_info c) 2, [], None)
  else if (op =? UWOP_ALLOC_SMALL) || (op =? UWOP_ALLOC_LARGE) then first_form v (BC UWOP_ALLOC_SMALL 0 2) 1 8 128 7
  else if (op =? UWOP_SAVE_NONVOL) || (op =? UWOP_SAVE_NONVOL_FAR) then
    first_form v (BC UWOP_SAVE_NONVOL (c_info c) 4) 2 0 (8 * 64 * 1024 - 8) 7
  else if (op =? UWOP_SAVE_XMM128) || (op =? UWOP_SAVE_XMM128_FAR) then
    first_form v (BC UWOP_SAVE_XMM128 (c_info c) 4) 3 0 (16 * 64 * 1024 - 16) 15
  else (BC op (c_info c) 2, [Internal], None).
(** section.c:1390-1416 and 1525-1552: the optimizer expands a bytecode when the value of its span
    leaves the thresholds, again while the result is positive *)
Fixpoint settle (span low high : Z) (b : bc) (vs : list Z) : bc * list werr :=
  match vs with
  | [] => (b, [])
  | v :: vs =>
      if (v <? low) || (high <? v) then
        let '(ret, b, high, es) := expand span v b high in
        if 0 <? ret then let (b, es') := settle span low high b vs in (b, es ++ es') else (b, es)
      else settle span low high b vs
  end.
Definition size_code (c : code) : bc * list werr :=
  let '(b, es, sp) := calc_len c in
  match sp with
  | None => (b, es)
  | Some (span, low, high) => let (b, es') := settle span low high b (seen_of (c_off c)) in (b, es ++ es')
  end.

(** * Output *)
Definition output := (list Z * list werr * list swarn)%type.
(** bytecode.c:199-217 yasm_calc_bc_dist, through a difference of two labels *)
Definition dist (W : world) (p : pos) (f : Z) : option Z :=
  match W f with Some (s, o) => if fst p =? s then Some (snd p - o) else None | None => None end.
(** coff-objfmt.c:425-455 coff_objfmt_output_value of an absolute value of 8 bits, warnings on *)
Definition out8 (v : option Z) : output :=
  match v with
  | None => ([0], [TooComplex], [])
  | Some d => match get_sized (IL d) [0] 8 0 1 with Some (o, _, w) => (o, [], w) | None => ([0], [Internal], []) end
  end.
(** win64-except.c:527-558: the opcode byte; the offset of [size] bytes (0: in the info field), tested
    and written after [x], what is written already.  After an error the function returns early. *)
Definition opbyte (op info : Z) : Z := (Z.lor (Z.shiftl info 4) (Z.land op 15)) mod 256.
Definition field (v : option intnum) (b : bc) (x : output) (size low high shift mask : Z) : output :=
  let '(o, e, w) := x in
  let fail x : output := (o, e ++ [x], w) in
  match v with
  | None => fail TooComplex
  | Some i =>
      let v := get_int i in
      if negb (size =? 4) && ((v <? low) || (high <? v)) then fail OffsetRange
      else if nz (Z.land v mask) then fail NotMultiple
      else if size =? 0 then (o ++ [opbyte (b_op b) ((Z.shiftr (get_uint i) shift - 1) mod 2 ^ 32)], e, w)
      else match get_sized i (repeat 0 (Z.to_nat size)) (size * 8) (- shift) 1 with
           | None => fail Internal
           | Some (x, _, w') => (o ++ opbyte (b_op b) (b_info b) :: x, e, w ++ w')
           end
  end.
(** win64-except.c:461-559 win64_uwcode_bc_tobytes *)
Definition code_bytes (W : world) (c : code) (b : bc) : output :=
  let x := out8 (dist W (c_loc c) (c_proc c)) in
  let op := b_op b in
  let field := field (late_of (c_off c)) b x in
  if (op =? UWOP_PUSH_NONVOL) || (op =? UWOP_SET_FPREG) || (op =? UWOP_PUSH_MACHFRAME) then
    let '(o, e, w) := x in (o ++ [opbyte op (b_info b)], e, w)
  else if op =? UWOP_ALLOC_SMALL then field 0 8 128 3 7
  else if op =? UWOP_ALLOC_LARGE then
    if b_info b =? 0 then field 2 136 (8 * 64 * 1024 - 8) 3 7 else field 4 0 0 0 7
  else if op =? UWOP_SAVE_NONVOL then field 2 0 (8 * 64 * 1024 - 8) 3 7
  else if op =? UWOP_SAVE_XMM128 then field 2 0 (16 * 64 * 1024 - 16) 4 15
  else if op =? UWOP_SAVE_NONVOL_FAR then field 4 0 0 0 7
  else if op =? UWOP_SAVE_XMM128_FAR then field 4 0 0 0 15
  else let '(o, e, w) := x in (o, e ++ [Internal], w).
Definition code_out (W : world) (c : code) : output :=
  let (b, es) := size_code c in
  let '(x, e, w) := code_bytes W c b in
  (x, es ++ e, w).
Definition append (x y : output) : output :=
  let '(a, e, w) := x in let '(a', e', w') := y in (a ++ a', e ++ e', w ++ w').
Fixpoint codes_out (W : world) (cs : list code) : output :=
  match cs with [] => ([], [], []) | c :: cs => append (code_out W c) (codes_out W cs) end.

(** the checks of a frame offset, win64-except.c:236-244 and 311-320 *)
Definition check_frame (v : Z) : list werr :=
  if (v <? 0) || (240 <? v) then [FrameRange] else if nz (Z.land v 15) then [FrameScale] else [].
(** win64-except.c:221-251 win64_uwinfo_bc_calc_len and 253-278 _expand: the spans of the size of the
    prologue and of the number of codes are tested on the final value only, that of the frame offset on
    every value of the optimizer *)
Definition span_byte (v : option Z) (e : werr) : list werr :=
  match v with Some d => if (d <? 0) || (255 <? d) then [e] else [] | None => [] end.
Definition frame_span (o : option offs) : list werr :=
  match early_of o with
  | Some i => check_frame (get_int i)
  | None => if existsb (fun v => (v <? 0) || (240 <? v)) (seen_of o) then [FrameRange] else []
  end.
(** win64-except.c:160-174, the number of codes: (end of the last code - end of the information) >> 1 *)
Definition count (cs : list code) : Z := Z.shiftr (fold_right (fun c n => b_len (fst (size_code c)) + n) 0 cs) 1.
(** win64-except.c:280-327 win64_uwinfo_bc_tobytes, after 221-278 *)
Definition info_out (W : world) (u : info) : output :=
  let p := match u_prolog u with Some p => dist W p (u_proc u) | None => None end in
  let n := count (u_codes u) in
  let es := span_byte p PrologueSize ++ span_byte (Some n) TooManyCodes ++ frame_span (u_frameoff u) in
  let first := match u_handler u with Some _ => Z.lor 1 (Z.shiftl 1 3) | None => 1 end in
  append (append (append ([first], es, []) (out8 p)) (out8 (Some n)))
    match late_of (u_frameoff u) with
    | None => ([], [TooComplex], [])
    | Some i => let v := get_int i in
        ([Z.lor (Z.land (v mod 2 ^ 64) 240) (Z.land (u_framereg u) 15)], check_frame v, [])
    end.
(** bc-align.c:233-250 yasm_bc_create_align of 4 at offset [o], filled with zeros (bc-align.c:187-227: neither
    fill nor code fill is given) *)
Definition align4 (o : Z) : list Z := repeat 0 (Z.to_nat ((- o) mod 4)).
(** win64-except.c:127-191 yasm_win64__unwind_generate, at offset [o] of the section: the bytes, and the
    relocated words among them (offset and symbol) *)
Definition block (W : world) (o : Z) (u : info) : output * list (Z * Z) :=
  let x := append (append (align4 o, [], []) (info_out W u)) (codes_out W (u_codes u)) in
  let at_ := o + Z.of_nat (length (fst (fst x))) in
  let x := append x (align4 at_, [], []) in
  match u_handler u with
  | None => (x, [])
  | Some h => (append x (repeat 0 4, [], []), [(o + Z.of_nat (length (fst (fst x))), h)])
  end.
(** The whole section, from offset [o] *)
Fixpoint layout (W : world) (o : Z) (l : list item) : output * list (Z * Z) :=
  match l with
  | [] => (([], [], []), [])
  | i :: l =>
      let (x, r) := match i with Unwind u => block W o u | User b => ((b, [], []), []) end in
      let (y, r') := layout W (o + Z.of_nat (length (fst (fst x)))) l in
      (append x y, r ++ r')
  end.
(** The words of an entry of .pdata: procedure, end of it (relative to it), position in .xdata *)
Record pentry := Pentry { pe_proc : Z; pe_size : Z; pe_unwind : Z }.
Definition pd_out (W : world) (l : list item) (e : entry) : pentry * list werr :=
  let here := Z.of_nat (length (fst (fst (fst (layout W 0 (firstn (e_items e) l)))))) in
  match dist W (e_end e) (e_proc e) with
  | Some d => (Pentry (e_proc e) d here, [])
  | None => (Pentry (e_proc e) 0 here, [TooComplex])
  end.
(** The sections after the source: .xdata with its relocations, .pdata, errors and warnings.
    coff-objfmt.c:1145-1152: the source must not end inside a procedure. *)
Record object := Object { o_xdata : list Z; o_refs : list (Z * Z); o_pdata : list pentry; o_errs : list werr; o_warns : list swarn }.
Definition assemble (W : world) (es : list event) : object :=
  let s := run es in
  let '((b, e, w), r) := layout W 0 (xdata s) in
  let ps := map (pd_out W (xdata s)) (pdata s) in
  Object b r (map fst ps) (errs s ++ e ++ flat_map snd ps ++ (if frame s then [EndOfFile] else [])) w.
