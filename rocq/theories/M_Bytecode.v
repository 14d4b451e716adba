(** Model of libyasm/bytecode.c, bc-align.c, bc-org.c, bc-reserve.c, bc-incbin.c and of the fill
    tables of x86arch.c and lc3barch.c.

    Expressions that must be constants are their integers; a repeat count is the result of reading
    it before and after layout.  A bytecode's own conversion is a function from the position in
    the buffer to the bytes written and an error flag.  Left out: printing, destruction, the
    errors of finalisation (they stop the assembly), failing seeks and reads of included files. *)
From Coq Require Import ZArith List Bool.
From Verif Require Import Lib M_Intnum.
Import ListNotations.
Open Scope Z_scope.

(** ** Repeat counts *)
(** What yasm_expr_get_intnum gives before and after layout, and whether a float is inside. *)
Record mexpr := Mul { before : option intnum; after : option intnum; hasfloat : bool }.
(** bytecode.c:352-372 yasm_bc_get_multiple, after layout; [None] = error *)
Definition get_multiple (m : option mexpr) : option Z :=
  match m with
  | None => Some 1
  | Some e => match after e with
              | None => None
              | Some i => if sign i <? 0 then None else Some (get_int i)
              end
  end.
(** bytecode.c:237-281 yasm_bc_calc_len after the bytecode's own length [len] ([None] = error):
    length, repeat count, whether a span for the repeat count was added; error flag *)
Definition calc_len (m : option mexpr) (len : option Z) : Z * Z * bool * bool :=
  let '(l, err) := match len with Some l => (l, false) | None => (0, true) end in
  match m with
  | None => (l, 1, false, err)
  | Some e =>
      match before e with
      | Some i => if sign i <? 0 then (0, 1, false, true) else (l, get_int i, false, err)
      | None => if hasfloat e then (0, 1, false, true) else (l, 0, true, err)
      end
  end.

(** ** Conversion to bytes, bytecode.c:300-350 yasm_bc_tobytes *)
Inductive outcome :=
  | Nothing                     (* size 0, no buffer *)
  | Gap (size : Z)              (* reserved space *)
  | Bytes (b : list Z) (err : bool)
  | Overrun                     (* a write past the buffer *)
  | Internal.                   (* the length check fails *)
(** lines 337-347; [size] is the size of the buffer *)
Fixpoint repeat_out (n : nat) (size len : Z) (tob : Z -> list Z * bool) (acc : list Z) (err : bool) : outcome :=
  match n with
  | O => Bytes acc err
  | S n' =>
      let '(b, e) := tob (Z.of_nat (length acc)) in
      if size <? Z.of_nat (length acc) + Z.of_nat (length b) then Overrun
      else if negb e && negb (Z.of_nat (length b) =? len) then Internal
      else repeat_out n' size len tob (acc ++ b) e
  end.
Definition tobytes (m : option mexpr) (reserve : bool) (len bufsize : Z) (tob : Z -> list Z * bool) : outcome :=
  match get_multiple m with
  | None => Nothing
  | Some mult =>
      if mult =? 0 then Nothing
      else
        let size := u64 (len * mult) in
        if reserve then Gap size
        else repeat_out (Z.to_nat mult) (if bufsize <? size then size else bufsize) len tob [] false
  end.

(** ** Offsets *)
(** bytecode.c:219-223 yasm_bc_next_offset *)
Definition next_offset (offset len mult : Z) : Z := u64 (offset + len * mult).
(** bytecode.c:199-217 yasm_calc_bc_dist on the two offsets; [stale] as in [calc] *)
Definition calc_bc_dist (stale : M_BitVect.bv) (sect1 sect2 : Z) (dist1 dist2 : Z) : option intnum :=
  if sect1 =? sect2 then
    Some (if dist2 <? dist1 then fst (fst (calc stale (create_uint (dist1 - dist2)) NEG None))
          else create_uint (dist2 - dist1))
  else None.

(** ** Alignment *)
Record align := Align { boundary : intnum; afill : option intnum; maxskip : option intnum; code : option (list (option (list Z))) }.
(** bc-align.c:133-164 bc_align_expand: length, positive threshold, return value *)
Definition align_end (b off : Z) : Z :=
  if Z.land off (b - 1) =? 0 then off else u64 (Z.land off (u64 (Z.lnot (b - 1))) + b).
Definition align_expand (a : align) (new_val : Z) : Z * Z * Z :=
  let b := get_uint (boundary a) in
  if b =? 0 then (0, new_val, 0)
  else
    let e := align_end b new_val in
    let len := u64 (e - new_val) in
    match maxskip a with
    | None => (len, e, 1)
    | Some k => let maxskip := get_uint k in
                if maxskip <? len then (0, u64 (e - maxskip - 1), 1) else (len, e, 1)
    end.
(** bc-align.c:197-199: the longest pattern *)
Fixpoint longest (table : list (option (list Z))) (n : nat) : nat :=
  match nth n table None with Some _ => n | None => match n with O => O | S k => longest table k end end.
(** bc-align.c:206-219: [fuel] bounds the patterns of maximal length *)
Fixpoint code_out (fuel : nat) (table : list (option (list Z))) (maxlen : nat) (len : Z) : option (list Z * bool) :=
  match fuel with
  | O => None
  | S f =>
      if Z.of_nat maxlen <? len then
        match nth maxlen table None with
        | Some p => match code_out f table maxlen (len - Z.of_nat maxlen) with
                    | Some (r, e) => Some (firstn maxlen p ++ r, e) | None => None end
        | None => None
        end
      else match nth (Z.to_nat len) table None with
           | Some p => Some (firstn (Z.to_nat len) p, false)
           | None => Some ([], true)
           end
  end.
(** bc-align.c:166-230 bc_align_tobytes at the bytecode's offset; [None]: not enough fuel *)
Definition align_tobytes (a : align) (off : Z) : option (list Z * bool) :=
  let b := get_uint (boundary a) in
  if b =? 0 then Some ([], false)
  else
    let len := u64 (align_end b off - off) in
    if len =? 0 then Some ([], false)
    else if match maxskip a with Some k => get_uint k <? len | None => false end then Some ([], false)
    else match afill a with
         | Some v => Some (repeat (get_uint v mod 256) (Z.to_nat len), false)
         | None =>
             match code a with
             | Some t => let maxlen := longest t 15 in
                         if Nat.eqb maxlen 0 then Some ([], true) else code_out (Z.to_nat len) t maxlen len
             | None => Some (repeat 0 (Z.to_nat len), false)
             end
         end.

(** ** Origin *)
(** bc-org.c:104-120 bc_org_expand: the length; [None] = overlap error *)
Definition org_expand (start new_val : Z) : option Z := if start <? new_val then None else Some (u64 (start - new_val)).
(** bc-org.c:122-141 bc_org_tobytes *)
Definition org_tobytes (start fill off : Z) : list Z * bool :=
  if start <? off then ([], true) else (repeat (fill mod 256) (Z.to_nat (u64 (start - off))), false).

(** ** Included files *)
(** bc-incbin.c:107-128 bc_incbin_finalize: a value that turns out zero becomes NULL (value.c) *)
Definition fin (e : option intnum) : option intnum := match e with Some i => if is_zero i then None else e | None => None end.
(** bc-incbin.c:130-195 bc_incbin_calc_len: the length, whether the start is past the end *)
Definition incbin_len (file : list Z) (start maxlen : option intnum) : Z * bool :=
  let flen := Z.of_nat (length file) in
  let s := match fin start with Some i => get_uint i | None => 0 end in
  let '(s', w) := if flen <? s then (flen, true) else (s, false) in
  let n := flen - s' in
  (match fin maxlen with Some i => if get_uint i <? n then get_uint i else n | None => n end, w).
(** bc-incbin.c:197-246 bc_incbin_tobytes: seeking past the end succeeds, a short read is an error *)
Definition incbin_tobytes (file : list Z) (start : option intnum) (len : Z) : list Z * bool :=
  let s := match fin start with Some i => get_uint i | None => 0 end in
  let got := firstn (Z.to_nat len) (skipn (Z.to_nat s) file) in
  if Z.of_nat (length got) <? len then ([], true) else (got, false).

(** ** Reserved space *)
(** bc-reserve.c:87-98 bc_reserve_finalize: the number of items multiplies the repeat count;
    [stale] as in [calc] *)
Definition reserve_mult (stale : M_BitVect.bv) (m : option intnum) (items : intnum) : intnum :=
  match m with None => items | Some i => fst (fst (calc stale i MUL (Some items))) end.

(** ** Fill patterns *)
(** x86arch.c:225-457 x86_get_fill *)
Definition nops (n : nat) : list Z := 0xeb :: Z.of_nat n :: repeat 0x90 n.
Definition fill16 : list (option (list Z)) :=
  [None; Some [0x90]; Some [0x89; 0xf6]; Some [0x8d; 0x74; 0x00]; Some [0x8d; 0xb4; 0x00; 0x00];
   Some [0x90; 0x8d; 0xb4; 0x00; 0x00]; Some [0x89; 0xf6; 0x8d; 0xbd; 0x00; 0x00];
   Some [0x8d; 0x74; 0x00; 0x8d; 0xbd; 0x00; 0x00]; Some [0x8d; 0xb4; 0x00; 0x00; 0x8d; 0xbd; 0x00; 0x00];
   Some (nops 7); Some (nops 8); Some (nops 9); Some (nops 10); Some (nops 11); Some (nops 12); Some (nops 13)].
Definition fill32 : list (option (list Z)) :=
  [None; Some [0x90]; Some [0x66; 0x90]; Some [0x8d; 0x76; 0x00]; Some [0x8d; 0x74; 0x26; 0x00];
   Some [0x90; 0x8d; 0x74; 0x26; 0x00]; Some [0x8d; 0xb6; 0x00; 0x00; 0x00; 0x00];
   Some [0x8d; 0xb4; 0x26; 0x00; 0x00; 0x00; 0x00]; Some [0x90; 0x8d; 0xb4; 0x26; 0x00; 0x00; 0x00; 0x00];
   Some (nops 7); Some (nops 8); Some (nops 9); Some (nops 10); Some (nops 11); Some (nops 12); Some (nops 13)].
Definition long_nop (n : nat) : list Z :=
  match n with
  | 3%nat => [0x0f; 0x1f; 0x00] | 4%nat => [0x0f; 0x1f; 0x40; 0x00] | 5%nat => [0x0f; 0x1f; 0x44; 0x00; 0x00]
  | 6%nat => [0x66; 0x0f; 0x1f; 0x44; 0x00; 0x00] | 7%nat => [0x0f; 0x1f; 0x80; 0x00; 0x00; 0x00; 0x00]
  | 8%nat => [0x0f; 0x1f; 0x84; 0x00; 0x00; 0x00; 0x00; 0x00]
  | _ => [0x66; 0x0f; 0x1f; 0x84; 0x00; 0x00; 0x00; 0x00; 0x00]
  end.
Definition new_nops : list (option (list Z)) := [None; Some [0x90]; Some [0x66; 0x90]] ++ map (fun n => Some (long_nop n)) (seq 3 7).
Definition intel_nop (k : nat) : list Z := repeat 0x66 k ++ [0x2e; 0x0f; 0x1f; 0x84; 0x00; 0x00; 0x00; 0x00; 0x00].
Definition fill32_intel : list (option (list Z)) := new_nops ++ map (fun k => Some (intel_nop k)) (seq 1 6).
Definition fill32_amd : list (option (list Z)) :=
  new_nops ++ [Some (0x66 :: long_nop 9); Some (long_nop 5 ++ long_nop 6); Some (long_nop 6 ++ long_nop 6);
               Some (long_nop 6 ++ long_nop 7); Some (long_nop 7 ++ long_nop 7); Some (long_nop 7 ++ long_nop 8)].
Inductive nop := NBasic | NIntel | NAmd.
Definition x86_get_fill (mode_bits : Z) (n : nop) : option (list (option (list Z))) :=
  if mode_bits =? 16 then Some fill16
  else if mode_bits =? 32 then Some match n with NIntel => fill32_intel | NAmd => fill32_amd | NBasic => fill32 end
  else if mode_bits =? 64 then Some match n with NAmd => fill32_amd | _ => fill32_intel end
  else None.
(** lc3barch.c:84-120 lc3b_get_fill *)
Definition lc3b_fill : list (option (list Z)) :=
  [None; None] ++ flat_map (fun n => [Some (repeat 0 (2 * n)); None]) (seq 1 7).
