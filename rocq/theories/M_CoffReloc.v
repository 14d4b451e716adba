(** Relocations of COFF objects: coff-objfmt.c, coff_objfmt_output_value. *)
From Coq Require Import ZArith List Bool.
From Verif Require Import Lib M_BitVect M_Intnum M_Expr M_Value.
Import ListNotations.
Open Scope Z_scope.

(** coff-objfmt.c:299-384: the formats coff (x86, amd64), win32 and win64; the fields machine,
    win32 and win64 of the object format *)
Inductive flavour := COFF32 | COFF64 | WIN32 | WIN64.
Definition i386 (f : flavour) : bool := match f with COFF32 | WIN32 => true | _ => false end.
Definition win (f : flavour) : bool := match f with WIN32 | WIN64 => true | _ => false end.
Definition win64 (f : flavour) : bool := match f with WIN64 => true | _ => false end.
(** coff-objfmt.c:41-76 coff_reloc, with symrec.h yasm_reloc *)
Record crel := Crel { c_sym : Z; c_addr : intnum; c_type : Z }.
Inductive cres := CErr | CFatal | CFloat (neg : bool) (f : Z) (warn : bool) | CBytes (out : list Z) (r : option crel) (ws : list swarn).

Section Coff.
Variable fl : flavour.
(** the label a symbol is (yasm_symrec_get_label), the section of a bytecode and the offset of its
    end; external and common symbols, with the reduced size expression of the latter ([None] without
    one); the symbol of a section; the symbol ..imagebase *)
Variable label : Z -> option Z.
Variable sect next : Z -> Z.
Variable extern common : Z -> bool.
Variable csize : Z -> option (option intnum).
Variable sectsym : Z -> Z.
Variable imagebase : option Z.

(** bytecode.c:199-217 yasm_calc_bc_dist *)
Definition bc_dist (p q : Z) : option intnum :=
  if negb (sect p =? sect q) then None
  else let d1 := next p in let d2 := next q in
       if d2 <? d1 then Some (ical (create_uint (u64 (d1 - d2))) NEG None) else Some (create_uint (u64 (d2 - d1))).
(** coff-objfmt.c:483-503: the symbol of the relocation after WRT, the distance to it; [None] for an error *)
Definition is_base (w : Z) : bool := match imagebase with Some b => w =? b | None => false end.
Definition redirect (v : val) (s : Z) : option (Z * option intnum) :=
  match wrt v with
  | None => Some (s, None)
  | Some w =>
      if is_base w then Some (s, None)
      else match label s, label w with
           | Some p, Some q => match bc_dist q p with Some d => Some (w, Some d) | None => None end
           | _, _ => None
           end
  end.
(** coff-objfmt.c:505-544: symbol and intn_val for common and local symbols *)
Inductive step := SErr | SFatal | SOk (sym val : Z).
Definition origin (s sym : Z) : step :=
  if common s then
    if win fl then SOk sym 0
    else match csize sym with
         | None => SFatal
         | Some None => SErr
         | Some (Some n) => if sign n <? 0 then SErr else SOk sym (get_uint n)
         end
  else if negb (extern s) && negb (win64 fl) then
    match label sym with Some p => SOk (sectsym (sect p)) (u64 (next p)) | None => SOk sym 0 end
  else SOk sym 0.
(** coff-objfmt.c:546-559: intn_val and intn_minus; [blen] is bc->len * bc->mult_int *)
Definition adjust (v : val) (val0 bcoff blen offset destsize : Z) : Z * Z :=
  let (a, b) := if curpos_rel v then
                  if win64 fl && ip_rel v then (u64 (val0 + blen), 0)
                  else if win fl then (u64 (val0 + (offset + destsize)), 0)
                  else (val0, bcoff)
                else (val0, 0) in
  if segof v then (0, 0) else (a, b).
(** coff-objfmt.c:567-641: the type of the relocation; [None] for "invalid relocation size" *)
Definition ctype (v : val) (nobase : bool) (blen offset destsize : Z) : option Z :=
  if curpos_rel v then
    if i386 fl then (if size v =? 32 then Some 20 else None)
    else if negb (size v =? 32) then None
    else if negb (ip_rel v) then Some 4
    else let d := u64 (blen - (offset + destsize)) in if d <=? 5 then Some (4 + d) else None
  else if segof v then Some 10
  else if section_rel v then Some 11
  else if i386 fl then Some (if nobase then 7 else 6)
  else if size v =? 32 then Some (if nobase then 3 else 2)
  else if size v =? 64 then Some 1 else None.
Definition ctobytes (i : intnum) (buf : list Z) (valsize warn : Z) (r : option crel) : cres :=
  match get_sized i buf valsize 0 warn with Some (out, _, ws) => CBytes out r ws | None => CFatal end.
(** coff-objfmt.c:646-681: intn_val - intn_minus + abs + dist *)
Definition total (num3 : expr -> option intnum) (v : val) (a b : Z) (dist : option intnum) : option intnum :=
  let i := if b <=? a then create_uint (u64 (a - b)) else ical (create_uint (u64 (b - a))) NEG None in
  match (match abs v with None => Some i | Some e => option_map (fun n => ical i ADD (Some n)) (num3 e) end) with
  | None => None
  | Some i => Some (match dist with None => i | Some d => ical i ADD (Some d) end)
  end.
(** coff-objfmt.c:425-682 coff_objfmt_output_value, for a value at [offset] in a bytecode of length
    [blen] at [bcoff] of section [here]; [nobase] is COFF_FLAG_NOBASE of the section; [num3] is
    yasm_expr_get_intnum in line 660 *)
Definition coff_value (num num2 num3 : expr -> option intnum) (v : val) (buf : list Z) (here bcoff blen offset : Z) (nobase warn : bool) : cres :=
  let destsize := Z.of_nat (List.length buf) in
  match output_basic label sect next num num2 v here bcoff warn with
  | OErr => CErr
  | OFloat neg f w => CFloat neg f w
  | ONum n w => ctobytes n buf (size v) w None
  | OTodo =>
      let other := negb (is_none (wrt v)) || curpos_rel v in
      let finish a b dist r :=
        match total num3 v a b dist with
        | None => CErr
        | Some i => ctobytes i buf (size v) (if warn then 1 else 0) r
        end in
      if (0 <? rshift v) || segof v && other || section_rel v && other then CErr
      else match rel v with
      | None => finish 0 0 None None
      | Some s =>
          let nobase := nobase || match wrt v with Some w => is_base w | None => false end in
          match redirect v s with
          | None => CErr
          | Some (sym, dist) =>
              match origin s sym with
              | SErr => CErr
              | SFatal => CFatal
              | SOk sym val0 =>
                  let (a, b) := adjust v val0 bcoff blen offset destsize in
                  match ctype v nobase blen offset destsize with
                  | None => CErr
                  | Some ty => finish a b dist (Some (Crel sym (create_uint (u64 (bcoff + offset))) ty))
                  end
              end
          end
      end
  end.
End Coff.
