(** The listing file: nasm-listfmt.c.  Text is a list of character codes. *)
From Coq Require Import ZArith List Bool.
From Verif Require Import Lib.
Import ListNotations.
Open Scope Z_scope.

(** nasm-listfmt.c:51-56 bcreloc: a field to be put in brackets *)
Record reloc := Reloc { roff : Z; rsize : Z; rrel : bool }.
(** A bytecode after assembly: its offset, its bytes with all copies (yasm_bc_tobytes), whether it is a gap, the
    number of copies, and the fields whose value needed a relocation (yasm_value_output_basic gave 0), in the order
    in which they were written. *)
Record lbc := Lbc { loffset : Z; ldata : list Z; lgap : bool; lmult : Z; lfields : list reloc }.
(** linemap.c:279-293 yasm_linemap_get_source: a line of source (or none), and its section and bytecodes.  A line
    whose bytecode carries another line number has no bytecode here. *)
Record sline := Sline { ssrc : option (list Z); sbcs : option (Z * list lbc) }.

(** The C library: digits in a base, most significant first; leading zeros dropped down to [keep] digits; fields *)
Fixpoint digits (k : nat) (b v : Z) : list Z := match k with O => [] | S k => digits k b (v / b) ++ [v mod b] end.
Fixpoint strip (keep : nat) (l : list Z) : list Z :=
  match l with 0 :: r => if (keep <=? length r)%nat then strip keep r else l | _ => l end.
Definition chr (d : Z) : Z := if d <? 10 then 48 + d else 55 + d.
Definition spaces (k : Z) : list Z := repeat 32 (Z.to_nat (Z.abs k)).
(** "%6lu" *)
Definition num6 (n : Z) : list Z := let d := map chr (strip 1 (digits 20 10 n)) in spaces (Z.max 0 (6 - Z.of_nat (length d))) ++ d.
(** "%08lX" and "%02X" *)
Definition hex8 (n : Z) : list Z := map chr (strip 8 (digits 16 16 n)).
Definition hex2 (b : Z) : list Z := map chr (digits 2 16 b).

(** nasm-listfmt.c:103-118: a field is noted if the next relocation of the section is at its address *)
Fixpoint note (next : list Z) (off : Z) (fs : list reloc) (acc : list reloc) : list Z * list reloc :=
  match fs with
  | [] => (next, acc)
  | f :: fs =>
      match next with
      | a :: r => if a =? u64 (off + roff f) then note r off fs (acc ++ [f]) else note next off fs acc
      | [] => note next off fs acc
      end
  end.

(** nasm-listfmt.c:233-247: the bytes of one line; characters, width, position, what is left *)
Fixpoint cells (i pos : Z) (bs : list Z) (rs : list reloc) : list Z * Z * Z * list Z * list reloc :=
  match bs with
  | [] => ([], i, pos, [], rs)
  | b :: bs' =>
      if i <? 18 then
        let opens := match rs with r :: _ => if pos =? roff r then [if rrel r then 40 else 91] else [] | [] => [] end in
        let closes := match rs with r :: _ => pos + 1 =? u64 (roff r + rsize r) | [] => false end in
        let close := if closes then match rs with r :: _ => [if rrel r then 41 else 93] | [] => [] end else [] in
        let rs' := if closes then tl rs else rs in
        let '(s, i2, p2, rest, rs2) := cells (i + Z.of_nat (length opens) + 2 + Z.of_nat (length close)) (pos + 1) bs' rs' in
        (opens ++ hex2 b ++ close ++ s, i2, p2, rest, rs2)
      else ([], i, pos, bs, rs)
  end.
(** nasm-listfmt.c:229-262: the lines of a bytecode (without their ends), the next number and the source if it was
    not printed *)
Fixpoint rows (fuel : nat) (n off mult : Z) (src : option (list Z)) (pos : Z) (bs : list Z) (rs : list reloc) : list (list Z) * Z * option (list Z) :=
  match fuel, bs with
  | S fuel, _ :: _ =>
      let '(s, i, pos, rest, rs) := cells 0 pos bs rs in
      let tail := match rest with
                  | _ :: _ => [45]
                  | [] => (if 1 <? mult then [60; 114; 101; 112; 116; 62] else []) ++ spaces (18 - (if 1 <? mult then i + 6 else i) + 1)
                  end in
      let text := match src with Some t => spaces 4 ++ t | None => [] end in
      let '(ls, n2, src2) := rows fuel (n + 1) off mult None pos rest rs in
      ((num6 n ++ [32] ++ hex8 off ++ [32] ++ s ++ tail ++ text) :: ls, n2, src2)
  | _, _ => ([], n, src)
  end.
(** nasm-listfmt.c:216-220: one copy *)
Definition one_copy (b : lbc) : list Z :=
  if lmult b <=? 0 then [] else firstn (Z.to_nat (Z.of_nat (length (ldata b)) / lmult b)) (ldata b).
(** nasm-listfmt.c:198-267: the bytecodes of a line; the noted fields of all of them are in one list, which is
    gone through from its start for each *)
Fixpoint bytecodes (bcs : list lbc) (n : Z) (src : option (list Z)) (next : list Z) (acc : list reloc) : list (list Z) * Z * list Z :=
  match bcs with
  | [] => ([], n, next)
  | b :: bcs =>
      let '(next, acc) := note next (loffset b) (lfields b) acc in
      let '(ls, n1, src1) :=
        if lgap b then ([num6 n ++ [32] ++ hex8 (loffset b) ++ [32; 60; 103; 97; 112; 62] ++ spaces 18 ++ match src with Some t => t | None => [] end], n + 1, src)
        else rows (length (one_copy b)) n (loffset b) (lmult b) src 0 (one_copy b) acc in
      let '(ls2, n2, next2) := bytecodes bcs n1 src1 next acc in
      (ls ++ ls2, n2, next2)
  end.
(** nasm-listfmt.c:142-292 nasm_listfmt_output.  [relocs] gives what is left of the relocations of each section
    (the list of sections already seen is this function). *)
Fixpoint lines (l : list sline) (n : Z) (relocs : Z -> list Z) : list (list Z) :=
  match l with
  | [] => []
  | Sline None _ :: _ => []
  | Sline (Some t) None :: l => (num6 n ++ [32] ++ spaces 32 ++ t) :: lines l (n + 1) relocs
  | Sline (Some t) (Some (q, bcs)) :: l =>
      let '(ls, n2, next) := bytecodes bcs n (Some t) (relocs q) [] in
      ls ++ lines l n2 (fun s => if s =? q then next else relocs s)
  end.
(** Each line ends with a newline. *)
Definition listing (l : list sline) (relocs : Z -> list Z) : list Z := flat_map (fun x => x ++ [10]) (lines l 1 relocs).
