(** Model of libyasm/linemap.c: virtual-to-physical line mapping.
    Not modelled: filename sharing through the HAMT (a filename is its contents; sharing is C09),
    allocation growth, the HAMT of file names used by traverse_filenames, destroy. *)
From Coq Require Import ZArith List Lia Bool.
From Verif Require Import Lib.
Import ListNotations.
Open Scope Z_scope.

(** libyasm/linemap.c:34-47, struct line_mapping. [filename] is a byte string. *)
Record mapping := Mapping { m_line : Z; m_file : list Z; m_fline : Z; m_inc : Z }.

(** libyasm/linemap.c:49-72, struct yasm_linemap.  [src] is source_info, one slot per line;
    a slot is [Some (bc, text)] when source != NULL. *)
Record linemap := Linemap { current : Z; vec : list mapping; src : list (option (Z * list Z)) }.

(** libyasm/linemap.c:163-188, yasm_linemap_create. *)
Definition create : linemap := Linemap 1 [] [None; None].

Definition unknown : list Z := [117;110;107;110;111;119;110]. (* "unknown" *)

(** libyasm/linemap.c:95-103: scan from the end for the last entry below [vl]; returns the
    loop index i (0 if none). *)
Fixpoint scan_back (v : list mapping) (vl : Z) (i : nat) : nat :=
  match i with
  | O => O
  | S j => match nth_error v j with
           | Some m => if m_line m <? vl then i else scan_back v vl j
           | None => O
           end
  end.

(** libyasm/linemap.c:80-138, yasm_linemap_set. *)
Definition set (lm : linemap) (file : option (list Z)) (vl0 fl inc : Z) : linemap :=
  let vl := if vl0 =? 0 then current lm else vl0 in
  let i := scan_back (vec lm) vl (length (vec lm)) in
  (* 96-103, 105-115: replace from index i on, or append *)
  let keep := if (0 <? Z.of_nat i) && (Nat.ltb i (length (vec lm)))
              then firstn i (vec lm) else vec lm in
  (* 119-133: map_size-2 is the last kept entry *)
  let f := match file with
           | Some s => s
           | None => match rev keep with
                     | m :: _ => m_file m
                     | [] => unknown
                     end
           end in
  Linemap (current lm) (keep ++ [Mapping vl f fl inc]) (src lm).

(** libyasm/linemap.c:239-243, yasm_linemap_goto_next. *)
Definition goto_next (lm : linemap) : linemap :=
  Linemap (u64 (current lm + 1)) (vec lm) (src lm).

(** libyasm/linemap.c:140-161, yasm_linemap_poke.  The second set uses the mapping just
    created (the last one), exactly as the C code does. *)
Definition poke (lm : linemap) (file : option (list Z)) (fl : Z) : linemap * Z :=
  let lm1 := set (goto_next lm) file 0 fl 0 in
  match rev (vec lm1) with
  | m :: _ =>
      let line := current lm1 in
      let lm2 := goto_next lm1 in
      (set lm2 (Some (m_file m)) 0
         (u64 (m_fline m + m_inc m * (current lm2 - 2 - m_line m))) (m_inc m), line)
  | [] => (lm1, current lm1)   (* unreachable: set always appends *)
  end.

(** libyasm/linemap.c:256-259. *)
Fixpoint first_step (fuel : nat) (step size : nat) : option nat :=
  match fuel with
  | O => None
  | S f => if Nat.leb (step * 2) size then first_step f (step * 2) size else Some step
  end.

(** libyasm/linemap.c:260-265. *)
Fixpoint bsearch (fuel : nat) (v : list mapping) (line : Z) (vindex step : nat) : option nat :=
  match step with
  | O => Some vindex
  | _ => match fuel with
         | O => None
         | S f =>
           let vi := match nth_error v (vindex + step) with
                     | Some m => if m_line m <=? line then (vindex + step)%nat else vindex
                     | None => vindex
                     end in
           bsearch f v line vi (Nat.div step 2)
         end
  end.

(** libyasm/linemap.c:245-270, yasm_linemap_lookup.  [None]: the assert at 252 fails, or the
    map is empty and uninitialised memory would be read (266). *)
Definition lookup (lm : linemap) (line : Z) : option (list Z * Z) :=
  if line <=? current lm then
    match first_step (S (length (vec lm))) 1 (length (vec lm)) with
    | None => None
    | Some st =>
      match bsearch (S (length (vec lm))) (vec lm) line 0 st with
      | None => None
      | Some i =>
        match nth_error (vec lm) i with
        | None => None
        | Some m => Some (m_file m,
            if line =? 0 then 0 else u64 (m_fline m + m_inc m * (line - m_line m)))
        end
      end
    end
  else None.

(** libyasm/linemap.c:220-229: doubling growth; fuel is the number of doublings allowed. *)
Fixpoint grow (fuel : nat) (s : list (option (Z * list Z))) (cur : Z) :=
  match fuel with
  | O => s
  | S f => if Z.of_nat (length s) <? cur then grow f (s ++ repeat None (length s)) cur else s
  end.

Fixpoint upd {A} (l : list A) (n : nat) (x : A) : list A :=
  match l, n with
  | [], _ => []
  | _ :: t, O => x :: t
  | h :: t, S n' => h :: upd t n' x
  end.

(** libyasm/linemap.c:214-237, yasm_linemap_add_source.  64 doublings reach any
    unsigned long, so the fuel never binds. *)
Definition add_source (lm : linemap) (bc : Z) (text : list Z) : linemap :=
  let s := grow 64 (src lm) (current lm) in
  Linemap (current lm) (vec lm) (upd s (Z.to_nat (current lm - 1)) (Some (bc, text))).

(** libyasm/linemap.c:279-293, yasm_linemap_get_source; [None] is the failure return.
    line = 0 would index -1: modelled as failure and excluded in the theorems. *)
Definition get_source (lm : linemap) (line : Z) : option (Z * list Z) :=
  if Z.of_nat (length (src lm)) <? line then None
  else if line <=? 0 then None
  else match nth_error (src lm) (Z.to_nat (line - 1)) with Some (Some x) => Some x | _ => None end.

(** One API call. *)
Inductive op :=
| OSet (file : option (list Z)) (vl fl inc : Z)
| ONext
| OPoke (file : option (list Z)) (fl : Z)
| OSrc (bc : Z) (text : list Z).

Definition step (lm : linemap) (o : op) : linemap :=
  match o with
  | OSet f v l i => set lm f v l i
  | ONext => goto_next lm
  | OPoke f l => fst (poke lm f l)
  | OSrc b t => add_source lm b t
  end.

Definition run (ops : list op) : linemap := fold_left step ops create.
