(** Model of libyasm/bc-data.c: data directives.

    A value is what yasm_expr_get_intnum finds for it when the directive is read and again after
    finalisation; how an object format writes a value that is not a constant at first is a
    parameter.  Lengths of data already in memory are natural numbers.  A write of no bytes touches
    no memory, except that its address must not come from a null pointer.  Left out: freeing of
    the input, the warning for negative ULEB128 values, the other errors of finalisation. *)
From Coq Require Import ZArith List Bool.
From Verif Require Import Lib M_Intnum M_Bytecode.
Import ListNotations.
Open Scope Z_scope.

Record val := Val { vid : Z; early : option intnum; late : option intnum }.
(** bc-data.c:41-58 struct yasm_dataval; a repeat count is NULL or an expression, with its value
    (if constant) *)
Inductive kind := Empty | Value (v : val) | Raw (b : list Z) | Uleb (v : val) | Sleb (v : val) | Reserve.
Record item := Item { what : kind; mult : option (option intnum) }.
(** The list being built: raw data of a certain length, or a value. *)
Inductive slot := SRaw (len : nat) (m : option (option intnum)) | SVal (m : option (option intnum)).
(** The list built; [None] among the bytes is memory never written, [VNone] a value never set. *)
Inductive entry := ERaw (b : list (option Z)) (m : option (option intnum)) | EVal (k : option kind) (size : nat) (m : option (option intnum)).

Definition is_some {A} (o : option A) : bool := match o with Some _ => true | None => false end.
Definition non_empty (k : kind) : bool := match k with Empty => false | _ => true end.
(** the tests of lines 285 and 330, 347 and 402 *)
Definition flush (it : item) (len : nat) : bool := is_some (mult it) && non_empty (what it) && (0 <? len)%nat.

(** bc-data.c:279-342, the first pass.  [arch]: an architecture was given.  Division by an element
    size of zero is undefined: [None]. *)
Definition scan_item (size : nat) (arch : bool) (it : item) (len : nat) : option (list slot * nat) :=
  let value :=                                    (* lines 305-318 *)
    Some ((if (0 <? len)%nat then [SRaw len None] else []) ++ [SVal (mult it)], 0%nat) in
  match what it with
  | Empty => Some ([], len)
  | Value v => match early v with
               | Some _ => if arch || (size =? 1)%nat then Some ([], (len + size)%nat) else value
               | None => value end
  | Uleb v => match early v with Some i => Some ([], (len + Z.to_nat (intnum_size_leb128 i false))%nat) | None => value end
  | Sleb v => match early v with Some i => Some ([], (len + Z.to_nat (intnum_size_leb128 i true))%nat) | None => value end
  | Raw b => if (size =? 0)%nat then None else Some ([], (len + (length b + size - 1) / size * size)%nat)
  | Reserve => Some ([], (len + size)%nat)
  end.
Fixpoint scan (size : nat) (arch zero : bool) (len : nat) (l : list item) : option (list slot) :=
  match l with
  | [] => Some (if (0 <? len)%nat then [SRaw len None] else [])
  | it :: r =>
      let '(pre, len0) := if flush it len then ([SRaw len None], 0%nat) else ([], len) in
      match scan_item size arch it len0 with
      | None => None
      | Some (mid, len1) =>
          let '(post, len2) := if flush it len1 then ([SRaw len1 (mult it)], 0%nat) else ([], len1) in
          match scan size arch zero (if zero then S len2 else len2) r with
          | None => None
          | Some s => Some (pre ++ mid ++ post ++ s)
          end
      end
  end.

(** bc-data.c:344-412, the second pass: [dvo] is the rest of the list (empty: NULL), [done] what was
    written to its head.  [None] = a null pointer is followed, a write goes past the end or
    through a pointer never set, or a filled entry is turned into a value. *)
Definition close (o : slot) (size : nat) (done : list Z) : entry :=
  match o with
  | SRaw len m => ERaw (map Some done ++ repeat None (len - length done)) m
  | SVal m => EVal None size m
  end.
Definition step (dvo : list slot) (size : nat) (done : list Z) : option (list entry * list slot) :=
  match dvo with [] => None | o :: r => Some ([close o size done], r) end.
Definition write (dvo : list slot) (done b : list Z) : option (list Z) :=
  match dvo with
  | [] => None
  | SRaw len _ :: _ => if (length done + length b <=? len)%nat then Some (done ++ b) else None
  | SVal _ :: _ => match b with [] => Some done | _ => None end
  end.
Definition write_opt (dvo : list slot) (done : list Z) (b : option (list Z)) : option (list Z) :=
  match b with Some b => write dvo done b | None => None end.
Definition sized (i : intnum) (size : nat) : option (list Z) :=
  match get_sized i (repeat 0 size) (8 * Z.of_nat size) 0 1 with Some (b, _, _) => Some b | None => None end.
(** lines 381, coretype.h:183: the size of a value is kept as a number of bits in a field of 8 bits *)
Definition vsize (size : nat) : nat := (8 * size mod 256 / 8)%nat.
(** lines 351-400: entries passed, the rest of the list, what is written to its head *)
Definition fill_item (size : nat) (arch : bool) (it : item) (dvo : list slot) (done : list Z)
  : option (list entry * list slot * list Z) :=
  let put b := match write_opt dvo done b with Some d => Some ([], dvo, d) | None => None end in
  let value :=                                    (* lines 377-384 *)
    match (match done with [] => Some ([], dvo) | _ => step dvo size done end) with
    | Some (e, SVal m :: r) => Some (e ++ [EVal (Some (what it)) (vsize size) m], r, [])
    | _ => None
    end in
  match what it with
  | Empty => Some ([], dvo, done)
  | Value v => match early v with
               | Some i => if arch || (size =? 1)%nat then put (sized i size) else value
               | None => value end
  | Uleb v => match early v with Some i => put (intnum_leb128 i false) | None => value end
  | Sleb v => match early v with Some i => put (intnum_leb128 i true) | None => value end
  | Raw b =>
      if (size =? 0)%nat then None
      else let r := (length b mod size)%nat in
           put (Some (b ++ (if (0 <? r)%nat then repeat 0 (size - r) else [])))
  | Reserve => put (Some (repeat 0 size))
  end.
Fixpoint fill (size : nat) (arch zero : bool) (dvo : list slot) (done : list Z) (l : list item) : option (list entry) :=
  match l, dvo with
  | [], [] => Some []
  | [], o :: r => Some (close o size done :: map (fun o => close o size []) r)
  | _ :: _, [] => Some []
  | it :: r, _ :: _ =>
      match (if flush it (length done) then step dvo size done else Some ([], dvo)) with
      | None => None
      | Some (e0, dvo0) =>
          let done0 := if flush it (length done) then [] else done in
          match fill_item size arch it dvo0 done0 with
          | None => None
          | Some (e1, dvo1, done1) =>
              match (if flush it (length done1) then step dvo1 size done1 else Some ([], dvo1)) with
              | None => None
              | Some (e2, dvo2) =>
                  let done2 := if flush it (length done1) then [] else done1 in
                  match (if zero then write dvo2 done2 [0] else Some done2) with
                  | None => None
                  | Some done3 =>
                      match fill size arch zero dvo2 done3 r with
                      | Some s => Some (e0 ++ e1 ++ e2 ++ s)
                      | None => None
                      end
                  end
              end
          end
      end
  end.
(** bc-data.c:262-416 yasm_bc_create_data *)
Definition create_data (size : nat) (arch zero : bool) (l : list item) : option (list entry) :=
  match scan size arch zero 0 l with Some s => fill size arch zero s [] l | None => None end.
(** bc-data.c:418-438 yasm_bc_create_leb128; the error for strings does not stop it *)
Definition create_leb (sgnd : bool) (l : list item) : option (list entry) :=
  create_data 0 false false
    (map (fun it => match what it with Value v => Item (if sgnd then Sleb v else Uleb v) (mult it) | _ => it end) l).

(** bc-data.c:104-150 bc_data_finalize, the repeat counts: zero becomes NULL (value.c:548-554) *)
Definition fin_mult (m : option (option intnum)) : option (option intnum) :=
  match m with Some (Some i) => if is_zero i then None else m | _ => m end.
Definition finalize (e : entry) : entry :=
  match e with ERaw b m => ERaw b (fin_mult m) | EVal k s m => EVal k s (fin_mult m) end.
(** bc-data.c:496-516 yasm_dv_get_multiple: the count, error *)
Definition dv_multiple (m : option (option intnum)) : Z * bool :=
  match m with
  | None => (1, false)
  | Some None => (1, true)
  | Some (Some i) => if sign i <? 0 then (1, true) else (get_uint i, false)
  end.
Definition mult_of (e : entry) := match e with ERaw _ m => m | EVal _ _ m => m end.

(** bc-data.c:159-203 bc_data_calc_len; [None] = internal error *)
Definition entry_len (e : entry) : option Z :=
  match e with
  | ERaw b _ => Some (Z.of_nat (length b))
  | EVal (Some (Value _)) size _ => Some (Z.of_nat size)
  | EVal (Some (Uleb v)) _ _ => match late v with Some i => Some (intnum_size_leb128 i false) | None => None end
  | EVal (Some (Sleb v)) _ _ => match late v with Some i => Some (intnum_size_leb128 i true) | None => None end
  | EVal _ _ _ => None
  end.
Fixpoint data_len (l : list entry) (acc : Z) : option Z :=
  match l with
  | [] => Some acc
  | e :: r => match entry_len e with
              | None => None
              | Some n => let '(k, err) := dv_multiple (mult_of e) in
                          data_len r (u64 (acc + (if err then n else u64 (n * k))))
              end
  end.

(** bc-data.c:205-260 bc_data_tobytes at position [pos] of the buffer; [outv v n pos] is what the
    object format writes for [v] ([None] = error).  Result: the bytes, whether it stopped on an
    error; [None] = internal error or memory never written. *)
Fixpoint read (b : list (option Z)) : option (list Z) :=
  match b with
  | [] => Some []
  | Some x :: r => match read r with Some s => Some (x :: s) | None => None end
  | None :: _ => None
  end.
Fixpoint repeat_pos (n : nat) (f : Z -> option (list Z)) (pos : Z) : list Z * bool :=
  match n with
  | O => ([], false)
  | S k => match f pos with
           | None => ([], true)
           | Some b => let '(r, e) := repeat_pos k f (pos + Z.of_nat (length b)) in (b ++ r, e)
           end
  end.
Definition entry_bytes (outv : val -> nat -> Z -> option (list Z)) (e : entry) (n : nat) (pos : Z) : option (list Z * bool) :=
  let leb v s size :=
    match late v with
    | None => None
    | Some i => match intnum_leb128 i s with
                | None => None
                | Some b =>                       (* line 246: no break *)
                    Some (concat (repeat b n) ++ concat (repeat (repeat 0 size) n), false)
                end
    end in
  match e with
  | ERaw b _ => match read b with Some s => Some (concat (repeat s n), false) | None => None end
  | EVal (Some (Value v)) size _ => Some (repeat_pos n (outv v size) pos)
  | EVal (Some (Uleb v)) size _ => leb v false size
  | EVal (Some (Sleb v)) size _ => leb v true size
  | EVal _ _ _ => None
  end.
Fixpoint data_bytes (outv : val -> nat -> Z -> option (list Z)) (l : list entry) (pos : Z) : option (list Z * bool) :=
  match l with
  | [] => Some ([], false)
  | e :: r =>
      let '(k, err) := dv_multiple (mult_of e) in
      if err || (k =? 0) then data_bytes outv r pos
      else match entry_bytes outv e (Z.to_nat k) pos with
           | None => None
           | Some (b, true) => Some (b, true)
           | Some (b, false) => match data_bytes outv r (pos + Z.of_nat (length b)) with
                                | Some (s, e') => Some (b ++ s, e')
                                | None => None
                                end
           end
  end.
