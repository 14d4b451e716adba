(** Model of parts of libyasm/file.c: the scanner buffer, string unescaping, Unix path splitting
    and combination.  Strings are lists of character codes without the terminating NUL (the
    unescaper's buffer may hold any bytes).  The forming of the pointer path-1 in
    yasm__splitpath_unix (never dereferenced) is ignored.
    Not modelled: the Windows variants, createpath, include path list, fwrite helpers. *)
From Coq Require Import ZArith List Bool.
Import ListNotations.
Open Scope Z_scope.

Definition str := list Z.
Definition SLASH := 47.
Definition DOT := 46.
Definition BSLASH := 92.

(** * yasm_unescape_cstring, file.c:118-181 *)
Definition isdigit (c : Z) : bool := (48 <=? c) && (c <=? 57).
Definition isxdigit (c : Z) : bool :=
  isdigit c || ((65 <=? c) && (c <=? 70)) || ((97 <=? c) && (c <=? 102)).
(** One digit as strtoul base 16 reads it *)
Definition xval (c : Z) : Z := if isdigit c then c - 48 else if c <=? 70 then c - 55 else c - 87.
(** file.c:137-139: skip all but the last two hex digits *)
Fixpoint hexskip (s : str) : str :=
  match s with
  | a :: ((b :: c :: _) as t) => if isxdigit a && isxdigit b && isxdigit c then hexskip t else s
  | _ => s
  end.
(** file.c:136-148: rest of the text after "\x" and the byte stored *)
Definition hexesc (s : str) : Z * str :=
  match hexskip s with
  | a :: t =>
      if isxdigit a then
        match t with
        | b :: t' => if isxdigit b then ((xval a * 16 + xval b) mod 256, t') else (xval a, t)
        | [] => (xval a, t)
        end
      else (0, a :: t)
  | [] => (0, [])
  end.
(** file.c:151-171; *o is an unsigned char *)
Definition octesc (a : Z) (s : str) : Z * str :=
  match s with
  | b :: t =>
      if isdigit b then
        let v := (((a - 48) * 8) mod 256 + (b - 48)) mod 256 in
        match t with
        | c :: t' => if isdigit c then (((v * 8) mod 256 + (c - 48)) mod 256, t') else (v, t)
        | [] => (v, t)
        end
      else (a - 48, s)
  | [] => (a - 48, s)
  end.
(** file.c:127-175: the byte for the escape whose text after the backslash is [c :: s] *)
Definition escape1 (c : Z) (s : str) : Z * str :=
  if c =? 98 then (8, s) else if c =? 102 then (12, s) else if c =? 110 then (10, s)
  else if c =? 114 then (13, s) else if c =? 116 then (9, s)
  else if c =? 120 then hexesc s
  else if isdigit c then octesc c s
  else (c, s).
(** file.c:125-179; every round consumes at least one character, so the length is enough fuel *)
Fixpoint unesc (fuel : nat) (s : str) : option str :=
  match s with
  | [] => Some []
  | a :: t =>
      match fuel with
      | O => None
      | S f =>
          match t with
          | c :: t' => if a =? BSLASH then let (v, r) := escape1 c t' in option_map (cons v) (unesc f r)
                       else option_map (cons a) (unesc f t)
          | [] => Some [a]
          end
      end
  end.
(** file.c:118-181 yasm_unescape_cstring, as a function from text to text *)
Definition unescape (s : str) : option str := unesc (length s) s.
(** The same loop as the C code runs it, reading and writing one buffer: [s] and [o] are the
    offsets of the read and write pointers.  file.c:125-180.  (The octal case stores partial
    values in *o while reading on; *o is then before the backslash or on it, never on a
    character still to be read.) *)
Definition upd (m : str) (i : nat) (v : Z) : str := firstn i m ++ v :: skipn (S i) m.
Fixpoint unesc_mem (fuel : nat) (m : str) (s o : nat) : option (str * nat) :=
  match skipn s m with
  | [] => Some (m, o)
  | a :: t =>
      match fuel with
      | O => None
      | S f =>
          match t with
          | c :: t' => if a =? BSLASH then
                         let (v, r) := escape1 c t' in unesc_mem f (upd m o v) (length m - length r) (S o)
                       else unesc_mem f (upd m o a) (S s) (S o)
          | [] => unesc_mem f (upd m o a) (S s) (S o)
          end
      end
  end.

(** * yasm__splitpath_unix, file.c:183-203 *)
(** The text up to and including the last slash, reversed; [None] if there is no slash *)
Fixpoint to_slash (r : str) : option str :=
  match r with [] => None | c :: t => if c =? SLASH then Some r else to_slash t end.
(** file.c:195-197, on the reversed text ending at s *)
Fixpoint strip_dots (r : str) : str :=
  match r with
  | c :: d :: t =>
      if (d =? DOT) && (c =? SLASH) && negb (match t with e :: _ => e =? DOT | [] => false end)
      then strip_dots t else r
  | _ => r
  end.
(** file.c:199-200 *)
Fixpoint strip_slashes (r : str) : str :=
  match r with
  | c :: ((_ :: _) as t) => if c =? SLASH then strip_slashes t else r
  | _ => r
  end.
(** file.c:183-203 yasm__splitpath_unix: length of the head, and the tail *)
Definition splitpath (p : str) : Z * str :=
  match to_slash (rev p) with
  | None => (0, p)
  | Some r => (Z.of_nat (length (strip_slashes (strip_dots r))), skipn (length r) p)
  end.

(** * yasm__combpath_unix, file.c:284-367 *)
(** file.c:295-299, 310-314, 359-363: copy, dropping a slash followed by a slash *)
Fixpoint dedup (s : str) : str :=
  match s with
  | c :: ((d :: _) as t) => if (c =? SLASH) && (d =? SLASH) then dedup t else c :: dedup t
  | _ => s
  end.
(** file.c:332-333, 344-345 *)
Fixpoint skip_slashes (s : str) : str :=
  match s with c :: t => if c =? SLASH then skip_slashes t else s | [] => [] end.
(** file.c:348-352, on the reversed output: strip the trailing slash and the last directory *)
Fixpoint to_slash0 (r : str) : str :=
  match r with [] => [] | c :: t => if c =? SLASH then r else to_slash0 t end.
Definition pop (r : str) : str :=
  match r with _ :: ((_ :: _) as t) => to_slash0 t | _ => r end.
(** file.c:329-355; [r] is the output so far, reversed *)
Fixpoint walk (fuel : nat) (r to : str) : option (str * str) :=
  match fuel with
  | O => None
  | S f =>
      match to with
      | a :: b :: t =>
          if (a =? DOT) && (b =? SLASH) then walk f r (skip_slashes t)
          else match r with
               | [] => Some (r, to)
               | _ =>
                 match t with
                 | c :: t' =>
                     if (a =? DOT) && (b =? DOT) && (c =? SLASH) then
                       match r with
                       | x :: y :: z :: _ =>
                           if (x =? SLASH) && (y =? DOT) && (z =? DOT) then Some (r, to)
                           else walk f (pop r) (skip_slashes t')
                       | _ => walk f (pop r) (skip_slashes t')
                       end
                     else Some (r, to)
                 | [] => Some (r, to)
                 end
               end
      | _ => Some (r, to)
      end
  end.
(** file.c:284-367 yasm__combpath_unix *)
Definition combpath (from to : str) : option str :=
  match to with
  | a :: _ => if a =? SLASH then Some (dedup to) else
      let head := dedup (firstn (Z.to_nat (fst (splitpath from))) from) in
      let r := match rev head with [] => [] | c :: _ => if c =? SLASH then rev head else SLASH :: rev head end in
      match walk (S (length to)) r to with Some (r', to') => Some (rev r' ++ dedup to') | None => None end
  | [] =>
      let head := dedup (firstn (Z.to_nat (fst (splitpath from))) from) in
      Some (match rev head with [] => [] | c :: _ => if c =? SLASH then head else head ++ [SLASH] end)
  end.
(** file.c:293, 307: bytes allocated for the result *)
Definition comb_alloc (from to : str) : Z :=
  match to with
  | a :: _ => if a =? SLASH then Z.of_nat (length to) + 1
              else fst (splitpath from) + Z.of_nat (length to) + 2
  | [] => fst (splitpath from) + Z.of_nat (length to) + 2
  end.

(** * yasm_fill_helper, file.c:76-116 *)
Definition BSIZE := 8192.
(** The buffer from bot: its bytes up to lim, and the offsets of the pointers from bot; [cap] is
    top - bot.  [alloc]: bot is not NULL. *)
Record scanner := Scan { alloc : bool; bytes : list Z; tok : Z; ptr : Z; cur : Z; cap : Z; eof : bool }.
(** file.c:55-65 yasm_scanner_initialize *)
Definition scan_init : scanner := Scan false [] 0 0 0 0 false.
(** [block] is what the input function stored (at most BSIZE bytes, none at end of input).
    Result: new state, whether this was the first fill, and the highest offset (from bot) one past
    what was written into the buffer.  file.c:76-116 yasm_fill_helper *)
Definition fill (s : scanner) (block : list Z) : scanner * bool * Z :=
  if eof s then (s, false, 0)
  else
    let cnt := tok s in
    let '(by_, t, p, c) :=
      if 0 <? cnt then (skipn (Z.to_nat cnt) (bytes s), 0, ptr s - cnt, cur s - cnt)
      else (bytes s, tok s, ptr s, cur s) in
    let first := negb (alloc s) in
    let lim := Z.of_nat (length by_) in
    let cap' := if cap s - lim <? BSIZE then lim + BSIZE else cap s in
    match block with
    | [] => (Scan true by_ t p c cap' true, first, lim + 1)
    | _ => (Scan true (by_ ++ block) t p c cap' false, first, lim + Z.of_nat (length block))
    end.
