(** Model of libyasm/hamt.c (hash array mapped trie used for the symbol table) and of the
    bit-counting macro of util.h it uses.

    Not modelled: memory management of nodes (an array of children is a list; reading outside
    it is the explicit outcome [None]), HAMT_destroy / HAMT_delete_trie, the entry iterators
    HAMT_first / HAMT_next / HAMTEntry_get_data (they walk the list that [traverse] walks) and
    the misalignment self-checks.  Names are lists of character codes without the terminating
    NUL; data pointers are integers.  `level` is a C int; it is a nat here (it would overflow
    only below 2^31 nested nodes). *)
From Coq Require Import ZArith List Bool.
From Verif Require Import Lib.
Import ListNotations.
Open Scope Z_scope.

Definition str := list Z.

(** ** util.h:131-141 *)
(** util.h:132 BC_TWO(c) = 1ul << c *)
Definition bc_two (c : Z) : Z := Z.shiftl 1 c.
(** util.h:133 BC_MSK(c) = ULONG_MAX / (BC_TWO(BC_TWO(c)) + 1) *)
Definition bc_msk (c : Z) : Z := (w64 - 1) / (bc_two (bc_two c) + 1).
(** util.h:134 BC_COUNT *)
Definition bc_count (x c : Z) : Z :=
  u64 (Z.land x (bc_msk c) + Z.land (Z.shiftr x (bc_two c)) (bc_msk c)).
(** util.h:135-141 BitCount *)
Definition bitcount (s : Z) : Z :=
  bc_count (bc_count (bc_count (bc_count (bc_count s 0) 1) 2) 3) 4.

(** ** Hash functions *)
(** hamt.c:80-87 HashKey, 89-96 ReHashKey: the loop over the characters; HashKey is the
    multiplier-1 case.  Character codes are the values of a (signed) char. *)
Fixpoint hash_loop (L a v : Z) (s : str) : Z :=
  match s with
  | [] => v
  | c :: s' => hash_loop L (u64 (a * 27183)) (u64 (a * v * L + c)) s'
  end.
(** tolower() in the C locale *)
Definition lower (c : Z) : Z := if (65 <=? c) && (c <=? 90) then c + 32 else c.
(** hamt.c:98-114: the nocase variants hash tolower(c) *)
Definition canon (nocase : bool) (s : str) : str := if nocase then map lower s else s.
Definition HashKey (nc : bool) (s : str) : Z := hash_loop 1 31415 0 (canon nc s).
Definition ReHashKey (nc : bool) (s : str) (level : Z) : Z :=
  hash_loop (u64 level) 31415 0 (canon nc s).
(** hamt.c:131-139 CmpKey: strcmp or yasm__strcasecmp, equal-to-zero test only *)
Definition CmpEq (nc : bool) (a b : str) : bool :=
  if list_eq_dec Z.eq_dec (canon nc a) (canon nc b) then true else false.

(** ** Trie *)
(** hamt.c:44-66: a node is a value (BitMapKey = hash key, BaseValue = entry) or a subtrie
    (BitMapKey = bitmap, BaseValue = array of children).  Entries are referred to by their
    position in the entry list. *)
Inductive node :=
| Leaf (key : Z) (ent : nat)
| Sub (bm : Z) (ch : list node).

Record hamt := Hamt { entries : list (str * Z); root : list (option node) }.

(** hamt.c:116-143 HAMT_create *)
Definition create : hamt := Hamt [] (repeat None 32).

(** hamt.c:318-323, 402-407: advance to the next five bits, rehashing after bit 34 *)
Definition next_key (nc : bool) (s : str) (key kpb : Z) (level : nat) : Z * Z :=
  if 30 <? kpb + 5 then (ReHashKey nc s (Z.of_nat level), 0) else (key, kpb + 5).
(** (key >> keypartbits) & 0x1F *)
Definition kpart (key kpb : Z) : Z := Z.land (Z.shiftr key kpb) 31.
(** 1<<keypart is computed in (32-bit) int and sign-extended to unsigned long: hamt.c:285,
    325, 330, 409 *)
Definition bit_int (kp : Z) : Z := u64 (s32 (Z.shiftl 1 kp)).
(** ~((~0UL)<<keypart): hamt.c:340, 362, 413 *)
Definition below (kp : Z) : Z := w64 - 1 - u64 (Z.shiftl (w64 - 1) kp).
(** hamt.c:362-363 etc.: position in the child array *)
Definition mapidx (bm kp : Z) : nat := Z.to_nat (Z.land (bitcount (Z.land bm (below kp))) 31).

(** hamt.c:389-419: the loop of HAMT_search; [None] is NULL. *)
Fixpoint search_node (nc : bool) (E : list (str * Z)) (s : str) (n : node)
  : Z -> Z -> nat -> option nat :=
  match n with
  | Leaf k e => fun key kpb level =>
      match nth_error E e with
      | Some (s2, _) => if (k =? key) && CmpEq nc s2 s then Some e else None
      | None => None
      end
  | Sub bm ch => fun key kpb level =>
      let '(key', kpb') := next_key nc s key kpb level in
      let kp := kpart key' kpb' in
      if Z.land bm (bit_int kp) =? 0 then None
      else match nth_error (map (search_node nc E s) ch) (mapidx bm kp) with
           | Some f => f key' kpb' (S level)
           | None => None
           end
  end.

(** hamt.c:376-420 HAMT_search *)
Definition search (nc : bool) (h : hamt) (s : str) : option Z :=
  let key := HashKey nc s in
  match nth_error (root h) (Z.to_nat (Z.land key 31)) with
  | Some (Some n) =>
      match search_node nc (entries h) s n key 0 0 with
      | Some e => option_map snd (nth_error (entries h) e)
      | None => None
      end
  | _ => None
  end.

(** Result of descending: the stored entry was found, or a new one was linked in. *)
Inductive outcome := Found (e : nat) | Added.

(** hamt.c:264-307: build tree downward until keys differ.  [s2], [e2], [key2] are the name,
    entry and key of the value node being split; [enew] is the entry of the new name.  The C
    loop has no bound: running out of [fuel] is [None]. *)
Fixpoint build (fuel : nat) (nc : bool) (s s2 : str) (e2 enew : nat) (key key2 kpb : Z)
  (level : nat) : option node :=
  match fuel with
  | O => None
  | S f =>
      let '(key', kpb') := next_key nc s key kpb level in
      let '(key2', _) := next_key nc s2 key2 kpb level in
      let kp := kpart key' kpb' in
      let kp2 := kpart key2' kpb' in
      if kp =? kp2 then
        match build f nc s s2 e2 enew key' key2' kpb' (S level) with
        | Some n => Some (Sub (bit_int kp) [n])
        | None => None
        end
      else
        Some (Sub (Z.lor (Z.shiftl 1 kp) (Z.shiftl 1 kp2))
                  (if kp2 <? kp then [Leaf key2' e2; Leaf key' enew]
                   else [Leaf key' enew; Leaf key2' e2]))
  end.

Fixpoint upd {A} (l : list A) (i : nat) (x : A) : list A :=
  match l, i with
  | [], _ => []
  | _ :: l', O => x :: l'
  | y :: l', S i' => y :: upd l' i' x
  end.

(** hamt.c:335-357: the child array with a gap for the new node *)
Definition insert_at {A} (l : list A) (i : nat) (x : A) : list A := firstn i l ++ x :: skipn i l.

(** hamt.c:248-370: the loop of HAMT_insert *)
Fixpoint insert_node (fuel : nat) (nc : bool) (E : list (str * Z)) (s : str) (n : node)
  : Z -> Z -> nat -> option (node * outcome) :=
  match n with
  | Leaf k e => fun key kpb level =>
      match nth_error E e with
      | Some (s2, _) =>
          if (k =? key) && CmpEq nc s2 s then Some (n, Found e)
          else match build fuel nc s s2 e (length E) key k kpb level with
               | Some n' => Some (n', Added)
               | None => None
               end
      | None => None
      end
  | Sub bm ch => fun key kpb level =>
      let '(key', kpb') := next_key nc s key kpb level in
      let kp := kpart key' kpb' in
      if Z.land bm (bit_int kp) =? 0 then
        let bm' := Z.lor bm (bit_int kp) in
        Some (Sub bm' (insert_at ch (mapidx bm' kp) (Leaf key' (length E))), Added)
      else
        match nth_error (map (insert_node fuel nc E s) ch) (mapidx bm kp) with
        | Some f =>
            match f key' kpb' (S level) with
            | Some (c, o) => Some (Sub bm (upd ch (mapidx bm kp) c), o)
            | None => None
            end
        | None => None
        end
  end.

(** What HAMT_insert gives back: returned data, the new value of *replace, and the data
    passed to deletefunc. *)
Record ires := IRes { r_data : Z; r_replace : bool; r_deleted : list Z }.

(** hamt.c:218-373 HAMT_insert *)
Definition insert (fuel : nat) (nc : bool) (h : hamt) (s : str) (data : Z) (replace : bool)
  : option (hamt * ires) :=
  let key := HashKey nc s in
  let slot := Z.to_nat (Z.land key 31) in
  let E := entries h in
  match nth_error (root h) slot with
  | None => None
  | Some None =>
      Some (Hamt (E ++ [(s, data)]) (upd (root h) slot (Some (Leaf key (length E)))),
            IRes data true [])
  | Some (Some n) =>
      match insert_node fuel nc E s n key 0 0 with
      | None => None
      | Some (n', Added) =>
          Some (Hamt (E ++ [(s, data)]) (upd (root h) slot (Some n')), IRes data true [])
      | Some (n', Found e) =>
          match nth_error E e with
          | None => None
          | Some (_, old) =>
              if replace then
                Some (Hamt (upd E e (s, data)) (upd (root h) slot (Some n')),
                      IRes data replace [old])
              else
                Some (Hamt E (upd (root h) slot (Some n')), IRes old replace [data])
          end
      end
  end.

(** hamt.c:185-197 HAMT_traverse: the callback threads a state; stops at a nonzero result. *)
Fixpoint traverse_loop {S} (func : Z -> S -> S * Z) (l : list (str * Z)) (st : S) : S * Z :=
  match l with
  | [] => (st, 0)
  | (_, d) :: l' =>
      let '(st', rv) := func d st in
      if rv =? 0 then traverse_loop func l' st' else (st', rv)
  end.
Definition traverse {S} (h : hamt) (func : Z -> S -> S * Z) (st : S) : S * Z :=
  traverse_loop func (entries h) st.

(** Histories of API calls. *)
Inductive op := OIns (s : str) (data : Z) (replace : bool) | OFind (s : str).
Inductive out := RIns (r : ires) | RFind (r : option Z).
Definition step (fuel : nat) (nc : bool) (h : hamt) (o : op) : option (hamt * out) :=
  match o with
  | OIns s d r => match insert fuel nc h s d r with Some (h', x) => Some (h', RIns x) | None => None end
  | OFind s => Some (h, RFind (search nc h s))
  end.
Fixpoint run_from (fuel : nat) (nc : bool) (h : hamt) (ops : list op) : option (hamt * list out) :=
  match ops with
  | [] => Some (h, [])
  | o :: ops' =>
      match step fuel nc h o with
      | None => None
      | Some (h', x) =>
          match run_from fuel nc h' ops' with
          | None => None
          | Some (h'', xs) => Some (h'', x :: xs)
          end
      end
  end.
Definition run (fuel : nat) (nc : bool) (ops : list op) := run_from fuel nc create ops.
