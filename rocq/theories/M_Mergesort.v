(** Model of libyasm/mergesort.c (built when the C library has no mergesort): the hybrid
    natural merge sort with exponential search.
    Arrays are lists of elements; positions are element indices (byte offset / size).
    Simplified: the table of run ends, which the C code threads through the spare buffer, is the
    list of runs itself; so the overlap of pointers and elements in that buffer, alignment
    (EVAL) and the int/char copy variants are not modelled, nor the refusal of elements smaller
    than half a pointer. *)
From Coq Require Import ZArith List Bool.
Import ListNotations.
Open Scope Z_scope.

Section Sort.
Variable A : Type.
(** The caller's comparison function. *)
Variable cmp : A -> A -> Z.

(** mergesort.c:346-360 insertionsort, inner loop: [acc] is the sorted prefix, last element
    first; [x] moves towards the front past every element greater than it *)
Fixpoint ins (x : A) (acc : list A) : list A :=
  match acc with
  | [] => [x]
  | u :: rest => if cmp u x <=? 0 then x :: acc else u :: ins x rest
  end.
(** mergesort.c:346-360 insertionsort *)
Definition insertionsort (l : list A) : list A := rev (fold_left (fun acc x => ins x acc) l []).

(** mergesort.c:303-307: the pairs from the front with the given sense *)
Fixpoint same_sense (sense : bool) (l : list (A * A)) : list (A * A) * list (A * A) :=
  match l with
  | (x, y) :: t => if Bool.eqb (0 <? cmp x y) sense
                   then let (b, r) := same_sense sense t in ((x, y) :: b, r) else ([], l)
  | [] => ([], [])
  end.
(** mergesort.c:309-313: every pair becomes a run *)
Definition pairwise (sense : bool) (b : list (A * A)) : list (list A) :=
  map (fun p => if sense then [snd p; fst p] else [fst p; snd p]) b.
(** mergesort.c:315-325: [cur] is the current run, last element first.  Completed runs and the
    unfinished last one. *)
Definition close (sense : bool) (cur : list A) : list A := if sense then cur else rev cur.
Fixpoint natural (sense : bool) (cur : list A) (b : list (A * A)) : list (list A) * list A :=
  match b with
  | [] => ([], close sense cur)
  | (x, y) :: t =>
      let same := match cur with u :: _ => Bool.eqb (0 <? cmp u x) sense | [] => true end in
      if same then natural sense (y :: x :: cur) t
      else let (rs, c) := natural sense [y; x] t in (close sense cur :: rs, c)
  end.

Definition THRESHOLD := 16.
(** mergesort.c:300-332: the NATURAL loop.  [tail] is the sorted end of the array; result: all
    runs of the array. *)
Fixpoint runs (fuel : nat) (sense : bool) (l : list (A * A)) (tail : list A) : option (list (list A)) :=
  match l with
  | [] => Some [tail]
  | p :: t =>
    match fuel with
    | O => None
    | S f =>
      let (b, rest) := same_sense sense t in
      if 2 * Z.of_nat (length (p :: b)) <? THRESHOLD then
        option_map (app (pairwise sense (p :: b))) (runs f (negb sense) rest tail)
      else
        let (rs, c) := natural sense [snd p; fst p] b in
        match rest with
        | _ :: _ => option_map (fun r => rs ++ c :: r) (runs f (negb sense) rest tail)
        | [] =>
            match rev c, tail with
            | u :: _, v :: _ => if 0 <? cmp u v then Some (rs ++ [c; tail]) else Some (rs ++ [c ++ tail])
            | _, _ => None
            end
        end
    end
  end.

Fixpoint pairs (l : list A) : list (A * A) :=
  match l with x :: y :: t => (x, y) :: pairs t | _ => [] end.

(** mergesort.c:271-340 setup *)
Definition setup (l : list A) : option (list (list A)) :=
  let n := length l in
  if Nat.leb n 5 then Some [insertionsort l]
  else
    let i := (if Nat.even n then 4 else 5)%nat in
    let head := pairs (firstn (n - i) l) in
    let tail := insertionsort (skipn (n - i) l) in
    match head with
    | (x, y) :: _ => runs (length head) (0 <? cmp x y) head tail
    | [] => None
    end.

(** * Merging: mergesort.c:150-216.  [l] is the part of one run from [b] (index 0) to [t]
    (its length); [pred x] is cmp(q, x) > sense. *)
Section Gallop.
Variable pred : A -> bool.
Variable l : list A.
Definition at_ (p : nat) : bool := match nth_error l p with Some x => pred x | None => false end.

(** mergesort.c:161-165; [inr b]: go to EXPONENTIAL *)
Fixpoint small (fuel : nat) (b i : nat) : option (nat + nat) :=
  match fuel with
  | O => None
  | S f =>
      let b' := S b in
      if Nat.ltb b' (length l) && at_ b' then
        (if Nat.eqb (S i) 6 then Some (inr b') else small f b' (S i))
      else Some (inl b')
  end.
(** mergesort.c:182-188 *)
Fixpoint bin (fuel : nat) (b t : nat) : option nat :=
  match fuel with
  | O => None
  | S f =>
      if Nat.ltb (b + 1) t then
        let p := (b + Nat.div (t - b) 2)%nat in
        if at_ p then bin f p t else bin f b p
      else Some t
  end.
(** mergesort.c:190-195 FASTCASE *)
Fixpoint fast (fuel : nat) (b t i : nat) : option nat :=
  match fuel with
  | O => None
  | S f =>
      if Nat.ltb 1 i then
        let i' := Nat.div i 2 in
        let p := (b + i')%nat in
        if at_ p then fast f p t i' else fast f b p i'
      else Some t
  end.
(** mergesort.c:167-181 EXPONENTIAL; result: boundary and the new value of [big] *)
Fixpoint expo (fuel : nat) (b t i : nat) : option (nat * bool) :=
  match fuel with
  | O => None
  | S f =>
      let p := (b + i)%nat in
      if Nat.leb t p then
        let p := (t - 1)%nat in
        option_map (fun k => (k, true))
          (if Nat.ltb b p && negb (at_ p) then bin f b p else bin f p t)
      else if at_ p then expo f p t (i + i)
      else option_map (fun k => (k, negb (Nat.eqb i 1))) (fast f b p i)
  end.
(** mergesort.c:160-197: how many elements to copy *)
Definition gallop (big : bool) : option (nat * bool) :=
  let fuel := S (S (length l)) in
  if big then expo fuel 0 (length l) 1
  else match small fuel 0 0 with
       | Some (inl k) => Some (k, false)
       | Some (inr b) => expo fuel b (length l) 1
       | None => None
       end.
End Gallop.

(** mergesort.c:150-227: one merge of two adjacent runs *)
Fixpoint merge (fuel : nat) (big : bool) (f1 f2 : list A) : option (list A * bool) :=
  match f1, f2 with
  | x :: t1, y :: t2 =>
      match fuel with
      | O => None
      | S f =>
        if cmp x y <=? 0 then
          match gallop (fun b => -1 <? cmp y b) f1 big with
          | Some (k, big') =>
              option_map (fun r => (firstn k f1 ++ y :: fst r, snd r)) (merge f big' (skipn k f1) t2)
          | None => None
          end
        else
          match gallop (fun b => 0 <? cmp x b) f2 big with
          | Some (k, big') =>
              option_map (fun r => (firstn k f2 ++ x :: fst r, snd r)) (merge f big' t1 (skipn k f2))
          | None => None
          end
      end
  | [], _ => Some (f2, big)
  | _, [] => Some (f1, big)
  end.

(** mergesort.c:141-229: one pass over the runs *)
Fixpoint pass (big : bool) (rs : list (list A)) : option (list (list A) * bool) :=
  match rs with
  | r1 :: r2 :: rest =>
      match merge (length r1 + length r2) big r1 r2 with
      | Some (r, big') => option_map (fun p => (r :: fst p, snd p)) (pass big' rest)
      | None => None
      end
  | _ => Some (rs, big)
  end.
(** mergesort.c:140-234: until one run is left *)
Fixpoint passes (fuel : nat) (big : bool) (rs : list (list A)) : option (list A) :=
  match rs with
  | [] => None
  | [r] => Some r
  | _ => match fuel with
         | O => None
         | S f => match pass big rs with Some (rs', big') => passes f big' rs' | None => None end
         end
  end.
(** mergesort.c:101-242 yasm__mergesort *)
Definition mergesort (l : list A) : option (list A) :=
  match l with
  | [] => Some []
  | _ => match setup l with Some rs => passes (length rs) false rs | None => None end
  end.
End Sort.
