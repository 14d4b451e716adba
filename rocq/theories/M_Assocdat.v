(** Model of libyasm/assocdat.c: data attached to an object under callback keys.
    Keys (callback pointers) and data pointers are numbers; data 0 is NULL.  The vector is a
    list; its doubling growth is not modelled.  Calls of the destroy callbacks are recorded. *)
From Coq Require Import ZArith List Bool.
Import ListNotations.
Open Scope Z_scope.

(** assocdat.c:33-42; [None] is the NULL pointer *)
Definition assoc_data := option (list (Z * Z)).

(** assocdat.c:58-72 yasm__assoc_data_get *)
Fixpoint find (l : list (Z * Z)) (k : Z) : Z :=
  match l with
  | [] => 0
  | (k', d) :: t => if k' =? k then d else find t k
  end.
Definition get (a : assoc_data) (k : Z) : Z :=
  match a with None => 0 | Some l => find l k end.

(** assocdat.c:88-114: replace the first entry of the key or append one; [d0] is the data the
    entry had (0 for a new one); result also lists the destroy calls *)
Fixpoint put (l : list (Z * Z)) (k d : Z) : list (Z * Z) * list (Z * Z) :=
  match l with
  | [] => ([(k, d)], [])
  | (k', d0) :: t =>
      if k' =? k then ((k', d) :: t, if negb (d0 =? 0) && negb (d0 =? d) then [(k', d0)] else [])
      else let (t', x) := put t k d in ((k', d0) :: t', x)
  end.
(** assocdat.c:74-117 yasm__assoc_data_add *)
Definition add (a : assoc_data) (k d : Z) : assoc_data * list (Z * Z) :=
  let (l, x) := put (match a with Some l => l | None => [] end) k d in (Some l, x).
(** assocdat.c:119-131 yasm__assoc_data_destroy: the destroy calls *)
Definition destroy (a : assoc_data) : list (Z * Z) :=
  match a with Some l => l | None => [] end.

(** A history of additions: final object and all destroy calls made so far *)
Fixpoint run (a : assoc_data) (ops : list (Z * Z)) : assoc_data * list (Z * Z) :=
  match ops with
  | [] => (a, [])
  | (k, d) :: t => let (a1, x) := add a k d in let (a2, y) := run a1 t in (a2, x ++ y)
  end.
