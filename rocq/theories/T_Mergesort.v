(** Property theorem for libyasm/mergesort.c: C17. *)
From Coq Require Import ZArith List Bool Permutation Lia.
From Verif Require Import M_Mergesort P_Mergesort.
Import ListNotations.
Open Scope Z_scope.

(** C17.  For every array and every three-way comparison that is a total preorder, the sort
    returns; the result is a permutation of the input, in order, and the elements equal to any
    given one appear in their original order. *)
Theorem C17_sorts_stably : forall A (cmp : A -> A -> Z), preorder cmp ->
  forall l, exists r, mergesort A cmp l = Some r /\
    Permutation l r /\ ordered cmp r /\ forall x, equals cmp x r = equals cmp x l.
Proof. exact mergesort_ok. Qed.
Print Assumptions C17_sorts_stably.

(** Keys with tags; the comparison looks at the key only. *)
Definition key_cmp (a b : Z * Z) : Z := fst a - fst b.
Lemma key_cmp_preorder : preorder key_cmp.
Proof.
  unfold key_cmp. split; intros.
  - rewrite <- Z.sgn_opp. f_equal. ring.
  - lia.
Qed.
(** 27 elements: a natural descending block, pairs, an ascending block; exercises the
    exponential search. *)
Definition sample : list (Z * Z) :=
  map (fun k => (k, 0)) [20;19;18;17;16;15;14;13;12;11;10;9;8;7;6;5;4;3] ++ map (fun k => (k, 1)) [3;5;4;20;20;1;21;7;7].
Example C17_example :
  mergesort _ key_cmp sample = Some (map (fun p => (fst p, snd p))
   [(1,1);(3,0);(3,1);(4,0);(4,1);(5,0);(5,1);(6,0);(7,0);(7,1);(7,1);(8,0);(9,0);(10,0);(11,0);(12,0);(13,0);(14,0);
    (15,0);(16,0);(17,0);(18,0);(19,0);(20,0);(20,1);(20,1);(21,1)]) /\
  equals key_cmp (20, 5) sample = [(20,0);(20,1);(20,1)].
Proof. vm_compute. auto. Qed.
