(** Interval trees: the theorems (C15, C16). *)
From Coq Require Import ZArith List Bool Permutation Lia.
From Verif Require Import Lib M_Inttree P_Inttree.
Import ListNotations.
Open Scope Z_scope.

(** C15: a query reports exactly the inserted intervals that share a point with it, each as often
    as it was inserted. *)
Theorem C15_enumerate : forall ops low high, Forall interval ops -> int32 low -> int32 high -> low <= high ->
  exists t out, build Nil ops = Some t /\ enumerate t low high = Some out /\ Permutation out (filter (hits low high) ops).
Proof. exact enumerate_ok. Qed.
Print Assumptions C15_enumerate.
Theorem C15_members : forall ops low high, Forall interval ops -> int32 low -> int32 high -> low <= high ->
  exists t out, build Nil ops = Some t /\ enumerate t low high = Some out /\ (length out = length (filter (hits low high) ops))%nat /\
    forall l h d, In (l, h, d) out <-> In (l, h, d) ops /\ meets low high l h.
Proof. exact enumerate_in. Qed.
Print Assumptions C15_members.
(** The loop ends for every tree and query. *)
Theorem C15_terminates : forall t low high, exists out, enumerate t low high = Some out.
Proof. exact enumerate_total. Qed.
Print Assumptions C15_terminates.
(** The three limits: ends given in the wrong order, ends that do not fit an int, and a query from
    the least long. *)
Theorem C15_refuted :
  (exists ops low high t out, build Nil ops = Some t /\ enumerate t low high = Some out /\ low <= high /\ (forall l h d, In (l, h, d) ops -> int32 l /\ int32 h) /\
     exists l h d, In (l, h, d) ops /\ meets low high h l /\ ~ In d (map snd out)) /\
  (exists ops low high t out, build Nil ops = Some t /\ enumerate t low high = Some out /\ low <= high /\ (forall l h d, In (l, h, d) ops -> l <= h) /\
     exists l h d, In (l, h, d) out /\ ~ meets low high l h) /\
  (exists ops high t out, build Nil ops = Some t /\ enumerate t LONG_MIN high = Some out /\ LONG_MIN <= high /\ Forall interval ops /\
     exists l h d, In (l, h, d) ops /\ meets LONG_MIN high l h /\ ~ In (l, h, d) out).
Proof. exact enumerate_refuted. Qed.
Print Assumptions C15_refuted.
(** C16: any sequence of insertions succeeds and leaves a red-black tree, whose height is at most
    twice the binary logarithm of the number of intervals plus one. *)
Theorem C16_balanced : forall ops, exists t n, build Nil ops = Some t /\ rb false n t /\ size t = length ops /\
  (2 ^ height t <= (length ops + 1) * (length ops + 1))%nat.
Proof. exact balanced. Qed.
Print Assumptions C16_balanced.

(** Seven nested and overlapping intervals; the query 7..9 meets four of them. *)
Definition seven : list (Z * Z * Z) := [(1, 3, 10); (2, 8, 20); (4, 6, 30); (5, 20, 40); (9, 9, 50); (10, 12, 60); (7, 7, 70)].
Example C15_ex : Forall interval seven /\ option_map (fun t => enumerate t 7 9) (build Nil seven) = Some (Some [(2, 8, 20); (5, 20, 40); (9, 9, 50); (7, 7, 70)]).
Proof. split; [repeat constructor; cbn; lia|vm_compute; reflexivity]. Qed.
(** A hundred ascending intervals: the height stays at 11. *)
Example C16_ex : option_map height (build Nil (map (fun i => (Z.of_nat i, Z.of_nat i, 0)) (seq 0 100))) = Some 11%nat.
Proof. vm_compute. reflexivity. Qed.
