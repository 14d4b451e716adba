(** Property theorems for libyasm/assocdat.c: C47. *)
From Coq Require Import ZArith List Bool Permutation.
From Verif Require Import M_Assocdat P_Assocdat.
Import ListNotations.
Open Scope Z_scope.

(** C47.  After any history of additions, each key yields the data most recently attached under
    it (NULL if none). *)
Theorem C47_get_latest : forall ops k, get (fst (run None ops)) k = latest ops k.
Proof. exact latest_ok. Qed.
Print Assumptions C47_get_latest.

(** C47.  The destroy calls made by the additions are exactly the non-NULL data superseded by
    a different pointer under their key, in order. *)
Theorem C47_superseded_destroyed : forall ops, snd (run None ops) = superseded (fun _ => 0) ops.
Proof. exact destroyed_ok. Qed.
Print Assumptions C47_superseded_destroyed.

(** C47.  If the attached pointers are non-NULL and distinct, then over the object's life
    including its destruction every one of them is destroyed exactly once, by its own key. *)
Theorem C47_destroyed_exactly_once : forall ops,
  Forall (fun p => snd p <> 0) ops -> NoDup (map snd ops) ->
  Permutation (snd (run None ops) ++ destroy (fst (run None ops))) ops.
Proof. exact all_destroyed_once. Qed.
Print Assumptions C47_destroyed_exactly_once.

Example C47_example :
  let ops := [(1, 10); (2, 20); (1, 11); (3, 30); (1, 12)] in
  Forall (fun p => snd p <> 0) ops /\ NoDup (map snd ops) /\
  run None ops = (Some [(1, 12); (2, 20); (3, 30)], [(1, 10); (1, 11)]) /\ latest ops 1 = 12.
Proof.
  simpl. split; [repeat constructor; discriminate|]. split; [|split; reflexivity].
  repeat constructor; simpl; intros X; repeat destruct X as [X|X]; try discriminate; auto.
Qed.
