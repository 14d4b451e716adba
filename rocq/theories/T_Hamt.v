(** Property theorems for libyasm/hamt.c: C09, C10, C11. *)
From Coq Require Import ZArith List Bool.
From Verif Require Import Lib M_Hamt P_HamtBits P_Hamt P_HamtDiverge.
Import ListNotations.
Open Scope Z_scope.

(** C09.  Whatever the history of (returning) calls, on a case-sensitive or insensitive table,
    a search returns the data that the history alone determines for that name. *)
Theorem C09_search_returns_stored_value : forall fuel nc ops h xs s,
  run fuel nc ops = Some (h, xs) -> search nc h s = value_of nc ops s.
Proof. exact search_history. Qed.
Print Assumptions C09_search_returns_stored_value.

(** C09.  Every call's results -- data returned by insert, the replace flag given back, what is
    passed to the delete function, data returned by search -- are those of a plain ordered
    association list. *)
Theorem C09_refines_association_list : forall fuel nc ops h xs,
  run fuel nc ops = Some (h, xs) -> spec_run nc [] ops (entries h) xs.
Proof. exact run_refines. Qed.
Print Assumptions C09_refines_association_list.

(** C10.  Traversal calls back once per distinct name, in order of first insertion, with the
    data the history determines for it, until a nonzero answer. *)
Theorem C10_traversal_in_first_insertion_order : forall fuel nc ops h xs,
  run fuel nc ops = Some (h, xs) ->
  exists ds : list Z, map (@Some Z) ds = map (value_of nc ops) (firsts nc [] ops) /\
    forall S (func : Z -> S -> S * Z) st, visits func ds st (traverse h func st).
Proof. exact traverse_history. Qed.
Print Assumptions C10_traversal_in_first_insertion_order.

(** C11 (what holds).  A history returns as soon as every two different names in it are told
    apart by one of the five-bit hash digits up to some level. *)
Theorem C11_insert_returns_if_hashes_differ : forall nc B ops,
  (forall s t, In s (inserted ops) -> In t (inserted ops) -> same_name nc s t \/
     exists D, (D <= B)%nat /\ digit nc s D <> digit nc t D) ->
  exists x, run (S B) nc ops = Some x.
Proof. exact run_terminates. Qed.
Print Assumptions C11_insert_returns_if_hashes_differ.

(** C11.  There are two different names (291 letters each) such that inserting the second into
    a table holding the first never returns, however long it runs. *)
Theorem C11_insert_always_returns_refuted : exists s t : str, s <> t /\
  length s = 291%nat /\ length t = 291%nat /\ forallb (fun c => (c =? 97) || (c =? 98)) (s ++ t) = true /\
  forall nc fuel d1 d2 r1 r2, run fuel nc [OIns s d1 r1; OIns t d2 r2] = None.
Proof.
  exists name1, name2. split; [exact names_differ|]. split; [reflexivity|]. split; [reflexivity|].
  split; [vm_compute; reflexivity|]. exact diverges.
Qed.
Print Assumptions C11_insert_always_returns_refuted.

(** Non-vacuity: "foo","bar","FOO" and replacement, both case modes; 40 names sharing a slot. *)
Definition demo : list op :=
  [OIns [102;111;111] 1 false; OIns [98;97;114] 2 false; OIns [70;79;79] 3 true;
   OFind [102;111;111]; OIns [98;97;114] 4 false; OFind [98;97;114]; OFind [113]].
Example C09_example_sensitive :
  option_map snd (run 50 false demo) = Some
   [RIns (IRes 1 true []); RIns (IRes 2 true []); RIns (IRes 3 true []); RFind (Some 1);
    RIns (IRes 2 false [4]); RFind (Some 2); RFind None].
Proof. vm_compute. reflexivity. Qed.
Example C09_example_nocase :
  option_map snd (run 50 true demo) = Some
   [RIns (IRes 1 true []); RIns (IRes 2 true []); RIns (IRes 3 true [1]); RFind (Some 3);
    RIns (IRes 2 false [4]); RFind (Some 2); RFind None].
Proof. vm_compute. reflexivity. Qed.
Example C10_example :
  firsts true [] demo = [[102;111;111]; [98;97;114]] /\ map (value_of true demo) (firsts true [] demo) = [Some 3; Some 2].
Proof. vm_compute. split; reflexivity. Qed.
(** Many names, so that subtries of several levels with several children arise. *)
Definition many : list op := map (fun i => OIns [97 + Z.of_nat i mod 7; 97 + Z.of_nat i / 7; 65] (Z.of_nat i) false) (seq 0 40).
Example C09_example_many :
  match run 50 false many with
  | Some (h, _) => forallb (fun o => match o with OIns s d _ => match search false h s with Some v => v =? d | None => false end | _ => true end) many
  | None => false end = true.
Proof. vm_compute. reflexivity. Qed.
(** Two names whose digits first differ at level 1. *)
Example C11_example : digit false [97] 0 = digit false [97 + 32] 0 /\ digit false [97] 1 <> digit false [97 + 32] 1.
Proof. vm_compute. split; [reflexivity|discriminate]. Qed.
