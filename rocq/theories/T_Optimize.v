(** The size optimizer: the theorems (C28, C29). *)
From Coq Require Import ZArith List Bool Lia.
From Verif Require Import Lib M_Inttree M_Optimize P_Optimize P_OptimizeLoop P_OptimizeMain P_OptimizeLeast P_OptimizeCheck P_OptimizeBad.
Import ListNotations.
Open Scope Z_scope.

(** C28: when the optimizer succeeds, the sizes it chose are a consistent layout. *)
Theorem C28_settled : forall fuel ss B0 B ds, wf ss B0 -> optimize fuel ss B0 = Done B ds -> exists ks, settled ss B0 B ks.
Proof. exact optimize_settles. Qed.
Print Assumptions C28_settled.
(** It ends, with success or an error, if nothing is counted and no size shrinks. *)
Theorem C28_terminates : forall fuel ss B0, wf ss B0 ->
  (forall s f, In s ss -> In f (forms s) -> 0 <= grow f) ->
  (forall i f n m, setter (bc B0 i) = Some f -> f n = Some m -> 0 <= m) ->
  (forall i, 0 <= bmult (bc B0 i)) -> (forall s, In s ss -> any s = false) ->
  (forall i, (i < length B0)%nat -> setter (bc B0 i) = None -> 0 <= blen (bc B0 i)) ->
  (S (list_sum (map (fun s => length (forms s)) ss) * S (length ss) + length ss) <= fuel)%nat ->
  (exists B ds, optimize fuel ss B0 = Done B ds) \/ optimize fuel ss B0 = Error.
Proof. exact optimize_ends. Qed.
Print Assumptions C28_terminates.
(** With counts that depend on each other in a cycle of three, it runs for ever. *)
Theorem C28_refuted : exists ss B0, wf ss B0 /\ forall fuel, optimize fuel ss B0 = OutOfFuel.
Proof. exact cycle_refuted. Qed.
Print Assumptions C28_refuted.

(** C29: for distances, no layout has any smaller size. *)
Theorem C29_least : forall fuel ss B0 B ds, wf ss B0 -> distances ss B0 -> optimize fuel ss B0 = Done B ds ->
  exists ks, settled ss B0 B ks /\ forall B' ks', settled ss B0 B' ks' ->
    (forall k, (k < length ss)%nat -> (nth k ks O <= nth k ks' O)%nat) /\ (forall i, (i < length B0)%nat -> blen (bc B i) <= blen (bc B' i)).
Proof. exact optimize_least. Qed.
Print Assumptions C29_least.
(** If there is a layout at all, it finds one. *)
Theorem C29_complete : forall fuel ss B0 B' ks, wf ss B0 -> distances ss B0 -> settled ss B0 B' ks ->
  (S (list_sum (map (fun s => length (forms s)) ss) * S (length ss) + length ss) <= fuel)%nat -> exists B ds, optimize fuel ss B0 = Done B ds.
Proof. exact optimize_complete. Qed.
Print Assumptions C29_complete.
(** Not so across an alignment: jumps that meet every other condition, of which one is made long
    although there is a layout in which it is short and no other is longer. *)
Theorem C29_refuted : exists ss B0 B ds B' ks', wf ss B0 /\ optimize 100 ss B0 = Done B ds /\ settled ss B0 B' ks' /\
  (forall i, setter (bc B0 i) = None -> blen (bc B' i) <= blen (bc B i)) /\ (exists i, setter (bc B0 i) = None /\ blen (bc B' i) < blen (bc B i)).
Proof. exact align_refuted. Qed.
Print Assumptions C29_refuted.

(** A program with a forward jump that needs its long form only because the jump inside it does,
    an alignment and a count; the second section has a backward jump. *)
Definition ex_b := [plain 0; plain 2; plain 2; align 16; plain 120; BC 0 0 1 0 None; plain 200; BC 1 0 0 1 None; BC 1 0 126 1 None; BC 1 0 2 1 None].
Definition ex_s := [jmp 1 4; jmp 2 6; Span 5 true [Diff 2 4] (Some (fun l => 200 - hd 0 l)) 0 0 []; jmp 9 7].
Example ex_wf : wf ex_s ex_b.
Proof. apply wfb_ok. reflexivity. Qed.
Example ex_run : match optimize 100 ex_s ex_b with Done B _ => map (fun b => (boff b, blen b * bmult b)) B | _ => [] end =
  [(0, 0); (0, 5); (5, 5); (10, 6); (16, 120); (136, 74); (210, 200); (0, 0); (0, 126); (126, 2)].
Proof. reflexivity. Qed.
(** Two forward jumps, the first over the second, and a backward one. *)
Definition ex_j := [plain 0; plain 2; plain 2; plain 122; plain 2; plain 500; plain 2].
Definition ex_js := [jmp 1 4; jmp 2 5; jmp 4 1].
Example ex_dist : wf ex_js ex_j /\ distances ex_js ex_j.
Proof.
  split; [apply wfb_ok; reflexivity|]. constructor.
  - intros s [<-|[<-|[<-|[]]]]; reflexivity.
  - intro i. do 8 (destruct i as [|i]; [reflexivity|]). destruct i; reflexivity.
  - intro i. do 8 (destruct i as [|i]; [cbn; lia|]). destruct i; cbn; lia.
  - intros s f [<-|[<-|[<-|[]]]] [<-|[]]; cbn; lia.
  - intros s [<-|[<-|[<-|[]]]]; eexists; eexists; (split; [reflexivity|]; split; [reflexivity|]; split; [cbn; auto|]);
      intros [|[|[|k]]] l h E; try discriminate E; injection E as <- <-; cbn; lia.
Qed.
Example ex_dist_run : match optimize 100 ex_js ex_j with Done B _ => map (fun b => (boff b, blen b)) B | _ => [] end =
  [(0, 0); (0, 5); (5, 5); (10, 122); (132, 5); (137, 500); (637, 2)].
Proof. reflexivity. Qed.
