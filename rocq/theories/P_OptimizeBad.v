(** The size optimizer: programs that it does not end for, or not with the smallest layout (C28, C29). *)
From Coq Require Import ZArith List Bool Lia Arith.
From Verif Require Import Lib M_Inttree M_Optimize P_Optimize P_OptimizeLoop P_OptimizeMain P_OptimizeCheck.
Import ListNotations.
Open Scope Z_scope.

Lemma optimize_settles : forall fuel ss B0 B ds, wf ss B0 -> optimize fuel ss B0 = Done B ds -> exists ks, settled ss B0 B ks.
Proof. intros fuel ss B0 B ds W D. eexists. exact (optimize_settled fuel ss B0 B ds W D). Qed.
Lemma optimize_ends : forall fuel ss B0, wf ss B0 ->
  (forall s f, In s ss -> In f (forms s) -> 0 <= grow f) ->
  (forall i f n m, setter (bc B0 i) = Some f -> f n = Some m -> 0 <= m) ->
  (forall i, 0 <= bmult (bc B0 i)) -> (forall s, In s ss -> any s = false) ->
  (forall i, (i < length B0)%nat -> setter (bc B0 i) = None -> 0 <= blen (bc B0 i)) ->
  (S (list_sum (map (fun s => length (forms s)) ss) * S (length ss) + length ss) <= fuel)%nat ->
  (exists B ds, optimize fuel ss B0 = Done B ds) \/ optimize fuel ss B0 = Error.
Proof. intros fuel ss B0 W H1 H2 H3 H4 H5 H6. apply optimize_terminates; auto. split; [exact H1|]. split; [exact H2|]. split; [exact H3|exact H4]. Qed.

(** a: times 1-(c-b) db 0 / b: times 1-(d-c) db 0 / c: times 1-(b-a) db 0 / d: *)
Definition plain (n : Z) : bcode := BC 0 0 n 1 None.
Definition cyc_b : list bcode := [plain 0; BC 0 0 1 0 None; BC 0 0 1 0 None; BC 0 0 1 0 None].
Definition one_minus (l : list Z) : Z := 1 - hd 0 l.
Definition cyc_s : list span := [Span 1 true [Diff 1 2] (Some one_minus) 0 0 []; Span 2 true [Diff 2 3] (Some one_minus) 0 0 []; Span 3 true [Diff 0 1] (Some one_minus) 0 0 []].
Fixpoint rounds (n : nat) (ss : list span) (t : tree) (z : st) : option st :=
  match n with
  | O => Some z
  | S m => match (match qa z, qb z with
                  | [], [] => None
                  | k :: a, b => round ss t k (St (bcs z) (dyns z) a b (oss z) (err z) (bad z))
                  | [], k :: b => round ss t k (St (bcs z) (dyns z) [] b (oss z) (err z) (bad z)) end) with
           | Some (Go z') => rounds m ss t z' | _ => None end
  end.
Lemma rounds_loop : forall n ss t z z', rounds n ss t z = Some z' -> forall fuel, loop (n + fuel) ss t z = loop fuel ss t z'.
Proof.
  induction n as [|n IH]; intros ss t z z' H fuel; cbn [rounds] in H; [injection H as <-; reflexivity|]. cbn [Nat.add loop].
  destruct (qa z) as [|k a]; [destruct (qb z) as [|k b]; [discriminate|]|]; (destruct (round _ _ _ _) as [[z1|]|]; [apply IH; auto|discriminate|discriminate]).
Qed.
Lemma rounds_early : forall n ss t z z', rounds n ss t z = Some z' -> forall fuel, (fuel <= n)%nat -> loop fuel ss t z = OutOfFuel.
Proof.
  induction n as [|n IH]; intros ss t z z' H [|fuel] F; try lia; try reflexivity. cbn [rounds] in H. cbn [loop].
  destruct (qa z) as [|k a]; [destruct (qb z) as [|k b]; [discriminate|]|]; (destruct (round _ _ _ _) as [[z1|]|]; [apply (IH _ _ _ _ H); lia|discriminate|discriminate]).
Qed.
Lemma forever : forall n m ss t z z', rounds n ss t z = Some z' -> rounds (S m) ss t z' = Some z' -> forall fuel, loop fuel ss t z = OutOfFuel.
Proof.
  intros n m ss t z z' H1 H2 fuel. destruct (Nat.le_gt_cases fuel n) as [L|L]; [apply (rounds_early n _ _ _ _ H1); auto|].
  replace fuel with (n + (fuel - n))%nat by lia. rewrite (rounds_loop n _ _ _ _ H1). remember (fuel - n)%nat as f. clear Heqf L H1 z.
  induction f as [f IH] using lt_wf_ind. destruct (Nat.le_gt_cases f (S m)) as [L|L]; [apply (rounds_early _ _ _ _ _ H2); auto|].
  replace f with (S m + (f - S m))%nat by lia. rewrite (rounds_loop _ _ _ _ _ H2). apply IH. lia.
Qed.
(** The state in which the loop starts for this program. *)
Definition cyc_z : st := let '(B1, _) := offsets None 0 cyc_b in let '(ds1, B2, _) := looks cyc_s B1 in let '(B3, _) := offsets None 0 B2 in begin cyc_s B3 ds1.
Definition cyc_t : tree := match insert_all Nil (intervals cyc_s (dyns cyc_z)) with Some t => t | None => Nil end.
Lemma cyc_start : forall fuel, optimize fuel cyc_s cyc_b = loop fuel cyc_s cyc_t cyc_z.
Proof. intro fuel. rewrite optimize_eq. generalize (loop fuel). intro f. vm_compute. reflexivity. Qed.
Definition cyc_1 : st := match rounds 1 cyc_s cyc_t cyc_z with Some z => z | None => cyc_z end.
Lemma cyc_1_ok : rounds 1 cyc_s cyc_t cyc_z = Some cyc_1. Proof. vm_compute. reflexivity. Qed.
Lemma cyc_6_ok : rounds 6 cyc_s cyc_t cyc_1 = Some cyc_1. Proof. vm_compute. reflexivity. Qed.
Lemma cycle_refuted : exists ss B0, wf ss B0 /\ forall fuel, optimize fuel ss B0 = OutOfFuel.
Proof.
  exists cyc_s, cyc_b. split; [apply wfb_ok; reflexivity|]. intro fuel. rewrite cyc_start.
  exact (forever 1 5 _ _ _ _ cyc_1_ok cyc_6_ok fuel).
Qed.

(** jmp far / jmp label / align 16 / 118 bytes / label: / 500 bytes / far: *)
Definition jmp (i q : nat) : span := Span i false [Rel q] (Some (hd 0)) (-126) 129 [Last 3].
Definition align (n : Z) : bcode := BC 0 0 0 1 (Some (fun o => Some ((- o) mod n))).
Definition al_b : list bcode := [plain 0; plain 2; plain 2; align 16; plain 118; plain 500].
Definition al_s : list span := [jmp 1 5; jmp 2 4].
Definition al_b' : list bcode := [plain 0; plain 5; with_off 5 (plain 2); with_off 7 (with_len 9 (align 16)); with_off 16 (plain 118); with_off 134 (plain 500)].
Lemma al_run : exists B ds, optimize 100 al_s al_b = Done B ds /\ map (fun b => (boff b, blen b, bmult b, none (setter b))) B =
  [(0, 0, 1, true); (0, 5, 1, true); (5, 5, 1, true); (10, 6, 1, false); (16, 118, 1, true); (134, 500, 1, true)].
Proof.
  assert (E : exists r, optimize 100 al_s al_b = r) by eauto. destruct E as [r E].
  assert (X : match r with Done B ds => map (fun b => (boff b, blen b, bmult b, none (setter b))) B =
    [(0, 0, 1, true); (0, 5, 1, true); (5, 5, 1, true); (10, 6, 1, false); (16, 118, 1, true); (134, 500, 1, true)] | _ => False end) by (subst r; vm_compute; reflexivity).
  destruct r as [B ds| | |]; try contradiction. exists B, ds. auto.
Qed.
Lemma align_refuted : exists ss B0 B ds B' ks', wf ss B0 /\ optimize 100 ss B0 = Done B ds /\ settled ss B0 B' ks' /\
  (forall i, setter (bc B0 i) = None -> blen (bc B' i) <= blen (bc B i)) /\ (exists i, setter (bc B0 i) = None /\ blen (bc B' i) < blen (bc B i)).
Proof.
  destruct al_run as (B & ds & E & M). exists al_s, al_b, B, ds, al_b', [1%nat; 0%nat]. split; [apply wfb_ok; reflexivity|]. split; auto. split; [|split].
  - apply settledb_ok; [|reflexivity]. intro i. do 7 (destruct i as [|i]; [reflexivity|]). destruct i; reflexivity.
  - assert (L : forall i, blen (bc B i) = nth i [0; 5; 5; 6; 118; 500] 0).
    { intro i. unfold bc. rewrite <- (map_nth blen). change (blen nobc) with 0. replace (map blen B) with (map (fun x => snd (fst (fst x))) (map (fun b => (boff b, blen b, bmult b, none (setter b))) B)) by (rewrite map_map; reflexivity). rewrite M. reflexivity. }
    intros i S0. rewrite L. do 6 (destruct i as [|i]; [try discriminate S0; cbn; lia|]). destruct i as [|i]; cbn; lia.
  - exists 2%nat. split; [reflexivity|]. assert (L : blen (bc B 2) = 5); [|rewrite L; cbn; lia].
    unfold bc. rewrite <- (map_nth blen). replace (map blen B) with (map (fun x => snd (fst (fst x))) (map (fun b => (boff b, blen b, bmult b, none (setter b))) B)) by (rewrite map_map; reflexivity). rewrite M. reflexivity.
Qed.
