(** Specification and proofs for libyasm/assocdat.c: C47. *)
From Coq Require Import ZArith List Bool Lia Permutation.
From Verif Require Import M_Assocdat.
Import ListNotations.
Open Scope Z_scope.

(** * Specification *)
(** The data most recently attached under [k]. *)
Fixpoint latest (ops : list (Z * Z)) (k : Z) : Z :=
  match ops with
  | [] => 0
  | (k', d) :: t => if existsb (fun p => fst p =? k) t then latest t k else if k' =? k then d else 0
  end.
(** What a history must have destroyed: every non-NULL datum when it is superseded by a
    different one under the same key. *)
Fixpoint superseded (cur : Z -> Z) (ops : list (Z * Z)) : list (Z * Z) :=
  match ops with
  | [] => []
  | (k, d) :: t =>
      (if (cur k =? 0) || (cur k =? d) then [] else [(k, cur k)]) ++
      superseded (fun x => if x =? k then d else cur x) t
  end.

(** * Proofs *)
Lemma put_find : forall l k d k', find (fst (put l k d)) k' = if k' =? k then d else find l k'.
Proof.
  induction l as [|[a b] l IH]; intros k d k'; simpl.
  - rewrite (Z.eqb_sym k k'). destruct (k' =? k); reflexivity.
  - destruct (Z.eqb_spec a k); simpl.
    + subst. destruct (Z.eqb_spec k k'), (Z.eqb_spec k' k); congruence.
    + specialize (IH k d k'). destruct (put l k d) as [t' x]. simpl in *. rewrite IH.
      destruct (Z.eqb_spec a k'), (Z.eqb_spec k' k); congruence.
Qed.
Lemma put_keys : forall l k d, NoDup (map fst l) -> NoDup (map fst (fst (put l k d))) /\
  (forall x, In x (map fst (fst (put l k d))) <-> In x (map fst l) \/ x = k).
Proof.
  induction l as [|[a b] l IH]; intros k d ND; simpl.
  - split; [repeat constructor; auto|]. intuition.
  - inversion ND; subst. destruct (Z.eqb_spec a k); simpl.
    + subst. split; auto. intuition.
    + destruct (IH k d H2) as [I1 I2]. destruct (put l k d) as [t' x]. simpl in *. split.
      * constructor; auto. rewrite I2. intuition.
      * intros y. rewrite I2. intuition.
Qed.
Lemma put_destroyed : forall l k d, snd (put l k d) = if (find l k =? 0) || (find l k =? d) then [] else [(k, find l k)].
Proof.
  induction l as [|[a b] l IH]; intros k d; simpl; auto.
  destruct (Z.eqb_spec a k); simpl.
  - subst. destruct (Z.eqb_spec b 0), (Z.eqb_spec b d); auto.
  - specialize (IH k d). destruct (put l k d). simpl in *. exact IH.
Qed.

Definition items (a : assoc_data) := match a with Some l => l | None => [] end.
Lemma get_items : forall a k, get a k = find (items a) k.
Proof. intros [l|] k; reflexivity. Qed.

Lemma run_get : forall ops a k, get (fst (run a ops)) k =
  if existsb (fun p => fst p =? k) ops then latest ops k else get a k.
Proof.
  induction ops as [|[k0 d] ops IH]; intros a k; simpl; auto.
  unfold add. change (match a with Some l => l | None => [] end) with (items a).
  pose proof (put_find (items a) k0 d k) as PF.
  destruct (put (items a) k0 d) as [l x]. simpl in *. specialize (IH (Some l) k).
  destruct (run (Some l) ops) as [a2 y]. simpl in *. rewrite IH.
  destruct (existsb (fun p => fst p =? k) ops); [rewrite orb_true_r; auto|]. rewrite orb_false_r, PF, (Z.eqb_sym k0 k).
  destruct (k =? k0); auto. rewrite <- get_items. reflexivity.
Qed.

Lemma superseded_ext : forall ops f g, (forall k, f k = g k) -> superseded f ops = superseded g ops.
Proof.
  induction ops as [|[k d] ops IH]; intros f g E; simpl; auto. rewrite E. f_equal. apply IH.
  intros x. rewrite E. reflexivity.
Qed.
Lemma run_destroyed : forall ops a, snd (run a ops) = superseded (get a) ops.
Proof.
  induction ops as [|[k d] ops IH]; intros a; simpl; auto.
  unfold add. change (match a with Some l => l | None => [] end) with (items a).
  pose proof (put_destroyed (items a) k d) as PD. pose proof (put_find (items a) k d) as PF.
  destruct (put (items a) k d) as [l x]. simpl in *. specialize (IH (Some l)).
  destruct (run (Some l) ops) as [a2 y]. simpl in *. rewrite IH, PD, <- get_items. f_equal.
  apply superseded_ext. intros z. rewrite !get_items. apply PF.
Qed.

Lemma put_perm : forall l k d, d <> 0 -> Forall (fun p => snd p <> 0) l -> ~ In d (map snd l) ->
  Permutation (snd (put l k d) ++ fst (put l k d)) ((k, d) :: l) /\ Forall (fun p => snd p <> 0) (fst (put l k d)).
Proof.
  induction l as [|[a b] l IH]; intros k d D F N; simpl.
  - split; auto.
  - inversion F; subst. simpl in *. destruct (Z.eqb_spec a k); simpl.
    + subst. destruct (Z.eqb_spec b 0); [congruence|]. destruct (Z.eqb_spec b d); [subst; exfalso; auto|]. simpl.
      split; [constructor|constructor; auto].
    + destruct (IH k d D H2) as [I1 I2]; [intros X; apply N; auto|].
      destruct (put l k d) as [t' x]. simpl in *. split; [|constructor; auto].
      etransitivity; [symmetry; apply Permutation_middle|]. etransitivity; [apply perm_skip, I1|]. constructor.
Qed.
(** Every datum attached is destroyed exactly once. *)
Lemma lifecycle : forall ops a, Forall (fun p => snd p <> 0) (items a) -> Forall (fun p => snd p <> 0) ops ->
  NoDup (map snd (items a ++ ops)) ->
  Permutation (snd (run a ops) ++ destroy (fst (run a ops))) (items a ++ ops).
Proof.
  induction ops as [|[k d] ops IH]; intros a F1 F2 ND; simpl.
  - rewrite app_nil_r. unfold destroy, items. reflexivity.
  - unfold add. change (match a with Some l => l | None => [] end) with (items a).
    inversion F2; subst. simpl in *.
    rewrite map_app in ND. simpl in ND. pose proof (NoDup_remove _ _ _ ND) as [ND1 ND2].
    destruct (put_perm (items a) k d H1 F1) as [P1 P2]; [intros X; apply ND2, in_or_app; auto|].
    destruct (put (items a) k d) as [l x]. simpl in *.
    specialize (IH (Some l) P2 H2). simpl in IH.
    assert (PL : Permutation (x ++ l ++ ops) (items a ++ (k, d) :: ops)).
    { rewrite app_assoc. etransitivity; [apply Permutation_app_tail, P1|]. simpl. apply Permutation_middle. }
    assert (NX : NoDup (map snd (l ++ ops))).
    { assert (NoDup (map snd (x ++ l ++ ops))).
      { eapply Permutation_NoDup; [apply Permutation_map; symmetry; exact PL|]. rewrite map_app. exact ND. }
      rewrite map_app in H. clear - H. induction (map snd x); simpl in *; auto. inversion H; auto. }
    specialize (IH NX). destruct (run (Some l) ops) as [a2 y]. simpl in *.
    rewrite <- app_assoc. etransitivity; [apply Permutation_app_head, IH|]. exact PL.
Qed.
Lemma all_destroyed_once : forall ops, Forall (fun p => snd p <> 0) ops -> NoDup (map snd ops) ->
  Permutation (snd (run None ops) ++ destroy (fst (run None ops))) ops.
Proof. intros. apply (lifecycle ops None); auto. constructor. Qed.

Lemma latest_ok : forall ops k, get (fst (run None ops)) k = latest ops k.
Proof.
  intros. rewrite run_get. destruct (existsb (fun p => fst p =? k) ops) eqn:E; auto.
  simpl. symmetry. induction ops as [|[k' d] ops IH]; simpl in *; auto.
  apply orb_false_iff in E. destruct E as [E1 E2]. rewrite E2, E1. reflexivity.
Qed.
Lemma destroyed_ok : forall ops, snd (run None ops) = superseded (fun _ => 0) ops.
Proof. intros. rewrite run_destroyed. apply superseded_ext. reflexivity. Qed.
