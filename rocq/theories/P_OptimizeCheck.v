(** The size optimizer: executable checks of the hypotheses, for the examples (C28, C29). *)
From Coq Require Import ZArith List Bool Lia Arith.
From Verif Require Import Lib M_Optimize P_Optimize P_OptimizeRun P_OptimizeMain.
Import ListNotations.
Open Scope Z_scope.

Definition upto (n : nat) (p : nat -> bool) : bool := forallb p (seq 0 n).
Lemma upto_ok : forall n p, upto n p = true -> forall i, (i < n)%nat -> p i = true.
Proof. intros n p H i I. unfold upto in H. rewrite forallb_forall in H. apply H, in_seq. lia. Qed.
Definition none {A} (o : option A) : bool := match o with None => true | Some _ => false end.
Definition firstb (B : list bcode) (i : nat) : bool := match i with O => true | S j => negb (Nat.eqb (sec (bc B j)) (sec (bc B (S j)))) end.
Lemma firstb_ok : forall B i, firstb B i = true <-> first B i.
Proof. intros B [|i]; cbn; [tauto|]. rewrite negb_true_iff, Nat.eqb_neq. tauto. Qed.
Definition wfBb (B : list bcode) : bool :=
  upto (length B) (fun j => upto (S j) (fun i => Nat.leb (sec (bc B i)) (sec (bc B j)))) &&
  upto (length B) (fun i => negb (firstb B i) || (boff (bc B i) =? 0) && (blen (bc B i) =? 0) && none (setter (bc B i))) &&
  upto (length B) (fun i => none (setter (bc B i)) || (bmult (bc B i) =? 1)).
Lemma none_ok : forall {A} (o : option A), none o = true <-> o = None.
Proof. intros A [a|]; cbn; split; congruence. Qed.
Lemma wfBb_ok : forall B, wfBb B = true -> wfB B.
Proof.
  intros B H. unfold wfBb in H. rewrite !andb_true_iff in H. destruct H as [[H1 H2] H3]. constructor.
  - intros i j IJ J. apply Nat.leb_le. apply (upto_ok _ _ (upto_ok _ _ H1 j J)). lia.
  - intros i I F. pose proof (upto_ok _ _ H2 i I) as K. apply firstb_ok in F. cbn beta in K. rewrite F in K. cbn [negb orb] in K. rewrite !andb_true_iff, !Z.eqb_eq, none_ok in K. tauto.
  - intros i I S0. pose proof (upto_ok _ _ H3 i I) as K. cbn beta in K. apply orb_true_iff in K. rewrite none_ok, Z.eqb_eq in K. tauto.
Qed.
Definition wf_termb (B : list bcode) (s : span) (t : term) : bool :=
  match t with
  | Diff p q => Nat.ltb p (length B) && Nat.ltb q (length B) && Nat.eqb (sec (bc B p)) (sec (bc B q))
  | Rel q => Nat.ltb q (length B) && Nat.eqb (sec (bc B q)) (sec (bc B (sbc s)))
  end.
Definition wfb (ss : list span) (B : list bcode) : bool :=
  (Z.of_nat (length B) <? 2 ^ 31) && wfBb B &&
  forallb (fun s => Nat.ltb (sbc s) (length B) && negb (firstb B (sbc s)) && none (setter (bc B (sbc s))) && forallb (wf_termb B s) (terms s) && (negb (any s) || (bmult (bc B (sbc s)) =? 0))) ss &&
  upto (length ss) (fun k => upto (length ss) (fun m => negb (any (sp ss k)) || negb (any (sp ss m)) || negb (Nat.eqb (sbc (sp ss k)) (sbc (sp ss m))) || Nat.eqb k m)).
Lemma wfb_ok : forall ss B, wfb ss B = true -> wf ss B.
Proof.
  intros ss B H. unfold wfb in H. rewrite !andb_true_iff in H. destruct H as [[[H1 H2] H3] H4]. rewrite forallb_forall in H3.
  assert (K : forall s, In s ss -> (sbc s < length B)%nat /\ ~ first B (sbc s) /\ setter (bc B (sbc s)) = None /\ forallb (wf_termb B s) (terms s) = true /\ (any s = true -> bmult (bc B (sbc s)) = 0)).
  { intros s I. specialize (H3 s I). cbn beta in H3. rewrite !andb_true_iff, Nat.ltb_lt, none_ok, negb_true_iff in H3. destruct H3 as [[[[A1 A2] A3] A4] A5]. repeat split; auto.
    - intro F. apply firstb_ok in F. congruence.
    - intro A. rewrite A in A5. cbn in A5. apply Z.eqb_eq in A5. auto. }
  constructor.
  - apply Z.ltb_lt. auto.
  - apply wfBb_ok. auto.
  - intros s I. destruct (K s I) as (? & ? & ? & _). auto.
  - intros s t I T. destruct (K s I) as (_ & _ & _ & F & _). rewrite forallb_forall in F. specialize (F t T). destruct t as [p q|q]; cbn [wf_termb wf_term] in *; rewrite !andb_true_iff, ?Nat.ltb_lt, ?Nat.eqb_eq in F; tauto.
  - intros s I A. apply (K s I). auto.
  - intros k m KL ML AK AM E. pose proof (upto_ok _ _ (upto_ok _ _ H4 k KL) m ML) as X. cbn beta in X. rewrite AK, AM, E, Nat.eqb_refl in X. cbn in X. apply Nat.eqb_eq. auto.
Qed.
Definition reachb (s : span) (k : nat) : bool :=
  Nat.leb k (length (forms s)) && upto k (fun j => match nth j (forms s) Fail with Fail => false | _ => true end) &&
  upto (k - 1) (fun j => match nth j (forms s) Fail with More _ _ _ => true | _ => false end).
Lemma reachb_ok : forall s k, reachb s k = true -> reach s k.
Proof.
  intros s k H. unfold reachb in H. rewrite !andb_true_iff in H. destruct H as [[H1 H2] H3]. split; [apply Nat.leb_le; auto|]. split.
  - intros j J E. pose proof (upto_ok _ _ H2 j J) as X. cbn beta in X. rewrite E in X. discriminate.
  - intros j J. pose proof (upto_ok _ _ H3 j ltac:(lia)) as X. cbn beta in X. destruct (nth j (forms s) Fail); try discriminate. eauto.
Qed.
(** For programs whose spans count nothing. *)
Definition settledb (ss : list span) (B0 B : list bcode) (ks : list nat) : bool :=
  Nat.eqb (length ks) (length ss) && Nat.eqb (length B) (length B0) &&
  upto (length B) (fun i => Nat.eqb (sec (bc B i)) (sec (bc B0 i)) && (boff (bc B i) =? start B i) && (bmult (bc B i) =? bmult (bc B0 i)) &&
    match setter (bc B0 i) with
    | None => blen (bc B i) =? blen (bc B0 i) + added ss ks i
    | Some f => match f (start B i) with Some n => n =? blen (bc B i) | None => false end
    end) &&
  forallb (fun s => negb (any s)) ss &&
  upto (length ss) (fun k => reachb (sp ss k) (nth k ks O) &&
    match limits (sp ss k) (nth k ks O) with None => true | Some (l, h) => (l <=? val B (sp ss k)) && (val B (sp ss k) <=? h) end).
Lemma settledb_ok : forall ss B0 B ks, (forall i, setter (bc B i) = setter (bc B0 i)) -> settledb ss B0 B ks = true -> settled ss B0 B ks.
Proof.
  intros ss B0 B ks SE H. unfold settledb in H. rewrite !andb_true_iff, !Nat.eqb_eq, forallb_forall in H. destruct H as [[[[H1 H2] H3] H4] H5].
  assert (NA : forall s, In s ss -> any s = false) by (intros s I; apply negb_true_iff; auto).
  assert (K : forall i, (i < length B)%nat -> sec (bc B i) = sec (bc B0 i) /\ boff (bc B i) = start B i /\ bmult (bc B i) = bmult (bc B0 i) /\
     match setter (bc B0 i) with None => blen (bc B i) = blen (bc B0 i) + added ss ks i | Some f => f (start B i) = Some (blen (bc B i)) end).
  { intros i I. pose proof (upto_ok _ _ H3 i I) as X. cbn beta in X. rewrite !andb_true_iff, Nat.eqb_eq, !Z.eqb_eq in X. destruct X as [[[X1 X2] X3] X4]. repeat split; auto.
    destruct (setter (bc B0 i)) as [f|]; [destruct (f (start B i)); [|discriminate]|]; apply Z.eqb_eq in X4; congruence. }
  constructor; auto.
  - split; auto. intro i. split; auto. destruct (Nat.lt_ge_cases i (length B)) as [I|I]; [apply (K i I)|]. unfold bc. rewrite !nth_overflow by lia. reflexivity.
  - intros i I. apply (K i I).
  - intros i I S0. destruct (K i I) as (_ & _ & _ & X). rewrite <- SE, S0 in X. auto.
  - intros i f I S0. destruct (K i I) as (_ & _ & _ & X). rewrite <- SE, S0 in X. auto.
  - intros s I A. rewrite (NA s I) in A. discriminate.
  - intros i _. destruct (Nat.lt_ge_cases i (length B)) as [I|I]; [apply (K i I)|]. unfold bc. rewrite !nth_overflow by lia. reflexivity.
  - intros k KL _. pose proof (upto_ok _ _ H5 k KL) as X. cbn beta in X. apply andb_true_iff in X. destruct X as [X1 X2]. split; [apply reachb_ok; auto|].
    destruct (limits (sp ss k) (nth k ks O)) as [[l h]|]; auto. apply andb_true_iff in X2. rewrite !Z.leb_le in X2. auto.
Qed.
