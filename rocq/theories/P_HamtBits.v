(** Bit counting for the HAMT: the SWAR macro BitCount computes, modulo 32, the number of set
    bits among the low 32 bits of its 64-bit argument. *)
From Coq Require Import ZArith List Lia Bool.
From Verif Require Import Lib LibBits M_Hamt.
Import ListNotations.
Open Scope Z_scope.

(** Number of i < n with f i. *)
Fixpoint cnt (f : nat -> bool) (n : nat) : nat :=
  match n with O => O | S m => ((if f m then 1 else 0) + cnt f m)%nat end.

Definition tb (x : Z) (i : nat) : bool := Z.testbit x (Z.of_nat i).

Lemma cnt_ext : forall f g n, (forall i, (i < n)%nat -> f i = g i) -> cnt f n = cnt g n.
Proof.
  induction n; simpl; intros H; auto. rewrite H by lia. rewrite IHn; auto.
Qed.
Lemma cnt_le : forall f n, (cnt f n <= n)%nat.
Proof. induction n; simpl; auto. destruct (f n); lia. Qed.
Lemma cnt_mono : forall f n m, (n <= m)%nat -> (cnt f n <= cnt f m)%nat.
Proof. induction 1; simpl; lia. Qed.
Lemma cnt_strict : forall f n m, (n < m)%nat -> f n = true -> (cnt f n < cnt f m)%nat.
Proof.
  intros f n m H Hf. apply Nat.lt_le_trans with (cnt f (S n)).
  - simpl. rewrite Hf. lia.
  - apply cnt_mono. lia.
Qed.

(** Little-endian value of digits in base W. *)
Fixpoint dval (W : Z) (l : list Z) : Z :=
  match l with [] => 0 | d :: l' => d + W * dval W l' end.
Fixpoint pairsum (l : list Z) : list Z :=
  match l with a :: b :: l' => (a + b) :: pairsum l' | _ => [] end.
Fixpoint evens (l : list Z) : list Z :=
  match l with a :: _ :: l' => a :: evens l' | _ => [] end.
Fixpoint odds (l : list Z) : list Z :=
  match l with _ :: b :: l' => b :: odds l' | _ => [] end.

Lemma dval_range : forall k l, 0 <= k -> Forall (fun d => 0 <= d < 2 ^ k) l ->
  0 <= dval (2 ^ k) l.
Proof.
  intros k l Hk H. pose proof (pow2_pos k Hk). induction H; simpl; [lia|nia].
Qed.

(** One BC_COUNT step sums neighbouring fields. *)
Lemma mask_evens : forall k n l, 0 <= k -> length l = (2 * n)%nat ->
  Forall (fun d => 0 <= d < 2 ^ k) l ->
  Z.land (dval (2 ^ k) l) (dval (2 ^ (2 * k)) (repeat (2 ^ k - 1) n)) = dval (2 ^ (2 * k)) (evens l).
Proof.
  intros k n. induction n as [|n IH]; intros l Hk Hl HF.
  - destruct l; simpl in *; [reflexivity|lia].
  - destruct l as [|a [|b l]]; simpl in Hl; try lia.
    inversion HF as [|? ? Ha HF1]; subst. inversion HF1 as [|? ? Hb HF2]; subst.
    cbn [dval evens repeat]. pose proof (pow2_pos k Hk).
    assert (E2 : 2 ^ (2 * k) = 2 ^ k * 2 ^ k) by (rewrite <- Z.pow_add_r by lia; f_equal; lia).
    replace (a + 2 ^ k * (b + 2 ^ k * dval (2 ^ k) l))
      with ((a + 2 ^ k * b) + 2 ^ (2 * k) * dval (2 ^ k) l) by nia.
    rewrite land_split; [|lia|nia|nia].
    rewrite IH by (auto; lia).
    f_equal.
    replace (2 ^ k - 1) with ((2 ^ k - 1) + 2 ^ k * 0) by lia.
    rewrite land_split by lia. rewrite Z.land_0_r. rewrite land_ones_lt by lia. lia.
Qed.

Lemma dval_tail : forall k l, 0 <= k -> Forall (fun d => 0 <= d < 2 ^ k) l ->
  Z.shiftr (dval (2 ^ k) l) k = dval (2 ^ k) (tl l).
Proof.
  intros k l Hk HF. destruct HF as [|a l Ha HF]; simpl.
  - apply Z.shiftr_0_l.
  - rewrite Z.shiftr_div_pow2 by lia. pose proof (pow2_pos k Hk).
    rewrite Z.mul_comm, Z.div_add by lia. rewrite Z.div_small by lia. lia.
Qed.

Lemma dval_app0 : forall W l, dval W (l ++ [0]) = dval W l.
Proof. induction l; simpl; [lia|]. rewrite IHl. lia. Qed.

Lemma evens_tl : forall n l, length l = (2 * n)%nat -> evens (tl l ++ [0]) = odds l.
Proof.
  induction n; intros l Hl.
  - destruct l; simpl in *; [reflexivity|lia].
  - destruct l as [|a [|b l]]; simpl in Hl; try lia.
    cbn [tl app odds]. destruct l as [|c l].
    + reflexivity.
    + cbn [app evens]. f_equal. change (l ++ [0]) with (tl (c :: l) ++ [0]).
      apply IHn. simpl in *; lia.
Qed.

Lemma dval_pairsum : forall n W l, length l = (2 * n)%nat ->
  dval W (evens l) + dval W (odds l) = dval W (pairsum l).
Proof.
  induction n; intros W l Hl.
  - destruct l; simpl in *; [reflexivity|lia].
  - destruct l as [|a [|b l]]; simpl in Hl; try lia.
    cbn [evens odds pairsum dval]. rewrite <- (IHn W l) by lia. lia.
Qed.

Lemma pairsum_props : forall n l B, length l = (2 * n)%nat ->
  Forall (fun d => 0 <= d <= B) l ->
  length (pairsum l) = n /\ Forall (fun d => 0 <= d <= 2 * B) (pairsum l).
Proof.
  induction n; intros l B Hl HF.
  - destruct l; simpl in *; [auto|lia].
  - destruct l as [|a [|b l]]; simpl in Hl; try lia.
    inversion HF as [|? ? Ha HF1]; subst. inversion HF1 as [|? ? Hb HF2]; subst.
    destruct (IHn l B) as [H1 H2]; [lia|auto|].
    cbn [pairsum length]. split; [lia|]. constructor; [lia|auto].
Qed.

Lemma bc_step : forall c n l B, (0 < n)%nat ->
  bc_msk c = dval (2 ^ (2 * bc_two c)) (repeat (2 ^ bc_two c - 1) n) ->
  length l = (2 * n)%nat ->
  Forall (fun d => 0 <= d <= B) l -> B < 2 ^ bc_two c ->
  0 < bc_two c ->
  dval (2 ^ (2 * bc_two c)) (pairsum l) < w64 ->
  bc_count (dval (2 ^ bc_two c) l) c = dval (2 ^ (2 * bc_two c)) (pairsum l).
Proof.
  intros c n l B Hn Hm Hl HF HB Hpos Hw. set (k := bc_two c) in *.
  assert (HF' : Forall (fun d => 0 <= d < 2 ^ k) l).
  { eapply Forall_impl; [|exact HF]. simpl; intros; lia. }
  unfold bc_count. fold k. rewrite Hm.
  rewrite (mask_evens k n l) by (auto; lia).
  rewrite dval_tail by (auto; lia).
  rewrite <- (dval_app0 (2 ^ k) (tl l)).
  rewrite (mask_evens k n (tl l ++ [0])); [|lia| |].
  2:{ rewrite app_length. simpl. destruct l; simpl in *; lia. }
  2:{ apply Forall_app. split; [destruct HF'; simpl; auto|]. constructor; [|constructor].
      pose proof (pow2_pos k ltac:(lia)); lia. }
  rewrite (evens_tl n) by auto. rewrite (dval_pairsum n) by auto.
  apply u64_small. split; [|auto].
  destruct (pairsum_props n l B Hl HF) as [_ HP].
  clear - HP Hpos. induction HP; cbn [dval]; [lia|]. pose proof (pow2_pos (2 * k)); nia.
Qed.

Definition bitl (x : Z) (s n : nat) : list Z := map (fun i => Z.b2z (tb x i)) (seq s n).

Lemma bitl_val : forall n x s, 0 <= x ->
  dval 2 (bitl x s n) = (Z.shiftr x (Z.of_nat s)) mod 2 ^ Z.of_nat n.
Proof.
  induction n; intros x s Hx.
  - simpl. rewrite Z.mod_1_r. reflexivity.
  - unfold bitl in *. cbn [seq map dval]. rewrite IHn by auto.
    set (y := Z.shiftr x (Z.of_nat s)).
    replace (Z.shiftr x (Z.of_nat (S s))) with (y / 2).
    2:{ unfold y. rewrite !Z.shiftr_div_pow2 by lia. rewrite Z.div_div; [|pose proof (pow2_pos (Z.of_nat s)); lia|lia].
        f_equal. rewrite Nat2Z.inj_succ, Z.pow_succ_r by lia. lia. }
    replace (tb x s) with (Z.odd y).
    2:{ unfold tb, y. rewrite <- Z.bit0_odd, Z.shiftr_spec by lia. f_equal. }
    rewrite Nat2Z.inj_succ, Z.pow_succ_r by lia.
    rewrite (Z.rem_mul_r y 2 (2 ^ Z.of_nat n)) by (try lia; pose proof (pow2_pos (Z.of_nat n)); lia).
    rewrite Zmod_odd. destruct (Z.odd y); simpl Z.b2z; lia.
Qed.

Definition sumZ (l : list Z) : Z := fold_right Z.add 0 l.
Lemma sum_bitl : forall n x, sumZ (bitl x 0 n) = Z.of_nat (cnt (tb x) n).
Proof.
  induction n; intros x; [reflexivity|].
  unfold bitl. rewrite seq_S, map_app. unfold sumZ in *. rewrite fold_right_app.
  cbn [map fold_right cnt].
  assert (G : forall l a, fold_right Z.add a l = fold_right Z.add 0 l + a).
  { induction l; intros; simpl; [lia|]. rewrite IHl. lia. }
  rewrite G. fold (bitl x 0 n). rewrite IHn. simpl Nat.add. destruct (tb x n); simpl; lia.
Qed.
Lemma sum_bitl_bound : forall l, Forall (fun d => 0 <= d <= 1) l -> 0 <= sumZ l <= Z.of_nat (length l).
Proof. induction 1; unfold sumZ in *; simpl in *; lia. Qed.
Lemma bitl_bool : forall n x s, Forall (fun d => 0 <= d <= 1) (bitl x s n).
Proof.
  intros. unfold bitl. apply Forall_forall. intros d Hd. apply in_map_iff in Hd.
  destruct Hd as [i [<- _]]. destruct (tb x i); simpl; lia.
Qed.

Lemma dval_lt : forall k l B, 0 < k -> 0 <= B -> B < 2 ^ k -> Forall (fun d => 0 <= d <= B) l ->
  dval (2 ^ k) l < 2 ^ (k * Z.of_nat (length l)).
Proof.
  intros k l B Hk HB0 HB HF. induction HF.
  - simpl. rewrite Z.mul_0_r. lia.
  - cbn [length dval]. rewrite Nat2Z.inj_succ.
    replace (k * Z.succ (Z.of_nat (length l))) with (k + k * Z.of_nat (length l)) by lia.
    rewrite Z.pow_add_r by lia. nia.
Qed.

(** util.h BitCount, as used by hamt.c ("& 0x1F"). *)
Lemma bitcount_spec : forall x, 0 <= x < w64 ->
  Z.land (bitcount x) 31 = Z.of_nat (cnt (tb x) 32) mod 32.
Proof.
  intros x Hx.
  assert (E0 : x = dval (2 ^ bc_two 0) (bitl x 0 64)).
  { change (2 ^ bc_two 0) with 2. rewrite bitl_val by lia. rewrite Z.shiftr_0_r.
    symmetry. apply Z.mod_small. exact Hx. }
  assert (L0 : length (bitl x 0 64) = 64%nat) by (unfold bitl; rewrite map_length, seq_length; auto).
  pose proof (bitl_bool 64 x 0) as F0.
  pose proof (sum_bitl 32 x) as SB.
  assert (SB2 : sumZ (firstn 32 (bitl x 0 64)) = Z.of_nat (cnt (tb x) 32)) by (rewrite <- SB; reflexivity).
  clear SB. rewrite <- SB2. clear SB2.
  unfold bitcount. rewrite E0 at 1. clear E0. set (l := bitl x 0 64) in *. clearbody l.
  assert (HL : forall k n l B, 0 < k -> 0 <= B -> B < 2 ^ k -> Forall (fun d => 0 <= d <= B) l ->
     length l = n -> k * Z.of_nat n = 64 -> dval (2 ^ k) l < w64).
  { intros k n l' B ? ? ? HF Hn Hk. subst n. pose proof (dval_lt k l' B). rewrite Hk in *.
    change w64 with (2 ^ 64). auto. }
  destruct (pairsum_props 32 l 1 L0 F0) as [L1 F1].
  rewrite (bc_step 0 32 l 1); [|lia|reflexivity|exact L0|exact F0|reflexivity|reflexivity|].
  2:{ apply (HL _ 32%nat _ 2); auto; try reflexivity; try discriminate; lia. }
  change (2 ^ (2 * bc_two 0)) with (2 ^ bc_two 1).
  destruct (pairsum_props 16 _ 2 L1 F1) as [L2 F2].
  rewrite (bc_step 1 16 _ 2); [|lia|reflexivity|exact L1|exact F1|reflexivity|reflexivity|].
  2:{ apply (HL _ 16%nat _ 4); auto; try reflexivity; try discriminate; lia. }
  change (2 ^ (2 * bc_two 1)) with (2 ^ bc_two 2).
  destruct (pairsum_props 8 _ 4 L2 F2) as [L3 F3].
  rewrite (bc_step 2 8 _ 4); [|lia|reflexivity|exact L2|exact F2|reflexivity|reflexivity|].
  2:{ apply (HL _ 8%nat _ 8); auto; try reflexivity; try discriminate; lia. }
  change (2 ^ (2 * bc_two 2)) with (2 ^ bc_two 3).
  destruct (pairsum_props 4 _ 8 L3 F3) as [L4 F4].
  rewrite (bc_step 3 4 _ 8); [|lia|reflexivity|exact L3|exact F3|reflexivity|reflexivity|].
  2:{ apply (HL _ 4%nat _ 16); auto; try reflexivity; try discriminate; lia. }
  change (2 ^ (2 * bc_two 3)) with (2 ^ bc_two 4).
  destruct (pairsum_props 2 _ 16 L4 F4) as [L5 F5].
  rewrite (bc_step 4 2 _ 16); [|lia|reflexivity|exact L4|exact F4|reflexivity|reflexivity|].
  2:{ apply (HL _ 2%nat _ 32); auto; try reflexivity; try discriminate; lia. }
  change 31 with (2 ^ 5 - 1). rewrite land_mask by lia. change (2 ^ 5) with 32.
  assert (PS : forall l m, length l = (2 * m)%nat -> forall n, firstn n (pairsum l) = pairsum (firstn (2 * n) l)).
  { clear. intros l m. revert l. induction m; intros l Hl n.
    - destruct l; simpl in *; [|lia]. rewrite !firstn_nil. reflexivity.
    - destruct l as [|a [|b l]]; simpl in Hl; try lia. destruct n; [reflexivity|].
      replace (2 * S n)%nat with (S (S (2 * n))) by lia. cbn [pairsum firstn].
      f_equal. apply IHm. lia. }
  assert (SS : forall l m, length l = (2 * m)%nat -> sumZ (pairsum l) = sumZ l).
  { clear. intros l m. revert l. induction m; intros l Hl.
    - destruct l; simpl in *; [reflexivity|lia].
    - destruct l as [|a [|b l]]; simpl in Hl; try lia. unfold sumZ in *. cbn [pairsum fold_right].
      rewrite (IHm l) by lia. lia. }
  set (p1 := pairsum l) in *. set (p2 := pairsum p1) in *. set (p3 := pairsum p2) in *.
  set (p4 := pairsum p3) in *. set (p5 := pairsum p4) in *.
  assert (EQ : sumZ (firstn 1 p5) = sumZ (firstn 32 l)).
  { unfold p5. rewrite (PS _ 2%nat) by auto. rewrite (SS _ 1%nat) by (rewrite firstn_length, L4; reflexivity).
    unfold p4. rewrite (PS _ 4%nat) by auto. rewrite (SS _ 2%nat) by (rewrite firstn_length, L3; reflexivity).
    unfold p3. rewrite (PS _ 8%nat) by auto. rewrite (SS _ 4%nat) by (rewrite firstn_length, L2; reflexivity).
    unfold p2. rewrite (PS _ 16%nat) by auto. rewrite (SS _ 8%nat) by (rewrite firstn_length, L1; reflexivity).
    unfold p1. rewrite (PS _ 32%nat) by auto. rewrite (SS _ 16%nat) by (rewrite firstn_length, L0; reflexivity).
    reflexivity. }
  rewrite <- EQ. clearbody p5. clear - L5.
  destruct p5 as [|a [|b [|]]]; simpl in L5; try lia.
  unfold sumZ. cbn [dval firstn fold_right].
  change (2 ^ (2 * bc_two 4)) with (32 * 134217728).
  replace (a + 32 * 134217728 * (b + 32 * 134217728 * 0)) with (a + 134217728 * b * 32) by ring.
  rewrite Z.mod_add by lia. f_equal. lia.
Qed.
