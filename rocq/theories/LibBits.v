(** Bit-level lemmas on Z: splitting land/lor/lxor at a bit position, masks, digits. *)
From Coq Require Import ZArith List Lia Bool.
Import ListNotations.
Open Scope Z_scope.

Lemma pow2_pos : forall n, 0 <= n -> 0 < 2 ^ n.
Proof. intros; apply Z.pow_pos_nonneg; lia. Qed.

Lemma testbit_add_shift : forall k a b i, 0 <= k -> 0 <= a < 2 ^ k ->
  Z.testbit (a + 2 ^ k * b) i = if i <? k then Z.testbit a i else Z.testbit b (i - k).
Proof.
  intros k a b i Hk Ha.
  destruct (Z.ltb_spec i k) as [H|H].
  - destruct (Z_lt_ge_dec i 0) as [Hn|Hn].
    + rewrite !Z.testbit_neg_r by lia. reflexivity.
    + rewrite <- (Z.mod_pow2_bits_low (a + 2 ^ k * b) k i) by lia.
      rewrite <- (Z.mod_pow2_bits_low a k i) by lia.
      f_equal. rewrite Z.mul_comm. rewrite Z.mod_add; [reflexivity|].
      pose proof (pow2_pos k Hk); lia.
  - replace i with (i - k + k) at 1 by lia.
    rewrite <- Z.div_pow2_bits by lia.
    f_equal. rewrite Z.mul_comm, Z.div_add by (pose proof (pow2_pos k Hk); lia).
    rewrite Z.div_small by lia. lia.
Qed.

Lemma testbit_small : forall k a i, 0 <= a < 2 ^ k -> k <= i -> Z.testbit a i = false.
Proof.
  intros k a i Ha Hi.
  destruct (Z.eq_dec a 0) as [->|Hz]; [apply Z.testbit_0_l|].
  apply Z.bits_above_log2; [lia|].
  apply Z.lt_le_trans with k; [|lia].
  apply Z.log2_lt_pow2; lia.
Qed.

Lemma range_of_bits : forall k a, 0 <= k -> 0 <= a -> (forall i, k <= i -> Z.testbit a i = false) ->
  a < 2 ^ k.
Proof.
  intros k a Hk Ha H.
  destruct (Z.eq_dec a 0) as [->|Hz]; [apply pow2_pos; lia|].
  apply Z.log2_lt_pow2; [lia|].
  destruct (Z_lt_ge_dec (Z.log2 a) k); [lia|].
  pose proof (Z.bit_log2 a ltac:(lia)) as Hb. rewrite H in Hb by lia. discriminate.
Qed.

Lemma land_lt_pow2 : forall k a m, 0 <= k -> 0 <= a < 2 ^ k -> 0 <= m -> 0 <= Z.land a m < 2 ^ k.
Proof.
  intros k a m Hk Ha Hm. split; [apply Z.land_nonneg; lia|].
  apply range_of_bits; [lia|apply Z.land_nonneg; lia|].
  intros i Hi. rewrite Z.land_spec, (testbit_small k) by (auto; lia). reflexivity.
Qed.

Lemma lor_lt_pow2 : forall k a m, 0 <= k -> 0 <= a < 2 ^ k -> 0 <= m < 2 ^ k -> 0 <= Z.lor a m < 2 ^ k.
Proof.
  intros k a m Hk Ha Hm. split; [apply Z.lor_nonneg; lia|].
  apply range_of_bits; [lia|apply Z.lor_nonneg; lia|].
  intros i Hi. rewrite Z.lor_spec, !(testbit_small k) by (auto; lia). reflexivity.
Qed.

Lemma lxor_lt_pow2 : forall k a m, 0 <= k -> 0 <= a < 2 ^ k -> 0 <= m < 2 ^ k -> 0 <= Z.lxor a m < 2 ^ k.
Proof.
  intros k a m Hk Ha Hm. assert (0 <= Z.lxor a m) by (apply Z.lxor_nonneg; lia). split; [lia|].
  apply range_of_bits; [lia|lia|].
  intros i Hi. rewrite Z.lxor_spec, !(testbit_small k) by (auto; lia). reflexivity.
Qed.

Lemma land_split : forall k a m b n, 0 <= k -> 0 <= a < 2 ^ k -> 0 <= m < 2 ^ k ->
  Z.land (a + 2 ^ k * b) (m + 2 ^ k * n) = Z.land a m + 2 ^ k * Z.land b n.
Proof.
  intros. pose proof (land_lt_pow2 k a m). apply Z.bits_inj'. intros i Hi.
  rewrite Z.land_spec, !testbit_add_shift by (auto; lia).
  destruct (i <? k); rewrite Z.land_spec; reflexivity.
Qed.

Lemma lor_split : forall k a m b n, 0 <= k -> 0 <= a < 2 ^ k -> 0 <= m < 2 ^ k ->
  Z.lor (a + 2 ^ k * b) (m + 2 ^ k * n) = Z.lor a m + 2 ^ k * Z.lor b n.
Proof.
  intros. pose proof (lor_lt_pow2 k a m). apply Z.bits_inj'. intros i Hi.
  rewrite Z.lor_spec, !testbit_add_shift by (auto; lia).
  destruct (i <? k); rewrite Z.lor_spec; reflexivity.
Qed.

Lemma lxor_split : forall k a m b n, 0 <= k -> 0 <= a < 2 ^ k -> 0 <= m < 2 ^ k ->
  Z.lxor (a + 2 ^ k * b) (m + 2 ^ k * n) = Z.lxor a m + 2 ^ k * Z.lxor b n.
Proof.
  intros. pose proof (lxor_lt_pow2 k a m). apply Z.bits_inj'. intros i Hi.
  rewrite Z.lxor_spec, !testbit_add_shift by (auto; lia).
  destruct (i <? k); rewrite Z.lxor_spec; reflexivity.
Qed.

Lemma land_ones_lt : forall k a, 0 <= k -> 0 <= a < 2 ^ k -> Z.land a (2 ^ k - 1) = a.
Proof.
  intros. replace (2 ^ k - 1) with (Z.ones k) by (rewrite Z.ones_equiv; lia).
  rewrite Z.land_ones by lia. apply Z.mod_small; lia.
Qed.
Lemma land_mask : forall k a, 0 <= k -> Z.land a (2 ^ k - 1) = a mod 2 ^ k.
Proof.
  intros. replace (2 ^ k - 1) with (Z.ones k) by (rewrite Z.ones_equiv; lia).
  apply Z.land_ones; lia.
Qed.
Lemma mod_pow2_testbit : forall k a i, 0 <= k -> 0 <= i -> Z.testbit (a mod 2 ^ k) i = (i <? k) && Z.testbit a i.
Proof.
  intros. destruct (Z.ltb_spec i k).
  - apply Z.mod_pow2_bits_low; lia.
  - apply Z.mod_pow2_bits_high; lia.
Qed.
(** Disjoint or is addition. *)
Lemma lor_disjoint_add : forall a b, Z.land a b = 0 -> Z.lor a b = a + b.
Proof. intros a b H. rewrite (Z.add_nocarry_lxor a b H). symmetry. now apply Z.lxor_lor. Qed.
