(** Proofs for floatnum.c, first part: the vector operations as operations on integers. *)
From Coq Require Import ZArith List Bool Lia.
From Verif Require Import Lib LibBits M_BitVect M_BitVectIv M_Float P_BitVect P_BitVectIO P_BitVectIv P_IntnumIO.
Import ListNotations.
Open Scope Z_scope.

(** * Vectors of 80 bits *)
Lemma wf80 : forall m, wf m -> bits m = 80 -> exists a b c, m = BV 80 [a; b; c] /\ word a /\ word b /\ 0 <= c < 2 ^ 16.
Proof.
  intros [n ws] (N & L & F & U) B. cbn [bits wds] in *. subst n. unfold uval in U. cbn [wds] in *. change ((80 + 31) / 32) with 3 in L.
  destruct ws as [|a [|b [|c [|d ws]]]]; cbn [length] in L; try lia. exists a, b, c. inversion F as [|? ? Fa F1]; inversion F1 as [|? ? Fb F2]; inversion F2 as [|? ? Fc F3]. subst.
  split; [reflexivity|]. split; [auto|]. split; [auto|]. unfold word in *. cbn [wval] in U. change (2 ^ 80) with (2 ^ 64 * 2 ^ 16) in U. change (2 ^ 64) with (2 ^ 32 * 2 ^ 32) in U. rewrite p32 in *. change (2 ^ 16) with 65536 in *. lia.
Qed.
Lemma land_ones_lt : forall x k, 0 <= k -> 0 <= x < 2 ^ k -> Z.land x (Z.ones k) = x.
Proof. intros x k K X. rewrite Z.land_ones by auto. apply Z.mod_small. auto. Qed.
(** The operands of the multiplication: one bit longer, and that bit clear. *)
Lemma operand_ok : forall m, wf m -> bits m = 80 ->
  let r := MSB_clear (Copy_to (MANT_BITS + 1) m) in wf r /\ bits r = 81 /\ uval r = uval m.
Proof.
  intros m W B r. destruct (wf80 m W B) as (a & b & c & E & Wa & Wb & Wc). subst m.
  assert (R : r = BV 81 [a; b; c]).
  { unfold r, MSB_clear, Copy_to. cbn [bits wds]. change (mask_ 80) with 65535. change (mask_ (MANT_BITS + 1)) with 131071. change (MANT_BITS + 1) with 81. change (Z.to_nat (Size 81)) with 3%nat.
    change (wnot 65535) with 4294901760. change (Z.lor (wnot 131071) (shr 131071 1)) with 4294901759.
    change (lastw [a; b; c]) with c.
    destruct (nz _); cbn [orlast mlast firstn app length repeat Nat.sub]; change (mask_ 81) with 131071; change (Z.lor (wnot 131071) (shr 131071 1)) with 4294901759; do 2 f_equal; f_equal; f_equal.
    - rewrite <- Z.land_assoc. change (Z.land 131071 4294901759) with (Z.ones 16). rewrite Z.land_lor_distr_l. change (Z.land 4294901760 (Z.ones 16)) with 0. rewrite Z.lor_0_r. apply land_ones_lt; lia.
    - rewrite <- !Z.land_assoc. change (Z.land 65535 (Z.land 131071 4294901759)) with (Z.ones 16). apply land_ones_lt; lia. }
  rewrite R. unfold wf, uval. cbn [bits wds]. split; [|auto]. split; [lia|]. split; [reflexivity|]. split.
  - apply Forall_cons; [auto|]. apply Forall_cons; [auto|]. apply Forall_cons; [|apply Forall_nil]. unfold word. change (2 ^ 16) with 65536 in *. rewrite p32. lia.
  - destruct W as (_ & _ & _ & U). unfold uval in U. cbn [bits wds] in U. eapply Z.lt_trans; [exact U|]. apply Z.pow_lt_mono_r; lia.
Qed.
Lemma Resize_up : forall v n, wf v -> bits v < n -> let r := Resize v n in wf r /\ bits r = n /\ uval r = uval v.
Proof.
  intros v n W N r. unfold r, Resize. rewrite mlast_id by auto. pose proof (wf_range v W) as Rv. destruct W as (N0 & L & F & U).
  assert (LS : Size n = (n + 31) / 32).
  { unfold Size. rewrite modmask_eq, logbits_eq. pose proof (Z.div_mod n 32 ltac:(lia)). pose proof (Z.mod_pos_bound n 32 ltac:(lia)). unfold nz. destruct (Z.eqb_spec (n mod 32) 0); cbn [negb].
    - apply (Z.div_unique _ _ _ 31); lia.
    - apply (Z.div_unique _ _ _ (n mod 32 - 1)); lia. }
  assert (LE : (bits v + 31) / 32 <= (n + 31) / 32) by (apply Z.div_le_mono; lia).
  assert (POW : 2 ^ bits v <= 2 ^ n) by (apply Z.pow_le_mono_r; lia).
  destruct (Nat.leb_spec (Z.to_nat (Size n)) (length (wds v))) as [C|C].
  - assert (EL : length (wds v) = Z.to_nat (Size n)) by lia. rewrite firstn_all2 by lia.
    destruct (wf_mlast n (wds v) ltac:(lia) ltac:(lia) F) as [A1 A2]. split; [exact A1|]. split; [reflexivity|]. rewrite A2. apply Z.mod_small. unfold uval in *. lia.
  - unfold wf, uval. cbn [bits wds]. rewrite wval_app, wval_zeros, Z.mul_0_r, Z.add_0_r. fold (uval v). split; [|auto]. split; [lia|]. split; [|split].
    + rewrite app_length, repeat_length. lia.
    + apply Forall_app. split; [auto|apply word_zeros].
    + lia.
Qed.
(** The product of two nonnegative vectors of 81 bits in a vector of 162 *)
Lemma product_ok : forall y z, wf y -> wf z -> bits y = 81 -> bits z = 81 -> 0 < uval y < 2 ^ 80 -> 0 < uval z < 2 ^ 80 ->
  let r := fst (Multiply_w (Create ((MANT_BITS + 1) * 2)) y z) in wf r /\ bits r = 162 /\ uval r = uval y * uval z.
Proof.
  intros y z Wy Wz By Bz Ry Rz r. unfold r, Multiply_w. change ((MANT_BITS + 1) * 2) with 162. change (bits (Create 162)) with 162. rewrite By, Bz. change (negb (81 =? 81) || (162 <? 81)) with false. cbv iota.
  rewrite !is_empty_ok by auto. destruct (Z.eqb_spec (uval y) 0); [lia|]. destruct (Z.eqb_spec (uval z) 0); [lia|]. cbn [orb]. rewrite !norm_id by auto. rewrite !msb_ok by auto. rewrite By, Bz. change (81 - 1) with 80.
  destruct (Z.leb_spec (2 ^ 80) (uval y)); [lia|]. destruct (Z.leb_spec (2 ^ 80) (uval z)); [lia|]. change (81 <? 162) with true. cbv iota. cbn [xorb].
  assert (WC : wf (Create 162)) by (unfold wf; cbn; repeat split; try lia; repeat constructor; unfold word; lia).
  assert (PB : uval y * uval z < 2 ^ 161) by (assert (uval y * uval z <= 2 ^ 80 * 2 ^ 80) by nia; change (2 ^ 80 * 2 ^ 80) with (2 ^ 160) in *; assert (2 ^ 160 < 2 ^ 161) by (apply Z.pow_lt_mono_r; lia); lia).
  assert (POW : 2 ^ 80 < 2 ^ 161) by (apply Z.pow_lt_mono_r; lia).
  destruct (gt_top _ _).
  - destruct (Resize_up y 162 Wy ltac:(lia)) as (W1 & B1 & U1). destruct (Mul_Pos_ok (Create 162) (Resize y 162) z true WC W1 ltac:(rewrite B1; reflexivity) ltac:(apply Wz)) as (x & E & Wx & Bx & Ux).
    { change (bits (Create 162)) with 162. rewrite U1. change (162 - 1) with 161. lia. }
    rewrite E. change (bits (Create 162)) with 162 in *. change (162 - 1) with 161 in *. rewrite U1 in *. destruct (Z.ltb_spec (uval y * uval z) (2 ^ 161)); [|lia]. cbn [fst]. auto.
  - destruct (Resize_up z 162 Wz ltac:(lia)) as (W1 & B1 & U1). destruct (Mul_Pos_ok (Create 162) (Resize z 162) y true WC W1 ltac:(rewrite B1; reflexivity) ltac:(apply Wy)) as (x & E & Wx & Bx & Ux).
    { change (bits (Create 162)) with 162. rewrite U1. change (162 - 1) with 161. lia. }
    rewrite E. change (bits (Create 162)) with 162 in *. change (162 - 1) with 161 in *. rewrite U1 in *. rewrite (Z.mul_comm (uval z)) in *. destruct (Z.ltb_spec (uval y * uval z) (2 ^ 161)); [|lia]. cbn [fst]. auto.
Qed.
Lemma is_full_ok : forall v, wf v -> is_full v = (uval v =? 2 ^ bits v - 1).
Proof.
  intros v W. destruct (orlast_ok v W) as (F & L & V). pose proof (wf_range v W) as R. destruct (full_pow _ _ (proj1 W) (proj1 (proj2 W))) as (e & Pe & E).
  assert (G : forall ws, Forall word ws -> forallb (fun w => wnot w =? 0) ws = (wval ws =? 2 ^ (32 * Z.of_nat (length ws)) - 1)).
  { induction 1 as [|w ws Ww Fw IH]; [reflexivity|]. cbn [forallb length wval]. rewrite IH, pow32S. pose proof (wval_range ws Fw) as Rw. unfold word, wnot, ONES in *. rewrite p32 in *.
    destruct (Z.eqb_spec (4294967295 - w) 0), (Z.eqb_spec (wval ws) (2 ^ (32 * Z.of_nat (length ws)) - 1)), (Z.eqb_spec (w + 4294967296 * wval ws) (4294967296 * 2 ^ (32 * Z.of_nat (length ws)) - 1)); auto; lia. }
  unfold is_full. destruct (wds v) as [|w ws] eqn:EW.
  - exfalso. destruct W as (N & Lw & _). rewrite EW in Lw. cbn in Lw. assert (0 < (bits v + 31) / 32) by (apply Z.div_str_pos; lia). lia.
  - rewrite <- EW in *. rewrite G by auto. rewrite V, L. destruct (Z.eqb_spec (uval v) (2 ^ bits v - 1)); [apply Z.eqb_eq; lia|apply Z.eqb_neq; lia].
Qed.
Lemma bit_test_ok : forall v i, wf v -> 0 <= i -> bit_test v i = Z.testbit (uval v) i.
Proof.
  intros v i W I. unfold bit_test. pose proof (wf_range v W) as R. destruct (Z.ltb_spec i (bits v)).
  - apply tst_ok; [apply W|auto].
  - symmetry. apply (testbit_small (bits v)); auto.
Qed.
Lemma Bit_Copy_ok : forall v i b, wf v -> 0 <= i < bits v -> Z.testbit (uval v) i = false ->
  let r := Bit_Copy v i b in wf r /\ bits r = bits v /\ uval r = uval v + b2z b * 2 ^ i.
Proof.
  intros v i b W I T r. unfold r, Bit_Copy. destruct (Z.ltb_spec i (bits v)); [|lia]. destruct (put_bit v i b W I) as (U & F & L & _). cbv zeta in *. rewrite T in U. cbn [b2z] in U. rewrite Z.mul_0_l, Z.sub_0_r in U.
  split; [|split; [reflexivity|exact U]]. pose proof (wf_range v W) as R. destruct W as (N & LW & FW & UW). split; [cbn [bits]; auto|]. split; [cbn [bits wds] in *; lia|]. split; [exact F|].
  rewrite U. cbn [bits]. destruct b; cbn [b2z]; [|lia]. rewrite Z.mul_1_l.
  (* bit i is clear, so adding it stays below 2^bits *)
  assert (A : uval v + 2 ^ i = Z.lor (uval v) (2 ^ i)).
  { rewrite lor_disjoint_add; [reflexivity|]. rewrite land_pow2 by lia. rewrite T. reflexivity. }
  rewrite A. assert (0 <= Z.lor (uval v) (2 ^ i)) by (apply Z.lor_nonneg; split; [lia|apply Z.pow_nonneg; lia]).
  destruct (Z.eq_dec (Z.lor (uval v) (2 ^ i)) 0); [rewrite e; apply pow2_pos; lia|]. apply Z.log2_lt_pow2; [lia|]. rewrite Z.log2_lor by (try lia; apply Z.pow_nonneg; lia). rewrite Z.log2_pow2 by lia.
  destruct (Z.eq_dec (uval v) 0) as [Z0|Z0]; [rewrite Z0; cbn; lia|]. assert (Z.log2 (uval v) < bits v) by (apply Z.log2_lt_pow2; lia). lia.
Qed.

(** * Multiplication *)
Definition norm80 (f : flt) : Prop := wf (mant f) /\ bits (mant f) = 80 /\ 2 ^ 79 <= uval (mant f).
Lemma norm80_range : forall f, norm80 f -> 2 ^ 79 <= uval (mant f) < 2 ^ 80.
Proof. intros f (W & B & R). pose proof (wf_range _ W) as R2. rewrite B in R2. lia. Qed.
Lemma u16_small : forall x, 0 <= x < 65536 -> u16 x = x.
Proof. intros. apply Z.mod_small. change (2 ^ 16) with 65536. auto. Qed.
Lemma testbit_mod_div : forall m sh k i, 0 <= sh -> 0 <= k -> 0 <= i -> Z.testbit ((m / 2 ^ sh) mod 2 ^ k) i = (i <? k) && Z.testbit m (i + sh).
Proof.
  intros m sh k i S K I. destruct (Z.ltb_spec i k).
  - rewrite Z.mod_pow2_bits_low by lia. cbn [andb]. apply Z.div_pow2_bits; lia.
  - rewrite Z.mod_pow2_bits_high by lia. reflexivity.
Qed.
Lemma fmul_ok : forall f g, norm80 f -> norm80 g -> 0 <= expo f <= 65534 -> 0 <= expo g <= 65534 ->
  let x := expo f + expo g - 32767 in let P := uval (mant f) * uval (mant g) in
  exists r, fmul f g = Some r /\ wf (mant r) /\ bits (mant r) = 80 /\ sign r = xorb (sign f) (sign g) /\ iszero r = iszero f /\
    (65534 < x -> uval (mant r) = 0 /\ expo r = 65535) /\
    (x < 1 -> uval (mant r) = 0 /\ expo r = 0) /\
    (1 <= x <= 65534 -> 2 ^ 159 <= P -> uval (mant r) = P / 2 ^ 80 /\ expo r = x + 1) /\
    (1 <= x <= 65534 -> P < 2 ^ 159 -> uval (mant r) = P / 2 ^ 79 /\ expo r = x).
Proof.
  intros f g Nf Ng Ef Eg x P. pose proof (norm80_range f Nf) as Rf. pose proof (norm80_range g Ng) as Rg. destruct Nf as (Wf & Bf & Lf), Ng as (Wg & Bg & Lg).
  set (P79 := 2 ^ 79) in *. set (P80 := 2 ^ 80) in *. assert (E80 : P80 = 2 * P79) by reflexivity. assert (0 < P79) by reflexivity.
  unfold fmul. rewrite !is_empty_ok by auto. destruct (Z.eqb_spec (uval (mant f)) 0); [lia|]. destruct (Z.eqb_spec (uval (mant g)) 0); [lia|]. cbn [orb]. destruct (Empty_ok (mant f) Wf) as (We & Be & Ue).
  replace (expo f - EXP_BIAS + (expo g - EXP_BIAS) + EXP_BIAS) with x by (unfold x, EXP_BIAS; lia).
  destruct (Z.ltb_spec EXP_MAX x) as [O|O]; unfold EXP_MAX in O.
  { eexists. split; [reflexivity|]. cbn [mant sign iszero expo]. rewrite Be, Ue. do 4 (split; [auto|]). split; [auto|]. split; [intros; lia|]. split; intros; lia. }
  destruct (Z.ltb_spec x EXP_MIN) as [U|U]; unfold EXP_MIN in U.
  { eexists. split; [reflexivity|]. cbn [mant sign iszero expo]. rewrite Be, Ue. do 4 (split; [auto|]). split; [intros; lia|]. split; [auto|]. split; intros; lia. }
  destruct (operand_ok (mant f) Wf Bf) as (W1 & B1 & U1). destruct (operand_ok (mant g) Wg Bg) as (W2 & B2 & U2).
  destruct (product_ok _ _ W1 W2 B1 B2 ltac:(rewrite U1; fold P80; lia) ltac:(rewrite U2; fold P80; lia)) as (W3 & B3 & U3). rewrite U1, U2 in U3. fold P in U3.
  set (pr := fst (Multiply_w _ _ _)) in *. clearbody pr. clear W1 W2 B1 B2 U1 U2.
  assert (LO : 2 ^ 158 <= P) by (replace (2 ^ 158) with (P79 * P79) by reflexivity; unfold P; nia).
  assert (HI : P < 2 ^ 160) by (replace (2 ^ 160) with (P80 * P80) by reflexivity; unfold P; nia).
  rewrite u16_small by lia. rewrite Set_Max_ok by apply W3. rewrite U3. destruct (Z.eqb_spec P 0); [lia|].
  set (amt := Z.min (MANT_BITS * 2 - 1 - Z.log2 P) (x + 1)).
  assert (AM : amt = if 2 ^ 159 <=? P then 0 else 1).
  { unfold amt. change (MANT_BITS * 2 - 1) with 159. destruct (Z.leb_spec (2 ^ 159) P).
    - rewrite (Z.log2_unique P 159) by (try lia; change (Z.succ 159) with 160; lia). lia.
    - rewrite (Z.log2_unique P 158) by (try lia; change (Z.succ 158) with 159; lia). lia. }
  assert (AR : 0 <= amt <= 1) by (rewrite AM; destruct (2 ^ 159 <=? P); lia).
  destruct (Move_Left_ok pr amt W3 ltac:(lia)) as (W4 & B4 & U4). rewrite B3 in B4, U4. rewrite U3 in U4.
  assert (U5 : uval (Move_Left pr amt) = P * 2 ^ amt).
  { rewrite U4. apply Z.mod_small. split; [unfold P; nia|]. assert (2 ^ amt <= 2) by (rewrite AM; destruct (2 ^ 159 <=? P); cbn; lia). assert (0 < 2 ^ amt) by (apply pow2_pos; lia). change (2 ^ 162) with (2 ^ 160 * 4). unfold P in *. nia. }
  destruct (Interval_Copy_ok (mant f) (Move_Left pr amt) 0 MANT_BITS MANT_BITS Wf W4 ltac:(rewrite Bf; lia) ltac:(rewrite B4; unfold MANT_BITS; lia) ltac:(unfold MANT_BITS; lia)) as (r & E & Wr & Br & T).
  rewrite E. eexists. split; [reflexivity|]. cbn [mant sign iszero expo]. rewrite Br. split; [auto|]. split; [auto|]. split; [auto|]. split; [auto|].
  assert (UR : uval r = (P * 2 ^ amt) / P80).
  { assert (SM : 0 <= P * 2 ^ amt / P80 < P80).
    { split; [apply Z.div_pos; [|lia]; assert (0 < 2 ^ amt) by (apply pow2_pos; lia); unfold P; nia|]. apply Z.div_lt_upper_bound; [lia|]. replace (P80 * P80) with (2 ^ 160) by reflexivity. rewrite AM. destruct (Z.leb_spec (2 ^ 159) P); [rewrite Z.pow_0_r; lia|]. change (2 ^ 1) with 2. change (2 ^ 160) with (2 ^ 159 * 2). lia. }
    rewrite <- (Z.mod_small _ _ SM). apply Z.bits_inj'. intros i I. rewrite T by auto. unfold P80. rewrite testbit_mod_div by lia. rewrite U5, Bf, B4. change MANT_BITS with 80. change (Z.min 80 (Z.min (80 - 0) (162 - 80))) with 80.
    destruct (Z.leb_spec 0 i); [|lia]. rewrite Z.add_0_l, Z.sub_0_r. cbn [andb]. destruct (Z.ltb_spec i 80); [reflexivity|]. cbn [andb]. apply (testbit_small 80); [fold P80; lia|lia]. }
  rewrite UR. rewrite (u16_small amt) by lia. rewrite u16_small by lia. split; [intros; lia|]. split; [intros; lia|]. rewrite AM. split; intros _ G.
  - destruct (Z.leb_spec (2 ^ 159) P); [|lia]. rewrite Z.pow_0_r, Z.mul_1_r. split; [reflexivity|lia].
  - destruct (Z.leb_spec (2 ^ 159) P); [lia|]. change (2 ^ 1) with 2. split; [|lia]. rewrite E80, (Z.mul_comm 2). apply Z.div_mul_cancel_r; lia.
Qed.

(** * Normalizing, reading digits, the last increment *)
Lemma normalize_ok : forall f, wf (mant f) -> bits (mant f) = 80 -> 0 < uval (mant f) -> 79 <= expo f <= 65535 ->
  let r := normalize f in let a := 79 - Z.log2 (uval (mant f)) in
  norm80 r /\ 0 <= a <= 79 /\ uval (mant r) = uval (mant f) * 2 ^ a /\ expo r = expo f - a /\ sign r = sign f /\ iszero r = iszero f.
Proof.
  intros f W B U E r a. pose proof (wf_range _ W) as R. rewrite B in R. unfold r, normalize. rewrite is_empty_ok by auto. destruct (Z.eqb_spec (uval (mant f)) 0); [lia|].
  rewrite Set_Max_ok by apply W. destruct (Z.eqb_spec (uval (mant f)) 0); [lia|]. change (MANT_BITS - 1) with 79. fold a.
  assert (AR : 0 <= a <= 79). { unfold a. pose proof (Z.log2_nonneg (uval (mant f))). assert (Z.log2 (uval (mant f)) < 80) by (apply Z.log2_lt_pow2; lia). lia. }
  rewrite Z.min_l by lia. cbn [mant expo sign iszero]. destruct (Move_Left_ok (mant f) a W ltac:(lia)) as (W1 & B1 & U1). rewrite B in *.
  pose proof (Z.log2_spec (uval (mant f)) ltac:(lia)) as [L1 L2].
  assert (P79 : 2 ^ 79 = 2 ^ Z.log2 (uval (mant f)) * 2 ^ a) by (rewrite <- Z.pow_add_r by (try apply Z.log2_nonneg; lia); f_equal; unfold a; lia).
  assert (P80 : 2 ^ 80 = 2 ^ Z.succ (Z.log2 (uval (mant f))) * 2 ^ a) by (rewrite <- Z.pow_add_r by (pose proof (Z.log2_nonneg (uval (mant f))); lia); f_equal; unfold a; lia).
  assert (PA : 0 < 2 ^ a) by (apply pow2_pos; lia).
  assert (U2 : uval (Move_Left (mant f) a) = uval (mant f) * 2 ^ a) by (rewrite U1; apply Z.mod_small; rewrite P80; nia).
  split; [split; [auto|split; [auto|]]; cbn [mant]; rewrite U2, P79; nia|]. split; [auto|]. split; [auto|]. split; [|auto]. rewrite (u16_small a) by lia. apply u16_small. lia.
Qed.
Lemma mul10_ok : forall m d, wf m -> bits m = 80 -> 0 <= d <= 9 -> 10 * uval m + d < 2 ^ 80 ->
  wf (mul10 m d) /\ bits (mul10 m d) = 80 /\ uval (mul10 m d) = 10 * uval m + d.
Proof.
  intros m d W B D L. pose proof (wf_range m W) as R. rewrite B in R. unfold mul10. cbv zeta.
  destruct (shift_left_ok m false W) as (m1 & E1 & W1 & B1 & U1). rewrite E1. cbn [fst]. rewrite B in B1, U1. cbn [b2z] in U1.
  assert (V1 : uval m1 = 2 * uval m) by (rewrite U1, Z.add_0_r; apply Z.mod_small; lia). unfold Copy. rewrite norm_id by auto.
  destruct (Move_Left_ok m1 2 W1 ltac:(lia)) as (W2 & B2 & U2). rewrite B1 in B2, U2. assert (V2 : uval (Move_Left m1 2) = 8 * uval m) by (rewrite U2, V1; change (2 ^ 2) with 4; rewrite Z.mod_small; lia).
  destruct (add_ok m1 (Move_Left m1 2) false W1 W2 ltac:(congruence)) as (a & E3 & W3 & B3 & U3). rewrite E3. cbn [fst]. cbn [b2z] in U3. rewrite B1 in B3, U3. assert (V3 : uval a = 10 * uval m) by (rewrite U3, V1, V2, Z.mod_small; lia).
  destruct (Empty_ok m1 W1) as (W4 & B4 & U4). rewrite B1 in B4.
  destruct (Chunk_Store_ok (Empty m1) 4 0 d W4 ltac:(lia) ltac:(lia)) as (W5 & B5 & T5). rewrite B4 in B5, T5. change (chunk_len 80 0 4) with 4 in T5.
  assert (V5 : uval (Chunk_Store (Empty m1) 4 0 d) = d).
  { apply Z.bits_inj'. intros i I. rewrite T5 by auto. rewrite U4, Z.bits_0, Z.sub_0_r. destruct (Z.leb_spec 0 i); [|lia]. cbn [andb]. destruct (Z.ltb_spec i (0 + 4)); [reflexivity|]. symmetry. apply (testbit_small 4); [change (2 ^ 4) with 16|]; lia. }
  destruct (add_ok a (Chunk_Store (Empty m1) 4 0 d) false W3 W5 ltac:(congruence)) as (s & E6 & W6 & B6 & U6). rewrite E6. cbn [fst]. cbn [b2z] in U6. rewrite B3 in B6, U6. split; [auto|]. split; [auto|]. rewrite U6, V3, V5. rewrite Z.mod_small; lia.
Qed.
Lemma final_round_ok : forall f, norm80 f -> 1 <= expo f <= 65534 -> let r := final_round f in norm80 r /\ expo r = expo f /\ sign r = sign f /\ iszero r = iszero f /\
  uval (mant r) = if uval (mant f) =? 2 ^ 80 - 1 then uval (mant f) else uval (mant f) + 1.
Proof.
  intros f N E r. pose proof (norm80_range f N) as R. destruct N as (W & B & L). unfold r, final_round. destruct (Z.eqb_spec (expo f) EXP_INF) as [X|X]; [unfold EXP_INF in X; lia|]. destruct (Z.eqb_spec (expo f) EXP_ZERO) as [Y|Y]; [unfold EXP_ZERO in Y; lia|]. cbn [negb andb]. rewrite is_full_ok by auto. rewrite B.
  destruct (Z.eqb_spec (uval (mant f)) (2 ^ 80 - 1)); cbn [negb]; [repeat (split; [auto|]); auto|].
  destruct (increment_ok (mant f) W) as (x & EI & Wx & Bx & Ux). rewrite EI. cbn [fst mant expo sign iszero]. rewrite B in *. assert (V : uval x = uval (mant f) + 1) by (rewrite Ux, Z.mod_small; lia). split; [split; [auto|split; [auto|cbn [mant]; lia]]|]. auto.
Qed.

(** * Conversion to the output formats *)
Lemma wf_create : forall n, 0 < n -> wf (Create n) /\ bits (Create n) = n /\ uval (Create n) = 0.
Proof.
  intros n N. unfold Create, zeros, wf, uval. cbn [bits wds]. rewrite wval_zeros, repeat_length. split; [|auto]. split; [auto|]. split.
  - unfold Size. rewrite modmask_eq, logbits_eq. pose proof (Z.div_mod n 32 ltac:(lia)). pose proof (Z.mod_pos_bound n 32 ltac:(lia)). pose proof (Z.div_pos n 32 ltac:(lia) ltac:(lia)). unfold nz. destruct (Z.eqb_spec (n mod 32) 0); cbn [negb]; rewrite Z2Nat.id by lia.
    + apply (Z.div_unique _ _ _ 31); lia.
    + apply (Z.div_unique _ _ _ (n mod 32 - 1)); lia.
  - split; [apply word_zeros|apply pow2_pos; lia].
Qed.
Lemma chunk_fits : forall n off chunk, chunk <= 64 -> off + chunk <= n -> chunk_len n off chunk = chunk.
Proof. intros. unfold chunk_len. lia. Qed.
(** The last steps: exponent and sign go above the mantissa, and the bytes come out. *)
Lemma emit_ok : forall out n bs mb eb e sg, wf out -> bits out = n -> n = 8 * bs -> n = mb + eb + 1 -> 0 < mb -> 1 <= eb <= 15 -> 0 <= e < 2 ^ eb -> uval out < 2 ^ mb ->
  let buf := Block_Read (Bit_Copy (Chunk_Store out eb mb e) (n - 1) sg) in
  bs <= Z.of_nat (length buf) /\ Forall byte (firstn (Z.to_nat bs) buf) /\ length (firstn (Z.to_nat bs) buf) = Z.to_nat bs /\
  lev (firstn (Z.to_nat bs) buf) = uval out + 2 ^ mb * e + 2 ^ (n - 1) * b2z sg.
Proof.
  intros out n bs mb eb e sg W B N1 N2 M E EV UO buf. pose proof (wf_range out W) as R. destruct (Chunk_Store_ok out eb mb e W ltac:(lia) ltac:(lia)) as (W1 & B1 & T1). rewrite B in *. rewrite chunk_fits in T1 by lia. set (c := Chunk_Store out eb mb e) in *. clearbody c.
  pose proof (pow2_pos mb ltac:(lia)) as PM. pose proof (pow2_pos eb ltac:(lia)) as PE.
  assert (V1 : uval c = uval out + 2 ^ mb * e).
  { apply Z.bits_inj'. intros i I. rewrite T1 by auto. rewrite testbit_add_shift by lia. destruct (Z.leb_spec mb i); destruct (Z.ltb_spec i mb); try lia; cbn [andb]; [|reflexivity].
    destruct (Z.ltb_spec i (mb + eb)); [reflexivity|]. rewrite (testbit_small mb (uval out)) by lia. symmetry. apply (testbit_small eb); lia. }
  assert (NP : 2 ^ (n - 1) = 2 ^ mb * 2 ^ eb) by (rewrite <- Z.pow_add_r by lia; f_equal; lia).
  assert (LT : uval c < 2 ^ (n - 1)) by (rewrite V1, NP; nia). assert (GE : 0 <= uval c) by (rewrite V1; nia).
  destruct (Bit_Copy_ok c (n - 1) sg W1 ltac:(lia) ltac:(apply (testbit_small (n - 1)); lia)) as (W2 & B2 & U2). unfold buf. set (o := Bit_Copy c (n - 1) sg) in *. clearbody o.
  destruct (Block_Read_ok o W2) as (F & L & V). pose proof (wf_cover o W2) as CO. rewrite L.
  assert (LB : (Z.to_nat bs <= 4 * length (wds o))%nat) by lia.
  split; [lia|]. split; [apply Forall_firstn; auto|]. split; [apply firstn_length_le; lia|]. rewrite lev_firstn by auto. rewrite V, U2, V1, Z2Nat.id by lia. rewrite Z.mul_comm with (n := b2z sg). apply Z.mod_small. change 256 with (2 ^ 8). rewrite <- Z.pow_mul_r by lia. rewrite <- N1. assert (2 ^ n = 2 * 2 ^ (n - 1)) by (rewrite <- Z.pow_succ_r by lia; f_equal; lia). destruct sg; cbn [b2z]; nia.
Qed.
Lemma get_common_ok : forall f bs mb imp eb, wf (mant f) -> bits (mant f) = 80 -> 0 <= expo f <= 65535 -> imp = 0 \/ imp = 1 -> 0 < mb -> 1 <= eb <= 15 -> 8 * bs = mb + eb + 1 -> mb + imp < 80 ->
  let m := uval (mant f) in let sh := 80 - imp - mb in let t := (m / 2 ^ sh) mod 2 ^ mb + b2z (Z.testbit m (sh - 1)) in
  let e := expo f + b2z (t =? 2 ^ mb) - 32767 + (2 ^ (eb - 1) - 1) in let inf := 2 ^ eb - 1 in let s := 2 ^ (mb + eb) * b2z (sign f) in
  exists b ret, get_common f bs mb imp eb = Some (b, ret) /\ Forall byte b /\ length b = Z.to_nat bs /\
    (e <= 0 -> ret = (if iszero f then 0 else -1) /\ lev b = s) /\
    (inf <= e -> ret = 1 /\ lev b = 2 ^ mb * inf + s) /\
    (1 <= e < inf -> ret = 0 /\ lev b = (if t =? 2 ^ mb then b2z (imp =? 0) * 2 ^ (mb - 1) else t) + 2 ^ mb * e + s).
Proof.
  intros f bs mb imp eb W B E I M EB BS MI m sh t e inf s. unfold get_common. rewrite !Z.shiftl_mul_pow2 by lia. rewrite !Z.mul_1_l.
  destruct (wf_create (bs * 8) ltac:(lia)) as (WC & BC & UC). change MANT_BITS with 80. fold sh.
  destruct (Interval_Copy_ok (Create (bs * 8)) (mant f) 0 sh mb WC W ltac:(lia) ltac:(unfold sh; lia) M) as (o0 & E0 & W0 & B0 & T0). rewrite E0. rewrite BC, B in *.
  assert (V0 : uval o0 = (m / 2 ^ sh) mod 2 ^ mb).
  { apply Z.bits_inj'. intros i I0. rewrite T0 by auto. rewrite testbit_mod_div by (unfold sh; lia). rewrite UC, Z.bits_0. rewrite Z.min_l by (unfold sh; lia). rewrite Z.add_0_l, Z.sub_0_r. destruct (Z.leb_spec 0 i); [|lia]. cbn [andb]. destruct (i <? mb); reflexivity. }
  pose proof (pow2_pos mb ltac:(lia)) as PM. pose proof (Z.mod_pos_bound (m / 2 ^ sh) (2 ^ mb) PM) as RM.
  replace (80 - imp - (mb + 1)) with (sh - 1) by (unfold sh; lia). rewrite (bit_test_ok (mant f) (sh - 1)) by (auto; unfold sh; lia). fold m.
  assert (NB : 2 ^ (bs * 8) = 2 ^ mb * 2 ^ eb * 2) by (replace (bs * 8) with (mb + eb + 1) by lia; rewrite !Z.pow_add_r by lia; reflexivity). pose proof (pow2_pos eb ltac:(lia)) as PE.
  assert (O1 : exists o1, (if Z.testbit m (sh - 1) then fst (increment o0) else o0) = o1 /\ wf o1 /\ bits o1 = bs * 8 /\ uval o1 = t).
  { unfold t. destruct (Z.testbit m (sh - 1)); cbn [b2z].
    - destruct (increment_ok o0 W0) as (x & EX & WX & BX & UX). rewrite EX. exists x. rewrite B0 in *. rewrite V0 in UX. split; [reflexivity|]. split; [auto|]. split; [auto|]. rewrite UX. apply Z.mod_small. rewrite NB. nia.
    - exists o0. rewrite V0, Z.add_0_r. auto. }
  destruct O1 as (o1 & -> & W1 & B1 & U1). rewrite bit_test_ok by (auto; lia). rewrite U1.
  assert (TR : 0 <= t <= 2 ^ mb) by (unfold t; destruct (Z.testbit m (sh - 1)); cbn [b2z]; lia).
  assert (TB : Z.testbit t mb = (t =? 2 ^ mb)).
  { destruct (Z.eqb_spec t (2 ^ mb)) as [X|X]; [rewrite X; apply Z.pow2_bits_true; lia|]. apply (testbit_small mb); lia. }
  rewrite TB. set (c := t =? 2 ^ mb) in *. destruct (Empty_ok o1 W1) as (WE & BE & UE). rewrite B1 in BE.
  set (o2 := if c then Bit_Copy (Empty o1) (mb - 1) (imp =? 0) else o1).
  assert (O2 : wf o2 /\ bits o2 = bs * 8 /\ uval o2 = (if c then b2z (imp =? 0) * 2 ^ (mb - 1) else t) /\ uval o2 < 2 ^ mb).
  { unfold o2. destruct c eqn:CE; unfold c in CE.
    - destruct (Bit_Copy_ok (Empty o1) (mb - 1) (imp =? 0) WE ltac:(lia) ltac:(rewrite UE; apply Z.bits_0)) as (A1 & A2 & A3). rewrite UE, Z.add_0_l in A3. rewrite BE in A2. split; [auto|]. split; [auto|]. split; [auto|]. rewrite A3. assert (2 ^ mb = 2 * 2 ^ (mb - 1)) by (rewrite <- Z.pow_succ_r by lia; f_equal; lia). pose proof (pow2_pos (mb - 1) ltac:(lia)). destruct (imp =? 0); cbn [b2z]; lia.
    - apply Z.eqb_neq in CE. split; [auto|]. split; [auto|]. split; [auto|]. lia. }
  destruct O2 as (W2 & B2 & U2 & L2). clearbody o2. destruct (Empty_ok o2 W2) as (WE2 & BE2 & UE2). rewrite B2 in BE2.
  assert (BIAS : 2 ^ eb = 2 * 2 ^ (eb - 1)) by (rewrite <- Z.pow_succ_r by lia; f_equal; lia). assert (BP : 0 < 2 ^ (eb - 1)) by (apply pow2_pos; lia). assert (BL : 2 ^ (eb - 1) <= 2 ^ 14) by (apply Z.pow_le_mono_r; lia). change (2 ^ 14) with 16384 in BL.
  fold inf. unfold EXP_INF, EXP_BIAS.
  set (over1 := c && (65535 <=? expo f + 1)). set (e1 := if c && negb (65535 <=? expo f + 1) then expo f + 1 else expo f). set (e2 := e1 - (32767 - (2 ^ (eb - 1) - 1))).
  assert (FIN : forall out e3 ret, wf out -> bits out = bs * 8 -> uval out < 2 ^ mb -> 0 <= e3 < 2 ^ eb ->
    exists b, (if Z.of_nat (length (Block_Read (Bit_Copy (Chunk_Store out eb mb e3) (bs * 8 - 1) (sign f)))) <? bs then None
      else Some (firstn (Z.to_nat bs) (Block_Read (Bit_Copy (Chunk_Store out eb mb e3) (bs * 8 - 1) (sign f))), ret)) = Some (b, ret : Z) /\
      Forall byte b /\ length b = Z.to_nat bs /\ lev b = uval out + 2 ^ mb * e3 + s).
  { intros out e3 ret Wo Bo Uo Eo. destruct (emit_ok out (bs * 8) bs mb eb e3 (sign f) Wo Bo ltac:(lia) ltac:(lia) M EB Eo Uo) as (X1 & X2 & X3 & X4). destruct (Z.ltb_spec (Z.of_nat (length (Block_Read (Bit_Copy (Chunk_Store out eb mb e3) (bs * 8 - 1) (sign f))))) bs); [lia|]. eexists. split; [reflexivity|]. split; [exact X2|]. split; [exact X3|]. rewrite X4. unfold s. replace (bs * 8 - 1) with (mb + eb) by lia. reflexivity. }
  assert (KEY : (over1 = true -> inf <= e2 /\ inf <= e) /\ (over1 = false -> e2 = e)).
  { unfold over1, e2, e1, e, inf. fold c. destruct c; cbn [andb b2z]; [|split; [discriminate|intros _; lia]]. destruct (Z.leb_spec 65535 (expo f + 1)); cbn [negb]; split; intros G; try discriminate; lia. }
  destruct KEY as [K1 K2].
  assert (OV : over1 || (inf <=? e2) = (inf <=? e)).
  { destruct over1; [|rewrite K2 by auto; reflexivity]. destruct (K1 eq_refl). symmetry. apply Z.leb_le. auto. }
  assert (UV : negb (inf <=? e2) && (e2 <=? 0) = (e <=? 0)).
  { destruct over1; [|rewrite K2 by auto; destruct (Z.leb_spec inf e), (Z.leb_spec e 0); auto; unfold inf in *; lia]. destruct (K1 eq_refl). destruct (Z.leb_spec inf e2); [|lia]. destruct (Z.leb_spec e 0); [unfold inf in *; lia|reflexivity]. }
  rewrite OV, UV. clear OV UV. destruct (Z.leb_spec e 0) as [Un|Un].
  { destruct (Z.leb_spec inf e); [unfold inf in *; lia|]. cbn [andb]. destruct (FIN (Empty o2) 0 (if iszero f then 0 else -1) WE2 BE2 ltac:(rewrite UE2; lia) ltac:(lia)) as (b & Eb & Fb & Lb & Vb). rewrite Eb. eexists _, _. split; [reflexivity|]. split; [auto|]. split; [auto|]. split; [intros _; split; [auto|rewrite Vb, UE2; lia]|]. split; intros; lia. }
  destruct (Z.leb_spec inf e) as [Ov|Ov]; cbn [andb].
  { destruct (FIN (Empty o2) inf 1 WE2 BE2 ltac:(rewrite UE2; lia) ltac:(unfold inf; lia)) as (b & Eb & Fb & Lb & Vb). rewrite Eb. eexists _, _. split; [reflexivity|]. split; [auto|]. split; [auto|]. split; [intros; lia|]. split; [intros _; split; [auto|rewrite Vb, UE2; lia]|intros; lia]. }
  assert (over1 = false) by (destruct over1; [destruct (K1 eq_refl); lia|reflexivity]). rewrite K2 by auto.
  destruct (FIN o2 e 0 W2 B2 L2 ltac:(unfold inf in Ov; lia)) as (b & Eb & Fb & Lb & Vb). rewrite Eb. eexists _, _. split; [reflexivity|]. split; [auto|]. split; [auto|]. split; [intros; lia|]. split; [intros; lia|]. intros _. split; [auto|]. rewrite Vb, U2. reflexivity.
Qed.
