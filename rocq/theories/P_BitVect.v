(** Specification and proofs for bitvect.c: words against integers (C01-C03). *)
From Coq Require Import ZArith List Bool Lia.
From Verif Require Import Lib LibBits M_BitVect.
Import ListNotations.
Open Scope Z_scope.

(** * Specification *)
(** The unsigned and signed integer a vector stands for. *)
Fixpoint wval (ws : list Z) : Z := match ws with [] => 0 | w :: t => w + 2 ^ 32 * wval t end.
Definition uval (v : bv) : Z := wval (wds v).
Definition sval (v : bv) : Z := sgn (bits v) (uval v).
Definition word (w : Z) : Prop := 0 <= w < 2 ^ 32.
(** A vector as BitVector_Create makes it and every operation leaves it: the right number of
    words, and no bit set beyond [bits]. *)
Definition wf (v : bv) : Prop :=
  0 < bits v /\ Z.of_nat (length (wds v)) = (bits v + 31) / 32 /\ Forall word (wds v) /\ uval v < 2 ^ bits v.
Definition fits (n x : Z) : Prop := - 2 ^ (n - 1) <= x < 2 ^ (n - 1).

Ltac conj := repeat match goal with |- _ /\ _ => split end.

(** * Words *)
Lemma p32 : 2 ^ 32 = 4294967296. Proof. reflexivity. Qed.
Lemma ONES_eq : ONES = 2 ^ 32 - 1. Proof. reflexivity. Qed.
Lemma MSB_eq : MSB = 2 ^ 31. Proof. reflexivity. Qed.
Lemma u32_mod : forall x, u32 x = x mod 2 ^ 32. Proof. reflexivity. Qed.
Lemma wnot_word : forall w, word w -> word (wnot w).
Proof. unfold word, wnot, ONES. intros. rewrite p32 in *. lia. Qed.
Lemma u32_word : forall x, word (u32 x).
Proof. intros. apply u32_range. Qed.
Lemma shl_eq : forall w k, 0 <= k -> shl w k = (w * 2 ^ k) mod 2 ^ 32.
Proof. intros. unfold shl. rewrite Z.shiftl_mul_pow2 by auto. reflexivity. Qed.
Lemma shr_eq : forall w k, 0 <= k -> shr w k = w / 2 ^ k.
Proof. intros. unfold shr. apply Z.shiftr_div_pow2. auto. Qed.
Lemma land_LSB : forall w, Z.land w LSB = w mod 2.
Proof. intros. unfold LSB. change 1 with (Z.ones 1). rewrite Z.land_ones by lia. reflexivity. Qed.
Lemma nz_spec : forall w, nz w = true <-> w <> 0.
Proof. intros. unfold nz. destruct (Z.eqb_spec w 0); simpl; split; congruence. Qed.

Lemma wnot_bit : forall w i, word w -> 0 <= i -> Z.testbit (wnot w) i = (i <? 32) && negb (Z.testbit w i).
Proof.
  intros w i W I. unfold wnot. change ONES with (Z.ones 32). unfold word in W.
  rewrite Z.sub_nocarry_ldiff.
  - rewrite Z.ldiff_spec, Z.testbit_ones by lia. destruct (Z.leb_spec 0 i); [reflexivity|lia].
  - apply Z.bits_inj'. intros j J. rewrite Z.ldiff_spec, Z.testbit_ones, Z.bits_0 by lia.
    destruct (Z.leb_spec 0 j); [|lia]. destruct (Z.ltb_spec j 32); simpl.
    + apply andb_false_r.
    + rewrite (testbit_small 32) by lia. reflexivity.
Qed.
(** A single bit tested with a mask *)
Lemma land_pow2 : forall w k, 0 <= k -> Z.land w (2 ^ k) = (if Z.testbit w k then 2 ^ k else 0).
Proof.
  intros w k K. apply Z.bits_inj'. intros i I. rewrite Z.land_spec, Z.pow2_bits_eqb by auto.
  destruct (Z.eqb_spec k i).
  - subst. destruct (Z.testbit w i); [rewrite Z.pow2_bits_true by auto; reflexivity|rewrite Z.bits_0; reflexivity].
  - rewrite andb_false_r. destruct (Z.testbit w k); [rewrite Z.pow2_bits_false by auto; reflexivity|rewrite Z.bits_0; reflexivity].
Qed.
Lemma nz_land_pow2 : forall w k, 0 <= k -> nz (Z.land w (2 ^ k)) = Z.testbit w k.
Proof.
  intros w k K. rewrite land_pow2 by auto. unfold nz. pose proof (pow2_pos k K).
  destruct (Z.testbit w k); [destruct (Z.eqb_spec (2 ^ k) 0); [lia|reflexivity]|reflexivity].
Qed.
Lemma testbit_top : forall k x, 0 <= k -> 0 <= x < 2 ^ (k + 1) -> Z.testbit x k = (2 ^ k <=? x).
Proof.
  intros k x K R. pose proof (pow2_pos k K). replace (2 ^ (k + 1)) with (2 * 2 ^ k) in R by (rewrite Z.pow_add_r by lia; lia).
  rewrite Z.testbit_odd, Z.shiftr_div_pow2 by lia.
  destruct (Z.leb_spec (2 ^ k) x).
  - replace (x / 2 ^ k) with 1; [reflexivity|]. apply (Z.div_unique _ _ 1 (x - 2 ^ k)); lia.
  - rewrite Z.div_small by lia. reflexivity.
Qed.

(** * Lists of words *)
Lemma wval_app : forall a b, wval (a ++ b) = wval a + 2 ^ (32 * Z.of_nat (length a)) * wval b.
Proof.
  induction a as [|w a IH]; intros b.
  - cbn [app wval length]. change (32 * Z.of_nat 0) with 0. rewrite Z.pow_0_r. lia.
  - cbn [app wval length]. rewrite IH. replace (32 * Z.of_nat (S (length a))) with (32 + 32 * Z.of_nat (length a)) by lia.
    rewrite Z.pow_add_r by lia. ring.
Qed.
Lemma wval_range : forall ws, Forall word ws -> 0 <= wval ws < 2 ^ (32 * Z.of_nat (length ws)).
Proof.
  induction 1 as [|w ws W F IH].
  - cbn [wval length]. change (32 * Z.of_nat 0) with 0. rewrite Z.pow_0_r. lia.
  - cbn [wval length]. replace (32 * Z.of_nat (S (length ws))) with (32 + 32 * Z.of_nat (length ws)) by lia.
    rewrite Z.pow_add_r by lia. unfold word in W. pose proof (pow2_pos (32 * Z.of_nat (length ws)) ltac:(lia)). nia.
Qed.
Lemma wval_zeros : forall n, wval (repeat 0 n) = 0.
Proof. induction n; cbn [repeat wval]; lia. Qed.
Lemma word_zeros : forall n, Forall word (repeat 0 n).
Proof. intros. apply Forall_forall. intros x H. apply repeat_spec in H. subst. unfold word. rewrite p32. lia. Qed.
Lemma list_last : forall (ws : list Z), ws <> [] -> exists f l, ws = f ++ [l].
Proof. intros ws H. exists (removelast ws), (last ws 0). apply app_removelast_last. auto. Qed.
Lemma mlast_app : forall m f l, mlast m (f ++ [l]) = f ++ [Z.land l m].
Proof.
  induction f as [|w f IH]; intros l; auto. cbn [app mlast]. rewrite IH. destruct (f ++ [l]) eqn:E; auto. destruct f; discriminate.
Qed.
Lemma orlast_app : forall m f l, orlast m (f ++ [l]) = f ++ [Z.lor l m].
Proof.
  induction f as [|w f IH]; intros l; auto. cbn [app orlast]. rewrite IH. destruct (f ++ [l]) eqn:E; auto. destruct f; discriminate.
Qed.
Lemma mlast_length : forall m ws, length (mlast m ws) = length ws.
Proof. intros m ws. destruct ws as [|w ws]; auto. destruct (list_last (w :: ws)) as (f & l & E); [discriminate|]. rewrite E, mlast_app, !app_length. reflexivity. Qed.
Lemma lastw_app : forall f l, lastw (f ++ [l]) = l.
Proof. intros. unfold lastw. apply last_last. Qed.

(** [n] bits occupy [s] full words and [k] bits of another, 1 <= k <= 32. *)
Definition shape (n : Z) (s : nat) (k : Z) : Prop := n = 32 * Z.of_nat s + k /\ 1 <= k <= 32.
Lemma shape_ex : forall n (ws : list Z), 0 < n -> Z.of_nat (length ws) = (n + 31) / 32 ->
  exists f l k, ws = f ++ [l] /\ shape n (length f) k.
Proof.
  intros n ws N L. assert (D := Z.div_mod (n + 31) 32 ltac:(lia)). pose proof (Z.mod_pos_bound (n + 31) 32 ltac:(lia)).
  assert (0 < (n + 31) / 32) by (apply Z.div_str_pos; lia).
  destruct (list_last ws) as (f & l & E); [intros ->; simpl in L; lia|].
  exists f, l, (n - 32 * Z.of_nat (length f)). split; auto. subst ws. rewrite app_length in L. simpl in L.
  rewrite Nat2Z.inj_add in L. simpl in L. unfold shape. lia.
Qed.
Lemma shape_len : forall n s k, shape n s k -> (n + 31) / 32 = Z.of_nat s + 1.
Proof. intros n s k [-> K]. symmetry. apply (Z.div_unique _ _ _ (k - 1)); lia. Qed.
Lemma shape_mask : forall n s k, shape n s k -> mask_ n = 2 ^ k - 1.
Proof.
  intros n s k [-> K]. unfold mask_. assert (L : Z.land (32 * Z.of_nat s + k) MODMASK = k mod 32).
  { change MODMASK with (Z.ones 5). rewrite Z.land_ones by lia. change (2 ^ 5) with 32.
    replace (32 * Z.of_nat s + k) with (k + Z.of_nat s * 32) by lia. apply Z.mod_add. lia. }
  rewrite L. destruct (Z.eq_dec k 32) as [->|].
  - reflexivity.
  - rewrite Z.mod_small by lia. destruct (nz k) eqn:N; [|apply not_true_iff_false in N; rewrite nz_spec in N; lia].
    rewrite shl_eq by lia. unfold wnot, ONES. rewrite p32.
    assert (P : 4294967296 = 2 ^ k * 2 ^ (32 - k)) by (rewrite <- Z.pow_add_r by lia; replace (k + (32 - k)) with 32 by lia; reflexivity).
    pose proof (pow2_pos k ltac:(lia)). pose proof (pow2_pos (32 - k) ltac:(lia)).
    replace ((4294967295 * 2 ^ k) mod 4294967296) with (4294967296 - 2 ^ k); [lia|].
    apply (Z.mod_unique _ _ (2 ^ k - 1)); nia.
Qed.
Lemma shape_msb : forall n s k, shape n s k -> msbmask (mask_ n) = 2 ^ (k - 1).
Proof.
  intros n s k S. rewrite (shape_mask n s k S). destruct S as [_ K]. unfold msbmask.
  assert (P : 2 ^ k = 2 * 2 ^ (k - 1)) by (rewrite <- Z.pow_succ_r by lia; f_equal; lia).
  pose proof (pow2_pos (k - 1) ltac:(lia)).
  rewrite shr_eq by lia. change (2 ^ 1) with 2.
  replace ((2 ^ k - 1) / 2) with (2 ^ (k - 1) - 1) by (apply (Z.div_unique _ _ _ 1); lia).
  apply Z.bits_inj'. intros i I. rewrite Z.land_spec.
  pose proof (Z.pow_le_mono_r 2 (k - 1) 31 ltac:(lia) ltac:(lia)).
  rewrite wnot_bit by (auto; unfold word; rewrite p32; assert (2 ^ 31 = 2147483648) by reflexivity; lia).
  replace (2 ^ k - 1) with (Z.ones k) by (rewrite Z.ones_equiv; lia).
  replace (2 ^ (k - 1) - 1) with (Z.ones (k - 1)) by (rewrite Z.ones_equiv; lia).
  rewrite !Z.testbit_ones, Z.pow2_bits_eqb by lia.
  destruct (Z.leb_spec 0 i); [|lia]. simpl.
  destruct (Z.ltb_spec i k); destruct (Z.ltb_spec i (k - 1)); destruct (Z.ltb_spec i 32); destruct (Z.eqb_spec (k - 1) i); simpl; auto; lia.
Qed.
Lemma mod_split : forall A k v l, 0 < A -> 0 <= k -> 0 <= v < A -> (v + A * l) mod (A * 2 ^ k) = v + A * (l mod 2 ^ k).
Proof.
  intros A k v l HA K V. pose proof (pow2_pos k K). pose proof (Z.mod_pos_bound l (2 ^ k) ltac:(lia)).
  symmetry. apply (Z.mod_unique _ _ (l / 2 ^ k)).
  - left. nia.
  - rewrite (Z.div_mod l (2 ^ k)) at 1 by lia. ring.
Qed.
Lemma shape_pow : forall n s k, shape n s k -> 2 ^ n = 2 ^ (32 * Z.of_nat s) * 2 ^ k.
Proof. intros n s k [-> K]. apply Z.pow_add_r; lia. Qed.
(** Masking the last word reduces modulo 2^n. *)
Lemma mlast_val : forall n ws, 0 < n -> Z.of_nat (length ws) = (n + 31) / 32 -> Forall word ws ->
  wval (mlast (mask_ n) ws) = wval ws mod 2 ^ n /\ Forall word (mlast (mask_ n) ws).
Proof.
  intros n ws N L F. destruct (shape_ex n ws N L) as (f & l & k & -> & S).
  apply Forall_app in F. destruct F as [Ff Fl]. inversion Fl as [|? ? Wl _]; subst.
  rewrite mlast_app, (shape_mask _ _ _ S). destruct (S) as [_ K]. rewrite land_mask by lia.
  pose proof (wval_range f Ff) as R. rewrite !wval_app. cbn [wval]. rewrite Z.mul_0_r, !Z.add_0_r. split.
  - rewrite (shape_pow _ _ _ S). rewrite mod_split; auto; lia.
  - apply Forall_app. split; auto. constructor; auto. unfold word in *.
    pose proof (pow2_pos k ltac:(lia)). pose proof (Z.mod_pos_bound l (2 ^ k) ltac:(lia)). pose proof (Z.mod_le l (2 ^ k) ltac:(lia) ltac:(lia)). lia.
Qed.
Lemma wf_mlast : forall n ws, 0 < n -> Z.of_nat (length ws) = (n + 31) / 32 -> Forall word ws ->
  wf (BV n (mlast (mask_ n) ws)) /\ uval (BV n (mlast (mask_ n) ws)) = wval ws mod 2 ^ n.
Proof.
  intros n ws N L F. destruct (mlast_val n ws N L F) as [V W]. unfold wf, uval. cbn [bits wds]. rewrite mlast_length, V.
  pose proof (pow2_pos n ltac:(lia)). pose proof (Z.mod_pos_bound (wval ws) (2 ^ n) ltac:(lia)). conj; auto; lia.
Qed.
Lemma wf_range : forall v, wf v -> 0 <= uval v < 2 ^ bits v.
Proof. intros v (N & L & F & R). pose proof (wval_range _ F). unfold uval in *. lia. Qed.
Lemma norm_wf : forall v, wf v -> uval (norm v) = uval v /\ wf (norm v) /\ bits (norm v) = bits v.
Proof.
  intros v H. pose proof (wf_range v H) as R. destruct H as (N & L & F & R'). unfold norm.
  destruct (wf_mlast (bits v) (wds v) N L F) as [W V]. rewrite V. fold (uval v). rewrite Z.mod_small by lia. auto.
Qed.
(** The words are determined by the value. *)
Lemma wval_inj : forall a b, Forall word a -> Forall word b -> length a = length b -> wval a = wval b -> a = b.
Proof.
  induction a as [|u a IH]; intros [|w b] Fa Fb L E; try discriminate; auto.
  inversion Fa; inversion Fb; subst. cbn [wval] in E. unfold word in *. rewrite p32 in *.
  assert (wval a = wval b) by lia. f_equal; [lia|]. apply IH; auto.
Qed.
Lemma wf_inj : forall x y, wf x -> wf y -> bits x = bits y -> uval x = uval y -> x = y.
Proof.
  intros [n a] [m b] (Nx & Lx & Fx & _) (Ny & Ly & Fy & _) E V. cbn [bits wds uval] in *. subst m. f_equal.
  apply wval_inj; auto; lia.
Qed.
Lemma norm_id : forall v, wf v -> norm v = v.
Proof. intros v H. destruct (norm_wf v H) as (A & B & C). apply wf_inj; auto. Qed.

(** * Addition and subtraction *)
Lemma lor_bit : forall a b, b = 0 \/ b = 1 -> Z.lor (2 * a) b = 2 * a + b.
Proof.
  intros a b [->| ->]; [rewrite Z.lor_0_r; lia|]. apply lor_disjoint_add.
  change 1 with LSB. rewrite land_LSB. rewrite Z.mul_comm. apply Z.mod_mul. lia.
Qed.
Lemma full_word_ok : forall y z cc, word y -> word z -> cc = 0 \/ cc = 1 ->
  exists w c, full_word y z cc = (w, c) /\ word w /\ (c = 0 \/ c = 1) /\ y + z + cc = w + 2 ^ 32 * c.
Proof.
  intros y z cc Y Z0 C. unfold full_word, word in *. rewrite p32 in *. rewrite !land_LSB. rewrite !shr_eq by lia. change (2 ^ 1) with 2.
  pose proof (Z.div_mod y 2 ltac:(lia)). pose proof (Z.div_mod z 2 ltac:(lia)).
  pose proof (Z.mod_pos_bound y 2 ltac:(lia)). pose proof (Z.mod_pos_bound z 2 ltac:(lia)).
  set (yh := y / 2) in *. set (zh := z / 2) in *. set (ym := y mod 2) in *. set (zm := z mod 2) in *. clearbody yh zh ym zm.
  rewrite (u32_small (ym + zm + cc)) by (unfold w32; lia).
  set (lo := ym + zm + cc) in *. assert (0 <= lo <= 3) by (unfold lo; lia).
  pose proof (Z.div_mod lo 2 ltac:(lia)). pose proof (Z.mod_pos_bound lo 2 ltac:(lia)).
  set (lh := lo / 2) in *. set (lm := lo mod 2) in *. clearbody lh lm.
  rewrite (u32_small (yh + zh + lh)) by (unfold w32; lia). set (hi := yh + zh + lh) in *.
  rewrite shl_eq by lia. change (2 ^ 1) with 2. rewrite p32.
  change MSB with (2 ^ 31). rewrite nz_land_pow2 by lia.
  rewrite testbit_top by (change (2 ^ (31 + 1)) with 4294967296; lia).
  change (2 ^ 31) with 2147483648.
  assert (E : (hi * 2) mod 4294967296 = 2 * (if 2147483648 <=? hi then hi - 2147483648 else hi)).
  { destruct (Z.leb_spec 2147483648 hi).
    - symmetry. apply (Z.mod_unique _ _ 1); lia.
    - rewrite Z.mod_small; lia. }
  rewrite E, lor_bit by lia. eexists _, _. split; [reflexivity|].
  destruct (Z.leb_spec 2147483648 hi); cbn [b2z]; conj; auto; lia.
Qed.

Lemma half_pow : forall k, 1 <= k -> 2 ^ k = 2 * 2 ^ (k - 1).
Proof. intros. rewrite <- Z.pow_succ_r by lia. f_equal. lia. Qed.
Lemma mod_half : forall H x, 0 < H -> 0 <= x < 2 * H -> x mod H = if H <=? x then x - H else x.
Proof.
  intros H x P R. destruct (Z.leb_spec H x).
  - symmetry. apply (Z.mod_unique _ _ 1); lia.
  - apply Z.mod_small. lia.
Qed.
Lemma div_half : forall H x, 0 < H -> 0 <= x < 2 * H -> x / H = if H <=? x then 1 else 0.
Proof.
  intros H x P R. destruct (Z.leb_spec H x).
  - symmetry. apply (Z.div_unique _ _ _ (x - H)); lia.
  - apply Z.div_small. lia.
Qed.

(** The last word: what the three cases have in common. *)
Lemma last_word_ok : forall k y z cc, 1 <= k <= 32 -> word y -> word z -> cc = 0 \/ cc = 1 ->
  let yy := y mod 2 ^ k in let zz := z mod 2 ^ k in
  exists c v, last_word (2 ^ k - 1) y z cc = ((yy + zz + cc) mod 2 ^ k, c, v) /\
    nz c = (2 ^ k <=? yy + zz + cc) /\
    nz v = xorb (2 ^ (k - 1) <=? yy mod 2 ^ (k - 1) + zz mod 2 ^ (k - 1) + cc) (2 ^ k <=? yy + zz + cc).
Proof.
  intros k y z cc K Y Z0 C yy zz. unfold last_word. rewrite !land_mask by lia. fold yy zz.
  pose proof (pow2_pos (k - 1) ltac:(lia)) as HP. pose proof (half_pow k ltac:(lia)) as HK.
  assert (Ry : 0 <= yy < 2 ^ k) by (apply Z.mod_pos_bound; lia).
  assert (Rz : 0 <= zz < 2 ^ k) by (apply Z.mod_pos_bound; lia).
  clearbody yy zz. clear y z Y Z0.
  assert (LE : 2 ^ k <= 2 ^ 32) by (apply Z.pow_le_mono_r; lia). rewrite p32 in LE.
  destruct (Z.eq_dec k 1) as [->|N1].
  - change (2 ^ 1 - 1 =? LSB) with true. cbv iota. change (2 ^ 1) with 2 in *. change (2 ^ (1 - 1)) with 1 in *.
    rewrite (u32_small (yy + zz + cc)) by (unfold w32; lia). rewrite land_LSB, shr_eq by lia. change (2 ^ 1) with 2.
    rewrite !Z.mod_1_r. eexists _, _. split; [reflexivity|].
    assert (D : (yy + zz + cc) / 2 = if 2 <=? yy + zz + cc then 1 else 0).
    { destruct (Z.leb_spec 2 (yy + zz + cc)).
      - symmetry. apply (Z.div_unique _ _ _ (yy + zz + cc - 2)); lia.
      - apply Z.div_small. lia. }
    rewrite D. destruct (Z.leb_spec 2 (yy + zz + cc)); destruct C as [->| ->]; simpl; auto.
  - destruct (Z.eqb_spec (2 ^ k - 1) LSB) as [E|_].
    { exfalso. unfold LSB in E. assert (2 ^ 2 <= 2 ^ k) by (apply Z.pow_le_mono_r; lia). change (2 ^ 2) with 4 in *. lia. }
    destruct (Z.eq_dec k 32) as [->|N32].
    + change (nz (wnot (2 ^ 32 - 1))) with false. cbv iota.
      change (wnot MSB) with (2 ^ 31 - 1). change MSB with (2 ^ 31). change (32 - 1) with 31 in *. rewrite !land_mask by lia. rewrite !land_pow2 by lia.
      rewrite !testbit_top by lia. change (31 + 1) with 32. change (2 ^ 32) with 4294967296 in *. change (2 ^ 31) with 2147483648 in *.
      rewrite (mod_half _ yy), (mod_half _ zz) by lia.
      set (ly := if 2147483648 <=? yy then yy - 2147483648 else yy).
      set (lz := if 2147483648 <=? zz then zz - 2147483648 else zz).
      assert (Ly : 0 <= ly < 2147483648) by (unfold ly; destruct (Z.leb_spec 2147483648 yy); lia).
      assert (Lz : 0 <= lz < 2147483648) by (unfold lz; destruct (Z.leb_spec 2147483648 zz); lia).
      rewrite (u32_small (ly + lz + cc)) by (unfold w32; lia).
      rewrite testbit_top by (change (2 ^ (31 + 1)) with 4294967296; lia). change (2 ^ 31) with 2147483648.
      rewrite mod_half by lia.
      rewrite !shr_eq by lia. change (2 ^ 1) with 2. 
      assert (HB : forall b : bool, (if b then 2147483648 else 0) / 2 = if b then 1073741824 else 0) by (intros []; reflexivity).
      rewrite !HB.
      set (by_ := 2147483648 <=? yy) in *. set (bz := 2147483648 <=? zz) in *. set (bc := 2147483648 <=? ly + lz + cc).
      set (hi := (if by_ then 1073741824 else 0) + (if bz then 1073741824 else 0) + (if bc then 1073741824 else 0)).
      assert (Rh : 0 <= hi < 4294967296) by (unfold hi; destruct by_, bz, bc; lia).
      rewrite (u32_small hi) by (unfold w32; lia). rewrite testbit_top by (change (2 ^ (31 + 1)) with 4294967296; lia).
      change (2 ^ 31) with 2147483648. rewrite shl_eq by lia. change (2 ^ 1) with 2. change (2 ^ 32) with 4294967296.
      eexists _, _. split; [|split].
      * f_equal. f_equal.
        assert (X : (hi * 2) mod 4294967296 = if xorb (xorb by_ bz) bc then 2147483648 else 0) by (unfold hi; destruct by_, bz, bc; reflexivity).
        rewrite X. set (l2 := if bc then ly + lz + cc - 2147483648 else ly + lz + cc).
        assert (R2 : 0 <= l2 < 2147483648) by (unfold l2, bc; destruct (Z.leb_spec 2147483648 (ly + lz + cc)); lia).
        assert (LO : forall b : bool, Z.lor (if b then 2147483648 else 0) l2 = (if b then 2147483648 else 0) + l2).
        { intros []; [|rewrite Z.lor_0_l; lia]. apply lor_disjoint_add. change 2147483648 with (2 ^ 31). rewrite Z.land_comm, land_pow2 by lia.
          rewrite (testbit_small 31) by (change (2 ^ 31) with 2147483648; lia). reflexivity. }
        rewrite LO. unfold l2, bc, ly, lz, by_, bz. destruct (Z.leb_spec 2147483648 yy), (Z.leb_spec 2147483648 zz);
          match goal with |- context [2147483648 <=? ?t] => destruct (Z.leb_spec 2147483648 t) end; cbn [xorb];
          first [rewrite Z.mod_small by lia; lia | apply (Z.mod_unique _ _ 1); lia].
      * unfold hi, bc, ly, lz, by_, bz. destruct (Z.leb_spec 2147483648 yy), (Z.leb_spec 2147483648 zz);
          match goal with |- context [2147483648 <=? ?t - _ + _ + _] => idtac | _ => idtac end;
          match goal with |- context [if 2147483648 <=? ?t then 1073741824 else 0] => destruct (Z.leb_spec 2147483648 t) end;
          match goal with |- _ = (4294967296 <=? ?s) => destruct (Z.leb_spec 4294967296 s) end; simpl; auto; lia.
      * unfold hi, bc, ly, lz, by_, bz. destruct (Z.leb_spec 2147483648 yy), (Z.leb_spec 2147483648 zz);
          match goal with |- context [if 2147483648 <=? ?t then 1073741824 else 0] => destruct (Z.leb_spec 2147483648 t) end;
          match goal with |- context [4294967296 <=? ?s] => destruct (Z.leb_spec 4294967296 s) end; simpl; auto; lia.
    + assert (LT : 2 ^ k <= 2147483648) by (change 2147483648 with (2 ^ 31); apply Z.pow_le_mono_r; lia).
      destruct (nz (wnot (2 ^ k - 1))) eqn:N; [|apply not_true_iff_false in N; rewrite nz_spec in N; unfold wnot, ONES in N; lia].
      rewrite !shr_eq by lia. change (2 ^ 1) with 2.
      assert (MM : (2 ^ k - 1) / 2 = 2 ^ (k - 1) - 1) by (symmetry; apply (Z.div_unique _ _ _ 1); lia).
      rewrite MM. rewrite !land_mask by lia.
      assert (MS : Z.land (2 ^ k - 1) (wnot (2 ^ (k - 1) - 1)) = 2 ^ (k - 1)).
      { pose proof (shape_msb k 0 k) as Q. unfold shape in Q. specialize (Q ltac:(lia)). unfold msbmask in Q.
        rewrite (shape_mask k 0 k) in Q by (unfold shape; lia). rewrite shr_eq in Q by lia. change (2 ^ 1) with 2 in Q. rewrite MM in Q. exact Q. }
      rewrite MS. rewrite (mod_half _ yy), (mod_half _ zz) by lia.
      set (ly := if 2 ^ (k - 1) <=? yy then yy - 2 ^ (k - 1) else yy).
      set (lz := if 2 ^ (k - 1) <=? zz then zz - 2 ^ (k - 1) else zz).
      assert (Ly : 0 <= ly < 2 ^ (k - 1)) by (unfold ly; destruct (Z.leb_spec (2 ^ (k - 1)) yy); lia).
      assert (Lz : 0 <= lz < 2 ^ (k - 1)) by (unfold lz; destruct (Z.leb_spec (2 ^ (k - 1)) zz); lia).
      rewrite (u32_small (ly + lz + cc)) by (unfold w32; lia). rewrite (u32_small (yy + zz + cc)) by (unfold w32; lia).
      eexists _, _. split; [reflexivity|].
      assert (B1 : Z.testbit ((yy + zz + cc) / 2) (k - 1) = (2 ^ k <=? yy + zz + cc)).
      { rewrite testbit_top; [|lia|].
        - destruct (Z.leb_spec (2 ^ k) (yy + zz + cc)); [apply Z.leb_le; apply Z.div_le_lower_bound; lia|apply Z.leb_gt; apply Z.div_lt_upper_bound; lia].
        - replace (k - 1 + 1) with k by lia. split; [apply Z.div_pos; lia|apply Z.div_lt_upper_bound; lia]. }
      split.
      * rewrite nz_land_pow2 by lia. exact B1.
      * rewrite nz_land_pow2 by lia. rewrite Z.lxor_spec, B1. f_equal.
        apply testbit_top; [lia|]. replace (k - 1 + 1) with k by lia. lia.
Qed.

(** The words actually added: those of Z, their complements, or those of a null Z. *)
Fixpoint zws (minus : bool) (zs : list Z) (n : nat) : list Z :=
  match n with O => [] | S n' => zword minus zs :: zws minus (tl zs) n' end.
Lemma zword_word : forall m zs, Forall word zs -> word (zword m zs).
Proof.
  intros m zs F. unfold zword. assert (word (hd 0 zs)) by (destruct zs; [unfold word; rewrite p32; simpl; lia|simpl; eapply Forall_inv; eauto]).
  destruct m; auto. apply wnot_word; auto.
Qed.
Lemma tl_word : forall zs, Forall word zs -> Forall word (tl zs).
Proof. intros zs F. destruct zs; simpl; auto. eapply Forall_inv_tail; eauto. Qed.
Lemma zws_word : forall m n zs, Forall word zs -> Forall word (zws m zs n) /\ length (zws m zs n) = n.
Proof.
  induction n as [|n IH]; intros zs F; cbn [zws length]; auto. destruct (IH (tl zs) (tl_word _ F)) as [A B].
  split; [constructor; auto using zword_word|congruence].
Qed.
Lemma zws_plus : forall zs, zws false zs (length zs) = zs.
Proof. induction zs as [|z zs IH]; cbn [zws length tl zword hd]; [auto|]. f_equal. auto. Qed.
Lemma zws_nil : forall m n, zws m [] n = repeat (if m then ONES else 0) n.
Proof. intros m n. induction n as [|n IH]; auto. cbn [zws tl repeat]. rewrite IH. reflexivity. Qed.
Lemma pow32S : forall n, 2 ^ (32 * Z.of_nat (S n)) = 2 ^ 32 * 2 ^ (32 * Z.of_nat n).
Proof. intros. replace (32 * Z.of_nat (S n)) with (32 + 32 * Z.of_nat n) by lia. apply Z.pow_add_r; lia. Qed.
Lemma zws_minus : forall n zs, wval (zws true zs n) = 2 ^ (32 * Z.of_nat n) - 1 - wval (zws false zs n).
Proof.
  induction n as [|n IH]; intros zs; cbn [zws wval]; [reflexivity|]. rewrite IH, pow32S. unfold zword, wnot, ONES. rewrite p32. lia.
Qed.

Lemma comp_words_ok : forall k minus ys zs cc s, 1 <= k <= 32 -> length ys = S s -> Forall word ys -> Forall word zs -> cc = 0 \/ cc = 1 ->
  let A := 2 ^ (32 * Z.of_nat s) in
  let Y := wval ys mod (A * 2 ^ k) in let Z0 := wval (zws minus zs (S s)) mod (A * 2 ^ k) in
  exists ws c v, comp_words (2 ^ k - 1) minus cc ys zs = (ws, c, v) /\ length ws = S s /\ Forall word ws /\
    wval ws = (Y + Z0 + cc) mod (A * 2 ^ k) /\ nz c = (A * 2 ^ k <=? Y + Z0 + cc) /\
    nz v = xorb (A * 2 ^ (k - 1) <=? Y mod (A * 2 ^ (k - 1)) + Z0 mod (A * 2 ^ (k - 1)) + cc) (A * 2 ^ k <=? Y + Z0 + cc).
Proof.
  intros k minus ys. induction ys as [|y ys IH]; intros zs cc s K L Fy Fz C A Y Z0; [discriminate|].
  inversion Fy as [|? ? Wy Fy']; subst. pose proof (zword_word minus zs Fz) as Wz.
  destruct ys as [|y2 ys'].
  - injection L as <-. subst A. change (2 ^ (32 * Z.of_nat 0)) with 1 in *. rewrite !Z.mul_1_l in *.
    cbn [comp_words]. destruct (last_word_ok k y (zword minus zs) cc K Wy Wz C) as (c & v & E & Hc & Hv). rewrite E.
    assert (EY : Y = y mod 2 ^ k) by (unfold Y; cbn [wval]; f_equal; lia).
    assert (EZ : Z0 = zword minus zs mod 2 ^ k) by (unfold Z0; cbn [wval zws]; f_equal; lia).
    clearbody Y Z0. subst Y Z0. eexists _, c, v. split; [reflexivity|]. pose proof (pow2_pos k ltac:(lia)).
    assert (LE : 2 ^ k <= 2 ^ 32) by (apply Z.pow_le_mono_r; lia). 
    split; [auto|]. split; [|split; [cbn [wval]; lia|auto]].
    constructor; auto. unfold word. match goal with |- 0 <= ?a mod _ < _ => pose proof (Z.mod_pos_bound a (2 ^ k) ltac:(lia)) end. lia.
  - remember (y2 :: ys') as ys. destruct s as [|s]; [subst; discriminate|].
    destruct (full_word_ok y (zword minus zs) cc Wy Wz C) as (w & c & Ef & Ww & Cc & Es).
    destruct (IH (tl zs) c s K ltac:(injection L; auto) Fy' (tl_word _ Fz) Cc) as (ws & c' & v & Ec & Lw & Fw & Vw & Hc & Hv).
    replace (comp_words (2 ^ k - 1) minus cc (y :: ys) zs) with
      (let (w, c) := full_word y (zword minus zs) cc in
       let '(ws, c', v) := comp_words (2 ^ k - 1) minus c ys (tl zs) in (w :: ws, c', v)) by (rewrite Heqys; reflexivity).
    rewrite Ef, Ec. exists (w :: ws), c', v. split; [reflexivity|].
    split; [cbn [length]; auto|]. split; [constructor; auto|].
    set (B := 2 ^ (32 * Z.of_nat s)) in *. assert (PB : 0 < B) by (apply pow2_pos; lia). clear IH.
    pose proof (pow2_pos (k - 1) ltac:(lia)) as P1. pose proof (half_pow k ltac:(lia)) as P2.
    assert (EA : A = 2 ^ 32 * B) by (unfold A, B; apply pow32S). clearbody A. subst A.
    rewrite !p32 in *. unfold word in *. rewrite p32 in *.
    set (M := B * 2 ^ k) in *. assert (PM : 0 < M) by (unfold M; nia). set (H := B * 2 ^ (k - 1)) in *. assert (PH : 0 < H) by (unfold H; nia).
    assert (EM : 4294967296 * B * 2 ^ k = 4294967296 * M) by (unfold M; lia). assert (EH : 4294967296 * B * 2 ^ (k - 1) = 4294967296 * H) by (unfold H; lia).
    assert (SP : forall lo hi N, 0 < N -> 0 <= lo < 4294967296 -> (lo + 4294967296 * hi) mod (4294967296 * N) = lo + 4294967296 * (hi mod N)).
    { intros lo hi N PN R. pose proof (Z.mod_pos_bound hi N PN). pose proof (Z.div_mod hi N ltac:(lia)). symmetry. apply (Z.mod_unique _ _ (hi / N)); [left; nia|]. nia. }
    rewrite EM, EH. 
    assert (EY : Y = y + 4294967296 * (wval ys mod M)) by (unfold Y; cbn [wval]; rewrite !p32, EM; apply SP; auto).
    assert (EZ : Z0 = zword minus zs + 4294967296 * (wval (zws minus (tl zs) (S s)) mod M)).
    { unfold Z0. change (zws minus zs (S (S s))) with (zword minus zs :: zws minus (tl zs) (S s)). cbn [wval]. rewrite !p32, EM. apply SP; auto. }
    clearbody Y Z0. subst Y Z0. set (Y1 := wval ys mod M) in *. set (Z1 := wval (zws minus (tl zs) (S s)) mod M) in *.
    rewrite !SP by auto. 
    assert (SUM : y + 4294967296 * Y1 + (zword minus zs + 4294967296 * Z1) + cc = w + 4294967296 * (Y1 + Z1 + c)) by lia.
    assert (CMP : forall lo hi N, 0 <= lo < 4294967296 -> (4294967296 * N <=? lo + 4294967296 * hi) = (N <=? hi)).
    { intros. destruct (Z.leb_spec N hi); [apply Z.leb_le|apply Z.leb_gt]; lia. }
    rewrite SUM. rewrite SP, !CMP by auto. cbn [wval]. rewrite p32, Vw. split; [lia|]. split; [auto|]. rewrite Hv. f_equal.
    replace (y + 4294967296 * (Y1 mod H) + (zword minus zs + 4294967296 * (Z1 mod H)) + cc) with (w + 4294967296 * (Y1 mod H + Z1 mod H + c)) by lia.
    rewrite CMP by auto. reflexivity.
Qed.

Lemma sgn_half : forall n x, 0 < n -> 0 <= x < 2 ^ n -> sgn n x = if x <? 2 ^ (n - 1) then x else x - 2 ^ n.
Proof. intros n x N R. unfold sgn. rewrite Z.mod_small by lia. reflexivity. Qed.
Lemma sval_range : forall v, wf v -> fits (bits v) (sval v).
Proof.
  intros v H. pose proof (wf_range v H). destruct H as (N & _). unfold fits, sval. rewrite sgn_half by auto.
  pose proof (half_pow (bits v) ltac:(lia)). destruct (Z.ltb_spec (uval v) (2 ^ (bits v - 1))); lia.
Qed.
Lemma ovf_arith : forall H Y Z0 c, 0 < H -> 0 <= Y < 2 * H -> 0 <= Z0 < 2 * H -> c = 0 \/ c = 1 ->
  let S' := (fun x => if x <? H then x else x - 2 * H) in
  xorb (H <=? Y mod H + Z0 mod H + c) (2 * H <=? Y + Z0 + c) = negb ((- H <=? S' Y + S' Z0 + c) && (S' Y + S' Z0 + c <? H)).
Proof.
  intros H Y Z0 c P RY RZ C S'. rewrite !mod_half by lia. unfold S'.
  destruct (Z.leb_spec H Y), (Z.leb_spec H Z0), (Z.ltb_spec Y H), (Z.ltb_spec Z0 H); try lia;
  repeat match goal with |- context [?a <=? ?b] => destruct (Z.leb_spec a b) | |- context [?a <? ?b] => destruct (Z.ltb_spec a b) end; cbn; auto; lia.
Qed.
(** What [compute] does, for a vector [y] and words [zs] as many as [y]'s, or none. *)
Lemma compute_ok : forall y zs (minus c : bool), wf y -> Forall word zs -> wval zs < 2 ^ bits y -> length zs = length (wds y) \/ zs = [] ->
  let n := bits y in let k := b2z c in
  let r := if minus then uval y - wval zs - k else uval y + wval zs + k in
  let s := if minus then sval y - sgn n (wval zs) - k else sval y + sgn n (wval zs) + k in
  exists x, compute y zs minus c = (x, (if minus then r <? 0 else 2 ^ n <=? r), negb ((- 2 ^ (n - 1) <=? s) && (s <? 2 ^ (n - 1)))) /\
    wf x /\ bits x = n /\ uval x = r mod 2 ^ n.
Proof.
  intros y zs minus c W Fz Rz Lz n k r s. pose proof (wf_range y W) as Ry. destruct W as (N & L & Fy & _).
  destruct (shape_ex _ _ N L) as (f & l & j & Ey & SH). pose proof (shape_mask _ _ _ SH) as EM. pose proof (shape_pow _ _ _ SH) as EP.
  pose proof SH as [En Kj].
  unfold compute. rewrite EM. set (cc := if minus then b2z (negb c) else b2z c).
  assert (C : cc = 0 \/ cc = 1) by (unfold cc; destruct minus, c; simpl; auto).
  assert (Ls : length (wds y) = S (length f)) by (rewrite Ey, app_length; simpl; lia).
  destruct (comp_words_ok j minus (wds y) zs cc (length f) Kj Ls Fy Fz C) as (ws & c' & v & E & Lw & Fw & Vw & Hc & Hv).
  rewrite <- EP in *. 
  assert (EP1 : 2 ^ (32 * Z.of_nat (length f)) * 2 ^ (j - 1) = 2 ^ (n - 1)) by (unfold n; rewrite En; rewrite <- Z.pow_add_r by lia; f_equal; lia).
  rewrite EP1 in Hv. fold (uval y) in Vw, Hc, Hv. fold n in Vw, Hc, Hv, Rz, Ry, L, En, EP |- *.
  pose proof (pow2_pos (n - 1) ltac:(lia)) as P1. pose proof (half_pow n ltac:(lia)) as P2.
  rewrite (Z.mod_small (uval y)) in * by auto.
  assert (Hz : wval (zws false zs (S (length f))) = wval zs).
  { destruct Lz as [Lz| ->]; [rewrite <- Ls, <- Lz, zws_plus; reflexivity|rewrite zws_nil, wval_zeros; reflexivity]. }
  assert (Bz : 0 <= wval zs) by (apply wval_range; auto).
  rewrite E. exists (BV n ws).
  assert (WF : uval (BV n ws) = r mod 2 ^ n -> wf (BV n ws)).
  { intros U. unfold wf. cbn [bits wds]. rewrite U. pose proof (Z.mod_pos_bound r (2 ^ n) ltac:(lia)). conj; auto; [|lia]. rewrite Lw. fold n in L. rewrite <- L, Ls. reflexivity. }
  assert (Sy : sval y = if uval y <? 2 ^ (n - 1) then uval y else uval y - 2 ^ n) by (apply sgn_half; auto).
  assert (Sz : sgn n (wval zs) = if wval zs <? 2 ^ (n - 1) then wval zs else wval zs - 2 ^ n) by (apply sgn_half; auto; lia).
  set (z := wval zs) in *. set (u := uval y) in *. clearbody z.
  destruct minus.
  - rewrite zws_minus, Hz in *. 
    assert (MZ : (2 ^ (32 * Z.of_nat (S (length f))) - 1 - z) mod 2 ^ n = 2 ^ n - 1 - z).
    { set (e := 32 - j). assert (EE : 2 ^ (32 * Z.of_nat (S (length f))) = 2 ^ n * 2 ^ e) by (unfold e; rewrite <- Z.pow_add_r by lia; f_equal; lia).
      rewrite EE. symmetry. apply (Z.mod_unique _ _ (2 ^ e - 1)); [lia|]. ring. }
    rewrite MZ in *. assert (Ecc : cc = 1 - k) by (unfold cc, k; destruct c; reflexivity).
    assert (Hk : k = 0 \/ k = 1) by (unfold k; destruct c; auto).
    rewrite Ecc in *. assert (EU : u + (2 ^ n - 1 - z) + (1 - k) = r + 1 * 2 ^ n) by (unfold r; lia).
    rewrite EU in *. rewrite Z.mod_add in Vw by lia.
    split.
    + f_equal; [f_equal|].
      * assert (Q : (c' =? 0) = negb (nz c')) by (unfold nz; destruct (c' =? 0); reflexivity). rewrite Q, Hc.
        destruct (Z.leb_spec (2 ^ n) (r + 1 * 2 ^ n)), (Z.ltb_spec r 0); simpl; auto; lia.
      * rewrite Hv. rewrite <- EU. rewrite P2. rewrite ovf_arith by lia. unfold s. rewrite Sy, Sz. rewrite <- P2.
        f_equal. clear - P1 P2 Rz Bz Ry Hk.
        destruct (Z.ltb_spec u (2 ^ (n - 1))), (Z.ltb_spec z (2 ^ (n - 1))), (Z.ltb_spec (2 ^ n - 1 - z) (2 ^ (n - 1))); try lia; f_equal; f_equal; lia.
    + split; [apply WF|split]; auto.
  - rewrite Hz in *. rewrite (Z.mod_small z) in * by lia. assert (Ecc : cc = k) by reflexivity. rewrite Ecc in *. fold r in Vw, Hc, Hv.
    split.
    + f_equal; [f_equal|]; auto. rewrite Hv. unfold r. rewrite P2. rewrite ovf_arith by lia. unfold s. rewrite Sy, Sz. rewrite <- P2. reflexivity.
    + split; [apply WF|split]; auto.
Qed.

Lemma mod_mod_mul : forall x N e, 0 < N -> 0 < e -> (x mod (N * e)) mod N = x mod N.
Proof.
  intros x N e PN Pe. rewrite (Z.div_mod x (N * e)) at 2 by nia.
  replace (N * e * (x / (N * e)) + x mod (N * e)) with (x mod (N * e) + e * (x / (N * e)) * N) by ring. rewrite Z.mod_add by lia. reflexivity.
Qed.
(** 2^(32 size) is a multiple of 2^n *)
Lemma full_pow : forall n (ws : list Z), 0 < n -> Z.of_nat (length ws) = (n + 31) / 32 ->
  exists e, 0 < e /\ 2 ^ (32 * Z.of_nat (length ws)) = 2 ^ n * e.
Proof.
  intros n ws N L. destruct (shape_ex _ _ N L) as (f & l & k & -> & [E K]). exists (2 ^ (32 - k)). split; [apply pow2_pos; lia|].
  rewrite <- Z.pow_add_r by lia. f_equal. rewrite app_length. cbn [length]. lia.
Qed.

(** ** Negate, increment, decrement *)
Lemma neg_words_ok : forall ws c, Forall word ws -> Forall word (neg_words c ws) /\ length (neg_words c ws) = length ws /\
  wval (neg_words c ws) = (2 ^ (32 * Z.of_nat (length ws)) - 1 - wval ws + b2z c) mod 2 ^ (32 * Z.of_nat (length ws)).
Proof.
  induction ws as [|w ws IH]; intros c F.
  - cbn [neg_words wval length]. change (32 * Z.of_nat 0) with 0. rewrite Z.pow_0_r, Z.mod_1_r. auto.
  - inversion F as [|? ? W F']; subst. pose proof (wval_range ws F') as R. cbn [length]. rewrite pow32S. set (A := 2 ^ (32 * Z.of_nat (length ws))) in *.
    assert (PA : 0 < A) by (apply pow2_pos; lia). unfold word in W. rewrite p32 in *.
    cbn [neg_words wval]. destruct c.
    + assert (X : u32 (wnot w + 1) = if w =? 0 then 0 else 4294967296 - w).
      { rewrite u32_mod, p32. unfold wnot, ONES. destruct (Z.eqb_spec w 0); [subst; reflexivity|rewrite Z.mod_small by lia; lia]. }
      rewrite X. destruct (Z.eqb_spec w 0) as [->|NZ].
      * change (0 =? 0) with true. destruct (IH true F') as (G & Ln & V). cbn [wval length]. rewrite V, Ln. split; [|split; [auto|]].
        { constructor; [unfold word; rewrite p32; lia|auto]. }
        fold A. cbn [b2z]. rewrite p32. replace (A - 1 - wval ws + 1) with (A - wval ws) by lia.
        replace (4294967296 * A - 1 - (0 + 4294967296 * wval ws) + 1) with (4294967296 * (A - wval ws)) by lia.
        rewrite Zmult_mod_distr_l. lia.
      * destruct (Z.eqb_spec (4294967296 - w) 0); [lia|]. destruct (IH false F') as (G & Ln & V). cbn [wval length]. rewrite V, Ln. split; [|split; [auto|]].
        { constructor; [unfold word; rewrite p32; lia|auto]. }
        fold A. cbn [b2z]. rewrite p32. rewrite Z.mod_small by lia. rewrite Z.mod_small by lia. lia.
    + destruct (IH false F') as (G & Ln & V). cbn [wval length]. rewrite V, Ln. split; [|split; [auto|]].
      { constructor; [apply wnot_word; unfold word; rewrite p32; lia|auto]. }
      fold A. cbn [b2z]. rewrite p32. unfold wnot, ONES. rewrite !Z.mod_small by lia. lia.
Qed.
Lemma Negate_ok : forall y, wf y -> wf (Negate y) /\ bits (Negate y) = bits y /\ uval (Negate y) = (- uval y) mod 2 ^ bits y.
Proof.
  intros y W. pose proof (wf_range y W) as R. destruct W as (N & L & F & _). destruct (neg_words_ok (wds y) true F) as (G & Ln & V).
  destruct (wf_mlast (bits y) (neg_words true (wds y)) N ltac:(rewrite Ln; auto) G) as [WF U].
  unfold Negate. split; [auto|]. split; [reflexivity|]. rewrite U, V.
  destruct (full_pow _ _ N L) as (e & Pe & E). rewrite E. cbn [b2z]. fold (uval y). pose proof (pow2_pos (bits y) ltac:(lia)).
  rewrite mod_mod_mul by lia. replace (2 ^ bits y * e - 1 - uval y + 1) with (- uval y + e * 2 ^ bits y) by ring. apply Z.mod_add. lia.
Qed.
Lemma inc_words_ok : forall ws, Forall word ws -> let (r, c) := inc_words ws in
  let A := 2 ^ (32 * Z.of_nat (length ws)) in
  Forall word r /\ length r = length ws /\ wval r = (wval ws + 1) mod A /\ c = (wval ws =? A - 1).
Proof.
  induction ws as [|w ws IH]; intros F; cbn [inc_words].
  - cbn [wval length]. change (32 * Z.of_nat 0) with 0. rewrite Z.pow_0_r, Z.mod_1_r. auto.
  - inversion F as [|? ? W F']; subst. specialize (IH F'). pose proof (wval_range ws F') as R. cbn [length]. rewrite pow32S.
    set (A := 2 ^ (32 * Z.of_nat (length ws))) in *. assert (PA : 0 < A) by (apply pow2_pos; lia). unfold word in W. rewrite p32 in *.
    rewrite u32_mod, p32. destruct (Z.eq_dec w 4294967295) as [->|NW].
    + change ((4294967295 + 1) mod 4294967296) with 0. change (0 =? 0) with true. cbv iota.
      destruct (inc_words ws) as [r c]. destruct IH as (G & Ln & V & C). cbn [wval length]. rewrite V, Ln, p32. conj; auto.
      * constructor; [unfold word; rewrite p32; lia|auto].
      * replace (4294967295 + 4294967296 * wval ws + 1) with (4294967296 * (wval ws + 1)) by lia. rewrite Zmult_mod_distr_l. lia.
      * rewrite C. destruct (Z.eqb_spec (wval ws) (A - 1)), (Z.eqb_spec (4294967295 + 4294967296 * wval ws) (4294967296 * A - 1)); auto; lia.
    + rewrite Z.mod_small by lia. destruct (Z.eqb_spec (w + 1) 0); [lia|]. cbn [wval length]. rewrite p32. conj; auto.
      * constructor; [unfold word; rewrite p32; lia|auto].
      * rewrite Z.mod_small by lia. lia.
      * destruct (Z.eqb_spec (w + 4294967296 * wval ws) (4294967296 * A - 1)); auto; lia.
Qed.
Lemma dec_words_ok : forall ws, Forall word ws -> let (r, c) := dec_words ws in
  let A := 2 ^ (32 * Z.of_nat (length ws)) in
  Forall word r /\ length r = length ws /\ wval r = (wval ws - 1) mod A /\ c = (wval ws =? 0).
Proof.
  induction ws as [|w ws IH]; intros F; cbn [dec_words].
  - cbn [wval length]. change (32 * Z.of_nat 0) with 0. rewrite Z.pow_0_r, Z.mod_1_r. auto.
  - inversion F as [|? ? W F']; subst. specialize (IH F'). pose proof (wval_range ws F') as R. cbn [length]. rewrite pow32S.
    set (A := 2 ^ (32 * Z.of_nat (length ws))) in *. assert (PA : 0 < A) by (apply pow2_pos; lia). unfold word in W. rewrite p32 in *.
    rewrite u32_mod, p32. destruct (Z.eqb_spec w 0) as [->|NW].
    + change ((0 - 1) mod 4294967296) with 4294967295.
      destruct (dec_words ws) as [r c]. destruct IH as (G & Ln & V & C). cbn [wval length]. rewrite V, Ln, p32. conj; auto.
      * constructor; [unfold word; rewrite p32; lia|auto].
      * replace (0 + 4294967296 * wval ws - 1) with (4294967295 + 4294967296 * (wval ws - 1)) by lia.
        apply (Z.mod_unique _ _ ((wval ws - 1) / A)); pose proof (Z.mod_pos_bound (wval ws - 1) A PA); pose proof (Z.div_mod (wval ws - 1) A ltac:(lia)); nia.
      * rewrite C. destruct (Z.eqb_spec (wval ws) 0), (Z.eqb_spec (0 + 4294967296 * wval ws) 0); auto; lia.
    + rewrite Z.mod_small by lia. cbn [wval length]. rewrite p32. conj; auto.
      * constructor; [unfold word; rewrite p32; lia|auto].
      * rewrite Z.mod_small by lia. lia.
      * destruct (Z.eqb_spec (w + 4294967296 * wval ws) 0); auto; lia.
Qed.
(** Setting the unused bits of the last word *)
Lemma orlast_ok : forall y, wf y -> let ws := orlast (wnot (mask_ (bits y))) (wds y) in
  Forall word ws /\ length ws = length (wds y) /\ wval ws = uval y + 2 ^ (32 * Z.of_nat (length (wds y))) - 2 ^ bits y.
Proof.
  intros y W. pose proof (wf_range y W) as Ry. destruct W as (N & L & F & R). destruct (shape_ex _ _ N L) as (f & l & k & E & S).
  pose proof (shape_mask _ _ _ S) as EM. pose proof (shape_pow _ _ _ S) as EP. destruct S as [En K]. unfold uval in *. rewrite E in *. rewrite EM, orlast_app.
  apply Forall_app in F. destruct F as [Ff Fl]. pose proof (Forall_inv Fl) as Wl. pose proof (wval_range f Ff) as Rf.
  set (A := 2 ^ (32 * Z.of_nat (length f))) in *. pose proof (pow2_pos k ltac:(lia)) as Pk.
  assert (LE : 2 ^ k <= 2 ^ 32) by (apply Z.pow_le_mono_r; lia). unfold word in Wl.
  assert (Ll : l < 2 ^ k).
  { rewrite wval_app in R. cbn [wval] in R. fold A in R. rewrite EP in R. nia. }
  assert (X : Z.lor l (wnot (2 ^ k - 1)) = l + (2 ^ 32 - 2 ^ k)).
  { rewrite lor_disjoint_add; [unfold wnot; rewrite ONES_eq; lia|]. apply Z.bits_inj'. intros i I. rewrite Z.land_spec, Z.bits_0, wnot_bit by (unfold word; lia).
    replace (2 ^ k - 1) with (Z.ones k) by (rewrite Z.ones_equiv; lia).
    destruct (Z.ltb_spec i k); [rewrite Z.ones_spec_low by lia; rewrite !andb_false_r; reflexivity|].
    rewrite (testbit_small k) by lia. reflexivity. }
  rewrite X. rewrite !app_length. cbn [length]. split; [|split; [reflexivity|]].
  - apply Forall_app. split; auto. constructor; auto. unfold word. lia.
  - rewrite !wval_app. fold A. cbn [wval]. replace (length f + 1)%nat with (Datatypes.S (length f)) by lia. rewrite pow32S. fold A. rewrite EP. ring.
Qed.
Lemma increment_ok : forall y, wf y -> exists x, increment y = (x, uval y =? 2 ^ bits y - 1) /\
  wf x /\ bits x = bits y /\ uval x = (uval y + 1) mod 2 ^ bits y.
Proof.
  intros y W. destruct (orlast_ok y W) as (F & Ln & V). unfold increment. pose proof (inc_words_ok _ F) as I.
  destruct (inc_words _) as [r c]. destruct I as (G & Lr & Vr & C). destruct W as (N & L & Fy & R). rewrite Ln in *.
  destruct (wf_mlast (bits y) r N ltac:(rewrite Lr, <- L; auto) G) as [WF U]. eexists. split; [|split; [exact WF|split; [reflexivity|]]].
  - f_equal. rewrite C, V. destruct (Z.eqb_spec (uval y) (2 ^ bits y - 1)); [apply Z.eqb_eq|apply Z.eqb_neq]; lia.
  - rewrite U, Vr, V. destruct (full_pow _ _ N L) as (e & Pe & E). rewrite E. pose proof (pow2_pos (bits y) ltac:(lia)). rewrite mod_mod_mul by lia.
    replace (uval y + 2 ^ bits y * e - 2 ^ bits y + 1) with (uval y + 1 + (e - 1) * 2 ^ bits y) by ring. apply Z.mod_add. lia.
Qed.
Lemma mlast_id : forall y, wf y -> mlast (mask_ (bits y)) (wds y) = wds y.
Proof. intros y W. pose proof (norm_id y W) as H. apply (f_equal wds) in H. exact H. Qed.
Lemma decrement_ok : forall y, wf y -> exists x, decrement y = (x, uval y =? 0) /\
  wf x /\ bits x = bits y /\ uval x = (uval y - 1) mod 2 ^ bits y.
Proof.
  intros y W. unfold decrement. rewrite mlast_id by auto. destruct W as (N & L & F & R). pose proof (dec_words_ok _ F) as I.
  destruct (dec_words _) as [r c]. destruct I as (G & Lr & Vr & C).
  destruct (wf_mlast (bits y) r N ltac:(rewrite Lr, <- L; auto) G) as [WF U]. eexists. split; [|split; [exact WF|split; [reflexivity|]]].
  - f_equal. exact C.
  - rewrite U, Vr. destruct (full_pow _ _ N L) as (e & Pe & E). rewrite E. pose proof (pow2_pos (bits y) ltac:(lia)). rewrite mod_mod_mul by lia. reflexivity.
Qed.

(** ** Shifts *)
Lemma shl_words_ok : forall k ws c s, 1 <= k <= 32 -> length ws = S s -> Forall word ws ->
  let A := 2 ^ (32 * Z.of_nat s) in wval ws < A * 2 ^ k ->
  exists r o, shl_words (2 ^ k - 1) c ws = (r, o) /\ length r = S s /\ Forall word r /\
    wval r = (2 * wval ws + b2z c) mod (A * 2 ^ k) /\ o = (A * 2 ^ (k - 1) <=? wval ws).
Proof.
  intros k ws. induction ws as [|w ws IH]; intros c s K L F A R; [discriminate|].
  inversion F as [|? ? W F']; subst. unfold word in W.
  assert (C : b2z c = 0 \/ b2z c = 1) by (destruct c; auto).
  pose proof (pow2_pos (k - 1) ltac:(lia)) as P1. pose proof (half_pow k ltac:(lia)) as P2.
  assert (SH : Z.lor (shl w 1) (b2z c) = (2 * w + b2z c) mod 2 ^ 32).
  { rewrite shl_eq by lia. change (2 ^ 1) with 2. rewrite p32 in *. rewrite (Z.mul_comm w 2).
    change 4294967296 with (2 * 2147483648) at 1. rewrite Zmult_mod_distr_l. rewrite lor_bit by auto.
    pose proof (Z.mod_pos_bound w 2147483648 ltac:(lia)). pose proof (Z.div_mod w 2147483648 ltac:(lia)).
    apply (Z.mod_unique _ _ (w / 2147483648)); lia. }
  destruct ws as [|w2 ws'].
  - injection L as <-. subst A. change (2 ^ (32 * Z.of_nat 0)) with 1 in *. rewrite !Z.mul_1_l in *. cbn [shl_words].
    cbn [wval] in *. rewrite SH. rewrite land_mask by lia. eexists _, _. split; [reflexivity|]. split; [auto|].
    assert (LE : 2 ^ k <= 2 ^ 32) by (apply Z.pow_le_mono_r; lia).
    assert (E : ((2 * w + b2z c) mod 2 ^ 32) mod 2 ^ k = (2 * w + b2z c) mod 2 ^ k).
    { replace (2 ^ 32) with (2 ^ k * 2 ^ (32 - k)) by (rewrite <- Z.pow_add_r by lia; f_equal; lia). apply mod_mod_mul; [lia|apply pow2_pos; lia]. }
    rewrite E. split; [constructor; auto; unfold word; pose proof (Z.mod_pos_bound (2 * w + b2z c) (2 ^ k) ltac:(lia)); lia|].
    split; [cbn [wval]; rewrite Z.mul_0_r, !Z.add_0_r; reflexivity|].
    pose proof (shape_msb k 0 k ltac:(unfold shape; lia)) as Q. rewrite (shape_mask k 0 k ltac:(unfold shape; lia)) in Q. rewrite Q.
    rewrite nz_land_pow2, Z.mul_0_r, Z.add_0_r by lia. apply testbit_top; [lia|]. replace (k - 1 + 1) with k by lia. lia.
  - remember (w2 :: ws') as ws. destruct s as [|s]; [subst; discriminate|].
    assert (EA : A = 2 ^ 32 * 2 ^ (32 * Z.of_nat s)) by apply pow32S. clearbody A. subst A. set (B := 2 ^ (32 * Z.of_nat s)) in *.
    assert (PB : 0 < B) by (apply pow2_pos; lia). cbn [wval] in R. rewrite p32 in *.
    destruct (IH (nz (Z.land w MSB)) s K ltac:(injection L; auto) F' ltac:(fold B; nia)) as (r & o & E & Lr & Fr & V & O). fold B in V, O.
    replace (shl_words (2 ^ k - 1) c (w :: ws)) with
      (let (t', c') := shl_words (2 ^ k - 1) (nz (Z.land w MSB)) ws in (Z.lor (shl w 1) (b2z c) :: t', c')) by (rewrite Heqws; reflexivity).
    rewrite E. eexists _, _. split; [reflexivity|]. split; [cbn [length]; auto|].
    rewrite SH. pose proof (Z.mod_pos_bound (2 * w + b2z c) 4294967296 ltac:(lia)) as RM.
    split; [constructor; auto; unfold word; rewrite p32; auto|]. cbn [wval]. rewrite p32. pose proof (wval_range ws F') as R0.
    set (M := B * 2 ^ k) in *. replace (4294967296 * B * 2 ^ k) with (4294967296 * M) in * by (unfold M; lia). assert (PM : 0 < M) by (unfold M; nia).
    split.
    + rewrite V. pose proof (Z.div_mod (2 * w + b2z c) 4294967296 ltac:(lia)) as D.
      assert (DV : (2 * w + b2z c) / 4294967296 = b2z (nz (Z.land w MSB))).
      { rewrite MSB_eq, nz_land_pow2, testbit_top by (change (2 ^ (31 + 1)) with 4294967296; lia). change (2 ^ 31) with 2147483648.
        destruct (Z.leb_spec 2147483648 w); cbn [b2z]; symmetry.
        - apply (Z.div_unique _ _ _ (2 * w + b2z c - 4294967296)); lia.
        - apply (Z.div_unique _ _ _ (2 * w + b2z c)); lia. }
      rewrite DV in D. set (h := b2z (nz (Z.land w MSB))) in *.
      pose proof (Z.mod_pos_bound (2 * wval ws + h) M PM). pose proof (Z.div_mod (2 * wval ws + h) M ltac:(lia)).
      apply (Z.mod_unique _ _ ((2 * wval ws + h) / M)); [left; nia|]. nia.
    + rewrite O. destruct (Z.leb_spec (B * 2 ^ (k - 1)) (wval ws)), (Z.leb_spec (4294967296 * B * 2 ^ (k - 1)) (w + 4294967296 * wval ws)); auto; nia.
Qed.
Lemma shift_left_ok : forall y c, wf y -> exists x, shift_left y c = (x, 2 ^ (bits y - 1) <=? uval y) /\
  wf x /\ bits x = bits y /\ uval x = (2 * uval y + b2z c) mod 2 ^ bits y.
Proof.
  intros y c W. destruct W as (N & L & F & R). destruct (shape_ex _ _ N L) as (f & l & k & E & S).
  pose proof (shape_mask _ _ _ S) as EM. pose proof (shape_pow _ _ _ S) as EP. destruct S as [En K].
  unfold shift_left. rewrite EM.
  destruct (shl_words_ok k (wds y) c (length f) K ltac:(rewrite E, app_length; simpl; lia) F ltac:(rewrite <- EP; exact R)) as (r & o & Q & Lr & Fr & V & O).
  rewrite <- EP in V. fold (uval y) in V, O. rewrite Q. exists (BV (bits y) r). split; [|split; [|split; [reflexivity|exact V]]].
  - f_equal. rewrite O. f_equal. rewrite <- Z.pow_add_r by lia. f_equal. lia.
  - unfold wf, uval. cbn [bits wds]. rewrite V. pose proof (pow2_pos (bits y) ltac:(lia)). pose proof (Z.mod_pos_bound (2 * uval y + b2z c) (2 ^ bits y) ltac:(lia)).
    conj; auto; [|lia]. rewrite <- L, E, Lr, app_length. cbn [length]. lia.
Qed.
Lemma shr_words_ok : forall k ws c s, 1 <= k <= 32 -> length ws = S s -> Forall word ws ->
  let A := 2 ^ (32 * Z.of_nat s) in wval ws < A * 2 ^ k ->
  exists r, shr_words (2 ^ k - 1) c ws = (r, wval ws mod 2 =? 1) /\ length r = S s /\ Forall word r /\
    wval r = wval ws / 2 + b2z c * (A * 2 ^ (k - 1)).
Proof.
  intros k ws. induction ws as [|w ws IH]; intros c s K L F A R; [discriminate|].
  inversion F as [|? ? W F']; subst. unfold word in W.
  pose proof (pow2_pos (k - 1) ltac:(lia)) as P1. pose proof (half_pow k ltac:(lia)) as P2.
  assert (NL : forall x, nz (x mod 2) = (x mod 2 =? 1)).
  { intros x. pose proof (Z.mod_pos_bound x 2 ltac:(lia)). unfold nz. destruct (Z.eqb_spec (x mod 2) 0), (Z.eqb_spec (x mod 2) 1); simpl; auto; lia. }
  assert (LO : forall x j (b : bool), 0 <= j -> 0 <= x < 2 ^ j -> Z.lor x (if b then 2 ^ j else 0) = x + b2z b * 2 ^ j).
  { intros x j [] J X; [|rewrite Z.lor_0_r; simpl; lia]. cbn [b2z]. rewrite Z.mul_1_l. apply lor_disjoint_add. rewrite land_pow2 by auto. rewrite (testbit_small j) by lia. reflexivity. }
  destruct ws as [|w2 ws'].
  - injection L as <-. subst A. change (2 ^ (32 * Z.of_nat 0)) with 1 in *. rewrite !Z.mul_1_l in *. cbn [shr_words wval] in *. rewrite Z.mul_0_r, Z.add_0_r in *.
    rewrite land_mask by lia. rewrite Z.mod_small by lia.
    assert (LE : 2 ^ k <= 2 ^ 32) by (apply Z.pow_le_mono_r; lia).
    pose proof (shape_msb k 0 k ltac:(unfold shape; lia)) as Q. rewrite (shape_mask k 0 k ltac:(unfold shape; lia)) in Q. rewrite Q.
    rewrite shr_eq, land_LSB, NL by lia. change (2 ^ 1) with 2.
    assert (0 <= w / 2 < 2 ^ (k - 1)) by (split; [apply Z.div_pos; lia|apply Z.div_lt_upper_bound; lia]).
    rewrite LO by lia. eexists. split; [reflexivity|]. split; [reflexivity|]. cbn [wval]. split; [|lia].
    constructor; auto. unfold word. destruct c; cbn [b2z]; lia.
  - remember (w2 :: ws') as ws. destruct s as [|s]; [subst; discriminate|].
    assert (EA : A = 2 ^ 32 * 2 ^ (32 * Z.of_nat s)) by apply pow32S. clearbody A. subst A. set (B := 2 ^ (32 * Z.of_nat s)) in *.
    assert (PB : 0 < B) by (apply pow2_pos; lia). cbn [wval] in R |- *. rewrite p32 in *.
    destruct (IH c s K ltac:(injection L; auto) F' ltac:(fold B; nia)) as (r & E & Lr & Fr & V). fold B in V.
    replace (shr_words (2 ^ k - 1) c (w :: ws)) with
      (let (t', c') := shr_words (2 ^ k - 1) c ws in (Z.lor (shr w 1) (if c' then MSB else 0) :: t', nz (Z.land w LSB))) by (rewrite Heqws; reflexivity).
    rewrite E. rewrite MSB_eq, shr_eq, land_LSB, NL by lia. change (2 ^ 1) with 2.
    assert (0 <= w / 2 < 2 ^ 31) by (change (2 ^ 31) with 2147483648; split; [apply Z.div_pos; lia|apply Z.div_lt_upper_bound; lia]).
    rewrite LO by lia. 
    assert (EW : (w + 4294967296 * wval ws) mod 2 = w mod 2) by (replace (w + 4294967296 * wval ws) with (w + 2147483648 * wval ws * 2) by lia; apply Z.mod_add; lia).
    rewrite EW. eexists. split; [reflexivity|]. split; [cbn [length]; auto|].
    change (2 ^ 31) with 2147483648 in *.
    split; [constructor; auto; unfold word; rewrite p32; destruct (wval ws mod 2 =? 1); cbn [b2z]; lia|].
    cbn [wval]. rewrite V, p32. 
    assert (DW : (w + 4294967296 * wval ws) / 2 = w / 2 + 2147483648 * wval ws) by (replace (w + 4294967296 * wval ws) with (w + 2147483648 * wval ws * 2) by lia; rewrite Z.div_add by lia; lia).
    rewrite DW. pose proof (Z.div_mod (wval ws) 2 ltac:(lia)). pose proof (Z.mod_pos_bound (wval ws) 2 ltac:(lia)).
    destruct (Z.eqb_spec (wval ws mod 2) 1); cbn [b2z]; lia.
Qed.
Lemma shift_right_ok : forall y c, wf y -> exists x, shift_right y c = (x, uval y mod 2 =? 1) /\
  wf x /\ bits x = bits y /\ uval x = uval y / 2 + b2z c * 2 ^ (bits y - 1).
Proof.
  intros y c W. pose proof (wf_range y W) as R0. destruct W as (N & L & F & R). destruct (shape_ex _ _ N L) as (f & l & k & E & S).
  pose proof (shape_mask _ _ _ S) as EM. pose proof (shape_pow _ _ _ S) as EP. destruct S as [En K].
  unfold shift_right. rewrite EM.
  destruct (shr_words_ok k (wds y) c (length f) K ltac:(rewrite E, app_length; simpl; lia) F ltac:(rewrite <- EP; exact R)) as (r & Q & Lr & Fr & V).
  fold (uval y) in *. rewrite Q. assert (EP1 : 2 ^ (32 * Z.of_nat (length f)) * 2 ^ (k - 1) = 2 ^ (bits y - 1)) by (rewrite <- Z.pow_add_r by lia; f_equal; lia).
  rewrite EP1 in V. pose proof (half_pow (bits y) ltac:(lia)). pose proof (pow2_pos (bits y - 1) ltac:(lia)).
  assert (uval y / 2 < 2 ^ (bits y - 1)) by (apply Z.div_lt_upper_bound; lia).
  exists (BV (bits y) r). split; [reflexivity|]. split; [|split; [reflexivity|exact V]].
  unfold wf, uval. cbn [bits wds]. rewrite V. conj; auto; [|destruct c; cbn [b2z]; lia]. rewrite <- L, E, Lr, app_length. cbn [length]. lia.
Qed.

(** ** Inspection *)
Lemma Empty_ok : forall y, wf y -> wf (Empty y) /\ bits (Empty y) = bits y /\ uval (Empty y) = 0.
Proof.
  intros y (N & L & F & R). unfold wf, Empty, uval. cbn [bits wds]. rewrite wval_zeros, repeat_length. conj; auto using word_zeros.
  apply pow2_pos. lia.
Qed.
Lemma wval_zero : forall ws, Forall word ws -> forallb (fun w => w =? 0) ws = (wval ws =? 0).
Proof.
  induction 1 as [|w ws W F IH]; auto. cbn [forallb wval]. rewrite IH. pose proof (wval_range ws F). unfold word in W. rewrite p32 in *.
  destruct (Z.eqb_spec w 0), (Z.eqb_spec (wval ws) 0), (Z.eqb_spec (w + 4294967296 * wval ws) 0); simpl; auto; lia.
Qed.
Lemma is_empty_ok : forall y, wf y -> is_empty y = (uval y =? 0).
Proof. intros y W. unfold is_empty. rewrite mlast_id by auto. apply wval_zero. apply W. Qed.
Lemma msb_ok : forall y, wf y -> msb_ y = (2 ^ (bits y - 1) <=? uval y).
Proof.
  intros y W. destruct W as (N & L & F & R). destruct (shape_ex _ _ N L) as (f & l & k & E & S).
  unfold msb_. rewrite (shape_msb _ _ _ S). pose proof (shape_pow _ _ _ S) as EP. destruct S as [En K]. unfold uval in *. rewrite E in *.
  rewrite lastw_app. apply Forall_app in F. destruct F as [Ff Fl]. pose proof (Forall_inv Fl) as Wl. unfold word in Wl.
  pose proof (wval_range f Ff) as Rf. rewrite wval_app in *. cbn [wval] in *. set (A := 2 ^ (32 * Z.of_nat (length f))) in *.
  rewrite EP in R. assert (0 < A) by (apply pow2_pos; lia). pose proof (pow2_pos (k - 1) ltac:(lia)). pose proof (half_pow k ltac:(lia)).
  assert (EP1 : A * 2 ^ (k - 1) = 2 ^ (bits y - 1)) by (unfold A; rewrite <- Z.pow_add_r by lia; f_equal; lia).
  rewrite nz_land_pow2, testbit_top by (replace (k - 1 + 1) with k by lia; nia). rewrite <- EP1.
  destruct (Z.leb_spec (2 ^ (k - 1)) l), (Z.leb_spec (A * 2 ^ (k - 1)) (wval f + A * (l + 2 ^ 32 * 0))); auto; nia.
Qed.
Lemma msb_sval : forall y, wf y -> msb_ y = (sval y <? 0).
Proof.
  intros y W. rewrite msb_ok by auto. pose proof (wf_range y W). destruct W as (N & _). unfold sval. rewrite sgn_half by auto.
  pose proof (half_pow (bits y) ltac:(lia)). destruct (Z.leb_spec (2 ^ (bits y - 1)) (uval y)), (Z.ltb_spec (uval y) (2 ^ (bits y - 1))); try lia;
  match goal with |- _ = (?a <? 0) => destruct (Z.ltb_spec a 0) end; auto; lia.
Qed.
Lemma Sign_ok : forall y, wf y -> Sign y = Z.sgn (sval y).
Proof.
  intros y W. unfold Sign. rewrite is_empty_ok, mlast_id by auto. change (nz (Z.land (lastw (wds y)) (msbmask (mask_ (bits y))))) with (msb_ y).
  rewrite msb_sval by auto. pose proof (wf_range y W). destruct W as (N & _). unfold sval. rewrite sgn_half by auto. pose proof (half_pow (bits y) ltac:(lia)). pose proof (pow2_pos (bits y - 1) ltac:(lia)).
  destruct (Z.eqb_spec (uval y) 0) as [->|NZ].
  - destruct (Z.ltb_spec 0 (2 ^ (bits y - 1))); [reflexivity|lia].
  - destruct (Z.ltb_spec (uval y) (2 ^ (bits y - 1))).
    + destruct (Z.ltb_spec (uval y) 0); [lia|]. rewrite Z.sgn_pos; lia.
    + destruct (Z.ltb_spec (uval y - 2 ^ bits y) 0); [|lia]. rewrite Z.sgn_neg; lia.
Qed.
Lemma wval_bit : forall ws i, Forall word ws -> 0 <= i -> Z.testbit (wval ws) i = Z.testbit (nth (Z.to_nat (i / 32)) ws 0) (i mod 32).
Proof.
  intros ws i F. revert i. induction F as [|w ws W F IH]; intros i I.
  - cbn [wval]. rewrite Z.bits_0. destruct (Z.to_nat (i / 32)); simpl; rewrite Z.bits_0; auto.
  - cbn [wval]. unfold word in W. destruct (Z.ltb_spec i 32).
    + rewrite Z.div_small, Z.mod_small by lia. cbn [nth Z.to_nat]. rewrite testbit_add_shift by lia. destruct (Z.ltb_spec i 32); [auto|lia].
    + rewrite testbit_add_shift by lia. destruct (Z.ltb_spec i 32); [lia|]. rewrite IH by lia.
      assert (E : i / 32 = (i - 32) / 32 + 1) by (symmetry; replace i with (i - 32 + 1 * 32) at 2 by lia; rewrite Z.div_add by lia; reflexivity).
      assert (E2 : i mod 32 = (i - 32) mod 32) by (replace i with (i - 32 + 1 * 32) at 1 by lia; rewrite Z.mod_add by lia; reflexivity).
      pose proof (Z.div_pos (i - 32) 32 ltac:(lia) ltac:(lia)). rewrite E, E2, Z2Nat.inj_add by lia. rewrite Nat.add_comm. reflexivity.
Qed.
Lemma modmask_eq : forall i, Z.land i MODMASK = i mod 32.
Proof. intros. change MODMASK with (Z.ones 5). rewrite Z.land_ones by lia. reflexivity. Qed.
Lemma logbits_eq : forall i, shr i LOGBITS = i / 32.
Proof. intros. rewrite shr_eq by (unfold LOGBITS; lia). reflexivity. Qed.
Lemma bitmask_eq : forall i, shl LSB (Z.land i MODMASK) = 2 ^ (i mod 32).
Proof.
  intros. rewrite modmask_eq. pose proof (Z.mod_pos_bound i 32 ltac:(lia)). rewrite shl_eq by lia. unfold LSB. rewrite Z.mul_1_l.
  apply Z.mod_small. split; [apply Z.pow_nonneg; lia|apply Z.pow_lt_mono_r; lia].
Qed.
Lemma tst_ok : forall y i, Forall word (wds y) -> 0 <= i -> tst y i = Z.testbit (uval y) i.
Proof.
  intros y i F I. unfold tst, uval. rewrite bitmask_eq, nz_land_pow2, logbits_eq by (apply Z.mod_pos_bound; lia). symmetry. apply wval_bit; auto.
Qed.

Lemma top_bit_ok : forall f c i, 0 < c < 2 ^ 32 -> 31 - Z.of_nat f <= Z.log2 c -> top_bit f c i = i - 32 + Z.log2 c.
Proof.
  induction f as [|f IH]; intros c i R L.
  - assert (Z.log2 c < 32) by (apply Z.log2_lt_pow2; lia). cbn [top_bit]. lia.
  - assert (U : Z.log2 c < 32) by (apply Z.log2_lt_pow2; lia). pose proof (Z.log2_nonneg c). pose proof (Z.log2_spec c ltac:(lia)) as SP. cbn [top_bit]. rewrite MSB_eq, nz_land_pow2 by lia.
    destruct (Z.eq_dec (Z.log2 c) 31) as [E|NE].
    + rewrite <- E, Z.bit_log2 by lia. lia.
    + rewrite Z.bits_above_log2 by lia. rewrite shl_eq by lia. change (2 ^ 1) with 2.
      assert (LT : 2 ^ Z.succ (Z.log2 c) <= 2 ^ 31) by (apply Z.pow_le_mono_r; lia). change (2 ^ 31) with 2147483648 in LT. rewrite p32 in *.
      rewrite Z.mod_small by lia. rewrite Z.mul_comm. assert (ED : Z.log2 (2 * c) = Z.succ (Z.log2 c)) by (apply Z.log2_double; lia).
      rewrite IH, ED by (try rewrite p32; try rewrite ED; lia). lia.
Qed.
Lemma max_words_ok : forall f, Forall word f -> max_words (Z.of_nat (length f)) (rev f) = if wval f =? 0 then LONG_MIN else Z.log2 (wval f).
Proof.
  intros f. induction f as [|l f IH] using rev_ind; intros F; [reflexivity|]. apply Forall_app in F. destruct F as [Ff Fl]. specialize (IH Ff).
  pose proof (Forall_inv Fl) as Wl. unfold word in Wl. pose proof (wval_range f Ff) as R. rewrite rev_app_distr. cbn [rev app max_words]. rewrite wval_app, app_length. cbn [wval length].
  set (A := 2 ^ (32 * Z.of_nat (length f))) in *. assert (PA : 0 < A) by (apply pow2_pos; lia).
  unfold nz. destruct (Z.eqb_spec l 0) as [->|NZ]; cbn [negb].
  - rewrite Nat2Z.inj_add. replace (Z.of_nat (length f) + Z.of_nat 1 - 1) with (Z.of_nat (length f)) by lia. rewrite IH. replace (wval f + A * (0 + 2 ^ 32 * 0)) with (wval f) by ring. reflexivity.
  - rewrite Z.mul_0_r, Z.add_0_r. destruct (Z.eqb_spec (wval f + A * l) 0); [nia|]. rewrite top_bit_ok; [|lia|pose proof (Z.log2_nonneg l); lia].
    rewrite Z.shiftl_mul_pow2 by (unfold LOGBITS; lia). change (2 ^ LOGBITS) with 32.
    symmetry. apply Z.log2_unique'  with (c := wval f + A * (l - 2 ^ Z.log2 l)).
    + pose proof (Z.log2_nonneg l). lia.
    + pose proof (Z.log2_spec l ltac:(lia)) as [S1 S2]. rewrite Z.pow_succ_r in S2 by apply Z.log2_nonneg.
      replace (2 ^ ((Z.of_nat (length f + 1)) * 32 - 32 + Z.log2 l)) with (A * 2 ^ Z.log2 l); [nia|].
      unfold A. rewrite <- Z.pow_add_r by (try apply Z.log2_nonneg; lia). f_equal. lia.
    + replace (2 ^ ((Z.of_nat (length f + 1)) * 32 - 32 + Z.log2 l)) with (A * 2 ^ Z.log2 l); [lia|].
      unfold A. rewrite <- Z.pow_add_r by (try apply Z.log2_nonneg; lia). f_equal. lia.
Qed.
Lemma Set_Max_ok : forall y, Forall word (wds y) -> Set_Max y = if uval y =? 0 then LONG_MIN else Z.log2 (uval y).
Proof. intros. apply max_words_ok. auto. Qed.

Lemma cmp_words_ok : forall a b, Forall word a -> Forall word b -> length a = length b -> cmp_words a b = Z.sgn (wval a - wval b).
Proof.
  induction a as [|u a IH]; intros [|w b] Fa Fb L; try discriminate; auto.
  inversion Fa as [|? ? Wu Fa']; inversion Fb as [|? ? Ww Fb']; subst. cbn [cmp_words wval]. rewrite IH by (auto; injection L; auto).
  unfold word in *. rewrite p32 in *. destruct (Z.eqb_spec (Z.sgn (wval a - wval b)) 0) as [E|E].
  - apply Z.sgn_null_iff in E. replace (u + 4294967296 * wval a - (w + 4294967296 * wval b)) with (u - w) by lia.
    destruct (Z.eqb_spec u w); [subst; rewrite Z.sub_diag; reflexivity|]. destruct (Z.ltb_spec u w); symmetry; [apply Z.sgn_neg|apply Z.sgn_pos]; lia.
  - destruct (Z.lt_trichotomy (wval a - wval b) 0) as [H|[H|H]].
    + rewrite !Z.sgn_neg by lia. reflexivity.
    + rewrite H in E. simpl in E. lia.
    + rewrite !Z.sgn_pos by lia. reflexivity.
Qed.
Lemma Compare_ok : forall x y, wf x -> wf y -> bits x = bits y -> Compare x y = Z.sgn (sval x - sval y).
Proof.
  intros x y Wx Wy E. pose proof (wf_range x Wx) as Rx. pose proof (wf_range y Wy) as Ry. unfold Compare. rewrite <- E, Z.eqb_refl.
  pose proof (msb_ok x Wx) as Mx. pose proof (msb_ok y Wy) as My. unfold msb_ in Mx, My. rewrite <- E in My, Ry.
  destruct Wx as (N & Lx & Fx & _), Wy as (_ & Ly & Fy & _). rewrite <- E in Ly. destruct (shape_ex _ _ N Lx) as (f & l & k & _ & S).
  rewrite (shape_msb _ _ _ S) in *. destruct S as [_ K].
  rewrite !land_pow2 in * by lia. pose proof (pow2_pos (k - 1) ltac:(lia)). unfold sval. rewrite <- E. rewrite !sgn_half by auto.
  pose proof (half_pow (bits x) ltac:(lia)).
  assert (NZ : forall b : bool, nz (if b then 2 ^ (k - 1) else 0) = b) by (intros []; unfold nz; [destruct (Z.eqb_spec (2 ^ (k - 1)) 0); [lia|auto]|auto]).
  rewrite NZ in *. set (bx := Z.testbit (lastw (wds x)) (k - 1)) in *. set (by_ := Z.testbit (lastw (wds y)) (k - 1)) in *. clearbody bx by_. subst bx by_.
  rewrite cmp_words_ok by (auto; lia). fold (uval x) (uval y).
  destruct (Z.leb_spec (2 ^ (bits x - 1)) (uval x)), (Z.leb_spec (2 ^ (bits x - 1)) (uval y)), (Z.ltb_spec (uval x) (2 ^ (bits x - 1))), (Z.ltb_spec (uval y) (2 ^ (bits x - 1))); try lia;
   rewrite ?Z.eqb_refl; cbn [negb]; auto.
  - f_equal. lia.
  - destruct (Z.eqb_spec (2 ^ (k - 1)) 0); [lia|]. cbn [negb]. symmetry. apply Z.sgn_neg. lia.
  - destruct (Z.eqb_spec 0 (2 ^ (k - 1))); [lia|]. cbn [negb]. symmetry. apply Z.sgn_pos. lia.
Qed.
Lemma Lexicompare_ok : forall x y, wf x -> wf y -> bits x = bits y -> Lexicompare x y = Z.sgn (uval x - uval y).
Proof.
  intros x y (N & Lx & Fx & _) (_ & Ly & Fy & _) E. unfold Lexicompare. rewrite E, Z.eqb_refl. apply cmp_words_ok; auto. rewrite E in Lx. lia.
Qed.
Lemma equal_ok : forall x y, wf x -> wf y -> bits x = bits y -> equal x y = (uval x =? uval y).
Proof.
  intros x y Wx Wy E. unfold equal. rewrite E, Z.eqb_refl. rewrite <- E at 1. rewrite !mlast_id by auto.
  destruct Wx as (N & Lx & Fx & _), Wy as (_ & Ly & Fy & _). rewrite E in Lx. assert (L : length (wds x) = length (wds y)) by lia. unfold uval. clear Lx Ly N.
  revert Fx Fy L. generalize (wds x), (wds y). induction l as [|u a IH]; intros [|w b] Fa Fb L; try discriminate; auto.
  inversion Fa as [|? ? Wu Fa']; inversion Fb as [|? ? Ww Fb']; subst. cbn [eq_words wval]. rewrite IH by (auto; injection L; auto).
  unfold word in *. rewrite p32 in *. destruct (Z.eqb_spec u w), (Z.eqb_spec (wval a) (wval b)), (Z.eqb_spec (u + 4294967296 * wval a) (w + 4294967296 * wval b)); simpl; auto; lia.
Qed.

Lemma iter_shl : forall m v, wf v -> let r := iter m (fun u => fst (shift_left u false)) v in
  wf r /\ bits r = bits v /\ uval r = (uval v * 2 ^ Z.of_nat m) mod 2 ^ bits v.
Proof.
  induction m as [|m IH]; intros v W r.
  - cbn in r. subst r. pose proof (wf_range v W). rewrite Z.pow_0_r, Z.mul_1_r, Z.mod_small by lia. auto.
  - cbn [iter] in r. destruct (shift_left_ok v false W) as (x & E & Wx & B & U). subst r. rewrite E. cbn [fst].
    destruct (IH x Wx) as (R1 & R2 & R3). rewrite R3, R2, B, U in *. split; [auto|]. split; [auto|].
    pose proof (pow2_pos (bits v) ltac:(destruct W; lia)). rewrite Zmult_mod_idemp_l. f_equal. cbn [b2z]. rewrite Nat2Z.inj_succ, Z.pow_succ_r by lia. ring.
Qed.
Lemma wval_firstn : forall k ws, Forall word ws -> (k <= length ws)%nat -> wval (firstn k ws) = wval ws mod 2 ^ (32 * Z.of_nat k).
Proof.
  intros k ws F L. rewrite <- (firstn_skipn k ws) at 2. rewrite wval_app. rewrite firstn_length_le by auto.
  assert (FF : Forall word (firstn k ws)) by (rewrite <- (firstn_skipn k ws) in F; apply Forall_app in F; apply F).
  pose proof (wval_range _ FF) as R. rewrite firstn_length_le in R by auto. rewrite Z.mul_comm, Z.mod_add by lia. symmetry. apply Z.mod_small. auto.
Qed.
Lemma Word_Insert0_ok : forall v c, wf v -> 0 <= c -> 32 * c < bits v ->
  wf (Word_Insert0 v c) /\ bits (Word_Insert0 v c) = bits v /\ uval (Word_Insert0 v c) = (uval v * 2 ^ (32 * c)) mod 2 ^ bits v.
Proof.
  intros v c W C B. unfold Word_Insert0. rewrite mlast_id by auto. destruct W as (N & L & F & R).
  assert (CL : c < Z.of_nat (length (wds v))) by (rewrite L; assert (c < (bits v + 31) / 32); [|lia]; apply Z.lt_le_trans with (c + 1); [lia|]; apply Z.div_le_lower_bound; lia).
  rewrite Nat.min_l by lia. set (m := Z.to_nat c). set (t := length (wds v)) in *.
  assert (FF : Forall word (firstn (t - m) (wds v))) by (rewrite <- (firstn_skipn (t - m) (wds v)) in F; apply Forall_app in F; apply F).
  assert (FL : length (firstn (t - m) (wds v)) = (t - m)%nat) by (apply firstn_length_le; unfold t; lia).
  destruct (wf_mlast (bits v) (repeat 0 m ++ firstn (t - m) (wds v)) N) as [WF U].
  - rewrite app_length, repeat_length, FL, <- L. unfold t, m. lia.
  - apply Forall_app. split; auto using word_zeros.
  - split; [auto|]. split; [auto|]. rewrite U, wval_app, wval_zeros, repeat_length, wval_firstn by (auto; unfold t; lia). fold (uval v).
    replace (Z.of_nat m) with c by (unfold m; lia). rewrite Z.add_0_l, <- Z.mul_mod_distr_l by (apply Z.pow_nonzero; lia).
    rewrite <- Z.pow_add_r by lia. replace (32 * c + 32 * Z.of_nat (t - m)) with (32 * Z.of_nat t) by (unfold m; lia).
    destruct (full_pow _ _ N L) as (e & Pe & E). fold t in E. rewrite E, mod_mod_mul by (auto; apply pow2_pos; lia). f_equal. ring.
Qed.
Lemma Move_Left_ok : forall v n, wf v -> 0 <= n ->
  wf (Move_Left v n) /\ bits (Move_Left v n) = bits v /\ uval (Move_Left v n) = (uval v * 2 ^ n) mod 2 ^ bits v.
Proof.
  intros v n W N0. unfold Move_Left. pose proof (wf_range v W) as R. assert (N := proj1 W). destruct (Z.ltb_spec 0 n).
  - destruct (Z.leb_spec (bits v) n).
    + destruct (Empty_ok v W) as (A & B & C). rewrite C. split; [auto|]. split; [auto|].
      replace (2 ^ n) with (2 ^ (n - bits v) * 2 ^ bits v) by (rewrite <- Z.pow_add_r by lia; f_equal; lia). rewrite Z.mul_assoc, Z.mod_mul; [auto|]. apply Z.pow_nonzero; lia.
    + rewrite modmask_eq, logbits_eq. pose proof (Z.mod_pos_bound n 32 ltac:(lia)). pose proof (Z.div_mod n 32 ltac:(lia)). pose proof (Z.div_pos n 32 ltac:(lia) ltac:(lia)).
      destruct (iter_shl (Z.to_nat (n mod 32)) v W) as (A & B & C). rewrite Z2Nat.id in C by lia.
      destruct (Word_Insert0_ok _ (n / 32) A ltac:(lia) ltac:(rewrite B; lia)) as (A' & B' & C'). rewrite C', B', B, C. split; [auto|]. split; [auto|].
      rewrite Zmult_mod_idemp_l. f_equal. rewrite <- Z.mul_assoc, <- Z.pow_add_r by lia. do 2 f_equal. lia.
  - replace n with 0 by lia. rewrite Z.pow_0_r, Z.mul_1_r, Z.mod_small by auto. auto.
Qed.

(** * Multiplication *)
Lemma add_ok : forall x y c, wf x -> wf y -> bits x = bits y -> exists r, 
  let n := bits x in let s := sval x + sval y + b2z c in
  add x y c = (r, 2 ^ n <=? uval x + uval y + b2z c, negb ((- 2 ^ (n - 1) <=? s) && (s <? 2 ^ (n - 1)))) /\
  wf r /\ bits r = n /\ uval r = (uval x + uval y + b2z c) mod 2 ^ n.
Proof.
  intros x y c Wx Wy E. destruct (compute_ok x (wds y) false c Wx) as (r & H).
  - apply Wy.
  - rewrite E. apply Wy.
  - left. destruct Wx as (_ & Lx & _), Wy as (_ & Ly & _). rewrite E in Lx. lia.
  - exists r. cbv zeta in *. unfold sval at 2 4. rewrite <- E. exact H.
Qed.
Lemma sub_ok : forall x y c, wf x -> wf y -> bits x = bits y -> exists r, 
  let n := bits x in let s := sval x - sval y - b2z c in
  sub x y c = (r, uval x - uval y - b2z c <? 0, negb ((- 2 ^ (n - 1) <=? s) && (s <? 2 ^ (n - 1)))) /\
  wf r /\ bits r = n /\ uval r = (uval x - uval y - b2z c) mod 2 ^ n.
Proof.
  intros x y c Wx Wy E. destruct (compute_ok x (wds y) true c Wx) as (r & H).
  - apply Wy.
  - rewrite E. apply Wy.
  - left. destruct Wx as (_ & Lx & _), Wy as (_ & Ly & _). rewrite E in Lx. lia.
  - exists r. cbv zeta in *. unfold sval at 2 4. rewrite <- E. exact H.
Qed.
Lemma mod_pow_S : forall Z0 c, 0 <= c -> Z0 mod 2 ^ (c + 1) = Z0 mod 2 ^ c + b2z (Z.testbit Z0 c) * 2 ^ c.
Proof.
  intros z c C. rewrite Z.pow_add_r by lia. change (2 ^ 1) with 2. rewrite Z.rem_mul_r by (try apply Z.pow_nonzero; lia).
  rewrite Z.testbit_odd, Z.shiftr_div_pow2, Zmod_odd by auto. destruct (Z.odd (z / 2 ^ c)); cbn [b2z]; lia.
Qed.
Lemma mod_bound_le : forall a b, 0 <= a -> 0 < b -> a mod b <= a.
Proof. intros. apply Z.mod_le; auto. Qed.

Lemma mul_loop_ok : forall n count limit strict x y z Y Z0,
  wf x -> wf y -> bits x = bits y -> Forall word (wds z) -> uval z = Z0 -> 0 < Z0 -> limit = Z.log2 Z0 -> 0 <= count ->
  Z.of_nat n = limit + 1 - count -> (0 < n)%nat ->
  let Bd := if strict : bool then 2 ^ (bits x - 1) else 2 ^ bits x in
  0 <= Y -> uval y = Y * 2 ^ count -> uval y < Bd -> uval x = Y * (Z0 mod 2 ^ count) -> uval x < Bd ->
  exists r ok, mul_loop n count limit strict x y z = (r, ok) /\ wf r /\ bits r = bits x /\
    ok = (Y * Z0 <? Bd) /\ (ok = true -> uval r = Y * Z0).
Proof.
  induction n as [|n IH]; intros count limit strict x y z Y Z0 Wx Wy Bxy Fz Ez PZ EL C Hn Pn Bd PY Ey Ry Ex Rx; [lia|].
  cbn [mul_loop]. rewrite tst_ok, Ez by auto.
  pose proof (wf_range x Wx) as R1. pose proof (wf_range y Wy) as R2. assert (N := proj1 Wx).
  pose proof (half_pow (bits x) ltac:(lia)) as HP. pose proof (pow2_pos (bits x - 1) ltac:(lia)) as PP. pose proof (pow2_pos count C) as PC.
  assert (PBd : Bd <= 2 ^ bits x) by (unfold Bd; destruct strict; lia).
  pose proof (mod_pow_S Z0 count C) as MS.
  assert (LE1 : forall e, 0 <= e -> Z0 mod 2 ^ e <= Z0) by (intros; apply mod_bound_le; [lia|apply pow2_pos; lia]).
  pose proof (Z.log2_spec Z0 PZ) as [LS1 LS2].
  (* the sum *)
  assert (ADD : exists x1 ok, (if Z.testbit Z0 count then let '(s, carry, ovf) := add x y false in (s, if strict then negb (carry || ovf) else negb carry) else (x, true)) = (x1, ok)
    /\ wf x1 /\ bits x1 = bits x /\ ok = (Y * (Z0 mod 2 ^ (count + 1)) <? Bd) /\ (ok = true -> uval x1 = Y * (Z0 mod 2 ^ (count + 1)))).
  { destruct (Z.testbit Z0 count) eqn:TB; cbn [b2z] in MS.
    - destruct (add_ok x y false Wx Wy Bxy) as (s & E & Ws & Bs & Us). cbn [b2z] in *. rewrite !Z.add_0_r in *. rewrite E.
      assert (SUM : uval x + uval y = Y * (Z0 mod 2 ^ (count + 1))) by (rewrite MS, Ex, Ey; ring).
      eexists _, _. split; [reflexivity|]. split; [auto|]. split; [auto|]. rewrite <- SUM.
      destruct strict; subst Bd.
      + assert (S1 : sval x = uval x) by (unfold sval; rewrite sgn_half by auto; destruct (Z.ltb_spec (uval x) (2 ^ (bits x - 1))); lia).
        assert (S2 : sval y = uval y) by (unfold sval; rewrite sgn_half by (try lia; rewrite <- Bxy; auto); rewrite <- Bxy; destruct (Z.ltb_spec (uval y) (2 ^ (bits x - 1))); lia).
        rewrite S1, S2. destruct (Z.leb_spec (2 ^ bits x) (uval x + uval y)); [lia|]. destruct (Z.leb_spec (- 2 ^ (bits x - 1)) (uval x + uval y)); [|lia].
        destruct (Z.ltb_spec (uval x + uval y) (2 ^ (bits x - 1))); cbn; split; auto; intros; try discriminate. rewrite Us, Z.mod_small; lia.
      + destruct (Z.leb_spec (2 ^ bits x) (uval x + uval y)), (Z.ltb_spec (uval x + uval y) (2 ^ bits x)); try lia; cbn; split; auto; intros; try discriminate. rewrite Us, Z.mod_small; lia.
    - exists x, true. rewrite MS, Z.mul_0_l, Z.add_0_r, <- Ex. split; [auto|]. split; [auto|]. split; [auto|]. split; [|auto].
      destruct (Z.ltb_spec (uval x) Bd); auto; lia. }
  destruct ADD as (x1 & ok & -> & W1 & B1 & OK & U1).
  destruct ok; cbn [andb].
  2:{ eexists _, _. split; [reflexivity|]. split; [auto|]. split; [auto|]. split; [|discriminate].
      symmetry in OK. apply Z.ltb_ge in OK. symmetry. apply Z.ltb_ge. pose proof (LE1 (count + 1) ltac:(lia)). nia. }
  specialize (U1 eq_refl). symmetry in OK. apply Z.ltb_lt in OK.
  destruct (Z.ltb_spec count limit) as [CL|CL].
  - destruct (shift_left_ok y false Wy) as (y' & E & Wy' & By & Uy). rewrite E. cbn [b2z] in Uy. rewrite Z.add_0_r in Uy.
    assert (TWO : 2 * uval y = Y * 2 ^ (count + 1)) by (rewrite Ey, Z.pow_add_r by lia; change (2 ^ 1) with 2; ring).
    assert (GE : 2 ^ (count + 1) <= Z0) by (transitivity (2 ^ limit); [apply Z.pow_le_mono_r; lia|rewrite EL; auto]).
    assert (BIG : Y * 2 ^ (count + 1) <= Y * Z0) by nia.
    match goal with |- context [if ?c then mul_loop _ _ _ _ _ _ _ else _] => assert (OK2 : c = (2 * uval y <? Bd)) end.
    { change (nz (Z.land (lastw (wds y')) (msbmask (mask_ (bits y'))))) with (msb_ y'). rewrite msb_ok, By, <- Bxy, Uy by auto. rewrite <- Bxy.
      destruct strict; subst Bd.
      - rewrite (Z.mod_small (2 * uval y)) by lia. destruct (Z.leb_spec (2 ^ (bits x - 1)) (uval y)); [lia|].
        destruct (Z.leb_spec (2 ^ (bits x - 1)) (2 * uval y)), (Z.ltb_spec (2 * uval y) (2 ^ (bits x - 1))); auto; lia.
      - destruct (Z.leb_spec (2 ^ (bits x - 1)) (uval y)), (Z.ltb_spec (2 * uval y) (2 ^ bits x)); auto; lia. }
    rewrite OK2. destruct (Z.ltb_spec (2 * uval y) Bd) as [L2|L2].
    + destruct (IH (count + 1) limit strict x1 y' z Y Z0 W1 Wy' ltac:(congruence) Fz Ez PZ EL ltac:(lia) ltac:(lia) ltac:(lia) PY) as (r & o & Er & Wr & Br & Or & Ur).
      * rewrite Uy, <- Bxy, <- TWO. apply Z.mod_small. lia.
      * rewrite B1. fold Bd. rewrite Uy, <- Bxy. rewrite Z.mod_small; lia.
      * rewrite U1. reflexivity.
      * rewrite B1. fold Bd. lia.
      * rewrite B1 in Or, Br. fold Bd in Or. exists r, o. auto.
    + eexists _, _. split; [reflexivity|]. split; [auto|]. split; [auto|]. split; [|discriminate]. symmetry. apply Z.ltb_ge. lia.
  - assert (count = limit) by lia. assert (FULL : Z0 mod 2 ^ (count + 1) = Z0) by (apply Z.mod_small; subst count limit; replace (Z.log2 Z0 + 1) with (Z.succ (Z.log2 Z0)) by lia; lia).
    rewrite FULL in *. eexists _, _. split; [reflexivity|]. split; [auto|]. split; [auto|]. split; [|auto]. symmetry. apply Z.ltb_lt. auto.
Qed.
(** BitVector_Mul_Pos: exact below the bound, an overflow at or above it. *)
Lemma Mul_Pos_ok : forall x y z strict, wf x -> wf y -> bits x = bits y -> Forall word (wds z) ->
  let Bd := if strict : bool then 2 ^ (bits x - 1) else 2 ^ bits x in uval y < Bd ->
  exists r, Mul_Pos x y z strict = (r, if uval y * uval z <? Bd then Ok else Ovfl) /\ wf r /\ bits r = bits x /\
    (uval y * uval z < Bd -> uval r = uval y * uval z).
Proof.
  intros x y z strict Wx Wy B Fz Bd R. unfold Mul_Pos. replace (bits x =? bits y) with true by (symmetry; apply Z.eqb_eq; auto). rewrite is_empty_ok by auto.
  destruct (Empty_ok x Wx) as (We & Be & Ue). pose proof (wf_range y Wy) as Ry. pose proof (wval_range _ Fz) as Rz. fold (uval z) in Rz.
  assert (PB : 0 < Bd) by (unfold Bd; destruct strict; apply pow2_pos; destruct Wx; lia).
  destruct (Z.eqb_spec (uval y) 0) as [Y0|Y0].
  - exists (Empty x). rewrite Y0, Z.mul_0_l. destruct (Z.ltb_spec 0 Bd); [auto|lia].
  - rewrite Set_Max_ok by auto. destruct (Z.eqb_spec (uval z) 0) as [Z0|Z0].
    + exists (Empty x). rewrite Z0, Z.mul_0_r. change (LONG_MIN <? 0) with true. cbv iota. destruct (Z.ltb_spec 0 Bd); [auto|lia].
    + pose proof (Z.log2_nonneg (uval z)). destruct (Z.ltb_spec (Z.log2 (uval z)) 0); [lia|].
      rewrite norm_id by auto.
      destruct (mul_loop_ok (Z.to_nat (Z.log2 (uval z) + 1)) 0 (Z.log2 (uval z)) strict (Empty x) y z (uval y) (uval z) We Wy ltac:(congruence) Fz eq_refl ltac:(lia) eq_refl ltac:(lia) ltac:(lia) ltac:(lia) ltac:(lia)) as (r & ok & E & Wr & Br & O & U).
      * rewrite Z.pow_0_r. lia.
      * exact R.
      * rewrite Ue, Z.pow_0_r, Z.mod_1_r. lia.
      * rewrite Ue. exact PB.
      * rewrite E. exists r. rewrite Be in *. fold Bd in O. split; [rewrite O; destruct (_ <? _); auto|]. split; [auto|]. split; [auto|].
        intros L. apply U. rewrite O. apply Z.ltb_lt. auto.
Qed.
(** The most negative number, as a magnitude, is only ever multiplied by 0 or 1. *)
Lemma Mul_Pos_min : forall x y z, wf x -> wf y -> bits x = bits y -> Forall word (wds z) -> uval y = 2 ^ (bits x - 1) -> 0 < uval z ->
  exists r, Mul_Pos x y z true = (r, if uval z =? 1 then Ok else Ovfl) /\ wf r /\ bits r = bits x /\ (uval z = 1 -> uval r = uval y).
Proof.
  intros x y z Wx Wy B Fz Ey Pz. unfold Mul_Pos. replace (bits x =? bits y) with true by (symmetry; apply Z.eqb_eq; auto). rewrite is_empty_ok by auto. pose proof (wf_range y Wy) as Ry.
  assert (N := proj1 Wx). pose proof (pow2_pos (bits x - 1) ltac:(lia)) as PP. pose proof (half_pow (bits x) ltac:(lia)) as HP.
  destruct (Empty_ok x Wx) as (We & Be & Ue).
  destruct (Z.eqb_spec (uval y) 0); [lia|]. rewrite Set_Max_ok by auto. destruct (Z.eqb_spec (uval z) 0); [lia|].
  pose proof (Z.log2_nonneg (uval z)). destruct (Z.ltb_spec (Z.log2 (uval z)) 0); [lia|]. rewrite norm_id by auto.
  replace (Z.to_nat (Z.log2 (uval z) + 1)) with (S (Z.to_nat (Z.log2 (uval z)))) by lia. cbn [mul_loop]. rewrite tst_ok by (auto; lia).
  destruct (shift_left_ok y false Wy) as (y' & E & _). 
  assert (ADD : exists x1, (if Z.testbit (uval z) 0 then let '(s, carry, ovf) := add (Empty x) y false in (s, negb (carry || ovf)) else (Empty x, true)) = (x1, true)
     /\ wf x1 /\ bits x1 = bits x /\ (Z.testbit (uval z) 0 = true -> uval x1 = uval y)).
  { destruct (Z.testbit (uval z) 0); [|exists (Empty x); split; [auto|split; [auto|split; [auto|discriminate]]]].
    destruct (add_ok (Empty x) y false We Wy ltac:(congruence)) as (s & E1 & Ws & Bs & Us). cbn [b2z] in *. rewrite Be, Ue, Z.add_0_l, Z.add_0_r in *. rewrite E1.
    exists s. split; [|split; [auto|split; [auto|]]].
    - pose proof (sval_range y Wy) as F. unfold fits in F. rewrite <- B in F. assert (S0 : sval (Empty x) = 0) by (unfold sval; rewrite Ue; apply sgn_small; lia).
      rewrite S0, Z.add_0_l, Z.add_0_r. destruct (Z.leb_spec (2 ^ bits x) (uval y)); [lia|]. destruct (Z.leb_spec (- 2 ^ (bits x - 1)) (sval y)); [|lia].
      destruct (Z.ltb_spec (sval y) (2 ^ (bits x - 1))); [reflexivity|lia].
    - intros _. rewrite Us. apply Z.mod_small. lia. }
  destruct ADD as (x1 & -> & W1 & B1 & U1). cbn [andb].
  destruct (Z.eqb_spec (uval z) 1) as [Z1|Z1].
  - rewrite Z1 in *. change (0 <? Z.log2 1) with false. cbv iota. exists x1. split; [auto|]. split; [auto|]. split; [auto|]. intros _. apply U1. reflexivity.
  - assert (1 <= Z.log2 (uval z)) by (apply Z.log2_le_pow2; simpl; lia). destruct (Z.ltb_spec 0 (Z.log2 (uval z))); [|lia]. rewrite E.
    rewrite <- B. destruct (Z.leb_spec (2 ^ (bits x - 1)) (uval y)); [|lia]. cbn [orb negb]. exists x1. split; [auto|]. split; [auto|]. split; [auto|]. intros; contradiction.
Qed.
Lemma gt_top_ok : forall f g u w, (u <> 0 \/ w <> 0) -> gt_top (rev (f ++ [u])) (rev (g ++ [w])) = (w <? u).
Proof.
  intros f g u w H. rewrite !rev_app_distr. cbn [rev app gt_top]. destruct (Z.eqb_spec u 0), (Z.eqb_spec w 0); auto. lia.
Qed.
Lemma abs_ok : forall y, wf y -> let a := if msb_ (norm y) then Negate y else Copy y in wf a /\ bits a = bits y /\ uval a = Z.abs (sval y).
Proof.
  intros y W. unfold Copy. rewrite norm_id by auto. pose proof (wf_range y W) as R. pose proof (msb_sval y W) as M. assert (N := proj1 W).
  unfold sval in *. rewrite sgn_half in * by auto. cbv zeta. pose proof (half_pow (bits y) ltac:(lia)). pose proof (pow2_pos (bits y - 1) ltac:(lia)). rewrite M. destruct (Z.ltb_spec (uval y) (2 ^ (bits y - 1))).
  - destruct (Z.ltb_spec (uval y) 0); [lia|]. conj; auto. lia.
  - destruct (Z.ltb_spec (uval y - 2 ^ bits y) 0); [|lia]. destruct (Negate_ok y W) as (A & B & C). conj; auto. rewrite C.
    rewrite Z.abs_neq by lia. symmetry. apply (Z.mod_unique _ _ (-1)); lia.
Qed.
(** The last word decides when one magnitude is 2^(n-1) and the other is not. *)
Lemma gt_top_min : forall a b, wf a -> wf b -> bits a = bits b -> uval a = 2 ^ (bits a - 1) -> uval b < 2 ^ (bits a - 1) ->
  gt_top (rev (wds a)) (rev (wds b)) = true /\ gt_top (rev (wds b)) (rev (wds a)) = false.
Proof.
  intros a b Wa Wb E Ua Ub. destruct Wa as (N & La & Fa & Ra), Wb as (_ & Lb & Fb & Rb). rewrite <- E in *.
  destruct (shape_ex _ _ N La) as (f & u & k & Ea & S). destruct (shape_ex _ _ N Lb) as (g & w & k' & Eb & S').
  assert (LL : length f = length g) by (rewrite Ea in La; rewrite Eb in Lb; rewrite app_length in *; cbn [length] in *; lia).
  unfold uval in *. rewrite Ea, Eb in *. rewrite wval_app in *. cbn [wval] in *. destruct S as [En K].
  apply Forall_app in Fa. destruct Fa as [Ff Fu]. apply Forall_app in Fb. destruct Fb as [Fg Fw]. pose proof (Forall_inv Fu) as Wu. pose proof (Forall_inv Fw) as Ww. unfold word in *.
  pose proof (wval_range f Ff) as Rf. pose proof (wval_range g Fg) as Rg. rewrite <- LL in *. set (A := 2 ^ (32 * Z.of_nat (length f))) in *.
  assert (EP : 2 ^ (bits a - 1) = A * 2 ^ (k - 1)) by (unfold A; rewrite <- Z.pow_add_r by lia; f_equal; lia). rewrite EP in *.
  assert (0 < A) by (apply pow2_pos; lia). pose proof (pow2_pos (k - 1) ltac:(lia)).
  assert (u = 2 ^ (k - 1)) by nia. assert (w < 2 ^ (k - 1)) by nia.
  rewrite !gt_top_ok by lia. split; [apply Z.ltb_lt; lia|apply Z.ltb_ge; lia].
Qed.

(** The signed product: exact below 2^(n-1) in magnitude; the most negative number times +-1
    passes unreported; every other product is reported. *)
Lemma Multiply_ok : forall x y z, wf x -> wf y -> wf z -> bits x = bits y -> bits y = bits z ->
  let n := bits x in let P := Z.abs (sval y) * Z.abs (sval z) in
  let edge := (Z.abs (sval y) = 2 ^ (n - 1) /\ Z.abs (sval z) = 1) \/ (Z.abs (sval z) = 2 ^ (n - 1) /\ Z.abs (sval y) = 1) in
  exists r e, Multiply x y z = (r, e) /\ wf r /\ bits r = n /\
    (P < 2 ^ (n - 1) \/ edge -> e = Ok /\ uval r = (sval y * sval z) mod 2 ^ n) /\
    (2 ^ (n - 1) <= P -> ~ edge -> e = Ovfl).
Proof.
  intros x y z Wx Wy Wz Bxy Byz n P edge. unfold Multiply.
  replace (bits y =? bits z) with true by (symmetry; apply Z.eqb_eq; auto). replace (bits x <? bits y) with false by (symmetry; apply Z.ltb_ge; lia). cbn [negb orb].
  rewrite !is_empty_ok by auto. destruct (Empty_ok x Wx) as (We & Be & Ue).
  assert (N := proj1 Wx). fold n in N. pose proof (pow2_pos (n - 1) ltac:(lia)) as PP. pose proof (half_pow n ltac:(lia)) as HP.
  assert (Z0 : forall v, wf v -> bits v = n -> (uval v =? 0) = (sval v =? 0)).
  { intros v Wv Bv. pose proof (wf_range v Wv). unfold sval. rewrite Bv in *. rewrite sgn_half by auto. destruct (Z.ltb_spec (uval v) (2 ^ (n - 1))); auto.
    destruct (Z.eqb_spec (uval v) 0), (Z.eqb_spec (uval v - 2 ^ n) 0); auto; lia. }
  rewrite !Z0 by (auto; unfold n; congruence).
  pose proof (abs_ok y Wy) as (Wa & Ba & Ua). pose proof (abs_ok z Wz) as (Wb & Bb & Ub).
  set (a := if msb_ (norm y) then Negate y else Copy y) in *. set (b := if msb_ (norm z) then Negate z else Copy z) in *.
  pose proof (sval_range y Wy) as Fy. pose proof (sval_range z Wz) as Fz. unfold fits in *. rewrite <- Byz, <- Bxy in Fz. rewrite <- Bxy in Fy. fold n in Fy, Fz.
  destruct ((sval y =? 0) || (sval z =? 0)) eqn:NZ.
  - exists (Empty x), Ok. assert (EZ : sval y * sval z = 0) by (apply orb_true_iff in NZ; rewrite !Z.eqb_eq in NZ; nia).
    assert (P0 : P = 0) by (unfold P; rewrite <- Z.abs_mul, EZ; reflexivity). split; [auto|]. split; [auto|]. split; [auto|].
    rewrite EZ, Z.mod_0_l by lia. split; [auto|]. lia.
  - apply orb_false_iff in NZ. rewrite !Z.eqb_neq in NZ. rewrite (norm_id y), (norm_id z) by auto. rewrite !msb_sval by auto.
    assert (SGN : forall r, wf r -> bits r = n -> uval r = P -> let r' := if xorb (sval y <? 0) (sval z <? 0) then Negate r else r in
       wf r' /\ bits r' = n /\ uval r' = (sval y * sval z) mod 2 ^ n).
    { intros r Wr Br Ur r'. destruct (Negate_ok r Wr) as (W' & B' & U'). subst r'. rewrite Br, Ur in *. pose proof (wf_range r Wr) as Rr. rewrite Br, Ur in Rr.
      unfold P in *. destruct (Z.ltb_spec (sval y) 0), (Z.ltb_spec (sval z) 0); cbn [xorb].
      - split; [auto|]. split; [auto|]. rewrite Ur. rewrite <- (Z.mod_small _ _ Rr). f_equal. nia.
      - split; [auto|]. split; [auto|]. rewrite U'. f_equal. nia.
      - split; [auto|]. split; [auto|]. rewrite U'. f_equal. nia.
      - split; [auto|]. split; [auto|]. rewrite Ur. rewrite <- (Z.mod_small _ _ Rr). f_equal. nia. }
    assert (WK : forall r e (H : {e = Ok} + {e = Ovfl}), wf r -> bits r = n -> (e = Ok -> uval r = P) -> 
       (P < 2 ^ (n - 1) \/ edge -> e = Ok) -> (2 ^ (n - 1) <= P -> ~ edge -> e = Ovfl) ->
       exists r' e', (match e with Ok => if xorb (sval y <? 0) (sval z <? 0) then Negate r else r | _ => r end, e) = (r', e') /\ wf r' /\ bits r' = n /\
        (P < 2 ^ (n - 1) \/ edge -> e' = Ok /\ uval r' = (sval y * sval z) mod 2 ^ n) /\ (2 ^ (n - 1) <= P -> ~ edge -> e' = Ovfl)).
    { intros r e [-> | ->] Wr Br Ur H1 H2.
      - destruct (SGN r Wr Br (Ur eq_refl)) as (A & B & C). eexists _, _. split; [reflexivity|]. auto.
      - eexists _, _. split; [reflexivity|]. split; [auto|]. split; [auto|]. split; [|auto]. intros X. specialize (H1 X). discriminate. }
    (* which of the two is the multiplicand *)
    assert (MAIN : forall p q, wf p -> wf q -> bits p = n -> bits q = n -> uval p * uval q = P -> 0 < uval q -> 0 < uval p -> uval p <= 2 ^ (n - 1) -> uval q <= 2 ^ (n - 1) ->
       (uval q = 2 ^ (n - 1) -> uval p = 2 ^ (n - 1)) -> (edge <-> (uval p = 2 ^ (n - 1) /\ uval q = 1) \/ (uval q = 2 ^ (n - 1) /\ uval p = 1)) ->
       exists r e, Mul_Pos x p q true = (r, e) /\ exists H : {e = Ok} + {e = Ovfl}, wf r /\ bits r = n /\ (e = Ok -> uval r = P) /\ 
       (P < 2 ^ (n - 1) \/ edge -> e = Ok) /\ (2 ^ (n - 1) <= P -> ~ edge -> e = Ovfl)).
    { intros p q Wp Wq Bp Bq EP Pq Pp Lp Lq MX ED. destruct (Z.eq_dec (uval p) (2 ^ (n - 1))) as [Em|Nm].
      - destruct (Mul_Pos_min x p q Wx Wp ltac:(fold n; auto) ltac:(apply Wq) Em Pq) as (r & E & Wr & Br & U). exists r. rewrite E. eexists. split; [reflexivity|].
        destruct (Z.eqb_spec (uval q) 1) as [Q1|Q1].
        + exists (left eq_refl). split; [auto|]. split; [auto|]. split; [intros _; rewrite (U Q1), <- EP, Q1; ring|]. split; [auto|]. intros _ NE. exfalso. apply NE, ED. auto.
        + exists (right eq_refl). split; [auto|]. split; [auto|]. split; [discriminate|]. split; [|auto]. intros [H|H]; [exfalso; nia|]. apply ED in H. exfalso. destruct H as [[_ H]|[Hq Hp]]; [auto|]. apply Q1. congruence.
      - destruct (Mul_Pos_ok x p q true Wx Wp ltac:(fold n; auto) ltac:(apply Wq) ltac:(cbv iota; fold n; lia)) as (r & E & Wr & Br & U). cbv iota in U, E. fold n in E, U.
        rewrite EP in *. exists r. rewrite E. eexists. split; [reflexivity|]. destruct (Z.ltb_spec P (2 ^ (n - 1))).
        + exists (left eq_refl). split; [auto|]. split; [auto|]. split; [auto|]. split; [auto|]. lia.
        + exists (right eq_refl). split; [auto|]. split; [auto|]. split; [discriminate|]. split; [|auto]. intros [HH|HH]; [lia|]. apply ED in HH. exfalso. destruct HH as [[HH _]|[HH _]]; auto. }
    assert (GA : Z.abs (sval y) = 2 ^ (n - 1) -> Z.abs (sval z) < 2 ^ (n - 1) -> gt_top (rev (wds a)) (rev (wds b)) = true).
    { intros H1 H2. apply gt_top_min; auto; rewrite ?Ua, ?Ub, ?Ba, <- ?Bxy; auto. congruence. }
    assert (GB : Z.abs (sval z) = 2 ^ (n - 1) -> Z.abs (sval y) < 2 ^ (n - 1) -> gt_top (rev (wds a)) (rev (wds b)) = false).
    { intros H1 H2. apply gt_top_min; auto; rewrite ?Ua, ?Ub, ?Bb, <- ?Byz, <- ?Bxy; auto. congruence. }
    destruct (gt_top (rev (wds a)) (rev (wds b))) eqn:G.
    + destruct (MAIN a b Wa Wb ltac:(unfold n; congruence) ltac:(unfold n; congruence)) as (r & e & E & H & A1 & A2 & A3 & A4 & A5); rewrite ?Ua, ?Ub; auto; try lia; try (unfold edge; tauto).
      * rewrite E. apply WK; auto.
    + destruct (MAIN b a Wb Wa ltac:(unfold n; congruence) ltac:(unfold n; congruence)) as (r & e & E & H & A1 & A2 & A3 & A4 & A5); rewrite ?Ua, ?Ub; auto; try lia; try (unfold edge; tauto).
      * rewrite E. apply WK; auto.
Qed.

(** * Division *)
Lemma wval_setnth : forall ws k w, (k < length ws)%nat -> wval (setnth k w ws) = wval ws + 2 ^ (32 * Z.of_nat k) * (w - nth k ws 0).
Proof.
  induction ws as [|h ws IH]; intros [|k] w L; cbn [length] in L; try lia; cbn [setnth wval nth].
  - change (2 ^ (32 * Z.of_nat 0)) with 1. lia.
  - rewrite IH by lia. rewrite pow32S. ring.
Qed.
Lemma setnth_word : forall ws k w, Forall word ws -> word w -> Forall word (setnth k w ws) /\ length (setnth k w ws) = length ws.
Proof.
  induction ws as [|h ws IH]; intros [|k] w F W; cbn [setnth length]; auto; inversion F; subst.
  - split; auto.
  - destruct (IH k w) as [A B]; auto.
Qed.
Lemma set_bit : forall w j, word w -> 0 <= j < 32 -> Z.lor w (2 ^ j) = w + (if Z.testbit w j then 0 else 2 ^ j) /\ word (Z.lor w (2 ^ j)).
Proof.
  intros w j W J. assert (E : Z.lor w (2 ^ j) = w + (if Z.testbit w j then 0 else 2 ^ j)).
  { destruct (Z.testbit w j) eqn:T.
    - rewrite Z.add_0_r. apply Z.bits_inj'. intros i I. rewrite Z.lor_spec, Z.pow2_bits_eqb by lia. destruct (Z.eqb_spec j i); [subst; rewrite T; auto|apply orb_false_r].
    - apply lor_disjoint_add. rewrite land_pow2, T by lia. reflexivity. }
  split; auto. unfold word in *. split; [apply Z.lor_nonneg; split; [lia|apply Z.pow_nonneg; lia]|]. apply lor_lt_pow2; try lia. split; [apply Z.pow_nonneg; lia|apply Z.pow_lt_mono_r; lia].
Qed.
Lemma clear_bit : forall w j, word w -> 0 <= j < 32 -> Z.land w (wnot (2 ^ j)) = w - (if Z.testbit w j then 2 ^ j else 0) /\ word (Z.land w (wnot (2 ^ j))).
Proof.
  intros w j W J. assert (W2 : word (2 ^ j)) by (unfold word; split; [apply Z.pow_nonneg; lia|apply Z.pow_lt_mono_r; lia]).
  assert (L : Z.land w (wnot (2 ^ j)) = Z.ldiff w (2 ^ j)).
  { apply Z.bits_inj'. intros i I. rewrite Z.land_spec, Z.ldiff_spec, wnot_bit by auto. destruct (Z.ltb_spec i 32); [reflexivity|]. unfold word in W. rewrite (testbit_small 32) by lia. reflexivity. }
  rewrite L. assert (E : Z.ldiff w (2 ^ j) = w - (if Z.testbit w j then 2 ^ j else 0)).
  { destruct (Z.testbit w j) eqn:T.
    - symmetry. apply Z.sub_nocarry_ldiff. apply Z.bits_inj'. intros i I. rewrite Z.ldiff_spec, Z.bits_0, Z.pow2_bits_eqb by lia. destruct (Z.eqb_spec j i); [subst; rewrite T; auto|auto].
    - rewrite Z.sub_0_r. apply Z.bits_inj'. intros i I. rewrite Z.ldiff_spec, Z.pow2_bits_eqb by lia. destruct (Z.eqb_spec j i); [subst; rewrite T; auto|apply andb_true_r]. }
  split; auto. unfold word in *. rewrite <- L. split; [apply Z.land_nonneg; lia|]. rewrite L, E. pose proof (pow2_pos j ltac:(lia)). destruct (Z.testbit w j); lia.
Qed.
Lemma nth_word : forall ws k, Forall word ws -> word (nth k ws 0).
Proof.
  intros ws k F. revert k. induction F as [|h ws H F IH]; intros [|k]; cbn [nth]; auto; unfold word; rewrite p32; lia.
Qed.
(** Writing one bit of a vector *)
Lemma put_bit : forall q i (b : bool), wf q -> 0 <= i < bits q -> let k := Z.to_nat (shr i LOGBITS) in let w := nth k (wds q) 0 in let m := shl LSB (Z.land i MODMASK) in
  let q' := BV (bits q) (setnth k (if b then Z.lor w m else Z.land w (wnot m)) (wds q)) in
  uval q' = uval q - b2z (Z.testbit (uval q) i) * 2 ^ i + b2z b * 2 ^ i /\ Forall word (wds q') /\ length (wds q') = length (wds q) /\ nz (Z.land w m) = Z.testbit (uval q) i.
Proof.
  intros q i b (N & L & F & R) I k w m q'. pose proof (Z.mod_pos_bound i 32 ltac:(lia)) as Rm. pose proof (Z.div_mod i 32 ltac:(lia)) as D. pose proof (Z.div_pos i 32 ltac:(lia) ltac:(lia)).
  assert (KL : (k < length (wds q))%nat).
  { unfold k. rewrite logbits_eq. assert (i / 32 < (bits q + 31) / 32); [|lia]. apply Z.lt_le_trans with (i / 32 + 1); [lia|]. apply Z.div_le_lower_bound; lia. }
  assert (EK : Z.of_nat k = i / 32) by (unfold k; rewrite logbits_eq; lia).
  assert (EM : m = 2 ^ (i mod 32)) by apply bitmask_eq. clearbody m. subst m.
  assert (W : word w) by (apply nth_word; auto).
  assert (TB : Z.testbit (uval q) i = Z.testbit w (i mod 32)) by (unfold uval, w, k; rewrite logbits_eq; apply wval_bit; auto; lia).
  destruct (set_bit w (i mod 32) W Rm) as [S1 S2]. destruct (clear_bit w (i mod 32) W Rm) as [C1 C2].
  assert (PI : 2 ^ i = 2 ^ (32 * Z.of_nat k) * 2 ^ (i mod 32)) by (rewrite <- Z.pow_add_r by lia; f_equal; lia).
  unfold q', uval. cbn [wds]. rewrite wval_setnth by auto. fold w. fold (uval q). rewrite TB, nz_land_pow2 by lia.
  split; [|destruct b; destruct (setnth_word (wds q) k _ F S2); destruct (setnth_word (wds q) k _ F C2); auto].
  destruct b; [rewrite S1|rewrite C1]; rewrite PI; destruct (Z.testbit w (i mod 32)); cbn [b2z]; ring.
Qed.
Lemma div_loop_ok : forall n q r y X, wf q -> wf r -> wf y -> bits q = bits y -> bits r = bits y -> 0 < uval y -> Z.of_nat n <= bits y -> 0 <= X < 2 ^ bits y ->
  let D := X / 2 ^ Z.of_nat n in
  uval q = D / uval y * 2 ^ Z.of_nat n + X mod 2 ^ Z.of_nat n -> uval r = D mod uval y ->
  exists q' r', div_loop n q r y = (q', r') /\ wf q' /\ wf r' /\ bits q' = bits y /\ bits r' = bits y /\ uval q' = X / uval y /\ uval r' = X mod uval y.
Proof.
  induction n as [|n IH]; intros q r y X Wq Wr Wy Bq Br PY Hn RX D Eq Er.
  - cbn [div_loop]. exists q, r. subst D. change (2 ^ Z.of_nat 0) with 1 in *. rewrite Z.div_1_r, Z.mod_1_r in *. conj; auto. lia.
  - cbn [div_loop]. set (i := Z.of_nat n) in *. assert (Ei : Z.of_nat (S n) = i + 1) by (unfold i; lia). rewrite Ei in *.
    assert (RI : 0 <= i < bits q) by (rewrite Bq; unfold i; lia). pose proof (pow2_pos i ltac:(lia)) as PI.
    set (k := Z.to_nat (shr i LOGBITS)) in *. set (w := nth k (wds q) 0) in *. set (m := shl LSB (Z.land i MODMASK)) in *.
    set (bt := Z.testbit X i).
    assert (D2 : X / 2 ^ i = 2 * D + b2z bt).
    { unfold D, bt. rewrite Ei. rewrite Z.pow_add_r by lia. change (2 ^ 1) with 2. rewrite <- Z.div_div by lia. rewrite Z.testbit_odd, Z.shiftr_div_pow2 by lia.
      rewrite (Z.div_mod (X / 2 ^ i) 2) at 1 by lia. rewrite Zmod_odd. destruct (Z.odd (X / 2 ^ i)); reflexivity. }
    pose proof (mod_pow_S X i ltac:(lia)) as MS. fold bt in MS.
    assert (TB : Z.testbit (uval q) i = bt).
    { rewrite Eq, MS. replace (D / uval y * 2 ^ (i + 1) + (X mod 2 ^ i + b2z bt * 2 ^ i)) with (X mod 2 ^ i + 2 ^ i * (b2z bt + 2 * (D / uval y))) by (rewrite Z.pow_add_r by lia; change (2 ^ 1) with 2; ring).
      rewrite testbit_add_shift by (try apply Z.mod_pos_bound; lia). destruct (Z.ltb_spec i i); [lia|]. rewrite Z.sub_diag. rewrite Z.bit0_odd, Z.odd_add_mul_2. destruct bt; reflexivity. }
    pose proof (proj2 (proj2 (proj2 (put_bit q i true Wq RI)))) as NB. rewrite TB in NB. fold k in NB. fold w in NB. fold m in NB. rewrite NB.
    destruct (shift_left_ok r bt Wr) as (r1 & E1 & W1 & B1 & U1). rewrite E1. cbn [fst].
    assert (ND : 0 <= D) by (apply Z.div_pos; [lia|apply pow2_pos; lia]).
    assert (XB : X / 2 ^ i < 2 ^ bits y) by (apply Z.le_lt_trans with X; [apply Z.div_le_upper_bound; nia|lia]).
    pose proof (Z.div_mod D (uval y) ltac:(lia)) as DM. pose proof (Z.mod_pos_bound D (uval y) PY) as RM. set (Q := D / uval y) in *. rewrite <- Er in DM, RM.
    assert (NQ : 0 <= Q) by (apply Z.div_pos; lia). assert (BT : b2z bt = 0 \/ b2z bt = 1) by (destruct bt; auto).
    rewrite Br, Z.mod_small in U1 by nia.
    destruct (sub_ok r1 y false W1 Wy ltac:(congruence)) as (r2 & E2 & W2 & B2 & U2). cbn [b2z] in *. rewrite Z.sub_0_r in *. rewrite E2.
    pose proof (wf_range y Wy) as Ry.
    assert (WF : forall b q', uval q' = uval q - b2z (Z.testbit (uval q) i) * 2 ^ i + b2z b * 2 ^ i -> Forall word (wds q') -> length (wds q') = length (wds q) -> bits q' = bits q ->
        2 * Q + b2z b <= X / 2 ^ i -> wf q' /\ uval q' = (2 * Q + b2z b) * 2 ^ i + X mod 2 ^ i).
    { intros b q' U' F' L' B' LE'. assert (V : uval q' = (2 * Q + b2z b) * 2 ^ i + X mod 2 ^ i).
      { rewrite U', TB, Eq, MS, Z.pow_add_r by lia. change (2 ^ 1) with 2. ring. }
      split; auto. destruct Wq as (N & L & _ & _). unfold wf. rewrite B', L'. conj; auto. rewrite V, Bq.
      pose proof (Z.div_mod X (2 ^ i) ltac:(lia)). pose proof (Z.mod_pos_bound X (2 ^ i) PI). nia. }
    destruct (Z.ltb_spec (uval r1 - uval y) 0) as [BW|BW].
    + destruct (put_bit q i false Wq RI) as (V & F' & L' & _). cbv beta iota zeta in V, F', L'. fold k in V, F', L'. fold w in V, F', L'. fold m in V, F', L'.
      destruct (WF false _ V F' L' eq_refl ltac:(cbn [b2z]; nia)) as [WQ VQ]. cbn [b2z] in VQ.
      assert (QQ : X / 2 ^ i / uval y = 2 * Q) by (symmetry; apply (Z.div_unique _ _ _ (uval r1)); [lia|nia]).
      apply IH; auto; rewrite ?B1; auto; try (unfold i in *; lia); fold i; try (rewrite VQ, QQ; ring).
      apply (Z.mod_unique _ _ (2 * Q)); [lia|nia].
    + destruct (put_bit q i true Wq RI) as (V & F' & L' & _). cbv beta iota zeta in V, F', L'. fold k in V, F', L'. fold w in V, F', L'. fold m in V, F', L'.
      destruct (WF true _ V F' L' eq_refl ltac:(cbn [b2z]; nia)) as [WQ VQ]. cbn [b2z] in VQ.
      rewrite B1, Br, Z.mod_small in U2 by nia.
      assert (QQ : X / 2 ^ i / uval y = 2 * Q + 1) by (symmetry; apply (Z.div_unique _ _ _ (uval r1 - uval y)); [lia|nia]).
      apply IH; auto; rewrite ?B2, ?B1; auto; try (unfold i in *; lia); fold i; try (rewrite VQ, QQ; ring).
      rewrite U2. apply (Z.mod_unique _ _ (2 * Q + 1)); [lia|nia].
Qed.
Lemma Div_Pos_ok : forall x y, wf x -> wf y -> bits x = bits y -> uval y <> 0 -> exists q r, Div_Pos x y = (q, r, Ok) /\
  wf q /\ wf r /\ bits q = bits x /\ bits r = bits x /\ uval q = uval x / uval y /\ uval r = uval x mod uval y.
Proof.
  intros x y Wx Wy B NZ. unfold Div_Pos. replace (bits x =? bits y) with true by (symmetry; apply Z.eqb_eq; auto). cbn [negb].
  pose proof (wf_range y Wy) as Ry. pose proof (wf_range x Wx) as Rx. rewrite is_empty_ok by auto. destruct (Z.eqb_spec (uval y) 0); [lia|]. unfold Copy. rewrite norm_id by auto. rewrite Set_Max_ok by apply Wx.
  destruct (Empty_ok x Wx) as (We & Be & Ue). destruct (Z.eqb_spec (uval x) 0) as [X0|X0].
  - change (LONG_MIN <? 0) with true. cbv iota. exists x, (Empty x). rewrite X0, Z.div_0_l, Z.mod_0_l by auto. conj; auto.
  - pose proof (Z.log2_nonneg (uval x)). destruct (Z.ltb_spec (Z.log2 (uval x)) 0); [lia|]. pose proof (Z.log2_spec (uval x) ltac:(lia)) as [L1 L2].
    assert (LB : Z.log2 (uval x) < bits x) by (apply Z.log2_lt_pow2; lia).
    assert (D0 : uval x / 2 ^ Z.of_nat (Z.to_nat (Z.log2 (uval x) + 1)) = 0) by (apply Z.div_small; rewrite Z2Nat.id by lia; replace (Z.log2 (uval x) + 1) with (Z.succ (Z.log2 (uval x))) by lia; lia).
    destruct (div_loop_ok (Z.to_nat (Z.log2 (uval x) + 1)) x (Empty x) y (uval x) Wx We Wy B ltac:(congruence) ltac:(lia) ltac:(lia) ltac:(rewrite <- B; auto)) as (q & r & E & A1 & A2 & A3 & A4 & A5 & A6).
    + rewrite D0, Z.div_0_l by auto. rewrite Z.mul_0_l, Z.add_0_l. symmetry. apply Z.mod_small. rewrite Z2Nat.id by lia. replace (Z.log2 (uval x) + 1) with (Z.succ (Z.log2 (uval x))) by lia. lia.
    + rewrite Ue, D0, Z.mod_0_l by auto. reflexivity.
    + rewrite E. exists q, r. rewrite B. conj; auto.
Qed.
Lemma uval_sval : forall v x, wf v -> uval v = x mod 2 ^ bits v -> fits (bits v) x -> sval v = x.
Proof.
  intros v x W E F. unfold sval. rewrite E. unfold sgn at 1. rewrite Z.mod_mod by (apply Z.pow_nonzero; destruct W; lia). fold (sgn (bits v) x). apply sgn_small; [destruct W; lia|]. exact F.
Qed.
(** The signed quotient and rest, truncated towards zero. *)
Lemma Divide_ok : forall x y, wf x -> wf y -> bits x = bits y -> sval y <> 0 -> exists q r, Divide x y = (q, r, Ok) /\
  wf q /\ wf r /\ bits q = bits x /\ bits r = bits x /\ uval q = Z.quot (sval x) (sval y) mod 2 ^ bits x /\ sval r = Z.rem (sval x) (sval y).
Proof.
  intros x y Wx Wy B NZ. unfold Divide. replace (bits x =? bits y) with true by (symmetry; apply Z.eqb_eq; auto). cbn [negb].
  pose proof (wf_range y Wy) as Ry. pose proof (wf_range x Wx) as Rx. assert (N := proj1 Wx).
  pose proof (pow2_pos (bits x - 1) ltac:(lia)) as PP. pose proof (half_pow (bits x) ltac:(lia)) as HP.
  assert (U0 : forall v, wf v -> bits v = bits x -> (uval v = 0 <-> sval v = 0)).
  { intros v Wv Bv. pose proof (wf_range v Wv). unfold sval. rewrite Bv in *. rewrite sgn_half by auto. destruct (Z.ltb_spec (uval v) (2 ^ (bits x - 1))); lia. }
  rewrite !is_empty_ok by auto. destruct (Z.eqb_spec (uval y) 0) as [Y0|Y0]; [apply U0 in Y0; [contradiction|auto|auto]|].
  destruct (Empty_ok x Wx) as (We & Be & Ue). destruct (Z.eqb_spec (uval x) 0) as [X0|X0].
  - apply U0 in X0; auto. rewrite X0. exists (Empty x), (Empty x). rewrite Z.quot_0_l, Z.rem_0_l, Z.mod_0_l by lia. conj; auto. apply (proj1 (U0 _ We Be)). auto.
  - pose proof (abs_ok x Wx) as (Wa & Ba & Ua). pose proof (abs_ok y Wy) as (Wb & Bb & Ub). cbv zeta in *.
    set (a := if msb_ (norm x) then Negate x else Copy x) in *. set (b := if msb_ (norm y) then Negate y else Copy y) in *.
    assert (SX : sval x <> 0) by (intros H; apply (proj2 (U0 x Wx eq_refl)) in H; auto).
    destruct (Div_Pos_ok a b Wa Wb ltac:(congruence) ltac:(lia)) as (q & r & E & Wq & Wr & Bq & Br & Uq & Ur). rewrite E. rewrite (norm_id x), (norm_id y) by auto. rewrite !msb_sval by auto.
    rewrite Ua, Ub in *. rewrite Ba in *.
    pose proof (sval_range x Wx) as Fx. unfold fits in Fx.
    assert (PQ : 0 <= Z.abs (sval x) / Z.abs (sval y)) by (apply Z.div_pos; lia).
    pose proof (Z.mod_pos_bound (Z.abs (sval x)) (Z.abs (sval y)) ltac:(lia)) as PR. pose proof (Z.div_mod (Z.abs (sval x)) (Z.abs (sval y)) ltac:(lia)) as DM.
    assert (RL : Z.abs (sval x) mod Z.abs (sval y) <= Z.abs (sval x)) by (apply Z.mod_le; lia).
    assert (Fy : Z.abs (sval y) <= 2 ^ (bits x - 1)) by (pose proof (sval_range y Wy) as F; unfold fits in F; rewrite <- B in F; lia).
    destruct (Negate_ok q Wq) as (Wq' & Bq' & Uq'). destruct (Negate_ok r Wr) as (Wr' & Br' & Ur'). rewrite Bq, Br, Uq, Ur in *.
    pose proof (wf_range q Wq) as Rq. rewrite Bq, Uq in Rq.
    eexists _, _. split; [reflexivity|].
    assert (QR : Z.quot (sval x) (sval y) = Z.sgn (sval x) * Z.sgn (sval y) * (Z.abs (sval x) / Z.abs (sval y)) /\ Z.rem (sval x) (sval y) = Z.sgn (sval x) * (Z.abs (sval x) mod Z.abs (sval y))).
    { split; [apply Z.quot_div; auto|apply Z.rem_mod; auto]. }
    destruct QR as [EQ ER]. rewrite EQ, ER.
    assert (RS : sval r = Z.abs (sval x) mod Z.abs (sval y)) by (apply uval_sval; auto; rewrite Br; [rewrite Ur; symmetry; apply Z.mod_small; lia|unfold fits; lia]).
    assert (RN : sval (Negate r) = - (Z.abs (sval x) mod Z.abs (sval y))) by (apply uval_sval; auto; rewrite Br'; [auto|unfold fits; lia]).
    destruct (Z.ltb_spec (sval x) 0), (Z.ltb_spec (sval y) 0); cbn [xorb];
      rewrite ?(Z.sgn_neg (sval x)), ?(Z.sgn_pos (sval x)), ?(Z.sgn_neg (sval y)), ?(Z.sgn_pos (sval y)) by lia; conj; auto; try lia.
    all: first [rewrite Uq; symmetry; rewrite Z.mod_small; lia|rewrite Uq'; f_equal; lia].
Qed.
Lemma Divide_zero : forall x y, wf x -> wf y -> bits x = bits y -> sval y = 0 -> exists q r, Divide x y = (q, r, Zero).
Proof.
  intros x y Wx Wy B Z0. unfold Divide. replace (bits x =? bits y) with true by (symmetry; apply Z.eqb_eq; auto). cbn [negb].
  rewrite is_empty_ok by auto. pose proof (wf_range y Wy) as Ry. unfold sval in Z0. rewrite sgn_half in Z0 by (auto; destruct Wy; lia).
  destruct (Z.ltb_spec (uval y) (2 ^ (bits y - 1))); [rewrite Z0; eexists _, _; reflexivity|lia].
Qed.
