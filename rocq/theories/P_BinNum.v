(** Arithmetic of bin-objfmt.c on intnums (used for C37, C66-C68). *)
From Coq Require Import ZArith List Bool Lia.
From Verif Require Import Lib LibBits M_BitVect P_BitVect P_BitVectIO M_BitVectIv P_BitVectIv M_Intnum P_Intnum P_IntnumIO M_BinObj.
Import ListNotations.
Open Scope Z_scope.

(** The least multiple of [a] that is not below [x]. *)
Definition is_up (x a r : Z) : Prop := (a | r) /\ x <= r < x + a.
Definition up (x a : Z) : Z := a * ((x + a - 1) / a).
Lemma up_ok : forall x a, 0 < a -> is_up x a (up x a).
Proof.
  intros x a A. unfold up. split; [exists ((x + a - 1) / a); ring|]. pose proof (Z.div_mod (x + a - 1) a ltac:(lia)). pose proof (Z.mod_pos_bound (x + a - 1) a A). lia.
Qed.
Lemma is_up_up : forall x a r, 0 < a -> is_up x a r -> r = up x a.
Proof.
  intros x a r A [[k K] B]. subst r. unfold up. rewrite Z.mul_comm. f_equal. apply Z.div_unique with (r := x + a - 1 - k * a); lia.
Qed.
Lemma up_id : forall x a, 0 < a -> (a | x) -> up x a = x.
Proof. intros x a A D. symmetry. apply is_up_up; auto. split; auto. lia. Qed.

Definition good (i : intnum) : Prop := V (tobv i) /\ sval (tobv i) = ival i.
Lemma canon_good : forall i, canon i -> good i.
Proof. exact tobv_ok. Qed.
Lemma small_good : forall l, - 2 ^ 32 < l < 2 ^ 32 -> good (IL l).
Proof. exact long_bv_small. Qed.
Lemma uint_small : forall u, 0 <= u < 2 ^ 32 -> create_uint u = IL u.
Proof. intros u U. unfold create_uint, LONG_MAX. destruct (Z.ltb_spec 9223372036854775807 u); auto. lia. Qed.
Lemma uint_good : forall u, 0 <= u < 2 ^ 32 -> good (create_uint u) /\ ival (create_uint u) = u.
Proof. intros u U. rewrite uint_small by auto. split; [apply small_good; lia|reflexivity]. Qed.

Lemma iadd_ok : forall a b, good a -> good b -> - 2 ^ 255 <= ival a + ival b < 2 ^ 255 -> canon (iadd a b) /\ ival (iadd a b) = ival a + ival b.
Proof.
  intros a b [Va Ea] [Vb Eb] R. unfold iadd, calc. set (x := tobv a) in *. set (y := tobv b) in *.
  assert (BB : bits x = bits y) by (destruct Va, Vb; congruence). assert (Wx := proj1 Va). assert (Wy := proj1 Vb). assert (Bx := proj2 Va).
  destruct (add_ok x y false Wx Wy BB) as (r & E & A1 & A2 & A3). rewrite E. cbn [fst]. assert (Vr : V r) by (split; congruence).
  destruct (frombv_ok r Vr) as [C1 C2]. split; auto. rewrite C2. transitivity (wrap256 (ival a + ival b)); [|apply wrap_id; auto]. apply V_sval; auto.
  rewrite A3, Bx. cbn [b2z]. rewrite Z.add_0_r, <- (sval_umod x), <- (sval_umod y) by auto. rewrite <- Z.add_mod by discriminate. congruence.
Qed.
Lemma calc_fst : forall r m, result r m -> canon (fst (fst r)) /\ ival (fst (fst r)) = m.
Proof. intros r m (i & -> & C & E). auto. Qed.
Lemma isub_ok : forall a b, canon a -> canon b -> - 2 ^ 255 <= ival a - ival b < 2 ^ 255 -> canon (isub a b) /\ ival (isub a b) = ival a - ival b.
Proof.
  intros a b Ca Cb R. unfold isub. destruct (calc_fst _ _ (calc_ok scratch a SUB b _ Ca Cb eq_refl ltac:(discriminate))) as [A B]. split; auto. rewrite B. apply wrap_id; auto.
Qed.
Lemma iand_ok : forall a b, canon a -> canon b -> - 2 ^ 255 <= Z.land (ival a) (ival b) < 2 ^ 255 -> canon (iand a b) /\ ival (iand a b) = Z.land (ival a) (ival b).
Proof.
  intros a b Ca Cb R. unfold iand. destruct (calc_fst _ _ (calc_ok scratch a AND b _ Ca Cb eq_refl ltac:(discriminate))) as [A B]. split; auto. rewrite B. apply wrap_id; auto.
Qed.
Lemma inot_ok : forall a, canon a -> - 2 ^ 255 <= - ival a - 1 < 2 ^ 255 -> canon (inot a) /\ ival (inot a) = - ival a - 1.
Proof.
  intros a Ca R. unfold inot. destruct (calc_unary scratch a NOT _ Ca ltac:(auto) eq_refl) as (r & E & C & I). rewrite E. cbn [fst]. split; auto. rewrite I. apply wrap_id; auto.
Qed.
Lemma get_uint_good : forall i, good i -> 0 <= ival i < 2 ^ 32 -> get_uint i = ival i.
Proof.
  intros [l|v] [H E] R; cbn [get_uint ival tobv] in *.
  - destruct (Z.ltb_spec l 0); lia.
  - rewrite msb_sval by apply H. destruct (Z.ltb_spec (sval v) 0); [lia|]. pose proof (V_cases v H) as (_ & C2 & C3). destruct C3 as [[_ C3]|C3]; [|lia].
    assert (Q : (32 <? Set_Max v) = negb (Set_Max v <? 33)) by (destruct (Z.ltb_spec 32 (Set_Max v)), (Z.ltb_spec (Set_Max v) 33); auto; lia). rewrite Q, set_max_lt, read_low by (auto; lia). rewrite C3.
    destruct (Z.ltb_spec (sval v) (2 ^ 33)); [|lia]. cbn [negb]. apply Z.mod_small. lia.
Qed.
(** A canonical number of alignment size: the value of an attribute, or the default. *)
Definition pow2 (a : Z) : Prop := exists k, 0 <= k <= 31 /\ a = 2 ^ k.
Lemma pow2_range : forall a, pow2 a -> 1 <= a <= 2 ^ 31.
Proof. intros a (k & K & ->). split; [apply (Z.pow_le_mono_r 2 0 k); lia|apply Z.pow_le_mono_r; lia]. Qed.
Lemma land_notmask : forall x k, 0 <= k -> Z.land (- (2 ^ k - 1) - 1) x = x - x mod 2 ^ k.
Proof.
  intros x k K. replace (- (2 ^ k - 1) - 1) with (Z.lnot (2 ^ k - 1)) by (unfold Z.lnot, Z.pred; lia).
  replace (2 ^ k - 1) with (Z.ones k) by (rewrite Z.ones_equiv; lia). rewrite Z.land_comm. change (Z.land x (Z.lnot (Z.ones k))) with (Z.land x (Z.lnot (Z.ones k))). rewrite <- Z.ldiff_land, Z.ldiff_ones_r by auto. rewrite Z.shiftl_mul_pow2, Z.shiftr_div_pow2 by auto.
  pose proof (Z.div_mod x (2 ^ k) ltac:(lia)). lia.
Qed.
Lemma bin_align_ok : forall s a, canon s -> good a -> pow2 (ival a) -> - 2 ^ 254 <= ival s < 2 ^ 254 ->
  canon (bin_align s a) /\ ival (bin_align s a) = up (ival s) (ival a).
Proof.
  intros s a Cs Ga P R. pose proof (pow2_range _ P) as PR. unfold bin_align. rewrite get_uint_good by (auto; lia). destruct P as (k & K & E). rewrite E in *.
  assert (P0 : 0 < 2 ^ k) by lia. unfold u64. rewrite Z.mod_small by lia.
  rewrite uint_small by lia. assert (Cm : canon (IL (2 ^ k - 1))) by (cbn [canon]; lia).
  pose proof (Z.mod_pos_bound (ival s) (2 ^ k) P0) as MB. pose proof (Z.div_mod (ival s) (2 ^ k) ltac:(lia)) as DM.
  assert (L0 : Z.land (ival (IL (2 ^ k - 1))) (ival s) = ival s mod 2 ^ k) by (cbn [ival]; rewrite Z.land_comm; apply land_mask; lia).
  assert (B255 : 2 ^ 255 = 2 * 2 ^ 254) by reflexivity. assert (B31 : 2 ^ 31 < 2 ^ 200) by (vm_compute; reflexivity). assert (B200 : 2 ^ 200 < 2 ^ 254) by (vm_compute; reflexivity).
  set (X := 2 ^ 254) in *. clearbody X. set (Y := 2 ^ 200) in *. clearbody Y.
  destruct (iand_ok (IL (2 ^ k - 1)) s Cm Cs) as [A1 A2]; [rewrite L0; lia|]. rewrite L0 in A2.
  destruct (tests_ok _ A1) as (Z0 & _). rewrite Z0, A2. destruct (Z.eqb_spec (ival s mod 2 ^ k) 0) as [e|n].
  - split; auto. symmetry. apply up_id; auto. apply Z.mod_divide; lia.
  - assert (SU : set_uint (iand (IL (2 ^ k - 1)) s) (2 ^ k - 1) = IL (2 ^ k - 1)).
    { unfold set_uint, LONG_MAX. destruct (Z.ltb_spec 9223372036854775807 (2 ^ k - 1)); auto. lia. }
    rewrite SU. destruct (inot_ok _ Cm) as [N1 N2]; [cbn [ival]; lia|]. cbn [ival] in N2.
    destruct (iand_ok _ s N1 Cs) as [M1 M2]; [rewrite N2, land_notmask by lia; lia|]. rewrite N2, land_notmask in M2 by lia.
    destruct (iadd_ok a (iand (inot (IL (2 ^ k - 1))) s) Ga (canon_good _ M1)) as [S1 S2]; [rewrite M2, E; lia|]. split; auto. rewrite S2, M2, E.
    apply is_up_up; auto. split; [|lia]. exists (1 + ival s / 2 ^ k). lia.
Qed.
