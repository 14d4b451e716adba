(** Specification and proofs for intnum.c (C04, C05, C08, C54). *)
From Coq Require Import ZArith List Bool Lia.
From Verif Require Import Lib LibBits M_BitVect P_BitVect P_BitVectIO M_BitVectIv P_BitVectIv M_Intnum.
Import ListNotations.
Open Scope Z_scope.

(** * Specification *)
(** The integer a number stands for. *)
Definition ival (i : intnum) : Z := match i with IL l => l | IB v => sval v end.
(** The representation every computation leaves: a machine integer exactly if the value fits 31
    bits and a sign, a 256-bit vector otherwise. *)
Definition canon (i : intnum) : Prop :=
  match i with
  | IL l => - 2 ^ 31 < l < 2 ^ 31
  | IB v => wf v /\ bits v = 256 /\ ~ (- 2 ^ 31 < sval v < 2 ^ 31)
  end.
Definition truth (b : bool) : Z := if b then 1 else 0.
Definition nzb (a : Z) : bool := negb (a =? 0).
(** What the operators mean on integers (before reduction to 256 bits).  A shift by a negative
    count is 0; a right shift by 2^31 or more is 0. *)
Definition meaning (o : op) (a b : Z) : option Z :=
  match o with
  | IDENT => Some a
  | ADD => Some (a + b) | SUB => Some (a - b) | MUL => Some (a * b)
  | DIV | SIGNDIV => if b =? 0 then None else Some (Z.quot a b)
  | MOD | SIGNMOD => if b =? 0 then None else Some (Z.rem a b)
  | NEG => Some (- a) | NOT => Some (- a - 1)
  | OR => Some (Z.lor a b) | AND => Some (Z.land a b) | XOR => Some (Z.lxor a b)
  | XNOR => Some (- Z.lxor a b - 1) | NOR => Some (- Z.lor a b - 1)
  | SHL => Some (if 0 <=? b then a * 2 ^ b else 0)
  | SHR => Some (if (0 <=? b) && (b <? 2 ^ 31) then a / 2 ^ b else 0)
  | LOR => Some (truth (nzb a || nzb b)) | LAND => Some (truth (nzb a && nzb b)) | LNOT => Some (truth (a =? 0))
  | LXOR => Some (truth (xorb (nzb a) (nzb b))) | LXNOR => Some (truth (negb (xorb (nzb a) (nzb b))))
  | LNOR => Some (truth (negb (nzb a || nzb b)))
  | LT => Some (truth (a <? b)) | GT => Some (truth (b <? a)) | EQ => Some (truth (a =? b))
  | LE => Some (truth (a <=? b)) | GE => Some (truth (b <=? a)) | NE => Some (truth (negb (a =? b)))
  | NONNUM | SEG | WRT | SEGOFF => None
  end.
(** The signed 256-bit integer congruent to [x]. *)
Definition wrap256 (x : Z) : Z := (x + 2 ^ 255) mod 2 ^ 256 - 2 ^ 255.
(** Products the multiplication gets right: magnitude below 2^255, or -2^255 times 1 or -1. *)
Definition mul_safe (a b : Z) : Prop :=
  Z.abs (a * b) < 2 ^ 255 \/ (Z.abs a = 2 ^ 255 /\ Z.abs b = 1) \/ (Z.abs b = 2 ^ 255 /\ Z.abs a = 1).

(** * Vectors of 256 bits *)
Definition V (b : bv) : Prop := wf b /\ bits b = 256.
Lemma V_scratch : V scratch /\ uval scratch = 0.
Proof. split; [split; [apply wfb_ok; vm_compute; reflexivity|reflexivity]|vm_compute; reflexivity]. Qed.
Lemma wrap_sgn : forall x, sgn 256 x = wrap256 x.
Proof.
  intros x. unfold wrap256, sgn. change (2 ^ (256 - 1)) with (2 ^ 255). set (H := 2 ^ 255). assert (HP : 0 < H) by reflexivity. assert (E : 2 ^ 256 = 2 * H) by reflexivity. rewrite E. clearbody H.
  pose proof (Z.div_mod x (2 * H) ltac:(lia)) as D. pose proof (Z.mod_pos_bound x (2 * H) ltac:(lia)) as M. set (q := x / (2 * H)) in *. set (r := x mod (2 * H)) in *. clearbody q r.
  destruct (Z.ltb_spec r H).
  - replace ((x + H) mod (2 * H)) with (r + H); [lia|]. apply (Z.mod_unique _ _ q); lia.
  - replace ((x + H) mod (2 * H)) with (r - H); [lia|]. apply (Z.mod_unique _ _ (q + 1)); lia.
Qed.
Lemma V_cases : forall b, V b -> - 2 ^ 255 <= sval b < 2 ^ 255 /\ 0 <= uval b < 2 ^ 256 /\ ((0 <= sval b /\ uval b = sval b) \/ (sval b < 0 /\ uval b = sval b + 2 ^ 256)).
Proof.
  intros b [W B]. pose proof (sval_range b W) as F. pose proof (wf_range b W) as R. unfold fits in F. rewrite B in *. split; [exact F|]. split; [exact R|].
  unfold sval in *. rewrite B in *. rewrite sgn_half in * by lia. change (2 ^ (256 - 1)) with (2 ^ 255) in *. destruct (Z.ltb_spec (uval b) (2 ^ 255)); lia.
Qed.
Lemma V_sval : forall b x, V b -> uval b = x mod 2 ^ 256 -> sval b = wrap256 x.
Proof. intros b x [W B] E. rewrite <- wrap_sgn. unfold sval. rewrite B. apply sgn_eq_mod. rewrite E. apply Z.mod_mod. discriminate. Qed.
Lemma wrap_id : forall x, - 2 ^ 255 <= x < 2 ^ 255 -> wrap256 x = x.
Proof. intros x R. rewrite <- wrap_sgn. apply sgn_small; [lia|]. exact R. Qed.
Lemma sval_umod : forall b, V b -> sval b mod 2 ^ 256 = uval b.
Proof. intros b [W B]. rewrite <- B. apply sval_mod; auto. Qed.
Lemma set_max_lt : forall b k, V b -> 0 <= k -> (Set_Max b <? k) = (uval b <? 2 ^ k).
Proof.
  intros b k [W B] K. rewrite Set_Max_ok by apply W. pose proof (wf_range b W) as R. destruct (Z.eqb_spec (uval b) 0) as [E|E].
  - rewrite E. pose proof (pow2_pos k K). unfold LONG_MIN. destruct (Z.ltb_spec 0 (2 ^ k)), (Z.ltb_spec (-9223372036854775808) k); auto; lia.
  - apply eq_true_iff_eq. rewrite !Z.ltb_lt. symmetry. apply Z.log2_lt_pow2; lia.
Qed.
Lemma Negate_V : forall b, V b -> V (Negate b) /\ sval (Negate b) = wrap256 (- sval b).
Proof.
  intros b [W B]. destruct (Negate_ok b W) as (A1 & A2 & A3). assert (N : V (Negate b)) by (split; [auto|congruence]). split; auto. apply V_sval; auto. rewrite A3, B.
  rewrite <- (sval_umod b (conj W B)). rewrite <- !Z.sub_0_l. rewrite Zminus_mod_idemp_r. reflexivity.
Qed.
Lemma Negate_small : forall b, V b -> - 2 ^ 255 < sval b -> sval (Negate b) = - sval b.
Proof. intros b H L. destruct (Negate_V b H) as [_ E]. rewrite E. apply wrap_id. pose proof (V_cases b H). lia. Qed.
Lemma Negate_Negate : forall b, V b -> V (Negate (Negate b)) /\ sval (Negate (Negate b)) = sval b.
Proof.
  intros b H. destruct (Negate_V b H) as [A E]. destruct (Negate_V _ A) as [A2 E2]. split; auto. rewrite E2, E. pose proof (V_cases b H) as (C & _).
  destruct (Z.eq_dec (sval b) (- 2 ^ 255)) as [->|N]; [reflexivity|]. rewrite (wrap_id (- sval b)) by lia. rewrite Z.opp_involutive. apply wrap_id. auto.
Qed.
Lemma Negate_uval : forall b, V b -> sval b < 0 -> uval (Negate b) = - sval b.
Proof.
  intros b [W B] N. destruct (Negate_ok b W) as (A1 & A2 & A3). rewrite A3, B. pose proof (V_cases b (conj W B)) as (C1 & C2 & C3). destruct C3 as [C3|[_ C3]]; [lia|].
  replace (- uval b) with (- sval b + (-1) * 2 ^ 256) by lia. rewrite Z.mod_add by discriminate. apply Z.mod_small. assert (2 ^ 256 = 2 * 2 ^ 255) by reflexivity. lia.
Qed.

(** * Conversions *)
Lemma store32 : forall b v, V b -> uval b = 0 -> 0 <= v -> let r := Chunk_Store b 32 0 v in V r /\ uval r = v mod 2 ^ 32.
Proof.
  intros b v [W B] U P r. destruct (Chunk_Store_ok b 32 0 v W ltac:(lia) ltac:(lia)) as (A1 & A2 & A3). fold r in A1, A2, A3. split; [split; [auto|congruence]|].
  apply Z.bits_inj'. intros i I. rewrite A3, U, mod_pow2_testbit by lia. rewrite B. change (chunk_len 256 0 32) with 32. rewrite Z.sub_0_r, Z.bits_0. destruct (Z.leb_spec 0 i), (Z.ltb_spec i (0 + 32)), (Z.ltb_spec i 32); auto; lia.
Qed.
Lemma V_empty : V (Empty scratch) /\ uval (Empty scratch) = 0.
Proof. destruct V_scratch as [[W B] _]. destruct (Empty_ok scratch W) as (A1 & A2 & A3). split; [split; [auto|congruence]|auto]. Qed.
Lemma long_bv_ok : forall l, - 2 ^ 63 <= l < 2 ^ 63 -> V (long_bv l) /\ sval (long_bv l) = Z.sgn l * (Z.abs l mod 2 ^ 32).
Proof.
  intros l R. unfold long_bv. destruct V_empty as [VE UE]. destruct (Z.leb_spec 0 l).
  - rewrite u64_small by (unfold w64; lia). destruct (store32 _ l VE UE ltac:(lia)) as [A B]. split; [auto|]. assert (E : sval (Chunk_Store (Empty scratch) 32 0 l) = l mod 2 ^ 32).
    { rewrite <- (wrap_id (l mod 2 ^ 32)) by (pose proof (Z.mod_pos_bound l (2 ^ 32) ltac:(lia)); assert (2 ^ 32 <= 2 ^ 255) by (vm_compute; discriminate); lia). apply V_sval; auto. rewrite B. symmetry. apply Z.mod_small. pose proof (Z.mod_pos_bound l (2 ^ 32) ltac:(lia)). assert (2 ^ 32 <= 2 ^ 256) by (vm_compute; discriminate). lia. }
    rewrite E. destruct (Z.eq_dec l 0) as [->|N]; [reflexivity|]. rewrite Z.sgn_pos, Z.abs_eq by lia. lia.
  - rewrite u64_small by (unfold w64; lia). destruct (store32 _ (- l) VE UE ltac:(lia)) as [A B]. set (c := Chunk_Store (Empty scratch) 32 0 (- l)) in *.
    pose proof (Z.mod_pos_bound (- l) (2 ^ 32) ltac:(lia)) as MB. assert (E : sval c = (- l) mod 2 ^ 32).
    { rewrite <- (wrap_id ((- l) mod 2 ^ 32)) by (assert (2 ^ 32 <= 2 ^ 255) by (vm_compute; discriminate); lia). apply V_sval; auto. rewrite B. symmetry. apply Z.mod_small. assert (2 ^ 32 <= 2 ^ 256) by (vm_compute; discriminate). lia. }
    destruct (Negate_V c A) as [N1 _]. split; [auto|]. rewrite Negate_small by (auto; assert (0 < 2 ^ 255) by reflexivity; lia). rewrite E, Z.sgn_neg, Z.abs_neq by lia. lia.
Qed.
Lemma long_bv_small : forall l, - 2 ^ 32 < l < 2 ^ 32 -> V (long_bv l) /\ sval (long_bv l) = l.
Proof.
  intros l R. destruct (long_bv_ok l ltac:(lia)) as [A B]. split; auto. rewrite B, Z.mod_small by lia. destruct (Z.eq_dec l 0) as [->|N]; [reflexivity|]. rewrite Z.mul_comm. apply Z.abs_sgn || (rewrite Z.abs_sgn; lia).
Qed.
Lemma tobv_ok : forall i, canon i -> V (tobv i) /\ sval (tobv i) = ival i.
Proof. intros [l|v] C; cbn [canon tobv ival] in *; [apply long_bv_small; lia|]. unfold V. tauto. Qed.
Lemma read_low : forall b k, V b -> 0 < k <= 64 -> Chunk_Read b k 0 = uval b mod 2 ^ k.
Proof. intros b k [W B] K. rewrite Chunk_Read_ok by (auto; lia). rewrite B. unfold chunk_len. rewrite Z.pow_0_r, Z.div_1_r. do 2 f_equal. lia. Qed.
Lemma msb32 : forall x, 0 <= x < 2 ^ 32 -> nz (Z.land x 2147483648) = (2 ^ 31 <=? x).
Proof.
  intros x R. change 2147483648 with (2 ^ 31). rewrite nz_land_pow2 by lia. destruct (Z.leb_spec (2 ^ 31) x).
  - replace x with (x - 2 ^ 31 + 2 ^ 31 * 1) by lia. rewrite testbit_add_shift by lia. reflexivity.
  - apply (testbit_small 31); lia.
Qed.
Lemma frombv_ok : forall b, V b -> canon (frombv b) /\ ival (frombv b) = sval b.
Proof.
  intros b H. assert (H0 := H). destruct H0 as [W B]. pose proof (V_cases b H) as (C1 & C2 & C3). unfold frombv. assert (P1 : 2 ^ 256 = 2 * 2 ^ 255) by reflexivity. assert (P2 : 2 ^ 32 < 2 ^ 255) by (vm_compute; reflexivity).
  rewrite set_max_lt by (auto; lia). destruct (Z.ltb_spec (uval b) (2 ^ 31)).
  - rewrite read_low by (auto; lia). rewrite Z.mod_small by lia. cbn [canon ival]. lia.
  - rewrite msb_sval by auto. destruct (Z.ltb_spec (sval b) 0).
    + destruct (Negate_V b H) as [N _]. assert (Hn := N). destruct Hn as [NW NB]. pose proof (Negate_uval b H ltac:(lia)) as NU. destruct (Negate_Negate b H) as [NN1 NN2].
      destruct (Z.leb_spec 32 (Set_Max (Negate b))) as [G|G].
      * cbn [canon ival]. rewrite NN2. split; [|auto]. split; [apply NN1|]. split; [apply NN1|]. assert (Q : (Set_Max (Negate b) <? 32) = false) by (apply Z.ltb_ge; auto). rewrite set_max_lt in Q by (auto; lia). apply Z.ltb_ge in Q. lia.
      * assert (Q : (Set_Max (Negate b) <? 32) = true) by (apply Z.ltb_lt; auto). rewrite set_max_lt in Q by (auto; lia). apply Z.ltb_lt in Q.
        rewrite read_low by (auto; lia). rewrite NU in *. rewrite Z.mod_small by lia. rewrite msb32 by lia. destruct (Z.leb_spec (2 ^ 31) (- sval b)).
        -- cbn [canon ival]. rewrite NN2. split; [|auto]. split; [apply NN1|]. split; [apply NN1|]. lia.
        -- cbn [canon ival]. lia.
    + cbn [canon ival]. split; [|auto]. split; [auto|]. split; [auto|]. lia.
Qed.

(** * Calculation *)
Lemma lsb_ok : forall c, V (lsb c) /\ sval (lsb c) = truth c.
Proof. intros c. destruct c; (split; [split; [apply wfb_ok; vm_compute; reflexivity|reflexivity]|vm_compute; reflexivity]). Qed.
Lemma is_empty_V : forall b, V b -> is_empty b = (sval b =? 0).
Proof.
  intros b H. rewrite is_empty_ok by apply H. pose proof (V_cases b H) as (C1 & C2 & C3). destruct (Z.eqb_spec (uval b) 0), (Z.eqb_spec (sval b) 0); auto; lia.
Qed.
Lemma equal_V : forall a b, V a -> V b -> equal a b = (sval a =? sval b).
Proof.
  intros a b Ha Hb. rewrite equal_ok by (try apply Ha; try apply Hb; destruct Ha, Hb; congruence). pose proof (V_cases a Ha). pose proof (V_cases b Hb). destruct (Z.eqb_spec (uval a) (uval b)), (Z.eqb_spec (sval a) (sval b)); auto; lia.
Qed.
Lemma Compare_V : forall a b, V a -> V b -> Compare a b = Z.sgn (sval a - sval b).
Proof. intros a b Ha Hb. apply Compare_ok; try apply Ha; try apply Hb. destruct Ha, Hb; congruence. Qed.
Lemma shift_iter : forall m b (c : bool), V b -> c = (sval b <? 0) -> let r := iter m (fun x => fst (shift_right x c)) b in V r /\ sval r = sval b / 2 ^ Z.of_nat m.
Proof.
  induction m as [|m IH]; intros b c H C r.
  - cbn in r. subst r. split; [auto|]. rewrite Z.pow_0_r, Z.div_1_r. auto.
  - subst r. cbn [iter]. assert (H0 := H). destruct H0 as [W B]. destruct (shift_right_ok b c W) as (x & E & A1 & A2 & A3). rewrite E. cbn [fst].
    assert (Vx : V x) by (split; [auto|congruence]). pose proof (V_cases b H) as (C1 & C2 & C3). rewrite B in A3. change (256 - 1) with 255 in A3. assert (P : 2 ^ 256 = 2 * 2 ^ 255) by reflexivity.
    assert (HB : 0 < 2 ^ 255) by reflexivity.
    assert (S : sval x = sval b / 2).
    { pose proof (V_cases x Vx) as (X1 & X2 & X3). subst c. pose proof (Z.div_mod (uval b) 2 ltac:(lia)) as D. pose proof (Z.mod_pos_bound (uval b) 2 ltac:(lia)). pose proof (Z.div_mod (sval b) 2 ltac:(lia)) as D2. pose proof (Z.mod_pos_bound (sval b) 2 ltac:(lia)).
      destruct (Z.ltb_spec (sval b) 0); cbn [b2z] in A3; lia. }
    destruct (IH x c Vx) as [I1 I2]. { rewrite S, C. pose proof (Z.div_mod (sval b) 2 ltac:(lia)) as D2. pose proof (Z.mod_pos_bound (sval b) 2 ltac:(lia)). destruct (Z.ltb_spec (sval b) 0), (Z.ltb_spec (sval b / 2) 0); auto; lia. }
    split; [auto|]. rewrite I2, S. rewrite Z.div_div by (try lia; apply pow2_pos; lia). f_equal. rewrite Nat2Z.inj_succ, Z.pow_succ_r by lia. reflexivity.
Qed.
Lemma Copy_V : forall b, V b -> Copy b = b.
Proof. intros b H. unfold Copy. apply norm_id. apply H. Qed.
Lemma wrap_small_truth : forall c, wrap256 (truth c) = truth c.
Proof. intros [|]; reflexivity. Qed.

Definition result (r : intnum * Z * cerr) (m : Z) : Prop := exists i, r = (i, 0, NoErr) /\ canon i /\ ival i = m.
Lemma fin_ok : forall b m, V b -> sval b = m -> result (frombv b, 0, NoErr) m.
Proof. intros b m H E. destruct (frombv_ok b H) as [A B]. eexists. split; [reflexivity|]. split; [auto|congruence]. Qed.
Lemma fin_lsb : forall c d, c = d -> result (frombv (lsb c), 0, NoErr) (wrap256 (truth d)).
Proof. intros c d <-. destruct (lsb_ok c). apply fin_ok; auto. rewrite wrap_small_truth. auto. Qed.
Lemma opair : forall (a b : Z), wrap256 a = wrap256 b <-> a mod 2 ^ 256 = b mod 2 ^ 256.
Proof.
  intros a b. rewrite <- !wrap_sgn. split; intros H; [|apply sgn_eq_mod; auto]. rewrite <- (sgn_mod 256 a), <- (sgn_mod 256 b) by lia. congruence.
Qed.
Lemma fits_wrap : forall x, fits 256 x -> wrap256 x = x.
Proof. intros x F. apply wrap_id. exact F. Qed.

Theorem calc_ok : forall st a o b m, canon a -> canon b -> meaning o (ival a) (ival b) = Some m -> (o = MUL -> mul_safe (ival a) (ival b)) ->
  result (calc st a o (Some b)) (wrap256 m).
Proof.
  intros st a o b m Ca Cb M MS. destruct (tobv_ok a Ca) as [Va Ea]. destruct (tobv_ok b Cb) as [Vb Eb]. unfold calc.
  set (x := tobv a) in *. set (y := tobv b) in *. rewrite <- Ea, <- Eb in M. pose proof (V_cases x Va) as (X1 & X2 & X3). pose proof (V_cases y Vb) as (Y1 & Y2 & Y3).
  assert (BB : bits x = bits y) by (destruct Va, Vb; congruence). assert (Wx := proj1 Va). assert (Wy := proj1 Vb). assert (Bx := proj2 Va). assert (By := proj2 Vb).
  assert (NX : is_empty x = (sval x =? 0)) by (apply is_empty_V; auto). assert (NY : is_empty y = (sval y =? 0)) by (apply is_empty_V; auto). 
  destruct o; cbn [meaning] in M; try discriminate; try (injection M as <-).
  - (* IDENT *) rewrite Copy_V by auto. apply fin_ok; auto. rewrite wrap_id; auto.
  - (* ADD *) destruct (add_ok x y false Wx Wy BB) as (r & E & A1 & A2 & A3). rewrite E. cbn [fst]. assert (Vr : V r) by (split; congruence). apply fin_ok; auto. apply V_sval; auto. rewrite A3, Bx. cbn [b2z]. rewrite Z.add_0_r, <- (sval_umod x), <- (sval_umod y) by auto. rewrite <- Z.add_mod by discriminate. reflexivity.
  - (* SUB *) destruct (sub_ok x y false Wx Wy BB) as (r & E & A1 & A2 & A3). rewrite E. cbn [fst]. assert (Vr : V r) by (split; congruence). apply fin_ok; auto. apply V_sval; auto. rewrite A3, Bx. cbn [b2z]. rewrite Z.sub_0_r, <- (sval_umod x), <- (sval_umod y) by auto. rewrite <- Zminus_mod. reflexivity.
  - (* MUL *) destruct V_scratch as [[Ws Bs] _]. destruct (Multiply_ok scratch x y Ws Wx Wy ltac:(congruence) BB) as (r & e & E & A1 & A2 & A3 & _). rewrite E. cbn [fst]. assert (Vr : V r) by (split; congruence). apply fin_ok; auto. apply V_sval; auto.
    specialize (MS eq_refl). rewrite <- Ea, <- Eb in MS. rewrite Bs in A3. change (256 - 1) with 255 in A3. apply A3. unfold mul_safe in MS. rewrite Z.abs_mul in MS. tauto.
  - (* DIV *) rewrite NY. destruct (Z.eqb_spec (sval y) 0); [discriminate|]. injection M as <-. destruct (Divide_ok x y Wx Wy BB ltac:(auto)) as (q & r & E & A1 & A2 & A3 & A4 & A5 & A6). rewrite E. cbn [fst snd]. apply fin_ok; [split; congruence|]. apply V_sval; [split; congruence|]. rewrite A5, Bx. reflexivity.
  - rewrite NY. destruct (Z.eqb_spec (sval y) 0); [discriminate|]. injection M as <-. destruct (Divide_ok x y Wx Wy BB ltac:(auto)) as (q & r & E & A1 & A2 & A3 & A4 & A5 & A6). rewrite E. cbn [fst snd]. apply fin_ok; [split; congruence|]. apply V_sval; [split; congruence|]. rewrite A5, Bx. reflexivity.
  - (* MOD *) rewrite NY. destruct (Z.eqb_spec (sval y) 0); [discriminate|]. injection M as <-. destruct (Divide_ok x y Wx Wy BB ltac:(auto)) as (q & r & E & A1 & A2 & A3 & A4 & A5 & A6). rewrite E. cbn [fst snd]. assert (Vr : V r) by (split; congruence). apply fin_ok; auto. rewrite <- A6. symmetry. apply wrap_id. apply (V_cases r Vr).
  - rewrite NY. destruct (Z.eqb_spec (sval y) 0); [discriminate|]. injection M as <-. destruct (Divide_ok x y Wx Wy BB ltac:(auto)) as (q & r & E & A1 & A2 & A3 & A4 & A5 & A6). rewrite E. cbn [fst snd]. assert (Vr : V r) by (split; congruence). apply fin_ok; auto. rewrite <- A6. symmetry. apply wrap_id. apply (V_cases r Vr).
  - (* NEG *) destruct (Negate_V x Va). apply fin_ok; auto.
  - (* NOT *) destruct (Complement_ok x Wx) as (A1 & A2 & _). pose proof (Complement_sval x Wx) as S. unfold Z.lnot in S. apply fin_ok; [split; congruence|]. rewrite S. rewrite wrap_id by lia. lia.
  - destruct (Union_ok x y Wx Wy BB) as (A1 & A2 & _). pose proof (Union_sval x y Wx Wy BB) as S. assert (Vr : V (Union x y)) by (split; congruence). apply fin_ok; auto. rewrite S. rewrite <- S. symmetry. apply wrap_id. apply (V_cases _ Vr).
  - destruct (Intersection_ok x y Wx Wy BB) as (A1 & A2 & _). pose proof (Intersection_sval x y Wx Wy BB) as S. assert (Vr : V (Intersection x y)) by (split; congruence). apply fin_ok; auto. rewrite S. rewrite <- S. symmetry. apply wrap_id. apply (V_cases _ Vr).
  - destruct (ExclusiveOr_ok x y Wx Wy BB) as (A1 & A2 & _). pose proof (ExclusiveOr_sval x y Wx Wy BB) as S. assert (Vr : V (ExclusiveOr x y)) by (split; congruence). apply fin_ok; auto. rewrite S. rewrite <- S. symmetry. apply wrap_id. apply (V_cases _ Vr).
  - destruct (ExclusiveOr_ok x y Wx Wy BB) as (A1 & A2 & _). pose proof (ExclusiveOr_sval x y Wx Wy BB) as S. assert (Vr : V (ExclusiveOr x y)) by (split; congruence). destruct (Complement_ok _ A1) as (B1 & B2 & _). pose proof (Complement_sval _ A1) as T. unfold Z.lnot in T.
    apply fin_ok; [split; congruence|]. rewrite T. pose proof (V_cases _ Vr) as (C1 & _). rewrite <- S. rewrite wrap_id by lia. lia.
  - destruct (Union_ok x y Wx Wy BB) as (A1 & A2 & _). pose proof (Union_sval x y Wx Wy BB) as S. assert (Vr : V (Union x y)) by (split; congruence). destruct (Complement_ok _ A1) as (B1 & B2 & _). pose proof (Complement_sval _ A1) as T. unfold Z.lnot in T.
    apply fin_ok; [split; congruence|]. rewrite T. pose proof (V_cases _ Vr) as (C1 & _). rewrite <- S. rewrite wrap_id by lia. lia.
  - (* SHL *) rewrite Copy_V by auto. rewrite Eb. destruct V_empty as [VE UE]. assert (SE : sval (Empty scratch) = 0) by (change 0 with (wrap256 0); apply V_sval; auto).
    assert (BIG : forall k, 2 ^ 31 <= k -> wrap256 (sval x * 2 ^ k) = 0).
    { intros k K. change 0 with (wrap256 0). apply opair. replace (2 ^ k) with (2 ^ (k - 256) * 2 ^ 256) by (rewrite <- Z.pow_add_r by lia; f_equal; lia). rewrite Z.mul_assoc. apply Z.mod_mul. discriminate. }
    destruct b as [l|v]; cbn [ival canon] in *.
    + destruct (Z.leb_spec 0 l).
      * rewrite u32_small by (unfold w32; lia). destruct (Move_Left_ok x l Wx ltac:(auto)) as (A1 & A2 & A3). assert (Vr : V (Move_Left x l)) by (split; congruence). apply fin_ok; auto. apply V_sval; auto. rewrite A3, Bx, <- (sval_umod x Va). rewrite Z.mul_mod_idemp_l by discriminate. reflexivity.
      * apply fin_ok; auto.
    + apply fin_ok; auto. rewrite SE. destruct (Z.leb_spec 0 (sval v)); [|reflexivity]. symmetry. apply BIG. lia.
  - (* SHR *) rewrite Copy_V by auto. rewrite Eb. destruct V_empty as [VE UE]. assert (SE : sval (Empty scratch) = 0) by (change 0 with (wrap256 0); apply V_sval; auto). destruct b as [l|v]; cbn [ival canon] in *.
    + destruct (Z.leb_spec 0 l); cbn [andb].
      * rewrite u32_small by (unfold w32; lia). rewrite msb_sval by auto. destruct (shift_iter (Z.to_nat l) x _ Va eq_refl) as [A1 A2]. change (Z.pow_pos 2 31) with (2 ^ 31). destruct (Z.ltb_spec l (2 ^ 31)); [|lia]. apply fin_ok; auto. rewrite A2, Z2Nat.id by lia. symmetry. apply wrap_id. rewrite Z2Nat.id in A2 by lia. rewrite <- A2. apply (V_cases _ A1).
      * apply fin_ok; auto.
    + apply fin_ok; auto. rewrite SE. change (Z.pow_pos 2 31) with (2 ^ 31). destruct (Z.leb_spec 0 (sval v)), (Z.ltb_spec (sval v) (2 ^ 31)); cbn [andb]; auto; lia.
  - rewrite NX, NY. apply fin_lsb. reflexivity.
  - rewrite NX, NY. apply fin_lsb. reflexivity.
  - rewrite NX. apply fin_lsb. reflexivity.
  - rewrite NX, NY. apply fin_lsb. reflexivity.
  - rewrite NX, NY. apply fin_lsb. reflexivity.
  - rewrite NX, NY. apply fin_lsb. reflexivity.
  - rewrite Compare_V by auto. apply fin_lsb. destruct (Z.ltb_spec (Z.sgn (sval x - sval y)) 0), (Z.ltb_spec (sval x) (sval y)); auto; lia.
  - rewrite Compare_V by auto. apply fin_lsb. destruct (Z.ltb_spec 0 (Z.sgn (sval x - sval y))), (Z.ltb_spec (sval y) (sval x)); auto; lia.
  - rewrite equal_V by auto. apply fin_lsb. reflexivity.
  - rewrite Compare_V by auto. apply fin_lsb. destruct (Z.leb_spec (Z.sgn (sval x - sval y)) 0), (Z.leb_spec (sval x) (sval y)); auto; lia.
  - rewrite Compare_V by auto. apply fin_lsb. destruct (Z.leb_spec 0 (Z.sgn (sval x - sval y))), (Z.leb_spec (sval y) (sval x)); auto; lia.
  - rewrite equal_V by auto. apply fin_lsb. reflexivity.
Qed.
