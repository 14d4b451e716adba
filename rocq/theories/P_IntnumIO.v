(** Specification and proofs for intnum.c: errors, queries, range checks, LEB128, sized fields
    and creation (C04-C08, C54). *)
From Coq Require Import ZArith List Bool Lia.
From Verif Require Import Lib LibBits M_BitVect P_BitVect P_BitVectIO M_BitVectIv P_BitVectIv M_Intnum P_Intnum.
Import ListNotations.
Open Scope Z_scope.

(** * Specification *)
(** A LEB128 number at the start of a byte stream, by the rules of DWARF: value, bytes of it, rest. *)
Fixpoint uleb (l : list Z) : option (Z * Z * list Z) :=
  match l with
  | [] => None
  | b :: t => if b <? 128 then Some (b, 1, t)
              else match uleb t with Some (v, k, r) => Some (b - 128 + 128 * v, k + 1, r) | None => None end
  end.
Definition leb (sgnd : bool) (l : list Z) : option (Z * Z * list Z) :=
  match uleb l with Some (v, k, r) => Some (if sgnd then sgn (7 * k) v else v, k, r) | None => None end.
(** The part of a long that survives being stored through 32-bit chunks. *)
Definition trunc32 (l : Z) : Z := Z.sgn l * (Z.abs l mod 2 ^ 32).

(** The values [w] that fit a field of [size] bits (signed, or signed or unsigned). *)
Definition in_field (sgnd : bool) (size w : Z) : bool :=
  if 256 <=? size then true else if size <=? 0 then (w =? 0) || (w =? -1)
  else (- 2 ^ (size - 1) <=? w) && (w <? if sgnd then 2 ^ (size - 1) else 2 ^ size).
(** The warnings due when the low [size] bits of [v] shifted right by [rshift] are stored. *)
Definition sized_warns (v size rshift warn : Z) : list swarn :=
  let w := v / 2 ^ rshift in
  (if (warn <? 0) && negb (in_field true size w) then [WSigned] else [])
  ++ (if (0 <? warn) && negb (in_field false size w) then [WAny] else [])
  ++ (if negb (warn =? 0) && negb (v mod 2 ^ rshift =? 0) then [WMisaligned] else []).

(** * Errors of calc *)
Lemma calc_unary : forall st a o m, canon a -> o = NEG \/ o = NOT \/ o = LNOT -> meaning o (ival a) 0 = Some m -> result (calc st a o None) (wrap256 m).
Proof.
  intros st a o m Ca O M. assert (C0 : canon (IL 0)) by (cbn; lia). pose proof (calc_ok st a o (IL 0) m Ca C0 M) as H. destruct O as [-> | [-> | ->]]; apply H; discriminate.
Qed.
Lemma calc_zero_div : forall st a o b, canon a -> canon b -> o = DIV \/ o = SIGNDIV \/ o = MOD \/ o = SIGNMOD -> ival b = 0 -> calc st a o (Some b) = (a, 1, ZeroDiv).
Proof.
  intros st a o b Ca Cb O Z. destruct (tobv_ok b Cb) as [Vb Eb]. pose proof (is_empty_V _ Vb) as N. rewrite Eb, Z in N. change (0 =? 0) with true in N.
  unfold calc. rewrite N. destruct O as [-> | [-> | [-> | ->]]]; reflexivity.
Qed.
Lemma calc_missing : forall st a o, o <> NEG -> o <> NOT -> o <> LNOT -> calc st a o None = (a, 1, Arith).
Proof. intros st a o A B C. unfold calc. destruct o; auto; congruence. Qed.
Lemma calc_seg : forall st a b, calc st a NONNUM (Some b) = (a, 1, Arith) /\
  forall o, o = SEG \/ o = WRT \/ o = SEGOFF -> calc st a o (Some b) = (frombv st, 0, Arith).
Proof. intros. split; [reflexivity|]. intros o [-> | [-> | ->]]; reflexivity. Qed.

(** * Queries *)
Lemma ival_V : forall v, canon (IB v) -> V v.
Proof. intros v (A & B & _). split; auto. Qed.
Lemma get_uint_ok : forall i, canon i -> get_uint i = (let v := ival i in if v <? 0 then 0 else if v <? 2 ^ 32 then v else if v <? 2 ^ 33 then v - 2 ^ 32 else ULONG_MAX).
Proof.
  intros [l|v] C; cbv zeta; cbn [get_uint ival].
  - cbn [canon] in C. destruct (Z.ltb_spec l 0); auto. destruct (Z.ltb_spec l (2 ^ 32)); auto. lia.
  - pose proof (ival_V v C) as H. rewrite msb_sval by apply H. destruct (Z.ltb_spec (sval v) 0); auto. pose proof (V_cases v H) as (_ & C2 & C3).
    destruct C3 as [[_ C3]|C3]; [|lia]. assert (Q : (32 <? Set_Max v) = negb (Set_Max v <? 33)) by (destruct (Z.ltb_spec 32 (Set_Max v)), (Z.ltb_spec (Set_Max v) 33); auto; lia). rewrite Q, set_max_lt, read_low by (auto; lia). rewrite C3.
    destruct (Z.ltb_spec (sval v) (2 ^ 32)), (Z.ltb_spec (sval v) (2 ^ 33)); cbn [negb]; try lia; auto.
    + apply Z.mod_small. lia.
    + symmetry. apply (Z.mod_unique _ _ 1); lia.
Qed.
Lemma get_int_ok : forall i, canon i -> get_int i = (let v := ival i in if v <=? - 2 ^ 31 then LONG_MIN else if v <? 2 ^ 31 then v else LONG_MAX).
Proof.
  intros [l|v] C; cbv zeta; cbn [get_int ival].
  - cbn [canon] in C. destruct (Z.leb_spec l (- 2 ^ 31)); [lia|]. destruct (Z.ltb_spec l (2 ^ 31)); auto. lia.
  - pose proof (ival_V v C) as H. cbn [canon] in C. rewrite msb_sval by apply H. destruct (Z.ltb_spec (sval v) 0).
    + pose proof (Negate_uval v H ltac:(auto)) as NU. destruct (Negate_V v H) as [NV _]. assert (Q : (32 <=? Set_Max (Negate v)) = negb (Set_Max (Negate v) <? 32)) by (destruct (Z.leb_spec 32 (Set_Max (Negate v))), (Z.ltb_spec (Set_Max (Negate v)) 32); auto; lia).
      rewrite Q, set_max_lt, NU by (auto; lia). destruct (Z.leb_spec (sval v) (- 2 ^ 31)); [|lia]. destruct (Z.ltb_spec (- sval v) (2 ^ 32)); cbn [negb]; auto.
      rewrite read_low, NU by (auto; lia). rewrite Z.mod_small by lia. rewrite msb32 by lia. destruct (Z.leb_spec (2 ^ 31) (- sval v)); [auto|lia].
    + destruct (Z.leb_spec (sval v) (- 2 ^ 31)); [lia|]. destruct (Z.ltb_spec (sval v) (2 ^ 31)); auto. lia.
Qed.
Lemma compare_ok : forall a b, canon a -> canon b -> compare a b = Z.sgn (ival a - ival b).
Proof.
  intros a b Ca Cb. destruct (tobv_ok a Ca) as [Va Ea]. destruct (tobv_ok b Cb) as [Vb Eb]. destruct a as [x|x], b as [y|y]; cbn [compare]; try (rewrite Compare_V, Ea, Eb by auto; reflexivity).
  cbn [ival]. destruct (Z.ltb_spec x y); [lia|]. destruct (Z.ltb_spec y x); lia.
Qed.
Lemma tests_ok : forall i, canon i -> is_zero i = (ival i =? 0) /\ is_pos1 i = (ival i =? 1) /\ is_neg1 i = (ival i =? -1) /\ sign i = Z.sgn (ival i).
Proof.
  intros [l|v] C; cbn [is_zero is_pos1 is_neg1 sign ival].
  - conj; auto. destruct (Z.eqb_spec l 0); [subst; reflexivity|]. destruct (Z.ltb_spec l 0); lia.
  - pose proof (ival_V v C) as H. cbn [canon] in C. conj; try (symmetry; apply Z.eqb_neq; lia). apply Sign_ok. apply H.
Qed.
Lemma Create_V : V (Create NATIVE) /\ uval (Create NATIVE) = 0.
Proof. exact V_scratch. Qed.
Lemma small_sval : forall b, V b -> uval b < 2 ^ 255 -> sval b = uval b.
Proof. intros b H L. pose proof (V_cases b H) as (A & B & C). assert (2 ^ 256 = 2 * 2 ^ 255) by reflexivity. lia. Qed.
Lemma store32_sval : forall b v, V b -> uval b = 0 -> 0 <= v -> let r := Chunk_Store b 32 0 v in V r /\ uval r = v mod 2 ^ 32 /\ sval r = v mod 2 ^ 32.
Proof.
  intros b v H U P r. destruct (store32 b v H U P) as [A B]. fold r in A, B. split; [auto|]. split; [auto|]. rewrite <- B. apply small_sval; auto. rewrite B. pose proof (Z.mod_pos_bound v (2 ^ 32) ltac:(lia)). assert (2 ^ 32 <= 2 ^ 255) by (vm_compute; discriminate). lia.
Qed.
Lemma get_uint_create : forall u, 0 <= u < 2 ^ 64 -> get_uint (create_uint u) = if u <? 2 ^ 63 then u else u mod 2 ^ 32.
Proof.
  intros u R. unfold create_uint, LONG_MAX. destruct (Z.ltb_spec 9223372036854775807 u), (Z.ltb_spec u (2 ^ 63)); try lia; cbn [get_uint].
  - destruct Create_V as [CV CU]. destruct (store32_sval _ u CV CU ltac:(lia)) as (A & B & C). set (c := Chunk_Store _ 32 0 u) in *. pose proof (Z.mod_pos_bound u (2 ^ 32) ltac:(lia)) as MB. rewrite msb_sval by apply A. rewrite C. destruct (Z.ltb_spec (u mod 2 ^ 32) 0); [lia|].
    assert (Q : (32 <? Set_Max c) = negb (Set_Max c <? 33)) by (destruct (Z.ltb_spec 32 (Set_Max c)), (Z.ltb_spec (Set_Max c) 33); auto; lia). rewrite Q, set_max_lt, read_low, B by (auto; lia). destruct (Z.ltb_spec (u mod 2 ^ 32) (2 ^ 33)); [|lia]. cbn [negb]. apply Z.mod_mod. lia.
  - destruct (Z.ltb_spec u 0); lia.
Qed.
Lemma trunc32_small : forall l, - 2 ^ 32 < l < 2 ^ 32 -> trunc32 l = l.
Proof. intros l R. unfold trunc32. rewrite Z.mod_small by lia. rewrite Z.mul_comm. apply Z.abs_sgn. Qed.
Lemma trunc32_iff : forall l, - 2 ^ 32 < l < 2 ^ 32 <-> trunc32 l = l.
Proof. intros l. split; [apply trunc32_small|]. unfold trunc32. pose proof (Z.mod_pos_bound (Z.abs l) (2 ^ 32) ltac:(lia)). intros. destruct (Z.sgn_spec l) as [[? E]|[[? E]|[? E]]]; rewrite E in *; lia. Qed.
Lemma tobv_uint : forall u, 0 <= u < 2 ^ 64 -> V (tobv (create_uint u)) /\ sval (tobv (create_uint u)) = u mod 2 ^ 32.
Proof.
  intros u R. unfold create_uint, LONG_MAX. destruct (Z.ltb_spec 9223372036854775807 u); cbn [tobv].
  - destruct Create_V as [CV CU]. destruct (store32_sval _ u CV CU ltac:(lia)) as (A & B & C). auto.
  - destruct (long_bv_ok u ltac:(lia)) as [A B]. split; auto. rewrite B. destruct (Z.eq_dec u 0) as [->|N]; [reflexivity|]. rewrite Z.sgn_pos, Z.abs_eq by lia. lia.
Qed.
Lemma sum_wrap : forall x y r, V x -> V y -> fst (fst (add x y false)) = r -> V r /\ sval r = wrap256 (sval x + sval y).
Proof.
  intros x y r [Wx Bx] [Wy By] E. destruct (add_ok x y false Wx Wy ltac:(congruence)) as (r' & E' & A1 & A2 & A3). rewrite E' in E. cbn [fst] in E. subst r'. assert (Vr : V r) by (split; congruence). split; auto. apply V_sval; auto.
  rewrite A3, Bx. cbn [b2z]. rewrite Z.add_0_r, <- (sval_umod x), <- (sval_umod y) by (split; auto). rewrite <- Z.add_mod by discriminate. reflexivity.
Qed.
Lemma calc_uint : forall st u b, 0 <= u < 2 ^ 64 -> canon b -> result (calc st (create_uint u) ADD (Some b)) (wrap256 (u mod 2 ^ 32 + ival b)).
Proof.
  intros st u b R Cb. destruct (tobv_uint u R) as [A B]. destruct (tobv_ok b Cb) as [Vb Eb]. unfold calc. destruct (sum_wrap _ _ _ A Vb eq_refl) as [Vr Er]. apply fin_ok; auto. rewrite Er, B, Eb. reflexivity.
Qed.
Lemma calc_int : forall st l b, - 2 ^ 63 <= l < 2 ^ 63 -> canon b -> result (calc st (create_int l) ADD (Some b)) (wrap256 (trunc32 l + ival b)).
Proof.
  intros st l b R Cb. destruct (long_bv_ok l R) as [A B]. destruct (tobv_ok b Cb) as [Vb Eb]. unfold calc. cbn [create_int tobv]. destruct (sum_wrap _ _ _ A Vb eq_refl) as [Vr Er]. apply fin_ok; auto. rewrite Er, B, Eb. reflexivity.
Qed.
Lemma in_range_ok : forall i low high, canon i -> - 2 ^ 63 <= low < 2 ^ 63 -> - 2 ^ 63 <= high < 2 ^ 63 ->
  in_range i low high = (trunc32 low <=? ival i) && (ival i <=? trunc32 high).
Proof.
  intros i low high C L H. destruct (tobv_ok i C) as [A E]. destruct (long_bv_ok low L) as [B1 B2]. destruct (long_bv_ok high H) as [B3 B4]. unfold in_range. rewrite !Compare_V, E, B2, B4 by auto. fold (trunc32 low) (trunc32 high).
  f_equal; [destruct (Z.leb_spec 0 (Z.sgn (ival i - trunc32 low))), (Z.leb_spec (trunc32 low) (ival i))|destruct (Z.leb_spec (Z.sgn (ival i - trunc32 high)) 0), (Z.leb_spec (ival i) (trunc32 high))]; auto; lia.
Qed.

(** * Range checks *)
Lemma s64u64 : forall k, 0 <= k < 2 ^ 63 -> s64 (u64 k) = k.
Proof. intros k K. unfold s64. rewrite u64_small by (unfold w64; lia). apply sgn_small; lia. Qed.
Lemma dec_neg : forall b, V b -> sval b < 0 -> let c := fst (fst (dec (Negate b))) in V c /\ uval c = - sval b - 1.
Proof.
  intros b H N c. destruct (Negate_V b H) as [[W B] _]. pose proof (Negate_uval b H N) as U. destruct (compute_ok (Negate b) [] true true W) as (x & E & A1 & A2 & A3); [constructor|cbn [wval]; apply pow2_pos; lia|auto|].
  unfold c, dec. rewrite E. cbn [fst]. split; [split; congruence|]. rewrite A3, B. cbn [wval b2z]. rewrite U. pose proof (V_cases b H). rewrite Z.mod_small; [lia|]. assert (2 ^ 256 = 2 * 2 ^ 255) by reflexivity. assert (0 < 2 ^ 255) by reflexivity. lia.
Qed.
Lemma shrn_ok : forall b n, V b -> 0 <= n -> V (shrn b n) /\ sval (shrn b n) = sval b / 2 ^ n.
Proof. intros b n H N. unfold shrn. destruct (shift_iter (Z.to_nat n) b (msb_ b) H) as [A B]; [apply msb_sval; apply H|]. rewrite Z2Nat.id in B by auto. auto. Qed.
Lemma check_vec : forall i rshift, canon i -> 0 <= rshift ->
  let v := match i with IB b => if 0 <? rshift then Copy b else b | IL _ => tobv i end in
  let v' := if 0 <? rshift then shrn v rshift else v in V v' /\ sval v' = ival i / 2 ^ rshift.
Proof.
  intros i r C R v v'. assert (E : v = tobv i). { unfold v. destruct i as [l|b]; auto. cbn [tobv]. rewrite Copy_V by (apply ival_V; auto). destruct (0 <? r); auto. }
  destruct (tobv_ok i C) as [A B]. unfold v'. rewrite E. destruct (Z.ltb_spec 0 r).
  - destruct (shrn_ok (tobv i) r A R) as [S1 S2]. split; auto. rewrite S2, B. auto.
  - replace r with 0 by lia. rewrite Z.pow_0_r, Z.div_1_r. auto.
Qed.
Lemma check_size_ok : forall i size rshift ty, canon i -> 0 < size < 256 -> 0 <= rshift ->
  check_size i size rshift ty = (let w := ival i / 2 ^ rshift in
    if ty <=? 0 then (0 <=? w) && (w <? 2 ^ size)
    else (- 2 ^ (size - 1) <=? w) && (w <? if ty =? 1 then 2 ^ (size - 1) else 2 ^ size)).
Proof.
  intros i size r ty C S R. cbv zeta. destruct (check_vec i r C R) as [A B]. unfold check_size. destruct (Z.leb_spec NATIVE size) as [K|_]; [unfold NATIVE in K; lia|].
  set (v := if 0 <? r then shrn _ r else _) in *. cbv zeta. set (w := ival i / 2 ^ r) in *. clearbody v w. clear C R. pose proof (V_cases v A) as (C1 & C2 & C3). assert (P : 2 ^ 256 = 2 * 2 ^ 255) by reflexivity.
  assert (P1 : 2 ^ size <= 2 ^ 255) by (apply Z.pow_le_mono_r; lia). assert (P2 : 2 ^ size = 2 * 2 ^ (size - 1)) by (rewrite <- Z.pow_succ_r by lia; f_equal; lia). pose proof (pow2_pos (size - 1) ltac:(lia)) as P3.
  rewrite msb_sval by apply A. destruct (Z.ltb_spec 0 ty), (Z.leb_spec ty 0); try lia.
  - destruct (Z.ltb_spec (sval v) 0) as [N|N].
    + destruct (dec_neg v A N) as [D1 D2]. rewrite s64u64, set_max_lt, D2 by (auto; lia). rewrite B in *.
      destruct (Z.ltb_spec (- w - 1) (2 ^ (size - 1))), (Z.leb_spec (- 2 ^ (size - 1)) w); cbn [andb]; try lia; auto. destruct (ty =? 1); destruct (Z.ltb_spec w (2 ^ size)), (Z.ltb_spec w (2 ^ (size - 1))); auto; lia.
    + rewrite B in *. destruct (Z.leb_spec (- 2 ^ (size - 1)) w); [|lia]. cbn [andb]. destruct (ty =? 1); rewrite s64u64, set_max_lt by (auto; lia); f_equal; lia.
  - rewrite s64u64, set_max_lt by (auto; lia). rewrite B in *. destruct (Z.leb_spec 0 w); cbn [andb]; [f_equal; lia|]. apply Z.ltb_ge. lia.
Qed.
Lemma check_size_zero : forall i rshift ty, canon i -> 0 <= rshift ->
  check_size i 0 rshift ty = (let w := ival i / 2 ^ rshift in if ty <=? 0 then w =? 0 else (w =? 0) || (w =? -1)).
Proof.
  intros i r ty C R. cbv zeta. destruct (check_vec i r C R) as [A B]. unfold check_size. change (NATIVE <=? 0) with false. cbv iota.
  set (v := if 0 <? r then shrn _ r else _) in *. cbv zeta. set (w := ival i / 2 ^ r) in *. clearbody v w. clear C R. pose proof (V_cases v A) as (C1 & C2 & C3).
  assert (M : forall b k, V b -> k = 0 \/ k = -1 -> (Set_Max b <? k) = (uval b =? 0)).
  { intros b k H [-> | ->]; rewrite Set_Max_ok by apply (proj1 H); pose proof (V_cases b H) as (_ & U & _); pose proof (Z.log2_nonneg (uval b)); destruct (Z.eqb_spec (uval b) 0); try reflexivity; apply Z.ltb_ge; lia. }
  rewrite msb_sval by apply A. change (s64 (u64 0)) with 0. change (s64 (u64 (0 - 1))) with (-1). destruct (Z.ltb_spec 0 ty), (Z.leb_spec ty 0); try lia.
  - destruct (Z.ltb_spec (sval v) 0) as [N|N].
    + destruct (dec_neg v A N) as [D1 D2]. rewrite M, D2 by auto. rewrite B in *. destruct (Z.eqb_spec (- w - 1) 0), (Z.eqb_spec w 0), (Z.eqb_spec w (-1)); auto; lia.
    + rewrite B in *. replace (s64 (if ty =? 1 then u64 (0 - 1) else u64 0)) with (if ty =? 1 then -1 else 0) by (destruct (ty =? 1); reflexivity). rewrite M by (auto; destruct (ty =? 1); auto). destruct (Z.eqb_spec (uval v) 0), (Z.eqb_spec w 0), (Z.eqb_spec w (-1)); auto; lia.
  - rewrite M by auto. rewrite B in *. destruct (Z.eqb_spec (uval v) 0), (Z.eqb_spec w 0); auto; lia.
Qed.
Lemma check_size_wide : forall i size rshift ty, 256 <= size -> check_size i size rshift ty = true.
Proof. intros i size r ty S. unfold check_size. destruct (Z.leb_spec NATIVE size) as [K|K]; [auto|unfold NATIVE in K; lia]. Qed.

(** * Sized fields *)
Lemma check_field : forall i size rshift ty, canon i -> 0 <= size -> 0 <= rshift -> ty = 1 \/ ty = 2 -> check_size i size rshift ty = in_field (ty =? 1) size (ival i / 2 ^ rshift).
Proof.
  intros i size r ty C S R T. unfold in_field. destruct (Z.leb_spec 256 size); [apply check_size_wide; auto|]. destruct (Z.leb_spec size 0).
  - replace size with 0 by lia. rewrite check_size_zero by auto. destruct T as [-> | ->]; reflexivity.
  - rewrite check_size_ok by (auto; lia). destruct T as [-> | ->]; reflexivity.
Qed.
Lemma lev_firstn : forall l k, Forall byte l -> lev (firstn k l) = lev l mod 256 ^ Z.of_nat k.
Proof.
  intros l k F. destruct (le_lt_dec (length l) k).
  - rewrite firstn_all2 by auto. symmetry. apply Z.mod_small. pose proof (lev_range l F). assert (256 ^ Z.of_nat (length l) <= 256 ^ Z.of_nat k) by (apply Z.pow_le_mono_r; lia). lia.
  - rewrite <- (firstn_skipn k l) at 2. rewrite lev_app. rewrite firstn_length_le by lia. rewrite Z.mul_comm, Z.mod_add by (apply Z.pow_nonzero; lia). symmetry. apply Z.mod_small.
    pose proof (lev_range (firstn k l) (Forall_firstn _ _ k l F)) as R. rewrite firstn_length_le in R by lia. auto.
Qed.
Lemma pow256 : forall n, 0 <= n -> 256 ^ n = 2 ^ (8 * n).
Proof. intros n N. change 256 with (2 ^ 8) at 1. rewrite <- Z.pow_mul_r by lia. reflexivity. Qed.
Lemma sval_bit : forall b i, V b -> 0 <= i < 256 -> Z.testbit (uval b) i = Z.testbit (sval b) i.
Proof. intros b i H I. rewrite <- (sval_umod b H). rewrite mod_pow2_testbit by lia. destruct (Z.ltb_spec i 256); [auto|lia]. Qed.
Lemma block_V : forall buf, Forall byte buf -> Z.of_nat (length buf) * 8 <= 256 -> V (Block_Store scratch buf) /\ uval (Block_Store scratch buf) = lev buf.
Proof.
  intros buf F L. destruct V_scratch as [[W B] _]. destruct (Block_Store_ok scratch buf W F) as (A1 & A2 & A3). split; [split; congruence|]. rewrite A3, B. change (4 * length (wds scratch))%nat with 32%nat. rewrite firstn_all2 by lia.
  apply Z.mod_small. pose proof (lev_range buf F) as R. rewrite pow256 in R by lia. assert (2 ^ (8 * Z.of_nat (length buf)) <= 2 ^ 256) by (apply Z.pow_le_mono_r; lia). lia.
Qed.
Lemma copy_field : forall x y shift valsize, V x -> V y -> 0 <= shift < 2 ^ 32 -> 0 <= valsize < 2 ^ 32 -> exists r, Interval_Copy x y (u32 shift) 0 (u32 valsize) = Some r /\ V r /\
  forall p, 0 <= p < 256 -> Z.testbit (uval r) p = if (shift <=? p) && (p <? shift + valsize) then Z.testbit (sval y) (p - shift) else Z.testbit (uval x) p.
Proof.
  intros x y shift valsize Vx Vy S L. rewrite !u32_small by (unfold w32; lia). assert (Hx := Vx). assert (Hy := Vy). destruct Hx as [Wx Bx]. destruct Hy as [Wy By].
  destruct (Z.ltb_spec shift 256); [destruct (Z.eqb_spec valsize 0)|].
  - exists x. unfold Interval_Copy. destruct (Z.ltb_spec 0 valsize); [lia|]. cbn [andb]. split; [auto|]. split; [auto|]. intros p P. destruct (Z.leb_spec shift p), (Z.ltb_spec p (shift + valsize)); auto; lia.
  - destruct (Interval_Copy_ok x y shift 0 valsize Wx Wy ltac:(lia) ltac:(lia) ltac:(lia)) as (r & E & A1 & A2 & A3). exists r. split; [auto|]. split; [split; congruence|]. intros p P. rewrite A3 by lia. rewrite Bx, By, Z.add_0_r.
    replace (p <? shift + Z.min valsize (Z.min (256 - shift) (256 - 0))) with (p <? shift + valsize) by (destruct (Z.ltb_spec p (shift + valsize)), (Z.ltb_spec p (shift + Z.min valsize (Z.min (256 - shift) (256 - 0)))); auto; lia).
    destruct (Z.leb_spec shift p), (Z.ltb_spec p (shift + valsize)); cbn [andb]; auto. apply sval_bit; auto. lia.
  - exists x. unfold Interval_Copy. rewrite Bx. destruct (Z.ltb_spec shift 256); [lia|]. rewrite andb_false_r. cbn [andb]. split; [auto|]. split; [auto|]. intros p P. destruct (Z.leb_spec shift p); auto; lia.
Qed.
Lemma sized_out : forall buf r, Forall byte buf -> Z.of_nat (length buf) * 8 <= 256 -> V r -> let out := firstn (length buf) (Block_Read r) in
  Forall byte out /\ length out = length buf /\ lev out = uval r mod 2 ^ (8 * Z.of_nat (length buf)).
Proof.
  intros buf r F L [W B] out. destruct (Block_Read_ok r W) as (A1 & A2 & A3). assert (LW : length (wds r) = 8%nat) by (destruct W as (_ & LW & _); rewrite B in LW; change ((256 + 31) / 32) with 8 in LW; lia).
  split; [apply Forall_firstn; auto|]. split; [unfold out; rewrite firstn_length_le; lia|]. unfold out. rewrite lev_firstn by auto. rewrite A3, pow256 by lia. reflexivity.
Qed.
Theorem get_sized_ok : forall i buf valsize shift warn, canon i -> Forall byte buf -> 0 <= valsize < 2 ^ 32 -> - 256 <= shift < 2 ^ 31 -> Z.of_nat (length buf) * 8 <= 256 ->
  let rshift := Z.max 0 (- shift) in let lo := Z.max 0 shift in let w := ival i / 2 ^ rshift in
  exists out i' ws, get_sized i buf valsize shift warn = Some (out, i', ws) /\ Forall byte out /\ length out = length buf /\
    (forall p, 0 <= p < 8 * Z.of_nat (length buf) -> Z.testbit (lev out) p = if (lo <=? p) && (p <? lo + valsize) then Z.testbit w (p - lo) else Z.testbit (lev buf) p) /\
    ival i' = match i with IL _ => ival i | IB _ => w end /\
    ws = sized_warns (ival i) valsize rshift warn.
Proof.
  intros i buf valsize shift warn C F VS SH L rshift lo w. destruct (tobv_ok i C) as [A B]. destruct (block_V buf F L) as [BV1 BV2]. unfold get_sized.
  assert (RS : (if shift <? 0 then - shift else 0) = rshift) by (unfold rshift; destruct (Z.ltb_spec shift 0); lia). rewrite RS. cbv zeta.
  assert (LO : (if 0 <? rshift then 0 else shift) = lo) by (unfold rshift, lo; destruct (Z.ltb_spec 0 (Z.max 0 (- shift))); lia). rewrite LO.
  destruct (Z.ltb_spec NATIVE (Z.of_nat (length buf) * 8)) as [K|K]; [unfold NATIVE in K; lia|].
  set (y := if 0 <? rshift then shrn (tobv i) rshift else tobv i).
  assert (Y : V y /\ sval y = w). { unfold y. destruct (Z.ltb_spec 0 rshift). - destruct (shrn_ok (tobv i) rshift A ltac:(lia)) as [Y1 Y2]. split; auto. rewrite Y2, B. auto. - split; auto. unfold w. replace rshift with 0 by lia. rewrite B, Z.pow_0_r, Z.div_1_r. auto. }
  destruct Y as [Y1 Y2]. destruct (copy_field (Block_Store scratch buf) y lo valsize BV1 Y1 ltac:(lia) VS) as (r & E & R1 & R2). rewrite E. destruct (sized_out buf r F L R1) as (O1 & O2 & O3).
  eexists _, _, _. split; [reflexivity|]. split; [auto|]. split; [auto|]. split; [|split].
  - intros p P. rewrite O3, mod_pow2_testbit by lia. destruct (Z.ltb_spec p (8 * Z.of_nat (length buf))); [|lia]. cbn [andb]. rewrite R2 by lia. rewrite Y2, BV2. reflexivity.
  - destruct i as [l|v]; cbn [ival]; auto.
  - unfold sized_warns. rewrite !check_field by (auto; lia). do 2 f_equal. unfold nz. destruct (Z.eqb_spec warn 0); cbn [negb andb]; [auto|]. destruct (Z.ltb_spec 0 rshift) as [G|G].
    + cbn [andb]. rewrite u32_small by (unfold w32, NATIVE; lia). rewrite Copy_V by auto. destruct (Move_Left_ok (tobv i) (NATIVE - rshift) (proj1 A) ltac:(unfold NATIVE; lia)) as (M1 & M2 & M3). rewrite is_empty_ok by auto. rewrite M3, (proj2 A). rewrite <- (sval_umod _ A), B, Z.mul_mod_idemp_l by discriminate.
      replace (2 ^ 256) with (2 ^ rshift * 2 ^ (NATIVE - rshift)) by (rewrite <- Z.pow_add_r by (unfold NATIVE; lia); f_equal; unfold NATIVE; lia). rewrite Z.mul_mod_distr_r by (apply Z.pow_nonzero; unfold NATIVE; lia).
      pose proof (pow2_pos (NATIVE - rshift) ltac:(unfold NATIVE; lia)) as PP. destruct (Z.eqb_spec (ival i mod 2 ^ rshift) 0) as [Q|Q]; [rewrite Q; reflexivity|]. destruct (Z.eqb_spec (ival i mod 2 ^ rshift * 2 ^ (NATIVE - rshift)) 0); [nia|auto].
    + cbn [andb]. replace rshift with 0 by lia. rewrite Z.pow_0_r, Z.mod_1_r. reflexivity.
Qed.
Lemma get_sized_big : forall i buf valsize shift warn, 256 < Z.of_nat (length buf) * 8 -> get_sized i buf valsize shift warn = None.
Proof. intros. unfold get_sized. destruct (Z.ltb_spec NATIVE (Z.of_nat (length buf) * 8)) as [K|K]; [auto|unfold NATIVE in K; lia]. Qed.

(** * LEB128 encoding *)
Lemma leb_chunk : forall v i, V v -> 0 <= i < 256 -> Chunk_Read v 7 i = (uval v / 2 ^ i) mod 128.
Proof.
  intros v i [W B] I. rewrite Chunk_Read_ok by (auto; lia). rewrite B. pose proof (wf_range v W) as R. rewrite B in R. unfold chunk_len. change (Z.min 7 64) with 7. change 128 with (2 ^ 7).
  destruct (Z.leb_spec 7 (256 - i)); [rewrite Z.min_l by lia; auto|]. rewrite Z.min_r by lia. assert (Q : 0 <= uval v / 2 ^ i < 2 ^ (256 - i)). { split; [apply Z.div_pos; [lia|apply pow2_pos; lia]|]. apply Z.div_lt_upper_bound; [apply pow2_pos; lia|]. rewrite <- Z.pow_add_r by lia. replace (i + (256 - i)) with 256 by lia. lia. }
  assert (2 ^ (256 - i) <= 2 ^ 7) by (apply Z.pow_le_mono_r; lia). rewrite !Z.mod_small by lia. auto.
Qed.
Lemma lor128 : forall c, 0 <= c < 128 -> Z.lor (c mod 256) 128 = c + 128 /\ Z.land (Z.lor (c mod 256) 128) 127 = c.
Proof.
  intros c C. rewrite Z.mod_small by lia. change 128 with (2 ^ 7 * 1) at 1 3. rewrite lor_low by (try lia; change (2 ^ 7) with 128; lia). split; [reflexivity|]. change 127 with (2 ^ 7 - 1). rewrite land_mask by lia. symmetry. apply (Z.mod_unique _ _ 1); change (2 ^ 7) with 128; lia.
Qed.
Lemma leb_bytes_ok : forall n v i rest, V v -> (0 < n)%nat -> 0 <= i -> i + 7 * (Z.of_nat n - 1) < 256 ->
  uleb (leb_bytes n v i ++ rest) = Some ((uval v / 2 ^ i) mod 2 ^ (7 * Z.of_nat n), Z.of_nat n, rest) /\ length (leb_bytes n v i) = n /\ Forall byte (leb_bytes n v i).
Proof.
  induction n as [|n IH]; intros v i rest H N I L; [lia|]. cbn [leb_bytes]. rewrite leb_chunk by (auto; lia). set (c := (uval v / 2 ^ i) mod 128). assert (C : 0 <= c < 128) by (apply Z.mod_pos_bound; lia). destruct (lor128 c C) as [E1 E2]. rewrite E2, E1.
  destruct n as [|n].
  - cbn [leb_bytes app uleb length]. destruct (Z.ltb_spec c 128); [|lia]. split; [reflexivity|]. split; [auto|]. constructor; [unfold byte; lia|constructor].
  - destruct (IH v (i + 7) rest H ltac:(lia) ltac:(lia) ltac:(lia)) as (A1 & A2 & A3). cbn [app]. set (t := leb_bytes (S n) v (i + 7)) in *. cbn [uleb length]. destruct (Z.ltb_spec (c + 128) 128); [lia|]. rewrite A1. split; [|split; [lia|constructor; [unfold byte; lia|auto]]].
    f_equal. f_equal. f_equal; [|lia]. rewrite Z.pow_add_r by lia. replace (7 * Z.of_nat (S (S n))) with (7 + 7 * Z.of_nat (S n)) by lia. rewrite Z.pow_add_r by lia. rewrite <- Z.div_div by (try lia; apply Z.pow_nonzero; lia).
    set (u := uval v / 2 ^ i) in *. rewrite Z.rem_mul_r by (try lia; apply Z.pow_nonzero; lia || apply pow2_pos; lia). change (2 ^ 7) with 128. fold c. lia.
Qed.
(** ** Sizes *)
Definition leb_len (v : bv) (sgnd : bool) : Z := let s := if sgnd then (if sval v <? 0 then Z.log2 (- sval v) else Z.log2 (sval v)) + 2 else Z.log2 (uval v) + 1 in (s + 6) / 7.
Lemma log2_256 : forall x, 0 < x < 2 ^ 256 -> 0 <= Z.log2 x < 256.
Proof. intros x X. split; [apply Z.log2_nonneg|]. apply Z.log2_lt_pow2; lia. Qed.
Lemma leb_sizes : forall v s, V v -> uval v <> 0 -> exists k, size_leb128 v s = k /\ leb128 v s = Some (leb_bytes (Z.to_nat k) v 0) /\ k = leb_len v s /\ 1 <= k <= 37.
Proof.
  intros v s H NZ. exists (leb_len v s). pose proof (V_cases v H) as (C1 & C2 & C3). assert (P : 2 ^ 256 = 2 * 2 ^ 255) by reflexivity.
  set (L := if s then (if sval v <? 0 then Z.log2 (- sval v) else Z.log2 (sval v)) else Z.log2 (uval v)).
  assert (LB : 0 <= L < 256) by (unfold L; destruct s; [destruct (Z.ltb_spec (sval v) 0)|]; apply log2_256; lia). 
  assert (LS : s = true -> L < 256) by lia.
  assert (EL : leb_len v s = (L + (if s then 8 else 7)) / 7) by (unfold leb_len, L; destruct s; f_equal; lia).
  assert (SZ : leb_size v s = L + (if s then 2 else 1)).
  { unfold leb_size, L. rewrite msb_sval by apply H. destruct s.
    - destruct (Z.ltb_spec (sval v) 0) as [N|N].
      + destruct (Negate_V v H) as [[NW NB] _]. rewrite Set_Max_ok by apply NW. rewrite Negate_uval by auto. destruct (Z.eqb_spec (- sval v) 0); [lia|]. apply u64_small. unfold w64. pose proof (log2_256 (- sval v) ltac:(lia)). lia.
      + rewrite Set_Max_ok by apply (proj1 H). destruct (Z.eqb_spec (uval v) 0); [lia|]. replace (sval v) with (uval v) by lia. apply u64_small. unfold w64. pose proof (log2_256 (uval v) ltac:(lia)). lia.
    - rewrite Set_Max_ok by apply (proj1 H). destruct (Z.eqb_spec (uval v) 0); [lia|]. apply u64_small. unfold w64. pose proof (log2_256 (uval v) ltac:(lia)). lia. }
  assert (S2 : size_leb128 v s = (L + (if s then 8 else 7)) / 7).
  { unfold size_leb128, L. rewrite msb_sval by apply H. destruct s.
    - destruct (Z.ltb_spec (sval v) 0) as [N|N].
      + destruct (Negate_V v H) as [[NW NB] _]. rewrite Set_Max_ok by apply NW. rewrite Negate_uval by auto. destruct (Z.eqb_spec (- sval v) 0); [lia|]. pose proof (log2_256 (- sval v) ltac:(lia)). rewrite Z.quot_div_nonneg by lia. apply u64_small. unfold w64. split; [apply Z.div_pos; lia|]. apply Z.div_lt_upper_bound; lia.
      + rewrite Set_Max_ok by apply (proj1 H). destruct (Z.eqb_spec (uval v) 0); [lia|]. replace (sval v) with (uval v) by lia. pose proof (log2_256 (uval v) ltac:(lia)). rewrite Z.quot_div_nonneg by lia. apply u64_small. unfold w64. split; [apply Z.div_pos; lia|]. apply Z.div_lt_upper_bound; lia.
    - rewrite Set_Max_ok by apply (proj1 H). destruct (Z.eqb_spec (uval v) 0); [lia|]. pose proof (log2_256 (uval v) ltac:(lia)). rewrite Z.quot_div_nonneg by lia. apply u64_small. unfold w64. split; [apply Z.div_pos; lia|]. apply Z.div_lt_upper_bound; lia. }
  split; [congruence|]. split; [|split; [auto|]].
  - unfold leb128. cbv zeta. rewrite SZ. destruct (Z.ltb_spec LONG_MAX (L + (if s then 2 else 1))) as [K|K]; [unfold LONG_MAX in K; destruct s; lia|]. rewrite EL. do 3 f_equal. destruct s; f_equal; lia.
  - rewrite EL. split; [apply Z.div_le_lower_bound; destruct s; lia|]. assert ((L + (if s then 8 else 7)) / 7 < 38); [|lia]. apply Z.div_lt_upper_bound; destruct s; lia.
Qed.
Lemma sgn_neg : forall n x, 0 < n -> - 2 ^ (n - 1) <= x < 2 ^ (n - 1) -> forall y, y mod 2 ^ n = x mod 2 ^ n -> sgn n y = x.
Proof. intros n x N R y E. rewrite (sgn_eq_mod n y x E). apply sgn_small; auto. Qed.
Lemma leb_vec : forall v s, V v -> uval v <> 0 -> exists l, leb128 v s = Some l /\ Forall byte l /\ size_leb128 v s = Z.of_nat (length l) /\ Z.of_nat (length l) = leb_len v s /\
  forall rest, leb s (l ++ rest) = Some (if s then (if sval v <=? - 2 ^ 251 then sval v + 2 ^ 256 else sval v) else uval v, Z.of_nat (length l), rest).
Proof.
  intros v s H NZ. destruct (leb_sizes v s H NZ) as (k & S & E & K & R). pose proof (V_cases v H) as (C1 & C2 & C3). assert (P : 2 ^ 256 = 2 * 2 ^ 255) by reflexivity.
  exists (leb_bytes (Z.to_nat k) v 0). split; [auto|]. pose proof (leb_bytes_ok (Z.to_nat k) v 0 [] H ltac:(lia) ltac:(lia) ltac:(lia)) as (_ & LL & FB). rewrite LL, Z2Nat.id by lia. split; [auto|]. split; [auto|]. split; [auto|].
  intros rest. destruct (leb_bytes_ok (Z.to_nat k) v 0 rest H ltac:(lia) ltac:(lia) ltac:(lia)) as (D & _ & _). unfold leb. rewrite D. rewrite Z2Nat.id by lia. rewrite Z.pow_0_r, Z.div_1_r. do 3 f_equal. clear S E LL FB D.
  unfold leb_len in K. cbv zeta in K. destruct s.
  - set (m := if sval v <? 0 then Z.log2 (- sval v) else Z.log2 (sval v)) in *. assert (M : 0 <= m /\ Z.abs (sval v) < 2 ^ (m + 1) /\ 2 ^ m <= Z.abs (sval v)).
    { unfold m. destruct (Z.ltb_spec (sval v) 0).
      - pose proof (Z.log2_spec (- sval v) ltac:(lia)). pose proof (Z.log2_nonneg (- sval v)). rewrite Z.abs_neq, Z.add_1_r by lia. lia.
      - assert (0 < sval v) by lia. pose proof (Z.log2_spec (sval v) ltac:(lia)). pose proof (Z.log2_nonneg (sval v)). rewrite Z.abs_eq, Z.add_1_r by lia. lia. }
    destruct M as (M0 & M1 & M2). clearbody m. pose proof (Z.div_mod (m + 2 + 6) 7 ltac:(lia)) as DM. pose proof (Z.mod_pos_bound (m + 2 + 6) 7 ltac:(lia)) as MB. rewrite <- K in DM. clear K.
    assert (PM : 2 ^ (m + 1) <= 2 ^ (7 * k - 1)) by (apply Z.pow_le_mono_r; lia). assert (P7 : 2 ^ (7 * k) = 2 * 2 ^ (7 * k - 1)) by (rewrite <- Z.pow_succ_r by lia; f_equal; lia).
    destruct (Z.leb_spec (sval v) (- 2 ^ 251)) as [Q|Q].
    + assert (U : uval v = sval v + 2 ^ 256) by (destruct C3; [assert (0 < 2 ^ 251) by reflexivity; lia|lia]). assert (M251 : 251 < m + 1) by (apply (Z.pow_lt_mono_r_iff 2); lia). assert (k = 37) by lia. subst k. rewrite <- U. rewrite Z.mod_small by (assert (2 ^ 256 <= 2 ^ (7 * 37)) by (vm_compute; discriminate); lia). apply sgn_small; [lia|]. assert (2 ^ 256 <= 2 ^ (7 * 37 - 1)) by (vm_compute; discriminate). lia.
    + destruct C3 as [[C3 U]|[C3 U]].
      * rewrite U. apply sgn_neg; [lia| |apply Z.mod_mod; apply Z.pow_nonzero; lia]. lia.
      * assert (M251 : m < 251) by (apply (Z.pow_lt_mono_r_iff 2); lia). assert (k <= 36) by lia. apply sgn_neg; [lia|lia|]. rewrite Z.mod_mod by (apply Z.pow_nonzero; lia). rewrite U. replace 256 with (7 * k + (256 - 7 * k)) by lia. rewrite Z.pow_add_r by lia. rewrite (Z.mul_comm (2 ^ (7 * k))), Z.mod_add by (apply Z.pow_nonzero; lia). reflexivity.
  - apply Z.mod_small. split; [lia|]. pose proof (Z.log2_spec (uval v) ltac:(lia)) as LS. apply Z.lt_le_trans with (2 ^ Z.succ (Z.log2 (uval v))); [lia|]. apply Z.pow_le_mono_r; [lia|]. pose proof (Z.div_mod (Z.log2 (uval v) + 1 + 6) 7 ltac:(lia)) as DM. pose proof (Z.mod_pos_bound (Z.log2 (uval v) + 1 + 6) 7 ltac:(lia)). rewrite <- K in DM. lia.
Qed.
Lemma some3 : forall (a a' b b' : Z) (c c' : list Z), Some (a, b, c) = Some (a', b', c') -> a' = a /\ b' = b /\ c' = c.
Proof. intros. injection H. auto. Qed.
Lemma uleb_facts : forall l v k r, Forall byte l -> uleb l = Some (v, k, r) -> 0 <= v < 2 ^ (7 * k) /\ 1 <= k /\ Z.of_nat (length l) = k + Z.of_nat (length r).
Proof.
  induction l as [|b l IH]; intros v k r F E; [discriminate|]. cbn [uleb] in E. pose proof (Forall_inv F) as B. pose proof (Forall_inv_tail F) as FT. unfold byte in B. destruct (Z.ltb_spec b 128).
  - apply some3 in E; destruct E as (-> & -> & ->). change (2 ^ (7 * 1)) with 128. cbn [length]. lia.
  - destruct (uleb l) as [[[v' k'] r']|]; [|discriminate]. apply some3 in E; destruct E as (-> & -> & ->). destruct (IH v' k' r' FT eq_refl) as (A1 & A2 & A3). cbn [length]. replace (7 * (k' + 1)) with (7 + 7 * k') by lia. rewrite Z.pow_add_r by lia. change (2 ^ 7) with 128. nia.
Qed.
Lemma leb_facts : forall s l v k r, Forall byte l -> leb s l = Some (v, k, r) -> 1 <= k /\ Z.of_nat (length l) = k + Z.of_nat (length r) /\ if s then - 2 ^ (7 * k - 1) <= v < 2 ^ (7 * k - 1) else 0 <= v < 2 ^ (7 * k).
Proof.
  intros s l v k r F E. unfold leb in E. destruct (uleb l) as [[[v' k'] r']|] eqn:U; [|discriminate]. apply some3 in E; destruct E as (-> & -> & ->). destruct (uleb_facts l v' k' r' F U) as (A & B & C). split; [auto|]. split; [auto|]. destruct s; [|auto]. apply sgn_range. lia.
Qed.
Definition leb_value (s : bool) (v : Z) : Z := if s then (if v <=? - 2 ^ 251 then v + 2 ^ 256 else v) else v mod 2 ^ 256.
Definition bitlen (s : bool) (v : Z) : Z := if s then Z.log2 (Z.abs v) + 2 else Z.log2 v + 1.
Lemma intnum_leb_ok : forall i s, canon i -> exists l, intnum_leb128 i s = Some l /\ Forall byte l /\ intnum_size_leb128 i s = Z.of_nat (length l) /\
  (ival i <> 0 -> s = true \/ 0 <= ival i -> Z.of_nat (length l) = (bitlen s (ival i) + 6) / 7) /\
  forall rest, leb s (l ++ rest) = Some (leb_value s (ival i), Z.of_nat (length l), rest).
Proof.
  intros i s C. destruct (tobv_ok i C) as [A B]. destruct (Z.eq_dec (ival i) 0) as [E|E].
  - assert (EI : i = IL 0) by (destruct i as [l|v]; cbn [ival canon] in *; [congruence|lia]). subst i. exists [0]. cbn [intnum_leb128 intnum_size_leb128 length ival]. split; [auto|]. split; [repeat constructor; unfold byte; lia|]. split; [auto|]. split; [congruence|]. intros rest. destruct s; reflexivity.
  - pose proof (V_cases _ A) as (C1 & C2 & C3). rewrite B in C1, C3. assert (NZ : uval (tobv i) <> 0) by lia. destruct (leb_vec (tobv i) s A NZ) as (l & E1 & E2 & E3 & E4 & E5). rewrite B in E5.
    assert (G : intnum_leb128 i s = leb128 (tobv i) s /\ intnum_size_leb128 i s = size_leb128 (tobv i) s) by (destruct i as [[|p|p]|v]; cbn [ival] in E; try congruence; split; reflexivity). destruct G as [-> ->].
    exists l. split; [auto|]. split; [auto|]. split; [auto|]. split.
    + intros _ P. rewrite E4. unfold leb_len, bitlen. cbv zeta. rewrite B. destruct s; [destruct (Z.ltb_spec (ival i) 0); [rewrite Z.abs_neq by lia|rewrite Z.abs_eq by lia]; auto|]. replace (uval (tobv i)) with (ival i) by (destruct P; [discriminate|lia]). auto.
    + intros rest. rewrite E5. unfold leb_value. destruct s; [auto|]. rewrite <- (sval_umod _ A), B. auto.
Qed.
Lemma leb_minimal : forall i s l l', canon i -> intnum_leb128 i s = Some l -> Forall byte l' -> leb s l' = Some (ival i, Z.of_nat (length l'), []) -> (s = true -> forall m, - ival i <> 2 ^ (7 * m - 1)) -> (length l <= length l')%nat.
Proof.
  intros i s l l' C E F D M. destruct (intnum_leb_ok i s C) as (l0 & E0 & _ & _ & L & D0). rewrite E in E0. injection E0 as <-. destruct (leb_facts s l' _ _ _ F D) as (K & _ & R). set (k := Z.of_nat (length l')) in *.
  destruct (Z.eq_dec (ival i) 0) as [Z0|NZ].
  - assert (EI : i = IL 0) by (destruct i as [x|v]; cbn [ival canon] in *; [congruence|lia]). subst i. cbn in E. injection E as <-. cbn [length]. lia.
  - assert (P : s = true \/ 0 <= ival i) by (destruct s; [auto|right; lia]). specialize (L NZ P). unfold bitlen in L. destruct s.
    + pose proof (Z.log2_spec (Z.abs (ival i)) ltac:(lia)) as LS. set (g := Z.log2 (Z.abs (ival i))) in *. pose proof (Z.log2_nonneg (Z.abs (ival i))) as G0. fold g in G0. pose proof (Z.div_mod (g + 2 + 6) 7 ltac:(lia)) as DM. pose proof (Z.mod_pos_bound (g + 2 + 6) 7 ltac:(lia)) as MB. rewrite <- L in DM.
      destruct (Z.le_gt_cases (Z.of_nat (length l)) k); [lia|]. exfalso. assert (PG : 2 ^ (7 * k - 1) <= 2 ^ g) by (apply Z.pow_le_mono_r; lia). specialize (M eq_refl k). lia.
    + pose proof (Z.log2_spec (ival i) ltac:(lia)) as LS. set (g := Z.log2 (ival i)) in *. pose proof (Z.log2_nonneg (ival i)) as G0. fold g in G0. pose proof (Z.div_mod (g + 1 + 6) 7 ltac:(lia)) as DM. pose proof (Z.mod_pos_bound (g + 1 + 6) 7 ltac:(lia)) as MB. rewrite <- L in DM.
      destruct (Z.le_gt_cases (Z.of_nat (length l)) k); [lia|]. exfalso. assert (PG : 2 ^ (7 * k) <= 2 ^ g) by (apply Z.pow_le_mono_r; lia). lia.
Qed.
(** ** The helpers on machine integers *)
Lemma get_sleb_ok : forall v, - 2 ^ 63 <= v < 2 ^ 63 -> (trunc32 v <> 0 \/ v = 0 -> exists l, get_sleb128 v = Some l /\ Forall byte l /\ size_sleb128 v = Z.of_nat (length l) /\ forall rest, leb true (l ++ rest) = Some (trunc32 v, Z.of_nat (length l), rest)) /\
  (trunc32 v = 0 -> v <> 0 -> get_sleb128 v = None).
Proof.
  intros v R. unfold get_sleb128, size_sleb128. destruct (Z.eqb_spec v 0) as [->|N].
  - split; [|congruence]. intros _. exists [0]. split; [auto|]. split; [repeat constructor; unfold byte; lia|]. split; [auto|]. intros. reflexivity.
  - destruct (long_bv_ok v R) as [A B]. fold (trunc32 v) in B. assert (TB : - 2 ^ 32 < trunc32 v < 2 ^ 32) by (unfold trunc32; pose proof (Z.mod_pos_bound (Z.abs v) (2 ^ 32) ltac:(lia)); destruct (Z.sgn_spec v) as [[? S]|[[? S]|[? S]]]; rewrite S; lia).
    pose proof (V_cases _ A) as (C1 & C2 & C3). rewrite B in C3. split.
    + intros [T|T]; [|congruence]. destruct (leb_vec (long_bv v) true A ltac:(lia)) as (l & E1 & E2 & E3 & _ & E5). exists l. split; [auto|]. split; [auto|]. split; [auto|]. intros rest. rewrite E5, B. destruct (Z.leb_spec (trunc32 v) (- 2 ^ 251)); auto. assert (2 ^ 32 < 2 ^ 251) by reflexivity. lia.
    + intros T _. unfold leb128, leb_size. rewrite msb_sval by apply A. rewrite B, T. change (0 <? 0) with false. cbv iota. rewrite Set_Max_ok by apply (proj1 A). destruct (Z.eqb_spec (uval (long_bv v)) 0); [reflexivity|lia].
Qed.
Lemma get_uleb_ok : forall v, 0 <= v < 2 ^ 64 -> (v mod 2 ^ 32 <> 0 \/ v = 0 -> exists l, get_uleb128 v = Some l /\ Forall byte l /\ size_uleb128 v = Z.of_nat (length l) /\ forall rest, leb false (l ++ rest) = Some (v mod 2 ^ 32, Z.of_nat (length l), rest)) /\
  (v mod 2 ^ 32 = 0 -> v <> 0 -> get_uleb128 v = None).
Proof.
  intros v R. unfold get_uleb128, size_uleb128. destruct (Z.eqb_spec v 0) as [->|N].
  - split; [|congruence]. intros _. exists [0]. split; [auto|]. split; [repeat constructor; unfold byte; lia|]. split; [auto|]. intros. reflexivity.
  - destruct V_empty as [VE UE]. destruct (store32_sval _ v VE UE ltac:(lia)) as (A & B & C). set (c := Chunk_Store _ 32 0 v) in *. split.
    + intros [T|T]; [|congruence]. destruct (leb_vec c false A ltac:(lia)) as (l & E1 & E2 & E3 & _ & E5). exists l. split; [auto|]. split; [auto|]. split; [auto|]. intros rest. rewrite E5, B. auto.
    + intros T _. unfold leb128, leb_size. rewrite Set_Max_ok by apply (proj1 A). rewrite B, T. reflexivity.
Qed.

(** * Creation *)
Lemma mod_add_drop : forall a i k x, 256 <= i -> (a + 2 ^ (i + k) * x) mod 2 ^ 256 = a mod 2 ^ 256 \/ k < 0.
Proof.
  intros a i k x I. destruct (Z.lt_ge_cases k 0); [auto|left]. replace (2 ^ (i + k)) with (2 ^ (i + k - 256) * 2 ^ 256) by (rewrite <- Z.pow_add_r by lia; f_equal; lia). replace (2 ^ (i + k - 256) * 2 ^ 256 * x) with ((2 ^ (i + k - 256) * x) * 2 ^ 256) by ring. apply Z.mod_add. discriminate.
Qed.
Lemma store_step : forall b w i c, V b -> 0 < w <= 64 -> 0 <= i -> uval b < 2 ^ i -> let r := Chunk_Store b w i c in
  V r /\ uval r = (uval b + 2 ^ i * (c mod 2 ^ w)) mod 2 ^ 256 /\ uval r < 2 ^ (i + w).
Proof.
  intros b w i c H W I U r. assert (H0 := H). destruct H0 as [Wb Bb]. pose proof (V_cases b H) as (_ & C2 & _). pose proof (pow2_pos w ltac:(lia)) as PW. pose proof (pow2_pos i I) as PI. pose proof (Z.mod_pos_bound c (2 ^ w) PW) as MC.
  assert (Q : V r /\ uval r = (uval b + 2 ^ i * (c mod 2 ^ w)) mod 2 ^ 256).
  { destruct (Z.lt_ge_cases i 256).
    - destruct (Chunk_Store_ok b w i c Wb ltac:(lia) ltac:(lia)) as (A1 & A2 & A3). fold r in A1, A2, A3. split; [split; congruence|]. apply Z.bits_inj'. intros p P. rewrite A3, mod_pow2_testbit by lia. rewrite testbit_add_shift by lia. rewrite Bb. unfold chunk_len.
      destruct (Z.leb_spec i p); cbn [andb].
      + destruct (Z.ltb_spec p i); [lia|]. rewrite mod_pow2_testbit by lia. destruct (Z.ltb_spec p (i + Z.min (Z.min w 64) (256 - i))), (Z.ltb_spec p 256), (Z.ltb_spec (p - i) w); cbn [andb]; auto; try lia; apply (testbit_small i); lia.
      + destruct (Z.ltb_spec p i); [|lia]. destruct (Z.ltb_spec p 256); [auto|lia].
    - unfold r, Chunk_Store. rewrite Bb. destruct (Z.ltb_spec i 256); [lia|]. rewrite andb_false_r. split; [auto|]. destruct (mod_add_drop (uval b) i 0 (c mod 2 ^ w) ltac:(lia)) as [E|E]; [|lia]. rewrite Z.add_0_r in E. rewrite E. symmetry. apply Z.mod_small. lia. }
  destruct Q as [Q1 Q2]. split; [auto|]. split; [auto|]. rewrite Q2. apply Z.le_lt_trans with (uval b + 2 ^ i * (c mod 2 ^ w)); [apply Z.mod_le; [nia|lia]|]. rewrite Z.pow_add_r by lia. nia.
Qed.
Lemma leb_read_ok : forall l i b v k r, uleb l = Some (v, k, r) -> Forall byte l -> V b -> 0 <= i -> uval b < 2 ^ i -> exists b' c, leb_read l i b = Some (b', i + 7 * k, c) /\ V b' /\ uval b' = (uval b + 2 ^ i * v) mod 2 ^ 256 /\ (Z.land c 64 =? 64) = (2 ^ (7 * k - 1) <=? v).
Proof.
  induction l as [|c l IH]; intros i b v k r E F H I U; [discriminate|]. cbn [uleb leb_read] in *. pose proof (Forall_inv F) as Bc. pose proof (Forall_inv_tail F) as FT. unfold byte in Bc.
  destruct (store_step b 7 i c H ltac:(lia) I U) as (A1 & A2 & A3). change (2 ^ 7) with 128 in A2.
  assert (HB : (Z.land c 128 =? 128) = negb (c <? 128)).
  { change 128 with (2 ^ 7) at 1 2. rewrite land_pow2 by lia. rewrite testbit_top by (change (2 ^ (7 + 1)) with 256; lia). change (2 ^ 7) with 128. destruct (Z.ltb_spec c 128), (Z.leb_spec 128 c); try lia; reflexivity. }
  rewrite HB. destruct (Z.ltb_spec c 128); cbn [negb].
  - apply some3 in E; destruct E as (-> & -> & ->). exists (Chunk_Store b 7 i c), c. split; [reflexivity|]. split; [auto|]. split; [rewrite A2; do 3 f_equal; apply Z.mod_small; lia|].
    change (2 ^ (7 * 1 - 1)) with 64. change 64 with (2 ^ 6) at 1 2. rewrite land_pow2 by lia. rewrite testbit_top by (change (2 ^ (6 + 1)) with 128; lia). change (2 ^ 6) with 64. destruct (Z.leb_spec 64 c); reflexivity.
  - destruct (uleb l) as [[[v' k'] r']|] eqn:UL; [|discriminate]. apply some3 in E; destruct E as (-> & -> & ->). destruct (IH (i + 7) (Chunk_Store b 7 i c) v' k' r' eq_refl FT A1 ltac:(lia) A3) as (b' & d & B1 & B2 & B3 & B4). exists b', d. destruct (uleb_facts l v' k' r' FT UL) as (V1 & V2 & _).
    split; [rewrite B1; do 3 f_equal; lia|]. split; [auto|]. split.
    + rewrite B3, A2. rewrite Z.add_mod_idemp_l by discriminate. f_equal. replace (c mod 128) with (c - 128) by (apply (Z.mod_unique _ _ 1); lia). rewrite Z.pow_add_r by lia. change (2 ^ 7) with 128. ring.
    + rewrite B4. replace (7 * (k' + 1) - 1) with (7 + (7 * k' - 1)) by lia. rewrite Z.pow_add_r by lia. change (2 ^ 7) with 128. pose proof (pow2_pos (7 * k' - 1) ltac:(lia)). destruct (Z.leb_spec (2 ^ (7 * k' - 1)) v'), (Z.leb_spec (128 * 2 ^ (7 * k' - 1)) (c - 128 + 128 * v')); auto; lia.
Qed.
Lemma fill_val : forall b i, V b -> 0 <= i < 256 -> uval b < 2 ^ i -> let r := Interval_Fill b i (NATIVE - 1) in V r /\ sval r = uval b - 2 ^ i.
Proof.
  intros b i H I U r. assert (H0 := H). destruct H0 as [W B]. pose proof (V_cases b H) as (_ & C2 & _). pose proof (pow2_pos i ltac:(lia)) as PI. change (NATIVE - 1) with 255 in r. destruct (Interval_Fill_ok b i 255 W ltac:(lia) ltac:(lia) ltac:(lia)) as (A1 & A2 & A3). fold r in A1, A2, A3.
  assert (Vr : V r) by (split; congruence). split; [auto|]. assert (PP : 2 ^ 256 = 2 ^ i * 2 ^ (256 - i)) by (rewrite <- Z.pow_add_r by lia; f_equal; lia). pose proof (pow2_pos (256 - i) ltac:(lia)) as PQ. assert (P1 : 1 < 2 ^ (256 - i)) by (change 1 with (2 ^ 0); apply Z.pow_lt_mono_r; lia).
  assert (UR : uval r = uval b + 2 ^ i * Z.ones (256 - i)).
  { apply Z.bits_inj'. intros p P. rewrite A3 by auto. rewrite testbit_add_shift by lia. destruct (Z.leb_spec i p), (Z.ltb_spec p i); try lia; cbn [andb orb]; auto. rewrite (testbit_small i) by lia. rewrite orb_false_r. rewrite Z.testbit_ones by lia. destruct (Z.leb_spec p 255), (Z.leb_spec 0 (p - i)), (Z.ltb_spec (p - i) (256 - i)); auto; lia. }
  rewrite <- (wrap_id (uval b - 2 ^ i)).
  - apply V_sval; auto. rewrite UR, Z.ones_equiv. apply (Z.mod_unique _ _ (-1)); [|rewrite <- Z.sub_1_r; lia]. left. rewrite <- Z.sub_1_r. nia.
  - assert (2 ^ i <= 2 ^ 255) by (apply Z.pow_le_mono_r; lia). assert (0 < 2 ^ 255) by reflexivity. lia.
Qed.
Theorem create_leb_ok : forall l s v k r, Forall byte l -> uleb l = Some (v, k, r) -> exists i, create_leb128 l s = Some (i, k, 36 <? k) /\ canon i /\ ival i = if 36 <? k then wrap256 v else if s then sgn (7 * k) v else v.
Proof.
  intros l s v k r F E. destruct V_empty as [VE UE]. destruct (leb_read_ok l 0 (Empty scratch) v k r E F VE ltac:(lia) ltac:(rewrite UE; reflexivity)) as (b & c & R & A1 & A2 & A3). rewrite UE, Z.pow_0_r, Z.mul_1_l, Z.add_0_l in A2. rewrite Z.add_0_l in R.
  destruct (uleb_facts l v k r F E) as (V1 & V2 & _). unfold create_leb128. rewrite R. cbv zeta. replace (7 * k / 7) with k by (rewrite Z.mul_comm, Z.div_mul; lia).
  assert (OV : (NATIVE <? 7 * k) = (36 <? k)) by (unfold NATIVE; destruct (Z.ltb_spec 256 (7 * k)), (Z.ltb_spec 36 k); auto; lia). rewrite OV, A3. destruct (Z.ltb_spec 36 k).
  - destruct (frombv_ok b A1) as [B1 B2]. eexists. split; [reflexivity|]. split; [auto|]. rewrite B2. apply V_sval; auto.
  - assert (PK : 2 ^ (7 * k) <= 2 ^ 252) by (apply Z.pow_le_mono_r; lia). assert (P252 : 2 ^ 252 < 2 ^ 255) by reflexivity. assert (P256 : 2 ^ 256 = 2 * 2 ^ 255) by reflexivity. rewrite Z.mod_small in A2 by lia. assert (P7 : 2 ^ (7 * k) = 2 * 2 ^ (7 * k - 1)) by (rewrite <- Z.pow_succ_r by lia; f_equal; lia).
    rewrite sgn_half by lia. destruct s; cbn [andb].
    + destruct (Z.leb_spec (2 ^ (7 * k - 1)) v), (Z.ltb_spec v (2 ^ (7 * k - 1))); try lia.
      * destruct (fill_val b (7 * k) A1 ltac:(lia) ltac:(lia)) as [F1 F2]. destruct (frombv_ok _ F1) as [B1 B2]. eexists. split; [reflexivity|]. split; [auto|]. rewrite B2, F2, A2. reflexivity.
      * destruct (frombv_ok b A1) as [B1 B2]. eexists. split; [reflexivity|]. split; [auto|]. rewrite B2, <- A2. apply small_sval; auto. lia.
    + destruct (frombv_ok b A1) as [B1 B2]. eexists. split; [reflexivity|]. split; [auto|]. rewrite B2, <- A2. apply small_sval; auto. lia.
Qed.
Lemma leb_read_short : forall l i b, uleb l = None -> Forall byte l -> leb_read l i b = None.
Proof.
  induction l as [|c l IH]; intros i b E F; [reflexivity|]. cbn [uleb leb_read] in *. pose proof (Forall_inv F) as Bc. unfold byte in Bc. destruct (Z.ltb_spec c 128); [discriminate|].
  replace (Z.land c 128 =? 128) with true; [destruct (uleb l) as [[[v' k'] r']|]; [discriminate|]; apply IH; auto; apply (Forall_inv_tail F)|].
  change 128 with (2 ^ 7) at 1 2. rewrite land_pow2 by lia. rewrite testbit_top by (change (2 ^ (7 + 1)) with 256; lia). change (2 ^ 7) with 128. destruct (Z.leb_spec 128 c); [reflexivity|lia].
Qed.
Lemma create_leb_short : forall l s, Forall byte l -> uleb l = None -> create_leb128 l s = None.
Proof. intros l s F E. unfold create_leb128. rewrite leb_read_short; auto. Qed.
Lemma sized_read_ok : forall l j b, Forall byte l -> V b -> 0 <= j -> uval b < 2 ^ (8 * j) -> let r := sized_read l j b in V r /\ uval r = (uval b + 2 ^ (8 * j) * lev l) mod 2 ^ 256.
Proof.
  induction l as [|c l IH]; intros j b F H J U.
  - cbn [sized_read lev]. split; [auto|]. rewrite Z.mul_0_r, Z.add_0_r. symmetry. apply Z.mod_small. apply (V_cases b H).
  - cbn [sized_read lev]. pose proof (Forall_inv F) as Bc. unfold byte in Bc. replace (j * 8) with (8 * j) by lia. destruct (store_step b 8 (8 * j) c H ltac:(lia) ltac:(lia) U) as (A1 & A2 & A3). change (2 ^ 8) with 256 in A2. rewrite (Z.mod_small c) in A2 by lia.
    replace (8 * j + 8) with (8 * (j + 1)) in A3 by lia. destruct (IH (j + 1) _ (Forall_inv_tail F) A1 ltac:(lia) A3) as [B1 B2]. split; [auto|]. rewrite B2, A2. rewrite Z.add_mod_idemp_l by discriminate. f_equal. replace (8 * (j + 1)) with (8 * j + 8) by lia. rewrite Z.pow_add_r by lia. change (2 ^ 8) with 256. ring.
Qed.
Lemma last_bit : forall l, Forall byte l -> l <> [] -> (Z.land (last l 0) 128 =? 128) = (2 ^ (8 * Z.of_nat (length l) - 1) <=? lev l).
Proof.
  induction l as [|c l IH]; intros F N; [congruence|]. destruct l as [|d l].
  - cbn [last lev length]. pose proof (Forall_inv F) as Bc. unfold byte in Bc. change 128 with (2 ^ 7) at 1 2. rewrite land_pow2 by lia. rewrite testbit_top by (change (2 ^ (7 + 1)) with 256; lia). change (8 * Z.of_nat 1 - 1) with 7. change (2 ^ 7) with 128. destruct (Z.leb_spec 128 c), (Z.leb_spec 128 (c + 256 * 0)); try lia; reflexivity.
  - change (last (c :: d :: l) 0) with (last (d :: l) 0). rewrite IH by (try apply (Forall_inv_tail F); discriminate). remember (d :: l) as t. cbn [lev length]. rewrite Nat2Z.inj_succ. replace (8 * Z.succ (Z.of_nat (length t)) - 1) with (8 + (8 * Z.of_nat (length t) - 1)) by lia. assert (1 <= Z.of_nat (length t)) by (subst t; cbn [length]; lia).
    rewrite Z.pow_add_r by lia. change (2 ^ 8) with 256. pose proof (Forall_inv F) as Bc. unfold byte in Bc. destruct (Z.leb_spec (2 ^ (8 * Z.of_nat (length t) - 1)) (lev t)), (Z.leb_spec (256 * 2 ^ (8 * Z.of_nat (length t) - 1)) (c + 256 * lev t)); auto; lia.
Qed.
Theorem create_sized_ok : forall l s, Forall byte l -> l <> [] -> let n := Z.of_nat (length l) in exists i, create_sized l s = (i, 32 <? n) /\ canon i /\ ival i = if s && (n <? 32) then sgn (8 * n) (lev l) else wrap256 (lev l).
Proof.
  intros l s F N n. destruct V_empty as [VE UE]. destruct (sized_read_ok l 0 (Empty scratch) F VE ltac:(lia) ltac:(rewrite UE; reflexivity)) as [A1 A2]. rewrite UE, Z.pow_0_r, Z.mul_1_l, Z.add_0_l in A2.
  assert (N1 : 1 <= n) by (unfold n; destruct l; [congruence|cbn [length]; lia]). pose proof (lev_range l F) as LR. fold n in LR. rewrite pow256 in LR by lia.
  unfold create_sized. cbv zeta. fold n. rewrite last_bit by auto. fold n. replace (n * 8) with (8 * n) by lia. assert (E1 : (NATIVE <? 8 * n) = (32 <? n)) by (unfold NATIVE; destruct (Z.ltb_spec 256 (8 * n)), (Z.ltb_spec 32 n); auto; lia). assert (E2 : (8 * n <? NATIVE) = (n <? 32)) by (unfold NATIVE; destruct (Z.ltb_spec (8 * n) 256), (Z.ltb_spec n 32); auto; lia). rewrite E1, E2.
  set (b := sized_read l 0 (Empty scratch)) in *.
  destruct (Z.ltb_spec n 32); cbn [andb].
  - assert (PK : 2 ^ (8 * n) <= 2 ^ 248) by (apply Z.pow_le_mono_r; lia). assert (P252 : 2 ^ 248 < 2 ^ 255) by reflexivity. assert (P256 : 2 ^ 256 = 2 * 2 ^ 255) by reflexivity. rewrite Z.mod_small in A2 by lia.
    assert (P7 : 2 ^ (8 * n) = 2 * 2 ^ (8 * n - 1)) by (rewrite <- Z.pow_succ_r by lia; f_equal; lia). rewrite sgn_half by lia. destruct s; cbn [andb].
    + destruct (Z.leb_spec (2 ^ (8 * n - 1)) (lev l)), (Z.ltb_spec (lev l) (2 ^ (8 * n - 1))); try lia.
      * destruct (fill_val b (8 * n) A1 ltac:(lia) ltac:(lia)) as [F1 F2]. destruct (frombv_ok _ F1) as [B1 B2]. eexists. split; [reflexivity|]. split; [auto|]. rewrite B2, F2, A2. reflexivity.
      * destruct (frombv_ok b A1) as [B1 B2]. eexists. split; [reflexivity|]. split; [auto|]. rewrite B2, <- A2. apply small_sval; auto. lia.
    + destruct (frombv_ok b A1) as [B1 B2]. eexists. split; [reflexivity|]. split; [auto|]. rewrite B2. rewrite wrap_id by lia. rewrite <- A2. apply small_sval; auto. lia.
  - destruct (frombv_ok b A1) as [B1 B2]. eexists. split; [reflexivity|]. split; [auto|]. rewrite andb_false_r. rewrite B2. apply V_sval; auto.
Qed.
(** ** Character constants *)
Lemma land255 : forall c, byte c -> Z.land c 255 = c.
Proof. intros c B. unfold byte in B. change 255 with (2 ^ 8 - 1). rewrite land_mask by lia. apply Z.mod_small. change (2 ^ 8) with 256. lia. Qed.
Lemma nasm_big_ok : forall r b, Forall byte r -> V b -> let x := nasm_big r b in V x /\ uval x = (lev (rev r) + 256 ^ Z.of_nat (length r) * uval b) mod 2 ^ 256.
Proof.
  induction r as [|c r IH]; intros b F H.
  - cbn [nasm_big rev lev length]. split; [auto|]. change (256 ^ Z.of_nat 0) with 1. rewrite Z.mul_1_l, Z.add_0_l. symmetry. apply Z.mod_small. apply (V_cases b H).
  - cbn [nasm_big]. pose proof (Forall_inv F) as Bc. rewrite land255 by auto. unfold byte in Bc. assert (H0 := H). destruct H0 as [W B]. destruct (Move_Left_ok b 8 W ltac:(lia)) as (M1 & M2 & M3). rewrite B in M3. set (m := Move_Left b 8) in *.
    destruct (Chunk_Store_ok m 8 0 c M1 ltac:(lia) ltac:(lia)) as (A1 & A2 & A3). rewrite M2, B in A2, A3. change (chunk_len 256 0 8) with 8 in A3.
    assert (EV : uval (Chunk_Store m 8 0 c) = (c + 256 * uval b) mod 2 ^ 256).
    { apply Z.bits_inj'. intros p P. rewrite A3, M3, !mod_pow2_testbit by lia. replace (c + 256 * uval b) with (c + 2 ^ 8 * uval b) by reflexivity. rewrite testbit_add_shift by (change (2 ^ 8) with 256; lia). rewrite Z.sub_0_r. destruct (Z.leb_spec 0 p); [|lia]. cbn [andb]. change (0 + 8) with 8. destruct (Z.ltb_spec p 8).
      - destruct (Z.ltb_spec p 256); [auto|lia].
      - rewrite <- Z.shiftl_mul_pow2, Z.shiftl_spec by lia. reflexivity. }
    destruct (IH _ (Forall_inv_tail F) (conj A1 A2)) as [B1 B2]. split; [auto|]. rewrite B2, EV. cbn [rev length]. rewrite lev_app, rev_length. cbn [lev]. rewrite Nat2Z.inj_succ, Z.pow_succ_r by lia. rewrite <- Z.add_mod_idemp_r, Z.mul_mod_idemp_r, Z.add_mod_idemp_r by discriminate. f_equal. ring.
Qed.
Definition chars_value (s : list Z) (i : intnum) : Prop := ival i = wrap256 (lev s) /\ ((length s <= 3)%nat -> canon i) /\ ((3 < length s)%nat -> exists v, i = IB v /\ wf v /\ bits v = 256).
Lemma nasm_ok : forall s, Forall byte s -> snd (charconst_nasm s) = (32 <? Z.of_nat (length s)) /\ chars_value s (fst (charconst_nasm s)).
Proof.
  intros s F. split. { unfold charconst_nasm. cbn [snd]. unfold NATIVE. destruct (Z.ltb_spec 256 (8 * Z.of_nat (length s))), (Z.ltb_spec 32 (Z.of_nat (length s))); auto; lia. }
  unfold chars_value. assert (BIG : (3 < length s)%nat -> fst (charconst_nasm s) = IB (nasm_big (rev s) (Empty scratch))) by (intros L; destruct s as [|a [|b [|c [|d s]]]]; cbn [length] in L; try lia; reflexivity).
  destruct (le_lt_dec (length s) 3) as [L|L].
  - assert (S8 : forall x y, byte x -> 0 <= y < 2 ^ 24 -> Z.lor (Z.shiftl y 8) (Z.land x 255) = x + 256 * y). { intros x y X Y. rewrite land255 by auto. unfold byte in X. rewrite Z.shiftl_mul_pow2, Z.lor_comm, Z.mul_comm by lia. rewrite lor_low by (change (2 ^ 8) with 256; lia). reflexivity. }
    assert (E : fst (charconst_nasm s) = IL (lev s)).
    { destruct s as [|a [|b [|c [|d s]]]]; cbn [length] in L; try lia; unfold charconst_nasm; cbn [fst lev]; repeat match goal with F : Forall byte (_ :: _) |- _ => apply Forall_cons_iff in F; destruct F end; f_equal.
      - rewrite land255 by auto. lia.
      - rewrite (land255 b), S8 by (auto; unfold byte in *; lia). lia.
      - rewrite (land255 c), !S8 by (auto; unfold byte in *; rewrite ?S8 by (auto; unfold byte in *; lia); lia). lia. }
    pose proof (lev_range s F) as LR. assert (256 ^ Z.of_nat (length s) <= 256 ^ 3) by (apply Z.pow_le_mono_r; lia). change (256 ^ 3) with 16777216 in *. rewrite E. cbn [ival canon]. split; [symmetry; apply wrap_id; assert (2 ^ 32 < 2 ^ 255) by reflexivity; lia|]. split; [intros; lia|lia].
  - rewrite BIG by auto. destruct V_empty as [VE UE]. destruct (nasm_big_ok (rev s) (Empty scratch) (Forall_rev F) VE) as [A1 A2]. rewrite UE, Z.mul_0_r, Z.add_0_r, rev_involutive in A2. split; [cbn [ival]; apply V_sval; auto|]. split; [lia|]. intros _. eexists. split; [reflexivity|exact A1].
Qed.
Lemma tasm_big_ok : forall s b, Forall byte s -> V b -> uval b mod 2 ^ Z.min (8 * Z.of_nat (length s)) 256 = 0 -> let x := tasm_big s b in V x /\ uval x = (uval b + lev (rev s)) mod 2 ^ 256.
Proof.
  induction s as [|c t IH]; intros b F H D.
  - cbn [tasm_big rev lev]. split; [auto|]. rewrite Z.add_0_r. symmetry. apply Z.mod_small. apply (V_cases b H).
  - cbn [tasm_big]. pose proof (Forall_inv F) as Bc. rewrite land255 by auto. unfold byte in Bc. cbn [length] in D. set (off := 8 * Z.of_nat (length t)) in *. replace (8 * Z.of_nat (S (length t))) with (off + 8) in D by lia. assert (H0 := H). destruct H0 as [W B].
    assert (LR : lev (rev (c :: t)) = lev (rev t) + 2 ^ off * c). { cbn [rev]. rewrite lev_app, rev_length. cbn [lev]. rewrite pow256 by lia. fold off. lia. } rewrite LR. clear LR.
    assert (Q : let r := Chunk_Store b 8 off c in V r /\ uval r = (uval b + 2 ^ off * c) mod 2 ^ 256 /\ uval r mod 2 ^ Z.min off 256 = 0).
    { intros r. destruct (Z.lt_ge_cases off 256) as [L|L].
      - assert (OM : off + 8 <= 256) by lia. rewrite Z.min_l in D by lia. pose proof (pow2_pos (off + 8) ltac:(lia)) as PP. pose proof (Z.div_mod (uval b) (2 ^ (off + 8)) ltac:(lia)) as DM. rewrite D, Z.add_0_r in DM. set (q := uval b / 2 ^ (off + 8)) in *. rewrite Z.pow_add_r in DM by lia. change (2 ^ 8) with 256 in DM.
        destruct (Chunk_Store_ok b 8 off c W ltac:(lia) ltac:(lia)) as (A1 & A2 & A3). fold r in A1, A2, A3. rewrite B in A2, A3. replace (chunk_len 256 off 8) with 8 in A3 by (unfold chunk_len; lia).
        assert (EV : uval r = (uval b + 2 ^ off * c) mod 2 ^ 256).
        { apply Z.bits_inj'. intros p P. rewrite A3, mod_pow2_testbit by lia. rewrite DM. replace (2 ^ off * 256 * q + 2 ^ off * c) with (0 + 2 ^ off * (c + 2 ^ 8 * q)) by (change (2 ^ 8) with 256; ring). rewrite testbit_add_shift by (try lia; (split; [lia|apply pow2_pos; lia])). replace (2 ^ off * 256 * q) with (0 + 2 ^ off * (0 + 2 ^ 8 * q)) by (change (2 ^ 8) with 256; ring). rewrite testbit_add_shift by (try lia; (split; [lia|apply pow2_pos; lia])).
          destruct (Z.leb_spec off p), (Z.ltb_spec p off); try lia; cbn [andb].
          - rewrite !testbit_add_shift by (try lia; change (2 ^ 8) with 256; lia). destruct (Z.ltb_spec p (off + 8)), (Z.ltb_spec (p - off) 8); try lia.
            + destruct (Z.ltb_spec p 256); [auto|lia].
            + destruct (Z.ltb_spec p 256); [auto|]. cbn [andb]. assert (U : Z.testbit (uval b) p = false) by (apply (testbit_small 256); [apply (V_cases b H)|lia]). rewrite DM in U. replace (2 ^ off * 256 * q) with (0 + 2 ^ off * (0 + 2 ^ 8 * q)) in U by (change (2 ^ 8) with 256; ring). rewrite testbit_add_shift in U by (try lia; (split; [lia|apply pow2_pos; lia])). destruct (Z.ltb_spec p off); [lia|]. rewrite testbit_add_shift in U by (try lia; change (2 ^ 8) with 256; lia). destruct (Z.ltb_spec (p - off) 8); [lia|]. auto.
          - rewrite Z.bits_0. rewrite andb_false_r. auto. }
        split; [split; auto|]. split; [auto|]. rewrite Z.min_l by lia. rewrite EV. replace (2 ^ 256) with (2 ^ off * 2 ^ (256 - off)) by (rewrite <- Z.pow_add_r by lia; f_equal; lia). rewrite DM. replace (2 ^ off * 256 * q + 2 ^ off * c) with (2 ^ off * (256 * q + c)) by ring. rewrite Z.mul_mod_distr_l by (apply Z.pow_nonzero; lia). rewrite Z.mul_comm. apply Z.mod_mul. apply Z.pow_nonzero; lia.
      - rewrite Z.min_r in D by lia. unfold r, Chunk_Store. rewrite B. destruct (Z.ltb_spec off 256); [lia|]. rewrite andb_false_r. split; [auto|]. rewrite Z.min_r by lia. split; [|auto]. destruct (mod_add_drop (uval b) off 0 c ltac:(lia)) as [E|E]; [|lia]. rewrite Z.add_0_r in E. rewrite E. symmetry. apply Z.mod_small. apply (V_cases b H). }
    cbv zeta in Q. destruct Q as (Q1 & Q2 & Q3). destruct (IH _ (Forall_inv_tail F) Q1 Q3) as [B1 B2]. split; [auto|]. rewrite B2, Q2. rewrite Z.add_mod_idemp_l by discriminate. f_equal. lia.
Qed.
Lemma tasm_ok : forall s, Forall byte s -> snd (charconst_tasm s) = (32 <? Z.of_nat (length s)) /\ chars_value (rev s) (fst (charconst_tasm s)).
Proof.
  intros s F. split. { unfold charconst_tasm. cbn [snd]. unfold NATIVE. destruct (Z.ltb_spec 256 (8 * Z.of_nat (length s))), (Z.ltb_spec 32 (Z.of_nat (length s))); auto; lia. }
  unfold chars_value. rewrite rev_length. assert (BIG : (3 < length s)%nat -> fst (charconst_tasm s) = IB (tasm_big s (Empty scratch))) by (intros L; destruct s as [|a [|b [|c [|d s]]]]; cbn [length] in L; try lia; reflexivity).
  destruct (le_lt_dec (length s) 3) as [L|L].
  - assert (S8 : forall x y, byte x -> 0 <= y < 2 ^ 24 -> Z.lor (Z.shiftl y 8) (Z.land x 255) = x + 256 * y). { intros x y X Y. rewrite land255 by auto. unfold byte in X. rewrite Z.shiftl_mul_pow2, Z.lor_comm, Z.mul_comm by lia. rewrite lor_low by (change (2 ^ 8) with 256; lia). reflexivity. }
    assert (E : fst (charconst_tasm s) = IL (lev (rev s))).
    { destruct s as [|a [|b [|c [|d s]]]]; cbn [length] in L; try lia; unfold charconst_tasm; cbn [fst rev app lev]; repeat match goal with F : Forall byte (_ :: _) |- _ => apply Forall_cons_iff in F; destruct F end; f_equal.
      - rewrite land255 by auto. lia.
      - rewrite (land255 a), S8 by (auto; unfold byte in *; lia). lia.
      - rewrite (land255 a), !S8 by (auto; unfold byte in *; rewrite ?S8 by (auto; unfold byte in *; lia); lia). lia. }
    pose proof (lev_range (rev s) (Forall_rev F)) as LR. rewrite rev_length in LR. assert (256 ^ Z.of_nat (length s) <= 256 ^ 3) by (apply Z.pow_le_mono_r; lia). change (256 ^ 3) with 16777216 in *. rewrite E. cbn [ival canon]. split; [symmetry; apply wrap_id; assert (2 ^ 32 < 2 ^ 255) by reflexivity; lia|]. split; [intros; lia|lia].
  - rewrite BIG by auto. destruct V_empty as [VE UE]. destruct (tasm_big_ok s (Empty scratch) F VE ltac:(rewrite UE; apply Z.mod_0_l; apply Z.pow_nonzero; lia)) as [A1 A2]. rewrite UE, Z.add_0_l in A2. split; [cbn [ival]; apply V_sval; auto|]. split; [lia|]. intros _. eexists. split; [reflexivity|exact A1].
Qed.
(** ** Digit strings *)
Lemma frombv_parsed : forall b n, V b -> uval b = n mod 2 ^ 256 -> canon (frombv b) /\ ival (frombv b) = wrap256 n.
Proof. intros b n H U. destruct (frombv_ok b H) as [A B]. split; auto. rewrite B. apply V_sval; auto. Qed.
Theorem create_digits : forall s, Forall chr s ->
  (forallb is_hex (clean s) = true -> exists i, create_hex s = (i, Ok) /\ canon i /\ ival i = wrap256 (number 16 (clean s))) /\
  (forallb is_oct (clean s) = true -> exists i, create_oct s = (i, Ok) /\ canon i /\ ival i = wrap256 (number 8 (clean s))) /\
  (forallb is_bin (clean s) = true -> exists i, create_bin s = (i, Ok) /\ canon i /\ ival i = wrap256 (number 2 (clean s))).
Proof.
  intros s F. destruct V_scratch as [[W B] _]. destruct (parse_value scratch s W F) as (P1 & P2 & P3). rewrite B in *. destruct (from_Hex_ok scratch s W) as (H1 & H2 & _). destruct (from_Oct_ok scratch s W F) as (O1 & O2 & _). destruct (from_Bin_ok scratch s W) as (B1 & B2 & _). rewrite B in *.
  split; [|split]; intros D.
  - destruct (P1 D) as [E1 E2]. unfold create_hex. destruct (from_Hex scratch (rev s)) as [b e]. cbn [fst snd] in *. subst e. eexists. split; [reflexivity|]. apply frombv_parsed; [split; congruence|auto].
  - destruct (P2 D) as [E1 E2]. unfold create_oct. destruct (from_Oct scratch (rev s)) as [b e]. cbn [fst snd] in *. subst e. eexists. split; [reflexivity|]. apply frombv_parsed; [split; congruence|auto].
  - destruct (P3 D) as [E1 E2]. unfold create_bin. destruct (from_Bin scratch (rev s)) as [b e]. cbn [fst snd] in *. subst e. eexists. split; [reflexivity|]. apply frombv_parsed; [split; congruence|auto].
Qed.
Theorem create_decimal : forall c s, forallb is_dec (c :: s) = true -> c <> 48 \/ s = [] ->
  let n := number 10 (c :: s) in
  (n < 2 ^ 256 -> exists i, create_dec (c :: s) = (i, Ok) /\ canon i /\ ival i = wrap256 n) /\
  (2 ^ 256 <= n -> snd (create_dec (c :: s)) = Ovfl).
Proof.
  intros c s D C n. destruct V_scratch as [[W B] _]. destruct (from_Dec_ok scratch (c :: s) 256 W B ltac:(lia) ltac:(discriminate)) as (b & e & E & A & _). destruct (A D) as (A1 & A2 & A3 & A4). fold n in A3, A4.
  assert (NN : 0 <= n) by (apply number_nonneg; [lia|auto]).
  unfold create_dec. rewrite E. cbn [snd]. split; [|intros; apply A4; auto]. intros L. assert (T : 10 ^ (9 * ((Z.of_nat (length (c :: s)) - 1) / 9)) < 2 ^ 256).
  { destruct C as [C | ->]; [|reflexivity]. destruct (from_Dec_nlz scratch c s W ltac:(rewrite B; lia) D C) as (b' & e' & E' & N1 & _). fold n in N1. rewrite B in N1. destruct (N1 L) as [N2 _]. rewrite E in E'. injection E' as <- <-.
    destruct (Z.lt_ge_cases (10 ^ (9 * ((Z.of_nat (length (c :: s)) - 1) / 9))) (2 ^ 256)); auto. rewrite A4 in N2 by auto. discriminate. }
  destruct (A3 T L) as [-> U]. eexists. split; [reflexivity|]. apply frombv_parsed; [split; auto|]. rewrite U. symmetry. apply Z.mod_small. lia.
Qed.
(** * Witnesses *)
Definition big (n : Z) : bv := BV 256 [0; 0; 0; 0; 0; 0; 0; n].
Definition low (n : Z) : bv := BV 256 [n; 0; 0; 0; 0; 0; 0; 0].
Lemma canon_IB : forall v, wfb v = true -> bits v = 256 -> sval v <=? - 2 ^ 31 = true \/ 2 ^ 31 <=? sval v = true -> canon (IB v).
Proof. intros v W B C. cbn [canon]. split; [apply wfb_ok; auto|]. split; [auto|]. destruct C as [C|C]; apply Z.leb_le in C; lia. Qed.
Lemma mul_refuted : exists a b r, canon a /\ canon b /\ calc scratch a MUL (Some b) = (r, 0, NoErr) /\ ival r <> wrap256 (ival a * ival b).
Proof.
  exists (IB (big 1073741824)), (IL 3), (fst (fst (calc scratch (IB (big 1073741824)) MUL (Some (IL 3))))).
  split; [apply canon_IB; [vm_compute; reflexivity|reflexivity|right; vm_compute; reflexivity]|]. split; [cbn; lia|]. split; [vm_compute; reflexivity|]. vm_compute. discriminate.
Qed.
Lemma div_far : forall n, 3 <= n -> -8 / 2 ^ n = -1.
Proof. intros n N. symmetry. apply (Z.div_unique _ _ _ (2 ^ n - 8)); [left|lia]. assert (2 ^ 3 <= 2 ^ n) by (apply Z.pow_le_mono_r; lia). change (2 ^ 3) with 8 in *. lia. Qed.
Lemma shr_refuted : exists a b r, canon a /\ canon b /\ 0 <= ival b /\ calc scratch a SHR (Some b) = (r, 0, NoErr) /\ ival a / 2 ^ ival b = -1 /\ ival r = 0.
Proof.
  exists (IL (-8)), (IB (low 2147483648)), (IL 0). split; [cbn; lia|]. split; [apply canon_IB; [vm_compute; reflexivity|reflexivity|right; vm_compute; reflexivity]|]. split; [vm_compute; discriminate|]. split; [vm_compute; reflexivity|]. split; [|reflexivity].
  cbn [ival]. replace (sval (low 2147483648)) with 2147483648 by (vm_compute; reflexivity). apply div_far. vm_compute. discriminate.
Qed.
Lemma uint_refuted : exists u r, 0 <= u < 2 ^ 64 /\ calc scratch (create_uint u) ADD (Some (create_uint 0)) = (r, 0, NoErr) /\ ival r <> u /\ get_uint r <> u.
Proof. exists (2 ^ 32), (IL 0). split; [lia|]. split; [vm_compute; reflexivity|]. split; vm_compute; discriminate. Qed.
Lemma get_uint_refuted : exists i, canon i /\ 0 <= ival i < 2 ^ 64 /\ get_uint i = 5 /\ ival i = 2 ^ 32 + 5.
Proof. exists (IB (BV 256 [5; 1; 0; 0; 0; 0; 0; 0])). split; [apply canon_IB; [vm_compute; reflexivity|reflexivity|right; vm_compute; reflexivity]|]. split; [split; [vm_compute; discriminate|vm_compute; reflexivity]|]. split; vm_compute; reflexivity. Qed.
Lemma set_uint_refuted : exists i u, canon i /\ 0 <= u < 2 ^ 64 /\ ival (set_uint i u) <> u /\ ival (set_uint i u) <> u mod 2 ^ 32.
Proof. exists (IB (BV 256 [5; 7; 9; 0; 0; 0; 0; 0])), (2 ^ 63 + 1). split; [apply canon_IB; [vm_compute; reflexivity|reflexivity|right; vm_compute; reflexivity]|]. split; [lia|]. split; vm_compute; discriminate. Qed.
Lemma in_range_refuted : exists i low high, canon i /\ - 2 ^ 63 <= low < 2 ^ 63 /\ - 2 ^ 63 <= high < 2 ^ 63 /\ in_range i low high = true /\ ival i < low.
Proof. exists (IL 5), (2 ^ 32), (2 ^ 32 + 10). split; [cbn; lia|]. split; [lia|]. split; [lia|]. split; vm_compute; reflexivity. Qed.
Lemma minimal_refuted : exists i l l', canon i /\ intnum_leb128 i true = Some l /\ leb true l' = Some (ival i, Z.of_nat (length l'), []) /\ Forall byte l' /\ (length l' < length l)%nat.
Proof. exists (IL (-64)), [192; 127], [64]. split; [cbn; lia|]. split; [vm_compute; reflexivity|]. split; [vm_compute; reflexivity|]. split; [repeat constructor; unfold byte; lia|cbn; lia]. Qed.
Lemma sleb_refuted : exists i l, canon i /\ intnum_leb128 i true = Some l /\ leb true l = Some (ival i + 2 ^ 256, 37, []).
Proof.
  exists (IB (big 4160749568)), (match intnum_leb128 (IB (big 4160749568)) true with Some l => l | None => [] end). split; [apply canon_IB; [vm_compute; reflexivity|reflexivity|left; vm_compute; reflexivity]|]. split; vm_compute; reflexivity.
Qed.
Lemma uleb_overrun_refuted : exists v, 0 < v < 2 ^ 64 /\ get_uleb128 v = None.
Proof. exists (2 ^ 32). split; [lia|]. vm_compute. reflexivity. Qed.
Lemma mutate_refuted : exists i buf out i' ws, canon i /\ Forall byte buf /\ get_sized i buf 16 (-4) 0 = Some (out, i', ws) /\ ival i' <> ival i.
Proof.
  exists (IB (BV 256 [0; 1; 0; 0; 0; 0; 0; 0])), [0; 0]. destruct (get_sized (IB (BV 256 [0; 1; 0; 0; 0; 0; 0; 0])) [0; 0] 16 (-4) 0) as [[[out i'] ws]|] eqn:E; [|exfalso; revert E; vm_compute; discriminate].
  exists out, i', ws. split; [apply canon_IB; [vm_compute; reflexivity|reflexivity|right; vm_compute; reflexivity]|]. split; [repeat constructor; unfold byte; lia|]. split; [auto|]. revert E. vm_compute. intros [= _ <- _]. discriminate.
Qed.
Lemma charconst_refuted : (exists s, Forall byte s /\ lev s = 1684234849 /\ get_int (fst (charconst_nasm s)) = LONG_MAX) /\ (exists s, Forall byte s /\ lev s = 0 /\ is_zero (fst (charconst_nasm s)) = false).
Proof.
  split; [exists [97; 98; 99; 100]|exists [0; 0; 0; 0]]; (split; [repeat constructor; unfold byte; lia|]); split; vm_compute; reflexivity.
Qed.
