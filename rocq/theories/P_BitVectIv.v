(** Proofs for the interval operations of bitvect.c (used by C07, C54). *)
From Coq Require Import ZArith List Bool Lia.
From Verif Require Import Lib LibBits M_BitVect P_BitVect P_BitVectIO M_BitVectIv.
Import ListNotations.
Open Scope Z_scope.

(** Bit [p] of a list of words *)
Definition wb (ws : list Z) (p : Z) : bool := Z.testbit (nth (Z.to_nat (p / 32)) ws 0) (p mod 32).
Lemma nth_setnth : forall l k j w, (k < length l)%nat -> nth j (setnth k w l) 0 = if Nat.eqb j k then w else nth j l 0.
Proof.
  induction l as [|h l IH]; intros k j w L; cbn [length] in L; [lia|]. destruct k, j; cbn [setnth nth Nat.eqb]; auto. apply IH. lia.
Qed.
Lemma wb_setnth : forall X b w p, 0 <= b < Z.of_nat (length X) -> 0 <= p -> wb (setnth (Z.to_nat b) w X) p = if p / 32 =? b then Z.testbit w (p mod 32) else wb X p.
Proof.
  intros X b w p B P. unfold wb. rewrite nth_setnth by lia. pose proof (Z.div_pos p 32 P ltac:(lia)).
  destruct (Z.eqb_spec (p / 32) b) as [E|E]; destruct (Nat.eqb_spec (Z.to_nat (p / 32)) (Z.to_nat b)); auto; try lia.
Qed.
Lemma divmod32 : forall p, p = 32 * (p / 32) + p mod 32 /\ 0 <= p mod 32 < 32.
Proof. intros. split; [apply Z.div_mod; lia|apply Z.mod_pos_bound; lia]. Qed.
Lemma clear_mask_bit : forall w l u i, word w -> 0 <= l -> l <= u -> u < 32 -> 0 <= i -> 
  let m := Z.land (himask l) (wnot (himask (u + 1))) in word m /\ Z.testbit m i = (l <=? i) && (i <=? u).
Proof.
  intros w l u i W L LU U I m. split.
  - pose proof (himask_word l) as H1. pose proof (wnot_word _ (himask_word (u + 1))) as H2. unfold word in *. apply land_lt_pow2; auto; lia.
  - unfold m. rewrite Z.land_spec, himask_bit, wnot_bit, himask_bit by (auto using himask_word; lia).
    destruct (Z.leb_spec l i), (Z.ltb_spec i 32), (Z.leb_spec (u + 1) i), (Z.leb_spec i u); cbn; auto; lia.
Qed.
Lemma land_word : forall a b, word a -> 0 <= b -> word (Z.land a b).
Proof.
  intros a b A B. unfold word in *. split; [apply Z.land_nonneg; lia|]. apply (range_of_bits 32); [lia|apply Z.land_nonneg; lia|].
  intros i I. rewrite Z.land_spec, (testbit_small 32) by (auto; lia). reflexivity.
Qed.

Section Copy.
Variable asc : bool.
Variables X0 Y : list Z.
Variables xo yo len : Z.
Hypothesis FX : Forall word X0.
Hypothesis FY : Forall word Y.
Hypothesis Lx : 0 <= xo.
Hypothesis Ly : 0 <= yo.
Hypothesis Ln : 0 < len.
Hypothesis CX : xo + len <= 32 * Z.of_nat (length X0).
Hypothesis CY : yo + len <= 32 * Z.of_nat (length Y).
Notation hi := (xo + (len - 1)).
Notation yhi := (yo + (len - 1)).
Notation slo := (yo / 32). Notation shi := (yhi / 32). Notation slob := (yo mod 32). Notation shib := (yhi mod 32).
Notation tlo := (xo / 32). Notation thi := (hi / 32). Notation tlob := (xo mod 32). Notation thib := (hi mod 32).

Definition copied (d p : Z) : bool := if asc then p <? xo + d else hi - d <? p.
(** What position [p] holds when [d] bits have been copied and word [b] is being assembled *)
Definition content (d b p : Z) : bool :=
  if (xo <=? p) && (p <=? hi) then
    if copied d p then wb Y (p - xo + yo) else if p / 32 =? b then false else wb X0 p
  else wb X0 p.
(** Bounds in a word [b] of the interval [o, o + len) when [d] bits have been handled *)
Definition bounds (o d b l u n : Z) : Prop :=
  0 <= n /\ l + n = u + 1 /\ o / 32 <= b <= (o + (len - 1)) / 32 /\
  if asc then 32 * b + l = o + d /\ 32 * b + u = Z.min (o + (len - 1)) (32 * b + 31) /\ 0 <= l
  else 32 * b + u = o + (len - 1) - d /\ 32 * b + l = Z.max o (32 * b) /\ u <= 31.
Record inv (d : Z) (s : ic) : Prop := {
  i_t : bounds xo d (tb s) (tl_ s) (tu s) (tbits s);
  i_s : bounds yo d (sb s) (sl s) (su s) (sbits s);
  i_src : src s = nth (Z.to_nat (sb s)) Y 0;
  i_X : Forall word (ix s) /\ length (ix s) = length X0;
  i_tgt : word (tgt s);
  i_V : forall p, 0 <= p -> (if p / 32 =? tb s then Z.testbit (tgt s) (p mod 32) else wb (ix s) p) = content d (tb s) p }.

Lemma word_in : forall o b, 0 <= o -> o / 32 <= b <= (o + (len - 1)) / 32 -> 0 <= b /\ (forall n, o + len <= 32 * n -> b < n).
Proof.
  intros o b O B. pose proof (Z.div_pos o 32 O ltac:(lia)). split; [lia|]. intros n N. pose proof (divmod32 (o + (len - 1))). lia.
Qed.
Lemma bounds_range : forall o d b l u n, 0 <= o -> 0 <= d -> d <= len -> 0 < n -> bounds o d b l u n -> 0 <= l /\ l <= u /\ u <= 31 /\ 32 * b + l >= o /\ 32 * b + u <= o + (len - 1).
Proof.
  intros o d b l u n O D DL N (A & B & C & E). destruct asc.
  - destruct E as (E1 & E2 & E3). lia.
  - destruct E as (E1 & E2 & E3). lia.
Qed.
(** The copying step *)
Lemma copy_step : forall d s, inv d s -> 0 <= d < len -> 0 < tbits s -> 0 < sbits s -> exists n, 0 < n /\ d + n <= len /\ inv (d + n) (ic_copy asc s) /\ notfirst (ic_copy asc s) = true.
Proof.
  intros d s I D T S. destruct (bounds_range _ _ _ _ _ _ Lx (proj1 D) ltac:(lia) T (i_t _ _ I)) as (T1 & T2 & T3 & T4 & T5).
  destruct (bounds_range _ _ _ _ _ _ Ly (proj1 D) ltac:(lia) S (i_s _ _ I)) as (S1 & S2 & S3 & S4 & S5).
  set (n := Z.min (tbits s) (sbits s)). exists n. assert (N : 0 < n) by (unfold n; lia). split; [auto|].
  pose proof (i_t _ _ I) as BT. pose proof (i_s _ _ I) as BS. unfold bounds in BT, BS. destruct BT as (BT1 & BT2 & BT3 & BT4). destruct BS as (BS1 & BS2 & BS3 & BS4).
  assert (DN : d + n <= len) by (destruct asc; lia). split; [auto|].
  set (s_min := if asc then sl s else su s - n + 1). set (t_min := if asc then tl_ s else tu s - n + 1).
  assert (SM : 0 <= s_min /\ s_min + n <= 32) by (unfold s_min, n; destruct asc; lia).
  assert (TM : 0 <= t_min /\ t_min + n <= 32) by (unfold t_min, n; destruct asc; lia).
  unfold ic_copy.
  assert (E : (if tbits s <? sbits s then let b := tbits s - 1 in if asc then (sl s, sl s + b, tl_ s, b + 1) else (su s - b, su s, tl_ s, b + 1)
     else let b := sbits s - 1 in (sl s, su s, if asc then tl_ s else tu s - b, b + 1)) = (s_min, s_min + n - 1, t_min, n)).
  { unfold s_min, t_min, n. destruct (Z.ltb_spec (tbits s) (sbits s)); cbv zeta; destruct asc; repeat match goal with |- (_, _) = (_, _) => apply f_equal2 end; lia. }
  cbv zeta in E |- *. rewrite E. clear E. replace (s_min + n - 1 + 1) with (s_min + n) by lia.
  set (mask := Z.land (himask s_min) (wnot (himask (s_min + n)))). set (piece := Z.land (src s) mask).
  pose proof (i_src _ _ I) as SRC. assert (WS : word (src s)) by (rewrite SRC; apply nth_word; auto).
  assert (PB : forall j, 0 <= j -> Z.testbit piece j = (s_min <=? j) && (j <? s_min + n) && Z.testbit (src s) j).
  { intros j J. unfold piece, mask. rewrite Z.land_spec. destruct (clear_mask_bit (src s) s_min (s_min + n - 1) j WS ltac:(lia) ltac:(lia) ltac:(lia) J) as [_ Q]. replace (s_min + n - 1 + 1) with (s_min + n) in Q by lia. rewrite Q.
    rewrite andb_comm. f_equal. f_equal. destruct (Z.leb_spec j (s_min + n - 1)), (Z.ltb_spec j (s_min + n)); auto; lia. }
  assert (WP : word piece). { apply land_word; auto. unfold mask. apply Z.land_nonneg. left. apply himask_word. }
  set (moved := if s_min =? t_min then piece else if s_min <? t_min then shl piece (t_min - s_min) else shr piece (s_min - t_min)).
  assert (WM : word moved).
  { unfold moved. destruct (s_min =? t_min); auto. destruct (Z.ltb_spec s_min t_min); [apply u32_word|]. unfold shr, word in *. rewrite Z.shiftr_div_pow2 by lia. pose proof (pow2_pos (s_min - t_min) ltac:(lia)). split; [apply Z.div_pos; lia|]. apply Z.le_lt_trans with piece; [|lia]. apply Z.div_le_upper_bound; nia. }
  assert (MB : forall j, 0 <= j -> Z.testbit moved j = (t_min <=? j) && (j <? t_min + n) && Z.testbit (src s) (j - t_min + s_min)).
  { intros j J. unfold moved. destruct (Z.eqb_spec s_min t_min) as [->|Q].
    - rewrite PB by auto. f_equal. f_equal. lia.
    - destruct (Z.ltb_spec s_min t_min).
      + unfold shl. rewrite u32_bit, Z.shiftl_spec by lia. destruct (Z.ltb_spec j (t_min - s_min)).
        * rewrite Z.testbit_neg_r by lia. rewrite andb_false_r. destruct (Z.leb_spec t_min j); [lia|]. reflexivity.
        * rewrite PB by lia. replace (j - (t_min - s_min)) with (j - t_min + s_min) by lia.
          destruct (Z.ltb_spec j 32), (Z.leb_spec s_min (j - t_min + s_min)), (Z.ltb_spec (j - t_min + s_min) (s_min + n)), (Z.leb_spec t_min j), (Z.ltb_spec j (t_min + n)); cbn [andb]; auto; lia.
      + unfold shr. rewrite Z.shiftr_spec, PB by lia. replace (j + (s_min - t_min)) with (j - t_min + s_min) by lia. f_equal.
        destruct (Z.leb_spec s_min (j - t_min + s_min)), (Z.ltb_spec (j - t_min + s_min) (s_min + n)), (Z.leb_spec t_min j), (Z.ltb_spec j (t_min + n)); auto; lia. }
  split; [|reflexivity]. constructor; cbn [tb tl_ tu tbits sb sl su sbits src ix tgt].
  - unfold bounds. unfold n in *. split; [lia|]. split; [destruct asc; lia|]. split; [auto|]. destruct asc; lia.
  - unfold bounds. unfold n in *. split; [lia|]. split; [destruct asc; lia|]. split; [auto|]. destruct asc; lia.
  - auto.
  - apply (i_X _ _ I).
  - unfold word in *. apply lor_lt_pow2; auto; try lia. apply (i_tgt _ _ I).
  - intros p P. pose proof (i_V _ _ I p P) as V. destruct (divmod32 p) as [DM MD]. unfold content in *. fold (copied (d + n) p). fold (copied d p) in V.
    destruct (Z.eqb_spec (p / 32) (tb s)) as [PE|PE].
    + rewrite Z.lor_spec, V, MB by lia. rewrite PE in DM. clear V PE. remember (p mod 32) as j eqn:Ej. clear Ej. subst p.
      assert (POS : 32 * tb s + t_min = if asc then xo + d else hi - d - n + 1) by (unfold t_min; destruct asc; lia).
      assert (SPOS : 32 * sb s + s_min = if asc then yo + d else yhi - d - n + 1) by (unfold s_min; destruct asc; lia).
      assert (SB : 0 <= j - t_min < n -> Z.testbit (src s) (j - t_min + s_min) = wb Y (32 * tb s + j - xo + yo)).
      { intros R. unfold wb. rewrite SRC. replace (32 * tb s + j - xo + yo) with ((j - t_min + s_min) + sb s * 32) by (destruct asc; lia). rewrite Z.div_add, Z.mod_add by lia. rewrite Z.div_small, Z.mod_small by lia. reflexivity. }
      unfold copied in *. destruct (Z.leb_spec t_min j), (Z.ltb_spec j (t_min + n)); cbn [andb]; rewrite ?orb_false_r.
      * rewrite SB by lia. destruct (Z.leb_spec xo (32 * tb s + j)), (Z.leb_spec (32 * tb s + j) hi); cbn [andb]; try (destruct asc; lia).
        destruct asc.
        -- destruct (Z.ltb_spec (32 * tb s + j) (xo + d)), (Z.ltb_spec (32 * tb s + j) (xo + (d + n))); try lia. reflexivity.
        -- destruct (Z.ltb_spec (hi - d) (32 * tb s + j)), (Z.ltb_spec (hi - (d + n)) (32 * tb s + j)); try lia. reflexivity.
      * destruct (Z.leb_spec xo (32 * tb s + j)), (Z.leb_spec (32 * tb s + j) hi); cbn [andb]; auto.
        destruct asc.
        -- destruct (Z.ltb_spec (32 * tb s + j) (xo + d)), (Z.ltb_spec (32 * tb s + j) (xo + (d + n))); try lia; reflexivity.
        -- destruct (Z.ltb_spec (hi - d) (32 * tb s + j)), (Z.ltb_spec (hi - (d + n)) (32 * tb s + j)); try lia; reflexivity.
      * destruct (Z.leb_spec xo (32 * tb s + j)), (Z.leb_spec (32 * tb s + j) hi); cbn [andb]; auto.
        destruct asc.
        -- destruct (Z.ltb_spec (32 * tb s + j) (xo + d)), (Z.ltb_spec (32 * tb s + j) (xo + (d + n))); try lia; reflexivity.
        -- destruct (Z.ltb_spec (hi - d) (32 * tb s + j)), (Z.ltb_spec (hi - (d + n)) (32 * tb s + j)); try lia; reflexivity.
      * lia.
    + rewrite V. destruct (Z.leb_spec xo p), (Z.leb_spec p hi); cbn [andb]; auto. unfold copied. destruct asc.
      * destruct (Z.ltb_spec p (xo + d)), (Z.ltb_spec p (xo + (d + n))); try lia; reflexivity.
      * destruct (Z.ltb_spec (hi - d) p), (Z.ltb_spec (hi - (d + n)) p); try lia; reflexivity.
Qed.
(** A fresh word of the target *)
Lemma t_fresh_ok : forall X b, Forall word X -> 0 <= b -> tlo <= b <= thi -> exists l u n t,
  t_fresh X b tlo thi tlob thib = (l, u, n, t) /\ n = u - l + 1 /\ 0 < n /\ 0 <= l /\ u <= 31 /\
  32 * b + l = Z.max xo (32 * b) /\ 32 * b + u = Z.min hi (32 * b + 31) /\ word t /\
  forall j, 0 <= j < 32 -> Z.testbit t j = if (xo <=? 32 * b + j) && (32 * b + j <=? hi) then false else Z.testbit (nth (Z.to_nat b) X 0) j.
Proof.
  intros X b F B R. unfold t_fresh, BITS. set (w := nth (Z.to_nat b) X 0). assert (W : word w) by (apply nth_word; auto).
  destruct (divmod32 xo) as [D1 M1]. destruct (divmod32 hi) as [D2 M2].
  destruct (Z.eqb_spec b thi) as [E1|E1], (Z.eqb_spec b tlo) as [E2|E2].
  - eexists _, _, _, _. split; [reflexivity|]. split; [lia|]. split; [lia|]. split; [lia|]. split; [lia|]. split; [lia|]. split; [lia|].
    destruct (clear_mask_bit w tlob thib 0 W ltac:(lia) ltac:(lia) ltac:(lia) ltac:(lia)) as [WM _].
    split; [apply land_word; auto; apply wnot_word; auto|]. intros j J. destruct (clear_mask_bit w tlob thib j W ltac:(lia) ltac:(lia) ltac:(lia) ltac:(lia)) as [_ MB].
    rewrite Z.land_spec, wnot_bit, MB by (auto; lia).
    destruct (Z.ltb_spec j 32); [|lia]. destruct (Z.leb_spec tlob j), (Z.leb_spec j thib), (Z.leb_spec xo (32 * b + j)), (Z.leb_spec (32 * b + j) hi); cbn [andb negb]; rewrite ?andb_true_r, ?andb_false_r; auto; lia.
  - eexists _, _, _, _. split; [reflexivity|]. split; [lia|]. split; [lia|]. split; [lia|]. split; [lia|]. split; [lia|]. split; [lia|].
    split; [apply land_word; auto; apply himask_word|]. intros j J. rewrite Z.land_spec, himask_bit by lia.
    destruct (Z.ltb_spec j 32); [|lia]. destruct (Z.leb_spec (thib + 1) j), (Z.leb_spec xo (32 * b + j)), (Z.leb_spec (32 * b + j) hi); cbn [andb negb]; rewrite ?andb_true_r, ?andb_false_r; auto; lia.
  - eexists _, _, _, _. split; [reflexivity|]. split; [lia|]. split; [lia|]. split; [lia|]. split; [lia|]. split; [lia|]. split; [lia|].
    split; [apply land_word; auto; apply wnot_word, himask_word|]. intros j J. rewrite Z.land_spec, wnot_bit, himask_bit by (auto using himask_word; lia).
    destruct (Z.ltb_spec j 32); [|lia]. destruct (Z.leb_spec tlob j), (Z.leb_spec xo (32 * b + j)), (Z.leb_spec (32 * b + j) hi); cbn [andb negb]; rewrite ?andb_true_r, ?andb_false_r; auto; lia.
  - eexists _, _, _, _. split; [reflexivity|]. split; [lia|]. split; [lia|]. split; [lia|]. split; [lia|]. split; [lia|]. split; [lia|].
    split; [unfold word; rewrite p32; lia|]. intros j J. rewrite Z.bits_0. destruct (Z.leb_spec xo (32 * b + j)), (Z.leb_spec (32 * b + j) hi); auto; lia.
Qed.
Lemma s_fresh_ok : forall b, slo <= b <= shi -> exists l u n,
  s_fresh b slo shi slob shib = (l, u, n) /\ n = u - l + 1 /\ 0 < n /\ 0 <= l /\ u <= 31 /\
  32 * b + l = Z.max yo (32 * b) /\ 32 * b + u = Z.min yhi (32 * b + 31).
Proof.
  intros b R. unfold s_fresh, BITS. destruct (divmod32 yo) as [D1 M1]. destruct (divmod32 yhi) as [D2 M2].
  destruct (Z.eqb_spec b shi) as [E1|E1], (Z.eqb_spec b slo) as [E2|E2]; eexists _, _, _; (split; [reflexivity|]); lia.
Qed.
(** The loop from a state in the middle *)
Notation loop := (ic_loop asc Y slo shi slob shib tlo thi tlob thib).
Definition copied_all (X : list Z) : Prop := Forall word X /\ length X = length X0 /\
  forall p, 0 <= p -> wb X p = if (xo <=? p) && (p <=? hi) then wb Y (p - xo + yo) else wb X0 p.
Lemma next_word : forall o d b l u, 0 <= o -> 0 <= d < len -> bounds o d b l u 0 ->
  b <> (if asc then (o + (len - 1)) / 32 else o / 32) /\
  let b' := if asc then b + 1 else b - 1 in o / 32 <= b' <= (o + (len - 1)) / 32 /\ 
  if asc then 32 * b' = o + d else 32 * b' + 31 = o + (len - 1) - d.
Proof.
  intros o d b l u O D (B1 & B2 & B3 & B4). pose proof (divmod32 o). pose proof (divmod32 (o + (len - 1))). destruct asc; cbv zeta; lia.
Qed.
Lemma fresh_bounds : forall o d b l u n, 0 <= o -> 0 <= d < len -> o / 32 <= b <= (o + (len - 1)) / 32 -> n = u - l + 1 -> 0 < n -> 0 <= l -> u <= 31 ->
  32 * b + l = Z.max o (32 * b) -> 32 * b + u = Z.min (o + (len - 1)) (32 * b + 31) ->
  (if asc then 32 * b + l = o + d else 32 * b + u = o + (len - 1) - d) -> bounds o d b l u n.
Proof. intros. unfold bounds. split; [lia|]. split; [lia|]. split; [auto|]. destruct asc; lia. Qed.
Lemma t_refill_ok : forall d s, inv d s -> 0 <= d < len -> notfirst s = true -> exists s', t_refill asc tlo thi tlob thib s = inl s' /\ inv d s' /\ 0 < tbits s' /\ notfirst s' = true /\
  sb s' = sb s /\ sl s' = sl s /\ su s' = su s /\ sbits s' = sbits s.
Proof.
  intros d s I D NF. unfold t_refill. destruct (Z.eqb_spec (tbits s) 0) as [Z0|Z0].
  - rewrite NF. pose proof (i_t _ _ I) as BT. rewrite Z0 in BT. destruct (next_word _ _ _ _ _ Lx D BT) as (N1 & N2). cbv zeta in N2. destruct N2 as [N2 N3].
    destruct (Z.eqb_spec (tb s) (if asc then thi else tlo)) as [Q|_]; [congruence|]. set (b' := if asc then tb s + 1 else tb s - 1) in *.
    destruct (i_X _ _ I) as [IX IL]. pose proof (proj1 (proj2 (proj2 (i_t _ _ I)))) as TR. destruct (word_in xo (tb s) Lx TR) as [W1 W2]. specialize (W2 _ CX). destruct (word_in xo b' Lx N2) as [W3 W4].
    set (X := setnth (Z.to_nat (tb s)) (tgt s) (ix s)). destruct (setnth_word (ix s) (Z.to_nat (tb s)) (tgt s) IX (i_tgt _ _ I)) as [FXX LXX]. fold X in FXX, LXX.
    destruct (t_fresh_ok X b' FXX W3 N2) as (l & u & n & t & E & E1 & E2 & E3 & E4 & E5 & E6 & E7 & E8). rewrite E. eexists. split; [reflexivity|]. cbn [tbits notfirst sb sl su sbits].
    split; [|tauto]. constructor; cbn [tb tl_ tu tbits sb sl su sbits src ix tgt].
    + apply fresh_bounds; auto. pose proof (divmod32 xo). pose proof (divmod32 hi). destruct asc; lia.
    + apply (i_s _ _ I).
    + apply (i_src _ _ I).
    + rewrite LXX. auto.
    + auto.
    + intros p P. destruct (divmod32 p) as [DM MD]. pose proof (i_V _ _ I p P) as V.
      assert (VX : wb X p = content d (tb s) p). { unfold X. rewrite wb_setnth by lia. exact V. }
      assert (CN : forall q, 0 <= q -> q / 32 = tb s -> content d (tb s) q = content d b' q).
      { intros q Q0 Q. unfold content. destruct (Z.eqb_spec (q / 32) (tb s)); [|lia]. destruct (Z.eqb_spec (q / 32) b'); [unfold b' in *; destruct asc; lia|].
        destruct (divmod32 q) as [DQ MQ]. destruct ((xo <=? q) && (q <=? hi)) eqn:IN; auto. unfold copied. unfold bounds in BT.
        destruct asc; [destruct (Z.ltb_spec q (xo + d))|destruct (Z.ltb_spec (hi - d) q)]; auto; lia. }
      destruct (Z.eqb_spec (p / 32) b') as [PE|PE].
      * rewrite E8 by lia. replace (32 * b' + p mod 32) with p by lia. unfold content. destruct (Z.eqb_spec (p / 32) b'); [|lia].
        destruct ((xo <=? p) && (p <=? hi)) eqn:IN.
        -- unfold copied. destruct asc; [destruct (Z.ltb_spec p (xo + d))|destruct (Z.ltb_spec (hi - d) p)]; auto; lia.
        -- rewrite <- PE. fold (wb X p). rewrite VX. unfold content. rewrite IN. reflexivity.
      * rewrite VX. destruct (Z.eqb_spec (p / 32) (tb s)) as [Q|Q]; [apply CN; auto|]. unfold content. destruct (Z.eqb_spec (p / 32) (tb s)), (Z.eqb_spec (p / 32) b'); try lia; auto.
  - exists s. split; [auto|]. split; [auto|]. split; [pose proof (proj1 (i_t _ _ I)); lia|]. tauto.
Qed.
Lemma s_refill_ok : forall d s, inv d s -> 0 <= d < len -> notfirst s = true -> 0 < tbits s -> exists s', s_refill asc Y slo shi slob shib s = inl s' /\ inv d s' /\ 0 < tbits s' /\ 0 < sbits s'.
Proof.
  intros d s I D NF T. unfold s_refill. destruct (Z.eqb_spec (sbits s) 0) as [Z0|Z0].
  - rewrite NF. pose proof (i_s _ _ I) as BS. rewrite Z0 in BS. destruct (next_word _ _ _ _ _ Ly D BS) as (N1 & N2). cbv zeta in N2. destruct N2 as [N2 N3].
    destruct (Z.eqb_spec (sb s) (if asc then shi else slo)) as [Q|_]; [congruence|]. set (b' := if asc then sb s + 1 else sb s - 1) in *.
    destruct (s_fresh_ok b' N2) as (l & u & n & E & E1 & E2 & E3 & E4 & E5 & E6). rewrite E. eexists. split; [reflexivity|]. cbn [tbits sbits]. split; [|auto].
    constructor; cbn [tb tl_ tu tbits sb sl su sbits src ix tgt]; try apply I; auto.
    apply fresh_bounds; auto. pose proof (divmod32 yo). pose proof (divmod32 yhi). destruct asc; lia.
  - exists s. split; [auto|]. split; [auto|]. split; [auto|]. pose proof (proj1 (i_s _ _ I)). lia.
Qed.
Lemma loop_ok : forall fuel d s, inv d s -> 0 <= d <= len -> notfirst s = true -> (Z.to_nat (len - d) < fuel)%nat -> exists X, loop fuel s = Some X /\ copied_all X.
Proof.
  induction fuel as [|f IH]; intros d s I D NF FU; [lia|]. cbn [ic_loop]. destruct (Z.eq_dec d len) as [E|E].
  - subst d. assert (TB : tbits s = 0 /\ tb s = if asc then thi else tlo).
    { pose proof (i_t _ _ I) as (B1 & B2 & B3 & B4). pose proof (divmod32 xo). pose proof (divmod32 hi). destruct asc; lia. }
    destruct TB as [T1 T2]. unfold t_refill. rewrite T1, NF. cbn [Z.eqb]. rewrite T2, Z.eqb_refl. rewrite <- T2. eexists. split; [reflexivity|].
    destruct (i_X _ _ I) as [IX IL]. pose proof (proj1 (proj2 (proj2 (i_t _ _ I)))) as TR. destruct (word_in xo (tb s) Lx TR) as [W1 W2]. specialize (W2 _ CX).
    destruct (setnth_word (ix s) (Z.to_nat (tb s)) (tgt s) IX (i_tgt _ _ I)) as [A B]. split; [auto|]. split; [congruence|]. intros p P. rewrite wb_setnth by lia.
    rewrite (i_V _ _ I p P). unfold content, copied. destruct ((xo <=? p) && (p <=? hi)) eqn:IN; auto. destruct asc; [destruct (Z.ltb_spec p (xo + len))|destruct (Z.ltb_spec (hi - len) p)]; auto; lia.
  - destruct (t_refill_ok d s I ltac:(lia) NF) as (s1 & E1 & I1 & T1 & NF1 & _). rewrite E1. destruct (s_refill_ok d s1 I1 ltac:(lia) NF1 T1) as (s2 & E2 & I2 & T2 & S2). rewrite E2.
    destruct (copy_step d s2 I2 ltac:(lia) T2 S2) as (n & N1 & N2 & I3 & NF3). apply (IH (d + n)); auto; lia.
Qed.
Lemma start_ok : exists X, loop (Z.to_nat len + 1) (IC X0 0 (if asc then tlo else thi) 0 0 0 0 (if asc then slo else shi) 0 0 0 false) = Some X /\ copied_all X.
Proof.
  replace (Z.to_nat len + 1)%nat with (Datatypes.S (Z.to_nat len)) by lia. cbn [ic_loop]. unfold t_refill at 1. cbn [tbits notfirst Z.eqb ix tb src sb sl su sbits].
  pose proof (divmod32 xo) as DX. pose proof (divmod32 hi) as DH. pose proof (divmod32 yo) as DY. pose proof (divmod32 yhi) as DYH.
  set (b := if asc then tlo else thi). assert (RB : tlo <= b <= thi) by (unfold b; destruct asc; lia).
  set (c := if asc then slo else shi). assert (RC : slo <= c <= shi) by (unfold c; destruct asc; lia).
  destruct (word_in xo b Lx RB) as [W1 W2]. destruct (t_fresh_ok X0 b FX W1 RB) as (l & u & n & t & E & E1 & E2 & E3 & E4 & E5 & E6 & E7 & E8). rewrite E.
  unfold s_refill at 1. cbn [tbits notfirst Z.eqb ix tb src sb sl su sbits tgt tl_ tu].
  destruct (s_fresh_ok c RC) as (sl' & su' & sn' & F & F1 & F2 & F3 & F4 & F5 & F6). rewrite F.
  match goal with |- exists X, loop _ (ic_copy asc ?s) = _ /\ _ => assert (I : inv 0 s) end.
  { constructor; cbn [tb tl_ tu tbits sb sl su sbits src ix tgt]; auto.
    - apply fresh_bounds; auto; try lia. unfold b in *. destruct asc; lia.
    - apply fresh_bounds; auto; try lia. unfold c in *. destruct asc; lia.
    - intros p P. destruct (divmod32 p) as [DM MD]. unfold content. destruct (Z.eqb_spec (p / 32) b) as [PE|PE].
      + rewrite E8 by lia. replace (32 * b + p mod 32) with p by lia. destruct ((xo <=? p) && (p <=? hi)) eqn:IN.
        * unfold copied. destruct asc; [destruct (Z.ltb_spec p (xo + 0))|destruct (Z.ltb_spec (hi - 0) p)]; auto; lia.
        * rewrite <- PE. reflexivity.
      + destruct ((xo <=? p) && (p <=? hi)) eqn:IN; auto. unfold copied. destruct asc; [destruct (Z.ltb_spec p (xo + 0))|destruct (Z.ltb_spec (hi - 0) p)]; auto; lia. }
  destruct (copy_step 0 _ I ltac:(lia) ltac:(cbn [tbits]; lia) ltac:(cbn [sbits]; lia)) as (m & N1 & N2 & I3 & NF3). apply (loop_ok _ (0 + m)); auto; lia.
Qed.
End Copy.

Lemma Interval_Copy_ok : forall X Y xo yo len, wf X -> wf Y -> 0 <= xo < bits X -> 0 <= yo < bits Y -> 0 < len ->
  let n := Z.min len (Z.min (bits X - xo) (bits Y - yo)) in
  exists r, Interval_Copy X Y xo yo len = Some r /\ wf r /\ bits r = bits X /\
  forall i, 0 <= i -> Z.testbit (uval r) i = if (xo <=? i) && (i <? xo + n) then Z.testbit (uval Y) (i - xo + yo) else Z.testbit (uval X) i.
Proof.
  intros X Y xo yo len WX WY HX HY HL n. unfold Interval_Copy. destruct (Z.ltb_spec 0 len); [|lia]. destruct (Z.ltb_spec xo (bits X)); [|lia]. destruct (Z.ltb_spec yo (bits Y)); [|lia]. cbn [andb].
  assert (EN : (let l1 := if bits X <? xo + len then bits X - xo else len in if bits Y <? yo + l1 then bits Y - yo else l1) = n).
  { unfold n. cbv zeta. destruct (Z.ltb_spec (bits X) (xo + len)). - destruct (Z.ltb_spec (bits Y) (yo + (bits X - xo))); lia. - destruct (Z.ltb_spec (bits Y) (yo + len)); lia. }
  cbv zeta in EN |- *. rewrite EN. rewrite !logbits_eq, !modmask_eq. pose proof (wf_cover X WX) as CX. pose proof (wf_cover Y WY) as CY.
  destruct (start_ok (xo <=? yo) (wds X) (wds Y) xo yo n (proj1 (proj2 (proj2 WX))) (proj1 (proj2 (proj2 WY)))) as (Z & E & A & B & C); try (unfold n; lia).
  rewrite E. eexists. split; [reflexivity|]. destruct WX as (NX & LX & FX & UX).
  assert (T : forall i, 0 <= i -> Z.testbit (wval Z) i = if (xo <=? i) && (i <? xo + n) then Z.testbit (uval Y) (i - xo + yo) else Z.testbit (uval X) i).
  { intros i I. rewrite wval_bit by auto. fold (wb Z i). rewrite C by auto. unfold uval. 
    destruct (Z.leb_spec xo i), (Z.leb_spec i (xo + (n - 1))), (Z.ltb_spec i (xo + n)); cbn [andb]; try lia; rewrite wval_bit; auto; try apply WY; try lia. }
  destruct (wf_mlast (bits X) Z NX ltac:(lia) A) as [WF U]. split; [auto|]. split; [auto|]. intros i I. rewrite U. rewrite mod_pow2_testbit by lia. rewrite <- T by auto.
  destruct (Z.ltb_spec i (bits X)); [reflexivity|]. cbn [andb]. rewrite T by auto. symmetry. destruct (Z.leb_spec xo i), (Z.ltb_spec i (xo + n)); cbn [andb]; try (unfold n in *; lia); apply (testbit_small (bits X)); auto; try lia; split; auto; apply wval_range; auto.
Qed.

(** Filling *)
Lemma fill_words_ok : forall ws k lo hi, Forall word ws -> 0 <= k -> 0 <= lo -> lo <= hi ->
  let r := fill_words k (lo / 32) (hi / 32) (himask (lo mod 32)) (wnot (himask (hi mod 32 + 1))) ws in
  Forall word r /\ length r = length ws /\ forall i, 0 <= i < 32 * Z.of_nat (length ws) -> Z.testbit (wval r) i = ((lo <=? 32 * k + i) && (32 * k + i <=? hi)) || Z.testbit (wval ws) i.
Proof.
  intros ws. induction ws as [|w ws IH]; intros k lo hi F K L H r.
  - cbn in r. subst r. split; [auto|]. split; [auto|]. cbn [length]. lia.
  - pose proof (Forall_inv F) as W. destruct (IH (k + 1) lo hi (Forall_inv_tail F) ltac:(lia) L H) as (A & B & C). subst r. cbn [fill_words].
    destruct (divmod32 lo) as [D1 M1]. destruct (divmod32 hi) as [D2 M2].
    match goal with |- Forall word (?w' :: _) /\ _ => set (w1 := w') end.
    assert (Q : word w1 /\ forall i, 0 <= i < 32 -> Z.testbit w1 i = ((lo <=? 32 * k + i) && (32 * k + i <=? hi)) || Z.testbit w i).
    { unfold w1. pose proof (himask_word (lo mod 32)) as H1. pose proof (wnot_word _ (himask_word (hi mod 32 + 1))) as H2.
      destruct (Z.eqb_spec k (lo / 32)), (Z.eqb_spec k (hi / 32)); cbn [andb].
      - split. { pose proof (land_word _ _ H1 (proj1 H2)) as H3. unfold word in *. apply lor_lt_pow2; auto; lia. }
        intros i I. rewrite Z.lor_spec, Z.land_spec, wnot_bit, !himask_bit by (auto using himask_word; lia). destruct (Z.leb_spec (lo mod 32) i), (Z.leb_spec (hi mod 32 + 1) i), (Z.ltb_spec i 32), (Z.leb_spec lo (32 * k + i)), (Z.leb_spec (32 * k + i) hi), (Z.testbit w i); cbn; auto; lia.
      - split. { unfold word in *. apply lor_lt_pow2; auto; lia. }
        intros i I. rewrite Z.lor_spec, himask_bit by lia. destruct (Z.leb_spec (lo mod 32) i), (Z.ltb_spec i 32), (Z.leb_spec lo (32 * k + i)), (Z.leb_spec (32 * k + i) hi), (Z.testbit w i); cbn; auto; lia.
      - split. { unfold word in *. apply lor_lt_pow2; auto; lia. }
        intros i I. rewrite Z.lor_spec, wnot_bit, himask_bit by (auto using himask_word; lia). destruct (Z.leb_spec (hi mod 32 + 1) i), (Z.ltb_spec i 32), (Z.leb_spec lo (32 * k + i)), (Z.leb_spec (32 * k + i) hi), (Z.testbit w i); cbn; auto; lia.
      - destruct (Z.ltb_spec (lo / 32) k), (Z.ltb_spec k (hi / 32)); cbn [andb]; (split; [auto; try (unfold word, ONES; rewrite p32; lia)|]); intros i I.
        + change ONES with (Z.ones 32). rewrite Z.testbit_ones by lia. destruct (Z.leb_spec 0 i), (Z.ltb_spec i 32), (Z.leb_spec lo (32 * k + i)), (Z.leb_spec (32 * k + i) hi); cbn; auto; lia.
        + destruct (Z.leb_spec lo (32 * k + i)), (Z.leb_spec (32 * k + i) hi); cbn; auto; lia.
        + destruct (Z.leb_spec lo (32 * k + i)), (Z.leb_spec (32 * k + i) hi); cbn; auto; lia.
        + destruct (Z.leb_spec lo (32 * k + i)), (Z.leb_spec (32 * k + i) hi); cbn; auto; lia. }
    destruct Q as [Q1 Q2]. split; [constructor; auto|]. split; [cbn [length]; auto|]. intros i I. cbn [wval length] in *. unfold word in Q1, W. rewrite !testbit_add_shift by lia.
    destruct (Z.ltb_spec i 32); [apply Q2; lia|]. rewrite C by lia. replace (32 * (k + 1) + (i - 32)) with (32 * k + i) by lia. reflexivity.
Qed.
Lemma Interval_Fill_ok : forall x lo hi, wf x -> 0 <= lo -> lo <= hi -> hi < bits x -> let r := Interval_Fill x lo hi in
  wf r /\ bits r = bits x /\ forall i, 0 <= i -> Z.testbit (uval r) i = ((lo <=? i) && (i <=? hi)) || Z.testbit (uval x) i.
Proof.
  intros x lo hi W L H B r. unfold r, Interval_Fill. destruct (Z.ltb_spec lo (bits x)); [|lia]. destruct (Z.ltb_spec hi (bits x)); [|lia]. destruct (Z.leb_spec lo hi); [|lia]. cbn [andb].
  rewrite !logbits_eq, !modmask_eq. pose proof (wf_cover x W) as CX. pose proof (wf_range x W) as RX. destruct W as (N & LX & F & U).
  destruct (fill_words_ok (wds x) 0 lo hi F ltac:(lia) L H) as (A1 & A2 & A3). set (ws := fill_words _ _ _ _ _ _) in *.
  destruct (wf_mlast (bits x) ws N ltac:(lia) A1) as [WF UU]. split; [auto|]. split; [auto|]. intros i I. rewrite UU, mod_pow2_testbit by lia.
  destruct (Z.ltb_spec i (bits x)); cbn [andb].
  - rewrite A3 by lia. reflexivity.
  - destruct (Z.leb_spec lo i), (Z.leb_spec i hi); try lia; cbn; symmetry; apply (testbit_small (bits x)); auto; lia.
Qed.
