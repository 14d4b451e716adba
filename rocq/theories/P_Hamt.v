(** Specification and proofs for libyasm/hamt.c: C09, C10, C11. *)
From Coq Require Import ZArith List Lia Bool.
From Verif Require Import Lib LibBits M_Hamt P_HamtBits.
Import ListNotations.
Open Scope Z_scope.

(** * Specification *)

(** Two character codes equal up to ASCII case. *)
Definition ci_char (a b : Z) : Prop :=
  a = b \/ (65 <= a <= 90 /\ b = a + 32) \/ (65 <= b <= 90 /\ a = b + 32).
(** Two names denote the same symbol. *)
Definition same_name (nc : bool) (a b : str) : Prop :=
  if nc then Forall2 ci_char a b else a = b.

(** The table as an ordered list of (name, data), at most one per name, related to a call and
    its results.  [spec_insert] and [spec_find] do not mention hashing. *)
Inductive spec_find (nc : bool) : list (str * Z) -> str -> option Z -> Prop :=
| sf_nil : forall s, spec_find nc [] s None
| sf_hit : forall k d m s, same_name nc k s -> spec_find nc ((k, d) :: m) s (Some d)
| sf_miss : forall k d m s r, ~ same_name nc k s -> spec_find nc m s r ->
    spec_find nc ((k, d) :: m) s r.

Inductive spec_insert (nc : bool) : list (str * Z) -> str -> Z -> bool -> list (str * Z) -> ires -> Prop :=
| si_new : forall s d r, spec_insert nc [] s d r [(s, d)] (IRes d true [])
| si_keep : forall k old m s d, same_name nc k s ->
    spec_insert nc ((k, old) :: m) s d false ((k, old) :: m) (IRes old false [d])
| si_repl : forall k old m s d, same_name nc k s ->
    spec_insert nc ((k, old) :: m) s d true ((s, d) :: m) (IRes d true [old])
| si_skip : forall k old m s d r m' x, ~ same_name nc k s -> spec_insert nc m s d r m' x ->
    spec_insert nc ((k, old) :: m) s d r ((k, old) :: m') x.

Inductive spec_run (nc : bool) : list (str * Z) -> list op -> list (str * Z) -> list out -> Prop :=
| sr_nil : forall m, spec_run nc m [] m []
| sr_ins : forall m s d r m' x ops m'' xs, spec_insert nc m s d r m' x ->
    spec_run nc m' ops m'' xs -> spec_run nc m (OIns s d r :: ops) m'' (RIns x :: xs)
| sr_find : forall m s x ops m'' xs, spec_find nc m s x ->
    spec_run nc m ops m'' xs -> spec_run nc m (OFind s :: ops) m'' (RFind x :: xs).

(** The same contract as functions of the history alone. *)
Fixpoint name_eqb (nc : bool) (a b : str) : bool :=
  match a, b with
  | [], [] => true
  | x :: a', y :: b' =>
      ((x =? y) || nc && ((65 <=? x) && (x <=? 90) && (y =? x + 32) || (65 <=? y) && (y <=? 90) && (x =? y + 32)))
      && name_eqb nc a' b'
  | _, _ => false
  end.
(** The data held for name [s] after a history, starting from [cur]: an insertion of the same
    name stores its data if nothing was held or the replace flag was given. *)
Fixpoint value_from (nc : bool) (cur : option Z) (ops : list op) (s : str) : option Z :=
  match ops with
  | [] => cur
  | OIns k d r :: ops' =>
      value_from nc
        (if name_eqb nc k s then match cur with Some _ => if r then Some d else cur | None => Some d end
         else cur) ops' s
  | OFind _ :: ops' => value_from nc cur ops' s
  end.
Definition value_of (nc : bool) (ops : list op) (s : str) : option Z := value_from nc None ops s.
(** The distinct names of a history in order of first insertion. *)
Fixpoint firsts (nc : bool) (seen : list str) (ops : list op) : list str :=
  match ops with
  | [] => []
  | OIns k _ _ :: ops' =>
      if existsb (fun k' => name_eqb nc k' k) seen then firsts nc seen ops'
      else k :: firsts nc (seen ++ [k]) ops'
  | OFind _ :: ops' => firsts nc seen ops'
  end.
(** Calling back on each item until a nonzero answer. *)
Inductive visits {S : Type} (func : Z -> S -> S * Z) : list Z -> S -> S * Z -> Prop :=
| v_nil : forall st, visits func [] st (st, 0)
| v_stop : forall d ds st st' rv, func d st = (st', rv) -> rv <> 0 -> visits func (d :: ds) st (st', rv)
| v_go : forall d ds st st' x, func d st = (st', 0) -> visits func ds st' x -> visits func (d :: ds) st x.

(** * Names *)
Lemma lower_ci : forall a b, lower a = lower b <-> ci_char a b.
Proof.
  intros a b. unfold lower, ci_char.
  destruct (Z.leb_spec 65 a), (Z.leb_spec a 90), (Z.leb_spec 65 b), (Z.leb_spec b 90); simpl; lia.
Qed.
Lemma canon_same : forall nc a b, canon nc a = canon nc b <-> same_name nc a b.
Proof.
  intros [|] a b; simpl; [|tauto].
  revert b. induction a as [|x a IH]; intros [|y b]; simpl; split; intros H;
    try discriminate; try (inversion H; fail); auto.
  - injection H as H1 H2. constructor; [now apply lower_ci|now apply IH].
  - inversion H; subst. f_equal; [now apply lower_ci|now apply IH].
Qed.
Lemma CmpEq_spec : forall nc a b, CmpEq nc a b = true <-> same_name nc a b.
Proof.
  intros. unfold CmpEq. destruct (list_eq_dec Z.eq_dec (canon nc a) (canon nc b)) as [e|e].
  - rewrite canon_same in e. tauto.
  - rewrite canon_same in e. split; [discriminate|tauto].
Qed.
Lemma same_refl : forall nc a, same_name nc a a.
Proof. intros. apply canon_same. reflexivity. Qed.
Lemma same_sym : forall nc a b, same_name nc a b -> same_name nc b a.
Proof. intros nc a b H. apply canon_same. symmetry. now apply canon_same. Qed.
Lemma same_trans : forall nc a b c, same_name nc a b -> same_name nc b c -> same_name nc a c.
Proof. intros nc a b c H1 H2. apply canon_same in H1, H2. apply canon_same. congruence. Qed.
Lemma same_dec : forall nc a b, {same_name nc a b} + {~ same_name nc a b}.
Proof.
  intros. destruct (CmpEq nc a b) eqn:E; [left|right]; rewrite <- CmpEq_spec; congruence.
Qed.

(** * Hash digits *)
(** The key in force at depth D, and the five bits that select the child at depth D. *)
Definition keyAt (nc : bool) (s : str) (D : nat) : Z :=
  if (D <? 7)%nat then HashKey nc s else ReHashKey nc s (Z.of_nat (7 * (D / 7) - 1)).
Definition kpbAt (D : nat) : Z := 5 * Z.of_nat (D mod 7).
Definition digit (nc : bool) (s : str) (D : nat) : Z := kpart (keyAt nc s D) (kpbAt D).

Lemma next_key_at : forall nc s D,
  next_key nc s (keyAt nc s D) (kpbAt D) D = (keyAt nc s (S D), kpbAt (S D)).
Proof.
  intros nc s D. unfold next_key, kpbAt.
  pose proof (Nat.div_mod D 7 ltac:(lia)) as E.
  pose proof (Nat.mod_upper_bound D 7 ltac:(lia)) as B.
  destruct (Nat.eq_dec (D mod 7) 6) as [H6|H6].
  - assert (Hq : (S D / 7 = S (D / 7))%nat).
    { symmetry. apply (Nat.div_unique (S D) 7 (S (D / 7)) 0); lia. }
    assert (Hm : (S D mod 7 = 0)%nat).
    { symmetry. apply (Nat.mod_unique (S D) 7 (S (D / 7)) 0); lia. }
    rewrite Hm, H6. change (30 <? 5 * Z.of_nat 6 + 5) with true. cbv iota. change (5 * Z.of_nat 0) with 0.
    unfold keyAt. destruct (Nat.ltb_spec (S D) 7); [lia|].
    rewrite Hq. replace (7 * S (D / 7) - 1)%nat with D by lia. reflexivity.
  - assert (Hq : (S D / 7 = D / 7)%nat).
    { symmetry. apply (Nat.div_unique (S D) 7 (D / 7) (S (D mod 7))); lia. }
    assert (Hm : (S D mod 7 = S (D mod 7))%nat).
    { symmetry. apply (Nat.mod_unique (S D) 7 (D / 7) (S (D mod 7))); lia. }
    destruct (Z.ltb_spec 30 (5 * Z.of_nat (D mod 7) + 5)); [lia|].
    rewrite Hm. f_equal; [|lia].
    unfold keyAt. rewrite Hq.
    destruct (Nat.ltb_spec D 7), (Nat.ltb_spec (S D) 7); auto; exfalso; [|lia].
    assert (D = 6%nat) by lia. subst D. apply H6. reflexivity.
Qed.

Lemma keyAt_same : forall nc a b D, same_name nc a b -> keyAt nc a D = keyAt nc b D.
Proof.
  intros nc a b D H. apply canon_same in H. unfold keyAt, HashKey, ReHashKey. rewrite H. reflexivity.
Qed.
Lemma digit_same : forall nc a b D, same_name nc a b -> digit nc a D = digit nc b D.
Proof. intros. unfold digit. erewrite keyAt_same; eauto. Qed.

Lemma kpart_range : forall k b, 0 <= kpart k b < 32.
Proof.
  intros. unfold kpart. change 31 with (2 ^ 5 - 1). rewrite land_mask by lia.
  apply Z.mod_pos_bound. lia.
Qed.
Lemma digit_range : forall nc s D, 0 <= digit nc s D < 32.
Proof. intros. apply kpart_range. Qed.

(** * Bitmaps *)
Definition wfbm (bm : Z) : Prop :=
  0 <= bm < w64 /\ (forall i, 32 <= i -> Z.testbit bm i = true -> Z.testbit bm 31 = true).

Lemma bit_int_lt : forall kp, 0 <= kp < 31 -> bit_int kp = 2 ^ kp.
Proof.
  intros kp H. unfold bit_int, s32. rewrite Z.shiftl_1_l.
  assert (2 ^ kp < 2 ^ 31) by (apply Z.pow_lt_mono_r; lia).
  pose proof (pow2_pos kp).
  rewrite sgn_small; [|lia|change (2 ^ (32 - 1)) with (2 ^ 31); lia].
  apply u64_small. change w64 with (2 ^ 64). assert (2 ^ 31 < 2 ^ 64) by reflexivity. lia.
Qed.
Lemma bit_int_31 : bit_int 31 = 2 ^ 64 - 2 ^ 31. Proof. reflexivity. Qed.

Lemma testbit_pow2 : forall k i, 0 <= k -> Z.testbit (2 ^ k) i = (i =? k).
Proof.
  intros k i Hk. destruct (Z.eqb_spec i k) as [->|N].
  - apply Z.pow2_bits_true; lia.
  - apply Z.pow2_bits_false; lia.
Qed.

Lemma bit_int_testbit : forall kp i, 0 <= kp < 32 -> 0 <= i ->
  Z.testbit (bit_int kp) i = if kp <? 31 then i =? kp else (31 <=? i) && (i <? 64).
Proof.
  intros kp i Hk Hi. destruct (Z.ltb_spec kp 31).
  - rewrite bit_int_lt by lia. apply testbit_pow2. lia.
  - assert (kp = 31) by lia. subst kp. rewrite bit_int_31.
    replace (2 ^ 64 - 2 ^ 31) with (Z.shiftl (Z.ones 33) 31) by reflexivity.
    rewrite Z.shiftl_spec by lia.
    destruct (Z.leb_spec 31 i).
    + destruct (Z.ltb_spec i 64); [apply Z.ones_spec_low; lia|apply Z.ones_spec_high; lia].
    + apply Z.testbit_neg_r. lia.
Qed.
Lemma bit_int_range : forall kp, 0 <= kp < 32 -> 0 <= bit_int kp < w64.
Proof. intros. apply u64_range. Qed.

Lemma test_bit_int : forall bm kp, wfbm bm -> 0 <= kp < 32 ->
  (Z.land bm (bit_int kp) =? 0) = negb (Z.testbit bm kp).
Proof.
  intros bm kp [Hr Hh] Hk.
  destruct (Z.testbit bm kp) eqn:T; simpl.
  - apply Z.eqb_neq. intros E.
    assert (X : Z.testbit (Z.land bm (bit_int kp)) kp = false) by (rewrite E; apply Z.testbit_0_l).
    rewrite Z.land_spec, T, bit_int_testbit in X by lia.
    destruct (Z.ltb_spec kp 31); [rewrite Z.eqb_refl in X; discriminate|].
    assert (kp = 31) by lia. subst kp. discriminate.
  - apply Z.eqb_eq. apply Z.bits_inj'. intros i Hi.
    rewrite Z.testbit_0_l, Z.land_spec, bit_int_testbit by lia.
    destruct (Z.ltb_spec kp 31).
    + destruct (Z.eqb_spec i kp) as [->|]; [rewrite T; reflexivity|apply andb_false_r].
    + assert (kp = 31) by lia. subst kp.
      destruct (Z.leb_spec 31 i); [|apply andb_false_r].
      destruct (Z.eq_dec i 31) as [->|]; [rewrite T; reflexivity|].
      destruct (Z.testbit bm i) eqn:T2; [|reflexivity].
      rewrite (Hh i) in T by (auto; lia). discriminate.
Qed.

Lemma wfbm_set : forall bm kp, wfbm bm -> 0 <= kp < 32 -> wfbm (Z.lor bm (bit_int kp)).
Proof.
  intros bm kp [Hr Hh] Hk. split.
  - change w64 with (2 ^ 64). apply lor_lt_pow2; [lia|auto|]. apply bit_int_range; auto.
  - intros i Hi T. rewrite Z.lor_spec, bit_int_testbit in * by lia.
    destruct (Z.ltb_spec kp 31).
    + destruct (Z.eqb_spec i kp); [lia|]. rewrite orb_false_r in T.
      rewrite (Hh i) by auto. reflexivity.
    + apply orb_true_r.
Qed.
Lemma wfbm_0 : wfbm 0.
Proof. split; [split; [lia|reflexivity]|]. intros i _ H. rewrite Z.testbit_0_l in H. discriminate. Qed.
Lemma wfbm_int : forall kp, 0 <= kp < 32 -> wfbm (bit_int kp).
Proof. intros. pose proof (wfbm_set 0 kp wfbm_0 H). rewrite Z.lor_0_l in H0. auto. Qed.
Lemma wfbm_two : forall a b, 0 <= a < 32 -> 0 <= b < 32 -> wfbm (Z.lor (Z.shiftl 1 a) (Z.shiftl 1 b)).
Proof.
  intros a b Ha Hb. rewrite !Z.shiftl_1_l.
  assert (R : forall k, 0 <= k < 32 -> 0 <= 2 ^ k < 2 ^ 32).
  { intros k Hk. split; [apply Z.pow_nonneg; lia|apply Z.pow_lt_mono_r; lia]. }
  pose proof (lor_lt_pow2 32 (2 ^ a) (2 ^ b) ltac:(lia) (R a Ha) (R b Hb)).
  split.
  - change w64 with (2 ^ 64). assert (2 ^ 32 < 2 ^ 64) by reflexivity. lia.
  - intros i Hi T. rewrite (testbit_small 32) in T by (auto; lia). discriminate.
Qed.

Lemma tb_set : forall bm kp i, 0 <= kp < 32 -> (i < 32)%nat ->
  tb (Z.lor bm (bit_int kp)) i = tb bm i || (Z.of_nat i =? kp).
Proof.
  intros bm kp i Hk Hi. unfold tb. rewrite Z.lor_spec, bit_int_testbit by lia. f_equal.
  destruct (Z.ltb_spec kp 31); [reflexivity|].
  destruct (Z.leb_spec 31 (Z.of_nat i)), (Z.ltb_spec (Z.of_nat i) 64), (Z.eqb_spec (Z.of_nat i) kp);
    simpl; lia.
Qed.
Lemma tb_int : forall kp i, 0 <= kp < 32 -> (i < 32)%nat -> tb (bit_int kp) i = (Z.of_nat i =? kp).
Proof. intros. rewrite <- (Z.lor_0_l (bit_int kp)), tb_set by auto. unfold tb. rewrite Z.testbit_0_l. reflexivity. Qed.
Lemma tb_two : forall a b i, 0 <= a < 32 -> 0 <= b < 32 ->
  tb (Z.lor (Z.shiftl 1 a) (Z.shiftl 1 b)) i = (Z.of_nat i =? a) || (Z.of_nat i =? b).
Proof.
  intros a b i Ha Hb. unfold tb. rewrite !Z.shiftl_1_l, Z.lor_spec, !testbit_pow2 by lia. reflexivity.
Qed.

Lemma below_val : forall kp, 0 <= kp < 32 -> below kp = 2 ^ kp - 1.
Proof.
  intros kp Hk. unfold below. rewrite Z.shiftl_mul_pow2 by lia. unfold u64.
  replace ((w64 - 1) * 2 ^ kp) with (w64 - 2 ^ kp + (2 ^ kp - 1) * w64) by ring.
  assert (0 < 2 ^ kp) by (apply pow2_pos; lia).
  assert (2 ^ kp < w64) by (change w64 with (2 ^ 64); apply Z.pow_lt_mono_r; lia).
  rewrite Z.mod_add by (unfold w64; lia). rewrite Z.mod_small by lia. lia.
Qed.

Lemma mapidx_spec : forall bm kp, 0 <= bm < w64 -> 0 <= kp < 32 ->
  mapidx bm kp = cnt (tb bm) (Z.to_nat kp).
Proof.
  intros bm kp Hb Hk. unfold mapidx. rewrite below_val by auto. rewrite land_mask by lia.
  assert (R : 0 <= bm mod 2 ^ kp < w64).
  { pose proof (Z.mod_pos_bound bm (2 ^ kp) (pow2_pos kp ltac:(lia))).
    assert (2 ^ kp < w64) by (change w64 with (2 ^ 64); apply Z.pow_lt_mono_r; lia). lia. }
  rewrite bitcount_spec by exact R.
  assert (C : forall n, (n <= 32)%nat ->
     cnt (tb (bm mod 2 ^ kp)) n = cnt (tb bm) (Nat.min n (Z.to_nat kp))).
  { induction n; intros Hn; [reflexivity|]. simpl cnt at 1. rewrite IHn by lia.
    unfold tb at 1. rewrite mod_pow2_testbit by lia.
    destruct (Z.ltb_spec (Z.of_nat n) kp).
    - replace (Nat.min (S n) (Z.to_nat kp)) with (S n) by lia.
      replace (Nat.min n (Z.to_nat kp)) with n by lia. reflexivity.
    - cbn [andb Nat.add]. f_equal. lia. }
  rewrite C by lia. replace (Nat.min 32 (Z.to_nat kp)) with (Z.to_nat kp) by lia.
  pose proof (cnt_le (tb bm) (Z.to_nat kp)).
  rewrite Z.mod_small by lia. apply Nat2Z.id.
Qed.

(** * Children *)
Definition child (bm : Z) (ch : list node) (kp : nat) : option node :=
  if tb bm kp then nth_error ch (cnt (tb bm) kp) else None.

Lemma nth_error_upd : forall {A} (l : list A) i j x, (i < length l)%nat ->
  nth_error (upd l i x) j = if (i =? j)%nat then Some x else nth_error l j.
Proof.
  induction l; intros i j x H; simpl in H; [lia|].
  destruct i, j; simpl; auto. apply IHl. lia.
Qed.
Lemma upd_length : forall {A} (l : list A) i x, length (upd l i x) = length l.
Proof. induction l; intros [|i] x; simpl; auto. Qed.

Lemma nth_error_insert_at : forall {A} (l : list A) i j x, (i <= length l)%nat ->
  nth_error (insert_at l i x) j =
  if (j <? i)%nat then nth_error l j else if (j =? i)%nat then Some x else nth_error l (j - 1).
Proof.
  intros A l i j x H. unfold insert_at.
  assert (Hf : length (firstn i l) = i) by (rewrite firstn_length; lia).
  destruct (Nat.ltb_spec j i).
  - rewrite nth_error_app1 by lia. 
    rewrite <- (firstn_skipn i l) at 2. rewrite nth_error_app1 by lia. reflexivity.
  - rewrite nth_error_app2 by lia. rewrite Hf.
    destruct (Nat.eqb_spec j i) as [->|].
    + rewrite Nat.sub_diag. reflexivity.
    + replace (j - i)%nat with (S (j - 1 - i)) by lia. simpl.
      rewrite <- (firstn_skipn i l) at 2. rewrite (nth_error_app2 (firstn i l)) by lia. rewrite Hf. reflexivity.
Qed.

Lemma child_set : forall bm ch kp n, length ch = cnt (tb bm) 32 -> 0 <= kp < 32 ->
  tb bm (Z.to_nat kp) = false ->
  let bm' := Z.lor bm (bit_int kp) in
  let ch' := insert_at ch (cnt (tb bm') (Z.to_nat kp)) n in
  length ch' = cnt (tb bm') 32 /\
  forall i, (i < 32)%nat -> child bm' ch' i = if (i =? Z.to_nat kp)%nat then Some n else child bm ch i.
Proof.
  intros bm ch kp n Hl Hk Hb bm' ch'.
  assert (T : forall i, (i < 32)%nat -> tb bm' i = tb bm i || (i =? Z.to_nat kp)%nat).
  { intros i Hi. unfold bm'. rewrite tb_set by auto. f_equal.
    destruct (Z.eqb_spec (Z.of_nat i) kp), (Nat.eqb_spec i (Z.to_nat kp)); lia. }
  set (k := Z.to_nat kp) in *. assert (Hk' : (k < 32)%nat) by lia.
  assert (C1 : forall i, (i <= k)%nat -> cnt (tb bm') i = cnt (tb bm) i).
  { intros i Hi. apply cnt_ext. intros j Hj. rewrite T by lia.
    destruct (Nat.eqb_spec j k); [lia|]. apply orb_false_r. }
  assert (C2 : forall i, (k < i <= 32)%nat -> cnt (tb bm') i = S (cnt (tb bm) i)).
  { induction i; intros Hi; [lia|]. simpl. rewrite T by lia.
    destruct (Nat.eq_dec i k) as [->|].
    - rewrite Nat.eqb_refl, Hb. simpl. rewrite C1 by lia. reflexivity.
    - destruct (Nat.eqb_spec i k); [lia|]. rewrite orb_false_r. rewrite IHi by lia.
      destruct (tb bm i); lia. }
  assert (P : (cnt (tb bm') k <= length ch)%nat).
  { rewrite C1, Hl by lia. apply cnt_mono. lia. }
  split.
  - unfold ch', insert_at. rewrite app_length. cbn [length]. rewrite firstn_length, skipn_length.
    rewrite (C2 32%nat) by lia. lia.
  - intros i Hi. unfold child. rewrite T by lia.
    unfold ch'. rewrite C1 in * by lia.
    destruct (Nat.eqb_spec i k) as [->|N].
    + rewrite orb_true_r. rewrite C1 by lia. rewrite nth_error_insert_at by auto.
      rewrite Nat.ltb_irrefl, Nat.eqb_refl. reflexivity.
    + rewrite orb_false_r. destruct (tb bm i) eqn:Ti; [|reflexivity].
      rewrite nth_error_insert_at by auto.
      destruct (Nat.lt_ge_cases i k).
      * rewrite C1 by lia. pose proof (cnt_strict (tb bm) i k ltac:(lia) Ti).
        destruct (Nat.ltb_spec (cnt (tb bm) i) (cnt (tb bm) k)); [reflexivity|lia].
      * rewrite C2 by lia. pose proof (cnt_mono (tb bm) k i ltac:(lia)).
        destruct (Nat.ltb_spec (S (cnt (tb bm) i)) (cnt (tb bm) k)); [lia|].
        destruct (Nat.eqb_spec (S (cnt (tb bm) i)) (cnt (tb bm) k)); [lia|].
        f_equal. lia.
Qed.

Lemma child_upd : forall bm ch k n, length ch = cnt (tb bm) 32 -> (k < 32)%nat -> tb bm k = true ->
  let ch' := upd ch (cnt (tb bm) k) n in
  length ch' = cnt (tb bm) 32 /\
  forall i, (i < 32)%nat -> child bm ch' i = if (i =? k)%nat then Some n else child bm ch i.
Proof.
  intros bm ch k n Hl Hk Hb ch'.
  pose proof (cnt_strict (tb bm) k 32 Hk Hb).
  split; [unfold ch'; rewrite upd_length; auto|].
  intros i Hi. unfold child, ch'.
  destruct (Nat.eqb_spec i k) as [->|N].
  - rewrite Hb. rewrite nth_error_upd by lia. rewrite Nat.eqb_refl. reflexivity.
  - destruct (tb bm i) eqn:Ti; [|reflexivity].
    rewrite nth_error_upd by lia.
    destruct (Nat.eqb_spec (cnt (tb bm) k) (cnt (tb bm) i)) as [E|]; [|reflexivity].
    exfalso. destruct (Nat.lt_ge_cases i k).
    + pose proof (cnt_strict (tb bm) i k ltac:(lia) Ti). lia.
    + pose proof (cnt_strict (tb bm) k i ltac:(lia) Hb). lia.
Qed.

(** * Trie invariant *)
Inductive under : node -> nat -> Prop :=
| u_leaf : forall k e, under (Leaf k e) e
| u_sub : forall bm ch i c e, (i < 32)%nat -> child bm ch i = Some c -> under c e -> under (Sub bm ch) e.

Definition nameof (E : list (str * Z)) (e : nat) : option str := option_map fst (nth_error E e).

Inductive wf (nc : bool) (E : list (str * Z)) : nat -> node -> Prop :=
| wf_leaf : forall D e s, nameof E e = Some s -> wf nc E D (Leaf (keyAt nc s D) e)
| wf_sub : forall D bm ch, wfbm bm -> length ch = cnt (tb bm) 32 ->
    (forall i c, (i < 32)%nat -> child bm ch i = Some c -> wf nc E (S D) c) ->
    (forall i c e s, (i < 32)%nat -> child bm ch i = Some c -> under c e -> nameof E e = Some s ->
       digit nc s (S D) = Z.of_nat i) ->
    wf nc E D (Sub bm ch).

Lemma wf_ext : forall nc E E' D n, wf nc E D n ->
  (forall e s, nameof E e = Some s -> exists s', nameof E' e = Some s' /\ same_name nc s s') ->
  (forall e s', nameof E' e = Some s' -> under n e -> exists s, nameof E e = Some s) ->
  wf nc E' D n.
Proof.
  intros nc E E' D n H X. induction H as [D e s He|D bm ch Hb Hl Hc IH Hd]; intros Y.
  - destruct (X e s He) as [s' [He' Hs]]. rewrite (keyAt_same nc s s' D Hs). constructor; auto.
  - constructor; auto.
    + intros i c Hi HC. apply (IH i c Hi HC). intros e s' He U. apply (Y e s' He). econstructor; eauto.
    + intros i c e s' Hi HC U He. destruct (Y e s' He) as [s Hs]; [econstructor; eauto|].
      destruct (X e s Hs) as [s2 [H2 S2]]. rewrite He in H2. injection H2 as <-.
      rewrite <- (digit_same nc s s' (S D) S2). eapply Hd; eauto.
Qed.

Lemma wf_under_valid : forall nc E D n e, wf nc E D n -> under n e -> exists s, nameof E e = Some s.
Proof.
  intros nc E D n e W. revert e. induction W as [D e s He|D bm ch Hb Hl Hc IH Hd]; intros e' U.
  - inversion U; subst. eauto.
  - inversion U; subst. eapply IH; eauto.
Qed.

Lemma mapidx_child : forall bm ch kp, wfbm bm -> 0 <= kp < 32 -> tb bm (Z.to_nat kp) = true ->
  nth_error ch (mapidx bm kp) = child bm ch (Z.to_nat kp).
Proof.
  intros bm ch kp [Hb _] Hk T. rewrite mapidx_spec by auto. unfold child. rewrite T. reflexivity.
Qed.
Lemma child_exists : forall bm ch i, length ch = cnt (tb bm) 32 -> (i < 32)%nat -> tb bm i = true ->
  exists c, child bm ch i = Some c.
Proof.
  intros bm ch i Hl Hi T. unfold child. rewrite T.
  destruct (nth_error ch (cnt (tb bm) i)) eqn:E; [eauto|].
  apply nth_error_None in E. pose proof (cnt_strict (tb bm) i 32 Hi T). lia.
Qed.
Lemma child_bit : forall bm ch i c, child bm ch i = Some c -> tb bm i = true.
Proof. intros bm ch i c H. unfold child in H. destruct (tb bm i); [reflexivity|discriminate]. Qed.

(** Unfolding equations. *)
Lemma search_leaf_eq : forall nc E s k e key kpb level, search_node nc E s (Leaf k e) key kpb level =
  match nth_error E e with
  | Some (s2, _) => if (k =? key) && CmpEq nc s2 s then Some e else None
  | None => None
  end.
Proof. reflexivity. Qed.
Lemma search_sub_eq : forall nc E s bm ch key kpb level key' kpb',
  next_key nc s key kpb level = (key', kpb') ->
  search_node nc E s (Sub bm ch) key kpb level =
  (if Z.land bm (bit_int (kpart key' kpb')) =? 0 then None
   else match nth_error ch (mapidx bm (kpart key' kpb')) with
        | Some c => search_node nc E s c key' kpb' (S level)
        | None => None
        end).
Proof.
  intros nc E s bm ch key kpb level key' kpb' H. cbn [search_node]. rewrite H.
  destruct (Z.land bm (bit_int (kpart key' kpb')) =? 0); [reflexivity|].
  rewrite nth_error_map. destruct (nth_error ch (mapidx bm (kpart key' kpb'))); reflexivity.
Qed.
Lemma insert_leaf_eq : forall fuel nc E s k e key kpb level,
  insert_node fuel nc E s (Leaf k e) key kpb level =
  match nth_error E e with
  | Some (s2, _) =>
      if (k =? key) && CmpEq nc s2 s then Some (Leaf k e, Found e)
      else match build fuel nc s s2 e (length E) key k kpb level with
           | Some n' => Some (n', Added)
           | None => None
           end
  | None => None
  end.
Proof. reflexivity. Qed.
Lemma insert_sub_eq : forall fuel nc E s bm ch key kpb level key' kpb',
  next_key nc s key kpb level = (key', kpb') ->
  insert_node fuel nc E s (Sub bm ch) key kpb level =
  (if Z.land bm (bit_int (kpart key' kpb')) =? 0 then
     Some (Sub (Z.lor bm (bit_int (kpart key' kpb')))
             (insert_at ch (mapidx (Z.lor bm (bit_int (kpart key' kpb'))) (kpart key' kpb')) (Leaf key' (length E))), Added)
   else
     match nth_error ch (mapidx bm (kpart key' kpb')) with
     | Some c =>
         match insert_node fuel nc E s c key' kpb' (S level) with
         | Some (c, o) => Some (Sub bm (upd ch (mapidx bm (kpart key' kpb')) c), o)
         | None => None
         end
     | None => None
     end).
Proof.
  intros fuel nc E s bm ch key kpb level key' kpb' H. cbn [insert_node]. rewrite H.
  destruct (Z.land bm (bit_int (kpart key' kpb')) =? 0); [reflexivity|].
  rewrite nth_error_map. destruct (nth_error ch (mapidx bm (kpart key' kpb'))); reflexivity.
Qed.
Lemma search_sub_at : forall nc E s bm ch D, wfbm bm ->
  search_node nc E s (Sub bm ch) (keyAt nc s D) (kpbAt D) D =
  match child bm ch (Z.to_nat (digit nc s (S D))) with
  | Some c => search_node nc E s c (keyAt nc s (S D)) (kpbAt (S D)) (S D)
  | None => None
  end.
Proof.
  intros nc E s bm ch D Hb. rewrite (search_sub_eq _ _ _ _ _ _ _ _ _ _ (next_key_at nc s D)).
  fold (digit nc s (S D)). pose proof (digit_range nc s (S D)) as R.
  rewrite test_bit_int by auto.
  assert (TB : tb bm (Z.to_nat (digit nc s (S D))) = Z.testbit bm (digit nc s (S D))) by (unfold tb; rewrite Z2Nat.id by lia; auto).
  destruct (Z.testbit bm (digit nc s (S D))); cbn [negb].
  - rewrite mapidx_child by auto. reflexivity.
  - unfold child. rewrite TB. reflexivity.
Qed.

Definition is_digit nc s D (k : Z) : Prop := k = digit nc s D.
Lemma insert_sub_at : forall fuel nc E s bm ch D k, wfbm bm -> length ch = cnt (tb bm) 32 ->
  k = digit nc s (S D) ->
  insert_node fuel nc E s (Sub bm ch) (keyAt nc s D) (kpbAt D) D =
  match child bm ch (Z.to_nat k) with
  | Some c =>
      match insert_node fuel nc E s c (keyAt nc s (S D)) (kpbAt (S D)) (S D) with
      | Some (c', o) => Some (Sub bm (upd ch (cnt (tb bm) (Z.to_nat k)) c'), o)
      | None => None
      end
  | None => Some (Sub (Z.lor bm (bit_int k))
      (insert_at ch (cnt (tb (Z.lor bm (bit_int k))) (Z.to_nat k)) (Leaf (keyAt nc s (S D)) (length E))), Added)
  end.
Proof.
  intros fuel nc E s bm ch D k Hb Hl Hk. rewrite (insert_sub_eq _ _ _ _ _ _ _ _ _ _ _ (next_key_at nc s D)).
  fold (digit nc s (S D)). pose proof (digit_range nc s (S D)) as R. rewrite <- Hk in *.
  rewrite test_bit_int by auto.
  assert (TB : tb bm (Z.to_nat k) = Z.testbit bm k) by (unfold tb; rewrite Z2Nat.id by lia; auto).
  destruct (Z.testbit bm k); cbn [negb].
  - rewrite mapidx_child by auto. destruct (child bm ch (Z.to_nat k)) as [c|] eqn:C.
    + rewrite mapidx_spec by (destruct Hb; auto). reflexivity.
    + assert (Hk' : (Z.to_nat k < 32)%nat) by lia.
      destruct (child_exists bm ch (Z.to_nat k) Hl Hk' TB) as [c X]. congruence.
  - pose proof (wfbm_set bm k Hb R) as Hb'. rewrite mapidx_spec by (destruct Hb'; auto).
    replace (child bm ch (Z.to_nat k)) with (@None node); [reflexivity|].
    unfold child. rewrite TB. reflexivity.
Qed.

(** ** Search *)
Lemma search_sound : forall nc E s D n e, wf nc E D n ->
  search_node nc E s n (keyAt nc s D) (kpbAt D) D = Some e ->
  under n e /\ exists s', nameof E e = Some s' /\ same_name nc s' s.
Proof.
  intros nc E s D n e W. revert e. induction W as [D e s0 He|D bm ch Hb Hl Hc IH Hd]; intros e' HS.
  - rewrite search_leaf_eq in HS. unfold nameof in He. destruct (nth_error E e) as [[s2 d]|] eqn:N; [|discriminate].
    cbn [option_map fst] in He. injection He as ->.
    destruct (keyAt nc s0 D =? keyAt nc s D); [|discriminate]. cbn [andb] in HS.
    destruct (CmpEq nc s0 s) eqn:C; [|discriminate]. injection HS as <-.
    split; [constructor|]. exists s0. unfold nameof. rewrite N. split; auto. now apply CmpEq_spec.
  - rewrite search_sub_at in HS by auto. pose proof (digit_range nc s (S D)) as R.
    destruct (child bm ch (Z.to_nat (digit nc s (S D)))) as [c|] eqn:C; [|discriminate].
    assert (Hk : (Z.to_nat (digit nc s (S D)) < 32)%nat) by lia.
    destruct (IH (Z.to_nat (digit nc s (S D))) c Hk C e' HS) as [U X].
    split; [|exact X]. apply (u_sub _ _ (Z.to_nat (digit nc s (S D))) c); auto.
Qed.

Lemma search_complete : forall nc E s D n e s', wf nc E D n -> under n e ->
  nameof E e = Some s' -> same_name nc s' s ->
  (forall e2 s2, under n e2 -> nameof E e2 = Some s2 -> same_name nc s2 s -> e2 = e) ->
  search_node nc E s n (keyAt nc s D) (kpbAt D) D = Some e.
Proof.
  intros nc E s D n e s' W. revert e s'. induction W as [D e s0 He|D bm ch Hb Hl Hc IH Hd];
    intros e' s' U N SM UQ.
  - inversion U; subst. rewrite He in N. injection N as ->.
    rewrite search_leaf_eq. unfold nameof in He. destruct (nth_error E e') as [[s2 d]|] eqn:NE; [|discriminate].
    cbn [option_map fst] in He. injection He as ->.
    rewrite (keyAt_same nc s' s D SM), Z.eqb_refl. cbn [andb].
    apply CmpEq_spec in SM. rewrite SM. reflexivity.
  - inversion U as [|? ? i c ? Hi HC U']; subst.
    pose proof (Hd i c e' s' Hi HC U' N) as DG. rewrite (digit_same nc s' s (S D) SM) in DG.
    rewrite search_sub_at by auto. rewrite DG, Nat2Z.id, HC.
    apply (IH i c Hi HC e' s'); auto.
    intros e2 s2 U2 N2 S2. apply (UQ e2 s2); auto. econstructor; eauto.
Qed.

(** ** Splitting a value node *)
Lemma build_correct : forall fuel nc E s s2 e2 D n,
  build fuel nc s s2 e2 (length E) (keyAt nc s D) (keyAt nc s2 D) (kpbAt D) D = Some n ->
  nameof E e2 = Some s2 ->
  forall d, wf nc (E ++ [(s, d)]) D n /\ (forall e, under n e <-> e = e2 \/ e = length E).
Proof.
  induction fuel as [|f IH]; intros nc E s s2 e2 D n HB He d; simpl in HB; [discriminate|].
  rewrite !next_key_at in HB. cbv beta iota zeta in HB.
  fold (digit nc s (S D)) in HB. fold (digit nc s2 (S D)) in HB.
  pose proof (digit_range nc s (S D)) as R. pose proof (digit_range nc s2 (S D)) as R2.
  assert (N1 : nameof (E ++ [(s, d)]) (length E) = Some s).
  { unfold nameof. rewrite nth_error_app2, Nat.sub_diag by lia. reflexivity. }
  assert (N2 : nameof (E ++ [(s, d)]) e2 = Some s2).
  { unfold nameof in *. rewrite nth_error_app1; auto.
    destruct (nth_error E e2) eqn:X; [|discriminate]. apply nth_error_Some_lt in X. auto. }
  destruct (Z.eqb_spec (digit nc s (S D)) (digit nc s2 (S D))) as [Q|Q].
  - destruct (build f nc s s2 e2 (length E) (keyAt nc s (S D)) (keyAt nc s2 (S D)) (kpbAt (S D)) (S D))
      as [n'|] eqn:B; [|discriminate]. injection HB as <-.
    destruct (IH nc E s s2 e2 (S D) n' B He d) as [W U].
    set (kp := digit nc s (S D)) in *.
    assert (CH : forall i, (i < 32)%nat -> child (bit_int kp) [n'] i = if (Z.of_nat i =? kp) then Some n' else None).
    { intros i Hi. unfold child. rewrite tb_int by auto.
      destruct (Z.eqb_spec (Z.of_nat i) kp) as [Ei|]; [|reflexivity].
      rewrite (cnt_ext _ (fun _ => false)).
      - replace (cnt (fun _ => false) i) with O; [reflexivity|].
        clear. induction i; simpl; auto.
      - intros j Hj. rewrite tb_int by lia. apply Z.eqb_neq. lia. }
    split.
    + constructor.
      * apply wfbm_int; auto.
      * simpl length. rewrite (cnt_ext _ (fun j => Z.of_nat j =? kp)).
        2:{ intros j Hj. apply tb_int; auto. }
        clear - R. assert (G : forall m, cnt (fun j => Z.of_nat j =? kp) m = if (kp <? Z.of_nat m) then 1%nat else 0%nat).
        { induction m.
          - simpl. destruct (Z.ltb_spec kp 0); lia.
          - simpl cnt. rewrite IHm. destruct (Z.eqb_spec (Z.of_nat m) kp), (Z.ltb_spec kp (Z.of_nat m)), (Z.ltb_spec kp (Z.of_nat (S m))); simpl; lia. }
        rewrite G. destruct (Z.ltb_spec kp (Z.of_nat 32)); lia.
      * intros i c Hi HC. rewrite CH in HC by auto. destruct (Z.of_nat i =? kp); [|discriminate].
        injection HC as <-. auto.
      * intros i c e s0 Hi HC HU Hn. rewrite CH in HC by auto.
        destruct (Z.eqb_spec (Z.of_nat i) kp) as [Ei|]; [|discriminate]. injection HC as <-.
        apply U in HU. destruct HU as [->| ->].
        -- rewrite N2 in Hn. injection Hn as <-. rewrite Ei. symmetry. exact Q.
        -- rewrite N1 in Hn. injection Hn as <-. auto.
    + intros e. split.
      * intros HU. inversion HU as [|? ? i c ? Hi HC HU']; subst. rewrite CH in HC by auto.
        destruct (Z.of_nat i =? kp); [|discriminate]. injection HC as <-. now apply U.
      * intros HE. apply (u_sub _ _ (Z.to_nat kp) n'); [lia| |now apply U].
        rewrite CH by lia. rewrite Z2Nat.id by lia. rewrite Z.eqb_refl. reflexivity.
  - injection HB as <-.
    set (kp := digit nc s (S D)) in *. set (kp2 := digit nc s2 (S D)) in *.
    set (bm := Z.lor (Z.shiftl 1 kp) (Z.shiftl 1 kp2)).
    set (ln := Leaf (keyAt nc s (S D)) (length E)). set (lo := Leaf (keyAt nc s2 (S D)) e2).
    set (ch := if kp2 <? kp then [lo; ln] else [ln; lo]).
    assert (G : forall m, cnt (tb bm) m = ((if (kp <? Z.of_nat m)%Z then 1 else 0) + (if (kp2 <? Z.of_nat m)%Z then 1 else 0))%nat).
    { induction m.
      - simpl. destruct (Z.ltb_spec kp 0), (Z.ltb_spec kp2 0); lia.
      - simpl cnt. rewrite IHm. unfold bm. rewrite tb_two by auto.
        destruct (Z.eqb_spec (Z.of_nat m) kp), (Z.ltb_spec kp (Z.of_nat m)), (Z.ltb_spec kp (Z.of_nat (S m))),
          (Z.eqb_spec (Z.of_nat m) kp2), (Z.ltb_spec kp2 (Z.of_nat m)), (Z.ltb_spec kp2 (Z.of_nat (S m))); simpl; lia. }
    assert (CH : forall i, child bm ch i =
       if Z.of_nat i =? kp then Some ln else if Z.of_nat i =? kp2 then Some lo else None).
    { intros i. unfold child. unfold bm at 1. rewrite tb_two by auto. rewrite G. unfold ch.
      destruct (Z.eqb_spec (Z.of_nat i) kp) as [E1|E1].
      - destruct (Z.eqb_spec (Z.of_nat i) kp2); [lia|]. simpl orb. cbv iota.
        destruct (Z.ltb_spec kp (Z.of_nat i)); [lia|].
        destruct (Z.ltb_spec kp2 (Z.of_nat i)), (Z.ltb_spec kp2 kp); simpl; try reflexivity; lia.
      - destruct (Z.eqb_spec (Z.of_nat i) kp2); [|reflexivity]. simpl orb. cbv iota.
        destruct (Z.ltb_spec kp2 (Z.of_nat i)); [lia|].
        destruct (Z.ltb_spec kp (Z.of_nat i)), (Z.ltb_spec kp2 kp); simpl; try reflexivity; lia. }
    fold bm ch. split.
    + constructor.
      * apply wfbm_two; auto.
      * rewrite G. unfold ch. destruct (Z.ltb_spec kp (Z.of_nat 32)), (Z.ltb_spec kp2 (Z.of_nat 32)); try lia.
        destruct (kp2 <? kp); reflexivity.
      * intros i c Hi HC. rewrite CH in HC. destruct (Z.of_nat i =? kp).
        -- injection HC as <-. constructor; auto.
        -- destruct (Z.of_nat i =? kp2); [|discriminate]. injection HC as <-. constructor; auto.
      * intros i c e s0 Hi HC HU Hn. rewrite CH in HC. destruct (Z.eqb_spec (Z.of_nat i) kp).
        -- injection HC as <-. inversion HU; subst. rewrite N1 in Hn. injection Hn as <-. auto.
        -- destruct (Z.eqb_spec (Z.of_nat i) kp2); [|discriminate]. injection HC as <-.
           inversion HU; subst. rewrite N2 in Hn. injection Hn as <-. auto.
    + intros e. split.
      * intros HU. inversion HU as [|? ? i c ? Hi HC HU']; subst. rewrite CH in HC.
        destruct (Z.of_nat i =? kp).
        -- injection HC as <-. inversion HU'; auto.
        -- destruct (Z.of_nat i =? kp2); [|discriminate]. injection HC as <-. inversion HU'; auto.
      * intros [->| ->].
        -- apply (u_sub _ _ (Z.to_nat kp2) lo); [lia| |constructor].
           rewrite CH, Z2Nat.id, Z.eqb_refl by lia. destruct (Z.eqb_spec kp2 kp); [lia|reflexivity].
        -- apply (u_sub _ _ (Z.to_nat kp) ln); [lia| |constructor].
           rewrite CH, Z2Nat.id, Z.eqb_refl by lia. reflexivity.
Qed.

(** ** Insert *)
Lemma nameof_app : forall E x e s, nameof E e = Some s -> nameof (E ++ [x]) e = Some s.
Proof.
  intros E x e s H. unfold nameof in *. rewrite nth_error_app1; auto.
  destruct (nth_error E e) eqn:X; [|discriminate]. apply nth_error_Some_lt in X. auto.
Qed.
Lemma nameof_last : forall E s d, nameof (E ++ [(s, d)]) (length E) = Some s.
Proof. intros. unfold nameof. rewrite nth_error_app2, Nat.sub_diag by lia. reflexivity. Qed.
Lemma nameof_lt : forall E e s, nameof E e = Some s -> (e < length E)%nat.
Proof.
  intros E e s H. unfold nameof in H. destruct (nth_error E e) eqn:X; [|discriminate].
  apply nth_error_Some_lt in X. auto.
Qed.

Lemma wf_app : forall nc E D n x, wf nc E D n -> wf nc (E ++ [x]) D n.
Proof.
  intros nc E D n x W. apply (wf_ext nc E); auto.
  - intros e s He. exists s. split; [now apply nameof_app|apply same_refl].
  - intros e s' _ U. eapply wf_under_valid; eauto.
Qed.

Lemma insert_correct : forall fuel nc E s D n n' o, wf nc E D n ->
  insert_node fuel nc E s n (keyAt nc s D) (kpbAt D) D = Some (n', o) ->
  match o with
  | Found e => under n e /\ (exists s', nameof E e = Some s' /\ same_name nc s' s) /\
               wf nc E D n' /\ (forall e', under n' e' <-> under n e')
  | Added => (forall e s', under n e -> nameof E e = Some s' -> ~ same_name nc s' s) /\
             (forall d, wf nc (E ++ [(s, d)]) D n') /\
             (forall e', under n' e' <-> under n e' \/ e' = length E)
  end.
Proof.
  intros fuel nc E s D n n' o W. revert n' o.
  induction W as [D e s0 He|D bm ch Hb Hl Hc IH Hd]; intros n' o HI.
  - rewrite insert_leaf_eq in HI. pose proof He as He0. unfold nameof in He.
    destruct (nth_error E e) as [[s2 d]|] eqn:N; [|discriminate].
    cbn [option_map fst] in He. injection He as ->.
    destruct (Z.eqb_spec (keyAt nc s0 D) (keyAt nc s D)) as [K|K]; cbn [andb] in HI.
    + destruct (CmpEq nc s0 s) eqn:C.
      * injection HI as <- <-. apply CmpEq_spec in C.
        split; [constructor|]. split; [exists s0; auto|]. split; [constructor; auto|tauto].
      * destruct (build fuel nc s s0 e (length E) (keyAt nc s D) (keyAt nc s0 D) (kpbAt D) D) as [nb|] eqn:B; [|discriminate].
        injection HI as <- <-. pose proof (build_correct fuel nc E s s0 e D nb B He0) as BC.
        split; [|split].
        -- intros e' s' U Hn SM. inversion U; subst. rewrite He0 in Hn. injection Hn as <-.
           apply CmpEq_spec in SM. congruence.
        -- intros d'. apply BC.
        -- intros e'. destruct (BC 0) as [_ U]. rewrite U. split; intros [H|H]; auto.
           ++ subst. left. constructor.
           ++ inversion H; auto.
    + destruct (build fuel nc s s0 e (length E) (keyAt nc s D) (keyAt nc s0 D) (kpbAt D) D) as [nb|] eqn:B; [|discriminate].
      injection HI as <- <-. pose proof (build_correct fuel nc E s s0 e D nb B He0) as BC.
      split; [|split].
      * intros e' s' U Hn SM. inversion U; subst. rewrite He0 in Hn. injection Hn as <-.
        apply K. apply keyAt_same; auto.
      * intros d'. apply BC.
      * intros e'. destruct (BC 0) as [_ U]. rewrite U. split; intros [H|H]; auto.
        -- subst. left. constructor.
        -- inversion H; auto.
  - assert (EK : exists kp, is_digit nc s (S D) kp) by (eexists; reflexivity). destruct EK as [kp EK].
    rewrite (insert_sub_at fuel nc E s bm ch D kp Hb Hl EK) in HI.
    pose proof (digit_range nc s (S D)) as R. rewrite <- EK in R.
    assert (Hk : (Z.to_nat kp < 32)%nat) by lia.
    destruct (child bm ch (Z.to_nat kp)) as [c|] eqn:C.
    + destruct (insert_node fuel nc E s c (keyAt nc s (S D)) (kpbAt (S D)) (S D)) as [[c' o']|] eqn:IN; [|discriminate].
      injection HI as <- <-.
      pose proof (child_bit _ _ _ _ C) as TB.
      pose proof (IH (Z.to_nat kp) c Hk C c' o' IN) as IHc.
      destruct (child_upd bm ch (Z.to_nat kp) c' Hl Hk TB) as [L' CH].
      destruct o' as [e|].
      * destruct IHc as [U1 [U2 [U3 U4]]].
        split; [econstructor; eauto|]. split; [exact U2|].
        split.
        -- constructor; auto.
           ++ intros i c0 Hi HC. rewrite CH in HC by auto. destruct (Nat.eqb_spec i (Z.to_nat kp)).
              ** injection HC as <-. auto.
              ** eapply Hc; eauto.
           ++ intros i c0 e0 s0 Hi HC HU Hn. rewrite CH in HC by auto. destruct (Nat.eqb_spec i (Z.to_nat kp)).
              ** injection HC as <-. subst i. apply U4 in HU. eapply Hd; eauto.
              ** eapply Hd; eauto.
        -- intros e'. split; intros HU; inversion HU as [|? ? i c0 ? Hi HC HU']; subst.
           ++ rewrite CH in HC by auto. destruct (Nat.eqb_spec i (Z.to_nat kp)).
              ** injection HC as <-. subst i. apply U4 in HU'. apply (u_sub _ _ (Z.to_nat kp) c); auto.
              ** apply (u_sub _ _ i c0); auto.
           ++ destruct (Nat.eq_dec i (Z.to_nat kp)).
              ** subst i. rewrite C in HC. injection HC as <-. apply (u_sub _ _ (Z.to_nat kp) c'); auto.
                 { rewrite CH, Nat.eqb_refl by auto. reflexivity. } { now apply U4. }
              ** apply (u_sub _ _ i c0); auto. rewrite CH by auto.
                 destruct (Nat.eqb_spec i (Z.to_nat kp)); [lia|auto].
      * destruct IHc as [U1 [U2 U3]].
        split; [|split].
        -- intros e s' HU Hn SM. inversion HU as [|? ? i c0 ? Hi HC HU']; subst.
           pose proof (Hd i c0 e s' Hi HC HU' Hn) as DG. rewrite (digit_same nc s' s (S D) SM) in DG.
           rewrite <- EK in DG. assert (i = Z.to_nat kp) by lia. subst i. rewrite C in HC. injection HC as <-.
           exact (U1 e s' HU' Hn SM).
        -- intros d. constructor; auto.
           ++ intros i c0 Hi HC. rewrite CH in HC by auto. destruct (Nat.eqb_spec i (Z.to_nat kp)).
              ** injection HC as <-. auto.
              ** apply wf_app. eapply Hc; eauto.
           ++ intros i c0 e0 s0 Hi HC HU Hn. rewrite CH in HC by auto. destruct (Nat.eqb_spec i (Z.to_nat kp)).
              ** injection HC as <-. subst i. apply U3 in HU. destruct HU as [HU| ->].
                 { destruct (wf_under_valid nc E (S D) c e0 (Hc _ _ Hk C) HU) as [s1 Hs1].
                   pose proof (nameof_app E (s, d) e0 s1 Hs1) as X. rewrite Hn in X. injection X as ->.
                   eapply Hd; eauto. }
                 { rewrite nameof_last in Hn. injection Hn as <-. rewrite <- EK. lia. }
              ** destruct (wf_under_valid nc E (S D) c0 e0 (Hc _ _ Hi HC) HU) as [s1 Hs1].
                 pose proof (nameof_app E (s, d) e0 s1 Hs1) as X. rewrite Hn in X. injection X as ->.
                 eapply Hd; eauto.
        -- intros e'. split.
           ++ intros HU; inversion HU as [|? ? i c0 ? Hi HC HU']; subst.
              rewrite CH in HC by auto. destruct (Nat.eqb_spec i (Z.to_nat kp)).
              ** injection HC as <-. subst i. apply U3 in HU'. destruct HU' as [HU'|HU']; [left|right; auto].
                 apply (u_sub _ _ (Z.to_nat kp) c); auto.
              ** left. apply (u_sub _ _ i c0); auto.
           ++ intros [HU| ->].
              ** inversion HU as [|? ? i c0 ? Hi HC HU']; subst. destruct (Nat.eq_dec i (Z.to_nat kp)).
                 { subst i. rewrite C in HC. injection HC as <-. apply (u_sub _ _ (Z.to_nat kp) c'); auto.
                   - rewrite CH, Nat.eqb_refl by auto. reflexivity.
                   - apply U3. auto. }
                 { apply (u_sub _ _ i c0); auto. rewrite CH by auto.
                   destruct (Nat.eqb_spec i (Z.to_nat kp)); [lia|auto]. }
              ** apply (u_sub _ _ (Z.to_nat kp) c'); auto.
                 { rewrite CH, Nat.eqb_refl by auto. reflexivity. } { apply U3. auto. }
    + injection HI as <- <-.
      pose proof (wfbm_set bm kp Hb R) as Hb'.
      assert (TB : tb bm (Z.to_nat kp) = false).
      { destruct (tb bm (Z.to_nat kp)) eqn:TB; auto.
        destruct (child_exists bm ch (Z.to_nat kp) Hl Hk TB) as [c X]. congruence. }
      set (ln := Leaf (keyAt nc s (S D)) (length E)).
      destruct (child_set bm ch kp ln Hl R TB) as [L' CH]. 
      split; [|split].
      * intros e s' HU Hn SM. inversion HU as [|? ? i c0 ? Hi HC HU']; subst.
        pose proof (Hd i c0 e s' Hi HC HU' Hn) as DG. rewrite (digit_same nc s' s (S D) SM) in DG.
        rewrite <- EK in DG. assert (i = Z.to_nat kp) by lia. subst i. apply child_bit in HC. congruence.
      * intros d. constructor; auto.
        -- intros i c0 Hi HC. rewrite CH in HC by auto. destruct (Nat.eqb_spec i (Z.to_nat kp)).
           ++ injection HC as <-. constructor. apply nameof_last.
           ++ apply wf_app. eapply Hc; eauto.
        -- intros i c0 e0 s0 Hi HC HU Hn. rewrite CH in HC by auto. destruct (Nat.eqb_spec i (Z.to_nat kp)).
           ++ injection HC as <-. inversion HU; subst. rewrite nameof_last in Hn. injection Hn as <-. rewrite <- EK. lia.
           ++ destruct (wf_under_valid nc E (S D) c0 e0 (Hc _ _ Hi HC) HU) as [s1 Hs1].
              pose proof (nameof_app E (s, d) e0 s1 Hs1) as X. rewrite Hn in X. injection X as ->.
              eapply Hd; eauto.
      * intros e'. split.
        -- intros HU; inversion HU as [|? ? i c0 ? Hi HC HU']; subst.
           rewrite CH in HC by auto. destruct (Nat.eqb_spec i (Z.to_nat kp)).
           ++ injection HC as <-. inversion HU'; auto.
           ++ left. apply (u_sub _ _ i c0); auto.
        -- intros [HU| ->].
           ++ inversion HU as [|? ? i c0 ? Hi HC HU']; subst. apply (u_sub _ _ i c0); auto.
              rewrite CH by auto. destruct (Nat.eqb_spec i (Z.to_nat kp)); [|auto].
              subst i. apply child_bit in HC. congruence.
           ++ apply (u_sub _ _ (Z.to_nat kp) ln); auto; [|constructor].
              rewrite CH, Nat.eqb_refl by auto. reflexivity.
Qed.

(** * The whole table *)
Definition distinct (nc : bool) (E : list (str * Z)) : Prop :=
  forall e1 e2 s1 s2, nameof E e1 = Some s1 -> nameof E e2 = Some s2 -> same_name nc s1 s2 -> e1 = e2.

Record Inv (nc : bool) (h : hamt) : Prop := {
  I_len : length (root h) = 32%nat;
  I_dist : distinct nc (entries h);
  I_wf : forall i n, nth_error (root h) i = Some (Some n) -> wf nc (entries h) 0 n;
  I_slot : forall i n e s, nth_error (root h) i = Some (Some n) -> under n e ->
     nameof (entries h) e = Some s -> digit nc s 0 = Z.of_nat i;
  I_all : forall e s, nameof (entries h) e = Some s ->
     exists n, nth_error (root h) (Z.to_nat (digit nc s 0)) = Some (Some n) /\ under n e }.

Lemma digit0 : forall nc s, digit nc s 0 = Z.land (HashKey nc s) 31.
Proof. intros. unfold digit, keyAt, kpbAt, kpart. simpl. rewrite Z.shiftr_0_r. reflexivity. Qed.
Lemma keyAt0 : forall nc s, keyAt nc s 0 = HashKey nc s. Proof. reflexivity. Qed.

Lemma Inv_create : forall nc, Inv nc create.
Proof.
  intros nc. constructor; simpl.
  - reflexivity.
  - intros e1 e2 s1 s2 H. unfold nameof in H. destruct e1; discriminate.
  - intros i n H. do 32 (destruct i as [|i]; [discriminate|]). destruct i; discriminate.
  - intros i n e s H. do 32 (destruct i as [|i]; [discriminate|]). destruct i; discriminate.
  - intros e s H. unfold nameof in H. destruct e; discriminate.
Qed.

Lemma spec_find_complete : forall nc E e s s' d, distinct nc E ->
  nth_error E e = Some (s', d) -> same_name nc s' s -> spec_find nc E s (Some d).
Proof.
  induction E as [|[k d0] E IH]; intros e s s' d HD N SM; [destruct e; discriminate|].
  destruct e as [|e]; simpl in N.
  - injection N as -> ->. constructor; auto.
  - apply sf_miss.
    + intros X. assert (H : (0 = S e)%nat); [|discriminate].
      apply (HD 0%nat (S e) k s'); unfold nameof; simpl; rewrite ?N; auto.
      eapply same_trans; eauto. apply same_sym; auto.
    + apply (IH e s s' d); auto. intros e1 e2 s1 s2 H1 H2 H3.
      assert (S e1 = S e2) as Q by (apply (HD (S e1) (S e2) s1 s2); auto). injection Q; auto.
Qed.
Lemma spec_find_none : forall nc E s, (forall e s', nameof E e = Some s' -> ~ same_name nc s' s) ->
  spec_find nc E s None.
Proof.
  induction E as [|[k d0] E IH]; intros s H; [constructor|].
  apply sf_miss.
  - apply (H 0%nat). reflexivity.
  - apply IH. intros e s' N. apply (H (S e)). exact N.
Qed.
Lemma spec_insert_new : forall nc E s d r, (forall e s', nameof E e = Some s' -> ~ same_name nc s' s) ->
  spec_insert nc E s d r (E ++ [(s, d)]) (IRes d true []).
Proof.
  induction E as [|[k d0] E IH]; intros s d r H; [constructor|].
  simpl. apply si_skip.
  - apply (H 0%nat). reflexivity.
  - apply IH. intros e s' N. apply (H (S e)). exact N.
Qed.
Lemma spec_insert_old : forall nc E e s s' d old r, distinct nc E ->
  nth_error E e = Some (s', old) -> same_name nc s' s ->
  spec_insert nc E s d r (if r then upd E e (s, d) else E)
    (if r then IRes d r [old] else IRes old r [d]).
Proof.
  induction E as [|[k d0] E IH]; intros e s s' d old r HD N SM; [destruct e; discriminate|].
  destruct e as [|e]; simpl in N.
  - injection N as -> ->. destruct r; simpl; constructor; auto.
  - replace (if r then upd ((k, d0) :: E) (S e) (s, d) else (k, d0) :: E)
      with ((k, d0) :: (if r then upd E e (s, d) else E)) by (destruct r; reflexivity).
    apply si_skip.
    + intros X. assert (H : (0 = S e)%nat); [|discriminate].
      apply (HD 0%nat (S e) k s'); unfold nameof; simpl; rewrite ?N; auto.
      eapply same_trans; eauto. apply same_sym; auto.
    + apply (IH e s s' d old r); auto. intros e1 e2 s1 s2 H1 H2 H3.
      assert (S e1 = S e2) as Q by (apply (HD (S e1) (S e2) s1 s2); auto). injection Q; auto.
Qed.

Lemma search_correct : forall nc h s, Inv nc h -> spec_find nc (entries h) s (search nc h s).
Proof.
  intros nc h s I. unfold search.
  pose proof (digit_range nc s 0) as R. rewrite <- digit0.
  assert (NIL : (forall e s', nameof (entries h) e = Some s' -> same_name nc s' s ->
      exists n, nth_error (root h) (Z.to_nat (digit nc s 0)) = Some (Some n) /\ under n e)).
  { intros e s' N SM. destruct (I_all _ _ I e s' N) as [n [H1 H2]].
    rewrite (digit_same nc s' s 0 SM) in H1. eauto. }
  destruct (nth_error (root h) (Z.to_nat (digit nc s 0))) as [[n|]|] eqn:RT.
  - destruct (search_node nc (entries h) s n (HashKey nc s) 0 0) as [e|] eqn:S.
    + destruct (search_sound nc (entries h) s 0 n e (I_wf _ _ I _ _ RT) S) as [U [s' [N SM]]].
      unfold nameof in N. destruct (nth_error (entries h) e) as [[k d]|] eqn:NE; [|discriminate].
      simpl in N. injection N as ->. simpl. eapply spec_find_complete; eauto. apply I_dist; auto.
    + apply spec_find_none. intros e s' N SM.
      destruct (NIL e s' N SM) as [n' [H1 H2]]. injection H1 as <-.
      pose proof (search_complete nc (entries h) s 0 n e s' (I_wf _ _ I _ _ RT) H2 N SM) as SC.
      rewrite keyAt0 in SC. change (kpbAt 0) with 0 in SC. rewrite S in SC.
      assert (None = Some e) as X; [|discriminate].
      apply SC. intros e2 s2 U2 N2 S2. apply (I_dist _ _ I e2 e s2 s'); auto.
      eapply same_trans; eauto. apply same_sym; auto.
  - apply spec_find_none. intros e s' N SM. destruct (NIL e s' N SM) as [n' [H1 H2]]. discriminate.
  - apply spec_find_none. intros e s' N SM. destruct (NIL e s' N SM) as [n' [H1 H2]]. discriminate.
Qed.

Lemma nameof_app_inv : forall E x e s, nameof (E ++ [x]) e = Some s ->
  nameof E e = Some s \/ (e = length E /\ s = fst x).
Proof.
  intros E x e s H. unfold nameof in *. destruct (Nat.lt_ge_cases e (length E)).
  - rewrite nth_error_app1 in H by lia. auto.
  - rewrite nth_error_app2 in H by lia. destruct (e - length E)%nat as [|k] eqn:Q; simpl in H.
    + right. injection H as <-. split; [lia|reflexivity].
    + destruct k; discriminate.
Qed.

Lemma Inv_add : forall nc h s d n', Inv nc h ->
  (forall e s', nameof (entries h) e = Some s' -> ~ same_name nc s' s) ->
  wf nc (entries h ++ [(s, d)]) 0 n' ->
  (forall e, under n' e <-> (exists n, nth_error (root h) (Z.to_nat (digit nc s 0)) = Some (Some n) /\ under n e)
                           \/ e = length (entries h)) ->
  Inv nc (Hamt (entries h ++ [(s, d)]) (upd (root h) (Z.to_nat (digit nc s 0)) (Some n'))).
Proof.
  intros nc h s d n' I NEW W U. pose proof (digit_range nc s 0) as R.
  assert (SL : (Z.to_nat (digit nc s 0) < length (root h))%nat) by (rewrite (I_len _ _ I); lia).
  constructor; cbn [entries root].
  - rewrite upd_length. apply I; auto.
  - intros e1 e2 s1 s2 H1 H2 H3. apply nameof_app_inv in H1, H2.
    destruct H1 as [H1|[-> ->]], H2 as [H2|[-> ->]]; auto.
    + eapply I_dist; eauto.
    + simpl in H3. exfalso. exact (NEW _ _ H1 H3).
    + simpl in H3. exfalso. apply (NEW _ _ H2). apply same_sym; auto.
  - intros i n N. rewrite nth_error_upd in N by auto. destruct (Nat.eqb_spec (Z.to_nat (digit nc s 0)) i).
    + injection N as <-. auto.
    + apply wf_app. eapply I_wf; eauto.
  - intros i n e s' N HU Hn. rewrite nth_error_upd in N by auto.
    destruct (Nat.eqb_spec (Z.to_nat (digit nc s 0)) i).
    + injection N as <-. apply U in HU. destruct HU as [[n [N HU]]| ->].
      * destruct (wf_under_valid _ _ _ _ _ (I_wf _ _ I _ _ N) HU) as [s1 H1].
        pose proof (nameof_app _ (s, d) _ _ H1) as X. rewrite Hn in X. injection X as ->.
        pose proof (I_slot _ _ I _ _ _ _ N HU H1). lia.
      * rewrite nameof_last in Hn. injection Hn as <-. lia.
    + destruct (wf_under_valid _ _ _ _ _ (I_wf _ _ I _ _ N) HU) as [s1 H1].
      pose proof (nameof_app _ (s, d) _ _ H1) as X. rewrite Hn in X. injection X as ->.
      eapply I_slot; eauto.
  - intros e s' Hn. apply nameof_app_inv in Hn. destruct Hn as [Hn|[-> ->]].
    + destruct (I_all _ _ I e s' Hn) as [n [N HU]].
      rewrite nth_error_upd by auto.
      destruct (Nat.eqb_spec (Z.to_nat (digit nc s 0)) (Z.to_nat (digit nc s' 0))) as [Q|].
      * exists n'. split; auto. apply U. left. exists n. rewrite Q. auto.
      * eauto.
    + exists n'. simpl fst. rewrite nth_error_upd, Nat.eqb_refl by auto. split; auto. apply U. auto.
Qed.

Lemma nameof_upd : forall E e s' x k, nameof E e = Some s' ->
  nameof (upd E e x) k = if (e =? k)%nat then Some (fst x) else nameof E k.
Proof.
  intros E e s' x k H. apply nameof_lt in H. unfold nameof. rewrite nth_error_upd by auto.
  destruct (e =? k)%nat; reflexivity.
Qed.

Lemma Inv_replace : forall nc h e s s' E' n n', Inv nc h ->
  nameof (entries h) e = Some s' -> same_name nc s' s ->
  (forall k, nameof E' k = if (e =? k)%nat then Some s else nameof (entries h) k) \/ E' = entries h ->
  nth_error (root h) (Z.to_nat (digit nc s 0)) = Some (Some n) ->
  wf nc (entries h) 0 n' -> (forall k, under n' k <-> under n k) ->
  Inv nc (Hamt E' (upd (root h) (Z.to_nat (digit nc s 0)) (Some n'))).
Proof.
  intros nc h e s s' E' n n' I He SM HE RT W U. pose proof (digit_range nc s 0) as R.
  assert (SL : (Z.to_nat (digit nc s 0) < length (root h))%nat) by (rewrite (I_len _ _ I); lia).
  assert (F : forall k t, nameof E' k = Some t -> exists t', nameof (entries h) k = Some t' /\ same_name nc t' t).
  { intros k t Hk. destruct HE as [HE| ->]; [|exists t; split; auto; apply same_refl].
    rewrite HE in Hk. destruct (Nat.eqb_spec e k).
    - subst k. injection Hk as <-. eauto.
    - exists t. split; auto. apply same_refl. }
  assert (F2 : forall k t, nameof (entries h) k = Some t -> exists t', nameof E' k = Some t' /\ same_name nc t t').
  { intros k t Hk. destruct HE as [HE| ->]; [|exists t; split; auto; apply same_refl].
    rewrite HE. destruct (Nat.eqb_spec e k).
    - subst k. rewrite He in Hk. injection Hk as <-. eauto.
    - exists t. split; auto. apply same_refl. }
  assert (WE : forall D m, wf nc (entries h) D m -> wf nc E' D m).
  { intros D m Wm. apply (wf_ext nc (entries h)); auto. intros k t Hk _. destruct (F k t Hk) as [t' [H1 _]]. eauto. }
  constructor; cbn [entries root].
  - rewrite upd_length. apply I; auto.
  - intros e1 e2 s1 s2 H1 H2 H3. destruct (F _ _ H1) as [t1 [K1 M1]]. destruct (F _ _ H2) as [t2 [K2 M2]].
    apply (I_dist _ _ I e1 e2 t1 t2); auto. eapply same_trans; [exact M1|]. eapply same_trans; [exact H3|]. apply same_sym; auto.
  - intros i m N. rewrite nth_error_upd in N by auto. destruct (Nat.eqb_spec (Z.to_nat (digit nc s 0)) i).
    + injection N as <-. auto.
    + apply WE. eapply I_wf; eauto.
  - intros i m k t N HU Hk. destruct (F _ _ Hk) as [t' [K M]]. rewrite <- (digit_same nc t' t 0 M).
    rewrite nth_error_upd in N by auto. destruct (Nat.eqb_spec (Z.to_nat (digit nc s 0)) i).
    + injection N as <-. apply U in HU. subst i. eapply I_slot; eauto.
    + eapply I_slot; eauto.
  - intros k t Hk. destruct (F _ _ Hk) as [t' [K M]]. rewrite <- (digit_same nc t' t 0 M).
    destruct (I_all _ _ I k t' K) as [m [N HU]]. rewrite nth_error_upd by auto.
    destruct (Nat.eqb_spec (Z.to_nat (digit nc s 0)) (Z.to_nat (digit nc t' 0))) as [Q|].
    + exists n'. split; auto. apply U. rewrite <- Q in N. rewrite RT in N. injection N as <-. auto.
    + eauto.
Qed.

Lemma insert_ok : forall fuel nc h s d r h' x, Inv nc h -> insert fuel nc h s d r = Some (h', x) ->
  Inv nc h' /\ spec_insert nc (entries h) s d r (entries h') x.
Proof.
  intros fuel nc h s d r h' x I H. unfold insert in H. rewrite <- digit0 in H.
  pose proof (digit_range nc s 0) as R.
  assert (SL : (Z.to_nat (digit nc s 0) < length (root h))%nat) by (rewrite (I_len _ _ I); lia).
  destruct (nth_error (root h) (Z.to_nat (digit nc s 0))) as [[n|]|] eqn:RT; [| |discriminate].
  - destruct (insert_node fuel nc (entries h) s n (HashKey nc s) 0 0) as [[n' o]|] eqn:IN; [|discriminate].
    pose proof (insert_correct fuel nc (entries h) s 0 n n' o (I_wf _ _ I _ _ RT) IN) as C.
    destruct o as [e|].
    + destruct C as [U1 [[s' [N SM]] [W U2]]]. pose proof N as N0.
      unfold nameof in N. destruct (nth_error (entries h) e) as [[k old]|] eqn:NE; [|discriminate].
      simpl in N. injection N as ->.
      pose proof (spec_insert_old nc (entries h) e s s' d old r (I_dist _ _ I) NE SM) as SI.
      destruct r; injection H as <- <-; (split; [|exact SI]).
      * eapply Inv_replace; eauto. left. intros k. rewrite (nameof_upd _ _ _ _ _ N0). reflexivity.
      * eapply Inv_replace; eauto.
    + destruct C as [U1 [W U2]]. injection H as <- <-.
      assert (NEW : forall e s', nameof (entries h) e = Some s' -> ~ same_name nc s' s).
      { intros e s' Hn SM. destruct (I_all _ _ I e s' Hn) as [m [N HU]].
        rewrite (digit_same nc s' s 0 SM), RT in N. injection N as <-. exact (U1 e s' HU Hn SM). }
      split; [|apply spec_insert_new; auto].
      apply Inv_add; auto. intros e. rewrite U2. split.
      * intros [X|X]; auto. left. eauto.
      * intros [[m [N HU]]|X]; auto. rewrite RT in N. injection N as <-. auto.
  - injection H as <- <-.
    assert (NEW : forall e s', nameof (entries h) e = Some s' -> ~ same_name nc s' s).
    { intros e s' Hn SM. destruct (I_all _ _ I e s' Hn) as [m [N HU]].
      rewrite (digit_same nc s' s 0 SM), RT in N. discriminate. }
    split; [|apply spec_insert_new; auto].
    apply Inv_add; auto.
    + rewrite <- keyAt0. constructor. apply nameof_last.
    + intros e. split.
      * intros U. inversion U. auto.
      * intros [[m [N HU]]| ->]; [rewrite RT in N; discriminate|constructor].
Qed.

Lemma run_from_ok : forall fuel nc ops h h' xs, Inv nc h -> run_from fuel nc h ops = Some (h', xs) ->
  Inv nc h' /\ spec_run nc (entries h) ops (entries h') xs.
Proof.
  intros fuel nc. induction ops as [|o ops IH]; intros h h' xs I H; simpl in H.
  - injection H as <- <-. split; auto. constructor.
  - destruct (step fuel nc h o) as [[h1 x]|] eqn:S; [|discriminate].
    destruct (run_from fuel nc h1 ops) as [[h2 ys]|] eqn:R; [|discriminate]. injection H as <- <-.
    destruct o as [s d r|s]; simpl in S.
    + destruct (insert fuel nc h s d r) as [[h3 y]|] eqn:IN; [|discriminate]. injection S as <- <-.
      destruct (insert_ok _ _ _ _ _ _ _ _ I IN) as [I1 SI].
      destruct (IH _ _ _ I1 R) as [I2 SR]. split; auto. econstructor; eauto.
    + injection S as <- <-. destruct (IH _ _ _ I R) as [I2 SR]. split; auto.
      econstructor; eauto. apply search_correct; auto.
Qed.

Lemma run_refines : forall fuel nc ops h xs, run fuel nc ops = Some (h, xs) ->
  spec_run nc [] ops (entries h) xs.
Proof. intros fuel nc ops h xs H. apply (run_from_ok _ _ _ create h xs (Inv_create nc) H). Qed.

(** ** History form *)
Lemma name_eqb_spec : forall nc a b, name_eqb nc a b = true <-> same_name nc a b.
Proof.
  intros nc a. induction a as [|x a IH]; intros [|y b]; simpl.
  - split; auto. intros _. apply same_refl.
  - split; [discriminate|]. destruct nc; simpl; intros H; [inversion H|discriminate].
  - split; [discriminate|]. destruct nc; simpl; intros H; [inversion H|discriminate].
  - rewrite andb_true_iff, IH. destruct nc; simpl.
    + assert (C : (x =? y) || ((65 <=? x) && (x <=? 90) && (y =? x + 32) || (65 <=? y) && (y <=? 90) && (x =? y + 32)) = true <-> ci_char x y).
      { unfold ci_char. destruct (Z.eqb_spec x y), (Z.leb_spec 65 x), (Z.leb_spec x 90), (Z.eqb_spec y (x + 32)),
          (Z.leb_spec 65 y), (Z.leb_spec y 90), (Z.eqb_spec x (y + 32)); simpl; split; intros; try lia; try reflexivity; try discriminate. }
      rewrite C. split; [intros [H1 H2]; constructor; auto|intros H; inversion H; auto].
    + rewrite orb_false_r, Z.eqb_eq. split; [intros [-> ->]; reflexivity|intros H; injection H; auto].
Qed.

Lemma spec_find_fun : forall nc m s x y, spec_find nc m s x -> spec_find nc m s y -> x = y.
Proof.
  intros nc m s x y H. revert y. induction H; intros y H'; inversion H'; subst; auto; contradiction.
Qed.

Lemma spec_insert_find : forall nc m k d r m' x s cur, spec_insert nc m k d r m' x ->
  spec_find nc m s cur ->
  spec_find nc m' s (if name_eqb nc k s then match cur with Some _ => if r then Some d else cur | None => Some d end
                     else cur).
Proof.
  intros nc m k d r m' x s cur H. revert cur.
  induction H as [s0 d r|k old m s0 d SM|k old m s0 d SM|k old m s0 d r m' x SM SI IH]; intros cur F.
  - inversion F; subst. destruct (name_eqb nc s0 s) eqn:Q.
    + apply name_eqb_spec in Q. constructor; auto.
    + constructor; [|constructor]. intros X. apply name_eqb_spec in X. congruence.
  - destruct (name_eqb nc s0 s) eqn:Q; auto. apply name_eqb_spec in Q.
    inversion F; subst; auto. exfalso. match goal with X : ~ same_name nc k s |- _ => apply X end. eapply same_trans; eauto.
  - destruct (name_eqb nc s0 s) eqn:Q.
    + apply name_eqb_spec in Q. inversion F; subst.
      * constructor; auto.
      * exfalso. match goal with X : ~ same_name nc k s |- _ => apply X end. eapply same_trans; eauto.
    + assert (N : ~ same_name nc s0 s) by (intros X; apply name_eqb_spec in X; congruence).
      inversion F; subst.
      * exfalso. apply N. eapply same_trans; [apply same_sym; eauto|auto].
      * constructor; auto.
  - inversion F; subst.
    + destruct (name_eqb nc s0 s) eqn:Q; [|constructor; auto].
      apply name_eqb_spec in Q. exfalso. apply SM. eapply same_trans; eauto. apply same_sym; auto.
    + constructor; auto.
Qed.

Lemma spec_run_find : forall nc m ops m' xs s cur, spec_run nc m ops m' xs -> spec_find nc m s cur ->
  spec_find nc m' s (value_from nc cur ops s).
Proof.
  intros nc m ops m' xs s cur H. revert cur. induction H; intros cur F; simpl; auto.
  apply IHspec_run. eapply spec_insert_find; eauto.
Qed.

Lemma search_history : forall fuel nc ops h xs s, run fuel nc ops = Some (h, xs) ->
  search nc h s = value_of nc ops s.
Proof.
  intros fuel nc ops h xs s H. destruct (run_from_ok _ _ _ create h xs (Inv_create nc) H) as [I SR].
  eapply spec_find_fun; [apply search_correct; eauto|].
  apply (spec_run_find nc [] ops (entries h) xs s None SR). constructor.
Qed.

Lemma spec_insert_names : forall nc m k d r m' x ks, spec_insert nc m k d r m' x ->
  Forall2 (fun a e => same_name nc a (fst e)) ks m ->
  Forall2 (fun a e => same_name nc a (fst e)) (if existsb (fun k' => name_eqb nc k' k) ks then ks else ks ++ [k]) m'.
Proof.
  intros nc m k d r m' x ks H. revert ks.
  induction H as [s0 d r|k old m s0 d SM|k old m s0 d SM|k old m s0 d r m' x SM SI IH]; intros ks F;
    inversion F as [|a e ks' m0 Ha F' Q1 Q2]; subst; cbn [existsb fst] in *.
  - simpl. constructor; [apply same_refl|constructor].
  - assert (name_eqb nc a s0 = true) as -> by (apply name_eqb_spec; eapply same_trans; eauto). simpl. auto.
  - assert (name_eqb nc a s0 = true) as -> by (apply name_eqb_spec; eapply same_trans; eauto). simpl.
    constructor; auto. simpl. eapply same_trans; eauto.
  - destruct (name_eqb nc a s0) eqn:Q.
    + apply name_eqb_spec in Q. exfalso. apply SM. eapply same_trans; [apply same_sym; eauto|auto].
    + simpl orb. specialize (IH ks' F'). destruct (existsb (fun k' => name_eqb nc k' s0) ks'); simpl; constructor; auto.
Qed.

Lemma spec_run_names : forall nc m ops m' xs ks, spec_run nc m ops m' xs ->
  Forall2 (fun a e => same_name nc a (fst e)) ks m ->
  Forall2 (fun a e => same_name nc a (fst e)) (ks ++ firsts nc ks ops) m'.
Proof.
  intros nc m ops m' xs ks H. revert ks. induction H; intros ks F; simpl.
  - rewrite app_nil_r. auto.
  - pose proof (spec_insert_names _ _ _ _ _ _ _ _ H F) as F'.
    destruct (existsb (fun k' => name_eqb nc k' s) ks).
    + apply IHspec_run; auto.
    + specialize (IHspec_run _ F'). rewrite <- app_assoc in IHspec_run. exact IHspec_run.
  - auto.
Qed.

Lemma find_same : forall nc m a b x, same_name nc a b -> spec_find nc m a x -> spec_find nc m b x.
Proof.
  intros nc m a b x SM H. induction H; constructor; auto.
  - eapply same_trans; eauto.
  - intros X. apply H. eapply same_trans; eauto. apply same_sym; auto.
Qed.

Lemma traverse_history : forall fuel nc ops h xs, run fuel nc ops = Some (h, xs) ->
  exists ds : list Z, map (@Some Z) ds = map (value_of nc ops) (firsts nc [] ops) /\
    forall S (func : Z -> S -> S * Z) st, visits func ds st (traverse h func st).
Proof.
  intros fuel nc ops h xs H. destruct (run_from_ok _ _ _ create h xs (Inv_create nc) H) as [I SR].
  exists (map snd (entries h)). split.
  - pose proof (spec_run_names nc [] ops _ xs [] SR (Forall2_nil _)) as F. simpl in F.
    assert (V : forall s, spec_find nc (entries h) s (value_of nc ops s)).
    { intros s. apply (spec_run_find nc [] ops (entries h) xs s None SR). constructor. }
    assert (D : forall e k d, nth_error (entries h) e = Some (k, d) -> value_of nc ops k = Some d).
    { intros e k d N. eapply spec_find_fun; [apply V|]. eapply spec_find_complete; eauto.
      - apply I. - apply same_refl. }
    rewrite map_map. revert D F V. generalize (entries h) (firsts nc [] ops). clear.
    intros E L D F V.
    assert (G : forall E0 L0, (forall x, In x E0 -> In x E) -> Forall2 (fun a e => same_name nc a (fst e)) L0 E0 ->
      map (fun x => Some (snd x)) E0 = map (value_of nc ops) L0).
    { intros E0 L0 IN F0. induction F0 as [|a [k d] L0 E0 Ha F0 IH]; simpl; auto.
      f_equal.
      - simpl in Ha. assert (IN0 : In (k, d) E) by (apply IN; left; auto).
        apply In_nth_error in IN0. destruct IN0 as [e N].
        pose proof (V k) as Vk. rewrite (D e k d N) in Vk.
        symmetry. eapply spec_find_fun; [apply V|]. eapply find_same; [|exact Vk]. apply same_sym; auto.
      - apply IH. intros x Hx. apply IN. right. auto. }
    apply G; auto.
  - intros S func st. unfold traverse. generalize (entries h). clear. intros E. revert st.
    induction E as [|[k d] E IH]; intros st; simpl; [constructor|].
    destruct (func d st) as [st' rv] eqn:F. destruct (Z.eqb_spec rv 0).
    + subst rv. eapply v_go; eauto.
    + eapply v_stop; eauto.
Qed.

(** * Termination *)
Lemma build_mono : forall f1 f2 nc s s2 e2 en k k2 b l n, (f1 <= f2)%nat ->
  build f1 nc s s2 e2 en k k2 b l = Some n -> build f2 nc s s2 e2 en k k2 b l = Some n.
Proof.
  induction f1 as [|f1 IH]; intros f2 nc s s2 e2 en k k2 b l n Hle H; simpl in H; [discriminate|].
  destruct f2 as [|f2]; [lia|]. simpl.
  destruct (next_key nc s k b l) as [k' b']. destruct (next_key nc s2 k2 b l) as [k2' b2'].
  destruct (kpart k' b' =? kpart k2' b'); auto.
  destruct (build f1 nc s s2 e2 en k' k2' b' (S l)) as [n'|] eqn:B; [|discriminate].
  rewrite (IH f2 _ _ _ _ _ _ _ _ _ n' ltac:(lia) B). exact H.
Qed.

Lemma build_terminates : forall nc s s2 e2 en m D,
  digit nc s (m + S D) <> digit nc s2 (m + S D) ->
  exists n, build (S m) nc s s2 e2 en (keyAt nc s D) (keyAt nc s2 D) (kpbAt D) D = Some n.
Proof.
  induction m as [|m IH]; intros D H.
  - cbn [build]. rewrite !next_key_at. cbv beta iota zeta.
    fold (digit nc s (S D)). fold (digit nc s2 (S D)).
    destruct (Z.eqb_spec (digit nc s (S D)) (digit nc s2 (S D))); [contradiction|eauto].
  - remember (S m) as m'. cbn [build]. rewrite !next_key_at. cbv beta iota zeta.
    fold (digit nc s (S D)). fold (digit nc s2 (S D)).
    destruct (Z.eqb_spec (digit nc s (S D)) (digit nc s2 (S D))) as [Q|]; [|eauto].
    subst m'. destruct (IH (S D)) as [n B].
    { replace (m + S (S D))%nat with (S m + S D)%nat by lia. auto. }
    rewrite B. eauto.
Qed.

Lemma build_diverges : forall f nc s s2 e2 en D,
  (forall D', (D < D')%nat -> digit nc s D' = digit nc s2 D') ->
  build f nc s s2 e2 en (keyAt nc s D) (keyAt nc s2 D) (kpbAt D) D = None.
Proof.
  induction f as [|f IH]; intros nc s s2 e2 en D H; [reflexivity|].
  cbn [build]. rewrite !next_key_at. cbv beta iota zeta.
  fold (digit nc s (S D)). fold (digit nc s2 (S D)).
  rewrite H by lia. rewrite Z.eqb_refl. rewrite IH; auto. intros D' HD. apply H. lia.
Qed.

Lemma insert_node_terminates : forall nc E s D n B, wf nc E D n ->
  (forall d, (d <= D)%nat -> forall e s', under n e -> nameof E e = Some s' -> digit nc s' d = digit nc s d) ->
  (forall e s', under n e -> nameof E e = Some s' -> same_name nc s' s \/
      exists d, (d <= B)%nat /\ digit nc s d <> digit nc s' d) ->
  exists r, insert_node (S B) nc E s n (keyAt nc s D) (kpbAt D) D = Some r.
Proof.
  intros nc E s D n B W. induction W as [D e s0 He|D bm ch Hb Hl Hc IH Hd]; intros PRE H.
  - rewrite insert_leaf_eq. pose proof He as He0. unfold nameof in He.
    destruct (nth_error E e) as [[s2 d]|] eqn:N; [|discriminate].
    simpl in He. injection He as ->.
    destruct ((keyAt nc s0 D =? keyAt nc s D) && CmpEq nc s0 s) eqn:Q; [eauto|].
    destruct (H e s0 (u_leaf _ _) He0) as [SM|[d0 [Hd0 NE]]].
    + rewrite (keyAt_same nc s0 s D SM), Z.eqb_refl in Q. apply CmpEq_spec in SM. rewrite SM in Q. discriminate.
    + assert (D < d0)%nat.
      { destruct (Nat.lt_ge_cases D d0); auto. exfalso. apply NE. symmetry.
        apply (PRE d0 ltac:(lia) e s0); auto. constructor. }
      destruct (build_terminates nc s s0 e (length E) (d0 - S D) D) as [nb Bq].
      { replace (d0 - S D + S D)%nat with d0 by lia. auto. }
      apply (build_mono _ (S B)) in Bq; [|lia]. rewrite Bq. eauto.
  - assert (EK : exists kp, is_digit nc s (S D) kp) by (eexists; reflexivity). destruct EK as [kp EK].
    rewrite (insert_sub_at (S B) nc E s bm ch D kp Hb Hl EK).
    pose proof (digit_range nc s (S D)) as R. rewrite <- EK in R.
    assert (Hk : (Z.to_nat kp < 32)%nat) by lia.
    destruct (child bm ch (Z.to_nat kp)) as [c|] eqn:C; [|eauto].
    destruct (IH (Z.to_nat kp) c Hk C) as [[c' o] IN].
    + intros d Hd0 e s' U Hn. destruct (Nat.eq_dec d (S D)) as [->|].
      * rewrite (Hd (Z.to_nat kp) c e s' Hk C U Hn). rewrite <- EK. lia.
      * apply (PRE d ltac:(lia) e s'); auto. apply (u_sub _ _ (Z.to_nat kp) c); auto.
    + intros e s' U Hn. apply (H e s'); auto. apply (u_sub _ _ (Z.to_nat kp) c); auto.
    + rewrite IN. eauto.
Qed.

Lemma insert_terminates : forall nc h s d r B, Inv nc h ->
  (forall e s', nameof (entries h) e = Some s' -> same_name nc s' s \/
      exists D, (D <= B)%nat /\ digit nc s D <> digit nc s' D) ->
  exists x, insert (S B) nc h s d r = Some x.
Proof.
  intros nc h s d r B I H. unfold insert. rewrite <- digit0. pose proof (digit_range nc s 0) as R.
  assert (SL : (Z.to_nat (digit nc s 0) < length (root h))%nat) by (rewrite (I_len _ _ I); lia).
  destruct (nth_error (root h) (Z.to_nat (digit nc s 0))) as [[n|]|] eqn:RT.
  - destruct (insert_node_terminates nc (entries h) s 0 n B (I_wf _ _ I _ _ RT)) as [[n' o] IN].
    + intros d0 Hd e s' U Hn. assert (d0 = 0%nat) by lia. subst d0.
      rewrite (I_slot _ _ I _ _ _ _ RT U Hn). lia.
    + intros e s' U Hn. eapply H; eauto.
    + change (kpbAt 0) with 0 in IN. rewrite keyAt0 in IN. rewrite IN.
      pose proof (insert_correct _ _ _ _ _ _ _ _ (I_wf _ _ I _ _ RT) IN) as C.
      destruct o as [e|]; [|eauto]. destruct C as [_ [[s' [N _]] _]].
      unfold nameof in N. destruct (nth_error (entries h) e) as [[k old]|]; [|discriminate].
      destruct r; eauto.
  - eauto.
  - apply nth_error_None in RT. lia.
Qed.

(** Every stored name was inserted by the history. *)
Definition inserted (ops : list op) : list str :=
  flat_map (fun o => match o with OIns s _ _ => [s] | OFind _ => [] end) ops.

Lemma spec_insert_in : forall nc m k d r m' x, spec_insert nc m k d r m' x ->
  forall y, In y m' -> fst y = k \/ In (fst y) (map fst m).
Proof.
  intros nc m k d r m' x H.
  induction H as [s0 d r|k old m s0 d SM|k old m s0 d SM|k old m s0 d r m' x SM SI IH];
    intros y [<-|Hy]; simpl; auto.
  - right. right. apply in_map; auto.
  - right. right. apply in_map; auto.
  - destruct (IH y Hy); auto.
Qed.
Lemma spec_run_in : forall nc m ops m' xs, spec_run nc m ops m' xs ->
  forall y, In y m' -> In (fst y) (map fst m) \/ In (fst y) (inserted ops).
Proof.
  intros nc m ops m' xs H. induction H; intros y Hy.
  - left. apply in_map; auto.
  - destruct (IHspec_run y Hy) as [X|X].
    + apply in_map_iff in X. destruct X as [z [E Hz]].
      destruct (spec_insert_in _ _ _ _ _ _ _ H z Hz) as [Q|Q].
      * right. simpl. left. congruence.
      * left. congruence.
    + right. simpl. auto.
  - simpl. auto.
Qed.

Lemma run_terminates : forall nc B ops,
  (forall s t, In s (inserted ops) -> In t (inserted ops) -> same_name nc s t \/
     exists D, (D <= B)%nat /\ digit nc s D <> digit nc t D) ->
  exists x, run (S B) nc ops = Some x.
Proof.
  intros nc B ops H.
  assert (G : forall ops2 h, Inv nc h -> (forall y, In y (entries h) -> In (fst y) (inserted ops)) ->
     (forall s, In s (inserted ops2) -> In s (inserted ops)) ->
     exists x, run_from (S B) nc h ops2 = Some x).
  { induction ops2 as [|o ops2 IH]; intros h I HE HS; simpl; [eauto|].
    destruct o as [s d r|s]; cbn [step].
    - destruct (insert_terminates nc h s d r B I) as [[h' x] IN].
      + intros e s' Hn. unfold nameof in Hn. destruct (nth_error (entries h) e) as [[k v]|] eqn:N; [|discriminate].
        simpl in Hn. injection Hn as ->. apply nth_error_In in N. apply HE in N. simpl in N.
        assert (Hs : In s (inserted ops)) by (apply HS; simpl; auto).
        destruct (H s s' Hs N) as [X|X]; [left; apply same_sym; auto|right; auto].
      + rewrite IN. destruct (insert_ok _ _ _ _ _ _ _ _ I IN) as [I' SI].
        destruct (IH h' I') as [[h2 xs] RN].
        * intros y Hy. destruct (spec_insert_in _ _ _ _ _ _ _ SI y Hy) as [->|Q]; [apply HS; simpl; auto|].
          apply in_map_iff in Q. destruct Q as [z [<- Hz]]. auto.
        * intros q Hq. apply HS. simpl. auto.
        * rewrite RN. eauto.
    - destruct (IH h I HE) as [[h2 xs] RN]; [intros q Hq; apply HS; simpl; auto|]. rewrite RN. eauto. }
  apply (G ops create (Inv_create nc)); auto. intros y [].
Qed.

Lemma insert_diverges : forall fuel nc s t d1 d2 r1 r2, ~ same_name nc s t ->
  (forall D, digit nc s D = digit nc t D) ->
  run fuel nc [OIns s d1 r1; OIns t d2 r2] = None.
Proof.
  intros fuel nc s t d1 d2 r1 r2 NS H. unfold run. cbn [run_from step].
  unfold insert at 1. rewrite <- digit0.
  pose proof (digit_range nc s 0) as R.
  replace (nth_error (root create) (Z.to_nat (digit nc s 0))) with (Some (@None node)).
  2:{ symmetry. cbn [root create]. apply nth_error_repeat. lia. }
  set (h1 := Hamt _ _). cbv beta iota.
  replace (insert fuel nc h1 t d2 r2) with (@None (hamt * ires)); [reflexivity|].
  symmetry. unfold insert. rewrite <- digit0. rewrite <- (H 0%nat).
  unfold h1 at 1. cbn [root]. rewrite nth_error_upd by (simpl; lia). rewrite Nat.eqb_refl.
  replace (insert_node fuel nc (entries h1) t (Leaf (HashKey nc s) (length (entries create))) (HashKey nc t) 0 0)
    with (@None (node * outcome)); [reflexivity|].
  symmetry. cbn [insert_node entries h1 create app length nth_error].
  destruct ((HashKey nc s =? HashKey nc t) && CmpEq nc s t) eqn:Q.
  - apply andb_true_iff in Q. destruct Q as [_ Q]. apply CmpEq_spec in Q. contradiction.
  - rewrite <- !keyAt0. change 0 with (kpbAt 0) at 1. rewrite build_diverges; auto.
Qed.
