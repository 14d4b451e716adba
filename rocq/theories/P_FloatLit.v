(** Specification and proofs for floatnum.c: decimal literals (C61, C62). *)
From Coq Require Import ZArith QArith Qabs Qpower List Bool Lia Lqa.
From Verif Require Import Lib LibBits M_BitVect M_BitVectIv M_Float P_BitVect P_BitVectIO P_FloatZ P_Float.
Import ListNotations.
Open Scope Z_scope.

(** * Specification *)
(** A decimal literal: optional sign, digits, optional point and digits, optional exponent. *)
Record literal := Lit { l_sign : option bool; l_int : list Z; l_frac : option (list Z); l_exp : option (bool * option bool * list Z) }.
Definition sign_text (s : option bool) : list Z := match s with None => [] | Some false => [43] | Some true => [45] end.
Definition text (l : literal) : list Z :=
  sign_text (l_sign l) ++ l_int l ++
  match l_frac l with None => [] | Some f => 46 :: f end ++
  match l_exp l with None => [] | Some (upper, s, d) => (if upper : bool then 69 else 101) :: sign_text s ++ d end.
Definition fracs (l : literal) : list Z := match l_frac l with None => [] | Some f => f end.
Definition negative (s : option bool) : bool := match s with Some b => b | None => false end.
Definition expval (l : literal) : Z :=
  match l_exp l with None => 0 | Some (_, s, d) => if negative s then - number 10 d else number 10 d end.
(** The number it denotes, without the sign. *)
Definition denoted (l : literal) : Q := (inject_Z (number 10 (l_int l ++ fracs l)) * p10 (expval l - Z.of_nat (length (fracs l))))%Q.
(** Only digits where digits belong, and an exponent that an int can hold. *)
Definition literal_ok (l : literal) : Prop :=
  forallb is_dec (l_int l) = true /\ forallb is_dec (fracs l) = true /\
  (forall u s d, l_exp l = Some (u, s, d) -> forallb is_dec d = true) /\
  Z.abs (expval l) + Z.of_nat (length (l_int l ++ fracs l)) < 2 ^ 31.
(** The digits from the first that is not zero on. *)
Definition significant (l : literal) : list Z := skip_zeros (l_int l ++ fracs l).
(** Few enough digits that none is dropped. *)
Definition few (l : literal) : bool :=
  let n := Z.of_nat (length (significant l)) in
  (n <=? 19) || ((n <=? 24) && match fracs l with [] => true | _ => false end).
(** The relative error allowed before the rounding to the format. *)
Definition tol (l : literal) : Q := if few l then 1 # 2 ^ 73 else 1 # 2 ^ 59.
Definition close (eps w v : Q) : Prop := (Qabs (w - v) <= eps * v)%Q.
(** Where rounding reaches 2^(bias+1), and where it stays below 2^(1-bias). *)
Definition over_from (m : fmt) : Q := (p2 (bias m + 1) * (1 - p2 (- (prec m + 1))))%Q.
Definition under_to (m : fmt) : Q := (p2 (1 - bias m) * (1 - p2 (- (prec m + 1))))%Q.

(** * Powers of ten *)
Lemma p10_pos : forall e, (0 < p10 e)%Q.
Proof. intros. apply Qpower_0_lt. reflexivity. Qed.
Lemma p10_add : forall a b, (p10 (a + b) == p10 a * p10 b)%Q.
Proof. intros. apply Qpower_plus. discriminate. Qed.
Lemma p10_Z : forall e, 0 <= e -> (p10 e == inject_Z (10 ^ e))%Q.
Proof.
  intros e E. unfold p10. destruct e as [|p|p]; [reflexivity| |lia]. rewrite Qpower_decomp_pos. unfold Qeq, inject_Z. cbn [Qnum Qden]. rewrite Pos2Z.inj_pow, Z.pow_1_l by lia. lia.
Qed.
Lemma p10_opp : forall e, (p10 e * p10 (- e) == 1)%Q.
Proof. intros. rewrite <- p10_add. replace (e + - e) with 0 by lia. reflexivity. Qed.
Lemma p10_le : forall a b, a <= b -> (p10 a <= p10 b)%Q.
Proof. intros. apply Qpower_le_compat_l; [auto|discriminate]. Qed.
(** ** 10^(2^n) between two numbers of 128 bits times a power of two *)
Fixpoint iv (n : nat) : Z * Z * Z :=
  match n with
  | O => (10 * 2 ^ 124, 10 * 2 ^ 124, -124)
  | S k => let '(lo, hi, a) := iv k in
           let s := Z.log2 (lo * lo) - 127 in (lo * lo / 2 ^ s, hi * hi / 2 ^ s + 1, 2 * a + s)
  end.
Lemma sq_le : forall a b : Q, (0 <= a)%Q -> (a <= b)%Q -> (a * a <= b * b)%Q.
Proof. intros. nra. Qed.
Lemma iv_ok : forall n, let '(lo, hi, a) := iv n in 2 ^ 127 <= lo /\ 0 <= hi /\
  (inject_Z lo * p2 a <= p10 (2 ^ Z.of_nat n) /\ p10 (2 ^ Z.of_nat n) <= inject_Z hi * p2 a)%Q.
Proof.
  induction n as [|n IH].
  - cbn [iv]. split; [lia|]. split; [lia|]. assert (E : (inject_Z (10 * 2 ^ 124) * p2 (-124) == p10 (2 ^ Z.of_nat 0))%Q) by reflexivity. rewrite E. split; apply Qle_refl.
  - cbn [iv]. destruct (iv n) as [[lo hi] a]. destruct IH as (L & H & A1 & A2). set (s := Z.log2 (lo * lo) - 127).
    assert (LL : 2 ^ 254 <= lo * lo) by (change (2 ^ 254) with (2 ^ 127 * 2 ^ 127); nia). assert (S0 : 127 <= s) by (unfold s; assert (254 <= Z.log2 (lo * lo)) by (apply Z.log2_le_pow2; lia); lia).
    pose proof (Z.log2_spec (lo * lo) ltac:(lia)) as [G1 G2]. assert (PS : 0 < 2 ^ s) by (apply pow2_pos; lia).
    assert (SP : 2 ^ Z.log2 (lo * lo) = 2 ^ 127 * 2 ^ s) by (rewrite <- Z.pow_add_r by lia; f_equal; unfold s; lia).
    split; [apply Z.div_le_lower_bound; lia|]. pose proof (Z.div_pos (hi * hi) (2 ^ s) ltac:(nia) PS). split; [lia|].
    assert (XX : (p10 (2 ^ Z.of_nat (S n)) == p10 (2 ^ Z.of_nat n) * p10 (2 ^ Z.of_nat n))%Q).
    { rewrite <- p10_add. replace (2 ^ Z.of_nat (S n)) with (2 ^ Z.of_nat n + 2 ^ Z.of_nat n); [reflexivity|]. rewrite Nat2Z.inj_succ, Z.pow_succ_r by lia. lia. }
    assert (PA : (p2 (2 * a + s) == inject_Z (2 ^ s) * (p2 a * p2 a))%Q) by (replace (2 * a + s) with (s + (a + a)) by lia; rewrite p2_split by lia; rewrite p2_add; reflexivity).
    pose proof (p2_pos a) as PP. assert (PQ : (0 < p2 a * p2 a)%Q) by (apply Qmult_lt_0_compat; auto).
    rewrite XX, PA. split.
    + apply Qle_trans with ((inject_Z lo * p2 a) * (inject_Z lo * p2 a))%Q.
      * setoid_replace (inject_Z (lo * lo / 2 ^ s) * (inject_Z (2 ^ s) * (p2 a * p2 a)))%Q with (inject_Z (lo * lo / 2 ^ s * 2 ^ s) * (p2 a * p2 a))%Q by (rewrite inject_Z_mult; ring).
        setoid_replace (inject_Z lo * p2 a * (inject_Z lo * p2 a))%Q with (inject_Z (lo * lo) * (p2 a * p2 a))%Q by (rewrite inject_Z_mult; ring). apply inject_mul_le; [auto|]. rewrite Z.mul_comm. apply Z.mul_div_le. lia.
      * apply sq_le; [|auto]. apply Qmult_le_0_compat; [rewrite <- (Zle_Qle 0); lia|lra].
    + apply Qle_trans with ((inject_Z hi * p2 a) * (inject_Z hi * p2 a))%Q.
      * apply sq_le; [|auto]. pose proof (p10_pos (2 ^ Z.of_nat n)). lra.
      * setoid_replace (inject_Z (hi * hi / 2 ^ s + 1) * (inject_Z (2 ^ s) * (p2 a * p2 a)))%Q with (inject_Z ((hi * hi / 2 ^ s + 1) * 2 ^ s) * (p2 a * p2 a))%Q by (rewrite inject_Z_mult; ring).
        setoid_replace (inject_Z hi * p2 a * (inject_Z hi * p2 a))%Q with (inject_Z (hi * hi) * (p2 a * p2 a))%Q by (rewrite inject_Z_mult; ring). apply inject_mul_le; [auto|]. pose proof (Z.div_mod (hi * hi) (2 ^ s) ltac:(lia)). pose proof (Z.mod_pos_bound (hi * hi) (2 ^ s) PS). lia.
Qed.
(** ** The tables are accurate to 2^-80 *)
Definition e80 : Q := 1 # 2 ^ 80.
Definition accurate (t T : Q) : Prop := (T * (1 - e80) <= t /\ t <= T * (1 + e80))%Q.
Definition chk_pos (m e : Z) (n : nat) : bool :=
  let '(lo, hi, a) := iv n in let d := e - 32767 - 79 - a in
  (0 <=? d) && ((2 ^ 80 - 1) * hi <=? 2 ^ 80 * (m * 2 ^ d)) && (2 ^ 80 * (m * 2 ^ d) <=? (2 ^ 80 + 1) * lo).
Definition chk_neg (m e : Z) (n : nat) : bool :=
  let '(lo, hi, a) := iv n in let d := - (e - 32767 - 79 + a) in
  (0 <=? d) && ((2 ^ 80 - 1) * 2 ^ d <=? 2 ^ 80 * (m * lo)) && (2 ^ 80 * (m * hi) <=? (2 ^ 80 + 1) * 2 ^ d).
Lemma e80_le : forall a b w, (0 < w)%Q -> (2 ^ 80 - 1) * a <= 2 ^ 80 * b -> (inject_Z a * w * (1 - e80) <= inject_Z b * w)%Q.
Proof.
  intros a b w W H. setoid_replace (inject_Z a * w * (1 - e80))%Q with (inject_Z a * (1 - e80) * w)%Q by ring. apply Qmult_le_compat_r; [|lra]. rewrite Zle_Qle in H. rewrite !inject_Z_mult in H.
  change (inject_Z (2 ^ 80 - 1)) with (1208925819614629174706175 # 1)%Q in H. change (inject_Z (2 ^ 80)) with (1208925819614629174706176 # 1)%Q in H. change e80 with (1 # 1208925819614629174706176)%Q. lra.
Qed.
Lemma e80_ge : forall a b w, (0 < w)%Q -> 2 ^ 80 * b <= (2 ^ 80 + 1) * a -> (inject_Z b * w <= inject_Z a * w * (1 + e80))%Q.
Proof.
  intros a b w W H. setoid_replace (inject_Z a * w * (1 + e80))%Q with (inject_Z a * (1 + e80) * w)%Q by ring. apply Qmult_le_compat_r; [|lra]. rewrite Zle_Qle in H. rewrite !inject_Z_mult in H.
  change (inject_Z (2 ^ 80 + 1)) with (1208925819614629174706177 # 1)%Q in H. change (inject_Z (2 ^ 80)) with (1208925819614629174706176 # 1)%Q in H. change e80 with (1 # 1208925819614629174706176)%Q. lra.
Qed.
Lemma e80_small : (0 < e80 /\ e80 < 1)%Q. Proof. split; reflexivity. Qed.
Lemma chk_pos_ok : forall m e n, chk_pos m e n = true -> accurate (inject_Z m * p2 (e - 32767 - 79)) (p10 (2 ^ Z.of_nat n)).
Proof.
  intros m e n H. unfold chk_pos in H. pose proof (iv_ok n) as I. destruct (iv n) as [[lo hi] a]. destruct I as (_ & _ & A1 & A2). apply andb_prop in H. destruct H as [H H3]. apply andb_prop in H. destruct H as [H1 H2]. apply Z.leb_le in H1, H2, H3. set (d := e - 32767 - 79 - a) in *.
  pose proof (p2_pos a) as PA. assert (E : (inject_Z m * p2 (e - 32767 - 79) == inject_Z (m * 2 ^ d) * p2 a)%Q) by (replace (e - 32767 - 79) with (d + a) by (unfold d; lia); rewrite p2_split by lia; rewrite inject_Z_mult; ring). unfold accurate. rewrite E. destruct e80_small. split.
  - apply Qle_trans with (inject_Z hi * p2 a * (1 - e80))%Q; [apply Qmult_le_compat_r; [auto|lra]|]. apply e80_le; auto.
  - apply Qle_trans with (inject_Z lo * p2 a * (1 + e80))%Q; [|apply Qmult_le_compat_r; [auto|lra]]. apply e80_ge; auto.
Qed.
Lemma chk_neg_ok : forall m e n, 0 <= m -> chk_neg m e n = true -> accurate (inject_Z m * p2 (e - 32767 - 79)) (p10 (- 2 ^ Z.of_nat n)).
Proof.
  intros m e n M H. unfold chk_neg in H. pose proof (iv_ok n) as I. destruct (iv n) as [[lo hi] a]. destruct I as (_ & _ & A1 & A2). apply andb_prop in H. destruct H as [H H3]. apply andb_prop in H. destruct H as [H1 H2]. apply Z.leb_le in H1, H2, H3. set (d := - (e - 32767 - 79 + a)) in *.
  pose proof (p2_pos (e - 32767 - 79)) as PE. set (t := (inject_Z m * p2 (e - 32767 - 79))%Q). set (X := p10 (2 ^ Z.of_nat n)) in *. pose proof (p10_pos (2 ^ Z.of_nat n)) as PX. fold X in PX. pose proof (p10_opp (2 ^ Z.of_nat n)) as OX. fold X in OX. set (Y := p10 (- 2 ^ Z.of_nat n)) in *. pose proof (p10_pos (- 2 ^ Z.of_nat n)) as PY. fold Y in PY.
  pose proof (p2_pos (- d)) as PD. assert (ONE : (inject_Z (2 ^ d) * p2 (- d) == 1)%Q) by (rewrite <- p2_split by lia; replace (d + - d) with 0 by lia; reflexivity).
  assert (TX : forall z, (inject_Z m * p2 (e - 32767 - 79) * (inject_Z z * p2 a) == inject_Z (m * z) * p2 (- d))%Q).
  { intros z. replace (- d) with ((e - 32767 - 79) + a) by (unfold d; lia). rewrite p2_add, inject_Z_mult. ring. }
  assert (T0 : (0 <= t)%Q) by (unfold t; apply Qmult_le_0_compat; [rewrite <- (Zle_Qle 0); lia|lra]).
  assert (B1 : (1 - e80 <= t * X)%Q).
  { pose proof (e80_le (2 ^ d) (m * lo) (p2 (- d)) PD H2) as Q1. rewrite ONE, <- TX in Q1. fold t in Q1. assert (t * (inject_Z lo * p2 a) <= t * X)%Q by (rewrite !(Qmult_comm t); apply Qmult_le_compat_r; auto). lra. }
  assert (B2 : (t * X <= 1 + e80)%Q).
  { pose proof (e80_ge (2 ^ d) (m * hi) (p2 (- d)) PD H3) as Q1. rewrite ONE, <- TX in Q1. fold t in Q1. assert (t * X <= t * (inject_Z hi * p2 a))%Q by (rewrite !(Qmult_comm t); apply Qmult_le_compat_r; auto). lra. }
  assert (TE : (t == t * X * Y)%Q) by (rewrite <- Qmult_assoc, OX; ring). unfold accurate. rewrite TE. split.
  - rewrite (Qmult_comm Y). apply Qmult_le_compat_r; [auto|lra].
  - rewrite (Qmult_comm Y). apply Qmult_le_compat_r; [auto|lra].
Qed.
(** ** The two tables, from the entry for 10^(+-2^(l-1)) on *)
Definition tab (up : bool) : list (flt * Z) := if up then POT_TableP else POT_TableN.
Definition dir (up : bool) : Z := if up then 1 else -1.
Definition T (up : bool) (l : nat) : list (flt * Z) := skipn (13 - l) (tab up).
Definition ent (up : bool) (l : nat) : flt := fst (nth (13 - l) (tab up) (Flt (Create 80) 0 false false, 0)).
Definition wfb (b : bv) : bool :=
  (bits b =? 80) && (Z.of_nat (length (wds b)) =? 3) && forallb (fun w => (0 <=? w) && (w <? 2 ^ 32)) (wds b) && (uval b <? 2 ^ 80).
Definition entry_ok (up : bool) (l : nat) : bool :=
  let f := ent up l in
  wfb (mant f) && (2 ^ 79 <=? uval (mant f)) && (1 <=? expo f) && (expo f <=? 65534) && negb (iszero f) && negb (sign f) &&
  (if up then (32767 <=? expo f) && chk_pos (uval (mant f)) (expo f) (l - 1) else (expo f <=? 32765) && chk_neg (uval (mant f)) (expo f) (l - 1)).
Lemma entries_ok : forallb (entry_ok true) (seq 1 13) && forallb (entry_ok false) (seq 1 13) = true.
Proof. vm_compute. reflexivity. Qed.
Lemma entry_spec : forall up l, (1 <= l <= 13)%nat -> normal (ent up l) /\ sign (ent up l) = false /\
  (if up then 32767 <= expo (ent up l) else expo (ent up l) <= 32765) /\ accurate (value (ent up l)) (p10 (dir up * 2 ^ Z.of_nat (l - 1))).
Proof.
  intros up l L. assert (K : entry_ok up l = true).
  { pose proof entries_ok as E. apply andb_prop in E. destruct E as [E1 E2]. rewrite forallb_forall in E1, E2. destruct up; [apply E1|apply E2]; apply in_seq; lia. }
  unfold entry_ok in K. set (f := ent up l) in *. clearbody f. rewrite !andb_true_iff, !negb_true_iff in K. destruct K as ((((((K1 & K2) & K3) & K4) & K5) & K6) & K7). unfold wfb in K1. rewrite !andb_true_iff in K1. destruct K1 as (((W1 & W2) & W3) & W4).
  apply Z.eqb_eq in W1, W2. apply Z.ltb_lt in W4. apply Z.leb_le in K2, K3, K4. split; [|split; [auto|]].
  - split; [|split; [auto|split; [auto|split; [lia|auto]]]]. unfold wf. rewrite W1. split; [lia|]. split; [rewrite W2; reflexivity|]. split; [|auto]. apply Forall_forall. intros w I. rewrite forallb_forall in W3. specialize (W3 w I). apply andb_prop in W3. destruct W3 as [A B]. apply Z.leb_le in A. apply Z.ltb_lt in B. split; auto.
  - unfold value. destruct up; apply andb_prop in K7; destruct K7 as [K7 K8]; apply Z.leb_le in K7; (split; [auto|]); cbn [dir].
    + replace (1 * 2 ^ Z.of_nat (l - 1)) with (2 ^ Z.of_nat (l - 1)) by lia. apply chk_pos_ok; auto.
    + replace (-1 * 2 ^ Z.of_nat (l - 1)) with (- 2 ^ Z.of_nat (l - 1)) by lia. apply chk_neg_ok; [lia|auto].
Qed.
Lemma T_S : forall up l, (l <= 12)%nat -> T up (S l) = (ent up (S l), dir up * 2 ^ Z.of_nat l) :: T up l.
Proof. intros up l L. destruct up; do 13 (destruct l as [|l]; [reflexivity|]); lia. Qed.
Lemma T_cons : forall up l, exists x t, T up l = x :: t.
Proof. intros up l. unfold T. assert (K : (13 - l <= 13)%nat) by lia. revert K. generalize (13 - l)%nat. intros n K. destruct up; do 14 (destruct n as [|n]; [eexists; eexists; reflexivity|]); lia. Qed.
Lemma skip_ok : forall up n' l D, (1 <= l <= n')%nat -> (n' <= 13)%nat -> 2 ^ Z.of_nat (l - 1) <= D -> D < 2 ^ Z.of_nat l -> pot_skip up (dir up * D) (T up n') = T up l.
Proof.
  induction n' as [|n' IH]; intros l D L N A B; [lia|]. destruct (Nat.eq_dec l (S n')) as [->|NE].
  - rewrite T_S by lia. cbn [pot_skip]. replace (S n' - 1)%nat with n' in A by lia. replace (if up then dir up * D <? dir up * 2 ^ Z.of_nat n' else dir up * 2 ^ Z.of_nat n' <? dir up * D) with false; [reflexivity|]. symmetry. destruct up; cbn [dir]; apply Z.ltb_ge; lia.
  - rewrite T_S by lia. cbn [pot_skip]. assert (2 ^ Z.of_nat l <= 2 ^ Z.of_nat n') by (apply Z.pow_le_mono_r; lia). replace (if up then dir up * D <? dir up * 2 ^ Z.of_nat n' else dir up * 2 ^ Z.of_nat n' <? dir up * D) with true; [apply IH; lia|]. symmetry. destruct up; cbn [dir]; apply Z.ltb_lt; lia.
Qed.
Lemma skip_big : forall up D, 4096 <= D -> pot_skip up (dir up * D) (T up 13) = T up 13.
Proof.
  intros up D H. rewrite (T_S up 12) by lia. cbn [pot_skip]. change (2 ^ Z.of_nat 12) with 4096. replace (if up then dir up * D <? dir up * 4096 else dir up * 4096 <? dir up * D) with false; [reflexivity|]. symmetry. destruct up; cbn [dir]; apply Z.ltb_ge; lia.
Qed.
(** ** One multiplication *)
Definition e78 : Q := 1 # 2 ^ 78.
Definition rel (d w v : Q) : Prop := (v * (1 - d) <= w /\ w <= v * (1 + d))%Q.
Lemma rel_mul : forall d w v t X r, (0 <= d)%Q -> (d <= 1)%Q -> (0 < v)%Q -> (0 < X)%Q -> (0 < t)%Q -> rel d w v -> accurate t X ->
  (w * t * (1 - (1 # 2 ^ 79)) <= r /\ r <= w * t)%Q -> rel (d + e78) r (v * X).
Proof.
  intros d w v t X r D0 D1 V HX HT [R1 R2] [A1 A2] [B1 B2]. assert (W0 : (0 <= w)%Q) by nra. assert (VX : (0 < v * X)%Q) by nra.
  change e80 with (1 # 1208925819614629174706176)%Q in *. change (1 # 2 ^ 79)%Q with (1 # 604462909807314587353088)%Q in *. unfold rel. change e78 with (1 # 302231454903657293676544)%Q in *. split.
  - apply Qle_trans with (w * t * (1 - (1 # 604462909807314587353088)))%Q; [|auto]. set (a := (1 # 1208925819614629174706176)%Q) in *. setoid_replace (1 # 604462909807314587353088)%Q with (2 * a)%Q by reflexivity. setoid_replace (1 # 302231454903657293676544)%Q with (4 * a)%Q by reflexivity. assert (a0 : (0 < a)%Q) by reflexivity. assert (a1 : (a < 1 # 10)%Q) by reflexivity. clearbody a.
    assert (P1 : (v * (1 - d) * (X * (1 - a)) <= w * t)%Q) by (apply Qle_trans with (w * (X * (1 - a)))%Q; [apply Qmult_le_compat_r; [auto|nra]|rewrite !(Qmult_comm w); apply Qmult_le_compat_r; auto]).
    apply Qle_trans with (v * (1 - d) * (X * (1 - a)) * (1 - 2 * a))%Q; [|apply Qmult_le_compat_r; [auto|lra]].
    setoid_replace (v * (1 - d) * (X * (1 - a)) * (1 - 2 * a))%Q with (v * X * ((1 - d) * (1 - a) * (1 - 2 * a)))%Q by ring. rewrite !(Qmult_comm (v * X)). apply Qmult_le_compat_r; [|lra]. nra.
  - apply Qle_trans with (w * t)%Q; [auto|]. set (a := (1 # 1208925819614629174706176)%Q) in *. setoid_replace (1 # 302231454903657293676544)%Q with (4 * a)%Q by reflexivity. assert (a0 : (0 < a)%Q) by reflexivity. clearbody a.
    apply Qle_trans with (v * (1 + d) * (X * (1 + a)))%Q. { apply Qle_trans with (w * (X * (1 + a)))%Q; [rewrite !(Qmult_comm w); apply Qmult_le_compat_r; auto|apply Qmult_le_compat_r; [auto|nra]]. }
    setoid_replace (v * (1 + d) * (X * (1 + a)))%Q with (v * X * ((1 + d) * (1 + a)))%Q by ring. rewrite !(Qmult_comm (v * X)). apply Qmult_le_compat_r; [|lra]. nra.
Qed.
Definition outcome (up : bool) (d : Q) (r : flt) (V : Q) : Prop :=
  normal r /\ rel d (value r) V \/
  wf (mant r) /\ bits (mant r) = 80 /\ iszero r = false /\
  (if up then expo r = 65535 /\ (p2 32768 <= V * (1 + d))%Q else expo r = 0 /\ (V * (1 - d) < p2 (-32765))%Q).
Lemma normal_norm80 : forall f, normal f -> norm80 f.
Proof. intros f (A & B & C & _). split; [auto|split; auto]. Qed.
Lemma step_ok : forall up l f d v, (1 <= l <= 13)%nat -> normal f -> (0 <= d)%Q -> (d <= 1)%Q -> (0 < v)%Q -> rel d (value f) v ->
  exists r, fmul f (ent up l) = Some r /\ sign r = sign f /\ outcome up (d + e78) r (v * p10 (dir up * 2 ^ Z.of_nat (l - 1))) /\
    (normal r -> l = 13%nat -> if up then expo f + 13606 <= expo r else expo r <= expo f - 13606).
Proof.
  intros up l f d v L N D0 D1 V R. destruct (entry_spec up l L) as (NE & SE & XE & AE). set (g := ent up l) in *. set (X := p10 (dir up * 2 ^ Z.of_nat (l - 1))) in *. assert (X0 : (0 < X)%Q) by apply p10_pos. pose proof (value_pos g NE) as G0. pose proof (value_pos f N) as F0.
  assert (FG : (0 < value f * value g)%Q) by (apply Qmult_lt_0_compat; auto).
  assert (RR : rel (d + e78) (value f * value g) (v * X)). { apply (rel_mul d (value f) v (value g) X); auto. split; [|apply Qle_refl]. change (1 # 2 ^ 79)%Q with (1 # 604462909807314587353088)%Q. lra. }
  destruct (fmul_value f g N NE) as (r & E & S1 & C). destruct N as (Wf & Bf & Lf & Ef & Zf), NE as (Wg & Bg & Lg & Eg & Zg). destruct (fmul_ok f g ltac:(split; auto) ltac:(split; auto) ltac:(lia) ltac:(lia)) as (r' & E' & Wr & Br & Sr & Zr & K1 & K2 & K3 & K4). rewrite E in E'. assert (r' = r) by congruence. subst r'.
  exists r. split; [auto|]. split; [rewrite S1, SE; destruct (sign f); reflexivity|]. split.
  - destruct C as [[Nr C]|[(_ & _ & Iz & X5 & C)|(_ & _ & Iz & X0' & U0 & C)]].
    + left. split; [auto|]. apply (rel_mul d (value f) v (value g) X); auto.
    + right. split; [auto|]. split; [auto|]. split; [auto|]. destruct up.
      * split; [auto|]. destruct RR as [_ RR]. lra.
      * exfalso. destruct (Z_le_gt_dec 65535 (expo f + expo g - 32767)); [lia|]. destruct (Z_le_gt_dec 1 (expo f + expo g - 32767)); [|specialize (K2 ltac:(lia)); lia]. destruct (Z_le_gt_dec (2 ^ 159) (uval (mant f) * uval (mant g))); [specialize (K3 ltac:(lia) ltac:(lia))|specialize (K4 ltac:(lia) ltac:(lia))]; lia.
    + right. split; [auto|]. split; [auto|]. split; [auto|]. destruct up.
      * exfalso. destruct (Z_le_gt_dec 65535 (expo f + expo g - 32767)); [specialize (K1 ltac:(lia)); lia|]. destruct (Z_le_gt_dec (2 ^ 159) (uval (mant f) * uval (mant g))); [specialize (K3 ltac:(lia) ltac:(lia))|specialize (K4 ltac:(lia) ltac:(lia))]; lia.
      * split; [auto|]. destruct RR as [RR _]. lra.
  - intros (_ & _ & Lr & Er & _) ->. destruct (Z_le_gt_dec 65535 (expo f + expo g - 32767)); [specialize (K1 ltac:(lia)); lia|]. destruct (Z_le_gt_dec 1 (expo f + expo g - 32767)); [|specialize (K2 ltac:(lia)); lia].
    assert (XX : expo g = if up then 46373 else 19160) by (unfold g; destruct up; vm_compute; reflexivity).
    destruct (Z_le_gt_dec (2 ^ 159) (uval (mant f) * uval (mant g))); [specialize (K3 ltac:(lia) ltac:(lia))|specialize (K4 ltac:(lia) ltac:(lia))]; destruct up; lia.
Qed.
Lemma loop_done : forall n (up : bool) l f D, (D = 0 \/ expo f = if up then 65535 else 0) -> pot_loop (S n) up (T up l) (dir up * D) f = Some f.
Proof.
  intros n up l f D H. destruct (T_cons up l) as (x & t & E). cbn [pot_loop]. rewrite E. replace ((dir up * D =? 0) || (expo f =? (if up then EXP_INF else EXP_ZERO))) with true; [reflexivity|]. symmetry. apply orb_true_iff. unfold EXP_INF, EXP_ZERO. destruct H as [->|H]; [left; rewrite Z.mul_0_r; reflexivity|right; apply Z.eqb_eq; auto].
Qed.
Lemma loop_go : forall n (up : bool) l l' f D, (l <= 12)%nat -> 0 < D -> 1 <= expo f <= 65534 -> pot_skip up (dir up * D) (T up l') = T up (S l) ->
  pot_loop (S n) up (T up l') (dir up * D) f = match fmul f (ent up (S l)) with Some f' => pot_loop n up (T up (S l)) (dir up * (D - 2 ^ Z.of_nat l)) f' | None => None end.
Proof.
  intros n up l l' f D L H X K. destruct (T_cons up l') as (x & t & E). cbn [pot_loop]. rewrite K. rewrite E at 1. replace ((dir up * D =? 0) || (expo f =? (if up then EXP_INF else EXP_ZERO))) with false.
  - rewrite (T_S up l L). destruct (fmul f (ent up (S l))); [|reflexivity]. f_equal. lia.
  - symmetry. apply orb_false_iff. unfold EXP_INF, EXP_ZERO. split; apply Z.eqb_neq; destruct up; cbn [dir]; lia.
Qed.
Lemma outcome_further : forall up d d' r v k, (0 <= d)%Q -> (d <= d')%Q -> (d' <= 1)%Q -> 0 <= k -> (0 < v)%Q -> (normal r -> False) -> outcome up d r v -> outcome up d' r (v * p10 (dir up * k)).
Proof.
  intros up d d' r v k D0 D1 D2 K V N [[A _]|(A1 & A2 & A3 & A4)]; [destruct (N A)|]. right. split; [auto|]. split; [auto|]. split; [auto|]. destruct up; cbn [dir]; destruct A4 as [A4 A5]; (split; [auto|]).
  - pose proof (p10_le 0 (1 * k) ltac:(lia)) as P. change (p10 0) with 1%Q in P. set (X := p10 (1 * k)) in *. apply Qle_trans with (v * (1 + d))%Q; [auto|]. assert (v <= v * X)%Q by nra. apply Qle_trans with (v * (1 + d'))%Q; [nra|]. apply Qmult_le_compat_r; [auto|lra].
  - pose proof (p10_le (-1 * k) 0 ltac:(lia)) as P. change (p10 0) with 1%Q in P. pose proof (p10_pos (-1 * k)) as PP. set (X := p10 (-1 * k)) in *. apply Qle_lt_trans with (v * (1 - d))%Q; [|auto]. assert (v * X <= v)%Q by nra. apply Qle_trans with (v * (1 - d'))%Q; [apply Qmult_le_compat_r; [auto|lra]|nra].
Qed.
Lemma rel_weaken : forall d d' w v, (0 < v)%Q -> (d <= d')%Q -> rel d w v -> rel d' w v.
Proof. intros d d' w v V D [A B]. split; nra. Qed.
Definition eps (c : Z) : Q := (inject_Z c * e78)%Q.
Lemma eps_S : forall c, (eps c + e78 == eps (c + 1))%Q.
Proof. intros. unfold eps. rewrite inject_Z_plus. ring. Qed.
Lemma eps_le : forall a b, a <= b -> (eps a <= eps b)%Q.
Proof. intros. unfold eps. apply Qmult_le_compat_r; [rewrite <- Zle_Qle; auto|discriminate]. Qed.
Lemma eps_0 : (eps 0 == 0)%Q. Proof. reflexivity. Qed.
Lemma eps_1 : forall c, c <= 64 -> (eps c <= 1)%Q.
Proof. intros. apply Qle_trans with (eps 64); [apply eps_le; auto|discriminate]. Qed.
Lemma rel_eq : forall d d' w v v', (d == d')%Q -> (v == v')%Q -> rel d w v -> rel d' w v'.
Proof. intros d d' w v v' D V [A B]. split; rewrite <- D, <- V; auto. Qed.
Lemma outcome_eq : forall up d d' r v v', (d == d')%Q -> (v == v')%Q -> outcome up d r v -> outcome up d' r v'.
Proof.
  intros up d d' r v v' D V [[A B]|(A1 & A2 & A3 & A4)]; [left; split; [auto|eapply rel_eq; eauto]|right]. split; [auto|]. split; [auto|]. split; [auto|]. destruct up; rewrite <- D, <- V; auto.
Qed.
Lemma normal_dec : forall (up : bool) d r v, outcome up d r v -> (normal r /\ rel d (value r) v) \/ ((normal r -> False) /\ expo r = if up then 65535 else 0).
Proof.
  intros up d r v [A|(A1 & A2 & A3 & A4)]; [left; auto|right]. destruct up; destruct A4 as [A4 A5]; (split; [|auto]); intros (_ & _ & _ & X & _); lia.
Qed.
Lemma loop_small : forall up n D f c v n' fuel, (n <= n')%nat -> (n' <= 13)%nat -> (n < fuel)%nat -> 0 <= D < 2 ^ Z.of_nat n -> normal f -> 0 <= c -> c + Z.of_nat n <= 64 -> (0 < v)%Q -> rel (eps c) (value f) v ->
  exists r, pot_loop fuel up (T up n') (dir up * D) f = Some r /\ sign r = sign f /\ outcome up (eps (c + Z.of_nat n)) r (v * p10 (dir up * D)).
Proof.
  intros up. induction n as [|n IH]; intros D f c v n' fuel N1 N2 F HD N C0 C1 V R.
  - change (2 ^ Z.of_nat 0) with 1 in HD. assert (D = 0) by lia. subst D. destruct fuel as [|fuel]; [lia|]. rewrite loop_done by auto. exists f. split; [auto|]. split; [auto|]. left. split; [auto|]. apply (rel_eq (eps c) _ _ v); [replace (c + Z.of_nat 0) with c by lia; reflexivity| |auto]. rewrite Z.mul_0_r. change (p10 0) with 1%Q. ring.
  - destruct (Z_lt_le_dec D (2 ^ Z.of_nat n)) as [LT|GE].
    + destruct (IH D f c v n' fuel ltac:(lia) N2 ltac:(lia) ltac:(lia) N C0 ltac:(lia) V R) as (r & E & Sr & O). exists r. split; [auto|]. split; [auto|]. assert (EL : (eps (c + Z.of_nat n) <= eps (c + Z.of_nat (S n)))%Q) by (apply eps_le; lia). pose proof (p10_pos (dir up * D)). assert (0 < v * p10 (dir up * D))%Q by (apply Qmult_lt_0_compat; auto). assert (E0 : (0 <= eps (c + Z.of_nat n))%Q) by (rewrite <- eps_0; apply eps_le; lia). pose proof (eps_1 (c + Z.of_nat (S n)) ltac:(lia)) as E1.
      destruct (normal_dec _ _ _ _ O) as [[A B]|[A B]]; [left; split; [auto|eapply rel_weaken; eauto]|]. apply (outcome_eq up (eps (c + Z.of_nat (S n))) _ r (v * p10 (dir up * D) * p10 (dir up * 0))); [reflexivity|rewrite Z.mul_0_r; change (p10 0) with 1%Q; ring|]. apply (outcome_further up (eps (c + Z.of_nat n))); auto. lia.
    + destruct fuel as [|fuel]; [lia|]. pose proof N as (_ & _ & _ & XN & _). assert (P2 : 2 ^ Z.of_nat (S n) = 2 * 2 ^ Z.of_nat n) by (rewrite Nat2Z.inj_succ, Z.pow_succ_r by lia; lia). assert (0 < 2 ^ Z.of_nat n) by (apply pow2_pos; lia).
      rewrite (loop_go fuel up n n' f D ltac:(lia) ltac:(lia) XN) by (apply skip_ok; [lia|lia|replace (S n - 1)%nat with n by lia; lia|lia]).
      destruct (step_ok up (S n) f (eps c) v ltac:(lia) N ltac:(rewrite <- eps_0; apply eps_le; lia) (eps_1 c ltac:(lia)) V R) as (g & Eg & Sg & Og & _). rewrite Eg. replace (S n - 1)%nat with n in Og by lia. set (X := p10 (dir up * 2 ^ Z.of_nat n)) in *. assert (X0 : (0 < v * X)%Q) by (apply Qmult_lt_0_compat; [auto|apply p10_pos]).
      assert (VE : (v * X * p10 (dir up * (D - 2 ^ Z.of_nat n)) == v * p10 (dir up * D))%Q). { unfold X. rewrite <- Qmult_assoc, <- p10_add. replace (dir up * 2 ^ Z.of_nat n + dir up * (D - 2 ^ Z.of_nat n)) with (dir up * D) by lia. reflexivity. }
      pose proof (eps_S c) as EC. destruct (normal_dec _ _ _ _ Og) as [[A B]|[A B]].
      * assert (B' : rel (eps (c + 1)) (value g) (v * X)) by (eapply rel_eq; [exact EC|reflexivity|auto]). destruct (IH (D - 2 ^ Z.of_nat n) g (c + 1) (v * X)%Q (S n) fuel ltac:(lia) ltac:(lia) ltac:(lia) ltac:(lia) A ltac:(lia) ltac:(lia) X0 B') as (r & E & Sr & O).
        exists r. split; [auto|]. split; [congruence|]. eapply outcome_eq; [|exact VE|exact O]. replace (c + 1 + Z.of_nat n) with (c + Z.of_nat (S n)) by lia. reflexivity.
      * destruct fuel as [|fuel]; [lia|]. rewrite loop_done by auto. exists g. split; [auto|]. split; [auto|]. eapply outcome_eq; [reflexivity|exact VE|]. apply (outcome_further up (eps c + e78)); auto; [rewrite EC, <- eps_0; apply eps_le; lia|rewrite EC; apply eps_le; lia|apply eps_1; lia|lia].
Qed.
Lemma loop_big : forall (up : bool) j D f c v fuel, 0 <= D -> normal f -> 0 <= c -> c + Z.of_nat j + 13 <= 64 -> (0 < v)%Q -> rel (eps c) (value f) v ->
  (if up then 65534 < expo f + 13606 * Z.of_nat j else expo f < 1 + 13606 * Z.of_nat j) -> (j + 13 < fuel)%nat ->
  exists r, pot_loop fuel up (T up 13) (dir up * D) f = Some r /\ sign r = sign f /\ outcome up (eps (c + Z.of_nat j + 13)) r (v * p10 (dir up * D)).
Proof.
  intros up. induction j as [|j IH]; intros D f c v fuel HD N C0 C1 V R XB F; pose proof N as (_ & _ & _ & XN & _).
  - destruct up; lia.
  - destruct (Z_lt_le_dec D 8192) as [LT|GE].
    + destruct (loop_small up 13 D f c v 13 fuel ltac:(lia) ltac:(lia) ltac:(lia) ltac:(change (2 ^ Z.of_nat 13) with 8192; lia) N C0 ltac:(lia) V R) as (r & E & Sr & O). exists r. split; [auto|]. split; [auto|]. assert (EL : (eps (c + Z.of_nat 13) <= eps (c + Z.of_nat (S j) + 13))%Q) by (apply eps_le; lia). pose proof (p10_pos (dir up * D)). assert (0 < v * p10 (dir up * D))%Q by (apply Qmult_lt_0_compat; auto). assert (E0 : (0 <= eps (c + Z.of_nat 13))%Q) by (rewrite <- eps_0; apply eps_le; lia). pose proof (eps_1 (c + Z.of_nat (S j) + 13) ltac:(lia)) as E1.
      destruct (normal_dec _ _ _ _ O) as [[A B]|[A B]]; [left; split; [auto|eapply rel_weaken; eauto]|]. apply (outcome_eq up (eps (c + Z.of_nat (S j) + 13)) _ r (v * p10 (dir up * D) * p10 (dir up * 0))); [reflexivity|rewrite Z.mul_0_r; change (p10 0) with 1%Q; ring|]. apply (outcome_further up (eps (c + Z.of_nat 13))); auto. lia.
    + destruct fuel as [|fuel]; [lia|]. rewrite (loop_go fuel up 12 13 f D ltac:(lia) ltac:(lia) XN) by (apply skip_big; lia).
      destruct (step_ok up 13 f (eps c) v ltac:(lia) N ltac:(rewrite <- eps_0; apply eps_le; lia) (eps_1 c ltac:(lia)) V R) as (g & Eg & Sg & Og & XG). rewrite Eg. change (2 ^ Z.of_nat (13 - 1)) with 4096 in Og. change (2 ^ Z.of_nat 12) with 4096. set (X := p10 (dir up * 4096)) in *. assert (X0 : (0 < v * X)%Q) by (apply Qmult_lt_0_compat; [auto|apply p10_pos]).
      assert (VE : (v * X * p10 (dir up * (D - 4096)) == v * p10 (dir up * D))%Q). { unfold X. rewrite <- Qmult_assoc, <- p10_add. replace (dir up * 4096 + dir up * (D - 4096)) with (dir up * D) by lia. reflexivity. }
      pose proof (eps_S c) as EC. destruct (normal_dec _ _ _ _ Og) as [[A B]|[A B]].
      * assert (B' : rel (eps (c + 1)) (value g) (v * X)) by (eapply rel_eq; [exact EC|reflexivity|auto]). specialize (XG A eq_refl). destruct (IH (D - 4096) g (c + 1) (v * X)%Q fuel ltac:(lia) A ltac:(lia) ltac:(lia) X0 B' ltac:(destruct up; lia) ltac:(lia)) as (r & E & Sr & O).
        exists r. split; [auto|]. split; [congruence|]. eapply outcome_eq; [|exact VE|exact O]. replace (c + 1 + Z.of_nat j + 13) with (c + Z.of_nat (S j) + 13) by lia. reflexivity.
      * destruct fuel as [|fuel]; [lia|]. rewrite loop_done by auto. exists g. split; [auto|]. split; [auto|]. eapply outcome_eq; [reflexivity|exact VE|]. apply (outcome_further up (eps c + e78)); auto; [rewrite EC, <- eps_0; apply eps_le; lia|rewrite EC; apply eps_le; lia|apply eps_1; lia|lia].
Qed.
(** ** Scaling *)
Lemma scale_ok : forall f dec, normal f -> 32767 <= expo f <= 32846 -> exists r up, scale f dec = Some r /\ sign r = sign f /\ outcome up (eps 16) r (value f * p10 dec).
Proof.
  intros f dec N X. pose proof (value_pos f N) as V. assert (R : rel (eps 0) (value f) (value f)) by (unfold rel; rewrite eps_0; split; lra). unfold scale. destruct (Z.ltb_spec 0 dec).
  - destruct (loop_big true 3 dec f 0 (value f) 40 ltac:(lia) N ltac:(lia) ltac:(lia) V R ltac:(change (65534 < expo f + 13606 * 3); lia) ltac:(lia)) as (r & E & Sr & O). cbn [dir] in *. replace (1 * dec) with dec in * by lia. exists r, true. auto.
  - destruct (Z.ltb_spec dec 0).
    + destruct (loop_big false 3 (- dec) f 0 (value f) 40 ltac:(lia) N ltac:(lia) ltac:(lia) V R ltac:(change (expo f < 1 + 13606 * 3); lia) ltac:(lia)) as (r & E & Sr & O). cbn [dir] in *. replace (-1 * - dec) with dec in * by lia. exists r, false. auto.
    + assert (dec = 0) by lia. subst dec. exists f, true. split; [auto|]. split; [auto|]. left. split; [auto|]. apply (rel_weaken (eps 0)); [change (p10 0) with 1%Q; lra|apply eps_le; lia|]. eapply rel_eq; [reflexivity| |exact R]. change (p10 0) with 1%Q. ring.
Qed.
Lemma round_rel : forall f d v, normal f -> (0 <= d)%Q -> (d <= 1)%Q -> (0 < v)%Q -> rel d (value f) v ->
  normal (final_round f) /\ sign (final_round f) = sign f /\ rel (d + e78) (value (final_round f)) v.
Proof.
  intros f d v N D0 D1 V [R1 R2]. pose proof N as (W & B & L & X & Z0). destruct (final_round_ok f (normal_norm80 f N) X) as (N' & X' & S' & Z' & U'). set (r := final_round f) in *. destruct N' as (W' & B' & L').
  assert (Nr : normal r) by (split; [auto|split; [auto|split; [auto|split; [rewrite X'; auto|congruence]]]]). split; [auto|]. split; [auto|]. assert (E1 : uval (mant f) <= uval (mant r) <= uval (mant f) + 1) by (rewrite U'; destruct (uval (mant f) =? 2 ^ 80 - 1); lia).
  unfold value in R1, R2. unfold rel, value. rewrite X'. set (p := p2 (expo f - 32767 - 79)) in *. assert (P : (0 < p)%Q) by apply p2_pos. change e78 with (1 # 302231454903657293676544)%Q. split.
  - apply Qle_trans with (inject_Z (uval (mant f)) * p)%Q; [|apply inject_mul_le; [auto|lia]]. apply Qle_trans with (v * (1 - d))%Q; [nra|auto].
  - apply Qle_trans with (inject_Z (uval (mant f) + 1) * p)%Q; [apply inject_mul_le; [auto|lia]|]. rewrite inject_Z_plus. set (u := inject_Z (uval (mant f))) in *. change (inject_Z 1) with 1%Q.
    assert (U : (inject_Z (2 ^ 79) <= u)%Q) by (unfold u; rewrite <- Zle_Qle; auto). change (inject_Z (2 ^ 79)) with (604462909807314587353088 # 1)%Q in U.
    assert (PU : (p <= u * p * (1 # 604462909807314587353088))%Q). { setoid_replace (u * p * (1 # 604462909807314587353088))%Q with (u * (1 # 604462909807314587353088) * p)%Q by ring. assert (1 <= u * (1 # 604462909807314587353088))%Q by lra. nra. }
    set (a := (1 # 604462909807314587353088)%Q) in *. setoid_replace (1 # 302231454903657293676544)%Q with (2 * a)%Q by reflexivity. assert (a0 : (0 < a)%Q) by reflexivity. clearbody a u p. setoid_replace ((u + 1) * p)%Q with (u * p + p)%Q by ring. nra.
Qed.
(** ** Reading the digits *)
Definition Inv (m : bv) (sig k N : Z) : Prop :=
  wf m /\ bits m = 80 /\ uval m = N / 10 ^ k /\ 0 <= sig /\ 0 <= k /\ 0 <= N < 10 ^ sig /\ (0 < sig -> 10 ^ (sig - 1) <= N) /\
  sig - k <= 24 /\ (sig <= 19 -> k = 0) /\ (0 < k -> 19 <= sig - k).
Definition starts (sig : Z) (ds : list Z) : Prop := 0 < sig \/ match ds with c :: _ => c <> 48 | [] => True end.
Definition stops (rest : list Z) : Prop := match rest with c :: _ => isdigitc c = false | [] => True end.
Lemma dec_digit : forall c, is_dec c = true -> isdigitc c = true /\ 0 <= c - 48 <= 9 /\ digit c = c - 48.
Proof.
  intros c H. unfold is_dec in H. unfold isdigitc. split; [auto|]. apply andb_prop in H. destruct H as [A B]. apply Z.leb_le in A, B. split; [lia|]. unfold digit. destruct (Z.leb_spec 97 c); [lia|]. destruct (Z.leb_spec 65 c); lia.
Qed.
Lemma Inv_N : forall sig N c, 0 <= c - 48 <= 9 -> 0 <= sig -> 0 <= N < 10 ^ sig -> (0 < sig -> 10 ^ (sig - 1) <= N) -> 0 < sig \/ c <> 48 ->
  0 <= 10 * N + (c - 48) < 10 ^ (sig + 1) /\ (0 < sig + 1 -> 10 ^ (sig + 1 - 1) <= 10 * N + (c - 48)).
Proof.
  intros sig N c C S0 [N0 N1] L H. rewrite (Z.add_1_r sig), Z.pow_succ_r by lia. split; [lia|]. intros _. replace (Z.succ sig - 1) with sig by lia. destruct (Z.eq_dec sig 0) as [->|].
  - change (10 ^ 0) with 1 in *. lia.
  - specialize (L ltac:(lia)). replace (10 ^ sig) with (10 * 10 ^ (sig - 1)); [lia|]. rewrite <- Z.pow_succ_r by lia. f_equal. lia.
Qed.
Lemma Inv_take : forall m sig N c, Inv m sig 0 N -> 0 <= c - 48 <= 9 -> 0 < sig \/ c <> 48 -> sig < 24 -> Inv (mul10 m (c - 48)) (sig + 1) 0 (10 * N + (c - 48)).
Proof.
  intros m sig N c (W & B & U & S0 & K0 & NN & L & F1 & F2 & F3) C H SG. change (10 ^ 0) with 1 in *. rewrite Z.div_1_r in U. destruct (Inv_N sig N c C S0 NN L H) as [A1 A2].
  assert (TT : 10 ^ (sig + 1) <= 10 ^ 24) by (apply Z.pow_le_mono_r; lia). assert (10 ^ 24 < 2 ^ 80) by reflexivity. destruct (mul10_ok m (c - 48) W B C ltac:(lia)) as (W' & B' & U'). unfold Inv. change (10 ^ 0) with 1. rewrite Z.div_1_r. do 3 (split; [auto; try lia|]). do 2 (split; [lia|]). split; [auto|]. split; [auto|]. split; [lia|]. split; lia.
Qed.
Lemma Inv_drop : forall m sig k N c, Inv m sig k N -> 0 <= c - 48 <= 9 -> 19 <= sig -> Inv m (sig + 1) (k + 1) (10 * N + (c - 48)).
Proof.
  intros m sig k N c (W & B & U & S0 & K0 & NN & L & F1 & F2 & F3) C SG. destruct (Inv_N sig N c C S0 NN L ltac:(lia)) as [A1 A2]. unfold Inv. split; [auto|]. split; [auto|]. split.
  - rewrite U, Z.pow_add_r by lia. change (10 ^ 1) with 10. rewrite (Z.mul_comm (10 ^ k) 10), <- Z.div_div by (try apply Z.pow_pos_nonneg; lia). f_equal. apply Z.div_unique with (r := c - 48); lia.
  - do 2 (split; [lia|]). split; [auto|]. split; [auto|]. split; [lia|]. split; lia.
Qed.
Lemma number_step : forall N c ds, is_dec c = true -> N * 10 ^ Z.of_nat (length (c :: ds)) + number 10 (c :: ds) = (10 * N + (c - 48)) * 10 ^ Z.of_nat (length ds) + number 10 ds.
Proof.
  intros N c ds H. rewrite number_cons by lia. destruct (dec_digit c H) as (_ & _ & ->). cbn [length]. rewrite Nat2Z.inj_succ, Z.pow_succ_r by lia. ring.
Qed.
Lemma int_digits_ok : forall ds rest m sig N, forallb is_dec ds = true -> starts sig ds -> stops rest -> Inv m sig (Z.max 0 (sig - 24)) N ->
  let sig' := sig + Z.of_nat (length ds) in
  exists m', int_digits (ds ++ rest) m sig (Z.max 0 (sig - 24)) = (m', sig', Z.max 0 (sig' - 24), rest) /\ Inv m' sig' (Z.max 0 (sig' - 24)) (N * 10 ^ Z.of_nat (length ds) + number 10 ds).
Proof.
  induction ds as [|c ds IH]; intros rest m sig N D S1 S2 I sig'.
  - unfold sig'. cbn [app length]. rewrite Z.add_0_r. change (number 10 []) with 0. change (10 ^ Z.of_nat 0) with 1. replace (N * 1 + 0) with N by lia. exists m. split; [|auto]. destruct rest as [|c r]; [reflexivity|]. cbn [int_digits]. cbn [stops] in S2. rewrite S2. reflexivity.
  - cbn [forallb] in D. apply andb_prop in D. destruct D as [D1 D2]. destruct (dec_digit c D1) as (E1 & E2 & _). rewrite number_step by auto. assert (SG : sig' = sig + 1 + Z.of_nat (length ds)) by (unfold sig'; cbn [length]; lia). clearbody sig'. subst sig'. cbn [app int_digits]. rewrite E1. change MANT_SIGDIGITS with 24. pose proof I as (_ & _ & _ & S0 & _). destruct (Z.ltb_spec sig 24) as [LT|GE].
    + rewrite Z.max_l in I |- * by lia. assert (I' := Inv_take m sig N c I E2 S1 LT). assert (ME : Z.max 0 (sig + 1 - 24) = 0) by lia. rewrite <- ME in I'. destruct (IH rest _ (sig + 1) _ D2 ltac:(left; lia) S2 I') as (m' & E & I2). rewrite ME in E. exists m'. split; auto.
    + rewrite Z.max_r in I |- * by lia. assert (I' := Inv_drop m sig _ N c I E2 ltac:(lia)). replace (sig - 24 + 1) with (Z.max 0 (sig + 1 - 24)) in I' |- * by lia. apply IH; auto. left. lia.
Qed.
Lemma frac_digits_ok : forall ds rest m sig k dec N, forallb is_dec ds = true -> starts sig ds -> stops rest -> Inv m sig k N ->
  let n := Z.of_nat (length ds) in
  exists m' k', frac_digits (ds ++ rest) m sig dec = (m', dec - n + (k' - k), rest) /\ Inv m' (sig + n) k' (N * 10 ^ n + number 10 ds).
Proof.
  induction ds as [|c ds IH]; intros rest m sig k dec N D S1 S2 I n.
  - unfold n. cbn [app length]. rewrite Z.add_0_r. change (number 10 []) with 0. change (10 ^ Z.of_nat 0) with 1. replace (N * 1 + 0) with N by lia. exists m, k. split; [|auto]. replace (dec - Z.of_nat 0 + (k - k)) with dec by lia. destruct rest as [|c r]; [reflexivity|]. cbn [frac_digits]. cbn [stops] in S2. rewrite S2. reflexivity.
  - cbn [forallb] in D. apply andb_prop in D. destruct D as [D1 D2]. destruct (dec_digit c D1) as (E1 & E2 & _). unfold n. rewrite number_step by auto. clear n. pose proof I as (_ & _ & _ & S0 & _ & _ & _ & _ & KZ & _). cbn [app frac_digits]. rewrite E1. replace (sig + Z.of_nat (length (c :: ds))) with (sig + 1 + Z.of_nat (length ds)) by (cbn [length]; lia). destruct (Z.ltb_spec sig 19) as [LT|GE].
    + specialize (KZ ltac:(lia)). subst k. assert (I' := Inv_take m sig N c I E2 S1 ltac:(lia)). destruct (IH rest _ (sig + 1) 0 (dec - 1) _ D2 ltac:(left; lia) S2 I') as (m' & k' & E & I2). rewrite E. exists m', k'. split; [|auto]. f_equal. f_equal. cbn [length]. lia.
    + assert (I' := Inv_drop m sig k N c I E2 ltac:(lia)). destruct (IH rest _ (sig + 1) (k + 1) dec _ D2 ltac:(left; lia) S2 I') as (m' & k' & E & I2). rewrite E. exists m', k'. split; [|auto]. f_equal. f_equal. cbn [length]. lia.
Qed.
Definition lead (x : list Z) : Prop := match x with c :: _ => c <> 48 | [] => True end.
Lemma split_zeros : forall l, exists z, l = repeat 48 z ++ skip_zeros l /\ lead (skip_zeros l).
Proof.
  induction l as [|c l (z & E & H)]; [exists 0%nat; cbn; auto|]. cbn [skip_zeros]. destruct (Z.eqb_spec c 48) as [->|NE]; [|exists 0%nat; cbn; auto]. exists (S z). cbn [repeat app]. split; [f_equal; auto|auto].
Qed.
Lemma skip_zeros_rep : forall z x, skip_zeros (repeat 48 z ++ x) = skip_zeros x.
Proof. induction z; intros; [reflexivity|]. cbn [repeat app skip_zeros]. rewrite Z.eqb_refl. auto. Qed.
Lemma skip_zeros_lead : forall x, lead x -> skip_zeros x = x.
Proof. intros [|c x] H; [reflexivity|]. cbn [lead] in H. cbn [skip_zeros]. destruct (Z.eqb_spec c 48); [contradiction|reflexivity]. Qed.
Lemma skip_dec_rep : forall z x d, lead x -> skip_zeros_dec (repeat 48 z ++ x) d = (x, d - Z.of_nat z).
Proof.
  induction z as [|z IH]; intros x d H.
  - cbn [repeat app]. rewrite Z.sub_0_r. destruct x as [|c x]; [reflexivity|]. cbn [lead] in H. cbn [skip_zeros_dec]. destruct (Z.eqb_spec c 48); [contradiction|reflexivity].
  - cbn [repeat app skip_zeros_dec]. rewrite Z.eqb_refl, IH by auto. f_equal. lia.
Qed.
Lemma number_rep : forall z x, number 10 (repeat 48 z ++ x) = number 10 x.
Proof. induction z; intros; [reflexivity|]. cbn [repeat app]. rewrite number_cons by lia. rewrite IHz. change (digit 48) with 0. lia. Qed.
Lemma number_app10 : forall a b, number 10 (a ++ b) = number 10 a * 10 ^ Z.of_nat (length b) + number 10 b.
Proof.
  induction a as [|c a IH]; intros b; [cbn [app]; change (number 10 []) with 0; lia|]. cbn [app]. rewrite !number_cons by lia. rewrite IH, app_length, Nat2Z.inj_add, Z.pow_add_r by lia. ring.
Qed.
Definition exp_text (l : literal) : list Z := match l_exp l with None => [] | Some (upper, s, d) => (if upper : bool then 69 else 101) :: sign_text s ++ d end.
Lemma exp_head : forall l, match exp_text l with c :: _ => c = 69 \/ c = 101 | [] => True end.
Proof. intros l. unfold exp_text. destruct (l_exp l) as [[[u s] d]|]; [|exact I]. destruct u; auto. Qed.
Lemma Inv_0 : Inv (Create MANT_BITS) 0 0 0.
Proof. destruct (wf_create 80 ltac:(lia)) as (A & B & C). unfold Inv. change MANT_BITS with 80. do 3 (split; [auto|]). change (10 ^ 0) with 1. lia. Qed.
Definition frac_text (l : literal) : list Z := match l_frac l with None => [] | Some f => 46 :: f end.
Lemma read_sign : forall l x, literal_ok l -> x = l_int l ++ frac_text l ++ exp_text l ->
  match sign_text (l_sign l) ++ x with
  | c :: t => if c =? 45 then (true, t) else if c =? 43 then (false, t) else (false, sign_text (l_sign l) ++ x)
  | [] => (false, sign_text (l_sign l) ++ x)
  end = (negative (l_sign l), x).
Proof.
  intros l x (D1 & _) ->. destruct (l_sign l) as [[]|]; [reflexivity|reflexivity|]. cbn [sign_text app negative]. destruct (l_int l) as [|c t].
  - cbn [app]. unfold frac_text. destruct (l_frac l); [reflexivity|]. cbn [app]. pose proof (exp_head l) as H. destruct (exp_text l) as [|c e]; [reflexivity|]. destruct H as [->| ->]; reflexivity.
  - cbn [forallb] in D1. apply andb_prop in D1. destruct D1 as [D1 _]. destruct (dec_digit c D1) as (_ & E & _). cbn [app]. destruct (Z.eqb_spec c 45); [lia|]. destruct (Z.eqb_spec c 43); [lia|reflexivity].
Qed.
Lemma read_ok : forall l, literal_ok l -> exists m k,
  let sig := Z.of_nat (length (significant l)) in
  read_digits (text l) = (negative (l_sign l), m, k - Z.of_nat (length (fracs l)), exp_text l) /\ Inv m sig k (number 10 (l_int l ++ fracs l)) /\ (fracs l = [] -> sig <= 24 -> k = 0).
Proof.
  intros l OK. pose proof OK as (D1 & D2 & _). unfold read_digits. change (text l) with (sign_text (l_sign l) ++ (l_int l ++ frac_text l ++ exp_text l)). rewrite (read_sign l _ OK eq_refl).
  pose proof (exp_head l) as EH. assert (ES : stops (exp_text l)) by (destruct (exp_text l); [exact I|]; destruct EH as [->| ->]; reflexivity). assert (EL : lead (exp_text l)) by (destruct (exp_text l); [exact I|]; destruct EH as [->| ->]; discriminate).
  unfold significant. destruct (split_zeros (l_int l)) as (z & EI & HI). set (si := skip_zeros (l_int l)) in *. clearbody si. rewrite EI in D1 |- *. rewrite <- !app_assoc, !skip_zeros_rep, number_rep. rewrite forallb_app in D1. apply andb_prop in D1. destruct D1 as [_ D1].
  destruct si as [|c si].
  - cbn [app]. unfold frac_text. destruct (l_frac l) as [fr|] eqn:EF.
    + cbn [app]. cbn [skip_zeros point Z.eqb Pos.eqb]. unfold fracs in *. rewrite EF in *. destruct (split_zeros fr) as (zf & Ef & Hf). set (sf := skip_zeros fr) in *. clearbody sf.
      rewrite Ef in D2. rewrite forallb_app in D2. apply andb_prop in D2. destruct D2 as [_ D2]. subst fr. rewrite <- app_assoc. rewrite skip_dec_rep.
      * destruct (frac_digits_ok sf (exp_text l) (Create MANT_BITS) 0 0 (0 - Z.of_nat zf) 0 D2 ltac:(right; exact Hf) ES Inv_0) as (m & k & E & II). rewrite E. exists m, k. split; [f_equal; f_equal; rewrite app_length, repeat_length, Nat2Z.inj_add; lia|]. rewrite number_rep. split; [exact II|]. intros Q1 _. apply app_eq_nil in Q1. destruct Q1 as [_ ->]. destruct II as (_ & _ & _ & _ & _ & _ & _ & _ & KZ & _). apply KZ. cbn. lia.
      * destruct sf; [exact EL|exact Hf].
    + cbn [app]. unfold fracs. rewrite EF. rewrite (skip_zeros_lead _ EL). exists (Create MANT_BITS), 0. cbn [length skip_zeros]. split; [|split; [exact Inv_0|auto]].
      destruct (exp_text l) as [|c e] eqn:EE; [reflexivity|]. destruct EH as [->| ->]; reflexivity.
  - assert (L : lead (c :: si ++ frac_text l ++ exp_text l)) by exact HI. cbn [app]. rewrite (skip_zeros_lead _ L). cbn [point]. pose proof D1 as D1'. cbn [forallb] in D1'. apply andb_prop in D1'. destruct D1' as [Dc _]. destruct (dec_digit c Dc) as (_ & RC & _). destruct (Z.eqb_spec c 46); [lia|].
    assert (LS : lead (c :: si ++ fracs l)) by exact HI. rewrite (skip_zeros_lead _ LS).
    assert (STF : stops (frac_text l ++ exp_text l)) by (unfold frac_text; destruct (l_frac l); [reflexivity|exact ES]).
    destruct (int_digits_ok (c :: si) (frac_text l ++ exp_text l) (Create MANT_BITS) 0 0 D1 ltac:(right; exact HI) STF Inv_0) as (m & E & II). change (Z.max 0 (0 - 24)) with 0 in E. cbn [app] in E. rewrite E. rewrite Z.add_0_l in *. change (0 * 10 ^ Z.of_nat (length (c :: si)) + number 10 (c :: si)) with (number 10 (c :: si)) in II.
    unfold frac_text, fracs in *. destruct (l_frac l) as [fr|].
    + cbn [app point Z.eqb Pos.eqb]. destruct (frac_digits_ok fr (exp_text l) m (Z.of_nat (length (c :: si))) _ (Z.max 0 (Z.of_nat (length (c :: si)) - 24)) _ D2 ltac:(left; cbn [length]; lia) ES II) as (m' & k' & E' & I'). rewrite E'. exists m', k'. split; [f_equal; f_equal; lia|]. change (c :: si ++ fr) with ((c :: si) ++ fr). rewrite number_app10, app_length, Nat2Z.inj_add. split; [exact I'|]. intros -> S24. cbn [length] in *. destruct (Z_le_gt_dec (Z.of_nat (S (length si))) 24) as [LE|GT].
      * cbn [frac_digits app] in E'. clear - E' LE ES. assert (HH : frac_digits (exp_text l) m (Z.of_nat (S (length si))) (Z.max 0 (Z.of_nat (S (length si)) - 24)) = (m, Z.max 0 (Z.of_nat (S (length si)) - 24), exp_text l)) by (destruct (exp_text l) as [|x e]; [reflexivity|]; cbn [frac_digits]; cbn [stops] in ES; rewrite ES; reflexivity). rewrite HH in E'. assert (Z.max 0 (Z.of_nat (S (length si)) - 24) = Z.max 0 (Z.of_nat (S (length si)) - 24) - Z.of_nat 0 + (k' - Z.max 0 (Z.of_nat (S (length si)) - 24))) by congruence. lia.
      * lia.
    + cbn [app]. rewrite app_nil_r. exists m, (Z.max 0 (Z.of_nat (length (c :: si)) - 24)). split.
      * change (Z.of_nat (length (@nil Z))) with 0. rewrite Z.sub_0_r. destruct (exp_text l) as [|x e]; [reflexivity|]. cbn [point]. destruct EH as [->| ->]; reflexivity.
      * split; [exact II|]. intros _ H. lia.
Qed.
(** ** The exponent *)
Lemma scan_digits_ok : forall d v, forallb is_dec d = true -> scan_digits d v = v * 10 ^ Z.of_nat (length d) + number 10 d.
Proof.
  induction d as [|c d IH]; intros v D; [cbn [scan_digits length]; change (number 10 []) with 0; change (10 ^ Z.of_nat 0) with 1; lia|].
  cbn [forallb] in D. apply andb_prop in D. destruct D as [D1 D2]. destruct (dec_digit c D1) as (E1 & E2 & _). rewrite number_step by auto. cbn [scan_digits]. rewrite E1, IH by auto. reflexivity.
Qed.
Lemma scan_int_ok : forall s d, forallb is_dec d = true -> Z.abs (number 10 d) < 2 ^ 31 -> scan_int (sign_text s ++ d) = Some (if negative s then - number 10 d else number 10 d).
Proof.
  intros s d D B. assert (K : scan_digits d 0 = number 10 d) by (rewrite scan_digits_ok by auto; lia). unfold scan_int. destruct s as [[]|]; cbn [sign_text app negative skip_space Z.eqb Pos.eqb Z.leb Z.compare Pos.compare Pos.compare_cont orb andb].
  - rewrite K. unfold is_int. destruct (Z.leb_spec (- 2 ^ 31) (- number 10 d)); [|lia]. destruct (Z.ltb_spec (- number 10 d) (2 ^ 31)); [reflexivity|lia].
  - rewrite K. unfold is_int. destruct (Z.leb_spec (- 2 ^ 31) (number 10 d)); [|lia]. destruct (Z.ltb_spec (number 10 d) (2 ^ 31)); [reflexivity|lia].
  - destruct d as [|c d]; [reflexivity|]. pose proof D as D'. cbn [forallb] in D'. apply andb_prop in D'. destruct D' as [D1 _]. destruct (dec_digit c D1) as (_ & E2 & _). cbn [skip_space].
    replace ((c =? 32) || ((9 <=? c) && (c <=? 13))) with false; [|symmetry; apply orb_false_iff; split; [apply Z.eqb_neq; lia|apply andb_false_iff; right; apply Z.leb_gt; lia]].
    destruct (Z.eqb_spec c 45); [lia|]. destruct (Z.eqb_spec c 43); [lia|]. rewrite K. unfold is_int. destruct (Z.leb_spec (- 2 ^ 31) (number 10 (c :: d))); [|lia]. destruct (Z.ltb_spec (number 10 (c :: d)) (2 ^ 31)); [reflexivity|lia].
Qed.
Lemma exponent_ok : forall l, literal_ok l -> match exp_text l with c :: t => if (c =? 101) || (c =? 69) then scan_int t else Some 0 | [] => Some 0 end = Some (expval l).
Proof.
  intros l (_ & _ & D & B). unfold exp_text, expval in *. destruct (l_exp l) as [[[u s] d]|]; [|reflexivity]. specialize (D u s d eq_refl). assert (B' : Z.abs (number 10 d) < 2 ^ 31) by (destruct (negative s); lia). pose proof (scan_int_ok s d D B'). destruct u; auto.
Qed.
Lemma few_k : forall l m k, Inv m (Z.of_nat (length (significant l))) k (number 10 (l_int l ++ fracs l)) -> (fracs l = [] -> Z.of_nat (length (significant l)) <= 24 -> k = 0) -> few l = true -> k = 0.
Proof.
  intros l m k (_ & _ & _ & _ & _ & _ & _ & _ & A & _) B F. unfold few in F. apply orb_prop in F. destruct F as [F|F]; [apply Z.leb_le in F; auto|]. apply andb_prop in F. destruct F as [F1 F2]. apply Z.leb_le in F1. destruct (fracs l); [auto|discriminate].
Qed.
Definition big18 : Q := 1 # 10 ^ 18.
(** What is read before scaling, against what is denoted. *)
Lemma digits_rel : forall l m k, literal_ok l -> Inv m (Z.of_nat (length (significant l))) k (number 10 (l_int l ++ fracs l)) -> (fracs l = [] -> Z.of_nat (length (significant l)) <= 24 -> k = 0) ->
  let V := (inject_Z (uval m) * p10 (k - Z.of_nat (length (fracs l)) + expval l))%Q in
  (V <= denoted l)%Q /\ (denoted l * (1 - (if few l then 0 else big18)) <= V)%Q /\ (uval m = 0 <-> (denoted l == 0)%Q) /\ (0 <= denoted l)%Q.
Proof.
  intros l m k OK II FK V. pose proof (few_k l m k II FK) as FW. destruct II as (W & B & U & S0 & K0 & [N0 N1] & L & F1 & F2 & F3). unfold denoted. set (N := number 10 (l_int l ++ fracs l)) in *. set (d := uval m) in *. clearbody N. clear FK OK. set (lf := Z.of_nat (length (fracs l))) in *. set (E := expval l) in *.
  assert (PK : 0 < 10 ^ k) by (apply Z.pow_pos_nonneg; lia). pose proof (p10_pos (E - lf)) as PE. set (p := p10 (E - lf)) in *.
  assert (VE : (V == inject_Z (d * 10 ^ k) * p)%Q). { unfold V, p. replace (k - lf + E) with (k + (E - lf)) by lia. rewrite p10_add, p10_Z, inject_Z_mult by lia. ring. }
  pose proof (Z.div_mod N (10 ^ k) ltac:(lia)) as DM. pose proof (Z.mod_pos_bound N (10 ^ k) PK) as MB. rewrite <- U in DM.
  rewrite VE. split; [apply inject_mul_le; [auto|nia]|]. split; [|split].
  - destruct (few l).
    + specialize (FW eq_refl). subst k. change (10 ^ 0) with 1 in *. assert (N = d * 1) by (rewrite Z.mod_1_r in DM; lia). rewrite H. lra.
    + destruct (Z.eq_dec k 0) as [->|NK].
      * change (10 ^ 0) with 1 in *. assert (N = d * 1) by (rewrite Z.mod_1_r in DM; lia). rewrite H. assert (0 <= inject_Z (d * 1))%Q by (rewrite <- (Zle_Qle 0); lia). unfold big18. assert (0 <= inject_Z (d * 1) * p)%Q by nra. change (1 # 10 ^ 18)%Q with (1 # 1000000000000000000)%Q. nra.
      * specialize (F3 ltac:(lia)). assert (D18 : 10 ^ 18 <= d). { rewrite U. apply Z.div_le_lower_bound; [lia|]. specialize (L ltac:(lia)). apply Z.le_trans with (10 ^ (Z.of_nat (length (significant l)) - 1)); [|auto]. rewrite <- Z.pow_add_r by lia. apply Z.pow_le_mono_r; lia. }
        setoid_replace (inject_Z N * p * (1 - big18))%Q with (inject_Z N * (1 - big18) * p)%Q by ring. apply Qmult_le_compat_r; [|lra]. assert (NN : N * (10 ^ 18 - 1) <= d * 10 ^ k * 10 ^ 18) by nia. rewrite Zle_Qle, inject_Z_mult, (inject_Z_mult (d * 10 ^ k)) in NN. change (inject_Z (10 ^ 18 - 1)) with (999999999999999999 # 1)%Q in NN. change (inject_Z (10 ^ 18)) with (1000000000000000000 # 1)%Q in NN. change big18 with (1 # 1000000000000000000)%Q. lra.
  - split; intros H.
    + assert (N = 0). { destruct (Z.eq_dec k 0) as [->|NK]; [change (10 ^ 0) with 1 in *; rewrite Z.mod_1_r in DM; lia|]. exfalso. specialize (F3 ltac:(lia)). specialize (L ltac:(lia)). assert (1 <= d); [|lia]. rewrite U. apply Z.div_le_lower_bound; [lia|]. apply Z.le_trans with (10 ^ (Z.of_nat (length (significant l)) - 1)); [|auto]. rewrite Z.mul_1_r. apply Z.pow_le_mono_r; lia. }
      subst N. reflexivity.
    + assert (HN : (inject_Z N == 0)%Q). { apply Qmult_integral in H. destruct H as [H|H]; [auto|lra]. } assert (N = 0) by (unfold inject_Z, Qeq in HN; cbn in HN; lia). subst N. rewrite U. apply Z.div_0_l. lia.
  - apply Qmult_le_0_compat; [rewrite <- (Zle_Qle 0); auto|lra].
Qed.
