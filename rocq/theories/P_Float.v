(** Specification and proofs for floatnum.c: output formats and multiplication (C43, C61). *)
From Coq Require Import ZArith QArith Qabs Qpower List Bool Lia Lqa.
From Verif Require Import Lib LibBits M_BitVect M_BitVectIv M_Float P_BitVect P_BitVectIO P_FloatZ.
Import ListNotations.
Open Scope Z_scope.

(** * Specification *)
(** Powers of two and ten, and the rational number an internal float stands for. *)
Definition p2 (e : Z) : Q := Qpower (2 # 1) e.
Definition p10 (e : Z) : Q := Qpower (10 # 1) e.
Definition value (f : flt) : Q := (inject_Z (uval (mant f)) * p2 (expo f - 32767 - 79))%Q.
(** A normal internal number: the top bit of the mantissa is set. *)
Definition normal (f : flt) : Prop :=
  wf (mant f) /\ bits (mant f) = 80 /\ 2 ^ 79 <= uval (mant f) /\ 1 <= expo f <= 65534 /\ iszero f = false.
(** Numbers with exactly [p] significant bits and any exponent. *)
Definition in_fmt (p : Z) (y : Q) : Prop :=
  exists q j, 2 ^ (p - 1) <= q < 2 ^ p /\ (y == inject_Z q * p2 j)%Q.
(** [y] is the number of [p] bits nearest to [x], the larger one if there are two. *)
Definition nearest (p : Z) (x y : Q) : Prop :=
  in_fmt p y /\ forall y', in_fmt p y' ->
    (Qabs (x - y) <= Qabs (x - y') /\ (Qabs (x - y) == Qabs (x - y') -> y' <= y))%Q.
(** IEEE 754 binary formats, and the x87 extended format with its explicit integer bit. *)
Record fmt := Fmt { fbytes : Z; fmb : Z; fimp : Z; feb : Z }.
Definition half := Fmt 2 10 1 5.
Definition single := Fmt 4 23 1 8.
Definition double := Fmt 8 52 1 11.
Definition extended := Fmt 10 64 0 15.
Definition format (m : fmt) : Prop := m = half \/ m = single \/ m = double \/ m = extended.
Definition prec (m : fmt) : Z := fmb m + fimp m.
Definition bias (m : fmt) : Z := 2 ^ (feb m - 1) - 1.
(** What the bytes of a format mean: [Fin s q j] is (-1)^s * q * 2^j.  x87 bit patterns that the
    processor refuses (unnormals, pseudo-infinities) are [Invalid]. *)
Inductive ieee := Zero (s : bool) | Sub (s : bool) (q j : Z) | Fin (s : bool) (q j : Z) | Inf (s : bool) | NaN | Invalid.
Definition decode (m : fmt) (b : list Z) : ieee :=
  let n := lev b in
  let f := n mod 2 ^ fmb m in
  let e := (n / 2 ^ fmb m) mod 2 ^ feb m in
  let s := n / 2 ^ (fmb m + feb m) =? 1 in
  let top := if fimp m =? 1 then 2 ^ fmb m else 0 in
  if e =? 0 then (if f =? 0 then Zero s else Sub s f (1 - bias m - (prec m - 1)))
  else if e =? 2 ^ feb m - 1 then
    (if fimp m =? 1 then (if f =? 0 then Inf s else NaN)
     else if f =? 2 ^ 63 then Inf s else if 2 ^ 63 <? f then NaN else Invalid)
  else if (fimp m =? 0) && (f <? 2 ^ 63) then Invalid
  else Fin s (top + f) (e - bias m - (prec m - 1)).
(** What a value too large for the format becomes. *)
Definition infinity (m : fmt) (s : bool) : ieee := if fimp m =? 1 then Inf s else Invalid.

(** * Powers of two *)
Lemma two_nz : ~ (2 # 1 == 0)%Q. Proof. discriminate. Qed.
Lemma p2_pos : forall e, (0 < p2 e)%Q.
Proof. intros. apply Qpower_0_lt. reflexivity. Qed.
Lemma p2_add : forall a b, (p2 (a + b) == p2 a * p2 b)%Q.
Proof. intros. apply Qpower_plus. apply two_nz. Qed.
Lemma p2_Z : forall e, 0 <= e -> (p2 e == inject_Z (2 ^ e))%Q.
Proof.
  intros e E. unfold p2. destruct e as [|p|p]; [reflexivity| |lia]. rewrite Qpower_decomp_pos. unfold Qeq, inject_Z. cbn [Qnum Qden]. rewrite Pos2Z.inj_pow, Z.pow_1_l by lia. lia.
Qed.
Lemma p2_le : forall a b, a <= b -> (p2 a <= p2 b)%Q.
Proof. intros. apply Qpower_le_compat_l; [auto|discriminate]. Qed.
Lemma p2_lt : forall a b, a < b -> (p2 a < p2 b)%Q.
Proof. intros. apply Qpower_lt_compat_l; [auto|reflexivity]. Qed.
Lemma p2_lt_inv : forall a b, (p2 a < p2 b)%Q -> a < b.
Proof. intros a b H. eapply Qpower_lt_compat_l_inv; [exact H|reflexivity]. Qed.
Lemma p2_split : forall a b, 0 <= a -> (p2 (a + b) == inject_Z (2 ^ a) * p2 b)%Q.
Proof. intros a b A. rewrite p2_add, p2_Z by auto. reflexivity. Qed.

(** * Rounding *)
Lemma abs_scale : forall a b w, (0 < w)%Q -> (Qabs (inject_Z a * w - inject_Z b * w) == inject_Z (Z.abs (a - b)) * w)%Q.
Proof.
  intros a b w W. setoid_replace (inject_Z a * w - inject_Z b * w)%Q with (inject_Z (a - b) * w)%Q by (unfold Z.sub; rewrite inject_Z_plus, inject_Z_opp; ring).
  rewrite Qabs_Qmult. rewrite (Qabs_pos w) by lra. unfold Qabs, inject_Z. reflexivity.
Qed.
Lemma inject_mul_le : forall a b w, (0 < w)%Q -> a <= b -> (inject_Z a * w <= inject_Z b * w)%Q.
Proof. intros a b w W H. apply Qmult_le_compat_r; [|lra]. rewrite <- Zle_Qle. auto. Qed.
Lemma inject_mul_le_inv : forall a b w, (0 < w)%Q -> (inject_Z a * w <= inject_Z b * w)%Q -> a <= b.
Proof. intros a b w W H. rewrite Zle_Qle. apply Qmult_le_r in H; auto. Qed.
Lemma inject_mul_lt : forall a b w, (0 < w)%Q -> a < b -> (inject_Z a * w < inject_Z b * w)%Q.
Proof. intros a b w W H. apply Qmult_lt_r; [auto|]. rewrite <- Zlt_Qlt. auto. Qed.
(** Rounding an integer to a multiple of 2^sh. *)
Definition rnd (sh m : Z) : Z := (m + 2 ^ (sh - 1)) / 2 ^ sh.
Lemma rnd_bounds : forall sh m, 1 <= sh -> let d := m - rnd sh m * 2 ^ sh in - 2 ^ (sh - 1) <= d < 2 ^ (sh - 1).
Proof.
  intros sh m S d. assert (P : 2 ^ sh = 2 * 2 ^ (sh - 1)) by (rewrite <- Z.pow_succ_r by lia; f_equal; lia). pose proof (pow2_pos (sh - 1) ltac:(lia)). unfold d, rnd.
  pose proof (Z.div_mod (m + 2 ^ (sh - 1)) (2 ^ sh) ltac:(lia)). pose proof (Z.mod_pos_bound (m + 2 ^ (sh - 1)) (2 ^ sh) ltac:(lia)). lia.
Qed.
Lemma rnd_best : forall sh m a, 1 <= sh -> let d := Z.abs (m - rnd sh m * 2 ^ sh) in
  d <= Z.abs (m - a * 2 ^ sh) /\ (d = Z.abs (m - a * 2 ^ sh) -> a <= rnd sh m).
Proof.
  intros sh m a S d. pose proof (rnd_bounds sh m S) as B. cbv zeta in B. assert (P : 2 ^ sh = 2 * 2 ^ (sh - 1)) by (rewrite <- Z.pow_succ_r by lia; f_equal; lia). pose proof (pow2_pos (sh - 1) ltac:(lia)). unfold d. rewrite P in *. set (h := 2 ^ (sh - 1)) in *. clearbody h. set (q := rnd sh m) in *. clearbody q. clear d P.
  destruct (Z.lt_trichotomy a q) as [L|[->|G]]; [|lia|].
  - assert (a * (2 * h) <= q * (2 * h) - 2 * h) by nia. lia.
  - assert (a * (2 * h) >= q * (2 * h) + 2 * h) by nia. lia.
Qed.
Lemma nearest_rnd : forall p m j, 1 <= p <= 79 -> 2 ^ 79 <= m < 2 ^ 80 -> let sh := 80 - p in
  nearest p (inject_Z m * p2 j) (inject_Z (rnd sh m) * p2 (sh + j)).
Proof.
  intros p m j P M sh. assert (SH : 1 <= sh) by (unfold sh; lia). pose proof (p2_pos j) as W.
  assert (YE : (inject_Z (rnd sh m) * p2 (sh + j) == inject_Z (rnd sh m * 2 ^ sh) * p2 j)%Q) by (rewrite p2_split by lia; rewrite inject_Z_mult; ring).
  assert (P79 : 2 ^ 79 = 2 ^ (p - 1) * 2 ^ sh) by (rewrite <- Z.pow_add_r by lia; f_equal; unfold sh; lia).
  assert (P80 : 2 ^ 80 = 2 ^ p * 2 ^ sh) by (rewrite <- Z.pow_add_r by lia; f_equal; unfold sh; lia).
  assert (PS : 0 < 2 ^ sh) by (apply pow2_pos; lia). pose proof (pow2_pos (p - 1) ltac:(lia)) as PP. assert (P2 : 2 ^ p = 2 * 2 ^ (p - 1)) by (rewrite <- Z.pow_succ_r by lia; f_equal; lia).
  assert (HS : 2 ^ sh = 2 * 2 ^ (sh - 1)) by (rewrite <- Z.pow_succ_r by lia; f_equal; lia). pose proof (pow2_pos (sh - 1) ltac:(lia)).
  assert (RQ : 2 ^ (p - 1) <= rnd sh m <= 2 ^ p).
  { unfold rnd. split; [apply Z.div_le_lower_bound; nia|]. apply Z.lt_succ_r. apply Z.div_lt_upper_bound; nia. }
  split.
  - destruct (Z.eq_dec (rnd sh m) (2 ^ p)) as [EQ|NE].
    + exists (2 ^ (p - 1)), (1 + (sh + j)). split; [lia|]. rewrite (p2_split 1) by lia. rewrite EQ, P2, inject_Z_mult. change (2 ^ 1) with 2. ring.
    + exists (rnd sh m), (sh + j). split; [lia|reflexivity].
  - assert (GRID : forall a, let y' := (inject_Z (a * 2 ^ sh) * p2 j)%Q in
      (Qabs (inject_Z m * p2 j - inject_Z (rnd sh m) * p2 (sh + j)) <= Qabs (inject_Z m * p2 j - y') /\
       (Qabs (inject_Z m * p2 j - inject_Z (rnd sh m) * p2 (sh + j)) == Qabs (inject_Z m * p2 j - y') -> y' <= inject_Z (rnd sh m) * p2 (sh + j)))%Q).
    { intros a y'. unfold y'. rewrite YE. rewrite !abs_scale by auto. destruct (rnd_best sh m a SH) as [B1 B2]. split.
      - apply inject_mul_le; auto.
      - intros E. apply inject_mul_le; [auto|]. apply Z.mul_le_mono_nonneg_r; [lia|]. apply B2. apply Qmult_inj_r in E; [|lra]. apply (proj1 (inject_Z_injective _ _)) in E. auto. }
    intros y' (q' & j' & Q' & EY). destruct (Z.le_gt_cases (sh + j) j') as [G|L].
    + assert (EA : (y' == inject_Z (q' * 2 ^ (j' - (sh + j)) * 2 ^ sh) * p2 j)%Q).
      { rewrite EY. replace j' with ((j' - (sh + j)) + (sh + j)) at 1 by lia. rewrite p2_split, p2_split by lia. rewrite !inject_Z_mult. ring. }
      rewrite EA. apply GRID.
    + assert (LT : (y' < inject_Z (2 ^ (p - 1) * 2 ^ sh) * p2 j)%Q).
      { apply Qlt_le_trans with (inject_Z (2 ^ p) * p2 j')%Q; [rewrite EY; apply inject_mul_lt; [apply p2_pos|lia]|].
        apply Qle_trans with (inject_Z (2 ^ p) * p2 (sh + j - 1))%Q; [rewrite !(Qmult_comm (inject_Z (2 ^ p))); apply Qmult_le_compat_r; [apply p2_le; lia|rewrite <- (Zle_Qle 0); lia]|].
        replace (sh + j - 1) with ((sh - 1) + j) by lia. rewrite p2_split by lia. rewrite P2, HS, !inject_Z_mult. lra. }
      assert (GE : (inject_Z (2 ^ (p - 1) * 2 ^ sh) * p2 j <= inject_Z m * p2 j)%Q) by (apply inject_mul_le; [auto|lia]).
      destruct (GRID (2 ^ (p - 1))) as [G1 G2]. cbv zeta in *. set (g := (inject_Z (2 ^ (p - 1) * 2 ^ sh) * p2 j)%Q) in *. set (x := (inject_Z m * p2 j)%Q) in *. set (y := (inject_Z (rnd sh m) * p2 (sh + j))%Q) in *.
      assert (A1 : (Qabs (x - g) == x - g)%Q) by (apply Qabs_pos; lra). assert (A2 : (Qabs (x - y') == x - y')%Q) by (apply Qabs_pos; lra). rewrite A1 in G1. rewrite A2. split; [lra|]. intros E. exfalso. lra.
Qed.

(** * Output *)
Lemma fields : forall mb eb F E s n, 0 <= mb -> 0 <= eb -> 0 <= F < 2 ^ mb -> 0 <= E < 2 ^ eb -> n = F + 2 ^ mb * E + 2 ^ (mb + eb) * b2z s ->
  n mod 2 ^ mb = F /\ (n / 2 ^ mb) mod 2 ^ eb = E /\ (n / 2 ^ (mb + eb) =? 1) = s.
Proof.
  intros mb eb F E s n M B HF HE N. pose proof (pow2_pos mb M). pose proof (pow2_pos eb B). rewrite Z.pow_add_r in * by auto.
  assert (D : n / 2 ^ mb = E + 2 ^ eb * b2z s) by (symmetry; apply (Z.div_unique _ _ _ F); [lia|rewrite N; ring]). rewrite D.
  split; [symmetry; apply (Z.mod_unique _ _ (E + 2 ^ eb * b2z s)); [lia|rewrite N; ring]|]. split; [symmetry; apply (Z.mod_unique _ _ (b2z s)); [lia|ring]|].
  replace (n / (2 ^ mb * 2 ^ eb)) with (b2z s); [destruct s; reflexivity|]. apply (Z.div_unique _ _ _ (F + 2 ^ mb * E)); [nia|rewrite N; ring].
Qed.
Lemma decode_zero : forall m b s, 0 <= fmb m -> 0 <= feb m -> lev b = 2 ^ (fmb m + feb m) * b2z s -> decode m b = Zero s.
Proof.
  intros m b s M B L. pose proof (pow2_pos (fmb m) M). pose proof (pow2_pos (feb m) B). destruct (fields (fmb m) (feb m) 0 0 s (lev b) M B ltac:(lia) ltac:(lia) ltac:(lia)) as (A1 & A2 & A3). unfold decode. rewrite A1, A2, A3. reflexivity.
Qed.
Lemma decode_inf : forall m b s, format m -> lev b = 2 ^ fmb m * (2 ^ feb m - 1) + 2 ^ (fmb m + feb m) * b2z s -> decode m b = infinity m s.
Proof.
  intros m b s F L. destruct (fields (fmb m) (feb m) 0 (2 ^ feb m - 1) s (lev b)) as (A1 & A2 & A3); try lia; try (destruct F as [->|[->|[->| ->]]]; cbn; lia).
  unfold decode, infinity. rewrite A1, A2, A3, Z.eqb_refl. destruct F as [->|[->|[->| ->]]]; reflexivity.
Qed.
Lemma decode_fin : forall m b s F e, format m -> 0 <= F < 2 ^ fmb m -> 1 <= e < 2 ^ feb m - 1 -> (fimp m = 0 -> 2 ^ 63 <= F) -> lev b = F + 2 ^ fmb m * e + 2 ^ (fmb m + feb m) * b2z s ->
  decode m b = Fin s ((if fimp m =? 1 then 2 ^ fmb m else 0) + F) (e - bias m - (prec m - 1)).
Proof.
  intros m b s F e FM HF E X L. assert (0 <= fmb m /\ 0 <= feb m) as [M1 M2] by (destruct FM as [->|[->|[->| ->]]]; cbn; lia).
  destruct (fields (fmb m) (feb m) F e s (lev b) M1 M2 HF ltac:(lia) L) as (A1 & A2 & A3). unfold decode. rewrite A1, A2, A3. destruct (Z.eqb_spec e 0); [lia|]. destruct (Z.eqb_spec e (2 ^ feb m - 1)); [lia|].
  destruct (Z.eqb_spec (fimp m) 0) as [I|I]; cbn [andb]; [|reflexivity]. destruct (Z.ltb_spec F (2 ^ 63)); [specialize (X I); lia|reflexivity].
Qed.
Lemma get_sized_common : forall f m w, format m -> get_sized f (fbytes m) (8 * fbytes m) 0 false w =
  match get_common f (fbytes m) (fmb m) (fimp m) (feb m) with Some (b, ret) => Some (b, ret, if w then ret else 0) | None => None end.
Proof. intros f m w [->|[->|[->| ->]]]; reflexivity. Qed.
(** The mantissa bits and the rounding bit, put together *)
Lemma rnd_bits : forall m sh, 1 <= sh -> rnd sh m = m / 2 ^ sh + b2z (Z.testbit m (sh - 1)).
Proof.
  intros m sh S. unfold rnd. assert (P : 2 ^ sh = 2 ^ (sh - 1) * 2) by (rewrite Z.mul_comm, <- Z.pow_succ_r by lia; f_equal; lia). pose proof (pow2_pos (sh - 1) ltac:(lia)).
  rewrite P, <- !Z.div_div by lia. replace (m + 2 ^ (sh - 1)) with (m + 1 * 2 ^ (sh - 1)) by lia. rewrite Z.div_add by lia. replace (Z.testbit m (sh - 1)) with (Z.testbit (m / 2 ^ (sh - 1)) 0) by (rewrite Z.div_pow2_bits by lia; f_equal; lia). rewrite Z.bit0_odd. set (x := m / 2 ^ (sh - 1)). clearbody x.
  rewrite (Z.div2_odd x) at 1. rewrite Z.div2_div. set (k := x / 2). destruct (Z.odd x); cbn [Z.b2z b2z].
  - replace (2 * k + 1 + 1) with ((k + 1) * 2) by lia. rewrite Z.div_mul; lia.
  - symmetry. apply (Z.div_unique _ _ _ 1); lia.
Qed.
Lemma in_range : forall p q j, 1 <= p -> 2 ^ (p - 1) <= q < 2 ^ p -> (p2 (j + (p - 1)) <= inject_Z q * p2 j /\ inject_Z q * p2 j < p2 (j + p))%Q.
Proof.
  intros p q j P H. rewrite !(Z.add_comm j). rewrite !p2_split by lia. split; [apply inject_mul_le|apply inject_mul_lt]; try apply p2_pos; lia.
Qed.
Theorem rounds_ok : forall f m w, format m -> normal f -> exists b ret y,
  get_sized f (fbytes m) (8 * fbytes m) 0 false w = Some (b, ret, if w then ret else 0) /\
  Forall byte b /\ Z.of_nat (length b) = fbytes m /\ nearest (prec m) (value f) y /\
  ((p2 (bias m + 1) <= y)%Q /\ ret = 1 /\ decode m b = infinity m (sign f) \/
   (y < p2 (1 - bias m))%Q /\ ret = -1 /\ decode m b = Zero (sign f) \/
   (p2 (1 - bias m) <= y < p2 (bias m + 1))%Q /\ ret = 0 /\
     exists q j, 2 ^ (prec m - 1) <= q < 2 ^ prec m /\ decode m b = Fin (sign f) q j /\ (y == inject_Z q * p2 j)%Q).
Proof.
  intros f m w FM (W & B & L & E & NZ). pose proof (wf_range _ W) as R. rewrite B in R. rewrite get_sized_common by auto.
  assert (PR : 1 <= prec m <= 64 /\ (fimp m = 0 \/ fimp m = 1) /\ 0 < fmb m /\ 1 <= feb m <= 15 /\ 8 * fbytes m = fmb m + feb m + 1 /\ fmb m + fimp m < 80 /\ 0 <= fbytes m) by (destruct FM as [->|[->|[->| ->]]]; cbn; lia).
  destruct PR as (P & IM & MB & EB & BS & SM & BP).
  destruct (get_common_ok f (fbytes m) (fmb m) (fimp m) (feb m) W B ltac:(lia) IM MB EB BS SM) as (b & ret & G & FB & LB & C1 & C2 & C3). rewrite G. clear G.
  set (mm := uval (mant f)) in *. set (sh := 80 - fimp m - fmb m) in *. set (t := (mm / 2 ^ sh) mod 2 ^ fmb m + b2z (Z.testbit mm (sh - 1))) in *.
  assert (ESH : sh = 80 - prec m) by (unfold sh, prec; lia).
  set (q := rnd sh mm). pose proof (nearest_rnd (prec m) mm (expo f - 32767 - 79) ltac:(lia) ltac:(lia)) as NR. cbv zeta in NR. rewrite <- ESH in NR. fold q in NR. fold (value f) in NR.
  set (y := (inject_Z q * p2 (sh + (expo f - 32767 - 79)))%Q) in *.
  pose proof (pow2_pos sh ltac:(lia)) as PS. pose proof (pow2_pos (fmb m) ltac:(lia)) as PM.
  assert (P79 : 2 ^ 79 = 2 ^ (prec m - 1) * 2 ^ sh) by (rewrite <- Z.pow_add_r by lia; f_equal; lia).
  assert (P80 : 2 ^ 80 = 2 ^ prec m * 2 ^ sh) by (rewrite <- Z.pow_add_r by lia; f_equal; lia).
  assert (P2 : 2 ^ prec m = 2 * 2 ^ (prec m - 1)) by (rewrite <- Z.pow_succ_r by lia; f_equal; lia). pose proof (pow2_pos (prec m - 1) ltac:(lia)) as PP.
  assert (DR : 2 ^ (prec m - 1) <= mm / 2 ^ sh < 2 ^ prec m) by (split; [apply Z.div_le_lower_bound; nia|apply Z.div_lt_upper_bound; nia]).
  assert (TOP : q = t + (if fimp m =? 1 then 2 ^ fmb m else 0)).
  { unfold q, t. rewrite rnd_bits by lia. destruct IM as [I|I]; rewrite I; cbn [Z.eqb Pos.eqb].
    - rewrite (Z.mod_small (mm / 2 ^ sh)); [lia|]. unfold prec in DR. rewrite I, Z.add_0_r in DR. lia.
    - replace ((mm / 2 ^ sh) mod 2 ^ fmb m) with (mm / 2 ^ sh - 2 ^ fmb m); [lia|]. apply (Z.mod_unique _ _ 1); unfold prec in DR, P2; rewrite I in *; replace (fmb m + 1 - 1) with (fmb m) in * by lia; lia. }
  assert (TR : 0 <= t <= 2 ^ fmb m) by (unfold t; pose proof (Z.mod_pos_bound (mm / 2 ^ sh) (2 ^ fmb m) PM); destruct (Z.testbit mm (sh - 1)); cbn [b2z]; lia).
  assert (TQ : t = 2 ^ fmb m <-> q = 2 ^ prec m).
  { rewrite TOP. unfold prec. destruct IM as [I|I]; rewrite I; cbn [Z.eqb Pos.eqb]; [rewrite !Z.add_0_r; lia|]. rewrite Z.pow_add_r by lia. change (2 ^ 1) with 2. lia. }
  set (c := t =? 2 ^ fmb m) in *. set (qn := if c then 2 ^ (prec m - 1) else q). set (e := expo f + b2z c - 32767 + (2 ^ (feb m - 1) - 1)) in *. set (j := e - bias m - (prec m - 1)).
  assert (QB : 2 ^ (prec m - 1) <= q <= 2 ^ prec m).
  { unfold q. rewrite rnd_bits by lia. destruct (Z.testbit mm (sh - 1)); cbn [b2z]; lia. }
  assert (QN : 2 ^ (prec m - 1) <= qn < 2 ^ prec m).
  { unfold qn, c. destruct (Z.eqb_spec t (2 ^ fmb m)) as [X|X]; [lia|]. assert (q <> 2 ^ prec m) by (intro; apply X; apply TQ; auto). lia. }
  assert (YQ : (y == inject_Z qn * p2 j)%Q).
  { unfold y, qn, j, e. fold (bias m). unfold c. destruct (Z.eqb_spec t (2 ^ fmb m)) as [X|X]; cbn [b2z].
    - apply TQ in X. rewrite X, P2. replace (expo f + 1 - 32767 + bias m - bias m - (prec m - 1)) with (1 + (sh + (expo f - 32767 - 79))) by lia. rewrite (p2_split 1) by lia. rewrite inject_Z_mult. change (2 ^ 1) with 2. ring.
    - replace (expo f + 0 - 32767 + bias m - bias m - (prec m - 1)) with (sh + (expo f - 32767 - 79)) by lia. reflexivity. }
  destruct (in_range (prec m) qn j ltac:(lia) QN) as [Y1 Y2]. rewrite <- YQ in Y1, Y2. replace (j + (prec m - 1)) with (e - bias m) in Y1 by (unfold j; lia). replace (j + prec m) with (e - bias m + 1) in Y2 by (unfold j; lia).
  assert (INF : 2 ^ feb m - 1 = bias m + 1 + bias m) by (unfold bias; assert (2 ^ feb m = 2 * 2 ^ (feb m - 1)) by (rewrite <- Z.pow_succ_r by lia; f_equal; lia); lia).
  exists b, ret, y. split; [reflexivity|]. split; [auto|]. split; [lia|]. split; [exact NR|].
  destruct (Z.le_gt_cases e 0) as [Un|Un].
  { right. left. destruct (C1 Un) as [C1a C1b]. rewrite NZ in C1a. split; [|split; [auto|apply decode_zero; [lia|lia|exact C1b]]]. eapply Qlt_le_trans; [exact Y2|]. apply p2_le. lia. }
  destruct (Z.le_gt_cases (2 ^ feb m - 1) e) as [Ov|Ov].
  { left. destruct (C2 Ov) as [C2a C2b]. split; [|split; [auto|apply decode_inf; auto]]. eapply Qle_trans; [|exact Y1]. apply p2_le. lia. }
  right. right. destruct (C3 ltac:(lia)) as [C3a C3b]. split; [split; [eapply Qle_trans; [|exact Y1]; apply p2_le; lia|eapply Qlt_le_trans; [exact Y2|]; apply p2_le; lia]|]. split; [auto|]. exists qn, j. split; [auto|]. split; [|exact YQ].
  assert (EF : qn = (if fimp m =? 1 then 2 ^ fmb m else 0) + (if c then b2z (fimp m =? 0) * 2 ^ (fmb m - 1) else t)).
  { unfold qn. destruct c eqn:CE; [|rewrite TOP; lia]. unfold prec. destruct IM as [I|I]; rewrite I; cbn [Z.eqb Pos.eqb b2z].
    - rewrite Z.add_0_r. lia.
    - replace (fmb m + 1 - 1) with (fmb m) by lia. lia. }
  rewrite EF. apply decode_fin; auto; [|lia|].
  - destruct c eqn:CE; unfold c in CE; [apply Z.eqb_eq in CE|apply Z.eqb_neq in CE; lia]. assert (2 ^ fmb m = 2 * 2 ^ (fmb m - 1)) by (rewrite <- Z.pow_succ_r by lia; f_equal; lia). pose proof (pow2_pos (fmb m - 1) ltac:(lia)). destruct (fimp m =? 0); cbn [b2z]; lia.
  - intros I. assert (m = extended) by (destruct FM as [->|[->|[->| ->]]]; try discriminate I; reflexivity). subst m. cbn [fimp fmb extended prec] in *. cbn [Z.eqb Pos.eqb] in EF. change (prec extended - 1) with 63 in *. change (0 =? 0) with true. rewrite Z.add_0_l in EF. rewrite <- EF. lia.
Qed.
(** Internal zero, underflow and overflow *)
Theorem special_ok : forall f m w, format m -> wf (mant f) -> bits (mant f) = 80 -> expo f = 0 \/ expo f = 65535 -> exists b ret,
  get_sized f (fbytes m) (8 * fbytes m) 0 false w = Some (b, ret, if w then ret else 0) /\
  Forall byte b /\ Z.of_nat (length b) = fbytes m /\
  (expo f = 0 -> decode m b = Zero (sign f) /\ ret = if iszero f then 0 else -1) /\
  (expo f = 65535 -> decode m b = infinity m (sign f) /\ ret = 1).
Proof.
  intros f m w FM W B E. rewrite get_sized_common by auto.
  assert (PR : (fimp m = 0 \/ fimp m = 1) /\ 0 < fmb m /\ 1 <= feb m <= 15 /\ 8 * fbytes m = fmb m + feb m + 1 /\ fmb m + fimp m < 80 /\ 0 <= fbytes m) by (destruct FM as [->|[->|[->| ->]]]; cbn; lia).
  destruct PR as (IM & MB & EB & BS & SM & BP).
  destruct (get_common_ok f (fbytes m) (fmb m) (fimp m) (feb m) W B ltac:(lia) IM MB EB BS SM) as (b & ret & G & FB & LB & C1 & C2 & C3). rewrite G. clear G C3. cbv zeta in C1, C2.
  set (c := b2z (_ =? 2 ^ fmb m)) in *. assert (CR : 0 <= c <= 1) by (unfold c; destruct (_ =? 2 ^ fmb m); cbn; lia). clearbody c.
  assert (BL : 2 ^ (feb m - 1) <= 2 ^ 14) by (apply Z.pow_le_mono_r; lia). change (2 ^ 14) with 16384 in BL. pose proof (pow2_pos (feb m - 1) ltac:(lia)). assert (2 ^ feb m = 2 * 2 ^ (feb m - 1)) by (rewrite <- Z.pow_succ_r by lia; f_equal; lia).
  exists b, ret. split; [reflexivity|]. split; [auto|]. split; [lia|]. split; intros X; rewrite X in *.
  - destruct (C1 ltac:(lia)) as [A1 A2]. split; [apply decode_zero; [lia|lia|exact A2]|exact A1].
  - destruct (C2 ltac:(lia)) as [A1 A2]. split; [apply decode_inf; auto|exact A1].
Qed.

(** * Multiplication *)
Lemma floor_rel : forall P s v w, 0 <= s -> (0 < v)%Q -> 2 ^ 79 <= P / 2 ^ s -> (w == inject_Z (P / 2 ^ s) * (inject_Z (2 ^ s) * v))%Q ->
  (inject_Z P * v * (1 - (1 # 2 ^ 79)) <= w /\ w <= inject_Z P * v)%Q.
Proof.
  intros P s v w S V L E. pose proof (pow2_pos s S) as PS. pose proof (Z.div_mod P (2 ^ s) ltac:(lia)) as D. pose proof (Z.mod_pos_bound P (2 ^ s) ltac:(lia)) as B. set (q := P / 2 ^ s) in *. clearbody q.
  assert (E' : (w == inject_Z (q * 2 ^ s) * v)%Q) by (rewrite E, inject_Z_mult; ring). split.
  - rewrite E'. assert (X : (inject_Z P * (1 - (1 # 2 ^ 79)) <= inject_Z (q * 2 ^ s))%Q).
    { assert (Y : (inject_Z (P * (2 ^ 79 - 1)) <= inject_Z (q * 2 ^ s * 2 ^ 79))%Q) by (rewrite <- Zle_Qle; change (2 ^ 79) with 604462909807314587353088 in *; nia).
      rewrite !inject_Z_mult in Y. unfold Z.sub in Y. rewrite inject_Z_plus in Y. change (inject_Z (2 ^ 79)) with (604462909807314587353088 # 1)%Q in Y. change (inject_Z (- (1))) with (- (1))%Q in Y. rewrite !inject_Z_mult. change (1 # 2 ^ 79)%Q with (1 # 604462909807314587353088)%Q. lra. }
    setoid_replace (inject_Z P * v * (1 - (1 # 2 ^ 79)))%Q with ((inject_Z P * (1 - (1 # 2 ^ 79))) * v)%Q by ring. apply Qmult_le_compat_r; [auto|lra].
  - rewrite E'. apply inject_mul_le; [auto|lia].
Qed.
Lemma value_pos : forall f, normal f -> (0 < value f)%Q.
Proof. intros f (W & B & L & _). unfold value. apply Qmult_lt_0_compat; [|apply p2_pos]. rewrite <- (Zlt_Qlt 0). assert (0 < 2 ^ 79) by reflexivity. lia. Qed.
Theorem fmul_value : forall f g, normal f -> normal g -> exists r, fmul f g = Some r /\ sign r = xorb (sign f) (sign g) /\
  (normal r /\ (value f * value g * (1 - (1 # 2 ^ 79)) <= value r /\ value r <= value f * value g)%Q \/
   wf (mant r) /\ bits (mant r) = 80 /\ iszero r = false /\ expo r = 65535 /\ (p2 32768 <= value f * value g)%Q \/
   wf (mant r) /\ bits (mant r) = 80 /\ iszero r = false /\ expo r = 0 /\ uval (mant r) = 0 /\ (value f * value g < p2 (-32765))%Q).
Proof.
  intros f g (Wf & Bf & Lf & Ef & Zf) (Wg & Bg & Lg & Eg & Zg).
  pose proof (wf_range _ Wf) as Rf. pose proof (wf_range _ Wg) as Rg. rewrite Bf in Rf. rewrite Bg in Rg.
  destruct (fmul_ok f g ltac:(split; auto) ltac:(split; auto) ltac:(lia) ltac:(lia)) as (r & E & Wr & Br & Sr & Zr & C1 & C2 & C3 & C4). cbv zeta in *. exists r. split; [auto|]. split; [auto|].
  set (x := expo f + expo g - 32767) in *. set (P := uval (mant f) * uval (mant g)) in *.
  assert (VV : (value f * value g == inject_Z P * p2 (x - 32925))%Q).
  { unfold value, P. rewrite inject_Z_mult. replace (x - 32925) with ((expo f - 32767 - 79) + (expo g - 32767 - 79)) by (unfold x; lia). rewrite p2_add. ring. }
  set (P79 := 2 ^ 79) in *. set (P80 := 2 ^ 80) in *. assert (E80 : P80 = 2 * P79) by reflexivity. assert (0 < P79) by reflexivity.
  assert (LO : 2 ^ 158 <= P) by (replace (2 ^ 158) with (P79 * P79) by reflexivity; unfold P; nia).
  assert (HI : P < 2 ^ 160) by (replace (2 ^ 160) with (P80 * P80) by reflexivity; unfold P; nia).
  assert (BIG : x > 65534 \/ x = 65534 /\ 2 ^ 159 <= P -> (p2 32768 <= value f * value g)%Q).
  { intros G. rewrite VV.
    destruct G as [G|[G1 G2]].
    - apply Qle_trans with (inject_Z (2 ^ 158) * p2 (x - 32925))%Q; [|apply inject_mul_le; [apply p2_pos|auto]]. rewrite <- p2_split by lia. apply p2_le. lia.
    - apply Qle_trans with (inject_Z (2 ^ 159) * p2 (x - 32925))%Q; [|apply inject_mul_le; [apply p2_pos|auto]]. rewrite <- p2_split by lia. apply p2_le. lia. }
  destruct (Z.lt_ge_cases 65534 x) as [O|O].
  { right. left. destruct (C1 O) as [U X]. rewrite Zf in Zr. repeat (split; [auto|]). apply BIG. lia. }
  destruct (Z.lt_ge_cases x 1) as [U|U].
  { right. right. destruct (C2 U) as [V X]. rewrite Zf in Zr. repeat (split; [auto|]). rewrite VV. apply Qlt_le_trans with (inject_Z (2 ^ 160) * p2 (x - 32925))%Q; [apply inject_mul_lt; [apply p2_pos|auto]|]. rewrite <- p2_split by lia. apply p2_le. lia. }
  destruct (Z.le_gt_cases (2 ^ 159) P) as [G|G].
  - destruct (C3 ltac:(lia) G) as [V X]. destruct (Z.eq_dec x 65534) as [XE|XN].
    + right. left. rewrite Zf in Zr. do 3 (split; [auto|]). split; [lia|]. apply BIG. auto.
    + left. assert (Q79 : P79 <= P / 2 ^ 80) by (apply Z.div_le_lower_bound; [reflexivity|]; replace (2 ^ 80 * P79) with (2 ^ 159) by reflexivity; auto).
      split; [split; [auto|split; [auto|split; [rewrite V; exact Q79|split; [lia|congruence]]]]|].
      rewrite VV. apply (floor_rel P 80); [lia|apply p2_pos|auto|]. unfold value. rewrite V, X. replace (x + 1 - 32767 - 79) with (80 + (x - 32925)) by lia. rewrite p2_split by lia. reflexivity.
  - destruct (C4 ltac:(lia) G) as [V X]. left. assert (Q79 : P79 <= P / 2 ^ 79) by (apply Z.div_le_lower_bound; [reflexivity|]; replace (2 ^ 79 * P79) with (2 ^ 158) by reflexivity; auto).
    split; [split; [auto|split; [auto|split; [rewrite V; exact Q79|split; [lia|congruence]]]]|].
    rewrite VV. apply (floor_rel P 79); [lia|apply p2_pos|auto|]. unfold value. rewrite V, X. replace (x - 32767 - 79) with (79 + (x - 32925)) by lia. rewrite p2_split by lia. reflexivity.
Qed.
