(** Proofs for floatnum.c: from decimal literals to bytes (C62). *)
From Coq Require Import ZArith QArith Qabs Qpower List Bool Lia Lqa.
From Verif Require Import Lib LibBits M_BitVect M_BitVectIv M_Float P_BitVect P_BitVectIO P_FloatZ P_Float P_FloatLit.
Import ListNotations.
Open Scope Z_scope.

Lemma tol_pos : forall l, (0 < tol l /\ tol l <= 1 # 2 ^ 59)%Q.
Proof. intros l. unfold tol. destruct (few l); split; try reflexivity; discriminate. Qed.
Lemma tol_eps : forall l, (eps 17 + (if few l then 0 else big18) <= tol l)%Q.
Proof. intros l. unfold tol. destruct (few l); apply Qle_bool_imp_le; vm_compute; reflexivity. Qed.
(** [w] close to [V], and [V] to [v] *)
Lemma rel_chain : forall d c w V v, (0 <= d)%Q -> (d <= 1)%Q -> (0 <= c)%Q -> (c <= 1)%Q -> (0 < v)%Q -> (v * (1 - c) <= V)%Q -> (V <= v)%Q -> rel d w V -> rel (d + c) w v.
Proof.
  intros d c w V v D0 D1 C0 C1 V0 A B [R1 R2]. split.
  - apply Qle_trans with (v * (1 - c) * (1 - d))%Q; [|apply Qle_trans with (V * (1 - d))%Q; [apply Qmult_le_compat_r; [auto|lra]|auto]]. setoid_replace (v * (1 - c) * (1 - d))%Q with (v * ((1 - c) * (1 - d)))%Q by ring. rewrite !(Qmult_comm v). apply Qmult_le_compat_r; [nra|lra].
  - apply Qle_trans with (V * (1 + d))%Q; [auto|]. apply Qle_trans with (v * (1 + d))%Q; [apply Qmult_le_compat_r; [auto|lra]|]. rewrite !(Qmult_comm v). apply Qmult_le_compat_r; lra.
Qed.
Lemma rel_close : forall d w v, rel d w v -> close d w v.
Proof. intros d w v [A B]. unfold close. apply Qabs_Qle_condition. lra. Qed.
Theorem create_ok : forall l, literal_ok l -> exists f, fcreate (text l) = Some f /\ sign f = negative (l_sign l) /\ wf (mant f) /\ bits (mant f) = 80 /\
  ((denoted l == 0)%Q /\ iszero f = true /\ expo f = 0 \/
   (0 < denoted l)%Q /\ iszero f = false /\
     (normal f /\ close (tol l) (value f) (denoted l) \/
      expo f = 65535 /\ (p2 32768 <= denoted l * (1 + tol l))%Q \/
      expo f = 0 /\ (denoted l * (1 - tol l) < p2 (-32765))%Q)).
Proof.
  intros l OK. destruct (read_ok l OK) as (m & k & E & II & FK). destruct (digits_rel l m k OK II FK) as (A1 & A2 & A3 & A4). pose proof II as (W & B & _). unfold fcreate. rewrite E, (exponent_ok l OK).
  assert (KB : is_int (k - Z.of_nat (length (fracs l)) + expval l) = true).
  { destruct II as (_ & _ & _ & _ & K0 & _ & _ & _ & F2 & F3). destruct OK as (_ & _ & _ & BB). rewrite app_length, Nat2Z.inj_add in BB. assert (SL : Z.of_nat (length (significant l)) <= Z.of_nat (length (l_int l)) + Z.of_nat (length (fracs l))).
    { unfold significant. destruct (split_zeros (l_int l ++ fracs l)) as (z & Ez & _). rewrite <- Nat2Z.inj_add, <- app_length. rewrite Ez at 2. rewrite app_length. lia. }
    assert (k <= Z.of_nat (length (significant l))) by (destruct (Z.eq_dec k 0); [lia|specialize (F3 ltac:(lia)); lia]).
    unfold is_int. apply andb_true_iff. rewrite Z.leb_le, Z.ltb_lt. lia. }
  rewrite KB. cbn [negb]. rewrite is_empty_ok by auto. set (dec := k - Z.of_nat (length (fracs l)) + expval l) in *. clearbody dec. destruct (Z.eqb_spec (uval m) 0) as [Z0|Z0].
  - eexists. split; [reflexivity|]. cbn [sign mant iszero expo]. do 3 (split; [auto|]). left. split; [apply A3; auto|auto].
  - assert (V0 : (0 < denoted l)%Q) by (destruct (Qlt_le_dec 0 (denoted l)) as [H|H]; [auto|]; exfalso; apply Z0, A3; lra). pose proof (wf_range m W) as RU. rewrite B in RU.
    change (u16 (32767 + (MANT_BITS - 1))) with 32846. destruct (normalize_ok (Flt m 32846 (negative (l_sign l)) false) W B ltac:(cbn [mant]; lia) ltac:(cbn [expo]; lia)) as (NN & RA & U & X & SG & IZ). set (f := normalize (Flt m 32846 (negative (l_sign l)) false)) in *. clearbody f. cbn [mant expo sign iszero] in *. set (a := 79 - Z.log2 (uval m)) in *. clearbody a.
    assert (Nf : normal f) by (destruct NN as (N1 & N2 & N3); split; [auto|split; [auto|split; [auto|split; [lia|auto]]]]).
    assert (VF : (value f == inject_Z (uval m))%Q). { unfold value. rewrite U, X. replace (32846 - a - 32767 - 79) with (- a) by lia. rewrite inject_Z_mult, <- Qmult_assoc, <- p2_split by lia. replace (a + - a) with 0 by lia. change (p2 0) with 1%Q. ring. }
    destruct (scale_ok f dec Nf ltac:(lia)) as (r & up & Er & Sr & O). rewrite Er. set (V := (inject_Z (uval m) * p10 dec)%Q) in *. assert (O' : outcome up (eps 16) r V) by (eapply outcome_eq; [reflexivity| |exact O]; rewrite VF; reflexivity). clear O.
    assert (VP : (0 < V)%Q) by (apply Qmult_lt_0_compat; [change 0%Q with (inject_Z 0); rewrite <- Zlt_Qlt; lia|apply p10_pos]).
    set (c := if few l then 0%Q else big18) in *. assert (C : (0 <= c <= 1)%Q) by (unfold c; destruct (few l); split; apply Qle_bool_imp_le; vm_compute; reflexivity). pose proof (tol_eps l) as TE. fold c in TE. clearbody c. destruct C as [C0 C1]. assert (E16 : (0 <= eps 16)%Q) by discriminate. assert (E17 : (eps 16 + e78 == eps 17)%Q) by apply eps_S. assert (E17a : (eps 17 <= 1)%Q) by discriminate.
    exists (final_round r). split; [reflexivity|]. destruct O' as [[Nr R]|(Wr & Br & Zr & O')].
    + destruct (round_rel r (eps 16) V Nr E16 ltac:(discriminate) VP R) as (N' & S' & R'). assert (R2 : rel (eps 17) (value (final_round r)) V) by (eapply rel_eq; [exact E17|reflexivity|exact R']). split; [congruence|]. pose proof N' as (P1 & P2 & _ & _ & P5). split; [auto|]. split; [auto|]. right. split; [auto|]. split; [auto|]. left. split; [auto|].
      apply rel_close. apply (rel_weaken (eps 17 + c)); [auto|auto|]. apply (rel_chain _ _ _ V); auto.
    + assert (FR : final_round r = r). { unfold final_round. unfold EXP_INF, EXP_ZERO. destruct up; destruct O' as [-> _]; reflexivity. } rewrite FR. split; [congruence|]. split; [auto|]. split; [auto|]. right. split; [auto|]. split; [auto|]. destruct up; destruct O' as [X' O'].
      * right. left. split; [auto|]. apply Qle_trans with (V * (1 + eps 16))%Q; [auto|]. apply Qle_trans with (denoted l * (1 + eps 16))%Q; [apply Qmult_le_compat_r; [auto|lra]|]. rewrite !(Qmult_comm (denoted l)). apply Qmult_le_compat_r; [|lra]. assert (0 <= e78)%Q by discriminate. lra.
      * right. right. split; [auto|]. apply Qle_lt_trans with (V * (1 - eps 16))%Q; [|auto]. assert (0 <= e78)%Q by discriminate. apply Qle_trans with (denoted l * (1 - c) * (1 - eps 16))%Q; [|apply Qmult_le_compat_r; [auto|lra]]. setoid_replace (denoted l * (1 - c) * (1 - eps 16))%Q with (denoted l * ((1 - c) * (1 - eps 16)))%Q by ring. rewrite !(Qmult_comm (denoted l)). apply Qmult_le_compat_r; [nra|lra].
Qed.

(** * Neighbouring numbers of a format *)
Lemma p2_opp : forall e, (p2 e * p2 (- e) == 1)%Q.
Proof. intros. rewrite <- p2_add. replace (e + - e) with 0 by lia. reflexivity. Qed.
Lemma spacing : forall p y v, 1 <= p -> in_fmt p y -> in_fmt p v -> ~ (y == v)%Q -> (v * p2 (- p) <= Qabs (y - v))%Q.
Proof.
  intros p y v P (q1 & j1 & R1 & E1) (q2 & j2 & R2 & E2) NE. assert (PP : 2 ^ p = 2 * 2 ^ (p - 1)) by (rewrite <- Z.pow_succ_r by lia; f_equal; lia). pose proof (p2_pos j1) as H1. pose proof (p2_pos j2) as H2. pose proof (pow2_pos (p - 1) ltac:(lia)) as HP.
  assert (VB : (v * p2 (- p) <= p2 j2 * (inject_Z q2 * p2 (- p)))%Q) by (rewrite E2; lra).
  assert (QB : (inject_Z q2 * p2 (- p) <= 1)%Q). { rewrite <- (p2_opp p). apply Qmult_le_compat_r; [|pose proof (p2_pos (- p)); lra]. rewrite p2_Z by lia. rewrite <- Zle_Qle. lia. }
  destruct (Z.lt_trichotomy j1 j2) as [LT|[EQ|GT]].
  - (* y is below *)
    assert (Y : (y <= inject_Z (2 ^ p - 1) * p2 (j2 - 1))%Q). { rewrite E1. apply Qle_trans with (inject_Z (2 ^ p - 1) * p2 j1)%Q; [apply inject_mul_le; [auto|lia]|]. rewrite !(Qmult_comm (inject_Z (2 ^ p - 1))). apply Qmult_le_compat_r; [apply p2_le; lia|rewrite <- (Zle_Qle 0); lia]. }
    assert (HJ : (p2 j2 == 2 * p2 (j2 - 1))%Q) by (replace j2 with (1 + (j2 - 1)) at 1 by lia; rewrite p2_add; reflexivity). set (h := p2 (j2 - 1)) in *. assert (H0 : (0 < h)%Q) by apply p2_pos.
    apply Qle_trans with (v - y)%Q; [|rewrite Qabs_Qminus; apply Qle_Qabs]. rewrite E2, HJ in *. rewrite PP in Y. replace (2 * 2 ^ (p - 1) - 1) with (2 * 2 ^ (p - 1) + -1) in Y by lia. rewrite inject_Z_plus, inject_Z_mult in Y. change (inject_Z 2) with 2%Q in Y. change (inject_Z (-1)) with (-(1))%Q in Y.
    destruct R2 as [R2a R2b]. rewrite Zle_Qle in R2a. assert (PI : (inject_Z (2 ^ (p - 1)) * p2 (- p) == 1 # 2)%Q). { rewrite <- p2_split by lia. replace (p - 1 + - p) with (-1) by lia. reflexivity. }
    set (t := p2 (- p)) in *. assert (t0 : (0 < t)%Q) by apply p2_pos. set (A := inject_Z (2 ^ (p - 1))) in *. set (q := inject_Z q2) in *. assert (t1 : (t <= 1)%Q). { unfold t. change 1%Q with (p2 0). apply p2_le. lia. } clearbody t A q h. assert (K : (q * t <= q - A + (1 # 2))%Q) by nra. clear - K Y H0. assert (q * t * (2 * h) <= (q - A + (1 # 2)) * (2 * h))%Q by (apply Qmult_le_compat_r; lra). nra.
  - subst j1. rewrite E1, E2, abs_scale by auto. rewrite E1, E2 in NE. assert (1 <= Z.abs (q1 - q2)). { assert (q1 <> q2); [|lia]. intros ->. apply NE. reflexivity. } apply Qle_trans with (inject_Z 1 * p2 j2)%Q; [|apply inject_mul_le; auto]. rewrite E2 in VB. change (inject_Z 1) with 1%Q. nra.
  - assert (Y : (inject_Z (2 ^ p) * p2 j2 <= y)%Q). { rewrite E1, PP. apply Qle_trans with (inject_Z (2 ^ (p - 1)) * p2 j1)%Q; [|apply inject_mul_le; [auto|lia]]. rewrite Z.mul_comm, inject_Z_mult, <- Qmult_assoc, !(Qmult_comm (inject_Z (2 ^ (p - 1)))). apply Qmult_le_compat_r; [|rewrite <- (Zle_Qle 0); lia]. change (inject_Z 2) with (p2 1). rewrite <- p2_add. apply p2_le. lia. }
    apply Qle_trans with (y - v)%Q; [|apply Qle_Qabs]. assert (V : (v <= inject_Z (2 ^ p - 1) * p2 j2)%Q) by (rewrite E2; apply inject_mul_le; [auto|lia]). replace (2 ^ p - 1) with (2 ^ p + -1) in V by lia. rewrite inject_Z_plus in V. change (inject_Z (-1)) with (-(1))%Q in V. nra.
Qed.
Lemma in_fmt_p2 : forall p e, 1 <= p -> in_fmt p (p2 e).
Proof. intros p e P. exists (2 ^ (p - 1)), (e - (p - 1)). split; [split; [lia|apply Z.pow_lt_mono_r; lia]|]. rewrite <- p2_split by lia. replace (p - 1 + (e - (p - 1))) with e by lia. reflexivity. Qed.
Lemma in_fmt_below : forall p e, 2 <= p -> in_fmt p (p2 e * (1 - p2 (- p)))%Q.
Proof.
  intros p e P. assert (PP : 2 ^ p = 2 * 2 ^ (p - 1)) by (rewrite <- Z.pow_succ_r by lia; f_equal; lia). pose proof (pow2_pos (p - 1) ltac:(lia)) as HP. exists (2 ^ p - 1), (e - p). split; [lia|]. replace (2 ^ p - 1) with (2 ^ p + -1) by lia. rewrite inject_Z_plus. change (inject_Z (-1)) with (-(1))%Q.
  setoid_replace ((inject_Z (2 ^ p) + - (1)) * p2 (e - p))%Q with (inject_Z (2 ^ p) * p2 (e - p) - p2 (e - p))%Q by ring. rewrite <- p2_split by lia. replace (p + (e - p)) with e by lia. replace (e - p) with (e + - p) by lia. rewrite p2_add. ring.
Qed.
Lemma half_p2 : forall p, (p2 (- (p + 1)) == (1 # 2) * p2 (- p))%Q.
Proof. intros. replace (- (p + 1)) with (-1 + - p) by lia. rewrite p2_add. reflexivity. Qed.
(** Rounded up to a power of two or more: at or above the midpoint below it. *)
Lemma nearest_ge : forall p x y e, 2 <= p -> nearest p x y -> (p2 e <= y)%Q -> (p2 e * (1 - p2 (- (p + 1))) <= x)%Q.
Proof.
  intros p x y e P [_ N] H. destruct (N _ (in_fmt_below p e P)) as [A _]. rewrite half_p2. pose proof (p2_pos e) as PE. pose proof (p2_pos (- p)) as PP. set (b := (p2 e * (1 - p2 (- p)))%Q) in *. assert (BE : (b == p2 e - p2 e * p2 (- p))%Q) by (unfold b; ring). clearbody b. set (E := p2 e) in *. set (t := p2 (- p)) in *. assert (TP : (0 < E * t)%Q) by nra. setoid_replace (E * (1 - (1 # 2) * t))%Q with (E - (1 # 2) * (E * t))%Q by ring. set (et := (E * t)%Q) in *. clearbody et E t.
  destruct (Qlt_le_dec x (E - (1 # 2) * et)) as [LT|]; [exfalso|auto]. rewrite Qabs_neg in A by lra. revert A. apply Qabs_case; intros; lra.
Qed.
(** Rounded to less than a power of two: below that midpoint. *)
Lemma nearest_lt : forall p x y e, 2 <= p -> nearest p x y -> (y < p2 e)%Q -> (x < p2 e * (1 - p2 (- (p + 1))))%Q.
Proof.
  intros p x y e P [F N] H. destruct (N _ (in_fmt_p2 p e ltac:(lia))) as [A A2]. pose proof (spacing p y (p2 e) ltac:(lia) F (in_fmt_p2 p e ltac:(lia)) ltac:(lra)) as SP. rewrite half_p2. rewrite Qabs_neg in SP by lra. set (E := p2 e) in *. set (t := p2 (- p)) in *. setoid_replace (E * (1 - (1 # 2) * t))%Q with (E - (1 # 2) * (E * t))%Q by ring. set (et := (E * t)%Q) in *. clearbody et E t.
  destruct (Qlt_le_dec x (E - (1 # 2) * et)) as [|GE]; [auto|exfalso]. revert A A2. apply Qabs_case; intros Q1; apply Qabs_case; intros Q2 A A2; lra.
Qed.
(** A number of the format is its own rounding, and that of everything near. *)
Lemma nearest_id : forall p x y v d, 1 <= p -> in_fmt p v -> (0 < v)%Q -> close d x v -> (2 * d < p2 (- p))%Q -> nearest p x y -> (y == v)%Q.
Proof.
  intros p x y v d P F V C D [Fy N]. destruct (Qeq_dec y v) as [|NE]; [auto|exfalso]. pose proof (spacing p y v P Fy F NE) as SP. destruct (N v F) as [A _]. unfold close in C. assert (TR : (Qabs (y - v) <= Qabs (x - y) + Qabs (x - v))%Q). { setoid_replace (y - v)%Q with ((x - v) + - (x - y))%Q by ring. eapply Qle_trans; [apply Qabs_triangle|]. rewrite Qabs_opp. lra. }
  assert (v * p2 (- p) <= 2 * d * v)%Q by lra. nra.
Qed.

(** * From the text to the bytes *)
Lemma fmt_range : forall m, format m -> 1 <= bias m <= 16383 /\ 2 <= prec m <= 64.
Proof. intros m [->|[->|[->| ->]]]; vm_compute; intuition discriminate. Qed.
Theorem literal_bytes : forall l m w, literal_ok l -> format m -> exists f b ret,
  fcreate (text l) = Some f /\ get_sized f (fbytes m) (8 * fbytes m) 0 false w = Some (b, ret, if w then ret else 0) /\ Forall byte b /\ Z.of_nat (length b) = fbytes m /\
  let v := denoted l in let s := negative (l_sign l) in
  ((v == 0)%Q /\ ret = 0 /\ decode m b = Zero s \/
   (over_from m <= v * (1 + tol l))%Q /\ ret = 1 /\ decode m b = infinity m s \/
   (0 < v)%Q /\ (v * (1 - tol l) < under_to m)%Q /\ ret = -1 /\ decode m b = Zero s \/
   ret = 0 /\ exists x q j, close (tol l) x v /\ 2 ^ (prec m - 1) <= q < 2 ^ prec m /\ nearest (prec m) x (inject_Z q * p2 j) /\ decode m b = Fin s q j).
Proof.
  intros l m w OK FM. destruct (create_ok l OK) as (f & E & SG & W & B & C). destruct (fmt_range m FM) as [RB RP]. destruct (tol_pos l) as [T0 T1]. change (1 # 2 ^ 59)%Q with (1 # 576460752303423488)%Q in T1.
  assert (HP : (p2 (- (prec m + 1)) <= 1 # 2)%Q) by (change (1 # 2)%Q with (p2 (-1)); apply p2_le; lia). pose proof (p2_pos (- (prec m + 1))) as HP0.
  destruct C as [(V & IZ & X)|(V & IZ & [(N & CL)|[(X & CL)|(X & CL)]])].
  - destruct (special_ok f m w FM W B ltac:(auto)) as (b & ret & G & BB & LB & H). exists f, b, ret. do 4 (split; [auto|]). cbv zeta. left. rewrite <- SG. destruct (proj1 H X) as [A2 A1]. rewrite IZ in A1. auto.
  - destruct (rounds_ok f m w FM N) as (b & ret & y & G & BB & LB & NY & H). exists f, b, ret. do 4 (split; [auto|]). cbv zeta. right. rewrite <- SG. unfold close in CL. pose proof (proj1 (Qabs_Qle_condition _ _) CL) as [CL1 CL2].
    destruct H as [(A1 & A2 & A3)|[(A1 & A2 & A3)|(_ & A2 & q & j & RQ & DQ & YQ)]].
    + left. split; [|auto]. pose proof (nearest_ge (prec m) (value f) y (bias m + 1) ltac:(lia) NY A1) as K. unfold over_from. lra.
    + right. left. split; [auto|]. split; [|auto]. pose proof (nearest_lt (prec m) (value f) y (1 - bias m) ltac:(lia) NY A1) as K. unfold under_to. lra.
    + right. right. split; [auto|]. exists (value f), q, j. split; [auto|]. split; [auto|]. split; [|auto]. destruct NY as [F1 F2]. split; [exists q, j; split; [auto|reflexivity]|]. intros y' F. rewrite <- YQ. apply F2. auto.
  - destruct (special_ok f m w FM W B ltac:(auto)) as (b & ret & G & BB & LB & H). exists f, b, ret. do 4 (split; [auto|]). cbv zeta. right. left. rewrite <- SG. destruct (proj2 H X) as [A2 A1]. split; [|auto]. eapply Qle_trans; [|exact CL]. unfold over_from. apply Qle_trans with (p2 (bias m + 1)); [pose proof (p2_pos (bias m + 1)); nra|apply p2_le; lia].
  - destruct (special_ok f m w FM W B ltac:(auto)) as (b & ret & G & BB & LB & H). exists f, b, ret. do 4 (split; [auto|]). cbv zeta. right. right. left. rewrite <- SG. destruct (proj1 H X) as [A2 A1]. rewrite IZ in A1. split; [auto|]. split; [|auto]. eapply Qlt_le_trans; [exact CL|]. unfold under_to. apply Qle_trans with (p2 (- bias m)); [apply p2_le; lia|]. replace (1 - bias m) with (1 + - bias m) by lia. rewrite p2_add. change (p2 1) with 2%Q. pose proof (p2_pos (- bias m)). nra.
Qed.
Lemma fin_unique : forall p q1 j1 q2 j2, 1 <= p -> 2 ^ (p - 1) <= q1 < 2 ^ p -> 2 ^ (p - 1) <= q2 < 2 ^ p -> (inject_Z q1 * p2 j1 == inject_Z q2 * p2 j2)%Q -> q1 = q2 /\ j1 = j2.
Proof.
  intros p q1 j1 q2 j2 P R1 R2 E. destruct (in_range p q1 j1 P R1) as [A1 B1]. destruct (in_range p q2 j2 P R2) as [A2 B2]. rewrite E in A1, B1. assert (j1 = j2). { assert (j1 + (p - 1) < j2 + p) by (apply p2_lt_inv; lra). assert (j2 + (p - 1) < j1 + p) by (apply p2_lt_inv; lra). lia. }
  subst j2. split; [|auto]. pose proof (p2_pos j1) as PJ. assert (q1 <= q2) by (apply (inject_mul_le_inv _ _ (p2 j1)); [auto|lra]). assert (q2 <= q1) by (apply (inject_mul_le_inv _ _ (p2 j1)); [auto|lra]). lia.
Qed.
Theorem literal_exact : forall l m w q j, literal_ok l -> format m -> fimp m = 1 \/ few l = true ->
  2 ^ (prec m - 1) <= q < 2 ^ prec m -> (denoted l == inject_Z q * p2 j)%Q -> (p2 (1 - bias m) <= denoted l < p2 (bias m + 1))%Q ->
  exists f b, fcreate (text l) = Some f /\ get_sized f (fbytes m) (8 * fbytes m) 0 false w = Some (b, 0, 0) /\ decode m b = Fin (negative (l_sign l)) q j.
Proof.
  intros l m w q j OK FM FW RQ VQ [V1 V2]. destruct (literal_bytes l m w OK FM) as (f & b & ret & E & G & _ & _ & C). cbv zeta in C. destruct (fmt_range m FM) as [RB RP]. destruct (tol_pos l) as [T0 _].
  assert (T : (2 * tol l < p2 (- prec m))%Q). { unfold tol. destruct FM as [->|[->|[->| ->]]]; destruct FW as [FW|FW]; try discriminate FW; try rewrite FW; try destruct (few l); reflexivity. }
  assert (F : in_fmt (prec m) (denoted l)) by (exists q, j; auto). pose proof (p2_pos (1 - bias m)) as PB. assert (V0 : (0 < denoted l)%Q) by lra. exists f, b. split; [auto|].
  destruct C as [(A & _)|[(A & _)|[(_ & A & _)|(-> & x & q' & j' & CL & RQ' & NY & D)]]].
  - lra.
  - exfalso. unfold over_from in A. assert (NE : ~ (denoted l == p2 (bias m + 1))%Q) by (intros HE; rewrite HE in V2; apply Qlt_irrefl in V2; auto). pose proof (spacing (prec m) (denoted l) (p2 (bias m + 1)) ltac:(lia) F (in_fmt_p2 (prec m) _ ltac:(lia)) NE) as SP. rewrite Qabs_neg in SP by lra. rewrite half_p2 in A. set (t := p2 (- prec m)) in *. set (P := p2 (bias m + 1)) in *. assert (P0 : (0 < P)%Q) by apply p2_pos. set (v := denoted l) in *. set (d := tol l) in *. clearbody t P v d. assert (v <= P * (1 - t))%Q by lra. assert (v * (1 + d) <= v + P * d)%Q by nra. assert (P * (2 * d) < P * t)%Q by (rewrite !(Qmult_comm P); apply Qmult_lt_compat_r; auto). lra.
  - exfalso. unfold under_to in A. rewrite half_p2 in A. set (t := p2 (- prec m)) in *. set (P := p2 (1 - bias m)) in *. set (v := denoted l) in *. set (d := tol l) in *. assert (T1 : (t <= 1)%Q) by (unfold t; change 1%Q with (p2 0); apply p2_le; lia). clearbody t P v d. assert (P * (1 - d) <= v * (1 - d))%Q by (apply Qmult_le_compat_r; lra). assert (P * (2 * d) < P * t)%Q by (rewrite !(Qmult_comm P); apply Qmult_lt_compat_r; auto). lra.
  - split; [destruct w; auto|]. pose proof (nearest_id (prec m) x _ (denoted l) (tol l) ltac:(lia) F V0 CL T NY) as Y. rewrite VQ in Y. destruct (fin_unique (prec m) q' j' q j ltac:(lia) RQ' RQ Y) as [-> ->]. auto.
Qed.
Lemma tables_ok : forall (up : bool) l, (1 <= l <= 13)%nat -> exists e, nth_error (if up then POT_TableP else POT_TableN) (13 - l) = Some (e, (if up then 1 else -1) * 2 ^ Z.of_nat (l - 1)) /\
  normal e /\ sign e = false /\ let T := p10 ((if up then 1 else -1) * 2 ^ Z.of_nat (l - 1)) in
  (T * (1 - (1 # 2 ^ 80)) <= value e <= T * (1 + (1 # 2 ^ 80)))%Q.
Proof.
  intros up l L. exists (ent up l). destruct (entry_spec up l L) as (N & S1 & _ & A). split; [|split; [auto|split; [auto|exact A]]].
  destruct l as [|l]; [lia|]. replace (S l - 1)%nat with l by lia. pose proof (T_S up l ltac:(lia)) as E. unfold T in E. fold (dir up). fold (tab up). rewrite <- (firstn_skipn (13 - S l) (tab up)). rewrite nth_error_app2 by apply firstn_le_length. rewrite firstn_length, E. assert (LT : length (tab up) = 14%nat) by (destruct up; reflexivity). rewrite LT. replace (13 - S l - Nat.min (13 - S l) 14)%nat with 0%nat by lia. reflexivity.
Qed.
