(** Two names on which HAMT_insert never returns (C11): their hashes agree in the 35 bits used,
    at every level.  The hash is an integer polynomial in the level; such a polynomial that
    vanishes modulo 2^35 at 0..37 vanishes modulo 2^35 everywhere, as 2^35 divides 38!. *)
From Coq Require Import ZArith List Lia Bool.
From Verif Require Import Lib LibBits M_Hamt P_HamtBits P_Hamt.
Import ListNotations.
Open Scope Z_scope.

Definition delta (f : Z -> Z) : Z -> Z := fun x => f (x + 1) - f x.
(** An integer polynomial's k-th difference is divisible by k!. *)
Fixpoint iter_delta (k : nat) (f : Z -> Z) : Z -> Z :=
  match k with O => f | S m => iter_delta m (delta f) end.
Fixpoint factZ (k : nat) : Z := match k with O => 1 | S m => Z.of_nat k * factZ m end.
Definition ipol (f : Z -> Z) : Prop := forall k x, (factZ k | iter_delta k f x).

Lemma iter_delta_ext : forall k f g, (forall x, f x = g x) -> forall x, iter_delta k f x = iter_delta k g x.
Proof.
  induction k; simpl; intros f g E x; auto. apply IHk. intros y. unfold delta. rewrite !E. reflexivity.
Qed.
Lemma ipol_ext : forall f g, (forall x, f x = g x) -> ipol f -> ipol g.
Proof. intros f g E H k x. rewrite <- (iter_delta_ext k f g E). apply H. Qed.
Lemma iter_delta_lin : forall k c f g x,
  iter_delta k (fun x => c * f x + g x) x = c * iter_delta k f x + iter_delta k g x.
Proof.
  induction k; intros c f g x; simpl; auto.
  rewrite (iter_delta_ext k _ (fun x => c * delta f x + delta g x)).
  - apply IHk.
  - intros y. unfold delta. ring.
Qed.
Lemma ipol_lin : forall c f g, ipol f -> ipol g -> ipol (fun x => c * f x + g x).
Proof.
  intros c f g Hf Hg k x. rewrite iter_delta_lin. apply Z.divide_add_r; [|apply Hg].
  apply Z.divide_mul_r. apply Hf.
Qed.
Lemma iter_delta_0 : forall k x, iter_delta k (fun _ => 0) x = 0.
Proof.
  induction k; intros x; [reflexivity|]. cbn [iter_delta].
  rewrite (iter_delta_ext k (delta (fun _ => 0)) (fun _ => 0)); [apply IHk|reflexivity].
Qed.
Lemma ipol_const : forall c, ipol (fun _ => c).
Proof.
  intros c k x. destruct k; simpl.
  - apply Z.divide_1_l.
  - rewrite (iter_delta_ext k _ (fun _ => 0)); [|intros; unfold delta; lia].
    rewrite iter_delta_0. apply Z.divide_0_r.
Qed.
Lemma iter_delta_mulx : forall k f x,
  iter_delta (S k) (fun x => x * f x) x = x * iter_delta (S k) f x + Z.of_nat (S k) * (iter_delta k f (x + 1)).
Proof.
  induction k; intros f x.
  - cbn [iter_delta]. unfold delta. simpl Z.of_nat. ring.
  - change (iter_delta (S (S k)) (fun x => x * f x) x) with (iter_delta (S k) (delta (fun x => x * f x)) x).
    rewrite (iter_delta_ext (S k) _ (fun x => 1 * (x * delta f x) + f (x + 1))).
    2:{ intros y. unfold delta. ring. }
    rewrite (iter_delta_lin (S k) 1 (fun x => x * delta f x) (fun x => f (x + 1))).
    rewrite (IHk (delta f) x).
    assert (SH : forall k f x, iter_delta k (fun x => f (x + 1)) x = iter_delta k f (x + 1)).
    { clear. induction k; intros f x; simpl; auto. rewrite <- (IHk (delta f)). reflexivity. }
    rewrite SH. change (iter_delta (S (S k)) f x) with (iter_delta (S k) (delta f) x).
    change (iter_delta (S k) f (x + 1)) with (iter_delta k (delta f) (x + 1)).
    rewrite (Nat2Z.inj_succ (S k)). ring.
Qed.
Lemma ipol_mulx : forall f, ipol f -> ipol (fun x => x * f x).
Proof.
  intros f H k x. destruct k.
  - apply Z.divide_1_l.
  - rewrite iter_delta_mulx. apply Z.divide_add_r.
    + apply Z.divide_mul_r. apply H.
    + cbn [factZ]. apply Z.mul_divide_mono_l. apply H.
Qed.

(** If the n-th difference vanishes modulo M and so do n consecutive values, all do. *)
Lemma diff_vanish : forall n f M, M <> 0 -> (forall x, 0 <= x -> (iter_delta n f x) mod M = 0) ->
  (forall i, 0 <= i < Z.of_nat n -> (f i) mod M = 0) -> forall x, 0 <= x -> (f x) mod M = 0.
Proof.
  induction n as [|n IH]; intros f M HM H Z0 x Hx.
  - apply H; auto.
  - cbn [iter_delta] in H.
    assert (D : forall y, 0 <= y -> (delta f y) mod M = 0).
    { apply (IH (delta f) M HM H). intros i Hi. unfold delta.
      rewrite Zminus_mod, !Z0 by lia. apply Z.mod_0_l; auto. }
    revert x Hx. apply natlike_ind.
    + apply Z0. lia.
    + intros x Hx F. replace (f (Z.succ x)) with (f x + delta f x) by (unfold delta, Z.succ; lia).
      rewrite Zplus_mod, F, D by auto. apply Z.mod_0_l; auto.
Qed.

(** The hash without reducing the accumulator. *)
Fixpoint hz (L a v : Z) (s : str) : Z :=
  match s with [] => v | c :: s' => hz L (u64 (a * 27183)) (a * v * L + c) s' end.
Lemma hash_hz : forall s L L' a v v', v mod w64 = v' mod w64 -> L mod w64 = L' mod w64 ->
  (hash_loop L a v s) mod w64 = (hz L' a v' s) mod w64.
Proof.
  induction s as [|c s IH]; intros L L' a v v' Hv HL; simpl; auto.
  apply IH; auto. unfold u64. rewrite Z.mod_mod by discriminate.
  rewrite (Zplus_mod (a * v * L)), (Zplus_mod (a * v' * L')). f_equal. f_equal.
  rewrite (Zmult_mod (a * v)), (Zmult_mod (a * v')). rewrite HL. f_equal. f_equal.
  rewrite (Zmult_mod a v), (Zmult_mod a v'). rewrite Hv. reflexivity.
Qed.
Lemma hz_pol : forall s a f, ipol f -> ipol (fun L => hz L a (f L) s).
Proof.
  induction s as [|c s IH]; intros a f H; simpl hz.
  - exact H.
  - apply (IH (u64 (a * 27183)) (fun L => a * f L * L + c)).
    apply (ipol_ext (fun x => a * (x * f x) + (fun _ => c) x)); [intros; ring|].
    apply (ipol_lin a (fun x => x * f x) (fun _ => c)); [apply ipol_mulx; auto|apply ipol_const].
Qed.

Definition W35 : Z := 2 ^ 35.
Lemma mod35_of_64 : forall a b, a mod w64 = b mod w64 -> a mod W35 = b mod W35.
Proof.
  intros a b H. unfold W35.
  assert (E : w64 = 2 ^ 35 * 2 ^ 29) by reflexivity.
  assert (G : forall x, x mod 2 ^ 35 = (x mod w64) mod 2 ^ 35).
  { intros x. rewrite E. rewrite Z.rem_mul_r by (vm_compute; congruence).
    rewrite Z.mul_comm, Z.mod_add by (vm_compute; congruence). rewrite Z.mod_mod by (vm_compute; congruence). reflexivity. }
  rewrite (G a), (G b), H. reflexivity.
Qed.

Lemma fact38 : exists q, factZ 38 = q * W35.
Proof. exists (factZ 38 / W35). vm_compute. reflexivity. Qed.

Lemma agree_everywhere : forall s t,
  (forall i, 0 <= i < 38 ->
     (hash_loop i 31415 0 s) mod W35 = (hash_loop i 31415 0 t) mod W35) ->
  forall L, 0 <= L -> (hash_loop (u64 L) 31415 0 s) mod W35 = (hash_loop (u64 L) 31415 0 t) mod W35.
Proof.
  intros s t H.
  assert (P : ipol (fun L => (-1) * hz L 31415 0 t + hz L 31415 0 s)).
  { apply ipol_lin; [apply (hz_pol t 31415 (fun _ => 0)) | apply (hz_pol s 31415 (fun _ => 0))]; apply ipol_const. }
  assert (E : forall x r, (hash_loop x 31415 0 r) mod W35 = (hz x 31415 0 r) mod W35).
  { intros x r. apply mod35_of_64. apply hash_hz; reflexivity. }
  assert (E2 : forall x r, (hash_loop (u64 x) 31415 0 r) mod W35 = (hz x 31415 0 r) mod W35).
  { intros x r. apply mod35_of_64. apply hash_hz; [reflexivity|]. unfold u64. apply Z.mod_mod. discriminate. }
  intros L HL0.
  assert (V : (-1 * hz L 31415 0 t + hz L 31415 0 s) mod W35 = 0).
  { apply (diff_vanish 38 (fun L => (-1) * hz L 31415 0 t + hz L 31415 0 s) W35); auto; [discriminate| |].
    - intros x _. destruct (P 38%nat x) as [q Hq]. rewrite Hq. destruct fact38 as [q2 ->].
      rewrite Z.mul_assoc. apply Z.mod_mul. discriminate.
    - intros i Hi. specialize (H i ltac:(lia)). rewrite !E in H.
      replace (-1 * hz i 31415 0 t + hz i 31415 0 s) with (hz i 31415 0 s - hz i 31415 0 t) by ring.
      rewrite Zminus_mod, H, Z.sub_diag. reflexivity. }
  rewrite !E2. 
  replace (hz L 31415 0 s) with (hz L 31415 0 t + (-1 * hz L 31415 0 t + hz L 31415 0 s)) by ring.
  rewrite Zplus_mod, V, Z.add_0_r. apply Z.mod_mod. discriminate.
Qed.

Lemma kpart_mod : forall a b k, 0 <= k <= 30 -> a mod W35 = b mod W35 -> kpart a k = kpart b k.
Proof.
  intros a b k Hk H. unfold kpart. apply Z.bits_inj'. intros i Hi.
  rewrite !Z.land_spec. destruct (Z_lt_ge_dec i 5) as [Hlt|Hge].
  - f_equal. rewrite !Z.shiftr_spec by lia.
    rewrite <- (Z.mod_pow2_bits_low a 35), <- (Z.mod_pow2_bits_low b 35) by lia.
    fold W35. rewrite H. reflexivity.
  - rewrite (testbit_small 5 31 i) by lia. rewrite !andb_false_r. reflexivity.
Qed.

(** Thue-Morse words of length 256 over {a, b}, with 35 further letters. *)
Fixpoint tm (n : nat) (flip : bool) : str :=
  match n with
  | O => [if flip then 98 else 97]
  | S m => tm m flip ++ tm m (negb flip)
  end.
Definition name1 : str := tm 8 false ++ repeat 97 35.
Definition name2 : str := tm 8 true ++ repeat 97 35.

Lemma names_differ : name1 <> name2.
Proof. vm_compute. discriminate. Qed.

(** The hash reduced to 35 bits by masking, for computing. *)
Definition M35 : Z := 34359738367.
Fixpoint hfast (L a v : Z) (s : str) : Z :=
  match s with [] => v | c :: s' => hfast L (Z.land (a * 27183) M35) (Z.land (Z.land (a * v) M35 * L + c) M35) s' end.
Lemma land35 : forall x, Z.land x M35 = x mod W35.
Proof. intros. change M35 with (2 ^ 35 - 1). apply land_mask. lia. Qed.
Lemma u64_35 : forall x, (u64 x) mod W35 = x mod W35.
Proof. intros. apply mod35_of_64. unfold u64. apply Z.mod_mod. discriminate. Qed.
Lemma hash_hfast : forall s L a a' v v', a mod W35 = a' mod W35 -> v mod W35 = v' mod W35 ->
  (hash_loop L a v s) mod W35 = (hfast L a' v' s) mod W35.
Proof.
  induction s as [|c s IH]; intros L a a' v v' Ha Hv; simpl; auto.
  apply IH; rewrite !land35, u64_35, Z.mod_mod by discriminate.
  - rewrite Zmult_mod, Ha, <- Zmult_mod. reflexivity.
  - rewrite (Zplus_mod (a * v * L)), (Zplus_mod (_ * L) c). f_equal. f_equal.
    rewrite Zmult_mod. rewrite (Zmult_mod _ L), Z.mod_mod by discriminate. f_equal. f_equal.
    rewrite Zmult_mod, Ha, Hv, <- Zmult_mod. reflexivity.
Qed.
Definition level_ok (s t : str) (i : nat) : bool :=
  (hfast (Z.of_nat i) 31415 0 s) mod W35 =? (hfast (Z.of_nat i) 31415 0 t) mod W35.
Lemma level_ok_all : forall s t n, forallb (level_ok s t) (seq 0 n) = true -> forall i, (i < n)%nat ->
  (hfast (Z.of_nat i) 31415 0 s) mod W35 = (hfast (Z.of_nat i) 31415 0 t) mod W35.
Proof.
  intros s t n H i Hi. rewrite forallb_forall in H. apply Z.eqb_eq. apply H. apply in_seq. lia.
Qed.
Lemma check_levels_ok : forallb (level_ok name1 name2) (seq 0 38) = true. Proof. vm_compute. reflexivity. Qed.

Lemma check_levels_all : forall i, (i < 38)%nat ->
  (hfast (Z.of_nat i) 31415 0 name1) mod W35 = (hfast (Z.of_nat i) 31415 0 name2) mod W35.
Proof.
  exact (level_ok_all name1 name2 38%nat check_levels_ok).
Qed.
Lemma name_lengths : length name1 = 291%nat /\ length name2 = 291%nat.
Proof. split; reflexivity. Qed.
Opaque name1 name2.
Lemma names_agree : forall L, 0 <= L ->
  (hash_loop (u64 L) 31415 0 name1) mod W35 = (hash_loop (u64 L) 31415 0 name2) mod W35.
Proof.
  apply agree_everywhere. intros i Hi.
  rewrite (hash_hfast name1 i 31415 31415 0 0), (hash_hfast name2 i 31415 31415 0 0) by reflexivity.
  pose proof (check_levels_all (Z.to_nat i) ltac:(lia)) as C. rewrite Z2Nat.id in C by lia. exact C.
Qed.
Transparent name1 name2.

Lemma names_canon : forall nc, canon nc name1 = name1 /\ canon nc name2 = name2.
Proof. intros [|]; vm_compute; auto. Qed.

Lemma names_digits : forall nc D, digit nc name1 D = digit nc name2 D.
Proof.
  intros nc D. destruct (names_canon nc) as [C1 C2]. unfold digit. apply kpart_mod.
  - unfold kpbAt. pose proof (Nat.mod_upper_bound D 7). lia.
  - unfold keyAt, HashKey, ReHashKey. rewrite C1, C2. destruct (D <? 7)%nat.
    + apply (names_agree 1). lia.
    + apply names_agree. lia.
Qed.

Lemma diverges : forall nc fuel d1 d2 r1 r2,
  run fuel nc [OIns name1 d1 r1; OIns name2 d2 r2] = None.
Proof.
  intros. apply insert_diverges; [|apply names_digits].
  intros H. apply canon_same in H. destruct (names_canon nc) as [C1 C2]. rewrite C1, C2 in H.
  exact (names_differ H).
Qed.
