(** Shared arithmetic and list lemmas.  No model content. *)
From Coq Require Import ZArith List Lia Bool.
Import ListNotations.
Open Scope Z_scope.

(** Unsigned 64-bit and 32-bit wrap-around. *)
Definition w64 : Z := 18446744073709551616.   (* 2^64 *)
Definition w32 : Z := 4294967296.             (* 2^32 *)
Definition u64 (z : Z) : Z := z mod w64.
Definition u32 (z : Z) : Z := z mod w32.
(** Two's complement reading of an n-bit pattern. *)
Definition sgn (n : Z) (z : Z) : Z :=
  let m := z mod 2 ^ n in if m <? 2 ^ (n - 1) then m else m - 2 ^ n.
Definition s64 (z : Z) : Z := sgn 64 z.
Definition s32 (z : Z) : Z := sgn 32 z.

Lemma w64_pow : w64 = 2 ^ 64. Proof. reflexivity. Qed.
Lemma w32_pow : w32 = 2 ^ 32. Proof. reflexivity. Qed.

Lemma u64_range : forall z, 0 <= u64 z < w64.
Proof. intros; unfold u64; apply Z.mod_pos_bound; reflexivity. Qed.
Lemma u64_small : forall z, 0 <= z < w64 -> u64 z = z.
Proof. intros; unfold u64; apply Z.mod_small; auto. Qed.
Lemma u32_range : forall z, 0 <= u32 z < w32.
Proof. intros; unfold u32; apply Z.mod_pos_bound; reflexivity. Qed.
Lemma u32_small : forall z, 0 <= z < w32 -> u32 z = z.
Proof. intros; unfold u32; apply Z.mod_small; auto. Qed.

Lemma sgn_range : forall n z, 0 < n -> - 2 ^ (n - 1) <= sgn n z < 2 ^ (n - 1).
Proof.
  intros n z Hn. unfold sgn.
  assert (H2 : 2 ^ n = 2 * 2 ^ (n - 1)).
  { replace n with (1 + (n - 1)) at 1 by lia. rewrite Z.pow_add_r by lia. reflexivity. }
  assert (0 < 2 ^ (n-1)) by (apply Z.pow_pos_nonneg; lia).
  pose proof (Z.mod_pos_bound z (2 ^ n)).
  destruct (Z.ltb_spec (z mod 2 ^ n) (2 ^ (n - 1))); lia.
Qed.

Lemma sgn_small : forall n z, 0 < n -> - 2 ^ (n - 1) <= z < 2 ^ (n - 1) -> sgn n z = z.
Proof.
  intros n z Hn Hz. unfold sgn.
  assert (H2 : 2 ^ n = 2 * 2 ^ (n - 1)).
  { replace n with (1 + (n - 1)) at 1 by lia. rewrite Z.pow_add_r by lia. reflexivity. }
  assert (0 < 2 ^ (n-1)) by (apply Z.pow_pos_nonneg; lia).
  destruct (Z_le_gt_dec 0 z).
  - rewrite Z.mod_small by lia. destruct (Z.ltb_spec z (2 ^ (n - 1))); lia.
  - replace z with (z + 2 ^ n + (-1) * 2 ^ n) by lia.
    rewrite Z.mod_add by lia. rewrite Z.mod_small by lia.
    destruct (Z.ltb_spec (z + 2 ^ n) (2 ^ (n - 1))); lia.
Qed.

Lemma sgn_mod : forall n z, 0 < n -> (sgn n z) mod 2 ^ n = z mod 2 ^ n.
Proof.
  intros n z Hn. unfold sgn.
  assert (0 < 2 ^ n) by (apply Z.pow_pos_nonneg; lia).
  destruct (z mod 2 ^ n <? 2 ^ (n - 1)).
  - apply Z.mod_mod; lia.
  - replace (z mod 2 ^ n - 2 ^ n) with (z mod 2 ^ n + (-1) * 2 ^ n) by lia.
    rewrite Z.mod_add by lia. apply Z.mod_mod; lia.
Qed.

Lemma sgn_eq_mod : forall n a b, a mod 2 ^ n = b mod 2 ^ n -> sgn n a = sgn n b.
Proof. intros n a b H. unfold sgn. rewrite H. reflexivity. Qed.

Lemma nth_error_Some_lt : forall {A} (l : list A) n x, nth_error l n = Some x -> (n < length l)%nat.
Proof. intros. apply nth_error_Some. congruence. Qed.
