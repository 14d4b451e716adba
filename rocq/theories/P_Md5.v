(** The message digest: specification after RFC 1321, and proofs. *)
From Coq Require Import ZArith List Bool Lia Znumtheory.
From Verif Require Import Lib LibBits M_Md5.
Import ListNotations.
Open Scope Z_scope.

(** * Specification: RFC 1321 *)
(** 3.4: the four auxiliary functions on words of 32 bits *)
Definition rfc_neg (x : Z) : Z := 2 ^ 32 - 1 - x.
Definition rfc_F (x y z : Z) : Z := Z.lor (Z.land x y) (Z.land (rfc_neg x) z).
Definition rfc_G (x y z : Z) : Z := Z.lor (Z.land x z) (Z.land y (rfc_neg z)).
Definition rfc_H (x y z : Z) : Z := Z.lxor (Z.lxor x y) z.
Definition rfc_I (x y z : Z) : Z := Z.lxor y (Z.lor x (rfc_neg z)).
(** rotation to the left *)
Definition rfc_rotl (x s : Z) : Z := (x * 2 ^ s) mod 2 ^ 32 + x / 2 ^ (32 - s).
(** the table T: the integer part of 4294967296 times abs(sin(i)), i in radians, from 1 *)
Definition rfc_T : list Z :=
  [3614090360; 3905402710; 606105819; 3250441966; 4118548399; 1200080426; 2821735955; 4249261313;
   1770035416; 2336552879; 4294925233; 2304563134; 1804603682; 4254626195; 2792965006; 1236535329;
   4129170786; 3225465664; 643717713; 3921069994; 3593408605; 38016083; 3634488961; 3889429448;
   568446438; 3275163606; 4107603335; 1163531501; 2850285829; 4243563512; 1735328473; 2368359562;
   4294588738; 2272392833; 1839030562; 4259657740; 2763975236; 1272893353; 4139469664; 3200236656;
   681279174; 3936430074; 3572445317; 76029189; 3654602809; 3873151461; 530742520; 3299628645;
   4096336452; 1126891415; 2878612391; 4237533241; 1700485571; 2399980690; 4293915773; 2240044497;
   1873313359; 4264355552; 2734768916; 1309151649; 4149444226; 3174756917; 718787259; 3951481745].
(** operation number i, from 0: four rounds of sixteen *)
Definition rfc_func (i : nat) : Z -> Z -> Z -> Z := match (i / 16)%nat with 0%nat => rfc_F | 1%nat => rfc_G | 2%nat => rfc_H | _ => rfc_I end.
Definition rfc_word (i : nat) : nat := ((match i / 16 with 0 => i | 1 => 5 * i + 1 | 2 => 3 * i + 5 | _ => 7 * i end) mod 16)%nat.
Definition rfc_shift (i : nat) : Z :=
  nth (i mod 4) (match (i / 16)%nat with 0%nat => [7; 12; 17; 22] | 1%nat => [5; 9; 14; 20] | 2%nat => [4; 11; 16; 23] | _ => [6; 10; 15; 21] end) 0.
(** [a = b + ((a + func(b,c,d) + X[k] + T[i]) <<< s)], the names moving round *)
Definition rfc_oper (X : list Z) (r : Z * Z * Z * Z) (i : nat) : Z * Z * Z * Z :=
  match r with (a, b, c, d) => (d, (b + rfc_rotl ((a + rfc_func i b c d + nth (rfc_word i) X 0 + nth i rfc_T 0) mod 2 ^ 32) (rfc_shift i)) mod 2 ^ 32, b, c) end.
(** words of a block, least significant byte first *)
Definition rfc_words (block : list Z) : list Z :=
  map (fun i => nth (4 * i) block 0 + 2 ^ 8 * nth (4 * i + 1) block 0 + 2 ^ 16 * nth (4 * i + 2) block 0 + 2 ^ 24 * nth (4 * i + 3) block 0) (seq 0 16).
Definition rfc_compress (r : Z * Z * Z * Z) (block : list Z) : Z * Z * Z * Z :=
  match r, fold_left (rfc_oper (rfc_words block)) (seq 0 64) r with
  | (a0, b0, c0, d0), (a, b, c, d) => ((a0 + a) mod 2 ^ 32, (b0 + b) mod 2 ^ 32, (c0 + c) mod 2 ^ 32, (d0 + d) mod 2 ^ 32)
  end.
(** 3.1 and 3.2: a one bit, zeros up to 56 bytes modulo 64, the number of bits in 64 bits *)
Fixpoint rfc_le (n : nat) (v : Z) : list Z := match n with O => [] | S n => v mod 256 :: rfc_le n (v / 256) end.
Definition rfc_padded (m : list Z) : list Z :=
  m ++ 128 :: repeat 0 (Z.to_nat ((55 - Z.of_nat (length m)) mod 64)) ++ rfc_le 8 ((8 * Z.of_nat (length m)) mod 2 ^ 64).
Definition rfc_blocks (p : list Z) : list (list Z) := map (fun i => firstn 64 (skipn (64 * i) p)) (seq 0 (length p / 64)).
(** 3.3: the initial words, 01 23 45 67 and so on with the low byte first *)
Definition rfc_start : Z * Z * Z * Z := (0x67452301, 0xefcdab89, 0x98badcfe, 0x10325476).
Definition rfc_md5 (m : list Z) : list Z :=
  match fold_left rfc_compress (rfc_blocks (rfc_padded m)) rfc_start with (a, b, c, d) => rfc_le 4 a ++ rfc_le 4 b ++ rfc_le 4 c ++ rfc_le 4 d end.
Definition byte (z : Z) : Prop := 0 <= z < 256.

(** * Proofs *)
Local Notation low x := (x mod 2 ^ 32).
Lemma low_u64 : forall x, low (u64 x) = low x.
Proof. intro x. unfold u64. rewrite w64_pow. symmetry. apply Zmod_div_mod; [reflexivity | reflexivity |]. exists (2 ^ 32). reflexivity. Qed.
Lemma low_low : forall x, low (low x) = low x.
Proof. intro x. apply Z.mod_mod. discriminate. Qed.
Lemma neg_low : forall x, rfc_neg (low x) = low (Z.lnot x).
Proof. intro x. unfold rfc_neg, Z.lnot. Z.to_euclidean_division_equations. lia. Qed.
Lemma not64_low : forall x, low (not64 x) = low (Z.lnot x).
Proof. intro x. apply low_u64. Qed.

Definition agree (f g : Z -> Z -> Z -> Z) : Prop := forall x y z, low (f x y z) = g (low x) (low y) (low z).
Ltac bitwise :=
  apply Z.bits_inj'; intros i Hi;
  repeat (rewrite ?Z.lxor_spec, ?Z.lor_spec, ?Z.land_spec, ?mod_pow2_testbit, ?Z.lnot_spec by lia);
  repeat match goal with |- context [Z.testbit ?a i] => destruct (Z.testbit a i) end; destruct (i <? 32); reflexivity.
Lemma agree_F : agree F1 rfc_F.
Proof. intros x y z. unfold F1, rfc_F. rewrite neg_low. bitwise. Qed.
Lemma agree_G : agree F2 rfc_G.
Proof. intros x y z. unfold F2, F1, rfc_G. rewrite neg_low. bitwise. Qed.
Lemma agree_H : agree F3 rfc_H.
Proof. intros x y z. unfold F3, rfc_H. bitwise. Qed.
Lemma agree_I : agree F4 rfc_I.
Proof.
  intros x y z. unfold F4, rfc_I. rewrite neg_low. rewrite <- not64_low. bitwise.
Qed.

Lemma low_rot : forall w s, 0 <= w < 2 ^ 32 -> 0 < s < 32 -> low (Z.lor (u64 (Z.shiftl w s)) (Z.shiftr w (32 - s))) = rfc_rotl w s.
Proof.
  intros w s Hw Hs. rewrite Z.shiftl_mul_pow2 by lia. rewrite Z.shiftr_div_pow2 by lia.
  assert (P : 0 < 2 ^ s) by (apply Z.pow_pos_nonneg; lia). assert (Q : 0 < 2 ^ (32 - s)) by (apply Z.pow_pos_nonneg; lia).
  assert (E : 2 ^ 32 = 2 ^ (32 - s) * 2 ^ s) by (rewrite <- Z.pow_add_r by lia; f_equal; lia).
  assert (L : 2 ^ s <= 2 ^ 32) by (apply Z.pow_le_mono_r; lia).
  assert (V : 0 <= w / 2 ^ (32 - s) < 2 ^ s).
  { split; [apply Z.div_pos; lia|]. apply Z.div_lt_upper_bound; [lia|]. rewrite <- E. lia. }
  rewrite u64_small.
  2: { split; [apply Z.mul_nonneg_nonneg; lia|]. change w64 with (2 ^ 32 * 2 ^ 32). apply Z.lt_le_trans with (2 ^ 32 * 2 ^ s); [apply Z.mul_lt_mono_pos_r; lia | apply Z.mul_le_mono_nonneg_l; lia]. }
  rewrite lor_disjoint_add.
  2: { apply Z.bits_inj'. intros i Hi. rewrite Z.land_spec, Z.bits_0. rewrite <- Z.shiftl_mul_pow2 by lia.
       destruct (Z_lt_ge_dec i s) as [G | G].
       - rewrite Z.shiftl_spec_low by lia. reflexivity.
       - rewrite (testbit_small s (w / 2 ^ (32 - s)) i V) by lia. apply andb_false_r. }
  unfold rfc_rotl. rewrite E. rewrite Z.mul_mod_distr_r by lia.
  rewrite Z.add_mod by lia. rewrite Z.mul_mod_distr_r by lia.
  rewrite (Z.mod_small (w / 2 ^ (32 - s))) by nia.
  assert (W : 0 <= w mod 2 ^ (32 - s) < 2 ^ (32 - s)) by (apply Z.mod_pos_bound; lia).
  apply Z.mod_small. nia.
Qed.
Lemma low_step : forall f g w x y z data s, agree f g -> 0 < s < 32 ->
  low (md5step f w x y z data s) = low (low x + rfc_rotl (low (low w + g (low x) (low y) (low z) + data)) s).
Proof.
  intros f g w x y z data s A Hs. unfold md5step.
  set (v := Z.land (u64 (w + u64 (f x y z + data))) 4294967295).
  assert (V : v = low (low w + g (low x) (low y) (low z) + data)).
  { unfold v. change 4294967295 with (2 ^ 32 - 1). rewrite land_mask by lia. rewrite low_u64. rewrite <- A.
    rewrite Z.add_mod by discriminate. rewrite low_u64. rewrite <- Z.add_mod by discriminate.
    rewrite <- (Z.add_mod_idemp_l (_ + low (f x y z))) by discriminate. rewrite <- (Z.add_mod (w) (f x y z)) by discriminate.
    rewrite Z.add_mod_idemp_l by discriminate. f_equal. lia. }
  rewrite low_u64. rewrite Z.add_mod by discriminate. rewrite low_rot; [| rewrite V; apply Z.mod_pos_bound; reflexivity | exact Hs].
  rewrite V. rewrite Z.add_comm. reflexivity.
Qed.

(** ** The names moving round *)
Definition low4 (r : Z * Z * Z * Z) : Z * Z * Z * Z := match r with (a, b, c, d) => (low a, low b, low c, low d) end.
Fixpoint vars (i : nat) : var * var * var * var := match i with O => (A, B, C, D) | S i => match vars i with (a, b, c, d) => (d, a, b, c) end end.
Definition view (i : nat) (r : Z * Z * Z * Z) : Z * Z * Z * Z := match vars i with (a, b, c, d) => (low (get r a), low (get r b), low (get r c), low (get r d)) end.
Lemma vars_cases : forall i, vars i = (A, B, C, D) \/ vars i = (D, A, B, C) \/ vars i = (C, D, A, B) \/ vars i = (B, C, D, A).
Proof. induction i; [left; reflexivity|]. cbn [vars]. destruct IHi as [E | [E | [E | E]]]; rewrite E; auto. Qed.
Inductive matches (i : nat) : line -> Prop :=
  Matches : forall f w x y z, agree f (rfc_func i) -> vars i = (w, x, y, z) -> 0 < rfc_shift i < 32 -> matches i (Line f w x y z (rfc_word i) (nth i rfc_T 0) (rfc_shift i)).
Lemma steps_match : Forall2 matches (seq 0 64) steps.
Proof.
  unfold steps. cbv [seq].
  repeat (apply Forall2_cons;
          [match goal with |- matches ?i (Line ?f ?w ?x ?y ?z _ _ _) =>
             apply (Matches i f w x y z); [first [exact agree_F | exact agree_G | exact agree_H | exact agree_I] | reflexivity | split; reflexivity] end |]).
  apply Forall2_nil.
Qed.
Lemma view_line : forall X i l r, matches i l -> view (S i) (do_line X r l) = rfc_oper X (view i r) i.
Proof.
  intros X i l r M. destruct M as [f w x y z A V S]. cbn [do_line].
  assert (N : low (md5step f (get r w) (get r x) (get r y) (get r z) (u64 (nth (rfc_word i) X 0 + nth i rfc_T 0)) (rfc_shift i)) =
     (low (get r x) + rfc_rotl ((low (get r w) + rfc_func i (low (get r x)) (low (get r y)) (low (get r z)) + nth (rfc_word i) X 0 + nth i rfc_T 0) mod 2 ^ 32) (rfc_shift i)) mod 2 ^ 32).
  { rewrite (low_step f _ _ _ _ _ _ _ A S). f_equal. f_equal. f_equal.
    rewrite Z.add_mod by discriminate. rewrite low_u64. rewrite <- Z.add_mod by discriminate. f_equal. lia. }
  set (n := md5step _ _ _ _ _ _ _) in *. unfold view. cbn [vars]. rewrite V. cbn [rfc_oper]. rewrite <- N.
  destruct r as [[[ra rb] rc] rd]. destruct (vars_cases i) as [E | [E | [E | E]]]; rewrite E in V; injection V as <- <- <- <-; reflexivity.
Qed.
Lemma view_fold : forall X is ls, Forall2 matches is ls -> forall k r, is = seq k (length is) ->
  view (k + length is) (fold_left (do_line X) ls r) = fold_left (rfc_oper X) is (view k r).
Proof.
  intros X is ls F. induction F as [| i l is ls M F IH]; intros k r E.
  - cbn [length fold_left]. rewrite Nat.add_0_r. reflexivity.
  - cbn [length seq] in E. assert (i = k /\ is = seq (S k) (length is)) as [-> E2] by (injection E as E1 E2; split; assumption).
    cbn [length fold_left]. rewrite <- (view_line X k l r M). rewrite <- (IH (S k) _ E2). f_equal. lia.
Qed.

Lemma nth_byte : forall l, Forall byte l -> forall i, byte (nth i l 0).
Proof.
  intros l F i. destruct (nth_in_or_default i l 0) as [J | ->]; [|split; [discriminate|reflexivity]].
  rewrite Forall_forall in F. apply F, J.
Qed.
Lemma shift_or : forall x b n, byte b -> 0 <= n -> 0 <= x < 2 ^ n -> n + 8 <= 64 -> Z.lor (u64 (Z.shiftl x 8)) b = b + 2 ^ 8 * x.
Proof.
  intros x b n Hb Hn Hx L. rewrite Z.shiftl_mul_pow2 by lia. rewrite u64_small.
  2: { split; [nia|]. apply Z.lt_le_trans with (2 ^ n * 2 ^ 8); [nia|]. rewrite <- Z.pow_add_r by lia. rewrite w64_pow. apply Z.pow_le_mono_r; lia. }
  rewrite lor_disjoint_add; [lia|]. apply Z.bits_inj'. intros i Hi. rewrite Z.land_spec, Z.bits_0. rewrite <- Z.shiftl_mul_pow2 by lia.
  destruct (Z_lt_ge_dec i 8) as [G | G].
  - rewrite Z.shiftl_spec_low by lia. reflexivity.
  - rewrite (testbit_small 8 b i Hb) by lia. apply andb_false_r.
Qed.
Lemma getu32_eq : forall a i, Forall byte a -> getu32 a (4 * i) = nth (4 * i) a 0 + 2 ^ 8 * nth (4 * i + 1) a 0 + 2 ^ 16 * nth (4 * i + 2) a 0 + 2 ^ 24 * nth (4 * i + 3) a 0.
Proof.
  intros a i F. unfold getu32. rewrite Nat.add_0_r.
  pose proof (nth_byte a F (4 * i)%nat) as B0. pose proof (nth_byte a F (4 * i + 1)%nat) as B1. pose proof (nth_byte a F (4 * i + 2)%nat) as B2. pose proof (nth_byte a F (4 * i + 3)%nat) as B3.
  unfold byte in *. rewrite (shift_or _ _ 8 B2) by lia. rewrite (shift_or _ _ 16 B1) by lia. rewrite (shift_or _ _ 24 B0) by lia. lia.
Qed.
Lemma transform_low : forall r raw, Forall byte raw -> low4 (transform r raw) = rfc_compress (low4 r) raw.
Proof.
  intros r raw F. unfold transform, rfc_compress.
  replace (map (fun i : nat => getu32 raw (4 * i)) (seq 0 16)) with (rfc_words raw) by (apply map_ext; intro i; symmetry; apply getu32_eq, F).
  pose proof (view_fold (rfc_words raw) _ _ steps_match 0 r eq_refl) as V.
  destruct r as [[[a0 b0] c0] d0]. change (view 0 (a0, b0, c0, d0)) with (low a0, low b0, low c0, low d0) in V. cbn [low4]. rewrite <- V.
  destruct (fold_left (do_line (rfc_words raw)) steps (a0, b0, c0, d0)) as [[[a b] c] d].
  change (view (0 + length (seq 0 64)) (a, b, c, d)) with (low a, low b, low c, low d). cbn [low4].
  rewrite !low_u64, <- !Z.add_mod by discriminate. reflexivity.
Qed.

(** ** The array of 64 bytes *)
Lemma put_app : forall x y data, (length x + length data <= 64)%nat -> put (x ++ y) (Z.of_nat (length x)) data = Some (x ++ data ++ skipn (length data) y).
Proof.
  intros x y data L. unfold put. replace (0 <=? Z.of_nat (length x)) with true by (symmetry; apply Z.leb_le; lia).
  replace (Z.of_nat (length x) + Z.of_nat (length data) <=? 64) with true by (symmetry; apply Z.leb_le; lia). cbn [andb].
  rewrite Nat2Z.id. rewrite firstn_app, Nat.sub_diag, firstn_all, app_nil_r. rewrite skipn_app.
  rewrite skipn_all2 by lia. replace (length x + length data - length x)%nat with (length data) by lia. reflexivity.
Qed.
Lemma bytes_firstn : forall n l, Forall byte l -> Forall byte (firstn n l).
Proof. intros n l F. rewrite <- (firstn_skipn n l) in F. apply Forall_app in F. apply F. Qed.
Lemma bytes_skipn : forall n l, Forall byte l -> Forall byte (skipn n l).
Proof. intros n l F. rewrite <- (firstn_skipn n l) in F. apply Forall_app in F. apply F. Qed.

(** ** Updates *)
Definition len64 (b : list Z) : Prop := length b = 64%nat.
Lemma loop_ok : forall fuel r a data, (length data < fuel)%nat -> length a = 64%nat -> Forall byte a -> Forall byte data ->
  exists bs rest r' a', data = concat bs ++ rest /\ Forall len64 bs /\ (length rest < 64)%nat /\ blocks_loop fuel r a data = Some (r', a') /\
    low4 r' = fold_left rfc_compress bs (low4 r) /\ length a' = 64%nat /\ Forall byte a' /\ firstn (length rest) a' = rest.
Proof.
  induction fuel as [| fuel IH]; intros r a data L La Ba Bd; [lia|].
  assert (PU : forall x, (length x <= 64)%nat -> put a 0 x = Some (x ++ skipn (length x) a)).
  { intros x G. apply (put_app [] a x). exact G. }
  cbn [blocks_loop]. rewrite Z.geb_leb. destruct (Z.leb_spec 64 (Z.of_nat (length data))) as [G | G].
  - assert (L64 : length (firstn 64 data) = 64%nat) by (rewrite firstn_length; lia).
    rewrite PU by lia. rewrite L64. rewrite (skipn_all2 a) by lia. rewrite app_nil_r.
    destruct (IH (transform r (firstn 64 data)) (firstn 64 data) (skipn 64 data)) as (bs & rest & r' & a' & E & F & Lr & Q & W & R).
    + rewrite skipn_length. lia.
    + exact L64.
    + apply bytes_firstn, Bd.
    + apply bytes_skipn, Bd.
    + exists (firstn 64 data :: bs), rest, r', a'. split; [cbn [concat]; rewrite <- app_assoc, <- E, firstn_skipn; reflexivity|].
      split; [constructor; assumption|]. split; [exact Lr|]. split; [exact Q|]. split; [|exact R].
      rewrite W. cbn [fold_left]. f_equal. apply transform_low, bytes_firstn, Bd.
  - rewrite PU by lia. exists [], data, r, (data ++ skipn (length data) a). split; [reflexivity|]. split; [constructor|]. split; [lia|]. split; [reflexivity|].
    split; [reflexivity|]. split; [rewrite app_length, skipn_length; lia|]. split; [apply Forall_app; split; [exact Bd | apply bytes_skipn, Ba]|].
    rewrite firstn_app, Nat.sub_diag, firstn_all, app_nil_r. reflexivity.
Qed.

Definition size (m : list Z) : Z := Z.of_nat (length m).
(** the context after the bytes [m] *)
Definition after (m : list Z) (c : ctx) : Prop :=
  exists bs r, m = concat bs ++ r /\ Forall len64 bs /\ (length r < 64)%nat /\ low4 (buf c) = fold_left rfc_compress bs rfc_start /\
    (exists y, inb c = r ++ y /\ length (r ++ y) = 64%nat) /\ Forall byte (inb c) /\
    bits0 c = low (8 * size m) /\ low (bits1 c) = low (8 * size m / 2 ^ 32).
Lemma size_concat : forall bs, Forall len64 bs -> size (concat bs) = 64 * Z.of_nat (length bs).
Proof.
  unfold size. induction 1 as [| b bs Hb F IH]; [reflexivity|]. cbn [concat length]. rewrite app_length. unfold len64 in Hb. lia.
Qed.
Lemma count_eq : forall bs r b, Forall len64 bs -> (length r < 64)%nat -> b = low (8 * size (concat bs ++ r)) -> Z.land (Z.shiftr b 3) 63 = Z.of_nat (length r).
Proof.
  intros bs r b F L ->. rewrite Z.shiftr_div_pow2 by lia. change 63 with (2 ^ 6 - 1). rewrite land_mask by lia.
  unfold size. rewrite app_length. pose proof (size_concat bs F) as S. unfold size in S. rewrite Nat2Z.inj_add, S.
  generalize (Z.of_nat (length bs)) as k. intro k. Z.to_euclidean_division_equations. lia.
Qed.
Lemma bits_add : forall m n, 0 <= m -> 0 <= n ->
  let t := low (8 * m) in let b0 := Z.land (u64 (t + u64 (Z.shiftl n 3))) 4294967295 in
  b0 = low (8 * (m + n)) /\ (8 * (m + n)) / 2 ^ 32 = 8 * m / 2 ^ 32 + n / 2 ^ 29 + (if b0 <? t then 1 else 0).
Proof.
  intros m n Hm Hn t b0.
  assert (E : b0 = low (8 * (m + n))).
  { unfold b0. change 4294967295 with (2 ^ 32 - 1). rewrite land_mask by lia. rewrite low_u64. rewrite Z.add_mod by discriminate. rewrite low_u64.
    rewrite Z.shiftl_mul_pow2 by lia. unfold t. rewrite low_low. rewrite <- Z.add_mod by discriminate. f_equal. lia. }
  split; [exact E|]. rewrite E. unfold t.
  pose proof (Z.div_mod (8 * m) (2 ^ 32)) as D1. pose proof (Z.mod_pos_bound (8 * m) (2 ^ 32)) as B1.
  pose proof (Z.div_mod n (2 ^ 29)) as D2. pose proof (Z.mod_pos_bound n (2 ^ 29)) as B2.
  pose proof (Z.div_mod (8 * (m + n)) (2 ^ 32)) as D3. pose proof (Z.mod_pos_bound (8 * (m + n)) (2 ^ 32)) as B3.
  set (q1 := 8 * m / 2 ^ 32) in *. set (r1 := low (8 * m)) in *. set (q2 := n / 2 ^ 29) in *. set (r2 := n mod 2 ^ 29) in *.
  set (q3 := 8 * (m + n) / 2 ^ 32) in *. set (r3 := low (8 * (m + n))) in *. clearbody q1 r1 q2 r2 q3 r3.
  change (2 ^ 32) with 4294967296 in *. change (2 ^ 29) with 536870912 in *.
  destruct (Z.ltb_spec r3 r1); lia.
Qed.
Lemma update_ok : forall m c data, after m c -> Forall byte data -> exists c', update c data = Some c' /\ after (m ++ data) c'.
Proof.
  intros m c data (bs & r & E & F & L & W & (y & Ey & Ly) & Bi & B0 & B1) Bd. rewrite app_length in Ly.
  assert (C : Z.land (Z.shiftr (bits0 c) 3) 63 = Z.of_nat (length r)) by (apply (count_eq bs r); [exact F | exact L | rewrite B0, E; reflexivity]).
  pose proof (bits_add (size m) (Z.of_nat (length data)) ltac:(unfold size; lia) ltac:(lia)) as BA. cbv zeta in BA. rewrite <- B0 in BA. destruct BA as [A0 A1].
  unfold update. cbv zeta.
  set (b0 := Z.land (u64 (bits0 c + u64 (Z.shiftl (Z.of_nat (length data)) 3))) 4294967295) in *.
  set (b1 := u64 ((if b0 <? bits0 c then u64 (bits1 c + 1) else bits1 c) + Z.shiftr (Z.of_nat (length data)) 29)).
  assert (S0 : b0 = low (8 * size (m ++ data))) by (rewrite A0; unfold size; rewrite app_length; f_equal; lia).
  assert (S1 : low b1 = low (8 * size (m ++ data) / 2 ^ 32)).
  { unfold size at 1. rewrite app_length, Nat2Z.inj_add. fold (size m). rewrite A1. unfold b1. rewrite low_u64. rewrite Z.shiftr_div_pow2 by lia.
    rewrite Z.add_mod by discriminate. replace (low (if b0 <? bits0 c then u64 (bits1 c + 1) else bits1 c)) with (low (8 * size m / 2 ^ 32 + (if b0 <? bits0 c then 1 else 0))).
    - rewrite <- Z.add_mod by discriminate. f_equal. lia.
    - rewrite Z.add_mod by discriminate. rewrite <- B1. rewrite <- Z.add_mod by discriminate. destruct (b0 <? bits0 c); [rewrite low_u64; reflexivity | rewrite Z.add_0_r; reflexivity]. }
  clearbody b0 b1. rewrite C. rewrite Ey in *. clear Ey.
  destruct (Z.eqb_spec (Z.of_nat (length r)) 0) as [Z0 | Z0]; cbn [negb].
  - assert (r = []) as -> by (destruct r; [reflexivity | cbn [length] in Z0; lia]).
    destruct (loop_ok (S (length data)) (buf c) y data) as (cs & rest & r' & a' & E2 & F2 & L2 & Q2 & W2 & La2 & Ba2 & R2); [lia | exact Ly | exact Bi | exact Bd |].
    cbn [app]. rewrite Q2. eexists. split; [reflexivity|]. exists (bs ++ cs), rest. cbn [buf bits0 bits1 inb].
    split; [rewrite E, app_nil_r, concat_app, <- app_assoc, <- E2; reflexivity|]. split; [apply Forall_app; split; assumption|]. split; [exact L2|].
    split; [rewrite W2, W, fold_left_app; reflexivity|]. split; [exists (skipn (length rest) a'); rewrite <- R2 at 1 3; rewrite firstn_skipn; split; [reflexivity | exact La2]|].
    split; [exact Ba2|]. split; assumption.
  - rewrite u64_small by (unfold w64; lia). destruct (Z.ltb_spec (Z.of_nat (length data)) (64 - Z.of_nat (length r))) as [G | G].
    + rewrite put_app by lia. eexists. split; [reflexivity|]. exists bs, (r ++ data). cbn [buf bits0 bits1 inb].
      split; [rewrite E, app_assoc; reflexivity|]. split; [exact F|]. split; [rewrite app_length; lia|]. split; [exact W|].
      split; [exists (skipn (length data) y); rewrite <- app_assoc; split; [reflexivity|]; rewrite !app_length, skipn_length; lia|].
      split; [|split; assumption]. apply Forall_app in Bi. apply Forall_app. split; [apply Bi|]. apply Forall_app. split; [exact Bd|]. apply bytes_skipn, Bi.
    + replace (Z.to_nat (64 - Z.of_nat (length r))) with (64 - length r)%nat by lia.
      assert (Lf : length (firstn (64 - length r) data) = (64 - length r)%nat) by (rewrite firstn_length; lia).
      rewrite put_app by lia. rewrite Lf. rewrite (skipn_all2 y) by lia. rewrite app_nil_r.
      set (b := r ++ firstn (64 - length r) data). assert (Lb : length b = 64%nat) by (unfold b; rewrite app_length, Lf; lia).
      assert (Bb : Forall byte b) by (apply Forall_app in Bi; apply Forall_app; split; [apply Bi | apply bytes_firstn, Bd]).
      destruct (loop_ok (S (length (skipn (64 - length r) data))) (transform (buf c) b) b (skipn (64 - length r) data)) as (cs & rest & r' & a' & E2 & F2 & L2 & Q2 & W2 & La2 & Ba2 & R2); [lia | exact Lb | exact Bb | apply bytes_skipn, Bd |].
      rewrite Q2. eexists. split; [reflexivity|]. exists (bs ++ b :: cs), rest. cbn [buf bits0 bits1 inb].
      split; [rewrite E, concat_app; cbn [concat]; rewrite <- !app_assoc, <- E2; unfold b; rewrite <- app_assoc, firstn_skipn; reflexivity|].
      split; [apply Forall_app; split; [assumption | constructor; assumption]|]. split; [exact L2|].
      split; [rewrite W2, (transform_low _ _ Bb), W, fold_left_app; reflexivity|].
      split; [exists (skipn (length rest) a'); rewrite <- R2 at 1 3; rewrite firstn_skipn; split; [reflexivity | exact La2]|].
      split; [exact Ba2|]. split; assumption.
Qed.

(** ** The end *)
Lemma byte_low : forall d k, 0 <= k <= 24 -> (low d / 2 ^ k) mod 2 ^ 8 = (d / 2 ^ k) mod 2 ^ 8.
Proof.
  intros d k Hk. apply Z.bits_inj'. intros i Hi. rewrite !mod_pow2_testbit by lia. destruct (Z.ltb_spec i 8) as [G | G]; [|reflexivity]. cbn [andb].
  rewrite !Z.div_pow2_bits by lia. rewrite mod_pow2_testbit by lia. destruct (Z.ltb_spec (i + k) 32); [reflexivity | lia].
Qed.
Lemma le4 : forall d, rfc_le 4 d = [(d / 2 ^ 0) mod 2 ^ 8; (d / 2 ^ 8) mod 2 ^ 8; (d / 2 ^ 16) mod 2 ^ 8; (d / 2 ^ 24) mod 2 ^ 8].
Proof. intro d. cbn [rfc_le]. rewrite !Z.div_div by lia. change (2 ^ 0) with 1. rewrite Z.div_1_r. reflexivity. Qed.
Lemma le4_low : forall d, rfc_le 4 (low d) = rfc_le 4 d.
Proof. intro d. rewrite !le4. rewrite !byte_low by lia. reflexivity. Qed.
Lemma putu32_le : forall d, putu32 d = rfc_le 4 (low d).
Proof. intro d. rewrite le4_low, le4. unfold putu32. rewrite !Z.shiftr_div_pow2 by lia. change (2 ^ 0) with 1. rewrite Z.div_1_r. reflexivity. Qed.
Lemma le_split : forall n v, rfc_le (4 + n) v = rfc_le 4 (low v) ++ rfc_le n (v / 2 ^ 32).
Proof. intros n v. rewrite le4_low. cbn [Nat.add rfc_le app]. rewrite !Z.div_div by lia. reflexivity. Qed.
Lemma bytes_le : forall n v, Forall byte (rfc_le n v).
Proof. induction n; intro v; cbn [rfc_le]; constructor; [apply Z.mod_pos_bound; reflexivity | apply IHn]. Qed.
Lemma bytes_zeros : forall n, Forall byte (repeat 0 n).
Proof. induction n; constructor; [split; [discriminate | reflexivity] | assumption]. Qed.
Lemma blocks_concat : forall bs, Forall len64 bs -> rfc_blocks (concat bs) = bs.
Proof.
  intros bs F. unfold rfc_blocks.
  assert (L : (length (concat bs) / 64 = length bs)%nat).
  { pose proof (size_concat bs F) as S. unfold size in S. assert (length (concat bs) = (length bs * 64)%nat) as -> by lia. apply Nat.div_mul. discriminate. }
  rewrite L. clear L. induction F as [| b bs Hb F IH]; [reflexivity|]. unfold len64 in Hb.
  cbn [length seq map]. f_equal.
  - rewrite Nat.mul_0_r. cbn [skipn concat]. rewrite firstn_app, <- Hb, Nat.sub_diag, firstn_all. apply app_nil_r.
  - rewrite <- seq_shift, map_map. rewrite <- IH at 2. apply map_ext. intro i. cbn [concat]. f_equal.
    rewrite skipn_app. rewrite skipn_all2 by lia. cbn [app]. f_equal. lia.
Qed.
Lemma final_ok : forall m c, after m c -> final c = Some (rfc_md5 m).
Proof.
  intros m c (bs & r & E & F & L & W & (y & Ey & Ly) & Bi & B0 & B1). rewrite app_length in Ly.
  assert (C : Z.land (Z.shiftr (bits0 c) 3) 63 = Z.of_nat (length r)) by (apply (count_eq bs r); [exact F | exact L | rewrite B0, E; reflexivity]).
  assert (LE : putu32 (bits0 c) ++ putu32 (bits1 c) = rfc_le 8 ((8 * size m) mod 2 ^ 64)).
  { rewrite !putu32_le, B0, low_low, B1. change 8%nat with (4 + 4)%nat at 1. rewrite le_split. f_equal.
    - f_equal. apply Zmod_div_mod; [reflexivity | reflexivity | exists (2 ^ 32); reflexivity].
    - f_equal. generalize (8 * size m). intro v. change (2 ^ 64) with (2 ^ 32 * 2 ^ 32). rewrite Z.rem_mul_r by lia. rewrite Z.mul_comm, Z.div_add by discriminate. rewrite (Z.div_small (low v)) by (apply Z.mod_pos_bound; reflexivity). reflexivity. }
  rewrite Ey in Bi. assert (Br : Forall byte r) by (apply Forall_app in Bi; apply Bi).
  assert (SM : (55 - Z.of_nat (length m)) mod 64 = (55 - Z.of_nat (length r)) mod 64).
  { rewrite E, app_length. pose proof (size_concat bs F) as S. unfold size in S. rewrite Nat2Z.inj_add, S.
    replace (55 - (64 * Z.of_nat (length bs) + Z.of_nat (length r))) with (55 - Z.of_nat (length r) + (- Z.of_nat (length bs)) * 64) by lia. apply Z.mod_add. discriminate. }
  assert (P0 : length (putu32 (bits0 c)) = 4%nat) by reflexivity. assert (P1 : length (putu32 (bits1 c)) = 4%nat) by reflexivity.
  unfold final. rewrite C, Ey. rewrite put_app by (cbn [length]; lia). cbn [length].
  (* the last 8 bytes *)
  assert (TAIL : forall x z rr, length x = 56%nat -> length z = 8%nat -> Forall byte x ->
     match put (x ++ z) 56 (putu32 (bits0 c)) with
     | None => None
     | Some a => match put a 60 (putu32 (bits1 c)) with
                 | None => None
                 | Some a => match transform rr a with (a, b, c, d) => Some (putu32 a ++ putu32 b ++ putu32 c ++ putu32 d) end
                 end
     end = match rfc_compress (low4 rr) (x ++ rfc_le 8 ((8 * size m) mod 2 ^ 64)) with (a, b, c, d) => Some (rfc_le 4 a ++ rfc_le 4 b ++ rfc_le 4 c ++ rfc_le 4 d) end).
  { intros x z rr Lx Lz Bx. replace 56 with (Z.of_nat (length x)) by lia. rewrite put_app by lia. rewrite P0.
    rewrite app_assoc. replace 60 with (Z.of_nat (length (x ++ putu32 (bits0 c)))) by (rewrite app_length; lia). rewrite put_app by (rewrite app_length; lia).
    rewrite P1. rewrite skipn_all2 by (rewrite skipn_length; lia). rewrite app_nil_r, <- app_assoc, LE.
    rewrite <- transform_low by (apply Forall_app; split; [exact Bx | apply bytes_le]).
    destruct (transform rr (x ++ rfc_le 8 ((8 * size m) mod 2 ^ 64))) as [[[a b] c'] d]. cbn [low4]. rewrite !putu32_le. reflexivity. }
  assert (MD : forall bl, Forall len64 bl -> concat bl = rfc_padded m -> match fold_left rfc_compress bl rfc_start with (a, b, c, d) => Some (rfc_le 4 a ++ rfc_le 4 b ++ rfc_le 4 c ++ rfc_le 4 d) end = Some (rfc_md5 m)).
  { intros bl Fb Eb. unfold rfc_md5. rewrite <- Eb, (blocks_concat bl Fb). destruct (fold_left rfc_compress bl rfc_start) as [[[? ?] ?] ?]. reflexivity. }
  replace (r ++ [128] ++ skipn 1 y) with ((r ++ [128]) ++ skipn 1 y) by (rewrite <- app_assoc; reflexivity).
  assert (Lr1 : Z.of_nat (length r) + 1 = Z.of_nat (length (r ++ [128]))) by (rewrite app_length; cbn [length]; lia).
  assert (Lr2 : length (r ++ [128]) = S (length r)) by (rewrite app_length; cbn [length]; lia).
  assert (Br1 : Forall byte (r ++ [128])) by (apply Forall_app; split; [exact Br | repeat constructor; discriminate]).
  destruct (Z.ltb_spec (64 - 1 - Z.of_nat (length r)) 8) as [G | G]; unfold zero; rewrite Lr1.
  - rewrite put_app by (rewrite repeat_length; lia). rewrite repeat_length. rewrite skipn_all2 by (rewrite skipn_length; lia). rewrite app_nil_r.
    set (b := (r ++ [128]) ++ repeat 0 (Z.to_nat (64 - 1 - Z.of_nat (length r)))).
    assert (Lb : length b = 64%nat) by (unfold b; rewrite app_length, repeat_length; lia).
    assert (Bb : Forall byte b) by (apply Forall_app; split; [exact Br1 | apply bytes_zeros]).
    pose proof (put_app [] b (repeat 0 (Z.to_nat 56))) as PZ. cbn [length app Z.of_nat] in PZ. rewrite PZ by (rewrite repeat_length; lia). clear PZ. cbv zeta.
    rewrite TAIL; [| apply repeat_length | rewrite skipn_length, repeat_length; lia | apply bytes_zeros].
    rewrite (transform_low _ _ Bb), W.
    rewrite <- (MD (bs ++ [b; repeat 0 (Z.to_nat 56) ++ rfc_le 8 ((8 * size m) mod 2 ^ 64)])).
    + rewrite fold_left_app. reflexivity.
    + apply Forall_app. split; [exact F|]. constructor; [exact Lb|]. constructor; [reflexivity | constructor].
    + rewrite concat_app. cbn [concat]. rewrite app_nil_r. unfold rfc_padded. rewrite SM. rewrite E at 2. rewrite <- app_assoc. f_equal.
      unfold b. rewrite <- !app_assoc. f_equal. cbn [app]. f_equal. rewrite app_assoc, <- repeat_app. f_equal. f_equal.
      rewrite <- Z2Nat.inj_add by lia. f_equal. rewrite <- (Z.mod_add _ 1) by discriminate. rewrite Z.mod_small by lia. lia.
  - rewrite put_app by (rewrite repeat_length; lia). rewrite repeat_length. rewrite app_assoc.
    set (x := (r ++ [128]) ++ repeat 0 (Z.to_nat (64 - 1 - Z.of_nat (length r) - 8))).
    assert (Lx : length x = 56%nat) by (unfold x; rewrite app_length, repeat_length; lia).
    rewrite TAIL; [| exact Lx | rewrite !skipn_length; lia | apply Forall_app; split; [exact Br1 | apply bytes_zeros]].
    rewrite W. rewrite <- (MD (bs ++ [x ++ rfc_le 8 ((8 * size m) mod 2 ^ 64)])).
    + rewrite fold_left_app. reflexivity.
    + apply Forall_app. split; [exact F|]. constructor; [unfold len64; rewrite app_length, Lx; reflexivity | constructor].
    + rewrite concat_app. cbn [concat]. rewrite app_nil_r. unfold rfc_padded. rewrite SM. rewrite E at 2. rewrite <- app_assoc. f_equal.
      unfold x. rewrite <- !app_assoc. f_equal. cbn [app]. f_equal. f_equal. f_equal. f_equal. rewrite Z.mod_small by lia. lia.
Qed.

Lemma init_after : forall mem, length mem = 64%nat -> Forall byte mem -> after [] (init mem).
Proof.
  intros mem L F. exists [], []. split; [reflexivity|]. split; [constructor|]. split; [cbn [length]; lia|]. split; [reflexivity|].
  split; [exists mem; split; [reflexivity | exact L]|]. split; [exact F|]. split; reflexivity.
Qed.
(** any division of the message into parts *)
Fixpoint updates (c : ctx) (parts : list (list Z)) : option ctx :=
  match parts with [] => Some c | p :: parts => match update c p with Some c => updates c parts | None => None end end.
Lemma updates_ok : forall parts m c, after m c -> Forall (Forall byte) parts -> exists c', updates c parts = Some c' /\ after (m ++ concat parts) c'.
Proof.
  induction parts as [| p parts IH]; intros m c A F.
  - exists c. split; [reflexivity|]. rewrite app_nil_r. exact A.
  - inversion F as [|? ? Hp Fp]; subst. destruct (update_ok m c p A Hp) as (c1 & E1 & A1). cbn [updates]. rewrite E1.
    destruct (IH _ _ A1 Fp) as (c2 & E2 & A2). exists c2. split; [exact E2|]. cbn [concat]. rewrite app_assoc. exact A2.
Qed.
Theorem digest_ok : forall mem parts, length mem = 64%nat -> Forall byte mem -> Forall (Forall byte) parts ->
  exists c, updates (init mem) parts = Some c /\ final c = Some (rfc_md5 (concat parts)).
Proof.
  intros mem parts L M F. destruct (updates_ok parts [] (init mem) (init_after mem L M) F) as (c & E & A).
  exists c. split; [exact E|]. apply final_ok. exact A.
Qed.
(** the parts read before the first empty one *)
Fixpoint till_empty (reads : list (list Z)) : list (list Z) := match reads with [] => [] | [] :: _ => [] | r :: reads => r :: till_empty reads end.
Lemma read_loop_updates : forall reads c, read_loop c reads = updates c (till_empty reads).
Proof.
  induction reads as [| [| b r] reads IH]; intro c; [reflexivity | reflexivity |]. cbn [read_loop till_empty updates]. destruct (update c (b :: r)); [apply IH | reflexivity].
Qed.
Theorem file_ok : forall mem reads, length mem = 64%nat -> Forall byte mem -> Forall (Forall byte) reads ->
  file_digest mem reads = Some (rfc_md5 (concat (till_empty reads))).
Proof.
  intros mem reads L M F. unfold file_digest. rewrite read_loop_updates.
  assert (G : Forall (Forall byte) (till_empty reads)).
  { clear -F. induction F as [| [| b r] reads Hr F IH]; [constructor | constructor |]. cbn [till_empty]. constructor; [exact Hr | exact IH]. }
  destruct (digest_ok mem (till_empty reads) L M G) as (c & -> & ->). reflexivity.
Qed.
Lemma till_whole : forall reads, Forall (fun r => r <> []) reads -> till_empty (reads ++ [[]]) = reads.
Proof.
  induction 1 as [| [| b r] reads Hr F IH]; [reflexivity | contradiction |]. cbn [app till_empty]. f_equal. exact IH.
Qed.
Theorem whole_ok : forall mem content reads, length mem = 64%nat -> Forall byte mem -> Forall byte content -> Forall (fun r => r <> []) reads -> concat reads = content ->
  file_digest mem (reads ++ [[]]) = Some (rfc_md5 content).
Proof.
  intros mem content reads L M B N E. rewrite file_ok; [rewrite (till_whole reads N), E; reflexivity | exact L | exact M |].
  apply Forall_app. split; [|repeat constructor]. subst content. clear - B. induction reads as [| r reads IH]; [constructor|].
  cbn [concat] in B. apply Forall_app in B. destruct B as [B1 B2]. constructor; [exact B1 | exact (IH B2)].
Qed.
Theorem error_refuted : exists mem r1 r2, length mem = 64%nat /\ Forall byte mem /\ rfc_md5 (concat r1) <> rfc_md5 (concat r2) /\ file_digest mem r1 = file_digest mem r2.
Proof.
  exists (repeat 0 64), [[1]; []; [2]], [[1]; []; [3]]. split; [reflexivity|]. split; [apply bytes_zeros|].
  split; [vm_compute; discriminate|]. rewrite !file_ok; try reflexivity; repeat constructor; discriminate.
Qed.
