(** Specification and proofs for the printing of numbers (C87). *)
From Coq Require Import ZArith List Bool Lia.
From Verif Require Import Lib LibBits M_BitVect P_BitVect P_BitVectIO M_Intnum P_Intnum P_IntnumIO M_Print.
Import ListNotations.
Open Scope Z_scope.

(** * Specification *)
(** [s] is the decimal numeral of [n]: a minus sign if it is negative, and digits without leading zeros. *)
Definition numeral (n : Z) (s : list Z) : Prop :=
  exists c ds, s = (if n <? 0 then [45] else []) ++ c :: ds /\ forallb is_dec (c :: ds) = true /\ (c <> 48 \/ ds = []) /\ number 10 (c :: ds) = Z.abs n.
(** Reading a numeral the way an expression does: the digits, then the sign. *)
Definition reads_as (s : list Z) (n : Z) : Prop :=
  match s with
  | 45 :: ds => exists i j e, create_dec ds = (i, Ok) /\ calc scratch i NEG None = (j, 0, e) /\ ival j = n
  | _ => exists i, create_dec s = (i, Ok) /\ ival i = n
  end.

(** * Proofs *)
(** Digits from the right: what is written for [m]. *)
Definition written (m : Z) (l : list Z) : Prop := forallb is_dec l = true /\ pv 10 l = m /\ last l 0 <> 48.
Lemma is_dec_mod : forall r, 0 <= r < 10 -> is_dec ((r + 48) mod 256) = true /\ digit ((r + 48) mod 256) = r /\ (r + 48) mod 256 = r + 48.
Proof.
  intros r R. rewrite Z.mod_small by lia. unfold is_dec, digit. destruct (Z.leb_spec 48 (r + 48)); [|lia]. destruct (Z.leb_spec (r + 48) 57); [|lia]. destruct (Z.leb_spec 97 (r + 48)); [lia|]. destruct (Z.leb_spec 65 (r + 48)); [lia|]. split; [auto|]. split; lia.
Qed.
Lemma digitize_eq : forall v, 0 <= v -> digitize v = (v / 10, v mod 10 + 48).
Proof. intros v V. unfold digitize. f_equal. rewrite (Z.mod_eq v 10) by lia. lia. Qed.
Lemma whole_ok : forall n q digits length s, 0 <= q < 10 ^ Z.of_nat n -> Z.of_nat n <= length - digits ->
  exists o, whole_block n q digits length s = (digits + Z.of_nat n, s ++ o) /\ forallb is_dec o = true /\ pv 10 o = q /\ List.length o = n.
Proof.
  induction n as [|n IH]; intros q digits length s Q L.
  - cbn [whole_block]. exists []. rewrite app_nil_r. change (10 ^ Z.of_nat 0) with 1 in Q. split; [f_equal; lia|]. cbn. split; [auto|]. split; [lia|auto].
  - cbn [whole_block]. destruct (Z.ltb_spec digits length); [|lia]. assert (E : (if nz q then digitize q else (q, 48)) = (q / 10, q mod 10 + 48)). { unfold nz. destruct (Z.eqb_spec q 0) as [-> |]; [reflexivity|]. cbn [negb]. apply digitize_eq. lia. } rewrite E.
    rewrite Nat2Z.inj_succ, Z.pow_succ_r in Q by lia. assert (0 <= q / 10 < 10 ^ Z.of_nat n) by (split; [apply Z.div_pos; lia|apply Z.div_lt_upper_bound; lia]).
    destruct (IH (q / 10) (digits + 1) length (s ++ [(q mod 10 + 48) mod 256]) H0 ltac:(lia)) as (o & -> & D & P & LO). destruct (is_dec_mod (q mod 10)) as (I & J & _); [apply Z.mod_pos_bound; lia|].
    exists ((q mod 10 + 48) mod 256 :: o). rewrite <- app_assoc. cbn [app]. split; [f_equal; lia|]. cbn [forallb pv fold_right List.length]. fold (pv 10 o). rewrite I, J, D, P, LO. split; [auto|]. split; [pose proof (Z.div_mod q 10 ltac:(lia)); lia|auto].
Qed.
Lemma last_ok : forall fuel q digits length s, 0 <= q < 10 ^ Z.of_nat fuel -> q < 10 ^ (length - digits) ->
  exists o, last_block fuel q digits length s = Some (digits + Z.of_nat (List.length o), s ++ o) /\ (q = 0 -> o = []) /\ (0 < q -> o <> [] /\ written q o) /\ digits + Z.of_nat (List.length o) <= Z.max digits length.
Proof.
  induction fuel as [|fuel IH]; intros q digits length s Q L.
  - change (10 ^ Z.of_nat 0) with 1 in Q. assert (q = 0) by lia. subst. cbn. exists []. rewrite app_nil_r. split; [do 2 f_equal; cbn; lia|]. split; [auto|]. split; [lia|cbn; lia].
  - cbn [last_block]. unfold nz. destruct (Z.eqb_spec q 0) as [-> |NZ]; cbn [negb andb].
    + exists []. rewrite app_nil_r. split; [do 2 f_equal; cbn; lia|]. split; [auto|]. split; [lia|cbn; lia].
    + assert (LD : digits < length) by (destruct (Z.le_gt_cases length digits); [|lia]; exfalso; destruct (Z.eq_dec length digits) as [-> |]; [rewrite Z.sub_diag in L; change (10 ^ 0) with 1 in L; lia|rewrite Z.pow_neg_r in L by lia; lia]).
      destruct (Z.ltb_spec digits length); [|lia]. rewrite digitize_eq by lia. rewrite Nat2Z.inj_succ, Z.pow_succ_r in Q by lia.
      assert (Q' : 0 <= q / 10 < 10 ^ Z.of_nat fuel) by (split; [apply Z.div_pos; lia|apply Z.div_lt_upper_bound; lia]).
      assert (L' : q / 10 < 10 ^ (length - (digits + 1))) by (apply Z.div_lt_upper_bound; [lia|]; rewrite <- Z.pow_succ_r by lia; replace (Z.succ (length - (digits + 1))) with (length - digits) by lia; auto).
      destruct (IH (q / 10) (digits + 1) length (s ++ [(q mod 10 + 48) mod 256]) Q' L') as (o & -> & Z0 & Z1 & M). destruct (is_dec_mod (q mod 10)) as (I & J & K); [apply Z.mod_pos_bound; lia|]. pose proof (Z.div_mod q 10 ltac:(lia)) as DM.
      exists ((q mod 10 + 48) mod 256 :: o). rewrite <- app_assoc. cbn [app List.length]. split; [do 2 f_equal; lia|]. split; [lia|]. split; [|lia]. intros _. split; [discriminate|].
      destruct (Z.eq_dec (q / 10) 0) as [D0|D0].
      * rewrite (Z0 D0). unfold written. cbn [forallb pv fold_right last]. rewrite I, J, K. split; [auto|]. split; [lia|lia].
      * destruct (Z1 ltac:(lia)) as (ON & W1 & W2 & W3). unfold written. cbn [forallb pv fold_right]. fold (pv 10 o). rewrite I, J, W1, W2. split; [auto|]. split; [lia|]. destruct o; [congruence|exact W3].
Qed.
Lemma first_word : forall v, wf v -> uval v < 2 ^ 32 -> nth 0 (wds v) 0 = uval v.
Proof.
  intros v (B & L & F & R) U. unfold uval in *. destruct (wds v) as [|w ws]; [reflexivity|]. cbn [nth wval] in *. inversion F as [|? ? Fw Fs]; subst. pose proof (wval_range ws Fs) as WR. destruct (Z.eq_dec (wval ws) 0) as [-> |]; [lia|]. exfalso. unfold word in Fw. rewrite p32 in Fw. assert (2 ^ 32 = 4294967296) by reflexivity. nia.
Qed.
Lemma written_app : forall a l m, forallb is_dec a = true -> l <> [] -> written m l -> written (pv 10 a + 10 ^ Z.of_nat (length a) * m) (a ++ l).
Proof.
  intros a l m A L (W1 & W2 & W3). unfold written. rewrite forallb_app, A, W1, pv_app, W2. split; [auto|]. split; [auto|]. destruct (exists_last L) as (l' & c & ->). rewrite app_assoc, last_last in *. auto.
Qed.
Lemma blocks_ok : forall fuel loop quot base digits length s k, wf quot -> wf base -> bits base = bits quot -> (loop = true -> uval base = EXP10) -> (loop = false -> uval quot < 2 ^ 32) -> 0 < uval quot -> uval quot < 10 ^ (length - digits) -> length - digits <= Z.of_nat fuel ->
  exists o, blocks fuel loop quot base digits length s k = k (digits + Z.of_nat (List.length o)) (s ++ o) /\ o <> [] /\ written (uval quot) o /\ digits + Z.of_nat (List.length o) <= length.
Proof.
  induction fuel as [|fuel IH]; intros loop quot base digits length s k Wq Wb B LB LQ U0 U L.
  - exfalso. destruct (Z.eq_dec (length - digits) 0) as [E|]; [rewrite E in U; change (10 ^ 0) with 1 in U; lia|rewrite Z.pow_neg_r in U by lia; lia].
  - assert (LD : digits < length) by (destruct (Z.le_gt_cases length digits); [|lia]; exfalso; destruct (Z.eq_dec length digits) as [-> |]; [rewrite Z.sub_diag in U; change (10 ^ 0) with 1 in U; lia|rewrite Z.pow_neg_r in U by lia; lia]).
    assert (FIN : forall q, 0 < q < 2 ^ 32 -> q < 10 ^ (length - digits) -> exists o, last_block 10 q digits length s = Some (digits + Z.of_nat (List.length o), s ++ o) /\ o <> [] /\ written q o /\ digits + Z.of_nat (List.length o) <= length).
    { intros q Q1 Q2. destruct (last_ok 10 q digits length s) as (o & E & _ & W & M); [split; [lia|]; change (10 ^ Z.of_nat 10) with 10000000000; assert (2 ^ 32 = 4294967296) by reflexivity; lia|auto|]. exists o. split; [auto|]. destruct W; [lia|]. split; [auto|]. split; [auto|lia]. }
    cbn [blocks]. destruct loop.
    + unfold Copy. rewrite norm_id by auto. specialize (LB eq_refl). destruct (Div_Pos_ok quot base Wq Wb ltac:(auto) ltac:(rewrite LB; discriminate)) as (q & r & -> & Wq' & Wr & Bq & Br & Uq & Ur). rewrite LB in Uq, Ur. rewrite is_empty_ok by auto.
      assert (E9 : EXP10 = 10 ^ 9) by reflexivity. assert (RR : 0 <= uval r < 10 ^ 9) by (rewrite Ur, E9; apply Z.mod_pos_bound; reflexivity). rewrite (first_word r Wr) by (assert (10 ^ 9 < 2 ^ 32) by reflexivity; lia). pose proof (Z.div_mod (uval quot) EXP10 ltac:(discriminate)) as DM. rewrite <- Uq, <- Ur in DM.
      destruct (Z.eqb_spec (uval q) 0) as [Q0|Q0]; cbn [negb andb].
      * assert (UR : uval r = uval quot) by lia. rewrite UR in *. destruct (FIN (uval quot) ltac:(assert (10 ^ 9 < 2 ^ 32) by reflexivity; lia) U) as (o & -> & O1 & O2 & O3). exists o. auto.
      * assert (Q1 : 0 < uval q) by (assert (0 <= uval q) by (rewrite Uq; apply Z.div_pos; [lia|reflexivity]); lia).
        assert (L9 : 9 < length - digits). { destruct (Z.le_gt_cases (length - digits) 9) as [C|C]; [|lia]. assert (10 ^ (length - digits) <= 10 ^ 9) by (apply Z.pow_le_mono_r; lia). rewrite E9 in DM. nia. }
        destruct (whole_ok 9 (uval r) digits length s RR ltac:(lia)) as (a & -> & A1 & A2 & A3). change (Z.of_nat 9) with 9. destruct (Z.ltb_spec (digits + 9) length); [|lia].
        assert (UQ : uval q < 10 ^ (length - (digits + 9))). { rewrite Uq, E9. apply Z.div_lt_upper_bound; [reflexivity|]. rewrite <- Z.pow_add_r by lia. replace (9 + (length - (digits + 9))) with (length - digits) by lia. auto. }
        destruct (IH true q base (digits + 9) length (s ++ a) k Wq' Wb ltac:(congruence) ltac:(auto) ltac:(discriminate) Q1 UQ ltac:(lia)) as (o & E & O1 & O2 & O3).
        exists (a ++ o). rewrite E. rewrite app_length, A3, <- app_assoc. split; [f_equal; lia|]. split; [destruct a; [exact O1|discriminate]|]. split; [|lia].
        replace (uval quot) with (pv 10 a + 10 ^ Z.of_nat (List.length a) * uval q) by (rewrite A2, A3; change (Z.of_nat 9) with 9; rewrite <- E9; lia). apply written_app; auto.
    + rewrite (first_word quot Wq) by auto. destruct (FIN (uval quot) ltac:(specialize (LQ eq_refl); lia) U) as (o & -> & O1 & O2 & O3). cbn [andb]. exists o. auto.
Qed.
Lemma blocks_last : forall fuel quot base length k, wf quot -> 0 < uval quot < 2 ^ 32 -> uval quot < 10 ^ (length - 0) ->
  exists o, blocks (fuel + 1) false quot base 0 length [] k = k (0 + Z.of_nat (List.length o)) ([] ++ o) /\ o <> [] /\ written (uval quot) o.
Proof.
  intros fuel quot base length k W U L. rewrite Nat.add_1_r. cbn [blocks]. rewrite (first_word quot W) by lia.
  destruct (last_ok 10 (uval quot) 0 length []) as (o & -> & _ & O & _); [split; [lia|]; change (10 ^ Z.of_nat 10) with 10000000000; rewrite p32 in U; lia|auto|]. cbn [andb]. exists o. destruct O; [lia|]. auto.
Qed.
Lemma written_numeral : forall m l, l <> [] -> written m l -> exists c ds, rev l = c :: ds /\ forallb is_dec (c :: ds) = true /\ c <> 48 /\ number 10 (c :: ds) = m.
Proof.
  intros m l N (W1 & W2 & W3). destruct (exists_last N) as (l' & c & ->). rewrite last_last in W3. rewrite rev_app_distr. cbn [rev app]. exists c, (rev l'). split; [auto|]. rewrite forallb_app in W1. apply andb_prop in W1. destruct W1 as [W1 W1']. cbn [forallb] in W1'. rewrite andb_true_r in W1'.
  split; [cbn [forallb]; rewrite W1'; cbn [andb]; apply forallb_forall; intros x X; apply in_rev in X; rewrite forallb_forall in W1; auto|]. split; [auto|]. rewrite number_pv. cbn [rev]. rewrite rev_involutive. auto.
Qed.
Lemma pv_nonneg : forall l, forallb is_dec l = true -> 0 <= pv 10 l.
Proof.
  induction l as [|c l IH]; intros H; [cbn; lia|]. cbn [forallb] in H. apply andb_prop in H. destruct H as [H1 H2]. cbn [pv fold_right]. fold (pv 10 l). specialize (IH H2). unfold is_dec in H1. apply andb_prop in H1. destruct H1 as [A B]. apply Z.leb_le in A, B. unfold digit. destruct (Z.leb_spec 97 c); [lia|]. destruct (Z.leb_spec 65 c); lia.
Qed.
Lemma written_length : forall m l, l <> [] -> written m l -> 10 ^ (Z.of_nat (length l) - 1) <= m.
Proof.
  intros m l N (W1 & <- & W3). destruct (exists_last N) as (l' & c & ->). rewrite last_last in W3. rewrite forallb_app in W1. apply andb_prop in W1. destruct W1 as [W1 W2]. cbn [forallb] in W2. rewrite andb_true_r in W2. rewrite app_length, pv_app. cbn [length pv fold_right]. pose proof (pv_nonneg l' W1).
  assert (D : 1 <= digit c) by (unfold is_dec in W2; apply andb_prop in W2; destruct W2 as [A B]; apply Z.leb_le in A, B; unfold digit; destruct (Z.leb_spec 97 c); [lia|]; destruct (Z.leb_spec 65 c); lia). replace (Z.of_nat (length l' + 1) - 1) with (Z.of_nat (length l')) by lia. assert (0 < 10 ^ Z.of_nat (length l')) by (apply Z.pow_pos_nonneg; lia). nia.
Qed.
Lemma enough : forall n, 0 < n -> 2 ^ (n - 1) < 10 ^ ((10 * n) / 33 + 1).
Proof.
  intros n N. set (k := n / 33). set (r := n mod 33). assert (E : n = 33 * k + r) by (apply Z.div_mod; lia). assert (R : 0 <= r < 33) by (apply Z.mod_pos_bound; lia). assert (K : 0 <= k) by (apply Z.div_pos; lia).
  assert (Q : (10 * n) / 33 = 10 * k + (10 * r) / 33) by (rewrite E; replace (10 * (33 * k + r)) with (10 * r + (10 * k) * 33) by ring; rewrite Z.div_add by lia; lia). assert (Q0 : 0 <= (10 * r) / 33) by (apply Z.div_pos; lia).
  assert (A : 2 ^ r < 2 * 10 ^ ((10 * r) / 33 + 1)).
  { assert (T : forallb (fun j => 2 ^ (Z.of_nat j) <? 2 * 10 ^ ((10 * Z.of_nat j) / 33 + 1)) (seq 0 33) = true) by (vm_compute; reflexivity). rewrite forallb_forall in T. specialize (T (Z.to_nat r) ltac:(apply in_seq; lia)). rewrite Z2Nat.id in T by lia. apply Z.ltb_lt in T. exact T. }
  assert (B : 2 ^ (33 * k) <= 10 ^ (10 * k)). { rewrite !Z.pow_mul_r by lia. apply Z.pow_le_mono_l. split; [lia|]. vm_compute. discriminate. }
  assert (C : 2 * 2 ^ (n - 1) = 2 ^ (33 * k) * 2 ^ r) by (rewrite <- Z.pow_add_r by lia; rewrite <- Z.pow_succ_r by lia; f_equal; lia).
  rewrite Q. replace (10 * k + 10 * r / 33 + 1) with (10 * k + (10 * r / 33 + 1)) by lia. rewrite Z.pow_add_r by lia. assert (0 < 2 ^ r) by (apply Z.pow_pos_nonneg; lia). assert (0 < 2 ^ (33 * k)) by (apply Z.pow_pos_nonneg; lia). nia.
Qed.
Lemma sval_abs : forall v, wf v -> Z.abs (sval v) <= 2 ^ (bits v - 1).
Proof. intros v W. pose proof (sval_range v W) as R. unfold fits in R. lia. Qed.
Lemma wf_create : forall n, 0 < n -> wf (Create n) /\ bits (Create n) = n /\ uval (Create n) = 0.
Proof.
  intros n N. unfold Create, zeros, wf, uval. cbn [bits wds]. rewrite wval_zeros, repeat_length. split; [|auto]. split; [auto|]. split.
  - unfold Size. rewrite modmask_eq, logbits_eq. pose proof (Z.div_mod n 32 ltac:(lia)). pose proof (Z.mod_pos_bound n 32 ltac:(lia)). pose proof (Z.div_pos n 32 ltac:(lia) ltac:(lia)). unfold nz. destruct (Z.eqb_spec (n mod 32) 0); cbn [negb]; rewrite Z2Nat.id by lia.
    + apply (Z.div_unique _ _ _ 31); lia.
    + apply (Z.div_unique _ _ _ (n mod 32 - 1)); lia.
  - split; [apply word_zeros|apply pow2_pos; lia].
Qed.
Lemma base_ok : forall n, 32 <= n -> wf (setw0 (Create n) EXP10) /\ bits (setw0 (Create n) EXP10) = n /\ uval (setw0 (Create n) EXP10) = EXP10.
Proof.
  intros n N. destruct (wf_create n ltac:(lia)) as (C1 & C2 & C3). assert (E : Empty (Create n) = Create n). { unfold Empty, Create, zeros. cbn [bits wds]. rewrite repeat_length. reflexivity. }
  rewrite <- E. destruct (setw0_ok (Create n) EXP10 C1 ltac:(cbn [bits]; lia) ltac:(unfold word, EXP10; rewrite p32; lia)) as (A & B & U). split; [auto|]. split; [rewrite B; auto|auto].
Qed.
Lemma numeral_digits : forall n l, n <> 0 -> l <> [] -> written (Z.abs n) l -> numeral n (rev (l ++ (if n <? 0 then [45] else []))).
Proof.
  intros n l N L W. destruct (written_numeral _ l L W) as (c & ds & R & D & C & V). exists c, ds. split; [|auto]. rewrite rev_app_distr, R. destruct (n <? 0); reflexivity.
Qed.
Theorem to_Dec_ok : forall v, wf v -> exists s, to_Dec v = Str s /\ numeral (sval v) s.
Proof.
  intros v W. unfold to_Dec. rewrite Sign_ok by auto. set (len := 10 * bits v / 33 + 2). assert (BP : 0 < bits v) by apply W. assert (LEN : 2 <= len) by (unfold len; assert (0 <= 10 * bits v / 33) by (apply Z.div_pos; lia); lia).
  pose proof (sval_abs v W) as SA. pose proof (enough (bits v) BP) as EN. replace (10 * bits v / 33 + 1) with (len - 1) in EN by (unfold len; lia).
  assert (SG : (Z.sgn (sval v) <? 0) = (sval v <? 0)) by (destruct (Z.ltb_spec (Z.sgn (sval v)) 0), (Z.ltb_spec (sval v) 0); lia). rewrite !SG.
  assert (FIN : forall k d s, (k = if (sval v <? 0) && (d <? len) then (d + 1, s ++ [45]) else (d, s)) -> d < len -> (let '(digits, s0) := k in if digits <=? len then Str (rev s0) else Overrun) = Str (rev (s ++ (if sval v <? 0 then [45] else [])))).
  { intros k d s -> D. destruct (Z.ltb_spec d len); [|lia]. rewrite andb_true_r. destruct (sval v <? 0). destruct (Z.leb_spec (d + 1) len); [auto|lia]. rewrite app_nil_r. destruct (Z.leb_spec d len); [auto|lia]. }
  destruct (Z.ltb_spec (bits v) 4) as [B4|B4]; cbn [orb].
  - (* one digit *)
    assert (ONE : exists w, wds v = [w]). { destruct W as (_ & L & _). assert ((bits v + 31) / 32 = 1) by (symmetry; apply (Z.div_unique _ _ _ (bits v - 1)); lia). destruct (wds v) as [|w [|w' ws]]; cbn [length] in L; try lia. eauto. }
    destruct ONE as [w E]. rewrite (FIN _ 1 _ eq_refl) by lia. eexists. split; [reflexivity|]. rewrite E. cbn [nth].
    assert (UW : uval v = w) by (unfold uval; rewrite E; cbn [wval]; lia). pose proof (wf_range v W) as UR. rewrite UW in UR. assert (P : 2 ^ bits v = 2 \/ 2 ^ bits v = 4 \/ 2 ^ bits v = 8) by (assert (C : bits v = 1 \/ bits v = 2 \/ bits v = 3) by lia; destruct C as [-> |[-> | ->]]; auto).
    set (d := if sval v <? 0 then _ else w). assert (DV : d = Z.abs (sval v)).
    { unfold d. unfold sval. rewrite UW. assert (C : bits v = 1 \/ bits v = 2 \/ bits v = 3) by lia. assert (CW : In w [0;1;2;3;4;5;6;7]) by (cbn [In]; lia). clear - C CW UR. revert UR. destruct C as [-> |[-> | ->]]; intros UR; cbn [In] in CW; repeat (destruct CW as [<- |CW]; [first [vm_compute; reflexivity | exfalso; cbn in UR; lia]|]); contradiction. }
    rewrite DV. assert (AB : 0 <= Z.abs (sval v) < 10) by (assert (2 ^ (bits v - 1) <= 4) by (assert (C : bits v = 1 \/ bits v = 2 \/ bits v = 3) by lia; destruct C as [-> |[-> | ->]]; cbn; lia); lia). destruct (is_dec_mod _ AB) as (I & J & K).
    exists ((Z.abs (sval v) + 48) mod 256), []. split; [rewrite rev_app_distr; destruct (sval v <? 0); reflexivity|]. cbn [forallb]. rewrite I. split; [auto|]. split; [auto|]. unfold number. cbn [fold_left]. rewrite J. lia.
  - destruct (Z.eqb_spec (Z.sgn (sval v)) 0) as [S0|S0].
    + assert (SV : sval v = 0) by lia. rewrite SV. cbn [Z.ltb Z.compare andb]. assert (U0 : uval v = 0) by (rewrite <- (sval_mod v W), SV; apply Z.mod_0_l; lia). rewrite (first_word v W) by (rewrite U0; reflexivity). rewrite U0. destruct (Z.leb_spec 1 len); [|lia]. eexists. split; [reflexivity|]. exists 48, []. cbn. auto.
    + set (quot := if sval v <? 0 then Negate v else Copy v). assert (QU : wf quot /\ bits quot = bits v /\ uval quot = Z.abs (sval v)).
      { pose proof (abs_ok v W) as A. cbv zeta in A. rewrite norm_id, msb_sval in A by auto. exact A. }
      destruct QU as (Q1 & Q2 & Q3). set (base := setw0 (Create (bits v)) EXP10).
      assert (RES : exists o, blocks (Z.to_nat len + 1) (BITS <=? bits v) quot base 0 len [] (fun digits s => let '(digits0, s0) := if (sval v <? 0) && (digits <? len) then (digits + 1, s ++ [45]) else (digits, s) in if digits0 <=? len then Str (rev s0) else Overrun) =
         (fun digits s => let '(digits0, s0) := if (sval v <? 0) && (digits <? len) then (digits + 1, s ++ [45]) else (digits, s) in if digits0 <=? len then Str (rev s0) else Overrun) (0 + Z.of_nat (length o)) ([] ++ o) /\ o <> [] /\ written (uval quot) o).
      { change BITS with 32. assert (PL : 10 ^ (len - 1) <= 10 ^ (len - 0)) by (apply Z.pow_le_mono_r; lia). destruct (Z.leb_spec 32 (bits v)) as [B32|B32].
        - destruct (base_ok (bits v) B32) as (B1 & B2 & B3). destruct (blocks_ok (Z.to_nat len + 1) true quot base 0 len [] (fun digits s => let '(digits0, s0) := if (sval v <? 0) && (digits <? len) then (digits + 1, s ++ [45]) else (digits, s) in if digits0 <=? len then Str (rev s0) else Overrun) Q1 B1 (eq_trans B2 (eq_sym Q2)) (fun _ => B3) ltac:(discriminate) ltac:(lia) ltac:(lia) ltac:(lia)) as (o & E & O1 & O2 & _). exists o. auto.
        - destruct (blocks_last (Z.to_nat len) quot base len (fun digits s => let '(digits0, s0) := if (sval v <? 0) && (digits <? len) then (digits + 1, s ++ [45]) else (digits, s) in if digits0 <=? len then Str (rev s0) else Overrun) Q1 ltac:(rewrite Q3; assert (2 ^ (bits v - 1) <= 2 ^ 31) by (apply Z.pow_le_mono_r; lia); assert (2 ^ 31 < 2 ^ 32) by reflexivity; lia) ltac:(lia)) as (o & E & O1 & O2). exists o. auto. }
      destruct RES as (o & -> & O1 & O2). cbn beta. cbn [app]. pose proof (written_length _ _ O1 O2) as WL. rewrite Q3 in *.
      assert (OL : Z.of_nat (length o) < len). { destruct (Z.lt_ge_cases (Z.of_nat (length o)) len) as [C|C]; [auto|]. exfalso. assert (10 ^ (len - 1) <= 10 ^ (Z.of_nat (length o) - 1)) by (apply Z.pow_le_mono_r; lia). lia. }
      rewrite (FIN _ _ _ eq_refl) by lia. eexists. split; [reflexivity|]. apply numeral_digits; auto; lia.
Qed.
(** ** Numbers held in a long *)
Lemma udec_ok : forall fuel v, 0 <= v < 10 ^ Z.of_nat fuel -> (0 < fuel)%nat -> exists c ds, udec fuel v = c :: ds /\ forallb is_dec (c :: ds) = true /\ (c <> 48 \/ ds = []) /\ number 10 (c :: ds) = v /\ (v <> 0 -> c <> 48) /\
  (forall k, 0 <= k -> v < 10 ^ (k + 1) -> Z.of_nat (length ds) <= k) /\ (v <> 0 -> 10 ^ Z.of_nat (length ds) <= v).
Proof.
  induction fuel as [|fuel IH]; intros v V F; [lia|]. cbn [udec]. destruct (Z.ltb_spec v 10) as [L|L].
  - destruct (is_dec_mod v ltac:(lia)) as (I & J & K). rewrite K in I, J. replace (48 + v) with (v + 48) by lia. exists (v + 48), []. cbn [forallb]. rewrite I. split; [auto|]. split; [auto|]. split; [auto|]. split; [unfold number; cbn [fold_left]; rewrite J; lia|]. split; [lia|]. split; [cbn; lia|]. change (10 ^ Z.of_nat (length (@nil Z))) with 1. lia.
  - rewrite Nat2Z.inj_succ, Z.pow_succ_r in V by lia. assert (V' : 0 <= v / 10 < 10 ^ Z.of_nat fuel) by (split; [apply Z.div_pos; lia|apply Z.div_lt_upper_bound; lia]). assert (V1 : 1 <= v / 10) by (apply Z.div_le_lower_bound; lia).
    destruct fuel as [|fuel']; [change (10 ^ Z.of_nat 0) with 1 in V'; lia|]. destruct (IH (v / 10) V' ltac:(lia)) as (c & ds & -> & D & C & N & Z0 & LE & GE). destruct (is_dec_mod (v mod 10)) as (I & J & K); [apply Z.mod_pos_bound; lia|]. rewrite K in I, J. replace (48 + v mod 10) with (v mod 10 + 48) by lia.
    exists c, (ds ++ [v mod 10 + 48]). cbn [app]. split; [auto|]. cbn [forallb] in *. rewrite forallb_app. cbn [forallb]. rewrite I. apply andb_prop in D. destruct D as [D1 D2]. rewrite D1, D2. split; [auto|]. split; [left; apply Z0; lia|]. split; [|split; [intros _; apply Z0; lia|]].
    + unfold number in *. change (c :: ds ++ [v mod 10 + 48]) with ((c :: ds) ++ [v mod 10 + 48]). rewrite fold_left_app. cbn [fold_left] in *. rewrite N, J. pose proof (Z.div_mod v 10 ltac:(lia)). lia.
    + rewrite app_length. cbn [length]. split.
      * intros k K0 VK. assert (K1 : 1 <= k). { destruct (Z.eq_dec k 0) as [-> |]; [change (10 ^ (0 + 1)) with 10 in VK; lia|lia]. } specialize (LE (k - 1) ltac:(lia)). replace (k - 1 + 1) with k in LE by lia. rewrite Z.pow_add_r in VK by lia. change (10 ^ 1) with 10 in VK. assert (v / 10 < 10 ^ k) by (apply Z.div_lt_upper_bound; lia). specialize (LE H). lia.
      * intros _. specialize (GE ltac:(lia)). rewrite Nat2Z.inj_add. change (Z.of_nat 1) with 1. rewrite Z.pow_add_r by lia. change (10 ^ 1) with 10. pose proof (Z.div_mod v 10 ltac:(lia)). pose proof (Z.mod_pos_bound v 10 ltac:(lia)). lia.
Qed.
Lemma digit_range : forall c, is_dec c = true -> 0 <= digit c <= 9.
Proof. intros c H. unfold is_dec in H. apply andb_prop in H. destruct H as [A B]. apply Z.leb_le in A, B. unfold digit. destruct (Z.leb_spec 97 c); [lia|]. destruct (Z.leb_spec 65 c); lia. Qed.
Lemma number_bound : forall s, forallb is_dec s = true -> 0 <= number 10 s < 10 ^ Z.of_nat (length s).
Proof.
  induction s as [|c s IH] using rev_ind; intros D; [cbn; lia|]. rewrite forallb_app in D. apply andb_prop in D. destruct D as [D1 D2]. cbn [forallb] in D2. rewrite andb_true_r in D2. specialize (IH D1). pose proof (digit_range c D2). unfold number in *. rewrite fold_left_app. cbn [fold_left]. rewrite app_length, Nat2Z.inj_add, Z.pow_add_r by lia. change (10 ^ Z.of_nat (length [c])) with 10. lia.
Qed.
Lemma canon_range : forall i, canon i -> - 2 ^ 255 <= ival i < 2 ^ 255.
Proof.
  intros [l|v] C; cbn [canon ival] in *; [assert (2 ^ 31 < 2 ^ 255) by reflexivity; lia|]. destruct C as (W & B & _). pose proof (sval_range v W) as R. unfold fits in R. rewrite B in R. exact R.
Qed.
Lemma ldec_ok : forall l, - 2 ^ 63 <= l < 2 ^ 63 -> numeral l (ldec l) /\ (Z.of_nat (length (ldec l)) + 1 <= 16 <-> - 10 ^ 14 < l < 10 ^ 15).
Proof.
  intros l R. assert (P : 2 ^ 63 < 10 ^ Z.of_nat 20) by reflexivity. unfold ldec, numeral. destruct (Z.ltb_spec l 0) as [N|N].
  - destruct (udec_ok 20 (- l) ltac:(lia) ltac:(lia)) as (c & ds & E & D & C & V & _ & LE & GE). rewrite E. split; [exists c, ds; rewrite V; split; [reflexivity|]; split; [auto|]; split; [auto|lia]|]. cbn [length]. split; intros H.
    + assert (GE' := GE ltac:(lia)). split; [|assert (0 < 10 ^ 15) by reflexivity; lia]. destruct (Z.lt_ge_cases (- 10 ^ 14) l); [auto|]. exfalso. assert (Z.of_nat (length ds) <= 13) by lia. destruct (Z.le_gt_cases (10 ^ 14) (- l)); [|lia]. destruct (number_bound (c :: ds) D) as [_ NB]. rewrite V in NB. cbn [length] in NB. assert (10 ^ Z.of_nat (S (length ds)) <= 10 ^ 14) by (apply Z.pow_le_mono_r; lia). lia.
    + specialize (LE 13 ltac:(lia) ltac:(change (10 ^ (13 + 1)) with (10 ^ 14); lia)). lia.
  - destruct (udec_ok 20 l ltac:(lia) ltac:(lia)) as (c & ds & E & D & C & V & _ & LE & GE). rewrite E. split; [exists c, ds; rewrite V; split; [reflexivity|]; split; [auto|]; split; [auto|lia]|]. cbn [length]. split; intros H.
    + split; [assert (0 < 10 ^ 14) by reflexivity; lia|]. destruct (number_bound (c :: ds) D) as [_ NB]. rewrite V in NB. cbn [length] in NB. assert (10 ^ Z.of_nat (S (length ds)) <= 10 ^ 15) by (apply Z.pow_le_mono_r; lia). lia.
    + specialize (LE 14 ltac:(lia) ltac:(change (10 ^ (14 + 1)) with (10 ^ 15); lia)). lia.
Qed.
Theorem get_str_ok : forall i, canon i -> exists s, get_str i = Str s /\ numeral (ival i) s /\ reads_as s (ival i).
Proof.
  intros i C. assert (G : exists s, get_str i = Str s /\ numeral (ival i) s).
  { destruct i as [l|v]; cbn [get_str ival canon] in *; [|apply to_Dec_ok, C]. assert (2 ^ 31 < 2 ^ 63) by reflexivity. assert (2 ^ 31 < 10 ^ 14) by reflexivity. assert (10 ^ 14 < 10 ^ 15) by reflexivity. destruct (ldec_ok l ltac:(lia)) as [A B]. cbv zeta. destruct (Z.leb_spec (Z.of_nat (length (ldec l)) + 1) 16) as [Q|Q]; [eauto|]. exfalso. assert (Z.of_nat (length (ldec l)) + 1 <= 16) by (apply B; lia). lia. }
  destruct G as (s & E & NU). exists s. split; [auto|]. split; [auto|]. destruct NU as (c & ds & -> & D & NL & V). assert (R := canon_range i C). destruct (create_decimal c ds D NL) as [CD _]. rewrite V in CD. assert (P : 2 ^ 256 = 2 * 2 ^ 255) by reflexivity. assert (P0 : 0 < 2 ^ 255) by reflexivity. destruct (CD ltac:(lia)) as (j & J1 & J2 & J3).
  destruct (Z.ltb_spec (ival i) 0) as [N|N]; cbn [app].
  - cbn [reads_as]. pose proof (calc_unary scratch j NEG (- ival j) J2 ltac:(auto) eq_refl) as (k & K1 & K2 & K3). eexists j, _, _. split; [exact J1|]. split; [exact K1|]. rewrite K3, J3. unfold wrap256. rewrite Z.abs_neq by lia. clear - R N P P0. set (H := 2 ^ 255) in *. rewrite P. clearbody H. clear P.
    destruct (Z.eq_dec (ival i) (- H)) as [E|NE].
    + rewrite E. replace (- - H + H) with (0 + 1 * (2 * H)) by ring. rewrite Z.mod_add by lia. rewrite Z.mod_0_l by lia. replace (- (0 - H) + H) with (0 + 1 * (2 * H)) by ring. rewrite Z.mod_add by lia. rewrite Z.mod_0_l by lia. lia.
    + rewrite (Z.mod_small (- ival i + H)) by lia. rewrite Z.mod_small by lia. lia.
  - assert (NM : reads_as (c :: ds) (ival i) <-> exists i0, create_dec (c :: ds) = (i0, Ok) /\ ival i0 = ival i).
    { assert (c <> 45) by (cbn [forallb] in D; apply andb_prop in D; destruct D as [D _]; unfold is_dec in D; apply andb_prop in D; destruct D as [D _]; apply Z.leb_le in D; lia). unfold reads_as. destruct c as [|p|p]; try tauto. repeat (destruct p as [p|p|]; try tauto); congruence. }
    apply NM. exists j. split; [auto|]. rewrite J3, Z.abs_eq by lia. apply wrap_id. lia.
Qed.
Theorem overrun : forall l, - 2 ^ 63 <= l < 2 ^ 63 -> get_str (IL l) = Overrun <-> ~ (- 10 ^ 14 < l < 10 ^ 15).
Proof. intros l R. destruct (ldec_ok l R) as [_ B]. cbn [get_str]. cbv zeta. destruct (Z.leb_spec (Z.of_nat (length (ldec l)) + 1) 16) as [Q|Q]; [split; intros H; [discriminate H|exfalso; apply H, B, Q]|split; intros H; [intros K; apply B in K; lia|auto]]. Qed.
