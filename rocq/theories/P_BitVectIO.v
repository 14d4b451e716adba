(** Reading numbers, bitwise operations, chunks and blocks of bit vectors (C01, C03, C52). *)
From Coq Require Import ZArith List Bool Lia.
From Verif Require Import Lib LibBits M_BitVect P_BitVect.
Import ListNotations.
Open Scope Z_scope.

(** * Specification of written numbers *)
Definition underscore := 95.
(** The characters that count. *)
Definition clean (s : list Z) : list Z := filter (fun c => negb (c =? underscore)) s.
Definition is_hex (c : Z) : bool := ((48 <=? c) && (c <=? 57)) || ((65 <=? c) && (c <=? 70)) || ((97 <=? c) && (c <=? 102)).
Definition is_oct (c : Z) : bool := (48 <=? c) && (c <=? 55).
Definition is_bin (c : Z) : bool := (c =? 48) || (c =? 49).
Definition is_dec (c : Z) : bool := (48 <=? c) && (c <=? 57).
(** What a digit is worth. *)
Definition digit (c : Z) : Z := if 97 <=? c then c - 87 else if 65 <=? c then c - 55 else c - 48.
(** The value of a string of digits, most significant first. *)
Definition number (base : Z) (s : list Z) : Z := fold_left (fun a c => a * base + digit c) s 0.

(** * Digits from the right *)
Definition pv (base : Z) (r : list Z) : Z := fold_right (fun c a => digit c + base * a) 0 r.
Lemma pv_app : forall b r t, pv b (r ++ t) = pv b r + b ^ Z.of_nat (length r) * pv b t.
Proof.
  intros b r t. induction r as [|c r IH]; cbn [app pv fold_right length].
  - change (b ^ Z.of_nat 0) with 1. unfold pv. lia.
  - fold (pv b (r ++ t)) (pv b r). rewrite IH, Nat2Z.inj_succ, Z.pow_succ_r by lia. ring.
Qed.
Lemma number_pv : forall b s, number b s = pv b (rev s).
Proof.
  intros b s. unfold number. induction s as [|c s IH] using rev_ind; auto. rewrite fold_left_app, rev_app_distr. cbn [fold_left rev app pv fold_right]. rewrite IH. fold (pv b (rev s)). ring.
Qed.
Lemma clean_rev : forall s, clean (rev s) = rev (clean s).
Proof.
  induction s as [|c s IH]; auto. cbn [rev clean filter]. unfold clean in *. rewrite filter_app, IH. cbn [filter]. destruct (negb (c =? underscore)); cbn [rev]; auto. apply app_nil_r.
Qed.
Lemma clean_us : forall t, clean (95 :: t) = clean t. Proof. reflexivity. Qed.
Lemma clean_cons : forall c t, c <> 95 -> clean (c :: t) = c :: clean t.
Proof. intros c t N. unfold clean. cbn [filter]. destruct (Z.eqb_spec c underscore); [contradiction|reflexivity]. Qed.
Lemma toupper_us : forall c, toupper c = 95 -> c = 95.
Proof. intros c. unfold toupper. destruct (Z.leb_spec 97 c), (Z.leb_spec c 122); cbn [andb]; lia. Qed.
Lemma hex_digit : forall c, isxdigitc (toupper c) = is_hex c /\ (is_hex c = true -> (if 65 <=? toupper c then toupper c - 55 else toupper c - 48) = digit c /\ 0 <= digit c < 16).
Proof.
  intros c. unfold isxdigitc, isdigitc, is_hex, digit, toupper.
  destruct (Z.leb_spec 97 c), (Z.leb_spec c 122); cbn [andb];
  repeat match goal with |- context [?a <=? ?b] => destruct (Z.leb_spec a b) end; cbn [andb orb]; try lia; split; auto; intros; try discriminate; split; lia.
Qed.
Lemma word_lt : forall w k, 0 <= k <= 32 -> 0 <= w < 2 ^ k -> word w.
Proof. intros w k K R. unfold word. assert (2 ^ k <= 2 ^ 32) by (apply Z.pow_le_mono_r; lia). lia. Qed.
(** Placing a digit above what is already there *)
Lemma place : forall v d k w, 0 <= k -> 0 <= w -> k + w <= 32 -> 0 <= v < 2 ^ k -> 0 <= d < 2 ^ w ->
  Z.lor v (shl d k) = v + 2 ^ k * d /\ 0 <= v + 2 ^ k * d < 2 ^ (k + w).
Proof.
  intros v d k w K W L V D. assert (E : 2 ^ (k + w) = 2 ^ k * 2 ^ w) by (apply Z.pow_add_r; lia).
  assert (LE : 2 ^ (k + w) <= 2 ^ 32) by (apply Z.pow_le_mono_r; lia).
  rewrite shl_eq by lia. rewrite Z.mod_small by nia. split; [|nia]. rewrite (Z.mul_comm d).
  apply lor_disjoint_add. apply Z.bits_inj'. intros i I. rewrite Z.land_spec, Z.bits_0. rewrite <- (Z.add_0_l (2 ^ k * d)), testbit_add_shift by lia.
  destruct (Z.ltb_spec i k); [rewrite Z.bits_0; apply andb_false_r|]. rewrite (testbit_small k) by lia. reflexivity.
Qed.
Lemma forallb_firstn_S : forall (p : Z -> bool) m c t, forallb p (firstn (S m) (c :: t)) = p c && forallb p (firstn m t).
Proof. reflexivity. Qed.

(** ** Hexadecimal *)
Lemma hex_word_ok : forall s j value, 0 <= j <= 8 -> 0 <= value < 2 ^ (4 * j) ->
  let m := Z.to_nat (8 - j) in let d := firstn m (clean s) in
  exists v s', hex_word s (4 * j) value = (v, s', forallb is_hex d) /\ word v /\
    (forallb is_hex d = true -> v = value + 2 ^ (4 * j) * pv 16 d /\ clean s' = skipn m (clean s)).
Proof.
  induction s as [|c t IH]; intros j value J V m d.
  - subst d. cbn [clean filter]. rewrite firstn_nil, skipn_nil. exists value, []. cbn [hex_word forallb pv fold_right]. split; [auto|].
    split; [apply (word_lt _ (4 * j)); lia|]. intros _. split; [unfold pv; simpl; lia|reflexivity].
  - cbn [hex_word]. unfold BITS. destruct (Z.ltb_spec (4 * j) 32).
    + destruct (Z.eqb_spec (toupper c) 95) as [U|U].
      * apply toupper_us in U. subst c. apply (IH j value J V).
      * assert (NU : c <> 95) by (intros ->; apply U; reflexivity). destruct (hex_digit c) as [H1 H2]. rewrite H1.
        subst d. rewrite clean_cons by auto. replace m with (S (Z.to_nat (8 - (j + 1)))) by (unfold m; lia). rewrite forallb_firstn_S.
        destruct (is_hex c); cbn [andb].
        -- destruct (H2 eq_refl) as [D1 D2]. rewrite D1. destruct (place value (digit c) (4 * j) 4 ltac:(lia) ltac:(lia) ltac:(lia) V ltac:(change (2 ^ 4) with 16; lia)) as [P1 P2].
           rewrite P1. replace (4 * j + 4) with (4 * (j + 1)) in * by lia. destruct (IH (j + 1) _ ltac:(lia) P2) as (v & s' & E & W & G).
           exists v, s'. split; [exact E|]. split; [auto|]. intros F. destruct (G F) as [G1 G2]. split; [|exact G2]. rewrite G1. cbn [firstn pv fold_right].
           match goal with |- context [fold_right ?f 0 ?l] => change (fold_right f 0 l) with (pv 16 l) end.
           replace (4 * (j + 1)) with (4 * j + 4) by lia. rewrite Z.pow_add_r by lia. change (2 ^ 4) with 16. ring.
        -- eexists _, _. split; [reflexivity|]. split; [apply (word_lt _ (4 * j)); lia|discriminate].
    + subst d. assert (Em : m = 0%nat) by (unfold m; lia). rewrite Em. eexists _, _. split; [reflexivity|]. split; [apply (word_lt _ (4 * j)); lia|].
      intros _. split; [cbn [firstn pv fold_right]; lia|reflexivity].
Qed.
Lemma hex_words_false : forall n s, exists ws, hex_words n s false = (ws, false) /\ Forall word ws /\ length ws = n.
Proof.
  induction n as [|n IH]; intros s; cbn [hex_words]; [exists []; auto|]. destruct (IH s) as (ws & E & F & L). rewrite E. exists (0 :: ws). split; [auto|].
  split; [constructor; auto; unfold word; rewrite p32; lia|cbn [length]; auto].
Qed.
Lemma firstn_add_split : forall (a b : nat) (l : list Z), firstn (a + b) l = firstn a l ++ firstn b (skipn a l).
Proof.
  induction a as [|a IH]; intros b l; auto. destruct l as [|x l]; cbn [plus firstn skipn app]; [rewrite firstn_nil; auto|]. rewrite IH. auto.
Qed.
Lemma firstn_short : forall (m : nat) (l : list Z), (length (firstn m l) < m)%nat -> skipn m l = [].
Proof. intros m l H. rewrite firstn_length in H. apply skipn_all2. lia. Qed.
(** Words of [m] digits each *)
Lemma pv_words : forall b m (l : list Z) rest, (length (firstn m l) < m)%nat -> pv b (firstn rest (skipn m l)) = 0.
Proof. intros. rewrite firstn_short by auto. rewrite firstn_nil. reflexivity. Qed.
Lemma hex_words_ok : forall n s, let d := firstn (8 * n) (clean s) in
  exists ws, hex_words n s true = (ws, forallb is_hex d) /\ Forall word ws /\ length ws = n /\ (forallb is_hex d = true -> wval ws = pv 16 d).
Proof.
  induction n as [|n IH]; intros s d.
  - cbn [hex_words]. exists []. auto.
  - cbn [hex_words]. destruct (hex_word_ok s 0 0 ltac:(lia) ltac:(rewrite Z.pow_0_r; lia)) as (v & s' & E & W & G). change (4 * 0) with 0 in *. rewrite E. change (Z.to_nat (8 - 0)) with 8%nat in *.
    subst d. replace (8 * S n)%nat with (8 + 8 * n)%nat by lia. rewrite firstn_add_split, forallb_app.
    destruct (forallb is_hex (firstn 8 (clean s))) eqn:OK; cbn [andb].
    + destruct (G eq_refl) as [G1 G2]. destruct (IH s') as (ws & E' & F & L & U). rewrite E'. rewrite G2 in *. exists (v :: ws). split; [auto|].
      split; [auto|]. split; [cbn [length]; auto|]. intros H. cbn [wval]. rewrite (U H), pv_app, G1. rewrite Z.pow_0_r.
      destruct (Nat.eq_dec (length (firstn 8 (clean s))) 8) as [L8|L8].
      * rewrite L8. change (16 ^ Z.of_nat 8) with (2 ^ 32). lia.
      * assert (LE : (length (firstn 8 (clean s)) <= 8)%nat) by apply firstn_le_length. rewrite (pv_words 16 8 (clean s)) by lia. lia.
    + destruct (hex_words_false n s') as (ws & E' & F & L). rewrite E'. exists (v :: ws). split; [auto|]. split; [auto|]. split; [cbn [length]; auto|discriminate].
Qed.
(** The outcome of reading digits of [k] bits into a vector of [n] bits: the last
    [cap] characters that are not underscores are looked at; all valid digits: accepted, with
    their value modulo 2^n; otherwise rejected. *)
Definition reads (base : Z) (valid : Z -> bool) (cap : nat) (n : Z) (s : list Z) (res : bv * err) : Prop :=
  let d := firstn cap (rev (clean s)) in
  wf (fst res) /\ bits (fst res) = n /\
  (forallb valid d = true -> snd res = Ok /\ uval (fst res) = number base (rev d) mod 2 ^ n) /\
  (forallb valid d = false -> snd res = Pars).
Lemma reads_intro : forall base valid cap x s ws, wf x -> Forall word ws -> length ws = length (wds x) ->
  let d := firstn cap (rev (clean s)) in
  (forallb valid d = true -> wval ws mod 2 ^ bits x = pv base d mod 2 ^ bits x) ->
  reads base valid cap (bits x) s (BV (bits x) (mlast (mask_ (bits x)) ws), if forallb valid d then Ok else Pars).
Proof.
  intros base valid cap x s ws (N & L & _ & _) F Lw d V. destruct (wf_mlast (bits x) ws N ltac:(lia) F) as [WF U]. unfold reads. cbn [fst snd]. fold d.
  split; [auto|]. split; [auto|]. rewrite number_pv, rev_involutive. destruct (forallb valid d) eqn:OK; split; auto; try discriminate.
  intros _. split; auto. rewrite U. auto.
Qed.
Lemma from_Hex_ok : forall x s, wf x -> reads 16 is_hex (8 * length (wds x)) (bits x) s (from_Hex x (rev s)).
Proof.
  intros x s W. unfold from_Hex. destruct (hex_words_ok (length (wds x)) (rev s)) as (ws & E & F & L & V). rewrite clean_rev in *. rewrite E.
  apply reads_intro; auto. intros H. rewrite (V H). reflexivity.
Qed.

(** ** Binary *)
Lemma bin_word_ok : forall s j value, 0 <= j <= 32 -> 0 <= value < 2 ^ j ->
  let m := Z.to_nat (32 - j) in let d := firstn m (clean s) in
  exists v s', bin_word s j value = (v, s', forallb is_bin d) /\ word v /\
    (forallb is_bin d = true -> v = value + 2 ^ j * pv 2 d /\ clean s' = skipn m (clean s)).
Proof.
  induction s as [|c t IH]; intros j value J V m d.
  - subst d. cbn [clean filter]. rewrite firstn_nil, skipn_nil. exists value, []. cbn [bin_word forallb pv fold_right]. split; [auto|].
    split; [apply (word_lt _ j); lia|]. intros _. split; [unfold pv; simpl; lia|reflexivity].
  - cbn [bin_word]. unfold BITS. destruct (Z.ltb_spec j 32).
    + assert (STEP : forall b, c = 48 + b -> b = 0 \/ b = 1 -> 0 <= value + 2 ^ j * b < 2 ^ (j + 1) -> exists v s', bin_word t (j + 1) (value + 2 ^ j * b) = (v, s', forallb is_bin d) /\ word v /\
          (forallb is_bin d = true -> v = value + 2 ^ j * pv 2 d /\ clean s' = skipn m (clean (c :: t)))).
      { intros b Ec Hb R. subst d. rewrite clean_cons by lia. replace m with (S (Z.to_nat (32 - (j + 1)))) by (unfold m; lia). rewrite forallb_firstn_S.
        assert (IB : is_bin c = true) by (subst c; destruct Hb; subst b; reflexivity). assert (DG : digit c = b) by (subst c; destruct Hb; subst b; reflexivity). rewrite IB. cbn [andb].
        destruct (IH (j + 1) _ ltac:(lia) R) as (v & s' & E & W & G). exists v, s'. split; [exact E|]. split; [auto|]. intros F. destruct (G F) as [G1 G2]. split; [|exact G2]. rewrite G1. cbn [firstn pv fold_right].
        match goal with |- context [fold_right ?f 0 ?l] => change (fold_right f 0 l) with (pv 2 l) end. rewrite DG, Z.pow_add_r by lia. change (2 ^ 1) with 2. ring. }
      assert (PW : 2 ^ (j + 1) = 2 * 2 ^ j) by (rewrite Z.pow_add_r by lia; change (2 ^ 1) with 2; ring).
      destruct (Z.eqb_spec c 48) as [C0|C0]; [|destruct (Z.eqb_spec c 49) as [C1|C1]; [|destruct (Z.eqb_spec c 95) as [C2|C2]]].
      * assert (EV : bin_word t (j + 1) value = bin_word t (j + 1) (value + 2 ^ j * 0)) by (f_equal; lia). rewrite EV. apply STEP; lia.
      * destruct (place value LSB j 1 ltac:(lia) ltac:(lia) ltac:(lia) V ltac:(unfold LSB; simpl; lia)) as [P1 P2]. rewrite P1. unfold LSB in *. apply STEP; lia.
      * subst c. apply (IH j value J V).
      * subst d. rewrite clean_cons by auto. replace m with (S (Z.to_nat (32 - (j + 1)))) by (unfold m; lia). rewrite forallb_firstn_S.
        assert (IB : is_bin c = false) by (unfold is_bin; destruct (Z.eqb_spec c 48), (Z.eqb_spec c 49); auto; contradiction). rewrite IB. cbn [andb].
        eexists _, _. split; [reflexivity|]. split; [apply (word_lt _ j); lia|discriminate].
    + subst d. assert (Em : m = 0%nat) by (unfold m; lia). rewrite Em. eexists _, _. split; [reflexivity|]. split; [apply (word_lt _ j); lia|].
      intros _. split; [cbn [firstn pv fold_right]; lia|reflexivity].
Qed.
Lemma bin_words_false : forall n s, exists ws, bin_words n s false = (ws, false) /\ Forall word ws /\ length ws = n.
Proof.
  induction n as [|n IH]; intros s; cbn [bin_words]; [exists []; auto|]. destruct (IH s) as (ws & E & F & L). rewrite E. exists (0 :: ws). split; [auto|].
  split; [constructor; auto; unfold word; rewrite p32; lia|cbn [length]; auto].
Qed.
Lemma bin_words_ok : forall n s, let d := firstn (32 * n) (clean s) in
  exists ws, bin_words n s true = (ws, forallb is_bin d) /\ Forall word ws /\ length ws = n /\ (forallb is_bin d = true -> wval ws = pv 2 d).
Proof.
  induction n as [|n IH]; intros s d.
  - cbn [bin_words]. exists []. auto.
  - cbn [bin_words]. destruct (bin_word_ok s 0 0 ltac:(lia) ltac:(rewrite Z.pow_0_r; lia)) as (v & s' & E & W & G). rewrite E. change (Z.to_nat (32 - 0)) with 32%nat in *.
    subst d. replace (32 * S n)%nat with (32 + 32 * n)%nat by lia. rewrite firstn_add_split, forallb_app.
    destruct (forallb is_bin (firstn 32 (clean s))) eqn:OK; cbn [andb].
    + destruct (G eq_refl) as [G1 G2]. destruct (IH s') as (ws & E' & F & L & U). rewrite E'. rewrite G2 in *. exists (v :: ws). split; [auto|].
      split; [auto|]. split; [cbn [length]; auto|]. intros H. cbn [wval]. rewrite (U H), pv_app, G1. rewrite Z.pow_0_r.
      destruct (Nat.eq_dec (length (firstn 32 (clean s))) 32) as [L8|L8].
      * rewrite L8. change (2 ^ Z.of_nat 32) with (2 ^ 32). lia.
      * assert (LE : (length (firstn 32 (clean s)) <= 32)%nat) by apply firstn_le_length. rewrite (pv_words 2 32 (clean s)) by lia. lia.
    + destruct (bin_words_false n s') as (ws & E' & F & L). rewrite E'. exists (v :: ws). split; [auto|]. split; [auto|]. split; [cbn [length]; auto|discriminate].
Qed.
Lemma from_Bin_ok : forall x s, wf x -> reads 2 is_bin (32 * length (wds x)) (bits x) s (from_Bin x (rev s)).
Proof.
  intros x s W. unfold from_Bin. destruct (bin_words_ok (length (wds x)) (rev s)) as (ws & E & F & L & V). rewrite clean_rev in *. rewrite E.
  apply reads_intro; auto. intros H. rewrite (V H). reflexivity.
Qed.

(** ** Octal: three bits a digit do not fill a word exactly *)
Lemma oct_full : forall s count v d, 32 <= count -> oct_word s count v d = (v, s, count, d, true).
Proof. intros s count v d C. destruct s; cbn [oct_word]; auto. unfold BITS. destruct (Z.ltb_spec count 32); [lia|auto]. Qed.
Lemma oct_digit : forall c, isdigitc c && negb (c =? 56) && negb (c =? 57) = is_oct c /\ (is_oct c = true -> c - 48 = digit c /\ 0 <= digit c < 8).
Proof.
  intros c. unfold isdigitc, is_oct, digit. destruct (Z.eqb_spec c 56), (Z.eqb_spec c 57), (Z.leb_spec 48 c), (Z.leb_spec c 57), (Z.leb_spec c 55); cbn [andb negb]; try lia; split; auto; intros; try discriminate.
  destruct (Z.leb_spec 97 c), (Z.leb_spec 65 c); lia.
Qed.
(** A digit placed at the top of a word may spill into the next. *)
Lemma spill : forall v d k, 29 <= k < 32 -> 0 <= v < 2 ^ k -> 0 <= d < 8 ->
  word (Z.lor v (shl d k)) /\ v + 2 ^ k * d = Z.lor v (shl d k) + 2 ^ 32 * (d / 2 ^ (32 - k)) /\ 0 <= d / 2 ^ (32 - k) < 2 ^ (k - 29).
Proof.
  intros v d k K V D. pose proof (Z.mod_pos_bound d (2 ^ (32 - k)) ltac:(apply pow2_pos; lia)) as RM. pose proof (Z.div_mod d (2 ^ (32 - k)) ltac:(apply Z.pow_nonzero; lia)) as DM.
  assert (EP : 2 ^ 32 = 2 ^ k * 2 ^ (32 - k)) by (rewrite <- Z.pow_add_r by lia; f_equal; lia).
  assert (E8 : 8 = 2 ^ (32 - k) * 2 ^ (k - 29)) by (rewrite <- Z.pow_add_r by lia; replace (32 - k + (k - 29)) with 3 by lia; reflexivity).
  assert (ES : shl d k = shl (d mod 2 ^ (32 - k)) k).
  { rewrite !shl_eq by lia. rewrite DM at 1. rewrite EP. replace ((2 ^ (32 - k) * (d / 2 ^ (32 - k)) + d mod 2 ^ (32 - k)) * 2 ^ k) with (d mod 2 ^ (32 - k) * 2 ^ k + d / 2 ^ (32 - k) * (2 ^ k * 2 ^ (32 - k))) by ring.
    apply Z.mod_add. rewrite <- EP. lia. }
  rewrite ES. destruct (place v (d mod 2 ^ (32 - k)) k (32 - k) ltac:(lia) ltac:(lia) ltac:(lia) V RM) as [P1 P2]. rewrite P1. replace (k + (32 - k)) with 32 in P2 by lia.
  split; [exact P2|]. split; [rewrite EP; nia|]. split; [apply Z.div_pos; [lia|apply pow2_pos; lia]|]. apply Z.div_lt_upper_bound; [apply pow2_pos; lia|lia].
Qed.
Lemma oct_word_ok : forall s count value dg, 0 <= count < 32 -> 0 <= value < 2 ^ count ->
  let m := Z.to_nat ((34 - count) / 3) in let d := firstn m (clean s) in
  exists v s' count' dg', oct_word s count value dg = (v, s', count', dg', forallb is_oct d) /\ word v /\
    (forallb is_oct d = true -> clean s' = skipn m (clean s) /\
      ((32 <= count' <= 34 /\ (count' - 2) mod 3 = (count + 1) mod 3 /\ let sp := (if 0 <? count' - 32 then shr dg' (3 - (count' - 32)) else 0) in
         0 <= sp < 2 ^ (count' - 32) /\ value + 2 ^ count * pv 8 (clean s) = v + 2 ^ 32 * (sp + 2 ^ (count' - 32) * pv 8 (clean s')) /\
         value + 2 ^ count * pv 8 d = v + 2 ^ 32 * sp) \/
       (count' < 32 /\ s' = [] /\ value + 2 ^ count * pv 8 (clean s) = v /\ value + 2 ^ count * pv 8 d = v))).
Proof.
  induction s as [|c t IH]; intros count value dg C V m d.
  - subst d. cbn [clean filter]. rewrite firstn_nil, skipn_nil. cbn [oct_word forallb pv fold_right]. eexists _, _, _, _. split; [reflexivity|].
    split; [apply (word_lt _ count); lia|]. intros _. split; [reflexivity|]. right. unfold pv. cbn [fold_right]. conj; auto; lia.
  - cbn [oct_word]. unfold BITS. destruct (Z.ltb_spec count 32); [|lia]. destruct (Z.eqb_spec c 95) as [->|NU].
    + apply (IH count value 95 C V).
    + destruct (oct_digit c) as [O1 O2]. rewrite O1. subst d. rewrite clean_cons by auto.
      assert (Em : m = S (Z.to_nat ((34 - (count + 3)) / 3))).
      { unfold m. replace (34 - count) with (34 - (count + 3) + 1 * 3) by lia. rewrite Z.div_add by lia. pose proof (Z.div_pos (34 - (count + 3)) 3). rewrite Z2Nat.inj_add; lia. }
      rewrite Em, forallb_firstn_S. destruct (is_oct c); cbn [andb].
      * destruct (O2 eq_refl) as [D1 D2]. rewrite D1.
        assert (PVC : forall l, pv 8 (c :: l) = digit c + 8 * pv 8 l) by reflexivity.
        destruct (Z.ltb_spec (count + 3) 32).
        -- destruct (place value (digit c) count 3 ltac:(lia) ltac:(lia) ltac:(lia) V ltac:(change (2 ^ 3) with 8; lia)) as [P1 P2]. rewrite P1.
           destruct (IH (count + 3) _ (digit c) ltac:(lia) P2) as (v & s' & count' & dg' & E & W & G).
           exists v, s', count', dg'. split; [exact E|]. split; [auto|]. intros F. destruct (G F) as [G1 G2]. split; [exact G1|].
           cbn [firstn]. rewrite !PVC.
           assert (EQ : forall p, value + 2 ^ count * (digit c + 8 * p) = value + 2 ^ count * digit c + 2 ^ (count + 3) * p) by (intros; rewrite Z.pow_add_r by lia; change (2 ^ 3) with 8; ring).
           rewrite !EQ. replace ((count + 1) mod 3) with ((count + 3 + 1) mod 3) by (replace (count + 3 + 1) with (count + 1 + 1 * 3) by lia; apply Z.mod_add; lia). exact G2.
        -- rewrite oct_full by lia. destruct (spill value (digit c) count ltac:(lia) V D2) as (S1 & S2 & S3).
           eexists _, _, _, _. assert (Z0 : Z.to_nat ((34 - (count + 3)) / 3) = 0%nat) by (rewrite Z.div_small by lia; reflexivity). rewrite Z0. split; [reflexivity|]. split; [auto|]. intros _. split; [reflexivity|]. left.
           split; [lia|]. split; [f_equal; lia|]. cbv zeta.
           assert (SP : (if 0 <? count + 3 - 32 then shr (digit c) (3 - (count + 3 - 32)) else 0) = digit c / 2 ^ (32 - count)).
           { replace (3 - (count + 3 - 32)) with (32 - count) by lia. destruct (Z.ltb_spec 0 (count + 3 - 32)); [apply shr_eq; lia|].
             assert (count = 29) by lia. subst count. symmetry. apply Z.div_small. simpl. lia. }
           rewrite SP. cbn [firstn]. rewrite !PVC. change (pv 8 []) with 0. replace (count + 3 - 32) with (count - 29) by lia. split; [exact S3|].
           assert (E8 : 2 ^ 32 * 2 ^ (count - 29) = 8 * 2 ^ count) by (replace 8 with (2 ^ 3) by reflexivity; rewrite <- !Z.pow_add_r by lia; f_equal; lia).
           split; [|lia]. rewrite Z.mul_add_distr_l. 
           replace (2 ^ 32 * (digit c / 2 ^ (32 - count) + 2 ^ (count - 29) * pv 8 (clean t))) with (2 ^ 32 * (digit c / 2 ^ (32 - count)) + 2 ^ 32 * 2 ^ (count - 29) * pv 8 (clean t)) by ring.
           rewrite E8. lia.
      * eexists _, _, _, _. split; [reflexivity|]. split; [apply (word_lt _ count); lia|discriminate].
Qed.
Definition chr (c : Z) : Prop := 0 <= c < 256.
Lemma oct_word_chr : forall s count value dg v s' count' dg' ok, oct_word s count value dg = (v, s', count', dg', ok) ->
  Forall chr s -> chr dg -> count < 32 -> chr dg' /\ count' <= 34 /\ Forall chr s'.
Proof.
  induction s as [|c t IH]; intros count value dg v s' count' dg' ok E F D C; cbn [oct_word] in E.
  - injection E as <- <- <- <- <-. split; [auto|]. split; [lia|auto].
  - inversion F as [|? ? Fc Ft]; subst. unfold BITS in E. destruct (Z.ltb_spec count 32); [|lia]. destruct (c =? 95); [eapply IH; eauto|].
    destruct (oct_digit c) as [O1 O2]. rewrite O1 in E. destruct (is_oct c).
    + destruct (O2 eq_refl) as [D1 D2]. destruct (Z.ltb_spec (count + 3) 32).
      * eapply IH; eauto. unfold chr. lia.
      * rewrite oct_full in E by lia. injection E as <- <- <- <- <-. unfold chr in *. split; [lia|]. split; [lia|auto].
    + injection E as <- <- <- <- <-. split; [auto|]. split; [lia|auto].
Qed.
Lemma shr_chr : forall d k, chr d -> 0 <= k -> word (shr d k).
Proof.
  intros d k D K. unfold chr in D. rewrite shr_eq by auto. unfold word. rewrite p32. pose proof (pow2_pos k K). split; [apply Z.div_pos; lia|]. apply Z.div_lt_upper_bound; nia.
Qed.
Lemma oct_words_false : forall n s cf vf d, word vf -> chr d -> cf < 32 -> exists ws, oct_words n s cf vf d false = (ws, false) /\ Forall word ws /\ length ws = n.
Proof.
  induction n as [|n IH]; intros s cf vf d W D C; cbn [oct_words]; [exists []; auto|]. unfold BITS. destruct (Z.ltb_spec 0 (cf - 32)); [lia|].
  destruct (IH s (cf - 32) 0 d ltac:(unfold word; rewrite p32; lia) D ltac:(lia)) as (ws & E & F & L). rewrite E. exists (vf :: ws). split; [auto|]. split; [auto|cbn [length]; auto].
Qed.
Lemma oct_words_done : forall n cf d, cf < 0 -> exists ws, oct_words n [] cf 0 d true = (ws, true) /\ Forall word ws /\ length ws = n /\ wval ws = 0.
Proof.
  induction n as [|n IH]; intros cf d C; cbn [oct_words oct_word]; [exists []; auto|]. unfold BITS. destruct (Z.ltb_spec 0 (cf - 32)); [lia|].
  destruct (IH (cf - 32) d ltac:(lia)) as (ws & E & F & L & V). rewrite E. exists (0 :: ws). split; [auto|]. split; [constructor; auto; unfold word; rewrite p32; lia|]. split; [cbn [length]; auto|]. cbn [wval]. lia.
Qed.
Lemma oct_words_ok : forall n s cf vf dg, 0 <= cf <= 2 -> 0 <= vf < 2 ^ cf -> Forall chr s -> chr dg ->
  let d := firstn (Z.to_nat ((32 * Z.of_nat n - cf + 2) / 3)) (clean s) in
  exists ws, oct_words n s cf vf dg true = (ws, forallb is_oct d) /\ Forall word ws /\ length ws = n /\
    (forallb is_oct d = true -> wval ws = (vf + 2 ^ cf * pv 8 (clean s)) mod 2 ^ (32 * Z.of_nat n)).
Proof.
  induction n as [|n IH]; intros s cf vf dg C V F D d.
  - subst d. change (32 * Z.of_nat 0) with 0. assert (E0 : (0 - cf + 2) / 3 = 0) by (apply Z.div_small; lia). rewrite E0. cbn [Z.to_nat firstn forallb]. exists []. rewrite Z.pow_0_r, Z.mod_1_r. auto.
  - cbn [oct_words]. destruct (oct_word_ok s cf vf dg ltac:(lia) V) as (v & s' & count' & dg' & E & W & G). rewrite E.
    set (m := Z.to_nat ((34 - cf) / 3)) in *. destruct (oct_word_chr _ _ _ _ _ _ _ _ _ E F D ltac:(lia)) as (D' & C' & F').
    unfold BITS. set (sp := if 0 <? count' - 32 then shr dg' (3 - (count' - 32)) else 0) in *.
    assert (Wsp : word sp) by (unfold sp; destruct (Z.ltb_spec 0 (count' - 32)); [apply shr_chr; auto; lia|unfold word; rewrite p32; lia]).
    assert (DV : (34 - cf) / 3 = if cf =? 2 then 10 else 11) by (assert (cf = 0 \/ cf = 1 \/ cf = 2) as [-> | [-> | ->]] by lia; reflexivity).
    assert (Em : Z.of_nat m = (34 - cf) / 3) by (unfold m; rewrite Z2Nat.id; [auto|rewrite DV; destruct (cf =? 2); lia]).
    set (K' := Z.to_nat ((32 * Z.of_nat n - (cf + 3 * Z.of_nat m - 32) + 2) / 3)).
    assert (R3 : 0 <= cf + 3 * Z.of_nat m - 32 <= 2) by (rewrite Em, DV; destruct (Z.eqb_spec cf 2); lia).
    assert (EK : Z.to_nat ((32 * Z.of_nat (S n) - cf + 2) / 3) = (m + K')%nat).
    { unfold K'. replace (32 * Z.of_nat (S n) - cf + 2) with (32 * Z.of_nat n - (cf + 3 * Z.of_nat m - 32) + 2 + Z.of_nat m * 3) by lia. rewrite Z.div_add by lia.
      pose proof (Z.div_pos (32 * Z.of_nat n - (cf + 3 * Z.of_nat m - 32) + 2) 3 ltac:(lia) ltac:(lia)). lia. }
    subst d. rewrite EK, firstn_add_split, forallb_app.
    destruct (forallb is_oct (firstn m (clean s))) eqn:OK; cbn [andb].
    + destruct (G eq_refl) as [G1 [(R & MD & SP & GV & _)|(R & GS & GV & _)]].
      * cbv zeta in SP, GV.
        assert (EC : count' = cf + 3 * Z.of_nat m).
        { replace (count' - 2) with (count' + 1 + (-1) * 3) in MD by lia. rewrite Z.mod_add in MD by lia.
          assert (cf = 0 \/ cf = 1 \/ cf = 2) as [-> | [-> | ->]] by lia; assert (count' = 32 \/ count' = 33 \/ count' = 34) as [-> | [-> | ->]] by lia; rewrite Em; vm_compute in MD |- *; congruence. }
        destruct (IH s' (count' - 32) sp dg' ltac:(lia) SP F' D') as (ws & E' & Fw & L & U). rewrite E'. rewrite G1 in *.
        replace (32 * Z.of_nat n - (count' - 32) + 2) with (32 * Z.of_nat n - (cf + 3 * Z.of_nat m - 32) + 2) in * by lia. fold K' in U |- *.
        exists (v :: ws). split; [auto|]. split; [auto|]. split; [cbn [length]; auto|]. intros H. cbn [wval]. rewrite (U H), GV, pow32S.
        set (q := sp + 2 ^ (count' - 32) * pv 8 (skipn m (clean s))) in *. set (A := 2 ^ (32 * Z.of_nat n)). assert (0 < A) by (apply pow2_pos; lia).
        pose proof (Z.mod_pos_bound q A ltac:(lia)). pose proof (Z.div_mod q A ltac:(lia)). unfold word in W. apply (Z.mod_unique _ _ (q / A)); [left; nia|]. nia.
      * assert (Es : sp = 0) by (unfold sp; destruct (Z.ltb_spec 0 (count' - 32)); [lia|auto]). rewrite Es. subst s'. rewrite <- G1. cbn [clean filter]. rewrite firstn_nil. cbn [forallb].
        destruct (oct_words_done n (count' - 32) dg' ltac:(lia)) as (ws & E' & Fw & L & U). rewrite E'. exists (v :: ws). split; [auto|]. split; [auto|]. split; [cbn [length]; auto|].
        intros _. cbn [wval]. rewrite U, GV, pow32S. rewrite Z.mul_0_r, Z.add_0_r. symmetry. apply Z.mod_small. unfold word in W. pose proof (pow2_pos (32 * Z.of_nat n) ltac:(lia)). nia.
    + destruct (oct_words_false n s' (count' - 32) sp dg' Wsp D' ltac:(lia)) as (ws & E' & Fw & L). rewrite E'. exists (v :: ws). split; [auto|]. split; [auto|]. split; [cbn [length]; auto|discriminate].
Qed.
(** Digits from the [cap]'th on do not matter modulo 2^n. *)
Lemma pv_firstn_mod : forall w cap l n, 0 <= w -> 0 <= n -> n <= w * Z.of_nat cap -> pv (2 ^ w) l mod 2 ^ n = pv (2 ^ w) (firstn cap l) mod 2 ^ n.
Proof.
  intros w cap l n W N L. rewrite <- (firstn_skipn cap l) at 1. rewrite pv_app. destruct (Nat.le_gt_cases cap (length l)).
  - rewrite firstn_length_le by auto. rewrite <- Z.pow_mul_r by lia. replace (w * Z.of_nat cap) with (n + (w * Z.of_nat cap - n)) by lia. rewrite Z.pow_add_r by lia.
    rewrite <- Z.mul_assoc, Z.mul_comm with (n := 2 ^ n), Z.mod_add by (apply Z.pow_nonzero; lia). reflexivity.
  - rewrite skipn_all2 by lia. unfold pv at 2. cbn [fold_right]. rewrite Z.mul_0_r, Z.add_0_r. reflexivity.
Qed.
Definition oct_cap (size : nat) : nat := Z.to_nat ((32 * Z.of_nat size + 2) / 3).
Lemma from_Oct_ok : forall x s, wf x -> Forall chr s -> reads 8 is_oct (oct_cap (length (wds x))) (bits x) s (from_Oct x (rev s)).
Proof.
  intros x s W F. unfold from_Oct. destruct (oct_words_ok (length (wds x)) (rev s) 0 0 0 ltac:(lia) ltac:(rewrite Z.pow_0_r; lia) ltac:(apply Forall_rev; auto) ltac:(unfold chr; lia)) as (ws & E & Fw & L & V).
  rewrite clean_rev in *. rewrite Z.sub_0_r in *. fold (oct_cap (length (wds x))) in *. rewrite E. assert (W0 := W). destruct W0 as (N & Lx & _ & _).
  apply reads_intro; auto. intros H. rewrite (V H). rewrite Z.pow_0_r, Z.add_0_l, Z.mul_1_l.
  destruct (full_pow _ _ N Lx) as (e & Pe & EE). rewrite EE. rewrite mod_mod_mul by (auto; apply pow2_pos; lia).
  change 8 with (2 ^ 3). apply pv_firstn_mod; [lia|lia|]. 
  assert (n32 : bits x <= 32 * Z.of_nat (length (wds x))) by (rewrite Lx; pose proof (Z.div_mod (bits x + 31) 32 ltac:(lia)); pose proof (Z.mod_pos_bound (bits x + 31) 32 ltac:(lia)); lia).
  unfold oct_cap. pose proof (Z.div_mod (32 * Z.of_nat (length (wds x)) + 2) 3 ltac:(lia)). pose proof (Z.mod_pos_bound (32 * Z.of_nat (length (wds x)) + 2) 3 ltac:(lia)). lia.
Qed.
(** All characters valid: the value of the whole string. *)
Lemma reads_all : forall w valid cap n s res, 0 < w -> 0 < n -> n <= w * Z.of_nat cap -> reads (2 ^ w) valid cap n s res -> forallb valid (clean s) = true ->
  snd res = Ok /\ uval (fst res) = number (2 ^ w) (clean s) mod 2 ^ n.
Proof.
  intros w valid cap n s res W N C R V. destruct R as (_ & _ & R1 & _).
  assert (VV : forallb valid (firstn cap (rev (clean s))) = true).
  { apply forallb_forall. intros c Hc. rewrite forallb_forall in V. apply V. rewrite in_rev. rewrite <- (firstn_skipn cap (rev (clean s))). apply in_or_app. auto. }
  destruct (R1 VV) as [A B]. split; auto. rewrite B, number_pv, rev_involutive, number_pv. symmetry. apply pv_firstn_mod; lia.
Qed.

(** ** Decimal *)
Lemma dec_digit : forall c, is_dec c = true -> c - 48 = digit c /\ 0 <= digit c < 10.
Proof.
  intros c. unfold is_dec, digit. destruct (Z.leb_spec 48 c), (Z.leb_spec c 57); cbn [andb]; intros; try discriminate.
  destruct (Z.leb_spec 97 c), (Z.leb_spec 65 c); lia.
Qed.
Lemma pv_cons : forall b c l, pv b (c :: l) = digit c + b * pv b l. Proof. reflexivity. Qed.
Lemma pv_dec_range : forall l, forallb is_dec l = true -> 0 <= pv 10 l < 10 ^ Z.of_nat (length l).
Proof.
  induction l as [|c l IH]; intros F.
  - unfold pv. cbn [fold_right length]. change (10 ^ Z.of_nat 0) with 1. lia.
  - cbn [forallb] in F. apply andb_true_iff in F. destruct F as [Fc Fl]. specialize (IH Fl). destruct (dec_digit c Fc) as [_ D]. rewrite pv_cons. cbn [length]. rewrite Nat2Z.inj_succ, Z.pow_succ_r by lia. lia.
Qed.
Lemma dec_block_ok : forall s n i accu, 0 <= i -> i + Z.of_nat n = 9 -> 0 <= accu < 10 ^ i -> let d := firstn n s in
  dec_block s n accu (10 ^ i) = if forallb is_dec d then Some (accu + 10 ^ i * pv 10 d, skipn n s) else None.
Proof.
  induction s as [|c t IH]; intros n i accu I N A d.
  - subst d. rewrite firstn_nil, skipn_nil. cbn [forallb]. change (pv 10 []) with 0. destruct n; cbn [dec_block]; do 2 f_equal; lia.
  - destruct n as [|n].
    + subst d. cbn [dec_block firstn forallb skipn]. change (pv 10 []) with 0. do 2 f_equal. lia.
    + subst d. cbn [dec_block firstn forallb skipn]. change (isdigitc c) with (is_dec c). destruct (is_dec c) eqn:DC; [|reflexivity]. cbn [andb].
      destruct (dec_digit c DC) as [D1 D2]. rewrite D1.
      assert (P1 : 0 < 10 ^ i) by (apply Z.pow_pos_nonneg; lia). assert (P2 : 10 ^ (i + 1) = 10 * 10 ^ i) by (rewrite Z.pow_add_r by lia; change (10 ^ 1) with 10; ring).
      assert (P3 : 10 ^ (i + 1) <= 10 ^ 9) by (apply Z.pow_le_mono_r; lia). change (10 ^ 9) with 1000000000 in P3.
      rewrite (u32_small (digit c * 10 ^ i)) by (unfold w32; nia). rewrite (u32_small (accu + digit c * 10 ^ i)) by (unfold w32; nia).
      rewrite (u32_small (10 ^ i * 10)) by (unfold w32; lia). replace (10 ^ i * 10) with (10 ^ (i + 1)) by lia.
      rewrite IH by (try lia; nia). destruct (forallb is_dec (firstn n t)); [|reflexivity]. rewrite pv_cons. do 2 f_equal. rewrite P2. ring.
Qed.
Lemma setw0_ok : forall x w, wf x -> 32 <= bits x -> word w -> wf (setw0 (Empty x) w) /\ bits (setw0 (Empty x) w) = bits x /\ uval (setw0 (Empty x) w) = w.
Proof.
  intros x w W B Ww. destruct (Empty_ok x W) as ((N & L & F & _) & _ & U). unfold setw0. cbn [bits] in *.
  change (bits (Empty x)) with (bits x) in *. destruct (setnth_word (wds (Empty x)) 0 w F Ww) as [F' L'].
  assert (V : uval (BV (bits x) (setnth 0 w (wds (Empty x)))) = w).
  { unfold uval. cbn [wds]. rewrite wval_setnth.
    - fold (uval (Empty x)). rewrite U. change (2 ^ (32 * Z.of_nat 0)) with 1. assert (NZ : nth 0 (wds (Empty x)) 0 = 0) by (unfold Empty; cbn [wds]; destruct (wds x); reflexivity). rewrite NZ. lia.
    - assert (1 <= (bits x + 31) / 32) by (apply Z.div_le_lower_bound; lia). lia. }
  split; [|auto]. unfold wf. rewrite V. cbn [bits wds]. rewrite L'. conj; auto. unfold word in Ww. assert (2 ^ 32 <= 2 ^ bits x) by (apply Z.pow_le_mono_r; lia). lia.
Qed.
Lemma dec_loop_ok : forall f s x rank R n, (length s < f)%nat -> s <> [] -> wf x -> bits x = n -> 32 <= n -> forallb is_dec s = true ->
  (rank = None /\ R = 1 \/ exists r, rank = Some r /\ wf r /\ bits r = n /\ uval r = R) -> 0 < R < 2 ^ n -> uval x < R ->
  let top := R * 10 ^ (9 * ((Z.of_nat (length s) - 1) / 9)) in let V := uval x + R * pv 10 s in
  exists x' e, dec_loop f s x rank = (x', e) /\ wf x' /\ bits x' = n /\
    (top < 2 ^ n -> V < 2 ^ n -> e = Ok /\ uval x' = V) /\ (2 ^ n <= top \/ 2 ^ n <= V -> e = Ovfl).
Proof.
  induction f as [|f IH]; intros s x rank R n Lf NE Wx Bx N F RK RR RX top V; [lia|].
  cbn [dec_loop]. destruct s as [|c0 t0]; [contradiction|]. remember (c0 :: t0) as s.
  change (Z.to_nat LOG10) with 9%nat. change 1 with (10 ^ 0) at 1. rewrite dec_block_ok by (simpl; lia). rewrite Z.pow_0_r, Z.add_0_l, Z.mul_1_l.
  set (d := firstn 9 s) in *. set (s' := skipn 9 s) in *. assert (Es : s = d ++ s') by (symmetry; apply firstn_skipn).
  assert (FD : forallb is_dec d = true /\ forallb is_dec s' = true) by (rewrite Es, forallb_app in F; apply andb_true_iff in F; auto). destruct FD as [Fd Fs'].
  rewrite Fd. cbv iota beta. set (a := pv 10 d). pose proof (pv_dec_range d Fd) as Ra. pose proof (pv_dec_range s' Fs') as Rs. fold a in Ra.
  assert (Ld : (length d <= 9)%nat) by (unfold d; apply firstn_le_length).
  assert (La : a < 10 ^ 9) by (apply Z.lt_le_trans with (10 ^ Z.of_nat (length d)); [lia|apply Z.pow_le_mono_r; lia]). change (10 ^ 9) with 1000000000 in La.
  assert (EV : V = uval x + R * a + R * 10 ^ Z.of_nat (length d) * pv 10 s') by (unfold V; rewrite Es, pv_app; fold a; ring).
  assert (Wa : word a) by (unfold word; rewrite p32; lia). pose proof (wf_range x Wx) as Rx.
  destruct (Empty_ok x Wx) as (We & Be & Ue).
  (* the product of the block and its weight *)
  assert (PROD : exists p e, match rank with Some r => Mul_Pos (Empty x) (Copy r) (BV BITS [a]) false
                  | None => (setw0 (Empty x) a, if (BITS <? bits x) || negb (nz (Z.land a (wnot (mask_ (bits x))))) then Ok else Ovfl) end = (p, e) /\
                  wf p /\ bits p = n /\ e = (if R * a <? 2 ^ n then Ok else Ovfl) /\ (R * a < 2 ^ n -> uval p = R * a)).
  { destruct RK as [[-> ->]|(r & -> & Wr & Br & Ur)].
    - destruct (setw0_ok x a Wx ltac:(lia) Wa) as (A1 & A2 & A3). eexists _, _. split; [reflexivity|]. split; [auto|]. split; [congruence|]. rewrite Z.mul_1_l.
      assert (2 ^ 32 <= 2 ^ n) by (apply Z.pow_le_mono_r; lia). rewrite p32 in *. destruct (Z.ltb_spec a (2 ^ n)); [|lia]. split; [|auto].
      unfold BITS. destruct (Z.ltb_spec 32 (bits x)); [reflexivity|]. assert (E32 : bits x = 32) by lia. rewrite E32. change (wnot (mask_ 32)) with 0. rewrite Z.land_0_r. reflexivity.
    - unfold Copy. rewrite norm_id by auto. assert (Uz : uval (BV BITS [a]) = a) by (unfold uval; cbn [wds wval]; lia).
      destruct (Mul_Pos_ok (Empty x) r (BV BITS [a]) false We Wr ltac:(congruence) ltac:(cbn [wds]; auto) ltac:(cbv iota; rewrite Be, Bx; lia)) as (p & E & Wp & Bp & Up).
      cbv iota in E, Up. rewrite Be, Bx, Ur, Uz in *. eexists _, _. split; [exact E|]. auto. }
  destruct PROD as (p & e & -> & Wp & Bp & Ee & Up).
  assert (TOP1 : 1 <= 10 ^ (9 * ((Z.of_nat (length s) - 1) / 9))).
  { assert (0 < 10 ^ (9 * ((Z.of_nat (length s) - 1) / 9))); [|lia]. apply Z.pow_pos_nonneg; [lia|]. subst s. cbn [length]. pose proof (Z.div_pos (Z.of_nat (S (length t0)) - 1) 9). lia. }
  assert (PP : 0 <= R * 10 ^ Z.of_nat (length d) * pv 10 s') by (assert (0 < 10 ^ Z.of_nat (length d)) by (apply Z.pow_pos_nonneg; lia); nia).
  destruct (Z.ltb_spec (R * a) (2 ^ n)) as [LP|LP]; subst e.
  2:{ eexists _, _. split; [reflexivity|]. split; [auto|]. split; [auto|]. split; [intros; lia|auto]. }
  specialize (Up LP). destruct (add_ok x p false Wx Wp ltac:(congruence)) as (x1 & E1 & W1 & B1 & U1). cbn [b2z] in *. rewrite !Z.add_0_r, Bx, Up in *. rewrite E1.
  destruct (Z.leb_spec (2 ^ n) (uval x + R * a)) as [CA|CA].
  { eexists _, _. split; [reflexivity|]. split; [auto|]. split; [auto|]. split; [intros; lia|auto]. }
  rewrite Z.mod_small in U1 by nia.
  destruct s' as [|c1 t1] eqn:Es'.
  { eexists _, _. split; [reflexivity|]. split; [auto|]. split; [auto|]. change (pv 10 []) with 0 in *.
    assert (T : top = R). { unfold top. rewrite Z.div_small; [rewrite Z.mul_0_r; change (10 ^ 0) with 1; lia|]. rewrite Es, app_nil_r. subst s. assert (length d <> 0%nat) by (destruct d; [cbn in Es; discriminate|cbn; lia]). lia. }
    split; [intros; split; [auto|lia]|]. rewrite T. intros [H|H]; lia. }
  assert (L9 : length d = 9%nat).
  { destruct (Nat.eq_dec (length d) 9) as [|ND]; auto. exfalso. assert (H : skipn 9 s = []) by (apply firstn_short; fold d; lia). fold s' in H. congruence. }
  assert (NS : c1 :: t1 <> []) by discriminate. set (s2 := c1 :: t1) in *. clearbody s2. clear Es' s'.
  rewrite L9 in *. change (10 ^ Z.of_nat 9) with 1000000000 in *.
  assert (Ls : length s = (9 + length s2)%nat) by (rewrite Es, app_length, L9; reflexivity).
  assert (LP2 : (0 < length s2)%nat) by (destruct s2; [contradiction|cbn; lia]).
  assert (T2 : top = R * 1000000000 * 10 ^ (9 * ((Z.of_nat (length s2) - 1) / 9))).
  { unfold top. rewrite Ls. replace (Z.of_nat (9 + length s2) - 1) with (Z.of_nat (length s2) - 1 + 1 * 9) by lia. rewrite Z.div_add by lia. pose proof (Z.div_pos (Z.of_nat (length s2) - 1) 9 ltac:(lia) ltac:(lia)).
    replace (9 * ((Z.of_nat (length s2) - 1) / 9 + 1)) with (9 + 9 * ((Z.of_nat (length s2) - 1) / 9)) by lia. rewrite Z.pow_add_r by lia. change (10 ^ 9) with 1000000000. ring. }
  assert (G1 : 1 <= 10 ^ (9 * ((Z.of_nat (length s2) - 1) / 9))).
  { assert (0 < 10 ^ (9 * ((Z.of_nat (length s2) - 1) / 9))); [|lia]. apply Z.pow_pos_nonneg; [lia|]. pose proof (Z.div_pos (Z.of_nat (length s2) - 1) 9 ltac:(lia) ltac:(lia)). lia. }
  assert (NEXT : forall r', wf r' -> bits r' = n -> uval r' = R * 1000000000 -> R * 1000000000 < 2 ^ n -> exists x' e, dec_loop f s2 x1 (Some r') = (x', e) /\ wf x' /\ bits x' = n /\
     (top < 2 ^ n -> V < 2 ^ n -> e = Ok /\ uval x' = V) /\ (2 ^ n <= top \/ 2 ^ n <= V -> e = Ovfl)).
  { intros r' Wr' Br' Ur' LR. destruct (IH s2 x1 (Some r') (R * 1000000000) n ltac:(lia) NS W1 B1 N Fs' ltac:(right; exists r'; auto) ltac:(lia) ltac:(rewrite U1; nia)) as (x' & e & E & A1 & A2 & A3 & A4).
    exists x', e. rewrite <- T2 in A3, A4. rewrite U1, <- EV in A3, A4. auto. }
  destruct RK as [[-> ->]|(r & -> & Wr & Br & Ur)].
  - destruct (setw0_ok x EXP10 Wx ltac:(lia) ltac:(unfold word, EXP10; rewrite p32; lia)) as (A1 & A2 & A3). apply NEXT; auto.
    assert (2 ^ 32 <= 2 ^ n) by (apply Z.pow_le_mono_r; lia). rewrite p32 in *. lia.
  - unfold Copy. rewrite norm_id by auto. assert (Uz : uval (BV BITS [EXP10]) = 1000000000) by reflexivity.
    destruct (Mul_Pos_ok (Empty x) r (BV BITS [EXP10]) false We Wr ltac:(congruence) ltac:(cbn [wds]; constructor; auto; unfold word, EXP10; rewrite p32; lia) ltac:(cbv iota; rewrite Be; lia)) as (r' & E & Wr' & Br' & Ur').
    cbv iota in E, Ur'. rewrite Be, Ur, Uz in *. rewrite E. destruct (Z.ltb_spec (R * 1000000000) (2 ^ n)).
    + apply NEXT; auto.
    + eexists _, _. split; [reflexivity|]. split; [auto|]. split; [auto|]. split; [|auto]. intros HT. nia.
Qed.
Lemma dec_loop_bad : forall f s x rank, (length s < f)%nat -> forallb is_dec s = false -> snd (dec_loop f s x rank) <> Ok.
Proof.
  induction f as [|f IH]; intros s x rank Lf F; [lia|]. cbn [dec_loop]. destruct s as [|c0 t0]; [discriminate|]. remember (c0 :: t0) as s.
  change (Z.to_nat LOG10) with 9%nat. change 1 with (10 ^ 0) at 1. rewrite dec_block_ok by (simpl; lia).
  destruct (forallb is_dec (firstn 9 s)) eqn:F9; [|discriminate]. rewrite <- (firstn_skipn 9 s) in F. rewrite forallb_app, F9 in F. cbn [andb] in F.
  destruct (skipn 9 s) as [|c1 t1] eqn:E9; [discriminate|].
  assert (L2 : (length (c1 :: t1) < f)%nat) by (rewrite <- E9, skipn_length; subst s; cbn [length] in *; lia).
  match goal with |- context [let '(prod, e) := ?m in _] => destruct m as [pr [| | | |]] end; try discriminate.
  destruct (add x pr false) as [[x' c'] o']. destruct c'; [discriminate|].
  destruct rank as [r|]; [|apply IH; auto]. destruct (Mul_Pos (Empty x) (Copy r) (BV BITS [EXP10]) false) as [r' [| | | |]]; try discriminate. apply IH; auto.
Qed.
Lemma from_Dec_ok : forall x s n, wf x -> bits x = n -> 32 <= n -> s <> [] ->
  let top := 10 ^ (9 * ((Z.of_nat (length s) - 1) / 9)) in
  exists x' e, from_Dec x (rev s) = (x', e) /\
    (forallb is_dec s = true -> wf x' /\ bits x' = n /\
       (top < 2 ^ n -> number 10 s < 2 ^ n -> e = Ok /\ uval x' = number 10 s) /\ (2 ^ n <= top \/ 2 ^ n <= number 10 s -> e = Ovfl)) /\
    (forallb is_dec s = false -> e <> Ok).
Proof.
  intros x s n W B N NE top. unfold from_Dec. assert (NR : rev s <> []) by (intros H; apply NE; rewrite <- (rev_involutive s), H; reflexivity).
  assert (FR : forallb is_dec (rev s) = forallb is_dec s).
  { clear. induction s as [|c s IH]; auto. cbn [rev forallb]. rewrite forallb_app, IH. cbn [forallb]. rewrite andb_true_r. apply andb_comm. }
  destruct (rev s) as [|c t] eqn:ER; [contradiction|]. rewrite <- ER in *. destruct (dec_loop (S (length (rev s))) (rev s) (Empty x) None) as [x' e] eqn:E.
  exists x', e. split; [auto|]. split.
  - intros F. destruct (Empty_ok x W) as (We & Be & Ue). assert (1 < 2 ^ n) by (apply Z.pow_gt_1; lia).
    destruct (dec_loop_ok (S (length (rev s))) (rev s) (Empty x) None 1 n ltac:(lia) NR We ltac:(congruence) N ltac:(congruence) ltac:(auto) ltac:(lia) ltac:(lia)) as (x2 & e2 & E2 & A1 & A2 & A3 & A4).
    rewrite E in E2. injection E2 as <- <-. rewrite rev_length, Ue, !Z.mul_1_l, Z.add_0_l, <- number_pv in *. auto.
  - intros F. pose proof (dec_loop_bad (S (length (rev s))) (rev s) (Empty x) None ltac:(lia) ltac:(congruence)) as H. rewrite E in H. exact H.
Qed.

(** * Bitwise operations *)
Lemma zip_ok : forall (f : Z -> Z -> Z), f 0 0 = 0 -> (forall a b, word a -> word b -> word (f a b)) ->
  (forall a m b n, word a -> word m -> f (a + 2 ^ 32 * b) (m + 2 ^ 32 * n) = f a m + 2 ^ 32 * f b n) ->
  forall a b, Forall word a -> Forall word b -> length a = length b ->
  Forall word (zip f a b) /\ length (zip f a b) = length a /\ wval (zip f a b) = f (wval a) (wval b).
Proof.
  intros f F0 FW FS. induction a as [|u a IH]; intros [|w b] Fa Fb L; try discriminate; cbn [zip wval length]; auto.
  inversion Fa; inversion Fb; subst. destruct (IH b) as (A & B & C); auto. rewrite C, B, FS by auto. auto.
Qed.
Lemma op_ok : forall f y z, f 0 0 = 0 -> (forall a b, word a -> word b -> word (f a b)) ->
  (forall a m b n, word a -> word m -> f (a + 2 ^ 32 * b) (m + 2 ^ 32 * n) = f a m + 2 ^ 32 * f b n) ->
  wf y -> wf z -> bits y = bits z -> let r := BV (bits y) (mlast (mask_ (bits y)) (zip f (wds y) (wds z))) in
  wf r /\ bits r = bits y /\ uval r = f (uval y) (uval z) mod 2 ^ bits y.
Proof.
  intros f y z F0 FW FS (N & Ly & Fy & _) (_ & Lz & Fz & _) E r. rewrite <- E in Lz. destruct (zip_ok f F0 FW FS (wds y) (wds z) Fy Fz ltac:(lia)) as (A & B & C).
  destruct (wf_mlast (bits y) (zip f (wds y) (wds z)) N ltac:(lia) A) as [WF U]. subst r. split; [auto|]. split; [auto|]. rewrite U, C. reflexivity.
Qed.
Lemma Union_ok : forall y z, wf y -> wf z -> bits y = bits z -> wf (Union y z) /\ bits (Union y z) = bits y /\ uval (Union y z) = Z.lor (uval y) (uval z) mod 2 ^ bits y.
Proof. intros. apply (op_ok Z.lor); auto; unfold word; intros; [apply lor_lt_pow2; auto; lia|apply lor_split; auto; lia]. Qed.
Lemma Intersection_ok : forall y z, wf y -> wf z -> bits y = bits z -> wf (Intersection y z) /\ bits (Intersection y z) = bits y /\ uval (Intersection y z) = Z.land (uval y) (uval z) mod 2 ^ bits y.
Proof. intros. apply (op_ok Z.land); auto; unfold word; intros; [apply land_lt_pow2; auto; lia|apply land_split; auto; lia]. Qed.
Lemma ExclusiveOr_ok : forall y z, wf y -> wf z -> bits y = bits z -> wf (ExclusiveOr y z) /\ bits (ExclusiveOr y z) = bits y /\ uval (ExclusiveOr y z) = Z.lxor (uval y) (uval z) mod 2 ^ bits y.
Proof. intros. apply (op_ok Z.lxor); auto; unfold word; intros; [apply lxor_lt_pow2; auto; lia|apply lxor_split; auto; lia]. Qed.
Lemma wnot_words : forall ws, Forall word ws -> Forall word (map wnot ws) /\ wval (map wnot ws) = 2 ^ (32 * Z.of_nat (length ws)) - 1 - wval ws.
Proof.
  induction ws as [|w ws IH]; intros F; [split; [constructor|reflexivity]|]. pose proof (Forall_inv F) as W. destruct (IH (Forall_inv_tail F)) as [A B]. split; [cbn [map]; constructor; auto using wnot_word|].
  cbn [map wval length]. rewrite B, pow32S. unfold wnot, ONES. rewrite p32. lia.
Qed.
Lemma Complement_ok : forall y, wf y -> wf (Complement y) /\ bits (Complement y) = bits y /\ uval (Complement y) = (-1 - uval y) mod 2 ^ bits y.
Proof.
  intros y W. destruct W as (N & L & F & _). destruct (wnot_words (wds y) F) as [A B].
  destruct (wf_mlast (bits y) (map wnot (wds y)) N ltac:(rewrite map_length; auto) A) as [WF U]. split; [auto|]. split; [auto|]. unfold Complement. rewrite U, B.
  destruct (full_pow _ _ N L) as (e & Pe & E). rewrite E. fold (uval y). replace (2 ^ bits y * e - 1 - uval y) with (-1 - uval y + e * 2 ^ bits y) by ring. apply Z.mod_add. apply Z.pow_nonzero; lia.
Qed.
(** Signed values go through bitwise operations. *)
Lemma fits_shiftr : forall n x, 0 < n -> (fits n x <-> Z.shiftr x (n - 1) = 0 \/ Z.shiftr x (n - 1) = -1).
Proof.
  intros n x N. unfold fits. rewrite Z.shiftr_div_pow2 by lia. set (A := 2 ^ (n - 1)). assert (0 < A) by (apply pow2_pos; lia).
  pose proof (Z.div_mod x A ltac:(lia)). pose proof (Z.mod_pos_bound x A ltac:(lia)). split; intros.
  - destruct (Z_lt_ge_dec x 0); [right; symmetry; apply (Z.div_unique _ _ _ (x + A)); lia|left; apply Z.div_small; lia].
  - nia.
Qed.
Lemma op_mod : forall (f : Z -> Z -> Z) (g : bool -> bool -> bool), (forall a b i, Z.testbit (f a b) i = g (Z.testbit a i) (Z.testbit b i)) -> 
  forall n a b, 0 <= n -> f (a mod 2 ^ n) (b mod 2 ^ n) mod 2 ^ n = f a b mod 2 ^ n.
Proof.
  intros f g FB n a b N. apply Z.bits_inj'. intros i I. rewrite !mod_pow2_testbit by auto. rewrite !FB. destruct (Z.ltb_spec i n); cbn [andb]; auto.
  rewrite !mod_pow2_testbit by auto. destruct (Z.ltb_spec i n); [reflexivity|lia].
Qed.
Lemma sval_op : forall (f : Z -> Z -> Z) (g : bool -> bool -> bool) y z r, (forall a b i, Z.testbit (f a b) i = g (Z.testbit a i) (Z.testbit b i)) ->
  (forall a b k, Z.shiftr (f a b) k = f (Z.shiftr a k) (Z.shiftr b k)) ->
  (forall a b, a = 0 \/ a = -1 -> b = 0 \/ b = -1 -> f a b = 0 \/ f a b = -1) ->
  wf y -> wf z -> wf r -> bits y = bits z -> bits r = bits y -> uval r = f (uval y) (uval z) mod 2 ^ bits y -> sval r = f (sval y) (sval z).
Proof.
  intros f g y z r FB FS FC Wy Wz Wr E Br U. assert (N := proj1 Wy). apply uval_sval; auto; rewrite Br.
  - rewrite U. pose proof (wf_range y Wy) as Ry. pose proof (wf_range z Wz) as Rz. rewrite <- E in Rz. rewrite <- (op_mod f g FB _ (sval y) (sval z)) by lia.
    unfold sval. rewrite <- E. rewrite !sgn_mod by auto. rewrite !(Z.mod_small (uval _)) by auto. reflexivity.
  - apply fits_shiftr; auto. rewrite FS. apply FC; apply fits_shiftr; auto; [apply sval_range; auto|rewrite E; apply sval_range; auto].
Qed.
Lemma Union_sval : forall y z, wf y -> wf z -> bits y = bits z -> sval (Union y z) = Z.lor (sval y) (sval z).
Proof.
  intros y z Wy Wz E. destruct (Union_ok y z Wy Wz E) as (A & B & C). apply (sval_op Z.lor orb); auto using Z.lor_spec, Z.shiftr_lor. intros a b [-> | ->] [-> | ->]; auto.
Qed.
Lemma Intersection_sval : forall y z, wf y -> wf z -> bits y = bits z -> sval (Intersection y z) = Z.land (sval y) (sval z).
Proof.
  intros y z Wy Wz E. destruct (Intersection_ok y z Wy Wz E) as (A & B & C). apply (sval_op Z.land andb); auto using Z.land_spec, Z.shiftr_land. intros a b [-> | ->] [-> | ->]; auto.
Qed.
Lemma ExclusiveOr_sval : forall y z, wf y -> wf z -> bits y = bits z -> sval (ExclusiveOr y z) = Z.lxor (sval y) (sval z).
Proof.
  intros y z Wy Wz E. destruct (ExclusiveOr_ok y z Wy Wz E) as (A & B & C). apply (sval_op Z.lxor xorb); auto using Z.lxor_spec, Z.shiftr_lxor. intros a b [-> | ->] [-> | ->]; auto.
Qed.
Lemma sval_mod : forall v, wf v -> sval v mod 2 ^ bits v = uval v.
Proof. intros v W. unfold sval. rewrite sgn_mod by (destruct W; lia). apply Z.mod_small. apply wf_range; auto. Qed.
Lemma Complement_sval : forall y, wf y -> sval (Complement y) = Z.lnot (sval y).
Proof.
  intros y W. destruct (Complement_ok y W) as (A & B & C). pose proof (sval_range y W) as F. unfold fits in F.
  apply uval_sval; auto; rewrite B.
  - rewrite C. rewrite <- (sval_mod y W). rewrite Zminus_mod_idemp_r. f_equal. unfold Z.lnot. lia.
  - unfold fits, Z.lnot. lia.
Qed.

(** * Chunks *)
Lemma himask_bit : forall k i, 0 <= k <= 32 -> 0 <= i -> Z.testbit (himask k) i = (k <=? i) && (i <? 32).
Proof.
  intros k i K I. unfold himask. rewrite u32_mod, mod_pow2_testbit by lia. rewrite Z.shiftl_spec by lia.
  destruct (Z.ltb_spec i 32), (Z.leb_spec k i); cbn [andb]; auto.
  - rewrite Z.bits_m1 by lia. reflexivity.
  - apply Z.testbit_neg_r. lia.
Qed.
Lemma himask_word : forall k, word (himask k).
Proof. intros. apply u32_word. Qed.
Lemma u64_bit : forall x i, 0 <= i -> Z.testbit (u64 x) i = (i <? 64) && Z.testbit x i.
Proof. intros. change (u64 x) with (x mod 2 ^ 64). apply mod_pow2_testbit; lia. Qed.
Lemma u32_bit : forall x i, 0 <= i -> Z.testbit (u32 x) i = (i <? 32) && Z.testbit x i.
Proof. intros. change (u32 x) with (x mod 2 ^ 32). apply mod_pow2_testbit; lia. Qed.
Lemma word_high : forall w i, word w -> 32 <= i -> Z.testbit w i = false.
Proof. intros w i W I. apply (testbit_small 32); unfold word in W; lia. Qed.
(** One word with the bits [off, b) replaced *)
Lemma store_word_bit : forall w off b v i, word w -> 0 <= off < 32 -> off < b -> 0 <= i ->
  let mask := if b <? 32 then Z.land (himask off) (wnot (himask b)) else himask off in
  let w' := Z.lor (Z.land w (wnot mask)) (Z.land (u32 (u64 (Z.shiftl v off))) mask) in
  word mask /\ word w' /\ Z.testbit w' i = if (off <=? i) && (i <? b) && (i <? 32) then Z.testbit v (i - off) else Z.testbit w i.
Proof.
  intros w off b v i W O B I mask w'.
  assert (Wm : word mask).
  { unfold mask. destruct (b <? 32); [|apply himask_word]. pose proof (himask_word off) as H1. pose proof (wnot_word _ (himask_word b)) as H2. unfold word in *. apply land_lt_pow2; auto; lia. }
  assert (Mb : forall j, 0 <= j -> Z.testbit mask j = (off <=? j) && (j <? b) && (j <? 32)).
  { intros j J. unfold mask. destruct (Z.ltb_spec b 32).
    - rewrite Z.land_spec, himask_bit, wnot_bit, himask_bit by (auto using himask_word; lia). destruct (Z.leb_spec off j), (Z.ltb_spec j 32), (Z.ltb_spec j b), (Z.leb_spec b j); cbn; auto; lia.
    - rewrite himask_bit by lia. destruct (Z.leb_spec off j), (Z.ltb_spec j 32), (Z.ltb_spec j b); cbn; auto; lia. }
  split; [auto|]. split.
  - unfold w', word in *. pose proof (wnot_word mask Wm) as H2. pose proof (u32_word (u64 (Z.shiftl v off))) as H3. unfold word in *. apply lor_lt_pow2; [lia|apply land_lt_pow2; lia|apply land_lt_pow2; lia].
  - unfold w'. rewrite Z.lor_spec, !Z.land_spec, wnot_bit, Mb, u32_bit, u64_bit, Z.shiftl_spec by auto.
    destruct (Z.ltb_spec i 32).
    + destruct (Z.leb_spec off i), (Z.ltb_spec i b), (Z.ltb_spec i 64); cbn [andb negb]; rewrite ?andb_true_r, ?andb_false_r, ?orb_false_r; cbn; auto; lia.
    + rewrite (word_high w i) by auto. rewrite !andb_false_r. reflexivity.
Qed.
Lemma store_words_nil : forall ws off v, store_words ws off 0 v = ws.
Proof. destruct ws; reflexivity. Qed.
Lemma store_words_ok : forall ws off chunk v, Forall word ws -> 0 <= off < 32 -> 0 <= chunk -> off + chunk <= 32 * Z.of_nat (length ws) -> 
  let r := store_words ws off chunk v in Forall word r /\ length r = length ws /\
  forall i, 0 <= i -> Z.testbit (wval r) i = if (off <=? i) && (i <? off + chunk) then Z.testbit v (i - off) else Z.testbit (wval ws) i.
Proof.
  induction ws as [|w ws IH]; intros off chunk v F O C L r.
  - cbn [length] in L. cbn in r. subst r. split; [auto|]. split; [auto|]. intros i I. destruct (Z.leb_spec off i), (Z.ltb_spec i (off + chunk)); auto; lia.
  - inversion F as [|? ? W F']; subst. subst r. cbn [store_words]. destruct (Z.ltb_spec 0 chunk).
    + unfold BITS. set (b := off + chunk) in *. set (n := if b <? 32 then chunk else 32 - off).
      destruct (IH 0 (chunk - n) (Z.shiftr v n) F' ltac:(lia) ltac:(unfold n; destruct (Z.ltb_spec b 32); lia) ltac:(cbn [length] in L; unfold n; destruct (Z.ltb_spec b 32); lia)) as (A & B & G).
      destruct (store_word_bit w off b v 0 W O ltac:(lia) ltac:(lia)) as (M1 & M2 & _). 
      split; [constructor; auto|]. split; [cbn [length]; auto|]. intros i I.
      destruct (store_word_bit w off b v i W O ltac:(lia) I) as (_ & _ & M3). cbn [wval]. unfold word in *. rewrite !testbit_add_shift by (auto; lia). rewrite M3.
      destruct (Z.ltb_spec i 32) as [I32|I32].
      * rewrite andb_true_r. reflexivity.
      * rewrite G by lia. unfold n. destruct (Z.ltb_spec b 32).
        -- destruct (Z.leb_spec 0 (i - 32)), (Z.ltb_spec (i - 32) (0 + (chunk - chunk))), (Z.leb_spec off i), (Z.ltb_spec i b); try lia; reflexivity.
        -- destruct (Z.leb_spec 0 (i - 32)), (Z.ltb_spec (i - 32) (0 + (chunk - (32 - off)))), (Z.leb_spec off i), (Z.ltb_spec i b); cbn [andb]; try lia; auto.
           rewrite Z.shiftr_spec by lia. f_equal. lia.
    + split; [auto|]. split; [auto|]. intros i I. destruct (Z.leb_spec off i), (Z.ltb_spec i (off + chunk)); auto; lia.
Qed.
Lemma read_words_ok : forall ws off chunk got, Forall word ws -> 0 <= off < 32 -> 0 <= chunk -> off + chunk <= 32 * Z.of_nat (length ws) -> 0 <= got -> got + chunk <= 64 ->
  forall i, 0 <= i -> Z.testbit (read_words ws off chunk got) i = (got <=? i) && (i <? got + chunk) && Z.testbit (wval ws) (i - got + off).
Proof.
  induction ws as [|w ws IH]; intros off chunk got F O C L Gt G64 i I.
  - cbn [length] in L. cbn [read_words]. rewrite Z.bits_0. destruct (Z.leb_spec got i), (Z.ltb_spec i (got + chunk)); auto; lia.
  - inversion F as [|? ? W F']; subst. cbn [read_words]. destruct (Z.ltb_spec 0 chunk).
    + unfold BITS. set (b := off + chunk) in *. set (n := if b <? 32 then chunk else 32 - off). cbn [length] in L.
      rewrite Z.lor_spec, u64_bit by auto. rewrite (IH 0 (chunk - n) (got + n) F') by (unfold n; destruct (Z.ltb_spec b 32); lia).
      rewrite Z.shiftl_spec by auto. unfold shr.
      set (mask := if b <? 32 then wnot (himask b) else ONES).
      assert (Mb : forall j, 0 <= j -> Z.testbit mask j = (j <? b) && (j <? 32)).
      { intros j J. unfold mask. destruct (Z.ltb_spec b 32).
        - rewrite wnot_bit, himask_bit by (auto using himask_word; lia). destruct (Z.ltb_spec j 32), (Z.ltb_spec j b), (Z.leb_spec b j); cbn; auto; lia.
        - change ONES with (Z.ones 32). rewrite Z.testbit_ones by lia. destruct (Z.ltb_spec j 32), (Z.ltb_spec j b), (Z.leb_spec 0 j); cbn; auto; lia. }
      cbn [wval]. unfold word in W.
      destruct (Z.leb_spec got i) as [GI|GI].
      * rewrite Z.shiftr_spec, Z.land_spec, Mb by lia. rewrite testbit_add_shift by (auto; lia).
        unfold n. destruct (Z.ltb_spec b 32).
        -- destruct (Z.ltb_spec (i - got + off) b), (Z.ltb_spec (i - got + off) 32), (Z.ltb_spec i 64), (Z.ltb_spec i (got + chunk)), (Z.leb_spec (got + chunk) i), (Z.ltb_spec i (got + chunk + (chunk - chunk))); cbn [andb]; try lia; rewrite ?andb_true_r, ?andb_false_r, ?orb_false_r; auto.
        -- destruct (Z.ltb_spec (i - got + off) b), (Z.ltb_spec (i - got + off) 32), (Z.ltb_spec i 64), (Z.ltb_spec i (got + chunk)), (Z.leb_spec (got + (32 - off)) i), (Z.ltb_spec i (got + (32 - off) + (chunk - (32 - off)))); cbn [andb]; try lia; rewrite ?andb_true_r, ?andb_false_r, ?orb_false_r; auto.
           cbn [orb]. f_equal. lia.
      * rewrite (Z.testbit_neg_r _ (i - got)) by lia. rewrite andb_false_r. cbn [andb orb]. destruct (Z.leb_spec (got + n) i); auto. unfold n in *. destruct (Z.ltb_spec b 32); lia.
    + rewrite Z.bits_0. destruct (Z.leb_spec got i), (Z.ltb_spec i (got + chunk)); auto; lia.
Qed.
Definition chunk_len (n off chunk : Z) : Z := Z.min (Z.min chunk 64) (n - off).
Lemma chunk_len_eq : forall n off chunk, (let c := if LONGBITS <? chunk then LONGBITS else chunk in if n <? off + c then n - off else c) = chunk_len n off chunk.
Proof. intros. unfold chunk_len, LONGBITS. destruct (Z.ltb_spec 64 chunk); cbv zeta. - destruct (Z.ltb_spec n (off + 64)); lia. - destruct (Z.ltb_spec n (off + chunk)); lia. Qed.
Lemma size_cover : forall n k, 0 < n -> Z.of_nat k = (n + 31) / 32 -> n <= 32 * Z.of_nat k.
Proof. intros n k N E. rewrite E. pose proof (Z.div_mod (n + 31) 32 ltac:(lia)). pose proof (Z.mod_pos_bound (n + 31) 32 ltac:(lia)). lia. Qed.
Lemma wf_cover : forall x, wf x -> bits x <= 32 * Z.of_nat (length (wds x)).
Proof. intros x (N & L & _). apply size_cover; auto. Qed.
Lemma Forall_firstn : forall (A : Type) (P : A -> Prop) k l, Forall P l -> Forall P (firstn k l).
Proof. intros A P k l F. rewrite <- (firstn_skipn k l) in F. apply Forall_app in F. apply F. Qed.
Lemma Forall_skipn : forall (A : Type) (P : A -> Prop) k l, Forall P l -> Forall P (skipn k l).
Proof. intros A P k l F. rewrite <- (firstn_skipn k l) in F. apply Forall_app in F. apply F. Qed.
Lemma wval_skip_bit : forall k ws i, Forall word ws -> (k <= length ws)%nat -> 0 <= i -> Z.testbit (wval (skipn k ws)) i = Z.testbit (wval ws) (i + 32 * Z.of_nat k).
Proof.
  intros k ws i F L I. rewrite <- (firstn_skipn k ws) at 2. rewrite wval_app. rewrite firstn_length_le by auto.
  pose proof (wval_range (firstn k ws) (Forall_firstn _ _ k ws F)) as R. rewrite firstn_length_le in R by auto. rewrite testbit_add_shift by (auto; lia).
  destruct (Z.ltb_spec (i + 32 * Z.of_nat k) (32 * Z.of_nat k)); [lia|]. f_equal. lia.
Qed.
Lemma Chunk_Store_ok : forall x chunk off v, wf x -> 0 < chunk -> 0 <= off < bits x -> 
  let r := Chunk_Store x chunk off v in wf r /\ bits r = bits x /\
  forall i, 0 <= i -> Z.testbit (uval r) i = if (off <=? i) && (i <? off + chunk_len (bits x) off chunk) then Z.testbit v (i - off) else Z.testbit (uval x) i.
Proof.
  intros x chunk off v W C O r. pose proof (wf_cover x W) as Cov. pose proof (wf_range x W) as Rx. destruct W as (N & L & F & U).
  unfold r, Chunk_Store. rewrite chunk_len_eq. destruct (Z.ltb_spec 0 chunk); [|lia]. destruct (Z.ltb_spec off (bits x)); [|lia]. cbn [andb].
  rewrite modmask_eq, logbits_eq. set (k := Z.to_nat (off / 32)). set (c := chunk_len (bits x) off chunk).
  pose proof (Z.div_mod off 32 ltac:(lia)) as DM. pose proof (Z.mod_pos_bound off 32 ltac:(lia)) as MB. pose proof (Z.div_pos off 32 ltac:(lia) ltac:(lia)) as DP.
  assert (EK : Z.of_nat k = off / 32) by (unfold k; lia). assert (Hc : 0 < c <= bits x - off) by (unfold c, chunk_len; lia).
  assert (KL : (k <= length (wds x))%nat) by lia.
  destruct (store_words_ok (skipn k (wds x)) (off mod 32) c v (Forall_skipn _ _ k _ F) MB ltac:(lia) ltac:(rewrite skipn_length; lia)) as (A & B & G).
  set (ws := store_words _ _ _ _) in *.
  assert (Fr : Forall word (firstn k (wds x) ++ ws)) by (apply Forall_app; split; auto using Forall_firstn).
  assert (T : forall i, 0 <= i -> Z.testbit (wval (firstn k (wds x) ++ ws)) i = if (off <=? i) && (i <? off + c) then Z.testbit v (i - off) else Z.testbit (uval x) i).
  { intros i I. rewrite wval_app, firstn_length_le by auto.
    pose proof (wval_range (firstn k (wds x)) (Forall_firstn _ _ k _ F)) as R. rewrite firstn_length_le in R by auto. rewrite testbit_add_shift by (auto; lia).
    unfold uval. destruct (Z.ltb_spec i (32 * Z.of_nat k)).
    - destruct (Z.leb_spec off i); [lia|]. cbn [andb]. rewrite wval_firstn by auto. rewrite mod_pow2_testbit by lia. destruct (Z.ltb_spec i (32 * Z.of_nat k)); [auto|lia].
    - rewrite G by lia. rewrite wval_skip_bit by (auto; lia). replace (i - 32 * Z.of_nat k + 32 * Z.of_nat k) with i by lia. replace (i - 32 * Z.of_nat k - off mod 32) with (i - off) by lia.
      destruct (Z.leb_spec (off mod 32) (i - 32 * Z.of_nat k)), (Z.ltb_spec (i - 32 * Z.of_nat k) (off mod 32 + c)), (Z.leb_spec off i), (Z.ltb_spec i (off + c)); auto; lia. }
  split; [|split; [auto|exact T]]. unfold wf. cbn [bits wds]. split; [auto|]. split; [rewrite app_length, firstn_length_le, B, skipn_length by auto; lia|]. split; [auto|].
  apply (range_of_bits (bits x)); [lia| |].
  - apply wval_range; auto.
  - intros i I. unfold uval. cbn [wds]. rewrite T by lia. destruct (Z.leb_spec off i), (Z.ltb_spec i (off + c)); cbn [andb]; try lia; apply (testbit_small (bits x)); auto; lia.
Qed.
Lemma Chunk_Read_ok : forall x chunk off, wf x -> 0 < chunk -> 0 <= off < bits x -> 
  Chunk_Read x chunk off = (uval x / 2 ^ off) mod 2 ^ chunk_len (bits x) off chunk.
Proof.
  intros x chunk off W C O. pose proof (wf_cover x W) as Cov. pose proof (wf_range x W) as Rx. destruct W as (N & L & F & U).
  unfold Chunk_Read. rewrite chunk_len_eq. destruct (Z.ltb_spec 0 chunk); [|lia]. destruct (Z.ltb_spec off (bits x)); [|lia]. cbn [andb].
  rewrite modmask_eq, logbits_eq. set (k := Z.to_nat (off / 32)). set (c := chunk_len (bits x) off chunk).
  pose proof (Z.div_mod off 32 ltac:(lia)) as DM. pose proof (Z.mod_pos_bound off 32 ltac:(lia)) as MB. pose proof (Z.div_pos off 32 ltac:(lia) ltac:(lia)) as DP.
  assert (EK : Z.of_nat k = off / 32) by (unfold k; lia). assert (Hc : 0 < c <= bits x - off) by (unfold c, chunk_len; lia). assert (Hd : c <= 64) by (unfold c, chunk_len; lia).
  assert (KL : (k <= length (wds x))%nat) by lia.
  apply Z.bits_inj'. intros i I. rewrite read_words_ok by (auto using Forall_skipn; try lia; rewrite skipn_length; lia).
  rewrite mod_pow2_testbit by lia. rewrite Z.div_pow2_bits by lia. rewrite wval_skip_bit by (auto; lia).
  destruct (Z.leb_spec 0 i); [|lia]. rewrite Z.add_0_l. cbn [andb]. f_equal. unfold uval. f_equal. lia.
Qed.

(** * Blocks of bytes: little endian *)
Definition byte (b : Z) : Prop := 0 <= b < 256.
Fixpoint lev (l : list Z) : Z := match l with [] => 0 | b :: t => b + 256 * lev t end.
Lemma lev_range : forall l, Forall byte l -> 0 <= lev l < 256 ^ Z.of_nat (length l).
Proof.
  induction 1 as [|b l B F IH]; [cbn; lia|]. cbn [lev length]. rewrite Nat2Z.inj_succ, Z.pow_succ_r by lia. unfold byte in B. nia.
Qed.
Lemma lev_app : forall a b, lev (a ++ b) = lev a + 256 ^ Z.of_nat (length a) * lev b.
Proof. induction a as [|x a IH]; intros; cbn [app lev length]; [rewrite Z.pow_0_r; lia|]. rewrite IH, Nat2Z.inj_succ, Z.pow_succ_r by lia. ring. Qed.
Lemma lev_inj : forall a b, Forall byte a -> Forall byte b -> length a = length b -> lev a = lev b -> a = b.
Proof.
  induction a as [|x a IH]; intros [|y b] Fa Fb L E; try discriminate; auto. inversion Fa; inversion Fb; subst. cbn [lev] in E. unfold byte in *.
  assert (x = y) by lia. subst. f_equal. apply IH; auto; lia.
Qed.
Lemma lor_low : forall a b k, 0 <= k -> 0 <= a < 2 ^ k -> Z.lor a (2 ^ k * b) = a + 2 ^ k * b.
Proof.
  intros a b k K A. apply Z.bits_inj'. intros i I. rewrite Z.lor_spec, testbit_add_shift by auto. rewrite Z.mul_comm, <- Z.shiftl_mul_pow2, Z.shiftl_spec by auto.
  destruct (Z.ltb_spec i k). - rewrite (Z.testbit_neg_r b) by lia. apply orb_false_r. - rewrite (testbit_small k) by (auto; lia). reflexivity.
Qed.
Lemma pack_ok : forall n count l, Forall byte l -> 0 <= count -> count + 8 * Z.of_nat n <= 32 -> pack n count l = (2 ^ count * lev (firstn n l), skipn n l).
Proof.
  induction n as [|n IH]; intros count l F C L; [cbn; f_equal; lia|]. destruct l as [|b t]; [cbn [pack firstn skipn lev]; f_equal; lia|].
  inversion F as [|? ? B F']; subst. unfold byte in B. cbn [pack]. rewrite IH by (auto; lia). cbn [firstn skipn lev]. f_equal.
  assert (E : shl b count = 2 ^ count * b).
  { rewrite shl_eq by lia. rewrite Z.mod_small; [lia|]. split; [apply Z.mul_nonneg_nonneg; [lia|apply Z.pow_nonneg; lia]|].
    apply Z.lt_le_trans with (256 * 2 ^ count); [pose proof (pow2_pos count C); nia|]. replace 256 with (2 ^ 8) by reflexivity. rewrite <- Z.pow_add_r by lia. apply Z.pow_le_mono_r; lia. }
  rewrite E. replace (2 ^ (count + 8)) with (2 ^ count * 2 ^ 8) by (rewrite Z.pow_add_r; lia). 
  rewrite <- Z.mul_assoc. rewrite !(Z.mul_comm (2 ^ count)). rewrite <- !Z.shiftl_mul_pow2 by lia. rewrite <- Z.shiftl_lor. rewrite lor_low by (try lia; change (2 ^ 8) with 256; lia). 
  rewrite !Z.shiftl_mul_pow2 by lia. reflexivity.
Qed.
Lemma block_words_ok : forall n l, Forall byte l -> Forall word (block_words n l) /\ length (block_words n l) = n /\ wval (block_words n l) = lev (firstn (4 * n) l).
Proof.
  induction n as [|n IH]; intros l F; [repeat split; constructor|]. cbn [block_words]. rewrite pack_ok by (auto; lia). rewrite Z.pow_0_r, Z.mul_1_l.
  destruct (IH (skipn 4 l) (Forall_skipn _ _ _ _ F)) as (A & B & C). pose proof (lev_range (firstn 4 l) (Forall_firstn _ _ _ _ F)) as R.
  pose proof (firstn_length 4 l) as FL. assert (R2 : 0 <= lev (firstn 4 l) < 2 ^ 32).
  { split; [lia|]. apply Z.lt_le_trans with (1 := proj2 R). change (2 ^ 32) with (256 ^ 4). apply Z.pow_le_mono_r; lia. }
  split; [constructor; auto|]. split; [cbn [length]; auto|]. cbn [wval]. rewrite C.
  replace (4 * Datatypes.S n)%nat with (4 + 4 * n)%nat by lia. rewrite firstn_add_split, lev_app. 
  destruct (le_lt_dec 4 (length l)).
  - rewrite firstn_length_le by auto. reflexivity.
  - rewrite (skipn_all2 l) by lia. rewrite firstn_nil. cbn [lev]. lia.
Qed.
Lemma Block_Store_ok : forall x buf, wf x -> Forall byte buf -> let r := Block_Store x buf in
  wf r /\ bits r = bits x /\ uval r = lev (firstn (4 * length (wds x)) buf) mod 2 ^ bits x.
Proof.
  intros x buf (N & L & _ & _) F r. destruct (block_words_ok (length (wds x)) buf F) as (A & B & C).
  destruct (wf_mlast (bits x) (block_words (length (wds x)) buf) N ltac:(lia) A) as [WF U]. split; [auto|]. split; [auto|]. unfold r, Block_Store. rewrite U, C. reflexivity.
Qed.
Lemma word_bytes_ok : forall w, word w -> Forall byte (word_bytes w) /\ lev (word_bytes w) = w.
Proof.
  intros w W. unfold word in W. unfold word_bytes, shr. rewrite !Z.shiftr_shiftr by lia. cbn [Z.add Pos.add Pos.succ]. change 255 with (Z.ones 8). rewrite !Z.land_ones by lia. rewrite !Z.shiftr_div_pow2 by lia.
  change (2 ^ 8) with 256. split.
  - repeat constructor; apply Z.mod_pos_bound; lia.
  - cbn [lev]. change (2 ^ 16) with (256 * 256). change (2 ^ 24) with (256 * 256 * 256). rewrite <- !Z.div_div by lia.
    set (q1 := w / 256). set (q2 := q1 / 256). set (q3 := q2 / 256).
    pose proof (Z.div_mod w 256 ltac:(lia)). pose proof (Z.div_mod q1 256 ltac:(lia)). pose proof (Z.div_mod q2 256 ltac:(lia)). fold q1 in H. fold q2 in H0. fold q3 in H1.
    assert (q3 < 256). { unfold q3, q2, q1. rewrite !Z.div_div by lia. apply Z.div_lt_upper_bound; lia. }
    assert (0 <= q3). { unfold q3, q2, q1. repeat apply Z.div_pos; lia. } rewrite (Z.mod_small q3) by lia. lia.
Qed.
Lemma word_bytes_len : forall w, length (word_bytes w) = 4%nat.
Proof. reflexivity. Qed.
Lemma bytes_of_words : forall ws, Forall word ws -> Forall byte (flat_map word_bytes ws) /\ length (flat_map word_bytes ws) = (4 * length ws)%nat /\ lev (flat_map word_bytes ws) = wval ws.
Proof.
  induction ws as [|w ws IH]; intros F; [repeat split; constructor|]. destruct (IH (Forall_inv_tail F)) as (A & B & C). destruct (word_bytes_ok w (Forall_inv F)) as [D E].
  cbn [flat_map]. split; [apply Forall_app; auto|]. rewrite app_length, word_bytes_len, B. split; [cbn [length]; lia|]. rewrite lev_app, word_bytes_len, E, C. reflexivity.
Qed.
Lemma Block_Read_ok : forall x, wf x -> Forall byte (Block_Read x) /\ length (Block_Read x) = (4 * length (wds x))%nat /\ lev (Block_Read x) = uval x.
Proof.
  intros x W. unfold Block_Read. rewrite (mlast_id x W). apply bytes_of_words. apply W.
Qed.

(** * The theorems as stated *)
Lemma not_fits : forall n s, negb ((- 2 ^ (n - 1) <=? s) && (s <? 2 ^ (n - 1))) = true <-> ~ fits n s.
Proof. intros. unfold fits. destruct (Z.leb_spec (- 2 ^ (n - 1)) s), (Z.ltb_spec s (2 ^ (n - 1))); cbn; split; intros; try lia; try discriminate; auto. Qed.
Lemma add_spec : forall x y c, wf x -> wf y -> bits x = bits y -> exists r carry flag,
  add x y c = (r, carry, flag) /\ wf r /\ bits r = bits x /\
  uval r = (uval x + uval y + b2z c) mod 2 ^ bits x /\
  (carry = true <-> 2 ^ bits x <= uval x + uval y + b2z c) /\
  (flag = true <-> ~ fits (bits x) (sval x + sval y + b2z c)).
Proof.
  intros x y c Wx Wy B. destruct (add_ok x y c Wx Wy B) as (r & E & A1 & A2 & A3). eexists _, _, _. split; [exact E|]. split; [auto|]. split; [auto|]. split; [auto|]. split; [apply Z.leb_le|apply not_fits].
Qed.
Lemma sub_spec : forall x y c, wf x -> wf y -> bits x = bits y -> exists r borrow flag,
  sub x y c = (r, borrow, flag) /\ wf r /\ bits r = bits x /\
  uval r = (uval x - uval y - b2z c) mod 2 ^ bits x /\
  (borrow = true <-> uval x - uval y - b2z c < 0) /\
  (flag = true <-> ~ fits (bits x) (sval x - sval y - b2z c)).
Proof.
  intros x y c Wx Wy B. destruct (sub_ok x y c Wx Wy B) as (r & E & A1 & A2 & A3). eexists _, _, _. split; [exact E|]. split; [auto|]. split; [auto|]. split; [auto|]. split; [apply Z.ltb_lt|apply not_fits].
Qed.
Lemma not_not_fits : forall n s, ~ ~ fits n s -> fits n s.
Proof. intros n s H. unfold fits in *. lia. Qed.
Lemma add_sub_signed : forall x y c r k, wf x -> wf y -> bits x = bits y ->
  (add x y c = (r, k, false) -> sval r = sval x + sval y + b2z c) /\
  (sub x y c = (r, k, false) -> sval r = sval x - sval y - b2z c).
Proof.
  intros x y c r k Wx Wy B. split; intros H.
  - destruct (add_spec x y c Wx Wy B) as (r' & k' & f & E & A1 & A2 & A3 & _ & A5). rewrite E in H. injection H as -> -> ->. apply uval_sval; auto; rewrite A2.
    + rewrite A3. rewrite <- (sval_mod x Wx). rewrite <- (sval_mod y Wy), <- B. rewrite <- Z.add_assoc. rewrite Zplus_mod_idemp_l. rewrite Z.add_assoc, (Z.add_comm (sval x)), <- Z.add_assoc. rewrite Zplus_mod_idemp_l. f_equal. lia.
    + apply not_not_fits. intros N. apply A5 in N. discriminate.
  - destruct (sub_spec x y c Wx Wy B) as (r' & k' & f & E & A1 & A2 & A3 & _ & A5). rewrite E in H. injection H as -> -> ->. apply uval_sval; auto; rewrite A2.
    + rewrite A3. rewrite <- (sval_mod x Wx). rewrite <- (sval_mod y Wy), <- B. rewrite Z.sub_sub_distr || idtac. replace (sval x mod 2 ^ bits x - sval y mod 2 ^ bits x - b2z c) with (sval x mod 2 ^ bits x + (- b2z c - sval y mod 2 ^ bits x)) by ring.
      rewrite Zplus_mod_idemp_l. replace (sval x + (- b2z c - sval y mod 2 ^ bits x)) with ((sval x - b2z c) - sval y mod 2 ^ bits x) by ring. rewrite Zminus_mod_idemp_r. f_equal. lia.
    + apply not_not_fits. intros N. apply A5 in N. discriminate.
Qed.
Lemma compare_spec : forall x y, wf x -> wf y -> bits x = bits y ->
  Compare x y = Z.sgn (sval x - sval y) /\ Lexicompare x y = Z.sgn (uval x - uval y) /\
  (equal x y = true <-> uval x = uval y) /\ Sign x = Z.sgn (sval x).
Proof.
  intros x y Wx Wy B. split; [apply Compare_ok; auto|]. split; [apply Lexicompare_ok; auto|]. split; [|apply Sign_ok; auto]. rewrite equal_ok by auto. apply Z.eqb_eq.
Qed.
Lemma multiply_exact : forall x y z, wf x -> wf y -> wf z -> bits x = bits y -> bits y = bits z ->
  exists r e, Multiply x y z = (r, e) /\
    (Z.abs (sval y * sval z) < 2 ^ (bits x - 1) -> e = Ok /\ sval r = sval y * sval z) /\
    (2 ^ (bits x - 1) < Z.abs (sval y * sval z) -> e = Ovfl).
Proof.
  intros x y z Wx Wy Wz B1 B2. destruct (Multiply_ok x y z Wx Wy Wz B1 B2) as (r & e & E & W & B & M1 & M2). exists r, e. split; [auto|]. rewrite Z.abs_mul. split; intros H.
  - destruct M1 as [A1 A2]; [left; auto|]. split; [auto|]. apply uval_sval; auto; rewrite B; auto. rewrite <- Z.abs_mul in H. unfold fits. lia.
  - apply M2; [lia|]. intros [[H1 H2]|[H1 H2]]; rewrite H1, H2 in H; lia.
Qed.
(** To exhibit concrete vectors *)
Definition wfb (v : bv) : bool := (0 <? bits v) && (Z.of_nat (length (wds v)) =? (bits v + 31) / 32) && forallb (fun w => (0 <=? w) && (w <? 2 ^ 32)) (wds v) && (uval v <? 2 ^ bits v).
Lemma wfb_ok : forall v, wfb v = true -> wf v.
Proof.
  intros v H. unfold wfb in H. rewrite !andb_true_iff, forallb_forall in H. destruct H as [[[A B] C] D]. unfold wf. split; [lia|]. split; [lia|]. split; [|lia].
  apply Forall_forall. intros w I. specialize (C w I). unfold word. lia.
Qed.
Lemma multiply_boundary :
  (exists x y z, wf x /\ wf y /\ wf z /\ bits x = bits y /\ bits y = bits z /\
     fits (bits x) (sval y * sval z) /\ snd (Multiply x y z) = Ovfl) /\
  (exists x y z, wf x /\ wf y /\ wf z /\ bits x = bits y /\ bits y = bits z /\
     ~ fits (bits x) (sval y * sval z) /\ snd (Multiply x y z) = Ok).
Proof.
  split; [exists (BV 8 [0]), (BV 8 [192]), (BV 8 [2])|exists (BV 8 [0]), (BV 8 [128]), (BV 8 [255])]; repeat split; try (apply wfb_ok; vm_compute; reflexivity); try (vm_compute; reflexivity); try (vm_compute; discriminate).
  intros [_ H]. vm_compute in H. discriminate.
Qed.
Lemma divide_spec : forall x y, wf x -> wf y -> bits x = bits y -> sval y <> 0 ->
  exists q r, Divide x y = (q, r, Ok) /\ wf q /\ wf r /\ bits q = bits x /\ bits r = bits x /\
    Z.abs (sval r) < Z.abs (sval y) /\ 0 <= sval r * sval x /\
    (sval x = - 2 ^ (bits x - 1) /\ sval y = -1 -> sval q = sval x) /\
    (~ (sval x = - 2 ^ (bits x - 1) /\ sval y = -1) -> sval x = sval q * sval y + sval r).
Proof.
  intros x y Wx Wy B N. destruct (Divide_ok x y Wx Wy B N) as (q & r & E & Wq & Wr & Bq & Br & U & R). exists q, r.
  split; [auto|]. split; [auto|]. split; [auto|]. split; [auto|]. split; [auto|]. rewrite R. pose proof (sval_range x Wx) as Fx. unfold fits in Fx.
  assert (Nx : 0 < 2 ^ (bits x - 1)) by (apply pow2_pos; destruct Wx; lia).
  assert (N2 : 2 ^ bits x = 2 * 2 ^ (bits x - 1)) by (rewrite <- Z.pow_succ_r by (destruct Wx; lia); f_equal; lia).
  split; [apply Z.rem_bound_abs; auto|]. split; [apply Z.rem_sign_mul; auto|]. split.
  - intros [Ex Ey]. assert (Q : Z.quot (sval x) (sval y) = 2 ^ (bits x - 1)). { rewrite Ey, Ex. change (-1) with (- (1)). rewrite Z.quot_opp_opp by lia. apply Z.quot_1_r. }
    apply uval_sval; auto; rewrite Bq. + rewrite U, Q, Ex. replace (2 ^ (bits x - 1)) with (- 2 ^ (bits x - 1) + 1 * 2 ^ bits x) at 1 by lia. apply Z.mod_add. lia. + rewrite Ex. unfold fits. lia.
  - intros NE. assert (Q : sval q = Z.quot (sval x) (sval y)).
    { apply uval_sval; auto; rewrite Bq; auto. unfold fits. pose proof (Z.quot_rem' (sval x) (sval y)) as QR.
      pose proof (Z.rem_bound_abs (sval x) (sval y) N). assert (SA : Z.abs (Z.quot (sval x) (sval y)) * Z.abs (sval y) <= Z.abs (sval x)).
      { rewrite <- Z.quot_abs by auto. rewrite Z.mul_comm. apply Z.mul_quot_le; lia. }
      set (qq := Z.quot (sval x) (sval y)) in *. destruct (Z.eq_dec (sval y) (-1)) as [M|M].
      - rewrite M in *. change (Z.abs (-1)) with 1 in *. assert (Z.rem (sval x) (-1) = 0) by lia. lia.
      - destruct (Z.eq_dec (sval y) 1) as [M1|M1]; [rewrite M1 in *; change (Z.abs 1) with 1 in *; lia|]. assert (2 <= Z.abs (sval y)) by lia. assert (Z.abs qq < 2 ^ (bits x - 1)) by nia. lia. }
    rewrite Q. rewrite Z.mul_comm. apply Z.quot_rem'.
Qed.
Lemma parse_value : forall x s, wf x -> Forall chr s ->
  (forallb is_hex (clean s) = true -> snd (from_Hex x (rev s)) = Ok /\
     uval (fst (from_Hex x (rev s))) = number 16 (clean s) mod 2 ^ bits x) /\
  (forallb is_oct (clean s) = true -> snd (from_Oct x (rev s)) = Ok /\
     uval (fst (from_Oct x (rev s))) = number 8 (clean s) mod 2 ^ bits x) /\
  (forallb is_bin (clean s) = true -> snd (from_Bin x (rev s)) = Ok /\
     uval (fst (from_Bin x (rev s))) = number 2 (clean s) mod 2 ^ bits x).
Proof.
  intros x s W C. assert (N := proj1 W). pose proof (wf_cover x W). split; [|split].
  - apply (reads_all 4 is_hex (8 * length (wds x))); try lia. apply from_Hex_ok; auto.
  - apply (reads_all 3 is_oct (oct_cap (length (wds x)))); try lia. + unfold oct_cap. pose proof (Z.div_mod (32 * Z.of_nat (length (wds x)) + 2) 3 ltac:(lia)). pose proof (Z.mod_pos_bound (32 * Z.of_nat (length (wds x)) + 2) 3 ltac:(lia)). lia. + apply from_Oct_ok; auto.
  - apply (reads_all 1 is_bin (32 * length (wds x))); try lia. apply from_Bin_ok; auto.
Qed.
Lemma number_cons : forall b c s, 0 <= b -> number b (c :: s) = digit c * b ^ Z.of_nat (length s) + number b s.
Proof. intros. rewrite !number_pv. cbn [rev]. rewrite pv_app, rev_length. cbn [pv fold_right]. lia. Qed.
Lemma number_nonneg : forall b s, 0 <= b -> forallb is_dec s = true -> 0 <= number b s.
Proof.
  intros b s B. induction s as [|c s IH]; [cbn; lia|]. cbn [forallb]. intros H. apply andb_true_iff in H. destruct H as [H1 H2]. rewrite number_cons by auto. specialize (IH H2).
  unfold is_dec in H1. unfold digit. assert (0 <= b ^ Z.of_nat (length s)) by (apply Z.pow_nonneg; auto). destruct (Z.leb_spec 97 c), (Z.leb_spec 65 c), (Z.leb_spec 48 c), (Z.leb_spec c 57); try discriminate; try lia. nia.
Qed.
Lemma from_Dec_nlz : forall x c s, wf x -> 32 <= bits x ->
  forallb is_dec (c :: s) = true -> c <> 48 ->
  exists x' e, from_Dec x (rev (c :: s)) = (x', e) /\
    (number 10 (c :: s) < 2 ^ bits x -> e = Ok /\ uval x' = number 10 (c :: s)) /\
    (2 ^ bits x <= number 10 (c :: s) -> e = Ovfl).
Proof.
  intros x c s W N D C. destruct (from_Dec_ok x (c :: s) (bits x) W eq_refl N ltac:(discriminate)) as (x' & e & E & A & _). exists x', e. split; [auto|].
  destruct (A D) as (_ & _ & A1 & A2). split; [|intros; apply A2; auto]. intros H. apply A1; auto. apply Z.le_lt_trans with (2 := H).
  cbn [forallb] in D. apply andb_true_iff in D. destruct D as [D1 D2]. rewrite number_cons by lia. pose proof (number_nonneg 10 s ltac:(lia) D2).
  assert (1 <= digit c). { unfold is_dec in D1. unfold digit. destruct (Z.leb_spec 97 c), (Z.leb_spec 65 c), (Z.leb_spec 48 c), (Z.leb_spec c 57); try discriminate; lia. }
  apply Z.le_trans with (10 ^ Z.of_nat (length s)); [|nia]. apply Z.pow_le_mono_r; [lia|]. cbn [length]. replace (Z.of_nat (Datatypes.S (length s)) - 1) with (Z.of_nat (length s)) by lia.
  apply Z.mul_div_le. lia.
Qed.
Lemma from_Dec_leading : exists x s, wf x /\ 32 <= bits x /\ forallb is_dec s = true /\
  number 10 s = 1 /\ snd (from_Dec x (rev s)) = Ovfl.
Proof.
  exists (BV 32 [0]), (repeat 48 18 ++ [49]). split; [apply wfb_ok; vm_compute; reflexivity|]. split; [vm_compute; discriminate|]. repeat split; vm_compute; reflexivity.
Qed.
Lemma bitwise_spec : forall y z, wf y -> wf z -> bits y = bits z ->
  (wf (Union y z) /\ sval (Union y z) = Z.lor (sval y) (sval z)) /\
  (wf (Intersection y z) /\ sval (Intersection y z) = Z.land (sval y) (sval z)) /\
  (wf (ExclusiveOr y z) /\ sval (ExclusiveOr y z) = Z.lxor (sval y) (sval z)) /\
  (wf (Complement y) /\ sval (Complement y) = Z.lnot (sval y)).
Proof.
  intros y z Wy Wz B. split; [split; [apply Union_ok; auto|apply Union_sval; auto]|]. split; [split; [apply Intersection_ok; auto|apply Intersection_sval; auto]|].
  split; [split; [apply ExclusiveOr_ok; auto|apply ExclusiveOr_sval; auto]|]. split; [apply Complement_ok; auto|apply Complement_sval; auto].
Qed.
Lemma block_spec : forall x buf, wf x -> Forall byte buf ->
  (let r := Block_Store x buf in wf r /\ bits r = bits x /\
     uval r = lev (firstn (4 * length (wds x)) buf) mod 2 ^ bits x) /\
  Forall byte (Block_Read x) /\ length (Block_Read x) = (4 * length (wds x))%nat /\ lev (Block_Read x) = uval x.
Proof. intros. split; [apply Block_Store_ok; auto|apply Block_Read_ok; auto]. Qed.
