(** Overlap check and image of a flat binary (C37, C68). *)
From Coq Require Import ZArith Znumtheory List Bool Lia Permutation Sorted.
From Verif Require Import Lib LibBits M_BitVect P_BitVect M_Intnum P_Intnum P_IntnumIO M_BinObj P_BinNum P_BinForest P_BinObj P_BinLay P_BinVma P_BinTop P_BinMain.
Import ListNotations.
Open Scope Z_scope.

(** * Specification *)
(** Two sections at [x] and [y] have no byte in common. *)
Definition apart (b : sect) (x : Z) (c : sect) (y : Z) : Prop := forall z, ~ (x <= z < x + len b /\ y <= z < y + len c).
Definition all_apart (l : list sect) (addr : nat -> option Z) : Prop :=
  forall i j b c x y, i <> j -> nth_error l i = Some b -> nth_error l j = Some c -> addr i = Some x -> addr j = Some y -> apart b x c y.
(** What the bytecodes of a section stand for. *)
Definition chunk_bytes (c : chunk) : list Z := match c with Code l => l | Gap n => repeat 0 (Z.to_nat n) end.
Definition bytes (cs : list chunk) : list Z := flat_map chunk_bytes cs.
Definition chunks_ok (b : sect) (cs : list chunk) : Prop := (forall n, In (Gap n) cs -> 0 <= n) /\ Z.of_nat (length (bytes cs)) = len b.
(** [img] is the file [f] followed by the image: every byte of every progbits section at its distance
    from the origin, zeros elsewhere, and nothing beyond the last such byte. *)
Definition is_image (o : Z) (l : list sect) (addr : nat -> option Z) (cont : nat -> list Z) (f img : list Z) : Prop :=
  (forall k, (k < length f)%nat -> nth_error img k = nth_error f k) /\
  (forall i b x, nth_error l i = Some b -> bss b = false -> addr i = Some x -> o <= x /\
     forall k, (k < length (cont i))%nat -> nth_error img (length f + Z.to_nat (x - o) + k) = nth_error (cont i) k) /\
  (forall p, (length f <= p < length img)%nat ->
     (forall i b x, nth_error l i = Some b -> bss b = false -> addr i = Some x -> ~ (x <= o + Z.of_nat (p - length f) < x + len b)) -> nth_error img p = Some 0) /\
  ((length f <= length img)%nat /\ (length img = length f \/ exists i b x, nth_error l i = Some b /\ bss b = false /\ addr i = Some x /\ 0 < len b /\ Z.of_nat (length img) = Z.of_nat (length f) + (x - o) + len b)).

(** * Bounds *)
Lemma placed_mem : forall o l m w e, wf l -> org_ok o -> layout o l = Placed m w e ->
  forall i b, nth_error l i = Some b -> exists x, istart m i = Some x /\ canon x /\ Z.abs (ival x) <= 2 ^ 202.
Proof.
  intros o l m w e W O H. destruct (layout_cases o l W O) as [(e' & E & _)|(R & m1 & w1 & V & ST & E)]; [congruence|]. destruct (staged_vma o l R m1 V w1 W ST) as [(E' & _)|(m2 & w2 & e2 & E' & IS & _)]; [congruence|].
  assert (m2 = m) by congruence. subst. destruct (st_post _ _ _ _ _ ST) as (la & vd & PO). destruct PO as (_ & _ & _ & _ & _ & _ & _ & K & _). intros i b B. rewrite IS.
  assert (IR := st_inv _ _ _ _ _ ST). apply (inv_in follows l R i b IR) in B. destruct (K (i, b) B) as (x & A1 & A2 & A3). exists x. split; auto. split; auto. rewrite (fsz_inv follows l R IR) in A3. assert (LB := proj2 (proj2 W)).
  unfold BND in A3. assert (2 ^ 64 * 2 ^ 34 < 2 ^ 200) by (vm_compute; reflexivity). assert (2 ^ 202 = 4 * 2 ^ 200) by reflexivity. nia.
Qed.

(** * Overlap *)
Lemma blen_zero : forall b, sect_ok b -> is_zero (blen b) = (len b =? 0).
Proof. intros b (L & _). unfold blen. rewrite uint_small by auto. reflexivity. Qed.
Lemma overlap_ok : forall m i b j c x y, sect_ok b -> sect_ok c -> istart m i = Some x -> istart m j = Some y -> canon x -> canon y -> Z.abs (ival x) <= 2 ^ 202 -> Z.abs (ival y) <= 2 ^ 202 ->
  (overlap m i b j c = None <-> i = j \/ apart b (ival x) c (ival y)).
Proof.
  intros m i b j c x y Sb Sc Ix Iy Cx Cy Bx By. unfold overlap. destruct (Nat.eqb_spec i j) as [E|E]; [tauto|]. rewrite !blen_zero by auto. assert (Lb := proj1 Sb). assert (Lc := proj1 Sc).
  destruct (Z.eqb_spec (len b) 0) as [Zb|Zb]; [cbn [orb]; split; auto; intros _; right; intros z Hz; lia|]. destruct (Z.eqb_spec (len c) 0) as [Zc|Zc]; [cbn [orb]; split; auto; intros _; right; intros z Hz; lia|]. cbn [orb].
  rewrite Ix, Iy. assert (P : 2 ^ 202 * 8 < 2 ^ 255) by (vm_compute; reflexivity). destruct (blen_ok b Sb) as [Gb Eb]. destruct (blen_ok c Sc) as [Gc Ec].
  destruct (iadd_ok x (blen b) (canon_good x Cx) Gb ltac:(lia)) as [C1 V1]. destruct (iadd_ok y (blen c) (canon_good y Cy) Gc ltac:(lia)) as [C2 V2]. destruct (isub_ok (iadd x (blen b)) y C1 Cy ltac:(lia)) as [C3 V3]. destruct (isub_ok (iadd y (blen c)) x C2 Cx ltac:(lia)) as [C4 V4].
  rewrite compare_ok by auto. rewrite V1, Eb in V3. rewrite V2, Ec in V4.
  set (ov := if Z.sgn (ival x - ival y) <=? 0 then _ else _). assert (CO : canon ov) by (unfold ov; destruct (Z.sgn (ival x - ival y) <=? 0); auto). rewrite (proj2 (proj2 (proj2 (tests_ok ov CO)))).
  assert (K : 0 < ival ov <-> ~ apart b (ival x) c (ival y)).
  { unfold ov. destruct (Z.leb_spec (Z.sgn (ival x - ival y)) 0).
    - rewrite V3. split; [intros L A; apply (A (ival y)); lia|]. intro N. destruct (Z_lt_le_dec 0 (ival x + len b - ival y)); auto. exfalso. apply N. intros z Hz. lia.
    - rewrite V4. split; [intros L A; apply (A (ival x)); lia|]. intro N. destruct (Z_lt_le_dec 0 (ival y + len c - ival x)); auto. exfalso. apply N. intros z Hz. lia. }
  clearbody ov. destruct (Z.ltb_spec 0 (Z.sgn (ival ov))) as [L|L].
  - split; [discriminate|]. intros [?|A]; [contradiction|]. exfalso. apply K in A; auto. lia.
  - split; auto. intros _. right. intros z Hz. assert (~ apart b (ival x) c (ival y)) by (intro A; apply (A z); auto). apply K in H. lia.
Qed.
Lemma overlap_in_none : forall m j c all l i, (forall k, nth_error l k = nth_error all (i + k)) -> overlap_in m j c i l = None <-> forall k b, (i <= k)%nat -> nth_error all k = Some b -> overlap m k b j c = None.
Proof.
  intros m j c all. induction l as [|b l IH]; intros i K; cbn [overlap_in].
  - split; auto. intros _ k b L B. specialize (K (k - i)%nat). replace (i + (k - i))%nat with k in K by lia. rewrite B in K. destruct (k - i)%nat; discriminate.
  - assert (B0 : nth_error all i = Some b) by (specialize (K 0%nat); rewrite Nat.add_0_r in K; cbn [nth_error] in K; auto). destruct (overlap m i b j c) eqn:E.
    + split; [discriminate|]. intro H. rewrite (H i b) in E; auto; discriminate.
    + rewrite IH by (intro k; specialize (K (S k)); cbn [nth_error] in K; rewrite K; f_equal; lia). split.
      * intros H k b' L B. destruct (Nat.eq_dec k i); [subst; congruence|apply H; auto; lia].
      * intros H k b' L B. apply H; auto. lia.
Qed.
Lemma overlap_in_some : forall m j c all l i e, (forall k, nth_error l k = nth_error all (i + k)) -> overlap_in m j c i l = Some e -> exists k b n, e = Overlap k j n /\ nth_error all k = Some b /\ overlap m k b j c = Some n.
Proof.
  intros m j c all. induction l as [|b l IH]; intros i e K E; cbn [overlap_in] in E; [discriminate|]. destruct (overlap m i b j c) as [n|] eqn:Eo.
  - exists i, b, n. split; [congruence|]. split; auto. specialize (K 0%nat). rewrite Nat.add_0_r in K. auto.
  - apply (IH (S i)); auto. intro k. specialize (K (S k)). cbn [nth_error] in K. rewrite K. f_equal. lia.
Qed.
Lemma check_none : forall m all l j, (forall k, nth_error l k = nth_error all (j + k)) -> check_overlap m all j l = None <-> forall k c i b, (j <= k)%nat -> nth_error all k = Some c -> nth_error all i = Some b -> overlap m i b k c = None.
Proof.
  intros m all. induction l as [|c l IH]; intros j K; cbn [check_overlap].
  - split; auto. intros _ k c i b L C _. specialize (K (k - j)%nat). replace (j + (k - j))%nat with k in K by lia. rewrite C in K. destruct (k - j)%nat; discriminate.
  - assert (B0 : nth_error all j = Some c) by (specialize (K 0%nat); rewrite Nat.add_0_r in K; cbn [nth_error] in K; auto). assert (K' : forall k, nth_error l k = nth_error all (S j + k)) by (intro k; specialize (K (S k)); cbn [nth_error] in K; rewrite K; f_equal; lia).
    pose proof (overlap_in_none m j c all all 0 ltac:(auto)) as Q. destruct (overlap_in m j c 0 all) as [e|] eqn:E.
    + split; [discriminate|]. intro H. assert (X : Some e = None) by (apply Q; intros k b _ B; apply (H j c k b); auto). discriminate.
    + rewrite IH by exact K'. split.
      * intros H k c' i b L C B. destruct (Nat.eq_dec k j); [|apply (H k c' i b); auto; lia]. subst k. assert (c' = c) by congruence. subst. apply Q; auto. lia.
      * intros H k c' i b L C B. apply (H k c' i b); auto. lia.
Qed.
Lemma check_some : forall m all l j e, (forall k, nth_error l k = nth_error all (j + k)) -> check_overlap m all j l = Some e -> exists i b k c n, e = Overlap i k n /\ nth_error all i = Some b /\ nth_error all k = Some c /\ overlap m i b k c = Some n.
Proof.
  intros m all. induction l as [|c l IH]; intros j e K E; cbn [check_overlap] in E; [discriminate|].
  assert (B0 : nth_error all j = Some c) by (specialize (K 0%nat); rewrite Nat.add_0_r in K; cbn [nth_error] in K; auto). destruct (overlap_in m j c 0 all) as [e'|] eqn:E'.
  - apply (overlap_in_some m j c all) in E'; auto. destruct E' as (k & b & n & A & B & C). exists k, b, j, c, n. split; [congruence|auto].
  - apply (IH (S j)); auto. intro k. specialize (K (S k)). cbn [nth_error] in K. rewrite K. f_equal. lia.
Qed.
Theorem overlap_checked : forall o l m w e, wf l -> org_ok o -> layout o l = Placed m w e ->
  (check_overlap m l 0 l = None <-> all_apart l (LMA m)) /\
  forall x, check_overlap m l 0 l = Some x -> exists i j n b c s t, x = Overlap i j n /\ i <> j /\ nth_error l i = Some b /\ nth_error l j = Some c /\ LMA m i = Some s /\ LMA m j = Some t /\ ~ apart b s c t.
Proof.
  intros o l m w e W O H. pose proof (placed_mem o l m w e W O H) as PM. assert (SO := proj1 W). rewrite Forall_forall in SO.
  assert (OV : forall i b j c, nth_error l i = Some b -> nth_error l j = Some c -> exists x y, LMA m i = Some x /\ LMA m j = Some y /\ (overlap m i b j c = None <-> i = j \/ apart b x c y)).
  { intros i b j c B C. destruct (PM i b B) as (x & X1 & X2 & X3). destruct (PM j c C) as (y & Y1 & Y2 & Y3). exists (ival x), (ival y). unfold LMA. rewrite X1, Y1. split; auto. split; auto. apply overlap_ok; auto; apply SO; eapply nth_error_In; eauto. }
  split.
  - rewrite (check_none m l l 0) by auto. split.
    + intros K i j b c x y N B C X Y. destruct (OV i b j c B C) as (x' & y' & X' & Y' & Q). assert (x' = x) by congruence. assert (y' = y) by congruence. subst. assert (D : overlap m i b j c = None) by (apply (K j c i b); auto; lia). apply Q in D. destruct D; [contradiction|auto].
    + intros K k c i b _ C B. destruct (OV i b k c B C) as (x & y & X & Y & Q). apply Q. destruct (Nat.eq_dec i k); auto. right. apply (K i k b c x y); auto.
  - intros x E. apply (check_some m l l 0) in E; auto. destruct E as (i & b & j & c & n & -> & B & C & E). destruct (OV i b j c B C) as (s & t & X & Y & Q). exists i, j, n, b, c, s, t. split; auto. split; [intro; assert (D : overlap m i b j c = None) by (apply Q; auto); congruence|]. do 4 (split; auto). intro A. assert (D : overlap m i b j c = None) by (apply Q; auto). congruence.
Qed.

(** Without explicit starts and with at most one follower for each section nothing overlaps. *)
Lemma chain_last : forall fol l j k, chain fol l j k -> j = k \/ exists i b c, chain fol l j i /\ nth_error l i = Some b /\ nth_error l k = Some c /\ fol b = Some (name c).
Proof.
  intros fol l j k C. induction C as [i b Hi|i b j c r Hi Hj F C IH]; auto. right. destruct IH as [->|(i' & b' & c' & C' & B' & K' & F')].
  - exists i, b, c. split; [apply (chain_refl fol l i b); auto|auto].
  - exists i', b', c'. split; auto. apply (chain_step fol l i b j c); auto.
Qed.
Lemma chain_linear : forall fol l, (forall i j b c f, nth_error l i = Some b -> nth_error l j = Some c -> fol b = Some f -> fol c = Some f -> i = j) -> forall i r, chain fol l i r -> forall j, chain fol l j r -> chain fol l i j \/ chain fol l j i.
Proof.
  intros fol l U i r C. induction C as [i b Hi|i b k c r Hi Hk F C IH]; intros j J; auto. destruct (IH j J) as [X|X].
  - left. apply (chain_step fol l i b k c); auto.
  - destruct (chain_last _ _ _ _ X) as [->|(i' & b' & c' & C' & B' & K' & F')].
    + left. apply (chain_step fol l i b k c); auto.
    + right. replace i with i'; auto. apply (U i' i b' b (name c')); auto. congruence.
Qed.
Lemma precedes_total : forall A (L : list A) x y, In x L -> In y L -> x <> y -> precedes L x y \/ precedes L y x.
Proof.
  intros A L x y X Y N. apply in_split in X. destruct X as (P & Q & ->). apply in_app_or in Y. destruct Y as [Y|[Y|Y]].
  - right. exists P, (x :: Q). split; auto. split; auto. left. auto.
  - contradiction.
  - left. exists (P ++ [x]), Q. rewrite <- app_assoc. split; auto. split; auto. apply in_or_app. right. left. auto.
Qed.
Theorem no_overlap : forall o l m w e, wf l -> org_ok o -> layout o l = Placed m w e -> (forall b, In b l -> start b = None) ->
  (forall i j b c f, nth_error l i = Some b -> nth_error l j = Some c -> follows b = Some f -> follows c = Some f -> i = j) -> all_apart l (LMA m).
Proof.
  intros o l m w e W O H NS U. destruct (placement o l m w e W O H) as (R & (ND & RF & _) & LA). assert (NN := proj1 (proj2 W)). assert (SO := proj1 W). rewrite Forall_forall in SO.
  assert (LE : forall i b, nth_error l i = Some b -> 0 <= len b) by (intros i b B; destruct (SO b (nth_error_In l i B)) as (L & _); lia).
  assert (STEP : forall i b j c, nth_error l i = Some b -> nth_error l j = Some c -> follows b = Some (name c) -> exists x y, LMA m i = Some x /\ LMA m j = Some y /\ y + len c <= x).
  { intros i b j c B C F. destruct (LA i b B) as (x & X & _ & K & _). destruct (K _ F) as (z & (j' & c' & y & J & N & Y & ->) & U1). assert (j' = j) by (apply (name_inj l j' j c' c NN); auto). subst j'. assert (c' = c) by congruence. subst c'. exists x, y. split; auto. split; auto. destruct U1. lia. }
  assert (UPW : forall i j, chain follows l i j -> forall x c y, LMA m i = Some x -> nth_error l j = Some c -> LMA m j = Some y -> i = j \/ y + len c <= x).
  { intros i j C. induction C as [i b Hi|i b k c r Hi Hk F C IH]; intros x d y X D Y; auto. right. destruct (STEP i b k c Hi Hk F) as (x' & z & X' & Z' & L). assert (x' = x) by congruence. subst x'. destruct (IH z d y Z' D Y) as [->|L'].
    - assert (c = d) by congruence. assert (z = y) by congruence. subst. auto.
    - pose proof (LE k c Hk). lia. }
  assert (ENDS : forall i b, nth_error l i = Some b -> exists r, chain follows l i r /\ free follows l r).
  { intros i b B. destruct (rejection o l W O) as [RJ _]. destruct (layout_cases o l W O) as [(e' & E & _)|(R' & m1 & w1 & V & ST & E)]; [congruence|]. destruct ST as [_ IR FR _ _ _ _ _]. apply (fo_ends follows l R' IR FR i b B). }
  assert (ORD : forall i j b c x y r s, precedes R r s -> chain follows l i r -> chain follows l j s -> free follows l s -> nth_error l i = Some b -> nth_error l j = Some c -> LMA m i = Some x -> LMA m j = Some y -> x + len b <= y).
  { intros i j b c x y r s P C1 C2 (d & D & Fd) B C X Y. destruct (LA s d D) as (z & Z1 & _ & _ & K). destruct (K (NS d (nth_error_In l s D)) Fd) as (g & (_ & _ & G) & U1). assert (x + len b <= g) by (apply G; exists r, i, b, x; auto). destruct U1 as [_ U1].
    destruct (UPW j s C2 y d z Y D Z1) as [->|L]; [assert (z = y) by congruence; lia|]. pose proof (LE s d D). lia. }
  intros i j b c x y N B C X Y. assert (K : x + len b <= y \/ y + len c <= x); [|intros z Hz; lia].
  destruct (ENDS i b B) as (r & C1 & F1). destruct (ENDS j c C) as (s & C2 & F2). destruct (Nat.eq_dec r s) as [->|NE].
  - destruct (chain_linear follows l U i s C1 j C2) as [Q|Q].
    + right. destruct (UPW i j Q x c y X C Y); [contradiction|auto].
    + left. destruct (UPW j i Q y b x Y B X); [congruence|auto].
  - destruct (precedes_total _ R r s) as [P|P]; [apply RF; auto|apply RF; auto|auto| |].
    + left. apply (ORD i j b c x y r s); auto.
    + right. apply (ORD j i c b y x s r); auto.
Qed.

(** * Writing *)
Definition at_ (d : list Z) (k : nat) : Z := nth k d 0.
Lemma nth_repeat0 : forall n k, nth k (repeat 0 n) 0 = 0.
Proof. induction n; intros [|k]; cbn [repeat nth]; auto. Qed.
Lemma pad_length : forall d n, length (pad d n) = Nat.max (length d) n.
Proof. intros. unfold pad. rewrite app_length, repeat_length. lia. Qed.
Lemma pad_at : forall d n k, at_ (pad d n) k = at_ d k.
Proof.
  intros. unfold at_, pad. destruct (Nat.lt_ge_cases k (length d)).
  - rewrite app_nth1 by auto. auto.
  - rewrite app_nth2 by lia. rewrite nth_repeat0, nth_overflow by auto. auto.
Qed.
Lemma firstn_at : forall (d : list Z) n k, (k < n)%nat -> at_ (firstn n d) k = at_ d k.
Proof. induction d as [|a d IH]; intros [|n] [|k] H; cbn [firstn]; auto; try lia. unfold at_. cbn [nth]. apply IH. lia. Qed.
Lemma skipn_at : forall (d : list Z) n k, at_ (skipn n d) k = at_ d (n + k).
Proof. induction d as [|a d IH]; intros [|n] k; cbn [skipn]; auto. - unfold at_. destruct k; auto. - rewrite IH. reflexivity. Qed.
(** [d'] is [d] with [l] written at [p]. *)
Definition written (p : nat) (l d d' : list Z) : Prop :=
  (forall k, at_ d' k = if ((p <=? k) && (k <? p + length l))%nat then at_ l (k - p) else at_ d k) /\
  length d' = if (length l =? 0)%nat then length d else Nat.max (length d) (p + length l).
Lemma written_nil : forall p d, written p [] d d.
Proof. intros p d. split; auto. intro k. cbn [length]. destruct (Nat.leb_spec p k), (Nat.ltb_spec k (p + 0)); auto. lia. Qed.
Lemma fwrite_ok : forall f l, l <> [] -> written (pos f) l (data f) (data (fwrite f l)) /\ pos (fwrite f l) = (pos f + length l)%nat.
Proof.
  intros [d p] l N. unfold fwrite. cbn [data pos]. split; auto. assert (LF : length (firstn p (pad d p)) = p) by (rewrite firstn_length, pad_length; lia). split.
  - intro k. unfold at_. destruct (Nat.leb_spec p k) as [A|A]; cbn [andb].
    + rewrite app_nth2 by lia. rewrite LF. destruct (Nat.ltb_spec k (p + length l)).
      * rewrite app_nth1 by lia. auto.
      * rewrite app_nth2 by lia. fold (at_ (skipn (p + length l) d) (k - p - length l)). rewrite skipn_at. unfold at_. f_equal. lia.
    + rewrite app_nth1 by lia. fold (at_ (firstn p (pad d p)) k). rewrite firstn_at, pad_at by auto. auto.
  - rewrite !app_length, LF, skipn_length. destruct (Nat.eqb_spec (length l) 0) as [E|E]; [destruct l; [contradiction|discriminate]|]. lia.
Qed.
Lemma written_app : forall p a b d d1 d2, written p a d d1 -> written (p + length a) b d1 d2 -> written p (a ++ b) d d2.
Proof.
  intros p a b d d1 d2 [A1 A2] [B1 B2]. split.
  - intro k. rewrite B1, app_length. destruct (Nat.leb_spec (p + length a) k), (Nat.ltb_spec k (p + length a + length b)), (Nat.leb_spec p k), (Nat.ltb_spec k (p + (length a + length b))); cbn [andb]; try lia.
    + unfold at_. rewrite app_nth2 by lia. f_equal. lia.
    + rewrite A1. destruct (Nat.leb_spec p k), (Nat.ltb_spec k (p + length a)); cbn [andb]; auto; lia.
    + rewrite A1. destruct (Nat.leb_spec p k), (Nat.ltb_spec k (p + length a)); cbn [andb]; try lia. unfold at_. rewrite app_nth1 by lia. auto.
    + rewrite A1. destruct (Nat.leb_spec p k), (Nat.ltb_spec k (p + length a)); cbn [andb]; auto; lia.
  - rewrite B2, A2, app_length. destruct (Nat.eqb_spec (length a) 0), (Nat.eqb_spec (length b) 0), (Nat.eqb_spec (length a + length b) 0); lia.
Qed.
Lemma write_gap_ok : forall fuel f n, 0 < n -> n <= OUTBUF * Z.of_nat fuel -> written (pos f) (repeat 0 (Z.to_nat n)) (data f) (data (write_gap fuel f n)) /\ pos (write_gap fuel f n) = (pos f + Z.to_nat n)%nat.
Proof.
  assert (NE : forall n, 0 < n -> repeat 0 (Z.to_nat n) <> []) by (intros n P; destruct (Z.to_nat n) eqn:E; [lia|discriminate]).
  induction fuel as [|fuel IH]; intros f n P B; [unfold OUTBUF in B; lia|]. cbn [write_gap]. destruct (Z.ltb_spec OUTBUF n) as [L|L].
  - assert (PB : 0 < OUTBUF) by reflexivity. destruct (fwrite_ok f (repeat 0 (Z.to_nat OUTBUF)) (NE _ PB)) as [A1 A2]. rewrite repeat_length in A2. set (g := fwrite f (repeat 0 (Z.to_nat OUTBUF))) in *. clearbody g.
    destruct (IH g (n - OUTBUF)) as [B1 B2]; [lia|lia|]. split; [|rewrite B2, A2; lia]. replace (Z.to_nat n) with (Z.to_nat OUTBUF + Z.to_nat (n - OUTBUF))%nat by lia. rewrite repeat_app. apply (written_app _ _ _ _ (data g)); auto. rewrite repeat_length, <- A2. exact B1.
  - destruct (fwrite_ok f (repeat 0 (Z.to_nat n)) (NE _ P)) as [A1 A2]. rewrite repeat_length in A2. auto.
Qed.
Lemma out_chunk_ok : forall f c, (forall n, c = Gap n -> 0 <= n) -> written (pos f) (chunk_bytes c) (data f) (data (out_chunk f c)) /\ pos (out_chunk f c) = (pos f + length (chunk_bytes c))%nat.
Proof.
  intros f [l|n] K; cbn [out_chunk chunk_bytes].
  - destruct l as [|a l]; [split; [apply written_nil|cbn [length]; lia]|]. apply fwrite_ok. discriminate.
  - specialize (K n eq_refl). rewrite repeat_length. destruct (Z.eqb_spec n 0) as [->|N]; [split; [apply written_nil|lia]|]. apply write_gap_ok; [lia|]. rewrite Nat2Z.inj_succ, Z2Nat.id by (apply Z.div_pos; [lia|reflexivity]). pose proof (Z.div_mod n OUTBUF ltac:(discriminate)). pose proof (Z.mod_pos_bound n OUTBUF ltac:(reflexivity)). lia.
Qed.
Lemma out_chunks_ok : forall cs f, (forall n, In (Gap n) cs -> 0 <= n) -> written (pos f) (bytes cs) (data f) (data (fold_left out_chunk cs f)).
Proof.
  induction cs as [|c cs IH]; intros f K; cbn [fold_left]; [apply written_nil|]. destruct (out_chunk_ok f c) as [A1 A2]; [intros n ->; apply K; left; auto|]. change (bytes (c :: cs)) with (chunk_bytes c ++ bytes cs).
  apply (written_app _ _ _ _ (data (out_chunk f c))); auto. rewrite <- A2. apply IH. intros n N. apply K. right. auto.
Qed.

(** * Sections in the file *)
Definition span (w : nat * list Z) (k : nat) : Prop := (fst w <= k < fst w + length (snd w))%nat.
Inductive steps : list (nat * list Z) -> list Z -> list Z -> Prop :=
| steps_nil : forall d, steps [] d d
| steps_cons : forall w ws d d1 d2, written (fst w) (snd w) d d1 -> steps ws d1 d2 -> steps (w :: ws) d d2.
Lemma written_at : forall p l d d' k, written p l d d' -> (span (p, l) k -> at_ d' k = at_ l (k - p)) /\ (~ span (p, l) k -> at_ d' k = at_ d k).
Proof. intros p l d d' k [A _]. specialize (A k). unfold span. cbn [fst snd]. destruct (Nat.leb_spec p k), (Nat.ltb_spec k (p + length l)); cbn [andb] in A; split; intro; auto; lia. Qed.
Lemma steps_ok : forall ws d d', steps ws d d' -> ForallOrdPairs (fun v w => forall k, span v k -> span w k -> False) ws ->
  (forall w k, In w ws -> span w k -> at_ d' k = at_ (snd w) (k - fst w)) /\ (forall k, (forall w, In w ws -> ~ span w k) -> at_ d' k = at_ d k) /\
  (length d <= length d')%nat /\ (length d' = length d \/ exists w, In w ws /\ snd w <> [] /\ length d' = fst w + length (snd w))%nat /\
  (forall w, In w ws -> snd w <> [] -> (fst w + length (snd w) <= length d')%nat).
Proof.
  intros ws d d' H. induction H as [d|[p l] ws d d1 d2 W H IH]; intro P.
  - split; [intros w k []|]. split; auto. split; auto. split; auto. intros w [].
  - inversion_clear P as [|? ? P1 P2]. destruct (IH P2) as (A1 & A2 & A3 & A4 & A5). rewrite Forall_forall in P1. pose proof (written_at p l d d1) as WA. cbn [fst snd] in *.
    assert (L1 : length d1 = if (length l =? 0)%nat then length d else Nat.max (length d) (p + length l)) by apply W. assert (EL : (length l =? 0)%nat = true <-> l = []) by (destruct l; cbn; split; congruence).
    split; [|split; [|split; [|split]]].
    + intros w k [<-|I] S0; [|apply A1; auto]. cbn [fst snd]. rewrite A2 by (intros w I S1; apply (P1 w I k); auto). apply WA; auto.
    + intros k K. rewrite A2 by (intros w I; apply K; right; auto). apply WA; auto. apply (K (p, l)). left. auto.
    + destruct (length l =? 0)%nat; lia.
    + destruct A4 as [A4|(w & I & N & E)]; [|right; exists w; split; auto; right; auto]. rewrite L1 in A4. destruct (length l =? 0)%nat eqn:E0; auto. destruct (Nat.max_spec (length d) (p + length l)) as [[_ M]|[_ M]]; rewrite M in A4; auto.
      right. exists (p, l). split; [left; auto|]. cbn [fst snd]. split; auto. intro. apply EL in H0. congruence.
    + intros w [<-|I] N; [|apply A5; auto]. cbn [fst snd] in *. destruct (length l =? 0)%nat eqn:E0; [destruct N; apply EL; auto|]. lia.
Qed.
Definition swrite (I : nat -> option Z) (cont : nat -> list Z) (n0 : nat) (o : Z) (i : nat) (b : sect) : list (nat * list Z) :=
  if bss b then [] else match I i with Some x => [((n0 + Z.to_nat (x - o))%nat, cont i)] | None => [] end.
Fixpoint swrites (I : nat -> option Z) (cont : nat -> list Z) (n0 : nat) (o : Z) (i : nat) (l : list sect) : list (nat * list Z) :=
  match l with [] => [] | b :: t => swrite I cont n0 o i b ++ swrites I cont n0 o (S i) t end.
Lemma in_swrite : forall I cont n0 o i b w, In w (swrite I cont n0 o i b) <-> bss b = false /\ exists x, I i = Some x /\ w = ((n0 + Z.to_nat (x - o))%nat, cont i).
Proof.
  intros. unfold swrite. destruct (bss b); [split; [intros []|intros [? _]; discriminate]|]. destruct (I i) as [x|]; split.
  - intros [<-|[]]. eauto.
  - intros [_ (y & E & ->)]. left. congruence.
  - intros [].
  - intros [_ (y & E & _)]. discriminate.
Qed.
Lemma in_swrites : forall I cont n0 o l i w, In w (swrites I cont n0 o i l) <-> exists k b x, nth_error l k = Some b /\ bss b = false /\ I (i + k)%nat = Some x /\ w = ((n0 + Z.to_nat (x - o))%nat, cont (i + k)%nat).
Proof.
  intros I cont n0 o. induction l as [|b l IH]; intros i w; cbn [swrites].
  - split; [intros []|]. intros (k & b & x & K & _). destruct k; discriminate.
  - rewrite in_app_iff, in_swrite, IH. split.
    + intros [[B (x & E & ->)]|(k & c & x & K1 & K2 & K3 & ->)].
      * exists 0%nat, b, x. rewrite Nat.add_0_r. auto.
      * exists (S k), c, x. rewrite Nat.add_succ_r. auto.
    + intros (k & c & x & K1 & K2 & K3 & ->). destruct k as [|k].
      * left. cbn [nth_error] in K1. rewrite Nat.add_0_r in *. assert (b = c) by congruence. subst. eauto.
      * right. exists k, c, x. rewrite Nat.add_succ_r in *. auto.
Qed.
Section sections.
  Context (fsmax : Z) (o : intnum) (n0 : nat) (m : mem) (cs : nat -> list chunk) (Oo : org_ok o) (Fs : fsmax < 2 ^ 63 - 1) (N0 : Z.of_nat n0 < 2 ^ 63).
  Definition cont (i : nat) : list Z := bytes (cs i).
  Definition sok (i : nat) (b : sect) : Prop := (exists x, istart m i = Some x /\ canon x /\ Z.abs (ival x) <= 2 ^ 202) /\ (bss b = false -> forall n, In (Gap n) (cs i) -> 0 <= n).
  (** What becomes of one section. *)
  Definition sdone (i : nat) (b : sect) (f : file) (r : ores) : Prop :=
    (bss b = true /\ r = OOk f []) \/
    (bss b = false /\ exists x, LMA m i = Some x /\
      ((x < ival o /\ r = OOk f [BeforeOrg i]) \/ (2 ^ 63 <= x - ival o /\ r = OOk f [TooLarge i]) \/
       (2 ^ 31 <= x - ival o < 2 ^ 63 /\ r = Fatal) \/
       (0 <= x - ival o < 2 ^ 31 /\ fsmax < Z.of_nat n0 + (x - ival o) /\ r = Fatal) \/
       (0 <= x - ival o < 2 ^ 31 /\ Z.of_nat n0 + (x - ival o) <= fsmax /\ exists f', r = OOk f' [] /\ written (n0 + Z.to_nat (x - ival o)) (cont i) (data f) (data f')))).
  Lemma out_section_ok : forall i b f, sok i b -> sdone i b f (out_section fsmax o (Z.of_nat n0) m i b (cs i) f).
  Proof.
    intros i b f [(x & Ex & Cx & Bx) G]. unfold sdone, out_section, LMA. rewrite Ex. destruct (bss b); [left; auto|right; split; auto]. exists (ival x). split; auto. destruct Oo as [Oc Ob]. cbv zeta.
    assert (P : 2 ^ 202 * 8 < 2 ^ 255) by (vm_compute; reflexivity). assert (P2 : 2 ^ 200 < 2 ^ 202) by reflexivity. destruct (isub_ok x o Cx Oc ltac:(lia)) as [C V]. set (d := isub x o) in *. clearbody d. rewrite (proj2 (proj2 (proj2 (tests_ok d C)))).
    destruct (Z.ltb_spec (Z.sgn (ival d)) 0) as [L|L]; [left; split; auto; lia|right]. assert (D0 : 0 <= ival d) by lia. assert (P3 : 2 ^ 32 < 2 ^ 63) by reflexivity.
    rewrite check_size_ok by (auto; lia). cbv zeta. change (64 - 1) with 63. change (2 ^ 0) with 1. rewrite Z.div_1_r. change (1 <=? 0) with false. change (1 =? 1) with true. cbv iota.
    destruct (Z.leb_spec (- 2 ^ 63) (ival d)); [|lia]. cbn [andb]. destruct (Z.ltb_spec (ival d) (2 ^ 63)); cbn [negb]; [right|left; split; auto; lia].
    rewrite get_int_ok by auto. cbv zeta. destruct (Z.leb_spec (ival d) (- 2 ^ 31)); [lia|]. assert (P4 : 2 ^ 64 = 2 * 2 ^ 63) by reflexivity. destruct (Z.ltb_spec (ival d) (2 ^ 31)).
    - right. unfold wrap64. destruct (Z_lt_le_dec (ival d + Z.of_nat n0) (2 ^ 63)) as [S1|S1].
      + rewrite Z.mod_small by lia. replace (ival d + Z.of_nat n0 + 2 ^ 63 - 2 ^ 63) with (Z.of_nat n0 + ival d) by lia. destruct (Z.ltb_spec (Z.of_nat n0 + ival d) 0); [lia|]. cbn [orb]. rewrite <- V. destruct (Z.ltb_spec fsmax (Z.of_nat n0 + ival d)); [left; auto|right]. split; auto. split; auto. eexists. split; [reflexivity|].
        pose proof (out_chunks_ok (cs i) (File (data f) (Z.to_nat (Z.of_nat n0 + ival d))) (G eq_refl)) as K. cbn [pos data] in K. replace (n0 + Z.to_nat (ival d))%nat with (Z.to_nat (Z.of_nat n0 + ival d)) by lia. exact K.
      + left. split; [lia|]. split; [lia|]. assert (Q : (ival d + Z.of_nat n0 + 2 ^ 63) mod 2 ^ 64 = ival d + Z.of_nat n0 + 2 ^ 63 - 2 ^ 64) by (symmetry; apply Z.mod_unique with (q := 1); lia). rewrite Q. destruct (Z.ltb_spec (ival d + Z.of_nat n0 + 2 ^ 63 - 2 ^ 64 - 2 ^ 63) 0); [reflexivity|lia].
    - left. split; [lia|]. unfold wrap64, LONG_MAX. destruct (Z.eq_dec (Z.of_nat n0) 0) as [Z0|Z0].
      + rewrite Z0. rewrite Z.mod_small by lia. destruct (Z.ltb_spec fsmax (9223372036854775807 + 0 + 2 ^ 63 - 2 ^ 63)) as [|Q]; [rewrite orb_true_r; reflexivity|]. exfalso. assert (2 ^ 63 = 9223372036854775808) by reflexivity. lia.
      + assert (2 ^ 63 = 9223372036854775808) by reflexivity. assert (Q : (9223372036854775807 + Z.of_nat n0 + 2 ^ 63) mod 2 ^ 64 = 9223372036854775807 + Z.of_nat n0 + 2 ^ 63 - 2 ^ 64) by (symmetry; apply Z.mod_unique with (q := 1); lia). rewrite Q. destruct (Z.ltb_spec (9223372036854775807 + Z.of_nat n0 + 2 ^ 63 - 2 ^ 64 - 2 ^ 63) 0); [reflexivity|lia].
  Qed.
  Lemma out_sections_ok : forall l i f e f' e', (forall k b, nth_error l k = Some b -> sok (i + k) b) -> out_sections fsmax o (Z.of_nat n0) m cs i l f e = OOk f' e' ->
    exists e1, e' = e ++ e1 /\
      (forall x, In x e1 <-> exists k b y, nth_error l k = Some b /\ bss b = false /\ LMA m (i + k) = Some y /\ ((x = BeforeOrg (i + k) /\ y < ival o) \/ (x = TooLarge (i + k) /\ 2 ^ 63 <= y - ival o))) /\
      (e1 = [] -> steps (swrites (LMA m) cont n0 (ival o) i l) (data f) (data f')).
  Proof.
    induction l as [|b l IH]; intros i f e f' e' K E; cbn [out_sections] in E.
    - assert (f' = f) by congruence. assert (e' = e) by congruence. subst. exists []. rewrite app_nil_r. split; auto. split; [|intros _; constructor]. intro x. split; [intros []|]. intros (k & b & y & B & _). destruct k; discriminate.
    - assert (S0 : sok i b) by (rewrite <- (Nat.add_0_r i); apply K; auto). pose proof (out_section_ok i b f S0) as D. destruct (out_section fsmax o (Z.of_nat n0) m i b (cs i) f) as [|f1 e1] eqn:E1; [discriminate|].
      destruct (IH (S i) f1 (e ++ e1) f' e') as (e2 & A1 & A2 & A3); auto. { intros k c C. replace (S i + k)%nat with (i + S k)%nat by lia. apply K. auto. }
      exists (e1 ++ e2). split; [rewrite app_assoc; auto|].
      assert (HD : (forall x, In x e1 <-> bss b = false /\ exists y, LMA m i = Some y /\ ((x = BeforeOrg i /\ y < ival o) \/ (x = TooLarge i /\ 2 ^ 63 <= y - ival o))) /\ (e1 = [] -> steps (swrite (LMA m) cont n0 (ival o) i b) (data f) (data f1))).
      { unfold swrite. destruct D as [(B & D)|(B & y & Y & D)].
        - assert (f1 = f) by congruence. assert (e1 = []) by congruence. subst. rewrite B. split; [|intros _; constructor]. intro x. split; [intros []|intros [? _]; discriminate].
        - rewrite B, Y. assert (P : 0 < 2 ^ 31 < 2 ^ 63) by (split; reflexivity). destruct D as [(L & D)|[(L & D)|[(L & D)|[(L & _ & D)|(L & _ & f2 & D & Wr)]]]]; try discriminate.
          + assert (f1 = f) by congruence. assert (e1 = [BeforeOrg i]) by congruence. subst. split; [|discriminate]. intro x. split; [intros [<-|[]]; split; auto; exists y; auto|]. intros [_ (z & Z1 & [[-> _]|[-> Z2]])]; [left; auto|]. assert (z = y) by congruence. lia.
          + assert (f1 = f) by congruence. assert (e1 = [TooLarge i]) by congruence. subst. split; [|discriminate]. intro x. split; [intros [<-|[]]; split; auto; exists y; auto|]. intros [_ (z & Z1 & [[-> Z2]|[-> _]])]; [|left; auto]. assert (z = y) by congruence. lia.
          + assert (f1 = f2) by congruence. assert (e1 = []) by congruence. subst. split; [|intros _; econstructor; [exact Wr|constructor]]. intro x. split; [intros []|]. intros [_ (z & Z1 & [[_ Z2]|[_ Z2]])]; assert (z = y) by congruence; lia. }
      destruct HD as [H1 H2]. split.
      + intro x. rewrite in_app_iff, H1, A2. split.
        * intros [[B (y & Y & Q)]|(k & c & y & K1 & K2 & K3 & Q)]; [exists 0%nat, b, y; rewrite Nat.add_0_r; auto|]. exists (S k), c, y. rewrite Nat.add_succ_r. auto.
        * intros (k & c & y & K1 & K2 & K3 & Q). destruct k as [|k]; [left; cbn [nth_error] in K1; rewrite Nat.add_0_r in *; assert (b = c) by congruence; subst; eauto|]. right. exists k, c, y. rewrite Nat.add_succ_r in *. auto.
      + intro N. apply app_eq_nil in N. destruct N as [-> ->]. specialize (H2 eq_refl). specialize (A3 eq_refl). cbn [swrites]. clear - H2 A3. remember (swrite _ _ _ _ _ _) as ws. clear Heqws. revert A3. induction H2; auto. intro A3. cbn [app]. econstructor; eauto.
  Qed.
  Lemma out_sections_total : forall l i f e, (forall k b, nth_error l k = Some b -> sok (i + k) b) ->
    (forall k b x, nth_error l k = Some b -> bss b = false -> LMA m (i + k) = Some x -> 0 <= x - ival o < 2 ^ 31 /\ Z.of_nat n0 + (x - ival o) <= fsmax) -> exists f', out_sections fsmax o (Z.of_nat n0) m cs i l f e = OOk f' e.
  Proof.
    induction l as [|b l IH]; intros i f e K L; cbn [out_sections]; [eauto|]. assert (S0 : sok i b) by (rewrite <- (Nat.add_0_r i); apply K; auto). pose proof (out_section_ok i b f S0) as D.
    assert (exists f1, out_section fsmax o (Z.of_nat n0) m i b (cs i) f = OOk f1 []) as (f1 & ->).
    { destruct D as [(B & D)|(B & y & Y & D)]; [eauto|]. assert (P : 0 < 2 ^ 31 < 2 ^ 63) by (split; reflexivity). destruct (L 0%nat b y) as [L1 L2]; auto; [rewrite Nat.add_0_r; auto|]. destruct D as [(X & D)|[(X & D)|[(X & D)|[(_ & X & D)|(_ & _ & f2 & D & Wr)]]]]; try lia. eauto. }
    rewrite app_nil_r. apply IH; intros k c; [intro C|intros x C]; replace (S i + k)%nat with (i + S k)%nat by lia; [apply K|apply L]; auto.
  Qed.
End sections.

(** * Theorems *)
Definition content_ok (l : list sect) (cs : mem -> nat -> list chunk) : Prop := forall m i b, nth_error l i = Some b -> bss b = false -> chunks_ok b (cs m i).
Definition org_given (org : option (option intnum)) (o : intnum) : Prop := match org with None => o = IL 0 | Some x => x = Some o end /\ org_ok o.
Lemma origin_ok : forall org o, org_given org o -> origin org = inl o.
Proof.
  intros [x|] o [E [C B]]; cbn [origin]; [|subst; reflexivity]. subst x. rewrite (proj2 (proj2 (proj2 (tests_ok o C)))). destruct (Z.ltb_spec (Z.sgn (ival o)) 0); auto. lia.
Qed.
Lemma at_error : forall d k, (k < length d)%nat -> nth_error d k = Some (at_ d k).
Proof. intros. apply nth_error_nth'. auto. Qed.
Lemma swrites_disj : forall I ct n0 o all, all_apart all I -> (forall i b x, nth_error all i = Some b -> bss b = false -> I i = Some x -> o <= x /\ Z.of_nat (length (ct i)) = len b) ->
  forall l i, (forall k, nth_error l k = nth_error all (i + k)) -> ForallOrdPairs (fun v w => forall k, span v k -> span w k -> False) (swrites I ct n0 o i l).
Proof.
  intros I ct n0 o all AP K. induction l as [|b l IH]; intros i E; cbn [swrites]; [constructor|]. assert (E' : forall k, nth_error l k = nth_error all (S i + k)) by (intro k; specialize (E (S k)); cbn [nth_error] in E; rewrite E; f_equal; lia). specialize (IH (S i) E').
  unfold swrite. destruct (bss b) eqn:Bs; auto. destruct (I i) as [x|] eqn:Ex; auto. cbn [app]. constructor; auto. apply Forall_forall. intros w Hw. apply in_swrites in Hw. destruct Hw as (k & c & y & C1 & C2 & C3 & ->). rewrite E' in C1.
  assert (B : nth_error all i = Some b) by (specialize (E 0%nat); rewrite Nat.add_0_r in E; cbn [nth_error] in E; auto). destruct (K i b x B Bs Ex) as [X1 X2]. destruct (K _ c y C1 C2 C3) as [Y1 Y2].
  intros z S1 S2. unfold span in *. cbn [fst snd] in *. apply (AP i (S i + k)%nat b c x y ltac:(lia) B C1 Ex C3 (o + Z.of_nat (z - n0))). lia.
Qed.
Theorem image : forall fsmax org o l cs f m f' w, wf l -> org_given org o -> fsmax < 2 ^ 63 - 1 -> Z.of_nat (length f) < 2 ^ 63 -> content_ok l cs ->
  bin_output fsmax org l cs f = Output m f' w [] -> is_image (ival o) l (LMA m) (fun i => bytes (cs m i)) f (data f').
Proof.
  intros fsmax org o l cs f m f' w W OG FS LF CO E. assert (OO := proj2 OG). unfold bin_output in E. rewrite (origin_ok org o OG) in E. destruct (layout o l) as [| |m0 w0 e0] eqn:EL; try discriminate.
  destruct (overlap_checked o l m0 w0 e0 W OO EL) as [OC _]. destruct (check_overlap m0 l 0 l) eqn:EO; [discriminate|]. destruct (out_sections fsmax o (Z.of_nat (length f)) m0 (cs m0) 0 l {| data := f; pos := length f |} e0) as [|f1 e1] eqn:ES; [discriminate|].
  assert (m0 = m) by congruence. assert (f1 = f') by congruence. assert (e1 = []) by congruence. subst m0 f1 e1. assert (AP : all_apart l (LMA m)) by (apply OC; auto). clear OC E.
  pose proof (placed_mem o l m w0 e0 W OO EL) as PM. apply out_sections_ok in ES; auto; [|intros k b B; split; [apply (PM k b B)|intros Bs; apply (CO m k b B Bs)]].
  destruct ES as (e1 & A1 & A2 & A3). symmetry in A1. apply app_eq_nil in A1. destruct A1 as [-> ->]. specialize (A3 eq_refl). cbn [data] in A3.
  assert (BEF : forall i b x, nth_error l i = Some b -> bss b = false -> LMA m i = Some x -> ival o <= x /\ Z.of_nat (length (bytes (cs m i))) = len b).
  { intros i b x B Bs X. split; [|apply (CO m i b B Bs)]. destruct (Z_lt_le_dec x (ival o)); auto. exfalso. assert (H : In (BeforeOrg i) []); [|destruct H]. apply A2. exists i, b, x. cbn [Nat.add]. do 3 (split; [assumption|]). left; split; auto. }
  change (cont (cs m)) with (fun i => bytes (cs m i)) in A3. set (ct := fun i => bytes (cs m i)) in *.
  assert (BEF' : forall i b x, nth_error l i = Some b -> bss b = false -> LMA m i = Some x -> ival o <= x /\ Z.of_nat (length (ct i)) = len b) by exact BEF. clear BEF. rename BEF' into BEF. clearbody ct.
  pose proof (swrites_disj (LMA m) ct (length f) (ival o) l AP BEF l 0 ltac:(auto)) as DJ. destruct (steps_ok _ _ _ A3 DJ) as (S1 & S2 & S3 & S4 & S5).
  assert (IW : forall i b x, nth_error l i = Some b -> bss b = false -> LMA m i = Some x -> In ((length f + Z.to_nat (x - ival o))%nat, ct i) (swrites (LMA m) ct (length f) (ival o) 0 l)) by (intros i b x B Bs X; apply in_swrites; exists i, b, x; auto).
  split; [|split; [|split; [|split]]].
  - intros k K. rewrite !at_error by lia. f_equal. apply S2. intros v V0 S0. apply in_swrites in V0. destruct V0 as (j & b & x & _ & _ & _ & ->). unfold span in S0. cbn [fst snd] in S0. lia.
  - intros i b x B Bs X. split; [apply (BEF i b x B Bs X)|]. intros k K. pose proof (IW i b x B Bs X) as I. assert (NE : ct i <> []) by (intro Q; rewrite Q in K; cbn [length] in K; lia). pose proof (S5 _ I NE) as L. cbn [fst snd] in L. rewrite at_error by lia. rewrite at_error by auto. f_equal.
    rewrite (S1 _ _ I); [|unfold span; cbn [fst snd]; lia]. cbn [fst snd]. f_equal. lia.
  - intros p P K. rewrite at_error by lia. f_equal. rewrite S2; [unfold at_; apply nth_overflow; lia|]. intros v V0 S0. apply in_swrites in V0. destruct V0 as (j & b & x & B & Bs & X & ->). cbn [Nat.add] in *. unfold span in S0. cbn [fst snd] in S0. destruct (BEF j b x B Bs X) as [L1 L2]. apply (K j b x B Bs X).  lia.
  - exact S3.
  - destruct S4 as [S4|(v & V0 & N & L)]; [auto|]. right. apply in_swrites in V0. destruct V0 as (j & b & x & B & Bs & X & ->). cbn [Nat.add fst snd] in *. destruct (BEF j b x B Bs X) as [L1 L2]. exists j, b, x. do 3 (split; auto). split; [|lia]. destruct (ct j) eqn:Q; [contradiction|]. cbn [length] in L2. lia.
Qed.
Theorem accepts : forall fsmax org o l cs f m w, wf l -> org_given org o -> fsmax < 2 ^ 63 - 1 -> Z.of_nat (length f) < 2 ^ 63 -> content_ok l cs ->
  layout o l = Placed m w [] -> all_apart l (LMA m) ->
  (forall i b x, nth_error l i = Some b -> bss b = false -> LMA m i = Some x -> 0 <= x - ival o < 2 ^ 31 /\ Z.of_nat (length f) + (x - ival o) <= fsmax) ->
  exists f', bin_output fsmax org l cs f = Output m f' w [].
Proof.
  intros fsmax org o l cs f m w W OG FS LF CO EL AP K. assert (OO := proj2 OG). unfold bin_output. rewrite (origin_ok org o OG), EL. destruct (overlap_checked o l m w [] W OO EL) as [OC _]. apply OC in AP. rewrite AP.
  pose proof (placed_mem o l m w [] W OO EL) as PM. destruct (out_sections_total fsmax o (length f) m (cs m) OO FS LF l 0 {| data := f; pos := length f |} []) as (f' & ->); [| |eauto].
  - intros k b B. split; [apply (PM k b B)|intros Bs; apply (CO m k b B Bs)].
  - intros k b x B Bs X. apply (K k b x B Bs X).
Qed.
Theorem errors : forall fsmax org o l cs f m f' w e, wf l -> org_given org o -> fsmax < 2 ^ 63 - 1 -> Z.of_nat (length f) < 2 ^ 63 -> content_ok l cs ->
  bin_output fsmax org l cs f = Output m f' w e -> all_apart l (LMA m) /\
  forall i, In (BeforeOrg i) e <-> exists b x, nth_error l i = Some b /\ bss b = false /\ LMA m i = Some x /\ x < ival o.
Proof.
  intros fsmax org o l cs f m f' w e W OG FS LF CO E. assert (OO := proj2 OG). unfold bin_output in E. rewrite (origin_ok org o OG) in E. destruct (layout o l) as [| |m0 w0 e0] eqn:EL; try discriminate.
  destruct (overlap_checked o l m0 w0 e0 W OO EL) as [OC _]. destruct (check_overlap m0 l 0 l) eqn:EO; [discriminate|]. destruct (out_sections fsmax o (Z.of_nat (length f)) m0 (cs m0) 0 l {| data := f; pos := length f |} e0) as [|f1 e1] eqn:ES; [discriminate|].
  assert (m0 = m) by congruence. assert (e1 = e) by congruence. subst m0 e1. split; [apply OC; auto|]. pose proof (placed_mem o l m w0 e0 W OO EL) as PM. apply out_sections_ok in ES; auto; [|intros k b B; split; [apply (PM k b B)|intros Bs; apply (CO m k b B Bs)]].
  destruct ES as (e1 & -> & A2 & _). intro i. rewrite in_app_iff, A2. split.
  - intros [H|(k & b & y & B & Bs & Y & [[Q L]|[Q _]])]; [|assert (i = k) by (cbn [Nat.add] in Q; congruence); subst; exists b, y; auto|discriminate]. destruct (virtual o l m w0 e0 W OO EL) as (_ & _ & VE). apply VE in H. destruct H as (j & b & s & Q & _). discriminate.
  - intros (b & x & B & Bs & X & L). right. exists i, b, x. cbn [Nat.add]. do 3 (split; [assumption|]). left; split; auto.
Qed.
Theorem rejected : forall fsmax org o l cs f e, wf l -> org_given org o -> bin_output fsmax org l cs f = Rejected e ->
  layout o l = LRejected e \/ exists m w e0 i j n, layout o l = Placed m w e0 /\ e = e0 ++ [Overlap i j n] /\ ~ all_apart l (LMA m).
Proof.
  intros fsmax org o l cs f e W OG E. assert (OO := proj2 OG). unfold bin_output in E. rewrite (origin_ok org o OG) in E. destruct (layout o l) as [e1| |m0 w0 e0] eqn:EL; try discriminate; [left; congruence|]. right.
  destruct (overlap_checked o l m0 w0 e0 W OO EL) as [OC OS]. destruct (check_overlap m0 l 0 l) as [x|] eqn:EO; [|destruct (out_sections _ _ _ _ _ _ _ _ _); discriminate].
  destruct (OS x eq_refl) as (i & j & n & b & c & s & t & -> & N & B & C & Sb & Tc & NA). exists m0, w0, e0, i, j, n. split; auto. split; [congruence|]. intro A. apply NA. apply (A i j b c s t); auto.
Qed.
