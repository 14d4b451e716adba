(** The size optimizer: the smallest layout (C29). *)
From Coq Require Import ZArith List Bool Lia Permutation Arith.
From Verif Require Import Lib M_Inttree P_Inttree M_Optimize P_Optimize P_OptimizeRun P_OptimizeLoop P_OptimizeEnd P_OptimizeMain.
Import ListNotations.
Open Scope Z_scope.

(** * Specification *)
(** The bytes by which a bytecode can grow. *)
Definition most (ss : list span) (B0 : list bcode) (i : nat) : Z := added ss (map (fun s => length (forms s)) ss) i * bmult (bc B0 i).
(** Programs whose spans are distances: no counts and no offset setters; sizes do not shrink; each
    span has one term, relative to its own bytecode, that its value follows, and a distance of 0
    (or by what the bytecode at the other end can grow) is within the limits of all its forms. *)
Record distances (ss : list span) (B0 : list bcode) : Prop := {
  n_any : forall s, In s ss -> any s = false;
  n_set : forall i, setter (bc B0 i) = None;
  n_len : forall i, 0 <= blen (bc B0 i) /\ 0 <= bmult (bc B0 i);
  n_grow : forall s f, In s ss -> In f (forms s) -> 0 <= grow f;
  n_term : forall s, In s ss -> exists q f, terms s = [Rel q] /\ value s = Some f /\ (forall a b, a <= b -> f [a] <= f [b]) /\
    forall k l h, limits s k = Some (l, h) -> l <= f [0] /\ f [most ss B0 q] <= h
}.

(** * Proof *)
Lemma filled_between : forall c n m B B', (n <= m <= length B)%nat -> length B' = length B -> (forall i, sec (bc B' i) = sec (bc B i)) -> (forall i, 0 <= bsize (bc B i) <= bsize (bc B' i)) ->
  0 <= filled c m B - filled c n B <= filled c m B' - filled c n B'.
Proof.
  intros c n m B B' [NM ML] L S H. induction m as [|m IH]; [replace n with O by lia; lia|]. destruct (Nat.eq_dec n (Datatypes.S m)) as [->|N]; [lia|].
  rewrite !filled_S by lia. rewrite S. specialize (IH ltac:(lia) ltac:(lia)). pose proof (H m). destruct (Nat.eqb _ _); lia.
Qed.
Lemma grown_mono : forall s j k, (forall f, In f (forms s) -> 0 <= grow f) -> (j <= k)%nat -> grown s j <= grown s k.
Proof.
  intros s j k H. unfold grown. revert H j k. induction (forms s) as [|f l IH]; intros H j k JK; [rewrite !firstn_nil; lia|].
  destruct j as [|j]; destruct k as [|k]; try lia.
  - change (sum (map grow (firstn 0 (f :: l)))) with 0. change (sum (map grow (firstn (S k) (f :: l)))) with (grow f + sum (map grow (firstn k l))).
    pose proof (H f (or_introl eq_refl)). specialize (IH (fun x I => H x (or_intror I)) O k ltac:(lia)). cbn in IH. cbn in *. lia.
  - change (sum (map grow (firstn (S j) (f :: l)))) with (grow f + sum (map grow (firstn j l))). change (sum (map grow (firstn (S k) (f :: l)))) with (grow f + sum (map grow (firstn k l))).
    specialize (IH (fun x I => H x (or_intror I)) j k ltac:(lia)). lia.
Qed.
Lemma portion_mono : forall s j k i, (forall f, In f (forms s) -> 0 <= grow f) -> (j <= k)%nat -> 0 <= portion s j i <= portion s k i.
Proof. intros s j k i H JK. unfold portion. pose proof (grown_mono s j k H JK). pose proof (grown_mono s 0 j H ltac:(lia)). change (grown s 0) with 0 in *. destruct (_ && _); lia. Qed.
Lemma added_mono : forall ss ks ks' i, length ks = length ss -> length ks' = length ss -> (forall s f, In s ss -> In f (forms s) -> 0 <= grow f) -> (forall k, (k < length ss)%nat -> (nth k ks O <= nth k ks' O)%nat) ->
  added ss ks i <= added ss ks' i.
Proof.
  intro ss. induction ss as [|s r IH]; intros [|k ks] [|k' ks'] i L L' H LE; cbn in L, L'; try lia; try (cbn; lia). rewrite !added_cons.
  pose proof (portion_mono s k k' i (fun f => H s f (or_introl eq_refl)) (LE O ltac:(cbn; lia))). specialize (IH ks ks' i ltac:(lia) ltac:(lia) (fun s f I => H s f (or_intror I)) (fun j J => LE (S j) ltac:(cbn; lia))). lia.
Qed.

Section Least.
Variables (ss : list span) (B0 B' : list bcode) (ks : list nat).
Hypothesis W : wf ss B0.
Hypothesis N : distances ss B0.
Hypothesis ST : settled ss B0 B' ks.

Lemma mult' : forall i, bmult (bc B' i) = bmult (bc B0 i).
Proof. intro i. apply (s_plain _ _ _ _ ST). intros s I A. rewrite (n_any _ _ N s I) in A. discriminate. Qed.
Lemma len' : forall i, (i < length B0)%nat -> blen (bc B' i) = blen (bc B0 i) + added ss ks i.
Proof. intros i I. destruct (s_same _ _ _ _ ST) as [L S]. apply (s_len _ _ _ _ ST); [lia|]. destruct (S i) as [_ ->]. apply (n_set _ _ N). Qed.
Lemma sec' : forall i, sec (bc B' i) = sec (bc B0 i). Proof. intro i. apply (proj2 (s_same _ _ _ _ ST) i). Qed.
Lemma length' : length B' = length B0. Proof. apply (s_same _ _ _ _ ST). Qed.
Lemma spans' : length ks = length ss. Proof. apply (s_spans _ _ _ _ ST). Qed.
Lemma below_most : forall i, added ss ks i <= added ss (map (fun s => length (forms s)) ss) i.
Proof.
  intro i. apply added_mono; [apply spans'|apply map_length|exact (n_grow _ _ N)|]. intros k K. assert (MN : nth k (map (fun s => length (forms s)) ss) O = length (forms (sp ss k))) by exact (map_nth (fun s => length (forms s)) ss nospan k). rewrite MN.
  destruct (s_form _ _ _ _ ST k K (n_any _ _ N _ (nth_In _ _ K))) as [[R _] _]. exact R.
Qed.

(** [d] is at most as far away as [d']. *)
Definition closer (q : nat) (d d' : Z) : Prop := 0 <= d <= d' \/ d' <= d <= most ss B0 q.
Lemma escape : forall s q f d d' k, In s ss -> terms s = [Rel q] -> value s = Some f -> closer q d d' -> ~ within (f [d]) (limits s k) -> ~ within (f [d']) (limits s k).
Proof.
  intros s q f d d' k I T V C E X. destruct (n_term _ _ N s I) as (q2 & f2 & T2 & V2 & M & L). assert (q2 = q) by congruence. assert (f2 = f) by congruence. subst q2 f2.
  destruct (limits s k) as [[l h]|] eqn:LM; [|elim E; exact Logic.I]. destruct (L k l h LM) as [L1 L2]. cbn in E, X. apply E. destruct C as [[C1 C2]|[C1 C2]].
  - pose proof (M 0 d C1). pose proof (M d d' C2). lia.
  - pose proof (M d' d C1). pose proof (M d (most ss B0 q) C2). lia.
Qed.
(** Sizes between those at the start and those of the layout [B']. *)
Definition under (B : list bcode) : Prop := length B = length B0 /\ forall i, sec (bc B i) = sec (bc B0 i) /\ bmult (bc B i) = bmult (bc B0 i) /\ blen (bc B0 i) <= blen (bc B i) /\ ((i < length B0)%nat -> blen (bc B i) <= blen (bc B' i)).
Lemma under_size : forall B i, under B -> 0 <= bsize (bc B i) <= bsize (bc B' i).
Proof.
  intros B i [L H]. destruct (H i) as (_ & M & L1 & L2). destruct (n_len _ _ N i) as [P1 P2]. unfold bsize. rewrite M, mult'.
  split; [apply Z.mul_nonneg_nonneg; lia|]. apply Z.mul_le_mono_nonneg_r; auto. destruct (Nat.lt_ge_cases i (length B0)); auto. unfold bc. rewrite !nth_overflow by (rewrite ?length'; lia). lia.
Qed.
Lemma under_mono : forall B i, under B -> bsize (bc B0 i) <= bsize (bc B i).
Proof. intros B i [L H]. destruct (H i) as (_ & M & L1 & L2). destruct (n_len _ _ N i) as [P1 P2]. unfold bsize. rewrite M. apply Z.mul_le_mono_nonneg_r; auto. Qed.
Lemma under_start : under B0.
Proof.
  split; auto. intro i. repeat split; try lia. intro I. rewrite len' by auto. pose proof (added_nonneg ss ks i (n_grow _ _ N)). lia.
Qed.
Lemma most_nonneg : forall q, 0 <= most ss B0 q.
Proof. intro q. unfold most. apply Z.mul_nonneg_nonneg; [apply added_nonneg, (n_grow _ _ N)|apply (n_len _ _ N)]. Qed.
(** Distances measured with the offsets of [A] and the size of the other end in [B]. *)
Definition stale (A B : list bcode) (s : span) (q : nat) : Z := start A q + bsize (bc B q) - start A (sbc s).
Lemma dist_stale : forall B s q, dist B s (Rel q) = stale B B s q. Proof. reflexivity. Qed.
Lemma stale_closer : forall s q, In s ss -> terms s = [Rel q] -> forall A B, under A -> under B -> (forall i, blen (bc A i) <= blen (bc B i)) -> (A = B \/ A = B0) -> closer q (stale A B s q) (dist B' s (Rel q)).
Proof.
  intros s q I T A B UA UB AB AE. pose proof (w_terms _ _ W s (Rel q) I) as WT. rewrite T in WT. specialize (WT (or_introl eq_refl)). cbn in WT. destruct WT as [Q SQ]. destruct (w_span _ _ W s I) as (SB & _).
  pose proof UA as [LA HA]. assert (SA : forall i, sec (bc A i) = sec (bc B0 i)) by (intro i; apply HA).
  pose proof (under_size B q UB) as PB. unfold dist, stale, stop, start. rewrite !SA, !sec', SQ. set (c := sec (bc B0 (sbc s))).
  assert (FB : forall n m, (n <= m <= length B0)%nat -> 0 <= filled c m A - filled c n A <= filled c m B' - filled c n B').
  { intros n m NM. apply filled_between; [lia|rewrite length'; lia|intro i; rewrite sec', SA; reflexivity|intro i; apply under_size; auto]. }
  fold (bsize (bc B' q)). destruct (Nat.le_gt_cases (sbc s) q) as [LE|GT].
  - left. pose proof (FB (sbc s) q ltac:(lia)). lia.
  - right. pose proof (FB (S q) (sbc s) ltac:(lia)) as F1. pose proof (FB q (S q) ltac:(lia)) as F2. rewrite (filled_S c q A) in F1, F2 by lia. rewrite (filled_S c q B') in F1, F2 by (rewrite length'; lia).
    rewrite SA, sec', SQ in F1, F2. fold c in F1, F2. rewrite Nat.eqb_refl in F1, F2. split.
    + destruct UB as [LB HB]. assert (bsize (bc A q) <= bsize (bc B q)); [|lia]. unfold bsize. destruct (HA q) as (_ & -> & _). destruct (HB q) as (_ & -> & _). apply Z.mul_le_mono_nonneg_r; auto. apply (n_len _ _ N).
    + destruct AE as [->|EA]; [pose proof (most_nonneg q); lia|]. subst A. assert (bsize (bc B q) <= bsize (bc B0 q) + most ss B0 q); [|lia].
      assert (bsize (bc B' q) <= bsize (bc B0 q) + most ss B0 q); [|lia]. unfold bsize, most. rewrite mult', len' by auto. rewrite <- Z.mul_add_distr_r. apply Z.mul_le_mono_nonneg_r; [apply (n_len _ _ N)|]. pose proof (below_most q). lia.
Qed.

(** An expansion does not go past the form in [B']. *)
Lemma advance_below : forall k j q f d, (k < length ss)%nat -> terms (sp ss k) = [Rel q] -> value (sp ss k) = Some f -> closer q d (dist B' (sp ss k) (Rel q)) ->
  (j <= nth k ks O)%nat -> ~ within (f [d]) (limits (sp ss k) j) -> reach (sp ss k) j ->
  exists g o r, advance (f [d]) (skipn j (forms (sp ss k))) = Some (g, o, r) /\ (length (forms (sp ss k)) - length r <= nth k ks O)%nat.
Proof.
  intros k j q f d K T V C J E R. pose proof (nth_In _ nospan K) as I. destruct (s_form _ _ _ _ ST k K (n_any _ _ N _ I)) as [R' FM]. fold (sp ss k) in I. set (s := sp ss k) in *. set (k' := nth k ks O) in *.
  assert (VB : val B' s = f [dist B' s (Rel q)]) by (unfold val; rewrite V, T; reflexivity). rewrite VB in FM. fold (within (f [dist B' s (Rel q)]) (limits s k')) in FM.
  assert (NE : forall i, ~ within (f [d]) (limits s i) -> i <> k') by (intros i EI X; subst i; exact (escape s q f d _ k' I T V C EI FM)).
  assert (JL : limits s j <> None) by (intro X; rewrite X in E; apply E; exact Logic.I).
  destruct (advance (f [d]) (skipn j (forms s))) as [[[g o] r]|] eqn:AD.
  - exists g, o, r. split; auto. destruct (advance_ok s (f [d]) j g o r R JL (proj1 R) AD) as (j' & J1 & J2 & -> & _ & _ & _ & J7). rewrite skipn_length.
    destruct (Nat.le_gt_cases j' k') as [X|X]; [lia|]. exfalso. destruct (Nat.eq_dec j k') as [Y|Y]; [exact (NE j E Y)|]. apply (NE k'); [apply J7; lia|reflexivity].
  - exfalso. destruct (advance_none s (f [d]) j (proj1 R) AD) as (j' & J1 & J2 & J3). destruct (Nat.eq_dec j k') as [Y|Y]; [exact (NE j E Y)|].
    destruct (Nat.le_gt_cases k' j') as [X|X]; [apply (NE k'); [apply J3; lia|reflexivity]|]. destruct R' as (_ & R2 & _). exact (R2 j' X J2).
Qed.

Lemma first_below : forall k B, (k < length ss)%nat -> under B -> (forall i, (i < length B0)%nat -> boff (bc B i) = start B0 i) ->
  exists d B1, first_look (sp ss k) B = (d, B1, false) /\ (stage (sp ss k) d <= nth k ks O)%nat.
Proof.
  intros k B K U BO. pose proof (nth_In _ nospan K) as I. fold (sp ss k) in I. destruct (n_term _ _ N _ I) as (q & f & T & V & _). pose proof (n_any _ _ N _ I) as AN.
  pose proof (w_terms _ _ W _ (Rel q) I) as WT. rewrite T in WT. specialize (WT (or_introl eq_refl)). cbn in WT. destruct WT as [Q _]. destruct (w_span _ _ W _ I) as (SB & _).
  rewrite first_look_eq. cbv zeta. set (s := sp ss k) in *. unfold circular. rewrite AN, V. cbn [andb]. set (d0 := Dyn _ _ _ _ _ _).
  assert (NV : new_val s d0 = f [stale B0 B s q]).
  { unfold new_val, d0. rewrite V, T. cbn [map vals]. unfold tval, next_offset. fold (bc B q) (bc B (sbc s)). rewrite !BO by auto. reflexivity. }
  assert (C : closer q (stale B0 B s q) (dist B' s (Rel q))).
  { apply stale_closer; auto; [apply under_start|]. intro i. apply U. }
  destruct (over s d0) eqn:OV.
  - assert (E : ~ within (f [stale B0 B s q]) (limits s 0)).
    { rewrite <- NV. unfold over in OV. rewrite AN in OV. cbn. change (lo d0) with (lo0 s) in OV. change (hi d0) with (hi0 s) in OV. apply orb_true_iff in OV. rewrite !Z.ltb_lt in OV. lia. }
    destruct (advance_below k O q f (stale B0 B s q) K T V C ltac:(lia) E (reach_O _)) as (g & o & r & AD & LE). cbn [skipn] in AD. fold s in AD, LE. rewrite NV, AD.
    destruct o as [[l h]|]; eexists; eexists; (split; [reflexivity|exact LE]).
  - eexists; eexists; split; [reflexivity|]. unfold stage, d0. cbn [left with_cur]. lia.
Qed.
Lemma looks_below : forall r pre, ss = pre ++ r -> forall B, under B -> (forall i, (i < length B0)%nat -> boff (bc B i) = start B0 i) ->
  (forall i, (i < length B0)%nat -> blen (bc B i) + added r (skipn (length pre) ks) i <= blen (bc B' i)) ->
  exists ds B2, looks r B = (ds, B2, false) /\ forall k, (k < length r)%nat -> (stage (sp r k) (nth k ds nodyn) <= nth (length pre + k) ks O)%nat.
Proof.
  induction r as [|s r IH]; intros pre E B U BO BL; [exists [], B; split; [reflexivity|cbn; lia]|].
  assert (K : (length pre < length ss)%nat) by (rewrite E, app_length; cbn; lia).
  assert (SS : sp ss (length pre) = s) by (unfold sp; rewrite E; apply app_nth_eq).
  destruct (first_below (length pre) B K U BO) as (d & B1 & FL & LE). rewrite SS in FL, LE.
  assert (I : In s ss) by (rewrite E; apply in_or_app; cbn; auto).
  destruct (first_ok s B d B1 FL) as (L1 & S1 & _ & _).
  { destruct U as [-> _]. apply (w_span _ _ W s I). }
  { intro A. rewrite (n_any _ _ N s I) in A. discriminate. }
  assert (SK : skipn (length pre) ks = nth (length pre) ks O :: skipn (S (length pre)) ks).
  { pose proof spans' as LK. assert (X : (length pre < length ks)%nat) by lia. clear -X. revert X. generalize (length pre). induction ks as [|a l IH]; intros [|n] X; cbn in *; try lia; auto. apply IH. lia. }
  assert (GR : forall f, In f (forms s) -> 0 <= grow f) by (intro f; apply (n_grow _ _ N); auto).
  assert (BL1 : forall i, (i < length B0)%nat -> blen (bc B1 i) + added r (skipn (S (length pre)) ks) i <= blen (bc B' i)).
  { intros i IL. specialize (BL i IL). rewrite SK, added_cons in BL. destruct (S1 i) as (_ & _ & _ & -> & _). pose proof (portion_mono s _ _ i GR LE). lia. }
  assert (RN : forall ks' i, 0 <= added r ks' i) by (intros; apply added_nonneg; intros s' f I'; apply (n_grow _ _ N); rewrite E; apply in_or_app; cbn; auto).
  destruct (IH (pre ++ [s])) with (B := B1) as (ds & B2 & LR & LQ).
  - rewrite E, <- app_assoc. reflexivity.
  - destruct U as [U1 U2]. split; [lia|]. intro i. destruct (U2 i) as (A1 & A2 & A3 & A4). destruct (S1 i) as (C1 & _ & _ & C4 & C5). pose proof (portion_mono s _ _ i GR LE). pose proof (RN (skipn (S (length pre)) ks) i).
    repeat split; try congruence; try lia; [rewrite C5; auto; left; apply (n_any _ _ N s I)|]. intro IL. specialize (BL1 i IL). lia.
  - intros i IL. destruct (S1 i) as (_ & _ & -> & _). auto.
  - rewrite app_length. cbn [length]. rewrite Nat.add_1_r. exact BL1.
  - exists (d :: ds), B2. rewrite looks_cons, FL, LR. split; [reflexivity|]. intros [|k] KL; cbn [nth sp]; [rewrite Nat.add_0_r; exact LE|].
    cbn in KL. specialize (LQ k ltac:(lia)). rewrite app_length in LQ. cbn [length] in LQ. replace (length pre + S k)%nat with (length pre + 1 + k)%nat by lia. exact LQ.
Qed.

Lemma no_setters : setidx B0 = [].
Proof. destruct (setidx B0) as [|i l] eqn:E; auto. assert (X : In i (setidx B0)) by (rewrite E; cbn; auto). apply setidx_in in X. destruct X as [_ X]. rewrite (n_set _ _ N) in X. congruence. Qed.
Lemma offsets_clean : forall B B2 e prev off, (forall i, setter (bc B i) = None) -> offsets prev off B = (B2, e) -> e = false.
Proof.
  induction B as [|b r IH]; intros B2 e prev off NS OF; cbn [offsets] in OF; [congruence|].
  assert (SR : forall i, setter (bc r i) = None) by (intro i; apply (NS (Datatypes.S i))). pose proof (NS 0%nat) as SB. cbn in SB.
  destruct (match prev with None => true | Some p => _ end).
  - destruct (offsets (Some b) 0 r) as [r' e'] eqn:R. injection OF as _ <-. apply (IH _ _ _ _ SR R).
  - rewrite SB in OF. destruct (offsets (Some _) _ r) as [r' e'] eqn:R. injection OF as _ <-. cbn. apply (IH _ _ _ _ SR R).
Qed.
Definition below (z : st) : Prop := (forall k, (k < length ss)%nat -> (stage (sp ss k) (dy z k) <= nth k ks O)%nat) /\ bad z = false /\ err z = false.
Lemma core_under : forall ds0 z, core ss B0 ds0 z -> (forall k, (k < length ss)%nat -> (stage (sp ss k) (dy z k) <= nth k ks O)%nat) -> under (bcs z).
Proof.
  intros ds0 z C H. pose proof (c_len _ _ _ _ C) as L. split; auto. intro i. destruct (c_same _ _ _ _ C i) as [E1 E2]. split; auto. split; [apply (c_plain _ _ _ _ C); intros s I A; rewrite (n_any _ _ N s I) in A; discriminate|].
  pose proof (d_len _ _ (c_dinv _ _ _ _ C)) as DL.
  destruct (Nat.lt_ge_cases i (length B0)) as [I|I]; [|unfold bc; rewrite !nth_overflow by lia; split; lia].
  rewrite (c_blen _ _ _ _ C i I (n_set _ _ N i)). pose proof (added_nonneg ss (stages ss (dyns z)) i (n_grow _ _ N)). split; [lia|]. intros _. rewrite len' by auto.
  assert (added ss (stages ss (dyns z)) i <= added ss ks i); [|lia]. apply added_mono; [apply stages_length; auto|apply spans'|apply (n_grow _ _ N)|]. intros k K. rewrite stages_nth by auto. apply H. auto.
Qed.
Lemma term_err : forall diff z kj, err (term_expand ss diff z kj) = err z /\ oss (term_expand ss diff z kj) = oss z.
Proof.
  intros diff z [k j]. unfold term_expand. destruct (act (nth k (dyns z) nodyn)); auto. destruct (recalc _ _) as [d2 [|]]; split; reflexivity.
Qed.
Lemma touch_err : forall t i diff z z', touch ss t i diff z = Some z' -> err z' = err z /\ oss z' = oss z.
Proof.
  intros t i diff z z' H. unfold touch in H. destruct (across ss t i) as [l|]; [|discriminate]. injection H as <-. revert z. induction l as [|kj l IH]; intro z; cbn [fold_left]; auto.
  destruct (IH (term_expand ss diff z kj)) as [-> ->]. apply term_err.
Qed.
Lemma round_err : forall t k z z', oss z = [] -> round ss t k z = Some (Go z') -> err z' = err z.
Proof.
  intros t k z z' O H. unfold round in H. destruct (act (nth k (dyns z) nodyn)); try (injection H as <-; reflexivity).
  all: destruct (recalc _ _) as [d1 [|]]; cbn [negb] in H; [|injection H as <-; reflexivity].
  all: destruct (expand _ _ _) as [[ret d2] bs]; destruct (ret <? 0); [injection H as <-; reflexivity|].
  all: match type of H with (if ?b then _ else _) = _ => destruct b end; [injection H as <-; reflexivity|].
  all: destruct (touch _ _ _ _ _) as [z2|] eqn:TE; [|discriminate]; destruct (touch_err _ _ _ _ _ TE) as [E1 E2]; cbn [oss err] in E1, E2; rewrite E2, O in H; cbn [setters] in H; injection H as <-; exact E1.
Qed.
Lemma below_step : forall ds0 t z z' k a b, insert_all Nil (intervals ss ds0) = Some t -> below z -> inv ss B0 ds0 z -> qa z ++ qb z = k :: a ++ b ->
  round ss t k (St (bcs z) (dyns z) a b (oss z) (err z) (bad z)) = Some (Go z') -> did ss z z' k -> inv ss B0 ds0 z' -> below z'.
Proof.
  intros ds0 t z z' k a b T (BL & BD & ER) [C [O1 _]] Q R (D1 & D2 & D3) _. pose proof (c_dinv _ _ _ _ C) as DI.
  assert (OS : oss z = []) by (rewrite no_setters in O1; destruct (oss z); [reflexivity|discriminate]).
  assert (AQ : act (dy z k) = Queued) by (apply (d_queue _ _ DI); rewrite Q; cbn; auto).
  assert (LV : live (dy z k) = true) by (unfold live; rewrite AQ; auto).
  assert (K : (k < length ss)%nat).
  { rewrite <- (d_len _ _ DI). destruct (Nat.lt_ge_cases k (length (dyns z))); auto. unfold dy in AQ. rewrite nth_overflow in AQ by auto. discriminate. }
  pose proof (nth_In _ nospan K) as I. fold (sp ss k) in I. destruct (n_term _ _ N _ I) as (q & f & TQ & V & _). pose proof (n_any _ _ N _ I) as AN.
  destruct (d_loc _ _ DI k K) as [L1 L2 L3 L4 L5 L6].
  assert (L3' : limits (sp ss k) (stage (sp ss k) (dy z k)) = Some (lo (dy z k), hi (dy z k))) by (destruct L3 as [L3|[_ L3]]; [auto|congruence]).
  assert (NV : new_val (sp ss k) (dy z k) = f [dist (bcs z) (sp ss k) (Rel q)]) by (unfold new_val; rewrite V, (c_val _ _ _ _ C k LV), TQ; reflexivity).
  assert (U : under (bcs z)) by (apply (core_under ds0); auto).
  assert (CL : closer q (dist (bcs z) (sp ss k) (Rel q)) (dist B' (sp ss k) (Rel q))) by (rewrite dist_stale; apply stale_closer; auto; intros; lia).
  assert (AB : over (sp ss k) (dy z k) = true -> exists g o r, advance (new_val (sp ss k) (dy z k)) (left (dy z k)) = Some (g, o, r) /\ (length (forms (sp ss k)) - length r <= nth k ks O)%nat).
  { intro OV. rewrite L1, NV. apply (advance_below k _ q); auto. rewrite L3', <- NV. unfold within. unfold over in OV. rewrite AN in OV. apply orb_true_iff in OV. rewrite !Z.ltb_lt in OV. lia. }
  assert (OTHER : forall m, (m < length ss)%nat -> m <> k -> (stage (sp ss m) (dy z' m) <= nth m ks O)%nat).
  { intros m M NE. unfold stage. rewrite D1 by auto. apply (BL m M). }
  split; [|split; [|exact (eq_trans (round_err t k (St (bcs z) (dyns z) a b (oss z) (err z) (bad z)) z' OS R) ER)]].
  - intros m M. destruct (Nat.eq_dec m k) as [->|NE]; [|auto]. destruct D3 as [(E & _)|(_ & OV & _ & g & o & E)]; [unfold stage; rewrite E; apply (BL k M)|].
    destruct (AB OV) as (g' & o' & r & E' & LE). rewrite E in E'. injection E' as _ _ ER'. unfold stage. rewrite ER'. exact LE.
  - destruct D3 as [(_ & [E|(_ & _ & OV & E)])|(_ & _ & E & _)]; try congruence. destruct (AB OV) as (g' & o' & r & E' & LE). congruence.
Qed.
Lemma begin_below : exists B1 ds1 B2 B3, offsets None 0 B0 = (B1, false) /\ looks ss B1 = (ds1, B2, false) /\ offsets None 0 B2 = (B3, false) /\
  forall k, (k < length ss)%nat -> (stage (sp ss k) (nth k ds1 nodyn) <= nth k ks O)%nat.
Proof.
  destruct (offsets None 0 B0) as [B1 e1] eqn:O1. pose proof (offsets_clean B0 B1 e1 None 0 (n_set _ _ N) O1). subst e1.
  destruct (offsets_ok _ _ _ (w_bcs _ _ W) O1) as [L1 P1].
  assert (LK : like B0 B1) by (split; auto; intros i I; destruct (P1 i I) as (A1 & A2 & A3 & _ & A5); rewrite (n_set _ _ N) in A5; auto).
  pose proof (like_all _ _ LK) as LA.
  destruct (looks_below ss [] eq_refl B1) as (ds1 & B2 & LO & LB).
  - split; [auto|]. intro i. destruct (LA i) as (-> & _ & -> & ->). apply under_start.
  - intros i I. rewrite <- (like_start _ _ LK). apply (P1 i I).
  - intros i I. destruct (LA i) as (_ & _ & _ & ->). cbn [length skipn]. rewrite len' by auto. lia.
  - destruct (looks_ok ss B1 ds1 B2 LO) as (LD & L2 & S2 & C2).
    + intros s I. rewrite L1. apply (w_span _ _ W s I).
    + intros s I A. rewrite (n_any _ _ N s I) in A. discriminate.
    + apply (w_alone _ _ W).
    + destruct (offsets None 0 B2) as [B3 e3] eqn:O3. assert (e3 = false).
      { apply (offsets_clean B2 B3 e3 None 0); auto. intro i. destruct (S2 i) as (_ & -> & _). destruct (LA i) as (_ & -> & _). apply (n_set _ _ N). }
      subst e3. exists B1, ds1, B2, B3. auto.
Qed.
Lemma optimize_below : forall fuel, match optimize fuel ss B0 with
  | Done B ds => forall k, (k < length ss)%nat -> (nth k (stages ss ds) O <= nth k ks O)%nat | Error => False | _ => True end.
Proof.
  intro fuel. destruct begin_below as (B1 & ds1 & B2 & B3 & O1 & LO & O3 & LE). rewrite optimize_eq, O1, LO, O3. cbv zeta.
  destruct (begin_ok ss B0 B1 ds1 B2 B3 W O1 LO O3) as (C & OI & BO & DL & LF). set (z := begin ss B3 ds1) in *.
  assert (LEZ : forall k, (k < length ss)%nat -> (stage (sp ss k) (dy z k) <= nth k ks O)%nat) by (intros k K; unfold stage; rewrite LF; apply (LE k K)).
  destruct (qb z) as [|k0 q0] eqn:QB.
  { intros k K. rewrite stages_nth by auto. apply (LEZ k K). }
  destruct (tree_ok ss (dyns z)) as (t & T). rewrite T. rewrite no_cycles; [|apply (n_any _ _ N)|intros x X; apply in_seq in X; lia].
  pose proof (loop_ok ss B0 (dyns z) t W T below (fun z1 z2 k a b => below_step (dyns z) t z1 z2 k a b T) fuel z (conj C OI) (conj LEZ (conj eq_refl eq_refl))) as L.
  destruct (loop fuel ss t z) as [B ds| | |]; auto.
  - destruct L as (z' & ([C' _] & (BL & _) & _) & _ & _ & _ & ->). intros k K. rewrite stages_nth; [apply (BL k K)|apply (d_len _ _ (c_dinv _ _ _ _ C'))|exact K].
  - destruct L as (z' & ([C' _] & (_ & BD & ER) & _) & [X|[X|X]]); try congruence.
    destruct (offsets None 0 (bcs z')) as [Bx e] eqn:OF. cbn in X. subst e. enough (true = false) by discriminate. apply (offsets_clean (bcs z') Bx true None 0); auto.
    intro i. destruct (c_same _ _ _ _ C' i) as [_ ->]. apply (n_set _ _ N).
Qed.
End Least.
Lemma distances_grows : forall ss B0, distances ss B0 -> grows ss B0.
Proof.
  intros ss B0 N. split; [exact (n_grow _ _ N)|]. split; [intros i f n m SF; rewrite (n_set _ _ N) in SF; discriminate|]. split; [intro i; apply (n_len _ _ N)|exact (n_any _ _ N)].
Qed.
Theorem optimize_complete : forall fuel ss B0 B' ks, wf ss B0 -> distances ss B0 -> settled ss B0 B' ks -> (steps ss <= fuel)%nat -> exists B ds, optimize fuel ss B0 = Done B ds.
Proof.
  intros fuel ss B0 B' ks W N ST F. pose proof (optimize_below ss B0 B' ks W N ST fuel) as L.
  destruct (optimize_terminates fuel ss B0 W (distances_grows _ _ N)) as [D|E]; auto; [intros i _ _; apply (n_len _ _ N)|]. rewrite E in L. contradiction.
Qed.
Theorem optimize_least : forall fuel ss B0 B ds, wf ss B0 -> distances ss B0 -> optimize fuel ss B0 = Done B ds ->
  exists ks, settled ss B0 B ks /\ forall B' ks', settled ss B0 B' ks' ->
    (forall k, (k < length ss)%nat -> (nth k ks O <= nth k ks' O)%nat) /\ (forall i, (i < length B0)%nat -> blen (bc B i) <= blen (bc B' i)).
Proof.
  intros fuel ss B0 B ds W N D. exists (stages ss ds). pose proof (optimize_settled fuel ss B0 B ds W D) as ST. split; auto. intros B' ks' ST'.
  pose proof (optimize_below ss B0 B' ks' W N ST' fuel) as L. rewrite D in L. split; auto. intros i I.
  rewrite (len' ss B0 B _ N ST i I), (len' ss B0 B' _ N ST' i I). pose proof (added_mono ss (stages ss ds) ks' i (spans' _ _ _ _ ST) (spans' _ _ _ _ ST') (n_grow _ _ N) L). lia.
Qed.
