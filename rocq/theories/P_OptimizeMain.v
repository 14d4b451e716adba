(** The size optimizer as a whole (C28). *)
From Coq Require Import ZArith List Bool Lia Permutation Arith.
From Verif Require Import Lib M_Inttree P_Inttree M_Optimize P_Optimize P_OptimizeRun P_OptimizeLoop P_OptimizeEnd.
Import ListNotations.
Open Scope Z_scope.

Lemma added_cons : forall s r k ks i, added (s :: r) (k :: ks) i = portion s k i + added r ks i.
Proof. reflexivity. Qed.
Lemma added_none : forall ss ks i, (forall s, In s ss -> sbc s <> i) -> added ss ks i = 0.
Proof.
  intro ss. induction ss as [|s r IH]; intros [|k ks] i H; try reflexivity. rewrite added_cons, IH by (intros s' I'; apply H; cbn; auto).
  unfold portion. pose proof (H s (or_introl eq_refl)) as N. apply Nat.eqb_neq in N. rewrite N. reflexivity.
Qed.
Lemma looks_cons : forall s r B, looks (s :: r) B = let '(d, bs1, e1) := first_look s B in let '(ds, bs2, e2) := looks r bs1 in (d :: ds, bs2, e1 || e2).
Proof. reflexivity. Qed.
Lemma looks_ok : forall r B ds B', looks r B = (ds, B', false) -> (forall s, In s r -> (sbc s < length B)%nat) ->
  (forall s, In s r -> any s = true -> bmult (bc B (sbc s)) = 0) ->
  (forall k m, (k < length r)%nat -> (m < length r)%nat -> any (sp r k) = true -> any (sp r m) = true -> sbc (sp r k) = sbc (sp r m) -> k = m) ->
  length ds = length r /\ length B' = length B /\
  (forall i, sec (bc B' i) = sec (bc B i) /\ setter (bc B' i) = setter (bc B i) /\ boff (bc B' i) = boff (bc B i) /\
             blen (bc B' i) = blen (bc B i) + added r (stages r ds) i /\ ((forall s, In s r -> any s = true -> sbc s <> i) -> bmult (bc B' i) = bmult (bc B i))) /\
  (forall k, (k < length r)%nat -> (any (sp r k) = true -> bmult (bc B' (sbc (sp r k))) = cur (nth k ds nodyn)) /\ fresh (sp r k) (nth k ds nodyn)).
Proof.
  intro r. induction r as [|s r IH]; intros B ds B' H SB M0 AL.
  - cbn in H. injection H as <- <-. repeat split; auto; try (cbn in *; lia).
  - rewrite looks_cons in H. destruct (first_look s B) as [[d B1] e1] eqn:F. destruct (looks r B1) as [[ds' B2] e2] eqn:LR. injection H as <- <- E. apply orb_false_iff in E. destruct E as [-> ->].
    destruct (first_ok s B d B1 F) as (L1 & S1 & C1 & F1); [apply SB; cbn; auto|apply M0; cbn; auto|].
    assert (OTHER : forall s', In s' r -> any s = true -> any s' = true -> sbc s' <> sbc s).
    { intros s' I' A A' E. apply (In_nth _ _ nospan) in I'. destruct I' as (j & J & <-). specialize (AL O (S j)). cbn in AL. specialize (AL ltac:(lia) ltac:(lia) A A' (eq_sym E)). discriminate. }
    destruct (IH B1 ds' B2 LR) as (L2 & L3 & S2 & C2).
    + intros s' I'. rewrite L1. apply SB. cbn. auto.
    + intros s' I' A'. destruct (S1 (sbc s')) as (_ & _ & _ & _ & X). rewrite X; [apply M0; cbn; auto|]. destruct (any s) eqn:A; auto.
    + intros k m K M AK AM E. specialize (AL (S k) (S m)). cbn in AL. specialize (AL ltac:(lia) ltac:(lia) AK AM E). lia.
    + split; [cbn; lia|]. split; [congruence|]. split.
      * intro i. destruct (S1 i) as (E1 & E2 & E3 & E4 & E5). destruct (S2 i) as (G1 & G2 & G3 & G4 & G5). repeat split; try congruence.
        -- change (stages (s :: r) (d :: ds')) with (stage s d :: stages r ds'). rewrite added_cons. lia.
        -- intro N. rewrite G5 by (intros s' I'; apply N; cbn; auto). apply E5. destruct (any s) eqn:A; auto. right. intro X. apply (N s (or_introl eq_refl) A). auto.
      * intros [|k] K.
        -- cbn. split; auto. intro A. destruct (S2 (sbc s)) as (_ & _ & _ & _ & G5). rewrite G5; [auto|]. intros s' I' A'. apply OTHER; auto.
        -- apply (C2 k). cbn in K. lia.
Qed.

Lemma flat_filter : forall (p : nat -> bool) l, flat_map (fun k => if p k then [k] else []) l = filter p l.
Proof. intros p l. induction l as [|x l IH]; cbn; auto. destruct (p x); cbn; rewrite IH; reflexivity. Qed.
Lemma setter_fst : forall B, map fst (setter_list B) = setidx B.
Proof.
  intro B. unfold setter_list, setidx. generalize (seq 0 (length B)). induction l as [|i l IH]; cbn; auto. rewrite map_app, IH. unfold bc. destruct (setter (nth i B nobc)); reflexivity.
Qed.
Lemma setter_in : forall B i c, In (i, c) (setter_list B) -> c = boff (bc B i) /\ (i < length B)%nat.
Proof.
  intros B i c H. unfold setter_list in H. apply in_flat_map in H. destruct H as (j & J & K). apply in_seq in J. destruct (setter (nth j B nobc)); [|contradiction]. destruct K as [K|[]]. injection K as -> <-. split; [reflexivity|lia].
Qed.
Lemma second_look_eq : forall s B d, act d <> Gone -> second_look s B d =
  let d' := with_vals (map (tval B s) (terms s)) d in let d1 := match value s with None => with_act Off d' | Some _ => d' end in
  if over s d' then (with_act Queued d1, true) else (d1, false).
Proof. intros s B d N. unfold second_look. destruct (act d); [congruence| | |]; rewrite recalc_eq; reflexivity. Qed.
Lemma second_ok : forall s B d d' q, fresh s d -> second_look s B d = (d', q) ->
  loc s d' false /\ left d' = left d /\ cur d' = cur d /\ (q = true <-> act d' = Queued) /\ (live d' = true -> vals d' = map (tval B s) (terms s)).
Proof.
  intros s B d d' q [F1 F2 F3 F4 F5 F7] H.
  assert (G : act d = Gone \/ act d <> Gone) by (destruct (act d); auto; right; discriminate). destruct G as [G|G].
  - unfold second_look in H. rewrite G in H. injection H as <- <-. assert (LV : live d = false) by (unfold live; rewrite G; reflexivity).
    split; [|repeat split; auto; try congruence]. constructor; auto; try congruence.
    intro L. destruct (F5 L) as [A [[_ E]|[E _]]]; auto. congruence.
  - rewrite second_look_eq in H by auto. cbv zeta in H. set (d2 := with_vals _ d) in H.
    assert (ST : forall x, left x = left d -> stage s x = stage s d) by (intros x E; unfold stage; rewrite E; reflexivity).
    destruct (value s) as [f|] eqn:V.
    + assert (ON : act d = On).
      { destruct (act d) eqn:A; try congruence. assert (L : live d = false) by (unfold live; rewrite A; reflexivity). destruct (F5 L) as [_ [[X _]|(_ & X & _)]]; discriminate. }
      assert (LV : live d = true) by (unfold live; rewrite ON; reflexivity).
      assert (LM : limits s (stage s d) = Some (lo d, hi d)) by (destruct F3 as [F3|[_ F3]]; [auto|congruence]).
      destruct (over s d2) eqn:OV; injection H as <- <-; (split; [constructor; try (rewrite ST by reflexivity); cbn; auto; try discriminate|repeat split; auto; cbn; try congruence]).
      all: try (unfold live; cbn; rewrite ON; discriminate). all: rewrite V; discriminate.
    + assert (OF : act d = Off /\ lo d <= LONG_MAX <= hi d /\ any s = false).
      { destruct (live d) eqn:L; [elim (F4 eq_refl eq_refl)|]. destruct (F5 eq_refl) as [A [[X _]|(X & _ & Y)]]; [congruence|auto]. }
      destruct OF as (OF & OL & AN). assert (OV : over s d2 = false) by (unfold over, new_val; rewrite AN, V; apply orb_false_iff; rewrite !Z.ltb_ge; cbn; lia).
      rewrite OV in H. injection H as <- <-. assert (LV : live d = false) by (unfold live; rewrite OF; reflexivity). rewrite LV in F3.
      split; [constructor; try (rewrite ST by reflexivity); cbn; auto; try discriminate|repeat split; auto; cbn; try congruence; discriminate].
Qed.

(** The state in which step 2 starts. *)
Definition seen (ss : list span) (B3 : list bcode) (ds1 : list dyn) : list (dyn * bool) := map (fun '(s, d) => second_look s B3 d) (combine ss ds1).
Definition queued (l : list (dyn * bool)) : list nat := flat_map (fun k => if snd (nth k l (nodyn, false)) then [k] else []) (seq 0 (length l)).
Definition begin (ss : list span) (B3 : list bcode) (ds1 : list dyn) : st :=
  St B3 (map fst (seen ss B3 ds1)) [] (queued (seen ss B3 ds1)) (setter_list B3) false false.
Lemma tval_dist : forall B s u, (forall i, (i < length B)%nat -> boff (bc B i) = start B i) -> (sbc s < length B)%nat -> wf_term B s u -> tval B s u = dist B s u.
Proof.
  intros B s [p q|q] H S U; cbn in U; unfold tval, next_offset, dist, stop.
  - destruct U as (P & Q & _). fold (bc B p) (bc B q). rewrite !H by auto. reflexivity.
  - destruct U as (Q & _). fold (bc B q) (bc B (sbc s)). rewrite !H by auto. reflexivity.
Qed.
Lemma begin_ok : forall ss B0 B1 ds1 B2 B3, wf ss B0 -> offsets None 0 B0 = (B1, false) -> looks ss B1 = (ds1, B2, false) -> offsets None 0 B2 = (B3, false) ->
  let z := begin ss B3 ds1 in core ss B0 (dyns z) z /\ osinv B0 z /\ (forall i, (i < length B3)%nat -> boff (bc B3 i) = start B3 i) /\
  length (dyns z) = length ss /\ (forall k, left (dy z k) = left (nth k ds1 nodyn)).
Proof.
  intros ss B0 B1 ds1 B2 B3 [W1 W2 W3 W4 W5 W6] O1 LO O3 z.
  destruct (offsets_ok _ _ _ W2 O1) as [L1 P1]. pose proof (wfB_offsets _ _ W2 O1) as WB1.
  assert (S1 : forall i, sec (bc B1 i) = sec (bc B0 i) /\ setter (bc B1 i) = setter (bc B0 i) /\ bmult (bc B1 i) = bmult (bc B0 i)).
  { intro i. destruct (Nat.lt_ge_cases i (length B0)) as [I|I]; [destruct (P1 i I) as (A1 & A2 & A3 & _); auto|]. unfold bc. rewrite !nth_overflow by lia. auto. }
  destruct (looks_ok ss B1 ds1 B2 LO) as (LD & L2 & S2 & C2).
  { intros s I. rewrite L1. apply W3; auto. }
  { intros s I A. destruct (S1 (sbc s)) as (_ & _ & ->). apply W5; auto. }
  { exact W6. }
  assert (NF : forall i, (i < length B0)%nat -> first B0 i \/ setter (bc B0 i) <> None -> added ss (stages ss ds1) i = 0).
  { intros i I F. apply added_none. intros s IS E. destruct (W3 s IS) as (_ & N & S0). destruct F as [F|F]; subst i; contradiction. }
  assert (WB2 : wfB B2).
  { apply (wfB_mk B1); auto.
    - intro i. destruct (S2 i) as (A1 & A2 & _). auto.
    - intros i I N. destruct (S2 i) as (_ & _ & _ & _ & X). apply X. intros s IS A E. destruct (W3 s IS) as (_ & _ & S0). subst i. destruct (S1 (sbc s)) as (_ & E & _). congruence.
    - intros i I F. destruct (S2 i) as (_ & _ & -> & -> & _). destruct (w_first B1 WB1 i I F) as (-> & -> & _). split; auto. rewrite NF; [reflexivity|lia|]. left. apply (sec_first B0 B1); auto. intro j. apply S1. }
  destruct (offsets_ok _ _ _ WB2 O3) as [L3 P3]. pose proof (wfB_offsets _ _ WB2 O3) as WB3.
  assert (S3 : forall i, sec (bc B3 i) = sec (bc B0 i) /\ setter (bc B3 i) = setter (bc B0 i) /\ bmult (bc B3 i) = bmult (bc B2 i)).
  { intro i. destruct (S1 i) as (X1 & X2 & X3). destruct (S2 i) as (Y1 & Y2 & _). destruct (Nat.lt_ge_cases i (length B2)) as [I|I]; [destruct (P3 i I) as (A1 & A2 & A3 & _); repeat split; congruence|].
    split; [|split]; [rewrite <- X1, <- Y1|rewrite <- X2, <- Y2|]; unfold bc; rewrite !nth_overflow by lia; auto. }
  assert (LS : length (seen ss B3 ds1) = length ss) by (unfold seen; rewrite map_length, combine_length; lia).
  assert (SEE : forall k, (k < length ss)%nat -> nth k (seen ss B3 ds1) (nodyn, false) = second_look (sp ss k) B3 (nth k ds1 nodyn)).
  { intros k K. unfold seen. rewrite (nth_indep _ _ ((fun '(s, d) => second_look s B3 d) (nospan, nodyn))) by (fold (seen ss B3 ds1); lia). etransitivity; [apply (map_nth (fun '(s, d) => second_look s B3 d) (combine ss ds1) (nospan, nodyn))|]. rewrite combine_nth by auto. reflexivity. }
  assert (LZ : length (dyns z) = length ss) by (unfold z, begin; cbn; rewrite map_length; auto).
  assert (DY : forall k, dy z k = fst (nth k (seen ss B3 ds1) (nodyn, false))).
  { intro k. unfold dy, z, begin. cbn [dyns]. change nodyn with (fst (nodyn, false)). rewrite map_nth. reflexivity. }
  assert (OK : forall k, (k < length ss)%nat -> loc (sp ss k) (dy z k) false /\ left (dy z k) = left (nth k ds1 nodyn) /\ cur (dy z k) = cur (nth k ds1 nodyn) /\
     (snd (nth k (seen ss B3 ds1) (nodyn, false)) = true <-> act (dy z k) = Queued) /\ (live (dy z k) = true -> vals (dy z k) = map (tval B3 (sp ss k)) (terms (sp ss k)))).
  { intros k K. rewrite DY, SEE by auto. destruct (second_look (sp ss k) B3 (nth k ds1 nodyn)) as [d' q] eqn:E. apply (second_ok _ _ (nth k ds1 nodyn)); auto. apply C2; auto. }
  assert (OUT : forall k, (length ss <= k)%nat -> dy z k = nodyn) by (intros k K; unfold dy; apply nth_overflow; lia).
  assert (LEFT : forall k, left (dy z k) = left (nth k ds1 nodyn)).
  { intro k. destruct (Nat.lt_ge_cases k (length ss)) as [K|K]; [apply (OK k K)|]. rewrite OUT by auto. rewrite nth_overflow by lia. reflexivity. }
  assert (BO : forall i, (i < length B3)%nat -> boff (bc B3 i) = start B3 i) by (intros i I; apply P3; lia).
  assert (QQ : forall k, In k (queued (seen ss B3 ds1)) <-> act (dy z k) = Queued).
  { intro k. unfold queued. rewrite (flat_filter (fun k => snd (nth k (seen ss B3 ds1) (nodyn, false)))), filter_In, in_seq, LS. destruct (Nat.lt_ge_cases k (length ss)) as [K|K].
    - destruct (OK k K) as (_ & _ & _ & <- & _). split; [intros [_ E]; exact E|intro E; split; [lia|exact E]].
    - rewrite OUT by auto. split; [intros [? _]; lia|discriminate]. }
  split; [|split; [|split; [|split]]]; auto.
  - constructor; auto.
    + constructor; auto.
      * intros k K. apply (OK k K).
      * cbn [qa qb app z begin]. unfold queued. rewrite flat_filter. apply NoDup_filter, seq_NoDup.
    + cbn. lia.
    + intro i. destruct (S3 i) as (A1 & A2 & _). auto.
    + intros i I S0. cbn [z begin bcs]. assert (I2 : (i < length B2)%nat) by lia. destruct (P3 i I2) as (_ & _ & _ & _ & X3). destruct (S1 i) as (_ & E1 & _). destruct (S2 i) as (_ & E2 & _ & E3 & _).
      rewrite E2, E1, S0 in X3. destruct (P1 i I) as (_ & _ & _ & _ & X1). rewrite S0 in X1. rewrite (stages_ext ss (dyns z) ds1); [congruence|exact (eq_trans LZ (eq_sym LD))|exact LEFT].
    + intros k K A. cbn [z begin bcs]. destruct (S3 (sbc (sp ss k))) as (_ & _ & ->). destruct (OK k K) as (_ & _ & -> & _). apply C2; auto.
    + intros i N. cbn [z begin bcs]. destruct (S3 i) as (_ & _ & ->). destruct (S2 i) as (_ & _ & _ & _ & X). rewrite X by auto. apply S1.
    + intros k LV. destruct (Nat.lt_ge_cases k (length ss)) as [K|K]; [|rewrite OUT in LV by auto; discriminate]. destruct (OK k K) as (_ & _ & _ & _ & V). rewrite (V LV). apply map_ext_in. intros u U.
      assert (IS : In (sp ss k) ss) by (apply nth_In; auto). apply tval_dist; auto.
      * destruct (W3 _ IS). cbn. lia.
      * apply (wf_term_ext B0); auto; [cbn; lia|]. intro i. symmetry. apply S3.
    + intros k LV. fold (dy z k). unfold notgone, live in *. destruct (act (dy z k)); auto; discriminate.
  - split; [cbn; rewrite setter_fst; unfold setidx|].
    + replace (length B3) with (length B0) by lia. apply filter_ext. intro i. destruct (S3 i) as (_ & -> & _). reflexivity.
    + apply Forall_forall. intros [i c] IN. cbn [z begin oss] in IN. apply setter_in in IN. destruct IN as [-> I]. unfold setok. cbn [fst snd z begin bcs err]. split; [apply BO; auto|].
      intros _ f SF. destruct (S3 i) as (_ & E3 & _). assert (I2 : (i < length B2)%nat) by lia. destruct (P3 i I2) as (_ & E2 & _ & E & X). rewrite <- E2, E3, SF in X. rewrite E. destruct (f (start B3 i)); [congruence|]. destruct X; discriminate.
Qed.

(** * The whole *)
Lemma optimize_eq : forall fuel ss B0, optimize fuel ss B0 =
  let '(B1, e1) := offsets None 0 B0 in
  if e1 then Error else
  let '(ds1, B2, e2) := looks ss B1 in
  if e2 then Error else
  let '(B3, e3) := offsets None 0 B2 in
  if e3 then Error else
  let z := begin ss B3 ds1 in
  match qb z with
  | [] => Done (bcs z) (dyns z)
  | _ => match insert_all Nil (intervals ss (dyns z)) with
         | None => Internal
         | Some t => match check_cycles ss (dyns z) t (seq 0 (length ss)) (repeat [] (length ss)) with
                     | None => Internal | Some true => Error | Some false => loop fuel ss t z
                     end
         end
  end.
Proof. reflexivity. Qed.
Lemma begin_like : forall B, like B B. Proof. intro B. split; auto. Qed.
Theorem optimize_settled : forall fuel ss B0 B ds, wf ss B0 -> optimize fuel ss B0 = Done B ds -> settled ss B0 B (stages ss ds).
Proof.
  intros fuel ss B0 B ds W H. rewrite optimize_eq in H.
  destruct (offsets None 0 B0) as [B1 [|]] eqn:O1; [discriminate|]. destruct (looks ss B1) as [[ds1 B2] [|]] eqn:LO; [discriminate|]. destruct (offsets None 0 B2) as [B3 [|]] eqn:O3; [discriminate|].
  cbv zeta in H. destruct (begin_ok ss B0 B1 ds1 B2 B3 W O1 LO O3) as (C & OI & BO & _ & _). set (z := begin ss B3 ds1) in *.
  destruct (qb z) as [|k q] eqn:QB.
  - injection H as <- <-. apply (settled_of ss B0 (dyns z) z); auto. apply begin_like.
  - destruct (insert_all Nil (intervals ss (dyns z))) as [t|] eqn:T; [|discriminate]. destruct (check_cycles _ _ _ _ _) as [[|]|]; try discriminate.
    pose proof (loop_ok ss B0 (dyns z) t W T (fun _ => True) ltac:(auto) fuel z (conj C OI) Logic.I) as L. rewrite H in L.
    destruct L as (z' & ([C' OI'] & _ & QA' & QB') & BD & ER & OF & ->).
    destruct (offsets_fix (bcs z') B false (c_wfB _ _ _ _ C') OF) as [LK BF].
    { intros i f I SF. destruct (c_same _ _ _ _ C' i) as [_ ES]. pose proof (c_len _ _ _ _ C') as LN. destruct OI' as [S1 S2].
      assert (IN : In i (map fst (oss z'))) by (rewrite S1; apply setidx_in; split; [lia|congruence]).
      apply in_map_iff in IN. destruct IN as ([i' c] & E & IN). cbn in E. subst i'. rewrite Forall_forall in S2. destruct (S2 _ IN) as [S3 S4]. cbn [fst snd] in S3, S4. rewrite <- S3. apply S4; auto. congruence. }
    apply (settled_of ss B0 (dyns z) z'); auto.
Qed.

(** How much fuel is enough. *)
Definition steps (ss : list span) : nat := S (list_sum (map (fun s => length (forms s)) ss) * S (length ss) + length ss).
Lemma added_nonneg : forall ss ks i, (forall s f, In s ss -> In f (forms s) -> 0 <= grow f) -> 0 <= added ss ks i.
Proof.
  intro ss. induction ss as [|s r IH]; intros [|k ks] i H; try reflexivity. rewrite added_cons. assert (0 <= added r ks i) by (apply IH; intros s' f I'; apply H; cbn; auto).
  unfold portion. destruct (_ && _); [|lia]. assert (0 <= grown s k); [|lia]. unfold grown.
  assert (F : forall f, In f (firstn k (forms s)) -> 0 <= grow f) by (intros f F; apply (H s); [cbn; auto|rewrite <- (firstn_skipn k (forms s)); apply in_or_app; auto]).
  revert F. generalize (firstn k (forms s)). induction l as [|f l IHl]; intro F; cbn; [lia|]. pose proof (F f (or_introl eq_refl)). specialize (IHl (fun x I => F x (or_intror I))). unfold sum in *. lia.
Qed.
Lemma nonneg_core : forall ss B0 ds0 z, wf ss B0 -> core ss B0 ds0 z -> osinv B0 z -> err z = false -> grows ss B0 -> (forall i, (i < length B0)%nat -> setter (bc B0 i) = None -> 0 <= blen (bc B0 i)) -> nonneg z.
Proof.
  intros ss B0 ds0 z W C [S1 S2] ER (G1 & G2 & G3 & G4) N i. pose proof (c_len _ _ _ _ C) as LN.
  assert (M : bmult (bc (bcs z) i) = bmult (bc B0 i)) by (apply (c_plain _ _ _ _ C); intros s I A; rewrite (G4 s I) in A; discriminate).
  unfold bsize. rewrite M. apply Z.mul_nonneg_nonneg; [|apply G3].
  destruct (Nat.lt_ge_cases i (length B0)) as [I|I]; [|unfold bc; rewrite nth_overflow by lia; cbn; lia].
  destruct (setter (bc B0 i)) as [f|] eqn:SE.
  - assert (IN : In i (map fst (oss z))) by (rewrite S1; apply setidx_in; split; [lia|congruence]).
    apply in_map_iff in IN. destruct IN as ([i' c] & E & IN). cbn in E. subst i'. rewrite Forall_forall in S2. destruct (S2 _ IN) as [S3 S4]. cbn [fst snd] in S3, S4. apply (G2 i f c); auto.
  - rewrite (c_blen _ _ _ _ C i I SE). pose proof (N i I SE). pose proof (added_nonneg ss (stages ss (dyns z)) i G1). lia.
Qed.
Lemma total_le : forall ss z, dinv ss z -> (total z <= list_sum (map (fun s => length (forms s)) ss))%nat.
Proof.
  intros ss z [D1 D2 _ _]. assert (H : forall k, (k < length ss)%nat -> (length (left (dy z k)) <= length (forms (sp ss k)))%nat).
  { intros k K. destruct (D2 k K) as [L _ _ _ _ _]. rewrite L, skipn_length. lia. }
  clear D2. unfold total, dy, sp in *. revert D1 H. generalize (dyns z). clear z. induction ss as [|s r IH]; intros [|d l] L H; cbn in *; try lia.
  pose proof (H O ltac:(lia)). cbn in *. specialize (IH l ltac:(lia) (fun k K => H (S k) ltac:(lia))). unfold list_sum in *. lia.
Qed.
Lemma no_cycles : forall ss ds t ks bts, (forall s, In s ss -> any s = false) -> (forall k, In k ks -> (k < length ss)%nat) -> check_cycles ss ds t ks bts = Some false.
Proof.
  intros ss ds t ks. induction ks as [|k r IH]; intros bts A K; cbn [check_cycles]; auto. rewrite (A (nth k ss nospan)) by (apply nth_In, K; cbn; auto). cbn [andb]. apply IH; auto. intros x X. apply K. cbn. auto.
Qed.
Theorem optimize_terminates : forall fuel ss B0, wf ss B0 -> grows ss B0 -> (forall i, (i < length B0)%nat -> setter (bc B0 i) = None -> 0 <= blen (bc B0 i)) -> (steps ss <= fuel)%nat ->
  (exists B ds, optimize fuel ss B0 = Done B ds) \/ optimize fuel ss B0 = Error.
Proof.
  intros fuel ss B0 W G N F. rewrite optimize_eq.
  destruct (offsets None 0 B0) as [B1 [|]] eqn:O1; [auto|]. destruct (looks ss B1) as [[ds1 B2] [|]] eqn:LO; [auto|]. destruct (offsets None 0 B2) as [B3 [|]] eqn:O3; [auto|].
  cbv zeta. destruct (begin_ok ss B0 B1 ds1 B2 B3 W O1 LO O3) as (C & OI & BO & _ & _). set (z := begin ss B3 ds1) in *.
  destruct (qb z) as [|k q] eqn:QB; [left; eauto|].
  destruct (tree_ok ss (dyns z)) as (t & T). rewrite T. rewrite no_cycles; [|apply G|intros x X; apply in_seq in X; lia].
  pose proof (loop_ok ss B0 (dyns z) t W T (fun _ => True) ltac:(auto) fuel z (conj C OI) Logic.I) as L.
  destruct (loop fuel ss t z) as [B ds| | |]; eauto.
  - elim (L G). apply (nonneg_core ss B0 (dyns z)); auto.
  - specialize (L G). unfold work in L. pose proof (total_le ss z (c_dinv _ _ _ _ C)) as TL. pose proof (queue_small ss z (c_dinv _ _ _ _ C)) as QS. unfold steps in F. nia.
Qed.
