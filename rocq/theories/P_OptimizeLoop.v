(** The size optimizer: its main loop (C28). *)
From Coq Require Import ZArith List Bool Lia Permutation Arith.
From Verif Require Import Lib M_Inttree P_Inttree M_Optimize P_Optimize P_OptimizeRun.
Import ListNotations.
Open Scope Z_scope.

Definition total (z : st) : nat := list_sum (map (fun d => length (left d)) (dyns z)).
Lemma total_ext : forall z z', length (dyns z') = length (dyns z) -> (forall k, left (dy z' k) = left (dy z k)) -> total z' = total z.
Proof.
  unfold total, dy. intros z z'. generalize (dyns z) (dyns z'). clear. induction l as [|d l IH]; intros [|d' l'] L H; cbn in *; try lia. specialize (IH l' ltac:(lia) (fun k => H (S k))). pose proof (H O) as E. cbn in E. rewrite E. unfold list_sum in *. lia.
Qed.
Lemma total_upd : forall z z' k, length (dyns z') = length (dyns z) -> (k < length (dyns z))%nat -> (length (left (dy z' k)) < length (left (dy z k)))%nat ->
  (forall m, m <> k -> left (dy z' m) = left (dy z m)) -> (total z' < total z)%nat.
Proof.
  unfold total, dy. intros z z'. generalize (dyns z) (dyns z'). clear. induction l as [|d l IH]; intros [|d' l'] [|k] L K SH H; cbn in *; try lia.
  - assert (E : list_sum (map (fun d => length (left d)) l') = list_sum (map (fun d => length (left d)) l)).
    { assert (HH : forall m, left (nth m l' nodyn) = left (nth m l nodyn)) by (intro m; apply (H (S m)); lia). clear -L HH. revert l' L HH. induction l as [|a l IH]; intros [|b l'] L HH; cbn in *; try lia.
      specialize (IH l' ltac:(lia) (fun m => HH (S m))). pose proof (HH O) as E. cbn in E. rewrite E. unfold list_sum in *. lia. }
    unfold list_sum in *. lia.
  - specialize (IH l' k ltac:(lia) ltac:(lia) SH (fun m N => H (S m) ltac:(lia))). pose proof (H O ltac:(lia)) as E. cbn in E. rewrite E. unfold list_sum in *. lia.
Qed.

Section Round.
Variables (ss : list span) (B0 : list bcode) (ds0 : list dyn) (t : tree).
Hypothesis W : wf ss B0.
Hypothesis T : insert_all Nil (intervals ss ds0) = Some t.
Definition inv (z : st) : Prop := core ss B0 ds0 z /\ osinv B0 z.

(** The state after the bytecode of span [k] was changed by [f]. *)
Definition changed (z z2 : st) (k : nat) (f : bcode -> bcode) : Prop :=
  bcs z2 = upd (sbc (sp ss k)) f (bcs z) /\ length (dyns z2) = length (dyns z) /\
  (forall m, m <> k -> cur (dy z2 m) = cur (dy z m) /\ left (dy z2 m) = left (dy z m) /\ live (dy z2 m) = live (dy z m)) /\
  (live (dy z2 k) = true -> live (dy z k) = true) /\
  ((any (sp ss k) = true /\ f = with_mult (cur (dy z2 k)) /\ left (dy z2 k) = left (dy z k)) \/
   (any (sp ss k) = false /\ exists g, f = (fun b => with_len (blen b + g) b) /\ grown (sp ss k) (stage (sp ss k) (dy z2 k)) = grown (sp ss k) (stage (sp ss k) (dy z k)) + g)).
Lemma changed_f : forall z z2 k f, changed z z2 k f -> forall b, sec (f b) = sec b /\ setter (f b) = setter b.
Proof. intros z z2 k f (_ & _ & _ & _ & [(_ & -> & _)|(_ & g & -> & _)]) b; split; reflexivity. Qed.
Lemma core_step : forall z z2 k f, core ss B0 ds0 z -> (k < length ss)%nat -> changed z z2 k f -> dinv ss z2 ->
  (forall m, live (dy z2 m) = true -> vals (dy z2 m) = map (dist (bcs z2) (sp ss m)) (terms (sp ss m))) -> core ss B0 ds0 z2.
Proof.
  intros z z2 k f C K CH D V. pose proof (changed_f _ _ _ _ CH) as FF. destruct CH as (EB & LD & OT & LV & CS).
  destruct C as [C1 C2 C3 C4 C5 C6 C7 C8 C9]. assert (IS : In (sp ss k) ss) by (apply nth_In; auto).
  destruct (w_span ss B0 W _ IS) as (SL & SN & SS).
  assert (SEC : forall i, sec (bc (bcs z) i) = sec (bc B0 i)) by (intro i; apply C3).
  constructor; auto.
  - rewrite EB, upd_length. auto.
  - intro i. rewrite EB, bc_upd. destruct (_ && _); auto. destruct (FF (bc (bcs z) i)) as [-> ->]. auto.
  - rewrite EB. apply wfB_upd; auto.
    + intro FI. apply SN. apply (sec_app_first (bcs z) B0); auto.
    + destruct (C3 (sbc (sp ss k))) as [_ ->]. congruence.
  - intros i I SI. rewrite EB, bc_upd.
    assert (ST : added ss (stages ss (dyns z2)) i = added ss (stages ss (dyns z)) i + (if Nat.eqb (sbc (sp ss k)) i && negb (any (sp ss k)) then grown (sp ss k) (stage (sp ss k) (dy z2 k)) - grown (sp ss k) (stage (sp ss k) (dy z k)) else 0)).
    { unfold dy at 2. rewrite <- (added_upd ss (dyns z) k (dy z2 k) i) by (auto; apply (d_len ss z C1)). f_equal. apply stages_ext; [rewrite upd_length; auto|].
      intro m. rewrite upd_nth. destruct (Nat.eqb_spec k m) as [<-|N].
      - cbn [andb]. replace (Nat.ltb k (length (dyns z))) with true; [reflexivity|]. symmetry. apply Nat.ltb_lt. rewrite (d_len ss z C1). auto.
      - apply (OT m). auto. }
    rewrite ST. rewrite Z.add_assoc, <- C5 by auto.
    assert (LB : (sbc (sp ss k) < length (bcs z))%nat) by (rewrite C2; auto). apply Nat.ltb_lt in LB. rewrite LB, andb_true_r.
    destruct (Nat.eqb_spec (sbc (sp ss k)) i) as [E|E]; cbn [andb]; [|lia].
    destruct CS as [(A & -> & _)|(A & g & -> & G)]; rewrite A; cbn; lia.
  - intros m M AM. rewrite EB, bc_upd.
    assert (LB : (sbc (sp ss k) < length (bcs z))%nat) by (rewrite C2; auto). apply Nat.ltb_lt in LB. rewrite LB, andb_true_r.
    destruct (Nat.eq_dec m k) as [->|N].
    + rewrite Nat.eqb_refl. destruct CS as [(A & -> & _)|(A & _)]; [reflexivity|congruence].
    + destruct (OT m N) as (-> & _). rewrite <- C6 by auto. destruct (Nat.eqb_spec (sbc (sp ss k)) (sbc (sp ss m))) as [E|E]; auto.
      destruct CS as [(A & _)|(A & g & -> & _)]; [|reflexivity]. elim N. symmetry. apply (w_alone ss B0 W); auto.
  - intros i H. rewrite EB, bc_upd. rewrite <- C7 by auto. destruct (Nat.eqb_spec (sbc (sp ss k)) i) as [E|E]; cbn [andb]; auto.
    destruct CS as [(A & _)|(A & g & -> & _)]; [elim (H _ IS A E)|]. destruct (Nat.ltb _ _); reflexivity.
  - intros m LM. apply C9. destruct (Nat.eq_dec m k) as [->|N]; [auto|]. destruct (OT m N) as (_ & _ & E). congruence.
Qed.
Lemma dist_same : forall B f i s u, samesec f -> wfB B -> (i < length B)%nat -> (sbc s < length B)%nat -> wf_term B s u -> bsize (f (bc B i)) - bsize (bc B i) = 0 -> dist (upd i f B) s u = dist B s u.
Proof. intros B f i s u F WB L1 L2 WT E. rewrite dist_upd; auto; [|apply (w_sorted B WB)]. rewrite E. destruct (covers s u i), (forward s u); lia. Qed.
(** A change that is then passed on to the terms and the offset setters. *)
Lemma spread : forall z z1 k f, inv z -> (k < length ss)%nat -> changed z z1 k f -> dinv ss z1 -> oss z1 = oss z -> (err z1 = false -> err z = false) ->
  (forall m, live (dy z1 m) = true -> vals (dy z1 m) = map (dist (bcs z) (sp ss m)) (terms (sp ss m))) ->
  let ld := bsize (bc (bcs z1) (sbc (sp ss k))) - bsize (bc (bcs z) (sbc (sp ss k))) in
  exists r, (if ld =? 0 then Some (Go z1)
             else match touch ss t (sbc (sp ss k)) ld z1 with
                  | Some z2 => setters ss t (sbc (sp ss k)) ld [] (oss z2) z2
                  | None => None
                  end) = Some r /\
    match r with
    | Crash => nonneg z1 -> setters_nonneg B0 -> False
    | Go z' => inv z' /\ same_spans z1 z' /\ (ld = 0 -> z' = z1) /\ (nonneg z1 -> setters_nonneg B0 -> nonneg z')
    end.
Proof.
  intros z z1 k f [C OI] K CH D1 EO EE V ld. pose proof (changed_f _ _ _ _ CH) as FF. pose proof CH as (EB & LD & OT & LV & CS).
  assert (F : samesec f) by (intro b; apply FF).
  assert (IS : In (sp ss k) ss) by (apply nth_In; auto). destruct (w_span ss B0 W _ IS) as (SL & SN & SS).
  assert (SEC : forall i, sec (bc (bcs z) i) = sec (bc B0 i)) by (intro i; apply (c_same _ _ _ _ C)).
  pose proof (c_len _ _ _ _ C) as CL.
  assert (EL : ld = bsize (f (bc (bcs z) (sbc (sp ss k)))) - bsize (bc (bcs z) (sbc (sp ss k)))).
  { unfold ld. rewrite EB, bc_upd, Nat.eqb_refl. replace (Nat.ltb (sbc (sp ss k)) (length (bcs z))) with true by (symmetry; apply Nat.ltb_lt; lia). reflexivity. }
  assert (BL : forall o, setter (bc B0 o) <> None -> blen (bc (bcs z1) o) = blen (bc (bcs z) o)).
  { intros o SO. rewrite EB, bc_upd. destruct (Nat.eqb_spec (sbc (sp ss k)) o) as [<-|N]; [contradiction|reflexivity]. }
  assert (ST : forall o, start (bcs z1) o = start (bcs z) o + (if Nat.ltb (sbc (sp ss k)) o && Nat.eqb (sec (bc B0 o)) (sec (bc B0 (sbc (sp ss k)))) then ld else 0)).
  { intro o. rewrite EB. destruct (Nat.ltb_spec (sbc (sp ss k)) o) as [L|L].
    - rewrite start_after by (auto; lia). rewrite !SEC, <- EL. rewrite Nat.eqb_sym. reflexivity.
    - rewrite start_before by (auto; lia). cbn. lia. }
  assert (SO : forall oc, In oc (oss z) -> setter (bc B0 (fst oc)) <> None).
  { intros oc I. destruct OI as [OI _]. assert (X : In (fst oc) (setidx B0)) by (rewrite <- OI; apply in_map; auto). apply setidx_in in X. tauto. }
  destruct OI as [OI1 OI2]. rewrite Forall_forall in OI2.
  destruct (Z.eqb_spec ld 0) as [E0|E0].
  - eexists. split; [reflexivity|]. split; [|split; [apply same_refl|auto]]. split.
    + apply (core_step z z1 k f); auto. intros m LM. rewrite (V m LM). apply map_ext_in. intros u U. symmetry. rewrite EB.
      assert (KM : (m < length ss)%nat).
      { destruct (Nat.lt_ge_cases m (length ss)); auto. unfold dy in LM. rewrite nth_overflow in LM by (rewrite (d_len ss z1 D1); auto). discriminate. }
      assert (ISm : In (sp ss m) ss) by (apply nth_In; auto). apply dist_same; auto; try lia.
      * apply (c_wfB _ _ _ _ C).
      * rewrite CL. apply (w_span ss B0 W). auto.
      * apply (wf_term_ext B0); auto. apply (w_terms ss B0 W); auto.
    + split; [congruence|]. rewrite EO. apply Forall_forall. intros [o c] I. pose proof (SO _ I) as SI. destruct (OI2 _ I) as [S1 S2]. cbn [fst snd] in *. split; cbn [fst snd].
      * rewrite ST. rewrite S1, E0. destruct (_ && _); lia.
      * intros E1 g G. rewrite BL by auto. auto.
  - destruct (touch_ok ss ds0 B0 (bcs z) t (sbc (sp ss k)) f z1 W (c_wfB _ _ _ _ C) CL SEC T SL F EB D1) as (z2 & T1 & T2 & T3 & T4).
    + intros m LM. apply (c_ng _ _ _ _ C). destruct (Nat.eq_dec m k) as [->|N]; [auto|]. destruct (OT m N) as (_ & _ & E). congruence.
    + exact V.
    + rewrite <- EL in T1. rewrite T1. pose proof T3 as (KB & KO & KE & KD & KL & KK).
      assert (C2 : core ss B0 ds0 z2).
      { apply (core_step z z2 k f); auto. destruct (KK k) as (X1 & X2 & X3 & X4). repeat split; auto; try congruence.
        - destruct (KK m) as (-> & _). apply OT; auto.
        - destruct (KK m) as (_ & -> & _). apply OT; auto.
        - destruct (KK m) as (_ & _ & -> & _). apply OT; auto.
        - rewrite X3. exact LV.
        - destruct CS as [(A & B & E)|(A & g & B & E)]; [left|right]; rewrite ?X1, ?X2; auto. split; auto. exists g. split; auto. rewrite (stage_left _ (dy z2 k) (dy z1 k)) by auto. auto. }
      destruct (setters_ok ss B0 ds0 t W T (oss z2) [] z2 (sbc (sp ss k)) ld C2 SL) as (r & R1 & R2).
      * cbn. rewrite KO, EO. exact OI1.
      * constructor.
      * rewrite KO, EO. apply Forall_forall. intros [o c] I. pose proof (SO _ I) as SI. destruct (OI2 _ I) as [S1 S2]. cbn [fst snd] in *. split; cbn [fst snd].
        -- rewrite KB, ST, <- S1. reflexivity.
        -- rewrite KE, KB. intros E1 g G. rewrite BL by auto. auto.
      * exists r. split; auto. assert (NN : nonneg z1 -> nonneg z2) by (unfold nonneg; rewrite KB; auto). destruct r as [z'|].
        -- destruct R2 as (A1 & A2 & A3 & A4). split; [split; auto|]. split; [apply (same_trans z1 z2); [apply same_kept; auto|auto]|]. split; [contradiction|auto].
        -- auto.
Qed.
Lemma core_same : forall z z', core ss B0 ds0 z -> bcs z' = bcs z -> dinv ss z' -> length (dyns z') = length (dyns z) ->
  (forall m, vals (dy z' m) = vals (dy z m) /\ cur (dy z' m) = cur (dy z m) /\ left (dy z' m) = left (dy z m) /\ live (dy z' m) = live (dy z m)) -> core ss B0 ds0 z'.
Proof.
  intros z z' [C1 C2 C3 C4 C5 C6 C7 C8 C9] EB D LD K. constructor; rewrite ?EB; auto.
  - intros i I S. rewrite (stages_ext ss (dyns z') (dyns z)) by (auto; intro m; apply (K m)). auto.
  - intros m M A. destruct (K m) as (_ & -> & _). auto.
  - intros m L. destruct (K m) as (-> & _ & _ & E). apply C8. congruence.
  - intros m L. destruct (K m) as (_ & _ & _ & E). apply C9. congruence.
Qed.
Lemma loc_bad : forall s d b b', loc s d b -> (b' = false -> b = false) -> loc s d b'.
Proof. intros s d b b' [A1 A2 A3 A4 A5 A6] H. constructor; auto. Qed.
Lemma dinv_pop : forall z k a b B o e bd d3, dinv ss z -> qa z ++ qb z = k :: a ++ b -> act d3 <> Queued -> loc (sp ss k) d3 bd -> (bd = false -> bad z = false) ->
  dinv ss (St B (upd k (fun _ => d3) (dyns z)) a b o e bd).
Proof.
  intros z k a b B o e bd d3 [D1 D2 D3 D4] Q A L HB.
  assert (UPD : forall m, nth m (upd k (fun _ => d3) (dyns z)) nodyn = if Nat.eqb k m && Nat.ltb k (length (dyns z)) then d3 else dy z m) by (intro m; apply upd_nth).
  assert (KL : (k < length (dyns z))%nat).
  { assert (X : In k (qa z ++ qb z)) by (rewrite Q; cbn; auto). apply D4 in X. destruct (Nat.lt_ge_cases k (length (dyns z))); auto. unfold dy in X. rewrite nth_overflow in X by auto. discriminate. }
  apply Nat.ltb_lt in KL. rewrite KL in UPD. rewrite Q in D3. apply NoDup_cons_iff in D3. destruct D3 as [N1 N2].
  constructor; cbn [dyns qa qb bad].
  - rewrite upd_length. auto.
  - intros m M. unfold dy. cbn [dyns]. rewrite UPD. destruct (Nat.eqb_spec k m) as [<-|N]; cbn [andb]; auto. apply (loc_bad _ _ (bad z)); auto.
  - exact N2.
  - intro m. unfold dy. cbn [dyns]. rewrite UPD. destruct (Nat.eqb_spec k m) as [<-|N]; cbn [andb]; [split; [contradiction|congruence]|].
    rewrite <- D4, Q. cbn. split; auto. intros [E|E]; [congruence|auto].
Qed.
(** Bytecodes only grow. *)
Definition grows : Prop :=
  (forall s f, In s ss -> In f (forms s) -> 0 <= grow f) /\ setters_nonneg B0 /\ (forall i, 0 <= bmult (bc B0 i)) /\ (forall s, In s ss -> any s = false).
Lemma advance_grow : forall v fs g o r, (forall f, In f fs -> 0 <= grow f) -> advance v fs = Some (g, o, r) -> 0 <= g.
Proof.
  intro v. induction fs as [|[|g1|g1 l h] fs IH]; intros g o r H A; cbn [advance] in A; try discriminate.
  - injection A as <- _ _. apply (H (Last g1)). cbn. auto.
  - pose proof (H (More g1 l h) (or_introl eq_refl)) as G. cbn in G. destruct (_ && _); [injection A as <- _ _; auto|].
    destruct (advance v fs) as [[[g2 o2] r2]|]; [|discriminate]. injection A as <- _ _. pose proof (IH g2 o2 r2 (fun f I => H f (or_intror I)) eq_refl). lia.
Qed.
Lemma advance_shorter : forall v fs g o r, advance v fs = Some (g, o, r) -> (length r < length fs)%nat.
Proof.
  intro v. induction fs as [|[|g1|g1 l h] fs IH]; intros g o r A; cbn [advance] in A; try discriminate.
  - injection A as _ _ <-. cbn. lia.
  - destruct (_ && _); [injection A as _ _ <-; cbn; lia|]. destruct (advance v fs) as [[[g2 o2] r2]|]; [|discriminate]. injection A as _ _ <-. specialize (IH _ _ _ eq_refl). cbn. lia.
Qed.
(** What a round did to span [k]. *)
Definition did (z z' : st) (k : nat) : Prop :=
  (forall m, m <> k -> left (dy z' m) = left (dy z m)) /\ length (dyns z') = length (dyns z) /\
  ((left (dy z' k) = left (dy z k) /\ (bad z' = bad z \/ bad z' = true /\ any (sp ss k) = false /\ over (sp ss k) (dy z k) = true /\ advance (new_val (sp ss k) (dy z k)) (left (dy z k)) = None)) \/
   (any (sp ss k) = false /\ over (sp ss k) (dy z k) = true /\ bad z' = bad z /\ exists g o, advance (new_val (sp ss k) (dy z k)) (left (dy z k)) = Some (g, o, left (dy z' k)))).
Lemma round_ok : forall z k a b, inv z -> qa z ++ qb z = k :: a ++ b ->
  exists r, round ss t k (St (bcs z) (dyns z) a b (oss z) (err z) (bad z)) = Some r /\
    match r with
    | Crash => grows -> nonneg z -> False
    | Go z' => inv z' /\ did z z' k /\ (grows -> nonneg z -> nonneg z') /\
        (any (sp ss k) = false -> (total z' = total z /\ qa z' ++ qb z' = a ++ b) \/ (total z' < total z)%nat)
    end.
Proof.
  intros z k a b IV Q. pose proof IV as [C OI]. pose proof (c_dinv _ _ _ _ C) as D. pose proof D as [D1 D2 D3 D4].
  assert (AQ : act (dy z k) = Queued) by (apply D4; rewrite Q; cbn; auto).
  assert (LV : live (dy z k) = true) by (unfold live; rewrite AQ; auto).
  assert (K : (k < length ss)%nat).
  { rewrite <- D1. destruct (Nat.lt_ge_cases k (length (dyns z))); auto. unfold dy in AQ. rewrite nth_overflow in AQ by auto. discriminate. }
  assert (IS : In (sp ss k) ss) by (apply nth_In; auto).
  pose proof (D2 k K) as LK. destruct LK as [L1 L2 L3 L4 L5 L6].
  set (s := sp ss k) in *. set (d := dy z k) in *.
  assert (L3' : limits s (stage s d) = Some (lo d, hi d)) by (destruct L3 as [L3|[_ L3]]; [auto|congruence]).
  unfold round. cbn [dyns bcs qa qb oss err bad]. fold s. change (nth k (dyns z) nodyn) with d. fold (sp ss k). fold s. rewrite AQ. rewrite recalc_eq.
  destruct (value s) as [fv|] eqn:VS; [|elim (L5 LV eq_refl)].
  change (over s (with_act On d)) with (over s d).
  assert (UPD : forall d3 m, nth m (upd k (fun _ => d3) (dyns z)) nodyn = if Nat.eqb k m then d3 else dy z m).
  { intros d3 m. rewrite upd_nth. rewrite D1. apply Nat.ltb_lt in K. rewrite K, andb_true_r. reflexivity. }
  assert (NV : forall m, new_val s (with_act m d) = new_val s d) by reflexivity.
  destruct (over s d) eqn:OV; cbn [negb].
  2:{ (* back within its limits *)
    eexists. split; [reflexivity|]. set (z' := set_dyn k (with_act On d) _).
    assert (DZ : dinv ss z').
    { apply (dinv_pop z); auto; [cbn; discriminate|]. constructor; fold s; rewrite ?VS; auto; cbn; try discriminate. }
    assert (LE : forall m, vals (dy z' m) = vals (dy z m) /\ cur (dy z' m) = cur (dy z m) /\ left (dy z' m) = left (dy z m) /\ live (dy z' m) = live (dy z m)).
    { intro m. unfold z', dy, set_dyn. cbn [dyns]. rewrite UPD. destruct (Nat.eqb_spec k m) as [<-|N]; auto. }
    assert (LN : length (dyns z') = length (dyns z)) by (unfold z', set_dyn; cbn; apply upd_length).
    split; [split|split; [|split]].
    - apply (core_same z); auto.
    - exact OI.
    - split; [|split]; auto; [intros m N; apply LE|]. left. split; [apply LE|]. left. reflexivity.
    - intros _ NN. exact NN.
    - intros _. left. split; [|reflexivity]. apply total_ext; auto. intro m. apply LE. }
  change (nth (sbc s) (bcs z) nobc) with (bc (bcs z) (sbc s)). unfold expand.
  destruct (any s) eqn:AN.
  - (* a count *)
    cbn [Z.ltb]. change (1 <? 0) with false. change (0 <? 1) with true. cbv iota.
    set (v := new_val s (with_act On d)) in *. set (d3 := with_cur v (with_act On d)).
    set (z1 := St (upd (sbc s) (with_mult v) (bcs z)) (upd k (fun _ => d3) (dyns z)) a b (oss z) (err z) (bad z)).
    assert (DZ : dinv ss z1).
    { apply (dinv_pop z); auto; [cbn; discriminate|]. constructor; fold s; rewrite ?VS; auto; cbn; try discriminate.
      intros _ _. unfold over. fold s. rewrite AN. change (new_val s d3) with v. change (cur d3) with v. rewrite Z.eqb_refl. reflexivity. }
    assert (E1 : dy z1 k = d3) by (unfold dy, z1; cbn [dyns]; rewrite UPD, Nat.eqb_refl; reflexivity).
    assert (E2 : forall m, m <> k -> dy z1 m = dy z m) by (intros m N; unfold dy at 1, z1; cbn [dyns]; rewrite UPD; destruct (Nat.eqb_spec k m); [congruence|reflexivity]).
    assert (LN : length (dyns z1) = length (dyns z)) by (unfold z1; cbn; apply upd_length).
    assert (CH : changed z z1 k (with_mult v)).
    { repeat split; auto; try (rewrite E2 by auto; reflexivity). left. fold s. rewrite E1. auto. }
    destruct (spread z z1 k (with_mult v) IV K CH DZ eq_refl (fun H => H)) as (r & R1 & R2).
    { intros m LM. destruct (Nat.eq_dec m k) as [->|N]; [rewrite E1; cbn; apply (c_val _ _ _ _ C); auto|rewrite E2 in * by auto; apply (c_val _ _ _ _ C); auto]. }
    exists r. split; [exact R1|]. destruct r as [z'|].
    + destruct R2 as (A1 & A2 & A3 & A4). split; auto. destruct A2 as (S1 & S2 & S3 & S4). split; [|split].
      * split; [|split; [congruence|]].
        -- intros m N. destruct (S4 m) as [-> _]. rewrite E2 by auto. reflexivity.
        -- left. destruct (S4 k) as [-> _]. rewrite E1. split; [reflexivity|left; exact S1].
      * intros (_ & _ & _ & NA) _. rewrite (NA s IS) in AN. discriminate.
      * intro H. discriminate.
    + intros (_ & _ & _ & NA) _. rewrite (NA s IS) in AN. discriminate.
  - change (new_val s (with_act On d)) with (new_val s d). change (left (with_act On d)) with (left d).
    destruct (advance (new_val s d) (left d)) as [[[g o] r]|] eqn:AD.
    2:{ (* the callback reports an error *)
      cbn [Z.ltb]. change (-1 <? 0) with true. cbv iota. eexists. split; [reflexivity|]. set (z' := St _ _ _ _ _ _ true).
      assert (DZ : dinv ss z').
      { apply (dinv_pop z); auto; [cbn; discriminate| |discriminate]. constructor; fold s; rewrite ?VS; auto; cbn; try discriminate. }
      assert (LE : forall m, vals (dy z' m) = vals (dy z m) /\ cur (dy z' m) = cur (dy z m) /\ left (dy z' m) = left (dy z m) /\ live (dy z' m) = live (dy z m)).
      { intro m. unfold z', dy. cbn [dyns]. rewrite UPD. destruct (Nat.eqb_spec k m) as [<-|N]; auto. }
      assert (LN : length (dyns z') = length (dyns z)) by (unfold z'; cbn; apply upd_length).
      split; [split|split; [|split]].
      - apply (core_same z); auto.
      - exact OI.
      - split; [|split]; auto; [intros m N; apply LE|]. left. split; [apply LE|]. right. auto.
      - intros _ NN. exact NN.
      - intros _. left. split; [|reflexivity]. apply total_ext; auto. intro m. apply LE. }
    assert (LS : limits s (stage s d) <> None) by congruence.
    rewrite L1 in AD. destruct (advance_ok s (new_val s d) (stage s d) g o r L2 LS ltac:(unfold stage; lia) AD) as (k' & K1 & K2 & K3 & K4 & K5 & K6 & K7).
    assert (SG : forall d3, left d3 = r -> stage s d3 = k') by (intros d3 E; unfold stage; rewrite E, K3, skipn_length; lia).
    set (f := fun b => with_len (blen b + g) b).
    (* both outcomes *)
    assert (GO : forall d3, left d3 = r -> vals d3 = vals d -> (live d3 = true -> live d = true) -> act d3 <> Queued -> loc s d3 (bad z) ->
      let z1 := St (upd (sbc s) f (bcs z)) (upd k (fun _ => d3) (dyns z)) a b (oss z) (err z) (bad z) in
      exists res, (if bsize (nth (sbc s) (upd (sbc s) f (bcs z)) nobc) - bsize (bc (bcs z) (sbc s)) =? 0 then Some (Go z1)
        else match touch ss t (sbc s) (bsize (nth (sbc s) (upd (sbc s) f (bcs z)) nobc) - bsize (bc (bcs z) (sbc s))) z1 with
             | Some z2 => setters ss t (sbc s) (bsize (nth (sbc s) (upd (sbc s) f (bcs z)) nobc) - bsize (bc (bcs z) (sbc s))) [] (oss z2) z2 | None => None end) = Some res /\
        match res with
        | Crash => grows -> nonneg z -> False
        | Go z' => inv z' /\ did z z' k /\ (grows -> nonneg z -> nonneg z') /\ (false = false -> (total z' = total z /\ qa z' ++ qb z' = a ++ b) \/ (total z' < total z)%nat)
        end).
    { intros d3 E3 V3 LV3 A3 LC z1.
      assert (DZ : dinv ss z1) by (apply (dinv_pop z); auto).
      assert (E1 : dy z1 k = d3) by (unfold dy, z1; cbn [dyns]; rewrite UPD, Nat.eqb_refl; reflexivity).
      assert (E2 : forall m, m <> k -> dy z1 m = dy z m) by (intros m N; unfold dy at 1, z1; cbn [dyns]; rewrite UPD; destruct (Nat.eqb_spec k m); [congruence|reflexivity]).
      assert (LN : length (dyns z1) = length (dyns z)) by (unfold z1; cbn; apply upd_length).
      assert (CH : changed z z1 k f).
      { repeat split; auto; try (rewrite E2 by auto; reflexivity). right. fold s. split; auto. exists g. split; [reflexivity|]. rewrite E1, (SG d3 E3). fold d. exact K4. }
      assert (N1 : grows -> nonneg z -> nonneg z1 /\ setters_nonneg B0).
      { intros (G1 & G2 & G3 & G4) NN. split; auto. intro i. unfold z1. cbn [bcs]. rewrite bc_upd. destruct (_ && _); [|apply NN]. unfold f, bsize. cbn.
        assert (0 <= g) by (apply (advance_grow (new_val s d) (skipn (stage s d) (forms s)) g o r); auto; intros f' F'; apply (G1 s); auto; apply (skipn_In _ _ _ F') || (rewrite <- (firstn_skipn (stage s d) (forms s)); apply in_or_app; auto)).
        pose proof (NN i) as NI. unfold bsize in NI. pose proof (G3 i) as GI. rewrite <- (c_plain _ _ _ _ C i) in GI by (intros s' I' A'; rewrite (G4 s' I') in A'; discriminate).
        rewrite Z.mul_add_distr_r. pose proof (Z.mul_nonneg_nonneg g _ ltac:(assumption) GI). lia. }
      destruct (spread z z1 k f IV K CH DZ eq_refl (fun H => H)) as (res & R1 & R2).
      { intros m LM. destruct (Nat.eq_dec m k) as [->|N]; [rewrite E1 in *; rewrite V3; apply (c_val _ _ _ _ C); auto|rewrite E2 in * by auto; apply (c_val _ _ _ _ C); auto]. }
      exists res. split; [exact R1|]. destruct res as [z'|].
      - destruct R2 as (A1 & A2 & A4 & A5). split; auto. destruct A2 as (S1 & S2 & S3 & S4).
        assert (LO : forall m, m <> k -> left (dy z' m) = left (dy z m)) by (intros m N; destruct (S4 m) as [-> _]; rewrite E2 by auto; reflexivity).
        assert (LK : left (dy z' k) = r) by (destruct (S4 k) as [-> _]; rewrite E1; auto).
        split; [|split].
        + split; [exact LO|split; [congruence|]]. right. fold s. fold d. split; auto. split; auto. split; [exact S1|]. exists g, o. rewrite L1, LK. exact AD.
        + intros G NN. destruct (N1 G NN). auto.
        + intros _. right. apply (total_upd z z' k); auto; [congruence|lia|]. rewrite LK. fold d. rewrite L1. apply (advance_shorter _ _ _ _ _ AD).
      - intros G NN. destruct (N1 G NN). auto. }
    destruct o as [[l h]|].
    + change (1 <? 0) with false. change (0 <? 1) with true. cbv iota. apply GO; cbn; auto; try discriminate.
      constructor; rewrite ?VS; cbn; auto.
      * rewrite SG by reflexivity. exact K3.
      * rewrite SG by reflexivity. exact K2.
      * rewrite SG by reflexivity. auto.
      * intros _ _. unfold over. rewrite AN. cbn. cbn in K6. change (new_val s (with_cur _ _)) with (new_val s d). apply orb_false_iff. rewrite !Z.ltb_ge. lia.
      * discriminate.
    + change (0 <? 0) with false. cbv iota. apply GO; cbn; auto; try discriminate.
      constructor; rewrite ?VS; cbn; auto; try discriminate.
      * rewrite SG by reflexivity. exact K3.
      * rewrite SG by reflexivity. exact K2.
      * right. rewrite SG by reflexivity. auto.
      * intros _. split; auto. left. rewrite SG by reflexivity. auto.
Qed.
End Round.
