(** Specification and proofs for libyasm/linemap.c (model in M_Linemap). *)
From Coq Require Import ZArith List Lia Bool Sorted.
From Verif Require Import Lib M_Linemap.
Import ListNotations.
Open Scope Z_scope.

(** * Specification: a history of recorded mappings, newest first.  The mapping governing a
    line is the most recently recorded one that starts at or before the line. *)
Record event := Event { e_line : Z; e_file : list Z; e_fline : Z; e_inc : Z }.

Definition governs (h : list event) (v : Z) : option event :=
  find (fun e => e_line e <=? v) h.

(** When no file is named, the file of the mapping in force just before is inherited. *)
Definition inherit (h : list event) (vl : Z) (file : option (list Z)) : list Z :=
  match file with
  | Some f => f
  | None => match governs h (vl - 1), governs h vl with
            | Some e, _ => e_file e
            | None, Some e => e_file e
            | None, None => unknown
            end
  end.

(** Spec state: current line, mapping history, source-text history (newest first). *)
Record spec := Spec { s_cur : Z; s_hist : list event; s_src : list (Z * (Z * list Z)) }.

Definition record_map (s : spec) (f : option (list Z)) (vl fl inc : Z) : spec :=
  Spec (s_cur s) (Event vl (inherit (s_hist s) vl f) fl inc :: s_hist s) (s_src s).

Definition next_line (s : spec) : spec := Spec (u64 (s_cur s + 1)) (s_hist s) (s_src s).

Definition sstep (s : spec) (o : op) : spec :=
  match o with
  | OSet f v l i => record_map s f (if v =? 0 then s_cur s else v) l i
  | ONext => next_line s
  | OPoke f l =>
      let s1 := next_line s in
      let s2 := record_map s1 f (s_cur s1) l 0 in
      let s3 := next_line s2 in
      record_map s3 (Some (inherit (s_hist s1) (s_cur s1) f)) (s_cur s3) (u64 l) 0
  | OSrc b t => Spec (s_cur s) (s_hist s) ((s_cur s, (b, t)) :: s_src s)
  end.

Definition sinit : spec := Spec 1 [] [].
Definition srun (ops : list op) : spec := fold_left sstep ops sinit.

(** A new mapping is admissible when it does not go back to or before the very first one,
    unless everything recorded so far is at or before it. *)
Definition admissible (h : list event) (vl : Z) : bool :=
  existsb (fun e => e_line e <? vl) h || forallb (fun e => e_line e <=? vl) h.

Definition ok_op (s : spec) (o : op) : bool :=
  match o with
  | OSet _ v _ _ => admissible (s_hist s) (if v =? 0 then s_cur s else v)
  | ONext => true
  | OPoke f l =>
      let s1 := next_line s in
      let s2 := record_map s1 f (s_cur s1) l 0 in
      admissible (s_hist s1) (s_cur s1) && admissible (s_hist s2) (s_cur (next_line s2))
  | OSrc _ _ => true
  end.

Fixpoint ok_from (s : spec) (ops : list op) : bool :=
  match ops with
  | [] => true
  | o :: t => ok_op s o && ok_from (sstep s o) t
  end.
Definition ordered (ops : list op) : bool := ok_from sinit ops.

(** What a user sees when looking a line up. *)
Definition spec_lookup (s : spec) (line : Z) : option (list Z * Z) :=
  match governs (s_hist s) line with
  | Some e => Some (e_file e, if line =? 0 then 0 else u64 (e_fline e + e_inc e * (line - e_line e)))
  | None => None
  end.

(** * Proofs *)
Definition ev (m : mapping) : event := Event (m_line m) (m_file m) (m_fline m) (m_inc m).

Definition sortedm (v : list mapping) := StronglySorted (fun a b => m_line a <= m_line b) v.

Record Inv (lm : linemap) (s : spec) : Prop := {
  I_cur : current lm = s_cur s;
  I_sorted : sortedm (vec lm);
  I_incl : forall m, In m (vec lm) -> In (ev m) (s_hist s);
  I_gov : forall v, governs (rev (map ev (vec lm))) v = governs (s_hist s) v
}.

Lemma scan_back_le : forall v vl i, (scan_back v vl i <= i)%nat.
Proof.
  induction i; simpl; auto. destruct (nth_error v i); try lia.
  destruct (m_line m <? vl); lia.
Qed.

Lemma scan_back_ge : forall v vl i j m, (i <= length v)%nat ->
  (scan_back v vl i <= j < i)%nat -> nth_error v j = Some m -> vl <= m_line m.
Proof.
  induction i; intros j m Hl Hj Hn; [lia|].
  simpl in Hj. destruct (nth_error v i) eqn:E.
  - destruct (Z.ltb_spec (m_line m0) vl); [lia|].
    destruct (Nat.eq_dec j i).
    + subst. rewrite E in Hn. inversion Hn; subst. lia.
    + apply (IHi j m); auto; lia.
  - apply nth_error_None in E. lia.
Qed.

Lemma scan_back_lt : forall v vl i k, (i <= length v)%nat ->
  scan_back v vl i = S k -> exists m, nth_error v k = Some m /\ m_line m < vl.
Proof.
  induction i; intros k Hl H; simpl in H; [discriminate|].
  destruct (nth_error v i) eqn:E.
  - destruct (Z.ltb_spec (m_line m) vl).
    + inversion H; subst. eauto.
    + apply IHi; auto; lia.
  - discriminate.
Qed.

Lemma governs_app : forall a b v, governs (a ++ b) v =
  match governs a v with Some e => Some e | None => governs b v end.
Proof.
  induction a; simpl; intros; auto. unfold governs in *. simpl.
  destruct (e_line a <=? v); auto.
Qed.

Lemma governs_none : forall h v, (forall e, In e h -> v < e_line e) -> governs h v = None.
Proof.
  induction h; simpl; intros; auto. unfold governs; simpl.
  destruct (Z.leb_spec (e_line a) v).
  - specialize (H a (or_introl eq_refl)). lia.
  - apply IHh; auto.
Qed.

Lemma governs_none_inv : forall h v, governs h v = None -> forall e, In e h -> v < e_line e.
Proof.
  induction h; simpl; intros v H e Hin; [tauto|].
  unfold governs in H; simpl in H. destruct (Z.leb_spec (e_line a) v); [discriminate|].
  destruct Hin as [->|Hin]; [lia|]. apply IHh; auto.
Qed.

Lemma governs_some : forall h v e, governs h v = Some e -> In e h /\ e_line e <= v.
Proof.
  unfold governs; intros h v e H. apply find_some in H. destruct H as [H1 H2].
  apply Z.leb_le in H2. auto.
Qed.

(** The part of the vector kept by [set]. *)
Definition kept (v : list mapping) (vl : Z) : list mapping :=
  let i := scan_back v vl (length v) in
  if (0 <? Z.of_nat i) && (Nat.ltb i (length v)) then firstn i v else v.

Lemma In_skipn_nth : forall {A} (l : list A) i x, In x (skipn i l) ->
  exists j, (i <= j < length l)%nat /\ nth_error l j = Some x.
Proof.
  induction l; intros i x H.
  - rewrite skipn_nil in H. destruct H.
  - destruct i.
    + change (skipn 0 (a :: l)) with (a :: l) in H. apply In_nth_error in H. destruct H as [j Hj]. exists j.
      pose proof (nth_error_Some_lt _ _ _ Hj). split; [lia|auto].
    + simpl in H. apply IHl in H. destruct H as [j [H1 H2]].
      exists (S j). simpl. split; [lia|auto].
Qed.

Lemma kept_spec : forall v vl, sortedm v ->
  exists rest, v = kept v vl ++ rest /\
    (forall m, In m rest -> vl <= m_line m) /\
    ((exists pre m, kept v vl = pre ++ [m] /\ m_line m < vl) \/
     (rest = [] /\ forall m, In m v -> vl <= m_line m)).
Proof.
  intros v vl Hs. unfold kept. set (i := scan_back v vl (length v)).
  assert (Hi : (i <= length v)%nat) by apply scan_back_le.
  destruct i as [|k] eqn:Ei.
  - simpl. exists []. rewrite app_nil_r. split; auto. split; [intros ? []|].
    right. split; auto. intros m Hm. apply In_nth_error in Hm. destruct Hm as [j Hj].
    eapply scan_back_ge with (i := length v) (j := j); eauto.
    fold i. rewrite Ei. pose proof (nth_error_Some_lt _ _ _ Hj). lia.
  - destruct (scan_back_lt v vl (length v) k) as [m [Hm1 Hm2]]; auto.
    assert (Hk : kept v vl = firstn (S k) v).
    { unfold kept. fold i. rewrite Ei.
      replace (0 <? Z.of_nat (S k)) with true by (symmetry; apply Z.ltb_lt; lia). simpl andb.
      destruct (Nat.ltb_spec (S k) (length v)); auto.
      rewrite firstn_all2; auto. }
    unfold kept in Hk. fold i in Hk. rewrite Ei in Hk. cbv zeta in Hk. rewrite Hk.
    exists (skipn (S k) v). split; [symmetry; apply firstn_skipn|]. split.
    + intros x Hx. apply In_skipn_nth in Hx. destruct Hx as [j [Hj1 Hj2]].
      eapply scan_back_ge with (i := length v) (j := j); eauto. fold i. lia.
    + left. exists (firstn k v), m. split; auto.
      clear - Hm1. revert k Hm1. induction v; intros [|k] H; simpl in *; try discriminate.
      * congruence.
      * f_equal. apply IHv; auto.
Qed.

Lemma sorted_app_l : forall a b, sortedm (a ++ b) -> sortedm a.
Proof.
  induction a; intros b H; [constructor|]. simpl in H. inversion H; subst.
  constructor; [eapply IHa; eauto|]. rewrite Forall_app in H3. tauto.
Qed.

Lemma sorted_snoc : forall a m, sortedm a -> (forall x, In x a -> m_line x <= m_line m) ->
  sortedm (a ++ [m]).
Proof.
  induction a; simpl; intros m H Hx.
  - constructor; constructor.
  - inversion H; subst. constructor.
    + apply IHa; auto.
    + apply Forall_app. split; auto.
Qed.

Lemma sorted_snoc_inv : forall a m, sortedm (a ++ [m]) -> forall x, In x a -> m_line x <= m_line m.
Proof.
  induction a; simpl; intros m H x Hx; [tauto|]. inversion H; subst.
  destruct Hx as [->|Hx]; [|apply IHa; auto].
  rewrite Forall_app in H3. destruct H3 as [_ H3]. inversion H3; auto.
Qed.

Lemma governs_kept : forall v vl x, sortedm v -> x < vl ->
  governs (rev (map ev (kept v vl))) x = governs (rev (map ev v)) x.
Proof.
  intros v vl x Hs Hx. destruct (kept_spec v vl Hs) as [rest [Hv [Hr _]]].
  rewrite Hv at 2. rewrite map_app, rev_app_distr, governs_app.
  rewrite (governs_none (rev (map ev rest))); auto.
  intros e He. apply in_rev in He. apply in_map_iff in He. destruct He as [m [<- Hm]].
  simpl. specialize (Hr m Hm). lia.
Qed.

Lemma set_vec : forall lm f v l i,
  let vl := if v =? 0 then current lm else v in
  vec (set lm f v l i) = kept (vec lm) vl ++
    [Mapping vl (match f with Some s => s | None =>
       match rev (kept (vec lm) vl) with m :: _ => m_file m | [] => unknown end end) l i].
Proof. reflexivity. Qed.

Lemma set_inv : forall lm s f vl0 l i, Inv lm s ->
  let vl := if vl0 =? 0 then s_cur s else vl0 in
  admissible (s_hist s) vl = true ->
  Inv (set lm f vl0 l i) (record_map s f vl l i).
Proof.
  intros lm s f vl0 l i [Hc Hso Hin Hg] vl Hadm.
  assert (Hvl : (if vl0 =? 0 then current lm else vl0) = vl) by (rewrite Hc; reflexivity).
  pose proof (set_vec lm f vl0 l i) as HV. cbv zeta in HV. rewrite Hvl in HV.
  destruct (kept_spec (vec lm) vl Hso) as [rest [Hv [Hr Hcase]]].
  set (K := kept (vec lm) vl) in *.
  assert (HKs : sortedm K) by (rewrite Hv in Hso; eapply sorted_app_l; eauto).
  assert (HKle : forall x, In x K -> m_line x <= vl).
  { intros x Hx. destruct Hcase as [[pre [m [HK Hm]]]|[Hrn Hge]].
    - rewrite HK in Hx, HKs. apply in_app_or in Hx. destruct Hx as [Hx|[<-|[]]]; [|lia].
      pose proof (sorted_snoc_inv _ _ HKs x Hx). lia.
    - unfold admissible in Hadm. apply orb_true_iff in Hadm. destruct Hadm as [He|Ha].
      + exfalso. apply existsb_exists in He. destruct He as [e [He1 He2]].
        apply Z.ltb_lt in He2.
        assert (governs (s_hist s) (vl - 1) = None).
        { rewrite <- Hg. apply governs_none. intros e' He'. apply in_rev in He'.
          apply in_map_iff in He'. destruct He' as [m [<- Hm]]. specialize (Hge m Hm). simpl. lia. }
        pose proof (governs_none_inv _ _ H e He1). lia.
      + rewrite forallb_forall in Ha.
        assert (HKv : In x (vec lm)) by (rewrite Hv; apply in_or_app; auto).
        specialize (Ha _ (Hin x HKv)). apply Z.leb_le in Ha. exact Ha. }
  assert (HF : (match f with Some s => s | None =>
       match rev K with m :: _ => m_file m | [] => unknown end end) = inherit (s_hist s) vl f).
  { unfold inherit. destruct f; auto.
    destruct Hcase as [[pre [m [HK Hm]]]|[Hrn Hge]].
    - rewrite HK, rev_app_distr. simpl.
      assert (governs (s_hist s) (vl - 1) = Some (ev m)).
      { rewrite <- Hg, <- (governs_kept _ vl) by (auto; lia). fold K. rewrite HK.
        rewrite map_app, rev_app_distr. simpl. unfold governs; simpl.
        replace (m_line m <=? vl - 1) with true by (symmetry; apply Z.leb_le; lia). auto. }
      rewrite H. reflexivity.
    - assert (governs (s_hist s) (vl - 1) = None).
      { rewrite <- Hg. apply governs_none. intros e' He'. apply in_rev in He'.
        apply in_map_iff in He'. destruct He' as [m [<- Hm]]. specialize (Hge m Hm). simpl. lia. }
      rewrite H. rewrite <- Hg. rewrite Hrn, app_nil_r in Hv. rewrite Hv.
      rewrite <- map_rev. destruct (rev K) as [|m r] eqn:ER; [reflexivity|].
      simpl. unfold governs; simpl.
      assert (In m K) by (apply in_rev; rewrite ER; left; auto).
      replace (m_line m <=? vl) with true by (symmetry; apply Z.leb_le; auto). reflexivity. }
  rewrite HF in HV. constructor.
  - exact Hc.
  - rewrite HV. apply sorted_snoc; auto.
  - rewrite HV. intros m Hm. apply in_app_or in Hm. destruct Hm as [Hm|[<-|[]]].
    + right. apply Hin. rewrite Hv. apply in_or_app; auto.
    + left. reflexivity.
  - intros x. rewrite HV. rewrite map_app, rev_app_distr. simpl rev. simpl app.
    unfold governs at 1 2. simpl.
    destruct (Z.leb_spec vl x).
    + reflexivity.
    + fold (governs (rev (map ev K)) x). fold (governs (s_hist s) x).
      rewrite <- Hg. unfold K. apply governs_kept; auto.
Qed.

Lemma next_inv : forall lm s, Inv lm s -> Inv (goto_next lm) (next_line s).
Proof. intros lm s [Hc Hs Hi Hg]. constructor; simpl; auto. rewrite Hc; auto. Qed.

Lemma set_last : forall lm f v l i, exists pre,
  vec (set lm f v l i) = pre ++ [Mapping (if v =? 0 then current lm else v)
    (match f with Some s => s | None =>
       match rev (kept (vec lm) (if v =? 0 then current lm else v)) with m :: _ => m_file m | [] => unknown end end) l i].
Proof. intros. rewrite set_vec. eexists; reflexivity. Qed.

Lemma poke_eq : forall lm f l, exists F,
  fst (poke lm f l) = set (goto_next (set (goto_next lm) f 0 l 0)) (Some F) 0 (u64 l) 0
  /\ (exists pre, vec (set (goto_next lm) f 0 l 0) = pre ++ [Mapping (current (goto_next lm)) F l 0]).
Proof.
  intros lm f l. unfold poke.
  destruct (set_last (goto_next lm) f 0 l 0) as [pre Hp].
  change (0 =? 0) with true in Hp. cbv iota in Hp. rewrite Hp.
  rewrite rev_app_distr. cbn [rev app]. cbn [m_file m_fline m_inc m_line fst].
  eexists. split; [|eexists; reflexivity].
  do 2 f_equal. lia.
Qed.

Lemma step_inv : forall lm s o, Inv lm s -> ok_op s o = true -> Inv (step lm o) (sstep s o).
Proof.
  intros lm s o HI Hok. destruct o as [f v l i| |f l|b t].
  - simpl. apply set_inv; auto.
  - apply next_inv; auto.
  - simpl in Hok. apply andb_true_iff in Hok. destruct Hok as [H1 H2].
    cbn [step sstep].
    destruct (poke_eq lm f l) as [F [E1 [pre E2]]]. rewrite E1.
    pose proof (next_inv _ _ HI) as HI1.
    pose proof (set_inv _ _ f 0 l 0 HI1 H1) as HI2.
    change (if 0 =? 0 then s_cur (next_line s) else 0) with (s_cur (next_line s)) in HI2.
    assert (HF : F = inherit (s_hist (next_line s)) (s_cur (next_line s)) f).
    { assert (In (Mapping (current (goto_next lm)) F l 0) (vec (set (goto_next lm) f 0 l 0)))
        by (rewrite E2; apply in_or_app; right; left; auto).
      pose proof (I_gov _ _ HI2 (s_cur (next_line s))) as G.
      rewrite E2, map_app, rev_app_distr in G. cbn [map rev app] in G.
      unfold governs in G at 1 2. cbn [find ev e_line m_line record_map s_hist] in G.
      rewrite (I_cur _ _ HI1) in G. rewrite Z.leb_refl in G.
      inversion G. reflexivity. }
    rewrite HF.
    pose proof (next_inv _ _ HI2) as HI3.
    eapply (set_inv _ _ (Some _) 0 (u64 l) 0) in HI3; [exact HI3|]. exact H2.
  - destruct HI as [Hc Hs Hi Hg]. constructor; simpl; auto.
Qed.

Lemma run_inv_from : forall ops lm s, Inv lm s -> ok_from s ops = true ->
  Inv (fold_left step ops lm) (fold_left sstep ops s).
Proof.
  induction ops; simpl; intros; auto.
  apply andb_true_iff in H0. destruct H0. apply IHops; auto. apply step_inv; auto.
Qed.

Lemma create_inv : Inv create sinit.
Proof. constructor; simpl; auto; try constructor; intros; try tauto. Qed.

Lemma run_inv : forall ops, ordered ops = true -> Inv (run ops) (srun ops).
Proof. intros. apply run_inv_from; auto. apply create_inv. Qed.

(** ** Binary search *)
Lemma pow2_gt : forall n, (n < Nat.pow 2 n)%nat.
Proof. intros; apply Nat.pow_gt_lin_r; lia. Qed.

Lemma first_step_spec : forall fuel k size,
  (size < Nat.pow 2 (fuel + k))%nat -> (fuel > 0)%nat ->
  exists k', first_step fuel (Nat.pow 2 k) size = Some (Nat.pow 2 k') /\ (size < Nat.pow 2 (S k'))%nat /\
     (k' < fuel + k)%nat.
Proof.
  induction fuel; intros k size Hs Hf; [lia|].
  cbn [first_step]. destruct (Nat.leb_spec (Nat.pow 2 k * 2) size).
  - replace (Nat.pow 2 k * 2)%nat with (Nat.pow 2 (S k)) by (simpl; lia).
    destruct fuel.
    + cbn [Nat.add] in Hs. replace (Nat.pow 2 (S k)) with (Nat.pow 2 k * 2)%nat in Hs by (simpl; lia). lia.
    + destruct (IHfuel (S k) size) as [k' [H1 [H2 H3]]]; [|lia|].
      * replace (S fuel + S k)%nat with (S (S fuel) + k)%nat by lia. auto.
      * exists k'. repeat split; auto. lia.
  - exists k. repeat split; auto; [simpl; lia|lia].
Qed.

Definition below (v : list mapping) (line : Z) (j : nat) : Prop :=
  forall m, nth_error v j = Some m -> line < m_line m.

Lemma sorted_nth : forall v i j a b, sortedm v -> (i <= j)%nat ->
  nth_error v i = Some a -> nth_error v j = Some b -> m_line a <= m_line b.
Proof.
  induction v; intros i j a0 b Hs Hij Ha Hb; [destruct i; discriminate|].
  inversion Hs; subst. destruct i, j; simpl in *.
  - inversion Ha; inversion Hb; subst; lia.
  - inversion Ha; subst. rewrite Forall_forall in H2. apply H2. eapply nth_error_In; eauto.
  - lia.
  - eapply IHv with (i := i) (j := j); eauto; lia.
Qed.

Lemma bsearch_spec : forall k fuel v line vi, sortedm v -> (k < fuel)%nat ->
  (forall j, (vi + Nat.pow 2 (S k) <= j)%nat -> below v line j) ->
  (vi = 0%nat \/ exists m, nth_error v vi = Some m /\ m_line m <= line) ->
  exists r, bsearch fuel v line vi (Nat.pow 2 k) = Some r /\
    (forall j, (r < j)%nat -> below v line j) /\
    (r = 0%nat \/ exists m, nth_error v r = Some m /\ m_line m <= line).
Proof.
  induction k; intros fuel v line vi Hs Hf Hhi Hlo; (destruct fuel as [|fuel]; [lia|]).
  - cbn [Nat.pow bsearch]. change (Nat.div 1 2) with 0%nat.
    assert (Hend : forall x, bsearch fuel v line x 0 = Some x) by (intros; destruct fuel; reflexivity).
    rewrite Hend. eexists. split; [reflexivity|].
    destruct (nth_error v (vi + 1)) as [m|] eqn:E.
    + destruct (Z.leb_spec (m_line m) line).
      * split; [|right; eauto]. intros j Hj. apply Hhi. simpl. lia.
      * split; auto. intros j Hj. destruct (Nat.eq_dec j (vi + 1)).
        -- subst j. intros m' Hm'. rewrite E in Hm'. inversion Hm'; subst. lia.
        -- apply Hhi. simpl. lia.
    + split; auto. intros j Hj. destruct (Nat.eq_dec j (vi + 1)).
      * subst j. intros m' Hm'. congruence.
      * apply Hhi. simpl. lia.
  - assert (Hpos : (Nat.pow 2 (S k) > 0)%nat) by (apply Nat.neq_0_lt_0, Nat.pow_nonzero; lia).
    assert (Hb : forall x, bsearch (S fuel) v line x (Nat.pow 2 (S k)) =
      bsearch fuel v line (match nth_error v (x + Nat.pow 2 (S k)) with
                     | Some m => if m_line m <=? line then (x + Nat.pow 2 (S k))%nat else x
                     | None => x end) (Nat.pow 2 k)).
    { intros x. destruct (Nat.pow 2 (S k)) as [|p] eqn:E; [lia|]. cbn [bsearch].
      rewrite <- E. replace (Nat.div (Nat.pow 2 (S k)) 2) with (Nat.pow 2 k); auto.
      rewrite Nat.pow_succ_r', Nat.mul_comm, Nat.div_mul; auto. }
    rewrite Hb.
    assert (Hdbl : Nat.pow 2 (S (S k)) = (Nat.pow 2 (S k) + Nat.pow 2 (S k))%nat) by (simpl; lia).
    apply IHk; auto; try lia.
    + intros j Hj. destruct (nth_error v (vi + Nat.pow 2 (S k))) as [m|] eqn:E.
      * destruct (Z.leb_spec (m_line m) line).
        -- apply Hhi. lia.
        -- intros m' Hm'. pose proof (sorted_nth v _ j _ _ Hs Hj E Hm'). lia.
      * intros m' Hm'. apply nth_error_None in E. pose proof (nth_error_Some_lt _ _ _ Hm'). lia.
    + destruct (nth_error v (vi + Nat.pow 2 (S k))) as [m|] eqn:E; auto.
      destruct (Z.leb_spec (m_line m) line); auto. right; eauto.
Qed.

Lemma governs_index : forall v line r m, nth_error v r = Some m -> m_line m <= line ->
  (forall j, (r < j)%nat -> below v line j) -> governs (rev (map ev v)) line = Some (ev m).
Proof.
  intros v line r m Hr Hm Hb.
  pose proof (nth_error_split v r Hr) as [l1 [l2 [Hv Hl]]].
  rewrite Hv. rewrite map_app. cbn [map]. rewrite rev_app_distr. cbn [rev].
  rewrite <- app_assoc, governs_app.
  rewrite (governs_none (rev (map ev l2))).
  - cbn [app]. unfold governs; simpl. replace (m_line m <=? line) with true by (symmetry; apply Z.leb_le; lia). auto.
  - intros e He. apply in_rev in He. apply in_map_iff in He. destruct He as [x [<- Hx]].
    apply In_nth_error in Hx. destruct Hx as [j Hj]. cbn [ev e_line].
    apply (Hb (S r + j)%nat); [lia|]. rewrite Hv.
    replace (S r + j)%nat with (length l1 + S j)%nat by lia.
    rewrite nth_error_app2 by lia. replace (length l1 + S j - length l1)%nat with (S j) by lia. exact Hj.
Qed.

Lemma lookup_governed : forall lm line e, sortedm (vec lm) -> line <= current lm ->
  governs (rev (map ev (vec lm))) line = Some e ->
  lookup lm line = Some (e_file e, if line =? 0 then 0 else u64 (e_fline e + e_inc e * (line - e_line e))).
Proof.
  intros lm line e Hs Hcur Hg. unfold lookup.
  replace (line <=? current lm) with true by (symmetry; apply Z.leb_le; auto).
  destruct (first_step_spec (S (length (vec lm))) 0 (length (vec lm))) as [k [Hk [Hk2 Hk3]]]; [|lia|].
  { pose proof (pow2_gt (length (vec lm))). rewrite Nat.add_0_r. simpl. lia. }
  change (Nat.pow 2 0) with 1%nat in Hk. rewrite Hk.
  destruct (bsearch_spec k (S (length (vec lm))) (vec lm) line 0 Hs) as [r [Hr [Hr2 Hr3]]]; auto.
  { lia. }
  { intros j Hj m Hm. pose proof (nth_error_Some_lt _ _ _ Hm). lia. }
  rewrite Hr.
  assert (Hfin : exists m, nth_error (vec lm) r = Some m /\ m_line m <= line).
  { destruct Hr3 as [->|H]; auto.
    apply governs_some in Hg. destruct Hg as [Hin Hle]. apply in_rev in Hin.
    apply in_map_iff in Hin. destruct Hin as [m [<- Hm]]. apply In_nth_error in Hm.
    destruct Hm as [j Hj]. destruct j.
    - exists m. auto.
    - exfalso. assert (below (vec lm) line (S j)) by (apply Hr2; lia).
      specialize (H m Hj). simpl in Hle. lia. }
  destruct Hfin as [m [Hm1 Hm2]]. rewrite Hm1.
  pose proof (governs_index _ _ _ _ Hm1 Hm2 Hr2) as HG. rewrite HG in Hg.
  inversion Hg; subst. reflexivity.
Qed.

Theorem lookup_correct : forall ops line, ordered ops = true ->
  line <= s_cur (srun ops) ->
  governs (s_hist (srun ops)) line <> None ->
  lookup (run ops) line = spec_lookup (srun ops) line.
Proof.
  intros ops line Hok Hcur Hne. pose proof (run_inv ops Hok) as [Hc Hs Hi Hg].
  unfold spec_lookup. destruct (governs (s_hist (srun ops)) line) as [e|] eqn:E; [|congruence].
  apply lookup_governed; auto; [lia|]. rewrite Hg. auto.
Qed.

(** After a poke: the poked line reads the poked place, earlier lines are untouched, and
    the line after it (and every later one until a new mapping) also reads the poked place. *)
Theorem poke_effect : forall ops f fl line,
  ordered (ops ++ [OPoke f fl]) = true ->
  0 < line ->
  let s := srun ops in
  let p := u64 (s_cur s + 1) in
  s_cur s < p -> p < u64 (p + 1) ->
  line <= u64 (p + 1) ->
  let F := inherit (s_hist s) p f in
  (line < p -> lookup (run (ops ++ [OPoke f fl])) line <> lookup (run ops) line ->
     s_cur s < line \/ governs (s_hist s) line = None) /\
  (p <= line -> lookup (run (ops ++ [OPoke f fl])) line = Some (F, u64 fl)).
Proof.
  intros ops f fl line Hok Hl s p Hp Hp1 Hline F.
  assert (Hok' : ordered ops = true).
  { clear - Hok. unfold ordered in *. revert Hok. generalize sinit. induction ops; simpl; intros; auto.
    apply andb_true_iff in Hok. destruct Hok. rewrite H. simpl. eapply IHops; eauto. }
  assert (Hs : srun (ops ++ [OPoke f fl]) = sstep s (OPoke f fl)).
  { unfold srun. rewrite fold_left_app. reflexivity. }
  set (s' := srun (ops ++ [OPoke f fl])) in *.
  assert (Hcur' : s_cur s' = u64 (p + 1)) by (rewrite Hs; reflexivity).
  assert (Hh : s_hist s' = Event (u64 (p+1)) F (u64 fl) 0 :: Event p F fl 0 :: s_hist s) by (rewrite Hs; reflexivity).
  split.
  - intros Hlt Hne. destruct (governs (s_hist s) line) as [e|] eqn:E; auto.
    destruct (Z_lt_le_dec (s_cur s) line); auto. exfalso. apply Hne.
    rewrite lookup_correct; auto; try (fold s'; lia).
    + rewrite lookup_correct; auto; [| fold s; congruence].
      unfold spec_lookup. fold s'. rewrite Hh. fold s.
      unfold governs at 1. cbn [find e_line].
      replace (u64 (p+1) <=? line) with false by (symmetry; apply Z.leb_gt; lia).
      replace (p <=? line) with false by (symmetry; apply Z.leb_gt; lia).
      reflexivity.
    + fold s'. rewrite Hh. unfold governs. cbn [find e_line].
      replace (u64 (p+1) <=? line) with false by (symmetry; apply Z.leb_gt; lia).
      replace (p <=? line) with false by (symmetry; apply Z.leb_gt; lia).
      fold (governs (s_hist s) line). congruence.
  - intros Hge. rewrite lookup_correct; auto; try (fold s'; lia).
    + unfold spec_lookup. fold s'. rewrite Hh. unfold governs. cbn [find e_line].
      replace (line =? 0) with false by (symmetry; apply Z.eqb_neq; lia).
      destruct (Z.leb_spec (u64 (p+1)) line).
      * cbn [e_file e_fline e_inc e_line]. rewrite Z.mul_0_l, Z.add_0_r.
        do 2 f_equal. unfold u64. apply Z.mod_mod. discriminate.
      * replace (p <=? line) with true by (symmetry; apply Z.leb_le; lia).
        cbn [e_file e_fline e_inc e_line]. rewrite Z.mul_0_l, Z.add_0_r. reflexivity.
    + fold s'. rewrite Hh. unfold governs. cbn [find e_line].
      destruct (u64 (p+1) <=? line); [congruence|].
      replace (p <=? line) with true by (symmetry; apply Z.leb_le; lia). congruence.
Qed.

(** ** Source text *)
Definition spec_source (h : list (Z * (Z * list Z))) (line : Z) : option (Z * list Z) :=
  match find (fun e => fst e =? line) h with Some (_, x) => Some x | None => None end.

Lemma upd_length : forall {A} (l : list A) n x, length (upd l n x) = length l.
Proof. induction l; destruct n; simpl; auto. Qed.

Lemma upd_nth : forall {A} (l : list A) n m x,
  nth_error (upd l n x) m = if Nat.eqb m n then (if Nat.ltb m (length l) then Some x else None) else nth_error l m.
Proof.
  induction l; intros n m x; simpl.
  - destruct n; simpl; destruct m; auto; simpl; destruct (Nat.eqb m n); auto.
  - destruct n, m; simpl; auto. rewrite IHl.
    destruct (Nat.eqb m n); auto.
Qed.

Lemma grow_spec : forall fuel s cur, (length s > 0)%nat ->
  cur <= Z.of_nat (length s) * 2 ^ Z.of_nat fuel ->
  cur <= Z.of_nat (length (grow fuel s cur)) /\ (length s <= length (grow fuel s cur))%nat /\
  (forall j, nth_error (grow fuel s cur) j = if Nat.ltb j (length s) then nth_error s j else
     if Nat.ltb j (length (grow fuel s cur)) then Some None else None).
Proof.
  induction fuel; intros s cur Hl Hc; cbn [grow].
  - rewrite Z.mul_1_r in Hc. repeat split; auto. intros j.
    destruct (Nat.ltb_spec j (length s)); auto. apply nth_error_None; auto.
  - destruct (Z.ltb_spec (Z.of_nat (length s)) cur).
    + destruct (IHfuel (s ++ repeat None (length s)) cur) as [H1 [H2 H3]].
      * rewrite app_length, repeat_length. lia.
      * rewrite app_length, repeat_length. rewrite Nat2Z.inj_succ, Z.pow_succ_r in Hc by lia. lia.
      * rewrite app_length, repeat_length in H2. repeat split; auto; [lia|].
        intros j. rewrite H3. rewrite app_length, repeat_length.
        destruct (Nat.ltb_spec j (length s)).
        -- destruct (Nat.ltb_spec j (length s + length s)); [|lia]. apply nth_error_app1; auto.
        -- destruct (Nat.ltb_spec j (length s + length s)); auto.
           rewrite nth_error_app2 by auto. rewrite nth_error_repeat by lia.
           destruct (Nat.ltb_spec j (length (grow fuel (s ++ repeat None (length s)) cur))); auto. lia.
    + repeat split; auto; try lia. intros j.
      destruct (Nat.ltb_spec j (length s)); auto. apply nth_error_None; auto.
Qed.

Record SInv (lm : linemap) (s : spec) : Prop := {
  S_cur : current lm = s_cur s;
  S_len : (length (src lm) > 0)%nat;
  S_src : forall line, 0 < line -> get_source lm line = spec_source (s_src s) line
}.

Lemma get_source_nth : forall lm line, 0 < line ->
  get_source lm line = match nth_error (src lm) (Z.to_nat (line - 1)) with Some (Some x) => Some x | _ => None end.
Proof.
  intros lm line Hl. unfold get_source. destruct (Z.ltb_spec (Z.of_nat (length (src lm))) line).
  - replace (nth_error (src lm) (Z.to_nat (line - 1))) with (@None (option (Z * list Z))); auto.
    symmetry. apply nth_error_None. lia.
  - destruct (Z.leb_spec line 0); [lia|reflexivity].
Qed.

Lemma src_set : forall lm f v l i, src (set lm f v l i) = src lm /\ current (set lm f v l i) = current lm.
Proof. intros. split; reflexivity. Qed.

Lemma s_step_inv : forall lm s o, SInv lm s -> 0 < s_cur s < w64 -> SInv (step lm o) (sstep s o).
Proof.
  intros lm s o [Hc Hlen Hsrc] Hcur. destruct o as [f v l i| |f l|b t].
  - constructor; simpl; auto.
  - constructor; simpl; auto. rewrite Hc; auto.
  - cbn [step sstep]. destruct (poke_eq lm f l) as [F [E _]]. rewrite E. constructor; simpl; auto.
    rewrite Hc; auto.
  - assert (Hb : current lm <= Z.of_nat (length (src lm)) * 2 ^ Z.of_nat 64).
    { change (2 ^ Z.of_nat 64) with w64. assert (1 <= Z.of_nat (length (src lm))) by lia. nia. }
    destruct (grow_spec 64 (src lm) (current lm) Hlen Hb) as [G1 [G2 G3]].
    constructor.
    + exact Hc.
    + cbn [step add_source src]. rewrite upd_length. lia.
    + intros line Hl. rewrite get_source_nth by auto. cbn [step add_source src].
      rewrite upd_nth. unfold spec_source. cbn [sstep s_src find fst].
      destruct (Z.eqb_spec (s_cur s) line).
      * subst line. rewrite <- Hc. rewrite Nat.eqb_refl.
        destruct (Nat.ltb_spec (Z.to_nat (current lm - 1)) (length (grow 64 (src lm) (current lm)))); auto.
        lia.
      * destruct (Nat.eqb_spec (Z.to_nat (line - 1)) (Z.to_nat (current lm - 1))); [lia|].
        specialize (Hsrc line Hl). rewrite get_source_nth in Hsrc by auto.
        unfold spec_source in Hsrc. rewrite <- Hsrc.
        rewrite G3. destruct (Nat.ltb_spec (Z.to_nat (line - 1)) (length (src lm))).
        -- reflexivity.
        -- replace (nth_error (src lm) (Z.to_nat (line-1))) with (@None (option (Z * list Z)))
             by (symmetry; apply nth_error_None; lia).
           destruct (Nat.ltb (Z.to_nat (line - 1)) (length (grow 64 (src lm) (current lm)))); auto.
Qed.

(** The line counter stays positive: no wrap-around happened during the history. *)
Fixpoint no_wrap (s : spec) (ops : list op) : Prop :=
  0 < s_cur s < w64 /\ match ops with [] => True | o :: t => no_wrap (sstep s o) t end.

Lemma source_from : forall ops lm s, SInv lm s -> no_wrap s ops ->
  SInv (fold_left step ops lm) (fold_left sstep ops s).
Proof.
  induction ops; simpl; intros lm s HS Hn; auto. destruct Hn. apply IHops; auto.
  apply s_step_inv; auto.
Qed.

Theorem source_correct : forall ops line, no_wrap sinit ops -> 0 < line ->
  get_source (run ops) line = spec_source (s_src (srun ops)) line.
Proof.
  intros ops line Hn Hl.
  assert (SInv create sinit).
  { constructor; simpl; auto. intros l Hl'. unfold get_source. cbn [create src length].
    destruct (Z.ltb_spec (Z.of_nat 2) l); auto. destruct (l <=? 0); auto.
    cbn [spec_source find sinit s_src].
    assert (l = 1 \/ l = 2) as [-> | ->] by lia; reflexivity. }
  apply (S_src _ _ (source_from _ _ _ H Hn)); auto.
Qed.
