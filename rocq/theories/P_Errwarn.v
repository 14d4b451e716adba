(** Specification and proofs for libyasm/errwarn.c (model in M_Errwarn). *)
From Coq Require Import ZArith List Lia Bool Sorted.
From Verif Require Import Lib M_Errwarn.
Import ListNotations.
Open Scope Z_scope.

(** * Specification *)

(** Is warning class [c] enabled after the calls in [h] (newest first)?  Decided by the last
    call that mentions the class; by default exactly classes 1, 2, 3, 5 and 7 are on. *)
Fixpoint enabled (h : list op) (c : Z) : bool :=
  match h with
  | [] => (c =? 1) || (c =? 2) || (c =? 3) || (c =? 5) || (c =? 7)
  | WEnable c' :: t => if c' =? c then true else enabled t c
  | WDisable c' :: t => if c' =? c then false else enabled t c
  | WDisableAll :: _ => false
  | _ :: t => enabled t c
  end.

(** The warnings accepted during [ops], given the earlier calls [h] (newest first). *)
Fixpoint accepted (h : list op) (ops : list op) : list (Z * Z) :=
  match ops with
  | [] => []
  | WSet c m :: t => if enabled h c then (c, m) :: accepted (WSet c m :: h) t
                     else accepted (WSet c m :: h) t
  | o :: t => accepted (o :: h) t
  end.

(** A raised diagnostic: the line it was propagated at, whether it is an error, its text and
    cross reference. *)
Record diag := Diag { d_line : Z; d_err : bool; d_msg : Z; d_xline : Z; d_xmsg : Z }.

(** Everything raised by a sequence of calls, in order.  [pe] is the pending error (class,
    text), [px] the pending cross reference, [q] the queued warnings. *)
Fixpoint raised (h : list op) (pe : option (Z * Z)) (px : Z * Z) (q : list (Z * Z))
    (ops : list op) : list diag :=
  match ops with
  | [] => []
  | o :: t =>
    match o with
    | ESet c m =>
        match pe with
        | Some _ => raised (o :: h) pe px q t
        | None => raised (o :: h) (if c =? 0 then None else Some (c, m)) px q t
        end
    | EXref l m => raised (o :: h) pe (match pe with Some _ => px | None => (l, m) end) q t
    | EClear | EFetch => raised (o :: h) None (0, 0) q t
    | WSet c m => raised (o :: h) pe px (if enabled h c then q ++ [(c, m)] else q) t
    | WFetch => raised (o :: h) pe px (tl q) t
    | WClear => raised (o :: h) pe px [] t
    | Propagate ln =>
        (match pe with Some (_, m) => [Diag ln true m (fst px) (snd px)] | None => [] end)
        ++ map (fun w => Diag ln false (snd w) 0 0) q
        ++ raised (o :: h) None (match pe with Some _ => (0, 0) | None => px end) [] t
    | _ => raised (o :: h) pe px q t
    end
  end.
Definition all_raised (ops : list op) : list diag := raised [] None (0, 0) [] ops.

(** No parser-class error is ever set. *)
Definition parse_class (c : Z) : bool := negb (c =? 65535) && (Z.land c 32832 =? 32832).
Definition no_parse (ops : list op) : bool :=
  forallb (fun o => match o with ESet c _ => negb (parse_class c) | _ => true end) ops.

Definition wclass_ok (o : op) : Prop :=
  match o with WSet c _ | WEnable c | WDisable c => 0 <= c < 64 | _ => True end.

Definition as_diag (e : entry) : diag :=
  Diag (n_line e) (match n_kind e with KWarn => false | _ => true end) (n_msg e) (n_xline e) (n_xmsg e).

(** * The search loop finds the last entry not after the line *)
Definition sortedE (l : list entry) := StronglySorted (fun a b => n_line a <= n_line b) l.

Fixpoint ins (x : entry) (l : list entry) : list entry :=
  match l with
  | [] => [x]
  | h :: t => if n_line x <? n_line h then x :: h :: t else h :: ins x t
  end.

Lemma sortedE_nth : forall l i j a b, sortedE l -> (i <= j)%nat ->
  nth_error l i = Some a -> nth_error l j = Some b -> n_line a <= n_line b.
Proof.
  induction l; intros i j a0 b Hs Hij Ha Hb; [destruct i; discriminate|].
  inversion Hs; subst. destruct i, j; simpl in *.
  - inversion Ha; inversion Hb; subst; lia.
  - inversion Ha; subst. rewrite Forall_forall in H2. apply H2. eapply nth_error_In; eauto.
  - lia.
  - eapply IHl with (i := i) (j := j); eauto; lia.
Qed.

Lemma search_fwd : forall fuel l line i e, sortedE l ->
  nth_error l i = Some e -> n_line e <= line -> (length l - i <= fuel)%nat ->
  exists k ek, search fuel l line i = Some (AAfter k, k) /\ nth_error l k = Some ek /\
    n_line ek <= line /\ (forall j ej, (k < j)%nat -> nth_error l j = Some ej -> line < n_line ej).
Proof.
  induction fuel; intros l line i e Hs Hi Hle Hf.
  - pose proof (nth_error_Some_lt _ _ _ Hi). lia.
  - cbn [search]. rewrite Hi.
    destruct (Z.ltb_spec line (n_line e)); [lia|].
    destruct (nth_error l (S i)) as [nx|] eqn:E.
    + destruct (Z.leb_spec (n_line e) line); [|lia]. cbn [andb].
      destruct (Z.ltb_spec line (n_line nx)).
      * exists i, e. repeat split; auto. intros j ej Hj Hn.
        pose proof (sortedE_nth l (S i) j _ _ Hs Hj E Hn). lia.
      * apply (IHfuel l line (S i) nx); auto. lia.
    + exists i, e. repeat split; auto. intros j ej Hj Hn.
      apply nth_error_None in E. pose proof (nth_error_Some_lt _ _ _ Hn). lia.
Qed.

Lemma search_spec : forall l line i, sortedE l -> (i < length l)%nat ->
  (exists k ek, search (2 * length l + 2) l line i = Some (AAfter k, k) /\ nth_error l k = Some ek /\
    n_line ek <= line /\ (forall j ej, (k < j)%nat -> nth_error l j = Some ej -> line < n_line ej)) \/
  (search (2 * length l + 2) l line i = Some (AHead, 0%nat) /\
     forall j ej, nth_error l j = Some ej -> line < n_line ej).
Proof.
  intros l line i Hs Hi.
  destruct (nth_error l i) as [e|] eqn:E; [|apply nth_error_None in E; lia].
  destruct (Z_le_gt_dec (n_line e) line).
  - left. eapply search_fwd; eauto. lia.
  - destruct (nth_error l 0) as [e0|] eqn:E0.
    2:{ apply nth_error_None in E0. lia. }
    assert (Hs0 : forall f, search (S (S f)) l line i =
      if Nat.eqb i 0 then Some (AHead, i) else search (S f) l line 0).
    { intros f. cbn [search]. rewrite E. destruct (Z.ltb_spec line (n_line e)); [|lia]. reflexivity. }
    replace (2 * length l + 2)%nat with (S (S (2 * length l))) by lia. rewrite Hs0.
    destruct (Nat.eqb_spec i 0).
    + subst. right. split; auto. intros j ej Hj.
      pose proof (sortedE_nth l 0 j _ _ Hs (Nat.le_0_l _) E Hj). lia.
    + destruct (Z_le_gt_dec (n_line e0) line).
      * left. eapply search_fwd; eauto. lia.
      * right. split.
        -- cbn [search]. rewrite E0. destruct (Z.ltb_spec line (n_line e0)); [|lia]. reflexivity.
        -- intros j ej Hj. pose proof (sortedE_nth l 0 j _ _ Hs (Nat.le_0_l _) E0 Hj). lia.
Qed.

Lemma ins_head : forall x l, (forall j ej, nth_error l j = Some ej -> n_line x < n_line ej) ->
  ins x l = x :: l.
Proof.
  intros x l H. destruct l; auto. cbn [ins]. specialize (H 0%nat e eq_refl).
  destruct (Z.ltb_spec (n_line x) (n_line e)); auto; lia.
Qed.

Lemma ins_after : forall x l k ek, sortedE l -> nth_error l k = Some ek -> n_line ek <= n_line x ->
  (forall j ej, (k < j)%nat -> nth_error l j = Some ej -> n_line x < n_line ej) ->
  ins x l = firstn (S k) l ++ x :: skipn (S k) l.
Proof.
  induction l; intros k ek Hs Hk Hle Hgt; [destruct k; discriminate|].
  assert (Hal : n_line a <= n_line x).
  { pose proof (sortedE_nth (a :: l) 0 k a ek Hs (Nat.le_0_l _) eq_refl Hk). lia. }
  cbn [ins]. destruct (Z.ltb_spec (n_line x) (n_line a)); [lia|].
  destruct k.
  - cbn [firstn skipn app]. f_equal. apply ins_head. intros j ej Hj. apply (Hgt (S j) ej); [lia|auto].
  - cbn [firstn skipn app]. f_equal. inversion Hs; subst.
    cbn [firstn] in IHl. rewrite (IHl k ek); auto.
    intros j ej Hj Hn. apply (Hgt (S j) ej); [lia|auto].
Qed.

Lemma ins_sorted : forall x l, sortedE l -> sortedE (ins x l).
Proof.
  induction l; intros Hs; cbn [ins].
  - constructor; constructor.
  - inversion Hs; subst. destruct (Z.ltb_spec (n_line x) (n_line a)).
    + constructor; auto. constructor; [lia|]. rewrite Forall_forall in *. intros y Hy. specialize (H2 y Hy). lia.
    + constructor; [apply IHl; auto|]. rewrite Forall_forall in *. intros y Hy.
      assert (In y (x :: l)).
      { clear - Hy. revert Hy. induction l; cbn [ins]; intros H; auto.
        destruct (n_line x <? n_line a); auto. destruct H as [->|H]; [right; left; auto|].
        apply IHl in H. destruct H; [left|right;right]; auto. }
      destruct H0 as [->|H0]; auto.
Qed.

Lemma ins_filter : forall (f : entry -> bool) x l, sortedE l ->
  (forall y, f y = true -> f x = true -> n_line y = n_line x) ->
  filter f (ins x l) = filter f l ++ (if f x then [x] else []).
Proof.
  induction l; intros Hs Hf; cbn [ins filter app].
  - destruct (f x); auto.
  - inversion Hs; subst. destruct (Z.ltb_spec (n_line x) (n_line a)).
    + cbn [filter]. destruct (f x) eqn:Ex.
      * replace (f a) with false.
        2:{ symmetry. destruct (f a) eqn:Ea; auto. specialize (Hf a Ea eq_refl). lia. }
        replace (filter f l) with (@nil entry); auto.
        symmetry. clear - H Hf H2 Ex. induction l; auto. cbn [filter].
        rewrite Forall_forall in H2.
        replace (f a0) with false.
        2:{ symmetry. destruct (f a0) eqn:E0; auto. specialize (Hf a0 E0 eq_refl).
            specialize (H2 a0 (or_introl eq_refl)). lia. }
        apply IHl. apply Forall_forall. intros; apply H2. right; auto.
      * rewrite app_nil_r. reflexivity.
    + cbn [filter]. rewrite IHl by auto. destruct (f a); auto.
Qed.

Lemma ins_length : forall x l, length (ins x l) = S (length l).
Proof. induction l; simpl; auto. destruct (n_line x <? n_line a); simpl; auto. Qed.

(** Well-formed report: sorted, and the cached index is in range. *)
Definition wf (l : list entry) (pv : option nat) : Prop :=
  sortedE l /\ match pv with Some i => (i < length l)%nat | None => l = [] end.

Definition no_parse_entries (l : list entry) := forall e, In e l -> n_kind e <> KParse.

Lemma data_new_cases : forall l pv line rp fill, wf l pv ->
  (forall ln, n_line (fill ln) = ln) ->
  (exists i, data_new l pv line rp fill = Some (ins (fill line) l, i) /\ (i < S (length l))%nat) \/
  (rp = true /\ exists i we, nth_error l i = Some we /\ n_kind we = KParse /\
     data_new l pv line rp fill = Some (firstn i l ++ fill (n_line we) :: skipn (S i) l, i)).
Proof.
  intros l pv line rp fill [Hs Hpv] Hfill. unfold data_new.
  destruct l as [|e0 l0].
  - assert (pv = None). { destruct pv; auto. simpl in Hpv; lia. }
    subst. left. exists 0%nat. cbn. split; auto.
  - destruct pv as [i|]; [|discriminate].
    set (l := e0 :: l0) in *.
    change (match Some i, l with
               | Some i, _ :: _ =>
                   match search (2 * length l + 2) l line i with
                   | Some (a, ins) => Some (a, Some ins)
                   | None => None
                   end
               | _, _ => Some (AHead, Some i)
               end) with (match search (2 * length l + 2) l line i with
                   | Some (a, ins) => Some (a, Some ins)
                   | None => None
                   end).
    destruct (search_spec l line i Hs Hpv) as [[k [ek [H1 [H2 [H3 H4]]]]]|[H1 H2]].
    + rewrite H1. rewrite H2.
      pose proof (nth_error_Some_lt _ _ _ H2) as Hlt.
      destruct (n_kind ek) eqn:EK; [| |destruct rp].
      3:{ right. split; auto. exists k, ek. repeat split; auto. }
      all: left; exists (S k); split; [|lia]; f_equal; f_equal; symmetry;
        apply ins_after with (ek := ek); auto; rewrite Hfill; auto.
    + rewrite H1. destruct (nth_error l 0) as [we|] eqn:E0; [|discriminate].
      destruct (n_kind we) eqn:EK; [| |destruct rp].
      3:{ right. split; auto. exists 0%nat, we. repeat split; auto. }
      all: left; exists 0%nat; split; [|lia]; f_equal; f_equal; symmetry;
        apply ins_head; intros j ej Hj; rewrite Hfill; eapply H2; eauto.
Qed.

Lemma replace_sorted : forall l i we x, sortedE l -> nth_error l i = Some we -> n_line x = n_line we ->
  sortedE (firstn i l ++ x :: skipn (S i) l) /\ length (firstn i l ++ x :: skipn (S i) l) = length l.
Proof.
  induction l; intros i we x Hs Hi Hx; [destruct i; discriminate|].
  inversion Hs; subst. destruct i; simpl in *.
  - inversion Hi; subst. split; auto. constructor; auto. rewrite Hx. auto.
  - destruct (IHl i we x) as [A B]; auto. split; [|lia].
    constructor; auto.
    rewrite Forall_forall in *. intros y Hy. apply in_app_or in Hy. destruct Hy as [Hy|[<-|Hy]].
    + apply H2. rewrite <- (firstn_skipn i l). apply in_or_app; auto.
    + rewrite Hx. apply H2. eapply nth_error_In; eauto.
    + apply H2. assert (In y (firstn (S i) l ++ skipn (S i) l)) by (apply in_or_app; auto).
      rewrite firstn_skipn in H. auto.
Qed.

Lemma data_new_wf : forall l pv line rp fill, wf l pv -> (forall ln, n_line (fill ln) = ln) ->
  exists l' i, data_new l pv line rp fill = Some (l', i) /\ wf l' (Some i).
Proof.
  intros l pv line rp fill Hw Hf.
  destruct (data_new_cases l pv line rp fill Hw Hf) as [[i [E Hi]]|[_ [i [we [Hn [Hk E]]]]]].
  - eexists _, i. split; eauto. split; [apply ins_sorted, Hw|]. rewrite ins_length. auto.
  - eexists _, i. split; eauto. destruct Hw as [Hs _].
    destruct (replace_sorted l i we (fill (n_line we)) Hs Hn (Hf _)) as [A B].
    split; auto. rewrite B. eapply nth_error_Some_lt; eauto.
Qed.

Lemma prop_warns_wf : forall ws l pv line wc, wf l pv ->
  exists l' pv' wc', prop_warns l pv line ws wc = Some (l', pv', wc') /\ wf l' pv'.
Proof.
  induction ws as [|[c m] ws]; intros l pv line wc Hw; cbn [prop_warns].
  - eauto 10.
  - destruct (data_new_wf l pv line false (fun ln => Entry ln KWarn m 0 0) Hw) as [l' [i [E Hw']]]; auto.
    rewrite E. apply IHws; auto.
Qed.

Lemma propagate_wf : forall s line, wf (report s) (prev s) ->
  exists s', propagate s line = Some s' /\ wf (report s') (prev s').
Proof.
  intros s line Hw. unfold propagate. destruct (eclass s =? E_NONE).
  - destruct (prop_warns_wf (warns s) _ _ line (wcount s) Hw) as [l' [pv' [wc' [E H]]]].
    rewrite E. eexists. split; eauto.
  - destruct (data_new_wf (report s) (prev s) line true
       (fun ln => Entry ln (err_kind (eclass s)) (emsg s) (exline s) (exmsg s)) Hw) as [l' [i [E Hw']]]; auto.
    rewrite E.
    destruct (prop_warns_wf (warns s) _ _ line (wcount s) Hw') as [l2 [pv' [wc' [E2 H]]]].
    rewrite E2. eexists. split; eauto.
Qed.

Lemma step_wf : forall s o, wf (report s) (prev s) ->
  exists s' w, step s o = Some (s', w) /\ wf (report s') (prev s').
Proof.
  intros s o Hw. destruct o; cbn [step]; try (eexists _, _; split; [reflexivity|]; auto; fail).
  - eexists _, _; split; [reflexivity|]. destruct (eclass s =? E_NONE); auto.
  - eexists _, _; split; [reflexivity|]. destruct (eclass s =? E_NONE); auto.
  - eexists _, _; split; [reflexivity|]. destruct (Z.land (mask s) (bit c) =? 0); auto.
  - destruct (warns s); eexists _, _; (split; [reflexivity|]); auto.
  - destruct (propagate_wf s line Hw) as [s' [E H]]. rewrite E. eexists _, _; split; eauto.
Qed.

Lemma run_from_wf : forall ops s, wf (report s) (prev s) ->
  exists s' w, run_from s ops = Some (s', w) /\ wf (report s') (prev s').
Proof.
  induction ops; intros s Hw; cbn [run_from].
  - eauto.
  - destruct (step_wf s a Hw) as [s' [w [E H]]]. rewrite E.
    destruct (IHops s' H) as [s'' [w' [E' H']]]. rewrite E'. eauto.
Qed.

Lemma init_wf : wf (report init) (prev init).
Proof. split; [constructor|reflexivity]. Qed.

(** C18, first half: every history yields a report sorted by line. *)
Theorem report_sorted : forall ops, exists s w, run ops = Some (s, w) /\
  StronglySorted (fun a b => n_line a <= n_line b) (report s).
Proof.
  intros ops. destruct (run_from_wf ops init init_wf) as [s [w [E [H _]]]]. exists s, w. auto.
Qed.

(** * Warning mask and queue *)
Definition rel (h : list op) (s : st) : Prop :=
  forall c, 0 <= c < 64 -> Z.testbit (mask s) c = enabled h c.

Lemma bit_test : forall c m, 0 <= c -> (Z.land m (bit c) =? 0) = negb (Z.testbit m c).
Proof.
  intros c m Hc. unfold bit. rewrite Z.shiftl_1_l.
  destruct (Z.testbit m c) eqn:E; simpl.
  - apply Z.eqb_neq. intro H.
    assert (Z.testbit (Z.land m (2 ^ c)) c = false) by (rewrite H; apply Z.bits_0).
    rewrite Z.land_spec, E, Z.pow2_bits_true in H0 by auto. discriminate.
  - apply Z.eqb_eq. apply Z.bits_inj'. intros n Hn. rewrite Z.land_spec, Z.bits_0.
    rewrite Z.pow2_bits_eqb by auto. destruct (Z.eqb_spec c n); subst; [rewrite E|]; auto.
    apply andb_false_r.
Qed.

Lemma lor_bit : forall m c n, 0 <= c -> 0 <= n ->
  Z.testbit (Z.lor m (bit c)) n = if c =? n then true else Z.testbit m n.
Proof.
  intros. unfold bit. rewrite Z.shiftl_1_l, Z.lor_spec, Z.pow2_bits_eqb by auto.
  destruct (c =? n); [apply orb_true_r | apply orb_false_r].
Qed.

Lemma land_bit : forall m c n, 0 <= c -> 0 <= n ->
  Z.testbit (Z.land m (Z.lnot (bit c))) n = if c =? n then false else Z.testbit m n.
Proof.
  intros. unfold bit. rewrite Z.shiftl_1_l, Z.land_spec, Z.lnot_spec, Z.pow2_bits_eqb by auto.
  destruct (c =? n); [apply andb_false_r | apply andb_true_r].
Qed.

Lemma propagate_frame : forall s line s', propagate s line = Some s' -> mask s' = mask s /\ warns s' = [].
Proof.
  unfold propagate. intros s line s' H.
  destruct (eclass s =? E_NONE).
  - destruct (prop_warns (report s) (prev s) line (warns s) (wcount s)) as [[[? ?] ?]|]; [|discriminate].
    inversion H; subst; auto.
  - destruct (data_new _ _ _ _ _) as [[? ?]|]; [|discriminate].
    destruct (prop_warns _ _ _ _ _) as [[[? ?] ?]|]; [|discriminate].
    inversion H; subst; auto.
Qed.

Lemma step_mask : forall h s o s' w, rel h s -> wclass_ok o -> step s o = Some (s', w) -> rel (o :: h) s'.
Proof.
  intros h s o s' w Hr Hok H n Hn.
  destruct o; cbn [step] in H; cbn [enabled];
    try (inversion H; subst; clear H; cbn [mask]; apply Hr; auto; fail).
  - inversion H; subst; destruct (eclass s =? E_NONE); cbn [mask]; apply Hr; auto.
  - inversion H; subst; destruct (eclass s =? E_NONE); cbn [mask]; apply Hr; auto.
  - inversion H; subst; destruct (Z.land (mask s) (bit c) =? 0); cbn [mask]; apply Hr; auto.
  - destruct (warns s); inversion H; subst; cbn [mask]; apply Hr; auto.
  - inversion H; subst; cbn [mask]. simpl in Hok. rewrite lor_bit by lia. rewrite Hr by auto. auto.
  - inversion H; subst; cbn [mask]. simpl in Hok. rewrite land_bit by lia. rewrite Hr by auto. auto.
  - inversion H; subst; cbn [mask]. apply Z.bits_0.
  - destruct (propagate s line) eqn:E; [|discriminate]. inversion H; subst.
    destruct (propagate_frame _ _ _ E) as [-> _]. apply Hr; auto.
Qed.

Lemma step_queue : forall h s o s' w, rel h s -> wclass_ok o -> step s o = Some (s', w) ->
  w ++ warns s' = warns s ++ match o with WSet c m => if enabled h c then [(c, m)] else [] | _ => [] end.
Proof.
  intros h s o s' w Hr Hok H.
  destruct o; cbn [step] in H;
    try (inversion H; subst; clear H; cbn [warns]; rewrite app_nil_r; auto; fail).
  - inversion H; subst; destruct (eclass s =? E_NONE); cbn [warns]; rewrite app_nil_r; auto.
  - inversion H; subst; destruct (eclass s =? E_NONE); cbn [warns]; rewrite app_nil_r; auto.
  - simpl in Hok. rewrite bit_test in H by lia. rewrite <- (Hr c) by auto.
    destruct (Z.testbit (mask s) c); cbn [negb] in H; inversion H; subst; cbn [warns]; auto.
    rewrite app_nil_r; auto.
  - destruct (warns s) eqn:E; inversion H; subst; cbn [warns]; rewrite ?E, ?app_nil_r; auto.
  - destruct (propagate s line) eqn:E; [|discriminate]. inversion H; subst.
    destruct (propagate_frame _ _ _ E) as [_ ->]. reflexivity.
Qed.

Lemma queue_from : forall ops h s s' w, rel h s -> Forall wclass_ok ops ->
  run_from s ops = Some (s', w) -> w ++ warns s' = warns s ++ accepted h ops.
Proof.
  induction ops; intros h s s' w Hr Hok H; cbn [run_from] in H.
  - inversion H; subst. cbn [accepted]. rewrite app_nil_r. auto.
  - destruct (step s a) as [[s1 w1]|] eqn:E; [|discriminate].
    destruct (run_from s1 ops) as [[s2 w2]|] eqn:E2; [|discriminate].
    inversion H; subst. inversion Hok; subst.
    pose proof (step_mask _ _ _ _ _ Hr H2 E) as Hr1.
    pose proof (step_queue _ _ _ _ _ Hr H2 E) as Hq.
    rewrite <- app_assoc, (IHops _ _ _ _ Hr1 H3 E2), app_assoc, Hq.
    rewrite <- app_assoc. f_equal.
    destruct a; cbn [accepted]; auto. destruct (enabled h c); auto.
Qed.

Lemma init_rel : rel [] init.
Proof.
  intros c Hc. cbn [mask init enabled].
  rewrite !Z.lor_spec, !Z.pow2_bits_eqb by lia.
  rewrite (Z.eqb_sym 1), (Z.eqb_sym 2), (Z.eqb_sym 3), (Z.eqb_sym 5), (Z.eqb_sym 7).
  rewrite <- !orb_assoc. reflexivity.
Qed.

(** C20: warnings come off the queue in the order set, exactly those enabled when set. *)
Theorem warnings_fifo : forall ops s w, Forall wclass_ok ops ->
  run ops = Some (s, w) -> w ++ warns s = accepted [] ops.
Proof. intros ops s w Hok H. apply (queue_from ops [] init s w init_rel Hok H). Qed.

(** * Error indicator *)
Definition resets (o : op) : bool :=
  match o with EClear | EFetch | Propagate _ => true | _ => false end.

Lemma pending_stays : forall ops s s' w c m, eclass s = c -> emsg s = m -> c <> 0 ->
  forallb (fun o => negb (resets o)) ops = true ->
  run_from s ops = Some (s', w) -> eclass s' = c /\ emsg s' = m /\ exline s' = exline s /\ exmsg s' = exmsg s.
Proof.
  induction ops; intros s s' w c m Hc Hm Hc0 Hr H; cbn [run_from] in H.
  - inversion H; subst; auto.
  - cbn [forallb] in Hr. apply andb_true_iff in Hr. destruct Hr as [Ha Hr].
    assert (HE : eclass s =? E_NONE = false) by (apply Z.eqb_neq; rewrite Hc; auto).
    destruct (step s a) as [[s1 w1]|] eqn:E; [|discriminate].
    destruct (run_from s1 ops) as [[s2 w2]|] eqn:E2; [|discriminate].
    inversion H; subst. clear H.
    assert (eclass s1 = eclass s /\ emsg s1 = emsg s /\ exline s1 = exline s /\ exmsg s1 = exmsg s) as [H1 [H2 [H3 H4]]].
    { destruct a; cbn [step] in E; try discriminate; try rewrite HE in E;
        try (inversion E; subst; auto; fail).
      - destruct (Z.land (mask s) (bit c) =? 0); inversion E; subst; auto.
      - destruct (warns s); inversion E; subst; auto. }
    destruct (IHops s1 s' w2 (eclass s) (emsg s)) as [A [B [C D]]]; auto.
    repeat split; congruence.
Qed.

Lemma run_from_app : forall a b s, run_from s (a ++ b) =
  match run_from s a with
  | None => None
  | Some (s1, w1) => match run_from s1 b with None => None | Some (s2, w2) => Some (s2, w1 ++ w2) end
  end.
Proof.
  induction a; intros b s; cbn [app run_from].
  - destruct (run_from s b) as [[? ?]|]; auto.
  - destruct (step s a) as [[s1 w1]|]; auto. rewrite IHa.
    destruct (run_from s1 a0) as [[s2 w2]|]; auto.
    destruct (run_from s2 b) as [[s3 w3]|]; auto. rewrite app_assoc. auto.
Qed.

Definition quiet (o : op) : bool := match o with ESet _ _ => false | _ => true end.

Lemma quiet_none : forall ops s s' w, eclass s = 0 -> forallb quiet ops = true ->
  run_from s ops = Some (s', w) -> eclass s' = 0.
Proof.
  induction ops; intros s s' w Hc Hq H; cbn [run_from] in H.
  - inversion H; subst; auto.
  - cbn [forallb] in Hq. apply andb_true_iff in Hq. destruct Hq as [Ha Hq].
    destruct (step s a) as [[s1 w1]|] eqn:E; [|discriminate].
    destruct (run_from s1 ops) as [[s2 w2]|] eqn:E2; [|discriminate].
    inversion H; subst. refine (IHops s1 _ w2 _ Hq E2).
    destruct a; cbn [step] in E; try discriminate;
      try (inversion E; subst; auto; fail).
    + inversion E; subst. destruct (eclass s =? E_NONE); auto.
    + inversion E; subst. destruct (Z.land (mask s) (bit c) =? 0); auto.
    + destruct (warns s); inversion E; subst; auto.
    + unfold propagate in E. rewrite Hc in E. change (0 =? E_NONE) with true in E. cbv iota in E.
      destruct (prop_warns _ _ _ _ _) as [[[? ?] ?]|]; inversion E; subst; auto.
Qed.

(** C20: the error that stays pending is the first one set after the last reset. *)
Theorem first_error_kept : forall before r quietly c m after s w,
  resets r = true -> forallb quiet quietly = true -> c <> 0 ->
  forallb (fun o => negb (resets o)) after = true ->
  run (before ++ r :: quietly ++ ESet c m :: after) = Some (s, w) ->
  eclass s = c /\ emsg s = m.
Proof.
  intros before r quietly c m after s w Hr Hq Hc Ha H.
  unfold run in H. rewrite run_from_app in H.
  destruct (run_from init before) as [[s1 w1]|]; [|discriminate].
  change (r :: quietly ++ ESet c m :: after) with ([r] ++ (quietly ++ ESet c m :: after)) in H.
  rewrite run_from_app in H.
  destruct (run_from s1 [r]) as [[s2 w2]|] eqn:E2; [|discriminate].
  assert (Hs2 : eclass s2 = 0).
  { cbn [run_from] in E2. destruct (step s1 r) as [[s2' w2']|] eqn:E; [|discriminate].
    inversion E2; subst. destruct r; try discriminate; cbn [step] in E; try (inversion E; subst; auto; fail).
    unfold propagate in E. destruct (eclass s1 =? E_NONE) eqn:EE.
    - destruct (prop_warns _ _ _ _ _) as [[[? ?] ?]|]; inversion E; subst. apply Z.eqb_eq in EE. auto.
    - destruct (data_new _ _ _ _ _) as [[? ?]|]; [|discriminate].
      destruct (prop_warns _ _ _ _ _) as [[[? ?] ?]|]; inversion E; subst; auto. }
  rewrite run_from_app in H.
  destruct (run_from s2 quietly) as [[s3 w3]|] eqn:E3; [|discriminate].
  pose proof (quiet_none _ _ _ _ Hs2 Hq E3) as Hs3.
  cbn [run_from step] in H. rewrite Hs3 in H. change (0 =? E_NONE) with true in H. cbv iota in H.
  match goal with H : context [run_from ?x after] |- _ => set (s4 := x) in H end.
  destruct (run_from s4 after) as [[s5 w5]|] eqn:E5; [|discriminate].
  inversion H; subst.
  destruct (pending_stays after s4 s w5 c m) as [A [B _]]; auto.
Qed.

(** * Completeness and stability of the report when no parse-class error is set *)
Record Rel (h : list op) (s : st) (pe : option (Z * Z)) (px : Z * Z) (q : list (Z * Z))
  (past : list diag) : Prop := {
  R_mask : rel h s;
  R_pe : match pe with Some (c, m) => eclass s = c /\ emsg s = m /\ c <> 0 /\ parse_class c = false
                     | None => eclass s = 0 end;
  R_px : px = (exline s, exmsg s);
  R_q : q = warns s;
  R_wf : wf (report s) (prev s);
  R_np : no_parse_entries (report s);
  R_rep : forall L, map as_diag (filter (fun e => n_line e =? L) (report s)) =
                    filter (fun d => d_line d =? L) past;
  R_len : length (report s) = length past;
  R_ec : ecount s = u32 (Z.of_nat (length (filter d_err past)));
  R_wc : wcount s = u32 (Z.of_nat (length (filter (fun d => negb (d_err d)) past)))
}.

Lemma u32_add1 : forall n, u32 (u32 n + 1) = u32 (n + 1).
Proof. intros. unfold u32. rewrite Zplus_mod_idemp_l. reflexivity. Qed.

Lemma filter_warns : forall line ws,
  filter d_err (map (fun w : Z * Z => Diag line false (snd w) 0 0) ws) = [] /\
  length (filter (fun d => negb (d_err d)) (map (fun w : Z * Z => Diag line false (snd w) 0 0) ws)) = length ws.
Proof. induction ws; simpl; auto. destruct IHws. split; auto. Qed.

Lemma prop_warns_count : forall ws l pv line wc l' pv' wc',
  prop_warns l pv line ws wc = Some (l', pv', wc') -> forall n, wc = u32 n ->
  wc' = u32 (n + Z.of_nat (length ws)).
Proof.
  induction ws as [|[c m] ws]; intros l pv line wc l' pv' wc' H n Hn; cbn [prop_warns] in H.
  - inversion H; subst. simpl. rewrite Z.add_0_r. auto.
  - destruct (data_new _ _ _ _ _) as [[? ?]|]; [|discriminate].
    rewrite (IHws _ _ _ _ _ _ _ H (n + 1)).
    + f_equal. simpl length. lia.
    + subst wc. apply u32_add1.
Qed.

Lemma data_new_np : forall l pv line rp fill, wf l pv -> no_parse_entries l ->
  (forall ln, n_line (fill ln) = ln) -> n_kind (fill line) <> KParse ->
  exists i, data_new l pv line rp fill = Some (ins (fill line) l, i) /\
    wf (ins (fill line) l) (Some i) /\ no_parse_entries (ins (fill line) l).
Proof.
  intros l pv line rp fill Hw Hnp Hf Hk.
  assert (Hin : forall y, In y (ins (fill line) l) -> y = fill line \/ In y l).
  { clear. induction l; cbn [ins]; intros y H.
    - destruct H as [<-|[]]; auto.
    - destruct (n_line (fill line) <? n_line a).
      + destruct H as [<-|H]; auto.
      + destruct H as [<-|H]; [right; left; auto|]. apply IHl in H. destruct H; auto. right; right; auto. }
  destruct (data_new_cases l pv line rp fill Hw Hf) as [[i [E Hi]]|[_ [i [we [Hn [Hk' E]]]]]].
  - exists i. split; [exact E|]. split.
    + split; [apply ins_sorted, Hw|]. rewrite ins_length. auto.
    + intros y Hy. apply Hin in Hy. destruct Hy as [->|Hy]; auto.
  - exfalso. apply (Hnp we); auto. eapply nth_error_In; eauto.
Qed.

Lemma ins_line_filter : forall x l L, sortedE l ->
  filter (fun e => n_line e =? L) (ins x l) =
  filter (fun e => n_line e =? L) l ++ (if n_line x =? L then [x] else []).
Proof.
  intros. apply ins_filter; auto. intros y H1 H2. apply Z.eqb_eq in H1. apply Z.eqb_eq in H2. lia.
Qed.

Lemma prop_warns_np : forall ws l pv line wc past, wf l pv -> no_parse_entries l ->
  (forall L, map as_diag (filter (fun e => n_line e =? L) l) = filter (fun d => d_line d =? L) past) ->
  length l = length past ->
  exists l' pv' wc', prop_warns l pv line ws wc = Some (l', pv', wc') /\ wf l' pv' /\ no_parse_entries l' /\
   (forall L, map as_diag (filter (fun e => n_line e =? L) l') =
      filter (fun d => d_line d =? L) (past ++ map (fun w => Diag line false (snd w) 0 0) ws)) /\
   length l' = length (past ++ map (fun w => Diag line false (snd w) 0 0) ws).
Proof.
  induction ws as [|[c m] ws]; intros l pv line wc past Hw Hnp Hr Hlen; cbn [prop_warns map].
  - rewrite app_nil_r. eauto 10.
  - destruct (data_new_np l pv line false (fun ln => Entry ln KWarn m 0 0) Hw Hnp) as [i [E [Hw' Hnp']]]; auto.
    { cbn. discriminate. }
    cbv beta in E. rewrite E.
    change (past ++ Diag line false (snd (c, m)) 0 0 :: map (fun w : Z * Z => Diag line false (snd w) 0 0) ws)
      with (past ++ [Diag line false m 0 0] ++ map (fun w : Z * Z => Diag line false (snd w) 0 0) ws).
    rewrite app_assoc. apply IHws; auto.
    + intros L. rewrite ins_line_filter by apply Hw. rewrite map_app, Hr, filter_app. f_equal.
      cbn [filter d_line n_line]. destruct (line =? L); auto.
    + rewrite ins_length, app_length. simpl. lia.
Qed.

Lemma err_kind_ok : forall c, parse_class c = false -> err_kind c = KError.
Proof.
  intros c H. unfold parse_class in H. unfold err_kind, E_GENERAL, E_PARSE.
  destruct (negb (c =? 65535) && (Z.land c 32832 =? 32832)); congruence.
Qed.

Lemma raised_report : forall ops h s pe px q past, Rel h s pe px q past ->
  Forall wclass_ok ops -> no_parse ops = true ->
  exists s' w, run_from s ops = Some (s', w) /\
    (forall L, map as_diag (filter (fun e => n_line e =? L) (report s')) =
               filter (fun d => d_line d =? L) (past ++ raised h pe px q ops)) /\
    length (report s') = length (past ++ raised h pe px q ops) /\
    ecount s' = u32 (Z.of_nat (length (filter d_err (past ++ raised h pe px q ops)))) /\
    wcount s' = u32 (Z.of_nat (length (filter (fun d => negb (d_err d)) (past ++ raised h pe px q ops)))).
Proof.
  induction ops; intros h s pe px q past HR Hok Hnp; cbn [run_from].
  - destruct HR. cbn [raised]. rewrite app_nil_r. eauto 10.
  - inversion Hok as [|? ? Ha Hok']; subst.
    unfold no_parse in Hnp. cbn [forallb] in Hnp. apply andb_true_iff in Hnp. destruct Hnp as [Hap Hnp].
    assert (Hgo : forall s' w' pe' px' q' past', step s a = Some (s', w') ->
        Rel (a :: h) s' pe' px' q' past' ->
        past ++ raised h pe px q (a :: ops) = past' ++ raised (a :: h) pe' px' q' ops ->
        exists s'' w, match step s a with
          | Some (s0, w0) => match run_from s0 ops with Some (s1, w1) => Some (s1, w0 ++ w1) | None => None end
          | None => None end = Some (s'', w) /\
        (forall L, map as_diag (filter (fun e => n_line e =? L) (report s'')) =
               filter (fun d => d_line d =? L) (past ++ raised h pe px q (a :: ops))) /\
        length (report s'') = length (past ++ raised h pe px q (a :: ops)) /\
        ecount s'' = u32 (Z.of_nat (length (filter d_err (past ++ raised h pe px q (a :: ops))))) /\
        wcount s'' = u32 (Z.of_nat (length (filter (fun d => negb (d_err d)) (past ++ raised h pe px q (a :: ops)))))).
    { intros s' w' pe' px' q' past' E HR' Heq. rewrite E.
      destruct (IHops _ _ _ _ _ _ HR' Hok' Hnp) as [s'' [w [E' [H1 [H2 [H3 H4]]]]]].
      rewrite E'. eexists _, _. split; [reflexivity|]. rewrite Heq. auto. }
    destruct HR as [Rm Rpe Rpx Rq Rwf Rnp Rrep Rlen Rec Rwc].
    assert (HM : forall s' w', step s a = Some (s', w') -> rel (a :: h) s')
      by (intros; eapply step_mask; eauto).
    destruct a.
    + (* ESet *)
      cbn [step] in *. destruct pe as [[c0 m0]|].
      * destruct Rpe as [P1 [P2 [P3 P4]]].
        assert (HE : eclass s =? E_NONE = false) by (apply Z.eqb_neq; rewrite P1; auto).
        rewrite HE in *. eapply Hgo; [reflexivity| |reflexivity].
        constructor; auto; eapply HM; reflexivity.
      * rewrite Rpe in *. change (0 =? E_NONE) with true in *. cbv iota in *.
        eapply Hgo; [reflexivity| |reflexivity].
        constructor; auto; try (eapply HM; reflexivity).
        destruct (Z.eqb_spec c 0); cbn [eclass emsg]; auto.
        repeat split; auto. apply negb_true_iff in Hap. auto.
    + cbn [step] in *. destruct pe as [[c0 m0]|].
      * destruct Rpe as [P1 [P2 [P3 P4]]].
        assert (HE : eclass s =? E_NONE = false) by (apply Z.eqb_neq; rewrite P1; auto).
        rewrite HE in *. eapply Hgo; [reflexivity| |reflexivity].
        constructor; auto; eapply HM; reflexivity.
      * rewrite Rpe in *. change (0 =? E_NONE) with true in *. cbv iota in *.
        eapply Hgo; [reflexivity| |reflexivity].
        constructor; auto; eapply HM; reflexivity.
    + cbn [step] in *. eapply Hgo; [reflexivity| |reflexivity].
      constructor; auto; eapply HM; reflexivity.
    + cbn [step] in *. eapply Hgo; [reflexivity| |reflexivity].
      constructor; auto; eapply HM; reflexivity.
    + cbn [step] in *. simpl in Ha.
      eapply Hgo; [reflexivity| |reflexivity].
      rewrite bit_test in * by lia. rewrite <- (Rm c) by auto.
      pose proof (HM _ _ eq_refl) as HM'.
      destruct (Z.testbit (mask s) c) eqn:E; cbn [negb] in *.
      * constructor; auto. cbn [warns]. rewrite Rq. auto.
      * constructor; auto.
    + cbn [step] in *. destruct (warns s) as [|w0 ws] eqn:E.
      * eapply Hgo; [reflexivity| |reflexivity]. subst q. constructor; auto; eapply HM; reflexivity.
      * eapply Hgo; [reflexivity| |reflexivity]. subst q. constructor; auto; eapply HM; reflexivity.
    + cbn [step] in *. eapply Hgo; [reflexivity| |reflexivity].
      constructor; auto; eapply HM; reflexivity.
    + cbn [step] in *. eapply Hgo; [reflexivity| |reflexivity].
      constructor; auto; eapply HM; reflexivity.
    + cbn [step] in *. eapply Hgo; [reflexivity| |reflexivity].
      constructor; auto; eapply HM; reflexivity.
    + cbn [step] in *. eapply Hgo; [reflexivity| |reflexivity].
      constructor; auto; eapply HM; reflexivity.
    + (* Propagate *)
      destruct pe as [[c0 m0]|].
      * destruct Rpe as [P1 [P2 [P3 P4]]].
        assert (HE : eclass s =? E_NONE = false) by (apply Z.eqb_neq; rewrite P1; auto).
        destruct (data_new_np (report s) (prev s) line true
          (fun ln => Entry ln (err_kind (eclass s)) (emsg s) (exline s) (exmsg s)) Rwf Rnp) as [i [E [Hw' Hnp']]]; auto.
        { cbn [n_kind]. rewrite P1, err_kind_ok by auto. discriminate. }
        cbv beta in *.
        set (x := Entry line (err_kind (eclass s)) (emsg s) (exline s) (exmsg s)) in *.
        destruct (prop_warns_np (warns s) _ _ line (wcount s) (past ++ [Diag line true m0 (exline s) (exmsg s)]) Hw' Hnp')
          as [l' [pv' [wc' [E2 [W1 [W2 [W3 W4]]]]]]].
        { intros L. rewrite ins_line_filter by apply Rwf. rewrite map_app, Rrep, filter_app. f_equal.
          cbn [filter d_line]. subst x. cbn [n_line]. destruct (line =? L); auto. cbn [map as_diag n_line n_kind n_msg n_xline n_xmsg].
          rewrite P1, err_kind_ok, P2 by auto. auto. }
        { rewrite ins_length, app_length. simpl. lia. }
        assert (ES : step s (Propagate line) = Some (St E_NONE 0 0 0 [] (mask s) l' pv' (u32 (ecount s + 1)) wc', warns s)).
        { cbn [step]. unfold propagate. rewrite HE. subst x. rewrite E. rewrite E2. auto. }
        apply (Hgo _ _ None (0,0) [] ((past ++ [Diag line true m0 (exline s) (exmsg s)]) ++ map (fun w => Diag line false (snd w) 0 0) (warns s)) ES).
        -- constructor; [eapply HM; exact ES| | | |exact W1|exact W2|exact W3|exact W4| |]; try reflexivity;
             destruct (filter_warns line (warns s)) as [F1 F2]; cbn [ecount wcount];
             rewrite !filter_app, !app_length.
           ++ rewrite F1, Rec, u32_add1. f_equal. simpl. lia.
           ++ rewrite F2. rewrite (prop_warns_count _ _ _ _ _ _ _ _ E2 _ Rwc). f_equal. simpl. lia.
        -- rewrite Rpx, Rq. cbn [fst snd raised]. rewrite <- !app_assoc. reflexivity.
      * assert (HE : eclass s =? E_NONE = true) by (rewrite Rpe; auto).
        destruct (prop_warns_np (warns s) _ _ line (wcount s) past Rwf Rnp Rrep Rlen)
          as [l' [pv' [wc' [E2 [W1 [W2 [W3 W4]]]]]]].
        assert (ES : step s (Propagate line) =
          Some (St (eclass s) (emsg s) (exline s) (exmsg s) [] (mask s) l' pv' (ecount s) wc', warns s)).
        { cbn [step]. unfold propagate. rewrite HE. rewrite E2. auto. }
        apply (Hgo _ _ None px [] (past ++ map (fun w => Diag line false (snd w) 0 0) (warns s)) ES).
        -- constructor; [eapply HM; exact ES|exact Rpe|exact Rpx|reflexivity|exact W1|exact W2|exact W3|exact W4| |];
             destruct (filter_warns line (warns s)) as [F1 F2]; cbn [ecount wcount];
             rewrite !filter_app, !app_length.
           ++ rewrite F1, Rec. f_equal. simpl. lia.
           ++ rewrite F2. rewrite (prop_warns_count _ _ _ _ _ _ _ _ E2 _ Rwc). f_equal. lia.
        -- rewrite Rq. cbn [fst snd raised app]. rewrite <- !app_assoc. reflexivity.
Qed.

Theorem report_complete : forall ops, Forall wclass_ok ops -> no_parse ops = true ->
  exists s w, run ops = Some (s, w) /\
    (forall L, map as_diag (filter (fun e => n_line e =? L) (report s)) =
               filter (fun d => d_line d =? L) (all_raised ops)) /\
    length (report s) = length (all_raised ops) /\
    ecount s = u32 (Z.of_nat (length (filter d_err (all_raised ops)))) /\
    wcount s = u32 (Z.of_nat (length (filter (fun d => negb (d_err d)) (all_raised ops)))).
Proof.
  intros ops Hok Hnp.
  assert (Rel [] init None (0, 0) [] []).
  { constructor; auto; [apply init_rel|apply init_wf|intros e []]. }
  destruct (raised_report ops [] init None (0,0) [] [] H Hok Hnp) as [s [w [E [A [B C]]]]].
  exists s, w. auto.
Qed.
