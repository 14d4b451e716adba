(** Specification and proofs for libyasm/symrec.c: C21, C22, C23. *)
From Coq Require Import ZArith List Lia Bool Permutation.
From Verif Require Import Lib M_Hamt P_Hamt M_Symrec.
From Verif Require M_Errwarn P_Errwarn.
Import ListNotations.
Open Scope Z_scope.

(** * Specification, in terms of the history of calls *)

(** What a table lookup by (case-adjusted) name sees. *)
Definition lookup (s : st) (k : str) : option symrec :=
  match search false (tab s) k with Some p => load s p | None => None end.

(** The calls of a history that concern name [k], with the case mode in force. *)
Definition str_eqb (a b : str) : bool := if list_eq_dec Z.eq_dec a b then true else false.
Definition op_key (cs : bool) (o : op) : option str :=
  match o with
  | OUse n _ | OEqu n _ _ | OLabel n _ true _ | OSpecial n _ | ODeclare n _ _ => Some (fix_case cs n)
  | OAbs => Some []
  | _ => None
  end.
Definition concerns (cs : bool) (k : str) (o : op) : bool :=
  match op_key cs o with Some k' => str_eqb k' k | None => false end.
Definition case_after (cs : bool) (o : op) : bool := match o with OCase b => b | _ => cs end.
Fixpoint about (cs : bool) (k : str) (ops : list op) : list op :=
  match ops with
  | [] => []
  | o :: t => if concerns cs k o then o :: about (case_after cs o) k t else about (case_after cs o) k t
  end.
(** The definition a call attempts: type and line. *)
Definition def_of (o : op) : option (sym_type * Z) :=
  match o with
  | OEqu _ _ l => Some (TEqu, l)
  | OLabel _ _ _ l => Some (TLabel, l)
  | OSpecial _ _ => Some (TSpecial, 0)
  | OAbs => Some (TEqu, 0)
  | _ => None
  end.
Fixpoint first_some {A B} (f : A -> option B) (l : list A) : option B :=
  match l with [] => None | x :: t => match f x with Some y => Some y | None => first_some f t end end.
Definition first_def (ops : list op) : option (sym_type * Z) := first_some def_of ops.
Definition is_use (o : op) : bool := match o with OUse _ _ => true | OAbs => true | _ => false end.
Definition use_line (o : op) : option Z :=
  match o with OUse _ l => if l =? 0 then None else Some l | _ => None end.
Definition first_use (ops : list op) : Z :=
  match first_some use_line ops with Some l => l | None => 0 end.
Definition decl_ce (o : op) : bool :=
  match o with ODeclare _ v _ => negb (Z.land v 6 =? 0) | _ => false end.
(** The names of a history in order of first appearance. *)
Fixpoint keys (cs : bool) (seen : list str) (ops : list op) : list str :=
  match ops with
  | [] => seen
  | o :: t =>
      keys (case_after cs o)
        (match op_key cs o with
         | Some k => if existsb (str_eqb k) seen then seen else seen ++ [k]
         | None => seen
         end) t
  end.
(** Used, but neither defined nor declared common/extern. *)
Definition undefined (k : str) (ops : list op) : bool :=
  let a := about true k ops in
  existsb is_use a && (match first_def a with None => true | Some _ => false end) && negb (existsb decl_ce a).
Definition is_finalize (o : op) : bool := match o with OFinalize _ => true | _ => false end.

(** The kind (common = 2 / extern = 4) a name has been bound to: the first such declaration made
    while the name was not defined.  [d] tells whether it is defined already. *)
Fixpoint bound (d : bool) (ops : list op) : option Z :=
  match ops with
  | [] => None
  | o :: t =>
      match o with
      | ODeclare _ v _ => if negb d && ((v =? COMMON) || (v =? EXTERN)) then Some v else bound d t
      | _ => bound (d || match def_of o with Some _ => true | None => false end) t
      end
  end.

Ltac conj := repeat match goal with |- _ /\ _ => split end.

(** * Association lists *)
Lemma str_eqb_spec : forall a b, str_eqb a b = true <-> a = b.
Proof. intros. unfold str_eqb. destruct (list_eq_dec Z.eq_dec a b); split; intros; auto; discriminate. Qed.
Lemma str_eqb_refl : forall a, str_eqb a a = true.
Proof. intros. apply str_eqb_spec. reflexivity. Qed.

Fixpoint assoc (E : list (str * Z)) (k : str) : option Z :=
  match E with [] => None | (n, p) :: t => if str_eqb n k then Some p else assoc t k end.

Lemma spec_find_assoc : forall E k, spec_find false E k (assoc E k).
Proof.
  induction E as [|[n p] E IH]; intros k; simpl; [constructor|].
  destruct (str_eqb n k) eqn:Q.
  - apply str_eqb_spec in Q. subst. apply sf_hit. reflexivity.
  - apply sf_miss; auto. simpl. intros X. subst. rewrite str_eqb_refl in Q. discriminate.
Qed.

Lemma search_assoc : forall h k, P_Hamt.Inv false h -> search false h k = assoc (entries h) k.
Proof.
  intros h k I. eapply spec_find_fun; [apply search_correct; auto|]. apply spec_find_assoc.
Qed.

Lemma assoc_app : forall E k n p, assoc (E ++ [(n, p)]) k =
  match assoc E k with Some q => Some q | None => if str_eqb n k then Some p else None end.
Proof.
  induction E as [|[m q] E IH]; intros; simpl; auto. destruct (str_eqb m k); auto.
Qed.

Lemma insert_assoc : forall fuel h k p h' x, P_Hamt.Inv false h ->
  insert fuel false h k p false = Some (h', x) ->
  P_Hamt.Inv false h' /\
  match assoc (entries h) k with
  | Some q => entries h' = entries h /\ x = IRes q false [p]
  | None => entries h' = entries h ++ [(k, p)] /\ x = IRes p true []
  end.
Proof.
  intros fuel h k p h' x I H. destruct (insert_ok _ _ _ _ _ _ _ _ I H) as [I' S]. split; auto.
  remember (entries h) as E. remember (entries h') as E'. remember false as r in S at 2.
  clear - S Heqr. induction S as [s0 d r|n old m s0 d SM|n old m s0 d SM|n old m s0 d r m' x SM SI IH];
    simpl in *; subst; try discriminate; auto.
  - rewrite str_eqb_refl. auto.
  - destruct (str_eqb n s0) eqn:Q; [apply str_eqb_spec in Q; contradiction|].
    destruct (assoc m s0); destruct (IH eq_refl) as [-> ->]; auto.
Qed.

Lemma assoc_nth : forall E k p, assoc E k = Some p -> exists e, nth_error E e = Some (k, p).
Proof.
  induction E as [|[n q] E IH]; intros k p H; simpl in H; [discriminate|].
  destruct (str_eqb n k) eqn:Q.
  - apply str_eqb_spec in Q. injection H as <-. subst. exists 0%nat. reflexivity.
  - destruct (IH _ _ H) as [e He]. exists (S e). auto.
Qed.

(** * The table invariant *)
Record Inv (s : st) : Prop := {
  I_h : P_Hamt.Inv false (tab s);
  I_e : forall n p, In (n, p) (entries (tab s)) -> exists r, load s p = Some r /\ s_name r = n;
  I_d : NoDup (map snd (entries (tab s)));
  I_n : NoDup (map fst (entries (tab s)));
  I_w : P_Errwarn.wf (M_Errwarn.report (err s)) (M_Errwarn.prev (err s))
}.

Definition names (s : st) : list str := map fst (entries (tab s)).

Lemma Inv_init : Inv init.
Proof.
  constructor; simpl.
  - apply Inv_create.
  - intros n p [].
  - constructor.
  - constructor.
  - apply P_Errwarn.init_wf.
Qed.

Lemma lookup_assoc : forall s k, Inv s ->
  lookup s k = match assoc (entries (tab s)) k with Some p => load s p | None => None end.
Proof. intros s k I. unfold lookup. rewrite search_assoc by apply I. reflexivity. Qed.

Lemma assoc_in : forall E k p, assoc E k = Some p -> In (k, p) E.
Proof. intros E k p H. apply assoc_nth in H. destruct H. eapply nth_error_In; eauto. Qed.

Lemma in_assoc : forall E k p, NoDup (map fst E) -> In (k, p) E -> assoc E k = Some p.
Proof.
  induction E as [|[n q] E IH]; intros k p ND H; simpl in *; [contradiction|].
  inversion ND; subst. destruct H as [H|H].
  - injection H as -> ->. rewrite str_eqb_refl. reflexivity.
  - destruct (str_eqb n k) eqn:Q; [|auto]. apply str_eqb_spec in Q. subst.
    exfalso. apply H2. apply in_map_iff. exists (k, p). auto.
Qed.

Lemma assoc_none : forall E k, assoc E k = None <-> ~ In k (map fst E).
Proof.
  induction E as [|[n q] E IH]; intros k; simpl; [tauto|].
  destruct (str_eqb n k) eqn:Q.
  - apply str_eqb_spec in Q. subst. split; [discriminate|]. intros X. exfalso. auto.
  - rewrite IH. split; intros X.
    + intros [Y|Y]; [subst; rewrite str_eqb_refl in Q; discriminate|auto].
    + auto.
Qed.

Lemma load_lt : forall s p r, load s p = Some r -> 0 <= p < Z.of_nat (length (heap s)).
Proof.
  unfold load. intros s p r H. destruct (Z.ltb_spec p 0); [discriminate|].
  destruct (nth_error (heap s) (Z.to_nat p)) eqn:Q; [|discriminate]. apply nth_error_Some_lt in Q. lia.
Qed.

Lemma upd_app_last : forall {A} (l : list A) a x, upd (l ++ [a]) (length l) x = l ++ [x].
Proof. induction l; simpl; intros; auto. rewrite IHl. reflexivity. Qed.

Lemma load_app : forall s s' x p r, heap s' = heap s ++ [x] -> load s p = Some r -> load s' p = Some r.
Proof.
  intros s s' x p r E H. pose proof (load_lt _ _ _ H) as R. unfold load in *.
  destruct (p <? 0); [discriminate|]. rewrite E, nth_error_app1 by lia. exact H.
Qed.

Lemma load_new : forall s s' r, heap s' = heap s ++ [Some r] -> load s' (Z.of_nat (length (heap s))) = Some r.
Proof.
  intros s s' r E. unfold load. destruct (Z.ltb_spec (Z.of_nat (length (heap s))) 0); [lia|].
  rewrite Nat2Z.id, E, nth_error_app2, Nat.sub_diag by lia. reflexivity.
Qed.

(** Record a name gets when first seen. *)
Definition fresh (k : str) : symrec := Sym k TUnknown 0 0 0 0 0 VNone.
Definition dflt (k : str) (o : option symrec) : symrec := match o with Some r => r | None => fresh k end.

Lemma get_or_new_ok : forall fuel s n s1 p, Inv s -> get_or_new_in_table fuel s n = Some (s1, p) ->
  let k := fix_case (case_sens s) n in
  Inv s1 /\ err s1 = err s /\ case_sens s1 = case_sens s /\
  assoc (entries (tab s1)) k = Some p /\ load s1 p = Some (dflt k (lookup s k)) /\
  (forall k', k' <> k -> lookup s1 k' = lookup s k') /\
  lookup s1 k = Some (dflt k (lookup s k)) /\
  names s1 = if existsb (str_eqb k) (names s) then names s else names s ++ [k].
Proof.
  intros fuel s n s1 p I H k. unfold get_or_new_in_table in H. cbn [s_name new_rec] in H. fold k in H.
  destruct (insert fuel false (tab s) k (Z.of_nat (length (heap s))) false) as [[t res]|] eqn:IN; [|discriminate].
  injection H as <- <-.
  destruct (insert_assoc _ _ _ _ _ _ (I_h _ I) IN) as [I' C].
  destruct (assoc (entries (tab s)) k) as [q|] eqn:A; destruct C as [E ->]; cbn [r_deleted r_data fold_left].
  - (* present: the new record is freed *)
    assert (FR : free (heap s ++ [Some (new_rec (case_sens s) n 0)]) (Z.of_nat (length (heap s))) = heap s ++ [None])
      by (unfold free; rewrite Nat2Z.id; apply upd_app_last).
    rewrite FR.
    set (s1 := St (heap s ++ [None]) t (case_sens s) (err s)).
    assert (L : forall p' r, load s p' = Some r -> load s1 p' = Some r)
      by (intros p' r0 Q; apply (load_app s s1 None); auto).
    assert (J : Inv s1).
    { constructor; cbn [tab s1 err]; try rewrite E; try apply I; auto.
      intros n0 p0 Hin. destruct (I_e _ I _ _ Hin) as [r [L1 L2]]. eauto. }
    destruct (I_e _ I _ _ (assoc_in _ _ _ A)) as [r [Lr Nr]].
    assert (LK : forall k', lookup s1 k' = lookup s k').
    { intros k'. rewrite !lookup_assoc by auto. cbn [tab s1]. rewrite E.
      destruct (assoc (entries (tab s)) k') as [p'|] eqn:A'; auto.
      destruct (I_e _ I _ _ (assoc_in _ _ _ A')) as [r' [Lr' _]]. rewrite Lr'. auto. }
    assert (LS : lookup s k = Some r) by (rewrite lookup_assoc, A by auto; exact Lr).
    conj; auto.
    + cbn [tab s1]. rewrite E. exact A.
    + rewrite LS. simpl. auto.
    + rewrite LK, LS. reflexivity.
    + unfold names. cbn [tab s1]. rewrite E.
      replace (existsb (str_eqb k) (map fst (entries (tab s)))) with true; auto.
      symmetry. apply existsb_exists. exists k. split; [|apply str_eqb_refl].
      apply in_map_iff. exists (k, q). split; auto. apply assoc_in; auto.
  - (* absent: appended *)
    set (r0 := new_rec (case_sens s) n 0). set (s1 := St (heap s ++ [Some r0]) t (case_sens s) (err s)).
    assert (L : forall p' r, load s p' = Some r -> load s1 p' = Some r)
      by (intros p' r1 Q; apply (load_app s s1 (Some r0)); auto).
    assert (L0 : load s1 (Z.of_nat (length (heap s))) = Some r0) by (apply load_new; reflexivity).
    assert (R0 : r0 = fresh k) by reflexivity.
    assert (J : Inv s1).
    { constructor; cbn [tab s1 err]; try rewrite E; try apply I; auto.
      - intros n0 p0 Hin. apply in_app_or in Hin. destruct Hin as [Hin|[Hin|[]]].
        + destruct (I_e _ I _ _ Hin) as [r [L1 L2]]. eauto.
        + injection Hin as <- <-. exists r0. split; auto.
      - rewrite map_app. simpl. apply (Permutation_NoDup (l := Z.of_nat (length (heap s)) :: map snd (entries (tab s)))).
        + apply Permutation_cons_append.
        + constructor; [|apply I]. intros X. apply in_map_iff in X. destruct X as [[n0 p0] [Q X]]. simpl in Q. subst p0.
          destruct (I_e _ I _ _ X) as [r [L1 _]]. apply load_lt in L1. lia.
      - rewrite map_app. simpl. apply (Permutation_NoDup (l := k :: map fst (entries (tab s)))).
        + apply Permutation_cons_append.
        + constructor; [|apply I]. apply assoc_none. exact A. }
    assert (LS : lookup s k = None) by (rewrite lookup_assoc, A by auto; reflexivity).
    assert (AK : assoc (entries (tab s1)) k = Some (Z.of_nat (length (heap s)))).
    { cbn [tab s1]. rewrite E, assoc_app, A, str_eqb_refl. reflexivity. }
    conj; auto.
    + rewrite LS. simpl. rewrite <- R0. exact L0.
    + intros k' Hk. rewrite !lookup_assoc by auto. cbn [tab s1]. rewrite E, assoc_app.
      destruct (assoc (entries (tab s)) k') as [p'|] eqn:A'.
      * destruct (I_e _ I _ _ (assoc_in _ _ _ A')) as [r' [Lr' _]]. rewrite Lr'. auto.
      * destruct (str_eqb k k') eqn:Q; auto. apply str_eqb_spec in Q. congruence.
    + rewrite lookup_assoc, AK, LS by auto. simpl. rewrite <- R0. exact L0.
    + unfold names. cbn [tab s1]. rewrite E, map_app. simpl.
      replace (existsb (str_eqb k) (map fst (entries (tab s)))) with false; auto.
      symmetry. destruct (existsb (str_eqb k) (map fst (entries (tab s)))) eqn:X; auto.
      apply existsb_exists in X. destruct X as [y [Y1 Y2]]. apply str_eqb_spec in Y2. subst.
      apply assoc_none in A. contradiction.
Qed.

Lemma upd_nth : forall {A} (l : list A) i j x, nth_error (upd l i x) j =
  if Nat.eqb i j then match nth_error l j with Some _ => Some x | None => None end else nth_error l j.
Proof.
  induction l as [|a l IH]; intros i j x.
  - destruct i, j; simpl; auto. destruct (Nat.eqb i j); auto.
  - destruct i, j; simpl; auto.
Qed.

Lemma load_store : forall s p r q r0, load s p = Some r0 ->
  load (store s p r) q = if q =? p then Some r else load s q.
Proof.
  intros s p r q r0 H. pose proof (load_lt _ _ _ H) as R. unfold load, store in *. cbn [heap].
  destruct (Z.ltb_spec p 0); [lia|].
  destruct (Z.ltb_spec q 0).
  - destruct (Z.eqb_spec q p); [lia|auto].
  - rewrite upd_nth. destruct (Z.eqb_spec q p).
    + subst. rewrite Nat.eqb_refl. destruct (nth_error (heap s) (Z.to_nat p)); [auto|discriminate].
    + destruct (Nat.eqb_spec (Z.to_nat p) (Z.to_nat q)); [lia|auto].
Qed.

Lemma store_ok : forall s k p r r', Inv s -> assoc (entries (tab s)) k = Some p -> load s p = Some r ->
  s_name r' = s_name r ->
  Inv (store s p r') /\ lookup (store s p r') k = Some r' /\
  (forall k', k' <> k -> lookup (store s p r') k' = lookup s k').
Proof.
  intros s k p r r' I A L N.
  assert (J : Inv (store s p r')).
  { constructor; try apply I. intros n q Hin. cbn [tab store] in Hin.
    rewrite (load_store s p r' q r L). destruct (Z.eqb_spec q p).
    - subst. exists r'. split; auto. destruct (I_e _ I _ _ Hin) as [r2 [L2 N2]]. congruence.
    - apply I; auto. }
  split; auto. split.
  - rewrite lookup_assoc by auto. cbn [tab store]. rewrite A, (load_store s p r' p r L), Z.eqb_refl. reflexivity.
  - intros k' Hk. rewrite !lookup_assoc by auto. cbn [tab store].
    destruct (assoc (entries (tab s)) k') as [q|] eqn:A'; auto.
    rewrite (load_store s p r' q r L). destruct (Z.eqb_spec q p); auto. subst. exfalso. apply Hk.
    apply assoc_nth in A. destruct A as [e1 H1]. apply assoc_nth in A'. destruct A' as [e2 H2].
    pose proof (I_d _ I) as ND. rewrite NoDup_nth_error in ND.
    assert (e1 = e2).
    { apply ND.
      - rewrite map_length. eapply nth_error_Some_lt; eauto.
      - rewrite !nth_error_map, H1, H2. reflexivity. }
    subst. rewrite H1 in H2. injection H2 as ->. reflexivity.
Qed.

(** Calls into errwarn.c *)
Lemma ecall_ok : forall s o s', Inv s -> ecall s o = Some s' ->
  Inv s' /\ heap s' = heap s /\ tab s' = tab s /\ case_sens s' = case_sens s /\
  exists w, M_Errwarn.step (err s) o = Some (err s', w).
Proof.
  intros s o s' I H. unfold ecall in H.
  destruct (P_Errwarn.step_wf (err s) o (I_w _ I)) as [e [w [E W]]]. rewrite E in H.
  injection H as <-. split; [|eauto 10].
  destruct I. constructor; auto.
Qed.
Lemma ecall_some : forall s o, Inv s -> exists s', ecall s o = Some s'.
Proof.
  intros s o I. unfold ecall. destruct (P_Errwarn.step_wf (err s) o (I_w _ I)) as [e [w [E W]]].
  rewrite E. eauto.
Qed.
Lemma lookup_frame : forall s s', heap s' = heap s -> tab s' = tab s -> forall k, lookup s' k = lookup s k.
Proof. intros s s' H T k. unfold lookup, load. rewrite H, T. reflexivity. Qed.

(** * Effect of each call on what lookups see *)
Definition add_key (k : str) (l : list str) : list str := if existsb (str_eqb k) l then l else l ++ [k].

Definition defined_as (r : symrec) (ty : sym_type) (line : Z) : symrec :=
  Sym (s_name r) ty (Z.lor (s_status r) DEFINED) (s_vis r) line (s_decl r) (s_use r) (s_val r).

(** State [s'] differs from [s] at most in the record of [k], which is now [r]. *)
Definition only (s s' : st) (k : str) (r : symrec) : Prop :=
  Inv s' /\ case_sens s' = case_sens s /\ names s' = add_key k (names s) /\
  lookup s' k = Some r /\ (forall k', k' <> k -> lookup s' k' = lookup s k').

Lemma modify_ok : forall s k p r f s', Inv s -> assoc (entries (tab s)) k = Some p -> load s p = Some r ->
  (forall x, s_name (f x) = s_name x) -> modify s p f = Some s' ->
  Inv s' /\ lookup s' k = Some (f r) /\ (forall k', k' <> k -> lookup s' k' = lookup s k') /\
  case_sens s' = case_sens s /\ names s' = names s /\ err s' = err s /\ assoc (entries (tab s')) k = Some p.
Proof.
  intros s k p r f s' I A L N M. unfold modify in M. rewrite L in M. injection M as <-.
  destruct (store_ok s k p r (f r) I A L (N r)) as [J [K O]]. conj; auto.
Qed.

Lemma err_step_eset : forall e c m e' w, M_Errwarn.step e (M_Errwarn.ESet c m) = Some (e', w) ->
  c <> 0 -> M_Errwarn.eclass e' <> 0.
Proof.
  intros e c m e' w H C. cbn [M_Errwarn.step] in H. injection H as <- _.
  unfold M_Errwarn.E_NONE. destruct (Z.eqb_spec (M_Errwarn.eclass e) 0); simpl; auto.
Qed.
Lemma err_step_wset : forall e c m e' w, M_Errwarn.step e (M_Errwarn.WSet c m) = Some (e', w) ->
  M_Errwarn.eclass e' = M_Errwarn.eclass e.
Proof.
  intros e c m e' w H. cbn [M_Errwarn.step] in H. injection H as <- _.
  destruct (Z.land _ _ =? 0); reflexivity.
Qed.

Lemma define_in : forall fuel s n ty line s' p, Inv s -> define fuel s n ty true line = Some (s', p) ->
  let k := fix_case (case_sens s) n in
  let r := dflt k (lookup s k) in
  assoc (entries (tab s')) k = Some p /\ load s' p = lookup s' k /\
  if has (s_status r) DEFINED then
    only s s' k r /\ error_occurred s' = true /\
    exists e1 w1 w2,
      M_Errwarn.step (err s) (M_Errwarn.EXref (if negb (s_def r =? 0) then s_def r else s_decl r) (text M_XREF n)) = Some (e1, w1) /\
      M_Errwarn.step e1 (M_Errwarn.ESet M_Errwarn.E_GENERAL (text M_REDEF n)) = Some (err s', w2)
  else
    only s s' k (defined_as r ty line) /\ error_occurred s' = error_occurred s /\
    if has (s_vis r) EXTERN
    then exists w, M_Errwarn.step (err s) (M_Errwarn.WSet W_GENERAL (text M_BOTH n)) = Some (err s', w)
    else err s' = err s.
Proof.
  intros fuel s n ty line s' p I H k r. unfold define, get_or_new in H.
  destruct (get_or_new_in_table fuel s n) as [[s1 q]|] eqn:G; [|discriminate].
  destruct (get_or_new_ok _ _ _ _ _ I G) as (I1 & E1 & C1 & A1 & L1 & O1 & K1 & N1). fold k in E1, C1, A1, L1, O1, K1, N1. fold r in L1, K1.
  rewrite L1 in H. destruct (has (s_status r) DEFINED) eqn:D.
  - destruct (ecall s1 _) as [s2|] eqn:X1 in H; [|discriminate].
    destruct (ecall s2 _) as [s3|] eqn:X2 in H; [|discriminate]. injection H as <- <-.
    destruct (ecall_ok _ _ _ I1 X1) as (I2 & H2 & T2 & C2 & w1 & S1).
    destruct (ecall_ok _ _ _ I2 X2) as (I3 & H3 & T3 & C3 & w2 & S2).
    assert (HH : heap s3 = heap s1) by congruence. assert (TT : tab s3 = tab s1) by congruence.
    pose proof (lookup_frame s1 s3 HH TT) as LF.
    conj.
    + rewrite TT. exact A1.
    + rewrite LF, K1. unfold load. rewrite HH. exact L1.
    + split; [exact I3|]. split; [congruence|]. split; [unfold names in *; rewrite TT; exact N1|].
      split; [rewrite LF; exact K1|]. intros k' Hk. rewrite LF. auto.
    + unfold error_occurred. apply negb_true_iff, Z.eqb_neq.
      apply (err_step_eset _ _ _ _ _ S2). discriminate.
    + exists (err s2), w1, w2. rewrite <- E1. split; auto.
  - assert (Y : exists s2, (if has (s_vis r) EXTERN then ecall s1 (M_Errwarn.WSet W_GENERAL (text M_BOTH n)) else Some s1) = Some s2 /\
        Inv s2 /\ heap s2 = heap s1 /\ tab s2 = tab s1 /\ case_sens s2 = case_sens s1 /\
        error_occurred s2 = error_occurred s1 /\
        if has (s_vis r) EXTERN then exists w, M_Errwarn.step (err s1) (M_Errwarn.WSet W_GENERAL (text M_BOTH n)) = Some (err s2, w)
        else err s2 = err s1).
    { destruct (has (s_vis r) EXTERN).
      - destruct (ecall_some s1 (M_Errwarn.WSet W_GENERAL (text M_BOTH n)) I1) as [s2 Q]. exists s2.
        destruct (ecall_ok _ _ _ I1 Q) as (I2 & H2 & T2 & C2 & w1 & S1). conj; eauto.
        unfold error_occurred. rewrite (err_step_wset _ _ _ _ _ S1). reflexivity.
      - exists s1. conj; auto. }
    destruct Y as (s2 & Q & I2 & H2 & T2 & C2 & EO & ER). rewrite Q in H. injection H as <- <-.
    assert (A2 : assoc (entries (tab s2)) k = Some q) by (rewrite T2; exact A1).
    assert (L2 : load s2 q = Some r) by (unfold load in *; rewrite H2; exact L1).
    pose proof (lookup_frame s1 s2 H2 T2) as LF.
    destruct (store_ok s2 k q r (defined_as r ty line) I2 A2 L2 eq_refl) as (J & K & O).
    fold (defined_as r ty line). conj.
    + exact A2.
    + rewrite K. rewrite (load_store _ _ _ _ _ L2), Z.eqb_refl. reflexivity.
    + split; [exact J|]. split; [cbn [store case_sens]; congruence|].
      split; [unfold names in *; cbn [store tab]; rewrite T2; exact N1|].
      split; [exact K|]. intros k' Hk. rewrite O, LF by auto. auto.
    + unfold error_occurred in *. cbn [store err]. rewrite <- E1. exact EO.
    + cbn [store err]. rewrite <- E1. exact ER.
Qed.

Definition table_same (s s' : st) : Prop :=
  Inv s' /\ case_sens s' = case_sens s /\ names s' = names s /\ (forall k, lookup s' k = lookup s k).

Lemma store_out : forall s p r r', Inv s -> ~ In p (map snd (entries (tab s))) -> load s p = Some r ->
  table_same s (store s p r').
Proof.
  intros s p r r' I NI L.
  assert (Q : forall q, In q (map snd (entries (tab s))) -> load (store s p r') q = load s q).
  { intros q Hq. rewrite (load_store s p r' q r L). destruct (Z.eqb_spec q p); auto. subst. contradiction. }
  assert (J : Inv (store s p r')).
  { constructor; try apply I. intros n q Hin. cbn [tab store] in Hin. rewrite Q; [apply I; auto|].
    apply in_map_iff. exists (n, q). auto. }
  split; auto. split; [reflexivity|]. split; [reflexivity|].
  intros k. rewrite !lookup_assoc by auto. cbn [tab store].
  destruct (assoc (entries (tab s)) k) as [q|] eqn:A; auto. apply Q.
  apply in_map_iff. exists (k, q). split; auto. apply assoc_in; auto.
Qed.

Lemma define_then_out : forall fuel s n ty line f s' p, Inv s ->
  define_then fuel s n ty false line f = Some (s', p) -> table_same s s' /\ err s' = err s.
Proof.
  intros fuel s n ty line f s' p I H.
  assert (SZ : Z.of_nat (length (heap s)) <? 0 = false) by (apply Z.ltb_ge; lia).
  set (q := Z.of_nat (length (heap s))) in *. set (r0 := new_rec (case_sens s) n NOTINTABLE).
  set (s1 := St (heap s ++ [Some r0]) (tab s) (case_sens s) (err s)).
  assert (L1 : load s1 q = Some r0) by (apply load_new; reflexivity).
  assert (NI : ~ In q (map snd (entries (tab s)))).
  { intros X. apply in_map_iff in X. destruct X as [[n0 p0] [Q X]]. simpl in Q. subst p0.
    destruct (I_e _ I _ _ X) as [r [Lr _]]. apply load_lt in Lr. unfold q in Lr. lia. }
  assert (L : forall p' r, load s p' = Some r -> load s1 p' = Some r)
    by (intros p' r1 Q; apply (load_app s s1 (Some r0)); auto).
  assert (T1 : table_same s s1).
  { assert (J : Inv s1).
    { constructor; try apply I. intros n0 p0 Hin. cbn [tab s1] in Hin.
      destruct (I_e _ I _ _ Hin) as [r [Lr Nr]]. eauto. }
    split; auto. split; [reflexivity|]. split; [reflexivity|].
    intros k. rewrite !lookup_assoc by auto. cbn [tab s1].
    destruct (assoc (entries (tab s)) k) as [p0|] eqn:A; auto.
    destruct (I_e _ I _ _ (assoc_in _ _ _ A)) as [r [Lr _]]. rewrite Lr. auto. }
  assert (D : define fuel s n ty false line = Some (store s1 q (defined_as r0 ty line), q)).
  { unfold define, get_or_new, get_or_new_not_in_table. fold q r0 s1. rewrite L1. reflexivity. }
  set (s2 := store s1 q (defined_as r0 ty line)) in *.
  unfold define_then in H. rewrite D in H.
  assert (T2 : table_same s1 s2) by (apply (store_out s1 q r0); [apply T1|exact NI|exact L1]).
  assert (T12 : table_same s s2).
  { destruct T1 as (a1 & b1 & c1 & d1), T2 as (a2 & b2 & c2 & d2).
    split; auto. split; [congruence|]. split; [congruence|]. intros k. rewrite d2, d1. reflexivity. }
  destruct (error_occurred s2).
  - injection H as <- <-. auto.
  - unfold modify in H. destruct (load s2 q) as [r2|] eqn:L2; [|discriminate]. injection H as <- <-.
    split; auto. assert (T3 : table_same s2 (store s2 q (f r2))) by (apply (store_out s2 q r2); [apply T2|exact NI|exact L2]).
    destruct T12 as (a1 & b1 & c1 & d1), T3 as (a2 & b2 & c2 & d2).
    split; auto. split; [congruence|]. split; [congruence|]. intros k. rewrite d2, d1. reflexivity.
Qed.

(** Record of [k] after a call, from the record before; [pe]: an error was pending. *)
Definition define_eff (pe : bool) (r : symrec) (ty : sym_type) (line : Z) (f : symrec -> symrec) : symrec :=
  if has (s_status r) DEFINED then r
  else if pe then defined_as r ty line else f (defined_as r ty line).
Definition equ_upd (e : Z) (r : symrec) := set_status (set_val r (VExpr e)) (Z.lor (s_status r) VALUED).
Definition label_upd (b : option Z) (r : symrec) := set_val r (VBc b).
Definition special_upd (v : Z) (r : symrec) := set_vis (set_status r (Z.lor (s_status r) VALUED)) v.
Definition needs_extern (r : symrec) : bool :=
  has (s_status r) USED && negb (has (s_status r) DEFINED) && negb (has (s_vis r) (Z.lor EXTERN COMMON)).
Definition fin_upd (r : symrec) : symrec :=
  if needs_extern r then set_vis r (Z.lor (s_vis r) EXTERN) else r.
Definition eff (pe : bool) (o : op) (r : symrec) : symrec :=
  match o with
  | OUse _ l => Sym (s_name r) (s_type r) (Z.lor (s_status r) USED) (s_vis r)
                    (s_def r) (s_decl r) (if s_use r =? 0 then l else s_use r) (s_val r)
  | OEqu _ e l => define_eff pe r TEqu l (equ_upd e)
  | OLabel _ b _ l => define_eff pe r TLabel l (label_upd b)
  | OSpecial _ v => define_eff pe r TSpecial 0 (special_upd v)
  | ODeclare _ v l =>
      if may_declare r v
      then Sym (s_name r) (s_type r) (s_status r) (Z.lor (s_vis r) v) (s_def r) l (s_use r) (s_val r)
      else r
  | OAbs => Sym (s_name r) TEqu (Z.lor (s_status r) (Z.lor (Z.lor DEFINED VALUED) USED)) (s_vis r) 0 0 0 (VExpr 0)
  | _ => r
  end.
Definition ev_step (cs pe : bool) (k : str) (o : op) (old : option symrec) : option symrec :=
  if concerns cs k o then Some (eff pe o (dflt k old))
  else match o with OFinalize true => option_map fin_upd old | _ => old end.

Definition effect (s s' : st) (o : op) : Prop :=
  Inv s' /\ case_sens s' = case_after (case_sens s) o /\
  names s' = (match op_key (case_sens s) o with Some k => add_key k (names s) | None => names s end) /\
  (forall k, lookup s' k = ev_step (case_sens s) (error_occurred s) k o (lookup s k)).

Lemma only_effect : forall s s' o k, op_key (case_sens s) o = Some k ->
  case_after (case_sens s) o = case_sens s -> (forall u, o <> OFinalize u) ->
  only s s' k (eff (error_occurred s) o (dflt k (lookup s k))) -> effect s s' o.
Proof.
  intros s s' o k OK CA NF (I & C & N & L & O). split; auto. split; [congruence|].
  rewrite OK. split; auto. intros k'. unfold ev_step, concerns. rewrite OK.
  destruct (str_eqb k k') eqn:Q.
  - apply str_eqb_spec in Q. subst. exact L.
  - rewrite O. 2:{ intros ->. rewrite str_eqb_refl in Q. discriminate. }
    destruct o; auto. exfalso. eapply NF; eauto.
Qed.

Lemma define_then_in : forall fuel s n ty line f s' p, Inv s -> (forall x, s_name (f x) = s_name x) ->
  define_then fuel s n ty true line f = Some (s', p) ->
  let k := fix_case (case_sens s) n in
  let r := dflt k (lookup s k) in
  only s s' k (define_eff (error_occurred s) r ty line f) /\
  if has (s_status r) DEFINED then
    exists e1 w1 w2,
      M_Errwarn.step (err s) (M_Errwarn.EXref (if negb (s_def r =? 0) then s_def r else s_decl r) (text M_XREF n)) = Some (e1, w1) /\
      M_Errwarn.step e1 (M_Errwarn.ESet M_Errwarn.E_GENERAL (text M_REDEF n)) = Some (err s', w2)
  else
    if has (s_vis r) EXTERN
    then exists w, M_Errwarn.step (err s) (M_Errwarn.WSet W_GENERAL (text M_BOTH n)) = Some (err s', w)
    else err s' = err s.
Proof.
  intros fuel s n ty line f s' p I NF H k r. unfold define_then in H.
  destruct (define fuel s n ty true line) as [[s1 q]|] eqn:D; [|discriminate].
  destruct (define_in _ _ _ _ _ _ _ I D) as (A & LK & B). fold k in A, B, LK. fold r in B.
  unfold define_eff. destruct (has (s_status r) DEFINED).
  - destruct B as (O & EO & X). rewrite EO in H. injection H as <- <-. auto.
  - destruct B as (O & EO & X). rewrite EO in H. destruct (error_occurred s).
    + injection H as <- <-. auto.
    + destruct (modify s1 q f) as [s2|] eqn:M; [|discriminate]. injection H as <- <-.
      destruct O as (I1 & C1 & N1 & L1 & O1).
      assert (L : load s1 q = Some (defined_as r ty line)) by congruence.
      destruct (modify_ok _ k _ _ f _ I1 A L NF M) as (I2 & L2 & O2 & C2 & N2 & E2 & _).
      split.
      * split; auto. split; [congruence|]. split; [congruence|]. split; auto.
        intros k' Hk. rewrite O2, O1 by auto. reflexivity.
      * rewrite E2. exact X.
Qed.

(** ** Finalization *)
Definition fin_cb (u : bool) (p : Z) (x : option (st * Z)) :=
  (match x with Some (s', first) => checksym u p s' first | None => None end, 0).

Lemma fin_loop_cons : forall u n p E x,
  traverse_loop (fin_cb u) ((n, p) :: E) x = traverse_loop (fin_cb u) E (fst (fin_cb u p x)).
Proof. reflexivity. Qed.
Lemma fin_loop_none : forall u E, fst (traverse_loop (fin_cb u) E None) = None.
Proof. induction E as [|[n p] E IH]; auto. Qed.

Lemma fin_true : forall E s first, Inv s -> (forall e, In e E -> In e (entries (tab s))) -> NoDup (map fst E) ->
  exists s', fst (traverse_loop (fin_cb true) E (Some (s, first))) = Some (s', first) /\
    Inv s' /\ tab s' = tab s /\ err s' = err s /\ case_sens s' = case_sens s /\
    forall k, lookup s' k = if existsb (str_eqb k) (map fst E) then option_map fin_upd (lookup s k) else lookup s k.
Proof.
  induction E as [|[n p] E IH]; intros s first I SUB ND.
  - exists s. simpl. conj; auto.
  - rewrite fin_loop_cons. cbn [fin_cb fst]. unfold checksym.
    assert (IN : In (n, p) (entries (tab s))) by (apply SUB; left; auto).
    destruct (I_e _ I _ _ IN) as [r [L N]]. rewrite L. cbn [negb].
    pose proof (in_assoc _ _ _ (I_n _ I) IN) as A. inversion ND as [|x y ND1 ND2]; subst.
    assert (LN : lookup s (s_name r) = Some r) by (rewrite lookup_assoc, A by auto; exact L).
    change (has (s_status r) USED && negb (has (s_status r) DEFINED) && negb (has (s_vis r) (Z.lor EXTERN COMMON)))
      with (needs_extern r).
    assert (S2 : exists s2, (if needs_extern r then Some (store s p (set_vis r (Z.lor (s_vis r) EXTERN)), first) else Some (s, first)) = Some (s2, first) /\
       Inv s2 /\ tab s2 = tab s /\ err s2 = err s /\ case_sens s2 = case_sens s /\
       lookup s2 (s_name r) = Some (fin_upd r) /\ forall k, k <> s_name r -> lookup s2 k = lookup s k).
    { unfold fin_upd. destruct (needs_extern r).
      - destruct (store_ok s (s_name r) p r (set_vis r (Z.lor (s_vis r) EXTERN)) I A L eq_refl) as (J & K & O).
        eexists. split; [reflexivity|]. conj; auto.
      - exists s. conj; auto. }
    destruct S2 as (s2 & -> & I2 & T2 & E2 & C2 & K2 & O2).
    destruct (IH s2 first I2) as (s' & R & I' & T' & E' & C' & LK); auto.
    { intros e He. rewrite T2. apply SUB. right; auto. }
    exists s'. split; [exact R|]. conj; try congruence.
    intros k. rewrite LK. cbn [map existsb fst].
    destruct (str_eqb k (s_name r)) eqn:Q; cbn [orb].
    + apply str_eqb_spec in Q. subst k.
      destruct (existsb (str_eqb (s_name r)) (map fst E)) eqn:X.
      * exfalso. apply ND1. apply existsb_exists in X. destruct X as [y [Y1 Y2]]. apply str_eqb_spec in Y2. congruence.
      * rewrite K2, LN. reflexivity.
    + rewrite O2; auto. intros ->. rewrite str_eqb_refl in Q. discriminate.
Qed.

Definition undef_rec (s : st) (e : str * Z) : list (str * Z) :=
  match load s (snd e) with Some r => if needs_extern r then [(fst e, s_use r)] else [] | None => [] end.
Definition undef_calls (l : list (str * Z)) : list M_Errwarn.op :=
  flat_map (fun x => [M_Errwarn.ESet M_Errwarn.E_GENERAL (text M_UNDEF (fst x)); M_Errwarn.Propagate (snd x)]) l.
Definition first_line (first : Z) (l : list (str * Z)) : Z :=
  fold_left (fun a x => if snd x <? a then snd x else a) l first.

Lemma erun_app : forall a b e e1 w1, M_Errwarn.run_from e a = Some (e1, w1) ->
  forall e2 w2, M_Errwarn.run_from e1 b = Some (e2, w2) -> M_Errwarn.run_from e (a ++ b) = Some (e2, w1 ++ w2).
Proof.
  induction a as [|o a IH]; intros b e e1 w1 H e2 w2 H2; cbn [app M_Errwarn.run_from] in *.
  - injection H as <- <-. exact H2.
  - destruct (M_Errwarn.step e o) as [[e' w]|]; [|discriminate].
    destruct (M_Errwarn.run_from e' a) as [[e'' w']|] eqn:R; [|discriminate]. injection H as <- <-.
    rewrite (IH b _ _ _ R _ _ H2). rewrite app_assoc. reflexivity.
Qed.

Lemma fin_false : forall E s first, Inv s -> (forall e, In e E -> In e (entries (tab s))) ->
  exists s', fst (traverse_loop (fin_cb false) E (Some (s, first))) = Some (s', first_line first (flat_map (undef_rec s) E)) /\
    Inv s' /\ heap s' = heap s /\ tab s' = tab s /\ case_sens s' = case_sens s /\
    exists w, M_Errwarn.run_from (err s) (undef_calls (flat_map (undef_rec s) E)) = Some (err s', w).
Proof.
  induction E as [|[n p] E IH]; intros s first I SUB.
  - exists s. simpl. conj; eauto.
  - rewrite fin_loop_cons. cbn [fin_cb fst]. unfold checksym.
    assert (IN : In (n, p) (entries (tab s))) by (apply SUB; left; auto).
    destruct (I_e _ I _ _ IN) as [r [L N]]. rewrite L. cbn [flat_map]. unfold undef_rec at 1 3. cbn [snd fst]. rewrite L.
    change (has (s_status r) USED && negb (has (s_status r) DEFINED) && negb (has (s_vis r) (Z.lor EXTERN COMMON)))
      with (needs_extern r).
    destruct (needs_extern r).
    + destruct (ecall_some s (M_Errwarn.ESet M_Errwarn.E_GENERAL (text M_UNDEF (s_name r))) I) as [s1 Q1]. rewrite Q1.
      destruct (ecall_ok _ _ _ I Q1) as (I1 & H1 & T1 & C1 & w1 & S1).
      destruct (ecall_some s1 (M_Errwarn.Propagate (s_use r)) I1) as [s2 Q2]. rewrite Q2.
      destruct (ecall_ok _ _ _ I1 Q2) as (I2 & H2 & T2 & C2 & w2 & S2).
      destruct (IH s2 (if s_use r <? first then s_use r else first) I2) as (s' & R & I' & H' & T' & C' & w & RR).
      { intros e He. rewrite T2, T1. apply SUB. right; auto. }
      assert (UR : forall e, undef_rec s2 e = undef_rec s e).
      { intros e. unfold undef_rec, load. rewrite H2, H1. reflexivity. }
      rewrite (flat_map_ext _ _ UR) in R, RR.
      exists s'. split; [exact R|]. conj; try congruence.
      exists (w1 ++ w2 ++ w). cbn [app undef_calls flat_map fst snd]. cbn [M_Errwarn.run_from].
      rewrite <- N. rewrite S1, S2. unfold undef_calls in RR. rewrite RR. reflexivity.
    + apply IH; auto. intros e He. apply SUB. right; auto.
Qed.

(** The calls finalization makes, given the symbols found undefined. *)
Definition final_calls (l : list (str * Z)) : list M_Errwarn.op :=
  undef_calls l ++
  (if first_line ULONG_MAX l <? ULONG_MAX
   then [M_Errwarn.ESet M_Errwarn.E_GENERAL (text M_ONCE []); M_Errwarn.Propagate (first_line ULONG_MAX l)]
   else []).

Lemma finalize_false : forall s, Inv s -> exists s', finalize s false = Some s' /\
  Inv s' /\ heap s' = heap s /\ tab s' = tab s /\ case_sens s' = case_sens s /\
  exists w, M_Errwarn.run_from (err s) (final_calls (flat_map (undef_rec s) (entries (tab s)))) = Some (err s', w).
Proof.
  intros s I. destruct (fin_false (entries (tab s)) s ULONG_MAX I (fun e H => H)) as (s1 & R & I1 & H1 & T1 & C1 & w & RR).
  unfold finalize, traverse. change (fun p x => (match x with Some (s', first) => checksym false p s' first | None => None end, 0)) with (fin_cb false).
  rewrite R. unfold final_calls. set (l := flat_map (undef_rec s) (entries (tab s))) in *.
  destruct (first_line ULONG_MAX l <? ULONG_MAX).
  - destruct (ecall_some s1 (M_Errwarn.ESet M_Errwarn.E_GENERAL (text M_ONCE [])) I1) as [s2 Q1]. rewrite Q1.
    destruct (ecall_ok _ _ _ I1 Q1) as (I2 & H2 & T2 & C2 & w1 & S1).
    destruct (ecall_some s2 (M_Errwarn.Propagate (first_line ULONG_MAX l)) I2) as [s3 Q2]. rewrite Q2.
    destruct (ecall_ok _ _ _ I2 Q2) as (I3 & H3 & T3 & C3 & w2 & S2).
    exists s3. conj; try congruence.
    eexists. eapply erun_app; [exact RR|]. cbn [M_Errwarn.run_from]. rewrite S1, S2. reflexivity.
  - exists s1. conj; auto. exists w. rewrite app_nil_r. exact RR.
Qed.

Lemma finalize_true : forall s, Inv s -> exists s', finalize s true = Some s' /\
  Inv s' /\ tab s' = tab s /\ err s' = err s /\ case_sens s' = case_sens s /\
  forall k, lookup s' k = option_map fin_upd (lookup s k).
Proof.
  intros s I. destruct (fin_true (entries (tab s)) s ULONG_MAX I (fun e H => H) (I_n _ I)) as (s1 & R & I1 & T1 & E1 & C1 & LK).
  unfold finalize, traverse. change (fun p x => (match x with Some (s', first) => checksym true p s' first | None => None end, 0)) with (fin_cb true).
  rewrite R. cbn [Z.ltb]. rewrite Z.ltb_irrefl. exists s1. conj; auto.
  intros k. rewrite LK. destruct (existsb (str_eqb k) (map fst (entries (tab s)))) eqn:X; auto.
  rewrite lookup_assoc by auto. destruct (assoc (entries (tab s)) k) as [q|] eqn:A; auto.
  exfalso. apply assoc_in in A. assert (Y : existsb (str_eqb k) (map fst (entries (tab s))) = true); [|congruence].
  apply existsb_exists. exists k. split; [|apply str_eqb_refl]. apply in_map_iff. exists (k, q). auto.
Qed.

Lemma step_effect : forall fuel s o s' p, Inv s -> step fuel s o = Some (s', p) -> effect s s' o.
Proof.
  intros fuel s o s' p I H. destruct o; cbn [step] in H.
  - (* use *)
    unfold use, get_or_new in H. destruct (get_or_new_in_table fuel s n) as [[s1 q]|] eqn:G; [|discriminate].
    destruct (get_or_new_ok _ _ _ _ _ I G) as (I1 & E1 & C1 & A1 & L1 & O1 & K1 & N1).
    destruct (modify s1 q _) as [s2|] eqn:M in H; [|discriminate]. injection H as <- <-.
    eapply modify_ok in M; eauto. destruct M as (I2 & L2 & O2 & C2 & N2 & E2 & _).
    eapply only_effect; try reflexivity; [discriminate|].
    split; auto. split; [congruence|]. split; [unfold add_key; congruence|]. split; [exact L2|].
    intros k' Hk. rewrite O2, O1 by auto. reflexivity.
  - (* equ *)
    apply define_then_in in H; auto. destruct H as [H _].
    eapply only_effect; try reflexivity; [discriminate|]. exact H.
  - (* label *)
    destruct in_table.
    + apply define_then_in in H; auto. destruct H as [H _].
      eapply only_effect; try reflexivity; [discriminate|]. exact H.
    + apply define_then_out in H; auto. destruct H as ((I' & C & N & L) & _).
      split; auto.
  - apply define_then_out in H; auto. destruct H as ((I' & C & N & L) & _). split; auto.
  - (* special *)
    apply define_then_in in H; auto. destruct H as [H _].
    eapply only_effect; try reflexivity; [discriminate|]. exact H.
  - (* declare *)
    unfold declare, get_or_new in H. destruct (get_or_new_in_table fuel s n) as [[s1 q]|] eqn:G; [|discriminate].
    destruct (get_or_new_ok _ _ _ _ _ I G) as (I1 & E1 & C1 & A1 & L1 & O1 & K1 & N1).
    destruct (declare_rec s1 q vis line) as [s2|] eqn:M; [|discriminate]. injection H as <- <-.
    eapply only_effect; try reflexivity; [discriminate|]. cbn [eff].
    set (k := fix_case (case_sens s) n) in *. set (r := dflt k (lookup s k)) in *.
    unfold declare_rec in M. rewrite L1 in M. destruct (may_declare r vis).
    + injection M as <-. match goal with |- only _ (store _ _ ?x) _ _ => destruct (store_ok s1 k q r x I1 A1 L1 eq_refl) as (J & K & O) end.
      split; auto. split; [exact C1|]. split; [exact N1|]. split; [exact K|].
      intros k' Hk. rewrite O, O1 by auto. reflexivity.
    + destruct (ecall_ok _ _ _ I1 M) as (I2 & H2 & T2 & C2 & w & S2).
      pose proof (lookup_frame s1 s2 H2 T2) as LF.
      split; auto. split; [congruence|]. split; [unfold names in *; rewrite T2; exact N1|].
      split; [rewrite LF; exact K1|]. intros k' Hk. rewrite LF. auto.
  - (* abs *)
    unfold abs_sym, get_or_new in H. destruct (get_or_new_in_table fuel s []) as [[s1 q]|] eqn:G; [|discriminate].
    destruct (get_or_new_ok _ _ _ _ _ I G) as (I1 & E1 & C1 & A1 & L1 & O1 & K1 & N1).
    assert (KE : fix_case (case_sens s) [] = []) by (destruct (case_sens s); reflexivity). rewrite KE in *.
    destruct (modify s1 q _) as [s2|] eqn:M in H; [|discriminate]. injection H as <- <-.
    eapply modify_ok in M; eauto. destruct M as (I2 & L2 & O2 & C2 & N2 & E2 & _).
    eapply only_effect with (k := []); try reflexivity; [discriminate|].
    split; auto. split; [congruence|]. split; [unfold add_key; congruence|]. split; [exact L2|].
    intros k' Hk. rewrite O2, O1 by auto. reflexivity.
  - injection H as <- <-. split; [|split; [reflexivity|split; [reflexivity|]]].
    + destruct I. constructor; auto.
    + reflexivity.
  - (* finalize *)
    unfold nores in H. destruct (finalize s undef_extern) as [s2|] eqn:F; [|discriminate]. injection H as <- <-.
    destruct undef_extern.
    + destruct (finalize_true s I) as (s' & F' & I' & T & E & C & L). rewrite F in F'. injection F' as <-.
      split; auto. split; [exact C|]. split; [unfold names; rewrite T; reflexivity|]. exact L.
    + destruct (finalize_false s I) as (s' & F' & I' & H & T & C & _). rewrite F in F'. injection F' as <-.
      split; auto. split; [exact C|]. split; [unfold names; rewrite T; reflexivity|].
      intros k. rewrite (lookup_frame s s2 H T). reflexivity.
  - unfold nores in H. destruct (ecall s o) as [s2|] eqn:F; [|discriminate]. injection H as <- <-.
    destruct (ecall_ok _ _ _ I F) as (I2 & H2 & T2 & C2 & w & S2).
    split; auto. split; [exact C2|]. split; [unfold names; rewrite T2; reflexivity|].
    intros k. rewrite (lookup_frame s s2 H2 T2). reflexivity.
Qed.

(** * Histories *)
Definition case_of (ops : list op) : bool := fold_left case_after ops true.

Lemma run_from_app : forall fuel a b s, run_from fuel s (a ++ b) =
  match run_from fuel s a with Some s1 => run_from fuel s1 b | None => None end.
Proof.
  induction a as [|o a IH]; intros b s; cbn [app run_from]; auto.
  destruct (step fuel s o) as [[s1 p]|]; auto.
Qed.

Lemma run_snoc : forall fuel ops o s', run fuel (ops ++ [o]) = Some s' ->
  exists s p, run fuel ops = Some s /\ step fuel s o = Some (s', p).
Proof.
  intros fuel ops o s' H. unfold run in *. rewrite run_from_app in H.
  destruct (run_from fuel init ops) as [s|]; [|discriminate]. cbn [run_from] in H.
  destruct (step fuel s o) as [[s1 p]|] eqn:E; [|discriminate]. injection H as <-. eauto.
Qed.

Lemma run_inv : forall fuel ops s, run fuel ops = Some s -> Inv s /\ case_sens s = case_of ops.
Proof.
  intros fuel ops. induction ops as [|o ops IH] using rev_ind; intros s H.
  - injection H as <-. split; [apply Inv_init|reflexivity].
  - destruct (run_snoc _ _ _ _ H) as (s0 & p & R & S). destruct (IH _ R) as [I C].
    destruct (step_effect _ _ _ _ _ I S) as (I' & C' & _). split; auto.
    unfold case_of in *. rewrite fold_left_app. simpl. congruence.
Qed.

Lemma run_from_inv : forall fuel ops s s', Inv s -> run_from fuel s ops = Some s' -> Inv s'.
Proof.
  induction ops as [|o ops IH]; intros s s' I H; cbn [run_from] in H; [injection H as <-; auto|].
  destruct (step fuel s o) as [[s1 p]|] eqn:E; [|discriminate].
  eapply IH; [|exact H]. eapply step_effect; eauto.
Qed.

Lemma about_app : forall a b cs k, about cs k (a ++ b) = about cs k a ++ about (fold_left case_after a cs) k b.
Proof.
  induction a as [|o a IH]; intros b cs k; cbn [app about fold_left]; auto.
  rewrite IH. destruct (concerns cs k o); reflexivity.
Qed.
Lemma about_snoc : forall ops o k, about true k (ops ++ [o]) =
  about true k ops ++ (if concerns (case_of ops) k o then [o] else []).
Proof. intros. rewrite about_app. cbn [about]. destruct (concerns _ k o); reflexivity. Qed.

Lemma keys_app : forall a b cs seen, keys cs seen (a ++ b) = keys (fold_left case_after a cs) (keys cs seen a) b.
Proof. induction a as [|o a IH]; intros; cbn [app keys fold_left]; auto. Qed.

Lemma run_names : forall fuel ops s, run fuel ops = Some s -> names s = keys true [] ops.
Proof.
  intros fuel ops. induction ops as [|o ops IH] using rev_ind; intros s H.
  - injection H as <-. reflexivity.
  - destruct (run_snoc _ _ _ _ H) as (s0 & p & R & S). destruct (run_inv _ _ _ R) as [I C].
    destruct (step_effect _ _ _ _ _ I S) as (_ & _ & N & _). rewrite N, keys_app, C, (IH _ R).
    cbn [keys]. fold (case_of ops). destruct (op_key (case_of ops) o); reflexivity.
Qed.

(** ** Flags *)
Lemma has_lor : forall a b f, has (Z.lor a b) f = has a f || has b f.
Proof.
  intros. unfold has. rewrite Z.land_lor_distr_l.
  destruct (Z.eqb_spec (Z.land a f) 0) as [->|N]; [rewrite Z.lor_0_l; reflexivity|].
  destruct (Z.eqb_spec (Z.lor (Z.land a f) (Z.land b f)) 0) as [Q|Q]; auto.
  apply Z.lor_eq_0_iff in Q. tauto.
Qed.

Lemma first_some_app : forall {A B} (f : A -> option B) l1 l2,
  first_some f (l1 ++ l2) = match first_some f l1 with Some y => Some y | None => first_some f l2 end.
Proof. induction l1 as [|x l1 IH]; intros; simpl; auto. destruct (f x); auto. Qed.

Definition is_some {A} (o : option A) : bool := match o with Some _ => true | None => false end.

(** What is known about the record of [k] from the calls that concern it. *)
Definition R (nofin : bool) (k : str) (a : list op) (old : option symrec) : Prop :=
  match old with
  | None => a = []
  | Some r =>
      a <> [] /\ s_name r = k /\
      has (s_status r) DEFINED = is_some (first_def a) /\
      has (s_status r) USED = existsb is_use a /\
      (first_def a = None -> s_use r = first_use a /\ s_def r = 0 /\ s_val r = VNone) /\
      (first_def a = None -> nofin = true -> has (s_vis r) (Z.lor EXTERN COMMON) = existsb decl_ce a) /\
      (k <> [] -> forall ty l, first_def a = Some (ty, l) -> s_type r = ty /\ s_def r = l)
  end.

Lemma first_use_nz : forall a l, first_some use_line a = Some l -> l <> 0.
Proof.
  induction a as [|x a IH]; intros l H; simpl in H; [discriminate|].
  destruct (use_line x) as [y|] eqn:X; [|auto]. injection H as ->. unfold use_line in X.
  destruct x; try discriminate. destruct (Z.eqb_spec line 0); [discriminate|]. congruence.
Qed.

Lemma R_fresh : forall k, has (s_status (fresh k)) DEFINED = false /\ has (s_status (fresh k)) USED = false.
Proof. split; reflexivity. Qed.

Ltac hasc := rewrite ?has_lor; cbn [has Z.land negb Pos.land Z.eqb USED DEFINED VALUED]; rewrite ?orb_false_r, ?orb_true_r.

Lemma R_step : forall nofin k a o pe old, R nofin k a old ->
  (forall cs, concerns cs k o = true \/ True) -> forall cs,
  concerns cs k o = true -> R nofin k (a ++ [o]) (Some (eff pe o (dflt k old))).
Proof.
  intros nofin k a o pe old H _ cs C.
  assert (H0 : s_name (dflt k old) = k /\
      has (s_status (dflt k old)) DEFINED = is_some (first_def a) /\
      has (s_status (dflt k old)) USED = existsb is_use a /\
      (first_def a = None -> s_use (dflt k old) = first_use a /\ s_def (dflt k old) = 0 /\ s_val (dflt k old) = VNone) /\
      (first_def a = None -> nofin = true -> has (s_vis (dflt k old)) (Z.lor EXTERN COMMON) = existsb decl_ce a) /\
      (k <> [] -> forall ty l, first_def a = Some (ty, l) -> s_type (dflt k old) = ty /\ s_def (dflt k old) = l)).
  { destruct old as [r|]; simpl in *; [tauto|]. subst a. conj; auto. simpl. intros; discriminate. }
  clear H. destruct H0 as (N & D & U & F & V & T). set (r := dflt k old) in *.
  assert (NE : a ++ [o] <> []) by (destruct a; discriminate).
  assert (KO : o = OAbs -> k = []).
  { intros ->. unfold concerns in C. simpl in C. destruct k; [auto|discriminate]. }
  unfold R. split; auto.
  unfold first_def, first_use in *. rewrite !first_some_app, !existsb_app.
  destruct o; try discriminate C; cbn [eff first_some def_of use_line existsb is_use decl_ce] in *; rewrite ?orb_false_r.
  - (* use *)
    cbn [s_name s_status s_vis s_def s_use s_val s_type]. hasc. rewrite D.
    conj; auto.
    + destruct (first_some def_of a); reflexivity.
    + intros Q. assert (Q' : first_some def_of a = None) by (destruct (first_some def_of a); congruence).
      destruct (F Q') as (F1 & F2 & F3). conj; auto. rewrite F1.
      destruct (first_some use_line a) as [l0|] eqn:FU.
      * apply first_use_nz in FU. destruct (Z.eqb_spec l0 0); [contradiction|auto].
      * simpl. destruct (line =? 0) eqn:LZ; auto. apply Z.eqb_eq in LZ. auto.
    + intros Q Q2. apply V; auto. destruct (first_some def_of a); congruence.
    + intros KN ty l Q. apply T; auto. destruct (first_some def_of a) as [[? ?]|]; congruence.
  - (* equ *)
    unfold define_eff. rewrite D. destruct (first_some def_of a) as [[ty0 l0]|] eqn:FD; cbn [is_some].
    + conj; auto; try discriminate.
    + assert (G : forall X, X = (if pe then defined_as r TEqu line else equ_upd e (defined_as r TEqu line)) ->
         s_name X = k /\ has (s_status X) DEFINED = true /\ has (s_status X) USED = existsb is_use a /\ s_type X = TEqu /\ s_def X = line).
      { intros X ->. destruct pe; cbn [defined_as equ_upd set_status set_val s_name s_status s_type s_def]; hasc; conj; auto. }
      destruct (G _ eq_refl) as (G1 & G2 & G3 & G4 & G5). conj; auto; try discriminate. intros KN ty l Q. injection Q as <- <-. auto.
  - (* label *)
    destruct in_table; [|discriminate].
    unfold define_eff. rewrite D. destruct (first_some def_of a) as [[ty0 l0]|] eqn:FD; cbn [is_some].
    + conj; auto; try discriminate.
    + assert (G : forall X, X = (if pe then defined_as r TLabel line else label_upd bc (defined_as r TLabel line)) ->
         s_name X = k /\ has (s_status X) DEFINED = true /\ has (s_status X) USED = existsb is_use a /\ s_type X = TLabel /\ s_def X = line).
      { intros X ->. destruct pe; cbn [defined_as label_upd set_status set_val s_name s_status s_type s_def]; hasc; conj; auto. }
      destruct (G _ eq_refl) as (G1 & G2 & G3 & G4 & G5). conj; auto; try discriminate. intros KN ty l Q. injection Q as <- <-. auto.
  - (* special *)
    unfold define_eff. rewrite D. destruct (first_some def_of a) as [[ty0 l0]|] eqn:FD; cbn [is_some].
    + conj; auto; try discriminate.
    + assert (G : forall X, X = (if pe then defined_as r TSpecial 0 else special_upd vis (defined_as r TSpecial 0)) ->
         s_name X = k /\ has (s_status X) DEFINED = true /\ has (s_status X) USED = existsb is_use a /\ s_type X = TSpecial /\ s_def X = 0).
      { intros X ->. destruct pe; cbn [defined_as special_upd set_status set_vis s_name s_status s_type s_def]; hasc; conj; auto. }
      destruct (G _ eq_refl) as (G1 & G2 & G3 & G4 & G5). conj; auto; try discriminate. intros KN ty l Q. injection Q as <- <-. auto.
  - (* declare *)
    assert (G : forall X, X = (if may_declare r vis then Sym (s_name r) (s_type r) (s_status r) (Z.lor (s_vis r) vis) (s_def r) line (s_use r) (s_val r) else r) ->
       s_name X = s_name r /\ s_status X = s_status r /\ s_type X = s_type r /\ s_def X = s_def r /\ s_use X = s_use r /\ s_val X = s_val r).
    { intros X ->. destruct (may_declare r vis); conj; reflexivity. }
    destruct (G _ eq_refl) as (G1 & G2 & G3 & G4 & G5 & G6). rewrite G1, G2, G3, G4, G5, G6.
    conj; auto.
    + rewrite D. destruct (first_some def_of a); auto.
    + intros Q. assert (Q' : first_some def_of a = None) by (destruct (first_some def_of a); congruence).
      destruct (F Q') as (F1 & F2 & F3). conj; auto. rewrite F1. destruct (first_some use_line a); auto.
    + intros Q Q2. assert (Q' : first_some def_of a = None) by (destruct (first_some def_of a); congruence).
      specialize (V Q' Q2). rewrite Q' in D. simpl in D.
      replace (negb (Z.land vis 6 =? 0)) with (has vis (Z.lor EXTERN COMMON)) by reflexivity.
      rewrite <- V. destruct (may_declare r vis) eqn:MD; cbn [s_vis]; [apply has_lor|].
      unfold may_declare in MD. rewrite D in MD. cbn [negb andb] in MD.
      replace (Z.lor COMMON EXTERN) with (Z.lor EXTERN COMMON) in MD by reflexivity.
      destruct (has (s_vis r) (Z.lor EXTERN COMMON)); auto. rewrite orb_comm in MD. discriminate.
    + intros KN ty l Q. apply T; auto. destruct (first_some def_of a) as [[? ?]|]; congruence.
  - (* abs *)
    specialize (KO eq_refl).
    cbn [s_name s_status s_type s_def s_use s_val s_vis]. hasc.
    conj; try (intros Q; destruct (first_some def_of a); discriminate); try congruence.
    + destruct (first_some def_of a); reflexivity.
Qed.

Lemma fin_R : forall nofin k a old, R nofin k a old -> nofin = false -> R nofin k a (option_map fin_upd old).
Proof.
  intros nofin k a [r|] H NF; simpl in *; auto. unfold fin_upd. destruct (needs_extern r); auto.
  destruct H as (A & N & D & U & F & V & T). cbn [set_vis s_name s_status s_type s_def s_use s_val s_vis].
  conj; auto. intros; congruence.
Qed.

Lemma run_R : forall fuel ops s, run fuel ops = Some s ->
  forall k, R (negb (existsb is_finalize ops)) k (about true k ops) (lookup s k).
Proof.
  intros fuel ops. induction ops as [|o ops IH] using rev_ind; intros s H k.
  - injection H as <-. replace (lookup init k) with (@None symrec); [reflexivity|].
    rewrite lookup_assoc by apply Inv_init. reflexivity.
  - destruct (run_snoc _ _ _ _ H) as (s0 & p & RR & S). destruct (run_inv _ _ _ RR) as [I C].
    destruct (step_effect _ _ _ _ _ I S) as (_ & _ & _ & L). rewrite L, C, about_snoc.
    specialize (IH _ RR k). rewrite existsb_app. cbn [existsb]. rewrite orb_false_r, negb_orb.
    unfold ev_step. destruct (concerns (case_of ops) k o) eqn:CC.
    + assert (NF : is_finalize o = false) by (destruct o; auto; discriminate CC).
      rewrite NF, andb_true_r. eapply R_step; eauto.
    + rewrite app_nil_r. destruct o; cbn [is_finalize negb]; rewrite ?andb_true_r; auto.
      rewrite andb_false_r.
      assert (W : R false k (about true k ops) (lookup s0 k)).
      { destruct (lookup s0 k) as [r|]; simpl in *; auto.
        destruct IH as (A & N & D & U & F & V & T). conj; auto. intros; discriminate. }
      destruct undef_extern; auto. apply fin_R; auto.
Qed.

(** * C21 *)
Lemma definition_kept : forall fuel ops s k, run fuel ops = Some s -> k <> [] ->
  match first_def (about true k ops) with
  | Some (ty, l) => exists r, lookup s k = Some r /\ has (s_status r) DEFINED = true /\
                      s_name r = k /\ s_type r = ty /\ s_def r = l
  | None => forall r, lookup s k = Some r -> has (s_status r) DEFINED = false
  end.
Proof.
  intros fuel ops s k H KN. pose proof (run_R _ _ _ H k) as Q.
  destruct (first_def (about true k ops)) as [[ty l]|] eqn:FD.
  - destruct (lookup s k) as [r|]; simpl in Q.
    + destruct Q as (A & N & D & U & F & V & T). rewrite FD in *. destruct (T KN _ _ eq_refl).
      exists r. conj; auto.
    + rewrite Q in FD. discriminate.
  - intros r L. rewrite L in Q. destruct Q as (A & N & D & U & F & V & T). rewrite FD in D. exact D.
Qed.

(** The calls that define a table symbol named [n]. *)
Definition defines (o : op) : option str :=
  match o with OEqu n _ _ | OLabel n _ true _ | OSpecial n _ => Some n | _ => None end.

Lemma defines_inv : forall fuel s o n s' p, Inv s -> defines o = Some n -> step fuel s o = Some (s', p) ->
  exists ty line f, (forall x, s_name (f x) = s_name x) /\
    step fuel s o = define_then fuel s n ty true line f /\
    (forall pe r, eff pe o r = define_eff pe r ty line f) /\ def_of o = Some (ty, line).
Proof.
  intros fuel s o n s' p I D H. destruct o; try discriminate D; cbn [defines] in D.
  - injection D as <-. exists TEqu, line, (equ_upd e). conj; auto.
  - destruct in_table; [|discriminate]. injection D as <-. exists TLabel, line, (label_upd bc). conj; auto.
  - injection D as <-. exists TSpecial, 0, (special_upd vis). conj; auto.
Qed.

Lemma redefinition_reported : forall fuel ops s o n s' p ty l,
  run fuel ops = Some s -> defines o = Some n -> fix_case (case_sens s) n <> [] ->
  first_def (about true (fix_case (case_sens s) n) ops) = Some (ty, l) -> l <> 0 ->
  M_Errwarn.eclass (err s) = 0 ->
  step fuel s o = Some (s', p) ->
  M_Errwarn.eclass (err s') = M_Errwarn.E_GENERAL /\ M_Errwarn.emsg (err s') = text M_REDEF n /\
  M_Errwarn.exline (err s') = l /\ M_Errwarn.exmsg (err s') = text M_XREF n /\
  forall k, lookup s' k = lookup s k.
Proof.
  intros fuel ops s o n s' p ty l H DF KN FD LN EC ST.
  destruct (run_inv _ _ _ H) as [I C].
  pose proof (definition_kept _ _ _ _ H KN) as Q. rewrite FD in Q. destruct Q as (r & L & D & N & T & DL).
  destruct (defines_inv _ _ _ _ _ _ I DF ST) as (ty' & line & f & NF & SE & EF & _). rewrite SE in ST.
  apply define_then_in in ST; auto. cbv zeta in ST. set (k := fix_case (case_sens s) n) in *.
  rewrite L in ST. cbn [dflt] in ST. rewrite D in ST. destruct ST as [O (e1 & w1 & w2 & S1 & S2)].
  unfold define_eff in O. rewrite D in O. destruct O as (I' & C' & N' & L' & O').
  cbn [M_Errwarn.step] in S1, S2. unfold M_Errwarn.E_NONE in *. rewrite EC in S1. cbn [Z.eqb] in S1.
  injection S1 as S1 _. rewrite <- S1 in S2. cbn [M_Errwarn.eclass] in S2. cbn [Z.eqb] in S2. injection S2 as S2 _.
  rewrite <- S2. cbn. rewrite DL. destruct (Z.eqb_spec l 0); [contradiction|]. cbn [negb].
  conj; auto. intros k'. destruct (list_eq_dec Z.eq_dec k' k) as [->|NE]; [congruence|auto].
Qed.

(** ** Declarations *)
Definition single (v : Z) : Prop := v = 0 \/ v = 1 \/ v = 2 \/ v = 4 \/ v = 8.
Definition single_op (o : op) : Prop :=
  match o with ODeclare _ v _ | OSpecial _ v => single v | _ => True end.

(** Common and extern exclude each other. *)
Definition excl (old : option symrec) : Prop :=
  match old with Some r => has (s_vis r) COMMON && has (s_vis r) EXTERN = false | None => True end.

Lemma excl_may : forall r v, single v -> may_declare r v = true ->
  has (s_vis r) COMMON && has (s_vis r) EXTERN = false ->
  has (Z.lor (s_vis r) v) COMMON && has (Z.lor (s_vis r) v) EXTERN = false.
Proof.
  intros r v S M E. rewrite !has_lor. unfold may_declare in M.
  assert (B : has (s_vis r) (Z.lor COMMON EXTERN) = has (s_vis r) COMMON || has (s_vis r) EXTERN).
  { unfold has. rewrite Z.land_lor_distr_r.
    destruct (Z.eqb_spec (Z.land (s_vis r) COMMON) 0) as [->|X]; [rewrite Z.lor_0_l; reflexivity|].
    destruct (Z.eqb_spec (Z.lor (Z.land (s_vis r) COMMON) (Z.land (s_vis r) EXTERN)) 0) as [Y|Y]; auto.
    apply Z.lor_eq_0_iff in Y. tauto. }
  rewrite B in M.
  destruct (has (s_vis r) COMMON), (has (s_vis r) EXTERN); try discriminate E;
    destruct S as [->|[->|[->|[->| ->]]]]; try reflexivity;
    destruct (has (s_status r) DEFINED); discriminate.
Qed.

Lemma excl_eff : forall pe o old k, single_op o -> excl old -> excl (Some (eff pe o (dflt k old))).
Proof.
  intros pe o old k S E.
  assert (E0 : has (s_vis (dflt k old)) COMMON && has (s_vis (dflt k old)) EXTERN = false).
  { destruct old; auto. } set (r := dflt k old) in *. clearbody r.
  destruct o; cbn [eff excl]; auto.
  - unfold define_eff. destruct (has (s_status r) DEFINED), pe; auto.
  - unfold define_eff. destruct (has (s_status r) DEFINED), pe; auto.
  - unfold define_eff. destruct (has (s_status r) DEFINED), pe; auto.
    cbn [special_upd set_vis s_vis]. cbn [single_op] in S. destruct S as [->|[->|[->|[->| ->]]]]; reflexivity.
  - destruct (may_declare r vis) eqn:M; auto. cbn [s_vis]. apply excl_may; auto.
Qed.

Lemma never_common_and_extern : forall fuel ops s k r, run fuel ops = Some s -> Forall single_op ops ->
  lookup s k = Some r -> has (s_vis r) COMMON = true -> has (s_vis r) EXTERN = true -> False.
Proof.
  intros fuel ops s k r H F L C E.
  assert (X : excl (lookup s k)).
  { clear r L C E. revert s H F. induction ops as [|o ops IH] using rev_ind; intros s H F.
    - injection H as <-. rewrite lookup_assoc by apply Inv_init. exact I.
    - destruct (run_snoc _ _ _ _ H) as (s0 & p & RR & S). destruct (run_inv _ _ _ RR) as [I0 C].
      destruct (step_effect _ _ _ _ _ I0 S) as (_ & _ & _ & L). rewrite L. apply Forall_app in F.
      destruct F as [F1 F2]. inversion F2; subst. specialize (IH _ RR F1). unfold ev_step.
      destruct (concerns (case_sens s0) k o); [apply excl_eff; auto|].
      destruct o; auto. destruct undef_extern; auto. destruct (lookup s0 k) as [r|]; auto. cbn [option_map excl] in *.
      unfold fin_upd. destruct (needs_extern r) eqn:NE; auto. cbn [set_vis s_vis].
      unfold needs_extern in NE. apply andb_prop in NE. destruct NE as [_ NE]. apply negb_true_iff in NE.
      assert (CV : has (s_vis r) COMMON = false).
      { unfold has in *. rewrite Z.land_lor_distr_r in NE. apply negb_false_iff in NE. apply Z.eqb_eq in NE.
        apply Z.lor_eq_0_iff in NE. destruct NE as [_ ->]. reflexivity. }
      rewrite has_lor, CV. reflexivity. }
  rewrite L in X. simpl in X. rewrite C, E in X. discriminate.
Qed.

(** The binding of a name by declarations, in histories without finalization and without
    special symbols of that name. *)
Definition is_special (o : op) : bool := match o with OSpecial _ _ => true | OAbs => true | _ => false end.
Definition B (a : list op) (old : option symrec) : Prop :=
  match old with
  | None => a = []
  | Some r => has (s_vis r) COMMON = (match bound false a with Some v => v =? COMMON | None => false end) /\
              has (s_vis r) EXTERN = (match bound false a with Some v => v =? EXTERN | None => false end)
  end.

Lemma bound_app : forall a d o, bound d (a ++ [o]) =
  match bound d a with
  | Some v => Some v
  | None => bound (d || is_some (first_def a)) [o]
  end.
Proof.
  induction a as [|x a IH]; intros d o; cbn [app].
  - cbn [bound first_def first_some is_some]. rewrite orb_false_r. reflexivity.
  - unfold first_def in *. cbn [first_some].
    destruct x; cbn [bound def_of is_some]; rewrite ?orb_false_r; try (apply IH);
      try (rewrite IH; destruct (bound _ a); auto; rewrite !orb_true_r; reflexivity).
    destruct (negb d && ((vis =? COMMON) || (vis =? EXTERN))) eqn:Q; [reflexivity|]. apply IH.
Qed.

Lemma bound_some : forall a d v, bound d a = Some v -> v = COMMON \/ v = EXTERN.
Proof.
  induction a as [|x a IH]; intros d v H; [discriminate|].
  destruct x; cbn [bound] in H; eauto.
  destruct (negb d && ((vis =? COMMON) || (vis =? EXTERN))) eqn:Q; [|eauto].
  injection H as <-. apply andb_prop in Q. destruct Q as [_ Q]. apply orb_prop in Q.
  destruct Q as [Q|Q]; apply Z.eqb_eq in Q; auto.
Qed.

Lemma may_declare_bound : forall r v a, single v ->
  has (s_vis r) COMMON = (match bound false a with Some w => w =? COMMON | None => false end) ->
  has (s_vis r) EXTERN = (match bound false a with Some w => w =? EXTERN | None => false end) ->
  may_declare r v = (v =? GLOBAL) || (negb (has (s_status r) DEFINED) &&
     match bound false a with None => true | Some w => w =? v end).
Proof.
  intros r v a S C E. unfold may_declare.
  assert (X : has (s_vis r) (Z.lor COMMON EXTERN) = has (s_vis r) COMMON || has (s_vis r) EXTERN).
  { unfold has. rewrite Z.land_lor_distr_r.
    destruct (Z.eqb_spec (Z.land (s_vis r) COMMON) 0) as [->|N]; [rewrite Z.lor_0_l; reflexivity|].
    destruct (Z.eqb_spec (Z.lor (Z.land (s_vis r) COMMON) (Z.land (s_vis r) EXTERN)) 0) as [Y|Y]; auto.
    apply Z.lor_eq_0_iff in Y. tauto. }
  rewrite X, C, E.
  destruct (bound false a) as [w|] eqn:BB; [|reflexivity].
  destruct (bound_some _ _ _ BB); subst; destruct S as [->|[->|[->|[->| ->]]]]; reflexivity.
Qed.

Lemma run_B : forall fuel ops s k, run fuel ops = Some s -> k <> [] -> Forall single_op ops ->
  existsb is_finalize ops = false -> existsb is_special (about true k ops) = false ->
  B (about true k ops) (lookup s k).
Proof.
  intros fuel ops. induction ops as [|o ops IH] using rev_ind; intros s k H KN F NF NS.
  - injection H as <-. rewrite lookup_assoc by apply Inv_init. reflexivity.
  - destruct (run_snoc _ _ _ _ H) as (s0 & p & RR & S). destruct (run_inv _ _ _ RR) as [I0 C].
    destruct (step_effect _ _ _ _ _ I0 S) as (_ & _ & _ & L). rewrite L, C.
    apply Forall_app in F. destruct F as [F1 F2]. inversion F2 as [|x y SO _]; subst.
    rewrite existsb_app in NF. apply orb_false_elim in NF. destruct NF as [NF1 NF2]. cbn [existsb] in NF2. rewrite orb_false_r in NF2.
    rewrite about_snoc in NS |- *. rewrite existsb_app in NS. apply orb_false_elim in NS. destruct NS as [NS1 NS2].
    specialize (IH _ k RR KN F1 NF1 NS1). pose proof (run_R _ _ _ RR k) as QR.
    unfold ev_step. destruct (concerns (case_of ops) k o) eqn:CC.
    + assert (B0 : has (s_vis (dflt k (lookup s0 k))) COMMON = (match bound false (about true k ops) with Some v => v =? COMMON | None => false end) /\
                   has (s_vis (dflt k (lookup s0 k))) EXTERN = (match bound false (about true k ops) with Some v => v =? EXTERN | None => false end)).
      { destruct (lookup s0 k); auto. simpl in IH. rewrite IH. split; reflexivity. }
      assert (D0 : has (s_status (dflt k (lookup s0 k))) DEFINED = is_some (first_def (about true k ops))).
      { destruct (lookup s0 k); [apply QR|]. simpl in IH. rewrite IH. reflexivity. }
      set (r := dflt k (lookup s0 k)) in *. clearbody r. set (a := about true k ops) in *. clearbody a.
      cbn [existsb] in NS2. rewrite orb_false_r in NS2.
      unfold B. rewrite bound_app. cbn [orb].
      destruct o; try discriminate CC; try discriminate NS2; cbn [eff bound].
      * destruct (bound false a); exact B0.
      * unfold define_eff. destruct (has (s_status r) DEFINED), (error_occurred s0); destruct (bound false a); exact B0.
      * unfold define_eff. destruct (has (s_status r) DEFINED), (error_occurred s0); destruct (bound false a); exact B0.
      * destruct B0 as [B1 B2]. rewrite (may_declare_bound r vis a SO B1 B2), D0. cbn [single_op] in SO.
        destruct (bound false a) as [w|] eqn:BB.
        -- destruct (bound_some _ _ _ BB) as [-> | ->]; destruct SO as [->|[->|[->|[->| ->]]]];
             destruct (is_some (first_def a)); cbn; try (split; assumption);
             rewrite !has_lor, B1, B2; split; reflexivity.
        -- destruct SO as [->|[->|[->|[->| ->]]]];
             destruct (is_some (first_def a)); cbn; try (split; assumption);
             rewrite !has_lor, B1, B2; split; reflexivity.
    + rewrite app_nil_r. destruct o; auto. discriminate.
Qed.

Lemma declaration_outcome : forall fuel ops s n v l s' p, run fuel ops = Some s ->
  let k := fix_case (case_sens s) n in let a := about true k ops in
  k <> [] -> Forall single_op ops -> single v ->
  existsb is_finalize ops = false -> existsb is_special a = false ->
  step fuel s (ODeclare n v l) = Some (s', p) ->
  (forall k', k' <> k -> lookup s' k' = lookup s k') /\
  exists r', lookup s' k = Some r' /\
  let vis0 := match lookup s k with Some r => s_vis r | None => 0 end in
  if (v =? GLOBAL) || (negb (is_some (first_def a)) && match bound false a with None => true | Some w => w =? v end)
  then err s' = err s /\ s_vis r' = Z.lor vis0 v /\ s_decl r' = l
  else lookup s k = Some r' /\
       (M_Errwarn.eclass (err s) = 0 -> M_Errwarn.eclass (err s') = M_Errwarn.E_GENERAL /\
          M_Errwarn.emsg (err s') = text M_DUP (k ++ [if negb (s_def r' =? 0) then s_def r' else s_decl r'])).
Proof.
  intros fuel ops s n v l s' p H k a KN F SV NF NS ST.
  destruct (run_inv _ _ _ H) as [I C].
  pose proof (run_B _ _ _ k H KN F NF NS) as BB. pose proof (run_R _ _ _ H k) as QR. fold a in BB, QR.
  cbn [step] in ST. unfold declare, get_or_new in ST.
  destruct (get_or_new_in_table fuel s n) as [[s1 q]|] eqn:G; [|discriminate].
  destruct (get_or_new_ok _ _ _ _ _ I G) as (I1 & E1 & C1 & A1 & L1 & O1 & K1 & N1).
  fold k in A1, L1, O1, K1, N1.
  set (r := dflt k (lookup s k)) in *.
  destruct (declare_rec s1 q v l) as [s2|] eqn:M; [|discriminate]. injection ST as <- <-.
  unfold declare_rec in M. rewrite L1 in M.
  assert (MD : may_declare r v = (v =? GLOBAL) || (negb (is_some (first_def a)) && match bound false a with None => true | Some w => w =? v end)).
  { unfold r. destruct (lookup s k) as [r0|]; cbn [dflt].
    - simpl in BB, QR. destruct BB as [B1 B2]. rewrite (may_declare_bound r0 v a SV B1 B2).
      destruct QR as (_ & _ & D & _). rewrite D. reflexivity.
    - simpl in BB. rewrite BB. destruct SV as [->|[->|[->|[->| ->]]]]; reflexivity. }
  rewrite <- MD. destruct (may_declare r v) eqn:MDE.
  - injection M as <-. match goal with |- context [store s1 q ?x] => destruct (store_ok s1 k q r x I1 A1 L1 eq_refl) as (J & K & O) end.
    split. { intros k' Hk. rewrite O, O1 by auto. reflexivity. }
    eexists. split; [exact K|]. cbn [store err s_vis s_decl]. conj; auto. unfold r. destruct (lookup s k); reflexivity.
  - destruct (ecall_ok _ _ _ I1 M) as (I2 & H2 & T2 & C2 & w & S2).
    pose proof (lookup_frame s1 s2 H2 T2) as LF.
    split. { intros k' Hk. rewrite LF. auto. }
    exists r. split; [rewrite LF; exact K1|].
    assert (LS : lookup s k = Some r).
    { unfold r. destruct (lookup s k) as [r0|] eqn:Q; auto. simpl in BB. exfalso.
      unfold may_declare, r in MDE.
      cbn in MDE. rewrite orb_true_r in MDE. discriminate. }
    rewrite LS in QR. destruct QR as (_ & NM & _).
    split; auto. intros EC. cbn [M_Errwarn.step] in S2. rewrite E1, EC in S2. cbn [Z.eqb M_Errwarn.E_NONE] in S2.
    unfold M_Errwarn.E_NONE in S2. cbn in S2. injection S2 as S2 _. rewrite <- S2. cbn. rewrite NM. auto.
Qed.

(** * C23 *)
Lemma defined_stays_step : forall fuel s o s' p k r, Inv s -> k <> [] -> step fuel s o = Some (s', p) ->
  lookup s k = Some r -> has (s_status r) DEFINED = true ->
  exists r', lookup s' k = Some r' /\ has (s_status r') DEFINED = true /\
    s_type r' = s_type r /\ s_def r' = s_def r /\ s_val r' = s_val r /\
    has (s_status r') VALUED = has (s_status r) VALUED.
Proof.
  intros fuel s o s' p k r I KN ST L D.
  destruct (step_effect _ _ _ _ _ I ST) as (_ & _ & _ & LE). rewrite LE, L. unfold ev_step. cbn [dflt].
  destruct (concerns (case_sens s) k o) eqn:CC.
  - eexists. split; [reflexivity|].
    destruct o; try discriminate CC; cbn [eff]; unfold define_eff; rewrite ?D; auto.
    + cbn [s_status s_type s_def s_val]. hasc. auto.
    + destruct (may_declare r vis); cbn [s_status s_type s_def s_val]; auto.
    + unfold concerns in CC. cbn [op_key] in CC. apply str_eqb_spec in CC. congruence.
  - destruct o; eauto 10. destruct undef_extern; eauto 10. cbn [option_map]. unfold fin_upd.
    destruct (needs_extern r); eexists; (split; [reflexivity|]); auto.
Qed.

Lemma defined_stays : forall fuel ops s s' k r, Inv s -> k <> [] -> run_from fuel s ops = Some s' ->
  lookup s k = Some r -> has (s_status r) DEFINED = true ->
  exists r', lookup s' k = Some r' /\ has (s_status r') DEFINED = true /\
    s_type r' = s_type r /\ s_def r' = s_def r /\ s_val r' = s_val r /\
    has (s_status r') VALUED = has (s_status r) VALUED.
Proof.
  induction ops as [|o ops IH]; intros s s' k r I KN H L D; cbn [run_from] in H.
  - injection H as <-. eauto 10.
  - destruct (step fuel s o) as [[s1 p]|] eqn:E; [|discriminate].
    destruct (defined_stays_step _ _ _ _ _ _ _ I KN E L D) as (r1 & L1 & D1 & T1 & F1 & V1 & U1).
    destruct (IH s1 s' k r1) as (r2 & L2 & D2 & T2 & F2 & V2 & U2); auto.
    { eapply step_effect; eauto. }
    exists r2. conj; congruence.
Qed.

Definition value_of_def (o : op) : option (symrec -> option (option Z)) * option Z :=
  match o with
  | OEqu _ e _ => (Some get_equ, Some e)
  | OLabel _ b true _ => (Some get_label, b)
  | _ => (None, None)
  end.

Lemma first_definition_has_value : forall fuel ops s o n s' p ops2 s'' getter v,
  run fuel ops = Some s -> defines o = Some n -> fix_case (case_sens s) n <> [] ->
  first_def (about true (fix_case (case_sens s) n) ops) = None ->
  M_Errwarn.eclass (err s) = 0 ->
  step fuel s o = Some (s', p) -> value_of_def o = (Some getter, v) ->
  run_from fuel s' ops2 = Some s'' ->
  exists r, lookup s'' (fix_case (case_sens s) n) = Some r /\ getter r = Some v.
Proof.
  intros fuel ops s o n s' p ops2 s'' getter v H DF KN FD EC ST VD R2.
  destruct (run_inv _ _ _ H) as [I C]. set (k := fix_case (case_sens s) n) in *.
  pose proof (definition_kept _ _ _ _ H KN) as Q. rewrite FD in Q.
  destruct (defines_inv _ _ _ _ _ _ I DF ST) as (ty & line & f & NF & SE & EF & DO).
  pose proof (step_effect _ _ _ _ _ I ST) as (I' & _).
  rewrite SE in ST. apply define_then_in in ST; auto. cbv zeta in ST. fold k in ST.
  destruct ST as [(_ & _ & _ & L' & _) _].
  assert (D : has (s_status (dflt k (lookup s k))) DEFINED = false).
  { destruct (lookup s k) as [r|] eqn:L; [apply Q; auto|reflexivity]. }
  set (r := dflt k (lookup s k)) in *.
  assert (EO : error_occurred s = false) by (unfold error_occurred; rewrite EC; reflexivity).
  rewrite <- EF in L'.
  assert (G : getter (eff (error_occurred s) o r) = Some v /\ has (s_status (eff (error_occurred s) o r)) DEFINED = true /\
     (forall r2, s_type r2 = s_type (eff (error_occurred s) o r) -> s_val r2 = s_val (eff (error_occurred s) o r) ->
        has (s_status r2) VALUED = has (s_status (eff (error_occurred s) o r)) VALUED -> getter r2 = getter (eff (error_occurred s) o r))).
  { rewrite EO. destruct o; try discriminate VD; cbn [value_of_def] in VD.
    - injection VD as <- <-. cbn [eff]. unfold define_eff. rewrite D.
      set (X := equ_upd e (defined_as r TEqu line0)).
      assert (HV : has (s_status X) VALUED = true) by (unfold X, equ_upd, set_status; cbn [s_status]; hasc; reflexivity).
      assert (HD : has (s_status X) DEFINED = true) by (unfold X, equ_upd, set_status, defined_as; cbn [s_status]; hasc; reflexivity).
      unfold get_equ. conj; [rewrite HV; reflexivity|exact HD|]. intros r2 -> -> ->. reflexivity.
    - destruct in_table; [|discriminate]. injection VD as <- <-. cbn [eff]. unfold define_eff. rewrite D.
      set (X := label_upd bc (defined_as r TLabel line0)).
      assert (HD : has (s_status X) DEFINED = true) by (unfold X, label_upd, set_val, defined_as; cbn [s_status]; hasc; reflexivity).
      unfold get_label. conj; [reflexivity|exact HD|]. intros r2 -> -> _. reflexivity. }
  destruct G as (G1 & G2 & G3).
  destruct (defined_stays _ _ _ _ _ _ I' KN R2 L' G2) as (r2 & L2 & D2 & T2 & F2 & V2 & U2).
  exists r2. split; auto. rewrite <- G1. apply G3; auto.
Qed.

Lemma pending_error_loses_value : forall fuel ops s o n s' p ops2 s'',
  run fuel ops = Some s -> defines o = Some n -> fix_case (case_sens s) n <> [] ->
  first_def (about true (fix_case (case_sens s) n) ops) = None ->
  M_Errwarn.eclass (err s) <> 0 ->
  step fuel s o = Some (s', p) ->
  run_from fuel s' ops2 = Some s'' ->
  exists r, lookup s'' (fix_case (case_sens s) n) = Some r /\ has (s_status r) DEFINED = true /\
    s_val r = VNone /\ (forall b l, o = OLabel n b true l -> get_label r = None).
Proof.
  intros fuel ops s o n s' p ops2 s'' H DF KN FD EC ST R2.
  destruct (run_inv _ _ _ H) as [I C]. set (k := fix_case (case_sens s) n) in *.
  pose proof (definition_kept _ _ _ _ H KN) as Q. rewrite FD in Q.
  destruct (defines_inv _ _ _ _ _ _ I DF ST) as (ty & line & f & NF & SE & EF & DO).
  pose proof (step_effect _ _ _ _ _ I ST) as (I' & _).
  rewrite SE in ST. apply define_then_in in ST; auto. cbv zeta in ST. fold k in ST.
  destruct ST as [(_ & _ & _ & L' & _) _].
  assert (D : has (s_status (dflt k (lookup s k))) DEFINED = false).
  { destruct (lookup s k) as [r|] eqn:L; [apply Q; auto|reflexivity]. }
  assert (VN : s_val (dflt k (lookup s k)) = VNone).
  { pose proof (run_R _ _ _ H k) as QR. destruct (lookup s k) as [r|]; [|reflexivity].
    destruct QR as (_ & _ & _ & _ & F & _). apply F. exact FD. }
  assert (EO : error_occurred s = true).
  { unfold error_occurred. apply negb_true_iff. apply Z.eqb_neq. exact EC. }
  unfold define_eff in L'. rewrite D, EO in L'.
  assert (G2 : has (s_status (defined_as (dflt k (lookup s k)) ty line)) DEFINED = true).
  { cbn [defined_as s_status]. hasc. reflexivity. }
  destruct (defined_stays _ _ _ _ _ _ I' KN R2 L' G2) as (r2 & L2 & D2 & T2 & F2 & V2 & U2).
  exists r2. conj; auto.
  - rewrite V2. exact VN.
  - intros b l ->. cbn [def_of] in DO. injection DO as <- _. unfold get_label. rewrite T2, V2. cbn [defined_as s_type s_val].
    rewrite VN. reflexivity.
Qed.

(** * C22 *)
Lemma filter_map_flat : forall {A B} (f : A -> bool) (g : A -> B) l,
  flat_map (fun x => if f x then [g x] else []) l = map g (filter f l).
Proof. induction l as [|x l IH]; simpl; auto. destruct (f x); simpl; rewrite IH; reflexivity. Qed.

Lemma undef_history : forall fuel ops s, run fuel ops = Some s -> existsb is_finalize ops = false ->
  flat_map (undef_rec s) (entries (tab s)) =
  map (fun k => (k, first_use (about true k ops))) (filter (fun k => undefined k ops) (keys true [] ops)).
Proof.
  intros fuel ops s H NF. destruct (run_inv _ _ _ H) as [I C].
  rewrite <- (run_names _ _ _ H). rewrite <- filter_map_flat. unfold names.
  assert (G : forall E, (forall e, In e E -> In e (entries (tab s))) ->
    flat_map (undef_rec s) E = flat_map (fun x => if undefined x ops then [(x, first_use (about true x ops))] else []) (map fst E)).
  { induction E as [|[n p] E IH]; intros SUB; cbn [flat_map map fst]; auto.
    rewrite IH by (intros; apply SUB; right; auto). f_equal.
    assert (IN : In (n, p) (entries (tab s))) by (apply SUB; left; auto).
    destruct (I_e _ I _ _ IN) as [r [L N]]. unfold undef_rec. cbn [snd fst]. rewrite L.
    pose proof (in_assoc _ _ _ (I_n _ I) IN) as A.
    assert (LN : lookup s n = Some r) by (rewrite lookup_assoc, A by auto; exact L).
    pose proof (run_R _ _ _ H n) as QR. rewrite LN, NF in QR. cbn [negb R] in QR.
    destruct QR as (_ & _ & D & U & F & V & T). unfold needs_extern, undefined. rewrite D, U.
    destruct (first_def (about true n ops)) as [[ty l]|] eqn:FD; cbn [is_some negb].
    - rewrite !andb_false_r. reflexivity.
    - destruct (F eq_refl) as (F1 & _). rewrite (V eq_refl eq_refl), F1. reflexivity. }
  apply G. auto.
Qed.

(** Line of the closing message: the least first-use line. *)
Lemma finalize_calls : forall fuel ops s s' p, run fuel ops = Some s -> existsb is_finalize ops = false ->
  step fuel s (OFinalize false) = Some (s', p) ->
  let und := map (fun k => (k, first_use (about true k ops))) (filter (fun k => undefined k ops) (keys true [] ops)) in
  (exists w, M_Errwarn.run_from (err s) (final_calls und) = Some (err s', w)) /\
  forall k, lookup s' k = lookup s k.
Proof.
  intros fuel ops s s' p H NF ST und. destruct (run_inv _ _ _ H) as [I C].
  destruct (finalize_false s I) as (s1 & F & I1 & H1 & T1 & C1 & w & RR).
  cbn [step] in ST. rewrite F in ST. injection ST as <- <-.
  rewrite (undef_history _ _ _ H NF) in RR. split; [eauto|]. apply lookup_frame; auto.
Qed.

Lemma finalize_marks_extern : forall fuel ops s s' p, run fuel ops = Some s -> existsb is_finalize ops = false ->
  step fuel s (OFinalize true) = Some (s', p) -> err s' = err s /\
  forall k, match lookup s k with
            | None => lookup s' k = None
            | Some r => lookup s' k = Some (if undefined k ops then set_vis r (Z.lor (s_vis r) EXTERN) else r)
            end.
Proof.
  intros fuel ops s s' p H NF ST. destruct (run_inv _ _ _ H) as [I C].
  destruct (finalize_true s I) as (s1 & F & I1 & T1 & E1 & C1 & L).
  cbn [step] in ST. rewrite F in ST. injection ST as <- <-. split; auto.
  intros k. rewrite L. pose proof (run_R _ _ _ H k) as QR. rewrite NF in QR.
  destruct (lookup s k) as [r|]; auto. cbn [option_map negb R] in *.
  destruct QR as (_ & _ & D & U & Fu & V & T). unfold fin_upd, needs_extern, undefined. rewrite D, U.
  destruct (first_def (about true k ops)) as [[ty l]|] eqn:FD; cbn [is_some negb].
  - rewrite !andb_false_r. reflexivity.
  - rewrite (V eq_refl eq_refl). reflexivity.
Qed.

(** From the calls to the report. *)
Definition quiet (e : M_Errwarn.st) : Prop :=
  M_Errwarn.eclass e = 0 /\ M_Errwarn.exline e = 0 /\ M_Errwarn.exmsg e = 0 /\ M_Errwarn.warns e = [].

Lemma raise_error : forall e m l, quiet e -> P_Errwarn.wf (M_Errwarn.report e) (M_Errwarn.prev e) ->
  P_Errwarn.no_parse_entries (M_Errwarn.report e) ->
  exists e', M_Errwarn.run_from e [M_Errwarn.ESet M_Errwarn.E_GENERAL m; M_Errwarn.Propagate l] = Some (e', []) /\
    quiet e' /\ P_Errwarn.wf (M_Errwarn.report e') (M_Errwarn.prev e') /\
    P_Errwarn.no_parse_entries (M_Errwarn.report e') /\
    M_Errwarn.report e' = P_Errwarn.ins (M_Errwarn.Entry l M_Errwarn.KError m 0 0) (M_Errwarn.report e) /\
    M_Errwarn.ecount e' = u32 (M_Errwarn.ecount e + 1).
Proof.
  intros e m l (Q1 & Q2 & Q3 & Q4) W NP. cbn [M_Errwarn.run_from M_Errwarn.step].
  unfold M_Errwarn.E_NONE. rewrite Q1. cbn [Z.eqb].
  set (e1 := M_Errwarn.St M_Errwarn.E_GENERAL m (M_Errwarn.exline e) (M_Errwarn.exmsg e) (M_Errwarn.warns e)
     (M_Errwarn.mask e) (M_Errwarn.report e) (M_Errwarn.prev e) (M_Errwarn.ecount e) (M_Errwarn.wcount e)).
  assert (PR : exists i, M_Errwarn.propagate e1 l = Some (M_Errwarn.St 0 0 0 0 [] (M_Errwarn.mask e)
      (P_Errwarn.ins (M_Errwarn.Entry l M_Errwarn.KError m 0 0) (M_Errwarn.report e)) (Some i) (u32 (M_Errwarn.ecount e + 1)) (M_Errwarn.wcount e)) /\
      (i < S (length (M_Errwarn.report e)))%nat).
  { unfold M_Errwarn.propagate. cbn [e1 M_Errwarn.eclass M_Errwarn.emsg M_Errwarn.report M_Errwarn.prev M_Errwarn.exline M_Errwarn.exmsg M_Errwarn.ecount M_Errwarn.wcount M_Errwarn.warns M_Errwarn.mask].
    unfold M_Errwarn.E_NONE. change (M_Errwarn.E_GENERAL =? 0) with false. cbv iota.
    change (M_Errwarn.err_kind M_Errwarn.E_GENERAL) with M_Errwarn.KError. rewrite Q2, Q3, Q4.
    destruct (P_Errwarn.data_new_cases (M_Errwarn.report e) (M_Errwarn.prev e) l true
      (fun ln => M_Errwarn.Entry ln M_Errwarn.KError m 0 0) W (fun ln => eq_refl)) as [(i & E & Hi)|(_ & i & we & Hn & Hk & _)].
    - rewrite E. cbn [M_Errwarn.prop_warns]. exists i. split; auto.
    - exfalso. apply (NP we); auto. eapply nth_error_In; eauto. }
  destruct PR as (i & PR & Hi). rewrite PR. eexists. split; [unfold e1; cbn [M_Errwarn.warns]; rewrite Q4; reflexivity|].
  cbn [M_Errwarn.report M_Errwarn.prev M_Errwarn.ecount]. conj; auto.
  - unfold quiet. cbn. auto.
  - split; [apply P_Errwarn.ins_sorted, W|]. rewrite P_Errwarn.ins_length. auto.
  - intros x Hx.
    assert (G : In x (M_Errwarn.Entry l M_Errwarn.KError m 0 0 :: M_Errwarn.report e)).
    { clear - Hx. revert Hx. generalize (M_Errwarn.report e). intros L.
      induction L as [|y L IH]; simpl; auto.
      destruct (l <? M_Errwarn.n_line y); simpl; intuition. simpl in *. intuition. }
    destruct G as [<-|G]; [discriminate|]. apply NP; auto.
Qed.

Definition undef_entries (l : list (str * Z)) : list M_Errwarn.entry :=
  map (fun x => M_Errwarn.Entry (snd x) M_Errwarn.KError (text M_UNDEF (fst x)) 0 0) l.
Definition final_entries (l : list (str * Z)) : list M_Errwarn.entry :=
  undef_entries l ++
  (if first_line ULONG_MAX l <? ULONG_MAX
   then [M_Errwarn.Entry (first_line ULONG_MAX l) M_Errwarn.KError (text M_ONCE []) 0 0] else []).

Lemma raise_many : forall es e, quiet e -> P_Errwarn.wf (M_Errwarn.report e) (M_Errwarn.prev e) ->
  P_Errwarn.no_parse_entries (M_Errwarn.report e) ->
  Forall (fun x => x = M_Errwarn.Entry (M_Errwarn.n_line x) M_Errwarn.KError (M_Errwarn.n_msg x) 0 0) es ->
  exists e', M_Errwarn.run_from e (flat_map (fun x => [M_Errwarn.ESet M_Errwarn.E_GENERAL (M_Errwarn.n_msg x); M_Errwarn.Propagate (M_Errwarn.n_line x)]) es) = Some (e', []) /\
    (forall L, filter (fun x => M_Errwarn.n_line x =? L) (M_Errwarn.report e') =
               filter (fun x => M_Errwarn.n_line x =? L) (M_Errwarn.report e) ++ filter (fun x => M_Errwarn.n_line x =? L) es) /\
    length (M_Errwarn.report e') = (length (M_Errwarn.report e) + length es)%nat.
Proof.
  induction es as [|x es IH]; intros e Q W NP F.
  - exists e. simpl. conj; auto. intros L. rewrite app_nil_r. reflexivity.
  - inversion F as [|y z FX FE]; subst. cbn [flat_map].
    destruct (raise_error e (M_Errwarn.n_msg x) (M_Errwarn.n_line x) Q W NP) as (e1 & R1 & Q1 & W1 & NP1 & RP & EC).
    destruct (IH e1 Q1 W1 NP1 FE) as (e2 & R2 & FL & LN). exists e2. conj.
    + apply (erun_app _ _ _ _ _ R1 _ _ R2).
    + intros L. rewrite FL, RP. rewrite P_Errwarn.ins_filter; [|apply W|].
      * rewrite <- FX. cbn [filter M_Errwarn.n_line]. destruct (M_Errwarn.n_line x =? L); rewrite <- app_assoc; reflexivity.
      * cbn [M_Errwarn.n_line]. intros y HY HX. apply Z.eqb_eq in HY, HX. congruence.
    + rewrite LN, RP, P_Errwarn.ins_length. simpl. lia.
Qed.

Lemma final_calls_entries : forall l, final_calls l =
  flat_map (fun x => [M_Errwarn.ESet M_Errwarn.E_GENERAL (M_Errwarn.n_msg x); M_Errwarn.Propagate (M_Errwarn.n_line x)]) (final_entries l).
Proof.
  intros l. unfold final_calls, final_entries. rewrite flat_map_app. f_equal.
  - unfold undef_calls, undef_entries. induction l as [|x l IH]; simpl; auto. rewrite IH. reflexivity.
  - destruct (first_line ULONG_MAX l <? ULONG_MAX); reflexivity.
Qed.

Lemma finalize_report : forall fuel ops s s' p, run fuel ops = Some s -> existsb is_finalize ops = false ->
  quiet (err s) -> (forall e, In e (M_Errwarn.report (err s)) -> M_Errwarn.n_kind e <> M_Errwarn.KParse) ->
  step fuel s (OFinalize false) = Some (s', p) ->
  let und := map (fun k => (k, first_use (about true k ops))) (filter (fun k => undefined k ops) (keys true [] ops)) in
  (forall L, filter (fun x => M_Errwarn.n_line x =? L) (M_Errwarn.report (err s')) =
     filter (fun x => M_Errwarn.n_line x =? L) (M_Errwarn.report (err s)) ++
     filter (fun x => M_Errwarn.n_line x =? L) (final_entries und)) /\
  length (M_Errwarn.report (err s')) = (length (M_Errwarn.report (err s)) + length (final_entries und))%nat.
Proof.
  intros fuel ops s s' p H NF Q NP ST und. destruct (finalize_calls _ _ _ _ _ H NF ST) as [[w RR] _].
  fold und in RR. rewrite final_calls_entries in RR.
  destruct (raise_many (final_entries und) (err s) Q) as (e' & R1 & FL & LN); auto.
  - apply (I_w s). apply (run_inv _ _ _ H).
  - unfold final_entries. apply Forall_app. split.
    + apply Forall_forall. intros x Hx. apply in_map_iff in Hx. destruct Hx as [y [<- _]]. reflexivity.
    + destruct (first_line ULONG_MAX und <? ULONG_MAX); repeat constructor.
  - rewrite R1 in RR. injection RR as <- _. auto.
Qed.

(** The closing message is at the least first-use line. *)
Lemma first_line_spec : forall l a, first_line a l <= a /\ (forall x, In x l -> first_line a l <= snd x) /\
  (first_line a l = a \/ exists x, In x l /\ first_line a l = snd x).
Proof.
  induction l as [|x l IH]; intros a; cbn [first_line fold_left].
  - split; [lia|]. split; [intros ? []|]. left; reflexivity.
  - fold (first_line (if snd x <? a then snd x else a) l).
    destruct (IH (if snd x <? a then snd x else a)) as (A & Bd & Cc).
    destruct (Z.ltb_spec (snd x) a).
    + split; [lia|]. split.
      * intros y [<-|Hy]; [lia|auto].
      * right. destruct Cc as [->|(y & Hy & ->)]; [exists x; simpl; auto|exists y; simpl; auto].
    + split; [lia|]. split.
      * intros y [<-|Hy]; [lia|auto].
      * destruct Cc as [->|(y & Hy & E)]; [left; auto|right; exists y; simpl; auto].
Qed.

(** Memory safety: a call fails only if the hash insertion does not return. *)
Lemma define_total : forall fuel s n ty line, Inv s -> define fuel s n ty true line = None ->
  insert fuel false (tab s) (fix_case (case_sens s) n) (Z.of_nat (length (heap s))) false = None.
Proof.
  intros fuel s n ty line I H. unfold define, get_or_new in H.
  destruct (get_or_new_in_table fuel s n) as [[s1 q]|] eqn:G.
  - exfalso. destruct (get_or_new_ok _ _ _ _ _ I G) as (I1 & E1 & C1 & A1 & L1 & O1 & K1 & N1).
    rewrite L1 in H. destruct (has _ DEFINED).
    + destruct (ecall_some s1 (M_Errwarn.EXref (if negb (s_def (dflt (fix_case (case_sens s) n) (lookup s (fix_case (case_sens s) n))) =? 0)
           then s_def (dflt (fix_case (case_sens s) n) (lookup s (fix_case (case_sens s) n)))
           else s_decl (dflt (fix_case (case_sens s) n) (lookup s (fix_case (case_sens s) n)))) (text M_XREF n)) I1) as [s2 Q]. rewrite Q in H.
      destruct (ecall_ok _ _ _ I1 Q) as (I2 & _).
      destruct (ecall_some s2 (M_Errwarn.ESet M_Errwarn.E_GENERAL (text M_REDEF n)) I2) as [s3 Q3]. rewrite Q3 in H. discriminate.
    + destruct (has _ EXTERN); [|discriminate].
      destruct (ecall_some s1 (M_Errwarn.WSet W_GENERAL (text M_BOTH n)) I1) as [s2 Q]. rewrite Q in H. discriminate.
  - unfold get_or_new_in_table in G. cbn [new_rec s_name] in G.
    destruct (insert fuel false (tab s) (fix_case (case_sens s) n) (Z.of_nat (length (heap s))) false) as [[t x]|]; [discriminate|reflexivity].
Qed.

Lemma define_then_total : forall fuel s n ty line f, Inv s -> define_then fuel s n ty true line f = None ->
  insert fuel false (tab s) (fix_case (case_sens s) n) (Z.of_nat (length (heap s))) false = None.
Proof.
  intros fuel s n ty line f I H. unfold define_then in H.
  destruct (define fuel s n ty true line) as [[s1 q]|] eqn:D; [|eapply define_total; eauto].
  exfalso. destruct (define_in _ _ _ _ _ _ _ I D) as (A & LK & Bq).
  destruct (error_occurred s1); [discriminate|]. unfold modify in H. rewrite LK in H.
  destruct (has _ DEFINED) in Bq; destruct Bq as ((_ & _ & _ & L & _) & _); rewrite L in H; discriminate.
Qed.

Lemma define_then_out_total : forall fuel s n ty line f, exists x, define_then fuel s n ty false line f = Some x.
Proof.
  intros. unfold define_then, define, get_or_new, get_or_new_not_in_table.
  set (r0 := new_rec (case_sens s) n NOTINTABLE). set (s1 := St (heap s ++ [Some r0]) (tab s) (case_sens s) (err s)).
  assert (L1 : load s1 (Z.of_nat (length (heap s))) = Some r0) by (apply load_new; reflexivity).
  rewrite L1. change (has (s_status r0) DEFINED) with false. change (has (s_vis r0) EXTERN) with false. cbv iota beta.
  destruct (error_occurred _); [eauto|]. unfold modify.
  rewrite (load_store _ _ _ _ _ L1), Z.eqb_refl. eauto.
Qed.

Lemma step_total : forall fuel s o, Inv s -> step fuel s o = None ->
  exists k, op_key (case_sens s) o = Some k /\
    insert fuel false (tab s) k (Z.of_nat (length (heap s))) false = None.
Proof.
  assert (GN : forall fuel s n, get_or_new_in_table fuel s n = None ->
     insert fuel false (tab s) (fix_case (case_sens s) n) (Z.of_nat (length (heap s))) false = None).
  { intros fuel s n G. unfold get_or_new_in_table in G. cbn [new_rec s_name] in G.
    destruct (insert fuel false (tab s) (fix_case (case_sens s) n) (Z.of_nat (length (heap s))) false) as [[t x]|]; [discriminate|reflexivity]. }
  intros fuel s o I H. destruct o; cbn [step] in H.
  - eexists. split; [reflexivity|]. unfold use, get_or_new in H.
    destruct (get_or_new_in_table fuel s n) as [[s1 q]|] eqn:G; [|auto]. exfalso.
    destruct (get_or_new_ok _ _ _ _ _ I G) as (I1 & E1 & C1 & A1 & L1 & O1 & K1 & N1).
    unfold modify in H. rewrite L1 in H. discriminate.
  - eexists. split; [reflexivity|]. eapply define_then_total; eauto.
  - destruct in_table.
    + eexists. split; [reflexivity|]. eapply define_then_total; eauto.
    + destruct (define_then_out_total fuel s n TLabel line (fun r => set_val r (VBc bc))) as [x X].
      unfold define_label in H. rewrite X in H. discriminate.
  - destruct (define_then_out_total fuel s n TCurpos line (fun r => set_val r (VBc bc))) as [x X].
    unfold define_curpos in H. rewrite X in H. discriminate.
  - eexists. split; [reflexivity|]. eapply define_then_total; eauto.
  - eexists. split; [reflexivity|]. unfold declare, get_or_new in H.
    destruct (get_or_new_in_table fuel s n) as [[s1 q]|] eqn:G; [|auto]. exfalso.
    destruct (get_or_new_ok _ _ _ _ _ I G) as (I1 & E1 & C1 & A1 & L1 & O1 & K1 & N1).
    unfold declare_rec in H. rewrite L1 in H. destruct (may_declare _ vis); [discriminate|].
    match type of H with context [ecall s1 ?o] => destruct (ecall_some s1 o I1) as [s2 Q]; rewrite Q in H end. discriminate.
  - exists []. split; [reflexivity|]. unfold abs_sym, get_or_new in H.
    destruct (get_or_new_in_table fuel s []) as [[s1 q]|] eqn:G.
    + exfalso. destruct (get_or_new_ok _ _ _ _ _ I G) as (I1 & E1 & C1 & A1 & L1 & O1 & K1 & N1).
      unfold modify in H. rewrite L1 in H. discriminate.
    + apply GN in G. destruct (case_sens s); exact G.
  - discriminate.
  - exfalso. destruct undef_extern.
    + destruct (finalize_true s I) as (s' & F & _). rewrite F in H. discriminate.
    + destruct (finalize_false s I) as (s' & F & _). rewrite F in H. discriminate.
  - exfalso. destruct (ecall_some s o I) as [s' Q]. rewrite Q in H. discriminate.
Qed.

Lemma run_total : forall fuel ops, run fuel ops = None ->
  exists ops1 o ops2 s k, ops = ops1 ++ o :: ops2 /\ run fuel ops1 = Some s /\
    op_key (case_sens s) o = Some k /\
    insert fuel false (tab s) k (Z.of_nat (length (heap s))) false = None.
Proof.
  intros fuel ops. induction ops as [|o ops IH] using rev_ind; intros H; [discriminate|].
  destruct (run fuel ops) as [s|] eqn:RR.
  - unfold run in *. rewrite run_from_app, RR in H. cbn [run_from] in H.
    destruct (step fuel s o) as [[s1 q]|] eqn:S; [discriminate|].
    destruct (run_inv fuel ops s RR) as [I C]. destruct (step_total _ _ _ I S) as (k & K & IN).
    exists ops, o, [], s, k. conj; auto.
  - destruct (IH eq_refl) as (o1 & x & o2 & s & k & E & R1 & K & IN). subst.
    exists o1, x, (o2 ++ [o]), s, k. conj; auto. rewrite <- app_assoc. reflexivity.
Qed.

(** Diagnostic texts determine their format and arguments. *)
Lemma text_inj : forall a b k1 k2, 0 < k1 < 2 * w64 -> 0 < k2 < 2 * w64 ->
  Forall (fun c => -128 <= c < w64) a -> Forall (fun c => -128 <= c < w64) b ->
  text k1 a = text k2 b -> k1 = k2 /\ a = b.
Proof.
  assert (W : w64 = 18446744073709551616) by reflexivity.
  assert (P : forall a k, 0 < k -> Forall (fun c => -128 <= c < w64) a -> k <= text k a /\ (a <> [] -> 2 * w64 <= text k a)).
  { intros a. induction a as [|c a IH]; intros k Hk F; cbn [text fold_left]; [split; [lia|congruence]|].
    inversion F; subst. fold (text (k * (2 * w64) + (c + 256)) a). destruct (IH (k * (2 * w64) + (c + 256))) as [A1 A2]; auto; [nia|].
    split; [|intros _]; nia. }
  intros a. induction a as [|c a IH] using rev_ind; intros b k1 k2 H1 H2 F1 F2 E.
  - destruct b as [|d b]; [cbn in E; auto|]. exfalso.
    destruct (P (d :: b) k2 ltac:(lia) F2) as [_ Q]. specialize (Q ltac:(discriminate)). cbn [text fold_left] in E, Q. lia.
  - apply Forall_app in F1. destruct F1 as [F1 FC]. inversion FC; subst.
    unfold text in E. rewrite fold_left_app in E. cbn [fold_left] in E. fold (text k1 a) in E.
    destruct b as [|d b _] using rev_ind.
    + exfalso. cbn [fold_left] in E. pose proof (P a k1 ltac:(lia) F1) as [Q _]. nia.
    + apply Forall_app in F2. destruct F2 as [F2 FD]. inversion FD; subst.
      rewrite fold_left_app in E. cbn [fold_left] in E. fold (text k2 b) in E.
      assert (text k1 a = text k2 b /\ c = d) as [Q ->] by lia.
      destruct (IH b k1 k2 H1 H2 F1 F2 Q) as [-> ->]. auto.
Qed.

(** * Which spellings name the same symbol *)
Definition ascii_lower (c : Z) : Z := if (65 <=? c) && (c <=? 90) then c + 32 else c.
Definition alike (case_sensitive : bool) (a b : str) : Prop :=
  if case_sensitive then a = b else map ascii_lower a = map ascii_lower b.
(** The name a call refers to through the table. *)
Definition names_in_call (o : op) : option str :=
  match o with
  | OUse n _ | OEqu n _ _ | OLabel n _ true _ | OSpecial n _ | ODeclare n _ _ => Some n
  | _ => None
  end.

Lemma ecall_frame : forall s o s', ecall s o = Some s' -> tab s' = tab s.
Proof.
  unfold ecall. intros s o s' H. destruct (M_Errwarn.step (err s) o) as [[e w]|]; [|discriminate].
  injection H as <-. reflexivity.
Qed.
Lemma define_then_ptr : forall fuel s n ty line f s' p, Inv s -> (forall x, s_name (f x) = s_name x) ->
  define_then fuel s n ty true line f = Some (s', p) ->
  assoc (entries (tab s')) (fix_case (case_sens s) n) = Some p.
Proof.
  intros fuel s n ty line f s' p I F H. unfold define_then in H.
  destruct (define fuel s n ty true line) as [[s1 q]|] eqn:D; [|discriminate].
  destruct (define_in _ _ _ _ _ _ _ I D) as (A & _ & _).
  destruct (error_occurred s1); [injection H as <- <-; exact A|].
  unfold modify in H. destruct (load s1 q); [|discriminate]. injection H as <- <-. exact A.
Qed.
Lemma step_ptr : forall fuel s o s' p n, Inv s -> names_in_call o = Some n -> step fuel s o = Some (s', p) ->
  assoc (entries (tab s')) (fix_case (case_sens s) n) = Some p.
Proof.
  intros fuel s o s' p n I N H.
  destruct o as [m l|m e l|m b [|] l|m b l|m v|m v l| | | |]; simpl in N; try discriminate; injection N as ->;
    cbn [step] in H.
  - unfold use in H. simpl get_or_new in H. destruct (get_or_new_in_table fuel s n) as [[s1 q]|] eqn:G; [|discriminate].
    destruct (get_or_new_ok _ _ _ _ _ I G) as (I1 & E1 & C1 & A1 & L1 & _).
    unfold modify in H. rewrite L1 in H. injection H as <- <-. exact A1.
  - eapply define_then_ptr; eauto. reflexivity.
  - eapply define_then_ptr; eauto. reflexivity.
  - eapply define_then_ptr; eauto. reflexivity.
  - unfold declare in H. simpl get_or_new in H. destruct (get_or_new_in_table fuel s n) as [[s1 q]|] eqn:G; [|discriminate].
    destruct (get_or_new_ok _ _ _ _ _ I G) as (I1 & E1 & C1 & A1 & L1 & _).
    unfold declare_rec in H. rewrite L1 in H. destruct (may_declare _ v).
    + injection H as <- <-. exact A1.
    + destruct (ecall s1 _) eqn:Q in H; [|discriminate]. injection H as <- <-. rewrite (ecall_frame _ _ _ Q). exact A1.
Qed.
Lemma alike_fix : forall cs a b, fix_case cs a = fix_case cs b <-> alike cs a b.
Proof. intros [|] a b; unfold fix_case, alike; tauto. Qed.

Lemma same_symbol : forall fuel ops s o s' p n m, run fuel ops = Some s ->
  names_in_call o = Some n -> step fuel s o = Some (s', p) ->
  (get s' m = Some p <-> alike (case_sens s) n m).
Proof.
  intros fuel ops s o s' p n m R N H. destruct (run_inv _ _ _ R) as [I _].
  pose proof (step_ptr _ _ _ _ _ _ I N H) as A.
  assert (EF : Inv s' /\ case_sens s' = case_sens s).
  { assert (R' : run fuel (ops ++ [o]) = Some s').
    { unfold run in *. rewrite run_from_app, R. simpl. rewrite H. reflexivity. }
    destruct (run_inv _ _ _ R') as [I' C']. split; auto. rewrite C'.
    destruct (run_inv _ _ _ R) as [_ C]. rewrite C. unfold case_of. rewrite fold_left_app. simpl.
    destruct o; try discriminate; reflexivity. }
  destruct EF as [I' C]. unfold get. rewrite C, search_assoc by apply I'. rewrite <- alike_fix. split.
  - intros A'. apply assoc_nth in A. destruct A as [e1 H1]. apply assoc_nth in A'. destruct A' as [e2 H2].
    pose proof (I_d _ I') as ND. rewrite NoDup_nth_error in ND.
    assert (e1 = e2).
    { apply ND.
      - rewrite map_length. eapply nth_error_Some_lt; eauto.
      - rewrite !nth_error_map, H1, H2. reflexivity. }
    subst. rewrite H1 in H2. congruence.
  - intros E. rewrite <- E. exact A.
Qed.
