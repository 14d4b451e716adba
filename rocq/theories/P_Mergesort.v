(** Specification and proofs for libyasm/mergesort.c: C17. *)
From Coq Require Import ZArith List Lia Bool Permutation Sorted.
From Verif Require Import Lib M_Mergesort.
Import ListNotations.
Open Scope Z_scope.

(** * Specification *)
Section Spec.
Variable A : Type.
Variable cmp : A -> A -> Z.
(** A three-way comparison: swapping the arguments negates the sign, and <= is transitive. *)
Definition preorder : Prop :=
  (forall x y, Z.sgn (cmp x y) = - Z.sgn (cmp y x)) /\
  (forall x y z, cmp x y <= 0 -> cmp y z <= 0 -> cmp x z <= 0).
Definition ordered (l : list A) : Prop :=
  forall i j x y, (i < j)%nat -> nth_error l i = Some x -> nth_error l j = Some y -> cmp x y <= 0.
(** The elements equal to [x], in the order they occur. *)
Definition equals (x : A) (l : list A) : list A := filter (fun y => cmp x y =? 0) l.
End Spec.
Arguments ordered {A}. Arguments equals {A}. Arguments preorder {A}.

(** * Proofs *)
Section P.
Variable A : Type.
Variable cmp : A -> A -> Z.
Hypothesis PO : preorder cmp.
Notation le := (fun x y => cmp x y <= 0).
Notation SS := (StronglySorted le).

Lemma sgn_flip : forall x y, (cmp x y <= 0 <-> 0 <= cmp y x) /\ (cmp x y < 0 <-> 0 < cmp y x) /\ (cmp x y = 0 <-> cmp y x = 0).
Proof. intros x y. destruct PO as [H _]. specialize (H x y). lia. Qed.
Lemma trans : forall x y z, cmp x y <= 0 -> cmp y z <= 0 -> cmp x z <= 0.
Proof. apply PO. Qed.
Lemma refl : forall x, cmp x x = 0.
Proof. intros x. destruct PO as [H _]. specialize (H x x). lia. Qed.
Lemma trans_lt : forall x y z, cmp x y < 0 -> cmp y z <= 0 -> cmp x z < 0.
Proof.
  intros x y z H1 H2. destruct (Z_lt_le_dec (cmp x z) 0); auto. exfalso.
  apply (sgn_flip z x) in l. pose proof (trans y z x H2 l) as T.
  destruct (sgn_flip x y) as [_ [F _]]. apply F in H1. lia.
Qed.
Lemma trans_lt2 : forall x y z, cmp x y <= 0 -> cmp y z < 0 -> cmp x z < 0.
Proof.
  intros x y z H1 H2. destruct (Z_lt_le_dec (cmp x z) 0); auto. exfalso.
  apply (sgn_flip z x) in l. pose proof (trans z x y l H1) as T.
  destruct (sgn_flip y z) as [_ [F _]]. apply F in H2. lia.
Qed.

(** The relation "r is a stable reordering of l": same multiset, equal elements in order. *)
Definition stable (l r : list A) : Prop := Permutation l r /\ forall x, equals cmp x l = equals cmp x r.
Lemma stable_refl : forall l, stable l l. Proof. split; auto. Qed.
Lemma stable_trans : forall a b c, stable a b -> stable b c -> stable a c.
Proof. intros a b c [P1 E1] [P2 E2]. split; [etransitivity; eauto|]. intros. rewrite E1. auto. Qed.
Lemma equals_app : forall x a b, equals cmp x (a ++ b) = equals cmp x a ++ equals cmp x b.
Proof. intros. apply filter_app. Qed.
Lemma stable_app : forall a b c d, stable a b -> stable c d -> stable (a ++ c) (b ++ d).
Proof.
  intros a b c d [P1 E1] [P2 E2]. split; [apply Permutation_app; auto|].
  intros. rewrite !equals_app, E1, E2. reflexivity.
Qed.
(** Swapping two strictly ordered neighbours is stable. *)
Lemma stable_swap : forall x y l, 0 < cmp x y -> stable (x :: y :: l) (y :: x :: l).
Proof.
  intros x y l H. split; [constructor|]. intros z. unfold equals. simpl.
  destruct (Z.eqb_spec (cmp z x) 0); destruct (Z.eqb_spec (cmp z y) 0); auto. exfalso.
  destruct (sgn_flip z x) as [_ [_ F]]. apply F in e.
  pose proof (trans x z y). destruct (sgn_flip y x). lia.
Qed.
Lemma stable_cons : forall x a b, stable a b -> stable (x :: a) (x :: b).
Proof. intros. apply (stable_app [x] [x] a b); auto. apply stable_refl. Qed.
(** Moving an element left over a block of strictly greater ones. *)
Lemma stable_move : forall b x, Forall (fun y => 0 < cmp y x) b -> stable (b ++ [x]) (x :: b).
Proof.
  induction b as [|y b IH]; intros x H; simpl; [apply stable_refl|].
  inversion H; subst. eapply stable_trans; [apply stable_cons, IH; auto|]. apply stable_swap; auto.
Qed.
Lemma stable_move_block : forall b a, (forall x y, In x a -> In y b -> 0 < cmp y x) -> stable (b ++ a) (a ++ b).
Proof.
  intros b a. revert b. induction a as [|x a IH]; intros b H; simpl.
  - rewrite app_nil_r. apply stable_refl.
  - eapply stable_trans.
    + replace (b ++ x :: a) with ((b ++ [x]) ++ a) by (rewrite <- app_assoc; reflexivity).
      apply stable_app; [apply stable_move|apply stable_refl]. apply Forall_forall. intros y Y. apply H; simpl; auto.
    + simpl. apply stable_cons. apply IH. intros. apply H; simpl; auto.
Qed.

Lemma SS_app : forall a b, SS a -> SS b -> (forall x y, In x a -> In y b -> cmp x y <= 0) -> SS (a ++ b).
Proof.
  induction a as [|x a IH]; intros b Sa Sb H; simpl; auto. inversion Sa; subst. constructor.
  - apply IH; auto. intros. apply H; simpl; auto.
  - apply Forall_app. split; auto. apply Forall_forall. intros. apply H; simpl; auto.
Qed.
Lemma SS_app_inv : forall a b, SS (a ++ b) -> SS a /\ SS b /\ (forall x y, In x a -> In y b -> cmp x y <= 0).
Proof.
  induction a as [|x a IH]; intros b H; simpl in *.
  - repeat split; auto; try constructor. intros ? ? [].
  - inversion H; subst. destruct (IH _ H2) as (Sa & Sb & X). apply Forall_app in H3. destruct H3 as [F1 F2].
    repeat split; auto.
    + constructor; auto.
    + intros u v [U|U] V; auto. subst. rewrite Forall_forall in F2. auto.
Qed.
Lemma SS_ordered : forall l, SS l -> ordered cmp l.
Proof.
  induction l as [|a l IH]; intros S i j x y L X Y.
  - destruct i; discriminate.
  - inversion S; subst. destruct i, j; simpl in *; try lia.
    + injection X as ->. apply nth_error_In in Y. rewrite Forall_forall in H2. auto.
    + apply (IH H1 i j); auto. lia.
Qed.

(** ** Insertion sort *)
Lemma ins_stable : forall acc x, SS (rev acc) -> SS (rev (ins A cmp x acc)) /\ stable (rev acc ++ [x]) (rev (ins A cmp x acc)) .
Proof.
  induction acc as [|u acc IH]; intros x S; simpl.
  - split; [repeat constructor|apply stable_refl].
  - simpl in S. destruct (SS_app_inv _ _ S) as (S1 & S2 & S3). destruct (Z.leb_spec (cmp u x) 0); simpl.
    + split; [|apply stable_refl]. apply SS_app; auto; [repeat constructor|].
      intros a b Ha [<-|[]]. apply in_app_or in Ha. destruct Ha as [Ha|[<-|[]]]; auto.
      apply trans with u; auto. apply S3; simpl; auto.
    + destruct (IH x S1) as [I1 I2]. split.
      * apply SS_app; auto. intros a b Ha [<-|[]].
        apply (Permutation_in a (Permutation_sym (proj1 I2))) in Ha.
        apply in_app_or in Ha. destruct Ha as [Ha|[<-|[]]].
        -- apply S3; simpl; auto.
        -- apply (sgn_flip x u). lia.
      * eapply stable_trans; [|apply stable_app; [exact I2|apply stable_refl]].
        rewrite <- !app_assoc. apply stable_app; [apply stable_refl|]. apply (stable_swap u x []). lia.
Qed.
Lemma insertionsort_ok : forall l, SS (insertionsort A cmp l) /\ stable l (insertionsort A cmp l).
Proof.
  intros l. unfold insertionsort.
  assert (G : forall l acc p, SS (rev acc) -> stable p (rev acc) ->
    SS (rev (fold_left (fun acc x => ins A cmp x acc) l acc)) /\
    stable (p ++ l) (rev (fold_left (fun acc x => ins A cmp x acc) l acc))).
  { clear l. induction l as [|x l IH]; intros acc p S P; simpl.
    - rewrite app_nil_r. auto.
    - destruct (ins_stable acc x S) as [I1 I2].
      replace (p ++ x :: l) with ((p ++ [x]) ++ l) by (rewrite <- app_assoc; reflexivity).
      apply IH; auto. eapply stable_trans; [|exact I2]. apply stable_app; auto. apply stable_refl. }
  apply (G l [] []); [constructor|apply stable_refl].
Qed.

(** ** First pass *)
Definition flat (l : list (A * A)) : list A := flat_map (fun p => [fst p; snd p]) l.
Definition good (l : list A) (rs : list (list A)) : Prop := Forall SS rs /\ stable l (concat rs).

Lemma good_app : forall a b ra rb, good a ra -> good b rb -> good (a ++ b) (ra ++ rb).
Proof.
  intros a b ra rb [F1 S1] [F2 S2]. split; [apply Forall_app; auto|]. rewrite concat_app. apply stable_app; auto.
Qed.
Lemma good_one : forall a r, SS r -> stable a r -> good a [r].
Proof. intros. split; [repeat constructor; auto|]. simpl. rewrite app_nil_r. auto. Qed.

Lemma flat_app : forall a b, flat (a ++ b) = flat a ++ flat b.
Proof. intros. apply flat_map_app. Qed.

Lemma same_sense_ok : forall s l b r, same_sense A cmp s l = (b, r) ->
  l = b ++ r /\ Forall (fun p => (0 <? cmp (fst p) (snd p)) = s) b /\
  (match r with [] => True | p :: _ => (0 <? cmp (fst p) (snd p)) = negb s end).
Proof.
  intros s. induction l as [|[x y] l IH]; intros b r H; simpl in H.
  - injection H as <- <-. auto.
  - destruct (Bool.eqb (0 <? cmp x y) s) eqn:E.
    + destruct (same_sense A cmp s l) as [b' r'] eqn:Q. injection H as <- <-.
      destruct (IH _ _ eq_refl) as (E1 & E2 & E3). apply eqb_prop in E. split; [simpl; congruence|]. auto.
    + injection H as <- <-. split; auto. split; auto. simpl. apply eqb_false_iff in E. destruct (0 <? cmp x y), s; auto; congruence.
Qed.

Lemma pairwise_ok : forall s b, Forall (fun p => (0 <? cmp (fst p) (snd p)) = s) b -> good (flat b) (pairwise A s b).
Proof.
  intros s. induction b as [|[x y] b IH]; intros F; simpl.
  - split; [constructor|apply stable_refl].
  - inversion F; subst. simpl in *.
    change (good ([x; y] ++ flat b) ([(if 0 <? cmp x y then [y; x] else [x; y])] ++ pairwise A (0 <? cmp x y) b)).
    apply good_app; auto. apply good_one.
    + destruct (Z.ltb_spec 0 (cmp x y)); repeat constructor; auto. apply (sgn_flip y x). lia.
    + destruct (Z.ltb_spec 0 (cmp x y)); [apply (stable_swap x y []); auto|apply stable_refl].
Qed.

(** A run under construction, last element first. *)
Definition mono (s : bool) (cur : list A) : Prop :=
  if s then StronglySorted (fun u v => cmp u v < 0) cur else SS (rev cur).
Lemma close_ok : forall s cur, mono s cur -> SS (close A s cur) /\ stable (rev cur) (close A s cur).
Proof.
  intros [|] cur M; simpl in *; [|split; auto; apply stable_refl].
  induction M as [|u cur M IH F]; simpl; [split; [constructor|apply stable_refl]|].
  destruct IH as [I1 I2]. split.
  - constructor; auto. eapply Forall_impl; [|exact F]. simpl. intros. lia.
  - eapply stable_trans; [apply stable_app; [exact I2|apply stable_refl]|].
    apply stable_move. eapply Forall_impl; [|exact F]. simpl. intros v V.
    destruct (sgn_flip u v) as [_ [Q _]]. apply Q. auto.
Qed.
Lemma mono_push : forall s u cur x, mono s (u :: cur) -> (0 <? cmp u x) = s -> mono s (x :: u :: cur).
Proof.
  intros [|] u cur x M E; simpl in *.
  - apply Z.ltb_lt in E. assert (L : cmp x u < 0) by (apply (sgn_flip x u); auto).
    constructor; auto. constructor; auto. inversion M; subst. eapply Forall_impl; [|eassumption].
    simpl. intros v V. apply trans_lt with u; auto. lia.
  - apply Z.ltb_ge in E. apply SS_app; auto; [repeat constructor|]. intros a b Ha [<-|[]].
    apply in_app_or in Ha. destruct Ha as [Ha|[<-|[]]]; auto.
    apply trans with u; auto. apply SS_app_inv in M. apply M; simpl; auto.
Qed.
Lemma mono_one : forall s x, mono s [x].
Proof. intros [|] x; simpl; repeat constructor. Qed.

Lemma natural_ok : forall s b cur rs c, cur <> [] -> mono s cur ->
  Forall (fun p => (0 <? cmp (fst p) (snd p)) = s) b ->
  natural A cmp s cur b = (rs, c) -> good (rev cur ++ flat b) (rs ++ [c]) /\ c <> [].
Proof.
  intros s. induction b as [|[x y] b IH]; intros cur rs c NE M F H; simpl in H.
  - injection H as <- <-. destruct (close_ok s cur M) as [C1 C2]. split.
    + simpl. rewrite app_nil_r. apply good_one; auto.
    + unfold close. destruct s; auto. intros X. apply NE. rewrite <- (rev_involutive cur), X. reflexivity.
  - pose proof (Forall_inv F) as HS. pose proof (Forall_inv_tail F) as FB. simpl in HS. clear F.
    destruct cur as [|u cur]; [congruence|].
    destruct (Bool.eqb (0 <? cmp u x) s) eqn:E.
    + apply eqb_prop in E. apply IH in H; auto.
      * simpl in H. simpl. rewrite <- !app_assoc in *. simpl in *. exact H.
      * discriminate.
      * apply mono_push; auto. apply mono_push; auto.
    + destruct (natural A cmp s [y; x] b) as [rs' c'] eqn:Q. injection H as <- <-.
      destruct (close_ok _ _ M) as [C1 C2].
      assert (M2 : mono s [y; x]) by (apply mono_push; auto; apply mono_one).
      destruct (IH [y; x] _ _ (not_eq_sym (@nil_cons A y [x])) M2 FB Q) as [G NC]. split; auto.
      change ((close A s (u :: cur) :: rs') ++ [c']) with ([close A s (u :: cur)] ++ (rs' ++ [c'])).
      apply good_app; [apply good_one; auto|]. exact G.
Qed.

Lemma last_rev : forall (c : list A) u w, rev c = u :: w -> forall x, SS c -> In x c -> cmp x u <= 0.
Proof.
  intros c u w R x S I. assert (c = rev w ++ [u]) by (rewrite <- (rev_involutive c), R; reflexivity).
  subst. apply SS_app_inv in S. destruct S as (_ & _ & S). apply in_app_or in I. destruct I as [I|[<-|[]]].
  - apply S; simpl; auto.
  - rewrite refl. lia.
Qed.

Lemma runs_ok : forall fuel s l tail t0, SS tail -> tail <> [] -> stable t0 tail -> (length l <= fuel)%nat ->
  (match l with [] => True | p :: _ => (0 <? cmp (fst p) (snd p)) = s end) ->
  exists rs, runs A cmp fuel s l tail = Some rs /\ good (flat l ++ t0) rs /\ rs <> [] .
Proof.
  induction fuel as [|f IH]; intros s l tail t0 ST NT T0 L HS.
  - destruct l; [|simpl in L; lia]. simpl. eexists. split; [reflexivity|]. split; [apply good_one; auto|discriminate].
  - destruct l as [|p l]; simpl.
    { eexists. split; [reflexivity|]. split; [apply good_one; auto|discriminate]. }
    destruct (same_sense A cmp s l) as [b rest] eqn:Q. destruct (same_sense_ok _ _ _ _ Q) as (E1 & E2 & E3).
    assert (Lr : (length rest <= f)%nat) by (subst l; simpl in L; rewrite app_length in L; lia).
    assert (Fb : Forall (fun p => (0 <? cmp (fst p) (snd p)) = s) (p :: b)) by (constructor; auto).
    assert (EL : fst p :: snd p :: flat l ++ t0 = flat (p :: b) ++ (flat rest ++ t0)).
    { subst l. simpl. rewrite flat_app, <- app_assoc. reflexivity. }
    rewrite EL.
    destruct (_ <? THRESHOLD).
    + destruct (IH (negb s) rest tail t0 ST NT T0 Lr E3) as (rs & R & G & N). rewrite R. simpl.
      eexists. split; [reflexivity|]. split; [|discriminate].
      apply (good_app (flat (p :: b)) (flat rest ++ t0) (pairwise A s (p :: b)) rs); auto. apply pairwise_ok; auto.
    + destruct (natural A cmp s [snd p; fst p] b) as [rs c] eqn:QN.
      assert (M2 : mono s [snd p; fst p]) by (apply mono_push; auto; apply mono_one).
      destruct (natural_ok _ _ _ _ _ (not_eq_sym (@nil_cons A (snd p) [fst p])) M2 E2 QN) as [G NC].
      change (rev [snd p; fst p] ++ flat b) with (flat (p :: b)) in G.
      destruct rest as [|p2 rest].
      * change (flat [] ++ t0) with t0.
        destruct (rev c) as [|u w] eqn:RC; [exfalso; apply NC; rewrite <- (rev_involutive c), RC; reflexivity|].
        destruct tail as [|v tl]; [congruence|].
        assert (SC : SS c) by (destruct G as [FG _]; apply Forall_app in FG; destruct FG as [_ FG]; inversion FG; auto).
        destruct (Z.ltb_spec 0 (cmp u v)); (eexists; split; [reflexivity|]; split; [|destruct rs; discriminate]).
        -- change (rs ++ [c; v :: tl]) with (rs ++ ([c] ++ [v :: tl])). rewrite (app_assoc rs).
           apply good_app; auto. apply good_one; auto.
        -- destruct G as [FG SG]. apply Forall_app in FG. destruct FG as [F1 F2]. split.
           ++ apply Forall_app. split; auto. constructor; auto. apply SS_app; auto.
              intros x y X Y. apply trans with u; [eapply last_rev; eauto|]. apply trans with v; auto.
              destruct Y as [<-|Y]; [rewrite refl; lia|]. inversion ST; subst. rewrite Forall_forall in H3. auto.
           ++ rewrite concat_app in *. simpl in *. rewrite app_nil_r in *. rewrite app_assoc.
              apply (stable_app (fst p :: snd p :: flat b) _ t0 _); auto.
      * destruct (IH (negb s) (p2 :: rest) tail t0 ST NT T0 Lr E3) as (rs2 & R & G2 & N). rewrite R. simpl option_map.
        eexists. split; [reflexivity|]. split; [|destruct rs; discriminate].
        change (rs ++ c :: rs2) with (rs ++ ([c] ++ rs2)). rewrite (app_assoc rs). apply good_app; auto.
Qed.

Lemma pairs_flat : forall n l, (length l <= n)%nat -> Nat.even (length l) = true -> flat (pairs A l) = l.
Proof.
  induction n as [|n IH]; intros l L E.
  - destruct l; [reflexivity|simpl in L; lia].
  - destruct l as [|x [|y l]]; simpl in *; auto; try discriminate. f_equal. f_equal. apply IH; auto; lia.
Qed.

Lemma setup_ok : forall l, l <> [] -> exists rs, setup A cmp l = Some rs /\ good l rs /\ rs <> [].
Proof.
  intros l NE. unfold setup. destruct (Nat.leb_spec (length l) 5).
  - eexists. split; [reflexivity|]. split; [|discriminate]. destruct (insertionsort_ok l). apply good_one; auto.
  - set (i := (if Nat.even (length l) then 4 else 5)%nat).
    assert (Hi : (4 <= i <= 5)%nat) by (subst i; destruct (Nat.even (length l)); lia).
    set (hd := firstn (length l - i) l). set (tl := skipn (length l - i) l).
    assert (LH : length hd = (length l - i)%nat) by (unfold hd; rewrite firstn_length; lia).
    assert (EV : Nat.even (length hd) = true).
    { rewrite LH. unfold i. destruct (Nat.even (length l)) eqn:E; rewrite Nat.even_sub, E by lia; reflexivity. }
    assert (FH : flat (pairs A hd) = hd) by (eapply pairs_flat; eauto).
    destruct (insertionsort_ok tl) as [S1 S2].
    assert (NT : insertionsort A cmp tl <> []).
    { intros X. rewrite X in S2. destruct S2 as [P _]. apply Permutation_length in P. unfold tl in P.
      rewrite skipn_length in P. simpl in P. lia. }
    destruct (pairs A hd) as [|[x y] ps] eqn:PH.
    { simpl in FH. rewrite <- FH in LH. simpl in LH. lia. }
    destruct (runs_ok (length ((x, y) :: ps)) (0 <? cmp x y) ((x, y) :: ps) (insertionsort A cmp tl) tl S1 NT S2 (le_n _) eq_refl) as (rs & R & G & N).
    exists rs. split; [exact R|]. split; auto. rewrite FH in G. unfold hd, tl in G. rewrite firstn_skipn in G. exact G.
Qed.

(** ** Exponential search *)
Section G.
Variable pred : A -> bool.
Variable l : list A.
Notation at' := (at_ A pred l).
(** true on an initial segment *)
Hypothesis Down : forall i j, (i <= j)%nat -> at' j = true -> at' i = true.
Definition edge (k : nat) : Prop := (forall i, (i < k)%nat -> at' i = true) /\ at' k = false.

Lemma at_out : forall p, (length l <= p)%nat -> at' p = false.
Proof. intros p H. unfold at_. apply nth_error_None in H. rewrite H. reflexivity. Qed.
Lemma edge_between : forall k, (exists b, (S b = k)%nat /\ at' b = true) -> at' k = false -> edge k.
Proof. intros k [b [E H]] N. split; auto. intros i L. apply Down with b; auto. lia. Qed.

Lemma small_ok : forall fuel b i, at' b = true -> (length l < b + fuel)%nat ->
  exists r, small A pred l fuel b i = Some r /\
    match r with inl k => edge k | inr b' => at' b' = true /\ (b' < length l)%nat end.
Proof.
  induction fuel as [|f IH]; intros b i H L.
  - destruct (Nat.le_gt_cases (length l) b); [rewrite at_out in H by auto; discriminate|lia].
  - cbn [small]. destruct (Nat.ltb_spec (S b) (length l)); simpl andb.
    + destruct (at' (S b)) eqn:Q.
      * destruct (Nat.eqb (S i) 6); [eexists; split; [reflexivity|simpl; auto]|]. apply IH; auto. lia.
      * eexists. split; [reflexivity|]. simpl. apply edge_between; eauto.
    + eexists. split; [reflexivity|]. simpl. apply edge_between; eauto. apply at_out. auto.
Qed.
Lemma bin_ok : forall fuel b t, at' b = true -> at' t = false -> (t - b < fuel)%nat ->
  exists k, bin A pred l fuel b t = Some k /\ edge k.
Proof.
  induction fuel as [|f IH]; intros b t Hb Ht L; [lia|]. cbn [bin].
  assert (b < t)%nat.
  { destruct (Nat.lt_ge_cases b t); auto. rewrite (Down t b) in Ht; auto. discriminate. }
  destruct (Nat.ltb_spec (b + 1) t).
  - assert (1 <= (t - b) / 2 < t - b)%nat.
    { split; [apply (Nat.div_le_lower_bound (t-b) 2 1)%nat; lia|apply Nat.div_lt; lia]. }
    destruct (at' (b + (t - b) / 2)%nat) eqn:Q; apply IH; auto; lia.
  - exists t. split; auto. apply edge_between; auto. exists b. split; auto. lia.
Qed.
Lemma fast_ok : forall n fuel b, at' b = true -> at' (b + 2 ^ n)%nat = false -> (2 ^ n < fuel)%nat ->
  exists k, fast A pred l fuel b (b + 2 ^ n) (2 ^ n) = Some k /\ edge k.
Proof.
  induction n as [|n IH]; intros fuel b Hb Ht L.
  - destruct fuel as [|f]; [lia|]. simpl. eexists. split; [reflexivity|]. apply edge_between; auto. exists b. split; auto. simpl. lia.
  - destruct fuel as [|f]; [lia|]. cbn [fast].
    assert (P : (2 ^ S n = 2 ^ n + 2 ^ n)%nat) by (simpl; lia).
    assert (P1 : (1 <= 2 ^ n)%nat) by (clear; induction n; simpl; lia).
    destruct (Nat.ltb_spec 1 (2 ^ S n)); [|lia].
    replace (2 ^ S n / 2)%nat with (2 ^ n)%nat by (rewrite P; replace (2 ^ n + 2 ^ n)%nat with (2 ^ n * 2)%nat by lia; rewrite Nat.div_mul; lia).
    destruct (at' (b + 2 ^ n)%nat) eqn:Q.
    + replace (b + 2 ^ S n)%nat with ((b + 2 ^ n) + 2 ^ n)%nat by lia. apply IH; auto; [|lia].
      replace ((b + 2 ^ n) + 2 ^ n)%nat with (b + 2 ^ S n)%nat by lia. auto.
    + apply IH; auto. lia.
Qed.
Lemma expo_ok : forall fuel b n, at' b = true -> (length l + 1 < b + fuel)%nat -> (b < length l)%nat ->
  exists k big, expo A pred l fuel b (length l) (2 ^ n) = Some (k, big) /\ edge k.
Proof.
  induction fuel as [|f IH]; intros b n Hb L B; [lia|]. cbn [expo].
  assert (P1 : (1 <= 2 ^ n)%nat) by (clear; induction n; simpl; lia).
  destruct (Nat.leb_spec (length l) (b + 2 ^ n)).
  - assert (X : exists k, (if (b <? length l - 1)%nat && negb (at' (length l - 1)%nat)
        then bin A pred l f b (length l - 1) else bin A pred l f (length l - 1) (length l)) = Some k /\ edge k).
    { destruct (Nat.ltb_spec b (length l - 1)).
      - destruct (at' (length l - 1)%nat) eqn:Q; simpl; apply bin_ok; auto; try lia. apply at_out; auto.
      - simpl. assert (b = length l - 1)%nat by lia. subst b. apply bin_ok; auto; [apply at_out; auto|lia]. }
    destruct X as (k & -> & E). simpl. eauto.
  - destruct (at' (b + 2 ^ n)%nat) eqn:Q.
    + replace (2 ^ n + 2 ^ n)%nat with (2 ^ S n)%nat by (simpl; lia). apply IH; auto. lia.
    + destruct (fast_ok n f b Hb Q ltac:(lia)) as (k & -> & E). simpl. eauto.
Qed.
Lemma gallop_ok : forall big, at' 0 = true -> exists k big', gallop A pred l big = Some (k, big') /\ edge k.
Proof.
  intros big H0. unfold gallop.
  assert (L : (0 < length l)%nat) by (destruct l; [discriminate|simpl; lia]).
  destruct big.
  - apply (expo_ok _ 0 0); auto. lia.
  - destruct (small_ok (S (S (length l))) 0 0 H0 ltac:(lia)) as ([k|b] & -> & E); [eauto|].
    destruct E as [E1 E2]. apply (expo_ok _ b 0); auto. lia.
Qed.
End G.

Lemma edge_split : forall pred l k, edge pred l k -> (k <= length l)%nat /\
  Forall (fun x => pred x = true) (firstn k l) /\
  match skipn k l with [] => True | x :: _ => pred x = false end.
Proof.
  intros pred l. induction l as [|a l IH]; intros k [E1 E2].
  - destruct k; simpl; auto. specialize (E1 0%nat ltac:(lia)). discriminate.
  - destruct k; simpl.
    + split; [lia|]. split; auto.
    + destruct (IH k) as (I1 & I2 & I3).
      * split; [intros i L; apply (E1 (S i)); lia|exact E2].
      * split; [lia|]. split; auto. constructor; auto. apply (E1 0%nat). lia.
Qed.

(** ** Merging *)
Lemma merge_ok : forall fuel big f1 f2, SS f1 -> SS f2 -> (length f1 + length f2 <= fuel)%nat ->
  exists r big', merge A cmp fuel big f1 f2 = Some (r, big') /\ SS r /\ stable (f1 ++ f2) r.
Proof.
  induction fuel as [|f IH]; intros big f1 f2 S1 S2 L.
  - destruct f1; [|simpl in L; lia]. destruct f2; [|simpl in L; lia]. simpl. exists [], big. split; auto. split; [constructor|apply stable_refl].
  - destruct f1 as [|x t1]; [simpl; exists f2, big; split; auto; split; auto; apply stable_refl|].
    destruct f2 as [|y t2]; [cbn [merge]; exists (x :: t1), big; rewrite app_nil_r; split; auto; split; auto; apply stable_refl|].
    cbn [merge]. inversion S1 as [|? ? S1' F1]; subst. inversion S2 as [|? ? S2' F2]; subst.
    rewrite Forall_forall in F1, F2.
    destruct (Z.leb_spec (cmp x y) 0) as [C|C].
    + set (pred := fun b => -1 <? cmp y b).
      assert (PR : forall b, pred b = true <-> cmp b y <= 0).
      { intros b. unfold pred. rewrite Z.ltb_lt. destruct (sgn_flip b y). lia. }
      assert (D : forall i j, (i <= j)%nat -> at_ A pred (x :: t1) j = true -> at_ A pred (x :: t1) i = true).
      { intros i j Hij Hj. destruct (Nat.eq_dec i j) as [->|N]; auto. unfold at_ in *.
        destruct (nth_error (x :: t1) j) as [v|] eqn:Vj; [|discriminate].
        destruct (nth_error (x :: t1) i) as [u|] eqn:Vi.
        - apply PR. apply PR in Hj. apply trans with v; auto. eapply (SS_ordered _ S1 i j); eauto. lia.
        - apply nth_error_None in Vi. apply nth_error_Some_lt in Vj. lia. }
      destruct (gallop_ok pred (x :: t1) D big) as (k & big' & -> & E); [apply PR; auto|].
      destruct (edge_split _ _ _ E) as (Lk & FT & FF).
      assert (K1 : (1 <= k)%nat). { destruct k; [|lia]. destruct E as [_ E]. assert (at_ A pred (x :: t1) 0 = true) by (apply PR; auto). congruence. }
      assert (SP : x :: t1 = firstn k (x :: t1) ++ skipn k (x :: t1)) by (symmetry; apply firstn_skipn).
      set (a := firstn k (x :: t1)) in *. set (b := skipn k (x :: t1)) in *.
      rewrite SP in S1. destruct (SS_app_inv _ _ S1) as (Sa & Sb & Sab).
      assert (LB : (length b < length (x :: t1))%nat) by (unfold b; rewrite skipn_length; cbn [length]; lia).
      clearbody a b. cbn [length] in L, LB.
      destruct (IH big' b t2 Sb S2') as (r & big2 & -> & SR & ST); [lia|].
      simpl. exists (a ++ y :: r), big2. split; auto.
      assert (GB : forall u, In u b -> 0 < cmp u y).
      { intros u Hu. destruct b as [|v b']; [contradiction|]. destruct (Z_lt_le_dec 0 (cmp u y)); auto. exfalso.
        assert (cmp v y <= 0).
        { destruct Hu as [<-|Hu]; auto. apply trans with u; auto. inversion Sb; subst. rewrite Forall_forall in H2. auto. }
        apply PR in H. congruence. }
      rewrite Forall_forall in FT.
      assert (Y : forall z, In z r -> cmp y z <= 0).
      { intros z Hz. apply (Permutation_in z (Permutation_sym (proj1 ST))) in Hz.
        apply in_app_or in Hz. destruct Hz as [Hz|Hz]; auto. apply (sgn_flip y z). specialize (GB z Hz). lia. }
      split.
      * apply SS_app; auto.
        -- constructor; auto. apply Forall_forall. auto.
        -- intros u z Hu [<-|Hz]; [apply PR; auto|]. apply trans with y; auto. apply PR; auto.
      * replace (x :: t1 ++ y :: t2) with ((x :: t1) ++ y :: t2) by reflexivity. rewrite SP, <- app_assoc.
        apply stable_app; [apply stable_refl|].
        eapply stable_trans.
        -- replace (b ++ y :: t2) with ((b ++ [y]) ++ t2) by (rewrite <- app_assoc; reflexivity).
           apply stable_app; [apply stable_move|apply stable_refl]. apply Forall_forall. auto.
        -- simpl. apply stable_cons. auto.
    + set (pred := fun b => 0 <? cmp x b).
      assert (PR : forall b, pred b = true <-> cmp b x < 0).
      { intros b. unfold pred. rewrite Z.ltb_lt. destruct (sgn_flip b x) as [_ [Q _]]. tauto. }
      assert (CY : cmp y x < 0) by (apply (sgn_flip y x); auto).
      assert (D : forall i j, (i <= j)%nat -> at_ A pred (y :: t2) j = true -> at_ A pred (y :: t2) i = true).
      { intros i j Hij Hj. destruct (Nat.eq_dec i j) as [->|N]; auto. unfold at_ in *.
        destruct (nth_error (y :: t2) j) as [v|] eqn:Vj; [|discriminate].
        destruct (nth_error (y :: t2) i) as [u|] eqn:Vi.
        - apply PR. apply PR in Hj. apply trans_lt2 with v; auto. eapply (SS_ordered _ S2 i j); eauto. lia.
        - apply nth_error_None in Vi. apply nth_error_Some_lt in Vj. lia. }
      destruct (gallop_ok pred (y :: t2) D big) as (k & big' & -> & E); [apply PR; auto|].
      destruct (edge_split _ _ _ E) as (Lk & FT & FF).
      assert (K1 : (1 <= k)%nat). { destruct k; [|lia]. destruct E as [_ E]. assert (at_ A pred (y :: t2) 0 = true) by (apply PR; auto). congruence. }
      assert (SP : y :: t2 = firstn k (y :: t2) ++ skipn k (y :: t2)) by (symmetry; apply firstn_skipn).
      set (a := firstn k (y :: t2)) in *. set (b := skipn k (y :: t2)) in *.
      rewrite SP in S2. destruct (SS_app_inv _ _ S2) as (Sa & Sb & Sab).
      assert (LB : (length b < length (y :: t2))%nat) by (unfold b; rewrite skipn_length; cbn [length]; lia).
      clearbody a b. cbn [length] in L, LB.
      destruct (IH big' t1 b S1' Sb) as (r & big2 & -> & SR & ST); [lia|].
      simpl. exists (a ++ x :: r), big2. split; auto.
      assert (GB : forall u, In u b -> cmp x u <= 0).
      { intros u Hu. destruct b as [|v b']; [contradiction|].
        assert (cmp x v <= 0). { destruct (Z_lt_le_dec (cmp v x) 0) as [Q|Q]; [apply PR in Q; congruence|]. apply (sgn_flip x v); auto. }
        destruct Hu as [<-|Hu]; auto. apply trans with v; auto. inversion Sb; subst. rewrite Forall_forall in H3. auto. }
      rewrite Forall_forall in FT.
      assert (Y : forall z, In z r -> cmp x z <= 0).
      { intros z Hz. apply (Permutation_in z (Permutation_sym (proj1 ST))) in Hz.
        apply in_app_or in Hz. destruct Hz as [Hz|Hz]; auto. }
      split.
      * apply SS_app; auto.
        -- constructor; auto. apply Forall_forall. auto.
        -- intros u z Hu Hz. apply FT in Hu. apply PR in Hu. destruct Hz as [<-|Hz]; [lia|]. apply trans with x; auto. lia.
      * rewrite SP. replace (x :: t1 ++ a ++ b) with (((x :: t1) ++ a) ++ b) by (simpl; rewrite <- app_assoc; reflexivity).
        eapply stable_trans.
        -- apply stable_app; [|apply stable_refl]. apply (stable_move_block (x :: t1) a).
           intros u z Hu Hz. apply FT in Hu. apply PR in Hu. apply (sgn_flip u z). destruct Hz as [<-|Hz]; auto. apply trans_lt with x; auto.
        -- rewrite <- app_assoc. apply stable_app; [apply stable_refl|]. simpl. apply stable_cons. auto.
Qed.

Lemma pass_ok : forall n rs l big, (length rs <= n)%nat -> good l rs -> exists rs' big',
  pass A cmp big rs = Some (rs', big') /\ good l rs' /\ (rs <> [] -> rs' <> []) /\
  (length rs' <= length rs)%nat /\ ((2 <= length rs)%nat -> (length rs' < length rs)%nat).
Proof.
  induction n as [|n IH]; intros rs l big L G.
  - destruct rs; [|simpl in L; lia]. simpl. exists [], big. split; [auto|]. split; [auto|]. split; [auto|]. simpl. lia.
  - destruct rs as [|r1 [|r2 rest]].
    + simpl. exists [], big. split; [auto|]. split; [auto|]. split; [auto|]. simpl. lia.
    + simpl. exists [r1], big. split; [auto|]. split; [auto|]. split; [auto|]. simpl. lia.
    + cbn [pass]. destruct G as [F S]. inversion F as [|? ? Sr1 F']; subst. inversion F' as [|? ? Sr2 F'']; subst.
      destruct (merge_ok (length r1 + length r2) big r1 r2 Sr1 Sr2 (le_n _)) as (r & big1 & -> & SR & ST).
      destruct (IH rest (concat rest) big1) as (rs' & big2 & -> & [F2 S2] & N & L1 & L2).
      * simpl in L. lia.
      * split; auto. apply stable_refl.
      * simpl. exists (r :: rs'), big2. split; auto. split; [|split; [discriminate|split; simpl; lia]].
        split; auto. eapply stable_trans; [exact S|]. simpl. rewrite app_assoc. apply stable_app; auto.
Qed.

Lemma passes_ok : forall fuel big rs l, (length rs <= S fuel)%nat -> rs <> [] -> good l rs ->
  exists r, passes A cmp fuel big rs = Some r /\ SS r /\ stable l r.
Proof.
  induction fuel as [|f IH]; intros big rs l L N G.
  - destruct rs as [|r [|r2 rs]]; [congruence| |simpl in L; lia]. simpl. exists r. destruct G as [F S]. inversion F; subst.
    simpl in S. rewrite app_nil_r in S. auto.
  - destruct rs as [|r [|r2 rs]]; [congruence| |].
    + simpl. exists r. destruct G as [F S]. inversion F; subst. simpl in S. rewrite app_nil_r in S. auto.
    + cbn [passes]. destruct (pass_ok _ (r :: r2 :: rs) l big (le_n _) G) as (rs' & big' & -> & G' & N' & L1 & L2).
      apply IH; auto. simpl in *. lia.
Qed.

Theorem mergesort_ok : forall l, exists r, mergesort A cmp l = Some r /\
  Permutation l r /\ ordered cmp r /\ forall x, equals cmp x r = equals cmp x l.
Proof.
  intros l. destruct l as [|a l].
  - exists []. split; auto. split; auto. split; auto. intros i j x y _ X. destruct i; discriminate.
  - unfold mergesort. destruct (setup_ok (a :: l) (ltac:(intros XX; discriminate XX))) as (rs & -> & G & N).
    destruct (passes_ok (length rs) false rs (a :: l) ltac:(lia) N G) as (r & -> & S & [P E]).
    exists r. split; auto. split; auto. split; [apply SS_ordered; auto|]. auto.
Qed.
End P.
