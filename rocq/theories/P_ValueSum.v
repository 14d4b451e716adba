(** Which sums of symbols can be split (C71). *)
From Coq Require Import ZArith List Bool Lia Arith.
From Verif Require Import Lib M_BitVect P_BitVect M_Intnum P_Intnum M_Expr P_Expr P_ExprLevel P_ExprTree P_ExprTree2 P_ExprTop M_Value P_Value P_ValueTop.
Import ListNotations.
Open Scope Z_scope.

(** * Specification *)
Section Spec.
Variable label : Z -> option Z.
Variable sect : Z -> Z.
(** Labels of one section cancel; any other symbol only cancels itself. *)
Inductive class := CSect (s : Z) | CSym (s : Z).
Definition class_of (s : Z) : class := match label s with Some p => CSect (sect p) | None => CSym s end.
Definition class_eqb (a b : class) : bool :=
  match a, b with CSect x, CSect y => x =? y | CSym x, CSym y => x =? y | _, _ => false end.
(** The symbols added and the symbols subtracted in a sum. *)
Fixpoint plus (ts : list item) : list Z := match ts with [] => [] | TSym s :: r => s :: plus r | _ :: r => plus r end.
(** -1 times a symbol *)
Definition negated (t : item) : option Z :=
  match t with
  | TExpr MUL [TInt (IL l); TSym s] => if l =? -1 then Some s else None
  | TExpr MUL [TSym s; TInt (IL l)] => if l =? -1 then Some s else None
  | _ => None
  end.
Fixpoint minus (ts : list item) : list Z :=
  match ts with [] => [] | t :: r => match negated t with Some s => s :: minus r | None => minus r end end.
Definition count (c : class) (l : list Z) : nat := length (filter (fun s => class_eqb (class_of s) c) l).
(** Each subtracted symbol has an added one to cancel it, and at most one added symbol is left. *)
Definition balanced (ts : list item) : Prop :=
  (forall c, (count c (minus ts) <= count c (plus ts))%nat) /\ (length (plus ts) <= S (length (minus ts)))%nat.
(** Terms: symbols, numbers, registers; those negated; operators on numbers and registers. *)
Definition plain (t : item) : bool := match t with TSym _ | TExpr _ _ => false | _ => true end.
Definition term (t : item) : Prop :=
  match t with
  | TExpr o l => (exists s, negated t = Some s) \/ (other o /\ forallb plain l = true)
  | _ => True
  end.
End Spec.
Lemma neg_sym_negated : forall t, neg_sym t = negated t.
Proof.
  intros t. destruct t as [| | | | | | |o l]; auto. destruct o; auto. destruct l as [|a [|b [|c r]]]; auto; destruct a; auto; try (destruct b; auto).
  all: repeat match goal with |- context [TInt ?x] => is_var x; destruct x end; auto.
Qed.

Lemma class_eqb_ok : forall a b, class_eqb a b = true <-> a = b.
Proof. intros [x|x] [y|y]; cbn [class_eqb]; rewrite ?Z.eqb_eq; split; intros H; try discriminate; try congruence. Qed.

Section Sum.
Variable label : Z -> option Z.
Variable sect : Z -> Z.
Variable equ : Z -> option expr.
Variable curpos special : Z -> bool.
Variable precbc : option Z.
Variable dot : Z.
Notation cls := (class_of label sect).
Notation scan := (scan label sect equ curpos special precbc dot).
Notation addgo := (addgo label sect equ curpos special precbc dot).
Notation pair := (pair label sect equ curpos special precbc dot).
(** * Unused symbols *)
Definition has (q : Z -> bool) (t : item) : bool := match t with TSym s => q s | _ => false end.
Fixpoint avail (q : Z -> bool) (used : list nat) (j : nat) (l : list item) : nat :=
  match l with
  | [] => O
  | t :: r => ((if has q t && negb (mem j used) then 1 else 0) + avail q used (S j) r)%nat
  end.
Lemma mem_false : forall j l, mem j l = false <-> ~ In j l.
Proof.
  intros j l. unfold mem. split.
  - intros H I. assert (existsb (Nat.eqb j) l = true) by (apply existsb_exists; exists j; split; auto; apply Nat.eqb_refl). congruence.
  - intros H. destruct (existsb (Nat.eqb j) l) eqn:Q; auto. apply existsb_exists in Q. destruct Q as (x & I & E). apply Nat.eqb_eq in E. subst. tauto.
Qed.
Lemma avail_used : forall q used j l n, (n < j)%nat -> avail q (n :: used) j l = avail q used j l.
Proof.
  intros q used j l. revert j. induction l as [|t r IH]; intros j n H; auto. cbn [avail]. rewrite IH by lia. unfold mem. cbn [existsb]. destruct (Nat.eqb_spec j n); [lia|]. reflexivity.
Qed.
Lemma avail_find : forall q p used j0 l j, findi p used j0 l = Some j -> (forall t, p t = true -> exists s, t = TSym s) ->
  exists s, nth_error l (j - j0) = Some (TSym s) /\ p (TSym s) = true /\ (j0 <= j)%nat /\ avail q used j0 l = ((if q s then 1 else 0) + avail q (j :: used) j0 l)%nat.
Proof.
  intros q p used j0 l. revert j0. induction l as [|t r IH]; intros j0 j H P; cbn [findi] in H; [discriminate|]. cbn [avail]. destruct (p t && negb (mem j0 used)) eqn:Q.
  - injection H as <-. apply andb_true_iff in Q. destruct Q as [Q1 Q2]. destruct (P t Q1) as (s & ->). exists s. rewrite Nat.sub_diag. split; auto. split; auto. split; auto. rewrite avail_used by lia. cbn [has]. rewrite Q2. unfold mem at 1. cbn [existsb]. rewrite Nat.eqb_refl. cbn [orb negb]. rewrite andb_true_r, andb_false_r. lia.
  - destruct (IH (S j0) j H P) as (s & A & B & L & C). exists s. replace (j - j0)%nat with (S (j - S j0))%nat by lia. split; auto. split; auto. split; [lia|]. rewrite C. unfold mem. cbn [existsb]. destruct (Nat.eqb_spec j0 j); [lia|]. cbn [orb]. lia.
Qed.
Lemma avail_none : forall q p used j0 l, findi p used j0 l = None -> (forall s, q s = true -> p (TSym s) = true) -> avail q used j0 l = O.
Proof.
  intros q p used j0 l. revert j0. induction l as [|t r IH]; intros j0 H P; auto. cbn [findi] in H. destruct (p t && negb (mem j0 used)) eqn:Q; [discriminate|]. cbn [avail]. rewrite (IH (S j0) H P). destruct t as [| | | | |s| |]; try reflexivity. cbn [has]. destruct (q s) eqn:X; auto. rewrite (P s X) in Q. cbn [andb] in Q. rewrite Q. reflexivity.
Qed.
Lemma avail_upd : forall q used l i t j0, nth_error l i = Some t -> has q t && negb (mem (j0 + i) used) = false -> avail q used j0 (upd i zero l) = avail q used j0 l.
Proof.
  intros q used l. induction l as [|a r IH]; intros i t j0 N H; [destruct i; discriminate|]. destruct i as [|i]; cbn [nth_error] in N.
  - injection N as ->. rewrite Nat.add_0_r in H. unfold upd. cbn [firstn skipn app avail]. rewrite H. reflexivity.
  - change (upd (S i) zero (a :: r)) with (a :: upd i zero r). cbn [avail]. rewrite (IH i t (S j0)); auto. replace (S j0 + i)%nat with (j0 + S i)%nat by lia. exact H.
Qed.
Lemma avail_all : forall q j l, avail q [] j l = length (filter q (plus l)).
Proof.
  intros q j l. revert j. induction l as [|t r IH]; intros j; auto. cbn [avail]. rewrite IH. destruct t; try reflexivity. cbn [has plus filter mem existsb negb]. rewrite andb_true_r. destruct (q s); reflexivity.
Qed.

(** * One subtracted symbol *)
(** the special treatment of the current position does not apply *)
Definition away (v : val) (s : Z) : Prop := curpos s = false /\ (match label s, precbc with Some p, Some q => sect p <> sect q | _, _ => True end).
Definition inc (c : class) (s : Z) : bool := class_eqb (cls s) c.
Lemma pair_cases : forall s i cur used v a, nth_error cur i = Some a -> neg_sym a = Some s -> away v s ->
  (avail (inc (cls s)) used O cur <> O /\ exists cur' used', pair s i cur used v false = Some (LOk cur' used' v) /\
     (forall q, (forall x, cls x = cls s -> q x = q s) -> avail q used O cur = ((if q s then 1 else 0) + avail q used' O cur')%nat) /\
     (forall k b, nth_error cur k = Some b -> is_expr b = true -> k <> i -> nth_error cur' k = Some b) /\ (forall x, In (TSym x) cur' -> In (TSym x) cur)) \/
  (avail (inc (cls s)) used O cur = O /\ (pair s i cur used v false = Some LBad \/ pair s i cur used v false = None)).
Proof.
  intros s i cur used v a NI NS [AW1 AW2]. unfold M_Value.pair.
  assert (IE : is_expr a = true) by (apply neg_sym_inv in NS; destruct NS as (n & _ & [-> | ->]); reflexivity).
  destruct (findi (is_sym s) used 0 cur) as [j|] eqn:F1.
  - left. assert (PS : forall t, is_sym s t = true -> exists x, t = TSym x) by (intros t H; destruct t; try discriminate H; eauto).
    pose proof (avail_find (inc (cls s)) _ _ _ _ _ F1 PS) as (x & A & B & _ & C). cbn [is_sym] in B. apply Z.eqb_eq in B. subst x. rewrite Nat.sub_0_r in A.
    split; [unfold inc in C at 2; rewrite (proj2 (class_eqb_ok _ _) eq_refl) in C; lia|]. exists (upd i zero (upd j zero cur)), (j :: used). split; [reflexivity|].
    assert (JI : j <> i) by (intros ->; rewrite NI in A; injection A as ->; discriminate IE). assert (NI2 : nth_error (upd j zero cur) i = Some a) by (rewrite (upd_other j i cur (TSym s) zero); auto).
    split; [|split].
    + intros q Q. pose proof (avail_find q _ _ _ _ _ F1 PS) as (x & A' & B' & _ & C'). rewrite Nat.sub_0_r in A'. assert (x = s) by congruence. subst x. rewrite C'. f_equal. rewrite (avail_upd q _ _ i a), (avail_upd q _ _ j (TSym s)); auto.
      * cbn [Nat.add]. unfold mem. cbn [existsb]. rewrite Nat.eqb_refl. apply andb_false_r.
      * destruct a; try discriminate IE. reflexivity.
    + intros k b K X NE. rewrite (upd_other i k _ a zero) by auto. assert (j <> k) by (intros ->; rewrite A in K; injection K as <-; discriminate X). rewrite (upd_other j k _ (TSym s) zero); auto.
    + intros x IN. apply In_nth_error in IN. destruct IN as (k & K). destruct (Nat.eq_dec i k) as [<-|]; [rewrite (upd_same i _ a) in K by auto; discriminate K|]. rewrite (upd_other i k _ a zero) in K by auto. destruct (Nat.eq_dec j k) as [<-|]; [rewrite (upd_same j _ (TSym s)) in K by auto; discriminate K|]. rewrite (upd_other j k _ (TSym s) zero) in K by auto. eapply nth_error_In; eauto.
  - destruct (label s) as [p|] eqn:LB.
    + destruct (findi (in_sect label sect p) used 0 cur) as [j|] eqn:F2.
      * left. assert (PS : forall t, in_sect label sect p t = true -> exists x, t = TSym x) by (intros t H; destruct t; try discriminate H; eauto).
        assert (CL : forall x, in_sect label sect p (TSym x) = true -> cls x = cls s).
        { intros x H. cbn [in_sect] in H. unfold class_of. rewrite LB. destruct (label x) as [p2|]; [|discriminate]. apply Z.eqb_eq in H. congruence. }
        pose proof (avail_find (inc (cls s)) _ _ _ _ _ F2 PS) as (x & A & B & _ & C). split; [unfold inc in C at 2; rewrite (CL x B), (proj2 (class_eqb_ok _ _) eq_refl) in C; lia|]. exists cur, (j :: used). split; [reflexivity|]. split; [|auto].
        intros q Q. pose proof (avail_find q _ _ _ _ _ F2 PS) as (x' & A' & B' & _ & C'). rewrite <- (Q x' (CL x' B')). exact C'.
      * right. assert (CP : (curpos s || match precbc with Some q => sect p =? sect q | None => false end) = false).
        { rewrite AW1. cbn [orb]. destruct precbc as [q|]; auto. apply Z.eqb_neq. exact AW2. }
        rewrite CP, andb_false_r. split; [|auto]. apply (avail_none _ (in_sect label sect p)); auto. intros x H. unfold inc in H. apply class_eqb_ok in H. unfold class_of in H. rewrite LB in H. cbn [in_sect]. destruct (label x); [|discriminate H]. injection H as ->. apply Z.eqb_refl.
    + right. split; auto. apply (avail_none _ (is_sym s)); auto. intros x H. unfold inc in H. apply class_eqb_ok in H. unfold class_of in H. rewrite LB in H. destruct (label x); [discriminate H|]. injection H as ->. apply Z.eqb_refl.
Qed.
Lemma scan_neg : forall a s v, neg_sym a = Some s -> scan a v false = SBad.
Proof.
  intros a s v H. apply neg_sym_inv in H. destruct H as (n & _ & [-> | ->]); reflexivity.
Qed.
Lemma scan_plain : forall o l v, other o -> forallb plain l = true -> scan (TExpr o l) v false = SOk (TExpr o l) v.
Proof.
  intros o l v OT P. rewrite scan_other by auto. generalize (@nil item). revert P. generalize (TExpr o l) as t. induction l as [|a r IH]; intros t P pre; [reflexivity|]. cbn [forallb] in P. apply andb_true_iff in P. destruct P as [P1 P2]. cbn [defgo]. fold (defgo label sect equ curpos special precbc dot o t v). destruct a; try discriminate P1; apply IH; auto.
Qed.
Lemma upd_id : forall i l (t : item), nth_error l i = Some t -> upd i t l = l.
Proof. intros i l t H. apply nth_mid in H. destruct H as (A & B & -> & <-). apply upd_mid. Qed.
Lemma inc_congr : forall c s x, cls x = cls s -> inc c x = inc c s. Proof. intros c s x H. unfold inc. rewrite H. auto. Qed.
Lemma count_cons : forall c s l, count label sect c (s :: l) = ((if inc c s then 1 else 0) + count label sect c l)%nat.
Proof. intros c s l. unfold count, inc. cbn [filter]. destruct (class_eqb (cls s) c); reflexivity. Qed.
Lemma existsb_same : forall A (f g : A -> bool) l, (forall x, f x = g x) -> existsb f l = existsb g l.
Proof. intros A f g l H. induction l as [|a r IH]; cbn [existsb]; auto. rewrite H, IH. auto. Qed.
Lemma addgo_sum : forall l i cur used v, Forall term l -> (forall s, In s (minus l) -> away v s) -> agree i l cur ->
  if existsb (fun s => avail (inc (cls s)) used O cur <? count label sect (cls s) (minus l))%nat (minus l)
  then addgo false i l cur used v = LBad
  else exists cur' used', addgo false i l cur used v = LOk cur' used' v /\
       (forall c, avail (inc c) used O cur = (count label sect c (minus l) + avail (inc c) used' O cur')%nat) /\
       avail (fun _ => true) used O cur = (length (minus l) + avail (fun _ => true) used' O cur')%nat /\ (forall x, In (TSym x) cur' -> In (TSym x) cur).
Proof.
  induction l as [|a r IH]; intros i cur used v TL AW AG.
  - cbn [minus existsb]. exists cur, used. repeat split; auto.
  - inversion TL as [|? ? T1 T2]; subst. pose proof (agree_tl _ _ _ _ AG) as AG2.
    assert (SKIP : neg_sym a = None -> minus (a :: r) = minus r) by (intros Q; cbn [minus]; rewrite <- neg_sym_negated, Q; auto).
    destruct (is_expr a) eqn:IE.
    2:{ assert (NS : neg_sym a = None) by (destruct a; try discriminate IE; auto). rewrite (SKIP NS). assert (Q : addgo false i (a :: r) cur used v = addgo false (S i) r cur used v) by (destruct a; try discriminate IE; reflexivity). rewrite Q. apply IH; auto. intros s I. apply AW. rewrite (SKIP NS). auto. }
    pose proof (AG O a eq_refl IE) as NI. rewrite Nat.add_0_r in NI. destruct a as [| | | | | | |o ts] eqn:EA; try discriminate IE. rewrite <- EA in *.
    assert (UN : addgo false i (a :: r) cur used v = match neg_sym a with
       | None => match scan a v false with SOk a' v' => addgo false (S i) r (put i a' cur) used v' | SBad => LBad | SFatal => LFatal end
       | Some s => match pair s i cur used v false with
                   | None => match scan a v false with SOk a' v' => addgo false (S i) r (put i a' cur) used v' | SBad => LBad | SFatal => LFatal end
                   | Some (LOk cur' used' v') => addgo false (S i) r cur' used' v' | Some x => x end end) by (subst a; reflexivity).
    rewrite UN. clear UN. destruct (neg_sym a) as [s|] eqn:NS.
    + assert (MI : minus (a :: r) = s :: minus r) by (cbn [minus]; rewrite <- neg_sym_negated, NS; auto). rewrite MI. assert (AWs : away v s) by (apply AW; rewrite MI; left; auto).
      destruct (pair_cases s i cur used v a NI NS AWs) as [(AV & cur' & used' & PR & CN & KP & SB)|(AV & PR)].
      * rewrite PR. assert (AG3 : agree (S i) r cur').
        { intros k b K X. apply (KP _ b (AG2 k b K X) X). lia. }
        assert (E1 : forall c, avail (inc c) used 0 cur = ((if inc c s then 1 else 0) + avail (inc c) used' 0 cur')%nat) by (intros c; apply CN; intros x; apply inc_congr).
        pose proof (IH (S i) cur' used' v T2 ltac:(intros x I; apply AW; rewrite MI; right; auto) AG3) as R.
        assert (EX : existsb (fun x => (avail (inc (cls x)) used 0 cur <? count label sect (cls x) (s :: minus r))%nat) (s :: minus r) = existsb (fun x => (avail (inc (cls x)) used' 0 cur' <? count label sect (cls x) (minus r))%nat) (minus r)).
        { assert (EQ : forall x, (avail (inc (cls x)) used 0 cur <? count label sect (cls x) (s :: minus r))%nat = (avail (inc (cls x)) used' 0 cur' <? count label sect (cls x) (minus r))%nat).
          { intros x. rewrite E1, count_cons. destruct (inc (cls x) s); [|reflexivity]. destruct (Nat.ltb_spec (1 + avail (inc (cls x)) used' 0 cur') (1 + count label sect (cls x) (minus r))), (Nat.ltb_spec (avail (inc (cls x)) used' 0 cur') (count label sect (cls x) (minus r))); auto; lia. }
          rewrite (existsb_same _ _ _ (s :: minus r) EQ).
          cbn [existsb]. destruct (Nat.ltb_spec (avail (inc (cls s)) used' 0 cur') (count label sect (cls s) (minus r))) as [LT|]; auto. cbn [orb]. symmetry. apply existsb_exists.
          assert (POS : (0 < count label sect (cls s) (minus r))%nat) by lia. unfold count in POS. destruct (filter (fun s0 => class_eqb (cls s0) (cls s)) (minus r)) as [|y m] eqn:FL; [cbn [length] in POS; lia|].
          assert (IN : In y (filter (fun s0 => class_eqb (cls s0) (cls s)) (minus r))) by (rewrite FL; left; auto). apply filter_In in IN. destruct IN as [IN CE]. apply class_eqb_ok in CE. exists y. split; auto. rewrite CE. apply Nat.ltb_lt. exact LT. }
        rewrite EX. clear EX. destruct (existsb _ (minus r)); [exact R|]. destruct R as (c2 & u2 & R1 & R2 & R3 & R4). exists c2, u2. split; auto. split; [intros c; rewrite E1, R2, count_cons; lia|]. split; [rewrite (CN (fun _ => true)) by auto; rewrite R3; cbn [length]; lia|]. auto.
      * assert (EX : existsb (fun x => (avail (inc (cls x)) used 0 cur <? count label sect (cls x) (s :: minus r))%nat) (s :: minus r) = true).
        { cbn [existsb]. rewrite AV, count_cons. unfold inc at 1. rewrite (proj2 (class_eqb_ok _ _) eq_refl). reflexivity. }
        rewrite EX. destruct PR as [-> | ->]; auto. rewrite (scan_neg a s) by auto. reflexivity.
    + rewrite (SKIP eq_refl). assert (T3 : other o /\ forallb plain ts = true) by (subst a; destruct T1 as [[s X]|X]; auto; rewrite <- neg_sym_negated in X; congruence).
      assert (SC : scan a v false = SOk a v) by (subst a; apply scan_plain; tauto). rewrite SC, put_upd, upd_id by auto. apply IH; auto. intros s I. apply AW. rewrite (SKIP eq_refl). auto.
Qed.
Lemma leftover_sum : forall l i used v, rel v = None ->
  match avail (fun _ => true) used i l with
  | O => leftover i l used v false = Some (l, v)
  | S O => exists s l', leftover i l used v false = Some (l', set_rel v s false) /\ In (TSym s) l /\ forall c, avail (inc c) used i l = if inc c s then 1%nat else O
  | _ => leftover i l used v false = None
  end.
Proof.
  assert (SOME : forall l i used v s, rel v = Some s -> leftover i l used v false = if (avail (fun _ => true) used i l =? 0)%nat then Some (l, v) else None).
  { induction l as [|t r IH]; intros i used v s H; auto. cbn [leftover avail]. rewrite (IH (S i) used v s H). destruct t as [| | | | |x| |]; cbn [has andb Nat.add]; try (destruct (avail (fun _ => true) used (S i) r =? 0)%nat; reflexivity).
    destruct (mem i used); cbn [negb Nat.add]; [destruct (avail (fun _ => true) used (S i) r =? 0)%nat; reflexivity|]. rewrite H. reflexivity. }
  assert (ZERO : forall l i used q, avail (fun _ => true) used i l = O -> avail q used i l = O).
  { induction l as [|t r IH]; intros i used q H; auto. cbn [avail] in *. rewrite (IH (S i) used q) by lia. destruct t; auto. cbn [has] in *. destruct (mem i used); cbn [negb andb] in *; [rewrite andb_false_r; auto|lia]. }
  induction l as [|t r IH]; intros i used v RN; [reflexivity|]. cbn [leftover avail]. specialize (IH (S i) used v RN). destruct t as [| | | | |x| |] eqn:ET.
  6:{ cbn [has]. destruct (mem i used) eqn:M; cbn [negb andb Nat.add].
    - destruct (avail (fun _ => true) used (S i) r) as [|[|n]]; [rewrite IH; auto| |rewrite IH; auto]. destruct IH as (s & l' & A & B & C). exists s, (TSym x :: l'). rewrite A. split; auto. split; [right; auto|]. intros c. rewrite andb_false_r, C. reflexivity.
    - rewrite RN. cbn [is_none negb orb]. rewrite (SOME r (S i) used (set_rel v x false) x eq_refl). destruct (avail (fun _ => true) used (S i) r) as [|n] eqn:A.
      + cbn [Nat.eqb]. exists x, (zero :: r). split; auto. split; [left; auto|]. intros c. rewrite (ZERO r (S i) used (inc c) A). rewrite andb_true_r. destruct (inc c x); reflexivity.
      + cbn [Nat.eqb]. reflexivity. }
  all: cbn [has andb Nat.add]; destruct (avail (fun _ => true) used (S i) r) as [|[|nn]]; [rewrite IH; auto| |rewrite IH; auto]; destruct IH as (sx & l' & A & B & C); rewrite A; exists sx; eexists; split; [reflexivity|]; split; [right; auto|]; intros c; rewrite C; reflexivity.
Qed.

(** * Sums *)
Lemma count_le : forall (m : list Z) p c, (forall s, In s m -> (count label sect (cls s) m <= p (cls s))%nat) -> (count label sect c m <= p c)%nat.
Proof.
  intros m p c H. destruct (filter (fun s => class_eqb (cls s) c) m) as [|y l] eqn:FL; [unfold count; rewrite FL; cbn [length]; lia|].
  assert (IN : In y (filter (fun s => class_eqb (cls s) c) m)) by (rewrite FL; left; auto). apply filter_In in IN. destruct IN as [IN CE]. apply class_eqb_ok in CE. rewrite <- CE. auto.
Qed.
Lemma plus_in : forall s ts, In (TSym s) ts <-> In s (plus ts).
Proof.
  intros s ts. induction ts as [|t r IH]; [split; intros []|]. cbn [In]. rewrite IH. destruct t; cbn [plus In]; split; intros H; auto; try (destruct H as [H|H]; [discriminate H|auto]); destruct H as [H|H]; auto; left; congruence.
Qed.
Lemma scan_sum : forall ts v, (length ts <= 32)%nat -> Forall term ts -> (forall s, In s (minus ts) -> away v s) -> rel v = None ->
  (balanced label sect ts /\ exists ts' v', scan (TExpr ADD ts) v false = SOk (TExpr ADD ts') v' /\
     match rel v' with
     | None => v' = v /\ length (plus ts) = length (minus ts)
     | Some s => v' = set_rel v s false /\ In s (plus ts) /\ forall c, count label sect c (plus ts) = (count label sect c (minus ts) + if class_eqb (cls s) c then 1 else 0)%nat
     end) \/
  (~ balanced label sect ts /\ scan (TExpr ADD ts) v false = SBad).
Proof.
  intros ts v LN TS AW RN. rewrite scan_add. destruct (Nat.ltb_spec 32 (length ts)); [lia|]. pose proof (addgo_sum ts O ts [] v TS AW ltac:(intros k a K _; exact K)) as AD.
  assert (AC : forall c, avail (inc c) [] O ts = count label sect c (plus ts)) by (intros c; apply avail_all).
  assert (AT : avail (fun _ => true) [] O ts = length (plus ts)) by (rewrite avail_all; f_equal; clear; induction (plus ts); cbn [filter]; congruence).
  destruct (existsb _ (minus ts)) eqn:EX.
  - right. rewrite AD. split; auto. intros [B _]. apply existsb_exists in EX. destruct EX as (s & _ & LT). apply Nat.ltb_lt in LT. rewrite AC in LT. specialize (B (cls s)). lia.
  - destruct AD as (cur' & used' & -> & C1 & C2 & C3). pose proof (leftover_sum cur' O used' v RN) as LO.
    assert (BC : forall c, (count label sect c (minus ts) <= count label sect c (plus ts))%nat) by (intros c; rewrite <- AC, C1; lia). rewrite AT in C2.
    destruct (avail (fun _ => true) used' 0 cur') as [|[|n]] eqn:AV.
    + left. split; [split; auto; lia|]. rewrite LO. exists cur', v. split; auto. rewrite RN. split; auto. lia.
    + left. split; [split; auto; lia|]. destruct LO as (s & l' & -> & IN & CC). exists l', (set_rel v s false). split; auto. cbn [rel set_rel]. split; auto. split; [apply plus_in; auto|]. intros c. rewrite <- AC, C1, CC. reflexivity.
    + right. rewrite LO. split; auto. intros [_ B]. lia.
Qed.

Lemma finalize_sum : forall nequ e sz ts st, level_tree nequ equ true true false [] e = Fin ((ADD, ts), st, false) ->
  (length ts <= 32)%nat -> Forall term ts -> (forall s, In s (minus ts) -> curpos s = false /\ match label s, precbc with Some p, Some q => sect p <> sect q | _, _ => True end) ->
  (finalize_expr label sect equ curpos special precbc dot nequ false (Some e) sz = FBad <-> ~ balanced label sect ts) /\
  forall v, finalize_expr label sect equ curpos special precbc dot nequ false (Some e) sz = FOk v ->
    curpos_rel v = false /\ wrt v = None /\ segof v = false /\ rshift v = 0 /\ no_warn v = false /\
    match rel v with
    | None => length (plus ts) = length (minus ts)
    | Some s => In s (plus ts) /\ forall c, count label sect c (plus ts) = (count label sect c (minus ts) + if class_eqb (cls s) c then 1 else 0)%nat
    end.
Proof.
  intros nequ e sz ts st LV LN TS AW. set (v0 := init (Some e) sz). assert (FE : finalize_expr label sect equ curpos special precbc dot nequ false (Some e) sz = finish label sect equ curpos special precbc dot nequ v0 (TExpr ADD ts)).
  { unfold finalize_expr, finalize. cbn [abs init]. rewrite LV. reflexivity. }
  rewrite FE. unfold finish. destruct (scan_sum ts v0 LN TS AW eq_refl) as [(B & ts' & v' & -> & RV)|(B & ->)].
  - split.
    + split; [|intros N; contradiction]. destruct (level_tree nequ equ true true false [] (of_item (TExpr ADD ts'))) as [[[e' st'] b]| |]; discriminate.
    + intros v H. destruct (level_tree nequ equ true true false [] (of_item (TExpr ADD ts'))) as [[[e' st'] b]| |]; try discriminate. injection H as <-. cbn [curpos_rel wrt segof rshift no_warn rel set_abs]. destruct (rel v') as [s|]; destruct RV as (-> & RV); repeat split; apply RV.
  - split; [tauto|]. discriminate.
Qed.
End Sum.
