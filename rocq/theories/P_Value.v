(** Specification of values and proofs for splitting an expression (C70). *)
From Coq Require Import ZArith List Bool Lia Permutation Arith.
From Verif Require Import Lib M_BitVect P_BitVect P_BitVectIO M_Intnum P_Intnum P_IntnumIO M_Expr P_Expr P_ExprLevel P_ExprTree P_ExprTree2 P_ExprTop M_Value.
Import ListNotations.
Open Scope Z_scope.

(** * Specification *)
(** The number a symbol stands for. *)
Definition symnum (E : env) (s : Z) : option Z := match symv E s with Some (VNum z) => Some (wrap256 z) | _ => None end.
(** The number its segment stands for. *)
Definition symseg (E : env) (s : Z) : option Z :=
  match symv E s with Some (VNum z) => Some (wrap256 (segf E (wrap256 z))) | Some (VPair a _) => Some (wrap256 a) | None => None end.
(** What the parts other than the absolute one add up to: the symbol or its segment, shifted right,
    less the current position [pos], less the base of the symbol it is taken with respect to. *)
Definition parts (base : Z -> Z) (pos : Z) (E : env) (v : val) : option Z :=
  match match rel v with None => Some 0 | Some s => if segof v then symseg E s else symnum E s end,
        match wrt v with None => Some 0 | Some s => option_map base (symnum E s) end with
  | Some r, Some w => Some (r / 2 ^ rshift v - (if curpos_rel v then pos else 0) - w)
  | _, _ => None
  end.
(** What a value stands for. *)
Definition means (base : Z -> Z) (pos : Z) (E : env) (v : val) : option Z :=
  match match abs v with None => Some (VNum 0) | Some e => eval E e end, parts base pos E v with
  | Some (VNum a), Some d => Some (a + d)
  | _, _ => None
  end.
(** Expressions that can be split faithfully: a symbol is shifted right only by 0 to 2^31-1 (in its normal form), and WRT
    a symbol is applied only to the whole or to a term of a sum. *)
Fixpoint tame (deep : bool) (t : item) : Prop :=
  match t with
  | TExpr o ts =>
      (o = SHR -> match ts with TSym _ :: TInt n :: _ => canonb n = true /\ 0 <= ival n < 2 ^ 31 | _ => True end) /\
      (o = WRT -> deep = true -> match ts with _ :: TSym _ :: _ => False | _ => True end) /\
      (fix all l := match l with [] => True | a :: r => tame (deep || negb (op_eq o ADD || op_eq o WRT)) a /\ all r end) ts
  | _ => True
  end.

Lemma tame_expr : forall d o ts, tame d (TExpr o ts) <->
  (o = SHR -> match ts with TSym _ :: TInt n :: _ => canonb n = true /\ 0 <= ival n < 2 ^ 31 | _ => True end) /\
  (o = WRT -> d = true -> match ts with _ :: TSym _ :: _ => False | _ => True end) /\
  Forall (tame (d || negb (op_eq o ADD || op_eq o WRT))) ts.
Proof.
  intros d o ts. cbn [tame]. set (d' := d || _). clearbody d'. assert (K : forall l, (fix all l := match l with [] => True | a :: r => tame d' a /\ all r end) l <-> Forall (tame d') l).
  { induction l as [|a r IH]; [split; auto|]. split; [intros [A B]; constructor; auto; apply IH; auto|intros H; inversion H; subst; split; auto; apply IH; auto]. }
  rewrite K. reflexivity.
Qed.
Lemma tame_mono : forall t, tame true t -> tame false t.
Proof.
  intros t. induction t as [| | | | | | |o ts IH] using item_ind2; intros H; auto. apply tame_expr in H. destruct H as (A & B & C). apply tame_expr. split; auto. split; [discriminate|].
  cbn [orb] in *. destruct (negb (op_eq o ADD || op_eq o WRT)); auto. rewrite Forall_forall in *. auto.
Qed.

(** * Numbers of symbols *)
Lemma ev_sym : forall E s z, ev E (TSym s) = Some (VNum z) <-> symnum E s = Some z.
Proof.
  intros E s z. cbn [ev]. unfold symnum. destruct (symv E s) as [[x|a b]|]; cbn [option_map wrapv]; split; intros H; try discriminate; injection H as <-; auto.
Qed.
Lemma ev_zero : forall E, ev E zero = Some (VNum 0). Proof. intros. reflexivity. Qed.
Lemma sv_num : forall E t z, ev E t = Some (VNum z) -> sv E t = z. Proof. intros E t z H. unfold sv. rewrite H. reflexivity. Qed.
Lemma sv_zero : forall E, sv E zero = 0. Proof. reflexivity. Qed.
Definition isnum (E : env) (t : item) : Prop := exists z, ev E t = Some (VNum z).
Lemma isnum_sv : forall E t, isnum E t -> ev E t = Some (VNum (sv E t)).
Proof. intros E t [z H]. rewrite H, (sv_num E t z H). auto. Qed.
Lemma evn_total : forall E ts zs, evn E ts zs -> fold_right Z.add 0 zs = total E ts.
Proof. intros E ts zs H. induction H as [|t z ts zs A B IH]; auto. cbn [fold_right total]. rewrite (sv_num _ _ _ A), IH. reflexivity. Qed.
Lemma evn_isnum : forall E ts, Forall (isnum E) ts <-> exists zs, evn E ts zs.
Proof.
  intros E ts. split.
  - intros H. induction H as [|t ts [z A] B [zs IH]]; [exists []; constructor|]. exists (z :: zs). constructor; auto.
  - intros [zs H]. induction H as [|t z ts zs A B IH]; constructor; auto. exists z. auto.
Qed.
Lemma ev_add : forall E ts z, ev E (TExpr ADD ts) = Some (VNum z) <-> (2 <= length ts)%nat /\ Forall (isnum E) ts /\ z = wrap256 (total E ts).
Proof.
  intros E ts z. rewrite ev_nary by reflexivity. split.
  - intros (L & w & Q & zs & A & B). injection Q as <-. split; auto. split; [apply evn_isnum; eauto|]. apply asem_fl in B. destruct B as (_ & _ & <-). rewrite fl_add by (apply (evn_R E ts); auto). rewrite (evn_total E ts); auto.
  - intros (L & N & ->). split; auto. exists (wrap256 (total E ts)). split; auto. apply evn_isnum in N. destruct N as [zs A]. rewrite <- (evn_total E ts zs A). apply sem_add; auto. intros ->. cbn in L. lia.
Qed.
Lemma ev_pair_add : forall E ts a b, ev E (TExpr ADD ts) = Some (VPair a b) -> False.
Proof. intros E ts a b H. apply ev_nary in H; auto. destruct H as (_ & w & Q & _). discriminate Q. Qed.
Lemma neg_sym_inv : forall t s, neg_sym t = Some s -> exists n, is_neg1 n = true /\ (t = TExpr MUL [TInt n; TSym s] \/ t = TExpr MUL [TSym s; TInt n]).
Proof.
  intros t s H. destruct t as [| | | | | | |o ts]; try discriminate H. destruct o; try discriminate H.
  destruct ts as [|a [|b [|c r]]]; try discriminate H; [destruct a; discriminate H| |destruct a; try discriminate H; destruct b; discriminate H].
  cbn [neg_sym] in H. destruct a; try discriminate H; destruct b; try discriminate H; destruct (is_neg1 _) eqn:Q in H; try discriminate H; injection H as <-; eexists; (split; [exact Q|]); auto.
Qed.
Lemma neg_sym_ev : forall E t s z, neg_sym t = Some s -> ev E t = Some (VNum z) -> exists x, symnum E s = Some x /\ z = wrap256 (- x).
Proof.
  intros E t s z N V. apply neg_sym_inv in N. destruct N as (n & N & T).
  assert (S : sem E MUL [TInt n; TSym s] z).
  { destruct T as [-> | ->]; apply ev_nary in V; auto; destruct V as (_ & w & Q & S); injection Q as <-; auto. eapply sem_perm; [|exact S]. apply perm_swap. }
  destruct S as (zs & A & D). inversion A as [|? z1 ? ? A1 A2]; subst. inversion A2 as [|? z2 ? ? A3 A4]; subst. inversion A4; subst. apply (neg1_ev E n) in A1; auto. apply ev_sym in A3. subst. exists z2. split; auto.
  apply asem_fl in D. destruct D as (_ & _ & D). cbn [fl fold_left comb] in D. rewrite <- D. f_equal.
Qed.

(** * Steps *)
Section Value.
Variable label : Z -> option Z.
Variable sect : Z -> Z.
Variable equ : Z -> option expr.
Variable curpos special : Z -> bool.
Variable precbc : option Z.
Variable dot : Z.
Variable base : Z -> Z.
Variable pos : Z.
(** WRT is the distance from the base; the symbols of the current position have its value. *)
Definition env_value (E : env) : Prop :=
  (forall a b, wrtf E a b = a - base b) /\ (forall s, curpos s = true \/ s = dot -> symv E s = Some (VNum pos)).
Notation parts := (parts base pos).
(** a value being built: without a symbol there is nothing that applies to it *)
Definition sane (v : val) : Prop := (rel v = None -> rshift v = 0 /\ segof v = false /\ curpos_rel v = false) /\ (curpos_rel v = true -> rshift v = 0) /\ 0 <= rshift v.
Definition same (v v' : val) : Prop := abs v' = abs v /\ no_warn v' = no_warn v /\ size v' = size v /\ ip_rel v' = ip_rel v /\ jump_target v' = jump_target v /\ section_rel v' = section_rel v /\ signed v' = signed v.
Definition moved (ssym : bool) (E : env) (v v' : val) (d : Z) : Prop :=
  (ssym = true -> d = 0) /\ forall x, parts E v = Some x -> parts E v' = Some (x + d).
Lemma same_refl : forall v, same v v. Proof. intros v. repeat split. Qed.
Lemma same_trans : forall a b c, same a b -> same b c -> same a c.
Proof. unfold same. intros a b c (A1 & A2 & A3 & A4 & A5 & A6 & A7) (B1 & B2 & B3 & B4 & B5 & B6 & B7). repeat split; congruence. Qed.
Lemma moved_refl : forall ssym E v, moved ssym E v v 0. Proof. intros. split; auto. intros x H. rewrite H. f_equal. lia. Qed.
Lemma moved_trans : forall ssym E a b c d1 d2, moved ssym E a b d1 -> moved ssym E b c d2 -> moved ssym E a c (d1 + d2).
Proof. intros ssym E a b c d1 d2 [A1 A2] [B1 B2]. split; [intros S; rewrite A1, B1 by auto; reflexivity|]. intros x H. apply A2 in H. apply B2 in H. rewrite H. f_equal. lia. Qed.
(** the four ways to take a part out *)
Lemma none_rel : forall (v : val) (b : bool), (negb (is_none (rel v)) || b) = false -> rel v = None /\ b = false.
Proof. intros v b H. apply orb_false_iff in H. destruct H as [A B]. destruct (rel v); [discriminate A|]. auto. Qed.
Lemma set_rel_ok : forall v s cr, rel v = None -> sane v -> sane (set_rel v s cr) /\ same v (set_rel v s cr) /\
  forall E x, symnum E s = Some x -> moved false E v (set_rel v s cr) (x - if cr then pos else 0).
Proof.
  intros v s cr N (S1 & S2 & S3). destruct (S1 N) as (A & B & C). split; [split; [discriminate|cbn [rshift set_rel curpos_rel]; auto]|]. split; [repeat split|].
  intros E x H. split; [discriminate|]. intros y P. unfold P_Value.parts in *. cbn [rel segof rshift curpos_rel wrt set_rel] in *. rewrite N, A, B, C in *. rewrite H. destruct (match wrt v with None => _ | Some _ => _ end) as [w|]; [|discriminate]. injection P as <-. rewrite orb_false_r. f_equal. change (2 ^ 0) with 1. rewrite !Z.div_1_r. destruct cr; lia.
Qed.
Lemma set_seg_ok : forall v s, rel v = None -> sane v -> sane (set_seg v s) /\ same v (set_seg v s) /\
  forall E x, symseg E s = Some x -> moved false E v (set_seg v s) x.
Proof.
  intros v s N (S1 & S2 & S3). destruct (S1 N) as (A & B & C). split; [split; [discriminate|split; [exact S2|exact S3]]|]. split; [repeat split|].
  intros E x H. split; [discriminate|]. intros y P. unfold P_Value.parts in *. cbn [rel segof rshift curpos_rel wrt set_seg] in *. rewrite N, A, C in *. rewrite H. destruct (match wrt v with None => _ | Some _ => _ end) as [w|]; [|discriminate]. injection P as <-. f_equal. change (2 ^ 0) with 1. rewrite !Z.div_1_r. lia.
Qed.
Lemma set_shift_ok : forall v s n, 0 <= n -> rel v = None -> sane v -> sane (set_shift v s n) /\ same v (set_shift v s n) /\
  forall E x, symnum E s = Some x -> moved false E v (set_shift v s n) (x / 2 ^ n).
Proof.
  intros v s n NN N (S1 & S2 & S3). destruct (S1 N) as (A & B & C). split; [split; [discriminate|cbn [rshift set_shift curpos_rel]; rewrite C; split; [discriminate|lia]]|]. split; [repeat split|].
  intros E x H. split; [discriminate|]. intros y P. unfold P_Value.parts in *. cbn [rel segof rshift curpos_rel wrt set_shift] in *. rewrite N, A, B, C in *. rewrite H. destruct (match wrt v with None => _ | Some _ => _ end) as [w|]; [|discriminate]. injection P as <-. f_equal. rewrite Z.add_0_l. change (0 / 2 ^ 0) with 0. lia.
Qed.
Lemma set_wrt_ok : forall v s, wrt v = None -> sane v -> sane (set_wrt v s) /\ same v (set_wrt v s) /\
  forall E x, symnum E s = Some x -> moved false E v (set_wrt v s) (- base x).
Proof.
  intros v s N (S1 & S2 & S3). split; [split; [exact S1|split; [exact S2|exact S3]]|]. split; [repeat split|].
  intros E x H. split; [discriminate|]. intros y P. unfold P_Value.parts in *. cbn [rel segof rshift curpos_rel wrt set_wrt] in *. rewrite N in *. rewrite H. cbn [option_map]. destruct (match rel v with None => _ | Some _ => _ end) as [w|]; [|discriminate]. injection P as <-. f_equal. lia.
Qed.

(** * The terms of a sum *)
Lemma findi_ok : forall p used l j0 j, findi p used j0 l = Some j -> (j0 <= j)%nat /\ exists t, nth_error l (j - j0) = Some t /\ p t = true.
Proof.
  intros p used l. induction l as [|t r IH]; intros j0 j H; cbn [findi] in H; [discriminate|]. destruct (p t && negb (mem j0 used)) eqn:Q.
  - injection H as <-. split; auto. rewrite Nat.sub_diag. exists t. split; auto. apply andb_true_iff in Q. tauto.
  - apply IH in H. destruct H as (L & t' & A & B). split; [lia|]. exists t'. split; auto. replace (j - j0)%nat with (S (j - S j0))%nat by lia. exact A.
Qed.
Lemma findi0 : forall p used l j, findi p used O l = Some j -> exists t, nth_error l j = Some t /\ p t = true.
Proof. intros p used l j H. apply findi_ok in H. destruct H as (_ & H). rewrite Nat.sub_0_r in H. exact H. Qed.
Lemma put_upd : forall i x l, put i x l = upd i x l. Proof. reflexivity. Qed.
(** [cur] still has the expressions of [l], from [i] on *)
Definition agree (i : nat) (l cur : list item) : Prop := forall k a, nth_error l k = Some a -> is_expr a = true -> nth_error cur (i + k) = Some a.
Lemma agree_tl : forall i a l cur, agree i (a :: l) cur -> agree (S i) l cur.
Proof. intros i a l cur H k b K X. specialize (H (S k) b K X). replace (S i + k)%nat with (i + S k)%nat by lia. exact H. Qed.
Lemma agree_put : forall i l cur j t x, agree i l cur -> nth_error cur j = Some t -> (is_expr t = false \/ (j < i)%nat) -> agree i l (upd j x cur).
Proof.
  intros i l cur j t x A N Q k a K X. pose proof (A k a K X) as B. destruct (Nat.eq_dec j (i + k)) as [->|NE]; [|rewrite (upd_other j _ cur t x); auto]. destruct Q as [Q|Q]; [|lia]. congruence.
Qed.
Definition Sum (ssym : bool) (cur cur' : list item) (v v' : val) : Prop :=
  length cur' = length cur /\ Forall shaped cur' /\ sane v' /\ same v v' /\ (ssym = true -> v' = v) /\
  forall E, env_value E -> Forall (isnum E) cur -> exists d, moved ssym E v v' d /\ Forall (isnum E) cur' /\ wrap256 (total E cur' + d) = wrap256 (total E cur).
Lemma Sum_refl : forall ssym cur v, Forall shaped cur -> sane v -> Sum ssym cur cur v v.
Proof. intros ssym cur v H S. split; auto. split; auto. split; auto. split; [apply same_refl|]. split; auto. intros E _ N. exists 0. split; [apply moved_refl|]. split; auto. f_equal. lia. Qed.
Lemma Sum_trans : forall ssym a b c v1 v2 v3, Sum ssym a b v1 v2 -> Sum ssym b c v2 v3 -> Sum ssym a c v1 v3.
Proof.
  intros ssym a b c v1 v2 v3 (L1 & S1 & W1 & M1 & V1 & E1) (L2 & S2 & W2 & M2 & V2 & E2). split; [congruence|]. split; auto. split; auto. split; [eapply same_trans; eauto|]. split; [intros Q; rewrite V2, V1; auto|].
  intros E K N. destruct (E1 E K N) as (d1 & D1 & N1 & T1). destruct (E2 E K N1) as (d2 & D2 & N2 & T2). exists (d1 + d2). split; [eapply moved_trans; eauto|]. split; auto.
  replace (total E c + (d1 + d2)) with ((total E c + d2) + d1) by lia. rewrite <- wrap_add_l, T2, wrap_add_l. exact T1.
Qed.
Lemma upd_Forall2 : forall (Q : item -> Prop) i l x, Forall Q l -> Q x -> (exists t, nth_error l i = Some t) -> Forall Q (upd i x l).
Proof. intros Q i l x F X [t H]. apply (upd_all Q i l t); auto. Qed.
Lemma isnum_nth : forall E l j t, Forall (isnum E) l -> nth_error l j = Some t -> isnum E t.
Proof. intros E l j t F N. rewrite Forall_forall in F. apply F. eapply nth_error_In; eauto. Qed.
Lemma shaped_zero : shaped zero. Proof. exact I. Qed.
Lemma isnum_zero : forall E, isnum E zero. Proof. intros E. exists 0. reflexivity. Qed.
Lemma pair_ok : forall s i cur used v ssym cur' used' v' a l,
  pair label sect equ curpos special precbc dot s i cur used v ssym = Some (LOk cur' used' v') ->
  neg_sym a = Some s -> nth_error cur i = Some a -> agree (S i) l cur -> Forall shaped cur -> sane v ->
  Sum ssym cur cur' v v' /\ agree (S i) l cur'.
Proof.
  intros s i cur used v ssym cur' used' v' a l H NS NI AG SH SA. unfold pair in H.
  assert (IE : is_expr a = true) by (apply neg_sym_inv in NS; destruct NS as (n & _ & [-> | ->]); reflexivity).
  assert (TWO : forall j t, nth_error cur j = Some t -> is_expr t = false -> nth_error (upd j zero cur) i = Some a /\ j <> i /\ agree (S i) l (upd i zero (upd j zero cur)) /\ length (upd i zero (upd j zero cur)) = length cur /\ Forall shaped (upd i zero (upd j zero cur)) /\
            forall E, Forall (isnum E) cur -> Forall (isnum E) (upd i zero (upd j zero cur)) /\ exists x, symnum E s = Some x /\ total E (upd i zero (upd j zero cur)) = total E cur - sv E t - wrap256 (- x)).
  { intros j t NJ NE. assert (JI : j <> i) by (intros ->; congruence). assert (NI2 : nth_error (upd j zero cur) i = Some a) by (rewrite (upd_other j i cur t zero); auto).
    split; auto. split; auto. split; [apply (agree_put _ _ _ i a); auto; apply (agree_put _ _ _ j t); auto|]. split; [rewrite (upd_len i _ a), (upd_len j _ t); auto|]. split; [apply (upd_all _ i _ a); auto using shaped_zero; apply (upd_all _ j _ t); auto using shaped_zero|].
    intros E N. split; [apply (upd_all _ i _ a); auto using isnum_zero; apply (upd_all _ j _ t); auto using isnum_zero|].
    destruct (isnum_nth E cur i a N NI) as [z Z]. destruct (neg_sym_ev E a s z NS Z) as (x & X & ->). exists x. split; auto. rewrite (total_upd E i _ a), (total_upd E j _ t), sv_zero, (sv_num E a _ Z) by auto. lia. }
  destruct (findi (is_sym s) used 0 cur) as [j|] eqn:F1.
  - injection H as HC <- <-. assert (HC' : cur' = upd i zero (upd j zero cur)) by (rewrite <- HC; reflexivity). clear HC. subst cur'. apply findi0 in F1. destruct F1 as (t & NJ & IS). destruct t; try discriminate IS. cbn [is_sym] in IS. apply Z.eqb_eq in IS. subst s0. destruct (TWO j _ NJ eq_refl) as (A1 & A2 & A3 & A4 & A5 & A6). split; auto.
    split; auto. split; auto. split; auto. split; [apply same_refl|]. split; auto. intros E _ N. destruct (A6 E N) as (B1 & x & B2 & B3). exists 0. split; [apply moved_refl|]. split; auto. rewrite B3. rewrite (sv_num E _ x) by (apply ev_sym; auto).
    replace (total E cur - x - wrap256 (- x) + 0) with (total E cur - x + - wrap256 (- x)) by lia. rewrite <- wrap_add_r, wrap_opp, wrap_add_r. f_equal. lia.
  - destruct (label s) as [p|]; [|discriminate]. destruct (findi (in_sect label sect p) used 0 cur) as [j|]; [injection H as <- <- <-; split; auto; apply Sum_refl; auto|].
    destruct (negb (curpos_rel v) && _); [|discriminate]. destruct (findi (relocatable equ special) used 0 cur) as [j|] eqn:F3; [|discriminate]. destruct (nth_error cur j) as [t|] eqn:NJ; [|discriminate]. destruct t as [| | | | |s2| |]; try discriminate.
    destruct (negb (is_none (rel v)) || ssym) eqn:RN; [discriminate|]. apply none_rel in RN. destruct RN as [RN ->]. injection H as HC <- <-. assert (HC' : cur' = if curpos s then upd i zero (upd j zero cur) else upd j (TSym dot) cur) by (rewrite <- HC; reflexivity). clear HC. subst cur'. destruct (set_rel_ok v s2 true RN SA) as (B1 & B2 & B3).
    destruct (curpos s) eqn:CP.
    + destruct (TWO j _ NJ eq_refl) as (A1 & A2 & A3 & A4 & A5 & A6). split; auto. split; auto. split; auto. split; auto. split; auto. split; [discriminate|]. intros E [_ K] N. destruct (A6 E N) as (C1 & x & C2 & C3). destruct (isnum_nth E cur j _ N NJ) as [y Y]. apply ev_sym in Y.
      exists (y - pos). split; [apply (B3 E y Y)|]. split; auto. rewrite C3, (sv_num E _ y) by (apply ev_sym; auto). unfold symnum in C2. rewrite (K s) in C2 by auto. injection C2 as <-. rewrite wrap_opp.
      replace (total E cur - y - wrap256 (- pos) + (y - pos)) with (total E cur - pos + - wrap256 (- pos)) by lia. rewrite <- wrap_add_r, wrap_opp, wrap_add_r. f_equal. lia.
    + split; [|apply (agree_put _ _ _ j (TSym s2)); auto]. split; [apply (upd_len j cur (TSym s2)); auto|]. split; [apply (upd_all _ j _ (TSym s2)); auto; exact I|]. split; auto. split; auto. split; [discriminate|].
      intros E [_ K] N. destruct (isnum_nth E cur j _ N NJ) as [y Y]. exists (y - pos). split; [apply B3; apply ev_sym; auto|].
      assert (D : ev E (TSym dot) = Some (VNum (wrap256 pos))) by (apply ev_sym; unfold symnum; rewrite (K dot) by auto; reflexivity).
      split; [apply (upd_all _ j _ (TSym s2)); auto; eexists; exact D|]. rewrite (total_upd E j _ (TSym s2)), (sv_num E _ y), (sv_num E _ _ D) by auto.
      replace (total E cur - y + wrap256 pos + (y - pos)) with (total E cur - pos + wrap256 pos) by lia. rewrite wrap_add_r. f_equal. lia.
Qed.
Lemma leftover_ok : forall l i used v ssym l' v', leftover i l used v ssym = Some (l', v') -> Forall shaped l -> sane v -> Sum ssym l l' v v'.
Proof.
  induction l as [|t r IH]; intros i used v ssym l' v' H SH SA; cbn [leftover] in H; [injection H as <- <-; apply Sum_refl; auto|]. inversion SH as [|? ? SH1 SH2]; subst.
  assert (KEEP : forall r' v2, leftover (S i) r used v ssym = Some (r', v2) -> Sum ssym (t :: r) (t :: r') v v2).
  { intros r' v2 Q. apply IH in Q; auto. destruct Q as (A1 & A2 & A3 & A4 & A5 & A6). split; [cbn [length]; congruence|]. split; auto. split; auto. split; auto. split; auto.
    intros E K N. inversion N as [|? ? N1 N2]; subst. destruct (A6 E K N2) as (d & D & B1 & B2). exists d. split; auto. split; auto. cbn [total fold_right]. fold (total E r'). fold (total E r).
    rewrite <- Z.add_assoc, <- wrap_add_r, B2, wrap_add_r. auto. }
  assert (KP : match leftover (S i) r used v ssym with Some (r', v'0) => Some (t :: r', v'0) | None => None end = Some (l', v') -> Sum ssym (t :: r) l' v v').
  { intros Q. destruct (leftover (S i) r used v ssym) as [[r' v2]|]; [|discriminate]. injection Q as <- <-. auto. }
  destruct t as [| | | | |s| |]; try exact (KP H). destruct (mem i used); [exact (KP H)|]. destruct (negb (is_none (rel v)) || ssym) eqn:RN; [discriminate|]. apply none_rel in RN. destruct RN as [RN ->].
  destruct (leftover (S i) r used (set_rel v s false) false) as [[r' v2]|] eqn:Q; [|discriminate]. injection H as <- <-. destruct (set_rel_ok v s false RN SA) as (B1 & B2 & B3). apply IH in Q; auto. destruct Q as (A1 & A2 & A3 & A4 & A5 & A6).
  split; [cbn [length]; congruence|]. split; [constructor; auto; exact I|]. split; auto. split; [eapply same_trans; eauto|]. split; [discriminate|].
  intros E K N. inversion N as [|? ? [x X] N2]; subst. destruct (A6 E K N2) as (d & D & C1 & C2). exists (x + d). split; [|split].
  - eapply moved_trans; [|exact D]. pose proof (B3 E x) as M. rewrite Z.sub_0_r in M. apply M. apply ev_sym. auto.
  - constructor; auto. apply isnum_zero.
  - cbn [total fold_right]. fold (total E r'). fold (total E r). rewrite (sv_num E (TSym s) x), sv_zero by auto. replace (0 + total E r' + (x + d)) with (x + (total E r' + d)) by lia. rewrite <- wrap_add_r, C2, wrap_add_r. auto.
Qed.

(** * The whole scan *)
Notation scan := (scan label sect equ curpos special precbc dot).
Notation pair := (pair label sect equ curpos special precbc dot).
Definition addgo (ssym : bool) := fix addgo (i : nat) (l cur : list item) (used : list nat) (v : val) : lres :=
  match l with
  | [] => LOk cur used v
  | a :: r =>
      match a with
      | TExpr _ _ =>
          let plain := match scan a v ssym with
                       | SOk a' v' => addgo (S i) r (put i a' cur) used v'
                       | SBad => LBad
                       | SFatal => LFatal
                       end in
          match neg_sym a with
          | None => plain
          | Some s => match pair s i cur used v ssym with
                      | None => plain
                      | Some (LOk cur' used' v') => addgo (S i) r cur' used' v'
                      | Some x => x
                      end
          end
      | _ => addgo (S i) r cur used v
      end
  end.
Lemma scan_add : forall ts v ssym, scan (TExpr ADD ts) v ssym =
  if (32 <? length ts)%nat then SFatal
  else match addgo ssym O ts ts [] v with
       | LOk cur used v' => match leftover O cur used v' ssym with Some (ts', v2) => SOk (TExpr ADD ts') v2 | None => SBad end
       | LBad => SBad
       | LFatal => SFatal
       end.
Proof. reflexivity. Qed.
Definition defgo (o : op) (t : item) (v : val) := fix defgo (pre l : list item) : sres :=
  match l with
  | [] => SOk t v
  | a :: r => match a with
              | TSym _ => SBad
              | TExpr _ _ => match scan a v true with SOk a' v' => SOk (TExpr o (pre ++ a' :: r)) v' | x => x end
              | _ => defgo (pre ++ [a]) r
              end
  end.
Definition other (o : op) : Prop := o <> ADD /\ o <> SHR /\ o <> SEG /\ o <> WRT.
Lemma scan_other : forall o ts v ssym, other o -> scan (TExpr o ts) v ssym = defgo o (TExpr o ts) v [] ts.
Proof. intros o ts v ssym (A & B & C & D). destruct o; try congruence; reflexivity. Qed.
Definition lhs (ssym : bool) (o : op) (a : item) (r : list item) (v : val) : sres :=
  match a with
  | TSym s => if negb (is_none (rel v)) || ssym then SBad else SOk (TExpr o (zero :: r)) (set_rel v s false)
  | TExpr _ _ => match scan a v ssym with SOk a' v' => SOk (TExpr o (a' :: r)) v' | x => x end
  | _ => SOk (TExpr o (a :: r)) v
  end.
Lemma scan_wrt : forall ts v ssym, scan (TExpr WRT ts) v ssym =
  match ts with
  | a :: b :: r => match b with
                   | TSym y => if is_none (wrt v) then lhs ssym IDENT a [] (set_wrt v y) else SBad
                   | TReg _ => lhs ssym WRT a (b :: r) v
                   | _ => SBad
                   end
  | _ => SBad
  end.
Proof. intros [|a [|b r]] v ssym; reflexivity. Qed.

Definition Step (ssym : bool) (t t' : item) (v v' : val) : Prop :=
  is_expr t' = is_expr t /\ shaped t' /\ sane v' /\ same v v' /\ (ssym = true -> v' = v) /\
  forall E, env_value E ->
    (forall z, ev E t = Some (VNum z) -> exists d z', moved ssym E v v' d /\ ev E t' = Some (VNum z') /\ wrap256 (z' + d) = z) /\
    (forall a b, ev E t = Some (VPair a b) -> ev E t' = Some (VPair a b)).
Definition Ok (t : item) : Prop := forall v ssym t' v', scan t v ssym = SOk t' v' -> shaped t -> tame ssym t -> sane v -> Step ssym t t' v v'.
Lemma wrap_ev : forall E t z, ev E t = Some (VNum z) -> wrap256 z = z.
Proof. intros E t z H. apply wrap_id. apply (ev_R E t (VNum z) H). Qed.
Lemma Step_refl : forall ssym t v, shaped t -> sane v -> Step ssym t t v v.
Proof. intros ssym t v H S. split; auto. split; auto. split; auto. split; [apply same_refl|]. split; auto. intros E _. split; auto. intros z Z. exists 0, z. split; [apply moved_refl|]. split; auto. rewrite Z.add_0_r. apply (wrap_ev E t); auto. Qed.
Lemma addgo_ok : forall ssym l i cur used v cur' used' v', addgo ssym i l cur used v = LOk cur' used' v' ->
  Forall Ok l -> Forall shaped l -> Forall (tame ssym) l -> agree i l cur -> Forall shaped cur -> sane v -> Sum ssym cur cur' v v'.
Proof.
  intros ssym l. induction l as [|a r IH]; intros i cur used v cur' used' v' H OK SL TL AG SH SA; cbn [addgo] in H; fold (addgo ssym) in H; [injection H as <- <- <-; apply Sum_refl; auto|].
  inversion OK as [|? ? OK1 OK2]; subst. inversion SL as [|? ? SL1 SL2]; subst. inversion TL as [|? ? TL1 TL2]; subst. pose proof (agree_tl _ _ _ _ AG) as AG2.
  destruct a as [| | | | | | |o ts] eqn:EA; try (eapply IH; eassumption). rewrite <- EA in *. assert (IE : is_expr a = true) by (subst a; reflexivity). pose proof (AG O a eq_refl IE) as NI. rewrite Nat.add_0_r in NI.
  assert (PLAIN : match scan a v ssym with SOk a' v'0 => addgo ssym (S i) r (put i a' cur) used v'0 | SBad => LBad | SFatal => LFatal end = LOk cur' used' v' -> Sum ssym cur cur' v v').
  { intros Q. destruct (scan a v ssym) as [a' v2| |] eqn:SC; try discriminate. pose proof (OK1 v ssym a' v2 SC SL1 TL1 SA) as SC2. destruct SC2 as (X0 & X1 & X2 & X3 & X4 & X5). rewrite put_upd in Q.
    apply (Sum_trans ssym cur (upd i a' cur) cur' v v2 v').
    - split; [apply (upd_len i cur a); auto|]. split; [apply (upd_all _ i _ a); auto|]. split; auto. split; auto. split; auto. intros E K N. destruct (isnum_nth E cur i a N NI) as [z Z]. destruct (proj1 (X5 E K) z Z) as (d & z' & D & Z' & W). exists d. split; auto. split; [apply (upd_all _ i _ a); auto; exists z'; auto|].
      rewrite (total_upd E i _ a), (sv_num E a z), (sv_num E a' z') by auto. rewrite <- W. replace (total E cur - wrap256 (z' + d) + z' + d) with (total E cur + (z' + d) + - wrap256 (z' + d)) by lia. rewrite <- wrap_add_r, wrap_opp, wrap_add_r. f_equal. lia.
    - apply IH in Q; auto; [apply (agree_put _ _ _ i a); auto|apply (upd_all _ i _ a); auto]. }
  destruct (neg_sym a) as [s|] eqn:NS; [|exact (PLAIN H)]. destruct (pair s i cur used v ssym) as [[cur2 used2 v2| |]|] eqn:PR; try discriminate; [|exact (PLAIN H)].
  destruct (pair_ok s i cur used v ssym cur2 used2 v2 a r PR NS NI AG2 SH SA) as [S2 AG3]. apply (Sum_trans ssym cur cur2 cur' v v2 v'); auto. eapply IH; eauto; apply S2.
Qed.
Lemma lhs_ok : forall ssym a v o r t' v', lhs ssym o a r v = SOk t' v' -> Ok a -> shaped a -> tame ssym a -> sane v -> exists a', t' = TExpr o (a' :: r) /\ 
  shaped a' /\ sane v' /\ same v v' /\ (ssym = true -> v' = v) /\
  forall E, env_value E -> forall z, ev E a = Some (VNum z) -> exists d z', moved ssym E v v' d /\ ev E a' = Some (VNum z') /\ wrap256 (z' + d) = z.
Proof.
  intros ssym a v o r t' v' H OK SH TM SA. unfold lhs in H.
  assert (R0 : forall x, SOk (TExpr o (a :: r)) v = SOk x v' -> exists a', x = TExpr o (a' :: r) /\ shaped a' /\ sane v' /\ same v v' /\ (ssym = true -> v' = v) /\
     forall E, env_value E -> forall z, ev E a = Some (VNum z) -> exists d z', moved ssym E v v' d /\ ev E a' = Some (VNum z') /\ wrap256 (z' + d) = z).
  { intros x Q. injection Q as <- <-. exists a. split; auto. destruct (Step_refl ssym a v SH SA) as (_ & A1 & A2 & A3 & A4 & A5). split; auto. split; auto. split; auto. split; auto. intros E K. apply A5; auto. }
  destruct a as [| | | | |s| |o' ts] eqn:EA; try (apply R0; exact H).
  - destruct (negb (is_none (rel v)) || ssym) eqn:RN; [discriminate|]. apply none_rel in RN. destruct RN as [RN ->]. injection H as <- <-. destruct (set_rel_ok v s false RN SA) as (B1 & B2 & B3). exists zero. split; auto. split; [exact I|]. split; auto. split; auto. split; [discriminate|].
    intros E K z Z. exists z, 0. pose proof (B3 E z) as M. rewrite Z.sub_0_r in M. split; [apply M, ev_sym; auto|]. split; [reflexivity|]. rewrite Z.add_0_l. apply (wrap_ev E (TSym s)); auto.
  - rewrite <- EA in *. destruct (scan a v ssym) as [a' v2| |] eqn:SC; try discriminate. injection H as <- <-. pose proof (OK v ssym a' v2 SC SH TM SA) as SC2. destruct SC2 as (_ & A1 & A2 & A3 & A4 & A5). exists a'. split; auto. split; auto. split; auto. split; auto. split; auto. intros E K. apply A5; auto.
Qed.
Lemma moved_tt : forall E v d, moved true E v v d -> d = 0. Proof. intros E v d [H _]. auto. Qed.
Lemma scan_ok : forall t, Ok t.
Proof.
  intros t. induction t as [| | | | | | |o ts IH] using item_ind2; intros v ssym t' v' H SH TM SA; try (cbn [M_Value.scan] in H; injection H as <- <-; apply Step_refl; auto).
  pose proof SH as SH0. apply shaped_expr in SH. destruct SH as [AR SH]. apply tame_expr in TM. destruct TM as (T1 & T2 & T3).
  assert (OC : o = ADD \/ o = SHR \/ o = SEG \/ o = WRT \/ other o) by (destruct o; unfold other; intuition discriminate). destruct OC as [->|[->|[->|[->|OT]]]].
  - (* ADD *) rewrite scan_add in H. destruct (32 <? length ts)%nat; [discriminate|]. destruct (addgo ssym 0 ts ts [] v) as [cur used v1| |] eqn:AD; try discriminate. destruct (leftover 0 cur used v1 ssym) as [[l' v2]|] eqn:LO; [|discriminate]. injection H as <- <-.
    cbn [op_eq orb negb] in T3. rewrite orb_false_r in T3. apply addgo_ok in AD; auto; [|intros k a K _; exact K].
    apply leftover_ok in LO; [|apply AD|apply AD]. pose proof (Sum_trans _ _ _ _ _ _ _ AD LO) as (L & A1 & A2 & A3 & A4 & A5). split; auto. split; [apply shaped_expr; split; auto; rewrite L; auto|]. split; auto. split; auto. split; auto.
    intros E K. split; [|intros a b Q; exfalso; eapply ev_pair_add; eauto]. intros z Z. apply ev_add in Z. destruct Z as (LN & N & ->). destruct (A5 E K N) as (d & D & N' & W). exists d, (wrap256 (total E l')). split; auto. split; [apply ev_add; split; [lia|auto]|]. rewrite wrap_add_l. exact W.
  - (* SHR *) destruct ts as [|a r]; [injection H as <- <-; apply Step_refl; auto|]. destruct a as [| | | | |s| |]; try (injection H as <- <-; apply Step_refl; auto).
    destruct r as [|b r]; [injection H as <- <-; apply Step_refl; auto|]. cbn [M_Value.scan] in H. destruct (negb (is_none (rel v)) || ssym) eqn:RN; [discriminate|]. apply none_rel in RN. destruct RN as [RN ->].
    destruct b as [| |n| | | | |]; try discriminate. destruct (RSHIFT_MAX <? u64 (get_uint n + rshift v)) eqn:RS; [discriminate|]. injection H as <- <-. specialize (T1 eq_refl). destruct T1 as [CN T1]. apply canonb_ok in CN. cbn [length] in AR. assert (r = []) by (destruct r; auto; discriminate AR). subst r.
    clear RS.
    assert (G0 : canon n -> get_uint n = ival n) by (intros C; rewrite get_uint_ok by auto; cbv zeta; destruct (Z.ltb_spec (ival n) 0); [lia|]; destruct (Z.ltb_spec (ival n) (2 ^ 32)); lia).
    destruct (set_shift_ok v s (get_uint n) ltac:(rewrite (G0 CN); lia) RN SA) as (B1 & B2 & B3). split; auto. split; [apply shaped_expr; split; auto; inversion SH; subst; constructor; auto; exact I|]. split; auto. split; auto. split; [discriminate|].
    intros E K. split; [|intros a b Q; exfalso; apply ev_expr in Q; destruct Q as (vs & _ & Q); cbn [opsem] in Q; destruct (nums vs) as [[|x [|y [|]]]|]; try discriminate Q; cbn [nary unary] in Q; destruct (meaning SHR x y); discriminate Q].
    intros z Z. apply ev_expr in Z. destruct Z as (vs & A & B). inversion A as [|? v1 ? ? A1 A2]; subst. inversion A2 as [|? v2 ? ? A3 A4]; subst. inversion A4; subst. cbn [opsem] in B.
    destruct v1 as [x|]; [|discriminate B]. destruct v2 as [y|]; [|discriminate B]. cbn [nums nary unary meaning option_map] in B. apply ev_int in A3. destruct A3 as [C <-]. rewrite G0 in * by auto.
    assert (Q : (0 <=? ival n) && (ival n <? 2 ^ 31) = true) by (rewrite andb_true_iff, Z.leb_le, Z.ltb_lt; lia). rewrite Q in B. assert (z = wrap256 (x / 2 ^ ival n)) by congruence.
    exists (x / 2 ^ ival n), 0. split; [apply B3; apply ev_sym; auto|]. split; [|rewrite Z.add_0_l; auto].
    apply ev_expr. exists [VNum 0; VNum (ival n)]. split; [constructor; [reflexivity|constructor; [apply ev_int; auto|constructor]]|]. cbn [opsem nums nary unary meaning option_map]. rewrite Q, Z.div_0_l by (apply Z.pow_nonzero; lia). reflexivity.
  - (* SEG *) destruct ts as [|a r]; [discriminate|]. destruct a as [| | | | |s| |]; try discriminate. cbn [M_Value.scan] in H. destruct (segof v); [discriminate|]. destruct (negb (is_none (rel v)) || ssym) eqn:RN; [discriminate|]. apply none_rel in RN. destruct RN as [RN ->]. injection H as <- <-.
    cbn [length] in AR. assert (r = []) by (destruct r; auto; discriminate AR). subst r. destruct (set_seg_ok v s RN SA) as (B1 & B2 & B3). split; auto. split; [apply shaped_expr; split; [reflexivity|constructor; [exact I|constructor]]|]. split; auto. split; auto. split; [discriminate|].
    intros E K. split.
    + intros z Z. pose proof (wrap_ev _ _ _ Z) as WZ. apply ev_expr in Z. destruct Z as (vs & A & B). inversion A as [|? v1 ? ? A1 A2]; subst. inversion A2; subst. exists z, 0. split; [|split; [reflexivity|rewrite Z.add_0_l; auto]]. apply B3. unfold symseg. cbn [ev] in A1.
      destruct (symv E s) as [[x|x y]|]; cbn [option_map wrapv] in A1; try discriminate A1; injection A1 as <-; cbn [opsem] in B; congruence.
    + intros a b Q. exfalso. apply ev_expr in Q. destruct Q as (vs & _ & Q). cbn [opsem] in Q. destruct vs as [|[x|x y] [|]]; discriminate Q.
  - (* WRT *) rewrite scan_wrt in H. destruct ts as [|a [|b r]]; try discriminate. cbn [length] in AR. assert (r = []) by (destruct r; auto; discriminate AR). subst r. inversion IH as [|? ? IH1 _]; subst. inversion SH as [|? ? SH1 SH2]; subst. inversion T3 as [|? ? T4 _]; subst. cbn [op_eq orb negb] in T4. rewrite orb_false_r in T4.
    assert (NP : forall E x y, ev E (TExpr WRT [a; b]) = Some (VPair x y) -> False).
    { intros E x y Q. apply ev_expr in Q. destruct Q as (vs & _ & Q). cbn [opsem] in Q. destruct vs as [|[x'|] [|[y'|] [|]]]; discriminate Q. }
    destruct b as [|rg| | | |y| |]; try discriminate.
    + apply lhs_ok in H; auto. destruct H as (a' & -> & A1 & A2 & A3 & A4 & A5). split; auto. split; [apply shaped_expr; split; auto|]. split; auto. split; auto. split; auto.
      intros E K. split; [|intros x y Q; exfalso; eapply NP; eauto]. intros z Z. apply ev_expr in Z. destruct Z as (vs & A & B). inversion A as [|? v1 ? ? B1 B2]; subst. inversion B2 as [|? v2 ? ? B3 B4]; subst. inversion B4; subst. cbn [opsem] in B. destruct v1 as [x|]; [|discriminate B]. destruct v2 as [w|]; [|discriminate B]. assert (z = wrap256 (wrtf E x w)) by congruence. subst z.
      destruct (A5 E K x B1) as (d & x' & D & X' & W). exists d, (wrap256 (wrtf E x' w)). split; auto. split; [apply ev_expr; exists [VNum x'; VNum w]; split; [constructor; auto|reflexivity]|].
      rewrite wrap_add_l. rewrite !(proj1 K). rewrite <- W. replace (x' - base w + d) with (x' + d + - base w) by lia. rewrite <- wrap_add_l. f_equal.
    + destruct ssym; [exfalso; apply (T2 eq_refl eq_refl)|]. destruct (is_none (wrt v)) eqn:WN; [|discriminate]. assert (WN' : wrt v = None) by (destruct (wrt v); [discriminate WN|auto]). destruct (set_wrt_ok v y WN' SA) as (C1 & C2 & C3).
      apply lhs_ok in H; auto. destruct H as (a' & -> & A1 & A2 & A3 & _ & A5). split; auto. split; [apply shaped_expr; split; [reflexivity|auto]|]. split; auto. split; [eapply same_trans; eauto|]. split; [discriminate|].
      intros E K. split; [|intros x y' Q; exfalso; eapply NP; eauto]. intros z Z. apply ev_expr in Z. destruct Z as (vs & A & B). inversion A as [|? v1 ? ? B1 B2]; subst. inversion B2 as [|? v2 ? ? B3 B4]; subst. inversion B4; subst. cbn [opsem] in B. destruct v1 as [x|]; [|discriminate B]. destruct v2 as [w|]; [|discriminate B]. assert (z = wrap256 (wrtf E x w)) by congruence. subst z.
      destruct (A5 E K x B1) as (d & x' & D & X' & W). exists (- base w + d), x'. split; [eapply moved_trans; [apply C3; apply ev_sym; auto|exact D]|]. split; [apply ev_ident; auto|].
      rewrite (proj1 K). rewrite <- W. replace (x' + (- base w + d)) with (x' + d + - base w) by lia. rewrite <- wrap_add_l. f_equal.
  - (* the others *) rewrite scan_other in H by auto.
    assert (NO : negb (op_eq o ADD || op_eq o WRT) = true) by (destruct OT as (O1 & O2 & O3 & O4); destruct o; try congruence; reflexivity). rewrite NO, orb_true_r in T3. clear NO T1 T2.
    assert (GEN : forall pre l, defgo o (TExpr o ts) v pre l = SOk t' v' -> ts = pre ++ l -> Step ssym (TExpr o ts) t' v v'); [|apply (GEN [] ts); auto].
    intros pre l. revert pre. induction l as [|a r IHl]; intros pre Q ET; cbn [defgo] in Q; fold (defgo o (TExpr o ts) v) in Q; [injection Q as <- <-; apply Step_refl; auto|].
    assert (NX : ts = (pre ++ [a]) ++ r) by (rewrite <- app_assoc; exact ET).
    destruct a as [| | | | | | |o' s] eqn:EA; try discriminate Q; try exact (IHl _ Q NX). rewrite <- EA in *. destruct (scan a v true) as [a' v2| |] eqn:SC; try discriminate. injection Q as <- <-.
    assert (INa : In a ts) by (rewrite ET; apply in_or_app; right; left; auto). rewrite Forall_forall in IH, T3. pose proof SH as SHf. rewrite Forall_forall in SHf. pose proof (IH a INa v true a' v2 SC (SHf a INa) (T3 a INa) SA) as SC2. destruct SC2 as (X0 & A1 & A2 & A3 & A4 & A5). specialize (A4 eq_refl). subst v2.
    assert (LE : forall E, env_value E -> le E a a').
    { intros E K w W. destruct (A5 E K) as [N P]. destruct w as [z|x y]; [|auto]. destruct (N z W) as (d & z' & D & Z' & WZ). apply moved_tt in D. subst d. rewrite Z.add_0_r in WZ. rewrite (wrap_ev E a' z' Z') in WZ. congruence. }
    assert (LT : forall E, env_value E -> le E (TExpr o ts) (TExpr o (pre ++ a' :: r))).
    { intros E K. apply le_expr. rewrite ET. apply Forall2_app; [clear; induction pre; constructor; auto using le_refl|]. constructor; auto. clear. induction r; constructor; auto using le_refl. }
    split; auto. split; [apply shaped_expr; split; [rewrite ET, app_length in AR; rewrite app_length; exact AR|]|].
    { rewrite ET in SH. apply Forall_app in SH. destruct SH as [S1 S2]. inversion S2; subst. apply Forall_app. auto. }
    split; auto. split; [apply same_refl|]. split; auto. intros E K. split; [|intros x y W; apply (LT E K); auto]. intros z W. exists 0, z. split; [apply moved_refl|]. split; [apply (LT E K); auto|]. rewrite Z.add_0_r. apply (wrap_ev E _ _ W).
Qed.
End Value.
