(** Values that are written without a relocation (C72). *)
From Coq Require Import ZArith List Bool Lia Arith.
From Verif Require Import Lib M_BitVect P_BitVect M_Intnum P_Intnum P_IntnumIO M_Expr P_Expr P_ExprLevel P_ExprTree P_ExprTree2 P_ExprTop M_Value P_Value P_ValueTop.
Import ListNotations.
Open Scope Z_scope.

(** * Specification *)
(** The numbers an expression is reduced to are right. *)
Definition num_ok (E : env) (num : expr -> option intnum) : Prop :=
  forall e n, num e = Some n -> canonb n = true /\ forall w, eval E e = Some w -> w = VNum (ival n).
(** A label is as far into its section as the bytecode it follows ends. *)
Definition env_place (label : Z -> option Z) (sect next : Z -> Z) (start : Z -> Z) (E : env) : Prop :=
  forall s p, label s = Some p -> symv E s = Some (VNum (start (sect p) + next p)) /\ 0 <= next p < 2 ^ 31.

Lemma small_uint : forall u, 0 <= u < 2 ^ 31 -> canon (create_uint (u64 u)) /\ ival (create_uint (u64 u)) = u.
Proof.
  intros u U. unfold u64. rewrite Z.mod_small by (assert (2 ^ 31 < w64) by reflexivity; lia). unfold create_uint, LONG_MAX. destruct (Z.ltb_spec 9223372036854775807 u); [lia|]. split; [cbn [canon]; lia|reflexivity].
Qed.
Section Out.
Variable label : Z -> option Z.
Variable sect next : Z -> Z.
Lemma reloc_ok : forall v p off n, rshift v = 0 -> 0 <= next p < 2 ^ 31 -> 0 <= off < 2 ^ 31 -> (forall i, n = Some i -> canon i) ->
  canon (reloc next v p off n) /\ ival (reloc next v p off n) = wrap256 (next p - off + match n with Some i => ival i | None => 0 end).
Proof.
  intros v p off n RS P O C. unfold reloc. rewrite RS. change (0 <? 0) with false. cbv beta iota.
  assert (B255 : 2 ^ 31 < 2 ^ 200) by reflexivity. assert (SM : R (next p - off)) by (apply R_small; lia).
  set (d := if next p <? off then _ else _). assert (D : canon d /\ ival d = next p - off).
  { unfold d. destruct (Z.ltb_spec (next p) off).
    - destruct (small_uint (off - next p) ltac:(lia)) as [C1 V1]. destruct (ical_un _ NEG (- (off - next p)) C1 eq_refl) as [C2 V2]; [cbn [meaning]; rewrite V1; reflexivity|]. split; auto. rewrite V2. replace (- (off - next p)) with (next p - off) by lia. apply wrap_id. exact SM.
    - apply small_uint. lia. }
  clearbody d. destruct D as [D1 D2]. destruct n as [i|].
  - destruct (ical_ok d ADD i (ival d + ival i) D1 (C i eq_refl) eq_refl) as [A B]; [discriminate|]. split; auto. rewrite B, D2. reflexivity.
  - split; auto. rewrite D2, Z.add_0_r. symmetry. apply wrap_id. exact SM.
Qed.
Lemma local_inv : forall v s here p, local label sect v s here = Some p -> label s = Some p /\ wrt v = None /\ segof v = false /\ sect p = here /\ curpos_rel v = true.
Proof.
  intros v s here p H. unfold local in H. destruct (label s) as [q|]; [|discriminate]. destruct (is_none (wrt v)) eqn:A, (segof v), (section_rel v), (Z.eqb_spec (sect q) here), (curpos_rel v); try discriminate H. injection H as <-. repeat split; auto. destruct (wrt v); auto. discriminate.
Qed.

Variable base : Z -> Z.
Variable start : Z -> Z.
(** the number written, when it comes from [n] *)
Definition written (E : env) (v : val) (here off : Z) (m : intnum) : Prop :=
  forall y, means base (start here + off) E v = Some y -> canonb m = true /\ (2 ^ 256 | ival m - y).
Lemma rest_ok : forall E v here off n, sane v -> env_place label sect next start E -> 0 <= off < 2 ^ 31 -> (rel v = None -> wrt v = None) ->
  (forall i, n = Some i -> canon i) -> (forall w, match abs v with None => Some (VNum 0) | Some e => eval E e end = Some w -> w = VNum (match n with Some i => ival i | None => 0 end)) ->
  (rel v = None -> written E v here off (match n with Some i => i | None => create_uint 0 end)) /\
  (forall s p, rel v = Some s -> local label sect v s here = Some p -> written E v here off (reloc next v p off n)).
Proof.
  intros E v here off n (SA1 & SA2 & _) PL O RW C N. split.
  - intros RN y Y. assert (C0 : canon (match n with Some i => i | None => create_uint 0 end)) by (destruct n; auto; cbn; lia). split; [apply canonb_ok; auto|].
    assert (I0 : ival (match n with Some i => i | None => create_uint 0 end) = match n with Some i => ival i | None => 0 end) by (destruct n; reflexivity). rewrite I0. unfold means in Y. destruct (match abs v with None => _ | Some _ => _ end) as [w|]; [|discriminate]. specialize (N w eq_refl). subst w.
    unfold parts in Y. rewrite RN, (RW RN) in Y. destruct (SA1 RN) as (A & B & D). rewrite A, D in Y. injection Y as <-. exists 0. lia.
  - intros s p RS LO y Y. apply local_inv in LO. destruct LO as (LB & W & SG & SE & CR). destruct (PL s p LB) as [SV NX]. destruct (reloc_ok v p off n (SA2 CR) NX O C) as [C1 V1]. split; [apply canonb_ok; auto|]. rewrite V1.
    unfold means in Y. destruct (match abs v with None => _ | Some _ => _ end) as [w|]; [|discriminate]. specialize (N w eq_refl). subst w. unfold parts in Y. rewrite RS, SG, W, (SA2 CR), CR in Y. unfold symnum in Y. rewrite SV in Y. injection Y as <-. rewrite SE. change (2 ^ 0) with 1. rewrite Z.div_1_r.
    apply wrap_div. rewrite (wrap_id (wrap256 _)) by apply R_wrap. set (a := match n with Some i => ival i | None => 0 end). replace (a + (wrap256 (start here + next p) - (start here + off) - 0)) with (a - start here - off + wrap256 (start here + next p)) by lia. rewrite wrap_add_r. f_equal. lia.
Qed.
Definition orest (v : val) (here off : Z) (w : Z) (n : option intnum) : ores :=
  match rel v with
  | Some s => match local label sect v s here with Some p => ONum (reloc next v p off n) w | None => OTodo end
  | None => if segof v || (0 <? rshift v) || curpos_rel v || ip_rel v || section_rel v then OTodo
            else ONum (match n with Some i => i | None => create_uint 0 end) w
  end.
Lemma output_eq : forall num num2 v here off warn, output_basic label sect next num num2 v here off warn =
  let w := if warn && negb (no_warn v) then (if signed v then -1 else 1) else 0 in
  match abs v with
  | None => orest v here off w None
  | Some e =>
      match is_none (rel v), e with
      | true, (IDENT, TFloat s f :: _) => OFloat s f (warn && negb (no_warn v))
      | _, _ => if contains 8 e then OErr
                else match num e with
                     | Some n => orest v here off w (Some n)
                     | None => match num2 e with Some n => orest v here off w (Some n) | None => OErr end
                     end
      end
  end.
Proof. reflexivity. Qed.
Lemma output_ok : forall E num num2 v here off warn m w, sane v -> env_place label sect next start E -> 0 <= off < 2 ^ 31 -> (rel v = None -> wrt v = None) -> num_ok E num -> num_ok E num2 ->
  output_basic label sect next num num2 v here off warn = ONum m w -> written E v here off m.
Proof.
  intros E num num2 v here off warn m w SA PL O RW N1 N2 H. rewrite output_eq in H. cbv zeta in H. set (w0 := if warn && _ then _ else _) in H. clearbody w0.
  set (rest := orest v here off w0) in H.
  assert (RO : forall n, rest n = ONum m w -> (forall i, n = Some i -> canon i) -> (forall x, match abs v with None => Some (VNum 0) | Some e => eval E e end = Some x -> x = VNum (match n with Some i => ival i | None => 0 end)) -> written E v here off m).
  { intros n R C N. destruct (rest_ok E v here off n SA PL O RW C N) as [A B]. unfold rest, orest in R. destruct (rel v) as [s|] eqn:RV.
    - destruct (local label sect v s here) as [p|] eqn:LO; [|discriminate]. assert (m = reloc next v p off n) by congruence. subst m. apply (B s p); auto.
    - destruct (segof v || _ || _ || _ || _); [discriminate|]. assert (m = match n with Some i => i | None => create_uint 0 end) by congruence. subst m. auto. }
  clearbody rest. destruct (abs v) as [e|].
  - assert (NM : (if contains 8 e then OErr else match num e with Some n => rest (Some n) | None => match num2 e with Some n => rest (Some n) | None => OErr end end) = ONum m w -> written E v here off m).
    { intros Q. destruct (contains 8 e); [discriminate|]. destruct (num e) as [n|] eqn:Q1.
      - destruct (N1 e n Q1) as [C V]. apply (RO (Some n) Q); [intros i I; injection I as <-; apply canonb_ok; auto|exact V].
      - destruct (num2 e) as [n|] eqn:Q2; [|discriminate]. destruct (N2 e n Q2) as [C V]. apply (RO (Some n) Q); [intros i I; injection I as <-; apply canonb_ok; auto|exact V]. }
    destruct (is_none (rel v)); [|exact (NM H)]. destruct e as [o ts]. destruct o; try exact (NM H). destruct ts as [|t r]; [exact (NM H)|]. destruct t; try exact (NM H). discriminate H.
  - apply (RO None H); [discriminate|]. intros x X. congruence.
Qed.
Lemma get_intnum_ok : forall E num v here off m, sane v -> env_place label sect next start E -> 0 <= off < 2 ^ 31 -> (rel v = None -> wrt v = None) -> num_ok E num ->
  get_intnum label sect next num v (Some (here, off)) = Some m -> written E v here off m.
Proof.
  intros E num v here off m SA PL O RW N1 H. unfold get_intnum in H.
  assert (RO : forall n, match rel v with Some s => match local label sect v s here with Some p => Some (reloc next v p off n) | None => None end | None => Some (match n with Some i => i | None => create_uint 0 end) end = Some m ->
    (forall i, n = Some i -> canon i) -> (forall x, match abs v with None => Some (VNum 0) | Some e => eval E e end = Some x -> x = VNum (match n with Some i => ival i | None => 0 end)) -> written E v here off m).
  { intros n R C N. destruct (rest_ok E v here off n SA PL O RW C N) as [A B]. destruct (rel v) as [s|] eqn:RV.
    - destruct (local label sect v s here) as [p|] eqn:LO; [|discriminate]. assert (m = reloc next v p off n) by congruence. subst m. apply (B s p); auto.
    - assert (m = match n with Some i => i | None => create_uint 0 end) by congruence. subst m. auto. }
  destruct (abs v) as [e|].
  - destruct (num e) as [n|] eqn:Q; [|discriminate]. destruct (N1 e n Q) as [C V]. apply (RO (Some n) H); [intros i I; injection I as <-; apply canonb_ok; auto|exact V].
  - apply (RO None H); [discriminate|]. intros x X. congruence.
Qed.
(** what is left to a relocation *)
Lemma todo_iff : forall num num2 v here off warn s e n, rel v = Some s -> match abs v with None => n = None | Some x => x = e /\ contains 8 e = false /\ n <> None /\ n = match num e with Some i => Some i | None => num2 e end end ->
  output_basic label sect next num num2 v here off warn = OTodo <->
  ~ exists p, label s = Some p /\ sect p = here /\ curpos_rel v = true /\ wrt v = None /\ segof v = false /\ section_rel v = false.
Proof.
  intros num num2 v here off warn s e n RS AB. rewrite output_eq. cbv zeta. set (w := if warn && _ then _ else _). clearbody w.
  assert (OR : orest v here off w n = OTodo <-> ~ exists p, label s = Some p /\ sect p = here /\ curpos_rel v = true /\ wrt v = None /\ segof v = false /\ section_rel v = false).
  { unfold orest. rewrite RS. unfold local. destruct (label s) as [p|] eqn:LB; [|split; auto; intros _ (p & Q & _); discriminate Q].
    destruct (is_none (wrt v)) eqn:A, (segof v) eqn:B, (section_rel v) eqn:C, (Z.eqb_spec (sect p) here) as [D|D], (curpos_rel v) eqn:F; cbn [andb negb];
      (split; [intros X; try discriminate X; intros (q & Q1 & Q2 & Q3 & Q4 & Q5 & Q6); try congruence; try (rewrite Q4 in A; discriminate A)|intros X; try reflexivity]).
    exfalso. apply X. exists p. repeat split; auto. destruct (wrt v); auto. discriminate A. }
  destruct (abs v) as [x|]; [|subst n; exact OR]. destruct AB as (-> & CT & NN & NE). rewrite RS. cbn [is_none]. rewrite CT. destruct (num e) as [i|]; [subst n; exact OR|]. destruct (num2 e) as [i|]; [subst n; exact OR|congruence].
Qed.
(** what is written is the value of the expression *)
Variable equ : Z -> option expr.
Variable curpos special : Z -> bool.
Variable precbc : option Z.
Variable dot : Z.
Hypothesis SD : forall s d, equ s = Some d -> shaped (eitem d).
Lemma whole_ok : forall nequ err e sz v num num2 here off warn m w E z, shaped (eitem e) ->
  (forall e1 st b, level_tree nequ equ true true false [] e = Fin (e1, st, b) -> tame false (core (unmask (sz mod 2 ^ 8) e1))) ->
  finalize_expr label sect equ curpos special precbc dot nequ err (Some e) sz = FOk v ->
  env_value curpos dot base (start here + off) E -> env_equ equ E -> env_place label sect next start E -> num_ok E num -> num_ok E num2 -> 0 <= off < 2 ^ 31 ->
  (rel v = None -> wrt v = None) -> eval E e = Some (VNum z) ->
  output_basic label sect next num num2 v here off warn = ONum m w \/ get_intnum label sect next num v (Some (here, off)) = Some m ->
  canonb m = true /\ (2 ^ (if no_warn v then size v else 256) | ival m - z).
Proof.
  intros nequ err e sz v num num2 here off warn m w E z SH TM FI EV EE PL N1 N2 O RW Z H. destruct (finalize_ok label sect equ curpos special precbc dot base (start here + off) SD nequ err e sz v SH TM FI E z EV EE Z) as [KP (y & Y & D)].
  destruct KP as (SZ & _ & _ & _ & _ & SA). assert (WR : written E v here off m) by (destruct H as [H|H]; [exact (output_ok E num num2 v here off warn m w SA PL O RW N1 N2 H)|exact (get_intnum_ok E num v here off m SA PL O RW N1 H)]). destruct (WR y Y) as [C DV]. split; auto.
  replace (ival m - z) with ((ival m - y) + (y - z)) by lia. apply Z.divide_add_r; auto. destruct (no_warn v); auto. eapply Z.divide_trans; [|exact DV]. rewrite SZ. pose proof (Z.mod_pos_bound sz (2 ^ 8) eq_refl) as B. set (k := sz mod 2 ^ 8) in *. clearbody k. change (2 ^ 8) with 256 in B. exists (2 ^ (256 - k)). rewrite <- Z.pow_add_r by lia. f_equal. lia.
Qed.
End Out.
