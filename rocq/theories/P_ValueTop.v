(** Finalizing values (C70-C72). *)
From Coq Require Import ZArith List Bool Lia Permutation Arith.
From Verif Require Import Lib LibBits M_BitVect P_BitVect P_BitVectIO M_Intnum P_Intnum P_IntnumIO M_Expr P_Expr P_ExprLevel P_ExprTree P_ExprTree2 P_ExprTop M_Value P_Value.
Import ListNotations.
Open Scope Z_scope.

(** * Specification *)
(** The expression without a mask of [sz] ones, and without identities around it. *)
Definition ones (sz : Z) (t : item) : bool := match t with TInt n => ival n =? 2 ^ sz - 1 | _ => false end.
Definition unmask (sz : Z) (e : expr) : item :=
  match e with
  | (AND, ts) => match filter (fun t => negb (ones sz t)) ts with [a] => a | l => TExpr AND l end
  | (o, ts) => TExpr o ts
  end.
Fixpoint core (t : item) : item :=
  match t with TExpr IDENT [a] => core a | _ => t end.

(** * The mask *)
Lemma mask_ok : forall sz, 0 <= sz < 256 -> canon (mask sz) /\ ival (mask sz) = 2 ^ sz - 1.
Proof.
  intros sz H. unfold mask. change (create_uint 1) with (IL 1). assert (CU : create_uint sz = IL sz) by (unfold create_uint, LONG_MAX; destruct (Z.ltb_spec 9223372036854775807 sz); [lia|auto]). rewrite CU.
  assert (C1 : canon (IL 1)) by (cbn [canon]; lia). assert (C2 : canon (IL sz)) by (cbn [canon]; lia).
  destruct (ical_ok (IL 1) SHL (IL sz) (2 ^ sz) C1 C2) as [C3 V3]; [|discriminate|].
  { cbn [meaning ival]. destruct (Z.ltb_spec sz 0); [lia|]. f_equal. destruct (Z.leb_spec 0 sz); try lia. }
  destruct (ical_ok _ SUB (IL 1) (wrap256 (2 ^ sz) - 1) C3 C1) as [C4 V4]; [cbn [meaning ival]; rewrite V3; reflexivity|discriminate|]. split; auto. rewrite V4. replace (wrap256 (2 ^ sz) - 1) with (wrap256 (2 ^ sz) + -1) by lia. rewrite wrap_add_l. apply wrap_id.
  assert (2 ^ sz <= 2 ^ 255) by (apply Z.pow_le_mono_r; lia). assert (0 < 2 ^ sz) by (apply Z.pow_pos_nonneg; lia). lia.
Qed.
Lemma filter_perm : forall (p : item -> bool) l, Permutation l (filter p l ++ filter (fun t => negb (p t)) l).
Proof.
  intros p l. induction l as [|t r IH]; auto. cbn [filter]. destruct (p t); cbn [negb app]; [constructor; auto|]. eapply Permutation_trans; [constructor; exact IH|]. apply Permutation_middle.
Qed.
Lemma filter_le : forall (p q : item -> bool) l, (forall t, p t = true -> q t = true) -> (length (filter p l) <= length (filter q l))%nat.
Proof. intros p q l H. induction l as [|t r IH]; auto. cbn [filter]. destruct (p t) eqn:P; [rewrite (H t P); cbn [length]; lia|]. destruct (q t); cbn [length]; lia. Qed.
Lemma filter_ext_ev : forall E sz ts, 0 <= sz < 256 -> Forall (isnum E) ts ->
  filter (fun t => negb (is_mask (mask sz) t)) ts = filter (fun t => negb (ones sz t)) ts /\ filter (is_mask (mask sz)) ts = filter (ones sz) ts.
Proof.
  intros E sz ts S F. destruct (mask_ok sz S) as [CM VM].
  assert (Q : forall t, In t ts -> is_mask (mask sz) t = ones sz t).
  { intros t I. rewrite Forall_forall in F. destruct (F t I) as [z Z]. destruct t as [| |n| | | | |]; auto. apply ev_int in Z. destruct Z as [C _]. cbn [is_mask ones]. rewrite compare_ok by auto. rewrite VM. destruct (Z.eqb_spec (ival n) (2 ^ sz - 1)) as [->|N]; [rewrite Z.sub_diag; reflexivity|]. apply Z.eqb_neq. intros X. apply Z.sgn_null_iff in X. lia. }
  split; apply filter_ext_in; intros t I; rewrite Q; auto.
Qed.
(** What stripping the mask does to a simplified expression: nothing, or it is a mask of the rest *)
Lemma strip_ok : forall E e v e2 v1 z, 0 <= size v < 256 -> good (eitem e) -> eval E e = Some (VNum z) -> strip_mask e v = (e2, v1) ->
  shaped (eitem e2) /\ (exists z2, eval E e2 = Some (VNum z2) /\ ((v1 = v /\ z2 = z) \/ (v1 = set_nowarn v /\ z = z2 mod 2 ^ size v))) /\
  core (eitem e2) = core (unmask (size v) e).
Proof.
  intros E [o ts] v e2 v1 z SZ G V H.
  assert (OC : o = AND \/ o <> AND) by (destruct o; auto; right; discriminate). destruct OC as [->|NA].
  2:{ assert (Q : e2 = (o, ts) /\ v1 = v) by (destruct o; try congruence; cbn [strip_mask] in H; injection H as <- <-; auto). destruct Q as [-> ->]. split; [apply good_shaped; auto|]. split; [exists z; auto|]. destruct o; try congruence; reflexivity. }
  unfold eval in V. cbn [fst snd] in V. apply ev_nary in V; auto. destruct V as (LN & w & Q & SM). injection Q as <-. destruct SM as (zs & EV & AS).
  assert (NUM : Forall (isnum E) ts) by (apply evn_isnum; eauto). destruct (filter_ext_ev E (size v) ts SZ NUM) as [F1 F2].
  cbn [strip_mask] in H. rewrite F1 in H. cbn [unmask]. clear F1 F2. set (l := filter (fun t => negb (ones (size v) t)) ts) in *.
  pose proof (filter_perm (ones (size v)) ts) as PM. fold l in PM.
  apply good_expr in G. destruct G as (_ & G1 & G2). specialize (G1 eq_refl). rewrite <- ints_its in G1. unfold ints in G1.
  assert (LE : (length (filter (ones (size v)) ts) <= 1)%nat) by (eapply Nat.le_trans; [apply (filter_le _ is_int)|exact G1]; intros t; destruct t; try discriminate; auto).
  assert (SL : Forall shaped l) by (apply Forall_forall; intros t I; apply filter_In in I; rewrite Forall_forall in G2; apply good_shaped, G2; tauto).
  pose proof (Permutation_length PM) as PL. rewrite app_length in PL.
  destruct (filter (ones (size v)) ts) as [|m [|m' ms]] eqn:FM; cbn [length] in *; try lia.
  - (* no mask *) assert (l = ts).
    { unfold l. clear -FM. induction ts as [|t r IH]; auto. cbn [filter] in *. destruct (ones (size v) t); [discriminate|]. cbn [negb]. rewrite IH; auto. }
    clearbody l. subst l. rewrite Nat.eqb_refl in H. destruct (Nat.eqb_spec (length ts) 1); [lia|]. injection H as <- <-.
    split; [apply shaped_expr; split; [exact LN|auto]|]. split; [exists z; split; auto; unfold eval; cbn [fst snd]; apply ev_nary; auto; split; auto; exists z; split; auto; exists zs; auto|]. destruct ts as [|a [|b r]]; cbn [length] in *; try lia. reflexivity.
  - (* a mask *) destruct (Nat.eqb_spec (length l) (length ts)); [lia|]. cbn [app] in PM.
    assert (SM : sem E AND (m :: l) z) by (eapply sem_perm; [exact PM|exists zs; auto]). destruct SM as (ys & EY & AY). inversion EY as [|? y0 ? yr E1 E2]; subst.
    assert (M : ones (size v) m = true) by (apply (proj2 (proj1 (filter_In (ones (size v)) m ts) ltac:(rewrite FM; left; auto)))). destruct m as [| |mn| | | | |]; try discriminate M. cbn [ones] in M. apply Z.eqb_eq in M. apply ev_int in E1. destruct E1 as [_ <-]. rewrite M in *.
    apply asem_fl in AY. destruct AY as (_ & _ & AY). destruct yr as [|y yr]; [exfalso; apply F2_length in E2; cbn [length] in E2; lia|]. rewrite fl_cons2 in AY. cbn [comb] in AY. rewrite Z.land_comm, land_mask in AY by lia.
    assert (S2 : sem E AND l (fl AND (y :: yr))) by (exists (y :: yr); split; [exact E2|apply asem_fl; split; [discriminate|split; reflexivity]]).
    assert (EV2 : eval E e2 = Some (VNum (fl AND (y :: yr)))).
    { unfold eval. destruct (Nat.eqb_spec (length l) 1) as [e|n0]; injection H as <- <-; cbn [fst snd].
      - destruct l as [|a [|b r]]; try discriminate e. apply ev_ident. apply (sem_one E AND). exact S2.
      - apply sem_ge; auto. lia. }
    split; [|split; [exists (fl AND (y :: yr)); split; auto; right; split; [destruct (Nat.eqb (length l) 1); injection H as <- <-; auto|auto]|]].
    + destruct (Nat.eqb_spec (length l) 1) as [e|n0]; injection H as <- <-; apply shaped_expr; split; auto; cbn; lia.
    + destruct (Nat.eqb_spec (length l) 1) as [e|n0]; injection H as <- <-.
      * destruct l as [|a [|b r]]; try discriminate e. reflexivity.
      * destruct l as [|a [|b r]]; try (cbn [length] in *; lia). reflexivity.
Qed.

Lemma lower_tame : forall t, shaped t -> tame false (core t) -> tame false (lower t) /\ shaped (lower t) /\ is_expr (lower t) = is_expr t /\ forall E, le E t (lower t).
Proof.
  intros t. induction t as [| | | | | | |o ts IH] using item_ind2; intros SH TM; try (split; [exact I|]; split; [exact SH|]; split; [reflexivity|intros E; apply le_refl]).
  assert (OC : o = IDENT \/ o <> IDENT) by (destruct o; auto; right; discriminate). destruct OC as [->|NI].
  2:{ assert (Q : lower (TExpr o ts) = TExpr o ts /\ core (TExpr o ts) = TExpr o ts) by (destruct o; try congruence; auto). destruct Q as [-> Q]. rewrite Q in TM. auto using le_refl. }
  pose proof SH as SH0. apply shaped_expr in SH. destruct SH as [AR SH]. cbn in AR. destruct ts as [|a [|b r]]; try discriminate AR. inversion IH as [|? ? IH1 _]; subst. inversion SH as [|? ? SH1 _]; subst. cbn [core] in TM.
  assert (LEAF : is_expr a = false -> tame false (TExpr IDENT [a])) by (intros Q; apply tame_expr; split; [discriminate|]; split; [discriminate|]; constructor; [destruct a; try discriminate Q; exact I|constructor]).
  destruct a as [| | | | | | |o' s] eqn:EA; try (split; [exact (LEAF eq_refl)|]; split; [exact SH0|]; split; [reflexivity|intros E; apply le_refl]).
  rewrite <- EA in *. assert (LW : lower (TExpr IDENT [a]) = lower a) by (subst a; reflexivity). rewrite LW. destruct (IH1 SH1 TM) as (A & B & C & D). split; auto. split; auto. split; [subst a; exact C|]. intros E. apply (le_trans E _ a); [apply (le_ident E a)|apply D].
Qed.

Section Top.
Variable label : Z -> option Z.
Variable sect : Z -> Z.
Variable equ : Z -> option expr.
Variable curpos special : Z -> bool.
Variable precbc : option Z.
Variable dot : Z.
Variable base : Z -> Z.
Variable pos : Z.
Hypothesis SD : forall s d, equ s = Some d -> shaped (eitem d).
Notation scan := (scan label sect equ curpos special precbc dot).
Notation finish := (finish label sect equ curpos special precbc dot).
Notation finalize := (finalize label sect equ curpos special precbc dot).
Notation env_value := (env_value curpos dot base pos).
Notation means := (means base pos).
Notation parts := (parts base pos).
Lemma level_ok : forall nequ e e' st b, shaped (eitem e) -> level_tree nequ equ true true false [] e = Fin (e', st, b) ->
  good (eitem e') /\ forall E w, env_equ equ E -> eval E e = Some w -> eval E e' = Some w.
Proof.
  intros nequ e e' st b SH H. destruct (level_tree_ok (fun _ _ => True) (fun _ _ => True) nequ equ false [] e e' st b ltac:(auto) ltac:(auto) ltac:(auto) SH SD H) as (G & _ & V & _). split; auto.
Qed.
Lemma zero_none_ok : forall E e a, eval E e = Some (VNum a) -> match zero_none e with None => Some (VNum 0) | Some e' => eval E e' end = Some (VNum a).
Proof.
  intros E [o ts] a H. destruct o; auto. destruct ts as [|[| |n| | | | |] r]; auto. cbn [zero_none]. destruct (is_zero n) eqn:Q; auto. unfold eval in H. cbn [fst snd] in H. apply ident_inv in H. destruct H as [_ H]. apply ev_int in H. destruct H as [C <-]. rewrite is_zero_ok in Q by auto. apply Z.eqb_eq in Q. congruence.
Qed.
Lemma parts_abs : forall E v a, parts E (set_abs v a) = parts E v. Proof. reflexivity. Qed.
Lemma means_abs : forall E v e a d, eval E e = Some (VNum a) -> parts E v = Some d -> means E (set_abs v (zero_none e)) = Some (a + d).
Proof. intros E v e a d A D. unfold P_Value.means. rewrite parts_abs, D. cbn [abs set_abs]. rewrite (zero_none_ok E e a A). reflexivity. Qed.
Lemma finish_ok : forall nequ v t v', finish nequ v t = FOk v' -> is_expr t = true -> shaped t -> tame false t -> sane v ->
  sane v' /\ no_warn v' = no_warn v /\ size v' = size v /\ ip_rel v' = ip_rel v /\ jump_target v' = jump_target v /\ section_rel v' = section_rel v /\ signed v' = signed v /\
  forall E z x, env_value E -> env_equ equ E -> ev E t = Some (VNum z) -> parts E v = Some x -> exists y, means E v' = Some y /\ wrap256 y = wrap256 (z + x).
Proof.
  intros nequ v t v' H IE SH TM SA. unfold M_Value.finish in H. destruct (scan t v false) as [t' v2| |] eqn:SC; try discriminate. destruct (scan_ok label sect equ curpos special precbc dot base pos t v false t' v2 SC SH TM SA) as (A0 & A1 & A2 & A3 & _ & A5).
  destruct (level_tree nequ equ true true false [] (of_item t')) as [[[e' st] b]| |] eqn:LV; try discriminate. injection H as <-. rewrite IE in A0. assert (EO : eitem (of_item t') = t') by (destruct t'; try discriminate A0; reflexivity).
  destruct (level_ok nequ _ _ _ _ ltac:(rewrite EO; exact A1) LV) as [_ LE]. destruct A3 as (B1 & B2 & B3 & B4 & B5 & B6 & B7). split; [exact A2|]. repeat (split; [assumption|]).
  intros E z x K EE Z X. destruct (proj1 (A5 E K) z Z) as (d & z' & [_ D] & Z' & W). specialize (D x X). exists (z' + (x + d)). split.
  - apply means_abs; auto. apply LE; auto. unfold eval. fold (eitem (of_item t')). rewrite EO. exact Z'.
  - replace (z' + (x + d)) with (z' + d + x) by lia. rewrite <- wrap_add_l, W. reflexivity.
Qed.
Lemma wrap_div : forall a b, wrap256 a = wrap256 b -> (2 ^ 256 | a - b).
Proof.
  intros a b H. apply Z.mod_divide; [discriminate|]. assert (Q : a mod 2 ^ 256 = b mod 2 ^ 256) by (rewrite <- (wrap_mod a), <- (wrap_mod b), H; reflexivity). rewrite Zminus_mod, Q, Z.sub_diag. reflexivity.
Qed.
Lemma init_sane : forall e sz, sane (init e sz). Proof. intros. repeat split. cbn [init rshift]. lia. Qed.
(** the flags that only the caller sets *)
Definition kept (sz : Z) (v : val) : Prop := size v = sz mod 2 ^ 8 /\ ip_rel v = false /\ jump_target v = false /\ section_rel v = false /\ signed v = false /\ sane v.
Lemma finalize_ok : forall nequ err e sz v, shaped (eitem e) ->
  (forall e1 st b, level_tree nequ equ true true false [] e = Fin (e1, st, b) -> tame false (core (unmask (sz mod 2 ^ 8) e1))) ->
  finalize_expr label sect equ curpos special precbc dot nequ err (Some e) sz = FOk v ->
  forall E z, env_value E -> env_equ equ E -> eval E e = Some (VNum z) ->
  kept sz v /\ exists y, means E v = Some y /\ (2 ^ (if no_warn v then size v else 256) | y - z).
Proof.
  intros nequ err e sz v SH TM H E z K EE Z. unfold finalize_expr, M_Value.finalize in H. cbn [abs init] in H. destruct (level_tree nequ equ true true false [] e) as [[[e1 st] circ]| |] eqn:LV; try discriminate.
  destruct (err || circ); [discriminate|]. destruct (level_ok nequ _ _ _ _ SH LV) as [G1 LE]. pose proof (LE E _ EE Z) as Z1. specialize (TM e1 st circ eq_refl). set (v0 := init (Some e) sz) in *. destruct (strip_mask e1 v0) as [e2 v1] eqn:ST.
  assert (SZ : 0 <= size v0 < 256) by (unfold v0; cbn [size init]; apply (Z.mod_pos_bound sz 256); reflexivity).
  destruct (strip_ok E e1 v0 e2 v1 z SZ G1 Z1 ST) as (SH2 & (z2 & Z2 & VV) & CO). change (sz mod 2 ^ 8) with (size v0) in TM. rewrite <- CO in TM.
  assert (SA : sane v1 /\ parts E v1 = Some 0 /\ (no_warn v1 = true -> (2 ^ size v0 | z2 - z)) /\ (no_warn v1 = false -> z2 = z) /\ size v1 = sz mod 2 ^ 8 /\ ip_rel v1 = false /\ jump_target v1 = false /\ section_rel v1 = false /\ signed v1 = false /\ rel v1 = None).
  { assert (D0 : parts E v0 = Some 0) by reflexivity. destruct VV as [[-> ->]|[-> ->]].
    - split; [apply init_sane|]. split; auto. split; [discriminate|]. repeat split.
    - split; [apply (init_sane (Some e) sz)|]. split; [exact D0|]. split; [|repeat split; discriminate]. intros _. exists (z2 / 2 ^ size v0). assert (2 ^ size v0 <> 0) by (apply Z.pow_nonzero; lia). pose proof (Z.div_mod z2 (2 ^ size v0)). lia. }
  assert (S0 : size v0 = sz mod 2 ^ 8) by reflexivity. clear VV ST. clearbody v0. destruct SA as (SA & P0 & NW1 & NW0 & F1 & F2 & F3 & F4 & F5 & F6). 
  assert (DIV : forall y, wrap256 y = wrap256 z2 -> (2 ^ (if no_warn v1 then size v1 else 256) | y - z)).
  { intros y Y. apply wrap_div in Y. destruct (no_warn v1) eqn:NW; [|rewrite <- (NW0 eq_refl); exact Y]. replace (y - z) with ((y - z2) + (z2 - z)) by lia. apply Z.divide_add_r.
    - eapply Z.divide_trans; [|exact Y]. exists (2 ^ (256 - size v1)). rewrite <- Z.pow_add_r by (rewrite F1; pose proof (Z.mod_pos_bound sz (2 ^ 8) eq_refl); change (2 ^ 8) with 256 in *; lia). f_equal. lia.
    - rewrite F1, <- S0. exact (NW1 eq_refl). }
  assert (FIN : forall v2, sane v2 -> no_warn v2 = no_warn v1 -> size v2 = size v1 -> ip_rel v2 = ip_rel v1 -> jump_target v2 = jump_target v1 -> section_rel v2 = section_rel v1 -> signed v2 = signed v1 ->
    (exists y, means E v2 = Some y /\ wrap256 y = wrap256 z2) -> kept sz v2 /\ exists y, means E v2 = Some y /\ (2 ^ (if no_warn v2 then size v2 else 256) | y - z)).
  { intros v2 [SA1 SA2] B1 B2 B3 B4 B5 B6 (y & Y1 & Y2). split; [|exists y; split; auto; rewrite B1, B2; auto]. repeat (split; [congruence|]). split; auto. }
  destruct e2 as [o2 ts2]. assert (FINISH : forall t, finish nequ v1 t = FOk v -> is_expr t = true -> shaped t -> tame false t -> ev E t = Some (VNum z2) -> kept sz v /\ exists y, means E v = Some y /\ (2 ^ (if no_warn v then size v else 256) | y - z)).
  { intros t FI IE ST TT ET. destruct (finish_ok nequ v1 t v FI IE ST TT SA) as (B0 & B1 & B2 & B3 & B4 & B5 & B6 & B7). apply FIN; auto. destruct (B7 E z2 0 K EE ET P0) as (y & Y1 & Y2). exists y. rewrite Z.add_0_r in Y2. auto. }
  assert (OC : o2 = IDENT \/ o2 <> IDENT) by (destruct o2; auto; right; discriminate). destruct OC as [->|NI].
  2:{ assert (H2 : finish nequ v1 (TExpr o2 ts2) = FOk v) by (destruct o2; try congruence; exact H). apply (FINISH _ H2); auto. assert (Q : core (eitem (o2, ts2)) = TExpr o2 ts2) by (destruct o2; try congruence; reflexivity). rewrite Q in TM. exact TM. }
  apply shaped_expr in SH2. destruct SH2 as [AR SH2]. cbn in AR. destruct ts2 as [|a [|b r]]; try discriminate AR. inversion SH2 as [|? ? SH3 _]; subst. unfold eval in Z2. cbn [fst snd] in Z2.
  assert (PLAIN : forall x, x = Some (IDENT, [a]) \/ x = zero_none (IDENT, [a]) -> kept sz (set_abs v1 x) /\ exists y, means E (set_abs v1 x) = Some y /\ (2 ^ (if no_warn (set_abs v1 x) then size (set_abs v1 x) else 256) | y - z)).
  { intros x X. apply FIN; auto. exists (z2 + 0). rewrite Z.add_0_r. split; auto. destruct X as [-> | ->]; [unfold P_Value.means; rewrite parts_abs, P0; cbn [abs set_abs]; unfold eval; cbn [fst snd]; rewrite Z2; f_equal; lia|]. rewrite (means_abs E v1 (IDENT, [a]) z2 0); auto. f_equal. lia. }
  destruct a as [|rg|n|k|sg fl|s|p|o ts] eqn:EA; try discriminate H; try (injection H as <-; apply PLAIN; auto).
  - (* symbol *) clear PLAIN. injection H as <-. apply ident_inv in Z2. destruct Z2 as [_ Z2]. destruct (set_rel_ok base pos v1 s false F6 SA) as (B1 & B2 & B3). destruct B2 as (C1 & C2 & C3 & C4 & C5 & C6 & C7). apply FIN; auto.
    exists z2. split; auto. unfold P_Value.means. rewrite parts_abs. cbn [abs set_abs]. apply ev_sym in Z2. destruct (B3 E z2 Z2) as [_ M]. rewrite (M 0 P0). f_equal. lia.
  - (* expression *) rewrite <- EA in *. apply ident_inv in Z2. destruct Z2 as [_ Z2]. assert (TM2 : tame false (core a)) by exact TM. destruct (lower_tame a SH3 TM2) as (B1 & B2 & B3 & B4). apply (FINISH (lower a)); auto; [rewrite B3; subst a; reflexivity|]. apply B4. exact Z2.
Qed.
End Top.
