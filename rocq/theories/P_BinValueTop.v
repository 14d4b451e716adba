(** Flat binaries: from the expression to the bytes (C88). *)
From Coq Require Import ZArith List Bool Lia.
From Verif Require Import Lib LibBits M_BitVect P_BitVect P_BitVectIO M_Intnum P_Intnum P_IntnumIO M_Expr P_Expr P_ExprLevel P_ExprTree P_ExprTree2 P_ExprTop P_ExprUse M_Value P_Value P_ValueTop P_ValueOut P_ElfReloc M_CoffReloc P_CoffReloc M_BinValue P_BinValue.
Import ListNotations.
Open Scope Z_scope.

(** * What finalization leaves is well formed *)
Lemma leaf_good : forall t, is_expr t = false -> t <> TNone -> good (eitem (IDENT, [t])).
Proof. intros t X N. apply good_expr. split; [reflexivity|]. split; [discriminate|]. constructor; [|constructor]. destruct t; try discriminate X; try exact I. congruence. Qed.
Lemma zero_none_inv : forall e x, zero_none e = Some x -> x = e.
Proof. intros [o ts] x H. unfold zero_none in H. destruct o; try congruence. destruct ts as [|[] r]; try congruence. destruct (is_zero n); congruence. Qed.
Section Fin.
Variable label : Z -> option Z.
Variable sect : Z -> Z.
Variable equ : Z -> option expr.
Variable curpos special : Z -> bool.
Variable precbc : option Z.
Variable dot : Z.
Variable base : Z -> Z.
Variable pos : Z.
Hypothesis SD : forall s d, equ s = Some d -> shaped (eitem d).
Notation scan := (scan label sect equ curpos special precbc dot).
Notation finish := (finish label sect equ curpos special precbc dot).
Lemma finish_good : forall nequ v t w x, finish nequ v t = FOk w -> is_expr t = true -> shaped t -> tame false t -> sane v -> abs w = Some x -> good (eitem x).
Proof.
  intros nequ v t w x H IE SH TM SA A. unfold M_Value.finish in H. destruct (scan t v false) as [t' v'| |] eqn:SC; try discriminate H. destruct (scan_ok label sect equ curpos special precbc dot base pos t v false t' v' SC SH TM SA) as (A0 & A1 & _).
  destruct (level_tree nequ equ true true false [] (of_item t')) as [[[e' st] b]| |] eqn:LT; try discriminate H. assert (w = set_abs v' (zero_none e')) by congruence. subst w. cbn [abs set_abs] in A. apply zero_none_inv in A. subst x.
  rewrite IE in A0. assert (EO : eitem (of_item t') = t') by (destruct t'; try discriminate A0; reflexivity).
  apply (proj1 (level_ok equ SD nequ _ _ _ _ ltac:(rewrite EO; exact A1) LT)).
Qed.
Lemma finalize_good : forall nequ err e sz v x, shaped (eitem e) ->
  (forall e1 st b, level_tree nequ equ true true false [] e = Fin (e1, st, b) -> tame false (core (unmask (sz mod 2 ^ 8) e1))) ->
  finalize_expr label sect equ curpos special precbc dot nequ err (Some e) sz = FOk v ->
  forall E z, env_equ equ E -> eval E e = Some (VNum z) -> abs v = Some x -> good (eitem x).
Proof.
  intros nequ err e sz v x SH TM H E z EE Z A. unfold finalize_expr, M_Value.finalize in H. cbn [abs init] in H. destruct (level_tree nequ equ true true false [] e) as [[[e1 st] circ]| |] eqn:LV; try discriminate.
  destruct (err || circ); [discriminate|]. destruct (level_ok equ SD nequ _ _ _ _ SH LV) as [G1 LE]. pose proof (LE E _ EE Z) as Z1. specialize (TM e1 st circ eq_refl). set (v0 := init (Some e) sz) in *. destruct (strip_mask e1 v0) as [e2 v1] eqn:ST.
  assert (SZ : 0 <= size v0 < 256) by (unfold v0; cbn [size init]; apply (Z.mod_pos_bound sz 256); reflexivity).
  destruct (strip_ok E e1 v0 e2 v1 z SZ G1 Z1 ST) as (SH2 & (z2 & Z2 & VV) & CO). change (sz mod 2 ^ 8) with (size v0) in TM. rewrite <- CO in TM.
  assert (SA : sane v1) by (destruct VV as [[-> _]|[-> _]]; apply (init_sane (Some e) sz)).
  destruct e2 as [o2 ts2]. assert (OC : o2 = IDENT \/ o2 <> IDENT) by (destruct o2; auto; right; discriminate). destruct OC as [->|NI].
  2:{ assert (H2 : finish nequ v1 (TExpr o2 ts2) = FOk v) by (destruct o2; try congruence; exact H). apply (finish_good nequ v1 (TExpr o2 ts2) v); auto. assert (Q : core (eitem (o2, ts2)) = TExpr o2 ts2) by (destruct o2; try congruence; reflexivity). rewrite Q in TM. exact TM. }
  apply shaped_expr in SH2. destruct SH2 as [AR SH2]. cbn in AR. destruct ts2 as [|a [|b r]]; try discriminate AR. inversion SH2 as [|? ? SH3 _]; subst.
  assert (FK : forall w, FOk w = FOk v -> v = w) by (intros w Q; injection Q; auto). destruct a as [|rg|n|k|sg fl|s|p|o ts] eqn:EA; try discriminate H.
  - pose proof (FK _ H) as V. rewrite V in A. cbn [abs set_abs] in A. assert (X : x = (IDENT, [TReg rg])) by congruence. rewrite X. apply leaf_good; [reflexivity|discriminate].
  - pose proof (FK _ H) as V. rewrite V in A. cbn [abs set_abs] in A. apply zero_none_inv in A. rewrite A. apply leaf_good; [reflexivity|discriminate].
  - pose proof (FK _ H) as V. rewrite V in A. cbn [abs set_abs] in A. assert (X : x = (IDENT, [TFloat sg fl])) by congruence. rewrite X. apply leaf_good; [reflexivity|discriminate].
  - pose proof (FK _ H) as V. rewrite V in A. discriminate A.
  - rewrite <- EA in *. assert (TM2 : tame false (core a)) by exact TM. destruct (lower_tame a SH3 TM2) as (B1 & B2 & B3 & _). apply (finish_good nequ v1 (lower a) v); auto. rewrite B3. subst a. reflexivity.
Qed.
End Fin.

(** * The whole way *)
Lemma R_div : forall a b, R a -> R b -> (2 ^ 256 | a - b) -> a = b.
Proof. intros a b RA RB [q Q]. unfold R in *. change (2 ^ 256) with (2 * 2 ^ 255) in Q. nia. Qed.
Section Whole.
Variable nequ : nat.
Variable equ : Z -> option expr.
Variable label : Z -> option Z.
Variable sect next first : Z -> Z.
Variable vstart : Z -> intnum.
Variable is_abs : Z -> bool.
Variable bsymd : Z -> option (Z * which).
Variable istart slength : Z -> intnum.
Notation bvalue := (bin_value nequ equ label sect next first vstart is_abs bsymd istart slength).
(** flags that are still there when the value comes out are clear, whatever the symbols are *)
Lemma bvalue_flags : forall num2 v buf bc bcoff blen warn out ws, bvalue num2 v buf bc bcoff blen warn = BBytes out ws ->
  segof v = false /\ section_rel v = false /\ (rel v = None -> rshift v <= 0 /\ curpos_rel v = false /\ ip_rel v = false) /\ (forall s, rel v = Some s -> target label vstart is_abs bsymd istart slength s <> None).
Proof.
  intros num2 v buf bc bcoff blen warn out ws H. unfold bin_value in H.
  assert (OB : forall v2 here off w0 m w, rel v2 = None -> output_basic label sect next (number nequ equ label sect next) num2 v2 here off w0 = ONum m w -> segof v2 = false /\ section_rel v2 = false /\ rshift v2 <= 0 /\ curpos_rel v2 = false /\ ip_rel v2 = false).
  { intros v2 here off w0 m w RN Q. rewrite output_eq in Q. cbv zeta in Q. assert (OR : forall w1 n, orest label sect next v2 here off w1 n = ONum m w -> segof v2 = false /\ section_rel v2 = false /\ rshift v2 <= 0 /\ curpos_rel v2 = false /\ ip_rel v2 = false).
    { intros w1 n OR. unfold orest in OR. rewrite RN in OR. destruct (segof v2); [discriminate|]. destruct (Z.ltb_spec 0 (rshift v2)); [discriminate|]. destruct (curpos_rel v2); [discriminate|]. destruct (ip_rel v2); [discriminate|]. destruct (section_rel v2); [discriminate|]. auto. }
    destruct (abs v2) as [[o ts]|]; [|eauto]. rewrite RN in Q. cbn [is_none] in Q. set (B := if contains 8 (o, ts) then _ else _) in Q. assert (KB : B = ONum m w -> segof v2 = false /\ section_rel v2 = false /\ rshift v2 <= 0 /\ curpos_rel v2 = false /\ ip_rel v2 = false).
    { unfold B. intros X. destruct (contains 8 (o, ts)); [discriminate|]. destruct (number nequ equ label sect next (o, ts)); [eauto|]. destruct (num2 (o, ts)); [eauto|discriminate]. }
    clearbody B. destruct o; auto. destruct ts as [|[] r]; auto. discriminate. }
  assert (LV : forall v1 w0 (k : val -> bres), (match abs v1 with None => Fin v1 | Some e => bind (level_tree nequ equ true true true [bin_xform label sect next first vstart bsymd istart slength] e) (fun r => let '(e0, _, _) := r in Fin (set_abs v1 (Some e0))) end) = Fin w0 -> rel w0 = rel v1 /\ segof w0 = segof v1 /\ section_rel w0 = section_rel v1 /\ rshift w0 = rshift v1 /\ curpos_rel w0 = curpos_rel v1 /\ ip_rel w0 = ip_rel v1).
  { intros v1 w0 _ Q. destruct (abs v1) as [e|]; [|assert (w0 = v1) by congruence; subst; auto 10]. destruct (level_tree nequ equ true true true _ e) as [[[e' st] b]| |]; try discriminate Q. cbn [bind] in Q. assert (w0 = set_abs v1 (Some e')) by congruence. subst w0. cbn. auto 10. }
  destruct (resolve label vstart is_abs bsymd istart slength v bc blen) as [v1| |] eqn:RS; try discriminate H. cbn [bind] in H.
  destruct (match abs v1 with None => Fin v1 | Some e => _ end) as [v2| |] eqn:L2; try discriminate H. destruct (LV v1 v2 (fun _ => BErr) L2) as (L1 & L3 & L4 & L5 & L6 & L7).
  destruct (output_basic label sect next (number nequ equ label sect next) num2 v2 (sect bc) bcoff warn) as [| | |m w] eqn:OUT; try discriminate H.
  unfold resolve in RS. destruct (rel v) as [s|] eqn:RV.
  - destruct (target label vstart is_abs bsymd istart slength s) as [t|] eqn:T.
    + destruct (combine v t bc blen) as [e| |]; try discriminate RS. cbn [bind] in RS. set (w1 := Val _ _ _ _ _ _ _ _ _ _ _ _) in RS. assert (v1 = w1) by congruence. subst v1. destruct (OB v2 _ _ _ _ _ ltac:(rewrite L1; reflexivity) OUT) as (O1 & O2 & _). split; [rewrite <- O1, L3; reflexivity|]. split; [rewrite <- O2, L4; reflexivity|]. split; [discriminate|]. intros s' Q. assert (s' = s) by congruence. subst s'. rewrite T. discriminate.
    + exfalso. assert (v1 = v) by congruence. subst v1. apply (unresolved nequ equ label sect next vstart is_abs bsymd istart slength v2 num2 (sect bc) bcoff warn s ltac:(rewrite L1; exact RV) T m w OUT).
  - assert (v1 = v) by congruence. subst v1. destruct (OB v2 _ _ _ _ _ ltac:(rewrite L1; exact RV) OUT) as (O1 & O2 & O3 & O4 & O5). split; [congruence|]. split; [congruence|]. split; [|discriminate]. intros _. split; [lia|]. split; congruence.
Qed.

Hypothesis LO : laid_out sect next first.
Hypothesis CV : forall q, canonb (vstart q) = true /\ canonb (istart q) = true /\ canonb (slength q) = true.
Hypothesis SD : forall s d, equ s = Some d -> shaped (eitem d).
(** what the parts of a split expression add up to *)
Lemma split_parts : forall curpos vspecial precbc dot base err e sz v E z pos, shaped (eitem e) ->
  (forall e1 st b, level_tree nequ equ true true false [] e = Fin (e1, st, b) -> tame false (core (unmask (sz mod 2 ^ 8) e1))) ->
  finalize_expr label sect equ curpos vspecial precbc dot nequ err (Some e) sz = FOk v -> wrt v = None -> segof v = false ->
  env_value curpos dot base pos E -> env_equ equ E -> eval E e = Some (VNum z) ->
  kept sz v /\ exists y, parts_value E v pos y /\ R y /\ (2 ^ (if no_warn v then size v else 256) | y - z).
Proof.
  intros curpos vspecial precbc dot base err e sz v E z pos SH TM H WN F1 EV EE Z.
  destruct (finalize_ok label sect equ curpos vspecial precbc dot base _ SD nequ err e sz v SH TM H E z EV EE Z) as [KE (y & MY & DY)].
  pose proof (finalize_good label sect equ curpos vspecial precbc dot base pos SD nequ err e sz v) as FG.
  split; [exact KE|]. destruct KE as (K1 & K2 & K3 & K4 & K5 & SA).
  assert (SZ0 : 0 <= size v < 256) by (rewrite K1; apply (Z.mod_pos_bound sz 256); reflexivity). destruct SA as (SA1 & SA2 & SA3).
  unfold means, parts in MY. rewrite WN, F1 in MY.
  assert (PV : exists y', parts_value E v pos y' /\ wrap256 y' = wrap256 y /\ R y').
  { destruct (match abs v with None => Some (VNum 0) | Some e0 => eval E e0 end) as [[k|]|] eqn:A; try discriminate MY.
    assert (AB : match abs v with None => k = 0 | Some e0 => good (eitem e0) /\ eval E e0 = Some (VNum k) end).
    { destruct (abs v) as [e0|] eqn:AV; [|congruence]. split; [|exact A]. apply (FG e0 SH TM H E z EE Z eq_refl). }
    destruct (rel v) as [s|] eqn:RV.
    - unfold symnum in MY. destruct (symv E s) as [[S|]|] eqn:SV; try discriminate MY. assert (Y : y = k + (wrap256 S / 2 ^ rshift v - (if curpos_rel v then pos else 0) - 0)) by congruence.
      exists (wrap256 (k + offset_of v S pos)). split.
      + exists k, (offset_of v S pos). split; [exact AB|]. rewrite RV. split; [exists S; auto|]. reflexivity.
      + split; [|apply R_wrap]. rewrite (wrap_id (wrap256 _)) by apply R_wrap. rewrite Y. unfold offset_of. destruct (curpos_rel v).
        * rewrite SA2 by reflexivity. rewrite Z.pow_0_r, !Z.div_1_r. replace (k + (wrap256 S - pos - 0)) with ((wrap256 S - pos) + k) by lia. rewrite <- (wrap_add_l (wrap256 S - pos)). rewrite wrap_sub_l. f_equal. lia.
        * rewrite Z.sub_0_r. f_equal. lia.
    - destruct (SA1 eq_refl) as (Q1 & Q2 & Q3). rewrite Q3 in MY. assert (Y : y = k + (0 / 2 ^ rshift v - 0 - 0)) by congruence. rewrite Z.div_0_l in Y by (apply Z.pow_nonzero; lia). exists (wrap256 (k + 0)). split.
      + exists k, 0. split; [exact AB|]. rewrite RV. auto.
      + split; [|apply R_wrap]. rewrite (wrap_id (wrap256 _)) by apply R_wrap. f_equal. lia. }
  destruct PV as (y' & PV & WY & RY). exists y'. split; [exact PV|]. split; [exact RY|].
  apply wrap_div in WY. replace (y' - z) with ((y' - y) + (y - z)) by lia. apply Z.divide_add_r; [|exact DY].
  destruct (no_warn v); [|exact WY]. eapply Z.divide_trans; [|exact WY]. exists (2 ^ (256 - size v)). rewrite <- Z.pow_add_r by lia. f_equal. lia.
Qed.
Theorem written_ok : forall curpos vspecial precbc dot base err e sz v E z num2 buf bc bcoff blen warn out ws, shaped (eitem e) ->
  (forall e1 st b, level_tree nequ equ true true false [] e = Fin (e1, st, b) -> tame false (core (unmask (sz mod 2 ^ 8) e1))) ->
  finalize_expr label sect equ curpos vspecial precbc dot nequ err (Some e) sz = FOk v -> wrt v = None -> rshift v < 2 ^ 31 ->
  env_value curpos dot base (ival (vstart (sect bc)) + bcoff) E -> env_bin label sect next vstart is_abs (ssym vstart bsymd istart slength) E -> env_equ equ E -> eval E e = Some (VNum z) ->
  num_ok E num2 -> 0 <= blen < 2 ^ 31 -> next bc = bcoff + blen ->
  Forall byte buf -> size v <= 8 * Z.of_nat (length buf) -> 8 * Z.of_nat (length buf) <= 256 ->
  bvalue num2 v buf bc bcoff blen warn = BBytes out ws ->
  field_is buf out (size v) z /\ (no_warn v = false -> ws = sized_warns z (size v) 0 (if warn then 1 else 0)).
Proof.
  intros curpos vspecial precbc dot base err e sz v E z num2 buf bc bcoff blen warn out ws SH TM H WN RS EV EB EE Z N2 BL NX F SZ S8 BV.
  destruct (bvalue_flags num2 v buf bc bcoff blen warn out ws BV) as (F1 & _).
  destruct (split_parts curpos vspecial precbc dot base err e sz v E z _ SH TM H WN F1 EV EE Z) as [KE (y & PV & RY & DY)].
  destruct KE as (K1 & K2 & K3 & K4 & K5 & SA). assert (SZ0 : 0 <= size v) by (rewrite K1; apply Z.mod_pos_bound; reflexivity). destruct SA as (SA1 & SA2 & SA3).
  destruct (bvalue_ok nequ equ label sect next first vstart is_abs bsymd istart slength LO CV SD E num2 v buf bc bcoff blen warn out ws y N2 EB EE BL ltac:(lia) NX F ltac:(lia) S8 PV BV) as (FI & WS & _).
  assert (RZ : R z) by exact (ev_R E _ _ Z).
  split.
  - destruct FI as (G1 & G2 & G3 & G4). split; [exact G1|]. split; [exact G2|]. split; [|exact G4]. rewrite G3. apply div_mod; [exact SZ0|].
    destruct (no_warn v); [exact DY|]. eapply Z.divide_trans; [|exact DY]. exists (2 ^ (256 - size v)). rewrite <- Z.pow_add_r by lia. f_equal. lia.
  - intros NW. rewrite NW in DY. assert (y = z) by (apply R_div; auto). subst y. rewrite WS. unfold warn_mode. rewrite NW, K5, andb_true_r. reflexivity.
Qed.
End Whole.

(** * WRT has no effect *)
Definition with_wrt (v : val) (w : option Z) : val := Val (abs v) (rel v) w (segof v) (rshift v) (curpos_rel v) (ip_rel v) (jump_target v) (section_rel v) (no_warn v) (signed v) (size v).
Section Wrt.
Variable nequ : nat.
Variable equ : Z -> option expr.
Variable label : Z -> option Z.
Variable sect next first : Z -> Z.
Variable vstart : Z -> intnum.
Variable is_abs : Z -> bool.
Variable bsymd : Z -> option (Z * which).
Variable istart slength : Z -> intnum.
Theorem wrt_ignored : forall num2 v w buf bc bcoff blen warn,
  bin_value nequ equ label sect next first vstart is_abs bsymd istart slength num2 (with_wrt v w) buf bc bcoff blen warn =
  bin_value nequ equ label sect next first vstart is_abs bsymd istart slength num2 v buf bc bcoff blen warn.
Proof.
  intros num2 v w buf bc bcoff blen warn.
  assert (OB : forall u, (forall s, rel u = Some s -> label s = None) -> output_basic label sect next (number nequ equ label sect next) num2 (with_wrt u w) (sect bc) bcoff warn = output_basic label sect next (number nequ equ label sect next) num2 u (sect bc) bcoff warn).
  { intros u NL. rewrite !output_eq. cbv zeta. assert (OR : forall w1 n, orest label sect next (with_wrt u w) (sect bc) bcoff w1 n = orest label sect next u (sect bc) bcoff w1 n).
    { intros w1 n. unfold orest, local. cbn [with_wrt rel]. destruct (rel u) as [s|]; [rewrite (NL s eq_refl)|]; reflexivity. }
    cbn [with_wrt abs rel no_warn signed]. fold (with_wrt u w). destruct (abs u) as [[o ts]|]; [|apply OR].
    assert (B : (if contains 8 (o, ts) then OErr else match number nequ equ label sect next (o, ts) with Some n => orest label sect next (with_wrt u w) (sect bc) bcoff (if warn && negb (no_warn u) then (if signed u then -1 else 1) else 0) (Some n) | None => match num2 (o, ts) with Some n => orest label sect next (with_wrt u w) (sect bc) bcoff (if warn && negb (no_warn u) then (if signed u then -1 else 1) else 0) (Some n) | None => OErr end end) =
      (if contains 8 (o, ts) then OErr else match number nequ equ label sect next (o, ts) with Some n => orest label sect next u (sect bc) bcoff (if warn && negb (no_warn u) then (if signed u then -1 else 1) else 0) (Some n) | None => match num2 (o, ts) with Some n => orest label sect next u (sect bc) bcoff (if warn && negb (no_warn u) then (if signed u then -1 else 1) else 0) (Some n) | None => OErr end end)).
    { destruct (contains 8 (o, ts)); auto. destruct (number nequ equ label sect next (o, ts)); [apply OR|]. destruct (num2 (o, ts)); [apply OR|reflexivity]. }
    rewrite B. reflexivity. }
  unfold bin_value. assert (RS : exists r, resolve label vstart is_abs bsymd istart slength v bc blen = r /\ resolve label vstart is_abs bsymd istart slength (with_wrt v w) bc blen = match r with Fin u => Fin (with_wrt u w) | Fault => Fault | Deep => Deep end /\ forall u s, r = Fin u -> rel u = Some s -> label s = None).
  { eexists. split; [reflexivity|]. unfold resolve. cbn [with_wrt rel]. fold (with_wrt v w). destruct (rel v) as [s|] eqn:RV.
    - destruct (target label vstart is_abs bsymd istart slength s) as [t|] eqn:T.
      + assert (CB : combine (with_wrt v w) t bc blen = combine v t bc blen) by reflexivity. rewrite CB. destruct (combine v t bc blen) as [e| |]; cbn [bind]; (split; [reflexivity|]); intros u s' Q R; try discriminate Q. assert (rel u = None) by (injection Q as <-; reflexivity). congruence.
      + split; [reflexivity|]. intros u s' Q R. assert (u = v) by congruence. subst u. assert (s' = s) by congruence. subst s'. unfold target in T. destruct (is_abs s); [discriminate|]. destruct (label s); [discriminate|reflexivity].
    - split; [reflexivity|]. intros u s Q R. assert (u = v) by congruence. subst u. congruence. }
  destruct RS as (r & R1 & R2 & R3). rewrite R1, R2. destruct r as [u| |]; try reflexivity. cbn [bind]. change (abs (with_wrt u w)) with (abs u).
  destruct (abs u) as [e|] eqn:A.
  - destruct (level_tree nequ equ true true true [bin_xform label sect next first vstart bsymd istart slength] e) as [[[e' st] b]| |]; try reflexivity. cbn [bind]. change (set_abs (with_wrt u w) (Some e')) with (with_wrt (set_abs u (Some e')) w). rewrite OB by (intros s Q; apply (R3 u s eq_refl Q)). reflexivity.
  - rewrite OB by (intros s Q; apply (R3 u s eq_refl Q)). reflexivity.
Qed.
End Wrt.

(** With the specification of the special symbols. *)
Lemma special_eq : forall vstart bsymd istart slength s, section_symbol vstart bsymd istart slength s = ssym vstart bsymd istart slength s.
Proof. intros. unfold section_symbol, ssym. destruct (bsymd s) as [[q [| |]]|]; reflexivity. Qed.
Lemma env_special : forall label sect next vstart is_abs bsymd istart slength E, env_bin label sect next vstart is_abs (section_symbol vstart bsymd istart slength) E -> env_bin label sect next vstart is_abs (ssym vstart bsymd istart slength) E.
Proof. intros label sect next vstart is_abs bsymd istart slength E (A & B & C & D). split; [exact A|]. split; [exact B|]. split; [|exact D]. intros s n L H. apply (C s n L). rewrite special_eq. exact H. Qed.
Lemma target_known : forall label vstart is_abs bsymd istart slength s, target label vstart is_abs bsymd istart slength s <> None -> known label is_abs (section_symbol vstart bsymd istart slength) s.
Proof. intros label vstart is_abs bsymd istart slength s H. unfold known. rewrite special_eq. unfold target in H. destruct (is_abs s); [auto|]. destruct (label s); [right; left; discriminate|]. destruct (ssym vstart bsymd istart slength s); [right; right; discriminate|congruence]. Qed.
Theorem written_spec : forall nequ equ label sect next first vstart is_abs bsymd istart slength, laid_out sect next first ->
  (forall q, canonb (vstart q) = true /\ canonb (istart q) = true /\ canonb (slength q) = true) -> (forall s d, equ s = Some d -> shaped (eitem d)) ->
  forall curpos vspecial precbc dot base err e sz v E z num2 buf bc bcoff blen warn out ws, shaped (eitem e) ->
  (forall e1 st b, level_tree nequ equ true true false [] e = Fin (e1, st, b) -> tame false (core (unmask (sz mod 2 ^ 8) e1))) ->
  finalize_expr label sect equ curpos vspecial precbc dot nequ err (Some e) sz = FOk v -> wrt v = None -> rshift v < 2 ^ 31 ->
  env_value curpos dot base (ival (vstart (sect bc)) + bcoff) E -> env_bin label sect next vstart is_abs (section_symbol vstart bsymd istart slength) E -> env_equ equ E -> eval E e = Some (VNum z) ->
  num_ok E num2 -> 0 <= blen < 2 ^ 31 -> next bc = bcoff + blen ->
  Forall byte buf -> size v <= 8 * Z.of_nat (length buf) -> 8 * Z.of_nat (length buf) <= 256 ->
  bin_value nequ equ label sect next first vstart is_abs bsymd istart slength num2 v buf bc bcoff blen warn = BBytes out ws ->
  field_is buf out (size v) z /\ (no_warn v = false -> ws = sized_warns z (size v) 0 (if warn then 1 else 0)).
Proof. intros. eapply written_ok; eauto using env_special. Qed.
Theorem bvalue_spec : forall nequ equ label sect next first vstart is_abs bsymd istart slength, laid_out sect next first ->
  (forall q, canonb (vstart q) = true /\ canonb (istart q) = true /\ canonb (slength q) = true) -> (forall s d, equ s = Some d -> shaped (eitem d)) ->
  forall E num2 v buf bc bcoff blen warn out ws y, num_ok E num2 -> env_bin label sect next vstart is_abs (section_symbol vstart bsymd istart slength) E -> env_equ equ E ->
  0 <= blen < 2 ^ 31 -> 0 <= rshift v < 2 ^ 31 -> next bc = bcoff + blen ->
  Forall byte buf -> 0 <= size v <= 8 * Z.of_nat (length buf) -> 8 * Z.of_nat (length buf) <= 256 ->
  parts_value E v (ival (vstart (sect bc)) + bcoff) y ->
  bin_value nequ equ label sect next first vstart is_abs bsymd istart slength num2 v buf bc bcoff blen warn = BBytes out ws ->
  field_is buf out (size v) y /\ ws = sized_warns y (size v) 0 (warn_mode v warn) /\ segof v = false /\ section_rel v = false /\ (curpos_rel v = false -> ip_rel v = false).
Proof. intros nequ equ label sect next first vstart is_abs bsymd istart slength LO CV SD E num2 v buf bc bcoff blen warn out ws y N EB. apply env_special in EB. revert N EB. exact (bvalue_ok nequ equ label sect next first vstart is_abs bsymd istart slength LO CV SD E num2 v buf bc bcoff blen warn out ws y). Qed.
Theorem flags_spec : forall nequ equ label sect next first vstart is_abs bsymd istart slength num2 v buf bc bcoff blen warn out ws,
  bin_value nequ equ label sect next first vstart is_abs bsymd istart slength num2 v buf bc bcoff blen warn = BBytes out ws ->
  segof v = false /\ section_rel v = false /\ (rel v = None -> rshift v <= 0 /\ curpos_rel v = false /\ ip_rel v = false) /\
  (forall s, rel v = Some s -> known label is_abs (section_symbol vstart bsymd istart slength) s).
Proof. intros nequ equ label sect next first vstart is_abs bsymd istart slength num2 v buf bc bcoff blen warn out ws H. apply bvalue_flags in H. destruct H as (A & B & C & D). split; [exact A|]. split; [exact B|]. split; [exact C|]. intros s Q. apply target_known. exact (D s Q). Qed.
