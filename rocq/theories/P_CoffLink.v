(** Relocations of COFF objects: from the expression to the linked field; what is refused (C76, C77). *)
From Coq Require Import ZArith List Bool Lia.
From Verif Require Import Lib M_BitVect P_BitVect P_BitVectIO M_Intnum P_Intnum P_IntnumIO M_Expr P_Expr P_ExprLevel P_ExprTree P_ExprTree2 P_ExprTop M_Value P_Value P_ValueTop P_ValueOut P_ElfReloc P_ElfLink M_CoffReloc P_CoffReloc.
Import ListNotations.
Open Scope Z_scope.

Lemma clink_whole : forall fl label sect next extern common csize sectsym imagebase start K equ curpos spec precbc dot base,
  (forall s d, equ s = Some d -> shaped (eitem d)) ->
  forall nequ err e sz v num num2 num3 buf here bcoff blen offset warn out r ws E z, shaped (eitem e) ->
  (forall e1 st b, level_tree nequ equ true true false [] e = Fin (e1, st, b) -> tame false (core (unmask (sz mod 2 ^ 8) e1))) ->
  finalize_expr label sect equ curpos spec precbc dot nequ err (Some e) sz = FOk v ->
  env_value curpos dot base (start here + bcoff) E -> env_equ equ E -> env_place label sect next start E -> agree label sect next common csize sectsym start K ->
  (forall s a, symv E s = Some (VNum a) -> k_addr K s = a) -> (forall s x, symseg E s = Some x -> k_secno K s = x) -> (win fl = false -> imagebase = None) ->
  num_ok E num -> num_ok E num2 -> num_ok E num3 ->
  Forall byte buf -> 8 * Z.of_nat (List.length buf) = size v -> 0 <= bcoff -> 0 <= offset -> offset + Z.of_nat (List.length buf) <= blen -> bcoff + blen < 2 ^ 30 -> (forall s p, label s = Some p -> next p < 2 ^ 30) ->
  (forall w, wrt v = Some w -> rel v <> None /\ curpos_rel v = false /\ forall b, symnum E w = Some b -> base b = if is_base imagebase w then k_base K else 0) ->
  (rel v <> None -> if segof v then size v = 16 else curpos_rel v = false -> i386 fl = true \/ wbase imagebase v = true -> size v = 32) ->
  eval E e = Some (VNum z) ->
  coff_value fl label sect next extern common csize sectsym imagebase num num2 num3 v buf here bcoff blen offset false warn = CBytes out r ws ->
  clinked fl K (start here) out r = Some (z mod 2 ^ size v) /\ match r with Some x => ival (c_addr x) = bcoff + offset | None => True end.
Proof.
  intros fl label sect next extern common csize sectsym imagebase start K equ curpos spec precbc dot base SD nequ err e sz v num num2 num3 buf here bcoff blen offset warn out r ws E z SH TM FI EV EE PL AG LA LS IB N1 N2 N3 F LB B0 O0 OB BB NX WD SC Z H.
  destruct (finalize_ok label sect equ curpos spec precbc dot base (start here + bcoff) SD nequ err e sz v SH TM FI E z EV EE Z) as [KP (y & Y & D)].
  destruct KP as (SZ & IP & _ & SR & _ & SA). assert (S8 : 0 <= size v < 256) by (rewrite SZ; apply Z.mod_pos_bound; reflexivity).
  cbn [ip_rel section_rel] in IP, SR.
  assert (DV : (2 ^ size v | y - z)) by (destruct (no_warn v); auto; apply (pow_div _ 256); auto; lia).
  assert (RW : rel v = None -> wrt v = None) by (intros Q; destruct (wrt v) as [w|]; auto; destruct (WD w eq_refl) as [A _]; congruence).
  destruct r as [r|].
  - pose proof H as H0. apply coff_inv in H0. destruct H0 as (RS & SO & s & _ & _ & _ & _ & _ & _ & RV & _).
    assert (R0 : rshift v = 0) by (destruct SA as (_ & _ & SA); apply Z.ltb_ge in RS; lia). specialize (SC ltac:(congruence)).
    assert (YY : exists k d, match abs v with None => k = 0 | Some e => eval E e = Some (VNum k) end /\ y = k + d /\ (2 ^ 256 | d - (cwanted K (wbase imagebase v) v s k (start here + bcoff) - k))).
    { unfold means in Y. destruct (match abs v with None => _ | Some _ => _ end) as [[k|]|] eqn:AB; try discriminate. destruct (parts base (start here + bcoff) E v) as [d|] eqn:PT; [|discriminate]. exists k, d. split; [destruct (abs v); [exact AB|injection AB as <-; reflexivity]|]. split; [injection Y as <-; reflexivity|]. clear - PT RV SO R0 LA LS WD SR IP.
      unfold cwanted. rewrite SR. unfold parts in PT. rewrite RV, R0 in PT. destruct (segof v) eqn:SG.
      - destruct (SO eq_refl) as [W C]. rewrite W, C in PT. destruct (symseg E s) as [x|] eqn:SX; [|discriminate]. rewrite (LS _ _ SX). rewrite Z.pow_0_r, Z.div_1_r in PT. injection PT as <-. exists 0. lia.
      - unfold symnum in PT at 1. destruct (symv E s) as [[a|]|] eqn:SV; try discriminate. rewrite (LA _ _ SV). rewrite Z.pow_0_r, Z.div_1_r in PT. pose proof (wrap_dv a) as WV. unfold wbase. destruct (wrt v) as [w|].
        + destruct (WD w eq_refl) as (_ & C & WB). rewrite C in *. destruct (symnum E w) as [b|]; [|discriminate]. cbn [option_map] in PT. rewrite (WB b eq_refl) in PT. injection PT as <-. destruct WV as [q WV]. exists q. destruct (is_base imagebase w); lia.
        + injection PT as <-. destruct WV as [q WV]. exists q. destruct (curpos_rel v); lia. }
    destruct YY as (k & d & AB & -> & DD). apply (pow_div (size v)) in DD; [|lia].
    destruct (cvalue_ok fl label sect next extern common csize sectsym imagebase start K AG) with (E := E) (num := num) (num2 := num2) (num3 := num3) (v := v) (buf := buf) (here := here) (bcoff := bcoff) (blen := blen) (offset := offset) (nobase := false) (warn := warn) (out := out) (r := r) (ws := ws) (s := s) (k := k) as [AD LK]; auto; try lia.
    + intros s' p P. split; [apply (PL s' p P)|apply (NX s' p P)].
    + intros SG. rewrite SG in SC. exact SC.
    + intros SG. rewrite SG in SC. intros [Q|[Q1 Q2]]; [congruence|]. apply SC; auto.
    + intros WF. split; [|auto]. unfold wbase. rewrite (IB WF). destruct (wrt v); discriminate.
    + cbn [orb] in LK. split; auto. rewrite LK. f_equal. apply div_mod; [lia|]. destruct DD as [p DD], DV as [q DV]. exists (q - p). lia.
  - split; auto. unfold coff_value in H. destruct (output_basic label sect next num num2 v here bcoff warn) as [| |a b c|n w] eqn:OV; try discriminate H.
    + exfalso. destruct (rel v) as [s|] eqn:RV; [|exact (todo_rel label sect next num num2 v here bcoff warn SA IP SR RV OV)]. destruct (_ || _ || _); [discriminate|]. destruct (redirect _ _ _ _ _ _) as [[sym dist]|]; [|discriminate]. destruct (origin _ _ _ _ _ _ _ _ _ _) as [| |sym' val0]; try discriminate.
      destruct (adjust _ _ _ _ _ _ _) as [a b]. destruct (ctype _ _ _ _ _ _) as [ty|]; [|discriminate]. destruct (total _ _ _ _ _) as [i|]; [|discriminate]. unfold ctobytes in H. destruct (get_sized _ _ _ _ _) as [[[o j] w']|]; discriminate H.
    + assert (O31 : 0 <= bcoff < 2 ^ 31) by lia. pose proof (output_ok label sect next base start E num num2 v here bcoff warn n w SA PL O31 RW N1 N2 OV) as WR. destruct (WR y Y) as [C DW]. apply canonb_ok in C. unfold ctobytes in H. rewrite <- LB in H. destruct (get_sized _ _ _ _ _) as [[[o j] w']|] eqn:GZ; [|discriminate]. assert (o = out) by congruence. subst o.
      destruct (get_sized_full n buf w out j w' C F ltac:(lia) GZ) as [LO _]. cbn [clinked]. rewrite LO, LB. f_equal. apply div_mod; [lia|]. apply (pow_div (size v)) in DW; [|lia]. destruct DW as [p DW], DV as [q DV]. exists (p + q). lia.
Qed.

Lemma crefused_iff : forall fl label sect next extern common csize sectsym imagebase num num2 num3 v buf here bcoff blen offset nobase warn s e n i3,
  rel v = Some s -> 0 <= blen < 2 ^ 31 -> 0 <= offset -> offset + Z.of_nat (List.length buf) < 2 ^ 31 ->
  match abs v with None => n = None | Some x => x = e /\ contains 8 e = false /\ n <> None /\ n = match num e with Some i => Some i | None => num2 e end /\ num3 e = Some i3 end ->
  (common s = true -> csize s <> None /\ label s = None) ->
  coff_value fl label sect next extern common csize sectsym imagebase num num2 num3 v buf here bcoff blen offset nobase warn = CErr <->
  (~ exists p, label s = Some p /\ sect p = here /\ curpos_rel v = true /\ wrt v = None /\ segof v = false /\ section_rel v = false) /\
  (0 < rshift v \/
   (segof v = true \/ section_rel v = true) /\ (curpos_rel v = true \/ exists w, wrt v = Some w) \/
   (exists w, wrt v = Some w /\ imagebase <> Some w /\ ~ exists p q, label s = Some p /\ label w = Some q /\ sect p = sect q) \/
   win fl = false /\ common s = true /\ (forall m, csize s = Some (Some m) -> sign m < 0) \/
   (if curpos_rel v then size v <> 32 \/ i386 fl = false /\ ip_rel v = true /\ ~ 0 <= blen - (offset + Z.of_nat (List.length buf)) <= 5
    else segof v = false /\ section_rel v = false /\ i386 fl = false /\ size v <> 32 /\ size v <> 64)).
Proof.
  intros fl label sect next extern common csize sectsym imagebase num num2 num3 v buf here bcoff blen offset nobase warn s e n i3 RV BL O0 OB AB CM.
  assert (TB : forall i w r, ctobytes i buf (size v) w r <> CErr) by (intros i w r; unfold ctobytes; destruct (get_sized _ _ _ _ _) as [[[o j] ws]|]; discriminate).
  assert (TD := todo_iff label sect next num num2 v here bcoff warn s e n RV). assert (AB' : match abs v with None => n = None | Some x => x = e /\ contains 8 e = false /\ n <> None /\ n = match num e with Some i => Some i | None => num2 e end end) by (destruct (abs v); tauto). specialize (TD AB').
  assert (NE : output_basic label sect next num num2 v here bcoff warn <> OErr /\ forall a b c, output_basic label sect next num num2 v here bcoff warn <> OFloat a b c).
  { rewrite output_eq. cbv zeta. unfold orest. rewrite RV. destruct (abs v) as [x|].
    - destruct AB as (-> & CT & NN & NQ & _). cbn [is_none]. rewrite CT. destruct (num e) as [i|]; [destruct (M_Value.local label sect v s here); split; intros; discriminate|]. destruct (num2 e) as [i|]; [destruct (M_Value.local label sect v s here); split; intros; discriminate|congruence].
    - destruct (M_Value.local label sect v s here); split; intros; discriminate. }
  destruct NE as [NE NF]. unfold coff_value. destruct (output_basic label sect next num num2 v here bcoff warn) as [| |a b c|i w] eqn:OV; [|congruence|exfalso; eapply NF; eauto|].
  2:{ split; [intros Q; exfalso; eapply TB; eauto|]. intros [Q _]. apply TD in Q. discriminate Q. }
  pose proof (proj1 TD eq_refl) as NX. clear TD.
  destruct (Z.ltb_spec 0 (rshift v)) as [RS|RS]; [cbn [orb]; split; auto|]. cbn [orb].
  assert (OT : negb (is_none (wrt v)) || curpos_rel v = true <-> curpos_rel v = true \/ exists w, wrt v = Some w).
  { destruct (wrt v) as [w|]; cbn [is_none negb orb]; [split; auto; intros _; right; exists w; reflexivity|]. split; [auto|]. intros [Q|[w Q]]; [auto|discriminate]. }
  destruct (segof v && (negb (is_none (wrt v)) || curpos_rel v) || section_rel v && (negb (is_none (wrt v)) || curpos_rel v)) eqn:SO.
  { split; auto. intros _. split; auto. right. left. rewrite <- OT. destruct (segof v), (section_rel v), (negb (is_none (wrt v)) || curpos_rel v); try discriminate SO; auto. }
  assert (N2 : ~ ((segof v = true \/ section_rel v = true) /\ (curpos_rel v = true \/ exists w, wrt v = Some w))).
  { rewrite <- OT. intros [Q1 Q2]. rewrite Q2 in SO. destruct (segof v), (section_rel v); try discriminate SO. destruct Q1; discriminate. }
  clear SO OT. rewrite RV. assert (IB : forall w, is_base imagebase w = true <-> imagebase = Some w).
  { intros w. unfold is_base. destruct imagebase as [b|]; [|split; discriminate]. rewrite Z.eqb_eq. split; congruence. }
  destruct (redirect label sect next imagebase v s) as [[sym dist]|] eqn:RD; unfold redirect in RD.
  2:{ split; auto. intros _. split; auto. right. right. left. destruct (wrt v) as [w|]; [|discriminate]. exists w. split; auto. destruct (is_base imagebase w) eqn:BW; [discriminate|]. split; [intros Q; apply IB in Q; congruence|].
      intros (p & q & P & Q & PQ). rewrite P, Q in RD. unfold bc_dist in RD. rewrite PQ, Z.eqb_refl in RD. cbn [negb] in RD. destruct (_ <? _); discriminate. }
  assert (N3 : ~ exists w, wrt v = Some w /\ imagebase <> Some w /\ ~ exists p q, label s = Some p /\ label w = Some q /\ sect p = sect q).
  { intros (w & W & NB & NL). rewrite W in RD. destruct (is_base imagebase w) eqn:BW; [apply IB in BW; congruence|]. destruct (label s) as [p|]; [|discriminate]. destruct (label w) as [q|]; [|discriminate]. unfold bc_dist in RD. destruct (Z.eqb_spec (sect q) (sect p)); [|discriminate]. apply NL. exists p, q. auto. }
  assert (CS : common s = true -> sym = s).
  { intros C. destruct (CM C) as [_ LN]. rewrite LN in RD. destruct (wrt v) as [w|]; [|congruence]. destruct (is_base imagebase w); [congruence|discriminate]. }
  assert (N4 : match origin fl label sect next extern common csize sectsym s sym with SErr => True | _ => False end <-> win fl = false /\ common s = true /\ (forall m, csize s = Some (Some m) -> sign m < 0)).
  { unfold origin. destruct (common s) eqn:C.
    - rewrite (CS eq_refl). destruct (win fl); [split; [intros []|intros [Q _]; discriminate]|]. destruct (CM eq_refl) as [CN _]. destruct (csize s) as [[m|]|]; [|split; auto; intros _; repeat split; auto; discriminate|congruence].
      destruct (Z.ltb_spec (sign m) 0); (split; [|auto]); [intros _; repeat split; auto; intros m' Q; assert (m' = m) by congruence; subst m'; auto|intros []|]. intros (_ & _ & Q). specialize (Q m eq_refl). lia.
    - split; [|intros (_ & Q & _); discriminate]. destruct (negb (extern s) && negb (win64 fl)); [destruct (label sym)|]; intros []. }
  destruct (origin fl label sect next extern common csize sectsym s sym) as [| |sym' val0] eqn:OR.
  - split; auto. intros _. split; auto. right. right. right. left. apply N4. exact I.
  - exfalso. unfold origin in OR. destruct (common s) eqn:C; [|destruct (negb (extern s) && negb (win64 fl)); [destruct (label sym)|]; discriminate]. rewrite (CS eq_refl) in OR. destruct (win fl); [discriminate|]. destruct (CM eq_refl) as [CN _]. destruct (csize s) as [[m|]|]; [destruct (sign m <? 0); discriminate|discriminate|congruence].
  - destruct (adjust fl v val0 bcoff blen offset _) as [a b].
    assert (NT : forall r, match total num3 v a b dist with Some i => ctobytes i buf (size v) (if warn then 1 else 0) r | None => CErr end <> CErr).
    { intros r. unfold total. destruct (abs v) as [x|]; [destruct AB as (-> & _ & _ & _ & ->); cbn [option_map]|]; apply TB. }
    assert (CT : ctype fl v (nobase || match wrt v with Some w => is_base imagebase w | None => false end) blen offset (Z.of_nat (List.length buf)) = None <->
      if curpos_rel v then size v <> 32 \/ i386 fl = false /\ ip_rel v = true /\ ~ 0 <= blen - (offset + Z.of_nat (List.length buf)) <= 5 else segof v = false /\ section_rel v = false /\ i386 fl = false /\ size v <> 32 /\ size v <> 64).
    { unfold ctype. destruct (curpos_rel v).
      - destruct (i386 fl); [destruct (Z.eqb_spec (size v) 32); split; auto; try discriminate; intros [Q|[Q _]]; [congruence|discriminate]|]. destruct (Z.eqb_spec (size v) 32); cbn [negb]; [|split; auto]. destruct (ip_rel v); cbn [negb]; [|split; [discriminate|intros [Q|(_ & Q & _)]; [congruence|discriminate]]].
        set (d := blen - _). assert (UD : u64 d = if d <? 0 then d + w64 else d).
        { unfold u64. assert (W : 2 ^ 32 < w64) by reflexivity. destruct (Z.ltb_spec d 0); [|apply Z.mod_small; unfold d; lia]. rewrite <- (Z.mod_add d 1 w64) by lia. rewrite Z.mul_1_l. apply Z.mod_small. unfold d in *. lia. }
        rewrite UD. assert (W : 2 ^ 32 < w64) by reflexivity. destruct (Z.ltb_spec d 0); [destruct (Z.leb_spec (d + w64) 5); [unfold d in *; lia|]|destruct (Z.leb_spec d 5)]; (split; [try discriminate|]); try (intros _; right; repeat split; auto; lia); auto. intros [Q|(_ & _ & Q)]; [congruence|lia].
      - destruct (segof v), (section_rel v), (i386 fl), (Z.eqb_spec (size v) 32), (Z.eqb_spec (size v) 64); (split; [try discriminate; intros _; repeat split; auto|intros (Q1 & Q2 & Q3 & Q4 & Q5); try discriminate; try congruence; auto]). }
    destruct (ctype _ _ _ _ _ _) as [ty|].
    + split; [intros Q; exfalso; eapply NT; exact Q|]. intros [_ [Q|[Q|[Q|[Q|Q]]]]]; exfalso; [lia|apply N2; exact Q|apply N3; exact Q|apply N4 in Q; exact Q|apply CT in Q; discriminate Q].
    + split; auto. intros _. split; auto. right. right. right. right. apply CT. reflexivity.
Qed.
