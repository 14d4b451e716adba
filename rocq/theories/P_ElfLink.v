(** Linked ELF fields against the expressions they come from (C73, C74, C75). *)
From Coq Require Import ZArith List Bool Lia String.
From Verif Require Import Lib LibBits M_BitVect P_BitVect P_BitVectIO M_Intnum P_Intnum P_IntnumIO M_Expr P_Expr P_ExprLevel P_ExprTree P_ExprTree2 P_ExprTop M_Value P_Value P_ValueTop P_ValueOut M_ElfReloc P_ElfReloc.
Import ListNotations.
Open Scope Z_scope.

Lemma todo_rel : forall label sect next num num2 v here off warn, sane v -> ip_rel v = false -> section_rel v = false -> rel v = None ->
  output_basic label sect next num num2 v here off warn <> OTodo.
Proof.
  intros label sect next num num2 v here off warn (S1 & _ & _) IP SR RN. destruct (S1 RN) as (A & B & C). rewrite output_eq. cbv zeta. unfold orest. rewrite RN, A, B, C, IP, SR. change (0 <? 0) with false. cbn [orb is_none].
  destruct (abs v) as [e|]; [|discriminate]. destruct e as [o ts]. destruct o; try (destruct (contains _ _); [discriminate|]; destruct (num _); [discriminate|]; destruct (num2 _); discriminate).
  destruct ts as [|t r]; [|destruct t]; try discriminate; (destruct (contains _ _); [discriminate|]; destruct (num _); [discriminate|]; destruct (num2 _); discriminate).
Qed.

Section Elf.
Variable m : mach.
Variable label : Z -> option Z.
Variable sect next : Z -> Z.
Variable local : Z -> bool.
Variable sectsym : Z -> Z.
Variable got : option Z.
Variable dotdot : Z.
Variable index : Z -> option nat.
Variable start : Z -> Z.
Variable K : linker.
Notation output := (output_value m label sect next local sectsym got dotdot index).

(** ** Special symbols *)
Lemma special_ok : forall E num num2 num3 v buf here bcoff offset warn out r ws s w y k z,
  (forall q, l_addr K (sectsym q) = start q) -> (forall p, label s = Some p -> l_addr K s = start (sect p) + next p) ->
  num_ok E num3 -> rel v = Some s -> match abs v with None => k = 0 | Some e => eval E e = Some (VNum k) end ->
  Forall byte buf -> 8 * Z.of_nat (List.length buf) = size v -> 0 <= bcoff -> 0 <= offset -> bcoff + offset < 2 ^ 31 -> (forall p, label s = Some p -> 0 <= next p < 2 ^ 31) ->
  wrt v = Some w -> w <> dotdot -> special m index w = Some y -> curpos_rel v = false -> wanted m K (s_name y) s k (start here + bcoff + offset) (start here) = Some z ->
  output num num2 num3 v buf here bcoff offset warn = VBytes out (Some r) ws ->
  ival (e_addr r) = bcoff + offset /\ linked m index K (start here) out (Some r) = Some (z mod 2 ^ 32).
Proof.
  intros E num num2 num3 v buf here bcoff offset warn out r ws s w y k z SEC LAB N3 RV AB F LB B0 O0 BO NX W WD SP CR WA H.
  assert (WS : wsym dotdot v = Some w) by (unfold wsym; rewrite W; destruct (Z.eqb_spec w dotdot); congruence).
  apply output_inv in H. destruct H as (_ & _ & _ & s' & i & j & j' & RV' & AC & H). assert (s' = s) by congruence. subst s'. clear RV'. cbv zeta in H. rewrite WS, CR in *. destruct H as (HI & HA & HG).
  cbn [accepts] in AC. rewrite SP in AC. apply Z.eqb_eq in AC.
  assert (IN : In y (ssyms m)) by (unfold special in SP; destruct (index w) as [q|]; [|discriminate]; apply nth_error_In in SP; auto).
  assert (S32 : s_size y = 32) by (clear - IN; destruct m; cbn in IN; repeat (destruct IN as [<-|IN]; [reflexivity|]); destruct IN). rewrite S32 in AC.
  set (t := target _ _ _ _ _ _ _ _ _ _ _) in *.
  assert (TT : t = (s, 0) /\ s_rel y = true \/ t = (s, bcoff + offset) /\ s_rel y = false /\ s_adjust y = true \/ l_addr K (fst t) + snd t = l_addr K s /\ 0 <= snd t < 2 ^ 31 /\ s_rel y = false /\ s_adjust y = false).
  { unfold t, target. unfold sym_relative, pos_adjusted. rewrite SP. destruct (s_rel y); [auto|]. destruct (s_adjust y).
    - right. left. unfold u64. rewrite Z.mod_small by (assert (2 ^ 31 < w64) by reflexivity; lia). split; [f_equal; lia|auto].
    - right. right. destruct (local s); [|cbn [fst snd]; repeat split; lia]. destruct (label s) as [p|] eqn:LP; [|cbn [fst snd]; repeat split; lia]. cbn [fst snd]. specialize (NX p eq_refl). unfold u64. rewrite Z.mod_small by (assert (2 ^ 31 < w64) by reflexivity; lia). rewrite SEC, (LAB p eq_refl). repeat split; lia. }
  clearbody t. destruct t as [sym val0]. cbn [fst snd] in *. assert (V0 : 0 <= val0 < 2 ^ 31) by (destruct TT as [[Q _]|[[Q _]|[_ [Q _]]]]; [injection Q as -> ->; lia|injection Q as -> ->; lia|lia]).
  set (en := Entry _ _ _ _ _ _ _) in HA. destruct (addend_ok m index E num3 v buf offset _ val0 en i j r out j' ws k N3 AB HI V0 ltac:(lia) F LB eq_refl ltac:(auto) HA HG) as (R1 & R2 & R3 & R4 & R5).
  unfold en in *. clear en. cbn [e_sym e_addr e_wrt e_got is_none andb] in R1, R2, R5. assert (AD : ival (e_addr r) = bcoff + offset) by (rewrite R2; unfold u64; rewrite Z.mod_small by (assert (2 ^ 31 < w64) by reflexivity; lia); apply uint31; lia). split; auto.
  unfold linked. rewrite R3, R1, AD, R4, LB, AC. set (A := addend m r out) in *. clearbody A. clear R1 R2 R3 R4 HA HG HI AB. unfold rtype. cbn [e_wrt e_size e_got e_rel]. rewrite SP, S32. cbn [Z.eqb Pos.eqb andb].
  assert (R6 : (2 ^ 32 | A - (val0 + k))) by (rewrite AC in R5; destruct R5 as [a R5]; exists a; destruct m; lia). clear R5.
  destruct m; cbn in IN; repeat (destruct IN as [<-|IN]; [cbn [s_type s_rel s_adjust s_name] in *; unfold wanted in WA; cbn in WA; try discriminate WA; assert (ZZ := f_equal (fun o => match o with Some x => x | None => 0 end) WA); cbv beta iota in ZZ; subst z; unfold apply; cbn [Z.eqb Pos.eqb orb]; f_equal; (apply div_mod; [lia|]); destruct R6 as [a R6]; exists a;
    (destruct TT as [[Q TT]|[[Q TT]|[Q TT]]]; [injection Q as -> ->|injection Q as -> ->|]; try discriminate (proj1 TT); try discriminate TT; try discriminate (proj1 (proj2 TT)); try discriminate (proj2 TT); try (destruct TT as (_ & TT & _); discriminate TT); try (destruct TT as (_ & _ & TT); discriminate TT); lia)|]); destruct IN.
Qed.

(** ** The global offset table itself *)
Lemma table_ok : forall E num num2 num3 v buf here bcoff offset warn out r ws s k,
  num_ok E num3 -> rel v = Some s -> match abs v with None => k = 0 | Some e => eval E e = Some (VNum k) end ->
  Forall byte buf -> 8 * Z.of_nat (List.length buf) = size v -> 0 <= bcoff -> 0 <= offset -> bcoff + offset < 2 ^ 31 ->
  wrt v = None -> got = Some s -> local s = false -> size v = 32 \/ size v = 64 ->
  output num num2 num3 v buf here bcoff offset warn = VBytes out (Some r) ws ->
  ival (e_addr r) = bcoff + offset /\ linked m index K (start here) out (Some r) = Some ((l_got K + k - (start here + bcoff) +
    match m with X86 => if curpos_rel v then offset else 0 | _ => if curpos_rel v then 0 else - offset end) mod 2 ^ size v).
Proof.
  intros E num num2 num3 v buf here bcoff offset warn out r ws s k N3 RV AB F LB B0 O0 BO W GT LO SZ H.
  assert (WS : wsym dotdot v = None) by (unfold wsym; rewrite W; reflexivity).
  apply output_inv in H. destruct H as (_ & _ & _ & s' & i & j & j' & RV' & AC & H). assert (s' = s) by congruence. subst s'. clear RV'. cbv zeta in H. rewrite WS in *. destruct H as (HI & HA & HG).
  assert (S8 : 0 <= size v < 256) by (destruct SZ; lia). pose proof (proj1 (accepts_plain m index (size v) S8) AC) as AC'. clear AC. rename AC' into AC. unfold target in *. rewrite W, LO in *. cbn [is_none negb fst snd] in *. change (0 + offset) with offset in *. assert (U : u64 offset = offset) by (unfold u64; apply Z.mod_small; assert (2 ^ 31 < w64) by reflexivity; lia). rewrite U in *.
  set (en := Entry _ _ _ _ _ _ _) in HA. destruct (addend_ok m index E num3 v buf offset _ (if curpos_rel v then offset else 0) en i j r out j' ws k N3 AB HI ltac:(destruct (curpos_rel v); lia) ltac:(lia) F LB eq_refl AC HA HG) as (R1 & R2 & R3 & R4 & R5).
  unfold en in *. clear en. cbn [e_sym e_addr e_wrt e_got is_none andb] in R1, R2, R5. assert (AD : ival (e_addr r) = bcoff + offset) by (rewrite R2; unfold u64; rewrite Z.mod_small by (assert (2 ^ 31 < w64) by reflexivity; lia); apply uint31; lia). split; auto.
  assert (IG : isgot got s = true) by (unfold isgot; rewrite GT; apply Z.eqb_refl). rewrite IG in R5.
  unfold linked. rewrite R3, R1, AD, R4, LB. set (A := addend m r out) in *. clearbody A. clear R1 R2 R3 R4 HA HG HI AB. unfold rtype. cbn [e_wrt e_size e_got e_rel]. rewrite IG.
  destruct SZ as [Q|Q]; rewrite Q in *; [|destruct AC as [AC|[AC|[AC|[MM _]]]]; try discriminate]; destruct m; try discriminate; destruct (curpos_rel v); cbn [andb Z.eqb Pos.eqb] in R5 |- *; unfold apply; cbn [Z.eqb Pos.eqb orb]; f_equal; (apply div_mod; [lia|]); destruct R5 as [a R5]; exists a; lia.
Qed.

(** ** What is refused *)
Lemma refused_iff : forall num num2 num3 v buf here bcoff offset warn s e n i3,
  rel v = Some s -> 0 <= size v < 256 -> (List.length buf <= 32)%nat ->
  match abs v with None => n = None | Some x => x = e /\ contains 8 e = false /\ n <> None /\ n = match num e with Some i => Some i | None => num2 e end /\ num3 e = Some i3 end ->
  output num num2 num3 v buf here bcoff offset warn = VErr <->
  segof v = true \/ section_rel v = true \/
  (~ exists p, label s = Some p /\ sect p = here /\ curpos_rel v = true /\ wrt v = None) /\
  (0 < rshift v \/
   match wrt v with
   | Some w => if w =? dotdot then ~ (size v = 8 \/ size v = 16 \/ size v = 32 \/ m = AMD64 /\ size v = 64) else special m index w = None \/ size v <> 32
   | None => ~ (size v = 8 \/ size v = 16 \/ size v = 32 \/ m = AMD64 /\ size v = 64)
   end).
Proof.
  intros num num2 num3 v buf here bcoff offset warn s e n i3 RV S8 LB AB.
  assert (TB : forall i w r, tobytes i buf (size v) w r <> VErr) by (intros i w r; unfold tobytes; destruct (get_sized _ _ _ _ _) as [[[o j] ws]|]; discriminate).
  assert (TD := todo_iff label sect next num num2 v here bcoff warn s e n RV). assert (AB' : match abs v with None => n = None | Some x => x = e /\ contains 8 e = false /\ n <> None /\ n = match num e with Some i => Some i | None => num2 e end end) by (destruct (abs v); tauto). specialize (TD AB').
  assert (NE : output_basic label sect next num num2 v here bcoff warn <> OErr).
  { rewrite output_eq. cbv zeta. unfold orest. rewrite RV. destruct (abs v) as [x|].
    - destruct AB as (-> & CT & NN & NQ & _). cbn [is_none]. rewrite CT. destruct (num e) as [i|]; [destruct (M_Value.local label sect v s here); discriminate|]. destruct (num2 e) as [i|]; [destruct (M_Value.local label sect v s here); discriminate|congruence].
    - destruct (M_Value.local label sect v s here); discriminate. }
  assert (NF : forall a b c, output_basic label sect next num num2 v here bcoff warn <> OFloat a b c).
  { intros a b c. rewrite output_eq. cbv zeta. unfold orest. rewrite RV. destruct (abs v) as [x|].
    - destruct AB as (-> & CT & NN & NQ & _). cbn [is_none]. rewrite CT. destruct (num e) as [i|]; [destruct (M_Value.local label sect v s here); discriminate|]. destruct (num2 e) as [i|]; [destruct (M_Value.local label sect v s here); discriminate|congruence].
    - destruct (M_Value.local label sect v s here); discriminate. }
  unfold output_value. destruct (output_basic label sect next num num2 v here bcoff warn) as [| |a b c|i w] eqn:OB; [|congruence|exfalso; eapply NF; eauto|].
  2:{ split; [intros Q; exfalso; eapply TB; eauto|]. intros Q. exfalso. assert (EX : ~ ~ exists p, label s = Some p /\ sect p = here /\ curpos_rel v = true /\ wrt v = None /\ segof v = false /\ section_rel v = false) by (intros X; apply TD in X; discriminate X).
      apply EX. intros (p & P1 & P2 & P3 & P4 & P5 & P6). destruct Q as [Q|[Q|[Q _]]]; [congruence|congruence|]. apply Q. exists p. auto. }
  pose proof (proj1 TD eq_refl) as NX. clear TD. destruct (segof v) eqn:SG; [cbn [orb]; split; auto|]. destruct (section_rel v) eqn:SR; [cbn [orb]; split; auto|]. cbn [orb].
  assert (NX2 : ~ exists p, label s = Some p /\ sect p = here /\ curpos_rel v = true /\ wrt v = None) by (intros (p & P1 & P2 & P3 & P4); apply NX; exists p; auto 7). clear NX.
  destruct (Z.ltb_spec 0 (rshift v)) as [RS|RS]; [split; auto; intros _; right; right; auto|]. rewrite RV. fold (wsym dotdot v).
  destruct (target m label sect next local sectsym index v s (wsym dotdot v) (u64 (offset + bcoff))) as [sym val0]. unfold entry_create.
  assert (REST : forall r, match match abs v with None => Some (create_uint (if curpos_rel v then u64 (val0 + offset) else val0)) | Some e0 => match num3 e0 with Some i2 => Some (ical (create_uint (if curpos_rel v then u64 (val0 + offset) else val0)) ADD (Some i2)) | None => None end end with
    | Some i => let (i', r') := handle_addend m i r offset in tobytes i' buf (size v) (if warn then 1 else 0) (Some r') | None => VErr end <> VErr).
  { intros r. destruct (abs v) as [x|]; [destruct AB as (-> & _ & _ & _ & ->)|]; (destruct (handle_addend m _ r offset) as [i' r']; apply TB). }
  destruct (accepts m index (size v) (wsym dotdot v)) eqn:AC.
  - split; [intros Q; exfalso; eapply REST; exact Q|]. intros [Q|[Q|[_ [Q|Q]]]]; [discriminate|discriminate|lia|exfalso]. unfold wsym in AC. destruct (wrt v) as [w|]; [|apply accepts_plain in AC; auto]. destruct (Z.eqb_spec w dotdot); [apply accepts_plain in AC; auto|].
    cbn [accepts] in AC. destruct (special m index w) as [y|] eqn:SP; [|discriminate]. apply Z.eqb_eq in AC. destruct Q as [Q|Q]; [discriminate|]. apply Q. rewrite AC. unfold special in SP. destruct (index w) as [q|]; [|discriminate]. apply nth_error_In in SP. clear - SP. destruct m; cbn in SP; repeat (destruct SP as [<-|SP]; [reflexivity|]); destruct SP.
  - split; auto. intros _. right. right. split; auto. right. unfold wsym in AC. destruct (wrt v) as [w|]; [|intros Q; apply accepts_plain with (index := index) in Q; auto; congruence]. destruct (Z.eqb_spec w dotdot); [intros Q; apply accepts_plain with (index := index) in Q; auto; congruence|].
    cbn [accepts] in AC. destruct (special m index w) as [y|] eqn:SP; auto. apply Z.eqb_neq in AC. right. intros Q. apply AC. rewrite Q. symmetry. unfold special in SP. destruct (index w) as [q|]; [|discriminate]. apply nth_error_In in SP. clear - SP. destruct m; cbn in SP; repeat (destruct SP as [<-|SP]; [reflexivity|]); destruct SP.
Qed.

(** ** The whole way from the expression *)
Variable equ : Z -> option expr.
Variable curpos spec : Z -> bool.
Variable precbc : option Z.
Variable dot : Z.
Variable base : Z -> Z.
Hypothesis SD : forall s d, equ s = Some d -> shaped (eitem d).
Lemma whole_link : forall nequ err e sz v num num2 num3 buf here bcoff offset warn out r ws E z, shaped (eitem e) ->
  (forall e1 st b, level_tree nequ equ true true false [] e = Fin (e1, st, b) -> tame false (core (unmask (sz mod 2 ^ 8) e1))) ->
  finalize_expr label sect equ curpos spec precbc dot nequ err (Some e) sz = FOk v ->
  env_value curpos dot base (start here + bcoff) E -> env_equ equ E -> env_place label sect next start E ->
  (forall s a, symv E s = Some (VNum a) -> l_addr K s = a) -> (forall q, l_addr K (sectsym q) = start q /\ got <> Some (sectsym q)) -> (forall g, got = Some g -> l_addr K g = l_got K) ->
  num_ok E num -> num_ok E num2 -> num_ok E num3 ->
  Forall byte buf -> 8 * Z.of_nat (List.length buf) = size v -> 0 <= bcoff -> 0 <= offset -> bcoff + offset < 2 ^ 31 -> (forall s p, label s = Some p -> next p + offset < 2 ^ 31) ->
  (forall w, wrt v = Some w -> rel v <> None /\ w = dotdot /\ forall b, symnum E w = Some b -> base b = 0) ->
  (forall s, rel v = Some s -> got = Some s -> m <> X86 /\ curpos_rel v = true \/ size v <> 32 /\ size v <> 64) ->
  eval E e = Some (VNum z) ->
  output num num2 num3 v buf here bcoff offset warn = VBytes out r ws ->
  linked m index K (start here) out r = Some (z mod 2 ^ size v) /\ match r with Some x => ival (e_addr x) = bcoff + offset | None => True end.
Proof.
  intros nequ err e sz v num num2 num3 buf here bcoff offset warn out r ws E z SH TM FI EV EE PL LA SEC GOT N1 N2 N3 F LB B0 O0 BO NX WD GS Z H.
  destruct (finalize_ok label sect equ curpos spec precbc dot base (start here + bcoff) SD nequ err e sz v SH TM FI E z EV EE Z) as [KP (y & Y & D)].
  destruct KP as (SZ & IP & _ & SR & _ & SA). assert (S8 : 0 <= size v < 256) by (rewrite SZ; apply Z.mod_pos_bound; reflexivity).
  assert (DV : (2 ^ size v | y - z)) by (destruct (no_warn v); auto; apply (pow_div _ 256); auto; lia).
  assert (RW : rel v = None -> wrt v = None) by (intros Q; destruct (wrt v) as [w|]; auto; destruct (WD w eq_refl) as [A _]; congruence).
  destruct r as [r|].
  - pose proof H as H0. apply output_inv in H0. destruct H0 as (SG & _ & RS & s & _ & _ & _ & RV & _). clear - Y DV RV SG RS SA WD GS LA SEC GOT N3 F LB B0 O0 BO NX H S8 PL.
    assert (R0 : rshift v = 0) by (destruct SA as (_ & _ & SA); apply Z.ltb_ge in RS; lia).
    unfold means in Y. destruct (match abs v with None => _ | Some _ => _ end) as [[k|]|] eqn:AB; try discriminate. unfold parts in Y. rewrite RV, SG, R0 in Y. unfold symnum in Y at 1. destruct (symv E s) as [[a|]|] eqn:SV; try discriminate.
    assert (YY : y = k + (wrap256 a - if curpos_rel v then start here + bcoff else 0)).
    { rewrite Z.pow_0_r, Z.div_1_r in Y. destruct (wrt v) as [w|]; [|injection Y as <-; lia]. destruct (WD w eq_refl) as (_ & _ & WB). destruct (symnum E w) as [b|]; [|discriminate]. cbn [option_map] in Y. rewrite (WB b eq_refl) in Y. injection Y as <-. lia. }
    destruct (plain_ok m label sect next local sectsym got dotdot index start K SEC) with (E := E) (num := num) (num2 := num2) (num3 := num3) (v := v) (buf := buf) (here := here) (bcoff := bcoff) (offset := offset) (warn := warn) (out := out) (r := r) (ws := ws) (s := s) (k := k) as [AD LK]; auto; try lia.
    + intros s' p P. apply LA. apply (PL s' p P).
    + destruct (abs v); [exact AB|injection AB as <-; reflexivity].
    + intros p P. split; [apply (PL s p P)|apply (NX s p P)].
    + unfold wsym. destruct (wrt v) as [w|]; auto. destruct (WD w eq_refl) as (_ & -> & _). rewrite Z.eqb_refl. reflexivity.
    + exact (GS s RV).
    + split; auto. rewrite LK. f_equal. apply div_mod; [lia|]. rewrite (LA s a SV). pose proof (pow_div (size v) 256 _ ltac:(lia) (wrap_dv a)) as WV. destruct WV as [p WV], DV as [q DV]. exists (q - p). lia.
  - split; auto. unfold output_value in H. destruct (output_basic label sect next num num2 v here bcoff warn) as [| |a b c|n w] eqn:OB; try discriminate H.
    + exfalso. destruct (rel v) as [s|] eqn:RV; [|exact (todo_rel label sect next num num2 v here bcoff warn SA IP SR RV OB)]. destruct (segof v || section_rel v || (0 <? rshift v)); [discriminate|]. destruct (target _ _ _ _ _ _ _ _ _ _ _) as [sym val0]. destruct (entry_create _ _ _ _ _ _ _ _) as [en|]; [|discriminate].
      destruct (abs v) as [x|]; [destruct (num3 x); [|discriminate H]|]; (destruct (handle_addend _ _ _ _) as [i' r']; unfold tobytes in H; destruct (get_sized _ _ _ _ _) as [[[o j] w']|]; discriminate H).
    + assert (O31 : 0 <= bcoff < 2 ^ 31) by lia. pose proof (output_ok label sect next base start E num num2 v here bcoff warn n w SA PL O31 RW N1 N2 OB) as WR. destruct (WR y Y) as [C DW]. apply canonb_ok in C. unfold tobytes in H. rewrite <- LB in H. destruct (get_sized _ _ _ _ _) as [[[o j] w']|] eqn:GZ; [|discriminate]. assert (o = out) by congruence. subst o.
      destruct (get_sized_full n buf w out j w' C F ltac:(lia) GZ) as [LO _]. cbn [linked]. rewrite LO, LB. f_equal. apply div_mod; [lia|]. apply (pow_div (size v)) in DW; [|lia]. destruct DW as [p DW], DV as [q DV]. exists (p + q). lia.
Qed.
End Elf.
