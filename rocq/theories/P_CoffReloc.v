(** Relocations of COFF objects (C76, C77). *)
From Coq Require Import ZArith List Bool Lia.
From Verif Require Import Lib M_BitVect P_BitVect P_BitVectIO M_Intnum P_Intnum P_IntnumIO M_Expr P_Expr P_ExprLevel P_ExprTree P_ExprTree2 P_ExprTop M_Value P_Value P_ValueTop P_ValueOut P_ElfReloc P_ElfLink M_CoffReloc.
Import ListNotations.
Open Scope Z_scope.

(** * Specification *)
(** What the linker knows: the address of a symbol, the value its entry in the symbol table has if it
    is undefined (the size of a common symbol), the address of the image, and the number and address
    of the section a symbol is in. *)
Record clinker := Clinker { k_addr : Z -> Z; k_size : Z -> Z; k_base : Z; k_secno : Z -> Z; k_secaddr : Z -> Z }.
(** Width of the field and number stored there by a relocation of type [ty] against symbol [s] with
    [A] in the field, at address [P] in a section at [sec].  Microsoft's linker (PE/COFF specification,
    5.2.1) takes positions from the end of the field; other linkers subtract the address of the
    section and the value of an undefined symbol, as the field is relative to them. *)
Definition capply (fl : flavour) (K : clinker) (ty s A P sec : Z) : option (Z * Z) :=
  let is k := ty =? k in let S := k_addr K s in let U := S - k_size K s in
  match fl with
  | COFF32 =>
      if is 6 then Some (32, U + A) else if is 20 then Some (32, U + A - sec)
      else if is 10 then Some (16, k_secno K s + A) else if is 11 then Some (32, U + A - k_secaddr K s) else None
  | COFF64 =>
      if is 1 then Some (64, U + A) else if is 2 then Some (32, U + A) else if is 4 then Some (32, U + A - sec)
      else if is 10 then Some (16, k_secno K s + A) else if is 11 then Some (32, U + A - k_secaddr K s) else None
  | WIN32 =>
      if is 6 then Some (32, S + A) else if is 7 then Some (32, S + A - k_base K) else if is 20 then Some (32, S + A - (P + 4))
      else if is 10 then Some (16, k_secno K s + A) else if is 11 then Some (32, S + A - k_secaddr K s) else None
  | WIN64 =>
      if is 1 then Some (64, S + A) else if is 2 then Some (32, S + A) else if is 3 then Some (32, S + A - k_base K)
      else if is 4 then Some (32, S + A - (P + 4)) else if is 5 then Some (32, S + A - (P + 5)) else if is 6 then Some (32, S + A - (P + 6))
      else if is 7 then Some (32, S + A - (P + 7)) else if is 8 then Some (32, S + A - (P + 8)) else if is 9 then Some (32, S + A - (P + 9))
      else if is 10 then Some (16, k_secno K s + A) else if is 11 then Some (32, S + A - k_secaddr K s) else None
  end.
(** The number in the field once the section has been placed at [sec] and linked. *)
Definition clinked (fl : flavour) (K : clinker) (sec : Z) (out : list Z) (r : option crel) : option Z :=
  match r with
  | None => Some (lev out)
  | Some r => match capply fl K (c_type r) (c_sym r) (lev out) (sec + ival (c_addr r)) sec with
              | Some (b, y) => if b =? 8 * Z.of_nat (List.length out) then Some (y mod 2 ^ b) else None
              | None => None
              end
  end.
(** What a value with the symbol [s] and the absolute part [k] stands for at position [pos]; [nobase]
    if addresses count from the start of the image. *)
Definition cwanted (K : clinker) (nobase : bool) (v : val) (s k pos : Z) : Z :=
  k + (if segof v then k_secno K s else if section_rel v then k_addr K s - k_secaddr K s
       else k_addr K s - (if curpos_rel v then pos else if nobase then k_base K else 0)).
(** What the linker knows agrees with the object. *)
Definition agree (label : Z -> option Z) (sect next : Z -> Z) (common : Z -> bool) (csize : Z -> option (option intnum)) (sectsym : Z -> Z) (start : Z -> Z) (K : clinker) : Prop :=
  (forall q, k_addr K (sectsym q) = start q /\ k_size K (sectsym q) = 0 /\ k_secaddr K (sectsym q) = start q) /\
  (forall s p, label s = Some p -> common s = false /\ k_addr K s = start (sect p) + next p /\ k_secaddr K s = start (sect p) /\ k_secno K s = k_secno K (sectsym (sect p))) /\
  (forall s, common s = false -> k_size K s = 0) /\
  (forall s n, csize s = Some (Some n) -> canonb n = true /\ k_size K s = ival n /\ 0 <= ival n < 2 ^ 30).

(** * Proofs *)
Lemma u64_small : forall u, 0 <= u < 2 ^ 32 -> u64 u = u.
Proof. intros u U. unfold u64. apply Z.mod_small. assert (2 ^ 32 < w64) by reflexivity. lia. Qed.
Lemma udiff : forall a b, 0 <= a < 2 ^ 31 -> 0 <= b < 2 ^ 31 ->
  let i := if b <=? a then create_uint (u64 (a - b)) else ical (create_uint (u64 (b - a))) NEG None in canon i /\ ival i = a - b.
Proof.
  intros a b A B. cbv zeta. assert (B255 : 2 ^ 31 < 2 ^ 200) by reflexivity. assert (SM : R (a - b)) by (apply R_small; lia). destruct (Z.leb_spec b a).
  - apply small_uint. lia.
  - destruct (small_uint (b - a) ltac:(lia)) as [C1 V1]. destruct (ical_un _ NEG (- (b - a)) C1 eq_refl) as [C2 V2]; [cbn [meaning]; rewrite V1; reflexivity|]. split; auto. rewrite V2. replace (- (b - a)) with (a - b) by lia. apply wrap_id. exact SM.
Qed.
Section Coff.
Variable fl : flavour.
Variable label : Z -> option Z.
Variable sect next : Z -> Z.
Variable extern common : Z -> bool.
Variable csize : Z -> option (option intnum).
Variable sectsym : Z -> Z.
Variable imagebase : option Z.
Notation cvalue := (coff_value fl label sect next extern common csize sectsym imagebase).
Definition wbase (v : val) : bool := match wrt v with Some w => is_base imagebase w | None => false end.
Lemma coff_inv : forall num num2 num3 v buf here bcoff blen offset nobase warn out r ws, cvalue num num2 num3 v buf here bcoff blen offset nobase warn = CBytes out (Some r) ws ->
  (0 <? rshift v) = false /\ (segof v || section_rel v = true -> wrt v = None /\ curpos_rel v = false) /\ exists s sym dist sym' val0 i j, rel v = Some s /\
  redirect label sect next imagebase v s = Some (sym, dist) /\ origin fl label sect next extern common csize sectsym s sym = SOk sym' val0 /\
  (exists ty, ctype fl v (nobase || wbase v) blen offset (Z.of_nat (List.length buf)) = Some ty /\ r = Crel sym' (create_uint (u64 (bcoff + offset))) ty) /\
  (let ab := adjust fl v val0 bcoff blen offset (Z.of_nat (List.length buf)) in total num3 v (fst ab) (snd ab) dist = Some i) /\
  get_sized i buf (size v) 0 (if warn then 1 else 0) = Some (out, j, ws).
Proof.
  intros num num2 num3 v buf here bcoff blen offset nobase warn out r ws H. unfold coff_value in H. destruct (output_basic _ _ _ _ _ _ _ _ _) as [| |neg f w|n w]; try discriminate H.
  2:{ unfold ctobytes in H. destruct (get_sized _ _ _ _ _) as [[[o j] w']|]; discriminate H. }
  destruct (0 <? rshift v); [discriminate H|]. cbn [orb] in H. destruct (segof v && _ || section_rel v && _) eqn:OT; [discriminate H|]. split; [reflexivity|]. split.
  { intros Q. apply orb_false_iff in OT. destruct OT as [O1 O2]. assert (X : negb (is_none (wrt v)) || curpos_rel v = false) by (destruct (segof v), (section_rel v); try discriminate Q; cbn [andb] in *; auto). apply orb_false_iff in X. destruct X as [X1 X2]. split; auto. destruct (wrt v); [discriminate X1|auto]. }
  destruct (rel v) as [s|]; [|destruct (total _ _ _ _ _); [unfold ctobytes in H; destruct (get_sized _ _ _ _ _) as [[[o j] w']|]; discriminate H|discriminate H]].
  destruct (redirect label sect next imagebase v s) as [[sym dist]|] eqn:RD; [|discriminate H]. destruct (origin fl label sect next extern common csize sectsym s sym) as [| |sym' val0] eqn:OR; try discriminate H.
  destruct (adjust fl v val0 bcoff blen offset _) as [a b] eqn:AJ. fold (wbase v) in H. destruct (ctype _ _ _ _ _ _) as [ty|] eqn:CT; [|discriminate H]. destruct (total _ _ _ _ _) as [i|] eqn:TT; [|discriminate H].
  unfold ctobytes in H. destruct (get_sized _ _ _ _ _) as [[[o j] w']|] eqn:GZ; [|discriminate H]. assert (o = out) by congruence. assert (w' = ws) by congruence. assert (RR : r = Crel sym' (create_uint (u64 (bcoff + offset))) ty) by congruence. subst o w'.
  exists s, sym, dist, sym', val0, i, j. split; [reflexivity|]. split; [exact RD|]. split; [exact OR|]. split; [exists ty; split; [reflexivity|exact RR]|]. split; [cbv zeta; rewrite AJ; exact TT|exact GZ].
Qed.
Variable start : Z -> Z.
Variable K : clinker.
Hypothesis AG : agree label sect next common csize sectsym start K.
Hypothesis NX : forall s p, label s = Some p -> 0 <= next p < 2 ^ 30.
(** the address of the symbol and the distances from it *)
Lemma symbol_ok : forall v s sym dist sym' val0, redirect label sect next imagebase v s = Some (sym, dist) -> origin fl label sect next extern common csize sectsym s sym = SOk sym' val0 ->
  0 <= val0 < 2 ^ 30 /\ match dist with None => True | Some d => canon d /\ wrt v <> None end /\ (wrt v = None -> k_secno K sym' = k_secno K s /\ k_secaddr K sym' = k_secaddr K s) /\
  (k_addr K sym' - (if win fl then 0 else k_size K sym')) + val0 + match dist with None => 0 | Some d => ival d end = k_addr K s.
Proof.
  intros v s sym dist sym' val0 RD OR. destruct AG as (SEC & LAB & UND & COM).
  assert (D : match dist with None => sym = s | Some d => canon d /\ wrt v <> None /\ common s = false /\ common sym = false /\ label sym <> None /\ k_addr K sym + ival d = k_addr K s end).
  { unfold redirect in RD. destruct (wrt v) as [w|] eqn:W; [|assert (None = dist) by congruence; subst dist; congruence].
    destruct (is_base imagebase w); [assert (None = dist) by congruence; subst dist; congruence|]. destruct (label s) as [p|] eqn:LS; [|discriminate]. destruct (label w) as [q|] eqn:LW; [|discriminate].
    unfold bc_dist in RD. destruct (Z.eqb_spec (sect q) (sect p)) as [SQ|]; [|discriminate]. cbn [negb] in RD. pose proof (NX s p LS) as N1. pose proof (NX w q LW) as N2. destruct (LAB s p LS) as (C1 & A1 & _). destruct (LAB w q LW) as (C2 & A2 & _).
    pose proof (udiff (next p) (next q) ltac:(lia) ltac:(lia)) as UD. cbv zeta in UD. assert (DD : dist = Some (if next q <=? next p then create_uint (u64 (next p - next q)) else ical (create_uint (u64 (next q - next p))) NEG None) /\ sym = w).
    { destruct (Z.ltb_spec (next p) (next q)), (Z.leb_spec (next q) (next p)); try lia; split; congruence. }
    destruct DD as [-> ->]. destruct UD as [U1 U2]. split; auto. split; [discriminate|]. split; auto. split; auto. split; [congruence|]. rewrite U2. rewrite A1, A2, SQ. lia. }
  assert (AS : match dist with None => True | Some d => canon d /\ wrt v <> None end) by (destruct dist; auto; tauto).
  assert (AD : k_addr K sym + match dist with None => 0 | Some d => ival d end = k_addr K s) by (destruct dist; [tauto|subst; lia]).
  assert (SS : wrt v = None -> sym = s) by (intros W; destruct dist; auto; destruct D as (_ & Q & _); congruence).
  assert (CC : common s = common sym) by (destruct dist; [destruct D as (_ & _ & -> & -> & _); reflexivity|subst; reflexivity]).
  unfold origin in OR. destruct (common s) eqn:CM.
  - destruct (win fl) eqn:WF.
    + injection OR as <- <-. split; [lia|]. split; auto. split; [intros W; rewrite (SS W); auto|]. lia.
    + destruct (csize sym) as [[n|]|] eqn:CZ; try discriminate. destruct (sign n <? 0); [discriminate|]. injection OR as <- <-. destruct (COM _ _ CZ) as (C1 & C2 & C3). apply canonb_ok in C1.
      assert (GU : get_uint n = ival n) by (rewrite get_uint_ok by auto; cbv zeta; destruct (Z.ltb_spec (ival n) 0); [lia|]; destruct (Z.ltb_spec (ival n) (2 ^ 32)); lia). rewrite GU.
      split; [lia|]. split; auto. split; [intros W; rewrite (SS W); auto|]. lia.
  - assert (KZ : k_size K sym = 0) by (apply UND; congruence).
    assert (SELF : SOk sym 0 = SOk sym' val0 -> 0 <= val0 < 2 ^ 30 /\ match dist with None => True | Some d => canon d /\ wrt v <> None end /\ (wrt v = None -> k_secno K sym' = k_secno K s /\ k_secaddr K sym' = k_secaddr K s) /\
      (k_addr K sym' - (if win fl then 0 else k_size K sym')) + val0 + match dist with None => 0 | Some d => ival d end = k_addr K s).
    { intros Q. injection Q as <- <-. split; [lia|]. split; auto. split; [intros W; rewrite (SS W); auto|]. rewrite KZ. destruct (win fl); lia. }
    destruct (negb (extern s) && negb (win64 fl)); [|auto]. destruct (label sym) as [p|] eqn:LS; [|auto]. injection OR as <- <-. pose proof (NX sym p LS) as N1. rewrite u64_small by lia. destruct (LAB sym p LS) as (_ & A1 & A2 & A3). destruct (SEC (sect p)) as (B1 & B2 & B3).
    split; [lia|]. split; auto. split; [intros W; rewrite <- (SS W); rewrite A2, A3, B3; auto|]. rewrite B1, B2. destruct (win fl); lia.
Qed.
Lemma total_ok : forall E num3 v a b dist i k, num_ok E num3 -> match abs v with None => k = 0 | Some e => eval E e = Some (VNum k) end -> 0 <= a < 2 ^ 31 -> 0 <= b < 2 ^ 31 ->
  match dist with None => True | Some d => canon d end -> total num3 v a b dist = Some i -> canon i /\ (2 ^ 256 | ival i - (a - b + k + match dist with None => 0 | Some d => ival d end)).
Proof.
  intros E num3 v a b dist i k N3 AB A B D H. unfold total in H. destruct (udiff a b A B) as [C1 V1]. set (i0 := if b <=? a then _ else _) in *. clearbody i0.
  assert (PLUS : forall x y, canon x -> canon y -> canon (ical x ADD (Some y)) /\ (2 ^ 256 | ival (ical x ADD (Some y)) - (ival x + ival y))).
  { intros x y CX CY. destruct (ical_ok x ADD y (ival x + ival y) CX CY) as [P Q]; [reflexivity|discriminate|]. split; auto. rewrite Q. apply wrap_dv. }
  destruct (match abs v with None => Some i0 | Some e => option_map (fun n => ical i0 ADD (Some n)) (num3 e) end) as [i1|] eqn:I1; [|discriminate]. injection H as <-.
  assert (J : canon i1 /\ (2 ^ 256 | ival i1 - (a - b + k))).
  { destruct (abs v) as [e|]; [|injection I1 as <-; split; auto; rewrite V1; exists 0; lia]. destruct (num3 e) as [n|] eqn:NE; [|discriminate]. injection I1 as <-. destruct (N3 e n NE) as [C3 C4]. apply canonb_ok in C3. specialize (C4 _ AB). assert (k = ival n) by congruence. subst k.
    destruct (PLUS i0 n C1 C3) as [P Q]. split; auto. rewrite V1 in Q. exact Q. }
  destruct J as [J1 J2]. destruct dist as [d|]; [|split; auto; rewrite Z.add_0_r; auto]. destruct (PLUS i1 d J1 D) as [P Q]. split; auto. destruct Q as [q Q], J2 as [p J2]. exists (p + q). lia.
Qed.
Lemma cvalue_ok : forall E num num2 num3 v buf here bcoff blen offset nobase warn out r ws s k,
  num_ok E num3 -> rel v = Some s -> match abs v with None => k = 0 | Some e => eval E e = Some (VNum k) end ->
  Forall byte buf -> 8 * Z.of_nat (List.length buf) = size v -> 0 <= bcoff -> 0 <= offset -> offset + Z.of_nat (List.length buf) <= blen -> bcoff + blen < 2 ^ 30 ->
  (segof v = true -> size v = 16) -> (segof v = false -> section_rel v = true \/ curpos_rel v = false /\ (i386 fl = true \/ nobase || wbase v = true) -> size v = 32) -> 0 <= size v <= 256 ->
  (win fl = false -> (nobase || wbase v = true -> curpos_rel v = true) /\ (curpos_rel v = true -> ip_rel v = false)) ->
  cvalue num num2 num3 v buf here bcoff blen offset nobase warn = CBytes out (Some r) ws ->
  ival (c_addr r) = bcoff + offset /\ clinked fl K (start here) out (Some r) = Some (cwanted K (nobase || wbase v) v s k (start here + bcoff) mod 2 ^ size v).
Proof.
  intros E num num2 num3 v buf here bcoff blen offset nobase warn out r ws s k N3 RV AB F LB B0 O0 OB BB S16 S32 S256 STD H.
  apply coff_inv in H. destruct H as (_ & SO & s' & sym & dist & sym' & val0 & i & j & RV' & RD & OR & (ty & CT & ->) & TT & GZ). assert (s' = s) by congruence. subst s'. clear RV'.
  destruct (symbol_ok v s sym dist sym' val0 RD OR) as (V0 & DC & SE & AD). clear RD OR. cbn [c_addr c_type c_sym clinked].
  assert (AA : ival (create_uint (u64 (bcoff + offset))) = bcoff + offset) by (apply small_uint; lia). split; auto. rewrite AA. clear AA.
  set (ds := Z.of_nat (List.length buf)) in *. assert (DS : 0 <= ds) by (unfold ds; lia). set (nb := nobase || wbase v) in *. clearbody nb. cbv zeta in TT.
  set (D := match dist with None => 0 | Some d => ival d end) in *.
  assert (D0 : wrt v = None -> D = 0) by (intros W; unfold D; destruct dist as [d|]; [destruct DC as [_ Q]; congruence|reflexivity]).
  assert (AJ : let ab := adjust fl v val0 bcoff blen offset ds in 0 <= fst ab < 2 ^ 31 /\ 0 <= snd ab < 2 ^ 31 /\ fst ab - snd ab = if segof v then 0 else val0 + if curpos_rel v then (if win64 fl && ip_rel v then blen else if win fl then offset + ds else - bcoff) else 0).
  { unfold adjust. destruct (segof v); [destruct (curpos_rel v), (win64 fl && ip_rel v), (win fl); cbn [fst snd]; lia|]. destruct (curpos_rel v); [|cbn [fst snd]; lia]. destruct (win64 fl && ip_rel v); [rewrite u64_small by lia; cbn [fst snd]; lia|]. destruct (win fl); [rewrite u64_small by lia|]; cbn [fst snd]; lia. }
  cbv zeta in AJ. destruct (adjust fl v val0 bcoff blen offset ds) as [a b]. cbn [fst snd] in *. destruct AJ as (A1 & A2 & A3).
  destruct (total_ok E num3 v a b dist i k N3 AB A1 A2 ltac:(destruct dist; tauto) TT) as [CI DI]. fold D in DI. rewrite <- LB in GZ. destruct (get_sized_full i buf _ out j ws CI F ltac:(fold ds; lia) GZ) as [LO LL]. fold ds in LL, LO, LB. rewrite LL. fold ds. rewrite LB in LO |- *.
  symmetry in LO. apply mod_div in LO; [|lia]. apply (pow_div (size v)) in DI; [|lia]. set (A := lev out) in *. clearbody A D.
  assert (AV : (2 ^ size v | A - (a - b + k + D))) by (destruct LO as [p LO], DI as [q DI]; exists (q - p); lia). rewrite A3 in AV. clear LO DI A1 A2 A3 TT GZ CI.
  unfold cwanted. unfold ctype in CT. destruct (segof v) eqn:SG.
  - destruct (SO eq_refl) as [W C]. rewrite C in *. assert (ty = 10) by congruence. subst ty. destruct (SE W) as [SN _]. rewrite (S16 eq_refl) in *. rewrite (D0 W) in *.
    destruct fl; cbn [capply Z.eqb Pos.eqb]; f_equal; (apply div_mod; [lia|]); rewrite SN; destruct AV as [p AV]; exists p; lia.
  - destruct (section_rel v) eqn:SR.
    + destruct (SO eq_refl) as [W C]. rewrite C in *. assert (ty = 11) by congruence. subst ty. destruct (SE W) as [_ SN]. rewrite (S32 eq_refl (or_introl eq_refl)) in *. rewrite (D0 W) in *.
      destruct fl; cbn [capply win Z.eqb Pos.eqb] in *; f_equal; (apply div_mod; [lia|]); rewrite SN; destruct AV as [p AV]; exists p; lia.
    + destruct (curpos_rel v) eqn:C.
      * assert (SZ : size v = 32) by (destruct fl; cbn [i386] in CT; destruct (Z.eqb_spec (size v) 32); auto; discriminate CT). rewrite SZ in *. assert (ds = 4) by lia. clear S16 S32 SO SE F.
        destruct fl; cbn [i386 win win64 andb Z.eqb Pos.eqb negb] in *.
        -- assert (ty = 20) by congruence. subst ty. cbn [capply Z.eqb Pos.eqb]. f_equal. apply div_mod; [lia|]. destruct AV as [p AV]. exists p. lia.
        -- destruct (STD eq_refl) as [_ IP]. rewrite (IP eq_refl) in *. cbn [negb] in CT. assert (ty = 4) by congruence. subst ty. cbn [capply Z.eqb Pos.eqb]. f_equal. apply div_mod; [lia|]. destruct AV as [p AV]. exists p. lia.
        -- assert (ty = 20) by congruence. subst ty. cbn [capply Z.eqb Pos.eqb]. f_equal. apply div_mod; [lia|]. destruct AV as [p AV]. exists p. lia.
        -- destruct (ip_rel v); cbn [negb] in CT.
           ++ rewrite u64_small in CT by lia. destruct (Z.leb_spec (blen - (offset + ds)) 5); [|discriminate CT]. set (e := blen - (offset + ds)) in *. assert (TY : ty = 4 + e) by congruence. clear CT.
              assert (CP : capply WIN64 K ty sym' A (start here + (bcoff + offset)) (start here) = Some (32, k_addr K sym' + A - (start here + (bcoff + offset) + 4 + e))).
              { assert (EE : e = 0 \/ e = 1 \/ e = 2 \/ e = 3 \/ e = 4 \/ e = 5) by lia. clearbody e. subst ty. destruct EE as [->|[->|[->|[->|[->| ->]]]]]; cbn [capply Z.add Pos.add Pos.succ Z.eqb Pos.eqb]; f_equal; f_equal; lia. }
              rewrite CP. cbn [Z.eqb Pos.eqb]. f_equal. apply div_mod; [lia|]. destruct AV as [p AV]. exists p. unfold e. lia.
           ++ assert (ty = 4) by congruence. subst ty. cbn [capply Z.eqb Pos.eqb]. f_equal. apply div_mod; [lia|]. destruct AV as [p AV]. exists p. lia.
      * assert (NB : win fl = false -> nb = false) by (intros Q; destruct (STD Q) as [Q2 _]; destruct nb; auto; discriminate (Q2 eq_refl)). clear STD S16 SO SE F. specialize (S32 eq_refl).
        destruct fl; cbn [i386 win win64 andb] in *.
        -- rewrite S32 in * by (right; auto). rewrite (NB eq_refl) in *. assert (ty = 6) by congruence. subst ty. cbn [capply Z.eqb Pos.eqb]. f_equal. apply div_mod; [lia|]. destruct AV as [p AV]. exists p. lia.
        -- rewrite (NB eq_refl) in *. destruct (Z.eqb_spec (size v) 32) as [Q|]; [|destruct (Z.eqb_spec (size v) 64) as [Q|]; [|discriminate CT]]; rewrite Q in *; [assert (ty = 2) by congruence|assert (ty = 1) by congruence]; subst ty; cbn [capply Z.eqb Pos.eqb]; f_equal; (apply div_mod; [lia|]); destruct AV as [p AV]; exists p; lia.
        -- rewrite S32 in * by (right; auto). destruct nb; [assert (ty = 7) by congruence|assert (ty = 6) by congruence]; subst ty; cbn [capply Z.eqb Pos.eqb]; f_equal; (apply div_mod; [lia|]); destruct AV as [p AV]; exists p; lia.
        -- destruct (Z.eqb_spec (size v) 32) as [Q|].
           ++ rewrite Q in *. destruct nb; [assert (ty = 3) by congruence|assert (ty = 2) by congruence]; subst ty; cbn [capply Z.eqb Pos.eqb]; f_equal; (apply div_mod; [lia|]); destruct AV as [p AV]; exists p; lia.
           ++ destruct (Z.eqb_spec (size v) 64) as [Q|]; [|discriminate CT]. assert (nb = false) by (destruct nb; auto; rewrite S32 in Q; [discriminate Q|right; auto]). subst nb. clear S32. rewrite Q in *. assert (ty = 1) by congruence. subst ty. cbn [capply Z.eqb Pos.eqb]. f_equal. apply div_mod; [lia|]. destruct AV as [p AV]. exists p. lia.
Qed.
End Coff.
