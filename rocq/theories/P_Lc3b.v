(** Specification of LC-3b instructions, and proofs (C89). *)
From Coq Require Import ZArith List Bool Lia String.
From Verif Require Import Lib LibBits M_BitVect P_BitVect P_BitVectIO M_Intnum P_Intnum P_IntnumIO M_Expr P_Expr P_ExprLevel P_ExprTree P_ExprTree2 P_ExprTop P_ExprUse M_Value P_Value P_ValueTop P_ValueOut P_ElfReloc M_CoffReloc P_CoffReloc M_BinValue P_BinValue P_BinValueTop M_Lc3b.
Import ListNotations.
Open Scope Z_scope.

(** * Specification *)
(** The instructions of the machine.  Offsets are in bytes, targets are addresses. *)
Inductive arg := AReg (r : Z) | AImm (z : Z).
Inductive instr :=
  | Add (d s : Z) (a : arg) | And (d s : Z) (a : arg) | Not (d s : Z)
  | Br (n z p : bool) (target : Z) | Jsr (target : Z) | Jmp (r off : Z) | Lea (d target : Z)
  | Ld (d s off : Z) | Ldi (d s off : Z) | St (d s off : Z) | Sti (d s off : Z) | Ldb (d s off : Z) | Stb (d s off : Z)
  | Lshf (d s n : Z) | Rshfl (d s n : Z) | Rshfa (d s n : Z) | Rti | Trap (z : Z).
(** The low [n] bits of [w], as a signed number. *)
Definition sext (n w : Z) : Z := let f := w mod 2 ^ n in if f <? 2 ^ (n - 1) then f else f - 2 ^ n.
(** What the word [w] at address [pc] does. *)
Definition decode (w pc : Z) : option instr :=
  let d := w / 512 mod 8 in
  let s := w / 64 mod 8 in
  let target := pc + 2 + 2 * sext 9 w in
  let arith f := if w / 32 mod 2 =? 1 then Some (f d s (AImm (sext 5 w))) else if w / 8 mod 4 =? 0 then Some (f d s (AReg (w mod 8))) else None in
  match w / 4096 with
  | 0 => Some (Br (w / 2048 mod 2 =? 1) (w / 1024 mod 2 =? 1) (w / 512 mod 2 =? 1) target)
  | 1 => arith Add
  | 2 => Some (Ld d s (2 * sext 6 w))
  | 3 => Some (St d s (2 * sext 6 w))
  | 4 => if d =? 0 then Some (Jsr target) else None
  | 5 => arith And
  | 6 => Some (Ldb d s (sext 6 w))
  | 7 => Some (Stb d s (sext 6 w))
  | 8 => if w mod 4096 =? 0 then Some Rti else None
  | 9 => if w mod 64 =? 63 then Some (Not d s) else None
  | 10 => Some (Ldi d s (2 * sext 6 w))
  | 11 => Some (Sti d s (2 * sext 6 w))
  | 12 => Some (Jmp d (2 * sext 9 w))
  | 13 => match w / 16 mod 4 with 0 => Some (Lshf d s (w mod 16)) | 1 => Some (Rshfl d s (w mod 16)) | 3 => Some (Rshfa d s (w mod 16)) | _ => None end
  | 14 => Some (Lea d target)
  | 15 => if w / 256 mod 16 =? 0 then Some (Trap (2 * (w mod 256))) else None
  | _ => None
  end.
(** What a line of source asks for: the operands are registers and numbers. *)
Inductive sop := SReg (r : Z) | SImm (z : Z).
Definition asked (name : string) (ops : list sop) (pc : Z) : option instr :=
  match ops with
  | [] => if String.eqb name "ret" then Some (Jmp 7 0) else if String.eqb name "rti" then Some Rti else if String.eqb name "nop" then Some (Br false false false (pc + 2)) else None
  | [SImm z] =>
      if String.eqb name "br" then Some (Br false false false z) else if String.eqb name "brn" then Some (Br true false false z)
      else if String.eqb name "brz" then Some (Br false true false z) else if String.eqb name "brp" then Some (Br false false true z)
      else if String.eqb name "brnz" then Some (Br true true false z) else if String.eqb name "brnp" then Some (Br true false true z)
      else if String.eqb name "brzp" then Some (Br false true true z) else if String.eqb name "brnzp" then Some (Br true true true z)
      else if String.eqb name "jsr" then Some (Jsr z) else if String.eqb name "trap" then Some (Trap z) else None
  | [SReg d; SImm z] => if String.eqb name "jmp" then Some (Jmp d z) else if String.eqb name "lea" then Some (Lea d z) else None
  | [SReg d; SReg s] => if String.eqb name "not" then Some (Not d s) else None
  | [SReg d; SReg s; SReg t] => if String.eqb name "add" then Some (Add d s (AReg t)) else if String.eqb name "and" then Some (And d s (AReg t)) else None
  | [SReg d; SReg s; SImm z] =>
      if String.eqb name "add" then Some (Add d s (AImm z)) else if String.eqb name "and" then Some (And d s (AImm z))
      else if String.eqb name "ld" then Some (Ld d s z) else if String.eqb name "ldi" then Some (Ldi d s z)
      else if String.eqb name "st" then Some (St d s z) else if String.eqb name "sti" then Some (Sti d s z)
      else if String.eqb name "ldb" then Some (Ldb d s z) else if String.eqb name "stb" then Some (Stb d s z)
      else if String.eqb name "lshf" then Some (Lshf d s z) else if String.eqb name "rshfl" then Some (Rshfl d s z) else if String.eqb name "rshfa" then Some (Rshfa d s z) else None
  | _ => None
  end.
(** Which instructions at [pc] the machine has. *)
Definition even (z : Z) : Prop := z mod 2 = 0.
Definition exists_at (pc : Z) (x : instr) : Prop :=
  let near t := even (t - pc) /\ -512 <= t - (pc + 2) < 512 in
  match x with
  | Add _ _ (AImm z) | And _ _ (AImm z) => -16 <= z < 16
  | Br _ _ _ t | Jsr t | Lea _ t => near t
  | Jmp _ z => even z /\ -512 <= z < 512
  | Ld _ _ z | Ldi _ _ z | St _ _ z | Sti _ _ z => even z /\ -64 <= z < 64
  | Ldb _ _ z | Stb _ _ z => -32 <= z < 32
  | Lshf _ _ n | Rshfl _ _ n | Rshfa _ _ n => 0 <= n < 16
  | Trap z => even z /\ 0 <= z < 512
  | _ => True
  end.

(** * Bits *)
Lemma lor_add : forall c r k, 0 <= k -> 0 <= r < 8 -> (c / 2 ^ k) mod 8 = 0 -> Z.lor c (r * 2 ^ k) = c + r * 2 ^ k.
Proof.
  intros c r k K RR H. assert (L : Z.land c (r * 2 ^ k) = 0).
  { apply Z.bits_inj'. intros n N. rewrite Z.land_spec, Z.bits_0. destruct (Z.ltb_spec n k).
    - rewrite (Z.mul_pow2_bits_low r k n) by lia. apply andb_false_r.
    - rewrite Z.mul_pow2_bits by lia. destruct (Z.ltb_spec (n - k) 3).
      + assert (T : Z.testbit (c / 2 ^ k mod 2 ^ 3) (n - k) = false) by (change (2 ^ 3) with 8; rewrite H; apply Z.bits_0). rewrite Z.mod_pow2_bits_low in T by lia. rewrite Z.div_pow2_bits in T by lia. replace (n - k + k) with n in T by lia. rewrite T. reflexivity.
      + rewrite (testbit_small 3 r) by (change (2 ^ 3) with 8; lia). apply andb_false_r. }
  rewrite <- (Z.lxor_lor _ _ L). symmetry. apply Z.add_nocarry_lxor. exact L.
Qed.
Lemma land7 : forall r, 0 <= r < 8 -> Z.land r 7 = r.
Proof. intros r H. change 7 with (Z.ones 3). rewrite Z.land_ones by lia. apply Z.mod_small. exact H. Qed.
Lemma word_bytes : forall c, 0 <= c < 65536 -> lev [c mod 256; c / 256 mod 256] = c /\ Forall byte [c mod 256; c / 256 mod 256].
Proof.
  intros c H. assert (B : forall x, 0 <= x mod 256 < 256) by (intros x; apply Z.mod_pos_bound; reflexivity). split.
  - cbn [lev]. rewrite (Z.mod_small (c / 256) 256) by (split; [apply Z.div_pos; lia|apply Z.div_lt_upper_bound; lia]). pose proof (Z.div_mod c 256). lia.
  - constructor; [apply B|]. constructor; [apply B|constructor].
Qed.
Lemma field_word : forall c out n y, 0 <= c < 65536 -> 0 <= n <= 16 -> c mod 2 ^ n = 0 -> field_is [c mod 256; c / 256 mod 256] out n y -> List.length out = 2%nat /\ Forall byte out /\ lev out = c + y mod 2 ^ n.
Proof.
  intros c out n y C N L (A & B & D & F). destruct (word_bytes c C) as [W _]. rewrite W in F. split; [exact A|]. split; [exact B|]. pose proof (Z.div_mod (lev out) (2 ^ n) ltac:(pose proof (pow2_pos n ltac:(lia)); lia)). pose proof (Z.div_mod c (2 ^ n) ltac:(pose proof (pow2_pos n ltac:(lia)); lia)). rewrite F, D in *. lia.
Qed.
Lemma sext_ok : forall n w y, 1 <= n -> w mod 2 ^ n = y mod 2 ^ n -> - 2 ^ (n - 1) <= y < 2 ^ (n - 1) -> sext n w = y.
Proof.
  intros n w y N H RY. unfold sext. rewrite H. assert (P : 2 ^ n = 2 * 2 ^ (n - 1)) by (rewrite <- Z.pow_succ_r by lia; f_equal; lia). set (h := 2 ^ (n - 1)) in *. rewrite P.
  destruct (Z.ltb_spec y 0).
  - assert (Q : y mod (2 * h) = y + 2 * h) by (symmetry; apply (Z.mod_unique_pos y (2 * h) (-1)); lia). rewrite Q. destruct (Z.ltb_spec (y + 2 * h) h); lia.
  - rewrite Z.mod_small by lia. destruct (Z.ltb_spec y h); lia.
Qed.
Lemma no_warns : forall y n (sg : bool), 1 <= n < 256 -> (- 2 ^ (n - 1) <= y < (if sg then 2 ^ (n - 1) else 2 ^ n)) <-> sized_warns y n 0 (if sg then -1 else 1) = [].
Proof.
  intros y n sg N. unfold sized_warns. rewrite Z.pow_0_r, Z.div_1_r, Z.mod_1_r. assert (IF : forall b, in_field b n y = (- 2 ^ (n - 1) <=? y) && (y <? if b then 2 ^ (n - 1) else 2 ^ n)) by (intros b; unfold in_field; destruct (Z.leb_spec 256 n); [lia|]; destruct (Z.leb_spec n 0); [lia|]; reflexivity).
  rewrite !IF. clear IF. destruct sg; cbn [Z.ltb Z.compare negb andb app]; rewrite ?andb_false_r, ?app_nil_r.
  - destruct (Z.leb_spec (- 2 ^ (n - 1)) y); cbn [andb negb app]; [destruct (Z.ltb_spec y (2 ^ (n - 1))); cbn [negb]|]; split; intros HH; try reflexivity; try discriminate HH; lia.
  - destruct (Z.leb_spec (- 2 ^ (n - 1)) y); cbn [andb negb app]; [destruct (Z.ltb_spec y (2 ^ n)); cbn [negb]|]; split; intros HH; try reflexivity; try discriminate HH; lia.
Qed.

(** * Immediates *)
Section Lc3b.
Variable nequ : nat.
Variable equ : Z -> option expr.
Variable label : Z -> option Z.
Variable sect next first : Z -> Z.
Variable vstart : Z -> intnum.
Variable is_abs : Z -> bool.
Variable bsymd : Z -> option (Z * which).
Variable istart slength : Z -> intnum.
Variable curpos vspecial : Z -> bool.
Variable precbc : option Z.
Variable dot : Z.
Variable base : Z -> Z.
Hypothesis LO : laid_out sect next first.
Hypothesis CV : forall q, canonb (vstart q) = true /\ canonb (istart q) = true /\ canonb (slength q) = true.
Hypothesis SD : forall s d, equ s = Some d -> shaped (eitem d).
Notation imm_value := (imm_value nequ equ label sect curpos vspecial precbc dot).
Notation tobytes := (tobytes nequ equ label sect next first vstart is_abs bsymd istart slength).
Notation bvalue := (bin_value nequ equ label sect next first vstart is_abs bsymd istart slength).
Definition tamed (e : expr) : Prop := forall e1 st b, level_tree nequ equ true true false [] e = Fin (e1, st, b) -> tame false (core (unmask 0 e1)).
(** an operand and what it stands for: the expression is well formed and can be split, as it is and halved *)
Definition denotes (E : env) (p : operand) (o : sop) : Prop :=
  match p, o with
  | P_Reg r, SReg r' => r = r' /\ 0 <= r < 8
  | P_Imm e, SImm z => good (eitem e) /\ eval E e = Some (VNum z) /\ tamed e /\ (forall h, create SHR (node e) (Some (TInt (create_uint 1))) = Fin h -> tamed h)
  | _, _ => False
  end.
Definition scaled (t : imm_type) (o : sop) : Z := match o with SReg r => r | SImm z => if words t then z / 2 else z end.
Definition env_ok (E : env) (pos : Z) : Prop :=
  env_value curpos dot base pos E /\ env_bin label sect next vstart is_abs (section_symbol vstart bsymd istart slength) E /\ env_equ equ E.

Lemma imm_ok : forall E pos t p o j, env_ok E pos -> denotes E p o -> imm_value t p = Done j -> wrt (imm j) = None -> segof (imm j) = false -> no_warn (imm j) = false ->
  kept 0 (imm j) /\ parts_value E (imm j) pos (scaled t o).
Proof.
  intros E pos t p o j (EV & EB & EE) D H WN SG NW.
  assert (FINE : forall e z, shaped (eitem e) -> tamed e -> eval E e = Some (VNum z) -> match finalize_expr label sect equ curpos vspecial precbc dot nequ false (Some e) 0 with FOk v => Done (Insn v t 0) | FBad => TooComplex | FInternal | FFatal => Internal | _ => LevelFault end = Done j ->
    kept 0 (imm j) /\ parts_value E (imm j) pos z).
  { intros e z SH TM Z Q. destruct (finalize_expr label sect equ curpos vspecial precbc dot nequ false (Some e) 0) as [v| | | | |] eqn:FE; try discriminate Q. assert (J : j = Insn v t 0) by congruence. subst j. cbn [imm] in *.
    destruct (split_parts nequ equ label sect SD curpos vspecial precbc dot base false e 0 v E z pos SH TM FE WN SG EV EE Z) as [KE (y & PV & RY & DY)]. split; [exact KE|]. rewrite NW in DY. assert (RZ : R z) by exact (ev_R E _ _ Z). assert (y = z) by (apply R_div; auto). subst y. exact PV. }
  unfold M_Lc3b.imm_value in H. destruct p as [r|e|]; [| |discriminate H]; destruct o as [r'|z]; try contradiction D.
  - destruct D as [<- RR]. cbn [scaled]. rewrite land7 in H by exact RR. refine (FINE _ _ _ _ _ H).
    + apply good_shaped. apply leaf_good; [reflexivity|discriminate].
    + intros e1 st b LV. assert (G : good (eitem (IDENT, [TInt (create_uint r)]))) by (apply leaf_good; [reflexivity|discriminate]).
      assert (Q : exists i, e1 = (IDENT, [TInt i])).
      { clear - LV RR. assert (C : r = 0 \/ r = 1 \/ r = 2 \/ r = 3 \/ r = 4 \/ r = 5 \/ r = 6 \/ r = 7) by lia. assert (K : exists i, level_tree nequ equ true true false [] (IDENT, [TInt (create_uint r)]) = Fin ((IDENT, [TInt i]), [], false)) by (destruct nequ; repeat (destruct C as [->|C]; [eexists; reflexivity|]); subst r; eexists; reflexivity). destruct K as [i K]. exists i. congruence. }
      destruct Q as [i ->]. cbn. auto.
    + unfold eval. cbn [fst snd ev map]. assert (C : r = 0 \/ r = 1 \/ r = 2 \/ r = 3 \/ r = 4 \/ r = 5 \/ r = 6 \/ r = 7) by lia. repeat (destruct C as [->|C]; [reflexivity|]). subst r. reflexivity.
  - destruct D as (G & V & T1 & T2). cbn [scaled]. destruct (words t).
    + destruct (create_ok SHR (node e) (Some (TInt (create_uint 1))) G I ltac:(reflexivity) ltac:(discriminate)) as (h & CH & GH & VH). rewrite CH in H. refine (FINE h _ (good_shaped _ GH) (T2 h CH) _ H). apply VH.
      rewrite (ev_shr E (node e) (TInt (create_uint 1)) z 1 V eq_refl ltac:(lia)). change (2 ^ 1) with 2. f_equal. f_equal. apply wrap_id. assert (RZ : R z) by exact (ev_R E _ _ V). unfold R in *. split; [apply Z.div_le_lower_bound; lia|apply Z.div_lt_upper_bound; lia].
    + exact (FINE e z (good_shaped _ G) T1 V H).
Qed.
(** writing an immediate that is not relative *)
Definition width (t : imm_type) : Z := match t with I_NONE => 0 | I_4 => 4 | I_5 => 5 | I_6_WORD | I_6_BYTE => 6 | I_8 => 8 | I_9 | I_9_PC => 9 end.
Definition checked (t : imm_type) : bool := match t with I_5 | I_6_BYTE | I_9_PC => true | _ => false end.
Lemma emit_ok : forall E num2 t v c bc bcoff blen out ws y, num_ok E num2 -> env_ok E (ival (vstart (sect bc)) + bcoff) -> t <> I_NONE -> t <> I_9_PC -> 0 <= c < 65536 -> kept 0 v -> no_warn v = false -> rshift v < 2 ^ 31 ->
  0 <= blen < 2 ^ 31 -> next bc = bcoff + blen -> parts_value E v (ival (vstart (sect bc)) + bcoff) y -> tobytes num2 (Insn v t c) bc bcoff blen = BBytes out ws ->
  field_is [c mod 256; c / 256 mod 256] out (width t) y /\ ws = sized_warns y (width t) 0 (if checked t then -1 else 1).
Proof.
  intros E num2 t v c bc bcoff blen out ws y N2 (_ & EB & EE) T0 T9 C KE NW RS BL NX PV H. destruct KE as (_ & _ & _ & _ & SGN & SA). destruct SA as (_ & _ & SA3).
  assert (K : forall n sg, 0 <= n <= 16 -> bvalue num2 (set_size v n sg) [c mod 256; c / 256 mod 256] bc bcoff blen true = BBytes out ws -> field_is [c mod 256; c / 256 mod 256] out n y /\ ws = sized_warns y n 0 (if sg then -1 else 1)).
  { intros n sg N Q. destruct (bvalue_ok nequ equ label sect next first vstart is_abs bsymd istart slength LO CV SD E num2 (set_size v n sg) _ bc bcoff blen true out ws y N2 (env_special _ _ _ _ _ _ _ _ _ EB) EE BL ltac:(cbn [rshift set_size]; lia) NX (proj2 (word_bytes c C)) ltac:(cbn [size set_size List.length]; lia) ltac:(cbn [List.length]; lia) PV Q) as (A & B & _). cbn [size set_size] in A, B. split; [exact A|]. rewrite B. unfold warn_mode. cbn [no_warn signed set_size]. rewrite NW, SGN. destruct sg; reflexivity. }
  unfold M_Lc3b.tobytes in H. cbv zeta in H. cbn [itype imm opcode] in H. destruct t; try congruence; [exact (K 4 false ltac:(lia) H)|exact (K 5 true ltac:(lia) H)|exact (K 6 false ltac:(lia) H)|exact (K 6 true ltac:(lia) H)|exact (K 8 false ltac:(lia) H)|exact (K 9 false ltac:(lia) H)].
Qed.
(** a jump target *)
Lemma target_emit : forall E num2 v c bc bcoff blen out ws z, num_ok E num2 -> env_ok E (ival (vstart (sect bc)) + bcoff) -> 0 <= c < 65536 -> kept 0 v -> no_warn v = false -> wrt v = None -> rshift v = 1 -> curpos_rel v = false ->
  0 <= blen < 2 ^ 31 -> next bc = bcoff + blen -> parts_value E v (ival (vstart (sect bc)) + bcoff) (z / 2) -> even (ival (vstart (sect bc)) + bcoff) ->
  - 2 ^ 64 < z < 2 ^ 64 -> - 2 ^ 64 < ival (vstart (sect bc)) + bcoff < 2 ^ 64 -> (forall s S, symv E s = Some (VNum S) -> - 2 ^ 64 < S < 2 ^ 64) ->
  tobytes num2 (Insn (set_curpos v) I_9_PC c) bc bcoff blen = BBytes out ws ->
  field_is [c mod 256; c / 256 mod 256] out 9 (z / 2 - 1 - (ival (vstart (sect bc)) + bcoff) / 2) /\ ws = sized_warns (z / 2 - 1 - (ival (vstart (sect bc)) + bcoff) / 2) 9 0 (-1).
Proof.
  intros E num2 v c bc bcoff blen out ws z N2 (EV & EB & EE) C KE NW WN RS CR BL NX PV EVEN ZB PB SB H. destruct KE as (_ & _ & _ & _ & SGN & _).
  set (pos := ival (vstart (sect bc)) + bcoff) in *. unfold M_Lc3b.tobytes in H. cbv zeta in H. cbn [itype imm opcode] in H. destruct (from_next (set_curpos v)) as [v2| |] eqn:FN; try discriminate H.
  assert (F2 : rel v2 = rel v /\ rshift v2 = 1 /\ curpos_rel v2 = true /\ no_warn v2 = false /\ signed v2 = false).
  { unfold from_next in FN. change (abs (set_curpos v)) with (abs v) in FN. destruct (abs v) as [a|].
    - destruct (create ADD (node a) _) as [e| |]; try discriminate FN. cbn [bind] in FN. assert (Q : v2 = set_abs (set_curpos v) (Some e)) by congruence. subst v2. cbn. auto.
    - destruct (create IDENT _ None) as [e| |]; try discriminate FN. cbn [bind] in FN. assert (Q : v2 = set_abs (set_curpos v) (Some e)) by congruence. subst v2. cbn. auto. }
  destruct F2 as (R2 & S2 & C2 & N3 & G2).
  destruct (bvalue_flags nequ equ label sect next first vstart is_abs bsymd istart slength num2 _ _ _ _ _ _ _ _ H) as (_ & _ & NR & _). cbn [rel set_size curpos_rel] in NR. rewrite R2, C2 in NR.
  destruct (rel v) as [s|] eqn:RV; [|exfalso; destruct (NR eq_refl) as (_ & Q & _); discriminate Q]. clear NR.
  destruct PV as (k & d & AB & RL & ZY). rewrite RV in RL. destruct RL as (S & SV & ->). unfold offset_of in ZY. rewrite CR, Z.sub_0_r, RS in ZY. change (2 ^ 1) with 2 in ZY.
  assert (AB2 : exists k2 e, abs v2 = Some e /\ good (eitem e) /\ eval E e = Some (VNum k2) /\ k2 = wrap256 (k - 1)).
  { unfold from_next in FN. change (abs (set_curpos v)) with (abs v) in FN. destruct (abs v) as [a|].
    - destruct AB as [GA VA]. destruct (create_ok ADD (node a) (Some (TInt (IL (-1)))) GA I ltac:(cbn; lia) ltac:(discriminate)) as (e & CE & GE & VE). rewrite CE in FN. cbn [bind] in FN. assert (Q : v2 = set_abs (set_curpos v) (Some e)) by congruence. subst v2. exists (wrap256 (k - 1)), e. cbn [abs set_abs]. split; [auto|]. split; [exact GE|]. split; [|auto]. apply VE. apply (ev_add E (node a) (TInt (IL (-1))) k (-1) VA eq_refl).
    - subst k. destruct (create_ok IDENT (TInt (IL (-1))) None I I ltac:(reflexivity) ltac:(reflexivity)) as (e & CE & GE & VE). rewrite CE in FN. cbn [bind] in FN. assert (Q : v2 = set_abs (set_curpos v) (Some e)) by congruence. subst v2. exists (-1), e. cbn [abs set_abs]. split; [auto|]. split; [exact GE|]. split; [|reflexivity]. apply VE. reflexivity. }
  destruct AB2 as (k2 & e & A2 & GE & V2 & K2). pose proof (SB s S SV) as SS.
  assert (W1 : forall x, - 2 ^ 70 < x < 2 ^ 70 -> R x) by (intros x X; unfold R; assert (2 ^ 70 < 2 ^ 255) by reflexivity; lia).
  assert (PP : 2 ^ 70 = 64 * 2 ^ 64) by reflexivity. set (b64 := 2 ^ 64) in *. assert (B64 : 0 < b64) by reflexivity. clearbody b64.
  rewrite (wrap_id S) in ZY by (apply W1; lia).
  assert (PV2 : parts_value E (set_size v2 9 true) pos (z / 2 - 1 - pos / 2)).
  { exists k2, (offset_of v2 S pos). cbn [abs set_size rel]. rewrite A2, R2. split; [auto|]. split; [exists S; auto|]. unfold offset_of. rewrite C2, S2. change (2 ^ 1) with 2. rewrite (wrap_id (S - pos)) by (apply W1; lia).
    rewrite K2, wrap_add_l. assert (HALF : (S - pos) / 2 = S / 2 - pos / 2). { unfold even in EVEN. pose proof (Z.div_mod pos 2 ltac:(lia)). replace (S - pos) with (S + (- (pos / 2)) * 2) by lia. rewrite Z.div_add by lia. lia. }
    rewrite HALF. replace (k - 1 + (S / 2 - pos / 2)) with ((k + S / 2) - (1 + pos / 2)) by lia. rewrite <- wrap_sub_l, <- ZY. replace (z / 2 - (1 + pos / 2)) with (z / 2 - 1 - pos / 2) by lia. symmetry. apply wrap_id. apply W1.
    pose proof (Z.div_mod z 2 ltac:(lia)). pose proof (Z.mod_pos_bound z 2 ltac:(lia)). pose proof (Z.div_mod pos 2 ltac:(lia)). pose proof (Z.mod_pos_bound pos 2 ltac:(lia)). lia. }
  destruct (bvalue_ok nequ equ label sect next first vstart is_abs bsymd istart slength LO CV SD E num2 (set_size v2 9 true) _ bc bcoff blen true out ws _ N2 (env_special _ _ _ _ _ _ _ _ _ EB) EE BL ltac:(cbn [rshift set_size]; lia) NX (proj2 (word_bytes c C)) ltac:(cbn [size set_size List.length]; lia) ltac:(cbn [List.length]; lia) PV2 H) as (A & B & _).
  cbn [size set_size] in A, B. split; [exact A|]. rewrite B. unfold warn_mode. cbn [no_warn signed set_size]. rewrite N3, G2. reflexivity.
Qed.

(** * Instructions *)
Notation finalize_insn := (finalize_insn nequ equ label sect curpos vspecial precbc dot).
Notation assign := (assign nequ equ label sect curpos vspecial precbc dot).
Definition code (f : info) (m : Z) : Z := base_code f + (if op_h f then Z.land m 255 * 2 ^ 8 else 0) + (if op_l f then Z.land (if op_h f then m / 2 ^ 8 else m) 255 else 0).
Lemma fin_ok : forall g m ps i, finalize_insn g m ps = Done i -> exists f j, In f g /\ all_fit (operands f) ps = true /\ assign (operands f) ps (Insn (init None 0) I_NONE (code f m)) = Done j /\
  (itype j <> I_9_PC -> i = j) /\ (itype j = I_9_PC -> i = Insn (set_curpos (imm j)) I_9_PC (opcode j) /\ segof (imm j) = false /\ curpos_rel (imm j) = false).
Proof.
  intros g m ps i H. unfold M_Lc3b.finalize_insn in H. destruct (choose g ps) as [f|] eqn:CH; [|discriminate H]. unfold choose in CH. apply find_some in CH. destruct CH as [IN AF]. fold (code f m) in H. cbv zeta in H.
  destruct (assign (operands f) ps (Insn (init None 0) I_NONE (code f m))) as [| | | | |j] eqn:AS; try discriminate H. exists f, j. split; [exact IN|]. split; [exact AF|]. split; [exact AS|].
  destruct (itype j) eqn:T; (split; [intros N; congruence|]); intros Q; try discriminate Q. destruct (segof (imm j)) eqn:SG; [discriminate H|]. destruct (1 <? rshift (imm j)); [discriminate H|]. destruct (curpos_rel (imm j)) eqn:CR; [discriminate H|]. cbn [orb] in H. split; [congruence|auto].
Qed.
(** the value has no WRT, was not masked, and the symbol of a target is halved *)
Definition plain (i : insn) : Prop := wrt (imm i) = None /\ no_warn (imm i) = false /\ rshift (imm i) < 2 ^ 31 /\ (itype i = I_9_PC -> rshift (imm i) = 1).
Definition site (E : env) (num2 : expr -> option intnum) (bc bcoff pos : Z) : Prop :=
  num_ok E num2 /\ env_ok E pos /\ pos = ival (vstart (sect bc)) + bcoff /\ next bc = bcoff + 2 /\ even pos /\ - 2 ^ 63 < pos < 2 ^ 63 /\ (forall s S, symv E s = Some (VNum S) -> - 2 ^ 64 < S < 2 ^ 64).
Lemma imm_out : forall E num2 t p o j c bc bcoff pos out ws, site E num2 bc bcoff pos -> denotes E p o -> imm_value t p = Done j -> t <> I_NONE -> t <> I_9_PC -> plain (Insn (imm j) t c) ->
  0 <= c < 65536 -> c mod 2 ^ width t = 0 -> tobytes num2 (Insn (imm j) t c) bc bcoff 2 = BBytes out ws ->
  (List.length out = 2%nat /\ Forall byte out) /\ lev out = c + scaled t o mod 2 ^ width t /\ ws = sized_warns (scaled t o) (width t) 0 (if checked t then -1 else 1).
Proof.
  intros E num2 t p o j c bc bcoff pos out ws (N2 & EO & PE & NX & _ & _ & _) D IV T0 T9 (P1 & P2 & P3 & _) C CM H. cbn [imm] in P1, P2, P3.
  assert (SG : segof (imm j) = false).
  { unfold M_Lc3b.tobytes in H. cbv zeta in H. cbn [itype imm opcode] in H. destruct t; try congruence; apply bvalue_flags in H; destruct H as [H _]; exact H. }
  destruct (imm_ok E pos t p o j EO D IV P1 SG P2) as [KE PV]. subst pos. destruct (emit_ok E num2 t (imm j) c bc bcoff 2 out ws (scaled t o) N2 EO T0 T9 C KE P2 P3 ltac:(lia) NX PV H) as [A B].
  destruct (field_word c out (width t) (scaled t o) C ltac:(destruct t; cbn [width]; lia) CM A) as (L1 & L2 & L3). auto.
Qed.
Lemma pc_out : forall E num2 p o j c bc bcoff pos out ws, site E num2 bc bcoff pos -> denotes E p (SImm o) -> imm_value I_9_PC p = Done j -> plain (Insn (imm j) I_9_PC c) -> segof (imm j) = false -> curpos_rel (imm j) = false ->
  0 <= c < 65536 -> c mod 512 = 0 -> - 2 ^ 64 < o < 2 ^ 64 -> tobytes num2 (Insn (set_curpos (imm j)) I_9_PC c) bc bcoff 2 = BBytes out ws ->
  (List.length out = 2%nat /\ Forall byte out) /\ lev out = c + (o / 2 - 1 - pos / 2) mod 512 /\ ws = sized_warns (o / 2 - 1 - pos / 2) 9 0 (-1).
Proof.
  intros E num2 p o j c bc bcoff pos out ws (N2 & EO & PE & NX & EV & PB & SB) D IV (P1 & P2 & _ & P4) SG CR C CM OB H. cbn [imm itype] in P1, P2, P4.
  destruct (imm_ok E pos I_9_PC p (SImm o) j EO D IV P1 SG P2) as [KE PV]. cbn [scaled words] in PV. subst pos.
  destruct (target_emit E num2 (imm j) c bc bcoff 2 out ws o N2 EO C KE P2 P1 (P4 eq_refl) CR ltac:(lia) NX PV EV OB ltac:(assert (2 ^ 63 < 2 ^ 64) by reflexivity; lia) SB H) as [A B].
  destruct (field_word c out 9 _ C ltac:(lia) CM A) as (L1 & L2 & L3). auto.
Qed.
Lemma lookup : forall name g m, find_insn name = Some (g, m) -> In (lower_str name, (g, m)) names.
Proof.
  intros name g m H. unfold find_insn in H. destruct (find _ names) as [[n x]|] eqn:F; [|discriminate]. apply find_some in F. destruct F as [I Q]. cbn [fst] in Q. apply String.eqb_eq in Q. cbn [snd] in H. assert (x = (g, m)) by congruence. subst x n. exact I.
Qed.
End Lc3b.
