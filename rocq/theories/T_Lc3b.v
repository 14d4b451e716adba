(** Theorems on LC-3b instructions: C89. *)
From Coq Require Import ZArith List Bool Lia String.
From Verif Require Import Lib M_BitVect P_BitVect P_BitVectIO M_Intnum P_Intnum P_IntnumIO M_Expr P_Expr P_ExprLevel P_ExprTree P_ExprTree2 P_ExprTop P_ExprUse M_Value P_Value P_ValueTop P_ValueOut M_BinValue P_BinValue P_BinValueTop M_Lc3b P_Lc3b P_Lc3bTop P_Lc3bForms T_Value T_BinValue.
Import ListNotations.
Open Scope Z_scope.

(** C89: the word that is written is the instruction asked for, if the machine has it, and a warning is given
    exactly outside of [silent_at]. *)
Theorem C89_encoding : forall nequ equ label sect next first vstart is_abs bsymd istart slength curpos vspecial precbc dot base, laid_out sect next first ->
  (forall q, canonb (vstart q) = true /\ canonb (istart q) = true /\ canonb (slength q) = true) -> (forall s d, equ s = Some d -> shaped (eitem d)) ->
  forall E num2 name g m ps ops i bc bcoff pos out ws, site equ label sect next vstart is_abs bsymd istart slength curpos dot base E num2 bc bcoff pos -> far ops -> Forall2 (denotes nequ equ E) ps ops ->
  find_insn name = Some (g, m) -> finalize_insn nequ equ label sect curpos vspecial precbc dot g m ps = Done i -> plain i ->
  tobytes nequ equ label sect next first vstart is_abs bsymd istart slength num2 i bc bcoff 2 = BBytes out ws ->
  exists x, asked (lower_str name) ops pos = Some x /\ wf out /\ (exists_at pos x -> decode (lev out) pos = Some x) /\ (ws = [] <-> silent_at pos x).
Proof. exact encode_ok. Qed.
Print Assumptions C89_encoding.
(** No instruction the machine has gets a warning. *)
Theorem C89_silent : forall pc x, even pc -> exists_at pc x -> silent_at pc x.
Proof. exact silent_more. Qed.
Print Assumptions C89_silent.
(** A line is refused for its operands exactly when it asks for no instruction. *)
Theorem C89_forms : forall nequ equ label sect curpos vspecial precbc dot name ps ops pc, Forall2 same_kind ps ops ->
  (asked (lower_str name) ops pc = None <-> match find_insn name with None => True | Some (g, m) => finalize_insn nequ equ label sect curpos vspecial precbc dot g m ps = NoForm end).
Proof. exact forms_ok. Qed.
Print Assumptions C89_forms.
Theorem C89_others : forall nequ equ label sect curpos vspecial precbc dot name ps g m, find_insn name = Some (g, m) -> In P_Other ps ->
  finalize_insn nequ equ label sect curpos vspecial precbc dot g m ps = NoForm.
Proof. exact others_refused. Qed.
Print Assumptions C89_others.
(** A target in a flat binary is a symbol with an address, never a number alone. *)
Theorem C89_target : forall nequ equ label sect curpos vspecial precbc dot next first vstart is_abs bsymd istart slength g m ps i num2 bc bcoff blen out ws,
  finalize_insn nequ equ label sect curpos vspecial precbc dot g m ps = Done i -> itype i = I_9_PC ->
  tobytes nequ equ label sect next first vstart is_abs bsymd istart slength num2 i bc bcoff blen = BBytes out ws ->
  exists s, rel (imm i) = Some s /\ known label is_abs (section_symbol vstart bsymd istart slength) s.
Proof. exact target_symbol. Qed.
Print Assumptions C89_target.

(** The layout of C88; the instruction is at 16 of section 0, address 272. *)
Definition wsym (s : Z) : option value :=
  match zlabel s with Some p => Some (VNum (zpos p)) | None => if s =? 20 then Some (VNum 64) else if s =? 30 then Some (VNum 0) else if s =? 9 then Some (VNum 272) else None end.
Definition wE : env := Env (fun _ => 0) (fun _ => 0) zpos wsym (fun a => a / 16) (fun a b => a - xbase b).
Definition wfin (name : string) (ps : list operand) : fin :=
  match find_insn name with Some (g, m) => finalize_insn 0 noequ zlabel zsect zcur nospec (Some 16) 9 g m ps | None => NoForm end.
Definition wout (name : string) (ps : list operand) : bres :=
  match wfin name ps with Done i => tobytes 0 noequ zlabel zsect znext zfirst zstart zabs zsymd zstart zlen (fun _ => None) i 18 16 2 | _ => BErr end.
Definition num (z : Z) : operand := P_Imm (IDENT, [TInt (IL z)]).
Definition sym (s : Z) : operand := P_Imm (IDENT, [TSym s]).
Lemma wsite : site noequ zlabel zsect znext zstart zabs zsymd zstart zlen zcur 9 xbase wE (fun _ => None) 18 16 272.
Proof.
  split; [intros e n H; discriminate H|]. split.
  { split; [|split].
    - split; [reflexivity|]. intros s [H| ->]; [|reflexivity]. unfold zcur in H. apply orb_true_iff in H. destruct H as [H|H]; apply Z.eqb_eq in H; subst s; reflexivity.
    - split; [reflexivity|]. split; [|split].
      + intros s p H. cbn [symv wE]. unfold wsym. rewrite H. reflexivity.
      + intros s n L H. cbn [symv wE]. unfold wsym. rewrite L. unfold section_symbol, zsymd in H. destruct (Z.eqb_spec s 20) as [->|]; [|discriminate]. injection H as <-. reflexivity.
      + intros s H. unfold zabs in H. apply Z.eqb_eq in H. subst s. reflexivity.
    - intros s d H. discriminate H. }
  split; [reflexivity|]. split; [reflexivity|]. split; [reflexivity|]. split; [lia|].
  intros s S H. cbn [symv wE] in H. unfold wsym, zlabel in H. repeat match type of H with match (if ?c then _ else _) with _ => _ end = _ => destruct c | (if ?c then _ else _) = _ => destruct c end; try discriminate H; assert (Q : VNum S = VNum 264 \/ VNum S = VNum 1064 \/ VNum S = VNum 260 \/ VNum S = VNum 272 \/ VNum S = VNum 64 \/ VNum S = VNum 0) by (injection H as <-; vm_compute; tauto); lia || (clear H; repeat (destruct Q as [Q|Q]; [injection Q as ->; lia|]); injection Q as ->; lia).
Qed.
Lemma wsym_denotes : denotes 0 noequ wE (sym 3) (SImm 1064).
Proof.
  split; [apply leaf_good; [reflexivity|discriminate]|]. split; [reflexivity|]. split.
  - intros e1 st b H. vm_compute in H. injection H as <- <- <-. vm_compute. auto 10.
  - intros h H. vm_compute in H. injection H as <-. intros e1 st b H. vm_compute in H. injection H as <- <- <-. vm_compute. intuition discriminate.
Qed.
(** brz label: the hypotheses hold, and the word is 0000 010 offset, the distance (1064 - 274) / 2 = 395 being too
    far; the label at 264 is near. *)
Example C89_ex1 : laid_out zsect znext zfirst /\ site noequ zlabel zsect znext zstart zabs zsymd zstart zlen zcur 9 xbase wE (fun _ => None) 18 16 272 /\ far [SImm 1064] /\ Forall2 (denotes 0 noequ wE) [sym 3] [SImm 1064] /\
  (exists i, wfin "BRz" [sym 3] = Done i /\ plain i) /\ wout "BRz" [sym 3] = BBytes [139; 5] (sized_warns 395 9 0 (-1)) /\ wout "brz" [sym 1] = BBytes [251; 5] [] /\ decode (lev [251; 5]) 272 = Some (Br false true false 264).
Proof.
  split; [exact zlaid|]. split; [exact wsite|]. split; [constructor; [lia|constructor]|]. split; [constructor; [exact wsym_denotes|constructor]|].
  split; [eexists; split; [vm_compute; reflexivity|]; unfold plain; cbn; repeat split; try lia; reflexivity|]. repeat match goal with |- _ /\ _ => split end; vm_compute; reflexivity.
Qed.
(** the other instructions *)
Example C89_ex2 :
  wout "add" [P_Reg 1; P_Reg 2; P_Reg 3] = BBytes [131; 18] [] /\ wout "and" [P_Reg 1; P_Reg 2; num (-3)] = BBytes [189; 82] [] /\ wout "not" [P_Reg 7; P_Reg 1] = BBytes [127; 158] [] /\
  wout "ld" [P_Reg 1; P_Reg 2; num 6] = BBytes [131; 34] [] /\ wout "stb" [P_Reg 1; P_Reg 2; num (-1)] = BBytes [191; 114] [] /\ wout "jmp" [P_Reg 3; num 8] = BBytes [4; 198] [] /\
  wout "lea" [P_Reg 5; sym 1] = BBytes [251; 235] [] /\ wout "jsr" [sym 1] = BBytes [251; 65] [] /\ wout "trap" [num 74] = BBytes [37; 240] [] /\ wout "rshfa" [P_Reg 1; P_Reg 2; num 5] = BBytes [181; 210] [] /\
  wout "ret" [] = BBytes [0; 206] [] /\ wfin "add" [P_Reg 1; num 4] = NoForm /\ asked "add" [SReg 1; SImm 4] 272 = None /\ wfin "ret" [P_Other] = NoForm /\ wout "br" [num 264] = BErr /\ wout "br" [P_Imm (ADD, [TSym 1; TInt (IL 2)])] = BErr.
Proof. repeat match goal with |- _ /\ _ => split end; vm_compute; reflexivity. Qed.
(** Odd offsets are made even, with no warning. *)
Theorem C89_odd_refuted : wout "ld" [P_Reg 1; P_Reg 2; num 5] = BBytes [130; 34] [] /\ decode (lev [130; 34]) 272 = Some (Ld 1 2 4) /\
  wout "trap" [num 75] = BBytes [37; 240] [] /\ decode (lev [37; 240]) 272 = Some (Trap 74).
Proof. repeat match goal with |- _ /\ _ => split end; vm_compute; reflexivity. Qed.
Print Assumptions C89_odd_refuted.
(** Offsets too large by less than twice wrap to negative ones, and negative shifts to large ones, with no warning. *)
Theorem C89_range_refuted : wout "ld" [P_Reg 1; P_Reg 2; num 100] = BBytes [178; 34] [] /\ decode (lev [178; 34]) 272 = Some (Ld 1 2 (-28)) /\
  wout "jmp" [P_Reg 3; num 1000] = BBytes [244; 199] [] /\ decode (lev [244; 199]) 272 = Some (Jmp 3 (-24)) /\
  wout "lshf" [P_Reg 1; P_Reg 2; num (-1)] = BBytes [143; 210] [] /\ decode (lev [143; 210]) 272 = Some (Lshf 1 2 15).
Proof. repeat match goal with |- _ /\ _ => split end; vm_compute; reflexivity. Qed.
Print Assumptions C89_range_refuted.
