(** x86 instructions and jumps: the theorems (C34, C35). *)
From Coq Require Import ZArith List Bool Lia.
From Verif Require Import Lib M_Intnum P_Intnum M_Expr P_Expr P_ExprLevel P_ExprTree P_ExprTop P_ExprUse M_X86 P_X86Len P_X86Jmp.
Import ListNotations.
Open Scope Z_scope.

(** C34: the length computed before layout, after any expansions, is the number of bytes of every copy. *)
Theorem C34_length : forall nequ equ label sect dist ov i i1 len1 sp ids i2 len n bss,
  insn_ok i -> insn_calc_len nequ equ label sect dist i = Ok (i1, len1, sp) -> expansions ids i1 len1 = Ok (i2, len) -> copies ov n len i2 = Ok bss ->
  length bss = n /\ Forall (fun b => Z.of_nat (length b) = len) bss.
Proof. exact insn_length. Qed.
Print Assumptions C34_length.
Theorem C34_no_bug : forall nequ equ label sect dist ov, (forall s d, equ s = Some d -> shaped (eitem d)) ->
  forall i i1 len1 sp ids, insn_ok i -> insn_mode i -> insn_calc_len nequ equ label sect dist i = Ok (i1, len1, sp) ->
  expansions ids i1 len1 <> Bug /\ forall i2 len n, no_bug ov -> expansions ids i1 len1 = Ok (i2, len) -> copies ov n len i2 <> Bug.
Proof. exact insn_no_bug. Qed.
Print Assumptions C34_no_bug.
Theorem C34_jmp_length : forall ov local j j1 len1 sp ids j2 len n bss, jmp_ok j -> jmp_calc_len local j = Ok (j1, len1, sp) -> incl ids (map span_id sp) ->
  jexpansions ids j1 len1 = Ok (j2, len) -> jcopies ov n len j2 = Ok bss -> length bss = n /\ Forall (fun b => Z.of_nat (length b) = len) bss.
Proof. exact jmp_length. Qed.
Print Assumptions C34_jmp_length.
Theorem C34_jmp_no_bug : forall ov local j j1 len1 sp, jmp_ok j -> vgood (j_target j) -> jmp_calc_len local j = Ok (j1, len1, sp) -> (length sp <= 1)%nat /\
  forall ids, ids = [] \/ ids = map span_id sp -> jexpansions ids j1 len1 <> Bug /\ forall j2 len n, no_bug ov -> jexpansions ids j1 len1 = Ok (j2, len) -> jcopies ov n len j2 <> Bug.
Proof. exact jmp_no_bug. Qed.
Print Assumptions C34_jmp_no_bug.

(** C35: a jump to symbol [s] at [T] plus [z] from a bytecode at [start]: the displacement of every copy, added to the address after
    that copy, is the target modulo the size of the displacement, and is the target if the distance fits.  A short form is used only
    if the span was not exceeded, and that span is exactly a signed byte, counted from the end of the first copy. *)
Theorem C35_lands : forall nequ equ label sect dist E place start s T, (forall s d, equ s = Some d -> shaped (eitem d)) ->
  env_labels label E -> env_dist dist E -> env_equ equ E -> place s = Some T -> - 2 ^ 31 < T - start < 2 ^ 31 ->
  forall local j j1 len1 sp ids j2 len n bss z k b, jmp_ok j -> target E (j_target j) s z -> jmp_calc_len local j = Ok (j1, len1, sp) -> incl ids (map span_id sp) ->
  jexpansions ids j1 len1 = Ok (j2, len) -> jcopies (output_basic nequ equ label sect dist place start) n len j2 = Ok bss -> nth_error bss k = Some b ->
  exists short w d, encodes j b short w d /\
    (start + (Z.of_nat k + 1) * len + d) mod 2 ^ (8 * w) = (T + z) mod 2 ^ (8 * w) /\
    (- 2 ^ (8 * w - 1) <= T + z - (start + (Z.of_nat k + 1) * len) < 2 ^ (8 * w - 1) -> start + (Z.of_nat k + 1) * len + signed w d = T + z) /\
    (short = true -> ids = []).
Proof. exact jmp_lands. Qed.
Print Assumptions C35_lands.
Theorem C35_span : forall local j j1 len1 sp, jmp_ok j -> jmp_calc_len local j = Ok (j1, len1, sp) ->
  forall id v lo hi x, In (id, v, lo, hi) sp -> v = j_target j /\ (lo <= x <= hi <-> -128 <= x - len1 <= 127).
Proof. exact jmp_span. Qed.
Print Assumptions C35_span.

(** * Examples *)
Definition no_equ (_ : Z) : option expr := None.
Definition no_label (_ : Z) : option Z := None.
Definition no_sect (_ : Z) : Z := 0.
Definition no_dist (_ _ : Z) : option intnum := None.
(** mov eax, [ebx+ecx*4+sym] in 32-bit mode, sym not yet known; the displacement is expanded. *)
Definition ex_ea : ea := ea_of (Value (Some (ADD, [TReg 67; TExpr MUL [TReg 65; TInt (IL 4)]; TExpr NOT [TSym 7]])) None false false 0) false 0 false 0 0.
Definition ex_insn : insn := Insn (Common 0 32 0 0 32) (Opcode [139; 0; 0] 1) (Some ex_ea) None 0 0 NoPost.
Example C34_ex_ok : insn_ok ex_insn /\ insn_mode ex_insn.
Proof.
  split; [split; [reflexivity|split; [cbn; lia|split; [split; [left; repeat eexists|split; [discriminate|left; reflexivity]]|exact Logic.I]]]|].
  split; [right; left; reflexivity|]. split; [left; reflexivity|]. split; [left; reflexivity|]. split; [discriminate|]. split; [discriminate|]. split; [|exact Logic.I].
  cbn. repeat split; auto; try discriminate; lia.
Qed.
Example C34_ex_run : exists i1 sp i2, insn_calc_len 0 no_equ no_label no_sect no_dist ex_insn = Ok (i1, 4, sp) /\ map span_id sp = [1] /\
  copies (fun _ => Ok (-2)) 2 4 i1 = Ok [[139; 68; 139; 254]; [139; 68; 139; 254]] /\
  expansions [1] i1 4 = Ok (i2, 7) /\ copies (fun _ => Ok 1000) 1 7 i2 = Ok [[139; 132; 139; 232; 3; 0; 0]].
Proof. eexists. eexists. eexists. split; [vm_compute; reflexivity|]. repeat split; vm_compute; reflexivity. Qed.
(** je sym: short while the span holds, then near *)
Definition ex_jmp : jmp := Jmp (Common 0 0 0 0 32) (Opcode [116; 0; 0] 1) (Opcode [15; 132; 0] 2) (Value None (Some 1) true false 0) JNone.
Definition at_ (T s : Z) : option Z := if s =? 1 then Some T else None.
Notation ex_ov T start := (output_basic 0 no_equ no_label no_sect no_dist (at_ T) start).
Example C35_ex_run : exists j1 sp j2, jmp_ok ex_jmp /\ jmp_calc_len true ex_jmp = Ok (j1, 2, sp) /\ map span_id sp = [1] /\
  jcopies (ex_ov 1100 1000) 2 2 j1 = Ok [[116; 98]; [116; 96]] /\
  jexpansions [1] j1 2 = Ok (j2, 6) /\ jcopies (ex_ov 400 1000) 1 6 j2 = Ok [[15; 132; 162; 253; 255; 255]].
Proof. eexists. eexists. eexists. split; [repeat split; try reflexivity; cbn; try lia; auto|]. split; [vm_compute; reflexivity|]. repeat split; vm_compute; reflexivity. Qed.
Example C35_ex_env : forall E, env_labels no_label E /\ env_dist no_dist E /\ env_equ no_equ E /\ target E (j_target ex_jmp) 1 0.
Proof. intros E. repeat split; try discriminate; intros; discriminate. Qed.
(** With TIMES, the span is checked for the first copy only: the second copy of a short jump may land elsewhere. *)
Theorem C35_times_refuted : exists j1 sp b, jmp_ok ex_jmp /\ jmp_calc_len true ex_jmp = Ok (j1, 2, sp) /\
  (forall id v lo hi, In (id, v, lo, hi) sp -> lo <= 874 - 1000 <= hi) /\
  jcopies (ex_ov 874 1000) 2 2 j1 = Ok [[116; 128]; b] /\ encodes ex_jmp b true 1 126 /\ 1000 + 2 * 2 + signed 1 126 <> 874.
Proof.
  eexists. eexists. eexists. split; [repeat split; try reflexivity; cbn; try lia; auto|]. split; [vm_compute; reflexivity|]. split.
  - intros id v lo hi [H|[]]. injection H as _ _ <- <-. lia.
  - split; [vm_compute; reflexivity|]. split; [|discriminate]. exists [], [126]. repeat split; try reflexivity. repeat constructor; lia.
Qed.
Print Assumptions C35_times_refuted.
