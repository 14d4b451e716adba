(** x86 effective addresses: the theorems (C33). *)
From Coq Require Import ZArith List Bool Lia.
From Verif Require Import Lib M_Intnum P_Intnum M_Expr P_Expr P_ExprLevel P_ExprTree P_ExprTop P_ExprUse M_X86 P_X86Len P_X86Jmp P_X86Reg P_X86Flat P_X86Lin P_X86Ea.
Import ListNotations.
Open Scope Z_scope.

(** C33: an instruction with an effective address [v] of value [za] plus the address of its symbol is prefixes, opcode, ModRM, SIB,
    displacement and immediate; read by the rules of the processor, in the address size the prefixes give, the reg field is [spare]
    and the operand is the requested address modulo that size, unless the displacement asked for cannot hold what is needed:
    that is, if the displacement is as wide as an address, or is absent, or any displacement of that width gives the address,
    or its size was left to the assembler and no span was asked for. *)
Theorem C33_address : forall nequ equ label sect dist, (forall s d, equ s = Some d -> shaped (eitem d)) -> (forall s d, equ s = Some d -> noreg (eitem d)) ->
  forall E RR next mode T, env_equ equ E -> (forall a b, wrtf E a b = a) -> registers E RR next -> T (-1) = 0 ->
  forall ov here i i1 len1 sp ids i2 len i3 bs v ns seg pcr vs spare za,
  i_ea i = Some (ea_of v ns seg pcr vs spare) -> insn_ok i -> insn_mode i -> M_X86.mode (i_common i) = mode -> i_post i <> Address16 -> 0 <= spare < 8 ->
  rexok (i_rex i) -> rexbit (i_rex i) 0 = 0 -> rexbit (i_rex i) 1 = 0 -> (In (i_special i) [143; 196] -> i_rex i <> 255 /\ 1 <= op_len (i_op i)) ->
  v_curpos v = false -> v_iprel v = false -> aval E v za ->
  (forall asz, In asz [16; 32; 64] -> asks nequ equ E mode v (get_of asz vs mode) (negb (asz =? 16))) ->
  honest E T here ov -> insn_calc_len nequ equ label sect dist i = Ok (i1, len1, sp) -> expansions ids i1 len1 = Ok (i2, len) -> len < 2 ^ 31 -> next = here + len ->
  insn_bytes ov len i2 = Ok (i3, bs) ->
  exists p67 legacy e x b mr sb ds imm m, let asz := asz_cpu mode p67 in let n := 8 * Z.of_nat (length ds) in let z := za + relv T v in
    bs = (if seg =? 0 then [] else [seg / 256 mod 256]) ++ (if p67 then [103] else []) ++ legacy ++ e ++ mr :: sb ++ ds ++ imm /\
    Forall (fun y => In y [102; acqrel (i_common i); lockrep (i_common i)]) legacy /\ extends (opcode_bytes (i_op i2)) (i_special i) e x b /\
    mr / 8 mod 8 = spare /\ (i_imm i = None -> imm = []) /\
    reads asz mode (negb (vs =? 0)) x b (mr :: sb ++ ds ++ imm) = Some (m, imm) /\ m_disp m = sdisp ds /\
    (asz <= n \/ n = 0 \/ (exists y, - 2 ^ (n - 1) <= y < 2 ^ (n - 1) /\ (address RR next (redisp y m) - z) mod 2 ^ 256 = 0) \/ (v_size v = 0 /\ n <= 8 /\ ~ In 1 (map span_id sp)) ->
     (address RR next m - z) mod 2 ^ asz = 0).
Proof. exact ea_addr. Qed.
Print Assumptions C33_address.
(** What the value output of the library writes is what the theorem asks of [ov]. *)
Theorem C33_output : forall nequ equ label sect dist E T place here, (forall s d, equ s = Some d -> shaped (eitem d)) -> env_labels label E -> env_dist dist E -> env_equ equ E ->
  (forall s p, place s = Some p -> T s = p /\ - 2 ^ 31 < p - here < 2 ^ 31) -> honest E T here (output_basic nequ equ label sect dist place here).
Proof. exact basic_honest. Qed.
Print Assumptions C33_output.
(** A register operand: register [n] of kind [k]; in 64-bit mode AH to BH go without REX and SPL to DIL with it. *)
Theorem C33_register : forall k n rex bits seg spare a rex', ea_reg (16 * k + n) rex bits seg spare = Ok (a, rex') -> 1 <= k <= 14 -> 0 <= n < 16 -> 0 <= spare < 8 -> rexok rex -> rexbit rex 0 = 0 -> (bits <> 64 -> n < 8) ->
  need_modrm a = true /\ valid_modrm a = true /\ need_sib a = 0 /\ need_disp a = false /\ modrm a / 64 = 3 /\ modrm a / 8 mod 8 = spare /\ rexok rex' /\ modrm a mod 8 + 8 * rexbit rex' 0 = n /\
  (bits = 64 -> (k = 1 -> 4 <= n < 8 -> rex' = 255) /\ (k = 2 -> 64 <= rex' < 80)).
Proof. exact ea_reg_ok. Qed.
Print Assumptions C33_register.

(** * Examples *)
Definition no_equ (_ : Z) : option expr := None.
Definition no_label (_ : Z) : option Z := None.
Definition no_sect (_ : Z) : Z := 0.
Definition no_dist (_ _ : Z) : option intnum := None.
Definition no_place (_ : Z) : option Z := None.
(** Register number n contains 1000 + 17 n, the instruction is at 4096 *)
Definition ex_RR (next n : Z) : Z := if n =? 16 then next else 1000 + 17 * n.
Definition ex_E (next : Z) : env :=
  Env (fun r => if rsize r =? RIP then next else if (rsize r =? XMMREG) || (rsize r =? YMMREG) then ex_RR next (17 + rnum r) else ex_RR next (rnum r))
    (fun _ => 0) (fun _ => 0) (fun _ => None) (fun x => x) (fun a _ => a).
Example C33_ex_registers : forall next, registers (ex_E next) (ex_RR next) next.
Proof.
  intros next. split; [|reflexivity]. intros n N. assert (I : In n (map Z.of_nat (seq 0 16))) by (apply in_map_iff; exists (Z.to_nat n); split; [lia|apply in_seq; lia]).
  cbn in I. repeat (destruct I as [<-|I]; [repeat split; reflexivity|]). destruct I.
Qed.
(** mov rax, [rbx + r9*4 + 4660] in 64-bit mode *)
Definition ex_v : M_X86.value := Value (Some (ADD, [TReg 83; TExpr MUL [TReg 89; TInt (IL 4)]; TInt (IL 4660)])) None false false 0.
Definition ex_i : insn := Insn (Common 0 64 0 0 64) (Opcode [139; 0; 0] 1) (Some (ea_of ex_v false 0 false 0 0)) None 0 72 NoPost.
Notation ex_ov here := (output_basic 0 no_equ no_label no_sect no_dist no_place here).
Example C33_ex_run : exists i1 i3, insn_calc_len 0 no_equ no_label no_sect no_dist ex_i = Ok (i1, 8, []) /\ expansions [] i1 8 = Ok (i1, 8) /\
  insn_bytes (ex_ov 4096) 8 i1 = Ok (i3, [74; 139; 132; 139; 52; 18; 0; 0]) /\
  reads 64 64 false 1 0 [132; 139; 52; 18; 0; 0] = Some (Mem (Some 3) (Some (9, 4)) 4660 false, []).
Proof. eexists. eexists. split; [vm_compute; reflexivity|]. repeat split; vm_compute; reflexivity. Qed.
Ltac asks_tac :=
  intros e0 Q; cbn in Q; injection Q as <-; split; [|split]; [intros e1 st b w e2 t H1 H2 H3|intros e1 m0 pc H1|cbn; repeat split; auto; intros r Q H; injection Q as <-; try reflexivity; try (exfalso; apply H; reflexivity)].
Example C33_ex_hyps : insn_ok ex_i /\ insn_mode ex_i /\ aval (ex_E 4104) ex_v (ex_RR 4104 3 + 4 * ex_RR 4104 9 + 4660) /\
  (forall asz, In asz [16; 32; 64] -> asks 0 no_equ (ex_E 4104) 64 ex_v (get_of asz 0 64) (negb (asz =? 16))).
Proof.
  split; [split; [reflexivity|split; [cbn; lia|split; [split; [left; repeat eexists|split; [discriminate|left; reflexivity]]|exact Logic.I]]]|].
  split; [split; [right; right; left; reflexivity|]; split; [left; reflexivity|]; split; [right; right; reflexivity|]; split; [discriminate|]; split; [discriminate|]; split; [cbn; repeat split; auto; try discriminate; lia|exact Logic.I]|].
  split; [vm_compute; reflexivity|]. intros asz [<-|[<-|[<-|[]]]]; asks_tac.
  all: first [ vm_compute in H1; injection H1 as <- <- <-; vm_compute in H2; injection H2 as <- <-; vm_compute in H3; discriminate
             | vm_compute in H1; first [discriminate H1 | injection H1 as <- <- <-; vm_compute; reflexivity] ].
Qed.
Example C33_ex_output : forall T, honest (ex_E 4104) T 4096 (ex_ov 4096).
Proof. intros T. apply C33_output; try discriminate; intros ? ? Q; try discriminate Q; intros; discriminate. Qed.
(** mov rax, [rel sym + 1], the symbol at 5000 *)
Definition ex_rel : insn := Insn (Common 0 64 0 0 64) (Opcode [139; 0; 0] 1) (Some (ea_of (Value (Some (IDENT, [TInt (IL 1)])) (Some 7) false false 0) false 0 true 0 0)) None 0 72 NoPost.
Example C33_ex_rel : exists i1 i3 m, insn_calc_len 0 no_equ no_label no_sect no_dist ex_rel = Ok (i1, 7, []) /\
  insn_bytes (output_basic 0 no_equ no_label no_sect no_dist (fun s => if s =? 7 then Some 5000 else None) 4096) 7 i1 = Ok (i3, [72; 139; 5; 130; 3; 0; 0]) /\
  reads 64 64 false 0 0 [5; 130; 3; 0; 0] = Some (m, []) /\ address (ex_RR 4103) 4103 m = 5001.
Proof. eexists. eexists. eexists. split; [vm_compute; reflexivity|]. repeat split; vm_compute; reflexivity. Qed.
(** bh with spare 2 in 64-bit mode *)
Example C33_ex_register : exists a, ea_reg (16 * 1 + 7) 0 64 0 2 = Ok (a, 255) /\ modrm a = 215.
Proof. eexists. split; vm_compute; reflexivity. Qed.

(** Without the bound on the multipliers ([light]) the claim is false: [rax*2147483648 + rax*2] is encoded as [rax]. *)
Definition big : intnum := fst (fst (calc M_Intnum.scratch (IL 65536) MUL (Some (IL 32768)))).
Definition big_v : M_X86.value := Value (Some (ADD, [TExpr MUL [TReg 80; TInt big]; TExpr MUL [TReg 80; TInt (IL 2)]])) None false false 0.
Definition big_i : insn := Insn (Common 0 64 0 0 64) (Opcode [139; 0; 0] 1) (Some (ea_of big_v false 0 false 0 0)) None 0 72 NoPost.
Theorem C33_multiplier_refuted : exists i1 i3 m, insn_calc_len 0 no_equ no_label no_sect no_dist big_i = Ok (i1, 3, []) /\
  insn_bytes (ex_ov 4096) 3 i1 = Ok (i3, [72; 139; 0]) /\ reads 64 64 false 0 0 [0] = Some (m, []) /\
  aval (ex_E 4099) big_v (2147483650 * ex_RR 4099 0) /\ (address (ex_RR 4099) 4099 m - 2147483650 * ex_RR 4099 0) mod 2 ^ 64 <> 0.
Proof. eexists. eexists. eexists. split; [vm_compute; reflexivity|]. split; [vm_compute; reflexivity|]. split; [vm_compute; reflexivity|]. split; [vm_compute; reflexivity|]. vm_compute. discriminate. Qed.
Print Assumptions C33_multiplier_refuted.
