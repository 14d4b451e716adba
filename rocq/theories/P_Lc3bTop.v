(** LC-3b: what is written is what was asked for (C89). *)
From Coq Require Import ZArith List Bool Lia String.
From Verif Require Import Lib LibBits M_BitVect P_BitVect P_BitVectIO M_Intnum P_Intnum P_IntnumIO M_Expr P_Expr P_ExprLevel P_ExprTree P_ExprTree2 P_ExprTop P_ExprUse M_Value P_Value P_ValueTop P_ValueOut P_ElfReloc M_CoffReloc P_CoffReloc M_BinValue P_BinValue P_BinValueTop M_Lc3b P_Lc3b.
Import ListNotations.
Open Scope Z_scope.

Ltac zdm := Z.to_euclidean_division_equations; lia.
Lemma fields6 : forall K d s f, 0 <= d < 8 -> 0 <= s < 8 -> 0 <= f < 64 -> let w := K * 4096 + d * 512 + s * 64 + f in w / 4096 = K /\ w / 512 mod 8 = d /\ w / 64 mod 8 = s /\ w mod 64 = f.
Proof. intros K d s f D S F w. unfold w. repeat split; zdm. Qed.
Lemma fields9 : forall K d f, 0 <= d < 8 -> 0 <= f < 512 -> let w := K * 4096 + d * 512 + f in w / 4096 = K /\ w / 512 mod 8 = d /\ w mod 512 = f.
Proof. intros K d f D F w. unfold w. repeat split; zdm. Qed.

(** what draws no warning *)
Definition silent_at (pc : Z) (x : instr) : Prop :=
  match x with
  | Add _ _ (AImm z) | And _ _ (AImm z) => -16 <= z < 16
  | Br _ _ _ t | Jsr t | Lea _ t => -512 <= 2 * (t / 2) - (pc + 2) < 512
  | Jmp _ z => -512 <= z < 1024
  | Ld _ _ z | Ldi _ _ z | St _ _ z | Sti _ _ z => -64 <= z < 128
  | Ldb _ _ z | Stb _ _ z => -32 <= z < 32
  | Lshf _ _ n | Rshfl _ _ n | Rshfa _ _ n => -8 <= n < 16
  | Trap z => -256 <= z < 512
  | _ => True
  end.
Lemma silent_more : forall pc x, even pc -> exists_at pc x -> silent_at pc x.
Proof. intros pc x P H. unfold even in *. destruct x as [d s [r|z]|d s [r|z]| |n z p t|t| |d t| | | | | | | | | | |]; cbn [exists_at silent_at] in *; auto; unfold even in *; try lia; zdm. Qed.

Section Lc3b.
Variable nequ : nat.
Variable equ : Z -> option expr.
Variable label : Z -> option Z.
Variable sect next first : Z -> Z.
Variable vstart : Z -> intnum.
Variable is_abs : Z -> bool.
Variable bsymd : Z -> option (Z * which).
Variable istart slength : Z -> intnum.
Variable curpos vspecial : Z -> bool.
Variable precbc : option Z.
Variable dot : Z.
Variable base : Z -> Z.
Hypothesis LO : laid_out sect next first.
Hypothesis CV : forall q, canonb (vstart q) = true /\ canonb (istart q) = true /\ canonb (slength q) = true.
Hypothesis SD : forall s d, equ s = Some d -> shaped (eitem d).
Notation imm_value := (imm_value nequ equ label sect curpos vspecial precbc dot).
Notation tobytes := (tobytes nequ equ label sect next first vstart is_abs bsymd istart slength).
Notation finalize_insn := (finalize_insn nequ equ label sect curpos vspecial precbc dot).
Notation assign := (assign nequ equ label sect curpos vspecial precbc dot).
Notation denotes := (denotes nequ equ).
Notation site := (site equ label sect next vstart is_abs bsymd istart slength curpos dot base).
Definition wf (out : list Z) : Prop := List.length out = 2%nat /\ Forall byte out.
Definition start (c : Z) : insn := Insn (init None 0) I_NONE c.

Lemma lor_dr : forall c d, 0 <= d < 8 -> (c / 512) mod 8 = 0 -> Z.lor c (Z.land d 7 * 2 ^ 9) = c + d * 512.
Proof. intros c d D H. rewrite land7 by exact D. apply (lor_add c d 9); [lia|exact D|exact H]. Qed.
Lemma lor_sr : forall c s, 0 <= s < 8 -> (c / 64) mod 8 = 0 -> Z.lor c (Z.land s 7 * 2 ^ 6) = c + s * 64.
Proof. intros c s S H. rewrite land7 by exact S. apply (lor_add c s 6); [lia|exact S|exact H]. Qed.
(** three operands *)
Lemma out_rrx : forall E num2 k t c ps ops j bc bcoff pos out ws, site E num2 bc bcoff pos -> assign [(OPT_Reg, OPA_DR); (OPT_Reg, OPA_SR); (k, OPA_Imm t)] ps (start c) = Done j -> all_fit [(OPT_Reg, OPA_DR); (OPT_Reg, OPA_SR); (k, OPA_Imm t)] ps = true ->
  Forall2 (denotes E) ps ops -> In t [I_4; I_5; I_6_WORD; I_6_BYTE] -> 0 <= c < 61440 -> (c / 512) mod 8 = 0 -> (c / 64) mod 8 = 0 -> c mod 2 ^ width t = 0 -> plain j -> tobytes num2 j bc bcoff 2 = BBytes out ws ->
  exists d s o, ops = [SReg d; SReg s; o] /\ match k, o with OPT_Reg, SReg r => 0 <= r < 8 | OPT_Imm, SImm _ => True | _, _ => False end /\ 0 <= d < 8 /\ 0 <= s < 8 /\ itype j = t /\ wf out /\ lev out = c + d * 512 + s * 64 + scaled t o mod 2 ^ width t /\ ws = sized_warns (scaled t o) (width t) 0 (if checked t then -1 else 1).
Proof.
  intros E num2 k t c ps ops j bc bcoff pos out ws ST AS AF F2 T C C9 C6 CW PL TB.
  destruct ps as [|[d|?|] [|[s|?|] [|p [|? ?]]]]; try discriminate AF; try (cbn in AF; rewrite ?andb_false_r in AF; discriminate AF).
  inversion F2 as [|? o1 ? ops1 D1 F3]; subst. inversion F3 as [|? o2 ? ops2 D2 F4]; subst. inversion F4 as [|? o ? ops3 D3 F5]; subst. inversion F5; subst. destruct o1 as [d'|]; [|contradiction D1]. destruct o2 as [s'|]; [|contradiction D2]. destruct D1 as [<- D1]. destruct D2 as [<- D2].
  cbn [M_Lc3b.assign snd start imm itype opcode] in AS. destruct (imm_value t p) as [| | | | |q] eqn:IV; try discriminate AS. rewrite lor_dr in AS by auto. rewrite lor_sr in AS by (auto; zdm). assert (J : j = Insn (imm q) t (c + d * 512 + s * 64)) by congruence. subst j. clear AS.
  exists d, s, o. split; [reflexivity|]. split.
  { cbn [all_fit fits fst andb] in AF. rewrite andb_true_r in AF. destruct k, p as [r|?|], o as [r'|?]; try discriminate AF; try contradiction D3; auto. destruct D3 as [<- D3]. exact D3. }
  split; [exact D1|]. split; [exact D2|]. split; [reflexivity|].
  refine (imm_out nequ equ label sect next first vstart is_abs bsymd istart slength curpos vspecial precbc dot base LO CV SD E num2 t p o q (c + d * 512 + s * 64) bc bcoff pos out ws ST D3 IV _ _ PL _ _ TB).
  - intros ->. cbn [In] in T. intuition discriminate.
  - intros ->. cbn [In] in T. intuition discriminate.
  - lia.
  - assert (T' : t = I_4 \/ t = I_5 \/ t = I_6_WORD \/ t = I_6_BYTE) by (cbn [In] in T; intuition auto). destruct T' as [->|[->|[->| ->]]]; cbn [width] in *; [change (2 ^ 4) with 16 in *|change (2 ^ 5) with 32 in *|change (2 ^ 6) with 64 in *|change (2 ^ 6) with 64 in *]; zdm.
Qed.
(** one register and an immediate of 9 bits *)
Lemma out_ri : forall E num2 c ps ops j bc bcoff pos out ws, site E num2 bc bcoff pos -> assign [(OPT_Reg, OPA_DR); (OPT_Imm, OPA_Imm I_9)] ps (start c) = Done j -> all_fit [(OPT_Reg, OPA_DR); (OPT_Imm, OPA_Imm I_9)] ps = true ->
  Forall2 (denotes E) ps ops -> 0 <= c < 61440 -> (c / 512) mod 8 = 0 -> c mod 512 = 0 -> plain j -> tobytes num2 j bc bcoff 2 = BBytes out ws ->
  exists d z, ops = [SReg d; SImm z] /\ 0 <= d < 8 /\ itype j = I_9 /\ wf out /\ lev out = c + d * 512 + (z / 2) mod 512 /\ ws = sized_warns (z / 2) 9 0 1.
Proof.
  intros E num2 c ps ops j bc bcoff pos out ws ST AS AF F2 C C9 CW PL TB.
  destruct ps as [|[d|?|] [|[?|e|] [|? ?]]]; try discriminate AF.
  inversion F2 as [|? o1 ? ops1 D1 F3]; subst. inversion F3 as [|? o2 ? ops2 D2 F4]; subst. inversion F4; subst. destruct o1 as [d'|]; [|contradiction D1]. destruct o2 as [|z]; [contradiction D2|]. destruct D1 as [<- D1].
  cbn [M_Lc3b.assign snd start imm itype opcode] in AS. destruct (imm_value I_9 (P_Imm e)) as [| | | | |q] eqn:IV; try discriminate AS. rewrite lor_dr in AS by auto. assert (J : j = Insn (imm q) I_9 (c + d * 512)) by congruence. subst j. clear AS.
  exists d, z. split; [reflexivity|]. split; [exact D1|]. split; [reflexivity|].
  refine (imm_out nequ equ label sect next first vstart is_abs bsymd istart slength curpos vspecial precbc dot base LO CV SD E num2 I_9 (P_Imm e) (SImm z) q (c + d * 512) bc bcoff pos out ws ST D2 IV _ _ PL _ _ TB); try discriminate; [lia|].
  cbn [width]. change (2 ^ 9) with 512. zdm.
Qed.
Lemma out_i : forall E num2 c ps ops j bc bcoff pos out ws, site E num2 bc bcoff pos -> assign [(OPT_Imm, OPA_Imm I_8)] ps (start c) = Done j -> all_fit [(OPT_Imm, OPA_Imm I_8)] ps = true ->
  Forall2 (denotes E) ps ops -> 0 <= c < 65536 -> c mod 256 = 0 -> plain j -> tobytes num2 j bc bcoff 2 = BBytes out ws ->
  exists z, ops = [SImm z] /\ itype j = I_8 /\ wf out /\ lev out = c + (z / 2) mod 256 /\ ws = sized_warns (z / 2) 8 0 1.
Proof.
  intros E num2 c ps ops j bc bcoff pos out ws ST AS AF F2 C CW PL TB. destruct ps as [|[?|e|] [|? ?]]; try discriminate AF.
  inversion F2 as [|? o2 ? ops2 D2 F4]; subst. inversion F4; subst. destruct o2 as [|z]; [contradiction D2|].
  cbn [M_Lc3b.assign snd start imm itype opcode] in AS. destruct (imm_value I_8 (P_Imm e)) as [| | | | |q] eqn:IV; try discriminate AS. assert (J : j = Insn (imm q) I_8 c) by congruence. subst j. clear AS. exists z. split; [reflexivity|]. split; [reflexivity|].
  refine (imm_out nequ equ label sect next first vstart is_abs bsymd istart slength curpos vspecial precbc dot base LO CV SD E num2 I_8 (P_Imm e) (SImm z) q c bc bcoff pos out ws ST D2 IV _ _ PL C CW TB); discriminate.
Qed.
(** targets, with or without a register *)
Definition far (ops : list sop) : Prop := Forall (fun o => match o with SImm z => - 2 ^ 64 < z < 2 ^ 64 | _ => True end) ops.
Lemma out_pc : forall E num2 c ps ops j bc bcoff pos out ws, site E num2 bc bcoff pos -> far ops -> assign [(OPT_Imm, OPA_Imm I_9_PC)] ps (start c) = Done j -> all_fit [(OPT_Imm, OPA_Imm I_9_PC)] ps = true ->
  Forall2 (denotes E) ps ops -> 0 <= c < 65536 -> c mod 512 = 0 -> plain j -> segof (imm j) = false -> curpos_rel (imm j) = false -> tobytes num2 (Insn (set_curpos (imm j)) I_9_PC (opcode j)) bc bcoff 2 = BBytes out ws ->
  exists z, ops = [SImm z] /\ wf out /\ lev out = c + (z / 2 - 1 - pos / 2) mod 512 /\ ws = sized_warns (z / 2 - 1 - pos / 2) 9 0 (-1).
Proof.
  intros E num2 c ps ops j bc bcoff pos out ws ST FA AS AF F2 C CW PL SG CR TB. destruct ps as [|[?|e|] [|? ?]]; try discriminate AF.
  inversion F2 as [|? o2 ? ops2 D2 F4]; subst. inversion F4; subst. destruct o2 as [|z]; [contradiction D2|]. inversion FA as [|? ? FZ _]; subst.
  cbn [M_Lc3b.assign snd start imm itype opcode] in AS. destruct (imm_value I_9_PC (P_Imm e)) as [| | | | |q] eqn:IV; try discriminate AS. assert (J : j = Insn (imm q) I_9_PC c) by congruence. subst j. clear AS. exists z. split; [reflexivity|]. cbn [imm opcode] in *.
  exact (pc_out nequ equ label sect next first vstart is_abs bsymd istart slength curpos vspecial precbc dot base LO CV SD E num2 (P_Imm e) z q c bc bcoff pos out ws ST D2 IV PL SG CR C CW FZ TB).
Qed.
Lemma out_rpc : forall E num2 c ps ops j bc bcoff pos out ws, site E num2 bc bcoff pos -> far ops -> assign [(OPT_Reg, OPA_DR); (OPT_Imm, OPA_Imm I_9_PC)] ps (start c) = Done j -> all_fit [(OPT_Reg, OPA_DR); (OPT_Imm, OPA_Imm I_9_PC)] ps = true ->
  Forall2 (denotes E) ps ops -> 0 <= c < 61440 -> (c / 512) mod 8 = 0 -> c mod 512 = 0 -> plain j -> segof (imm j) = false -> curpos_rel (imm j) = false -> tobytes num2 (Insn (set_curpos (imm j)) I_9_PC (opcode j)) bc bcoff 2 = BBytes out ws ->
  exists d z, ops = [SReg d; SImm z] /\ 0 <= d < 8 /\ wf out /\ lev out = c + d * 512 + (z / 2 - 1 - pos / 2) mod 512 /\ ws = sized_warns (z / 2 - 1 - pos / 2) 9 0 (-1).
Proof.
  intros E num2 c ps ops j bc bcoff pos out ws ST FA AS AF F2 C C9 CW PL SG CR TB. destruct ps as [|[d|?|] [|[?|e|] [|? ?]]]; try discriminate AF.
  inversion F2 as [|? o1 ? ops1 D1 F3]; subst. inversion F3 as [|? o2 ? ops2 D2 F4]; subst. inversion F4; subst. destruct o1 as [d'|]; [|contradiction D1]. destruct o2 as [|z]; [contradiction D2|]. destruct D1 as [<- D1]. inversion FA as [|? ? _ FA2]; subst. inversion FA2 as [|? ? FZ _]; subst.
  cbn [M_Lc3b.assign snd start imm itype opcode] in AS. destruct (imm_value I_9_PC (P_Imm e)) as [| | | | |q] eqn:IV; try discriminate AS. rewrite lor_dr in AS by auto. assert (J : j = Insn (imm q) I_9_PC (c + d * 512)) by congruence. subst j. clear AS. exists d, z. split; [reflexivity|]. split; [exact D1|]. cbn [imm opcode] in *.
  refine (pc_out nequ equ label sect next first vstart is_abs bsymd istart slength curpos vspecial precbc dot base LO CV SD E num2 (P_Imm e) z q (c + d * 512) bc bcoff pos out ws ST D2 IV PL SG CR _ _ FZ TB); [lia|zdm].
Qed.
(** no immediate *)
Lemma out_rr : forall E num2 c ps ops j bc bcoff out ws, assign [(OPT_Reg, OPA_DR); (OPT_Reg, OPA_SR)] ps (start c) = Done j -> all_fit [(OPT_Reg, OPA_DR); (OPT_Reg, OPA_SR)] ps = true ->
  Forall2 (denotes E) ps ops -> 0 <= c < 61440 -> (c / 512) mod 8 = 0 -> (c / 64) mod 8 = 0 -> tobytes num2 j bc bcoff 2 = BBytes out ws ->
  exists d s, ops = [SReg d; SReg s] /\ 0 <= d < 8 /\ 0 <= s < 8 /\ itype j = I_NONE /\ wf out /\ lev out = c + d * 512 + s * 64 /\ ws = [].
Proof.
  intros E num2 c ps ops j bc bcoff out ws AS AF F2 C C9 C6 TB. destruct ps as [|[d|?|] [|[s|?|] [|? ?]]]; try discriminate AF.
  inversion F2 as [|? o1 ? ops1 D1 F3]; subst. inversion F3 as [|? o2 ? ops2 D2 F4]; subst. inversion F4; subst. destruct o1 as [d'|]; [|contradiction D1]. destruct o2 as [s'|]; [|contradiction D2]. destruct D1 as [<- D1]. destruct D2 as [<- D2].
  cbn [M_Lc3b.assign snd start imm itype opcode] in AS. rewrite lor_dr in AS by auto. rewrite lor_sr in AS by (auto; zdm). assert (J : j = Insn (init None 0) I_NONE (c + d * 512 + s * 64)) by congruence. subst j. clear AS. exists d, s. split; [reflexivity|]. split; [exact D1|]. split; [exact D2|]. split; [reflexivity|].
  unfold M_Lc3b.tobytes in TB. cbv zeta in TB. cbn [itype opcode] in TB. set (w := c + d * 512 + s * 64) in *. assert (W : 0 <= w < 65536) by (unfold w; lia). clearbody w. destruct (word_bytes w W) as [A B]. assert (O : out = [w mod 256; w / 256 mod 256]) by congruence. rewrite O. split; [split; [reflexivity|exact B]|]. split; [exact A|congruence].
Qed.

Fixpoint last_type (l : list (opt * act)) (t : imm_type) : imm_type := match l with [] => t | (_, OPA_Imm t') :: l => last_type l t' | _ :: l => last_type l t end.
Lemma assign_type : forall l ps i j, assign l ps i = Done j -> all_fit l ps = true -> itype j = last_type l (itype i).
Proof.
  induction l as [|[o a] l IH]; intros [|p ps] i j H AF; try discriminate AF.
  - cbn in H. assert (i = j) by congruence. subst. reflexivity.
  - cbn [all_fit] in AF. apply andb_true_iff in AF. destruct AF as [_ AF]. cbn [M_Lc3b.assign snd] in H. cbn [last_type]. destruct a as [| |t].
    + destruct p; try discriminate H. apply (IH _ _ _ H AF).
    + destruct p; try discriminate H. apply (IH _ _ _ H AF).
    + destruct (imm_value t p) as [| | | | |q]; try discriminate H. apply (IH _ _ _ H AF).
Qed.
Lemma warn5 : forall y, sized_warns y 5 0 (-1) = [] <-> -16 <= y < 16. Proof. intros y. symmetry. exact (no_warns y 5 true ltac:(lia)). Qed.
Lemma warn4 : forall y, sized_warns y 4 0 1 = [] <-> -8 <= y < 16. Proof. intros y. symmetry. exact (no_warns y 4 false ltac:(lia)). Qed.
Lemma warn6 : forall y, sized_warns y 6 0 1 = [] <-> -32 <= y < 64. Proof. intros y. symmetry. exact (no_warns y 6 false ltac:(lia)). Qed.
Lemma warn6s : forall y, sized_warns y 6 0 (-1) = [] <-> -32 <= y < 32. Proof. intros y. symmetry. exact (no_warns y 6 true ltac:(lia)). Qed.
Lemma warn8 : forall y, sized_warns y 8 0 1 = [] <-> -128 <= y < 256. Proof. intros y. symmetry. exact (no_warns y 8 false ltac:(lia)). Qed.
Lemma warn9 : forall y, sized_warns y 9 0 1 = [] <-> -256 <= y < 512. Proof. intros y. symmetry. exact (no_warns y 9 false ltac:(lia)). Qed.
Lemma warn9s : forall y, sized_warns y 9 0 (-1) = [] <-> -256 <= y < 256. Proof. intros y. symmetry. exact (no_warns y 9 true ltac:(lia)). Qed.

(** decoding *)
Lemma dec_arith : forall K d s z pc f, K = 1 /\ f = Add \/ K = 5 /\ f = And -> 0 <= d < 8 -> 0 <= s < 8 -> -16 <= z < 16 -> decode (K * 4096 + 32 + d * 512 + s * 64 + z mod 32) pc = Some (f d s (AImm z)).
Proof.
  intros K d s z pc f KF D S RZ. assert (B : 0 <= z mod 32 < 32) by (apply Z.mod_pos_bound; lia). set (y := z mod 32) in *. replace (K * 4096 + 32 + d * 512 + s * 64 + y) with (K * 4096 + d * 512 + s * 64 + (32 + y)) by lia.
  destruct (fields6 K d s (32 + y) D S ltac:(lia)) as (F1 & F2 & F3 & F4). cbv zeta in *. set (w := K * 4096 + d * 512 + s * 64 + (32 + y)) in *. unfold decode. rewrite F1, F2, F3. assert (W : w / 32 mod 2 = 1) by zdm. rewrite W. assert (X : sext 5 w = z) by (apply sext_ok; [lia| |exact RZ]; change (2 ^ 5) with 32; fold y; zdm). rewrite X. destruct KF as [[-> ->]|[-> ->]]; reflexivity.
Qed.
Lemma dec_arith_r : forall K d s r pc f, K = 1 /\ f = Add \/ K = 5 /\ f = And -> 0 <= d < 8 -> 0 <= s < 8 -> 0 <= r < 8 -> decode (K * 4096 + d * 512 + s * 64 + r mod 32) pc = Some (f d s (AReg r)).
Proof.
  intros K d s r pc f KF D S RZ. rewrite (Z.mod_small r 32) by lia. destruct (fields6 K d s r D S ltac:(lia)) as (F1 & F2 & F3 & F4). cbv zeta in *. set (w := K * 4096 + d * 512 + s * 64 + r) in *. unfold decode. rewrite F1, F2, F3. assert (W : w / 32 mod 2 = 0) by zdm. assert (V : w / 8 mod 4 = 0) by zdm. assert (X : w mod 8 = r) by zdm. rewrite W, V, X. destruct KF as [[-> ->]|[-> ->]]; reflexivity.
Qed.
Lemma half_even : forall z, even z -> 2 * (z / 2) = z. Proof. intros z H. unfold even in H. zdm. Qed.
Definition wordmem (K : Z) (f : Z -> Z -> Z -> instr) : Prop := K = 2 /\ f = Ld \/ K = 10 /\ f = Ldi \/ K = 3 /\ f = St \/ K = 11 /\ f = Sti.
Lemma dec_word : forall K d s z pc f, wordmem K f -> 0 <= d < 8 -> 0 <= s < 8 -> even z -> -64 <= z < 64 -> decode (K * 4096 + d * 512 + s * 64 + (z / 2) mod 64) pc = Some (f d s z).
Proof.
  intros K d s z pc f KF D S EV RZ. assert (B : 0 <= (z / 2) mod 64 < 64) by (apply Z.mod_pos_bound; lia). set (y := (z / 2) mod 64) in *.
  destruct (fields6 K d s y D S B) as (F1 & F2 & F3 & F4). cbv zeta in *. set (w := K * 4096 + d * 512 + s * 64 + y) in *. assert (X : sext 6 w = z / 2) by (apply sext_ok; [lia|exact F4|change (2 ^ (6 - 1)) with 32; zdm]). unfold decode. rewrite F1, F2, F3, X, half_even by exact EV. destruct KF as [[-> ->]|[[-> ->]|[[-> ->]|[-> ->]]]]; reflexivity.
Qed.
Lemma dec_byte : forall K d s z pc f, K = 6 /\ f = Ldb \/ K = 7 /\ f = Stb -> 0 <= d < 8 -> 0 <= s < 8 -> -32 <= z < 32 -> decode (K * 4096 + d * 512 + s * 64 + z mod 64) pc = Some (f d s z).
Proof.
  intros K d s z pc f KF D S RZ. assert (B : 0 <= z mod 64 < 64) by (apply Z.mod_pos_bound; lia). set (y := z mod 64) in *.
  destruct (fields6 K d s y D S B) as (F1 & F2 & F3 & F4). cbv zeta in *. set (w := K * 4096 + d * 512 + s * 64 + y) in *. assert (X : sext 6 w = z) by (apply sext_ok; [lia|exact F4|exact RZ]). unfold decode. rewrite F1, F2, F3, X. destruct KF as [[-> ->]|[-> ->]]; reflexivity.
Qed.
Lemma dec_shift : forall q d s n pc f, q = 0 /\ f = Lshf \/ q = 1 /\ f = Rshfl \/ q = 3 /\ f = Rshfa -> 0 <= d < 8 -> 0 <= s < 8 -> 0 <= n < 16 -> decode (13 * 4096 + q * 16 + d * 512 + s * 64 + n mod 16) pc = Some (f d s n).
Proof.
  intros q d s n pc f KF D S RN. assert (Q : 0 <= q < 4) by lia. rewrite (Z.mod_small n 16) by lia. replace (13 * 4096 + q * 16 + d * 512 + s * 64 + n) with (13 * 4096 + d * 512 + s * 64 + (q * 16 + n)) by lia.
  destruct (fields6 13 d s (q * 16 + n) D S ltac:(lia)) as (F1 & F2 & F3 & F4). cbv zeta in *. set (w := 13 * 4096 + d * 512 + s * 64 + (q * 16 + n)) in *. assert (W : w / 16 mod 4 = q) by zdm. assert (V : w mod 16 = n) by zdm. unfold decode. rewrite F1, F2, F3, W, V. destruct KF as [[-> ->]|[[-> ->]|[-> ->]]]; reflexivity.
Qed.
Lemma sext_pc : forall w z pc, even pc -> even (z - pc) -> -512 <= z - (pc + 2) < 512 -> w mod 512 = (z / 2 - 1 - pc / 2) mod 512 -> pc + 2 + 2 * sext 9 w = z.
Proof. intros w z pc P E B H. rewrite (sext_ok 9 w (z / 2 - 1 - pc / 2)); [|lia|exact H|]; unfold even in *; change (2 ^ (9 - 1)) with 256; zdm. Qed.
Lemma dec_br : forall k z pc, 0 <= k < 8 -> even pc -> even (z - pc) -> -512 <= z - (pc + 2) < 512 -> decode (k * 512 + (z / 2 - 1 - pc / 2) mod 512) pc = Some (Br (k / 4 mod 2 =? 1) (k / 2 mod 2 =? 1) (k mod 2 =? 1) z).
Proof.
  intros k z pc K P E B. assert (Y : 0 <= (z / 2 - 1 - pc / 2) mod 512 < 512) by (apply Z.mod_pos_bound; lia). pose proof (fun w => sext_pc w z pc P E B) as SX. set (y := (z / 2 - 1 - pc / 2) mod 512) in *. destruct (fields9 0 k y K Y) as (F1 & F2 & F3). cbv zeta in *. rewrite Z.mul_0_l, Z.add_0_l in *. set (w := k * 512 + y) in *.
  assert (B1 : w / 2048 mod 2 = k / 4 mod 2) by zdm. assert (B2 : w / 1024 mod 2 = k / 2 mod 2) by zdm. assert (B3 : w / 512 mod 2 = k mod 2) by zdm. unfold decode. rewrite F1, B1, B2, B3, (SX w F3). reflexivity.
Qed.
Lemma dec_pc : forall K d z pc, 0 <= d < 8 -> K = 14 \/ K = 4 /\ d = 0 -> even pc -> even (z - pc) -> -512 <= z - (pc + 2) < 512 -> decode (K * 4096 + d * 512 + (z / 2 - 1 - pc / 2) mod 512) pc = Some (if K =? 14 then Lea d z else Jsr z).
Proof.
  intros K d z pc D KD P E B. assert (Y : 0 <= (z / 2 - 1 - pc / 2) mod 512 < 512) by (apply Z.mod_pos_bound; lia). pose proof (fun w => sext_pc w z pc P E B) as SX. set (y := (z / 2 - 1 - pc / 2) mod 512) in *. destruct (fields9 K d y D Y) as (F1 & F2 & F3). cbv zeta in *. set (w := K * 4096 + d * 512 + y) in *.
  unfold decode. rewrite F1, F2, (SX w F3). destruct KD as [->|[-> ->]]; reflexivity.
Qed.
Lemma dec_jmp : forall d z pc, 0 <= d < 8 -> even z -> -512 <= z < 512 -> decode (12 * 4096 + d * 512 + (z / 2) mod 512) pc = Some (Jmp d z).
Proof.
  intros d z pc D EV RZ. assert (Y : 0 <= (z / 2) mod 512 < 512) by (apply Z.mod_pos_bound; lia). set (y := (z / 2) mod 512) in *. destruct (fields9 12 d y D Y) as (F1 & F2 & F3). cbv zeta in *. set (w := 12 * 4096 + d * 512 + y) in *.
  assert (X : sext 9 w = z / 2) by (apply sext_ok; [lia|exact F3|change (2 ^ (9 - 1)) with 256; zdm]). unfold decode. rewrite F1, F2, X, half_even by exact EV. reflexivity.
Qed.
Lemma dec_not : forall d s pc, 0 <= d < 8 -> 0 <= s < 8 -> decode (9 * 4096 + 63 + d * 512 + s * 64) pc = Some (Not d s).
Proof.
  intros d s pc D S. replace (9 * 4096 + 63 + d * 512 + s * 64) with (9 * 4096 + d * 512 + s * 64 + 63) by lia. destruct (fields6 9 d s 63 D S ltac:(lia)) as (F1 & F2 & F3 & F4). cbv zeta in *. set (w := 9 * 4096 + d * 512 + s * 64 + 63) in *. unfold decode. rewrite F1, F2, F3, F4. reflexivity.
Qed.
Lemma dec_trap : forall z pc, even z -> 0 <= z < 512 -> decode (15 * 4096 + (z / 2) mod 256) pc = Some (Trap z).
Proof.
  intros z pc EV RZ. rewrite (Z.mod_small (z / 2) 256) by zdm. set (w := 15 * 4096 + z / 2). assert (F1 : w / 4096 = 15) by (unfold w; zdm). assert (F2 : w / 256 mod 16 = 0) by (unfold w; zdm). assert (F3 : w mod 256 = z / 2) by (unfold w; zdm). unfold decode. rewrite F1, F2, F3, half_even by exact EV. reflexivity.
Qed.

Theorem encode_ok : forall E num2 name g m ps ops i bc bcoff pos out ws, site E num2 bc bcoff pos -> far ops -> Forall2 (denotes E) ps ops ->
  find_insn name = Some (g, m) -> finalize_insn g m ps = Done i -> plain i -> tobytes num2 i bc bcoff 2 = BBytes out ws ->
  exists x, asked (lower_str name) ops pos = Some x /\ wf out /\ (exists_at pos x -> decode (lev out) pos = Some x) /\ (ws = [] <-> silent_at pos x).
Proof.
  intros E num2 name g m ps ops i bc bcoff pos out ws ST FA F2 FI FN PL TB. pose proof ST as (_ & _ & _ & _ & EV & _).
  apply lookup in FI. destruct (fin_ok nequ equ label sect curpos vspecial precbc dot g m ps i FN) as (f & j & IN & AF & AS & NP & IP).
  assert (RRX : forall k t c, operands f = [(OPT_Reg, OPA_DR); (OPT_Reg, OPA_SR); (k, OPA_Imm t)] -> code f m = c -> In t [I_4; I_5; I_6_WORD; I_6_BYTE] -> 0 <= c < 61440 -> (c / 512) mod 8 = 0 -> (c / 64) mod 8 = 0 -> c mod 2 ^ width t = 0 ->
    exists d s o, ops = [SReg d; SReg s; o] /\ match k, o with OPT_Reg, SReg r => 0 <= r < 8 | OPT_Imm, SImm _ => True | _, _ => False end /\ 0 <= d < 8 /\ 0 <= s < 8 /\ wf out /\ lev out = c + d * 512 + s * 64 + scaled t o mod 2 ^ width t /\ ws = sized_warns (scaled t o) (width t) 0 (if checked t then -1 else 1)).
  { intros k t c O CC T C1 C2 C3 C4. rewrite O, CC in *. pose proof (assign_type _ _ _ _ AS AF) as TY. cbn [last_type] in TY. assert (NT : itype j <> I_9_PC) by (rewrite TY; intros ->; cbn [In] in T; intuition discriminate). rewrite (NP NT) in *.
    destruct (out_rrx E num2 k t c ps ops j bc bcoff pos out ws ST AS AF F2 T C1 C2 C3 C4 PL TB) as (d & s & o & A1 & A2 & A3 & A4 & _ & A5 & A6 & A7). exists d, s, o. auto 10. }
  assert (RR : forall c, operands f = [(OPT_Reg, OPA_DR); (OPT_Reg, OPA_SR)] -> code f m = c -> 0 <= c < 61440 -> (c / 512) mod 8 = 0 -> (c / 64) mod 8 = 0 ->
    exists d s, ops = [SReg d; SReg s] /\ 0 <= d < 8 /\ 0 <= s < 8 /\ wf out /\ lev out = c + d * 512 + s * 64 /\ ws = []).
  { intros c O CC C1 C2 C3. rewrite O, CC in *. pose proof (assign_type _ _ _ _ AS AF) as TY. cbn [last_type itype] in TY. assert (NT : itype j <> I_9_PC) by (rewrite TY; discriminate). rewrite (NP NT) in *.
    destruct (out_rr E num2 c ps ops j bc bcoff out ws AS AF F2 C1 C2 C3 TB) as (d & s & A1 & A2 & A3 & _ & A4 & A5 & A6). exists d, s. auto 10. }
  assert (RI : forall c, operands f = [(OPT_Reg, OPA_DR); (OPT_Imm, OPA_Imm I_9)] -> code f m = c -> 0 <= c < 61440 -> (c / 512) mod 8 = 0 -> c mod 512 = 0 ->
    exists d z, ops = [SReg d; SImm z] /\ 0 <= d < 8 /\ wf out /\ lev out = c + d * 512 + (z / 2) mod 512 /\ ws = sized_warns (z / 2) 9 0 1).
  { intros c O CC C1 C2 C3. rewrite O, CC in *. pose proof (assign_type _ _ _ _ AS AF) as TY. cbn [last_type itype] in TY. assert (NT : itype j <> I_9_PC) by (rewrite TY; discriminate). rewrite (NP NT) in *.
    destruct (out_ri E num2 c ps ops j bc bcoff pos out ws ST AS AF F2 C1 C2 C3 PL TB) as (d & z & A1 & A2 & _ & A4 & A5 & A6). exists d, z. auto 10. }
  assert (I8 : forall c, operands f = [(OPT_Imm, OPA_Imm I_8)] -> code f m = c -> 0 <= c < 65536 -> c mod 256 = 0 ->
    exists z, ops = [SImm z] /\ wf out /\ lev out = c + (z / 2) mod 256 /\ ws = sized_warns (z / 2) 8 0 1).
  { intros c O CC C1 C2. rewrite O, CC in *. pose proof (assign_type _ _ _ _ AS AF) as TY. cbn [last_type itype] in TY. assert (NT : itype j <> I_9_PC) by (rewrite TY; discriminate). rewrite (NP NT) in *.
    destruct (out_i E num2 c ps ops j bc bcoff pos out ws ST AS AF F2 C1 C2 PL TB) as (z & A1 & _ & A4 & A5 & A6). exists z. auto 10. }
  assert (PC : forall c, operands f = [(OPT_Imm, OPA_Imm I_9_PC)] -> code f m = c -> 0 <= c < 65536 -> c mod 512 = 0 ->
    exists z, ops = [SImm z] /\ wf out /\ lev out = c + (z / 2 - 1 - pos / 2) mod 512 /\ ws = sized_warns (z / 2 - 1 - pos / 2) 9 0 (-1)).
  { intros c O CC C1 C2. rewrite O, CC in *. pose proof (assign_type _ _ _ _ AS AF) as TY. cbn [last_type itype] in TY. destruct (IP TY) as (I1 & I2 & I3). rewrite I1 in *.
    assert (PJ : plain j) by (destruct PL as (P1 & P2 & P3 & P4); cbn [imm itype set_curpos wrt no_warn rshift] in *; do 2 (split; [assumption|]); split; [assumption|]; intros _; apply P4; reflexivity).
    exact (out_pc E num2 c ps ops j bc bcoff pos out ws ST FA AS AF F2 C1 C2 PJ I2 I3 TB). }
  assert (RPC : forall c, operands f = [(OPT_Reg, OPA_DR); (OPT_Imm, OPA_Imm I_9_PC)] -> code f m = c -> 0 <= c < 61440 -> (c / 512) mod 8 = 0 -> c mod 512 = 0 ->
    exists d z, ops = [SReg d; SImm z] /\ 0 <= d < 8 /\ wf out /\ lev out = c + d * 512 + (z / 2 - 1 - pos / 2) mod 512 /\ ws = sized_warns (z / 2 - 1 - pos / 2) 9 0 (-1)).
  { intros c O CC C1 C2 C3. rewrite O, CC in *. pose proof (assign_type _ _ _ _ AS AF) as TY. cbn [last_type itype] in TY. destruct (IP TY) as (I1 & I2 & I3). rewrite I1 in *.
    assert (PJ : plain j) by (destruct PL as (P1 & P2 & P3 & P4); cbn [imm itype set_curpos wrt no_warn rshift] in *; do 2 (split; [assumption|]); split; [assumption|]; intros _; apply P4; reflexivity).
    exact (out_rpc E num2 c ps ops j bc bcoff pos out ws ST FA AS AF F2 C1 C2 C3 PJ I2 I3 TB). }
  assert (NO : forall c, operands f = [] -> code f m = c -> 0 <= c < 65536 -> ops = [] /\ wf out /\ lev out = c /\ ws = []).
  { intros c O CC C1. rewrite O, CC in *. destruct ps; [|discriminate AF]. assert (OE : ops = []) by (inversion F2; reflexivity). split; [exact OE|]. cbn [M_Lc3b.assign] in AS. assert (J : j = start c) by (unfold start; congruence). assert (NT : itype j <> I_9_PC) by (rewrite J; discriminate). rewrite (NP NT), J in TB. unfold M_Lc3b.tobytes, start in TB. cbn [itype opcode] in TB. destruct (word_bytes c C1) as [A B]. assert (Q : out = [c mod 256; c / 256 mod 256]) by congruence. rewrite Q. split; [split; [reflexivity|exact B]|]. split; [exact A|congruence]. }
  clear AS AF NP IP FN PL TB F2. unfold names in FI. cbn [In] in FI.
  (* one name after the other *)
  repeat (destruct FI as [FI|FI]; [
    match type of FI with (?n, (?g0, ?m0)) = _ => assert (QN : lower_str name = n) by congruence; assert (QG : g = g0) by congruence; assert (QM : m = m0) by congruence end; clear FI; rewrite QN; subst g m; cbn [In addand_insn br_insn jmp_insn lea_insn ldst_insn ldstb_insn not_insn nooperand_insn shift_insn trap_insn] in IN|]).
  all: try contradiction FI.
  all: repeat (destruct IN as [IN|IN]; [subst f|]); try contradiction IN.
  - destruct (RRX OPT_Reg I_5 0x1000 eq_refl eq_refl ltac:(cbn; tauto) ltac:(lia) eq_refl eq_refl eq_refl) as (d & s & [r|z] & -> & O & D & S & W & L & ->); [|contradiction O]. eexists; split; [reflexivity|]. split; [exact W|]. cbn [exists_at silent_at scaled width checked words] in *. split; [|rewrite warn5; lia]. intros _; rewrite L; cbn [scaled width]. exact (dec_arith_r 1 d s r pos Add ltac:(auto) D S O).
  - destruct (RRX OPT_Imm I_5 0x1020 eq_refl eq_refl ltac:(cbn; tauto) ltac:(lia) eq_refl eq_refl eq_refl) as (d & s & [r|z] & -> & O & D & S & W & L & ->); [contradiction O|]. eexists; split; [reflexivity|]. split; [exact W|]. cbn [exists_at silent_at scaled width checked words] in *. split; [|apply warn5]. intros X; rewrite L. exact (dec_arith 1 d s z pos Add ltac:(auto) D S X).
  - destruct (RRX OPT_Reg I_5 0x5000 eq_refl eq_refl ltac:(cbn; tauto) ltac:(lia) eq_refl eq_refl eq_refl) as (d & s & [r|z] & -> & O & D & S & W & L & ->); [|contradiction O]. eexists; split; [reflexivity|]. split; [exact W|]. cbn [exists_at silent_at scaled width checked words] in *. split; [|rewrite warn5; lia]. intros _; rewrite L; cbn [scaled width]. exact (dec_arith_r 5 d s r pos And ltac:(auto) D S O).
  - destruct (RRX OPT_Imm I_5 0x5020 eq_refl eq_refl ltac:(cbn; tauto) ltac:(lia) eq_refl eq_refl eq_refl) as (d & s & [r|z] & -> & O & D & S & W & L & ->); [contradiction O|]. eexists; split; [reflexivity|]. split; [exact W|]. cbn [exists_at silent_at scaled width checked words] in *. split; [|apply warn5]. intros X; rewrite L. exact (dec_arith 5 d s z pos And ltac:(auto) D S X).
  - destruct (PC (0 * 512) eq_refl eq_refl ltac:(lia) eq_refl) as (z & -> & W & L & ->). eexists; split; [reflexivity|]. split; [exact W|]. cbn [exists_at silent_at]. split; [|rewrite warn9s; unfold even in EV; zdm]. intros [X1 X2]; rewrite L. exact (dec_br 0 z pos ltac:(lia) EV X1 X2).
  - destruct (PC (4 * 512) eq_refl eq_refl ltac:(lia) eq_refl) as (z & -> & W & L & ->). eexists; split; [reflexivity|]. split; [exact W|]. cbn [exists_at silent_at]. split; [|rewrite warn9s; unfold even in EV; zdm]. intros [X1 X2]; rewrite L. exact (dec_br 4 z pos ltac:(lia) EV X1 X2).
  - destruct (PC (2 * 512) eq_refl eq_refl ltac:(lia) eq_refl) as (z & -> & W & L & ->). eexists; split; [reflexivity|]. split; [exact W|]. cbn [exists_at silent_at]. split; [|rewrite warn9s; unfold even in EV; zdm]. intros [X1 X2]; rewrite L. exact (dec_br 2 z pos ltac:(lia) EV X1 X2).
  - destruct (PC (1 * 512) eq_refl eq_refl ltac:(lia) eq_refl) as (z & -> & W & L & ->). eexists; split; [reflexivity|]. split; [exact W|]. cbn [exists_at silent_at]. split; [|rewrite warn9s; unfold even in EV; zdm]. intros [X1 X2]; rewrite L. exact (dec_br 1 z pos ltac:(lia) EV X1 X2).
  - destruct (PC (6 * 512) eq_refl eq_refl ltac:(lia) eq_refl) as (z & -> & W & L & ->). eexists; split; [reflexivity|]. split; [exact W|]. cbn [exists_at silent_at]. split; [|rewrite warn9s; unfold even in EV; zdm]. intros [X1 X2]; rewrite L. exact (dec_br 6 z pos ltac:(lia) EV X1 X2).
  - destruct (PC (5 * 512) eq_refl eq_refl ltac:(lia) eq_refl) as (z & -> & W & L & ->). eexists; split; [reflexivity|]. split; [exact W|]. cbn [exists_at silent_at]. split; [|rewrite warn9s; unfold even in EV; zdm]. intros [X1 X2]; rewrite L. exact (dec_br 5 z pos ltac:(lia) EV X1 X2).
  - destruct (PC (3 * 512) eq_refl eq_refl ltac:(lia) eq_refl) as (z & -> & W & L & ->). eexists; split; [reflexivity|]. split; [exact W|]. cbn [exists_at silent_at]. split; [|rewrite warn9s; unfold even in EV; zdm]. intros [X1 X2]; rewrite L. exact (dec_br 3 z pos ltac:(lia) EV X1 X2).
  - destruct (PC (7 * 512) eq_refl eq_refl ltac:(lia) eq_refl) as (z & -> & W & L & ->). eexists; split; [reflexivity|]. split; [exact W|]. cbn [exists_at silent_at]. split; [|rewrite warn9s; unfold even in EV; zdm]. intros [X1 X2]; rewrite L. exact (dec_br 7 z pos ltac:(lia) EV X1 X2).
  - destruct (PC (32 * 512) eq_refl eq_refl ltac:(lia) eq_refl) as (z & -> & W & L & ->). eexists; split; [reflexivity|]. split; [exact W|]. cbn [exists_at silent_at]. split; [|rewrite warn9s; unfold even in EV; zdm]. intros [X1 X2]; rewrite L. exact (dec_pc 4 0 z pos ltac:(lia) ltac:(auto) EV X1 X2).
  - destruct (RI 0xC000 eq_refl eq_refl ltac:(lia) eq_refl eq_refl) as (d & z & -> & D & W & L & ->). eexists; split; [reflexivity|]. split; [exact W|]. cbn [exists_at silent_at]. split; [|rewrite warn9; zdm]. intros [X1 X2]. rewrite L. exact (dec_jmp d z pos D X1 X2).
  - destruct (RPC 0xE000 eq_refl eq_refl ltac:(lia) eq_refl eq_refl) as (d & z & -> & D & W & L & ->). eexists; split; [reflexivity|]. split; [exact W|]. cbn [exists_at silent_at]. split; [|rewrite warn9s; unfold even in EV; zdm]. intros [X1 X2]. rewrite L. exact (dec_pc 14 d z pos D ltac:(auto) EV X1 X2).
  - destruct (RRX OPT_Imm I_6_WORD 0x2000 eq_refl eq_refl ltac:(cbn; tauto) ltac:(lia) eq_refl eq_refl eq_refl) as (d & s & [r|z] & -> & O & D & S & W & L & ->); [contradiction O|]. eexists; split; [reflexivity|]. split; [exact W|]. cbn [exists_at silent_at scaled width checked words] in *. split; [|rewrite warn6; zdm]. intros [X1 X2]; rewrite L. exact (dec_word 2 d s z pos Ld ltac:(unfold wordmem; auto) D S X1 X2).
  - destruct (RRX OPT_Imm I_6_WORD 0xA000 eq_refl eq_refl ltac:(cbn; tauto) ltac:(lia) eq_refl eq_refl eq_refl) as (d & s & [r|z] & -> & O & D & S & W & L & ->); [contradiction O|]. eexists; split; [reflexivity|]. split; [exact W|]. cbn [exists_at silent_at scaled width checked words] in *. split; [|rewrite warn6; zdm]. intros [X1 X2]; rewrite L. exact (dec_word 10 d s z pos Ldi ltac:(unfold wordmem; auto) D S X1 X2).
  - destruct (RRX OPT_Imm I_6_WORD 0x3000 eq_refl eq_refl ltac:(cbn; tauto) ltac:(lia) eq_refl eq_refl eq_refl) as (d & s & [r|z] & -> & O & D & S & W & L & ->); [contradiction O|]. eexists; split; [reflexivity|]. split; [exact W|]. cbn [exists_at silent_at scaled width checked words] in *. split; [|rewrite warn6; zdm]. intros [X1 X2]; rewrite L. exact (dec_word 3 d s z pos St ltac:(unfold wordmem; auto) D S X1 X2).
  - destruct (RRX OPT_Imm I_6_WORD 0xB000 eq_refl eq_refl ltac:(cbn; tauto) ltac:(lia) eq_refl eq_refl eq_refl) as (d & s & [r|z] & -> & O & D & S & W & L & ->); [contradiction O|]. eexists; split; [reflexivity|]. split; [exact W|]. cbn [exists_at silent_at scaled width checked words] in *. split; [|rewrite warn6; zdm]. intros [X1 X2]; rewrite L. exact (dec_word 11 d s z pos Sti ltac:(unfold wordmem; auto) D S X1 X2).
  - destruct (RRX OPT_Imm I_6_BYTE 0x6000 eq_refl eq_refl ltac:(cbn; tauto) ltac:(lia) eq_refl eq_refl eq_refl) as (d & s & [r|z] & -> & O & D & S & W & L & ->); [contradiction O|]. eexists; split; [reflexivity|]. split; [exact W|]. cbn [exists_at silent_at scaled width checked words] in *. split; [|apply warn6s]. intros X; rewrite L. exact (dec_byte 6 d s z pos Ldb ltac:(auto) D S X).
  - destruct (RRX OPT_Imm I_6_BYTE 0x7000 eq_refl eq_refl ltac:(cbn; tauto) ltac:(lia) eq_refl eq_refl eq_refl) as (d & s & [r|z] & -> & O & D & S & W & L & ->); [contradiction O|]. eexists; split; [reflexivity|]. split; [exact W|]. cbn [exists_at silent_at scaled width checked words] in *. split; [|apply warn6s]. intros X; rewrite L. exact (dec_byte 7 d s z pos Stb ltac:(auto) D S X).
  - destruct (RR 0x903F eq_refl eq_refl ltac:(lia) eq_refl eq_refl) as (d & s & -> & D & S & W & L & ->). eexists; split; [reflexivity|]. split; [exact W|]. cbn [exists_at silent_at]. split; [|tauto]. intros _. rewrite L. exact (dec_not d s pos D S).
  - destruct (NO 0xCE00 eq_refl eq_refl ltac:(lia)) as (-> & W & L & ->). eexists; split; [reflexivity|]. split; [exact W|]. split; [|cbn [silent_at]; split; [lia|reflexivity]]. intros _. rewrite L. reflexivity.
  - destruct (NO 0x8000 eq_refl eq_refl ltac:(lia)) as (-> & W & L & ->). eexists; split; [reflexivity|]. split; [exact W|]. split; [|cbn [silent_at]; tauto]. intros _. rewrite L. reflexivity.
  - destruct (NO 0 eq_refl eq_refl ltac:(lia)) as (-> & W & L & ->). eexists; split; [reflexivity|]. split; [exact W|]. split; [|cbn [silent_at]; split; [intros _; unfold even in EV; zdm|reflexivity]]. intros _. rewrite L. unfold decode. cbn. f_equal. f_equal. lia.
  - destruct (RRX OPT_Imm I_4 0xD000 eq_refl eq_refl ltac:(cbn; tauto) ltac:(lia) eq_refl eq_refl eq_refl) as (d & s & [r|z] & -> & O & D & S & W & L & ->); [contradiction O|]. eexists; split; [reflexivity|]. split; [exact W|]. cbn [exists_at silent_at scaled width checked words] in *. split; [|apply warn4]. intros X; rewrite L. exact (dec_shift 0 d s z pos Lshf ltac:(auto) D S X).
  - destruct (RRX OPT_Imm I_4 0xD010 eq_refl eq_refl ltac:(cbn; tauto) ltac:(lia) eq_refl eq_refl eq_refl) as (d & s & [r|z] & -> & O & D & S & W & L & ->); [contradiction O|]. eexists; split; [reflexivity|]. split; [exact W|]. cbn [exists_at silent_at scaled width checked words] in *. split; [|apply warn4]. intros X; rewrite L. exact (dec_shift 1 d s z pos Rshfl ltac:(auto) D S X).
  - destruct (RRX OPT_Imm I_4 0xD030 eq_refl eq_refl ltac:(cbn; tauto) ltac:(lia) eq_refl eq_refl eq_refl) as (d & s & [r|z] & -> & O & D & S & W & L & ->); [contradiction O|]. eexists; split; [reflexivity|]. split; [exact W|]. cbn [exists_at silent_at scaled width checked words] in *. split; [|apply warn4]. intros X; rewrite L. exact (dec_shift 3 d s z pos Rshfa ltac:(auto) D S X).
  - destruct (I8 0xF000 eq_refl eq_refl ltac:(lia) eq_refl) as (z & -> & W & L & ->). eexists; split; [reflexivity|]. split; [exact W|]. cbn [exists_at silent_at]. split; [|rewrite warn8; zdm]. intros [X1 X2]. rewrite L. exact (dec_trap z pos X1 X2).
Qed.
End Lc3b.
