(** Lengths of x86 instructions and jumps (C34). *)
From Coq Require Import ZArith List Bool Arith Lia.
From Verif Require Import Lib M_BitVect M_Intnum P_Intnum M_Expr P_Expr P_ExprLevel P_ExprTree P_ExprTop P_ExprUse M_X86.
Import ListNotations.
Open Scope Z_scope.

(** * Specification *)
(** The effective address was made by one of the three constructors. *)
Definition ea_made (a : ea) : Prop :=
  (exists v nosplit seg pcrel vs spare, a = ea_of v nosplit seg pcrel vs spare) \/
  (exists reg rex bits seg spare rex', ea_reg reg rex bits seg spare = Ok (a, rex')) \/
  (exists v seg, a = ea_imm v seg).
(** Descriptors: an array of three opcode bytes; sizes in bits are not negative; a segment register is given with its
    prefix in the high byte; the sign-extended form keeps its second opcode in the array. *)
Definition insn_ok (i : insn) : Prop :=
  length (op_bytes (i_op i)) = 3%nat /\ 0 <= op_len (i_op i) <= 3 /\
  match i_ea i with Some a => ea_made a /\ 0 <= v_size (disp a) /\ (segreg a = 0 \/ 256 <= segreg a) | None => True end /\
  match i_imm i with Some v => 0 <= v_size v | None => True end.
(** The absolute part is a levelled expression, as value_finalize leaves it. *)
Definition vgood (v : value) : Prop := match v_abs v with Some e => good (eitem e) | None => True end.
(** Modes and address sizes of the architecture, REX only in 64-bit mode, no two-byte VEX prefix yet, finalized values *)
Definition insn_mode (i : insn) : Prop :=
  In (mode (i_common i)) [16; 32; 64] /\ In (addrsize (i_common i)) [0; 16; 32; 64] /\
  (i_rex i = 0 \/ i_rex i = 255 \/ mode (i_common i) = 64) /\ i_special i <> 197 /\
  (i_post i = SignExt8 -> op_len (i_op i) <= 2) /\
  match i_ea i with Some a => vgood (disp a) | None => True end /\ match i_imm i with Some v => vgood v | None => True end.
Section Spec.
Variables (nequ : nat) (equ : Z -> option expr) (label : Z -> option Z) (sect : Z -> Z) (dist : Z -> Z -> option intnum).
Variable ov : value -> out Z.
(** Any number of expansions for spans [ids], then any number of copies *)
Fixpoint expansions (ids : list Z) (i : insn) (len : Z) : out (insn * Z) :=
  match ids with [] => Ok (i, len) | k :: r => bind (insn_expand k i len) (fun p => let (i', len') := p in expansions r i' len') end.
Fixpoint copies (n : nat) (len : Z) (i : insn) : out (list (list Z)) :=
  match n with
  | O => Ok []
  | S m => bind (insn_bytes ov len i) (fun p => let (i', b) := p in bind (copies m len i') (fun bs => Ok (b :: bs)))
  end.
Fixpoint jexpansions (ids : list Z) (j : jmp) (len : Z) : out (jmp * Z) :=
  match ids with [] => Ok (j, len) | k :: r => bind (jmp_expand k j len) (fun p => let (j', len') := p in jexpansions r j' len') end.
Fixpoint jcopies (n : nat) (len : Z) (j : jmp) : out (list (list Z)) :=
  match n with
  | O => Ok []
  | S m => bind (jmp_bytes ov len j) (fun p => let (j', b) := p in bind (jcopies m len j') (fun bs => Ok (b :: bs)))
  end.
(** The parser asks for a form or leaves it open. *)
Definition jmp_ok (j : jmp) : Prop :=
  length (op_bytes (j_short j)) = 3%nat /\ 0 <= op_len (j_short j) <= 3 /\ length (op_bytes (j_near j)) = 3%nat /\ 0 <= op_len (j_near j) <= 3 /\
  (j_sel j = JNone \/ j_sel j = JShortForced \/ j_sel j = JNearForced).
Definition span_id (s : span) : Z := fst (fst (fst s)).
(** The object format does not fail internally on a finalized value. *)
Definition no_bug : Prop := forall v, vgood v -> ov v <> Bug.
End Spec.

(** * Outcomes *)
Lemma bind_ok : forall A B (x : out A) (f : A -> out B) b, bind x f = Ok b -> exists a, x = Ok a /\ f a = Ok b.
Proof. intros A B [a| |] f b H; try discriminate. exists a. auto. Qed.
Lemma bind_bug : forall A B (x : out A) (f : A -> out B), bind x f = Bug -> x = Bug \/ exists a, x = Ok a /\ f a = Bug.
Proof. intros A B [a| |] f H; try discriminate; [right; exists a; auto|left; auto]. Qed.
Lemma ok_inj : forall A (a b : A), Ok a = Ok b -> a = b.
Proof. intros A a b H. injection H. auto. Qed.
Ltac bok H := let p := fresh "p" in let E := fresh "E" in apply bind_ok in H; destruct H as (p & E & H).
Lemma pair_inj : forall A B (a a' : A) (b b' : B), (a, b) = (a', b') -> a = a' /\ b = b'.
Proof. intros A B a a' b b' H. injection H. auto. Qed.
Ltac pinj H := repeat (apply pair_inj in H; let X := fresh "J" in destruct H as [H X]; subst).
Ltac ifd H := match type of H with (if ?b then _ else _) = _ => destruct b eqn:? end.
Lemma b2z_01 : forall b, 0 <= b2z b <= 1. Proof. intros []; cbn; lia. Qed.
Lemma le_length : forall n v, length (le n v) = n.
Proof. induction n; intros v; cbn; auto. Qed.

(** * What checkea leaves *)
Definition ewf (a : ea) : Prop :=
  0 <= v_size (disp a) /\ (segreg a = 0 \/ 256 <= segreg a) /\ (need_disp a = false -> v_size (disp a) = 0 /\ nonzero a = false).
Definition valids (a : ea) : Prop := (need_modrm a = true -> valid_modrm a = true) /\ (need_sib a <> 0 -> valid_sib a = true).
(** address to be encoded, or a register *)
Definition epre (a : ea) : Prop :=
  0 <= v_size (disp a) /\ (segreg a = 0 \/ 256 <= segreg a) /\
  (need_disp a = true \/ v_size (disp a) = 0 /\ nonzero a = false /\ need_modrm a = true /\ valid_modrm a = true /\ need_sib a = 0).
Lemma made_pre : forall a, ea_made a -> 0 <= v_size (disp a) -> (segreg a = 0 \/ 256 <= segreg a) -> epre a /\ (need_modrm a = false \/ valid_modrm a = true -> need_sib a = 0) /\ (need_sib a = 255 \/ need_sib a = 0).
Proof.
  intros a [(v & ns & sg & pr & vs & sp & ->)|[(r & rx & bt & sg & sp & rx' & H)|(v & sg & ->)]] Hs Hg; (split; [split; [exact Hs|split; [exact Hg|]]|split]).
  - left. reflexivity.
  - intros [Q|Q]; discriminate Q.
  - left. reflexivity.
  - unfold ea_reg in H. bok H. destruct p as [q rm]. apply ok_inj in H. injection H as <- _. right. cbn. auto.
  - unfold ea_reg in H. bok H. destruct p as [q rm]. apply ok_inj in H. injection H as <- _. reflexivity.
  - unfold ea_reg in H. bok H. destruct p as [q rm]. apply ok_inj in H. injection H as <- _. right. reflexivity.
  - left. reflexivity.
  - reflexivity.
  - right. reflexivity.
Qed.
Section Check.
Variables (nequ : nat) (equ : Z -> option expr) (label : Z -> option Z) (sect : Z -> Z) (dist : Z -> Z -> option intnum).
Notation calc_displen := (calc_displen nequ equ label sect dist).
Notation encode3264 := (encode3264 nequ equ label sect dist).
Notation usage := (usage nequ equ label sect dist).
Notation check3264 := (check3264 nequ equ label sect dist).
Notation check16 := (check16 nequ equ label sect dist).
Notation checkea := (checkea nequ equ label sect dist).
Notation insn_calc_len := (insn_calc_len nequ equ label sect dist).

Lemma displen_ok : forall w nr dr a a', 0 <= w -> calc_displen w nr dr a = Ok a' -> 0 <= v_size (disp a) -> need_disp a = true ->
  (segreg a = 0 \/ 256 <= segreg a) -> ewf a' /\ valid_modrm a' = true /\ need_modrm a' = need_modrm a /\ need_sib a' = need_sib a /\ valid_sib a' = valid_sib a.
Proof.
  intros w nr dr a a' W H S N G. unfold M_X86.calc_displen in H. cbn [disp set_modrm] in H.
  assert (K : forall m b, ewf b -> ewf (set_modrm m true b)) by (intros m b Q; exact Q).
  repeat match type of H with
  | (if ?b then _ else _) = _ => destruct b eqn:?
  | match v_rel ?d with Some _ => _ | None => _ end = _ => destruct (v_rel d) eqn:?
  end; try discriminate H;
  try (apply ok_inj in H; subst a'; split; [|repeat split; destruct dr; reflexivity]; apply K; split; [destruct dr; cbn; auto|split; [destruct dr; exact G|]]; intros Q; destruct dr; cbn in Q; congruence).
  bok H. destruct p as [n|].
  - destruct (is_zero n && negb (nonzero (if dr then set_nonzero (set_modrm (modrm a) false a) else set_modrm (modrm a) false a))) eqn:Z.
    + apply ok_inj in H. subst a'. split; [|repeat split; destruct dr; reflexivity]. apply K. split; [destruct dr; cbn; auto|split; [destruct dr; exact G|]]. intros _.
      apply andb_true_iff in Z. destruct Z as [_ Z]. apply negb_true_iff in Z. split; [|exact Z]. cbn. apply Z.eqb_eq, negb_false_iff. assumption.
    + destruct (in_range n (-128) 127); apply ok_inj in H; subst a'; (split; [|repeat split; destruct dr; reflexivity]); apply K; (split; [destruct dr; cbn; auto; lia|split; [destruct dr; exact G|]]); intros Q; destruct dr; cbn in Q; congruence.
  - apply ok_inj in H. subst a'. split; [|repeat split; destruct dr; reflexivity]. apply K. split; [destruct dr; cbn; auto|split; [destruct dr; exact G|]]. intros Q; destruct dr; cbn in Q; congruence.
Qed.
Lemma usage_size : forall get ui bits d d' s, usage get ui bits d = Ok (d', s) -> v_size d' = v_size d.
Proof.
  intros get ui bits d d' s H. unfold M_X86.usage in H. destruct (v_abs d); [|apply ok_inj in H; injection H as <- _; reflexivity].
  bok H. destruct p as [[e1 m0] pc]. bok H. destruct p as [e2 s2].
  match type of H with match ?x with _ => _ end = _ => destruct x as [[[e' st] b]| |] end; try discriminate H.
  apply ok_inj in H. injection H as <- _. destruct pc; reflexivity.
Qed.
Lemma encode_ok : forall bits m base idx rex a a' rex', encode3264 bits m base idx rex a = Ok (a', rex') -> 0 <= v_size (disp a) -> need_disp a = true ->
  (segreg a = 0 \/ 256 <= segreg a) -> (need_sib a = 255 \/ need_sib a = 0) -> ewf a' /\ valids a'.
Proof.
  intros bits m base idx rex a a' rex' H S N G NS. unfold M_X86.encode3264 in H.
  set (c := (base =? -1) && (idx =? -1) && pc_rel a) in H.
  assert (Q : exists b a1, (if c then (16, set_disp (set_curpos true (disp a)) a) else (base, a)) = (b, a1) /\ v_size (disp a1) = v_size (disp a) /\ need_disp a1 = true /\ segreg a1 = segreg a /\ need_sib a1 = need_sib a).
  { destruct c; do 2 eexists; (split; [reflexivity|]); auto. }
  destruct Q as (b & a1 & Q & S1 & N1 & G1 & I1). rewrite Q in H. clear Q c.
  destruct (b =? 16) eqn:B.
  { apply ok_inj in H. injection H as <- _. split; [split; [cbn; lia|split; [cbn [segreg]; cbn; rewrite G1; exact G|cbn; congruence]]|split; cbn; auto; congruence]. }
  bok H. destruct p as [a2 rex1].
  assert (A2 : v_size (disp a2) = v_size (disp a) /\ need_disp a2 = true /\ segreg a2 = segreg a /\ (need_sib a2 = 0 \/ need_sib a2 = 1)).
  { destruct ((b =? -1) && (idx =? -1)).
    - destruct (bits =? 64); apply ok_inj in E; injection E as <- _; cbn; auto.
    - destruct (idx =? -1).
      + bok E. destruct p as [r l]. destruct ((b =? 4) || (b =? 12)); apply ok_inj in E; injection E as <- _; cbn; auto.
      + apply ok_inj in E. injection E as <- _. cbn; auto. }
  clear E. destruct A2 as (S2 & N2 & G2 & I2). bok H. destruct p as [a3 rex2].
  assert (A3 : v_size (disp a3) = v_size (disp a) /\ need_disp a3 = true /\ segreg a3 = segreg a /\ (need_sib a3 <> 0 -> valid_sib a3 = true)).
  { destruct (need_sib a2 =? 1) eqn:I3.
    - bok E. destruct p as [r sb]. bok E. destruct p as [r3 s3]. apply ok_inj in E. injection E as <- _. cbn; auto.
    - apply ok_inj in E. injection E as <- _. split; auto. split; auto. split; auto. intros X. apply Z.eqb_neq in I3. destruct I2; congruence. }
  clear E. destruct A3 as (S3 & N3 & G3 & I3). bok H. apply ok_inj in H. injection H as <- _.
  apply displen_ok in E; [|lia|rewrite S3; auto|auto|rewrite G3; auto]. destruct E as (X & V & _ & Y & Z). split; auto. split; auto. intros W. rewrite Z. apply I3. rewrite <- Y. auto.
Qed.
Lemma checkea_ok : forall as0 bits a16 rex a a' asz rex', checkea as0 bits a16 rex a = Ok (a', asz, rex') -> epre a -> (need_sib a = 255 \/ need_sib a = 0) -> ewf a' /\
  (In as0 [0; 16; 32; 64] -> In bits [16; 32; 64] -> (need_modrm a = false \/ valid_modrm a = true -> need_sib a = 0) -> valids a').
Proof.
  intros as0 bits a16 rex a a' asz rex' H (S & G & N) NS. unfold M_X86.checkea in H. bok H. rename p into sz, E into ES.
  assert (KEEP : need_disp a = true -> ewf a) by (intros Q; split; [auto|split; auto; congruence]).
  assert (REG : v_size (disp a) = 0 /\ nonzero a = false -> ewf a) by (intros [Q1 Q2]; split; [auto|split; auto]).
  destruct (((sz =? 32) || (sz =? 64)) && _) eqn:C1.
  - assert (N' : need_disp a = true).
    { destruct N as [N|(_ & _ & N1 & N2 & N3)]; auto. apply andb_true_iff in C1. destruct C1 as [_ C1]. rewrite N1, N2, N3 in C1. discriminate C1. }
    bok H. destruct p as [a1 rex1]. apply ok_inj in H. injection H as <- _ _. unfold M_X86.check3264 in E.
    destruct ((sz =? 64) && negb (bits =? 64)); [discriminate|]. 
    match type of E with context[set_pcrel false a] => set (a2 := if pc_rel a && negb (bits =? 64) then set_pcrel false a else a) in E end.
    assert (A2 : v_size (disp a2) = v_size (disp a) /\ need_disp a2 = true /\ segreg a2 = segreg a /\ need_sib a2 = need_sib a) by (unfold a2; match goal with |- context[if ?b then _ else _] => destruct b end; repeat split; auto).
    destruct A2 as (S2 & N2 & G2 & I2). bok E. destruct p as [d s]. apply usage_size in E0.
    destruct (find_regs _ _ _ _) as [[b1 i1]|]; [|discriminate]. destruct (adjust _ _ _ _ _) as [[[b2 i2] m']|]; [|discriminate]. destruct (check_regs _ _ _ _) as [[b3 i3]|]; [|discriminate].
    apply encode_ok in E; [destruct E; auto|cbn; congruence|cbn; auto|cbn [segreg set_disp]; rewrite G2; auto|cbn [need_sib set_disp]; rewrite I2; auto].
  - destruct ((sz =? 16) && need_modrm a && negb (valid_modrm a)) eqn:C2.
    + assert (N' : need_disp a = true).
      { destruct N as [N|(_ & _ & N1 & N2 & N3)]; auto. rewrite N1, N2 in C2. rewrite andb_true_r, andb_false_r in C2. discriminate. }
      bok H. apply ok_inj in H. injection H as <- _ _. unfold M_X86.check16 in E. ifd E; [discriminate|]. bok E. destruct p0 as [d s]. apply usage_size in E0. cbv zeta in E.
      ifd E; [discriminate|]. ifd E; [discriminate|].
      apply displen_ok in E; [|lia|cbn in E0 |- *; congruence|exact N'|exact G]. destruct E as (X & V & _ & Y & Z). split; auto. intros _ _ _. split; auto.
    + assert (SZ : In as0 [0; 16; 32; 64] -> In bits [16; 32; 64] -> In sz [16; 32; 64]).
      { intros I1 I2. unfold addr_size in ES. destruct (as0 =? 0) eqn:Z0; cbn [negb] in ES.
        - assert (FR : forall x, (if (bits =? 16) && (need_sib a =? 1) then Ok 32 else Ok (match v_abs (disp a) with Some e => match reg_width (TExpr (fst e) (snd e)) with Some w => w | None => bits end | None => bits end)) = Ok x -> In x [16; 32; 64]).
          { intros x Q. ifd Q; [apply ok_inj in Q; subst; cbn; auto|]. apply ok_inj in Q. subst x. destruct (v_abs (disp a)) as [e|]; auto. destruct (reg_width _) as [w|] eqn:RW; auto.
            clear -RW. revert w RW. generalize (TExpr (fst e) (snd e)). fix K 1. intros [| | |r| | | |o ts] w Q; try discriminate Q.
            - cbn [reg_width] in Q. repeat match type of Q with (if ?b then _ else _) = _ => destruct b end; try discriminate Q; injection Q as <-; cbn; auto.
            - cbn [reg_width] in Q. induction ts as [|t ts IH]; [discriminate|]. destruct (reg_width t) eqn:Q1; [injection Q as <-; exact (K t z Q1)|exact (IH Q)]. }
          cbv zeta in ES. repeat match type of ES with (if ?b then _ else _) = _ => lazymatch b with context[need_sib a =? 1] => fail | _ => destruct b end end; try discriminate ES; try (apply FR in ES; exact ES); apply ok_inj in ES; subst; cbn; auto.
        - apply ok_inj in ES. subst sz. apply Z.eqb_neq in Z0. cbn in *. intuition. }
      assert (VV : In as0 [0; 16; 32; 64] -> In bits [16; 32; 64] -> (need_modrm a = false \/ valid_modrm a = true -> need_sib a = 0) -> valids a).
      { intros I1 I2 I3. specialize (SZ I1 I2). unfold valids. destruct (need_modrm a) eqn:Q1.
        - destruct (valid_modrm a) eqn:Q2.
          + split; [auto|]. intros Q3. exfalso. apply Q3. apply I3. auto.
          + exfalso. destruct SZ as [<-|[<-|[<-|[]]]]; cbn in C1, C2; discriminate.
        - split; [discriminate|]. intros Q3. exfalso. apply Q3. auto. }
      destruct (negb (need_modrm a) && (need_sib a =? 0)) eqn:C3.
      * assert (N' : need_disp a = true) by (destruct N as [N|(_ & _ & N1 & _)]; auto; rewrite N1 in C3; discriminate).
        repeat match type of H with (if ?b then _ else _) = _ => destruct b eqn:? end; try discriminate H; apply ok_inj in H; injection H as <- _ _; (split; [|exact VV]); try apply (KEEP N'); (split; [cbn; lia|split; [exact G|cbn; congruence]]).
      * apply ok_inj in H. injection H as <- _ _. split; [destruct N as [N|N]; [auto|apply REG; tauto]|exact VV].
Qed.

(** * Lengths *)
(** The bytes an instruction takes *)
Definition ea_size (a : ea) : Z := b2z (negb (segreg a =? 0)) + b2z (need_modrm a) + b2z (negb (need_sib a =? 0)) + v_size (disp a) / 8.
Definition imm_size (p : postop) (v : value) : Z := match p with SignExt8 => 1 | _ => v_size v / 8 end.
Definition rex_size (special rex : Z) : Z :=
  b2z (negb (rex =? 255) && negb (rex =? 0) && negb (special =? 196) && negb (special =? 197) && negb (special =? 143)).
Definition isize (i : insn) : Z :=
  common_len (i_common i) + b2z (negb (i_special i =? 0)) + rex_size (i_special i) (i_rex i) + op_len (i_op i) +
  match i_ea i with Some a => ea_size a | None => 0 end + match i_imm i with Some v => imm_size (i_post i) v | None => 0 end.
Definition iwf (i : insn) : Prop :=
  length (op_bytes (i_op i)) = 3%nat /\ 0 <= op_len (i_op i) <= 3 /\ match i_ea i with Some a => ewf a | None => True end /\
  match i_imm i with Some v => 0 <= v_size v | None => True end.
Lemma op_set_length : forall k b o, (k < length (op_bytes o))%nat -> length (op_bytes (op_set k b o)) = length (op_bytes o).
Proof. intros k b o H. unfold op_set. cbn [op_bytes]. rewrite app_length, firstn_length. cbn [length]. rewrite skipn_length. lia. Qed.
Lemma op_second_ok : forall o o', length (op_bytes o) = 3%nat -> op_second o = Ok o' -> length (op_bytes o') = 3%nat /\ op_len o' = 1.
Proof. intros o o' L H. unfold op_second in H. bok H. apply ok_inj in H. subst o'. split; [|reflexivity]. rewrite <- L. cbn [op_bytes]. apply op_set_length. lia. Qed.
Lemma common_bytes_length : forall c g, Z.of_nat (length (common_bytes c g)) = common_len c + b2z (negb (g =? 0)).
Proof.
  intros c g. unfold common_bytes, common_len. rewrite !app_length. destruct (g =? 0), (has67 c), (has66 c), (acqrel c =? 0), (lockrep c =? 0); reflexivity.
Qed.
Lemma opcode_bytes_length : forall o, length (op_bytes o) = 3%nat -> 0 <= op_len o <= 3 -> Z.of_nat (length (opcode_bytes o)) = op_len o.
Proof. intros o L H. unfold opcode_bytes. rewrite firstn_length, L. lia. Qed.
Lemma calc_len_ok : forall i i' len sp, insn_ok i -> insn_calc_len i = Ok (i', len, sp) -> iwf i' /\ len = isize i'.
Proof.
  intros i i' len sp (OL & ON & HE & HI) H. unfold M_X86.insn_calc_len in H. bok H. destruct p as [[[[c a] rex] len1] sp1]. rename E into E1. bok H. destruct p as [[[[o1 imm] post] len2] sp2]. rename E into E2.
  assert (A : match a with Some a => ewf a | None => True end /\ len1 = match a with Some a => ea_size a | None => 0 end).
  { destruct (i_ea i) as [a0|]; [|apply ok_inj in E1; injection E1 as <- <- <- <- <-; auto]. destruct HE as (HM & HS & HG). destruct (made_pre _ HM HS HG) as (P1 & P2 & P3).
    bok E1. destruct p as [[a1 asz] rx]. apply checkea_ok in E; auto. destruct E as [W _].
    destruct ((v_size (disp a1) =? 0) && nonzero a1) eqn:Z.
    - apply andb_true_iff in Z. destruct Z as [_ Z]. apply ok_inj in E1. apply pair_inj in E1. destruct E1 as [E1 _]. apply pair_inj in E1. destruct E1 as [E1 EL]. apply pair_inj in E1. destruct E1 as [E1 _]. apply pair_inj in E1. destruct E1 as [_ E1]. subst a len1. split.
      + destruct W as (W1 & W2 & W3). split; [cbn; lia|]. split; [exact W2|]. intros Q. destruct (W3 Q). cbn in *. congruence.
      + unfold ea_size. cbn [disp set_disp need_modrm need_sib segreg]. lia.
    - apply ok_inj in E1. apply pair_inj in E1. destruct E1 as [E1 _]. apply pair_inj in E1. destruct E1 as [E1 EL]. apply pair_inj in E1. destruct E1 as [E1 _]. apply pair_inj in E1. destruct E1 as [_ E1]. subst a len1. split; auto. unfold ea_size. lia. }
  clear E1 HE. destruct A as [WA ->].
  assert (B : length (op_bytes o1) = 3%nat /\ 0 <= op_len o1 <= 3 /\ match imm with Some v => 0 <= v_size v | None => True end /\ len2 = match imm with Some v => imm_size post v | None => 0 end).
  { destruct (i_imm i) as [v|]; [|apply ok_inj in E2; injection E2 as <- <- <- <- <-; auto].
    destruct (i_post i); try (apply ok_inj in E2; injection E2 as <- <- <- <- <-; repeat split; auto; lia).
    bok E2. destruct p as [n|]; [|apply ok_inj in E2; injection E2 as <- <- <- <- <-; repeat split; auto; lia].
    ifd E2; [apply ok_inj in E2; injection E2 as <- <- <- <- <-; cbn; repeat split; auto; lia|].
    bok E2. apply op_second_ok in E0; auto. destruct E0 as [X Y]. apply ok_inj in E2. injection E2 as <- <- <- <- <-. rewrite Y. repeat split; auto; lia. }
  clear E2 HI OL ON. destruct B as (OL & ON & WI & ->). cbv zeta in H. apply ok_inj in H. apply pair_inj in H. destruct H as [H _]. apply pair_inj in H. destruct H as [H1 H2]. subst i' len.
  set (short := (i_special i =? 196) && _ && _ && _). assert (SH : short = true -> i_special i = 196) by (unfold short; intros Q; rewrite !andb_true_iff in Q; destruct Q as [[[Q _] _] _]; apply Z.eqb_eq; exact Q).
  clearbody short. split.
  - split; [destruct short; auto|]. split; [destruct short; cbn; lia|]. auto.
  - unfold isize. cbn [i_common i_special i_rex i_op i_ea i_imm i_post]. unfold rex_size. destruct short.
    + rewrite (SH eq_refl). cbn [Z.eqb negb]. rewrite (andb_false_r), andb_comm. cbn. rewrite ?andb_false_r. cbn. lia.
    + destruct (i_special i =? 196) eqn:S1; [apply Z.eqb_eq in S1; rewrite S1; cbn; rewrite ?andb_false_r; cbn; lia|]. cbn [negb]. rewrite andb_true_r. lia.
Qed.
Lemma expand_ok : forall sp i len i' len', iwf i -> len = isize i -> insn_expand sp i len = Ok (i', len') -> iwf i' /\ len' = isize i'.
Proof.
  intros sp i len i' len' W L H. unfold insn_expand in H.
  match type of H with (let (i1, len1) := ?x in _) = _ => destruct x as [i1 len1] eqn:Q end.
  assert (A : iwf i1 /\ len1 = isize i1).
  { destruct (i_ea i) as [a|] eqn:EA; [|injection Q as <- <-; auto]. destruct ((sp =? 1) && (v_size (disp a) =? 8)) eqn:C; [|injection Q as <- <-; auto].
    apply andb_true_iff in C. destruct C as [_ C]. apply Z.eqb_eq in C. destruct W as (W1 & W2 & W3 & W4). rewrite EA in W3. destruct W3 as (X1 & X2 & X3).
    assert (ND : need_disp a = true) by (destruct (need_disp a); auto; destruct X3; auto; lia).
    injection Q as <- <-. split.
    - split; auto. split; auto. split; [|exact W4]. cbn [i_ea]. split; [|split; [exact X2|cbn; congruence]]. cbn. destruct (addrsize _ =? 16); lia.
    - rewrite L. unfold isize. rewrite EA. cbn [i_common i_special i_rex i_op i_ea i_imm i_post]. unfold ea_size. rewrite C. cbn [disp set_modrm set_disp need_modrm need_sib segreg v_size with_size]. change (8 / 8) with 1. lia. }
  clear Q W L. destruct A as [W ->].
  assert (KEEP : Ok (i1, isize i1) = Ok (i', len') -> iwf i' /\ len' = isize i') by (intros K; apply ok_inj in K; injection K as <- <-; auto).
  destruct (i_imm i1) as [v|] eqn:EI; auto. destruct (i_post i1) eqn:EP; auto. destruct (sp =? 2); auto.
  destruct W as (W1 & W2 & W3 & W4). bok H. apply op_second_ok in E; auto. destruct E as [X Y]. apply ok_inj in H. injection H as <- <-. split.
  - split; auto. split; [cbn; lia|]. split; auto. cbn. rewrite EI in *. exact W4.
  - unfold isize. cbn [i_common i_special i_rex i_op i_ea i_imm i_post]. rewrite EI, EP, Y. cbn [imm_size]. lia.
Qed.
Lemma expansions_ok : forall ids i len i' len', iwf i -> len = isize i -> expansions ids i len = Ok (i', len') -> iwf i' /\ len' = isize i'.
Proof.
  induction ids as [|k r IH]; intros i len i' len' W L H; cbn [expansions] in H; [apply ok_inj in H; injection H as <- <-; auto|].
  bok H. destruct p as [i1 l1]. apply expand_ok in E; auto. destruct E as [W1 L1]. exact (IH _ _ _ _ W1 L1 H).
Qed.
Lemma delta_size : forall d v v', add_delta d v = Ok v' -> v_size v' = v_size v.
Proof. intros d v v' H. unfold add_delta in H. destruct (v_abs v); [match type of H with match ?x with _ => _ end = _ => destruct x; try discriminate end|]; apply ok_inj in H; subst; reflexivity. Qed.
Lemma seg_shift : forall s, s = 0 \/ 256 <= s -> (Z.shiftr s 8 =? 0) = (s =? 0).
Proof.
  intros s [->|H]; [reflexivity|]. rewrite Z.shiftr_div_pow2 by lia. change (2 ^ 8) with 256. assert (1 <= s / 256) by (apply Z.div_le_lower_bound; lia).
  rewrite !(proj2 (Z.eqb_neq _ _)) by lia. reflexivity.
Qed.
Variable ov : value -> out Z.
Notation insn_bytes := (insn_bytes ov).
Lemma bytes_ok : forall len i i' bs, iwf i -> insn_bytes len i = Ok (i', bs) -> Z.of_nat (length bs) = isize i /\ iwf i' /\ isize i' = isize i.
Proof.
  intros len i i' bs (W1 & W2 & W3 & W4) H. unfold M_X86.insn_bytes in H. bok H. destruct p as [o rb]. rename E into E1. bok H. destruct p as [a eb]. rename E into E2. bok H. destruct p as [imm ib]. rename E into E3.
  assert (A : length (op_bytes o) = 3%nat /\ op_len o = op_len (i_op i) /\ Z.of_nat (length rb) = rex_size (i_special i) (i_rex i)).
  { unfold rex_size. destruct ((i_special i =? 196) || (i_special i =? 143)) eqn:S1.
    - assert (R : negb (i_rex i =? 255) && negb (i_rex i =? 0) && negb (i_special i =? 196) && negb (i_special i =? 197) && negb (i_special i =? 143) = false).
      { apply orb_true_iff in S1. destruct S1 as [S1|S1]; rewrite S1; cbn; rewrite ?andb_false_r; reflexivity. }
      rewrite R. apply ok_inj in E1. injection E1 as <- <-. split; [|split; auto].
      + set (x := if i_rex i =? 255 then _ else _). destruct (_ && _); [rewrite op_set_length; rewrite op_set_length; lia|rewrite op_set_length; lia].
      + destruct (_ && _); reflexivity.
    - destruct (i_special i =? 197) eqn:S2.
      + ifd E1; [discriminate|]. apply ok_inj in E1. injection E1 as <- <-. cbn [negb]. rewrite !andb_false_r. split; [rewrite op_set_length; lia|split; reflexivity].
      + apply orb_false_iff in S1. destruct S1 as [S1 S3]. rewrite S1, S3. cbn [negb]. rewrite !andb_true_r. destruct (negb (i_rex i =? 255) && negb (i_rex i =? 0)).
        * ifd E1; [discriminate|]. apply ok_inj in E1. injection E1 as <- <-. auto.
        * apply ok_inj in E1. injection E1 as <- <-. auto. }
  clear E1. destruct A as (O1 & O2 & O3).
  set (g := match i_ea i with Some a => Z.shiftr (segreg a) 8 | None => 0 end) in *.
  assert (B : match a with Some a => ewf a | None => True end /\ match a with Some a => ea_size a | None => 0 end = match i_ea i with Some a => ea_size a | None => 0 end /\
    Z.of_nat (length eb) + b2z (negb (g =? 0)) = match i_ea i with Some a => ea_size a | None => 0 end).
  { unfold g. destruct (i_ea i) as [a0|]; [|apply ok_inj in E2; injection E2 as <- <-; auto]. destruct W3 as (X1 & X2 & X3). rewrite (seg_shift _ X2). ifd E2; [discriminate|]. ifd E2; [discriminate|]. cbv zeta in E2.
    set (mb := (if need_modrm a0 then [modrm a0] else []) ++ (if need_sib a0 =? 0 then [] else [sib a0])) in *.
    assert (MB : Z.of_nat (length mb) = b2z (need_modrm a0) + b2z (negb (need_sib a0 =? 0))) by (unfold mb; rewrite app_length; destruct (need_modrm a0), (need_sib a0 =? 0); reflexivity).
    clearbody mb. destruct (need_disp a0) eqn:ND.
    - bok E2. bok E2. apply ok_inj in E2. injection E2 as <- <-.
      assert (SZ : v_size p = v_size (disp a0)) by (destruct (v_iprel (disp a0)); [apply delta_size in E; exact E|apply ok_inj in E; congruence]).
      split; [split; [cbn; lia|split; [exact X2|cbn; congruence]]|]. split; [unfold ea_size; cbn; rewrite SZ; reflexivity|].
      rewrite app_length, le_length, Nat2Z.inj_add, MB, Z2Nat.id by (apply Z.div_pos; lia). rewrite SZ. unfold ea_size. lia.
    - apply ok_inj in E2. injection E2 as <- <-. destruct (X3 eq_refl) as [X4 X5]. split; [split; auto|]. split; auto. rewrite MB. unfold ea_size. rewrite X4. change (0 / 8) with 0. lia. }
  clear E2. destruct B as (B1 & B2 & B3).
  assert (C : match imm with Some v => 0 <= v_size v | None => True end /\ match imm with Some v => imm_size (i_post i) v | None => 0 end = match i_imm i with Some v => imm_size (i_post i) v | None => 0 end /\
    Z.of_nat (length ib) = match i_imm i with Some v => imm_size (i_post i) v | None => 0 end).
  { destruct (i_imm i) as [v|]; [|apply ok_inj in E3; injection E3 as <- <-; auto]. bok E3. apply ok_inj in E3. injection E3 as <- <-. rewrite le_length.
    destruct (i_post i); cbn; rewrite ?Z2Nat.id by (apply Z.div_pos; lia); repeat split; auto; lia. }
  clear E3. destruct C as (C1 & C2 & C3). apply ok_inj in H. injection H as <- <-. split; [|split].
  - rewrite !app_length, !Nat2Z.inj_add, common_bytes_length, O3, C3, (opcode_bytes_length o O1) by lia. unfold isize. rewrite O2.
    assert (SP : Z.of_nat (length (if i_special i =? 0 then [] else [i_special i])) = b2z (negb (i_special i =? 0))) by (destruct (i_special i =? 0); reflexivity).
    rewrite SP. lia.
  - split; [exact O1|]. split; [cbn; lia|]. split; auto.
  - unfold isize. cbn [i_common i_special i_rex i_op i_ea i_imm i_post]. rewrite O2, B2, C2. reflexivity.
Qed.
Lemma copies_ok : forall n i bss, iwf i -> copies ov n (isize i) i = Ok bss -> length bss = n /\ Forall (fun b => Z.of_nat (length b) = isize i) bss.
Proof.
  induction n as [|n IH]; intros i bss W H; cbn [copies] in H; [apply ok_inj in H; subst; auto|]. bok H. destruct p as [i1 b]. bok H. apply ok_inj in H. subst bss.
  destruct (bytes_ok _ _ _ _ W E) as (L & W1 & S1). rewrite <- S1 in E0. apply IH in E0; auto. destruct E0 as [X Y]. rewrite S1 in Y. cbn. split; [lia|constructor; auto].
Qed.
Theorem insn_length : forall i i1 len1 sp ids i2 len n bss, insn_ok i -> insn_calc_len i = Ok (i1, len1, sp) ->
  expansions ids i1 len1 = Ok (i2, len) -> copies ov n len i2 = Ok bss -> length bss = n /\ Forall (fun b => Z.of_nat (length b) = len) bss.
Proof.
  intros i i1 len1 sp ids i2 len n bss OK H X C. destruct (calc_len_ok _ _ _ _ OK H) as [W ->]. destruct (expansions_ok _ _ _ _ _ W eq_refl X) as [W2 ->]. apply copies_ok; auto.
Qed.
(** * No internal errors *)
Definition rex_ok (bits rex : Z) : Prop := rex = 0 \/ rex = 255 \/ bits = 64.
Lemma set_rex_ok : forall rex reg bits k rex' low, set_rex rex reg bits k = Ok (rex', low) -> rex_ok bits rex -> rex_ok bits rex'.
Proof.
  intros rex reg bits k rex' low H R. unfold set_rex in H. destruct (bits =? 64) eqn:B; [right; right; apply Z.eqb_eq; exact B|].
  apply ok_inj in H. injection H as <- _. exact R.
Qed.
Lemma encode_rex : forall bits m base idx rex a a' rex', encode3264 bits m base idx rex a = Ok (a', rex') -> rex_ok bits rex -> rex_ok bits rex'.
Proof.
  intros bits m base idx rex a a' rex' H R. unfold M_X86.encode3264 in H.
  match type of H with (let (x, y) := ?t in _) = _ => destruct t as [b a1] end.
  ifd H; [apply ok_inj in H; injection H as _ <-; exact R|]. bok H. destruct p as [a2 r1].
  assert (R1 : rex_ok bits r1).
  { ifd E; [ifd E; apply ok_inj in E; injection E as _ <-; exact R|]. ifd E; [|apply ok_inj in E; injection E as _ <-; exact R].
    bok E. destruct p as [r l]. apply set_rex_ok in E0; auto. ifd E; apply ok_inj in E; injection E as _ <-; exact E0. }
  clear E. bok H. destruct p as [a3 r2]. bok H. apply ok_inj in H. injection H as _ <-. clear E0.
  ifd E; [|apply ok_inj in E; injection E as _ <-; exact R1]. bok E. destruct p0 as [r3 sb].
  assert (R3 : rex_ok bits r3) by (ifd E0; [apply ok_inj in E0; injection E0 as <- _; exact R1|apply set_rex_ok in E0; auto]).
  clear E0. bok E. destruct p0 as [r4 s]. apply ok_inj in E. injection E as _ <-.
  ifd E0; [apply ok_inj in E0; injection E0 as <- _; exact R3|]. bok E0. destruct p0 as [r5 l]. apply ok_inj in E0. injection E0 as <- _. ifd E; apply set_rex_ok in E; auto.
Qed.
Lemma checkea_rex : forall as0 bits a16 rex a a' asz rex', checkea as0 bits a16 rex a = Ok (a', asz, rex') -> rex_ok bits rex -> rex_ok bits rex'.
Proof.
  intros as0 bits a16 rex a a' asz rex' H R. unfold M_X86.checkea in H. bok H. ifd H.
  - bok H. destruct p0 as [a1 r1]. apply ok_inj in H. injection H as _ _ <-. unfold M_X86.check3264 in E0. ifd E0; [discriminate|]. bok E0. destruct p0 as [d s].
    destruct (find_regs _ _ _ _) as [[b1 i1]|]; [|discriminate]. destruct (adjust _ _ _ _ _) as [[[b2 i2] m']|]; [|discriminate]. destruct (check_regs _ _ _ _) as [[b3 i3]|]; [|discriminate].
    apply encode_rex in E0; auto.
  - ifd H; [bok H; apply ok_inj in H; injection H as _ _ <-; exact R|].
    repeat match type of H with (if ?b then _ else _) = _ => destruct b end; try discriminate H; apply ok_inj in H; injection H as _ _ <-; exact R.
Qed.
Lemma add_delta_good : forall d v, vgood v -> add_delta d v <> Bug /\ forall v', add_delta d v = Ok v' -> vgood v' /\ v_size v' = v_size v /\ v_rel v' = v_rel v.
Proof.
  intros d v G. unfold add_delta. unfold vgood in G. destruct (v_abs v) as [e|].
  - destruct (create_ok ADD (TExpr (fst e) (snd e)) (Some (TInt (create_int d)))) as (e' & -> & G' & _); auto; [exact Logic.I|cbn; lia|discriminate|]. split; [discriminate|]. intros v' H. apply ok_inj in H. subst v'. auto.
  - split; [discriminate|]. intros v' H. apply ok_inj in H. subst v'. split; auto. unfold vgood. cbn. repeat split; auto; discriminate.
Qed.
Lemma insert_forall : forall (P : item -> Prop) t l, P t -> Forall P l -> Forall P (insert t l) .
Proof. intros P t. induction l as [|x r IH]; intros H F; cbn [insert]; [auto|]. destruct (ty t <=? ty x); auto. inversion F; subst. auto. Qed.
Lemma order_forall : forall (P : item -> Prop) o l, Forall P l -> Forall P (order_terms o l).
Proof. intros P o l F. unfold order_terms. destruct (nary o); auto. induction F; cbn [fold_right]; auto using insert_forall. Qed.
Lemma insert_length : forall t l, length (insert t l) = S (length l).
Proof. intros t. induction l as [|x r IH]; cbn [insert]; auto. destruct (ty t <=? ty x); cbn [length]; auto. Qed.
Lemma order_length : forall o l, length (order_terms o l) = length l.
Proof. intros o l. unfold order_terms. destruct (nary o); auto. induction l; cbn [fold_right]; auto. rewrite insert_length. cbn. auto. Qed.
Hypothesis SD : forall s d, equ s = Some d -> shaped (eitem d).
Lemma dist_terms_shaped : forall F o l i s l' s', (forall t t' c, In t l -> shaped t -> F t = Ok (t', c) -> shaped t') -> Forall shaped l ->
  dist_terms F o i l s = Ok (l', s') -> Forall shaped l' /\ length l' = length l.
Proof.
  intros F o. induction l as [|t r IH]; intros i s l' s' FF S H; cbn [dist_terms] in H; [apply ok_inj in H; injection H as <- _; auto|]. inversion S; subst.
  bok H. destruct p as [t1 s1]. bok H. destruct p as [r1 s2]. apply ok_inj in H. injection H as <- _. apply IH in E0; auto; [|intros; eapply FF; eauto; right; auto]. destruct E0 as [E0 L]. split; [|cbn [length]; auto]. constructor; auto.
  destruct t; try (apply ok_inj in E; injection E as <- _; auto); try discriminate.
  - ifd E; [ifd E; [discriminate|]; apply ok_inj in E; injection E as <- _; auto|]. ifd E; [|discriminate]. apply ok_inj in E; injection E as <- _; auto.
  - ifd E; [|ifd E; [discriminate|]; apply ok_inj in E; injection E as <- _; auto]. ifd E; [discriminate|]. ifd E; [discriminate|]. bok E. destruct p as [t2 c]. apply ok_inj in E. injection E as <- _. apply (FF (TExpr o0 ts) t2 c); auto. left. auto.
Qed.
Lemma skipn_forall : forall A (P : A -> Prop) n l, Forall P l -> Forall P (skipn n l).
Proof. intros A P. induction n; intros l F; cbn; auto. destruct F; auto. Qed.
Lemma firstn_forall : forall A (P : A -> Prop) n l, Forall P l -> Forall P (firstn n l).
Proof. intros A P. induction n; intros l F; cbn; auto. destruct F; auto. Qed.
Lemma distcheck_shaped : forall n t t' c, shaped t -> distcheck n t = Ok (t', c) -> shaped t'.
Proof.
  induction n as [|n IH]; intros t t' c S H; [discriminate|]. destruct t as [| | | | | | |o ts]; try discriminate H. cbn [distcheck] in H. apply shaped_expr in S. destruct S as [A S].
  bok H. destruct p as [ts' s]. apply dist_terms_shaped in E; [|intros; eapply IH; eauto|auto]. destruct E as [E L]. rewrite <- L in A.
  assert (KEEP : shaped (TExpr o ts')) by (apply shaped_expr; auto).
  destruct (have_expr s) as [k|]; [|apply ok_inj in H; injection H as <- _; auto]. ifd H; [|apply ok_inj in H; injection H as <- _; auto].
  destruct (nth_error ts' k) as [x|] eqn:N; [|discriminate]. destruct x as [| | | | | | |ox us]; try discriminate. destruct ox; try discriminate. apply ok_inj in H. injection H as <- _.
  assert (SX : shaped (TExpr ADD us)) by (rewrite Forall_forall in E; apply E; eapply nth_error_In; eauto). apply shaped_expr in SX. destruct SX as [AX SX].
  apply shaped_expr. rewrite map_length. split; auto. rewrite Forall_map. eapply Forall_impl; [|exact SX]. intros u U. apply shaped_expr.
  assert (o = MUL) by (destruct o; try discriminate; auto). subst o. assert (K : (k < length ts')%nat) by (apply nth_error_Some; rewrite N; discriminate). split.
  - assert (LQ : length (firstn k ts' ++ u :: skipn (Datatypes.S k) ts') = length ts').
    { rewrite app_length, firstn_length. change (length (u :: skipn (Datatypes.S k) ts')) with (Datatypes.S (length (skipn (Datatypes.S k) ts'))). rewrite skipn_length. lia. }
    cbn [skipn] in LQ. rewrite LQ. exact A.
  - apply Forall_app. split; [apply firstn_forall; auto|]. constructor; auto. apply (skipn_forall item shaped (Datatypes.S k)); auto.
Qed.
Lemma scan_shaped : forall ord get ui l s l' s', Forall shaped l -> scan_terms ord get ui l s = Ok (l', s') -> Forall shaped l' /\ length l' = length l.
Proof.
  intros ord get ui. induction l as [|t r IH]; intros s l' s' F H; cbn [scan_terms] in H; [apply ok_inj in H; injection H as <- _; auto|]. inversion F; subst.
  bok H. destruct p as [t1 s1]. bok H. destruct p as [r1 s2]. apply ok_inj in H. injection H as <- _. apply IH in E0; auto. destruct E0 as [E0 L]. split; [|cbn; auto]. constructor; auto.
  destruct t; try (apply ok_inj in E; injection E as <- _; auto).
  - destruct (get r0); [|discriminate]. apply ok_inj in E; injection E as <- _; exact Logic.I.
  - apply shaped_expr in H2. destruct H2 as [A S]. assert (SO : Forall shaped (if ord then order_terms o ts else ts)) by (destruct ord; auto using order_forall).
    assert (LO : length (if ord then order_terms o ts else ts) = length ts) by (destruct ord; auto using order_length). rewrite <- LO in A. set (us := if ord then order_terms o ts else ts) in *. clearbody us.
    assert (KEEP : shaped (TExpr o us)) by (apply shaped_expr; auto).
    destruct us as [|[] us]; try (apply ok_inj in E; injection E as <- _; exact KEEP). destruct us as [|[] us]; try discriminate E; try (destruct ord; discriminate E).
    ifd E; [discriminate|]. destruct (get r0); [|discriminate]. apply ok_inj in E; injection E as <- _. apply shaped_expr. split; auto. inversion SO; subst. constructor; [exact Logic.I|auto].
Qed.
Lemma regs_shaped : forall get ui m0 e e' s, shaped (eitem e) -> regs_of get ui m0 e = Ok (e', s) -> shaped (eitem e').
Proof.
  intros get ui m0 [o ts] e' s S H. unfold eitem in S. cbn [fst snd] in S. pose proof S as S0. apply shaped_expr in S. destruct S as [A S]. unfold regs_of in H. cbv zeta in H.
  destruct o; try discriminate H.
  - bok H. destruct p as [l q]. apply ok_inj in H. injection H as <- _. apply scan_shaped in E; auto. destruct E as [E L]. apply shaped_expr. cbn [fst snd]. rewrite L. auto.
  - bok H. destruct p as [l q]. apply ok_inj in H. injection H as <- _. apply scan_shaped in E; auto. destruct E as [E L]. apply shaped_expr. cbn [fst snd]. rewrite L. auto.
  - pose proof (order_forall _ MUL _ S) as S2. pose proof (order_length MUL ts) as L2. rewrite <- L2 in A. set (us := order_terms MUL ts) in *. clearbody us.
    assert (KEEP : shaped (TExpr MUL us)) by (apply shaped_expr; auto).
    destruct us as [|[] us]; try (apply ok_inj in H; injection H as <- _; exact KEEP). destruct us as [|[] [|? ?]]; try discriminate H. destruct (get r); [|discriminate]. apply ok_inj in H. injection H as <- _.
    apply shaped_expr. split; auto. repeat constructor.
  - ifd H; [discriminate|]. apply ok_inj in H. injection H as <- _. exact S0.
Qed.
Lemma level_good : forall srm e e' st b, shaped (eitem e) -> level_tree nequ equ true true srm [] e = Fin (e', st, b) -> good (eitem e').
Proof.
  intros srm e e' st b SH H. destruct (level_tree_ok (fun _ _ => True) (fun _ _ => True) nequ equ srm [] e e' st b) as (G & _); auto.
Qed.
Lemma extract_shaped : forall e w e', shaped (eitem e) -> extract_wrt e = (w, e') -> shaped (eitem e').
Proof.
  intros [o ts] w e' S H. unfold extract_wrt in H. destruct o; try (injection H as _ <-; exact S). destruct ts as [|a [|b r]]; try (injection H as _ <-; exact S). injection H as _ <-.
  apply shaped_expr in S. destruct S as [_ S]. cbn [snd] in S. inversion S; subst. apply shaped_expr. split; [reflexivity|]. repeat constructor. assumption.
Qed.
Lemma of_shaped : forall t, shaped t -> shaped (eitem (of_item t)).
Proof. intros t S. destruct t; try exact S; apply shaped_expr; (split; [reflexivity|repeat constructor; exact S]). Qed.
Lemma prepare_shaped : forall get ui bits e e' m0 pc, shaped (eitem e) -> M_X86.prepare nequ equ get ui bits e = Ok (e', m0, pc) -> shaped (eitem e').
Proof.
  intros get ui bits e e' m0 pc S H. unfold M_X86.prepare in H. destruct (level_tree _ _ _ _ _ _ _) as [[[e1 ?] ?]| |] eqn:LT; try discriminate. apply level_good in LT; auto. apply good_shaped in LT.
  destruct (extract_wrt e1) as [w e2] eqn:X. apply extract_shaped in X; auto. bok H. destruct p as [m1 pc1]. clear E. bok H. destruct p as [t c]. apply distcheck_shaped in E; auto. apply of_shaped in E.
  destruct c; [|apply ok_inj in H; injection H as <- _ _; auto]. destruct (level_tree _ _ _ _ _ _ (of_item t)) as [[[e3 ?] ?]| |] eqn:LT2; try discriminate. apply ok_inj in H; injection H as <- _ _. apply level_good in LT2; auto. apply good_shaped; auto.
Qed.
Lemma usage_good : forall get ui bits d d' s, vgood d -> usage get ui bits d = Ok (d', s) -> vgood d'.
Proof.
  intros get ui bits d d' s G H. unfold M_X86.usage in H. unfold vgood in G. destruct (v_abs d) as [e0|] eqn:VA; [|apply ok_inj in H; injection H as <- _; unfold vgood; rewrite VA; auto].
  bok H. destruct p as [[e1 m0] pc]. apply prepare_shaped in E; [|apply good_shaped; auto]. bok H. destruct p as [e2 s2]. apply regs_shaped in E0; auto.
  destruct (simplify nequ equ label sect dist false e2) as [[[e' ?] ?]| |] eqn:SM; try discriminate. apply ok_inj in H. injection H as <- _. apply simplify_ok in SM; auto. destruct SM as [SM _]. destruct pc; exact SM.
Qed.
Lemma displen_good : forall w nr dr a a', vgood (disp a) -> calc_displen w nr dr a = Ok a' -> vgood (disp a').
Proof.
  intros w nr dr a a' G H. unfold M_X86.calc_displen in H. cbv zeta in H.
  repeat (first [ifd H|match type of H with match ?x with _ => _ end = _ => destruct x end]; try discriminate H); try (apply ok_inj in H; subst a'; destruct dr; exact G).
  bok H. destruct p as [n|]; [|apply ok_inj in H; subst a'; destruct dr; exact G].
  ifd H; [apply ok_inj in H; subst a'; destruct dr; exact Logic.I|]. ifd H; apply ok_inj in H; subst a'; destruct dr; exact G.
Qed.
Lemma encode_good : forall bits m base idx rex a a' rex', vgood (disp a) -> encode3264 bits m base idx rex a = Ok (a', rex') -> vgood (disp a').
Proof.
  intros bits m base idx rex a a' rex' G H. unfold M_X86.encode3264 in H.
  match type of H with (let (x, y) := ?t in _) = _ => assert (G1 : vgood (disp (snd t))) by (destruct ((base =? -1) && (idx =? -1) && pc_rel a); exact G); destruct t as [b a1] end. cbn [snd] in G1.
  ifd H; [apply ok_inj in H; injection H as <- _; exact G1|]. bok H. destruct p as [a2 r1].
  assert (R1 : vgood (disp a2)).
  { ifd E; [ifd E; apply ok_inj in E; injection E as <- _; exact G1|]. ifd E; [|apply ok_inj in E; injection E as <- _; exact G1].
    bok E. destruct p as [r l]. ifd E; apply ok_inj in E; injection E as <- _; exact G1. }
  clear E. bok H. destruct p as [a3 r2]. bok H. apply ok_inj in H. injection H as <- _. eapply displen_good; [|exact E0]. clear E0.
  ifd E; [|apply ok_inj in E; injection E as <- _; exact R1]. bok E. destruct p0 as [r3 sb]. bok E. destruct p0 as [r4 s]. apply ok_inj in E. injection E as <- _. exact R1.
Qed.
Lemma checkea_good : forall as0 bits a16 rex a a' asz rex', vgood (disp a) -> checkea as0 bits a16 rex a = Ok (a', asz, rex') -> vgood (disp a').
Proof.
  intros as0 bits a16 rex a a' asz rex' G H. unfold M_X86.checkea in H. bok H. ifd H.
  - bok H. destruct p0 as [a1 r1]. apply ok_inj in H. injection H as <- _ _. unfold M_X86.check3264 in E0. ifd E0; [discriminate|]. bok E0. destruct p0 as [d s]. apply usage_good in E1; [|destruct (pc_rel a && negb (bits =? 64)); exact G].
    destruct (find_regs _ _ _ _) as [[b1 i1]|]; [|discriminate]. destruct (adjust _ _ _ _ _) as [[[b2 i2] m']|]; [|discriminate]. destruct (check_regs _ _ _ _) as [[b3 i3]|]; [|discriminate].
    eapply encode_good; [|exact E0]. exact E1.
  - ifd H.
    + bok H. apply ok_inj in H. injection H as <- _ _. unfold M_X86.check16 in E0. ifd E0; [discriminate|]. cbv zeta in E0. bok E0. destruct p1 as [d s]. apply usage_good in E1; [|exact G]. ifd E0; [discriminate|]. ifd E0; [discriminate|]. eapply displen_good; [|exact E0]. exact E1.
    + repeat match type of H with (if ?b then _ else _) = _ => destruct b end; try discriminate H; apply ok_inj in H; injection H as <- _ _; exact G.
Qed.
Definition inb (i : insn) : Prop :=
  match i_ea i with Some a => valids a /\ vgood (disp a) | None => True end /\ match i_imm i with Some v => vgood v | None => True end /\ rex_ok (mode (i_common i)) (i_rex i) /\
  (i_special i = 197 -> i_rex i = 255 \/ Z.land (i_rex i) 11 = 0) /\ (i_post i = SignExt8 -> op_len (i_op i) <= 2).
Lemma calc_len_inb : forall i i' len sp, insn_ok i -> insn_mode i -> insn_calc_len i = Ok (i', len, sp) -> inb i'.
Proof.
  intros i i' len sp (OL & ON & HE & HI) (M1 & M2 & M3 & M4 & M5 & M6 & M7) H. unfold M_X86.insn_calc_len in H. bok H. destruct p as [[[[c a] rex] len1] sp1]. rename E into E1. bok H. destruct p as [[[[o1 imm] post] len2] sp2]. rename E into E2.
  assert (A : match a with Some a => valids a /\ vgood (disp a) | None => True end /\ mode c = mode (i_common i) /\ rex_ok (mode c) rex).
  { destruct (i_ea i) as [a0|]; [|apply ok_inj in E1; injection E1 as <- <- <- <- <-; auto]. destruct HE as (HM & HS & HG). destruct (made_pre _ HM HS HG) as (P1 & P2 & P3).
    bok E1. destruct p as [[a1 asz] rx]. pose proof (checkea_rex _ _ _ _ _ _ _ _ E M3) as RX. pose proof (checkea_good _ _ _ _ _ _ _ _ M6 E) as GX. apply checkea_ok in E; auto. destruct E as [_ V]. specialize (V M2 M1 P2).
    destruct ((v_size (disp a1) =? 0) && nonzero a1); apply ok_inj in E1; apply pair_inj in E1; destruct E1 as [E1 _]; apply pair_inj in E1; destruct E1 as [E1 _]; apply pair_inj in E1; destruct E1 as [E1 <-]; apply pair_inj in E1; destruct E1 as [<- <-]; (split; [split; [exact V|exact GX]|split; [reflexivity|exact RX]]). }
  clear E1 HE. destruct A as (VA & MC & RX).
  assert (B : (post = SignExt8 -> op_len o1 <= 2) /\ match imm with Some v => vgood v | None => True end).
  { destruct (i_imm i) as [v|]; [|apply ok_inj in E2; injection E2 as <- <- <- <- <-; auto].
    destruct (i_post i); try (apply ok_inj in E2; injection E2 as <- <- <- <- <-; split; auto; discriminate).
    bok E2. destruct p as [n|]; [|apply ok_inj in E2; injection E2 as <- <- <- <- <-; auto].
    ifd E2; [apply ok_inj in E2; injection E2 as <- <- <- <- <-; split; [discriminate|exact M7]|].
    bok E2. apply ok_inj in E2. injection E2 as <- <- <- <- <-. split; [discriminate|exact M7]. }
  destruct B as [B BI].
  cbv zeta in H. apply ok_inj in H. apply pair_inj in H. destruct H as [H _]. apply pair_inj in H. destruct H as [H _]. subst i'.
  match goal with |- context[if ?b then 197 else _] => set (short := b) end.
  assert (SH : short = true -> rex = 255 \/ Z.land rex 11 = 0) by (unfold short; intros Q; rewrite !andb_true_iff in Q; destruct Q as [_ Q]; apply orb_true_iff in Q; rewrite !Z.eqb_eq in Q; exact Q).
  clearbody short. split; [exact VA|]. split; [exact BI|]. split; [exact RX|]. split.
  - cbn [i_special i_rex]. destruct short; [auto|]. intros Q. contradiction.
  - cbn [i_post i_op]. intros Q. destruct short; [cbn; lia|auto].
Qed.
Lemma op_second_nb : forall o, length (op_bytes o) = 3%nat -> 0 <= op_len o <= 2 -> op_second o <> Bug.
Proof.
  intros o L N H. unfold op_second in H. apply bind_bug in H. destruct H as [H|(b & _ & H)]; [|discriminate]. unfold op_next in H. destruct (nth_error _ _) eqn:E; [discriminate|]. apply nth_error_None in E. lia.
Qed.
Lemma expand_inb : forall sp i len, iwf i -> inb i -> insn_expand sp i len <> Bug /\ forall i' len', insn_expand sp i len = Ok (i', len') -> inb i'.
Proof.
  intros sp i len (W1 & W2 & W3 & W4) (N1 & N0 & N2 & N3 & N4). unfold insn_expand.
  match goal with |- context [let (i1, len1) := ?x in _] => destruct x as [i1 len1] eqn:Q end.
  assert (A : inb i1 /\ i_op i1 = i_op i).
  { destruct (i_ea i) as [a|] eqn:EA; [|injection Q as <- <-; split; auto; unfold inb; rewrite EA; auto]. destruct ((sp =? 1) && (v_size (disp a) =? 8)) eqn:C; [|injection Q as <- <-; split; auto; unfold inb; rewrite EA; auto].
    apply (f_equal fst) in Q. cbn [fst] in Q. subst i1. split; [|reflexivity]. split; [exact N1|]. auto. }
  clear Q. destruct A as [A OP].
  assert (KEEP : Ok (i1, len1) <> Bug /\ forall i' len', Ok (i1, len1) = Ok (i', len') -> inb i') by (split; [discriminate|intros i' len' K; apply ok_inj in K; injection K as <- <-; exact A]).
  destruct (i_imm i1) as [v|] eqn:EI; auto. destruct (i_post i1) eqn:EP; auto. destruct (sp =? 2); auto.
  destruct A as (A1 & A2 & A3 & A4 & A5). specialize (A5 EP). split.
  - intros K. apply bind_bug in K. destruct K as [K|(b & _ & K)]; [|discriminate]. revert K. apply op_second_nb; rewrite OP in *; auto; lia.
  - intros i' len' K. bok K. apply ok_inj in K. injection K as <- _. split; [exact A1|]. split; [rewrite EI in A2; exact A2|]. split; [exact A3|]. split; [exact A4|]. discriminate.
Qed.
Lemma expansions_inb : forall ids i len, iwf i -> len = isize i -> inb i -> expansions ids i len <> Bug /\ forall i' len', expansions ids i len = Ok (i', len') -> inb i'.
Proof.
  induction ids as [|k r IH]; intros i len W L N; cbn [expansions]; [split; [discriminate|intros i' len' H; apply ok_inj in H; injection H as <- <-; auto]|].
  destruct (expand_inb k i len W N) as [X Y]. destruct (insn_expand k i len) as [[i1 l1]| |] eqn:E; [|split; [discriminate|discriminate]|congruence].
  cbn [bind]. destruct (expand_ok _ _ _ _ _ W L E) as [W1 L1]. apply IH; eauto.
Qed.
Lemma bytes_inb : forall len i, no_bug ov -> inb i -> insn_bytes len i <> Bug /\ forall i' bs, insn_bytes len i = Ok (i', bs) -> inb i'.
Proof.
  intros len i NB1 (N1 & N0 & N2 & N3 & N4). split.
  - intros H. unfold M_X86.insn_bytes in H. apply bind_bug in H. destruct H as [H|([o rb] & _ & H)].
    { ifd H; [discriminate|]. ifd H.
      - apply Z.eqb_eq in Heqb0. specialize (N3 Heqb0). ifd H; [|discriminate]. apply andb_true_iff in Heqb1. rewrite !negb_true_iff, !Z.eqb_neq in Heqb1. tauto.
      - ifd H; [|discriminate]. ifd H; [|discriminate]. apply andb_true_iff in Heqb1. rewrite !negb_true_iff, !Z.eqb_neq in *. unfold rex_ok in N2. tauto. }
    apply bind_bug in H. destruct H as [H|([a eb] & _ & H)].
    { destruct (i_ea i) as [a0|]; [|discriminate]. destruct N1 as [[V1 V2] GA]. ifd H; [apply andb_true_iff in Heqb; destruct Heqb as [Q1 Q2]; rewrite (V1 Q1) in Q2; discriminate|].
      ifd H; [apply andb_true_iff in Heqb0; destruct Heqb0 as [Q1 Q2]; apply negb_true_iff, Z.eqb_neq in Q1; rewrite (V2 Q1) in Q2; discriminate|]. cbv zeta in H.
      ifd H; [|discriminate]. apply bind_bug in H. destruct H as [H|(d & ED & H)]; [ifd H; [exact (proj1 (add_delta_good _ _ GA) H)|discriminate]|].
      assert (GD : vgood d) by (ifd ED; [apply (add_delta_good _ _ GA) in ED; tauto|apply ok_inj in ED; subst d; exact GA]). apply bind_bug in H. destruct H as [H|(x & _ & H)]; [exact (NB1 _ GD H)|discriminate]. }
    apply bind_bug in H. destruct H as [H|([imm ib] & _ & H)]; [|discriminate]. destruct (i_imm i) as [v|]; [|discriminate]. cbv zeta in H. apply bind_bug in H. destruct H as [H|(x & _ & H)]; [|discriminate]. refine (NB1 _ _ H). destruct (i_post i); exact N0.
  - intros i' bs H. unfold M_X86.insn_bytes in H. bok H. destruct p as [o rb]. rename E into E1. bok H. destruct p as [a eb]. rename E into E2. bok H. destruct p as [imm ib]. apply ok_inj in H. apply (f_equal fst) in H. cbn [fst] in H. subst i'.
    split; [|split; [|split; [exact N2|split; [exact N3|]]]].
    + cbn [i_ea]. destruct (i_ea i) as [a0|]; [|apply ok_inj in E2; injection E2 as <- <-; exact Logic.I]. ifd E2; [discriminate|]. ifd E2; [discriminate|]. cbv zeta in E2. ifd E2.
      * bok E2. bok E2. apply ok_inj in E2. injection E2 as <- _. destruct N1 as [N1 GA]. split; [exact N1|]. change (vgood p). ifd E0; [apply (add_delta_good _ _ GA) in E0; tauto|apply ok_inj in E0; subst p; exact GA].
      * apply ok_inj in E2. injection E2 as <- _. exact N1.
    + cbn [i_imm]. destruct (i_imm i) as [v|]; [|apply ok_inj in E; injection E as <- _; exact Logic.I]. cbv zeta in E. bok E. apply ok_inj in E. injection E as <- _. destruct (i_post i); exact N0.
    + cbn [i_post i_op]. intros Q. specialize (N4 Q). replace (op_len o) with (op_len (i_op i)); [exact N4|].
      ifd E1; [apply ok_inj in E1; injection E1 as <- _; match goal with |- context[if ?b then op_set 1 _ _ else _] => destruct b end; reflexivity|].
      ifd E1; [ifd E1; [discriminate|]; apply ok_inj in E1; injection E1 as <- _; reflexivity|].
      ifd E1; [ifd E1; [discriminate|]|]; apply ok_inj in E1; injection E1 as <- _; reflexivity.
Qed.
Lemma copies_inb : forall n len i, no_bug ov -> inb i -> copies ov n len i <> Bug.
Proof.
  induction n as [|n IH]; intros len i NB N H; cbn [copies] in H; [discriminate|]. destruct (bytes_inb len i NB N) as [X Y]. apply bind_bug in H. destruct H as [H|([i1 b] & E & H)]; [auto|].
  apply bind_bug in H. destruct H as [H|(x & _ & H)]; [|discriminate]. exact (IH _ _ NB (Y _ _ E) H).
Qed.
Theorem insn_no_bug : forall i i1 len1 sp ids, insn_ok i -> insn_mode i -> insn_calc_len i = Ok (i1, len1, sp) ->
  expansions ids i1 len1 <> Bug /\ forall i2 len n, no_bug ov -> expansions ids i1 len1 = Ok (i2, len) -> copies ov n len i2 <> Bug.
Proof.
  intros i i1 len1 sp ids OK MD H. destruct (calc_len_ok _ _ _ _ OK H) as [W L]. pose proof (calc_len_inb _ _ _ _ OK MD H) as N. destruct (expansions_inb ids i1 len1 W L N) as [X Y].
  split; auto. intros i2 len n NB E. apply copies_inb; eauto.
Qed.
End Check.

(** * Jumps *)
Definition is_short (s : sel) : bool := match s with JShort | JShortForced => true | _ => false end.
Definition jsize (j : jmp) : Z := common_len (j_common j) + (if is_short (j_sel j) then op_len (j_short j) + 1 else op_len (j_near j) + near_size j).
Definition jwf (j : jmp) : Prop :=
  length (op_bytes (j_short j)) = 3%nat /\ 0 <= op_len (j_short j) <= 3 /\ length (op_bytes (j_near j)) = 3%nat /\ 0 <= op_len (j_near j) <= 3 /\ j_sel j <> JNone /\
  (is_short (j_sel j) = true -> op_len (j_short j) <> 0) /\ (is_short (j_sel j) = false -> op_len (j_near j) <> 0).
Lemma jmp_calc_ok : forall local j j' len sp, jmp_ok j -> jmp_calc_len local j = Ok (j', len, sp) ->
  jwf j' /\ len = jsize j' /\ (sp <> [] -> is_short (j_sel j') = true) /\ Forall (fun s => span_id s = 1) sp /\
  j_common j' = j_common j /\ j_short j' = j_short j /\ j_near j' = j_near j /\ j_target j' = j_target j /\ (length sp <= 1)%nat.
Proof.
  intros local j j' len sp (S1 & S2 & N1 & N2 & SL) H. unfold jmp_calc_len in H. cbv zeta in H. destruct j as [c s n t q]. cbn [j_common j_short j_near j_target j_sel set_sel] in *.
  ifd H.
  - ifd H; [discriminate|]. apply ok_inj in H. apply pair_inj in H. destruct H as [H <-]. apply pair_inj in H. destruct H as [<- <-]. apply Z.eqb_neq in Heqb0.
    destruct (op_len s =? 0) eqn:Z0; unfold jwf, jsize; cbn [j_common j_short j_near j_target j_sel set_sel is_short length]; [repeat split; auto; try discriminate; try (intros; congruence); try lia; rewrite Z.add_assoc; reflexivity|].
    rewrite orb_false_r in Heqb. destruct q; try discriminate Heqb. cbn [is_short]. repeat split; auto; try discriminate; try (intros; congruence); lia.
  - apply orb_false_iff in Heqb. destruct Heqb as [Q1 Q2]. apply Z.eqb_neq in Q2. ifd H.
    + ifd H.
      * apply ok_inj in H. apply pair_inj in H. destruct H as [H <-]. apply pair_inj in H. destruct H as [<- <-].
        assert (X : exists q', (if is_none q then set_sel JShort (Jmp c s n t q) else Jmp c s n t q) = Jmp c s n t q' /\ is_short q' = true /\ q' <> JNone).
        { destruct q; try discriminate Q1; try (exists JShort; repeat split; (reflexivity || discriminate)); [destruct SL as [SL|[SL|SL]]; discriminate SL|exists JShortForced; repeat split; (reflexivity || discriminate)]. }
        destruct X as (q' & -> & X1 & X2). unfold jwf, jsize. cbn [j_common j_short j_near j_target j_sel set_sel length]. rewrite X1. repeat split; auto; try discriminate; try (intros; congruence); try lia.
      * apply orb_false_iff in Heqb0. destruct Heqb0 as [_ Q3]. apply Z.eqb_neq in Q3. apply ok_inj in H. apply pair_inj in H. destruct H as [H <-]. apply pair_inj in H. destruct H as [<- <-].
        unfold jwf, jsize. cbn [j_common j_short j_near j_target j_sel set_sel is_short length]. repeat split; auto; try discriminate; try (intros; congruence); lia.
    + apply ok_inj in H. apply pair_inj in H. destruct H as [H <-]. apply pair_inj in H. destruct H as [<- <-].
      assert (X : exists q', (if is_none q then set_sel JShort (Jmp c s n t q) else Jmp c s n t q) = Jmp c s n t q' /\ is_short q' = true /\ q' <> JNone).
      { destruct q; try discriminate Q1; try (exists JShort; repeat split; (reflexivity || discriminate)); [destruct SL as [SL|[SL|SL]]; discriminate SL|exists JShortForced; repeat split; (reflexivity || discriminate)]. }
      destruct X as (q' & -> & X1 & X2). unfold jwf, jsize. cbn [j_common j_short j_near j_target j_sel set_sel length]. rewrite X1. repeat split; auto; try discriminate; try (intros; congruence); try lia.
Qed.
