(** Unwind information of win64 objects: C84, C85, C86. *)
From Coq Require Import ZArith List Bool Lia.
From Verif Require Import Lib LibBits M_BitVect P_BitVect P_BitVectIO M_Intnum P_Intnum P_IntnumIO M_Expr P_Expr M_Win64 P_Win64 P_Win64L P_Win64T P_Win64A.
Import ListNotations.
Open Scope Z_scope.

(** C84.  When there is neither error nor warning, the source consists of procedures, and for each there is an entry in .pdata: its
    start, its size, and (from the next 4-byte boundary) an UNWIND_INFO which read back by the rules of the format describes the
    procedure; offsets modulo the width of their fields, exactly when the procedure is [natural]. *)
Theorem C84_roundtrip : forall W es, world_ok W -> Forall event_ok es -> o_errs (assemble W es) = [] -> o_warns (assemble W es) = [] ->
  exists ps, Forall proc_ok ps /\ dirs es = flat_map text ps /\ Forall2 (unwinds W (o_xdata (assemble W es)) (o_refs (assemble W es))) ps (o_pdata (assemble W es)).
Proof. exact roundtrip. Qed.
Print Assumptions C84_roundtrip.
(** C84.  The pointers are at 4-byte boundaries themselves when the data the source puts into .xdata has lengths that are multiples of 4. *)
Theorem C84_aligned : forall W es e, world_ok W -> Forall event_ok es -> o_errs (assemble W es) = [] -> o_warns (assemble W es) = [] ->
  (forall l, In (Data l) es -> (4 | Z.of_nat (length l))) -> In e (o_pdata (assemble W es)) -> up4 (pe_unwind e) = pe_unwind e.
Proof. exact aligned. Qed.
Print Assumptions C84_aligned.

Definition const (n : Z) : offs := Off (Some (IL n)) [] (Some (IL n)).
Definition W1 : world := fun f => if f =? 1 then Some (0, 16) else None.
Lemma W1_ok : world_ok W1.
Proof. intros f p H. unfold W1 in H. destruct (f =? 1); [|discriminate H]. assert (p = (0, 16)) by congruence. subst. unfold pos_ok. cbn. lia. Qed.
(** C84.  Otherwise the pointer is to the padding before the information, and nothing is reported. *)
Theorem C84_pointer_refuted : exists W es p e, world_ok W /\ Forall event_ok es /\ o_errs (assemble W es) = [] /\ o_warns (assemble W es) = [] /\
  proc_ok p /\ dirs es = text p /\ natural W p /\ o_pdata (assemble W es) = [e] /\ decode (o_xdata (assemble W es)) (o_refs (assemble W es)) (pe_unwind e) = None.
Proof.
  exists W1, (Data [7] :: text (Proc (0, 16) 1 None [((0, 17), PUSHREG (Some 5))] (0, 18) (0, 30))), (Proc (0, 16) 1 None [((0, 17), PUSHREG (Some 5))] (0, 18) (0, 30)), (Pentry 1 14 1).
  split; [exact W1_ok|]. split; [repeat constructor; cbn; try lia; discriminate|]. repeat match goal with |- _ /\ _ => split end; try (vm_compute; reflexivity). repeat constructor; cbn; try lia; discriminate.
  repeat constructor; vm_compute; congruence.
Qed.
Print Assumptions C84_pointer_refuted.
(** C84.  A directive before the label of the procedure is given another prologue offset, and nothing is reported. *)
Theorem C84_before_refuted : exists W es p e, world_ok W /\ Forall event_ok es /\ o_errs (assemble W es) = [] /\ o_warns (assemble W es) = [] /\
  proc_ok p /\ dirs es = text p /\ Forall (fun x => forall o, offs_of (snd x) = Some o -> early o <> None) (p_ops p) /\ o_pdata (assemble W es) = [e] /\ decode (o_xdata (assemble W es)) (o_refs (assemble W es)) (up4 (pe_unwind e)) <> Some (describe_exactly W p).
Proof.
  exists W1, (text (Proc (0, 8) 1 None [((0, 8), PUSHREG (Some 5))] (0, 18) (0, 30))), (Proc (0, 8) 1 None [((0, 8), PUSHREG (Some 5))] (0, 18) (0, 30)), (Pentry 1 14 0).
  split; [exact W1_ok|]. split; [repeat constructor; cbn; try lia; discriminate|]. split; [vm_compute; reflexivity|]. split; [vm_compute; reflexivity|]. split; [repeat constructor|]. split; [reflexivity|].
  split; [constructor; [intros o H; discriminate H|constructor]|]. split; [vm_compute; reflexivity|]. vm_compute. discriminate.
Qed.
Print Assumptions C84_before_refuted.
(** C84.  An offset that becomes negative after its code was enlarged is stored as an unsigned number, and nothing is reported. *)
Theorem C84_negative_refuted : exists W es p e, world_ok W /\ Forall event_ok es /\ o_errs (assemble W es) = [] /\ o_warns (assemble W es) = [] /\
  proc_ok p /\ dirs es = text p /\ Forall (fun x => 0 <= rel W p (fst x)) (p_ops p) /\ o_pdata (assemble W es) = [e] /\ decode (o_xdata (assemble W es)) (o_refs (assemble W es)) (up4 (pe_unwind e)) <> Some (describe_exactly W p).
Proof.
  exists W1, (text (Proc (0, 16) 1 None [((0, 20), ALLOCSTACK (Some (Off None [524288] (Some (IL (-8))))))] (0, 20) (0, 30))), (Proc (0, 16) 1 None [((0, 20), ALLOCSTACK (Some (Off None [524288] (Some (IL (-8))))))] (0, 20) (0, 30)), (Pentry 1 14 0).
  split; [exact W1_ok|]. split; [|repeat match goal with |- _ /\ _ => split end; try (vm_compute; reflexivity)].
  - repeat constructor; try (cbn; lia); intros; try discriminate; match goal with H : offs_of _ = Some ?o |- _ => assert (o = Off None [524288] (Some (IL (-8)))) by (cbn [offs_of snd] in H; congruence); subst end; cbn in *; try discriminate; match goal with H : Some (IL ?n) = Some ?i |- canon ?i => assert (i = IL n) by congruence; subst; cbn; lia end.
  - repeat constructor.
  - repeat constructor. vm_compute. discriminate.
  - vm_compute. discriminate.
Qed.
Print Assumptions C84_negative_refuted.

(** C85.  Procedures within the limits of the format are accepted, and what is read back describes them exactly. *)
Theorem C85_accepts : forall W es ps, world_ok W -> Forall event_ok es -> Forall proc_ok ps -> dirs es = flat_map text ps -> Forall (within W) ps ->
  o_errs (assemble W es) = [] /\ o_warns (assemble W es) = [] /\
  Forall2 (fun p e => pe_proc e = p_sym p /\ pe_size e = rel W p (p_end p) /\ decode (o_xdata (assemble W es)) (o_refs (assemble W es)) (up4 (pe_unwind e)) = Some (describe_exactly W p)) ps (o_pdata (assemble W es)).
Proof. exact accepts. Qed.
Print Assumptions C85_accepts.
(** C85.  The code of a directive with a constant offset is written without complaint exactly for the offsets allowed below 2^31. *)
Theorem C85_constant : forall W f p d o i k, world_ok W -> pos_ok p -> op_ok d -> with_offset d -> offs_of d = Some o -> constant i o -> canon i -> dist W p f = Some k -> - 128 <= k <= 255 ->
  (exists x, code_out W (code_of f (p, d)) = (x, [], [])) <-> allowed d (ival i) /\ ival i < 2 ^ 31.
Proof. exact constant_iff. Qed.
Print Assumptions C85_constant.
(** C85.  It is a shortest one: no shorter bytes read the same. *)
Theorem C85_shortest : forall W f p d o i x y k, world_ok W -> pos_ok p -> op_ok d -> with_offset d -> offs_of d = Some o -> constant i o -> canon i -> code_out W (code_of f (p, d)) = (x, [], []) ->
  Forall byte y -> slots y = Some [(k, says d)] -> (length x <= length y)%nat.
Proof. exact shortest. Qed.
Print Assumptions C85_shortest.
Definition two31 : intnum := IB (BV 256 [2147483648; 0; 0; 0; 0; 0; 0; 0]).
Lemma two31_ok : canon two31 /\ ival two31 = 2 ^ 31.
Proof. split; [apply canonb_ok|]; vm_compute; reflexivity. Qed.
(** C85.  Sizes from 2^31, which the format can express, are refused. *)
Theorem C85_range_refuted : exists d o i y k, op_ok d /\ offs_of d = Some o /\ constant i o /\ canon i /\ allowed d (ival i) /\ ival i < 2 ^ 32 /\ slots y = Some [(k, says_exactly d)] /\
  forall W f p, snd (fst (code_out W (code_of f (p, d)))) <> [].
Proof.
  exists (ALLOCSTACK (Some (Off (Some two31) [] (Some two31)))), (Off (Some two31) [] (Some two31)), two31, [4; 17; 0; 0; 0; 128], 4.
  split; [exact I|]. split; [reflexivity|]. split; [repeat constructor|]. split; [apply two31_ok|]. rewrite (proj2 two31_ok). split; [cbn [allowed]; split; [lia|exists (2 ^ 28); reflexivity]|]. split; [lia|]. split; [vm_compute; reflexivity|].
  intros W f p. unfold code_out. assert (C : snd (size_code (code_of f (p, ALLOCSTACK (Some (Off (Some two31) [] (Some two31)))))) <> []) by (unfold size_code, calc_len; cbn [code_of snd fst c_op c_off early_of early]; vm_compute; discriminate). destruct (size_code _) as [b es]. destruct (code_bytes _ _ _) as [[x e] w]. cbn [fst snd] in *. destruct es; [congruence|discriminate].
Qed.
Print Assumptions C85_range_refuted.

(** C86.  Exactly the sequences of complete procedures pass the directives: each PROC_FRAME is followed by directives describing
    the prologue with the parameters they need, one ENDPROLOG, and ENDPROC_FRAME, before the next. *)
Theorem C86_source : forall es, (errs (run es) = [] /\ frame (run es) = false) <-> exists ps, Forall proc_ok ps /\ dirs es = flat_map text ps.
Proof. exact source. Qed.
Print Assumptions C86_source.

(** * Examples *)
(** The procedure of the manual: a pushed register, an allocation, a frame register, two saved registers, and a handler; its
    information as bytes, and read back.  It is within the limits. *)
Definition sample : proc := Proc (0, 16) 1 (Some 2)
  [((0, 17), PUSHREG (Some 5)); ((0, 21), ALLOCSTACK (Some (const 64))); ((0, 26), SETFRAME (Some 5) (Some (const 32)));
   ((0, 30), SAVEXMM128 (Some 7) (Some (const 32))); ((0, 35), SAVEREG (Some 6) (Some (const 56)))] (0, 35) (0, 80).
Lemma const_ok : forall n, - 2 ^ 31 < n < 2 ^ 31 -> offs_ok (const n).
Proof. intros n R. split; intros i H; cbn [const early late] in *; [auto|]. assert (i = IL n) by congruence. subst. exact R. Qed.
Lemma const_fine : forall n, - 2 ^ 31 < n < 2 ^ 31 -> constant (IL n) (const n) /\ canon (IL n).
Proof. intros n R. split; [repeat constructor|exact R]. Qed.
Example sample_ok : Forall event_ok (text sample) /\ proc_ok sample /\ within W1 sample.
Proof.
  split; [|split].
  - unfold text, sample. cbn [p_start p_sym p_hnd p_ops p_prolog p_end map app fst snd].
    repeat (constructor; [cbn [event_ok]; split; [unfold pos_ok; cbn [snd]; lia|cbn [offs_of]; intros o H; first [discriminate H | match type of H with Some ?c = Some _ => assert (o = c) by congruence; subst o; apply const_ok; lia end]]|]). constructor.
  - unfold proc_ok, sample. cbn [p_ops]. repeat (constructor; [exact I|]). constructor.
  - exists 0, 16. split; [reflexivity|]. split; [reflexivity|]. split; [reflexivity|]. split; [vm_compute; split; discriminate|]. split.
    + unfold sample at 2. cbn [p_ops]. repeat (constructor; [split; [reflexivity|split; [vm_compute; split; discriminate|cbn [snd fine]]]|]); try exact I.
      * exists (IL 64). split; [apply const_fine; lia|]. split; [apply const_fine; lia|]. cbn [allowed ival]. split; [split; [lia|exists 8; reflexivity]|lia].
      * exists (IL 32). split; [apply const_fine; lia|]. split; [apply const_fine; lia|]. cbn [ival]. split; [lia|exists 2; reflexivity].
      * exists (IL 32). split; [apply const_fine; lia|]. split; [apply const_fine; lia|]. cbn [allowed ival]. split; [split; [lia|exists 2; reflexivity]|lia].
      * exists (IL 56). split; [apply const_fine; lia|]. split; [apply const_fine; lia|]. cbn [allowed ival]. split; [split; [lia|exists 7; reflexivity]|lia].
      * constructor.
    + cbv. lia.
Qed.
Example sample_bytes : assemble W1 (text sample) =
  Object [9; 19; 7; 37;  19; 100; 7; 0;  14; 120; 2; 0;  10; 83;  5; 114;  1; 80;  0; 0;  0; 0; 0; 0] [(20, 2)] [Pentry 1 64 0] [] [].
Proof. vm_compute. reflexivity. Qed.
Example sample_read : decode (o_xdata (assemble W1 (text sample))) (o_refs (assemble W1 (text sample))) 0 =
  Some (Unwound 19 (5, 32) [(19, SaveReg 6 56); (14, SaveXmm 7 32); (10, SetFp); (5, Alloc 64); (1, Push 5)] (Some 2)).
Proof. vm_compute. reflexivity. Qed.
(** Sizes: the three forms of an allocation, at their bounds. *)
Example forms : map (fun n => code_out W1 (code_of 1 ((0, 20), ALLOCSTACK (Some (const n))))) [8; 128; 136; 524280; 524288] =
  [([4; 2], [], []); ([4; 242], [], []); ([4; 1; 17; 0], [], []); ([4; 1; 255; 255], [], []); ([4; 17; 0; 0; 8; 0], [], [])].
Proof. vm_compute. reflexivity. Qed.
(** Refused: not a multiple of 8, zero; an ENDPROLOG missing. *)
Example refused : map (fun n => snd (fst (code_out W1 (code_of 1 ((0, 20), ALLOCSTACK (Some (const n))))))) [12; 0] = [[NotMultiple; NotMultiple]; [Negative; OffsetRange]] /\
  errs (run [At (0, 16) (PROC_FRAME 1 None); At (0, 17) (PUSHREG (Some 5)); At (0, 30) ENDPROC_FRAME]) = [NoPrologueEnd].
Proof. split; vm_compute; reflexivity. Qed.
