(** Specification and proofs for the unwind information of win64 objects (C84, C85, C86). *)
From Coq Require Import ZArith List Bool Lia.
From Verif Require Import Lib LibBits M_BitVect P_BitVect P_BitVectIO M_Intnum P_Intnum P_IntnumIO M_Win64.
Import ListNotations.
Open Scope Z_scope.

(** * Specification *)
(** ** The format: UNWIND_INFO of the x64 exception handling ABI *)
Inductive uop := Push (r : Z) | Alloc (n : Z) | SetFp | SaveReg (r n : Z) | SaveXmm (r n : Z) | MachFrame (code : bool).
(** The array of codes: slots of two bytes, the prologue offset and the operation with its operand;
    some operations are followed by one or two slots with a number. *)
Definition le16 (a b : Z) : Z := a + 256 * b.
Definition le32 (a b c d : Z) : Z := a + 256 * (b + 256 * (c + 256 * d)).
Definition also (x : Z * uop) (o : option (list (Z * uop))) : option (list (Z * uop)) := match o with Some l => Some (x :: l) | None => None end.
Fixpoint slots (l : list Z) : option (list (Z * uop)) :=
  match l with
  | [] => Some []
  | o :: x :: l =>
      let info := x / 16 in
      match x mod 16 with
      | 0 => also (o, Push info) (slots l)
      | 1 => if info =? 0 then match l with a :: b :: l => also (o, Alloc (8 * le16 a b)) (slots l) | _ => None end
             else if info =? 1 then match l with a :: b :: c :: d :: l => also (o, Alloc (le32 a b c d)) (slots l) | _ => None end
             else None
      | 2 => also (o, Alloc (8 * info + 8)) (slots l)
      | 3 => also (o, SetFp) (slots l)
      | 4 => match l with a :: b :: l => also (o, SaveReg info (8 * le16 a b)) (slots l) | _ => None end
      | 5 => match l with a :: b :: c :: d :: l => also (o, SaveReg info (le32 a b c d)) (slots l) | _ => None end
      | 8 => match l with a :: b :: l => also (o, SaveXmm info (16 * le16 a b)) (slots l) | _ => None end
      | 9 => match l with a :: b :: c :: d :: l => also (o, SaveXmm info (le32 a b c d)) (slots l) | _ => None end
      | 10 => if info <=? 1 then also (o, MachFrame (info =? 1)) (slots l) else None
      | _ => None
      end
  | _ => None
  end.
(** What an UNWIND_INFO says: size of the prologue, frame register and offset, the operations with
    their prologue offsets, the handler. *)
Record unwound := Unwound { w_prolog : Z; w_frame : Z * Z; w_ops : list (Z * uop); w_handler : option Z }.
(** Reading the structure at offset [a] of section contents [x] with relocated words [refs].  Version
    1; flag 1 is an exception handler, whose address follows the codes rounded up to an even number. *)
Definition decode (x : list Z) (refs : list (Z * Z)) (a : Z) : option unwound :=
  match skipn (Z.to_nat a) x with
  | v :: p :: n :: f :: rest =>
      if negb (v mod 8 =? 1) || (Z.of_nat (length rest) <? 2 * n) then None
      else match slots (firstn (Z.to_nat (2 * n)) rest) with
           | None => None
           | Some ops =>
               let h := a + 4 + 2 * (n + n mod 2) in
               let u := Unwound p (f mod 16, 16 * (f / 16)) ops in
               if v / 8 =? 0 then Some (u None)
               else if (v / 8 =? 1) && (h + 4 <=? Z.of_nat (length x)) then
                 match find (fun r => fst r =? h) refs with Some (_, s) => Some (u (Some s)) | None => None end
               else None
           end
  | _ => None
  end.
(** The 4-byte boundary at or after an offset. *)
Definition up4 (a : Z) : Z := a + (- a) mod 4.

(** ** The source: procedures *)
Record proc := Proc { p_start : pos; p_sym : Z; p_hnd : option Z; p_ops : list (pos * dir); p_prolog : pos; p_end : pos }.
(** The directives describing a prologue, with the parameters they need. *)
Definition op_ok (d : dir) : Prop :=
  match d with
  | PUSHREG (Some _) | SETFRAME (Some _) _ | ALLOCSTACK (Some _) | SAVEREG (Some _) (Some _) | SAVEXMM128 (Some _) (Some _) | PUSHFRAME _ => True
  | _ => False
  end.
Definition proc_ok (p : proc) : Prop := Forall (fun x => op_ok (snd x)) (p_ops p).
Definition text (p : proc) : list event :=
  At (p_start p) (PROC_FRAME (p_sym p) (p_hnd p)) :: map (fun x => At (fst x) (snd x)) (p_ops p)
  ++ [At (p_prolog p) ENDPROLOG; At (p_end p) ENDPROC_FRAME].
(** The directives of a source, without the data it puts into .xdata itself. *)
Definition dirs (es : list event) : list event := filter (fun e => match e with At _ _ => true | Data _ => false end) es.

(** ** What a procedure says *)
Definition final (o : option offs) : Z := match late_of o with Some i => ival i | None => 0 end.
(** An operation; offsets are stored as unsigned words of 32 bits. *)
Definition says (d : dir) : uop :=
  match d with
  | PUSHREG (Some r) => Push (r mod 16)
  | SETFRAME _ _ => SetFp
  | ALLOCSTACK o => Alloc (final o mod 2 ^ 32)
  | SAVEREG (Some r) o => SaveReg (r mod 16) (final o mod 2 ^ 32)
  | SAVEXMM128 (Some r) o => SaveXmm (r mod 16) (final o mod 2 ^ 32)
  | PUSHFRAME b => MachFrame b
  | _ => SetFp
  end.
(** The same without reduction. *)
Definition says_exactly (d : dir) : uop :=
  match d with
  | PUSHREG (Some r) => Push (r mod 16)
  | SETFRAME _ _ => SetFp
  | ALLOCSTACK o => Alloc (final o)
  | SAVEREG (Some r) o => SaveReg (r mod 16) (final o)
  | SAVEXMM128 (Some r) o => SaveXmm (r mod 16) (final o)
  | PUSHFRAME b => MachFrame b
  | _ => SetFp
  end.
(** The frame register and offset of the last SETFRAME. *)
Definition frame_of (ops : list (pos * dir)) : Z * Z :=
  fold_left (fun f x => match snd x with SETFRAME (Some r) o => (r mod 16, final o) | _ => f end) ops (0, 0).
(** Distance of a position from the start of the procedure. *)
Definition rel (W : world) (p : proc) (q : pos) : Z := match W (p_sym p) with Some (_, o) => snd q - o | None => 0 end.
(** The operations last first. *)
Definition describe (W : world) (p : proc) : unwound :=
  Unwound (rel W p (p_prolog p)) (frame_of (p_ops p)) (rev (map (fun x => (rel W p (fst x) mod 256, says (snd x))) (p_ops p))) (p_hnd p).
Definition describe_exactly (W : world) (p : proc) : unwound :=
  Unwound (rel W p (p_prolog p)) (frame_of (p_ops p)) (rev (map (fun x => (rel W p (fst x), says_exactly (snd x))) (p_ops p))) (p_hnd p).

(** ** Sources as the rest of the assembler makes them *)
(** Offsets: canonical numbers; a number known before layout does not change. *)
Definition offs_ok (o : offs) : Prop :=
  (forall i, early o = Some i -> late o = Some i) /\ (forall i, late o = Some i -> canon i).
Definition offs_of (d : dir) : option offs :=
  match d with SETFRAME _ o | ALLOCSTACK o | SAVEREG _ o | SAVEXMM128 _ o => o | _ => None end.
Definition pos_ok (p : pos) : Prop := 0 <= snd p < 2 ^ 30.
Definition world_ok (W : world) : Prop := forall f p, W f = Some p -> pos_ok p.
Definition event_ok (e : event) : Prop :=
  match e with Data l => Forall byte l | At p d => pos_ok p /\ forall o, offs_of d = Some o -> offs_ok o end.

(** * Proofs *)
Lemma sized_field : forall i (n : nat) sh, canon i -> (n <= 8)%nat -> 0 <= sh <= 8 ->
  exists out j, get_sized i (repeat 0 n) (8 * Z.of_nat n) (- sh) 1 = Some (out, j, sized_warns (ival i) (8 * Z.of_nat n) sh 1) /\
    Forall byte out /\ length out = n /\ lev out = (ival i / 2 ^ sh) mod 2 ^ (8 * Z.of_nat n).
Proof.
  intros i n sh C N S. assert (FB : Forall byte (repeat 0 n)) by (apply Forall_forall; intros x X; apply repeat_spec in X; subst; unfold byte; lia).
  destruct (get_sized_ok i (repeat 0 n) (8 * Z.of_nat n) (- sh) 1 C FB ltac:(lia) ltac:(lia) ltac:(rewrite repeat_length; lia)) as (out & j & ws & E & B & L & T & _ & WS). rewrite repeat_length in L, T.
  replace (Z.max 0 (- - sh)) with sh in T, WS by lia. replace (Z.max 0 (- sh)) with 0 in T by lia. exists out, j. rewrite E, WS. split; [reflexivity|]. split; [auto|]. split; [auto|].
  pose proof (lev_range out B) as LR. rewrite L in LR. rewrite pow256 in LR by lia. apply Z.bits_inj'. intros p P. rewrite mod_pow2_testbit by lia. destruct (Z.ltb_spec p (8 * Z.of_nat n)) as [Q|Q]; cbn [andb].
  - rewrite T by lia. destruct (Z.leb_spec 0 p); [|lia]. destruct (Z.ltb_spec p (0 + 8 * Z.of_nat n)); [|lia]. cbn [andb]. rewrite Z.sub_0_r. reflexivity.
  - apply (testbit_small (8 * Z.of_nat n)); try lia.
Qed.
Lemma no_warns : forall v size sh, 0 < size < 256 -> sized_warns v size sh 1 = [] -> - 2 ^ (size - 1) <= v / 2 ^ sh < 2 ^ size /\ v mod 2 ^ sh = 0.
Proof.
  intros v size sh S H. unfold sized_warns in H. cbn [Z.ltb Z.compare Z.eqb andb negb app] in H. unfold in_field in H. destruct (Z.leb_spec 256 size); [lia|]. destruct (Z.leb_spec size 0); [lia|]. cbn [andb negb] in H.
  destruct (Z.leb_spec (- 2 ^ (size - 1)) (v / 2 ^ sh)); [|discriminate H]. destruct (Z.ltb_spec (v / 2 ^ sh) (2 ^ size)); [|discriminate H]. cbn [andb negb app] in H. destruct (Z.eqb_spec (v mod 2 ^ sh) 0); [|discriminate H]. split; [lia|auto].
Qed.
Lemma two_bytes : forall l, Forall byte l -> length l = 2%nat -> exists a b, l = [a; b] /\ lev l = le16 a b.
Proof. intros l F L. destruct l as [|a [|b [|c l]]]; try discriminate L. exists a, b. split; [auto|]. cbn [lev]. unfold le16. lia. Qed.
Lemma four_bytes : forall l, Forall byte l -> length l = 4%nat -> exists a b c d, l = [a; b; c; d] /\ lev l = le32 a b c d.
Proof. intros l F L. destruct l as [|a [|b [|c [|d [|e l]]]]]; try discriminate L. exists a, b, c, d. split; [auto|]. cbn [lev]. unfold le32. lia. Qed.
Lemma out8_ok : forall d x w, - 2 ^ 31 < d < 2 ^ 31 -> out8 (Some d) = (x, [], w) -> x = [d mod 256] /\ (w = [] -> - 128 <= d <= 255).
Proof.
  intros d x w D H. unfold out8 in H. destruct (sized_field (IL d) 1 0 D ltac:(lia) ltac:(lia)) as (out & j & E & B & L & V). cbn [repeat Z.of_nat Pos.of_succ_nat Z.mul Pos.mul Z.opp] in E. change (8 * Z.of_nat 1) with 8 in *. rewrite E in H.
  assert (X : x = out) by congruence. assert (WS : w = sized_warns d 8 0 1) by (cbn [ival] in H; congruence). subst x. split.
  - destruct out as [|a [|b out]]; try discriminate L. cbn [lev ival] in V. rewrite Z.pow_0_r, Z.div_1_r in V. change (2 ^ 8) with 256 in V. f_equal. lia.
  - intros ->. symmetry in WS. apply no_warns in WS; [|lia]. rewrite Z.pow_0_r, Z.div_1_r in WS. change (2 ^ (8 - 1)) with 128 in WS. change (2 ^ 8) with 256 in WS. lia.
Qed.
Lemma out8_none : forall x w, out8 None <> (x, [], w).
Proof. intros x w H. discriminate H. Qed.

Lemma opbyte_ok : forall info op, 0 <= info <= 15 -> 0 <= op <= 15 -> (Z.lor (Z.shiftl info 4) (Z.land op 15)) mod 256 = 16 * info + op.
Proof.
  intros info op I O. rewrite Z.shiftl_mul_pow2 by lia. change 15 with (2 ^ 4 - 1). rewrite land_mask by lia. rewrite (Z.mod_small op) by lia. rewrite lor_disjoint_add.
  - change (2 ^ 4) with 16. rewrite Z.mod_small; lia.
  - apply Z.bits_inj'. intros k K. rewrite Z.bits_0, Z.land_spec. destruct (Z.ltb_spec k 4) as [Q|Q]; [rewrite Z.mul_pow2_bits_low by lia; auto|]. rewrite (testbit_small 4 op k) by lia. apply andb_false_r.
Qed.
Lemma opbyte_mod : forall info op, 0 <= op <= 15 -> (16 * info + op) mod 16 = op.
Proof. intros. rewrite Z.add_comm, Z.mul_comm, Z.mod_add by lia. apply Z.mod_small. lia. Qed.
Lemma opbyte_div : forall info op, 0 <= op <= 15 -> (16 * info + op) / 16 = info.
Proof. intros. rewrite Z.add_comm, Z.mul_comm, Z.div_add by lia. rewrite Z.div_small; lia. Qed.
Lemma mask_mod : forall v k, 0 <= k -> nz (Z.land v (2 ^ k - 1)) = false -> v mod 2 ^ k = 0.
Proof. intros v k K H. rewrite land_mask in H by auto. unfold nz in H. destruct (Z.eqb_spec (v mod 2 ^ k) 0); [auto|discriminate H]. Qed.
(** what passes the tests of get_int *)
Lemma get_int_mod : forall i k, canon i -> 1 <= k <= 30 -> (get_int i) mod 2 ^ k = 0 -> ival i < 2 ^ 31 /\ (- 2 ^ 31 < ival i -> get_int i = ival i) /\ (ival i <= - 2 ^ 31 -> get_int i = LONG_MIN).
Proof.
  intros i k C K H. rewrite get_int_ok in * by auto. cbv zeta in *. destruct (Z.leb_spec (ival i) (- 2 ^ 31)) as [Q|Q]; [split; [lia|]; split; [lia|auto]|]. destruct (Z.ltb_spec (ival i) (2 ^ 31)); [split; [lia|]; split; [auto|lia]|].
  exfalso. assert (M : LONG_MAX mod 2 ^ k = 2 ^ k - 1).
  { change LONG_MAX with (2 ^ 63 - 1). replace (2 ^ 63) with (2 ^ (63 - k) * 2 ^ k) by (rewrite <- Z.pow_add_r by lia; f_equal; lia). replace (2 ^ (63 - k) * 2 ^ k - 1) with (2 ^ k - 1 + (2 ^ (63 - k) - 1) * 2 ^ k) by lia. assert (0 < 2 ^ k) by (apply Z.pow_pos_nonneg; lia). rewrite Z.mod_add by lia. apply Z.mod_small. lia. }
  rewrite M in H. assert (2 ^ 1 <= 2 ^ k) by (apply Z.pow_le_mono_r; lia). lia.
Qed.
Lemma get_int_range : forall i lo hi, canon i -> - 2 ^ 31 < lo -> hi < 2 ^ 31 -> lo <= get_int i <= hi -> get_int i = ival i /\ lo <= ival i <= hi.
Proof.
  intros i lo hi C L H R. rewrite get_int_ok in * by auto. cbv zeta in *. change LONG_MIN with (- 2 ^ 63) in *. change LONG_MAX with (2 ^ 63 - 1) in *. assert (2 ^ 63 = 2 ^ 32 * 2 ^ 31) by reflexivity. destruct (Z.leb_spec (ival i) (- 2 ^ 31)); [lia|]. destruct (Z.ltb_spec (ival i) (2 ^ 31)); lia.
Qed.

(** ** The forms of a code *)
Definition form (c : code) (b : bc) : Prop :=
  (In (c_op c) [UWOP_PUSH_NONVOL; UWOP_SET_FPREG; UWOP_PUSH_MACHFRAME] /\ b = BC (c_op c) (c_info c) 2) \/
  (c_op c = UWOP_ALLOC_SMALL /\ (b = BC UWOP_ALLOC_SMALL 0 2 \/ b = BC UWOP_ALLOC_LARGE 0 4 \/ b = BC UWOP_ALLOC_LARGE 1 6)) \/
  (c_op c = UWOP_SAVE_NONVOL /\ (b = BC UWOP_SAVE_NONVOL (c_info c) 4 \/ b = BC UWOP_SAVE_NONVOL_FAR (c_info c) 6)) \/
  (c_op c = UWOP_SAVE_XMM128 /\ (b = BC UWOP_SAVE_XMM128 (c_info c) 4 \/ b = BC UWOP_SAVE_XMM128_FAR (c_info c) 6)).
Definition allocs (b : bc) := b = BC UWOP_ALLOC_SMALL 0 2 \/ b = BC UWOP_ALLOC_LARGE 0 4.
Lemma expand_alloc : forall v b pos ret b' pos' es, allocs b -> expand 1 v b pos = (ret, b', pos', es) ->
  (allocs b' /\ (ret = 1 \/ ret = -1 /\ es <> [])) \/ (ret = 0 /\ b' = BC UWOP_ALLOC_LARGE 1 6).
Proof.
  intros v b pos ret b' pos' es A H. unfold expand in H. destruct (Z.ltb_spec v 0) as [Q|Q]; [assert (ret = -1) by congruence; assert (b' = b) by congruence; assert (es = [Negative]) by congruence; subst; left; split; [auto|right; split; [auto|discriminate]]|].
  cbn [Z.eqb Pos.eqb] in H. destruct A as [-> | ->]; cbn [b_op b_info b_len Z.eqb Pos.eqb UWOP_ALLOC_LARGE UWOP_ALLOC_SMALL andb] in H.
  - destruct (Z.ltb_spec 128 v).
    + destruct (Z.leb_spec v (8 * 64 * 1024 - 8)); assert (BB := f_equal (fun x => snd (fst (fst x))) H); assert (RR := f_equal (fun x => fst (fst (fst x))) H); cbn in BB, RR; subst; [left; split; [right; auto|auto]|right; auto].
    + destruct (Z.leb_spec v (8 * 64 * 1024 - 8)); [|lia]. assert (BB := f_equal (fun x => snd (fst (fst x))) H); assert (RR := f_equal (fun x => fst (fst (fst x))) H); cbn in BB, RR; subst. left. split; [left; auto|auto].
  - destruct (Z.leb_spec v (8 * 64 * 1024 - 8)); assert (BB := f_equal (fun x => snd (fst (fst x))) H); assert (RR := f_equal (fun x => fst (fst (fst x))) H); cbn in BB, RR; subst; [left; split; [right; auto|auto]|right; auto].
Qed.
Lemma settle_alloc : forall vs low high b b' es, allocs b -> settle 1 low high b vs = (b', es) -> allocs b' \/ b' = BC UWOP_ALLOC_LARGE 1 6.
Proof.
  induction vs as [|v vs IH]; intros low high b b' es A H; cbn [settle] in H; [left; assert (b = b') by congruence; subst; auto|]. destruct (_ || _); [|apply (IH _ _ _ _ _ A H)].
  destruct (expand 1 v b high) as [[[ret b1] h1] e1] eqn:E. destruct (expand_alloc _ _ _ _ _ _ _ A E) as [[A1 R]|[R A1]].
  - destruct (Z.ltb_spec 0 ret). + destruct (settle 1 low h1 b1 vs) as [b2 e2] eqn:S. assert (b2 = b') by congruence. subst. apply (IH _ _ _ _ _ A1 S). + left. assert (b1 = b') by congruence. subst. auto.
  - subst ret. cbn [Z.ltb Z.compare] in H. right. congruence.
Qed.
Lemma expand_save : forall span v b pos ret b' pos' es, (span = 2 /\ b_op b = UWOP_SAVE_NONVOL) \/ (span = 3 /\ b_op b = UWOP_SAVE_XMM128) -> expand span v b pos = (ret, b', pos', es) ->
  (ret = 0 /\ es = [] /\ b' = BC (b_op b + 1) (b_info b) (b_len b + 2) /\ 0 <= v) \/ (ret = -1 /\ b' = b /\ es <> []).
Proof.
  intros span v b pos ret b' pos' es A H. unfold expand in H. destruct (Z.ltb_spec v 0) as [Q|Q]; [right; assert (ret = -1) by congruence; assert (b' = b) by congruence; assert (es = [Negative]) by congruence; subst; split; [auto|split; [auto|discriminate]]|].
  left. destruct A as [[-> A]|[-> A]]; rewrite A in *; cbn [Z.eqb Pos.eqb UWOP_SAVE_NONVOL UWOP_SAVE_XMM128 andb] in H; assert (BB := f_equal (fun x => snd (fst (fst x))) H); assert (RR := f_equal (fun x => fst (fst (fst x))) H); assert (EE := f_equal snd H); cbn in BB, RR, EE; subst; auto.
Qed.
Lemma settle_save : forall span vs low high b b' es, (span = 2 /\ b_op b = UWOP_SAVE_NONVOL) \/ (span = 3 /\ b_op b = UWOP_SAVE_XMM128) -> settle span low high b vs = (b', es) ->
  b' = b \/ b' = BC (b_op b + 1) (b_info b) (b_len b + 2).
Proof.
  intros span vs low high b b' es A. revert es. induction vs as [|v vs IH]; intros es H; cbn [settle] in H; [left; congruence|]. destruct (_ || _); [|apply (IH _ H)].
  destruct (expand span v b high) as [[[ret b1] h1] e1] eqn:E. destruct (expand_save _ _ _ _ _ _ _ _ A E) as [(R & _ & B & _)|(R & B & _)]; subst ret; cbn [Z.ltb Z.compare] in H; assert (b1 = b') by congruence; subst; auto.
Qed.
Lemma size_code_eq : forall c, size_code c = let '(b, es, sp) := calc_len c in
  match sp with None => (b, es) | Some (span, low, high) => let (b, es') := settle span low high b (seen_of (c_off c)) in (b, es ++ es') end.
Proof. reflexivity. Qed.
Definition known (c : code) : Prop := In (c_op c) [UWOP_PUSH_NONVOL; UWOP_SET_FPREG; UWOP_PUSH_MACHFRAME; UWOP_ALLOC_SMALL; UWOP_SAVE_NONVOL; UWOP_SAVE_XMM128].
Lemma calc_simple : forall c, In (c_op c) [UWOP_PUSH_NONVOL; UWOP_SET_FPREG; UWOP_PUSH_MACHFRAME] -> calc_len c = (BC (c_op c) (c_info c) 2, [], None).
Proof. intros c K. unfold calc_len. cbn [In] in K. destruct K as [K|[K|[K|[]]]]; rewrite <- K; reflexivity. Qed.
Lemma calc_alloc : forall c, c_op c = UWOP_ALLOC_SMALL -> calc_len c = first_form (early_of (c_off c)) (BC UWOP_ALLOC_SMALL 0 2) 1 8 128 7.
Proof. intros c K. unfold calc_len. rewrite K. reflexivity. Qed.
Lemma calc_save : forall c, c_op c = UWOP_SAVE_NONVOL -> calc_len c = first_form (early_of (c_off c)) (BC UWOP_SAVE_NONVOL (c_info c) 4) 2 0 (8 * 64 * 1024 - 8) 7.
Proof. intros c K. unfold calc_len. rewrite K. reflexivity. Qed.
Lemma calc_xmm : forall c, c_op c = UWOP_SAVE_XMM128 -> calc_len c = first_form (early_of (c_off c)) (BC UWOP_SAVE_XMM128 (c_info c) 4) 3 0 (16 * 64 * 1024 - 16) 15.
Proof. intros c K. unfold calc_len. rewrite K. reflexivity. Qed.
Lemma first_alloc : forall v low high mask b es sp, first_form v (BC UWOP_ALLOC_SMALL 0 2) 1 low high mask = (b, es, sp) ->
  (allocs b \/ sp = None /\ b = BC UWOP_ALLOC_LARGE 1 6) /\ (forall s l h, sp = Some (s, l, h) -> s = 1).
Proof.
  intros v low high mask b es sp H. assert (A0 : allocs (BC UWOP_ALLOC_SMALL 0 2)) by (left; auto). unfold first_form in H. destruct v as [i|].
  - cbv zeta in H. destruct (Z.ltb_spec high (get_int i)).
    + destruct (expand 1 (get_int i) (BC UWOP_ALLOC_SMALL 0 2) high) as [[[ret b1] h1] e1] eqn:E. assert (b1 = b) by congruence. subst b1. assert (SP := f_equal snd H). cbn [snd] in SP. destruct (expand_alloc _ _ _ _ _ _ _ A0 E) as [[A1 R]|[R A1]].
      * split; [auto|]. intros s l h S. rewrite <- SP in S. destruct (0 <? ret); congruence.
      * subst ret. cbn [Z.ltb Z.compare] in SP. subst sp. split; [auto|discriminate].
    + assert (BC UWOP_ALLOC_SMALL 0 2 = b) by congruence. assert (sp = None) by congruence. subst. split; [auto|discriminate].
  - assert (BC UWOP_ALLOC_SMALL 0 2 = b) by congruence. subst. split; [auto|]. intros s l h S. congruence.
Qed.
Lemma first_save : forall span v low high mask b0 b es sp, (span = 2 /\ b_op b0 = UWOP_SAVE_NONVOL) \/ (span = 3 /\ b_op b0 = UWOP_SAVE_XMM128) -> first_form v b0 span low high mask = (b, es, sp) ->
  (b = b0 \/ sp = None /\ b = BC (b_op b0 + 1) (b_info b0) (b_len b0 + 2)) /\ (forall s l h, sp = Some (s, l, h) -> s = span).
Proof.
  intros span v low high mask b0 b es sp A H. unfold first_form in H. destruct v as [i|].
  - cbv zeta in H. destruct (Z.ltb_spec high (get_int i)).
    + destruct (expand span (get_int i) b0 high) as [[[ret b1] h1] e1] eqn:E. assert (b1 = b) by congruence. subst b1. assert (SP := f_equal snd H). cbn [snd] in SP. destruct (expand_save _ _ _ _ _ _ _ _ A E) as [(R & _ & B & _)|(R & B & _)]; subst ret; cbn [Z.ltb Z.compare] in SP; subst sp; (split; [auto|discriminate]).
    + assert (b0 = b) by congruence. assert (sp = None) by congruence. subst. split; [auto|discriminate].
  - assert (b0 = b) by congruence. subst. split; [auto|]. intros s l h S. congruence.
Qed.
Lemma size_form : forall c, known c -> form c (fst (size_code c)).
Proof.
  intros c K. unfold known in K. cbn [In] in K. rewrite size_code_eq. unfold form. destruct K as [K|[K|[K|[K|[K|[K|[]]]]]]].
  1-3: left; (rewrite calc_simple by (cbn [In]; auto)); cbn [fst]; split; [cbn [In]; auto|auto].
  - right; left. split; [auto|]. rewrite calc_alloc by auto. destruct (first_form _ _ _ _ _ _) as [[b es] sp] eqn:F. destruct (first_alloc _ _ _ _ _ _ _ F) as [B S]. destruct sp as [[[s l] h]|].
    + destruct B as [B|[B _]]; [|discriminate B]. rewrite (S s l h eq_refl) in *. destruct (settle 1 l h b _) as [b2 e2] eqn:ST. cbn [fst]. destruct (settle_alloc _ _ _ _ _ _ B ST) as [[-> | ->]| ->]; auto.
    + cbn [fst]. destruct B as [[-> | ->]|[_ ->]]; auto.
  - right; right; left. split; [auto|]. rewrite calc_save by auto. destruct (first_form _ _ _ _ _ _) as [[b es] sp] eqn:F. destruct (fun A => first_save 2 _ _ _ _ _ _ _ _ A F) as [B S]; [left; auto|]. cbn [b_op b_info b_len] in B. destruct sp as [[[s l] h]|].
    + destruct B as [-> |[B _]]; [|discriminate B]. rewrite (S s l h eq_refl) in *. destruct (settle 2 l h _ _) as [b2 e2] eqn:ST. cbn [fst]. assert (SS := fun A => settle_save 2 _ _ _ _ _ _ A ST). destruct SS as [-> | ->]; auto.
    + cbn [fst]. destruct B as [-> |[_ ->]]; auto.
  - right; right; right. split; [auto|]. rewrite calc_xmm by auto. destruct (first_form _ _ _ _ _ _) as [[b es] sp] eqn:F. destruct (fun A => first_save 3 _ _ _ _ _ _ _ _ A F) as [B S]; [right; auto|]. cbn [b_op b_info b_len] in B. destruct sp as [[[s l] h]|].
    + destruct B as [-> |[B _]]; [|discriminate B]. rewrite (S s l h eq_refl) in *. destruct (settle 3 l h _ _) as [b2 e2] eqn:ST. cbn [fst]. assert (SS := fun A => settle_save 3 _ _ _ _ _ _ A ST). destruct SS as [-> | ->]; auto.
    + cbn [fst]. destruct B as [-> |[_ ->]]; auto.
Qed.

(** ** One code *)
Definition meant (c : code) : uop :=
  if c_op c =? UWOP_PUSH_NONVOL then Push (c_info c)
  else if c_op c =? UWOP_SET_FPREG then SetFp
  else if c_op c =? UWOP_PUSH_MACHFRAME then MachFrame (c_info c =? 1)
  else if c_op c =? UWOP_ALLOC_SMALL then Alloc (final (c_off c) mod 2 ^ 32)
  else if c_op c =? UWOP_SAVE_NONVOL then SaveReg (c_info c) (final (c_off c) mod 2 ^ 32)
  else SaveXmm (c_info c) (final (c_off c) mod 2 ^ 32).
(** Slots of a number, by the size of the field *)
Lemma field_small : forall v b o x high shift, field v b (o, [], []) 0 8 high shift (2 ^ shift - 1) = (x, [], []) -> high <= 16 * 2 ^ shift -> shift = 3 ->
  (forall i, v = Some i -> canon i) -> exists i k, v = Some i /\ ival i = 8 * (k + 1) /\ 0 <= k <= 15 /\ x = o ++ [opbyte (b_op b) k].
Proof.
  intros v b o x high shift H HI SH C. unfold field in H. destruct v as [i|]; [|destruct o; discriminate H]. specialize (C i eq_refl). cbv zeta in H. cbn [Z.eqb negb andb] in H.
  destruct (Z.ltb_spec (get_int i) 8); [discriminate H|]. destruct (Z.ltb_spec high (get_int i)); [discriminate H|]. cbn [orb] in H. destruct (nz _) eqn:N; [discriminate H|]. apply mask_mod in N; [|lia]. subst shift. change (16 * 2 ^ 3) with 128 in HI.
  destruct (get_int_range i 8 128 C ltac:(lia) ltac:(lia) ltac:(lia)) as [G R]. rewrite G in *. apply Z.mod_divide in N; [|lia]. destruct N as [k N]. change (2 ^ 3) with 8 in N. exists i, (k - 1). split; [auto|]. split; [lia|]. split; [lia|].
  assert (GU : get_uint i = ival i) by (rewrite get_uint_ok by auto; cbv zeta; destruct (Z.ltb_spec (ival i) 0); [lia|]; destruct (Z.ltb_spec (ival i) (2 ^ 32)); lia). rewrite GU in H. rewrite Z.shiftr_div_pow2 in H by lia. change (2 ^ 3) with 8 in H. rewrite N, Z.div_mul in H by lia. rewrite (Z.mod_small (k - 1)) in H by lia. congruence.
Qed.
Lemma field_word : forall v b o x low high shift, field v b (o, [], []) 2 low high shift (2 ^ shift - 1) = (x, [], []) -> high <= 65535 * 2 ^ shift -> 0 <= low -> shift = 3 \/ shift = 4 ->
  (forall i, v = Some i -> canon i) -> exists i a c, v = Some i /\ ival i = 2 ^ shift * le16 a c /\ low <= ival i <= high /\ x = o ++ [opbyte (b_op b) (b_info b); a; c].
Proof.
  intros v b o x low high shift H HI LO SH C. unfold field in H. destruct v as [i|]; [|destruct o; discriminate H]. specialize (C i eq_refl). cbv zeta in H. cbn [Z.eqb Pos.eqb negb andb] in H.
  assert (P : 2 ^ shift <= 16) by (destruct SH as [-> | ->]; lia). assert (P1 : 0 < 2 ^ shift) by (destruct SH as [-> | ->]; lia).
  destruct (Z.ltb_spec (get_int i) low); [discriminate H|]. destruct (Z.ltb_spec high (get_int i)); [discriminate H|]. cbn [orb] in H. destruct (nz _) eqn:N; [discriminate H|]. apply mask_mod in N; [|lia].
  destruct (get_int_range i low high C ltac:(lia) ltac:(lia) ltac:(lia)) as [G R]. rewrite G in *. change (Z.to_nat 2) with 2%nat in H. destruct (sized_field i 2 shift C ltac:(lia) ltac:(lia)) as (out & j & E & B & L & V). change (8 * Z.of_nat 2) with (2 * 8) in *. rewrite E in H.
  destruct (two_bytes out B L) as (a & c & -> & V2). rewrite V2 in V. exists i, a, c. split; [auto|]. split; [|split; [auto|congruence]].
  apply Z.mod_divide in N; [|lia]. destruct N as [k N]. rewrite N, Z.div_mul in V by lia. rewrite Z.mod_small in V; [nia|]. change (2 ^ (2 * 8)) with 65536. nia.
Qed.
Lemma field_long : forall v b o x m, field v b (o, [], []) 4 0 0 0 (2 ^ m - 1) = (x, [], []) -> m = 3 \/ m = 4 -> (forall i, v = Some i -> canon i) ->
  exists i p q r s, v = Some i /\ ival i mod 2 ^ 32 = le32 p q r s /\ - 2 ^ 31 <= ival i < 2 ^ 31 /\ ival i mod 2 ^ m = 0 /\ x = o ++ [opbyte (b_op b) (b_info b); p; q; r; s].
Proof.
  intros v b o x m H M C. unfold field in H. destruct v as [i|]; [|destruct o; discriminate H]. specialize (C i eq_refl). cbv zeta in H. cbn [Z.eqb Pos.eqb negb andb] in H. destruct (nz _) eqn:N; [discriminate H|]. apply mask_mod in N; [|lia].
  destruct (get_int_mod i m C ltac:(lia) N) as (G1 & G2 & G3). change (Z.to_nat 4) with 4%nat in H. destruct (sized_field i 4 0 C ltac:(lia) ltac:(lia)) as (out & j & E & B & L & V). change (8 * Z.of_nat 4) with (4 * 8) in *. change (- 0) with 0 in *. rewrite E in H.
  destruct (four_bytes out B L) as (p & q & r & s & -> & V2). rewrite V2 in V. rewrite Z.pow_0_r, Z.div_1_r in V. change (4 * 8) with 32 in *.
  cbn [app] in H. assert (WS : sized_warns (ival i) 32 0 1 = []) by congruence. apply no_warns in WS; [|lia]. rewrite Z.pow_0_r, Z.div_1_r in WS. change (2 ^ (32 - 1)) with (2 ^ 31) in WS.
  exists i, p, q, r, s. split; [auto|]. split; [congruence|]. split; [lia|]. split; [|congruence]. destruct (Z.eq_dec (ival i) (- 2 ^ 31)) as [Q|Q]; [rewrite Q; destruct M as [-> | ->]; reflexivity|]. rewrite <- G2 by lia. auto.
Qed.
Lemma bytes_simple : forall W c b, In (b_op b) [UWOP_PUSH_NONVOL; UWOP_SET_FPREG; UWOP_PUSH_MACHFRAME] -> code_bytes W c b = let '(o, e, w) := out8 (dist W (c_loc c) (c_proc c)) in (o ++ [opbyte (b_op b) (b_info b)], e, w).
Proof. intros W c b K. unfold code_bytes. cbn [In] in K. destruct K as [K|[K|[K|[]]]]; rewrite <- K; reflexivity. Qed.
Lemma bytes_field : forall W c b, code_bytes W c b =
  let f := field (late_of (c_off c)) b (out8 (dist W (c_loc c) (c_proc c))) in
  if b_op b =? 2 then f 0 8 128 3 (2 ^ 3 - 1) else if b_op b =? 1 then if b_info b =? 0 then f 2 136 (65535 * 2 ^ 3) 3 (2 ^ 3 - 1) else f 4 0 0 0 (2 ^ 3 - 1)
  else if b_op b =? 4 then f 2 0 (65535 * 2 ^ 3) 3 (2 ^ 3 - 1) else if b_op b =? 8 then f 2 0 (65535 * 2 ^ 4) 4 (2 ^ 4 - 1)
  else if b_op b =? 5 then f 4 0 0 0 (2 ^ 3 - 1) else if b_op b =? 9 then f 4 0 0 0 (2 ^ 4 - 1) else code_bytes W c b.
Proof.
  intros W c b. unfold code_bytes. cbv zeta. destruct (Z.eqb_spec (b_op b) 2) as [-> |]; [reflexivity|]. destruct (Z.eqb_spec (b_op b) 1) as [-> |]; [reflexivity|]. destruct (Z.eqb_spec (b_op b) 4) as [-> |]; [reflexivity|].
  destruct (Z.eqb_spec (b_op b) 8) as [-> |]; [reflexivity|]. destruct (Z.eqb_spec (b_op b) 5) as [-> |]; [reflexivity|]. destruct (Z.eqb_spec (b_op b) 9) as [-> |]; reflexivity.
Qed.
Lemma slots_eq : forall o x l, slots (o :: x :: l) =
      let info := x / 16 in
      match x mod 16 with
      | 0 => also (o, Push info) (slots l)
      | 1 => if info =? 0 then match l with a :: b :: l => also (o, Alloc (8 * le16 a b)) (slots l) | _ => None end
             else if info =? 1 then match l with a :: b :: c :: d :: l => also (o, Alloc (le32 a b c d)) (slots l) | _ => None end
             else None
      | 2 => also (o, Alloc (8 * info + 8)) (slots l)
      | 3 => also (o, SetFp) (slots l)
      | 4 => match l with a :: b :: l => also (o, SaveReg info (8 * le16 a b)) (slots l) | _ => None end
      | 5 => match l with a :: b :: c :: d :: l => also (o, SaveReg info (le32 a b c d)) (slots l) | _ => None end
      | 8 => match l with a :: b :: l => also (o, SaveXmm info (16 * le16 a b)) (slots l) | _ => None end
      | 9 => match l with a :: b :: c :: d :: l => also (o, SaveXmm info (le32 a b c d)) (slots l) | _ => None end
      | 10 => if info <=? 1 then also (o, MachFrame (info =? 1)) (slots l) else None
      | _ => None
      end.
Proof. reflexivity. Qed.
Lemma slots_op : forall o op info l, 0 <= info <= 15 -> 0 <= op <= 15 -> slots (o :: opbyte op info :: l) = slots (o :: (16 * info + op) :: l).
Proof. intros. unfold opbyte. rewrite opbyte_ok by auto. reflexivity. Qed.
Lemma field_err : forall v b o e w size low high shift mask x, field v b (o, e, w) size low high shift mask = (x, [], []) -> e = [] /\ w = [].
Proof.
  intros v b o e w size low high shift mask x H. unfold field in H. cbv zeta in H. assert (F : forall k, (o, e ++ [k], w) = (x, [], []) -> e = [] /\ w = []) by (intros k Q; assert (Q1 : e ++ [k] = []) by congruence; destruct e; discriminate Q1).
  destruct v as [i|]; [|apply (F _ H)]. destruct (negb (size =? 4) && _); [apply (F _ H)|]. destruct (nz _); [apply (F _ H)|]. destruct (size =? 0); [split; congruence|]. destruct (get_sized _ _ _ _ _) as [[[y j] w']|]; [|apply (F _ H)].
  split; [congruence|]. assert (Q : w ++ w' = []) by congruence. apply app_eq_nil in Q. tauto.
Qed.
Definition code_ok (c : code) : Prop :=
  known c /\ 0 <= c_info c <= 15 /\ (c_op c = UWOP_PUSH_MACHFRAME -> c_info c <= 1) /\ (forall o, c_off c = Some o -> offs_ok o) /\ pos_ok (c_loc c).
Lemma late_canon : forall c i, code_ok c -> late_of (c_off c) = Some i -> canon i.
Proof. intros c i (_ & _ & _ & O & _) H. destruct (c_off c) as [o|]; cbn [late_of] in H; [apply (O o eq_refl); auto|]. assert (i = IL 0) by congruence. subst. cbn. lia. Qed.
Lemma final_late : forall o i, late_of o = Some i -> final o = ival i.
Proof. intros o i H. unfold final. rewrite H. auto. Qed.
Lemma dist_range : forall W p f d, world_ok W -> pos_ok p -> dist W p f = Some d -> - 2 ^ 31 < d < 2 ^ 31.
Proof. intros W p f d WO PO H. unfold dist in H. destruct (W f) as [[s o]|] eqn:E; [|discriminate H]. pose proof (WO _ _ E) as PW. unfold pos_ok in *. cbn [snd] in PW. destruct (_ =? _); [|discriminate H]. assert (snd p - o = d) by congruence. assert (2 ^ 31 = 2 * 2 ^ 30) by reflexivity. lia. Qed.
Lemma code_ok_bytes : forall W c b x, world_ok W -> code_ok c -> form c b -> code_bytes W c b = (x, [], []) ->
  exists d, dist W (c_loc c) (c_proc c) = Some d /\ - 128 <= d <= 255 /\ Z.of_nat (length x) = b_len b /\
    (forall l, slots (x ++ l) = also (d mod 256, meant c) (slots l)) /\
    (In (c_op c) [UWOP_ALLOC_SMALL; UWOP_SAVE_NONVOL; UWOP_SAVE_XMM128] -> - 2 ^ 31 <= final (c_off c) < 2 ^ 31 /\ final (c_off c) mod 8 = 0 /\ (c_op c = UWOP_SAVE_XMM128 -> final (c_off c) mod 16 = 0)).
Proof.
  intros W c b x WO CO F H. assert (LC : forall i, late_of (c_off c) = Some i -> canon i) by (intros i; apply late_canon; auto). destruct CO as (K & I & MI & OO & PO).
  assert (OUT : exists d, dist W (c_loc c) (c_proc c) = Some d /\ - 128 <= d <= 255 /\ out8 (dist W (c_loc c) (c_proc c)) = ([d mod 256], [], [])).
  { destruct (out8 (dist W (c_loc c) (c_proc c))) as [[o e] w] eqn:O. assert (EW : e = [] /\ w = []).
    { destruct F as [[F ->]|[[F [-> | [-> | ->]]]|[[F [-> | ->]]|[F [-> | ->]]]]]; [rewrite bytes_simple in H by auto; rewrite O in H; split; congruence|..]; rewrite bytes_field in H; cbv zeta in H; rewrite O in H; cbn [b_op b_info Z.eqb Pos.eqb UWOP_ALLOC_SMALL UWOP_ALLOC_LARGE UWOP_SAVE_NONVOL UWOP_SAVE_NONVOL_FAR UWOP_SAVE_XMM128 UWOP_SAVE_XMM128_FAR] in H; apply field_err in H; auto. }
    destruct EW as [-> ->]. destruct (dist W (c_loc c) (c_proc c)) as [d|] eqn:D; [|discriminate O]. pose proof (dist_range W _ _ d WO PO D) as R. destruct (out8_ok d o [] R O) as [-> Q]. exists d. split; [auto|]. split; [apply Q; auto|auto]. }
  destruct OUT as (d & D & R & O). exists d. split; [auto|]. split; [auto|]. unfold meant.
  destruct F as [[F ->]|[[F FB]|[[F FB]|[F FB]]]].
  - rewrite bytes_simple in H by auto. rewrite O in H. assert (X : x = [d mod 256; opbyte (c_op c) (c_info c)]) by (cbn [app b_op b_info] in H; congruence). subst x. split; [reflexivity|]. cbn [In] in F. split.
    + intros l. cbn [app]. rewrite slots_op by (auto; destruct F as [<- |[<- |[<- |[]]]]; unfold UWOP_PUSH_NONVOL, UWOP_SET_FPREG, UWOP_PUSH_MACHFRAME; lia). rewrite slots_eq. cbv zeta. rewrite opbyte_mod, opbyte_div by (destruct F as [<- |[<- |[<- |[]]]]; unfold UWOP_PUSH_NONVOL, UWOP_SET_FPREG, UWOP_PUSH_MACHFRAME; lia).
      destruct F as [F |[F |[F |[]]]]; rewrite <- F; try reflexivity. symmetry in F. specialize (MI F). cbn [UWOP_PUSH_MACHFRAME UWOP_PUSH_NONVOL UWOP_SET_FPREG Z.eqb Pos.eqb]. destruct (Z.leb_spec (c_info c) 1); [reflexivity|lia].
    + cbn [In]. destruct F as [<- |[<- |[<- |[]]]]; intros [Q|[Q|[Q|[]]]]; discriminate Q.
  - rewrite bytes_field in H. cbv zeta in H. rewrite O in H. rewrite F. cbn [UWOP_PUSH_NONVOL UWOP_SET_FPREG UWOP_PUSH_MACHFRAME UWOP_ALLOC_SMALL Z.eqb Pos.eqb]. destruct FB as [-> |[-> | ->]]; cbn [b_op b_info b_len Z.eqb Pos.eqb UWOP_ALLOC_SMALL UWOP_ALLOC_LARGE] in H |- *.
    + apply field_small in H; [|lia|auto|auto]. destruct H as (i & k & L & V & KR & ->). rewrite (final_late _ i L), V. split; [reflexivity|]. split.
      * intros l. cbn [app b_op]. unfold UWOP_ALLOC_SMALL. rewrite slots_op by lia. rewrite slots_eq. cbv zeta. rewrite opbyte_mod, opbyte_div by lia. rewrite (Z.mod_small (8 * (k + 1))) by lia. do 3 f_equal. lia.
      * intros _. split; [lia|]. split; [apply Z.mod_divide; [lia|]; exists (k + 1); lia|discriminate].
    + apply field_word in H; [|lia|lia|auto|auto]. destruct H as (i & a & e & L & V & KR & ->). rewrite (final_late _ i L). change (65535 * 2 ^ 3) with 524280 in KR. change (2 ^ 3) with 8 in V. split; [reflexivity|]. split.
      * intros l. cbn [app b_op b_info]. rewrite slots_op by (unfold UWOP_ALLOC_LARGE; lia). rewrite slots_eq. cbv zeta. rewrite opbyte_mod, opbyte_div by (unfold UWOP_ALLOC_LARGE; lia). cbn [UWOP_ALLOC_LARGE Z.eqb]. rewrite (Z.mod_small (ival i)) by lia. rewrite V. reflexivity.
      * intros _. split; [lia|]. split; [apply Z.mod_divide; [lia|]; exists (le16 a e); lia|discriminate].
    + apply field_long in H; [|auto|auto]. destruct H as (i & p & q & r & s & L & V & KR & M & ->). rewrite (final_late _ i L). split; [reflexivity|]. split.
      * intros l. cbn [app b_op b_info]. rewrite slots_op by (unfold UWOP_ALLOC_LARGE; lia). rewrite slots_eq. cbv zeta. rewrite opbyte_mod, opbyte_div by (unfold UWOP_ALLOC_LARGE; lia). cbn [UWOP_ALLOC_LARGE Z.eqb Pos.eqb]. rewrite V. reflexivity.
      * intros _. split; [lia|]. split; [auto|discriminate].
  - rewrite bytes_field in H. cbv zeta in H. rewrite O in H. rewrite F. cbn [UWOP_PUSH_NONVOL UWOP_SET_FPREG UWOP_PUSH_MACHFRAME UWOP_ALLOC_SMALL UWOP_SAVE_NONVOL Z.eqb Pos.eqb]. destruct FB as [-> | ->]; cbn [b_op b_info b_len Z.eqb Pos.eqb UWOP_SAVE_NONVOL UWOP_SAVE_NONVOL_FAR] in H |- *.
    + apply field_word in H; [|lia|lia|auto|auto]. destruct H as (i & a & e & L & V & KR & ->). rewrite (final_late _ i L). change (65535 * 2 ^ 3) with 524280 in KR. change (2 ^ 3) with 8 in V. split; [reflexivity|]. split.
      * intros l. cbn [app b_op b_info]. rewrite slots_op by (unfold UWOP_SAVE_NONVOL; lia). rewrite slots_eq. cbv zeta. rewrite opbyte_mod, opbyte_div by (unfold UWOP_SAVE_NONVOL; lia). cbn [UWOP_SAVE_NONVOL]. rewrite (Z.mod_small (ival i)) by lia. rewrite V. reflexivity.
      * intros _. split; [lia|]. split; [apply Z.mod_divide; [lia|]; exists (le16 a e); lia|discriminate].
    + apply field_long in H; [|auto|auto]. destruct H as (i & p & q & r & s & L & V & KR & M & ->). rewrite (final_late _ i L). split; [reflexivity|]. split.
      * intros l. cbn [app b_op b_info]. rewrite slots_op by (unfold UWOP_SAVE_NONVOL_FAR; lia). rewrite slots_eq. cbv zeta. rewrite opbyte_mod, opbyte_div by (unfold UWOP_SAVE_NONVOL_FAR; lia). cbn [UWOP_SAVE_NONVOL_FAR]. rewrite V. reflexivity.
      * intros _. split; [lia|]. split; [auto|discriminate].
  - rewrite bytes_field in H. cbv zeta in H. rewrite O in H. rewrite F. cbn [UWOP_PUSH_NONVOL UWOP_SET_FPREG UWOP_PUSH_MACHFRAME UWOP_ALLOC_SMALL UWOP_SAVE_NONVOL UWOP_SAVE_XMM128 Z.eqb Pos.eqb]. destruct FB as [-> | ->]; cbn [b_op b_info b_len Z.eqb Pos.eqb UWOP_SAVE_XMM128 UWOP_SAVE_XMM128_FAR] in H |- *.
    + apply field_word in H; [|lia|lia|auto|auto]. destruct H as (i & a & e & L & V & KR & ->). rewrite (final_late _ i L). change (65535 * 2 ^ 4) with 1048560 in KR. change (2 ^ 4) with 16 in V. split; [reflexivity|]. split.
      * intros l. cbn [app b_op b_info]. rewrite slots_op by (unfold UWOP_SAVE_XMM128; lia). rewrite slots_eq. cbv zeta. rewrite opbyte_mod, opbyte_div by (unfold UWOP_SAVE_XMM128; lia). cbn [UWOP_SAVE_XMM128]. rewrite (Z.mod_small (ival i)) by lia. rewrite V. reflexivity.
      * intros _. split; [lia|]. split; [apply Z.mod_divide; [lia|]; exists (2 * le16 a e); lia|intros _; apply Z.mod_divide; [lia|]; exists (le16 a e); lia].
    + apply field_long in H; [|auto|auto]. destruct H as (i & p & q & r & s & L & V & KR & M & ->). rewrite (final_late _ i L). split; [reflexivity|]. split.
      * intros l. cbn [app b_op b_info]. rewrite slots_op by (unfold UWOP_SAVE_XMM128_FAR; lia). rewrite slots_eq. cbv zeta. rewrite opbyte_mod, opbyte_div by (unfold UWOP_SAVE_XMM128_FAR; lia). cbn [UWOP_SAVE_XMM128_FAR]. rewrite V. reflexivity.
      * intros _. split; [lia|]. split; [|auto]. change (2 ^ 4) with 16 in M. apply Z.mod_divide in M; [|lia]. destruct M as [k M]. apply Z.mod_divide; [lia|]. exists (2 * k). lia.
Qed.

(** ** The codes *)
Lemma append_inv : forall a b x, append a b = (x, [], []) -> exists y z, a = (y, [], []) /\ b = (z, [], []) /\ x = y ++ z.
Proof.
  intros [[a e] w] [[a' e'] w'] x H. unfold append in H. assert (E : e ++ e' = []) by congruence. assert (V : w ++ w' = []) by congruence. apply app_eq_nil in E, V. destruct E as [-> ->], V as [-> ->]. exists a, a'. split; [auto|]. split; [auto|congruence].
Qed.
Lemma form_len : forall c b, form c b -> b_len b = 2 \/ b_len b = 4 \/ b_len b = 6.
Proof. intros c b F. destruct F as [[_ ->]|[[_ [-> | [-> | ->]]]|[[_ [-> | ->]]|[_ [-> | ->]]]]]; cbn [b_len]; auto. Qed.
Lemma code_out_inv : forall W c x, code_out W c = (x, [], []) -> snd (size_code c) = [] /\ code_bytes W c (fst (size_code c)) = (x, [], []).
Proof. intros W c x H. unfold code_out in H. destruct (size_code c) as [b es]. destruct (code_bytes W c b) as [[y e] w] eqn:B. assert (E : es ++ e = []) by congruence. apply app_eq_nil in E. destruct E as [-> ->]. cbn [fst snd]. split; [auto|]. rewrite B. congruence. Qed.
Definition reads (W : world) (c : code) (s : Z * uop) : Prop :=
  exists d, dist W (c_loc c) (c_proc c) = Some d /\ - 128 <= d <= 255 /\ s = (d mod 256, meant c).
Lemma codes_ok : forall W cs x, world_ok W -> Forall code_ok cs -> codes_out W cs = (x, [], []) ->
  Z.of_nat (length x) = 2 * count cs /\ exists ss, slots x = Some ss /\ Forall2 (reads W) cs ss.
Proof.
  intros W cs x WO. revert x. induction cs as [|c cs IH]; intros x F H; cbn [codes_out] in H.
  - assert (x = []) by congruence. subst. split; [reflexivity|]. exists []. split; [reflexivity|constructor].
  - apply append_inv in H. destruct H as (y & z & A & B & ->). inversion F as [|? ? F1 F2]; subst. destruct (IH z F2 B) as (L & ss & S & R). apply code_out_inv in A. destruct A as [_ A]. assert (FM := size_form c (proj1 F1)). destruct (code_ok_bytes W c _ y WO F1 FM A) as (d & D1 & D2 & D3 & D4 & _). split.
    + rewrite app_length, Nat2Z.inj_add, L, D3. unfold count. cbn [fold_right]. rewrite !Z.shiftr_div_pow2 by lia. change (2 ^ 1) with 2.
      set (n := fold_right _ 0 cs) in *. assert (N : n = 2 * (n / 2)). { assert (E : forall l, Forall code_ok l -> exists k, fold_right (fun c n => b_len (fst (size_code c)) + n) 0 l = 2 * k). { induction l as [|c0 l IHl]; intros FL; [exists 0; reflexivity|]. inversion FL as [|? ? G1 G2]; subst. destruct (IHl G2) as [k K]. cbn [fold_right]. rewrite K. destruct (form_len _ _ (size_form c0 (proj1 G1))) as [-> |[-> | ->]]; [exists (k + 1)|exists (k + 2)|exists (k + 3)]; lia. } destruct (E cs F2) as [k K]. fold n in K. rewrite K, (Z.mul_comm 2 k), Z.div_mul by lia. lia. }
      destruct (form_len _ _ FM) as [-> |[-> | ->]]; rewrite N; [replace (2 + 2 * (n / 2)) with ((n / 2 + 1) * 2) by lia|replace (4 + 2 * (n / 2)) with ((n / 2 + 2) * 2) by lia|replace (6 + 2 * (n / 2)) with ((n / 2 + 3) * 2) by lia]; rewrite Z.div_mul by lia; rewrite (Z.mul_comm 2 (n / 2)), Z.div_mul by lia; lia.
    + exists ((d mod 256, meant c) :: ss). rewrite D4, S. split; [reflexivity|]. constructor; [|auto]. exists d. auto.
Qed.
Lemma slots_bytes_even : forall cs, Forall code_ok cs -> 0 <= count cs.
Proof.
  intros cs F. unfold count. rewrite Z.shiftr_div_pow2 by lia. apply Z.div_pos; [|lia]. induction F as [|c cs F1 F2 IH]; cbn [fold_right]; [lia|]. destruct (form_len _ _ (size_form c (proj1 F1))) as [-> |[-> | ->]]; lia.
Qed.

(** ** The header *)
Lemma frame_byte : forall v r, 0 <= v <= 240 -> v mod 16 = 0 -> let f := Z.lor (Z.land (v mod 2 ^ 64) 240) (Z.land r 15) in f mod 16 = r mod 16 /\ 16 * (f / 16) = v.
Proof.
  intros v r V M f. assert (FV : f = v + r mod 16).
  { unfold f. rewrite (Z.mod_small v) by lia. change 15 with (2 ^ 4 - 1). rewrite land_mask by lia. change (2 ^ 4) with 16. assert (V240 : Z.land v 240 = v).
    { apply Z.mod_divide in M; [|lia]. destruct M as [k ->]. assert (K : 0 <= k <= 15) by lia. assert (k = 0 \/ k = 1 \/ k = 2 \/ k = 3 \/ k = 4 \/ k = 5 \/ k = 6 \/ k = 7 \/ k = 8 \/ k = 9 \/ k = 10 \/ k = 11 \/ k = 12 \/ k = 13 \/ k = 14 \/ k = 15) as Q by lia. repeat (destruct Q as [-> |Q]; [reflexivity|]). subst k. reflexivity. }
    rewrite V240. apply lor_disjoint_add. pose proof (Z.mod_pos_bound r 16 ltac:(lia)) as R. apply Z.mod_divide in M; [|lia]. destruct M as [k ->]. apply Z.bits_inj'. intros n N. rewrite Z.bits_0, Z.land_spec. change 16 with (2 ^ 4) at 1. destruct (Z.ltb_spec n 4) as [Q|Q]; [rewrite Z.mul_pow2_bits_low by lia; auto|]. rewrite (testbit_small 4 (r mod 16) n) by lia. apply andb_false_r. }
  rewrite FV. pose proof (Z.mod_pos_bound r 16 ltac:(lia)) as R. apply Z.mod_divide in M; [|lia]. destruct M as [k ->]. split; [rewrite Z.add_comm, Z.mod_add by lia; apply Z.mod_small; lia|rewrite Z.add_comm, Z.div_add by lia; rewrite Z.div_small by lia; lia].
Qed.
Lemma check_frame_ok : forall v, check_frame v = [] -> 0 <= v <= 240 /\ v mod 16 = 0.
Proof. intros v H. unfold check_frame in H. destruct (Z.ltb_spec v 0); [discriminate H|]. destruct (Z.ltb_spec 240 v); [discriminate H|]. cbn [orb] in H. destruct (nz _) eqn:N; [discriminate H|]. change 15 with (2 ^ 4 - 1) in N. apply mask_mod in N; [|lia]. split; [lia|auto]. Qed.
Lemma span_byte_ok : forall d e, span_byte (Some d) e = [] -> 0 <= d <= 255.
Proof. intros d e H. unfold span_byte in H. destruct (Z.ltb_spec d 0); [discriminate H|]. destruct (Z.ltb_spec 255 d); [discriminate H|]. lia. Qed.
Definition info_ok (u : info) : Prop := Forall code_ok (u_codes u) /\ (forall o, u_frameoff u = Some o -> offs_ok o) /\ (forall p, u_prolog u = Some p -> pos_ok p).
Lemma info_ok_out : forall W u x, world_ok W -> info_ok u -> info_out W u = (x, [], []) ->
  exists q d f, u_prolog u = Some q /\ dist W q (u_proc u) = Some d /\ 0 <= d <= 255 /\ 0 <= count (u_codes u) <= 255 /\
    x = [match u_handler u with Some _ => 9 | None => 1 end; d; count (u_codes u); f] /\ f mod 16 = u_framereg u mod 16 /\ 16 * (f / 16) = final (u_frameoff u) /\ 0 <= final (u_frameoff u) <= 240 /\ final (u_frameoff u) mod 16 = 0.
Proof.
  intros W u x WO (CO & FO & PO) H. unfold info_out in H. cbv zeta in H. set (p := match u_prolog u with Some p => dist W p (u_proc u) | None => None end) in *. set (n := count (u_codes u)) in *.
  apply append_inv in H. destruct H as (y & z & A & B & ->). apply append_inv in A. destruct A as (y1 & z1 & A & A1 & ->). apply append_inv in A. destruct A as (y2 & z2 & A2 & A3 & ->).
  assert (X : span_byte p PrologueSize ++ span_byte (Some n) TooManyCodes ++ frame_span (u_frameoff u) = []) by congruence. apply app_eq_nil in X. destruct X as [X1 X]. apply app_eq_nil in X. destruct X as [X2 _].
  apply span_byte_ok in X2. destruct p as [d|] eqn:P; [|discriminate A3]. apply span_byte_ok in X1. destruct (u_prolog u) as [q|] eqn:Q; [|discriminate P]. unfold p in P.
  destruct (out8_ok d z2 [] ltac:(lia) A3) as [-> _]. destruct (out8_ok n z1 [] ltac:(lia) A1) as [-> _]. rewrite (Z.mod_small d), (Z.mod_small n) by lia.
  destruct (late_of (u_frameoff u)) as [i|] eqn:L; [|discriminate B]. assert (CK : check_frame (get_int i) = []) by congruence. apply check_frame_ok in CK. destruct CK as [CK1 CK2]. assert (CI : canon i). { destruct (u_frameoff u) as [o|]; cbn [late_of] in L; [apply (FO o eq_refl); auto|]. assert (i = IL 0) by congruence. subst. cbn. lia. }
  destruct (get_int_range i 0 240 CI ltac:(lia) ltac:(lia) CK1) as [G R]. rewrite (final_late _ i L). rewrite <- G. destruct (frame_byte (get_int i) (u_framereg u) CK1 CK2) as [F1 F2].
  exists q, d. eexists. split; [auto|]. split; [auto|]. split; [auto|]. split; [auto|]. split; [|split; [exact F1|split; [exact F2|auto]]].
  assert (Y2 : y2 = [match u_handler u with Some _ => 9 | None => 1 end]) by (destruct (u_handler u); cbn in A2; congruence). rewrite Y2. assert (ZZ : z = [Z.lor (Z.land (get_int i mod 2 ^ 64) 240) (Z.land (u_framereg u) 15)]) by congruence. rewrite ZZ. reflexivity.
Qed.
