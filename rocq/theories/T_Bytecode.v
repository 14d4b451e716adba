(** Bytecodes: the theorems (C24, C25, C27, C36, C57, C58). *)
From Coq Require Import ZArith List Bool Lia.
From Verif Require Import Lib M_BitVect M_Intnum P_Intnum M_Bytecode P_Bytecode.
Import ListNotations.
Open Scope Z_scope.

(** C24: alignment pads to the next multiple with the least number of bytes, or not at all when
    that exceeds the limit. *)
Theorem C24_minimal : forall a k ms off, u32num (boundary a) (2 ^ k) -> 0 <= k -> onum (maxskip a) ms -> 0 <= off < 2 ^ 63 ->
  (exists thr, align_expand a off = (padded k ms off, thr, 1)) /\
  (off + padding k off) mod 2 ^ k = 0 /\ (forall n, 0 <= n < padding k off -> (off + n) mod 2 ^ k <> 0).
Proof. exact align_full. Qed.
Print Assumptions C24_minimal.
(** The bytes written: as many as the length; of the fill value, of code, or zero. *)
Theorem C24_bytes : forall a k ms off, u32num (boundary a) (2 ^ k) -> 0 <= k -> onum (maxskip a) ms -> 0 <= off < 2 ^ 63 ->
  (forall v f, afill a = Some v -> u32num v f -> align_tobytes a off = Some (repeat (f mod 256) (Z.to_nat (padded k ms off)), false)) /\
  (afill a = None -> code a = None -> align_tobytes a off = Some (repeat 0 (Z.to_nat (padded k ms off)), false)) /\
  (forall t, afill a = None -> code a = Some t -> table_ok t -> exists b e, align_tobytes a off = Some (b, e) /\ (e = false -> Z.of_nat (length b) = padded k ms off)).
Proof. exact align_bytes. Qed.
Print Assumptions C24_bytes.
(** The threshold given to the optimizer: up to it the end stays put (or nothing is emitted), and a
    skipped alignment first takes effect one byte later. *)
Theorem C24_threshold : forall a k ms off len thr r, u32num (boundary a) (2 ^ k) -> 0 <= k -> onum (maxskip a) ms -> 0 <= off < 2 ^ 63 ->
  align_expand a off = (len, thr, r) -> off <= thr /\
  (len = padding k off -> forall off', off <= off' <= thr -> off' + padded k ms off' = off + len) /\
  (len <> padding k off -> len = 0 /\ (forall off', off <= off' <= thr -> padded k ms off' = 0) /\ ms = Some (padded k ms (thr + 1))).
Proof. exact align_thres. Qed.
Print Assumptions C24_threshold.

(** C25: an origin is reached exactly or rejected. *)
Theorem C25_org : forall start off fill, 0 <= off < 2 ^ 64 -> 0 <= start < 2 ^ 64 ->
  (off <= start -> exists len, org_expand start off = Some len /\ off + len = start /\ org_tobytes start fill off = (repeat (fill mod 256) (Z.to_nat len), false)) /\
  (start < off -> org_expand start off = None /\ org_tobytes start fill off = ([], true)).
Proof. exact org_ok. Qed.
Print Assumptions C25_org.

(** C27: [n] repetitions of [len] bytes each, the k-th being what the bytecode wrote the k-th time. *)
Theorem C27_tobytes : forall m n len bufsize tob, counts m n -> 0 < n < 2 ^ 31 -> 0 <= len -> len * n < 2 ^ 64 ->
  (forall pos, exists b, tob pos = (b, false) /\ Z.of_nat (length b) = len) ->
  exists bs, tobytes m false len bufsize tob = Bytes bs false /\ Z.of_nat (length bs) = len * n /\
    forall k, 0 <= k < n -> firstn (Z.to_nat len) (skipn (Z.to_nat (k * len)) bs) = fst (tob (k * len)).
Proof. exact tobytes_ok. Qed.
Print Assumptions C27_tobytes.
(** Reserved space of repetitions times items is reported without bytes. *)
Theorem C27_reserve : forall st i n items k size bufsize tob, canon i -> ival i = n -> canon items -> ival items = k -> 0 < n -> 0 < k -> n * k < 2 ^ 31 -> 0 <= size < 2 ^ 32 ->
  forall m, after m = Some (reserve_mult st (Some i) items) -> tobytes (Some m) true size bufsize tob = Gap (size * (n * k)).
Proof. exact reserve_gap. Qed.
Print Assumptions C27_reserve.
(** No count, a negative one or zero: nothing. *)
Theorem C27_nothing : forall m len bufsize tob r, (m <> None /\ (forall i, (exists e, m = Some e /\ after e = Some i) -> canon i /\ ival i <= 0)) -> tobytes m r len bufsize tob = Nothing.
Proof. exact tobytes_none. Qed.
Print Assumptions C27_nothing.
(** A bytecode that writes another number of bytes without an error is never accepted. *)
Theorem C27_detected : forall m len bufsize tob bs e n, (forall pos, snd (tob pos) = false) -> get_multiple m = Some n -> 0 <= n ->
  tobytes m false len bufsize tob = Bytes bs e -> Z.of_nat (length bs) = len * n.
Proof. exact tobytes_detect. Qed.
Print Assumptions C27_detected.
(** The length and count recorded before layout, when the count is then known. *)
Theorem C27_calc_len : forall e i l, before e = Some i -> canon i -> 0 <= ival i < 2 ^ 31 -> calc_len (Some e) (Some l) = (l, ival i, false, false).
Proof. exact calc_len_ok. Qed.
Print Assumptions C27_calc_len.
(** From 2^31 on the count is taken for the greatest long. *)
Theorem C27_refuted : exists e i tob, after e = Some i /\ canon i /\ ival i = 2 ^ 31 /\ tobytes (Some e) true 1 0 tob = Gap (2 ^ 63 - 1).
Proof. exact tobytes_refuted. Qed.
Print Assumptions C27_refuted.

(** C36: in every processor mode and for every no-op style, code alignment writes exactly the
    padding, as instructions that run through to its end and change nothing. *)
Theorem C36_align : forall a k ms off bits n t, u32num (boundary a) (2 ^ k) -> 0 <= k -> onum (maxskip a) ms -> 0 <= off < 2 ^ 63 ->
  afill a = None -> code a = Some t -> x86_get_fill bits n = Some t ->
  exists b, align_tobytes a off = Some (b, false) /\ Z.of_nat (length b) = padded k ms off /\ falls_through bits b.
Proof. exact align_fill. Qed.
Print Assumptions C36_align.
(** Every length is covered. *)
Theorem C36_fill : forall bits n t len, x86_get_fill bits n = Some t -> 0 < len ->
  exists b, code_out (Z.to_nat len) t (longest t 15) len = Some (b, false) /\ Z.of_nat (length b) = len /\ falls_through bits b.
Proof. exact x86_fill. Qed.
Print Assumptions C36_fill.
(** The LC-3b table covers exactly the even lengths and reports the others. *)
Theorem C36_lc3b : forall len, 0 < len -> exists b e, code_out (Z.to_nat len) lc3b_fill (longest lc3b_fill 15) len = Some (b, e) /\ (e = false <-> len mod 2 = 0) /\ (e = false -> Z.of_nat (length b) = len).
Proof. exact lc3b_fill_ok. Qed.
Print Assumptions C36_lc3b.

(** C57: an included file contributes exactly the bytes from the start, at most the given number. *)
Theorem C57_incbin : forall file start s maxlen m, onum start s -> onum maxlen m -> m <> Some 0 -> let s := match s with Some x => x | None => 0 end in
  let len := fst (incbin_len file start maxlen) in
  incbin_tobytes file start len = (slice file s m, false) /\ len = Z.of_nat (length (slice file s m)) /\
  snd (incbin_len file start maxlen) = (Z.of_nat (length file) <? s).
Proof. exact incbin_ok. Qed.
Print Assumptions C57_incbin.
(** A limit of zero bytes is no limit. *)
Theorem C57_refuted : exists file maxlen, u32num maxlen 0 /\ incbin_len file None (Some maxlen) = (3, false) /\ incbin_tobytes file None 3 = (file, false).
Proof. exact incbin_refuted. Qed.
Print Assumptions C57_refuted.

(** C58: the offset after a bytecode and the distance between two positions. *)
Theorem C58_next : forall off len mult, 0 <= off -> 0 <= len -> 0 <= mult -> off + len * mult < 2 ^ 64 -> next_offset off len mult = off + len * mult.
Proof. exact next_ok. Qed.
Print Assumptions C58_next.
Theorem C58_distance : forall st s d1 d2, 0 <= d1 < 2 ^ 64 -> 0 <= d2 < 2 ^ 64 -> Z.abs (d2 - d1) < 2 ^ 32 ->
  exists i, calc_bc_dist st s s d1 d2 = Some i /\ ival i = d2 - d1.
Proof. exact dist_ok. Qed.
Print Assumptions C58_distance.
Theorem C58_sections : forall st s1 s2 d1 d2, s1 <> s2 -> calc_bc_dist st s1 s2 d1 d2 = None.
Proof. exact dist_other. Qed.
Print Assumptions C58_sections.
(** A backward distance of 2^32 or more loses its upper bits. *)
Theorem C58_refuted : exists d1 d2 i, 0 <= d1 < 2 ^ 64 /\ 0 <= d2 < 2 ^ 64 /\ calc_bc_dist scratch 0 0 d1 d2 = Some i /\ d2 - d1 = - (2 ^ 32 + 5) /\ ival i = - 5.
Proof. exact dist_refuted. Qed.
Print Assumptions C58_refuted.

(** Aligning offset 13 to 16: three bytes, skipped if only two are allowed (then taken from 14). *)
Example align_13 :
  align_expand (Align (IL 16) None None None) 13 = (3, 16, 1) /\ align_expand (Align (IL 16) None (Some (IL 2)) None) 13 = (0, 13, 1) /\
  align_tobytes (Align (IL 16) (Some (IL 0x190)) None None) 13 = Some ([0x90; 0x90; 0x90], false) /\ u32num (IL 16) (2 ^ 4).
Proof. repeat split; try (vm_compute; reflexivity); cbn; lia. Qed.
Example org_5 : org_expand 8 5 = Some 3 /\ org_tobytes 8 7 5 = ([7; 7; 7], false) /\ org_expand 4 5 = None.
Proof. repeat split; reflexivity. Qed.
(** Two bytes written three times; the same with a liar of a bytecode. *)
Example times_3 :
  tobytes (Some (Mul None (Some (IL 3)) false)) false 2 0 (fun pos => ([pos; 9], false)) = Bytes [0; 9; 2; 9; 4; 9] false /\
  tobytes (Some (Mul None (Some (IL 3)) false)) false 2 0 (fun pos => ([pos], false)) = Internal /\
  counts (Some (Mul None (Some (IL 3)) false)) 3.
Proof. split; [vm_compute; reflexivity|]. split; [vm_compute; reflexivity|]. exists (IL 3). repeat split; cbn; lia. Qed.
Example reserve_12 : exists m, tobytes (Some m) true 4 0 (fun _ => ([], false)) = Gap 24 /\ after m = Some (reserve_mult scratch (Some (IL 2)) (IL 3)).
Proof. exists (Mul None (Some (reserve_mult scratch (Some (IL 2)) (IL 3))) false). split; vm_compute; reflexivity. Qed.
(** 17 bytes of 32-bit filler: the two-byte jump over 13 no-ops, and two more bytes. *)
Example fill_17 : code_out 17 fill32 (longest fill32 15) 17 = Some (0xeb :: 13 :: repeat 0x90 13 ++ [0x66; 0x90], false) /\ falls_through 32 (0xeb :: 13 :: repeat 0x90 13 ++ [0x66; 0x90]).
Proof. split; [reflexivity|]. apply (runs_ok 5). reflexivity. Qed.
(** Not everything falls through: a jump past the end does not. *)
Example fill_bad : ~ falls_through 32 [0xeb; 1; 0x90; 0xeb; 5].
Proof. intros H. inversion H as [|n l S L R]; subst. cbn in S. injection S as <-. cbn in R. inversion R as [|n' l' S' L' R']; subst. cbn in S'. injection S' as <-. apply proj2 in L'. vm_compute in L'. lia. Qed.
Example incbin_2_2 : incbin_len [5; 6; 7; 8; 9] (Some (IL 1)) (Some (IL 2)) = (2, false) /\ incbin_tobytes [5; 6; 7; 8; 9] (Some (IL 1)) 2 = ([6; 7], false) /\ incbin_len [5; 6] (Some (IL 3)) None = (0, true).
Proof. repeat split; vm_compute; reflexivity. Qed.
Example dist_back : calc_bc_dist scratch 1 1 10 7 = Some (IL (-3)) /\ next_offset 10 4 3 = 22.
Proof. split; vm_compute; reflexivity. Qed.
