(** Bytecodes: specification and proofs (C24, C25, C27, C36, C57, C58). *)
From Coq Require Import ZArith List Bool Lia Arith.
From Verif Require Import Lib LibBits M_BitVect P_BitVect M_Intnum P_Intnum P_IntnumIO M_Bytecode.
Import ListNotations.
Open Scope Z_scope.

(** * Specification *)
(** The repeat count as written in the source. *)
Definition counts (m : option mexpr) (n : Z) : Prop :=
  match m with None => n = 1 | Some e => exists i, after e = Some i /\ canon i /\ ival i = n end.
(** The least number of bytes up to a multiple of 2^k. *)
Definition padding (k off : Z) : Z := (- off) mod 2 ^ k.
(** What the directive should emit: nothing if more than [m] bytes are needed. *)
Definition padded (k : Z) (m : option Z) (off : Z) : Z :=
  match m with Some s => if s <? padding k off then 0 else padding k off | None => padding k off end.
(** Canonical integers that are non-negative and below 2^32. *)
Definition u32num (i : intnum) (v : Z) : Prop := canon i /\ ival i = v /\ 0 <= v < 2 ^ 32.
Definition onum (o : option intnum) (v : option Z) : Prop :=
  match o, v with None, None => True | Some i, Some z => u32num i z | _, _ => False end.

(** Executing no-ops: how many bytes of [l] the first instruction takes up, if it is one of the
    instructions below that leave registers, flags and memory alone (a short forward jump counts
    the bytes jumped over).  [bits] is the processor mode. *)
Definition md (m : Z) := m / 64. Definition rg (m : Z) := m / 8 mod 8. Definition rm (m : Z) := m mod 8.
Definition nop_body (bits : Z) (l : list Z) : option nat :=
  match l with
  | [] => None
  | o :: r =>
      if o =? 0x90 then Some 1%nat                                      (* nop *)
      else if o =? 0x0f then
        match r with
        | o2 :: m :: _ =>                                               (* nop r/m, 32-bit addressing *)
            if negb (o2 =? 0x1f) || (bits =? 16) || negb (rg m =? 0) then None
            else if (md m =? 0) && negb (rm m =? 4) && negb (rm m =? 5) then Some 3%nat
            else if md m =? 1 then Some (if (rm m =? 4)%Z then 5 else 4)%nat
            else if md m =? 2 then Some (if (rm m =? 4)%Z then 8 else 7)%nat
            else None
        | _ => None
        end
      else None
  end.
Fixpoint nop_prefixed (bits : Z) (l : list Z) : option nat :=
  match l with
  | o :: r => if (o =? 0x66) || (o =? 0x2e) then option_map S (nop_prefixed bits r) else nop_body bits l
  | [] => None
  end.
(** [n] zero bytes follow *)
Fixpoint zeros (n : nat) (l : list Z) : bool :=
  match n, l with O, _ => true | S k, b :: r => (b =? 0) && zeros k r | S _, [] => false end.
Definition nop_step (bits : Z) (l : list Z) : option nat :=
  match l with
  | o :: m :: r =>
      if o =? 0xeb then if (0 <=? m) && (m <? 128) then Some (2 + Z.to_nat m)%nat else None                  (* jmp short *)
      else if o =? 0x89 then if negb (bits =? 64) && (md m =? 3) && (rg m =? rm m) then Some 2%nat else None  (* mov r, r *)
      else if o =? 0x8d then                                            (* lea r, [r + 0] *)
        if bits =? 16 then                  (* r/m 4 is [si], 5 is [di]; si is register 6, di 7 *)
          if ((rm m =? 4) && (rg m =? 6)) || ((rm m =? 5) && (rg m =? 7)) then
            if (md m =? 1) && zeros 1 r then Some 3%nat else if (md m =? 2) && zeros 2 r then Some 4%nat else None
          else None
        else if bits =? 32 then
          if rm m =? 4 then                 (* a SIB byte with no index and base r *)
            match r with
            | s :: r' => if (rg s =? 4) && (rm s =? rg m) && negb (rg m =? 4) then
                           if (md m =? 1) && zeros 1 r' then Some 4%nat else if (md m =? 2) && zeros 4 r' then Some 7%nat else None
                         else None
            | [] => None
            end
          else if rg m =? rm m then
            if (md m =? 1) && zeros 1 r then Some 3%nat else if (md m =? 2) && zeros 4 r then Some 6%nat else None
          else None
        else None
      else nop_prefixed bits l
  | _ => nop_prefixed bits l
  end.
(** Execution from the start of [l] reaches its end exactly. *)
Inductive falls_through (bits : Z) : list Z -> Prop :=
  | ft_end : falls_through bits []
  | ft_step : forall n l, nop_step bits l = Some n -> (0 < n <= length l)%nat -> falls_through bits (skipn n l) -> falls_through bits l.

(** * Repetition *)
Lemma repeat_out_ok : forall tob len size n acc e, 0 <= len -> (forall pos, exists b, tob pos = (b, false) /\ Z.of_nat (length b) = len) ->
  Z.of_nat (length acc) + len * Z.of_nat n <= size ->
  exists bs, repeat_out n size len tob acc e = Bytes (acc ++ bs) (match n with O => e | _ => false end) /\ Z.of_nat (length bs) = len * Z.of_nat n /\
    forall k, (k < n)%nat -> firstn (Z.to_nat len) (skipn (k * Z.to_nat len) bs) = fst (tob (Z.of_nat (length acc) + Z.of_nat k * len)).
Proof.
  intros tob len size n. induction n as [|n IH]; intros acc e L T C; [exists []; cbn; rewrite app_nil_r; split; [auto|split; [lia|intros; lia]]|].
  destruct (T (Z.of_nat (length acc))) as (b & Eb & Lb). cbn [repeat_out]. rewrite Eb. destruct (Z.ltb_spec size (Z.of_nat (length acc) + Z.of_nat (length b))); [lia|].
  rewrite Lb, Z.eqb_refl. cbn [negb andb]. destruct (IH (acc ++ b) false L T) as (bs & R & Q & K). { rewrite app_length. lia. }
  exists (b ++ bs). rewrite R, <- app_assoc. split; [destruct n; auto|]. split; [rewrite app_length; lia|]. intros k Hk. destruct k as [|k].
  - cbn [Nat.mul skipn]. rewrite Z.add_0_r, Eb. cbn [fst]. assert (Z.to_nat len = length b) as -> by lia. rewrite firstn_app, Nat.sub_diag, firstn_all, firstn_O, app_nil_r. reflexivity.
  - assert (E : skipn (Datatypes.S k * Z.to_nat len) (b ++ bs) = skipn (k * Z.to_nat len) bs). { rewrite skipn_app. rewrite skipn_all2 by (cbn [Nat.mul]; nia). cbn [app]. f_equal. cbn [Nat.mul]. lia. }
    rewrite E, K by lia. do 2 f_equal. rewrite app_length. lia.
Qed.
Lemma get_multiple_ok : forall m n, counts m n -> 0 <= n < 2 ^ 31 -> get_multiple m = Some n.
Proof.
  intros [e|] n C R; cbn in C; [|cbn; congruence]. destruct C as (i & E & Ci & V). unfold get_multiple. rewrite E.
  destruct (tests_ok i Ci) as (_ & _ & _ & S). rewrite S, V. destruct (Z.ltb_spec (Z.sgn n) 0); [lia|]. f_equal. rewrite get_int_ok by auto. cbv zeta. rewrite V. destruct (Z.leb_spec n (- 2 ^ 31)); [lia|]. destruct (Z.ltb_spec n (2 ^ 31)); [auto|lia].
Qed.
Lemma tobytes_ok : forall m n len bufsize tob, counts m n -> 0 < n < 2 ^ 31 -> 0 <= len -> len * n < 2 ^ 64 -> 
  (forall pos, exists b, tob pos = (b, false) /\ Z.of_nat (length b) = len) ->
  exists bs, tobytes m false len bufsize tob = Bytes bs false /\ Z.of_nat (length bs) = len * n /\
    forall k, 0 <= k < n -> firstn (Z.to_nat len) (skipn (Z.to_nat (k * len)) bs) = fst (tob (k * len)).
Proof.
  intros m n len bufsize tob C R L W T. unfold tobytes. rewrite (get_multiple_ok m n) by (auto; lia). destruct (Z.eqb_spec n 0); [lia|].
  assert (U : u64 (len * n) = len * n) by (apply Z.mod_small; split; [apply Z.mul_nonneg_nonneg; lia|exact W]). rewrite U.
  destruct (repeat_out_ok tob len (if bufsize <? len * n then len * n else bufsize) (Z.to_nat n) [] false L T) as (bs & E & B & K).
  { cbn [length]. rewrite Z2Nat.id by lia. destruct (Z.ltb_spec bufsize (len * n)); lia. }
  exists bs. rewrite E. cbn [app]. split; [destruct (Z.to_nat n); auto|]. split; [lia|]. intros k Hk. specialize (K (Z.to_nat k) ltac:(lia)). cbn [length] in K. rewrite Z2Nat.id in K by lia. change (Z.of_nat 0 + k * len) with (k * len) in K. rewrite <- K. do 2 f_equal. rewrite <- Z2Nat.inj_mul by lia. reflexivity.
Qed.
Lemma tobytes_reserve : forall m n len bufsize tob, counts m n -> 0 < n < 2 ^ 31 -> 0 <= len -> len * n < 2 ^ 64 -> tobytes m true len bufsize tob = Gap (len * n).
Proof. intros m n len bufsize tob C R L W. unfold tobytes. rewrite (get_multiple_ok m n) by (auto; lia). destruct (Z.eqb_spec n 0); [lia|]. unfold u64. rewrite Z.mod_small; [reflexivity|]. split; [apply Z.mul_nonneg_nonneg; lia|exact W]. Qed.
Lemma tobytes_none : forall m len bufsize tob r, (m <> None /\ (forall i, (exists e, m = Some e /\ after e = Some i) -> canon i /\ ival i <= 0)) -> tobytes m r len bufsize tob = Nothing.
Proof.
  intros [e|] len bufsize tob r [N H]; [|congruence]. unfold tobytes, get_multiple. destruct (after e) as [i|] eqn:E; auto. destruct (H i) as [Ci V]; [eauto|]. destruct (tests_ok i Ci) as (_ & _ & _ & S). rewrite S.
  destruct (Z.ltb_spec (Z.sgn (ival i)) 0); auto. assert (V0 : ival i = 0) by lia. rewrite get_int_ok by auto. cbv zeta. rewrite V0. reflexivity.
Qed.
Lemma repeat_out_len : forall tob len size n acc e bs e', (forall pos, snd (tob pos) = false) -> repeat_out n size len tob acc e = Bytes bs e' ->
  Z.of_nat (length bs) = Z.of_nat (length acc) + len * Z.of_nat n.
Proof.
  intros tob len size n. induction n as [|n IH]; intros acc e bs e' T H; cbn [repeat_out] in H; [injection H as <- <-; lia|].
  specialize (T (Z.of_nat (length acc))) as T0. destruct (tob _) as [b e0]. cbn in T0. subst e0. destruct (_ <? _); [discriminate|]. cbn [negb andb] in H. destruct (Z.eqb_spec (Z.of_nat (length b)) len); [|discriminate]. apply IH in H; auto. rewrite H, app_length. lia.
Qed.
Lemma tobytes_detect : forall m len bufsize tob bs e n, (forall pos, snd (tob pos) = false) -> get_multiple m = Some n -> 0 <= n ->
  tobytes m false len bufsize tob = Bytes bs e -> Z.of_nat (length bs) = len * n.
Proof.
  intros m len bufsize tob bs e n T G N H. unfold tobytes in H. rewrite G in H. destruct (n =? 0); [discriminate|]. apply repeat_out_len in H; auto. cbn [length] in H. rewrite Z2Nat.id in H by auto. exact H.
Qed.
Lemma calc_len_ok : forall e i l, before e = Some i -> canon i -> 0 <= ival i < 2 ^ 31 -> calc_len (Some e) (Some l) = (l, ival i, false, false).
Proof.
  intros e i l E C R. unfold calc_len. rewrite E. destruct (tests_ok i C) as (_ & _ & _ & S). rewrite S. destruct (Z.ltb_spec (Z.sgn (ival i)) 0); [lia|]. rewrite get_int_ok by auto. cbv zeta. destruct (Z.leb_spec (ival i) (- 2 ^ 31)); [lia|]. destruct (Z.ltb_spec (ival i) (2 ^ 31)); [auto|lia].
Qed.
Definition big31 : intnum := IB (BV 256 [2147483648; 0; 0; 0; 0; 0; 0; 0]).
Lemma tobytes_refuted : exists e i tob, after e = Some i /\ canon i /\ ival i = 2 ^ 31 /\ tobytes (Some e) true 1 0 tob = Gap (2 ^ 63 - 1).
Proof.
  exists (Mul (Some big31) (Some big31) false), big31, (fun _ => ([], false)). split; auto. split; [apply canon_IB; [vm_compute; reflexivity|reflexivity|right; vm_compute; reflexivity]|]. split; vm_compute; reflexivity.
Qed.

(** * Offsets and distances *)
Lemma next_ok : forall off len mult, 0 <= off -> 0 <= len -> 0 <= mult -> off + len * mult < 2 ^ 64 -> next_offset off len mult = off + len * mult.
Proof. intros. unfold next_offset. apply Z.mod_small. split; [|auto]. pose proof (Z.mul_nonneg_nonneg len mult). lia. Qed.
Lemma dist_ok : forall st s d1 d2, 0 <= d1 < 2 ^ 64 -> 0 <= d2 < 2 ^ 64 -> Z.abs (d2 - d1) < 2 ^ 32 ->
  exists i, calc_bc_dist st s s d1 d2 = Some i /\ ival i = d2 - d1.
Proof.
  intros st s d1 d2 R1 R2 A. unfold calc_bc_dist. rewrite Z.eqb_refl. destruct (Z.ltb_spec d2 d1) as [L|L].
  - eexists. split; [reflexivity|]. cbn [calc fst]. destruct (tobv_uint (d1 - d2) ltac:(lia)) as [V U]. rewrite Z.mod_small in U by lia. destruct (Negate_V _ V) as [N1 N2]. destruct (frombv_ok _ N1) as [_ ->]. rewrite N2, U, wrap_id; [lia|]. assert (2 ^ 32 < 2 ^ 255) by (vm_compute; reflexivity). lia.
  - eexists. split; [reflexivity|]. unfold create_uint. destruct (Z.ltb_spec LONG_MAX (d2 - d1)); [unfold LONG_MAX in *; lia|]. reflexivity.
Qed.
Lemma dist_other : forall st s1 s2 d1 d2, s1 <> s2 -> calc_bc_dist st s1 s2 d1 d2 = None.
Proof. intros. unfold calc_bc_dist. destruct (Z.eqb_spec s1 s2); congruence. Qed.
Lemma dist_refuted : exists d1 d2 i, 0 <= d1 < 2 ^ 64 /\ 0 <= d2 < 2 ^ 64 /\ calc_bc_dist scratch 0 0 d1 d2 = Some i /\ d2 - d1 = - (2 ^ 32 + 5) /\ ival i = - 5.
Proof. exists 4294967301, 0. eexists. repeat split; try lia; vm_compute; reflexivity. Qed.

(** * Alignment *)
Lemma land_mask : forall off k, 0 <= k -> Z.land off (2 ^ k - 1) = off mod 2 ^ k.
Proof. intros off k K. rewrite <- Z.land_ones by auto. f_equal. rewrite Z.ones_equiv. lia. Qed.
Lemma land_clear : forall off k, 0 <= k -> 0 <= off < 2 ^ 64 -> Z.land off (u64 (Z.lnot (2 ^ k - 1))) = off - off mod 2 ^ k.
Proof.
  intros off k K R. unfold u64. change w64 with (2 ^ 64). rewrite <- (Z.land_ones (Z.lnot _)) by lia. rewrite (Z.land_comm (Z.lnot _)), Z.land_assoc, (Z.land_ones off) by lia. rewrite (Z.mod_small off) by lia.
  replace (2 ^ k - 1) with (Z.ones k) by (rewrite Z.ones_equiv; lia). rewrite <- Z.ldiff_land. rewrite Z.ldiff_ones_r by auto. rewrite Z.shiftl_mul_pow2, Z.shiftr_div_pow2 by auto. rewrite Z.mod_eq by lia. lia.
Qed.
Lemma align_end_ok : forall k off, 0 <= k < 64 -> 0 <= off -> off + 2 ^ k < 2 ^ 64 -> align_end (2 ^ k) off = off + padding k off.
Proof.
  intros k off K O B. pose proof (pow2_pos k ltac:(lia)) as P. unfold align_end, padding. rewrite land_mask by lia. destruct (Z.eqb_spec (off mod 2 ^ k) 0) as [E|E].
  - rewrite Z.mod_opp_l_z by lia. lia.
  - rewrite land_clear by lia. pose proof (Z.mod_pos_bound off (2 ^ k) P). rewrite Z.mod_opp_l_nz by lia. pose proof (Z.mod_le off (2 ^ k) O P). unfold u64. change w64 with (2 ^ 64). rewrite Z.mod_small by lia. lia.
Qed.
Lemma padding_range : forall k off, 0 <= k -> 0 <= padding k off < 2 ^ k.
Proof. intros k off K. apply Z.mod_pos_bound. apply pow2_pos. auto. Qed.
Lemma padding_least : forall k off, 0 <= k -> (off + padding k off) mod 2 ^ k = 0 /\ forall n, 0 <= n < padding k off -> (off + n) mod 2 ^ k <> 0.
Proof.
  intros k off K. pose proof (pow2_pos k K) as P. unfold padding. split.
  - rewrite Z.add_mod_idemp_r by lia. replace (off + - off) with 0 by lia. apply Z.mod_0_l. lia.
  - intros n N E. assert (n mod 2 ^ k = (- off) mod 2 ^ k). { replace n with (off + n + - off) by lia. rewrite Z.add_mod, E by lia. rewrite Z.add_0_l. apply Z.mod_mod. lia. } pose proof (Z.mod_pos_bound (- off) (2 ^ k) P). rewrite Z.mod_small in H by lia. lia.
Qed.
Lemma u32_get : forall i v, u32num i v -> get_uint i = v.
Proof. intros i v (C & E & R). rewrite get_uint_ok by auto. cbv zeta. rewrite E. destruct (Z.ltb_spec v 0); [lia|]. destruct (Z.ltb_spec v (2 ^ 32)); [auto|lia]. Qed.
Lemma align_expand_ok : forall a k ms off, u32num (boundary a) (2 ^ k) -> 0 <= k -> onum (maxskip a) ms -> 0 <= off < 2 ^ 63 ->
  align_expand a off = (padded k ms off, match ms with Some s => if s <? padding k off then off + padding k off - s - 1 else off + padding k off | None => off + padding k off end, 1).
Proof.
  intros a k ms off B K M O. pose proof (u32_get _ _ B) as G. destruct B as (_ & _ & R). assert (K2 : k < 32). { destruct (Z.lt_ge_cases k 32); auto. pose proof (Z.pow_le_mono_r 2 32 k ltac:(lia) ltac:(lia)). lia. }
  unfold align_expand. rewrite G. pose proof (pow2_pos k K). destruct (Z.eqb_spec (2 ^ k) 0); [lia|]. rewrite align_end_ok by lia. pose proof (padding_range k off K). replace (off + padding k off - off) with (padding k off) by lia. assert (U : u64 (padding k off) = padding k off) by (unfold u64; change w64 with (2 ^ 64); apply Z.mod_small; lia). rewrite U.
  unfold padded. destruct (maxskip a) as [i|], ms as [s|]; try contradiction; auto. cbn [onum] in M. pose proof (u32_get _ _ M) as Gs. destruct M as (_ & _ & Rs). rewrite Gs. destruct (Z.ltb_spec s (padding k off)); auto. unfold u64. change w64 with (2 ^ 64). rewrite (Z.mod_small (off + _ - _ - _)) by lia. reflexivity.
Qed.
(** the threshold is exact *)
Lemma padding_upto : forall k off off', 0 <= k -> off <= off' <= off + padding k off -> padding k off' = off + padding k off - off'.
Proof.
  intros k off off' K R. pose proof (pow2_pos k K) as P. pose proof (padding_range k off K) as Q. destruct (padding_least k off K) as [E _]. unfold padding at 1. symmetry. apply Z.mod_unique_pos with (q := - ((off + padding k off) / 2 ^ k)); [lia|].
  pose proof (Z.div_mod (off + padding k off) (2 ^ k) ltac:(lia)). rewrite E in H. lia.
Qed.
Lemma align_thres : forall a k ms off len thr r, u32num (boundary a) (2 ^ k) -> 0 <= k -> onum (maxskip a) ms -> 0 <= off < 2 ^ 63 ->
  align_expand a off = (len, thr, r) -> off <= thr /\
  (len = padding k off -> forall off', off <= off' <= thr -> off' + padded k ms off' = off + len) /\
  (len <> padding k off -> len = 0 /\ (forall off', off <= off' <= thr -> padded k ms off' = 0) /\ ms = Some (padded k ms (thr + 1))).
Proof.
  intros a k ms off len thr r B K M O E. rewrite (align_expand_ok a k ms off B K M O) in E. injection E as <- <- <-. pose proof (padding_range k off K) as Q. unfold padded.
  destruct ms as [s|].
  - assert (S0 : 0 <= s) by (destruct (maxskip a); [destruct M as (_ & _ & ?); lia|contradiction]). destruct (Z.ltb_spec s (padding k off)) as [L|L].
    + split; [lia|]. split; [intros; lia|]. intros _. split; auto. split.
      * intros off' H. rewrite (padding_upto k off off') by lia. destruct (Z.ltb_spec s (off + padding k off - off')); [auto|lia].
      * f_equal. rewrite padding_upto with (off := off) by lia. match goal with |- context [?x <? ?y] => destruct (Z.ltb_spec x y) end; lia.
    + split; [lia|]. split; [|congruence]. intros _ off' H. rewrite (padding_upto k off off') by lia. destruct (Z.ltb_spec s (off + padding k off - off')); lia.
  - split; [lia|]. split; [|congruence]. intros _ off' H. rewrite (padding_upto k off off') by lia. lia.
Qed.
Lemma longest_le : forall t n, (longest t n <= n)%nat.
Proof. intros t n. induction n as [|n IH]; cbn [longest]; destruct (nth _ t None); lia. Qed.
Lemma longest_some : forall t n, longest t n <> O -> exists p, nth (longest t n) t None = Some p.
Proof. intros t n. induction n as [|n IH]; cbn [longest]; intros H.
  - destruct (nth 0 t None) eqn:E; [eauto|congruence].
  - destruct (nth (S n) t None) eqn:E; [eauto|auto].
Qed.
Definition table_ok (t : list (option (list Z))) : Prop := forall n p, nth n t None = Some p -> length p = n.
(** the bytes written for a length, as table entries *)
Lemma code_out_ok : forall t maxlen, table_ok t -> (0 < maxlen)%nat -> (exists p, nth maxlen t None = Some p) ->
  forall fuel len, 0 < len -> len <= Z.of_nat fuel -> exists b e, code_out fuel t maxlen len = Some (b, e) /\
    (e = false -> Z.of_nat (length b) = len /\ exists ps, b = concat ps /\ Forall (fun p => nth (length p) t None = Some p) ps) /\
    (e = true -> exists n, (0 < n <= maxlen)%nat /\ nth n t None = None /\ exists q, 0 <= q /\ len = q * Z.of_nat maxlen + Z.of_nat n).
Proof.
  intros t maxlen T M (p & P). pose proof (T _ _ P) as LP. induction fuel as [|f IH]; intros len L F; [lia|]. cbn [code_out]. destruct (Z.ltb_spec (Z.of_nat maxlen) len) as [C|C].
  - rewrite P. destruct (IH (len - Z.of_nat maxlen) ltac:(lia) ltac:(lia)) as (b & e & -> & A & B). do 2 eexists. split; [reflexivity|]. assert (FA : firstn maxlen p = p) by (rewrite <- LP; apply firstn_all). rewrite FA. split.
    + intros E. destruct (A E) as (A1 & ps & A2 & A3). split; [rewrite app_length; lia|]. exists (p :: ps). split; [cbn [concat]; congruence|]. constructor; auto. rewrite LP. auto.
    + intros E. destruct (B E) as (n & N1 & N2 & q & Q1 & Q2). exists n. repeat split; auto; try lia. exists (q + 1). lia.
  - destruct (nth (Z.to_nat len) t None) as [p'|] eqn:E.
    + pose proof (T _ _ E) as L'. exists p', false. assert (FA : firstn (Z.to_nat len) p' = p') by (rewrite <- L'; apply firstn_all). rewrite FA. split; auto. split; [|discriminate]. intros _. split; [lia|]. exists [p']. cbn [concat]. rewrite app_nil_r. split; auto. constructor; auto. rewrite L'. auto.
    + exists [], true. split; auto. split; [discriminate|]. intros _. exists (Z.to_nat len). repeat split; auto; try lia. exists 0. lia.
Qed.
Lemma align_bytes : forall a k ms off, u32num (boundary a) (2 ^ k) -> 0 <= k -> onum (maxskip a) ms -> 0 <= off < 2 ^ 63 ->
  (forall v f, afill a = Some v -> u32num v f -> align_tobytes a off = Some (repeat (f mod 256) (Z.to_nat (padded k ms off)), false)) /\
  (afill a = None -> code a = None -> align_tobytes a off = Some (repeat 0 (Z.to_nat (padded k ms off)), false)) /\
  (forall t, afill a = None -> code a = Some t -> table_ok t -> exists b e, align_tobytes a off = Some (b, e) /\ (e = false -> Z.of_nat (length b) = padded k ms off)).
Proof.
  intros a k ms off B K M O. pose proof (u32_get _ _ B) as G. destruct B as (_ & _ & R). assert (K2 : k < 32). { destruct (Z.lt_ge_cases k 32); auto. pose proof (Z.pow_le_mono_r 2 32 k ltac:(lia) ltac:(lia)). lia. }
  pose proof (pow2_pos k K) as P0. pose proof (padding_range k off K) as P1. unfold align_tobytes. rewrite G. destruct (Z.eqb_spec (2 ^ k) 0); [lia|]. rewrite align_end_ok by lia. replace (off + padding k off - off) with (padding k off) by lia. unfold u64. change w64 with (2 ^ 64). rewrite (Z.mod_small (padding k off)) by lia.
  assert (SK : match maxskip a with Some i => get_uint i <? padding k off | None => false end = match ms with Some s => s <? padding k off | None => false end).
  { destruct (maxskip a), ms; try contradiction; auto. cbn [onum] in M. rewrite (u32_get _ _ M). auto. } rewrite SK. unfold padded.
  destruct (Z.eqb_spec (padding k off) 0) as [Z|Z].
  { rewrite Z. assert (X : (match ms with Some s => if s <? 0 then 0 else 0 | None => 0 end) = 0) by (destruct ms as [s|]; auto; destruct (s <? 0); auto). rewrite X. repeat split; auto. intros. exists [], false. auto. }
  destruct (match ms with Some s => s <? padding k off | None => false end) eqn:SK2.
  { assert (X : (match ms with Some s => if s <? padding k off then 0 else padding k off | None => padding k off end) = 0) by (destruct ms; [rewrite SK2; auto|discriminate]). rewrite X. repeat split; auto. intros. exists [], false. auto. }
  assert (X : (match ms with Some s => if s <? padding k off then 0 else padding k off | None => padding k off end) = padding k off) by (destruct ms; [rewrite SK2; auto|auto]). rewrite X. split; [|split].
  - intros v f -> U. rewrite (u32_get _ _ U). auto.
  - intros -> ->. auto.
  - intros t -> -> T. destruct (Nat.eqb_spec (longest t 15) 0) as [E|E]; [exists [], true; split; auto; discriminate|]. destruct (code_out_ok t (longest t 15) T ltac:(lia) (longest_some t 15 E) (Z.to_nat (padding k off)) (padding k off) ltac:(lia) ltac:(lia)) as (b & e & H & A & _). exists b, e. split; auto. intros Q. apply A in Q. tauto.
Qed.

(** * Origin *)
Lemma org_ok : forall start off fill, 0 <= off < 2 ^ 64 -> 0 <= start < 2 ^ 64 ->
  (off <= start -> exists len, org_expand start off = Some len /\ off + len = start /\ org_tobytes start fill off = (repeat (fill mod 256) (Z.to_nat len), false)) /\
  (start < off -> org_expand start off = None /\ org_tobytes start fill off = ([], true)).
Proof.
  intros start off fill O S. unfold org_expand, org_tobytes. destruct (Z.ltb_spec start off); split; intros; try lia; auto. exists (start - off). assert (U : u64 (start - off) = start - off) by (unfold u64; change w64 with (2 ^ 64); apply Z.mod_small; lia). rewrite U. repeat split; auto. lia.
Qed.

(** * Included files *)
Definition slice (file : list Z) (start : Z) (maxlen : option Z) : list Z :=
  let rest := skipn (Z.to_nat start) file in match maxlen with Some n => firstn (Z.to_nat n) rest | None => rest end.
Lemma fin_val : forall i v, u32num i v -> match fin (Some i) with Some j => get_uint j | None => 0 end = v.
Proof. intros i v U. pose proof (u32_get _ _ U) as G. destruct U as (C & E & R). cbn [fin]. destruct (tests_ok i C) as (Z0 & _). rewrite Z0, E. destruct (Z.eqb_spec v 0); auto. Qed.
Lemma fin_nz : forall i v, u32num i v -> v <> 0 -> fin (Some i) = Some i.
Proof. intros i v (C & E & R) N. cbn [fin]. destruct (tests_ok i C) as (Z0 & _). rewrite Z0, E. destruct (Z.eqb_spec v 0); auto. lia. Qed.
Lemma incbin_ok : forall file start s maxlen m, onum start s -> onum maxlen m -> m <> Some 0 -> let s := match s with Some x => x | None => 0 end in
  let len := fst (incbin_len file start maxlen) in
  incbin_tobytes file start len = (slice file s m, false) /\ len = Z.of_nat (length (slice file s m)) /\
  snd (incbin_len file start maxlen) = (Z.of_nat (length file) <? s).
Proof.
  intros file start s maxlen m S M N s0. unfold incbin_len, incbin_tobytes.
  assert (SV : match fin start with Some i => get_uint i | None => 0 end = s0) by (destruct start, s; try contradiction; [apply fin_val; auto|reflexivity]). rewrite SV.
  assert (S0 : 0 <= s0) by (subst s0; destruct start, s; try contradiction; [destruct S as (_ & _ & ?); lia|lia]).
  assert (MV : fin maxlen = maxlen) by (destruct maxlen, m; try contradiction; auto; apply (fin_nz i z); auto; congruence). rewrite MV.
  set (flen := Z.of_nat (length file)). assert (LS : Z.of_nat (length (skipn (Z.to_nat s0) file)) = Z.max 0 (flen - s0)) by (rewrite skipn_length; lia).
  set (s' := if flen <? s0 then (flen, true) else (s0, false)). assert (FS : flen - fst s' = Z.max 0 (flen - s0)) by (subst s'; destruct (Z.ltb_spec flen s0); cbn; lia). assert (SS : snd s' = (flen <? s0)) by (subst s'; destruct (flen <? s0); auto). destruct s' as [s1 w]. cbn [fst snd] in *. rewrite FS, SS.
  assert (LEN : (match maxlen with Some i => if get_uint i <? Z.max 0 (flen - s0) then get_uint i else Z.max 0 (flen - s0) | None => Z.max 0 (flen - s0) end) = Z.of_nat (length (slice file s0 m))).
  { unfold slice. destruct maxlen, m; try contradiction; auto. cbn [onum] in M. rewrite (u32_get _ _ M). destruct M as (_ & _ & ?). rewrite firstn_length, Nat2Z.inj_min, LS. destruct (Z.ltb_spec z (Z.max 0 (flen - s0))); lia. }
  rewrite LEN. set (len := Z.of_nat (length (slice file s0 m))).
  assert (G : firstn (Z.to_nat len) (skipn (Z.to_nat s0) file) = slice file s0 m).
  { subst len. rewrite Nat2Z.id. unfold slice. destruct m as [n|]; [|apply firstn_all]. rewrite firstn_length. destruct (Nat.min_spec (Z.to_nat n) (length (skipn (Z.to_nat s0) file))) as [[? ->]|[? ->]]; auto. rewrite firstn_all. symmetry. apply firstn_all2. auto. }
  rewrite G. destruct (Z.ltb_spec (Z.of_nat (length (slice file s0 m))) len); [subst len; lia|]. auto.
Qed.
Lemma incbin_refuted : exists file maxlen, u32num maxlen 0 /\ incbin_len file None (Some maxlen) = (3, false) /\ incbin_tobytes file None 3 = (file, false).
Proof. exists [1; 2; 3], (IL 0). repeat split; cbn; lia. Qed.

(** * Fill *)
Lemma body_app : forall bits l r n, nop_body bits l = Some n -> nop_body bits (l ++ r) = Some n.
Proof. intros bits l r n H. destruct l as [|o l]; [discriminate|]. unfold nop_body in *. cbn [app]. destruct (o =? 144); auto. destruct (o =? 15); auto. destruct l as [|o2 [|m l]]; [discriminate|discriminate|]. exact H. Qed.
Lemma prefixed_app : forall bits l r n, nop_prefixed bits l = Some n -> nop_prefixed bits (l ++ r) = Some n.
Proof. intros bits l r. induction l as [|o l IH]; intros n H; [discriminate|]. cbn [nop_prefixed app] in *. destruct ((o =? 102) || (o =? 46)); [|apply (body_app bits (o :: l) r n H)]. destruct (nop_prefixed bits l) as [k|]; [|discriminate]. rewrite (IH k eq_refl). exact H. Qed.
Lemma zeros_app : forall n l r, zeros n l = true -> zeros n (l ++ r) = true.
Proof. induction n as [|n IH]; intros l r H; auto. destruct l as [|b l]; [discriminate|]. cbn [zeros app] in *. apply andb_true_iff in H. destruct H as [-> H]. cbn. auto. Qed.
Lemma zsel : forall (c d : bool) n1 n2 a b l r n, (if c && zeros n1 l then Some a else if d && zeros n2 l then Some b else None) = Some n -> c && d = false ->
  (if c && zeros n1 (l ++ r) then Some a else if d && zeros n2 (l ++ r) then Some b else None) = Some (n : nat).
Proof.
  intros c d n1 n2 a b l r n H X. destruct c, d; try discriminate X; cbn [andb] in *; try discriminate H.
  - destruct (zeros n1 l) eqn:E; [|discriminate]. rewrite (zeros_app _ _ r E). exact H.
  - destruct (zeros n2 l) eqn:E; [|discriminate]. rewrite (zeros_app _ _ r E). exact H.
Qed.
Lemma step_app : forall bits l r n, nop_step bits l = Some n -> nop_step bits (l ++ r) = Some n.
Proof.
  intros bits l r n H. destruct l as [|o l]; [discriminate|]. destruct l as [|m l].
  - (* one byte: a plain nop *)
    cbn [nop_step] in H. pose proof (prefixed_app bits [o] r n H) as Q. cbn [app] in *. destruct r as [|m r]; auto. unfold nop_step. 
    destruct (Z.eqb_spec o 235); [subst; discriminate|]. destruct (Z.eqb_spec o 137); [subst; discriminate|]. destruct (Z.eqb_spec o 141); [subst; discriminate|]. exact Q.
  - unfold nop_step in *. cbn [app]. destruct (o =? 235); auto. destruct (o =? 137); auto. destruct (o =? 141); [|apply (prefixed_app bits (o :: m :: l) r n H)].
    assert (MD : (md m =? 1) && (md m =? 2) = false) by (destruct (Z.eqb_spec (md m) 1), (Z.eqb_spec (md m) 2); auto; lia).
    destruct (bits =? 16); [destruct (_ || _); [|discriminate]; apply zsel; auto|]. destruct (bits =? 32); [|discriminate]. destruct (rm m =? 4).
    + destruct l as [|s l]; [discriminate|]. cbn [app]. destruct (_ && _ && _); [|discriminate]. apply zsel; auto.
    + destruct (rg m =? rm m); [|discriminate]. apply zsel; auto.
Qed.
Lemma ft_app : forall bits a b, falls_through bits a -> falls_through bits b -> falls_through bits (a ++ b).
Proof.
  intros bits a b A B. induction A as [|n l S L _ IH]; auto. apply (ft_step bits n); [apply step_app; auto|rewrite app_length; lia|]. rewrite skipn_app. replace (n - length l)%nat with 0%nat by lia. exact IH.
Qed.
Lemma ft_concat : forall bits ps, Forall (falls_through bits) ps -> falls_through bits (concat ps).
Proof. intros bits ps H. induction H; [constructor|]. cbn [concat]. apply ft_app; auto. Qed.
(** running by computation *)
Fixpoint runs (fuel : nat) (bits : Z) (l : list Z) : bool :=
  match l, fuel with
  | [], _ => true
  | _, S f => match nop_step bits l with Some n => (0 <? n)%nat && (n <=? length l)%nat && runs f bits (skipn n l) | None => false end
  | _, O => false
  end.
Lemma runs_ok : forall fuel bits l, runs fuel bits l = true -> falls_through bits l.
Proof.
  induction fuel as [|f IH]; intros bits l H; (destruct l as [|o l]; [constructor|]); [discriminate|]. cbn [runs] in H. destruct (nop_step bits (o :: l)) as [n|] eqn:E; [|discriminate]. rewrite !andb_true_iff in H. destruct H as [[H1 H2] H3]. apply Nat.ltb_lt in H1. apply Nat.leb_le in H2. apply (ft_step bits n); auto.
Qed.
Definition entry_ok (bits : Z) (t : list (option (list Z))) (n : nat) : bool :=
  match nth n t None with Some p => (length p =? n)%nat && runs 3 bits p | None => (n =? 0)%nat end.
Definition fill_ok (bits : Z) (t : list (option (list Z))) : bool := (length t =? 16)%nat && forallb (entry_ok bits t) (seq 0 16).
Lemma fill_ok_entries : forall bits t, fill_ok bits t = true -> forall n, (n < 16)%nat -> match nth n t None with Some p => length p = n /\ falls_through bits p | None => n = 0%nat end.
Proof.
  intros bits t H n L. unfold fill_ok in H. apply andb_true_iff in H. destruct H as [_ H]. rewrite forallb_forall in H. specialize (H n ltac:(apply in_seq; lia)). unfold entry_ok in H. destruct (nth n t None).
  - apply andb_true_iff in H. destruct H as [H1 H2]. apply Nat.eqb_eq in H1. apply runs_ok in H2. auto.
  - apply Nat.eqb_eq in H. auto.
Qed.
Lemma fill_ok_table : forall bits t, fill_ok bits t = true -> table_ok t.
Proof.
  intros bits t H n p E. destruct (Nat.lt_ge_cases n 16) as [L|L].
  - pose proof (fill_ok_entries bits t H n L) as Q. rewrite E in Q. tauto.
  - unfold fill_ok in H. apply andb_true_iff in H. destruct H as [H _]. apply Nat.eqb_eq in H. rewrite nth_overflow in E by lia. discriminate.
Qed.
Lemma x86_fill_ok : forall bits n t, x86_get_fill bits n = Some t -> fill_ok bits t = true.
Proof.
  intros bits n t H. unfold x86_get_fill in H. destruct (Z.eqb_spec bits 16); [subst; injection H as <-; vm_compute; reflexivity|]. destruct (Z.eqb_spec bits 32); [subst; injection H as <-; destruct n; vm_compute; reflexivity|]. destruct (Z.eqb_spec bits 64); [subst; injection H as <-; destruct n; vm_compute; reflexivity|discriminate].
Qed.
Lemma code_out_fill : forall bits t, fill_ok bits t = true -> forall len, 0 < len -> longest t 15 <> O ->
  exists b, code_out (Z.to_nat len) t (longest t 15) len = Some (b, false) /\ Z.of_nat (length b) = len /\ falls_through bits b.
Proof.
  intros bits t T len L M. pose proof (longest_le t 15) as LL.
  destruct (code_out_ok t (longest t 15) (fill_ok_table bits t T) ltac:(lia) (longest_some t 15 M) (Z.to_nat len) len L ltac:(lia)) as (b & e & H & A & B). destruct e.
  - destruct (B eq_refl) as (n & N1 & N2 & _). pose proof (fill_ok_entries bits t T n ltac:(lia)) as Q. rewrite N2 in Q. lia.
  - destruct (A eq_refl) as (A1 & ps & A2 & A3). exists b. split; auto. split; auto. subst b. apply ft_concat. eapply Forall_impl; [|exact A3]. intros p P. cbn beta in P.
    destruct (Nat.lt_ge_cases (length p) 16) as [Q|Q]; [pose proof (fill_ok_entries bits t T _ Q) as X; rewrite P in X; tauto|]. unfold fill_ok in T. apply andb_true_iff in T. destruct T as [T _]. apply Nat.eqb_eq in T. rewrite nth_overflow in P by lia. discriminate.
Qed.
Lemma x86_longest : forall bits n t, x86_get_fill bits n = Some t -> longest t 15 = 15%nat.
Proof.
  intros bits n t H. unfold x86_get_fill in H. destruct (Z.eqb_spec bits 16); [subst; injection H as <-; reflexivity|]. destruct (Z.eqb_spec bits 32); [subst; injection H as <-; destruct n; reflexivity|]. destruct (Z.eqb_spec bits 64); [subst; injection H as <-; destruct n; reflexivity|discriminate].
Qed.
Lemma x86_fill : forall bits n t len, x86_get_fill bits n = Some t -> 0 < len ->
  exists b, code_out (Z.to_nat len) t (longest t 15) len = Some (b, false) /\ Z.of_nat (length b) = len /\ falls_through bits b.
Proof. intros bits n t len X L. apply code_out_fill; auto; [apply (x86_fill_ok _ _ _ X)|rewrite (x86_longest _ _ _ X); discriminate]. Qed.
Lemma align_fill : forall a k ms off bits n t, u32num (boundary a) (2 ^ k) -> 0 <= k -> onum (maxskip a) ms -> 0 <= off < 2 ^ 63 ->
  afill a = None -> code a = Some t -> x86_get_fill bits n = Some t ->
  exists b, align_tobytes a off = Some (b, false) /\ Z.of_nat (length b) = padded k ms off /\ falls_through bits b.
Proof.
  intros a k ms off bits n t B K M O F C X. pose proof (x86_fill_ok _ _ _ X) as FO. pose proof (x86_longest _ _ _ X) as LO. destruct (align_bytes a k ms off B K M O) as (_ & _ & H). destruct (H t F C (fill_ok_table bits t FO)) as (b & e & E & L). 
  assert (Q : e = false /\ falls_through bits b).
  { unfold align_tobytes in E. rewrite F, C, LO in E. destruct (get_uint (boundary a) =? 0); [injection E as <- <-; split; [auto|constructor]|]. destruct (Z.eqb_spec (u64 (align_end (get_uint (boundary a)) off - off)) 0) as [Z|Z]; [injection E as <- <-; split; [auto|constructor]|]. destruct (match maxskip a with Some i => _ | None => false end); [injection E as <- <-; split; [auto|constructor]|]. cbn [Nat.eqb] in E.
    rewrite <- LO in E. set (len := u64 (align_end (get_uint (boundary a)) off - off)) in *. assert (0 <= len) by (apply Z.mod_pos_bound; reflexivity). destruct (code_out_fill bits t FO len ltac:(lia) ltac:(rewrite LO; discriminate)) as (b' & E' & L' & FT). rewrite E' in E. injection E as <- <-. auto. }
  destruct Q as [-> Q]. exists b. auto.
Qed.
Lemma lc3b_fill_ok : forall len, 0 < len -> exists b e, code_out (Z.to_nat len) lc3b_fill (longest lc3b_fill 15) len = Some (b, e) /\ (e = false <-> len mod 2 = 0) /\ (e = false -> Z.of_nat (length b) = len).
Proof.
  assert (T : table_ok lc3b_fill). { intros n p E. destruct (Nat.lt_ge_cases n 16) as [L|L]; [|rewrite nth_overflow in E by (cbn; lia); discriminate]. do 16 (destruct n as [|n]; [cbn in E; congruence || (injection E as <-; reflexivity)|]). lia. }
  intros len L. change (longest lc3b_fill 15) with 14%nat. destruct (code_out_ok lc3b_fill 14 T ltac:(lia) ltac:(eexists; reflexivity) (Z.to_nat len) len L ltac:(lia)) as (b & e & H & A & B). exists b, e. split; auto. destruct e.
  - split; [|discriminate]. split; [discriminate|]. intros E. destruct (B eq_refl) as (n & N1 & N2 & q & Q1 & Q2). exfalso. change (Z.of_nat 14) with (2 * 7) in Q2. assert (EV : Z.of_nat n mod 2 = 0) by (rewrite Q2, Z.add_comm in E; replace (q * (2 * 7)) with (q * 7 * 2) in E by lia; rewrite Z.mod_add in E by lia; auto).
    do 15 (destruct n as [|n]; [first [lia|discriminate N2|discriminate EV]|]). lia.
  - destruct (A eq_refl) as (A1 & ps & A2 & A3). split; [|auto]. split; [intros _|auto]. rewrite <- A1, A2. clear - A3. induction A3 as [|p ps P _ IH]; [reflexivity|]. cbn [concat]. rewrite app_length, Nat2Z.inj_add, Z.add_mod, IH by lia. rewrite Z.add_0_r, Z.mod_mod by lia.
    assert (Q : (length p < 16)%nat) by (destruct (Nat.lt_ge_cases (length p) 16); auto; rewrite nth_overflow in P by (cbn; lia); discriminate). remember (length p) as n eqn:EN. clear EN. do 16 (destruct n as [|n]; [first [reflexivity|discriminate P]|]). lia.
Qed.

(** * The kinds of bytecode written at their own offset *)
Lemma align_full : forall a k ms off, u32num (boundary a) (2 ^ k) -> 0 <= k -> onum (maxskip a) ms -> 0 <= off < 2 ^ 63 ->
  (exists thr, align_expand a off = (padded k ms off, thr, 1)) /\
  (off + padding k off) mod 2 ^ k = 0 /\ (forall n, 0 <= n < padding k off -> (off + n) mod 2 ^ k <> 0).
Proof. intros a k ms off B K M O. split; [eexists; apply align_expand_ok; auto|]. apply padding_least. auto. Qed.
Lemma reserve_ok : forall st m n items k, (match m with None => n = 1 | Some i => canon i /\ ival i = n end) -> canon items -> ival items = k -> 0 <= n -> 0 <= k -> n * k < 2 ^ 31 ->
  let i := reserve_mult st m items in canon i /\ ival i = n * k.
Proof.
  intros st m n items k M C E N K L i. subst i. destruct m as [i|]; cbn [reserve_mult]; [|subst n; rewrite Z.mul_1_l; auto]. destruct M as [Ci Vi].
  assert (B : 2 ^ 31 < 2 ^ 255) by (vm_compute; reflexivity). pose proof (Z.mul_nonneg_nonneg n k N K) as P.
  pose proof (calc_ok st i MUL items (n * k) Ci C) as H. rewrite Vi, E in H. specialize (H eq_refl). destruct H as (j & Ej & Cj & Vj).
  { intros _. left. rewrite Z.abs_eq by exact P. lia. }
  rewrite Ej. cbn [fst]. split; auto. rewrite Vj. apply wrap_id. lia.
Qed.
Lemma reserve_gap : forall st i n items k size bufsize tob, canon i -> ival i = n -> canon items -> ival items = k -> 0 < n -> 0 < k -> n * k < 2 ^ 31 -> 0 <= size < 2 ^ 32 -> forall m, after m = Some (reserve_mult st (Some i) items) ->
  tobytes (Some m) true size bufsize tob = Gap (size * (n * k)).
Proof.
  intros st i n items k size bufsize tob Ci Vi C E N K L S m M. destruct (reserve_ok st (Some i) n items k (conj Ci Vi) C E ltac:(lia) ltac:(lia) L) as [A B]. pose proof (Z.mul_pos_pos n k N K).
  apply tobytes_reserve; [exists (reserve_mult st (Some i) items); auto|lia|lia|]. apply Z.le_lt_trans with (size * 2 ^ 31); [apply Z.mul_le_mono_nonneg_l; lia|]. change (2 ^ 64) with (2 ^ 33 * 2 ^ 31). apply Z.mul_lt_mono_pos_r; lia.
Qed.
