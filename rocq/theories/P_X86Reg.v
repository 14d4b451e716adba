(** How addresses are read by the processor, and the choice and encoding of registers (C33). *)
From Coq Require Import ZArith List Bool Arith Lia.
From Verif Require Import Lib M_BitVect M_Intnum P_Intnum M_Expr P_Expr P_ExprLevel P_ExprTree P_ExprTop P_ExprUse M_X86 P_X86Len.
Import ListNotations.
Open Scope Z_scope.

(** * Specification: decoding a memory operand *)
(** The number written by bytes, low byte first, and as a signed number *)
Fixpoint number (l : list Z) : Z := match l with [] => 0 | b :: r => b + 256 * number r end.
Definition sdisp (l : list Z) : Z :=
  let n := 8 * Z.of_nat (length l) in if n =? 0 then 0 else if number l <? 2 ^ (n - 1) then number l else number l - 2 ^ n.
(** A memory operand: base register, index register with its scale, displacement, and whether it is relative to the next instruction.
    Registers 0 to 15 are general registers, 17 to 32 vector registers. *)
Record mem := Mem { m_base : option Z; m_index : option (Z * Z); m_disp : Z; m_rip : bool }.
(** What follows: a displacement of [n] bytes *)
Definition dsp (n : nat) (r : list Z) (f : Z -> mem) : option (mem * list Z) :=
  if (length r <? n)%nat then None else Some (f (sdisp (firstn n r)), skipn n r).
(** ModRM with 32 or 64-bit addresses (Intel SDM vol. 2, tables 2-2 and 2-3); [x] and [b] extend the index and the base;
    [vs]: the index is a vector register *)
Definition decode32 (mode : Z) (vs : bool) (x b : Z) (l : list Z) : option (mem * list Z) :=
  match l with
  | [] => None
  | m :: r =>
      let md := m / 64 in
      let rm := m mod 8 in
      let by_mod n0 r f := if md =? 0 then dsp n0 r f else if md =? 1 then dsp 1 r f else dsp 4 r f in
      if md =? 3 then None
      else if rm =? 4 then
        match r with
        | [] => None
        | s :: r' =>
            let i := (s / 8) mod 8 + 8 * x in
            let index := if vs then Some (17 + i, 2 ^ (s / 64)) else if i =? 4 then None else Some (i, 2 ^ (s / 64)) in
            if (s mod 8 =? 5) && (md =? 0) then dsp 4 r' (fun d => Mem None index d false)
            else by_mod 0%nat r' (fun d => Mem (Some (s mod 8 + 8 * b)) index d false)
        end
      else if (rm =? 5) && (md =? 0) then dsp 4 r (fun d => Mem None None d (mode =? 64))
      else by_mod 0%nat r (fun d => Mem (Some (rm + 8 * b)) None d false)
  end.
(** ModRM with 16-bit addresses (table 2-1); BX = 3, BP = 5, SI = 6, DI = 7 *)
Definition decode16 (l : list Z) : option (mem * list Z) :=
  match l with
  | [] => None
  | m :: r =>
      let md := m / 64 in
      let rm := m mod 8 in
      if md =? 3 then None
      else if (rm =? 6) && (md =? 0) then dsp 2 r (fun d => Mem None None d false)
      else
        let base := nth (Z.to_nat rm) [Some 3; Some 3; Some 5; Some 5; None; None; Some 5; Some 3] None in
        let index := nth (Z.to_nat rm) [Some (6, 1); Some (7, 1); Some (6, 1); Some (7, 1); Some (6, 1); Some (7, 1); None; None] None in
        dsp (if md =? 0 then 0%nat else if md =? 1 then 1%nat else 2%nat) r (fun d => Mem base index d false)
  end.
(** The address, before truncation to the address size *)
Definition address (R : Z -> Z) (next : Z) (m : mem) : Z :=
  match m_base m with Some r => R r | None => 0 end + match m_index m with Some (r, s) => s * R r | None => 0 end +
  m_disp m + (if m_rip m then next else 0).

(** * Sums over registers *)
Definition tot (m : mults) (R : Z -> Z) (l : list Z) : Z := fold_right (fun i s => m i * R i + s) 0 l.
Lemma tot_ext : forall m m' R l, (forall i, In i l -> m i = m' i) -> tot m R l = tot m' R l.
Proof. intros m m' R l H. induction l as [|i r IH]; auto. cbn. fold (tot m R r) (tot m' R r). rewrite IH, (H i) by (cbn; auto; intros; apply H; right; auto). auto. Qed.
Lemma tot_zero : forall m R l, (forall i, In i l -> m i = 0) -> tot m R l = 0.
Proof. intros m R l H. induction l as [|i r IH]; auto. cbn. fold (tot m R r). rewrite IH, (H i) by (cbn; auto; intros; apply H; right; auto). lia. Qed.
Lemma tot_one : forall m R l a, NoDup l -> In a l -> (forall i, In i l -> i <> a -> m i = 0) -> tot m R l = m a * R a.
Proof.
  intros m R l a N I H. induction l as [|i r IH]; [destruct I|]. inversion N; subst. cbn. fold (tot m R r). destruct I as [->|I].
  - rewrite tot_zero; [lia|]. intros j J. apply H; [right; auto|]. intros ->. contradiction.
  - rewrite IH; auto; [|intros j J; apply H; right; auto]. rewrite (H i); [lia|left; auto|]. intros ->. contradiction.
Qed.
Lemma tot_two : forall m R l a b, NoDup l -> In a l -> In b l -> a <> b -> (forall i, In i l -> i <> a -> i <> b -> m i = 0) -> tot m R l = m a * R a + m b * R b.
Proof.
  intros m R l a b N IA IB AB H. induction l as [|i r IH]; [destruct IA|]. inversion N; subst. cbn. fold (tot m R r). destruct (Z.eq_dec i a) as [->|NA].
  - destruct IB as [->|IB]; [congruence|]. rewrite (tot_one m R r b); auto. intros j J JB. apply H; [right; auto| |auto]. intros ->. contradiction.
  - destruct IA as [->|IA]; [congruence|]. destruct (Z.eq_dec i b) as [->|NB].
    + rewrite (tot_one m R r a); auto; [lia|]. intros j J JB. apply H; [right; auto|auto|]. intros ->. contradiction.
    + destruct IB as [->|IB]; [congruence|]. rewrite IH; auto; [|intros j J; apply H; right; auto]. rewrite (H i (or_introl eq_refl) NA NB). lia.
Qed.
Lemma upto_in : forall n i, In i (upto n) <-> 0 <= i < n.
Proof.
  intros n i. unfold upto. rewrite in_map_iff. split.
  - intros (k & <- & K). apply in_seq in K. lia.
  - intros H. exists (Z.to_nat i). split; [lia|]. apply in_seq. lia.
Qed.
Lemma upto_nodup : forall n, NoDup (upto n).
Proof.
  intros n. unfold upto. apply FinFun.Injective_map_NoDup; [|apply seq_NoDup]. intros a b H. lia.
Qed.
Lemma upto_all : forall n f x, forallb f (upto n) = true -> 0 <= x < n -> f x = true.
Proof. intros n f x H X. rewrite forallb_forall in H. apply H. apply upto_in. auto. Qed.

(** * Choosing base and index *)
Lemma find_ok : forall m l b x b' x', find_regs m l b x = Some (b', x') -> Forall (fun i => 0 <= i) l -> (b = -1 \/ m b = 1 /\ b <> x /\ 0 <= b) ->
  NoDup l -> ~ In b l ->
  (forall i, In i l -> 0 <= m i) /\ (b' = -1 \/ m b' = 1 /\ b' <> x' /\ 0 <= b') /\ (x' = x \/ x = -1 /\ In x' l /\ 0 < m x').
Proof.
  intros m. induction l as [|i r IH]; intros b x b' x' H F B N NB; cbn [find_regs] in H; [injection H as <- <-; split; [intros i []|auto]|].
  inversion F; subst. inversion N; subst. destruct (m i <? 0) eqn:C; [discriminate|]. apply Z.ltb_ge in C.
  destruct (negb (i =? x) && (m i =? 1) && (b =? -1)) eqn:C2.
  - rewrite !andb_true_iff, negb_true_iff, Z.eqb_neq, !Z.eqb_eq in C2. destruct C2 as [[C2 C3] C4]. apply IH in H; auto. destruct H as (H & HB & HX). split; [intros j [->|J]; auto|]. split; auto. destruct HX as [HX|HX]; [auto|right]. cbn. tauto.
  - destruct ((x =? -1) && (0 <? m i)) eqn:C3.
    + rewrite andb_true_iff, Z.eqb_eq, Z.ltb_lt in C3. destruct C3 as [C3 C4]. assert (BI : b <> i) by (intros ->; apply NB; left; auto).
      apply IH in H; auto; [|destruct B as [B|[B1 [B2 B3]]]; auto|intros J; apply NB; right; auto]. destruct H as (H & HB & HX). split; [intros j [->|J]; auto|]. split; auto. right. split; auto. destruct HX as [->|(-> & _)]; [split; [left; auto|auto]|lia].
    + apply IH in H; auto; [|intros J; apply NB; right; auto]. destruct H as (H & HB & HX). split; [intros j [->|J]; auto|]. split; auto. destruct HX as [HX|HX]; [auto|right]. cbn. tauto.
Qed.
(** the registers chosen stand for the same sum *)
Definition part (R : Z -> Z) (k r : Z) : Z := if r =? -1 then 0 else k * R r.
Record chosen (m : mults) (n vs : Z) (base idx sc : Z) : Prop := Chosen {
  ch_sum : forall R, tot m R (upto n) = part R 1 base + part R sc idx;
  ch_scale : idx = -1 \/ In sc [1; 2; 4; 8];
  ch_base : base = -1 \/ 0 <= base < 17 /\ m base <> 0;
  ch_idx : idx = -1 \/ 0 <= idx < n /\ idx <> 4 /\ idx <> 16 /\ m idx <> 0;
  ch_rip : base = 16 -> idx = -1;
  ch_vs : vs <> 0 -> 17 <= idx;
  ch_novs : vs = 0 -> idx < 17 }.
Lemma choose_ok : forall m n vs ns x0 b1 x1 b2 x2 m' base idx, (n = if vs =? 0 then 17 else 33) -> (x0 = -1 \/ 0 <= x0 < n) -> (forall i, i < 0 \/ n <= i -> m i = 0) ->
  find_regs m (upto n) (-1) (if negb (x0 =? -1) && (m x0 =? 0) then -1 else x0) = Some (b1, x1) ->
  adjust vs ns m b1 x1 = Some (b2, x2, m') -> check_regs n m' b2 x2 = Some (base, idx) -> chosen m n vs base idx (m' idx).
Proof.
  intros m n vs ns x0 b1 x1 b2 x2 m' base idx EN X0 OUT F A C. set (xs := if negb (x0 =? -1) && (m x0 =? 0) then -1 else x0) in *.
  assert (XS : xs = -1 \/ 0 <= xs < n /\ m xs <> 0).
  { unfold xs. destruct (Z.eqb_spec x0 (-1)) as [->|NX]; [left; auto|]. cbn [negb andb]. destruct (Z.eqb_spec (m x0) 0); [left; auto|]. destruct X0 as [X0|X0]; [auto|right; auto]. }
  clearbody xs. apply find_ok in F; auto; [|apply Forall_forall; intros i I; apply upto_in in I; lia|apply upto_nodup|rewrite upto_in; lia].
  destruct F as (POS & B1 & X1).
  assert (X1' : x1 = -1 \/ 0 <= x1 < n /\ 0 < m x1).
  { destruct X1 as [->|(_ & I & P)]; [|apply upto_in in I; auto]. destruct XS as [->|[XS NZ]]; [auto|right]. split; auto. specialize (POS xs ltac:(apply upto_in; auto)). lia. }
  assert (B1' : b1 = -1 \/ 0 <= b1 < n /\ m b1 = 1 /\ b1 <> x1).
  { destruct B1 as [->|(B1 & B2 & B3)]; [auto|right]. split; [|auto]. destruct (Z_lt_le_dec b1 n) as [L|L]; [lia|]. rewrite OUT in B1 by lia. discriminate. }
  clear X1 B1 XS. unfold check_regs in C. destruct (existsb _ (upto n)) eqn:EX; [discriminate|].
  assert (REST : forall i, In i (upto n) -> i <> b2 -> i <> x2 -> m' i = 0).
  { intros i I N1 N2. destruct (Z.eq_dec (m' i) 0) as [E|E]; auto. assert (existsb (fun i => negb (i =? b2) && negb (i =? x2) && negb (m' i =? 0)) (upto n) = true); [|congruence].
    apply existsb_exists. exists i. split; auto. rewrite !andb_true_iff, !negb_true_iff, !Z.eqb_neq. auto. }
  clear EX. destruct (negb (x2 =? -1) && negb (existsb (Z.eqb (m' x2)) [1; 2; 4; 8])) eqn:SC; [discriminate|].
  assert (SCALE : x2 = -1 \/ In (m' x2) [1; 2; 4; 8]).
  { destruct (Z.eqb_spec x2 (-1)); [auto|right]. cbn [negb andb] in SC. apply negb_false_iff in SC. apply existsb_exists in SC. destruct SC as (k & I & K). apply Z.eqb_eq in K. rewrite K. auto. }
  clear SC.
  (* what adjust gives *)
  assert (ADJ : (b2 = -1 \/ 0 <= b2 < n) /\ (x2 = -1 \/ 0 <= x2 < n) /\ (vs <> 0 -> b2 < 16 /\ 17 <= x2) /\
    ((m' = m /\ (b2 = -1 \/ m b2 = 1 /\ b2 <> x2) /\ (x2 = -1 \/ m x2 <> 0)) \/
     (vs = 0 /\ b2 = x2 /\ 0 <= x2 /\ m x2 = m' x2 + 1 /\ m x2 <> 0 /\ forall i, i <> x2 -> m' i = m i))).
  { unfold adjust in A. destruct (Z.eqb_spec vs 0) as [V|V]; cbn [negb] in A.
    - destruct (negb (x1 =? -1) && (b1 =? -1)) eqn:Q.
      + rewrite andb_true_iff, negb_true_iff, Z.eqb_neq, Z.eqb_eq in Q. destruct Q as [Q1 Q2]. destruct X1' as [X1'|[X1' P1]]; [contradiction|].
        destruct (Z.eqb_spec (m x1) 1) as [E1|E1].
        { destruct ns; injection A as <- <- <-; (split; [auto|split; [auto|split; [congruence|left; split; [auto|]]]]); [split; [auto|right; lia]|split; [right; split; [auto|lia]|auto]]. }
        destruct (Z.eqb_spec (m x1) 2) as [E2|E2].
        { destruct ns; injection A as <- <- <-; (split; [auto|split; [auto|split; [congruence|]]]); [left; split; [auto|split; [auto|right; lia]]|].
          right. split; auto. split; auto. split; [lia|]. split; [rewrite Z.eqb_refl; lia|]. split; [lia|]. intros i I. destruct (Z.eqb_spec i x1); congruence. }
        destruct ((m x1 =? 3) || (m x1 =? 5) || (m x1 =? 9)); injection A as <- <- <-; (split; [auto|split; [auto|split; [congruence|]]]).
        * right. split; auto. split; auto. split; [lia|]. split; [rewrite Z.eqb_refl; lia|]. split; [lia|]. intros i I. destruct (Z.eqb_spec i x1); congruence.
        * left. split; [auto|split; [auto|right; lia]].
      + injection A as <- <- <-. split; [tauto|]. split; [tauto|]. split; [congruence|]. left. split; auto. split; [tauto|]. destruct X1' as [X1'|X1']; [auto|right; lia].
    - destruct ((17 <=? b1) && ((x1 =? -1) || (m x1 =? 1))) eqn:Q.
      + destruct ((16 <=? x1) || (b1 <? 17)) eqn:Q2; [discriminate|]. injection A as <- <- <-. rewrite orb_false_iff, Z.leb_gt, Z.ltb_ge in Q2. rewrite andb_true_iff, orb_true_iff, Z.leb_le, !Z.eqb_eq in Q.
        split; [tauto|]. split; [tauto|]. split; [lia|]. left. split; auto. split; [|right; lia]. destruct X1' as [X1'|X1']; [auto|]. right. split; [|lia]. lia.
      + destruct ((16 <=? b1) || (x1 <? 17)) eqn:Q2; [discriminate|]. injection A as <- <- <-. rewrite orb_false_iff, Z.leb_gt, Z.ltb_ge in Q2.
        split; [tauto|]. split; [tauto|]. split; [lia|]. left. split; auto. split; [tauto|]. right. lia. }
  clear A. destruct ADJ as (B2 & X2 & V2 & M2).
  assert (SUM : forall R, tot m R (upto n) = part R 1 b2 + part R (m' x2) x2).
  { intros R. unfold part. destruct M2 as [(-> & MB & MX)|(V0 & -> & XP & ME & MZ & MO)].
    - destruct (Z.eqb_spec b2 (-1)) as [Eb|Eb]; destruct (Z.eqb_spec x2 (-1)) as [Ex|Ex].
      + apply tot_zero. intros i I. apply REST; auto; rewrite upto_in in I; lia.
      + rewrite (tot_one m R (upto n) x2); [lia|apply upto_nodup|apply upto_in; lia|]. intros i I J. apply REST; auto; rewrite upto_in in I; lia.
      + rewrite (tot_one m R (upto n) b2); [|apply upto_nodup|apply upto_in; lia|]; [destruct MB as [MB|[MB _]]; [lia|rewrite MB; lia]|]. intros i I J. apply REST; auto; rewrite upto_in in I; lia.
      + destruct MB as [MB|[MB MB2]]; [lia|]. rewrite (tot_two m R (upto n) b2 x2); auto; [rewrite MB; lia|apply upto_nodup|apply upto_in; lia|apply upto_in; lia].
    - destruct (Z.eqb_spec x2 (-1)) as [Ex|Ex]; [lia|]. rewrite (tot_one m R (upto n) x2); [rewrite ME; lia|apply upto_nodup|apply upto_in; lia|]. intros i I J. rewrite <- MO by auto. apply REST; auto. }
  assert (NZB : b2 = -1 \/ m b2 <> 0) by (destruct M2 as [(_ & [MB|[MB _]] & _)|(_ & -> & _ & _ & MZ & _)]; auto; right; lia).
  assert (NZX : x2 = -1 \/ m x2 <> 0) by (destruct M2 as [(_ & _ & MX)|(_ & _ & _ & _ & MZ & _)]; auto).
  assert (BR : vs = 0 -> n = 17) by (intros V; rewrite EN; destruct (Z.eqb_spec vs 0); congruence).
  destruct (Z.eqb_spec x2 4) as [E4|E4].
  - destruct ((1 <? m' 4) || (b2 =? 4)) eqn:Q; [discriminate|]. rewrite orb_false_iff, Z.ltb_ge, Z.eqb_neq in Q. destruct Q as [Q1 Q2].
    destruct ((b2 =? 16) || ((4 =? 16) && negb (b2 =? -1))) eqn:Q; [discriminate|]. injection C as <- <-. cbn [Z.eqb Pos.eqb andb] in Q. rewrite orb_false_r, Z.eqb_neq in Q.
    subst x2. assert (V0 : vs = 0) by (destruct (Z.eq_dec vs 0); auto; destruct (V2 n0); lia). assert (MM : m' = m /\ (b2 = -1 \/ m b2 = 1)) by (destruct M2 as [(-> & MB & _)|(_ & ? & _)]; [split; auto; tauto|congruence]).
    destruct MM as [-> MB]. assert (M4 : m 4 = 1) by (destruct SCALE as [?|SC]; [lia|cbn in SC; lia]). specialize (BR V0). subst n.
    constructor; try lia.
    + intros R. rewrite SUM. unfold part. rewrite M4. cbn [Z.eqb]. change (4 =? -1) with false. cbv iota. destruct (Z.eqb_spec b2 (-1)); [lia|]. destruct MB as [MB|MB]; [lia|]. rewrite MB. lia.
    + destruct MB as [MB|MB]; [auto|right; rewrite MB; left; auto].
  - destruct ((x2 =? 16) || ((b2 =? 16) && negb (x2 =? -1))) eqn:Q; [discriminate|]. injection C as <- <-. rewrite orb_false_iff, andb_false_iff, negb_false_iff, Z.eqb_neq, Z.eqb_neq, Z.eqb_eq in Q. destruct Q as [Q1 Q2].
    constructor; auto.
    + destruct B2 as [B2|B2]; [auto|]. destruct NZB; [auto|]. right. split; auto. destruct (Z.eq_dec vs 0) as [V|V]; [rewrite (BR V) in B2; lia|destruct (V2 V); lia].
    + destruct X2 as [X2|X2]; [auto|]. destruct NZX; auto.
    + intros E. destruct Q2; [contradiction|auto].
    + intros V. apply V2. auto.
    + intros V. specialize (BR V). destruct X2; lia.
Qed.

(** * Encoding *)
Lemma dsp_app : forall n ds rest f, length ds = n -> dsp n (ds ++ rest) f = Some (f (sdisp ds), rest).
Proof.
  intros n ds rest f H. unfold dsp. rewrite app_length. destruct (Nat.ltb_spec (length ds + length rest) n); [lia|].
  rewrite firstn_app, skipn_app, H, Nat.sub_diag, <- H, firstn_all, skipn_all. cbn [firstn skipn]. rewrite app_nil_r. auto.
Qed.
(** These ModRM and SIB bytes with a displacement of [n] bytes are read as [f] of the displacement *)
Definition denc (D : list Z -> option (mem * list Z)) (f : Z -> mem) (mr : Z) (sibs : list Z) (n : nat) : Prop :=
  forall ds rest, length ds = n -> D (mr :: sibs ++ ds ++ rest) = Some (f (sdisp ds), rest).
Definition sibs (a : ea) : list Z := if need_sib a =? 0 then [] else [sib a].
Definition widen (m : Z) : Z := Z.lor (Z.land m (Z.lnot 192)) 128.
Definition formed (D : list Z -> option (mem * list Z)) (f : Z -> mem) (w : nat) (a : ea) : Prop :=
  need_modrm a = true /\ valid_modrm a = true /\
  (need_disp a = false /\ v_size (disp a) = 0 /\ nonzero a = false /\ denc D f (modrm a) (sibs a) 0 \/
   need_disp a = true /\ (v_size (disp a) = 8 * Z.of_nat w /\ denc D f (modrm a) (sibs a) w \/
                          (v_size (disp a) = 8 \/ v_size (disp a) = 0 /\ nonzero a = true) /\ denc D f (modrm a) (sibs a) 1 /\ denc D f (widen (modrm a)) (sibs a) w)).
Lemma lor_mod : forall m r, 0 <= m < 64 -> 0 <= r < 4 -> Z.lor m (64 * r) = m + 64 * r.
Proof.
  assert (H : forallb (fun m => forallb (fun r => Z.lor m (64 * r) =? m + 64 * r) (upto 4)) (upto 64) = true) by (vm_compute; reflexivity).
  intros m r M R. pose proof (upto_all _ _ _ (upto_all _ _ _ H M) R) as E. apply Z.eqb_eq in E. auto.
Qed.
Lemma widen_mod : forall m, 0 <= m < 64 -> widen (m + 64) = m + 128.
Proof.
  assert (H : forallb (fun m => widen (m + 64) =? m + 128) (upto 64) = true) by (vm_compute; reflexivity).
  intros m M. pose proof (upto_all _ _ _ H M) as E. apply Z.eqb_eq in E. auto.
Qed.
(** what remains to be known of the displacement *)
Definition kept (nequ : nat) (equ : Z -> option expr) (label : Z -> option Z) (sect : Z -> Z) (dist : Z -> Z -> option intnum) (d : value) (a : ea) : Prop :=
  (need_disp a = false /\ exists n, value_intnum nequ equ label sect dist d = Ok (Some n) /\ is_zero n = true) \/
  (need_disp a = true /\ disp a = with_size (v_size (disp a)) d /\
   (v_size d = 0 -> v_size (disp a) = 8 -> exists n, value_intnum nequ equ label sect dist d = Ok (Some n) /\ in_range n (-128) 127 = true)).
Lemma displen_formed : forall nequ equ label sect dist D f w noreg dispreq a a', calc_displen nequ equ label sect dist (8 * Z.of_nat w) noreg dispreq a = Ok a' ->
  need_modrm a = true -> need_disp a = true -> 0 <= modrm a < 64 -> (w = 2 \/ w = 4)%nat ->
  (noreg = true -> denc D f (modrm a) (sibs a) w) ->
  (noreg = false -> denc D f (modrm a + 64) (sibs a) 1 /\ denc D f (modrm a + 128) (sibs a) w /\ (dispreq = false -> denc D f (modrm a) (sibs a) 0)) ->
  formed D f w a' /\ kept nequ equ label sect dist (disp a) a' /\ segreg a' = segreg a.
Proof.
  intros nequ equ label sect dist D f w noreg dispreq a a' H NM ND MR W DN DR. unfold calc_displen in H.
  assert (L0 : Z.lor (modrm a) 0 = modrm a) by apply Z.lor_0_r. assert (L1 : Z.lor (modrm a) 64 = modrm a + 64) by (apply (lor_mod _ 1); lia). assert (L2 : Z.lor (modrm a) 128 = modrm a + 128) by (apply (lor_mod _ 2); lia).
  assert (W8 : 8 * Z.of_nat w <> 8) by (destruct W as [-> | ->]; discriminate).
  cbn [disp set_modrm] in H.
  assert (WIDE : forall nz m d, v_size d = 8 * Z.of_nat w -> d = with_size (v_size d) (disp a) -> denc D f m (sibs a) w -> v_size (disp a) = 0 \/ v_size (disp a) <> 0 ->
    let a' := Ea d nz (need_disp a) (nosplit a) (segreg a) (pc_rel a) (vsib a) m true (need_modrm a) (sib a) (valid_sib a) (need_sib a) in
    formed D f w a' /\ kept nequ equ label sect dist (disp a) a' /\ segreg a' = segreg a).
  { intros nz m d SD ED DE _ b. unfold formed, kept, b. cbn [need_modrm valid_modrm need_disp disp modrm segreg nonzero]. change (sibs (Ea d nz (need_disp a) (nosplit a) (segreg a) (pc_rel a) (vsib a) m true (need_modrm a) (sib a) (valid_sib a) (need_sib a))) with (sibs a).
    split; [split; [auto|split; [auto|right; split; [auto|left; auto]]]|]. split; [|auto]. right. split; auto. split; auto. intros _ E. lia. }
  assert (NARROW : forall nz d, v_size d = 8 \/ v_size d = 0 /\ nz = true -> d = with_size (v_size d) (disp a) -> denc D f (modrm a + 64) (sibs a) 1 -> denc D f (modrm a + 128) (sibs a) w ->
    (v_size (disp a) = 0 -> v_size d = 8 -> exists n, value_intnum nequ equ label sect dist (disp a) = Ok (Some n) /\ in_range n (-128) 127 = true) ->
    let a' := Ea d nz (need_disp a) (nosplit a) (segreg a) (pc_rel a) (vsib a) (modrm a + 64) true (need_modrm a) (sib a) (valid_sib a) (need_sib a) in
    formed D f w a' /\ kept nequ equ label sect dist (disp a) a' /\ segreg a' = segreg a).
  { intros nz d SD ED D1 D2 KN b. unfold formed, kept, b. cbn [need_modrm valid_modrm need_disp disp modrm segreg nonzero]. change (sibs (Ea d nz (need_disp a) (nosplit a) (segreg a) (pc_rel a) (vsib a) (modrm a + 64) true (need_modrm a) (sib a) (valid_sib a) (need_sib a))) with (sibs a).
    split; [split; [auto|split; [auto|right; split; [auto|right; rewrite widen_mod; auto]]]|]. split; [|auto]. right. auto. }
  assert (SELF : disp a = with_size (v_size (disp a)) (disp a)) by (destruct (disp a); auto).
  unfold set_modrm, set_disp, set_nonzero, set_nodisp in H. cbn [modrm disp nonzero need_disp nosplit segreg pc_rel vsib need_modrm sib valid_sib need_sib] in H.
  destruct (Z.eqb_spec (v_size (disp a)) 8) as [S8|S8].
  { destruct noreg; apply ok_inj in H; subst a'; rewrite ?L0, ?L1.
    - apply WIDE; auto. lia.
    - destruct (DR eq_refl) as (D1 & D2 & _). apply NARROW; auto. lia. }
  destruct ((v_size (disp a) =? 16) || (v_size (disp a) =? 32)) eqn:S16.
  { destruct (8 * Z.of_nat w =? v_size (disp a)) eqn:SW; [|discriminate]. apply Z.eqb_eq in SW. cbn [negb] in H. apply ok_inj in H; subst a'. apply WIDE; auto; [|lia]. destruct noreg; rewrite ?L0, ?L2; auto. apply DR; auto. }
  destruct (Z.eqb_spec (v_size (disp a)) 0) as [S0|S0]; [|discriminate]. cbn [negb] in H.
  destruct noreg.
  { apply ok_inj in H; subst a'. rewrite L0. apply WIDE; auto. }
  destruct (DR eq_refl) as (D1 & D2 & D0). clear DN DR.
  destruct (v_rel (disp a)) eqn:RL.
  { destruct dispreq; apply ok_inj in H; subst a'; cbn [modrm disp nonzero need_disp nosplit segreg pc_rel vsib need_modrm sib valid_sib need_sib]; rewrite L2; apply WIDE; auto. }
  bok H. rename p into n. destruct n as [n|].
  - destruct dispreq; cbn [modrm disp nonzero need_disp nosplit segreg pc_rel vsib need_modrm sib valid_sib need_sib] in H; rewrite L0, L1, L2 in H.
    + cbn [negb] in H. rewrite andb_false_r in H. destruct (in_range n (-128) 127) eqn:RG; apply ok_inj in H; subst a'; [apply NARROW; auto; eexists; eauto|apply WIDE; auto].
    + destruct (is_zero n && negb (nonzero a)) eqn:Z0.
      * rewrite andb_true_iff, negb_true_iff in Z0. destruct Z0 as [Z0 Z1]. apply ok_inj in H; subst a'. unfold formed, kept, sibs. cbn [need_modrm valid_modrm need_disp disp modrm segreg nonzero value_delete v_size sib need_sib].
        split; [|split; [left; split; auto; exists n; auto|auto]]. split; [auto|split; [auto|left; repeat split; auto; apply D0; auto]].
      * destruct (in_range n (-128) 127) eqn:RG; apply ok_inj in H; subst a'; [apply NARROW; auto; eexists; eauto|apply WIDE; auto].
  - destruct dispreq; apply ok_inj in H; subst a'; cbn [modrm disp nonzero need_disp nosplit segreg pc_rel vsib need_modrm sib valid_sib need_sib]; rewrite L1; apply NARROW; auto; lia.
Qed.

(** REX: the bit [k], and the values that occur *)
Definition rexbit (rex k : Z) : Z := if rex =? 255 then 0 else rex / 2 ^ k mod 2.
Definition rexok (rex : Z) : Prop := rex = 255 \/ rex = 0 \/ 64 <= rex < 80.
Definition rexes : list Z := 255 :: 0 :: map (fun i => 64 + i) (upto 16).
Lemma rexes_in : forall r, rexok r -> In r rexes.
Proof.
  intros r [->|[->|R]]; [left; auto|right; left; auto|]. right. right. apply in_map_iff. exists (r - 64). split; [lia|]. apply upto_in. lia.
Qed.
Definition rexokb (r : Z) : bool := (r =? 255) || (r =? 0) || ((64 <=? r) && (r <? 80)).
Lemma rexokb_ok : forall r, rexokb r = true -> rexok r.
Proof. intros r H. unfold rexokb in H. rewrite !orb_true_iff, andb_true_iff, !Z.eqb_eq, Z.leb_le, Z.ltb_lt in H. unfold rexok. lia. Qed.
Definition rexchk (rex b k kind : Z) : bool :=
  match set_rex rex (Z.lor kind b) 64 k with
  | Ok (r, l) => (l =? b mod 8) && rexokb r && (rexbit r k =? Z.max (rexbit rex k) (b / 8)) && (rexbit r (1 - k) =? rexbit rex (1 - k)) && (rexbit r 2 =? rexbit rex 2) && (rexbit r 3 =? rexbit rex 3)
  | _ => true
  end.
Lemma set_rex_bits : forall rex bits kind b k r l, set_rex rex (Z.lor kind b) bits k = Ok (r, l) -> kind = REG64 \/ kind = XMMREG -> k = 0 \/ k = 1 -> 0 <= b < 16 -> rexok rex ->
  (bits <> 64 -> b < 8) ->
  l = b mod 8 /\ rexok r /\ rexbit r k = Z.max (rexbit rex k) (b / 8) /\ rexbit r (1 - k) = rexbit rex (1 - k).
Proof.
  assert (H : forallb (fun kind => forallb (fun k => forallb (fun b => forallb (fun rex => rexchk rex b k kind) rexes) (upto 16)) [0; 1]) [REG64; XMMREG] = true) by (vm_compute; reflexivity).
  assert (H2 : forallb (fun kind => forallb (fun b => Z.land (Z.lor kind b) 7 =? b mod 8) (upto 16)) [REG64; XMMREG] = true) by (vm_compute; reflexivity).
  intros rex bits kind b k r l E K KK B RO NB.
  assert (IK : In kind [REG64; XMMREG]) by (destruct K as [-> | ->]; cbn; auto). assert (Ik : In k [0; 1]) by (destruct KK as [-> | ->]; cbn; auto).
  destruct (Z.eq_dec bits 64) as [->|NE].
  - rewrite forallb_forall in H. specialize (H _ IK). rewrite forallb_forall in H. specialize (H _ Ik). pose proof (upto_all _ _ _ H B) as H3. rewrite forallb_forall in H3. specialize (H3 _ (rexes_in _ RO)).
    unfold rexchk in H3. rewrite E in H3. rewrite !andb_true_iff, !Z.eqb_eq in H3. destruct H3 as [[[[[H3 H4] H5] H6] _] _]. apply rexokb_ok in H4. auto.
  - unfold set_rex in E. destruct (Z.eqb_spec bits 64) as [?|_]; [contradiction|]. apply ok_inj in E. apply pair_inj in E. destruct E as [<- <-]. specialize (NB NE).
    rewrite forallb_forall in H2. specialize (H2 _ IK). pose proof (upto_all _ _ _ H2 B) as H3. apply Z.eqb_eq in H3.
    split; auto. split; auto. split; auto. rewrite Z.div_small by lia. apply eq_sym, Z.max_l. unfold rexbit. destruct (rex =? 255); [lia|]. apply Z.mod_pos_bound. lia.
Qed.
Lemma lor_rm : forall sp rm, 0 <= sp < 8 -> 0 <= rm < 8 -> Z.lor (8 * sp) rm = 8 * sp + rm.
Proof.
  assert (H : forallb (fun sp => forallb (fun rm => Z.lor (8 * sp) rm =? 8 * sp + rm) (upto 8)) (upto 8) = true) by (vm_compute; reflexivity).
  intros m r M R. pose proof (upto_all _ _ _ (upto_all _ _ _ H M) R) as E. apply Z.eqb_eq in E. auto.
Qed.
Lemma lor_sib : forall sb low sc, 0 <= sb < 8 -> 0 <= low < 8 -> In sc [1; 2; 4; 8] ->
  Z.lor (Z.lor sb (Z.shiftl low 3)) (if sc =? 2 then 64 else if sc =? 4 then 128 else if sc =? 8 then 192 else 0) = sb + 8 * low + 64 * Z.log2 sc.
Proof.
  assert (H : forallb (fun sc => forallb (fun sb => forallb (fun low => Z.lor (Z.lor sb (Z.shiftl low 3)) (if sc =? 2 then 64 else if sc =? 4 then 128 else if sc =? 8 then 192 else 0) =? sb + 8 * low + 64 * Z.log2 sc)
    (upto 8)) (upto 8)) [1; 2; 4; 8] = true) by (vm_compute; reflexivity).
  intros sb low sc S1 L I. rewrite forallb_forall in H. specialize (H _ I). pose proof (upto_all _ _ _ (upto_all _ _ _ H S1) L) as E. apply Z.eqb_eq in E. auto.
Qed.
Lemma lor_sib4 : forall sb, 0 <= sb < 8 -> Z.lor sb 32 = sb + 8 * 4 + 64 * 0.
Proof.
  assert (H : forallb (fun sb => Z.lor sb 32 =? sb + 8 * 4 + 64 * 0) (upto 8) = true) by (vm_compute; reflexivity).
  intros sb S1. pose proof (upto_all _ _ _ H S1) as E. apply Z.eqb_eq in E. auto.
Qed.
Lemma mr_mod : forall sp rm md, 0 <= sp < 8 -> 0 <= rm < 8 -> (8 * sp + rm + 64 * md) mod 8 = rm /\ (8 * sp + rm + 64 * md) / 64 = md.
Proof. intros sp rm md S1 R. split; [symmetry; apply (Z.mod_unique _ _ (sp + 8 * md)); lia|symmetry; apply (Z.div_unique _ _ _ (8 * sp + rm)); lia]. Qed.
Lemma sb_parts : forall sb low lg, 0 <= sb < 8 -> 0 <= low < 8 -> let s := sb + 8 * low + 64 * lg in s mod 8 = sb /\ s / 8 mod 8 = low /\ s / 64 = lg.
Proof.
  intros sb low lg S1 L s. unfold s. assert (E : (sb + 8 * low + 64 * lg) / 8 = low + 8 * lg) by (symmetry; apply (Z.div_unique _ _ _ sb); lia).
  rewrite E. repeat split; [symmetry; apply (Z.mod_unique _ _ (low + 8 * lg)); lia|symmetry; apply (Z.mod_unique _ _ lg); lia|symmetry; apply (Z.div_unique _ _ _ (sb + 8 * low)); lia].
Qed.
Section Decode.
Variables (mode : Z) (vs : bool) (x b sp : Z).
Hypothesis SP : 0 <= sp < 8.
Let D := decode32 mode vs x b.
Lemma denc_rip : denc D (fun d => Mem None None d (mode =? 64)) (8 * sp + 5) [] 4.
Proof.
  intros ds rest L. unfold D, decode32. destruct (mr_mod sp 5 0 SP ltac:(lia)) as [E1 E2]. replace (8 * sp + 5 + 64 * 0) with (8 * sp + 5) in * by lia.
  rewrite E1, E2. apply (dsp_app _ ds rest); auto.
Qed.
Lemma denc_rm : forall rm, 0 <= rm < 8 -> rm <> 4 -> let f := fun d => Mem (Some (rm + 8 * b)) None d false in
  denc D f (8 * sp + rm + 64) [] 1 /\ denc D f (8 * sp + rm + 128) [] 4 /\ (rm <> 5 -> denc D f (8 * sp + rm) [] 0).
Proof.
  intros rm R N4 f. split; [|split].
  - intros ds rest L. unfold D, decode32. destruct (mr_mod sp rm 1 SP R) as [E1 E2]. replace (8 * sp + rm + 64 * 1) with (8 * sp + rm + 64) in * by lia.
    rewrite E1, E2. destruct (Z.eqb_spec rm 4) as [?|_]; [contradiction|]. rewrite andb_false_r. apply (dsp_app _ ds rest); auto.
  - intros ds rest L. unfold D, decode32. destruct (mr_mod sp rm 2 SP R) as [E1 E2]. replace (8 * sp + rm + 64 * 2) with (8 * sp + rm + 128) in * by lia.
    rewrite E1, E2. destruct (Z.eqb_spec rm 4) as [?|_]; [contradiction|]. rewrite andb_false_r. apply (dsp_app _ ds rest); auto.
  - intros N5 ds rest L. unfold D, decode32. destruct (mr_mod sp rm 0 SP R) as [E1 E2]. replace (8 * sp + rm + 64 * 0) with (8 * sp + rm) in * by lia.
    rewrite E1, E2. destruct (Z.eqb_spec rm 4) as [?|_]; [contradiction|]. destruct (Z.eqb_spec rm 5) as [?|_]; [contradiction|]. apply (dsp_app _ ds rest); auto.
Qed.
(** the index that a SIB byte gives *)
Definition index_of (low lg : Z) : option (Z * Z) := if vs then Some (17 + (low + 8 * x), 2 ^ lg) else if low + 8 * x =? 4 then None else Some (low + 8 * x, 2 ^ lg).
Lemma denc_sib : forall sb low lg, 0 <= sb < 8 -> 0 <= low < 8 -> let s := sb + 8 * low + 64 * lg in
  let f := fun d => Mem (Some (sb + 8 * b)) (index_of low lg) d false in
  denc D f (8 * sp + 4 + 64) [s] 1 /\ denc D f (8 * sp + 4 + 128) [s] 4 /\ (sb <> 5 -> denc D f (8 * sp + 4) [s] 0) /\
  (sb = 5 -> denc D (fun d => Mem None (index_of low lg) d false) (8 * sp + 4) [s] 4).
Proof.
  intros sb low lg S1 L s f. destruct (sb_parts sb low lg S1 L) as (P1 & P2 & P3). fold s in P1, P2, P3.
  destruct (mr_mod sp 4 1 SP ltac:(lia)) as [E1 E2]. destruct (mr_mod sp 4 2 SP ltac:(lia)) as [E3 E4]. destruct (mr_mod sp 4 0 SP ltac:(lia)) as [E5 E6].
  replace (8 * sp + 4 + 64 * 1) with (8 * sp + 4 + 64) in * by lia. replace (8 * sp + 4 + 64 * 2) with (8 * sp + 4 + 128) in * by lia. replace (8 * sp + 4 + 64 * 0) with (8 * sp + 4) in * by lia.
  split; [|split; [|split]]; intros.
  - intros ds rest LD. unfold D, decode32. rewrite E1, E2. cbn [app]. rewrite P1, P2, P3, andb_false_r. apply (dsp_app _ ds rest); auto.
  - intros ds rest LD. unfold D, decode32. rewrite E3, E4. cbn [app]. rewrite P1, P2, P3, andb_false_r. apply (dsp_app _ ds rest); auto.
  - intros ds rest LD. unfold D, decode32. rewrite E5, E6. cbn [app]. rewrite P1, P2, P3. destruct (Z.eqb_spec sb 5) as [?|_]; [contradiction|]. apply (dsp_app _ ds rest); auto.
  - intros ds rest LD. unfold D, decode32. rewrite E5, E6. cbn [app]. rewrite P1, P2, P3. destruct (Z.eqb_spec sb 5) as [_|?]; [|contradiction]. apply (dsp_app _ ds rest); auto.
Qed.
End Decode.
(** The operand meant by base and index *)
Definition operand (base idx sc : Z) : Z -> mem :=
  fun d => Mem (if (base =? -1) || (base =? 16) then None else Some base) (if idx =? -1 then None else Some (idx, sc)) d (base =? 16).
Lemma log_scale : forall sc, In sc [1; 2; 4; 8] -> 2 ^ Z.log2 sc = sc.
Proof. intros sc [<-|[<-|[<-|[<-|[]]]]]; reflexivity. Qed.

Lemma encode_formed : forall nequ equ label sect dist bits m base idx rex a0 a rex' sp, encode3264 nequ equ label sect dist bits m base idx rex a0 = Ok (a, rex') ->
  0 <= sp < 8 -> modrm a0 = 8 * sp -> need_sib a0 <> 1 -> need_disp a0 = true -> rexok rex -> rexbit rex 0 = 0 -> rexbit rex 1 = 0 ->
  (base = -1 \/ 0 <= base < 17) -> (idx = -1 \/ 0 <= idx < 33 /\ idx <> 4 /\ idx <> 16) -> (idx = -1 \/ In (m idx) [1; 2; 4; 8]) -> (base = 16 -> idx = -1) ->
  (vsib a0 <> 0 -> 17 <= idx) -> (vsib a0 = 0 -> idx < 17) ->
  (bits <> 64 -> base < 8 /\ pc_rel a0 = false /\ (idx < 8 \/ 17 <= idx < 25)) ->
  let rip := (base =? -1) && (idx =? -1) && pc_rel a0 in
  let base' := if rip then 16 else base in
  let d := if rip then set_curpos true (disp a0) else disp a0 in
  formed (decode32 bits (negb (vsib a0 =? 0)) (rexbit rex' 1) (rexbit rex' 0)) (operand base' idx (m idx)) 4 a /\ rexok rex' /\ segreg a = segreg a0 /\
  (if base' =? 16 then need_disp a = true /\ disp a = with_size 32 d else kept nequ equ label sect dist d a).
Proof.
  intros nequ equ label sect dist bits m base0 idx rex a0 a rex' sp H SP MR NS ND RO R0 R1 HB HX SC HR V1 V0 B64 rip base d. unfold encode3264 in H. fold rip in H.
  set (pr := if rip then _ else _) in H. assert (EP : pr = (base, set_disp d a0)) by (unfold pr, base, d; destruct rip; [auto|destruct a0; auto]).
  rewrite EP in H. clear pr EP.
  assert (HB' : base = -1 \/ 0 <= base < 17) by (unfold base; destruct rip; lia).
  assert (HR' : base = 16 -> idx = -1 /\ bits = 64).
  { unfold base, rip. destruct (Z.eqb_spec base0 (-1)) as [E1|E1]; destruct (Z.eqb_spec idx (-1)) as [E2|E2]; cbn [andb]; intros E; try (split; [auto|]; destruct (Z.eq_dec bits 64); auto; specialize (B64 n); destruct (pc_rel a0); lia). }
  assert (B64' : bits <> 64 -> base < 8 /\ (idx < 8 \/ 17 <= idx < 25)).
  { intros N. split; [|apply B64; auto]. destruct (B64 N) as (? & E & _). unfold base, rip. rewrite E, andb_false_r. auto. }
  set (a1 := set_disp d a0) in *. change (vsib a0) with (vsib a1) in *. change (modrm a0) with (modrm a1) in *. change (need_sib a0) with (need_sib a1) in *. change (need_disp a0) with (need_disp a1) in *. change (segreg a0) with (segreg a1) in *.
  rename MR into MR'. rename NS into NS'. rename ND into ND'. assert (DD : d = disp a1) by auto. clearbody base d a1. subst d. clear HB HR B64 rip base0 a0.
  (* RIP *)
  destruct (Z.eqb_spec base 16) as [E16|N16].
  { destruct (HR' E16) as [EX E64]. apply ok_inj in H. apply pair_inj in H. destruct H as [<- <-]. split; [|split; [auto|split; [auto|split; auto]]].
    unfold formed. split; auto. split; auto. right. split; auto. left. split; auto. cbn [modrm set_disp set_modrm set_sib set_needmodrm]. rewrite MR', lor_rm by lia.
    unfold sibs. cbn [need_sib set_disp set_modrm set_sib set_needmodrm Z.eqb]. pose proof (denc_rip bits (negb (vsib a1 =? 0)) (rexbit rex 1) (rexbit rex 0) sp SP) as DE.
    rewrite EX. unfold operand. cbn [Z.eqb]. intros ds rest L. rewrite (DE ds rest L), E64, E16. auto. }
  assert (RIPF : (base =? 16) = false) by (apply Z.eqb_neq; auto).
  (* what the rest needs *)
  assert (FIN : forall a3 rex2 rm, bind (calc_displen nequ equ label sect dist 32 (base =? -1) ((base =? 5) || (base =? 13)) a3) (fun a4 => Ok (a4, rex2)) = Ok (a, rex') ->
    need_modrm a3 = true -> need_disp a3 = true -> modrm a3 = 8 * sp + rm -> 0 <= rm < 8 -> disp a3 = disp a1 -> segreg a3 = segreg a1 -> rexok rex2 ->
    (let DC := decode32 bits (negb (vsib a1 =? 0)) (rexbit rex2 1) (rexbit rex2 0) in let f := operand base idx (m idx) in
     (base = -1 -> denc DC f (8 * sp + rm) (sibs a3) 4) /\
     (base <> -1 -> denc DC f (8 * sp + rm + 64) (sibs a3) 1 /\ denc DC f (8 * sp + rm + 128) (sibs a3) 4 /\ (base <> 5 -> base <> 13 -> denc DC f (8 * sp + rm) (sibs a3) 0))) ->
    formed (decode32 bits (negb (vsib a1 =? 0)) (rexbit rex' 1) (rexbit rex' 0)) (operand base idx (m idx)) 4 a /\ rexok rex' /\ segreg a = segreg a1 /\ kept nequ equ label sect dist (disp a1) a).
  { intros a3 rex2 rm HH NM ND M3 RM D3 SG3 RO2 [DN DR]. bok HH. apply ok_inj in HH. apply pair_inj in HH. destruct HH as [-> ->].
    destruct (displen_formed nequ equ label sect dist (decode32 bits (negb (vsib a1 =? 0)) (rexbit rex' 1) (rexbit rex' 0)) (operand base idx (m idx)) 4 _ _ _ _ E) as (F & K & SG4); auto.
    - rewrite M3. lia.
    - intros B. apply Z.eqb_eq in B. rewrite M3. auto.
    - intros B. apply Z.eqb_neq in B. rewrite M3. destruct (DR B) as (Q1 & Q2 & Q3). split; auto. split; auto. rewrite orb_false_iff, !Z.eqb_neq. intros [? ?]. auto.
    - rewrite <- D3, <- SG3. auto. }
  destruct (Z.eqb_spec base (-1)) as [EB|NB]; [destruct (Z.eqb_spec idx (-1)) as [EI|NI]|destruct (Z.eqb_spec idx (-1)) as [EI|NI]]; cbn [andb] in H.
  - (* no registers *)
    destruct (Z.eqb_spec bits 64) as [E64|N64]; cbn [bind need_sib set_sib or_modrm set_modrm Z.eqb] in H.
    + apply (FIN _ _ 4) in H; auto; [cbn [modrm set_sib or_modrm set_modrm]; rewrite <- lor_rm, <- MR' by lia; auto|lia|].
      intros DC f. split; [intros _|lia]. change (sibs _) with [5 + 8 * 4 + 64 * 0]. unfold f, DC. rewrite EB, EI. unfold operand. cbn [Z.eqb orb].
      destruct (denc_sib bits (negb (vsib a1 =? 0)) (rexbit rex 1) (rexbit rex 0) sp SP 5 4 0 ltac:(lia) ltac:(lia)) as (_ & _ & _ & DE). specialize (DE eq_refl). unfold index_of in DE. rewrite R1 in DE.
      rewrite R1. destruct (Z.eqb_spec (vsib a1) 0) as [_|NV]; [|specialize (V1 NV); lia]. exact DE.
    + apply (FIN _ _ 5) in H; auto; [cbn [modrm set_sib or_modrm set_modrm]; rewrite <- lor_rm, <- MR' by lia; auto|lia|].
      intros DC f. split; [intros _|lia]. change (sibs _) with (@nil Z). unfold f, DC. rewrite EB, EI. unfold operand. cbn [Z.eqb orb].
      pose proof (denc_rip bits (negb (vsib a1 =? 0)) (rexbit rex 1) (rexbit rex 0) sp SP) as DE. apply Z.eqb_neq in N64. rewrite N64 in DE. exact DE.
  - (* index only *)
    cbn [bind need_sib set_sib or_modrm set_modrm Z.eqb Pos.eqb] in H. bok H. destruct p as [a3 rex2]. bok E. destruct p as [r3 s]. bok E0. destruct p as [r4 low]. apply ok_inj, pair_inj in E. destruct E as [<- <-]. apply ok_inj, pair_inj in E0. destruct E0 as [<- <-].
    assert (IX : exists n, 0 <= n < 16 /\ (bits <> 64 -> n < 8) /\ index_of (negb (vsib a1 =? 0)) (n / 8) (n mod 8) (Z.log2 (m idx)) = Some (idx, m idx) /\ low = n mod 8 /\ rexok r4 /\ rexbit r4 1 = n / 8 /\ rexbit r4 0 = 0).
    { destruct SC as [?|SC]; [contradiction|]. destruct HX as [?|HX]; [contradiction|]. unfold index_of. destruct (Z.leb_spec 17 idx) as [L17|L17].
      - exists (idx - 17). apply set_rex_bits in E1; auto; try lia. destruct E1 as (-> & Q2 & Q3 & Q4). change (1 - 1) with 0 in Q4. rewrite R1 in Q3. rewrite R0 in Q4. split; [lia|]. split; [lia|].
        assert (N0 : 0 <= (idx - 17) / 8) by (apply Z.div_pos; lia). split; [|split; [auto|split; [auto|split; [lia|auto]]]].
        destruct (Z.eqb_spec (vsib a1) 0) as [V|V]; [specialize (V0 V); lia|]. cbn [negb]. rewrite log_scale by auto. f_equal. f_equal. pose proof (Z.div_mod (idx - 17) 8). lia.
      - exists idx. apply set_rex_bits in E1; auto; try lia. destruct E1 as (-> & Q2 & Q3 & Q4). change (1 - 1) with 0 in Q4. rewrite R1 in Q3. rewrite R0 in Q4. split; [lia|]. split; [lia|].
        assert (N0 : 0 <= idx / 8) by (apply Z.div_pos; lia). split; [|split; [auto|split; [auto|split; [lia|auto]]]].
        destruct (Z.eqb_spec (vsib a1) 0) as [V|V]; [|specialize (V1 V); lia]. cbn [negb]. assert (EQ : idx mod 8 + 8 * (idx / 8) = idx) by (pose proof (Z.div_mod idx 8); lia). rewrite EQ.
        destruct (Z.eqb_spec idx 4); [lia|]. rewrite log_scale by auto. auto. }
    destruct IX as (n & N1 & N2 & IX & -> & RO4 & X4 & B4). pose proof (Z.mod_pos_bound n 8 ltac:(lia)) as NM.
    apply (FIN _ _ 4) in H; auto; [cbn [modrm set_sib or_modrm set_modrm]; rewrite <- lor_rm, <- MR' by lia; auto|lia|].
    intros DC f. split; [intros _|lia]. unfold sibs. cbn [need_sib set_sib or_modrm set_modrm sib Z.eqb]. destruct SC as [?|SC]; [contradiction|]. rewrite lor_sib by (auto; lia). unfold f, DC. rewrite X4, B4.
    destruct (denc_sib bits (negb (vsib a1 =? 0)) (n / 8) 0 sp SP 5 (n mod 8) (Z.log2 (m idx)) ltac:(lia) NM) as (_ & _ & _ & DE). specialize (DE eq_refl). rewrite IX in DE.
    unfold operand. rewrite EB. cbn [Z.eqb orb]. destruct (Z.eqb_spec idx (-1)); [contradiction|]. exact DE.
  - (* base only *)
    destruct HB' as [?|HB]; [contradiction|]. bok H. destruct p as [a2 rex1]. bok E. destruct p as [rex0 low]. apply set_rex_bits in E0; auto; try lia. destruct E0 as (-> & RO1 & B1 & X1). cbn [Z.sub] in X1. change (1 - 0) with 1 in X1. rewrite R0 in B1. rewrite R1 in X1.
    assert (N0 : 0 <= base / 8) by (apply Z.div_pos; lia). rewrite Z.max_r in B1 by lia. pose proof (Z.mod_pos_bound base 8 ltac:(lia)) as BM. assert (EQ : base mod 8 + 8 * (base / 8) = base) by (pose proof (Z.div_mod base 8); lia).
    assert (VV : (vsib a1 =? 0) = true) by (destruct (Z.eqb_spec (vsib a1) 0) as [V|V]; [auto|specialize (V1 V); lia]).
    destruct ((base =? 4) || (base =? 12)) eqn:E4.
    + apply ok_inj, pair_inj in E. destruct E as [<- <-]. cbn [bind need_sib set_sib or_modrm set_modrm Z.eqb Pos.eqb] in H. bok H. destruct p as [a3 rex2]. bok E. destruct p as [rex3 low]. apply set_rex_bits in E0; auto; try lia. destruct E0 as (-> & RO3 & B3 & X3). change (1 - 0) with 1 in X3.
      rewrite B1 in B3. rewrite X1 in X3. rewrite Z.max_id in B3. cbn [bind] in E. apply ok_inj, pair_inj in E. destruct E as [<- <-].
      assert (M4 : base mod 8 = 4) by (rewrite orb_true_iff, !Z.eqb_eq in E4; destruct E4 as [-> | ->]; auto). rewrite M4 in *.
      apply (FIN _ _ 4) in H; auto; [cbn [modrm set_sib or_modrm set_modrm]; rewrite <- lor_rm, <- MR' by lia; auto|].
      intros DC f. split; [contradiction|intros _]. change (sibs _) with [Z.lor 4 32]. rewrite lor_sib4 by lia. unfold f, DC. rewrite B3, X3.
      destruct (denc_sib bits (negb (vsib a1 =? 0)) 0 (base / 8) sp SP 4 4 0 ltac:(lia) ltac:(lia)) as (D1 & D2 & D3 & _). specialize (D3 ltac:(lia)). unfold index_of in D1, D2, D3. rewrite VV in D1, D2, D3 |- *. cbn [negb] in *. rewrite EQ in D1, D2, D3.
      unfold operand. rewrite RIPF. destruct (Z.eqb_spec base (-1)); [contradiction|]. rewrite EI. cbn [Z.eqb orb]. auto.
    + apply ok_inj, pair_inj in E. destruct E as [<- <-]. cbn [bind need_sib set_sib or_modrm set_modrm Z.eqb] in H. rewrite orb_false_iff, !Z.eqb_neq in E4.
      assert (M4 : base mod 8 <> 4) by (intros E; rewrite E in EQ; assert (base / 8 < 2) by (apply Z.div_lt_upper_bound; lia); lia).
      apply (FIN _ _ (base mod 8)) in H; auto; [cbn [modrm set_sib or_modrm set_modrm]; rewrite <- lor_rm, <- MR' by lia; auto|].
      intros DC f. split; [contradiction|intros _]. change (sibs _) with (@nil Z). unfold f, DC. rewrite B1, X1.
      destruct (denc_rm bits (negb (vsib a1 =? 0)) 0 (base / 8) sp SP (base mod 8) BM M4) as (D1 & D2 & D3). rewrite EQ in D1, D2, D3.
      unfold operand. rewrite RIPF. destruct (Z.eqb_spec base (-1)); [contradiction|]. rewrite EI. cbn [Z.eqb orb]. split; auto. split; auto. intros N5 N13. apply D3.
      intros E. rewrite E in EQ. assert (base / 8 < 2) by (apply Z.div_lt_upper_bound; lia). lia.
  - (* base and index *)
    destruct HB' as [?|HB]; [contradiction|]. cbn [bind need_sib set_sib or_modrm set_modrm Z.eqb Pos.eqb] in H. bok H. destruct p as [a3 rex2]. bok E. destruct p as [rex1 sb]. bok E. destruct p as [r3 s]. bok E1. destruct p as [r4 low]. apply ok_inj, pair_inj in E. destruct E as [<- <-]. apply ok_inj, pair_inj in E1. destruct E1 as [<- <-].
    apply set_rex_bits in E0; auto; try lia. destruct E0 as (-> & RO1 & B1 & X1). change (1 - 0) with 1 in X1. rewrite R0 in B1. rewrite R1 in X1.
    assert (N0 : 0 <= base / 8) by (apply Z.div_pos; lia). rewrite Z.max_r in B1 by lia. pose proof (Z.mod_pos_bound base 8 ltac:(lia)) as BM. assert (EQ : base mod 8 + 8 * (base / 8) = base) by (pose proof (Z.div_mod base 8); lia).
    assert (IX : exists n, 0 <= n < 16 /\ (bits <> 64 -> n < 8) /\ index_of (negb (vsib a1 =? 0)) (n / 8) (n mod 8) (Z.log2 (m idx)) = Some (idx, m idx) /\ low = n mod 8 /\ rexok r4 /\ rexbit r4 1 = n / 8 /\ rexbit r4 0 = base / 8).
    { destruct SC as [?|SC]; [contradiction|]. destruct HX as [?|HX]; [contradiction|]. unfold index_of. destruct (Z.leb_spec 17 idx) as [L17|L17].
      - exists (idx - 17). apply set_rex_bits in E2; auto; try lia. destruct E2 as (-> & Q2 & Q3 & Q4). change (1 - 1) with 0 in Q4. rewrite X1 in Q3. rewrite B1 in Q4. split; [lia|]. split; [lia|].
        assert (N1 : 0 <= (idx - 17) / 8) by (apply Z.div_pos; lia). split; [|split; [auto|split; [auto|split; [lia|auto]]]].
        destruct (Z.eqb_spec (vsib a1) 0) as [V|V]; [specialize (V0 V); lia|]. cbn [negb]. rewrite log_scale by auto. f_equal. f_equal. pose proof (Z.div_mod (idx - 17) 8). lia.
      - exists idx. apply set_rex_bits in E2; auto; try lia. destruct E2 as (-> & Q2 & Q3 & Q4). change (1 - 1) with 0 in Q4. rewrite X1 in Q3. rewrite B1 in Q4. split; [lia|]. split; [lia|].
        assert (N1 : 0 <= idx / 8) by (apply Z.div_pos; lia). split; [|split; [auto|split; [auto|split; [lia|auto]]]].
        destruct (Z.eqb_spec (vsib a1) 0) as [V|V]; [|specialize (V1 V); lia]. cbn [negb]. assert (EQ2 : idx mod 8 + 8 * (idx / 8) = idx) by (pose proof (Z.div_mod idx 8); lia). rewrite EQ2.
        destruct (Z.eqb_spec idx 4); [lia|]. rewrite log_scale by auto. auto. }
    destruct IX as (n & N1 & N2 & IX & -> & RO4 & X4 & B4). pose proof (Z.mod_pos_bound n 8 ltac:(lia)) as NM.
    apply (FIN _ _ 4) in H; auto; [cbn [modrm set_sib or_modrm set_modrm]; rewrite <- lor_rm, <- MR' by lia; auto|lia|].
    intros DC f. split; [contradiction|intros _]. unfold sibs. cbn [need_sib set_sib or_modrm set_modrm sib Z.eqb]. destruct SC as [?|SC]; [contradiction|]. rewrite lor_sib by (auto; lia). unfold f, DC. rewrite X4, B4.
    destruct (denc_sib bits (negb (vsib a1 =? 0)) (n / 8) (base / 8) sp SP (base mod 8) (n mod 8) (Z.log2 (m idx)) BM NM) as (D1 & D2 & D3 & _). rewrite IX in D1, D2, D3. rewrite EQ in D1, D2, D3.
    unfold operand. rewrite RIPF. destruct (Z.eqb_spec base (-1)); [contradiction|]. destruct (Z.eqb_spec idx (-1)); [contradiction|]. cbn [orb]. split; auto. split; auto. intros N5 N13. apply D3.
    intros E. rewrite E in EQ. assert (base / 8 < 2) by (apply Z.div_lt_upper_bound; lia). lia.
Qed.

(** 16-bit addresses *)
Definition bases16 : list (option Z) := [Some 3; Some 3; Some 5; Some 5; None; None; Some 5; Some 3].
Definition indexes16 : list (option (Z * Z)) := [Some (6, 1); Some (7, 1); Some (6, 1); Some (7, 1); Some (6, 1); Some (7, 1); None; None].
Lemma denc16 : forall sp rm, 0 <= sp < 8 -> 0 <= rm < 8 -> let f := fun d => Mem (nth (Z.to_nat rm) bases16 None) (nth (Z.to_nat rm) indexes16 None) d false in
  denc decode16 f (8 * sp + rm + 64) [] 1 /\ denc decode16 f (8 * sp + rm + 128) [] 2 /\ (rm <> 6 -> denc decode16 f (8 * sp + rm) [] 0) /\
  denc decode16 (fun d => Mem None None d false) (8 * sp + 6) [] 2.
Proof.
  intros sp rm SP R f. split; [|split; [|split]].
  - intros ds rest L. unfold decode16. destruct (mr_mod sp rm 1 SP R) as [E1 E2]. replace (8 * sp + rm + 64 * 1) with (8 * sp + rm + 64) in * by lia.
    rewrite E1, E2, andb_false_r. apply (dsp_app _ ds rest). auto.
  - intros ds rest L. unfold decode16. destruct (mr_mod sp rm 2 SP R) as [E1 E2]. replace (8 * sp + rm + 64 * 2) with (8 * sp + rm + 128) in * by lia.
    rewrite E1, E2, andb_false_r. apply (dsp_app _ ds rest). auto.
  - intros N6 ds rest L. unfold decode16. destruct (mr_mod sp rm 0 SP R) as [E1 E2]. replace (8 * sp + rm + 64 * 0) with (8 * sp + rm) in * by lia.
    rewrite E1, E2. destruct (Z.eqb_spec rm 6) as [?|_]; [contradiction|]. apply (dsp_app _ ds rest). auto.
  - intros ds rest L. unfold decode16. destruct (mr_mod sp 6 0 SP ltac:(lia)) as [E1 E2]. replace (8 * sp + 6 + 64 * 0) with (8 * sp + 6) in * by lia.
    rewrite E1, E2. apply (dsp_app _ ds rest). auto.
Qed.
Definition sum16 (m : mults) (R : Z -> Z) : Z := m 3 * R 3 + m 6 * R 6 + m 7 * R 7 + m 5 * R 5.
Lemma encode16 : forall nequ equ label sect dist m a0 a sp,
  existsb (fun r => negb (m r =? 0) && negb (m r =? 1)) [3; 6; 7; 5] = false ->
  let bit r v := if 0 <? m r then v else 0 in
  let have := bit 3 1 + bit 6 2 + bit 7 4 + bit 5 8 in
  let e := nth (Z.to_nat have) modrm16 255 in
  Z.land e 56 = 0 -> calc_displen nequ equ label sect dist 16 (have =? 0) (have =? 8) (or_modrm e a0) = Ok a ->
  0 <= sp < 8 -> modrm a0 = 8 * sp -> need_sib a0 = 0 -> need_modrm a0 = true -> need_disp a0 = true ->
  exists f, formed decode16 f 2 a /\ kept nequ equ label sect dist (disp a0) a /\ segreg a = segreg a0 /\
    (forall R next d, address R next (f d) = sum16 m R + d) /\ exists b x, forall d, f d = Mem b x d false.
Proof.
  intros nequ equ label sect dist m a0 a sp EX bit have e LE H SP MR NS NM ND.
  assert (M01 : forall r, In r [3; 6; 7; 5] -> m r = 0 \/ m r = 1).
  { intros r I. destruct (Z.eq_dec (m r) 0) as [?|N0]; [auto|]. destruct (Z.eq_dec (m r) 1) as [?|N1]; [auto|]. exfalso.
    assert (existsb (fun r => negb (m r =? 0) && negb (m r =? 1)) [3; 6; 7; 5] = true); [|congruence]. apply existsb_exists. exists r. split; auto. rewrite andb_true_iff, !negb_true_iff, !Z.eqb_neq. auto. }
  assert (FORM : forall rm noreg dispreq f, calc_displen nequ equ label sect dist 16 noreg dispreq (or_modrm rm a0) = Ok a -> 0 <= rm < 8 ->
    (noreg = true -> denc decode16 f (8 * sp + rm) [] 2) ->
    (noreg = false -> denc decode16 f (8 * sp + rm + 64) [] 1 /\ denc decode16 f (8 * sp + rm + 128) [] 2 /\ (dispreq = false -> denc decode16 f (8 * sp + rm) [] 0)) ->
    formed decode16 f 2 a /\ kept nequ equ label sect dist (disp a0) a /\ segreg a = segreg a0).
  { intros rm noreg dispreq f HH RM D1 D2. assert (SB : sibs (or_modrm rm a0) = []) by (unfold sibs; cbn [or_modrm set_modrm need_sib]; rewrite NS; auto).
    assert (MM : modrm (or_modrm rm a0) = 8 * sp + rm) by (cbn [or_modrm set_modrm modrm]; rewrite MR; apply lor_rm; auto).
    apply (displen_formed nequ equ label sect dist decode16 f 2) in HH; auto; rewrite ?SB, ?MM; auto; lia. }
  clear EX. destruct (M01 3) as [E3|E3]; [cbn; auto| |]; destruct (M01 6) as [E6|E6]; [cbn; auto| | |cbn; auto| |]; destruct (M01 7) as [E7|E7]; [cbn; auto| | |cbn; auto| | |cbn; auto| | |cbn; auto| |];
    (destruct (M01 5) as [E5|E5]; [cbn; auto 6| |]); clear M01;
    unfold e, have, bit in LE, H; clear e have bit; rewrite E3, E5, E6, E7 in LE, H; cbn [Z.ltb Z.compare] in LE, H; vm_compute in LE; try discriminate LE; clear LE;
    match type of H with calc_displen _ _ _ _ _ _ ?nr ?dr (or_modrm ?rm _) = _ => let v := eval vm_compute in rm in let n := eval vm_compute in nr in let q := eval vm_compute in dr in change rm with v in H; change nr with n in H; change dr with q in H end.
  all: match type of H with calc_displen _ _ _ _ _ _ _ _ (or_modrm ?rm _) = _ => assert (RM : 0 <= rm < 8) by lia; destruct (denc16 sp rm SP RM) as (D1 & D2 & D3 & D4) end.
  all: match type of H with calc_displen _ _ _ _ _ _ ?nr ?dr (or_modrm ?rm _) = _ =>
    let f := constr:(if nr then fun d => Mem None None d false else fun d => Mem (nth (Z.to_nat rm) bases16 None) (nth (Z.to_nat rm) indexes16 None) d false) in
    exists f; destruct (FORM rm nr dr f H RM) as (F1 & F2 & F3); [intros Q; solve [discriminate Q|auto]|intros Q; solve [discriminate Q|split; [auto|split; [auto|intros Q2; solve [discriminate Q2|apply D3; lia]]]]|
      split; [auto|split; [auto|split; [auto|split; [intros R next d; unfold sum16; rewrite E3, E5, E6, E7; cbv [address m_base m_index m_disp m_rip nth Z.to_nat Pos.to_nat Pos.iter_op Nat.add bases16 indexes16]; lia|do 2 eexists; intros d; reflexivity]]]]] end.
Qed.
