(** The address that an effective address encodes (C33). *)
From Coq Require Import ZArith List Bool Arith Lia.
From Verif Require Import Lib M_BitVect M_Intnum P_Intnum P_IntnumIO M_Expr P_Expr P_ExprLevel P_ExprTree P_ExprTree2 P_ExprTop P_ExprUse M_X86 P_X86Len P_X86Jmp P_X86Reg P_X86Flat P_X86Lin.
Import ListNotations.
Open Scope Z_scope.

(** * Specification *)
(** The address size the processor uses, with or without prefix 67h *)
Definition asz_cpu (mode : Z) (p67 : bool) : Z := if mode =? 64 then if p67 then 32 else 64 else if p67 then 48 - mode else mode.
Definition reads (asz mode : Z) (vs : bool) (x b : Z) (l : list Z) : option (mem * list Z) := if asz =? 16 then decode16 l else decode32 mode vs x b l.
(** REX, VEX or XOP prefix and opcode [op]: how they extend index and base *)
Inductive extends (op : list Z) : Z -> list Z -> Z -> Z -> Prop :=
| ext_none s : ~ In s [143; 196; 197] -> extends op s ((if s =? 0 then [] else [s]) ++ op) 0 0
| ext_rex s r : ~ In s [143; 196; 197] -> 64 <= r < 80 -> extends op s ((if s =? 0 then [] else [s]) ++ r :: op) (r / 2 mod 2) (r mod 2)
| ext_vex3 s o rest : In s [143; 196] -> extends op s (s :: o :: rest) (1 - o / 64 mod 2) (1 - o / 32 mod 2)
| ext_vex2 rest : extends op 196 (197 :: rest) 0 0.
Definition redisp (y : Z) (m : mem) : mem := Mem (m_base m) (m_index m) y (m_rip m).
(** Registers have the values [RR], and RIP that of the next instruction *)
Definition registers (E : env) (RR : Z -> Z) (next : Z) : Prop :=
  (forall n, 0 <= n < 16 -> reg E (REG16 + n) = RR n /\ reg E (REG32 + n) = RR n /\ reg E (REG64 + n) = RR n /\
     reg E (XMMREG + n) = RR (17 + n) /\ reg E (YMMREG + n) = RR (17 + n) /\ reg E (RIP + n) = next) /\ RR 16 = next.
(** Registers 8 to 15 are those of 64-bit mode. *)
Definition in_mode (mode r : Z) : Prop := mode <> 64 -> Z.land r 8 = 0.
Definition relv (T : Z -> Z) (v : M_X86.value) : Z := match v_rel v with Some s => T s | None => 0 end.
(** What is written for a value: its absolute part, plus the address of the symbol, less that of the instruction *)
Definition honest (E : env) (T : Z -> Z) (here : Z) (ov : M_X86.value -> out Z) : Prop :=
  forall v x z, ov v = Ok x -> aval E v z -> (x - (z + relv T v - if v_curpos v then here else 0)) mod 2 ^ 256 = 0.
Definition get_of (asz vs mode : Z) : Z -> option Z := if asz =? 16 then get_reg16 else get_reg3264 vs mode asz.

(** * Proofs *)
Lemma reg_split : forall r, r = rsize r + rnum r /\ 0 <= rnum r < 16 /\ (Z.land r 8 = 0 -> rnum r < 8) /\ Z.land r 7 = rnum r mod 8.
Proof.
  intros r. unfold rsize, rnum. assert (L15 : Z.land r 15 = r mod 16) by (apply (Z.land_ones r 4); lia). rewrite L15.
  assert (L7 : Z.land r 7 = r mod 8) by (apply (Z.land_ones r 3); lia). rewrite L7.
  assert (R : 0 <= r mod 16 < 16) by (apply Z.mod_pos_bound; lia). split; [|split; [exact R|split]].
  - change (Z.land r (Z.lnot 15)) with (Z.ldiff r 15) || rewrite <- Z.ldiff_land. change 15 with (Z.ones 4). rewrite (Z.ldiff_ones_r r 4) by lia.
    rewrite Z.shiftl_mul_pow2, Z.shiftr_div_pow2 by lia. change (2 ^ 4) with 16. pose proof (Z.div_mod r 16 ltac:(lia)). lia.
  - intros H. assert (B : Z.testbit r 3 = false) by (rewrite <- (Z.bits_0 3), <- H, Z.land_spec; cbn; rewrite andb_true_r; auto).
    pose proof (Z.testbit_spec' r 3 ltac:(lia)) as B2. rewrite B in B2. cbn [Z.b2z] in B2. change (2 ^ 3) with 8 in B2.
    rewrite (Z.mod_eq (r / 8)) in B2 by lia. rewrite Z.div_div in B2 by lia. change (8 * 2) with 16 in B2. pose proof (Z.div_mod r 16 ltac:(lia)). pose proof (Z.div_mod r 8 ltac:(lia)). pose proof (Z.mod_pos_bound r 8 ltac:(lia)). lia.
  - change 16 with (8 * 2). rewrite Z.rem_mul_r by lia. rewrite Z.add_mod, Z.mul_comm, Z.mod_mul, Z.add_0_r, !Z.mod_mod by lia. reflexivity.
Qed.
Lemma some_inj : forall a b : Z, Some a = Some b -> a = b.
Proof. congruence. Qed.
Section Get.
Variables (E : env) (RR : Z -> Z) (next mode asz vs : Z).
Hypothesis REG : registers E RR next.
Definition Pn (n : Z) : Prop := 0 <= n < 33 /\ (mode <> 64 -> n < 8 \/ 17 <= n < 25) /\ (vs = 0 -> n < 17).
Lemma get3264_ok : forall r n, get_reg3264 vs mode asz r = Some n -> in_mode mode r -> (reg E r = RR n /\ 0 <= n < 33) /\ Pn n.
Proof.
  intros r n G M. destruct (reg_split r) as (S1 & S2 & S3 & _). destruct REG as [RG R16]. specialize (RG (rnum r) S2). destruct RG as (Q1 & Q2 & Q3 & Q4 & Q5 & Q6).
  unfold Pn. unfold get_reg3264 in G. unfold in_mode in M. 
  destruct (Z.eqb_spec (rsize r) REG32) as [K|K]; [ifd G; [apply some_inj in G; subst n|discriminate]; rewrite S1 at 1; rewrite K; split; [split; [exact Q2|lia]|]; split; [lia|]; split; [intros N; specialize (S3 (M N)); lia|lia]|].
  destruct (Z.eqb_spec (rsize r) REG64) as [K2|K2]; [ifd G; [apply some_inj in G; subst n|discriminate]; rewrite S1 at 1; rewrite K2; split; [split; [exact Q3|lia]|]; split; [lia|]; split; [intros N; specialize (S3 (M N)); lia|lia]|].
  destruct (Z.eqb_spec (rsize r) XMMREG) as [K3|K3].
  { destruct (Z.eqb_spec vs 1) as [->|]; [|discriminate G]. cbn [negb] in G. ifd G; [discriminate G|]. apply some_inj in G; subst n. rewrite S1 at 1; rewrite K3; split; [split; [exact Q4|lia]|]; split; [lia|]; split; [intros N; specialize (S3 (M N)); lia|lia]. }
  destruct (Z.eqb_spec (rsize r) YMMREG) as [K4|K4].
  { destruct (Z.eqb_spec vs 2) as [->|]; [|discriminate G]. cbn [negb] in G. ifd G; [discriminate G|]. apply some_inj in G; subst n. rewrite S1 at 1; rewrite K4; split; [split; [exact Q5|lia]|]; split; [lia|]; split; [intros N; specialize (S3 (M N)); lia|lia]. }
  destruct (Z.eqb_spec (rsize r) RIP) as [K5|K5]; [|discriminate]. destruct (Z.eqb_spec mode 64) as [->|]; [|discriminate]. apply some_inj in G; subst n.
  rewrite S1 at 1; rewrite K5, R16; split; [split; [exact Q6|lia]|]; split; [lia|]; split; [lia|lia].
Qed.
Lemma get16_ok : forall r n, get_reg16 r = Some n -> mode <> 64 -> in_mode mode r -> (reg E r = RR n /\ 0 <= n < 33) /\ In n [3; 5; 6; 7].
Proof.
  intros r n G N M. destruct (reg_split r) as (S1 & S2 & S3 & S4). destruct REG as [RG R16]. specialize (RG (rnum r) S2). destruct RG as (Q1 & _).
  specialize (S3 (M N)). unfold get_reg16 in G. destruct (Z.eqb_spec (rsize r) REG16) as [K|]; [|discriminate]. cbn [negb] in G. rewrite S4, Z.mod_small in G by lia.
  destruct (existsb (Z.eqb (rnum r)) [3; 5; 6; 7]) eqn:EX; [|discriminate]. apply some_inj in G; subst n. apply existsb_exists in EX. destruct EX as (k & I & EK). apply Z.eqb_eq in EK. subst k.
  rewrite S1 at 1. rewrite K. split; [split; [auto|lia]|exact I].
Qed.
End Get.
Lemma tot_ind : forall m a l, NoDup l -> In a l -> tot m (fun i => if i =? a then 1 else 0) l = m a.
Proof.
  intros m a l N I. assert (Z0 : forall l, ~ In a l -> tot m (fun i => if i =? a then 1 else 0) l = 0).
  { induction l0 as [|i r IH]; intros NI; [reflexivity|]. cbn [tot fold_right]. fold (tot m (fun i => if i =? a then 1 else 0) r). rewrite IH by (intros Q; apply NI; right; auto). destruct (Z.eqb_spec i a); [exfalso; apply NI; left; auto|lia]. }
  induction l as [|i r IH]; [destruct I|]. inversion N; subst. cbn [tot fold_right]. fold (tot m (fun i => if i =? a then 1 else 0) r). destruct (Z.eqb_spec i a) as [->|NE].
  - rewrite Z0 by auto. lia.
  - rewrite IH; [lia|auto|destruct I; [contradiction|auto]].
Qed.
Lemma tot_out : forall m R n, 0 <= n <= 33 -> (forall i, n <= i -> m i = 0) -> tot m R (upto 33) = tot m R (upto n).
Proof.
  intros m R n N H. assert (X : upto 33 = upto n ++ map Z.of_nat (seq (Z.to_nat n) (Z.to_nat (33 - n)))).
  { unfold upto. rewrite <- map_app. f_equal. rewrite <- seq_app. f_equal. lia. }
  rewrite X. clear X. assert (A : forall l1 l2, tot m R (l1 ++ l2) = tot m R l1 + tot m R l2).
  { induction l1 as [|i r IH]; intros l2; [reflexivity|]. cbn [app tot fold_right]. fold (tot m R (r ++ l2)) (tot m R r). rewrite IH. lia. }
  rewrite A, (tot_zero m R (map _ _)); [lia|]. intros i I. apply in_map_iff in I. destruct I as (k & <- & K). apply in_seq in K. apply H. lia.
Qed.

(** Beside WRT there is at most one register, as a term *)
Lemma distcheck_ident : forall n a t c, distcheck n (TExpr IDENT [a]) = Ok (t, c) -> t = TExpr IDENT [a] /\ c = false /\ (is_expr a = true -> noreg a).
Proof.
  intros n a t c H. destruct n as [|n]; [discriminate H|]. cbn [distcheck] in H. bok H. destruct p as [ts s]. pose proof (dist_noreg _ _ _ _ _ _ _ E) as [_ NR]. specialize (NR eq_refl). inversion NR as [|? ? NA _]; subst. clear NR.
  cbn [dist_terms] in E. bok E. destruct p as [t1 s1]. cbn [bind] in E. apply ok_inj in E. apply pair_inj in E. destruct E as [<- <-].
  assert (K : t1 = a /\ have_expr s1 = None /\ changed s1 = false).
  { change (op_eq IDENT MUL) with false in E0. change (op_eq IDENT ADD) with false in E0. change (op_eq IDENT IDENT) with true in E0.
    destruct a; cbn [negb andb orb have have_expr changed] in E0; try discriminate E0; try (apply ok_inj in E0; apply pair_inj in E0; destruct E0 as [<- <-]; auto).
    ifd E0; [discriminate E0|]. ifd E0; [discriminate E0|]. apply ok_inj in E0. apply pair_inj in E0. destruct E0 as [<- <-]. auto. }
  destruct K as (-> & K1 & K2). rewrite K1, K2 in H. apply ok_inj in H. apply pair_inj in H. destruct H as [<- <-]. auto.
Qed.
Lemma ident_rip : forall get m0 a e' s, regs_of get true m0 (IDENT, [a]) = Ok (e', s) -> (is_expr a = true -> noreg a) -> m0 16 = 1 -> 0 < s_mult s 16.
Proof.
  intros get m0 a e' s H NA M. cbn [regs_of] in H. bok H. destruct p as [l s1]. apply ok_inj in H. apply pair_inj in H. destruct H as [_ <-]. cbn [scan_terms] in E. bok E. destruct p as [t s2]. cbn [bind] in E. apply ok_inj in E. apply pair_inj in E. destruct E as [_ <-].
  assert (SAME : forall x, Ok (x, Scan m0 (-1) 0 false) = Ok (t, s2) -> 0 < s_mult s2 16) by (intros x Q; apply ok_inj in Q; apply pair_inj in Q; destruct Q as [_ <-]; cbn [s_mult]; lia).
  destruct a as [|r| | | | | |o ts]; try (exact (SAME _ E0)).
  - destruct (get r) as [n|]; [|discriminate E0]. apply ok_inj in E0. apply pair_inj in E0. destruct E0 as [_ <-].
    assert (Q : 0 < add_reg m0 n 1 16) by (unfold add_reg; destruct (Z.eqb_spec 16 n) as [<-|]; rewrite ?M; [reflexivity|lia]).
    unfold scan_reg. cbv zeta. cbn [s_mult]. destruct (_ && _ && _ && _); exact Q.
  - specialize (NA eq_refl). apply leaves_expr in NA. destruct ts as [|[|r| | | | | |] ts]; try (exact (SAME _ E0)). inversion NA as [|? ? NB _]; subst. destruct NB.
Qed.

(** the reg field of ModRM *)
Definition field (a : ea) : Z := Z.land (modrm a) 56.
Lemma field_lor : forall m k, Z.land k 56 = 0 -> Z.land (Z.lor m k) 56 = Z.land m 56.
Proof. intros m k H. rewrite Z.land_lor_distr_l, H, Z.lor_0_r. reflexivity. Qed.
Lemma field_widen : forall m, Z.land (widen m) 56 = Z.land m 56.
Proof. intros m. unfold widen. rewrite field_lor by reflexivity. rewrite <- Z.land_assoc. reflexivity. Qed.

Section Addr.
Variables (nequ : nat) (equ : Z -> option expr) (label : Z -> option Z) (sect : Z -> Z) (dist : Z -> Z -> option intnum).
Hypothesis SD : forall s d, equ s = Some d -> shaped (eitem d).
Hypothesis ND : forall s d, equ s = Some d -> noreg (eitem d).
Variables (E : env) (RR : Z -> Z) (next mode : Z) (T : Z -> Z).
Hypothesis EE : env_equ equ E.
Hypothesis WR : forall a b, wrtf E a b = a.
Hypothesis REG : registers E RR next.
Hypothesis T1 : T (-1) = 0.

Lemma displen_field : forall w nr dr a a', calc_displen nequ equ label sect dist w nr dr a = Ok a' -> field a' = field a.
Proof.
  intros w nr dr a a' H. unfold calc_displen in H. cbv zeta in H.
  repeat first [discriminate H | ifd H
    | match type of H with bind _ _ = _ => bok H end
    | match type of H with match ?x with _ => _ end = _ => destruct x end];
  apply ok_inj in H; subst a'; unfold field; try (rewrite <- (field_lor (modrm a) 0 eq_refl)); try reflexivity;
  cbn [modrm set_modrm set_disp set_nonzero set_nodisp with_size value_delete]; try (destruct dr; cbn [modrm set_modrm set_disp set_nonzero set_nodisp with_size value_delete]);
  rewrite ?field_lor by reflexivity; try reflexivity; destruct nr; rewrite ?field_lor by reflexivity; reflexivity.
Qed.
Lemma set_rex_low : forall rex r bits k rex' low, set_rex rex r bits k = Ok (rex', low) -> Z.land low 56 = 0.
Proof.
  intros rex r bits k rex' low H. assert (low = Z.land r 7).
  { unfold set_rex in H. cbv zeta in H. repeat (ifd H; try discriminate H); apply ok_inj in H; apply pair_inj in H; destruct H as [_ <-]; reflexivity. }
  subst low. rewrite <- Z.land_assoc. apply Z.land_0_r.
Qed.
Lemma encode_field : forall bits m base idx rex a a' rex', encode3264 nequ equ label sect dist bits m base idx rex a = Ok (a', rex') -> field a' = field a.
Proof.
  intros bits m base idx rex a0 a' rex' H. unfold encode3264 in H.
  destruct (if (base =? -1) && (idx =? -1) && pc_rel a0 then (16, set_disp (set_curpos true (disp a0)) a0) else (base, a0)) as [base1 a1] eqn:EB.
  assert (F1 : field a1 = field a0) by (ifd EB; apply pair_inj in EB; destruct EB as [_ <-]; reflexivity). rewrite <- F1. clear EB F1. cbv zeta in H.
  ifd H. { apply ok_inj in H. apply pair_inj in H. destruct H as [<- _]. unfold field. cbn [modrm set_modrm set_disp set_needmodrm set_sib]. apply field_lor. reflexivity. }
  bok H. destruct p as [a2 rex1]. bok H. destruct p as [a3 rex2]. bok H. rename p into a4. apply ok_inj in H. apply pair_inj in H. destruct H as [<- _]. apply displen_field in E2. rewrite E2. clear E2.
  assert (F3 : field a3 = field a2).
  { clear - E1. ifd E1; [|apply ok_inj in E1; apply pair_inj in E1; destruct E1 as [-> _]; reflexivity].
    bok E1. destruct p as [r2 sb]. bok E1. destruct p as [r3 s]. apply ok_inj in E1. apply pair_inj in E1. destruct E1 as [<- _]. reflexivity. }
  rewrite F3. clear F3 E1. 
  ifd E0.
  - ifd E0; apply ok_inj in E0; apply pair_inj in E0; destruct E0 as [<- _]; unfold field; cbn [modrm set_modrm set_disp set_needmodrm set_sib or_modrm]; apply field_lor; reflexivity.
  - ifd E0; [|apply ok_inj in E0; apply pair_inj in E0; destruct E0 as [<- _]; unfold field; cbn [modrm set_modrm set_disp set_needmodrm set_sib or_modrm]; apply field_lor; reflexivity].
    bok E0. destruct p as [r2 low]. apply set_rex_low in E1. ifd E0; apply ok_inj in E0; apply pair_inj in E0; destruct E0 as [<- _]; unfold field; cbn [modrm set_modrm set_disp set_needmodrm set_sib or_modrm]; apply field_lor; auto.
Qed.
(** a displacement [y] instead of [zd] makes that difference *)
Definition right (v : M_X86.value) (za : Z) (f : Z -> mem) (a : ea) : Prop :=
  exists d zd, aval E d zd /\ relv T d = relv T v /\ v_iprel d = v_curpos d /\ v_size d = v_size v /\
    (forall y, cg (address RR next (f y)) (za + y - zd + if v_curpos d then next else 0)) /\ (v_rel d = None -> v_curpos d = false) /\ kept nequ equ label sect dist d a.
Lemma relv_curpos : forall ip v, relv T (set_curpos ip v) = relv T v.
Proof. intros ip v. unfold relv, set_curpos. cbn [v_rel]. destruct (v_rel v); auto. Qed.
Lemma curpos_rel : forall ip v, v_rel (set_curpos ip v) <> None.
Proof. intros ip v. unfold set_curpos. cbn [v_rel]. destruct (v_rel v); discriminate. Qed.
Lemma not255 : forall rex kind b bits k rex' low, set_rex rex (Z.lor kind b) bits k = Ok (rex', low) -> kind = REG64 \/ kind = XMMREG -> 0 <= b < 16 -> k = 0 \/ k = 1 -> rexok rex -> rex <> 255 -> rex' <> 255.
Proof.
  intros rex kind b bits k rex' low H K B KK OK N. destruct (Z.eqb_spec bits 64) as [->|NB].
  - assert (Q : forallb (fun kd => forallb (fun k => forallb (fun b => forallb (fun rx => match set_rex rx (Z.lor kd b) 64 k with Ok (r, _) => (rx =? 255) || negb (r =? 255) | _ => true end) rexes) (upto 16)) [0; 1]) [REG64; XMMREG] = true) by (vm_compute; reflexivity).
    rewrite forallb_forall in Q. specialize (Q kind ltac:(destruct K; subst; cbn; auto)). rewrite forallb_forall in Q. specialize (Q k ltac:(destruct KK; subst; cbn; auto)).
    rewrite forallb_forall in Q. specialize (Q b (proj2 (upto_in 16 b) B)). rewrite forallb_forall in Q. specialize (Q rex (rexes_in _ OK)). rewrite H in Q. apply orb_true_iff in Q. rewrite negb_true_iff, Z.eqb_eq, Z.eqb_neq in Q. tauto.
  - unfold set_rex in H. cbv zeta in H. apply Z.eqb_neq in NB. rewrite NB in H. apply ok_inj in H. apply pair_inj in H. destruct H as [<- _]. exact N.
Qed.
Lemma encode_not255 : forall bits m base idx rex a a' rex', encode3264 nequ equ label sect dist bits m base idx rex a = Ok (a', rex') ->
  rexok rex -> rex <> 255 -> (base = -1 \/ 0 <= base < 17) -> (idx = -1 \/ 0 <= idx < 33 /\ idx <> 16) -> (bits <> 64 -> base < 8 /\ (idx < 8 \/ 17 <= idx < 25)) -> rex' <> 255.
Proof.
  intros bits m base idx rex a0 a' rex' H OK N HB HI HM. unfold encode3264 in H.
  destruct (if (base =? -1) && (idx =? -1) && pc_rel a0 then (16, set_disp (set_curpos true (disp a0)) a0) else (base, a0)) as [base1 a1] eqn:EB.
  assert (B1 : base1 = 16 \/ base1 = base) by (ifd EB; apply pair_inj in EB; destruct EB as [<- _]; auto). clear EB. cbv zeta in H.
  destruct (Z.eqb_spec base1 16) as [|NB]; [apply ok_inj in H; apply pair_inj in H; destruct H as [_ <-]; exact N|]. destruct B1 as [|B1]; [contradiction|]. subst base1.
  bok H. destruct p as [a2 rex1]. bok H. destruct p as [a3 rex2]. bok H. rename p into a4. apply ok_inj in H. apply pair_inj in H. destruct H as [_ <-]. clear E2.
  assert (X1 : rex1 <> 255 /\ rexok rex1).
  { clear E1. ifd E0; [ifd E0; apply ok_inj in E0; apply pair_inj in E0; destruct E0 as [_ <-]; auto|].
    ifd E0; [|apply ok_inj in E0; apply pair_inj in E0; destruct E0 as [_ <-]; auto]. bok E0. destruct p as [r2 low].
    assert (base <> -1) by (intros ->; discriminate Heqb). assert (B2 : 0 <= base < 16) by lia.
    assert (r2 = rex1) by (ifd E0; apply ok_inj in E0; apply pair_inj in E0; tauto). subst r2. split; [exact (not255 _ _ _ _ _ _ _ E1 (or_introl eq_refl) B2 (or_introl eq_refl) OK N)|].
    apply (set_rex_bits _ _ _ _ _ _ _ E1 (or_introl eq_refl) (or_introl eq_refl) B2 OK). intros Q. specialize (HM Q). lia. }
  destruct X1 as [N1 OK1]. ifd E1; [|apply ok_inj in E1; apply pair_inj in E1; destruct E1 as [_ <-]; auto].
  bok E1. destruct p as [r2 sb]. bok E1. destruct p as [r3 s]. apply ok_inj in E1. apply pair_inj in E1. destruct E1 as [_ <-].
  assert (X2 : r2 <> 255 /\ rexok r2).
  { destruct (Z.eqb_spec base (-1)) as [|NM]; [apply ok_inj in E2; apply pair_inj in E2; destruct E2 as [<- _]; auto|]. assert (B2 : 0 <= base < 16) by lia.
    split; [exact (not255 _ _ _ _ _ _ _ E2 (or_introl eq_refl) B2 (or_introl eq_refl) OK1 N1)|]. apply (set_rex_bits _ _ _ _ _ _ _ E2 (or_introl eq_refl) (or_introl eq_refl) B2 OK1). intros Q. specialize (HM Q). lia. }
  destruct X2 as [N2 OK2]. destruct (Z.eqb_spec idx (-1)) as [|NM]; [apply ok_inj in E3; apply pair_inj in E3; destruct E3 as [<- _]; auto|].
  bok E3. destruct p as [r4 low]. apply ok_inj in E3. apply pair_inj in E3. destruct E3 as [<- _]. destruct (Z.leb_spec 17 idx).
  - exact (not255 _ _ _ _ _ _ _ E1 (or_intror eq_refl) ltac:(lia) (or_intror eq_refl) OK2 N2).
  - exact (not255 _ _ _ _ _ _ _ E1 (or_introl eq_refl) ltac:(lia) (or_intror eq_refl) OK2 N2).
Qed.
(** what the theorem asks of an expression, for a way of reading registers *)
Definition asks (v : M_X86.value) (get : Z -> option Z) (ui : bool) : Prop :=
  forall e0, v_abs v = Some e0 -> tame nequ equ E ui e0 /\ light nequ equ get ui mode e0 /\ leaves (preg (in_mode mode)) (eitem e0).
Lemma kept_size : forall d n a, need_disp a = true -> disp a = with_size n d -> n <> 8 -> kept nequ equ label sect dist d a.
Proof. intros d n a N H NE. right. rewrite H. cbn [with_size v_size v_abs v_rel v_curpos v_iprel]. split; auto. split; auto. intros _ Q. contradiction. Qed.
Lemma operand_address : forall base idx sc y, (base = -1 \/ 0 <= base < 17) -> RR 16 = next -> address RR next (operand base idx sc y) = part RR 1 base + part RR sc idx + y.
Proof.
  intros base idx sc y B R16. unfold address, operand, part. cbn [m_base m_index m_disp m_rip]. destruct (Z.eqb_spec base (-1)) as [->|N1].
  - cbn [orb Z.eqb Pos.eqb]. destruct (idx =? -1); lia.
  - destruct (Z.eqb_spec base 16) as [->|N2]; cbn [orb]; destruct (idx =? -1); lia.
Qed.
Lemma rip_get : forall vs asz r, get_reg3264 vs mode asz r = Some 16 -> rsize r = RIP.
Proof.
  intros vs asz r G. destruct (reg_split r) as (_ & S2 & _). unfold get_reg3264 in G.
  repeat (ifd G; try discriminate G); try (apply some_inj in G; lia); apply Z.eqb_eq; assumption.
Qed.
Lemma usage_keep : forall vs asz d d' s e0, usage nequ equ label sect dist (get_reg3264 vs mode asz) true mode d = Ok (d', s) -> v_abs d = Some e0 ->
  v_curpos d = false -> v_curpos d' = true -> 0 < s_mult s 16.
Proof.
  intros vs asz d d' s e0 H VA C0 C1. unfold usage in H. rewrite VA in H. bok H. destruct p as [[e1 m0] pc]. bok H. destruct p as [e2 s2].
  destruct (simplify nequ equ label sect dist false e2) as [[[e3 sx] bx]| |]; try discriminate H. apply ok_inj in H. apply pair_inj in H. destruct H as [<- <-].
  destruct pc; [|cbn [with_abs v_curpos] in C1; congruence]. unfold prepare in E0. cbn [negb] in E0.
  destruct (level_tree nequ equ true true false [] e0) as [[[e st] b]| |] eqn:LT; try discriminate E0. destruct (extract_wrt e) as [w e4] eqn:X. bok E0. destruct p as [m1 pc1]. bok E0. destruct p as [t c].
  destruct w as [w|]; [|apply ok_inj in E2; apply pair_inj in E2; destruct E2 as [_ E2]; subst pc1; destruct c; [destruct (level_tree nequ equ true true false [] (of_item t)) as [[[? ?] ?]| |]; try discriminate E0|]; apply ok_inj in E0; apply pair_inj in E0; destruct E0 as [_ E0]; discriminate E0].
  assert (M1 : m1 16 = 1).
  { destruct w as [[] [|[] ?]]; try discriminate E2. ifd E2; [discriminate E2|]. destruct (get_reg3264 vs mode asz r) as [n|]; [|discriminate E2]. destruct (n =? 16) eqn:N16; [|discriminate E2]. apply Z.eqb_eq in N16. subst n.
    apply ok_inj in E2. apply pair_inj in E2. destruct E2 as [<- _]. reflexivity. }
  assert (XI : exists a, e4 = (IDENT, [a])).
  { destruct e as [o ts]. unfold extract_wrt in X. destruct o; try discriminate X. destruct ts as [|a [|? ?]]; try discriminate X. apply pair_inj in X. destruct X as [_ <-]. exists a. reflexivity. }
  destruct XI as [a ->]. cbn [fst snd] in E3. destruct (distcheck_ident _ _ _ _ E3) as (-> & -> & NA).
  apply ok_inj in E0. apply pair_inj in E0. destruct E0 as [E0 _]. apply pair_inj in E0. destruct E0 as [<- <-]. exact (ident_rip _ _ _ _ _ E1 NA M1).
Qed.
Lemma check3264_right : forall asz rex v ns seg pcr vs sp a rex' za, check3264 nequ equ label sect dist asz mode rex (ea_of v ns seg pcr vs sp) = Ok (a, rex') ->
  0 <= sp < 8 -> rexok rex -> rexbit rex 0 = 0 -> rexbit rex 1 = 0 -> v_curpos v = false -> v_iprel v = false -> aval E v za ->
  asks v (get_reg3264 vs mode asz) true ->
  exists f, formed (decode32 mode (negb (vs =? 0)) (rexbit rex' 1) (rexbit rex' 0)) f 4 a /\ right v za f a /\
    rexok rex' /\ (rex <> 255 -> rex' <> 255) /\ segreg a = seg /\ field a = 8 * sp /\ (asz = 64 -> mode = 64) /\ (forall y y', f y = redisp y (f y') /\ m_disp (f y) = y).
Proof.
  intros asz rex v ns seg pcr vs sp a rex' za H SP RX RX0 RX1 VC VI AV ASK. unfold check3264 in H.
  destruct ((asz =? 64) && negb (mode =? 64)) eqn:A64; [discriminate H|]. cbv zeta in H.
  set (a0 := if pc_rel (ea_of v ns seg pcr vs sp) && negb (mode =? 64) then set_pcrel false (ea_of v ns seg pcr vs sp) else ea_of v ns seg pcr vs sp) in H.
  assert (Q0 : vsib a0 = vs /\ disp a0 = v /\ modrm a0 = 8 * sp /\ need_sib a0 = 255 /\ need_disp a0 = true /\ nosplit a0 = ns /\ segreg a0 = seg /\ (mode <> 64 -> pc_rel a0 = false) /\ (pc_rel a0 = true -> pcr = true)).
  { assert (M8 : Z.land (Z.shiftl sp 3) 56 = 8 * sp).
    { rewrite Z.shiftl_mul_pow2 by lia. change (2 ^ 3) with 8. apply (upto_all 8 (fun sp => Z.land (sp * 8) 56 =? 8 * sp) sp) in SP; [|vm_compute; reflexivity]. apply Z.eqb_eq. exact SP. }
    subst a0. destruct (pc_rel (ea_of v ns seg pcr vs sp) && negb (mode =? 64)) eqn:PC; unfold ea_of, set_pcrel; cbn [vsib disp modrm need_sib need_disp nosplit segreg pc_rel]; repeat split; auto; try discriminate.
    intros N. cbn [ea_of pc_rel] in PC. apply Z.eqb_neq in N. rewrite N in PC. cbn in PC. rewrite andb_true_r in PC. exact PC. }
  clearbody a0. destruct Q0 as (Q1 & Q2 & Q3 & Q4 & Q5 & Q6 & Q7 & Q8 & Q9). rewrite Q1, Q2, Q6 in H.
  change (vsib (ea_of v ns seg pcr vs sp)) with vs in H. bok H. destruct p as [d s].
  destruct (usage_lin nequ equ label sect dist SD ND E (get_reg3264 vs mode asz) (in_mode mode) EE WR RR (Pn mode vs)
    (fun r n G M => proj1 (get3264_ok E RR next mode asz vs REG r n G M)) (fun r n G M => proj2 (get3264_ok E RR next mode asz vs REG r n G M))
    true mode v d s za E0 AV) as (zd & pc & V1 & V2 & V3 & V4 & V5 & V6).
  { intros ->. unfold Pn. split; [lia|]. split; [intros N; contradiction|lia]. }
  { exact ASK. }
  set (n := if vs =? 0 then 17 else 33) in H. set (m := s_mult s) in *.
  destruct (find_regs m (upto n) (-1) (if negb (s_index s =? -1) && (m (s_index s) =? 0) then -1 else s_index s)) as [[b1 x1]|] eqn:F; [|discriminate H].
  destruct (adjust vs ns m b1 x1) as [[[b2 x2] m']|] eqn:AD; [|discriminate H].
  destruct (check_regs n m' b2 x2) as [[base idx]|] eqn:CR; [|discriminate H].
  assert (N33 : n = 17 \/ n = 33) by (unfold n; destruct (vs =? 0); auto).
  assert (OUT : forall i, i < 0 \/ n <= i -> m i = 0).
  { intros i R. destruct (Z.eq_dec (m i) 0) as [|NZ]; auto. destruct (V3 i NZ) as (P1 & _ & P3). unfold n in R. destruct (Z.eqb_spec vs 0) as [Z0|]; [specialize (P3 Z0)|]; lia. }
  assert (X0 : s_index s = -1 \/ 0 <= s_index s < n).
  { destruct V4 as [V4|(P1 & _ & P3)]; [auto|]. right. unfold n. destruct (Z.eqb_spec vs 0) as [Z0|]; [specialize (P3 Z0)|]; lia. }
  pose proof (choose_ok m n vs ns (s_index s) b1 x1 b2 x2 m' base idx eq_refl X0 OUT F AD CR) as CH. destruct CH as [C1 C2 C3 C4 C5 C6 C7].
  assert (HB : base = -1 \/ 0 <= base < 17) by (destruct C3 as [|[C3 _]]; auto).
  assert (HI : idx = -1 \/ 0 <= idx < 33 /\ idx <> 4 /\ idx <> 16) by (destruct C4 as [|(C4 & ? & ? & _)]; [auto|right; lia]).
  assert (HM : mode <> 64 -> base < 8 /\ (idx < 8 \/ 17 <= idx < 25)).
  { intros N. split.
    - destruct C3 as [->|[C3 C3']]; [lia|]. destruct (V3 _ C3') as (_ & P2 & _). specialize (P2 N). lia.
    - destruct C4 as [->|(C4 & _ & _ & C4')]; [lia|]. destruct (V3 _ C4') as (_ & P2 & _). specialize (P2 N). lia. }
  destruct (encode_formed nequ equ label sect dist mode m' base idx rex (set_disp d a0) a rex' sp H SP Q3 ltac:(cbn [set_disp need_sib]; lia) Q5 RX RX0 RX1 HB HI C2 C5
    ltac:(cbn [set_disp vsib]; rewrite Q1; auto) ltac:(cbn [set_disp vsib]; rewrite Q1; auto)
    ltac:(intros N; destruct (HM N) as [? ?]; split; [auto|split; [exact (Q8 N)|auto]])) as (FM & RK & SG & KP).
  cbn [set_disp vsib pc_rel segreg disp need_disp] in FM, SG, KP. rewrite Q1 in FM. rewrite Q7 in SG.
  set (rip := (base =? -1) && (idx =? -1) && pc_rel a0) in *. exists (operand (if rip then 16 else base) idx (m' idx)).
  assert (R16 : RR 16 = next) by apply REG.
  assert (BB : (if rip then 16 else base) = -1 \/ 0 <= (if rip then 16 else base) < 17) by (destruct rip; lia).
  split; [exact FM|]. split; [|split; [exact RK|split; [|split; [exact SG|split; [|split; [|]]]]]].
  - exists (if rip then set_curpos true d else d), zd. assert (WM : W RR m = part RR 1 base + part RR (m' idx) idx) by (unfold W; rewrite (tot_out m RR n ltac:(lia)); [apply C1|intros i I; apply OUT; auto]).
    assert (RD : relv T d = relv T v /\ v_iprel d = v_curpos d /\ v_size d = v_size v /\ v_curpos d = pc).
    { rewrite V5. destruct pc; [rewrite relv_curpos|]; unfold relv, with_abs, set_curpos; cbn [v_rel v_iprel v_curpos v_size]; rewrite ?VC, ?VI; auto. }
    destruct RD as (D1 & D2 & D3 & D4).
    split; [destruct rip; exact V1|]. split; [destruct rip; [rewrite relv_curpos|]; exact D1|]. split; [destruct rip; [reflexivity|exact D2]|]. split; [destruct rip; exact D3|]. split; [|split; [intros RN; destruct rip; [destruct (curpos_rel _ _ RN)|rewrite D4; destruct pc; [rewrite V5 in RN; destruct (curpos_rel _ _ RN)|reflexivity]]|]].
    + intros y. rewrite operand_address by auto. destruct V2 as [q V2]. rewrite WM in V2. destruct rip eqn:RP.
      * apply andb_true_iff in RP. destruct RP as [RP RPC]. apply andb_true_iff in RP. rewrite !Z.eqb_eq in RP. destruct RP as [-> ->].
        assert (pc = false) as ->.
        { destruct pc; auto. exfalso. assert (M16 : 0 < m 16).
          { destruct (v_abs v) as [e0|] eqn:VA; [|unfold usage in E0; rewrite VA in E0; apply ok_inj in E0; apply pair_inj in E0; destruct E0 as [<- _]; congruence].
            apply (usage_keep _ _ _ _ _ _ E0 VA); auto. }
          specialize (C1 (fun i => if i =? 16 then 1 else 0)). rewrite tot_ind in C1; [cbn in C1; lia|apply upto_nodup|apply upto_in; lia]. }
        cbn [part Z.eqb Pos.eqb] in V2 |- *. rewrite R16. cbn [set_curpos v_curpos]. exists (- q). lia.
      * rewrite D4. exists (- q). rewrite R16 in V2. destruct pc; lia.
    + destruct (Z.eqb_spec (if rip then 16 else base) 16) as [B16|B16].
      * destruct KP as [K1 K2]. apply (kept_size _ 32); auto. lia.
      * exact KP.
  - intros N. apply (encode_not255 mode m' base idx rex (set_disp d a0) a rex' H RX N HB); auto. lia.
  - apply encode_field in H. rewrite H. unfold field. cbn [set_disp modrm]. rewrite Q3. apply (upto_all 8 (fun sp => Z.land (8 * sp) 56 =? 8 * sp) sp) in SP; [|vm_compute; reflexivity]. apply Z.eqb_eq. exact SP.
  - intros ->. destruct (Z.eqb_spec mode 64); auto. discriminate A64.
  - intros y y'. split; reflexivity.
Qed.

Lemma check16_right : forall a16 v ns seg pcr vs sp a za, check16 nequ equ label sect dist mode a16 (ea_of v ns seg pcr vs sp) = Ok a -> a16 = false ->
  0 <= sp < 8 -> v_curpos v = false -> v_iprel v = false -> aval E v za -> asks v get_reg16 false ->
  exists f, formed decode16 f 2 a /\ right v za f a /\ segreg a = seg /\ field a = 8 * sp /\ mode <> 64 /\ (forall y y', f y = redisp y (f y') /\ m_disp (f y) = y).
Proof.
  intros a16 v ns seg pcr vs sp a za H A16 SP VC VI AV ASK. unfold check16 in H. subst a16.
  destruct ((mode =? 64) && negb false) eqn:A64; [discriminate H|]. assert (NM : mode <> 64) by (intros ->; discriminate A64). cbv zeta in H.
  set (a0 := set_sib 0 false 0 (ea_of v ns seg pcr vs sp)) in H.
  assert (Q0 : disp a0 = v /\ modrm a0 = 8 * sp /\ need_sib a0 = 0 /\ need_disp a0 = true /\ need_modrm a0 = true /\ segreg a0 = seg).
  { assert (M8 : Z.land (Z.shiftl sp 3) 56 = 8 * sp).
    { rewrite Z.shiftl_mul_pow2 by lia. change (2 ^ 3) with 8. apply (upto_all 8 (fun sp => Z.land (sp * 8) 56 =? 8 * sp) sp) in SP; [|vm_compute; reflexivity]. apply Z.eqb_eq. exact SP. }
    repeat split; auto. }
  clearbody a0. destruct Q0 as (Q1 & Q2 & Q3 & Q4 & Q5 & Q6). rewrite Q1 in H. bok H. destruct p as [d s].
  destruct (usage_lin nequ equ label sect dist SD ND E get_reg16 (in_mode mode) EE WR RR (fun n => In n [3; 5; 6; 7])
    (fun r n G M => proj1 (get16_ok E RR next mode REG r n G NM M)) (fun r n G M => proj2 (get16_ok E RR next mode REG r n G NM M))
    false mode v d s za E0 AV) as (zd & pc & V1 & V2 & V3 & V4 & V5 & V6).
  { intros Q. contradiction. }
  { exact ASK. }
  assert (pc = false) as -> by (destruct pc; auto; exfalso; auto). set (m := s_mult s) in *.
  destruct (existsb (fun r => negb (m r =? 0) && negb (m r =? 1)) [3; 6; 7; 5]) eqn:EX; [discriminate H|].
  match type of H with (if negb (Z.land ?e 56 =? 0) then _ else _) = _ => destruct (Z.eqb_spec (Z.land e 56) 0) as [E56|]; [|discriminate H] end. cbn [negb] in H.
  destruct (encode16 nequ equ label sect dist m (set_disp d a0) a sp EX E56 H SP Q2 Q3 Q5 Q4) as (f & FM & KP & SG & AD & b & x & SHP).
  exists f. split; [exact FM|]. split; [|split; [exact (eq_trans SG Q6)|split; [|split; [exact NM|]]]].
  - exists d, zd. assert (RD : relv T d = relv T v /\ v_iprel d = v_curpos d /\ v_size d = v_size v /\ v_curpos d = false).
    { rewrite V5. unfold relv, with_abs. cbn [v_rel v_iprel v_curpos v_size]. rewrite ?VC, ?VI. auto. }
    destruct RD as (D1 & D2 & D3 & D4). split; [exact V1|]. split; [exact D1|]. split; [exact D2|]. split; [exact D3|]. split; [|split; [auto|exact KP]].
    intros y. rewrite AD, D4. destruct V2 as [q V2]. assert (WM : W RR m = sum16 m RR).
    { unfold W, sum16. assert (OUT : forall i, i <> 3 -> i <> 5 -> i <> 6 -> i <> 7 -> m i = 0).
      { intros i N1 N2 N3 N4. destruct (Z.eq_dec (m i) 0) as [|NZ]; auto. specialize (V3 i NZ). cbn in V3. lia. }
      rewrite (tot_out m RR 8) by (try lia; intros i I; apply OUT; lia). change (upto 8) with [0; 1; 2; 3; 4; 5; 6; 7]. cbn [tot fold_right]. rewrite (OUT 0), (OUT 1), (OUT 2), (OUT 4) by lia. ring. }
    rewrite <- WM. exists (- q). lia.
  - apply displen_field in H. rewrite H. unfold field. cbn [or_modrm set_modrm modrm set_disp]. rewrite field_lor by exact E56. rewrite Q2. apply (upto_all 8 (fun sp => Z.land (8 * sp) 56 =? 8 * sp) sp) in SP; [|vm_compute; reflexivity]. apply Z.eqb_eq. exact SP.
  - intros y y'. rewrite !SHP. split; reflexivity.
Qed.
Lemma width_in : forall t w, reg_width t = Some w -> In w [16; 32; 64].
Proof.
  induction t as [| | | | | | |o ts IH] using item_ind2; intros w H; try discriminate H.
  - cbn [reg_width] in H. cbv zeta in H. repeat (ifd H; [apply some_inj in H; subst w; cbn; auto|]). discriminate H.
  - cbn [reg_width] in H. induction IH as [|t r I1 _ I2]; [discriminate H|]. destruct (reg_width t) as [k|] eqn:Q; [apply some_inj in H; subst w; auto|auto].
Qed.
Lemma asz_in : forall as0 a asz, addr_size as0 mode a = Ok asz -> In as0 [0; 16; 32; 64] -> In mode [16; 32; 64] -> In asz [16; 32; 64].
Proof.
  intros as0 a asz H I0 IM. unfold addr_size in H. destruct (Z.eqb_spec as0 0) as [->|N]; cbn [negb] in H; [|apply ok_inj in H; subst as0; destruct I0 as [?|I0]; [congruence|exact I0]].
  cbv zeta in H. assert (FR : forall x, x = asz -> x = match v_abs (disp a) with Some e => match reg_width (TExpr (fst e) (snd e)) with Some w => w | None => mode end | None => mode end -> In asz [16; 32; 64]).
  { intros x <- ->. destruct (v_abs (disp a)) as [e|]; [|exact IM]. destruct (reg_width (TExpr (fst e) (snd e))) as [w|] eqn:Q; [exact (width_in _ _ Q)|exact IM]. }
  repeat (ifd H; try discriminate H); apply ok_inj in H; try (subst asz; cbn; tauto); exact (FR _ H eq_refl).
Qed.
Lemma checkea_right : forall as0 rex v ns seg pcr vs sp a asz rex' za, checkea nequ equ label sect dist as0 mode false rex (ea_of v ns seg pcr vs sp) = Ok (a, asz, rex') ->
  In as0 [0; 16; 32; 64] -> In mode [16; 32; 64] ->
  0 <= sp < 8 -> rexok rex -> rexbit rex 0 = 0 -> rexbit rex 1 = 0 -> v_curpos v = false -> v_iprel v = false -> aval E v za ->
  (forall asz, In asz [16; 32; 64] -> asks v (get_of asz vs mode) (negb (asz =? 16))) ->
  exists f, let w := if asz =? 16 then 2%nat else 4%nat in formed (reads asz mode (negb (vs =? 0)) (rexbit rex' 1) (rexbit rex' 0)) f w a /\ right v za f a /\
    rexok rex' /\ (rex <> 255 -> rex' <> 255) /\ segreg a = seg /\ field a = 8 * sp /\ In asz [16; 32; 64] /\ asz = asz_cpu mode (negb (asz =? mode)) /\ (forall y y', f y = redisp y (f y') /\ m_disp (f y) = y).
Proof.
  intros as0 rex v ns seg pcr vs sp a asz rex' za H I0 IM SP RX RX0 RX1 VC VI AV ASK. unfold checkea in H. bok H. rename p into k. pose proof (asz_in _ _ _ E0 I0 IM) as IA. clear E0.
  cbn [ea_of need_modrm valid_modrm need_sib valid_sib negb andb orb Z.eqb] in H. rewrite ?andb_true_r in H.
  assert (C : k = 16 \/ (k = 32 \/ k = 64) /\ (k =? 16) = false) by (cbn in IA; destruct IA as [<-|[<-|[<-|[]]]]; auto). destruct C as [->|[C K16]].
  - change (16 =? 32) with false in H. change (16 =? 64) with false in H. change (16 =? 16) with true in H. cbn [orb] in H. fold (ea_of v ns seg pcr vs sp) in H. bok H. apply ok_inj in H. apply pair_inj in H. destruct H as [H <-]. apply pair_inj in H. destruct H as [<- <-].
    destruct (check16_right false v ns seg pcr vs sp p za E0 eq_refl SP VC VI AV (ASK 16 ltac:(cbn; auto))) as (f & F1 & F2 & F3 & F4 & F5 & F6).
    exists f. change (16 =? 16) with true. cbv zeta. split; [exact F1|]. split; [exact F2|]. split; [exact RX|]. split; [auto|]. split; [exact F3|]. split; [exact F4|]. split; [cbn; auto|]. split; [|exact F6].
    cbn in IM. destruct IM as [<-|[<-|[<-|[]]]]; [reflexivity|reflexivity|contradiction].
  - assert (KK : (k =? 32) || (k =? 64) = true) by (destruct C as [->| ->]; reflexivity). rewrite KK in H. fold (ea_of v ns seg pcr vs sp) in H. bok H. destruct p as [a1 r1]. apply ok_inj in H. apply pair_inj in H. destruct H as [H <-]. apply pair_inj in H. destruct H as [<- <-].
    pose proof (ASK k IA) as AK. unfold get_of in AK. rewrite K16 in AK. cbn [negb] in AK.
    destruct (check3264_right k rex v ns seg pcr vs sp a1 r1 za E0 SP RX RX0 RX1 VC VI AV AK) as (f & F1 & F2 & F3 & F4 & F5 & F6 & F7 & F8).
    exists f. rewrite K16. cbv zeta. split; [unfold reads; rewrite K16; exact F1|]. split; [exact F2|]. split; [exact F3|]. split; [exact F4|]. split; [exact F5|]. split; [exact F6|]. split; [exact IA|]. split; [|exact F8].
    cbn in IM. destruct C as [->| ->], IM as [<-|[<-|[<-|[]]]]; try reflexivity; specialize (F7 eq_refl); discriminate F7.
Qed.
(** a state of an instruction between calc_len and tobytes *)
Definition stage (D : list Z -> option (mem * list Z)) (f : Z -> mem) (w : nat) (d : M_X86.value) (sp seg : Z) (auto8 : Prop) (a : ea) : Prop :=
  need_modrm a = true /\ field a = 8 * sp /\ segreg a = seg /\
  (need_disp a = false /\ v_size (disp a) = 0 /\ denc D f (modrm a) (sibs a) 0 /\ (exists n, value_intnum nequ equ label sect dist d = Ok (Some n) /\ is_zero n = true) \/
   need_disp a = true /\ disp a = with_size (v_size (disp a)) d /\
     (v_size (disp a) = 8 * Z.of_nat w /\ denc D f (modrm a) (sibs a) w \/
      v_size (disp a) = 8 /\ denc D f (modrm a) (sibs a) 1 /\ denc D f (widen (modrm a)) (sibs a) w /\
      (auto8 -> exists n, value_intnum nequ equ label sect dist d = Ok (Some n) /\ in_range n (-128) 127 = true))).
Lemma formed_stage : forall D f w d sp seg a, formed D f w a -> kept nequ equ label sect dist d a -> field a = 8 * sp -> segreg a = seg -> (w = 2 \/ w = 4)%nat ->
  stage D f w d sp seg (v_size d = 0 /\ ((v_size (disp a) =? 0) && nonzero a = false)) (if (v_size (disp a) =? 0) && nonzero a then set_disp (with_size 8 (disp a)) a else a).
Proof.
  intros D f w d sp seg a (F1 & F2 & F3) K FD SG WW. destruct F3 as [(N & S0 & NZ & DE)|(N & F3)].
  - rewrite NZ, andb_false_r. split; [auto|]. split; [auto|]. split; [auto|]. left. split; auto. split; auto. split; auto. destruct K as [(_ & K)|(K & _)]; [auto|congruence].
  - destruct K as [(K & _)|(_ & KD & K8)]; [congruence|]. destruct F3 as [(SZ & DE)|(SZ & D1 & D4)].
    + destruct (Z.eqb_spec (v_size (disp a)) 0) as [Q|_]; [destruct WW; subst w; lia|]. cbn [andb]. split; [auto|]. split; [auto|]. split; [auto|]. right. split; auto.
    + destruct ((v_size (disp a) =? 0) && nonzero a) eqn:C.
      * split; [auto|]. split; [auto|]. split; [auto|]. right. cbn [set_disp need_disp disp with_size v_size modrm]. split; auto. split; [rewrite KD at 1; reflexivity|]. right. split; auto. split; [exact D1|]. split; [exact D4|]. intros [_ Q]. discriminate Q.
      * split; [auto|]. split; [auto|]. split; [auto|]. right. split; auto. split; auto. right. assert (S8 : v_size (disp a) = 8) by (destruct SZ as [|[Q1 Q2]]; [auto|rewrite Q1, Q2 in C; discriminate C]).
        split; auto. split; auto. split; auto. intros [Q _]. auto.
Qed.
Lemma calc_parts : forall i i1 len1 sp a0, insn_calc_len nequ equ label sect dist i = Ok (i1, len1, sp) -> i_ea i = Some a0 -> i_post i <> Address16 ->
  exists a asz rex', checkea nequ equ label sect dist (addrsize (i_common i)) (M_X86.mode (i_common i)) false (i_rex i) a0 = Ok (a, asz, rex') /\
    i_ea i1 = Some (if (v_size (disp a) =? 0) && nonzero a then set_disp (with_size 8 (disp a)) a else a) /\ i_common i1 = set_addrsize asz (i_common i) /\ i_rex i1 = rex' /\
    (i_special i1 = i_special i \/ i_special i = 196 /\ i_special i1 = 197 /\ (rex' = 255 \/ Z.land rex' 11 = 0)) /\
    ((v_size (disp a) =? 0) && nonzero a = true -> In 1 (map span_id sp)) /\ (i_imm i = None -> i_imm i1 = None).
Proof.
  intros i i1 len1 sp a0 H EA NP. unfold insn_calc_len in H. rewrite EA in H. bok H. destruct p as [[[[c a] rex] len'] sp1]. bok H. destruct p as [[[[o1 imm] post] len2] sp2].
  apply ok_inj in H. apply pair_inj in H. destruct H as [H <-]. apply pair_inj in H. destruct H as [<- _]. cbn [i_ea i_common i_rex i_special i_imm].
  assert (P16 : match i_post i with Address16 => true | _ => false end = false) by (destruct (i_post i); auto; contradiction). rewrite P16 in E0. bok E0. destruct p as [[a1 asz] rex1].
  exists a1, asz, rex1. split; [exact E2|].
  assert (Q : a = Some (if (v_size (disp a1) =? 0) && nonzero a1 then set_disp (with_size 8 (disp a1)) a1 else a1) /\ c = set_addrsize asz (i_common i) /\ rex = rex1 /\ ((v_size (disp a1) =? 0) && nonzero a1 = true -> In 1 (map span_id sp1))).
  { assert (CC : match i_post i with Address16 => 0 | _ => asz end = asz) by (destruct (i_post i); auto; contradiction). rewrite CC in E0.
    destruct ((v_size (disp a1) =? 0) && nonzero a1); apply ok_inj in E0; apply pair_inj in E0; destruct E0 as [E0 <-]; apply pair_inj in E0; destruct E0 as [E0 _]; apply pair_inj in E0; destruct E0 as [E0 <-]; apply pair_inj in E0; destruct E0 as [<- <-]; repeat split; auto; [intros _; left; reflexivity|discriminate]. }
  destruct Q as (-> & -> & -> & Q4). split; [reflexivity|]. split; [reflexivity|]. split; [reflexivity|]. split; [|split].
  - match goal with |- (if ?b then _ else _) = _ \/ _ => destruct b eqn:S end; [right|left; reflexivity]. rewrite !andb_true_iff in S. destruct S as [[[S1 _] _] S2]. split; [apply Z.eqb_eq; exact S1|]. split; auto. apply orb_true_iff in S2. rewrite !Z.eqb_eq in S2. exact S2.
  - intros Q. rewrite map_app. apply in_or_app. left. auto.
  - intros Q. rewrite Q in E1. apply ok_inj in E1. apply pair_inj in E1. destruct E1 as [E1 _]. apply pair_inj in E1. destruct E1 as [E1 _]. apply pair_inj in E1. destruct E1 as [E1 _]. apply pair_inj in E1. destruct E1 as [_ <-]. reflexivity.
Qed.
Lemma expand_stage : forall D f w d sp seg au k i len i' len' a, insn_expand k i len = Ok (i', len') -> i_ea i = Some a -> stage D f w d sp seg au a -> w = (if addrsize (i_common i) =? 16 then 2%nat else 4%nat) ->
  (exists a', i_ea i' = Some a' /\ stage D f w d sp seg au a') /\ i_common i' = i_common i /\ i_rex i' = i_rex i /\ i_special i' = i_special i /\ i_imm i' = i_imm i.
Proof.
  intros D f w d sp seg au k i len i' len' a H EA ST WW. unfold insn_expand in H. rewrite EA in H.
  match type of H with (let (_, _) := ?x in _) = _ => set (y := x) in H end.
  assert (K : (exists a', i_ea (fst y) = Some a' /\ stage D f w d sp seg au a') /\ i_common (fst y) = i_common i /\ i_rex (fst y) = i_rex i /\ i_special (fst y) = i_special i /\ i_imm (fst y) = i_imm i).
  { unfold y. destruct ((k =? 1) && (v_size (disp a) =? 8)) eqn:C; [|cbn [fst]; split; [exists a; auto|auto]]. apply andb_true_iff in C. destruct C as [_ C]. apply Z.eqb_eq in C. cbv zeta. cbn [fst i_ea i_common i_rex i_special i_imm].
    split; [|auto]. eexists. split; [reflexivity|]. destruct ST as (T2 & T3 & T4 & T5). split; [exact T2|]. split; [|split; [exact T4|]].
    - unfold field. cbn [set_modrm modrm]. change (Z.lor (Z.land (modrm a) (Z.lnot 192)) 128) with (widen (modrm a)). rewrite field_widen. exact T3.
    - destruct T5 as [(N & S0 & _)|(N & KD & T5)]; [lia|]. right. cbn [set_modrm set_disp need_disp disp with_size v_size modrm]. change (Z.lor (Z.land (modrm a) (Z.lnot 192)) 128) with (widen (modrm a)). split; [exact N|]. split; [rewrite KD; reflexivity|]. left.
      assert (N8 : (if addrsize (i_common i) =? 16 then 16 else 32) = 8 * Z.of_nat w) by (subst w; destruct (addrsize (i_common i) =? 16); reflexivity). split; [exact N8|].
      destruct T5 as [(S & _)|(_ & _ & D4 & _)]; [subst w; destruct (addrsize (i_common i) =? 16); lia|exact D4]. }
  destruct y as [i1 len1]. cbn [fst] in K. destruct K as (K1 & K2 & K3 & K4 & K5).
  assert (SAME : forall l, Ok (i1, l) = Ok (i', len') -> (exists a', i_ea i' = Some a' /\ stage D f w d sp seg au a') /\ i_common i' = i_common i /\ i_rex i' = i_rex i /\ i_special i' = i_special i /\ i_imm i' = i_imm i).
  { intros l Q. apply ok_inj in Q. apply pair_inj in Q. destruct Q as [<- _]. auto. }
  destruct (i_imm i1) as [v|] eqn:IM; [|exact (SAME _ H)]. destruct (i_post i1); try (exact (SAME _ H)). destruct (k =? 2); [|exact (SAME _ H)].
  bok H. apply ok_inj in H. apply pair_inj in H. destruct H as [<- _]. cbn [i_ea i_common i_rex i_special i_imm]. auto.
Qed.
Lemma expansions_stage : forall D f w d sp seg au ids i len i' len' a, expansions ids i len = Ok (i', len') -> i_ea i = Some a -> stage D f w d sp seg au a -> w = (if addrsize (i_common i) =? 16 then 2%nat else 4%nat) ->
  (exists a', i_ea i' = Some a' /\ stage D f w d sp seg au a') /\ i_common i' = i_common i /\ i_rex i' = i_rex i /\ i_special i' = i_special i /\ i_imm i' = i_imm i.
Proof.
  intros D f w d sp seg au. induction ids as [|k r IH]; intros i len i' len' a H EA ST WW; cbn [expansions] in H.
  - apply ok_inj in H. apply pair_inj in H. destruct H as [<- _]. split; [exists a; auto|auto].
  - bok H. destruct p as [i2 len2]. destruct (expand_stage _ _ _ _ _ _ _ _ _ _ _ _ _ E0 EA ST WW) as ((a2 & EA2 & ST2) & C1 & C2 & C3 & C4). rewrite <- C1 in WW.
    destruct (IH _ _ _ _ _ H EA2 ST2 WW) as (Q & C5 & C6 & C7 & C8). split; [exact Q|]. rewrite C5, C6, C7, C8. auto.
Qed.

Lemma number_le : forall n x, number (le n x) = x mod 256 ^ Z.of_nat n.
Proof.
  induction n as [|n IH]; intros x; [cbn; rewrite Z.mod_1_r; reflexivity|]. cbn [le number]. rewrite IH. rewrite Nat2Z.inj_succ, Z.pow_succ_r by lia.
  rewrite Z.rem_mul_r by lia. reflexivity.
Qed.
Lemma sdisp_le : forall n x, let m := 8 * Z.of_nat n in (exists q, sdisp (le n x) = x + q * 2 ^ m) /\ (n <> O -> - 2 ^ (m - 1) <= sdisp (le n x) < 2 ^ (m - 1)).
Proof.
  intros n x m. unfold sdisp. rewrite le_length. fold m. destruct (Z.eqb_spec m 0) as [M0|M0].
  - split; [exists (- x); rewrite M0; lia|]. intros N. lia.
  - rewrite number_le. replace (256 ^ Z.of_nat n) with (2 ^ m) by (change 256 with (2 ^ 8); rewrite <- Z.pow_mul_r by lia; reflexivity). assert (MP : 0 < m) by lia. assert (P : 0 < 2 ^ m) by (apply Z.pow_pos_nonneg; lia).
    assert (H2 : 2 ^ m = 2 * 2 ^ (m - 1)) by (rewrite <- Z.pow_succ_r by lia; f_equal; lia). pose proof (Z.mod_pos_bound x (2 ^ m) P) as B. pose proof (Z.div_mod x (2 ^ m) ltac:(lia)) as DM. clearbody m. split.
    + destruct (_ <? _); [exists (- (x / 2 ^ m))|exists (- (x / 2 ^ m) - 1)]; lia.
    + intros _. destruct (Z.ltb_spec (x mod 2 ^ m) (2 ^ (m - 1))); lia.
Qed.
Lemma delta_aval : forall len v v' z, 0 <= len < 2 ^ 31 -> vgood v -> aval E v z -> add_delta (- len) v = Ok v' ->
  exists z', aval E v' z' /\ cg z' (z - len) /\ v_rel v' = v_rel v /\ v_curpos v' = v_curpos v /\ v_size v' = v_size v.
Proof.
  intros len v v' z R G A H. unfold add_delta, create_int in H. unfold vgood in G. unfold aval in *. destruct (v_abs v) as [e|] eqn:VA.
  - destruct (create_ok ADD (TExpr (fst e) (snd e)) (Some (TInt (IL (- len)))) G Logic.I (le_n 2) ltac:(discriminate)) as (e' & C & G' & K).
    rewrite C in H. apply ok_inj in H. subst v'. cbn [with_abs v_abs v_rel v_curpos v_size]. exists (wrap256 (z + - len)). split; [apply K; apply eval_add; auto; lia|]. split; [apply cg_wrap|auto].
  - apply ok_inj in H. subst v'. cbn [with_abs v_abs v_rel v_curpos v_size]. exists (- len). split; [|split; [subst z; exists 0; lia|auto]]. unfold eval. cbn [ev map fst snd].
    assert (CB : canonb (IL (- len)) = true) by (cbn [canonb]; apply andb_true_iff; split; apply Z.ltb_lt; lia). rewrite CB. reflexivity.
Qed.
Lemma known_value : forall d n z, value_intnum nequ equ label sect dist d = Ok (Some n) -> aval E d z -> canon n /\ ival n = z /\ v_rel d = None.
Proof.
  intros d n z H A. unfold value_intnum in H. unfold aval in A. destruct (v_abs d) as [e|].
  - destruct (get_intnum nequ equ label sect dist false e) as [[k|]| |] eqn:GI; try discriminate H. apply ok_inj in H. destruct (v_rel d); [discriminate H|]. assert (k = n) by congruence. subst k.
    destruct (get_intnum_ok _ _ _ _ _ _ _ _ SD GI E (VNum z) ltac:(discriminate) EE A) as (C & V). apply canonb_ok in C. injection V as V. auto.
  - apply ok_inj in H. destruct (v_rel d); [discriminate H|]. assert (IL 0 = n) by congruence. subst n z. split; [cbn; lia|auto].
Qed.

Lemma rexbit_testbit : forall r k, rexok r -> r <> 255 -> 0 <= k -> rexbit r k = Z.b2z (Z.testbit r k).
Proof. intros r k _ N K. unfold rexbit. apply Z.eqb_neq in N. rewrite N. symmetry. apply Z.testbit_spec'. exact K. Qed.
Lemma vex_byte : forall b r k, rexok r -> r <> 255 -> k = 0 \/ k = 1 ->
  1 - Z.lor (Z.land b 31) (Z.shiftl (Z.land (Z.lnot r) 7) 5) / 2 ^ (k + 5) mod 2 = rexbit r k.
Proof.
  intros b r k OK N K. rewrite rexbit_testbit by (auto; lia). rewrite <- Z.testbit_spec' by lia. rewrite Z.lor_spec, Z.land_spec, Z.shiftl_spec by lia. replace (k + 5 - 5) with k by lia.
  rewrite Z.land_spec, Z.lnot_spec by lia. assert (A : Z.testbit 31 (k + 5) = false) by (destruct K; subst k; reflexivity). assert (B : Z.testbit 7 k = true) by (destruct K; subst k; reflexivity). rewrite A, B, andb_false_r. destruct (Z.testbit r k); reflexivity.
Qed.
Lemma op_set_bytes : forall b o, length (op_bytes o) = 3%nat -> exists l, op_bytes (op_set 0 b o) = b :: l /\ op_bytes o = hd 0 (op_bytes o) :: l /\ length l = 2%nat.
Proof. intros b o L. destruct o as [[|x l] n]; [discriminate L|]. exists l. cbn in *. auto. Qed.
Lemma opcode_cons : forall b o, 1 <= op_len o -> length (op_bytes o) = 3%nat -> exists l, opcode_bytes (op_set 0 b o) = b :: l.
Proof.
  intros b o N L. destruct o as [[|x l] n]; [discriminate L|]. unfold opcode_bytes, op_set. cbn [op_bytes op_len firstn skipn app] in *.
  destruct (Z.to_nat n) as [|k] eqn:Q; [lia|]. cbn [firstn]. eauto.
Qed.
(** prefixes, opcode and displacement of one copy *)
Lemma bytes_parts : forall ov len i i' bs a, insn_bytes ov len i = Ok (i', bs) -> i_ea i = Some a -> 
  length (op_bytes (i_op i)) = 3%nat -> rexok (i_rex i) -> 
  (In (i_special i) [143; 196] -> 1 <= op_len (i_op i) /\ i_rex i <> 255) -> (i_special i = 197 -> i_rex i = 255 \/ Z.land (i_rex i) 11 = 0) ->
  need_modrm a = true ->
  exists legacy e ds imm,
    bs = (if Z.shiftr (segreg a) 8 =? 0 then [] else [Z.shiftr (segreg a) 8 mod 256]) ++ (if has67 (i_common i) then [103] else []) ++ legacy ++ e ++ modrm a :: sibs a ++ ds ++ imm /\
    Forall (fun y => In y [102; acqrel (i_common i); lockrep (i_common i)]) legacy /\
    (forall s0, s0 = i_special i \/ s0 = 196 /\ i_special i = 197 -> s0 <> 197 -> extends (opcode_bytes (i_op i)) s0 e (rexbit (i_rex i) 1) (rexbit (i_rex i) 0)) /\
    (i_imm i = None -> imm = []) /\
    (if need_disp a then exists d x, (if v_iprel (disp a) then add_delta (- len) (disp a) else Ok (disp a)) = Ok d /\ ov d = Ok x /\ ds = le (Z.to_nat (v_size d / 8)) x else ds = []).
Proof.
  intros ov len i i' bs a H EA L3 RX V3 V2 NM. unfold insn_bytes in H. cbv zeta in H. rewrite EA in H. bok H. destruct p as [o rexb]. bok H. destruct p as [a' eab]. bok H. destruct p as [imm immb].
  apply ok_inj in H. apply pair_inj in H. destruct H as [_ <-].
  exists ((if has66 (i_common i) then [102] else []) ++ (if acqrel (i_common i) =? 0 then [] else [acqrel (i_common i)]) ++ (if lockrep (i_common i) =? 0 then [] else [lockrep (i_common i)])).
  exists ((if i_special i =? 0 then [] else [i_special i]) ++ rexb ++ opcode_bytes o).
  rewrite NM in E1. cbn [andb] in E1.
  assert (K : exists ds, eab = modrm a :: sibs a ++ ds /\ (if need_disp a then exists d x, (if v_iprel (disp a) then add_delta (- len) (disp a) else Ok (disp a)) = Ok d /\ ov d = Ok x /\ ds = le (Z.to_nat (v_size d / 8)) x else ds = [])).
  { clear - E1. ifd E1; [discriminate E1|]. ifd E1; [discriminate E1|]. fold (sibs a) in E1. destruct (need_disp a).
    - bok E1. bok E1. apply ok_inj in E1. apply pair_inj in E1. destruct E1 as [_ <-]. eexists. split; [reflexivity|]. exists p, p0. auto.
    - apply ok_inj in E1. apply pair_inj in E1. destruct E1 as [_ <-]. exists []. rewrite app_nil_r. auto. }
  destruct K as (ds & -> & K). exists ds, immb. split; [|split; [|split; [|split; [|exact K]]]].
  - unfold common_bytes. rewrite <- !app_assoc. cbn [app]. rewrite <- !app_assoc. reflexivity.
  - apply Forall_app. split; [destruct (has66 _); repeat constructor; auto|]. apply Forall_app. split; [destruct (acqrel (i_common i) =? 0)|destruct (lockrep (i_common i) =? 0)]; try apply Forall_nil; (apply Forall_cons; [cbn; auto|apply Forall_nil]).
  - clear - E0 L3 RX V3 V2. intros s0 S0 N197. destruct ((i_special i =? 196) || (i_special i =? 143)) eqn:S.
    + assert (IS : In (i_special i) [143; 196]) by (apply orb_true_iff in S; rewrite !Z.eqb_eq in S; cbn; destruct S; auto). destruct (V3 IS) as [OL N]. destruct S0 as [->|[_ S0]]; [|rewrite S0 in S; discriminate S].
      pose proof (proj2 (Z.eqb_neq _ _) N) as NB. rewrite NB in E0. cbn [negb andb] in E0. apply ok_inj in E0. apply pair_inj in E0. destruct E0 as [<- <-].
      replace (i_special i =? 0) with false by (symmetry; apply Z.eqb_neq; intros Q; rewrite Q in IS; cbn in IS; lia). cbn [app].
      set (o1 := op_set 0 _ (i_op i)).
      assert (C : exists l, opcode_bytes (if negb (Z.land (i_rex i) 8 =? 0) then op_set 1 (Z.lor (nth 1 (op_bytes (i_op i)) 0) 128) o1 else o1) = Z.lor (Z.land (nth 0 (op_bytes (i_op i)) 0) 31) (Z.shiftl (Z.land (Z.lnot (i_rex i)) 7) 5) :: l).
      { unfold o1. destruct (i_op i) as [[|x l] n]; [discriminate L3|]. cbn [op_len] in OL. unfold opcode_bytes, op_set. cbn [op_bytes op_len firstn skipn app nth]. destruct (Z.to_nat n) as [|k] eqn:Q; [lia|]. destruct (negb _); cbn [op_bytes op_len firstn skipn app]; rewrite Q; cbn [firstn]; eauto. }
      destruct C as [l ->]. pose proof (vex_byte (nth 0 (op_bytes (i_op i)) 0) _ 1 RX N (or_intror eq_refl)) as B1. pose proof (vex_byte (nth 0 (op_bytes (i_op i)) 0) _ 0 RX N (or_introl eq_refl)) as B0. rewrite <- B1, <- B0. apply ext_vex3. exact IS.
    + assert (NS : ~ In (i_special i) [143; 196]) by (intros IS; apply orb_false_iff in S; rewrite !Z.eqb_neq in S; cbn in IS; lia). destruct (Z.eqb_spec (i_special i) 197) as [S97|S97].
      * destruct S0 as [S0|[-> _]]; [congruence|]. ifd E0; [discriminate E0|]. apply ok_inj in E0. apply pair_inj in E0. destruct E0 as [_ <-]. rewrite S97. cbn [Z.eqb app].
        assert (B : rexbit (i_rex i) 1 = 0 /\ rexbit (i_rex i) 0 = 0).
        { specialize (V2 S97). pose proof (rexes_in _ RX) as IR. clear - V2 IR. assert (Q : forallb (fun r => (negb (r =? 255) && negb (Z.land r 11 =? 0)) || (rexbit r 1 =? 0) && (rexbit r 0 =? 0)) rexes = true) by (vm_compute; reflexivity). rewrite forallb_forall in Q. specialize (Q _ IR).
          apply orb_true_iff in Q. destruct Q as [Q|Q]; [exfalso; rewrite andb_true_iff, !negb_true_iff, !Z.eqb_neq in Q; tauto|]. apply andb_true_iff in Q. rewrite !Z.eqb_eq in Q. exact Q. }
        destruct B as [-> ->]. apply ext_vex2.
      * destruct S0 as [->|[_ S0]]; [|contradiction]. assert (NI : ~ In (i_special i) [143; 196; 197]) by (cbn in *; lia). destruct (negb (i_rex i =? 255) && negb (i_rex i =? 0)) eqn:R.
        -- ifd E0; [discriminate E0|]. apply ok_inj in E0. apply pair_inj in E0. destruct E0 as [<- <-]. rewrite andb_true_iff, !negb_true_iff, !Z.eqb_neq in R. destruct R as [R1 R2]. assert (R3 : 64 <= i_rex i < 80) by (destruct RX as [|[|]]; lia).
           unfold rexbit. apply Z.eqb_neq in R1. rewrite R1. change (2 ^ 1) with 2. change (2 ^ 0) with 1. rewrite Z.div_1_r. apply ext_rex; auto.
        -- apply ok_inj in E0. apply pair_inj in E0. destruct E0 as [<- <-]. cbn [app]. assert (B : rexbit (i_rex i) 1 = 0 /\ rexbit (i_rex i) 0 = 0) by (apply andb_false_iff in R; rewrite !negb_false_iff, !Z.eqb_eq in R; destruct R as [-> | ->]; split; reflexivity).
           destruct B as [-> ->]. apply ext_none. exact NI.
  - intros Q. rewrite Q in E2. apply ok_inj in E2. apply pair_inj in E2. destruct E2 as [_ <-]. reflexivity.
Qed.

Lemma second_len : forall o o', op_second o = Ok o' -> op_len o' = 1.
Proof. intros o o' H. unfold op_second in H. bok H. apply ok_inj in H. subst o'. reflexivity. Qed.
Lemma calc_oplen : forall i i1 len1 sp, insn_calc_len nequ equ label sect dist i = Ok (i1, len1, sp) -> 1 <= op_len (i_op i) -> 1 <= op_len (i_op i1).
Proof.
  intros i i1 len1 sp H L. unfold insn_calc_len in H. bok H. clear E0. destruct p as [[[[c a] rex] len'] sp1]. bok H. destruct p as [[[[o1 imm] post] len2] sp2].
  apply ok_inj in H. apply pair_inj in H. destruct H as [H _]. apply pair_inj in H. destruct H as [<- _]. cbn [i_op].
  match goal with |- _ <= op_len (if ?b then _ else _) => destruct b end; [cbn [op_len]; lia|].
  assert (SAME : forall im po l s, Ok (i_op i, im, po, l, s) = Ok (o1, imm, post, len2, sp2) -> 1 <= op_len o1).
  { intros im po l s Q. apply ok_inj in Q. do 3 (apply pair_inj in Q; destruct Q as [Q _]). apply pair_inj in Q. destruct Q as [<- _]. exact L. }
  destruct (i_imm i) as [v|]; [|exact (SAME _ _ _ _ E0)]. destruct (i_post i); try (exact (SAME _ _ _ _ E0)). bok E0. destruct p as [n|]; [|exact (SAME _ _ _ _ E0)]. ifd E0; [exact (SAME _ _ _ _ E0)|].
  bok E0. apply second_len in E2. apply ok_inj in E0. do 3 (apply pair_inj in E0; destruct E0 as [E0 _]). apply pair_inj in E0. destruct E0 as [<- _]. lia.
Qed.
Lemma expansions_oplen : forall ids i len i' len', expansions ids i len = Ok (i', len') -> 1 <= op_len (i_op i) -> 1 <= op_len (i_op i').
Proof.
  induction ids as [|k r IH]; intros i len i' len' H L; cbn [expansions] in H; [apply ok_inj in H; apply pair_inj in H; destruct H as [<- _]; exact L|].
  bok H. destruct p as [i2 len2]. apply (IH _ _ _ _ H). clear IH H. unfold insn_expand in E0.
  match type of E0 with (let (_, _) := ?x in _) = _ => set (y := x) in E0 end.
  assert (Y : i_op (fst y) = i_op i) by (unfold y; destruct (i_ea i) as [a|]; [destruct ((k =? 1) && (v_size (disp a) =? 8))|]; reflexivity). destruct y as [i1 len1]. cbn [fst] in Y.
  assert (SAME : forall l, Ok (i1, l) = Ok (i2, len2) -> 1 <= op_len (i_op i2)) by (intros l Q; apply ok_inj in Q; apply pair_inj in Q; destruct Q as [<- _]; rewrite Y; exact L).
  destruct (i_imm i1) as [v|]; [|exact (SAME _ E0)]. destruct (i_post i1); try (exact (SAME _ E0)). destruct (k =? 2); [|exact (SAME _ E0)].
  bok E0. apply second_len in E1. apply ok_inj in E0. apply pair_inj in E0. destruct E0 as [<- _]. cbn [i_op]. lia.
Qed.
Theorem ea_addr : forall ov here i i1 len1 sp ids i2 len i3 bs v ns seg pcr vs spare za,
  i_ea i = Some (ea_of v ns seg pcr vs spare) -> insn_ok i -> insn_mode i -> M_X86.mode (i_common i) = mode -> i_post i <> Address16 -> 0 <= spare < 8 ->
  rexok (i_rex i) -> rexbit (i_rex i) 0 = 0 -> rexbit (i_rex i) 1 = 0 -> (In (i_special i) [143; 196] -> i_rex i <> 255 /\ 1 <= op_len (i_op i)) ->
  v_curpos v = false -> v_iprel v = false -> aval E v za ->
  (forall asz, In asz [16; 32; 64] -> asks v (get_of asz vs mode) (negb (asz =? 16))) ->
  honest E T here ov -> insn_calc_len nequ equ label sect dist i = Ok (i1, len1, sp) -> expansions ids i1 len1 = Ok (i2, len) -> len < 2 ^ 31 -> next = here + len ->
  insn_bytes ov len i2 = Ok (i3, bs) ->
  exists p67 legacy e x b mr sb ds imm m, let asz := asz_cpu mode p67 in let n := 8 * Z.of_nat (length ds) in let z := za + relv T v in
    bs = (if seg =? 0 then [] else [seg / 256 mod 256]) ++ (if p67 then [103] else []) ++ legacy ++ e ++ mr :: sb ++ ds ++ imm /\
    Forall (fun y => In y [102; acqrel (i_common i); lockrep (i_common i)]) legacy /\ extends (opcode_bytes (i_op i2)) (i_special i) e x b /\
    mr / 8 mod 8 = spare /\ (i_imm i = None -> imm = []) /\
    reads asz mode (negb (vs =? 0)) x b (mr :: sb ++ ds ++ imm) = Some (m, imm) /\ m_disp m = sdisp ds /\
    (asz <= n \/ n = 0 \/ (exists y, - 2 ^ (n - 1) <= y < 2 ^ (n - 1) /\ (address RR next (redisp y m) - z) mod 2 ^ 256 = 0) \/ (v_size v = 0 /\ n <= 8 /\ ~ In 1 (map span_id sp)) ->
     (address RR next m - z) mod 2 ^ asz = 0).
Proof.
  intros ov here i i1 len1 sp ids i2 len i3 bs v ns seg pcr vs spare za EA OK MO ME NP SPR RX RX0 RX1 SPC VC VI AV ASK HON HC HX LEN NX HB.
  pose proof (calc_len_ok nequ equ label sect dist _ _ _ _ OK HC) as [W1 L1]. pose proof (expansions_ok _ _ _ _ _ W1 L1 HX) as [W2 L2].
  pose proof (calc_len_inb nequ equ label sect dist SD _ _ _ _ OK MO HC) as NB1. destruct (expansions_inb ids _ _ W1 L1 NB1) as [_ NB2]. specialize (NB2 _ _ HX).
  destruct (calc_parts _ _ _ _ _ HC EA NP) as (a & asz & rex' & CK & A1 & CM & RE & SPE & SPN & IMN). rewrite ME in CK.
  destruct MO as (MO1 & MO2 & MO3 & MO4 & _). rewrite ME in MO1.
  destruct (checkea_right _ _ _ _ _ _ _ _ _ _ _ _ CK MO2 MO1 SPR RX RX0 RX1 VC VI AV ASK) as (f & FM & (d & zd & D1 & D2 & D3 & D4 & D5 & D7 & D6) & RX' & R255 & SG & FD & IA & AC & FF).
  set (w := if asz =? 16 then 2%nat else 4%nat) in *. set (D := reads asz mode (negb (vs =? 0)) (rexbit rex' 1) (rexbit rex' 0)) in *.
  assert (WW : (w = 2 \/ w = 4)%nat) by (unfold w; destruct (asz =? 16); auto).
  pose proof (formed_stage D f w d spare seg a FM D6 FD SG WW) as ST. set (au := v_size d = 0 /\ (v_size (disp a) =? 0) && nonzero a = false) in ST.
  assert (AS1 : w = if addrsize (i_common i1) =? 16 then 2%nat else 4%nat) by (rewrite CM; reflexivity).
  destruct (expansions_stage _ _ _ _ _ _ _ _ _ _ _ _ _ HX A1 ST AS1) as ((a2 & A2 & ST2) & C2 & R2 & S2 & I2). destruct ST2 as (NM & FD2 & SG2 & ST2).
  assert (OP2 : length (op_bytes (i_op i2)) = 3%nat) by apply W2.
  assert (SP2 : i_special i2 = i_special i \/ i_special i = 196 /\ i_special i2 = 197) by (rewrite S2; destruct SPE as [SPE|(SPE & SPE2 & _)]; auto).
  assert (V3 : In (i_special i2) [143; 196] -> 1 <= op_len (i_op i2) /\ i_rex i2 <> 255).
  { intros IS. assert (IS0 : In (i_special i) [143; 196]) by (destruct SP2 as [<-|[-> _]]; [exact IS|cbn; auto]). destruct (SPC IS0) as [Q1 Q2]. split; [exact (expansions_oplen _ _ _ _ _ HX (calc_oplen _ _ _ _ HC Q2))|]. rewrite R2, RE. auto. }
  assert (V2 : i_special i2 = 197 -> i_rex i2 = 255 \/ Z.land (i_rex i2) 11 = 0).
  { intros Q. rewrite R2, RE. destruct SPE as [SPE|(_ & _ & SPE)]; [|exact SPE]. rewrite S2, SPE in Q. contradiction. }
  assert (RX2 : rexok (i_rex i2)) by (rewrite R2, RE; exact RX').
  destruct (bytes_parts ov len i2 i3 bs a2 HB A2 OP2 RX2 V3 V2 NM) as (legacy & e & ds & imm & B1 & B2 & B3 & B4 & B5).
  assert (P67 : has67 (i_common i2) = negb (asz =? mode)).
  { rewrite C2, CM. unfold has67, set_addrsize. cbn [addrsize M_X86.mode]. rewrite ME. destruct (Z.eqb_spec asz 0) as [->|]; [cbn in IA; lia|reflexivity]. }
  set (p67 := negb (asz =? mode)) in *.
  assert (DEC : exists w', length ds = w' /\ denc D f (modrm a2) (sibs a2) w').
  { destruct ST2 as [(N & S0 & DE & _)|(N & KD & ST2)]; rewrite N in B5.
    - exists 0%nat. subst ds. auto.
    - destruct B5 as (d' & x & Q1 & Q2 & ->). rewrite le_length. assert (SZ : v_size d' = v_size (disp a2)) by (destruct (v_iprel (disp a2)); [exact (delta_size _ _ _ Q1)|apply ok_inj in Q1; subst d'; reflexivity]).
      rewrite SZ. destruct ST2 as [(S8 & DE)|(S8 & DE & _)]; rewrite S8; [exists w; split; [rewrite Z.mul_comm, Z.div_mul by lia; lia|exact DE]|exists 1%nat; split; [reflexivity|exact DE]]. }
  destruct DEC as (w' & LD & DE). specialize (DE ds imm LD).
  exists p67, legacy, e, (rexbit rex' 1), (rexbit rex' 0), (modrm a2), (sibs a2), ds, imm, (f (sdisp ds)). cbv zeta. rewrite <- AC.
  split; [|split; [|split; [|split; [|split; [|split; [exact DE|split; [apply (FF _ 0)|]]]]]]].
  - rewrite B1, P67, SG2. assert (SGK : seg = 0 \/ 256 <= seg).
    { destruct OK as (_ & _ & OK & _). rewrite EA in OK. destruct OK as (_ & _ & OK). exact OK. }
    rewrite seg_shift by exact SGK. rewrite Z.shiftr_div_pow2 by lia. reflexivity.
  - rewrite C2, CM in B2. exact B2.
  - rewrite <- RE, <- R2. apply B3; [destruct SP2 as [SP2|[SP2 SP3]]; auto|exact MO4].
  - unfold field in FD2. assert (Q : modrm a2 / 8 mod 8 = Z.land (modrm a2) 56 / 8).
    { rewrite <- !(Z.shiftr_div_pow2 _ 3) by lia. rewrite Z.shiftr_land. change (Z.shiftr 56 3) with (Z.ones 3). rewrite Z.land_ones by lia. reflexivity. }
    rewrite Q, FD2, Z.mul_comm, Z.div_mul by lia. reflexivity.
  - intros Q. apply B4. rewrite I2. auto.
  - rewrite LD. assert (A256 : 0 <= asz <= 256) by (cbn in IA; lia). 
    assert (DONE : cg (address RR next (f (sdisp ds))) (za + relv T v) -> (address RR next (f (sdisp ds)) - (za + relv T v)) mod 2 ^ asz = 0).
    { intros C. rewrite Zminus_mod, (cg_mod _ _ asz A256 C), Z.sub_diag. apply Z.mod_0_l. pose proof (Z.pow_pos_nonneg 2 asz); lia. }
    destruct ST2 as [(N & S0 & _ & n & KN & KZ)|(N & KD & ST2)]; rewrite N in B5.
    + intros _. apply DONE. subst ds. change (sdisp []) with 0. destruct (known_value _ _ _ KN D1) as (CN & VN & RN). destruct (tests_ok n CN) as (Q & _). rewrite KZ in Q. symmetry in Q. apply Z.eqb_eq in Q.
      specialize (D5 0). rewrite (D7 RN) in D5. assert (R0 : relv T v = 0) by (rewrite <- D2; unfold relv; rewrite RN; reflexivity). rewrite R0. destruct D5 as [q D5]. exists q. lia.
    + destruct B5 as (d' & x & Q1 & Q2 & Q3). assert (SZ : v_size d' = v_size (disp a2)) by (destruct (v_iprel (disp a2)); [exact (delta_size _ _ _ Q1)|apply ok_inj in Q1; subst d'; reflexivity]).
      assert (X : cg x (zd + relv T v - if v_curpos d then next else 0)).
      { assert (VG : vgood (disp a2)) by (destruct NB2 as [NB2 _]; rewrite A2 in NB2; apply NB2).
        assert (LB : 0 <= len) by (pose proof (proj1 (bytes_ok ov len i2 i3 bs W2 HB)); lia).
        assert (RV : v_rel (disp a2) = v_rel d /\ v_curpos (disp a2) = v_curpos d /\ v_iprel (disp a2) = v_iprel d) by (rewrite KD; auto). destruct RV as (RV1 & RV2 & RV3).
        assert (AV2 : aval E (disp a2) zd) by (rewrite KD; exact D1). rewrite RV3, D3 in Q1.
        assert (K : exists z', aval E d' z' /\ cg z' (zd - if v_curpos d then len else 0) /\ v_rel d' = v_rel d /\ v_curpos d' = v_curpos d).
        { destruct (v_curpos d) eqn:CP.
          - destruct (delta_aval len _ _ _ (conj LB LEN) VG AV2 Q1) as (z' & Z1 & Z2 & Z3 & Z4 & _). exists z'. rewrite Z3, Z4, RV1, RV2. auto.
          - apply ok_inj in Q1. subst d'. exists zd. split; [exact AV2|]. split; [exists 0; lia|auto]. }
        destruct K as (z' & K1 & [q K2] & K3 & K4). pose proof (HON _ _ _ Q2 K1) as HH. apply Z.mod_divide in HH; [|pose proof (Z.pow_pos_nonneg 2 256); lia]. destruct HH as [q2 HH].
        assert (RE2 : relv T d' = relv T v) by (rewrite <- D2; unfold relv; rewrite K3; reflexivity). rewrite RE2, K4 in HH. exists (q + q2). rewrite NX. destruct (v_curpos d); lia. }
      assert (FX : forall y, cg (address RR next (f y)) (za + relv T v + (y - x))).
      { intros y. destruct (D5 y) as [q1 D5y]. destruct X as [q2 X]. exists (q1 + q2). destruct (v_curpos d); lia. }
      destruct (sdisp_le w' x) as [[q SL] SR]. assert (DSW : ds = le w' x) by (rewrite <- LD, Q3, le_length; reflexivity). rewrite <- DSW in SL, SR.
      assert (WZ : w' = w \/ w' = 1%nat) by (rewrite <- LD, Q3, le_length, SZ; destruct ST2 as [(S8 & _)|(S8 & _)]; rewrite S8; [left; rewrite Z.mul_comm, Z.div_mul by lia; lia|right; reflexivity]).
      assert (WN : w' <> O /\ 8 * Z.of_nat w' <= 32) by (clear - WZ WW; clearbody w; lia). destruct WN as [WN W32]. specialize (SR WN).
      assert (FIT : forall y, - 2 ^ (8 * Z.of_nat w' - 1) <= y < 2 ^ (8 * Z.of_nat w' - 1) -> cg (address RR next (f y)) (za + relv T v) -> cg (address RR next (f (sdisp ds))) (za + relv T v)).
      { intros y YR YC. assert (YX : cg y x) by (destruct (FX y) as [q1 F1]; destruct YC as [q2 F2]; exists (q2 - q1); lia).
        assert (YY : y = sdisp ds).
        { apply (cg_mod _ _ (8 * Z.of_nat w')) in YX; [|lia]. set (m := 8 * Z.of_nat w') in *. assert (M1 : 1 <= m) by (clear - WN; unfold m; lia). clearbody m. assert (MM : sdisp ds mod 2 ^ m = x mod 2 ^ m) by (rewrite SL; apply Z.mod_add; pose proof (Z.pow_pos_nonneg 2 m); lia).
          assert (H2 : 2 ^ m = 2 * 2 ^ (m - 1)) by (rewrite <- Z.pow_succ_r by lia; f_equal; lia). assert (PP : 0 < 2 ^ (m - 1)) by (apply Z.pow_pos_nonneg; lia).
          rewrite <- YX in MM. assert (DV : (sdisp ds - y) mod 2 ^ m = 0) by (rewrite Zminus_mod, MM, Z.sub_diag; apply Z.mod_0_l; lia). apply Z.mod_divide in DV; [|lia]. destruct DV as [k DV]. rewrite H2 in DV. clear - DV SR YR PP. set (P := 2 ^ (m - 1)) in *. clearbody P. set (u := sdisp ds) in *. clearbody u. assert (k = 0) by nia. subst k. lia. }
        rewrite <- YY. exact YC. }
      intros [C|[C|[(y & YR & YC)|(C1 & C2' & C3)]]].
      * destruct (FX (sdisp ds)) as [q1 F1]. rewrite F1, SL. replace (za + relv T v + (x + q * 2 ^ (8 * Z.of_nat w') - x) + q1 * 2 ^ 256 - (za + relv T v)) with (q * 2 ^ (8 * Z.of_nat w') + q1 * 2 ^ 256) by ring.
        replace (2 ^ (8 * Z.of_nat w')) with (2 ^ (8 * Z.of_nat w' - asz) * 2 ^ asz) by (rewrite <- Z.pow_add_r by lia; f_equal; lia). replace (2 ^ 256) with (2 ^ (256 - asz) * 2 ^ asz) by (rewrite <- Z.pow_add_r by lia; f_equal; lia).
        rewrite !Z.mul_assoc, <- Z.mul_add_distr_r. apply Z.mod_mul. pose proof (Z.pow_pos_nonneg 2 asz); lia.
      * lia.
      * apply DONE. apply (FIT y YR). apply Z.mod_divide in YC; [|pose proof (Z.pow_pos_nonneg 2 256); lia]. destruct YC as [k YC]. exists k. rewrite (proj1 (FF y (sdisp ds))). lia.
      * apply DONE. destruct ST2 as [(S8 & _)|(S8 & _ & _ & KN)].
        { exfalso. assert (w' = w) by (rewrite <- LD, Q3, le_length, SZ, S8, Z.mul_comm, Z.div_mul by lia; lia). clear - WW H C2'. clearbody w. lia. }
        destruct KN as (n & KN & KR).
        { unfold au. split; [rewrite D4; exact C1|]. destruct ((v_size (disp a) =? 0) && nonzero a); [exfalso; apply C3; auto|reflexivity]. }
        destruct (known_value _ _ _ KN D1) as (CN & VN & RN). rewrite in_range_ok in KR by (auto; lia). change (trunc32 (-128)) with (-128) in KR. change (trunc32 127) with 127 in KR. apply andb_true_iff in KR. rewrite !Z.leb_le, VN in KR.
        assert (w' = 1%nat) by (clear - WZ WW C2'; clearbody w; lia). clear LD. subst w'. apply (FIT zd); [change (8 * Z.of_nat 1 - 1) with 7; lia|]. destruct (D5 zd) as [k D5z]. rewrite (D7 RN) in D5z.
        assert (R0 : relv T v = 0) by (rewrite <- D2; unfold relv; rewrite RN; reflexivity). rewrite R0. exists k. lia.
Qed.
End Addr.

(** * A register operand *)
Definition regchk (rex n k : Z) : bool :=
  match set_rex rex (16 * k + n) 64 0 with
  | Ok (r, l) => (l =? n mod 8) && rexokb r && (negb (rexbit rex 0 =? 0) || (rexbit r 0 =? n / 8)) && (negb ((k =? 1) && (4 <=? n) && (n <? 8)) || (r =? 255)) && (negb (k =? 2) || (64 <=? r) && (r <? 80))
  | _ => true
  end.
Lemma ea_reg_ok : forall k n rex bits seg spare a rex', ea_reg (16 * k + n) rex bits seg spare = Ok (a, rex') -> 1 <= k <= 14 -> 0 <= n < 16 -> 0 <= spare < 8 -> rexok rex -> rexbit rex 0 = 0 -> (bits <> 64 -> n < 8) ->
  need_modrm a = true /\ valid_modrm a = true /\ need_sib a = 0 /\ need_disp a = false /\ modrm a / 64 = 3 /\ modrm a / 8 mod 8 = spare /\ rexok rex' /\ modrm a mod 8 + 8 * rexbit rex' 0 = n /\
  (bits = 64 -> (k = 1 -> 4 <= n < 8 -> rex' = 255) /\ (k = 2 -> 64 <= rex' < 80)).
Proof.
  intros k n rex bits seg spare a rex' H K N SP RX R0 NB. unfold ea_reg in H. bok H. destruct p as [r l]. apply ok_inj in H. apply pair_inj in H. destruct H as [<- <-]. cbn [need_modrm valid_modrm need_sib need_disp modrm].
  assert (L : l = n mod 8 /\ rexok r /\ rexbit r 0 = n / 8 /\ (bits = 64 -> (k = 1 -> 4 <= n < 8 -> r = 255) /\ (k = 2 -> 64 <= r < 80))).
  { destruct (Z.eqb_spec bits 64) as [->|NE].
    - assert (Q : forallb (fun k => forallb (fun n => forallb (fun rex => regchk rex n k) rexes) (upto 16)) (map Z.succ (upto 14)) = true) by (vm_compute; reflexivity).
      rewrite forallb_forall in Q. specialize (Q k). rewrite forallb_forall in Q. specialize (Q ltac:(apply in_map_iff; exists (k - 1); split; [lia|apply upto_in; lia]) n (proj2 (upto_in 16 n) N)).
      rewrite forallb_forall in Q. specialize (Q rex (rexes_in _ RX)). unfold regchk in Q. rewrite E in Q. rewrite !andb_true_iff, !orb_true_iff, !negb_true_iff, !andb_true_iff, !Z.eqb_eq, !Z.eqb_neq in Q. destruct Q as ((((Q1 & Q2) & Q3) & Q4) & Q5).
      split; auto. split; [apply rexokb_ok; auto|]. split; [destruct Q3; [contradiction|auto]|]. intros _. split.
      + intros -> B. destruct Q4 as [Q4|Q4]; auto. exfalso. rewrite !andb_false_iff, Z.eqb_neq, Z.leb_gt, Z.ltb_ge in Q4. lia.
      + intros ->. destruct Q5 as [Q5|Q5]; [congruence|]. rewrite Z.leb_le, Z.ltb_lt in Q5. exact Q5.
    - unfold set_rex in E. cbv zeta in E. apply Z.eqb_neq in NE. rewrite NE in E. apply Z.eqb_neq in NE. apply ok_inj in E. apply pair_inj in E. destruct E as [<- <-]. specialize (NB NE). split; [|split; [exact RX|split; [rewrite R0, Z.div_small by lia; reflexivity|congruence]]].
      change 7 with (Z.ones 3). rewrite Z.land_ones by lia. change (2 ^ 3) with 8. replace (16 * k + n) with (n + (2 * k) * 8) by ring. apply Z.mod_add. lia. }
  destruct L as (-> & L2 & L3 & L4). rewrite L3.
  assert (M : Z.lor (Z.land (Z.lor 192 (n mod 8)) 199) (Z.land (Z.shiftl spare 3) 56) = 192 + 8 * spare + n mod 8).
  { assert (NM : 0 <= n mod 8 < 8) by (apply Z.mod_pos_bound; lia). set (q := n mod 8) in *. clearbody q. apply (upto_all 8 (fun q => forallb (fun spare => Z.lor (Z.land (Z.lor 192 q) 199) (Z.land (Z.shiftl spare 3) 56) =? 192 + 8 * spare + q) (upto 8)) q) in NM; [|vm_compute; reflexivity].
    cbv beta in NM. apply (upto_all 8 _ spare) in NM; [|exact SP]. apply Z.eqb_eq in NM. exact NM. }
  rewrite M. assert (NM : 0 <= n mod 8 < 8) by (apply Z.mod_pos_bound; lia). pose proof (Z.div_mod n 8 ltac:(lia)). repeat split; auto.
  - symmetry. apply (Z.div_unique _ 64 3 (8 * spare + n mod 8)); lia.
  - replace ((192 + 8 * spare + n mod 8) / 8) with (24 + spare) by (apply (Z.div_unique _ 8 _ (n mod 8)); lia). replace (24 + spare) with (spare + 3 * 8) by ring. rewrite Z.mod_add by lia. apply Z.mod_small. lia.
  - replace ((192 + 8 * spare + n mod 8) mod 8) with (n mod 8); [lia|]. apply (Z.mod_unique _ 8 (24 + spare)); lia.
  - apply L4; auto.
  - apply L4; auto.
  - apply L4; auto.
Qed.

(** * output_basic writes the value *)
Lemma basic_honest : forall nequ equ label sect dist E T place here, (forall s d, equ s = Some d -> shaped (eitem d)) -> env_labels label E -> env_dist dist E -> env_equ equ E ->
  (forall s p, place s = Some p -> T s = p /\ - 2 ^ 31 < p - here < 2 ^ 31) -> honest E T here (output_basic nequ equ label sect dist place here).
Proof.
  intros nequ equ label sect dist E T place here SD EL ED EE PL v x z H A.
  assert (G : forall m y, y mod 2 ^ 256 = m mod 2 ^ 256 -> (y - m) mod 2 ^ 256 = 0) by (intros m y Q; rewrite Zminus_mod, Q, Z.sub_diag; reflexivity). apply G. clear G.
  unfold output_basic in H. bok H. unfold relv, aval in *.
  assert (N : match p with Some n => canon n /\ ival n = z | None => z = 0 end).
  { destruct (v_abs v) as [e|].
    - destruct (get_intnum nequ equ label sect dist true e) as [[n|]| |] eqn:GI; try discriminate E0. apply ok_inj in E0. subst p.
      destruct (get_intnum_ok _ _ _ _ _ _ _ _ SD GI E (VNum z) (fun _ => conj EL ED) EE A) as (C & V). apply canonb_ok in C. injection V as V. auto.
    - apply ok_inj in E0. subst p. exact A. }
  clear E0. destruct (v_rel v) as [s|].
  - destruct (place s) as [q|] eqn:PS; [|discriminate H]. destruct (PL _ _ PS) as [-> NEAR]. destruct (v_curpos v); [|discriminate H]. cbn [negb] in H. cbv zeta in H. apply ok_inj in H.
    set (d := if q <? here then _ else _) in H.
    assert (D : canon d /\ ival d = q - here).
    { unfold d. unfold create_uint, LONG_MAX. destruct (Z.ltb_spec q here).
      - destruct (Z.ltb_spec 9223372036854775807 (here - q)); [lia|]. pose proof (calc_unary scratch (IL (here - q)) NEG (- (here - q)) (canon_small (here - q) ltac:(lia)) (or_introl eq_refl) eq_refl) as (r & -> & C & V).
        split; [exact C|]. cbn [fst]. rewrite V. rewrite wrap_id by (assert (2 ^ 31 < 2 ^ 255) by reflexivity; lia). lia.
      - destruct (Z.ltb_spec 9223372036854775807 (q - here)); [lia|]. split; [apply canon_small; lia|reflexivity]. }
    destruct D as [D1 D2]. clearbody d. destruct p as [n|].
    + destruct N as [C V]. pose proof (calc_ok scratch d ADD n (ival d + ival n) D1 C eq_refl ltac:(discriminate)) as R. apply result_fst in R. destruct R as [_ R]. rewrite <- H, R, wrap_mod, D2, V. f_equal. lia.
    + rewrite <- H, D2, N. reflexivity.
  - destruct (v_curpos v) eqn:CP; [discriminate H|]. destruct (v_iprel v); [discriminate H|]. cbn [orb] in H. apply ok_inj in H. destruct p as [n|]; [destruct N as [_ N]|]; subst; f_equal; lia.
Qed.
