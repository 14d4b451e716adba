(** Relocations of ELF objects (C73, C74, C75). *)
From Coq Require Import ZArith List Bool Lia String.
From Verif Require Import Lib LibBits M_BitVect P_BitVect P_BitVectIO M_Intnum P_Intnum P_IntnumIO M_Expr P_Expr P_ExprLevel P_ExprTree P_ExprTree2 P_ExprTop M_Value P_Value P_ValueTop P_ValueOut M_ElfReloc.
Import ListNotations.
Open Scope Z_scope.

(** * Specification *)
(** What the linker knows: the address of a symbol, of the global offset table, the offset of the
    entry for a symbol in the table, the address of its entry in the procedure linkage table, and the
    numbers that the relocations for thread-local storage stand for. *)
Record linker := Linker { l_addr : Z -> Z; l_got : Z; l_slot : Z -> Z; l_plt : Z -> Z; l_tls : Z -> Z -> Z }.
(** The processor supplements to the System V ABI: width of the field and number stored there by a
    relocation of type [ty] against symbol [s] with addend [A] at address [P]. *)
Definition apply (m : mach) (K : linker) (ty s A P : Z) : option (Z * Z) :=
  let is k := ty =? k in let S := l_addr K s in
  match m with
  | X86 =>
      if is 1 then Some (32, S + A) else if is 2 then Some (32, S + A - P) else if is 3 then Some (32, l_slot K s + A)
      else if is 4 then Some (32, l_plt K s + A - P) else if is 9 then Some (32, S + A - l_got K) else if is 10 then Some (32, l_got K + A - P)
      else if is 20 then Some (16, S + A) else if is 21 then Some (16, S + A - P) else if is 22 then Some (8, S + A) else if is 23 then Some (8, S + A - P)
      else if is 15 || is 16 || is 17 || is 18 || is 19 || is 32 || is 33 || is 34 || is 39 then Some (32, l_tls K ty s + A)
      else None
  | _ =>
      if is 1 then Some (64, S + A) else if is 2 then Some (32, S + A - P) else if is 3 then Some (32, l_slot K s + A)
      else if is 4 then Some (32, l_plt K s + A - P) else if is 9 then Some (32, l_slot K s + l_got K + A - P)
      else if is 10 then Some (32, S + A) else if is 12 then Some (16, S + A) else if is 13 then Some (16, S + A - P)
      else if is 14 then Some (8, S + A) else if is 15 then Some (8, S + A - P) else if is 24 then Some (64, S + A - P)
      else if is 26 then Some (32, l_got K + A - P) else if is 29 then Some (64, l_got K + A - P)
      else if is 19 || is 20 || is 22 || is 34 then Some (32, l_tls K ty s + A - P)
      else if is 21 || is 23 then Some (32, l_tls K ty s + A)
      else None
  end.
(** The addend: in the field for x86, in the entry (8 or 4 bytes) otherwise. *)
Definition addend (m : mach) (r : rentry) (out : list Z) : Z :=
  match m with
  | X86 => lev out
  | AMD64 => match e_addend r with Some a => ival a mod 2 ^ 64 | None => 0 end
  | X32 => match e_addend r with Some a => ival a mod 2 ^ 32 | None => 0 end
  end.
(** The number in the field once the section has been placed at [sec] and linked. *)
Definition linked (m : mach) (index : Z -> option nat) (K : linker) (sec : Z) (out : list Z) (r : option rentry) : option Z :=
  match r with
  | None => Some (lev out)
  | Some r =>
      match rtype m index r with
      | None => None
      | Some ty => match apply m K ty (e_sym r) (addend m r out) (sec + ival (e_addr r)) with
                   | Some (b, y) => if b =? 8 * Z.of_nat (List.length out) then Some (y mod 2 ^ b) else None
                   | None => None
                   end
      end
  end.
(** What a value with respect to a special symbol stands for, by its name: [k] is the absolute part,
    [P] the address of the field and [sec] that of the section. *)
Local Open Scope string_scope.
Definition wanted (m : mach) (K : linker) (name : string) (s k P sec : Z) : option Z :=
  let is n := String.eqb name n in let tls ty := Some (l_tls K ty s + k) in let tlspc ty := Some (l_tls K ty s + k - P) in
  if is "plt" then Some (l_plt K s + k - P)
  else if is "got" then Some (l_slot K s + k)
  else match m with
  | X86 =>
      if is "gotoff" then Some (l_addr K s + k - l_got K)
      else if is "gotpc" then Some (l_got K + k - sec)
      else if is "tlsgd" then tls 18 else if is "tlsldm" then tls 19 else if is "gottpoff" then tls 33 else if is "tpoff" then tls 34
      else if is "ntpoff" then tls 17 else if is "dtpoff" then tls 32 else if is "gotntpoff" then tls 16 else if is "indntpoff" then tls 15
      else if is "tlsdesc" then tls 39 else None
  | _ =>
      if is "gotpcrel" then Some (l_slot K s + l_got K + k - P)
      else if is "tlsgd" then tlspc 19 else if is "tlsld" then tlspc 20 else if is "gottpoff" then tlspc 22
      else if is "tpoff" then tls 23 else if is "dtpoff" then tls 21 else if is "tlsdesc" then tlspc 34 else None
  end.
Local Close Scope string_scope.

(** * Proofs *)
Lemma get_sized_full : forall i buf warn out j ws, canon i -> Forall byte buf -> Z.of_nat (List.length buf) * 8 <= 256 ->
  get_sized i buf (8 * Z.of_nat (List.length buf)) 0 warn = Some (out, j, ws) -> lev out = ival i mod 2 ^ (8 * Z.of_nat (List.length buf)) /\ List.length out = List.length buf.
Proof.
  intros i buf warn out j ws C F L H. destruct (get_sized_ok i buf (8 * Z.of_nat (List.length buf)) 0 warn C F ltac:(lia) ltac:(lia) L) as (o2 & j2 & ws2 & E & FB & LN & TB & _ & _).
  assert (o2 = out) by congruence. subst o2. split; [|auto]. pose proof (lev_range out FB) as LR. rewrite LN in LR. set (n := 8 * Z.of_nat (List.length buf)) in *.
  apply Z.bits_inj'. intros p P. rewrite mod_pow2_testbit by lia. destruct (Z.ltb_spec p n) as [Q|Q]; cbn [andb].
  - rewrite TB by lia. change (Z.max 0 0) with 0. destruct (Z.leb_spec 0 p); [|lia]. destruct (Z.ltb_spec p (0 + n)); [|lia]. cbn [andb]. change (Z.max 0 (- 0)) with 0. rewrite Z.pow_0_r, Z.div_1_r, Z.sub_0_r. reflexivity.
  - apply (testbit_small n); try lia. rewrite pow256 in LR by lia. exact LR.
Qed.
Lemma pow_div : forall a b x, 0 <= a <= b -> (2 ^ b | x) -> (2 ^ a | x).
Proof. intros a b x L D. eapply Z.divide_trans; [|exact D]. exists (2 ^ (b - a)). rewrite <- Z.pow_add_r by lia. f_equal. lia. Qed.
Lemma mod_div : forall a b k, 0 <= k -> a mod 2 ^ k = b -> (2 ^ k | a - b).
Proof. intros a b k K <-. pose proof (pow2_pos k K). exists (a / 2 ^ k). pose proof (Z.div_mod a (2 ^ k) ltac:(lia)). lia. Qed.
Lemma div_mod : forall a b k, 0 <= k -> (2 ^ k | a - b) -> a mod 2 ^ k = b mod 2 ^ k.
Proof. intros a b k K [q Q]. pose proof (pow2_pos k K). replace a with (b + q * 2 ^ k) by lia. apply Z.mod_add. lia. Qed.
Lemma wrap_dv : forall x, (2 ^ 256 | wrap256 x - x).
Proof. intros x. apply wrap_div. apply wrap_id. apply R_wrap. Qed.

Lemma uint31 : forall u, 0 <= u < 2 ^ 31 -> canon (create_uint u) /\ ival (create_uint u) = u.
Proof. intros u U. unfold create_uint, LONG_MAX. destruct (Z.ltb_spec 9223372036854775807 u); [lia|]. split; [cbn [canon]; lia|reflexivity]. Qed.

Section Elf.
Variable m : mach.
Variable label : Z -> option Z.
Variable sect next : Z -> Z.
Variable local : Z -> bool.
Variable sectsym : Z -> Z.
Variable got : option Z.
Variable dotdot : Z.
Variable index : Z -> option nat.
Notation output := (output_value m label sect next local sectsym got dotdot index).
Lemma accepts_plain : forall k, 0 <= k < 256 -> accepts m index k None = true <-> k = 8 \/ k = 16 \/ k = 32 \/ m = AMD64 /\ k = 64.
Proof using m index.
  clear label sect next local sectsym got dotdot. intros k K. unfold accepts. assert (A : forall mask, In mask [56; 120] -> forall j, 0 <= j < 256 -> (if negb (Z.land j (j - 1) =? 0) then false else negb (Z.land j mask =? 0)) = ((j =? 8) || (j =? 16) || (j =? 32) || ((mask =? 120) && (j =? 64)))).
  { intros mask MM. assert (Q : forallb (fun n => Bool.eqb (if negb (Z.land (Z.of_nat n) (Z.of_nat n - 1) =? 0) then false else negb (Z.land (Z.of_nat n) mask =? 0)) ((Z.of_nat n =? 8) || (Z.of_nat n =? 16) || (Z.of_nat n =? 32) || ((mask =? 120) && (Z.of_nat n =? 64)))) (seq 0 256) = true).
    { destruct MM as [<-|[<-|[]]]; vm_compute; reflexivity. }
    intros j J. rewrite forallb_forall in Q. specialize (Q (Z.to_nat j)). rewrite Z2Nat.id in Q by lia. apply eqb_prop. apply Q. apply in_seq. lia. }
  assert (B : (if negb (Z.land k (k - 1) =? 0) then false else negb (Z.land k (match m with AMD64 => 8 + 16 + 32 + 64 | _ => 8 + 16 + 32 end) =? 0)) = ((k =? 8) || (k =? 16) || (k =? 32) || (match m with AMD64 => true | _ => false end && (k =? 64)))).
  { destruct m; [apply (A 56)|apply (A 120)|apply (A 56)]; cbn [In]; auto. }
  rewrite B. rewrite !orb_true_iff, andb_true_iff, !Z.eqb_eq. destruct m; intuition (auto; discriminate).
Qed.
Definition isgot (sym : Z) : bool := match got with Some g => sym =? g | None => false end.
Definition wsym (v : val) : option Z := match wrt v with Some w => if w =? dotdot then None else Some w | None => None end.
Lemma output_inv : forall num num2 num3 v buf here bcoff offset warn out r ws, output num num2 num3 v buf here bcoff offset warn = VBytes out (Some r) ws ->
  segof v = false /\ section_rel v = false /\ (0 <? rshift v) = false /\ exists s i j j', rel v = Some s /\ accepts m index (size v) (wsym v) = true /\
  let t := target m label sect next local sectsym index v s (wsym v) (u64 (offset + bcoff)) in
  let val1 := if curpos_rel v then u64 (snd t + offset) else snd t in
  match abs v with None => i = create_uint val1 | Some e => exists i2, num3 e = Some i2 /\ i = ical (create_uint val1) ADD (Some i2) end /\
  handle_addend m i (Entry (fst t) (create_uint (u64 (bcoff + offset))) (curpos_rel v) (size v) (wsym v) (isgot (fst t)) None) offset = (j, r) /\
  get_sized j buf (size v) 0 (if warn then 1 else 0) = Some (out, j', ws).
Proof.
  intros num num2 num3 v buf here bcoff offset warn out r ws H. unfold output_value in H. destruct (output_basic _ _ _ _ _ _ _ _ _) as [| |neg f w|n w]; try discriminate H.
  2:{ unfold tobytes in H. destruct (get_sized _ _ _ _ _) as [[[o j] w']|]; discriminate H. }
  destruct (segof v), (section_rel v), (0 <? rshift v); try discriminate H. cbn [orb] in H. do 3 (split; [reflexivity|]).
  fold (wsym v) in H. destruct (rel v) as [s|] eqn:RV.
  2:{ destruct (abs v) as [e|]; [destruct (num3 e); [|discriminate H]|]; unfold tobytes in H; destruct (get_sized _ _ _ _ _) as [[[o j] w']|]; discriminate H. }
  destruct (target m label sect next local sectsym index v s (wsym v) (u64 (offset + bcoff))) as [sym val0] eqn:TG. unfold entry_create in H. destruct (accepts m index (size v) (wsym v)) eqn:AC; [|discriminate H]. fold (isgot sym) in H.
  set (val1 := if curpos_rel v then u64 (val0 + offset) else val0) in *. set (en := Entry sym _ _ _ _ _ _) in H.
  assert (K : exists i, match abs v with None => i = create_uint val1 | Some e => exists i2, num3 e = Some i2 /\ i = ical (create_uint val1) ADD (Some i2) end /\
    (let (i', r') := handle_addend m i en offset in tobytes i' buf (size v) (if warn then 1 else 0) (Some r')) = VBytes out (Some r) ws).
  { destruct (abs v) as [e|]; [destruct (num3 e) as [i2|]; [|discriminate H]|]; eexists; (split; [eauto|exact H]). }
  destruct K as (i & K1 & K2). destruct (handle_addend m i en offset) as [j r'] eqn:HA. unfold tobytes in K2. destruct (get_sized _ _ _ _ _) as [[[o j'] w']|] eqn:GS; [|discriminate K2]. assert (o = out) by congruence. assert (r' = r) by congruence. assert (w' = ws) by congruence. subst o r' w'.
  exists s, i, j, j'. split; [reflexivity|]. split; [reflexivity|]. cbv zeta. rewrite TG. cbn [fst snd]. fold val1. auto.
Qed.

Variable start : Z -> Z.
(** the addend the linker sees *)
Lemma addend_ok : forall E num3 v buf offset warn val1 en i j r out j' ws k,
  num_ok E num3 -> match abs v with None => k = 0 | Some e => eval E e = Some (VNum k) end ->
  match abs v with None => i = create_uint val1 | Some e => exists i2, num3 e = Some i2 /\ i = ical (create_uint val1) ADD (Some i2) end ->
  0 <= val1 < 2 ^ 31 -> 0 <= offset < 2 ^ 31 -> Forall byte buf -> 8 * Z.of_nat (List.length buf) = size v -> e_size en = size v ->
  size v = 8 \/ size v = 16 \/ size v = 32 \/ m = AMD64 /\ size v = 64 ->
  handle_addend m i en offset = (j, r) -> get_sized j buf (size v) 0 warn = Some (out, j', ws) ->
  e_sym r = e_sym en /\ e_addr r = e_addr en /\ rtype m index r = rtype m index en /\ List.length out = List.length buf /\
  (2 ^ size v | addend m r out - (val1 + k + match m with X86 => if is_none (e_wrt en) && e_got en && (size v =? 32) then offset else 0 | _ => 0 end)).
Proof.
  intros E num3 v buf offset warn val1 en i j r out j' ws k N3 AB IV V1 O F LB ES SZ HA GS.
  assert (S64 : 0 <= size v <= 64) by (destruct SZ as [->|[->|[->|[_ ->]]]]; lia).
  assert (CU : canon (create_uint val1) /\ ival (create_uint val1) = val1) by (apply uint31; lia).
  assert (CI : canon i /\ (2 ^ 256 | ival i - (val1 + k))).
  { destruct CU as [C1 C2]. destruct (abs v) as [e|].
    - destruct IV as (i2 & Q & ->). destruct (N3 e i2 Q) as [C3 C4]. apply canonb_ok in C3. specialize (C4 _ AB). injection C4 as ->. destruct (ical_ok _ ADD i2 (val1 + ival i2) C1 C3) as [C5 C6]; [cbn [meaning]; rewrite C2; reflexivity|discriminate|]. split; auto. rewrite C6. apply wrap_dv.
    - subst i k. split; auto. rewrite C2. exists 0. lia. }
  destruct CI as [CI DI]. apply (pow_div (size v)) in DI; [|lia]. unfold handle_addend in HA. rewrite ES in HA.
  assert (CJ : canon j /\ (m = X86 -> (2 ^ 256 | ival j - (ival i + if is_none (e_wrt en) && e_got en && (size v =? 32) then offset else 0)))).
  { assert (CO : canon (create_uint offset) /\ ival (create_uint offset) = offset) by (apply uint31; lia). destruct CO as [CO1 CO2].
    destruct m.
    - destruct (is_none (e_wrt en) && e_got en && (size v =? 32)); cbn [andb] in HA; [destruct (Z.eqb_spec offset 0) as [->|]; cbn [negb] in HA|]; assert (JJ := f_equal fst HA); cbn [fst] in JJ; subst j.
      + split; auto. intros _. exists 0. lia.
      + destruct (ical_ok i ADD _ (ival i + ival (create_uint offset)) CI CO1 eq_refl) as [A B]; [discriminate|]. split; auto. intros _. rewrite B, CO2. apply wrap_dv.
      + split; auto. intros _. exists 0. lia.
    - assert (JJ := f_equal fst HA). cbn [fst] in JJ. subst j. split; [cbn; lia|discriminate].
    - assert (JJ := f_equal fst HA). cbn [fst] in JJ. subst j. split; [cbn; lia|discriminate]. }
  destruct CJ as [CJ DJ]. rewrite <- LB in GS. destruct (get_sized_full j buf warn out j' ws CJ F ltac:(lia) GS) as [LO LL]. rewrite LB in *.
  assert (RR := f_equal snd HA). destruct m; cbn [snd] in RR; subst r; cbn [e_sym e_addr]; (split; [reflexivity|]); (split; [reflexivity|]); (split; [unfold rtype; cbn [e_wrt e_size e_rel e_got]; rewrite ?ES; reflexivity|]); (split; [exact LL|]); cbn [addend e_addend].
  - specialize (DJ eq_refl). apply (pow_div (size v)) in DJ; [|lia]. symmetry in LO. apply mod_div in LO; [|lia]. set (x := if is_none (e_wrt en) && e_got en && (size v =? 32) then offset else 0) in *. clearbody x.
    destruct LO as [a LO], DJ as [b DJ], DI as [c DI]. exists (- a + b + c). lia.
  - pose proof (mod_div (ival i) _ 64 ltac:(lia) eq_refl) as D. apply (pow_div (size v)) in D; [|lia]. set (y := ival i mod 2 ^ 64) in *. clearbody y.
    destruct D as [a D], DI as [c DI]. exists (- a + c). lia.
  - pose proof (mod_div (ival i) _ 32 ltac:(lia) eq_refl) as D. apply (pow_div (size v)) in D; [|destruct SZ as [->|[->|[->|[Q _]]]]; try lia; discriminate Q]. set (y := ival i mod 2 ^ 32) in *. clearbody y.
    destruct D as [a D], DI as [c DI]. exists (- a + c). lia.
Qed.
(** Plain relocations. *)
Variable K : linker.
Hypothesis SEC : forall q, l_addr K (sectsym q) = start q /\ got <> Some (sectsym q).
Hypothesis LAB : forall s p, label s = Some p -> l_addr K s = start (sect p) + next p.
Hypothesis GOT : forall g, got = Some g -> l_addr K g = l_got K.
Lemma target_plain : forall v s pos, wsym v = None -> (forall p, label s = Some p -> 0 <= next p < 2 ^ 31) ->
  let t := target m label sect next local sectsym index v s None pos in l_addr K (fst t) + snd t = l_addr K s /\ (snd t = 0 \/ exists p, label s = Some p /\ snd t = next p) /\ (isgot (fst t) = true -> got = Some s).
Proof.
  intros v s pos W NX. unfold target. assert (SELF : let t := (s, 0) in l_addr K (fst t) + snd t = l_addr K s /\ (snd t = 0 \/ exists p, label s = Some p /\ snd t = next p) /\ (isgot (fst t) = true -> got = Some s)).
  { cbn [fst snd]. split; [lia|]. split; auto. unfold isgot. destruct got as [g|]; [|discriminate]. intros Q. apply Z.eqb_eq in Q. congruence. }
  destruct (negb (is_none (wrt v))); [exact SELF|]. destruct (local s); [|exact SELF]. destruct (label s) as [p|] eqn:LB; [|exact SELF]. cbn [fst snd]. specialize (NX p eq_refl). unfold u64. rewrite Z.mod_small by (assert (2 ^ 31 < w64) by reflexivity; lia).
  split; [rewrite (proj1 (SEC _)), (LAB s p LB); lia|]. split; [right; exists p; auto|]. unfold isgot. pose proof (proj2 (SEC (sect p))) as NG. destruct got as [g|]; [|discriminate]. intros Q. apply Z.eqb_eq in Q. congruence.
Qed.
Lemma plain_ok : forall E num num2 num3 v buf here bcoff offset warn out r ws s k,
  num_ok E num3 -> rel v = Some s -> match abs v with None => k = 0 | Some e => eval E e = Some (VNum k) end ->
  Forall byte buf -> 8 * Z.of_nat (List.length buf) = size v -> size v < 256 -> 0 <= bcoff -> 0 <= offset -> bcoff + offset < 2 ^ 31 -> (forall p, label s = Some p -> 0 <= next p /\ next p + offset < 2 ^ 31) ->
  wsym v = None -> (got = Some s -> m <> X86 /\ curpos_rel v = true \/ size v <> 32 /\ size v <> 64) ->
  output num num2 num3 v buf here bcoff offset warn = VBytes out (Some r) ws ->
  ival (e_addr r) = bcoff + offset /\ linked m index K (start here) out (Some r) = Some ((k + l_addr K s - (if curpos_rel v then start here + bcoff else 0)) mod 2 ^ size v).
Proof.
  intros E num num2 num3 v buf here bcoff offset warn out r ws s k N3 RV AB F LB SB B0 O0 BO NX W GS H.
  apply output_inv in H. destruct H as (_ & _ & _ & s' & i & j & j' & RV' & AC & H). assert (s' = s) by congruence. subst s'. clear RV'. cbv zeta in H. rewrite W in *. destruct H as (HI & HA & HG).
  destruct (target_plain v s (u64 (offset + bcoff)) W) as (T1 & T2 & T3); [intros p P; destruct (NX p P); lia|]. set (t := target _ _ _ _ _ _ _ _ _ _ _) in *. clearbody t. destruct t as [sym val0]. cbn [fst snd] in *.
  apply accepts_plain in AC; [|lia]. set (val1 := if curpos_rel v then u64 (val0 + offset) else val0) in *.
  assert (V0 : 0 <= val0 /\ val0 + offset < 2 ^ 31) by (destruct T2 as [->|(p & LP & ->)]; [lia|apply NX; auto]).
  assert (V1 : val1 = val0 + if curpos_rel v then offset else 0) by (unfold val1; destruct (curpos_rel v); [unfold u64; rewrite Z.mod_small by (assert (2 ^ 31 < w64) by reflexivity; lia)|]; lia). clearbody val1.
  set (en := Entry _ _ _ _ _ _ _) in HA. destruct (addend_ok E num3 v buf offset _ val1 en i j r out j' ws k N3 AB HI ltac:(rewrite V1; destruct (curpos_rel v); lia) ltac:(lia) F LB eq_refl AC HA HG) as (R1 & R2 & R3 & R4 & R5).
  unfold en in *. clear en. cbn [e_sym e_addr e_wrt e_got is_none andb] in R1, R2, R5. assert (AD : ival (e_addr r) = bcoff + offset) by (rewrite R2; unfold u64; rewrite Z.mod_small by (assert (2 ^ 31 < w64) by reflexivity; lia); apply uint31; lia). split; auto.
  unfold linked. rewrite R3, R1, AD, R4, LB. set (A := addend m r out) in *. clearbody A. clear R1 R2 R3 R4 HA HG HI AB. unfold rtype. cbn [e_wrt e_size e_got e_rel].
  assert (FG : isgot sym = true -> size v = 32 \/ size v = 64 -> m <> X86 /\ curpos_rel v = true /\ l_addr K sym = l_got K).
  { intros G Q. destruct (GS (T3 G)) as [[G1 G2]|[G1 G2]]; [|destruct Q; lia]. split; auto. split; auto. apply GOT. unfold isgot in G. destruct got as [g|]; [|discriminate]. apply Z.eqb_eq in G. congruence. }
  destruct (isgot sym) eqn:IG.
  - specialize (FG eq_refl). destruct AC as [Q|[Q|[Q|[MM Q]]]]; rewrite Q in *; try (destruct FG as (G1 & G2 & G3); [auto; fail|]); destruct m; try congruence; destruct (curpos_rel v); try discriminate; cbn [andb Z.eqb Pos.eqb] in R5 |- *; unfold apply; cbn [Z.eqb Pos.eqb orb]; f_equal; (apply div_mod; [lia|]); destruct R5 as [a R5]; exists a; lia.
  - destruct AC as [Q|[Q|[Q|[MM Q]]]]; rewrite Q in *; destruct m; try congruence; destruct (curpos_rel v); cbn [andb Z.eqb Pos.eqb] in R5 |- *; unfold apply; cbn [Z.eqb Pos.eqb orb]; f_equal; (apply div_mod; [lia|]); destruct R5 as [a R5]; exists a; lia.
Qed.
End Elf.
