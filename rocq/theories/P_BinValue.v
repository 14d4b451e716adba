(** Values in flat binaries (C88). *)
From Coq Require Import ZArith List Bool Lia.
From Verif Require Import Lib LibBits M_BitVect P_BitVect P_BitVectIO M_Intnum P_Intnum P_IntnumIO M_Expr P_Expr P_ExprLevel P_ExprTree P_ExprTree2 P_ExprTop P_ExprUse M_Value P_Value P_ValueTop P_ValueOut P_ElfReloc M_CoffReloc P_CoffReloc M_BinValue.
Import ListNotations.
Open Scope Z_scope.

(** * Specification *)
(** The symbols and positions have the addresses of the layout: a bytecode of a section ends [next] after the
    address of the section, a label is where its bytecode ends, the special symbols have their values. *)
Definition env_bin (label : Z -> option Z) (sect next : Z -> Z) (vstart : Z -> intnum) (is_abs : Z -> bool) (special : Z -> option intnum) (E : env) : Prop :=
  (forall p, bcv E p = ival (vstart (sect p)) + next p) /\ (forall s p, label s = Some p -> symv E s = Some (VNum (bcv E p))) /\
  (forall s n, label s = None -> special s = Some n -> symv E s = Some (VNum (ival n))) /\ (forall s, is_abs s = true -> symv E s = Some (VNum 0)).
(** The special symbols of a section: where it is loaded, where it runs, how long it is. *)
Definition section_symbol (vstart : Z -> intnum) (bsymd : Z -> option (Z * which)) (istart slength : Z -> intnum) (s : Z) : option intnum :=
  match bsymd s with
  | Some (q, w) => Some (match w with SSYM_START => istart q | SSYM_VSTART => vstart q | SSYM_LENGTH => slength q end)
  | None => None
  end.
(** Symbols that have an address or value in a flat binary. *)
Definition known (label : Z -> option Z) (is_abs : Z -> bool) (special : Z -> option intnum) (s : Z) : Prop := is_abs s = true \/ label s <> None \/ special s <> None.
(** A layout: sections begin with a bytecode of length zero at offset 0; offsets are below 2^31. *)
Definition laid_out (sect next first : Z -> Z) : Prop := (forall q, sect (first q) = q /\ next (first q) = 0) /\ forall p, 0 <= next p < 2 ^ 31.
(** The address of the symbol of a value, relative to [pos] if it is a distance, shifted. *)
Definition offset_of (v : val) (S pos : Z) : Z := wrap256 (S - (if curpos_rel v then pos else 0)) / 2 ^ rshift v.
(** The low [size] bits of [out] are [y]; the others are as in [buf]. *)
Definition field_is (buf out : list Z) (size y : Z) : Prop :=
  length out = length buf /\ Forall byte out /\ lev out mod 2 ^ size = y mod 2 ^ size /\ lev out / 2 ^ size = lev buf / 2 ^ size.

(** * Proofs *)
Lemma sized_field : forall i buf size warn out j ws, canon i -> Forall byte buf -> 0 <= size <= 8 * Z.of_nat (length buf) -> 8 * Z.of_nat (length buf) <= 256 -> get_sized i buf size 0 warn = Some (out, j, ws) ->
  field_is buf out size (ival i) /\ ws = sized_warns (ival i) size 0 warn.
Proof.
  intros i buf size warn out j ws C F SZ S8 H. destruct (get_sized_ok i buf size 0 warn C F ltac:(lia) ltac:(lia) ltac:(lia)) as (o2 & j2 & ws2 & E & FB & LN & TB & _ & WS).
  assert (o2 = out) by congruence. assert (W2 : ws = ws2) by congruence. subst o2. split; [|rewrite W2, WS; reflexivity]. split; [exact LN|]. split; [exact FB|]. pose proof (lev_range out FB) as LR. pose proof (lev_range buf F) as LB. rewrite LN in LR. rewrite pow256 in LR, LB by lia. set (n := 8 * Z.of_nat (length buf)) in *.
  change (Z.max 0 0) with 0 in TB. change (Z.max 0 (- 0)) with 0 in TB. rewrite Z.pow_0_r, Z.div_1_r in TB.
  split; apply Z.bits_inj'; intros p P.
  - rewrite !mod_pow2_testbit by lia. destruct (Z.ltb_spec p size) as [Q|Q]; cbn [andb]; auto. rewrite TB by lia. destruct (Z.leb_spec 0 p); [|lia]. destruct (Z.ltb_spec p (0 + size)); [|lia]. cbn [andb]. rewrite Z.sub_0_r. reflexivity.
  - rewrite !Z.div_pow2_bits by lia. destruct (Z.ltb_spec (p + size) n) as [Q|Q].
    + rewrite TB by lia. destruct (Z.ltb_spec (p + size) (0 + size)); [lia|]. rewrite andb_false_r. reflexivity.
    + rewrite (testbit_small n (lev out)), (testbit_small n (lev buf)); auto; lia.
Qed.
Lemma wrap_sub_l : forall a b, wrap256 (wrap256 a - b) = wrap256 (a - b).
Proof. intros a b. unfold Z.sub. apply wrap_add_l. Qed.
Lemma wrap_sub_r : forall a b, wrap256 (a - wrap256 b) = wrap256 (a - b).
Proof. intros a b. replace (a - wrap256 b) with (- wrap256 b + a) by lia. rewrite <- wrap_add_l, wrap_opp, wrap_add_l. f_equal. lia. Qed.
Lemma good_node : forall e, node e = eitem e. Proof. reflexivity. Qed.
Lemma ev_sub : forall E a b x y, ev E a = Some (VNum x) -> ev E b = Some (VNum y) -> eval E (SUB, [a; b]) = Some (VNum (wrap256 (x - y))).
Proof. intros E a b x y A B. unfold eval. cbn [fst snd ev map]. rewrite A, B. reflexivity. Qed.
Lemma ev_shr : forall E a b x y, ev E a = Some (VNum x) -> ev E b = Some (VNum y) -> 0 <= y < 2 ^ 31 -> eval E (SHR, [a; b]) = Some (VNum (wrap256 (x / 2 ^ y))).
Proof. intros E a b x y A B Y. unfold eval. cbn [fst snd ev map]. rewrite A, B. cbn [all opsem nums nary unary meaning]. destruct (Z.leb_spec 0 y); [|lia]. destruct (Z.ltb_spec y (2 ^ 31)); [|lia]. reflexivity. Qed.
Lemma ev_add : forall E a b x y, ev E a = Some (VNum x) -> ev E b = Some (VNum y) -> eval E (ADD, [a; b]) = Some (VNum (wrap256 (x + y))).
Proof. intros E a b x y A B. unfold eval. cbn [fst snd ev map]. rewrite A, B. reflexivity. Qed.

Section Bin.
Variable nequ : nat.
Variable equ : Z -> option expr.
Variable label : Z -> option Z.
Variable sect next first : Z -> Z.
Variable vstart : Z -> intnum.
Variable is_abs : Z -> bool.
Variable bsymd : Z -> option (Z * which).
Variable istart slength : Z -> intnum.
Notation sval_of := (ssym vstart bsymd istart slength).
Notation envb := (env_bin label sect next vstart is_abs sval_of).
Notation place := (place label sect next first vstart bsymd istart slength).
Hypothesis LO : laid_out sect next first.
Hypothesis CV : forall q, canonb (vstart q) = true /\ canonb (istart q) = true /\ canonb (slength q) = true.
Hypothesis SD : forall s d, equ s = Some d -> shaped (eitem d).

Lemma dist_ok : forall p q n, bc_dist sect next p q = Some n -> canonb n = true /\ ival n = next q - next p /\ sect p = sect q.
Proof.
  intros p q n H. unfold bc_dist in H. destruct (Z.eqb_spec (sect p) (sect q)) as [S|]; [|discriminate]. cbn [negb] in H. destruct LO as [_ NX]. pose proof (NX p). pose proof (NX q).
  assert (K := udiff (next q) (next p) ltac:(lia) ltac:(lia)). cbv zeta in K.
  assert (n = if next p <=? next q then create_uint (u64 (next q - next p)) else ical (create_uint (u64 (next p - next q))) NEG None) as ->.
  { destruct (Z.ltb_spec (next q) (next p)), (Z.leb_spec (next p) (next q)); try lia; congruence. }
  destruct K as [C V]. split; [apply canonb_ok; exact C|]. auto.
Qed.
Lemma address_ok : forall E p, envb E -> exists n, address sect next first vstart p = Some n /\ canonb n = true /\ ival n = wrap256 (bcv E p).
Proof.
  intros E p (B & _). unfold address. destruct LO as [FI _]. destruct (FI (sect p)) as [F1 F2]. unfold bc_dist at 1. rewrite F1, Z.eqb_refl. cbn [negb].
  set (d := bc_dist sect next (first (sect p)) p). assert (D : exists n, d = Some n). { unfold d, bc_dist. rewrite F1, Z.eqb_refl. cbn [negb]. destruct (_ <? _); eauto. } destruct D as [n D]. unfold d, bc_dist in D. rewrite F1, Z.eqb_refl in D. cbn [negb] in D. rewrite D.
  destruct (dist_ok (first (sect p)) p n) as (C & V & _). { unfold bc_dist. rewrite F1, Z.eqb_refl. exact D. }
  destruct (CV (sect p)) as [CVS _]. apply canonb_ok in C. apply canonb_ok in CVS. destruct (ical_ok n ADD (vstart (sect p)) (ival n + ival (vstart (sect p))) C CVS eq_refl) as [A1 A2]; [discriminate|]. eexists. split; [reflexivity|]. split; [apply canonb_ok; exact A1|]. rewrite A2, V, F2, B. f_equal. lia.
Qed.
Lemma ssym_canon : forall s n, sval_of s = Some n -> canonb n = true.
Proof. intros s n H. unfold ssym in H. destruct (bsymd s) as [[q [| |]]|]; try discriminate; assert (K := CV q); destruct K as (A & B & D); congruence. Qed.
Lemma special_le : forall E t, envb E -> (forall s, t = TSym s -> label s = None) -> le E t (special vstart bsymd istart slength t).
Proof.
  intros E t (_ & _ & S & _) L v V. destruct t; auto. cbn [special]. destruct (sval_of s) as [n|] eqn:Q; auto. cbn [ev] in *. rewrite (S s n (L s eq_refl) Q) in V. cbn [option_map wrapv] in V. pose proof (ssym_canon _ _ Q) as C. rewrite C. rewrite wrap_id in V by (apply canon_R, canonb_ok, C). exact V.
Qed.
Lemma place_le : forall E t, envb E -> le E t (place t).
Proof.
  intros E t EB v V. unfold place, M_BinValue.place. destruct t; try (apply special_le; auto; intros; discriminate).
  - destruct (label s) as [p|] eqn:L; [|apply special_le; auto; intros x X; congruence]. destruct (address_ok E p EB) as (n & -> & C & N). cbn [ev] in *. rewrite C, N. destruct EB as (_ & LA & _). rewrite (LA s p L) in V. exact V.
  - destruct (address_ok E b EB) as (n & -> & C & N). cbn [ev] in *. rewrite C, N. exact V.
Qed.
Lemma place_shaped : forall t, shaped t -> shaped (place t).
Proof.
  intros t S. unfold place, M_BinValue.place. destruct t; auto; cbn [special].
  - destruct (label s); [destruct (address _ _ _ _ _); [exact I|]|]; destruct (sval_of s); exact I.
  - destruct (address _ _ _ _ _); exact I.
Qed.
Lemma xform_ok : xok (fun E _ => envb E) (fun _ _ => True) (bin_xform label sect next first vstart bsymd istart slength).
Proof.
  intros [o ts] st e' st' S H. unfold bin_xform in H. cbn [fst snd] in H. injection H as <- <-. unfold eitem in *. cbn [fst snd] in *. apply shaped_expr in S. destruct S as [A F]. split.
  - apply shaped_expr. split; [rewrite map_length; exact A|]. rewrite Forall_forall in *. intros x X. apply in_map_iff in X. destruct X as (y & <- & Y). apply place_shaped. auto.
  - split; [exists []; rewrite app_nil_r; auto|]. split.
    + intros E EB. apply le_expr. clear - EB LO CV. induction ts; constructor; auto. apply place_le. exact EB.
    + intros _. assert (T : forall t, leaves (fun _ => True) t). { fix IH 1. intros t. destruct t as [| | | | | | |o' ts']; try exact I. apply leaves_expr. induction ts'; constructor; auto. } apply T.
Qed.
Lemma level_bin : forall e e' st b, shaped (eitem e) -> level_tree nequ equ true true true [bin_xform label sect next first vstart bsymd istart slength] e = Fin (e', st, b) ->
  forall E v, envb E -> env_equ equ E -> eval E e = Some v -> eval E e' = Some v.
Proof.
  intros e e' st b SH H E v EB EE V. destruct (level_tree_ok (fun E _ => envb E) (fun _ _ => True) nequ equ true [bin_xform label sect next first vstart bsymd istart slength] e e' st b) as (_ & _ & K & _); auto. constructor; [apply xform_ok|constructor].
Qed.

Lemma dists : forall E, envb E -> env_labels label E /\ env_dist (bc_dist sect next) E.
Proof.
  intros E (B & L & _). split; [exact L|]. intros p q n H. destruct (dist_ok p q n H) as (C & V & S). split; [exact C|]. rewrite V, !B, S. replace (ival (vstart (sect q)) + next q - (ival (vstart (sect q)) + next p)) with (next q - next p) by lia.
  symmetry. apply wrap_id, R_small. destruct LO as [_ NX]. pose proof (NX p). pose proof (NX q). assert (2 ^ 31 < 2 ^ 200) by reflexivity. lia.
Qed.
Lemma number_ok : forall E e n z, envb E -> env_equ equ E -> number nequ equ label sect next e = Some n -> eval E e = Some z -> canonb n = true /\ z = VNum (ival n).
Proof.
  intros E e n z EB EE H V. unfold number in H. destruct (M_Expr.get_intnum nequ equ label sect (bc_dist sect next) true e) as [[m|]| |] eqn:Q; try discriminate. assert (m = n) by congruence. subst m.
  apply (P_ExprUse.get_intnum_ok nequ equ label sect (bc_dist sect next) true e n SD Q E z); auto. intros _. apply dists. exact EB.
Qed.
Lemma node_ev : forall E e, ev E (node e) = eval E e. Proof. reflexivity. Qed.
Lemma uint_ev : forall E u, 0 <= u < 2 ^ 31 -> ev E (TInt (create_uint u)) = Some (VNum u).
Proof. intros E u U. destruct (uint31 u U) as [C V]. cbn [ev]. apply canonb_ok in C. rewrite C, V. reflexivity. Qed.
Lemma combine_ok : forall E v t S bc blen k e, envb E -> 0 <= blen < 2 ^ 31 -> 0 <= rshift v < 2 ^ 31 -> is_expr t = false -> t <> TNone -> ev E t = Some (VNum S) ->
  match abs v with None => k = 0 | Some a => good (eitem a) /\ eval E a = Some (VNum k) end ->
  combine v t bc blen = Fin e -> good (eitem e) /\ eval E e = Some (VNum (match abs v with None => offset_of v S (bcv E bc - blen) | Some _ => wrap256 (k + offset_of v S (bcv E bc - blen)) end)).
Proof.
  intros E v t S bc blen k e EB BL RS TX TN TE AB H. unfold combine in H.
  assert (GT : good t) by (destruct t; try discriminate TX; try exact I; congruence). assert (ST : strip t = t) by (destruct t; auto; discriminate TX).
  destruct (create_ok IDENT t None GT I eq_refl ltac:(rewrite ST; auto)) as (e1 & C1 & G1 & V1). rewrite C1 in H. cbn [bind] in H. assert (E1 : eval E e1 = Some (VNum S)) by (apply V1; unfold eval; cbn [fst snd ev map]; rewrite TE; reflexivity). clear C1 V1.
  assert (RS0 : R S) by exact (ev_R E t _ TE).
  set (r2 := if curpos_rel v then _ else _) in H. assert (K2 : exists e2, r2 = Fin e2 /\ good (eitem e2) /\ eval E e2 = Some (VNum (wrap256 (S - (if curpos_rel v then bcv E bc - blen else 0))))).
  { unfold r2. destruct (curpos_rel v).
    - rewrite <- (u64_small blen) in BL |- * by lia. destruct (create_ok SUB (TPrecbc bc) (Some (TInt (create_uint (u64 (u64 blen))))) I I eq_refl ltac:(discriminate)) as (e2 & C2 & G2 & V2).
      rewrite (u64_small (u64 blen)) in * by lia. rewrite C2. cbn [bind]. destruct (create_ok SUB (node e1) (Some (node e2)) G1 G2 eq_refl ltac:(discriminate)) as (e3 & C3 & G3 & V3). exists e3. split; [exact C3|]. split; [exact G3|].
      apply V3. rewrite (ev_sub E _ _ S (wrap256 (bcv E bc - u64 blen))); [|exact E1|apply V2; rewrite (ev_sub E _ _ (wrap256 (bcv E bc)) (u64 blen)); [|reflexivity|apply uint_ev; lia]; rewrite wrap_sub_l; reflexivity]. rewrite wrap_sub_r. reflexivity.
    - exists e1. split; auto. split; auto. rewrite Z.sub_0_r, wrap_id by exact RS0. exact E1. }
  clearbody r2. destruct K2 as (e2 & -> & G2 & E2). cbn [bind] in H. set (x := wrap256 (S - _)) in E2. set (r3 := if 0 <? rshift v then _ else _) in H.
  assert (K3 : exists e3, r3 = Fin e3 /\ good (eitem e3) /\ eval E e3 = Some (VNum (x / 2 ^ rshift v))).
  { unfold r3. assert (RX : R x) by apply R_wrap. destruct (Z.ltb_spec 0 (rshift v)).
    - destruct (create_ok SHR (node e2) (Some (TInt (create_uint (rshift v)))) G2 I eq_refl ltac:(discriminate)) as (e3 & C3 & G3 & V3). exists e3. split; auto. split; auto. rewrite (V3 E (VNum (wrap256 (x / 2 ^ rshift v)))). 2:{ apply ev_shr; auto. apply uint_ev. lia. }
      rewrite wrap_id; auto. unfold R in *. pose proof (pow2_pos (rshift v) ltac:(lia)) as PP. split; [apply Z.div_le_lower_bound; nia|apply Z.div_lt_upper_bound; nia].
    - exists e2. split; auto. split; auto. replace (rshift v) with 0 by lia. rewrite Z.pow_0_r, Z.div_1_r. exact E2. }
  clearbody r3. destruct K3 as (e3 & -> & G3 & E3). cbn [bind] in H. fold x in E3. unfold offset_of. fold x. destruct (abs v) as [a|].
  - destruct AB as [GA VA]. destruct (create_ok ADD (node a) (Some (node e3)) GA G3 (le_n 2) ltac:(discriminate)) as (e4 & C4 & G4 & V4). assert (e4 = e) by congruence. subst e4. split; auto. apply V4. apply ev_add; auto.
  - assert (e3 = e) by congruence. subst e3. auto.
Qed.

Notation bvalue := (bin_value nequ equ label sect next first vstart is_abs bsymd istart slength).
Definition warn_mode (v : val) (warn : bool) : Z := if warn && negb (no_warn v) then (if signed v then -1 else 1) else 0.
(** what is written when there is no symbol left *)
Lemma basic_none : forall E num2 v here off warn m w k, num_ok E num2 -> envb E -> env_equ equ E -> rel v = None -> match abs v with None => k = 0 | Some e => eval E e = Some (VNum k) end ->
  output_basic label sect next (number nequ equ label sect next) num2 v here off warn = ONum m w -> canon m /\ ival m = k /\ w = warn_mode v warn /\ segof v = false /\ rshift v <= 0 /\ curpos_rel v = false /\ ip_rel v = false /\ section_rel v = false.
Proof.
  intros E num2 v here off warn m w k N2 EB EE RN AB H. rewrite output_eq in H. cbv zeta in H. fold (warn_mode v warn) in H.
  assert (OR : forall n, orest label sect next v here off (warn_mode v warn) n = ONum m w -> m = match n with Some i => i | None => create_uint 0 end /\ w = warn_mode v warn /\ segof v = false /\ rshift v <= 0 /\ curpos_rel v = false /\ ip_rel v = false /\ section_rel v = false).
  { intros n Q. unfold orest in Q. rewrite RN in Q. destruct (segof v), (Z.ltb_spec 0 (rshift v)), (curpos_rel v), (ip_rel v), (section_rel v); try discriminate Q. cbn [orb] in Q. assert (m = match n with Some i => i | None => create_uint 0 end) by congruence. assert (w = warn_mode v warn) by congruence. auto 10. }
  destruct (abs v) as [e|].
  - rewrite RN in H. cbn [is_none] in H.
    assert (NM : (if contains 8 e then OErr else match number nequ equ label sect next e with Some n => orest label sect next v here off (warn_mode v warn) (Some n) | None => match num2 e with Some n => orest label sect next v here off (warn_mode v warn) (Some n) | None => OErr end end) = ONum m w -> canon m /\ ival m = k /\ w = warn_mode v warn /\ segof v = false /\ rshift v <= 0 /\ curpos_rel v = false /\ ip_rel v = false /\ section_rel v = false).
    { intros Q. destruct (contains 8 e); [discriminate|]. destruct (number nequ equ label sect next e) as [n|] eqn:Q1.
      - destruct (number_ok E e n _ EB EE Q1 AB) as [C V]. apply OR in Q. destruct Q as [-> Q]. split; [apply canonb_ok; exact C|]. split; [congruence|exact Q].
      - destruct (num2 e) as [n|] eqn:Q2; [|discriminate]. destruct (N2 e n Q2) as [C V]. specialize (V _ AB). apply OR in Q. destruct Q as [-> Q]. split; [apply canonb_ok; exact C|]. split; [congruence|exact Q]. }
    destruct e as [o ts]. destruct o; try exact (NM H). destruct ts as [|t r]; [exact (NM H)|]. destruct t; try exact (NM H). discriminate H.
  - apply OR in H. destruct H as [-> H]. split; [cbn; lia|]. split; [subst k; reflexivity|exact H].
Qed.
(** the value of the parts *)
Definition parts_value (E : env) (v : val) (pos : Z) (y : Z) : Prop :=
  exists k d, match abs v with None => k = 0 | Some e => good (eitem e) /\ eval E e = Some (VNum k) end /\
              match rel v with None => d = 0 | Some s => exists S, symv E s = Some (VNum S) /\ d = offset_of v S pos end /\ y = wrap256 (k + d).
Lemma target_ok : forall E s t S, envb E -> target label vstart is_abs bsymd istart slength s = Some t -> symv E s = Some (VNum S) -> is_expr t = false /\ t <> TNone /\ ev E t = Some (VNum (wrap256 S)).
Proof.
  intros E s t S (B & LA & SS & AS) H V. unfold target in H. destruct (is_abs s) eqn:A.
  - assert (t = TInt (create_uint 0)) as -> by congruence. split; auto. split; [discriminate|]. rewrite (AS s A) in V. assert (S = 0) as -> by congruence. reflexivity.
  - destruct (label s) as [p|] eqn:L.
    + assert (t = TSym s) as -> by congruence. split; auto. split; [discriminate|]. cbn [ev]. rewrite V. reflexivity.
    + destruct (sval_of s) as [n|] eqn:Q; [|discriminate]. assert (t = TInt n) as -> by congruence. split; auto. split; [discriminate|]. pose proof (ssym_canon _ _ Q) as C. cbn [ev]. rewrite C. rewrite (SS s n L Q) in V. assert (S = ival n) as -> by congruence. rewrite wrap_id by (apply canon_R, canonb_ok, C). reflexivity.
Qed.
Lemma unresolved : forall v num2 here off warn s, rel v = Some s -> target label vstart is_abs bsymd istart slength s = None -> forall m w, output_basic label sect next (number nequ equ label sect next) num2 v here off warn <> ONum m w.
Proof.
  intros v num2 here off warn s RV T m w H. rewrite output_eq in H. cbv zeta in H. unfold target in T. destruct (is_abs s); [discriminate|]. destruct (label s) as [p|] eqn:L; [discriminate|].
  assert (OR : forall n w, orest label sect next v here off w n = OTodo) by (intros n w0; unfold orest, local; rewrite RV, L; reflexivity).
  destruct (abs v) as [e|]; [|rewrite OR in H; discriminate]. rewrite RV in H. cbn [is_none] in H. destruct (contains 8 e); [discriminate|]. destruct (number nequ equ label sect next e); [rewrite OR in H; discriminate|]. destruct (num2 e); [rewrite OR in H|]; discriminate.
Qed.
Theorem bvalue_ok : forall E num2 v buf bc bcoff blen warn out ws y, num_ok E num2 -> envb E -> env_equ equ E -> 0 <= blen < 2 ^ 31 -> 0 <= rshift v < 2 ^ 31 -> next bc = bcoff + blen ->
  Forall byte buf -> 0 <= size v <= 8 * Z.of_nat (length buf) -> 8 * Z.of_nat (length buf) <= 256 ->
  parts_value E v (ival (vstart (sect bc)) + bcoff) y -> bvalue num2 v buf bc bcoff blen warn = BBytes out ws ->
  field_is buf out (size v) y /\ ws = sized_warns y (size v) 0 (warn_mode v warn) /\ segof v = false /\ section_rel v = false /\ (curpos_rel v = false -> ip_rel v = false).
Proof.
  intros E num2 v buf bc bcoff blen warn out ws y N2 EB EE BL RS NX F SZ S8 (k & d & AB & RL & ->) H. unfold bin_value in H.
  assert (POS : bcv E bc - blen = ival (vstart (sect bc)) + bcoff) by (destruct EB as (B & _); rewrite B, NX; lia).
  (* after resolving *)
  assert (K : forall v1, resolve label vstart is_abs bsymd istart slength v bc blen = Fin v1 ->
    (rel v1 = None /\ no_warn v1 = no_warn v /\ signed v1 = signed v /\ size v1 = size v /\ segof v1 = segof v /\ section_rel v1 = section_rel v /\ (curpos_rel v = false -> ip_rel v1 = ip_rel v) /\
     match abs v1 with None => wrap256 (k + d) = 0 | Some e => shaped (eitem e) /\ eval E e = Some (VNum (wrap256 (k + d))) end) \/
    (v1 = v /\ exists s, rel v = Some s /\ target label vstart is_abs bsymd istart slength s = None)).
  { intros v1 Q. unfold resolve in Q. destruct (rel v) as [s|] eqn:RV.
    - destruct (target label vstart is_abs bsymd istart slength s) as [t|] eqn:T; [|right; split; [congruence|eauto]]. left. destruct RL as (S & SV & ->). destruct (target_ok E s t S EB T SV) as (T1 & T2 & T3).
      destruct (combine v t bc blen) as [e| |] eqn:CB; try discriminate Q. cbn [bind] in Q. assert (V1 : v1 = Val (Some e) None (wrt v) (segof v) 0 false (if curpos_rel v then false else ip_rel v) (jump_target v) (section_rel v) (no_warn v) (signed v) (size v)) by congruence. clear Q. subst v1. cbn [rel no_warn signed size segof section_rel ip_rel abs].
      destruct (combine_ok E v t (wrap256 S) bc blen k e EB BL RS T1 T2 T3 AB CB) as [GE EV]. do 6 (split; [auto|]). split; [intros ->; reflexivity|]. split; [apply good_shaped; exact GE|].
      rewrite EV. rewrite POS. assert (OO : offset_of v (wrap256 S) (ival (vstart (sect bc)) + bcoff) = offset_of v S (ival (vstart (sect bc)) + bcoff)) by (unfold offset_of; rewrite wrap_sub_l; reflexivity). rewrite OO. destruct (abs v); auto. subst k. f_equal. f_equal. rewrite Z.add_0_l. symmetry. apply wrap_id.
      unfold offset_of. set (x := wrap256 _). assert (RX : R x) by apply R_wrap. clearbody x. unfold R in *. pose proof (pow2_pos (rshift v) ltac:(lia)) as PP. split; [apply Z.div_le_lower_bound; nia|apply Z.div_lt_upper_bound; nia].
    - left. assert (v1 = v) by congruence. subst v1 d. do 7 (split; [auto|]). destruct (abs v) as [e|]; [|subst k; reflexivity]. destruct AB as [GA VA]. split; [apply good_shaped; exact GA|]. rewrite Z.add_0_r, VA. f_equal. f_equal. symmetry. apply wrap_id. exact (ev_R E _ _ VA). }
  destruct (resolve label vstart is_abs bsymd istart slength v bc blen) as [v1| |]; try discriminate H. specialize (K v1 eq_refl). cbn [bind] in H.
  destruct K as [(R1 & R2 & R3 & R4 & R5 & R6 & R7 & R8)|[-> (s & RV & T)]].
  - assert (X : exists v2, (match abs v1 with None => Fin v1 | Some e => bind (level_tree nequ equ true true true [bin_xform label sect next first vstart bsymd istart slength] e) (fun r => let '(e0, _, _) := r in Fin (set_abs v1 (Some e0))) end) = Fin v2 /\
       rel v2 = None /\ no_warn v2 = no_warn v /\ signed v2 = signed v /\ size v2 = size v /\ segof v2 = segof v /\ section_rel v2 = section_rel v /\ (curpos_rel v = false -> ip_rel v2 = ip_rel v) /\ match abs v2 with None => wrap256 (k + d) = 0 | Some e => eval E e = Some (VNum (wrap256 (k + d))) end).
    { destruct (abs v1) as [e|] eqn:A1.
      - destruct (level_tree nequ equ true true true [bin_xform label sect next first vstart bsymd istart slength] e) as [[[e' st] b]| |] eqn:LT; try discriminate H. cbn [bind]. eexists. split; [reflexivity|]. cbn [set_abs rel no_warn signed size segof section_rel ip_rel abs]. destruct R8 as [SH EV]. do 7 (split; [auto|]). apply (level_bin e e' st b SH LT E _ EB EE EV).
      - exists v1. split; [reflexivity|]. rewrite A1. do 7 (split; [auto|]). exact R8. }
    destruct X as (v2 & X & S1 & S2 & S3 & S4 & S5 & S6 & S7 & S8'). rewrite X in H. destruct (output_basic label sect next (number nequ equ label sect next) num2 v2 (sect bc) bcoff warn) as [| | |m w] eqn:OB; try discriminate H.
    destruct (basic_none E num2 v2 (sect bc) bcoff warn m w _ N2 EB EE S1 S8' OB) as (CM & VM & WM & SG & _ & _ & IP & SR). rewrite S4 in H. destruct (get_sized m buf (size v) 0 w) as [[[o j] w']|] eqn:GS; [|discriminate H]. assert (o = out) by congruence. assert (w' = ws) by congruence. subst o w'.
    destruct (sized_field m buf (size v) w out j ws CM F SZ S8 GS) as [FI WS]. rewrite VM in *. assert (WW : warn_mode v2 warn = warn_mode v warn) by (unfold warn_mode; rewrite S2, S3; reflexivity). rewrite WM, WW in WS. split; [exact FI|]. split; [exact WS|]. split; [congruence|]. split; [congruence|]. intros CR. rewrite <- (S7 CR). exact IP.
  - exfalso. destruct (abs v) as [e|] eqn:A.
    + destruct (level_tree nequ equ true true true _ e) as [[[e' st] b]| |]; try discriminate H. cbn [bind] in H. set (v2 := set_abs v (Some e')) in *. assert (RV2 : rel v2 = Some s) by exact RV.
      destruct (output_basic label sect next (number nequ equ label sect next) num2 v2 (sect bc) bcoff warn) as [| | |m w] eqn:OB; try discriminate H. exact (unresolved v2 num2 (sect bc) bcoff warn s RV2 T m w OB).
    + destruct (output_basic label sect next (number nequ equ label sect next) num2 v (sect bc) bcoff warn) as [| | |m w] eqn:OB; try discriminate H. exact (unresolved v num2 (sect bc) bcoff warn s RV T m w OB).
Qed.
End Bin.
