(** Lengths of jumps (C34) and where they land (C35). *)
From Coq Require Import ZArith List Bool Arith Lia.
From Verif Require Import Lib M_BitVect P_BitVect P_BitVectIO M_Intnum P_Intnum P_IntnumIO M_Expr P_Expr P_ExprLevel P_ExprTree P_ExprTop P_ExprUse M_X86 P_X86Len.
Import ListNotations.
Open Scope Z_scope.

(** * Specification *)
(** The number written by bytes, low byte first; taken as signed *)
Fixpoint unle (l : list Z) : Z := match l with [] => 0 | b :: r => b + 256 * unle r end.
Definition signed (w x : Z) : Z := (x + 2 ^ (8 * w - 1)) mod 2 ^ (8 * w) - 2 ^ (8 * w - 1).
(** A jump instruction: prefixes, one of the two opcodes, a displacement of [w] bytes of value [d] (unsigned) *)
Definition encodes (j : jmp) (b : list Z) (short : bool) (w d : Z) : Prop :=
  exists pre ds, b = pre ++ opcode_bytes (if short then j_short j else j_near j) ++ ds /\ Z.of_nat (length ds) = w /\ d = unle ds /\ Forall (fun x => 0 <= x < 256) ds /\
  w = if short then 1 else near_size j.
(** The target: symbol [s] at [T], plus [z] *)
Definition target (E : env) (v : M_X86.value) (s z : Z) : Prop :=
  v_rel v = Some s /\ v_curpos v = true /\
  match v_abs v with None => z = 0 | Some e => good (eitem e) /\ eval E e = Some (VNum z) end.

(** * Proofs *)
Lemma le_bytes : forall n x, Forall (fun y => 0 <= y < 256) (le n x).
Proof. induction n; intros x; cbn [le]; constructor; auto. apply Z.mod_pos_bound. lia. Qed.
Lemma unle_le : forall n x, unle (le n x) = x mod 256 ^ Z.of_nat n.
Proof.
  induction n as [|n IH]; intros x; [cbn; rewrite Z.mod_1_r; reflexivity|]. cbn [le unle]. rewrite IH, Nat2Z.inj_succ, Z.pow_succ_r by lia.
  rewrite Z.rem_mul_r by (try lia; apply Z.pow_pos_nonneg; lia). reflexivity.
Qed.
Lemma jmp_expand_ok : forall j len j' len', jwf j -> len = jsize j -> is_short (j_sel j) = true -> jmp_expand 1 j len = Ok (j', len') ->
  jwf j' /\ len' = jsize j' /\ j_sel j' = JNear /\ j_common j' = j_common j /\ j_short j' = j_short j /\ j_near j' = j_near j /\ j_target j' = j_target j.
Proof.
  intros j len j' len' (W1 & W2 & W3 & W4 & W5 & W6 & W7) L S H. unfold jmp_expand in H. cbn [Z.eqb Pos.eqb negb] in H. ifd H; [discriminate|]. apply orb_false_iff in Heqb. destruct Heqb as [_ Q]. apply Z.eqb_neq in Q.
  destruct (j_sel j) eqn:SE; try discriminate H; try discriminate S; apply ok_inj in H; apply pair_inj in H; destruct H as [<- <-]; (split; [refine (conj W1 (conj W2 (conj W3 (conj W4 (conj _ (conj _ (fun _ => Q))))))); [discriminate|intros X; discriminate X]|]);
   (split; [unfold jsize in *; rewrite SE in L; cbn [is_short] in L; change (near_size (set_sel JNear j)) with (near_size j); cbn [set_sel j_common j_short j_near j_sel is_short]; lia|repeat split; reflexivity]).
Qed.
(** After an expansion a second one is an internal error. *)
Lemma jexpansions_ok : forall ids j len j' len', jwf j -> len = jsize j -> (ids <> [] -> is_short (j_sel j) = true) -> Forall (eq 1) ids -> jexpansions ids j len = Ok (j', len') ->
  jwf j' /\ len' = jsize j' /\ j_common j' = j_common j /\ j_short j' = j_short j /\ j_near j' = j_near j /\ j_target j' = j_target j /\ (ids = [] -> j' = j).
Proof.
  intros [|k [|k2 r]] j len j' len' W L S F H; cbn [jexpansions] in H.
  - apply ok_inj in H. injection H as <- <-. repeat split; auto; try apply W.
  - inversion F; subst k. bok H. destruct p as [j1 l1]. apply ok_inj in H. injection H as <- <-. apply jmp_expand_ok in E; auto; [|apply S; discriminate]. destruct E as (X1 & X2 & X3 & X4 & X5 & X6 & X7). repeat split; auto; try apply X1. discriminate.
  - inversion F as [|? ? <- F2]; subst. inversion F2 as [|? ? <- F3]; subst. bok H. destruct p as [j1 l1]. apply jmp_expand_ok in E; auto; [|apply S; discriminate]. destruct E as (_ & _ & E & _). bok H. unfold jmp_expand in E0. cbn [Z.eqb Pos.eqb negb] in E0. rewrite E in E0. ifd E0; discriminate.
Qed.
Lemma jsize_pos : forall j, jwf j -> 0 <= jsize j <= 11.
Proof.
  intros j (W1 & W2 & W3 & W4 & _). unfold jsize, common_len, near_size. pose proof (b2z_01 (has67 (j_common j))). pose proof (b2z_01 (has66 (j_common j))). pose proof (b2z_01 (negb (lockrep (j_common j) =? 0))). pose proof (b2z_01 (negb (acqrel (j_common j) =? 0))).
  destruct (is_short _), (j_opersize j =? 16); lia.
Qed.
Lemma near_size_eq : forall j j', j_common j' = j_common j -> near_size j' = near_size j.
Proof. intros j j' H. unfold near_size, j_opersize. rewrite H. reflexivity. Qed.

Section Land.
Variable ov : M_X86.value -> out Z.
(** one copy *)
Lemma jbytes_form : forall len j j' b, jwf j -> jmp_bytes ov len j = Ok (j', b) ->
  exists t x, add_delta (- len) (j_target j) = Ok t /\ ov (with_size (8 * (if is_short (j_sel j) then 1 else near_size j)) t) = Ok x /\
    j' = set_target (with_size (8 * (if is_short (j_sel j) then 1 else near_size j)) t) j /\
    b = common_bytes (j_common j) 0 ++ opcode_bytes (if is_short (j_sel j) then j_short j else j_near j) ++ le (Z.to_nat (if is_short (j_sel j) then 1 else near_size j)) x.
Proof.
  intros len j j' b (W1 & W2 & W3 & W4 & W5 & W6 & W7) H. unfold jmp_bytes in H. cbv zeta in H.
  destruct (j_sel j) eqn:SE; try congruence; cbn [is_short] in *; (ifd H; [discriminate|]); bok H; bok H; apply ok_inj in H; apply pair_inj in H; destruct H as [<- <-]; exists p, p0; auto.
Qed.
Lemma jcopies_length : forall n j bss, jwf j -> jcopies ov n (jsize j) j = Ok bss -> length bss = n /\ Forall (fun b => Z.of_nat (length b) = jsize j) bss.
Proof.
  induction n as [|n IH]; intros j bss W H; cbn [jcopies] in H; [apply ok_inj in H; subst; auto|]. bok H. destruct p as [j1 b]. bok H. apply ok_inj in H. subst bss.
  destruct (jbytes_form _ _ _ _ W E) as (t & x & _ & _ & -> & Eb).
  assert (W' : jwf (set_target (with_size (8 * (if is_short (j_sel j) then 1 else near_size j)) t) j)) by exact W.
  apply (IH _ _ W') in E0. destruct E0 as [X Y]. split; [cbn; lia|]. constructor; [|exact Y].
  rewrite Eb, !app_length, !Nat2Z.inj_add, common_bytes_length, le_length. destruct W as (W1 & W2 & W3 & W4 & W5 & W6 & W7). unfold jsize. destruct (is_short (j_sel j)).
  - rewrite opcode_bytes_length by auto. cbn. lia.
  - rewrite opcode_bytes_length by auto. rewrite Z2Nat.id by (unfold near_size; destruct (_ =? 16); lia). cbn. lia.
Qed.
Theorem jmp_length : forall local j j1 len1 sp ids j2 len n bss, jmp_ok j -> jmp_calc_len local j = Ok (j1, len1, sp) -> incl ids (map span_id sp) ->
  jexpansions ids j1 len1 = Ok (j2, len) -> jcopies ov n len j2 = Ok bss -> length bss = n /\ Forall (fun b => Z.of_nat (length b) = len) bss.
Proof.
  intros local j j1 len1 sp ids j2 len n bss OK H I X C. destruct (jmp_calc_ok _ _ _ _ _ OK H) as (W & -> & S & F & _).
  assert (NE : ids <> [] -> sp <> []) by (intros Q ->; destruct ids; [congruence|]; exact (I z (or_introl eq_refl))).
  assert (F1 : Forall (eq 1) ids) by (apply Forall_forall; intros k K; apply I in K; apply in_map_iff in K; destruct K as (s & <- & K); rewrite Forall_forall in F; symmetry; auto).
  destruct (jexpansions_ok _ _ _ _ _ W eq_refl (fun Q => S (NE Q)) F1 X) as (W2 & -> & _). apply jcopies_length; auto.
Qed.
Lemma jbytes_nb : forall len j, no_bug ov -> vgood (j_target j) -> jwf j -> jmp_bytes ov len j <> Bug.
Proof.
  intros len j N1 G (W1 & W2 & W3 & W4 & W5 & W6 & W7) H. unfold jmp_bytes in H. cbv zeta in H.
  destruct (j_sel j) eqn:SE; try congruence; cbn [is_short] in *; ifd H; try discriminate; try (apply Z.eqb_eq in Heqb; apply W6; auto; fail);
   (apply bind_bug in H; destruct H as [H|(t & ET & H)]; [exact (proj1 (add_delta_good _ _ G) H)|]; apply (add_delta_good _ _ G) in ET; apply bind_bug in H; destruct H as [H|(x & _ & H)]; [refine (N1 _ _ H); exact (proj1 ET)|discriminate]).
Qed.
Lemma jcopies_nb : forall n len j, no_bug ov -> vgood (j_target j) -> jwf j -> jcopies ov n len j <> Bug.
Proof.
  induction n as [|n IH]; intros len j NB G W H; cbn [jcopies] in H; [discriminate|]. apply bind_bug in H. destruct H as [H|([j1 b] & E & H)]; [exact (jbytes_nb _ _ NB G W H)|].
  destruct (jbytes_form _ _ _ _ W E) as (t & x & AD & _ & -> & _). apply (add_delta_good _ _ G) in AD. apply bind_bug in H. destruct H as [H|(y & _ & H)]; [|discriminate]. exact (IH _ (set_target (with_size (8 * (if is_short (j_sel j) then 1 else near_size j)) t) j) NB (proj1 AD) W H).
Qed.
(** at most one span, at most one expansion *)
Theorem jmp_no_bug : forall local j j1 len1 sp, jmp_ok j -> vgood (j_target j) -> jmp_calc_len local j = Ok (j1, len1, sp) -> (length sp <= 1)%nat /\ 
  forall ids, ids = [] \/ ids = map span_id sp -> jexpansions ids j1 len1 <> Bug /\ forall j2 len n, no_bug ov -> jexpansions ids j1 len1 = Ok (j2, len) -> jcopies ov n len j2 <> Bug.
Proof.
  intros local j j1 len1 sp OK G H. destruct (jmp_calc_ok _ _ _ _ _ OK H) as (W & L & S & F & _ & _ & _ & T1 & SP). split; auto. intros ids I.
  assert (NE : ids <> [] -> sp <> []) by (intros Q ->; cbn in I; tauto).
  assert (F1 : Forall (eq 1) ids) by (destruct I as [->| ->]; [constructor|]; apply Forall_forall; intros k K; apply in_map_iff in K; destruct K as (s & <- & K); rewrite Forall_forall in F; symmetry; auto).
  split.
  - assert (LI : (length ids <= 1)%nat) by (destruct I as [->| ->]; [cbn; lia|rewrite map_length; auto]). destruct ids as [|k [|]]; [discriminate| |cbn in LI; lia]. cbn [jexpansions].
    inversion F1; subst k. intros Q. apply bind_bug in Q. destruct Q as [Q|([a b] & _ & Q)]; [|discriminate]. unfold jmp_expand in Q. cbn [Z.eqb Pos.eqb negb] in Q. ifd Q; [discriminate|]. specialize (S (NE ltac:(discriminate))). destruct (j_sel j1); discriminate.
  - intros j2 len n NB X. destruct (jexpansions_ok _ _ _ _ _ W L (fun Q => S (NE Q)) F1 X) as (W2 & _ & _ & _ & _ & T2 & _). apply jcopies_nb; auto. rewrite T2, T1. exact G.
Qed.
End Land.

Section Target.
Variables (nequ : nat) (equ : Z -> option expr) (label : Z -> option Z) (sect : Z -> Z) (dist : Z -> Z -> option intnum).
Variables (E : env) (place : Z -> option Z) (start s T : Z).
Hypothesis SD : forall s d, equ s = Some d -> shaped (eitem d).
Hypothesis EL : env_labels label E.
Hypothesis ED : env_dist dist E.
Hypothesis EE : env_equ equ E.
Hypothesis PL : place s = Some T.
Hypothesis NEAR : - 2 ^ 31 < T - start < 2 ^ 31.
Notation ov := (output_basic nequ equ label sect dist place start).
(** the target, modulo 2^256 *)
Definition tgt (v : M_X86.value) (z : Z) : Prop :=
  v_rel v = Some s /\ v_curpos v = true /\
  match v_abs v with None => z mod 2 ^ 256 = 0 | Some e => good (eitem e) /\ exists y, eval E e = Some (VNum y) /\ y mod 2 ^ 256 = z mod 2 ^ 256 end.
Lemma wrap_mod : forall x, wrap256 x mod 2 ^ 256 = x mod 2 ^ 256.
Proof. intros x. unfold wrap256. rewrite Zminus_mod_idemp_l. f_equal. lia. Qed.
Lemma canon_small : forall x, - 2 ^ 31 < x < 2 ^ 31 -> canon (IL x).
Proof. intros x H. cbn. lia. Qed.
Lemma eval_add : forall e a b, eval E e = Some (VNum a) -> - 2 ^ 31 < b < 2 ^ 31 -> eval E (ADD, [TExpr (fst e) (snd e); TInt (IL b)]) = Some (VNum (wrap256 (a + b))).
Proof.
  intros e a b H R. unfold eval in *. cbn [fst snd]. cbn [ev map]. cbn [ev] in H. 
  assert (CB : canonb (IL b) = true) by (cbn [canonb]; apply andb_true_iff; split; apply Z.ltb_lt; lia). rewrite CB. cbn [ival all]. rewrite H. reflexivity.
Qed.
Lemma delta_tgt : forall len v v' z, 0 <= len < 2 ^ 31 -> tgt v z -> add_delta (- len) v = Ok v' -> tgt v' (z - len) /\ v_size v' = v_size v.
Proof.
  intros len v v' z R (T1 & T2 & T3) H. split; [|exact (delta_size _ _ _ H)]. unfold add_delta, create_int in H. destruct (v_abs v) as [e|] eqn:A.
  - destruct T3 as (G & y & V & M). destruct (create_ok ADD (TExpr (fst e) (snd e)) (Some (TInt (IL (- len)))) G Logic.I (le_n 2) ltac:(discriminate)) as (e' & C & G' & K).
    rewrite C in H. apply ok_inj in H. subst v'. split; [exact T1|split; [exact T2|]]. cbn [with_abs v_abs]. split; auto. exists (wrap256 (y + - len)). split.
    + apply K. apply eval_add; auto. lia.
    + rewrite wrap_mod. rewrite <- Zplus_mod_idemp_l, M, Zplus_mod_idemp_l. reflexivity.
  - apply ok_inj in H. subst v'. split; [exact T1|split; [exact T2|]]. cbn [with_abs v_abs]. split.
    + apply good_expr. split; [reflexivity|]. split; [discriminate|]. repeat constructor.
    + exists (- len). split; [|rewrite <- Zminus_mod_idemp_l, T3; f_equal; lia]. unfold eval. cbn [ev map fst snd].
      assert (CB : canonb (IL (- len)) = true) by (cbn [canonb]; apply andb_true_iff; split; apply Z.ltb_lt; lia). rewrite CB. reflexivity.
Qed.
Lemma result_fst : forall r m, result r m -> canon (fst (fst r)) /\ ival (fst (fst r)) = m.
Proof. intros r m (i & -> & C & V). auto. Qed.
Lemma ov_tgt : forall v z x, tgt v z -> ov v = Ok x -> x mod 2 ^ 256 = (T - start + z) mod 2 ^ 256.
Proof.
  intros v z x (T1 & T2 & T3) H. unfold output_basic in H. bok H. rewrite T1, PL, T2 in H. cbn [negb] in H. cbv zeta in H. apply ok_inj in H.
  set (d := if T <? start then _ else _) in H.
  assert (D : canon d /\ ival d = T - start).
  { unfold d. unfold create_uint, LONG_MAX. destruct (Z.ltb_spec T start).
    - destruct (Z.ltb_spec 9223372036854775807 (start - T)); [lia|]. pose proof (calc_unary scratch (IL (start - T)) NEG (- (start - T)) (canon_small (start - T) ltac:(lia)) (or_introl eq_refl) eq_refl) as (r & -> & C & V).
      split; [exact C|]. cbn [fst]. rewrite V. rewrite wrap_id by (assert (2 ^ 31 < 2 ^ 255) by reflexivity; lia). lia.
    - destruct (Z.ltb_spec 9223372036854775807 (T - start)); [lia|]. split; [apply canon_small; lia|reflexivity]. }
  destruct D as [D1 D2]. destruct (v_abs v) as [e|].
  - destruct T3 as (G & y & V & M). match type of E0 with match ?g with _ => _ end = _ => destruct g as [[n|]| |] eqn:GI end; try discriminate E0. apply ok_inj in E0. subst p.
    destruct (get_intnum_ok _ _ _ _ _ _ _ _ SD GI E (VNum y) (fun _ => conj EL ED) EE V) as (C & Vn). injection Vn as ->. apply canonb_ok in C.
    pose proof (calc_ok scratch d ADD n (ival d + ival n) D1 C eq_refl ltac:(discriminate)) as R. apply result_fst in R. destruct R as [_ R]. rewrite <- H, R, wrap_mod, D2.
    rewrite <- Zplus_mod_idemp_r, M, Zplus_mod_idemp_r. reflexivity.
  - apply ok_inj in E0. subst p. rewrite <- H, D2, <- Zplus_mod_idemp_r, T3. f_equal. lia.
Qed.
Lemma jcopies_tgt : forall n j bss z k b, jwf j -> tgt (j_target j) z -> jcopies ov n (jsize j) j = Ok bss -> nth_error bss k = Some b ->
  exists d, encodes j b (is_short (j_sel j)) (if is_short (j_sel j) then 1 else near_size j) d /\
    d = (T - start + z - (Z.of_nat k + 1) * jsize j) mod 2 ^ (8 * (if is_short (j_sel j) then 1 else near_size j)).
Proof.
  induction n as [|n IH]; intros j bss z k b W TG H K; cbn [jcopies] in H; [apply ok_inj in H; subst bss; destruct k; discriminate|].
  bok H. destruct p as [j1 b1]. bok H. apply ok_inj in H. subst bss. destruct (jbytes_form _ _ _ _ _ W E0) as (t & x & AD & OV & Ej & Eb). clear E0.
  destruct (delta_tgt (jsize j) (j_target j) t z ltac:(pose proof (jsize_pos j W); lia) TG AD) as [TG1 _].
  set (w := if is_short (j_sel j) then 1 else near_size j) in *.
  assert (WP : w = 1 \/ w = 2 \/ w = 4) by (unfold w, near_size; match goal with |- context[is_short ?q] => destruct (is_short q) end; [left; reflexivity|]; match goal with |- context[?q =? 16] => destruct (q =? 16) end; auto).
  assert (TG2 : tgt (with_size (8 * w) t) (z - jsize j)) by exact TG1. destruct k as [|k]; cbn [nth_error] in K.
  - injection K as ->. exists (unle (le (Z.to_nat w) x)). split.
    + exists (common_bytes (j_common j) 0), (le (Z.to_nat w) x). rewrite le_length. split; [exact Eb|]. split; [apply Z2Nat.id; lia|]. split; auto. split; [apply le_bytes|reflexivity].
    + pose proof (ov_tgt _ _ _ TG2 OV) as X. rewrite unle_le, Z2Nat.id by lia.
      assert (PW : 256 ^ w = 2 ^ (8 * w)) by (destruct WP as [->|[->| ->]]; reflexivity). rewrite PW.
      assert (DV : 2 ^ 256 = 2 ^ (256 - 8 * w) * 2 ^ (8 * w)) by (rewrite <- Z.pow_add_r by lia; f_equal; lia).
      assert (P0 : 0 < 2 ^ (8 * w)) by (apply Z.pow_pos_nonneg; lia). assert (P1 : 0 < 2 ^ (256 - 8 * w)) by (apply Z.pow_pos_nonneg; lia).
      assert (MM : forall y, (y mod 2 ^ 256) mod 2 ^ (8 * w) = y mod 2 ^ (8 * w)) by (intros y; symmetry; apply Znumtheory.Zmod_div_mod; [lia|reflexivity|exists (2 ^ (256 - 8 * w)); exact DV]).
      rewrite <- MM, X, MM. f_equal. lia.
  - subst j1. assert (W' : jwf (set_target (with_size (8 * w) t) j)) by exact W.
    destruct (IH _ _ _ _ _ W' TG2 E1 K) as (d & X & Y). exists d. split; [exact X|].
    change (jsize (set_target (with_size (8 * w) t) j)) with (jsize j) in Y. change (is_short (j_sel (set_target (with_size (8 * w) t) j))) with (is_short (j_sel j)) in Y. change (near_size (set_target (with_size (8 * w) t) j)) with (near_size j) in Y. fold w in Y.
    rewrite Y. f_equal. lia.
Qed.
Lemma target_tgt : forall v z, target E v s z -> tgt v z.
Proof. intros v z (A & B & C). split; [exact A|split; [exact B|]]. destruct (v_abs v) as [e|]; [destruct C as [G V]; split; auto; exists z; auto|subst z; reflexivity]. Qed.
Lemma signed_exact : forall w x, 1 <= w -> - 2 ^ (8 * w - 1) <= x < 2 ^ (8 * w - 1) -> signed w (x mod 2 ^ (8 * w)) = x.
Proof.
  intros w x W R. unfold signed. assert (P : 2 ^ (8 * w) = 2 * 2 ^ (8 * w - 1)) by (rewrite <- Z.pow_succ_r by lia; f_equal; lia).
  rewrite Zplus_mod_idemp_l, Z.mod_small by lia. lia.
Qed.
Theorem jmp_lands : forall local j j1 len1 sp ids j2 len n bss z k b, jmp_ok j -> target E (j_target j) s z -> jmp_calc_len local j = Ok (j1, len1, sp) -> incl ids (map span_id sp) ->
  jexpansions ids j1 len1 = Ok (j2, len) -> jcopies ov n len j2 = Ok bss -> nth_error bss k = Some b ->
  exists short w d, encodes j b short w d /\
    (start + (Z.of_nat k + 1) * len + d) mod 2 ^ (8 * w) = (T + z) mod 2 ^ (8 * w) /\
    (- 2 ^ (8 * w - 1) <= T + z - (start + (Z.of_nat k + 1) * len) < 2 ^ (8 * w - 1) -> start + (Z.of_nat k + 1) * len + signed w d = T + z) /\
    (short = true -> ids = []).
Proof.
  intros local j j1 len1 sp ids j2 len n bss z k b OK TG H I X C K. destruct (jmp_calc_ok _ _ _ _ _ OK H) as (W & -> & S & F & C1 & S1 & N1 & T1 & _).
  assert (NE : ids <> [] -> sp <> []) by (intros Q ->; destruct ids; [congruence|]; exact (I z0 (or_introl eq_refl))).
  assert (F1 : Forall (eq 1) ids) by (apply Forall_forall; intros q Q; apply I in Q; apply in_map_iff in Q; destruct Q as (r & <- & Q); rewrite Forall_forall in F; symmetry; auto).
  destruct (jexpansions_ok _ _ _ _ _ W eq_refl (fun Q => S (NE Q)) F1 X) as (W2 & -> & C2 & S2 & N2 & T2 & E2).
  assert (TG2 : tgt (j_target j2) z) by (rewrite T2, T1; apply target_tgt; auto).
  destruct (jcopies_tgt _ _ _ _ _ _ W2 TG2 C K) as (d & EN & D). set (w := if is_short (j_sel j2) then 1 else near_size j2) in *.
  assert (WP : w = 1 \/ w = 2 \/ w = 4) by (unfold w, near_size; match goal with |- context[is_short ?q] => destruct (is_short q) end; [left; reflexivity|]; match goal with |- context[?q =? 16] => destruct (q =? 16) end; auto).
  exists (is_short (j_sel j2)), w, d. split; [|split; [|split]].
  - destruct EN as (pre & ds & B1 & B2 & B3 & B4 & B5). exists pre, ds. rewrite S2, N2, S1, N1 in B1. rewrite (near_size_eq j1 j2 C2), (near_size_eq j j1 C1) in B5. auto.
  - rewrite D, Zplus_mod_idemp_r. f_equal. lia.
  - intros R. rewrite D. replace (T - start + z - (Z.of_nat k + 1) * jsize j2) with (T + z - (start + (Z.of_nat k + 1) * jsize j2)) by lia.
    rewrite signed_exact by lia. lia.
  - intros Q. destruct ids as [|q r]; auto. exfalso. inversion F1 as [|? ? <- F2]; subst. cbn [jexpansions] in X. bok X. destruct p as [j3 l3]. 
    apply jmp_expand_ok in E0; auto; [|apply S, NE; discriminate]. destruct E0 as (X1 & X2 & X3 & _). destruct r as [|q2 r]; [cbn [jexpansions] in X; apply ok_inj in X; injection X as <- _; rewrite X3 in Q; discriminate Q|].
    inversion F2 as [|? ? <- F3]; subst. cbn [jexpansions] in X. bok X. unfold jmp_expand in E0. cbn [Z.eqb Pos.eqb negb] in E0. rewrite X3 in E0. ifd E0; discriminate.
Qed.
End Target.
(** The span is satisfied just when the displacement of the first copy fits a signed byte. *)
Theorem jmp_span : forall local j j1 len1 sp, jmp_ok j -> jmp_calc_len local j = Ok (j1, len1, sp) ->
  forall id v lo hi x, In (id, v, lo, hi) sp -> v = j_target j /\ (lo <= x <= hi <-> -128 <= x - len1 <= 127).
Proof.
  intros local j j1 len1 sp OK H id v lo hi x I. unfold jmp_calc_len in H. cbv zeta in H. ifd H; [ifd H; [discriminate|]; apply ok_inj in H; injection H as _ _ <-; destruct I|].
  ifd H; [ifd H; apply ok_inj in H; injection H as _ _ <-; destruct I|]. apply ok_inj in H. apply pair_inj in H. destruct H as [H <-]. apply pair_inj in H. destruct H as [_ <-]. destruct I as [I|[]]. apply pair_inj in I. destruct I as [I <-]. apply pair_inj in I. destruct I as [I <-]. apply pair_inj in I. destruct I as [_ <-].
  split; [destruct (is_none _); reflexivity|]. lia.
Qed.
