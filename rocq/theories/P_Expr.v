(** Specification of expression values and proofs for levelling one node (C30). *)
From Coq Require Import ZArith List Bool Lia Permutation Arith.
From Verif Require Import Lib M_BitVect P_BitVect P_BitVectIO M_Intnum P_Intnum M_Expr.
Import ListNotations.
Open Scope Z_scope.

(** * Specification *)
(** A value is a 256-bit signed integer or a segment:offset pair. *)
Inductive value := VNum (z : Z) | VPair (seg off : Z).
(** What registers, symbols, bytecodes and substitution placeholders stand for; SEG and WRT of plain
    numbers are arbitrary functions. *)
Record env := Env { reg : Z -> Z; sub : Z -> Z; bcv : Z -> Z; symv : Z -> option value; segf : Z -> Z; wrtf : Z -> Z -> Z }.
Definition canonb (i : intnum) : bool :=
  match i with
  | IL l => (- 2 ^ 31 <? l) && (l <? 2 ^ 31)
  | IB v => wfb v && (bits v =? 256) && negb ((- 2 ^ 31 <? sval v) && (sval v <? 2 ^ 31))
  end.
(** One step of an operator that takes any number of operands. *)
Definition comb (o : op) (a b : Z) : Z :=
  match o with
  | ADD => wrap256 (a + b) | MUL => wrap256 (a * b)
  | OR => Z.lor a b | AND => Z.land a b | XOR => Z.lxor a b
  | LOR => truth (nzb a || nzb b) | LAND => truth (nzb a && nzb b) | LXOR => truth (xorb (nzb a) (nzb b))
  | _ => 0
  end.
Definition prod (zs : list Z) : Z := fold_right Z.mul 1 zs.
Definition boolz (z : Z) : bool := (z =? 0) || (z =? 1).
(** Operands on which the operator is taken to be meaningful: a product must not overflow 256 bits;
    the operands of && and || must be 0 or 1. *)
Definition domb (o : op) (zs : list Z) : bool :=
  match o with
  | MUL => existsb (Z.eqb 0) zs || (Z.abs (prod zs) <? 2 ^ 255)
           || ((Z.abs (prod zs) =? 2 ^ 255) && existsb (fun z => Z.abs z =? 2 ^ 255) zs)
  | LOR | LAND => forallb boolz zs
  | _ => true
  end.
Definition asem (o : op) (zs : list Z) : option Z :=
  match zs with
  | [] => None
  | a :: r => if domb o zs then Some (fold_left (comb o) r a) else None
  end.
Fixpoint nums (vs : list value) : option (list Z) :=
  match vs with
  | [] => Some []
  | VNum z :: r => match nums r with Some l => Some (z :: l) | None => None end
  | _ => None
  end.
Definition unary (o : op) : bool := match o with NEG | NOT | LNOT => true | _ => false end.
Definition opsem (E : env) (o : op) (vs : list value) : option value :=
  match o with
  | IDENT => match vs with [v] => Some v | _ => None end
  | SEG => match vs with [VPair a _] => Some (VNum a) | [VNum a] => Some (VNum (wrap256 (segf E a))) | _ => None end
  | WRT => match vs with [VNum a; VNum b] => Some (VNum (wrap256 (wrtf E a b))) | _ => None end
  | SEGOFF => match vs with [VNum a; VNum b] => Some (VPair a b) | _ => None end
  | _ =>
      match nums vs with
      | None => None
      | Some zs =>
          if nary o then
            match zs with _ :: _ :: _ => option_map VNum (asem o zs) | _ => None end
          else if unary o then
            match zs with [a] => option_map (fun m => VNum (wrap256 m)) (meaning o a 0) | _ => None end
          else
            match zs with [a; b] => option_map (fun m => VNum (wrap256 m)) (meaning o a b) | _ => None end
      end
  end.
Fixpoint all (l : list (option value)) : option (list value) :=
  match l with
  | [] => Some []
  | Some v :: r => match all r with Some vs => Some (v :: vs) | None => None end
  | None :: _ => None
  end.
Definition wrapv (v : value) : value :=
  match v with VNum z => VNum (wrap256 z) | VPair a b => VPair (wrap256 a) (wrap256 b) end.
(** The value of a term, if it has one. *)
Fixpoint ev (E : env) (t : item) : option value :=
  match t with
  | TNone | TFloat _ _ => None
  | TReg r => Some (VNum (wrap256 (reg E r)))
  | TInt n => if canonb n then Some (VNum (ival n)) else None
  | TSubst k => Some (VNum (wrap256 (sub E k)))
  | TSym s => option_map wrapv (symv E s)
  | TPrecbc b => Some (VNum (wrap256 (bcv E b)))
  | TExpr o ts => match all (map (ev E) ts) with Some vs => opsem E o vs | None => None end
  end.
Definition eval (E : env) (e : expr) : option value := ev E (TExpr (fst e) (snd e)).

(** * Integers *)
Definition R (z : Z) : Prop := - 2 ^ 255 <= z < 2 ^ 255.
Lemma R_wrap : forall z, R (wrap256 z).
Proof.
  intros z. unfold R, wrap256. pose proof (Z.mod_pos_bound (z + 2 ^ 255) (2 ^ 256) ltac:(reflexivity)) as B. change (2 ^ 256) with (2 * 2 ^ 255) in *. lia.
Qed.
Lemma R_small : forall z, - 2 ^ 200 <= z <= 2 ^ 200 -> R z.
Proof. intros z H. unfold R. assert (2 ^ 200 < 2 ^ 255) by reflexivity. lia. Qed.
Lemma canonb_ok : forall n, canonb n = true <-> canon n.
Proof.
  intros [l|v]; cbn [canonb canon].
  - rewrite andb_true_iff, !Z.ltb_lt. tauto.
  - rewrite !andb_true_iff, negb_true_iff, andb_false_iff, !Z.ltb_ge, Z.eqb_eq. split.
    + intros [[A B] C]. split; [apply wfb_ok; auto|]. split; auto. lia.
    + intros (A & B & C). split; [split; auto|lia]. destruct A as (A1 & A2 & A3 & A4). unfold wfb. rewrite !andb_true_iff, forallb_forall. repeat split; try lia.
      intros w I. rewrite Forall_forall in A3. specialize (A3 w I). unfold word in A3. rewrite andb_true_iff. lia.
Qed.
Lemma canon_R : forall n, canon n -> R (ival n).
Proof.
  intros n C. destruct (tobv_ok n C) as [V1 E1]. rewrite <- E1. apply (V_cases _ V1).
Qed.
Lemma is_zero_ok : forall n, canon n -> is_zero n = (ival n =? 0).
Proof. intros [l|v] C; cbn [is_zero ival canon] in *; auto. destruct C as (_ & _ & C). symmetry. apply Z.eqb_neq. lia. Qed.
Lemma is_pos1_ok : forall n, canon n -> is_pos1 n = (ival n =? 1).
Proof. intros [l|v] C; cbn [is_pos1 ival canon] in *; auto. destruct C as (_ & _ & C). symmetry. apply Z.eqb_neq. lia. Qed.
Lemma is_neg1_ok : forall n, canon n -> is_neg1 n = (ival n =? -1).
Proof. intros [l|v] C; cbn [is_neg1 ival canon] in *; auto. destruct C as (_ & _ & C). symmetry. apply Z.eqb_neq. lia. Qed.

Lemma ical_ok : forall a o b m, canon a -> canon b -> meaning o (ival a) (ival b) = Some m -> (o = MUL -> mul_safe (ival a) (ival b)) ->
  canon (ical a o (Some b)) /\ ival (ical a o (Some b)) = wrap256 m.
Proof.
  intros a o b m Ca Cb M S. destruct (calc_ok scratch a o b m Ca Cb M S) as (i & E & C & I). unfold ical. rewrite E. auto.
Qed.
Lemma ical_mul : forall a b, canon a -> canon b -> canon (ical a MUL (Some b)).
Proof.
  intros a b Ca Cb. unfold ical, calc. cbn [fst]. destruct (tobv_ok a Ca) as [Va _]. destruct (tobv_ok b Cb) as [Vb _]. destruct V_scratch as [[Ws Bs] _].
  destruct (Multiply_ok scratch (tobv a) (tobv b) Ws (proj1 Va) (proj1 Vb)) as (r & e & E & A1 & A2 & _); [destruct Va; congruence|destruct Va, Vb; congruence|].
  rewrite E. cbn [fst]. apply frombv_ok. split; congruence.
Qed.
Lemma ical_un : forall a o m, canon a -> unary o = true -> meaning o (ival a) 0 = Some m ->
  canon (ical a o None) /\ ival (ical a o None) = wrap256 m.
Proof.
  intros a o m Ca U M. destruct (calc_ok scratch a o a m Ca Ca) as (i & E & C & I).
  - destruct o; try discriminate U; exact M.
  - intros ->. discriminate U.
  - unfold ical. destruct o; try discriminate U; unfold calc in *; cbn [fst] in *; injection E as E; rewrite E; auto.
Qed.
Lemma lnot_R : forall a b, R a -> R b -> R (Z.lor a b) /\ R (Z.land a b) /\ R (Z.lxor a b).
Proof.
  assert (K : forall z, R z <-> (Z.shiftr z 255 = 0 \/ Z.shiftr z 255 = -1)).
  { intros z. rewrite <- (fits_shiftr 256 z) by lia. reflexivity. }
  intros a b Ha Hb. rewrite K in Ha, Hb |- *. rewrite !K. rewrite Z.shiftr_lor, Z.shiftr_land, Z.shiftr_lxor.
  destruct Ha as [-> | ->], Hb as [-> | ->]; cbn; auto.
Qed.
Lemma truth_R : forall c, R (truth c).
Proof. intros []; apply R_small; cbn; lia. Qed.
Lemma comb_R : forall o a b, R a -> R b -> R (comb o a b).
Proof.
  intros o a b Ha Hb. destruct (lnot_R a b Ha Hb) as (A & B & C). destruct o; cbn [comb]; auto using R_wrap, truth_R; apply R_small; lia.
Qed.
Lemma comb_meaning : forall o a b, nary o = true -> R a -> R b -> exists m, meaning o a b = Some m /\ wrap256 m = comb o a b.
Proof.
  intros o a b N Ha Hb. destruct (lnot_R a b Ha Hb) as (A & B & C). pose proof truth_R as T. destruct o; try discriminate N; cbn [meaning comb]; eexists; split; try reflexivity; try (apply wrap_id; auto; apply T).
Qed.

(** * The operators are commutative semigroups *)
Lemma wrap_mod : forall a, wrap256 a mod 2 ^ 256 = a mod 2 ^ 256.
Proof. intros a. apply opair. apply wrap_id. apply R_wrap. Qed.
Lemma wrap_add_l : forall a b, wrap256 (wrap256 a + b) = wrap256 (a + b).
Proof. intros. apply opair. rewrite <- Zplus_mod_idemp_l, wrap_mod, Zplus_mod_idemp_l. reflexivity. Qed.
Lemma wrap_add_r : forall a b, wrap256 (a + wrap256 b) = wrap256 (a + b).
Proof. intros. rewrite Z.add_comm, wrap_add_l, Z.add_comm. reflexivity. Qed.
Lemma wrap_mul_l : forall a b, wrap256 (wrap256 a * b) = wrap256 (a * b).
Proof. intros. apply opair. rewrite <- Zmult_mod_idemp_l, wrap_mod, Zmult_mod_idemp_l. reflexivity. Qed.
Lemma wrap_mul_r : forall a b, wrap256 (a * wrap256 b) = wrap256 (a * b).
Proof. intros. rewrite Z.mul_comm, wrap_mul_l, Z.mul_comm. reflexivity. Qed.
Lemma wrap_opp : forall a, wrap256 (- wrap256 a) = wrap256 (- a).
Proof. intros. replace (- wrap256 a) with (-1 * wrap256 a) by lia. rewrite wrap_mul_r. f_equal; lia. Qed.
Lemma nzb_truth : forall c, nzb (truth c) = c. Proof. intros []; reflexivity. Qed.
Lemma comb_comm : forall o a b, comb o a b = comb o b a.
Proof.
  intros o a b. destruct o; cbn [comb]; auto using Z.lor_comm, Z.land_comm, Z.lxor_comm.
  - f_equal; lia.
  - f_equal; lia.
  - rewrite orb_comm. auto.
  - rewrite andb_comm. auto.
  - rewrite xorb_comm. auto.
Qed.
Lemma comb_assoc : forall o a b c, comb o (comb o a b) c = comb o a (comb o b c).
Proof.
  intros o a b c. destruct o; cbn [comb]; auto; rewrite ?nzb_truth.
  - rewrite wrap_add_l, wrap_add_r, Z.add_assoc. auto.
  - rewrite wrap_mul_l, wrap_mul_r, Z.mul_assoc. auto.
  - rewrite Z.lor_assoc. auto.
  - rewrite Z.land_assoc. auto.
  - rewrite Z.lxor_assoc. auto.
  - rewrite orb_assoc. auto.
  - rewrite andb_assoc. auto.
  - rewrite xorb_assoc. auto.
Qed.
Lemma fl_cons : forall o r a b, fold_left (comb o) (b :: r) a = comb o a (fold_left (comb o) r b).
Proof.
  intros o r. induction r as [|c r IH]; intros a b; auto.
  cbn [fold_left]. rewrite comb_assoc. exact (IH a (comb o b c)).
Qed.
Definition fl (o : op) (l : list Z) : Z := match l with [] => 0 | a :: r => fold_left (comb o) r a end.
Lemma fl_cons2 : forall o a b r, fl o (a :: b :: r) = comb o a (fl o (b :: r)).
Proof. intros. apply fl_cons. Qed.
Lemma fl_perm : forall o l l', Permutation l l' -> fl o l = fl o l'.
Proof.
  intros o l l' P. induction P as [|x l l' P IH|x y l|l l1 l2 P1 IH1 P2 IH2]; auto; try congruence.
  - destruct l as [|a l].
    + apply Permutation_nil in P. subst. auto.
    + destruct l' as [|b l']; [symmetry in P; apply Permutation_nil in P; discriminate|]. rewrite !fl_cons2. congruence.
  - cbn [fl fold_left]. rewrite (comb_comm o y x). auto.
Qed.
Lemma fl_app : forall o a l b l', fl o ((a :: l) ++ b :: l') = comb o (fl o (a :: l)) (fl o (b :: l')).
Proof.
  intros o a l. revert a. induction l as [|c l IH]; intros a b l'.
  - cbn [app]. apply fl_cons2.
  - change ((a :: c :: l) ++ b :: l') with (a :: c :: (l ++ b :: l')). rewrite fl_cons2. change (c :: l ++ b :: l') with ((c :: l) ++ b :: l'). rewrite IH, fl_cons2, comb_assoc. auto.
Qed.
Lemma fl_R : forall o l, Forall R l -> R (fl o l).
Proof.
  intros o [|a l] F; [apply R_small; cbn; lia|]. revert a F. induction l as [|b l IH]; intros a F; [inversion F; auto|].
  rewrite fl_cons2. inversion F; subst. apply comb_R; auto.
Qed.
Lemma fl_add : forall l, Forall R l -> fl ADD l = wrap256 (fold_right Z.add 0 l).
Proof.
  intros [|a l] F; [reflexivity|]. revert a F. induction l as [|b l IH]; intros a F.
  - cbn. rewrite Z.add_0_r. symmetry. apply wrap_id. inversion F; auto.
  - rewrite fl_cons2, IH by (inversion F; auto). cbn [comb]. rewrite wrap_add_r. reflexivity.
Qed.
Lemma fl_mul : forall l, Forall R l -> l <> [] -> fl MUL l = wrap256 (prod l).
Proof.
  intros [|a l] F N; [congruence|]. clear N. revert a F. induction l as [|b l IH]; intros a F.
  - cbn. rewrite Z.mul_1_r. symmetry. apply wrap_id. inversion F; auto.
  - rewrite fl_cons2, IH by (inversion F; auto). cbn [comb]. rewrite wrap_mul_r. reflexivity.
Qed.
Lemma prod_perm : forall l l', Permutation l l' -> prod l = prod l'.
Proof. intros l l' P. induction P; unfold prod in *; cbn [fold_right] in *; auto; try congruence. lia. Qed.
Lemma prod_app : forall l l', prod (l ++ l') = prod l * prod l'.
Proof.
  induction l as [|a l IH]; intros l'.
  - change (prod [] * prod l') with (1 * prod l'). rewrite Z.mul_1_l. reflexivity.
  - change (prod ((a :: l) ++ l')) with (a * prod (l ++ l')). change (prod (a :: l)) with (a * prod l). rewrite IH. lia.
Qed.
Lemma prod_zero : forall l, existsb (Z.eqb 0) l = true <-> prod l = 0.
Proof.
  induction l as [|a l IH]; cbn [existsb]; [split; discriminate|]. change (prod (a :: l)) with (a * prod l). rewrite orb_true_iff, IH, Z.eqb_eq, Z.mul_eq_0. intuition.
Qed.
Lemma existsb_perm : forall A (f : A -> bool) l l', Permutation l l' -> existsb f l = existsb f l'.
Proof. intros A f l l' P. induction P; cbn [existsb]; try congruence. rewrite !orb_assoc, (orb_comm (f y)). auto. Qed.
Lemma forallb_perm : forall A (f : A -> bool) l l', Permutation l l' -> forallb f l = forallb f l'.
Proof. intros A f l l' P. induction P; cbn [forallb]; try congruence. rewrite !andb_assoc, (andb_comm (f y)). auto. Qed.
Lemma domb_perm : forall o l l', Permutation l l' -> domb o l = domb o l'.
Proof.
  intros o l l' P. destruct o; cbn [domb]; auto using forallb_perm. rewrite (prod_perm _ _ P), (existsb_perm _ (Z.eqb 0) _ _ P), (existsb_perm _ (fun z => Z.abs z =? 2 ^ 255) _ _ P). auto.
Qed.
Lemma asem_fl : forall o l v, asem o l = Some v <-> l <> [] /\ domb o l = true /\ fl o l = v.
Proof.
  intros o [|a l] v; cbn [asem]; [split; [discriminate|intros [H _]; congruence]|]. change (fold_left (comb o) l a) with (fl o (a :: l)). destruct (domb o (a :: l)); split; intros H; try discriminate.
  - injection H as <-. split; [discriminate|auto].
  - destruct H as (_ & _ & ->). auto.
  - destruct H as (_ & H & _). discriminate.
Qed.
Lemma asem_perm : forall o l l', Permutation l l' -> asem o l = asem o l'.
Proof.
  intros o l l' P. destruct l as [|a l].
  - apply Permutation_nil in P. subst. auto.
  - destruct l' as [|b l']; [symmetry in P; apply Permutation_nil in P; discriminate|]. pose proof (domb_perm o _ _ P) as D. pose proof (fl_perm o _ _ P) as F. cbn [asem]. rewrite D. unfold fl in F. rewrite F. auto.
Qed.

(** The condition on products, as a proposition. *)
Lemma domb_mul : forall l, domb MUL l = true <-> prod l = 0 \/ Z.abs (prod l) < 2 ^ 255 \/ (Z.abs (prod l) = 2 ^ 255 /\ exists z, In z l /\ Z.abs z = 2 ^ 255).
Proof.
  intros l. cbn [domb]. rewrite !orb_true_iff, andb_true_iff, prod_zero, Z.ltb_lt, Z.eqb_eq, existsb_exists. split.
  - intros [[H|H]|[H (z & I & E)]]; auto. right. right. split; auto. exists z. apply Z.eqb_eq in E. auto.
  - intros [H|[H|[H (z & I & E)]]]; auto. right. split; auto. exists z. rewrite Z.eqb_eq. auto.
Qed.
Lemma abs_wrap : forall p, Z.abs p <= 2 ^ 255 -> Z.abs (wrap256 p) = Z.abs p.
Proof.
  intros p H. destruct (Z.eq_dec p (2 ^ 255)) as [->|N]; [vm_compute; reflexivity|]. rewrite wrap_id by lia. auto.
Qed.
Lemma dom_sub : forall l r, Forall R l -> domb MUL (fl MUL l :: r) = true -> l <> [] -> domb MUL l = true -> domb MUL (l ++ r) = true.
Proof.
  intros l r F D N DL. rewrite domb_mul in *. rewrite fl_mul in D by auto. rewrite prod_app. change (prod (wrap256 (prod l) :: r)) with (wrap256 (prod l) * prod r) in D.
  assert (B : prod l = 0 \/ Z.abs (prod l) <= 2 ^ 255) by lia. destruct (Z.eq_dec (prod l) 0) as [Z0|Z0]; [left; rewrite Z0; lia|]. destruct B as [B|B]; [lia|].
  assert (A : Z.abs (wrap256 (prod l) * prod r) = Z.abs (prod l * prod r)) by (rewrite !Z.abs_mul, abs_wrap; auto). rewrite A in D.
  destruct D as [D|[D|(D & z & I & Ez)]].
  - left. rewrite D in A. cbn in A. lia.
  - auto.
  - right. right. split; [auto|]. destruct I as [<-|I].
    + rewrite abs_wrap in Ez by auto. destruct DL as [DL|[DL|(_ & y & Iy & Ey)]]; try lia. exists y. split; auto. apply in_or_app. auto.
    + exists z. split; auto. apply in_or_app. auto.
Qed.
Lemma boolz_cases : forall z, boolz z = true <-> z = 0 \/ z = 1.
Proof. intros z. unfold boolz. rewrite orb_true_iff, !Z.eqb_eq. tauto. Qed.

(** Replacing an operand by its own operands. *)
Lemma asem_flat : forall o l x r v, nary o = true -> Forall R l -> asem o l = Some x -> asem o (x :: r) = Some v -> asem o (l ++ r) = Some v.
Proof.
  intros o l x r v N F A B. apply asem_fl in A. apply asem_fl in B. destruct A as (A1 & A2 & A3), B as (_ & B2 & B3). apply asem_fl. split; [destruct l; [congruence|discriminate]|]. split.
  - destruct o; try discriminate N; try reflexivity.
    + rewrite <- A3 in B2. apply dom_sub; auto.
    + cbn [domb] in *. rewrite forallb_app. cbn [forallb] in B2. apply andb_true_iff in B2. destruct B2 as [_ B2]. rewrite A2, B2. auto.
    + cbn [domb] in *. rewrite forallb_app. cbn [forallb] in B2. apply andb_true_iff in B2. destruct B2 as [_ B2]. rewrite A2, B2. auto.
  - destruct l as [|a l]; [congruence|]. destruct r as [|b r].
    + rewrite app_nil_r. cbn [fl fold_left] in B3. congruence.
    + rewrite fl_app, A3. rewrite fl_cons2 in B3. auto.
Qed.
(** Folding two integers. *)
Lemma asem_fold : forall o a b r v, nary o = true -> canon a -> canon b -> Forall R r -> asem o (ival a :: ival b :: r) = Some v ->
  let n := ical a o (Some b) in canon n /\ asem o (ival n :: r) = Some v.
Proof.
  intros o a b r v N Ca Cb F A n. pose proof (canon_R a Ca) as Ra. pose proof (canon_R b Cb) as Rb. apply asem_fl in A. destruct A as (_ & D & V1).
  destruct (comb_meaning o (ival a) (ival b) N Ra Rb) as (m & M & W).
  assert (K : (o = MUL -> mul_safe (ival a) (ival b)) -> canon n /\ ival n = comb o (ival a) (ival b)).
  { intros S. destruct (ical_ok a o b m Ca Cb M S) as [C1 C2]. split; auto. unfold n. rewrite C2. auto. }
  destruct (op_dec o MUL) as [->|NM].
  - clear N M W m. rewrite domb_mul in D. change (prod (ival a :: ival b :: r)) with (ival a * (ival b * prod r)) in D. set (x := ival a) in *. set (y := ival b) in *. set (p := prod r) in *.
    rewrite fl_mul in V1 by (try (constructor; auto); discriminate). change (prod (x :: y :: r)) with (x * (y * p)) in V1. rewrite Z.mul_assoc in D, V1.
    destruct (Z.eq_dec p 0) as [P0|P0].
    + assert (Cn : canon n) by (apply ical_mul; auto). split; auto. apply asem_fl. split; [discriminate|]. assert (Z0 : prod (ival n :: r) = 0) by (change (ival n * p = 0); rewrite P0; lia). split.
      * rewrite domb_mul, Z0. auto.
      * rewrite fl_mul by (try (constructor; auto using canon_R); discriminate). rewrite Z0, <- V1, P0, Z.mul_0_r. auto.
    + assert (S : mul_safe x y).
      { unfold mul_safe. destruct (Z.eq_dec (x * y) 0) as [Z0|Z0]; [left; rewrite Z0; reflexivity|]. rewrite Z.abs_mul in D. assert (1 <= Z.abs p) by lia. assert (G : Z.abs (x * y) <= Z.abs (x * y) * Z.abs p) by nia.
        destruct D as [D|[D|(D & z & I & Ez)]]; [nia|left; lia|].
        destruct I as [<-|[<-|I]].
        - right. left. split; auto. rewrite Z.abs_mul, Ez in D. assert (0 < 2 ^ 255) by reflexivity. nia.
        - right. right. split; auto. rewrite Z.abs_mul, Ez in D. assert (0 < 2 ^ 255) by reflexivity. nia.
        - left. assert (PZ : exists q, p = z * q). { apply in_split in I. destruct I as (r1 & r2 & ->). unfold p. rewrite prod_app. change (prod (z :: r2)) with (z * prod r2). exists (prod r1 * prod r2). lia. }
          destruct PZ as [q ->]. rewrite (Z.abs_mul z q), Ez in D. assert (0 < 2 ^ 255) by reflexivity. assert (q <> 0) by (intros ->; lia). assert (1 <= Z.abs q) by lia. assert (Z.abs (x * y) = 1) by nia. lia. }
      destruct (K (fun _ => S)) as [Cn En]. split; auto. apply asem_fl. split; [discriminate|]. cbn [comb] in En. change (comb MUL x y) with (wrap256 (x * y)) in En.
      assert (B : Z.abs (x * y) <= 2 ^ 255). { unfold mul_safe in S. destruct S as [S|[[S1 S2]|[S1 S2]]]; [lia| |]; rewrite Z.abs_mul, S1, S2; lia. }
      split.
      * rewrite domb_mul. change (prod (ival n :: r)) with (ival n * p). rewrite En. assert (AA : Z.abs (wrap256 (x * y) * p) = Z.abs (x * y * p)) by (rewrite (Z.abs_mul (wrap256 _)), (Z.abs_mul (x * y)), abs_wrap; auto).
        destruct D as [D|[D|(D & z & I & Ez)]].
        -- left. rewrite D in AA. lia.
        -- right. left. rewrite AA. auto.
        -- right. right. rewrite AA. split; auto. destruct I as [<-|[<-|I]].
           ++ exists (wrap256 (x * y)). split; [left; auto|]. rewrite abs_wrap by auto. assert (y <> 0) by (intros ->; rewrite Z.mul_0_r in D; cbn in D; lia). rewrite Z.abs_mul, Ez in B |- *. assert (0 < 2 ^ 255) by reflexivity. nia.
           ++ exists (wrap256 (x * y)). split; [left; auto|]. rewrite abs_wrap by auto. assert (x <> 0) by (intros ->; cbn in D; lia). rewrite Z.abs_mul, Ez in B |- *. assert (0 < 2 ^ 255) by reflexivity. nia.
           ++ exists z. split; [right; auto|auto].
      * rewrite fl_mul by (try (constructor; auto using canon_R); discriminate). change (prod (ival n :: r)) with (ival n * p). rewrite En, wrap_mul_l. auto.
  - destruct K as [Cn En]; [congruence|]. split; auto. apply asem_fl. split; [discriminate|]. rewrite En. split.
    + destruct o; try discriminate N; try congruence; auto.
      * cbn [domb forallb] in *. rewrite !andb_true_iff in D. destruct D as (D1 & D2 & D3). rewrite D3, andb_true_r. apply boolz_cases. cbn [comb]. unfold truth. destruct (_ || _); auto.
      * cbn [domb forallb] in *. rewrite !andb_true_iff in D. destruct D as (D1 & D2 & D3). rewrite D3, andb_true_r. apply boolz_cases. cbn [comb]. unfold truth. destruct (_ && _); auto.
    + destruct r; auto.
Qed.

(** * Values of terms *)
Lemma F2_length : forall A B (P : A -> B -> Prop) l l', Forall2 P l l' -> length l = length l'.
Proof. intros A B P l l' H. induction H; cbn [length]; auto. Qed.
Lemma item_ind2 : forall P : item -> Prop,
  P TNone -> (forall r, P (TReg r)) -> (forall n, P (TInt n)) -> (forall k, P (TSubst k)) -> (forall s f, P (TFloat s f)) ->
  (forall s, P (TSym s)) -> (forall b, P (TPrecbc b)) -> (forall o ts, Forall P ts -> P (TExpr o ts)) -> forall t, P t.
Proof.
  intros P H1 H2 H3 H4 H5 H6 H7 H8. fix IH 1. intros [|r|n|k|s f|s|b|o ts]; [exact H1|apply H2|apply H3|apply H4|apply H5|apply H6|apply H7|].
  apply H8. induction ts as [|t ts IHt]; constructor; auto.
Qed.
Definition evs (E : env) (ts : list item) (vs : list value) : Prop := Forall2 (fun t v => ev E t = Some v) ts vs.
Definition evn (E : env) (ts : list item) (zs : list Z) : Prop := Forall2 (fun t z => ev E t = Some (VNum z)) ts zs.
Lemma all_evs : forall E ts vs, all (map (ev E) ts) = Some vs <-> evs E ts vs.
Proof.
  intros E ts. induction ts as [|t ts IH]; intros vs; cbn [map all].
  - split; [intros H; injection H as <-; constructor|intros H; inversion H; auto].
  - destruct (ev E t) eqn:T.
    + destruct (all (map (ev E) ts)) eqn:A.
      * split; [intros H; injection H as <-; constructor; auto; apply IH; auto|]. intros H. inversion H as [|? ? ? l' H1 H2]; subst. apply IH in H2. congruence.
      * split; [discriminate|]. intros H. inversion H as [|? ? ? l' H1 H2]; subst. apply IH in H2. congruence.
    + split; [discriminate|]. intros H. inversion H; subst. congruence.
Qed.
Lemma ev_expr : forall E o ts v, ev E (TExpr o ts) = Some v <-> exists vs, evs E ts vs /\ opsem E o vs = Some v.
Proof.
  intros E o ts v. cbn [ev]. destruct (all (map (ev E) ts)) eqn:A.
  - apply all_evs in A. split; [eauto|]. intros (vs & B & C). apply all_evs in A. apply all_evs in B. congruence.
  - split; [discriminate|]. intros (vs & B & C). apply all_evs in B. congruence.
Qed.
Lemma nums_ok : forall vs zs, nums vs = Some zs <-> vs = map VNum zs.
Proof.
  induction vs as [|v vs IH]; intros zs; cbn [nums].
  - destruct zs; split; intros H; auto; discriminate.
  - destruct v as [z|a b].
    + destruct (nums vs) as [l|] eqn:N.
      * assert (vs = map VNum l) by (apply IH; auto). subst. split; intros H; [injection H as <-; auto|]. destruct zs; [discriminate|]. injection H as <- H. f_equal. f_equal. apply IH in H. congruence.
      * split; [discriminate|]. intros H. destruct zs as [|y zs]; [discriminate|]. injection H as <- H. apply IH in H. congruence.
    + split; [discriminate|]. destruct zs; discriminate.
Qed.
Lemma evn_evs : forall E ts zs, evn E ts zs <-> evs E ts (map VNum zs).
Proof.
  intros E ts. induction ts as [|t ts IH]; intros zs; split; intros H.
  - inversion H; constructor.
  - destruct zs; [constructor|inversion H].
  - inversion H as [|? ? ? zs' A B]; subst. constructor; auto. apply IH; auto.
  - destruct zs as [|z zs]; [inversion H|]. inversion H; subst. constructor; auto. apply IH; auto.
Qed.
Definition sem (E : env) (o : op) (ts : list item) (w : Z) : Prop := exists zs, evn E ts zs /\ asem o zs = Some w.
Lemma ev_nary : forall E o ts v, nary o = true -> (ev E (TExpr o ts) = Some v <-> (2 <= length ts)%nat /\ exists w, v = VNum w /\ sem E o ts w).
Proof.
  intros E o ts v N. rewrite ev_expr.
  assert (K : forall vs, opsem E o vs = match nums vs with None => None | Some zs => match zs with _ :: _ :: _ => option_map VNum (asem o zs) | _ => None end end) by (intros vs; destruct o; try discriminate N; reflexivity).
  split.
  - intros (vs & A & B). rewrite K in B. destruct (nums vs) as [zs|] eqn:M; [|discriminate]. apply nums_ok in M. subst vs. apply evn_evs in A. destruct zs as [|z1 [|z2 zs]]; try discriminate.
    split; [apply F2_length in A; rewrite A; cbn [length]; lia|]. destruct (asem o (z1 :: z2 :: zs)) as [w|] eqn:S; [|discriminate]. cbn [option_map] in B. injection B as <-. exists w. split; auto. exists (z1 :: z2 :: zs). auto.
  - intros (L & w & -> & zs & A & B). exists (map VNum zs). split; [apply evn_evs; auto|]. rewrite K. rewrite (proj2 (nums_ok _ zs) eq_refl). apply F2_length in A. rewrite A in L. destruct zs as [|z1 [|z2 zs]]; cbn [length] in L; try lia. rewrite B. auto.
Qed.
Definition Rv (v : value) : Prop := match v with VNum z => R z | VPair a b => R a /\ R b end.
Lemma opsem_R : forall E o vs v, Forall Rv vs -> opsem E o vs = Some v -> Rv v.
Proof.
  intros E o vs v F H.
  assert (K : forall (f : Z -> option Z) zs w, option_map (fun m => VNum (wrap256 m)) (f zs) = Some w -> Rv w).
  { intros f zs w. destruct (f zs); cbn [option_map]; [|discriminate]. intros J. injection J as <-. apply R_wrap. }
  assert (NU : forall zs, nums vs = Some zs -> Forall R zs).
  { intros zs Hn. apply nums_ok in Hn. subst vs. rewrite Forall_map in F. exact F. }
  destruct o; cbn [opsem] in H;
    try (destruct (nums vs) as [zs|]; [|discriminate]; specialize (NU zs eq_refl); cbn [nary unary] in H;
         first [ destruct zs as [|a [|b r]]; try discriminate; destruct (asem _ _) as [w|] eqn:S; [|discriminate]; cbn [option_map] in H; injection H as <-; apply asem_fl in S; destruct S as (_ & _ & <-); apply fl_R; auto
               | destruct zs as [|a [|b r]]; try discriminate; eapply (K (fun x => meaning _ x 0) a); exact H
               | destruct zs as [|a [|b [|c r]]]; try discriminate; eapply (K (fun x => meaning _ x b) a); exact H ]).
  - destruct vs as [|a [|b r]]; try discriminate. injection H as <-. inversion F; auto.
  - destruct vs as [|[a|a b] [|]]; try discriminate; injection H as <-.
    + apply R_wrap.
    + inversion F; subst. cbn [Rv] in *. tauto.
  - destruct vs as [|[a|] [|[b|] [|]]]; try discriminate; injection H as <-. apply R_wrap.
  - destruct vs as [|[a|] [|[b|] [|]]]; try discriminate; injection H as <-. inversion F as [|? ? F1 F2]; subst. inversion F2; subst. cbn [Rv] in *. auto.
Qed.
Lemma ev_R : forall E t v, ev E t = Some v -> Rv v.
Proof.
  intros E t. induction t as [| | | | | | |o ts IH] using item_ind2; intros v H; try (cbn [ev] in H; discriminate); try (cbn [ev] in H; injection H as <-; apply R_wrap).
  - cbn [ev] in H. destruct (canonb n) eqn:C; [|discriminate]. injection H as <-. apply canon_R, canonb_ok. auto.
  - cbn [ev] in H. destruct (symv E s) as [[z|a b]|]; try discriminate; injection H as <-; cbn [Rv wrapv]; auto using R_wrap.
  - apply ev_expr in H. destruct H as (vs & A & B). apply (opsem_R E o vs); auto. unfold evs in A. clear B. induction A as [|t v0 ts vs A1 A2 IHA]; constructor; inversion IH; subst; auto.
Qed.
Lemma evn_R : forall E ts zs, evn E ts zs -> Forall R zs.
Proof. intros E ts zs H. induction H as [|t z ts zs A B IH]; constructor; auto. apply (ev_R E t (VNum z)); auto. Qed.

(** * Equal or better defined *)
Definition le (E : env) (t t' : item) : Prop := forall v, ev E t = Some v -> ev E t' = Some v.
Lemma le_refl : forall E t, le E t t. Proof. intros E t v H. auto. Qed.
Lemma le_trans : forall E a b c, le E a b -> le E b c -> le E a c. Proof. intros E a b c H1 H2 v H. auto. Qed.
Lemma le_evs : forall E ts ts' vs, Forall2 (le E) ts ts' -> evs E ts vs -> evs E ts' vs.
Proof. intros E ts ts' vs F. revert vs. induction F as [|a b l l' H1 H2 IH]; intros vs A; inversion A; subst; constructor; auto. apply IH; auto. Qed.
Lemma le_expr : forall E o ts ts', Forall2 (le E) ts ts' -> le E (TExpr o ts) (TExpr o ts').
Proof. intros E o ts ts' F v H. apply ev_expr in H. destruct H as (vs & A & B). apply ev_expr. exists vs. split; auto. apply (le_evs E ts); auto. Qed.
Lemma le_ident : forall E t, le E (TExpr IDENT [t]) t /\ le E t (TExpr IDENT [t]).
Proof.
  intros E t. split; intros v H.
  - apply ev_expr in H. destruct H as (vs & A & B). inversion A as [|? ? ? ? A1 A2]; subst. inversion A2; subst. cbn [opsem] in B. congruence.
  - apply ev_expr. exists [v]. split; [constructor; auto; constructor|]. reflexivity.
Qed.
Lemma ident_inv : forall E a r v, ev E (TExpr IDENT (a :: r)) = Some v -> r = [] /\ ev E a = Some v.
Proof.
  intros E a r v H. apply ev_expr in H. destruct H as (vs & A & B). cbn [opsem] in B. destruct vs as [|x [|]]; try discriminate. inversion A as [|? ? ? ? A1 A2]; subst. inversion A2; subst. split; congruence.
Qed.
Lemma op_eq_ok : forall a b, op_eq a b = true <-> a = b.
Proof. intros a b. unfold op_eq. destruct (op_dec a b); split; congruence. Qed.
Lemma op_eq_refl : forall a, op_eq a a = true. Proof. intros. apply op_eq_ok. auto. Qed.
Lemma strip_le : forall E t, le E t (strip t).
Proof.
  intros E t. induction t as [| | | | | | |o ts IH] using item_ind2; try apply le_refl. destruct ts as [|a r]; [apply le_refl|]. cbn [strip]. destruct (op_eq o IDENT) eqn:O; [|apply le_refl].
  apply op_eq_ok in O. subst o. intros v H. apply ident_inv in H. destruct H as [_ H]. inversion IH as [|? ? IH1 IH2]; subst. apply IH1. auto.
Qed.
Lemma top_le : forall E t, is_expr t = true -> le E t (let e := top t in TExpr (fst e) (snd e)).
Proof.
  intros E t. induction t as [| | | | | | |o ts IH] using item_ind2; intros X; try discriminate X. destruct ts as [|a r]; [apply le_refl|]. cbn [top]. destruct (op_eq o IDENT && is_expr a) eqn:O; [|apply le_refl].
  apply andb_true_iff in O. destruct O as [O A]. apply op_eq_ok in O. subst o. intros v H. apply ident_inv in H. destruct H as [_ H]. inversion IH as [|? ? IH1 IH2]; subst. apply IH1; auto.
Qed.

(** * Sums of terms *)
Lemma sem_le : forall E o ts ts' w, Forall2 (le E) ts ts' -> sem E o ts w -> sem E o ts' w.
Proof. intros E o ts ts' w F (zs & A & B). exists zs. split; auto. apply evn_evs. apply (le_evs E ts); auto. apply evn_evs; auto. Qed.
Lemma evn_perm : forall E ts ts' zs, Permutation ts ts' -> evn E ts zs -> exists zs', evn E ts' zs' /\ Permutation zs zs'.
Proof.
  intros E ts ts' zs P A. unfold evn in *. destruct (Permutation_Forall2 P A) as (zs' & P' & A'). exists zs'. auto.
Qed.
Lemma sem_perm : forall E o ts ts' w, Permutation ts ts' -> sem E o ts w -> sem E o ts' w.
Proof. intros E o ts ts' w P (zs & A & B). destruct (evn_perm E ts ts' zs P A) as (zs' & A' & P'). exists zs'. split; auto. rewrite <- (asem_perm o zs zs'); auto. Qed.
Lemma evn_app : forall E l l' zs zs', evn E l zs -> evn E l' zs' -> evn E (l ++ l') (zs ++ zs').
Proof. intros. apply Forall2_app; auto. Qed.
Lemma sem_flat1 : forall E o s r w, nary o = true -> sem E o (TExpr o s :: r) w -> sem E o (s ++ r) w.
Proof.
  intros E o s r w N (zs & A & B). inversion A as [|? z ? zr A1 A2]; subst. apply ev_nary in A1; auto. destruct A1 as (L & x & X & ss & A1 & S). injection X as <-.
  exists (ss ++ zr). split; [apply evn_app; auto|]. apply (asem_flat o ss z zr w); auto. apply (evn_R E s); auto.
Qed.
Lemma ev_int : forall E n z, ev E (TInt n) = Some (VNum z) <-> canon n /\ ival n = z.
Proof.
  intros E n z. cbn [ev]. destruct (canonb n) eqn:C.
  - apply canonb_ok in C. split; [intros H; injection H as <-; auto|intros [_ <-]; auto].
  - split; [discriminate|]. intros [H _]. apply canonb_ok in H. congruence.
Qed.
Lemma sem_fold1 : forall E o a b r w, nary o = true -> sem E o (TInt a :: TInt b :: r) w -> sem E o (TInt (ical a o (Some b)) :: r) w.
Proof.
  intros E o a b r w N (zs & A & B). inversion A as [|? za ? z1 A1 A2]; subst. inversion A2 as [|? zb ? zr A3 A4]; subst. apply ev_int in A1. apply ev_int in A3. destruct A1 as [Ca <-], A3 as [Cb <-].
  destruct (asem_fold o a b zr w N Ca Cb (evn_R _ _ _ A4) B) as [C S]. exists (ival (ical a o (Some b)) :: zr). split; auto. constructor; auto. apply ev_int. auto.
Qed.
Lemma sem_one : forall E o t w, sem E o [t] w -> ev E t = Some (VNum w).
Proof. intros E o t w (zs & A & B). inversion A as [|? z ? zr A1 A2]; subst. inversion A2; subst. apply asem_fl in B. destruct B as (_ & _ & B). cbn in B. congruence. Qed.
Lemma one_sem : forall E o t w, nary o = true -> (o = LAND \/ o = LOR -> boolz w = true) -> ev E t = Some (VNum w) -> sem E o [t] w.
Proof.
  intros E o t w N B H. exists [w]. split; [constructor; auto; constructor|]. apply asem_fl. split; [discriminate|]. split; [|reflexivity]. pose proof (ev_R E t _ H) as Rw. cbn [Rv] in Rw.
  destruct o; try discriminate N; try reflexivity.
  - apply domb_mul. change (prod [w]) with (w * 1). rewrite Z.mul_1_r. unfold R in Rw. destruct (Z.eq_dec w (- 2 ^ 255)) as [->|NE].
    + right. right. split; [reflexivity|]. exists (- 2 ^ 255). split; [left; auto|reflexivity].
    + right. left. lia.
  - cbn [domb forallb]. rewrite B; auto.
  - cbn [domb forallb]. rewrite B; auto.
Qed.

(** Identity elements and absorbing elements. *)
Lemma land_m1 : forall a, Z.land (-1) a = a. Proof. intros. rewrite Z.land_comm. apply Z.land_m1_r. Qed.
Lemma sem_gone : forall E o n r w, nary o = true -> destroy_left o n = true \/ destroy_right o n = true -> r <> [] -> sem E o (TInt n :: r) w -> sem E o r w.
Proof.
  intros E o n r w N D NE (zs & A & B). inversion A as [|? z ? zr A1 A2]; subst. apply ev_int in A1. destruct A1 as [C <-]. exists zr. split; auto. pose proof (evn_R _ _ _ A2) as F.
  assert (D1 : destroy_left o n = true) by (destruct D as [D|D]; auto; destruct o; try discriminate N; try discriminate D; exact D). clear D.
  apply asem_fl in B. destruct B as (_ & B2 & B3). destruct zr as [|y zr]; [inversion A2; subst; congruence|]. rewrite fl_cons2 in B3. apply asem_fl. split; [discriminate|].
  assert (RF : R (fl o (y :: zr))) by (apply fl_R; auto).
  destruct o; try discriminate N; cbn [destroy_left] in D1; try discriminate D1; rewrite ?is_zero_ok, ?is_pos1_ok, ?is_neg1_ok in D1 by auto.
  - apply Z.eqb_eq in D1. rewrite D1 in *. split; [reflexivity|]. cbn [comb] in B3. rewrite wrap_id in B3; auto.
  - apply Z.eqb_eq in D1. rewrite D1 in *. split.
    + rewrite domb_mul in *. change (prod (1 :: y :: zr)) with (1 * prod (y :: zr)) in B2. rewrite Z.mul_1_l in B2. destruct B2 as [B2|[B2|(B2 & z & [Iz|Iz] & Ez)]]; auto.
      * subst z. exfalso. vm_compute in Ez. discriminate.
      * right. right. split; auto. eauto.
    + cbn [comb] in B3. rewrite Z.mul_1_l in B3. rewrite wrap_id in B3; auto.
  - apply Z.eqb_eq in D1. rewrite D1 in *. split; [reflexivity|]. exact B3.
  - apply Z.eqb_eq in D1. rewrite D1 in *. split; [reflexivity|]. cbn [comb] in B3. rewrite land_m1 in B3. exact B3.
  - apply Z.eqb_eq in D1. rewrite D1 in *. cbn [domb] in *. cbn [forallb] in B2. apply andb_true_iff in B2. destruct B2 as [_ B2]. split; [exact B2|]. cbn [comb] in B3. change (nzb 0) with false in B3. cbn [orb] in B3. rewrite <- B3.
    clear -B2. destruct zr as [|x zr].
    + cbn [forallb] in B2. rewrite andb_true_r in B2. apply boolz_cases in B2. destruct B2 as [-> | ->]; reflexivity.
    + rewrite fl_cons2. cbn [comb]. rewrite nzb_truth. auto.
  - apply negb_true_iff, Z.eqb_neq in D1. cbn [domb] in *. cbn [forallb] in B2. apply andb_true_iff in B2. destruct B2 as [_ B2]. split; [exact B2|]. cbn [comb] in B3. assert (Q : nzb (ival n) = true) by (unfold nzb; apply negb_true_iff, Z.eqb_neq; auto). rewrite Q in B3. cbn [andb] in B3. rewrite <- B3.
    clear -B2. destruct zr as [|x zr].
    + cbn [forallb] in B2. rewrite andb_true_r in B2. apply boolz_cases in B2. destruct B2 as [-> | ->]; reflexivity.
    + rewrite fl_cons2. cbn [comb]. rewrite nzb_truth. auto.
Qed.
Lemma sem_const : forall E o n r w, nary o = true -> is_constant o n = true -> r <> [] -> sem E o (TInt n :: r) w -> ev E (TInt n) = Some (VNum w).
Proof.
  intros E o n r w N D NE (zs & A & B). inversion A as [|? z ? zr A1 A2]; subst. assert (A0 := A1). apply ev_int in A1. destruct A1 as [C <-]. rewrite A0. f_equal. f_equal. pose proof (evn_R _ _ _ A2) as F.
  apply asem_fl in B. destruct B as (_ & B2 & B3). destruct zr as [|y zr]; [inversion A2; subst; congruence|]. rewrite fl_cons2 in B3. rewrite <- B3.
  destruct o; try discriminate N; cbn [is_constant] in D; try discriminate D; rewrite ?is_zero_ok, ?is_neg1_ok in D by auto; apply Z.eqb_eq in D; rewrite D; cbn [comb]; auto.
  rewrite Z.lor_comm, Z.lor_m1_r. auto.
Qed.

(** * Copying terms up in place *)
Definition non (l : list item) : list item := filter (fun t => negb (is_int t)) l.
Fixpoint its (l : list item) : list intnum := match l with [] => [] | TInt n :: r => n :: its r | _ :: r => its r end.
Definition out (o : op) (t : item) : list item := match t with TExpr o' s => if op_eq o' o then s else [t] | _ => [t] end.
Definition flat (o : op) (l : list item) : list item := flat_map (out o) l.
Definition icalf (o : op) (l : list intnum) (n : intnum) : intnum := fold_left (fun a b => ical a o (Some b)) l n.
Lemma non_app : forall l l', non (l ++ l') = non l ++ non l'. Proof. intros. apply filter_app. Qed.
Lemma its_app : forall l l', its (l ++ l') = its l ++ its l'.
Proof. induction l as [|[] l IH]; intros l'; cbn [app its]; rewrite ?IH; auto. Qed.
Lemma its_rev : forall l, its (rev l) = rev (its l).
Proof. induction l as [|t l IH]; auto. cbn [rev]. rewrite its_app, IH. destruct t; cbn [its rev]; rewrite ?app_nil_r; auto. Qed.
Lemma non_rev : forall l, non (rev l) = rev (non l).
Proof. induction l as [|t l IH]; auto. cbn [rev]. rewrite non_app, IH. unfold non. cbn [filter]. destruct (negb (is_int t)); cbn [rev]; rewrite ?app_nil_r; auto. Qed.
Lemma perm_ints : forall l, Permutation l (map TInt (its l) ++ non l).
Proof.
  induction l as [|t l IH]; [constructor|]. unfold non in *. cbn [its filter is_int]. destruct t; cbn [is_int negb map app]; try (apply Permutation_cons_app; exact IH). constructor. exact IH.
Qed.
Lemma len_ints : forall l, length l = (length (its l) + length (non l))%nat.
Proof. intros l. rewrite (Permutation_length (perm_ints l)), app_length, map_length. auto. Qed.
Lemma ints_its : forall l, ints l = length (its l).
Proof. unfold ints. induction l as [|[] l IH]; cbn [filter is_int its length]; auto. Qed.
Lemma its_nil_non : forall l, its l = [] -> non l = l.
Proof. unfold non. induction l as [|t l IH]; intros H; auto. destruct t; cbn [its] in H; try discriminate; cbn [filter is_int negb]; rewrite IH; auto. Qed.
Lemma set_mid : forall X t0 Y k t, k = Z.of_nat (length X) -> set_nth (X ++ t0 :: Y) k t = Some (X ++ t :: Y).
Proof.
  intros X t0 Y k t ->. unfold set_nth. rewrite app_length. cbn [length]. destruct (Z.leb_spec 0 (Z.of_nat (length X))); [|lia]. destruct (Z.ltb_spec (Z.of_nat (length X)) (Z.of_nat (length X + S (length Y)))); [|lia]. cbn [andb]. rewrite Nat2Z.id.
  rewrite firstn_app, Nat.sub_diag, firstn_all. cbn [firstn]. rewrite app_nil_r. f_equal. f_equal. f_equal. rewrite skipn_app. replace (S (length X) - length X)%nat with 1%nat by lia. rewrite skipn_all2 by lia. reflexivity.
Qed.
Lemma get_mid : forall X t Y k, k = Z.of_nat (length X) -> get_nth (X ++ t :: Y) k = Some t.
Proof. intros X t Y k ->. unfold get_nth. destruct (Z.leb_spec 0 (Z.of_nat (length X))); [|lia]. rewrite Nat2Z.id, nth_error_app2, Nat.sub_diag by lia. reflexivity. Qed.
Lemma last_split : forall A (l : list A) n, length l = S n -> exists l' x, l = l' ++ [x] /\ length l' = n.
Proof. intros A l n H. destruct (exists_last (l := l)) as (l' & x & ->); [intros ->; discriminate|]. exists l', x. split; auto. rewrite app_length in H. cbn [length] in H. lia. Qed.

Lemma trip : forall (a a' : list item) (k k' f f' : Z), a = a' -> k = k' -> f = f' -> Some (a, k, f) = Some (a', k', f').
Proof. congruence. Qed.
Section Copy.
Variable o : op.
Notation zl X := (Z.of_nat (length X)).
(** the integer lies below the gap *)
Lemma up_B : forall ts X1 m X2 gap Y k, k = zl X1 + 1 + zl X2 + zl gap - 1 -> (length (non ts) <= length gap)%nat ->
  exists gap', (length gap' + length (non ts) = length gap)%nat /\
  up_sub true o ts ((X1 ++ TInt m :: X2) ++ gap ++ Y, k, zl X1) =
  Some ((X1 ++ TInt (icalf o (its ts) m) :: X2) ++ gap' ++ rev (non ts) ++ Y, k - zl (non ts), zl X1).
Proof.
  induction ts as [|t ts IH]; intros X1 m X2 gap Y k K L.
  - exists gap. split; [cbn; lia|]. cbn. do 3 f_equal. lia.
  - assert (C : is_int t = true \/ is_int t = false) by (destruct (is_int t); auto). destruct C as [C|C].
    + destruct t; try discriminate C. cbn [up_sub its]. change (non (TInt n :: ts)) with (non ts) in *. destruct (Z.eqb_spec (zl X1) (-1)); [lia|].
      rewrite <- !app_assoc. cbn [app]. rewrite (get_mid X1) by auto. rewrite (set_mid X1) by auto.
      destruct (IH X1 (ical m o (Some n)) X2 gap Y k K L) as (gap' & G & E). exists gap'. split; auto. rewrite <- !app_assoc in E. cbn [app] in E. rewrite E, <- !app_assoc. reflexivity.
    + assert (N : non (t :: ts) = t :: non ts) by (unfold non; cbn [filter]; rewrite C; auto). rewrite N in *. cbn [length] in L. destruct (last_split _ gap (length gap - 1)) as (g & x & -> & LG); [lia|]. rewrite app_length in *. cbn [length] in *.
      assert (K1 : (k =? zl X1) = false) by (apply Z.eqb_neq; lia).
      destruct (IH X1 m X2 g (t :: Y) (k - 1)) as (gap' & G & E); [lia|lia|]. exists gap'. split; [lia|].
      assert (S : up_sub true o (t :: ts) ((X1 ++ TInt m :: X2) ++ (g ++ [x]) ++ Y, k, zl X1) = up_sub true o ts ((X1 ++ TInt m :: X2) ++ g ++ t :: Y, k - 1, zl X1)).
      { destruct t; try discriminate C; cbn [up_sub]; rewrite K1; replace ((X1 ++ TInt m :: X2) ++ (g ++ [x]) ++ Y) with (((X1 ++ TInt m :: X2) ++ g) ++ x :: Y) by (rewrite <- !app_assoc; reflexivity);
          (rewrite (set_mid ((X1 ++ TInt m :: X2) ++ g)) by (rewrite !app_length; cbn [length]; lia)); rewrite <- app_assoc; reflexivity. }
      rewrite S, E. assert (I : its (t :: ts) = its ts) by (destruct t; try discriminate C; reflexivity). rewrite I. apply trip; [|cbn [length]; lia|cbn [length]; lia]. cbn [rev]. rewrite <- !app_assoc. reflexivity.
Qed.
(** the integer lies above the gap *)
Lemma up_C : forall ts X gap Y1 m Y2 k f, k = zl X + zl gap - 1 -> f = zl X + zl gap + zl Y1 -> (length (non ts) <= length gap)%nat ->
  exists gap', (length gap' + length (non ts) = length gap)%nat /\
  up_sub true o ts (X ++ gap ++ Y1 ++ TInt m :: Y2, k, f) =
  Some (X ++ gap' ++ (rev (non ts) ++ Y1) ++ TInt (icalf o (its ts) m) :: Y2, k - zl (non ts), f).
Proof.
  induction ts as [|t ts IH]; intros X gap Y1 m Y2 k f K Hf L.
  - exists gap. split; [cbn; lia|]. cbn. do 3 f_equal. lia.
  - assert (C : is_int t = true \/ is_int t = false) by (destruct (is_int t); auto). destruct C as [C|C].
    + destruct t; try discriminate C. cbn [up_sub its]. change (non (TInt n :: ts)) with (non ts) in *. destruct (Z.eqb_spec f (-1)); [lia|].
      replace (X ++ gap ++ Y1 ++ TInt m :: Y2) with ((X ++ gap ++ Y1) ++ TInt m :: Y2) by (rewrite <- !app_assoc; auto). rewrite (get_mid (X ++ gap ++ Y1)) by (rewrite !app_length; lia). rewrite (set_mid (X ++ gap ++ Y1)) by (rewrite !app_length; lia).
      rewrite <- !app_assoc. destruct (IH X gap Y1 (ical m o (Some n)) Y2 k f K Hf L) as (gap' & G & E). exists gap'. split; auto. rewrite E. cbn [icalf fold_left]. rewrite <- !app_assoc. reflexivity.
    + assert (N : non (t :: ts) = t :: non ts) by (unfold non; cbn [filter]; rewrite C; auto). rewrite N in *. cbn [length] in L. destruct (last_split _ gap (length gap - 1)) as (g & x & -> & LG); [lia|]. rewrite app_length in *. cbn [length] in *.
      assert (K1 : (k =? f) = false) by (apply Z.eqb_neq; lia).
      destruct (IH X g (t :: Y1) m Y2 (k - 1) f) as (gap' & G & E); [lia|cbn [length]; lia|lia|]. exists gap'. split; [lia|].
      assert (S : up_sub true o (t :: ts) (X ++ (g ++ [x]) ++ Y1 ++ TInt m :: Y2, k, f) = up_sub true o ts (X ++ g ++ (t :: Y1) ++ TInt m :: Y2, k - 1, f)).
      { destruct t; try discriminate C; cbn [up_sub]; rewrite K1; replace (X ++ (g ++ [x]) ++ Y1 ++ TInt m :: Y2) with ((X ++ g) ++ x :: Y1 ++ TInt m :: Y2) by (rewrite <- !app_assoc; reflexivity);
          (rewrite (set_mid (X ++ g)) by (rewrite !app_length; lia)); rewrite <- !app_assoc; reflexivity. }
      rewrite S, E. assert (I : its (t :: ts) = its ts) by (destruct t; try discriminate C; reflexivity). rewrite I. apply trip; [|cbn [length]; lia|cbn [length]; lia]. cbn [rev]. rewrite <- !app_assoc. reflexivity.
Qed.
(** no integer so far *)
Lemma up_A : forall ts X gap Y k, k = zl X + zl gap - 1 -> (length (non ts) + (match its ts with [] => 0 | _ => 1 end) <= length gap)%nat ->
  match its ts with
  | [] => exists gap', (length gap' + length (non ts) = length gap)%nat /\
            up_sub true o ts (X ++ gap ++ Y, k, -1) = Some (X ++ gap' ++ rev (non ts) ++ Y, k - zl (non ts), -1)
  | h :: tl => exists gap' Y1 Y2, (length gap' + length (non ts) + 1 = length gap)%nat /\ Y1 ++ Y2 = rev (non ts) ++ Y /\
            up_sub true o ts (X ++ gap ++ Y, k, -1) = Some (X ++ gap' ++ Y1 ++ TInt (icalf o tl h) :: Y2, k - zl (non ts) - 1, zl X + zl gap' + zl Y1)
  end.
Proof.
  induction ts as [|t ts IH]; intros X gap Y k K L.
  - cbn [its]. exists gap. split; [cbn; lia|]. cbn. do 3 f_equal. lia.
  - assert (C : is_int t = true \/ is_int t = false) by (destruct (is_int t); auto). destruct C as [C|C].
    + destruct t; try discriminate C. cbn [its] in *. change (non (TInt n :: ts)) with (non ts) in *. destruct (last_split _ gap (length gap - 1)) as (g & x & -> & LG); [lia|]. rewrite app_length in *. cbn [length] in *.
      cbn [up_sub]. change (-1 =? -1) with true. cbv iota. replace (X ++ (g ++ [x]) ++ Y) with ((X ++ g) ++ x :: Y) by (rewrite <- !app_assoc; reflexivity). rewrite (set_mid (X ++ g)) by (rewrite app_length; lia).
      destruct (up_C ts X g [] n Y (k - 1) k) as (gap' & G & E); [lia|cbn [length]; lia|lia|]. cbn [app] in E. rewrite app_nil_r in E. rewrite <- app_assoc. exists gap', (rev (non ts)), Y. split; [lia|]. split; auto. rewrite E. apply trip; [auto|lia|rewrite rev_length; lia].
    + assert (N : non (t :: ts) = t :: non ts) by (unfold non; cbn [filter]; rewrite C; auto). rewrite N in *. cbn [length] in *. assert (I : its (t :: ts) = its ts) by (destruct t; try discriminate C; reflexivity). rewrite I in *. destruct (last_split _ gap (length gap - 1)) as (g & x & -> & LG); [lia|]. rewrite app_length in *. cbn [length] in *.
      assert (K1 : (k =? -1) = false) by (apply Z.eqb_neq; lia).
      assert (S : up_sub true o (t :: ts) (X ++ (g ++ [x]) ++ Y, k, -1) = up_sub true o ts (X ++ g ++ t :: Y, k - 1, -1)).
      { destruct t; try discriminate C; cbn [up_sub]; rewrite K1; replace (X ++ (g ++ [x]) ++ Y) with ((X ++ g) ++ x :: Y) by (rewrite <- !app_assoc; reflexivity);
          (rewrite (set_mid (X ++ g)) by (rewrite !app_length; lia)); rewrite <- !app_assoc; reflexivity. }
      rewrite S. specialize (IH X g (t :: Y) (k - 1) ltac:(lia) ltac:(lia)). destruct (its ts) as [|h tl].
      * destruct IH as (gap' & G & E). exists gap'. split; [lia|]. rewrite E. apply trip; [|cbn [length]; lia|cbn [length]; lia]. cbn [rev]. rewrite <- !app_assoc. reflexivity.
      * destruct IH as (gap' & Y1 & Y2 & G & YY & E). exists gap', Y1, Y2. split; [lia|]. split; [cbn [rev]; rewrite <- app_assoc; exact YY|]. rewrite E. apply trip; [auto|lia|lia].
Qed.

(** every subexpression that is brought up has a term that is not an integer *)
Definition fat (t : item) : Prop := match t with TExpr o' s => o' = o -> non s <> [] | _ => True end.
Lemma flat_app : forall l l', flat o (l ++ l') = flat o l ++ flat o l'. Proof. intros. apply flat_map_app. Qed.
Lemma flat_one : forall t, flat o [t] = out o t. Proof. intros. cbn [flat flat_map]. apply app_nil_r. Qed.
Lemma out_non : forall t, is_int t = false -> fat t -> (1 <= length (non (out o t)))%nat.
Proof.
  intros t I F. destruct t; try discriminate I; cbn [out]; try (cbn; lia). destruct (op_eq o0 o) eqn:O; [|cbn; lia]. apply op_eq_ok in O. cbn [fat] in F. specialize (F O). destruct (non ts); [congruence|cbn [length]; lia].
Qed.
Lemma flat_non_len : forall l, its l = [] -> Forall fat l -> (length l <= length (non (flat o l)))%nat.
Proof.
  induction l as [|t l IH]; intros I F; [cbn; lia|]. cbn [flat flat_map]. fold (flat o l). rewrite non_app, app_length. inversion F; subst. assert (J : is_int t = false) by (destruct t; try discriminate I; auto). assert (its l = []) by (destruct t; try discriminate I; auto).
  pose proof (out_non t J ltac:(auto)). specialize (IH ltac:(auto) ltac:(auto)). cbn [length]. lia.
Qed.
Definition same (t : item) : bool := match t with TExpr o' _ => op_eq o' o | _ => false end.
Lemma out_same : forall t, same t = false -> out o t = [t].
Proof. intros t H. destruct t; auto. cbn [same] in H. cbn [out]. rewrite H. auto. Qed.
(** one step of copy_up on the last term of [p ++ [t]] *)
Lemma copy_step : forall p t rest k f, copy_up true o (length (p ++ [t])) ((p ++ [t]) ++ rest, k, f) =
  if same t then
    match t with TExpr _ s => match up_sub true o (rev s) ((p ++ [t]) ++ rest, k, f) with Some s' => copy_up true o (length p) s' | None => None end | _ => None end
  else if k =? zl p then copy_up true o (length p) ((p ++ [t]) ++ rest, k - 1, f)
  else let k' := if k =? f then k - 1 else k in
       match set_nth ((p ++ [t]) ++ rest) k' t with Some a' => copy_up true o (length p) (a', k' - 1, if zl p =? f then k' else f) | None => None end.
Proof.
  intros p t rest k f. rewrite app_length. cbn [length]. rewrite Nat.add_1_r. cbn [copy_up].
  assert (N : nth_error ((p ++ [t]) ++ rest) (length p) = Some t) by (rewrite <- app_assoc; cbn [app]; rewrite nth_error_app2, Nat.sub_diag by lia; reflexivity). rewrite N. destruct t; reflexivity.
Qed.
Lemma its_snoc : forall p t, its (p ++ [t]) = [] -> its p = [] /\ is_int t = false.
Proof. intros p t H. rewrite its_app in H. apply app_eq_nil in H. destruct H as [A B]. split; auto. destruct t; try discriminate B; auto. Qed.
Lemma copy_C : forall pre gap Y1 m Y2 k f, its pre = [] -> Forall fat pre -> (length gap + length pre = length (non (flat o pre)))%nat ->
  k = zl pre + zl gap - 1 -> f = zl pre + zl gap + zl Y1 ->
  copy_up true o (length pre) (pre ++ gap ++ Y1 ++ TInt m :: Y2, k, f) =
  Some ((non (flat o pre) ++ Y1) ++ TInt (icalf o (its (rev (flat o pre))) m) :: Y2, -1, zl (non (flat o pre)) + zl Y1).
Proof.
  induction pre as [|t p IH] using rev_ind; intros gap Y1 m Y2 k f I F G K Hf.
  - cbn [length flat flat_map non filter] in *. assert (length gap = 0)%nat by lia. destruct gap; [|discriminate]. cbn. rewrite K, Hf. cbn. reflexivity.
  - apply its_snoc in I. destruct I as [I It]. apply Forall_app in F. destruct F as [F Ft]. inversion Ft as [|? ? Ft1 _]; subst x. clear Ft. rewrite flat_app, flat_one in *. rewrite non_app, !app_length in G. cbn [length] in G. pose proof (flat_non_len p I F) as LP. pose proof (out_non t It Ft1) as LT.
    rewrite copy_step. rewrite app_length in K, Hf. cbn [length] in K, Hf. rewrite rev_app_distr, its_app. unfold icalf at 1. rewrite fold_left_app. fold (icalf o (its (rev (out o t))) m). fold (icalf o (its (rev (flat o p))) (icalf o (its (rev (out o t))) m)). destruct (same t) eqn:S.
    + destruct t as [| | | | | | |o' s]; try discriminate S. cbn [same] in S. cbn [out] in *. rewrite S in *. set (t := TExpr o' s) in *.
      destruct (up_C (rev s) p (t :: gap) Y1 m Y2 k f) as (gap' & G' & E); [cbn [length]; lia|cbn [length]; lia|rewrite non_rev, rev_length; cbn [length]; lia|].
      rewrite <- app_assoc. change ([t] ++ gap ++ Y1 ++ TInt m :: Y2) with ((t :: gap) ++ Y1 ++ TInt m :: Y2). rewrite E. rewrite non_rev, rev_length in G'. cbn [length] in G'. rewrite non_rev, rev_involutive, rev_length.
      rewrite IH; [|auto|auto|lia|lia|rewrite app_length; lia]. rewrite non_app, !app_length. apply trip; [|cbn [length]; lia|cbn [length]; lia]. rewrite <- !app_assoc. reflexivity.
    + rewrite (out_same t S) in *. assert (N1 : non [t] = [t]) by (unfold non; cbn [filter]; rewrite It; auto). rewrite N1 in *. cbn [length] in *. rewrite non_app, N1. cbn [rev app]. assert (IT0 : its [t] = []) by (destruct t; try discriminate It; auto). rewrite IT0. cbn [icalf fold_left].
      destruct (Z.eqb_spec k (zl p)) as [KE|KE].
      * assert (length gap = 0)%nat by lia. destruct gap; [|discriminate]. cbn [app length] in *.
        replace ((p ++ [t]) ++ Y1 ++ TInt m :: Y2) with (p ++ [] ++ (t :: Y1) ++ TInt m :: Y2) by (rewrite <- !app_assoc; reflexivity). rewrite IH; [|auto|auto|cbn [length]; lia|cbn [length]; lia|cbn [length]; lia]. rewrite !app_length. cbn [length]. apply trip; [|cbn [length]; lia|cbn [length]; lia]. rewrite <- !app_assoc. reflexivity.
      * destruct (last_split _ gap (length gap - 1)) as (g & x & -> & LG); [lia|]. rewrite !app_length in *. cbn [length] in *.
        assert (KF : (k =? f) = false) by (apply Z.eqb_neq; lia). rewrite KF. cbv zeta.
        replace ((p ++ [t]) ++ (g ++ [x]) ++ Y1 ++ TInt m :: Y2) with ((p ++ t :: g) ++ x :: Y1 ++ TInt m :: Y2) by (rewrite <- !app_assoc; reflexivity). rewrite (set_mid (p ++ t :: g)) by (rewrite app_length; cbn [length]; lia).
        assert (PF : (zl p =? f) = false) by (apply Z.eqb_neq; lia). rewrite PF.
        replace ((p ++ t :: g) ++ t :: Y1 ++ TInt m :: Y2) with (p ++ (t :: g) ++ (t :: Y1) ++ TInt m :: Y2) by (rewrite <- !app_assoc; reflexivity). rewrite IH; [|auto|auto|cbn [length]; lia|cbn [length]; lia|cbn [length]; lia]. apply trip; [|cbn [length]; lia|cbn [length]; lia]. rewrite <- !app_assoc. reflexivity.
Qed.
Lemma copy_B : forall p2 p1 m gap Y k, its p1 = [] -> its p2 = [] -> Forall fat p1 -> Forall fat p2 ->
  (length gap + length p1 + 1 + length p2 = length (non (flat o p1)) + length (non (flat o p2)) + 1)%nat ->
  k = zl p1 + 1 + zl p2 + zl gap - 1 ->
  copy_up true o (length (p1 ++ TInt m :: p2)) ((p1 ++ TInt m :: p2) ++ gap ++ Y, k, zl p1) =
  Some (non (flat o p1) ++ TInt (icalf o (its (rev (flat o p1))) (icalf o (its (rev (flat o p2))) m)) :: non (flat o p2) ++ Y, -1, zl (non (flat o p1))).
Proof.
  induction p2 as [|t p IH] using rev_ind; intros p1 m gap Y k I1 I F1 F G K.
  - pose proof (flat_non_len p1 I1 F1) as LP. cbn [flat flat_map non filter length rev its icalf fold_left app] in *. change (p1 ++ [TInt m]) with (p1 ++ [TInt m]). rewrite copy_step. cbn [same]. destruct (Z.eqb_spec k (zl p1)) as [KE|KE].
    + assert (length gap = 0)%nat by lia. destruct gap; [|discriminate]. cbn [app length] in *. pose proof (copy_C p1 [] [] m Y (k - 1) (zl p1) I1 F1 ltac:(cbn [length]; lia) ltac:(cbn [length]; lia) ltac:(cbn [length]; lia)) as C. cbn [app length] in C. rewrite <- app_assoc. cbn [app]. rewrite C. rewrite app_nil_r. apply trip; [auto|auto|lia].
    + destruct (last_split _ gap (length gap - 1)) as (g & x & -> & LG); [lia|]. rewrite !app_length in *. cbn [length] in *.
      assert (KF : (k =? zl p1) = false) by (apply Z.eqb_neq; lia). rewrite ?KF. cbv zeta.
      replace ((p1 ++ [TInt m]) ++ (g ++ [x]) ++ Y) with ((p1 ++ TInt m :: g) ++ x :: Y) by (rewrite <- !app_assoc; reflexivity). rewrite (set_mid (p1 ++ TInt m :: g)) by (rewrite app_length; cbn [length]; lia). rewrite Z.eqb_refl.
      pose proof (copy_C p1 (TInt m :: g) [] m Y (k - 1) k I1 F1 ltac:(cbn [length]; lia) ltac:(cbn [length]; lia) ltac:(cbn [length]; lia)) as C. cbn [app length] in C. rewrite <- app_assoc. cbn [app]. rewrite C. rewrite app_nil_r. apply trip; [auto|auto|lia].
  - apply its_snoc in I. destruct I as [I It]. apply Forall_app in F. destruct F as [F Ft]. inversion Ft as [|? ? Ft1 _]; subst x. clear Ft. rewrite flat_app, flat_one in *. rewrite non_app, !app_length in G. cbn [length] in G. pose proof (flat_non_len p I F) as LP. pose proof (flat_non_len p1 I1 F1) as LP1. pose proof (out_non t It Ft1) as LT.
    replace (p1 ++ TInt m :: p ++ [t]) with ((p1 ++ TInt m :: p) ++ [t]) by (rewrite <- app_assoc; reflexivity). rewrite copy_step. rewrite app_length in K. cbn [length] in K.
    rewrite rev_app_distr, its_app. unfold icalf at 2. rewrite fold_left_app. fold (icalf o (its (rev (out o t))) m). fold (icalf o (its (rev (flat o p))) (icalf o (its (rev (out o t))) m)).
    assert (LZ : zl (p1 ++ TInt m :: p) = zl p1 + 1 + zl p) by (rewrite app_length; cbn [length]; lia).
    destruct (same t) eqn:S.
    + destruct t as [| | | | | | |o' s]; try discriminate S. cbn [same] in S. cbn [out] in *. rewrite S in *. set (t := TExpr o' s) in *.
      destruct (up_B (rev s) p1 m p (t :: gap) Y k) as (gap' & G' & E); [cbn [length]; lia|rewrite non_rev, rev_length; cbn [length]; lia|].
      rewrite <- (app_assoc _ [t]). change ([t] ++ gap ++ Y) with ((t :: gap) ++ Y). rewrite E. rewrite non_rev, rev_length in G'. cbn [length] in G'. rewrite non_rev, rev_involutive, rev_length.
      replace (length (p1 ++ TInt m :: p)) with (length (p1 ++ TInt (icalf o (its (rev s)) m) :: p)) by (rewrite !app_length; reflexivity).
      rewrite IH; [|auto|auto|auto|auto|lia|lia]. rewrite non_app. rewrite <- !app_assoc. reflexivity.
    + rewrite (out_same t S) in *. assert (N1 : non [t] = [t]) by (unfold non; cbn [filter]; rewrite It; auto). rewrite N1 in *. cbn [length] in *. rewrite non_app, N1. cbn [rev app]. assert (IT0 : its [t] = []) by (destruct t; try discriminate It; auto). rewrite IT0. cbn [icalf fold_left]. rewrite LZ.
      destruct (Z.eqb_spec k (zl p1 + 1 + zl p)) as [KE|KE].
      * assert (length gap = 0)%nat by lia. destruct gap; [|discriminate]. cbn [app length] in *.
        replace (((p1 ++ TInt m :: p) ++ [t]) ++ Y) with ((p1 ++ TInt m :: p) ++ [] ++ (t :: Y)) by (rewrite <- !app_assoc; reflexivity). rewrite IH; [|auto|auto|auto|auto|cbn [length]; lia|cbn [length]; lia]. rewrite <- !app_assoc. reflexivity.
      * destruct (last_split _ gap (length gap - 1)) as (g & x & -> & LG); [lia|]. rewrite !app_length in *. cbn [length] in *.
        assert (KF : (k =? zl p1) = false) by (apply Z.eqb_neq; lia). rewrite ?KF. cbv zeta.
        replace (((p1 ++ TInt m :: p) ++ [t]) ++ (g ++ [x]) ++ Y) with (((p1 ++ TInt m :: p) ++ t :: g) ++ x :: Y) by (rewrite <- !app_assoc; reflexivity). rewrite (set_mid ((p1 ++ TInt m :: p) ++ t :: g)) by (rewrite !app_length; cbn [length]; lia).
        assert (PF : (zl p1 + 1 + zl p =? zl p1) = false) by (apply Z.eqb_neq; lia). rewrite PF.
        replace (((p1 ++ TInt m :: p) ++ t :: g) ++ t :: Y) with ((p1 ++ TInt m :: p) ++ (t :: g) ++ (t :: Y)) by (rewrite <- !app_assoc; reflexivity).
        replace (length p1 + Datatypes.S (length p))%nat with (length (p1 ++ TInt m :: p)) by (rewrite app_length; reflexivity).
        rewrite IH; [|auto|auto|auto|auto|cbn [length]; lia|cbn [length]; lia]. rewrite <- !app_assoc. reflexivity.
Qed.
Lemma copy_A : forall pre gap Y k, its pre = [] -> Forall fat pre ->
  (length gap + length pre = length (non (flat o pre)) + match its (flat o pre) with [] => 0 | _ => 1 end)%nat -> k = zl pre + zl gap - 1 ->
  match its (rev (flat o pre)) with
  | [] => copy_up true o (length pre) (pre ++ gap ++ Y, k, -1) = Some (flat o pre ++ Y, -1, -1)
  | h :: tl => exists d1 d2, d1 ++ d2 = non (flat o pre) ++ Y /\
      copy_up true o (length pre) (pre ++ gap ++ Y, k, -1) = Some (d1 ++ TInt (icalf o tl h) :: d2, -1, zl d1)
  end.
Proof.
  induction pre as [|t p IH] using rev_ind; intros gap Y k I F G K.
  - cbn [length flat flat_map non filter its rev] in *. assert (length gap = 0)%nat by lia. destruct gap; [|discriminate]. cbn. rewrite K. reflexivity.
  - apply its_snoc in I. destruct I as [I It]. apply Forall_app in F. destruct F as [F Ft]. inversion Ft as [|? ? Ft1 _]; subst x. clear Ft. rewrite flat_app, flat_one in *. rewrite non_app, its_app, !app_length in G. cbn [length] in G. pose proof (flat_non_len p I F) as LP. pose proof (out_non t It Ft1) as LT.
    rewrite copy_step. rewrite app_length in K. cbn [length] in K. rewrite rev_app_distr, its_app. destruct (same t) eqn:S.
    + destruct t as [| | | | | | |o' s]; try discriminate S. cbn [same] in S. cbn [out] in *. rewrite S in *. set (t := TExpr o' s) in *.
      rewrite <- (app_assoc p [t]). change ([t] ++ gap ++ Y) with ((t :: gap) ++ Y).
      assert (LE : (length (non (rev s)) + match its (rev s) with [] => 0 | _ => 1 end <= length (t :: gap))%nat).
      { rewrite non_rev, rev_length, its_rev. cbn [length]. destruct (its s) as [|i0 l0]; cbn [rev]; [cbn [length]; lia|]. assert (match its (flat o p) ++ i0 :: l0 with [] => 0 | _ => 1 end = 1)%nat by (destruct (its (flat o p)); reflexivity). destruct (rev l0 ++ [i0]); lia. }
      pose proof (up_A (rev s) p (t :: gap) Y k ltac:(cbn [length]; lia) LE) as U. destruct (its (rev s)) as [|h tl] eqn:IS.
      * cbn [app]. assert (IS2 : its s = []) by (rewrite its_rev in IS; destruct (its s) as [|i0 l0]; auto; destruct (rev l0 ++ [i0]) eqn:Q; cbn [rev] in IS; rewrite Q in IS; [apply app_eq_nil in Q; destruct Q; discriminate|discriminate]).
        rewrite IS2, app_nil_r in G. destruct U as (gap' & G' & E). change (p ++ t :: gap ++ Y) with (p ++ (t :: gap) ++ Y). rewrite E. rewrite non_rev, rev_length in G'. cbn [length] in G'. rewrite non_rev, rev_involutive, rev_length.
        specialize (IH gap' (non s ++ Y) (k - zl (non s)) I F ltac:(lia) ltac:(lia)). rewrite (its_nil_non s IS2) in *. destruct (its (rev (flat o p))) as [|h tl].
        -- rewrite IH. rewrite <- !app_assoc. reflexivity.
        -- destruct IH as (d1 & d2 & D & C). exists d1, d2. split; auto. rewrite D, non_app, <- app_assoc. rewrite (its_nil_non s IS2). reflexivity.
      * cbn [app]. destruct U as (gap' & Y1 & Y2 & G' & YY & E). change (p ++ t :: gap ++ Y) with (p ++ (t :: gap) ++ Y). rewrite E. rewrite non_rev, rev_length in G'. cbn [length] in G'. rewrite non_rev, rev_involutive in YY. rewrite non_rev, rev_length.
        assert (G2 : (match its (flat o p) ++ its s with [] => 0 | _ => 1 end = 1)%nat). { rewrite its_rev in IS. destruct (its s) as [|y ys]; [discriminate|]. destruct (its (flat o p)); reflexivity. }
        rewrite copy_C; [|auto|auto|lia|lia|lia]. exists (non (flat o p) ++ Y1), Y2. split; [rewrite <- app_assoc, YY, non_app, <- app_assoc; reflexivity|]. apply trip; [|auto|rewrite app_length; lia].
        do 2 f_equal. unfold icalf. rewrite fold_left_app. reflexivity.
    + rewrite (out_same t S) in *. assert (N1 : non [t] = [t]) by (unfold non; cbn [filter]; rewrite It; auto). rewrite N1 in *. cbn [length] in *. rewrite non_app, N1. cbn [rev app]. assert (IT0 : its [t] = []) by (destruct t; try discriminate It; auto). rewrite IT0 in *. rewrite app_nil_r in G. cbn [app].
      destruct (Z.eqb_spec k (zl p)) as [KE|KE].
      * assert (length gap = 0)%nat by lia. destruct gap; [|discriminate]. cbn [app length] in *. specialize (IH [] (t :: Y) (k - 1) I F ltac:(cbn [length]; lia) ltac:(cbn [length]; lia)). cbn [app] in IH. rewrite <- app_assoc. cbn [app].
        destruct (its (rev (flat o p))) as [|h tl]; [rewrite IH, <- app_assoc; reflexivity|]. destruct IH as (d1 & d2 & D & C). exists d1, d2. split; auto. rewrite D, <- app_assoc. reflexivity.
      * destruct (last_split _ gap (length gap - 1)) as (g & x & -> & LG); [lia|]. rewrite !app_length in *. cbn [length] in *.
        assert (KF : (k =? -1) = false) by (apply Z.eqb_neq; lia). rewrite KF. cbv zeta. assert (PF : (zl p =? -1) = false) by (apply Z.eqb_neq; lia). rewrite PF.
        replace ((p ++ [t]) ++ (g ++ [x]) ++ Y) with ((p ++ t :: g) ++ x :: Y) by (rewrite <- !app_assoc; reflexivity). rewrite (set_mid (p ++ t :: g)) by (rewrite !app_length; cbn [length]; lia).
        replace ((p ++ t :: g) ++ t :: Y) with (p ++ (t :: g) ++ t :: Y) by (rewrite <- !app_assoc; reflexivity). specialize (IH (t :: g) (t :: Y) (k - 1) I F ltac:(cbn [length]; lia) ltac:(cbn [length]; lia)).
        destruct (its (rev (flat o p))) as [|h tl]; [rewrite IH, <- app_assoc; reflexivity|]. destruct IH as (d1 & d2 & D & C). exists d1, d2. split; auto. rewrite D, <- app_assoc. reflexivity.
Qed.
End Copy.
