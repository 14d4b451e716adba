(** Section directives of a flat binary: specification and proofs of C69. *)
From Coq Require Import ZArith List Bool Lia.
From Verif Require Import Lib LibBits M_BitVect P_BitVect M_Intnum P_Intnum P_IntnumIO M_BinObj P_BinNum.
Import ListNotations.
Open Scope Z_scope.

(** * Specification *)
(** [r] is the last value given in [xs]. *)
Definition is_last {A} (xs : list (option A)) (r : option A) : Prop :=
  (r = None /\ forall x, In x xs -> x = None) \/ exists p v q, xs = p ++ Some v :: q /\ (forall x, In x q -> x = None) /\ r = Some v.
(** Several directives for one section. *)
Fixpoint switches (nm : str) (old : option sect) (ds : list attrs) : option sect + serr :=
  match ds with
  | [] => inl old
  | d :: t => match switch nm old d with inl s => switches nm (Some s) t | inr e => inr e end
  end.

(** * Attributes *)
Lemma last_snoc : forall A (xs : list (option A)) r x, is_last xs r -> is_last (xs ++ [x]) (pick x r).
Proof.
  intros A xs r [v|] H; cbn [pick].
  - right. exists xs, v, []. split; auto. split; auto. intros x [].
  - destruct H as [[-> H]|(p & v & q & -> & H & ->)].
    + left. split; auto. intros x I. apply in_app_or in I. destruct I as [I|[I|[]]]; auto.
    + right. exists p, v, (q ++ [None]). rewrite <- app_assoc. split; auto. split; auto. intros x I. apply in_app_or in I. destruct I as [I|[I|[]]]; auto.
Qed.
Lemma switch_eq : forall nm old new s, switch nm old new = inl s ->
  let o := match old with Some s => s | None => Sect nm (str_eqb nm bss_name) 0 0 None None None None None None end in
  s = Sect nm (match a_bss new with Some x => x | None => bss o end) (salign o) (len o) (pick (a_align new) (align o)) (pick (a_valign new) (valign o)) (pick (a_start new) (start o)) (pick (a_vstart new) (vstart o)) (pick (a_follows new) (follows o)) (pick (a_vfollows new) (vfollows o)) /\
  (start s = None \/ follows s = None) /\ (vstart s = None \/ vfollows s = None) /\
  (forall a, a_align new = Some a -> is_exp2 (get_uint a) = true) /\ (forall a, a_valign new = Some a -> is_exp2 (get_uint a) = true).
Proof.
  intros nm old new s E o. unfold switch in E. fold o in E. cbv zeta in E. clearbody o.
  destruct (pick (a_start new) (start o)) as [st|] eqn:E1, (pick (a_follows new) (follows o)) as [fo|] eqn:E2; try discriminate;
  destruct (pick (a_vstart new) (vstart o)) as [vs|] eqn:E3, (pick (a_vfollows new) (vfollows o)) as [vf|] eqn:E4; try discriminate;
  (destruct (a_align new) as [x|] eqn:E5; [destruct (is_exp2 (get_uint x)) eqn:E5'; cbn [negb] in E; [|discriminate]|]);
  (destruct (a_valign new) as [y|] eqn:E6; [destruct (is_exp2 (get_uint y)) eqn:E6'; cbn [negb] in E; [|discriminate]|]);
  (injection E as <-; cbn [start follows vstart vfollows]; split; [auto|]; split; [auto|]; split; [auto|]; split; intros a Ha; congruence).
Qed.
Definition start_of (s : option sect) (nm : str) : sect := match s with Some s => s | None => Sect nm (str_eqb nm bss_name) 0 0 None None None None None None end.
Definition holds (nm : str) (ds : list attrs) (s : sect) : Prop :=
  is_last (map a_start ds) (start s) /\ is_last (map a_vstart ds) (vstart s) /\ is_last (map a_follows ds) (follows s) /\ is_last (map a_vfollows ds) (vfollows s) /\
  is_last (map a_align ds) (align s) /\ is_last (map a_valign ds) (valign s) /\ (exists r, is_last (map a_bss ds) r /\ bss s = match r with Some x => x | None => str_eqb nm bss_name end) /\
  (start s = None \/ follows s = None) /\ (vstart s = None \/ vfollows s = None).
Lemma switches_step : forall nm ds2 ds1 old r, switches nm old ds2 = inl r -> holds nm ds1 (start_of old nm) -> holds nm (ds1 ++ ds2) (start_of r nm).
Proof.
  intros nm. induction ds2 as [|d ds2 IH]; intros ds1 old r E H; cbn [switches] in E.
  - assert (r = old) by congruence. subst. rewrite app_nil_r. auto.
  - destruct (switch nm old d) as [s|] eqn:Es; [|discriminate]. replace (ds1 ++ d :: ds2) with ((ds1 ++ [d]) ++ ds2) by (rewrite <- app_assoc; auto). apply (IH (ds1 ++ [d]) (Some s)); auto. cbn [start_of].
    pose proof (switch_eq nm old d s Es) as K. cbv zeta in K. fold (start_of old nm) in K. destruct K as (K & X1 & X2 & _ & _). destruct H as (H1 & H2 & H3 & H4 & H5 & H6 & (rb & H7 & H8) & _ & _).
    unfold holds. rewrite !map_app. cbn [map]. rewrite K in X1, X2 |- *. cbn [start vstart follows vfollows align valign bss] in *. repeat (split; [first [apply last_snoc; assumption|assumption|idtac]|]); auto.
    exists (pick (a_bss d) rb). split; [apply last_snoc; auto|]. destruct (a_bss d); auto.
Qed.
Theorem attributes : forall nm d ds r, switches nm None (d :: ds) = inl r -> exists s, r = Some s /\ name s = nm /\ holds nm (d :: ds) s.
Proof.
  intros nm d ds r E. assert (H0 : holds nm [] (start_of None nm)).
  { unfold holds. cbn [map start_of start vstart follows vfollows align valign bss]. assert (N : forall A, is_last (@nil (option A)) None) by (intro; left; split; auto; intros x []). repeat (split; [first [apply N|idtac]|]); auto. exists None. split; auto. }
  assert (K : forall ds old r, switches nm old ds = inl r -> (exists s, old = Some s /\ name s = nm) -> exists s, r = Some s /\ name s = nm).
  { clear. induction ds as [|d ds IH]; intros old r E S0; cbn [switches] in E; [assert (r = old) by congruence; subst; auto|]. destruct (switch nm old d) as [s|] eqn:Es; [|discriminate]. apply (IH (Some s) r E). exists s. split; auto. pose proof (switch_eq nm old d s Es) as K. cbv zeta in K. destruct K as [K _]. rewrite K. auto. }
  pose proof (switches_step nm (d :: ds) [] None r E H0) as H. cbn [app] in H. cbn [switches] in E. destruct (switch nm None d) as [s0|] eqn:Es; [|discriminate].
  destruct (K ds (Some s0) r E) as (s & -> & N); [exists s0; split; auto; pose proof (switch_eq nm None d s0 Es) as Q; cbv zeta in Q; destruct Q as [Q _]; rewrite Q; auto|]. exists s. auto.
Qed.

(** * Alignments *)
Lemma exp2_ok : forall x, 0 <= x < 2 ^ 32 -> is_exp2 x = true <-> x = 0 \/ pow2 x.
Proof.
  intros x R. unfold is_exp2, u64. assert (P : 2 ^ 32 < 2 ^ 64) by reflexivity. destruct (Z.eq_dec x 0) as [->|N]; [split; auto|]. rewrite Z.mod_small by lia. rewrite Z.eqb_eq. split.
  - intro E. right. exists (Z.log2 x). assert (L : Z.log2 x < 32) by (apply Z.log2_lt_pow2; lia). assert (L0 := Z.log2_nonneg x). split; [lia|]. destruct (Z.log2_spec x ltac:(lia)) as [S1 S2]. destruct (Z.eq_dec x (2 ^ Z.log2 x)) as [|NE]; auto. exfalso.
    assert (L1 : Z.log2 (x - 1) = Z.log2 x) by (apply Z.log2_unique; lia). assert (B : Z.testbit (Z.land x (x - 1)) (Z.log2 x) = true). { rewrite Z.land_spec, Z.bit_log2 by lia. rewrite <- L1. rewrite Z.bit_log2 by (rewrite <- L1 in NE; destruct (Z.eq_dec x 1) as [->|]; [cbn in NE; lia|lia]). auto. }
    rewrite E, Z.testbit_0_l in B. discriminate.
  - intros [E|(k & K & ->)]; [contradiction|]. replace (2 ^ k - 1) with (Z.ones k) by (rewrite Z.ones_equiv; lia). rewrite Z.land_ones by lia. apply Z.mod_same. apply Z.pow_nonzero; lia.
Qed.
Theorem alignments : forall a, canon a -> is_exp2 (get_uint a) = true <-> ival a <= 0 \/ pow2 (ival a) \/ ival a = 2 ^ 32 \/ pow2 (ival a - 2 ^ 32).
Proof.
  intros a C. rewrite get_uint_ok by auto. cbv zeta. assert (P33 : 2 ^ 33 = 2 * 2 ^ 32) by reflexivity. assert (P32 : 2 ^ 32 = 2 * 2 ^ 31) by reflexivity. assert (PB : forall v, pow2 v -> 1 <= v <= 2 ^ 31) by (intros v Pv; pose proof (pow2_range v Pv); lia).
  set (v := ival a) in *. clearbody v. destruct (Z.ltb_spec v 0); [split; [lia|reflexivity]|]. destruct (Z.ltb_spec v (2 ^ 32)).
  - rewrite exp2_ok by lia. split; [intros [|]; auto; lia|]. intros [?|[?|[?|Q]]]; auto; try lia. apply PB in Q. lia.
  - destruct (Z.ltb_spec v (2 ^ 33)).
    + rewrite exp2_ok by lia. split; [intros [|]; auto; lia|]. intros [?|[Q|[?|Q]]]; auto; try lia. apply PB in Q. lia.
    + split; [intro H2; vm_compute in H2; discriminate|]. intros [?|[Q|[?|Q]]]; try lia; apply PB in Q; lia.
Qed.
Theorem checked : forall nm old new s, switch nm old new = inl s -> forall a, a_align new = Some a \/ a_valign new = Some a -> canon a ->
  ival a <= 0 \/ pow2 (ival a) \/ ival a = 2 ^ 32 \/ pow2 (ival a - 2 ^ 32).
Proof. intros nm old new s E a H C. apply alignments; auto. destruct (switch_eq nm old new s E) as (_ & _ & _ & A & B). destruct H; auto. Qed.
Theorem taken : forall nm new, (forall a, a_align new = Some a \/ a_valign new = Some a -> canon a /\ pow2 (ival a)) -> (a_start new = None \/ a_follows new = None) -> (a_vstart new = None \/ a_vfollows new = None) -> exists s, switch nm None new = inl s.
Proof.
  intros nm new A S1 S2. unfold switch. cbv zeta. cbn [follows vfollows start vstart]. assert (X : forall a, a_align new = Some a \/ a_valign new = Some a -> is_exp2 (get_uint a) = true) by (intros a H; destruct (A a H); apply alignments; auto). unfold pick.
  destruct (a_start new), (a_follows new), (a_vstart new), (a_vfollows new); try (destruct S1; discriminate); try (destruct S2; discriminate);
  (destruct (a_align new) as [x|]; [rewrite (X x) by auto|]); (destruct (a_valign new) as [y|]; [rewrite (X y) by auto|]); cbn [negb]; eauto.
Qed.
