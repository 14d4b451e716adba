(** The registers of an address: the scan takes them out of the expression without changing its value (for C33). *)
From Coq Require Import ZArith List Bool Arith Lia Permutation.
From Verif Require Import Lib M_BitVect M_Intnum P_Intnum M_Expr P_Expr P_ExprLevel P_ExprTree P_ExprTree2 P_ExprTop P_ExprUse P_X86Flat M_X86 P_X86Len P_X86Reg.
Import ListNotations.
Open Scope Z_scope.

(** * Equality modulo 2^256 *)
Definition cg (a b : Z) : Prop := exists q, a = b + q * 2 ^ 256.
Lemma cg_refl : forall a, cg a a. Proof. intros. exists 0. lia. Qed.
Lemma cg_sym : forall a b, cg a b -> cg b a. Proof. intros a b [q ->]. exists (- q). lia. Qed.
Lemma cg_trans : forall a b c, cg a b -> cg b c -> cg a c. Proof. intros a b c [q ->] [p ->]. exists (p + q). lia. Qed.
Lemma cg_add : forall a b c d, cg a b -> cg c d -> cg (a + c) (b + d). Proof. intros a b c d [q ->] [p ->]. exists (p + q). lia. Qed.
Lemma cg_mul : forall a b c d, cg a b -> cg c d -> cg (a * c) (b * d). Proof. intros a b c d [q ->] [p ->]. exists (b * p + d * q + p * q * 2 ^ 256). lia. Qed.
Lemma cg_wrap : forall z, cg (wrap256 z) z.
Proof.
  intros z. unfold wrap256. exists (- ((z + 2 ^ 255) / 2 ^ 256)). pose proof (Z.div_mod (z + 2 ^ 255) (2 ^ 256) ltac:(discriminate)) as D.
  set (q := (z + 2 ^ 255) / 2 ^ 256) in *. set (r := (z + 2 ^ 255) mod 2 ^ 256) in *. clearbody q r. lia.
Qed.
Lemma cg_eq : forall a b, R a -> R b -> cg a b -> a = b.
Proof. intros a b A B [q ->]. unfold R in *. assert (q = 0); [|subst; lia]. change (2 ^ 256) with (2 * 2 ^ 255) in *. set (h := 2 ^ 255) in *. assert (0 < h) by reflexivity. clearbody h. nia. Qed.
Lemma cg_mod : forall a b n, 0 <= n <= 256 -> cg a b -> a mod 2 ^ n = b mod 2 ^ n.
Proof.
  intros a b n N [q ->]. replace 256 with (n + (256 - n)) by lia. rewrite Z.pow_add_r by lia. replace (b + q * (2 ^ n * 2 ^ (256 - n))) with (b + q * 2 ^ (256 - n) * 2 ^ n) by ring. apply Z_mod_plus_full.
Qed.
Definition sum (zs : list Z) : Z := fold_right Z.add 0 zs.
Lemma cg_asem_add : forall zs w, Forall R zs -> asem ADD zs = Some w -> cg w (sum zs).
Proof. intros zs w F H. apply asem_fl in H. destruct H as (_ & _ & <-). rewrite fl_add; auto. apply cg_wrap. Qed.
Lemma cg_asem_mul : forall zs w, Forall R zs -> asem MUL zs = Some w -> cg w (prod zs).
Proof. intros zs w F H. apply asem_fl in H. destruct H as (N & _ & <-). rewrite fl_mul; auto. apply cg_wrap. Qed.
Lemma ev_add : forall E ts v, ev E (TExpr ADD ts) = Some v -> exists zs w, v = VNum w /\ evn E ts zs /\ cg w (sum zs) /\ (2 <= length ts)%nat.
Proof. intros E ts v H. apply ev_nary in H; auto. destruct H as (L & w & -> & zs & A & B). exists zs, w. repeat split; auto. apply cg_asem_add; auto. apply (evn_R E ts); auto. Qed.
Lemma ev_mul : forall E ts v, ev E (TExpr MUL ts) = Some v -> exists zs w, v = VNum w /\ evn E ts zs /\ cg w (prod zs) /\ (2 <= length ts)%nat.
Proof. intros E ts v H. apply ev_nary in H; auto. destruct H as (L & w & -> & zs & A & B). exists zs, w. repeat split; auto. apply cg_asem_mul; auto. apply (evn_R E ts); auto. Qed.
Lemma evn_fun : forall E ts zs zs', evn E ts zs -> evn E ts zs' -> zs = zs'.
Proof. intros E ts zs zs' H. revert zs'. induction H as [|t z ts zs A B IH]; intros zs' H'; inversion H' as [|? ? ? ? C D]; subst; auto. f_equal; [congruence|auto]. Qed.

(** * Distribution *)
Lemma noreg_contains : forall t, contains_i 1 t = false -> noreg t.
Proof.
  intros t. induction t as [| | | | | | |o ts IH] using item_ind2; intros H; try exact Logic.I; [discriminate H|]. apply leaves_expr. cbn [contains_i] in H.
  induction IH as [|a r A B IHl]; constructor; cbn [existsb] in H; apply orb_false_iff in H; destruct H; auto. apply A; auto.
Qed.
Lemma dist_each : forall F o l i s l' s', dist_terms F o i l s = Ok (l', s') ->
  Forall2 (fun a a' => a' = a /\ regok a \/ is_expr a = true /\ linop o = true /\ exists c, F a = Ok (a', c)) l l'.
Proof.
  intros F o. induction l as [|t r IH]; intros i s l' s' H; cbn [dist_terms] in H; [apply ok_inj in H; injection H as <- _; constructor|].
  bok H. destruct p as [t1 s1]. bok H. destruct p as [r1 s2]. apply ok_inj in H. injection H as <- _. constructor; [|eapply IH; eauto]. clear E0.
  destruct t as [| | | | | | |o' ts]; try (apply ok_inj in E; injection E as <- _; left; split; [reflexivity|exact Logic.I]); try discriminate E.
  - ifd E; [ifd E; [discriminate|]|ifd E; [|discriminate]]; apply ok_inj in E; injection E as <- _; left; split; auto; exact Logic.I.
  - ifd E.
    + ifd E; [discriminate|]. apply andb_false_iff in Heqb0. rewrite !negb_false_iff, !P_Expr.op_eq_ok in Heqb0. ifd E; [discriminate|]. bok E. destruct p as [t2 c]. apply ok_inj in E. injection E as <- _. right. split; auto. split; [destruct Heqb0; subst; auto|]. exists c. auto.
    + ifd E; [discriminate|]. apply ok_inj in E; injection E as <- _; left; split; auto. apply noreg_regok, noreg_contains. auto.
Qed.
Lemma dist_same : forall F o l i s l' s', (forall a a', F a = Ok (a', false) -> a' = a) -> dist_terms F o i l s = Ok (l', s') -> changed s' = false -> changed s = false /\ l' = l.
Proof.
  intros F o. induction l as [|t r IH]; intros i s l' s' FF H C; cbn [dist_terms] in H; [apply ok_inj in H; injection H as <- <-; auto|].
  bok H. destruct p as [t1 s1]. bok H. destruct p as [r1 s2]. apply ok_inj in H. injection H as <- <-. destruct (IH _ _ _ _ FF E0 C) as [C1 ->]. clear E0 IH.
  destruct t as [| | | | | | |o' ts]; try (apply ok_inj in E; injection E as <- <-; auto); try discriminate E.
  - ifd E; [ifd E; [discriminate|]|ifd E; [|discriminate]]; apply ok_inj in E; injection E as <- <-; auto.
  - ifd E.
    + ifd E; [discriminate|]. ifd E; [discriminate|]. bok E. destruct p as [t2 c]. apply ok_inj in E. injection E as <- <-. cbn [changed] in C1. apply orb_false_iff in C1. destruct C1 as [C1 ->]. split; auto. f_equal. auto.
    + ifd E; [discriminate|]. apply ok_inj in E; injection E as <- <-; auto.
Qed.
Lemma distcheck_same : forall n t t', distcheck n t = Ok (t', false) -> t' = t.
Proof.
  induction n as [|n IH]; intros t t' H; [discriminate|]. destruct t as [| | | | | | |o ts]; try discriminate H. cbn [distcheck] in H. bok H. destruct p as [ts' s].
  assert (K : Ok (TExpr o ts', changed s) = Ok (t', false) -> t' = TExpr o ts) by (intros Q; apply ok_inj in Q; injection Q as <- Q; destruct (dist_same _ _ _ _ _ _ _ IH E Q) as [_ ->]; auto).
  destruct (have_expr s) as [k|]; auto. ifd H; auto. destruct (nth_error ts' k) as [[| | | | | | |[] us]|]; discriminate H.
Qed.
Lemma dist_noreg : forall F o l i s l' s', dist_terms F o i l s = Ok (l', s') -> (linop o = true \/ Forall noreg l) /\ (o = IDENT -> Forall (fun t => is_expr t = true -> noreg t) l).
Proof.
  intros F o. induction l as [|t r IH]; intros i s l' s' H; cbn [dist_terms] in H; [split; auto|].
  bok H. destruct p as [t1 s1]. bok H. destruct p as [r1 s2]. destruct (IH _ _ _ _ E0) as [I1 I2]. clear IH E0 H.
  assert (K : (linop o = true \/ noreg t) /\ (o = IDENT -> is_expr t = true -> noreg t)); [|destruct K as [[K|K] K2]; (split; [|intros Q; constructor; auto]); [auto|destruct I1; auto]].
  destruct t as [| | | | | | |o' ts]; try (split; [right; exact Logic.I|discriminate]); try discriminate E.
  - split; [left|discriminate]. ifd E; [apply P_Expr.op_eq_ok in Heqb; subst; auto|]. ifd E; [|discriminate]. apply orb_true_iff in Heqb0. rewrite !P_Expr.op_eq_ok in Heqb0. destruct Heqb0; subst; auto.
  - ifd E.
    + ifd E; [discriminate|]. apply andb_false_iff in Heqb0. rewrite !negb_false_iff, !P_Expr.op_eq_ok in Heqb0. destruct Heqb0; subst; split; auto; discriminate.
    + apply noreg_contains in Heqb. auto.
Qed.
Lemma nth_error_forall : forall A (P : A -> Prop) l k x, Forall P l -> nth_error l k = Some x -> P x.
Proof. intros A P l k x F H. apply nth_error_In in H. rewrite Forall_forall in F. auto. Qed.
Lemma distcheck_regok : forall n t t' c, distcheck n t = Ok (t', c) -> regok t /\ regok t'.
Proof.
  induction n as [|n IH]; intros t t' c H; [discriminate|]. destruct t as [| | | | | | |o ts]; try discriminate H. cbn [distcheck] in H. bok H. destruct p as [ts' s].
  pose proof (dist_noreg _ _ _ _ _ _ _ E) as [LO _]. apply dist_each in E.
  assert (F1 : Forall regok ts /\ Forall regok ts' /\ (Forall noreg ts -> linop o = true \/ ts' = ts)).
  { clear LO H. induction E as [|a a' r r' A E IHE]; [auto|]. destruct IHE as (I1 & I2 & I3). destruct A as [[-> A]|(X & L & c' & A)].
    - split; [auto|]. split; [auto|]. intros N. inversion N; subst. destruct I3; auto. subst. auto.
    - apply IH in A. destruct A. auto. }
  destruct F1 as (F1 & F2 & F3). split; [apply regok_expr; auto|].
  assert (K : regok (TExpr o ts')) by (apply regok_expr; split; auto; destruct LO as [LO|LO]; auto; destruct (F3 LO); subst; auto).
  destruct (have_expr s) as [k|]; [|apply ok_inj in H; injection H as <- _; auto]. ifd H; [|apply ok_inj in H; injection H as <- _; auto].
  destruct (nth_error ts' k) as [[| | | | | | |[] us]|] eqn:N; try discriminate H. apply ok_inj in H. apply pair_inj in H. destruct H as [<- _]. pose proof (nth_error_forall _ _ _ _ _ F2 N) as U. apply regok_expr in U. destruct U as [_ U].
  apply regok_expr. split; auto. rewrite Forall_map. eapply Forall_impl; [|exact U]. intros u RU. apply regok_expr. split; auto. apply Forall_app. split; [apply firstn_forall; auto|constructor; auto; apply skipn_forall; auto].
Qed.
(** the value, if the distributed expression has one *)
Definition agrees (E : env) (a a' : item) : Prop := forall v v', ev E a = Some v -> ev E a' = Some v' -> v = v'.
Lemma agrees_evs : forall E l l' vs vs', Forall2 (agrees E) l l' -> evs E l vs -> evs E l' vs' -> vs = vs'.
Proof. intros E l l' vs vs' F. revert vs vs'. induction F as [|a a' l l' A F IH]; intros vs vs' H H'; inversion H; inversion H'; subst; auto. f_equal; [apply A; auto|auto]. Qed.
Lemma split_nth : forall A (l : list A) k x, nth_error l k = Some x -> l = firstn k l ++ x :: skipn (S k) l.
Proof. induction l as [|a l IH]; intros [|k] x H; cbn in *; try discriminate; [injection H as ->; auto|]. f_equal. auto. Qed.
Lemma evn_app_inv : forall E l l' zs, evn E (l ++ l') zs -> exists z1 z2, zs = z1 ++ z2 /\ evn E l z1 /\ evn E l' z2.
Proof. intros E l l' zs H. apply Forall2_app_inv_l in H. destruct H as (z1 & z2 & A & B & ->). eauto. Qed.
Lemma dist_sum : forall E pre post us vs, (1 <= length us)%nat -> evn E (map (fun u => TExpr MUL (pre ++ u :: post)) us) vs ->
  exists p q zs, evn E pre p /\ evn E post q /\ evn E us zs /\ cg (sum vs) (prod p * sum zs * prod q).
Proof.
  intros E pre post. induction us as [|u r IH]; intros vs L H; [cbn in L; lia|]. cbn [map] in H. inversion H as [|? v ? vr H1 H2]; subst.
  apply ev_mul in H1. destruct H1 as (zs & w & EW & H1 & C & _). injection EW as <-. apply evn_app_inv in H1. destruct H1 as (p & q0 & -> & P & Q). inversion Q as [|? z ? q Z1 Z2]; subst. rewrite prod_app in C. change (prod (z :: q)) with (z * prod q) in C.
  destruct r as [|u2 r].
  - inversion H2; subst. exists p, q, [z]. split; auto. split; auto. split; [repeat constructor; auto|]. cbn [sum fold_right]. rewrite !Z.add_0_r. eapply cg_trans; [exact C|]. replace (prod p * (z * prod q)) with (prod p * z * prod q) by ring. apply cg_refl.
  - destruct (IH vr ltac:(cbn; lia) H2) as (p' & q' & zs & P' & Q' & U & C'). rewrite (evn_fun _ _ _ _ P' P) in C'. rewrite (evn_fun _ _ _ _ Q' Z2) in C'. exists p, q, (z :: zs). split; auto. split; auto. split; [constructor; auto|].
    change (sum (v :: vr)) with (v + sum vr). change (sum (z :: zs)) with (z + sum zs). replace (prod p * (z + sum zs) * prod q) with (prod p * (z * prod q) + prod p * sum zs * prod q) by ring. apply cg_add; auto.
Qed.
Lemma map_vnum : forall a b, map VNum a = map VNum b -> a = b.
Proof. induction a as [|y a IH]; intros [|x l] Y; try discriminate; auto. cbn [map] in Y. injection Y as -> Y. f_equal. auto. Qed.
Lemma distcheck_value : forall E n t t' c, shaped t -> distcheck n t = Ok (t', c) -> agrees E t t'.
Proof.
  intros E. induction n as [|n IH]; intros t t' c S H; [discriminate|]. destruct t as [| | | | | | |o ts]; try discriminate H. cbn [distcheck] in H. bok H. destruct p as [ts' s].
  apply shaped_expr in S. destruct S as [A S]. pose proof E0 as DS. apply dist_terms_shaped in DS; [|intros ? ? ? _ S1 Q; eapply distcheck_shaped; eauto|auto]. destruct DS as [DS LN].
  apply dist_each in E0.
  assert (F : Forall2 (agrees E) ts ts').
  { clear H A DS LN. induction E0 as [|a a' r r' B E0 IHE]; constructor; inversion S; subst; auto. destruct B as [[-> _]|(X & _ & c' & B)]; [intros v v' V V'; congruence|]. eapply IH; eauto. }
  assert (K : agrees E (TExpr o ts) (TExpr o ts')).
  { intros v v' V V'. apply ev_expr in V. apply ev_expr in V'. destruct V as (vs & V1 & V2). destruct V' as (vs' & V1' & V2'). rewrite (agrees_evs _ _ _ _ _ F V1 V1') in V2. congruence. }
  destruct (have_expr s) as [k|]; [|apply ok_inj in H; injection H as <- _; auto]. ifd H; [|apply ok_inj in H; injection H as <- _; auto]. apply P_Expr.op_eq_ok in Heqb. subst o.
  destruct (nth_error ts' k) as [[| | | | | | |[] us]|] eqn:N; try discriminate H. apply ok_inj in H. apply pair_inj in H. destruct H as [<- _]. intros v v' V V'.
  pose proof (nth_error_forall _ _ _ _ _ DS N) as SU. apply shaped_expr in SU. destruct SU as [AU _]. cbn in AU. apply split_nth in N.
  pose proof (ev_R _ _ _ V') as RV. apply ev_add in V'. destruct V' as (vs & w' & -> & V' & C' & _). apply dist_sum in V'; [|lia]. destruct V' as (p & q & zs & P & Q & U & C2).
  pose proof (sem_ge E ADD us _ eq_refl AU (sem_add E us zs U ltac:(intros ->; cbn in AU; lia))) as VA.
  pose proof (ev_R _ _ _ V) as RW. apply ev_mul in V. destruct V as (ys & w & -> & V & C & _). cbn [Rv] in RW.
  assert (EY : evn E ts' (p ++ wrap256 (fold_right Z.add 0 zs) :: q)) by (rewrite N; apply evn_app; auto; constructor; auto).
  assert (YS : ys = p ++ wrap256 (fold_right Z.add 0 zs) :: q) by (apply evn_evs in V; apply evn_evs in EY; apply map_vnum; apply (agrees_evs _ _ _ _ _ F V EY)).
  f_equal. subst ys. rewrite prod_app in C. change (prod (wrap256 (fold_right Z.add 0 zs) :: q)) with (wrap256 (sum zs) * prod q) in C.
  apply cg_eq; auto. eapply cg_trans; [exact C|]. apply cg_sym. eapply cg_trans; [exact C'|]. eapply cg_trans; [exact C2|]. rewrite <- Z.mul_assoc.
  apply cg_mul; [apply cg_refl|]. apply cg_mul; [|apply cg_refl]. apply cg_sym, cg_wrap.
Qed.

(** * The scan *)
(** the sum of the multipliers written before a register *)
Definition is_reg (t : item) : bool := match t with TReg _ => true | _ => false end.
Definition intabs (t : item) : Z := match t with TInt k => Z.abs (ival k) | _ => 0 end.
Definition weight (t : item) : Z :=
  match t with
  | TReg _ => 1
  | TExpr _ ts => if existsb is_reg ts then sum (map intabs ts) else 0
  | _ => 0
  end.
Lemma insert_perm : forall t l, Permutation (t :: l) (insert t l).
Proof.
  intros t. induction l as [|x r IH]; cbn [insert]; [apply Permutation_refl|]. destruct (ty t <=? ty x); [apply Permutation_refl|].
  eapply perm_trans; [apply perm_swap|]. apply perm_skip. exact IH.
Qed.
Lemma order_perm : forall o l, Permutation l (order_terms o l).
Proof.
  intros o l. unfold order_terms. destruct (nary o); [|apply Permutation_refl]. induction l as [|t r IH]; cbn [fold_right]; [apply Permutation_refl|].
  eapply perm_trans; [apply perm_skip; exact IH|]. apply insert_perm.
Qed.
Lemma order_ev : forall E o ts v, ev E (TExpr o ts) = Some v -> ev E (TExpr o (order_terms o ts)) = Some v.
Proof.
  intros E o ts v H. destruct (nary o) eqn:N; [|unfold order_terms; rewrite N; auto]. apply ev_nary in H; auto. destruct H as (L & w & -> & S).
  apply sem_ge; auto; [rewrite order_length; auto|]. eapply sem_perm; [apply order_perm|exact S].
Qed.
Lemma sum_perm : forall l l', Permutation l l' -> sum l = sum l'.
Proof. intros l l' P. induction P; unfold sum in *; cbn [fold_right] in *; auto; try congruence. lia. Qed.
Lemma weight_perm : forall o o' ts ts', Permutation ts ts' -> weight (TExpr o ts) = weight (TExpr o' ts').
Proof.
  intros o o' ts ts' P. cbn [weight]. assert (X : existsb is_reg ts = existsb is_reg ts').
  { apply eq_true_iff_eq. rewrite !existsb_exists. split; intros (x & I & J); exists x; split; auto; [eapply Permutation_in; eauto|apply Permutation_sym in P; eapply Permutation_in; eauto]. }
  rewrite X. destruct (existsb is_reg ts'); auto. apply sum_perm. apply Permutation_map. exact P.
Qed.
Lemma sum_nonneg : forall l, Forall (fun x => 0 <= x) l -> 0 <= sum l.
Proof. intros l F. induction F; unfold sum in *; cbn [fold_right]; lia. Qed.
Lemma weight_nonneg : forall t, 0 <= weight t.
Proof.
  intros [| | | | | | |o ts]; cbn [weight]; try lia. destruct (existsb is_reg ts); [|lia]. apply sum_nonneg. rewrite Forall_map. apply Forall_forall. intros x _. destruct x; cbn; lia.
Qed.
Lemma scan_length : forall ord get ui l s l' s', scan_terms ord get ui l s = Ok (l', s') -> length l' = length l.
Proof.
  intros ord get ui. induction l as [|t r IH]; intros s l' s' H; cbn [scan_terms] in H; [apply ok_inj in H; injection H as <- _; auto|].
  bok H. destruct p as [t1 s1]. bok H. destruct p as [r1 s2]. apply ok_inj in H. injection H as <- _. cbn [length]. f_equal. eapply IH. exact E0.
Qed.
Section Scan.
Variables (E : env) (get : Z -> option Z) (RR : Z -> Z) (Pr P : Z -> Prop).
Hypothesis GR0 : forall r n, get r = Some n -> Pr r -> reg E r = RR n /\ 0 <= n < 33.
Hypothesis GP : forall r n, get r = Some n -> Pr r -> P n.
Definition W (m : mults) : Z := tot m RR (upto 33).
Definition preg (x : item) : Prop := forall r, x = TReg r -> Pr r.
(** bounds on the multiplicities *)
Record sinv (b : Z) (s : scan) : Prop := Sinv {
  si_abs : forall i, Z.abs (s_mult s i) <= b;
  si_P : forall i, s_mult s i <> 0 -> P i;
  si_x : s_index s = -1 \/ P (s_index s) }.
Lemma s32_id : forall x, - 2 ^ 31 <= x < 2 ^ 31 -> s32 x = x.
Proof. intros x H. unfold s32. apply sgn_small; [lia|]. exact H. Qed.
Lemma W_add : forall m n d, 0 <= n < 33 -> - 2 ^ 31 <= m n + d < 2 ^ 31 -> W (add_reg m n d) = W m + d * RR n.
Proof.
  intros m n d N B. unfold W. assert (K : forall l, NoDup l -> tot (add_reg m n d) RR l = tot m RR l + (if in_dec Z.eq_dec n l then d * RR n else 0)).
  { induction l as [|i r IH]; intros ND; [cbn; lia|]. inversion ND; subst. cbn [tot fold_right]. fold (tot (add_reg m n d) RR r) (tot m RR r). rewrite IH; auto. unfold add_reg at 1.
    destruct (in_dec Z.eq_dec n (i :: r)) as [I|I], (in_dec Z.eq_dec n r) as [J|J]; destruct (Z.eqb_spec i n) as [Q|Q]; subst; cbn in I; try tauto; try (exfalso; intuition congruence); try lia.
    rewrite s32_id by lia. lia. }
  rewrite K by apply upto_nodup. destruct (in_dec Z.eq_dec n (upto 33)) as [I|I]; [auto|]. exfalso. apply I. apply upto_in. auto.
Qed.
Lemma add_inv : forall b s n d m, m = add_reg (s_mult s) n d -> sinv b s -> b + Z.abs d < 2 ^ 31 -> (d <> 0 -> P n) ->
  (forall i, Z.abs (m i) <= b + Z.abs d) /\ (forall i, m i <> 0 -> P i).
Proof.
  intros b s n d m -> [A B _] L PN. split; intros i; unfold add_reg; specialize (A i); specialize (B i); destruct (Z.eqb_spec i n) as [->|Q]; try lia; try (intros; auto; fail).
  - rewrite s32_id by lia. lia.
  - rewrite s32_id by lia. intros X. destruct (Z.eq_dec d 0) as [->|ND]; [apply B; lia|auto].
Qed.
Lemma scan_reg_ok : forall ui n b s, sinv b s -> 0 <= n < 33 -> b + 1 < 2 ^ 31 -> P n -> sinv (b + 1) (scan_reg ui n s) /\ W (s_mult (scan_reg ui n s)) = W (s_mult s) + RR n.
Proof.
  intros ui n b s IV N L PN. destruct (add_inv b s n 1 _ eq_refl IV L (fun _ => PN)) as [A B]. change (Z.abs 1) with 1 in A. pose proof (si_abs _ _ IV n) as A0.
  assert (WA : W (add_reg (s_mult s) n 1) = W (s_mult s) + RR n) by (rewrite W_add; lia). unfold scan_reg. cbv zeta. destruct IV as [_ _ X]. destruct (_ && _ && _ && _); (split; [constructor; auto|exact WA]).
Qed.
Lemma scan_mul_ok : forall ui n d b s, sinv b s -> 0 <= n < 33 -> b + Z.abs d < 2 ^ 31 -> P n -> sinv (b + Z.abs d) (scan_mul ui n d s) /\ W (s_mult (scan_mul ui n d s)) = W (s_mult s) + d * RR n.
Proof.
  intros ui n d b s IV N L PN. destruct (add_inv b s n d _ eq_refl IV L (fun _ => PN)) as [A B]. pose proof (si_abs _ _ IV n) as A0.
  assert (WA : W (add_reg (s_mult s) n d) = W (s_mult s) + d * RR n) by (apply W_add; lia). unfold scan_mul. cbv zeta. destruct IV as [_ _ X]. destruct (_ && _ && _); [split; [constructor; auto|exact WA]|]. destruct (_ && _ && _ && _); (split; [constructor; auto|exact WA]).
Qed.
Lemma sinv_le : forall b b' s, b <= b' -> sinv b s -> sinv b' s.
Proof. intros b b' s L [A B C]. constructor; auto. intros i. specialize (A i). lia. Qed.
Lemma get_int_small : forall k z, ev E (TInt k) = Some (VNum z) -> Z.abs (ival k) < 2 ^ 31 -> get_int k = z /\ ival k = z.
Proof.
  intros k z H B. apply ev_int in H. destruct H as [C I]. split; auto. destruct k as [l|v]; [exact I|]. cbn [canon ival] in *. lia.
Qed.
(** a product of a register and an integer *)
Lemma prod_ok : forall r k z, ev E (TExpr MUL [TReg r; TInt k]) = Some (VNum z) -> Z.abs (ival k) < 2 ^ 31 -> forall n, get r = Some n -> Pr r ->
  cg z (get_int k * RR n) /\ ev E (TExpr MUL [zero; TInt k]) = Some (VNum 0) /\ Z.abs (get_int k) = Z.abs (ival k).
Proof.
  intros r k z H B n G PR. apply ev_mul in H. destruct H as (zs & w & EW & H & C & _). injection EW as <-. inversion H as [|? a ? l H1 H2]; subst. inversion H2 as [|? a2 ? l2 H3 H4]; subst. inversion H4; subst.
  destruct (get_int_small _ _ H3 B) as [G1 G2]. cbn [ev] in H1. injection H1 as <-. rewrite (proj1 (GR0 _ _ G PR)) in C. rewrite G1. split; [|split; [|congruence]].
  - eapply cg_trans; [exact C|]. cbn [prod fold_right]. replace (a2 * RR n) with (RR n * (a2 * 1)) by ring. apply cg_mul; [apply cg_wrap|apply cg_refl].
  - apply sem_ge; auto. exists [0; a2]. split; [repeat constructor; auto|]. apply asem_fl. split; [discriminate|]. split; [reflexivity|]. reflexivity.
Qed.
Definition notadd (t : item) : Prop := forall ts, t <> TExpr ADD ts.
Lemma order_cases : forall (T : Type) (l : list item) (f : Z -> intnum -> list item -> T) (g h : T) (k : list item -> T),
  match l with TReg r :: TInt n :: more => f r n more | TReg _ :: _ :: _ => g | [TReg _] => h | l' => k l' end =
  match l with TReg r :: x :: more => match x with TInt n => f r n more | _ => g end | [TReg _] => h | _ => k l end.
Proof. intros T l f g h k. destruct l as [|[| | | | | | |] [|[| | | | | | |] l]]; reflexivity. Qed.
Lemma scan_ok : forall ui l s l' s', scan_terms true get ui l s = Ok (l', s') -> forall zs b, evn E l zs -> Forall regok l -> Forall notadd l -> Forall (leaves preg) l ->
  sinv b s -> b + sum (map weight l) < 2 ^ 31 ->
  exists zs', evn E l' zs' /\ cg (sum zs + W (s_mult s)) (sum zs' + W (s_mult s')) /\ sinv (b + sum (map weight l)) s'.
Proof.
  intros ui. induction l as [|t r IH]; intros s l' s' H zs b V RO NA LV IV L.
  - cbn [scan_terms] in H. apply ok_inj in H. injection H as <- <-. inversion V; subst. exists []. split; [constructor|]. split; [apply cg_refl|]. cbn. rewrite Z.add_0_r. auto.
  - cbn [scan_terms] in H. bok H. destruct p as [t1 s1]. bok H. destruct p as [r1 s2]. apply ok_inj in H. apply pair_inj in H. destruct H as [<- <-].
    inversion V as [|? z ? zr V1 V2]; subst. inversion RO as [|? ? RO1 RO2]; subst. inversion NA as [|? ? NA1 NA2]; subst. inversion LV as [|? ? LV1 LV2]; subst. cbn [map] in L. change (sum (weight t :: map weight r)) with (weight t + sum (map weight r)) in *.
    assert (WN : 0 <= sum (map weight r)) by (apply sum_nonneg; rewrite Forall_map; apply Forall_forall; intros; apply weight_nonneg). pose proof (weight_nonneg t) as WT. assert (B0 : 0 <= b) by (pose proof (si_abs _ _ IV 0); lia).
    assert (K : exists z', ev E t1 = Some (VNum z') /\ cg (z + W (s_mult s)) (z' + W (s_mult s1)) /\ sinv (b + weight t) s1).
    { clear E1 IH. assert (SAME : ev E t1 = Some (VNum z) -> s1 = s -> exists z', ev E t1 = Some (VNum z') /\ cg (z + W (s_mult s)) (z' + W (s_mult s1)) /\ sinv (b + weight t) s1).
      { intros X ->. exists z. split; auto. split; [apply cg_refl|]. eapply sinv_le; [|exact IV]. lia. }
      destruct t as [|rg| | | | | |o ts]; try (apply ok_inj in E0; injection E0 as <- <-; auto; fail).
      - destruct (get rg) as [n|] eqn:G; [|discriminate]. apply ok_inj in E0. apply pair_inj in E0. destruct E0 as [<- <-]. cbn [weight] in *.
        destruct (scan_reg_ok ui n b s IV (proj2 (GR0 _ _ G (LV1 rg eq_refl))) ltac:(lia) (GP _ _ G (LV1 rg eq_refl))) as [A B]. exists 0. split; [reflexivity|]. split; [|exact A]. rewrite B. cbn [ev] in V1. injection V1 as <-. rewrite (proj1 (GR0 _ _ G (LV1 rg eq_refl))).
        replace (0 + (W (s_mult s) + RR n)) with (RR n + W (s_mult s)) by ring. apply cg_add; [apply cg_wrap|apply cg_refl].
      - pose proof (order_perm o ts) as PM. apply order_ev in V1. pose proof (order_forall _ o _ (proj2 (proj1 (regok_expr o ts) RO1))) as ROT.
        rewrite (weight_perm o o _ _ PM) in *. assert (LT : Forall (leaves preg) (order_terms o ts)) by (apply order_forall; apply leaves_expr in LV1; exact LV1).
        assert (LO : linop o = true \/ Forall noreg (order_terms o ts)) by (apply regok_expr in RO1; destruct RO1 as [[LO|LO] _]; [auto|right; apply order_forall; auto]).
        set (ts' := order_terms o ts) in *. clearbody ts'. clear PM.
        destruct ts' as [|[|rg| | | | | |] [|[| |k| | | | |] more]]; try discriminate E0; try (apply ok_inj in E0; apply pair_inj in E0; destruct E0 as [<- <-]; auto; fail).
        cbn [andb] in E0. destruct (0 <? length more)%nat eqn:LM; [discriminate|]. apply Nat.ltb_ge in LM. destruct more; [|cbn in LM; lia]. destruct (get rg) as [n|] eqn:G; [|discriminate]. apply ok_inj in E0. apply pair_inj in E0. destruct E0 as [<- <-].
        assert (O : o = MUL).
        { destruct LO as [LO|LO]; [|inversion LO as [|? ? LO1 _]; subst; destruct LO1]. destruct o; try discriminate LO; auto; [apply ident_inv in V1; destruct V1 as [Q _]; discriminate Q|destruct (NA1 ts); auto]. }
        subst o. cbn [weight existsb is_reg orb map intabs] in *. change (sum [0; Z.abs (ival k)]) with (0 + (Z.abs (ival k) + 0)) in *. inversion LT as [|? ? LT1 _]; subst.
        destruct (prod_ok _ _ _ V1 ltac:(lia) n G (LT1 rg eq_refl)) as (C & Z0 & AB). destruct (scan_mul_ok ui n (get_int k) b s IV (proj2 (GR0 _ _ G (LT1 rg eq_refl))) ltac:(lia) (GP _ _ G (LT1 rg eq_refl))) as [A B].
        exists 0. split; [exact Z0|]. split; [|eapply sinv_le; [|exact A]; lia]. rewrite B. replace (0 + (W (s_mult s) + get_int k * RR n)) with (get_int k * RR n + W (s_mult s)) by ring. apply cg_add; [exact C|apply cg_refl]. }
    destruct K as (z' & V1' & C1 & IV1). destruct (IH _ _ _ E1 zr _ V2 RO2 NA2 LV2 IV1 ltac:(lia)) as (zs' & V2' & C2 & IV2).
    exists (z' :: zs'). split; [constructor; auto|]. split; [|cbn [map]; change (sum (weight t :: map weight r)) with (weight t + sum (map weight r)); rewrite Z.add_assoc; exact IV2]. change (sum (z :: zr)) with (z + sum zr). change (sum (z' :: zs')) with (z' + sum zs').
    destruct C1 as [q1 C1], C2 as [q2 C2]. exists (q1 + q2). lia.
Qed.
(** A product under IDENT is not put in order; excluded *)
Definition lone (e : expr) : Prop := exists o r k more, e = (IDENT, [TExpr o (TReg r :: TInt k :: more)]).
Definition eweight (e : expr) : Z := match e with (MUL, ts) => weight (TExpr MUL ts) | (_, ts) => sum (map weight ts) end.
Lemma regs_lin : forall ui m0 e e' s, regs_of get ui m0 e = Ok (e', s) -> forall z b, eval E e = Some (VNum z) -> fl (eitem e) -> regok (eitem e) -> leaves preg (eitem e) -> ~ lone e ->
  sinv b (Scan m0 (-1) 0 false) -> b + eweight e < 2 ^ 31 ->
  exists z', eval E e' = Some (VNum z') /\ cg (z + W m0) (z' + W (s_mult s)) /\ sinv (b + eweight e) s.
Proof.
  intros ui m0 [o ts] e' s H z b V FL RO LV NL IV L. unfold eval in V. unfold eitem in FL, RO, LV. cbn [fst snd] in *. unfold regs_of in H. cbv zeta in H.
  assert (B0 : 0 <= b) by (pose proof (si_abs _ _ IV 0); lia).
  assert (WN : 0 <= eweight (o, ts)) by (unfold eweight; destruct o; try apply weight_nonneg; apply sum_nonneg; rewrite Forall_map; apply Forall_forall; intros; apply weight_nonneg).
  apply leaves_expr in LV. destruct o; try discriminate H.
  - (* IDENT *) bok H. destruct p as [l q]. apply ok_inj in H. apply pair_inj in H. destruct H as [<- <-]. destruct ts as [|t r]; [discriminate V|]. apply ident_inv in V. destruct V as [-> V]. cbn [scan_terms] in E0. bok E0. destruct p as [t1 s1].
    cbn [bind] in E0. apply ok_inj in E0. apply pair_inj in E0. destruct E0 as [<- <-]. cbn [eweight map] in *. change (sum [weight t]) with (weight t + 0) in *. inversion LV as [|? ? LV1 _]; subst.
    assert (SAME : ev E t1 = Some (VNum z) -> s1 = Scan m0 (-1) 0 false -> exists z', eval E (IDENT, [t1]) = Some (VNum z') /\ cg (z + W m0) (z' + W (s_mult s1)) /\ sinv (b + (weight t + 0)) s1).
    { intros X ->. exists z. split; [unfold eval; cbn [fst snd]; apply ev_ident; auto|]. split; [apply cg_refl|]. eapply sinv_le; [|exact IV]. lia. }
    destruct t as [|rg| | | | | |o ts]; try (apply ok_inj in E1; injection E1 as <- <-; auto; fail).
    + destruct (get rg) as [n|] eqn:G; [|discriminate]. apply ok_inj in E1. apply pair_inj in E1. destruct E1 as [<- <-]. cbn [weight] in *.
      destruct (scan_reg_ok ui n b _ IV (proj2 (GR0 _ _ G (LV1 rg eq_refl))) ltac:(lia) (GP _ _ G (LV1 rg eq_refl))) as [A B]. exists 0. split; [unfold eval; cbn [fst snd]; apply ev_ident; reflexivity|]. split; [|eapply sinv_le; [|exact A]; lia]. rewrite B. cbn [s_mult]. cbn [ev] in V. injection V as <-. rewrite (proj1 (GR0 _ _ G (LV1 rg eq_refl))).
      replace (0 + (W m0 + RR n)) with (RR n + W m0) by ring. apply cg_add; [apply cg_wrap|apply cg_refl].
    + destruct ts as [|[|rg| | | | | |] [|[| |k| | | | |] more]]; try discriminate E1; try (apply ok_inj in E1; apply pair_inj in E1; destruct E1 as [<- <-]; auto; fail).
      exfalso. apply NL. exists o, rg, k, more. reflexivity.
  - (* ADD *) bok H. destruct p as [l q]. apply ok_inj in H. apply pair_inj in H. destruct H as [<- <-]. apply ev_add in V. destruct V as (zs & w & EW & V & C & LN). injection EW as <-.
    apply fl_expr in FL. destruct FL as [FL _]. apply regok_expr in RO. destruct RO as [_ RO].
    assert (NA : Forall notadd ts) by (rewrite Forall_forall in *; intros x I us ->; specialize (FL eq_refl _ I); vm_compute in FL; discriminate FL).
    pose proof (scan_length _ _ _ _ _ _ _ E0) as LEN.
    destruct (scan_ok _ _ _ _ _ E0 zs b V RO NA LV IV L) as (zs' & V' & C' & IV'). exists (wrap256 (sum zs')). split; [|split; [|exact IV']].
    + unfold eval. cbn [fst snd]. apply sem_ge; [reflexivity|lia|]. apply sem_add; auto. intros ->. cbn in LEN. lia.
    + eapply cg_trans; [apply cg_add; [exact C|apply cg_refl]|]. cbn [s_mult] in C'. eapply cg_trans; [exact C'|]. apply cg_add; [apply cg_sym, cg_wrap|apply cg_refl].
  - (* MUL *) apply order_ev in V. rewrite (weight_perm MUL MUL _ _ (order_perm MUL ts) : eweight (MUL, ts) = eweight (MUL, order_terms MUL ts)) in *. pose proof (order_forall _ MUL _ LV) as LV'. set (ts' := order_terms MUL ts) in *. clearbody ts'.
    assert (SAME : Ok ((MUL, ts'), Scan m0 (-1) 0 false) = Ok (e', s) -> exists z', eval E e' = Some (VNum z') /\ cg (z + W m0) (z' + W (s_mult s)) /\ sinv (b + eweight (MUL, ts')) s).
    { intros X. apply ok_inj in X. apply pair_inj in X. destruct X as [<- <-]. exists z. split; [exact V|]. split; [apply cg_refl|]. eapply sinv_le; [|exact IV]. lia. }
    destruct ts' as [|[|rg| | | | | |] [|[| |k| | | | |] [|]]]; try discriminate H; auto. destruct (get rg) as [n|] eqn:G; [|discriminate]. apply ok_inj in H. apply pair_inj in H. destruct H as [<- <-].
    cbn [eweight weight existsb is_reg orb map intabs] in *. change (sum [0; Z.abs (ival k)]) with (0 + (Z.abs (ival k) + 0)) in *. inversion LV' as [|? ? LT1 _]; subst.
    destruct (prod_ok _ _ _ V ltac:(lia) n G (LT1 rg eq_refl)) as (C & Z0 & AB). pose proof (GP _ _ G (LT1 rg eq_refl)) as PN. destruct (add_inv b _ n (get_int k) _ eq_refl IV ltac:(lia) (fun _ => PN)) as [A B]. cbn [s_mult] in A, B. pose proof (si_abs _ _ IV n) as A0. cbn [s_mult] in A0.
    assert (WA : W (add_reg m0 n (get_int k)) = W m0 + get_int k * RR n) by (apply W_add; [apply (GR0 _ _ G (LT1 rg eq_refl))|lia]).
    exists 0. split; [exact Z0|]. assert (CC : cg (z + W m0) (0 + W (add_reg m0 n (get_int k)))) by (rewrite WA; replace (0 + (W m0 + get_int k * RR n)) with (get_int k * RR n + W m0) by ring; apply cg_add; [exact C|apply cg_refl]).
    assert (AI : forall x v y, x = -1 \/ P x -> sinv (b + (0 + (Z.abs (ival k) + 0))) (Scan (add_reg m0 n (get_int k)) x v y)) by (intros x v y X; constructor; cbn [s_mult s_index]; auto; intros i; specialize (A i); lia).
    destruct ui; [destruct ((get_int k <? 0) && (add_reg m0 n (get_int k) n <=? 1))|]; split; auto.
  - (* SEGOFF *) ifd H; [discriminate|]. exfalso. apply ev_expr in V. destruct V as (vs & _ & V). cbn [opsem] in V. destruct vs as [|[] [|[] [|]]]; discriminate V.
Qed.
End Scan.

(** * Preparing the expression *)
Section Prepare.
Variables (nequ : nat) (equ : Z -> option expr) (label : Z -> option Z) (sect : Z -> Z) (dist : Z -> Z -> option intnum).
Hypothesis SD : forall s d, equ s = Some d -> shaped (eitem d).
Hypothesis ND : forall s d, equ s = Some d -> noreg (eitem d).
Variables (E : env) (get : Z -> option Z) (Pr : Z -> Prop).
Hypothesis EE : env_equ equ E.
Hypothesis WR : forall a b, wrtf E a b = a.
(** if products had to be multiplied out: no product overflows, and no single product remains *)
Definition tame (ui : bool) (e0 : expr) : Prop :=
  forall e1 st b w e2 t, level_tree nequ equ true true (negb ui) [] e0 = Fin (e1, st, b) -> extract_wrt e1 = (w, e2) -> distcheck (S (edepth e2)) (eitem e2) = Ok (t, true) ->
    eval E (of_item t) <> None /\ forall e3 st' b', level_tree nequ equ true true (negb ui) [] (of_item t) = Fin (e3, st', b') -> ~ lone e3.
Lemma noreg_leaves : forall t, noreg t -> leaves (preg Pr) t.
Proof. intros t. apply leaves_mono. intros x N r ->. destruct N. Qed.
Lemma level_leaves : forall srm e e' st b, shaped (eitem e) -> leaves (preg Pr) (eitem e) -> level_tree nequ equ true true srm [] e = Fin (e', st, b) -> leaves (preg Pr) (eitem e').
Proof.
  intros srm e e' st b SH LV H. destruct (level_tree_ok (fun _ _ => True) (fun _ => preg Pr) nequ equ srm [] e e' st b ltac:(auto) ltac:(auto) ltac:(auto) SH SD H) as (_ & _ & _ & t & X & K).
  apply K. apply (proj1 (Exp_leaves equ (preg Pr) (fun s d Q => noreg_leaves _ (ND s d Q))) _ _ _ _ X). exact LV.
Qed.
Lemma dist_leaves : forall Q n t t' c, leaves Q t -> distcheck n t = Ok (t', c) -> leaves Q t'.
Proof.
  intros Q. induction n as [|n IH]; intros t t' c LV H; [discriminate|]. destruct t as [| | | | | | |o ts]; try discriminate H. cbn [distcheck] in H. bok H. destruct p as [ts' s]. apply dist_each in E0. apply leaves_expr in LV.
  assert (F2 : Forall (leaves Q) ts').
  { clear H. induction E0 as [|a a' r r' A E0 IHE]; [auto|]. inversion LV; subst. constructor; auto. destruct A as [[-> A]|(X & L & c' & A)]; auto. eapply IH; eauto. }
  assert (K : leaves Q (TExpr o ts')) by (apply leaves_expr; auto).
  destruct (have_expr s) as [k|]; [|apply ok_inj in H; injection H as <- _; auto]. ifd H; [|apply ok_inj in H; injection H as <- _; auto].
  destruct (nth_error ts' k) as [[| | | | | | |[] us]|] eqn:N; try discriminate H. apply ok_inj in H. apply pair_inj in H. destruct H as [<- _]. pose proof (nth_error_forall _ _ _ _ _ F2 N) as U. apply leaves_expr in U.
  apply leaves_expr. rewrite Forall_map. eapply Forall_impl; [|exact U]. intros u RU. apply leaves_expr. apply Forall_app. split; [apply firstn_forall; auto|constructor; auto; apply skipn_forall; auto].
Qed.
Lemma of_item_eval : forall t v, eval E (of_item t) = Some v <-> ev E t = Some v.
Proof. intros t v. destruct t; try reflexivity; unfold eval; cbn [of_item fst snd]; apply ev_ident. Qed.
Lemma of_item_leaves : forall Q t, leaves Q t -> leaves Q (eitem (of_item t)).
Proof. intros Q t L. destruct t; first [exact L|apply leaves_expr; constructor; [exact L|constructor]]. Qed.
Lemma of_item_regok : forall t, regok t -> regok (eitem (of_item t)).
Proof. intros t L. destruct t; first [exact L|apply regok_ident; exact L]. Qed.
Lemma prepare_lin : forall ui bits e0 e1 m0 pc z, prepare nequ equ get ui bits e0 = Ok (e1, m0, pc) -> tame ui e0 -> eval E e0 = Some (VNum z) -> leaves (preg Pr) (eitem e0) ->
  eval E e1 = Some (VNum z) /\ fl (eitem e1) /\ regok (eitem e1) /\ leaves (preg Pr) (eitem e1) /\ ~ lone e1 /\
  (pc = false /\ m0 = no_regs \/ pc = true /\ bits = 64 /\ m0 = add_reg no_regs 16 1).
Proof.
  intros ui bits e0 e1 m0 pc z H T V LV. pose proof (ev_shaped E (eitem e0) _ V) as SH. unfold M_X86.prepare in H. destruct (level_tree nequ equ true true (negb ui) [] e0) as [[[e st] b]| |] eqn:LT; try discriminate.
  destruct (level_tree_ok (fun _ _ => True) (fun _ _ => True) nequ equ (negb ui) [] e0 e st b ltac:(auto) ltac:(auto) ltac:(auto) SH SD LT) as (G & _ & LE & _).
  pose proof (LE E _ Logic.I EE V) as V1. pose proof (level_leaves _ _ _ _ _ SH LV LT) as LV1. destruct (level_tree_flat _ _ _ _ _ _ _ SH SD LT) as [FL _].
  destruct (extract_wrt e) as [w e2] eqn:X. bok H. destruct p as [m1 pc1]. bok H. destruct p as [t c].
  assert (K : eval E e2 = Some (VNum z) /\ fl (eitem e2) /\ leaves (preg Pr) (eitem e2) /\ (pc1 = false /\ m1 = no_regs \/ pc1 = true /\ bits = 64 /\ m1 = add_reg no_regs 16 1)).
  { destruct e as [o ts]. unfold extract_wrt in X.
    assert (SAME : (None, (o, ts)) = (w, e2) -> eval E e2 = Some (VNum z) /\ fl (eitem e2) /\ leaves (preg Pr) (eitem e2) /\ (pc1 = false /\ m1 = no_regs \/ pc1 = true /\ bits = 64 /\ m1 = add_reg no_regs 16 1)).
    { intros Q. injection Q as <- <-. apply ok_inj in E0. injection E0 as <- <-. split; [exact V1|]. split; [exact FL|]. split; [exact LV1|]. left. auto. }
    destruct o; auto. destruct ts as [|x [|y r]]; auto. injection X as <- <-. clear SAME.
    unfold eval in V1. cbn [fst snd] in V1. apply ev_expr in V1. destruct V1 as (vs & V1 & V2). cbn [opsem] in V2. destruct vs as [|[a|] [|[b0|] [|]]]; try discriminate V2. injection V2 as V2. rewrite WR in V2. inversion V1 as [|? ? ? ? V3 _]; subst.
    apply leaves_expr in LV1. inversion LV1 as [|? ? LVx _]; subst. apply fl_expr in FL. destruct FL as [_ FL]. inversion FL as [|? ? FLx _]; subst.
    split; [unfold eval; cbn [fst snd]; apply ev_ident; rewrite wrap_id; [auto|apply (ev_R _ _ _ V3)]|]. split; [apply fl_ident; auto|]. split; [apply leaves_expr; constructor; [exact LVx|constructor]|]. right.
    destruct (of_item y) as [[] [|[] r0]]; try discriminate E0. destruct (negb (bits =? 64)) eqn:B; [discriminate|]. apply negb_false_iff, Z.eqb_eq in B. destruct (get r1) as [n|]; [|discriminate]. destruct (n =? 16) eqn:N16; [|discriminate]. apply Z.eqb_eq in N16. rewrite N16 in E0. apply ok_inj in E0. apply pair_inj in E0. destruct E0 as [<- <-]. auto. }
  destruct K as (V2 & FL2 & LV2 & M). pose proof (distcheck_regok _ _ _ _ E1) as [RO RO']. fold (eitem e2) in *. pose proof (ev_shaped E (eitem e2) _ V2) as SH2.
  destruct c.
  - destruct (T _ _ _ _ _ _ LT X E1) as [TV TL]. destruct (level_tree nequ equ true true (negb ui) [] (of_item t)) as [[[e3 st3] b3]| |] eqn:LT3; try discriminate. apply ok_inj in H. apply pair_inj in H. destruct H as [H <-]. apply pair_inj in H. destruct H as [<- <-].
    destruct (eval E (of_item t)) as [v'|] eqn:VT; [|congruence]. pose proof (distcheck_value E _ _ _ _ SH2 E1 _ _ V2 (proj1 (of_item_eval t v') VT)) as Q. subst v'.
    pose proof (ev_shaped E (eitem (of_item t)) _ VT) as SH3. destruct (level_tree_ok (fun _ _ => True) (fun _ _ => True) nequ equ (negb ui) [] _ _ _ _ ltac:(auto) ltac:(auto) ltac:(auto) SH3 SD LT3) as (_ & _ & LE3 & _).
    destruct (level_tree_flat _ _ _ _ _ _ _ SH3 SD LT3) as [FL3 RG3]. split; [apply (LE3 E _ Logic.I EE VT)|]. split; [exact FL3|]. split; [apply RG3; [exact ND|apply of_item_regok; exact RO']|]. split.
    + eapply level_leaves; [exact SH3| |exact LT3]. apply of_item_leaves. eapply dist_leaves; [exact LV2|exact E1].
    + split; [apply (TL _ _ _ eq_refl)|exact M].
  - apply ok_inj in H. apply pair_inj in H. destruct H as [H <-]. apply pair_inj in H. destruct H as [<- <-]. pose proof (distcheck_same _ _ _ E1) as ->. change (of_item (eitem e2)) with (fst e2, snd e2). rewrite <- surjective_pairing. split; auto. split; auto. split; auto. split; auto. split; auto.
    intros (o & r & k & more & ->). clear - E1. cbn [eitem fst snd distcheck] in E1. bok E1. destruct p as [ts' s]. apply dist_noreg in E. destruct E as [_ EN]. specialize (EN eq_refl). inversion EN as [|? ? E2 _]; subst. specialize (E2 eq_refl). apply leaves_expr in E2. inversion E2 as [|? ? E3 _]; subst. destruct E3.
Qed.
(** the absolute part of a value *)
Definition aval (v : value) (z : Z) : Prop := match v_abs v with Some e => eval E e = Some (VNum z) | None => z = 0 end.
Definition light (ui : bool) (bits : Z) (e0 : expr) : Prop := forall e1 m0 pc, prepare nequ equ get ui bits e0 = Ok (e1, m0, pc) -> eweight e1 < 2 ^ 31 - 1.
Variables (RR : Z -> Z) (P : Z -> Prop).
Hypothesis GR0 : forall r n, get r = Some n -> Pr r -> reg E r = RR n /\ 0 <= n < 33.
Hypothesis GP : forall r n, get r = Some n -> Pr r -> P n.
Lemma usage_lin : forall ui bits d d' s z, usage nequ equ label sect dist get ui bits d = Ok (d', s) -> aval d z -> (bits = 64 -> P 16) ->
  (forall e0, v_abs d = Some e0 -> tame ui e0 /\ light ui bits e0 /\ leaves (preg Pr) (eitem e0)) ->
  exists (z' : Z) (pc : bool), aval d' z' /\ cg (z + (if pc then RR 16 else 0)) (z' + W RR (s_mult s)) /\ (forall i, s_mult s i <> 0 -> P i) /\ (s_index s = -1 \/ P (s_index s)) /\
    d' = (if pc then set_curpos true (with_abs (v_abs d') d) else with_abs (v_abs d') d) /\ (pc = true -> bits = 64).
Proof.
  intros ui bits d d' s z H A P16 HY. unfold M_X86.usage in H. unfold aval in A. destruct (v_abs d) as [e0|] eqn:VA.
  - destruct (HY e0 eq_refl) as (T & L & LV). bok H. destruct p as [[e1 m0] pc]. destruct (prepare_lin _ _ _ _ _ _ _ E0 T A LV) as (V1 & FL & RO & LV1 & NL & M). bok H. destruct p as [e2 s2].
    specialize (L _ _ _ E0). assert (I0 : sinv P 1 (Scan m0 (-1) 0 false)).
    { constructor; cbn [s_mult s_index]; auto; intros i; destruct M as [[_ ->]|(_ & B & ->)]; cbv [add_reg no_regs]; try (destruct (Z.eqb_spec i 16); [subst; change (s32 (0 + 1)) with 1|]); try lia; try congruence; auto. }
    destruct (regs_lin E get RR Pr P GR0 GP _ _ _ _ _ E1 z 1 V1 FL RO LV1 NL I0 ltac:(lia)) as (z' & V2 & C & IV).
    destruct (simplify nequ equ label sect dist false e2) as [[[e3 ?] ?]| |] eqn:SM; try discriminate. apply ok_inj in H. apply pair_inj in H. destruct H as [<- <-].
    destruct (simplify_ok _ _ _ _ _ _ _ _ _ _ (ev_shaped E (eitem e2) _ V2) SD SM) as (_ & _ & SE & _). specialize (SE E _ ltac:(discriminate) EE V2).
    exists z', pc. split; [destruct pc; exact SE|]. split; [|split; [apply (si_P _ _ _ IV)|split; [apply (si_x _ _ _ IV)|split; [destruct pc; reflexivity|intros Q; destruct M as [[M _]|(_ & M & _)]; congruence]]]].
    destruct M as [[-> ->]|(-> & _ & ->)].
    + assert (W0 : W RR no_regs = 0) by (apply tot_zero; reflexivity). rewrite W0 in C. exact C.
    + rewrite W_add in C by (cbv [no_regs]; lia). assert (W0 : W RR no_regs = 0) by (apply tot_zero; reflexivity). rewrite W0 in C. replace (RR 16) with (0 + 1 * RR 16) by ring. exact C.
  - apply ok_inj in H. apply pair_inj in H. destruct H as [<- <-]. exists 0, false. unfold aval. rewrite VA. split; auto. split; [|split; [cbv [s_mult no_regs]; congruence|split; [left; reflexivity|split; [|discriminate]]]].
    + subst z. assert (W0 : W RR no_regs = 0) by (apply tot_zero; reflexivity). cbn [s_mult]. rewrite W0. apply cg_refl.
    + unfold with_abs. destruct d; cbn in *. subst. reflexivity.
Qed.
End Prepare.
