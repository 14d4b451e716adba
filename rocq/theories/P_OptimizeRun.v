(** The size optimizer: the rounds of its main loop (C28). *)
From Coq Require Import ZArith List Bool Lia Permutation Arith.
From Verif Require Import Lib M_Inttree P_Inttree M_Optimize P_Optimize.
Import ListNotations.
Open Scope Z_scope.

(** * Forms *)
Lemma sum_app : forall a b, sum (a ++ b) = sum a + sum b.
Proof. unfold sum. induction a; intro b; cbn; [reflexivity|]. rewrite IHa. lia. Qed.
Lemma grown_S : forall s k, (k < length (forms s))%nat -> grown s (S k) = grown s k + grow (nth k (forms s) Fail).
Proof.
  intros s k. unfold grown, sum. revert k. induction (forms s) as [|f r IH]; intros [|k] H; cbn [length] in *; try lia; [cbn; lia|].
  change (firstn (S (S k)) (f :: r)) with (f :: firstn (S k) r). change (firstn (S k) (f :: r)) with (f :: firstn k r). cbn [map fold_right nth]. rewrite IH by lia. lia.
Qed.
Lemma skipn_nth : forall {A} k (l : list A) d, (k < length l)%nat -> skipn k l = nth k l d :: skipn (S k) l.
Proof. intros A k. induction k; intros [|x l] d H; cbn in *; try lia; auto. apply IHk. lia. Qed.
Lemma reach_S : forall s k, reach s k -> limits s k <> None -> (k < length (forms s))%nat -> nth k (forms s) Fail <> Fail -> reach s (S k).
Proof.
  intros s k (A & B & C) L K F. repeat split; [lia| |].
  - intros j J. destruct (Nat.eq_dec j k) as [->|N]; [auto|apply B; lia].
  - intros j J. destruct (Nat.eq_dec (S j) k) as [<-|N]; [|apply C; lia].
    cbn in L. destruct (nth j (forms s) Fail) as [|g|g l h]; try congruence. eauto.
Qed.
Definition within (v : Z) (o : option (Z * Z)) : Prop := match o with None => True | Some (l, h) => l <= v <= h end.
Lemma advance_ok : forall s v k g o r, reach s k -> limits s k <> None -> (k <= length (forms s))%nat -> advance v (skipn k (forms s)) = Some (g, o, r) ->
  exists k', (k < k' <= length (forms s))%nat /\ reach s k' /\ r = skipn k' (forms s) /\ grown s k' = grown s k + g /\ limits s k' = o /\ within v o /\
    forall j, (k < j < k')%nat -> ~ within v (limits s j).
Proof.
  intros s v k. remember (length (forms s) - k)%nat as n eqn:N. revert k N. induction n as [|n IH]; intros k N g o r R L K A.
  - rewrite skipn_all2 in A by lia. discriminate.
  - rewrite (skipn_nth k _ Fail) in A by lia. cbn [advance] in A. destruct (nth k (forms s) Fail) as [|g1|g1 l h] eqn:E; [discriminate| |].
    + assert (R' : reach s (S k)) by (apply reach_S; auto; [lia|congruence]).
      assert (GR : grown s (S k) = grown s k + g1) by (rewrite grown_S by lia; rewrite E; reflexivity).
      assert (LI : limits s (S k) = None) by (cbn; rewrite E; reflexivity).
      injection A as <- <- <-. exists (S k). repeat split; auto; try lia; try apply R'.
    + assert (R' : reach s (S k)) by (apply reach_S; auto; [lia|congruence]).
      assert (LI : limits s (S k) = Some (l, h)) by (cbn; rewrite E; reflexivity).
      assert (GR : grown s (S k) = grown s k + g1) by (rewrite grown_S by lia; rewrite E; reflexivity).
      destruct ((l <=? v) && (v <=? h)) eqn:IN.
      * injection A as <- <- <-. apply andb_true_iff in IN. rewrite !Z.leb_le in IN. exists (S k). repeat split; auto; try lia; try apply R'.
      * destruct (advance v (skipn (S k) (forms s))) as [[[g2 o2] r2]|] eqn:A2; [|discriminate]. injection A as <- <- <-.
        destruct (IH (S k) ltac:(lia) g2 o2 r2 R' ltac:(congruence) ltac:(lia) A2) as (k' & K1 & K2 & K3 & K4 & K5 & K6 & K7). exists k'. repeat split; auto; try lia; try apply K2.
        intros j J. destruct (Nat.eq_dec j (S k)) as [->|NJ]; [|apply K7; lia]. rewrite LI. cbn. apply andb_false_iff in IN. rewrite !Z.leb_gt in IN. lia.
Qed.
Lemma advance_none : forall s v k, (k <= length (forms s))%nat -> advance v (skipn k (forms s)) = None ->
  exists k', (k <= k' <= length (forms s))%nat /\ nth k' (forms s) Fail = Fail /\ forall j, (k < j <= k')%nat -> ~ within v (limits s j).
Proof.
  intros s v k. remember (length (forms s) - k)%nat as n eqn:N. revert k N. induction n as [|n IH]; intros k N K A.
  - exists k. repeat split; try lia. apply nth_overflow. lia.
  - rewrite (skipn_nth k _ Fail) in A by lia. cbn [advance] in A. destruct (nth k (forms s) Fail) as [|g1|g1 l h] eqn:E; [exists k; repeat split; auto; lia|discriminate|].
    destruct ((l <=? v) && (v <=? h)) eqn:IN; [discriminate|]. destruct (advance v (skipn (S k) (forms s))) as [[[g2 o2] r2]|] eqn:A2; [discriminate|].
    destruct (IH (S k) ltac:(lia) ltac:(lia) A2) as (k' & K1 & K2 & K3). exists k'. repeat split; auto; try lia.
    intros j J. destruct (Nat.eq_dec j (S k)) as [->|NJ]; [|apply K3; lia]. cbn. rewrite E. cbn. apply andb_false_iff in IN. rewrite !Z.leb_gt in IN. lia.
Qed.

(** * The invariant *)
Definition stages (ss : list span) (ds : list dyn) : list nat := map (fun '(s, d) => stage s d) (combine ss ds).
Definition share (i : nat) (sd : span * dyn) : Z := if Nat.eqb (sbc (fst sd)) i && negb (any (fst sd)) then grown (fst sd) (stage (fst sd) (snd sd)) else 0.
Lemma added_share : forall ss ds i, added ss (stages ss ds) i = sum (map (share i) (combine ss ds)).
Proof.
  unfold added, stages. intros ss. induction ss as [|s ss IH]; intros [|d ds] i; try reflexivity. cbn [combine map].
  specialize (IH ds i). unfold sum in *. cbn [fold_right]. rewrite IH. unfold share. cbn. reflexivity.
Qed.
Lemma stage_left : forall s d d', left d = left d' -> stage s d = stage s d'.
Proof. intros. unfold stage. congruence. Qed.
Lemma stages_ext : forall ss ds ds', length ds = length ds' -> (forall k, left (nth k ds nodyn) = left (nth k ds' nodyn)) -> stages ss ds = stages ss ds'.
Proof.
  unfold stages. induction ss as [|s ss IH]; intros [|d ds] [|d' ds'] L H; cbn in *; try lia; auto.
  f_equal; [apply stage_left, (H O)|apply IH; [lia|intro k; apply (H (S k))]].
Qed.
Lemma stages_nth : forall ss ds k, length ds = length ss -> (k < length ss)%nat -> nth k (stages ss ds) O = stage (sp ss k) (nth k ds nodyn).
Proof.
  intros ss ds k L K. unfold stages. rewrite (nth_indep _ O ((fun '(s, d) => stage s d) (nospan, nodyn))) by (rewrite map_length, combine_length; lia).
  change (stage nospan nodyn) with ((fun '(s, d) => stage s d) (nospan, nodyn)) || idtac.
  etransitivity; [exact (map_nth (fun '(s, d) => stage s d) (combine ss ds) (nospan, nodyn) k)|]. rewrite combine_nth by auto. reflexivity.
Qed.
Lemma stages_length : forall ss ds, length ds = length ss -> length (stages ss ds) = length ss.
Proof. intros. unfold stages. rewrite map_length, combine_length. lia. Qed.
Lemma added_upd : forall ss ds k d i, length ds = length ss -> (k < length ss)%nat ->
  added ss (stages ss (upd k (fun _ => d) ds)) i = added ss (stages ss ds) i + (if Nat.eqb (sbc (sp ss k)) i && negb (any (sp ss k)) then grown (sp ss k) (stage (sp ss k) d) - grown (sp ss k) (stage (sp ss k) (nth k ds nodyn)) else 0).
Proof.
  intros ss ds k d i L K. rewrite !added_share. rewrite (combine_upd_sum (share i) (fun _ => d) nospan nodyn) by lia. unfold share. cbn [fst snd]. fold (sp ss k).
  destruct (Nat.eqb (sbc (sp ss k)) i && negb (any (sp ss k))); lia.
Qed.

Record core (ss : list span) (B0 : list bcode) (ds0 : list dyn) (z : st) : Prop := {
  c_dinv : dinv ss z;
  c_len : length (bcs z) = length B0;
  c_same : forall i, sec (bc (bcs z) i) = sec (bc B0 i) /\ setter (bc (bcs z) i) = setter (bc B0 i);
  c_wfB : wfB (bcs z);
  c_blen : forall i, (i < length B0)%nat -> setter (bc B0 i) = None -> blen (bc (bcs z) i) = blen (bc B0 i) + added ss (stages ss (dyns z)) i;
  c_mult : forall k, (k < length ss)%nat -> any (sp ss k) = true -> bmult (bc (bcs z) (sbc (sp ss k))) = cur (dy z k);
  c_plain : forall i, (forall s, In s ss -> any s = true -> sbc s <> i) -> bmult (bc (bcs z) i) = bmult (bc B0 i);
  c_val : forall k, live (dy z k) = true -> vals (dy z k) = map (dist (bcs z) (sp ss k)) (terms (sp ss k));
  c_ng : forall k, live (dy z k) = true -> notgone (nth k ds0 nodyn) = true
}.
(** * Offset setters *)
Definition setidx (B : list bcode) : list nat := filter (fun i => match setter (bc B i) with Some _ => true | None => false end) (seq 0 (length B)).
Definition setok (B0 : list bcode) (z : st) (oc : nat * Z) : Prop :=
  snd oc = start (bcs z) (fst oc) /\ (err z = false -> forall f, setter (bc B0 (fst oc)) = Some f -> f (snd oc) = Some (blen (bc (bcs z) (fst oc)))).
Definition osinv (B0 : list bcode) (z : st) : Prop := map fst (oss z) = setidx B0 /\ Forall (setok B0 z) (oss z).
Definition nonneg (z : st) : Prop := forall i, 0 <= bsize (bc (bcs z) i).
Definition setters_nonneg (B0 : list bcode) : Prop := forall i f n m, setter (bc B0 i) = Some f -> f n = Some m -> 0 <= m.
(** What a round of setters leaves alone. *)
Definition same_spans (z z' : st) : Prop :=
  bad z' = bad z /\ length (dyns z') = length (dyns z) /\ (err z = true -> err z' = true) /\ forall k, left (dy z' k) = left (dy z k) /\ live (dy z' k) = live (dy z k).
Lemma same_refl : forall z, same_spans z z. Proof. repeat split; auto. Qed.
Lemma same_trans : forall a b c, same_spans a b -> same_spans b c -> same_spans a c.
Proof. intros a b c (A1 & A2 & A3 & A4) (B1 & B2 & B3 & B4). repeat split; try congruence; auto; destruct (A4 k), (B4 k); congruence. Qed.
Lemma same_kept : forall z z', kept z z' -> same_spans z z'.
Proof. intros z z' (A1 & A2 & A3 & A4 & A5 & A6). repeat split; auto; try congruence; destruct (A6 k) as (? & ? & ? & _); auto. Qed.
Lemma setter_not_first : forall B i, wfB B -> (i < length B)%nat -> setter (bc B i) <> None -> ~ first B i.
Proof. intros B i W I S F. destruct (w_first B W i I F) as (_ & _ & E). contradiction. Qed.
Lemma wfB_upd : forall B i f, wfB B -> ~ first B i -> (forall b, sec (f b) = sec b /\ setter (f b) = setter b) -> (setter (bc B i) <> None -> bmult (f (bc B i)) = 1) -> wfB (upd i f B).
Proof.
  intros B i f [W1 W2 W3] N F M.
  assert (SE : forall j, sec (bc (upd i f B) j) = sec (bc B j)) by (intro j; apply sec_upd; intro b; apply F).
  constructor.
  - intros a b AB L. rewrite !SE. rewrite upd_length in L. apply W1; auto.
  - intros j J FI. rewrite upd_length in J. apply (sec_app_first _ B (upd_length f B i) SE) in FI. rewrite bc_upd. destruct (Nat.eqb_spec i j) as [->|E]; [contradiction|]. cbn. apply W2; auto.
  - intros j J S. rewrite upd_length in J. rewrite bc_upd in S |- *. destruct (Nat.eqb_spec i j) as [->|E]; cbn [andb] in *; [|apply W3; auto].
    apply Nat.ltb_lt in J. rewrite J in S |- *. apply M. destruct (F (bc B j)) as [_ E]. rewrite E in S. exact S.
Qed.
Lemma with_len_sec : forall n, samesec (with_len n). Proof. intros n b. reflexivity. Qed.
Lemma start_before : forall B o o' f, samesec f -> (o' <= o)%nat -> (o < length B)%nat -> start (upd o f B) o' = start B o'.
Proof.
  intros B o o' f F L O. unfold start. rewrite sec_upd by auto. rewrite filled_upd by (auto; apply F).
  replace (Nat.ltb o o') with false by (symmetry; apply Nat.ltb_ge; lia). cbn. lia.
Qed.
Lemma start_after : forall B o o' f, samesec f -> (o < o')%nat -> (o < length B)%nat ->
  start (upd o f B) o' = start B o' + (if Nat.eqb (sec (bc B o)) (sec (bc B o')) then bsize (f (bc B o)) - bsize (bc B o) else 0).
Proof.
  intros B o o' f F L O. unfold start. rewrite sec_upd by auto. rewrite filled_upd by (auto; apply F).
  replace (Nat.ltb o o') with true by (symmetry; apply Nat.ltb_lt; lia). cbn. lia.
Qed.
Lemma core_setter : forall ss B0 ds0 z z' o n, wf ss B0 -> core ss B0 ds0 z -> (o < length B0)%nat -> setter (bc B0 o) <> None ->
  bcs z' = upd o (with_len n) (bcs z) -> dinv ss z' -> length (dyns z') = length (dyns z) ->
  (forall k, cur (dy z' k) = cur (dy z k) /\ left (dy z' k) = left (dy z k) /\ live (dy z' k) = live (dy z k)) ->
  (forall k, live (dy z' k) = true -> vals (dy z' k) = map (dist (bcs z') (sp ss k)) (terms (sp ss k))) -> core ss B0 ds0 z'.
Proof.
  intros ss B0 ds0 z z' o n W C O SO EB D LD K V. destruct C as [C1 C2 C3 C4 C5 C6 C7 C8 C9].
  assert (SO' : setter (bc (bcs z) o) <> None) by (destruct (C3 o) as [_ ->]; auto).
  constructor; auto.
  - rewrite EB, upd_length. auto.
  - intro i. rewrite EB, bc_upd. destruct (_ && _); cbn; auto.
  - rewrite EB. apply wfB_upd; auto.
    + apply setter_not_first; auto. lia.
    + intros _. cbn. apply (w_once _ C4); [lia|auto].
  - intros i I SI. rewrite EB, bc_upd. rewrite (stages_ext ss (dyns z') (dyns z)) by (auto; intro k; apply (K k)).
    destruct (Nat.eqb_spec o i) as [->|N]; cbn; [contradiction|]. apply C5; auto.
  - intros k L A. destruct (K k) as (-> & _). rewrite EB, bc_upd. rewrite <- C6 by auto. destruct (_ && _); reflexivity.
  - intros i H. rewrite EB, bc_upd. rewrite <- C7 by auto. destruct (_ && _); reflexivity.
  - intros k L. apply C9. destruct (K k) as (_ & _ & E). congruence.
Qed.
Lemma upd_id : forall {A} (f : A -> A) l n d, ((n < length l)%nat -> f (nth n l d) = nth n l d) -> upd n f l = l.
Proof. intros A f l. induction l as [|x l IH]; intros [|n] d H; cbn in *; auto; f_equal; [apply H; lia|]. apply (IH n d). intro. apply H. lia. Qed.
Lemma with_len_id : forall n b, n = blen b -> with_len n b = b.
Proof. intros n b ->. destruct b. reflexivity. Qed.
Lemma bsize_with_len : forall n b, bmult b = 1 -> bsize (with_len n b) - bsize b = n - blen b.
Proof. intros n b E. unfold bsize. cbn. rewrite E. lia. Qed.
Lemma dinv_ext : forall ss z z', dinv ss z -> dyns z' = dyns z -> qa z' = qa z -> qb z' = qb z -> bad z' = bad z -> dinv ss z'.
Proof. intros ss z z' [A B C D] E1 E2 E3 E4. constructor; unfold dy in *; rewrite ?E1, ?E2, ?E3, ?E4; auto. Qed.
Lemma core_ext : forall ss B0 ds0 z z', core ss B0 ds0 z -> bcs z' = bcs z -> dyns z' = dyns z -> qa z' = qa z -> qb z' = qb z -> bad z' = bad z -> core ss B0 ds0 z'.
Proof. intros ss B0 ds0 z z' [A B C D E F G H I] E1 E2 E3 E4 E5. constructor; unfold dy in *; rewrite ?E1, ?E2; auto. apply (dinv_ext ss z); auto. Qed.
Definition pend (B0 : list bcode) (z : st) (i : nat) (diff : Z) (oc : nat * Z) : Prop :=
  start (bcs z) (fst oc) = snd oc + (if Nat.ltb i (fst oc) && Nat.eqb (sec (bc B0 (fst oc))) (sec (bc B0 i)) then diff else 0) /\
  (err z = false -> forall f, setter (bc B0 (fst oc)) = Some f -> f (snd oc) = Some (blen (bc (bcs z) (fst oc)))).
Inductive asc : list nat -> Prop := asc_nil : asc [] | asc_cons : forall x l, Forall (lt x) l -> asc l -> asc (x :: l).
Lemma asc_seq : forall n a, asc (seq a n).
Proof. induction n; intro a; cbn; constructor; auto. apply Forall_forall. intros y Y. apply in_seq in Y. lia. Qed.
Lemma asc_filter : forall p l, asc l -> asc (filter p l).
Proof.
  intros p l H. induction H as [|x l F H IH]; cbn; [constructor|]. destruct (p x); auto. constructor; auto.
  rewrite Forall_forall in *. intros y Y. apply filter_In in Y. apply F. tauto.
Qed.
Lemma asc_split : forall a x b, asc (a ++ x :: b) -> Forall (fun y => (y < x)%nat) a /\ Forall (lt x) b.
Proof.
  induction a as [|y a IH]; intros x b H; cbn in H; inversion H; subst; [auto|]. destruct (IH x b H3) as [A B]. split; auto. constructor; auto.
  rewrite Forall_forall in H2. apply H2. apply in_or_app. cbn. auto.
Qed.
Lemma setidx_in : forall B i, In i (setidx B) <-> (i < length B)%nat /\ setter (bc B i) <> None.
Proof.
  intros B i. unfold setidx. rewrite filter_In, in_seq. destruct (setter (bc B i)) as [f|]; split; intros [H1 H2]; split; auto; try lia; try congruence; discriminate.
Qed.
Lemma filled_nonneg : forall c n B, (forall i, 0 <= bsize (bc B i)) -> 0 <= filled c n B.
Proof.
  intros c n. induction n as [|n IH]; intros [|b B] H; cbn; try lia. pose proof (H O) as H0. cbn in H0. unfold bsize in H0.
  assert (0 <= filled c n B) by (apply IH; intro i; apply (H (S i))). destruct (Nat.eqb (sec b) c); lia.
Qed.
Lemma start_ext : forall B B' o, B = B' -> start B o = start B' o. Proof. congruence. Qed.
Section Run.
Variables (ss : list span) (B0 : list bcode) (ds0 : list dyn) (t : tree).
Hypothesis W : wf ss B0.
Hypothesis T : insert_all Nil (intervals ss ds0) = Some t.
Lemma setters_cons : forall i diff done o c r z, setters ss t i diff done ((o, c) :: r) z =
  (if Nat.leb o i then setters ss t i diff (done ++ [(o, c)]) r z
   else if negb (Nat.eqb (sec (bc (bcs z) o)) (sec (bc (bcs z) i))) || (diff =? 0)
   then Some (Go (St (bcs z) (dyns z) (qa z) (qb z) (done ++ (o, c) :: r) (err z) (bad z)))
   else if (diff <? 0) && (c <? - diff) then Some Crash
   else
     let '(len', e) := match setter (bc (bcs z) o) with
                       | Some f => match f (c + diff) with Some len' => (len', false) | None => (blen (bc (bcs z) o), true) end
                       | None => (blen (bc (bcs z) o), true)
                       end in
     let z1 := St (upd o (with_len len') (bcs z)) (dyns z) (qa z) (qb z) (oss z) (err z || e) (bad z) in
     match (if len' - blen (bc (bcs z) o) =? 0 then Some z1 else touch ss t o (len' - blen (bc (bcs z) o)) z1) with
     | Some z2 => setters ss t i (c + diff + len' - (c + blen (bc (bcs z) o))) (done ++ [(o, c + diff)]) r z2
     | None => None
     end).
Proof. reflexivity. Qed.
Lemma setters_ok : forall todo done z i diff, core ss B0 ds0 z -> (i < length B0)%nat -> map fst (done ++ todo) = setidx B0 ->
  Forall (setok B0 z) done -> Forall (pend B0 z i diff) todo ->
  exists r, setters ss t i diff done todo z = Some r /\
    match r with
    | Crash => nonneg z -> setters_nonneg B0 -> False
    | Go z' => core ss B0 ds0 z' /\ osinv B0 z' /\ same_spans z z' /\ (nonneg z -> setters_nonneg B0 -> nonneg z')
    end.
Proof.
  induction todo as [|[o c] r IH]; intros done z i diff C I EI FD FT.
  - cbn [setters]. eexists. split; [reflexivity|]. rewrite app_nil_r in EI. split; [apply (core_ext ss B0 ds0 z); auto|]. split; [split; auto|]. split; [repeat split; auto|auto].
  - rewrite setters_cons. apply Forall_cons_iff in FT. destruct FT as [PO FT].
    assert (SS : asc (map fst (done ++ (o, c) :: r))) by (rewrite EI; apply asc_filter, asc_seq).
    rewrite map_app in SS. cbn [map fst] in SS. apply asc_split in SS. destruct SS as [SD SR].
    assert (OI : In o (setidx B0)) by (rewrite <- EI, map_app; apply in_or_app; cbn; auto).
    apply setidx_in in OI. destruct OI as [OL OS]. pose proof (w_bcs ss B0 W) as WB.
    assert (SEC : forall j, sec (bc (bcs z) j) = sec (bc B0 j)) by (intro j; apply (c_same _ _ _ _ C j)).
    destruct PO as [PO PE]. cbn [fst snd] in PO, PE.
    assert (EI1 : forall c', map fst ((done ++ [(o, c')]) ++ r) = setidx B0) by (intro c'; rewrite <- EI, !map_app; cbn; rewrite <- app_assoc; reflexivity).
    destruct (Nat.leb_spec o i) as [LE|LT].
    + apply IH; auto. apply Forall_app. split; auto. constructor; auto. split; cbn [fst snd]; auto.
      replace (Nat.ltb i o) with false in PO by (symmetry; apply Nat.ltb_ge; lia). cbn [andb] in PO. lia.
    + rewrite !SEC.
      destruct (negb (Nat.eqb (sec (bc B0 o)) (sec (bc B0 i))) || (diff =? 0)) eqn:SC.
      * eexists. split; [reflexivity|]. split; [apply (core_ext ss B0 ds0 z); auto|]. split; [|split; [repeat split; auto|auto]]. split; [auto|].
        cbn [oss]. apply Forall_app. split; [exact FD|].
        assert (ALL : forall o' c', (o <= o')%nat -> (o' < length B0)%nat -> pend B0 z i diff (o', c') -> setok B0 z (o', c')).
        { intros o' c' LO LO' [P1 P2]. split; auto. cbn [fst snd] in *. apply orb_true_iff in SC. destruct SC as [SC|SC].
          - apply negb_true_iff, Nat.eqb_neq in SC. pose proof (w_sorted B0 WB i o ltac:(lia) OL). pose proof (w_sorted B0 WB o o' LO LO').
            replace (Nat.eqb (sec (bc B0 o')) (sec (bc B0 i))) with false in P1 by (symmetry; apply Nat.eqb_neq; lia). rewrite andb_false_r in P1. lia.
          - apply Z.eqb_eq in SC. rewrite SC in P1. match type of P1 with context [if ?b then _ else _] => destruct b end; lia. }
        constructor; [apply ALL; auto; split; auto|]. rewrite Forall_forall in *. intros [o' c'] IR. apply ALL; [| |apply FT; auto].
        -- assert (X : In o' (map fst r)) by (apply in_map_iff; exists (o', c'); auto). apply SR in X. lia.
        -- assert (X : In o' (setidx B0)) by (rewrite <- EI, map_app; apply in_or_app; right; right; apply in_map_iff; exists (o', c'); auto). apply setidx_in in X. tauto.
      * apply orb_false_iff in SC. destruct SC as [SC DZ]. apply negb_false_iff in SC. apply Nat.eqb_eq in SC.
        replace (Nat.ltb i o) with true in PO by (symmetry; apply Nat.ltb_lt; lia). rewrite (proj2 (Nat.eqb_eq _ _) SC) in PO. cbn [andb] in PO.
        destruct ((diff <? 0) && (c <? - diff)) eqn:CR.
        { eexists. split; [reflexivity|]. cbn. intros NN _. apply andb_true_iff in CR. rewrite !Z.ltb_lt in CR.
          assert (0 <= start (bcs z) o) by (apply filled_nonneg; exact NN). lia. }
        destruct (match setter (bc (bcs z) o) with
                  | Some f => match f (c + diff) with Some len' => (len', false) | None => (blen (bc (bcs z) o), true) end
                  | None => (blen (bc (bcs z) o), true) end) as [len' e] eqn:LE.
        destruct (c_same _ _ _ _ C o) as [_ SO]. rewrite SO in LE.
        set (z1 := St (upd o (with_len len') (bcs z)) (dyns z) (qa z) (qb z) (oss z) (err z || e) (bad z)). cbv zeta.
        assert (M1 : bmult (bc (bcs z) o) = 1) by (apply (w_once _ (c_wfB _ _ _ _ C)); [rewrite (c_len _ _ _ _ C); auto|rewrite SO; auto]).
        assert (BD : bsize (with_len len' (bc (bcs z) o)) - bsize (bc (bcs z) o) = len' - blen (bc (bcs z) o)) by (apply bsize_with_len; auto).
        assert (OLz : (o < length (bcs z))%nat) by (rewrite (c_len _ _ _ _ C); auto).
        assert (Z2 : exists z2, (if len' - blen (bc (bcs z) o) =? 0 then Some z1 else touch ss t o (len' - blen (bc (bcs z) o)) z1) = Some z2 /\ core ss B0 ds0 z2 /\ kept z1 z2).
        { destruct (Z.eqb_spec (len' - blen (bc (bcs z) o)) 0) as [E0|E0].
          - exists z1. split; auto. split; [|apply kept_refl]. apply (core_ext ss B0 ds0 z); auto. cbn [bcs]. apply (upd_id _ _ _ nobc). intros _.
            fold (bc (bcs z) o). apply with_len_id. lia.
          - destruct (touch_ok ss ds0 B0 (bcs z) t o (with_len len') z1 W (c_wfB _ _ _ _ C) (c_len _ _ _ _ C) SEC T OL (with_len_sec _) eq_refl) as (z2 & T1 & T2 & T3 & T4).
            + apply (dinv_ext ss z); auto. apply (c_dinv _ _ _ _ C).
            + intros k LK. apply (c_ng _ _ _ _ C). exact LK.
            + intros k LK. apply (c_val _ _ _ _ C). exact LK.
            + rewrite BD in T1. exists z2. split; auto. split; auto. pose proof T3 as (K1 & K2 & K3 & K4 & K5 & K6).
              apply (core_setter ss B0 ds0 z z2 o len'); auto.
              intro k. destruct (K6 k) as (X1 & X2 & X3 & _). repeat split; auto. }
        destruct Z2 as (z2 & E2 & C2 & K2). rewrite E2. pose proof K2 as (KB & KO & KE & KD & KL & KK).
        assert (ST : forall o', start (bcs z2) o' = start (bcs z) o' + (if Nat.ltb o o' && Nat.eqb (sec (bc B0 o)) (sec (bc B0 o')) then len' - blen (bc (bcs z) o) else 0)).
        { intro o'. rewrite KB. cbn [bcs z1]. destruct (Nat.ltb_spec o o') as [L|L]; [rewrite start_after by (auto; apply with_len_sec); rewrite !SEC, BD; reflexivity|rewrite start_before by (auto; apply with_len_sec); cbn; lia]. }
        assert (BL : forall o', blen (bc (bcs z2) o') = if Nat.eqb o o' then len' else blen (bc (bcs z) o')).
        { intro o'. rewrite KB. cbn [bcs z1]. rewrite bc_upd. apply Nat.ltb_lt in OLz. rewrite OLz, andb_true_r. destruct (Nat.eqb o o'); reflexivity. }
        assert (ER : err z2 = false -> err z = false /\ e = false) by (rewrite KE; cbn [err z1]; apply orb_false_iff).
        assert (NNZ : nonneg z -> setters_nonneg B0 -> nonneg z2).
        { intros NN SN j. unfold nonneg in NN. rewrite KB. cbn [bcs z1]. rewrite bc_upd. destruct (Nat.eqb_spec o j) as [<-|N]; [|apply NN]. apply Nat.ltb_lt in OLz. rewrite OLz. cbn [andb]. unfold bsize. cbn. rewrite M1.
          pose proof (NN o) as NO. unfold bsize in NO. rewrite M1 in NO.
          destruct (setter (bc B0 o)) as [f|] eqn:SF; [destruct (f (c + diff)) as [m|] eqn:FM|]; injection LE as <- <-; try lia. pose proof (SN o f _ _ SF FM). lia. }
        destruct (IH (done ++ [(o, c + diff)]) z2 i (c + diff + len' - (c + blen (bc (bcs z) o)))) as (rr & R1 & R2); auto.
        -- apply Forall_app. split.
           ++ rewrite Forall_forall in *. intros [o' c'] ID. destruct (FD _ ID) as [D1 D2]. cbn [fst snd] in *.
              assert (X : In o' (map fst done)) by (apply in_map_iff; exists (o', c'); auto). apply SD in X. split; cbn [fst snd].
              ** rewrite ST. replace (Nat.ltb o o') with false by (symmetry; apply Nat.ltb_ge; lia). cbn. lia.
              ** intros EE f SF. destruct (ER EE) as [EZ _]. rewrite BL. replace (Nat.eqb o o') with false by (symmetry; apply Nat.eqb_neq; lia). auto.
           ++ constructor; auto. split; cbn [fst snd].
              ** rewrite ST, Nat.ltb_irrefl. cbn. lia.
              ** intros EE f SF. destruct (ER EE) as [EZ E0]. rewrite BL, Nat.eqb_refl. rewrite SF in LE. destruct (f (c + diff)) as [m|]; injection LE as <- <-; [reflexivity|discriminate].
        -- rewrite Forall_forall in *. intros [o' c'] IR. destruct (FT _ IR) as [P1 P2]. cbn [fst snd] in P1, P2.
           assert (X : In o' (map fst r)) by (apply in_map_iff; exists (o', c'); auto). apply SR in X. split; cbn [fst snd].
           ++ rewrite ST, P1. rewrite <- SC. replace (Nat.ltb o o') with true by (symmetry; apply Nat.ltb_lt; lia). replace (Nat.ltb i o') with true by (symmetry; apply Nat.ltb_lt; lia). cbn [andb].
              rewrite (Nat.eqb_sym (sec (bc B0 o'))). destruct (Nat.eqb (sec (bc B0 o)) (sec (bc B0 o'))); lia.
           ++ intros EE f SF. destruct (ER EE) as [EZ _]. rewrite BL. replace (Nat.eqb o o') with false by (symmetry; apply Nat.eqb_neq; lia). auto.
        -- exists rr. split; auto. destruct rr as [z'|].
           ++ destruct R2 as (A1 & A2 & A3 & A4). split; auto. split; auto. split; [|auto].
              apply (same_trans z z1); [|apply (same_trans z1 z2); [apply same_kept; auto|auto]].
              repeat split; auto. cbn. intros ->. reflexivity.
           ++ intros NN SN. apply R2; auto.
Qed.
End Run.
