(** The size optimizer: the end of its loop, and its first steps (C28). *)
From Coq Require Import ZArith List Bool Lia Permutation Arith.
From Verif Require Import Lib M_Inttree P_Inttree M_Optimize P_Optimize P_OptimizeRun P_OptimizeLoop.
Import ListNotations.
Open Scope Z_scope.

Definition like (B B' : list bcode) : Prop :=
  length B' = length B /\ forall i, (i < length B)%nat -> sec (bc B' i) = sec (bc B i) /\ setter (bc B' i) = setter (bc B i) /\ bmult (bc B' i) = bmult (bc B i) /\ blen (bc B' i) = blen (bc B i).
Lemma like_all : forall B B', like B B' -> forall i, sec (bc B' i) = sec (bc B i) /\ setter (bc B' i) = setter (bc B i) /\ bmult (bc B' i) = bmult (bc B i) /\ blen (bc B' i) = blen (bc B i).
Proof. intros B B' [L H] i. destruct (Nat.lt_ge_cases i (length B)) as [I|I]; auto. unfold bc. rewrite !nth_overflow by lia. auto. Qed.
Lemma like_filled : forall B B', like B B' -> forall c n, filled c n B' = filled c n B.
Proof. intros B B' H c n. apply filled_ext; [apply H|]. intros j _. destruct (like_all B B' H j) as (E1 & _ & E2 & E3). split; auto. intros _. unfold bsize. congruence. Qed.
Lemma like_start : forall B B', like B B' -> forall i, start B' i = start B i.
Proof. intros B B' H i. unfold start. destruct (like_all B B' H i) as (-> & _). apply like_filled. auto. Qed.
Lemma like_stop : forall B B', like B B' -> forall i, stop B' i = stop B i.
Proof. intros B B' H i. unfold stop. rewrite (like_start B B' H). destruct (like_all B B' H i) as (_ & _ & -> & ->). reflexivity. Qed.
Lemma like_dist : forall B B', like B B' -> forall s u, dist B' s u = dist B s u.
Proof. intros B B' H s [p q|q]; unfold dist; rewrite ?(like_stop B B' H), ?(like_start B B' H); reflexivity. Qed.
Lemma like_val : forall B B', like B B' -> forall s, val B' s = val B s.
Proof. intros B B' H s. unfold val. destruct (value s); auto. f_equal. apply map_ext. intro u. apply like_dist. auto. Qed.

(** A pass over the offsets changes nothing if every setter already has its length. *)
Lemma offsets_fix : forall B B' e, wfB B -> offsets None 0 B = (B', e) ->
  (forall i f, (i < length B)%nat -> setter (bc B i) = Some f -> f (start B i) = Some (blen (bc B i))) -> like B B' /\ forall i, (i < length B)%nat -> boff (bc B' i) = start B' i.
Proof.
  intros B B' e WB O F. destruct (offsets_ok B B' e WB O) as [L P].
  assert (K : forall n, forall i, (i < n)%nat -> (i < length B)%nat -> sec (bc B' i) = sec (bc B i) /\ setter (bc B' i) = setter (bc B i) /\ bmult (bc B' i) = bmult (bc B i) /\ blen (bc B' i) = blen (bc B i)).
  { induction n as [|n IH]; intros i I IL; [lia|]. destruct (P i IL) as (P1 & P2 & P3 & P4 & P5). repeat split; auto.
    destruct (setter (bc B i)) as [f|] eqn:SE; auto.
    assert (E : start B' i = start B i).
    { unfold start. rewrite P1. apply filled_ext; auto. intros j J. destruct (IH j ltac:(lia) ltac:(lia)) as (E1 & _ & E2 & E3). split; auto. intros _. unfold bsize. congruence. }
    rewrite E, (F i f IL SE) in P5. auto. }
  split; [split; auto; intros i I; apply (K (S i)); auto|]. intros i I. apply (P i I).
Qed.

Section End.
Variables (ss : list span) (B0 : list bcode) (ds0 : list dyn).
Lemma settled_of : forall z B, core ss B0 ds0 z -> osinv B0 z -> qa z = [] -> qb z = [] -> bad z = false -> err z = false ->
  like (bcs z) B -> (forall i, (i < length (bcs z))%nat -> boff (bc B i) = start B i) -> settled ss B0 B (stages ss (dyns z)).
Proof.
  intros z B C [O1 O2] QA QB BD ER LK OF. destruct C as [[D1 D2 D3 D4] C2 C3 C4 C5 C6 C7 C8 C9]. pose proof LK as [LN _]. pose proof (like_all _ _ LK) as LA.
  assert (NQ : forall k, act (dy z k) <> Queued) by (intros k H; apply D4 in H; rewrite QA, QB in H; exact H).
  assert (ONE : forall k, live (dy z k) = true -> act (dy z k) = On) by (intros k H; unfold live in H; pose proof (NQ k) as Q; destruct (act (dy z k)); congruence).
  assert (VAL : forall k f, live (dy z k) = true -> value (sp ss k) = Some f -> val B (sp ss k) = new_val (sp ss k) (dy z k)).
  { intros k f L V. rewrite (like_val _ _ LK). unfold val, new_val. rewrite V, (C8 k L). reflexivity. }
  constructor.
  - apply stages_length. auto.
  - split; [congruence|]. intro i. destruct (LA i) as (-> & -> & _). apply C3.
  - intros i I. apply OF. lia.
  - intros i I N. destruct (LA i) as (_ & E2 & _ & ->). apply C5; [lia|]. destruct (C3 i) as [_ E]. congruence.
  - intros i f I SF. rewrite (like_start _ _ LK). destruct (LA i) as (_ & E2 & _ & ->). destruct (C3 i) as [_ E3].
    assert (IN : In i (map fst (oss z))) by (rewrite O1; apply setidx_in; split; [lia|congruence]).
    apply in_map_iff in IN. destruct IN as ([i' c] & E & IN). cbn in E. subst i'. rewrite Forall_forall in O2. destruct (O2 _ IN) as [S1 S2]. cbn [fst snd] in S1, S2.
    rewrite <- S1. apply S2; auto. congruence.
  - intros s I A. apply (In_nth _ _ nospan) in I. destruct I as (k & K & <-). fold (sp ss k) in *.
    destruct (D2 k K) as [L1 L2 L3 L4 L5 L6]. destruct (live (dy z k)) eqn:LV; [|destruct (L6 eq_refl); congruence].
    specialize (L4 (ONE k LV) BD). unfold over in L4. rewrite A in L4. apply negb_false_iff, Z.eqb_eq in L4.
    destruct (value (sp ss k)) as [f|] eqn:V; [|elim (L5 eq_refl eq_refl)]. rewrite (VAL k f LV V), L4. destruct (LA (sbc (sp ss k))) as (_ & _ & -> & _). apply C6; auto.
  - intros i H. destruct (LA i) as (_ & _ & -> & _). apply C7. auto.
  - intros k K A. destruct (D2 k K) as [L1 L2 L3 L4 L5 L6]. rewrite stages_nth by auto. fold (dy z k). split; auto.
    destruct (live (dy z k)) eqn:LV.
    + destruct L3 as [L3|[_ L3]]; [|discriminate]. rewrite L3. specialize (L4 (ONE k LV) BD). unfold over in L4. rewrite A in L4. apply orb_false_iff in L4. rewrite !Z.ltb_ge in L4.
      destruct (value (sp ss k)) as [f|] eqn:V; [|elim (L5 eq_refl eq_refl)]. rewrite (VAL k f LV V). lia.
    + destruct (L6 eq_refl) as [_ [E|[V R]]]; [rewrite E; auto|]. destruct L3 as [L3|[L3 _]]; rewrite L3; auto. unfold val. rewrite V. auto.
Qed.

Variable t : tree.
Hypothesis W : wf ss B0.
Hypothesis T : insert_all Nil (intervals ss ds0) = Some t.
Definition work (z : st) : nat := total z * S (length ss) + length (qa z ++ qb z).
Definition ending (Q : st -> Prop) (z : st) : Prop := inv ss B0 ds0 z /\ Q z /\ qa z = [] /\ qb z = [].
Lemma queue_small : forall z, dinv ss z -> (length (qa z ++ qb z) <= length ss)%nat.
Proof.
  intros z [D1 D2 D3 D4]. rewrite <- (seq_length (length ss) 0). apply NoDup_incl_length; auto. intros k K. apply D4 in K. apply in_seq. split; [lia|]. cbn. rewrite <- D1.
  destruct (Nat.lt_ge_cases k (length (dyns z))); auto. unfold dy in K. rewrite nth_overflow in K by auto. discriminate.
Qed.
Lemma loop_ok : forall (Q : st -> Prop),
  (forall z z' k a b, Q z -> inv ss B0 ds0 z -> qa z ++ qb z = k :: a ++ b -> round ss t k (St (bcs z) (dyns z) a b (oss z) (err z) (bad z)) = Some (Go z') -> did ss z z' k -> inv ss B0 ds0 z' -> Q z') ->
  forall fuel z, inv ss B0 ds0 z -> Q z ->
  match loop fuel ss t z with
  | Done B ds => exists z', ending Q z' /\ bad z' = false /\ err z' = false /\ offsets None 0 (bcs z') = (B, false) /\ ds = dyns z'
  | Error => exists z', ending Q z' /\ (bad z' = true \/ err z' = true \/ snd (offsets None 0 (bcs z')) = true)
  | Internal => grows ss B0 -> nonneg z -> False
  | OutOfFuel => grows ss B0 -> (fuel <= work z)%nat
  end.
Proof.
  intros Q HQ. induction fuel as [|f IH]; intros z IV QZ; [cbn; intros; lia|]. cbn [loop].
  assert (STEP : forall k a b, qa z ++ qb z = k :: a ++ b ->
    match match round ss t k (St (bcs z) (dyns z) a b (oss z) (err z) (bad z)) with Some (Go z') => loop f ss t z' | Some Crash => Internal | None => Internal end with
    | Done B ds => exists z', ending Q z' /\ bad z' = false /\ err z' = false /\ offsets None 0 (bcs z') = (B, false) /\ ds = dyns z'
    | Error => exists z', ending Q z' /\ (bad z' = true \/ err z' = true \/ snd (offsets None 0 (bcs z')) = true)
    | Internal => grows ss B0 -> nonneg z -> False
    | OutOfFuel => grows ss B0 -> (S f <= work z)%nat
    end).
  { intros k a b E. destruct (round_ok ss B0 ds0 t W T z k a b IV E) as (r & R1 & R2). rewrite R1. destruct r as [z'|]; [|auto].
    destruct R2 as (I' & DD & NN & DEC). pose proof (HQ z z' k a b QZ IV E R1 DD I') as Q'. specialize (IH z' I' Q'). destruct (loop f ss t z'); auto.
    intro G. assert (A : any (sp ss k) = false).
    { destruct G as (_ & _ & _ & G). apply G. apply nth_In. destruct IV as [[[D1 D2 D3 D4] _ _ _ _ _ _ _ _] _]. assert (X : In k (qa z ++ qb z)) by (rewrite E; cbn; auto). apply D4 in X. rewrite <- D1.
      destruct (Nat.lt_ge_cases k (length (dyns z))); auto. unfold dy in X. rewrite nth_overflow in X by auto. discriminate. }
    specialize (IH G). pose proof (queue_small z' (c_dinv _ _ _ _ (proj1 I'))) as QS. unfold work in *. destruct (DEC A) as [[E1 E2]|LT]; [rewrite E1, E2 in IH; rewrite E; cbn [length]; lia|]. nia. }
  destruct (qa z) as [|k a] eqn:QA; [destruct (qb z) as [|k b] eqn:QB|].
  - assert (EZ : ending Q z) by (split; [auto|split; auto]). clear STEP. destruct (bad z) eqn:BD; [exists z; split; auto|].
    destruct (offsets None 0 (bcs z)) as [B e] eqn:OF. destruct (err z) eqn:ER; [exists z; split; auto|]. cbn [orb].
    destruct e; exists z; split; auto. right. right. rewrite OF. reflexivity.
  - apply (STEP k [] b). reflexivity.
  - apply (STEP k a (qb z)). reflexivity.
Qed.
End End.

(** * Step 1 *)
Lemma sec_first : forall B B' i, (forall j, sec (bc B' j) = sec (bc B j)) -> first B' i <-> first B i.
Proof. intros B B' [|i] H; cbn; [tauto|]. rewrite !H. tauto. Qed.
Lemma start_first : forall B i, (forall a b, (a <= b)%nat -> (b < length B)%nat -> (sec (bc B a) <= sec (bc B b))%nat) -> (i < length B)%nat -> first B i -> start B i = 0.
Proof.
  intros B [|i] S I F; [unfold start; destruct B; reflexivity|]. cbn in F. unfold start. apply filled_none. intros j J _ E.
  pose proof (S j i ltac:(lia) ltac:(lia)). pose proof (S i (Datatypes.S i) ltac:(lia) I). lia.
Qed.
Lemma wfB_mk : forall B B', wfB B -> length B' = length B -> (forall i, sec (bc B' i) = sec (bc B i) /\ setter (bc B' i) = setter (bc B i)) ->
  (forall i, (i < length B)%nat -> setter (bc B i) <> None -> bmult (bc B' i) = bmult (bc B i)) ->
  (forall i, (i < length B)%nat -> first B i -> boff (bc B' i) = 0 /\ blen (bc B' i) = 0) -> wfB B'.
Proof.
  intros B B' [W1 W2 W3] L S M F. constructor; rewrite ?L.
  - intros i j IJ J. destruct (S i) as [-> _], (S j) as [-> _]. auto.
  - intros i I FI. apply (sec_first B B') in FI; [|intro j; apply S]. destruct (F i I FI). destruct (W2 i I FI) as (_ & _ & E). destruct (S i) as [_ ->]. auto.
  - intros i I N. destruct (S i) as [_ E]. rewrite E in N. rewrite M; auto.
Qed.
Lemma wfB_offsets : forall B B', wfB B -> offsets None 0 B = (B', false) -> wfB B'.
Proof.
  intros B B' WB O. destruct (offsets_ok B B' false WB O) as [L P].
  assert (SE : forall i, sec (bc B' i) = sec (bc B i) /\ setter (bc B' i) = setter (bc B i)).
  { intro i. destruct (Nat.lt_ge_cases i (length B)) as [I|I]; [destruct (P i I) as (A1 & A2 & _); auto|]. unfold bc. rewrite !nth_overflow by lia. auto. }
  apply (wfB_mk B); auto.
  - intros i I _. apply (P i I).
  - intros i I F. destruct (P i I) as (_ & _ & _ & E & X). destruct (w_first B WB i I F) as (_ & Z0 & S0). rewrite S0 in X. rewrite E. split; [|congruence].
    apply start_first; [|lia|apply (sec_first B B'); auto; intro j; apply SE]. intros a b AB BL. destruct (SE a) as [-> _], (SE b) as [-> _]. apply (w_sorted B WB); auto. lia.
Qed.

(** The state of a span after its first look. *)
Record fresh (s : span) (d : dyn) : Prop := {
  f_left : left d = skipn (stage s d) (forms s);
  f_reach : reach s (stage s d);
  f_lim : limits s (stage s d) = Some (lo d, hi d) \/ limits s (stage s d) = None /\ live d = false;
  f_live : live d = true -> value s <> None;
  f_dead : live d = false -> any s = false /\ (act d = Gone /\ limits s (stage s d) = None \/ act d = Off /\ value s = None /\ lo d <= LONG_MAX <= hi d);
  f_queue : act d <> Queued
}.
Lemma stage_O : forall s v c l h a, stage s (Dyn v c l h a (forms s)) = O.
Proof. intros. unfold stage. cbn. lia. Qed.
Lemma reach_O : forall s, reach s O.
Proof. intro s. split; [lia|]. split; intros j J; lia. Qed.
Lemma first_look_eq : forall s B, first_look s B =
  let d0 := Dyn (map (tval B s) (terms s)) 0 (lo0 s) (hi0 s) On (forms s) in
  if circular s then (d0, B, true)
  else let d1 := match value s with None => with_act Off d0 | Some _ => d0 end in
    if over s d0 then
      if any s then (with_cur (new_val s d0) d1, upd (sbc s) (with_mult (new_val s d0)) B, match act d1 with On => false | _ => true end)
      else match advance (new_val s d0) (forms s) with
           | None => (with_cur (new_val s d0) d1, B, true)
           | Some (g, None, r) => (with_act Gone (Dyn (vals d1) (cur d1) (lo d1) (hi d1) (act d1) r), upd (sbc s) (fun b => with_len (blen b + g) b) B, false)
           | Some (g, Some (l, h), r) => (Dyn (vals d1) (new_val s d0) l h (act d1) r, upd (sbc s) (fun b => with_len (blen b + g) b) B, match act d1 with On => false | _ => true end)
           end
    else (with_cur (new_val s d0) d1, B, false).
Proof.
  intros s B. unfold first_look. cbv zeta. destruct (circular s); [reflexivity|]. set (d0 := Dyn _ _ _ _ _ _). rewrite recalc_eq.
  set (d1 := match value s with None => with_act Off d0 | Some _ => d0 end).
  assert (NV : new_val s d1 = new_val s d0) by (unfold d1; destruct (value s); reflexivity).
  assert (LF : left d1 = forms s) by (unfold d1; destruct (value s); reflexivity).
  destruct (over s d0); [|rewrite NV; reflexivity]. unfold expand. rewrite NV, LF. destruct (any s).
  - change (1 <? 0) with false. change (0 <? 1) with true. cbv iota. rewrite NV. reflexivity.
  - destruct (advance (new_val s d0) (forms s)) as [[[g [[l h]|]] r]|].
    + change (1 <? 0) with false. change (0 <? 1) with true. cbv iota. unfold with_cur. cbn [vals cur lo hi act left].
      replace (new_val s (Dyn (vals d1) (cur d1) l h (act d1) r)) with (new_val s d0) by (rewrite <- NV; unfold new_val; reflexivity). reflexivity.
    + change (0 <? 0) with false. cbv iota. reflexivity.
    + change (-1 <? 0) with true. cbv iota. rewrite NV. reflexivity.
Qed.
Definition portion (s : span) (k i : nat) : Z := if Nat.eqb (sbc s) i && negb (any s) then grown s k else 0.
Lemma first_ok : forall s B d B', first_look s B = (d, B', false) -> (sbc s < length B)%nat -> (any s = true -> bmult (bc B (sbc s)) = 0) ->
  length B' = length B /\
  (forall i, sec (bc B' i) = sec (bc B i) /\ setter (bc B' i) = setter (bc B i) /\ boff (bc B' i) = boff (bc B i) /\
             blen (bc B' i) = blen (bc B i) + portion s (stage s d) i /\ (any s = false \/ i <> sbc s -> bmult (bc B' i) = bmult (bc B i))) /\
  (any s = true -> bmult (bc B' (sbc s)) = cur d) /\ fresh s d.
Proof.
  intros s B d B' H SB M0. rewrite first_look_eq in H. cbv zeta in H. destruct (circular s); [discriminate|]. set (d0 := Dyn _ _ _ _ _ _) in H.
  set (d1 := match value s with None => with_act Off d0 | Some _ => d0 end) in H.
  assert (LF : left d1 = forms s) by (unfold d1; destruct (value s); reflexivity).
  assert (SG : forall d, left d = forms s -> stage s d = O) by (intros d' E; unfold stage; rewrite E; lia).
  assert (PO : forall i, portion s 0 i = 0) by (intro i; unfold portion, grown; destruct (_ && _); reflexivity).
  assert (A1 : act d1 = On -> value s <> None) by (unfold d1; destruct (value s); [discriminate|intro X; discriminate]).
  assert (A2 : act d1 <> Gone /\ act d1 <> Queued) by (unfold d1; destruct (value s); split; discriminate).
  assert (A3 : live d1 = false -> act d1 = Off /\ value s = None) by (unfold d1; destruct (value s); cbn; [discriminate|auto]).
  assert (LM : lo d1 = lo0 s /\ hi d1 = hi0 s) by (unfold d1; destruct (value s); auto). destruct LM as [LM1 LM2].
  assert (NIL : forall X, (length X = length B /\ X = B) -> forall i, sec (bc X i) = sec (bc B i) /\ setter (bc X i) = setter (bc B i) /\ boff (bc X i) = boff (bc B i) /\ blen (bc X i) = blen (bc B i) + 0 /\ (any s = false \/ i <> sbc s -> bmult (bc X i) = bmult (bc B i))).
  { intros X [_ ->] i. repeat split; lia. }
  destruct (over s d0) eqn:OV.
  2:{ injection H as <- <-.
      assert (SZ : stage s (with_cur (new_val s d0) d1) = O) by (apply SG; exact LF).
      split; auto. split; [intro i; rewrite SZ, PO; apply NIL; auto|]. split.
      - intro A. rewrite M0 by auto. cbn. unfold over in OV. rewrite A in OV. apply negb_false_iff, Z.eqb_eq in OV. rewrite OV. reflexivity.
      - constructor; rewrite ?SZ; cbn [left lo hi act with_cur]; auto.
        + apply reach_O.
        + left. cbn. rewrite LM1, LM2. reflexivity.
        + intro L. apply A1. change (live d1 = true) in L. unfold live in L. destruct (act d1); try discriminate; auto. elim (proj2 A2). reflexivity.
        + intro L. destruct (A3 L) as [E1 E2]. unfold over in OV. unfold new_val in OV. rewrite E2 in OV. destruct (any s); [discriminate OV|]. split; auto. right. repeat split; auto; apply orb_false_iff in OV; rewrite !Z.ltb_ge in OV; rewrite ?LM1, ?LM2; cbn in OV; lia.
        + apply A2. }
  destruct (any s) eqn:AN.
  - injection H as <- <- E. assert (ON : act d1 = On) by (destruct (act d1); congruence).
    assert (SZ : stage s (with_cur (new_val s d0) d1) = O) by (apply SG; exact LF).
    split; [apply upd_length|]. split; [|split].
    + intro i. rewrite SZ, PO, bc_upd. destruct (Nat.eqb_spec (sbc s) i) as [<-|N]; cbn [andb]; [|repeat split; lia].
      destruct (Nat.ltb_spec (sbc s) (length B)); [|lia]. cbn. repeat split; lia.
    + intros _. rewrite bc_upd, Nat.eqb_refl. apply Nat.ltb_lt in SB. rewrite SB. reflexivity.
    + constructor; rewrite ?SZ; cbn [left lo hi act with_cur]; auto.
      * apply reach_O.
      * left. cbn. rewrite LM1, LM2. reflexivity.
      * intro L. change (live d1 = false) in L. unfold live in L. rewrite ON in L. discriminate.
      * congruence.
  - destruct (advance (new_val s d0) (forms s)) as [[[g o] r]|] eqn:AD; [|discriminate].
    destruct (advance_ok s (new_val s d0) O g o r (reach_O s) ltac:(discriminate) ltac:(lia) AD) as (k & K1 & K2 & K3 & K4 & K5 & K6 & K7).
    assert (SK : forall d, left d = r -> stage s d = k) by (intros d' E; unfold stage; rewrite E, K3, skipn_length; lia).
    assert (G0 : grown s 0 = 0) by reflexivity.
    assert (UP : forall d, left d = r -> forall i, let X := upd (sbc s) (fun b => with_len (blen b + g) b) B in sec (bc X i) = sec (bc B i) /\ setter (bc X i) = setter (bc B i) /\ boff (bc X i) = boff (bc B i) /\ blen (bc X i) = blen (bc B i) + portion s (stage s d) i /\ (false = false \/ i <> sbc s -> bmult (bc X i) = bmult (bc B i))).
    { intros d' E i X. unfold X. rewrite (SK d' E), bc_upd. unfold portion. rewrite AN. destruct (Nat.eqb_spec (sbc s) i) as [<-|N]; cbn [andb negb]; [|repeat split; lia].
      destruct (Nat.ltb_spec (sbc s) (length B)); [|lia]. cbn. repeat split; lia. }
    destruct o as [[l h]|].
    + injection H as <- <- E. assert (ON : act d1 = On) by (destruct (act d1); congruence). split; [apply upd_length|]. split; [apply UP; reflexivity|]. split; [discriminate|].
      constructor; try rewrite SK by reflexivity; cbn [left lo hi act]; auto.
      * intro L. unfold live in L. cbn [act] in L. rewrite ON in L. discriminate.
      * congruence.
    + injection H as <- <-. split; [apply upd_length|]. split; [apply UP; reflexivity|]. split; [discriminate|].
      constructor; try rewrite SK by reflexivity; cbn [left lo hi act with_act]; auto; try discriminate.
Qed.
