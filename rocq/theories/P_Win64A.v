(** Proofs for the unwind information of win64 objects: what is accepted (C85). *)
From Coq Require Import ZArith List Bool Lia.
From Verif Require Import Lib LibBits M_BitVect P_BitVect P_BitVectIO M_Intnum P_Intnum P_IntnumIO M_Win64 P_Win64 P_Win64L P_Win64T.
Import ListNotations.
Open Scope Z_scope.

(** * Specification *)
(** The offset of a directive: a constant the directive may have. *)
Definition fine (d : dir) : Prop :=
  match d with
  | SETFRAME _ None => True
  | SETFRAME _ (Some o) => exists i, constant i o /\ canon i /\ 0 <= ival i <= 240 /\ (16 | ival i)
  | ALLOCSTACK (Some o) | SAVEREG _ (Some o) | SAVEXMM128 _ (Some o) => exists i, constant i o /\ canon i /\ allowed d (ival i) /\ ival i < 2 ^ 31
  | _ => True
  end.
(** A procedure within the limits of the format: its label and its directives in one section, the prologue not above 255 bytes,
    constant offsets, not more than 255 slots. *)
Definition within (W : world) (p : proc) : Prop :=
  exists s a, W (p_sym p) = Some (s, a) /\ fst (p_prolog p) = s /\ fst (p_end p) = s /\ 0 <= rel W p (p_prolog p) <= 255 /\
    Forall (fun x => fst (fst x) = s /\ 0 <= rel W p (fst x) <= 255 /\ fine (snd x)) (p_ops p) /\
    (fold_right (fun x n => needs (says (snd x)) + n) 0 (p_ops p) <= 510)%nat.

(** * Proofs *)
Lemma text_inj : forall ps ps', Forall proc_ok ps -> Forall proc_ok ps' -> flat_map text ps = flat_map text ps' -> ps = ps'.
Proof.
  assert (OPS : forall ops ops' q q' e e' r r', Forall (fun x => op_ok (snd x)) ops -> Forall (fun x => op_ok (snd x)) ops' ->
    (map (fun x : pos * dir => At (fst x) (snd x)) ops ++ [At q ENDPROLOG; At e ENDPROC_FRAME]) ++ r = (map (fun x : pos * dir => At (fst x) (snd x)) ops' ++ [At q' ENDPROLOG; At e' ENDPROC_FRAME]) ++ r' -> ops = ops' /\ q = q' /\ e = e' /\ r = r').
  { induction ops as [|[p d] ops IH]; intros [|[p' d'] ops'] q q' e e' r r' F F' H; cbn [map app fst snd] in H.
    - injection H. auto.
    - exfalso. inversion F' as [|? ? F1 _]; subst. cbn [snd] in F1. injection H. intros. subst. cbn in F1. auto.
    - exfalso. inversion F as [|? ? F1 _]; subst. cbn [snd] in F1. injection H. intros. subst. cbn in F1. auto.
    - inversion F as [|? ? F1 F2]; subst. inversion F' as [|? ? F1' F2']; subst. assert (H0 : (p, d) = (p', d')) by (injection H; intros; subst; auto). injection H. intros H' _ _. destruct (IH ops' q q' e e' r r' F2 F2' H') as (-> & -> & -> & ->). rewrite H0. auto. }
  induction ps as [|p ps IH]; intros [|p' ps'] F F' H; [auto|discriminate H|discriminate H|]. inversion F as [|? ? F1 F2]; subst. inversion F' as [|? ? F1' F2']; subst. cbn [flat_map] in H. destruct p as [a f h ops q e], p' as [a' f' h' ops' q' e']. unfold text in H. cbn [p_start p_sym p_hnd p_ops p_prolog p_end app] in H. unfold proc_ok in F1, F1'. cbn [p_ops] in F1, F1'.
  injection H. intros H' -> -> ->. destruct (OPS _ _ _ _ _ _ _ _ F1 F1' H') as (-> & -> & -> & R). rewrite (IH ps' F2 F2' R). auto.
Qed.
Lemma get_int_small : forall i, canon i -> 0 <= ival i < 2 ^ 31 -> get_int i = ival i.
Proof. intros i C R. rewrite get_int_ok by auto. cbv zeta. destruct (Z.leb_spec (ival i) (- 2 ^ 31)); [lia|]. destruct (Z.ltb_spec (ival i) (2 ^ 31)); lia. Qed.
Lemma code_clean : forall W f p d k, world_ok W -> pos_ok p -> op_ok d -> fine d -> dist W p f = Some k -> - 128 <= k <= 255 ->
  (exists x, code_out W (code_of f (p, d)) = (x, [], [])) /\ b_len (fst (size_code (code_of f (p, d)))) = Z.of_nat (needs (says d)).
Proof.
  intros W f p d k WO PO OK FI D K. assert (P32 : 2 ^ 32 = 2 * 2 ^ 31) by reflexivity.
  assert (V : with_offset d -> forall o i, offs_of d = Some o -> constant i o -> canon i -> allowed d (ival i) -> ival i < 2 ^ 31 -> (exists x, code_out W (code_of f (p, d)) = (x, [], [])) /\ fst (size_code (code_of f (p, d))) = goal_bc d (c_info (code_of f (p, d))) (ival i) /\ final (Some o) mod 2 ^ 32 = ival i).
  { intros WI o i OF CN C AL L31. split; [apply (constant_iff W f p d o i k WO PO OK WI OF CN C D K); auto|]. split; [rewrite (const_form f p d o i OK OF CN C AL L31); auto|]. unfold final. cbn [late_of]. destruct CN as (_ & -> & _). apply Z.mod_small. destruct d; cbn [allowed] in AL; lia || contradiction. }
  destruct d as [f' h|[r|]|[r|] o|[o|]|[r|] [o|]|[r|] [o|]|b| |]; cbn [op_ok] in OK; try contradiction;
  try (split; [unfold code_out, size_code, calc_len; cbn [code_of snd c_op UWOP_PUSH_NONVOL UWOP_SET_FPREG UWOP_PUSH_MACHFRAME Z.eqb Pos.eqb orb]; unfold code_bytes; cbn [b_op c_loc c_proc fst]; rewrite D, (out8_fwd k K); cbn [UWOP_PUSH_NONVOL UWOP_SET_FPREG UWOP_PUSH_MACHFRAME Z.eqb Pos.eqb orb app]; eauto|reflexivity]);
  cbn [fine] in FI; destruct FI as (i & CN & C & AL & L31); destruct (V I o i eq_refl CN C AL L31) as (V1 & V2 & V3); (split; [exact V1|]); rewrite V2; cbn [goal_bc says needs]; rewrite V3; repeat match goal with |- context [?a <=? ?b] => destruct (Z.leb_spec a b) end; reflexivity.
Qed.
Lemma codes_clean : forall W cs, Forall (fun c => exists x, code_out W c = (x, [], [])) cs -> exists x, codes_out W cs = (x, [], []).
Proof. intros W cs F. induction F as [|c cs [x X] F [y Y]]; [exists []; auto|]. cbn [codes_out]. rewrite X, Y. cbn [append app]. eauto. Qed.
Lemma check_clean : forall v, 0 <= v <= 240 -> (16 | v) -> check_frame v = [].
Proof. intros v R D. unfold check_frame. destruct (Z.ltb_spec v 0); [lia|]. destruct (Z.ltb_spec 240 v); [lia|]. cbn [orb]. change 15 with (2 ^ 4 - 1). rewrite nz_land; [auto|lia|]. change (2 ^ 4) with 16. apply Z.mod_divide; [lia|auto]. Qed.
Lemma info_clean : forall W u q d, u_prolog u = Some q -> dist W q (u_proc u) = Some d -> 0 <= d <= 255 -> 0 <= count (u_codes u) <= 255 -> (u_frameoff u = None \/ exists o i, u_frameoff u = Some o /\ constant i o /\ canon i /\ 0 <= ival i <= 240 /\ (16 | ival i)) ->
  exists x, info_out W u = (x, [], []).
Proof.
  intros W u q d Q D R N F. unfold info_out. cbv zeta. rewrite Q, D.
  assert (S : forall v e, 0 <= v <= 255 -> span_byte (Some v) e = []) by (intros v e V; unfold span_byte; destruct (Z.ltb_spec v 0); [lia|]; destruct (Z.ltb_spec 255 v); [lia|]; auto).
  rewrite !S by auto. rewrite !out8_fwd by lia. set (n := count (u_codes u)) in *. clearbody n.
  destruct F as [F|(o & i & F & (CE & CL & CS) & C & V & DV)]; rewrite F.
  - cbn [late_of get_int]. unfold frame_span. cbn [early_of]. assert (Z0 : check_frame (get_int (IL 0)) = []) by reflexivity. rewrite Z0. cbn [append app]. eauto.
  - unfold frame_span. cbn [early_of late_of]. rewrite CE, CL. rewrite (get_int_small i C ltac:(lia)), (check_clean _ V DV). cbn [append app]. eauto.
Qed.
Lemma block_clean : forall W o u, (exists x, info_out W u = (x, [], [])) -> (exists x, codes_out W (u_codes u) = (x, [], [])) -> exists x r, block W o u = ((x, [], []), r).
Proof. intros W o u [x X] [y Y]. unfold block. rewrite X, Y. cbn [append app fst]. destruct (u_handler u); eauto. Qed.
Lemma layout_clean : forall W l o, (forall u, In (Unwind u) l -> forall o, exists x r, block W o u = ((x, [], []), r)) -> exists x r, layout W o l = ((x, [], []), r).
Proof.
  intros W. induction l as [|i l IH]; intros o H; [cbn; eauto|]. rewrite layout_eq.
  assert (I : exists x r, match i with Unwind u => block W o u | User b => ((b, [], []), []) end = ((x, [], []), r)) by (destruct i as [u|b]; [apply H; left; auto|eauto]).
  destruct I as (x & r & ->). destruct (IH (o + Z.of_nat (length (fst (fst (x, @nil werr, @nil swarn))))) ltac:(intros u U; apply H; right; auto)) as (y & r' & ->). cbn [append app]. eauto.
Qed.
Lemma rel_dist : forall W p q s a, W (p_sym p) = Some (s, a) -> fst q = s -> dist W q (p_sym p) = Some (rel W p q).
Proof. intros W p q s a H F. unfold dist, rel. rewrite H, F, Z.eqb_refl. auto. Qed.
Lemma sum_len : forall cs ns, Forall2 (fun c n => b_len (fst (size_code c)) = Z.of_nat n) cs ns -> fold_right (fun c n => b_len (fst (size_code c)) + n) 0 cs = Z.of_nat (fold_right plus 0%nat ns).
Proof. intros cs ns F. induction F as [|c n cs ns A F IH]; [auto|]. cbn [fold_right]. rewrite A, IH. lia. Qed.
Lemma sum_rev : forall ns, fold_right plus 0%nat (rev ns) = fold_right plus 0%nat ns.
Proof. assert (A : forall l m, fold_right plus m l = (fold_right plus 0 l + m)%nat) by (induction l as [|x l IH]; intros m; [auto|]; cbn [fold_right]; rewrite IH; lia). induction ns as [|n ns IH]; [auto|]. cbn [rev fold_right]. rewrite fold_right_app. cbn [fold_right]. rewrite A, IH. lia. Qed.
Lemma frame_last : forall ops u o, u_frameoff (fold_left add_op ops u) = Some o -> u_frameoff u = Some o \/ exists p r, In (p, SETFRAME (Some r) (Some o)) ops.
Proof.
  induction ops as [|x ops IH]; intros u o H; [auto|]. cbn [fold_left] in H. destruct (IH _ _ H) as [Q|(p & r & I)]; [|right; exists p, r; right; auto].
  destruct x as [p [f h|[r|]|[r|] o'|[o'|]|[r|] [o'|]|[r|] [o'|]|b| |]]; cbn in Q; auto. subst o'. right. exists p, r. left. auto.
Qed.
Theorem accepts : forall W es ps, world_ok W -> Forall event_ok es -> Forall proc_ok ps -> dirs es = flat_map text ps -> Forall (within W) ps ->
  o_errs (assemble W es) = [] /\ o_warns (assemble W es) = [] /\
  Forall2 (fun p e => pe_proc e = p_sym p /\ pe_size e = rel W p (p_end p) /\ decode (o_xdata (assemble W es)) (o_refs (assemble W es)) (up4 (pe_unwind e)) = Some (describe_exactly W p)) ps (o_pdata (assemble W es)).
Proof.
  intros W es ps WO EO PO D WI. assert (A : o_errs (assemble W es) = [] /\ o_warns (assemble W es) = []).
  { destruct (proj2 (source es) (ex_intro _ ps (conj PO D))) as [E F]. destruct (procs_of es E F) as (ps' & PO' & D' & F2 & _ & UC). assert (ps' = ps) by (apply text_inj; congruence). subst ps'. clear PO' D'.
    assert (CL : forall u, In (Unwind u) (xdata (run es)) -> forall o, exists x r, block W o u = ((x, [], []), r)).
    { intros u U o. destruct (UC u U) as (p & P & ->). clear U UC F2. rewrite Forall_forall in PO, WI. specialize (PO p P). destruct (WI p P) as (s & a & W1 & W2 & W3 & W4 & W5 & W6).
      destruct (codes_of (p_ops p) (Info (p_sym p) None (p_hnd p) 0 None []) PO) as (A1 & A2 & _ & _ & _). cbn [u_proc u_codes] in A1, A2. rewrite app_nil_r in A1.
      assert (CC : Forall (fun x => (exists y, code_out W (code_of (p_sym p) x) = (y, [], [])) /\ b_len (fst (size_code (code_of (p_sym p) x))) = Z.of_nat (needs (says (snd x)))) (p_ops p)).
      { apply Forall_forall. intros x X. unfold proc_ok in PO. rewrite Forall_forall in PO, W5. destruct (W5 x X) as (B1 & B2 & B3). assert (EX : event_ok (At (fst x) (snd x))). { rewrite Forall_forall in EO. apply EO, dirs_in. rewrite D. apply in_flat_map. exists p. split; [auto|]. cbn [text In]. right. apply in_app_iff. left. apply in_map_iff. exists x. auto. } cbn [event_ok] in EX.
        destruct x as [q d]. cbn [fst snd] in *. apply (code_clean W (p_sym p) q d (rel W p q) WO (proj1 EX) (PO _ X) B3 (rel_dist W p q s a W1 B1)). lia. }
      apply block_clean.
      - apply (info_clean W (closed p) (p_prolog p) (rel W p (p_prolog p))); [reflexivity| |auto| |].
        + unfold closed, ended. cbn [u_proc]. unfold opened. rewrite A2. apply (rel_dist W p _ s a); auto.
        + unfold closed, ended. cbn [u_codes]. unfold opened. rewrite A1. unfold count. rewrite (sum_len _ (rev (map (fun x => needs (says (snd x))) (p_ops p)))).
          * rewrite sum_rev. assert (E1 : fold_right plus 0%nat (map (fun x : pos * dir => needs (says (snd x))) (p_ops p)) = fold_right (fun x n => (needs (says (snd x)) + n)%nat) 0%nat (p_ops p)) by (clear; induction (p_ops p) as [|x l IH]; [auto|]; cbn [map fold_right]; rewrite IH; auto). rewrite E1. rewrite Z.shiftr_div_pow2 by lia. change (2 ^ 1) with 2. set (m := fold_right _ _ _) in *. clearbody m. split; [apply Z.div_pos; lia|]. apply Z.lt_succ_r. apply Z.div_lt_upper_bound; lia.
          * clear - CC. rewrite <- map_rev, <- map_rev. apply Forall_rev in CC. induction CC as [|x l [_ C1] C2 IH]; [constructor|]. cbn [map]. constructor; auto.
        + unfold closed, ended. cbn [u_frameoff]. destruct (u_frameoff (opened (p_sym p) (p_hnd p) (p_ops p))) as [o'|] eqn:FO; [|auto]. right. unfold opened in FO. destruct (frame_last _ _ _ FO) as [Q|(q & r & I)]; [discriminate Q|]. rewrite Forall_forall in W5. destruct (W5 _ I) as (_ & _ & i & Q). exists o', i. auto.
      - unfold closed, ended. cbn [u_codes]. unfold opened. rewrite A1. apply codes_clean. apply Forall_rev. apply Forall_map. eapply Forall_impl; [|exact CC]. cbn beta. tauto. }
    destruct (layout_clean W (xdata (run es)) 0 CL) as (x & r & L). rewrite assemble_eq. cbv zeta. rewrite L, E, F. cbn [o_errs o_warns app]. split; [|auto]. rewrite app_nil_r.
    clear - F2 WI. revert WI. generalize (xdata (run es)) at 1. induction F2 as [|p e ps es' (P1 & P2 & _) F2 IH]; intros xs WI; [auto|]. inversion WI as [|? ? (s & a & W1 & W2 & W3 & _) WI']; subst. cbn [map flat_map]. rewrite IH by auto. unfold pd_out. cbv zeta. rewrite P1, P2, (rel_dist W p _ _ a W1 W3). reflexivity. }
  destruct A as [A1 A2]. split; [auto|]. split; [auto|]. destruct (roundtrip W es WO EO A1 A2) as (ps' & PO' & D' & F2). assert (ps' = ps) by (apply text_inj; congruence). subst ps'.
  assert (NA : Forall (natural W) ps). { eapply Forall_impl; [|exact WI]. intros p (s & a & _ & _ & _ & _ & W5 & _). unfold natural. eapply Forall_impl; [|exact W5]. cbn beta. intros x (_ & R & FI). split; [exact (proj1 R)|]. intros o OF EN. exfalso. destruct x as [q d]. cbn [snd] in *. destruct d as [f' h|r|r [o'|]|[o'|]|r [o'|]|r [o'|]|b| |]; cbn [offs_of fine] in OF, FI; try discriminate OF; destruct FI as (i & (CE & _) & _); congruence. }
  clear - F2 NA. revert NA. induction F2 as [|p e ps l U F2 IH]; intros NA; [constructor|]. inversion NA; subst. constructor; [|auto]. destruct U as (U1 & _ & U3 & U4 & U5). rewrite <- U5 by auto. auto.
Qed.
