(** Proofs for the unwind information of win64 objects: from the source to the object (C84, C85, C86). *)
From Coq Require Import ZArith List Bool Lia.
From Verif Require Import Lib LibBits M_BitVect P_BitVect P_BitVectIO M_Intnum P_Intnum P_IntnumIO M_Win64 P_Win64 P_Win64L.
Import ListNotations.
Open Scope Z_scope.

(** * Specification *)
(** Directives of a procedure are after its start, and offsets not known before layout are not negative. *)
Definition natural (W : world) (p : proc) : Prop :=
  Forall (fun x => 0 <= rel W p (fst x) /\ forall o, offs_of (snd x) = Some o -> early o = None -> 0 <= final (Some o)) (p_ops p).
(** What the entries of .pdata and the section .xdata say about the procedures. *)
Definition unwinds (W : world) (x : list Z) (refs : list (Z * Z)) (p : proc) (e : pentry) : Prop :=
  pe_proc e = p_sym p /\ W (p_sym p) <> None /\ pe_size e = rel W p (p_end p) /\
  decode x refs (up4 (pe_unwind e)) = Some (describe W p) /\ (natural W p -> describe W p = describe_exactly W p).
(** An offset known before layout: the optimizer sees no other value. *)
Definition constant (i : intnum) (o : offs) : Prop := early o = Some i /\ late o = Some i /\ Forall (fun v => v = ival i) (seen o).
(** The offsets a directive may have. *)
Definition allowed (d : dir) (n : Z) : Prop :=
  match d with ALLOCSTACK _ => 8 <= n /\ (8 | n) | SAVEREG _ _ => 0 <= n /\ (8 | n) | SAVEXMM128 _ _ => 0 <= n /\ (16 | n) | _ => False end.
(** The code of one directive of the procedure [f]. *)
Definition code_of (f : Z) (x : pos * dir) : code :=
  match snd x with
  | PUSHREG (Some r) => Code f (fst x) UWOP_PUSH_NONVOL (Z.land r 15) None
  | SETFRAME (Some r) o => Code f (fst x) UWOP_SET_FPREG (Z.land r 15) o
  | ALLOCSTACK o => Code f (fst x) UWOP_ALLOC_SMALL 0 o
  | SAVEREG (Some r) o => Code f (fst x) UWOP_SAVE_NONVOL (Z.land r 15) o
  | SAVEXMM128 (Some r) o => Code f (fst x) UWOP_SAVE_XMM128 (Z.land r 15) o
  | PUSHFRAME b => Code f (fst x) UWOP_PUSH_MACHFRAME (if b then 1 else 0) None
  | _ => Code f (fst x) UWOP_PUSH_NONVOL 0 None
  end.

(** * Proofs *)
Lemma codes_of : forall ops u, Forall (fun x => op_ok (snd x)) ops ->
  u_codes (fold_left add_op ops u) = rev (map (code_of (u_proc u)) ops) ++ u_codes u /\ u_proc (fold_left add_op ops u) = u_proc u /\ u_handler (fold_left add_op ops u) = u_handler u /\
  (u_framereg (fold_left add_op ops u) mod 16, final (u_frameoff (fold_left add_op ops u))) = fold_left (fun f x => match snd x with SETFRAME (Some r) o => (r mod 16, final o) | _ => f end) ops (u_framereg u mod 16, final (u_frameoff u)) /\
  (forall o, u_frameoff (fold_left add_op ops u) = Some o -> u_frameoff u = Some o \/ exists x, In x ops /\ offs_of (snd x) = Some o).
Proof.
  induction ops as [|x ops IH]; intros u F; [cbn; auto 6|]. inversion F as [|? ? F1 F2]; subst. cbn [fold_left map rev]. destruct (IH (add_op u x) F2) as (A & B & C & D & E). rewrite A, B, C, D.
  assert (U : u_proc (add_op u x) = u_proc u /\ u_handler (add_op u x) = u_handler u /\ u_codes (add_op u x) = code_of (u_proc u) x :: u_codes u /\ (u_framereg (add_op u x) mod 16, final (u_frameoff (add_op u x))) = match snd x with SETFRAME (Some r) o => (r mod 16, final o) | _ => (u_framereg u mod 16, final (u_frameoff u)) end /\ (forall o, u_frameoff (add_op u x) = Some o -> u_frameoff u = Some o \/ offs_of (snd x) = Some o)).
  { destruct x as [p [f h|[r|]|[r|] o|[o|]|[r|] [o|]|[r|] [o|]|b| |]]; cbn [snd op_ok] in F1; try contradiction; cbn; auto 8. }
  destruct U as (U1 & U2 & U3 & U4 & U5). rewrite U1, U2, U3, U4. split; [rewrite <- app_assoc; reflexivity|]. split; [auto|]. split; [auto|]. split; [reflexivity|].
  intros o O. destruct (E o O) as [O'|(y & Y1 & Y2)]; [|right; exists y; split; [right; auto|auto]]. destruct (U5 o O') as [Q|Q]; [auto|]. right. exists x. split; [left; auto|auto].
Qed.
Lemma land15 : forall r, Z.land r 15 = r mod 16.
Proof. intros. change 15 with (2 ^ 4 - 1). rewrite land_mask by lia. reflexivity. Qed.
Lemma code_of_ok : forall f x, op_ok (snd x) -> pos_ok (fst x) -> (forall o, offs_of (snd x) = Some o -> offs_ok o) -> code_ok (code_of f x) /\ meant (code_of f x) = says (snd x) /\ c_proc (code_of f x) = f /\ c_loc (code_of f x) = fst x.
Proof.
  intros f [p d] OK PO OO. cbn [snd fst] in *. assert (R : forall r, 0 <= Z.land r 15 <= 15) by (intros r; rewrite land15; pose proof (Z.mod_pos_bound r 16 ltac:(lia)); lia).
  unfold code_ok, known. destruct d as [f' h|[r|]|[r|] o|[o|]|[r|] [o|]|[r|] [o|]|b| |]; cbn [op_ok offs_of] in OK, OO; try contradiction; unfold code_of, meant; cbn [snd fst c_op c_info c_off c_loc c_proc In];
    (split; [split; [tauto|split; [try apply R; try lia; destruct b; lia|split; [try discriminate; destruct b; lia|split; [try discriminate; auto|auto]]]]|split; [|split; reflexivity]]); cbn [says]; rewrite ?land15; try reflexivity. destruct b; reflexivity.
Qed.
Lemma const_size : forall c i, early_of (c_off c) = Some i -> In (c_op c) [UWOP_ALLOC_SMALL; UWOP_SAVE_NONVOL; UWOP_SAVE_XMM128] -> canon i -> snd (size_code c) = [] -> 0 <= ival i.
Proof.
  intros c i E K C H. rewrite size_code_eq in H. assert (G : 0 <= get_int i).
  { assert (FF : forall b span low high mask, 0 <= low -> snd (fst (first_form (Some i) b span low high mask)) = [] -> 0 <= get_int i).
    { intros b span low high mask LO Q. unfold first_form in Q. cbv zeta in Q. destruct (Z.ltb_spec (get_int i) low); [|lia]. exfalso. destruct (high <? get_int i); [destruct (expand _ _ _ _) as [[[ret b1] h1] e1]|]; cbn [fst snd app] in Q; [destruct e1; discriminate Q|discriminate Q]. }
    assert (CL : snd (fst (calc_len c)) = []). { destruct (calc_len c) as [[b es] sp]. cbn [fst snd]. destruct sp as [[[s l] h]|]; [|exact H]. destruct (settle s l h b _) as [b' es']. cbn [snd] in H. apply app_eq_nil in H. tauto. }
    cbn [In] in K. destruct K as [K|[K|[K|[]]]]; [rewrite calc_alloc in CL by auto|rewrite calc_save in CL by auto|rewrite calc_xmm in CL by auto]; rewrite E in CL; eapply FF; eauto; lia. }
  rewrite get_int_ok in G by auto. cbv zeta in G. change LONG_MIN with (- 2 ^ 63) in G. destruct (Z.leb_spec (ival i) (- 2 ^ 31)); [lia|]. destruct (Z.ltb_spec (ival i) (2 ^ 31)); lia.
Qed.
Lemma code_facts : forall W c x, world_ok W -> code_ok c -> code_out W c = (x, [], []) -> In (c_op c) [UWOP_ALLOC_SMALL; UWOP_SAVE_NONVOL; UWOP_SAVE_XMM128] ->
  - 2 ^ 31 <= final (c_off c) < 2 ^ 31 /\ (early_of (c_off c) <> None -> 0 <= final (c_off c)).
Proof.
  intros W c x WO CO H K. apply code_out_inv in H. destruct H as [H1 H2]. destruct (code_ok_bytes W c _ x WO CO (size_form c (proj1 CO)) H2) as (d & _ & _ & _ & _ & Q). destruct (Q K) as (Q1 & _). split; [auto|].
  destruct (early_of (c_off c)) as [i|] eqn:E; [|congruence]. intros _. assert (L : late_of (c_off c) = Some i) by (destruct CO as (_ & _ & _ & OO & _); destruct (c_off c) as [o|]; [apply (OO o eq_refl); auto|auto]). rewrite (final_late _ _ L). apply (const_size c i E K (late_canon c i CO L) H1).
Qed.
Lemma codes_each : forall W cs x, codes_out W cs = (x, [], []) -> Forall (fun c => exists y, code_out W c = (y, [], [])) cs.
Proof. intros W. induction cs as [|c cs IH]; intros x H; [constructor|]. cbn [codes_out] in H. apply append_inv in H. destruct H as (y & z & A & B & _). constructor; eauto. Qed.
Lemma block_codes : forall W o u y r, block W o u = ((y, [], []), r) -> exists x, codes_out W (u_codes u) = (x, [], []).
Proof.
  intros W o u y r H. unfold block in H. cbv zeta in H. set (x := append (append (align4 o, [], []) (info_out W u)) (codes_out W (u_codes u))) in *.
  assert (X : exists xb, x = (xb, [], [])). { destruct (u_handler u) as [h|]. - assert (A : append (append x (align4 (o + Z.of_nat (length (fst (fst x)))), [], [])) (repeat 0 4, [], []) = (y, [], [])) by congruence. apply append_inv in A. destruct A as (a & b & A & _). apply append_inv in A. destruct A as (c & d & A & _). eauto. - assert (A : append x (align4 (o + Z.of_nat (length (fst (fst x)))), [], []) = (y, [], [])) by congruence. apply append_inv in A. destruct A as (c & d & A & _). eauto. }
  destruct X as [xb X]. unfold x in X. apply append_inv in X. destruct X as (a & b & _ & X & _). eauto.
Qed.
Lemma Forall2_map_eq : forall (W : world) p cs ss, W (p_sym p) <> None -> Forall2 (reads W) (rev (map (code_of (p_sym p)) cs)) ss ->
  Forall (fun x => meant (code_of (p_sym p) x) = says (snd x) /\ c_proc (code_of (p_sym p) x) = p_sym p /\ c_loc (code_of (p_sym p) x) = fst x) cs ->
  ss = rev (map (fun x => (rel W p (fst x) mod 256, says (snd x))) cs) /\ Forall (fun x => - 128 <= rel W p (fst x) <= 255) cs.
Proof.
  intros W p cs ss WN. revert ss. induction cs as [|x cs IH] using rev_ind; intros ss H F.
  - inversion H. auto.
  - rewrite map_app, rev_app_distr in H. cbn [map rev app] in H. inversion H as [|c s cs' ss' R H2 E1 E2]; subst. apply Forall_app in F. destruct F as [F1 F2]. inversion F2 as [|? ? (M & P & L) _]; subst. destruct (IH ss' H2 F1) as [-> G].
    destruct R as (d & D1 & D2 & ->). rewrite P, L in D1. assert (RD : rel W p (fst x) = d) by (unfold rel, dist in *; destruct (W (p_sym p)) as [[s o]|]; [destruct (_ =? _); [congruence|discriminate D1]|discriminate D1]).
    rewrite map_app, rev_app_distr. cbn [map rev app]. rewrite RD, M. split; [auto|]. apply Forall_app. split; [auto|]. constructor; [rewrite RD; auto|constructor].
Qed.
Lemma dirs_in : forall e es, In e (dirs es) -> In e es.
Proof. intros e es H. apply filter_In in H. tauto. Qed.
Lemma text_in : forall p ps es x, dirs es = flat_map text ps -> In p ps -> In x (p_ops p) -> In (At (fst x) (snd x)) es.
Proof. intros p ps es x D P X. apply dirs_in. rewrite D. apply in_flat_map. exists p. split; [auto|]. cbn [text In]. right. apply in_app_iff. left. apply in_map_iff. exists x. auto. Qed.
Lemma Forall2_in : forall (A B : Type) (P : A -> B -> Prop) l m, Forall2 P l m -> Forall2 (fun a b => In a l /\ In b m /\ P a b) l m.
Proof. intros A B P l m F. induction F as [|a b l m H F IH]; constructor; [split; [left; auto|split; [left; auto|auto]]|]. eapply Forall2_imp; [|exact IH]. cbn beta. intros x y (X & Y & Q). split; [right; auto|split; [right; auto|auto]]. Qed.
Lemma Forall2_map_r : forall (A B C : Type) (P : A -> C -> Prop) (f : B -> C) l m, Forall2 (fun a b => P a (f b)) l m -> Forall2 P l (map f m).
Proof. intros A B C P f l m F. induction F; constructor; auto. Qed.
Lemma procs_of : forall es, errs (run es) = [] -> frame (run es) = false ->
  exists ps, Forall proc_ok ps /\ dirs es = flat_map text ps /\
    Forall2 (fun p e => e_proc e = p_sym p /\ e_end e = p_end p /\ nth_error (xdata (run es)) (e_items e) = Some (Unwind (closed p))) ps (pdata (run es)) /\
    (forall l, In (User l) (xdata (run es)) -> In (Data l) es) /\ (forall u, In (Unwind u) (xdata (run es)) -> exists p, In p ps /\ u = closed p).
Proof.
  intros es E F. destruct (run_inv es E) as (ps & ph & PO & D & PH & F2 & US). assert (PI : ph = Idle) by (destruct ph; cbn [phase_ok] in PH; [auto|destruct PH; congruence|destruct PH; congruence]). subst ph. cbn [phase_text] in D. rewrite app_nil_r in D. exists ps. auto.
Qed.
Lemma closed_ok : forall p ps es, Forall event_ok es -> dirs es = flat_map text ps -> In p ps -> proc_ok p -> info_ok (closed p) /\ Forall (fun x => code_ok (code_of (p_sym p) x) /\ meant (code_of (p_sym p) x) = says (snd x) /\ c_proc (code_of (p_sym p) x) = p_sym p /\ c_loc (code_of (p_sym p) x) = fst x) (p_ops p) /\ pos_ok (p_end p).
Proof.
  intros p ps es EO D P OK. assert (EV : forall e, In e (text p) -> event_ok e) by (intros e E; rewrite Forall_forall in EO; apply EO, dirs_in; rewrite D; apply in_flat_map; eauto).
  assert (OPS : Forall (fun x => code_ok (code_of (p_sym p) x) /\ meant (code_of (p_sym p) x) = says (snd x) /\ c_proc (code_of (p_sym p) x) = p_sym p /\ c_loc (code_of (p_sym p) x) = fst x) (p_ops p)).
  { apply Forall_forall. intros x X. assert (EX := EV (At (fst x) (snd x)) ltac:(cbn [text In]; right; apply in_app_iff; left; apply in_map_iff; exists x; auto)). cbn [event_ok] in EX. unfold proc_ok in OK. rewrite Forall_forall in OK. apply code_of_ok; [apply OK; auto|tauto|apply EX]. }
  split; [|split; [auto|]].
  - unfold closed, opened. destruct (codes_of (p_ops p) (Info (p_sym p) None (p_hnd p) 0 None []) OK) as (A & B & C & Dd & E). cbn [u_proc u_codes u_frameoff] in *. unfold info_ok, ended. cbn [u_codes u_frameoff u_prolog]. rewrite A, app_nil_r. split; [|split].
    + apply Forall_rev. apply Forall_map. eapply Forall_impl; [|exact OPS]. cbn beta. tauto.
    + intros o O. destruct (E o O) as [Q|(x & X & Q)]; [discriminate Q|]. assert (EX := EV (At (fst x) (snd x)) ltac:(cbn [text In]; right; apply in_app_iff; left; apply in_map_iff; exists x; auto)). cbn [event_ok] in EX. apply EX; auto.
    + intros q Q. assert (QQ : q = p_prolog p) by congruence. subst q. assert (EX := EV (At (p_prolog p) ENDPROLOG) ltac:(cbn [text In]; right; apply in_app_iff; right; left; auto)). apply EX.
  - assert (EX := EV (At (p_end p) ENDPROC_FRAME) ltac:(cbn [text In]; right; apply in_app_iff; right; right; left; auto)). apply EX.
Qed.
Lemma assemble_eq : forall W es, assemble W es =
  let s := run es in let '((b, e, w), r) := layout W 0 (xdata s) in let ps := map (pd_out W (xdata s)) (pdata s) in
  Object b r (map fst ps) (errs s ++ e ++ flat_map snd ps ++ (if frame s then [EndOfFile] else [])) w.
Proof. reflexivity. Qed.
Lemma accepted : forall W es, o_errs (assemble W es) = [] -> o_warns (assemble W es) = [] ->
  errs (run es) = [] /\ frame (run es) = false /\ layout W 0 (xdata (run es)) = ((o_xdata (assemble W es), [], []), o_refs (assemble W es)) /\
  o_pdata (assemble W es) = map (fun e => fst (pd_out W (xdata (run es)) e)) (pdata (run es)) /\ Forall (fun e => snd (pd_out W (xdata (run es)) e) = []) (pdata (run es)).
Proof.
  intros W es H HW. rewrite assemble_eq in *. cbv zeta in *. destruct (layout W 0 (xdata (run es))) as [[[b e] w] r]. cbn [o_errs o_warns o_xdata o_refs o_pdata] in *. apply app_eq_nil in H. destruct H as [H1 H]. apply app_eq_nil in H. destruct H as [H2 H]. apply app_eq_nil in H. destruct H as [H3 H4]. subst e w.
  split; [auto|]. split; [destruct (frame (run es)); [discriminate H4|auto]|]. split; [auto|]. split; [rewrite map_map; auto|]. clear - H3. induction (pdata (run es)) as [|e l IH]; [constructor|]. cbn [map flat_map] in H3. apply app_eq_nil in H3. destruct H3. constructor; auto.
Qed.
Lemma natural_exact : forall W p, W (p_sym p) <> None -> Forall (fun x => - 128 <= rel W p (fst x) <= 255) (p_ops p) ->
  Forall (fun x => op_ok (snd x) /\ (In (c_op (code_of (p_sym p) x)) [UWOP_ALLOC_SMALL; UWOP_SAVE_NONVOL; UWOP_SAVE_XMM128] -> - 2 ^ 31 <= final (c_off (code_of (p_sym p) x)) < 2 ^ 31 /\ (early_of (c_off (code_of (p_sym p) x)) <> None -> 0 <= final (c_off (code_of (p_sym p) x))))) (p_ops p) ->
  natural W p -> describe W p = describe_exactly W p.
Proof.
  intros W p WN R F N. unfold describe, describe_exactly. do 2 f_equal. unfold natural in N. induction (p_ops p) as [|x l IH]; [auto|]. inversion R as [|? ? R1 R2]; subst. inversion F as [|? ? [F0 F1] F2]; subst. inversion N as [|? ? [N0 N1] N2]; subst. cbn [map]. rewrite IH by auto. f_equal. rewrite Z.mod_small by lia. f_equal.
  assert (G : In (c_op (code_of (p_sym p) x)) [UWOP_ALLOC_SMALL; UWOP_SAVE_NONVOL; UWOP_SAVE_XMM128] -> c_off (code_of (p_sym p) x) = offs_of (snd x) -> final (offs_of (snd x)) mod 2 ^ 32 = final (offs_of (snd x))).
  { intros K E. destruct (F1 K) as [G1 G2]. rewrite E in *. apply Z.mod_small. assert (P : 2 ^ 32 = 2 * 2 ^ 31) by reflexivity. destruct (offs_of (snd x)) as [o|]; [|cbn in *; lia]. destruct (early o) eqn:EO; [assert (0 <= final (Some o)) by (apply G2; cbn [early_of]; rewrite EO; discriminate); lia|]. specialize (N1 o eq_refl EO). lia. }
  destruct x as [q [f h|[r|]|[r|] o|[o|]|[r|] [o|]|[r|] [o|]|b| |]]; cbn [snd op_ok] in F0; try contradiction; cbn [snd says says_exactly]; try reflexivity; cbn [offs_of snd code_of c_op c_off In] in G; rewrite G by auto; reflexivity.
Qed.
Theorem roundtrip : forall W es, world_ok W -> Forall event_ok es -> o_errs (assemble W es) = [] -> o_warns (assemble W es) = [] ->
  exists ps, Forall proc_ok ps /\ dirs es = flat_map text ps /\ Forall2 (unwinds W (o_xdata (assemble W es)) (o_refs (assemble W es))) ps (o_pdata (assemble W es)).
Proof.
  intros W es WO EO H HW. destruct (accepted W es H HW) as (E & F & L & PD & PE). destruct (procs_of es E F) as (ps & PO & D & F2 & _). exists ps. split; [auto|]. split; [auto|]. rewrite PD. apply Forall2_map_r.
  eapply Forall2_imp; [|exact (Forall2_in _ _ _ _ _ F2)]. cbn beta. intros p e (IP & IE & P1 & P2 & P3). rewrite Forall_forall in PO, PE. specialize (PO p IP). specialize (PE e IE).
  destruct (closed_ok p ps es EO D IP PO) as (IO & CO & _). destruct (layout_nth W _ _ _ _ _ _ L P3) as (pre & y & post & r1 & ry & r2 & X & R & LP & B & FR). rewrite Z.add_0_l in B. cbn [Z.add] in FR.
  destruct (block_decodes W (closed p) pre y post r1 ry r2 WO IO B FR) as (q & d & ss & Q1 & Q2 & Q3 & Q4 & Q5 & Q6 & Q7 & _). rewrite <- X, <- R in Q7.
  destruct (codes_of (p_ops p) (Info (p_sym p) None (p_hnd p) 0 None []) PO) as (A & U & HH & FM & _). cbn [u_proc u_codes u_handler u_framereg u_frameoff] in A, U, HH, FM. rewrite app_nil_r in A. change (0 mod 16, final None) with (0, 0) in FM.
  assert (CU : u_codes (closed p) = rev (map (code_of (p_sym p)) (p_ops p))) by exact A. assert (CP : u_proc (closed p) = p_sym p) by exact U. assert (CQ : q = p_prolog p) by (cbn [closed ended u_prolog] in Q1; congruence). subst q.
  rewrite CP in Q2. assert (WN : W (p_sym p) <> None) by (unfold dist in Q2; destruct (W (p_sym p)); congruence). assert (DR : d = rel W p (p_prolog p)) by (unfold dist in Q2; unfold rel; destruct (W (p_sym p)) as [[s o]|]; [destruct (_ =? _); congruence|discriminate Q2]).
  rewrite CU in Q4. destruct (Forall2_map_eq W p (p_ops p) ss WN Q4 ltac:(eapply Forall_impl; [|exact CO]; cbn beta; tauto)) as [SS RR].
  unfold unwinds. unfold pd_out in *. destruct (dist W (e_end e) (e_proc e)) as [de|] eqn:DE; [|discriminate PE]. cbn [fst snd pe_proc pe_size pe_unwind] in *. split; [auto|]. split; [auto|]. split; [|split].
  - rewrite P1, P2 in DE. unfold dist in DE. unfold rel. destruct (W (p_sym p)) as [[s o]|]; [destruct (_ =? _); congruence|discriminate DE].
  - fold (blen (fst (layout W 0 (firstn (e_items e) (xdata (run es)))))). rewrite <- LP, Q7. unfold describe. rewrite <- SS, DR. f_equal. cbn [closed ended u_framereg u_frameoff u_handler]. f_equal; [exact FM|exact HH].
  - apply natural_exact; auto. destruct (block_codes W _ _ _ _ B) as [cb CB]. apply codes_each in CB. rewrite CU in CB. apply Forall_rev in CB. rewrite rev_involutive in CB. rewrite Forall_map in CB. rewrite Forall_forall in CB, CO. unfold proc_ok in PO. rewrite Forall_forall in PO. apply Forall_forall. intros x Xi. split; [auto|]. destruct (CB x Xi) as [yy Y]. intros K. apply (code_facts W (code_of (p_sym p) x) yy WO); [apply CO; auto|auto|auto].
Qed.
Lemma layout_len : forall W l o x r k, world_ok W -> (forall u, In (Unwind u) l -> info_ok u) -> (forall b, In (User b) l -> (Z.of_nat (length b)) mod 4 = 0) -> layout W (Z.of_nat o) l = ((x, [], []), r) -> Z.of_nat o mod 4 = 0 ->
  blen (fst (layout W (Z.of_nat o) (firstn k l))) mod 4 = 0.
Proof.
  intros W. induction l as [|i l IH]; intros o x r k WO IO UO H M; [destruct k; reflexivity|]. destruct k as [|k]; [reflexivity|]. cbn [firstn]. rewrite layout_eq in *.
  destruct (match i with Unwind u => block W (Z.of_nat o) u | User b => ((b, [], []), []) end) as [xi ri] eqn:I. destruct (layout W (Z.of_nat o + Z.of_nat (length (fst (fst xi)))) l) as [y' r'] eqn:L. cbn beta iota in H. assert (A : append xi y' = (x, [], [])) by congruence. apply append_inv in A. destruct A as (a & b & A1 & A2 & ->). subst xi y'. cbn [fst] in L |- *.
  assert (LA : Z.of_nat (length a) mod 4 = 0).
  { destruct i as [u|bb]; [|assert (bb = a) by congruence; subst; apply UO; left; auto]. pose proof (block_decodes W u (repeat 0 o) a [] [] ri [] WO (IO u (or_introl eq_refl))) as Q. rewrite repeat_length in Q. destruct (Q I ltac:(constructor)) as (_ & _ & _ & _ & _ & _ & _ & _ & _ & _ & Q'). unfold blen in Q'. cbn [fst] in Q'. rewrite Q'. apply Z.mod_divide; [lia|]. apply Z.mod_divide in M; [|lia]. destruct M as [c M]. exists (- c). lia. }
  rewrite <- Nat2Z.inj_add in *. pose proof (fun G1 G2 => IH (o + length a)%nat b r' k WO G1 G2 L) as IH'. destruct (layout W (Z.of_nat (o + length a)) (firstn k l)) as [z rz]. cbn [fst] in *. rewrite blen_append. unfold blen at 1. cbn [fst]. rewrite Z.add_mod, LA by lia. rewrite IH'; [reflexivity|intros; apply IO; right; auto|intros; apply UO; right; auto|]. rewrite Nat2Z.inj_add, Z.add_mod, M, LA by lia. reflexivity.
Qed.
Theorem aligned : forall W es e, world_ok W -> Forall event_ok es -> o_errs (assemble W es) = [] -> o_warns (assemble W es) = [] ->
  (forall l, In (Data l) es -> (4 | Z.of_nat (length l))) -> In e (o_pdata (assemble W es)) -> up4 (pe_unwind e) = pe_unwind e.
Proof.
  intros W es e WO EO H HW DA IN. destruct (accepted W es H HW) as (E & F & L & PD & PE). destruct (procs_of es E F) as (ps & PO & D & F2 & US & UC). rewrite PD in IN. apply in_map_iff in IN. destruct IN as (e0 & <- & _).
  assert (Q : blen (fst (layout W 0 (firstn (e_items e0) (xdata (run es))))) mod 4 = 0).
  { apply (fun A B => layout_len W (xdata (run es)) 0 _ _ (e_items e0) WO A B L eq_refl).
    - intros u U. destruct (UC u U) as (p & P & ->). rewrite Forall_forall in PO. apply (closed_ok p ps es EO D P). auto.
    - intros b B. apply Z.mod_divide; [lia|]. auto. }
  unfold pd_out. set (n := Z.of_nat _). change n with (blen (fst (layout W 0 (firstn (e_items e0) (xdata (run es)))))) in *. assert (UP : up4 n = n). { unfold up4. apply Z.mod_divide in Q; [|lia]. destruct Q as [c Q]. change (blen (fst (layout W 0 (firstn (e_items e0) (xdata (run es)))))) with n in Q. replace ((- n) mod 4) with 0; [lia|]. symmetry. apply Z.mod_divide; [lia|]. exists (- c). lia. }
  destruct (dist W (e_end e0) (e_proc e0)); exact UP.
Qed.
Theorem source : forall es, (errs (run es) = [] /\ frame (run es) = false) <-> exists ps, Forall proc_ok ps /\ dirs es = flat_map text ps.
Proof.
  intros es. split.
  - intros [E F]. destruct (procs_of es E F) as (ps & PO & D & _). eauto.
  - intros (ps & PO & D). destruct (legal_run es 0 start) as [A B]; [left; auto|rewrite D; apply text_legal; auto|]. split; auto.
Qed.

(** ** Constant offsets *)
Lemma const_settle : forall vs v span low high b, Forall (fun x => x = v) vs -> low <= v <= high -> settle span low high b vs = (b, []).
Proof. intros vs v span low high b F R. induction F as [|x vs -> F IH]; cbn [settle]; [auto|]. destruct (Z.ltb_spec v low); [lia|]. destruct (Z.ltb_spec high v); [lia|]. exact IH. Qed.
Lemma nz_land : forall v k, 0 <= k -> v mod 2 ^ k = 0 -> nz (Z.land v (2 ^ k - 1)) = false.
Proof. intros v k K M. rewrite land_mask by auto. unfold nz. rewrite M. reflexivity. Qed.
Definition goal_bc (d : dir) (info n : Z) : bc :=
  match d with
  | ALLOCSTACK _ => if n <=? 128 then BC UWOP_ALLOC_SMALL 0 2 else if n <=? 524280 then BC UWOP_ALLOC_LARGE 0 4 else BC UWOP_ALLOC_LARGE 1 6
  | SAVEREG _ _ => if n <=? 524280 then BC UWOP_SAVE_NONVOL info 4 else BC UWOP_SAVE_NONVOL_FAR info 6
  | _ => if n <=? 1048560 then BC UWOP_SAVE_XMM128 info 4 else BC UWOP_SAVE_XMM128_FAR info 6
  end.
Lemma const_form : forall f p d o i, op_ok d -> offs_of d = Some o -> constant i o -> canon i -> allowed d (ival i) -> ival i < 2 ^ 31 ->
  size_code (code_of f (p, d)) = (goal_bc d (c_info (code_of f (p, d))) (ival i), []).
Proof.
  intros f p d o i OK OF (CE & CL & CS) C AL LT. assert (G : get_int i = ival i). { rewrite get_int_ok by auto. cbv zeta. assert (0 <= ival i) by (destruct d; cbn [allowed] in AL; tauto || lia). destruct (Z.leb_spec (ival i) (- 2 ^ 31)); [lia|]. destruct (Z.ltb_spec (ival i) (2 ^ 31)); lia. }
  rewrite size_code_eq. destruct d as [f' h|[r|]|[r|] o'|[o'|]|[r|] [o'|]|[r|] [o'|]|b| |]; cbn [allowed op_ok] in AL, OK; try contradiction; try tauto; cbn [offs_of] in OF; assert (o' = o) by congruence; subst o'; destruct AL as [A1 A2]; apply Z.mod_divide in A2; try lia.
  - rewrite calc_alloc by reflexivity. cbn [code_of snd c_off c_info goal_bc early_of seen_of]. rewrite CE. unfold first_form. cbv zeta. rewrite G. change 7 with (2 ^ 3 - 1). rewrite nz_land by (auto; lia). destruct (Z.ltb_spec (ival i) 8); [lia|]. cbn [app]. destruct (Z.ltb_spec 128 (ival i)) as [Q|Q]; destruct (Z.leb_spec (ival i) 128); try lia; [|reflexivity].
    unfold expand. destruct (Z.ltb_spec (ival i) 0); [lia|]. cbn [Z.eqb Pos.eqb b_op b_info b_len UWOP_ALLOC_SMALL UWOP_ALLOC_LARGE andb]. destruct (Z.ltb_spec 128 (ival i)); [|lia]. change (8 * 64 * 1024 - 8) with 524280. destruct (Z.leb_spec (ival i) 524280); [|reflexivity]. cbn [Z.ltb Z.compare app]. rewrite (const_settle _ (ival i)) by (auto; lia). reflexivity.
  - rewrite calc_save by reflexivity. cbn [code_of snd c_off c_info goal_bc early_of seen_of]. rewrite CE. unfold first_form. cbv zeta. rewrite G. change 7 with (2 ^ 3 - 1). rewrite nz_land by (auto; lia). destruct (Z.ltb_spec (ival i) 0); [lia|]. cbn [app]. change (8 * 64 * 1024 - 8) with 524280. destruct (Z.ltb_spec 524280 (ival i)) as [Q|Q]; destruct (Z.leb_spec (ival i) 524280); try lia; [|reflexivity].
    unfold expand. destruct (Z.ltb_spec (ival i) 0); [lia|]. reflexivity.
  - rewrite calc_xmm by reflexivity. cbn [code_of snd c_off c_info goal_bc early_of seen_of]. rewrite CE. unfold first_form. cbv zeta. rewrite G. change 15 with (2 ^ 4 - 1) at 2 4. rewrite nz_land by (auto; lia). destruct (Z.ltb_spec (ival i) 0); [lia|]. cbn [app]. change (16 * 64 * 1024 - 16) with 1048560. destruct (Z.ltb_spec 1048560 (ival i)) as [Q|Q]; destruct (Z.leb_spec (ival i) 1048560); try lia; [|reflexivity].
    unfold expand. destruct (Z.ltb_spec (ival i) 0); [lia|]. reflexivity.
Qed.
Lemma out8_fwd : forall d, - 128 <= d <= 255 -> out8 (Some d) = ([d mod 256], [], []).
Proof.
  intros d D. assert (D31 : - 2 ^ 31 < d < 2 ^ 31) by lia. destruct (out8 (Some d)) as [[x e] w] eqn:O. assert (EW : e = [] /\ w = []).
  { unfold out8 in O. destruct (sized_field (IL d) 1 0 D31 ltac:(lia) ltac:(lia)) as (out & j & E & _). change (8 * Z.of_nat 1) with 8 in E. change (- 0) with 0 in E. cbn [repeat] in E. rewrite E in O. split; [congruence|]. assert (WW : w = sized_warns d 8 0 1) by (cbn [ival] in O; congruence). rewrite WW. unfold sized_warns, in_field. rewrite Z.pow_0_r, Z.div_1_r, Z.mod_1_r. cbn [Z.ltb Z.compare Z.eqb Z.leb Pos.compare Pos.compare_cont andb negb app]. change (2 ^ (8 - 1)) with 128. change (2 ^ 8) with 256. destruct (Z.leb_spec (- (128)) d); [|lia]. destruct (Z.ltb_spec d 256); [|lia]. reflexivity. }
  destruct EW as [-> ->]. destruct (out8_ok d x [] D31 O) as [-> _]. reflexivity.
Qed.
Lemma field_fwd : forall i b o size low high shift mask, canon i -> 0 <= ival i < 2 ^ 31 -> get_int i = ival i -> nz (Z.land (ival i) mask) = false -> (size = 4 \/ low <= ival i <= high) -> (size = 0 \/ size = 2 /\ 0 <= shift <= 8 /\ ival i / 2 ^ shift < 2 ^ 16 /\ ival i mod 2 ^ shift = 0 \/ size = 4 /\ shift = 0) ->
  exists x, field (Some i) b (o, [], []) size low high shift mask = (x, [], []).
Proof.
  intros i b o size low high shift mask C R G N LH SZ. unfold field. cbv zeta. rewrite G, N.
  assert (T : negb (size =? 4) && ((ival i <? low) || (high <? ival i)) = false) by (destruct LH as [-> |LH]; [reflexivity|]; destruct (Z.ltb_spec (ival i) low); [lia|]; destruct (Z.ltb_spec high (ival i)); [lia|]; apply andb_false_r). rewrite T.
  assert (W0 : forall sz sh, 0 < sz < 256 -> 0 <= sh -> ival i / 2 ^ sh < 2 ^ sz -> ival i mod 2 ^ sh = 0 -> sized_warns (ival i) sz sh 1 = []).
  { intros sz sh S1 S2 A B. unfold sized_warns, in_field. rewrite B. cbn [Z.ltb Z.compare Z.eqb andb negb app]. destruct (Z.leb_spec 256 sz); [lia|]. destruct (Z.leb_spec sz 0); [lia|]. cbn [andb]. assert (0 <= ival i / 2 ^ sh) by (apply Z.div_pos; [lia|apply Z.pow_pos_nonneg; lia]). assert (0 < 2 ^ (sz - 1)) by (apply Z.pow_pos_nonneg; lia). destruct (Z.leb_spec (- 2 ^ (sz - 1)) (ival i / 2 ^ sh)); [|lia]. destruct (Z.ltb_spec (ival i / 2 ^ sh) (2 ^ sz)); [|lia]. reflexivity. }
  destruct SZ as [-> |[(-> & S1 & S2 & S3)|(-> & ->)]].
  - cbn [Z.eqb]. eauto.
  - cbn [Z.eqb]. change (Z.to_nat 2) with 2%nat. destruct (sized_field i 2 shift C ltac:(lia) ltac:(lia)) as (out & j & E & _). change (8 * Z.of_nat 2) with (2 * 8) in E. rewrite E. rewrite W0 by (auto; lia). eauto.
  - cbn [Z.eqb]. change (Z.to_nat 4) with 4%nat. destruct (sized_field i 4 0 C ltac:(lia) ltac:(lia)) as (out & j & E & _). change (8 * Z.of_nat 4) with (4 * 8) in E. rewrite E. rewrite W0; [eauto|lia|lia| |]; rewrite Z.pow_0_r; [rewrite Z.div_1_r; change (2 ^ (4 * 8)) with (2 * 2 ^ 31); lia|apply Z.mod_1_r].
Qed.
Definition with_offset (d : dir) : Prop := match d with ALLOCSTACK _ | SAVEREG _ _ | SAVEXMM128 _ _ => True | _ => False end.
Lemma low_bound : forall f p d o i, op_ok d -> with_offset d -> offs_of d = Some o -> early o = Some i -> canon i -> snd (size_code (code_of f (p, d))) = [] -> (match d with ALLOCSTACK _ => 8 | _ => 0 end) <= ival i.
Proof.
  intros f p d o i OK WI OF E C H. rewrite size_code_eq in H.
  assert (FF : forall b span low high mask, snd (fst (first_form (Some i) b span low high mask)) = [] -> low <= get_int i).
  { intros b span low high mask Q. unfold first_form in Q. cbv zeta in Q. destruct (Z.ltb_spec (get_int i) low); [|lia]. exfalso. destruct (high <? get_int i); [destruct (expand _ _ _ _) as [[[ret b1] h1] e1]|]; cbn [fst snd app] in Q; [destruct e1; discriminate Q|discriminate Q]. }
  assert (CL : snd (fst (calc_len (code_of f (p, d)))) = []). { destruct (calc_len (code_of f (p, d))) as [[b es] sp]. cbn [fst snd]. destruct sp as [[[s l] h]|]; [|exact H]. destruct (settle s l h b _) as [b' es']. cbn [snd] in H. apply app_eq_nil in H. tauto. }
  assert (G : (match d with ALLOCSTACK _ => 8 | _ => 0 end) <= get_int i).
  { destruct d as [f' h|[r|]|[r|] o'|[o'|]|[r|] [o'|]|[r|] [o'|]|b| |]; cbn [op_ok with_offset offs_of] in OK, WI, OF; try contradiction; assert (o' = o) by congruence; subst o'; [rewrite calc_alloc in CL by reflexivity|rewrite calc_save in CL by reflexivity|rewrite calc_xmm in CL by reflexivity]; cbn [code_of snd c_off early_of] in CL; rewrite E in CL; apply FF in CL; auto. }
  rewrite get_int_ok in G by auto. cbv zeta in G. change LONG_MIN with (- 2 ^ 63) in G. destruct (Z.leb_spec (ival i) (- 2 ^ 31)); [destruct d; lia|]. destruct (Z.ltb_spec (ival i) (2 ^ 31)); destruct d; lia.
Qed.
Lemma div16 : forall n s m, 0 <= n <= 65535 * 2 ^ s -> 0 <= s -> m = 2 ^ 16 -> n / 2 ^ s < m.
Proof. intros n s m R S ->. assert (0 < 2 ^ s) by (apply Z.pow_pos_nonneg; lia). apply Z.div_lt_upper_bound; [lia|]. nia. Qed.
Theorem constant_iff : forall W f p d o i k, world_ok W -> pos_ok p -> op_ok d -> with_offset d -> offs_of d = Some o -> constant i o -> canon i -> dist W p f = Some k -> - 128 <= k <= 255 ->
  (exists x, code_out W (code_of f (p, d)) = (x, [], [])) <-> allowed d (ival i) /\ ival i < 2 ^ 31.
Proof.
  intros W f p d o i k WO PO OK WI OF CN C D K. destruct CN as (CE & CL & CS). assert (OO : offs_ok o) by (split; intros j J; congruence).
  destruct (code_of_ok f (p, d) OK PO ltac:(intros o' Q; cbn [snd] in Q; assert (o' = o) by congruence; subst; auto)) as (CO & ME & CP & LO). cbn [fst snd] in *.
  assert (LT : late_of (c_off (code_of f (p, d))) = Some i) by (destruct d as [f' h|[r|]|[r|] o'|[o'|]|[r|] [o'|]|[r|] [o'|]|b| |]; cbn [op_ok with_offset offs_of] in OK, WI, OF; try contradiction; cbn [code_of snd c_off late_of]; congruence).
  split.
  - intros [x H]. apply code_out_inv in H. destruct H as [H1 H2]. pose proof (low_bound f p d o i OK WI OF CE C H1) as LB. destruct (code_ok_bytes W _ _ x WO CO (size_form _ (proj1 CO)) H2) as (kd & _ & _ & _ & _ & Q). rewrite (final_late _ _ LT) in Q.
    destruct d as [f' h|[r|]|[r|] o'|[o'|]|[r|] [o'|]|[r|] [o'|]|b| |]; cbn [op_ok with_offset] in OK, WI; try contradiction; cbn [code_of snd c_op] in Q; destruct Q as (Q1 & Q2 & Q3); try (cbn [In]; tauto); cbn [allowed]; (split; [|lia]); (split; [lia|apply Z.mod_divide; [lia|auto]]).
  - intros [AL LT31]. unfold code_out. rewrite (const_form f p d o i OK OF (conj CE (conj CL CS)) C AL LT31). cbn [app].
    assert (G : get_int i = ival i). { rewrite get_int_ok by auto. cbv zeta. assert (0 <= ival i) by (destruct d; cbn [allowed] in AL; tauto || lia). destruct (Z.leb_spec (ival i) (- 2 ^ 31)); [lia|]. destruct (Z.ltb_spec (ival i) (2 ^ 31)); lia. }
    assert (B : exists x, code_bytes W (code_of f (p, d)) (goal_bc d (c_info (code_of f (p, d))) (ival i)) = (x, [], [])).
    { rewrite bytes_field. cbv zeta. rewrite CP, LO, D, (out8_fwd k K), LT.
      destruct d as [f' h|[r|]|[r|] o'|[o'|]|[r|] [o'|]|[r|] [o'|]|b| |]; cbn [op_ok with_offset] in OK, WI; try contradiction; cbn [allowed] in AL; destruct AL as [A1 A2]; apply Z.mod_divide in A2; try lia; cbn [goal_bc].
      - destruct (Z.leb_spec (ival i) 128); [|destruct (Z.leb_spec (ival i) 524280)]; cbn [b_op b_info UWOP_ALLOC_SMALL UWOP_ALLOC_LARGE Z.eqb Pos.eqb]; apply field_fwd; auto; try (apply nz_land; auto; lia); try lia; try (right; Z.div_mod_to_equations; lia); try (right; left; split; [auto|]; split; [lia|]; split; [apply (div16 _ 3); [lia|lia|reflexivity]|auto]).
      - destruct (Z.leb_spec (ival i) 524280); cbn [b_op b_info UWOP_SAVE_NONVOL UWOP_SAVE_NONVOL_FAR Z.eqb Pos.eqb]; apply field_fwd; auto; try (apply nz_land; auto; lia); try lia; try (right; Z.div_mod_to_equations; lia); try (right; left; split; [auto|]; split; [lia|]; split; [apply (div16 _ 3); [lia|lia|reflexivity]|auto]).
      - destruct (Z.leb_spec (ival i) 1048560); cbn [b_op b_info UWOP_SAVE_XMM128 UWOP_SAVE_XMM128_FAR Z.eqb Pos.eqb]; apply field_fwd; auto; try (apply nz_land; auto; lia); try lia; try (right; Z.div_mod_to_equations; lia); try (right; left; split; [auto|]; split; [lia|]; split; [apply (div16 _ 4); [lia|lia|reflexivity]|auto]). }
    destruct B as [x B]. rewrite B. eauto.
Qed.
(** the shortest code *)
Definition needs (u : uop) : nat :=
  match u with
  | Alloc n => if n <=? 128 then 2%nat else if n <=? 524280 then 4%nat else 6%nat
  | SaveReg _ n => if n <=? 524280 then 4%nat else 6%nat
  | SaveXmm _ n => if n <=? 1048560 then 4%nat else 6%nat
  | _ => 2%nat
  end.
Lemma also_one : forall x o s, also x o = Some [s] -> x = s /\ o = Some [].
Proof. intros x o s H. destruct o as [l|]; [|discriminate H]. cbn [also] in H. assert (x :: l = [s]) as Q by congruence. destruct l; [split; congruence|discriminate Q]. Qed.
Lemma slots_some : forall l, slots l = Some [] -> l = [].
Proof.
  intros l H. destruct l as [|o [|x l]]; [auto|discriminate H|]. exfalso. rewrite slots_eq in H. cbv zeta in H. assert (N : forall y z, also y z <> Some []) by (intros y [z|] Q; discriminate Q).
  destruct (x mod 16) as [|q|q]; [apply (N _ _ H)| |discriminate H]. do 4 (try destruct q as [q|q|]); cbn beta iota in H; try discriminate H; try apply (N _ _ H);
  repeat match type of H with context [match ?t with _ => _ end] => is_var t; destruct t; try discriminate H; try apply (N _ _ H) end;
  repeat match type of H with (if ?c then _ else _) = _ => destruct c; try discriminate H; try apply (N _ _ H) end;
  repeat match type of H with context [match ?t with _ => _ end] => is_var t; destruct t; try discriminate H; try apply (N _ _ H) end.
Qed.
Lemma slots_needs : forall y o u, Forall byte y -> slots y = Some [(o, u)] -> (needs u <= length y)%nat.
Proof.
  intros y o u F H. destruct y as [|k [|x l]]; [discriminate H|discriminate H|]. rewrite slots_eq in H. cbv zeta in H. inversion F as [|? ? Fk F1]; subst. inversion F1 as [|? ? Fx F2]; subst. unfold byte in *. assert (XI : 0 <= x / 16 <= 15) by (split; [apply Z.div_pos; lia|]; assert (x / 16 < 16) by (apply Z.div_lt_upper_bound; lia); lia).
  assert (two : forall a b m, In a l -> In b l -> 0 <= m -> m * le16 a b <= 65535 * m) by (intros a b m A B M; rewrite Forall_forall in F2; pose proof (F2 a A); pose proof (F2 b B); unfold le16; nia).
  cbn [length]. destruct (x mod 16) as [|q|q]; [| |discriminate H].
  - apply also_one in H. destruct H as [H _]. assert (u = Push (x / 16)) by congruence. subst. cbn. lia.
  - do 4 (try destruct q as [q|q|]); cbn beta iota in H; try discriminate H;
    repeat match type of H with (if ?c then _ else _) = _ => destruct c eqn:?; try discriminate H end;
    repeat match type of H with context [match ?t with _ => _ end] => is_var t; destruct t; try discriminate H end;
    apply also_one in H; destruct H as [H H']; match type of H with (_, ?v) = _ => assert (u = v) by congruence end; subst u; cbn [needs length];
    repeat match goal with |- context [?a <=? ?b] => destruct (Z.leb_spec a b) end; cbn [length]; try lia;
    exfalso; match goal with A : _ < ?m * le16 ?a ?b |- _ => pose proof (two a b m ltac:(cbn [In]; auto) ltac:(cbn [In]; auto) ltac:(lia)); lia end.
Qed.
Theorem shortest : forall W f p d o i x y k, world_ok W -> pos_ok p -> op_ok d -> with_offset d -> offs_of d = Some o -> constant i o -> canon i -> code_out W (code_of f (p, d)) = (x, [], []) ->
  Forall byte y -> slots y = Some [(k, says d)] -> (length x <= length y)%nat.
Proof.
  intros W f p d o i x y k WO PO OK WI OF CN C H F Y. assert (CN' := CN). destruct CN' as (CE & CL & CS). assert (OO : offs_ok o) by (split; intros j J; congruence).
  destruct (code_of_ok f (p, d) OK PO ltac:(intros o' Q; cbn [snd] in Q; assert (o' = o) by congruence; subst; auto)) as (CO & ME & CP & LO). cbn [fst snd] in *.
  assert (LT : late_of (c_off (code_of f (p, d))) = Some i) by (destruct d as [f' h|[r|]|[r|] o'|[o'|]|[r|] [o'|]|[r|] [o'|]|b| |]; cbn [op_ok with_offset offs_of] in OK, WI, OF; try contradiction; cbn [code_of snd c_off late_of]; congruence).
  assert (H' := H). apply code_out_inv in H'. destruct H' as [_ H2]. destruct (code_ok_bytes W _ _ x WO CO (size_form _ (proj1 CO)) H2) as (kd & D & K & LX & _ & _). rewrite CP, LO in D.
  assert (AL : allowed d (ival i) /\ ival i < 2 ^ 31) by (apply (constant_iff W f p d o i kd WO PO OK WI OF CN C D K); eauto). destruct AL as [AL L31]. rewrite (const_form f p d o i OK OF CN C AL L31) in LX. cbn [fst] in LX.
  pose proof (slots_needs y k _ F Y) as NE. assert (P32 : 2 ^ 32 = 2 * 2 ^ 31) by reflexivity.
  destruct d as [f' h|[r|]|[r|] o'|[o'|]|[r|] [o'|]|[r|] [o'|]|b| |]; cbn [op_ok with_offset] in OK, WI; try contradiction; cbn [allowed] in AL; cbn [offs_of] in OF; cbn [says] in NE; assert (o' = o) by congruence; subst o'; assert (FI : final (Some o) = ival i) by (unfold final; cbn [late_of]; rewrite CL; auto); rewrite FI in NE; cbn [needs] in NE; rewrite Z.mod_small in NE by lia; cbn [goal_bc] in LX;
  repeat match type of NE with context [?a <=? ?b] => destruct (Z.leb_spec a b) end; cbn [b_len] in LX; lia.
Qed.
