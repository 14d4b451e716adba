(** Proofs for the unwind information of win64 objects: layout and directives (C84, C85, C86). *)
From Coq Require Import ZArith List Bool Lia.
From Verif Require Import Lib LibBits M_BitVect P_BitVect P_BitVectIO M_Intnum P_Intnum P_IntnumIO M_Win64 P_Win64.
Import ListNotations.
Open Scope Z_scope.

Definition blen (x : output) : Z := Z.of_nat (length (fst (fst x))).
Lemma align4_len : forall o, Z.of_nat (length (align4 o)) = (- o) mod 4.
Proof. intros. unfold align4. rewrite repeat_length, Z2Nat.id; [auto|]. apply Z.mod_pos_bound. lia. Qed.
Lemma blen_append : forall a b, blen (append a b) = blen a + blen b.
Proof. intros [[a e] w] [[a' e'] w']. unfold blen, append. cbn [fst]. rewrite app_length. lia. Qed.
Lemma block_refs : forall W o u r, In r (snd (block W o u)) -> o <= fst r < o + blen (fst (block W o u)).
Proof.
  intros W o u r H. unfold block in *. cbv zeta in *. set (x := append (append (align4 o, [], []) (info_out W u)) (codes_out W (u_codes u))) in *. set (y := append x (align4 (o + Z.of_nat (length (fst (fst x)))), [], [])) in *. destruct (u_handler u) as [h|]; cbn [fst snd] in *; [|destruct H].
  destruct H as [<- |[]]. cbn [fst]. rewrite blen_append. change (Z.of_nat (length (fst (fst y)))) with (blen y). change (blen (repeat 0 4, [], [])) with 4. unfold blen. lia.
Qed.
Lemma layout_eq : forall W o i l, layout W o (i :: l) =
  let (x, r) := match i with Unwind u => block W o u | User b => ((b, [], []), []) end in
  let (y, r') := layout W (o + Z.of_nat (length (fst (fst x)))) l in (append x y, r ++ r').
Proof. reflexivity. Qed.
Lemma layout_nth : forall W l k o x r u, layout W o l = ((x, [], []), r) -> nth_error l k = Some (Unwind u) ->
  exists pre y post r1 ry r2, x = pre ++ y ++ post /\ r = r1 ++ ry ++ r2 /\ Z.of_nat (length pre) = blen (fst (layout W o (firstn k l))) /\
    block W (o + Z.of_nat (length pre)) u = ((y, [], []), ry) /\ Forall (fun s => fst s < o + Z.of_nat (length pre)) r1.
Proof.
  intros W. induction l as [|i l IH]; intros k o x r u H N; [destruct k; discriminate N|]. rewrite layout_eq in H.
  destruct (match i with Unwind u => block W o u | User b => ((b, [], []), []) end) as [xi ri] eqn:I. destruct (layout W (o + Z.of_nat (length (fst (fst xi)))) l) as [y' r'] eqn:L. cbn beta iota in H.
  assert (A : append xi y' = (x, [], [])) by congruence. apply append_inv in A. destruct A as (a & b & A1 & A2 & ->). assert (R : r = ri ++ r') by congruence. subst r xi y'. cbn [fst] in L.
  destruct k as [|k]; cbn [nth_error firstn] in N |- *.
  - assert (i = Unwind u) by congruence. subst i. exists [], a, b, [], ri, r'. split; [reflexivity|]. split; [reflexivity|]. split; [reflexivity|]. split; [|constructor]. cbn [length Z.of_nat]. rewrite Z.add_0_r. auto.
  - destruct (IH k _ _ _ _ L N) as (pre & y & post & r1 & ry & r2 & -> & -> & P1 & P2 & P3). exists (a ++ pre), y, post, (ri ++ r1), ry, r2. split; [rewrite <- app_assoc; auto|]. split; [rewrite <- app_assoc; auto|].
    rewrite app_length, Nat2Z.inj_add. split; [|split; [rewrite Z.add_assoc; auto|]].
    + rewrite layout_eq, I. cbn [fst]. destruct (layout W (o + Z.of_nat (length a)) (firstn k l)) as [z rz] eqn:LZ. cbn [fst] in P1 |- *. rewrite blen_append, P1. reflexivity.
    + apply Forall_app. split.
      * apply Forall_forall. intros s S. assert (SR : In s (snd (match i with Unwind u => block W o u | User b => ((b, [], []), []) end))) by (rewrite I; auto). destruct i as [ui|bi]; [|destruct SR]. pose proof (block_refs W o ui s SR) as Q. rewrite I in Q. unfold blen in Q. cbn [fst] in Q. lia.
      * eapply Forall_impl; [|exact P3]. intros s. cbn beta. lia.
Qed.
Lemma skipn_app_len : forall (a b : list Z) k, k = length a -> skipn k (a ++ b) = b.
Proof. intros a b k ->. rewrite skipn_app, skipn_all, Nat.sub_diag. reflexivity. Qed.
Lemma firstn_app_len : forall (a b : list Z) k, k = length a -> firstn k (a ++ b) = a.
Proof. intros a b k ->. rewrite firstn_app, firstn_all, Nat.sub_diag. cbn [firstn]. apply app_nil_r. Qed.
Lemma find_skip : forall (f : Z * Z -> bool) a b, Forall (fun x => f x = false) a -> find f (a ++ b) = find f b.
Proof. intros f a b F. induction F as [|x a F1 F2 IH]; cbn [app find]; [auto|rewrite F1; auto]. Qed.
Lemma block_decodes : forall W u pre y post r1 ry r2, world_ok W -> info_ok u -> block W (Z.of_nat (length pre)) u = ((y, [], []), ry) -> Forall (fun s => fst s < Z.of_nat (length pre)) r1 ->
  exists q d ss, u_prolog u = Some q /\ dist W q (u_proc u) = Some d /\ 0 <= d <= 255 /\ Forall2 (reads W) (u_codes u) ss /\ 0 <= final (u_frameoff u) <= 240 /\ final (u_frameoff u) mod 16 = 0 /\
    decode (pre ++ y ++ post) (r1 ++ ry ++ r2) (up4 (Z.of_nat (length pre))) = Some (Unwound d (u_framereg u mod 16, final (u_frameoff u)) ss (u_handler u)) /\
    blen ((y, [], []) : output) mod 4 = (- Z.of_nat (length pre)) mod 4.
Proof.
  intros W u pre y post r1 ry r2 WO IO H F1. unfold block in H. cbv zeta in H. set (o := Z.of_nat (length pre)) in *.
  set (x := append (append (align4 o, [], []) (info_out W u)) (codes_out W (u_codes u))) in *. set (z := append x (align4 (o + Z.of_nat (length (fst (fst x)))), [], [])) in *.
  assert (Z0 : exists zb tail, z = (zb, [], []) /\ y = zb ++ tail /\ (tail = [] /\ ry = [] /\ u_handler u = None \/ tail = repeat 0 4 /\ exists h, u_handler u = Some h /\ ry = [(o + Z.of_nat (length zb), h)])).
  { destruct (u_handler u) as [h|].
    - assert (A : append z (repeat 0 4, [], []) = (y, [], [])) by congruence. apply append_inv in A. destruct A as (zb & tl & A1 & A2 & ->). exists zb, tl. split; [auto|]. split; [auto|]. right. split; [congruence|]. exists h. split; [auto|]. rewrite A1 in H. cbn [fst] in H. congruence.
    - exists y, []. rewrite app_nil_r. split; [congruence|]. split; [auto|]. left. split; [auto|]. split; [congruence|auto]. }
  destruct Z0 as (zb & tail & ZE & -> & TL). unfold z in ZE. apply append_inv in ZE. destruct ZE as (xb & pad & XE & PE & ->). assert (PD : pad = align4 (o + Z.of_nat (length xb))) by (rewrite XE in PE; cbn [fst] in PE; congruence). clear PE.
  unfold x in XE. apply append_inv in XE. destruct XE as (yb & cb & YE & CE & ->). apply append_inv in YE. destruct YE as (p1 & ib & P1 & IE & ->). assert (P1' : p1 = align4 o) by congruence. clear P1. subst p1.
  destruct (info_ok_out W u ib WO IO IE) as (q & d & f & Q & D & DR & NR & IB & FM & FD & FR & FR16). destruct (codes_ok W (u_codes u) cb WO (proj1 IO) CE) as (CL & ss & SL & RD). set (n := count (u_codes u)) in *.
  pose proof (align4_len o) as AL. assert (LIB : Z.of_nat (length ib) = 4) by (rewrite IB; reflexivity).
  assert (PADL : Z.of_nat (length pad) = 2 * (n mod 2)).
  { rewrite PD, align4_len, !app_length, !Nat2Z.inj_add, AL, LIB, CL. pose proof (Z.div_mod o 4 ltac:(lia)) as DO. pose proof (Z.mod_pos_bound o 4 ltac:(lia)) as RO. pose proof (Z.div_mod (- o) 4 ltac:(lia)) as DO'. pose proof (Z.mod_pos_bound (- o) 4 ltac:(lia)) as RO'. pose proof (Z.div_mod n 2 ltac:(lia)) as DN. pose proof (Z.mod_pos_bound n 2 ltac:(lia)) as RN.
    set (k := (- o) mod 4) in *. set (m := n mod 2) in *. symmetry. apply (Z.mod_unique _ 4 ((- o) / 4 - 1 - n / 2 - m)); [left; lia|lia]. }
  exists q, d, ss. split; [auto|]. split; [auto|]. split; [auto|]. split; [auto|]. split; [auto|]. split; [auto|]. split.
  - unfold decode, up4.
    replace (pre ++ (((align4 o ++ ib) ++ cb) ++ pad) ++ tail) with ((pre ++ align4 o) ++ ib ++ cb ++ pad ++ tail) by (rewrite <- !app_assoc; reflexivity).
    replace ((pre ++ (((((align4 o ++ ib) ++ cb) ++ pad) ++ tail) ++ post))) with ((pre ++ align4 o) ++ ib ++ cb ++ (pad ++ tail ++ post)) by (rewrite <- !app_assoc; reflexivity).
    rewrite skipn_app_len by (rewrite app_length; rewrite <- AL; unfold o; lia). rewrite IB. cbn [app].
    assert (V8 : match u_handler u with Some _ => 9 | None => 1 end mod 8 = 1) by (destruct (u_handler u); reflexivity). rewrite V8. cbn [Z.eqb Pos.eqb negb orb].
    destruct (Z.ltb_spec (Z.of_nat (length (cb ++ pad ++ tail ++ post))) (2 * n)) as [Q1|Q1]; [rewrite app_length in Q1; lia|].
    rewrite firstn_app_len by lia. rewrite SL. cbv zeta. rewrite FM, FD. destruct TL as [(-> & -> & HN)|(-> & h & HN & ->)]; rewrite HN; cbn [Z.div].
    + reflexivity.
    + change (9 / 8 =? 0) with false. change (9 / 8 =? 1) with true. cbn [andb]. cbn iota.
      assert (HO : o + (- o) mod 4 + 4 + 2 * (n + n mod 2) = o + Z.of_nat (length (((align4 o ++ ib) ++ cb) ++ pad))) by (rewrite !app_length, !Nat2Z.inj_add, AL, LIB, CL, PADL; lia).
      destruct (Z.leb_spec (o + (- o) mod 4 + 4 + 2 * (n + n mod 2) + 4) (Z.of_nat (length ((pre ++ align4 o) ++ (9 :: d :: n :: f :: cb ++ pad ++ repeat 0 4 ++ post))))) as [Q2|Q2].
      * rewrite find_skip by (eapply Forall_impl; [|exact F1]; intros s S; cbn beta in S |- *; apply Z.eqb_neq; pose proof (Z.mod_pos_bound (- o) 4 ltac:(lia)); pose proof (Z.mod_pos_bound n 2 ltac:(lia)); lia).
        cbn [app find fst]. rewrite <- HO, Z.eqb_refl. reflexivity.
      * exfalso. rewrite !app_length in Q2. cbn [length] in Q2. rewrite !app_length in Q2. cbn [repeat length] in Q2. unfold o in *. lia.
  - unfold blen. cbn [fst]. rewrite !app_length, !Nat2Z.inj_add, AL, LIB, CL, PADL. assert (TM : exists t, Z.of_nat (length tail) = 4 * t) by (destruct TL as [(-> & _)|(-> & _)]; [exists 0|exists 1]; reflexivity). destruct TM as [t ->].
    pose proof (Z.div_mod n 2 ltac:(lia)) as DN. replace ((- o) mod 4 + 4 + 2 * n + 2 * (n mod 2) + 4 * t) with ((- o) mod 4 + (1 + n / 2 + n mod 2 + t) * 4) by lia. rewrite Z.mod_add, Z.mod_mod by lia. reflexivity.
Qed.

(** ** Directives *)
Definition add_op (u : info) (x : pos * dir) : info :=
  let p := fst x in
  let add u op i o := Info (u_proc u) (u_prolog u) (u_handler u) (u_framereg u) (u_frameoff u) (Code (u_proc u) p op i o :: u_codes u) in
  match snd x with
  | PUSHREG (Some r) => add u UWOP_PUSH_NONVOL (Z.land r 15) None
  | SETFRAME (Some r) o => add (Info (u_proc u) (u_prolog u) (u_handler u) r o (u_codes u)) UWOP_SET_FPREG (Z.land r 15) o
  | ALLOCSTACK o => add u UWOP_ALLOC_SMALL 0 o
  | SAVEREG (Some r) o => add u UWOP_SAVE_NONVOL (Z.land r 15) o
  | SAVEXMM128 (Some r) o => add u UWOP_SAVE_XMM128 (Z.land r 15) o
  | PUSHFRAME b => add u UWOP_PUSH_MACHFRAME (if b then 1 else 0) None
  | _ => u
  end.
Definition opened (f : Z) (h : option Z) (ops : list (pos * dir)) : info := fold_left add_op ops (Info f None h 0 None []).
Definition ended (u : info) (q : pos) : info := Info (u_proc u) (Some q) (u_handler u) (u_framereg u) (u_frameoff u) (u_codes u).
Definition closed (p : proc) : info := ended (opened (p_sym p) (p_hnd p) (p_ops p)) (p_prolog p).
Inductive phase := Idle | Pro (p0 : pos) (f : Z) (h : option Z) (ops : list (pos * dir)) | Body (p0 : pos) (f : Z) (h : option Z) (ops : list (pos * dir)) (q : pos).
Definition evs (ops : list (pos * dir)) : list event := map (fun x => At (fst x) (snd x)) ops.
Definition phase_text (ph : phase) : list event :=
  match ph with
  | Idle => []
  | Pro p0 f h ops => At p0 (PROC_FRAME f h) :: evs ops
  | Body p0 f h ops q => At p0 (PROC_FRAME f h) :: evs ops ++ [At q ENDPROLOG]
  end.
Definition phase_ok (ph : phase) (s : st) : Prop :=
  match ph with
  | Idle => frame s = false /\ done s = false /\ unwind s = None
  | Pro p0 f h ops => frame s = true /\ done s = false /\ unwind s = Some (opened f h ops) /\ Forall (fun x => op_ok (snd x)) ops
  | Body p0 f h ops q => frame s = true /\ done s = true /\ unwind s = Some (ended (opened f h ops) q) /\ Forall (fun x => op_ok (snd x)) ops
  end.
Definition inv (es : list event) (s : st) : Prop :=
  exists ps ph, Forall proc_ok ps /\ dirs es = flat_map text ps ++ phase_text ph /\ phase_ok ph s /\
    Forall2 (fun p e => e_proc e = p_sym p /\ e_end e = p_end p /\ nth_error (xdata s) (e_items e) = Some (Unwind (closed p))) ps (pdata s) /\
    (forall l, In (User l) (xdata s) -> In (Data l) es) /\ (forall u, In (Unwind u) (xdata s) -> exists p, In p ps /\ u = closed p).
Lemma checked_eq : forall s k u, frame s = true -> done s = false -> unwind s = Some u -> checked s k = k u.
Proof. intros s k u F D U. unfold checked. rewrite F, D, U. reflexivity. Qed.
Lemma checked_err : forall s k, frame s = false \/ done s = true -> exists e, checked s k = err e s.
Proof. intros s k H. unfold checked. destruct (frame s); cbn [negb]; [|eauto]. destruct H as [H|H]; [discriminate H|]. rewrite H. eauto. Qed.
Lemma err_some : forall e s, errs (err e s) <> [].
Proof. intros e s. cbn. destruct (errs s); discriminate. Qed.
Lemma step_op : forall s p d u, frame s = true -> done s = false -> unwind s = Some u -> op_ok d -> step s (At p d) = St true false (Some (add_op u (p, d))) (xdata s) (pdata s) (errs s).
Proof.
  intros s p d u F D U OK. destruct d as [f h|[r|]|[r|] o|[o|]|[r|] [o|]|[r|] [o|]|b| |]; cbn [op_ok] in OK; try contradiction; cbn [step]; unfold save; rewrite (checked_eq s _ u F D U); unfold push; rewrite F, D; reflexivity.
Qed.
(** a directive outside its place, or without its parameters, is an error *)
Definition in_place (ph : phase) (d : dir) : Prop :=
  match ph, d with
  | Idle, PROC_FRAME _ _ => True
  | Pro _ _ _ _, ENDPROLOG => True
  | Pro _ _ _ _, d => op_ok d
  | Body _ _ _ _ _, ENDPROC_FRAME => True
  | _, _ => False
  end.
Lemma step_bad : forall ph s p d, phase_ok ph s -> ~ in_place ph d -> errs (step s (At p d)) <> [].
Proof.
  intros ph s p d K N. destruct ph as [|p0 f h ops|p0 f h ops q]; cbn [phase_ok] in K.
  - destruct K as (F & D & U). destruct d as [f h|r|r o|o|r o|r o|b| |]; cbn [in_place] in N; [tauto|..]; cbn [step]; unfold save; try (destruct (checked_err s ltac:(first [exact (fun u => s)|idtac]) (or_introl F)) as [e E]); unfold checked; rewrite F; cbn [negb]; apply err_some.
  - destruct K as (F & D & U & O). destruct d as [f' h'|[r|]|[r|] o|[o|]|[r|] [o|]|[r|] [o|]|b| |]; cbn [in_place op_ok] in N; try tauto; cbn [step]; unfold save; rewrite ?(checked_eq s _ _ F D U); try apply err_some; rewrite F; cbn [negb]; rewrite ?D; cbn [negb]; apply err_some.
  - destruct K as (F & D & U & O). destruct d as [f' h'|r|r o|o|r o|r o|b| |]; cbn [in_place] in N; try tauto; cbn [step]; unfold save, checked; rewrite F, ?D; cbn [negb]; apply err_some.
Qed.
Lemma step_good : forall ph s p d, phase_ok ph s -> in_place ph d -> errs (step s (At p d)) = errs s.
Proof.
  intros ph s p d K N. destruct ph as [|p0 f h ops|p0 f h ops q]; cbn [phase_ok] in K.
  - destruct K as (F & D & U). destruct d; cbn [in_place] in N; try contradiction. cbn [step]. rewrite F. reflexivity.
  - destruct K as (F & D & U & O). assert (Q : d = ENDPROLOG \/ op_ok d) by (destruct d; cbn [in_place] in N; auto). destruct Q as [-> |Q]; [cbn [step]; rewrite (checked_eq s _ _ F D U); reflexivity|]. rewrite (step_op s p d _ F D U Q). reflexivity.
  - destruct K as (F & D & U & O). destruct d; cbn [in_place] in N; try contradiction. cbn [step]. rewrite F, D, U. reflexivity.
Qed.
Lemma errs_mono : forall s e, errs s <> [] -> errs (step s e) <> [].
Proof.
  intros s e H. assert (C : forall k, (forall u, errs (k u) <> []) -> errs (checked s k) <> []) by (intros k K; unfold checked; destruct (frame s), (done s), (unwind s); cbn [negb]; auto; apply err_some).
  destruct e as [p d|l]; [|exact H]. destruct d as [f h|r|r o|o|r o|r o|b| |]; cbn [step]; unfold save; try (apply C; intros u).
  - destruct (frame s); [apply err_some|exact H].
  - destruct r; [exact H|apply err_some].
  - destruct r; [exact H|apply err_some].
  - destruct o; [exact H|apply err_some].
  - destruct r; [destruct o; [exact H|apply err_some]|apply err_some].
  - destruct r; [destruct o; [exact H|apply err_some]|apply err_some].
  - exact H.
  - exact H.
  - destruct (frame s), (done s), (unwind s); cbn [negb]; try apply err_some; exact H.
Qed.
Lemma dirs_app : forall a b, dirs (a ++ b) = dirs a ++ dirs b.
Proof. intros. apply filter_app. Qed.
Lemma nth_grow : forall (l m : list item) k x, nth_error l k = Some x -> nth_error (l ++ m) k = Some x.
Proof. intros l m k x H. rewrite nth_error_app1; [auto|]. apply nth_error_Some. congruence. Qed.
Lemma Forall2_imp : forall (A B : Type) (P Q : A -> B -> Prop), (forall a b, P a b -> Q a b) -> forall l m, Forall2 P l m -> Forall2 Q l m.
Proof. intros A B P Q I l m F. induction F; constructor; auto. Qed.
Lemma inv_step : forall es s e, inv es s -> errs (step s e) = [] -> inv (es ++ [e]) (step s e).
Proof.
  intros es s e (ps & ph & PO & DE & PH & F2 & US & UC) H. destruct e as [p d|l].
  2:{ exists ps, ph. split; [auto|]. rewrite dirs_app. cbn [dirs filter]. rewrite app_nil_r. split; [auto|]. split; [exact PH|]. cbn [step xdata pdata]. split.
      - eapply Forall2_imp; [|exact F2]. cbn beta. intros a b (A & B & C). auto using nth_grow.
      - split; [intros m M; apply in_app_iff in M; apply in_app_iff; destruct M as [M|[M|[]]]; [left; auto|right; left; congruence]|]. intros u M. apply in_app_iff in M. destruct M as [M|[M|[]]]; [auto|discriminate M]. }
  assert (UP : forall m, In (Data m) es -> In (Data m) (es ++ [At p d])) by (intros; apply in_app_iff; auto).
  assert (IP : in_place ph d). { destruct ph as [|p0 f h ops|p0 f h ops q]; cbn [in_place]. - destruct d; cbn [in_place]; auto; exfalso; eapply (step_bad Idle s p); eauto; cbn [in_place]; tauto. - destruct d as [f' h'|[r|]|[r|] o|[o|]|[r|] [o|]|[r|] [o|]|b| |]; cbn [op_ok]; auto; exfalso; eapply (step_bad (Pro p0 f h ops) s p); eauto; cbn [in_place op_ok]; tauto. - destruct d; auto; exfalso; eapply (step_bad (Body p0 f h ops q) s p); eauto; cbn [in_place]; tauto. }
  destruct ph as [|p0 f h ops|p0 f h ops q].
  - destruct d as [f h|r|r o|o|r o|r o|b| |]; cbn [in_place] in IP; try contradiction. destruct PH as (F & D & U). exists ps, (Pro p f h []). split; [auto|]. rewrite dirs_app, DE. cbn [phase_text dirs filter evs map]. rewrite app_nil_r. split; [reflexivity|]. cbn [step]. rewrite F. cbn [phase_ok frame done unwind xdata pdata]. repeat split; auto.
  - destruct PH as (F & D & U & O). assert (Q : d = ENDPROLOG \/ op_ok d) by (destruct d; cbn [in_place] in IP; auto). destruct Q as [-> |Q].
    + exists ps, (Body p0 f h ops p). split; [auto|]. rewrite dirs_app, DE. cbn [phase_text dirs filter]. split; [rewrite <- app_assoc; reflexivity|]. cbn [step]. rewrite (checked_eq s _ _ F D U). cbn [phase_ok frame done unwind xdata pdata]. repeat split; auto.
    + exists ps, (Pro p0 f h (ops ++ [(p, d)])). split; [auto|]. rewrite dirs_app, DE. cbn [phase_text dirs filter]. split; [rewrite <- app_assoc; unfold evs; rewrite map_app; reflexivity|]. rewrite (step_op s p d _ F D U Q). cbn [phase_ok frame done unwind xdata pdata]. split; [|split; auto]. split; [auto|]. split; [auto|]. split; [unfold opened; rewrite fold_left_app; reflexivity|]. apply Forall_app. auto.
  - destruct d as [f' h'|r|r o|o|r o|r o|b| |]; cbn [in_place] in IP; try contradiction. destruct PH as (F & D & U & O). exists (ps ++ [Proc p0 f h ops q p]), Idle. split; [apply Forall_app; auto|]. rewrite dirs_app, DE. cbn [phase_text dirs filter]. rewrite app_nil_r, flat_map_app. cbn [flat_map text p_start p_sym p_hnd p_ops p_prolog p_end]. rewrite app_nil_r.
    split; [rewrite <- app_assoc; unfold evs; cbn [app]; rewrite <- app_assoc; reflexivity|]. cbn [step]. rewrite F, D, U. cbn [negb phase_ok frame done unwind xdata pdata]. split; [auto|]. split.
    + apply Forall2_app; [eapply Forall2_imp; [|exact F2]; cbn beta; intros a b (A & B & C); auto using nth_grow|]. constructor; [|constructor]. cbn [e_proc e_end e_items p_sym p_end].
      assert (UP' : u_proc (ended (opened f h ops) q) = f). { cbn [ended u_proc]. unfold opened. assert (G : forall l u, u_proc (fold_left add_op l u) = u_proc u). { induction l as [|x l IH]; intros u; [auto|]. cbn [fold_left]. rewrite IH. destruct x as [px [f' h'|[r|]|[r|] o|o|[r|] o|[r|] o|b| |]]; reflexivity. } rewrite G. auto. }
      split; [auto|]. split; [auto|]. rewrite nth_error_app2, Nat.sub_diag by lia. reflexivity.
    + split; [intros m M; apply in_app_iff in M; destruct M as [M|[M|[]]]; [auto|discriminate M]|]. intros u M. apply in_app_iff in M. destruct M as [M|[M|[]]].
      * destruct (UC u M) as (p' & P' & ->). exists p'. split; [apply in_app_iff; auto|auto].
      * exists (Proc p0 f h ops q p). split; [apply in_app_iff; right; left; auto|]. unfold closed. cbn [p_sym p_hnd p_ops p_prolog]. congruence.
Qed.
Lemma run_snoc : forall es e, run (es ++ [e]) = step (run es) e.
Proof. intros. unfold run. rewrite fold_left_app. reflexivity. Qed.
Lemma run_inv : forall es, errs (run es) = [] -> inv es (run es).
Proof.
  intros es. induction es as [|e es IH] using rev_ind; intros H.
  - exists [], Idle. split; [constructor|]. split; [reflexivity|]. split; [repeat split|]. split; [constructor|]. split; [intros l []|intros u []].
  - rewrite run_snoc in *. assert (E : errs (run es) = []). { destruct (errs (run es)) eqn:Q; [auto|]. exfalso. apply (errs_mono (run es) e); [rewrite Q; discriminate|auto]. } apply inv_step; auto.
Qed.
(** the converse: a source made of procedures has no error *)
Inductive legal : Z -> list event -> Prop :=
  | l_nil : legal 0 []
  | l_proc : forall p f h l, legal 1 l -> legal 0 (At p (PROC_FRAME f h) :: l)
  | l_op : forall p d l, op_ok d -> legal 1 l -> legal 1 (At p d :: l)
  | l_pro : forall p l, legal 2 l -> legal 1 (At p ENDPROLOG :: l)
  | l_end : forall p l, legal 0 l -> legal 2 (At p ENDPROC_FRAME :: l).
Lemma text_legal : forall ps, Forall proc_ok ps -> legal 0 (flat_map text ps).
Proof.
  intros ps F. induction F as [|p ps F1 F2 IH]; [constructor|]. cbn [flat_map text app]. constructor. rewrite <- app_assoc. unfold proc_ok in F1. induction F1 as [|x ops O1 O2 IHo]; cbn [map app]; [constructor; constructor; auto|]. constructor; auto.
Qed.
Definition kind (k : Z) (s : st) : Prop :=
  (k = 0 /\ frame s = false) \/ (k = 1 /\ frame s = true /\ done s = false /\ exists u, unwind s = Some u) \/ (k = 2 /\ frame s = true /\ done s = true /\ exists u, unwind s = Some u).
Lemma legal_run : forall es k s, kind k s -> legal k (dirs es) -> errs (fold_left step es s) = errs s /\ frame (fold_left step es s) = false.
Proof.
  induction es as [|e es IH]; intros k s K L; cbn [fold_left].
  - inversion L; subst. destruct K as [[_ K]|[[K _]|[K _]]]; [auto|discriminate K|discriminate K].
  - destruct e as [p d|l]; cbn [dirs filter] in L; fold (dirs es) in L.
    + inversion L as [|p' f h l L1|p' d' l OK L1|p' l L1|p' l L1]; subst.
      * destruct K as [[_ K]|[[K _]|[K _]]]; try discriminate K. destruct (IH 1 (step s (At p (PROC_FRAME f h)))) as [A B]; [|auto|rewrite A; split; [|auto]]; cbn [step]; rewrite K; [right; left; cbn; eauto|reflexivity].
      * destruct K as [[K _]|[(_ & F & D & u & U)|[K _]]]; try discriminate K. rewrite (step_op s p d u F D U OK). destruct (IH 1 (St true false (Some (add_op u (p, d))) (xdata s) (pdata s) (errs s))) as [A B]; [right; left; cbn; eauto|auto|]. rewrite A. auto.
      * destruct K as [[K _]|[(_ & F & D & u & U)|[K _]]]; try discriminate K. destruct (IH 2 (step s (At p ENDPROLOG))) as [A B]; [|auto|rewrite A; split; [|auto]]; cbn [step]; rewrite (checked_eq s _ u F D U); [right; right; cbn; eauto|reflexivity].
      * destruct K as [[K _]|[[K _]|(_ & F & D & u & U)]]; try discriminate K. destruct (IH 0 (step s (At p ENDPROC_FRAME))) as [A B]; [|auto|rewrite A; split; [|auto]]; cbn [step]; rewrite F, D, U; [left; cbn; auto|reflexivity].
    + destruct (IH k (step s (Data l))) as [A B]; [|auto|auto]. exact K.
Qed.
