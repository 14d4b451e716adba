(** Load addresses, virtual addresses and rejected layouts of a flat binary (C37, C66, C67). *)
From Coq Require Import ZArith Znumtheory List Bool Lia Permutation Sorted.
From Verif Require Import Lib LibBits M_BitVect P_BitVect M_Intnum P_Intnum P_IntnumIO M_BinObj P_BinNum P_BinForest P_BinObj P_BinLay P_BinVma P_BinTop.
Import ListNotations.
Open Scope Z_scope.

(** * Specification *)
(** The load addresses [addr] of the sections [l], given the origin [o] and the order [R]. *)
Definition load_addresses (o : Z) (l : list sect) (R : list nat) (addr : nat -> option Z) : Prop :=
  forall i b, nth_error l i = Some b -> exists x, addr i = Some x /\
    (forall s, start b = Some (Some s) -> is_up (ival s) (al b) x) /\
    (forall f, follows b = Some f -> exists z, end_of_named l addr f z /\ is_up z (al b) x) /\
    (start b = None -> follows b = None -> exists z, greatest o (ends_before l addr R i) z /\ is_up z (al b) x).
(** The virtual addresses. *)
Definition virtual_addresses (l : list sect) (addr : nat -> option Z) : Prop :=
  forall i b, nth_error l i = Some b -> exists v, addr i = Some v /\
    (forall s, vstart b = Some (Some s) -> is_up (ival s) (vl b) v) /\
    (forall f, vfollows b = Some f -> exists z, end_of_named l addr f z /\ is_up z (vl b) v) /\
    (vl b | v).
Definition dead_end (fol : sect -> option str) (l : list sect) (i : nat) : Prop :=
  (exists b, nth_error l i = Some b) /\ ~ exists r, chain fol l i r /\ free fol l r.

(** * Load addresses *)
Lemma find_gid : forall R i, In i (map gid R) -> exists R1 g R2, R = R1 ++ g :: R2 /\ gid g = i.
Proof. intros R i H. apply in_map_iff in H. destruct H as (g & E & G). apply in_split in G. destruct G as (R1 & R2 & ->). eauto. Qed.
Lemma endof_at : forall I n x, I (fst n) = Some x -> endof I n = x + len (snd n).
Proof. intros I n x H. unfold endof. rewrite H. auto. Qed.
Lemma staged_lma : forall o l R m1 V, wf l -> staged o l R m1 V -> load_addresses (ival o) l (map gid R) (LMA m1).
Proof.
  intros o l R m1 V W H. destruct H as [SI IR FR OR PL PO _ _]. destruct PO as (la & vd & PO). destruct PO as (_ & _ & _ & _ & _ & _ & _ & IS & _). assert (ND := proj1 (proj2 W)).
  rewrite Forall_forall in SI. assert (SO := proj1 W). rewrite Forall_forall in SO.
  assert (ALL : forall i b, nth_error l i = Some b -> exists x, LMA m1 i = Some x).
  { intros i b B. apply (inv_in follows l R i b IR) in B. destruct (IS (i, b) B) as (x & X & _). exists (ival x). unfold LMA. cbn [fst] in X. rewrite X. auto. }
  assert (RT : forall i b, nth_error l i = Some b -> follows b = None -> exists R1 g R2, R = R1 ++ g :: R2 /\ root g = (i, b)).
  { intros i b B F. destruct (fo_self follows l R IR i b B F) as (g & G & E). apply in_split in G. destruct G as (R1 & R2 & ->). eauto. }
  intros i b B. destruct (follows b) as [f|] eqn:Fb.
  - destruct (fo_parent follows l R IR FR i b f B Fb) as (g & p & G & E & P & N). apply in_split in G. destruct G as (R1 & R2 & ->). apply rplaced_split in PL.
    destruct (placed_edge _ _ _ PL p (i, b) E) as (y & x & Y & X & U). cbn [fst snd] in *. exists x. split; auto. split; [|split].
    + intros s S0. assert (K := SO b (nth_error_In l i B)). destruct K as (_ & _ & _ & _ & _ & _ & K & _). destruct K; congruence.
    + intros f' F. assert (f' = f) by congruence. subst f'. exists (y + len (snd p)). split; auto. exists (fst p), (snd p), y. auto.
    + discriminate.
  - destruct (RT i b B Fb) as (R1 & g & R2 & ER & Eg). assert (i = gid g /\ b = gsect g) as [-> ->] by (unfold root in Eg; split; congruence). clear Eg. pose proof PL as PL0. rewrite ER in PL0. apply rplaced_split in PL0.
    destruct (placed_root _ _ _ PL0) as (x & X & U). exists x. split; auto. assert (M0 : LMA (mem0 l) (gid g) = option_map ival (given (start (gsect g)))) by (unfold LMA; rewrite mem0_at; auto). rewrite M0 in U. split; [|split].
    + intros s S0. rewrite S0 in U. exact U.
    + discriminate.
    + intros S0 _. rewrite S0 in U. cbn [given option_map] in U. exists (maxl (ival o) (ends (LMA m1) (fmembers R1))). split; auto. apply maxl_greatest. intro z. unfold ends. rewrite in_map_iff. split.
      * intros (n & <- & N). destruct n as [j c]. unfold fmembers in N. apply in_flat_map in N. destruct N as (h & H & N). assert (HR : In h R) by (rewrite ER; apply in_or_app; auto).
        assert (J : nth_error l j = Some c) by (apply (fo_member follows l R IR h (j, c)); auto). destruct (ALL j c J) as (y & Y). exists (gid h), j, c, y. split; [|split; [apply (fo_chain follows l R IR h (j, c)); auto|]].
        -- exists (map gid R1), (map gid (g :: R2)). rewrite ER, map_app. split; auto. split; [apply in_map; auto|left; auto].
        -- split; auto. split; auto. apply (endof_at (LMA m1) (j, c)). auto.
      * intros (r & j & c & y & P & C & J & Y & ->). exists (j, c). split; [apply (endof_at (LMA m1) (j, c)); auto|].
        assert (NDR : NoDup (map gid R)) by (apply (fo_nodup follows l); auto). destruct P as (P1 & P2 & EP & IP & JP).
        assert (RI : In r (map gid R1)) by (apply (NoDup_pos _ (map gid R) P1 P2 (map gid R1) (map gid R2) r (gid g)); auto; rewrite ER, map_app; auto).
        apply in_map_iff in RI. destruct RI as (h & <- & H). apply (in_fmembers R1 h); auto. apply (fo_block follows l R IR FR ND h j c); auto. rewrite ER. apply in_or_app. auto.
Qed.

(** * Order of all sections *)
Lemma edge_precedes : forall g p n, In (p, n) (edges g) -> precedes (members g) p n.
Proof.
  induction g as [i b fs IH] using group_ind2. intros p n E. cbn [edges] in E. apply in_app_or in E. destruct E as [E|E].
  - apply in_map_iff in E. destruct E as (f & E & F). injection E as <- <-. exists [(i, b)], (fmembers fs). split; [reflexivity|]. split; [left; auto|]. apply (in_fmembers fs f); auto. apply root_member.
  - apply in_flat_map in E. destruct E as (f & F & E). rewrite Forall_forall in IH. pose proof (IH f F p n E) as K. change (members (Group i b fs)) with ((i, b) :: fmembers fs). apply (precedes_app_r _ [(i, b)]). apply in_split in F. destruct F as (f1 & f2 & ->). unfold fmembers. rewrite flat_map_app. apply precedes_app_r. cbn [flat_map]. apply precedes_app_l. exact K.
Qed.
Lemma staged_order : forall o l R m1 V, wf l -> staged o l R m1 V -> full_order l (map gid R) (fmembers R).
Proof.
  intros o l R m1 V W H. destruct H as [SI IR FR OR PL PO _ _]. assert (ND := proj1 (proj2 W)). split.
  - exists (map members R). split.
    + assert (K : forall g, In g R -> (exists b t, members g = (gid g, b) :: t) /\ forall j c, In (j, c) (members g) <-> chain follows l j (gid g) /\ nth_error l j = Some c).
      { intros g G. split; [destruct g as [i b fs]; cbn [members gid]; eauto|]. intros. apply (fo_block follows l R IR FR ND); auto. }
      clear - K. induction R as [|g r IH]; cbn [map]; constructor; [apply K; left; auto|apply IH; intros; apply K; right; auto].
    + unfold fmembers. rewrite flat_map_concat_map. reflexivity.
  - intros i b j c Hi Hj F. destruct (fo_parent follows l R IR FR i b _ Hi F) as (g & p & G & E & P & N). destruct p as [j' c']. cbn [fst snd] in *. assert (j' = j) by (apply (name_inj l j' j c' c ND); auto). subst j'. assert (c' = c) by congruence. subst c'.
    apply edge_precedes in E. apply in_split in G. destruct G as (R1 & R2 & ->). unfold fmembers. rewrite flat_map_app. apply precedes_app_r. cbn [flat_map]. apply precedes_app_l. exact E.
Qed.

(** * Virtual addresses *)
Lemma vwalk_ext2 : forall I V J W d ms d', vwalk I V d ms d' -> (forall n, In n ms -> I (fst n) = J (fst n)) -> (forall n, In n ms -> ~ other (snd n) -> V (fst n) = W (fst n)) -> vwalk J W d ms d'.
Proof.
  assert (NO : forall b, vstart b = None -> vfollows b = None -> ~ other b) by (intros b A B [C|C]; congruence).
  induction 1; intros A B.
  - constructor.
  - assert (I i = J i) by (apply (A (i, b)); left; auto). assert (V i = W i) by (apply (B (i, b)); [left; auto|auto]). apply vw_plain with (x := x); auto; try congruence. apply IHvwalk; intros; [apply A|apply B]; auto; right; auto.
  - assert (I i = J i) by (apply (A (i, b)); left; auto). assert (V i = W i) by (apply (B (i, b)); [left; auto|auto]). apply vw_align with (a := a) (x := x) (v := v); auto; try congruence. apply IHvwalk; intros; [apply A|apply B]; auto; right; auto.
  - apply vw_other; auto. apply IHvwalk; intros; [apply A|apply B]; auto; right; auto.
Qed.
Lemma is_up_div : forall x a r, is_up x a r -> (a | r).
Proof. intros x a r H. apply H. Qed.
Lemma is_up_same : forall x a r, 0 < a -> (a | x) -> is_up x a r -> r = x.
Proof.
  intros x a r P [k D] [[q E] B]. subst. assert (k <= q < k + 1) by nia. assert (q = k) by lia. subst. auto.
Qed.
(** Result of the virtual address stage. *)
Definition vcase (l : list sect) (m1 : mem) (R : list group) (r : lres) : Prop :=
  (r = LCrash /\ exists i b v, nth_error l i = Some b /\ ~ other b /\ VMA m1 i = Some v /\ ~ (vl b | v)) \/
  exists m2 w e, r = Placed m2 w e /\ (forall i, istart m2 i = istart m1 i) /\ virtual_addresses l (VMA m2) /\
    (exists d, vwalk (LMA m2) (VMA m2) 0 (fmembers R) d) /\
    forall x, In x e <-> exists i b s, x = VInconsistent i /\ nth_error l i = Some b /\ vstart b = Some (Some s) /\ ~ (vl b | ival s).
Lemma staged_vma : forall o l R m1 V w, wf l -> staged o l R m1 V -> vcase l m1 R (match assign_vall V m1 w [] with Crash => LCrash | VOk m2 w e => Placed m2 w e end).
Proof.
  intros o l R m1 V w W H. destruct H as [SI IR FR OR PL PO IV FV]. destruct PO as (la & vd & PO). destruct PO as (_ & _ & _ & _ & _ & VW & _ & IS & OT & NO). assert (ND := proj1 (proj2 W)).
  rewrite Forall_forall in SI. assert (SO0 := proj1 W). assert (SO := SO0). rewrite Forall_forall in SO. assert (LB := proj2 (proj2 W)). rewrite (fsz_inv follows l R IR) in *.
  assert (MR : forall i b, nth_error l i = Some b -> In (i, b) (fmembers R)) by (intros; apply (inv_in follows l R); auto).
  assert (IO : forall i b, nth_error l i = Some b -> other b -> ivstart m1 i = given (vstart b)).
  { intros i b B O. pose proof (OT (i, b) (MR i b B) O) as K. cbn [fst] in K. rewrite K. unfold mem0. cbn [ivstart]. rewrite B. auto. }
  assert (VLP : forall b, In b l -> 0 < vl b) by (intros b B; destruct (vl_ok b (SO b B)) as (_ & _ & P); pose proof (pow2_range _ P); lia).
  assert (FV0 := FV). rewrite Forall_forall in FV0.
  assert (ROOT : forall g, In g V -> exists s, ivstart m1 (gid g) = Some s /\ canon s /\ Z.abs (ival s) <= 2 ^ 202 /\ (other (gsect g) -> vstart (gsect g) = Some (Some s))).
  { intros g G. pose proof (fo_root vfollows l V IV g G) as B. pose proof (FV0 g G) as F. assert (BI := nth_error_In l _ B). destruct (vstart (gsect g)) as [[s|]|] eqn:Ev.
    - assert (K : given (vstart (gsect g)) = Some s) by (rewrite Ev; auto). exists s. rewrite (IO (gid g) (gsect g) B) by (left; congruence). destruct (vgiven_ok _ s (SO _ BI) K). split; auto. split; auto. split; auto. assert (2 ^ 202 = 4 * 2 ^ 200) by reflexivity. lia.
    - destruct (SI _ BI). congruence.
    - assert (N : ~ other (gsect g)) by (intros [O|O]; congruence). destruct (NO (root g) (MR _ _ B) N) as (v & E & C & K). exists v. split; auto. split; auto. split; [|intro; destruct (N H)]. assert (BND (Z.of_nat (length l)) <= 2 * 2 ^ 200).
      { unfold BND. assert (2 ^ 64 * 2 ^ 34 < 2 ^ 200) by (vm_compute; reflexivity). nia. }
      assert (2 ^ 202 = 4 * 2 ^ 200) by reflexivity. lia. }
  assert (VF : forall g, In g V -> vfail m1 g -> ~ other (gsect g)).
  { intros g G (s & _ & _ & S0) [O|O]; [congruence|]. apply O. auto. }
  destruct (vall_ok V 0 m1 w [] (inv_nodup vfollows l V IV) (inv_sect vfollows l V IV SO0)) as [(EC & EX)|(NF & m2 & w' & EV & VP & PL2)].
  - lia.
  - rewrite (fsz_inv vfollows l V IV). assert (2 ^ 65 = 2 * 2 ^ 64) by reflexivity. lia.
  - intros g G. destruct (ROOT g G) as (s & A & B & C & _). eauto.
  - intros g G n N. destruct (follow_edge g n N) as (p & E). destruct (edge_members g p n E) as [_ M]. destruct n as [i b]. pose proof (fo_member vfollows l V IV g (i, b) G M) as B. cbn [fst snd] in B. pose proof (fo_edges vfollows l V IV g G) as K. rewrite Forall_forall in K. specialize (K _ E). unfold edge_ok in K. cbn [fst snd] in K.
    cbn [fst]. rewrite (IO i b B) by (right; congruence). assert (S0 := SO b (nth_error_In l i B)). destruct S0 as (_ & _ & _ & _ & _ & _ & _ & [S0|S0]); [rewrite S0; auto|congruence].
  - left. rewrite EC. split; auto. apply Exists_exists in EX. destruct EX as (g & G & F). pose proof (VF g G F) as N. destruct F as (s & E & B & _). exists (gid g), (gsect g), (ival s). split; [apply (fo_root vfollows l V IV); auto|]. split; auto. split; [unfold VMA; rewrite E; auto|exact B].
  - right. rewrite EV. exists m2, w', (flat_map (vwrong m1) V). split; [rewrite app_nil_l; reflexivity|]. destruct VP as [VP1 VP2]. split; auto. rewrite Forall_forall in PL2, NF.
    assert (RT : forall g, In g V -> exists v, VMA m2 (gid g) = Some v /\ (forall s, ivstart m1 (gid g) = Some s -> is_up (ival s) (vl (gsect g)) v)).
    { intros g G. destruct (PL2 g G) as (s & E & P). apply vplaced_root in P. destruct P as (v & V1 & V2). exists v. split; auto. intros s' S'. unfold VMA in E. rewrite S' in E. cbn [option_map] in E. assert (ival s' = s) by congruence. subst. auto. }
    assert (NOT : forall i b, nth_error l i = Some b -> ~ other b -> VMA m2 i = VMA m1 i).
    { intros i b B N. assert (F0 : vfollows b = None) by (destruct (vfollows b) eqn:X; auto; destruct N; right; congruence). destruct (fo_self vfollows l V IV i b B F0) as (g & G & Eg). assert (i = gid g /\ b = gsect g) as [-> ->] by (unfold root in Eg; split; congruence).
      destruct (RT g G) as (v & V1 & V2). destruct (ROOT g G) as (s & S1 & _). specialize (V2 s S1). assert (D : (vl (gsect g) | ival s)).
      { destruct (Zdivide_dec (vl (gsect g)) (ival s)) as [D|D]; auto. destruct (NF g G). exists s. split; auto. split; auto. destruct (vstart (gsect g)) eqn:X; auto. destruct N. left. congruence. }
      apply is_up_same in V2; auto; [|apply VLP; apply (nth_error_In l _ B)]. rewrite V1. unfold VMA. rewrite S1. cbn [option_map]. congruence. }
    split; [|split].
    + intros i b B. destruct (vfollows b) as [f|] eqn:Fb.
      * destruct (fo_parent vfollows l V IV FV i b f B Fb) as (g & p & G & E & P & N). destruct (PL2 g G) as (s & _ & PG). destruct (vplaced_edge _ _ _ PG p (i, b) E) as (y & x & Y & X & U). cbn [fst snd] in *. exists x. split; auto. split; [|split].
        -- intros s' S0. assert (K := SO b (nth_error_In l i B)). destruct K as (_ & _ & _ & _ & _ & _ & _ & K). destruct K; congruence.
        -- intros f' F. assert (f' = f) by congruence. subst f'. exists (y + len (snd p)). split; auto. exists (fst p), (snd p), y. auto.
        -- apply is_up_div in U. auto.
      * destruct (fo_self vfollows l V IV i b B Fb) as (g & G & Eg). assert (i = gid g /\ b = gsect g) as [-> ->] by (unfold root in Eg; split; congruence). destruct (RT g G) as (v & V1 & V2). destruct (ROOT g G) as (s & S1 & _ & _ & S2). exists v. split; auto. split; [|split].
        -- intros s' S0. assert (O : other (gsect g)) by (left; congruence). specialize (S2 O). assert (s' = s) by congruence. subst. auto.
        -- discriminate.
        -- specialize (V2 s S1). apply is_up_div in V2. auto.
    + exists (ival vd). apply (vwalk_ext2 _ _ _ _ _ _ _ VW).
      * intros n _. unfold LMA. rewrite VP1. auto.
      * intros [i b] N O. cbn [fst snd] in *. apply (inv_in follows l R i b IR) in N. symmetry. apply (NOT i b); auto.
    + intro x. rewrite in_flat_map. split.
      * intros (g & G & X). unfold vwrong in X. destruct (ROOT g G) as (s & S1 & _ & _ & S2). rewrite S1 in X. destruct (Z.eqb_spec (ival s mod vl (gsect g)) 0) as [Z0|Z0]; [destruct X|]. destruct X as [<-|[]]. pose proof (fo_root vfollows l V IV g G) as B. assert (NDV : ~ (vl (gsect g) | ival s)).
        { intro D. apply Z0. apply Z.mod_divide; auto. pose proof (VLP _ (nth_error_In l _ B)). lia. }
        exists (gid g), (gsect g), s. split; auto. split; auto. split; auto. destruct (vstart (gsect g)) as [[s'|]|] eqn:Ev.
        -- assert (O : other (gsect g)) by (left; congruence). apply S2. exact O.
        -- destruct (SI _ (nth_error_In l _ B)). congruence.
        -- destruct (NF g G). exists s. auto.
      * intros (i & b & s & -> & B & Sb & NDV). assert (F0 : vfollows b = None) by (assert (S0 := SO b (nth_error_In l i B)); destruct S0 as (_ & _ & _ & _ & _ & _ & _ & [S0|S0]); congruence).
        destruct (fo_self vfollows l V IV i b B F0) as (g & G & Eg). assert (i = gid g /\ b = gsect g) as [-> ->] by (unfold root in Eg; split; congruence). exists g. split; auto. unfold vwrong. rewrite (IO _ _ B) by (left; congruence). rewrite Sb. cbn [given].
        destruct (Z.eqb_spec (ival s mod vl (gsect g)) 0) as [Z0|Z0]; [|left; auto]. destruct NDV. apply Z.mod_divide; auto. pose proof (VLP _ (nth_error_In l _ B)). lia.
Qed.

(** * Theorems *)
Theorem placement : forall o l m w e, wf l -> org_ok o -> layout o l = Placed m w e ->
  exists R, root_order l R /\ load_addresses (ival o) l R (LMA m).
Proof.
  intros o l m w e W O H. destruct (layout_cases o l W O) as [(e' & E & _)|(R & m1 & w1 & V & ST & E)]; [congruence|]. destruct (staged_vma o l R m1 V w1 W ST) as [(E' & _)|(m2 & w2 & e2 & E' & IS & _)]; [congruence|].
  assert (m2 = m) by congruence. subst. exists (map gid R). split; [apply ST|]. pose proof (staged_lma o l R m1 V W ST) as K. assert (X : forall i, LMA m i = LMA m1 i) by (intro; unfold LMA; rewrite IS; auto).
  intros i b B. destruct (K i b B) as (x & A1 & A2 & A3 & A4). exists x. rewrite X. split; auto. split; auto. split.
  - intros f F. destruct (A3 f F) as (z & (j & c & y & Z1 & Z2 & Z3 & Z4) & U). exists z. split; auto. exists j, c, y. rewrite X. auto.
  - intros S0 F0. destruct (A4 S0 F0) as (z & (G1 & G2 & G3) & U). exists z. split; auto. split; [|split; auto].
    + destruct G1 as [G1|(r & j & c & y & G1)]; auto. right. exists r, j, c, y. rewrite X. auto.
    + intros y' (r & j & c & y & G4). rewrite X in G4. apply G3. exists r, j, c, y. auto.
Qed.
Theorem virtual : forall o l m w e, wf l -> org_ok o -> layout o l = Placed m w e ->
  virtual_addresses l (VMA m) /\
  (exists R ms d, root_order l R /\ full_order l R ms /\ vwalk (LMA m) (VMA m) 0 ms d) /\
  forall x, In x e <-> exists i b s, x = VInconsistent i /\ nth_error l i = Some b /\ vstart b = Some (Some s) /\ ~ (vl b | ival s).
Proof.
  intros o l m w e W O H. destruct (layout_cases o l W O) as [(e' & E & _)|(R & m1 & w1 & V & ST & E)]; [congruence|]. destruct (staged_vma o l R m1 V w1 W ST) as [(E' & _)|(m2 & w2 & e2 & E' & IS & VA & (d & VW) & ER)]; [congruence|].
  assert (m2 = m) by congruence. assert (e2 = e) by congruence. subst. split; auto. split; auto. exists (map gid R), (fmembers R), d. split; [apply ST|]. split; auto. apply (staged_order o l R m1 V); auto.
Qed.

(** Without sections that have valign alone, the distance stays zero. *)
Definition no_lone_valign (l : list sect) : Prop := forall b, In b l -> valign b <> None -> other b.
Lemma vwalk_flat : forall I V ms d, vwalk I V 0 ms d -> (forall n, In n ms -> valign (snd n) <> None -> other (snd n)) ->
  d = 0 /\ forall n, In n ms -> ~ other (snd n) -> exists x, I (fst n) = Some x /\ V (fst n) = Some x.
Proof.
  intros I V ms d H. remember 0 as z eqn:E. induction H as [d|i b x d t d' A1 A2 A3 A4 A5 H IH|i b a x v d t d' A1 A2 A3 A4 A5 A6 H IH|i b d t d' A H IH]; intro K.
  - split; auto. intros n [].
  - destruct (IH E) as [IH1 IH2]; [intros; apply K; auto; right; auto|]. split; auto. intros n [<-|N] O; auto. exists x. cbn [fst]. split; auto. rewrite A5, E. f_equal. lia.
  - exfalso. destruct (K (i, b)) as [O|O]; [left; auto|cbn [snd]; congruence|cbn [snd] in O; congruence|cbn [snd] in O; congruence].
  - destruct (IH E) as [IH1 IH2]; [intros; apply K; auto; right; auto|]. split; auto. intros n [<-|N] O; auto. destruct (O A).
Qed.
Theorem safe : forall o l, wf l -> org_ok o -> no_lone_valign l ->
  layout o l <> LCrash /\ forall m w e, layout o l = Placed m w e -> forall i b, nth_error l i = Some b -> ~ other b -> VMA m i = LMA m i.
Proof.
  intros o l W O NV. destruct (layout_cases o l W O) as [(e' & E & _)|(R & m1 & w1 & V & ST & E)]; [split; [congruence|intros; congruence]|].
  assert (IR := st_inv _ _ _ _ _ ST). assert (MR : forall n, In n (fmembers R) -> valign (snd n) <> None -> other (snd n)).
  { intros [i b] N. apply (inv_in follows l R i b IR) in N. apply NV. apply (nth_error_In l i). auto. }
  assert (SAME : forall I V d, vwalk I V 0 (fmembers R) d -> forall i b, nth_error l i = Some b -> ~ other b -> exists x, I i = Some x /\ V i = Some x).
  { intros I V0 d VW i b B N. destruct (vwalk_flat _ _ _ _ VW MR) as [_ K]. apply (K (i, b)); auto. apply (inv_in follows l R i b IR). auto. }
  destruct (staged_vma o l R m1 V w1 W ST) as [(E' & i & b & v & B & N & Ev & D)|(m2 & w2 & e2 & E' & IS & VA & (d & VW) & ER)].
  - exfalso. destruct (st_post _ _ _ _ _ ST) as (la & vd & PO). destruct PO as (_ & _ & _ & _ & _ & VW & _). destruct (SAME _ _ _ VW i b B N) as (x & X1 & X2). assert (v = x) by congruence. subst v. apply D.
    assert (NA : valign b = None) by (destruct (valign b) eqn:X; auto; destruct N; apply NV; [apply (nth_error_In l i); auto|congruence]). unfold vl. rewrite NA.
    destruct (staged_lma o l R m1 V W ST i b B) as (x' & Y & A1 & A2 & A3). assert (x' = x) by congruence. subst x'. destruct (follows b) as [f|] eqn:Fb; [destruct (A2 f eq_refl) as (z & _ & U); apply is_up_div in U; auto|].
    destruct (start b) as [[s|]|] eqn:Sb; [specialize (A1 s eq_refl); apply is_up_div in A1; auto| |destruct (A3 eq_refl eq_refl) as (z & _ & U); apply is_up_div in U; auto].
    pose proof (st_simple _ _ _ _ _ ST) as SI. rewrite Forall_forall in SI. destruct (SI b (nth_error_In l i B)). congruence.
  - split; [congruence|]. intros m w e P i b B N. assert (m = m2) by congruence. subst. destruct (SAME _ _ _ VW i b B N) as (x & X1 & X2). congruence.
Qed.

Lemma unknown_dead : forall fol l i, unknown fol l i -> dead_end fol l i.
Proof.
  intros fol l i (b & nm & B & F & K). split; eauto. intros (r & C & (b' & B' & F')). inversion C as [i' b0 H|i' b0 j c r' H1 H2 H3 H4]; subst; [congruence|]. apply (K j c); auto. congruence.
Qed.
Lemma looping_dead : forall fol l i j, NoDup (map name l) -> looping fol l i j -> dead_end fol l i.
Proof. intros fol l i j ND (b & c & B & C & F & K). split; eauto. intros (r & R & FR). apply (no_cycle fol l ND i r R FR b j c); auto. Qed.
Theorem rejection : forall o l, wf l -> org_ok o ->
  ((exists e, layout o l = LRejected e) <->
   (exists i b, nth_error l i = Some b /\ (start b = Some None \/ vstart b = Some None)) \/ (exists i, dead_end follows l i \/ dead_end vfollows l i)) /\
  (forall e, layout o l = LRejected e -> reason l e).
Proof.
  intros o l W O. assert (ND := proj1 (proj2 W)). destruct (layout_cases o l W O) as [(e' & E & RS)|(R & m1 & w1 & V & ST & E)].
  - split; [|intros e H; assert (e = e') by congruence; subst; auto]. split; [|intros _; eauto]. intros _. destruct RS as [(i & b & _ & B & N)|(fol & F & K)].
    + left. exists i, b. split; auto. unfold simple in N. destruct (start b) as [[?|]|]; auto; destruct (vstart b) as [[?|]|]; auto; destruct N; split; congruence.
    + right. destruct K as [(i & _ & U)|(i & j & _ & U)]; [apply unknown_dead in U|apply looping_dead in U; auto]; exists i; destruct F; subst; auto.
  - assert (NR : forall e, layout o l <> LRejected e) by (intro e; rewrite E; destruct (assign_vall V m1 w1 []); discriminate). split; [|intros e H; destruct (NR e H)]. split; [intros (e & H); destruct (NR e H)|]. destruct ST as [SI IR FR _ _ _ IV FV]. intros [(i & b & B & N)|(i & [((b & B) & N)|((b & B) & N)])].
    + rewrite Forall_forall in SI. destruct (SI b (nth_error_In l i B)). destruct N; congruence.
    + destruct N. apply (fo_ends follows l R IR FR i b B).
    + destruct N. apply (fo_ends vfollows l V IV FV i b B).
Qed.
