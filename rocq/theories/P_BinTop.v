(** Layout of a flat binary: specification and proofs of C37, C66, C67. *)
From Coq Require Import ZArith List Bool Lia Permutation Sorted.
From Verif Require Import Lib LibBits M_BitVect P_BitVect M_Intnum P_Intnum P_IntnumIO M_BinObj P_BinNum P_BinForest P_BinObj P_BinLay P_BinVma.
Import ListNotations.
Open Scope Z_scope.

(** * Specification *)
Definition precedes {A} (L : list A) (x y : A) : Prop := exists P Q, L = P ++ Q /\ In x P /\ In y Q.
(** The sections that follow nothing, in the order in which they are placed: those without start in
    source order, nobits sections without start after all others, those with start by start. *)
Definition root_order (l : list sect) (R : list nat) : Prop :=
  NoDup R /\ (forall i, In i R <-> free follows l i) /\
  forall i j b c, nth_error l i = Some b -> nth_error l j = Some c -> follows b = None -> follows c = None ->
    (start b = None -> start c = None -> bss b = bss c -> (i < j)%nat -> precedes R i j) /\
    (start c = None -> bss c = true -> start b <> None \/ bss b = false -> precedes R i j) /\
    (forall s t, start b = Some (Some s) -> start c = Some (Some t) -> ival s < ival t -> precedes R i j).
(** All sections in the order in which they are placed: after each section that follows nothing,
    those that follow it, directly or not; none comes before the one it follows. *)
Definition full_order (l : list sect) (R : list nat) (ms : list node) : Prop :=
  (exists blocks, Forall2 (fun r blk => (exists b t, blk = (r, b) :: t) /\ forall j c, In (j, c) blk <-> chain follows l j r /\ nth_error l j = Some c) R blocks /\ ms = concat blocks) /\
  forall i b j c, nth_error l i = Some b -> nth_error l j = Some c -> follows b = Some (name c) -> precedes ms (j, c) (i, b).
(** The section that [f] names, and its end according to [addr]. *)
Definition end_of_named (l : list sect) (addr : nat -> option Z) (f : str) (z : Z) : Prop :=
  exists j c y, nth_error l j = Some c /\ name c = f /\ addr j = Some y /\ z = y + len c.
(** The ends of all sections placed before section [i]. *)
Definition ends_before (l : list sect) (addr : nat -> option Z) (R : list nat) (i : nat) (z : Z) : Prop :=
  exists r j c y, precedes R r i /\ chain follows l j r /\ nth_error l j = Some c /\ addr j = Some y /\ z = y + len c.
Definition org_ok (o : intnum) : Prop := canon o /\ 0 <= ival o <= 2 ^ 200.

(** * Order *)
Lemma precedes_sub : forall A (p : A -> bool) L x y, precedes (filter p L) x y -> precedes L x y.
Proof.
  intros A p. induction L as [|a L IH]; intros x y (P & Q & E & I & J); cbn [filter] in E.
  - destruct P; [destruct I|discriminate].
  - destruct (p a).
    + destruct P as [|a' P]; [destruct I|]. injection E as <- E. destruct I as [<-|I].
      * exists [a], L. split; auto. split; [left; auto|]. assert (H : In y (filter p L)) by (rewrite E; apply in_or_app; auto). apply filter_In in H. apply H.
      * destruct (IH x y) as (P' & Q' & E' & I' & J'); [exists P, Q; auto|]. exists (a :: P'), Q'. rewrite E'. split; auto. split; [right; auto|auto].
    + destruct (IH x y) as (P' & Q' & E' & I' & J'); [exists P, Q; auto|]. exists (a :: P'), Q'. rewrite E'. split; auto. split; [right; auto|auto].
Qed.
Lemma precedes_filter : forall A (p : A -> bool) L x y, precedes L x y -> p x = true -> p y = true -> precedes (filter p L) x y.
Proof. intros A p L x y (P & Q & E & I & J) X Y. exists (filter p P), (filter p Q). rewrite E, filter_app. split; auto. split; apply filter_In; auto. Qed.
Lemma precedes_map : forall A B (f : A -> B) L x y, precedes L x y -> precedes (map f L) (f x) (f y).
Proof. intros A B f L x y (P & Q & E & I & J). exists (map f P), (map f Q). rewrite E, map_app. split; auto. split; apply in_map; auto. Qed.
Lemma nodes_precede : forall l k i j b c, In (i, b) (nodes_from k l) -> In (j, c) (nodes_from k l) -> (i < j)%nat -> precedes (nodes_from k l) (i, b) (j, c).
Proof.
  induction l as [|a l IH]; intros k i j b c I J L; [destruct I|]. cbn [nodes_from] in *. destruct I as [I|I].
  - injection I as -> ->. destruct J as [J|J]; [injection J as -> ->; lia|]. exists [(i, b)], (nodes_from (S i) l). split; auto. split; [left; auto|auto].
  - destruct J as [J|J]; [injection J as -> ->; apply nodes_from_in in I; lia|]. destruct (IH (S k) i j b c I J L) as (P & Q & E & X & Y). exists ((k, a) :: P), Q. rewrite E. split; auto. split; [right; auto|auto].
Qed.
Lemma sorted_precede : forall A (rel : A -> A -> Prop) L g h, StronglySorted rel L -> In g L -> In h L -> g <> h -> ~ rel h g -> precedes L g h.
Proof.
  intros A rel L g h SS G H N R. apply in_split in G. destruct G as (P & Q & E). subst L. apply in_app_or in H. destruct H as [H|[H|H]].
  - exfalso. apply R. clear - SS H. induction P as [|a P IH]; [destruct H|]. cbn [app] in SS. inversion_clear SS as [|? ? S1 S2]. destruct H as [->|H]; auto. rewrite Forall_forall in S2. apply S2. apply in_or_app. right. left. auto.
  - destruct (N H).
  - exists (P ++ [g]), Q. rewrite <- app_assoc. split; auto. split; auto. apply in_or_app. right. left. auto.
Qed.
Lemma NoDup_pos : forall A (L P Q P' Q' : list A) x y, NoDup L -> L = P ++ Q -> In x P -> In y Q -> L = P' ++ y :: Q' -> In x P'.
Proof.
  intros A L P Q P' Q' x y N E X Y E'. apply in_split in Y. destruct Y as (Q1 & Q2 & ->). rewrite app_assoc in E. rewrite E in E', N. clear E L.
  assert (K : P ++ Q1 = P').
  { revert P' E' N. generalize (P ++ Q1). clear. induction l as [|a l IH]; intros P' E N.
    - destruct P' as [|a P']; auto. cbn [app] in *. injection E as -> E. inversion_clear N. destruct H. rewrite E. apply in_or_app. right. left. auto.
    - destruct P' as [|a' P']; cbn [app] in *.
      + injection E as -> E. inversion_clear N. destruct H. apply in_or_app. right. left. auto.
      + injection E as -> E. inversion_clear N. f_equal. apply IH; auto. }
  rewrite <- K. apply in_or_app. auto.
Qed.

(** * Chains *)
Lemma name_inj : forall l i j b c, NoDup (map name l) -> nth_error l i = Some b -> nth_error l j = Some c -> name b = name c -> i = j.
Proof.
  intros l i j b c N I J E. apply (proj1 (NoDup_nth_error (map name l)) N).
  - rewrite map_length. apply nth_error_Some. congruence.
  - rewrite !nth_error_map, I, J. cbn [option_map]. congruence.
Qed.
Lemma chain_unique : forall fol l, NoDup (map name l) -> forall j r, chain fol l j r -> forall r', chain fol l j r' -> free fol l r -> free fol l r' -> r = r'.
Proof.
  intros fol l N j r C. induction C as [i b Hi|i b j c r Hi Hj F C IH]; intros r' C' Fr Fr'.
  - destruct Fr as (b' & B & F0). inversion C' as [i' b'' H|i' b'' j' c' r'' H1 H2 H3 H4]; subst; auto. exfalso. congruence.
  - inversion C' as [i' b' H|i' b' j' c' r'' H1 H2 H3 H4]; subst.
    + destruct Fr' as (b0 & B0 & F0). congruence.
    + apply IH; auto. replace j with j'; auto. apply (name_inj l j' j c' c N); auto. congruence.
Qed.
Lemma chain_end : forall fol l j r, chain fol l j r -> exists b, nth_error l r = Some b.
Proof. induction 1; eauto. Qed.
Lemma chain_snoc : forall fol l j r b k c, chain fol l j r -> nth_error l r = Some b -> nth_error l k = Some c -> fol b = Some (name c) -> chain fol l j k.
Proof.
  intros fol l j r b k c C. induction C as [i d Hi|i d j d' r Hi Hj F C IH]; intros B K E.
  - apply (chain_step fol l i b k c k); auto. apply (chain_refl fol l k c); auto.
  - apply (chain_step fol l i d j d' k); auto.
Qed.
Lemma no_cycle : forall fol l, NoDup (map name l) -> forall i r, chain fol l i r -> free fol l r -> forall b j c, nth_error l i = Some b -> nth_error l j = Some c -> fol b = Some (name c) -> chain fol l j i -> False.
Proof.
  intros fol l N i r C. induction C as [i d Hi|i d j' d' r Hi Hj' F' C IH]; intros Fr b j c B J F CY.
  - destruct Fr as (b' & B' & F0). congruence.
  - assert (j = j') by (apply (name_inj l j j' c d' N); auto; congruence). subst j'. assert (d' = c) by congruence. subst d'. assert (d = b) by congruence. subst d.
    inversion CY as [i' b' H|i' b' k d r' H1 H2 H3 H4]; subst.
    + assert (b = c) by congruence. subst. apply (IH Fr c i c); auto.
    + apply (IH Fr c k d); auto; [congruence|]. apply (chain_snoc fol l k i b j c); auto.
Qed.

(** * Facts about placed trees *)
Lemma member_edge : forall g n, In n (members g) -> n = root g \/ exists p, In (p, n) (edges g).
Proof.
  induction g as [i b fs IH] using group_ind2. intros n [<-|I]; [left; reflexivity|]. right. apply in_flat_map in I. destruct I as (f & F & I). rewrite Forall_forall in IH. destruct (IH f F n I) as [->|(p & P)].
  - exists (i, b). cbn [edges]. apply in_or_app. left. apply in_map_iff. exists f. auto.
  - exists p. cbn [edges]. apply in_or_app. right. apply in_flat_map. eauto.
Qed.
Lemma edge_members : forall g p n, In (p, n) (edges g) -> In p (members g) /\ In n (members g).
Proof.
  induction g as [i b fs IH] using group_ind2. intros p n I. cbn [edges] in I. apply in_app_or in I. destruct I as [I|I].
  - apply in_map_iff in I. destruct I as (f & E & F). injection E as <- <-. split; [left; auto|]. right. apply in_flat_map. exists f. split; auto. apply root_member.
  - apply in_flat_map in I. destruct I as (f & F & I). rewrite Forall_forall in IH. destruct (IH f F p n I). split; right; apply in_flat_map; eauto.
Qed.
Lemma placed_root : forall I g st, placed I st g -> exists x, I (gid g) = Some x /\ is_up st (al (gsect g)) x.
Proof. intros I [i b fs] st P. apply placed_eq in P. destruct P as (x & A & B & _). exists x. auto. Qed.
Lemma placed_edge : forall I g st, placed I st g -> forall p n, In (p, n) (edges g) -> exists y x, I (fst p) = Some y /\ I (fst n) = Some x /\ is_up (y + len (snd p)) (al (snd n)) x.
Proof.
  intros I. induction g as [i b fs IH] using group_ind2. intros st P p n E. apply placed_eq in P. destruct P as (x & P1 & _ & P3). rewrite Forall_forall in *. cbn [edges] in E. apply in_app_or in E. destruct E as [E|E].
  - apply in_map_iff in E. destruct E as (f & E & F). injection E as <- <-. destruct (placed_root _ _ _ (P3 f F)) as (y & Y1 & Y2). exists x, y. auto.
  - apply in_flat_map in E. destruct E as (f & F & E). eapply IH; eauto.
Qed.
Lemma vplaced_root : forall I g st, vplaced I st g -> exists x, I (gid g) = Some x /\ is_up st (vl (gsect g)) x.
Proof. intros I [i b fs] st P. apply vplaced_eq in P. destruct P as (x & A & B & _). exists x. auto. Qed.
Lemma vplaced_edge : forall I g st, vplaced I st g -> forall p n, In (p, n) (edges g) -> exists y x, I (fst p) = Some y /\ I (fst n) = Some x /\ is_up (y + len (snd p)) (vl (snd n)) x.
Proof.
  intros I. induction g as [i b fs IH] using group_ind2. intros st P p n E. apply vplaced_eq in P. destruct P as (x & P1 & _ & P3). rewrite Forall_forall in *. cbn [edges] in E. apply in_app_or in E. destruct E as [E|E].
  - apply in_map_iff in E. destruct E as (f & E & F). injection E as <- <-. destruct (vplaced_root _ _ _ (P3 f F)) as (y & Y1 & Y2). exists x, y. auto.
  - apply in_flat_map in E. destruct E as (f & F & E). eapply IH; eauto.
Qed.
Lemma rplaced_split : forall I m0 R1 la g R2, rplaced I m0 la (R1 ++ g :: R2) -> placed I (match LMA m0 (gid g) with Some s => s | None => maxl la (ends I (fmembers R1)) end) g.
Proof.
  intros I m0. induction R1 as [|h R1 IH]; intros la g R2 H; cbn [app] in H; inversion H as [|? ? ? H1 H2]; subst.
  - exact H1.
  - apply IH in H2. change (fmembers (h :: R1)) with (members h ++ fmembers R1). unfold ends. rewrite map_app. fold (ends I (members h)). fold (ends I (fmembers R1)). rewrite <- maxl_app. exact H2.
Qed.
Lemma maxl_greatest : forall a l (s : Z -> Prop), (forall x, In x l <-> s x) -> greatest a s (maxl a l).
Proof.
  intros a l s H. assert (K : (maxl a l = a \/ In (maxl a l) l) /\ a <= maxl a l /\ forall y, In y l -> y <= maxl a l).
  { clear H. unfold maxl. induction l as [|x l (A & B & C)]; cbn [fold_right]; [split; [auto|split; [lia|intros y []]]|]. split.
    - destruct (Z.max_spec x (fold_right Z.max a l)) as [[_ ->]|[_ ->]]; [destruct A as [A|A]; [left; auto|right; right; auto]|right; left; auto].
    - split; [lia|]. intros y [->|Y]; [lia|]. specialize (C y Y). lia. }
  destruct K as (A & B & C). split; [destruct A as [A|A]; auto; right; apply H; auto|]. split; auto. intros y Y. apply C. apply H. auto.
Qed.

(** * Groups of a section list *)
Lemma vma_groups_eq : forall l i, vma_groups i l = map leaf (nodes_from i l).
Proof. induction l as [|b l IH]; intro i; cbn [vma_groups nodes_from map]; [auto|]. rewrite IH. reflexivity. Qed.
Definition simple (b : sect) : Prop := start b <> Some None /\ vstart b <> Some None.
Lemma create_groups_ok : forall l i gs w e, create_groups i l = (gs, w, e) ->
  (e = [] /\ gs = map leaf (nodes_from i l) /\ Forall simple l) \/ (exists j b, e = [TooComplex (i + j)] /\ nth_error l j = Some b /\ ~ simple b).
Proof.
  induction l as [|b l IH]; intros i gs w e E; cbn [create_groups] in E.
  - injection E as <- <- <-. left. auto.
  - assert (BAD : ([], warn_align i b, [TooComplex i]) = (gs, w, e) -> ~ simple b -> exists j c, e = [TooComplex (i + j)] /\ nth_error (b :: l) j = Some c /\ ~ simple c).
    { intros Q N. exists 0%nat, b. rewrite Nat.add_0_r. injection Q as <- <- <-. auto. }
    assert (GO : simple b -> (let '(gs0, w', e0) := create_groups (S i) l in (Group i b [] :: gs0, warn_align i b ++ w', e0)) = (gs, w, e) ->
      (e = [] /\ gs = map leaf (nodes_from i (b :: l)) /\ Forall simple (b :: l)) \/ (exists j c, e = [TooComplex (i + j)] /\ nth_error (b :: l) j = Some c /\ ~ simple c)).
    { intros SB Q. destruct (create_groups (S i) l) as [[gs0 w'] e0] eqn:E0. injection Q as <- <- <-. destruct (IH (S i) gs0 w' e0 E0) as [(A & B & C)|(j & c & A & B & C)].
      - left. subst. auto.
      - right. exists (S j), c. split; [rewrite A; f_equal; f_equal; lia|auto]. }
    destruct (start b) as [[s|]|] eqn:Es, (vstart b) as [[v|]|] eqn:Ev; (apply GO in E; [exact E|split; congruence]) || (right; apply BAD; [exact E|intros [X Y]; congruence]).
Qed.
Lemma leaves_inv : forall fol l, inv fol l (map leaf (nodes_from 0 l)).
Proof.
  intros fol l. unfold inv. generalize (nodes_from 0 l). intro N. assert (A : fmembers (map leaf N) = N) by (induction N as [|[i b] N IH]; cbn [map]; auto; unfold fmembers in *; cbn [flat_map leaf members fst snd app]; rewrite IH; auto).
  assert (B : fedges (map leaf N) = []) by (clear A; induction N as [|[i b] N IH]; cbn [map]; auto). rewrite A, B. auto.
Qed.
Lemma map_root_leaf : forall N, map root (map leaf N) = N.
Proof. induction N as [|[i b] N IH]; cbn [map]; [auto|]. rewrite IH. reflexivity. Qed.
Lemma length_leaves : forall l, length (map leaf (nodes_from 0 l)) = length l.
Proof. intros. rewrite map_length. generalize 0%nat. induction l as [|b l IH]; intro k; cbn [nodes_from length]; auto. Qed.

(** * The layout *)
Lemma precedes_unmap : forall A B (f : A -> B) L u v, precedes (map f L) u v -> exists x y, f x = u /\ f y = v /\ precedes L x y.
Proof.
  intros A B f L u v (P & Q & E & I & J). apply map_eq_app in E. destruct E as (P' & Q' & -> & <- & <-). apply in_map_iff in I. apply in_map_iff in J. destruct I as (x & X & I), J as (y & Y & J). exists x, y. split; auto. split; auto. exists P', Q'. auto.
Qed.
Lemma precedes_app_l : forall A (L M : list A) x y, precedes L x y -> precedes (L ++ M) x y.
Proof. intros A L M x y (P & Q & -> & I & J). exists P, (Q ++ M). rewrite app_assoc. split; auto. split; auto. apply in_or_app. auto. Qed.
Lemma precedes_app_r : forall A (L M : list A) x y, precedes M x y -> precedes (L ++ M) x y.
Proof. intros A L M x y (P & Q & -> & I & J). exists (L ++ P), Q. rewrite app_assoc. split; auto. split; auto. apply in_or_app. auto. Qed.
Lemma follow_edge : forall g n, In n (fmembers (gfollow g)) -> exists p, In (p, n) (edges g).
Proof.
  intros [i b fs] n I. cbn [gfollow] in I. apply in_flat_map in I. destruct I as (f & F & I). destruct (member_edge f n I) as [->|(p & P)].
  - exists (i, b). cbn [edges]. apply in_or_app. left. apply in_map_iff. exists f. auto.
  - exists p. cbn [edges]. apply in_or_app. right. apply in_flat_map. eauto.
Qed.
Lemma in_fmembers : forall F g n, In g F -> In n (members g) -> In n (fmembers F).
Proof. intros F g n G N. apply in_flat_map. eauto. Qed.
Lemma in_fedges : forall F g e, In g F -> In e (edges g) -> In e (fedges F).
Proof. intros F g n G N. apply in_flat_map. eauto. Qed.
Lemma fmembers_perm : forall F G, Permutation F G -> Permutation (fmembers F) (fmembers G).
Proof. intros. apply Permutation_flat_map. auto. Qed.

Section forest.
  Context (fol : sect -> option str) (l : list sect) (F : list group) (Iv : inv fol l F) (Fr : Forall (fun g => fol (gsect g) = None) F).
  Lemma fo_member : forall g n, In g F -> In n (members g) -> nth_error l (fst n) = Some (snd n).
  Proof. intros g [i b] G N. apply (inv_in fol l F i b Iv). apply (in_fmembers F g); auto. Qed.
  Lemma fo_root : forall g, In g F -> nth_error l (gid g) = Some (gsect g).
  Proof. intros g G. apply (fo_member g (root g) G). apply root_member. Qed.
  Lemma fo_edges : forall g, In g F -> Forall (edge_ok fol) (edges g).
  Proof. intros g G. apply Forall_forall. intros e E. destruct Iv as [_ K]. rewrite Forall_forall in K. apply K. apply (in_fedges F g); auto. Qed.
  Lemma fo_chain : forall g n, In g F -> In n (members g) -> chain fol l (fst n) (gid g).
  Proof. intros g n G N. apply (tree_chain fol l g); auto. - intros k K. apply (fo_member g); auto. - apply fo_edges; auto. Qed.
  Lemma fo_free : forall g, In g F -> free fol l (gid g).
  Proof. intros g G. exists (gsect g). split; [apply fo_root; auto|]. rewrite Forall_forall in Fr. auto. Qed.
  Lemma fo_tree : forall i b, nth_error l i = Some b -> exists g, In g F /\ In (i, b) (members g).
  Proof. intros i b H. apply (inv_in fol l F i b Iv) in H. apply in_flat_map in H. exact H. Qed.
  Lemma fo_nodup : NoDup (map gid F).
  Proof.
    pose proof (inv_nodup fol l F Iv) as N. clear Iv Fr. induction F as [|g r IH]; cbn [map]; [constructor|]. rewrite fids_cons in N. constructor.
    - intro H. apply in_map_iff in H. destruct H as (h & E & H). apply (NoDup_app_disj _ _ _ (gid g) N); [destruct g; left; auto|]. unfold fids. rewrite <- E. apply (in_map fst (fmembers r) (root h)). apply (in_fmembers r h); auto. apply root_member.
    - apply IH. apply NoDup_app_r in N. auto.
  Qed.
  Lemma fo_same : forall g h, In g F -> In h F -> gid g = gid h -> g = h.
  Proof.
    intros g h G H E. pose proof fo_nodup as N. clear Iv Fr. induction F as [|a r IH]; [destruct G|]. cbn [map] in N. inversion_clear N. destruct G as [->|G], H as [->|H]; auto.
    - destruct H0. rewrite E. apply in_map. auto.
    - destruct H0. rewrite <- E. apply in_map. auto.
  Qed.
  Lemma fo_self : forall i b, nth_error l i = Some b -> fol b = None -> exists g, In g F /\ root g = (i, b).
  Proof.
    intros i b H N. destruct (fo_tree i b H) as (g & G & M). exists g. split; auto. destruct (member_edge g (i, b) M) as [E|(p & E)]; auto.
    pose proof (fo_edges g G) as K. rewrite Forall_forall in K. specialize (K _ E). unfold edge_ok in K. cbn [fst snd] in K. congruence.
  Qed.
  Lemma fo_parent : forall i b f, nth_error l i = Some b -> fol b = Some f -> exists g p, In g F /\ In (p, (i, b)) (edges g) /\ nth_error l (fst p) = Some (snd p) /\ name (snd p) = f.
  Proof.
    intros i b f H N. destruct (fo_tree i b H) as (g & G & M). destruct (member_edge g (i, b) M) as [E|(p & E)].
    - rewrite Forall_forall in Fr. specialize (Fr g G). unfold root in E. assert (gsect g = b) by congruence. congruence.
    - exists g, p. split; auto. split; auto. destruct (edge_members g p _ E) as [P _]. split; [apply (fo_member g); auto|]. pose proof (fo_edges g G) as K. rewrite Forall_forall in K. specialize (K _ E). unfold edge_ok in K. cbn [fst snd] in K. congruence.
  Qed.
  Lemma fo_block : NoDup (map name l) -> forall g j c, In g F -> In (j, c) (members g) <-> chain fol l j (gid g) /\ nth_error l j = Some c.
  Proof.
    intros ND g j c G. split.
    - intro M. split; [apply (fo_chain g (j, c)); auto|apply (fo_member g (j, c)); auto].
    - intros [C J]. destruct (fo_tree j c J) as (h & H & M). assert (E : gid h = gid g).
      { apply (chain_unique fol l ND j (gid h)); auto; [apply (fo_chain h (j, c)); auto|apply fo_free; auto|apply fo_free; auto]. }
      apply fo_same in E; auto. subst. auto.
  Qed.
  Lemma fo_ends : forall i b, nth_error l i = Some b -> exists r, chain fol l i r /\ free fol l r.
  Proof. intros i b H. destruct (fo_tree i b H) as (g & G & M). exists (gid g). split; [apply (fo_chain g (i, b)); auto|apply fo_free; auto]. Qed.
End forest.

Lemma mem0_at : forall l g, nth_error l (gid g) = Some (gsect g) -> istart (mem0 l) (gid g) = given (start (gsect g)).
Proof. intros l g H. unfold mem0. cbn [istart]. rewrite H. auto. Qed.
Lemma given_ok : forall b s, sect_ok b -> given (start b) = Some s -> canon s /\ Z.abs (ival s) <= 2 ^ 200.
Proof. intros b s (_ & _ & _ & _ & A & _) G. unfold given, addr_ok in *. destruct (start b) as [x|]; [|discriminate]. subst x. destruct A. split; auto. lia. Qed.
Lemma vgiven_ok : forall b s, sect_ok b -> given (vstart b) = Some s -> canon s /\ Z.abs (ival s) <= 2 ^ 200.
Proof. intros b s (_ & _ & _ & _ & _ & A & _) G. unfold given, addr_ok in *. destruct (vstart b) as [x|]; [|discriminate]. subst x. destruct A. split; auto. lia. Qed.

Lemma order_ok : forall l F, wf l -> Forall simple l -> inv follows l F -> Forall (fun g => follows (gsect g) = None) F -> map root F = filter (is_free follows) (nodes_from 0 l) ->
  let R := sort_groups (mem0 l) F [] [] in Permutation R F /\ root_order l (map gid R).
Proof.
  intros l F W SI Iv Fr RF R. rewrite Forall_forall in SI. assert (SO := proj1 W). rewrite Forall_forall in SO.
  pose proof (fo_root follows l F Iv) as FR. assert (IS : forall g, In g F -> istart (mem0 l) (gid g) = given (start (gsect g))) by (intros g G; apply mem0_at; auto).
  destruct (sort_ok (mem0 l) F [] []) as (A & E & A1 & A2 & A3 & A4); [|constructor|constructor|].
  { intros h x H X. rewrite app_nil_r in H. rewrite IS in X; auto. apply given_ok in X; [apply X|]. apply SO. apply (nth_error_In l (gid h)). auto. }
  cbn [app] in E, A2, A4. fold R in E. assert (P : Permutation R F).
  { rewrite E. etransitivity; [apply Permutation_app_tail; exact A4|]. clear. induction F as [|g r IH]; cbn [filter]; auto. destruct (late (mem0 l) g); cbn [negb app]; [|auto]. rewrite <- Permutation_middle. auto. }
  split; auto. assert (ND : NoDup (map gid R)) by (eapply Permutation_NoDup; [apply Permutation_map; symmetry; exact P|apply (fo_nodup follows l); auto]).
  split; auto. split.
  - intro i. split.
    + intro H. apply in_map_iff in H. destruct H as (g & <- & G). apply (fo_free follows l F Iv Fr). apply (Permutation_in _ P). auto.
    + intros (b & B & N). destruct (fo_self follows l F Iv i b B N) as (g & G & Eg). assert (i = gid g) by (unfold root in Eg; congruence). subst. apply in_map. apply (Permutation_in _ (Permutation_sym P)). auto.
  - intros i j b c Hi Hj Fb Fc. destruct (fo_self follows l F Iv i b Hi Fb) as (g & G & Eg). destruct (fo_self follows l F Iv j c Hj Fc) as (h & H & Eh).
    assert (i = gid g /\ b = gsect g) as [-> ->] by (unfold root in Eg; split; congruence). assert (j = gid h /\ c = gsect h) as [-> ->] by (unfold root in Eh; split; congruence).
    assert (WS : forall k, In k F -> with_start (mem0 l) k = match start (gsect k) with Some _ => true | None => false end).
    { intros k K. unfold with_start. rewrite IS; auto. assert (SK := SI (gsect k) (nth_error_In l _ (FR k K))). destruct SK as [SK _]. unfold given. destruct (start (gsect k)) as [[s|]|]; congruence. }
    assert (INA : forall k, In k F -> late (mem0 l) k = false -> In k A).
    { intros k K L. apply (Permutation_in _ (Permutation_sym P)) in K. rewrite E in K. apply in_app_or in K. destruct K as [K|K]; auto. apply filter_In in K. destruct K. congruence. }
    split; [|split].
    + intros Sb Sc Bs Lt. assert (PR : precedes (map root F) (root g) (root h)).
      { rewrite RF. apply precedes_filter; [|unfold is_free, root; cbn [snd]; rewrite Fb; auto|unfold is_free, root; cbn [snd]; rewrite Fc; auto]. apply nodes_precede; [apply nodes_in; auto|apply nodes_in; auto|auto]. }
      apply precedes_unmap in PR. destruct PR as (g' & h' & E1 & E2 & PR). assert (In g' F /\ In h' F) as [G' H'] by (destruct PR as (P1 & P2 & -> & I1 & I2); split; apply in_or_app; auto).
      assert (g' = g) by (apply (fo_same follows l F Iv); auto; unfold root in E1; congruence). assert (h' = h) by (apply (fo_same follows l F Iv); auto; unfold root in E2; congruence). subst g' h'.
      apply (precedes_map _ _ gid). rewrite E. destruct (bss (gsect g)) eqn:Bg.
      * apply precedes_app_r. apply precedes_filter; auto; unfold late; rewrite WS; auto; rewrite ?Sb, ?Sc, ?Bg, <- ?Bs; auto.
      * apply precedes_app_l. apply (precedes_sub _ (plain (mem0 l))). rewrite A2. apply precedes_filter; auto; unfold plain; rewrite WS; auto; rewrite ?Sb, ?Sc, ?Bg, <- ?Bs; auto.
    + intros Sc Bc Nb. apply (precedes_map _ _ gid). rewrite E. exists A, (filter (late (mem0 l)) F). split; auto. split.
      * apply INA; auto. unfold late. rewrite WS; auto. destruct (start (gsect g)); auto. destruct Nb as [Nb|Nb]; [congruence|]. rewrite Nb. auto.
      * apply filter_In. split; auto. unfold late. rewrite WS, Sc, Bc; auto.
    + intros s t Sb Sc Lt. apply (precedes_map _ _ gid). rewrite E. apply precedes_app_l. apply (precedes_sub _ (with_start (mem0 l))). apply (sorted_precede _ (by_start (mem0 l))); auto.
      * apply filter_In. split; [apply INA; auto; unfold late|]; rewrite WS, Sb; auto.
      * apply filter_In. split; [apply INA; auto; unfold late|]; rewrite WS, Sc; auto.
      * intros ->. rewrite Sb in Sc. assert (s = t) by congruence. subst. lia.
      * intro K. specialize (K t s). rewrite !IS in K by auto. rewrite Sb, Sc in K. cbn [given] in K. specialize (K eq_refl eq_refl). lia.
Qed.

Definition unknown (fol : sect -> option str) (l : list sect) (i : nat) : Prop := exists b nm, nth_error l i = Some b /\ fol b = Some nm /\ forall j c, nth_error l j = Some c -> name c <> nm.
Definition looping (fol : sect -> option str) (l : list sect) (i j : nat) : Prop := exists b c, nth_error l i = Some b /\ nth_error l j = Some c /\ fol b = Some (name c) /\ chain fol l j i.
Definition reason (l : list sect) (e : list berr) : Prop :=
  (exists i b, e = [TooComplex i] /\ nth_error l i = Some b /\ ~ simple b) \/
  (exists fol, (fol = follows \/ fol = vfollows) /\ ((exists i, e = [Unknown i] /\ unknown fol l i) \/ exists i j, e = [Loop i j] /\ looping fol l i j)).
Record staged (o : intnum) (l : list sect) (R : list group) (m1 : mem) (V : list group) : Prop := {
  st_simple : Forall simple l;
  st_inv : inv follows l R;
  st_free : Forall (fun g => follows (gsect g) = None) R;
  st_order : root_order l (map gid R);
  st_placed : rplaced (LMA m1) (mem0 l) (ival o) R;
  st_post : exists la vd, post (fsz R) (fmembers R) (ival o) 0 (mem0 l) la vd m1;
  st_vinv : inv vfollows l V;
  st_vfree : Forall (fun g => vfollows (gsect g) = None) V }.
Lemma fsz_inv : forall fol l F, inv fol l F -> fsz F = Z.of_nat (length l).
Proof. intros fol l F [P _]. unfold fsz. rewrite (Permutation_length P). f_equal. rewrite <- (length_leaves l), map_length. auto. Qed.
Lemma inv_sect : forall fol l F, inv fol l F -> Forall sect_ok l -> Forall (fun n => sect_ok (snd n)) (fmembers F).
Proof. intros fol l F Iv S. rewrite Forall_forall in *. intros [i b] N. cbn [snd]. apply S. apply (nth_error_In l i). apply (inv_in fol l F i b Iv). auto. Qed.
Lemma layout_cases : forall o l, wf l -> org_ok o ->
  (exists e, layout o l = LRejected e /\ reason l e) \/
  exists R m1 w V, staged o l R m1 V /\ layout o l = match assign_vall V m1 w [] with Crash => LCrash | VOk m2 w e => Placed m2 w e end.
Proof.
  intros o l W [Oc Ob]. unfold layout. destruct (create_groups 0 l) as [[gs w0] e0] eqn:EC. apply create_groups_ok in EC. destruct EC as [(-> & -> & SI)|(j & b & -> & J & NS)].
  2: { left. exists [TooComplex (0 + j)]. split; auto. left. exists j, b. auto. }
  assert (BAD : forall fol e, fol = follows \/ fol = vfollows -> res_ok fol l [] (map leaf (nodes_from 0 l)) (inr e) -> reason l [e]).
  { intros fol e Hf H. right. exists fol. split; auto. destruct e; try (destruct H; fail); cbn [res_ok] in H; [left; eauto|right; eauto]. }
  rewrite length_leaves. pose proof (resolve_ok follows l (length l) [] (map leaf (nodes_from 0 l)) (length_leaves l) (leaves_inv follows l) (Forall_nil _)) as RO.
  destruct (resolve follows (length l) [] (map leaf (nodes_from 0 l))) as [F|e]; [|left; exists [e]; split; auto; apply (BAD follows); auto].
  cbn [res_ok map app] in RO. rewrite map_root_leaf in RO. destruct RO as (IF & FF & RF). destruct (order_ok l F W SI IF FF RF) as [PR OR]. set (R := sort_groups (mem0 l) F [] []) in *. clearbody R.
  destruct (assign_all R o o (create_uint 0) (mem0 l)) as [m1 w1] eqn:EA. rewrite vma_groups_eq.
  pose proof (resolve_ok vfollows l (length l) [] (map leaf (nodes_from 0 l)) (length_leaves l) (leaves_inv vfollows l) (Forall_nil _)) as RO.
  destruct (resolve vfollows (length l) [] (map leaf (nodes_from 0 l))) as [V|e]; [|left; exists [e]; split; auto; apply (BAD vfollows); auto].
  cbn [res_ok map app] in RO. destruct RO as (IV & FV & _). right. exists R, m1, (w0 ++ w1), V. split; auto.
  assert (IR : inv follows l R). { destruct IF as [P1 P2]. split; [rewrite (fmembers_perm _ _ PR); auto|]. rewrite Forall_forall in *. intros x X. apply P2. apply in_flat_map in X. destruct X as (g & G & X). apply (in_fedges F g); auto. apply (Permutation_in _ PR). auto. }
  assert (FR : Forall (fun g => follows (gsect g) = None) R). { rewrite Forall_forall in *. intros g G. apply FF. apply (Permutation_in _ PR). auto. }
  assert (SO := proj1 W). assert (LB := proj2 (proj2 W)). pose proof (fsz_inv follows l R IR) as SZ.
  destruct (uint_good 0 ltac:(lia)) as [[G0 _] I0].
  destruct (assign_all_ok R 0 o (create_uint 0) (mem0 l) (mem0 l) m1 w1 EA) as (la & vd & PO & RP); auto.
  - apply (inv_nodup follows l); auto.
  - apply (inv_sect follows l); auto.
  - lia.
  - assert (2 ^ 65 = 2 * 2 ^ 64) by reflexivity. lia.
  - unfold pre. rewrite I0. split; auto. split; [change (- 2 ^ 31 < 0 < 2 ^ 31); lia|]. unfold BND. lia.
  - intros [i b] s N S0. apply (inv_in follows l R i b IR) in N. unfold mem0 in S0. cbn [istart fst] in S0. rewrite N in S0. apply (given_ok b); auto. rewrite Forall_forall in SO. apply SO. apply (nth_error_In l i). auto.
  - rewrite I0 in PO. cbn [Z.add] in PO. constructor; auto. exists la, vd. exact PO.
Qed.
