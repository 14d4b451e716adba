(** ELF symbol tables: from the directives to the numbered table. *)
From Coq Require Import ZArith List Bool Arith Lia.
From Verif Require Import Lib M_Elf P_Elf P_ElfSym.
Import ListNotations.
Open Scope Z_scope.

Lemma refers_app : forall names x e nm, refers names e nm -> refers (names ++ x) e nm.
Proof.
  intros names x e [s|] H; [|exact H]. destruct H as (p & A & B). exists p. split; [exact A|]. rewrite nth_error_app1; [exact B|].
  apply nth_error_Some. congruence.
Qed.
Lemma init_ok : forall file, exists s, init file = Some s /\ inv [] s [[]; file] [] [] /\ forall n, ents s (Sy n) = None.
Proof.
  intro file. eexists. split; [reflexivity|]. split; [|reflexivity]. constructor; cbn [strs table ents]; try reflexivity; try (cbn; lia).
  - cbn. constructor; [|constructor; [|constructor]]; cbn; intuition discriminate.
  - intro i. cbn. split.
    + intros [<-|[<-|[]]]; eexists; split; reflexivity.
    + intros (e & E & _). destruct i; try discriminate; auto.
  - intros [| |n] e E T; cbn in E; try discriminate; injection E as <-; discriminate.
  - intros i [<-|[<-|[]]]; reflexivity.
  - eexists. repeat split; reflexivity.
  - intros [| |n] e p E N; cbn in E; try discriminate; injection E as <-; cbn in N; try discriminate. injection N as <-. cbn. lia.
Qed.

(** What the directives leave of a symbol. *)
Definition left_by (c : conf) (ds : list dir) (s : state) (names : list str) (n : nat) : Prop :=
  match first_name c n ds with
  | None => ents s (Sy n) = None /\ weakened n ds = false
  | Some nm => exists e p, ents s (Sy n) = Some e /\ in_table e = weakened n ds /\ (weakened n ds = true -> e_bind e = STB_WEAK) /\
      e_name e = Some p /\ (2 <= p)%nat /\ nth_error names p = Some nm
  end.
Lemma first_name_app : forall c n a b, first_name c n (a ++ b) = match first_name c n a with Some x => Some x | None => first_name c n b end.
Proof. induction a as [|d r IH]; intro b; cbn [app first_name]; [reflexivity|]. destruct d; destruct (Nat.eqb n n0); auto. Qed.
Lemma left_frame : forall c ds d s s' names x n, (forall m, (match d with Weak m _ | Type_ m _ _ | Size m _ _ => m end) = m -> m <> n) ->
  ents s' (Sy n) = ents s (Sy n) -> left_by c ds s names n -> left_by c (ds ++ [d]) s' (names ++ x) n.
Proof.
  intros c ds d s s' names x n D E H. unfold left_by in *. rewrite first_name_app. unfold weakened in *. rewrite existsb_app. cbn [existsb].
  assert (W : match d with Weak m _ => Nat.eqb n m | _ => false end = false).
  { destruct d; try reflexivity. apply Nat.eqb_neq. intro. apply (D n0 eq_refl). congruence. }
  rewrite W, !orb_false_r, E. destruct (first_name c n ds) as [nm|].
  - destruct H as (e & p & A & B & C & N1 & N2 & N3). exists e, p. repeat split; auto. rewrite nth_error_app1; [exact N3|]. apply nth_error_Some. congruence.
  - assert (F : first_name c n [d] = None).
    { cbn. destruct d; destruct (Nat.eqb_spec n n0) as [->|]; try reflexivity; exfalso; apply (D n0 eq_refl); reflexivity. }
    rewrite F. exact H.
Qed.
Lemma dir_ok : forall c ds d s names G, inv [] s names [] G -> (forall n, left_by c ds s names n) ->
  exists s' names' G', run_dir c d s = Some s' /\ inv [] s' names' [] G' /\ forall n, left_by c (ds ++ [d]) s' names' n.
Proof.
  intros c ds d s names G H D.
  assert (T : forall n nm f, (forall e, in_table (f e) = in_table e /\ e_bind (f e) = e_bind e /\ e_name (f e) = e_name e) ->
    (match d with Weak m _ => false | Type_ m x _ | Size m x _ => Nat.eqb n m && true end = true) ->
    (match d with Weak m _ => nm | Type_ m x _ | Size m x _ => x end = nm) ->
    exists s' names' G', match need_entry (Sy n) (Some nm) s with None => None | Some (e, s1) => Some (State (strs s1) (table s1) (put (Sy n) (f e) (ents s1))) end = Some s' /\
      inv [] s' names' [] G' /\ forall m, left_by c (ds ++ [d]) s' names' m).
  { intros n nm f F DN DX. assert (S : sy (Sy n)) by (split; discriminate).
    destruct (need_entry_ok _ _ _ _ _ (Sy n) (Some nm) H S) as (e & s1 & x & E & H1 & T1 & M1 & R). rewrite E.
    exists (State (strs s1) (table s1) (put (Sy n) (f e) (ents s1))), (names ++ x), G. split; [reflexivity|].
    destruct (F e) as (F1 & F2 & F3).
    assert (EN : exists p, e_name e = Some p /\ (2 <= p)%nat /\ nth_error (names ++ x) p = Some (match first_name c n ds with Some y => y | None => nm end)).
    { specialize (D n). unfold left_by in D. destruct (first_name c n ds) as [y|].
      - destruct D as (e0 & p & A & _ & _ & N1 & N2 & N3). rewrite A in R. destruct R as (-> & -> & ->). exists p. rewrite app_nil_r. auto.
      - destruct D as (A & _). rewrite A in R. destruct R as (-> & ->). exists (length names). split; [reflexivity|]. split; [apply (i_len _ _ _ _ _ H)|].
        rewrite nth_error_app2, Nat.sub_diag by lia. reflexivity. }
    assert (EI : in_table e = weakened n ds /\ (weakened n ds = true -> e_bind e = STB_WEAK)).
    { specialize (D n). unfold left_by in D. destruct (first_name c n ds) as [y|].
      - destruct D as (e0 & p & A & B & C & _). rewrite A in R. destruct R as (-> & _). auto.
      - destruct D as (A & W). rewrite A in R. destruct R as (-> & _). rewrite W. split; [reflexivity|discriminate]. }
    split.
    - destruct (ents s (Sy n)) as [e0|] eqn:E0.
      + destruct R as (-> & -> & ->). eapply inv_put; eauto. rewrite F2. reflexivity.
      + destruct R as (-> & ->). eapply inv_out; eauto.
        * intros e1 X. rewrite M1, E0 in X. discriminate.
        * intros p X. rewrite F3 in X. destruct EN as (q & Q1 & _ & Q3). rewrite X in Q1. injection Q1 as <-. apply nth_error_Some. congruence.
    - intro m. destruct (Nat.eq_dec n m) as [<-|NE].
      + unfold left_by. rewrite first_name_app. unfold weakened in *. rewrite existsb_app. cbn [existsb].
        assert (FN : first_name c n [d] = Some nm) by (cbn; destruct d; try discriminate; rewrite andb_true_r in DN; rewrite DN, DX; reflexivity).
        assert (WK : match d with Weak k _ => Nat.eqb n k | _ => false end = false) by (destruct d; [discriminate| |]; reflexivity).
        rewrite FN, WK, !orb_false_r. destruct EN as (p & Q1 & Q2 & Q3). destruct EI as (I1 & I2).
        destruct (first_name c n ds); exists (f e), p; cbn [ents]; rewrite put_same, F1, F2, F3; auto 10.
      + eapply left_frame; [| |apply D].
        * intros k K. assert (k = n) by (destruct d; [discriminate| |]; rewrite andb_true_r in DN; apply Nat.eqb_eq in DN; congruence). congruence.
        * cbn [ents]. rewrite put_other by congruence. rewrite M1. reflexivity. }
  destruct d as [n y|n nm t|n nm x].
  - cbn [run_dir]. assert (S : sy (Sy n)) by (split; discriminate).
    edestruct (symtab_append_ok _ _ _ _ _ c (Sy n) y SHN_UNDEF STB_WEAK 0 0 None None H S) as (s' & names' & G' & e & E & H' & P & TT & EE & IT & B & R & R2); [discriminate|intros []|].
    exists s', names', G'. split; [exact E|]. split; [exact H'|]. intro m. destruct P as [[x ->] P2 P3]. destruct (Nat.eq_dec n m) as [<-|NE].
    + specialize (D n). unfold left_by in *. rewrite first_name_app. unfold weakened in *. rewrite existsb_app. cbn [existsb first_name].
      rewrite Nat.eqb_refl, !orb_true_r. destruct (first_name c n ds) as [nm|].
      * destruct D as (e0 & p & A & _ & _ & N1 & N2 & N3). rewrite A in R. exists e, p. destruct R as (R & _). rewrite R. repeat split; auto.
        rewrite nth_error_app1; [exact N3|]. apply nth_error_Some. congruence.
      * destruct D as (A & _). rewrite A in R. destruct R as (_ & p & Q1 & Q2). exists e, p. repeat split; auto.
        specialize (R2 A _ Q1). pose proof (i_len _ _ _ _ _ H). lia.
    + eapply left_frame; [| |apply D]; [congruence|]. apply P2. congruence.
  - cbn [run_dir]. apply T; [destruct t; auto|rewrite Nat.eqb_refl; reflexivity|reflexivity].
  - cbn [run_dir]. apply T; [destruct x; auto|rewrite Nat.eqb_refl; reflexivity|reflexivity].
Qed.
Lemma dirs_ok : forall c ds pre s names G, inv [] s names [] G -> (forall n, left_by c pre s names n) ->
  exists s' names' G', run_dirs c ds s = Some s' /\ inv [] s' names' [] G' /\ forall n, left_by c (pre ++ ds) s' names' n.
Proof.
  induction ds as [|d r IH]; intros pre s names G H D.
  - exists s, names, G. rewrite app_nil_r. auto.
  - destruct (dir_ok c pre d _ _ _ H D) as (s1 & names1 & G1 & E & H1 & D1). cbn [run_dirs]. rewrite E.
    destruct (IH (pre ++ [d]) _ _ _ H1 D1) as (s2 & names2 & G2 & E2 & H2 & D2). exists s2, names2, G2. rewrite <- app_assoc in D2. auto.
Qed.

(** The traversal. *)
Definition result (c : conf) (s0 s : state) (names : list str) (n : nat) (y : sym) : Prop :=
  (In (Sy n) (table s) <-> listed y (in_tab s0 (Sy n)) = true) /\
  (listed y (in_tab s0 (Sy n)) = true -> exists e, ents s (Sy n) = Some e /\ made c y (in_tab s0 (Sy n)) (ents s0 (Sy n)) names e).
Lemma all_ok : forall c ys vis s names L G, inv vis s names L G -> NoDup (map fst ys) -> (forall n, In n (map fst ys) -> ~ In n vis) ->
  (forall n e, In n (map fst ys) -> ents s (Sy n) = Some e -> in_table e = true -> e_bind e = STB_WEAK) ->
  exists s' vis' names' L' G', build_all c ys s = Some s' /\ inv vis' s' names' L' G' /\ (exists x, names' = names ++ x) /\
    (forall i, (forall n, In n (map fst ys) -> i <> Sy n) -> ents s' i = ents s i /\ (In i (table s') <-> In i (table s))) /\
    (forall n y, In (n, y) ys -> result c s s' names' n y).
Proof.
  induction ys as [|[n y] r IH]; intros vis s names L G H ND NV WK; cbn [build_all map fst] in *.
  - exists s, vis, names, L, G. split; [reflexivity|]. split; [exact H|]. split; [exists []; rewrite app_nil_r; reflexivity|]. split; [|intros n y []].
    intros i _. split; [reflexivity|tauto].
  - inversion ND as [|a b ND1 ND2]; subst.
    destruct (build_ok vis s names L G c n y H) as (s1 & names1 & L1 & G1 & E & H1 & [[x1 P1] P2 P3] & R1 & R2).
    { apply NV. left. reflexivity. }
    { destruct (in_dec eid_dec (Sy n) L); auto. }
    { intros e. apply WK. left. reflexivity. }
    rewrite E.
    destruct (IH _ _ _ _ _ H1 ND2) as (s2 & vis2 & names2 & L2 & G2 & E2 & H2 & [x2 Q1] & Q2 & Q3).
    { intros m M [<-|V]; [contradiction|]. apply (NV m); [right; exact M|exact V]. }
    { intros m e M X. apply (WK m); [right; exact M|]. rewrite <- P2; [exact X|]. intro K. injection K as ->. contradiction. }
    exists s2, vis2, names2, L2, G2. split; [exact E2|]. split; [exact H2|]. split; [exists (x1 ++ x2); rewrite Q1, P1, app_assoc; reflexivity|]. split.
    + intros i I0. destruct (Q2 i) as [A B]; [intros k K; apply I0; right; exact K|]. rewrite A, B. split; [apply P2|apply P3]; apply I0; left; reflexivity.
    + intros m z [X|X].
      * injection X as <- <-. destruct (Q2 (Sy n)) as [A B]; [intros m M K; injection K as <-; contradiction|]. split; [rewrite B; exact R1|].
        intro LS. destruct (R2 LS) as (e & E3 & [M1 M2 M3]). exists e. rewrite A. split; [exact E3|]. constructor; auto.
        destruct (ents s (Sy n)); [exact M2|]. rewrite Q1. apply refers_app. exact M2.
      * destruct (Q3 _ _ X) as [A B]. assert (NE : Sy m <> Sy n).
        { intro K. injection K as ->. apply ND1. change n with (fst (n, z)). apply in_map. exact X. }
        unfold result in *. unfold in_tab in *. rewrite (P2 _ NE) in A, B. auto.
Qed.

(** Numbering. *)
Lemma assign_ok : forall l m p ll, NoDup l -> (forall a, In a l -> exists e, m a = Some e) -> 0 <= p -> p + Z.of_nat (length l) < w64 ->
  let '(m', ll') := assign m (Some p) ll l in
  (forall a, ~ In a l -> m' a = m a) /\
  (forall k a, nth_error l k = Some a -> exists e, m a = Some e /\ m' a = Some (set_symindex (p + 1 + Z.of_nat k) e)) /\
  (forall A B, l = A ++ B -> (forall a, In a A -> is_local m a = true) -> (forall a, In a B -> is_local m a = false) ->
    ll' = if Nat.eqb (length A) 0 then ll else p + Z.of_nat (length A)).
Proof.
  induction l as [|a r IH]; intros m p ll ND EX P W; cbn [assign].
  - split; [reflexivity|]. split; [intros [|k] a X; discriminate|]. intros A B X _ _. symmetry in X. apply app_eq_nil in X. destruct X as [-> _]. reflexivity.
  - inversion ND as [|x y ND1 ND2]; subst. destruct (EX a (or_introl eq_refl)) as (e & E). rewrite E. cbn [length] in W.
    rewrite u64_small by lia.
    specialize (IH (put a (set_symindex (p + 1) e) m) (p + 1) (if e_bind e =? STB_LOCAL then p + 1 else ll) ND2).
    destruct (assign _ _ _ r) as [m' ll']. destruct IH as (I1 & I2 & I3); [|lia|lia|].
    { intros b Bb. destruct (EX b (or_intror Bb)) as (e' & E'). exists e'. rewrite put_other; [exact E'|]. intros ->. contradiction. }
    split; [|split].
    + intros b Nb. rewrite I1 by (intro; apply Nb; right; assumption). apply put_other. intros ->. apply Nb. left. reflexivity.
    + intros [|k] b X; cbn [nth_error] in X.
      * injection X as <-. exists e. split; [exact E|]. rewrite I1 by exact ND1. rewrite put_same. rewrite Z.add_0_r. reflexivity.
      * destruct (I2 _ _ X) as (e' & E1 & E2). exists e'. rewrite put_other in E1.
        -- split; [exact E1|]. rewrite E2. do 2 f_equal. lia.
        -- intros ->. apply ND1. eapply nth_error_In. exact X.
    + assert (IL : forall b, In b r -> is_local (put a (set_symindex (p + 1) e) m) b = is_local m b).
      { intros b Bb. apply is_local_put_other. intros ->. contradiction. }
      assert (EB : is_local m a = (e_bind e =? STB_LOCAL)) by (unfold is_local, bind_of; rewrite E; reflexivity).
      intros [|a' A] B X LA LB; cbn [app] in X.
      * subst B. rewrite (I3 [] r eq_refl); [|intros b []|intros b Bb; rewrite IL by exact Bb; apply LB; right; exact Bb].
        cbn [length Nat.eqb]. rewrite <- EB, LB by (left; reflexivity). reflexivity.
      * injection X as <- ->. rewrite (I3 A B eq_refl).
        -- rewrite <- EB, LA by (left; reflexivity). cbn [length]. destruct A; cbn [length Nat.eqb]; lia.
        -- intros b Bb. rewrite IL by (apply in_or_app; auto). apply LA. right. exact Bb.
        -- intros b Bb. rewrite IL by (apply in_or_app; auto). apply LB. exact Bb.
Qed.

Lemma nth_replace : forall {A} (l : list A) n m x, n <> m -> nth_error (replace l n x) m = nth_error l m.
Proof. induction l as [|a r IH]; intros [|n] [|m] x H; cbn; try reflexivity; try contradiction. apply IH. congruence. Qed.
Lemma nth_replace_same : forall {A} (l : list A) n x, (n < length l)%nat -> nth_error (replace l n x) n = Some x.
Proof. induction l as [|a r IH]; intros [|n] x H; cbn in *; try lia; [reflexivity|]. apply IH. lia. Qed.

Lemma assign_dummy : forall m R, m Dummy = Some dummy_entry ->
  assign m None 0 (Dummy :: R) = assign (put Dummy (set_symindex 0 dummy_entry) m) (Some 0) 0 R.
Proof. intros m R H. cbn [assign]. rewrite H. reflexivity. Qed.
Definition told (c : conf) (m : nat) (ds : list dir) (y : sym) : option str :=
  match first_name c m ds with Some x => Some x | None => name_of c y end.
Lemma symbols_ok : forall c file file2 ds ys, NoDup (map fst ys) -> exists s n s2 names vis L G,
  symbols c file file2 ds ys = Some (s, n) /\ inv vis s2 names L G /\ strs s = strs s2 /\ table s = table s2 /\
  nth_error names 1 = Some file2 /\
  (Z.of_nat (length (table s)) < w64 -> n = 2 + Z.of_nat (length L) /\
    forall k a, nth_error (table s) k = Some a -> exists e, ents s2 a = Some e /\ ents s a = Some (set_symindex (Z.of_nat k) e)) /\
  (forall m, In (Sy m) (table s) -> In m (map fst ys) \/ weakened m ds = true) /\
  (forall m y, In (m, y) ys -> (In (Sy m) (table s) <-> listed y (weakened m ds) = true) /\
    (listed y (weakened m ds) = true -> exists e, ents s2 (Sy m) = Some e /\ e_bind e = binding y (weakened m ds) /\
      refers names e (told c m ds y) /\
      (s_extern y = false -> s_defined y = true -> forall x sn o, s_kind y = Label x sn o ->
        e_sect e = Some x /\ (e_bind e <> STB_LOCAL \/ section_symbol y = false -> e_value e = o)))).
Proof.
  intros c file file2 ds ys ND. unfold symbols.
  destruct (init_ok file) as (s0 & E0 & H0 & N0). rewrite E0.
  destruct (dirs_ok c ds [] _ _ _ H0) as (s1 & names1 & G1 & E1 & H1 & D1); [intro n; split; [apply N0|reflexivity]|]. cbn [app] in D1. rewrite E1.
  rewrite (i_strs _ _ _ _ _ H1), set_layout by (pose proof (i_len _ _ _ _ _ H1); lia).
  set (s1' := State (layout 0 (replace names1 1 file2)) (table s1) (ents s1)).
  assert (H1' : inv [] s1' (replace names1 1 file2) [] G1).
  { destruct H1. constructor; cbn [strs table ents s1']; auto; rewrite ?length_replace; auto. }
  assert (IT : forall m, in_tab s1' (Sy m) = weakened m ds).
  { intro m. specialize (D1 m). unfold left_by, in_tab in *. cbn [ents s1']. destruct (first_name c m ds).
    - destruct D1 as (e & p & -> & X & _). exact X.
    - destruct D1 as [-> X]. symmetry. exact X. }
  assert (WK : forall m e, ents s1' (Sy m) = Some e -> in_table e = true -> e_bind e = STB_WEAK).
  { intros m e X Y. specialize (D1 m). unfold left_by in D1. cbn [ents s1'] in X. destruct (first_name c m ds).
    - destruct D1 as (e' & p & A & B & C & _). rewrite A in X. injection X as ->. apply C. congruence.
    - destruct D1 as [A _]. congruence. }
  destruct (all_ok c ys [] s1' _ _ _ H1' ND) as (s2 & vis & names & L & G & E2 & H2 & [x X] & F2 & R2); [auto| |].
  { intros m e _. apply WK. }
  rewrite E2.
  assert (AS : exists n m', assign_indices s2 = Some (State (strs s2) (table s2) m', n) /\
    (Z.of_nat (length (table s2)) < w64 -> n = 2 + Z.of_nat (length L) /\
     forall k a, nth_error (table s2) k = Some a -> exists e, ents s2 a = Some e /\ m' a = Some (set_symindex (Z.of_nat k) e))).
  { unfold assign_indices. pose proof (i_table _ _ _ _ _ H2) as T. pose proof (i_nodup _ _ _ _ _ H2) as NT. rewrite T in NT |- *.
    rewrite assign_dummy by exact (i_dummy _ _ _ _ _ H2).
    inversion NT as [|p q NT1 NT2]; subst p q.
    set (m0 := put Dummy (set_symindex 0 dummy_entry) (ents s2)).
    assert (EX : forall a, In a (File :: L ++ G) -> exists e, m0 a = Some e).
    { intros a J. assert (J' : In a (table s2)) by (rewrite T; right; exact J). apply (i_in _ _ _ _ _ H2) in J'. destruct J' as (e & J' & _).
      exists e. unfold m0. rewrite put_other; [exact J'|]. intros <-. contradiction. }
    pose proof (assign_ok (File :: L ++ G) m0 0 0 NT2 EX (Z.le_refl 0)) as AO.
    destruct (assign m0 (Some 0) 0 (File :: L ++ G)) as [m' ll'].
    eexists _, m'. split; [reflexivity|]. intro W. cbn [length] in W. destruct AO as (A1 & A2 & A3); [cbn [length]; lia|]. split.
    - rewrite (A3 (File :: L) G eq_refl).
      + cbn [length Nat.eqb]. cbn [length] in W. rewrite app_length in W. rewrite u64_small by lia. lia.
      + intros a J. unfold m0. rewrite is_local_put_other by (intros <-; apply NT1; change (File :: L ++ G) with ((File :: L) ++ G); apply in_or_app; auto).
        apply (i_loc _ _ _ _ _ H2). right. exact J.
      + intros a J. unfold m0. rewrite is_local_put_other by (intros <-; apply NT1; right; apply in_or_app; auto). apply (i_glo _ _ _ _ _ H2). exact J.
    - intros [|k] a J; cbn [nth_error] in J.
      + injection J as <-. exists dummy_entry. split; [apply (i_dummy _ _ _ _ _ H2)|]. rewrite A1 by exact NT1. unfold m0. rewrite put_same. reflexivity.
      + destruct (A2 _ _ J) as (e & B1 & B2). exists e. unfold m0 in B1. rewrite put_other in B1.
        * split; [exact B1|]. rewrite B2. do 2 f_equal. lia.
        * intros <-. apply NT1. eapply nth_error_In. exact J. }
  destruct AS as (n & m' & -> & AN).
  exists (State (strs s2) (table s2) m'), n, s2, names, vis, L, G. cbn [strs table ents]. repeat (split; [reflexivity || assumption|]).
  split; [rewrite X, nth_error_app1; [apply nth_replace_same; pose proof (i_len _ _ _ _ _ H1); lia|rewrite length_replace; pose proof (i_len _ _ _ _ _ H1); lia]|].
  split; [exact AN|]. split.
  - intros m J. destruct (in_dec Nat.eq_dec m (map fst ys)) as [Y|Y]; [left; exact Y|right].
    destruct (F2 (Sy m)) as [_ A]; [intros k K E; injection E as <-; contradiction|]. apply A in J. apply (i_in _ _ _ _ _ H1') in J.
    destruct J as (e & J1 & J2). rewrite <- IT. unfold in_tab. rewrite J1. exact J2.
  - intros m y J. destruct (R2 _ _ J) as [A B]. rewrite IT in A, B. split; [exact A|]. intro LS. destruct (B LS) as (e & EE & [M1 M2 M3]).
    exists e. split; [exact EE|]. split; [exact M1|]. split; [|exact M3]. unfold told. specialize (D1 m). unfold left_by in D1. cbn [ents s1'] in M2.
    destruct (first_name c m ds) as [nm|].
    + destruct D1 as (e0 & p & A1 & _ & _ & N1 & N2 & N3). rewrite A1 in M2. exists p. rewrite M2. split; [exact N1|].
      rewrite X, nth_error_app1 by (rewrite length_replace; apply nth_error_Some; congruence). rewrite nth_replace by lia. exact N3.
    + destruct D1 as [A1 _]. rewrite A1 in M2. exact M2.
Qed.

Lemma order_ok : forall c file file2 ds ys, NoDup (map fst ys) -> exists s n, symbols c file file2 ds ys = Some (s, n) /\
  NoDup (table s) /\ nth_error (table s) 0 = Some Dummy /\ nth_error (table s) 1 = Some File /\
  (Z.of_nat (length (table s)) < 2 ^ 64 -> forall k i, nth_error (table s) k = Some i ->
    exists e, ents s i = Some e /\ e_symindex e = Z.of_nat k /\ (e_bind e = STB_LOCAL <-> Z.of_nat k < n)).
Proof.
  intros c file file2 ds ys ND. destruct (symbols_ok c file file2 ds ys ND) as (s & n & s2 & names & vis & L & G & E & H & S1 & S2 & _ & A & _).
  exists s, n. split; [exact E|]. rewrite S2 in *. split; [apply (i_nodup _ _ _ _ _ H)|].
  rewrite (i_table _ _ _ _ _ H). split; [reflexivity|]. split; [reflexivity|]. change (2 ^ 64) with w64. intro W.
  rewrite <- (i_table _ _ _ _ _ H) in *. destruct (A W) as (-> & B). intros k i K. destruct (B _ _ K) as (e & E1 & E2).
  exists (set_symindex (Z.of_nat k) e). split; [exact E2|]. split; [reflexivity|]. cbn [e_bind set_symindex].
  assert (LB : forall b, is_local (ents s2) i = b -> (e_bind e = STB_LOCAL <-> b = true)).
  { intros b <-. unfold is_local, bind_of. rewrite E1, Z.eqb_eq. reflexivity. }
  rewrite (i_table _ _ _ _ _ H) in K. change (Dummy :: File :: L ++ G) with ((Dummy :: File :: L) ++ G) in K.
  destruct (Nat.lt_ge_cases k (length (Dummy :: File :: L))) as [C|C].
  - rewrite nth_error_app1 in K by exact C. apply nth_error_In in K. rewrite (LB true (i_loc _ _ _ _ _ H _ K)). cbn [length] in C. split; [lia|reflexivity].
  - rewrite nth_error_app2 in K by exact C. apply nth_error_In in K. rewrite (LB false (i_glo _ _ _ _ _ H _ K)). cbn [length] in C. split; [discriminate|lia].
Qed.
Lemma contents_ok : forall c file file2 ds ys s n, NoDup (map fst ys) -> symbols c file file2 ds ys = Some (s, n) -> Z.of_nat (length (table s)) < 2 ^ 64 ->
  (forall m, In (Sy m) (table s) -> In m (map fst ys) \/ weakened m ds = true) /\
  (forall m y, In (m, y) ys -> (In (Sy m) (table s) <-> listed y (weakened m ds) = true) /\
    (listed y (weakened m ds) = true -> exists e, ents s (Sy m) = Some e /\ e_bind e = binding y (weakened m ds) /\
      (s_extern y = false -> s_defined y = true -> forall x sn o, s_kind y = Label x sn o ->
        e_sect e = Some x /\ (e_bind e <> STB_LOCAL \/ section_symbol y = false -> e_value e = o)))).
Proof.
  intros c file file2 ds ys s n ND E W. destruct (symbols_ok c file file2 ds ys ND) as (s' & n' & s2 & names & vis & L & G & E' & H & S1 & S2 & _ & A & B & C).
  rewrite E in E'. injection E' as <- <-. destruct (A W) as (_ & D). split; [exact B|]. intros m y I0. destruct (C _ _ I0) as (C1 & C2). split; [exact C1|].
  intro LS. destruct (C2 LS) as (e & E1 & E2 & E3 & E4). apply C1 in LS. apply In_nth_error in LS. destruct LS as (k & K). destruct (D _ _ K) as (e' & D1 & D2).
  rewrite E1 in D1. injection D1 as <-. eexists. split; [exact D2|]. cbn [e_bind set_symindex e_sect e_value]. auto.
Qed.
Lemma names_ok : forall c file file2 ds ys s n, NoDup (map fst ys) -> symbols c file file2 ds ys = Some (s, n) -> Z.of_nat (length (table s)) < 2 ^ 64 ->
  Z.of_nat (length (fst (st_output (strs s)))) < 2 ^ 64 ->
  (is_cstr file2 -> exists e, ents s File = Some e /\ e_type e = STT_FILE /\ name_in_file s e = Some file2) /\
  (forall m y, In (m, y) ys -> listed y (weakened m ds) = true -> exists e, ents s (Sy m) = Some e /\
    match (match first_name c m ds with Some x => Some x | None => name_of c y end) with
    | None => e_name e = None
    | Some x => is_cstr x -> name_in_file s e = Some x
    end).
Proof.
  intros c file file2 ds ys s n ND E W T. destruct (symbols_ok c file file2 ds ys ND) as (s' & n' & s2 & names & vis & L & G & E' & H & S1 & S2 & F & A & B & C).
  rewrite E in E'. injection E' as <- <-. destruct (A W) as (_ & D). pose proof (i_strs _ _ _ _ _ H) as S3. rewrite <- S1 in S3.
  rewrite S3, output_flat, flat_total in T.
  assert (R : forall e k x, refers names e (Some x) -> is_cstr x -> name_in_file s (set_symindex k e) = Some x).
  { intros e k x (p & P1 & P2) CS. unfold name_in_file. cbn [e_name set_symindex]. rewrite P1, S3. pose proof (layout_nth _ 0 _ _ P2) as P3. rewrite P3.
    eapply flat_index; eassumption. }
  split.
  - intro CS. destruct (i_file _ _ _ _ _ H) as (e & E1 & E2 & E3). assert (K : nth_error (table s) 1 = Some File) by (rewrite S2, (i_table _ _ _ _ _ H); reflexivity).
    destruct (D _ _ K) as (e' & D1 & D2). rewrite E1 in D1. injection D1 as <-. eexists. split; [exact D2|]. split; [exact E2|]. apply R; [|exact CS].
    exists 1%nat. auto.
  - intros m y I0 LS. destruct (C _ _ I0) as (C1 & C2). destruct (C2 LS) as (e & E1 & E2 & E3 & E4). apply C1 in LS. apply In_nth_error in LS. destruct LS as (k & K).
    destruct (D _ _ K) as (e' & D1 & D2). rewrite E1 in D1. injection D1 as <-. eexists. split; [exact D2|]. unfold told in E3.
    destruct (match first_name c m ds with Some x => Some x | None => name_of c y end) as [x|]; [|exact E3]. intro CS. apply R; assumption.
Qed.

(** Witnesses. *)
Lemma weak_refuted : exists c ds m y s n e, symbols c [97] [97] ds [(m, y)] = Some (s, n) /\ weakened m ds = true /\
  ents s (Sy m) = Some e /\ e_bind e <> STB_WEAK.
Proof.
  exists (Conf [95] [] true), [Weak 1 (Sym [101] false false true false Other 0 0 None 0 (Some 0))], 1%nat, (Sym [101] true false true false Other 0 0 None 0 (Some 0)).
  eexists _, _, _. split; [vm_compute; reflexivity|]. split; [reflexivity|]. split; [vm_compute; reflexivity|]. discriminate.
Qed.
Lemma prefix_refuted : exists c ds m y s n e, symbols c [97] [97] ds [(m, y)] = Some (s, n) /\ listed y (weakened m ds) = true /\
  s_global y = true /\ ents s (Sy m) = Some e /\ name_in_file s e <> Some (full_name c y).
Proof.
  exists (Conf [95] [] true), [Type_ 1 [102] (Some 2)], 1%nat, (Sym [102] false false true true (Label 7 [46; 116] 3) 0 0 None 0 (Some 0)).
  eexists _, _, _. split; [vm_compute; reflexivity|]. split; [reflexivity|]. split; [reflexivity|]. split; [vm_compute; reflexivity|]. vm_compute. discriminate.
Qed.
