(** Type, size, binding and visibility of global symbols: specification and proofs. *)
From Coq Require Import ZArith List Bool String Lia.
From Verif Require Import Lib M_Intnum M_ElfSect P_ElfSect M_ElfGlobal.
Import ListNotations.
Open Scope Z_scope.

(** * Specification *)
(** What a bare word says of the type and the visibility ([ident] and [caseless] in P_ElfSect.v) *)
Definition word (p : param) : option str := match p_val p with None => ident p | Some _ => None end.
Definition kind (p : param) : option Z := if bare "function" p then Some 2 else if bare "data" p || bare "object" p then Some 1 else None.
Definition view (p : param) : option Z := if bare "internal" p then Some 1 else if bare "hidden" p then Some 2 else if bare "protected" p then Some 3 else None.
Definition sizing (p : param) : option (option intnum) := match p_val p, p_what p with None, PExpr v => Some v | _, _ => None end.
(** a bare word that is none of these *)
Definition strange (p : param) : option str := match word p, kind p, view p with Some s, None, None => Some s | _, _, _ => None end.
Fixpoint first {A B} (g : A -> option B) (l : list A) : option B := match l with [] => None | x :: l => match g x with Some b => Some b | None => first g l end end.
Definition latest {A B} (g : A -> option B) (l : list A) : option B := first g (rev l).
Definition some {A} (o : option A) : bool := match o with Some _ => true | None => false end.
Definition or {A} (o : option A) (a : A) : A := match o with Some x => x | None => a end.
(** qualifiers before the first strange word; qualifiers without the first size *)
Fixpoint before (ps : list param) : list param := match ps with [] => [] | p :: ps => if some (strange p) then [] else p :: before ps end.
Fixpoint surplus (ps : list param) : list param := match ps with [] => [] | p :: ps => if some (sizing p) then ps else p :: surplus ps end.
Definition complaint (p : param) : list message :=
  match p_val p, p_what p with
  | Some v, _ => [MWarn (WQualifier v)]
  | None, PStr _ => [MWarn WStringQualifier]
  | None, PExpr _ => [MWarn WNumericQualifier]
  | None, PId _ _ _ => []
  end.
Definition qualifier_messages (ps : list param) : list message :=
  flat_map complaint (surplus (before ps)) ++ match first strange ps with Some s => [MTypeError s] | None => [] end ++
  (if (2 <=? List.length (filter (fun p => some (view p)) (before ps)))%nat then [MManyVis] else []).
(** the directives *)
Definition dir_kind (d : directive) : option Z :=
  match d with
  | DType (p :: _) => if bare "function" p then Some 2 else if bare "object" p then Some 1 else if bare "tls_object" p then Some 6 else if bare "notype" p then Some 0 else None
  | _ => None
  end.
Definition dir_size (d : directive) : option (option intnum) :=
  match d with
  | DSize (Param None (PExpr v) :: _) => Some v
  | DSize (Param None (PId _ _ v) :: _) => Some v
  | _ => None
  end.
Definition is_weak (d : directive) : bool := match d with DWeak => true | _ => false end.
Definition dir_messages (d : directive) : list message :=
  match d with
  | DType (p :: _) => match word p, dir_kind d with None, _ => [MNoType] | Some s, None => [MTypeWarn s] | Some _, Some _ => [] end
  | DType [] => [MNoType]
  | DSize _ => if some (dir_size d) then [] else [MNoSize]
  | DWeak => []
  end.
Definition size_value (x : option (option intnum)) : intnum := match x with Some (Some i) => i | _ => IL 0 end.
Definition size_messages (x : option (option intnum)) : list message := match x with Some None => [MSizeNotInteger] | _ => [] end.

(** * Proofs *)
Lemma eqs_eq : forall a b, eqs a b = true -> a = b.
Proof. induction a as [| x a IH]; intros [| y b] H; try discriminate; auto. cbn in H. apply andb_prop in H. destruct H as [H1 H2]. apply Z.eqb_eq in H1. f_equal; auto. Qed.
Definition gwords : list (list Z) := map (fun w => map lower (lit w)) ["function"; "data"; "object"; "internal"; "hidden"; "protected"]%string.
Lemma bare_word : forall w p, bare w p = match word p with Some s => eqs (map lower s) (map lower (lit w)) | None => false end.
Proof. intros w p. unfold bare, word. destruct (p_val p); auto. destruct (ident p); auto. rewrite <- caseless_eq. apply casesame_lower. Qed.
Lemma glookup_spec : forall p s, word p = Some s ->
  match glookup s with Some (SetKind t) => kind p = Some t /\ view p = None | Some (SetVis v) => kind p = None /\ view p = Some v | None => kind p = None /\ view p = None end.
Proof.
  intros p s W. unfold glookup, ghelp, kind, view. rewrite !bare_word, W. cbn [find fst]. rewrite !casesame_lower.
  destruct (existsb (eqs (map lower s)) gwords) eqn:E.
  - apply existsb_exists in E. destruct E as (w & I & E). apply eqs_eq in E. rewrite E. cbn in I.
    repeat (destruct I as [<- | I]; [vm_compute; split; reflexivity |]). contradiction.
  - cbn [gwords map existsb] in E. repeat (apply orb_false_elim in E; destruct E as [? E]).
    repeat match goal with H : eqs _ _ = false |- _ => rewrite H; clear H end. split; reflexivity.
Qed.
Lemma kind_named : forall p, word p = None -> kind p = None /\ view p = None.
Proof. intros p W. unfold kind, view. rewrite !bare_word, W. split; reflexivity. Qed.
Lemma vp_id_ident : forall p, vp_id p = ident p.
Proof. intros p. unfold vp_id, ident. destruct (p_what p) as [[| c s] ? ? | |]; auto. Qed.

(** the fold, from any state *)
Lemma latest_cons : forall A B (g : A -> option B) x l, latest g (x :: l) = match latest g l with Some b => Some b | None => g x end.
Proof.
  intros. unfold latest. cbn [rev]. induction (rev l) as [| y r IH]; cbn; [destruct (g x); auto |]. destruct (g y); auto.
Qed.
Definition rest (x : option (option intnum)) (ps : list param) : list param := match x with Some _ => ps | None => surplus ps end.
Lemma ghelper_spec : forall ps d d' m, ghelper d ps = (d', m) ->
  g_type d' = or (latest kind (before ps)) (g_type d) /\ g_vis d' = or (latest view (before ps)) (g_vis d) /\
  g_over d' = g_over d + Z.of_nat (List.length (filter (fun p => some (view p)) (before ps))) /\
  g_size d' = match g_size d with Some x => Some x | None => first sizing (before ps) end /\
  m = flat_map complaint (rest (g_size d) (before ps)) ++ match first strange ps with Some s => [MTypeError s] | None => [] end.
Proof.
  induction ps as [| p ps IH]; intros d d' m H.
  - cbn in H. assert (d' = d) by congruence. assert (m = []) by congruence. subst. cbn. destruct (g_size d); repeat split; auto; lia.
  - cbn [ghelper] in H. rewrite vp_id_ident in H.
    assert (W : word p = match p_val p with None => ident p | Some _ => None end) by reflexivity.
    destruct (word p) as [s |] eqn:Ew.
    + destruct (p_val p) eqn:Ev; [discriminate |]. rewrite <- W in H. pose proof (glookup_spec p s Ew) as G.
      assert (Sz : sizing p = None) by (unfold sizing; rewrite Ev; unfold ident in W; destruct (p_what p); auto; discriminate).
      assert (Co : complaint p = []) by (unfold complaint; rewrite Ev; unfold ident in W; destruct (p_what p); auto; discriminate).
      destruct (glookup s) as [[t | v] |].
      * destruct G as [G1 G2]. assert (St : strange p = None) by (unfold strange; rewrite Ew, G1; reflexivity).
        destruct (IH _ _ _ H) as (A & B & C & D & E). cbn [gact g_type g_vis g_over g_size] in *.
        cbn [before first]. rewrite St. cbn [some]. rewrite !latest_cons. cbn [filter first]. rewrite G1, G2, Sz. cbn [some].
        repeat split; auto.
        -- rewrite A. destruct (latest kind (before ps)); reflexivity.
        -- rewrite B. destruct (latest view (before ps)); reflexivity.
        -- rewrite E. f_equal. unfold rest. destruct (g_size d); cbn [surplus]; rewrite ?Sz; cbn [some flat_map]; rewrite Co; reflexivity.
      * destruct G as [G1 G2]. assert (St : strange p = None) by (unfold strange; rewrite Ew, G1, G2; reflexivity).
        destruct (IH _ _ _ H) as (A & B & C & D & E). cbn [gact g_type g_vis g_over g_size] in *.
        cbn [before first]. rewrite St. cbn [some]. rewrite !latest_cons. cbn [filter first]. rewrite G1, G2, Sz. cbn [some List.length].
        repeat split; auto.
        -- rewrite A. destruct (latest kind (before ps)); reflexivity.
        -- rewrite B. destruct (latest view (before ps)); reflexivity.
        -- lia.
        -- rewrite E. f_equal. unfold rest. destruct (g_size d); cbn [surplus]; rewrite ?Sz; cbn [some flat_map]; rewrite Co; reflexivity.
      * destruct G as [G1 G2]. assert (St : strange p = Some s) by (unfold strange; rewrite Ew, G1, G2; reflexivity).
        unfold gother in H. rewrite Ev, vp_id_ident, <- W in H. assert (d' = d) by congruence. assert (m = [MTypeError s]) by congruence. subst.
        cbn [before first]. rewrite St. cbn. destruct (g_size d); cbn; repeat split; auto; lia.
    + destruct (kind_named p Ew) as [G1 G2]. assert (St : strange p = None) by (unfold strange; rewrite Ew; reflexivity).
      cbn [before first]. rewrite St. cbn [some]. rewrite !latest_cons. cbn [filter first]. rewrite G1, G2. cbn [some].
      assert (H2 : match gother p d with (None, m) => (d, m) | (Some d, m) => let '(d, m2) := ghelper d ps in (d, m ++ m2) end = (d', m)).
      { destruct (p_val p); [exact H |]. rewrite <- W in H. exact H. }
      clear H. unfold gother in H2. rewrite vp_id_ident in H2.
      assert (Un : sizing p = None \/ g_size d <> None -> complaint p = [MWarn (unknown p)] /\ match g_size d with Some x => Some x | None => match sizing p with Some b => Some b | None => first sizing (before ps) end end = match g_size d with Some x => Some x | None => first sizing (before ps) end).
      { intros [N | N]; [| destruct (g_size d); [| contradiction]]; (split; [| rewrite ?N; reflexivity]);
          unfold complaint, unknown; rewrite vp_id_ident; destruct (p_val p); auto; rewrite <- W; unfold ident in W; destruct (p_what p); auto; discriminate. }
      assert (Case : (exists x, sizing p = Some x /\ g_size d = None /\ (let '(d1, m2) := ghelper (GData (Some x) (g_type d) (g_vis d) (g_over d)) ps in (d1, m2)) = (d', m)) \/
                     ((sizing p = None \/ g_size d <> None) /\ (let '(d1, m2) := ghelper d ps in (d1, MWarn (unknown p) :: m2)) = (d', m))).
      { unfold sizing. destruct (p_val p) as [v |] eqn:Ev; [right; split; [left; reflexivity | exact H2] |].
        rewrite <- W in H2. destruct (p_what p) as [s' pre v | s' | v] eqn:Eq.
        - unfold ident in W. rewrite Eq in W. discriminate.
        - right. split; [left; reflexivity | exact H2].
        - destruct (g_size d) eqn:Eg; [right; split; [right; discriminate | exact H2] |]. left. exists v. split; [reflexivity | split; [reflexivity |]]. exact H2. }
      destruct Case as [(x & Sx & Gn & H) | [N H]].
      * destruct (ghelper _ ps) as [d1 m2] eqn:Eh in H. assert (d1 = d') by congruence. assert (m2 = m) by congruence. subst.
        destruct (IH _ _ _ Eh) as (A & B & C & D & E). cbn [g_type g_vis g_over g_size rest] in *. rewrite Sx, Gn. repeat split; auto.
        -- rewrite A. destruct (latest kind (before ps)); reflexivity.
        -- rewrite B. destruct (latest view (before ps)); reflexivity.
        -- cbn [rest surplus]. rewrite Sx. cbn [some]. exact E.
      * destruct (Un N) as [U1 U2]. rewrite U2. destruct (ghelper d ps) as [d1 m2] eqn:Eh in H. assert (d1 = d') by congruence. assert (m = MWarn (unknown p) :: m2) by congruence. subst.
        destruct (IH _ _ _ Eh) as (A & B & C & D & E). repeat split; auto.
        -- rewrite A. destruct (latest kind (before ps)); reflexivity.
        -- rewrite B. destruct (latest view (before ps)); reflexivity.
        -- rewrite E. assert (R : rest (g_size d) (p :: before ps) = p :: rest (g_size d) (before ps)).
           { unfold rest. destruct (g_size d); auto. cbn [surplus]. destruct N as [N | N]; [rewrite N; reflexivity | contradiction]. }
           rewrite R. cbn [flat_map]. rewrite U1. reflexivity.
Qed.

(** the directives *)
Lemma direct_spec : forall d e e' m, direct e d = (e', m) ->
  in_table e' = in_table e || is_weak d /\ xsize e' = match dir_size d with Some x => Some x | None => xsize e end /\
  bind e' = (if is_weak d then 2 else bind e) /\ type e' = or (dir_kind d) (type e) /\ vis e' = (if is_weak d then 0 else vis e) /\ m = dir_messages d.
Proof.
  intros d e e' m H.
  assert (K : forall b, b || false = b) by (intros []; reflexivity).
  destruct d as [[| p ps] | [| p ps] |]; unfold direct in H.
  - assert (e' = e) by congruence. assert (m = [MNoType]) by congruence. subst. cbn. rewrite K. repeat split; auto.
  - rewrite vp_id_ident in H. cbn [dir_size is_weak]. rewrite K. unfold dir_messages, dir_kind. rewrite !bare_word. unfold word.
    destruct (p_val p) as [v |]; [assert (e' = e) by congruence; assert (m = [MNoType]) by congruence; subst; repeat split; auto |].
    destruct (ident p) as [s |]; [| assert (e' = e) by congruence; assert (m = [MNoType]) by congruence; subst; repeat split; auto].
    rewrite !casesame_lower in H.
    repeat match type of H with (if ?b then _ else _) = _ => destruct b end;
      match type of H with (?a, ?b) = _ => assert (e' = a) by congruence; assert (m = b) by congruence end; subst; cbn; repeat split; auto.
  - assert (e' = e) by congruence. assert (m = [MNoSize]) by congruence. subst. cbn. rewrite K. repeat split; auto.
  - cbn [dir_kind is_weak]. rewrite K. unfold dir_messages. destruct p as [[v |] [s pre x | s | x]]; cbn [p_val p_what] in H;
      match type of H with (?a, ?b) = _ => assert (e' = a) by congruence; assert (m = b) by congruence end; subst; cbn; repeat split; auto.
  - match type of H with (?a, ?b) = _ => assert (e' = a) by congruence; assert (m = b) by congruence end; subst. cbn. rewrite orb_true_r. repeat split; auto.
Qed.
Lemma directs_spec : forall ds e e' m, directs e ds = (e', m) ->
  in_table e' = in_table e || existsb is_weak ds /\ xsize e' = match latest dir_size ds with Some x => Some x | None => xsize e end /\
  bind e' = (if existsb is_weak ds then 2 else bind e) /\ type e' = or (latest dir_kind ds) (type e) /\ vis e' = (if existsb is_weak ds then 0 else vis e) /\ m = flat_map dir_messages ds.
Proof.
  induction ds as [| d ds IH]; intros e e' m H.
  - cbn in H. assert (e' = e) by congruence. assert (m = []) by congruence. subst. cbn. rewrite orb_false_r. repeat split; auto.
  - cbn [directs] in H. destruct (direct e d) as [e1 m1] eqn:E1. destruct (directs e1 ds) as [e2 m2] eqn:E2.
    assert (e2 = e') by congruence. assert (m = m1 ++ m2) by congruence. subst.
    destruct (direct_spec _ _ _ _ E1) as (A1 & A2 & A3 & A4 & A5 & ->). destruct (IH _ _ _ E2) as (B1 & B2 & B3 & B4 & B5 & ->).
    cbn [existsb flat_map]. rewrite !latest_cons. repeat split.
    + rewrite B1, A1. destruct (in_table e), (is_weak d); reflexivity.
    + rewrite B2, A2. destruct (latest dir_size ds); reflexivity.
    + rewrite B3, A3. destruct (is_weak d), (existsb is_weak ds); reflexivity.
    + rewrite B4, A4. destruct (latest dir_kind ds); reflexivity.
    + rewrite B5, A5. destruct (is_weak d), (existsb is_weak ds); reflexivity.
Qed.
Lemma in_first : forall A B (g : A -> option B) l b, first g l = Some b -> exists x, g x = Some b.
Proof. induction l as [| x l IH]; intros b H; [discriminate |]. cbn in H. destruct (g x) eqn:E; [exists x; congruence | eauto]. Qed.
Lemma kind_pos : forall ps k, latest kind ps = Some k -> (k =? 0) = false.
Proof. intros ps k H. apply in_first in H. destruct H as (p & H). unfold kind in H. destruct (bare "function" p); [assert (k = 2) by congruence; subst; reflexivity |]. destruct (bare "data" p || bare "object" p); [assert (k = 1) by congruence; subst; reflexivity | discriminate]. Qed.
Lemma view_small : forall ps v, latest view ps = Some v -> Z.land v 3 = v.
Proof.
  intros ps k H. apply in_first in H. destruct H as (p & H). unfold view in H.
  destruct (bare "internal" p); [assert (k = 1) by congruence; subst; reflexivity |]. destruct (bare "hidden" p); [assert (k = 2) by congruence; subst; reflexivity |].
  destruct (bare "protected" p); [assert (k = 3) by congruence; subst; reflexivity | discriminate].
Qed.
Theorem global_spec : forall ds ext tls, existsb is_weak ds = false ->
  let ps := or ext [] in
  let size := match first sizing (before ps) with Some x => Some x | None => latest dir_size ds end in
  symbol ds ext tls = Out 1 (if tls then 6 else or (latest kind (before ps)) (or (latest dir_kind ds) 0)) (or (latest view (before ps)) 0) (size_value size)
    (flat_map dir_messages ds ++ qualifier_messages ps ++ size_messages size).
Proof.
  intros ds ext tls Nw ps size. unfold symbol. destruct (directs entry_create ds) as [e m] eqn:E1.
  destruct (directs_spec _ _ _ _ E1) as (A1 & A2 & A3 & A4 & A5 & ->). rewrite Nw in A1, A3, A5. cbn [entry_create in_table orb bind type vis xsize] in *.
  unfold build. rewrite A1. unfold build_global. replace (match ext with Some ps => ps | None => [] end) with ps by (destruct ext; reflexivity).
  destruct (ghelper _ ps) as [d m2] eqn:E2. destruct (ghelper_spec _ _ _ _ E2) as (B1 & B2 & B3 & B4 & B5). cbn [g_type g_vis g_over g_size rest] in *.
  cbn [symtab_append set_nonzero xsize bind type vis in_table]. rewrite B4, A2.
  assert (S : match (match first sizing (before ps) with Some _ => first sizing (before ps) | None => match latest dir_size ds with Some x => Some x | None => None end end) with Some (Some i) => i | _ => IL 0 end = size_value size /\
              match (match first sizing (before ps) with Some _ => first sizing (before ps) | None => match latest dir_size ds with Some x => Some x | None => None end end) with Some None => [MSizeNotInteger] | _ => [] end = size_messages size).
  { subst size. destruct (first sizing (before ps)) as [[x |] |]; [split; reflexivity .. |]. destruct (latest dir_size ds) as [[x |] |]; split; reflexivity. }
  destruct S as [-> ->].
  assert (T : (if g_type d =? 0 then type e else g_type d) = or (latest kind (before ps)) (or (latest dir_kind ds) 0)).
  { rewrite B1, A4. destruct (latest kind (before ps)) as [k |] eqn:Ek; [| reflexivity]. cbn [or]. rewrite (kind_pos _ _ Ek). reflexivity. }
  assert (V : Z.land (g_vis d) 3 = or (latest view (before ps)) 0).
  { rewrite B2. destruct (latest view (before ps)) as [k |] eqn:Ek; [| reflexivity]. cbn [or]. exact (view_small _ _ Ek). }
  assert (M : m2 ++ (if 1 <? g_over d then [MManyVis] else []) = qualifier_messages ps).
  { unfold qualifier_messages. rewrite B5, B3, <- app_assoc. do 2 f_equal.
    destruct (Nat.leb_spec 2 (List.length (filter (fun p => some (view p)) (before ps)))) as [L | L];
      [replace (1 <? _) with true by (symmetry; apply Z.ltb_lt; lia) | replace (1 <? _) with false by (symmetry; apply Z.ltb_ge; lia)]; reflexivity. }
  rewrite T, V, M. reflexivity.
Qed.
Theorem weak_spec : forall ds ext tls, existsb is_weak ds = true ->
  symbol ds ext tls = Out 2 (if tls then 6 else or (latest dir_kind ds) 0) 0 (size_value (latest dir_size ds)) (flat_map dir_messages ds ++ size_messages (latest dir_size ds)).
Proof.
  intros ds ext tls Nw. unfold symbol. destruct (directs entry_create ds) as [e m] eqn:E1.
  destruct (directs_spec _ _ _ _ E1) as (A1 & A2 & A3 & A4 & A5 & ->). rewrite Nw in A1, A3, A5. cbn [entry_create in_table orb bind type vis xsize] in *.
  unfold build. rewrite A1. cbn beta iota. rewrite A2, A3, A4, A5. destruct (latest dir_size ds) as [[x |] |]; reflexivity.
Qed.
(** when a declaration is refused *)
Lemma refused_iff : forall ps s, In (MTypeError s) (qualifier_messages ps) <-> exists a p b, ps = a ++ p :: b /\ strange p = Some s /\ Forall (fun q => strange q = None) a.
Proof.
  intros ps s. unfold qualifier_messages. rewrite !in_app_iff.
  assert (C : forall l, ~ In (MTypeError s) (flat_map complaint l)).
  { intros l H. apply in_flat_map in H. destruct H as (p & _ & H). unfold complaint in H. destruct (p_val p), (p_what p); cbn in H; intuition discriminate. }
  assert (D : first strange ps = Some s <-> exists a p b, ps = a ++ p :: b /\ strange p = Some s /\ Forall (fun q => strange q = None) a).
  { clear C. induction ps as [| p ps IH]; cbn.
    - split; [discriminate | intros ([| ? ?] & ? & ? & H & _); discriminate].
    - destruct (strange p) as [t |] eqn:E.
      + split; [intros H; exists [], p, ps; repeat split; auto; congruence |]. intros ([| q a] & p' & b & H & S & F); cbn in H; [congruence |].
        assert (q = p) by congruence. subst. inversion F; subst. congruence.
      + rewrite IH. split.
        * intros (a & p' & b & -> & S & F). exists (p :: a), p', b. repeat split; auto.
        * intros ([| q a] & p' & b & H & S & F); cbn in H; [assert (p = p') by congruence; subst; congruence |].
          inversion F; subst. exists a, p', b. repeat split; auto. congruence. }
  rewrite <- D. split.
  - intros [H | [H | H]]; [exfalso; exact (C _ H) | destruct (first strange ps); cbn in H; [destruct H as [H | []]; congruence | contradiction] |].
    destruct (2 <=? _)%nat; cbn in H; intuition discriminate.
  - intros ->. right. left. left. reflexivity.
Qed.
Lemma weak_refuted : exists ds ext, existsb (fun p => some (kind p)) ext = true /\ existsb (fun p => some (view p)) ext = true /\ existsb (fun p => some (strange p)) ext = true /\
  symbol ds (Some ext) false = Out 2 0 0 (IL 0) [].
Proof. exists [DWeak], [word_param "function"; word_param "hidden"; word_param "foo"]. repeat split; vm_compute; reflexivity. Qed.
Lemma name_refuted : exists n i, let q := Param None (PId n 0 (Some i)) in
  symbol [DSize [q]] None false = Out 1 0 0 i [] /\ o_messages (symbol [] (Some [word_param "function"; q]) false) = [MTypeError n].
Proof. exists (lit "len"), (IL 4). split; vm_compute; reflexivity. Qed.
