(** Section directives of COFF objects: specification and proofs. *)
From Coq Require Import ZArith List Bool String Lia.
From Verif Require Import Lib LibBits M_Intnum P_Intnum M_ElfSect P_ElfSect M_CoffSect.
Import ListNotations.
Open Scope Z_scope.

(** * Specification *)
(** The attributes of sections and their bits in the header ([bare], [keyed], [last_word], [is], [caseless] and others
    in P_ElfSect.v) *)
Inductive cattr := AText | AData | ABss | AInfo | ADiscard | ANoCache | ANoPage | AShared | AExecute | ARead | AWrite.
Definition cbit (a : cattr) : Z :=
  match a with AText => 5 | AData => 6 | ABss => 7 | AInfo => 9 | ADiscard => 25 | ANoCache => 26 | ANoPage => 27 | AShared => 28 | AExecute => 29 | ARead => 30 | AWrite => 31 end.
(** a word of flags has exactly these attributes, and no other bits *)
Definition holds (f : Z) (g : cattr -> bool) : Prop :=
  (forall a, Z.testbit f (cbit a) = g a) /\ forall i, 0 <= i -> (forall a, cbit a <> i) -> Z.testbit f i = false.
Definition mem (a : cattr) (l : list cattr) : bool := existsb (fun b => cbit a =? cbit b) l.
(** words that choose all attributes *)
Definition chosen (p : param) : option (list cattr) :=
  if bare "code" p || bare "text" p then Some [AText; AExecute; ARead] else if bare "data" p then Some [AData; ARead; AWrite]
  else if bare "rdata" p then Some [AData; ARead] else if bare "bss" p then Some [ABss; ARead; AWrite] else if bare "info" p then Some [AInfo; ADiscard; ARead] else None.
(** words for one attribute, not in plain COFF *)
Definition con (a : cattr) (p : param) : bool :=
  match a with ADiscard => bare "discard" p | ANoCache => bare "nocache" p | ANoPage => bare "nopage" p | AShared => bare "share" p | AExecute => bare "execute" p
             | ARead => bare "read" p | AWrite => bare "write" p | _ => false end.
Definition coff (a : cattr) (p : param) : bool :=
  match a with ADiscard => bare "nodiscard" p | ANoCache => bare "cache" p | ANoPage => bare "page" p | AShared => bare "noshare" p | AExecute => bare "noexecute" p
             | ARead => bare "noread" p | AWrite => bare "nowrite" p | _ => false end.
(** letters: x, then s d r, then b; [dflt]: the section has no attributes by its name *)
Definition has (c : Z) (s : str) : bool := existsb (Z.eqb c) s.
Definition by_letters (dflt : bool) (s : str) : option (list cattr) :=
  if has 120 s then Some ([AText; AExecute; ARead] ++ if has 115 s then [AShared] else [])
  else if has 115 s then Some [AData; ARead; AWrite; AShared] else if has 100 s || has 114 s then Some [AData; ARead; AWrite]
  else if has 98 s then Some [ABss] else if dflt then Some [AText; ARead; AWrite] else None.
Definition csays (o : fmt) (dflt : bool) (a : cattr) (p : param) : option bool :=
  match chosen p with
  | Some l => Some (mem a l)
  | None =>
      if keyed "gasflags" p then match text p with Some s => option_map (mem a) (by_letters dflt s) | None => None end
      else if w32 o && con a p then Some true else if w32 o && coff a p then Some false else None
  end.
Definition csays_nobase (o : fmt) (p : param) : option bool := if w32 o && bare "nobase" p then Some true else if w32 o && bare "base" p then Some false else None.
Definition csays_align (o : fmt) (p : param) : option intnum := if w32 o && keyed "align" p then number p else None.
Definition all_attrs : list cattr := [AText; AData; ABss; AInfo; ADiscard; ANoCache; ANoPage; AShared; AExecute; ARead; AWrite].
Definition cknown (o : fmt) (p : param) : bool :=
  match chosen p with Some _ => true | None => false end || keyed "gasflags" p ||
  w32 o && (existsb (fun a => con a p || coff a p) all_attrs || bare "base" p || bare "nobase" p || keyed "align" p).
Definition cbad (o : fmt) (p : param) : Prop := (w32 o = true /\ keyed "align" p = true /\ number p = None) \/ (keyed "gasflags" p = true /\ text p = None).
Definition cwarnings (o : fmt) (p : param) : list cwarning :=
  if cknown o p then if keyed "gasflags" p then match text p with Some s => map (fun c => CParam (WAttribute c)) (filter (fun c => negb (existsb (Z.eqb c) (lit "abnsdxrw"))) s) | None => [] end else []
  else match p_val p, ident p, p_what p with
       | Some v, _, _ => [CParam (WQualifier v)]
       | None, Some s, _ => [CParam (WQualifier s)]
       | None, None, PStr _ => [CParam WStringQualifier]
       | None, None, _ => [CParam WNumericQualifier]
       end.
(** What the name gives *)
Definition begins (w : string) (n : str) : bool := eqs (firstn (List.length (lit w)) n) (lit w).
Definition rdonly (n : str) : bool := is n [".rdata"]%string || begins ".rodata" n || begins ".rdata$" n.
Definition debug (n : str) : bool := caseless (firstn 6 n) ".debug".
Definition unwind (o : fmt) (n : str) : bool := w64 o && is n [".pdata"; ".xdata"]%string.
Definition by_name (o : fmt) (n : str) : option (list cattr) :=
  if is n [".data"]%string then Some [AData; ARead; AWrite] else if is n [".bss"]%string then Some [ABss; ARead; AWrite]
  else if is n [".text"]%string then Some [AText; AExecute; ARead] else if rdonly n || unwind o n then Some [AData; ARead]
  else if is n [".drectve"]%string then Some (if w32 o then [AInfo; ADiscard; ARead] else [AInfo]) else if w32 o && is n [".sxdata"]%string then Some [AInfo]
  else if is n [".comment"]%string then Some [AInfo; ADiscard; ARead] else if debug n then Some [AData; ADiscard; ARead] else None.
Definition dflt (o : fmt) (n : str) : bool := match by_name o n with None => true | Some _ => false end.
Definition name_attr (o : fmt) (n : str) (a : cattr) : bool := mem a (match by_name o n with Some l => l | None => [AText; AExecute; ARead] end).
Definition name_align (o : fmt) (n : str) : Z :=
  if is n [".data"; ".bss"]%string then if w32 o then if amd64 o then 16 else 4 else 0 else if is n [".text"]%string then if w32 o then 16 else 0
  else if rdonly n then if w32 o then 8 else 0 else if w64 o && is n [".pdata"]%string then 4 else if w64 o && is n [".xdata"]%string then 8 else if debug n then 1 else 0.
(** What a directive asks for *)
Definition cwants (o : fmt) (n : str) (ps : list param) (a : cattr) : bool := last_word (csays o (dflt o n) a) ps (name_attr o n a).
(** plain COFF has only the first four attributes, and eight characters of the name *)
Definition cgets (o : fmt) (n : str) (ps : list param) (a : cattr) : bool := cwants o n ps a && (w32 o || mem a [AText; AData; ABss; AInfo]).
Definition cut (o : fmt) (n : str) : str := if w32 o then n else firstn 8 n.
Definition cwants_align (o : fmt) (ps : list param) : option intnum := last_word (fun p => option_map Some (csays_align o p)) ps None.
Definition casked (o : fmt) (n : str) (ps : list param) (s : csect) : Prop :=
  cs_name s = cut o n /\ holds (cs_flags s) (cgets o n ps) /\ cs_flags2 s = (if last_word (csays_nobase o) ps (unwind o n) then 1 else 0) /\
  cs_align s = match cwants_align o ps with Some i => get_uint i | None => name_align o n end /\ cs_def s = false.
Definition call_warnings (o : fmt) (n : str) (ps : list param) : list cwarning :=
  (if rdonly n && negb (w32 o) then [CNoReadOnly] else []) ++ flat_map (cwarnings o) ps ++ (if negb (w32 o) && (8 <? List.length n)%nat then [CTruncated] else []).
Definition cmissing (n : str) (l : list csect) : Prop := forall s, In s l -> cs_name s <> n.

(** * Proofs *)
Definition MASK : Z := 0xFE0002E0.
Definition cfits (f : Z) : Prop := f = Z.land f MASK.
Lemma mask_none : forall i, 0 <= i -> (forall a, cbit a <> i) -> Z.testbit MASK i = false.
Proof.
  intros i Hi N. destruct (Z_lt_ge_dec i 32) as [L | G].
  - assert (K : In i (map Z.of_nat (seq 0 32))) by (apply in_map_iff; exists (Z.to_nat i); split; [lia | apply in_seq; lia]).
    cbn in K. repeat (destruct K as [<- | K]; [first [reflexivity | exfalso; first [apply (N AText); reflexivity | apply (N AData); reflexivity | apply (N ABss); reflexivity | apply (N AInfo); reflexivity | apply (N ADiscard); reflexivity | apply (N ANoCache); reflexivity | apply (N ANoPage); reflexivity | apply (N AShared); reflexivity | apply (N AExecute); reflexivity | apply (N ARead); reflexivity | apply (N AWrite); reflexivity]] |]). contradiction.
  - apply (testbit_small 32); [split; [vm_compute; discriminate | reflexivity] | lia].
Qed.
Lemma fits_holds : forall f g, cfits f -> (forall a, Z.testbit f (cbit a) = g a) -> holds f g.
Proof. intros f g F H. split; [exact H|]. intros i Hi N. unfold cfits in F. rewrite F, Z.land_spec, (mask_none i Hi N). apply andb_false_r. Qed.
Lemma cfits_lor : forall f g, cfits f -> cfits g -> cfits (Z.lor f g).
Proof. intros f g F G. unfold cfits in *. rewrite Z.land_lor_distr_l, <- F, <- G. reflexivity. Qed.
Lemma cfits_land : forall f g, cfits f -> cfits (Z.land f g).
Proof. intros f g F. unfold cfits in *. rewrite (Z.land_comm f g), <- Z.land_assoc, <- F. reflexivity. Qed.
Lemma cor_bit : forall f g a, Z.testbit (Z.lor f g) (cbit a) = Z.testbit f (cbit a) || Z.testbit g (cbit a).
Proof. intros. apply Z.lor_spec. Qed.
Lemma cand_bit : forall f g a, Z.testbit (Z.land f g) (cbit a) = Z.testbit f (cbit a) && Z.testbit g (cbit a).
Proof. intros. apply Z.land_spec. Qed.

(** ** The letters *)
Definition cletters : list Z := lit "abnsdxrw".
Lemma letters_spec : forall s r w r' w', fold_left letter1 s (r, w) = (r', w') ->
  (load r = true -> code r || datasect r = true) -> (readonly r = true -> datasect r = true) ->
  code r' = code r || has 120 s /\ datasect r' = datasect r || has 115 s || has 100 s || has 114 s /\ alloc r' = alloc r || has 98 s /\ shared r' = shared r || has 115 s /\
  (load r' = true -> code r' || datasect r' = true) /\ (readonly r' = true -> datasect r' = true) /\
  w' = w ++ map (fun c => CParam (WAttribute c)) (filter (fun c => negb (existsb (Z.eqb c) cletters)) s).
Proof.
  induction s as [| c s IH]; intros r w r' w' E L R.
  - cbn [fold_left] in E. assert (r' = r) by congruence. assert (w' = w) by congruence. subst. cbn. rewrite !orb_false_r, app_nil_r. auto 10.
  - cbn [fold_left] in E. destruct (letter1 (r, w) c) as [r1 w1] eqn:E1. unfold has in *. cbn [existsb filter].
    assert (S : code r1 = code r || (120 =? c) /\ datasect r1 = datasect r || (115 =? c) || (100 =? c) || (114 =? c) /\ alloc r1 = alloc r || (98 =? c) /\ shared r1 = shared r || (115 =? c) /\
      (load r1 = true -> code r1 || datasect r1 = true) /\ (readonly r1 = true -> datasect r1 = true) /\
      w1 = w ++ (if negb (existsb (Z.eqb c) cletters) then [CParam (WAttribute c)] else [])).
    { unfold letter1 in E1. destruct r as [ra rl rr rc rd rs]. cbn [alloc load readonly code datasect shared] in *.
      repeat match type of E1 with (if ?c =? ?k then _ else _) = _ =>
        destruct (Z.eqb_spec c k) as [-> | ?];
          [match type of E1 with (?a, ?b) = _ => assert (r1 = a) by congruence; assert (w1 = b) by congruence end; subst; cbn; rewrite ?orb_false_r, ?orb_true_r, ?app_nil_r; cbn; repeat split; intros; try discriminate; rewrite ?orb_true_r; auto; fail |] end.
      assert (N : forall k, In k cletters -> (c =? k) = false /\ (k =? c) = false).
      { intros k I. vm_compute in I. split; apply Z.eqb_neq; intro; subst; repeat (destruct I as [I | I]; [congruence |]); contradiction. }
      match type of E1 with (?a, ?b) = _ => assert (r1 = a) by congruence; assert (w1 = b) by congruence end. subst. cbn [alloc load readonly code datasect shared].
      assert (NE : existsb (Z.eqb c) cletters = false).
      { apply not_true_is_false. intro X. apply existsb_exists in X. destruct X as (k & I & K). destruct (N k I). congruence. }
      rewrite NE. repeat match goal with |- context [?k =? c] => rewrite (proj2 (N k ltac:(vm_compute; auto 12))) end.
      rewrite !orb_false_r. auto 10. }
    destruct S as (S1 & S2 & S3 & S4 & S5 & S6 & S7). destruct (IH _ _ _ _ E S5 S6) as (H1 & H2 & H3 & H4 & H5 & H6 & H7).
    split; [rewrite H1, S1; symmetry; apply orb_assoc|]. split; [rewrite H2, S2; destruct (datasect r), (115 =? c), (100 =? c), (114 =? c), (existsb (Z.eqb 115) s), (existsb (Z.eqb 100) s); reflexivity|].
    split; [rewrite H3, S3; symmetry; apply orb_assoc|]. split; [rewrite H4, S4; symmetry; apply orb_assoc|]. split; [exact H5|]. split; [exact H6|].
    rewrite H7, S7, <- app_assoc. f_equal. destruct (negb (existsb (Z.eqb c) cletters)); reflexivity.
Qed.

Lemma gas_flags : forall d p s, text p = Some s ->
  exists d', cgasflags d p = inr (d', map (fun c => CParam (WAttribute c)) (filter (fun c => negb (existsb (Z.eqb c) cletters)) s)) /\
    (forall a, Z.testbit (c_flags d') (cbit a) = or_old (option_map (mem a) (by_letters (c_isdef d) s)) (Z.testbit (c_flags d) (cbit a))) /\
    c_isdef d' = c_isdef d /\ c_gas d' = true /\ c_flags2 d' = c_flags2 d /\ c_align d' = c_align d /\ (cfits (c_flags d) -> cfits (c_flags d')).
Proof.
  intros d p s T. unfold cgasflags. change (vp_string p) with (text p). rewrite T.
  destruct (fold_left letter1 s (Seen false false false false false false, [])) as [r w] eqn:E.
  destruct (letters_spec _ _ _ _ _ E) as (C & D & A & S & L & R & W); [discriminate | discriminate|]. cbn [code datasect alloc shared app orb] in *. subst w.
  eexists. split; [reflexivity|]. cbn [set_gas set_flags c_isdef c_gas c_flags c_flags2 c_align]. split; [|repeat (split; [reflexivity|])].
  - intro a. unfold by_letters. rewrite <- C, <- A. rewrite S in *. destruct (code r).
    + destruct (has 115 s); destruct a; reflexivity.
    + destruct (has 115 s); cbn [orb] in D; [rewrite D; destruct a; reflexivity|]. rewrite <- D. destruct (datasect r); [destruct a; reflexivity|].
      destruct (readonly r); [specialize (R eq_refl); discriminate|]. destruct (load r); [specialize (L eq_refl); discriminate|].
      destruct (alloc r); [destruct a; reflexivity|]. destruct (c_isdef d); [destruct a; reflexivity | reflexivity].
  - intro F. assert (F1 : cfits (if code r then TEXT + EXECUTE + READ else if datasect r then DATA + READ + WRITE else if readonly r then DATA + READ else if load r then TEXT else if alloc r then BSS else if c_isdef d then TEXT + READ + WRITE else c_flags d)).
    { destruct (code r); [reflexivity|]. destruct (datasect r); [reflexivity|]. destruct (readonly r); [reflexivity|]. destruct (load r); [reflexivity|]. destruct (alloc r); [reflexivity|]. destruct (c_isdef d); [reflexivity | exact F]. }
    destruct (shared r); [apply cfits_lor; [exact F1 | reflexivity] | exact F1].
Qed.

(** ** The table *)
Definition cwords0 : list string := ["code"; "text"; "data"; "rdata"; "bss"; "info"; "discard"; "nodiscard"; "cache"; "nocache"; "page"; "nopage"; "share"; "noshare";
  "execute"; "noexecute"; "read"; "noread"; "write"; "nowrite"; "base"; "nobase"]%string.
Lemma which : forall u (l : list string), (exists w, In w l /\ u = map lower (lit w)) \/ (forall w, In w l -> eqs u (map lower (lit w)) = false).
Proof.
  intros u l. induction l as [| w l IH]; [right; intros w [] |].
  destruct (eqs u (map lower (lit w))) eqn:E; [left; exists w; split; [left; reflexivity | apply eqs_eq; exact E]|].
  destruct IH as [(x & I & ->) | N]; [left; exists x; split; [right; exact I | reflexivity]|].
  right. intros x [<- | I]; [exact E | apply N; exact I].
Qed.
Definition cof_action (dflt : bool) (a : cattr) (p : param) (e : option caction) : option bool :=
  match e with
  | Some (CSet f) => Some (Z.testbit f (cbit a))
  | Some (COr f) => if f =? 2 ^ cbit a then Some true else None
  | Some (CAnd f) => if f =? 2 ^ cbit a then Some false else None
  | Some CGas => match text p with Some s => option_map (mem a) (by_letters dflt s) | None => None end
  | _ => None
  end.
Definition action_ok (e : option caction) : bool :=
  match e with
  | Some (CSet f) => f =? Z.land f MASK
  | Some (COr f) | Some (CAnd f) => existsb (fun a => f =? 2 ^ cbit a) all_attrs
  | _ => true
  end.
Definition centry_ok (o : fmt) (p : param) : Prop :=
  (forall dflt a, csays o dflt a p = cof_action dflt a p (centry o p)) /\
  csays_nobase o p = match centry o p with Some CBase => Some false | Some CNoBase => Some true | _ => None end /\
  w32 o && keyed "align" p = match centry o p with Some CAlign => true | _ => false end /\
  keyed "gasflags" p = match centry o p with Some CGas => true | _ => false end /\
  cknown o p = match centry o p with Some _ => true | None => false end /\ action_ok (centry o p) = true.
(** the words as a function of the test of a word *)
Definition chosenq (q : string -> bool) : option (list cattr) :=
  if q "code"%string || q "text"%string then Some [AText; AExecute; ARead] else if q "data"%string then Some [AData; ARead; AWrite]
  else if q "rdata"%string then Some [AData; ARead] else if q "bss"%string then Some [ABss; ARead; AWrite] else if q "info"%string then Some [AInfo; ADiscard; ARead] else None.
Definition conq (a : cattr) (q : string -> bool) : bool :=
  match a with ADiscard => q "discard"%string | ANoCache => q "nocache"%string | ANoPage => q "nopage"%string | AShared => q "share"%string | AExecute => q "execute"%string
             | ARead => q "read"%string | AWrite => q "write"%string | _ => false end.
Definition coffq (a : cattr) (q : string -> bool) : bool :=
  match a with ADiscard => q "nodiscard"%string | ANoCache => q "cache"%string | ANoPage => q "page"%string | AShared => q "noshare"%string | AExecute => q "noexecute"%string
             | ARead => q "noread"%string | AWrite => q "nowrite"%string | _ => false end.
Definition lookupq (b : bool) (q : string -> bool) : option caction :=
  match find (fun h => match h with (n, b, _) => Bool.eqb b false && q n end) (if b then chelp else firstn 7 chelp) with Some (_, _, a) => Some a | None => None end.
Definition agree (q q' : string -> bool) : Prop := forall w, In w cwords0 -> q w = q' w.
Lemma chosenq_ext : forall q q', agree q q' -> chosenq q = chosenq q'.
Proof. intros q q' H. unfold chosenq. rewrite !H by (cbn; tauto). reflexivity. Qed.
Lemma conq_ext : forall a q q', agree q q' -> conq a q = conq a q'.
Proof. intros a q q' H. destruct a; try reflexivity; apply H; cbn; tauto. Qed.
Lemma coffq_ext : forall a q q', agree q q' -> coffq a q = coffq a q'.
Proof. intros a q q' H. destruct a; try reflexivity; apply H; cbn; tauto. Qed.
Lemma find_same : forall A (f g : A -> bool) l, (forall x, In x l -> f x = g x) -> find f l = find g l.
Proof. induction l as [| x l IH]; intro H; [reflexivity|]. cbn [find]. rewrite (H x (or_introl eq_refl)), IH by (intros; apply H; right; assumption). reflexivity. Qed.
Lemma chelp_words : forallb (fun h : string * bool * caction => let '(n, b, _) := h in b || existsb (String.eqb n) cwords0) chelp = true.
Proof. reflexivity. Qed.
Lemma lookupq_ext : forall b q q', agree q q' -> lookupq b q = lookupq b q'.
Proof.
  intros b q q' H. unfold lookupq. rewrite (find_same _ _ (fun h => match h with (n, b, _) => Bool.eqb b false && q' n end)); [reflexivity|].
  intros [[n c] a] I. destruct c; [reflexivity|]. cbn [Bool.eqb andb]. apply H.
  assert (I2 : In (n, false, a) chelp) by (destruct b; [exact I | rewrite <- (firstn_skipn 7 chelp); apply in_or_app; left; exact I]).
  pose proof (proj1 (forallb_forall _ _) chelp_words _ I2) as X. cbn [orb] in X. apply existsb_exists in X. destruct X as (w & W & X). apply String.eqb_eq in X. subst. exact W.
Qed.
Definition q0 (u : list Z) (w : string) : bool := eqs u (map lower (lit w)).
Lemma bare_words : forall o p q, p_val p = None -> agree (fun w => bare w p) q -> match ident p with Some s => agree (fun w => casesame s (lit w)) q | None => agree (fun _ => false) q end ->
  chosen p = chosenq q /\ (forall a, con a p = conq a q) /\ (forall a, coff a p = coffq a q) /\ centry o p = lookupq (w32 o) q /\ bare "base" p = q "base"%string /\ bare "nobase" p = q "nobase"%string.
Proof.
  intros o p q V A B. split; [apply (chosenq_ext (fun w => bare w p)); exact A|]. split; [intro a; apply (conq_ext a (fun w => bare w p)); exact A|].
  split; [intro a; apply (coffq_ext a (fun w => bare w p)); exact A|]. split; [|split; apply A; cbn; tauto].
  unfold centry. rewrite V, ident_eq. destruct (ident p) as [s|]; [apply (lookupq_ext (w32 o) (fun w => casesame s (lit w))); exact B|].
  rewrite <- (lookupq_ext (w32 o) _ _ B). destruct (w32 o); reflexivity.
Qed.
Lemma centry_is : forall o p, centry_ok o p.
Proof.
  intros o p. destruct (p_val p) as [v|] eqn:V.
  - assert (NB : forall w, bare w p = false) by (intro w; unfold bare; rewrite V; reflexivity).
    assert (C : chosen p = None) by (unfold chosen; rewrite !NB; reflexivity).
    assert (O1 : forall a, con a p = false) by (intros []; cbn [con]; auto). assert (O2 : forall a, coff a p = false) by (intros []; cbn [coff]; auto).
    assert (K : forall w, keyed w p = q0 (map lower v) w) by (intro w; unfold keyed, q0; rewrite V; apply caseless_lower).
    assert (LK : centry o p = match find (fun h => match h with (n, b, _) => Bool.eqb b true && q0 (map lower v) n end) (ctable o) with Some (_, _, a) => Some a | None => None end).
    { unfold centry, clookup. rewrite V. erewrite find_same; [reflexivity|]. intros [[n b] a] _. cbn beta iota. rewrite casesame_lower. reflexivity. }
    unfold centry_ok, csays, csays_nobase, cknown. rewrite C, !NB, !K, LK. cbn [existsb all_attrs]. rewrite !O1, !O2. unfold ctable.
    destruct (which (map lower v) ["gasflags"; "align"]%string) as [(w & I & E) | N].
    + rewrite E. destruct I as [<- | [<- | []]]; destruct (w32 o); (split; [intros dd a; rewrite ?O1, ?O2; destruct a; reflexivity|]); repeat split; reflexivity.
    + assert (G1 : q0 (map lower v) "gasflags" = false) by (apply N; left; reflexivity). assert (G2 : q0 (map lower v) "align" = false) by (apply N; right; left; reflexivity).
      rewrite G1, G2. assert (F : find (fun h : string * bool * caction => match h with (n, b, _) => Bool.eqb b true && q0 (map lower v) n end) (if w32 o then chelp else firstn 7 chelp) = None).
      { destruct (w32 o); cbn [find chelp firstn Bool.eqb andb]; rewrite G1, ?G2; reflexivity. }
      rewrite F. destruct (w32 o); (split; [intros dd a; rewrite ?O1, ?O2; reflexivity|]); repeat split; reflexivity.
  - assert (K : forall w, keyed w p = false) by (intro w; unfold keyed; rewrite V; reflexivity).
    assert (Q : (exists w0, In w0 cwords0 /\ agree (fun w => bare w p) (q0 (map lower (lit w0))) /\ match ident p with Some s => agree (fun w => casesame s (lit w)) (q0 (map lower (lit w0))) | None => agree (fun _ => false) (q0 (map lower (lit w0))) end) \/
                (agree (fun w => bare w p) (fun _ => false) /\ match ident p with Some s => agree (fun w => casesame s (lit w)) (fun _ => false) | None => agree (fun _ => false) (fun _ => false) end)).
    { unfold bare. rewrite V. destruct (ident p) as [s|]; [|right; split; intros w _; reflexivity].
      destruct (which (map lower s) cwords0) as [(w0 & I & E) | N].
      - left. exists w0. split; [exact I|]. split; intros w _; unfold q0; rewrite <- E; [apply caseless_lower | apply casesame_lower].
      - right. split; intros w I; [rewrite caseless_lower | rewrite casesame_lower]; apply N; exact I. }
    unfold centry_ok, csays, csays_nobase, cknown. cbn [existsb all_attrs]. rewrite !K, !andb_false_r.
    destruct Q as [(w0 & I & A & B) | (A & B)]; destruct (bare_words o p _ V A B) as (C & O1 & O2 & L & B1 & B2); rewrite C, !O1, !O2, L, B1, B2.
    + cbn [In cwords0] in I. repeat (destruct I as [<- | I]; [destruct (w32 o); (split; [intros dd a; rewrite ?O1, ?O2; destruct a; reflexivity|]); repeat split; reflexivity |]). destruct I.
    + destruct (w32 o); (split; [intros dd a; rewrite ?O1, ?O2; destruct a; reflexivity|]); repeat split; reflexivity.
Qed.

(** ** The parameters *)
Lemma centry_not_bad : forall o p, centry o p = None -> ~ cbad o p.
Proof.
  intros o p E B. destruct (centry_is o p) as (_ & _ & A & G & _). rewrite E in A, G. destruct B as [(W & B & _) | (B & _)]; [rewrite W, B in A; discriminate | congruence].
Qed.
Lemma in_attr : forall f, existsb (fun a => f =? 2 ^ cbit a) all_attrs = true -> exists b, f = 2 ^ cbit b.
Proof. intros f H. apply existsb_exists in H. destruct H as (b & _ & H). exists b. apply Z.eqb_eq. exact H. Qed.
Definition nb (b : bool) : Z := if b then 1 else 0.
Lemma cact_spec : forall o p a d b, centry o p = Some a -> c_flags2 d = nb b ->
  (exists e, cact a d p = inl e /\ cbad o p) \/
  exists d', cact a d p = inr (d', cwarnings o p) /\ ~ cbad o p /\ (forall t, Z.testbit (c_flags d') (cbit t) = or_old (csays o (c_isdef d) t p) (Z.testbit (c_flags d) (cbit t))) /\
    c_flags2 d' = nb (or_old (csays_nobase o p) b) /\ c_align d' = or_old (option_map Some (csays_align o p)) (c_align d) /\ c_gas d' = keyed "gasflags" p || c_gas d /\ c_isdef d' = c_isdef d /\
    (cfits (c_flags d) -> cfits (c_flags d')).
Proof.
  intros o p a d b E F2. destruct (centry_is o p) as (S & NBs & A & G & K & M). rewrite E in *.
  assert (NB : a <> CAlign -> a <> CGas -> ~ cbad o p).
  { intros N1 N2 [(W & B & _) | (B & _)]; [rewrite W, B in A; cbn [andb] in A; destruct a; congruence | rewrite G in B; destruct a; congruence]. }
  assert (W0 : a <> CGas -> cwarnings o p = []) by (intro N; unfold cwarnings; rewrite K, G; destruct a; try reflexivity; contradiction).
  unfold csays_align. rewrite NBs, A, G. destruct a as [f | f | f | | | |]; cbn [cact].
  - right. eexists. rewrite W0 by discriminate. split; [reflexivity|]. split; [apply NB; discriminate|]. cbn [set_flags c_flags c_flags2 c_align c_gas c_isdef option_map or_old].
    split; [intro t; rewrite S; reflexivity|]. split; [exact F2|]. repeat (split; [reflexivity|]). intros _. apply Z.eqb_eq. exact M.
  - right. eexists. rewrite W0 by discriminate. split; [reflexivity|]. split; [apply NB; discriminate|]. cbn [set_flags c_flags c_flags2 c_align c_gas c_isdef option_map or_old].
    destruct (in_attr _ M) as (c & ->). split; [intro t; rewrite cor_bit, S; cbn [cof_action]; generalize (Z.testbit (c_flags d) (cbit t)); intro v; destruct c, t, v; reflexivity|].
    split; [exact F2|]. repeat (split; [reflexivity|]). intro F. apply cfits_lor; [exact F | destruct c; reflexivity].
  - right. eexists. rewrite W0 by discriminate. split; [reflexivity|]. split; [apply NB; discriminate|]. cbn [set_flags c_flags c_flags2 c_align c_gas c_isdef option_map or_old].
    destruct (in_attr _ M) as (c & ->). split; [intro t; rewrite cand_bit, S; cbn [cof_action]; generalize (Z.testbit (c_flags d) (cbit t)); intro v; destruct c, t, v; reflexivity|].
    split; [exact F2|]. repeat (split; [reflexivity|]). apply cfits_land.
  - right. eexists. rewrite W0 by discriminate. split; [reflexivity|]. split; [apply NB; discriminate|]. cbn [set_flags2 c_flags c_flags2 c_align c_gas c_isdef option_map or_old].
    split; [intro t; rewrite S; reflexivity|]. split; [rewrite F2; destruct b; reflexivity|]. repeat (split; [reflexivity|]). auto.
  - right. eexists. rewrite W0 by discriminate. split; [reflexivity|]. split; [apply NB; discriminate|]. cbn [set_flags2 c_flags c_flags2 c_align c_gas c_isdef option_map or_old].
    split; [intro t; rewrite S; reflexivity|]. split; [rewrite F2; destruct b; reflexivity|]. repeat (split; [reflexivity|]). auto.
  - destruct (text p) as [s|] eqn:T.
    + right. destruct (gas_flags d p s T) as (d' & -> & H1 & H2 & H3 & H4 & H5 & H6). exists d'. unfold cwarnings. rewrite K, G, T. split; [reflexivity|].
      split; [intros [(W & B & _) | (_ & B)]; [rewrite W, B in A; discriminate | congruence]|].
      split; [intro t; rewrite H1, S; cbn [cof_action]; rewrite T; reflexivity|]. cbn [option_map or_old orb]. split; [congruence|]. auto.
    + left. unfold cgasflags. change (vp_string p) with (text p). rewrite T. eexists. split; [reflexivity|]. right. split; [exact G | exact T].
  - apply andb_prop in A. destruct A as [A1 A2]. change (vp_int p) with (number p). destruct (number p) as [i|] eqn:N.
    + right. eexists. rewrite W0 by discriminate. split; [reflexivity|]. split; [intros [(_ & _ & B) | (B & _)]; [congruence | rewrite G in B; discriminate]|].
      cbn [set_align c_flags c_flags2 c_align c_gas c_isdef option_map or_old]. split; [intro t; rewrite S; reflexivity|]. split; [exact F2|]. repeat (split; [reflexivity|]). auto.
    + left. eexists. split; [reflexivity|]. left. auto.
Qed.
Lemma chelper_spec : forall o ps d b, c_flags2 d = nb b ->
  (exists e, chelper o d ps = inl e /\ Exists (cbad o) ps) \/
  exists d', chelper o d ps = inr (d', flat_map (cwarnings o) ps, existsb (cknown o) ps) /\ ~ Exists (cbad o) ps /\
    (forall t, Z.testbit (c_flags d') (cbit t) = last_word (csays o (c_isdef d) t) ps (Z.testbit (c_flags d) (cbit t))) /\
    c_flags2 d' = nb (last_word (csays_nobase o) ps b) /\ c_align d' = last_word (fun p => option_map Some (csays_align o p)) ps (c_align d) /\ c_gas d' = existsb (keyed "gasflags") ps || c_gas d /\ c_isdef d' = c_isdef d /\
    (cfits (c_flags d) -> cfits (c_flags d')).
Proof.
  induction ps as [| p ps IH]; intros d b F2.
  - right. exists d. split; [reflexivity|]. split; [intro X; inversion X|]. split; [reflexivity|]. split; [exact F2|]. repeat (split; [reflexivity|]). auto.
  - cbn [chelper]. destruct (centry_is o p) as (S & NBs & A & G & K & M). destruct (centry o p) as [a|] eqn:E.
    + destruct (cact_spec o p a d b E F2) as [(e & -> & B) | (d1 & -> & B & H1 & H2 & H3 & H4 & H5 & H6)]; [left; exists e; split; [reflexivity | apply Exists_cons_hd; exact B]|].
      destruct (IH d1 _ H2) as [(e & -> & B2) | (d2 & -> & B2 & J1 & J2 & J3 & J4 & J5 & J6)]; [left; exists e; split; [reflexivity | apply Exists_cons_tl; exact B2]|].
      right. exists d2. cbn [existsb last_word flat_map]. rewrite K. split; [reflexivity|]. split; [intro X; inversion X; contradiction|].
      split; [intro t; rewrite J1, H5, H1; reflexivity|]. split; [exact J2|]. split; [rewrite J3, H3; reflexivity|].
      split; [rewrite J4, H4, orb_assoc, (orb_comm (existsb _ ps)); reflexivity|]. split; [congruence | auto].
    + assert (B := centry_not_bad o p E).
      assert (N2 : csays_align o p = None) by (unfold csays_align; rewrite A; reflexivity).
      assert (WU : cwarnings o p = [CParam (unknown p)]).
      { unfold cwarnings, unknown. rewrite K, ident_eq. destruct (p_val p); [reflexivity|]. destruct (ident p); [reflexivity|]. destruct (p_what p); reflexivity. }
      destruct (IH d b F2) as [(e & -> & B2) | (d2 & -> & B2 & J1 & J2 & J3 & J4 & J5 & J6)]; [left; exists e; split; [reflexivity | apply Exists_cons_tl; exact B2]|].
      right. exists d2. cbn [existsb last_word flat_map]. rewrite K, G, N2, WU, NBs. split; [reflexivity|]. split; [intro X; inversion X; contradiction|].
      split; [intro t; rewrite S; apply J1|]. split; [exact J2|]. split; [exact J3|]. split; [exact J4|]. split; [exact J5 | exact J6].
Qed.

(** ** The directive *)
Lemma cstandard_spec : forall o n, exists f, cstandard o n = (dflt o n, f, nb (unwind o n), name_align o n, is n [".bss"]%string, if rdonly n && negb (w32 o) then [CNoReadOnly] else []) /\
  cfits f /\ forall a, Z.testbit f (cbit a) = name_attr o n a.
Proof.
  intros o n.
  destruct (which_std n [".data"; ".bss"; ".text"; ".rdata"; ".drectve"; ".pdata"; ".xdata"; ".sxdata"; ".comment"]%string) as [(w & I & ->) | N].
  - cbn [In] in I. destruct o as [x y z]. unfold name_attr, dflt.
    repeat (destruct I as [<- | I]; [destruct x, y;
      match goal with |- context [by_name ?o ?n] => let l := eval vm_compute in (by_name o n) in replace (by_name o n) with l by (vm_compute; reflexivity) end;
      eexists; (split; [vm_compute; reflexivity|]); (split; [reflexivity | intros []; reflexivity])|]); destruct I.
  - assert (NI : forall w, In w [".data"; ".bss"; ".text"; ".rdata"; ".drectve"; ".pdata"; ".xdata"; ".sxdata"; ".comment"]%string -> same n (lit w) = false) by (intros w I; rewrite same_eqs; apply N; exact I).
    unfold cstandard, dflt, name_attr, by_name, name_align, unwind, rdonly, debug, is, begins, starts, casestarts. cbn [existsb]. rewrite !NI by (cbn; tauto). rewrite ?N by (cbn; tauto). cbn [orb]. rewrite !andb_false_r, ?orb_false_r.
    change (same (firstn (List.length (lit ".rodata")) n) (lit ".rodata")) with (eqs (firstn (List.length (lit ".rodata")) n) (lit ".rodata")).
    change (same (firstn (List.length (lit ".rdata$")) n) (lit ".rdata$")) with (eqs (firstn (List.length (lit ".rdata$")) n) (lit ".rdata$")).
    change (List.length (lit ".debug")) with 6%nat. rewrite caseless_eq.
    destruct (eqs _ (lit ".rodata") || eqs _ (lit ".rdata$")).
    + cbn [orb]. destruct (w32 o); eexists; (split; [reflexivity|]); (split; [reflexivity | intros []; reflexivity]).
    + cbn [orb]. destruct (caseless (firstn 6 n) ".debug"); eexists; (split; [reflexivity|]); (split; [reflexivity | intros []; reflexivity]).
Qed.
Lemma cplace_spec : forall obj n f f2 al co re, let '(obj', set) := cplace obj n f f2 al co re in
  (cmissing n obj /\ set = true /\ obj' = obj ++ [CSect n f f2 al co re false]) \/
  exists b s a, obj = b ++ s :: a /\ cmissing n b /\ cs_name s = n /\ set = cs_def s /\ obj' = if cs_def s then b ++ CSect n f f2 al (cs_code s) (cs_res s) false :: a else obj.
Proof.
  induction obj as [| s obj IH]; intros n f f2 al co re; cbn [cplace].
  - left. split; [intros x []|]. split; reflexivity.
  - rewrite same_eqs. destruct (eqs (cs_name s) n) eqn:E.
    + apply eqs_eq in E. destruct (cs_def s) eqn:D; right; exists [], s, obj; (split; [reflexivity|]); (split; [intros x []|]); (split; [exact E|]); (split; [symmetry; exact D|]); rewrite D; reflexivity.
    + assert (NE : cs_name s <> n) by (intro X; apply eqs_eq in X; congruence).
      specialize (IH n f f2 al co re). destruct (cplace obj n f f2 al co re) as [o set]. destruct IH as [(M & -> & ->) | (b & x & a & -> & M & X & -> & O)].
      * left. split; [intros y [<- | I]; [exact NE | apply M; exact I]|]. split; reflexivity.
      * right. exists (s :: b), x, a. split; [reflexivity|]. split; [intros y [<- | I]; [exact NE | apply M; exact I]|]. split; [exact X|]. split; [reflexivity|].
        rewrite O. destruct (cs_def x); reflexivity.
Qed.
Lemma execute_flag : forall f, negb (Z.land f EXECUTE =? 0) = Z.testbit f (cbit AExecute).
Proof.
  intro f. unfold EXECUTE. cbn [cbit]. change 0x20000000 with (2 ^ 29). destruct (Z.testbit f 29) eqn:T.
  - destruct (Z.eqb_spec (Z.land f (2 ^ 29)) 0) as [E | E]; [|reflexivity]. exfalso. assert (X : Z.testbit (Z.land f (2 ^ 29)) 29 = false) by (rewrite E; reflexivity).
    rewrite Z.land_spec, T in X. discriminate.
  - replace (Z.land f (2 ^ 29)) with 0; [reflexivity|]. symmetry. apply Z.bits_inj'. intros i Hi. rewrite Z.land_spec, Z.bits_0. rewrite Z.pow2_bits_eqb by lia.
    destruct (Z.eqb_spec 29 i) as [<- | N]; [rewrite T; reflexivity | apply andb_false_r].
Qed.
(** an alignment that is refused *)
Definition misaligned (o : fmt) (ps : list param) : Prop := exists i, cwants_align o ps = Some i /\ (is_exp2 (get_uint i) = false \/ 8192 < get_uint i).
Theorem cswitch_spec : forall o obj p ps n, text p = Some n ->
  (exists e, cswitch o obj (p :: ps) = (obj, CFailed e) /\ (Exists (cbad o) ps \/ misaligned o ps)) \/
  (~ Exists (cbad o) ps /\ ~ misaligned o ps /\
   ((cmissing (cut o n) obj /\ exists s, cswitch o obj (p :: ps) = (obj ++ [s], CSwitched (call_warnings o n ps)) /\
       casked o n ps s /\ cs_code s = cwants o n ps AExecute /\ cs_res s = is n [".bss"]%string) \/
    exists b s0 a, obj = b ++ s0 :: a /\ cmissing (cut o n) b /\ cs_name s0 = cut o n /\
      if cs_def s0 then exists s, cswitch o obj (p :: ps) = (b ++ s :: a, CSwitched (call_warnings o n ps)) /\ casked o n ps s /\ cs_code s = cs_code s0 /\ cs_res s = cs_res s0
      else cswitch o obj (p :: ps) = (obj, CSwitched (call_warnings o n ps ++ (if existsb (cknown o) ps && negb (existsb (keyed "gasflags") ps) then [CIgnored] else []))))).
Proof.
  intros o obj p ps n TX. unfold cswitch. change (vp_string p) with (text p). rewrite TX. destruct (cstandard_spec o n) as (f0 & -> & F0 & B0).
  destruct (chelper_spec o ps (CData (dflt o n) false f0 (nb (unwind o n)) None) (unwind o n) eq_refl) as [(e & -> & B) | (d & -> & NB & J1 & J2 & J3 & J4 & _ & J6)].
  - left. exists e. split; [reflexivity | left; exact B].
  - cbn [c_isdef c_gas c_flags c_flags2 c_align] in *. specialize (J6 F0). rewrite orb_false_r in J4. fold (cwants_align o ps) in J3. rewrite J3.
    assert (W : forall a, Z.testbit (c_flags d) (cbit a) = cwants o n ps a) by (intro a; rewrite J1, B0; reflexivity).
    set (al := match cwants_align o ps with Some i => get_uint i | None => name_align o n end).
    destruct (match cwants_align o ps with Some _ => negb (is_exp2 al) | None => false end) eqn:A1.
    { left. exists CNotPower. split; [reflexivity|]. right. unfold misaligned, al in *. destruct (cwants_align o ps) as [i|]; [|discriminate]. exists i. split; [reflexivity|]. left. apply negb_true_iff. exact A1. }
    destruct (match cwants_align o ps with Some _ => 8192 <? al | None => false end) eqn:A2.
    { left. exists CTooLarge. split; [reflexivity|]. right. unfold misaligned, al in *. destruct (cwants_align o ps) as [i|]; [|discriminate]. exists i. split; [reflexivity|]. right. apply Z.ltb_lt. exact A2. }
    right. split; [exact NB|]. split.
    { intros (i & I & [X | X]); unfold al in *; rewrite I in *; [rewrite X in A1; discriminate | apply Z.ltb_lt in X; congruence]. }
    rewrite execute_flag, W.
    assert (LN : (8 <? Z.of_nat (List.length n)) && negb (w32 o) = negb (w32 o) && (8 <? List.length n)%nat).
    { rewrite andb_comm. f_equal. destruct (Nat.ltb_spec 8 (List.length n)); [apply Z.ltb_lt | apply Z.ltb_ge]; lia. }
    rewrite LN. assert (CN : @eq str (if negb (w32 o) && (8 <? List.length n)%nat then firstn 8 n else n) (cut o n)).
    { unfold cut. destruct (w32 o); [reflexivity|]. cbn [negb andb]. destruct (Nat.ltb_spec 8 (List.length n)); [reflexivity|]. symmetry. apply firstn_all2. lia. }
    rewrite CN. set (f := if w32 o then c_flags d else Z.land (c_flags d) (u64 (Z.lnot WIN32_MASK))).
    assert (HF : holds f (cgets o n ps)).
    { unfold f, cgets. destruct (w32 o).
      - apply fits_holds; [exact J6|]. intro a. rewrite W. symmetry. apply andb_true_r.
      - apply fits_holds; [apply cfits_land; exact J6|]. intro a. rewrite cand_bit, W. destruct a; reflexivity. }
    pose proof (cplace_spec obj (cut o n) f (c_flags2 d) al (cwants o n ps AExecute) (is n [".bss"]%string)) as PL.
    destruct (cplace obj (cut o n) f (c_flags2 d) al (cwants o n ps AExecute) (is n [".bss"]%string)) as [ob set].
    assert (AS : forall co re, casked o n ps (CSect (cut o n) f (c_flags2 d) al co re false)).
    { intros co re. unfold casked. cbn [cs_name cs_flags cs_flags2 cs_align cs_def]. split; [reflexivity|]. split; [exact HF|]. split; [exact J2|]. split; reflexivity. }
    unfold call_warnings. destruct PL as [(M & -> & ->) | (b & s0 & a & O & M & SN & -> & ->)].
    + left. split; [exact M|]. eexists. cbn [negb andb]. rewrite app_nil_r. split; [reflexivity|]. split; [apply AS | split; reflexivity].
    + right. exists b, s0, a. split; [exact O|]. split; [exact M|]. split; [exact SN|]. rewrite J4. destruct (cs_def s0); cbn [negb andb].
      * eexists. rewrite app_nil_r. split; [reflexivity|]. split; [apply AS | split; reflexivity].
      * rewrite <- !app_assoc. reflexivity.
Qed.

(** ** Sequences of directives *)
Fixpoint cswitches (o : fmt) (obj : list csect) (ds : list (list param)) : list csect :=
  match ds with [] => obj | ps :: ds => cswitches o (fst (cswitch o obj ps)) ds end.
Lemma cswitch_step : forall o obj ps, let obj' := fst (cswitch o obj ps) in
  (forall s, In s obj -> cs_def s = false -> In s obj') /\ (NoDup (map cs_name obj) -> NoDup (map cs_name obj')).
Proof.
  intros o obj ps. destruct ps as [| p ps]; [split; auto|]. destruct (text p) as [n|] eqn:TX.
  2: { unfold cswitch. change (vp_string p) with (text p). rewrite TX. split; auto. }
  destruct (cswitch_spec o obj p ps n TX) as [(e & -> & _) | (_ & _ & [(M & s & -> & A & _) | (b & s0 & a & O & M & SN & R)])].
  - split; auto.
  - cbn [fst]. split; [intros x I _; apply in_or_app; left; exact I|]. intro ND. rewrite map_app. cbn [map]. destruct A as [-> _].
    apply NoDup_rev in ND. rewrite <- (rev_involutive (map cs_name obj ++ [cut o n])). apply NoDup_rev. rewrite rev_app_distr. cbn [rev app]. constructor; [|exact ND].
    rewrite <- in_rev. intro X. apply in_map_iff in X. destruct X as (y & Y1 & Y2). exact (M y Y2 Y1).
  - destruct (cs_def s0) eqn:D.
    + destruct R as (s & -> & A & _). cbn [fst]. split.
      * intros x I DX. rewrite O in I. apply in_app_or in I. apply in_or_app. destruct I as [I | [<- | I]]; [left; exact I | congruence | right; right; exact I].
      * rewrite O, !map_app. cbn [map]. destruct A as [-> _]. rewrite SN. auto.
    + rewrite R. split; auto.
Qed.
Theorem cswitches_keep : forall o ds obj, (forall s, In s obj -> cs_def s = false -> In s (cswitches o obj ds)) /\ (NoDup (map cs_name obj) -> NoDup (map cs_name (cswitches o obj ds))).
Proof.
  intros o ds. induction ds as [| ps ds IH]; intro obj; [split; auto|]. cbn [cswitches]. destruct (cswitch_step o obj ps) as [K N]. destruct (IH (fst (cswitch o obj ps))) as [K2 N2].
  split; auto.
Qed.
Theorem calignment : forall o ps i, cwants_align o ps = Some i -> canon i -> 0 < ival i < 2 ^ 32 -> (~ misaligned o ps <-> exists k, 0 <= k <= 13 /\ ival i = 2 ^ k).
Proof.
  intros o ps i E C R. destruct (alignment i C R) as [G X]. unfold misaligned. rewrite E. split.
  - intro M. assert (P : is_exp2 (get_uint i) = true) by (destruct (is_exp2 (get_uint i)) eqn:Y; [reflexivity | exfalso; apply M; exists i; auto]).
    assert (L : get_uint i <= 8192) by (destruct (Z_le_gt_dec (get_uint i) 8192); [assumption | exfalso; apply M; exists i; split; [reflexivity | right; lia]]).
    apply X in P. destruct P as (k & K & P). exists k. split; [|exact P]. split; [exact K|]. apply (Z.pow_le_mono_r_iff 2); [lia | lia |]. change (2 ^ 13) with 8192. lia.
  - intros (k & K & P) (j & J & B). assert (j = i) by congruence. subst j. assert (Y : is_exp2 (get_uint i) = true) by (apply X; exists k; split; [lia | exact P]).
    destruct B as [B | B]; [congruence|]. rewrite G, P in B. assert (2 ^ k <= 2 ^ 13) by (apply Z.pow_le_mono_r; lia). change (2 ^ 13) with 8192 in H. lia.
Qed.

(** ** What does not hold *)
Definition win64 : fmt := Fmt true true true.
Definition plain : fmt := Fmt false false false.
Theorem readonly_refuted : exists s, cswitch win64 [] [word_param ".foo"; Param (Some (lit "gasflags")) (PStr (lit "r"))] = ([s], CSwitched []) /\ Z.testbit (cs_flags s) (cbit AWrite) = true.
Proof. eexists. split; [vm_compute; reflexivity | reflexivity]. Qed.
Theorem truncated_refuted : exists n1 n2 obj s, n1 <> n2 /\ cswitch plain [] [Param None (PStr n1); word_param "data"] = (obj, CSwitched [CTruncated]) /\ obj = [s] /\
  cswitch plain obj [Param None (PStr n2)] = (obj, CSwitched [CTruncated]) /\ cwants plain n2 [] AText = true /\ Z.testbit (cs_flags s) (cbit AText) = false.
Proof.
  exists (lit ".section1"), (lit ".section2"). eexists _, _. split; [discriminate|]. split; [vm_compute; reflexivity|]. split; [reflexivity|]. split; [vm_compute; reflexivity|]. split; reflexivity.
Qed.
