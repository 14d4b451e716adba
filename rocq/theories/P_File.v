(** Specification and proofs for libyasm/file.c: C40, C41, C42, C51, C52. *)
From Coq Require Import ZArith List Bool Lia.
From Verif Require Import Lib M_File.
Import ListNotations.
Open Scope Z_scope.

(** * Specification of escapes *)
(** The documented meaning of a character that stands for itself after a backslash, etc. *)
Definition simple_escapes : list (Z * Z) := [(98, 8); (102, 12); (110, 10); (114, 13); (116, 9)].
Definition is_hex (c : Z) : Prop := 48 <= c <= 57 \/ 65 <= c <= 70 \/ 97 <= c <= 102.
Definition is_dec (c : Z) : Prop := 48 <= c <= 57.
Definition hex_digit (c : Z) : Z := if c <=? 57 then c - 48 else if c <=? 70 then c - 65 + 10 else c - 97 + 10.
Definition number (base : Z) (digit : Z -> Z) (ds : str) : Z := fold_left (fun a c => a * base + digit c) ds 0.
Definition starts (P : Z -> Prop) (s : str) : Prop := match s with c :: _ => P c | [] => False end.
(** [Dec s o]: the escaped text [s] stands for the bytes [o]. *)
Inductive Dec : str -> str -> Prop :=
| D_nil : Dec [] []
| D_plain c s o : c <> 92 -> Dec s o -> Dec (c :: s) (c :: o)
| D_last : Dec [92] [92]
| D_simple c v s o : In (c, v) simple_escapes -> Dec s o -> Dec (92 :: c :: s) (v :: o)
| D_hex ds s o : ds <> [] -> Forall is_hex ds -> ~ starts is_hex s -> Dec s o ->
    Dec (92 :: 120 :: ds ++ s) (number 16 hex_digit ds mod 256 :: o)
| D_hex0 s o : ~ starts is_hex s -> Dec s o -> Dec (92 :: 120 :: s) (0 :: o)
| D_oct ds s o : (1 <= length ds <= 3)%nat -> Forall is_dec ds ->
    (length ds = 3%nat \/ ~ starts is_dec s) -> Dec s o ->
    Dec (92 :: ds ++ s) (number 8 (fun c => c - 48) ds mod 256 :: o)
| D_other c s o : ~ is_dec c -> c <> 120 -> ~ In c (map fst simple_escapes) -> Dec s o ->
    Dec (92 :: c :: s) (c :: o).

(** A canonical way of writing any byte string: printable characters as themselves, quotes and
    backslashes behind a backslash, the rest as three octal digits. *)
Definition write_byte (c : Z) : str :=
  if (c =? 34) || (c =? 92) then [92; c]
  else if (32 <=? c) && (c <=? 126) then [c]
  else [92; 48 + c / 64; 48 + c / 8 mod 8; 48 + c mod 8].
Definition write_bytes (s : str) : str := flat_map write_byte s.

(** * Specification of paths *)
Fixpoint split (s : str) : list str :=
  match s with
  | [] => [[]]
  | c :: t => if c =? SLASH then [] :: split t
              else match split t with h :: r => (c :: h) :: r | [] => [[c]] end
  end.
Definition nonempty (s : str) : bool := match s with [] => false | _ => true end.
(** The path components, empty ones dropped. *)
Definition comps (s : str) : list str := filter nonempty (split s).
Definition absolute (s : str) : bool := match s with c :: _ => c =? SLASH | [] => false end.
Definition seqb (a b : str) : bool := if list_eq_dec Z.eq_dec a b then true else false.
Definition dot : str := [DOT].
Definition dotdot : str := [DOT; DOT].
(** Components other than "." *)
Definition names (s : str) : list str := filter (fun c => negb (seqb c dot)) (comps s).
(** Lexical resolution: the stack of directories, innermost first. *)
Definition enter (abs : bool) (st : list str) (c : str) : list str :=
  if seqb c dot then st
  else if seqb c dotdot then
    match st with
    | [] => if abs then [] else [dotdot]
    | d :: t => if seqb d dotdot then dotdot :: st else t
    end
  else c :: st.
Definition resolve (abs : bool) (l : list str) : list str := fold_left (enter abs) l [].
(** Ends in exactly one dot. *)
Definition lone_dot (c : str) : Prop := c = dot \/ exists x e, c = x ++ [e; DOT] /\ e <> DOT.
(** [d] is the directory part of [p], up to and including the last slash; [t] the rest. *)
Definition dir_part (p d t : str) : Prop :=
  p = d ++ t /\ ~ In SLASH t /\ (d = [] \/ exists u, d = u ++ [SLASH]).
Definition no_double_slash (s : str) : Prop := forall a b, s <> a ++ SLASH :: SLASH :: b.

(** * Unescaping *)
Lemma isdigit_spec : forall c, isdigit c = true <-> is_dec c.
Proof. intros. unfold isdigit, is_dec. rewrite andb_true_iff, !Z.leb_le. lia. Qed.
Lemma isxdigit_spec : forall c, isxdigit c = true <-> is_hex c.
Proof.
  intros. unfold isxdigit, is_hex. rewrite !orb_true_iff, isdigit_spec, !andb_true_iff, !Z.leb_le. unfold is_dec. lia.
Qed.
Lemma isxdigit_f : forall c, isxdigit c = false <-> ~ is_hex c.
Proof. intros. rewrite <- isxdigit_spec. destruct (isxdigit c); split; congruence. Qed.
Lemma isdigit_f : forall c, isdigit c = false <-> ~ is_dec c.
Proof. intros. rewrite <- isdigit_spec. destruct (isdigit c); split; congruence. Qed.
Lemma xval_spec : forall c, is_hex c -> xval c = hex_digit c /\ 0 <= xval c < 16.
Proof.
  intros c H. unfold xval, hex_digit. destruct (isdigit c) eqn:D.
  - apply isdigit_spec in D. unfold is_dec in D. destruct (Z.leb_spec c 57); lia.
  - apply isdigit_f in D. unfold is_dec in D. unfold is_hex in H. destruct (Z.leb_spec c 57); [lia|]. destruct (Z.leb_spec c 70); lia.
Qed.

Lemma number_app : forall b f a c, number b f (a ++ [c]) = number b f a * b + f c.
Proof. intros. unfold number. rewrite fold_left_app. reflexivity. Qed.

(** Result of the skip loop on a maximal block of hex digits. *)
Lemma hexskip_block : forall ds s, Forall is_hex ds -> ~ starts is_hex s ->
  exists ds' : str, hexskip (ds ++ s) = ds' ++ s /\ (length ds' <= 2)%nat /\ (ds <> [] -> ds' <> []) /\
    Forall is_hex ds' /\ exists pre : str, ds = pre ++ ds' /\ (pre <> [] -> length ds' = 2%nat).
Proof.
  induction ds as [|a ds IH]; intros s F N.
  - exists []. simpl. split; [|split; [auto|split; [auto|split; [auto|exists []; split; [auto|congruence]]]]].
    destruct s as [|c [|d [|e s]]]; simpl; auto.
    replace (isxdigit c) with false; auto. symmetry. apply isxdigit_f. exact N.
  - inversion F as [|? ? Fa Fd]; subst. destruct (IH s Fd N) as (ds' & E & L & NE & F' & pre & P1 & P2).
    destruct ds as [|b ds].
    + exists [a]. split; [|split; [simpl; auto|split; [discriminate|split; [auto|exists []; split; [auto|congruence]]]]].
      simpl. destruct s as [|c [|d s]]; auto.
      replace (isxdigit c) with false; [rewrite andb_false_r; auto|]. symmetry. apply isxdigit_f. exact N.
    + destruct ds as [|c ds].
      * exists [a; b]. split; [|split; [simpl; auto|split; [discriminate|split; [auto|exists []; split; [auto|congruence]]]]].
        simpl. destruct s as [|c s]; auto.
        replace (isxdigit c) with false; [rewrite andb_false_r; auto|]. symmetry. apply isxdigit_f. exact N.
      * inversion Fd as [|? ? Fb Fd']; subst. inversion Fd' as [|? ? Fc Fd'']; subst.
        exists ds'. split; [|split; [auto|split; [intros _; apply NE; discriminate|split; [auto|]]]].
        -- rewrite <- E. cbn [app hexskip].
           rewrite (proj2 (isxdigit_spec a) Fa), (proj2 (isxdigit_spec b) Fb), (proj2 (isxdigit_spec c) Fc). reflexivity.
        -- exists (a :: pre). split; [simpl; congruence|]. intros _. destruct pre as [|x pre]; [|apply P2; discriminate].
           simpl in P1. subst ds'. simpl in *. lia.
Qed.

Lemma hexesc_block : forall ds s, ds <> [] -> Forall is_hex ds -> ~ starts is_hex s ->
  hexesc (ds ++ s) = (number 16 hex_digit ds mod 256, s).
Proof.
  intros ds s NE F N. destruct (hexskip_block ds s F N) as (ds' & E & L & NE' & F' & pre & P1 & P2).
  unfold hexesc. rewrite E. specialize (NE' NE). subst ds.
  destruct ds' as [|a [|b [|c ds']]]; [congruence| | |simpl in L; lia].
  - inversion F'; subst. simpl app. cbv iota. rewrite (proj2 (isxdigit_spec a) H1).
    assert (pre = []) by (destruct pre; auto; specialize (P2 ltac:(discriminate)); discriminate). subst pre.
    destruct (xval_spec a H1) as [X1 X2].
    replace (number 16 hex_digit ([] ++ [a])) with (xval a) by (simpl; rewrite X1; reflexivity).
    rewrite Z.mod_small by lia. destruct s as [|c s]; auto.
    replace (isxdigit c) with false; auto. symmetry. apply isxdigit_f. exact N.
  - inversion F' as [|? ? Fa F'']; subst. inversion F'' as [|? ? Fb _]; subst. simpl app. cbv iota.
    rewrite (proj2 (isxdigit_spec a) Fa), (proj2 (isxdigit_spec b) Fb). f_equal.
    replace (pre ++ [a; b]) with ((pre ++ [a]) ++ [b]) by (rewrite <- app_assoc; reflexivity).
    rewrite !number_app. destruct (xval_spec a Fa) as [-> _]. destruct (xval_spec b Fb) as [-> _].
    replace ((number 16 hex_digit pre * 16 + hex_digit a) * 16 + hex_digit b) with
      (hex_digit a * 16 + hex_digit b + number 16 hex_digit pre * 256) by ring.
    rewrite Z.mod_add by lia. reflexivity.
Qed.
Lemma hexesc_none : forall s, ~ starts is_hex s -> hexesc s = (0, s).
Proof.
  intros s N. destruct (hexskip_block [] s (Forall_nil _) N) as (ds' & E & _ & _ & _ & pre & P1 & _).
  symmetry in P1. apply app_eq_nil in P1. destruct P1 as [_ ->]. unfold hexesc. simpl in E. rewrite E.
  destruct s as [|c s]; auto. replace (isxdigit c) with false; auto. symmetry. apply isxdigit_f. exact N.
Qed.

Lemma octesc_block : forall a ds s, is_dec a -> Forall is_dec ds -> (length ds <= 2)%nat ->
  (length ds = 2%nat \/ ~ starts is_dec s) ->
  octesc a (ds ++ s) = (number 8 (fun c => c - 48) (a :: ds) mod 256, s).
Proof.
  intros a ds s Fa F L N. unfold octesc, number.
  assert (A : 0 <= a - 48 < 10) by (unfold is_dec in Fa; lia).
  destruct ds as [|b [|c [|d ds]]]; simpl app; simpl fold_left.
  - destruct N as [N|N]; [discriminate|]. rewrite (Z.mod_small (a - 48) 256) by lia. destruct s as [|b s]; [reflexivity|].
    replace (isdigit b) with false; auto. symmetry. apply isdigit_f. exact N.
  - destruct N as [N|N]; [discriminate|]. inversion F as [|? ? Fb _]; subst. rewrite (proj2 (isdigit_spec b) Fb).
    rewrite Zplus_mod_idemp_l.
    destruct s as [|c s]; [reflexivity|]. replace (isdigit c) with false; auto. symmetry. apply isdigit_f. exact N.
  - inversion F as [|? ? Fb F']; subst. inversion F' as [|? ? Fc _]; subst.
    rewrite (proj2 (isdigit_spec b) Fb), (proj2 (isdigit_spec c) Fc). f_equal.
    rewrite !Zplus_mod_idemp_l. rewrite <- (Zplus_mod_idemp_l (_ * 8)), Zmult_mod_idemp_l, Zplus_mod_idemp_l. f_equal; ring.
  - simpl in L. lia.
Qed.

Lemma is_dec_dec : forall c, {is_dec c} + {~ is_dec c}.
Proof. intros. destruct (isdigit c) eqn:E; [left; apply isdigit_spec|right; apply isdigit_f]; auto. Qed.
Lemma is_hex_dec : forall c, {is_hex c} + {~ is_hex c}.
Proof. intros. destruct (isxdigit c) eqn:E; [left; apply isxdigit_spec|right; apply isxdigit_f]; auto. Qed.

Lemma block_of : forall (P : Z -> Prop), (forall c, {P c} + {~ P c}) -> forall s,
  exists ds t, s = ds ++ t /\ Forall P ds /\ ~ starts P t.
Proof.
  intros P D. induction s as [|c s (ds & t & E & F & N)].
  - exists [], []. simpl. auto.
  - destruct (D c).
    + exists (c :: ds), t. subst. simpl. auto.
    + exists [], (c :: s). simpl. auto.
Qed.

(** The escape after a backslash, as the specification sees it. *)
Lemma escape1_dec : forall c s v r, escape1 c s = (v, r) -> (length r <= length s)%nat /\
  forall o, Dec r o -> Dec (92 :: c :: s) (v :: o).
Proof.
  intros c s v r H. unfold escape1 in H.
  assert (SIM : forall w, In (c, w) simple_escapes -> (w, s) = (v, r) ->
    (length r <= length s)%nat /\ forall o, Dec r o -> Dec (92 :: c :: s) (v :: o)).
  { intros w I E. injection E as <- <-. split; auto. intros o Ho. apply D_simple; auto. }
  destruct (Z.eqb_spec c 98) as [->|?]; [eapply SIM; eauto; simpl; tauto|].
  destruct (Z.eqb_spec c 102) as [->|?]; [eapply SIM; eauto; simpl; tauto|].
  destruct (Z.eqb_spec c 110) as [->|?]; [eapply SIM; eauto; simpl; tauto|].
  destruct (Z.eqb_spec c 114) as [->|?]; [eapply SIM; eauto; simpl; tauto|].
  destruct (Z.eqb_spec c 116) as [->|?]; [eapply SIM; eauto; simpl; tauto|].
  clear SIM. destruct (Z.eqb_spec c 120) as [->|?].
  - (* hex *)
    destruct (block_of is_hex is_hex_dec s) as (ds & t & -> & F & N). destruct ds as [|d ds].
    + simpl in H. rewrite hexesc_none in H by auto. injection H as <- <-. split; [simpl; lia|].
      intros o Ho. simpl. apply D_hex0; auto.
    + rewrite hexesc_block in H by (auto; discriminate). injection H as <- <-.
      split; [rewrite app_length; lia|]. intros o Ho. apply D_hex; auto. discriminate.
  - destruct (isdigit c) eqn:DC.
    + apply isdigit_spec in DC.
      assert (X : exists ds t, s = ds ++ t /\ Forall is_dec ds /\ (length ds <= 2)%nat /\ (length ds = 2%nat \/ ~ starts is_dec t)).
      { destruct s as [|b s]; [exists [], []; simpl; repeat split; auto; lia|]. destruct (is_dec_dec b) as [Db|Db].
        - destruct s as [|d s]; [exists [b], []; simpl; repeat split; auto; lia|]. destruct (is_dec_dec d) as [Dd|Dd].
          + exists [b; d], s. simpl. repeat split; auto; lia.
          + exists [b], (d :: s). simpl. repeat split; auto; lia.
        - exists [], (b :: s). simpl. repeat split; auto; lia. }
      destruct X as (ds & t & -> & F & L & N). rewrite octesc_block in H by auto. injection H as <- <-.
      split; [rewrite app_length; lia|]. intros o Ho.
      apply (D_oct (c :: ds) t o); auto; simpl; [lia|]. destruct N as [N|N]; auto.
    + apply isdigit_f in DC. injection H as <- <-. split; auto. intros o Ho. apply D_other; auto.
      simpl. intros X. repeat destruct X as [X|X]; try congruence; auto.
Qed.

Lemma unesc_dec : forall fuel s, (length s <= fuel)%nat -> exists o, unesc fuel s = Some o /\ Dec s o /\ (length o <= length s)%nat.
Proof.
  induction fuel as [|f IH]; intros s L.
  - destruct s; [|simpl in L; lia]. exists []. repeat split; auto. constructor.
  - destruct s as [|a [|c t]]; simpl unesc.
    + exists []. repeat split; auto. constructor.
    + exists [a]. repeat split; auto. destruct (Z.eq_dec a 92) as [->|N]; [apply D_last|]. apply D_plain; auto. constructor.
    + unfold BSLASH. destruct (Z.eqb_spec a 92) as [->|N].
      * destruct (escape1 c t) as [v r] eqn:E. destruct (escape1_dec _ _ _ _ E) as [Lr D].
        destruct (IH r) as (o & -> & Do & Lo); [simpl in L; lia|]. exists (v :: o). repeat split; auto. simpl. lia.
      * destruct (IH (c :: t)) as (o & -> & Do & Lo); [simpl in *; lia|]. exists (a :: o).
        split; auto. split; [apply D_plain; auto|]. simpl in *. lia.
Qed.

(** Conversely, whatever the specification allows is what is computed. *)
Lemma escape1_simple : forall c v s, In (c, v) simple_escapes -> escape1 c s = (v, s).
Proof. simpl. intros c v s H. repeat destruct H as [H|H]; try contradiction; injection H as <- <-; reflexivity. Qed.
Lemma escape1_digit : forall c s, is_dec c -> escape1 c s = octesc c s.
Proof.
  intros c s H. unfold escape1. rewrite (proj2 (isdigit_spec c) H). unfold is_dec in H.
  repeat match goal with |- (if ?a =? ?b then _ else _) = _ => destruct (Z.eqb_spec a b); [lia|] end. reflexivity.
Qed.
Lemma escape1_other : forall c s, ~ is_dec c -> c <> 120 -> ~ In c (map fst simple_escapes) -> escape1 c s = (c, s).
Proof.
  intros c s H X N. unfold escape1. simpl in N. rewrite (proj2 (isdigit_f c) H).
  repeat match goal with |- (if ?a =? ?b then _ else _) = _ => destruct (Z.eqb_spec a b); [exfalso; subst; tauto|] end. reflexivity.
Qed.
Lemma unesc_escape : forall f c t v r, escape1 c t = (v, r) ->
  unesc (S f) (92 :: c :: t) = option_map (cons v) (unesc f r).
Proof. intros. cbn [unesc]. change (92 =? BSLASH) with true. cbn iota. rewrite H. reflexivity. Qed.
Lemma dec_unesc : forall s o, Dec s o -> forall fuel, (length s <= fuel)%nat -> unesc fuel s = Some o.
Proof.
  induction 1; intros fuel L; try (destruct fuel as [|f]; [simpl in L; lia|]).
  - destruct fuel; reflexivity.
  - destruct s as [|d s].
    + inversion H0; subst. reflexivity.
    + cbn [unesc]. unfold BSLASH. destruct (Z.eqb_spec c 92); [congruence|]. rewrite IHDec by (simpl in *; lia). reflexivity.
  - reflexivity.
  - rewrite (unesc_escape _ _ _ _ _ (escape1_simple _ _ s H)), IHDec by (simpl in *; lia). reflexivity.
  - rewrite (unesc_escape f 120 _ _ _ (hexesc_block _ _ H H0 H1)).
    rewrite IHDec by (simpl in *; rewrite app_length in L; lia). reflexivity.
  - rewrite (unesc_escape f 120 _ _ _ (hexesc_none _ H)), IHDec by (simpl in *; lia). reflexivity.
  - destruct ds as [|d ds]; [simpl in *; lia|]. inversion H0; subst. simpl app.
    rewrite (unesc_escape f d (ds ++ s) (number 8 (fun c => c - 48) (d :: ds) mod 256) s).
    + rewrite IHDec by (simpl in *; rewrite app_length in L; lia). reflexivity.
    + rewrite escape1_digit by auto. apply octesc_block; auto; simpl in *; [lia|]. destruct H1; auto.
  - rewrite (unesc_escape _ _ _ _ _ (escape1_other _ s H H0 H1)), IHDec by (simpl in *; lia). reflexivity.
Qed.

Lemma unescape_correct : forall s o, unescape s = Some o <-> Dec s o.
Proof.
  intros s o. split; intros H.
  - destruct (unesc_dec (length s) s (le_n _)) as (o' & E & D & _). unfold unescape in H. congruence.
  - apply dec_unesc; auto.
Qed.
Lemma unescape_total : forall s, exists o, unescape s = Some o /\ (length o <= length s)%nat.
Proof. intros s. destruct (unesc_dec (length s) s (le_n _)) as (o & E & D & L). eauto. Qed.

Lemma write_byte_dec : forall c s o, 0 <= c < 256 -> Dec s o -> Dec (write_byte c ++ s) (c :: o).
Proof.
  intros c s o R D. unfold write_byte.
  destruct (Z.eqb_spec c 34) as [->|N1]; [apply D_other; auto; simpl; unfold is_dec; lia|].
  destruct (Z.eqb_spec c 92) as [->|N2]; [apply D_other; auto; simpl; unfold is_dec; lia|].
  simpl orb. cbn iota. destruct ((32 <=? c) && (c <=? 126)).
  - apply D_plain; auto.
  - pose proof (Z.div_mod c 8 ltac:(lia)). pose proof (Z.div_mod (c / 8) 8 ltac:(lia)).
    pose proof (Z.mod_pos_bound c 8 ltac:(lia)). pose proof (Z.mod_pos_bound (c / 8) 8 ltac:(lia)).
    rewrite Z.div_div in * by lia. change (8 * 8) with 64 in *.
    set (x := c / 64) in *. set (y := (c / 8) mod 8) in *. set (z := c mod 8) in *.
    assert (0 <= x < 4) by (subst x; split; [apply Z.div_pos; lia|apply Z.div_lt_upper_bound; lia]).
    replace c with (number 8 (fun c => c - 48) [48 + x; 48 + y; 48 + z] mod 256).
    + apply (D_oct [48 + x; 48 + y; 48 + z] s o); [cbn [length]; lia|repeat constructor; unfold is_dec; lia|auto|auto].
    + unfold number. cbn [fold_left]. rewrite Z.mod_small; clearbody x y z; lia.
Qed.
Lemma unescape_write : forall s, Forall (fun c => 0 <= c < 256) s -> unescape (write_bytes s) = Some s.
Proof.
  intros s F. apply unescape_correct. induction F; [constructor|]. apply write_byte_dec; auto.
Qed.
(** ** In place *)
Lemma skipn_skipn : forall (A : Type) n m (l : list A), skipn n (skipn m l) = skipn (m + n) l.
Proof. induction m; intros l; auto. destruct l; simpl; auto. destruct n; reflexivity. Qed.
Lemma upd_length : forall m i v, (i < length m)%nat -> length (upd m i v) = length m.
Proof. intros. unfold upd. rewrite app_length. cbn [length]. rewrite firstn_length, skipn_length. lia. Qed.
Lemma upd_skipn : forall m i v j, (i < j)%nat -> (i < length m)%nat -> skipn j (upd m i v) = skipn j m.
Proof.
  intros m i v j L H. unfold upd. rewrite skipn_app, firstn_length. replace (Nat.min i (length m)) with i by lia.
  rewrite (skipn_all2 (firstn i m)) by (rewrite firstn_length; lia). cbn [app].
  replace (j - i)%nat with (S (j - S i)) by lia. change (skipn (S (j - S i)) (v :: skipn (S i) m)) with (skipn (j - S i) (skipn (S i) m)). rewrite skipn_skipn. f_equal. lia.
Qed.
Lemma upd_firstn : forall m i v, (i < length m)%nat -> firstn (S i) (upd m i v) = firstn i m ++ [v].
Proof.
  intros m i v H. unfold upd. rewrite firstn_app, firstn_length. replace (Nat.min i (length m)) with i by lia.
  rewrite firstn_all2 by (rewrite firstn_length; lia). replace (S i - i)%nat with 1%nat by lia. reflexivity.
Qed.
Lemma hexskip_suffix : forall s, exists p, s = p ++ hexskip s.
Proof.
  induction s as [|a s [p IH]]; [exists []; reflexivity|].
  destruct s as [|b [|c t]]; try (exists []; reflexivity).
  change (hexskip (a :: b :: c :: t)) with (if isxdigit a && isxdigit b && isxdigit c then hexskip (b :: c :: t) else a :: b :: c :: t).
  destruct (_ && _ && _); [|exists []; reflexivity]. exists (a :: p). cbn [app]. rewrite <- IH. reflexivity.
Qed.
Lemma escape1_suffix : forall c s v r, escape1 c s = (v, r) -> exists p, s = p ++ r.
Proof.
  intros c s v r. unfold escape1.
  repeat match goal with |- (if c =? ?k then (?w, s) else _) = _ -> _ => destruct (c =? k); [intros [= <- <-]; exists []; reflexivity|] end.
  destruct (c =? 120).
  - unfold hexesc. destruct (hexskip_suffix s) as [p E]. destruct (hexskip s) as [|a t].
    + intros [= <- <-]. eauto.
    + destruct (isxdigit a); [|intros [= <- <-]; eauto]. destruct t as [|b t].
      * intros [= <- <-]. exists (p ++ [a]). rewrite <- app_assoc. exact E.
      * destruct (isxdigit b); intros [= <- <-].
        -- exists (p ++ [a; b]). rewrite <- app_assoc. exact E.
        -- exists (p ++ [a]). rewrite <- app_assoc. exact E.
  - destruct (isdigit c); [|intros [= <- <-]; exists []; reflexivity]. unfold octesc.
    destruct s as [|b t]; [intros [= <- <-]; exists []; reflexivity|].
    destruct (isdigit b); [|intros [= <- <-]; exists []; reflexivity].
    destruct t as [|d t]; [intros [= <- <-]; exists [b]; reflexivity|].
    destruct (isdigit d); intros [= <- <-]; [exists [b; d]|exists [b]]; reflexivity.
Qed.
Lemma skipn_suffix : forall (l p r : str), l = p ++ r -> skipn (length l - length r) l = r.
Proof. intros l p r ->. rewrite app_length. replace (length p + length r - length r)%nat with (length p) by lia. rewrite skipn_app, skipn_all, Nat.sub_diag. reflexivity. Qed.

Lemma unesc_mem_ok : forall f m s o out, (o <= s)%nat -> unesc f (skipn s m) = Some out ->
  exists m' n, unesc_mem f m s o = Some (m', n) /\ length m' = length m /\ firstn n m' = firstn o m ++ out.
Proof.
  induction f as [|f IH]; intros m s o out L H.
  - cbn [unesc unesc_mem] in *. destruct (skipn s m) as [|a t]; [|destruct t; discriminate].
    injection H as <-. exists m, o. rewrite app_nil_r. auto.
  - pose proof (skipn_length s m) as SL.
    cbn [unesc_mem]. destruct (skipn s m) as [|a t] eqn:E.
    + injection H as <-. exists m, o. rewrite app_nil_r. auto.
    + cbn [length] in SL. assert (OM : (o < length m)%nat) by lia.
      assert (SK : skipn (S s) m = t).
      { replace (S s) with (s + 1)%nat by lia. rewrite <- skipn_skipn, E. reflexivity. }
      assert (STEP : forall v q out', (o < q)%nat -> unesc f (skipn q m) = Some out' -> out = v :: out' ->
        exists m' n, unesc_mem f (upd m o v) q (S o) = Some (m', n) /\ length m' = length m /\ firstn n m' = firstn o m ++ out).
      { intros v q out' Q U ->. destruct (IH (upd m o v) q (S o) out') as (m' & n & X & Y & Z0).
        - lia.
        - rewrite upd_skipn by auto. exact U.
        - exists m', n. rewrite upd_length in Y by auto. rewrite upd_firstn, <- app_assoc in Z0 by auto. auto. }
      destruct t as [|c t'].
      * cbn [unesc] in H. injection H as <-. apply (STEP a (S s) []); auto; [lia|]. rewrite SK. destruct f; reflexivity.
      * cbn [unesc] in H. destruct (a =? BSLASH).
        -- destruct (escape1 c t') as [v r] eqn:X. destruct (unesc f r) as [out'|] eqn:U; [|discriminate].
           injection H as <-. destruct (escape1_suffix _ _ _ _ X) as [p P].
           apply (STEP v (length m - length r)%nat out'); auto.
           ++ subst t'. cbn [length] in SL. rewrite app_length in SL. lia.
           ++ rewrite <- U. f_equal. apply (skipn_suffix m (firstn s m ++ a :: c :: p)).
              rewrite <- app_assoc. cbn [app]. rewrite <- P, <- E. symmetry. apply firstn_skipn.
        -- destruct (unesc f (c :: t')) as [out'|] eqn:U; [|discriminate]. injection H as <-.
           apply (STEP a (S s) out'); auto; [lia|]. rewrite SK. exact U.
Qed.
Lemma in_place : forall m, exists m' n, unesc_mem (length m) m 0 0 = Some (m', n) /\ length m' = length m /\
  (n <= length m)%nat /\ Dec m (firstn n m').
Proof.
  intros m. destruct (unescape_total m) as (o & E & L).
  destruct (unesc_mem_ok (length m) m 0 0 o (le_n _) E) as (m' & n & X & Y & Z0). exists m', n.
  simpl in Z0. rewrite Z0. split; [auto|]. split; [auto|]. split; [|apply unescape_correct; auto].
  rewrite <- Z0 in L. rewrite firstn_length in L.
  assert (B : forall f m s o m' n, (o <= s)%nat -> (s <= length m)%nat -> unesc_mem f m s o = Some (m', n) -> (n <= length m)%nat).
  { clear. induction f as [|f IH]; intros m s o m' n A B H; cbn [unesc_mem] in H;
      pose proof (skipn_length s m) as SL; destruct (skipn s m) as [|a t].
    - injection H as <- <-. lia.
    - discriminate.
    - injection H as <- <-. lia.
    - cbn [length] in SL. assert (OM : (o < length m)%nat) by lia.
      destruct t as [|c t'].
      + apply IH in H; rewrite ?upd_length in * by auto; lia.
      + destruct (a =? BSLASH).
        * destruct (escape1 c t') as [v r] eqn:X. destruct (escape1_suffix _ _ _ _ X) as [p P]. subst t'. cbn [length] in SL. rewrite app_length in SL.
          apply IH in H; rewrite ?upd_length in * by auto; lia.
        * apply IH in H; rewrite ?upd_length in * by auto; lia. }
  eapply B; [| |exact X]; lia.
Qed.

(** * Path components *)
Lemma split_nonnil : forall s, split s <> [].
Proof. destruct s as [|c t]; simpl; [discriminate|]. destruct (c =? SLASH); [discriminate|]. destruct (split t); discriminate. Qed.
Lemma split_app_slash : forall a b, split (a ++ SLASH :: b) = split a ++ split b.
Proof.
  induction a as [|c a IH]; intros b; simpl.
  - reflexivity.
  - destruct (c =? SLASH); rewrite IH; auto. destruct (split a) eqn:E; [destruct (split_nonnil a E)|reflexivity].
Qed.
Lemma comps_app_slash : forall a b, comps (a ++ SLASH :: b) = comps a ++ comps b.
Proof. intros. unfold comps. rewrite split_app_slash. apply filter_app. Qed.
Lemma comps_slash_end : forall a, comps (a ++ [SLASH]) = comps a.
Proof. intros. rewrite comps_app_slash. apply app_nil_r. Qed.
Lemma split_word : forall c, ~ In SLASH c -> split c = [c].
Proof.
  induction c as [|x c IH]; intros N; simpl; auto. simpl in N.
  destruct (Z.eqb_spec x SLASH); [exfalso; apply N; auto|]. rewrite IH; auto.
Qed.
Lemma comps_word : forall c, ~ In SLASH c -> c <> [] -> comps c = [c].
Proof. intros c N NE. unfold comps. rewrite split_word by auto. destruct c; [congruence|reflexivity]. Qed.

Lemma to_slash_spec : forall r, match to_slash r with
  | None => ~ In SLASH r
  | Some r' => exists t u, r = t ++ r' /\ ~ In SLASH t /\ r' = SLASH :: u
  end.
Proof.
  induction r as [|c r IH]; simpl; auto. destruct (Z.eqb_spec c SLASH).
  - subst. exists [], r. simpl. auto.
  - destruct (to_slash r).
    + destruct IH as (t & u & E & N & E2). exists (c :: t), u. subst. simpl. split; auto. split; auto. intros [X|X]; auto.
    + intros [X|X]; auto.
Qed.

Lemma rev_cons2 : forall (a b : Z) t, rev (a :: b :: t) = rev t ++ [b; a].
Proof. intros. simpl. rewrite <- app_assoc. reflexivity. Qed.

Lemma absolute_app : forall a b, a <> [] -> absolute (a ++ b) = absolute a.
Proof. intros [|x a] b H; [congruence|reflexivity]. Qed.

Lemma seqb_spec : forall a b, reflect (a = b) (seqb a b).
Proof. intros. unfold seqb. destruct (list_eq_dec Z.eq_dec a b); constructor; auto. Qed.

(** Components ending in one dot after something else *)
Definition bad (c : str) : Prop := exists x e, c = x ++ [e; DOT] /\ e <> DOT.

Lemma word_end : forall u e, e <> SLASH -> exists x w, comps (u ++ [e; DOT; SLASH]) = w ++ [x ++ [e; DOT]].
Proof.
  intros u e NE. destruct (to_slash (rev u)) as [r'|] eqn:T; pose proof (to_slash_spec (rev u)) as S; rewrite T in S.
  - destruct S as (t & v & E & N & E2). subst r'.
    assert (U : u = rev v ++ SLASH :: rev t) by (rewrite <- (rev_involutive u), E, rev_app_distr; simpl; rewrite <- app_assoc; reflexivity).
    exists (rev t), (comps (rev v)). rewrite U, <- app_assoc. simpl. rewrite comps_app_slash. f_equal.
    change (rev t ++ [e; DOT; SLASH]) with (rev t ++ [e; DOT] ++ [SLASH]). rewrite app_assoc, comps_slash_end. apply comps_word.
    + intros X. apply in_app_or in X. destruct X as [X|[X|[X|[]]]]; auto; [|discriminate]. apply in_rev in X. auto.
    + destruct (rev t); discriminate.
  - exists u, []. simpl. change (u ++ [e; DOT; SLASH]) with (u ++ [e; DOT] ++ [SLASH]). rewrite app_assoc, comps_slash_end. apply comps_word.
    + intros X. apply in_app_or in X. destruct X as [X|[X|[X|[]]]]; auto; [|discriminate]. apply -> in_rev in X. auto.
    + destruct u; discriminate.
Qed.

Lemma strip_dots_n : forall n r, (length r <= n)%nat -> Forall (fun c => ~ bad c) (comps (rev r)) -> (exists t, r = SLASH :: t) ->
  names (rev (strip_dots r)) = names (rev r) /\ absolute (rev (strip_dots r)) = absolute (rev r) /\
  (strip_dots r = [] \/ exists t, strip_dots r = SLASH :: t).
Proof.
  induction n as [|n IH]; intros r L F [t0 E]; [subst; simpl in L; lia|].
  subst. destruct t0 as [|d t]; [simpl; eauto|]. cbn [strip_dots].
  destruct (Z.eqb_spec d DOT) as [->|N]; [|simpl; eauto]. rewrite Z.eqb_refl. simpl andb.
  destruct t as [|e t].
  - simpl. repeat split; auto.
  - destruct (Z.eqb_spec e DOT) as [->|NE]; simpl negb; cbv iota; [eauto|].
    assert (R : rev (SLASH :: DOT :: e :: t) = rev t ++ [e; DOT; SLASH]) by (simpl; rewrite <- !app_assoc; reflexivity).
    destruct (Z.eq_dec e SLASH) as [->|NS].
    + assert (C : comps (rev (SLASH :: DOT :: SLASH :: t)) = comps (rev t) ++ [dot]).
      { rewrite R. change [SLASH; DOT; SLASH] with (SLASH :: [DOT] ++ [SLASH]). rewrite comps_app_slash, comps_slash_end. reflexivity. }
      assert (C2 : comps (rev (SLASH :: t)) = comps (rev t)) by (simpl; apply comps_slash_end).
      destruct (IH (SLASH :: t)) as (I1 & I2 & I3).
      * simpl in *. lia.
      * rewrite C2. rewrite C in F. apply Forall_app in F. apply F.
      * eauto.
      * split; [|split]; auto.
        -- rewrite I1. unfold names. rewrite C, C2, filter_app. simpl. rewrite app_nil_r. reflexivity.
        -- rewrite I2, R. simpl. destruct (rev t); reflexivity.
    + exfalso. rewrite R in F. destruct (word_end (rev t) e NS) as (x & w & W). rewrite W in F.
      apply Forall_app in F. destruct F as [_ F]. inversion F; subst. apply H1. exists x, e. auto.
Qed.
Lemma strip_slashes_cons : forall c d r, strip_slashes (c :: d :: r) = if c =? SLASH then strip_slashes (d :: r) else c :: d :: r.
Proof. reflexivity. Qed.
Lemma strip_slashes_ok : forall r, names (rev (strip_slashes r)) = names (rev r) /\
  comps (rev (strip_slashes r)) = comps (rev r) /\
  absolute (rev (strip_slashes r)) = absolute (rev r) /\
  match strip_slashes r with c :: _ :: _ => c <> SLASH | _ => True end.
Proof.
  induction r as [|c r IH]; [simpl; auto|]. destruct r as [|d r]; [simpl; auto|].
  rewrite strip_slashes_cons. destruct (Z.eqb_spec c SLASH); [|auto].
  subst. destruct IH as (I1 & I2 & I3 & I4).
  assert (C : comps (rev (SLASH :: d :: r)) = comps (rev (d :: r))) by (apply (comps_slash_end (rev (d :: r)))).
  split; [|split; [|split]]; auto.
  - rewrite I1. unfold names. rewrite C. reflexivity.
  - rewrite I2. auto.
  - rewrite I3. simpl. destruct (rev r); reflexivity.
Qed.
Lemma strip_prefix : forall r, exists t, r = t ++ strip_slashes (strip_dots r).
Proof.
  assert (D : forall n r, (length r <= n)%nat -> exists t, r = t ++ strip_dots r).
  { induction n; intros r L.
    - destruct r; [exists []; reflexivity|simpl in L; lia].
    - destruct r as [|c [|d r]]; try (exists []; reflexivity). cbn [strip_dots].
      destruct (_ && _); [|exists []; reflexivity]. destruct (IHn r) as [t E]; [simpl in L; lia|].
      exists (c :: d :: t). simpl. rewrite <- E. reflexivity. }
  assert (S : forall r, exists t, r = t ++ strip_slashes r).
  { induction r as [|c r [t E]]; [exists []; reflexivity|]. destruct r; [exists []; reflexivity|].
    rewrite strip_slashes_cons. destruct (c =? SLASH); [|exists []; reflexivity]. exists (c :: t). cbn [app]. rewrite <- E. reflexivity. }
  intros r. destruct (D _ r (le_n _)) as [t1 E1]. destruct (S (strip_dots r)) as [t2 E2].
  exists (t1 ++ t2). rewrite <- app_assoc, <- E2. exact E1.
Qed.

(** What splitpath computes, on the directory part. *)
Lemma splitpath_dir : forall p d t, dir_part p d t -> exists n, splitpath p = (Z.of_nat n, t) /\
  firstn n p = (match rev d with [] => [] | r => rev (strip_slashes (strip_dots r)) end) /\ (n <= length d)%nat.
Proof.
  intros p d t (E & N & D). subst. unfold splitpath. rewrite rev_app_distr.
  assert (T : to_slash (rev t ++ rev d) = match rev d with [] => None | r => Some r end).
  { assert (NR : ~ In SLASH (rev t)) by (intros X; apply in_rev in X; auto). clear N.
    induction (rev t) as [|c l IH]; simpl in *.
    - destruct D as [->|[u ->]]; simpl; auto. rewrite rev_app_distr. simpl. reflexivity.
    - destruct (Z.eqb_spec c SLASH); [exfalso; auto|]. apply IH. auto. }
  rewrite T. destruct (rev d) as [|c r] eqn:R.
  - exists 0%nat. assert (d = []) by (rewrite <- (rev_involutive d), R; reflexivity). subst. simpl. auto.
  - set (h := strip_slashes (strip_dots (c :: r))). exists (length h).
    destruct (strip_prefix (c :: r)) as [q Q]. fold h in Q.
    assert (DD : d = rev h ++ rev q) by (rewrite <- (rev_involutive d), R, Q, rev_app_distr; reflexivity).
    assert (LD : length (c :: r) = length d) by (rewrite <- R, rev_length; reflexivity).
    split; [|split].
    + f_equal. rewrite LD. rewrite skipn_app, skipn_all, Nat.sub_diag. reflexivity.
    + rewrite DD, <- app_assoc. replace (length h) with (length (rev h)) by apply rev_length.
      rewrite firstn_app, firstn_all, Nat.sub_diag. simpl. apply app_nil_r.
    + rewrite DD, app_length, rev_length. lia.
Qed.
Lemma dir_rev : forall d, (d = [] \/ exists u, d = u ++ [SLASH]) -> rev d = [] \/ exists t, rev d = SLASH :: t.
Proof. intros d [->|[u ->]]; auto. right. rewrite rev_app_distr. simpl. eauto. Qed.

Lemma split_correct : forall p d t, dir_part p d t -> Forall (fun c => ~ bad c) (comps d) ->
  exists n, splitpath p = (Z.of_nat n, t) /\ (n <= length d)%nat /\
    names (firstn n p) = names d /\ absolute (firstn n p) = absolute d /\
    (forall u c, firstn n p = u ++ [c; SLASH] -> False).
Proof.
  intros p d t D F. destruct (splitpath_dir p d t D) as (n & E & H & L). exists n. split; auto. split; auto.
  destruct D as (_ & _ & DD). apply dir_rev in DD. destruct DD as [R|[r R]].
  - rewrite R in H. assert (d = []) by (rewrite <- (rev_involutive d), R; reflexivity). subst d.
    rewrite H. repeat split; auto. intros u c X. destruct u; discriminate.
  - rewrite R in H. rewrite H.
    assert (DR : rev (SLASH :: r) = d) by (rewrite <- R; apply rev_involutive).
    destruct (strip_dots_n _ (SLASH :: r) (le_n _)) as (I1 & I2 & I3); [rewrite DR; auto|eauto|].
    destruct (strip_slashes_ok (strip_dots (SLASH :: r))) as (J1 & _ & J3 & J4).
    split; [congruence|]. split; [congruence|]. intros u c X.
    set (h := strip_slashes (strip_dots (SLASH :: r))) in *.
    assert (HR : h = SLASH :: c :: rev u) by (rewrite <- (rev_involutive h), X, rev_app_distr; reflexivity).
    rewrite HR in J4. congruence.
Qed.

(** * Combination *)
Lemma dedup_cons : forall c d s, dedup (c :: d :: s) = if (c =? SLASH) && (d =? SLASH) then dedup (d :: s) else c :: dedup (d :: s).
Proof. reflexivity. Qed.
Lemma dedup_split : forall s, hd [] (split (dedup s)) = hd [] (split s) /\
  filter nonempty (tl (split (dedup s))) = filter nonempty (tl (split s)) /\ hd_error (dedup s) = hd_error s.
Proof.
  induction s as [|c s IH]; [simpl; auto|]. destruct s as [|d s]; [simpl; auto|].
  destruct IH as (I1 & I2 & I3). rewrite dedup_cons.
  destruct (Z.eqb_spec c SLASH) as [->|N]; simpl andb; cbv iota.
  - destruct (Z.eqb_spec d SLASH) as [->|N2].
    + split; [|split]; auto.
    + split; [|split]; auto. cbn [split]. rewrite Z.eqb_refl. cbn [tl]. cbn [split] in I1, I2.
      destruct (Z.eqb_spec d SLASH); [congruence|].
      destruct (split (dedup (d :: s))) as [|h r] eqn:E; [destruct (split_nonnil _ E)|].
      destruct (split s) as [|h' r'] eqn:E'; [destruct (split_nonnil _ E')|]. cbn [hd tl] in I1, I2. subst h.
      simpl filter. rewrite I2. reflexivity.
  - remember (d :: s) as l. cbn [split]. destruct (Z.eqb_spec c SLASH); [congruence|].
    destruct (split (dedup l)) as [|h r] eqn:E; [destruct (split_nonnil _ E)|].
    destruct (split l) as [|h' r'] eqn:E'; [destruct (split_nonnil _ E')|]. cbn [hd tl] in *. subst h. auto.
Qed.
Lemma dedup_comps : forall s, comps (dedup s) = comps s.
Proof.
  intros s. destruct (dedup_split s) as (I1 & I2 & _). unfold comps.
  destruct (split (dedup s)) as [|h r] eqn:E; [destruct (split_nonnil _ E)|].
  destruct (split s) as [|h' r'] eqn:E'; [destruct (split_nonnil _ E')|]. cbn [hd tl] in *. subst. simpl. rewrite I2. reflexivity.
Qed.
Lemma dedup_hd : forall s, hd_error (dedup s) = hd_error s.
Proof. intros. apply dedup_split. Qed.
Lemma dedup_absolute : forall s, absolute (dedup s) = absolute s.
Proof. intros s. pose proof (dedup_hd s). destruct (dedup s), s; simpl in *; congruence. Qed.
Lemma dedup_length : forall s, (length (dedup s) <= length s)%nat.
Proof.
  induction s as [|c s IH]; [simpl; auto|]. destruct s as [|d s]; [simpl; auto|].
  rewrite dedup_cons. destruct (_ && _); cbn [length] in *; lia.
Qed.
Lemma nds_nil : no_double_slash [].
Proof. intros [|? a] b; discriminate. Qed.
Lemma nds_cons : forall c s, no_double_slash s -> (c = SLASH -> hd_error s <> Some SLASH) -> no_double_slash (c :: s).
Proof.
  intros c s N H [|x a] b X.
  - simpl in X. injection X as -> X. subst s. apply H; auto.
  - injection X as -> X. exact (N a b X).
Qed.
Lemma nds_tl : forall c s, no_double_slash (c :: s) -> no_double_slash s /\ (c = SLASH -> hd_error s <> Some SLASH).
Proof.
  intros c s N. split.
  - intros a b X. apply (N (c :: a) b). rewrite X. reflexivity.
  - intros -> X. destruct s as [|y s]; [discriminate|]. injection X as ->. apply (N [] s). reflexivity.
Qed.
Lemma nds_app_l : forall a b, no_double_slash (a ++ b) -> no_double_slash a.
Proof. intros a b N x y E. apply (N x (y ++ b)). rewrite E, <- app_assoc. reflexivity. Qed.
Lemma nds_app_r : forall a b, no_double_slash (a ++ b) -> no_double_slash b.
Proof. intros a b N x y E. apply (N (a ++ x) y). rewrite E, app_assoc. reflexivity. Qed.
Lemma nds_rev : forall s, no_double_slash s -> no_double_slash (rev s).
Proof.
  intros s N a b E. apply (N (rev b) (rev a)).
  rewrite <- (rev_involutive s), E, rev_app_distr. simpl. rewrite <- !app_assoc. reflexivity.
Qed.
Lemma nds_app : forall a b, no_double_slash a -> no_double_slash b -> hd_error b <> Some SLASH -> no_double_slash (a ++ b).
Proof.
  induction a as [|c a IH]; intros b Na Nb H; auto. apply nds_tl in Na. destruct Na as [Na Hc].
  simpl. apply nds_cons; auto. intros ->. specialize (Hc eq_refl). destruct a; auto.
Qed.
Lemma dedup_nds : forall s, no_double_slash (dedup s).
Proof.
  induction s as [|c s IH]; [apply nds_nil|]. destruct s as [|d s].
  - simpl. apply nds_cons; [apply nds_nil|discriminate].
  - rewrite dedup_cons. destruct (Z.eqb_spec c SLASH); simpl andb; cbv iota.
    + destruct (Z.eqb_spec d SLASH); auto. apply nds_cons; auto. rewrite dedup_hd. simpl. congruence.
    + apply nds_cons; [auto|congruence].
Qed.

Lemma skip_slashes_ok : forall s, comps (skip_slashes s) = comps s /\ (length (skip_slashes s) <= length s)%nat /\
  hd_error (skip_slashes s) <> Some SLASH.
Proof.
  induction s as [|c s IH]; simpl.
  - split; [auto|split; [auto|discriminate]].
  - destruct (Z.eqb_spec c SLASH); subst.
    + destruct IH as (I1 & I2 & I3). split; [|split]; auto.
    + split; [auto|split; [simpl; auto|simpl; congruence]].
Qed.

Lemma to_slash0_spec : forall r, exists t, r = t ++ to_slash0 r /\ ~ In SLASH t /\ (to_slash0 r = [] \/ exists u, to_slash0 r = SLASH :: u).
Proof.
  induction r as [|c r IH]; simpl.
  - exists []. auto.
  - destruct (Z.eqb_spec c SLASH).
    + subst. exists []. simpl. split; [auto|split; [auto|right; eauto]].
    + destruct IH as (t & E & N & D). exists (c :: t). simpl. rewrite <- E. split; auto. split; auto. intros [X|X]; auto.
Qed.

(** Text that is empty or ends in a slash (in reverse: starts with it). *)
Definition at_slash (r : str) : Prop := r = [] \/ exists t, r = SLASH :: t.
Lemma comps_at : forall r s, at_slash r -> comps (rev r ++ s) = comps (rev r) ++ comps s.
Proof.
  intros r s [->|[t ->]]; auto. simpl. rewrite <- app_assoc. simpl. rewrite comps_app_slash, comps_slash_end. reflexivity.
Qed.
Lemma pop_ok : forall y t, no_double_slash (SLASH :: y :: t) -> exists u, ~ In SLASH u /\ u <> [] /\
  SLASH :: y :: t = SLASH :: u ++ pop (SLASH :: y :: t) /\ at_slash (pop (SLASH :: y :: t)) /\
  no_double_slash (pop (SLASH :: y :: t)) /\
  absolute (rev (pop (SLASH :: y :: t))) = absolute (rev (SLASH :: y :: t)) /\
  comps (rev (SLASH :: y :: t)) = comps (rev (pop (SLASH :: y :: t))) ++ [rev u].
Proof.
  intros y t N. cbn [pop]. apply nds_tl in N. destruct N as [N H]. specialize (H eq_refl).
  destruct (to_slash0_spec (y :: t)) as (u & E & Nu & D).
  set (q := to_slash0 (y :: t)) in *. clearbody q. exists u.
  assert (U : u <> []).
  { intros ->. simpl in E. subst q. destruct D as [D|[v D]]; [discriminate|]. injection D as -> D. apply H; reflexivity. }
  assert (R : rev (SLASH :: y :: t) = rev q ++ rev u ++ [SLASH]) by (rewrite E; simpl; rewrite rev_app_distr, <- app_assoc; reflexivity).
  assert (Nr : ~ In SLASH (rev u)) by (intros X; apply in_rev in X; auto).
  assert (Ur : rev u <> []) by (intros X; apply U; rewrite <- (rev_involutive u), X; reflexivity).
  split; [auto|]. split; [auto|]. split; [rewrite <- E; auto|]. split; [exact D|].
  split; [rewrite E in N; exact (nds_app_r _ _ N)|].
  rewrite R. split.
  - destruct D as [->|[v ->]].
    + simpl. destruct (rev u) as [|a l]; [congruence|]. simpl in *. destruct (Z.eqb_spec a SLASH); [exfalso; auto|reflexivity].
    + simpl. symmetry. rewrite <- app_assoc. destruct (rev v); reflexivity.
  - rewrite (comps_at q) by exact D. rewrite comps_slash_end, (comps_word (rev u)); auto.
Qed.

Lemma resolve_app : forall a x y, resolve a (x ++ y) = fold_left (enter a) y (resolve a x).
Proof. intros. unfold resolve. apply fold_left_app. Qed.
Lemma resolve_names : forall a l st, fold_left (enter a) (filter (fun c => negb (seqb c dot)) l) st = fold_left (enter a) l st.
Proof.
  induction l as [|c l IH]; intros st; simpl; auto.
  unfold enter at 2. destruct (seqb c dot) eqn:E; simpl; auto. unfold enter at 2. rewrite E. auto.
Qed.
(** Entering a directory and leaving it again. *)
Lemma enter_back : forall a st c, c <> dot -> c <> dotdot -> enter a (enter a st c) dotdot = st.
Proof.
  intros a st c N1 N2. unfold enter at 2. destruct (seqb_spec c dot); [congruence|]. destruct (seqb_spec c dotdot); [congruence|].
  unfold enter. change (seqb dotdot dot) with false. change (seqb dotdot dotdot) with true. cbv iota.
  destruct (seqb_spec c dotdot); congruence.
Qed.
Lemma comps_dot : forall t, comps (DOT :: SLASH :: t) = dot :: comps t.
Proof. intros. apply (comps_app_slash [DOT] t). Qed.
Lemma comps_dotdot : forall t, comps (DOT :: DOT :: SLASH :: t) = dotdot :: comps t.
Proof. intros. apply (comps_app_slash [DOT; DOT] t). Qed.
Lemma names_comps : forall s t, comps s = comps t -> names s = names t.
Proof. intros s t E. unfold names. rewrite E. reflexivity. Qed.

Definition safe (r to : str) : Prop :=
  Forall (fun c => c <> dot) (comps (rev r)) \/ hd_error (names to) <> Some dotdot.

Definition walk_post (r to r' to' : str) : Prop :=
  at_slash r' /\ no_double_slash r' /\ hd_error to' <> Some SLASH /\
  (length r' + length to' <= length r + length to)%nat /\
  (safe r to -> absolute (rev r') = absolute (rev r) /\
    resolve (absolute (rev r)) (comps (rev r') ++ comps to') = resolve (absolute (rev r)) (comps (rev r) ++ comps to)).

Lemma walk_ok : forall f r to, (length to < f)%nat -> at_slash r -> no_double_slash r -> hd_error to <> Some SLASH ->
  exists r' to', walk f r to = Some (r', to') /\ walk_post r to r' to'.
Proof.
  induction f as [|f IH]; intros r to L A N H; [lia|].
  assert (STOP : exists r' to', Some (r, to) = Some (r', to') /\ walk_post r to r' to').
  { exists r, to. split; auto. unfold walk_post. repeat split; auto. }
  destruct to as [|a [|b t]]; [exact STOP|exact STOP|].
  cbn [walk]. destruct (Z.eqb_spec a DOT) as [->|Na]; simpl andb; cbv iota.
  2: { destruct r; [exact STOP|]. destruct t; exact STOP. }
  destruct (Z.eqb_spec b SLASH) as [->|Nb]; cbv iota.
  - destruct (skip_slashes_ok t) as (S1 & S2 & S3).
    destruct (IH r (skip_slashes t)) as (r' & to' & E & P1 & P2 & P3 & P4 & P5); auto.
    { cbn [length] in *. lia. }
    exists r', to'. split; auto. unfold walk_post. split; [auto|]. split; [auto|]. split; [auto|].
    split; [cbn [length] in *; lia|]. intros SF. destruct P5 as [Q1 Q2].
    { destruct SF as [SF|SF]; [left; auto|right]. intros X. apply SF. rewrite <- X. unfold names. rewrite comps_dot, S1. reflexivity. }
    split; auto. rewrite Q2, S1, comps_dot, !resolve_app. reflexivity.
  - destruct r as [|x r]; [exact STOP|]. destruct t as [|c t]; [exact STOP|].
    destruct (Z.eqb_spec b DOT) as [->|Nb2]; [|exact STOP]. simpl andb. destruct (Z.eqb_spec c SLASH) as [->|Nc]; [|exact STOP].
    destruct (skip_slashes_ok t) as (S1 & S2 & S3).
    assert (STEP : x = SLASH -> (forall z, r = DOT :: DOT :: z -> False) ->
      exists r' to', walk f (pop (x :: r)) (skip_slashes t) = Some (r', to') /\ walk_post (x :: r) (DOT :: DOT :: SLASH :: t) r' to').
    { intros -> ND. destruct r as [|y r].
      - cbn [pop]. destruct (IH [SLASH] (skip_slashes t)) as (r' & to' & E & P1 & P2 & P3 & P4 & P5); auto.
        { cbn [length] in *. lia. }
        exists r', to'. split; auto. unfold walk_post. split; [auto|]. split; [auto|]. split; [auto|].
        split; [cbn [length] in *; lia|]. intros _. destruct P5 as [Q1 Q2]; [left; constructor|].
        split; auto. rewrite Q2, S1, comps_dotdot. reflexivity.
      - destruct (pop_ok y r N) as (u & U1 & U2 & U3 & U4 & U5 & U6 & U7).
        set (q := pop (SLASH :: y :: r)) in *. clearbody q.
        destruct (IH q (skip_slashes t)) as (r' & to' & E & P1 & P2 & P3 & P4 & P5); auto.
        { cbn [length] in *. lia. }
        assert (LQ : (length q <= length (SLASH :: y :: r))%nat) by (rewrite U3; cbn [length]; rewrite app_length; lia).
        exists r', to'. split; auto. unfold walk_post. split; [auto|]. split; [auto|]. split; [auto|].
        split; [cbn [length] in *; lia|].
        intros [SF|SF].
        2: { exfalso. apply SF. unfold names. rewrite comps_dotdot. reflexivity. }
        rewrite U7 in SF. apply Forall_app in SF. destruct SF as [SF1 SF2]. inversion SF2 as [|? ? SF3 _]; subst.
        destruct P5 as [Q1 Q2]; [left; auto|]. split; [congruence|].
        rewrite <- U6, Q2, U7, S1, comps_dotdot, !resolve_app. simpl. rewrite enter_back; auto.
        intros X. assert (u = [DOT; DOT]) by (rewrite <- (rev_involutive u), X; reflexivity). subst u.
        injection U3 as -> U3. apply (ND (q)). rewrite U3. reflexivity. }
    destruct A as [A|[tt A]]; [discriminate|]. injection A as -> _.
    destruct r as [|y [|z r]].
    + apply STEP; auto. intros z X; discriminate.
    + apply STEP; auto. intros z X; discriminate.
    + cbn [Z.eqb]. rewrite Z.eqb_refl. simpl andb. destruct (Z.eqb_spec y DOT) as [->|Ny].
      * destruct (Z.eqb_spec z DOT) as [->|Nz]; [exact STOP|]. apply STEP; auto. intros v X; congruence.
      * apply STEP; auto. intros v X; congruence.
Qed.

(** ** The base directory *)
Definition dots (k : nat) : str := concat (repeat [DOT; SLASH] k).
Lemma strip_dots_dots : forall k e, at_slash e -> strip_dots (rev (dots k) ++ e) = strip_dots e.
Proof.
  assert (R : forall k, rev (dots k) = concat (repeat [SLASH; DOT] k)).
  { induction k; auto. unfold dots in *. simpl. rewrite IHk. rewrite <- app_assoc. simpl.
    clear IHk. induction k; simpl; auto. rewrite IHk. reflexivity. }
  intros k e A. rewrite R. clear R. induction k as [|k IH]; auto. simpl. rewrite IH.
  assert (Q : negb match concat (repeat [SLASH; DOT] k) ++ e with e0 :: _ => e0 =? DOT | [] => false end = true).
  { destruct k; simpl; auto. destruct A as [->|[t ->]]; reflexivity. }
  rewrite Q. reflexivity.
Qed.
Lemma strip_dots_id : forall r, at_slash r -> Forall (fun c => ~ lone_dot c) (comps (rev r)) -> strip_dots r = r.
Proof.
  intros r [->|[t ->]] F; auto. destruct t as [|d t]; auto. cbn [strip_dots].
  destruct (Z.eqb_spec d DOT) as [->|Nd]; auto. rewrite Z.eqb_refl. simpl andb.
  destruct t as [|e t].
  - exfalso. simpl in F. unfold comps in F. simpl in F. inversion F; subst. apply H1. left. reflexivity.
  - destruct (Z.eqb_spec e DOT) as [->|Ne]; auto. exfalso.
    assert (R : rev (SLASH :: DOT :: e :: t) = rev t ++ [e; DOT; SLASH]) by (simpl; rewrite <- !app_assoc; reflexivity).
    rewrite R in F. destruct (Z.eq_dec e SLASH) as [->|Ns].
    + change [SLASH; DOT; SLASH] with (SLASH :: [DOT] ++ [SLASH]) in F. rewrite comps_app_slash, comps_slash_end in F.
      apply Forall_app in F. destruct F as [_ F]. inversion F; subst. apply H1. left. reflexivity.
    + destruct (word_end (rev t) e Ns) as (x & w & W). rewrite W in F. apply Forall_app in F. destruct F as [_ F].
      inversion F; subst. apply H1. right. eauto.
Qed.
Lemma dots_comps : forall k, comps (dots k) = repeat dot k.
Proof. induction k; auto. change (dots (S k)) with (DOT :: SLASH :: dots k). rewrite comps_dot, IHk. reflexivity. Qed.
Lemma rev_at : forall e, (e = [] \/ exists u, e = u ++ [SLASH]) -> at_slash (rev e).
Proof. intros e [->|[u ->]]; [left; auto|right]. rewrite rev_app_distr. simpl. eauto. Qed.

(** The base is taken apart faithfully: either no component is ".", apart from a run of "./" at
    the end, or the appended path does not begin by climbing. *)
Definition base_ok (d to : str) : Prop :=
  (exists e k, d = e ++ dots k /\ (e = [] \/ exists u, e = u ++ [SLASH]) /\ Forall (fun c => ~ lone_dot c) (comps e)) \/
  (Forall (fun c => ~ bad c) (comps d) /\ hd_error (names to) <> Some dotdot).

Lemma head_ok : forall from d t to, dir_part from d t -> base_ok d to ->
  exists n, splitpath from = (Z.of_nat n, t) /\ names (firstn n from) = names d /\ absolute (firstn n from) = absolute d /\
    (Forall (fun c => c <> dot) (comps (firstn n from)) \/ hd_error (names to) <> Some dotdot).
Proof.
  intros from d t to D B.
  assert (F : Forall (fun c => ~ bad c) (comps d)).
  { destruct B as [(e & k & E & A & F)|[F _]]; auto. subst d.
    apply rev_at in A. pose proof (comps_at (rev e) (dots k) A) as C. rewrite rev_involutive in C. rewrite C, dots_comps.
    apply Forall_app. split.
    - eapply Forall_impl; [|exact F]. intros c X Y. apply X. right. exact Y.
    - apply Forall_forall. intros c I. apply repeat_spec in I. subst. intros (x & y & X & _).
      apply (f_equal (@length Z)) in X. rewrite app_length in X. simpl in X. lia. }
  destruct (split_correct from d t D F) as (n & E & L & I1 & I2 & _). exists n.
  split; [auto|]. split; [auto|]. split; [auto|].
  destruct B as [(e & k & E2 & A & F2)|[_ H]]; [left|right; auto].
  destruct (splitpath_dir from d t D) as (n' & E' & H & _).
  assert (n' = n) by (rewrite E in E'; injection E' as X; lia). subst n'. clear E'.
  assert (H' : firstn n from = rev (strip_slashes (strip_dots (rev d)))).
  { rewrite H. destruct (rev d); reflexivity. }
  rewrite H'. destruct (strip_slashes_ok (strip_dots (rev d))) as (_ & J & _). rewrite J.
  apply rev_at in A. rewrite E2, rev_app_distr, strip_dots_dots, strip_dots_id; rewrite ?rev_involutive; auto.
  eapply Forall_impl; [|exact F2]. intros c X ->. apply X. left. reflexivity.
Qed.

Definition place (p : str) : bool * list str := (absolute p, resolve (absolute p) (comps p)).
Definition base_r (h : str) : str := match rev h with [] => [] | c :: _ => if c =? SLASH then rev h else SLASH :: rev h end.
Lemma base_r_ok : forall h, no_double_slash h -> at_slash (base_r h) /\ no_double_slash (base_r h) /\
  comps (rev (base_r h)) = comps h /\ absolute (rev (base_r h)) = absolute h /\ (length (base_r h) <= S (length h))%nat.
Proof.
  intros h N. unfold base_r. pose proof (nds_rev h N) as NR. pose proof (rev_length h) as LR.
  destruct (rev h) as [|c r] eqn:R.
  - assert (h = []) by (rewrite <- (rev_involutive h), R; reflexivity). subst. simpl. repeat split; auto; left; auto.
  - destruct (Z.eqb_spec c SLASH).
    + subst. rewrite <- R, rev_involutive. rewrite R. repeat split; auto; [right; eauto|lia].
    + change (rev (SLASH :: c :: r)) with (rev (c :: r) ++ [SLASH]). rewrite comps_slash_end. rewrite <- R, rev_involutive.
      split; [right; eauto|]. split; [apply nds_cons; [rewrite R; auto|intros _; rewrite R; simpl; congruence]|].
      split; [auto|]. split; [|rewrite R; simpl in *; lia].
      apply absolute_app. intros ->. discriminate.
Qed.
Lemma combpath_eq : forall from to, absolute to = false ->
  combpath from to = match walk (S (length to)) (base_r (dedup (firstn (Z.to_nat (fst (splitpath from))) from))) to with
    Some (r', to') => Some (rev r' ++ dedup to') | None => None end.
Proof.
  intros from to A. unfold combpath. fold (base_r (dedup (firstn (Z.to_nat (fst (splitpath from))) from))). destruct to as [|a to].
  - cbn [walk]. rewrite app_nil_r. f_equal. unfold base_r.
    set (h := dedup _). destruct (rev h) as [|c r] eqn:R; auto. destruct (c =? SLASH).
    + rewrite <- R. symmetry. apply rev_involutive.
    + change (rev (SLASH :: c :: r)) with (rev (c :: r) ++ [SLASH]). rewrite <- R, rev_involutive. reflexivity.
  - simpl in A. rewrite A. reflexivity.
Qed.
Lemma dir_part_ex : forall p, exists d t, dir_part p d t.
Proof.
  intros p. pose proof (to_slash_spec (rev p)) as S. destruct (to_slash (rev p)).
  - destruct S as (t & u & E & N & ->). exists (rev u ++ [SLASH]), (rev t). repeat split.
    + rewrite <- (rev_involutive p), E, rev_app_distr. reflexivity.
    + intros X. apply N. apply in_rev in X. auto.
    + right. eauto.
  - exists [], p. repeat split; auto. intros X. apply S. apply -> in_rev. auto.
Qed.

Lemma combpath_total : forall from to, exists out, combpath from to = Some out /\ no_double_slash out /\
  Z.of_nat (length out) + 1 <= comb_alloc from to.
Proof.
  intros from to. destruct (absolute to) eqn:A.
  - destruct to as [|a to]; [discriminate|]. simpl in A. unfold combpath, comb_alloc. rewrite A. exists (dedup (a :: to)).
    split; [auto|]. split; [apply dedup_nds|]. pose proof (dedup_length (a :: to)). lia.
  - rewrite combpath_eq by auto. destruct (dir_part_ex from) as (d & t & D).
    destruct (splitpath_dir from d t D) as (n & E & _ & _). rewrite E. cbn [fst]. rewrite Nat2Z.id.
    set (h := dedup (firstn n from)).
    destruct (base_r_ok h) as (B1 & B2 & B3 & B4 & B5); [apply dedup_nds|].
    assert (HT : hd_error to <> Some SLASH) by (destruct to as [|a to]; [discriminate|]; simpl in *; intros [= ->]; discriminate).
    destruct (walk_ok (S (length to)) (base_r h) to (le_n _) B1 B2 HT) as (r' & to' & W & P1 & P2 & P3 & P4 & _).
    rewrite W. exists (rev r' ++ dedup to'). split; [auto|]. split.
    + apply nds_app; [apply nds_rev; auto|apply dedup_nds|rewrite dedup_hd; auto].
    + rewrite app_length, rev_length. pose proof (dedup_length to'). pose proof (dedup_length (firstn n from)). fold h in H0.
      rewrite firstn_length in H0.
      assert (C : comb_alloc from to = Z.of_nat n + Z.of_nat (length to) + 2).
      { unfold comb_alloc. rewrite E. destruct to as [|a to]; auto. simpl in A. rewrite A. reflexivity. }
      rewrite C. lia.
Qed.

Lemma combpath_place : forall from to d t, dir_part from d t -> base_ok d to ->
  exists out, combpath from to = Some out /\
    place out = if absolute to then place to else (absolute d, resolve (absolute d) (comps d ++ comps to)).
Proof.
  intros from to d t D B. destruct (absolute to) eqn:A.
  - destruct to as [|a to]; [discriminate|]. simpl in A. unfold combpath. rewrite A. exists (dedup (a :: to)).
    split; auto. unfold place. rewrite dedup_absolute, dedup_comps. reflexivity.
  - rewrite combpath_eq by auto. destruct (head_ok from d t to D B) as (n & E & N1 & N2 & SF). rewrite E. cbn [fst]. rewrite Nat2Z.id.
    set (h := dedup (firstn n from)).
    destruct (base_r_ok h) as (B1 & B2 & B3 & B4 & B5); [apply dedup_nds|].
    assert (HT : hd_error to <> Some SLASH) by (destruct to as [|a to]; [discriminate|]; simpl in *; intros [= ->]; discriminate).
    destruct (walk_ok (S (length to)) (base_r h) to (le_n _) B1 B2 HT) as (r' & to' & W & P1 & P2 & P3 & P4 & P5).
    rewrite W. exists (rev r' ++ dedup to'). split; auto. destruct P5 as [Q1 Q2].
    { unfold safe. rewrite B3. unfold h. rewrite dedup_comps. exact SF. }
    assert (HA : absolute h = absolute d) by (unfold h; rewrite dedup_absolute; auto).
    assert (OA : absolute (rev r' ++ dedup to') = absolute d).
    { rewrite <- HA, <- B4, <- Q1. destruct (rev r') as [|c l] eqn:R.
      - simpl. rewrite dedup_absolute. destruct to' as [|c to']; auto. simpl. simpl in P3. destruct (Z.eqb_spec c SLASH); [subst; congruence|reflexivity].
      - reflexivity. }
    unfold place. rewrite OA. f_equal. rewrite comps_at, dedup_comps by auto.
    rewrite B4, HA in Q2. rewrite Q2, B3. unfold h. rewrite dedup_comps, !resolve_app. f_equal.
    unfold resolve. rewrite <- (resolve_names _ (comps (firstn n from))), <- (resolve_names _ (comps d)).
    f_equal. exact N1.
Qed.

Ltac conj := repeat match goal with |- _ /\ _ => split end.
(** * The scanner buffer *)
(** ** Specification: a stream that only ever grows, with absolute positions *)
Record stream := Str { text : list Z; a_tok : Z; a_ptr : Z; a_cur : Z; ended : bool }.
Inductive op := Fill (block : list Z) | Advance (n : Z) | SetTok | Mark | Back.
(** What a lexer may do: move the cursor within the text it has, start a token at the cursor,
    remember the cursor, go back to a place remembered within the token. *)
Definition a_step (s : stream) (o : op) : option stream :=
  match o with
  | Fill b => if ended s then Some s
              else Some (Str (text s ++ b) (a_tok s) (a_ptr s) (a_cur s) (match b with [] => true | _ => false end))
  | Advance n => if (0 <=? n) && (a_cur s + n <=? Z.of_nat (length (text s)))
                 then Some (Str (text s) (a_tok s) (a_ptr s) (a_cur s + n) (ended s)) else None
  | SetTok => Some (Str (text s) (a_cur s) (a_ptr s) (a_cur s) (ended s))
  | Mark => Some (Str (text s) (a_tok s) (a_cur s) (a_cur s) (ended s))
  | Back => if (a_tok s <=? a_ptr s) && (a_ptr s <=? a_cur s) then Some (Str (text s) (a_tok s) (a_ptr s) (a_ptr s) (ended s)) else None
  end.
Definition a_init : stream := Str [] 0 0 0 false.
(** The same actions on the buffer; the lexer's moves are plain pointer assignments. *)
Definition c_step (s : scanner) (o : op) : scanner :=
  match o with
  | Fill b => fst (fst (fill s b))
  | Advance n => Scan (alloc s) (bytes s) (tok s) (ptr s) (cur s + n) (cap s) (eof s)
  | SetTok => Scan (alloc s) (bytes s) (cur s) (ptr s) (cur s) (cap s) (eof s)
  | Mark => Scan (alloc s) (bytes s) (tok s) (cur s) (cur s) (cap s) (eof s)
  | Back => Scan (alloc s) (bytes s) (tok s) (ptr s) (ptr s) (cap s) (eof s)
  end.
Fixpoint a_run (s : stream) (l : list op) : option stream :=
  match l with [] => Some s | o :: r => match a_step s o with Some s' => a_run s' r | None => None end end.
Definition c_run (s : scanner) (l : list op) : scanner := fold_left c_step l s.
Definition blocks_ok (l : list op) : Prop := Forall (fun o => match o with Fill b => Z.of_nat (length b) <= BSIZE | _ => True end) l.

Definition Rel (a : stream) (c : scanner) : Prop :=
  0 <= tok c <= cur c /\ cur c <= Z.of_nat (length (bytes c)) /\ Z.of_nat (length (bytes c)) <= cap c /\
  0 <= a_tok a - tok c /\
  bytes c = skipn (Z.to_nat (a_tok a - tok c)) (text a) /\
  a_cur a - a_tok a = cur c - tok c /\ a_ptr a - a_tok a = ptr c - tok c /\ ended a = eof c /\
  a_cur a <= Z.of_nat (length (text a)) /\ (alloc c = false -> c = scan_init).

Lemma Rel_len : forall a c, Rel a c -> Z.of_nat (length (bytes c)) = Z.of_nat (length (text a)) - (a_tok a - tok c).
Proof.
  intros a c (H1 & H2 & H3 & H4 & H5 & H6 & H7 & H8 & H9 & H10). rewrite H5 in *. rewrite skipn_length in *. lia.
Qed.

Lemma fill_rel : forall a c b, Rel a c -> Z.of_nat (length b) <= BSIZE ->
  (exists a', a_step a (Fill b) = Some a' /\ Rel a' (c_step c (Fill b))) /\
  snd (fill c b) <= cap (c_step c (Fill b)) /\ snd (fst (fill c b)) = negb (alloc c) && negb (eof c).
Proof.
  intros a c b R LB. pose proof (Rel_len a c R) as RL.
  destruct R as (H1 & H2 & H3 & H4 & H5 & H6 & H7 & H8 & H9 & H10).
  cbn [a_step c_step]. unfold fill. rewrite H8. destruct (eof c) eqn:EOF.
  - cbn [fst snd]. split; [exists a; split; [auto|]|].
    + unfold Rel. rewrite EOF. conj; auto; lia.
    + rewrite andb_false_r. split; [lia|auto].
  - set (by_ := if 0 <? tok c then skipn (Z.to_nat (tok c)) (bytes c) else bytes c).
    replace (if 0 <? tok c then (skipn (Z.to_nat (tok c)) (bytes c), 0, ptr c - tok c, cur c - tok c) else (bytes c, tok c, ptr c, cur c))
      with (by_, 0, ptr c - tok c, cur c - tok c).
    2: { unfold by_. destruct (Z.ltb_spec 0 (tok c)); auto. assert (T : tok c = 0) by lia. rewrite T, !Z.sub_0_r. reflexivity. }
    assert (BY : by_ = skipn (Z.to_nat (a_tok a)) (text a)).
    { unfold by_. destruct (Z.ltb_spec 0 (tok c)).
      - rewrite H5, skipn_skipn. f_equal. lia.
      - rewrite H5. f_equal. lia. }
    assert (BL : Z.of_nat (length by_) = Z.of_nat (length (bytes c)) - tok c) by (rewrite BY, skipn_length; lia).
    cbv iota. set (cap' := if cap c - Z.of_nat (length by_) <? BSIZE then Z.of_nat (length by_) + BSIZE else cap c).
    assert (CAP : Z.of_nat (length by_) + BSIZE <= cap') by (unfold cap'; destruct (Z.ltb_spec (cap c - Z.of_nat (length by_)) BSIZE); lia).
    clearbody cap'. assert (BS : 1 <= BSIZE) by (unfold BSIZE; lia). clearbody by_.
    rewrite andb_true_r.
    destruct b as [|x b].
    + cbn [fst snd cap]. split; [|split; [lia|auto]]. eexists. split; [reflexivity|].
      unfold Rel. cbn [alloc bytes tok ptr cur cap eof text a_tok a_ptr a_cur ended].
      rewrite !app_nil_r. rewrite !Z.sub_0_r. conj; auto; try lia.
    + cbn [fst snd cap]. set (xb := x :: b) in *. split; [|split; [lia|auto]]. eexists. split; [reflexivity|].
      unfold Rel. cbn [alloc bytes tok ptr cur cap eof text a_tok a_ptr a_cur ended].
      rewrite !app_length, !Nat2Z.inj_add, !Z.sub_0_r. conj; try lia; auto.
      * rewrite BY, skipn_app. f_equal. replace (Z.to_nat (a_tok a) - length (text a))%nat with 0%nat by lia. reflexivity.
Qed.

Lemma step_rel : forall a c o a', Rel a c -> (match o with Fill b => Z.of_nat (length b) <= BSIZE | _ => True end) ->
  a_step a o = Some a' -> Rel a' (c_step c o).
Proof.
  intros a c o a' R B S. destruct o as [b|n| | |].
  - destruct (fill_rel a c b R B) as ((a2 & E & R2) & _). rewrite S in E. injection E as <-. exact R2.
  - pose proof (Rel_len a c R) as RL. destruct R as (H1 & H2 & H3 & H4 & H5 & H6 & H7 & H8 & H9 & H10).
    cbn [a_step] in S. destruct (Z.leb_spec 0 n); [|discriminate]. simpl andb in S.
    destruct (Z.leb_spec (a_cur a + n) (Z.of_nat (length (text a)))); [|discriminate]. injection S as <-.
    unfold Rel. cbn [c_step alloc bytes tok ptr cur cap eof text a_tok a_ptr a_cur ended]. conj; auto; try lia.
    intros X. apply H10 in X. subst c. cbn in *. assert (n = 0) by lia. subst n. reflexivity.
  - destruct R as (H1 & H2 & H3 & H4 & H5 & H6 & H7 & H8 & H9 & H10). injection S as <-.
    unfold Rel. cbn [c_step alloc bytes tok ptr cur cap eof text a_tok a_ptr a_cur ended]. conj; auto; try lia.
    + rewrite H5. f_equal. lia.
    + intros X. apply H10 in X. subst c. reflexivity.
  - destruct R as (H1 & H2 & H3 & H4 & H5 & H6 & H7 & H8 & H9 & H10). injection S as <-.
    unfold Rel. cbn [c_step alloc bytes tok ptr cur cap eof text a_tok a_ptr a_cur ended]. conj; auto; try lia.
    intros X. apply H10 in X. subst c. reflexivity.
  - destruct R as (H1 & H2 & H3 & H4 & H5 & H6 & H7 & H8 & H9 & H10). cbn [a_step] in S.
    destruct (Z.leb_spec (a_tok a) (a_ptr a)); [|discriminate]. simpl andb in S.
    destruct (Z.leb_spec (a_ptr a) (a_cur a)); [|discriminate]. injection S as <-.
    unfold Rel. cbn [c_step alloc bytes tok ptr cur cap eof text a_tok a_ptr a_cur ended]. conj; auto; try lia.
    intros X. apply H10 in X. subst c. reflexivity.
Qed.
Lemma run_rel : forall l a c a', Rel a c -> blocks_ok l -> a_run a l = Some a' -> Rel a' (c_run c l).
Proof.
  induction l as [|o l IH]; intros a c a' R B E; simpl in *.
  - injection E as <-. exact R.
  - destruct (a_step a o) as [a2|] eqn:S; [|discriminate]. inversion B; subst.
    apply (IH a2); auto. eapply step_rel; eauto.
Qed.
Lemma Rel_init : Rel a_init scan_init.
Proof. unfold Rel, a_init, scan_init. cbn. conj; auto; lia. Qed.

Lemma scan_refines : forall l a, blocks_ok l -> a_run a_init l = Some a ->
  let c := c_run scan_init l in
  skipn (Z.to_nat (tok c)) (bytes c) = skipn (Z.to_nat (a_tok a)) (text a) /\
  cur c - tok c = a_cur a - a_tok a /\ ptr c - tok c = a_ptr a - a_tok a /\ eof c = ended a /\
  0 <= tok c <= cur c /\ cur c <= Z.of_nat (length (bytes c)).
Proof.
  intros l a B E c. pose proof (run_rel l _ _ a Rel_init B E) as R. fold c in R.
  destruct R as (H1 & H2 & H3 & H4 & H5 & H6 & H7 & H8 & H9 & H10). conj; auto; try lia.
  rewrite H5, skipn_skipn. f_equal. lia.
Qed.
Lemma scan_writes : forall l a b, blocks_ok l -> a_run a_init l = Some a -> Z.of_nat (length b) <= BSIZE ->
  let c := c_run scan_init l in snd (fill c b) <= cap (fst (fst (fill c b))).
Proof.
  intros l a b B E LB c. pose proof (run_rel l _ _ a Rel_init B E) as R. fold c in R.
  apply (fill_rel a c b R LB).
Qed.
Lemma fill_first : forall l b, snd (fst (fill (c_run scan_init l) b)) = true <->
  (forall b', ~ In (Fill b') l).
Proof.
  assert (A : forall l c, alloc (c_run c l) = false <-> alloc c = false /\ (forall b', In (Fill b') l -> eof c = true)).
  { induction l as [|o l IH]; intros c; simpl.
    - split; [intros X; split; [auto|intros ? []]|tauto].
    - rewrite IH. destruct o as [b|n| | |]; cbn [c_step]; try (split; intros [X Y]; split; auto; [intros b' [Z0|Z0]; [discriminate|eauto]|intros b' Z0; eauto]).
      unfold fill. destruct (eof c) eqn:E; cbn [fst].
      + rewrite E. split; intros [X Y]; split; auto.
      + destruct (if 0 <? tok c then _ else _) as [[[? ?] ?] ?]. split; intros [X Y].
        * destruct b; discriminate.
        * specialize (Y b (or_introl eq_refl)). discriminate. }
  assert (EO : forall l c, alloc c = false -> eof c = false -> eof (c_run c l) = true -> exists b', In (Fill b') l).
  { induction l as [|o l IH]; intros c X Y Z0; simpl in *; [congruence|].
    destruct o as [b|n| | |]; [eauto| | | |]; (eapply IH in Z0; [destruct Z0; eauto|exact X|exact Y]). }
  intros l b. unfold fill. pose proof (A l scan_init) as H. cbn in H.
  destruct (eof (c_run scan_init l)) eqn:E.
  - cbn. split; [discriminate|]. intros X. destruct (EO l scan_init eq_refl eq_refl E) as [b' B]. destruct (X b' B).
  - destruct (if 0 <? _ then _ else _) as [[[? ?] ?] ?].
    assert (F : negb (alloc (c_run scan_init l)) = true <-> (forall b', ~ In (Fill b') l)).
    { rewrite negb_true_iff, H. split; [intros [_ Q] b' I; apply Q in I; discriminate|intros Q; split; auto; intros b' I; destruct (Q b' I)]. }
    destruct b; cbn [fst snd]; exact F.
Qed.

Lemma split_tail : forall p d t, dir_part p d t -> exists n, splitpath p = (Z.of_nat n, t) /\ (n <= length d)%nat.
Proof. intros p d t D. destruct (splitpath_dir p d t D) as (n & E & _ & L). eauto. Qed.
Lemma split_refuted : exists p d t n, dir_part p d t /\ splitpath p = (Z.of_nat n, t) /\
  names (firstn n p) <> names d.
Proof.
  exists [97; 46; 47; 98], [97; 46; 47], [98], 1%nat. split; [|split].
  - split; [reflexivity|]. split; [|right; exists [97; 46]; reflexivity]. simpl. intros [X|[]]. discriminate.
  - reflexivity.
  - vm_compute. discriminate.
Qed.
Lemma combpath_refuted : exists from to d t out, dir_part from d t /\ absolute to = false /\
  combpath from to = Some out /\ place out <> (absolute d, resolve (absolute d) (comps d ++ comps to)).
Proof.
  exists [46; 47; 98; 47; 120], [46; 46; 47; 46; 46; 47; 121], [46; 47; 98; 47], [120], [121]. split; [|split; [|split]].
  - split; [reflexivity|]. split; [|right; exists [46; 47; 98]; reflexivity]. simpl. intros [X|[]]. discriminate.
  - reflexivity.
  - reflexivity.
  - vm_compute. discriminate.
Qed.
