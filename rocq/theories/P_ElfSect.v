(** Section directives of ELF objects: specification and proofs. *)
From Coq Require Import ZArith List Bool String Ascii Lia.
From Verif Require P_IntnumIO M_BinObj P_BinSwitch.
From Verif Require Import Lib LibBits M_Intnum P_Intnum M_ElfSect.
Import ListNotations.
Open Scope Z_scope.

(** * Specification *)
(** Words are compared without regard to case. *)
Definition upper (c : Z) : Z := if (97 <=? c) && (c <=? 122) then c - 32 else c.
Fixpoint eqs (a b : list Z) : bool := match a, b with [], [] => true | x :: a, y :: b => (x =? y) && eqs a b | _, _ => false end.
Definition caseless (s : str) (w : string) : bool := eqs (map upper s) (map upper (lit w)).
(** an identifier without its prefix *)
Definition ident (p : param) : option str :=
  match p_what p with PId s pre _ => Some (match s with c :: r => if c =? pre then r else s | [] => s end) | _ => None end.
Definition bare (w : string) (p : param) : bool := match p_val p, ident p with None, Some s => caseless s w | _, _ => false end.
Definition keyed (w : string) (p : param) : bool := match p_val p with Some v => caseless v w | None => false end.
Definition text (p : param) : option str := match p_what p with PId s _ _ => Some s | PStr s => Some s | PExpr _ => None end.
Definition number (p : param) : option intnum := match p_what p with PExpr v => v | PId _ _ v => v | PStr _ => None end.
(** The attributes of sections: bit in the header, letter, words *)
Inductive attr := Write | Alloc | Exec | Merge | Strings | Group | Tls.
Definition bit (a : attr) : Z := match a with Write => 0 | Alloc => 1 | Exec => 2 | Merge => 4 | Strings => 5 | Group => 9 | Tls => 10 end.
Definition letter (a : attr) : Z := match a with Write => 119 | Alloc => 97 | Exec => 120 | Merge => 77 | Strings => 83 | Group => 71 | Tls => 84 end.
Definition on (a : attr) (p : param) : bool :=
  match a with Write => bare "write" p | Alloc => bare "alloc" p | Exec => bare "exec" p | Tls => bare "tls" p | _ => false end.
Definition off (a : attr) (p : param) : bool :=
  match a with Write => bare "nowrite" p | Alloc => bare "noalloc" p | Exec => bare "noexec" p | Tls => bare "notls" p | _ => false end.
(** what a parameter says of an attribute; an empty list of letters says nothing for a standard section *)
Definition says (std : bool) (a : attr) (p : param) : option bool :=
  if on a p then Some true else if off a p then Some false
  else if keyed "gasflags" p then match text p with Some [] => if std then None else Some false | Some s => Some (existsb (Z.eqb (letter a)) s) | None => None end
  else None.
Definition says_type (p : param) : option Z := if bare "progbits" p then Some 1 else if bare "nobits" p || bare "noprogbits" p then Some 8 else None.
Definition says_align (p : param) : option intnum := if keyed "align" p then number p else None.
(** The last parameter that says something counts. *)
Fixpoint last_word {A} (g : param -> option A) (ps : list param) (old : A) : A :=
  match ps with [] => old | p :: ps => last_word g ps (match g p with Some x => x | None => old end) end.
Definition known (p : param) : bool :=
  existsb (fun w => bare w p) ["write"; "alloc"; "exec"; "tls"; "nowrite"; "noalloc"; "noexec"; "notls"; "progbits"; "noprogbits"; "nobits"]%string ||
  keyed "gasflags" p || keyed "align" p.
(** parameters that are refused *)
Definition bad (p : param) : Prop := (keyed "align" p = true /\ number p = None) \/ (keyed "gasflags" p = true /\ text p = None).
(** the warnings for a parameter *)
Definition is_letter (c : Z) : bool := existsb (fun a => letter a =? c) [Write; Alloc; Exec; Merge; Strings; Group; Tls].
Definition warnings (p : param) : list warning :=
  if known p then if keyed "gasflags" p then match text p with Some s => map WAttribute (filter (fun c => negb (is_letter c)) s) | None => [] end else []
  else match p_val p, ident p, p_what p with
       | Some v, _, _ => [WQualifier v]
       | None, Some s, _ => [WQualifier s]
       | None, None, PStr _ => [WStringQualifier]
       | None, None, _ => [WNumericQualifier]
       end.
(** The standard sections *)
Definition is (n : str) (l : list string) : bool := existsb (fun w => eqs n (lit w)) l.
Definition std (n : str) : bool := is n [".bss"; ".data"; ".tdata"; ".rodata"; ".text"; ".comment"; ".note.gnu.property"]%string.
Definition std_attr (n : str) (a : attr) : bool :=
  match a with
  | Write => is n [".bss"; ".data"; ".tdata"]%string
  | Alloc => negb (is n [".comment"; ".note.gnu.property"]%string)
  | Exec => is n [".text"]%string
  | Tls => is n [".tdata"]%string
  | _ => false
  end.
Definition std_type (n : str) : Z := if is n [".bss"]%string then 8 else if is n [".note.gnu.property"]%string then 7 else 1.
Definition std_align (n : str) : Z :=
  if is n [".text"]%string then 16 else if is n [".comment"]%string then 0 else if is n [".note.gnu.property"]%string then 8 else if std n then 4 else 1.

(** the word of flags *)
Definition header (g : attr -> bool) : Z :=
  (if g Write then 1 else 0) + (if g Alloc then 2 else 0) + (if g Exec then 4 else 0) + (if g Merge then 16 else 0) + (if g Strings then 32 else 0) + (if g Group then 512 else 0) + (if g Tls then 1024 else 0).
(** What a directive asks for: section [n], parameters [ps], and [ext] after the colon for the size of entities *)
Definition entity (ext : option (list param)) : option (option intnum) := match ext with Some (p :: _) => match p_val p with None => Some (number p) | Some _ => None end | _ => None end.
Definition wants (n : str) (ps : list param) (a : attr) : bool := last_word (says (std n) a) ps (std_attr n a).
(** a section that can be merged needs a size of entities *)
Definition gets (n : str) (ps : list param) (ext : option (list param)) (a : attr) : bool :=
  wants n ps a && match a, entity ext with Merge, None => false | _, _ => true end.
Definition wants_align (n : str) (ps : list param) : option intnum := last_word (fun p => option_map Some (says_align p)) ps None.
(** the section as it is declared: old size of entities [ent0] *)
Definition as_asked (n : str) (ps : list param) (ext : option (list param)) (ent0 : Z) (s : sect) : Prop :=
  s_name s = n /\ s_type s = last_word says_type ps (std_type n) /\ s_flags s = header (gets n ps ext) /\
  s_align s = match wants_align n ps with Some i => get_uint i | None => std_align n end /\
  s_entsize s = match wants n ps Merge, entity ext with true, Some (Some i) => get_uint i | _, _ => ent0 end /\ s_def s = false.
(** the warning about entities *)
Definition merge_warnings (n : str) (ps : list param) (ext : option (list param)) : list warning :=
  if wants n ps Merge then match entity ext with None => [WNoEntSize] | Some None => [WEntSize] | Some (Some _) => [] end else [].
Definition missing (n : str) (l : list sect) : Prop := forall s, In s l -> s_name s <> n.

(** * Proofs *)
Lemma upper_lower : forall x y, (upper x =? upper y) = (lower x =? lower y).
Proof.
  intros x y. apply eq_true_iff_eq. rewrite !Z.eqb_eq. unfold upper, lower.
  destruct (Z.leb_spec 97 x), (Z.leb_spec x 122), (Z.leb_spec 97 y), (Z.leb_spec y 122), (Z.leb_spec 65 x), (Z.leb_spec x 90), (Z.leb_spec 65 y), (Z.leb_spec y 90); cbn [andb]; lia.
Qed.
Lemma caseless_eq : forall s w, casesame s (lit w) = caseless s w.
Proof.
  intros s w. unfold caseless. generalize (lit w) as t. induction s as [| x s IH]; intros [| y t]; try reflexivity.
  cbn [casesame map eqs]. rewrite upper_lower, IH. reflexivity.
Qed.
Lemma casesame_lower : forall s t, casesame s t = eqs (map lower s) (map lower t).
Proof. induction s as [| x s IH]; intros [| y t]; try reflexivity. cbn [casesame map eqs]. rewrite IH. reflexivity. Qed.
Lemma eqs_eq : forall a b, eqs a b = true <-> a = b.
Proof.
  induction a as [| x a IH]; intros [| y b]; cbn [eqs]; split; intro H; try discriminate; try reflexivity.
  - apply andb_prop in H. destruct H as [H1 H2]. apply Z.eqb_eq in H1. apply IH in H2. congruence.
  - injection H as -> ->. rewrite Z.eqb_refl. apply IH. reflexivity.
Qed.
Lemma same_eqs : forall a b, same a b = eqs a b.
Proof. reflexivity. Qed.
Lemma ident_eq : forall p, vp_id p = ident p.
Proof. intro p. unfold vp_id, ident. destruct (p_what p) as [[| c s] pre v | |]; reflexivity. Qed.
Lemma caseless_lower : forall s w, caseless s w = eqs (map lower s) (map lower (lit w)).
Proof. intros. rewrite <- caseless_eq. apply casesame_lower. Qed.

Definition words0 : list string := ["alloc"; "exec"; "write"; "tls"; "progbits"; "noalloc"; "noexec"; "nowrite"; "notls"; "noprogbits"; "nobits"]%string.
Definition words1 : list string := ["gasflags"; "align"]%string.
Lemma which0 : forall u, (exists w, In w words0 /\ u = map lower (lit w)) \/ (forall w, In w words0 -> eqs u (map lower (lit w)) = false).
Proof.
  intro u. generalize words0. induction l as [| w l IH]; [right; intros w [] |].
  destruct (eqs u (map lower (lit w))) eqn:E; [left; exists w; split; [left; reflexivity | apply eqs_eq; exact E]|].
  destruct IH as [(x & I & ->) | N]; [left; exists x; split; [right; exact I | reflexivity]|].
  right. intros x [<- | I]; [exact E | apply N; exact I].
Qed.
Lemma which1 : forall u, (exists w, In w words1 /\ u = map lower (lit w)) \/ (forall w, In w words1 -> eqs u (map lower (lit w)) = false).
Proof.
  intro u. generalize words1. induction l as [| w l IH]; [right; intros w [] |].
  destruct (eqs u (map lower (lit w))) eqn:E; [left; exists w; split; [left; reflexivity | apply eqs_eq; exact E]|].
  destruct IH as [(x & I & ->) | N]; [left; exists x; split; [right; exact I | reflexivity]|].
  right. intros x [<- | I]; [exact E | apply N; exact I].
Qed.
Definition mask (a : attr) : Z := 2 ^ bit a.
Definition of_action (stdn : bool) (a : attr) (p : param) (e : option action) : option bool :=
  match e with
  | Some (FlagOr f) => if f =? mask a then Some true else None
  | Some (FlagAnd f) => if f =? mask a then Some false else None
  | Some Gas => match text p with Some [] => if stdn then None else Some false | Some s => Some (existsb (Z.eqb (letter a)) s) | None => None end
  | _ => None
  end.
(** what the entry of a parameter is, in terms of the specification *)
Definition entry_ok (p : param) : Prop :=
  (forall stdn a, says stdn a p = of_action stdn a p (entry p)) /\
  says_type p = match entry p with Some (SetType t) => Some t | _ => None end /\
  (keyed "align" p = match entry p with Some Align => true | _ => false end) /\
  (keyed "gasflags" p = match entry p with Some Gas => true | _ => false end) /\
  known p = match entry p with Some _ => true | None => false end /\
  (forall f, entry p = Some (FlagOr f) \/ entry p = Some (FlagAnd f) -> In f [1; 2; 4; 1024]).
Lemma entry_is : forall p, entry_ok p.
Proof.
  intro p. unfold entry_ok, says, says_type, known, on, off, bare, keyed, entry. rewrite ident_eq. destruct (p_val p) as [v|].
  - unfold lookup. rewrite !caseless_lower. cbn [find help]. rewrite !casesame_lower. destruct (which1 (map lower v)) as [(w & I & ->) | N].
    + destruct I as [<- | [<- | []]]; (split; [intros stdn [| | | | | |]; reflexivity|]); (split; [reflexivity|]); (split; [reflexivity|]); (split; [reflexivity|]); (split; [reflexivity|]); intros f [H | H]; vm_compute in H; discriminate.
    + repeat match goal with |- context [eqs (map lower v) (map lower (lit ?w))] => rewrite (N w) by (cbn; auto) end. cbn [Bool.eqb andb]. (split; [intros stdn [| | | | | |]; reflexivity|]). repeat (split; [reflexivity|]). intros f [H | H]; discriminate.
  - destruct (ident p) as [s|].
    + unfold lookup. cbn [existsb]. rewrite !caseless_lower. cbn [find help]. rewrite !casesame_lower. destruct (which0 (map lower s)) as [(w & I & ->) | N].
      * cbn [In words0] in I. repeat (destruct I as [<- | I]; [(split; [intros stdn [| | | | | |]; reflexivity|]); (split; [reflexivity|]); (split; [reflexivity|]); (split; [reflexivity|]); (split; [reflexivity|]); intros f [H | H]; vm_compute in H; inversion H; cbn; auto |]). destruct I.
      * repeat match goal with |- context [eqs (map lower s) (map lower (lit ?w))] => rewrite (N w) by (cbn; auto 20) end. cbn [Bool.eqb andb orb]. (split; [intros stdn [| | | | | |]; reflexivity|]). repeat (split; [reflexivity|]). intros f [H | H]; discriminate.
    + cbn [existsb orb]. (split; [intros stdn [| | | | | |]; reflexivity|]). repeat (split; [reflexivity|]). intros f [H | H]; discriminate.
Qed.

(** ** Flags *)
Definition fits (f : Z) : Prop := f = Z.land f 1591.
Lemma header_ext : forall g h, (forall a, g a = h a) -> header g = header h.
Proof. intros g h E. unfold header. rewrite !E. reflexivity. Qed.
Lemma header_small : forall g, 0 <= header g < 2 ^ 11.
Proof. intro g. unfold header. destruct (g Write), (g Alloc), (g Exec), (g Merge), (g Strings), (g Group), (g Tls); split; discriminate || reflexivity. Qed.
Lemma header_bits : forall g i, 0 <= i < 11 -> Z.testbit (header g) i =
  (if i =? 0 then g Write else if i =? 1 then g Alloc else if i =? 2 then g Exec else if i =? 4 then g Merge else if i =? 5 then g Strings else if i =? 9 then g Group else if i =? 10 then g Tls else false).
Proof.
  intros g i R. assert (K : i = 0 \/ i = 1 \/ i = 2 \/ i = 3 \/ i = 4 \/ i = 5 \/ i = 6 \/ i = 7 \/ i = 8 \/ i = 9 \/ i = 10) by lia.
  unfold header. destruct (g Write), (g Alloc), (g Exec), (g Merge), (g Strings), (g Group), (g Tls); repeat (destruct K as [-> | K]; [reflexivity|]); subst i; reflexivity.
Qed.
Lemma fits_header : forall f, fits f -> f = header (fun a => Z.testbit f (bit a)).
Proof.
  intros f F. unfold fits in F. apply Z.bits_inj'. intros i Hi. destruct (Z_lt_ge_dec i 11) as [L | G].
  - rewrite header_bits by lia. cbn [bit].
    assert (K : i = 0 \/ i = 1 \/ i = 2 \/ i = 3 \/ i = 4 \/ i = 5 \/ i = 6 \/ i = 7 \/ i = 8 \/ i = 9 \/ i = 10) by lia.
    rewrite F at 1. rewrite Z.land_spec. repeat (destruct K as [-> | K]; [cbn [Z.eqb Pos.eqb]; first [apply andb_true_r | apply andb_false_r]|]). subst i. apply andb_true_r.
  - rewrite (testbit_small 11 (header _) i (header_small _)) by lia. rewrite F, Z.land_spec. rewrite (testbit_small 11 1591 i) by lia. apply andb_false_r.
Qed.
Lemma fits_lor : forall f g, fits f -> fits g -> fits (Z.lor f g).
Proof. intros f g F G. unfold fits in *. rewrite Z.land_lor_distr_l, <- F, <- G. reflexivity. Qed.
Lemma fits_land : forall f g, fits f -> fits (Z.land f g).
Proof. intros f g F. unfold fits in *. rewrite (Z.land_comm f g), <- Z.land_assoc, <- F. reflexivity. Qed.
Lemma or_bit : forall f g a, Z.testbit (Z.lor f g) (bit a) = Z.testbit f (bit a) || Z.testbit g (bit a).
Proof. intros. apply Z.lor_spec. Qed.
Lemma and_bit : forall f g a, Z.testbit (Z.land f g) (bit a) = Z.testbit f (bit a) && Z.testbit g (bit a).
Proof. intros. apply Z.land_spec. Qed.
Lemma gas_spec : forall s f w f' w', fold_left gas_letter s (f, w) = (f', w') ->
  (forall a, Z.testbit f' (bit a) = Z.testbit f (bit a) || existsb (Z.eqb (letter a)) s) /\ w' = w ++ map WAttribute (filter (fun c => negb (is_letter c)) s) /\ (fits f -> fits f').
Proof.
  induction s as [| c s IH]; intros f w f' w' E.
  - cbn [fold_left] in E. assert (f' = f /\ w' = w) as [-> ->] by (split; congruence). split; [intro a; symmetry; apply orb_false_r|]. split; [symmetry; apply app_nil_r | auto].
  - cbn [fold_left] in E. destruct (gas_letter (f, w) c) as [f1 w1] eqn:E1. destruct (IH _ _ _ _ E) as (H1 & H2 & H3). cbn [existsb filter].
    assert (ST : (forall a, Z.testbit f1 (bit a) = Z.testbit f (bit a) || (letter a =? c)) /\ w1 = w ++ (if negb (is_letter c) then [WAttribute c] else []) /\ (fits f -> fits f1)).
    { unfold gas_letter in E1.
      destruct (Z.eqb_spec c 97) as [-> | N1]; [injection E1 as <- <-; split; [intro a; rewrite or_bit; destruct a; reflexivity | split; [symmetry; apply app_nil_r | intro; apply fits_lor; [assumption | reflexivity]]]|].
      destruct (Z.eqb_spec c 119) as [-> | N2]; [injection E1 as <- <-; split; [intro a; rewrite or_bit; destruct a; reflexivity | split; [symmetry; apply app_nil_r | intro; apply fits_lor; [assumption | reflexivity]]]|].
      destruct (Z.eqb_spec c 120) as [-> | N3]; [injection E1 as <- <-; split; [intro a; rewrite or_bit; destruct a; reflexivity | split; [symmetry; apply app_nil_r | intro; apply fits_lor; [assumption | reflexivity]]]|].
      destruct (Z.eqb_spec c 77) as [-> | N4]; [injection E1 as <- <-; split; [intro a; rewrite or_bit; destruct a; reflexivity | split; [symmetry; apply app_nil_r | intro; apply fits_lor; [assumption | reflexivity]]]|].
      destruct (Z.eqb_spec c 83) as [-> | N5]; [injection E1 as <- <-; split; [intro a; rewrite or_bit; destruct a; reflexivity | split; [symmetry; apply app_nil_r | intro; apply fits_lor; [assumption | reflexivity]]]|].
      destruct (Z.eqb_spec c 71) as [-> | N6]; [injection E1 as <- <-; split; [intro a; rewrite or_bit; destruct a; reflexivity | split; [symmetry; apply app_nil_r | intro; apply fits_lor; [assumption | reflexivity]]]|].
      destruct (Z.eqb_spec c 84) as [-> | N7]; [injection E1 as <- <-; split; [intro a; rewrite or_bit; destruct a; reflexivity | split; [symmetry; apply app_nil_r | intro; apply fits_lor; [assumption | reflexivity]]]|].
      injection E1 as <- <-. assert (NL : forall a, (letter a =? c) = false) by (intro a; apply Z.eqb_neq; destruct a; cbn [letter]; congruence).
      split; [intro a; rewrite NL, orb_false_r; reflexivity|]. split; [|auto]. unfold is_letter. cbn [existsb]. rewrite !NL. reflexivity. }
    destruct ST as (S1 & S2 & S3). split; [intro a; rewrite H1, S1, orb_assoc; reflexivity|]. split; [|auto].
    rewrite H2, S2, <- app_assoc. f_equal. destruct (negb (is_letter c)); reflexivity.
Qed.
Definition or_old {A} (o : option A) (old : A) : A := match o with Some x => x | None => old end.
Lemma entry_not_bad : forall p, entry p = None -> ~ bad p.
Proof.
  intros p E [[K _] | [K _]]; destruct (entry_is p) as (_ & _ & A & G & _); [rewrite A, E in K | rewrite G, E in K]; discriminate.
Qed.
Lemma act_spec : forall p a d, entry p = Some a ->
  (exists e, act a d p = inl e /\ bad p) \/
  exists d' w, act a d p = inr (d', w) /\ ~ bad p /\ (forall t, Z.testbit (d_flags d') (bit t) = or_old (says (d_std d) t p) (Z.testbit (d_flags d) (bit t))) /\
    d_type d' = or_old (says_type p) (d_type d) /\ d_align d' = or_old (option_map Some (says_align p)) (d_align d) /\ d_gas d' = keyed "gasflags" p || d_gas d /\ d_std d' = d_std d /\
    w = warnings p /\ (fits (d_flags d) -> fits (d_flags d')).
Proof.
  intros p a d E. destruct (entry_is p) as (S & T & A & G & K & M). rewrite E in *.
  assert (NB : a <> Align -> a <> Gas -> ~ bad p) by (intros N1 N2 [[B _] | [B _]]; [rewrite A in B | rewrite G in B]; destruct a; congruence).
  assert (W0 : a <> Gas -> [] = warnings p) by (intro N; unfold warnings; rewrite K, G; destruct a; try reflexivity; contradiction).
  unfold says_align. rewrite T, A, G. destruct a as [f | f | t | |]; cbn [act].
  - right. eexists _, _. split; [reflexivity|]. split; [apply NB; discriminate|]. cbn [d_flags d_type d_align d_gas d_std with_flags option_map or_old].
    split; [intro t; rewrite or_bit, S; cbn [of_action]; generalize (Z.testbit (d_flags d) (bit t)); intro b; destruct (M f (or_introl eq_refl)) as [<- | [<- | [<- | [<- | []]]]]; destruct t, b; reflexivity|].
    repeat (split; [reflexivity|]). split; [apply W0; discriminate|]. intro F. apply fits_lor; [exact F|]. destruct (M f (or_introl eq_refl)) as [<- | [<- | [<- | [<- | []]]]]; reflexivity.
  - right. eexists _, _. split; [reflexivity|]. split; [apply NB; discriminate|]. cbn [d_flags d_type d_align d_gas d_std with_flags option_map or_old].
    split; [intro t; rewrite and_bit, S; cbn [of_action]; generalize (Z.testbit (d_flags d) (bit t)); intro b; destruct (M f (or_intror eq_refl)) as [<- | [<- | [<- | [<- | []]]]]; destruct t, b; reflexivity|].
    repeat (split; [reflexivity|]). split; [apply W0; discriminate|]. intro F. apply fits_land. exact F.
  - right. eexists _, _. split; [reflexivity|]. split; [apply NB; discriminate|]. cbn [d_flags d_type d_align d_gas d_std with_type option_map or_old].
    split; [intro u; rewrite S; reflexivity|]. repeat (split; [reflexivity|]). split; [apply W0; discriminate | auto].
  - unfold gasflags. change (vp_string p) with (text p). destruct (text p) as [s|] eqn:TX.
    + right. assert (NB2 : ~ bad p) by (intros [[B _] | [_ B]]; [rewrite A in B; discriminate | congruence]).
      assert (WS : warnings p = map WAttribute (filter (fun c => negb (is_letter c)) s)) by (unfold warnings; rewrite K, G, TX; reflexivity).
      destruct s as [| c s].
      * cbn [List.length Z.of_nat Z.eqb]. rewrite andb_true_r. cbn [fold_left].
        destruct (d_std d) eqn:D; eexists _, _; (split; [reflexivity|]); (split; [exact NB2|]); cbn [d_flags d_type d_align d_gas d_std with_gas option_map or_old].
        -- split; [intro u; rewrite S; cbn [of_action]; rewrite TX; reflexivity|]. repeat (split; [reflexivity|]). split; [exact D|]. split; [symmetry; exact WS | auto].
        -- split; [intro u; rewrite S; cbn [of_action]; rewrite TX; destruct u; reflexivity|]. repeat (split; [reflexivity|]). split; [exact D|]. split; [symmetry; exact WS | intros _; reflexivity].
      * replace (Z.of_nat (List.length (c :: s)) =? 0) with false by (symmetry; apply Z.eqb_neq; cbn [List.length]; lia). rewrite andb_false_r.
        destruct (fold_left gas_letter (c :: s) (0, [])) as [f' w'] eqn:F. destruct (gas_spec _ _ _ _ _ F) as (H1 & H2 & H3).
        eexists _, _. split; [reflexivity|]. split; [exact NB2|]. cbn [d_flags d_type d_align d_gas d_std with_gas option_map or_old].
        split; [intro u; rewrite S; cbn [of_action]; rewrite TX, H1, Z.testbit_0_l; reflexivity|]. repeat (split; [reflexivity|]). split; [rewrite H2, WS; reflexivity | intros _; apply H3; reflexivity].
    + left. eexists. split; [reflexivity|]. right. split; [exact G | exact TX].
  - change (vp_int p) with (number p). destruct (number p) as [i|] eqn:NU.
    + right. eexists _, _. split; [reflexivity|]. split; [intros [[_ B] | [B _]]; [congruence | rewrite G in B; discriminate]|]. cbn [d_flags d_type d_align d_gas d_std with_align option_map or_old].
      split; [intro u; rewrite S; reflexivity|]. repeat (split; [reflexivity|]). split; [apply W0; discriminate | auto].
    + left. eexists. split; [reflexivity|]. left. split; [exact A | exact NU].
Qed.
Lemma helper_spec : forall ps d,
  (exists e, dir_helper d ps = inl e /\ Exists bad ps) \/
  exists d' w, dir_helper d ps = inr (d', w, existsb known ps) /\ ~ Exists bad ps /\ (forall t, Z.testbit (d_flags d') (bit t) = last_word (says (d_std d) t) ps (Z.testbit (d_flags d) (bit t))) /\
    d_type d' = last_word says_type ps (d_type d) /\ d_align d' = last_word (fun p => option_map Some (says_align p)) ps (d_align d) /\ d_gas d' = existsb (keyed "gasflags") ps || d_gas d /\ d_std d' = d_std d /\
    w = flat_map warnings ps /\ (fits (d_flags d) -> fits (d_flags d')).
Proof.
  induction ps as [| p ps IH]; intro d.
  - right. exists d, []. split; [reflexivity|]. split; [intro X; inversion X|]. repeat (split; [reflexivity|]). auto.
  - cbn [dir_helper]. destruct (entry_is p) as (S & T & A & G & K & M). destruct (entry p) as [a|] eqn:E.
    + destruct (act_spec p a d E) as [(e & -> & B) | (d1 & w1 & -> & B & F1 & T1 & A1 & G1 & S1 & W1 & P1)]; [left; exists e; split; [reflexivity | apply Exists_cons_hd; exact B]|].
      destruct (IH d1) as [(e & -> & B2) | (d2 & w2 & -> & B2 & F2 & T2 & A2 & G2 & S2 & W2 & P2)]; [left; exists e; split; [reflexivity | apply Exists_cons_tl; exact B2]|].
      right. exists d2, (w1 ++ w2). cbn [existsb last_word flat_map]. rewrite K. split; [reflexivity|]. split; [intro X; inversion X; contradiction|].
      split; [intro t; rewrite F2, S1, F1; reflexivity|]. split; [rewrite T2, T1; reflexivity|]. split; [rewrite A2, A1; reflexivity|].
      split; [rewrite G2, G1, orb_assoc, (orb_comm (existsb _ ps)); reflexivity|]. split; [congruence|]. split; [congruence | auto].
    + assert (B := entry_not_bad p E).
      assert (N1 : forall b t, says b t p = None) by (intros b t; rewrite S; reflexivity).
      assert (N2 : says_align p = None) by (unfold says_align; rewrite A; reflexivity).
      assert (WU : warnings p = [unknown p]).
      { unfold warnings, unknown. rewrite K, ident_eq. destruct (p_val p); [reflexivity|]. destruct (ident p); [reflexivity|]. destruct (p_what p); reflexivity. }
      destruct (IH d) as [(e & -> & B2) | (d2 & w2 & -> & B2 & F2 & T2 & A2 & G2 & S2 & W2 & P2)]; [left; exists e; split; [reflexivity | apply Exists_cons_tl; exact B2]|].
      right. exists d2, (unknown p :: w2). cbn [existsb last_word flat_map]. rewrite K, G, T, N2, WU. split; [reflexivity|]. split; [intro X; inversion X; contradiction|].
      split; [intro t; rewrite N1; apply F2|]. split; [exact T2|]. split; [exact A2|]. split; [exact G2|]. split; [exact S2|]. split; [rewrite W2; reflexivity | exact P2].
Qed.

(** ** The directive *)
Lemma which_std : forall n (l : list string), (exists w, In w l /\ n = lit w) \/ (forall w, In w l -> eqs n (lit w) = false).
Proof.
  intro n. induction l as [| w l IH]; [right; intros w []|].
  destruct (eqs n (lit w)) eqn:E; [left; exists w; split; [left; reflexivity | apply eqs_eq; exact E]|].
  destruct IH as [(x & I & ->) | N]; [left; exists x; split; [right; exact I | reflexivity]|].
  right. intros x [<- | I]; [exact E | apply N; exact I].
Qed.
Lemma standard_spec : forall n, standard n = (Data None (header (std_attr n)) (std_type n) false (std n), std_align n, is n [".bss"]%string).
Proof.
  intro n. destruct (which_std n [".bss"; ".data"; ".tdata"; ".rodata"; ".text"; ".comment"; ".note.gnu.property"]%string) as [(w & I & ->) | N].
  - cbn [In] in I. repeat (destruct I as [<- | I]; [vm_compute; reflexivity|]). destruct I.
  - unfold standard, header, std_attr, std_type, std_align, std, is. cbn [existsb].
    repeat match goal with |- context [same n (lit ?w)] => change (same n (lit w)) with (eqs n (lit w)); rewrite (N w) by (cbn; auto 20) end.
    repeat match goal with |- context [eqs n (lit ?w)] => rewrite (N w) by (cbn; auto 20) end. reflexivity.
Qed.
Lemma fits_std : forall g, fits (header g).
Proof. intro g. unfold fits, header. destruct (g Write), (g Alloc), (g Exec), (g Merge), (g Strings), (g Group), (g Tls); reflexivity. Qed.
Lemma std_bits : forall n a, Z.testbit (header (std_attr n)) (bit a) = std_attr n a.
Proof. intros n a. rewrite header_bits by (destruct a; cbn [bit]; lia). destruct a; reflexivity. Qed.
Lemma place_spec : forall obj n fresh d ent al, s_name fresh = n ->
  let '(obj', set) := place obj n fresh d ent al in
  (missing n obj /\ set = true /\ obj' = obj ++ [declare fresh d ent al]) \/
  exists b s a, obj = b ++ s :: a /\ missing n b /\ s_name s = n /\ set = s_def s /\ obj' = if s_def s then b ++ declare s d ent al :: a else obj.
Proof.
  induction obj as [| s obj IH]; intros n fresh d ent al F; cbn [place].
  - left. split; [intros x []|]. split; reflexivity.
  - rewrite same_eqs. destruct (eqs (s_name s) n) eqn:E.
    + apply eqs_eq in E. destruct (s_def s) eqn:D; right; exists [], s, obj; (split; [reflexivity|]); (split; [intros x []|]); (split; [exact E|]); (split; [symmetry; exact D|]); rewrite D; reflexivity.
    + assert (NE : s_name s <> n) by (intro X; apply eqs_eq in X; congruence).
      specialize (IH n fresh d ent al F). destruct (place obj n fresh d ent al) as [o set]. destruct IH as [(M & -> & ->) | (b & x & a & -> & M & X & -> & O)].
      * left. split; [intros y [<- | I]; [exact NE | apply M; exact I]|]. split; reflexivity.
      * right. exists (s :: b), x, a. split; [reflexivity|]. split; [intros y [<- | I]; [exact NE | apply M; exact I]|]. split; [exact X|]. split; [reflexivity|].
        rewrite O. destruct (s_def x); reflexivity.
Qed.
Lemma merge_flag : forall f, negb (Z.land f SHF_MERGE =? 0) = Z.testbit f (bit Merge).
Proof.
  intro f. unfold SHF_MERGE. cbn [bit]. destruct (Z.testbit f 4) eqn:T.
  - destruct (Z.eqb_spec (Z.land f 16) 0) as [E | E]; [|reflexivity]. exfalso. assert (X : Z.testbit (Z.land f 16) 4 = false) by (rewrite E; reflexivity).
    rewrite Z.land_spec, T in X. discriminate.
  - replace (Z.land f 16) with 0; [reflexivity|]. symmetry. apply Z.bits_inj'. intros i Hi. rewrite Z.land_spec, Z.bits_0. change 16 with (2 ^ 4). rewrite Z.pow2_bits_eqb by lia.
    destruct (Z.eqb_spec 4 i) as [<- | N]; [rewrite T; reflexivity | apply andb_false_r].
Qed.
Theorem switch_spec : forall obj p ps ext n, text p = Some n ->
  (exists e, section_switch obj (p :: ps) ext = (obj, Failed e) /\ (Exists bad ps \/ exists i, wants_align n ps = Some i /\ is_exp2 (get_uint i) = false)) \/
  (~ Exists bad ps /\ (forall i, wants_align n ps = Some i -> is_exp2 (get_uint i) = true) /\
   ((missing n obj /\ exists s, section_switch obj (p :: ps) ext = (obj ++ [s], Switched (flat_map warnings ps ++ merge_warnings n ps ext)) /\
       as_asked n ps ext (if caseless n ".stab" then 12 else 0) s /\ s_code s = gets n ps ext Exec /\ s_res s = is n [".bss"]%string) \/
    exists b s0 a, obj = b ++ s0 :: a /\ missing n b /\ s_name s0 = n /\
      if s_def s0 then exists s, section_switch obj (p :: ps) ext = (b ++ s :: a, Switched (flat_map warnings ps ++ merge_warnings n ps ext)) /\ as_asked n ps ext (s_entsize s0) s
      else section_switch obj (p :: ps) ext = (obj, Switched (flat_map warnings ps ++ merge_warnings n ps ext ++ (if existsb known ps && negb (existsb (keyed "gasflags") ps) then [WIgnored] else []))))).
Proof.
  intros obj p ps ext n TX. unfold section_switch. change (vp_string p) with (text p). rewrite TX, standard_spec.
  destruct (helper_spec ps (Data None (header (std_attr n)) (std_type n) false (std n))) as [(e & -> & B) | (d & w & -> & NB & F & T & A & G & _ & -> & P)].
  - left. exists e. split; [reflexivity | left; exact B].
  - cbn [d_flags d_type d_align d_gas d_std] in *. rewrite orb_false_r in G. specialize (P (fits_std _)). fold (wants_align n ps) in A. rewrite A.
    set (al := match wants_align n ps with Some i => get_uint i | None => std_align n end).
    assert (AC : (match wants_align n ps with Some _ => negb (is_exp2 al) | None => false end = true -> exists i, wants_align n ps = Some i /\ is_exp2 (get_uint i) = false) /\
                 (match wants_align n ps with Some _ => negb (is_exp2 al) | None => false end = false -> forall i, wants_align n ps = Some i -> is_exp2 (get_uint i) = true)).
    { unfold al. destruct (wants_align n ps) as [i|]; split; intro H; try discriminate; [exists i; split; [reflexivity | apply negb_true_iff; exact H]|].
      intros j J. assert (j = i) as -> by congruence. apply negb_false_iff. exact H. }
    destruct (match wants_align n ps with Some _ => negb (is_exp2 al) | None => false end) eqn:AL.
    + left. exists ENotPower. split; [reflexivity|]. right. apply AC. reflexivity.
    + right. split; [exact NB|]. split; [apply AC; reflexivity|].
      assert (W : forall a, Z.testbit (d_flags d) (bit a) = wants n ps a) by (intro a; rewrite F, std_bits; reflexivity).
      rewrite merge_flag, W.
      assert (ME : exists f ent, (if wants n ps Merge
                     then match ext with
                          | Some (Param None k :: _) => match vp_int (Param None k) with Some i => (d_flags d, Some i, []) | None => (d_flags d, None, [WEntSize]) end
                          | _ => (Z.land (d_flags d) (u64 (Z.lnot SHF_MERGE)), None, [WNoEntSize])
                          end
                     else (d_flags d, None, [])) = (f, ent, merge_warnings n ps ext) /\ f = header (gets n ps ext) /\
                   forall e0, match ent with Some i => get_uint i | None => e0 end = match wants n ps Merge, entity ext with true, Some (Some i) => get_uint i | _, _ => e0 end).
      { unfold merge_warnings.
        assert (H0 : (wants n ps Merge = false \/ entity ext <> None) -> d_flags d = header (gets n ps ext)).
        { intro X. rewrite (fits_header _ P). apply header_ext. intro a. rewrite W. unfold gets. destruct a; try (symmetry; apply andb_true_r).
          destruct X as [-> | X]; [reflexivity|]. destruct (entity ext); [symmetry; apply andb_true_r | contradiction]. }
        assert (H1 : entity ext = None -> Z.land (d_flags d) (u64 (Z.lnot SHF_MERGE)) = header (gets n ps ext)).
        { intro X. rewrite (fits_header _ (fits_land _ (u64 (Z.lnot SHF_MERGE)) P)). apply header_ext. intro a. rewrite and_bit, W. unfold gets. rewrite X. destruct a; reflexivity. }
        destruct (wants n ps Merge).
        - destruct ext as [[| [[v|] k] r]|]; cbn [entity p_val] in *.
          + eexists _, _. split; [reflexivity|]. split; [apply H1; reflexivity | reflexivity].
          + eexists _, _. split; [reflexivity|]. split; [apply H1; reflexivity | reflexivity].
          + change (vp_int (Param None k)) with (number (Param None k)). destruct (number (Param None k)); eexists _, _; (split; [reflexivity|]); (split; [apply H0; right; discriminate | reflexivity]).
          + eexists _, _. split; [reflexivity|]. split; [apply H1; reflexivity | reflexivity].
        - eexists _, _. split; [reflexivity|]. split; [apply H0; left; reflexivity | reflexivity]. }
      destruct ME as (f & ent & -> & FH & EN).
      assert (EX : negb (Z.land f SHF_EXECINSTR =? 0) = gets n ps ext Exec).
      { rewrite FH. generalize (gets n ps ext). intro g. unfold header. destruct (g Write), (g Alloc), (g Exec), (g Merge), (g Strings), (g Group), (g Tls); reflexivity. }
      rewrite EX.
      assert (AS : forall s, s_name s = n -> as_asked n ps ext (s_entsize s) (declare s (with_flags d f) ent al)).
      { intros s SN. unfold as_asked, declare. cbn [s_name s_type s_flags s_align s_entsize s_def d_type d_flags with_flags]. split; [exact SN|]. split; [exact T|]. split; [exact FH|]. split; [reflexivity|]. split; [apply EN | reflexivity]. }
      pose proof (place_spec obj n (new_sect n al (gets n ps ext Exec) (is n [".bss"]%string)) (with_flags d f) ent al eq_refl) as PL.
      destruct (place obj n (new_sect n al (gets n ps ext Exec) (is n [".bss"]%string)) (with_flags d f) ent al) as [o set].
      destruct PL as [(M & -> & ->) | (b & s0 & a & O & M & SN & -> & ->)].
      * left. split; [exact M|]. eexists. split; [rewrite app_nil_r; reflexivity|]. split; [|split; reflexivity].
        specialize (AS (new_sect n al (gets n ps ext Exec) (is n [".bss"]%string)) eq_refl). cbn [s_entsize new_sect] in AS. rewrite caseless_eq in AS. exact AS.
      * right. exists b, s0, a. split; [exact O|]. split; [exact M|]. split; [exact SN|]. cbn [d_gas with_flags]. rewrite G. destruct (s_def s0); cbn [negb andb].
        -- exists (declare s0 (with_flags d f) ent al). split; [rewrite app_nil_r; reflexivity | apply AS; exact SN].
        -- reflexivity.
Qed.
(** without a name nothing happens *)
Theorem switch_noname : forall obj p ps ext, text p = None -> section_switch obj (p :: ps) ext = (obj, NoSection).
Proof. intros obj p ps ext E. unfold section_switch. change (vp_string p) with (text p). rewrite E. reflexivity. Qed.

(** ** Sequences of directives *)
Fixpoint switches (obj : list sect) (ds : list (list param * option (list param))) : list sect :=
  match ds with [] => obj | (ps, ext) :: ds => switches (fst (section_switch obj ps ext)) ds end.
Lemma switch_step : forall obj ps ext, let obj' := fst (section_switch obj ps ext) in
  (forall s, In s obj -> s_def s = false -> In s obj') /\ (NoDup (map s_name obj) -> NoDup (map s_name obj')).
Proof.
  intros obj ps ext. destruct ps as [| p ps]; [split; auto|]. destruct (text p) as [n|] eqn:TX; [|rewrite (switch_noname _ _ _ _ TX); split; auto].
  destruct (switch_spec obj p ps ext n TX) as [(e & -> & _) | (_ & _ & [(M & s & -> & A & _) | (b & s0 & a & O & M & SN & R)])].
  - split; auto.
  - cbn [fst]. split; [intros x I _; apply in_or_app; left; exact I|]. intro ND. rewrite map_app. cbn [map]. destruct A as [-> _].
    apply NoDup_rev in ND. rewrite <- (rev_involutive (map s_name obj ++ [n])). apply NoDup_rev. rewrite rev_app_distr. cbn [rev app]. constructor; [|exact ND].
    rewrite <- in_rev. intro X. apply in_map_iff in X. destruct X as (y & Y1 & Y2). exact (M y Y2 Y1).
  - destruct (s_def s0) eqn:D.
    + destruct R as (s & -> & A). cbn [fst]. split.
      * intros x I DX. rewrite O in I. apply in_app_or in I. apply in_or_app. destruct I as [I | [<- | I]]; [left; exact I | congruence | right; right; exact I].
      * rewrite O, !map_app. cbn [map]. destruct A as [-> _]. rewrite SN. auto.
    + rewrite R. split; auto.
Qed.
(** a section that was declared stays as it is, and there is one section of each name *)
Theorem switches_keep : forall ds obj, (forall s, In s obj -> s_def s = false -> In s (switches obj ds)) /\ (NoDup (map s_name obj) -> NoDup (map s_name (switches obj ds))).
Proof.
  induction ds as [| [ps ext] ds IH]; intro obj; [split; auto|]. cbn [switches]. destruct (switch_step obj ps ext) as [K N]. destruct (IH (fst (section_switch obj ps ext))) as [K2 N2].
  split; auto.
Qed.

(** ** Alignments *)
Theorem alignment : forall i, canon i -> 0 < ival i < 2 ^ 32 -> get_uint i = ival i /\ (is_exp2 (get_uint i) = true <-> exists k, 0 <= k /\ ival i = 2 ^ k).
Proof.
  intros i C R. assert (G : get_uint i = ival i).
  { rewrite P_IntnumIO.get_uint_ok by exact C. cbv zeta. destruct (Z.ltb_spec (ival i) 0); [lia|]. destruct (Z.ltb_spec (ival i) (2 ^ 32)); lia. }
  split; [exact G|]. rewrite G. change (is_exp2 (ival i)) with (M_BinObj.is_exp2 (ival i)). rewrite P_BinSwitch.exp2_ok by lia. split.
  - intros [E | (k & K & E)]; [lia|]. exists k. split; [lia | exact E].
  - intros (k & K & E). right. exists k. split; [|exact E]. split; [exact K|]. assert (k < 32) by (apply (Z.pow_lt_mono_r_iff 2); lia). lia.
Qed.

(** ** What does not hold *)
Definition word_param (w : string) : param := Param None (PId (lit w) 36 None).
Theorem align_refuted : exists p ps i s, says_align p = Some i /\ canon i /\ ival i < 0 /\ section_switch [] (word_param ".foo" :: p :: ps) None = ([s], Switched []) /\ s_align s = 0.
Proof.
  exists (Param (Some (lit "align")) (PExpr (Some (IL (-3))))), [], (IL (-3)). eexists. split; [reflexivity|]. split; [cbn; lia|]. split; [reflexivity|]. split; [vm_compute; reflexivity | reflexivity].
Qed.
Theorem redeclare_refuted : exists s p ps, s_def s = false /\ wants (s_name s) (p :: ps) Write = true /\ Z.testbit (s_flags s) (bit Write) = false /\
  section_switch [s] (Param None (PStr (s_name s)) :: p :: ps) None = ([s], Switched []).
Proof.
  exists (Sect (lit ".foo") 1 2 1 0 false false false), (Param (Some (lit "gasflags")) (PStr (lit "aw"))), []. split; [reflexivity|]. split; [reflexivity|]. split; [reflexivity|]. vm_compute. reflexivity.
Qed.
Theorem merge_refuted : exists ps ext s w, section_switch [] ps ext = ([s], Switched w) /\ Z.testbit (s_flags s) (bit Merge) = true /\ s_entsize s = 0.
Proof.
  exists [word_param ".foo"; Param (Some (lit "gasflags")) (PStr (lit "aM"))], (Some [Param None (PStr (lit "x"))]). eexists _, _. split; [vm_compute; reflexivity|]. split; reflexivity.
Qed.
