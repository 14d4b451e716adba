(** The ELF object file: the theorems. *)
From Coq Require Import ZArith List Bool Arith Lia Permutation.
From Verif Require Import Lib M_Elf P_Elf M_ElfOut P_ElfOut P_ElfOutW P_ElfOutR.
Import ListNotations.
Open Scope Z_scope.

Lemma tail_names : forall wide ss k s, nth_error [STRTAB; SYMTAB; SHSTRTAB] k = Some s ->
  nth_error (section_names wide ss) (length ss + length (filter has_rels ss) + Datatypes.S k) = Some s.
Proof.
  intros wide ss k s H. unfold section_names. rewrite <- Nat.add_succ_comm. cbn [Nat.add nth_error].
  rewrite app_assoc, nth_error_app2; rewrite app_length, !map_length; [|lia].
  replace (length ss + length (filter has_rels ss) + k - (length ss + length (filter has_rels ss)))%nat with k by lia. exact H.
Qed.
Lemma tail_cstr : is_cstr STRTAB /\ is_cstr SYMTAB /\ is_cstr SHSTRTAB.
Proof. unfold is_cstr. repeat split; repeat constructor; discriminate. Qed.

Lemma headers_ok : forall wide f hs p, is_elf wide f -> shoff wide f = p -> shentsize wide f = shsize wide -> shnum wide f = Z.of_nat (length hs) ->
  has f p (concat (map (header_bytes wide) hs)) -> Forall (header_ok wide) hs -> headers wide f = hs.
Proof.
  intros wide f hs p E A B C H K. unfold headers. rewrite A, B, C, Nat2Z.id. apply map_seq. intros k h N. cbn [Nat.add].
  apply read_header_ok; [|rewrite Forall_forall in K; apply K; eapply nth_error_In; exact N].
  exact (has_nth (header_bytes wide) (shsize wide) hs (header_length wide) _ _ _ _ H N).
Qed.

(** The facts shared by both theorems. *)
Lemma file_ok : forall wide ss names syms nlocal f, names <> [] -> Forall (section_ok wide) ss -> range nlocal 32 ->
  write wide ss (layout 0 names) syms nlocal = Some f -> Z.of_nat (length f) < 2 ^ 32 -> place ss (length ss) < 65536 ->
  exists ns hs j p1 p2 p3 p4,
    let sh := layout 0 (section_names wide ss) in
    let h1 := Header (str_index sh (length ss + length (filter has_rels ss) + 3)) 3 0 p1 (total (section_names wide ss)) 0 0 0 0 in
    let h2 := Header (str_index sh (length ss + length (filter has_rels ss) + 1)) 3 0 p2 (total names) 0 0 0 0 in
    let h3 := Header (str_index sh (length ss + length (filter has_rels ss) + 2)) 2 0 p3 (symsize wide * Z.of_nat (length syms)) 2 nlocal (wordsize wide) (symsize wide) in
    is_elf wide f /\ headers wide f = nohdr :: h1 :: h2 :: h3 :: hs /\ shstrndx wide f = 1 /\ shoff wide f = p4 /\
    total (section_names wide ss) < 2 ^ 32 /\ total names < 2 ^ 32 /\
    Forall (note_ok wide f (section_names wide ss)) ns /\ map n_sec ns = ss /\
    (forall n, (n < length ss)%nat -> nth n (map n_index ns) 0 = place ss n) /\
    out_heads wide sh 3 ns = (hs, j) /\
    has f p1 (flat (section_names wide ss)) /\ has f p2 (flat names) /\
    has f p3 (concat (map (symbol_bytes wide (layout 0 names) (map n_index ns)) syms)) /\
    map (read_section wide f (headers wide f)) hs = sect_views wide 4 ss /\
    p1 mod 4 = 0 /\ p2 mod 4 = 0 /\ p3 mod 4 = 0 /\ p4 mod 16 = 0 /\
    chain (ehsize wide) (flat_map (regions wide) ns ++ [(p1, total (section_names wide ss)); (p2, total names); (p3, symsize wide * Z.of_nat (length syms))]) p4 /\
    p4 + shsize wide * (4 + Z.of_nat (length hs)) = Z.of_nat (length f).
Proof.
  intros wide ss names syms nlocal f NN S NL W FL PL. destruct (write_parts _ _ _ _ _ _ NN S W) as [(ns & hs & j & p1 & p2 & p3 & p4 & Q)].
  cbv zeta in Q. destruct Q as (Q1 & Q2 & Q3 & Q4 & Q5 & Q6 & Q7 & Q8 & Q9 & M1 & M2 & M3 & M4 & CH & LEN).
  assert (SS : Forall (section_ok wide) (map n_sec ns)) by (rewrite Q2; exact S).
  destruct (out_heads_count _ _ _ _ _ _ SS Q4) as [J HL]. rewrite Q2 in HL. assert (NSL : length ns = length ss) by (rewrite <- Q2, map_length; reflexivity).
  assert (JL : j = place ss (length ss) - 1) by (unfold place; rewrite firstn_all; lia).
  assert (J0 : 0 <= j) by lia.
  pose proof (has_bound _ _ _ Q6) as B1. pose proof (has_bound _ _ _ Q7) as B2. pose proof (has_bound _ _ _ Q8) as B3. pose proof (has_bound _ _ _ Q9) as B4.
  rewrite flat_total in B1, B2. rewrite (concat_length _ (symsize wide)) in B3 by (intro; apply symbol_length). rewrite (concat_length _ (shsize wide)) in B4 by (intro; apply header_length).
  pose proof (total_nonneg (section_names wide ss)) as T1. pose proof (total_nonneg names) as T2.
  assert (SH0 : 0 < shsize wide) by (destruct wide; cbn; lia). assert (SY0 : 0 <= symsize wide * Z.of_nat (length syms)) by (destruct wide; cbn [symsize]; lia).
  rewrite (u64_small (total (section_names wide ss))) in Q9 by (change w64 with (2 ^ 64); lia). rewrite (u64_small (total names)) in Q9 by (change w64 with (2 ^ 64); lia).
  destruct (ehdr_ok wide f p4 (j + 1) 1 Q5) as (E1 & E2 & E3 & E4 & E5); [unfold range; nia|unfold range; lia|unfold range; lia|].
  exists ns, hs, j, p1, p2, p3, p4. cbv zeta. destruct tail_cstr as (C1 & C2 & C3).
  assert (T32 : total (section_names wide ss) < 2 ^ 32) by lia.
  destruct (name_ok _ _ _ (tail_names wide ss 0 _ eq_refl) C1 T32) as [R1 _]. destruct (name_ok _ _ _ (tail_names wide ss 1 _ eq_refl) C2 T32) as [R2 _].
  destruct (name_ok _ _ _ (tail_names wide ss 2 _ eq_refl) C3 T32) as [R3 _].
  match type of Q9 with context [nohdr :: ?a :: ?b :: ?c :: hs] => set (h1 := a) in *; set (h2 := b) in *; set (h3 := c) in * end.
  assert (ST : stored (nth (Z.to_nat (shstrndx wide f)) (nohdr :: h1 :: h2 :: h3 :: hs) nohdr) f = flat (section_names wide ss)).
  { rewrite E5. change (Z.to_nat 1) with 1%nat. cbn [nth]. unfold stored, h1. cbn [h_offset h_size]. apply has_at; [exact Q6|]. rewrite flat_total. reflexivity. }
  assert (J32 : j < 2 ^ 32) by lia. assert (I3 : 0 <= 3) by lia.
  destruct (out_heads_ok wide f _ (nohdr :: h1 :: h2 :: h3 :: hs) ns 3 hs j Q1 SS T32 FL I3 Q4 J32 ST) as [HO RD].
  assert (HD : headers wide f = nohdr :: h1 :: h2 :: h3 :: hs).
  { eapply headers_ok; [exact E1|exact E2|exact E3| |exact Q9|].
    - rewrite E4, J. cbn [length]. lia.
    - assert (Z32 : range 0 32) by (unfold range; lia).
      assert (SZ : range (symsize wide * Z.of_nat (length syms)) (if wide then 64 else 32)) by (unfold range; destruct wide; lia).
      assert (SZ1 : range (total (section_names wide ss)) (if wide then 64 else 32)) by (unfold range; destruct wide; lia).
      assert (SZ2 : range (total names) (if wide then 64 else 32)) by (unfold range; destruct wide; lia).
      constructor; [|constructor; [|constructor; [|constructor; [|exact HO]]]]; unfold header_ok, nohdr, h1, h2, h3; cbn [h_name h_type h_flags h_offset h_size h_link h_info h_align h_entsize].
      + repeat (split; [unfold range; destruct wide; lia|]). unfold range. lia.
      + split; [exact R3|]. repeat (split; [first [exact SZ1 | unfold range; lia]|]). unfold range. lia.
      + split; [exact R1|]. repeat (split; [first [exact SZ2 | unfold range; lia]|]). unfold range. lia.
      + split; [exact R2|]. repeat (split; [first [exact SZ | exact NL | unfold range; destruct wide; cbn [wordsize]; lia]|]). unfold range. destruct wide; cbn [symsize]; lia. }
  split; [exact E1|]. split; [exact HD|]. split; [exact E5|]. split; [exact E2|]. split; [exact T32|]. split; [lia|]. split; [exact Q1|]. split; [exact Q2|]. split; [exact Q3|].
  split; [exact Q4|]. split; [exact Q6|]. split; [exact Q7|]. split; [exact Q8|]. split; [rewrite HD, RD, Q2; reflexivity|].
  repeat (split; [assumption|]). exact LEN.
Qed.

Lemma strs_layout : forall os t, run_ops os st_create = Some t -> t = layout 0 (strings os [[]]) /\ strings os [[]] <> [].
Proof.
  intros os t H. pose proof (run_valid _ _ _ H) as V. change st_create with (layout 0 [[]]) in H. rewrite run_layout in H; [|discriminate|exact V].
  apply some_inj in H. split; [auto|]. clear. assert (G : forall os l, l <> [] -> strings os l <> []).
  { induction os0 as [|[s|n s] r IH]; intros l L; cbn [strings]; [exact L| |]; apply IH; destruct l; try contradiction; try discriminate. destruct n; discriminate. }
  apply G. discriminate.
Qed.
Theorem write_ok : forall wide ss os strs syms nlocal f, Forall (section_ok wide) ss -> run_ops os st_create = Some strs -> nth_error (strings os [[]]) 0 = Some [] ->
  Forall is_cstr (strings os [[]]) -> Forall (symbol_ok ss (strings os [[]])) syms -> range nlocal 32 ->
  write wide ss strs syms nlocal = Some f -> Z.of_nat (length f) < 2 ^ 32 -> place ss (length ss) < 65536 ->
  is_elf wide f /\ read wide f = expected wide ss (strings os [[]]) syms nlocal /\
  forall n s, nth_error ss n = Some s -> nth_error (read wide f) (Z.to_nat (place ss n)) = Some (sect_view s).
Proof.
  intros wide ss os strs syms nlocal f S R R0 CS SY NL W FL PL. destruct (strs_layout _ _ R) as [-> NN].
  set (names := strings os [[]]) in *.
  destruct (file_ok _ _ _ _ _ _ NN S NL W FL PL) as (ns & hs & j & p1 & p2 & p3 & p4 & Q).
  cbv zeta in Q. destruct Q as (E1 & HD & SX & SO & T1 & T2 & Q1 & Q2 & Q3 & Q4 & Q6 & Q7 & Q8 & RD & _).
  assert (RE : read wide f = expected wide ss names syms nlocal).
  { destruct tail_cstr as (C1 & C2 & C3).
    destruct (name_ok _ _ _ (tail_names wide ss 0 _ eq_refl) C1 T1) as [_ R1]. destruct (name_ok _ _ _ (tail_names wide ss 1 _ eq_refl) C2 T1) as [_ R2].
    destruct (name_ok _ _ _ (tail_names wide ss 2 _ eq_refl) C3 T1) as [_ R3].
    unfold read. rewrite HD at 2. cbn [map]. rewrite RD. unfold expected. cbv zeta. cbn [app].
    match type of HD with _ = nohdr :: ?a :: ?b :: ?c :: hs => set (h1 := a) in *; set (h2 := b) in *; set (h3 := c) in * end.
    assert (ST : stored (nth (Z.to_nat (shstrndx wide f)) (headers wide f) nohdr) f = flat (section_names wide ss)).
    { rewrite HD, SX. change (Z.to_nat 1) with 1%nat. cbn [nth]. unfold stored, h1. cbn [h_offset h_size]. apply has_at; [exact Q6|]. rewrite flat_total. reflexivity. }
    assert (ST2 : stored h2 f = flat names) by (unfold stored, h2; cbn [h_offset h_size]; apply has_at; [exact Q7|rewrite flat_total; reflexivity]).
    change (zstrings (section_names wide ss)) with (flat (section_names wide ss)). change (zstrings names) with (flat names). rewrite !flat_total.
    assert (X0 : read_section wide f (headers wide f) nohdr = View (Some []) 0 0 0 0 0 0 0 Nothing).
    { unfold read_section. rewrite ST. unfold nohdr, read_content. cbn [h_name h_type h_flags h_size h_link h_info h_align h_entsize]. reflexivity. }
    assert (X1 : read_section wide f (headers wide f) h1 = View (Some SHSTRTAB) 3 0 (total (section_names wide ss)) 0 0 0 0 (Raw (flat (section_names wide ss)))).
    { unfold read_section. rewrite ST. unfold h1 at 1. cbn [h_name]. rewrite R3. unfold read_content, stored.
      unfold h1. cbn [h_type h_offset h_flags h_size h_link h_info h_align h_entsize]. rewrite (has_at _ _ _ _ Q6) by (rewrite flat_total; reflexivity). destruct wide; reflexivity. }
    assert (X2 : read_section wide f (headers wide f) h2 = View (Some STRTAB) 3 0 (total names) 0 0 0 0 (Raw (flat names))).
    { unfold read_section. rewrite ST. unfold h2 at 1. cbn [h_name]. rewrite R1. unfold read_content.
      rewrite ST2. unfold h2. cbn [h_type h_offset h_flags h_size h_link h_info h_align h_entsize]. destruct wide; reflexivity. }
    assert (X3 : read_section wide f (headers wide f) h3 = View (Some SYMTAB) 2 0 (symsize wide * Z.of_nat (length syms)) 2 nlocal (wordsize wide) (symsize wide) (Syms (map (sym_view wide ss names) syms))).
    { unfold read_section. rewrite ST. unfold h3 at 1. cbn [h_name]. rewrite R2. unfold read_content.
      assert (TB : map (read_symbol wide f (stored (nth (Z.to_nat (h_link h3)) (headers wide f) nohdr) f)) (entries h3) = map (sym_view wide ss names) syms).
      { replace (stored (nth (Z.to_nat (h_link h3)) (headers wide f) nohdr) f) with (flat names) by (rewrite HD, <- ST2; reflexivity).
        apply (read_table (symbol_bytes wide (layout 0 names) (map n_index ns)) _ _ (symsize wide) syms f).
        - intro. apply symbol_length.
        - destruct wide; cbn; lia.
        - exact Q8.
        - reflexivity.
        - reflexivity.
        - intros y o Y H. rewrite Forall_forall in SY. destruct (SY _ Y) as (Y1 & Y2 & Y3 & Y4 & Y5 & Y6).
          assert (SX' : shndx (map n_index ns) y = match y_sect y with Some n => place ss n | None => y_index y end).
          { unfold shndx. destruct (y_sect y) as [n|]; [|reflexivity]. apply Q3. apply Y6. reflexivity. }
          assert (SR : range (shndx (map n_index ns) y) 16).
          { rewrite SX'. destruct (y_sect y) as [n|]; [|exact Y4]. specialize (Y6 n eq_refl). unfold range, place in *.
            assert (F : (length (filter has_rels (firstn n ss)) <= length (filter has_rels (firstn (length ss) ss)))%nat).
            { rewrite firstn_all. rewrite <- (firstn_skipn n ss) at 2. rewrite filter_app, app_length. lia. }
            lia. }
          assert (NM : range (match y_name y with Some p => str_index (layout 0 names) p | None => 0 end) 32 /\
            string_at (flat names) (match y_name y with Some p => str_index (layout 0 names) p | None => 0 end) = Some (match y_name y with Some p => nth p names [] | None => [] end)).
          { destruct (y_name y) as [p|].
            - specialize (Y5 p eq_refl). apply name_ok; [apply nth_error_nth'; exact Y5| |exact T2].
              rewrite Forall_forall in CS. apply CS. apply nth_In. exact Y5.
            - split; [unfold range; lia|]. pose proof (flat_at names 0 [] R0 ltac:(constructor)) as X. exact X. }
          destruct NM as [NM1 NM2].
          rewrite (read_symbol_ok wide f o _ _ _ y _ H NM1 NM2 Y1 Y2 Y3 SR). unfold sym_view. rewrite SX'. destruct wide; reflexivity. }
      rewrite TB. reflexivity. }
    rewrite X0, X1, X2, X3. destruct wide; reflexivity. }
  split; [exact E1|]. split; [exact RE|]. intros n s N. rewrite RE. unfold expected, place. cbv zeta.
  replace (Z.to_nat (4 + Z.of_nat n + Z.of_nat (length (filter has_rels (firstn n ss))))) with (Datatypes.S (Datatypes.S (Datatypes.S (Datatypes.S (n + length (filter has_rels (firstn n ss))))))) by lia.
  cbn [app nth_error]. apply sect_views_nth. exact N.
Qed.

(** * Layout *)
Definition disjoint (a b : Z * Z) : Prop := fst a + snd a <= fst b \/ fst b + snd b <= fst a.
Definition place_of (h : header) : Z * Z := (h_offset h, h_size h).
Definition keptb (h : header) : bool := negb ((h_type h =? 0) || (h_type h =? 8)).
Lemma keptb_ok : forall h, kept h -> keptb h = true.
Proof. intros h [A B]. unfold keptb. destruct (Z.eqb_spec (h_type h) 0); [contradiction|]. destruct (Z.eqb_spec (h_type h) 8); [contradiction|]. reflexivity. Qed.
Lemma chain_in : forall l lo hi o n, chain lo l hi -> In (o, n) l -> lo <= o /\ 0 <= n /\ o + n <= hi.
Proof.
  assert (LE : forall l lo hi, chain lo l hi -> lo <= hi).
  { induction l as [|[o n] r IH]; intros lo hi H; cbn [chain] in H; [exact H|]. destruct H as (H1 & H2 & H3). apply IH in H3. lia. }
  induction l as [|[o' n'] r IH]; intros lo hi o n H I; [destruct I|]. cbn [chain] in H. destruct H as (H1 & H2 & H3). destruct I as [I|I].
  - injection I as -> ->. apply LE in H3. lia.
  - destruct (IH _ _ _ _ H3 I). lia.
Qed.
Lemma chain_pairs : forall l lo hi, chain lo l hi -> ForallOrdPairs disjoint l.
Proof.
  induction l as [|[o n] r IH]; intros lo hi H; cbn [chain] in H; [constructor|]. destruct H as (H1 & H2 & H3). constructor; [|eapply IH; exact H3].
  rewrite Forall_forall. intros [o' n'] I. destruct (chain_in _ _ _ _ _ H3 I). left. cbn [fst snd]. lia.
Qed.
Lemma pairs_perm : forall l l', Permutation l l' -> ForallOrdPairs disjoint l -> ForallOrdPairs disjoint l'.
Proof.
  assert (SYM : forall a b, disjoint a b -> disjoint b a) by (unfold disjoint; tauto).
  induction 1 as [|x l l' P IH|x y l|l l' l'' P1 IH1 P2 IH2]; intro H; auto.
  - inversion H; subst. constructor; [|auto]. eapply Permutation_Forall; eassumption.
  - inversion H as [|? ? A B]; subst. inversion B as [|? ? C D]; subst. apply Forall_cons_iff in A. destruct A as [A1 A2]. constructor; [|constructor; assumption].
    constructor; auto.
Qed.
Lemma pairs_nth : forall l i j a b, ForallOrdPairs disjoint l -> nth_error l i = Some a -> nth_error l j = Some b -> i <> j -> disjoint a b.
Proof.
  assert (SYM : forall a b, disjoint a b -> disjoint b a) by (unfold disjoint; tauto).
  induction l as [|x r IH]; intros [|i] [|j] a b H A B N; try discriminate; try congruence; inversion H as [|? ? F G]; subst; cbn [nth_error] in *.
  - injection A as ->. rewrite Forall_forall in F. apply F. eapply nth_error_In. exact B.
  - injection B as ->. rewrite Forall_forall in F. apply SYM, F. eapply nth_error_In. exact A.
  - eapply IH; try eassumption. congruence.
Qed.
(** Pairwise over the kept headers gives pairwise over positions. *)
Lemma pairs_filter : forall hs i j h h', ForallOrdPairs disjoint (map place_of (filter keptb hs)) -> nth_error hs i = Some h -> nth_error hs j = Some h' -> i <> j ->
  keptb h = true -> keptb h' = true -> disjoint (place_of h) (place_of h').
Proof.
  assert (SYM : forall a b, disjoint a b -> disjoint b a) by (unfold disjoint; tauto).
  induction hs as [|x r IH]; intros [|i] [|j] h h' H A B N K K'; try discriminate; try congruence; cbn [nth_error filter] in *.
  - injection A as ->. rewrite K in H. cbn [map] in H. inversion H as [|? ? F G]; subst. rewrite Forall_forall in F. apply F. apply in_map, filter_In. split; [eapply nth_error_In; exact B|exact K'].
  - injection B as ->. rewrite K' in H. cbn [map] in H. inversion H as [|? ? F G]; subst. rewrite Forall_forall in F. apply SYM, F. apply in_map, filter_In. split; [eapply nth_error_In; exact A|exact K].
  - eapply IH; try eassumption; [|congruence]. destruct (keptb x); [|exact H]. cbn [map] in H. inversion H; assumption.
Qed.
Lemma heads_regions : forall wide sh ns i hs j, Forall (section_ok wide) (map n_sec ns) -> out_heads wide sh i ns = (hs, j) ->
  map place_of (filter keptb hs) = flat_map (regions wide) ns.
Proof.
  intros wide sh. induction ns as [|n r IH]; intros i hs j S H; cbn [out_heads map flat_map] in *; [injection H as <- <-; reflexivity|].
  apply Forall_cons_iff in S. destruct S as [S1 S2]. pose proof S1 as (_ & NT & _). rewrite (out_head_eq _ _ _ _ NT) in H.
  assert (KH : keptb (head_of wide sh n) = negb (empty_section (n_sec n))).
  { unfold keptb, head_of, empty_section. cbn [h_type]. cbn in NT. destruct NT as [<-|[<-|[<-|[<-|[]]]]]; reflexivity. }
  assert (KR : forall k, keptb (rel_head wide sh k n) = true) by (intro k; unfold keptb, rel_head; cbn [h_type]; destruct wide; reflexivity).
  unfold regions. destruct (has_rels (n_sec n)) eqn:HR.
  - destruct (out_heads wide sh (i + 1 + 1) r) as [h2 j2] eqn:E2. injection H as <- <-. cbn [app filter]. rewrite KH, KR.
    assert (E : empty_section (n_sec n) = false) by (unfold has_rels in HR; destruct (empty_section (n_sec n)); [discriminate|reflexivity]). rewrite E.
    cbn [negb map app]. f_equal. f_equal. eapply IH; eassumption.
  - destruct (out_heads wide sh (i + 1) r) as [h2 j2] eqn:E2. injection H as <- <-. cbn [app filter]. rewrite KH.
    destruct (empty_section (n_sec n)); cbn [negb map app]; rewrite (IH _ _ _ S2 E2); reflexivity.
Qed.
Lemma heads_aligned : forall wide f names sh ns i hs j, Forall (note_ok wide f names) ns -> Forall (section_ok wide) (map n_sec ns) -> out_heads wide sh i ns = (hs, j) ->
  Forall (fun h => kept h -> (table_type h -> h_offset h mod 4 = 0) /\ (~ table_type h -> aligned (h_align h) (h_offset h))) hs.
Proof.
  intros wide f names sh. induction ns as [|n r IH]; intros i hs j K S H; cbn [out_heads map] in *; [injection H as <- <-; constructor|].
  apply Forall_cons_iff in S. destruct S as [S1 S2]. apply Forall_cons_iff in K. destruct K as [K1 K2]. pose proof S1 as (_ & NT & _). rewrite (out_head_eq _ _ _ _ NT) in H.
  assert (A : kept (head_of wide sh n) -> (table_type (head_of wide sh n) -> h_offset (head_of wide sh n) mod 4 = 0) /\ (~ table_type (head_of wide sh n) -> aligned (h_align (head_of wide sh n)) (h_offset (head_of wide sh n)))).
  { intros [_ X]. unfold head_of, table_type in *. cbn [h_type h_offset h_align] in *. split.
    - intro Y. exfalso. cbn in NT. lia.
    - intros _. destruct K1 as [_ _ C _]. apply C. unfold empty_section. apply Z.eqb_neq. exact X. }
  destruct (has_rels (n_sec n)) eqn:HR.
  - destruct (out_heads wide sh (i + 1 + 1) r) as [h2 j2] eqn:E2. injection H as <- <-. cbn [app]. constructor; [exact A|]. constructor; [|eapply IH; eassumption].
    intros _. unfold rel_head, table_type. cbn [h_type h_offset h_align]. split.
    + intros _. destruct K1 as [_ _ _ D]. apply D. exact HR.
    + intro X. exfalso. apply X. unfold SHT_RELA, SHT_REL. destruct wide; auto.
  - destruct (out_heads wide sh (i + 1) r) as [h2 j2] eqn:E2. injection H as <- <-. cbn [app]. constructor; [exact A|]. eapply IH; eassumption.
Qed.

Theorem layout_ok : forall wide ss os strs syms nlocal f, Forall (section_ok wide) ss -> run_ops os st_create = Some strs -> range nlocal 32 ->
  write wide ss strs syms nlocal = Some f -> Z.of_nat (length f) < 2 ^ 32 -> place ss (length ss) < 65536 ->
  (forall i j h h', nth_error (headers wide f) i = Some h -> nth_error (headers wide f) j = Some h' -> i <> j -> kept h -> kept h' ->
     h_offset h + h_size h <= h_offset h' \/ h_offset h' + h_size h' <= h_offset h) /\
  (forall h, In h (headers wide f) -> kept h ->
     (if wide then 64 else 52) <= h_offset h /\ 0 <= h_size h /\ h_offset h + h_size h <= shoff wide f /\
     (table_type h -> h_offset h mod 4 = 0) /\ (~ table_type h -> h_align h <> 0 -> h_offset h mod h_align h = 0)) /\
  shoff wide f mod 16 = 0 /\ shoff wide f + (if wide then 64 else 40) * Z.of_nat (length (headers wide f)) = Z.of_nat (length f).
Proof.
  intros wide ss os strs syms nlocal f S R NL W FL PL. destruct (strs_layout _ _ R) as [-> NN]. set (names := strings os [[]]) in *.
  destruct (file_ok _ _ _ _ _ _ NN S NL W FL PL) as (ns & hs & j & p1 & p2 & p3 & p4 & Q).
  cbv zeta in Q. destruct Q as (E1 & HD & SX & SO & T1 & T2 & Q1 & Q2 & Q3 & Q4 & Q6 & Q7 & Q8 & RD & M1 & M2 & M3 & M4 & CH & LEN).
  assert (SS : Forall (section_ok wide) (map n_sec ns)) by (rewrite Q2; exact S).
  rewrite HD. match type of HD with _ = nohdr :: ?a :: ?b :: ?c :: hs => set (h1 := a) in *; set (h2 := b) in *; set (h3 := c) in * end.
  assert (FK : map place_of (filter keptb (nohdr :: h1 :: h2 :: h3 :: hs)) = [place_of h1; place_of h2; place_of h3] ++ flat_map (regions wide) ns).
  { rewrite <- (heads_regions _ _ _ _ _ _ SS Q4). reflexivity. }
  assert (PM : Permutation (flat_map (regions wide) ns ++ [place_of h1; place_of h2; place_of h3]) (map place_of (filter keptb (nohdr :: h1 :: h2 :: h3 :: hs)))).
  { rewrite FK. apply Permutation_app_comm. }
  split; [|split; [|split]].
  - intros i k h h' A B N K K'. change (disjoint (place_of h) (place_of h')). eapply pairs_filter; try eassumption; try (apply keptb_ok; assumption).
    eapply pairs_perm; [exact PM|]. eapply chain_pairs. exact CH.
  - intros h I K. rewrite SO. assert (IP : In (place_of h) (flat_map (regions wide) ns ++ [place_of h1; place_of h2; place_of h3])).
    { eapply Permutation_in; [apply Permutation_sym; exact PM|]. apply in_map, filter_In. split; [exact I|apply keptb_ok; exact K]. }
    destruct (chain_in _ _ _ _ _ CH IP) as (C1 & C2 & C3). split; [destruct wide; exact C1|]. split; [exact C2|]. split; [exact C3|].
    destruct I as [<-|[<-|[<-|[<-|I]]]].
    + destruct K as [K _]. contradiction.
    + split; [intros _; exact M1|]. intros _ X. exfalso. apply X. reflexivity.
    + split; [intros _; exact M2|]. intros _ X. exfalso. apply X. reflexivity.
    + split; [intros _; exact M3|]. intros X _. exfalso. apply X. left. reflexivity.
    + pose proof (heads_aligned _ _ _ _ _ _ _ _ Q1 SS Q4) as AL. rewrite Forall_forall in AL. destruct (AL h I K) as [A1 A2]. split; [exact A1|].
      intros X Y. destruct (A2 X) as [Z|Z]; [contradiction|exact Z].
  - rewrite SO. exact M4.
  - rewrite SO, <- LEN. cbn [length]. replace (Z.of_nat (Datatypes.S (Datatypes.S (Datatypes.S (Datatypes.S (length hs)))))) with (4 + Z.of_nat (length hs)) by lia. destruct wide; reflexivity.
Qed.

(** * The file is written when every alignment is 0 or a power of two, and only then *)
Definition align_ok (s : section) : bool := empty_section s || pow2_or_0 (o_align s).
Lemma file_offset_some : forall a p, 0 <= a -> (exists o, file_offset a p = Some o) <-> pow2_or_0 a = true.
Proof.
  intros a p A. unfold file_offset. rewrite <- exp2_ok. unfold is_exp2.
  destruct (Z.eqb_spec a 0) as [->|N0]; [cbn; split; eauto|]. destruct (Z.eqb_spec a 1) as [->|N1]; [cbn; split; eauto|]. cbn [orb].
  destruct (Z.land a (a - 1) =? 0); cbn [negb]; split; eauto; try discriminate. intros (o & H). discriminate.
Qed.
Lemma out_sections_some : forall wide ss k f i l, Forall (section_ok wide) ss -> l <> [] ->
  (exists r, out_sections wide k ss f i (layout 0 l) = Some r) <-> forallb align_ok ss = true.
Proof.
  intros wide. induction ss as [|s r IH]; intros k f i l S L; cbn [out_sections forallb]; [split; eauto|].
  apply Forall_cons_iff in S. destruct S as [S1 S2]. pose proof S1 as (_ & NT & _ & NA & _).
  unfold out_section, align_ok at 1. rewrite (nobits s NT). destruct (empty_section s); cbn [orb andb].
  - specialize (IH (Datatypes.S k) f (i + 1) l S2 L). rewrite <- IH. destruct (out_sections wide (Datatypes.S k) r f (i + 1) (layout 0 l)) as [[[[? ?] ?] ?]|].
    + split; eauto.
    + split; intros (x & X); discriminate.
  - pose proof (file_offset_some (o_align s) (Z.of_nat (length f)) ltac:(unfold range in NA; lia)) as FO.
    destruct (file_offset (o_align s) (Z.of_nat (length f))) as [off|].
    + replace (pow2_or_0 (o_align s)) with true by (symmetry; apply FO; eauto). cbn [andb]. destruct (o_rels s) as [|r0 rs].
      * match goal with |- context [out_sections wide (Datatypes.S k) r ?a ?b ?c] => specialize (IH (Datatypes.S k) a b l S2 L); rewrite <- IH; destruct (out_sections wide (Datatypes.S k) r a b c) as [[[[? ?] ?] ?]|] end.
        -- split; eauto.
        -- split; intros (x & X); discriminate.
      * rewrite append_layout by exact L.
        match goal with |- context [out_sections wide (Datatypes.S k) r ?a ?b (layout 0 ?c)] => assert (L' : c <> []) by (destruct l; [contradiction|discriminate]); specialize (IH (Datatypes.S k) a b c S2 L'); rewrite <- IH; destruct (out_sections wide (Datatypes.S k) r a b (layout 0 c)) as [[[[? ?] ?] ?]|] end.
        -- split; eauto.
        -- split; intros (x & X); discriminate.
    + split; [intros (x & X); discriminate|]. intro X. apply andb_true_iff in X. destruct X as [X _]. apply FO in X. destruct X. discriminate.
Qed.
Theorem write_total : forall wide ss strs syms nlocal, Forall (section_ok wide) ss ->
  ((exists f, write wide ss strs syms nlocal = Some f) <-> Forall (fun s => o_type s = 8 \/ o_align s = 0 \/ exists k, 0 <= k /\ o_align s = 2 ^ k) ss).
Proof.
  intros wide ss strs syms nlocal S.
  assert (A : forallb align_ok ss = true <-> Forall (fun s => o_type s = 8 \/ o_align s = 0 \/ exists k, 0 <= k /\ o_align s = 2 ^ k) ss).
  { rewrite forallb_forall, Forall_forall. unfold align_ok, empty_section, pow2_or_0. split; intros H s I; specialize (H s I).
    - apply orb_prop in H. destruct H as [H|H]; [left; apply Z.eqb_eq; exact H|right]. apply orb_prop in H. destruct H as [H|H]; [left; apply Z.eqb_eq; exact H|right].
      exists (Z.log2 (o_align s)). split; [apply Z.log2_nonneg|apply Z.eqb_eq; exact H].
    - destruct H as [->|[->|(k & K & ->)]]; [reflexivity|rewrite orb_true_r; reflexivity|]. rewrite Z.log2_pow2 by exact K. rewrite Z.eqb_refl, !orb_true_r. reflexivity. }
  rewrite <- A. unfold write. change st_create with (layout 0 [[]]). rewrite names_in_ok by discriminate. cbv beta iota.
  rewrite <- (out_sections_some wide ss 1 (repeat 0 (Z.to_nat (ehsize wide))) 3 ([[]] ++ map o_name ss) S) by discriminate.
  match goal with |- context [out_sections ?a ?b ?c ?d ?e ?g] => destruct (out_sections a b c d e g) as [[[[ns f1] i1] sh1]|] eqn:E end.
  - split; [eauto|]. intros _. assert (LS : sh1 <> []).
    { assert (G : forall ss k f i sh ns f' i' sh', sh <> [] -> out_sections wide k ss f i sh = Some (ns, f', i', sh') -> sh' <> []).
      { clear. induction ss as [|s r IH]; intros k f i sh ns f' i' sh' N H; cbn [out_sections] in H; [injection H; congruence|].
        destruct (out_section wide k s f i sh) as [[[[n f1] i1] sh1]|] eqn:E1; [|discriminate]. destruct (out_sections wide (Datatypes.S k) r f1 i1 sh1) as [[[[nr f2] i2] sh2]|] eqn:E2; [|discriminate].
        injection H as <- <- <- <-. eapply IH; [|exact E2]. unfold out_section in E1. destruct (Z.land (o_type s) SHT_NOBITS =? SHT_NOBITS); [injection E1; congruence|].
        destruct (file_offset (o_align s) (Z.of_nat (length f))); [|discriminate]. cbv zeta in E1. destruct (o_rels s); [injection E1; congruence|].
        unfold st_append in E1. destruct sh; [discriminate|]. injection E1 as _ _ _ <-. discriminate. }
      eapply G; [|exact E]. discriminate. }
    destruct sh1 as [|x y]; [contradiction|]. unfold st_append at 1. cbn [app st_append].
    match goal with |- context [out_heads ?a ?b ?c ?d] => destruct (out_heads a b c d) as [hs j] end. eauto.
  - split; [intros (f & X); discriminate|]. intros (r & X). pose proof (eq_trans (eq_sym E) X) as Q. discriminate Q.
Qed.
(** The symbol table claims an alignment of 8 that it does not have. *)
Definition odd_section : section := Section [46; 116; 101; 120; 116] 1 6 4 0 0 [144] [].
Theorem symtab_misaligned : exists f h, write true [odd_section] st_create [Symbol None 0 0 0 0 0 None 0] 1 = Some f /\
  nth_error (headers true f) 3 = Some h /\ h_type h = 2 /\ h_align h = 8 /\ h_offset h mod 8 <> 0.
Proof.
  eexists. eexists. split; [vm_compute; reflexivity|]. split; [vm_compute; reflexivity|]. vm_compute. repeat split. discriminate.
Qed.
