(** The ELF object file: reading what was written. *)
From Coq Require Import ZArith List Bool Arith Lia Permutation.
From Verif Require Import Lib M_Elf P_Elf M_ElfOut P_ElfOut P_ElfOutW.
Import ListNotations.
Open Scope Z_scope.

Lemma has_bound : forall f o d, has f o d -> 0 <= o /\ o + Z.of_nat (length d) <= Z.of_nat (length f).
Proof. intros f o d (a & c & -> & ->). rewrite !app_length. lia. Qed.
Lemma name_ok : forall names p s, nth_error names p = Some s -> is_cstr s -> total names < 2 ^ 32 ->
  range (str_index (layout 0 names) p) 32 /\ string_at (flat names) (str_index (layout 0 names) p) = Some s.
Proof.
  intros names p s N C T. unfold str_index. rewrite (layout_nth _ _ _ _ N). rewrite Z.add_0_l.
  assert (R : 0 <= total (firstn p names) < 2 ^ 32).
  { split; [apply total_nonneg|]. rewrite <- (firstn_skipn p names), total_app in T. pose proof (total_nonneg (skipn p names)). lia. }
  rewrite u64_small by (change w64 with (2 ^ 64); lia). split; [exact R|]. apply flat_at; assumption.
Qed.
Lemma relname_cstr : forall wide s, is_cstr s -> is_cstr (relname wide s).
Proof. intros wide s H. unfold relname, is_cstr in *. destruct wide; repeat constructor; (discriminate || assumption). Qed.

Definition head_of (wide : bool) (sh : strtab) (n : note) : header :=
  Header (str_index sh (n_name n)) (o_type (n_sec n)) (o_flags (n_sec n)) (n_offset n) (n_size n) 0 0 (o_align (n_sec n)) (o_entsize (n_sec n)).
Definition rel_head (wide : bool) (sh : strtab) (i : Z) (n : note) : header :=
  Header (match n_relname n with Some p => str_index sh p | None => 0 end) (if wide then SHT_RELA else SHT_REL) 0
    (n_reloff n) (relsize wide * Z.of_nat (length (o_rels (n_sec n)))) 3 i (wordsize wide) (relsize wide).
Lemma out_head_eq : forall wide sh i n, In (o_type (n_sec n)) [1; 3; 7; 8] ->
  out_head wide sh i n = if has_rels (n_sec n) then ([head_of wide sh n; rel_head wide sh (i + 1) n], i + 1 + 1) else ([head_of wide sh n], i + 1).
Proof.
  intros wide sh i n T. unfold out_head. rewrite (nobits _ T). unfold has_rels, rel_head, head_of.
  destruct (empty_section (n_sec n)); [reflexivity|]. destruct (o_rels (n_sec n)); reflexivity.
Qed.
Lemma head_ok : forall wide f names n, note_ok wide f names n -> section_ok wide (n_sec n) -> total names < 2 ^ 32 -> Z.of_nat (length f) < 2 ^ 32 ->
  header_ok wide (head_of wide (layout 0 names) n).
Proof.
  intros wide f names n [A B C D] (N1 & N2 & N3 & N4 & N5 & N6 & N7) T F. destruct (name_ok _ _ _ A N1 T) as [R _].
  unfold header_ok, head_of. cbn [h_name h_type h_flags h_offset h_size h_link h_info h_align h_entsize].
  assert (TY : range (o_type (n_sec n)) 32) by (unfold range; cbn in N2; destruct N2 as [<-|[<-|[<-|[<-|[]]]]]; lia).
  assert (Z0 : range 0 32) by (unfold range; lia).
  assert (OS : range (n_offset n) 32 /\ range (n_size n) (if wide then 64 else 32)).
  { destruct (empty_section (n_sec n)) eqn:E.
    - destruct (B eq_refl) as [-> ->]. auto.
    - destruct (C eq_refl) as ([_ H] & -> & _). apply has_bound in H. unfold range. destruct wide; lia. }
  destruct OS. repeat (split; [assumption|]). assumption.
Qed.
Lemma rel_head_ok : forall wide f names i n, note_ok wide f names n -> section_ok wide (n_sec n) -> has_rels (n_sec n) = true -> total names < 2 ^ 32 -> Z.of_nat (length f) < 2 ^ 32 ->
  range i 32 -> header_ok wide (rel_head wide (layout 0 names) i n).
Proof.
  intros wide f names i n [A B C D] (N1 & _) HR T F I. destruct (D HR) as ([_ D1] & D2 & p & D3 & D4).
  destruct (name_ok _ _ _ D4 (relname_cstr wide _ N1) T) as [R _]. apply has_bound in D1. rewrite concat_reloc_length in D1.
  unfold header_ok, rel_head. rewrite D3. cbn [h_name h_type h_flags h_offset h_size h_link h_info h_align h_entsize].
  assert (0 <= relsize wide * Z.of_nat (length (o_rels (n_sec n)))) by (destruct wide; cbn [relsize]; lia).
  unfold range in *. destruct wide; cbn [SHT_RELA SHT_REL wordsize relsize] in *; unfold SHT_RELA, SHT_REL; lia.
Qed.
(** Reading a section and its relocations. *)
Lemma read_head : forall wide f names n hs, note_ok wide f names n -> section_ok wide (n_sec n) -> total names < 2 ^ 32 ->
  stored (nth (Z.to_nat (shstrndx wide f)) hs nohdr) f = flat names ->
  read_section wide f hs (head_of wide (layout 0 names) n) = sect_view (n_sec n).
Proof.
  intros wide f names n hs [A B C D] (N1 & N2 & _) T S. destruct (name_ok _ _ _ A N1 T) as [_ R].
  unfold read_section. rewrite S. unfold head_of at 1. cbn [h_name]. rewrite R. unfold sect_view, read_content, stored.
  unfold head_of. cbn [h_name h_type h_flags h_offset h_size h_link h_info h_align h_entsize].
  destruct (empty_section (n_sec n)) eqn:E.
  - destruct (B eq_refl) as [-> ->]. unfold empty_section in E. apply Z.eqb_eq in E. rewrite E. reflexivity.
  - destruct (C eq_refl) as ([_ H] & -> & _). rewrite (has_at _ _ _ _ H eq_refl). unfold empty_section in E. cbn in N2.
    destruct N2 as [X|[X|[X|[X|[]]]]]; rewrite <- X in *; try discriminate; destruct wide; reflexivity.
Qed.
Lemma read_rel_head : forall wide f names n hs i, note_ok wide f names n -> section_ok wide (n_sec n) -> has_rels (n_sec n) = true -> total names < 2 ^ 32 ->
  stored (nth (Z.to_nat (shstrndx wide f)) hs nohdr) f = flat names ->
  read_section wide f hs (rel_head wide (layout 0 names) i n) = rel_view wide i (n_sec n).
Proof.
  intros wide f names n hs i [A B C D] (N1 & _ & _ & _ & _ & _ & N7) HR T S. destruct (D HR) as ([_ D1] & D2 & p & D3 & D4).
  destruct (name_ok _ _ _ D4 (relname_cstr wide _ N1) T) as [_ R].
  unfold read_section. rewrite S. unfold rel_head at 1. rewrite D3. cbn [h_name]. rewrite R. unfold read_content, rel_view.
  assert (Y : forall h, h_offset h = n_reloff n -> h_size h = relsize wide * Z.of_nat (length (o_rels (n_sec n))) -> h_entsize h = relsize wide ->
              map (read_reloc wide f) (entries h) = o_rels (n_sec n)).
  { intros h Y1 Y2 Y3. rewrite <- (map_id (o_rels (n_sec n))). apply (read_table (reloc_bytes wide) _ _ (relsize wide) _ f); auto.
    - intro. apply reloc_length.
    - destruct wide; cbn; lia.
    - rewrite Y1. exact D1.
    - intros x o X H. apply read_reloc_ok; [exact H|]. rewrite Forall_forall in N7. apply N7. exact X. }
  destruct wide; cbn -[entries read_reloc Z.mul Z.of_nat]; rewrite Y by reflexivity; reflexivity.
Qed.

Lemma out_heads_ok : forall wide f names hs0 ns i hs j, Forall (note_ok wide f names) ns -> Forall (section_ok wide) (map n_sec ns) -> total names < 2 ^ 32 ->
  Z.of_nat (length f) < 2 ^ 32 -> 0 <= i -> out_heads wide (layout 0 names) i ns = (hs, j) -> j < 2 ^ 32 ->
  stored (nth (Z.to_nat (shstrndx wide f)) hs0 nohdr) f = flat names ->
  Forall (header_ok wide) hs /\ map (read_section wide f hs0) hs = sect_views wide (i + 1) (map n_sec ns).
Proof.
  intros wide f names hs0. induction ns as [|n r IH]; intros i hs j K S T F I H J ST; cbn [out_heads map] in *.
  - injection H as <- <-. split; [constructor|reflexivity].
  - apply Forall_cons_iff in K. apply Forall_cons_iff in S. destruct K as [K1 K2]. destruct S as [S1 S2].
    pose proof S1 as (_ & NT & _). rewrite (out_head_eq _ _ _ _ NT) in H. cbn [sect_views].
    assert (MJ : forall ns i hs j, out_heads wide (layout 0 names) i ns = (hs, j) -> i <= j).
    { clear. induction ns as [|n r IH]; intros i hs j H; cbn [out_heads] in H; [injection H; lia|].
      destruct (out_head wide (layout 0 names) i n) as [h i1] eqn:E1. destruct (out_heads wide (layout 0 names) i1 r) as [h2 j2] eqn:E2. injection H as <- <-. apply IH in E2.
      unfold out_head in E1. destruct (if Z.land (o_type (n_sec n)) SHT_NOBITS =? SHT_NOBITS then [] else o_rels (n_sec n)); injection E1 as <- <-; lia. }
    destruct (has_rels (n_sec n)) eqn:HR.
    + destruct (out_heads wide (layout 0 names) (i + 1 + 1) r) as [h2 j2] eqn:E2. injection H as <- <-. pose proof (MJ _ _ _ _ E2) as JJ.
      assert (I2 : 0 <= i + 1 + 1) by lia. destruct (IH _ _ _ K2 S2 T F I2 E2 J ST) as [A B]. split.
      * cbn [app]. constructor; [eapply head_ok; eassumption|]. constructor; [|exact A]. eapply rel_head_ok; try eassumption. unfold range. lia.
      * cbn [app map]. rewrite (read_head wide f names n hs0 K1 S1 T ST), (read_rel_head wide f names n hs0 (i + 1) K1 S1 HR T ST), B.
        replace (i + 1 + 1 + 1) with (i + 1 + 2) by lia. reflexivity.
    + destruct (out_heads wide (layout 0 names) (i + 1) r) as [h2 j2] eqn:E2. injection H as <- <-. pose proof (MJ _ _ _ _ E2) as JJ.
      assert (I2 : 0 <= i + 1) by lia. destruct (IH _ _ _ K2 S2 T F I2 E2 J ST) as [A B]. split.
      * cbn [app]. constructor; [eapply head_ok; eassumption|]. exact A.
      * cbn [app map]. rewrite (read_head wide f names n hs0 K1 S1 T ST), B. reflexivity.
Qed.
Lemma out_heads_count : forall wide sh ns i hs j, Forall (section_ok wide) (map n_sec ns) -> out_heads wide sh i ns = (hs, j) ->
  j = i + Z.of_nat (length hs) /\ length hs = (length ns + length (filter has_rels (map n_sec ns)))%nat.
Proof.
  intros wide sh. induction ns as [|n r IH]; intros i hs j S H; cbn [out_heads map filter length] in *.
  - injection H as <- <-. cbn. lia.
  - apply Forall_cons_iff in S. destruct S as [S1 S2]. pose proof S1 as (_ & NT & _). rewrite (out_head_eq _ _ _ _ NT) in H. destruct (has_rels (n_sec n)).
    + destruct (out_heads wide sh (i + 1 + 1) r) as [h2 j2] eqn:E2. injection H as <- <-. apply IH in E2; [|exact S2]. cbn [app length]. lia.
    + destruct (out_heads wide sh (i + 1) r) as [h2 j2] eqn:E2. injection H as <- <-. apply IH in E2; [|exact S2]. cbn [app length]. lia.
Qed.
(** Sections keep their places. *)
Lemma sect_views_nth : forall wide ss k n s, nth_error ss n = Some s ->
  nth_error (sect_views wide k ss) (n + length (filter has_rels (firstn n ss))) = Some (sect_view s).
Proof.
  intros wide. induction ss as [|x r IH]; intros k [|n] s H; try discriminate; cbn [nth_error] in H.
  - injection H as ->. cbn [sect_views firstn filter length Nat.add]. destruct (has_rels s); reflexivity.
  - cbn [sect_views firstn filter]. destruct (has_rels x); cbn [length].
    + replace (Datatypes.S n + Datatypes.S (length (filter has_rels (firstn n r))))%nat with (Datatypes.S (Datatypes.S (n + length (filter has_rels (firstn n r))))) by lia.
      cbn [nth_error]. apply IH. exact H.
    + cbn [Nat.add nth_error]. apply IH. exact H.
Qed.

(** * The whole file *)
Record parts (wide : bool) (ss : list section) (names : list str) (syms : list symbol) (nlocal : Z) (f : list Z) : Prop := {
  q_file : exists ns hs j p1 p2 p3 p4,
    let sh := layout 0 (section_names wide ss) in
    let h1 := Header (str_index sh (length ss + length (filter has_rels ss) + 3)) 3 0 p1 (u64 (total (section_names wide ss))) 0 0 0 0 in
    let h2 := Header (str_index sh (length ss + length (filter has_rels ss) + 1)) 3 0 p2 (u64 (total names)) 0 0 0 0 in
    let h3 := Header (str_index sh (length ss + length (filter has_rels ss) + 2)) 2 0 p3 (symsize wide * Z.of_nat (length syms)) 2 nlocal (wordsize wide) (symsize wide) in
    Forall (note_ok wide f (section_names wide ss)) ns /\ map n_sec ns = ss /\
    (forall n, (n < length ss)%nat -> nth n (map n_index ns) 0 = place ss n) /\
    out_heads wide sh 3 ns = (hs, j) /\
    has f 0 (ehdr_bytes wide p4 (j + 1) 1) /\
    has f p1 (flat (section_names wide ss)) /\ has f p2 (flat names) /\
    has f p3 (concat (map (symbol_bytes wide (layout 0 names) (map n_index ns)) syms)) /\
    has f p4 (concat (map (header_bytes wide) (nohdr :: h1 :: h2 :: h3 :: hs))) /\
    p1 mod 4 = 0 /\ p2 mod 4 = 0 /\ p3 mod 4 = 0 /\ p4 mod 16 = 0 /\
    chain (ehsize wide) (flat_map (regions wide) ns ++ [(p1, total (section_names wide ss)); (p2, total names); (p3, symsize wide * Z.of_nat (length syms))]) p4 /\
    p4 + shsize wide * (4 + Z.of_nat (length hs)) = Z.of_nat (length f) }.

Lemma some_inj : forall {A} (a b : A), Some a = Some b -> a = b.
Proof. intros A a b H. injection H. auto. Qed.
Lemma write_parts : forall wide ss names syms nlocal f, names <> [] -> Forall (section_ok wide) ss ->
  write wide ss (layout 0 names) syms nlocal = Some f -> parts wide ss names syms nlocal f.
Proof.
  intros wide ss names syms nlocal f NN S H. unfold write in H. change st_create with (layout 0 [[]]) in H.
  rewrite names_in_ok in H by discriminate. cbv beta iota in H.
  match type of H with context [out_sections ?a ?b ?c ?d ?e ?g] => destruct (out_sections a b c d e g) as [[[[ns f1] i1] sh1]|] eqn:E1; [|discriminate] end.
  apply out_sections_ok in E1; [|exact S|discriminate| |].
  2: { rewrite repeat_length, Z2Nat.id by (destruct wide; cbn; lia). lia. }
  2: { intros j s N. cbn [app Nat.add nth_error]. rewrite nth_error_map, N. reflexivity. }
  cbv zeta in E1. destruct E1 as ((x & X) & -> & NO & NS & IX & CH).
  match type of H with context [st_append (layout 0 ?l) STRTAB] => set (l1 := l) in * end.
  rewrite append_layout in H by discriminate. cbv beta iota in H. rewrite append_layout in H by discriminate. cbv beta iota in H. rewrite append_layout in H by discriminate. cbv beta iota in H.
  match type of H with context [layout 0 (@app ?T ?a (@cons ?T SHSTRTAB nil))] => assert (LN : @app T a (@cons T SHSTRTAB nil) = section_names wide ss) end.
  { unfold l1, section_names, relnames, relname. rewrite <- !app_assoc. cbn [app]. reflexivity. }
  rewrite LN in H. assert (LL : forall l, length (layout 0 l) = length l) by (intro l; rewrite <- (map_length snd), layout_snd; reflexivity).
  rewrite !LL in H. assert (L1 : length l1 = (length ss + length (filter has_rels ss) + 1)%nat).
  { unfold l1, relnames. rewrite !app_length, !map_length. cbn [length]. lia. }
  assert (L2 : length (l1 ++ [STRTAB]) = (length ss + length (filter has_rels ss) + 2)%nat) by (rewrite app_length, L1; cbn [length]; lia).
  assert (L3 : length ((l1 ++ [STRTAB]) ++ [SYMTAB]) = (length ss + length (filter has_rels ss) + 3)%nat) by (rewrite app_length, L2; cbn [length]; lia).
  rewrite L3, L2, L1 in H.
  rewrite !output_flat, !output_size in H. unfold SHT_STRTAB, SHT_SYMTAB in H. cbv zeta in H.
  set (shn := section_names wide ss) in *.
  set (p1 := output_align 4 (Z.of_nat (length f1))) in *. set (f2 := seek f1 p1 ++ flat shn) in *.
  set (p2 := output_align 4 (Z.of_nat (length f2))) in *. set (f3 := seek f2 p2 ++ flat names) in *.
  set (p3 := output_align 4 (Z.of_nat (length f3))) in *. set (sy := concat (map (symbol_bytes wide (layout 0 names) (map n_index ns)) syms)) in *. set (f4 := seek f3 p3 ++ sy) in *.
  set (p4 := output_align 16 (Z.of_nat (length f4))) in *.
  destruct (out_heads wide (layout 0 shn) 3 ns) as [hs j] eqn:OH. cbv zeta in H.
  assert (A1 : Z.of_nat (length f1) <= p1 /\ p1 mod 4 = 0) by (apply (output_align_ok 2); lia).
  assert (A2 : Z.of_nat (length f2) <= p2 /\ p2 mod 4 = 0) by (apply (output_align_ok 2); lia).
  assert (A3 : Z.of_nat (length f3) <= p3 /\ p3 mod 4 = 0) by (apply (output_align_ok 2); lia).
  assert (A4 : Z.of_nat (length f4) <= p4 /\ p4 mod 16 = 0) by (apply (output_align_ok 4); lia).
  destruct A1 as [A1 M1], A2 as [A2 M2], A3 as [A3 M3], A4 as [A4 M4].
  pose proof (seek_length _ _ A1) as S1. pose proof (seek_length _ _ A2) as S2. pose proof (seek_length _ _ A3) as S3. pose proof (seek_length _ _ A4) as S4.
  assert (F2 : Z.of_nat (length f2) = p1 + total shn) by (unfold f2; rewrite app_length, Nat2Z.inj_add, S1, flat_total; reflexivity).
  assert (F3 : Z.of_nat (length f3) = p2 + total names) by (unfold f3; rewrite app_length, Nat2Z.inj_add, S2, flat_total; reflexivity).
  assert (SY : Z.of_nat (length sy) = symsize wide * Z.of_nat (length syms)) by (unfold sy; apply concat_length; intro; apply symbol_length).
  assert (F4 : Z.of_nat (length f4) = p3 + symsize wide * Z.of_nat (length syms)) by (unfold f4; rewrite app_length, Nat2Z.inj_add, S3, SY; reflexivity).
  pose proof (total_nonneg shn) as T1. pose proof (total_nonneg names) as T2. assert (T3 : 0 <= symsize wide * Z.of_nat (length syms)) by (destruct wide; cbn [symsize]; lia).
  assert (F1 : ehsize wide <= Z.of_nat (length f1)) by (rewrite X, app_length, repeat_length; destruct wide; cbn [ehsize]; lia).
  match type of H with Some (?e ++ skipn _ (seek f4 p4 ++ ?t)) = _ => set (eh := e) in *; set (tb := t) in * end.
  assert (EL : Z.of_nat (length eh) = ehsize wide) by (apply ehdr_length).
  assert (TL : Z.of_nat (length tb) = shsize wide * (4 + Z.of_nat (length hs))).
  { unfold tb. rewrite (concat_length (header_bytes wide) (shsize wide)) by (intro; apply header_length). cbn [length]. lia. }
  set (f5 := seek f4 p4 ++ tb) in *. apply some_inj in H. symmetry in H.
  assert (PT : forall o d, stored_ok wide f5 o d -> stored_ok wide f o d).
  { intros o d [O D]. split; [exact O|]. rewrite H. apply has_patch; [exact D|lia]. }
  assert (UP : forall o d, stored_ok wide f4 o d -> stored_ok wide f o d).
  { intros o d O. apply PT. unfold f5. apply stored_app, stored_seek. exact O. }
  assert (UP3 : forall o d, stored_ok wide f3 o d -> stored_ok wide f o d) by (intros o d O; apply UP; unfold f4; apply stored_app, stored_seek; exact O).
  assert (UP2 : forall o d, stored_ok wide f2 o d -> stored_ok wide f o d) by (intros o d O; apply UP3; unfold f3; apply stored_app, stored_seek; exact O).
  assert (UP1 : forall o d, stored_ok wide f1 o d -> stored_ok wide f o d) by (intros o d O; apply UP2; unfold f2; apply stored_app, stored_seek; exact O).
  constructor. exists ns, hs, j, p1, p2, p3, p4. cbv zeta. fold shn.
  assert (LN' : shn = l1 ++ [STRTAB; SYMTAB; SHSTRTAB]) by (rewrite <- LN, <- !app_assoc; reflexivity).
  split. { rewrite LN'. revert NO. apply Forall_impl. intros n K. eapply note_mono; [exact UP1|exact K]. }
  split; [exact NS|]. split. { intros n L. rewrite IX by exact L. unfold place. lia. }
  split; [exact OH|].
  split. { exists [], (skipn (length eh) f5). split; [exact H|reflexivity]. }
  split. { apply (UP2 p1 (flat shn)). split; [lia|]. unfold f2. rewrite <- S1 at 2. apply has_end. }
  split. { apply (UP3 p2 (flat names)). split; [lia|]. unfold f3. rewrite <- S2 at 2. apply has_end. }
  split. { apply (UP p3 sy). split; [lia|]. unfold f4. rewrite <- S3 at 2. apply has_end. }
  split. { apply (PT p4 tb). split; [lia|]. unfold f5. rewrite <- S4 at 2. apply has_end. }
  split; [exact M1|]. split; [exact M2|]. split; [exact M3|]. split; [exact M4|].
  split.
  - eapply chain_app.
    + rewrite repeat_length, Z2Nat.id in CH by (destruct wide; cbn; lia). exact CH.
    + cbn [chain]. lia.
  - rewrite H. unfold f5. rewrite app_length, skipn_length, app_length. rewrite <- TL. lia.
Qed.
