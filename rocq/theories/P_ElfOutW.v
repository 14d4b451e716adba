(** The ELF object file: what the writer leaves in the file. *)
From Coq Require Import ZArith List Bool Arith Lia Permutation.
From Verif Require Import Lib M_Elf P_Elf M_ElfOut P_ElfOut.
Import ListNotations.
Open Scope Z_scope.

(** * Alignment *)
Lemma round_up : forall k p, 0 <= k -> Z.land (p + 2 ^ k - 1) (Z.lnot (2 ^ k - 1)) = (p + 2 ^ k - 1) / 2 ^ k * 2 ^ k.
Proof.
  intros k p K. replace (2 ^ k - 1) with (Z.ones k) by (rewrite Z.ones_equiv; lia).
  rewrite <- Z.ldiff_land, Z.ldiff_ones_r, Z.shiftl_mul_pow2, Z.shiftr_div_pow2 by lia. reflexivity.
Qed.
Lemma round_up_ok : forall k p, 0 <= k -> let o := Z.land (p + 2 ^ k - 1) (Z.lnot (2 ^ k - 1)) in p <= o < p + 2 ^ k /\ o mod 2 ^ k = 0.
Proof.
  intros k p K. cbv zeta. rewrite round_up by lia. pose proof (Z.pow_pos_nonneg 2 k ltac:(lia) K) as P.
  pose proof (Z.div_mod (p + 2 ^ k - 1) (2 ^ k) ltac:(lia)) as D. pose proof (Z.mod_pos_bound (p + 2 ^ k - 1) (2 ^ k) P) as M. split.
  - lia.
  - apply Z.mod_mul. lia.
Qed.
Definition aligned (a o : Z) : Prop := a = 0 \/ o mod a = 0.
Lemma file_offset_ok : forall a p o, 0 <= a -> file_offset a p = Some o -> p <= o /\ aligned a o.
Proof.
  intros a p o A H. unfold file_offset in H. destruct (Z.eqb_spec a 0) as [->|N0].
  { injection H as <-. split; [lia|left; reflexivity]. }
  destruct (Z.eqb_spec a 1) as [->|N1].
  { injection H as <-. split; [lia|right; apply Z.mod_1_r]. }
  cbn [orb] in H. destruct (Z.eqb_spec (Z.land a (a - 1)) 0) as [L|L]; [|discriminate]. cbn [negb] in H. injection H as <-.
  rewrite (pow2 a ltac:(lia) L). pose proof (Z.log2_nonneg a) as K. set (k := Z.log2 a) in *. destruct (round_up_ok k p K) as [R1 R2]. split; [lia|right; exact R2].
Qed.
Lemma output_align_ok : forall k p, 0 <= k -> p <= output_align (2 ^ k) p /\ output_align (2 ^ k) p mod 2 ^ k = 0.
Proof.
  intros k p K. unfold output_align. replace (2 ^ k - 1) with (Z.ones k) by (rewrite Z.ones_equiv; lia). rewrite Z.land_ones by lia.
  pose proof (Z.pow_pos_nonneg 2 k ltac:(lia) K) as P. pose proof (Z.mod_pos_bound p (2 ^ k) P) as M. pose proof (Z.div_mod p (2 ^ k) ltac:(lia)) as D.
  destruct (Z.eqb_spec (2 ^ k - p mod 2 ^ k) (2 ^ k)) as [E|N].
  - split; lia.
  - split; [lia|]. replace (p + (2 ^ k - p mod 2 ^ k)) with ((p / 2 ^ k + 1) * 2 ^ k) by lia. apply Z.mod_mul. lia.
Qed.
Lemma seek_length : forall f p, Z.of_nat (length f) <= p -> Z.of_nat (length (seek f p)) = p.
Proof. intros f p H. unfold seek. rewrite app_length, repeat_length. lia. Qed.

(** * Sections *)
Lemma nobits : forall s, In (o_type s) [1; 3; 7; 8] -> (Z.land (o_type s) SHT_NOBITS =? SHT_NOBITS) = empty_section s.
Proof. intros s H. unfold empty_section. cbn in H. destruct H as [<-|[<-|[<-|[<-|[]]]]]; reflexivity. Qed.
Definition relnames (wide : bool) (ss : list section) : list str := map (fun s => relname wide (o_name s)) (filter has_rels ss).
Definition relbytes (wide : bool) (s : section) : list Z := concat (map (reloc_bytes wide) (o_rels s)).
Definition stored_ok (wide : bool) (f : list Z) (o : Z) (d : list Z) : Prop := ehsize wide <= o /\ has f o d.
Record note_ok (wide : bool) (f : list Z) (names : list str) (n : note) : Prop := {
  k_name : nth_error names (n_name n) = Some (o_name (n_sec n));
  k_empty : empty_section (n_sec n) = true -> n_offset n = 0 /\ n_size n = o_size (n_sec n);
  k_data : empty_section (n_sec n) = false -> stored_ok wide f (n_offset n) (o_data (n_sec n)) /\ n_size n = Z.of_nat (length (o_data (n_sec n)))
           /\ aligned (o_align (n_sec n)) (n_offset n);
  k_rels : has_rels (n_sec n) = true -> stored_ok wide f (n_reloff n) (relbytes wide (n_sec n)) /\
           n_reloff n mod 4 = 0 /\ exists p, n_relname n = Some p /\ nth_error names p = Some (relname wide (o_name (n_sec n))) }.
Lemma note_mono : forall wide f g names x n, (forall o d, stored_ok wide f o d -> stored_ok wide g o d) -> note_ok wide f names n -> note_ok wide g (names ++ x) n.
Proof.
  intros wide f g names x n G [A B C D]. assert (X : forall p s, nth_error names p = Some s -> nth_error (names ++ x) p = Some s).
  { intros p s H. rewrite nth_error_app1; [exact H|]. apply nth_error_Some. congruence. }
  constructor; auto.
  - intro E. destruct (C E) as (C1 & C2 & C3). auto.
  - intro E. destruct (D E) as (D1 & D2 & p & D3 & D4). split; [auto|]. split; [exact D2|]. exists p. auto.
Qed.
Lemma stored_app : forall wide f x o d, stored_ok wide f o d -> stored_ok wide (f ++ x) o d.
Proof. intros wide f x o d [A B]. split; [exact A|]. apply has_app. exact B. Qed.
Lemma stored_seek : forall wide f p o d, stored_ok wide f o d -> stored_ok wide (seek f p) o d.
Proof. intros wide f p o d [A B]. split; [exact A|]. apply has_seek. exact B. Qed.

(** The parts of the file that sections take *)
Definition regions (wide : bool) (n : note) : list (Z * Z) :=
  (if empty_section (n_sec n) then [] else [(n_offset n, n_size n)]) ++
  (if has_rels (n_sec n) then [(n_reloff n, relsize wide * Z.of_nat (length (o_rels (n_sec n))))] else []).
Fixpoint chain (lo : Z) (l : list (Z * Z)) (hi : Z) : Prop :=
  match l with [] => lo <= hi | (o, n) :: r => lo <= o /\ 0 <= n /\ chain (o + n) r hi end.
Lemma chain_app : forall l lo m l' hi, chain lo l m -> chain m l' hi -> chain lo (l ++ l') hi.
Proof.
  induction l as [|[o n] r IH]; intros lo m l' hi A B; cbn [app chain] in *.
  - destruct l' as [|[o n] q]; cbn [chain] in *; [lia|]. destruct B as (B1 & B2 & B3). split; [lia|auto].
  - destruct A as (A1 & A2 & A3). split; [exact A1|]. split; [exact A2|]. eapply IH; eassumption.
Qed.
Lemma concat_reloc_length : forall wide s, Z.of_nat (length (relbytes wide s)) = relsize wide * Z.of_nat (length (o_rels s)).
Proof. intros. unfold relbytes. apply concat_length. intro. apply reloc_length. Qed.
Lemma has_rels_false : forall s, has_rels s = false -> empty_section s = false -> o_rels s = [].
Proof. intros s H E. unfold has_rels in H. rewrite E in H. cbn in H. destruct (o_rels s); [reflexivity|discriminate]. Qed.

Lemma out_section_ok : forall wide k s f i l n f' i' sh', section_ok wide s -> l <> [] -> ehsize wide <= Z.of_nat (length f) ->
  nth_error l k = Some (o_name s) -> out_section wide k s f i (layout 0 l) = Some (n, f', i', sh') ->
  let l' := l ++ (if has_rels s then [relname wide (o_name s)] else []) in
  (exists x, f' = f ++ x) /\ sh' = layout 0 l' /\ note_ok wide f' l' n /\ n_sec n = s /\ n_index n = i + 1 /\
  i' = i + 1 + (if has_rels s then 1 else 0) /\ chain (Z.of_nat (length f)) (regions wide n) (Z.of_nat (length f')).
Proof.
  intros wide k s f i l n f' i' sh' (N1 & N2 & N3 & N4 & N5 & N6 & N7) L F K H. unfold out_section in H. rewrite (nobits s N2) in H.
  destruct (empty_section s) eqn:E.
  - injection H as <- <- <- <-. assert (HR : has_rels s = false) by (unfold has_rels; rewrite E; reflexivity). rewrite HR. cbv zeta. rewrite app_nil_r.
    split; [exists []; rewrite app_nil_r; reflexivity|]. split; [reflexivity|]. split; [|split; [reflexivity|split; [reflexivity|split; [lia|]]]].
    + constructor; cbn [n_sec n_name n_offset n_size]; auto; congruence.
    + unfold regions. cbn [n_sec]. rewrite E, HR. cbn. lia.
  - destruct (file_offset (o_align s) (Z.of_nat (length f))) as [off|] eqn:FO; [|discriminate].
    apply file_offset_ok in FO; [|unfold range in N4; lia]. destruct FO as [O1 O2]. pose proof (seek_length f off O1) as SL.
    assert (SD : stored_ok wide (seek f off ++ o_data s) off (o_data s)).
    { split; [lia|]. rewrite <- SL at 2. apply has_end. }
    cbv zeta in H. destruct (o_rels s) as [|r0 rs] eqn:R.
    + injection H as <- <- <- <-. assert (HR : has_rels s = false) by (unfold has_rels; rewrite R; apply andb_false_r). rewrite HR. cbv zeta. rewrite app_nil_r.
      split; [unfold seek; rewrite <- app_assoc; eexists; reflexivity|]. split; [reflexivity|]. split; [|split; [reflexivity|split; [reflexivity|split; [lia|]]]].
      * constructor; cbn [n_sec n_name n_offset n_size]; auto; congruence.
      * unfold regions. cbn [n_sec n_offset n_size]. rewrite E, HR. cbn [app chain]. rewrite app_length, Nat2Z.inj_add, SL. lia.
    + assert (HR : has_rels s = true) by (unfold has_rels; rewrite E, R; reflexivity). rewrite HR. cbv zeta.
      rewrite append_layout in H by exact L. rewrite <- R in H.
      set (f1 := seek f off ++ o_data s) in *. set (pos := Z.land (Z.of_nat (length f1) + 3) (Z.lnot 3)) in *.
      assert (P : Z.of_nat (length f1) <= pos /\ pos mod 4 = 0).
      { destruct (round_up_ok 2 (Z.of_nat (length f1)) ltac:(lia)) as [P1 P2]. unfold pos. replace (Z.of_nat (length f1) + 3) with (Z.of_nat (length f1) + 2 ^ 2 - 1) by lia.
        split; [exact (proj1 P1)|exact P2]. }
      destruct P as [P1 P2]. pose proof (seek_length f1 pos P1) as SL1. injection H as <- <- <- <-.
      assert (FL : Z.of_nat (length f1) = off + Z.of_nat (length (o_data s))) by (unfold f1; rewrite app_length, Nat2Z.inj_add, SL; reflexivity).
      split; [unfold f1, seek; rewrite <- !app_assoc; eexists; reflexivity|]. split; [reflexivity|]. split; [|split; [reflexivity|split; [reflexivity|split; [lia|]]]].
      * constructor; cbn [n_sec n_name n_offset n_size n_reloff n_relname].
        -- rewrite nth_error_app1; [exact K|]. apply nth_error_Some. congruence.
        -- congruence.
        -- intros _. split; [apply stored_app, stored_seek; exact SD|auto].
        -- intros _. split; [split; [lia|]; rewrite <- SL1 at 2; apply has_end|]. split; [exact P2|]. exists (length l).
           assert (LL : length (layout 0 l) = length l) by (rewrite <- (map_length snd), layout_snd; reflexivity). rewrite LL. split; [reflexivity|].
           rewrite nth_error_app2, Nat.sub_diag by lia. reflexivity.
      * unfold regions. cbn [n_sec n_offset n_size n_reloff]. rewrite E, HR. cbn [app chain]. rewrite app_length, Nat2Z.inj_add, SL1.
        fold (relbytes wide s). rewrite concat_reloc_length. assert (0 <= relsize wide) by (destruct wide; cbn; lia). nia.
Qed.

Lemma out_sections_ok : forall wide ss k f i l ns f' i' sh', Forall (section_ok wide) ss -> l <> [] -> ehsize wide <= Z.of_nat (length f) ->
  (forall j s, nth_error ss j = Some s -> nth_error l (k + j) = Some (o_name s)) ->
  out_sections wide k ss f i (layout 0 l) = Some (ns, f', i', sh') ->
  let l' := l ++ relnames wide ss in
  (exists x, f' = f ++ x) /\ sh' = layout 0 l' /\ Forall (note_ok wide f' l') ns /\ map n_sec ns = ss /\
  (forall n, (n < length ss)%nat -> nth n (map n_index ns) 0 = i + 1 + Z.of_nat n + Z.of_nat (length (filter has_rels (firstn n ss)))) /\
  chain (Z.of_nat (length f)) (flat_map (regions wide) ns) (Z.of_nat (length f')).
Proof.
  intros wide. induction ss as [|s r IH]; intros k f i l ns f' i' sh' S L F K H; cbn [out_sections] in H.
  - injection H as <- <- <- <-. cbv zeta. cbn. rewrite !app_nil_r. split; [exists []; rewrite app_nil_r; reflexivity|].
    split; [reflexivity|]. split; [constructor|]. split; [reflexivity|]. split; [lia|lia].
  - apply Forall_cons_iff in S. destruct S as [S1 S2].
    destruct (out_section wide k s f i (layout 0 l)) as [[[[n f1] i1] sh1]|] eqn:E1; [|discriminate].
    destruct (out_sections wide (Datatypes.S k) r f1 i1 sh1) as [[[[nr f2] i2] sh2]|] eqn:E2; [|discriminate]. injection H as <- <- <- <-.
    apply out_section_ok in E1; [|exact S1|exact L|exact F|specialize (K O s eq_refl); rewrite Nat.add_0_r in K; exact K].
    cbv zeta in E1. destruct E1 as ((x & ->) & -> & A3 & A4 & A5 & A6 & A7). cbv zeta in IH.
    apply IH in E2; [|exact S2|destruct l; [contradiction|discriminate]|rewrite app_length; lia|].
    2: { intros j s' N. specialize (K (Datatypes.S j) s' N). rewrite nth_error_app1; [rewrite <- K; f_equal; lia|]. replace (Datatypes.S k + j)%nat with (k + Datatypes.S j)%nat by lia. apply nth_error_Some. congruence. }
    destruct E2 as ((y & ->) & -> & B3 & B4 & B5 & B6). cbv zeta.
    assert (RN : relnames wide (s :: r) = (if has_rels s then [relname wide (o_name s)] else []) ++ relnames wide r).
    { unfold relnames. cbn [filter]. destruct (has_rels s); reflexivity. }
    rewrite RN, !app_assoc in *. split; [exists (x ++ y); rewrite app_assoc; reflexivity|]. split; [reflexivity|]. split; [|split; [|split]].
    + constructor; [|exact B3]. eapply note_mono; [|exact A3]. intros. apply stored_app. assumption.
    + cbn [map]. rewrite A4, B4. reflexivity.
    + intros [|m] M; cbn [map nth firstn filter length].
      * rewrite A5. lia.
      * cbn [length] in M. rewrite B5 by lia. rewrite A6. destruct (has_rels s); cbn [length]; lia.
    + cbn [flat_map]. eapply chain_app; eassumption.
Qed.
Lemma names_in_ok : forall ss l, l <> [] -> names_in ss (layout 0 l) = Some (layout 0 (l ++ map o_name ss)).
Proof.
  induction ss as [|s r IH]; intros l L; cbn [names_in map]; [rewrite app_nil_r; reflexivity|]. rewrite append_layout by exact L.
  rewrite IH by (destruct l; [contradiction|discriminate]). rewrite <- app_assoc. reflexivity.
Qed.
