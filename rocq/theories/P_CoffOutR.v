(** The COFF object file: flags, section headers, relocations and symbols are read back. *)
From Coq Require Import ZArith List Bool Arith Lia.
From Verif Require Import Lib M_Elf P_Elf M_ElfOut P_ElfOut P_ElfOutR M_CoffReloc M_CoffOut P_CoffOut.
Import ListNotations.
Open Scope Z_scope.

(** ** Flags *)
Definition mixed (f j : Z) (ov : bool) : Z := let g := Z.lor (Z.land f (Z.lnot 15728640)) (Z.shiftl j 20) in if ov then Z.lor g 16777216 else g.
Lemma mixed_bit : forall f j ov n, 0 <= j < 16 -> Z.testbit f 24 = false -> 0 <= n ->
  Z.testbit (mixed f j ov) n = if (20 <=? n) && (n <? 24) then Z.testbit j (n - 20) else if n =? 24 then ov else Z.testbit f n.
Proof.
  intros f j ov n J F N.
  assert (JH : forall m, 4 <= m -> Z.testbit j m = false).
  { intros m M. replace j with (Z.land j (Z.ones 4)) by (rewrite Z.land_ones by lia; apply Z.mod_small; lia). rewrite Z.land_spec, Z.ones_spec_high by lia. apply andb_false_r. }
  assert (G : Z.testbit (Z.lor (Z.land f (Z.lnot 15728640)) (Z.shiftl j 20)) n = if (20 <=? n) && (n <? 24) then Z.testbit j (n - 20) else Z.testbit f n).
  { rewrite Z.lor_spec, Z.land_spec, Z.lnot_spec, Z.shiftl_spec by lia. change 15728640 with (Z.shiftl (Z.ones 4) 20). rewrite Z.shiftl_spec by lia.
    destruct (Z.leb_spec 20 n) as [A|A]; [destruct (Z.ltb_spec n 24) as [B|B]|].
    - rewrite Z.ones_spec_low by lia. cbn. rewrite andb_false_r. reflexivity.
    - rewrite Z.ones_spec_high by lia. rewrite (JH (n - 20)) by lia. cbn. rewrite andb_true_r. apply orb_false_r.
    - rewrite !(Z.testbit_neg_r _ (n - 20)) by lia. cbn. rewrite andb_true_r. apply orb_false_r. }
  unfold mixed. cbv zeta. change 16777216 with (2 ^ 24). destruct ov.
  - rewrite Z.lor_spec, G, Z.pow2_bits_eqb by lia. rewrite (Z.eqb_sym 24 n). destruct (Z.eqb_spec n 24) as [->|E]; [rewrite orb_true_r; reflexivity|apply orb_false_r].
  - rewrite G. destruct (Z.eqb_spec n 24) as [->|E]; [exact F|reflexivity].
Qed.
Lemma range_bits : forall v k, 0 <= k -> (forall n, k <= n -> Z.testbit v n = false) -> range v k.
Proof.
  intros v k K H. assert (E : v = Z.land v (Z.ones k)).
  { apply Z.bits_inj'. intros n N. rewrite Z.land_spec. destruct (Z.lt_ge_cases n k); [rewrite Z.ones_spec_low by lia|rewrite Z.ones_spec_high, H by lia].
    - symmetry. apply andb_true_r. - reflexivity. }
  rewrite E, Z.land_ones by lia. apply Z.mod_pos_bound. apply Z.pow_pos_nonneg; lia.
Qed.
Lemma range_high : forall v k n, range v k -> 0 <= k <= n -> Z.testbit v n = false.
Proof.
  intros v k n R K. unfold range in R. replace v with (Z.land v (Z.ones k)) by (rewrite Z.land_ones by lia; apply Z.mod_small; exact R).
  rewrite Z.land_spec, Z.ones_spec_high by lia. apply andb_false_r.
Qed.
Lemma plain_bit : forall v n, 0 <= n -> Z.testbit (plain v) n = Z.testbit v n && ((n <? 20) || (25 <=? n) && (n <? 32)).
Proof.
  intros v n N. unfold plain. rewrite Z.land_spec. f_equal. change 4262461439 with (Z.lor (Z.ones 20) (Z.shiftl (Z.ones 7) 25)).
  rewrite Z.lor_spec, Z.shiftl_spec by lia.
  destruct (Z.ltb_spec n 20) as [A|A]; [rewrite Z.ones_spec_low by lia; reflexivity|rewrite Z.ones_spec_high by lia].
  destruct (Z.leb_spec 25 n) as [B|B]; [|rewrite Z.testbit_neg_r by lia; reflexivity].
  destruct (Z.ltb_spec n 32) as [C|C]; [rewrite Z.ones_spec_low by lia|rewrite Z.ones_spec_high by lia]; reflexivity.
Qed.
Lemma mixed_ok : forall f j ov, 0 <= j < 16 -> range f 32 -> Z.testbit f 24 = false ->
  range (mixed f j ov) 32 /\ plain (mixed f j ov) = plain f /\ (mixed f j ov / 2 ^ 20) mod 16 = j /\ Z.testbit (mixed f j ov) 24 = ov.
Proof.
  intros f j ov J R F. repeat match goal with |- _ /\ _ => split end.
  - apply range_bits; [lia|]. intros n N. rewrite mixed_bit by (assumption || lia). destruct (Z.ltb_spec n 24); [lia|]. rewrite andb_false_r.
    destruct (Z.eqb_spec n 24); [lia|]. apply (range_high f 32); [exact R|lia].
  - apply Z.bits_inj'. intros n N. rewrite !plain_bit, mixed_bit by (assumption || lia).
    destruct (Z.leb_spec 20 n); destruct (Z.ltb_spec n 24); destruct (Z.eqb_spec n 24); destruct (Z.ltb_spec n 20); destruct (Z.leb_spec 25 n); try lia; cbn; rewrite ?andb_false_r; reflexivity.
  - rewrite <- Z.shiftr_div_pow2 by lia. change 16 with (2 ^ 4). rewrite <- Z.land_ones by lia. apply Z.bits_inj'. intros n N.
    rewrite Z.land_spec, Z.shiftr_spec, mixed_bit by (assumption || lia).
    destruct (Z.lt_ge_cases n 4).
    + rewrite Z.ones_spec_low by lia. destruct (Z.leb_spec 20 (n + 20)); [|lia]. destruct (Z.ltb_spec (n + 20) 24); [|lia]. cbn. rewrite andb_true_r. f_equal. lia.
    + rewrite Z.ones_spec_high by lia. rewrite andb_false_r. symmetry. apply (range_high j 4); [unfold range; lia|lia].
  - rewrite mixed_bit by (assumption || lia). reflexivity.
Qed.
Lemma head_flags_ok : forall fl t, range (s_flags (t_sec t)) 32 -> Z.testbit (s_flags (t_sec t)) 24 = false ->
  (s_align (t_sec t) = 0 \/ exists k, 0 <= k /\ s_align (t_sec t) = 2 ^ k) ->
  range (head_flags fl t) 32 /\ plain (head_flags fl t) = plain (s_flags (t_sec t)) /\ align_of (head_flags fl t) = Z.min (s_align (t_sec t)) 8192 /\
  Z.testbit (head_flags fl t) 24 = (65536 <=? t_nreloc t) && win fl.
Proof.
  intros fl t R B A. destruct (align_field _ A) as (j & J & E & M).
  assert (H : head_flags fl t = mixed (s_flags (t_sec t)) j ((65536 <=? t_nreloc t) && win fl)).
  { unfold head_flags, mixed. cbv zeta. rewrite align_steps_add, E, field_add by lia. reflexivity. }
  rewrite H. destruct (mixed_ok (s_flags (t_sec t)) j ((65536 <=? t_nreloc t) && win fl)) as (R1 & R2 & R3 & R4); auto; try lia.
  split; [exact R1|]. split; [exact R2|]. split; [|exact R4]. unfold align_of. rewrite R3, M. reflexivity.
Qed.

(** ** Sections in the file *)
Definition ov_head (fl : flavour) (s : csect) : list Z :=
  let n := Z.of_nat (length (s_rels s)) in if (65536 <=? n) && win fl then le 4 (n + 1) ++ le 4 0 ++ le 2 0 else [].
Definition rel_bytes (ix : list (option Z)) (q : creloc) : list Z :=
  le 4 (q_addr q) ++ le 4 (match nth (q_sym q) ix None with Some i => i | None => 0 end) ++ le 2 (q_type q).
Lemma reloc_entries_ok : forall ix qs rs, reloc_entries ix qs = Some rs ->
  rs = concat (map (rel_bytes ix) qs) /\ Forall (fun q => nth (q_sym q) ix None <> None) qs.
Proof.
  intros ix. induction qs as [|q r IH]; intros rs H; cbn [reloc_entries] in H; [injection H as <-; split; [reflexivity|constructor]|].
  destruct (reloc_entry ix q) as [a|] eqn:A; [|discriminate]. destruct (reloc_entries ix r) as [b|]; [|discriminate]. injection H as <-.
  destruct (IH b eq_refl) as [-> FA]. unfold reloc_entry in A. destruct (nth (q_sym q) ix None) as [i|] eqn:N; [|discriminate]. injection A as <-.
  split; [|constructor; [congruence|exact FA]]. cbn [map concat]. unfold rel_bytes at 2. rewrite N. reflexivity.
Qed.
Lemma rel_bytes_length : forall ix q, Z.of_nat (length (rel_bytes ix q)) = 10.
Proof. intros. unfold rel_bytes. rewrite !app_length, !le_length. reflexivity. Qed.
(** The note of a section tells where its bytes are. *)
Definition note_ok (fl : flavour) (ix : list (option Z)) (F : list Z) (stp : Z) (s : csect) (t : cnote) : Prop :=
  t_sec t = s /\ t_size t = size_of s /\ t_nreloc t = (if uninit s then 0 else Z.of_nat (length (s_rels s))) /\
  (if uninit s || match s_data s with [] => true | _ => false end then t_scnptr t = 0
   else has F (t_scnptr t) (s_data s) /\ 0 < t_scnptr t) /\
  (if uninit s || match s_data s with [] => true | _ => false end || match s_rels s with [] => true | _ => false end then t_relptr t = 0
   else has F (t_relptr t) (ov_head fl s ++ concat (map (rel_bytes ix) (s_rels s))) /\ 0 <= t_relptr t /\ Forall (fun q => nth (q_sym q) ix None <> None) (s_rels s)) /\
  (if win fl && (8 <? len (s_name s)) then has F (stp + t_str t) (s_name s ++ [0]) /\ 0 <= t_str t else t_str t = 0).
Lemma len_eq0 : forall d, (len d =? 0) = match d with [] => true | _ => false end.
Proof. intros [|x d]; [reflexivity|]. unfold len. cbn [length]. apply Z.eqb_neq. lia. Qed.
Lemma nrel_eq0 : forall (d : list creloc), (Z.of_nat (length d) =? 0) = match d with [] => true | _ => false end.
Proof. intros [|x d]; [reflexivity|]. cbn [length]. apply Z.eqb_neq. lia. Qed.
Lemma out_sect_ok : forall fl ix pos off s t b off1 F stp, out_sect fl ix pos off s = Some (t, b, off1) -> 0 < pos -> 0 <= off ->
  has F pos b -> has F (stp + off) (sect_str fl s) ->
  off1 = off + len (sect_str fl s) /\ t_str t <= off /\ note_ok fl ix F stp s t.
Proof.
  intros fl ix pos off s t b off1 F stp H P O HB HS. unfold out_sect in H. cbv zeta in H.
  assert (OFF : (if win fl && (8 <? len (s_name s)) then off + (len (s_name s) + 1) else off) = off + len (sect_str fl s)).
  { unfold sect_str. destruct (win fl && (8 <? len (s_name s))); [unfold len; rewrite app_length; cbn [length]; lia|unfold len; cbn [length]; lia]. }
  assert (STR : if win fl && (8 <? len (s_name s)) then has F (stp + off) (s_name s ++ [0]) /\ 0 <= off else True).
  { unfold sect_str in HS. destruct (win fl && (8 <? len (s_name s))); auto. }
  rewrite OFF in H. rewrite len_eq0, nrel_eq0 in H. unfold note_ok, size_of. fold (bss s) in *. change (uninit s) with (bss s).
  set (long := win fl && (8 <? len (s_name s))) in *. clearbody long.
  assert (STL : (if long then off else 0) <= off) by (destruct long; lia).
  destruct (bss s) eqn:B.
  - injection H as <- <- <-. cbn. split; [reflexivity|]. split; [exact STL|]. repeat (split; [reflexivity|]). destruct long; auto.
  - destruct (s_data s) as [|x d] eqn:D.
    + injection H as <- <- <-. cbn. rewrite ?D. split; [reflexivity|]. split; [exact STL|]. repeat (split; [reflexivity|]). destruct long; auto.
    + rewrite <- D in *. assert (NE : match s_data s with [] => true | _ :: _ => false end = false) by (rewrite D; reflexivity). rewrite ?NE in H |- *. cbn [orb].
      destruct (s_rels s) as [|q r] eqn:Q.
      * injection H as <- <- <-. cbn [t_str t_sec t_size t_scnptr t_relptr t_nreloc length]. split; [reflexivity|]. split; [exact STL|]. repeat (split; [reflexivity|]).
        split; [split; [exact HB|lia]|]. split; [reflexivity|]. destruct long; auto.
      * rewrite <- Q in *. assert (NQ : match s_rels s with [] => true | _ :: _ => false end = false) by (rewrite Q; reflexivity). rewrite ?NQ in H |- *.
        destruct (reloc_entries ix (s_rels s)) as [rs|] eqn:RE; [|discriminate]. injection H as <- <- <-. apply reloc_entries_ok in RE. destruct RE as [-> FA].
        cbn [t_str t_sec t_size t_scnptr t_relptr t_nreloc]. split; [reflexivity|]. split; [exact STL|]. repeat (split; [reflexivity|]).
        apply has_split in HB. destruct HB as [HB1 HB2]. split; [split; [exact HB1|lia]|]. split; [|destruct long; auto].
        unfold len. split; [exact HB2|]. split; [lia|exact FA].
Qed.
Lemma out_sects_ok : forall fl ix ss pos off ts b off1 F stp, out_sects fl ix pos off ss = Some (ts, b, off1) -> 0 < pos -> 0 <= off ->
  has F pos b -> has F (stp + off) (concat (map (sect_str fl) ss)) ->
  off1 = off + len (concat (map (sect_str fl) ss)) /\ Forall2 (fun s t => t_str t <= off1 /\ note_ok fl ix F stp s t) ss ts.
Proof.
  intros fl ix. induction ss as [|s r IH]; intros pos off ts b off1 F stp H P O HB HS; cbn [out_sects] in H.
  - injection H as <- <- <-. split; [unfold len; cbn; lia|constructor].
  - destruct (out_sect fl ix pos off s) as [[[t b1] o1]|] eqn:S1; [|discriminate].
    destruct (out_sects fl ix (pos + len b1) o1 r) as [[[ts' b'] o2]|] eqn:S2; [|discriminate]. injection H as <- <- <-.
    apply has_split in HB. destruct HB as [HB1 HB2]. cbn [map concat] in *. apply has_split in HS. destruct HS as [HS1 HS2].
    destruct (out_sect_ok _ _ _ _ _ _ _ _ F stp S1 P O HB1 HS1) as (E1 & T1 & N1). assert (0 <= len (sect_str fl s)) by (unfold len; lia).
    rewrite <- Z.add_assoc in HS2. fold (len (sect_str fl s)) in HS2. rewrite <- E1 in HS2.
    destruct (IH _ _ _ _ _ F stp S2) as (E2 & N2); auto; [unfold len; lia|lia|].
    assert (0 <= len (concat (map (sect_str fl) r))) by (unfold len; lia).
    split; [unfold len in *; rewrite app_length; lia|]. constructor; [split; [lia|exact N1]|exact N2].
Qed.
