(** The COFF object file: the tables and the whole file. *)
From Coq Require Import ZArith List Bool Arith Lia.
From Verif Require Import Lib M_Elf P_Elf M_ElfOut P_ElfOut P_ElfOutR M_CoffReloc M_CoffOut P_CoffOut P_CoffOutR P_CoffOutF.
Import ListNotations.
Open Scope Z_scope.

Lemma numaux_nonneg : forall y, 0 <= numaux y.
Proof. intros y. unfold numaux. destruct (y_aux y); lia. Qed.
Lemma indices_mono : forall all ys i ix j, indices all i ys = (ix, j) -> i <= j.
Proof.
  intros all. induction ys as [|y r IH]; intros i ix j H; cbn [indices] in H; [injection H as <- <-; lia|]. pose proof (numaux_nonneg y).
  destruct (counted all y).
  - destruct (indices all (i + numaux y + 1) r) as [l k] eqn:E. injection H as <- <-. apply IH in E. lia.
  - destruct (indices all i r) as [l k] eqn:E. injection H as <- <-. apply IH in E. lia.
Qed.
Lemma indices_views : forall all ss ys i ix j, indices all i ys = (ix, j) -> ix = map (option_map v_index) (views all ss i ys).
Proof.
  intros all ss. induction ys as [|y r IH]; intros i ix j H; cbn [indices views] in *; [injection H as <- <-; reflexivity|].
  change (listed all y) with (counted all y). destruct (counted all y).
  - destruct (indices all (i + numaux y + 1) r) as [l k] eqn:E. injection H as <- <-. cbn [map option_map v_index sym_view]. f_equal.
    apply IH in E. rewrite E. do 2 f_equal. unfold numaux. destruct (y_aux y); lia.
  - destruct (indices all i r) as [l k] eqn:E. injection H as <- <-. cbn [map option_map]. f_equal. eapply IH. exact E.
Qed.
Lemma views_low : forall all ss ys i p v, nth p (views all ss i ys) None = Some v -> i <= v_index v.
Proof.
  intros all ss. induction ys as [|y r IH]; intros i p v H; cbn [views] in H; [destruct p; discriminate|].
  destruct (listed all y); destruct p as [|p]; cbn [nth] in H; try discriminate.
  - injection H as <-. cbn. lia.
  - apply IH in H. destruct (y_aux y); lia.
  - apply IH in H. exact H.
Qed.
Lemma indices_high : forall all ss ys i ix j p v, indices all i ys = (ix, j) -> nth p (views all ss i ys) None = Some v -> v_index v < j.
Proof.
  intros all ss. induction ys as [|y r IH]; intros i ix j p v H N; cbn [indices views] in *; [destruct p; discriminate|].
  change (listed all y) with (counted all y) in N. pose proof (numaux_nonneg y). destruct (counted all y).
  - destruct (indices all (i + numaux y + 1) r) as [l k] eqn:E. injection H as <- <-. destruct p as [|p]; cbn [nth] in N.
    + injection N as <-. cbn. apply indices_mono in E. lia.
    + apply (IH _ _ _ p v E). replace (i + numaux y + 1) with (i + match y_aux y with Some _ => 2 | None => 1 end); [exact N|]. unfold numaux. destruct (y_aux y); lia.
  - destruct (indices all i r) as [l k] eqn:E. injection H as <- <-. destruct p as [|p]; cbn [nth] in N; [discriminate|]. exact (IH _ _ _ p v E N).
Qed.
Lemma find_present : forall all ss ys i p v, nth p (views all ss i ys) None = Some v ->
  find (fun w => v_index w =? v_index v) (present (views all ss i ys)) = Some v.
Proof.
  intros all ss. induction ys as [|y r IH]; intros i p v H; cbn [views] in H; [destruct p; discriminate|]. cbn [views].
  destruct (listed all y); destruct p as [|p]; cbn [nth] in H; try discriminate; cbn [present find].
  - injection H as <-. rewrite Z.eqb_refl. reflexivity.
  - pose proof (views_low _ _ _ _ _ _ H) as L. cbn [v_index sym_view]. destruct (Z.eqb_spec i (v_index v)) as [E|_]; [destruct (y_aux y); lia|]. apply (IH _ _ _ H).
  - apply (IH _ _ _ H).
Qed.
Lemma out_syms_ok : forall fl ix0 all ss ts F p stp', Z.of_nat (length ss) <= 65533 -> Z.of_nat (length F) < 2 ^ 32 -> fits fl ix0 F stp' ss ts ->
  p = symptr F + 18 * symcount F -> 0 <= p ->
  forall ys off i b off1 ix j, Forall (sym_ok ss) ys -> indices all i ys = (ix, j) -> out_syms all ts off ys = (b, off1) -> j = symcount F -> 0 <= off -> 
  has F (symptr F + 18 * i) b -> has F (p + off) (concat (map (sym_str all) ys)) ->
  off1 = off + len (concat (map (sym_str all) ys)) /\ forall fuel, j - i <= Z.of_nat fuel -> read_syms fuel F i = present (views all ss i ys).
Proof.
  intros fl ix0 all ss ts F p stp' LS LF FT EP PP. induction ys as [|y r IH]; intros off i b off1 ix j OK HI HO HJ O HB HS; cbn [indices out_syms views map concat] in *.
  - injection HI as <- <-. injection HO as <- <-. split; [unfold len; cbn; lia|]. intros fuel _. destruct fuel as [|k]; [reflexivity|]. cbn [read_syms present]. destruct (Z.leb_spec (symcount F) i); [reflexivity|lia].
  - inversion OK as [|? ? OK1 OK2]; subst. apply has_split in HS. destruct HS as [HS1 HS2]. change (listed all y) with (counted all y). pose proof (numaux_nonneg y) as NN. destruct (counted all y) eqn:CT.
    + destruct (indices all (i + numaux y + 1) r) as [l k] eqn:E. injection HI as <- EJ.
      destruct (sym_entry ts off y) as [e o1] eqn:SE. destruct (out_syms all ts o1 r) as [b' o2] eqn:SO. injection HO as <- <-. apply has_split in HB. destruct HB as [HB1 HB2].
      rewrite (strs_listed all ss y CT OK1) in *.
      destruct (sym_entry_ok fl ix0 F i ss ts off y e o1 _ stp' SE HB1 OK1 LS LF O FT eq_refl PP HS1) as (R1 & R2 & R3 & R4).
      destruct (IH o1 (i + numaux y + 1) b' o2 l k OK2 E SO EJ) as [I1 I2].
      * unfold len in R3. lia.
      * replace (symptr F + 18 * (i + numaux y + 1)) with (symptr F + 18 * i + Z.of_nat (length e)); [exact HB2|]. unfold len in R4. lia.
      * replace (symptr F + 18 * symcount F + o1) with (symptr F + 18 * symcount F + off + Z.of_nat (length (strs_of y))); [exact HS2|]. unfold len in R3. lia.
      * split; [unfold len in *; rewrite app_length; lia|]. intros fuel FU. pose proof (indices_mono _ _ _ _ _ E). destruct fuel as [|f]; [lia|].
        cbn [read_syms present]. destruct (Z.leb_spec (symcount F) i); [lia|]. rewrite R1, R2. f_equal.
        replace (i + 1 + numaux y) with (i + numaux y + 1) by lia. rewrite I2 by lia. do 2 f_equal. unfold numaux. destruct (y_aux y); lia.
    + destruct (indices all i r) as [l k] eqn:E. injection HI as <- EJ. rewrite (strs_unlisted all y CT) in *. cbn [app length Z.of_nat] in *. rewrite Z.add_0_r in HS2.
      destruct (IH off i b off1 l k OK2 E HO EJ O HB HS2) as [I1 I2]. split; [exact I1|]. intros fuel FU. cbn [present]. apply I2. lia.
Qed.

(** ** Relocations *)
Lemma map_firstn : forall {A B} (h : nat -> B) (w : A -> B) (l : list A) n m, (n <= length l)%nat -> (forall k x, nth_error l k = Some x -> h (m + k)%nat = w x) -> map h (seq m n) = map w (firstn n l).
Proof.
  intros A B h w. induction l as [|x r IH]; intros [|n] m L H; cbn [length] in L; try lia; try reflexivity. cbn [seq map firstn]. f_equal.
  - specialize (H O x eq_refl). rewrite Nat.add_0_r in H. exact H.
  - apply IH; [lia|]. intros k y N. specialize (H (S k) y N). rewrite Nat.add_succ_r in H. exact H.
Qed.
Lemma read_rel_ok : forall all ss ys ix j F o q, indices all 0 ys = (ix, j) -> j < 2 ^ 32 -> has F o (rel_bytes ix q) -> nth (q_sym q) ix None <> None -> range (q_addr q) 32 -> range (q_type q) 16 ->
  read_rel F (present (views all ss 0 ys)) o = rel_view (views all ss 0 ys) q.
Proof.
  intros all ss ys ix j F o q HI HJ H NN R1 R2. unfold rel_bytes in H. pose proof (indices_views all ss _ _ _ _ HI) as EV.
  assert (EN : nth (q_sym q) ix None = option_map v_index (nth (q_sym q) (views all ss 0 ys) None)).
  { rewrite EV. change (@None Z) with (option_map v_index (@None csymv)) at 1. apply map_nth. }
  destruct (nth (q_sym q) (views all ss 0 ys) None) as [v|] eqn:V; cbn [option_map] in EN; [|congruence]. rewrite EN in H.
  pose proof (views_low _ _ _ _ _ _ V) as LO. pose proof (indices_high _ _ _ _ _ _ _ _ HI V) as HI2.
  pieces H. unfold read_rel, rel_view. rewrite V.
  rewrite (has_small _ _ _ _ 4 P eq_refl R1), (has_small _ _ _ _ 4 P0 eq_refl), (has_small _ _ _ _ 2 Q0 eq_refl R2) by (unfold range; lia).
  rewrite (find_present _ _ _ _ _ _ V). reflexivity.
Qed.
Lemma rels_table : forall all ss ys ix j F p qs n, indices all 0 ys = (ix, j) -> j < 2 ^ 32 -> has F p (concat (map (rel_bytes ix) qs)) -> Forall (fun q => nth (q_sym q) ix None <> None) qs ->
  Forall (fun q => range (q_addr q) 32 /\ range (q_type q) 16) qs -> (n <= length qs)%nat ->
  map (fun k => read_rel F (present (views all ss 0 ys)) (p + 10 * Z.of_nat k)) (seq 0 n) = map (rel_view (views all ss 0 ys)) (firstn n qs).
Proof.
  intros all ss ys ix j F p qs n HI HJ H NN R L. apply map_firstn; [exact L|]. intros k q N. cbn [Nat.add].
  pose proof (has_nth (rel_bytes ix) 10 qs (rel_bytes_length ix) F p k q H N) as HQ. replace (p + 10 * Z.of_nat k) with (p + Z.of_nat k * 10) by lia.
  apply nth_error_In in N. rewrite Forall_forall in NN, R. destruct (R q N). eapply read_rel_ok; eauto.
Qed.

(** ** Section headers *)
Lemma head_bytes_length : forall fl t, Z.of_nat (length (head_bytes fl t)) = 40.
Proof. intros. unfold head_bytes. rewrite !app_length, !le_length, strncpy_length. reflexivity. Qed.
Lemma read_sect_ok : forall fl all ss ys ix j F h s t stp, indices all 0 ys = (ix, j) -> j < 2 ^ 32 -> has F h (head_bytes fl t) -> note_ok fl ix F stp s t -> sect_ok (win fl) s ->
  Z.of_nat (length F) < 2 ^ 32 -> t_str t < 10 ^ 7 -> stp = symptr F + 18 * symcount F -> 0 <= stp ->
  read_sect (win fl) F (present (views all ss 0 ys)) h = sect_view (win fl) (views all ss 0 ys) s.
Proof.
  intros fl all ss ys ix j F h s t stp HI HJ H (E & SZ & NR & SC & RL & ST) (CN & SL & RF & BF & AL & UN & DE & RQ) LF LT ES SP.
  destruct (head_flags_ok fl t) as (F1 & F2 & F3 & F4); [rewrite E; exact RF|rewrite E; exact BF|rewrite E; exact AL|]. rewrite E in F2, F3.
  unfold head_bytes in H. rewrite E in H.
  assert (RS : range (size_of s) 32).
  { unfold size_of. destruct (uninit s); [apply UN; reflexivity|]. cbn [orb] in SC. destruct (s_data s) as [|x d]; [unfold range; cbn; lia|]. destruct SC as [SC _]. apply has_bound in SC. unfold range. lia. }
  assert (RP : range (t_scnptr t) 32).
  { destruct (uninit s || match s_data s with [] => true | _ => false end); [rewrite SC; unfold range; lia|]. destruct SC as [SC SC2]. apply has_bound in SC. unfold range. lia. }
  assert (RR : range (t_relptr t) 32).
  { destruct (uninit s || match s_data s with [] => true | _ => false end || match s_rels s with [] => true | _ => false end); [rewrite RL; unfold range; lia|]. destruct RL as [RL _]. apply has_bound in RL. unfold range. lia. }
  apply has_split in H. destruct H as [HN H]. rewrite strncpy_length in H. change (Z.of_nat 8) with 8 in H. pieces H.
  assert (NAME : read_sect_name (win fl) F h = Some (if negb (win fl) && (8 <? Z.of_nat (length (s_name s))) then [47; 48] else s_name s)).
  { unfold read_sect_name. rewrite (has_at _ _ _ 8 HN) by (rewrite strncpy_length; reflexivity). unfold len in *. destruct (8 <? Z.of_nat (length (s_name s))) eqn:L8.
    - destruct (win fl) eqn:W.
      + cbn [negb andb] in *. destruct ST as [ST ST0]. destruct (dec_ok (t_str t)) as (D1 & D2 & D3); [lia|].
        rewrite cut_strncpy0; [|constructor; [discriminate|exact D2]|cbn [length]; lia]. change (47 =? 47) with true. cbv iota. rewrite D1. eapply string_at_has; eauto. rewrite ES. reflexivity.
      + cbn [negb andb] in *. rewrite ST. reflexivity.
    - rewrite andb_false_r. rewrite cut_strncpy0; [|exact CN|apply (name_len8 (s_name s)); exact L8]. destruct (s_name s) as [|c ds]; [reflexivity|]. cbn [hd] in SL.
      destruct (win fl); [|reflexivity]. cbn [andb]. destruct (Z.eqb_spec c 47); [exfalso; apply SL; auto|reflexivity]. }
  unfold read_sect, sect_view. rewrite NAME.
  match goal with Q : has F (h + 36) _ |- _ => pose proof (has_small _ _ _ _ 4 Q eq_refl F1) as EF end.
  match goal with Q : has F (h + 16) _ |- _ => rewrite SZ in Q; pose proof (has_small _ _ _ _ 4 Q eq_refl RS) as EZ end.
  match goal with Q : has F (h + 20) _ |- _ => pose proof (has_small _ _ _ _ 4 Q eq_refl RP) as EP end.
  match goal with Q : has F (h + 24) _ |- _ => pose proof (has_small _ _ _ _ 4 Q eq_refl RR) as ER end.
  match goal with Q : has F (h + 32) _ |- _ => rename Q into QN end.
  assert (NR' : t_nreloc t = Z.of_nat (length (s_rels s))) by (rewrite NR; destruct (uninit s); [destruct (UN eq_refl) as [-> _]|]; reflexivity).
  rewrite NR' in *. clear NR.
  assert (EN : num F (h + 32) 2 = if 65536 <=? Z.of_nat (length (s_rels s)) then 65535 else Z.of_nat (length (s_rels s))).
  { apply (has_small _ _ _ _ 2 QN eq_refl). destruct (Z.leb_spec 65536 (Z.of_nat (length (s_rels s)))); unfold range; lia. }
  rewrite EF, EZ, EP, F2, F3. f_equal.
  - unfold size_of. destruct (uninit s); cbn [orb] in SC; [rewrite SC; reflexivity|]. destruct (s_data s) as [|x d] eqn:D; [rewrite SC; reflexivity|]. rewrite <- D in *.
    destruct SC as [SC SC2]. destruct (Z.eqb_spec (t_scnptr t) 0); [lia|]. apply has_at; auto.
  - unfold read_rels. rewrite EF, EN, ER, F4. destruct (s_rels s) as [|q r] eqn:Q.
    + cbn [length Z.of_nat]. change (65536 <=? 0) with false. cbv iota. rewrite andb_false_r. cbn [andb]. rewrite andb_false_r. reflexivity.
    + rewrite <- Q in *. assert (UF : uninit s = false) by (destruct (uninit s); [destruct (UN eq_refl); congruence|reflexivity]). rewrite UF in RL. cbn [orb] in RL.
      assert (DF : match s_data s with [] => true | _ => false end = false) by (destruct (s_data s); [specialize (DE eq_refl); congruence|reflexivity]). rewrite DF in RL.
      cbn [orb] in RL. destruct RL as (RL & _ & NN).
      clear Q UF DF UN DE SC. destruct (Z.leb_spec 65536 (Z.of_nat (length (s_rels s)))) as [BIG|SMALL].
      * change (65535 =? 65535) with true. rewrite andb_true_r. unfold ov_head in RL. cbv zeta in RL. destruct (Z.leb_spec 65536 (Z.of_nat (length (s_rels s)))); [|lia].
        destruct (win fl) eqn:W; cbn [andb negb] in *.
        -- pose proof (has_bound _ _ _ RL) as BD. rewrite app_length, Nat2Z.inj_add in BD. rewrite (concat_length (rel_bytes ix) 10) in BD by apply rel_bytes_length.
           apply has_split in RL. destruct RL as [RL1 RL2]. apply has_split in RL1. destruct RL1 as [RL1 _].
           rewrite (has_small _ _ _ _ 4 RL1 eq_refl) by (unfold range; lia). replace (Z.of_nat (length (s_rels s)) + 1 - 1) with (Z.of_nat (length (s_rels s))) by lia. rewrite Nat2Z.id.
           rewrite !app_length, !le_length in RL2. change (Z.of_nat (4 + (4 + 2))) with 10 in RL2. rewrite (rels_table all ss ys ix j F _ (s_rels s) (length (s_rels s)) HI HJ RL2 NN RQ) by lia. rewrite firstn_all. reflexivity.
        -- rewrite <- (rels_table all ss ys ix j F (t_relptr t) (s_rels s) (Z.to_nat 65535) HI HJ RL NN RQ) by lia. reflexivity.
      * cbn [andb]. rewrite !andb_false_r. unfold ov_head in RL. cbv zeta in RL. destruct (Z.leb_spec 65536 (Z.of_nat (length (s_rels s)))); [lia|]. cbn [andb app] in *. rewrite Nat2Z.id.
        rewrite (rels_table all ss ys ix j F (t_relptr t) (s_rels s) (length (s_rels s)) HI HJ RL NN RQ) by lia. rewrite firstn_all. reflexivity.
Qed.

(** ** The whole file *)
Lemma concat_notes : forall fl ts, Z.of_nat (length (concat (map (head_bytes fl) ts))) = 40 * Z.of_nat (length ts).
Proof. intros. apply concat_length. intro. apply head_bytes_length. Qed.
Lemma out_sects_length : forall fl ix ss pos off ts b off1, out_sects fl ix pos off ss = Some (ts, b, off1) -> length ts = length ss.
Proof.
  intros fl ix. induction ss as [|s r IH]; intros pos off ts b off1 H; cbn [out_sects] in H; [injection H as <- <- <-; reflexivity|].
  destruct (out_sect fl ix pos off s) as [[[t b1] o1]|]; [|discriminate]. destruct (out_sects fl ix (pos + len b1) o1 r) as [[[ts' b'] o2]|] eqn:E; [|discriminate]. injection H as <- <- <-.
  cbn [length]. f_equal. eapply IH. exact E.
Qed.
Lemma out_syms_length : forall all ts ys off i b off1 ix j, indices all i ys = (ix, j) -> out_syms all ts off ys = (b, off1) -> len b = 18 * (j - i).
Proof.
  intros all ts. induction ys as [|y r IH]; intros off i b off1 ix j HI HO; cbn [indices out_syms] in *; [injection HI as <- <-; injection HO as <- <-; change (len []) with 0; lia|].
  destruct (counted all y).
  - destruct (indices all (i + numaux y + 1) r) as [l k] eqn:E. injection HI as <- <-. destruct (sym_entry ts off y) as [e o1] eqn:SE. destruct (out_syms all ts o1 r) as [b' o2] eqn:SO. injection HO as <- <-.
    pose proof (IH _ _ _ _ _ _ E SO) as L. assert (LE : len e = 18 * (1 + numaux y)).
    { assert (LA : forall x z : list Z, len (x ++ z) = len x + len z) by (intros; unfold len; rewrite app_length; lia). assert (LH : len (head_of off y) = 18) by apply head_of_length.
      rewrite sym_entry_eq in SE. cbv zeta in SE. unfold numaux. destruct (y_aux y) as [[|s]|]; [|destruct (14 <? len s)|]; apply pair_inj in SE; destruct SE as [<- _]; rewrite ?LA, LH; unfold len; rewrite ?le_length, ?repeat_length, ?strncpy_length; reflexivity. }
    unfold len in *. rewrite app_length. lia.
  - destruct (indices all i r) as [l k] eqn:E. injection HI as <- <-. eapply IH; eauto.
Qed.
Lemma Forall2_nth : forall {A B} (P : A -> B -> Prop) l1 l2, Forall2 P l1 l2 -> forall k x, nth_error l1 k = Some x -> exists y, nth_error l2 k = Some y /\ P x y.
Proof. intros A B P l1 l2 H. induction H as [|a b l1 l2 p _ IH]; intros [|k] x N; try discriminate; cbn [nth_error] in *; [injection N as <-; eauto|auto]. Qed.
Definition long_names (w : bool) (ss : list csect) : Z := if w then len (concat (map (fun s => if 8 <? len (s_name s) then s_name s ++ [0] else []) ss)) else 0.
Lemma long_names_eq : forall fl ss, long_names (win fl) ss = len (concat (map (sect_str fl) ss)).
Proof.
  intros fl ss. unfold long_names, sect_str. destruct (win fl); [reflexivity|]. symmetry. cbn [andb]. induction ss as [|s r IH]; [reflexivity|]. exact IH.
Qed.
Lemma head_parts : forall f o a b c d e g h, has f o (le 2 a ++ le 2 b ++ le 4 c ++ le 4 d ++ le 4 e ++ le 2 g ++ le 2 h) ->
  has f o (le 2 a) /\ has f (o + 2) (le 2 b) /\ has f (o + 4) (le 4 c) /\ has f (o + 8) (le 4 d) /\ has f (o + 12) (le 4 e) /\ has f (o + 18) (le 2 h).
Proof. intros f o a b c d e g h H. pieces H. auto 10. Qed.
Theorem read_back : forall fl all nodebug time ss ys f, write_coff fl all nodebug time ss ys = Some f ->
  Forall (sect_ok (win fl)) ss -> Forall (sym_ok ss) ys -> Z.of_nat (length ss) <= 65533 -> Z.of_nat (length f) < 2 ^ 32 -> long_names (win fl) ss + 4 < 10 ^ 7 ->
  read_coff (win fl) f = expected fl all time ss ys /\
  num f (symptr f + 18 * symcount f) 4 = Z.of_nat (length f) - (symptr f + 18 * symcount f).
Proof.
  intros fl all nodebug time ss ys f H SOK YOK LS LF LN. unfold write_coff in H. cbv zeta in H. unfold expected. cbv zeta. rewrite long_names_eq in LN.
  set (al := all || win64 fl) in *. clearbody al.
  destruct (indices al 0 ys) as [ix count] eqn:HI. destruct (out_sects fl ix (20 + 40 * Z.of_nat (length ss)) 4 ss) as [[[ts body] off1]|] eqn:HS; [|discriminate].
  destruct (out_syms al ts off1 ys) as [sb off2] eqn:HY.
  set (flags := (if nodebug then 4 else 0) + (if al then 0 else 8) + (if i386 fl then 256 else 0)) in *.
  assert (FL : range flags 16 /\ Z.testbit flags 3 = negb al) by (subst flags; destruct nodebug, al, (i386 fl); split; unfold range; (lia || reflexivity)). clearbody flags.
  set (hdr := le 2 (if i386 fl then 332 else 34404) ++ le 2 (Z.of_nat (length ss)) ++ le 4 time ++ le 4 (20 + 40 * Z.of_nat (length ss) + len body) ++ le 4 count ++ le 2 0 ++ le 2 flags) in *.
  assert (EH : Z.of_nat (length hdr) = 20) by (subst hdr; rewrite !app_length, !le_length; reflexivity).
  assert (EF : hdr ++ concat (map (head_bytes fl) ts) ++ body ++ sb ++ le 4 off2 ++ concat (map (sect_str fl) ss) ++ concat (map (sym_str al) ys) = f) by congruence. clear H.
  assert (HF : has f 0 f) by (exists [], []; rewrite app_nil_r; auto).
  rewrite <- EF in HF at 2. pose proof (out_sects_length _ _ _ _ _ _ _ _ HS) as LT. pose proof (out_syms_length _ _ _ _ _ _ _ _ _ HI HY) as LB. pose proof (indices_mono _ _ _ _ _ HI) as CM.
  assert (LEN : Z.of_nat (length f) = 20 + 40 * Z.of_nat (length ss) + len body + 18 * count + 4 + len (concat (map (sect_str fl) ss)) + len (concat (map (sym_str al) ys))).
  { rewrite <- EF. rewrite !app_length, !Nat2Z.inj_add, EH, concat_notes, LT. unfold len in *. rewrite le_length. lia. }
  apply has_split in HF. destruct HF as [HH HF]. apply has_split in HF. destruct HF as [HHD HF]. apply has_split in HF. destruct HF as [HBD HF]. apply has_split in HF. destruct HF as [HSB HF].
  rewrite EH in *. rewrite concat_notes, LT in *. fold (len body) in *. fold (len sb) in HF. rewrite LB in HF. change (0 + 20) with 20 in *.
  pose proof HF as HST. apply has_split in HF. destruct HF as [HL4 HF]. rewrite le_length in HF. apply has_split in HF. destruct HF as [HSS HSY]. fold (len (concat (map (sect_str fl) ss))) in HSY.
  assert (P1 : 0 <= len body) by (unfold len; lia). assert (P2 : 0 <= len (concat (map (sect_str fl) ss))) by (unfold len; lia). assert (P3 : 0 <= len (concat (map (sym_str al) ys))) by (unfold len; lia).
  subst hdr. apply head_parts in HH. destruct HH as (H0 & H2 & H4 & H8 & H12 & H18). rewrite Z.add_0_l in H2, H4, H8, H12, H18.
  assert (SP : symptr f = 20 + 40 * Z.of_nat (length ss) + len body).
  { unfold symptr. match goal with Q : has f 8 _ |- _ => apply (has_small _ _ _ _ 4 Q eq_refl) end. unfold range. lia. }
  assert (SCt : symcount f = count).
  { unfold symcount. match goal with Q : has f 12 _ |- _ => apply (has_small _ _ _ _ 4 Q eq_refl) end. unfold range. lia. }
  set (stp := symptr f + 18 * symcount f).
  assert (ESTP : stp = 20 + 40 * Z.of_nat (length ss) + len body + 18 * (count - 0)) by (subst stp; lia).
  rewrite <- ESTP in *. change (Z.of_nat 4) with 4 in HSS, HSY.
  destruct (out_sects_ok fl ix ss _ _ ts body off1 f stp HS) as [O1 N2]; auto; try lia.
  assert (FT : fits fl ix f stp ss ts).
  { unfold fits. clear - N2 SOK LF. induction N2 as [|s t ss ts N _ IH]; [constructor|]. inversion SOK; subst. constructor; [|auto]. destruct N as (_ & _ & SZ & NR & SC & _). destruct H1 as (_ & _ & _ & _ & _ & UN & _).
    split; [exact SZ|]. split; [|rewrite NR; destruct (uninit s); [destruct (UN eq_refl) as [-> _]|]; reflexivity].
    unfold size_of. destruct (uninit s); [apply UN; reflexivity|]. cbn [orb] in SC. destruct (s_data s) as [|x d]; [unfold range; cbn; lia|]. destruct SC as [SC _]. apply has_bound in SC. unfold range. lia. }
  replace (stp + 4 + len (concat (map (sect_str fl) ss))) with (stp + off1) in HSY by lia.
  destruct (out_syms_ok fl ix al ss ts f stp stp LS LF FT eq_refl ltac:(lia) ys off1 0 sb off2 ix count YOK HI HY ltac:(lia) ltac:(lia)) as [O2 RY].
  { rewrite SP. replace (20 + 40 * Z.of_nat (length ss) + len body + 18 * 0) with (20 + 40 * Z.of_nat (length ss) + len body) by lia. exact HSB. }
  { exact HSY. }
  assert (SY : syms f = present (views al ss 0 ys)) by (unfold syms; apply RY; rewrite SCt; lia).
  split; [|rewrite (has_small _ _ _ _ 4 HL4 eq_refl); [lia|unfold range; lia]].
  unfold read_coff. rewrite SY.
  assert (E1 : num f 0 2 = if i386 fl then 332 else 34404).
  { match goal with Q : has f 0 (le 2 _) |- _ => apply (has_small _ _ _ _ 2 Q eq_refl) end. destruct (i386 fl); unfold range; lia. }
  assert (E2 : num f 2 2 = Z.of_nat (length ss)).
  { match goal with Q : has f 2 (le 2 _) |- _ => apply (has_small _ _ _ _ 2 Q eq_refl) end. unfold range; lia. }
  assert (E3 : num f 4 4 = time mod 2 ^ 32).
  { match goal with Q : has f 4 (le 4 _) |- _ => rewrite (has_num _ _ _ _ 4 Q eq_refl) end. reflexivity. }
  assert (E4 : num f 18 2 = flags).
  { match goal with Q : has f 18 (le 2 _) |- _ => apply (has_small _ _ _ _ 2 Q eq_refl) end. apply FL. }
  rewrite E1, E2, E3, E4. destruct FL as [_ ->]. f_equal. rewrite Nat2Z.id. transitivity (map (sect_view (win fl) (views al ss 0 ys)) (firstn (length ss) ss)); [|rewrite firstn_all; reflexivity]. apply map_firstn; [lia|].
  intros k s N. cbn [Nat.add]. destruct (Forall2_nth _ _ _ N2 k s N) as (t & NT & TL & NO).
  eapply (read_sect_ok fl al ss ys ix count f _ s t stp HI); auto; try lia.
  - pose proof (has_nth (head_bytes fl) 40 ts (head_bytes_length fl) f 20 k t HHD NT) as Q. replace (20 + 40 * Z.of_nat k) with (20 + Z.of_nat k * 40) by lia. exact Q.
  - rewrite Forall_forall in SOK. apply SOK. eapply nth_error_In. exact N.
Qed.

(** Nothing is lost for Windows, nor for coff with short names and few relocations. *)
Definition full (fl : flavour) (all : bool) (ts : Z) (ss : list csect) (ys : list csym) : coffv :=
  let vs := views (all || win64 fl) ss 0 ys in
  CoffV (if i386 fl then 332 else 34404) (ts mod 2 ^ 32) (negb (all || win64 fl))
    (map (fun s => CSectV (Some (s_name s)) (plain (s_flags s)) (Z.min (s_align s) 8192) (size_of s) (if uninit s then [] else s_data s) (map (rel_view vs) (s_rels s))) ss)
    (present vs).
Lemma expected_full : forall fl all ts ss ys, win fl = true \/ Forall (fun s => (length (s_name s) <= 8)%nat /\ Z.of_nat (length (s_rels s)) < 65536) ss ->
  expected fl all ts ss ys = full fl all ts ss ys.
Proof.
  intros fl all ts ss ys H. unfold expected, full. cbv zeta. f_equal. generalize (views (all || win64 fl) ss 0 ys). intro vs. apply map_ext_in. intros s IN. unfold sect_view.
  destruct H as [->|H]; [reflexivity|]. rewrite Forall_forall in H. destruct (H s IN) as [A B].
  destruct (Z.ltb_spec 8 (Z.of_nat (length (s_name s)))); [lia|]. destruct (Z.leb_spec 65536 (Z.of_nat (length (s_rels s)))); [lia|]. rewrite !andb_false_r. reflexivity.
Qed.
Theorem read_full : forall fl all nodebug time ss ys f, write_coff fl all nodebug time ss ys = Some f ->
  Forall (sect_ok (win fl)) ss -> Forall (sym_ok ss) ys -> Z.of_nat (length ss) <= 65533 -> Z.of_nat (length f) < 2 ^ 32 -> long_names (win fl) ss + 4 < 10 ^ 7 ->
  win fl = true \/ Forall (fun s => (length (s_name s) <= 8)%nat /\ Z.of_nat (length (s_rels s)) < 65536) ss ->
  read_coff (win fl) f = full fl all time ss ys.
Proof. intros. rewrite <- expected_full by assumption. eapply read_back; eauto. Qed.

(** When a file is written. *)
Lemma nth_indices : forall all ys i ix j p, indices all i ys = (ix, j) ->
  (nth p ix None <> None <-> exists y, nth_error ys p = Some y /\ listed all y = true).
Proof.
  intros all. induction ys as [|y r IH]; intros i ix j p H; cbn [indices] in H.
  - injection H as <- <-. split; [intro X; destruct p; exfalso; apply X; reflexivity|]. intros (y & N & _). destruct p; discriminate.
  - change (counted all y) with (listed all y) in H. destruct (listed all y) eqn:L.
    + destruct (indices all (i + numaux y + 1) r) as [l k] eqn:E. injection H as <- <-. destruct p as [|p]; cbn [nth nth_error]; [|eapply IH; exact E].
      split; [intros _; eauto|discriminate].
    + destruct (indices all i r) as [l k] eqn:E. injection H as <- <-. destruct p as [|p]; cbn [nth nth_error]; [|eapply IH; exact E].
      split; [congruence|]. intros (y' & N & L'). congruence.
Qed.
Lemma reloc_entries_some : forall ix qs, (exists rs, reloc_entries ix qs = Some rs) <-> Forall (fun q => nth (q_sym q) ix None <> None) qs.
Proof.
  intros ix qs. split; [intros [rs H]; apply reloc_entries_ok in H; apply H|].
  induction 1 as [|q r N _ [rs IH]]; cbn [reloc_entries]; [eauto|]. unfold reloc_entry. destruct (nth (q_sym q) ix None); [|congruence]. rewrite IH. eauto.
Qed.
Lemma out_sect_some : forall fl ix pos off s, (exists r, out_sect fl ix pos off s = Some r) <->
  (uninit s = false -> s_data s <> [] -> Forall (fun q => nth (q_sym q) ix None <> None) (s_rels s)).
Proof.
  intros. unfold out_sect. cbv zeta. rewrite len_eq0, nrel_eq0. change (bss s) with (uninit s). destruct (uninit s); [split; [discriminate|eauto]|].
  destruct (s_data s) as [|x d]; [split; [intros _ _ X; congruence|eauto]|]. rewrite <- reloc_entries_some. destruct (s_rels s) as [|q r] eqn:Q; [split; [cbn [reloc_entries]; eauto|eauto]|]. rewrite <- Q.
  split.
  - intros [z H] _ _. destruct (reloc_entries ix (s_rels s)); [eauto|discriminate].
  - intros H. destruct H as [rs ->]; [reflexivity|discriminate|]. eauto.
Qed.
Lemma out_sects_some : forall fl ix ss pos off, (exists r, out_sects fl ix pos off ss = Some r) <->
  Forall (fun s => uninit s = false -> s_data s <> [] -> Forall (fun q => nth (q_sym q) ix None <> None) (s_rels s)) ss.
Proof.
  intros fl ix. induction ss as [|s r IH]; intros pos off; cbn [out_sects]; [split; [constructor|eauto]|].
  pose proof (out_sect_some fl ix pos off s) as S. destruct (out_sect fl ix pos off s) as [[[t b] o1]|].
  - specialize (IH (pos + len b) o1). split.
    + intros [z H]. constructor; [apply S; eauto|]. apply IH. destruct (out_sects fl ix (pos + len b) o1 r); [eauto|discriminate].
    + intro H. inversion H; subst. apply IH in H3. destruct H3 as [[[ts b'] o2] ->]. eauto.
  - split; [intros [z H]; discriminate|]. intro H. inversion H; subst. apply S in H2. destruct H2. discriminate.
Qed.
Theorem written : forall fl all nodebug time ss ys, (exists f, write_coff fl all nodebug time ss ys = Some f) <->
  forall s q, In s ss -> uninit s = false -> s_data s <> [] -> In q (s_rels s) -> exists y, nth_error ys (q_sym q) = Some y /\ listed (all || win64 fl) y = true.
Proof.
  intros. unfold write_coff. cbv zeta. destruct (indices (all || win64 fl) 0 ys) as [ix count] eqn:HI.
  pose proof (out_sects_some fl ix ss (20 + 40 * Z.of_nat (length ss)) 4) as S.
  transitivity (exists r, out_sects fl ix (20 + 40 * Z.of_nat (length ss)) 4 ss = Some r).
  - destruct (out_sects fl ix (20 + 40 * Z.of_nat (length ss)) 4 ss) as [[[ts b] o]|].
    + destruct (out_syms (all || win64 fl) ts o ys). split; eauto.
    + split; intros [z H]; discriminate.
  - rewrite S. rewrite Forall_forall. split.
    + intros H s q IN U D Q. specialize (H s IN U D). rewrite Forall_forall in H. apply (nth_indices _ _ _ _ _ _ HI). auto.
    + intros H s IN U D. apply Forall_forall. intros q Q. apply (nth_indices _ _ _ _ _ _ HI). eauto.
Qed.
Theorem std_exact : forall fl all nodebug time ss ys f, write_coff fl all nodebug time ss ys = Some f -> win fl = false ->
  Forall (sect_ok false) ss -> Forall (sym_ok ss) ys -> Z.of_nat (length ss) <= 65533 -> Z.of_nat (length f) < 2 ^ 32 ->
  f_sects (read_coff false f) = map (fun s =>
    CSectV (Some (if (length (s_name s) <=? 8)%nat then s_name s else [47; 48])) (plain (s_flags s)) (Z.min (s_align s) 8192) (size_of s) (if uninit s then [] else s_data s)
      (map (rel_view (views all ss 0 ys)) (if Z.of_nat (length (s_rels s)) <? 65536 then s_rels s else firstn (Z.to_nat 65535) (s_rels s)))) ss /\
  f_syms (read_coff false f) = present (views all ss 0 ys).
Proof.
  intros fl all nodebug time ss ys f H W A B C D. destruct (read_back fl all nodebug time ss ys f H) as [R _]; auto; [rewrite W; exact A|rewrite W; cbn; lia|]. rewrite W in R. rewrite R.
  assert (W64 : win64 fl = false) by (destruct fl; cbn in *; congruence). unfold expected. cbv zeta. cbn [f_sects f_syms]. rewrite W, W64, orb_false_r. split; [|reflexivity].
  generalize (views all ss 0 ys). intro vs. apply map_ext. intro s. unfold sect_view. cbn [negb andb]. f_equal.
  - f_equal. destruct (Z.ltb_spec 8 (Z.of_nat (length (s_name s)))); destruct (Nat.leb_spec (length (s_name s)) 8); (reflexivity || lia).
  - f_equal. destruct (Z.leb_spec 65536 (Z.of_nat (length (s_rels s)))); destruct (Z.ltb_spec (Z.of_nat (length (s_rels s))) 65536); (reflexivity || lia).
Qed.
