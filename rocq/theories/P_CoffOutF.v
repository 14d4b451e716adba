(** The COFF object file: the whole file is read back. *)
From Coq Require Import ZArith List Bool Arith Lia.
From Verif Require Import Lib M_Elf P_Elf M_ElfOut P_ElfOut P_ElfOutR M_CoffReloc M_CoffOut P_CoffOut P_CoffOutR.
Import ListNotations.
Open Scope Z_scope.

Lemma name_cstr : forall s, is_name s -> is_cstr s.
Proof. intros s [H _]. unfold is_cstr. eapply Forall_impl; [|exact H]. cbn. lia. Qed.
Lemma val_nonneg : forall b, Forall (fun x => 0 <= x) b -> 0 <= val b.
Proof. induction 1; cbn [val]; lia. Qed.
Lemma strncpy_nonneg : forall n s, Forall (fun x => 0 < x < 256) s -> Forall (fun x => 0 <= x) (strncpy n s).
Proof. induction n as [|n IH]; intros [|c s] H; cbn [strncpy]; constructor; try lia; try (apply IH; constructor); inversion H; subst; [lia|auto]. Qed.
Lemma strncpy_add : forall m n s, strncpy (m + n) s = strncpy m s ++ strncpy n (skipn m s).
Proof. induction m as [|m IH]; intros n s; [reflexivity|]. destruct s as [|c s]; cbn [strncpy Nat.add app skipn]; [rewrite IH, skipn_nil|rewrite IH]; reflexivity. Qed.
Lemma name_bytes_pos : forall F o m s x, has F o (strncpy (4 + m) s ++ x) -> is_name s -> num F o 4 =? 0 = false.
Proof.
  intros F o m s x H [N E]. rewrite strncpy_add, <- app_assoc in H. apply has_split in H. destruct H as [H _].
  apply Z.eqb_neq. unfold num. rewrite (has_at _ _ _ 4 H) by (rewrite strncpy_length; reflexivity).
  destruct s as [|c s]; [congruence|]. inversion N; subst. cbn [strncpy val]. pose proof (val_nonneg _ (strncpy_nonneg 3 s H3)). cbn [strncpy val] in H0. lia.
Qed.
Lemma read_name_short : forall F o m s x n, has F o (strncpy (4 + m) s ++ repeat 0 x) -> is_name s -> (length s <= 4 + m)%nat -> n = Z.of_nat (4 + m + x) ->
  read_name F o n = Some s.
Proof.
  intros F o m s x n H N L ->. unfold read_name. rewrite (name_bytes_pos F o m s _ H N).
  rewrite (has_at _ _ _ _ H) by (rewrite app_length, strncpy_length, repeat_length; reflexivity). f_equal. apply cut_strncpy; [apply name_cstr; exact N|exact L].
Qed.
Lemma read_name_long : forall F o s n p off, has F o (le 4 0) -> has F (o + 4) (le 4 off) -> range off 32 -> has F (p + off) (s ++ [0]) -> is_cstr s ->
  p = symptr F + 18 * symcount F -> 0 <= p -> read_name F o n = Some s.
Proof.
  intros F o s n p off H0 H1 R HS C -> P. unfold read_name. rewrite (has_small _ _ _ _ 4 H0) by (unfold range; auto; lia). rewrite (has_small _ _ _ _ 4 H1 eq_refl R).
  change (0 =? 0) with true. cbv iota. unfold range in R. eapply string_at_has; [exact P|lia|reflexivity|exact HS|exact C].
Qed.
(** The strings of a symbol *)
Definition strs_of (y : csym) : list Z :=
  (if 8 <? len (y_name y) then y_name y ++ [0] else []) ++ match y_aux y with Some (AFile s) => if 14 <? len s then s ++ [0] else [] | _ => [] end.
Lemma strs_listed : forall all ss y, listed all y = true -> sym_ok ss y -> sym_str all y = strs_of y.
Proof.
  intros all ss y L (A & _). unfold sym_str, strs_of, listed in *. destruct (y_abs y).
  - destruct A as [-> ->]. destruct (all || y_vis y || y_force y); reflexivity.
  - rewrite orb_false_r in L. rewrite L. reflexivity.
Qed.
Lemma strs_unlisted : forall all y, listed all y = false -> sym_str all y = [].
Proof.
  intros all y L. unfold sym_str, listed in *. destruct all; [discriminate|]. destruct (y_vis y); [discriminate|]. destruct (y_abs y); [discriminate|]. destruct (y_force y); [discriminate|]. reflexivity.
Qed.
Definition fits (fl : flavour) (ix : list (option Z)) (F : list Z) (stp : Z) (ss : list csect) (ts : list cnote) : Prop :=
  Forall2 (fun s t => t_size t = size_of s /\ range (size_of s) 32 /\ t_nreloc t = Z.of_nat (length (s_rels s))) ss ts.
Lemma fits_nth : forall fl ix F stp ss ts n, fits fl ix F stp ss ts ->
  match nth_error ss n, nth_error ts n with
  | Some s, Some t => t_size t = size_of s /\ range (size_of s) 32 /\ t_nreloc t = Z.of_nat (length (s_rels s))
  | None, None => True | _, _ => False end.
Proof. intros fl ix F stp ss ts n H. revert n. induction H as [|s t ss ts P _ IH]; intros [|n]; cbn [nth_error]; auto. apply IH. Qed.
(** One symbol *)
Lemma name_len8 : forall s : str, (8 <? len s) = false -> (length s <= 4 + 4)%nat.
Proof. intros s H. apply Z.ltb_ge in H. unfold len in H. lia. Qed.
Definition head_of (off : Z) (y : csym) : list Z :=
  let name := if y_abs y then ABSOLUT else y_name y in
  (if 8 <? len name then le 4 0 ++ le 4 off else strncpy 8 name) ++ le 4 (sym_value y) ++ le 2 (sym_scnum y) ++
  le 2 (if (y_type y =? 0) && y_func y then 32 else y_type y) ++ le 1 (class y) ++ le 1 (numaux y).
Lemma head_of_length : forall off y, Z.of_nat (length (head_of off y)) = 18.
Proof. intros. unfold head_of. cbv zeta. rewrite !app_length, !le_length. destruct (8 <? len _); rewrite ?app_length, ?le_length, ?strncpy_length; reflexivity. Qed.
Lemma storage_class : forall y, storage y = class y.
Proof. reflexivity. Qed.
Lemma range_le : forall v n m, range v n -> n <= m -> range v m.
Proof. intros v n m [A B] L. unfold range. destruct (Z.lt_ge_cases n 0); [rewrite (Z.pow_neg_r 2 n) in B by lia; lia|]. pose proof (Z.pow_le_mono_r 2 n m). lia. Qed.
Lemma head_read : forall F o off y ss p, has F o (head_of off y) -> sym_ok ss y -> Z.of_nat (length ss) <= 65533 -> range off 32 ->
  p = symptr F + 18 * symcount F -> 0 <= p -> has F (p + off) (strs_of y) ->
  read_name F o 8 = Some (if y_abs y then [46; 97; 98; 115; 111; 108; 117; 116] else y_name y) /\
  num F (o + 8) 4 = sym_value y mod 2 ^ 32 /\ num F (o + 12) 2 = sym_scnum y /\
  num F (o + 14) 2 = (if y_func y && (y_type y =? 0) then 32 else y_type y) /\ num F (o + 16) 1 = storage y /\ num F (o + 17) 1 = numaux y.
Proof.
  intros F o off y ss p H (NM & CL & TY & PL & AX) LS RO EP PP HS. unfold head_of in H. cbv zeta in H.
  match type of H with has _ _ (?x ++ _) => assert (E8 : Z.of_nat (length x) = 8) by (destruct (8 <? len _); rewrite ?app_length, ?le_length, ?strncpy_length; reflexivity) end.
  apply has_split in H. destruct H as [HN H]. rewrite E8 in H. clear E8.
  pieces H.
  split.
  { destruct (y_abs y) eqn:AB.
    - change (8 <? len ABSOLUT) with false in HN. cbv iota in HN. apply (read_name_short F o 4 ABSOLUT 0 8); try reflexivity.
      + change (repeat 0 0) with (@nil Z). rewrite app_nil_r. exact HN.
      + split; [|discriminate]. unfold ABSOLUT. repeat constructor.
    - unfold strs_of in HS. apply has_split in HS. destruct HS as [HS _]. destruct (8 <? len (y_name y)) eqn:L8.
      + apply has_split in HN. destruct HN as [HN1 HN2]. rewrite le_length in HN2. eapply read_name_long; eauto. apply name_cstr. exact NM.
      + apply (read_name_short F o 4 (y_name y) 0 8); try reflexivity; auto; [|apply name_len8; exact L8].
        change (repeat 0 0) with (@nil Z). rewrite app_nil_r. exact HN. }
  split; [|split; [|split; [|split]]].
  - match goal with Q : has F (o + 8) _ |- _ => rewrite (has_num _ _ _ _ 4 Q eq_refl) end. reflexivity.
  - match goal with Q : has F (o + 12) _ |- _ => apply (has_small _ _ _ _ 2 Q eq_refl) end. unfold sym_scnum, range. change (2 ^ (8 * 2)) with 65536. destruct (y_place y); lia.
  - rewrite (andb_comm (y_func y)). match goal with Q : has F (o + 14) _ |- _ => apply (has_small _ _ _ _ 2 Q eq_refl) end.
    destruct ((y_type y =? 0) && y_func y); [unfold range; lia|exact TY].
  - match goal with Q : has F (o + 16) _ |- _ => apply (has_small _ _ _ _ 1 Q eq_refl) end. unfold class. destruct (y_class y =? 0); [|exact CL]. destruct (y_ext y); unfold range; lia.
  - match goal with Q : has F (o + 17) _ |- _ => apply (has_small _ _ _ _ 1 Q eq_refl) end. unfold numaux, range. destruct (y_aux y); lia.
Qed.
Lemma sym_entry_eq : forall ts off y, sym_entry ts off y =
  let off1 := if 8 <? len (if y_abs y then ABSOLUT else y_name y) then off + (len (if y_abs y then ABSOLUT else y_name y) + 1) else off in
  match y_aux y with
  | None => (head_of off y, off1)
  | Some ASect =>
      let p := match y_place y with PSect n _ => match nth_error ts n with Some t => (t_size t, t_nreloc t) | None => (0, 0) end | _ => (0, 0) end in
      (head_of off y ++ le 4 (fst p) ++ le 2 (snd p) ++ le 2 0 ++ repeat 0 10, off1)
  | Some (AFile s) =>
      if 14 <? len s then (head_of off y ++ le 4 0 ++ le 4 off1 ++ repeat 0 10, off1 + (len s + 1))
      else (head_of off y ++ strncpy 14 s ++ repeat 0 4, off1)
  end.
Proof.
  intros. unfold sym_entry, head_of. cbv zeta. destruct (y_aux y) as [[|s]|]; [|destruct (14 <? len s)|]; rewrite <- ?app_assoc; try reflexivity.
  destruct (match y_place y with PSect n _ => _ | _ => _ end) as [a b]. cbn [fst snd]. rewrite <- ?app_assoc. reflexivity.
Qed.
Lemma pair_inj : forall {A B} (a c : A) (b d : B), (a, b) = (c, d) -> a = c /\ b = d.
Proof. intros A B a c b d H. injection H. auto. Qed.
Lemma sym_entry_ok : forall fl ix F i ss ts off y e off1 p stp', sym_entry ts off y = (e, off1) -> has F (symptr F + 18 * i) e ->
  sym_ok ss y -> Z.of_nat (length ss) <= 65533 -> Z.of_nat (length F) < 2 ^ 32 -> 0 <= off -> fits fl ix F stp' ss ts ->
  p = symptr F + 18 * symcount F -> 0 <= p -> has F (p + off) (strs_of y) ->
  read_sym F i = sym_view ss i y /\ num F (symptr F + 18 * i + 17) 1 = numaux y /\ off1 = off + len (strs_of y) /\ len e = 18 * (1 + numaux y).
Proof.
  intros fl ix F i ss ts off y e off1 p stp' H HE OK LS LF O FT EP PP HS.
  pose proof (has_bound _ _ _ HS) as BS. assert (RO : range off 32) by (unfold range; lia).
  rewrite sym_entry_eq in H. cbv zeta in H.
  set (off' := if 8 <? len (if y_abs y then ABSOLUT else y_name y) then off + (len (if y_abs y then ABSOLUT else y_name y) + 1) else off) in *.
  assert (O1 : off' = off + len (if 8 <? len (y_name y) then y_name y ++ [0] else [])).
  { subst off'. destruct OK as (NM & _). destruct (y_abs y).
    - destruct NM as [-> _]. change (8 <? len ABSOLUT) with false. change (8 <? len (@nil Z)) with false. unfold len. cbn. lia.
    - destruct (8 <? len (y_name y)); unfold len; rewrite ?app_length; cbn [length]; lia. }
  clearbody off'.
  assert (HH : has F (symptr F + 18 * i) (head_of off y) /\ exists a, e = head_of off y ++ a /\ has F (symptr F + 18 * i + 18) a).
  { destruct (y_aux y) as [[|s]|]; [|destruct (14 <? len s)|]; apply pair_inj in H; destruct H as [<- _]; try (apply has_split in HE; rewrite head_of_length in HE; destruct HE as [HE1 HE2]; split; [exact HE1|]; eexists; split; [reflexivity|exact HE2]).
    split; [exact HE|]. exists []. rewrite app_nil_r. split; [reflexivity|]. destruct HE as (a & c & -> & E). exists (a ++ head_of off y), c. rewrite <- app_assoc. split; [reflexivity|]. rewrite app_length, Nat2Z.inj_add, head_of_length. lia. }
  destruct HH as (HH & a & Ea & HA).
  destruct (head_read _ _ _ _ ss p HH OK LS RO EP PP HS) as (E1 & E2 & E3 & E4 & E5 & E6).
  assert (SV : forall v, (if num F (symptr F + 18 * i + 17) 1 =? 0 then NoAux else if num F (symptr F + 18 * i + 16) 1 =? 103 then FileAux (read_name F (symptr F + 18 * i + 18) 18)
     else SectAux (num F (symptr F + 18 * i + 18) 4) (num F (symptr F + 18 * i + 22) 2)) = v -> v = aux_view ss y -> read_sym F i = sym_view ss i y).
  { intros v EV ->. unfold read_sym. cbv zeta. rewrite EV, E1, E2, E3, E4, E5. unfold sym_view, sym_value, sym_scnum. f_equal; destruct (y_place y); reflexivity. }
  rewrite E6, E5 in SV. destruct OK as (_ & CL & _ & PL & AX). unfold storage in SV. unfold strs_of in HS |- *. apply has_split in HS. destruct HS as [_ HS].
  fold (len (if 8 <? len (y_name y) then y_name y ++ [0] else [])) in HS. rewrite <- Z.add_assoc, <- O1 in HS.
  assert (LA : forall x z : list Z, len (x ++ z) = len x + len z) by (intros; unfold len; rewrite app_length; lia).
  assert (LH : len (head_of off y) = 18) by apply head_of_length.
  unfold numaux, aux_view in *. destruct (y_aux y) as [[|s]|] eqn:AU.
  - apply pair_inj in H; destruct H as [<- <-]. apply app_inv_head in Ea. subst a. cbv zeta in *.
    set (pr := match y_place y with PSect n _ => _ | _ => _ end) in HA.
    assert (PR : SectAux (fst pr) (snd pr mod 65536) = match y_place y with PSect n _ => match nth_error ss n with Some s => SectAux (size_of s) (Z.of_nat (length (s_rels s)) mod 65536) | None => SectAux 0 0 end | _ => SectAux 0 0 end /\ range (fst pr) 32).
    { subst pr. destruct (y_place y) as [n o| | | |]; try (split; [reflexivity|unfold range; cbn; lia]). pose proof (fits_nth _ _ _ _ _ _ n FT) as FN.
      destruct (nth_error ss n) as [s|] eqn:NS; [|apply nth_error_None in NS; lia]. destruct (nth_error ts n) as [t|]; [|destruct FN]. destruct FN as (-> & RS & ->). cbn [fst snd]. auto. }
    destruct PR as [PR1 PR2]. clearbody pr. apply has_split in HA. destruct HA as [HA1 HA2]. rewrite le_length in HA2. apply has_split in HA2. destruct HA2 as [HA2 _].
    replace (symptr F + 18 * i + 18 + Z.of_nat 4) with (symptr F + 18 * i + 22) in HA2 by lia.
    split; [|split; [exact E6|split; [rewrite app_nil_r; exact O1|rewrite !LA, LH; unfold len; rewrite !le_length, repeat_length; reflexivity]]].
    change (1 =? 0) with false in SV. cbv iota in SV. destruct (Z.eqb_spec (if y_class y =? 0 then if y_ext y then 2 else 3 else y_class y) 103) as [E|NE].
    { destruct (y_class y =? 0); [destruct (y_ext y); discriminate|contradiction]. }
    eapply SV; [reflexivity|]. rewrite (has_small _ _ _ _ 4 HA1 eq_refl PR2), (has_num _ _ _ _ 2 HA2 eq_refl). exact PR1.
  - destruct AX as [NM EC]. rewrite EC in SV. change (1 =? 0) with false in SV. change (103 =? 0) with false in SV. change (103 =? 103) with true in SV. cbv iota in SV. destruct (14 <? len s) eqn:L14.
    + apply pair_inj in H; destruct H as [<- <-]. apply app_inv_head in Ea. subst a. apply has_split in HA. destruct HA as [HA1 HA2]. rewrite le_length in HA2. apply has_split in HA2. destruct HA2 as [HA2 _].
      split; [|split; [exact E6|split; [rewrite !LA; change (len [0]) with 1; lia|rewrite !LA, LH; unfold len; rewrite !le_length, repeat_length; reflexivity]]].
      eapply SV; [reflexivity|]. change (103 =? 103) with true. cbv iota. f_equal. eapply read_name_long; eauto; [|apply name_cstr; exact NM]. apply has_bound in HS. unfold range. unfold len in O1. lia.
    + apply pair_inj in H; destruct H as [<- <-]. apply app_inv_head in Ea. subst a.
      split; [|split; [exact E6|split; [rewrite app_nil_r; exact O1|rewrite !LA, LH; unfold len; rewrite strncpy_length, repeat_length; reflexivity]]].
      eapply SV; [reflexivity|]. change (103 =? 103) with true. cbv iota. f_equal. apply (read_name_short F _ 10 s 4 18); auto. apply Z.ltb_ge in L14. unfold len in L14. lia.
  - apply pair_inj in H; destruct H as [<- <-]. split; [eapply SV; reflexivity|]. split; [exact E6|]. split; [rewrite app_nil_r; exact O1|rewrite LH; reflexivity].
Qed.
