(** ELF symbol tables: proofs about their order and contents. *)
From Coq Require Import ZArith List Bool Arith Lia.
From Verif Require Import Lib M_Elf P_Elf.
Import ListNotations.
Open Scope Z_scope.

Lemma eid_eqb_spec : forall a b, eid_eqb a b = true <-> a = b.
Proof.
  intros [| |n] [| |m]; cbn; split; intro H; try discriminate; try reflexivity.
  - apply Nat.eqb_eq in H. subst. reflexivity.
  - injection H as ->. apply Nat.eqb_refl.
Qed.
Lemma eid_dec : forall a b : eid, {a = b} + {a <> b}.
Proof. decide equality. apply Nat.eq_dec. Qed.
Lemma put_same : forall i e m, put i e m i = Some e.
Proof. intros. unfold put. rewrite (proj2 (eid_eqb_spec i i) eq_refl). reflexivity. Qed.
Lemma put_other : forall i j e m, i <> j -> put i e m j = m j.
Proof. intros i j e m H. unfold put. destruct (eid_eqb i j) eqn:E; [apply eid_eqb_spec in E; contradiction|reflexivity]. Qed.

(** The table while it is built; [vis] are the symbols the traversal has been at. *)
Record inv (vis : list nat) (s : state) (names : list str) (L G : list eid) : Prop := Inv {
  i_strs : strs s = layout 0 names;
  i_len : (2 <= length names)%nat;
  i_table : table s = Dummy :: File :: L ++ G;
  i_nodup : NoDup (table s);
  i_in : forall i, In i (table s) <-> exists e, ents s i = Some e /\ in_table e = true;
  i_out : forall i e, ents s i = Some e -> in_table e = false -> e_bind e = 0;
  i_loc : forall i, In i (Dummy :: File :: L) -> is_local (ents s) i = true;
  i_glo : forall i, In i G -> is_local (ents s) i = false;
  i_dummy : ents s Dummy = Some dummy_entry;
  i_file : exists e, ents s File = Some e /\ e_type e = STT_FILE /\ e_name e = Some 1%nat;
  i_vis : forall i, In i L -> exists n, i = Sy n /\ In n vis;
  i_name : forall i e p, ents s i = Some e -> e_name e = Some p -> (p < length names)%nat }.

(** One entry changes; the strings may grow; the symbol may be put into the table. *)
Inductive placed (i : eid) (L G : list eid) : list eid -> list eid -> Prop :=
| Kept : placed i L G L G
| AtEnd : placed i L G L (G ++ [i])
| Front : placed i L G (i :: L) G.

Lemma is_local_put_other : forall i j e m, i <> j -> is_local (put i e m) j = is_local m j.
Proof. intros. unfold is_local, bind_of. rewrite put_other by assumption. reflexivity. Qed.
Lemma is_local_put_same : forall i e m, is_local (put i e m) i = (e_bind e =? 0).
Proof. intros. unfold is_local, bind_of. rewrite put_same. reflexivity. Qed.

Definition sy (i : eid) : Prop := i <> Dummy /\ i <> File.

Lemma inv_ext : forall vis s s' names L G, inv vis s names L G -> strs s' = strs s -> table s' = table s -> (forall j, ents s' j = ents s j) ->
  inv vis s' names L G.
Proof.
  intros vis s s' names L G H A B C. assert (D : forall j, is_local (ents s') j = is_local (ents s) j) by (intro j; unfold is_local, bind_of; rewrite C; reflexivity).
  destruct H. constructor; rewrite ?A, ?B; auto.
  - intro i. rewrite C. auto.
  - intros i e. rewrite C. apply i_out0.
  - intros i. rewrite D. apply i_loc0.
  - intros i. rewrite D. apply i_glo0.
  - rewrite C. exact i_dummy0.
  - rewrite C. exact i_file0.
  - intros i e p. rewrite C. apply i_name0.
Qed.
Lemma put_put : forall i e e' m j, put i e (put i e' m) j = put i e m j.
Proof. intros. unfold put. destruct (eid_eqb i j); reflexivity. Qed.
(** Updating an entry that is in the table keeps the invariant if it stays on its side. *)
Lemma inv_put : forall vis s names L G i e e', inv vis s names L G -> sy i -> ents s i = Some e -> in_table e' = in_table e ->
  (e_bind e' =? 0) = (e_bind e =? 0) -> e_name e' = e_name e -> inv vis (State (strs s) (table s) (put i e' (ents s))) names L G.
Proof.
  intros vis s names L G i e e' [] [S1 S2] E T B N. constructor; cbn [strs table ents]; auto.
  - intro j. rewrite i_in0. destruct (eid_dec i j) as [<-|D].
    + rewrite put_same. split; intros (x & X & Y); injection X || idtac.
      * rewrite E in X. injection X as <-. exists e'. rewrite T. auto.
      * intro; subst. exists e. rewrite <- T. auto.
    + rewrite put_other by exact D. reflexivity.
  - intros j x X Y. destruct (eid_dec i j) as [<-|D].
    + rewrite put_same in X. injection X as <-. rewrite T in Y. specialize (i_out0 _ _ E Y).
      rewrite i_out0 in B. cbn in B. apply Z.eqb_eq in B. exact B.
    + rewrite put_other in X by exact D. eauto.
  - intros j J. destruct (eid_dec i j) as [<-|D].
    + rewrite is_local_put_same, B. specialize (i_loc0 _ J). unfold is_local, bind_of in i_loc0. rewrite E in i_loc0. exact i_loc0.
    + rewrite is_local_put_other by exact D. auto.
  - intros j J. destruct (eid_dec i j) as [<-|D].
    + rewrite is_local_put_same, B. specialize (i_glo0 _ J). unfold is_local, bind_of in i_glo0. rewrite E in i_glo0. exact i_glo0.
    + rewrite is_local_put_other by exact D. auto.
  - rewrite put_other by exact S1. exact i_dummy0.
  - rewrite put_other by exact S2. exact i_file0.
  - intros j x p X Y. destruct (eid_dec i j) as [<-|D].
    + rewrite put_same in X. injection X as <-. rewrite N in Y. eauto.
    + rewrite put_other in X by exact D. eauto.
Qed.
(** An entry that is not in the table can be replaced by another that is not. *)
Lemma inv_out : forall vis s names L G i e', inv vis s names L G -> sy i ->
  (forall e, ents s i = Some e -> in_table e = false) -> in_table e' = false -> e_bind e' = 0 ->
  (forall p, e_name e' = Some p -> (p < length names)%nat) -> inv vis (State (strs s) (table s) (put i e' (ents s))) names L G.
Proof.
  intros vis s names L G i e' H [S1 S2] O T B N. pose proof H as H0. destruct H.
  assert (NI : ~ In i (table s)).
  { intro J. apply i_in0 in J. destruct J as (e & E & F). rewrite (O _ E) in F. discriminate. }
  constructor; cbn [strs table ents]; auto.
  - intro j. rewrite i_in0. destruct (eid_dec i j) as [<-|D].
    + rewrite put_same. split; intros (x & X & Y).
      * rewrite (O _ X) in Y. discriminate.
      * injection X as <-. congruence.
    + rewrite put_other by exact D. reflexivity.
  - intros j x X Y. destruct (eid_dec i j) as [<-|D]; [rewrite put_same in X; injection X as <-; exact B|].
    rewrite put_other in X by exact D. eauto.
  - intros j J. rewrite is_local_put_other; [auto|]. intros <-. apply NI. rewrite i_table0. destruct J as [J|[J|J]]; [left; auto|right; left; auto|].
    right. right. apply in_or_app. auto.
  - intros j J. rewrite is_local_put_other; [auto|]. intros <-. apply NI. rewrite i_table0. right. right. apply in_or_app. auto.
  - rewrite put_other by exact S1. exact i_dummy0.
  - rewrite put_other by exact S2. exact i_file0.
  - intros j x p X Y. destruct (eid_dec i j) as [<-|D]; [rewrite put_same in X; injection X as <-; eauto|].
    rewrite put_other in X by exact D. eauto.
Qed.
(** A symbol that is not in the table is put at the end, not local; or after the file symbol, local. *)
Lemma inv_insert : forall vis s names L G i e' L' G', inv vis s names L G -> sy i ->
  (forall e, ents s i = Some e -> in_table e = false) -> in_table e' = true ->
  (forall p, e_name e' = Some p -> (p < length names)%nat) ->
  (L' = L /\ G' = G ++ [i] /\ e_bind e' <> 0 \/ L' = i :: L /\ G' = G /\ e_bind e' = 0 /\ exists n, i = Sy n /\ In n vis) ->
  inv vis (State (strs s) (Dummy :: File :: L' ++ G') (put i e' (ents s))) names L' G'.
Proof.
  intros vis s names L G i e' L' G' H [S1 S2] O T N C. pose proof H as H0. destruct H.
  assert (NI : ~ In i (table s)).
  { intro J. apply i_in0 in J. destruct J as (e & E & F). rewrite (O _ E) in F. discriminate. }
  assert (ME : forall j, In j (Dummy :: File :: L' ++ G') <-> i = j \/ In j (table s)).
  { intro j. rewrite i_table0. destruct C as [(-> & -> & _)|(-> & -> & _)]; cbn [In app]; rewrite ?in_app_iff; cbn [In]; tauto. }
  constructor; cbn [strs table ents]; auto.
  - rewrite i_table0 in i_nodup0, NI. inversion i_nodup0 as [|a b A1 B1]; subst. inversion B1 as [|a b A2 B2]; subst.
    assert (NL : ~ In i (L ++ G)) by (intro J; apply NI; right; right; exact J).
    destruct C as [(-> & -> & _)|(-> & -> & _)].
    + rewrite app_assoc. constructor; [|constructor].
      * intro J. destruct J as [J|J]; [congruence|]. apply in_app_or in J. destruct J as [J|[J|[]]]; [apply A1; right; exact J|congruence].
      * intro J. apply in_app_or in J. destruct J as [J|[J|[]]]; [apply A2; exact J|congruence].
      * apply NoDup_rev in B2. rewrite <- (rev_involutive (L ++ G)) in NL |- *. rewrite <- in_rev in NL.
        replace (rev (rev (L ++ G)) ++ [i]) with (rev (i :: rev (L ++ G))) by reflexivity. apply NoDup_rev. constructor; assumption.
    + constructor; [|constructor; [|constructor]]; auto.
      * intro J. cbn in J. destruct J as [J|[J|J]]; [congruence|congruence|]. apply A1. right. exact J.
      * intro J. cbn in J. destruct J as [J|J]; [congruence|]. apply A2. exact J.
  - intro j. rewrite ME, i_in0. destruct (eid_dec i j) as [<-|D].
    + rewrite put_same. split; [intros _; exists e'; auto|auto].
    + rewrite put_other by exact D. tauto.
  - intros j x X Y. destruct (eid_dec i j) as [<-|D]; [rewrite put_same in X; injection X as <-; congruence|].
    rewrite put_other in X by exact D. eauto.
  - intros j J. destruct (eid_dec i j) as [<-|D].
    + rewrite is_local_put_same. apply Z.eqb_eq. destruct C as [(-> & -> & B)|(-> & -> & B & _)]; [|exact B].
      exfalso. apply NI. rewrite i_table0. destruct J as [J|[J|J]]; [left; auto|right; left; auto|]. right. right. apply in_or_app. auto.
    + rewrite is_local_put_other by exact D. destruct C as [(-> & -> & B)|(-> & -> & B)]; [auto|].
      apply i_loc0. destruct J as [J|[J|[J|J]]]; [left; auto|right; left; auto|congruence|right; right; auto].
  - intros j J. destruct (eid_dec i j) as [<-|D].
    + rewrite is_local_put_same. apply Z.eqb_neq. destruct C as [(-> & -> & B)|(-> & -> & B & _)]; [exact B|].
      exfalso. apply NI. rewrite i_table0. right. right. apply in_or_app. auto.
    + rewrite is_local_put_other by exact D. destruct C as [(-> & -> & B)|(-> & -> & B)]; [|auto].
      apply in_app_or in J. destruct J as [J|[J|[]]]; [auto|congruence].
  - rewrite put_other by exact S1. exact i_dummy0.
  - rewrite put_other by exact S2. exact i_file0.
  - intros j J. destruct C as [(-> & -> & B)|(-> & -> & B & V)]; [auto|]. destruct J as [<-|J]; [exact V|auto].
  - intros j x p X Y. destruct (eid_dec i j) as [<-|D]; [rewrite put_same in X; injection X as <-; eauto|].
    rewrite put_other in X by exact D. eauto.
Qed.

(** What a step on one symbol does to the rest. *)
Record step (i : eid) (s s' : state) (names names' : list str) : Prop := Step {
  p_names : exists x, names' = names ++ x;
  p_frame : forall j, j <> i -> ents s' j = ents s j;
  p_table : forall j, j <> i -> (In j (table s') <-> In j (table s)) }.

Lemma need_entry_ok : forall vis s names L G i nm, inv vis s names L G -> sy i ->
  exists e s1 x, need_entry i nm s = Some (e, s1) /\ inv vis s1 (names ++ x) L G /\ table s1 = table s /\ ents s1 = ents s /\
    match ents s i with
    | Some e0 => e = e0 /\ s1 = s /\ x = []
    | None => e = ent_create (match nm with None => None | Some _ => Some (length names) end) /\ x = match nm with None => [] | Some n => [n] end
    end.
Proof.
  intros vis s names L G i nm H S. unfold need_entry. destruct (ents s i) as [e0|] eqn:E.
  { exists e0, s, []. rewrite app_nil_r. auto 10. }
  destruct nm as [n|].
  - rewrite (i_strs _ _ _ _ _ H), append_layout by (pose proof (i_len _ _ _ _ _ H); destruct names; [cbn in *; lia|discriminate]).
    exists (ent_create (Some (length names))), (State (layout 0 (names ++ [n])) (table s) (ents s)), [n].
    assert (LL : length (layout 0 names) = length names) by (rewrite <- (layout_snd names 0) at 2; rewrite map_length; reflexivity).
    rewrite LL. split; [reflexivity|]. split; [|auto]. destruct H. constructor; cbn [strs table ents]; auto.
    + rewrite app_length. cbn. lia.
    + intros j x p X Y. rewrite app_length. cbn. specialize (i_name0 _ _ _ X Y). lia.
  - exists (ent_create None), s, []. rewrite app_nil_r. auto 10.
Qed.

(** A non-local symbol is appended or its entry updated. *)
Lemma symtab_append_ok : forall vis s names L G c i y sectidx bind type vi size value, inv vis s names L G -> sy i -> bind <> 0 -> ~ In i L ->
  exists s' names' G' e', symtab_append c i y sectidx bind type vi size value s = Some s' /\ inv vis s' names' L G' /\ step i s s' names names' /\
    In i (table s') /\ ents s' i = Some e' /\ in_table e' = true /\ e_bind e' = bind /\
    match ents s i with
    | Some e0 => e_name e' = e_name e0 /\ e_sect e' = e_sect e0
    | None => e_sect e' = None /\ exists p, e_name e' = Some p /\ nth_error names' p = Some (global_name c y)
    end /\ (ents s i = None -> forall p, e_name e' = Some p -> (length names <= p)%nat).
Proof.
  intros vis s names L G c i y sectidx bind type vi size value H S B NL. unfold symtab_append.
  destruct (need_entry_ok _ _ _ _ _ i (Some (global_name c y)) H S) as (e & s1 & x & E & H1 & T1 & M1 & R). rewrite E.
  set (f := fun e => set_vis vi (set_nonzero None sectidx bind type size value e)).
  assert (FB : forall e, e_bind (f e) = bind) by (intro; cbn; unfold orz; destruct (Z.eqb_spec bind 0); [contradiction|reflexivity]).
  assert (FN : forall e, e_name (f e) = e_name e) by reflexivity.
  assert (FS : forall e, e_sect (f e) = e_sect e) by reflexivity.
  assert (FT : forall e, in_table (f e) = in_table e) by reflexivity. clearbody f.
  assert (P : exists y, names ++ x = names ++ y) by (exists x; reflexivity).
  destruct (in_table e) eqn:IT.
  - destruct (ents s i) as [e0|] eqn:E0; [|destruct R as [-> _]; discriminate]. destruct R as (-> & -> & ->). rewrite app_nil_r in *.
    assert (GI : is_local (ents s) i = false).
    { assert (J : In i (table s)) by (apply (i_in _ _ _ _ _ H); eauto). rewrite (i_table _ _ _ _ _ H) in J.
      destruct J as [J|[J|J]]; [destruct S; congruence|destruct S; congruence|]. apply in_app_or in J. destruct J as [J|J]; [contradiction|].
      apply (i_glo _ _ _ _ _ H). exact J. }
    exists (update i f s), names, G, (f e0). split; [reflexivity|].
    unfold update. rewrite E0. split; [|split; [|split; [|split; [apply put_same|]]]].
    + eapply inv_put; eauto. rewrite FB. unfold is_local, bind_of in GI. rewrite E0 in GI. unfold STB_LOCAL in GI. rewrite GI. apply Z.eqb_neq. exact B.
    + constructor; [exists []; rewrite app_nil_r; reflexivity| |reflexivity]. intros j J. apply put_other. congruence.
    + cbn [table]. apply (i_in _ _ _ _ _ H). eauto.
    + rewrite FT, FB, FN, FS. repeat split; auto. discriminate.
  - assert (O : forall e1, ents s1 i = Some e1 -> in_table e1 = false).
    { intros e1 X. rewrite M1 in X. rewrite X in R. destruct R as (-> & _). exact IT. }
    assert (NM : forall p, e_name e = Some p -> (p < length (names ++ x))%nat).
    { intros p X. destruct (ents s i) as [e0|] eqn:E0.
      - destruct R as (-> & -> & ->). rewrite app_nil_r in *. exact (i_name _ _ _ _ _ H _ _ _ E0 X).
      - destruct R as (-> & ->). cbn in X. injection X as <-. rewrite app_length. cbn. lia. }
    unfold append_entry. rewrite (i_table _ _ _ _ _ H1). cbn [app].
    exists (State (strs s1) (Dummy :: File :: L ++ (G ++ [i])) (put i (f (set_in e)) (put i (set_in e) (ents s1)))), (names ++ x), (G ++ [i]), (f (set_in e)).
    split.
    { unfold update. cbn [strs table ents]. rewrite put_same. rewrite <- app_assoc. reflexivity. }
    split; [|split; [|split; [|split; [apply put_same|]]]].
    + apply inv_ext with (s := State (strs s1) (Dummy :: File :: L ++ (G ++ [i])) (put i (f (set_in e)) (ents s1)));
        [|reflexivity|reflexivity|intro j; apply put_put].
      eapply inv_insert; [exact H1|exact S|exact O|rewrite FT; reflexivity|intro p; rewrite FN; exact (NM p)|]. left. rewrite FB. auto.
    + constructor; cbn [table ents]; [exists x; reflexivity| |].
      * intros j J. rewrite !put_other by congruence. rewrite M1. reflexivity.
      * intros j J. rewrite (i_table _ _ _ _ _ H). cbn [In]. rewrite !in_app_iff. cbn [In]. assert (N : i <> j) by congruence. clear - N. tauto.
    + cbn [table In]. rewrite !in_app_iff. cbn [In]. auto 10.
    + rewrite FT, FB, FN, FS. cbn [in_table set_in e_name e_sect]. split; [reflexivity|]. split; [reflexivity|].
      destruct (ents s i) as [e0|]; [destruct R as (-> & _); split; [auto|discriminate]|]. destruct R as (-> & ->). split; [split; [reflexivity|]|].
      * exists (length names). split; [reflexivity|]. rewrite nth_error_app2, Nat.sub_diag by lia. reflexivity.
      * intros _ p X. cbn in X. injection X as <-. lia.
Qed.

(** A local symbol goes right behind the file symbol. *)
Lemma insert_local_ok : forall vis s names L G i e, inv vis s names L G ->
  insert_local i e s = Some (State (strs s) (Dummy :: File :: (i :: L) ++ G) (put i (set_in e) (ents s))).
Proof.
  intros vis s names L G i e H. unfold insert_local. rewrite (i_table _ _ _ _ _ H).
  assert (W : walk (ents s) (Dummy :: File :: L ++ G) = 2%nat).
  { cbn [walk]. rewrite !(i_loc _ _ _ _ _ H) by (cbn; auto). unfold type_of. rewrite (i_dummy _ _ _ _ _ H).
    destruct (i_file _ _ _ _ _ H) as (f & -> & -> & _). reflexivity. }
  rewrite W. reflexivity.
Qed.

Lemma inv_more : forall vis n s names L G, inv vis s names L G -> inv (n :: vis) s names L G.
Proof. intros vis n s names L G []. constructor; auto. intros i J. destruct (i_vis0 _ J) as (m & -> & M). exists m. split; [reflexivity|right; exact M]. Qed.
Lemma step_refl : forall i s names, step i s s names names.
Proof. intros. constructor; try reflexivity. exists []. rewrite app_nil_r. reflexivity. Qed.
Lemma step_trans : forall i s1 s2 s3 n1 n2 n3, step i s1 s2 n1 n2 -> step i s2 s3 n2 n3 -> step i s1 s3 n1 n3.
Proof.
  intros i s1 s2 s3 n1 n2 n3 [[x A1] A2 A3] [[y B1] B2 B3]. constructor.
  - exists (x ++ y). subst. rewrite app_assoc. reflexivity.
  - intros j J. rewrite B2, A2 by exact J. reflexivity.
  - intros j J. rewrite B3, A3 by exact J. reflexivity.
Qed.
Definition filled (sect value : option Z) (e0 e1 : entry) : Prop :=
  in_table e1 = in_table e0 /\ e_bind e1 = e_bind e0 /\ e_name e1 = e_name e0 /\
  e_sect e1 = (match sect with Some _ => sect | None => e_sect e0 end) /\ e_value e1 = (match value with Some v => v | None => e_value e0 end).
(** Filling in section and value. *)
Lemma fill_ok : forall vis s names L G i e type sect value, inv vis s names L G -> sy i -> ents s i = Some e ->
  exists e1, inv vis (update i (set_nonzero sect 0 0 type None value) s) names L G /\
    step i s (update i (set_nonzero sect 0 0 type None value) s) names names /\
    table (update i (set_nonzero sect 0 0 type None value) s) = table s /\
    ents (update i (set_nonzero sect 0 0 type None value) s) i = Some e1 /\ filled sect value e e1.
Proof.
  intros vis s names L G i e type sect value H S E. exists (set_nonzero sect 0 0 type None value e).
  unfold update. rewrite E. split; [|split; [|split; [reflexivity|split; [apply put_same|]]]].
  - eapply inv_put; eauto.
  - constructor; [exists []; rewrite app_nil_r; reflexivity| |reflexivity]. intros j J. apply put_other. congruence.
  - repeat split; reflexivity.
Qed.

Definition where_ (y : sym) : option Z := match s_kind y with Label x _ _ => Some x | _ => None end.
Definition what (y : sym) : Z := match s_kind y with Label _ _ o => o | _ => 0 end.
Definition refers (names : list str) (e : entry) (nm : option str) : Prop :=
  match nm with None => e_name e = None | Some x => exists p, e_name e = Some p /\ nth_error names p = Some x end.

(** A local symbol. *)
Lemma build_local_ok : forall vis s names L G c n y, inv vis s names L G ->
  (forall e, ents s (Sy n) = Some e -> in_table e = false) -> s_global y = false -> s_common y = false \/ common_ok y = false -> s_extern y = false ->
  match s_kind y with Label _ _ _ | Abs => True | _ => False end ->
  exists s' names' e', build_local c (Sy n) y s = Some s' /\ inv (n :: vis) s' names' (Sy n :: L) G /\ step (Sy n) s s' names names' /\
    ents s' (Sy n) = Some e' /\ e_bind e' = 0 /\ e_sect e' = (match where_ y with Some x => Some x | None => e_sect e' end) /\
    (section_symbol y = false -> e_value e' = what y) /\
    match ents s (Sy n) with
    | Some e0 => e_name e' = e_name e0
    | None => refers names' e' (if local_names c && negb (section_symbol y) then Some (global_name c y) else None)
    end.
Proof.
  intros vis s names L G c n y H O SG SC SE K. unfold build_local.
  fold (section_symbol y). fold (where_ y). fold (what y).
  assert (S : sy (Sy n)) by (split; discriminate).
  set (nm := if negb (local_names c) || section_symbol y then None else Some (global_name c y)).
  destruct (need_entry_ok _ _ _ _ _ (Sy n) nm H S) as (e & s1 & x & E & H1 & T1 & M1 & R).
  assert (IT : in_table e = false).
  { destruct (ents s (Sy n)) as [e0|]; [destruct R as (-> & _); auto|destruct R as (-> & _); reflexivity]. }
  assert (EB : e_bind e = 0).
  { destruct (ents s (Sy n)) as [e0|] eqn:E0; [destruct R as (-> & _); eapply (i_out _ _ _ _ _ H); eauto|destruct R as (-> & _); reflexivity]. }
  set (s2 := State (strs s1) (Dummy :: File :: (Sy n :: L) ++ G) (put (Sy n) (set_in e) (ents s1))).
  assert (I2 : insert_local (Sy n) e s1 = Some s2) by (eapply insert_local_ok; exact H1).
  assert (NM : forall p, e_name e = Some p -> (p < length (names ++ x))%nat).
  { intros p X. destruct (ents s (Sy n)) as [e0|] eqn:E0.
    - destruct R as (-> & -> & ->). rewrite app_nil_r in *. exact (i_name _ _ _ _ _ H _ _ _ E0 X).
    - destruct R as (-> & ->). cbn in X. destruct nm; [|discriminate]. injection X as <-. rewrite app_length. cbn. lia. }
  assert (H2 : inv (n :: vis) s2 (names ++ x) (Sy n :: L) G).
  { eapply inv_insert; [apply inv_more; exact H1|exact S| |reflexivity|exact NM|].
    - intros e1 X. rewrite M1 in X. auto.
    - right. repeat split; auto. exists n. split; [reflexivity|left; reflexivity]. }
  assert (P2 : step (Sy n) s s2 names (names ++ x)).
  { constructor; cbn [table ents s2]; [exists x; reflexivity| |].
    - intros j J. rewrite put_other by congruence. rewrite M1. reflexivity.
    - intros j J. rewrite (i_table _ _ _ _ _ H). cbn [In app]. assert (N : Sy n <> j) by congruence. clear - N. tauto. }
  assert (E2 : ents s2 (Sy n) = Some (set_in e)) by apply put_same.
  set (st := match s_kind y with Label z _ _ => Some z | _ => None end).
  destruct (fill_ok _ _ _ _ _ _ _ (if section_symbol y then STT_SECTION else 0) (where_ y) None H2 S E2) as (e3 & H3 & P3 & T3 & E3 & F3).
  set (s3 := update (Sy n) (set_nonzero (where_ y) 0 0 (if section_symbol y then STT_SECTION else 0) None None) s2) in *.
  destruct (fill_ok _ _ _ _ _ _ _ 0 (where_ y) (Some (what y)) H3 S E3) as (e4 & H4 & P4 & T4 & E4 & F4).
  set (s4 := update (Sy n) (set_nonzero (where_ y) 0 0 0 None (Some (what y))) s3) in *.
  assert (Q : build_local c (Sy n) y s = Some (if section_symbol y then s3 else s4)).
  { unfold build_local. fold (section_symbol y). fold (where_ y). fold (what y). fold nm. rewrite E, IT, I2.
    fold s3. fold s4. destruct (s_kind y), (section_symbol y); try contradiction; reflexivity. }
  unfold build_local in Q. fold (section_symbol y) (where_ y) (what y) nm in Q. rewrite Q. clear Q.
  assert (NN : forall e', e_name e' = e_name e -> match ents s (Sy n) with
    | Some e0 => e_name e' = e_name e0
    | None => refers (names ++ x) e' (if local_names c && negb (section_symbol y) then Some (global_name c y) else None) end).
  { intros e' X. destruct (ents s (Sy n)) as [e0|]; [destruct R as (-> & _); exact X|]. destruct R as (-> & ->). unfold refers, nm in *.
    destruct (local_names c), (section_symbol y); cbn [negb andb orb] in *; try exact X.
    exists (length names). split; [exact X|]. rewrite nth_error_app2, Nat.sub_diag by lia. reflexivity. }
  destruct F3 as (A1 & A2 & A3 & A4 & A5), F4 as (B1 & B2 & B3 & B4 & B5).
  destruct (section_symbol y) eqn:SS.
  - exists s3, (names ++ x), e3. split; [reflexivity|]. split; [exact H3|]. split; [eapply step_trans; eassumption|]. split; [exact E3|].
    split; [rewrite A2; exact EB|]. split; [rewrite A4; destruct (where_ y); reflexivity|]. split; [discriminate|]. apply NN. exact A3.
  - exists s4, (names ++ x), e4. split; [reflexivity|]. split; [exact H4|]. split; [eapply step_trans; [exact P2|eapply step_trans; eassumption]|]. split; [exact E4|].
    split; [rewrite B2, A2; exact EB|]. split; [rewrite B4; destruct (where_ y); reflexivity|]. split; [intros _; exact B5|]. apply NN. rewrite B3. exact A3.
Qed.

(** What the traversal makes of a symbol, from what the directives left of it. *)
Definition in_tab (s : state) (i : eid) : bool := match ents s i with Some e => in_table e | None => false end.
Record made (c : conf) (y : sym) (w : bool) (e0 : option entry) (names : list str) (e : entry) : Prop := Made {
  d_bind : e_bind e = binding y w;
  d_name : match e0 with Some e0 => e_name e = e_name e0 | None => refers names e (name_of c y) end;
  d_place : s_extern y = false -> s_defined y = true -> forall x sn o, s_kind y = Label x sn o ->
    e_sect e = Some x /\ (e_bind e <> STB_LOCAL \/ section_symbol y = false -> e_value e = o) }.

Lemma kind_place : forall y x sn o, s_kind y = Label x sn o -> where_ y = Some x /\ what y = o.
Proof. intros y x sn o K. unfold where_, what. rewrite K. auto. Qed.

Lemma build_ok : forall vis s names L G c n y, inv vis s names L G -> ~ In n vis -> In (Sy n) L \/ ~ In (Sy n) L ->
  (forall e, ents s (Sy n) = Some e -> in_table e = true -> e_bind e = STB_WEAK) ->
  exists s' names' L' G', build_symtab c (Sy n) y s = Some s' /\ inv (n :: vis) s' names' L' G' /\ step (Sy n) s s' names names' /\
    (In (Sy n) (table s') <-> listed y (in_tab s (Sy n)) = true) /\
    (listed y (in_tab s (Sy n)) = true -> exists e, ents s' (Sy n) = Some e /\ made c y (in_tab s (Sy n)) (ents s (Sy n)) names' e).
Proof.
  intros vis s names L G c n y H NV _ WK.
  assert (S : sy (Sy n)) by (split; discriminate).
  assert (NL : ~ In (Sy n) L).
  { intro J. destruct (i_vis _ _ _ _ _ H _ J) as (m & X & M). injection X as <-. contradiction. }
  set (i := Sy n) in *.
  (* the fill step in table *)
  unfold build_symtab. fold (where_ y) (what y).
  destruct (s_extern y) eqn:SE.
  { unfold build_extern.
    edestruct (symtab_append_ok _ _ _ _ _ c i y SHN_UNDEF STB_GLOBAL 0 0 None None H S) as (s' & names' & G' & e & E & H' & P & T & EE & IT & B & R); [discriminate|exact NL|].
    exists s', names', L, G'. split; [exact E|]. split; [apply inv_more; exact H'|]. split; [exact P|].
    assert (LS : listed y (in_tab s i) = true) by (unfold listed; rewrite SE, orb_true_r; reflexivity).
    split; [rewrite LS; tauto|]. intros _. exists e. split; [exact EE|]. constructor.
    - rewrite B. unfold binding. rewrite SE. reflexivity.
    - destruct (ents s i); [tauto|]. unfold name_of. rewrite SE. cbn [orb refers]. tauto.
    - congruence. }
  (* the common part *)
  assert (C1 : exists s1 names1 G1, (if s_common y then build_common c i y s else Some s) = Some s1 /\ inv vis s1 names1 L G1 /\ step i s s1 names names1 /\
    (if common_ok y then exists e, ents s1 i = Some e /\ in_table e = true /\ e_bind e = STB_GLOBAL /\
       match ents s i with Some e0 => e_name e = e_name e0 | None => refers names1 e (Some (global_name c y)) end
     else s1 = s /\ names1 = names)).
  { unfold common_ok, build_common. destruct (s_common y); [|exists s, names, G; split; [reflexivity|split; [exact H|split; [apply step_refl|cbn [andb]; auto]]]].
    destruct (s_comalign y) as [a|]; [|exists s, names, G; split; [reflexivity|split; [exact H|split; [apply step_refl|cbn [andb]; auto]]]].
    rewrite <- exp2_ok. destruct (is_exp2 a); [|exists s, names, G; split; [reflexivity|split; [exact H|split; [apply step_refl|cbn [andb]; auto]]]].
    edestruct (symtab_append_ok _ _ _ _ _ c i y SHN_COMMON STB_GLOBAL 0 0 (Some (s_comsize y)) (Some a) H S) as (s' & names' & G' & e & E & H' & P & T & EE & IT & B & R); [discriminate|exact NL|].
    exists s', names', G'. split; [exact E|]. split; [exact H'|]. split; [exact P|]. cbn [andb]. exists e. split; [exact EE|]. split; [exact IT|]. split; [exact B|].
    destruct (ents s i); [tauto|]. cbn [refers]. tauto. }
  destruct C1 as (s1 & names1 & G1 & E1 & H1 & P1 & R1). rewrite E1.
  (* without a definition *)
  destruct (s_defined y) eqn:SD; cbn [negb].
  2:{ exists s1, names1, L, G1. split; [reflexivity|]. split; [apply inv_more; exact H1|]. split; [exact P1|].
      unfold listed, defined_here. rewrite SE, SD, !orb_false_r. cbn [andb]. rewrite ?orb_false_r.
      destruct (common_ok y) eqn:CO.
      - destruct R1 as (e & EE & IT & B & N). rewrite orb_true_r. split; [split; [reflexivity|]; intros _; apply (i_in _ _ _ _ _ H1); eauto|].
        intros _. exists e. split; [exact EE|]. constructor; [unfold binding; rewrite SE, CO; exact B| |congruence].
        destruct (ents s i); [exact N|]. unfold name_of. rewrite SE, CO. exact N.
      - destruct R1 as (-> & ->). rewrite ?orb_false_r. unfold in_tab. split.
        + rewrite (i_in _ _ _ _ _ H). split; [intros (e & -> & X); exact X|]. destruct (ents s i) as [e|]; [|discriminate]. eauto.
        + intro W. destruct (ents s i) as [e|] eqn:EE; [|discriminate]. exists e. split; [reflexivity|].
          constructor; [unfold binding; rewrite SE, CO, W; cbn [orb]; auto|reflexivity|congruence]. }
  destruct (match s_kind y with Other => true | _ => false end) eqn:KO.
  { assert (K : s_kind y = Other) by (destruct (s_kind y); try discriminate; reflexivity). rewrite K.
    exists s1, names1, L, G1. split; [reflexivity|]. split; [apply inv_more; exact H1|]. split; [exact P1|].
    unfold listed, defined_here. rewrite SE, SD, K, !orb_false_r. cbn [andb]. rewrite ?orb_false_r.
    destruct (common_ok y) eqn:CO.
    - destruct R1 as (e & EE & IT & B & N). rewrite orb_true_r. split; [split; [reflexivity|]; intros _; apply (i_in _ _ _ _ _ H1); eauto|].
      intros _. exists e. split; [exact EE|]. constructor; [unfold binding; rewrite SE, CO; exact B| |congruence].
      destruct (ents s i); [exact N|]. unfold name_of. rewrite SE, CO. exact N.
    - destruct R1 as (-> & ->). rewrite ?orb_false_r. unfold in_tab. split.
      + rewrite (i_in _ _ _ _ _ H). split; [intros (e & -> & X); exact X|]. destruct (ents s i) as [e|]; [|discriminate]. eauto.
      + intro W. destruct (ents s i) as [e|] eqn:EE; [|discriminate]. exists e. split; [reflexivity|].
        constructor; [unfold binding; rewrite SE, CO, W; cbn [orb]; auto|reflexivity|congruence]. }
  assert (FORM : match s_kind y with
    | Other => Some s1
    | k => match (match ents s1 i with Some e => in_table e | None => false end) with
           | true => Some (update i (set_nonzero (match k with Label x _ _ => Some x | _ => None end) 0 0 0 None (Some (match k with Label _ _ o => o | _ => 0 end))) s1)
           | false => if s_global y then option_map (update i (set_nonzero (match k with Label x _ _ => Some x | _ => None end) 0 0 0 None (Some (match k with Label _ _ o => o | _ => 0 end)))) (build_global c i y s1) else build_local c i y s1
           end
    end = if in_tab s1 i then Some (update i (set_nonzero (where_ y) 0 0 0 None (Some (what y))) s1)
          else if s_global y then option_map (update i (set_nonzero (where_ y) 0 0 0 None (Some (what y)))) (build_global c i y s1) else build_local c i y s1).
  { unfold in_tab, where_, what. destruct (s_kind y); try discriminate; reflexivity. }
  cbv zeta in FORM |- *. rewrite FORM. clear FORM.
  destruct (in_tab s1 i) eqn:IT1.
  { (* it is in the table already *)
    unfold in_tab in IT1. destruct (ents s1 i) as [e1|] eqn:EE1; [|discriminate].
    destruct (fill_ok _ _ _ _ _ _ _ 0 (where_ y) (Some (what y)) H1 S EE1) as (e2 & H2 & P2 & T2 & EE2 & F1 & F2 & F3 & F4 & F5).
    eexists _, names1, L, G1. split; [reflexivity|]. split; [apply inv_more; exact H2|]. split; [eapply step_trans; eassumption|].
    rewrite T2. assert (LS : listed y (in_tab s i) = true).
    { unfold listed. destruct (common_ok y); [rewrite orb_true_r; reflexivity|]. destruct R1 as (-> & ->). unfold in_tab. rewrite EE1, IT1. reflexivity. }
    split; [rewrite LS; split; [reflexivity|]; intros _; apply (i_in _ _ _ _ _ H1); eauto|]. intros _. exists e2. split; [exact EE2|]. constructor.
    - rewrite F2. unfold binding. rewrite SE. cbn [orb]. destruct (common_ok y).
      + destruct R1 as (e & X & _ & B & _). congruence.
      + destruct R1 as (-> & ->). unfold in_tab. rewrite EE1, IT1. auto.
    - rewrite F3. destruct (common_ok y) eqn:CO.
      + destruct R1 as (e & X & _ & _ & N). assert (e = e1) by congruence. subst e. destruct (ents s i); [exact N|].
        unfold name_of. rewrite SE, CO. cbn [orb]. destruct N as (p & N1 & N2). exists p. split; [rewrite F3; exact N1|exact N2].
      + destruct R1 as (-> & ->). rewrite EE1. reflexivity.
    - intros _ _ x sn o K. destruct (kind_place _ _ _ _ K) as [X Y]. rewrite F4, F5, X, Y. auto. }
  assert (CO : common_ok y = false).
  { destruct (common_ok y); [|reflexivity]. destruct R1 as (e & X & IT & _). unfold in_tab in IT1. rewrite X in IT1. congruence. }
  rewrite CO in R1. destruct R1 as (-> & ->). rewrite IT1.
  destruct (s_global y) eqn:SG.
  - unfold build_global.
    edestruct (symtab_append_ok _ _ _ _ _ c i y SHN_UNDEF STB_GLOBAL (s_type y) (s_vis y) (s_size y) None H1 S) as (s2 & names2 & G2 & e & E2 & H2 & P2 & T2 & EE2 & IT2 & B2 & R2); [discriminate|exact NL|].
    rewrite E2. cbn [option_map].
    destruct (fill_ok _ _ _ _ _ _ _ 0 (where_ y) (Some (what y)) H2 S EE2) as (e3 & H3 & P3 & T3 & EE3 & F1 & F2 & F3 & F4 & F5).
    eexists _, names2, L, G2. split; [reflexivity|]. split; [apply inv_more; exact H3|]. split; [eapply step_trans; [exact P2|exact P3]|].
    rewrite T3. assert (LS : listed y false = true).
    { unfold listed, defined_here. rewrite SD, SE, CO, SG. destruct (s_kind y); try discriminate; reflexivity. }
    split; [rewrite LS; tauto|]. intros _. exists e3. split; [exact EE3|]. constructor.
    + rewrite F2, B2. unfold binding. rewrite SE, CO, SG. reflexivity.
    + destruct (ents s i) as [e0|]; [rewrite F3; tauto|]. unfold name_of. rewrite SG, !orb_true_r. unfold refers. rewrite F3. tauto.
    + intros _ _ x sn o K. destruct (kind_place _ _ _ _ K) as [X Y]. rewrite F4, F5, X, Y. auto.
  - assert (NT : ~ In i (table s)).
    { intro J. apply (i_in _ _ _ _ _ H) in J. destruct J as (e & J1 & J2). unfold in_tab in IT1. rewrite J1 in IT1. congruence. }
    destruct (s_kind y) eqn:K; try discriminate.
    2:{ (* a local EQU *)
        unfold build_local. rewrite K. exists s, names, L, G1. split; [reflexivity|]. split; [apply inv_more; exact H1|]. split; [apply step_refl|].
        assert (LS : listed y false = false) by (unfold listed, defined_here; rewrite SE, CO, SD, K, SG; reflexivity).
        rewrite LS. split; [|discriminate]. split; [contradiction|discriminate]. }
    all: destruct (build_local_ok _ _ _ _ _ c n y H1) as (s' & names' & e & E & H' & P & EE & B & SE' & V & N); auto;
      [intros e0 X; unfold in_tab in IT1; fold i in X; rewrite X in IT1; exact IT1|rewrite K; exact Logic.I|].
    all: fold i in E; exists s', names', (Sy n :: L), G1; split; [exact E|]; split; [exact H'|]; split; [exact P|].
    all: assert (LS : listed y false = true) by (unfold listed, defined_here; rewrite SE, CO, SD, K; reflexivity).
    all: split; [rewrite LS; split; [reflexivity|]; intros _; rewrite (i_table _ _ _ _ _ H'); right; right; left; reflexivity|].
    all: intros _; exists e; split; [exact EE|]; constructor; [rewrite B; unfold binding; rewrite SE, CO, SG; reflexivity| |].
    all: try (fold i in N; destruct (ents s i) as [e0|]; [exact N|]; unfold name_of; rewrite SE, CO, SG; exact N).
    all: intros _ _ x sn o K'; destruct (kind_place _ _ _ _ K') as [X Y]; rewrite SE', X; split; [reflexivity|].
    all: intros [B'|B']; [contradiction|]; rewrite V by exact B'; exact Y.
Qed.
