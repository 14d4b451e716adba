(** Section groups of bin-objfmt.c: which section follows which (used for C37, C66). *)
From Coq Require Import ZArith List Bool Lia Permutation Sorted.
From Verif Require Import Lib M_Intnum P_Intnum M_BinObj.
Import ListNotations.
Open Scope Z_scope.

(** * Specification *)
(** Section [i] is reached from section [r] through [fol] relations: [i] follows some section that
    follows ... that follows [r]. *)
Inductive chain (fol : sect -> option str) (l : list sect) : nat -> nat -> Prop :=
| chain_refl : forall i b, nth_error l i = Some b -> chain fol l i i
| chain_step : forall i b j c r, nth_error l i = Some b -> nth_error l j = Some c -> fol b = Some (name c) -> chain fol l j r -> chain fol l i r.
(** Section [i] follows nothing. *)
Definition free (fol : sect -> option str) (l : list sect) (i : nat) : Prop := exists b, nth_error l i = Some b /\ fol b = None.

(** * Trees *)
Definition node : Type := nat * sect.
Definition root (g : group) : node := (gid g, gsect g).
Fixpoint members (g : group) : list node := match g with Group i b fs => (i, b) :: flat_map members fs end.
Fixpoint edges (g : group) : list (node * node) :=
  match g with Group i b fs => map (fun f => ((i, b), root f)) fs ++ flat_map edges fs end.
Definition ids (g : group) : list nat := map fst (members g).
Definition fmembers (F : list group) : list node := flat_map members F.
Definition fedges (F : list group) : list (node * node) := flat_map edges F.
Definition fids (F : list group) : list nat := map fst (fmembers F).

Section group_rect.
  Context (P : group -> Prop) (H : forall i b fs, Forall P fs -> P (Group i b fs)).
  Fixpoint group_ind2 (g : group) : P g :=
    match g with
    | Group i b fs => H i b fs ((fix go l : Forall P l := match l with [] => Forall_nil P | f :: r => Forall_cons f (group_ind2 f) (go r) end) fs)
    end.
End group_rect.

Lemma str_eqb_ok : forall a b, str_eqb a b = true <-> a = b.
Proof.
  induction a as [|x a IH]; intros [|y b]; cbn [str_eqb]; split; intro H; try discriminate; auto.
  - apply andb_prop in H. destruct H as [H1 H2]. apply Z.eqb_eq in H1. apply IH in H2. congruence.
  - injection H as -> ->. rewrite Z.eqb_refl. apply (IH b). reflexivity.
Qed.
Lemma fmembers_app : forall A B, fmembers (A ++ B) = fmembers A ++ fmembers B.
Proof. intros. apply flat_map_app. Qed.
Lemma fedges_app : forall A B, fedges (A ++ B) = fedges A ++ fedges B.
Proof. intros. apply flat_map_app. Qed.
Lemma fids_app : forall A B, fids (A ++ B) = fids A ++ fids B.
Proof. intros. unfold fids. rewrite fmembers_app, map_app. reflexivity. Qed.
Lemma root_member : forall g, In (root g) (members g).
Proof. intros [i b fs]. left. reflexivity. Qed.

(** Searching. *)
Lemma by_name_eq : forall nm i b fs, by_name nm (Group i b fs) = if str_eqb (name b) nm then Some (Group i b fs) else find_name nm fs.
Proof.
  intros. cbn [by_name]. destruct (str_eqb (name b) nm); auto. induction fs as [|f r IH]; cbn [find_name]; auto. destruct (by_name nm f); auto.
Qed.
Lemma by_name_ok : forall nm g, match by_name nm g with
  | Some f => In (root f) (members g) /\ name (gsect f) = nm
  | None => forall n, In n (members g) -> name (snd n) <> nm end.
Proof.
  intros nm. induction g as [i b fs IH] using group_ind2. rewrite by_name_eq. destruct (str_eqb (name b) nm) eqn:E.
  - apply str_eqb_ok in E. split; [left; reflexivity|auto].
  - assert (K : match find_name nm fs with Some f => In (root f) (flat_map members fs) /\ name (gsect f) = nm | None => forall n, In n (flat_map members fs) -> name (snd n) <> nm end).
    { induction IH as [|f r Hf Hr IHr]; cbn [find_name flat_map]; [intros n []|]. destruct (by_name nm f) as [x|].
      - destruct Hf. split; auto. apply in_or_app. auto.
      - destruct (find_name nm r) as [x|]; [destruct IHr; split; auto; apply in_or_app; auto|]. intros n I. apply in_app_or in I. destruct I; auto. }
    destruct (find_name nm fs) as [x|]; [destruct K; split; auto; right; auto|]. intros n [I|I]; auto. subst n. cbn [snd]. intro Q. apply str_eqb_ok in Q. congruence.
Qed.
Lemma find_name_ok : forall nm F, match find_name nm F with
  | Some f => In (root f) (fmembers F) /\ name (gsect f) = nm
  | None => forall n, In n (fmembers F) -> name (snd n) <> nm end.
Proof.
  induction F as [|g r IH]; cbn [find_name]; [intros n []|]. pose proof (by_name_ok nm g) as G. unfold fmembers in *. cbn [flat_map]. destruct (by_name nm g) as [x|].
  - destruct G. split; auto. apply in_or_app. auto.
  - destruct (find_name nm r) as [x|]; [destruct IH; split; auto; apply in_or_app; auto|]. intros n I. apply in_app_or in I. destruct I; auto.
Qed.
Lemma has_sect_ok : forall s g, has_sect s g = true <-> In s (ids g).
Proof.
  intros s. induction g as [i b fs IH] using group_ind2. unfold ids. cbn [has_sect members map fst]. rewrite orb_true_iff, Nat.eqb_eq.
  assert (K : (fix go l := match l with [] => false | f :: r => has_sect s f || go r end) fs = true <-> In s (map fst (flat_map members fs))).
  { induction IH as [|f r Hf Hr IHr]; cbn [flat_map map]; [split; [discriminate|intros []]|]. rewrite orb_true_iff, map_app, in_app_iff, IHr. unfold ids in Hf. tauto. }
  rewrite K. cbn [In]. tauto.
Qed.
Lemma find_sect_ok : forall s F, find_sect s F = true <-> In s (fids F).
Proof.
  intros s. induction F as [|g r IH]; [split; [discriminate|intros []]|]. unfold find_sect in *. cbn [existsb]. rewrite orb_true_iff, IH, has_sect_ok. unfold fids, fmembers, ids. cbn [flat_map]. rewrite map_app, in_app_iff. tauto.
Qed.

(** Moving a group below another one. *)
Lemma insert_root : forall s t g, root (insert_follow s t g) = root g.
Proof. intros s t [i b fs]. reflexivity. Qed.
Lemma insert_absent : forall s t g, ~ In s (ids g) -> insert_follow s t g = g.
Proof.
  intros s t. induction g as [i b fs IH] using group_ind2. unfold ids. cbn [members map fst insert_follow]. intro N. destruct (Nat.eqb_spec i s) as [->|]; [destruct N; left; auto|].
  f_equal. assert (K : ~ In s (map fst (flat_map members fs))) by (intro; apply N; right; auto). clear N. induction IH as [|f r Hf Hr IHr]; cbn [map]; auto. cbn [flat_map] in K. rewrite map_app, in_app_iff in K. rewrite Hf, IHr; auto.
Qed.
Lemma insert_absent_all : forall s t F, ~ In s (fids F) -> map (insert_follow s t) F = F.
Proof.
  intros s t. induction F as [|g r IH]; auto. unfold fids, fmembers in *. cbn [flat_map map]. rewrite map_app, in_app_iff. intro N. rewrite insert_absent, IH; auto.
Qed.
Lemma NoDup_app_l : forall A (a b : list A), NoDup (a ++ b) -> NoDup a.
Proof. induction a; intros b H; [constructor|]. inversion_clear H. constructor; [intro; apply H0; apply in_or_app; auto|eauto]. Qed.
Lemma NoDup_app_r : forall A (a b : list A), NoDup (a ++ b) -> NoDup b.
Proof. induction a; intros b H; auto. inversion_clear H. auto. Qed.
Lemma NoDup_app_disj : forall A (a b : list A) x, NoDup (a ++ b) -> In x a -> In x b -> False.
Proof. induction a; intros b x H I J; [destruct I|]. inversion_clear H. destruct I as [->|I]; [apply H0; apply in_or_app; auto|eauto]. Qed.
Lemma fids_cons : forall g r, fids (g :: r) = ids g ++ fids r.
Proof. intros. unfold fids, fmembers, ids. cbn [flat_map]. apply map_app. Qed.
Definition inserts (s : nat) (t : group) (ms ms' : list node) (es es' : list (node * node)) : Prop :=
  Permutation ms' (ms ++ members t) /\ exists bs, In (s, bs) ms /\ Permutation es' (((s, bs), root t) :: edges t ++ es).
Lemma insert_forest : forall s t F, NoDup (fids F) -> In s (fids F) ->
  Forall (fun g => NoDup (ids g) -> In s (ids g) -> inserts s t (members g) (members (insert_follow s t g)) (edges g) (edges (insert_follow s t g))) F ->
  inserts s t (fmembers F) (fmembers (map (insert_follow s t) F)) (fedges F) (fedges (map (insert_follow s t) F)).
Proof.
  intros s t. induction F as [|g r IH]; intros N I H; [destruct I|]. rewrite fids_cons in N, I. inversion_clear H as [|? ? Hg Hr]. apply in_app_or in I.
  unfold fmembers, fedges. cbn [map flat_map]. change (flat_map members) with fmembers. change (flat_map edges) with fedges. destruct I as [I|I].
  - assert (A : ~ In s (fids r)) by (intro; eapply NoDup_app_disj; eauto). rewrite (insert_absent_all s t r A). destruct (Hg (NoDup_app_l _ _ _ N) I) as (M & bs & B & E). split.
    + rewrite M, <- !app_assoc. apply Permutation_app_head, Permutation_app_comm.
    + exists bs. split; [apply in_or_app; auto|]. rewrite E. rewrite <- app_comm_cons. constructor. rewrite <- app_assoc. reflexivity.
  - assert (A : ~ In s (ids g)) by (intro; eapply NoDup_app_disj; eauto). rewrite (insert_absent s t g A). destruct (IH (NoDup_app_r _ _ _ N) I Hr) as (M & bs & B & E). split.
    + rewrite M, app_assoc. reflexivity.
    + exists bs. split; [apply in_or_app; auto|]. rewrite E, app_comm_cons, Permutation_app_comm. cbn [app]. constructor. rewrite <- app_assoc. apply Permutation_app_head, Permutation_app_comm.
Qed.
Lemma insert_tree : forall s t g, NoDup (ids g) -> In s (ids g) -> inserts s t (members g) (members (insert_follow s t g)) (edges g) (edges (insert_follow s t g)).
Proof.
  intros s t. induction g as [i b fs IH] using group_ind2. intros N I. unfold ids in N, I. cbn [members map fst] in N, I. change (map fst (flat_map members fs)) with (fids fs) in N, I.
  inversion_clear N as [|? ? N1 N2]. cbn [insert_follow]. assert (RT : forall F, map (fun f => ((i, b), root f)) (map (insert_follow s t) F) = map (fun f => ((i, b), root f)) F).
  { induction F as [|f r IHF]; cbn [map]; auto. rewrite insert_root, IHF. reflexivity. }
  destruct (Nat.eqb_spec i s) as [->|ne].
  - rewrite (insert_absent_all s t fs N1). split; cbn [members edges].
    + rewrite flat_map_app. cbn [flat_map app]. rewrite app_nil_r. reflexivity.
    + exists b. split; [left; auto|]. rewrite map_app, flat_map_app. cbn [map flat_map]. rewrite app_nil_r. rewrite <- app_assoc. cbn [app]. rewrite <- Permutation_middle. constructor.
      rewrite !app_assoc, <- (app_assoc (edges t)). apply Permutation_app_comm.
  - destruct I as [I|I]; [congruence|]. destruct (insert_forest s t fs N2 I IH) as (M & bs & B & E). split; cbn [members edges].
    + fold (fmembers (map (insert_follow s t) fs)). rewrite M. reflexivity.
    + exists bs. split; [right; auto|]. rewrite RT. fold (fedges (map (insert_follow s t) fs)). rewrite E. fold (fedges fs). rewrite <- Permutation_middle. constructor. rewrite !app_assoc. apply Permutation_app_tail, Permutation_app_comm.
Qed.
Lemma insert_all : forall s t F, NoDup (fids F) -> In s (fids F) -> inserts s t (fmembers F) (fmembers (map (insert_follow s t) F)) (fedges F) (fedges (map (insert_follow s t) F)).
Proof. intros. apply insert_forest; auto. apply Forall_forall. intros. apply insert_tree; auto. Qed.

(** * Resolution *)
Fixpoint nodes_from (i : nat) (l : list sect) : list node := match l with [] => [] | b :: t => (i, b) :: nodes_from (S i) t end.
Lemma nodes_from_in : forall l i j b, In (j, b) (nodes_from i l) <-> (i <= j)%nat /\ nth_error l (j - i) = Some b.
Proof.
  induction l as [|c l IH]; intros i j b; cbn [nodes_from In].
  - split; [intros []|]. intros [_ H]. destruct (j - i)%nat; discriminate.
  - rewrite IH. split.
    + intros [E|[L E]]; [injection E as -> ->; rewrite Nat.sub_diag; auto|]. split; [lia|]. replace (j - i)%nat with (S (j - S i)) by lia. exact E.
    + intros [L E]. destruct (Nat.eq_dec i j) as [->|n]; [rewrite Nat.sub_diag in E; injection E as ->; auto|]. right. split; [lia|]. replace (j - i)%nat with (S (j - S i)) in E by lia. exact E.
Qed.
Lemma nodes_in : forall l j b, In (j, b) (nodes_from 0 l) <-> nth_error l j = Some b.
Proof. intros. rewrite nodes_from_in, Nat.sub_0_r. split; [tauto|]. intro; split; [lia|auto]. Qed.
Lemma nodes_fst : forall l i, map fst (nodes_from i l) = seq i (length l).
Proof. induction l as [|b l IH]; intro i; cbn [nodes_from map seq length]; [auto|]. rewrite IH. reflexivity. Qed.
Definition leaf (n : node) : group := Group (fst n) (snd n) [].
Definition is_free (fol : sect -> option str) (n : node) : bool := match fol (snd n) with None => true | Some _ => false end.

Section resolve_sec.
  Context (fol : sect -> option str) (l : list sect).
  Definition edge_ok (e : node * node) : Prop := fol (snd (snd e)) = Some (name (snd (fst e))).
  Definition inv (F : list group) : Prop :=
    Permutation (fmembers F) (nodes_from 0 l) /\ Forall edge_ok (fedges F).
  Lemma inv_nodup : forall F, inv F -> NoDup (fids F).
  Proof. intros F [P _]. unfold fids. eapply Permutation_NoDup; [apply Permutation_map, Permutation_sym, P|]. rewrite nodes_fst. apply seq_NoDup. Qed.
  Lemma inv_in : forall F j b, inv F -> In (j, b) (fmembers F) <-> nth_error l j = Some b.
  Proof. intros F j b [P _]. rewrite <- nodes_in. split; apply Permutation_in; auto. apply Permutation_sym; auto. Qed.

  (** Members of a tree lead to its root. *)
  Lemma tree_chain : forall g, (forall n, In n (members g) -> nth_error l (fst n) = Some (snd n)) -> Forall edge_ok (edges g) ->
    forall n, In n (members g) -> chain fol l (fst n) (gid g).
  Proof.
    induction g as [i b fs IH] using group_ind2. intros A E n [<-|I]; [cbn [fst gid]; apply (chain_refl fol l i b); apply (A (i, b)); left; auto|].
    cbn [edges] in E. apply Forall_app in E. destruct E as [E1 E2]. cbn [gid]. apply in_flat_map in I. destruct I as (f & F & I).
    assert (C : chain fol l (fst n) (gid f)).
    { rewrite Forall_forall in IH. apply (IH f F); auto; [intros; apply A; right; apply in_flat_map; eauto|]. rewrite Forall_forall in *. intros e Ie. apply E2. apply in_flat_map. eauto. }
    assert (Ef : fol (gsect f) = Some (name b)) by (rewrite Forall_forall in E1; apply (E1 ((i, b), root f)); apply in_map_iff; eauto).
    assert (Af : nth_error l (gid f) = Some (gsect f)) by (apply (A (root f)); right; apply in_flat_map; exists f; split; auto; apply root_member).
    assert (Ai : nth_error l i = Some b) by (apply (A (i, b)); left; auto). revert C. generalize (fst n). intros k C. induction C as [k c Ck|k c j d r Ck Cj Fk C IHC].
    - apply (chain_step fol l k (gsect f) i b i); auto. apply (chain_refl fol l i b); auto.
    - apply (chain_step fol l k c j d i); auto.
  Qed.

  Definition res_ok (D T : list group) (r : list group + berr) : Prop :=
    match r with
    | inl F => inv F /\ Forall (fun g => fol (gsect g) = None) F /\ map root F = map root D ++ filter (is_free fol) (map root T)
    | inr (Unknown i) => exists b nm, nth_error l i = Some b /\ fol b = Some nm /\ forall j c, nth_error l j = Some c -> name c <> nm
    | inr (Loop i j) => exists b c, nth_error l i = Some b /\ nth_error l j = Some c /\ fol b = Some (name c) /\ chain fol l j i
    | inr _ => False
    end.
  Lemma map_root_insert : forall s t F, map root (map (insert_follow s t) F) = map root F.
  Proof. induction F as [|g r IH]; cbn [map]; auto. rewrite insert_root, IH. reflexivity. Qed.
  Lemma resolve_ok : forall n D T, length T = n -> inv (D ++ T) -> Forall (fun g => fol (gsect g) = None) D -> res_ok D T (resolve fol n D T).
  Proof.
    induction n as [|n IH]; intros D T L I FD.
    - destruct T; [|discriminate]. cbn [resolve res_ok map filter]. rewrite !app_nil_r in *. auto.
    - destruct T as [|g T]; [discriminate|]. cbn [length] in L. cbn [resolve]. destruct (fol (gsect g)) as [nm|] eqn:Eg.
      + pose proof (find_name_ok nm (D ++ g :: T)) as FN. destruct (find_name nm (D ++ g :: T)) as [f|].
        * destruct FN as [Ff Nf]. assert (Lf : nth_error l (gid f) = Some (gsect f)) by (apply (inv_in _ _ _ I); exact Ff).
          assert (Ig : In (root g) (fmembers (D ++ g :: T))) by (rewrite fmembers_app; apply in_or_app; right; apply in_or_app; left; apply root_member).
          assert (Lg : nth_error l (gid g) = Some (gsect g)) by (apply (inv_in _ _ _ I); exact Ig).
          assert (Sub : forall x, In x (members g) -> In x (fmembers (D ++ g :: T))) by (intros x X; rewrite fmembers_app; apply in_or_app; right; apply in_or_app; left; auto).
          destruct (Nat.eqb_spec (gid g) (gid f)) as [e|ne]; cbn [orb].
          { cbn [res_ok]. exists (gsect g), (gsect f). rewrite <- e in *. do 3 (split; [congruence|]). apply (chain_refl fol l (gid g) (gsect g) Lg). }
          destruct (find_sect (gid f) (gfollow g)) eqn:FS.
          { cbn [res_ok]. exists (gsect g), (gsect f). do 3 (split; [congruence|]). apply find_sect_ok in FS.
            assert (J : In (gid f) (ids g)) by (destruct g as [i b fs]; right; exact FS). apply in_map_iff in J. destruct J as ((k & c) & J1 & J2). cbn [fst] in J1. subst k.
            apply (tree_chain g) with (n := (gid f, c)); auto.
            - intros x X. destruct x as [a x]. apply (inv_in _ _ _ I). apply Sub; auto.
            - destruct I as [_ I]. rewrite fedges_app in I. apply Forall_app in I. destruct I as [_ I]. unfold fedges in I. cbn [flat_map] in I. apply Forall_app in I. apply I. }
          (* moved *)
          pose proof (inv_nodup _ I) as ND. rewrite fids_app, fids_cons in ND.
          assert (ND2 : NoDup (fids (D ++ T))) by (rewrite fids_app; eapply NoDup_app_r; eapply Permutation_NoDup; [|exact ND]; rewrite !app_assoc; apply Permutation_app_tail, Permutation_app_comm).
          assert (S2 : In (gid f) (fids (D ++ T))).
          { assert (J : In (gid f) (fids (D ++ g :: T))) by (apply in_map_iff; exists (root f); auto). rewrite fids_app, fids_cons in J. rewrite fids_app. apply in_app_or in J. destruct J as [J|J]; [apply in_or_app; auto|]. apply in_app_or in J. destruct J as [J|J]; [|apply in_or_app; auto].
            exfalso. destruct g as [i b fs]. destruct J as [J|J]; [cbn in J; cbn [gid] in ne; congruence|]. assert (find_sect (gid f) fs = true) by (apply find_sect_ok; exact J). cbn [gfollow] in FS. congruence. }
          destruct (insert_all (gid f) g (D ++ T) ND2 S2) as (M & bs & B & E). rewrite map_app in M, E.
          pose proof I as IK. assert (I' : inv (map (insert_follow (gid f) g) D ++ map (insert_follow (gid f) g) T)).
          { split.
            - rewrite M. destruct I as [I _]. rewrite <- I. rewrite !fmembers_app. rewrite <- app_assoc. apply Permutation_app_head. change (fmembers (g :: T)) with (members g ++ fmembers T). apply Permutation_app_comm.
            - destruct I as [_ I]. rewrite fedges_app in I. apply Forall_app in I. destruct I as [I1 I2]. unfold fedges in I2. cbn [flat_map] in I2. apply Forall_app in I2. destruct I2 as [I2 I3].
              eapply Permutation_Forall; [apply Permutation_sym, E|]. constructor; [|apply Forall_app; split; auto; rewrite fedges_app; apply Forall_app; auto].
              unfold edge_ok. cbn [fst snd]. cbn [root snd]. rewrite Eg. f_equal. rewrite <- Nf. f_equal.
              assert (X : nth_error l (gid f) = Some bs).
              { apply (inv_in _ _ _ IK). rewrite fmembers_app in *. apply in_app_or in B. destruct B as [B|B]; apply in_or_app; [left; auto|]. right. apply in_or_app. right. auto. }
              congruence. }
          specialize (IH (map (insert_follow (gid f) g) D) (map (insert_follow (gid f) g) T) ltac:(rewrite map_length; lia) I').
          assert (FD' : Forall (fun g0 => fol (gsect g0) = None) (map (insert_follow (gid f) g) D)).
          { clear - FD. induction FD as [|h r H1 H2 H3]; cbn [map]; constructor; auto. destruct h; exact H1. }
          specialize (IH FD'). unfold res_ok in *. destruct (resolve fol n _ _) as [F|[| | | | | | | |]]; auto. rewrite !map_root_insert in IH. cbn [map filter]. unfold is_free at 1. cbn [root snd]. rewrite Eg. exact IH.
        * cbn [res_ok]. exists (gsect g), nm. split; [|split; auto].
          -- apply (inv_in _ _ _ I). rewrite fmembers_app. apply in_or_app. right. apply in_or_app. left. apply root_member.
          -- intros j c J. apply (FN (j, c)). apply (inv_in _ _ _ I). auto.
      + specialize (IH (D ++ [g]) T ltac:(lia)). rewrite <- app_assoc in IH. specialize (IH I). assert (FD' : Forall (fun g0 => fol (gsect g0) = None) (D ++ [g])) by (apply Forall_app; auto). specialize (IH FD').
        unfold res_ok in *. destruct (resolve fol n _ _) as [F|[| | | | | | | |]]; auto. cbn [map filter]. unfold is_free at 1. cbn [root snd]. rewrite Eg. rewrite map_app, <- app_assoc in IH. exact IH.
  Qed.
End resolve_sec.
