(** ELF string and symbol tables: specification and proofs. *)
From Coq Require Import ZArith List Bool Arith Lia.
From Verif Require Import Lib M_Elf.
Import ListNotations.
Open Scope Z_scope.

(** * Specification *)

(** What a program does to a string table, and the strings it should hold. *)
Inductive sop := App (s : str) | Ren (n : nat) (s : str).
Fixpoint run_ops (os : list sop) (t : strtab) : option strtab :=
  match os with
  | [] => Some t
  | App s :: r => match st_append t s with Some t' => run_ops r t' | None => None end
  | Ren n s :: r => match st_set t n s with Some t' => run_ops r t' | None => None end
  end.
Fixpoint replace {A : Type} (l : list A) (n : nat) (x : A) : list A :=
  match l, n with [], _ => [] | _ :: r, O => x :: r | a :: r, S m => a :: replace r m x end.
Fixpoint strings (os : list sop) (l : list str) : list str :=
  match os with [] => l | App s :: r => strings r (l ++ [s]) | Ren n s :: r => strings r (replace l n s) end.
(** Every rename is of a string that is there. *)
Fixpoint valid (os : list sop) (n : nat) : Prop :=
  match os with [] => True | App _ :: r => valid r (S n) | Ren m _ :: r => (m < n)%nat /\ valid r n end.
(** The NUL-terminated string at an offset of a file. *)
Fixpoint cstr (b : list Z) : option str :=
  match b with [] => None | x :: r => if x =? 0 then Some [] else option_map (cons x) (cstr r) end.
Definition string_at (b : list Z) (o : Z) : option str := cstr (skipn (Z.to_nat o) b).
Definition is_cstr (s : str) : Prop := Forall (fun x => x <> 0) s.

(** The name of a symbol outside: visible symbols have the affixes. *)
Definition full_name (c : conf) (y : sym) : str :=
  if s_global y || s_common y || s_extern y then prefix c ++ s_name y ++ suffix c else s_name y.
(** Whether a program declares symbol [n] weak, and the name given to it by the first directive on it. *)
Definition weakened (n : nat) (ds : list dir) : bool :=
  existsb (fun d => match d with Weak m _ => Nat.eqb n m | _ => false end) ds.
Fixpoint first_name (c : conf) (n : nat) (ds : list dir) : option str :=
  match ds with
  | [] => None
  | d :: r =>
      match d with
      | Weak m y => if Nat.eqb n m then Some (full_name c y) else first_name c n r
      | Type_ m x _ | Size m x _ => if Nat.eqb n m then Some x else first_name c n r
      end
  end.
(** Which symbols are in the table, how they are bound, and under which name. *)
Definition pow2_or_0 (a : Z) : bool := (a =? 0) || (a =? 2 ^ Z.log2 a).
Definition common_ok (y : sym) : bool := s_common y && match s_comalign y with Some a => pow2_or_0 a | None => false end.
Definition defined_here (y : sym) : bool :=
  s_defined y && match s_kind y with Other => false | Equ => s_global y | _ => true end.
Definition listed (y : sym) (w : bool) : bool := w || s_extern y || common_ok y || defined_here y.
Definition binding (y : sym) (w : bool) : Z :=
  if s_extern y || common_ok y then STB_GLOBAL else if w then STB_WEAK else if s_global y then STB_GLOBAL else STB_LOCAL.
Definition section_symbol (y : sym) : bool := match s_kind y with Label _ sn _ => str_eqb (s_name y) sn | _ => false end.
Definition name_of (c : conf) (y : sym) : option str :=
  if s_extern y || common_ok y || s_global y then Some (full_name c y)
  else if local_names c && negb (section_symbol y) then Some (full_name c y) else None.
(** The name a reader of the file finds for an entry. *)
Definition name_in_file (s : state) (e : entry) : option str :=
  match e_name e with
  | None => None
  | Some p => match nth_error (strs s) p with Some (i, _) => string_at (fst (st_output (strs s))) i | None => None end
  end.

(** * Powers of two *)
Lemma pow2 : forall a, 0 < a -> Z.land a (a - 1) = 0 -> a = 2 ^ Z.log2 a.
Proof.
  intros a A L. destruct (Z.log2_spec a A) as [L1 L2].
  destruct (Z.eq_dec a (2 ^ Z.log2 a)) as [E|N]; [exact E|exfalso].
  pose proof (Z.log2_nonneg a) as K. set (k := Z.log2 a) in *.
  assert (B : forall x, 2 ^ k <= x < 2 ^ Z.succ k -> Z.testbit x k = true).
  { intros x X. rewrite Z.pow_succ_r in X by lia. replace x with (x - 2 ^ k + 1 * 2 ^ k) by lia. rewrite Z.testbit_true, Z.div_add by lia.
    rewrite Z.div_small by lia. reflexivity. }
  assert (T : Z.testbit (Z.land a (a - 1)) k = true) by (rewrite Z.land_spec, !B by lia; reflexivity).
  rewrite L, Z.bits_0 in T. discriminate.
Qed.
Lemma pow2_land : forall k, 0 <= k -> Z.land (2 ^ k) (2 ^ k - 1) = 0.
Proof.
  intros k K. replace (2 ^ k - 1) with (Z.ones k) by (rewrite Z.ones_equiv; lia). rewrite Z.land_ones by lia. apply Z.mod_same.
  apply Z.pow_nonzero; lia.
Qed.
Lemma exp2_ok : forall a, is_exp2 a = pow2_or_0 a.
Proof.
  intro a. unfold is_exp2, pow2_or_0. destruct (Z.eqb_spec a 0) as [->|N]; [reflexivity|]. cbn [orb].
  destruct (Z.ltb_spec a 0) as [L|L].
  - assert (X : Z.land a (a - 1) < 0) by (apply Z.land_neg; lia). destruct (Z.eqb_spec (Z.land a (a - 1)) 0); [lia|].
    symmetry. apply Z.eqb_neq. pose proof (Z.pow_nonneg 2 (Z.log2 a)). lia.
  - destruct (Z.eqb_spec (Z.land a (a - 1)) 0) as [E|E]; symmetry.
    + apply Z.eqb_eq. apply pow2; [lia|exact E].
    + apply Z.eqb_neq. intro X. apply E. rewrite X. apply pow2_land. apply Z.log2_nonneg.
Qed.

(** * String tables *)
Fixpoint layout (o : Z) (l : list str) : strtab :=
  match l with [] => [] | s :: r => (u64 o, s) :: layout (o + strlen s + 1) r end.
Definition total (l : list str) : Z := fold_right (fun s n => strlen s + 1 + n) 0 l.

Lemma u64_add : forall a b, u64 (u64 a + b) = u64 (a + b).
Proof. intros. unfold u64. apply Z.add_mod_idemp_l. discriminate. Qed.
Lemma after_u64 : forall o s, after (u64 o, s) = u64 (o + strlen s + 1).
Proof. intros. unfold after. cbn [fst snd]. rewrite <- !Z.add_assoc. apply u64_add. Qed.
Lemma layout_app : forall l o l', layout o (l ++ l') = layout o l ++ layout (o + total l) l'.
Proof.
  induction l as [|s r IH]; intros o l'; cbn [app layout total fold_right].
  - rewrite Z.add_0_r. reflexivity.
  - f_equal. rewrite IH. f_equal. f_equal. unfold total. lia.
Qed.
Lemma layout_last : forall l s o, after (last (layout (o + strlen s + 1) l) (u64 o, s)) = u64 (o + total (s :: l)).
Proof.
  induction l as [|s' r IH]; intros s o.
  - cbn [layout last]. rewrite after_u64. f_equal. cbn. lia.
  - cbn [layout]. specialize (IH s' (o + strlen s + 1)).
    destruct (layout (o + strlen s + 1 + strlen s' + 1) r) as [|e q] eqn:E.
    + cbn [last] in *. rewrite IH. f_equal. cbn [total fold_right]. lia.
    + transitivity (after (last (e :: q) (u64 (o + strlen s + 1), s'))).
      * f_equal. change (last (e :: q) (u64 o, s) = last (e :: q) (u64 (o + strlen s + 1), s')).
        clear. revert e. induction q as [|e' q IH]; intro e; [reflexivity|]. cbn [last] in *. apply IH.
      * rewrite IH. f_equal. cbn [total fold_right]. lia.
Qed.
Lemma append_layout : forall l s, l <> [] -> st_append (layout 0 l) s = Some (layout 0 (l ++ [s])).
Proof.
  intros [|x r] s H; [contradiction|]. rewrite layout_app. cbn [layout st_append]. rewrite layout_last. rewrite Z.add_0_l. reflexivity.
Qed.
Lemma reindex_layout : forall t l o s, map snd t = l -> st_reindex (u64 o, s) t = layout (o + strlen s + 1) l.
Proof.
  induction t as [|[i x] r IH]; intros l o s <-; [reflexivity|]. cbn [map snd layout st_reindex].
  rewrite after_u64. f_equal. apply IH. reflexivity.
Qed.
Lemma layout_snd : forall l o, map snd (layout o l) = l.
Proof. induction l as [|s r IH]; intro o; cbn [layout map snd]; [reflexivity|]. rewrite IH. reflexivity. Qed.
Lemma set_layout : forall l o n s, (n < length l)%nat -> st_set (layout o l) n s = Some (layout o (replace l n s)).
Proof.
  induction l as [|x r IH]; intros o n s H; [inversion H|]. destruct n as [|n]; cbn [layout st_set replace].
  - f_equal. f_equal. rewrite (reindex_layout _ r); [reflexivity|apply layout_snd].
  - cbn [length] in H. rewrite IH by lia. reflexivity.
Qed.
Lemma length_replace : forall {A} (l : list A) n x, length (replace l n x) = length l.
Proof. induction l as [|a r IH]; intros [|n] x; cbn; auto. Qed.
Lemma run_layout : forall os l, l <> [] -> valid os (length l) -> run_ops os (layout 0 l) = Some (layout 0 (strings os l)).
Proof.
  induction os as [|[s|n s] r IH]; intros l Hl V; cbn [run_ops strings valid] in *.
  - reflexivity.
  - rewrite append_layout by exact Hl. apply IH; [destruct l; discriminate|].
    rewrite app_length. cbn. rewrite Nat.add_1_r. exact V.
  - destruct V as [V1 V2]. rewrite set_layout by exact V1. apply IH.
    + destruct l, n; cbn; try discriminate; contradiction.
    + rewrite length_replace. exact V2.
Qed.
Lemma run_valid : forall os t t', run_ops os t = Some t' -> valid os (length t).
Proof.
  induction os as [|[s|n s] r IH]; intros t t' H; cbn [run_ops valid] in *; [exact Logic.I| |].
  - destruct (st_append t s) as [t1|] eqn:E; [|discriminate]. apply IH in H.
    destruct t as [|e q]; [discriminate|]. injection E as <-. rewrite app_comm_cons, app_length in H. cbn [length] in *. rewrite Nat.add_1_r in H. exact H.
  - destruct (st_set t n s) as [t1|] eqn:E; [|discriminate]. apply IH in H.
    assert (G : forall t n t1, st_set t n s = Some t1 -> (n < length t)%nat /\ length t1 = length t).
    { clear. assert (R : forall t e, length (st_reindex e t) = length t) by (induction t as [|[i x] q IH]; intro e; cbn; auto).
      induction t as [|[i x] q IH]; intros [|n] t1 H; cbn [st_set] in H; try discriminate.
      - injection H as <-. cbn. rewrite R. lia.
      - destruct (st_set q n s) as [t2|] eqn:E; [|discriminate]. injection H as <-. apply IH in E. cbn. lia. }
    apply G in E. destruct E as [E1 E2]. rewrite E2 in H. auto.
Qed.

Lemma layout_nth : forall l o n s, nth_error l n = Some s -> nth_error (layout o l) n = Some (u64 (o + total (firstn n l)), s).
Proof.
  induction l as [|x r IH]; intros o [|n] s H; try discriminate; cbn [nth_error layout firstn] in *.
  - injection H as ->. cbn. rewrite Z.add_0_r. reflexivity.
  - rewrite (IH _ _ _ H). do 3 f_equal. cbn [total fold_right]. unfold total. lia.
Qed.
Definition flat (l : list str) : list Z := concat (map (fun s => s ++ [0]) l).
Lemma output_flat : forall l o, fst (st_output (layout o l)) = flat l.
Proof.
  intros l o. unfold st_output, flat. cbn [fst]. f_equal. revert o. induction l as [|s r IH]; intro o; cbn [layout map snd]; [reflexivity|].
  rewrite IH. reflexivity.
Qed.
Lemma flat_total : forall l, Z.of_nat (length (flat l)) = total l.
Proof.
  induction l as [|s r IH]; [reflexivity|]. unfold flat in *. cbn [map concat total fold_right]. rewrite !app_length. cbn [length].
  fold (total r). rewrite <- IH. unfold strlen. lia.
Qed.
Lemma output_size : forall l o, snd (st_output (layout o l)) = u64 (total l).
Proof.
  intros l o. unfold st_output. cbn [snd].
  assert (G : forall l o a, fold_left (fun size e => u64 (size + (1 + strlen (snd e)))) (layout o l) (u64 a) = u64 (a + total l)).
  { clear. induction l as [|s r IH]; intros o a; cbn [layout fold_left snd total fold_right]; [rewrite Z.add_0_r; reflexivity|].
    rewrite u64_add, IH. f_equal. unfold total. lia. }
  specialize (G l o 0). rewrite Z.add_0_l in G. exact G.
Qed.
Lemma total_nonneg : forall l, 0 <= total l.
Proof. induction l as [|s r IH]; cbn; [lia|]. fold (total r). unfold strlen. lia. Qed.
Lemma total_app : forall a b, total (a ++ b) = total a + total b.
Proof. induction a as [|s r IH]; intro b; cbn; [reflexivity|]. fold (total (r ++ b)) (total r). rewrite IH. lia. Qed.
Lemma cstr_self : forall s b, is_cstr s -> cstr (s ++ 0 :: b) = Some s.
Proof.
  induction s as [|x r IH]; intros b H; [reflexivity|]. inversion H; subst. cbn. destruct (Z.eqb_spec x 0); [contradiction|].
  rewrite IH by assumption. reflexivity.
Qed.
Lemma flat_at : forall l n s, nth_error l n = Some s -> is_cstr s -> string_at (flat l) (total (firstn n l)) = Some s.
Proof.
  intros l n s H C. apply nth_error_split in H. destruct H as (l1 & l2 & -> & <-). rewrite firstn_app, firstn_all, Nat.sub_diag.
  cbn [firstn]. rewrite app_nil_r. unfold string_at, flat. rewrite map_app, concat_app. fold (flat l1).
  rewrite <- flat_total, Nat2Z.id, skipn_app, skipn_all, Nat.sub_diag. cbn [skipn app map concat]. rewrite <- app_assoc.
  cbn [app]. apply cstr_self. exact C.
Qed.
Lemma flat_index : forall l n s i, total l < w64 -> nth_error (layout 0 l) n = Some (i, s) -> is_cstr s ->
  string_at (fst (st_output (layout 0 l))) i = Some s.
Proof.
  intros l n s i T H C.
  assert (N : nth_error l n = Some s).
  { rewrite <- (layout_snd l 0), nth_error_map, H. reflexivity. }
  rewrite (layout_nth _ _ _ _ N) in H. injection H as <-. rewrite output_flat, u64_small.
  - apply flat_at; assumption.
  - split; [apply total_nonneg|]. rewrite <- (firstn_skipn n l), total_app in T.
    pose proof (total_nonneg (skipn n l)). lia.
Qed.

Lemma strtab_total : forall os, valid os 1 -> exists t, run_ops os st_create = Some t.
Proof. intros os V. eexists. apply (run_layout os [[]]); [discriminate|exact V]. Qed.
Lemma strtab_correct : forall os t, run_ops os st_create = Some t ->
  fst (st_output t) = concat (map (fun s => s ++ [0]) (strings os [[]])) /\
  (Z.of_nat (length (fst (st_output t))) < 2 ^ 64 -> snd (st_output t) = Z.of_nat (length (fst (st_output t))) /\
   forall n s, nth_error (strings os [[]]) n = Some s -> is_cstr s ->
     exists i, nth_error t n = Some (i, s) /\ string_at (fst (st_output t)) i = Some s).
Proof.
  intros os t H. pose proof (run_valid _ _ _ H) as V. change st_create with (layout 0 [[]]) in H.
  rewrite run_layout in H; [|discriminate|exact V]. injection H as <-. split; [apply output_flat|].
  rewrite output_flat, flat_total. change (2 ^ 64) with w64. intro T. split.
  - rewrite output_size. apply u64_small. split; [apply total_nonneg|exact T].
  - intros n s N C. pose proof (layout_nth _ 0 _ _ N) as E. eexists. split; [exact E|].
    rewrite <- (output_flat (strings os [[]]) 0). eapply flat_index; eassumption.
Qed.
