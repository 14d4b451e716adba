(** Interval trees: specification and proofs (C15, C16). *)
From Coq Require Import ZArith List Bool Lia Permutation Sorted Arith.
From Verif Require Import Lib M_Inttree.
Import ListNotations.
Open Scope Z_scope.

(** * Specification *)
(** Insertions (low, high, data) in order. *)
Fixpoint build (t : tree) (ops : list (Z * Z * Z)) : option tree :=
  match ops with [] => Some t | (l, h, d) :: r => match insert t l h d with Some t' => build t' r | None => None end end.
(** The closed intervals [a, b] and [c, d] share a point. *)
Definition meets (a b c d : Z) : Prop := exists x, a <= x <= b /\ c <= x <= d.
Definition meetsb (a b c d : Z) : bool := (c <=? b) && (a <=? d).
Definition int32 (z : Z) : Prop := - 2 ^ 31 <= z < 2 ^ 31.
(** An interval as the section optimizer inserts them. *)
Definition interval (o : Z * Z * Z) : Prop := let '(l, h, _) := o in int32 l /\ int32 h /\ l <= h.
(** Red-black: the root is black, no red node has a red child, and all paths down have the same
    number of black nodes. *)
Inductive rb : bool -> nat -> tree -> Prop :=
  | rb_nil : rb false 0 Nil
  | rb_black : forall c1 c2 n lo hi m d l r, rb c1 n l -> rb c2 n r -> rb false (S n) (Node false lo hi m d l r)
  | rb_red : forall n lo hi m d l r, rb false n l -> rb false n r -> rb true n (Node true lo hi m d l r).
Fixpoint height (t : tree) : nat := match t with Nil => 0 | Node _ _ _ _ _ l r => S (Nat.max (height l) (height r)) end.

(** * Contents *)
Fixpoint elems (t : tree) : list (Z * Z * Z) :=
  match t with Nil => [] | Node _ lo hi _ d l r => elems l ++ (lo, hi, d) :: elems r end.
Definition feft (f : frame) : list (Z * Z * Z) := if onleft f then [] else elems (fsib f) ++ [(flo f, fhi f, fd f)].
Definition fright (f : frame) : list (Z * Z * Z) := if onleft f then (flo f, fhi f, fd f) :: elems (fsib f) else [].
Fixpoint pleft (p : list frame) : list (Z * Z * Z) := match p with [] => [] | f :: r => pleft r ++ feft f end.
Fixpoint pright (p : list frame) : list (Z * Z * Z) := match p with [] => [] | f :: r => fright f ++ pright r end.
Lemma elems_up : forall f t, elems (up f t) = feft f ++ elems t ++ fright f.
Proof. intros f t. unfold up, feft, fright. destruct (onleft f); cbn [elems app]; rewrite ?app_nil_r, <- ?app_assoc; reflexivity. Qed.
Lemma elems_plug : forall p t, elems (plug t p) = pleft p ++ elems t ++ pright p.
Proof. induction p as [|f p IH]; intros t; cbn [plug pleft pright app]; [rewrite app_nil_r; auto|]. rewrite IH, elems_up, <- !app_assoc. reflexivity. Qed.
Lemma elems_paint : forall c t, elems (paint c t) = elems t. Proof. intros c [|]; reflexivity. Qed.
Lemma elems_rotl : forall t t', rotl t = Some t' -> elems t' = elems t.
Proof. intros t t' H. destruct t as [|? ? ? ? ? a [|]]; try discriminate H. injection H as <-. cbn [elems]. rewrite <- app_assoc. reflexivity. Qed.
Lemma elems_rotr : forall t t', rotr t = Some t' -> elems t' = elems t.
Proof. intros t t' H. destruct t as [|? ? ? ? ? [|] c]; try discriminate H. injection H as <-. cbn [elems]. rewrite <- app_assoc. reflexivity. Qed.
Lemma elems_red : forall c f t, elems (up (with_red c f) t) = elems (up f t). Proof. intros. rewrite !elems_up. reflexivity. Qed.
Lemma elems_fixup : forall n p x t, (length p <= n)%nat -> fixup x p = Some t -> elems t = elems (plug x p).
Proof.
  induction n as [|n IH]; intros p x t L H; (destruct p as [|f q]; [injection H as <-; reflexivity|]); [cbn in L; lia|].
  cbn [fixup] in H. destruct (fred f); [|injection H as <-; reflexivity]. destruct q as [|g r]; [discriminate|]. cbn [plug].
  destruct (is_red (fsib g)).
  - apply IH in H; [|cbn [length] in L; lia]. rewrite H. rewrite !elems_plug. do 2 f_equal. rewrite !elems_up. unfold with_red, with_sib, feft, fright. cbn [onleft fsib flo fhi fd]. rewrite elems_paint. reflexivity.
  - destruct (onleft g).
    + destruct (if onleft f then Some (up f x) else rotl (up f x)) as [s|] eqn:S; [|discriminate]. destruct (rotr _) as [t'|] eqn:R; [|discriminate]. injection H as <-. rewrite !elems_plug. do 2 f_equal. apply elems_rotr in R. rewrite R, elems_red, !elems_up, elems_paint. do 2 f_equal.
      destruct (onleft f); [injection S as <-; rewrite elems_up; reflexivity|]. apply elems_rotl in S. rewrite S, elems_up. reflexivity.
    + destruct (if onleft f then rotr (up f x) else Some (up f x)) as [s|] eqn:S; [|discriminate]. destruct (rotl _) as [t'|] eqn:R; [|discriminate]. injection H as <-. rewrite !elems_plug. do 2 f_equal. apply elems_rotl in R. rewrite R, elems_red, !elems_up, elems_paint. do 2 f_equal.
      destruct (onleft f); [|injection S as <-; rewrite elems_up; reflexivity]. apply elems_rotr in S. rewrite S, elems_up. reflexivity.
Qed.
Lemma pl_fixmax : forall p m, pleft (fixmax m p) = pleft p /\ pright (fixmax m p) = pright p.
Proof. induction p as [|f p IH]; intros m; [auto|]. cbn [fixmax pleft pright]. destruct (IH (if onleft f then itmax (fhi f) (itmax m (mhigh (fsib f))) else itmax (fhi f) (itmax (mhigh (fsib f)) m))) as [-> ->]. auto. Qed.

(** ** Order *)
Definition lowle (a b : Z * Z * Z) : Prop := fst (fst a) <= fst (fst b).
Definition bst (l : list (Z * Z * Z)) : Prop := StronglySorted lowle l.
Lemma bst_app : forall a b, bst (a ++ b) <-> bst a /\ bst b /\ forall x y, In x a -> In y b -> lowle x y.
Proof.
  intros a b. unfold bst. induction a as [|x a IH]; cbn [app]; [split; [intros; repeat split; auto; [constructor|intros ? ? []]|tauto]|]. split.
  - intros H. inversion H as [|? ? H1 H2]; subst. apply IH in H1. destruct H1 as (A & B & C). apply Forall_app in H2. destruct H2 as [D E]. split; [constructor; auto|]. split; auto. intros u v [<-|U] V; auto. rewrite Forall_forall in E. auto.
  - intros (A & B & C). inversion A; subst. constructor; [apply IH; repeat split; auto; intros; apply C; auto; right; auto|]. apply Forall_app. split; auto. apply Forall_forall. intros v V. apply C; auto. left. auto.
Qed.
Lemma descend_split : forall low t p, bst (elems t) -> exists a b, elems t = a ++ b /\ pleft (descend low t p) = pleft p ++ a /\ pright (descend low t p) = b ++ pright p /\
  (forall x, In x a -> fst (fst x) <= low) /\ (forall x, In x b -> low <= fst (fst x)).
Proof.
  intros low t. induction t as [|c lo hi m d l IHl r IHr]; intros p B; [exists [], []; cbn; rewrite app_nil_r; repeat split; auto; intros ? []|].
  cbn [elems] in B. apply bst_app in B. destruct B as (B1 & B2 & B3). inversion B2 as [|? ? B4 B5]; subst. rewrite Forall_forall in B5. cbn [descend elems]. destruct (Z.ltb_spec low lo) as [C|C].
  - destruct (IHl (Fr true c lo hi m d r :: p) B1) as (a & b & E & PL & PR & A & BB). exists a, (b ++ (lo, hi, d) :: elems r). rewrite E, PL, PR. cbn [pleft pright feft fright onleft fsib flo fhi fd]. rewrite app_nil_r, <- !app_assoc. repeat split; auto.
    intros x I. apply in_app_or in I. destruct I as [I|[<-|I]]; [auto|cbn; lia|]. apply B5 in I. unfold lowle in I. cbn in I. lia.
  - destruct (IHr (Fr false c lo hi m d l :: p) B4) as (a & b & E & PL & PR & A & BB). exists (elems l ++ (lo, hi, d) :: a), b. rewrite E, PL, PR. cbn [pleft pright feft fright onleft fsib flo fhi fd]. rewrite <- !app_assoc. repeat split; auto.
    intros x I. apply in_app_or in I. destruct I as [I|[<-|I]]; [|exact C|auto]. specialize (B3 x (lo, hi, d) I (or_introl eq_refl)). unfold lowle in B3. cbn in B3. lia.
Qed.
Lemma insert_elems : forall t low high d t', low <= high -> bst (elems t) -> insert t low high d = Some t' ->
  bst (elems t') /\ Permutation (elems t') ((low, high, d) :: elems t).
Proof.
  intros t low high d t' LH B H. unfold insert in H.
  assert (N : node low high d = Node true low high high d Nil Nil) by (unfold node; destruct (Z.ltb_spec low high); auto; replace low with high by lia; auto).
  rewrite N in H. cbn [mhigh] in H. destruct (fixup _ _) as [s|] eqn:F; [|discriminate]. injection H as <-. rewrite elems_paint. apply (elems_fixup _ _ _ _ (le_n _)) in F. rewrite F, elems_plug. destruct (pl_fixmax (descend low t []) high) as [-> ->].
  destruct (descend_split low t [] B) as (a & b & E & -> & -> & A & BB). cbn [elems app pleft pright]. rewrite app_nil_r. rewrite E in *. split.
  - apply bst_app in B. destruct B as (B1 & B2 & B3). apply bst_app. split; auto. split; [constructor; auto; apply Forall_forall; intros x I; unfold lowle; cbn; auto|]. intros x y I [<-|J]; auto. unfold lowle. cbn. auto.
  - apply Permutation_sym, Permutation_middle.
Qed.

(** ** Cached maxima *)
Inductive mok : tree -> Prop :=
  | mok_nil : mok Nil
  | mok_node : forall c lo hi m d l r, mok l -> mok r -> m = Z.max hi (Z.max (mhigh l) (mhigh r)) -> mok (Node c lo hi m d l r).
Inductive mpath : Z -> list frame -> Prop :=
  | mp_nil : forall m, mpath m []
  | mp_cons : forall m f p, mok (fsib f) -> fmh f = Z.max (fhi f) (Z.max m (mhigh (fsib f))) -> mpath (fmh f) p -> mpath m (f :: p).
Lemma itmax_max : forall a b, itmax a b = Z.max a b. Proof. intros a b. unfold itmax. destruct (Z.ltb_spec b a); lia. Qed.
Lemma up_mok : forall f t, mok (fsib f) -> fmh f = Z.max (fhi f) (Z.max (mhigh t) (mhigh (fsib f))) -> mok t -> mok (up f t).
Proof. intros f t A B C. unfold up. destruct (onleft f); constructor; auto; lia. Qed.
Lemma up_mh : forall f t, mhigh (up f t) = fmh f. Proof. intros. unfold up. destruct (onleft f); reflexivity. Qed.
Lemma plug_mok : forall p t, mok t -> mpath (mhigh t) p -> mok (plug t p).
Proof. induction p as [|f p IH]; intros t A B; auto. cbn [plug]. inversion B; subst. apply IH; [apply up_mok; auto|rewrite up_mh; auto]. Qed.
Lemma paint_mok : forall c t, mok t -> mok (paint c t). Proof. intros c t H. inversion H; subst; cbn; constructor; auto. Qed.
Lemma paint_mh : forall c t, mhigh (paint c t) = mhigh t. Proof. intros c [|]; reflexivity. Qed.
Lemma rotl_mok : forall t t', mok t -> rotl t = Some t' -> mok t' /\ mhigh t' = mhigh t.
Proof.
  intros t t' M H. destruct t as [|c lo hi m d a y]; [discriminate|]. destruct y as [|cy ly hy my dy b e]; [discriminate|]. injection H as <-. inversion M; subst. match goal with K : mok (Node cy _ _ _ _ _ _) |- _ => inversion K; subst end. cbn [mhigh] in *. rewrite !itmax_max. split; [|lia]. constructor; auto; [constructor; auto; lia|cbn [mhigh]; lia].
Qed.
Lemma rotr_mok : forall t t', mok t -> rotr t = Some t' -> mok t' /\ mhigh t' = mhigh t.
Proof.
  intros t t' M H. destruct t as [|c lo hi m d y a]; [discriminate|]. destruct y as [|cy ly hy my dy b e]; [discriminate|]. injection H as <-. inversion M; subst. match goal with K : mok (Node cy _ _ _ _ _ _) |- _ => inversion K; subst end. cbn [mhigh] in *. rewrite !itmax_max. split; [|lia]. constructor; auto; [constructor; auto; lia|cbn [mhigh]; lia].
Qed.
Lemma with_red_mok : forall c f t, mok (up f t) -> mok (up (with_red c f) t).
Proof. intros c f t H. unfold up, with_red in *. cbn [onleft fred flo fhi fmh fd fsib]. destruct (onleft f); inversion H; subst; constructor; auto. Qed.
Lemma fixup_mok : forall n p x t, (length p <= n)%nat -> mok x -> mpath (mhigh x) p -> fixup x p = Some t -> mok t.
Proof.
  induction n as [|n IH]; intros p x t L M P H; (destruct p as [|f q]; [injection H as <-; auto|]); [cbn in L; lia|].
  cbn [fixup] in H. destruct (fred f); [|injection H as <-; exact (plug_mok (f :: q) x M P)]. destruct q as [|g r]; [discriminate|].
  inversion P as [|? ? ? F1 F2 P2]; subst. inversion P2 as [|? ? ? G1 G2 P3]; subst. pose proof (up_mok f x F1 F2 M) as U1.
  destruct (is_red (fsib g)).
  - apply IH in H; auto; [cbn [length] in L; lia| |rewrite up_mh; unfold with_red, with_sib; cbn [fmh]; auto]. apply with_red_mok. apply up_mok; unfold with_sib; cbn [fsib fmh fhi]; auto using paint_mok, with_red_mok. rewrite paint_mh, up_mh. unfold with_red. cbn [fmh]. auto.
  - destruct (onleft g).
    + destruct (if onleft f then Some (up f x) else rotl (up f x)) as [s|] eqn:S; [|discriminate]. destruct (rotr _) as [t'|] eqn:R; [|discriminate]. injection H as <-.
      assert (MS : mok s /\ mhigh s = fmh f). { rewrite <- (up_mh f x). destruct (onleft f); [injection S as <-; auto|apply rotl_mok; auto]. }
      destruct MS as [MS HS]. apply rotr_mok in R; [|apply with_red_mok, up_mok; auto using paint_mok; rewrite paint_mh, HS; auto]. destruct R as [R1 R2]. rewrite up_mh in R2. apply plug_mok; auto. rewrite R2. auto.
    + destruct (if onleft f then rotr (up f x) else Some (up f x)) as [s|] eqn:S; [|discriminate]. destruct (rotl _) as [t'|] eqn:R; [|discriminate]. injection H as <-.
      assert (MS : mok s /\ mhigh s = fmh f). { rewrite <- (up_mh f x). destruct (onleft f); [apply rotr_mok; auto|injection S as <-; auto]. }
      destruct MS as [MS HS]. apply rotl_mok in R; [|apply with_red_mok, up_mok; auto using paint_mok; rewrite paint_mh, HS; auto]. destruct R as [R1 R2]. rewrite up_mh in R2. apply plug_mok; auto. rewrite R2. auto.
Qed.
Lemma fixmax_mpath : forall p m, Forall (fun f => mok (fsib f)) p -> mpath m (fixmax m p).
Proof. induction p as [|f p IH]; intros m F; [constructor|]. inversion F; subst. cbn [fixmax]. constructor; cbn [with_mh fsib fmh fhi]; auto. rewrite !itmax_max. destruct (onleft f); lia. Qed.
Lemma descend_mok : forall low t p, mok t -> Forall (fun f => mok (fsib f)) p -> Forall (fun f => mok (fsib f)) (descend low t p).
Proof. intros low t. induction t as [|c lo hi m d l IHl r IHr]; intros p M F; auto. inversion M; subst. cbn [descend]. destruct (low <? lo); [apply IHl|apply IHr]; auto. Qed.
Lemma insert_mok : forall t low high d t', low <= high -> LONG_MIN <= high -> mok t -> insert t low high d = Some t' -> mok t'.
Proof.
  intros t low high d t' LH B M H. unfold insert in H.
  assert (N : node low high d = Node true low high high d Nil Nil) by (unfold node; destruct (Z.ltb_spec low high); auto; replace low with high by lia; auto).
  rewrite N in H. cbn [mhigh] in H. destruct (fixup _ _) as [s|] eqn:F; [|discriminate]. injection H as <-. apply paint_mok. apply (fixup_mok _ _ _ _ (le_n _)) in F; auto; [constructor; auto using mok_nil; cbn [mhigh]; lia|]. cbn [mhigh]. apply fixmax_mpath. apply descend_mok; auto.
Qed.

(** ** Balance *)
Inductive rbp : bool -> nat -> list frame -> Prop :=
  | rbp_nil : forall n, rbp false n []
  | rbp_black : forall c c2 n f p, fred f = false -> rb c2 n (fsib f) -> rbp c (S n) p -> rbp true n (f :: p)
  | rbp_red : forall n f p, fred f = true -> rb false n (fsib f) -> rbp true n p -> rbp false n (f :: p).
Lemma up_black : forall c c2 n f t, fred f = false -> rb c2 n (fsib f) -> rb c n t -> rb false (S n) (up f t).
Proof. intros c c2 n f t F A B. unfold up. rewrite F. destruct (onleft f); econstructor; eauto. Qed.
Lemma up_red : forall n f t, fred f = true -> rb false n (fsib f) -> rb false n t -> rb true n (up f t).
Proof. intros n f t F A B. unfold up. rewrite F. destruct (onleft f); constructor; auto. Qed.
Lemma paint_rb : forall c n t, rb c n t -> exists m, rb false m (paint false t).
Proof. intros c n t H. inversion H; subst; cbn [paint]; eexists; econstructor; eauto. Qed.
Lemma plug_rb : forall p c c' n t, rb c n t -> rbp c' n p -> (c = true -> c' = true) -> exists m, rb false m (plug t p).
Proof.
  induction p as [|f p IH]; intros c c' n t H P CC; cbn [plug].
  - inversion P; subst. destruct c; [specialize (CC eq_refl); discriminate|]. eauto.
  - inversion P; subst.
    + eapply IH; [eapply up_black; eauto|eauto|discriminate].
    + destruct c; [specialize (CC eq_refl); discriminate|]. eapply IH; [eapply up_red; eauto|eauto|auto].
Qed.
Lemma red_inv : forall n t, rb true n t -> exists lo hi m d l r, t = Node true lo hi m d l r /\ rb false n l /\ rb false n r.
Proof. intros n t H. inversion H; subst. do 6 eexists. split; [reflexivity|auto]. Qed.
Lemma fixup_rb : forall k p x c n, (length p <= k)%nat -> rb true n x -> rbp c n p -> exists t cc m, fixup x p = Some t /\ rb cc m t.
Proof.
  induction k as [|k IH]; intros p x c n L X P; (destruct p as [|f q]; [exists x, true, n; auto|]); [cbn in L; lia|].
  cbn [fixup]. inversion P as [|? ? ? ? ? F S P2|? ? ? F S P2]; subst; rewrite F.
  - destruct (plug_rb (f :: q) true true n x X P ltac:(auto)) as (m & H). cbn [plug] in *. eauto.
  - inversion P2 as [|? cg ? g r G SG P3|]; subst. assert (GR : is_red (fsib g) = cg) by (inversion SG; reflexivity). destruct (is_red (fsib g)) eqn:U; [|].
    + apply (IH r _ c (Datatypes.S n)); [cbn [length] in L; lia| |exact P3]. subst cg. apply up_red; [reflexivity| |].
      * cbn [with_red with_sib fsib]. apply red_inv in SG. destruct SG as (? & ? & ? & ? & ? & ? & -> & A & B). cbn [paint]. econstructor; eauto.
      * eapply up_black; [reflexivity|exact S|exact X].
    + subst cg. apply red_inv in X. destruct X as (xl & xh & xm & xd & a & b & -> & XA & XB). destruct f as [fo fr fl fh fm fdd sb], g as [go gr gl gh gm gd us]. cbn [fred fsib onleft] in *. subst fr gr.
      assert (K : forall t, rb false (Datatypes.S n) t -> exists t0 cc m, Some (plug t r) = Some t0 /\ rb cc m t0).
      { intros t T. destruct (plug_rb r false c _ t T P3 ltac:(discriminate)) as (m & H). eauto. }
      destruct go, fo; cbn [up onleft fred flo fhi fmh fd fsib with_red rotl rotr paint]; apply K; eapply rb_black; eauto; apply rb_red; auto.
Qed.
Lemma fixmax_rbp : forall p c n m, rbp c n p -> rbp c n (fixmax m p).
Proof. induction p as [|f p IH]; intros c n m H; [inversion H; constructor|]. cbn [fixmax]. inversion H; subst; econstructor; cbn [with_mh fred fsib]; eauto. Qed.
Lemma descend_rb : forall low t p c c' n, rb c n t -> rbp c' n p -> (c = true -> c' = true) -> exists c2, rbp c2 0 (descend low t p).
Proof.
  intros low t. induction t as [|cc lo hi m d l IHl r IHr]; intros p c c' n H P CC; [inversion H; subst; exists c'; auto|]. cbn [descend].
  inversion H; subst.
  - destruct (low <? lo); [apply (IHl _ c1 true n0)|apply (IHr _ c2 true n0)]; auto; eapply rbp_black; eauto.
  - specialize (CC eq_refl). subst c'. destruct (low <? lo); [apply (IHl _ false false n)|apply (IHr _ false false n)]; auto; apply rbp_red; auto.
Qed.
Lemma insert_rb : forall t n low high d, rb false n t -> exists t' m, insert t low high d = Some t' /\ rb false m t'.
Proof.
  intros t n low high d H. unfold insert. assert (N : exists l h, node low high d = Node true l h high d Nil Nil) by (unfold node; destruct (low <? high); eauto). destruct N as (l & h & ->). cbn [mhigh].
  destruct (descend_rb l t [] false false n H (rbp_nil n) ltac:(discriminate)) as (c2 & P). apply (fixmax_rbp _ _ _ high) in P.
  destruct (fixup_rb _ _ (Node true l h high d Nil Nil) c2 0%nat (le_n _) ltac:(constructor; constructor) P) as (t' & cc & m & -> & R). apply paint_rb in R. destruct R as (m' & R). eauto.
Qed.
Lemma rb_size : forall c n t, rb c n t -> (2 ^ n <= size t + 1)%nat.
Proof. intros c n t H. induction H; cbn [size Nat.pow]; lia. Qed.
Lemma rb_height : forall c n t, rb c n t -> (height t <= 2 * n + (if c then 1 else 0))%nat.
Proof. intros c n t H. induction H; cbn [height]; try lia. destruct c1, c2; lia. Qed.
Lemma elems_size : forall t, length (elems t) = size t.
Proof. induction t; cbn [elems size]; auto. rewrite app_length. cbn [length]. lia. Qed.

(** ** Enumeration *)
Fixpoint find (low high : Z) (t : tree) : list (Z * Z * Z) :=
  match t with
  | Nil => []
  | Node _ lo hi _ d l r =>
      (if overlap low high lo hi then [(lo, hi, d)] else []) ++
      (if low <=? mhigh l then find low high l ++ (match find low high l with [] => [] | _ => find low high r end)
       else find low high r)
  end.
Definition some (l : list (Z * Z * Z)) : bool := match l with [] => false | _ => true end.
(** currentParent is always the top of the stack *)
Definition mark (b : bool) (s : list ent) : list ent := match s with e :: r => Ent (eright e) (etry e || b) (eparent e) :: r | [] => [] end.
Fixpoint linked (s : list ent) : Prop := match s with e :: r => linked r /\ (r <> [] -> eparent e = Z.of_nat (length r) - 1) | [] => True end.
Lemma set_top : forall s, s <> [] -> set_try (Z.of_nat (length s) - 1) s = mark true s.
Proof.
  intros s N. unfold set_try. replace (Z.of_nat (length s) - 1 - (Z.of_nat (length s) - 1)) with 0 by lia. destruct s as [|e r]; [congruence|]. cbn [length Z.leb]. replace (0 <? _) with true by (symmetry; apply Z.ltb_lt; lia). cbn. rewrite orb_true_r. reflexivity.
Qed.
Lemma mark_len : forall b s, length (mark b s) = length s. Proof. intros b [|]; reflexivity. Qed.
Lemma mark_linked : forall b s, linked s -> linked (mark b s). Proof. intros b [|e r]; auto. Qed.
Lemma mark_mark : forall a b s, mark a (mark b s) = mark (b || a) s. Proof. intros a b [|e r]; auto. cbn. rewrite orb_assoc. reflexivity. Qed.
Lemma mark_false : forall s, mark false s = s. Proof. intros [|[] r]; auto. cbn. rewrite orb_false_r. reflexivity. Qed.
Lemma mark_ne : forall b s, s <> [] -> mark b s <> []. Proof. intros b [|]; [auto|discriminate]. Qed.
Definition top (s : list ent) : Z := Z.of_nat (length s) - 1.
(** what remains to be found once the current subtree is finished *)
Definition resume (k : nat) (low high : Z) (s : list ent) : option (list (Z * Z * Z)) :=
  let '(x, s', c) := unwind (length s) s (top s) in enum k low high x s' c.
Definition go (k : nat) (low high : Z) (x : tree) (s : list ent) : option (list (Z * Z * Z)) :=
  match x with Nil => resume k low high s | _ => enum k low high x s (top s) end.

Lemma unwind_cur : forall n k low high s c c',
  (let '(x, s', d) := unwind n s c in enum k low high x s' d) = (let '(x, s', d) := unwind n s c' in enum k low high x s' d).
Proof.
  induction n as [|n IH]; intros k low high s c c'; [cbn [unwind]; destruct k; reflexivity|]. destruct s as [|e [|e' s]]; [destruct k; reflexivity|destruct k; reflexivity|]. cbn [unwind]. destruct (etry e); auto. 
Qed.
Lemma unwind_more : forall n s c, linked s -> (length s <= n)%nat -> unwind n s c = unwind (length s) s c.
Proof.
  induction n as [|n IH]; intros s c K L; [destruct s; [reflexivity|cbn in L; lia]|]. destruct s as [|e [|e' s]]; [reflexivity|reflexivity|]. cbn [length] in L. cbn [length unwind]. destruct K as [K1 K2]. specialize (K2 ltac:(discriminate)). destruct (etry e).
  - destruct (eright e); auto. rewrite K2, set_top by discriminate. rewrite IH; rewrite ?mark_len; auto using mark_linked. cbn [length]. lia.
  - apply IH; auto. cbn [length]. lia.
Qed.
Lemma unwind_S : forall n e s c, s <> [] -> unwind (S n) (e :: s) c =
  if etry e then match eright e with Nil => unwind n (set_try (eparent e) s) (eparent e) | x => (x, set_try (eparent e) s, eparent e) end else unwind n s c.
Proof. intros n e [|e' s] c N; [congruence|]. reflexivity. Qed.
Lemma resume_cons : forall k low high r b p s, s <> [] -> linked s -> p = top s ->
  resume k low high (Ent r b p :: s) = if b then go k low high r (mark true s) else resume k low high s.
Proof.
  intros k low high r b p s N K P. unfold resume at 1. cbn [length]. rewrite unwind_S by auto. cbn [etry eparent eright]. destruct b.
  - subst p. assert (T : set_try (top s) s = mark true s) by (apply set_top; auto). rewrite T. unfold go. destruct r as [|c lo hi m d l r].
    + unfold resume. rewrite mark_len. unfold top. rewrite mark_len. reflexivity.
    + unfold top. rewrite mark_len. reflexivity.
  - apply unwind_cur.
Qed.
Lemma resume_end : forall k low high e, resume k low high [e] = Some []. Proof. intros [|k]; reflexivity. Qed.
Lemma enum_step : forall j low high c lo hi m d l r s, s <> [] ->
  enum (S j) low high (Node c lo hi m d l r) s (top s) =
  let hit := overlap low high lo hi in let s1 := mark hit s in
  match (if low <=? mhigh l then go j low high l (Ent r false (top s) :: s1) else go j low high r s1) with
  | Some out => Some ((if hit then [(lo, hi, d)] else []) ++ out) | None => None end.
Proof.
  intros j low high c lo hi m d l r s N. cbn [enum]. cbv zeta. set (hit := overlap low high lo hi).
  assert (S1 : (if hit then set_try (top s) s else s) = mark hit s) by (destruct hit; [apply set_top; auto|rewrite mark_false; auto]). rewrite S1.
  assert (FIN : forall a : option (list (Z * Z * Z)), match a with Some out => Some (if hit then (lo, hi, d) :: out else out) | None => None end = match a with Some out => Some ((if hit then [(lo, hi, d)] else []) ++ out) | None => None end) by (intros [|]; auto; destruct hit; auto).
  destruct (low <=? mhigh l).
  - assert (T : Z.of_nat (length (mark hit s)) = top (Ent r false (top s) :: mark hit s)) by (unfold top; cbn [length]; lia). rewrite T. unfold go. destruct l; [|apply FIN].
    rewrite <- FIN. unfold resume. destruct (unwind _ _ _) as [[x3 s3] c3]. reflexivity.
  - assert (T : top s = top (mark hit s)) by (unfold top; rewrite mark_len; auto). rewrite T. unfold go. destruct r; [|apply FIN].
    rewrite <- FIN. unfold resume. destruct (unwind _ _ _) as [[x3 s3] c3]. reflexivity.
Qed.
Lemma some_app : forall a b, some (a ++ b) = some a || some b. Proof. intros [|] [|]; reflexivity. Qed.
Lemma go_find : forall low high t k s out, s <> [] -> linked s ->
  (forall k', (k <= k')%nat -> resume k' low high (mark (some (find low high t)) s) = Some out) ->
  forall k', (size t + k <= k')%nat -> go k' low high t s = Some (find low high t ++ out).
Proof.
  intros low high t. induction t as [|c lo hi m d l IHl r IHr]; intros k s out N K R k' L.
  - cbn [go find app]. specialize (R k' L). cbn [find some] in R. rewrite mark_false in R. exact R.
  - destruct k' as [|j]; [cbn in L; lia|]. cbn [go]. rewrite enum_step by auto. cbv zeta. cbn [find] in *. cbn [size] in L. set (hit := overlap low high lo hi) in *.
    assert (HS : some (if hit then [(lo, hi, d)] else []) = hit) by (destruct hit; auto).
    destruct (low <=? mhigh l) eqn:M.
    + rewrite (IHl (size r + k)%nat _ ((match find low high l with [] => [] | _ => find low high r end) ++ out)); [f_equal; rewrite <- !app_assoc; reflexivity|discriminate| | |lia].
      * cbn [linked eparent]. split; [apply mark_linked; auto|]. intros _. unfold top. rewrite mark_len. reflexivity.
      * intros k2 L2. cbn [mark eright etry eparent orb]. rewrite resume_cons; [|apply mark_ne; auto|apply mark_linked; auto|unfold top; rewrite mark_len; auto].
        rewrite some_app, HS, some_app in R. destruct (find low high l) eqn:F; cbn [some orb app] in *; [rewrite orb_false_r in R; apply R; lia|].
        rewrite (IHr k _ out); auto using mark_ne, mark_linked. intros k3 L3. rewrite !mark_mark. specialize (R k3 L3). rewrite !orb_true_r in *. cbn [orb]. exact R.
    + rewrite (IHr k _ out); [rewrite <- app_assoc; reflexivity|auto using mark_ne|auto using mark_linked| |lia].
      intros k3 L3. rewrite mark_mark. rewrite some_app, HS in R. auto.
Qed.
Lemma enumerate_find : forall t low high, enumerate t low high = Some (find low high t).
Proof.
  intros t low high. unfold enumerate. destruct t as [|c lo hi m d l r]; [reflexivity|].
  pose proof (go_find low high (Node c lo hi m d l r) 0 [Ent Nil false 0] []) as G. rewrite app_nil_r in G. apply G; [discriminate|cbn; split; auto; congruence| |lia]. intros k' _. apply resume_end.
Qed.

(** ** What is found *)
Lemma s32_id : forall z, int32 z -> s32 z = z. Proof. intros z H. apply sgn_small; [lia|exact H]. Qed.
Lemma overlap_meets : forall a b c d, int32 a -> int32 b -> int32 c -> int32 d -> a <= b -> c <= d -> overlap a b c d = meetsb a b c d.
Proof.
  intros a b c d A B C D H1 H2. unfold overlap, meetsb. rewrite !s32_id by auto. destruct (Z.leb_spec a c), (Z.leb_spec c b), (Z.leb_spec a d); cbn; lia || auto.
Qed.
Lemma meetsb_meets : forall a b c d, a <= b -> c <= d -> meetsb a b c d = true <-> meets a b c d.
Proof.
  intros a b c d H1 H2. unfold meetsb, meets. rewrite andb_true_iff, !Z.leb_le. split; [intros [A B]; exists (Z.max a c); lia|intros (x & A & B); lia].
Qed.
Definition hits (low high : Z) (o : Z * Z * Z) : bool := let '(l, h, _) := o in meetsb low high l h.
Lemma mok_le : forall t, mok t -> forall o, In o (elems t) -> snd (fst o) <= mhigh t.
Proof. intros t H. induction H; intros o I; [destruct I|]. cbn [elems mhigh] in *. apply in_app_or in I. destruct I as [I|[<-|I]]; [apply IHmok1 in I|cbn|apply IHmok2 in I]; lia. Qed.
Lemma mok_in : forall t, mok t -> (forall o, In o (elems t) -> LONG_MIN < snd (fst o)) -> t <> Nil -> exists o, In o (elems t) /\ snd (fst o) = mhigh t.
Proof.
  intros t H. induction H as [|c lo hi m d l r Hl IHl Hr IHr E]; intros B N; [congruence|]. cbn [elems mhigh] in *.
  assert (X : m = hi \/ (m = mhigh l /\ l <> Nil) \/ (m = mhigh r /\ r <> Nil)).
  { pose proof (B (lo, hi, d) ltac:(apply in_or_app; right; left; auto)) as Q. cbn in Q. destruct l, r; cbn [mhigh] in *; try lia; (destruct (Z.eq_dec m hi); [left; auto|right]); (left; split; [lia|discriminate]) || (right; split; [lia|discriminate]) || idtac.
    destruct (Z.max_spec mh mh0) as [[? ?]|[? ?]]; [right|left]; split; try discriminate; lia. }
  destruct X as [X|[[X Y]|[X Y]]].
  - exists (lo, hi, d). split; [apply in_or_app; right; left; auto|cbn; auto].
  - destruct IHl as (o & O1 & O2); auto; [intros o I; apply B; apply in_or_app; auto|]. exists o. split; [apply in_or_app; auto|congruence].
  - destruct IHr as (o & O1 & O2); auto; [intros o I; apply B; apply in_or_app; right; right; auto|]. exists o. split; [apply in_or_app; right; right; auto|congruence].
Qed.
Lemma filter_none : forall (A : Type) (f : A -> bool) l, (forall x, In x l -> f x = false) -> filter f l = [].
Proof. intros A f l. induction l as [|x l IH]; intros H; auto. cbn. rewrite H by (left; auto). apply IH. intros y I. apply H. right. auto. Qed.
Lemma find_spec : forall low high, int32 low -> int32 high -> low <= high -> forall t, mok t -> bst (elems t) -> Forall interval (elems t) ->
  Permutation (find low high t) (filter (hits low high) (elems t)).
Proof.
  intros low high L1 L2 LH t. induction t as [|c lo hi m d l IHl r IHr]; intros M B F; [constructor|].
  inversion M; subst. cbn [elems] in B, F. pose proof B as B0. apply bst_app in B. destruct B as (B1 & B2 & B3). inversion B2 as [|? ? B4 B5]; subst. rewrite Forall_forall in B5.
  apply Forall_app in F. destruct F as [F1 F2]. inversion F2 as [|? ? F3 F4]; subst. destruct F3 as (G1 & G2 & G3).
  specialize (IHl ltac:(auto) B1 F1). specialize (IHr ltac:(auto) B4 F4). cbn [find elems]. rewrite overlap_meets by auto. rewrite filter_app. cbn [filter hits]. rewrite Forall_forall in F1.
  assert (RHS : forall a b, (if meetsb low high lo hi then (lo, hi, d) :: b else b) = (if meetsb low high lo hi then [(lo, hi, d)] else []) ++ b /\ Permutation (a ++ (if meetsb low high lo hi then [(lo, hi, d)] else []) ++ b) ((if meetsb low high lo hi then [(lo, hi, d)] else []) ++ a ++ b)).
  { intros a b. destruct (meetsb low high lo hi); cbn [app]; split; auto. apply Permutation_sym, Permutation_middle. }
  rewrite (proj1 (RHS [] (filter (hits low high) (elems r)))). rewrite (proj2 (RHS _ _)). apply Permutation_app_head.
  destruct (Z.leb_spec low (mhigh l)) as [C|C].
  - apply Permutation_app; auto. destruct (find low high l) eqn:FL; auto.
    assert (NL : l <> Nil). { intros ->. cbn [mhigh] in C. unfold LONG_MIN, int32 in *. lia. }
    destruct (mok_in l) as (o & O1 & O2); auto. { intros o I. apply F1 in I. destruct o as [[a b] e]. destruct I as (? & ? & ?). cbn. unfold LONG_MIN, int32 in *. lia. }
    assert (Q : hits low high o = false). { destruct (hits low high o) eqn:Q; auto. assert (In o []) as []. apply (Permutation_in _ (Permutation_sym IHl)). apply filter_In. auto. }
    rewrite filter_none; auto. intros y Y. pose proof (B5 y Y) as Z1. pose proof (B3 o (lo, hi, d) O1 (or_introl eq_refl)) as Z2. destruct o as [[a b] e], y as [[a' b'] e']. unfold lowle in *. cbn [hits fst snd] in *. unfold meetsb in *. apply andb_false_iff in Q. rewrite !Z.leb_gt in Q. apply andb_false_iff. left. apply Z.leb_gt. lia.
  - rewrite (filter_none _ _ (elems l)); auto. intros o I. pose proof (mok_le l ltac:(auto) o I). destruct o as [[a b] e]. cbn [hits fst snd] in *. unfold meetsb. apply andb_false_iff. right. apply Z.leb_gt. lia.
Qed.

(** * Histories *)
Lemma build_ok : forall ops t n, rb false n t -> mok t -> bst (elems t) -> Forall interval ops ->
  exists t', build t ops = Some t' /\ mok t' /\ bst (elems t') /\ Permutation (elems t') (ops ++ elems t).
Proof.
  induction ops as [|[[l h] d] ops IH]; intros t n R M B F; [exists t; cbn [build app]; auto|]. inversion F as [|? ? F0 F4]; subst. destruct F0 as (F1 & F2 & F3). cbn [build]. destruct (insert_rb t n l h d R) as (t1 & n1 & E & R1). rewrite E. destruct (insert_elems _ _ _ _ _ F3 B E) as [B1 P1].
  apply insert_mok in E; auto; [|unfold LONG_MIN, int32 in *; lia]. destruct (IH t1 n1 R1 E B1 F4) as (t2 & Q & M2 & B2 & P2). exists t2. repeat split; auto. rewrite P2, P1. cbn [app]. apply Permutation_sym, Permutation_middle.
Qed.
Lemma Permutation_filter : forall (A : Type) (f : A -> bool) l l', Permutation l l' -> Permutation (filter f l) (filter f l').
Proof. intros A f l l' H. induction H; cbn [filter]; auto; repeat match goal with |- context [f ?x] => destruct (f x) end; auto using perm_swap. eapply perm_trans; eauto. Qed.
Lemma enumerate_ok : forall ops low high, Forall interval ops -> int32 low -> int32 high -> low <= high ->
  exists t out, build Nil ops = Some t /\ enumerate t low high = Some out /\ Permutation out (filter (hits low high) ops).
Proof.
  intros ops low high F L H LH. destruct (build_ok ops Nil 0 rb_nil mok_nil ltac:(constructor) F) as (t & E & M & B & P). exists t, (find low high t). split; auto. split; [apply enumerate_find|]. cbn [elems] in P. rewrite app_nil_r in P.
  rewrite find_spec; auto; [apply Permutation_filter; auto|]. rewrite Forall_forall in *. intros x I. apply F. apply (Permutation_in _ P I).
Qed.
Lemma enumerate_in : forall ops low high, Forall interval ops -> int32 low -> int32 high -> low <= high ->
  exists t out, build Nil ops = Some t /\ enumerate t low high = Some out /\ length out = length (filter (hits low high) ops) /\ forall l h d, In (l, h, d) out <-> In (l, h, d) ops /\ meets low high l h.
Proof.
  intros ops low high F L H LH. destruct (enumerate_ok ops low high F L H LH) as (t & out & A & B & P). exists t, out. repeat split; auto.
  - apply Permutation_length; auto.
  - apply (Permutation_in _ P) in H0. apply filter_In in H0. tauto.
  - apply (Permutation_in _ P) in H0. apply filter_In in H0. destruct H0 as [I E]. rewrite Forall_forall in F. destruct (F _ I) as (? & ? & ?). apply meetsb_meets; auto.
  - intros [I E]. apply (Permutation_in _ (Permutation_sym P)). apply filter_In. split; auto. rewrite Forall_forall in F. destruct (F _ I) as (? & ? & ?). apply meetsb_meets; auto.
Qed.
Lemma descend_len : forall low t p, (length (pleft (descend low t p)) + length (pright (descend low t p)) = length (pleft p) + length (pright p) + size t)%nat.
Proof.
  intros low t. induction t as [|c lo hi m d l IHl r IHr]; intros p; cbn [descend size]; [lia|]. destruct (low <? lo); [rewrite IHl|rewrite IHr]; cbn [pleft pright feft fright onleft fsib flo fhi fd]; rewrite ?app_length; cbn [length]; rewrite ?app_length, elems_size; cbn [length]; lia.
Qed.
Lemma insert_size : forall t low high d t', insert t low high d = Some t' -> size t' = S (size t).
Proof.
  intros t low high d t' H. unfold insert in H. assert (N : exists l h, node low high d = Node true l h high d Nil Nil) by (unfold node; destruct (low <? high); eauto). destruct N as (l & h & N). rewrite N in H. cbn [mhigh] in H.
  destruct (fixup _ _) as [s|] eqn:F; [|discriminate]. injection H as <-. apply (elems_fixup _ _ _ _ (le_n _)) in F. rewrite <- elems_size, elems_paint, F, elems_plug. destruct (pl_fixmax (descend l t []) high) as [-> ->]. cbn [elems app]. rewrite app_length. cbn [length]. pose proof (descend_len l t []) as D. cbn [pleft pright length] in D. lia.
Qed.
Lemma balanced : forall ops, exists t n, build Nil ops = Some t /\ rb false n t /\ size t = length ops /\ (2 ^ height t <= (length ops + 1) * (length ops + 1))%nat.
Proof.
  assert (G : forall ops t n, rb false n t -> exists t' n', build t ops = Some t' /\ rb false n' t' /\ size t' = (length ops + size t)%nat).
  { induction ops as [|[[l h] d] ops IH]; intros t n R; [exists t, n; auto|]. cbn [build]. destruct (insert_rb t n l h d R) as (t1 & n1 & E & R1). rewrite E. destruct (IH t1 n1 R1) as (t2 & n2 & A & B & C). exists t2, n2. repeat split; auto. apply insert_size in E. cbn [length]. lia. }
  intros ops. destruct (G ops Nil 0%nat rb_nil) as (t & n & A & B & C). exists t, n. cbn [size] in C. rewrite Nat.add_0_r in C. repeat split; auto. pose proof (rb_size _ _ _ B) as S1. apply rb_height in B. rewrite C in S1.
  apply Nat.le_trans with (2 ^ (n + n))%nat; [apply Nat.pow_le_mono_r; lia|]. rewrite Nat.pow_add_r. apply Nat.mul_le_mono; auto.
Qed.
Lemma enumerate_total : forall t low high, exists out, enumerate t low high = Some out.
Proof. intros. rewrite enumerate_find. eauto. Qed.
Lemma enumerate_refuted :
  (exists ops low high t out, build Nil ops = Some t /\ enumerate t low high = Some out /\ low <= high /\ (forall l h d, In (l, h, d) ops -> int32 l /\ int32 h) /\
     exists l h d, In (l, h, d) ops /\ meets low high h l /\ ~ In d (map snd out)) /\
  (exists ops low high t out, build Nil ops = Some t /\ enumerate t low high = Some out /\ low <= high /\ (forall l h d, In (l, h, d) ops -> l <= h) /\
     exists l h d, In (l, h, d) out /\ ~ meets low high l h) /\
  (exists ops high t out, build Nil ops = Some t /\ enumerate t LONG_MIN high = Some out /\ LONG_MIN <= high /\ Forall interval ops /\
     exists l h d, In (l, h, d) ops /\ meets LONG_MIN high l h /\ ~ In (l, h, d) out).
Proof.
  split; [|split].
  - exists [(10, 20, 1); (8, 3, 2)], 7, 9. do 2 eexists. split; [reflexivity|]. split; [vm_compute; reflexivity|]. split; [lia|]. split.
    + intros l h d [E|[E|[]]]; injection E as <- <- <-; unfold int32; lia.
    + exists 8, 3, 2. split; [right; left; auto|]. split; [exists 7; lia|]. intros [].
  - exists [(4294967301, 4294967302, 1)], 5, 6. do 2 eexists. split; [reflexivity|]. split; [vm_compute; reflexivity|]. split; [lia|]. split.
    + intros l h d [E|[]]; injection E as <- <- <-; lia.
    + exists 4294967301, 4294967302, 1. split; [left; auto|]. intros (x & A & B). lia.
  - exists [(5, 6, 1); (6, 7, 2)], 6. do 2 eexists. split; [reflexivity|]. split; [vm_compute; reflexivity|]. split; [unfold LONG_MIN; lia|]. split.
    + repeat constructor; cbn; lia.
    + exists 6, 7, 2. split; [right; left; auto|]. split; [exists 6; unfold LONG_MIN; lia|]. intros [E|[]]; discriminate E.
Qed.
