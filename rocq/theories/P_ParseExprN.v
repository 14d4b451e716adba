(** The two expression parsers (C81-C83). *)
From Coq Require Import ZArith List Bool Lia Arith.
From Verif Require Import Lib M_BitVect M_Intnum P_Intnum P_IntnumIO M_Expr P_Expr P_ExprLevel P_ExprTree P_ExprTop P_ExprUse M_ParseExpr P_ParseExpr.
Import ListNotations.
Open Scope Z_scope.

(** * NASM *)
(** the positions of an absolute section were built by this parser *)
Definition wok (W : world) : Prop := forall e, abspos W = Some e \/ absstart W = Some e -> good (eitem e).
Definition nafter (t : token) (o : op) : list event := match t with TkColon | TkWrt | TkOr | TkXor | TkAnd => [Err (MAfterCode (code o))] | _ => [Err (MAfter t)] end.
Definition npmsg (t : token) : list event := [Err (MAfter t)].
Definition nK (t : token) (e : expr) (s1 : st) : out :=
  match t with
  | TkMinus => made (branch NEG e) (fun e1 => Fin (Some e1, s1))
  | TkNot => made (branch NOT e) (fun e1 => Fin (Some e1, s1))
  | TkLow => made (ident (TInt (create_uint 255))) (fun m => made (tree AND e m) (fun e1 => Fin (Some e1, s1)))
  | TkHigh => made (ident (TInt (create_uint 8))) (fun k => made (tree SHR e k) (fun e1 => made (ident (TInt (create_uint 255))) (fun m => made (tree AND e1 m) (fun e2 => Fin (Some e2, s1)))))
  | TkSeg => made (branch SEG e) (fun e1 => Fin (Some e1, s1))
  | _ => Fin (Some e, s1)
  end.
Definition nbad (ty : etype) (l left : list token) (er : list event) : Prop :=
  (left = l /\ er = [] /\ ~ begins ty l) \/ exists ok m more, er = ok ++ Err m :: more /\ Forall harmless ok /\ culprit ty l left m.
Section Nasm.
Variables (W : world) (ty : etype).
Hypothesis WOK : wok W.
Notation G := (nasm W ty).
Notation nlev := (lev G (nexpr6 W ty) nafter).
Lemma nexpr0_lev : forall n s, nexpr0 n (nexpr6 W ty n) s = nlev n 6 s.
Proof.
  intros n s. unfold nexpr0, nexpr1, nexpr2, nexpr3, nexpr4, nexpr5. cbn [lev nasm tight right Nat.sub Nat.eqb].
  repeat (apply level_ext; [intros []; reflexivity|intros ?|intros ?]); reflexivity.
Qed.
Lemma nbexpr_lev : forall n s, nbexpr n (nexpr6 W ty n) s = nlev n 7 s.
Proof. intros n s. unfold nbexpr. change (nlev n 7 s) with (level n (ops G nafter 1) (nlev n 6) (nexpr6 W ty n) s). apply level_ext; [intros []; reflexivity|intros s1; apply nexpr0_lev|reflexivity]. Qed.
Lemma nexpr_lev : forall n s, nexpr n (nexpr6 W ty n) ty s = nlev n (8 - ntop ty) s.
Proof.
  intros n s. assert (Q : level n (fun t => match t with TkColon => Some (macro SEGOFF) | _ => None end) (nbexpr n (nexpr6 W ty n)) (nbexpr n (nexpr6 W ty n)) s = nlev n 8 s).
  { change (nlev n 8 s) with (level n (ops G nafter 0) (nlev n 7) (nlev n 7) s). apply level_ext; [intros []; reflexivity|intros s1; apply nbexpr_lev|intros s1; apply nbexpr_lev]. }
  unfold nexpr. destruct ty eqn:T; cbn [ntop Nat.sub]; [exact Q| |exact Q]. rewrite <- T in *. apply nexpr0_lev.
Qed.
Lemma n_rt : forall k, (k < tight G)%nat -> right G k = S k \/ right G k = tight G.
Proof. intros k _. cbn. destruct (Nat.eqb_spec k 1); auto. Qed.
Lemma n_ix : forall t k o, infix G t = Some (k, o) -> (k < tight G)%nat /\ dyadic o = true.
Proof. intros t k o H. cbn in *. destruct t; try discriminate H; injection H as <- <-; split; (reflexivity || lia). Qed.
Lemma n_hp : forall t f, prefix G t = Some f -> (forall n l es, nexpr6 W ty (S n) (St (t :: l) es) = bind (nexpr6 W ty n (St l es)) (npmsg t) (nK t)) /\ forall a e s, denotes a e -> exists g, nK t e s = Fin (Some g, s) /\ denotes (f a) g.
Proof.
  intros t f H. cbn in H. destruct t; try discriminate H; injection H as <-; (split; [reflexivity|]); intros a e s D; cbn [nK].
  - destruct (branch_ok SEG a e ltac:(auto) D) as (g & -> & DG). exists g. auto.
  - rewrite lit_ok by (reflexivity || discriminate). cbn [made]. destruct (low_ok a e D) as (g & -> & DG). exists g. auto.
  - rewrite lit_ok by (reflexivity || discriminate). cbn [made]. destruct (high_ok a e D) as (f & g & -> & TG & DG). cbn [made]. rewrite lit_ok by (reflexivity || discriminate). cbn [made]. rewrite TG. exists g. auto.
  - exists e. auto.
  - destruct (branch_ok NEG a e ltac:(auto) D) as (g & -> & DG). exists g. auto.
  - destruct (branch_ok NOT a e ltac:(auto) D) as (g & -> & DG). exists g. auto.
Qed.
Lemma n_hq : forall n l es, nexpr6 W ty (S n) (St (TkLParen :: l) es) = bind (nlev n (tight G - top G) (St l es)) (npmsg TkLParen)
  (fun e s1 => match cur s1 with TkRParen => Fin (Some e, next s1) | _ => Fin (None, drop (note [Err MParen] s1)) end).
Proof. intros n l es. cbn [nasm tight top]. rewrite <- nexpr_lev. reflexivity. Qed.
Lemma n_ha : forall l rest a er, atom G l rest a er -> l <> [] /\ forall n es, exists e, nexpr6 W ty (S n) (St (l ++ rest) es) = Fin (Some e, St rest (es ++ er)) /\ denotes a e.
Proof.
  intros l rest a er H. cbn in H. destruct H as [x rest|x rest T|x rest|x rest T|x rest T|x y rest T S|x rest T S|b f rest T|x rest T|rest T|rest T];
  (split; [discriminate|]); intros n es; cbn [nexpr6 cur toks app]; unfold nname, next, note; cbn [toks evts tl];
  try (rewrite app_nil_r);
  try (destruct ty; try (destruct (T eq_refl)); rewrite ?S, ?lit_ok by (reflexivity || discriminate); cbn [made]; eexists; (split; [reflexivity|]); (apply denotes_lit || apply denotes_reg || apply denotes_name || apply denotes_flt)).
  - unfold nchar. destruct ty; try (destruct (T eq_refl)); destruct (if tasm W then charconst_tasm x else charconst_nasm x) as [v lg]; rewrite lit_ok by (reflexivity || discriminate); cbn [made fst snd evts toks tl]; eexists; (split; [reflexivity|apply denotes_lit]).
  - unfold place. destruct (abspos W) as [e|] eqn:A; destruct ty; try (destruct (T eq_refl)); rewrite ?lit_ok by (reflexivity || discriminate); cbn [made]; eexists; (split; [reflexivity|]); (apply denotes_name || (apply denotes_whole, WOK; auto)).
  - unfold place. destruct (absstart W) as [e|] eqn:A; destruct ty; try (destruct (T eq_refl)); rewrite ?lit_ok by (reflexivity || discriminate); cbn [made]; eexists; (split; [reflexivity|]); (apply denotes_name || (apply denotes_whole, WOK; auto)).
Qed.
Lemma n_harmless : forall b k l rest a er, gram G b k l rest a er -> Forall harmless er.
Proof.
  intros b k l rest a er H. induction H as [| | | | |l rest a e A]; auto; [apply Forall_app; auto|]. cbn in A.
  destruct A; try constructor; unfold harmless; eauto; try (destruct (snd (nchar W s)); constructor; auto).
Qed.
Lemma culprit_app : forall p l left m, culprit ty l left m -> culprit ty (p ++ l) left m.
Proof.
  intros p l left m H. destruct m; cbn in *; try contradiction.
  - destruct H as [(pre & ->) B]. split; [|exact B]. exists (p ++ pre). rewrite app_assoc. reflexivity.
  - destruct H as [(pre & t & o & -> & H) B]. split; [|exact B]. exists (p ++ pre), t, o. rewrite app_assoc. auto.
  - destruct H as (pre & r & -> & H). exists (p ++ pre), r. rewrite app_assoc. auto.
  - destruct H as [T (pre & r & -> & H)]. split; [exact T|]. exists (p ++ pre), r. rewrite app_assoc. auto.
Qed.
Lemma n_hc : forall l, (exists t r f, l = t :: r /\ prefix G t = Some f) \/ (exists r, l = TkLParen :: r) \/ (exists pre rest a er, l = pre ++ rest /\ atom G pre rest a er) \/
  (forall n es, exists left er, nexpr6 W ty (S n) (St l es) = Fin (None, St left (es ++ er)) /\ nbad ty l left er).
Proof.
  intros l. destruct l as [|t r].
  - right; right; right. intros n es. exists [], []. rewrite app_nil_r. split; [destruct ty; reflexivity|]. left. auto.
  - assert (AT : forall a er, natom W ty [t] r a er -> exists pre rest a er, t :: r = pre ++ rest /\ atom G pre rest a er) by (intros a er H; exists [t], r, a, er; split; [reflexivity|exact H]).
    assert (NO : (forall n es, nexpr6 W ty (S n) (St (t :: r) es) = Fin (None, St (t :: r) es)) -> ~ begins ty (t :: r) -> forall n es, exists left er, nexpr6 W ty (S n) (St (t :: r) es) = Fin (None, St left (es ++ er)) /\ nbad ty (t :: r) left er).
    { intros H B n es. exists (t :: r), []. rewrite app_nil_r. split; [apply H|]. left. auto. }
    destruct ty eqn:T; destruct t; try (left; eexists; eexists; eexists; split; reflexivity); try (right; left; eexists; reflexivity);
    try (right; right; right; apply NO; [reflexivity|cbn; intuition congruence]);
    try (right; right; left; eapply AT; constructor; congruence).
    all: try (right; right; left; destruct (special W (tl (tl x))) eqn:SP; eapply AT; [eapply na_special|eapply na_ordinary]; eauto; congruence).
    right; right; right. intros n es. exists (TkReg r0 :: r), [Err MReg]. split; [reflexivity|]. right. exists [], MReg, []. split; [reflexivity|]. split; [constructor|]. cbn. split; [reflexivity|]. exists [], r0. auto.
Qed.
Lemma n_bp : forall t f l left er, prefix G t = Some f -> nbad ty l left er -> nbad ty (t :: l) left (er ++ npmsg t).
Proof.
  intros t f l left er P [(-> & -> & B)|(ok & m & more & -> & H & C)]; right.
  - exists [], (MAfter t), []. split; [reflexivity|]. split; [constructor|]. cbn. split; [exists []; reflexivity|exact B].
  - exists ok, m, (more ++ npmsg t). split; [rewrite <- app_assoc; reflexivity|]. split; [exact H|]. apply (culprit_app [t]). exact C.
Qed.
Lemma n_bq : forall l left er, nbad ty l left er -> nbad ty (TkLParen :: l) left (er ++ npmsg TkLParen).
Proof.
  intros l left er [(-> & -> & B)|(ok & m & more & -> & H & C)]; right.
  - exists [], (MAfter TkLParen), []. split; [reflexivity|]. split; [constructor|]. cbn. split; [exists []; reflexivity|exact B].
  - exists ok, m, (more ++ npmsg TkLParen). split; [rewrite <- app_assoc; reflexivity|]. split; [exact H|]. apply (culprit_app [TkLParen]). exact C.
Qed.
Lemma n_bc : forall pre r a er, gram G true (top G) pre r a er -> match r with TkRParen :: _ => False | _ => True end -> nbad ty (TkLParen :: pre ++ r) (TkNone :: tl r) (er ++ [Err MParen]).
Proof.
  intros pre r a er H R. right. exists er, MParen, []. split; [reflexivity|]. split; [apply (n_harmless _ _ _ _ _ _ H)|]. cbn. exists (TkLParen :: pre), r. auto.
Qed.
Lemma n_bo : forall t k o pre r a er left er', infix G t = Some (k, o) -> gram G false k pre (t :: r) a er -> nbad ty r left er' -> nbad ty (pre ++ t :: r) left (er ++ er' ++ nafter t o).
Proof.
  intros t k o pre r a er left er' I H B. pose proof (n_harmless _ _ _ _ _ _ H) as HH. destruct B as [(-> & -> & B)|(ok & m & more & -> & HO & C)]; right.
  - cbn [app]. assert (Q : exists m, nafter t o = [Err m] /\ culprit ty (pre ++ t :: r) r m).
    { cbn in I. destruct t; try discriminate I; eexists; (split; [reflexivity|]); cbn; (split; [|exact B]); try (exists pre; reflexivity); exists pre; eexists; exists o; (split; [reflexivity|]); (split; [tauto|]); (split; [eexists; exact I|reflexivity]). }
    destruct Q as (m & -> & C). exists er, m, []. auto.
  - exists (er ++ ok), m, (more ++ nafter t o). split; [rewrite <- !app_assoc; reflexivity|]. split; [apply Forall_app; auto|]. replace (pre ++ t :: r) with ((pre ++ [t]) ++ r) by (rewrite <- app_assoc; reflexivity). apply culprit_app. exact C.
Qed.
(** the level of the function called *)
Definition entry (b : bool) : nat := if b then 1%nat else ntop ty.
Definition nasm_parse (b : bool) (l : list token) : out := if b then nasm_bexpr W ty l else nasm_expr W ty l.
Lemma parse_lev : forall b l, nasm_parse b l = nlev (S (length l)) (tight G - entry b) (St l []).
Proof. intros [] l; [apply nbexpr_lev|apply nexpr_lev]. Qed.
Lemma nasm_accepts : forall b l rest a er, gram G true (entry b) l rest a er -> exists e, nasm_parse b (l ++ rest) = Fin (Some e, St rest er) /\ denotes a e.
Proof.
  intros b l rest a er H. rewrite parse_lev. apply (accepts G _ nafter npmsg nK n_rt n_ix eq_refl); [cbn; destruct ty; cbn; lia|exact n_hp|exact n_hq|exact n_ha|exact H].
Qed.
Lemma nasm_verdict : forall b l,
  (exists e pre rest a er, nasm_parse b l = Fin (Some e, St rest er) /\ l = pre ++ rest /\ gram G true (entry b) pre rest a er /\ denotes a e) \/
  (exists left er, nasm_parse b l = Fin (None, St left er) /\ nbad ty l left er /\ forall pre rest a er, l = pre ++ rest -> ~ gram G true (entry b) pre rest a er).
Proof.
  intros b l. rewrite parse_lev. apply (verdict G _ nafter npmsg nK (nbad ty) n_rt n_ix eq_refl); [cbn; destruct ty; cbn; lia|exact n_hp|exact n_hq|exact n_ha|exact n_hc|exact n_bp|exact n_bq|exact n_bc|exact n_bo|destruct b; cbn; [lia|destruct ty; cbn; lia]].
Qed.
End Nasm.

(** * GAS *)
Definition gK (t : token) (e : expr) (s1 : st) : out :=
  match t with
  | TkMinus => made (branch NEG e) (fun e1 => Fin (Some e1, s1))
  | TkNot => made (branch NOT e) (fun e1 => Fin (Some e1, s1))
  | _ => Fin (Some e, s1)
  end.
Definition gafter (t : token) (o : op) : list event := [].
Definition gpmsg (t : token) : list event := [].
Section Gas.
Variables (W : world).
Notation G := (gas W).
Notation glev := (lev G (gexpr2 W) gafter).
Lemma gexpr_lev : forall n s, gexpr n (gexpr2 W n) s = glev n 3 s.
Proof.
  intros n s. unfold gexpr, gexpr0, gexpr1. cbn [lev gas tight right Nat.sub Nat.eqb].
  repeat (apply level_ext; [intros []; reflexivity|intros ?|intros ?]); reflexivity.
Qed.
Lemma g_rt : forall k, (k < tight G)%nat -> right G k = S k \/ right G k = tight G.
Proof. intros k _. left. reflexivity. Qed.
Lemma g_ix : forall t k o, infix G t = Some (k, o) -> (k < tight G)%nat /\ dyadic o = true.
Proof. intros t k o H. cbn in *. destruct t; try discriminate H; injection H as <- <-; split; (reflexivity || lia). Qed.
Lemma g_hp : forall t f, prefix G t = Some f -> (forall n l es, gexpr2 W (S n) (St (t :: l) es) = bind (gexpr2 W n (St l es)) (gpmsg t) (gK t)) /\ forall a e s, denotes a e -> exists g, gK t e s = Fin (Some g, s) /\ denotes (f a) g.
Proof.
  intros t f H. cbn in H. destruct t; try discriminate H; injection H as <-; (split; [|intros a e s D; cbn [gK]]).
  - intros n l es. unfold gpmsg. cbn [gK]. rewrite bind_id. reflexivity.
  - exists e. auto.
  - reflexivity.
  - destruct (branch_ok NEG a e ltac:(auto) D) as (g & -> & DG). exists g. auto.
  - reflexivity.
  - destruct (branch_ok NOT a e ltac:(auto) D) as (g & -> & DG). exists g. auto.
Qed.
Lemma g_hq : forall n l es, gexpr2 W (S n) (St (TkLParen :: l) es) = bind (glev n (tight G - top G) (St l es)) (gpmsg TkLParen)
  (fun e s1 => match cur s1 with TkRParen => Fin (Some e, next s1) | _ => Fin (None, drop (note [Err MParen] s1)) end).
Proof. intros n l es. cbn [gas tight top Nat.sub]. rewrite <- gexpr_lev. reflexivity. Qed.
Lemma isdot_ok : forall x, isdot x = true <-> x = [46].
Proof. intros [|c [|d x]]; cbn; split; intros H; try discriminate H; try (apply Z.eqb_eq in H; subst; reflexivity); injection H as ->; reflexivity. Qed.
Lemma gname_ok : forall x s e, gname W x s e <-> (if isdot x then (here W, []) else (use W x, [Use x])) = (s, e).
Proof.
  intros x s e. unfold gname. destruct (isdot x) eqn:D; [apply isdot_ok in D; subst x|].
  - split; [intros [(_ & -> & ->)|(N & _)]; [reflexivity|congruence]|intros H; injection H as <- <-; auto].
  - assert (N : x <> [46]) by (intros ->; discriminate D). split; [intros [(E & _)|(_ & -> & ->)]; [congruence|reflexivity]|intros H; injection H as <- <-; auto].
Qed.
Lemma wrt_ok : forall s y, exists e, create WRT (TSym s) (Some (TSym y)) = Fin e /\ denotes (Bin WRT (Name s) (Name y)) e.
Proof.
  intros s y. destruct (tree_ok WRT (Name s) (Name y) (IDENT, [TSym s]) (IDENT, [TSym y]) eq_refl (denotes_name s) (denotes_name y)) as (g & TG & D).
  exists g. split; [|exact D]. rewrite <- TG. reflexivity.
Qed.
Lemma g_ha : forall l rest a er, atom G l rest a er -> l <> [] /\ forall n es, exists e, gexpr2 W (S n) (St (l ++ rest) es) = Fin (Some e, St rest (es ++ er)) /\ denotes a e.
Proof.
  intros l rest a er H. cbn in H. destruct H as [x rest|b f rest|x s e rest GN AT|x s e w y rest GN S|x s e w rest GN S]; (split; [discriminate|]); intros n es; cbn [gexpr2 cur toks app]; unfold next, note; cbn [toks evts tl].
  - rewrite app_nil_r, lit_ok by (reflexivity || discriminate). eexists. split; [reflexivity|apply denotes_lit].
  - rewrite app_nil_r, lit_ok by (reflexivity || discriminate). eexists. split; [reflexivity|apply denotes_flt].
  - apply gname_ok in GN. rewrite GN. rewrite lit_ok by (reflexivity || discriminate). cbn [made toks evts]. exists (IDENT, [TSym s]). split; [|apply denotes_name]. destruct rest as [|[] rest]; try reflexivity. destruct (AT Logic.I).
  - apply gname_ok in GN. rewrite GN. cbn [cur toks evts tl]. rewrite S. destruct (wrt_ok s y) as (g & -> & D). exists g. auto.
  - apply gname_ok in GN. rewrite GN. cbn [cur toks evts tl]. rewrite S. rewrite lit_ok by (reflexivity || discriminate). cbn [made toks evts tl]. rewrite <- app_assoc. eexists. split; [reflexivity|apply denotes_name].
Qed.
(** what was reported: nothing, a missing parenthesis, or a missing name after [@] *)
Definition gbad (l left : list token) (er : list event) : Prop := exists ok last, er = ok ++ last /\ Forall (fun e => forall m, e <> Err m) ok /\ In last [[]; [Err MParen]; [Err MIdent]].
Lemma g_hc : forall l, (exists t r f, l = t :: r /\ prefix G t = Some f) \/ (exists r, l = TkLParen :: r) \/ (exists pre rest a er, l = pre ++ rest /\ atom G pre rest a er) \/
  (forall n es, exists left er, gexpr2 W (S n) (St l es) = Fin (None, St left (es ++ er)) /\ gbad l left er).
Proof.
  assert (NO : forall l, (forall n es, gexpr2 W (S n) (St l es) = Fin (None, St l es)) -> forall n es, exists left er, gexpr2 W (S n) (St l es) = Fin (None, St left (es ++ er)) /\ gbad l left er).
  { intros l H n es. exists l, []. rewrite app_nil_r. split; [apply H|]. exists [], []. repeat split; [constructor|left; reflexivity]. }
  intros l. destruct l as [|t r]; [right; right; right; apply NO; reflexivity|].
  destruct t; try (left; eexists; eexists; eexists; split; reflexivity); try (right; left; eexists; reflexivity); try (right; right; right; apply NO; reflexivity).
  - right; right; left. exists [TkNum n], r, (Lit n), []. split; [reflexivity|constructor].
  - right; right; left. exists [TkFlt neg f], r, (Flt neg f), []. split; [reflexivity|constructor].
  - right; right. destruct (if isdot x then (here W, []) else (use W x, [Use x])) as [s e] eqn:GN. pose proof (proj2 (gname_ok x s e) GN) as GN'.
    assert (PLAIN : ~ at_next r -> exists pre rest a er, TkId x :: r = pre ++ rest /\ atom G pre rest a er) by (intros A; exists [TkId x], r, (Name s), e; split; [reflexivity|apply ga_id; auto]).
    destruct r as [|t r]; [left; apply PLAIN; auto|]. destruct t; try solve [left; apply PLAIN; intros []].
    assert (BAD : (forall n es, gexpr2 W (S n) (St (TkId x :: TkAt :: r) es) = Fin (None, St (TkNone :: tl r) (es ++ e ++ [Err MIdent]))) -> forall n es, exists left er, gexpr2 W (S n) (St (TkId x :: TkAt :: r) es) = Fin (None, St left (es ++ er)) /\ gbad (TkId x :: TkAt :: r) left er).
    { intros H n es. eexists. eexists. split; [apply H|]. exists e, [Err MIdent]. split; [reflexivity|]. split; [|cbn; auto]. destruct GN' as [(_ & _ & ->)|(_ & _ & ->)]; repeat constructor; discriminate. }
    assert (EXE : match r with TkId _ :: _ => False | _ => True end -> forall n es, gexpr2 W (S n) (St (TkId x :: TkAt :: r) es) = Fin (None, St (TkNone :: tl r) (es ++ e ++ [Err MIdent]))).
    { intros H n es. cbn [gexpr2 cur toks]. unfold next. cbn [toks evts tl]. rewrite GN. unfold note. cbn [toks evts]. rewrite app_assoc. destruct r as [|[] r]; try reflexivity. destruct H. }
    destruct r as [|t r]; [right; apply BAD, EXE; exact Logic.I|]. destruct t; try (right; apply BAD, EXE; exact Logic.I).
    left. destruct (special W x0) as [y|] eqn:SP.
    + exists [TkId x; TkAt; TkId x0], r, (Bin WRT (Name s) (Name y)), e. split; [reflexivity|]. eapply ga_at; eauto.
    + exists [TkId x; TkAt; TkId x0], r, (Name s), (e ++ [Warn]). split; [reflexivity|]. eapply ga_bad; eauto.
Qed.
Lemma g_silent : forall b k l rest a er, gram G b k l rest a er -> Forall (fun e => forall m, e <> Err m) er.
Proof.
  intros b k l rest a er H. induction H as [| | | | |l rest a e A]; auto; [apply Forall_app; auto|]. cbn in A.
  assert (GN : forall x s e, gname W x s e -> Forall (fun e => forall m, e <> Err m) e) by (intros x s e0 [(_ & _ & ->)|(_ & _ & ->)]; repeat constructor; discriminate).
  destruct A; eauto. apply Forall_app. split; eauto. repeat constructor. discriminate.
Qed.
Lemma gas_accepts : forall l rest a er, gram G true 0 l rest a er -> exists e, gas_expr W (l ++ rest) = Fin (Some e, St rest er) /\ denotes a e.
Proof.
  intros l rest a er H. unfold gas_expr. cbv zeta. rewrite gexpr_lev. change 3%nat with (tight G - 0)%nat. apply (accepts G _ gafter gpmsg gK g_rt g_ix eq_refl); [cbn; lia|exact g_hp|exact g_hq|exact g_ha|exact H].
Qed.
Lemma gas_verdict : forall l,
  (exists e pre rest a er, gas_expr W l = Fin (Some e, St rest er) /\ l = pre ++ rest /\ gram G true 0 pre rest a er /\ denotes a e) \/
  (exists left er, gas_expr W l = Fin (None, St left er) /\ gbad l left er /\ forall pre rest a er, l = pre ++ rest -> ~ gram G true 0 pre rest a er).
Proof.
  intros l. unfold gas_expr. cbv zeta. rewrite gexpr_lev. change 3%nat with (tight G - 0)%nat. apply (verdict G _ gafter gpmsg gK gbad g_rt g_ix eq_refl); [cbn; lia|exact g_hp|exact g_hq|exact g_ha|exact g_hc| | | | |cbn; lia].
  - intros t f l0 left er _ B. unfold gpmsg. rewrite app_nil_r. exact B.
  - intros l0 left er B. unfold gpmsg. rewrite app_nil_r. exact B.
  - intros pre r a er H _. exists er, [Err MParen]. split; [reflexivity|]. split; [eapply g_silent; eauto|cbn; auto].
  - intros t k o pre r a er left er' I H (ok & last & -> & H1 & H2). unfold gafter. rewrite app_nil_r. exists (er ++ ok), last. split; [apply app_assoc|]. split; [apply Forall_app; split; [eapply g_silent; eauto|exact H1]|exact H2].
Qed.
End Gas.

(** * Printing *)
Definition calm (G : grammar) (k : nat) (rest : list token) : Prop := match rest with t :: _ => t <> TkAt /\ match infix G t with Some (j, _) => (j < k)%nat | None => True end | [] => True end.
Section Print.
Variables (G : grammar) (dyad monad : op -> token) (text : Z -> list Z).
Hypothesis RT : forall k, (k < tight G)%nat -> right G k = S k \/ right G k = tight G.
Hypothesis IX : forall t k o, infix G t = Some (k, o) -> (k < tight G)%nat /\ t <> TkAt.
Hypothesis TP : (top G <= tight G)%nat.
Hypothesis RP : infix G TkRParen = None.
Notation pr := (print G dyad monad text).
Lemma calm_le : forall j k l, (j <= k)%nat -> calm G j l -> calm G k l.
Proof. intros j k [|t l] H C; cbn in *; auto. destruct C as [C1 C2]. split; auto. destruct (infix G t) as [[i o]|]; auto. lia. Qed.
Lemma calm_stop : forall j k l, (j <= k)%nat -> calm G j l -> stop G k l.
Proof. intros j k [|t l] H C; cbn in *; auto. destruct C as [_ C]. destruct (infix G t) as [[i o]|]; auto. lia. Qed.
Lemma lift : forall d k l rest a e, (k + d <= tight G)%nat -> calm G k rest -> gram G true (k + d) l rest a e -> gram G true k l rest a e.
Proof.
  induction d as [|d IH]; intros k l rest a e L C H; [rewrite Nat.add_0_r in H; exact H|].
  apply g_end; [|apply (calm_stop k); auto]. apply g_one; [lia|]. apply IH; [lia|apply (calm_le k); auto|]. replace (S k + d)%nat with (k + S d)%nat by lia. exact H.
Qed.
Lemma lift_to : forall j k l rest a e, (k <= j <= tight G)%nat -> calm G k rest -> gram G true j l rest a e -> gram G true k l rest a e.
Proof. intros j k l rest a e L C H. apply (lift (j - k)); [lia|exact C|]. replace (k + (j - k))%nat with j by lia. exact H. Qed.
Definition quiet (e : list event) : Prop := Forall (fun x => exists y, x = Use y) e.
Lemma print_gram : forall a, printable G dyad monad text a ->
  (forall k rest, (k <= tight G)%nat -> calm G k rest -> exists e, gram G true k (pr k a) rest a e /\ quiet e) /\
  (forall k rest, (k < tight G)%nat -> calm G (S k) rest -> exists e, gram G false k (pr k a) rest a e /\ quiet e).
Proof.
  assert (UP : forall a p, (forall k, pr k a = p) -> (forall rest, calm G (tight G) rest -> exists e, gram G true (tight G) p rest a e /\ quiet e) ->
    (forall k rest, (k <= tight G)%nat -> calm G k rest -> exists e, gram G true k (pr k a) rest a e /\ quiet e) /\ (forall k rest, (k < tight G)%nat -> calm G (S k) rest -> exists e, gram G false k (pr k a) rest a e /\ quiet e)).
  { intros a p P H. split; intros k rest L C; rewrite P.
    - destruct (H rest (calm_le k _ _ L C)) as (e & GR & Q). exists e. split; [|exact Q]. apply (lift_to (tight G)); auto.
    - destruct (H rest (calm_le (S k) _ _ L C)) as (e & GR & Q). exists e. split; [|exact Q]. apply g_one; [exact L|]. apply (lift_to (tight G)); auto. }
  assert (NA : forall k rest, calm G k rest -> ~ at_next rest) by (intros k [|[] rest] C H; try destruct H; destruct C as [C _]; congruence).
  assert (AT : forall a, (forall k, pr k a = pr 0%nat a) -> (forall rest, ~ at_next rest -> exists e, atom G (pr 0%nat a) rest a e /\ quiet e) ->
    (forall k rest, (k <= tight G)%nat -> calm G k rest -> exists e, gram G true k (pr k a) rest a e /\ quiet e) /\ (forall k rest, (k < tight G)%nat -> calm G (S k) rest -> exists e, gram G false k (pr k a) rest a e /\ quiet e)).
  { intros a P H. apply (UP a (pr 0%nat a) P). intros rest C. destruct (H rest (NA _ _ C)) as (e & A & Q). exists e. split; [|exact Q]. apply g_atom; exact A. }
  induction a as [n|s|r|b f|w|o a IHa c IHc|o a IHa|a IHa|a IHa]; intros P; cbn [printable] in P; try (apply AT; [reflexivity|exact P]).
  - destruct P as ((n & I & TN) & P1 & P2). destruct (IHa P1) as [_ A]. destruct (IHc P2) as [B _]. clear IHa IHc. destruct (IX _ _ _ I) as [NT NAT].
    assert (R : (S n <= right G n <= tight G)%nat) by (destruct (RT n NT); lia).
    assert (X : forall rest, calm G (S n) rest -> exists e, gram G false n (pr n a ++ dyad o :: pr (right G n) c) rest (Bin o a c) e /\ quiet e).
    { intros rest C. destruct (B (right G n) rest (proj2 R) (calm_le (S n) (right G n) rest (proj1 R) C)) as (e2 & G2 & Q2). destruct (A n (dyad o :: pr (right G n) c ++ rest) NT) as (e1 & G1 & Q1); [cbn; rewrite I; split; [exact NAT|lia]|].
      exists (e1 ++ e2). split; [|apply Forall_app; auto]. eapply g_bin; eauto. }
    assert (PA : forall rest, exists e, gram G true (tight G) (TkLParen :: (pr n a ++ dyad o :: pr (right G n) c) ++ [TkRParen]) rest (Bin o a c) e /\ quiet e).
    { intros rest. assert (C0 : forall k, calm G k (TkRParen :: rest)) by (intros k; cbn; rewrite RP; split; [discriminate|exact Logic.I]). destruct (X (TkRParen :: rest) (C0 _)) as (e & GR & Q). exists e. split; [|exact Q]. apply g_paren. apply (lift_to n); [lia|apply C0|]. apply g_end; [exact GR|]. cbn. rewrite RP. exact Logic.I. }
    cbn [print]. rewrite I. unfold parens. split; intros k rest L C.
    + destruct (Nat.ltb_spec n k).
      * destruct (PA rest) as (e & GR & Q). exists e. split; [|exact Q]. apply (lift_to (tight G)); auto.
      * destruct (X rest (calm_le k (S n) rest ltac:(lia) C)) as (e & GR & Q). exists e. split; [|exact Q]. apply (lift_to n); [lia|exact C|]. apply g_end; [exact GR|]. apply (calm_stop k); auto.
    + destruct (Nat.ltb_spec n k).
      * destruct (PA rest) as (e & GR & Q). exists e. split; [|exact Q]. apply g_one; [exact L|]. apply (lift_to (tight G)); auto.
      * destruct (Nat.eq_dec n k) as [<-|NK]; [apply X; exact C|]. destruct (X rest (calm_le (S k) (S n) rest ltac:(lia) C)) as (e & GR & Q). exists e. split; [|exact Q]. apply g_one; [exact L|]. apply (lift_to n); [lia|exact C|]. apply g_end; [exact GR|]. apply (calm_stop (S k)); auto. lia.
  - destruct P as [PX P]. destruct (IHa P) as [A _]. apply (UP _ (monad o :: pr (tight G) a)); [reflexivity|]. intros rest C. destruct (A (tight G) rest ltac:(lia) C) as (e & GR & Q). exists e. split; [|exact Q]. apply (g_pre G _ (Un o)); auto.
  - destruct P as [PX P]. destruct (IHa P) as [A _]. apply (UP _ (TkLow :: pr (tight G) a)); [reflexivity|]. intros rest C. destruct (A (tight G) rest ltac:(lia) C) as (e & GR & Q). exists e. split; [|exact Q]. apply (g_pre G _ Low); auto.
  - destruct P as [PX P]. destruct (IHa P) as [A _]. apply (UP _ (TkHigh :: pr (tight G) a)); [reflexivity|]. intros rest C. destruct (A (tight G) rest ltac:(lia) C) as (e & GR & Q). exists e. split; [|exact Q]. apply (g_pre G _ High); auto.
Qed.
End Print.
Lemma nasm_print : forall W ty b text a rest, wok W -> printable (nasm W ty) tok2 tok1 text a -> calm (nasm W ty) (entry ty b) rest ->
  exists e er, nasm_parse W ty b (print (nasm W ty) tok2 tok1 text (entry ty b) a ++ rest) = Fin (Some e, St rest er) /\ quiet er /\ denotes a e.
Proof.
  intros W ty b text a rest WO P C. destruct (print_gram (nasm W ty) tok2 tok1 text) with (a := a) as [A _]; auto.
  - intros k _. cbn. destruct (Nat.eqb_spec k 1); auto.
  - intros t k o H. cbn in *. destruct t; try discriminate H; injection H as <- <-; split; (lia || discriminate).
  - cbn. destruct ty; cbn; lia.
  - destruct (A (entry ty b) rest) as (er & GR & Q); [destruct b; cbn; [lia|destruct ty; cbn; lia]|exact C|]. destruct (nasm_accepts W ty WO b _ _ _ _ GR) as (e & EQ & D). exists e, er. auto.
Qed.
Lemma gas_print : forall W text a rest, printable (gas W) tok2 tok1 text a -> calm (gas W) 0 rest ->
  exists e er, gas_expr W (print (gas W) tok2 tok1 text 0 a ++ rest) = Fin (Some e, St rest er) /\ quiet er /\ denotes a e.
Proof.
  intros W text a rest P C. destruct (print_gram (gas W) tok2 tok1 text) with (a := a) as [A _]; auto.
  - intros t k o H. cbn in *. destruct t; try discriminate H; injection H as <- <-; split; (lia || discriminate).
  - cbn. lia.
  - destruct (A 0%nat rest ltac:(cbn; lia) C) as (er & GR & Q). destruct (gas_accepts W _ _ _ _ GR) as (e & EQ & D). exists e, er. auto.
Qed.
(** * What the theorems say *)
Lemma nasm_total : forall W ty, wok W -> forall b l,
  (exists e pre rest a er, nasm_parse W ty b l = Fin (Some e, St rest er) /\ l = pre ++ rest /\ gram (nasm W ty) true (entry ty b) pre rest a er /\ denotes a e) \/
  (exists left er, nasm_parse W ty b l = Fin (None, St left er) /\ forall pre rest a er, l = pre ++ rest -> ~ gram (nasm W ty) true (entry ty b) pre rest a er).
Proof. intros W ty H b l. destruct (nasm_verdict W ty H b l) as [X|(lf & er & E & _ & X)]; [left; exact X|right; exists lf, er; auto]. Qed.
Lemma nasm_message : forall W ty, wok W -> forall b l left er, nasm_parse W ty b l = Fin (None, St left er) ->
  (left = l /\ er = [] /\ ~ begins ty l) \/ (exists ok m more, er = ok ++ Err m :: more /\ Forall harmless ok /\ culprit ty l left m).
Proof. intros W ty H b l left er E. destruct (nasm_verdict W ty H b l) as [(e & pre & rest & a & er' & E' & _)|(left' & er' & E' & B & _)]; rewrite E in E'; [discriminate E'|]. injection E' as <- <-. exact B. Qed.
Lemma nasm_misnamed : forall W ty b t, wok W -> In t [TkColon; TkWrt; TkOr; TkXor; TkAnd] -> (t = TkWrt -> ty <> DIR \/ b = true) -> (t = TkColon -> ty <> DIR /\ b = false) ->
  exists k o more, ninfix t = Some (k, o) /\ 0 <= code o <= 32 /\ nasm_parse W ty b [TkNum (IL 1); t] = Fin (None, St [] (Err (MAfterCode (code o)) :: more)).
Proof.
  intros W ty b t _ I D D0. cbn in I. destruct I as [<-|[<-|[<-|[<-|[<-|[]]]]]]; eexists; eexists; exists []; (split; [reflexivity|]); (split; [cbn; lia|]);
  destruct b, ty; try reflexivity; try (destruct (D0 eq_refl) as [X Y]; try discriminate Y; destruct (X eq_refl)); destruct (D eq_refl) as [X|X]; try discriminate X; destruct (X eq_refl).
Qed.
