(** The preprocessor's expression parser follows its grammar (C46). *)
From Coq Require Import ZArith List Bool Lia Arith.
From Verif Require Import Lib M_BitVect M_Intnum P_Intnum P_IntnumIO M_Expr P_Expr P_ExprLevel P_ExprTree P_ExprTop P_ExprUse M_NasmEval.
Import ListNotations.
Open Scope Z_scope.

(** * Specification *)
(** Expressions: integers, symbols of the assembler, operators *)
Inductive ast := Lit (n : intnum) | Name (s : Z) | Bin (o : op) (a b : ast) | Neg (a : ast) | Not (a : ast).
(** The binary operators, from the loosest (0) to the tightest (9) *)
Definition binop (t : token) : option (nat * op) :=
  match t with
  | TkDblOr => Some (0%nat, LOR) | TkDblXor => Some (1%nat, LXOR) | TkDblAnd => Some (2%nat, LAND)
  | TkEq => Some (3%nat, EQ) | TkNe => Some (3%nat, NE) | TkLt => Some (3%nat, LT) | TkGt => Some (3%nat, GT) | TkLe => Some (3%nat, LE) | TkGe => Some (3%nat, GE)
  | TkOr => Some (4%nat, OR) | TkXor => Some (5%nat, XOR) | TkAnd => Some (6%nat, AND)
  | TkShl => Some (7%nat, SHL) | TkShr => Some (7%nat, SHR)
  | TkPlus => Some (8%nat, ADD) | TkMinus => Some (8%nat, SUB)
  | TkMul => Some (9%nat, MUL) | TkDiv => Some (9%nat, DIV) | TkMod => Some (9%nat, MOD) | TkSDiv => Some (9%nat, SIGNDIV) | TkSMod => Some (9%nat, SIGNMOD)
  | _ => None
  end.
(** The loosest operator allowed: only %if-like directives take the relational and logical ones *)
Definition loosest (critical : bool) : nat := if critical then 0%nat else 4%nat.
(** The grammar: a text, the expression it stands for, and the errors it causes.  Operators of a level associate to the left;
    $, $$ and names that are not known stand for 1. *)
Inductive gram (symtab : option (Z -> option Z)) (critical : bool) : nat -> list token -> ast -> list err -> Prop :=
| g_bin : forall n l t r o a b e e', binop t = Some (n, o) -> gram symtab critical n l a e -> gram symtab critical (S n) r b e' -> gram symtab critical n (l ++ t :: r) (Bin o a b) (e ++ e')
| g_up : forall n l a e, (n < 10)%nat -> gram symtab critical (S n) l a e -> gram symtab critical n l a e
| g_neg : forall l a e, gram symtab critical 10 l a e -> gram symtab critical 10 (TkMinus :: l) (Neg a) e
| g_not : forall l a e, gram symtab critical 10 l a e -> gram symtab critical 10 (TkNot :: l) (Not a) e
| g_pos : forall l a e, gram symtab critical 10 l a e -> gram symtab critical 10 (TkPlus :: l) a e
| g_seg : forall l a e, gram symtab critical 10 l a e -> gram symtab critical 10 (TkSeg :: l) a (e ++ [ESeg])
| g_paren : forall l a e, gram symtab critical (loosest critical) l a e -> gram symtab critical 10 (TkLParen :: l ++ [TkRParen]) a e
| g_num : forall n, gram symtab critical 10 [TkNum n] (Lit n) []
| g_sym : forall get x y, symtab = Some get -> get x = Some y -> gram symtab critical 10 [TkId x] (Name y) []
| g_undef : forall get x, symtab = Some get -> get x = None -> gram symtab critical 10 [TkId x] (Lit (IL 1)) [EUndef x]
| g_nosym : forall x, symtab = None -> gram symtab critical 10 [TkId x] (Lit (IL 1)) [ERef (TkId x)]
| g_here : gram symtab critical 10 [TkHere] (Lit (IL 1)) [ERef TkHere]
| g_base : gram symtab critical 10 [TkBase] (Lit (IL 1)) [ERef TkBase].
(** No operator of level [k] or tighter follows *)
Definition follow (k : nat) (l : list token) : Prop := match l with t :: _ => match binop t with Some (j, _) => (j < k)%nat | None => True end | [] => True end.
(** The value of an expression, symbols having those of [E] *)
Fixpoint aev (E : env) (a : ast) : option value :=
  match a with
  | Lit n => ev E (TInt n)
  | Name s => ev E (TSym s)
  | Bin o a b => match aev E a, aev E b with Some x, Some y => opsem E o [x; y] | _, _ => None end
  | Neg a => match aev E a with Some x => opsem E NEG [x] | None => None end
  | Not a => match aev E a with Some x => opsem E NOT [x] | None => None end
  end.
(** The value of an expression of integers without division by zero or overflowing product *)
Inductive cval : ast -> Z -> Prop :=
| c_lit : forall n, canon n -> cval (Lit n) (ival n)
| c_bin : forall o a b x y m, cval a x -> cval b y -> meaning o x y = Some m -> (o = MUL -> mul_safe x y) -> cval (Bin o a b) (wrap256 m)
| c_neg : forall a x, cval a x -> cval (Neg a) (wrap256 (- x))
| c_not : forall a x, cval a x -> cval (Not a) (wrap256 (- x - 1)).
(** The expression built for [a] *)
Definition denotes (a : ast) (e : expr) : Prop :=
  good (eitem e) /\ (forall E v, aev E a = Some v -> eval E e = Some v) /\ (forall z, cval a z -> exists n, e = (IDENT, [TInt n]) /\ canon n /\ ival n = z).
(** The text of an expression with the fewest parentheses, in a place that takes level [k] *)
Definition optok (o : op) : option (nat * token) :=
  match o with
  | LOR => Some (0%nat, TkDblOr) | LXOR => Some (1%nat, TkDblXor) | LAND => Some (2%nat, TkDblAnd)
  | EQ => Some (3%nat, TkEq) | NE => Some (3%nat, TkNe) | LT => Some (3%nat, TkLt) | GT => Some (3%nat, TkGt) | LE => Some (3%nat, TkLe) | GE => Some (3%nat, TkGe)
  | OR => Some (4%nat, TkOr) | XOR => Some (5%nat, TkXor) | AND => Some (6%nat, TkAnd)
  | SHL => Some (7%nat, TkShl) | SHR => Some (7%nat, TkShr) | ADD => Some (8%nat, TkPlus) | SUB => Some (8%nat, TkMinus)
  | MUL => Some (9%nat, TkMul) | DIV => Some (9%nat, TkDiv) | MOD => Some (9%nat, TkMod) | SIGNDIV => Some (9%nat, TkSDiv) | SIGNMOD => Some (9%nat, TkSMod)
  | _ => None
  end.
Definition parens (b : bool) (l : list token) : list token := if b then TkLParen :: l ++ [TkRParen] else l.
Fixpoint print (k : nat) (a : ast) : list token :=
  match a with
  | Lit n => [TkNum n]
  | Name s => [TkId s]
  | Bin o a b => match optok o with Some (n, t) => parens (n <? k)%nat (print n a ++ t :: print (S n) b) | None => [] end
  | Neg a => TkMinus :: print 10 a
  | Not a => TkNot :: print 10 a
  end.
(** Operators of the table, not looser than [k]; names that the symbol table has under the same number *)
Fixpoint printable (get : Z -> option Z) (k : nat) (a : ast) : Prop :=
  match a with
  | Lit _ => True
  | Name s => get s = Some s
  | Bin o a b => match optok o with Some (n, _) => (k <= n)%nat | None => False end /\ printable get k a /\ printable get k b
  | Neg a | Not a => printable get k a
  end.

(** * Building *)
Lemma lit_ok : forall t, is_expr t = false -> t <> TNone -> exists e, ident t = Fin e /\ e = (IDENT, [t]).
Proof. intros t X N. exists (IDENT, [t]). split; auto. destruct t; try discriminate X; try (destruct (N eq_refl)); reflexivity. Qed.
Definition binary (o : op) : bool := match optok o with Some _ => true | None => false end.
Lemma binop_binary : forall t n o, binop t = Some (n, o) -> binary o = true /\ (n < 10)%nat.
Proof. intros t n o H; destruct t; try discriminate H; injection H as <- <-; split; (reflexivity || lia). Qed.
Lemma fold2 : forall o a b, binary o = true -> tree o (IDENT, [TInt a]) (IDENT, [TInt b]) = Fin (IDENT, [TInt (ical a o (Some b))]).
Proof.
  intros o a b B. unfold tree, as_item, create. cbn [fst snd strip].
  destruct o; try discriminate B; cbv -[ical is_zero is_pos1 is_neg1]; try reflexivity; match goal with |- context [ical ?a ?o ?b] => set (n := ical a o b); clearbody n end;
  destruct (is_zero n); try reflexivity; destruct (is_pos1 n); try reflexivity; destruct (is_neg1 n); reflexivity.
Qed.
Lemma fold1 : forall o a, o = NEG \/ o = NOT -> branch o (IDENT, [TInt a]) = Fin (IDENT, [TInt (ical a o None)]).
Proof. intros o a [->| ->]; cbv -[ical is_zero is_pos1 is_neg1]; reflexivity. Qed.
Lemma denotes_lit : forall n, denotes (Lit n) (IDENT, [TInt n]).
Proof.
  intros n. split; [|split].
  - apply good_expr. repeat split; repeat constructor; discriminate.
  - intros E v H. unfold eval. cbn [fst snd ev map aev] in *. cbn [all]. destruct (canonb n); [|discriminate H]. injection H as <-. reflexivity.
  - intros z H. inversion H; subst. exists n. auto.
Qed.
Lemma denotes_name : forall s, denotes (Name s) (IDENT, [TSym s]).
Proof.
  intros s. split; [|split].
  - apply good_expr. repeat split; repeat constructor; discriminate.
  - intros E v H. unfold eval. cbn [fst snd ev map aev] in *. cbn [all]. destruct (option_map wrapv (symv E s)); [|discriminate H]. injection H as <-. reflexivity.
  - intros z H. inversion H.
Qed.
Lemma tree_ok : forall o a b e f, binary o = true -> denotes a e -> denotes b f -> exists g, tree o e f = Fin g /\ denotes (Bin o a b) g.
Proof.
  intros o a b e f B (G1 & V1 & C1) (G2 & V2 & C2). unfold tree.
  assert (AR : arity o 2) by (destruct o; try discriminate B; cbn; lia).
  destruct (create_ok o (as_item e) (Some (as_item f)) G1 G2 AR ltac:(intros ->; discriminate B)) as (g & H & G & V).
  exists g. split; [exact H|]. split; [exact G|]. split.
  - intros E v X. cbn [aev] in X. destruct (aev E a) as [x|] eqn:XA; [|discriminate X]. destruct (aev E b) as [y|] eqn:XB; [|discriminate X]. apply V. unfold eval, as_item. cbn [fst snd]. cbn [ev map].
    fold (ev E (TExpr (fst e) (snd e))). specialize (V1 _ _ XA). specialize (V2 _ _ XB). unfold eval in V1, V2. cbn [ev] in V1, V2. rewrite V1, V2. exact X.
  - intros z X. inversion X as [|? ? ? x y m XA XB M S| |]; subst. destruct (C1 _ XA) as (n1 & -> & N1 & N2). destruct (C2 _ XB) as (n2 & -> & N3 & N4). subst x y.
    destruct (calc_ok scratch n1 o n2 m N1 N3 M S) as (r & CR & CN & CV). pose proof (fold2 o n1 n2 B) as Q. unfold tree in Q. rewrite Q in H. injection H as <-. exists r. unfold ical. rewrite CR. auto.
Qed.
Lemma branch_ok : forall o (mk : ast -> ast) a e, (o = NEG /\ mk = Neg) \/ (o = NOT /\ mk = Not) -> denotes a e -> exists g, branch o e = Fin g /\ denotes (mk a) g.
Proof.
  intros o mk a e K (G1 & V1 & C1). assert (K' : o = NEG \/ o = NOT) by tauto. unfold branch.
  destruct (create_ok o (as_item e) None G1 Logic.I ltac:(destruct K' as [->| ->]; reflexivity) ltac:(intros ->; destruct K'; discriminate)) as (g & H & G & V).
  exists g. split; [exact H|]. split; [exact G|]. split.
  - intros E v X. assert (XX : exists x, aev E a = Some x /\ opsem E o [x] = Some v) by (destruct K as [[-> ->]|[-> ->]]; cbn [aev] in X; destruct (aev E a) as [x|]; try discriminate X; eauto).
    destruct XX as (x & XA & XO). apply V. unfold eval, as_item. cbn [fst snd]. cbn [ev map]. specialize (V1 _ _ XA). unfold eval in V1. cbn [ev] in V1. rewrite V1. exact XO.
  - intros z X. assert (XX : exists x m, cval a x /\ meaning o x 0 = Some m /\ z = wrap256 m) by (destruct K as [[-> ->]|[-> ->]]; inversion X; subst; eexists; eexists; split; [eassumption|split; reflexivity|eassumption|split; reflexivity]).
    destruct XX as (x & m & XA & M & ->). destruct (C1 _ XA) as (n1 & -> & N1 & N2). subst x. destruct (calc_unary scratch n1 o m N1 ltac:(tauto) M) as (r & CR & CN & CV).
    pose proof (fold1 o n1 K') as Q. unfold branch in Q. rewrite Q in H. injection H as <-. exists r. unfold ical. rewrite CR. auto.
Qed.

(** * The functions by level *)
Definition ops (k : nat) (t : token) : option op := match binop t with Some (j, o) => if (j =? k)%nat then Some o else None | None => None end.
(** [lev d] is the function [d] levels above expr6 *)
Fixpoint lev (n : nat) (e6 : st -> out) (d : nat) : st -> out := match d with O => e6 | S d' => level n (ops (10 - S d')) (lev n e6 d') end.
Lemma bind_ext : forall r f g, (forall e s, f e s = g e s) -> bind r f = bind r g.
Proof. intros [[[e|] s]| |] f g H; cbn [bind]; auto. Qed.
Lemma bind_id : forall r, bind r (fun e s => Fin (Some e, s)) = r.
Proof. intros [[[e|] s]| |]; reflexivity. Qed.
Lemma loop_ext : forall o1 o2 f1 f2, (forall t, o1 t = o2 t) -> (forall s, f1 s = f2 s) -> forall n e s, loop n o1 f1 e s = loop n o2 f2 e s.
Proof.
  intros o1 o2 f1 f2 O F. induction n as [|n IH]; intros e s; [reflexivity|]. cbn [loop]. rewrite O. destruct (o2 (cur s)) as [o|]; auto. rewrite F. apply bind_ext. intros f s1. destruct (tree o e f); cbn [made]; auto.
Qed.
Lemma level_ext : forall n o1 o2 f1 f2, (forall t, o1 t = o2 t) -> (forall s, f1 s = f2 s) -> forall s, level n o1 f1 s = level n o2 f2 s.
Proof. intros n o1 o2 f1 f2 O F s. unfold level. rewrite F. apply bind_ext. intros e s1. apply loop_ext; auto. Qed.
Lemma bexpr_lev : forall n e6 c s, bexpr n e6 c s = lev n e6 (10 - loosest c) s.
Proof.
  intros n e6 c s. destruct c; cbn [bexpr loosest Nat.sub lev]; [unfold rexp0, rexp1, rexp2, rexp3, expr0, expr1, expr2, expr3, expr4, expr5|unfold expr0, expr1, expr2, expr3, expr4, expr5];
  repeat (apply level_ext; [intros []; reflexivity|intros ?]); reflexivity.
Qed.
Lemma follow_le : forall j k l, (j <= k)%nat -> follow j l -> follow k l.
Proof. intros j k [|t l] H F; cbn in *; auto. destruct (binop t) as [[i o]|]; auto. lia. Qed.
Lemma ops_none : forall k l, follow k l -> forall es, ops k (cur (St l es)) = None.
Proof. intros k [|t l] F es; cbn [cur toks follow] in *; [reflexivity|]. unfold ops. destruct (binop t) as [[j o]|]; auto. destruct (Nat.eqb_spec j k); [lia|reflexivity]. Qed.
Lemma ops_follow : forall k l es, follow (S k) l -> ops k (cur (St l es)) = None -> follow k l.
Proof. intros k [|t l] es F O; cbn [cur toks follow] in *; auto. unfold ops in O. destruct (binop t) as [[j o]|]; auto. destruct (Nat.eqb_spec j k); [discriminate O|lia]. Qed.

Section Parse.
Variables (symtab : option (Z -> option Z)) (critical : bool).
Notation G := (gram symtab critical).
Notation e6 := (expr6 symtab critical).
Notation b := (loosest critical).
Lemma b10 : (b <= 4)%nat. Proof. destruct critical; cbn; lia. Qed.

(** * A grammatical text is read as what it stands for *)
Definition reads_as (k : nat) (l : list token) (a : ast) (er : list err) : Prop :=
  (k <= 10)%nat /\ forall n rest es, (length (l ++ rest) < n)%nat ->
  (k = 10%nat -> exists e, e6 n (St (l ++ rest) es) = Fin (Some e, St rest (es ++ er)) /\ denotes a e) /\
  (forall d, (k + S d = 10)%nat -> follow (S k) rest -> exists e m, (length rest < m)%nat /\ denotes a e /\
     lev n (e6 n) (S d) (St (l ++ rest) es) = loop m (ops k) (lev n (e6 n) d) e (St rest (es ++ er))).
Lemma reads_done : forall k l a er d n rest es, reads_as k l a er -> (k + d = 10)%nat -> (length (l ++ rest) < n)%nat -> follow k rest ->
  exists e, lev n (e6 n) d (St (l ++ rest) es) = Fin (Some e, St rest (es ++ er)) /\ denotes a e.
Proof.
  intros k l a er d n rest es (_ & R) D L F. destruct (R n rest es L) as [R1 R2]. destruct d as [|d].
  - cbn [lev]. apply R1. lia.
  - destruct (R2 d D (follow_le k (S k) rest ltac:(lia) F)) as (e & m & M & DE & EQ). exists e. split; auto. rewrite EQ. destruct m; [lia|]. cbn [loop]. rewrite (ops_none _ _ F). reflexivity.
Qed.
Lemma reads_paren : forall l a er d n rest es, reads_as b l a er -> (d = 10 - b)%nat -> (length (l ++ TkRParen :: rest) < n)%nat ->
  exists e, lev n (e6 n) d (St (l ++ TkRParen :: rest) es) = Fin (Some e, St (TkRParen :: rest) (es ++ er)) /\ denotes a e.
Proof. intros l a er d n rest es R D L. eapply reads_done; [exact R| |exact L|exact Logic.I]. pose proof b10. lia. Qed.
Lemma not_up : forall l a er, (forall n rest es, (length (l ++ rest) < n)%nat -> exists e, e6 n (St (l ++ rest) es) = Fin (Some e, St rest (es ++ er)) /\ denotes a e) -> reads_as 10 l a er.
Proof. intros l a er H. split; [lia|]. intros n rest es L. split; [intros _; apply H; auto|intros d D; lia]. Qed.
Lemma gram_reads : forall k l a er, G k l a er -> reads_as k l a er.
Proof.
  intros k l a er H. induction H as [k l t r o a c e e' T H1 IH1 H2 IH2|k l a e K H IH|l a e H IH|l a e H IH|l a e H IH|l a e H IH|l a e H IH|x|get x y S X|get x S X|x S| |].
  - destruct (binop_binary _ _ _ T) as [BO K]. split; [lia|]. intros n rest es L. split; [lia|]. intros d D F. rewrite <- app_assoc, <- app_comm_cons in L |- *.
    destruct IH1 as [_ IH1]. destruct (IH1 n (t :: r ++ rest) es L) as [_ IH1']. destruct (IH1' d D) as (e1 & m & M & DE & EQ); [cbn; rewrite T; lia|].
    rewrite EQ. destruct m as [|m]; [lia|]. cbn [length] in M. rewrite app_length in M. cbn [loop cur toks]. unfold ops at 1. rewrite T, Nat.eqb_refl. unfold next. cbn [toks errs tl].
    assert (L2 : (length (r ++ rest) < n)%nat) by (rewrite app_length in L; cbn [length] in L; lia).
    destruct (reads_done _ _ _ _ d n rest (es ++ e) IH2 ltac:(lia) L2 F) as (f & EQ2 & DF). rewrite EQ2. cbn [bind]. destruct (tree_ok o a c e1 f BO DE DF) as (g & TG & DG). rewrite TG. cbn [made].
    exists g, m. rewrite <- app_assoc. split; [lia|]. auto.
  - split; [lia|]. intros n rest es L. split; [lia|]. intros d D F. destruct (reads_done _ _ _ _ d n rest es IH ltac:(lia) L F) as (f & EQ & DF). exists f, n. split; [rewrite app_length in L; lia|]. split; auto.
    cbn [lev]. unfold level. rewrite EQ. cbn [bind]. replace (10 - S d)%nat with k by lia. reflexivity.
  - apply not_up. intros n rest es L. destruct n as [|n]; [lia|]. cbn [expr6 cur toks app]. unfold next. cbn [toks errs tl]. cbn [app length] in L.
    destruct IH as [_ IH]. destruct (IH n rest es ltac:(lia)) as [IH1 _]. destruct (IH1 eq_refl) as (e1 & -> & D1). cbn [bind]. destruct (branch_ok NEG Neg a e1 ltac:(auto) D1) as (g & -> & DG). exists g. auto.
  - apply not_up. intros n rest es L. destruct n as [|n]; [lia|]. cbn [expr6 cur toks app]. unfold next. cbn [toks errs tl]. cbn [app length] in L.
    destruct IH as [_ IH]. destruct (IH n rest es ltac:(lia)) as [IH1 _]. destruct (IH1 eq_refl) as (e1 & -> & D1). cbn [bind]. destruct (branch_ok NOT Not a e1 ltac:(auto) D1) as (g & -> & DG). exists g. auto.
  - apply not_up. intros n rest es L. destruct n as [|n]; [lia|]. cbn [expr6 cur toks app]. unfold next. cbn [toks errs tl]. cbn [app length] in L.
    destruct IH as [_ IH]. destruct (IH n rest es ltac:(lia)) as [IH1 _]. exact (IH1 eq_refl).
  - apply not_up. intros n rest es L. destruct n as [|n]; [lia|]. cbn [expr6 cur toks app]. unfold next. cbn [toks errs tl]. cbn [app length] in L.
    destruct IH as [_ IH]. destruct (IH n rest es ltac:(lia)) as [IH1 _]. destruct (IH1 eq_refl) as (e1 & -> & D1). cbn [bind]. exists e1. unfold report. cbn [toks errs]. rewrite <- app_assoc. auto.
  - apply not_up. intros n rest es L. destruct n as [|n]; [lia|]. cbn [expr6 cur toks app]. unfold next at 1. cbn [toks errs tl]. cbn [app length] in L. rewrite <- app_assoc in L |- *. cbn [app] in L |- *. rewrite bexpr_lev.
    destruct (reads_paren _ _ _ _ n rest es IH eq_refl ltac:(lia)) as (e1 & EQ & D1). rewrite EQ. cbn [bind cur toks]. exists e1. auto.
  - apply not_up. intros n rest es L. destruct n as [|n]; [lia|]. cbn [expr6 cur toks app]. destruct (lit_ok (TInt x) eq_refl ltac:(discriminate)) as (e1 & -> & ->). cbn [made]. rewrite app_nil_r. eexists. split; [reflexivity|apply denotes_lit].
  - apply not_up. intros n rest es L. destruct n as [|n]; [lia|]. cbn [expr6 cur toks app]. rewrite S, X. destruct (lit_ok (TSym y) eq_refl ltac:(discriminate)) as (e1 & -> & ->). cbn [made]. rewrite app_nil_r. eexists. split; [reflexivity|apply denotes_name].
  - apply not_up. intros n rest es L. destruct n as [|n]; [lia|]. cbn [expr6 cur toks app]. rewrite S, X. destruct (lit_ok one eq_refl ltac:(discriminate)) as (e1 & -> & ->). cbn [made]. eexists. split; [reflexivity|apply denotes_lit].
  - apply not_up. intros n rest es L. destruct n as [|n]; [lia|]. cbn [expr6 cur toks app]. rewrite S. destruct (lit_ok one eq_refl ltac:(discriminate)) as (e1 & -> & ->). cbn [made]. eexists. split; [reflexivity|apply denotes_lit].
  - apply not_up. intros n rest es L. destruct n as [|n]; [lia|]. cbn [expr6 cur toks app]. destruct (lit_ok one eq_refl ltac:(discriminate)) as (e1 & -> & ->). cbn [made]. eexists. split; [reflexivity|apply denotes_lit].
  - apply not_up. intros n rest es L. destruct n as [|n]; [lia|]. cbn [expr6 cur toks app]. destruct (lit_ok one eq_refl ltac:(discriminate)) as (e1 & -> & ->). cbn [made]. eexists. split; [reflexivity|apply denotes_lit].
Qed.
Lemma accepts : forall pre rest a er, G b pre a er -> follow b rest -> exists e, evaluate symtab critical (pre ++ rest) = Fin (Some e, St rest er) /\ denotes a e.
Proof.
  intros pre rest a er H F. apply gram_reads in H. unfold evaluate. cbv zeta. rewrite bexpr_lev. apply (reads_done b pre a er _ _ rest [] H); auto. pose proof b10; lia.
Qed.

(** * What is read is grammatical *)
Definition result (k : nat) (s0 : st) (r : out) : Prop :=
  (exists e s pre a er, r = Fin (Some e, s) /\ toks s0 = pre ++ toks s /\ pre <> [] /\ errs s = errs s0 ++ er /\ G k pre a er /\ follow k (toks s) /\ denotes a e) \/
  (exists s er x, r = Fin (None, s) /\ errs s = errs s0 ++ er ++ [x] /\ (x = ESyntax \/ x = EParen)).
Lemma result_null : forall k s0 s1 er0 r, errs s1 = errs s0 ++ er0 -> forall s er x, r = Fin (None, s) -> errs s = errs s1 ++ er ++ [x] -> x = ESyntax \/ x = EParen -> result k s0 r.
Proof. intros k s0 s1 er0 r E s er x R ES X. right. exists s, (er0 ++ er), x. split; [exact R|]. split; [|exact X]. rewrite ES, E, <- !app_assoc. reflexivity. Qed.
Lemma loop_result : forall n d, (forall s, (length (toks s) < n)%nat -> result (10 - d) s (lev n (e6 n) d s)) -> (d < 10)%nat ->
  forall m e s s0 pre a er, (length (toks s) < m)%nat -> (length (toks s) < n)%nat -> toks s0 = pre ++ toks s -> pre <> [] -> errs s = errs s0 ++ er -> G (10 - S d) pre a er -> follow (S (10 - S d)) (toks s) -> denotes a e ->
  result (10 - S d) s0 (loop m (ops (10 - S d)) (lev n (e6 n) d) e s).
Proof.
  intros n d SUB D. induction m as [|m IH]; intros e s s0 pre a er LM LN T0 NE E0 GR FO DE; [lia|]. cbn [loop].
  destruct (ops (10 - S d) (cur s)) as [o|] eqn:OP.
  - destruct s as [l es]. unfold cur in OP. cbn [toks errs] in *. destruct l as [|t l]; [discriminate OP|]. unfold next. cbn [toks errs tl]. cbn [length] in LM, LN.
    unfold ops in OP. destruct (binop t) as [[j o']|] eqn:BT; [|discriminate OP]. destruct (Nat.eqb_spec j (10 - S d)) as [->|]; [|discriminate OP]. injection OP as ->.
    destruct (SUB (St l es)) as [(f & s1 & pre1 & a1 & er1 & R & T1 & NE1 & E1 & G1 & F1 & D1)|(s1 & er1 & x & R & E1 & X)]; [cbn [toks]; lia| |].
    + rewrite R. cbn [bind toks errs] in *. destruct (binop_binary _ _ _ BT) as [BO _]. destruct (tree_ok o a a1 e f BO DE D1) as (g & -> & DG). cbn [made].
      assert (LS : (length (toks s1) < length l)%nat) by (rewrite T1, app_length; destruct pre1; [congruence|cbn [length]; lia]).
      apply (IH g s1 s0 (pre ++ t :: pre1) (Bin o a a1) (er ++ er1)); try lia; auto.
      * rewrite T0, T1, <- app_assoc. reflexivity.
      * destruct pre; discriminate.
      * rewrite E1, E0, <- app_assoc. reflexivity.
      * apply g_bin with (n := (10 - S d)%nat); auto. replace (S (10 - S d)) with (10 - d)%nat by lia. exact G1.
      * replace (S (10 - S d)) with (10 - d)%nat by lia. exact F1.
    + cbn [errs] in E1. rewrite R. cbn [bind]. apply (result_null _ _ (St l es) er _ E0 s1 er1 x); auto.
  - left. exists e, s, pre, a, er. repeat split; try assumption; try apply DE. destruct s as [l es]. apply (ops_follow _ _ es FO OP).
Qed.
Lemma lev_result : forall n, (forall s, (length (toks s) < n)%nat -> result 10 s (e6 n s)) -> forall d, (d <= 10)%nat -> forall s, (length (toks s) < n)%nat -> result (10 - d) s (lev n (e6 n) d s).
Proof.
  intros n B6. induction d as [|d IH]; intros D s L; [apply B6; exact L|]. cbn [lev]. unfold level.
  destruct (IH ltac:(lia) s L) as [(f & s1 & pre1 & a1 & er1 & R & T1 & NE1 & E1 & G1 & F1 & D1)|(s1 & er1 & x & R & E1 & X)]; rewrite R; cbn [bind].
  - apply (loop_result n d (IH ltac:(lia)) ltac:(lia) n f s1 s pre1 a1 er1); auto.
    + rewrite T1, app_length in L. lia.
    + rewrite T1, app_length in L. lia.
    + apply g_up; [lia|]. replace (S (10 - S d)) with (10 - d)%nat by lia. exact G1.
    + replace (S (10 - S d)) with (10 - d)%nat by lia. exact F1.
  - apply (result_null _ _ s [] _ (eq_sym (app_nil_r _)) s1 er1 x); auto.
Qed.
Lemma follow10 : forall l, follow 10 l.
Proof. intros [|t l]; cbn; auto. destruct (binop t) as [[j o]|] eqn:B; auto. apply binop_binary in B. lia. Qed.
Lemma e6_result : forall n s, (length (toks s) < n)%nat -> result 10 s (e6 n s).
Proof.
  induction n as [|n IH]; intros [l es] L; [lia|]. cbn [expr6]. cbv zeta. cbn [toks] in L.
  assert (LIT : forall t r es2 ers a e x, es2 = es ++ ers -> l = t :: r -> ident x = Fin e -> denotes a e -> G 10 [t] a ers -> result 10 (St l es) (made (ident x) (fun e => Fin (Some e, St r es2)))).
  { intros t r es2 ers a e x -> -> -> DE GR. cbn [made]. left. exists e, (St r (es ++ ers)), [t], a, ers. repeat split; auto; try apply DE; try discriminate. apply follow10. }
  assert (SYN : result 10 (St l es) (Fin (None, report ESyntax (St l es)))) by (right; exists (report ESyntax (St l es)), [], ESyntax; auto).
  assert (I1 : forall x, denotes (Lit x) (IDENT, [TInt x])) by (intros; apply denotes_lit).
  assert (UN : forall t r (f : expr -> st -> out), l = t :: r ->
    (forall e s1 pre a er, r = pre ++ toks s1 -> errs s1 = es ++ er -> G 10 pre a er -> denotes a e -> exists g s2 a2 er2, f e s1 = Fin (Some g, s2) /\ toks s2 = toks s1 /\ errs s2 = es ++ er2 /\ G 10 (t :: pre) a2 er2 /\ denotes a2 g) ->
    result 10 (St l es) (bind (e6 n (St r es)) f)).
  { intros t r f -> K. cbn [length] in L. destruct (IH (St r es)) as [(e & s1 & pre1 & a1 & er1 & R & T1 & NE1 & E1 & G1 & F1 & D1)|(s1 & er1 & x & R & E1 & X)]; [cbn [toks]; lia| |]; rewrite R; cbn [bind toks errs] in *.
    - destruct (K e s1 pre1 a1 er1 T1 E1 G1 D1) as (g & s2 & a2 & er2 & -> & T2 & E2 & G2 & D2). left. exists g, s2, (t :: pre1), a2, er2. cbn [toks errs]. repeat split; auto; try apply D2; try discriminate; [rewrite T2, T1; reflexivity|apply follow10].
    - right. exists s1, er1, x. auto. }
  unfold cur, next. cbn [toks errs]. destruct l as [|t r]; [exact SYN|]. cbn [tl].
  destruct t; try exact SYN; unfold report; cbn [toks errs tl].
  - eapply LIT with (ers := []); [rewrite app_nil_r; reflexivity|reflexivity|reflexivity|apply I1|apply g_num].
  - destruct symtab as [get|] eqn:SY.
    + destruct (get s) as [y|] eqn:GS.
      * eapply LIT with (ers := []); [rewrite app_nil_r; reflexivity|reflexivity|reflexivity|apply denotes_name|eapply g_sym; eauto].
      * eapply LIT; [reflexivity|reflexivity|reflexivity|apply I1|eapply g_undef; eauto].
    + eapply LIT; [reflexivity|reflexivity|reflexivity|apply I1|eapply g_nosym; eauto].
  - eapply LIT; [reflexivity|reflexivity|reflexivity|apply I1|apply g_here].
  - eapply LIT; [reflexivity|reflexivity|reflexivity|apply I1|apply g_base].
  - eapply UN; [reflexivity|]. intros e s1 pre a er T1 E1 G1 D1. exists e, (report ESeg s1), a, (er ++ [ESeg]). repeat split; auto; try apply D1; [cbn [report errs]; rewrite E1, <- app_assoc; reflexivity|apply g_seg; auto].
  - rewrite <- (bind_id (e6 n (St r es))). eapply UN; [reflexivity|]. intros e s1 pre a er T1 E1 G1 D1. exists e, s1, a, er. repeat split; auto; try apply D1. apply g_pos; auto.
  - eapply UN; [reflexivity|]. intros e s1 pre a er T1 E1 G1 D1. destruct (branch_ok NEG Neg a e ltac:(auto) D1) as (g & -> & DG). exists g, s1, (Neg a), er. repeat split; auto; try apply DG. apply g_neg; auto.
  - eapply UN; [reflexivity|]. intros e s1 pre a er T1 E1 G1 D1. destruct (branch_ok NOT Not a e ltac:(auto) D1) as (g & -> & DG). exists g, s1, (Not a), er. repeat split; auto; try apply DG. apply g_not; auto.
  - cbn [length] in L. rewrite bexpr_lev. pose proof b10 as B10.
    destruct (lev_result n IH (10 - b) ltac:(lia) (St r es) ltac:(cbn [toks]; lia)) as [(e & s1 & pre1 & a1 & er1 & R & T1 & NE1 & E1 & G1 & F1 & D1)|(s1 & er1 & x & R & E1 & X)]; rewrite R; cbn [bind toks errs] in *.
    + replace (10 - (10 - b))%nat with b in G1 by lia. destruct s1 as [l1 es1]. unfold cur. cbn [toks errs] in *. 
      assert (BAD : result 10 (St (TkLParen :: r) es) (Fin (None, St l1 (es1 ++ [EParen])))) by (right; exists (St l1 (es1 ++ [EParen])), er1, EParen; cbn [errs]; rewrite E1, <- app_assoc; auto).
      destruct l1 as [|t1 l1]; [exact BAD|]. destruct t1; try exact BAD. cbn [tl].
      left. exists e, (St l1 es1), (TkLParen :: pre1 ++ [TkRParen]), a1, er1. cbn [toks errs]. repeat split; auto; try apply D1; try discriminate; [rewrite T1; cbn [app]; rewrite <- app_assoc; reflexivity|apply g_paren; exact G1|apply follow10].
    + right. exists s1, er1, x. auto.
Qed.
Lemma verdict : forall l,
  (exists e pre rest a er, evaluate symtab critical l = Fin (Some e, St rest er) /\ l = pre ++ rest /\ G b pre a er /\ follow b rest /\ denotes a e) \/
  (exists rest er x, evaluate symtab critical l = Fin (None, St rest (er ++ [x])) /\ (x = ESyntax \/ x = EParen) /\ forall pre rest a er, l = pre ++ rest -> G b pre a er -> ~ follow b rest).
Proof.
  intros l. pose proof b10 as B10. destruct (lev_result (S (length l)) (e6_result _) (10 - b) ltac:(lia) (St l []) ltac:(cbn [toks]; lia)) as [(e & s1 & pre1 & a1 & er1 & R & T1 & NE1 & E1 & G1 & F1 & D1)|(s1 & er1 & x & R & E1 & X)];
  rewrite <- bexpr_lev in R; change (bexpr (S (length l)) (e6 (S (length l))) critical (St l [])) with (evaluate symtab critical l) in R; destruct s1 as [rest es1]; cbn [toks errs app] in *; subst es1.
  - left. replace (10 - (10 - b))%nat with b in * by lia. exists e, pre1, rest, a1, er1. auto.
  - right. exists rest, er1, x. split; [exact R|]. split; [exact X|]. intros pre rest' a er -> GR F. destruct (accepts pre rest' a er GR F) as (e & Q & _). rewrite Q in R. discriminate R.
Qed.
End Parse.

(** * Printing *)
Lemma optok_binop : forall o n t, optok o = Some (n, t) -> binop t = Some (n, o).
Proof. intros o n t H. destruct o; try discriminate H; injection H as <- <-; reflexivity. Qed.
Lemma gram_up : forall symtab critical d n l a er, (n + d <= 10)%nat -> gram symtab critical (n + d) l a er -> gram symtab critical n l a er.
Proof. intros symtab critical. induction d as [|d IH]; intros n l a er L H; [rewrite Nat.add_0_r in H; exact H|]. apply g_up; [lia|]. apply IH; [lia|]. replace (S n + d)%nat with (n + S d)%nat by lia. exact H. Qed.
Lemma gram_le : forall symtab critical m n l a er, (n <= m <= 10)%nat -> gram symtab critical m l a er -> gram symtab critical n l a er.
Proof. intros symtab critical m n l a er L H. apply (gram_up _ _ (m - n)); [lia|]. replace (n + (m - n))%nat with m by lia. exact H. Qed.
Lemma print_gram : forall get critical a k, (loosest critical <= k <= 10)%nat -> printable get (loosest critical) a -> gram (Some get) critical k (print k a) a [].
Proof.
  intros get critical. induction a as [n|s|o a IHa c IHc|a IHa|a IHa]; intros k K P; cbn [print printable] in *.
  - apply (gram_le _ _ 10); [lia|]. apply g_num.
  - apply (gram_le _ _ 10); [lia|]. eapply g_sym; [reflexivity|exact P].
  - destruct P as (P0 & P1 & P2). destruct (optok o) as [[n t]|] eqn:OT; [|destruct P0]. pose proof (optok_binop _ _ _ OT) as BT. pose proof (binop_binary _ _ _ BT) as [_ N10].
    assert (Q : gram (Some get) critical n (print n a ++ t :: print (S n) c) (Bin o a c) []).
    { change (@nil err) with (@nil err ++ []). apply g_bin with (n := n); [exact BT|apply IHa; [lia|exact P1]|apply IHc; [lia|exact P2]]. }
    unfold parens. destruct (Nat.ltb_spec n k).
    + apply (gram_le _ _ 10); [lia|]. apply g_paren. apply (gram_le _ _ n); [lia|exact Q].
    + apply (gram_le _ _ n); [lia|exact Q].
  - apply (gram_le _ _ 10); [lia|]. apply g_neg. apply IHa; auto; lia.
  - apply (gram_le _ _ 10); [lia|]. apply g_not. apply IHa; auto; lia.
Qed.
Lemma print_reads : forall get critical a, printable get (loosest critical) a -> exists e, evaluate (Some get) critical (print (loosest critical) a) = Fin (Some e, St [] []) /\ denotes a e.
Proof.
  intros get critical a P. rewrite <- (app_nil_r (print _ a)). apply accepts; [|exact Logic.I]. apply print_gram; auto. destruct critical; cbn; lia.
Qed.
