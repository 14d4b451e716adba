(** The expression parsers follow their grammars (C81-C83). *)
From Coq Require Import ZArith List Bool Lia Arith.
From Verif Require Import Lib M_BitVect M_Intnum P_Intnum P_IntnumIO M_Expr P_Expr P_ExprLevel P_ExprTree P_ExprTop P_ExprUse M_ParseExpr.
Import ListNotations.
Open Scope Z_scope.

(** * Specification *)
(** Expressions: integers, symbols, registers, floating-point numbers, a position given by an expression, operators *)
Inductive ast := Lit (n : intnum) | Name (s : Z) | Reg (r : Z) | Flt (neg : bool) (f : Z) | Whole (e : expr) | Bin (o : op) (a b : ast) | Un (o : op) (a : ast) | Low (a : ast) | High (a : ast).
(** The value of an expression, symbols and registers having those of [E] *)
Definition byte_of (f : Z -> Z) (v : option value) : option value := match v with Some (VNum z) => Some (VNum (f z mod 256)) | _ => None end.
Fixpoint aev (E : env) (a : ast) : option value :=
  match a with
  | Lit n => ev E (TInt n)
  | Name s => ev E (TSym s)
  | Reg r => ev E (TReg r)
  | Flt _ _ => None
  | Whole e => eval E e
  | Bin o a b => match aev E a, aev E b with Some x, Some y => opsem E o [x; y] | _, _ => None end
  | Un o a => match aev E a with Some x => opsem E o [x] | None => None end
  | Low a => byte_of (fun z => z) (aev E a)
  | High a => byte_of (fun z => z / 256) (aev E a)
  end.
(** The value of an expression of integers without division by zero or overflowing product *)
Inductive cval : ast -> Z -> Prop :=
| c_lit : forall n, canon n -> cval (Lit n) (ival n)
| c_bin : forall o a b x y m, cval a x -> cval b y -> meaning o x y = Some m -> (o = MUL -> mul_safe x y) -> cval (Bin o a b) (wrap256 m)
| c_un : forall o a x m, cval a x -> meaning o x 0 = Some m -> cval (Un o a) (wrap256 m)
| c_low : forall a x, cval a x -> cval (Low a) (x mod 256)
| c_high : forall a x, cval a x -> cval (High a) (x / 256 mod 256).
(** The expression built for [a]: it has the value of [a], and is an integer if [a] consists of integers *)
Definition denotes (a : ast) (e : expr) : Prop :=
  good (eitem e) /\ (forall E v, aev E a = Some v -> eval E e = Some v) /\ (forall z, cval a z -> exists n, e = (IDENT, [TInt n]) /\ canon n /\ ival n = z).

(** A grammar: the binary operators with their levels, from the loosest (0) to the tightest, the level of what stands on the
    right of one, the level [tight] of operands, the level of what stands in parentheses, the prefix operators, and the operands:
    a text, what follows it, what it stands for and what is recorded *)
Record grammar := Grammar { tight : nat; top : nat; infix : token -> option (nat * op); right : nat -> nat; prefix : token -> option (ast -> ast);
  atom : list token -> list token -> ast -> list event -> Prop }.
(** No operator of level [k] comes next *)
Definition stop (G : grammar) (k : nat) (rest : list token) : Prop := match rest with t :: _ => match infix G t with Some (j, _) => j <> k | None => True end | [] => True end.
(** [gram G true k l rest a e]: the text [l], followed by [rest], is an expression of level [k] that stands for [a]; all the
    operators of level [k] that follow belong to it, and they associate to the left.  [false]: more of them may follow. *)
Inductive gram (G : grammar) : bool -> nat -> list token -> list token -> ast -> list event -> Prop :=
| g_one : forall k l rest a e, (k < tight G)%nat -> gram G true (S k) l rest a e -> gram G false k l rest a e
| g_bin : forall k l t r rest o a b e e', infix G t = Some (k, o) -> gram G false k l (t :: r ++ rest) a e -> gram G true (right G k) r rest b e' -> gram G false k (l ++ t :: r) rest (Bin o a b) (e ++ e')
| g_end : forall k l rest a e, gram G false k l rest a e -> stop G k rest -> gram G true k l rest a e
| g_pre : forall t f l rest a e, prefix G t = Some f -> gram G true (tight G) l rest a e -> gram G true (tight G) (t :: l) rest (f a) e
| g_paren : forall l rest a e, gram G true (top G) l (TkRParen :: rest) a e -> gram G true (tight G) (TkLParen :: l ++ [TkRParen]) rest a e
| g_atom : forall l rest a e, atom G l rest a e -> gram G true (tight G) l rest a e.

(** The NASM grammar: WRT takes an operand on its right; in a directive's parameters neither ':' nor WRT occur, not even in parentheses *)
Definition ninfix (t : token) : option (nat * op) :=
  match t with
  | TkColon => Some (0%nat, SEGOFF) | TkWrt => Some (1%nat, WRT)
  | TkOr => Some (2%nat, OR) | TkXor => Some (3%nat, XOR) | TkAnd => Some (4%nat, AND)
  | TkShl => Some (5%nat, SHL) | TkShr => Some (5%nat, SHR)
  | TkPlus => Some (6%nat, ADD) | TkMinus => Some (6%nat, SUB)
  | TkMul => Some (7%nat, MUL) | TkDiv => Some (7%nat, DIV) | TkMod => Some (7%nat, MOD) | TkSDiv => Some (7%nat, SIGNDIV) | TkSMod => Some (7%nat, SIGNMOD)
  | _ => None
  end.
Definition nprefix (t : token) : option (ast -> ast) :=
  match t with
  | TkPlus => Some (fun a => a) | TkMinus => Some (Un NEG) | TkNot => Some (Un NOT) | TkSeg => Some (Un SEG) | TkLow => Some Low | TkHigh => Some High
  | _ => None
  end.
Definition ntop (ty : etype) : nat := match ty with DIR => 2%nat | _ => 0%nat end.
(** the position [$] or [$$]: an expression in an absolute section, a symbol otherwise *)
Definition place (e : option expr) (s : Z) : ast := match e with Some e => Whole e | None => Name s end.
(** strings are little endian for NASM and big endian for TASM (C54) *)
Definition nchar (W : world) (s : list Z) : intnum * bool := if tasm W then charconst_tasm s else charconst_nasm s.
Inductive natom (W : world) (ty : etype) : list token -> list token -> ast -> list event -> Prop :=
| na_num : forall n rest, natom W ty [TkNum n] rest (Lit n) []
| na_reg : forall r rest, ty <> DV -> natom W ty [TkReg r] rest (Reg r) []
| na_id : forall x rest, natom W ty [TkId x] rest (Name (use W x)) [Use x]
| na_local : forall x rest, ty <> DIR -> natom W ty [TkLocal x] rest (Name (use W x)) [Use x]
| na_nonlocal : forall x rest, ty <> DIR -> natom W ty [TkNonlocal x] rest (Name (use W x)) [Use x]
| na_special : forall x y rest, ty <> DIR -> special W (tl (tl x)) = Some y -> natom W ty [TkSpecial x] rest (Name y) []
| na_ordinary : forall x rest, ty <> DIR -> special W (tl (tl x)) = None -> natom W ty [TkSpecial x] rest (Name (use W x)) [Use x]
| na_flt : forall b f rest, ty <> DIR -> natom W ty [TkFlt b f] rest (Flt b f) []
| na_str : forall s rest, ty <> DIR -> natom W ty [TkStr s] rest (Lit (fst (nchar W s))) (if snd (nchar W s) then [Err MChar] else [])
| na_here : forall rest, ty <> DIR -> natom W ty [TkHere] rest (place (abspos W) (here W)) []
| na_start : forall rest, ty <> DIR -> natom W ty [TkStart] rest (place (absstart W) (start W)) [].
Definition nasm (W : world) (ty : etype) : grammar := Grammar 8 (ntop ty) ninfix (fun k => if (k =? 1)%nat then 8%nat else S k) nprefix (natom W ty).

(** The GAS grammar: a symbol may carry a relocation operator after [@], which is a warning if it is not known *)
Definition ginfix (t : token) : option (nat * op) :=
  match t with
  | TkPlus => Some (0%nat, ADD) | TkMinus => Some (0%nat, SUB)
  | TkOr => Some (1%nat, OR) | TkXor => Some (1%nat, XOR) | TkAnd => Some (1%nat, AND) | TkBang => Some (1%nat, NOR)
  | TkMul => Some (2%nat, MUL) | TkDiv => Some (2%nat, DIV) | TkMod => Some (2%nat, MOD) | TkShl => Some (2%nat, SHL) | TkShr => Some (2%nat, SHR)
  | _ => None
  end.
Definition gprefix (t : token) : option (ast -> ast) := match t with TkPlus => Some (fun a => a) | TkMinus => Some (Un NEG) | TkNot => Some (Un NOT) | _ => None end.
Definition at_next (rest : list token) : Prop := match rest with TkAt :: _ => True | _ => False end.
Definition gname (W : world) (x : list Z) (s : Z) (e : list event) : Prop := (x = [46] /\ s = here W /\ e = []) \/ (x <> [46] /\ s = use W x /\ e = [Use x]).
Inductive gatom (W : world) : list token -> list token -> ast -> list event -> Prop :=
| ga_num : forall n rest, gatom W [TkNum n] rest (Lit n) []
| ga_flt : forall b f rest, gatom W [TkFlt b f] rest (Flt b f) []
| ga_id : forall x s e rest, gname W x s e -> ~ at_next rest -> gatom W [TkId x] rest (Name s) e
| ga_at : forall x s e w y rest, gname W x s e -> special W w = Some y -> gatom W [TkId x; TkAt; TkId w] rest (Bin WRT (Name s) (Name y)) e
| ga_bad : forall x s e w rest, gname W x s e -> special W w = None -> gatom W [TkId x; TkAt; TkId w] rest (Name s) (e ++ [Warn]).
Definition gas (W : world) : grammar := Grammar 3 0 ginfix S gprefix (gatom W).

(** The text of an expression with the fewest parentheses, in a place that takes level [k]; [text] gives the symbols' names *)
Definition parens (b : bool) (l : list token) : list token := if b then TkLParen :: l ++ [TkRParen] else l.
Fixpoint print (G : grammar) (dyad monad : op -> token) (text : Z -> list Z) (k : nat) (a : ast) : list token :=
  match a with
  | Lit n => [TkNum n]
  | Name s => [TkId (text s)]
  | Reg r => [TkReg r]
  | Flt b f => [TkFlt b f]
  | Whole _ => [TkHere]
  | Bin o a b =>
      match infix G (dyad o) with
      | Some (n, _) => parens (n <? k)%nat (print G dyad monad text n a ++ dyad o :: print G dyad monad text (right G n) b)
      | None => []
      end
  | Un o a => monad o :: print G dyad monad text (tight G) a
  | Low a => TkLow :: print G dyad monad text (tight G) a
  | High a => TkHigh :: print G dyad monad text (tight G) a
  end.
(** What can be printed: operators of the grammar not looser than [top], operands of the grammar *)
Fixpoint printable (G : grammar) (dyad monad : op -> token) (text : Z -> list Z) (a : ast) : Prop :=
  match a with
  | Lit _ | Name _ | Reg _ | Flt _ _ | Whole _ => forall rest, ~ at_next rest -> exists e, atom G (print G dyad monad text 0 a) rest a e /\ Forall (fun x => exists y, x = Use y) e
  | Bin o a b => (exists n, infix G (dyad o) = Some (n, o) /\ (top G <= n)%nat) /\ printable G dyad monad text a /\ printable G dyad monad text b
  | Un o a => prefix G (monad o) = Some (Un o) /\ printable G dyad monad text a
  | Low a => prefix G TkLow = Some Low /\ printable G dyad monad text a
  | High a => prefix G TkHigh = Some High /\ printable G dyad monad text a
  end.
Definition tok2 (o : op) : token :=
  match o with
  | SEGOFF => TkColon | WRT => TkWrt | OR => TkOr | XOR => TkXor | AND => TkAnd | NOR => TkBang | SHL => TkShl | SHR => TkShr
  | ADD => TkPlus | SUB => TkMinus | MUL => TkMul | DIV => TkDiv | MOD => TkMod | SIGNDIV => TkSDiv | SIGNMOD => TkSMod | _ => TkNone
  end.
Definition tok1 (o : op) : token := match o with NEG => TkMinus | NOT => TkNot | SEG => TkSeg | _ => TkNone end.

(** A token that can begin an operand *)
Definition begins (ty : etype) (l : list token) : Prop :=
  match l with
  | t :: _ =>
      match t with
      | TkPlus | TkMinus | TkNot | TkLow | TkHigh | TkSeg | TkLParen | TkNum _ | TkReg _ | TkId _ => True
      | TkLocal _ | TkNonlocal _ | TkSpecial _ | TkFlt _ _ | TkStr _ | TkHere | TkStart => ty <> DIR
      | _ => False
      end
  | [] => False
  end.
(** Why the NASM parser gave up on [l] with [left] left: the message [m] *)
Definition culprit (ty : etype) (l left : list token) (m : msg) : Prop :=
  match m with
  | MAfter t => (exists pre, l = pre ++ t :: left) /\ ~ begins ty left
  | MAfterCode c => (exists pre t o, l = pre ++ t :: left /\ In t [TkColon; TkWrt; TkOr; TkXor; TkAnd] /\ (exists k, ninfix t = Some (k, o)) /\ c = code o) /\ ~ begins ty left
  | MParen => exists pre r, l = pre ++ r /\ left = TkNone :: tl r /\ match r with TkRParen :: _ => False | _ => True end
  | MReg => ty = DV /\ (exists pre r, l = pre ++ left /\ left = TkReg r :: tl left)
  | _ => False
  end.
Definition harmless (e : event) : Prop := (exists x, e = Use x) \/ e = Err MChar.

(** * Building *)
Lemma lit_ok : forall t, is_expr t = false -> t <> TNone -> ident t = Fin (IDENT, [t]).
Proof. intros t X N. destruct t; try discriminate X; try (destruct (N eq_refl)); reflexivity. Qed.
Definition numeric (o : op) : bool := match o with ADD | SUB | MUL | DIV | MOD | SIGNDIV | SIGNMOD | OR | XOR | AND | NOR | SHL | SHR => true | _ => false end.
Definition dyadic (o : op) : bool := match o with WRT | SEGOFF => true | _ => numeric o end.
Lemma fold2 : forall o a b, numeric o = true -> tree o (IDENT, [TInt a]) (IDENT, [TInt b]) = Fin (IDENT, [TInt (ical a o (Some b))]).
Proof.
  intros o a b B. unfold tree, as_item, create. cbn [fst snd strip].
  destruct o; try discriminate B; cbv -[ical is_zero is_pos1 is_neg1]; try reflexivity; match goal with |- context [ical ?a ?o ?b] => set (n := ical a o b); clearbody n end;
  destruct (is_zero n); try reflexivity; destruct (is_pos1 n); try reflexivity; destruct (is_neg1 n); reflexivity.
Qed.
Lemma fold1 : forall o a, o = NEG \/ o = NOT -> branch o (IDENT, [TInt a]) = Fin (IDENT, [TInt (ical a o None)]).
Proof. intros o a [->| ->]; cbv -[ical is_zero is_pos1 is_neg1]; reflexivity. Qed.
Lemma leaf_ok : forall a t, is_expr t = false -> t <> TNone -> (forall E, aev E a = ev E t \/ aev E a = None) -> (forall z, cval a z -> exists n, t = TInt n /\ canon n /\ ival n = z) -> denotes a (IDENT, [t]).
Proof.
  intros a t X N V C. split; [|split].
  - unfold eitem. cbn [fst snd]. apply good_expr. split; [reflexivity|]. split; [discriminate|]. repeat constructor. destruct t; try discriminate X; try (destruct (N eq_refl)); exact Logic.I.
  - intros E v H. unfold eval. cbn [fst snd ev map]. cbn [all]. destruct (V E) as [Q|Q]; rewrite Q in H; [|discriminate H]. rewrite H. reflexivity.
  - intros z H. destruct (C z H) as (n & -> & K). exists n. auto.
Qed.
Lemma denotes_lit : forall n, denotes (Lit n) (IDENT, [TInt n]).
Proof. intros n. apply leaf_ok; try discriminate; auto. intros z H. inversion H; subst. exists n. auto. Qed.
Lemma denotes_name : forall s, denotes (Name s) (IDENT, [TSym s]).
Proof. intros n. apply leaf_ok; try discriminate; auto. intros z H. inversion H. Qed.
Lemma denotes_reg : forall s, denotes (Reg s) (IDENT, [TReg s]).
Proof. intros n. apply leaf_ok; try discriminate; auto. intros z H. inversion H. Qed.
Lemma denotes_flt : forall b f, denotes (Flt b f) (IDENT, [TFloat b f]).
Proof. intros b f. apply leaf_ok; try discriminate; auto. intros z H. inversion H. Qed.
Lemma denotes_whole : forall e, good (eitem e) -> denotes (Whole e) e.
Proof. intros e G. split; [exact G|]. split; [auto|]. intros z H. inversion H. Qed.
Lemma eval2 : forall E o a b e f x y, denotes a e -> denotes b f -> aev E a = Some x -> aev E b = Some y -> eval E (o, [as_item e; as_item f]) = opsem E o [x; y].
Proof.
  intros E o a b e f x y (_ & V1 & _) (_ & V2 & _) XA XB. specialize (V1 _ _ XA). specialize (V2 _ _ XB). unfold eval, as_item in *. cbn [fst snd ev map] in *. rewrite V1, V2. reflexivity.
Qed.
Lemma tree_ok : forall o a b e f, dyadic o = true -> denotes a e -> denotes b f -> exists g, tree o e f = Fin g /\ denotes (Bin o a b) g.
Proof.
  intros o a b e f B D1 D2. pose proof D1 as (G1 & V1 & C1). pose proof D2 as (G2 & V2 & C2). unfold tree.
  assert (AR : arity o 2) by (destruct o; try discriminate B; cbn; lia).
  destruct (create_ok o (as_item e) (Some (as_item f)) G1 G2 AR ltac:(intros ->; discriminate B)) as (g & H & G & V).
  exists g. split; [exact H|]. split; [exact G|]. split.
  - intros E v X. cbn [aev] in X. destruct (aev E a) as [x|] eqn:XA; [|discriminate X]. destruct (aev E b) as [y|] eqn:XB; [|discriminate X]. apply V. rewrite (eval2 E o a b e f x y); auto.
  - intros z X. inversion X as [|? ? ? x y m XA XB M S| | |]; subst. destruct (C1 _ XA) as (n1 & -> & N1 & N2). destruct (C2 _ XB) as (n2 & -> & N3 & N4). subst x y.
    assert (NU : numeric o = true) by (destruct o; try discriminate B; try reflexivity; discriminate M).
    destruct (calc_ok scratch n1 o n2 m N1 N3 M S) as (r & CR & CN & CV). pose proof (fold2 o n1 n2 NU) as Q. unfold tree in Q. rewrite Q in H. injection H as <-. exists r. unfold ical. rewrite CR. auto.
Qed.
Lemma branch_ok : forall o a e, o = NEG \/ o = NOT \/ o = SEG -> denotes a e -> exists g, branch o e = Fin g /\ denotes (Un o a) g.
Proof.
  intros o a e K (G1 & V1 & C1). unfold branch.
  destruct (create_ok o (as_item e) None G1 Logic.I ltac:(destruct K as [->|[->| ->]]; reflexivity) ltac:(intros ->; destruct K as [|[|]]; discriminate)) as (g & H & G & V).
  exists g. split; [exact H|]. split; [exact G|]. split.
  - intros E v X. cbn [aev] in X. destruct (aev E a) as [x|] eqn:XA; [|discriminate X]. apply V. unfold eval, as_item. cbn [fst snd]. cbn [ev map]. specialize (V1 _ _ XA). unfold eval in V1. cbn [ev] in V1. rewrite V1. exact X.
  - intros z X. inversion X as [| |? ? x m XA M| |]; subst. assert (K' : o = NEG \/ o = NOT) by (destruct K as [->|[->| ->]]; auto; discriminate M).
    destruct (C1 _ XA) as (n1 & -> & N1 & N2). subst x. destruct (calc_unary scratch n1 o m N1 ltac:(tauto) M) as (r & CR & CN & CV).
    pose proof (fold1 o n1 K') as Q. unfold branch in Q. rewrite Q in H. injection H as <-. exists r. unfold ical. rewrite CR. auto.
Qed.
(** LOW and HIGH *)
Lemma wrap_mod : forall z, wrap256 z mod 256 = z mod 256.
Proof.
  intros z. unfold wrap256. change (2 ^ 256) with (256 * 2 ^ 248). set (h := 2 ^ 248). assert (0 < h) by reflexivity. change (2 ^ 255) with (128 * h). clearbody h.
  rewrite Z.rem_mul_r by lia. replace ((z + 128 * h) mod 256 + 256 * ((z + 128 * h) / 256 mod h) - 128 * h) with ((z + 128 * h) mod 256 - 128 * h + ((z + 128 * h) / 256 mod h) * 256) by lia.
  rewrite Z.mod_add by lia. rewrite Zminus_mod_idemp_l. f_equal. lia.
Qed.
Lemma byte_land : forall z, wrap256 (Z.land z 255) = z mod 256.
Proof. intros z. change 255 with (Z.ones 8). rewrite Z.land_ones by lia. change (2 ^ 8) with 256. apply wrap_id, R_small. pose proof (Z.mod_pos_bound z 256 ltac:(lia)). lia. Qed.
Lemma low_num : forall E z, opsem E AND [VNum z; VNum 255] = Some (VNum (z mod 256)).
Proof.
  intros E z. cbn [opsem nums nary]. unfold asem. cbn [fold_left comb].
  change 255 with (Z.ones 8). rewrite Z.land_ones by lia. reflexivity.
Qed.
Lemma high_num : forall E z, opsem E SHR [VNum z; VNum 8] = Some (VNum (wrap256 (z / 256))).
Proof. reflexivity. Qed.
Lemma small_lit : forall n, 0 <= n <= 255 -> create_uint n = IL n /\ canon (IL n) /\ canonb (IL n) = true.
Proof.
  intros n H. unfold create_uint, LONG_MAX. replace (_ <? n) with false by (symmetry; apply Z.ltb_ge; change (2 ^ 31 - 1) with 2147483647; lia). split; [reflexivity|].
  assert (B : 2 ^ 31 = 2147483648) by reflexivity. split; [cbn; lia|]. unfold canonb. rewrite B. rewrite (proj2 (Z.ltb_lt _ _)), (proj2 (Z.ltb_lt _ _)) by lia. reflexivity.
Qed.
Lemma low_ok : forall a e, denotes a e -> exists g, tree AND e (IDENT, [TInt (create_uint 255)]) = Fin g /\ denotes (Low a) g.
Proof.
  intros a e D. destruct (small_lit 255 ltac:(lia)) as (Q & C & CB). rewrite Q. destruct (tree_ok AND a (Lit (IL 255)) e _ eq_refl D (denotes_lit _)) as (g & -> & G & V & K). exists g. split; [reflexivity|]. split; [exact G|]. split.
  - intros E v H. apply V. cbn [aev] in *. unfold byte_of in H. destruct (aev E a) as [[z|]|]; try discriminate H. cbn [ev]. rewrite CB. cbn [ival]. rewrite low_num. exact H.
  - intros z H. inversion H as [| | |? x XA|]; subst. apply K. rewrite <- byte_land. apply (c_bin AND a (Lit (IL 255)) x 255); [exact XA|apply (c_lit (IL 255)); exact C|reflexivity|discriminate].
Qed.
Lemma high_ok : forall a e, denotes a e -> exists f g, tree SHR e (IDENT, [TInt (create_uint 8)]) = Fin f /\ tree AND f (IDENT, [TInt (create_uint 255)]) = Fin g /\ denotes (High a) g.
Proof.
  intros a e D. destruct (small_lit 8 ltac:(lia)) as (Q & C & CB). rewrite Q. destruct (tree_ok SHR a (Lit (IL 8)) e _ eq_refl D (denotes_lit _)) as (f & -> & DF). destruct (low_ok _ _ DF) as (g & TG & G & V & K). exists f, g. split; [reflexivity|]. split; [exact TG|]. split; [exact G|]. split.
  - intros E v H. apply V. cbn [aev] in *. unfold byte_of in *. destruct (aev E a) as [[z|]|]; try discriminate H. cbn [ev]. rewrite CB. cbn [ival]. rewrite high_num, wrap_mod. exact H.
  - intros z H. inversion H as [| | | |? x XA]; subst. apply K. rewrite <- wrap_mod. apply c_low. apply (c_bin SHR a (Lit (IL 8)) x 8); [exact XA|apply (c_lit (IL 8)); exact C|reflexivity|discriminate].
Qed.

(** * Any parser of that form *)
Lemma bind_id : forall r, bind r [] (fun e s => Fin (Some e, s)) = r.
Proof. intros [[[e|] [l s]]| |]; cbn; unfold note; cbn; rewrite ?app_nil_r; reflexivity. Qed.
Lemma bind_ext : forall r l f g, (forall e s, f e s = g e s) -> bind r l f = bind r l g.
Proof. intros [[[e|] s]| |] l f g H; cbn [bind]; auto. Qed.
Lemma loop_ext : forall o1 o2 f1 f2, (forall t, o1 t = o2 t) -> (forall s, f1 s = f2 s) -> forall n e s, loop n o1 f1 e s = loop n o2 f2 e s.
Proof.
  intros o1 o2 f1 f2 O F. induction n as [|n IH]; intros e s; [reflexivity|]. cbn [loop]. rewrite O. destruct (o2 (cur s)) as [[o l]|]; auto. rewrite F. apply bind_ext. intros f s1. destruct (tree o e f); cbn [made]; auto.
Qed.
Lemma level_ext : forall n o1 o2 f1 f2 g1 g2, (forall t, o1 t = o2 t) -> (forall s, f1 s = f2 s) -> (forall s, g1 s = g2 s) -> forall s, level n o1 f1 g1 s = level n o2 f2 g2 s.
Proof. intros n o1 o2 f1 f2 g1 g2 O F H s. unfold level. rewrite F. apply bind_ext. intros e s1. apply loop_ext; auto. Qed.
Section Parse.
Variables (G : grammar) (e0 : nat -> st -> out) (after : token -> op -> list event) (pmsg : token -> list event) (K : token -> expr -> st -> out) (bad : list token -> list token -> list event -> Prop).
Notation N := (tight G).
Definition ops (k : nat) (t : token) : option (op * list event) := match infix G t with Some (j, o) => if (j =? k)%nat then Some (o, after t o) else None | None => None end.
(** [lev n d] is the function [d] levels above the operands *)
Fixpoint lev (n d : nat) : st -> out :=
  match d with
  | O => e0 n
  | S d' => level n (ops (N - S d')) (lev n d') (if (right G (N - S d') =? N)%nat then e0 n else lev n d')
  end.
Hypothesis RT : forall k, (k < N)%nat -> right G k = S k \/ right G k = N.
Hypothesis IX : forall t k o, infix G t = Some (k, o) -> (k < N)%nat /\ dyadic o = true.
Hypothesis IE : infix G TkEnd = None.
Hypothesis TP : (top G <= N)%nat.
Hypothesis HP : forall t f, prefix G t = Some f -> (forall n l es, e0 (S n) (St (t :: l) es) = bind (e0 n (St l es)) (pmsg t) (K t)) /\ forall a e s, denotes a e -> exists g, K t e s = Fin (Some g, s) /\ denotes (f a) g.
Hypothesis HQ : forall n l es, e0 (S n) (St (TkLParen :: l) es) = bind (lev n (N - top G) (St l es)) (pmsg TkLParen)
  (fun e s1 => match cur s1 with TkRParen => Fin (Some e, next s1) | _ => Fin (None, drop (note [Err MParen] s1)) end).
Hypothesis HA : forall l rest a er, atom G l rest a er -> l <> [] /\ forall n es, exists e, e0 (S n) (St (l ++ rest) es) = Fin (Some e, St rest (es ++ er)) /\ denotes a e.
Hypothesis HC : forall l, (exists t r f, l = t :: r /\ prefix G t = Some f) \/ (exists r, l = TkLParen :: r) \/ (exists pre rest a er, l = pre ++ rest /\ atom G pre rest a er) \/
  (forall n es, exists left er, e0 (S n) (St l es) = Fin (None, St left (es ++ er)) /\ bad l left er).
Hypothesis BP : forall t f l left er, prefix G t = Some f -> bad l left er -> bad (t :: l) left (er ++ pmsg t).
Hypothesis BQ : forall l left er, bad l left er -> bad (TkLParen :: l) left (er ++ pmsg TkLParen).
Hypothesis BC : forall pre r a er, gram G true (top G) pre r a er -> match r with TkRParen :: _ => False | _ => True end -> bad (TkLParen :: pre ++ r) (TkNone :: tl r) (er ++ [Err MParen]).
Hypothesis BO : forall t k o pre r a er left er', infix G t = Some (k, o) -> gram G false k pre (t :: r) a er -> bad r left er' -> bad (pre ++ t :: r) left (er ++ er' ++ after t o).
Lemma right_lev : forall n d, (S d <= N)%nat -> (if (right G (N - S d) =? N)%nat then e0 n else lev n d) = lev n (N - right G (N - S d)) /\ (S (N - S d) <= right G (N - S d) <= N)%nat.
Proof.
  intros n d L. destruct (RT (N - S d)%nat ltac:(lia)) as [E|E]; rewrite E.
  - destruct (Nat.eqb_spec (S (N - S d)) N).
    + replace (N - S (N - S d))%nat with O by lia. split; [reflexivity|lia].
    + replace (N - S (N - S d))%nat with d by lia. split; [reflexivity|lia].
  - rewrite Nat.eqb_refl, Nat.sub_diag. split; [reflexivity|lia].
Qed.
Lemma ops_stop : forall k l, stop G k l -> forall es, ops k (cur (St l es)) = None.
Proof.
  intros k [|t l] F es; cbn [cur toks stop] in *; unfold ops; [rewrite IE; reflexivity|]. destruct (infix G t) as [[j o]|]; auto. destruct (Nat.eqb_spec j k); [congruence|reflexivity].
Qed.
Lemma stop_ops : forall k l es, ops k (cur (St l es)) = None -> stop G k l.
Proof. intros k [|t l] es O; cbn [cur toks stop] in *; auto. unfold ops in O. destruct (infix G t) as [[j o]|]; auto. destruct (Nat.eqb_spec j k); [discriminate O|auto]. Qed.
Lemma note_nil : forall s, note [] s = s.
Proof. intros [l e]. unfold note. cbn. rewrite app_nil_r. reflexivity. Qed.

(** * A grammatical text is read as what it stands for *)
Definition reads_as (b : bool) (k : nat) (l rest : list token) (a : ast) (er : list event) : Prop :=
  (k <= N)%nat /\ forall n es, (length (l ++ rest) < n)%nat ->
  if b then exists e, lev n (N - k) (St (l ++ rest) es) = Fin (Some e, St rest (es ++ er)) /\ denotes a e
  else exists d, (k + S d = N)%nat /\ exists e m, (length rest < m)%nat /\ denotes a e /\
     lev n (S d) (St (l ++ rest) es) = loop m (ops k) (lev n (N - right G k)) e (St rest (es ++ er)).
Lemma gram_reads : forall b k l rest a er, gram G b k l rest a er -> reads_as b k l rest a er.
Proof.
  intros b k l rest a er H. induction H as [k l rest a e L H IH|k l t r rest o a c e e' T H1 IH1 H2 IH2|k l rest a e H IH S|t f l rest a e P H IH|l rest a e H IH|l rest a e A].
  - destruct IH as [_ IH]. split; [lia|]. intros n es LN. destruct (IH n es LN) as (x & EQ & D). exists (N - S k)%nat. split; [lia|]. exists x, n. split; [rewrite app_length in LN; lia|]. split; [exact D|].
    cbn [lev]. destruct (right_lev n (N - S k) ltac:(lia)) as [RL _]. rewrite RL. clear RL. replace (N - S (N - S k))%nat with k by lia. unfold level. rewrite EQ. cbn [bind]. reflexivity.
  - destruct (IX _ _ _ T) as [KN DO]. destruct IH1 as [_ IH1]. destruct IH2 as [_ IH2]. split; [lia|]. intros n es LN. rewrite <- app_assoc, <- app_comm_cons in LN |- *.
    destruct (IH1 n es LN) as (d & D & x & m & M & DX & EQ). exists d. split; [exact D|]. rewrite EQ. destruct m as [|m]; [lia|]. cbn [length] in M. rewrite app_length in M. cbn [loop cur toks]. unfold ops at 1. rewrite T, Nat.eqb_refl. unfold next. cbn [toks evts tl].
    assert (L2 : (length (r ++ rest) < n)%nat) by (rewrite app_length in LN; cbn [length] in LN; lia).
    destruct (IH2 n (es ++ e) L2) as (y & EQ2 & DY). rewrite EQ2. cbn [bind]. destruct (tree_ok o a c x y DO DX DY) as (g & TG & DG). rewrite TG. cbn [made].
    exists g, m. rewrite <- app_assoc. split; [lia|]. auto.
  - destruct IH as [L IH]. split; [exact L|]. intros n es LN. destruct (IH n es LN) as (d & D & x & m & M & DX & EQ). exists x. split; [|exact DX]. replace (N - k)%nat with (Datatypes.S d) by lia. rewrite EQ. destruct m; [lia|]. cbn [loop]. rewrite (ops_stop _ _ S). reflexivity.
  - destruct IH as [_ IH]. split; [lia|]. intros n es LN. rewrite Nat.sub_diag in *. destruct (HP _ _ P) as [E1 E2]. destruct n as [|n]; [lia|]. cbn [lev app length] in *. rewrite E1. destruct (IH n es ltac:(lia)) as (x & -> & D). cbn [bind]. destruct (E2 a x (St rest (es ++ e)) D) as (g & -> & DG). exists g. auto.
  - destruct IH as [_ IH]. split; [lia|]. intros n es LN. rewrite Nat.sub_diag in *. destruct n as [|n]; [lia|]. cbn [lev app length] in *. rewrite HQ. rewrite <- app_assoc in LN |- *. cbn [app] in LN |- *. destruct (IH n es ltac:(lia)) as (x & -> & D). cbn [bind cur toks]. exists x. auto.
  - split; [lia|]. intros n es LN. rewrite Nat.sub_diag. destruct n as [|n]; [lia|]. cbn [lev]. apply (HA _ _ _ _ A).
Qed.
Lemma accepts : forall k l rest a er, gram G true k l rest a er -> exists e, lev (S (length (l ++ rest))) (N - k) (St (l ++ rest) []) = Fin (Some e, St rest er) /\ denotes a e.
Proof. intros k l rest a er H. apply gram_reads in H. destruct H as [_ H]. apply (H _ []). lia. Qed.

(** * What is read is grammatical *)
Definition result (b : bool) (k : nat) (s0 : st) (r : out) : Prop :=
  (exists e s pre a er, r = Fin (Some e, s) /\ toks s0 = pre ++ toks s /\ pre <> [] /\ evts s = evts s0 ++ er /\ gram G b k pre (toks s) a er /\ denotes a e) \/
  (exists s er, r = Fin (None, s) /\ evts s = evts s0 ++ er /\ bad (toks s0) (toks s) er).
Lemma loop_result : forall n d, (S d <= N)%nat -> (forall s, (length (toks s) < n)%nat -> result true (right G (N - S d)) s (lev n (N - right G (N - S d)) s)) ->
  forall m e s s0 pre a er, (length (toks s) < m)%nat -> (length (toks s) < n)%nat -> toks s0 = pre ++ toks s -> pre <> [] -> evts s = evts s0 ++ er -> gram G false (N - S d) pre (toks s) a er -> denotes a e ->
  result true (N - S d) s0 (loop m (ops (N - S d)) (lev n (N - right G (N - S d))) e s).
Proof.
  intros n d D SUB. induction m as [|m IH]; intros e s s0 pre a er LM LN T0 NE E0 GR DE; [lia|]. cbn [loop].
  destruct (ops (N - S d) (cur s)) as [[o af]|] eqn:OP.
  - destruct s as [l es]. unfold cur in OP. cbn [toks evts] in *. destruct l as [|t l]; [unfold ops in OP; rewrite IE in OP; discriminate OP|]. unfold next. cbn [toks evts tl]. cbn [length] in LM, LN.
    unfold ops in OP. destruct (infix G t) as [[j o']|] eqn:BT; [|discriminate OP]. destruct (Nat.eqb_spec j (N - S d)) as [->|]; [|discriminate OP]. injection OP as -> <-.
    destruct (SUB (St l es)) as [(f & s1 & pre1 & a1 & er1 & R & T1 & NE1 & E1 & G1 & D1)|(s1 & er1 & R & E1 & X)]; [cbn [toks]; lia| |].
    + rewrite R. cbn [bind toks evts] in *. destruct (IX _ _ _ BT) as [_ BO']. destruct (tree_ok o a a1 e f BO' DE D1) as (g & -> & DG). cbn [made].
      assert (LS : (length (toks s1) < length l)%nat) by (rewrite T1, app_length; destruct pre1; [congruence|cbn [length]; lia]).
      apply (IH g s1 s0 (pre ++ t :: pre1) (Bin o a a1) (er ++ er1)); try lia; auto.
      * rewrite T0, T1, <- app_assoc. reflexivity.
      * destruct pre; discriminate.
      * rewrite E1, E0, <- app_assoc. reflexivity.
      * eapply g_bin; [exact BT|rewrite <- T1; exact GR|exact G1].
    + cbn [toks evts] in E1, X. rewrite R. cbn [bind]. right. eexists. exists (er ++ er1 ++ after t o). split; [reflexivity|]. unfold note. cbn [toks evts]. split; [rewrite E1, E0, <- !app_assoc; reflexivity|]. rewrite T0. eapply BO; eauto.
  - left. exists e, s, pre, a, er. repeat (split; [assumption || reflexivity|]). split; [|exact DE]. apply g_end; [exact GR|]. destruct s as [l es]. apply (stop_ops _ _ es OP).
Qed.
Lemma lev_result : forall n, (forall s, (length (toks s) < n)%nat -> result true N s (e0 n s)) -> forall d, (d <= N)%nat -> forall s, (length (toks s) < n)%nat -> result true (N - d) s (lev n d s).
Proof.
  intros n B6. induction d as [d IH] using (well_founded_induction lt_wf). intros D s L. destruct d as [|d]; [rewrite Nat.sub_0_r; apply B6; exact L|]. cbn [lev]. destruct (right_lev n d D) as [RL [R1 R2]]. rewrite RL. unfold level.
  destruct (IH d ltac:(lia) ltac:(lia) s L) as [(f & s1 & pre1 & a1 & er1 & R & T1 & NE1 & E1 & G1 & D1)|(s1 & er1 & R & E1 & X)]; rewrite R; cbn [bind].
  - apply (loop_result n d D) with (pre := pre1) (a := a1) (er := er1); auto.
    + intros s2 L2. replace (right G (N - S d)) with (N - (N - right G (N - S d)))%nat at 1 by lia. apply IH; lia || exact L2.
    + rewrite T1, app_length in L. lia.
    + rewrite T1, app_length in L. lia.
    + apply g_one; [lia|]. replace (S (N - S d)) with (N - d)%nat by lia. exact G1.
  - right. rewrite note_nil. exists s1, er1. auto.
Qed.
Lemma e0_result : forall n s, (length (toks s) < n)%nat -> result true N s (e0 n s).
Proof.
  induction n as [|n IH]; intros [l es] L; [lia|]. cbn [toks] in L.
  destruct (HC l) as [(t & r & f & -> & P)|[(r & ->)|[(pre & rest & a & er & -> & A)|B]]].
  - destruct (HP _ _ P) as [E1 E2]. rewrite E1. cbn [length] in L. destruct (IH (St r es)) as [(e & s1 & pre1 & a1 & er1 & R & T1 & NE1 & EV & G1 & D1)|(s1 & er1 & R & EV & X)]; [cbn [toks]; lia| |]; rewrite R; cbn [bind toks evts] in *.
    + destruct (E2 a1 e s1 D1) as (g & -> & DG). left. exists g, s1, (t :: pre1), (f a1), er1. cbn [toks evts]. split; [reflexivity|]. split; [rewrite T1; reflexivity|]. split; [discriminate|]. split; [exact EV|]. split; [|exact DG]. eapply g_pre; eauto.
    + right. eexists. exists (er1 ++ pmsg t). split; [reflexivity|]. unfold note. cbn [toks evts]. split; [rewrite EV, app_assoc; reflexivity|]. eapply BP; eauto.
  - rewrite HQ. cbn [length] in L. destruct (lev_result n IH (N - top G) ltac:(lia) (St r es) ltac:(cbn [toks]; lia)) as [(e & s1 & pre1 & a1 & er1 & R & T1 & NE1 & EV & G1 & D1)|(s1 & er1 & R & EV & X)]; rewrite R; cbn [bind toks evts] in *.
    + replace (N - (N - top G))%nat with (top G) in G1 by lia. destruct s1 as [l1 es1]. unfold cur. cbn [toks evts] in *. subst r es1.
      assert (BAD : match l1 with TkRParen :: _ => False | _ => True end -> result true N (St (TkLParen :: pre1 ++ l1) es) (Fin (None, drop (note [Err MParen] (St l1 (es ++ er1)))))).
      { intros Q. right. eexists. exists (er1 ++ [Err MParen]). split; [reflexivity|]. unfold drop, note. cbn [toks evts]. split; [rewrite <- app_assoc; reflexivity|]. eapply BC; eauto. }
      destruct l1 as [|t1 l1]; [apply BAD; exact Logic.I|]. destruct t1; try (apply BAD; exact Logic.I). unfold next. cbn [toks evts tl].
      left. exists e, (St l1 (es ++ er1)), (TkLParen :: pre1 ++ [TkRParen]), a1, er1. cbn [toks evts]. split; [reflexivity|]. split; [cbn [app]; rewrite <- app_assoc; reflexivity|]. split; [discriminate|]. split; [reflexivity|]. split; [|exact D1]. apply g_paren; exact G1.
    + right. eexists. exists (er1 ++ pmsg TkLParen). split; [reflexivity|]. unfold note. cbn [toks evts]. split; [rewrite EV, app_assoc; reflexivity|]. apply BQ. exact X.
  - destruct (HA _ _ _ _ A) as [NE Q]. destruct (Q n es) as (e & -> & D). left. exists e, (St rest (es ++ er)), pre, a, er. cbn [toks evts]. repeat (split; [assumption || reflexivity|]). split; [|exact D]. apply g_atom; exact A.
  - destruct (B n es) as (left & er & -> & X). right. exists (St left (es ++ er)), er. cbn [toks evts]. auto.
Qed.
Lemma verdict : forall k l, (k <= N)%nat ->
  (exists e pre rest a er, lev (S (length l)) (N - k) (St l []) = Fin (Some e, St rest er) /\ l = pre ++ rest /\ gram G true k pre rest a er /\ denotes a e) \/
  (exists left er, lev (S (length l)) (N - k) (St l []) = Fin (None, St left er) /\ bad l left er /\ forall pre rest a er, l = pre ++ rest -> ~ gram G true k pre rest a er).
Proof.
  intros k l KN. destruct (lev_result (S (length l)) (e0_result _) (N - k) ltac:(lia) (St l []) ltac:(cbn [toks]; lia)) as [(e & s1 & pre1 & a1 & er1 & R & T1 & NE1 & E1 & G1 & D1)|(s1 & er1 & R & E1 & X)];
  destruct s1 as [rest es1]; cbn [toks evts app] in *; subst es1.
  - left. replace (N - (N - k))%nat with k in G1 by lia. exists e, pre1, rest, a1, er1. auto.
  - right. exists rest, er1. split; [exact R|]. split; [exact X|]. intros pre rest' a er -> GR. destruct (accepts _ _ _ _ _ GR) as (e & Q & _). rewrite Q in R. discriminate R.
Qed.
End Parse.
