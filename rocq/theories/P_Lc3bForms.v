(** LC-3b: which lines have a form (C89). *)
From Coq Require Import ZArith List Bool Lia String.
From Verif Require Import Lib M_Intnum M_Expr M_Value M_BinValue P_BinValue P_BinValueTop M_Lc3b P_Lc3b.
Import ListNotations.
Open Scope Z_scope.

(** * Which lines have a form *)
Section Forms.
Variable nequ : nat.
Variable equ : Z -> option expr.
Variable label : Z -> option Z.
Variable sect : Z -> Z.
Variable curpos vspecial : Z -> bool.
Variable precbc : option Z.
Variable dot : Z.
Notation finalize_insn := (finalize_insn nequ equ label sect curpos vspecial precbc dot).
Notation assign := (assign nequ equ label sect curpos vspecial precbc dot).
Definition same_kind (p : operand) (o : sop) : Prop := match p, o with P_Reg _, SReg _ | P_Imm _, SImm _ => True | _, _ => False end.
Lemma assign_form : forall l ps i, assign l ps i <> NoForm.
Proof.
  induction l as [|[k a] l IH]; intros [|p ps] i; cbn [M_Lc3b.assign]; try discriminate. cbn [snd]. destruct a as [| |t]; [destruct p; try discriminate; apply IH|destruct p; try discriminate; apply IH|].
  assert (N : imm_value nequ equ label sect curpos vspecial precbc dot t p <> NoForm).
  { unfold imm_value. assert (FN : forall e, match finalize_expr label sect equ curpos vspecial precbc dot nequ false (Some e) 0 with FOk v => Done (Insn v t 0) | FBad => TooComplex | FInternal | FFatal => Internal | _ => LevelFault end <> NoForm) by (intros e; destruct (finalize_expr label sect equ curpos vspecial precbc dot nequ false (Some e) 0); discriminate).
    destruct p; [apply FN| |discriminate]. destruct (words t); [|apply FN]. destruct (create SHR (node e) (Some (TInt (create_uint 1)))); try discriminate. apply FN. }
  destruct (imm_value nequ equ label sect curpos vspecial precbc dot t p); try discriminate; [congruence|apply IH].
Qed.
Lemma no_form : forall g m ps, finalize_insn g m ps = NoForm <-> choose g ps = None.
Proof.
  intros g m ps. unfold M_Lc3b.finalize_insn. destruct (choose g ps) as [f|]; [|tauto]. split; [|discriminate]. cbv zeta. match goal with |- match assign ?l ps ?i with _ => _ end = _ -> _ => pose proof (assign_form l ps i) as N; destruct (assign l ps i) as [| | | | |j] end; try discriminate; try congruence.
  destruct (itype j); try discriminate. destruct (segof (imm j) || (1 <? rshift (imm j)) || curpos_rel (imm j)); discriminate.
Qed.
Lemma fit_length : forall l ps, all_fit l ps = true -> List.length l = List.length ps.
Proof. induction l as [|x l IH]; intros [|p ps] H; try discriminate H; [reflexivity|]. cbn [all_fit] in H. apply andb_prop in H. cbn [List.length]. f_equal. apply IH. exact (proj2 H). Qed.
Theorem forms_ok : forall name ps ops pc, Forall2 same_kind ps ops ->
  (asked (lower_str name) ops pc = None <-> match find_insn name with None => True | Some (g, m) => finalize_insn g m ps = NoForm end).
Proof.
  intros name ps ops pc F. destruct (Nat.le_gt_cases (List.length ops) 3) as [L|L].
  2: { assert (LP : List.length ps = List.length ops) by (clear L; induction F as [|? ? ? ? _ _ IH]; [reflexivity|cbn [List.length]; f_equal; exact IH]). split; intros _.
       - destruct (find_insn name) as [[g m]|] eqn:FI; [|exact I]. apply no_form. apply lookup in FI. assert (S : forallb (fun f => Nat.leb (List.length (operands f)) 3) g = true).
         { assert (A : forallb (fun x => forallb (fun f => Nat.leb (List.length (operands f)) 3) (fst (snd x))) names = true) by reflexivity. rewrite forallb_forall in A. exact (A _ FI). }
         unfold choose. clear FI. induction g as [|f g IH]; [reflexivity|]. cbn [forallb] in S. apply andb_prop in S. destruct S as [S1 S2]. cbn [find]. destruct (all_fit (operands f) ps) eqn:AF; [|exact (IH S2)]. apply fit_length in AF. apply Nat.leb_le in S1. lia.
       - destruct ops as [|o1 [|o2 [|o3 [|o4 os]]]]; try (cbn in L; lia). destruct o1, o2, o3; reflexivity. }
  unfold find_insn. generalize (lower_str name). intros n. clear name.
  assert (CASES : forall lit r (rest : option (string * (list info * Z))),
    (n = lit -> (asked lit ops pc = None <-> choose (fst r) ps = None)) -> (String.eqb n lit = false -> (asked n ops pc = None <-> match match rest with Some x => Some (snd x) | None => None end with None => True | Some (g, m) => finalize_insn g m ps = NoForm end)) ->
    (asked n ops pc = None <-> match match (if String.eqb lit n then Some (lit, r) else rest) with Some x => Some (snd x) | None => None end with None => True | Some (g, m) => finalize_insn g m ps = NoForm end)).
  { intros lit [g m] rest A B. rewrite String.eqb_sym. destruct (String.eqb n lit) eqn:Q.
    - apply String.eqb_eq in Q. subst n. cbn [snd]. rewrite no_form. exact (A eq_refl).
    - exact (B eq_refl). }
  unfold names. cbn [find fst].
  assert (KK : forall p o, same_kind p o -> (exists r s, p = P_Reg r /\ o = SReg s) \/ (exists e z, p = P_Imm e /\ o = SImm z)) by (intros [r|e|] [s|z] K; try contradiction K; eauto 6).
  assert (SH : (ps = [] /\ ops = []) \/ (exists p1 o1, (ps = [p1] /\ ops = [o1] /\ same_kind p1 o1)) \/ (exists p1 o1 p2 o2, (ps = [p1; p2] /\ ops = [o1; o2] /\ same_kind p1 o1 /\ same_kind p2 o2)) \/
    (exists p1 o1 p2 o2 p3 o3, (ps = [p1; p2; p3] /\ ops = [o1; o2; o3] /\ same_kind p1 o1 /\ same_kind p2 o2 /\ same_kind p3 o3))).
  { inversion F as [|p1 o1 ? ? K1 F1]; subst; [auto|right]. inversion F1 as [|p2 o2 ? ? K2 F2]; subst; [left; eauto|right]. inversion F2 as [|p3 o3 ? ? K3 F3]; subst; [left; eauto 10|right]. inversion F3; subst; [eauto 12|cbn in L; lia]. }
  clear F L.
  assert (GO : (ps = [] /\ ops = []) \/ (exists r s, ps = [P_Reg r] /\ ops = [SReg s]) \/ (exists e z, ps = [P_Imm e] /\ ops = [SImm z]) \/
    (exists r s r2 s2, ps = [P_Reg r; P_Reg r2] /\ ops = [SReg s; SReg s2]) \/ (exists r s e z, ps = [P_Reg r; P_Imm e] /\ ops = [SReg s; SImm z]) \/ (exists e z p o, ps = [P_Imm e; p] /\ ops = [SImm z; o]) \/
    (exists r s r2 s2 r3 s3, ps = [P_Reg r; P_Reg r2; P_Reg r3] /\ ops = [SReg s; SReg s2; SReg s3]) \/ (exists r s r2 s2 e z, ps = [P_Reg r; P_Reg r2; P_Imm e] /\ ops = [SReg s; SReg s2; SImm z]) \/
    (exists r s e z p o, ps = [P_Reg r; P_Imm e; p] /\ ops = [SReg s; SImm z; o]) \/ (exists e z p o p2 o2, ps = [P_Imm e; p; p2] /\ ops = [SImm z; o; o2])).
  { destruct SH as [SH|[(p1 & o1 & -> & -> & K1)|[(p1 & o1 & p2 & o2 & -> & -> & K1 & K2)|(p1 & o1 & p2 & o2 & p3 & o3 & -> & -> & K1 & K2 & K3)]]]; [left; exact SH|..].
    - destruct (KK _ _ K1) as [(r & s & -> & ->)|(e & z & -> & ->)]; [right; left|right; right; left]; eauto.
    - destruct (KK _ _ K1) as [(r & s & -> & ->)|(e & z & -> & ->)]; [destruct (KK _ _ K2) as [(r2 & s2 & -> & ->)|(e & z & -> & ->)]|]; [do 3 right; left|do 4 right; left|do 5 right; left]; eauto 6.
    - destruct (KK _ _ K1) as [(r & s & -> & ->)|(e & z & -> & ->)]; [destruct (KK _ _ K2) as [(r2 & s2 & -> & ->)|(e & z & -> & ->)]; [destruct (KK _ _ K3) as [(r3 & s3 & -> & ->)|(e & z & -> & ->)]|]|]; [do 6 right; left|do 7 right; left|do 8 right; left|do 9 right]; eauto 8. }
  clear SH KK. repeat (apply CASES; [intros _; cbn [fst]|let Q := fresh "Q" in intros Q]).
  all: cycle 27.
  { split; [auto|]. intros _. clear - Q Q0 Q1 Q2 Q3 Q4 Q5 Q6 Q7 Q8 Q9 Q10 Q11 Q12 Q13 Q14 Q15 Q16 Q17 Q18 Q19 Q20 Q21 Q22 Q23 Q24 Q25.
    unfold asked. rewrite Q, Q0, Q1, Q2, Q3, Q4, Q5, Q6, Q7, Q8, Q9, Q10, Q11, Q12, Q13, Q14, Q15, Q16, Q17, Q18, Q19, Q20, Q21, Q22, Q23, Q24, Q25. repeat match goal with |- match ?l with [] => _ | _ => _ end = None => destruct l | |- match ?o with SReg _ => _ | _ => _ end = None => destruct o end; reflexivity. }
  all: clear - GO; destruct GO as [(-> & ->)|[(? & ? & -> & ->)|[(? & ? & -> & ->)|[(? & ? & ? & ? & -> & ->)|[(? & ? & ? & ? & -> & ->)|[(? & ? & ? & ? & -> & ->)|[(? & ? & ? & ? & ? & ? & -> & ->)|[(? & ? & ? & ? & ? & ? & -> & ->)|[(? & ? & ? & ? & ? & ? & -> & ->)|(? & ? & ? & ? & ? & ? & -> & ->)]]]]]]]]];
    (split; intros H; first [reflexivity|discriminate H]).
Qed.
Theorem others_refused : forall name ps g m, find_insn name = Some (g, m) -> In P_Other ps -> finalize_insn g m ps = NoForm.
Proof.
  intros name ps g m _ H. apply no_form. assert (N : forall l q, In P_Other q -> all_fit l q = false).
  { induction l as [|x l IH]; intros [|p q] I0; cbn [all_fit]; try reflexivity; [contradiction I0|]. destruct I0 as [->|I0]; [|rewrite (IH q I0); apply andb_false_r]. unfold fits. destruct (fst x); reflexivity. }
  unfold choose. induction g as [|f g IH]; [reflexivity|]. cbn [find]. rewrite N by exact H. exact IH.
Qed.
(** a target needs a symbol *)
Theorem target_symbol : forall next first vstart is_abs bsymd istart slength g m ps i num2 bc bcoff blen out ws, finalize_insn g m ps = Done i -> itype i = I_9_PC ->
  tobytes nequ equ label sect next first vstart is_abs bsymd istart slength num2 i bc bcoff blen = BBytes out ws -> exists s, rel (imm i) = Some s /\ known label is_abs (section_symbol vstart bsymd istart slength) s.
Proof.
  intros next first vstart is_abs bsymd istart slength g m ps i num2 bc bcoff blen out ws F T H. destruct (fin_ok nequ equ label sect curpos vspecial precbc dot g m ps i F) as (f & j & _ & _ & _ & NP & IP).
  assert (C : curpos_rel (imm i) = true) by (destruct (itype j) eqn:TJ; try (rewrite NP in T by discriminate; congruence); destruct (IP eq_refl) as (-> & _); reflexivity).
  unfold tobytes in H. rewrite T in H. cbv zeta in H. destruct (from_next (imm i)) as [v| |] eqn:FN; try discriminate H. assert (RV : rel v = rel (imm i) /\ curpos_rel v = curpos_rel (imm i)).
  { unfold from_next in FN. destruct (M_Value.abs (imm i)); match type of FN with bind ?a _ = _ => destruct a as [x| |]; try discriminate FN end; cbn [bind] in FN; assert (V : v = set_abs (imm i) (Some x)) by congruence; subst v; split; reflexivity. }
  destruct RV as [R1 R2]. apply bvalue_flags in H. destruct H as (_ & _ & A & B). cbn [set_size rel curpos_rel] in A, B. rewrite R1, R2, C in *. destruct (rel (imm i)) as [s|]; [exists s; split; [reflexivity|apply target_known; exact (B s eq_refl)]|]. destruct (A eq_refl) as (_ & X & _). discriminate X.
Qed.
End Forms.
