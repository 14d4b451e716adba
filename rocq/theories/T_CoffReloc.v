(** Theorems on the relocations of COFF objects: C76, C77. *)
From Coq Require Import ZArith List Bool Lia.
From Verif Require Import Lib M_BitVect P_BitVect P_BitVectIO M_Intnum P_Intnum P_IntnumIO M_Expr P_Expr P_ExprLevel P_ExprTree P_ExprTree2 P_ExprTop M_Value P_Value P_ValueTop P_ValueOut M_CoffReloc P_CoffReloc P_CoffLink T_Value.
Import ListNotations.
Open Scope Z_scope.

(** C76: after linking, the field holds the value of the expression. *)
Theorem C76_linked : forall fl label sect next extern common csize sectsym imagebase start K equ curpos spec precbc dot base,
  (forall s d, equ s = Some d -> shaped (eitem d)) ->
  forall nequ err e sz v num num2 num3 buf here bcoff blen offset warn out r ws E z, shaped (eitem e) ->
  (forall e1 st b, level_tree nequ equ true true false [] e = Fin (e1, st, b) -> tame false (core (unmask (sz mod 2 ^ 8) e1))) ->
  finalize_expr label sect equ curpos spec precbc dot nequ err (Some e) sz = FOk v ->
  env_value curpos dot base (start here + bcoff) E -> env_equ equ E -> env_place label sect next start E -> agree label sect next common csize sectsym start K ->
  (forall s a, symv E s = Some (VNum a) -> k_addr K s = a) -> (forall s x, symseg E s = Some x -> k_secno K s = x) -> (win fl = false -> imagebase = None) ->
  num_ok E num -> num_ok E num2 -> num_ok E num3 ->
  Forall byte buf -> 8 * Z.of_nat (List.length buf) = size v -> 0 <= bcoff -> 0 <= offset -> offset + Z.of_nat (List.length buf) <= blen -> bcoff + blen < 2 ^ 30 -> (forall s p, label s = Some p -> next p < 2 ^ 30) ->
  (forall w, wrt v = Some w -> rel v <> None /\ curpos_rel v = false /\ forall b, symnum E w = Some b -> base b = if is_base imagebase w then k_base K else 0) ->
  (rel v <> None -> if segof v then size v = 16 else curpos_rel v = false -> i386 fl = true \/ wbase imagebase v = true -> size v = 32) ->
  eval E e = Some (VNum z) ->
  coff_value fl label sect next extern common csize sectsym imagebase num num2 num3 v buf here bcoff blen offset false warn = CBytes out r ws ->
  clinked fl K (start here) out r = Some (z mod 2 ^ size v) /\ match r with Some x => ival (c_addr x) = bcoff + offset | None => True end.
Proof. exact clink_whole. Qed.
Print Assumptions C76_linked.
(** Any value, also relative to the next instruction, to a section or to the image. *)
Theorem C76_value : forall fl label sect next extern common csize sectsym imagebase start K, agree label sect next common csize sectsym start K -> (forall s p, label s = Some p -> 0 <= next p < 2 ^ 30) ->
  forall E num num2 num3 v buf here bcoff blen offset nobase warn out r ws s k,
  num_ok E num3 -> rel v = Some s -> match abs v with None => k = 0 | Some e => eval E e = Some (VNum k) end ->
  Forall byte buf -> 8 * Z.of_nat (List.length buf) = size v -> 0 <= bcoff -> 0 <= offset -> offset + Z.of_nat (List.length buf) <= blen -> bcoff + blen < 2 ^ 30 ->
  (segof v = true -> size v = 16) -> (segof v = false -> section_rel v = true \/ curpos_rel v = false /\ (i386 fl = true \/ nobase || wbase imagebase v = true) -> size v = 32) -> 0 <= size v <= 256 ->
  (win fl = false -> (nobase || wbase imagebase v = true -> curpos_rel v = true) /\ (curpos_rel v = true -> ip_rel v = false)) ->
  coff_value fl label sect next extern common csize sectsym imagebase num num2 num3 v buf here bcoff blen offset nobase warn = CBytes out (Some r) ws ->
  ival (c_addr r) = bcoff + offset /\ clinked fl K (start here) out (Some r) = Some (cwanted K (nobase || wbase imagebase v) v s k (start here + bcoff) mod 2 ^ size v).
Proof. exact cvalue_ok. Qed.
Print Assumptions C76_value.

(** The symbols of T_Value; besides, 4 is external, 6 a common symbol of 12 bytes, 80 is ..imagebase,
    100 and 101 are the symbols of the two sections. *)
Definition wsym (s : Z) : option value := if 100 <=? s then Some (VNum (xstart (s - 100))) else xsym s.
Definition wE : env := Env (fun _ => 0) (fun _ => 0) (fun b => b) wsym (fun a => if (1000 <=? a) && (a <? 2000) then 1 else 2) (fun a b => a - b).
Definition waddr (s : Z) : Z := match wsym s with Some (VNum a) => a | _ => 0 end.
Definition wK : clinker := Clinker waddr (fun s => if s =? 6 then 12 else 0) 400 (fun s => match symseg wE s with Some x => x | None => 0 end) (fun s => if (1000 <=? waddr s) && (waddr s <? 2000) then 1000 else 2000).
Definition wcommon (s : Z) : bool := s =? 6.
Definition wsize (s : Z) : option (option intnum) := if s =? 6 then Some (Some (IL 12)) else None.
Definition wbuf (sz : Z) : list Z := repeat 0 (Z.to_nat (sz / 8)).
Definition wval (fl : flavour) (v : val) (blen offset : Z) : cres :=
  coff_value fl xlabel xsect xnext (Z.eqb 4) wcommon wsize (fun q => 100 + Z.abs q) (if win64 fl then Some 80 else None) xnum xnum xnum v (wbuf (size v)) 0 16 blen offset false true.
(** What is written for the expression [e] in a field of [sz] bits at [offset] of the bytecode of 12 bytes at 16
    of section 0, and what is there after linking. *)
Definition wout (fl : flavour) (e : expr) (sz offset : Z) : cres := match split xcur e sz with FOk v => wval fl v 12 offset | _ => CFatal end.
Definition wlink (fl : flavour) (e : expr) (sz offset : Z) : option Z := match wout fl e sz offset with CBytes out r _ => clinked fl wK 1000 out r | _ => None end.
(** label of another section - $ + 5; ext + 7; common; label of this section + 9; seg; label wrt label; ext wrt ..imagebase *)
Example C76_ex : agree xlabel xsect xnext wcommon wsize (fun q => 100 + Z.abs q) xstart wK /\ (forall s x, symseg wE s = Some x -> k_secno wK s = x) /\
  wout COFF32 (ADD, [TSym 3; neg 8; TInt (IL 5)]) 32 3 = CBytes [29; 0; 0; 0] (Some (Crel 101 (IL 19) 20)) [] /\
  wlink COFF32 (ADD, [TSym 3; neg 8; TInt (IL 5)]) 32 3 = Some (2040 - 1016 + 5) /\
  wout WIN32 (ADD, [TSym 3; neg 8; TInt (IL 5)]) 32 3 = CBytes [52; 0; 0; 0] (Some (Crel 101 (IL 19) 20)) [] /\
  wlink WIN32 (ADD, [TSym 3; neg 8; TInt (IL 5)]) 32 3 = Some (2040 - 1016 + 5) /\
  wlink WIN64 (ADD, [TSym 3; neg 8; TInt (IL 5)]) 32 3 = Some (2040 - 1016 + 5) /\
  wlink COFF64 (ADD, [TSym 4; TInt (IL 7)]) 64 1 = Some (5004 + 7) /\
  wout COFF32 (IDENT, [TSym 6]) 32 1 = CBytes [12; 0; 0; 0] (Some (Crel 6 (IL 17) 6)) [] /\ wlink COFF32 (IDENT, [TSym 6]) 32 1 = Some 5006 /\ wlink WIN32 (IDENT, [TSym 6]) 32 1 = Some 5006 /\
  wlink WIN32 (ADD, [TSym 1; TInt (IL 9)]) 32 1 = Some (1008 + 9) /\
  wlink WIN32 (SEG, [TSym 3]) 16 1 = Some 2 /\
  wlink WIN64 (WRT, [TSym 3; TSym 5]) 32 1 = Some 2040 /\ wlink WIN64 (WRT, [TSym 4; TSym 80]) 32 1 = Some (5004 - 400) /\
  match wval WIN64 (Val (Some (IDENT, [TInt (IL (-7))])) (Some 4) None false 0 true true false false false false 32) 7 2 with
  | CBytes out (Some r) _ => c_type r = 5 /\ clinked WIN64 wK 1000 out (Some r) = Some (5004 - (1016 + 7)) | _ => False end.
Proof.
  split; [|split; [|repeat match goal with |- _ /\ _ => split end; vm_compute; auto]].
  - assert (LB : forall s p, xlabel s = Some p -> In s [1; 2; 3; 5; 7; 8]).
    { intros s p H. unfold xlabel in H. do 9 (destruct s as [|s|s]; try discriminate H; try (destruct s as [s|s|]; try discriminate H); try (cbn; tauto)). }
    split; [|split; [|split]].
    + intros q. cbn [k_addr k_size k_secaddr wK]. assert (WA : waddr (100 + Z.abs q) = xstart q).
      { unfold waddr, wsym. destruct (Z.leb_spec 100 (100 + Z.abs q)); [|lia]. replace (100 + Z.abs q - 100) with (Z.abs q) by lia. unfold xstart. destruct (Z.eqb_spec (Z.abs q) 0), (Z.eqb_spec q 0); try reflexivity; exfalso; lia. }
      rewrite WA. unfold xstart. destruct (Z.eqb_spec (100 + Z.abs q) 6); [lia|]. destruct (q =? 0); auto.
    + intros s p H. pose proof (LB s p H) as S. cbn [In] in S. repeat (destruct S as [<-|S]; [injection H as <-; vm_compute; auto|]). destruct S.
    + intros s C. cbn [k_size wK]. unfold wcommon in C. rewrite C. reflexivity.
    + intros s n C. unfold wsize in C. destruct (Z.eqb_spec s 6) as [->|]; [|discriminate]. injection C as <-. vm_compute. repeat split; discriminate.
  - intros s x H. cbn [k_secno wK]. rewrite H. reflexivity.
Qed.
(** 32-bit machines: dw label gets a relocation of 32 bits, which changes the two bytes after the field. *)
Theorem C76_word_refuted : match wout WIN32 (IDENT, [TSym 3]) 16 1 with
  | CBytes out (Some r) ws => List.length out = 2%nat /\ ws = [] /\ capply WIN32 wK (c_type r) (c_sym r) (lev out) 1017 1000 = Some (32, 2040)
  | _ => False end.
Proof. vm_compute. auto. Qed.
Print Assumptions C76_word_refuted.
(** win64: dq ext wrt ..imagebase is the address of ext. *)
Theorem C76_base_refuted : wlink WIN64 (WRT, [TSym 4; TSym 80]) 32 1 = Some (5004 - k_base wK) /\ wlink WIN64 (WRT, [TSym 4; TSym 80]) 64 1 = Some 5004.
Proof. split; vm_compute; reflexivity. Qed.
Print Assumptions C76_base_refuted.

(** C77: what cannot be relocated is refused, and nothing else. *)
Theorem C77_refused : forall fl label sect next extern common csize sectsym imagebase num num2 num3 v buf here bcoff blen offset nobase warn s e n i3,
  rel v = Some s -> 0 <= blen < 2 ^ 31 -> 0 <= offset -> offset + Z.of_nat (List.length buf) < 2 ^ 31 ->
  match abs v with None => n = None | Some x => x = e /\ contains 8 e = false /\ n <> None /\ n = match num e with Some i => Some i | None => num2 e end /\ num3 e = Some i3 end ->
  (common s = true -> csize s <> None /\ label s = None) ->
  coff_value fl label sect next extern common csize sectsym imagebase num num2 num3 v buf here bcoff blen offset nobase warn = CErr <->
  (~ exists p, label s = Some p /\ sect p = here /\ curpos_rel v = true /\ wrt v = None /\ segof v = false /\ section_rel v = false) /\
  (0 < rshift v \/
   (segof v = true \/ section_rel v = true) /\ (curpos_rel v = true \/ exists w, wrt v = Some w) \/
   (exists w, wrt v = Some w /\ imagebase <> Some w /\ ~ exists p q, label s = Some p /\ label w = Some q /\ sect p = sect q) \/
   win fl = false /\ common s = true /\ (forall m, csize s = Some (Some m) -> sign m < 0) \/
   (if curpos_rel v then size v <> 32 \/ i386 fl = false /\ ip_rel v = true /\ ~ 0 <= blen - (offset + Z.of_nat (List.length buf)) <= 5
    else segof v = false /\ section_rel v = false /\ i386 fl = false /\ size v <> 32 /\ size v <> 64)).
Proof. exact crefused_iff. Qed.
Print Assumptions C77_refused.
(** ext >> 1; ext - $ in 16 bits; label wrt label of another section; 16 bits on amd64; a second repetition of an instruction *)
Example C77_ex : wout WIN64 (SHR, [TSym 4; TInt (IL 1)]) 32 0 = CErr /\ wout WIN32 (ADD, [TSym 4; neg 8]) 16 0 = CErr /\ wout WIN32 (WRT, [TSym 3; TSym 1]) 32 0 = CErr /\ wout COFF64 (IDENT, [TSym 4]) 16 0 = CErr /\
  wval WIN64 (Val None (Some 4) None false 0 true true false false false false 32) 14 2 = CErr /\
  match wval WIN64 (Val None (Some 4) None false 0 true true false false false false 32) 14 9 with CBytes _ (Some r) _ => c_type r = 5 | _ => False end.
Proof. repeat match goal with |- _ /\ _ => split end; vm_compute; auto. Qed.
