(** Theorems on the relocations of ELF objects: C73, C74, C75. *)
From Coq Require Import ZArith List Bool Lia String.
From Verif Require Import Lib M_BitVect P_BitVect P_BitVectIO M_Intnum P_Intnum P_IntnumIO M_Expr P_Expr P_ExprLevel P_ExprTree P_ExprTree2 P_ExprTop M_Value P_Value P_ValueTop P_ValueOut M_ElfReloc P_ElfReloc P_ElfLink T_Value.
Import ListNotations.
Open Scope Z_scope.

(** C73: after linking, the field holds the value of the expression. *)
Theorem C73_linked : forall m label sect next local sectsym got dotdot index start K equ curpos spec precbc dot base,
  (forall s d, equ s = Some d -> shaped (eitem d)) ->
  forall nequ err e sz v num num2 num3 buf here bcoff offset warn out r ws E z, shaped (eitem e) ->
  (forall e1 st b, level_tree nequ equ true true false [] e = Fin (e1, st, b) -> tame false (core (unmask (sz mod 2 ^ 8) e1))) ->
  finalize_expr label sect equ curpos spec precbc dot nequ err (Some e) sz = FOk v ->
  env_value curpos dot base (start here + bcoff) E -> env_equ equ E -> env_place label sect next start E ->
  (forall s a, symv E s = Some (VNum a) -> l_addr K s = a) -> (forall q, l_addr K (sectsym q) = start q /\ got <> Some (sectsym q)) -> (forall g, got = Some g -> l_addr K g = l_got K) ->
  num_ok E num -> num_ok E num2 -> num_ok E num3 ->
  Forall byte buf -> 8 * Z.of_nat (List.length buf) = size v -> 0 <= bcoff -> 0 <= offset -> bcoff + offset < 2 ^ 31 -> (forall s p, label s = Some p -> next p + offset < 2 ^ 31) ->
  (forall w, wrt v = Some w -> rel v <> None /\ w = dotdot /\ forall b, symnum E w = Some b -> base b = 0) ->
  (forall s, rel v = Some s -> got = Some s -> m <> X86 /\ curpos_rel v = true \/ size v <> 32 /\ size v <> 64) ->
  eval E e = Some (VNum z) ->
  output_value m label sect next local sectsym got dotdot index num num2 num3 v buf here bcoff offset warn = VBytes out r ws ->
  linked m index K (start here) out r = Some (z mod 2 ^ size v) /\ match r with Some x => ival (e_addr x) = bcoff + offset | None => True end.
Proof. exact whole_link. Qed.
Print Assumptions C73_linked.
(** What becomes of _GLOBAL_OFFSET_TABLE_: its distance from the bytecode (x86) or from the field. *)
Theorem C73_table : forall m label sect next local sectsym got dotdot index start K E num num2 num3 v buf here bcoff offset warn out r ws s k,
  num_ok E num3 -> rel v = Some s -> match abs v with None => k = 0 | Some e => eval E e = Some (VNum k) end ->
  Forall byte buf -> 8 * Z.of_nat (List.length buf) = size v -> 0 <= bcoff -> 0 <= offset -> bcoff + offset < 2 ^ 31 ->
  wrt v = None -> got = Some s -> local s = false -> size v = 32 \/ size v = 64 ->
  output_value m label sect next local sectsym got dotdot index num num2 num3 v buf here bcoff offset warn = VBytes out (Some r) ws ->
  ival (e_addr r) = bcoff + offset /\ linked m index K (start here) out (Some r) = Some ((l_got K + k - (start here + bcoff) +
    match m with X86 => if curpos_rel v then offset else 0 | _ => if curpos_rel v then 0 else - offset end) mod 2 ^ size v).
Proof. exact table_ok. Qed.
Print Assumptions C73_table.

(** The symbols of T_Value; besides, 50 is _GLOBAL_OFFSET_TABLE_, 60 to 79 are the special symbols,
    90 is ..sym, and 100 and 101 are the symbols of the two sections. *)
Definition ysym (s : Z) : option value := if 100 <=? s then Some (VNum (xstart (s - 100))) else xsym s.
Definition yE : env := Env (fun _ => 0) (fun _ => 0) (fun b => b) ysym (fun a => a / 16) (fun a b => a - xbase b).
Definition yK : linker := Linker (fun s => match ysym s with Some (VNum a) => a | _ => 0 end) 5050 (fun s => 8 * s) (fun s => 9000 + 16 * s) (fun ty s => 100 * ty + s).
Definition ylocal (s : Z) : bool := negb (is_none (xlabel s)).
Definition yindex (s : Z) : option nat := if (60 <=? s) && (s <? 80) then Some (Z.to_nat (s - 60)) else None.
Definition ybuf (sz : Z) : list Z := repeat 0 (Z.to_nat (sz / 8)).
(** What is written for the expression [e] in a field of [sz] bits at [offset] of the bytecode at 16
    of section 0, and what is there after linking. *)
Definition yout (m : mach) (e : expr) (sz offset : Z) : vres :=
  match split xcur e sz with
  | FOk v => output_value m xlabel xsect xnext ylocal (fun q => 100 + Z.abs q) (Some 50) 90 yindex xnum xnum xnum v (ybuf sz) 0 16 offset true
  | _ => VFatal
  end.
Definition ylink (m : mach) (e : expr) (sz offset : Z) : option Z :=
  match yout m e sz offset with VBytes out r _ => linked m yindex yK 1000 out r | _ => None end.
(** label - $ + 5 of another section; (ext + 7) & 0xffff; label of this section + 9; ext wrt ..sym *)
Example C73_ex : env_value xcur 9 xbase (xstart 0 + 16) yE /\ env_place xlabel xsect xnext xstart yE /\
  (forall q, l_addr yK (100 + Z.abs q) = xstart q /\ Some 50 <> Some (100 + Z.abs q)) /\ l_addr yK 50 = l_got yK /\
  yout AMD64 (ADD, [TSym 3; neg 8; TInt (IL 5)]) 32 3 = VBytes [0; 0; 0; 0] (Some (Entry 101 (IL 19) true 32 None false (Some (IL 48)))) [] /\
  ylink AMD64 (ADD, [TSym 3; neg 8; TInt (IL 5)]) 32 3 = Some (2040 - 1016 + 5) /\
  yout X86 (ADD, [TSym 3; neg 8; TInt (IL 5)]) 32 3 = VBytes [48; 0; 0; 0] (Some (Entry 101 (IL 19) true 32 None false None)) [] /\
  ylink X86 (ADD, [TSym 3; neg 8; TInt (IL 5)]) 32 3 = Some (2040 - 1016 + 5) /\
  ylink X86 (AND, [TExpr ADD [TSym 4; TInt (IL 7)]; TInt (IL 65535)]) 16 1 = Some (5004 + 7) /\
  ylink X32 (ADD, [TSym 1; TInt (IL 9)]) 8 1 = Some ((1008 + 9) mod 256) /\
  ylink AMD64 (WRT, [TSym 4; TSym 90]) 64 1 = Some 5004.
Proof.
  split; [|split; [|split; [|split; [reflexivity|repeat split; vm_compute; reflexivity]]]].
  - split; [reflexivity|]. intros s [H| ->]; [|reflexivity]. unfold xcur in H. apply orb_true_iff in H. destruct H as [H|H]; apply Z.eqb_eq in H; subst s; reflexivity.
  - intros s p H. unfold ysym, env_place. assert (S : In s [1; 2; 3; 5; 7; 8]). { unfold xlabel in H. do 9 (destruct s as [|s|s]; try discriminate H; try (destruct s as [s|s|]; try discriminate H); try (cbn; tauto)). }
    cbn [In] in S. repeat (destruct S as [<-|S]; [injection H as <-; split; [reflexivity|vm_compute; split; [discriminate|reflexivity]]|]). destruct S.
  - intros q. cbn [l_addr yK]. unfold ysym. destruct (Z.leb_spec 100 (100 + Z.abs q)); [|lia]. replace (100 + Z.abs q - 100) with (Z.abs q) by lia. unfold xstart. split; [|intros X; assert (50 = 100 + Z.abs q) by congruence; lia].
    destruct (Z.eqb_spec (Z.abs q) 0), (Z.eqb_spec q 0); try reflexivity; exfalso; lia.
Qed.
(** x86, _GLOBAL_OFFSET_TABLE_ - $ one byte into the bytecode: one too much. *)
Theorem C73_got_refuted : eval yE (ADD, [TSym 50; neg 8]) = Some (VNum (5050 - 1016)) /\ l_addr yK 50 = l_got yK /\
  ylink AMD64 (ADD, [TSym 50; neg 8]) 32 1 = Some (5050 - 1016) /\ ylink X86 (ADD, [TSym 50; neg 8]) 32 1 = Some (5050 - 1016 + 1).
Proof. repeat split; vm_compute; reflexivity. Qed.
Print Assumptions C73_got_refuted.

(** C74: values with respect to a special symbol are what the ABI defines for it. *)
Theorem C74_special : forall m label sect next local sectsym got dotdot index start K E num num2 num3 v buf here bcoff offset warn out r ws s w y k z,
  (forall q, l_addr K (sectsym q) = start q) -> (forall p, label s = Some p -> l_addr K s = start (sect p) + next p) ->
  num_ok E num3 -> rel v = Some s -> match abs v with None => k = 0 | Some e => eval E e = Some (VNum k) end ->
  Forall byte buf -> 8 * Z.of_nat (List.length buf) = size v -> 0 <= bcoff -> 0 <= offset -> bcoff + offset < 2 ^ 31 -> (forall p, label s = Some p -> 0 <= next p < 2 ^ 31) ->
  wrt v = Some w -> w <> dotdot -> special m index w = Some y -> curpos_rel v = false -> wanted m K (s_name y) s k (start here + bcoff + offset) (start here) = Some z ->
  output_value m label sect next local sectsym got dotdot index num num2 num3 v buf here bcoff offset warn = VBytes out (Some r) ws ->
  ival (e_addr r) = bcoff + offset /\ linked m index K (start here) out (Some r) = Some (z mod 2 ^ 32).
Proof. exact special_ok. Qed.
Print Assumptions C74_special.
(** ext + 5 wrt ..plt; label wrt ..gotoff; table + $$ - $ wrt ..gotpc (at 16); ext wrt ..gotpcrel; ext wrt ..tpoff *)
Example C74_ex : special X86 yindex 60 = Some (Ssym "plt" true false false 4 32) /\
  ylink X86 (WRT, [TExpr ADD [TSym 4; TInt (IL 5)]; TSym 60]) 32 1 = Some (9064 + 5 - 1017) /\
  ylink X86 (WRT, [TSym 3; TSym 61]) 32 1 = Some ((2040 - 5050) mod 2 ^ 32) /\
  ylink X86 (WRT, [TExpr ADD [TSym 50; TInt (IL (-16))]; TSym 62]) 32 1 = Some (5050 - 1016) /\
  ylink AMD64 (WRT, [TSym 4; TSym 61]) 32 1 = Some (32 + 5050 - 1017) /\
  ylink AMD64 (WRT, [TSym 4; TSym 65]) 32 1 = Some 2304 /\
  yout AMD64 (WRT, [TSym 4; TSym 61]) 16 1 = VErr /\ yout AMD64 (WRT, [TSym 4; TSym 1]) 32 1 = VErr.
Proof. repeat split; vm_compute; reflexivity. Qed.
(** For ext - $ wrt ..got (x86) the position is not subtracted: what is written differs from that for
    ext wrt ..got by the offset in the bytecode alone. *)
Theorem C74_curpos_refuted : forall bcoff, In bcoff [0; 16; 32] ->
  let write cr := output_value X86 xlabel xsect xnext ylocal (fun q => 100 + Z.abs q) (Some 50) 90 yindex xnum xnum xnum
    (Val None (Some 4) (Some 71) false 0 cr false false false false false 32) (ybuf 32) 0 bcoff 2 true in
  match split xcur (WRT, [TExpr ADD [TSym 4; neg 8]; TSym 71]) 32 with FOk v => v = Val None (Some 4) (Some 71) false 0 true false false false false false 32 | _ => False end /\
  match write false, write true with
  | VBytes o1 r1 _, VBytes o2 r2 _ => linked X86 yindex yK 1000 o1 r1 = Some 32 /\ linked X86 yindex yK 1000 o2 r2 = Some 34
  | _, _ => False end.
Proof. intros bcoff B. cbn [In] in B. destruct B as [<-|[<-|[<-|[]]]]; vm_compute; repeat split. Qed.
Print Assumptions C74_curpos_refuted.

(** C75: what cannot be relocated is refused, and nothing else. *)
Theorem C75_refused : forall m label sect next local sectsym got dotdot index num num2 num3 v buf here bcoff offset warn s e n i3,
  rel v = Some s -> 0 <= size v < 256 -> (List.length buf <= 32)%nat ->
  match abs v with None => n = None | Some x => x = e /\ contains 8 e = false /\ n <> None /\ n = match num e with Some i => Some i | None => num2 e end /\ num3 e = Some i3 end ->
  output_value m label sect next local sectsym got dotdot index num num2 num3 v buf here bcoff offset warn = VErr <->
  segof v = true \/ section_rel v = true \/
  (~ exists p, label s = Some p /\ sect p = here /\ curpos_rel v = true /\ wrt v = None) /\
  (0 < rshift v \/
   match wrt v with
   | Some w => if w =? dotdot then ~ (size v = 8 \/ size v = 16 \/ size v = 32 \/ m = AMD64 /\ size v = 64) else special m index w = None \/ size v <> 32
   | None => ~ (size v = 8 \/ size v = 16 \/ size v = 32 \/ m = AMD64 /\ size v = 64)
   end).
Proof. exact (fun m label sect next local sectsym got dotdot index => refused_iff m label sect next local sectsym got dotdot index (fun _ => 0)). Qed.
Print Assumptions C75_refused.
(** seg ext; ext >> 1; 64 bits on x86; and the distance of a label of this section in 64 bits, which is written. *)
Example C75_ex : yout AMD64 (SEG, [TSym 4]) 16 0 = VErr /\ yout AMD64 (SHR, [TSym 4; TInt (IL 1)]) 32 0 = VErr /\ yout X86 (IDENT, [TSym 4]) 64 0 = VErr /\ yout AMD64 (IDENT, [TSym 4]) 24 0 = VErr /\
  match yout AMD64 (IDENT, [TSym 4]) 64 0 with VBytes _ (Some r) _ => rtype AMD64 yindex r = Some 1 | _ => False end.
Proof. repeat split; vm_compute; reflexivity. Qed.
