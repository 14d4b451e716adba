(** Theorems on COFF object files: C78, C79, C80. *)
From Coq Require Import ZArith List Bool Lia.
From Verif Require Import Lib M_Elf P_Elf M_ElfOut P_ElfOut M_CoffReloc M_CoffOut P_CoffOut P_CoffOutR P_CoffOutF P_CoffOutW.
Import ListNotations.
Open Scope Z_scope.

(** C78: a reader of COFF files finds every section, relocation and symbol. *)
Theorem C78_read : forall fl all nodebug time ss ys f, write_coff fl all nodebug time ss ys = Some f ->
  Forall (sect_ok (win fl)) ss -> Forall (sym_ok ss) ys -> Z.of_nat (length ss) <= 65533 -> Z.of_nat (length f) < 2 ^ 32 -> long_names (win fl) ss + 4 < 10 ^ 7 ->
  win fl = true \/ Forall (fun s => (length (s_name s) <= 8)%nat /\ Z.of_nat (length (s_rels s)) < 65536) ss ->
  read_coff (win fl) f = full fl all time ss ys.
Proof. exact read_full. Qed.
Print Assumptions C78_read.

(** .text with two relocations, .bss, .debug_info with one; a file name of more than 14 characters, a
    local, a long global function, a common, an external symbol, one section symbol with its auxiliary entry *)
Definition w1 : str := [46; 116; 101; 120; 116].
Definition w2 : str := [46; 98; 115; 115].
Definition w3 : str := [46; 100; 101; 98; 117; 103; 95; 105; 110; 102; 111].
Definition w4 : str := [46; 100; 101; 98; 117; 103; 95; 108; 105; 110; 101].
Definition wfile : str := [97; 98; 99; 100; 101; 102; 103; 104; 105; 106; 107; 108; 109; 46; 97; 115; 109].
Definition wlong : str := [108; 111; 110; 103; 95; 102; 117; 110; 99].
Definition wsects : list csect :=
  [CSect w1 1610612768 16 0 [232; 0; 0; 0; 0; 161; 0; 0; 0; 0] [CReloc 1 4 20; CReloc 6 2 6];
   CSect w2 3221225600 16384 40 [] []; CSect w3 1108344896 0 0 [1; 0; 0; 0; 0] [CReloc 1 1 11]].
Definition wsyms : list csym :=
  [CSym [46; 102; 105; 108; 101] true true false false false 103 0 (Some (AFile wfile)) PNone;
   CSym w1 true true false false false 3 0 (Some ASect) (PSect 0 0);
   CSym wlong true true false false true 0 0 None (PSect 0 5);
   CSym [108] false false false false false 0 0 None (PSect 2 3);
   CSym [101; 120; 116] true true false false false 0 0 None PExtern;
   CSym [99] true true false false false 0 0 None (PCommon 12);
   CSym [] false false false true false 0 0 None (PEqu 0);
   CSym [64; 102; 101; 97; 116; 46; 48; 48] false false true false false 3 0 None (PEqu 1)].
Ltac sect_ok_ k := unfold sect_ok, uninit, range, is_cstr; cbn [s_name s_flags s_align s_size s_data s_rels]; split; [repeat constructor; discriminate|]; split; [cbn; discriminate|];
  split; [lia|]; split; [reflexivity|]; split; [k|]; split; [cbn; intro; (discriminate || (split; [reflexivity|lia]))|]; split; [(discriminate || reflexivity)|]; repeat constructor; cbn; discriminate.
Lemma w_sects_ok : forall w, Forall (sect_ok w) wsects.
Proof.
  intro w. constructor; [|constructor; [|constructor; [|constructor]]].
  - sect_ok_ ltac:(right; exists 4; split; [lia|reflexivity]).
  - sect_ok_ ltac:(right; exists 14; split; [lia|reflexivity]).
  - sect_ok_ ltac:(left; reflexivity).
Qed.
Lemma w_syms_ok : Forall (sym_ok wsects) wsyms.
Proof. unfold wsyms. repeat constructor; cbn; try discriminate; try lia; auto. Qed.
Definition wout (fl : flavour) : list Z := match write_coff fl false true 7 wsects wsyms with Some f => f | None => [] end.
Example C78_example : write_coff WIN32 false true 7 wsects wsyms = Some (wout WIN32) /\ write_coff WIN64 false true 7 wsects wsyms = Some (wout WIN64) /\
  Forall (sect_ok true) wsects /\ Forall (sym_ok wsects) wsyms /\ length (wout WIN32) = 391%nat /\
  map (fun s => w_name s) (f_sects (read_coff true (wout WIN32))) = [Some w1; Some w2; Some w3] /\
  map (fun v => (v_index v, v_section v)) (f_syms (read_coff true (wout WIN32))) = [(0, 65534); (2, 1); (4, 1); (5, 0); (6, 0); (7, 65535); (8, 65535)] /\
  map (fun s => map (fun u => option_map v_name (u_target u)) (w_rels s)) (f_sects (read_coff true (wout WIN64))) = [[Some (Some [101; 120; 116]); Some (Some wlong)]; []; [Some (Some w1)]] /\
  map w_align (f_sects (read_coff true (wout WIN32))) = [16; 8192; 0].
Proof. repeat match goal with |- _ /\ _ => split end; try apply w_sects_ok; try apply w_syms_ok; vm_compute; reflexivity. Qed.

(** C79: a file is written exactly if every relocation is against a symbol of the table, and its string table
    ends where the file ends. *)
Theorem C79_written : forall fl all nodebug time ss ys, (exists f, write_coff fl all nodebug time ss ys = Some f) <->
  forall s q, In s ss -> uninit s = false -> s_data s <> [] -> In q (s_rels s) -> exists y, nth_error ys (q_sym q) = Some y /\ listed (all || win64 fl) y = true.
Proof. exact written. Qed.
Print Assumptions C79_written.
Theorem C79_strings : forall fl all nodebug time ss ys f, write_coff fl all nodebug time ss ys = Some f ->
  Forall (sect_ok (win fl)) ss -> Forall (sym_ok ss) ys -> Z.of_nat (length ss) <= 65533 -> Z.of_nat (length f) < 2 ^ 32 -> long_names (win fl) ss + 4 < 10 ^ 7 ->
  num f (symptr f + 18 * symcount f) 4 = Z.of_nat (length f) - (symptr f + 18 * symcount f).
Proof. intros. eapply read_back; eauto. Qed.
Print Assumptions C79_strings.
Example C79_example : num (wout WIN32) (symptr (wout WIN32) + 18 * symcount (wout WIN32)) 4 = 44 /\
  write_coff WIN32 false true 7 [CSect w1 32 1 0 [0; 0; 0; 0] [CReloc 0 3 6]] wsyms = None /\
  write_coff WIN64 false true 7 [CSect w1 32 1 0 [0; 0; 0; 0] [CReloc 0 3 6]] wsyms <> None.
Proof. repeat match goal with |- _ /\ _ => split end; vm_compute; (reflexivity || discriminate). Qed.

(** C80: for coff, without Windows, long names of sections are all read as "/0" and 65535 relocations at most are counted. *)
Theorem C80_exact : forall fl all nodebug time ss ys f, write_coff fl all nodebug time ss ys = Some f -> win fl = false ->
  Forall (sect_ok false) ss -> Forall (sym_ok ss) ys -> Z.of_nat (length ss) <= 65533 -> Z.of_nat (length f) < 2 ^ 32 ->
  f_sects (read_coff false f) = map (fun s =>
    CSectV (Some (if (length (s_name s) <=? 8)%nat then s_name s else [47; 48])) (plain (s_flags s)) (Z.min (s_align s) 8192) (size_of s) (if uninit s then [] else s_data s)
      (map (rel_view (views all ss 0 ys)) (if Z.of_nat (length (s_rels s)) <? 65536 then s_rels s else firstn (Z.to_nat 65535) (s_rels s)))) ss /\
  f_syms (read_coff false f) = present (views all ss 0 ys).
Proof. exact std_exact. Qed.
Print Assumptions C80_exact.
(** Two debug sections cannot be told apart. *)
Theorem C80_refuted : exists ss f, write_coff COFF32 false false 0 ss [] = Some f /\ Forall (sect_ok false) ss /\
  map s_name ss = [w3; w4] /\ map w_name (f_sects (read_coff false f)) = [Some [47; 48]; Some [47; 48]].
Proof.
  exists [CSect w3 512 1 0 [1] []; CSect w4 512 1 0 [2] []]. eexists. repeat match goal with |- _ /\ _ => split end; try reflexivity.
  constructor; [|constructor; [|constructor]]; sect_ok_ ltac:(right; exists 0; split; [lia|reflexivity]).
Qed.
Print Assumptions C80_refuted.
