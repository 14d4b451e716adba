(** The ELF object file: the theorems (C60). *)
From Coq Require Import ZArith List Bool Lia.
From Verif Require Import Lib M_Elf P_Elf M_ElfOut P_ElfOut P_ElfOutW P_ElfOutR P_ElfOutAll.
Import ListNotations.
Open Scope Z_scope.

(** C60: an ELF reader finds in the file the sections, relocations and symbols that were written. *)
Theorem C60_read : forall wide ss os strs syms nlocal f, Forall (section_ok wide) ss -> run_ops os st_create = Some strs -> nth_error (strings os [[]]) 0 = Some [] ->
  Forall is_cstr (strings os [[]]) -> Forall (symbol_ok ss (strings os [[]])) syms -> range nlocal 32 ->
  write wide ss strs syms nlocal = Some f -> Z.of_nat (length f) < 2 ^ 32 -> place ss (length ss) < 65536 ->
  is_elf wide f /\ read wide f = expected wide ss (strings os [[]]) syms nlocal /\
  forall n s, nth_error ss n = Some s -> nth_error (read wide f) (Z.to_nat (place ss n)) = Some (sect_view s).
Proof. exact write_ok. Qed.
Print Assumptions C60_read.

(** C60: the stored sections lie apart from one another, between the ELF header and the section headers, which end the file. *)
Theorem C60_layout : forall wide ss os strs syms nlocal f, Forall (section_ok wide) ss -> run_ops os st_create = Some strs -> range nlocal 32 ->
  write wide ss strs syms nlocal = Some f -> Z.of_nat (length f) < 2 ^ 32 -> place ss (length ss) < 65536 ->
  (forall i j h h', nth_error (headers wide f) i = Some h -> nth_error (headers wide f) j = Some h' -> i <> j -> kept h -> kept h' ->
     h_offset h + h_size h <= h_offset h' \/ h_offset h' + h_size h' <= h_offset h) /\
  (forall h, In h (headers wide f) -> kept h ->
     (if wide then 64 else 52) <= h_offset h /\ 0 <= h_size h /\ h_offset h + h_size h <= shoff wide f /\
     (table_type h -> h_offset h mod 4 = 0) /\ (~ table_type h -> h_align h <> 0 -> h_offset h mod h_align h = 0)) /\
  shoff wide f mod 16 = 0 /\ shoff wide f + (if wide then 64 else 40) * Z.of_nat (length (headers wide f)) = Z.of_nat (length f).
Proof. exact layout_ok. Qed.
Print Assumptions C60_layout.

(** C60: a file is written exactly when every stored section's alignment is 0 or a power of two. *)
Theorem C60_total : forall wide ss strs syms nlocal, Forall (section_ok wide) ss ->
  ((exists f, write wide ss strs syms nlocal = Some f) <-> Forall (fun s => o_type s = 8 \/ o_align s = 0 \/ exists k, 0 <= k /\ o_align s = 2 ^ k) ss).
Proof. exact write_total. Qed.
Print Assumptions C60_total.

(** C60: the 64-bit symbol table announces an alignment of 8 that its offset need not have. *)
Theorem C60_symtab_alignment_refuted : exists f h, write true [odd_section] st_create [Symbol None 0 0 0 0 0 None 0] 1 = Some f /\
  nth_error (headers true f) 3 = Some h /\ h_type h = 2 /\ h_align h = 8 /\ h_offset h mod 8 <> 0.
Proof. exact symtab_misaligned. Qed.
Print Assumptions C60_symtab_alignment_refuted.

(** A program with code and relocations, uninitialised data and three symbols meets the hypotheses; the reader finds its parts. *)
Definition ex_text (wide : bool) : section :=
  Section [46; 116; 101; 120; 116] 1 6 16 0 0 [232; 0; 0; 0; 0; 195] [Reloc 1 2 2 (if wide then -4 else 0); Reloc 2 1 1 0].
Definition ex_bss : section := Section [46; 98; 115; 115] 8 3 4 0 4096 [] [].
Definition ex_data : section := Section [46; 100] 1 3 1 0 0 [1; 2; 3] [].
Definition ex_ss (wide : bool) : list section := [ex_text wide; ex_bss; ex_data].
Definition ex_ops : list sop := [App [102; 46; 115]; App [109; 97; 105; 110]].
Definition ex_syms : list symbol :=
  [Symbol None 0 0 0 0 0 None 0; Symbol (Some 1%nat) 0 0 0 4 0 None 65521; Symbol None 0 0 0 3 0 (Some 2%nat) 0; Symbol (Some 2%nat) (-1) 4 1 2 2 (Some 0%nat) 0].
Example C60_example_ok : forall wide, Forall (section_ok wide) (ex_ss wide) /\ (exists strs, run_ops ex_ops st_create = Some strs) /\
  nth_error (strings ex_ops [[]]) 0 = Some [] /\ Forall is_cstr (strings ex_ops [[]]) /\ Forall (symbol_ok (ex_ss wide) (strings ex_ops [[]])) ex_syms /\ place (ex_ss wide) 3 < 65536.
Proof.
  intro wide. split; [|split; [|split; [|split; [|split]]]].
  - repeat constructor; try (destruct wide; cbn; unfold range; lia); try discriminate; cbn; auto; intros [X|X]; try discriminate; repeat (destruct X as [X|X]; try discriminate); auto.
  - eexists. vm_compute. reflexivity.
  - reflexivity.
  - repeat constructor; try discriminate; intro X; repeat (destruct X as [X|X]; try discriminate); auto.
  - apply Forall_forall. intros y I. unfold symbol_ok, range. cbn in I.
    repeat (destruct I as [<-|I]; [cbn; repeat (split; [lia|]); split; intros p H; try discriminate; injection H as <-; lia|]). destruct I.
  - destruct wide; vm_compute; reflexivity.
Qed.
Example C60_example_narrow : forall strs f, run_ops ex_ops st_create = Some strs -> write false (ex_ss false) strs ex_syms 3 = Some f ->
  length f = 544%nat /\ map v_name (read false f) = [Some []; Some SHSTRTAB; Some STRTAB; Some SYMTAB; Some [46; 116; 101; 120; 116]; Some [46; 114; 101; 108; 46; 116; 101; 120; 116]; Some [46; 98; 115; 115]; Some [46; 100]] /\
  nth_error (map v_content (read false f)) 5 = Some (Rels [Reloc 1 2 2 0; Reloc 2 1 1 0]).
Proof. intros strs f R W. vm_compute in R. injection R as <-. vm_compute in W. injection W as <-. vm_compute. auto. Qed.
Example C60_example_wide : forall strs f, run_ops ex_ops st_create = Some strs -> write true (ex_ss true) strs ex_syms 3 = Some f ->
  nth_error (map v_content (read true f)) 5 = Some (Rels [Reloc 1 2 2 (-4); Reloc 2 1 1 0]) /\
  nth_error (map v_content (read true f)) 3 = Some (Syms [SymView (Some []) 0 0 0 0 0 0; SymView (Some [102; 46; 115]) 0 0 0 4 0 65521; SymView (Some []) 0 0 0 3 0 7; SymView (Some [109; 97; 105; 110]) (2 ^ 64 - 1) 4 1 2 2 4]).
Proof. intros strs f R W. vm_compute in R. injection R as <-. vm_compute in W. injection W as <-. vm_compute. auto. Qed.
