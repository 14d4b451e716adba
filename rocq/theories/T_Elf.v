(** ELF string and symbol tables: the theorems (C44, C45, C59). *)
From Coq Require Import ZArith List Bool Lia.
From Verif Require Import Lib M_Elf P_Elf P_ElfAll.
Import ListNotations.
Open Scope Z_scope.

(** C44: string tables. *)
Theorem C44_offsets : forall os t, run_ops os st_create = Some t ->
  fst (st_output t) = concat (map (fun s => s ++ [0]) (strings os [[]])) /\
  (Z.of_nat (length (fst (st_output t))) < 2 ^ 64 -> snd (st_output t) = Z.of_nat (length (fst (st_output t))) /\
   forall n s, nth_error (strings os [[]]) n = Some s -> is_cstr s ->
     exists i, nth_error t n = Some (i, s) /\ string_at (fst (st_output t)) i = Some s).
Proof. exact strtab_correct. Qed.
Print Assumptions C44_offsets.
Theorem C44_total : forall os, valid os 1 -> exists t, run_ops os st_create = Some t.
Proof. exact strtab_total. Qed.
Print Assumptions C44_total.

(** C45: the order and numbering of the symbol table. *)
Theorem C45_order : forall c file file2 ds ys, NoDup (map fst ys) -> exists s n, symbols c file file2 ds ys = Some (s, n) /\
  NoDup (table s) /\ nth_error (table s) 0 = Some Dummy /\ nth_error (table s) 1 = Some File /\
  (Z.of_nat (length (table s)) < 2 ^ 64 -> forall k i, nth_error (table s) k = Some i ->
    exists e, ents s i = Some e /\ e_symindex e = Z.of_nat k /\ (e_bind e = STB_LOCAL <-> Z.of_nat k < n)).
Proof. exact order_ok. Qed.
Print Assumptions C45_order.

(** C59: which symbols are in the table, with which binding, place and name. *)
Theorem C59_contents : forall c file file2 ds ys s n, NoDup (map fst ys) -> symbols c file file2 ds ys = Some (s, n) -> Z.of_nat (length (table s)) < 2 ^ 64 ->
  (forall m, In (Sy m) (table s) -> In m (map fst ys) \/ weakened m ds = true) /\
  (forall m y, In (m, y) ys -> (In (Sy m) (table s) <-> listed y (weakened m ds) = true) /\
    (listed y (weakened m ds) = true -> exists e, ents s (Sy m) = Some e /\ e_bind e = binding y (weakened m ds) /\
      (s_extern y = false -> s_defined y = true -> forall x sn o, s_kind y = Label x sn o ->
        e_sect e = Some x /\ (e_bind e <> STB_LOCAL \/ section_symbol y = false -> e_value e = o)))).
Proof. exact contents_ok. Qed.
Print Assumptions C59_contents.
Theorem C59_names : forall c file file2 ds ys s n, NoDup (map fst ys) -> symbols c file file2 ds ys = Some (s, n) -> Z.of_nat (length (table s)) < 2 ^ 64 ->
  Z.of_nat (length (fst (st_output (strs s)))) < 2 ^ 64 ->
  (is_cstr file2 -> exists e, ents s File = Some e /\ e_type e = STT_FILE /\ name_in_file s e = Some file2) /\
  (forall m y, In (m, y) ys -> listed y (weakened m ds) = true -> exists e, ents s (Sy m) = Some e /\
    match (match first_name c m ds with Some x => Some x | None => name_of c y end) with
    | None => e_name e = None
    | Some x => is_cstr x -> name_in_file s e = Some x
    end).
Proof. exact names_ok. Qed.
Print Assumptions C59_names.

(** A symbol that is weak and external is emitted as a strong reference. *)
Theorem C59_weak_refuted : exists c ds m y s n e, symbols c [97] [97] ds [(m, y)] = Some (s, n) /\ weakened m ds = true /\
  ents s (Sy m) = Some e /\ e_bind e <> STB_WEAK.
Proof. exact weak_refuted. Qed.
Print Assumptions C59_weak_refuted.
(** A global symbol whose type is given before it is declared loses the prefix. *)
Theorem C59_prefix_refuted : exists c ds m y s n e, symbols c [97] [97] ds [(m, y)] = Some (s, n) /\ listed y (weakened m ds) = true /\
  s_global y = true /\ ents s (Sy m) = Some e /\ name_in_file s e <> Some (full_name c y).
Proof. exact prefix_refuted. Qed.
Print Assumptions C59_prefix_refuted.

(** Examples.  A program with an external, a weak, a global and local labels, a section symbol, a common and an EQU. *)
Definition lab (nm : str) (g : bool) (o : Z) : sym := Sym nm false false g true (Label 7 [46; 116] o) 0 0 None 0 (Some 0).
Definition ex_conf := Conf [95] [] true.
Definition ex_syms : list (nat * sym) :=
  [ (1%nat, lab [97] false 5); (2%nat, Sym [101] true false false false Other 0 0 None 0 (Some 0)); (3%nat, lab [103] true 9);
    (4%nat, lab [46; 116] false 0); (5%nat, lab [119] true 12); (6%nat, Sym [99] false true false false Other 0 0 None 4 (Some 16));
    (7%nat, lab [98] false 6); (8%nat, Sym [113] false false false true Equ 0 0 None 0 (Some 0)) ].
Definition ex_dirs := [Weak 5 (lab [119] true 0); Size 1 [97] (Some 3)].
Definition show (r : option (state * Z)) : list (eid * Z * Z * option str) * Z :=
  match r with
  | None => ([], 0)
  | Some (s, n) => (map (fun i => match ents s i with
      | Some e => (i, e_bind e, e_value e, name_in_file s e) | None => (i, 0, 0, None) end) (table s), n)
  end.
Example ex_run : show (symbols ex_conf [120] [109; 46; 115] ex_dirs ex_syms) =
  ([(Dummy, 0, 0, None); (File, 0, 0, Some [109; 46; 115]); (Sy 7, 0, 6, Some [98]); (Sy 4, 0, 0, None); (Sy 1, 0, 5, Some [97]);
    (Sy 5, 2, 12, Some [95; 119]); (Sy 2, 1, 0, Some [95; 101]); (Sy 3, 1, 9, Some [95; 103]); (Sy 6, 1, 16, Some [95; 99])], 5).
Proof. vm_compute. reflexivity. Qed.
Example ex_nodup : NoDup (map fst ex_syms).
Proof. cbn. repeat constructor; cbn; intuition discriminate. Qed.
Example ex_strs : exists t, run_ops [App [97; 98]; App [99]; Ren 1 [100; 101; 102]; App []] st_create = Some t /\
  t = [(0, []); (1, [100; 101; 102]); (5, [99]); (7, [])] /\ fst (st_output t) = [0; 100; 101; 102; 0; 99; 0; 0] /\ string_at (fst (st_output t)) 5 = Some [99].
Proof. eexists. repeat split; reflexivity. Qed.
Example ex_valid : valid [App [97; 98]; App [99]; Ren 1 [100; 101; 102]; App []] 1.
Proof. cbn. lia. Qed.
