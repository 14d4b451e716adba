(** Property theorems for libyasm/linemap.c: C12, C13, C14, C48. *)
From Coq Require Import ZArith List Lia Bool.
From Verif Require Import Lib M_Linemap P_Linemap.
Import ListNotations.
Open Scope Z_scope.

(** C12.  For every ordered history of API calls and every line not beyond the current one
    that some mapping covers, lookup returns file and physical line of the most recently
    recorded mapping that starts at or before the line. *)
Theorem C12_lookup_returns_governing_mapping : forall ops line,
  ordered ops = true ->
  line <= s_cur (srun ops) ->
  governs (s_hist (srun ops)) line <> None ->
  lookup (run ops) line = spec_lookup (srun ops) line.
Proof. exact lookup_correct. Qed.
Print Assumptions C12_lookup_returns_governing_mapping.

Definition demo : list op :=
  [OSet (Some [97]) 0 1 1; ONext; ONext; OSet (Some [98]) 0 10 2; ONext; ONext; ONext;
   OSet None 5 100 1; ONext].
Example C12_example : ordered demo = true /\ s_cur (srun demo) = 7 /\
  governs (s_hist (srun demo)) 4 = Some (Event 3 [98] 10 2) /\
  lookup (run demo) 4 = Some ([98], 12) /\ lookup (run demo) 6 = Some ([98], 101) /\
  lookup (run demo) 2 = Some ([97], 2).
Proof. repeat split; reflexivity. Qed.

(** C13.  Without the ordering hypothesis the same statement is false. *)
Theorem C13_unordered_history_refuted : exists ops line,
  line <= s_cur (srun ops) /\ governs (s_hist (srun ops)) line <> None /\
  lookup (run ops) line <> spec_lookup (srun ops) line.
Proof.
  exists [OSet (Some [97]) 5 1 1; OSet (Some [98]) 10 1 1; OSet (Some [100]) 20 1 1;
          OSet (Some [99]) 3 1 1;
          ONext; ONext; ONext; ONext; ONext; ONext; ONext; ONext; ONext; ONext], 7.
  repeat split; vm_compute; discriminate.
Qed.
Print Assumptions C13_unordered_history_refuted.

(** C14 (what holds).  A poke makes the poked line read the poked place and does not change
    any earlier covered line -- but every later line up to the next mapping reads the poked
    place too. *)
Theorem C14_poke_effect : forall ops f fl line,
  ordered (ops ++ [OPoke f fl]) = true ->
  0 < line ->
  let s := srun ops in
  let p := u64 (s_cur s + 1) in
  s_cur s < p -> p < u64 (p + 1) ->
  line <= u64 (p + 1) ->
  let F := inherit (s_hist s) p f in
  (line < p -> lookup (run (ops ++ [OPoke f fl])) line <> lookup (run ops) line ->
     s_cur s < line \/ governs (s_hist s) line = None) /\
  (p <= line -> lookup (run (ops ++ [OPoke f fl])) line = Some (F, u64 fl)).
Proof. exact poke_effect. Qed.
Print Assumptions C14_poke_effect.

(** C14 (what the header promises: linemap.h "restoring the original physical location
    relationship").  There is an ordered history in which the line after the poke resolves to
    a different file than the mapping in force before the poke. *)
Theorem C14_poke_restores_mapping_refuted : exists ops f fl e,
  ordered (ops ++ [OPoke f fl]) = true /\
  governs (s_hist (srun ops)) (s_cur (srun ops) + 2) = Some e /\
  exists file' l', lookup (run (ops ++ [OPoke f fl])) (s_cur (srun ops) + 2) = Some (file', l') /\
    file' <> e_file e /\
    l' <> e_fline e + e_inc e * (s_cur (srun ops) + 2 - e_line e) /\
    l' <> e_fline e + e_inc e * (s_cur (srun ops) - e_line e).
Proof.
  exists [OSet (Some [97]) 0 1 1; ONext; ONext], (Some [98]), 100, (Event 1 [97] 1 1).
  split; [reflexivity|]. split; [reflexivity|].
  exists [98], 100. repeat split; try reflexivity; vm_compute; discriminate.
Qed.
Print Assumptions C14_poke_restores_mapping_refuted.

(** C48.  Source text recorded for a line is what is read back for it, the latest if several. *)
Theorem C48_source_text_recall : forall ops line,
  no_wrap sinit ops -> 0 < line ->
  get_source (run ops) line = spec_source (s_src (srun ops)) line.
Proof. exact source_correct. Qed.
Print Assumptions C48_source_text_recall.

Example C48_example :
  let ops := [OSrc 1 [1]; ONext; ONext; ONext; ONext; OSrc 2 [2]; OSrc 3 [3]] in
  no_wrap sinit ops /\ get_source (run ops) 5 = Some (3, [3]) /\
  get_source (run ops) 1 = Some (1, [1]) /\ get_source (run ops) 4 = None.
Proof. simpl. unfold w64. repeat split; try reflexivity; lia. Qed.
