(** Theorems on the section directives of ELF objects: C92. *)
From Coq Require Import ZArith List Bool String Lia.
From Verif Require Import Lib M_Intnum P_Intnum M_ElfSect P_ElfSect.
Import ListNotations.
Open Scope Z_scope.

(** C92: a directive is refused exactly for a bad parameter or alignment, and then changes nothing.  Otherwise the
    attributes, type and alignment of a new section (or the section that was there by default) are those of the last
    parameter that mentions them, or else those of the name; a section declared before stays as it is; and the
    warnings are those for the parameters one by one. *)
Theorem C92_directive : forall obj p ps ext n, text p = Some n ->
  (exists e, section_switch obj (p :: ps) ext = (obj, Failed e) /\ (Exists bad ps \/ exists i, wants_align n ps = Some i /\ is_exp2 (get_uint i) = false)) \/
  (~ Exists bad ps /\ (forall i, wants_align n ps = Some i -> is_exp2 (get_uint i) = true) /\
   ((missing n obj /\ exists s, section_switch obj (p :: ps) ext = (obj ++ [s], Switched (flat_map warnings ps ++ merge_warnings n ps ext)) /\
       as_asked n ps ext (if caseless n ".stab" then 12 else 0) s /\ s_code s = gets n ps ext Exec /\ s_res s = is n [".bss"]%string) \/
    exists b s0 a, obj = b ++ s0 :: a /\ missing n b /\ s_name s0 = n /\
      if s_def s0 then exists s, section_switch obj (p :: ps) ext = (b ++ s :: a, Switched (flat_map warnings ps ++ merge_warnings n ps ext)) /\ as_asked n ps ext (s_entsize s0) s
      else section_switch obj (p :: ps) ext = (obj, Switched (flat_map warnings ps ++ merge_warnings n ps ext ++ (if existsb known ps && negb (existsb (keyed "gasflags") ps) then [WIgnored] else []))))).
Proof. exact switch_spec. Qed.
Print Assumptions C92_directive.
(** Whatever directives follow, a declared section stays as it is, and names stay distinct. *)
Theorem C92_kept : forall ds obj, (forall s, In s obj -> s_def s = false -> In s (switches obj ds)) /\ (NoDup (map s_name obj) -> NoDup (map s_name (switches obj ds))).
Proof. exact switches_keep. Qed.
Print Assumptions C92_kept.
(** Alignments below 2^32 are taken as they are, and accepted if they are powers of two. *)
Theorem C92_alignment : forall i, canon i -> 0 < ival i < 2 ^ 32 -> get_uint i = ival i /\ (is_exp2 (get_uint i) = true <-> exists k, 0 <= k /\ ival i = 2 ^ k).
Proof. exact alignment. Qed.
Print Assumptions C92_alignment.
(** A negative alignment is not refused. *)
Theorem C92_negative_refuted : exists p ps i s, says_align p = Some i /\ canon i /\ ival i < 0 /\ section_switch [] (word_param ".foo" :: p :: ps) None = ([s], Switched []) /\ s_align s = 0.
Proof. exact align_refuted. Qed.
Print Assumptions C92_negative_refuted.
(** Other letters for a declared section are ignored without a warning. *)
Theorem C92_redeclare_refuted : exists s p ps, s_def s = false /\ wants (s_name s) (p :: ps) Write = true /\ Z.testbit (s_flags s) (bit Write) = false /\
  section_switch [s] (Param None (PStr (s_name s)) :: p :: ps) None = ([s], Switched []).
Proof. exact redeclare_refuted. Qed.
Print Assumptions C92_redeclare_refuted.
(** A section with a bad size of entities can still be merged, with size 0. *)
Theorem C92_merge_refuted : exists ps ext s w, section_switch [] ps ext = ([s], Switched w) /\ Z.testbit (s_flags s) (bit Merge) = true /\ s_entsize s = 0.
Proof. exact merge_refuted. Qed.
Print Assumptions C92_merge_refuted.

(** [section .data nowrite TLS exec noexec align=16 foo align=32] after the default section *)
Definition yps : list param :=
  [word_param "nowrite"; word_param "TLS"; word_param "exec"; word_param "NoExec"; Param (Some (lit "align")) (PExpr (Some (IL 16))); word_param "foo"; Param (Some (lit "ALIGN")) (PExpr (Some (IL 32)))].
Example C92_data : section_switch [default_sect] (word_param ".data" :: yps) None =
  ([default_sect; Sect (lit ".data") 1 0x402 32 0 false false false], Switched [WQualifier (lit "foo")]).
Proof. vm_compute. reflexivity. Qed.
(** [section .text write] changes the default section; once more it is ignored *)
Example C92_text : section_switch [default_sect] [word_param ".text"; word_param "write"] None = ([Sect (lit ".text") 1 7 16 0 true false false], Switched []) /\
  section_switch [Sect (lit ".text") 1 7 16 0 true false false] [word_param ".text"; word_param "nowrite"] None = ([Sect (lit ".text") 1 7 16 0 true false false], Switched [WIgnored]).
Proof. split; vm_compute; reflexivity. Qed.
(** [.section .str,"aMS",@progbits,1] *)
Example C92_strings : section_switch [] [Param None (PStr (lit ".str")); Param (Some (lit "gasflags")) (PStr (lit "aMS")); Param None (PId (lit "progbits") 0 None)] (Some [Param None (PExpr (Some (IL 1)))]) =
  ([Sect (lit ".str") 1 0x32 1 1 false false false], Switched []).
Proof. vm_compute. reflexivity. Qed.
(** an alignment that is not a power of two, and one that is no number *)
Example C92_refused : section_switch [] [word_param ".foo"; Param (Some (lit "align")) (PExpr (Some (IL 12)))] None = ([], Failed ENotPower) /\
  section_switch [] [word_param ".foo"; Param (Some (lit "align")) (PStr (lit "12"))] None = ([], Failed ENotInteger).
Proof. split; vm_compute; reflexivity. Qed.
