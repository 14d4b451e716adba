(** Theorems on the section directives of COFF objects: C94. *)
From Coq Require Import ZArith List Bool String.
From Verif Require Import Lib M_Intnum P_Intnum M_ElfSect P_ElfSect M_CoffSect P_CoffSect.
Import ListNotations.
Open Scope Z_scope.

(** C94: a directive is refused exactly for a bad parameter or alignment, and then changes nothing.  Otherwise the
    attributes and alignment of a new section (or the section that was there by default) are those of the last
    parameter that mentions them, or else those of the name; a section declared before stays as it is; and the
    warnings are those for the name and the parameters one by one. *)
Theorem C94_directive : forall o obj p ps n, text p = Some n ->
  (exists e, cswitch o obj (p :: ps) = (obj, CFailed e) /\ (Exists (cbad o) ps \/ misaligned o ps)) \/
  (~ Exists (cbad o) ps /\ ~ misaligned o ps /\
   ((cmissing (cut o n) obj /\ exists s, cswitch o obj (p :: ps) = (obj ++ [s], CSwitched (call_warnings o n ps)) /\
       casked o n ps s /\ cs_code s = cwants o n ps AExecute /\ cs_res s = is n [".bss"]%string) \/
    exists b s0 a, obj = b ++ s0 :: a /\ cmissing (cut o n) b /\ cs_name s0 = cut o n /\
      if cs_def s0 then exists s, cswitch o obj (p :: ps) = (b ++ s :: a, CSwitched (call_warnings o n ps)) /\ casked o n ps s /\ cs_code s = cs_code s0 /\ cs_res s = cs_res s0
      else cswitch o obj (p :: ps) = (obj, CSwitched (call_warnings o n ps ++ (if existsb (cknown o) ps && negb (existsb (keyed "gasflags") ps) then [CIgnored] else []))))).
Proof. exact cswitch_spec. Qed.
Print Assumptions C94_directive.
(** Whatever directives follow, a declared section stays as it is, and names stay distinct. *)
Theorem C94_kept : forall o ds obj, (forall s, In s obj -> cs_def s = false -> In s (cswitches o obj ds)) /\ (NoDup (map cs_name obj) -> NoDup (map cs_name (cswitches o obj ds))).
Proof. exact cswitches_keep. Qed.
Print Assumptions C94_kept.
(** Positive alignments below 2^32 are accepted if they are powers of two up to 8192. *)
Theorem C94_alignment : forall o ps i, cwants_align o ps = Some i -> canon i -> 0 < ival i < 2 ^ 32 -> (~ misaligned o ps <-> exists k, 0 <= k <= 13 /\ ival i = 2 ^ k).
Proof. exact calignment. Qed.
Print Assumptions C94_alignment.
(** The letter r, for a section that can only be read, gives a section that can be written. *)
Theorem C94_readonly_refuted : exists s, cswitch win64 [] [word_param ".foo"; Param (Some (lit "gasflags")) (PStr (lit "r"))] = ([s], CSwitched []) /\ Z.testbit (cs_flags s) (cbit AWrite) = true.
Proof. exact readonly_refuted. Qed.
Print Assumptions C94_readonly_refuted.
(** In plain COFF, sections of different names can become one, with the attributes of the first. *)
Theorem C94_truncated_refuted : exists n1 n2 obj s, n1 <> n2 /\ cswitch plain [] [Param None (PStr n1); word_param "data"] = (obj, CSwitched [CTruncated]) /\ obj = [s] /\
  cswitch plain obj [Param None (PStr n2)] = (obj, CSwitched [CTruncated]) /\ cwants plain n2 [] AText = true /\ Z.testbit (cs_flags s) (cbit AText) = false.
Proof. exact truncated_refuted. Qed.
Print Assumptions C94_truncated_refuted.

(** [section .foo data NoWrite share align=16 bar align=32 nobase] in win64 after the default section *)
Definition xps : list param :=
  [word_param "data"; word_param "NoWrite"; word_param "share"; Param (Some (lit "align")) (PExpr (Some (IL 16))); word_param "bar"; Param (Some (lit "ALIGN")) (PExpr (Some (IL 32))); word_param "nobase"].
Example C94_foo : cswitch win64 [cdefault win64] (word_param ".foo" :: xps) =
  ([cdefault win64; CSect (lit ".foo") 0x50000040 1 32 false false false], CSwitched [CParam (WQualifier (lit "bar"))]).
Proof. vm_compute. reflexivity. Qed.
(** [section .text nopage] changes the default section; once more it is ignored *)
Example C94_text : cswitch win64 [cdefault win64] [word_param ".text"; word_param "nopage"] = ([CSect (lit ".text") 0x68000020 0 16 true false false], CSwitched []) /\
  cswitch win64 [CSect (lit ".text") 0x68000020 0 16 true false false] [word_param ".text"; word_param "page"] = ([CSect (lit ".text") 0x68000020 0 16 true false false], CSwitched [CIgnored]).
Proof. split; vm_compute; reflexivity. Qed.
(** plain COFF: no Win32 attributes, and align is not known *)
Example C94_plain : cswitch plain [] [word_param ".rodata.str"; Param (Some (lit "align")) (PExpr (Some (IL 16)))] =
  ([CSect (lit ".rodata.") 0x40 0 0 false false false], CSwitched [CNoReadOnly; CParam (WQualifier (lit "align")); CTruncated]).
Proof. vm_compute. reflexivity. Qed.
(** alignments that are refused *)
Example C94_refused : cswitch win64 [] [word_param ".foo"; Param (Some (lit "align")) (PExpr (Some (IL 12)))] = ([], CFailed CNotPower) /\
  cswitch win64 [] [word_param ".foo"; Param (Some (lit "align")) (PExpr (Some (IL 16384)))] = ([], CFailed CTooLarge).
Proof. split; vm_compute; reflexivity. Qed.
