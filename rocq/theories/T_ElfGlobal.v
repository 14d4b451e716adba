(** Theorems on the type, size, binding and visibility of global symbols of ELF objects: C93. *)
From Coq Require Import ZArith List Bool String.
From Verif Require Import Lib M_Intnum M_ElfSect P_ElfSect M_ElfGlobal P_ElfGlobal.
Import ListNotations.
Open Scope Z_scope.

(** C93: a symbol that is not declared weak is written as global, with the type of the last qualifier that names one,
    or else of the last TYPE directive; the visibility of the last qualifier that names one; and the first size among
    its qualifiers, or else that of the last SIZE directive.  Qualifiers after an unknown word do not count.  The
    messages are those for the directives and qualifiers one by one. *)
Theorem C93_global : forall ds ext tls, existsb is_weak ds = false ->
  let ps := or ext [] in
  let size := match first sizing (before ps) with Some x => Some x | None => latest dir_size ds end in
  symbol ds ext tls = Out 1 (if tls then 6 else or (latest kind (before ps)) (or (latest dir_kind ds) 0)) (or (latest view (before ps)) 0) (size_value size)
    (flat_map dir_messages ds ++ qualifier_messages ps ++ size_messages size).
Proof. exact global_spec. Qed.
Print Assumptions C93_global.
(** A weak symbol has type and size from the directives only, and default visibility. *)
Theorem C93_weak : forall ds ext tls, existsb is_weak ds = true ->
  symbol ds ext tls = Out 2 (if tls then 6 else or (latest dir_kind ds) 0) 0 (size_value (latest dir_size ds)) (flat_map dir_messages ds ++ size_messages (latest dir_size ds)).
Proof. exact weak_spec. Qed.
Print Assumptions C93_weak.
(** The error for the qualifiers is that for the first unknown word, if there is one. *)
Theorem C93_refused : forall ps s, In (MTypeError s) (qualifier_messages ps) <-> exists a p b, ps = a ++ p :: b /\ strange p = Some s /\ Forall (fun q => strange q = None) a.
Proof. exact refused_iff. Qed.
Print Assumptions C93_refused.
(** Qualifiers of a weak symbol, even unknown ones, are ignored without a message. *)
Theorem C93_weak_refuted : exists ds ext, existsb (fun p => some (kind p)) ext = true /\ existsb (fun p => some (view p)) ext = true /\ existsb (fun p => some (strange p)) ext = true /\
  symbol ds (Some ext) false = Out 2 0 0 (IL 0) [].
Proof. exact weak_refuted. Qed.
Print Assumptions C93_weak_refuted.
(** A size that is the name of a constant is accepted by SIZE, but refused as a qualifier. *)
Theorem C93_name_refuted : exists n i, let q := Param None (PId n 0 (Some i)) in
  symbol [DSize [q]] None false = Out 1 0 0 i [] /\ o_messages (symbol [] (Some [word_param "function"; q]) false) = [MTypeError n].
Proof. exact name_refuted. Qed.
Print Assumptions C93_name_refuted.

(** [global foo:Function hidden 12 (x - y) protected], [type foo object], [size foo 7], [size foo "x"] *)
Example C93_qualified : symbol [DType [word_param "object"]; DSize [Param None (PExpr (Some (IL 7)))]; DSize [Param None (PStr (lit "x"))]]
    (Some [word_param "Function"; word_param "hidden"; Param None (PExpr (Some (IL 12))); Param None (PExpr None); word_param "PROTECTED"]) false =
  Out 1 2 3 (IL 12) [MNoSize; MWarn WNumericQualifier; MManyVis].
Proof. vm_compute. reflexivity. Qed.
(** [global foo:data funktion hidden] *)
Example C93_unknown : symbol [] (Some [word_param "data"; word_param "funktion"; word_param "hidden"]) false = Out 1 1 0 (IL 0) [MTypeError (lit "funktion")] /\
  strange (word_param "funktion") = Some (lit "funktion").
Proof. split; vm_compute; reflexivity. Qed.
(** [weak foo], [type foo function], [type foo], [size foo bar] where bar is a label; and in a section of thread-local storage *)
Example C93_weak_typed : symbol [DWeak; DType [word_param "function"]; DType []; DSize [Param None (PId (lit "bar") 0 None)]] (Some [word_param "hidden"]) false = Out 2 2 0 (IL 0) [MNoType; MSizeNotInteger] /\
  symbol [DType [word_param "tls_object"]; DType [word_param "notype"]; DType [word_param "foo"]] None false = Out 1 0 0 (IL 0) [MTypeWarn (lit "foo")] /\
  o_type (symbol [] (Some [word_param "function"]) true) = 6.
Proof. repeat split; vm_compute; reflexivity. Qed.
