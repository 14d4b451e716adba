(** Property theorems for libyasm/symrec.c: C21, C22, C23, C49. *)
From Coq Require Import ZArith List Bool Lia.
From Verif Require Import Lib M_Hamt M_Symrec P_Symrec.
From Verif Require M_Errwarn.
Import ListNotations.
Open Scope Z_scope.

(** C21.  After any history a name carries the type and line of its first definition; a name
    never defined is not marked defined.  ([about true k ops] are the calls of the history that
    concern name [k]; the empty name is reserved for the absolute symbol.) *)
Theorem C21_first_definition_kept : forall fuel ops s k, run fuel ops = Some s -> k <> [] ->
  match first_def (about true k ops) with
  | Some (ty, l) => exists r, lookup s k = Some r /\ has (s_status r) DEFINED = true /\
                      s_name r = k /\ s_type r = ty /\ s_def r = l
  | None => forall r, lookup s k = Some r -> has (s_status r) DEFINED = false
  end.
Proof. exact definition_kept. Qed.
Print Assumptions C21_first_definition_kept.

(** C21.  A second definition, when no error is pending, raises the redefinition error naming
    the symbol, cross-referenced to the line of the first definition, and changes no symbol. *)
Theorem C21_redefinition_reported : forall fuel ops s o n s' p ty l,
  run fuel ops = Some s -> defines o = Some n -> fix_case (case_sens s) n <> [] ->
  first_def (about true (fix_case (case_sens s) n) ops) = Some (ty, l) -> l <> 0 ->
  M_Errwarn.eclass (err s) = 0 ->
  step fuel s o = Some (s', p) ->
  M_Errwarn.eclass (err s') = M_Errwarn.E_GENERAL /\ M_Errwarn.emsg (err s') = text M_REDEF n /\
  M_Errwarn.exline (err s') = l /\ M_Errwarn.exmsg (err s') = text M_XREF n /\
  forall k, lookup s' k = lookup s k.
Proof. exact redefinition_reported. Qed.
Print Assumptions C21_redefinition_reported.

(** The text of a diagnostic identifies its format and its arguments. *)
Theorem C21_text_identifies_symbol : forall a b k1 k2, 0 < k1 < 2 * w64 -> 0 < k2 < 2 * w64 ->
  Forall (fun c => -128 <= c < w64) a -> Forall (fun c => -128 <= c < w64) b ->
  text k1 a = text k2 b -> k1 = k2 /\ a = b.
Proof. exact text_inj. Qed.
Print Assumptions C21_text_identifies_symbol.

(** C21.  A declaration is accepted exactly if it is GLOBAL, or the name is not defined and is
    not bound to the other one of COMMON/EXTERN by an earlier declaration; otherwise the
    symbol is unchanged and an error is raised.  Other symbols never change. *)
Theorem C21_declaration_outcome : forall fuel ops s n v l s' p, run fuel ops = Some s ->
  let k := fix_case (case_sens s) n in let a := about true k ops in
  k <> [] -> Forall single_op ops -> single v ->
  existsb is_finalize ops = false -> existsb is_special a = false ->
  step fuel s (ODeclare n v l) = Some (s', p) ->
  (forall k', k' <> k -> lookup s' k' = lookup s k') /\
  exists r', lookup s' k = Some r' /\
  let vis0 := match lookup s k with Some r => s_vis r | None => 0 end in
  if (v =? GLOBAL) || (negb (is_some (first_def a)) && match bound false a with None => true | Some w => w =? v end)
  then err s' = err s /\ s_vis r' = Z.lor vis0 v /\ s_decl r' = l
  else lookup s k = Some r' /\
       (M_Errwarn.eclass (err s) = 0 -> M_Errwarn.eclass (err s') = M_Errwarn.E_GENERAL /\
          M_Errwarn.emsg (err s') = text M_DUP (k ++ [if negb (s_def r' =? 0) then s_def r' else s_decl r'])).
Proof. exact declaration_outcome. Qed.
Print Assumptions C21_declaration_outcome.

(** C21.  COMMON and EXTERN exclude each other in every history of single-flag calls. *)
Theorem C21_never_common_and_extern : forall fuel ops s k r, run fuel ops = Some s -> Forall single_op ops ->
  lookup s k = Some r -> has (s_vis r) COMMON = true -> has (s_vis r) EXTERN = true -> False.
Proof. exact never_common_and_extern. Qed.
Print Assumptions C21_never_common_and_extern.

(** C21 (safety).  No call ever touches a freed record: a history fails to complete only if
    the insertion of some name into the hash table does not return (see C11). *)
Theorem C21_calls_complete : forall fuel ops, run fuel ops = None ->
  exists ops1 o ops2 s k, ops = ops1 ++ o :: ops2 /\ run fuel ops1 = Some s /\
    op_key (case_sens s) o = Some k /\
    insert fuel false (tab s) k (Z.of_nat (length (heap s))) false = None.
Proof. exact run_total. Qed.
Print Assumptions C21_calls_complete.

(** C22.  Finalizing with undefined symbols not external: with no diagnostic pending, what is
    added to the report is one error per used, undefined, not common/extern symbol, at its first
    use line, in order of first appearance on each line, plus the closing remark at the least
    such line. *)
Theorem C22_undefined_reported_once : forall fuel ops s s' p, run fuel ops = Some s -> existsb is_finalize ops = false ->
  quiet (err s) -> (forall e, In e (M_Errwarn.report (err s)) -> M_Errwarn.n_kind e <> M_Errwarn.KParse) ->
  step fuel s (OFinalize false) = Some (s', p) ->
  let und := map (fun k => (k, first_use (about true k ops))) (filter (fun k => undefined k ops) (keys true [] ops)) in
  (forall L, filter (fun x => M_Errwarn.n_line x =? L) (M_Errwarn.report (err s')) =
     filter (fun x => M_Errwarn.n_line x =? L) (M_Errwarn.report (err s)) ++
     filter (fun x => M_Errwarn.n_line x =? L) (final_entries und)) /\
  length (M_Errwarn.report (err s')) = (length (M_Errwarn.report (err s)) + length (final_entries und))%nat.
Proof. exact finalize_report. Qed.
Print Assumptions C22_undefined_reported_once.

(** C22.  In every state, pending diagnostics or not: the exact calls made to the error
    machinery, and no symbol changes. *)
Theorem C22_finalize_calls : forall fuel ops s s' p, run fuel ops = Some s -> existsb is_finalize ops = false ->
  step fuel s (OFinalize false) = Some (s', p) ->
  let und := map (fun k => (k, first_use (about true k ops))) (filter (fun k => undefined k ops) (keys true [] ops)) in
  (exists w, M_Errwarn.run_from (err s) (final_calls und) = Some (err s', w)) /\
  forall k, lookup s' k = lookup s k.
Proof. exact finalize_calls. Qed.
Print Assumptions C22_finalize_calls.

(** C22.  Finalizing with undefined symbols external by policy: exactly the undefined symbols
    become extern, and no diagnostic is raised. *)
Theorem C22_undefined_become_extern : forall fuel ops s s' p, run fuel ops = Some s -> existsb is_finalize ops = false ->
  step fuel s (OFinalize true) = Some (s', p) -> err s' = err s /\
  forall k, match lookup s k with
            | None => lookup s' k = None
            | Some r => lookup s' k = Some (if undefined k ops then set_vis r (Z.lor (s_vis r) EXTERN) else r)
            end.
Proof. exact finalize_marks_extern. Qed.
Print Assumptions C22_undefined_become_extern.

(** C23 (what holds).  With no error pending, the first definition of a name gives it its value,
    which it keeps through any further calls. *)
Theorem C23_definition_has_value : forall fuel ops s o n s' p ops2 s'' getter v,
  run fuel ops = Some s -> defines o = Some n -> fix_case (case_sens s) n <> [] ->
  first_def (about true (fix_case (case_sens s) n) ops) = None ->
  M_Errwarn.eclass (err s) = 0 ->
  step fuel s o = Some (s', p) -> value_of_def o = (Some getter, v) ->
  run_from fuel s' ops2 = Some s'' ->
  exists r, lookup s'' (fix_case (case_sens s) n) = Some r /\ getter r = Some v.
Proof. exact first_definition_has_value. Qed.
Print Assumptions C23_definition_has_value.

(** C23.  With any error pending, the first definition of a name marks it defined but stores no
    value, and no later call ever gives it one; asking for a label's location then reads
    uninitialised memory ([get_label r = None]). *)
Theorem C23_pending_error_loses_value : forall fuel ops s o n s' p ops2 s'',
  run fuel ops = Some s -> defines o = Some n -> fix_case (case_sens s) n <> [] ->
  first_def (about true (fix_case (case_sens s) n) ops) = None ->
  M_Errwarn.eclass (err s) <> 0 ->
  step fuel s o = Some (s', p) ->
  run_from fuel s' ops2 = Some s'' ->
  exists r, lookup s'' (fix_case (case_sens s) n) = Some r /\ has (s_status r) DEFINED = true /\
    s_val r = VNone /\ (forall b l, o = OLabel n b true l -> get_label r = None).
Proof. exact pending_error_loses_value. Qed.
Print Assumptions C23_pending_error_loses_value.

(** C50.  The record a call returns is found again under exactly the spellings that count as the
    same name: equal ones, or, in case-insensitive mode, ones equal up to ASCII case. *)
Theorem C50_spelling_identifies_symbol : forall fuel ops s o s' p n m, run fuel ops = Some s ->
  names_in_call o = Some n -> step fuel s o = Some (s', p) ->
  (get s' m = Some p <-> alike (case_sens s) n m).
Proof. exact same_symbol. Qed.
Print Assumptions C50_spelling_identifies_symbol.

(** * Examples *)
Definition foo : str := [102;111;111].
Definition Foo : str := [70;111;111].
Definition bar : str := [98;97;114].
Definition qux : str := [113;117;120].

(** C49.  The table in the source says a symbol is never both defined and common, and the
    comment in symtab_define that a common symbol counts as defined; but defining a common
    symbol is accepted without any diagnostic. *)
Theorem C49_defined_and_common_excluded_refuted : exists ops s r,
  run 50 ops = Some s /\ lookup s foo = Some r /\
  has (s_status r) DEFINED = true /\ has (s_vis r) COMMON = true /\
  M_Errwarn.eclass (err s) = 0 /\ M_Errwarn.warns (err s) = [] /\ M_Errwarn.report (err s) = [].
Proof.
  exists [ODeclare foo COMMON 1; OLabel foo (Some 7) true 2]. eexists. eexists.
  split; [vm_compute; reflexivity|]. split; [vm_compute; reflexivity|]. vm_compute. repeat split.
Qed.
Print Assumptions C49_defined_and_common_excluded_refuted.

Definition demo : list op :=
  [OAbs; OUse foo 3; OLabel bar (Some 9) true 4; ODeclare foo GLOBAL 5; OCase false; OUse Foo 6;
   OUse qux 2; ODeclare [120] EXTERN 7; OUse [120] 8].
Example C21_example :
  first_def (about true bar demo) = Some (TLabel, 4) /\ first_def (about true foo demo) = None /\
  match run 50 (demo ++ [OLabel bar (Some 10) true 11]) with
  | Some s => M_Errwarn.emsg (err s) = text M_REDEF bar /\ M_Errwarn.exline (err s) = 4
  | None => False end /\
  match run 50 (demo ++ [ODeclare bar COMMON 11]) with
  | Some s => M_Errwarn.emsg (err s) = text M_DUP (bar ++ [4]) | None => False end /\
  match run 50 (demo ++ [ODeclare [120] COMMON 11]) with
  | Some s => M_Errwarn.emsg (err s) = text M_DUP [120; 7] | None => False end.
Proof. vm_compute. repeat split. Qed.
Example C22_example :
  filter (fun k => undefined k demo) (keys true [] demo) = [foo; qux] /\
  first_use (about true foo demo) = 3 /\ first_use (about true qux demo) = 2 /\
  match run 50 (demo ++ [OFinalize false]) with
  | Some s => map (fun e => (M_Errwarn.n_line e, M_Errwarn.n_msg e)) (M_Errwarn.report (err s)) =
       [(2, text M_UNDEF qux); (2, text M_ONCE []); (3, text M_UNDEF foo)]
  | None => False end /\
  match run 50 (demo ++ [OFinalize true]) with
  | Some s => match lookup s foo, lookup s bar with
              | Some r, Some r' => s_vis r = GLOBAL + EXTERN /\ s_vis r' = LOCAL | _, _ => False end
  | None => False end.
Proof. vm_compute. repeat split. Qed.
Example C23_example :
  match run 50 [OErr (M_Errwarn.ESet 4 77); OLabel foo (Some 5) true 2; OErr M_Errwarn.EClear] with
  | Some s => match lookup s foo with Some r => get_label r = None | None => False end
  | None => False end /\
  match run 50 [OErr (M_Errwarn.ESet 4 77); OLabel foo (Some 5) true 2; OErr M_Errwarn.EClear; OLabel foo (Some 6) true 3] with
  | Some s => match lookup s foo with Some r => get_label r = None | None => False end /\
              M_Errwarn.emsg (err s) = text M_REDEF foo
  | None => False end /\
  match run 50 [OLabel foo (Some 5) true 2; OEqu bar 8 3] with
  | Some s => match lookup s foo, lookup s bar with Some r, Some r' => get_label r = Some (Some 5) /\ get_equ r' = Some (Some 8) | _, _ => False end
  | None => False end.
Proof. vm_compute. repeat split. Qed.

Example C50_example :
  match run 50 [OCase false; OUse Foo 1] with
  | Some s => get s foo = Some 0 /\ get s [70;79;79] = Some 0 /\ get s bar = None | None => False end /\
  match run 50 [OUse Foo 1; OUse foo 2] with
  | Some s => get s Foo = Some 0 /\ get s foo = Some 1 | None => False end.
Proof. vm_compute. repeat split. Qed.
