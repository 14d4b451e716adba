(** Property theorems for libyasm/errwarn.c: C18, C19, C20. *)
From Coq Require Import ZArith List Lia Bool Sorted.
From Verif Require Import Lib M_Errwarn P_Errwarn.
Import ListNotations.
Open Scope Z_scope.

(** C18.  Every sequence of calls is handled (the search loop terminates) and the report is
    in non-decreasing line order. *)
Theorem C18_report_in_line_order : forall ops, exists s w, run ops = Some (s, w) /\
  StronglySorted (fun a b => n_line a <= n_line b) (report s).
Proof. exact report_sorted. Qed.
Print Assumptions C18_report_in_line_order.

(** C18/C19 (safe histories).  If no parser-class error is ever set, then for every line the
    reported diagnostics of that line are exactly the ones raised at it, in the order raised,
    nothing else is reported, and the counters equal the numbers of errors and warnings
    raised (as 32-bit counters). *)
Theorem C18_report_complete_and_stable : forall ops,
  Forall wclass_ok ops -> no_parse ops = true ->
  exists s w, run ops = Some (s, w) /\
    (forall L, map as_diag (filter (fun e => n_line e =? L) (report s)) =
               filter (fun d => d_line d =? L) (all_raised ops)) /\
    length (report s) = length (all_raised ops) /\
    ecount s = u32 (Z.of_nat (length (filter d_err (all_raised ops)))) /\
    wcount s = u32 (Z.of_nat (length (filter (fun d => negb (d_err d)) (all_raised ops)))).
Proof. exact report_complete. Qed.
Print Assumptions C18_report_complete_and_stable.

Definition demo : list op :=
  [ESet 4 10; WSet 1 11; WSet 4 12; Propagate 7; ESet 4 13; Propagate 3; WSet 2 14;
   ESet 1 15; ESet 2 16; Propagate 7; WSet 3 17; Propagate 5].
Example C18_example : Forall wclass_ok demo /\ no_parse demo = true /\
  match run demo with
  | Some (s, _) => map n_line (report s) = [3; 5; 7; 7; 7; 7] /\
                   map n_msg (report s) = [13; 17; 10; 11; 15; 14]
  | None => False
  end.
Proof. split; [unfold demo; repeat (constructor; [simpl; lia|]); constructor|]. split; [reflexivity|vm_compute; split; reflexivity]. Qed.

(** C19.  errwarn.h:283-285 promises that only a parser error on the *same line* may be
    overwritten.  There is a history in which a parser error at one line is overwritten by an
    error raised at a different line, which is then reported at the wrong line, while the
    error count says two. *)
Theorem C19_only_same_line_overwritten_refuted : exists ops s w,
  run ops = Some (s, w) /\
  map (fun d => (d_line d, d_msg d)) (all_raised ops) = [(3, 100); (8, 200)] /\
  map (fun e => (n_line e, n_msg e)) (report s) = [(3, 200)] /\ ecount s = 2.
Proof.
  exists [ESet 32832 100; Propagate 3; ESet 4 200; Propagate 8].
  eexists _, _. split; [vm_compute; reflexivity|]. vm_compute. repeat split; reflexivity.
Qed.
Print Assumptions C19_only_same_line_overwritten_refuted.

(** C20.  The pending error is the first one set since the last fetch, clear or propagation. *)
Theorem C20_first_error_kept : forall before r quietly c m after s w,
  resets r = true -> forallb quiet quietly = true -> c <> 0 ->
  forallb (fun o => negb (resets o)) after = true ->
  run (before ++ r :: quietly ++ ESet c m :: after) = Some (s, w) ->
  eclass s = c /\ emsg s = m.
Proof. exact first_error_kept. Qed.
Print Assumptions C20_first_error_kept.

(** C20.  Warnings leave the queue in the order set; exactly those whose class was enabled
    when they were set ever enter it. *)
Theorem C20_warnings_fifo : forall ops s w, Forall wclass_ok ops ->
  run ops = Some (s, w) -> w ++ warns s = accepted [] ops.
Proof. exact warnings_fifo. Qed.
Print Assumptions C20_warnings_fifo.

Example C20_example :
  let ops := [WSet 4 1; WEnable 4; WSet 4 2; WDisable 1; WSet 1 3; WSet 2 4; WFetch; WSet 3 5] in
  Forall wclass_ok ops /\
  accepted [] ops = [(4,2); (2,4); (3,5)] /\
  match run ops with Some (s, w) => w = [(4,2)] /\ warns s = [(2,4); (3,5)] | None => False end.
Proof. intros ops. split; [repeat (constructor; [simpl; lia|]); constructor|]. vm_compute. repeat split. Qed.

Example C20_first_example :
  match run ([ESet 9 9] ++ EClear :: [WSet 1 1] ++ ESet 4 10 :: [ESet 5 11; EXref 1 1; WFetch]) with
  | Some (s, _) => eclass s = 4 /\ emsg s = 10 | None => False end.
Proof. vm_compute. split; reflexivity. Qed.
