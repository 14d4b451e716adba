(** Property theorems for modules/dbgfmts/dwarf2/dwarf2-line.c: C38, C39, C63, C64, C65. *)
From Coq Require Import String.
From Coq Require Import ZArith List Bool Lia Sorted.
From Verif Require Import Lib M_BitVect M_Intnum M_File M_DwarfLine P_DwarfLine.
Import ListNotations.
Open Scope string_scope.
Open Scope list_scope.
Open Scope Z_scope.

(** C38.  A section with .loc directives, the first of whose rows belongs to a .loc that directly
    follows a label (any number of bytecodes, directives and labels; [labels_at]: the labels have the
    addresses of their places).  The operations are written, and a reader of line number programs
    gets exactly the rows meant: one for each .loc, in order, at the address of the bytecode behind
    it with its file, line, column and flags - of several at one offset the last gives the row and
    the flags add up - and then the row ending the sequence at the end of the section. *)
Theorem C38_rows : forall h rs asz lookup tb x rows, Good_header h -> 0 <= asz < 256 -> loc_sect rs asz x rows ->
  exists ops bs, gen_section 1 asz lookup tb false x = Good ops /\ ops_bytes rs ops = Good bs /\ program h bs = Some rows.
Proof. exact loc_exact. Qed.
Print Assumptions C38_rows.

(** C38.  In general, the last label before the first row being at offset [o]: every address is
    displaced by the distance from that .loc back to the label. *)
Theorem C38_displaced : forall h rs asz lookup tb code bcs l t base o,
  Good_header h -> 0 <= asz < 256 -> laid_out 0 bcs -> size bcs < 2 ^ 32 -> labels_at rs base bcs ->
  Sorted Z.le (map l_vline (l :: t)) -> Forall small_loc (l :: t) -> Forall (fun l => site bcs (l_vline l) <> None) (l :: t) ->
  label_end (before bcs (l_vline (first_row (site_off bcs) l t))) = Some o -> 0 <= base + o < 256 ^ asz ->
  let X := base + (o - site_off bcs (first_row (site_off bcs) l t)) in
  exists ops bs, gen_section 1 asz lookup tb false (Sect code (Some (l :: t)) bcs) = Good ops /\ ops_bytes rs ops = Good bs /\
    program h bs = Some (sequence (loc_rows X (site_off bcs) 0 true false false false 0 (l :: t)) (X + size bcs)).
Proof. exact loc_displaced. Qed.
Print Assumptions C38_displaced.

Ltac good := match goal with
  | |- exists o, ?t = Good o /\ _ => let v := eval vm_compute in t in match v with Good ?x => exists x; split; [vm_compute; reflexivity|] end
  | |- exists o, ?t = Some o /\ _ => let v := eval vm_compute in t in match v with Some ?x => exists x; split; [vm_compute; reflexivity|] end
  end.
(** A section of 4 + 30 + 2 bytes at 4096: the symbol of the section, a label behind the first
    bytecode, .loc directives on lines 3 and 5 *)
Definition ex_bcs : list bcode := [Bc 0 0 0 [0]; Bc 1 0 4 [1]; Bc 4 4 30 []; Bc 6 34 2 []].
Definition ex_loc (v f n : Z) (st : stmt) : loc := Loc v f n 7 0 false 0 st false true false None None.
Definition ex_rs (s : Z) : Z := if s =? 0 then 4096 else 4100.
Definition ex_h : header := hdr (Tables [] []).
Ltac labels := let b := fresh in let s := fresh in let B := fresh in let D := fresh in intros b s B D; cbn in B; repeat (destruct B as [B|B]; [subst b; cbn in D; intuition (subst; reflexivity)|]); contradiction.
Example C38_example : loc_sect ex_rs 8 (Sect true (Some [ex_loc 3 1 10 NoChange; ex_loc 5 2 400000 ClearStmt]) ex_bcs)
  [Row 4100 1 10 7 true false false true false 0 0; Row 4130 2 400000 7 false false false true false 0 0; Row 4132 2 400000 7 false false true false false 0 0].
Proof.
  refine (with_locs ex_rs 8 true ex_bcs (ex_loc 3 1 10 NoChange) [ex_loc 5 2 400000 ClearStmt] 4096 _ _ _ _ _ _ _ _).
  - cbn. repeat split; lia.
  - reflexivity.
  - labels.
  - repeat constructor; cbn; lia.
  - repeat constructor; cbn; lia.
  - repeat constructor; cbn; discriminate.
  - reflexivity.
  - cbn. lia.
Qed.
(** Refutation: the .loc on line 2 follows four bytes of code without a label; its row is at 4096,
    where that code begins, not at 4100. *)
Theorem C38_displaced_refuted : let bcs := [Bc 0 0 0 [0]; Bc 1 0 4 []; Bc 4 4 2 []] in let l := ex_loc 2 1 10 NoChange in
  exists ops, gen_section 1 8 (fun _ => ([], 0)) (Tables [] []) false (Sect true (Some [l]) bcs) = Good ops /\ exists bs, ops_bytes ex_rs ops = Good bs /\
  exists rows, program ex_h bs = Some rows /\ map w_line rows = [10; 10] /\ map w_addr rows = [4096; 4098] /\ 4096 + site_off bcs l = 4100.
Proof. cbv zeta. do 3 good. split; [|split]; reflexivity. Qed.
Print Assumptions C38_displaced_refuted.
(** Refutation: of two .loc directives the second stands behind the last bytecode; the code reads
    through a null pointer. *)
Theorem C38_trailing_refuted : exists x, x_bcs x = ex_bcs /\ gen_section 1 8 (fun _ => ([], 0)) (Tables [] []) false x = Ub.
Proof. exists (Sect true (Some [ex_loc 3 1 10 NoChange; ex_loc 9 1 12 NoChange]) ex_bcs). split; (vm_compute; reflexivity). Qed.
Print Assumptions C38_trailing_refuted.
(** Refutation: line 2^32 + 1, a step of 2^32 lines, is cut to 32 bits and then has no digits; the
    writer overruns its buffer. *)
Theorem C38_long_refuted : exists ops, gen_section 1 8 (fun _ => ([], 0)) (Tables [] []) false (Sect true (Some [ex_loc 3 1 4294967297 NoChange]) ex_bcs) = Good ops /\ ops_bytes ex_rs ops = Ub.
Proof. good. vm_compute. reflexivity. Qed.
Print Assumptions C38_long_refuted.

(** C39.  Line information of the assembler source (no .file directives), for any sections, the
    paths of whose lines are among [names].  The whole .debug_line is written, and a reader of such
    units gets from it, section by section, a row for each bytecode that has an offset of its own,
    with its address, the line it comes from and a file number that stands for the path it comes
    from, and behind them the end of the sequence - provided that in no section a label directly
    follows the first such bytecode. *)
Theorem C39_rows : forall asz rs lookup names l, 0 <= asz < 256 -> Forall good_path names -> Z.of_nat (length names) < 2 ^ 32 ->
  Forall (fun x => asm_sect rs asz lookup names (fst x) (snd x) /\ shift (fst x) = 0) l ->
  exists bytes h rows, generate 1 asz rs lookup (Tables [] []) names (map fst l) = Good bytes /\
    (Z.of_nat (length bytes) < 2 ^ 32 -> forall rest, read_unit (bytes ++ rest) = Some (h, rows, rest)) /\ asm_rows h lookup l rows.
Proof. exact asm_exact. Qed.
Print Assumptions C39_rows.

(** C39.  In general every address of a section is displaced by the length of that first bytecode
    if a label directly follows it. *)
Theorem C39_displaced : forall asz rs lookup names l, 0 <= asz < 256 -> Forall good_path names -> Z.of_nat (length names) < 2 ^ 32 ->
  Forall (fun x => asm_sect rs asz lookup names (fst x) (snd x)) l ->
  exists bytes h rows, generate 1 asz rs lookup (Tables [] []) names (map fst l) = Good bytes /\
    (Z.of_nat (length bytes) < 2 ^ 32 -> forall rest, read_unit (bytes ++ rest) = Some (h, rows, rest)) /\
    asm_rows h lookup (map (fun x => (fst x, snd x + shift (fst x))) l) rows.
Proof. exact asm_unit_ok. Qed.
Print Assumptions C39_displaced.

(** Line [n] of the file "s/a" (virtual line n) *)
Definition ex_path : str := bytes_of "s/a".
Definition ex_lookup (v : Z) : str * Z := (ex_path, v).
(** A label in front of the first instruction and one behind the second: as intended *)
Definition ex_sect : sect := Sect true None [Bc 0 0 0 [0]; Bc 2 0 5 []; Bc 3 5 2 [1]; Bc 5 7 1 []].
Example C39_example : let rs s := if s =? 0 then 4096 else 4103 in asm_sect rs 8 ex_lookup [ex_path] ex_sect 4096 /\ shift ex_sect = 0 /\
  good_path ex_path /\ exists bytes, generate 1 8 rs ex_lookup (Tables [] []) [ex_path] [ex_sect] = Good bytes /\ exists u, read_unit bytes = Some u /\
    u = (Header 1 true (-5) 14 13 [0; 1; 1; 1; 1; 0; 0; 0; 1; 0; 0; 1] [bytes_of "s"] [(bytes_of "a", 1, 0, 0)],
      [Row 4096 1 2 0 true false false false false 0 0; Row 4101 1 3 0 true false false false false 0 0; Row 4103 1 5 0 true false false false false 0 0;
       Row 4104 1 5 0 true false true false false 0 0], []).
Proof.
  cbv zeta. split; [|split; [reflexivity|split]].
  - intros _. eexists _, _. split; [reflexivity|]. split; [discriminate|]. split; [reflexivity|]. split; [discriminate|]. split; [cbn; repeat split; lia|]. split; [reflexivity|].
    split; [labels|]. split; [lia|]. split; [reflexivity|]. repeat constructor; cbn; auto; lia.
  - split; [repeat constructor; lia|vm_compute; discriminate].
  - do 2 good. reflexivity.
Qed.
(** Refutation: with a label behind the first instruction the rows are five bytes off, past the end
    of the section. *)
Theorem C39_refuted : let x := Sect true None [Bc 0 0 0 [0]; Bc 2 0 5 [1]; Bc 4 5 2 []] in let rs s := if s =? 0 then 4096 else 4101 in
  asm_sect rs 8 ex_lookup [ex_path] x 4096 /\ exists bytes, generate 1 8 rs ex_lookup (Tables [] []) [ex_path] [x] = Good bytes /\ exists u, read_unit bytes = Some u /\
  map w_line (snd (fst u)) = [2; 4; 4] /\ map w_addr (snd (fst u)) = [4101; 4106; 4108] /\ emitting (tl (x_bcs x)) = [Bc 2 0 5 [1]; Bc 4 5 2 []].
Proof.
  cbv zeta. split; [|do 2 good; split; [|split]; reflexivity].
  intros _. eexists _, _. split; [reflexivity|]. split; [discriminate|]. split; [reflexivity|]. split; [discriminate|]. split; [cbn; repeat split; lia|]. split; [reflexivity|].
  split; [labels|]. split; [lia|]. split; [reflexivity|]. repeat constructor; cbn; auto; lia.
Qed.
Print Assumptions C39_refuted.

(** C63.  With .file directives for paths with names, giving every number up to the greatest, and
    sections as in C38: .debug_line is a unit - of the length it says, whatever bytes follow - whose
    header has the constants the operations use, whose tables give every file number the path last
    given to it, and whose rows are those of the sections. *)
Theorem C63_unit : forall asz rs lookup names l xs rowss, 0 <= asz < 256 -> l <> [] -> Forall (fun f => 1 <= fst f /\ good_path (snd f)) l -> no_holes l -> Z.of_nat (length l) < 2 ^ 32 ->
  Forall2 (loc_sect rs asz) xs rowss ->
  exists bytes h, generate 1 asz rs lookup (files_of l) names xs = Good bytes /\
    (Z.of_nat (length bytes) < 2 ^ 32 -> forall rest, read_unit (bytes ++ rest) = Some (h, concat rowss, rest)) /\
    forall n p, last_file n l = Some p -> file_is h n p.
Proof. exact loc_unit_ok. Qed.
Print Assumptions C63_unit.

Definition ex_files : list (Z * str) := [(2, bytes_of "x/b"); (1, bytes_of "a.c"); (2, bytes_of "/u/x/c.h")].
Example C63_example : Forall (fun f => 1 <= fst f /\ good_path (snd f)) ex_files /\ no_holes ex_files /\ last_file 2 ex_files = Some (bytes_of "/u/x/c.h") /\
  exists bytes, generate 1 8 ex_rs (fun _ => ([], 0)) (files_of ex_files) [] [Sect true (Some [ex_loc 3 1 10 NoChange; ex_loc 5 2 400000 ClearStmt]) ex_bcs; Sect false None []] = Good bytes /\
    exists u, read_unit (bytes ++ [1; 2]) = Some u /\ snd u = [1; 2] /\ h_dirs (fst (fst u)) = [bytes_of "x"; bytes_of "/u/x"] /\ h_files (fst (fst u)) = [(bytes_of "a.c", 0, 0, 0); (bytes_of "c.h", 2, 0, 0)] /\
    snd (fst u) = [Row 4100 1 10 7 true false false true false 0 0; Row 4130 2 400000 7 false false false true false 0 0; Row 4132 2 400000 7 false false true false false 0 0].
Proof.
  split; [|split; [|split; [reflexivity|]]].
  - repeat constructor; cbn; try lia; try discriminate.
  - intros n p m H1 H2. assert (H3 : n <= 2) by (cbn in H1; repeat (destruct H1 as [H1|H1]; [injection H1 as <- _; lia|]); contradiction). assert (H4 : m = 1 \/ m = 2) by lia. destruct H4 as [->| ->]; eexists; cbn; eauto.
  - do 2 good. split; [|split; [|split]]; reflexivity.
Qed.
(** Refutation: a path without a name (.file 1 "d/") ends the table at once: file 2 is lost. *)
Theorem C63_nameless_refuted : exists bytes, generate 1 8 ex_rs (fun _ => ([], 0)) (files_of [(1, bytes_of "d/"); (2, bytes_of "b")]) [] [] = Good bytes /\
  exists u, read_unit bytes = Some u /\ h_files (fst (fst u)) = [].
Proof. do 2 good. reflexivity. Qed.
Print Assumptions C63_nameless_refuted.

(** C64.  A directive .file n path: the number n then stands for the path; a zero number or the name
    of a source file gets some number that does; all other numbers keep their paths. *)
Theorem C64_file : forall t n path p, reachable t -> 0 <= n < 2 ^ 63 -> vp_string p = Some path ->
  exists t', dir_file t [Param None (PExpr (Some (IL n))); p] = Some t' /\ reachable t' /\
    (0 < n -> denotes t' n path) /\ (n = 0 -> exists f, denotes t' f path) /\ forall f q, denotes t f q -> f <> n -> denotes t' f q.
Proof. exact dir_file_ok. Qed.
Print Assumptions C64_file.
(** C64.  A line's path that has a number is found under a number that stands for it, whatever the
    last number used was. *)
Theorem C64_found : forall t path lastf, reachable t -> Forall (fun f => f <> None) (t_files t) -> 0 <= lastf <= Z.of_nat (length (t_files t)) ->
  (exists f, denotes t f path) -> exists f, file_number t path lastf = Good f /\ denotes t f path.
Proof. exact number_found. Qed.
Print Assumptions C64_found.
(** C64.  A number left out is an error. *)
Theorem C64_hole : forall asz rs lookup t names xs k, nth_error (t_files t) k = Some None -> generate 1 asz rs lookup t names xs = Err.
Proof. exact hole_error. Qed.
Print Assumptions C64_hole.
Example C64_example : let t := files_of ex_files in reachable t /\ denotes t 1 (bytes_of "a.c") /\ denotes t 2 (bytes_of "/u/x/c.h") /\
  file_number t (bytes_of "/u/x/c.h") 1 = Good 2 /\ nth_error (t_files (files_of [(2, bytes_of "b")])) 0 = Some None.
Proof.
  cbv zeta. split; [unfold files_of, ex_files; cbn [fold_left]; repeat (apply reach_add; [|cbn; lia]); apply reach0|]. split; [exists 0; vm_compute; intuition discriminate|]. split; [exists 2; vm_compute; intuition discriminate|]. split; (vm_compute; reflexivity).
Qed.

(** C65.  A .loc directive with file, line, perhaps a column, and any options in any order, written
    "name value" or "name=value": what is recorded is what they ask for, the last of each kind
    counting and flags adding up - except that is_stmt is recorded the wrong way round. *)
Theorem C65_options : forall vline f n c os pss, 1 <= f < 2 ^ 63 -> 0 <= n < 2 ^ 63 -> (forall x, c = Some x -> 0 <= x < 2 ^ 63) -> Forall2 writes os pss ->
  (c = None -> match concat pss with Param None (PExpr _) :: _ => False | _ => True end) ->
  dir_loc vline (Param None (PExpr (Some (IL f))) :: Param None (PExpr (Some (IL n))) :: match c with Some x => [Param None (PExpr (Some (IL x)))] | None => [] end ++ concat pss) =
  Some (with_options vline f n (match c with Some x => x | None => 0 end) os (match asks_stmt os with Some b => if b then ClearStmt else SetStmt | None => NoChange end)).
Proof. exact dir_loc_ok. Qed.
Print Assumptions C65_options.
Example C65_example : Forall2 writes [Stmt true; Isa 3; Block; Isa 4]
  [[Param None (PId (bytes_of "IS_stmt") None); Param None (PExpr (Some (IL 1)))]; [Param (Some (bytes_of "isa")) (PExpr (Some (IL 3)))]; [Param None (PId (bytes_of "basic_block") None)];
   [Param None (PId (bytes_of "isa") None); Param None (PExpr (Some (IL 4)))]] /\ asks_isa [Stmt true; Isa 3; Block; Isa 4] = Some 4.
Proof.
  split; [|reflexivity]. constructor; [apply (w_stmt2 _ _ _ true); [reflexivity|split; [reflexivity|cbn; lia]]|]. constructor; [eapply w_isa1; [|split; [reflexivity|lia]|reflexivity]; reflexivity|].
  constructor; [apply w_block; reflexivity|]. constructor; [apply w_isa2; [reflexivity|split; [reflexivity|lia]]|constructor].
Qed.
(** Refutation: the row of ".loc 1 10 7 is_stmt 1" is not a statement. *)
Theorem C65_refuted : exists l, dir_loc 3 (map (fun n => Param None (PExpr (Some (IL n)))) [1; 10; 7] ++ [Param None (PId (bytes_of "is_stmt") None); Param None (PExpr (Some (IL 1)))]) = Some l /\
  exists ops, gen_section 1 8 (fun _ => ([], 0)) (Tables [] []) false (Sect true (Some [l]) ex_bcs) = Good ops /\ exists bs, ops_bytes ex_rs ops = Good bs /\
  exists rows, program ex_h bs = Some rows /\ map w_line rows = [10; 10] /\ map w_stmt rows = [false; false].
Proof. do 4 good. split; reflexivity. Qed.
Print Assumptions C65_refuted.
