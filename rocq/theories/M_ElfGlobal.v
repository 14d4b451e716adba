(** Type, size, binding and visibility of a global symbol of an ELF object: the qualifiers of its declaration and the
    directives TYPE, SIZE and WEAK, elf-objfmt.c.  Parameters as in M_ElfSect.v.  One symbol that is declared global
    and defined here; its entry in the symbol table without name, section and value, which M_Elf.v has.  An
    expression for the size is given by its integer, if it has one. *)
From Coq Require Import ZArith List Bool String.
From Verif Require Import Lib M_Intnum M_ElfSect.
Import ListNotations.
Open Scope Z_scope.

(** elf.h:176-215 *)
Definition STB_GLOBAL : Z := 1.
Definition STB_WEAK : Z := 2.
Definition STT_NOTYPE : Z := 0.
Definition STT_OBJECT : Z := 1.
Definition STT_FUNC : Z := 2.
Definition STT_TLS : Z := 6.
Definition STV_DEFAULT : Z := 0.
Definition STV_INTERNAL : Z := 1.
Definition STV_HIDDEN : Z := 2.
Definition STV_PROTECTED : Z := 3.

Inductive message := MWarn (w : warning) | MManyVis | MTypeWarn (s : str) | MTypeError (s : str) | MNoType | MNoSize | MSizeNotInteger.
Record entry := Entry { in_table : bool; xsize : option (option intnum); bind : Z; type : Z; vis : Z }.
(** elf.c:298-317 elf_symtab_entry_create *)
Definition entry_create : entry := Entry false None 0 STT_NOTYPE STV_DEFAULT.
(** elf.c:544-560 elf_symtab_set_nonzero *)
Definition set_nonzero (b t : Z) (x : option (option intnum)) (e : entry) : entry :=
  Entry (in_table e) (match x with Some _ => x | None => xsize e end) (if b =? 0 then bind e else b) (if t =? 0 then type e else t) (vis e).
(** elf-objfmt.c:85-111 elf_objfmt_symtab_append with elf.c:562-567 elf_sym_set_visibility *)
Definition symtab_append (b t v : Z) (x : option (option intnum)) (e : entry) : entry :=
  let e := set_nonzero b t x e in Entry true (xsize e) (bind e) (type e) (Z.land v 3).

(** elf-objfmt.c:133-138 elf_build_global_data *)
Record gdata := GData { g_size : option (option intnum); g_type : Z; g_vis : Z; g_over : Z }.
Inductive gaction := SetKind (t : Z) | SetVis (v : Z).
(** elf-objfmt.c:179-190 help *)
Definition ghelp : list (string * gaction) :=
  [("function"%string, SetKind STT_FUNC); ("data"%string, SetKind STT_OBJECT); ("object"%string, SetKind STT_OBJECT);
   ("internal"%string, SetVis STV_INTERNAL); ("hidden"%string, SetVis STV_HIDDEN); ("protected"%string, SetVis STV_PROTECTED)].
Definition glookup (s : str) : option gaction :=
  match find (fun h => casesame s (lit (fst h))) ghelp with Some (_, a) => Some a | None => None end.
(** valparam.c:294-301 yasm_dir_helper_flag_set; elf-objfmt.c:160-168 elf_global_helper_vis *)
Definition gact (a : gaction) (d : gdata) : gdata :=
  match a with
  | SetKind t => GData (g_size d) t (g_vis d) (g_over d)
  | SetVis v => GData (g_size d) (g_type d) v (g_over d + 1)
  end.
(** elf-objfmt.c:141-158 elf_global_helper_valparam; [None]: an error *)
Definition gother (p : param) (d : gdata) : option gdata * list message :=
  match p_val p, vp_id p with
  | None, Some s => (None, [MTypeError s])
  | v, _ =>
      match v, p_what p, g_size d with
      | None, PExpr x, None => (Some (GData (Some x) (g_type d) (g_vis d) (g_over d)), [])
      | _, _, _ => (Some d, [MWarn (unknown p)])
      end
  end.
(** valparam.c:219-275 yasm_dir_helper with this table, none of whose words needs a value *)
Fixpoint ghelper (d : gdata) (ps : list param) : gdata * list message :=
  match ps with
  | [] => (d, [])
  | p :: ps =>
      match match p_val p, vp_id p with None, Some s => glookup s | _, _ => None end with
      | Some a => ghelper (gact a d) ps
      | None =>
          match gother p d with
          | (None, m) => (d, m)
          | (Some d, m) => let '(d, m2) := ghelper d ps in (d, m ++ m2)
          end
      end
  end.
(** elf-objfmt.c:171-209 build_global *)
Definition build_global (ps : list param) (e : entry) : entry * list message :=
  let '(d, m) := ghelper (GData None 0 STV_DEFAULT 0) ps in
  (symtab_append STB_GLOBAL (g_type d) (g_vis d) (g_size d) e, m ++ (if 1 <? g_over d then [MManyVis] else [])).

(** the directives for the symbol, with the parameters that follow its name *)
Inductive directive := DType (ps : list param) | DSize (ps : list param) | DWeak.
(** elf-objfmt.c:1154-1189 dir_type; elf-objfmt.c:1191-1216 dir_size; elf-objfmt.c:1218-1229 dir_weak *)
Definition direct (e : entry) (d : directive) : entry * list message :=
  let set_type t := (Entry (in_table e) (xsize e) (bind e) t (vis e), []) in
  let set_size x := (Entry (in_table e) (Some x) (bind e) (type e) (vis e), []) in
  match d with
  | DType (p :: _) =>
      match p_val p, vp_id p with
      | None, Some s =>
          if casesame s (lit "function") then set_type STT_FUNC
          else if casesame s (lit "object") then set_type STT_OBJECT
          else if casesame s (lit "tls_object") then set_type STT_TLS
          else if casesame s (lit "notype") then set_type STT_NOTYPE
          else (e, [MTypeWarn s])
      | _, _ => (e, [MNoType])
      end
  | DType [] => (e, [MNoType])
  | DSize (p :: _) =>
      match p_val p, p_what p with
      | None, PId _ _ v => set_size v
      | None, PExpr v => set_size v
      | _, _ => (e, [MNoSize])
      end
  | DSize [] => (e, [MNoSize])
  | DWeak => (symtab_append STB_WEAK 0 STV_DEFAULT None e, [])
  end.
Fixpoint directs (e : entry) (ds : list directive) : entry * list message :=
  match ds with [] => (e, []) | d :: ds => let '(e, m) := direct e d in let '(e, m2) := directs e ds in (e, m ++ m2) end.
(** elf-objfmt.c:254-344 elf_objfmt_build_symtab, for a global symbol that is defined *)
Definition build (ext : option (list param)) (e : entry) : entry * list message :=
  if in_table e then (e, []) else build_global (match ext with Some ps => ps | None => [] end) e.
(** elf.c:467-542 elf_symtab_write_to_file: what is written, given whether the symbol is a label in a section with
    thread-local storage *)
Record out := Out { o_bind : Z; o_type : Z; o_vis : Z; o_size : intnum; o_messages : list message }.
Definition symbol (ds : list directive) (ext : option (list param)) (tls : bool) : out :=
  let '(e, m) := directs entry_create ds in
  let '(e, m2) := build ext e in
  Out (bind e) (if tls then STT_TLS else type e) (vis e) (match xsize e with Some (Some i) => i | _ => IL 0 end)
    (m ++ m2 ++ match xsize e with Some None => [MSizeNotInteger] | _ => [] end).
