(** Section directives of ELF objects: valparam.c, elf-objfmt.c elf_objfmt_section_switch.  Text is a list of character
    codes without NUL.  Messages are given by constructors; freeing of memory is left out. *)
From Coq Require Import ZArith List Bool String Ascii.
From Verif Require Import Lib M_Intnum.
Import ListNotations.
Open Scope Z_scope.

Definition str := list Z.
(** a literal *)
Definition lit (s : string) : str := map (fun c => Z.of_N (N_of_ascii c)) (list_ascii_of_string s).
Fixpoint same (a b : str) : bool := match a, b with [], [] => true | x :: a, y :: b => (x =? y) && same a b | _, _ => false end.
Definition lower (c : Z) : Z := if (65 <=? c) && (c <=? 90) then c + 32 else c.
(** strcasecmp.c:46-66 yasm__strcasecmp, equal or not, for the letters of ASCII *)
Fixpoint casesame (a b : str) : bool := match a, b with [], [] => true | x :: a, y :: b => (lower x =? lower y) && casesame a b | _, _ => false end.

(** valparam.h: a parameter's name and its value - identifier with the prefix to be taken off, string or expression;
    identifiers and expressions have their integer value if they are constant *)
Inductive pval := PId (s : str) (prefix : Z) (v : option intnum) | PStr (s : str) | PExpr (v : option intnum).
Record param := Param { p_val : option str; p_what : pval }.
(** valparam.c:131-143 yasm_vp_id *)
Definition vp_id (p : param) : option str :=
  match p_what p with PId (c :: s) prefix _ => Some (if c =? prefix then s else c :: s) | PId [] _ _ => Some [] | _ => None end.
(** valparam.c:100-114 yasm_vp_expr with yasm_expr_get_intnum *)
Definition vp_int (p : param) : option intnum := match p_what p with PExpr v => v | PId _ _ v => v | PStr _ => None end.
(** valparam.c:116-129 yasm_vp_string *)
Definition vp_string (p : param) : option str := match p_what p with PId s _ _ => Some s | PStr s => Some s | PExpr _ => None end.

Inductive warning := WQualifier (s : str) | WStringQualifier | WNumericQualifier | WAttribute (c : Z) | WEntSize | WNoEntSize | WIgnored.
Inductive error := ENotInteger | ENotString | ENotPower.

(** elf.h:128-160 *)
Definition SHT_PROGBITS : Z := 1.
Definition SHT_STRTAB : Z := 3.
Definition SHT_NOTE : Z := 7.
Definition SHT_NOBITS : Z := 8.
Definition SHF_WRITE : Z := 0x1.
Definition SHF_ALLOC : Z := 0x2.
Definition SHF_EXECINSTR : Z := 0x4.
Definition SHF_MERGE : Z := 0x10.
Definition SHF_STRINGS : Z := 0x20.
Definition SHF_GROUP : Z := 0x200.
Definition SHF_TLS : Z := 0x400.

(** elf-objfmt.c:938-944 elf_section_switch_data *)
Record data := Data { d_align : option intnum; d_flags : Z; d_type : Z; d_gas : bool; d_std : bool }.
Definition with_flags (d : data) (f : Z) : data := Data (d_align d) f (d_type d) (d_gas d) (d_std d).
Definition with_type (d : data) (t : Z) : data := Data (d_align d) (d_flags d) t (d_gas d) (d_std d).
Definition with_align (d : data) (a : intnum) : data := Data (Some a) (d_flags d) (d_type d) (d_gas d) (d_std d).
Definition with_gas (d : data) (f : Z) : data := Data (d_align d) f (d_type d) true (d_std d).

(** elf-objfmt.c:967-993: the letters *)
Definition gas_letter (r : Z * list warning) (c : Z) : Z * list warning :=
  let '(f, w) := r in
  if c =? 97 then (Z.lor f SHF_ALLOC, w)
  else if c =? 119 then (Z.lor f SHF_WRITE, w)
  else if c =? 120 then (Z.lor f SHF_EXECINSTR, w)
  else if c =? 77 then (Z.lor f SHF_MERGE, w)
  else if c =? 83 then (Z.lor f SHF_STRINGS, w)
  else if c =? 71 then (Z.lor f SHF_GROUP, w)
  else if c =? 84 then (Z.lor f SHF_TLS, w)
  else (f, w ++ [WAttribute c]).
(** elf-objfmt.c:947-999 elf_helper_gasflags *)
Definition gasflags (d : data) (p : param) : error + data * list warning :=
  match vp_string p with
  | None => inl ENotString
  | Some s =>
      if d_std d && (Z.of_nat (List.length s) =? 0) then inr (with_gas d (d_flags d), [])
      else let '(f, w) := fold_left gas_letter s (0, []) in inr (with_gas d f, w)
  end.
(** valparam.c:277-301 yasm_dir_helper_flag_or, _and and _set; valparam.c:321-344 yasm_dir_helper_intn *)
Inductive action := FlagOr (f : Z) | FlagAnd (f : Z) | SetType (t : Z) | Gas | Align.
Definition act (a : action) (d : data) (p : param) : error + data * list warning :=
  match a with
  | FlagOr f => inr (with_flags d (Z.lor (d_flags d) f), [])
  | FlagAnd f => inr (with_flags d (Z.land (d_flags d) (u64 (Z.lnot f))), [])
  | SetType t => inr (with_type d t, [])
  | Gas => gasflags d p
  | Align => match vp_int p with Some i => inr (with_align d i, []) | None => inl ENotInteger end
  end.
(** elf-objfmt.c:1016-1042 help: name, needsparam, helper *)
Definition help : list (string * bool * action) :=
  [("alloc"%string, false, FlagOr SHF_ALLOC); ("exec"%string, false, FlagOr SHF_EXECINSTR); ("write"%string, false, FlagOr SHF_WRITE);
   ("tls"%string, false, FlagOr SHF_TLS); ("progbits"%string, false, SetType SHT_PROGBITS); ("noalloc"%string, false, FlagAnd SHF_ALLOC);
   ("noexec"%string, false, FlagAnd SHF_EXECINSTR); ("nowrite"%string, false, FlagAnd SHF_WRITE); ("notls"%string, false, FlagAnd SHF_TLS);
   ("noprogbits"%string, false, SetType SHT_NOBITS); ("nobits"%string, false, SetType SHT_NOBITS); ("gasflags"%string, true, Gas); ("align"%string, true, Align)].
(** valparam.c:236-247, 249-260: the first entry of the name *)
Definition lookup (needs : bool) (s : str) : option action :=
  match find (fun h => match h with (n, b, _) => Bool.eqb b needs && casesame s (lit n) end) help with Some (_, _, a) => Some a | None => None end.
Definition entry (p : param) : option action :=
  match p_val p with
  | Some v => lookup true v
  | None => match vp_id p with Some s => lookup false s | None => None end
  end.
(** valparam.c:365-386 yasm_dir_helper_valparam_warn *)
Definition unknown (p : param) : warning :=
  match p_val p with
  | Some v => WQualifier v
  | None => match vp_id p with
            | Some s => WQualifier s
            | None => match p_what p with PStr _ => WStringQualifier | _ => WNumericQualifier end
            end
  end.
(** valparam.c:219-275 yasm_dir_helper: the data, the warnings and whether any parameter was known; warnings before
    an error are left out *)
Fixpoint dir_helper (d : data) (ps : list param) : error + data * list warning * bool :=
  match ps with
  | [] => inr (d, [], false)
  | p :: ps =>
      match entry p with
      | Some a =>
          match act a d p with
          | inl e => inl e
          | inr (d, w) => match dir_helper d ps with inl e => inl e | inr (d, w2, _) => inr (d, w ++ w2, true) end
          end
      | None => match dir_helper d ps with inl e => inl e | inr (d, w2, any) => inr (d, unknown p :: w2, any) end
      end
  end.

(** section.c: a section with its ELF header *)
Record sect := Sect { s_name : str; s_type : Z; s_flags : Z; s_align : Z; s_entsize : Z; s_code : bool; s_res : bool; s_def : bool }.
(** section.c:324-375 yasm_object_get_general, for a section that is not there, with elf-objfmt.c:892-919
    elf_objfmt_init_new_section *)
Definition new_sect (name : str) (align : Z) (code res : bool) : sect :=
  Sect name (if casesame name (lit ".stab") then SHT_PROGBITS else if casesame name (lit ".stabstr") then SHT_STRTAB else SHT_PROGBITS) 0
    align (if casesame name (lit ".stab") then 12 else 0) code res false.
(** elf-objfmt.c:920-936 elf_objfmt_add_default_section in an object without sections *)
Definition default_sect : sect := Sect (lit ".text") SHT_PROGBITS (Z.lor SHF_ALLOC SHF_EXECINSTR) 16 0 true false true.
(** elf-objfmt.c:1047-1088: what the name gives - data, alignment, resonly *)
Definition standard (n : str) : data * Z * bool :=
  if same n (lit ".bss") then (Data None (SHF_ALLOC + SHF_WRITE) SHT_NOBITS false true, 4, true)
  else if same n (lit ".data") then (Data None (SHF_ALLOC + SHF_WRITE) SHT_PROGBITS false true, 4, false)
  else if same n (lit ".tdata") then (Data None (SHF_ALLOC + SHF_WRITE + SHF_TLS) SHT_PROGBITS false true, 4, false)
  else if same n (lit ".rodata") then (Data None SHF_ALLOC SHT_PROGBITS false true, 4, false)
  else if same n (lit ".text") then (Data None (SHF_ALLOC + SHF_EXECINSTR) SHT_PROGBITS false true, 16, false)
  else if same n (lit ".comment") then (Data None 0 SHT_PROGBITS false true, 0, false)
  else if same n (lit ".note.gnu.property") then (Data None 0 SHT_NOTE false true, 8, false)
  else (Data None SHF_ALLOC SHT_PROGBITS false false, 1, false).
(** util.h:148 is_exp2 *)
Definition is_exp2 (x : Z) : bool := Z.land x (u64 (x - 1)) =? 0.
(** elf-objfmt.c:1128-1133: the type, flags, size of entries and alignment are set if the section is new or default *)
Definition declare (s : sect) (d : data) (ent : option intnum) (align : Z) : sect :=
  Sect (s_name s) (d_type d) (d_flags d) align (match ent with Some i => get_uint i | None => s_entsize s end) (s_code s) (s_res s) false.
Inductive outcome := NoSection | Failed (e : error) | Switched (w : list warning).
Fixpoint place (obj : list sect) (n : str) (fresh : sect) (d : data) (ent : option intnum) (align : Z) : list sect * bool :=
  match obj with
  | [] => ([declare fresh d ent align], true)
  | s :: obj =>
      if same (s_name s) n then if s_def s then (declare s d ent align :: obj, true) else (s :: obj, false)
      else let '(o, b) := place obj n fresh d ent align in (s :: o, b)
  end.
(** elf-objfmt.c:1001-1141 elf_objfmt_section_switch *)
Definition section_switch (obj : list sect) (ps : list param) (ext : option (list param)) : list sect * outcome :=
  match ps with
  | [] => (obj, NoSection)
  | p :: ps =>
      match vp_string p with
      | None => (obj, NoSection)
      | Some n =>
          let '(d, align, resonly) := standard n in
          match dir_helper d ps with
          | inl e => (obj, Failed e)
          | inr (d, w, any) =>
              let align := match d_align d with Some i => get_uint i | None => align end in
              if match d_align d with Some _ => negb (is_exp2 align) | None => false end then (obj, Failed ENotPower)
              else
                let '(f, ent, w2) :=
                  if negb (Z.land (d_flags d) SHF_MERGE =? 0) then
                    match ext with
                    | Some (Param None k :: _) => match vp_int (Param None k) with Some i => (d_flags d, Some i, []) | None => (d_flags d, None, [WEntSize]) end
                    | _ => (Z.land (d_flags d) (u64 (Z.lnot SHF_MERGE)), None, [WNoEntSize])
                    end
                  else (d_flags d, None, []) in
                let d := with_flags d f in
                let '(obj, set) := place obj n (new_sect n align (negb (Z.land f SHF_EXECINSTR =? 0)) resonly) d ent align in
                (obj, Switched (w ++ w2 ++ (if negb set && any && negb (d_gas d) then [WIgnored] else [])))
          end
      end
  end.
