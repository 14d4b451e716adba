(** Section directives of COFF objects: coff-objfmt.c coff_objfmt_section_switch.  Text and parameters as in
    M_ElfSect.v.  Messages are given by constructors; freeing of memory is left out. *)
From Coq Require Import ZArith List Bool String.
From Verif Require Import Lib M_Intnum M_ElfSect.
Import ListNotations.
Open Scope Z_scope.

(** coff-objfmt.c:78-95 *)
Definition TEXT : Z := 0x20.
Definition DATA : Z := 0x40.
Definition BSS : Z := 0x80.
Definition INFO : Z := 0x200.
Definition DISCARD : Z := 0x2000000.
Definition NOCACHE : Z := 0x4000000.
Definition NOPAGE : Z := 0x8000000.
Definition SHARED : Z := 0x10000000.
Definition EXECUTE : Z := 0x20000000.
Definition READ : Z := 0x40000000.
Definition WRITE : Z := 0x80000000.
Definition WIN32_MASK : Z := 0xFF000000.
Definition NOBASE : Z := 1.

(** The object format: [w32] for win32 and win64, [w64] for win64; [amd64] the machine *)
Record fmt := Fmt { w32 : bool; w64 : bool; amd64 : bool }.
Inductive cwarning := CParam (w : warning) | CNoReadOnly | CTruncated | CIgnored.
Inductive cerror := CNotInteger | CNotString | CNotPower | CTooLarge.
(** coff-objfmt.c:1270-1276 coff_section_switch_data *)
Record cdata := CData { c_isdef : bool; c_gas : bool; c_flags : Z; c_flags2 : Z; c_align : option intnum }.
Definition set_flags (d : cdata) (f : Z) : cdata := CData (c_isdef d) (c_gas d) f (c_flags2 d) (c_align d).
Definition set_flags2 (d : cdata) (f : Z) : cdata := CData (c_isdef d) (c_gas d) (c_flags d) f (c_align d).
Definition set_gas (d : cdata) : cdata := CData (c_isdef d) true (c_flags d) (c_flags2 d) (c_align d).
Definition set_align (d : cdata) (i : intnum) : cdata := CData (c_isdef d) (c_gas d) (c_flags d) (c_flags2 d) (Some i).

(** coff-objfmt.c:1284-1285, 1298-1333: the letters *)
Record seen := Seen { alloc : bool; load : bool; readonly : bool; code : bool; datasect : bool; shared : bool }.
Definition letter1 (r : seen * list cwarning) (c : Z) : seen * list cwarning :=
  let '(s, w) := r in
  if c =? 97 then (s, w)
  else if c =? 98 then (Seen true false (readonly s) (code s) (datasect s) (shared s), w)
  else if c =? 110 then (Seen (alloc s) false (readonly s) (code s) (datasect s) (shared s), w)
  else if c =? 115 then (Seen (alloc s) true false (code s) true true, w)
  else if c =? 100 then (Seen (alloc s) true false (code s) true (shared s), w)
  else if c =? 120 then (Seen (alloc s) true (readonly s) true (datasect s) (shared s), w)
  else if c =? 114 then (Seen (alloc s) true true (code s) true (shared s), w)
  else if c =? 119 then (Seen (alloc s) (load s) false (code s) (datasect s) (shared s), w)
  else (s, w ++ [CParam (WAttribute c)]).
(** coff-objfmt.c:1279-1353 coff_helper_gasflags *)
Definition cgasflags (d : cdata) (p : param) : cerror + cdata * list cwarning :=
  match vp_string p with
  | None => inl CNotString
  | Some s =>
      let f0 := if c_isdef d then TEXT + READ + WRITE else c_flags d in
      let '(r, w) := fold_left letter1 s (Seen false false false false false false, []) in
      let f1 := if code r then TEXT + EXECUTE + READ
                else if datasect r then DATA + READ + WRITE
                else if readonly r then DATA + READ
                else if load r then TEXT
                else if alloc r then BSS
                else f0 in
      inr (set_gas (set_flags d (if shared r then Z.lor f1 SHARED else f1)), w)
  end.
Inductive caction := CSet (f : Z) | COr (f : Z) | CAnd (f : Z) | CBase | CNoBase | CGas | CAlign.
(** valparam.c:277-301 yasm_dir_helper_flag_or, _and and _set; valparam.c:321-344 yasm_dir_helper_intn *)
Definition cact (a : caction) (d : cdata) (p : param) : cerror + cdata * list cwarning :=
  match a with
  | CSet f => inr (set_flags d f, [])
  | COr f => inr (set_flags d (Z.lor (c_flags d) f), [])
  | CAnd f => inr (set_flags d (Z.land (c_flags d) (u64 (Z.lnot f))), [])
  | CBase => inr (set_flags2 d (Z.land (c_flags2 d) (u64 (Z.lnot NOBASE))), [])
  | CNoBase => inr (set_flags2 d (Z.lor (c_flags2 d) NOBASE), [])
  | CGas => cgasflags d p
  | CAlign => match vp_int p with Some i => inr (set_align d i, []) | None => inl CNotInteger end
  end.
(** coff-objfmt.c:1375-1430 help; coff-objfmt.c:1502: plain COFF has the first seven *)
Definition chelp : list (string * bool * caction) :=
  [("code"%string, false, CSet (TEXT + EXECUTE + READ)); ("text"%string, false, CSet (TEXT + EXECUTE + READ));
   ("data"%string, false, CSet (DATA + READ + WRITE)); ("rdata"%string, false, CSet (DATA + READ));
   ("bss"%string, false, CSet (BSS + READ + WRITE)); ("info"%string, false, CSet (INFO + DISCARD + READ)); ("gasflags"%string, true, CGas);
   ("discard"%string, false, COr DISCARD); ("nodiscard"%string, false, CAnd DISCARD); ("cache"%string, false, CAnd NOCACHE); ("nocache"%string, false, COr NOCACHE);
   ("page"%string, false, CAnd NOPAGE); ("nopage"%string, false, COr NOPAGE); ("share"%string, false, COr SHARED); ("noshare"%string, false, CAnd SHARED);
   ("execute"%string, false, COr EXECUTE); ("noexecute"%string, false, CAnd EXECUTE); ("read"%string, false, COr READ); ("noread"%string, false, CAnd READ);
   ("write"%string, false, COr WRITE); ("nowrite"%string, false, CAnd WRITE); ("base"%string, false, CBase); ("nobase"%string, false, CNoBase); ("align"%string, true, CAlign)].
Definition ctable (o : fmt) : list (string * bool * caction) := if w32 o then chelp else firstn 7 chelp.
(** valparam.c:236-247, 249-260: the first entry of the name *)
Definition clookup (o : fmt) (needs : bool) (s : str) : option caction :=
  match find (fun h => match h with (n, b, _) => Bool.eqb b needs && casesame s (lit n) end) (ctable o) with Some (_, _, a) => Some a | None => None end.
Definition centry (o : fmt) (p : param) : option caction :=
  match p_val p with
  | Some v => clookup o true v
  | None => match vp_id p with Some s => clookup o false s | None => None end
  end.
(** valparam.c:219-275 yasm_dir_helper: the data, the warnings and whether any parameter was known; warnings before
    an error are left out *)
Fixpoint chelper (o : fmt) (d : cdata) (ps : list param) : cerror + cdata * list cwarning * bool :=
  match ps with
  | [] => inr (d, [], false)
  | p :: ps =>
      match centry o p with
      | Some a =>
          match cact a d p with
          | inl e => inl e
          | inr (d, w) => match chelper o d ps with inl e => inl e | inr (d, w2, _) => inr (d, w ++ w2, true) end
          end
      | None => match chelper o d ps with inl e => inl e | inr (d, w2, any) => inr (d, CParam (unknown p) :: w2, any) end
      end
  end.

(** strncmp and yasm__strncasecmp with a literal of that length: the name starts with it *)
Definition starts (n : str) (w : string) : bool := same (firstn (List.length (lit w)) n) (lit w).
Definition casestarts (n : str) (w : string) : bool := casesame (firstn (List.length (lit w)) n) (lit w).
(** coff-objfmt.c:1444-1499: what the name gives - isdefault, flags, flags2, alignment, resonly, warning *)
Definition cstandard (o : fmt) (n : str) : bool * Z * Z * Z * bool * list cwarning :=
  if same n (lit ".data") then (false, DATA + READ + WRITE, 0, if w32 o then if amd64 o then 16 else 4 else 0, false, [])
  else if same n (lit ".bss") then (false, BSS + READ + WRITE, 0, if w32 o then if amd64 o then 16 else 4 else 0, true, [])
  else if same n (lit ".text") then (false, TEXT + EXECUTE + READ, 0, if w32 o then 16 else 0, false, [])
  else if same n (lit ".rdata") || starts n ".rodata" || starts n ".rdata$" then (false, DATA + READ, 0, if w32 o then 8 else 0, false, if w32 o then [] else [CNoReadOnly])
  else if same n (lit ".drectve") then (false, if w32 o then INFO + DISCARD + READ else INFO, 0, 0, false, [])
  else if w64 o && same n (lit ".pdata") then (false, DATA + READ, NOBASE, 4, false, [])
  else if w64 o && same n (lit ".xdata") then (false, DATA + READ, NOBASE, 8, false, [])
  else if w32 o && same n (lit ".sxdata") then (false, INFO, 0, 0, false, [])
  else if same n (lit ".comment") then (false, INFO + DISCARD + READ, 0, 0, false, [])
  else if casestarts n ".debug" then (false, DATA + DISCARD + READ, 0, 1, false, [])
  else (true, TEXT + EXECUTE + READ, 0, 0, false, []).

(** section.c: a section with its coff_section_data *)
Record csect := CSect { cs_name : str; cs_flags : Z; cs_flags2 : Z; cs_align : Z; cs_code : bool; cs_res : bool; cs_def : bool }.
(** coff-objfmt.c:1250-1267 coff_objfmt_add_default_section in an object without sections *)
Definition cdefault (o : fmt) : csect := CSect (lit ".text") (if w32 o then TEXT + EXECUTE + READ else TEXT) 0 16 true false true.
Inductive coutcome := CNone | CFailed (e : cerror) | CSwitched (w : list cwarning).
(** section.c:324-375 yasm_object_get_general with coff-objfmt.c:1550-1557 *)
Fixpoint cplace (obj : list csect) (n : str) (f f2 align : Z) (code res : bool) : list csect * bool :=
  match obj with
  | [] => ([CSect n f f2 align code res false], true)
  | s :: obj =>
      if same (cs_name s) n then if cs_def s then (CSect n f f2 align (cs_code s) (cs_res s) false :: obj, true) else (s :: obj, false)
      else let '(o, b) := cplace obj n f f2 align code res in (s :: o, b)
  end.
(** coff-objfmt.c:1355-1559 coff_objfmt_section_switch *)
Definition cswitch (o : fmt) (obj : list csect) (ps : list param) : list csect * coutcome :=
  match ps with
  | [] => (obj, CNone)
  | p :: ps =>
      match vp_string p with
      | None => (obj, CNone)
      | Some n =>
          let '(isdef, f, f2, align, res, w1) := cstandard o n in
          match chelper o (CData isdef false f f2 None) ps with
          | inl e => (obj, CFailed e)
          | inr (d, w2, any) =>
              let code := negb (Z.land (c_flags d) EXECUTE =? 0) in
              let f := if w32 o then c_flags d else Z.land (c_flags d) (u64 (Z.lnot WIN32_MASK)) in
              let align := match c_align d with Some i => get_uint i | None => align end in
              if match c_align d with Some _ => negb (is_exp2 align) | None => false end then (obj, CFailed CNotPower)
              else if match c_align d with Some _ => 8192 <? align | None => false end then (obj, CFailed CTooLarge)
              else
                let long := (8 <? Z.of_nat (List.length n)) && negb (w32 o) in
                let '(obj, set) := cplace obj (if long then firstn 8 n else n) f (c_flags2 d) align code res in
                (obj, CSwitched (w1 ++ w2 ++ (if long then [CTruncated] else []) ++ (if negb set && any && negb (c_gas d) then [CIgnored] else [])))
          end
      end
  end.
