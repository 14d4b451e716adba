(** Model of modules/objfmts/elf: string tables, the symbol table and how it is built from the
    program's symbols (elf.c, elf-objfmt.c).
    Strings are lists of non-zero bytes.  A string-table entry is known by its position in the table,
    a symbol-table entry by the symbol it is for.  Simplified: a size expression and a section are
    opaque numbers; the parameters of EXTERN and GLOBAL are given as the type, visibility and size that come
    out of them; of errors and warnings only a failed COMMON alignment is kept, as [None]. *)
From Coq Require Import ZArith List Bool Arith.
From Verif Require Import Lib.
Import ListNotations.
Open Scope Z_scope.

Definition str := list Z.
(** elf.h:399-403 elf_strtab_entry: index and str; the STAILQ is a list *)
Definition strtab := list (Z * str).
Definition strlen (s : str) : Z := Z.of_nat (length s).
(** elf.c:224-236 elf_strtab_create *)
Definition st_create : strtab := [(0, [])].
(** elf.c:220, 250: index of the entry after [e] *)
Definition after (e : Z * str) : Z := u64 (fst e + strlen (snd e) + 1).
(** elf.c:238-255 elf_strtab_append_str.  [None] is the internal error of line 246. *)
Definition st_append (t : strtab) (s : str) : option strtab :=
  match t with
  | [] => None
  | e :: r => Some (t ++ [(after (last r e), s)])
  end.
(** elf.c:215-221: the indices after [e] *)
Fixpoint st_reindex (e : Z * str) (t : strtab) : strtab :=
  match t with [] => [] | (_, s) :: r => (after e, s) :: st_reindex (after e, s) r end.
(** elf.c:206-222 elf_strtab_entry_set_str; [None] for an entry that is not there *)
Fixpoint st_set (t : strtab) (n : nat) (s : str) : option strtab :=
  match t, n with
  | [], _ => None
  | (i, _) :: r, O => Some ((i, s) :: st_reindex (i, s) r)
  | e :: r, S m => option_map (cons e) (st_set r m s)
  end.
(** elf.c:277-293 elf_strtab_output_to_file: the bytes and the size returned *)
Definition st_output (t : strtab) : list Z * Z :=
  (concat (map (fun e => snd e ++ [0]) t), fold_left (fun size e => u64 (size + (1 + strlen (snd e)))) t 0).

(** elf.h:176-215: binding, type and section-index constants *)
Definition STB_LOCAL : Z := 0.
Definition STB_GLOBAL : Z := 1.
Definition STB_WEAK : Z := 2.
Definition STT_SECTION : Z := 3.
Definition STT_FILE : Z := 4.
Definition SHN_UNDEF : Z := 0.
Definition SHN_ABS : Z := 65521.
Definition SHN_COMMON : Z := 65522.
(** Which symbol an entry is for: none (the dummy), the file symbol, or symbol [n]. *)
Inductive eid := Dummy | File | Sy (n : nat).
Definition eid_eqb (a b : eid) : bool :=
  match a, b with Dummy, Dummy | File, File => true | Sy n, Sy m => Nat.eqb n m | _, _ => false end.
(** elf.h:406-420 elf_symtab_entry; name is the position in the string table *)
Record entry := Entry {
  in_table : bool; e_name : option nat; e_sect : option Z; e_value : Z; e_xsize : option Z;
  e_index : Z; e_bind : Z; e_type : Z; e_vis : Z; e_symindex : Z }.
(** elf.c:296-315 elf_symtab_entry_create (symindex is left unset; the model has 0) *)
Definition ent_create (name : option nat) : entry := Entry false name None 0 None 0 0 0 0 0.
(** elf.c:375-396 elf_symtab_create: the dummy entry *)
Definition dummy_entry : entry := Entry true None None 0 None SHN_UNDEF STB_LOCAL 0 0 0.

(** The objfmt state (elf-objfmt.c:52-60): strtab, the symbol table in order, and the entries, which
    hang off the symbols *)
Record state := State { strs : strtab; table : list eid; ents : eid -> option entry }.
Definition put (i : eid) (e : entry) (m : eid -> option entry) : eid -> option entry :=
  fun j => if eid_eqb i j then Some e else m j.
Definition bind_of (m : eid -> option entry) (i : eid) : Z := match m i with Some e => e_bind e | None => 0 end.
Definition type_of (m : eid -> option entry) (i : eid) : Z := match m i with Some e => e_type e | None => 0 end.
Definition is_local (m : eid -> option entry) (i : eid) : bool := bind_of m i =? STB_LOCAL.
Definition set_in (e : entry) : entry :=
  Entry true (e_name e) (e_sect e) (e_value e) (e_xsize e) (e_index e) (e_bind e) (e_type e) (e_vis e) (e_symindex e).
Definition set_vis (v : Z) (e : entry) : entry :=
  Entry (in_table e) (e_name e) (e_sect e) (e_value e) (e_xsize e) (e_index e) (e_bind e) (e_type e) (Z.land v 3) (e_symindex e).
Definition set_type (t : Z) (e : entry) : entry :=
  Entry (in_table e) (e_name e) (e_sect e) (e_value e) (e_xsize e) (e_index e) (e_bind e) t (e_vis e) (e_symindex e).
Definition set_xsize (x : Z) (e : entry) : entry :=
  Entry (in_table e) (e_name e) (e_sect e) (e_value e) (Some x) (e_index e) (e_bind e) (e_type e) (e_vis e) (e_symindex e).
Definition set_symindex (n : Z) (e : entry) : entry :=
  Entry (in_table e) (e_name e) (e_sect e) (e_value e) (e_xsize e) (e_index e) (e_bind e) (e_type e) (e_vis e) n.
(** elf.c:544-560 elf_symtab_set_nonzero *)
Definition orz (new old : Z) : Z := if new =? 0 then old else new.
Definition set_nonzero (sect : option Z) (sectidx bind type : Z) (xsize : option Z) (value : option Z) (e : entry) : entry :=
  Entry (in_table e) (e_name e) (match sect with Some _ => sect | None => e_sect e end)
    (match value with Some v => v | None => e_value e end) (match xsize with Some _ => xsize | None => e_xsize e end)
    (orz sectidx (e_index e)) (orz bind (e_bind e)) (orz type (e_type e)) (e_vis e) (e_symindex e).

(** elf.c:398-410 elf_symtab_append_entry (line 405: internal error on an empty table) *)
Definition append_entry (i : eid) (e : entry) (s : state) : option state :=
  match table s with [] => None | _ => Some (State (strs s) (table s ++ [i]) (put i (set_in e) (ents s))) end.
(** elf.c:415-422: how many entries the loop passes; 0 leaves [before] NULL *)
Fixpoint walk (m : eid -> option entry) (l : list eid) : nat :=
  match l with
  | [] => O
  | a :: r => if is_local m a then if type_of m a =? STT_FILE then 1%nat else S (walk m r) else O
  end.
(** elf.c:412-425 elf_symtab_insert_local_sym; [None]: insertion after a null pointer *)
Definition insert_local (i : eid) (e : entry) (s : state) : option state :=
  match walk (ents s) (table s) with
  | O => None
  | n => Some (State (strs s) (firstn n (table s) ++ i :: skipn n (table s)) (put i (set_in e) (ents s)))
  end.
(** elf.c:446-465 elf_symtab_assign_indices: the loop *)
Fixpoint assign (m : eid -> option entry) (prev : option Z) (last_local : Z) (l : list eid) : (eid -> option entry) * Z :=
  match l with
  | [] => (m, last_local)
  | a :: r =>
      match m a with
      | None => assign m prev last_local r
      | Some e =>
          let n := match prev with Some p => u64 (p + 1) | None => e_symindex e end in
          assign (put a (set_symindex n e) m) (Some n) (if e_bind e =? STB_LOCAL then n else last_local) r
      end
  end.
(** elf.c:446-465 elf_symtab_assign_indices; line 455: internal error on an empty table *)
Definition assign_indices (s : state) : option (state * Z) :=
  match table s with
  | [] => None
  | _ => let '(m, ll) := assign (ents s) None 0 (table s) in Some (State (strs s) (table s) m, u64 (ll + 1))
  end.

(** A symbol as the traversal sees it: name, visibility bits (EXTERN, COMMON, GLOBAL), whether it is DEFINED, what
    it is, and the parameters of its declaration *)
Inductive skind :=
| Label (sect : Z) (sectname : str) (offset : Z)   (* a label: section, its name, yasm_bc_next_offset(precbc) *)
| Equ                                              (* an EQU that has its value *)
| Abs                                              (* the absolute symbol, symrec.c:585-589 *)
| Other.                                           (* anything else, among them labels without bytecode *)
Record sym := Sym { s_name : str; s_extern : bool; s_common : bool; s_global : bool; s_defined : bool; s_kind : skind;
  s_type : Z; s_vis : Z; s_size : option Z; s_comsize : Z; s_comalign : option Z }.
(** What the output needs of the object: the affixes of symrec.c:495-507, and all_syms *)
Record conf := Conf { prefix : str; suffix : str; local_names : bool }.
(** symrec.c:495-507 yasm_symrec_get_global_name *)
Definition global_name (c : conf) (y : sym) : str :=
  if s_global y || s_common y || s_extern y then prefix c ++ s_name y ++ suffix c else s_name y.
Fixpoint str_eqb (a b : str) : bool :=
  match a, b with [], [] => true | x :: a', y :: b' => (x =? y) && str_eqb a' b' | _, _ => false end.

(** elf-objfmt.c:93-102, 1167-1171, 1204-1208: the entry of a symbol, created if it has none *)
Definition need_entry (i : eid) (name : option str) (s : state) : option (entry * state) :=
  match ents s i with
  | Some e => Some (e, s)
  | None =>
      match name with
      | None => Some (ent_create None, s)
      | Some n =>
          match st_append (strs s) n with
          | None => None
          | Some t => Some (ent_create (Some (length (strs s))), State t (table s) (ents s))
          end
      end
  end.
(** The entry is filled in after it has been put into the table, through its pointer *)
Definition update (i : eid) (f : entry -> entry) (s : state) : state :=
  State (strs s) (table s) (match ents s i with Some e => put i (f e) (ents s) | None => ents s end).
(** elf-objfmt.c:86-111 elf_objfmt_symtab_append *)
Definition symtab_append (c : conf) (i : eid) (y : sym) (sectidx bind type vis : Z) (size value : option Z) (s : state) : option state :=
  match need_entry i (Some (global_name c y)) s with
  | None => None
  | Some (e, s1) =>
      match (if in_table e then Some s1 else append_entry i e s1) with
      | None => None
      | Some s2 => Some (update i (fun e => set_vis vis (set_nonzero None sectidx bind type size value e)) s2)
      end
  end.
(** util.h:148 is_exp2 *)
Definition is_exp2 (x : Z) : bool := Z.land x (x - 1) =? 0.
(** elf-objfmt.c:113-131 build_extern; 169-216 build_global; 218-278 build_common, which does nothing
    if the alignment is wrong *)
Definition build_extern (c : conf) (i : eid) (y : sym) : state -> option state := symtab_append c i y SHN_UNDEF STB_GLOBAL 0 0 None None.
Definition build_global (c : conf) (i : eid) (y : sym) : state -> option state :=
  symtab_append c i y SHN_UNDEF STB_GLOBAL (s_type y) (s_vis y) (s_size y) None.
Definition build_common (c : conf) (i : eid) (y : sym) (s : state) : option state :=
  match s_comalign y with
  | None => Some s
  | Some a => if is_exp2 a then symtab_append c i y SHN_COMMON STB_GLOBAL 0 0 (Some (s_comsize y)) (Some a) s else Some s
  end.
(** elf-objfmt.c:305-341: a local symbol *)
Definition build_local (c : conf) (i : eid) (y : sym) (s : state) : option state :=
  match s_kind y with
  | Equ | Other => Some s
  | Label _ _ _ | Abs =>
      let is_sect := match s_kind y with Label _ sn _ => str_eqb (s_name y) sn | _ => false end in
      match need_entry i (if negb (local_names c) || is_sect then None else Some (global_name c y)) s with
      | None => None
      | Some (e, s1) =>
          match (if in_table e then Some s1 else insert_local i e s1) with
          | None => None
          | Some s2 =>
              let sect := match s_kind y with Label x _ _ => Some x | _ => None end in
              let s3 := update i (set_nonzero sect 0 STB_LOCAL (if is_sect then STT_SECTION else 0) None None) s2 in
              if is_sect then Some s3
              else Some (update i (set_nonzero sect 0 0 0 None (Some (match s_kind y with Label _ _ o => o | _ => 0 end))) s3)
          end
      end
  end.
(** elf-objfmt.c:254-346 elf_objfmt_build_symtab *)
Definition build_symtab (c : conf) (i : eid) (y : sym) (s : state) : option state :=
  if s_extern y then build_extern c i y s
  else
    match (if s_common y then build_common c i y s else Some s) with
    | None => None
    | Some s1 =>
        if negb (s_defined y) then Some s1
        else
          match s_kind y with
          | Other => Some s1
          | k =>
              let sect := match k with Label x _ _ => Some x | _ => None end in
              let value := Some (match k with Label _ _ o => o | _ => 0 end) in
              let fill := update i (set_nonzero sect 0 0 0 None value) in
              match (match ents s1 i with Some e => in_table e | None => false end) with
              | true => Some (fill s1)
              | false => if s_global y then option_map fill (build_global c i y s1) else build_local c i y s1
              end
          end
    end.

(** elf-objfmt.c:366-380: the tables when assembly starts, with the file symbol *)
Definition init (file : str) : option state :=
  match st_append st_create file with
  | None => None
  | Some t =>
      let e := set_nonzero None SHN_ABS STB_LOCAL STT_FILE None None (ent_create (Some 1%nat)) in
      append_entry File e (State t [Dummy] (fun i => match i with Dummy => Some dummy_entry | _ => None end))
  end.
(** Directives that reach the tables while the program is parsed: elf-objfmt.c:1219-1230 dir_weak (the symbol is
    GLOBAL by then), 1155-1190 dir_type, 1192-1217 dir_size *)
Inductive dir := Weak (n : nat) (y : sym) | Type_ (n : nat) (name : str) (t : option Z) | Size (n : nat) (name : str) (x : option Z).
Definition run_dir (c : conf) (d : dir) (s : state) : option state :=
  let touch n name f :=
    match need_entry (Sy n) (Some name) s with
    | None => None
    | Some (e, s1) => Some (State (strs s1) (table s1) (put (Sy n) (f e) (ents s1)))
    end in
  match d with
  | Weak n y => symtab_append c (Sy n) y SHN_UNDEF STB_WEAK 0 0 None None s
  | Type_ n name t => touch n name (match t with Some t => set_type t | None => fun e => e end)
  | Size n name x => touch n name (match x with Some x => set_xsize x | None => fun e => e end)
  end.
Fixpoint run_dirs (c : conf) (ds : list dir) (s : state) : option state :=
  match ds with [] => Some s | d :: r => match run_dir c d s with Some s1 => run_dirs c r s1 | None => None end end.
(** hamt.c:159-169 (yasm_symtab_traverse): the symbols in some order *)
Fixpoint build_all (c : conf) (ys : list (nat * sym)) (s : state) : option state :=
  match ys with [] => Some s | (n, y) :: r => match build_symtab c (Sy n) y s with Some s1 => build_all c r s1 | None => None end end.
(** elf-objfmt.c:756-775: the file name is set again, the table is built and numbered *)
Definition symbols (c : conf) (file file2 : str) (ds : list dir) (ys : list (nat * sym)) : option (state * Z) :=
  match init file with
  | None => None
  | Some s0 =>
      match run_dirs c ds s0 with
      | None => None
      | Some s1 =>
          match st_set (strs s1) 1 file2 with
          | None => None
          | Some t =>
              match build_all c ys (State t (table s1) (ents s1)) with
              | None => None
              | Some s2 => assign_indices s2
              end
          end
      end
  end.
