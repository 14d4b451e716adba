(** Model of modules/objfmts/bin/bin-objfmt.c (flat binary output): section groups, load and virtual
    addresses, overlap check and the file written.

    Simplified: [start], [vstart] and ORG are what yasm_expr_get_intnum makes of the expressions
    ([None] when it gives up); a section's length is the distance of its first and last bytecode;
    what yasm_bc_tobytes yields for the bytecodes is an argument, since it depends on the addresses.
    The symbol check (lines 201-228) and the map file (lines 529-848) are left out. *)
From Coq Require Import ZArith List Bool.
From Verif Require Import Lib M_BitVect M_BitVectIv M_Intnum.
Import ListNotations.
Open Scope Z_scope.

Definition str := list Z.
Definition u64 (x : Z) : Z := x mod 2 ^ 64.
Fixpoint str_eqb (a b : str) : bool :=
  match a, b with
  | [], [] => true
  | x :: a', y :: b' => (x =? y) && str_eqb a' b'
  | _, _ => false
  end.

(** bin-objfmt.c:37-54 bin_section_data, with name, alignment and length of the section itself *)
Record sect := Sect { name : str; bss : bool; salign : Z; len : Z; align : option intnum; valign : option intnum;
  start : option (option intnum); vstart : option (option intnum); follows : option str; vfollows : option str }.
(** istart and ivstart of each section; [None] is NULL *)
Record mem := Mem { istart : nat -> option intnum; ivstart : nat -> option intnum }.
Definition upd (f : nat -> option intnum) (i : nat) (v : intnum) : nat -> option intnum :=
  fun j => if Nat.eqb j i then Some v else f j.
Definition set_istart (m : mem) (i : nat) (v : intnum) : mem := Mem (upd (istart m) i v) (ivstart m).
Definition set_ivstart (m : mem) (i : nat) (v : intnum) : mem := Mem (istart m) (upd (ivstart m) i v).
(** bin-objfmt.c:115-126 bin_group; [i] is the address of the section *)
Inductive group := Group (i : nat) (b : sect) (fs : list group).
Definition gid (g : group) : nat := match g with Group i _ _ => i end.
Definition gsect (g : group) : sect := match g with Group _ b _ => b end.
Definition gfollow (g : group) : list group := match g with Group _ _ fs => fs end.

Inductive berr := TooComplex (i : nat) | OrgComplex | OrgNegative | Unknown (i : nat) | Loop (i j : nat)
  | VInconsistent (i : nat) | Overlap (i j : nat) (n : Z) | BeforeOrg (i : nat) | TooLarge (i : nat).
Inductive bwarn := WAlign (i : nat) | WValign (i : nat) | WStart (i : nat).

(** bin-objfmt.c:128-142 find_group_by_name: the group found *)
Fixpoint by_name (nm : str) (g : group) : option group :=
  match g with
  | Group i b fs =>
      if str_eqb (name b) nm then Some g else
      (fix go l := match l with
                   | [] => None
                   | f :: r => match by_name nm f with Some x => Some x | None => go r end
                   end) fs
  end.
Fixpoint find_name (nm : str) (l : list group) : option group :=
  match l with [] => None | f :: r => match by_name nm f with Some x => Some x | None => find_name nm r end end.
(** bin-objfmt.c:144-158 find_group_by_section: whether it is found *)
Fixpoint has_sect (s : nat) (g : group) : bool :=
  match g with
  | Group i b fs => Nat.eqb i s || (fix go l := match l with [] => false | f :: r => has_sect s f || go r end) fs
  end.
Definition find_sect (s : nat) (l : list group) : bool := existsb (has_sect s) l.

(** bin-objfmt.c:246-262 the alignment of a section in bin_lma_create_group *)
Definition lma_align (b : sect) : intnum :=
  match align b with None => create_uint (if 4 <? salign b then salign b else 4) | Some a => a end.
Definition warn_align (i : nat) (b : sect) : list bwarn :=
  match align b with
  | None => []
  | Some a => if 0 <? compare (create_uint (salign b)) a then [WAlign i] else []
  end.
(** bin-objfmt.c:230-296 bin_lma_create_group for all sections *)
Fixpoint create_groups (i : nat) (l : list sect) : list group * list bwarn * list berr :=
  match l with
  | [] => ([], [], [])
  | b :: t =>
      let w := warn_align i b in
      match start b, vstart b with
      | Some None, _ | _, Some None => ([], w, [TooComplex i])
      | _, _ => let '(gs, w', e) := create_groups (S i) t in (Group i b [] :: gs, w ++ w', e)
      end
  end.
Definition given (o : option (option intnum)) : option intnum := match o with Some v => v | None => None end.
(** bin-objfmt.c:264-288 istart and ivstart before the addresses are assigned *)
Definition mem0 (l : list sect) : mem :=
  Mem (fun i => match nth_error l i with Some b => given (start b) | None => None end)
      (fun i => match nth_error l i with Some b => given (vstart b) | None => None end).
(** bin-objfmt.c:298-315 bin_vma_create_group for all sections *)
Fixpoint vma_groups (i : nat) (l : list sect) : list group :=
  match l with [] => [] | b :: t => Group i b [] :: vma_groups (S i) t end.

Definition iadd (a b : intnum) : intnum := fst (fst (calc scratch a ADD (Some b))).
Definition isub (a b : intnum) : intnum := fst (fst (calc scratch a SUB (Some b))).
Definition iand (a b : intnum) : intnum := fst (fst (calc scratch a AND (Some b))).
Definition inot (a : intnum) : intnum := fst (fst (calc scratch a NOT None)).
(** bin-objfmt.c:317-340 bin_objfmt_align *)
Definition bin_align (st al : intnum) : intnum :=
  let a := iand (create_uint (u64 (get_uint al - 1))) st in
  if is_zero a then st
  else iadd al (iand (inot (set_uint a (u64 (get_uint al - 1)))) st).

(** bin-objfmt.c:342-407 group_assign_start_recurse: new last, vdelta, addresses, warnings *)
Definition blen (b : sect) : intnum := create_uint (len b).
Definition astate : Type := intnum * intnum * mem * list bwarn.
(** lines 371-388 *)
Definition assign_v (i : nat) (b : sect) (ist vdelta : intnum) (m : mem) : mem * intnum :=
  match vstart b, vfollows b with
  | None, None =>
      let u := iadd ist vdelta in
      match valign b with
      | None => (set_ivstart m i u, vdelta)
      | Some va => let v := bin_align u va in (set_ivstart m i v, isub (iadd vdelta v) u)
      end
  | _, _ => (m, vdelta)
  end.
Fixpoint assign_start (g : group) (st last vdelta : intnum) (m : mem) : astate :=
  match g with
  | Group i b fs =>
      let ist := bin_align st (lma_align b) in
      let w := match istart m i with
               | Some _ => if compare st ist =? 0 then [] else [WStart i]
               | None => []
               end in
      let '(m1, vdelta1) := assign_v i b ist vdelta (set_istart m i ist) in
      let tmp := iadd ist (blen b) in
      let last1 := if 0 <? compare tmp last then tmp else last in
      (fix go l (s : astate) : astate :=
         match l with
         | [] => s
         | f :: r => let '(la, vd, mm, ww) := s in
                     let '(la', vd', mm', ww') := assign_start f tmp la vd mm in
                     go r (la', vd', mm', ww ++ ww')
         end) fs (last1, vdelta1, m1, w)
  end.
(** bin-objfmt.c:1260-1270 the loop over the top level groups *)
Fixpoint assign_all (l : list group) (st last vdelta : intnum) (m : mem) : mem * list bwarn :=
  match l with
  | [] => (m, [])
  | g :: r =>
      let st' := match istart m (gid g) with Some s => s | None => st end in
      let '(la, vd, mm, ww) := assign_start g st' last vdelta m in
      let '(m', w') := assign_all r la la vd mm in (m', ww ++ w')
  end.

(** bin-objfmt.c:1160-1197 and 1284-1322: the loop over the groups that moves each group with
    follows (vfollows) to the end of the groups of the section it follows.  [done] and [todo] are the
    list before and from the current element; [todo] keeps its length when groups are moved into it. *)
Fixpoint insert_follow (s : nat) (t : group) (g : group) : group :=
  match g with
  | Group i b fs =>
      let fs' := map (insert_follow s t) fs in
      Group i b (if Nat.eqb i s then fs' ++ [t] else fs')
  end.
Fixpoint resolve (fol : sect -> option str) (n : nat) (done todo : list group) : list group + berr :=
  match n, todo with
  | S n', g :: rest =>
      match fol (gsect g) with
      | None => resolve fol n' (done ++ [g]) rest
      | Some nm =>
          match find_name nm (done ++ todo) with
          | None => inr (Unknown (gid g))
          | Some f =>
              if Nat.eqb (gid g) (gid f) || find_sect (gid f) (gfollow g) then inr (Loop (gid g) (gid f))
              else resolve fol n' (map (insert_follow (gid f) g) done) (map (insert_follow (gid f) g) rest)
          end
      end
  | _, _ => inl (done ++ todo)
  end.

(** bin-objfmt.c:1199-1238 sorting the top level groups by start; nobits groups without start last *)
Definition has_start (m : mem) (g : group) : bool := match istart m (gid g) with Some _ => true | None => false end.
Fixpoint insert_sorted (m : mem) (s : intnum) (g : group) (l : list group) : list group :=
  match l with
  | [] => [g]
  | h :: t => match istart m (gid h) with
              | Some s' => if 0 <? compare s' s then g :: h :: t else h :: insert_sorted m s g t
              | None => h :: insert_sorted m s g t
              end
  end.
Fixpoint sort_groups (m : mem) (todo sorted bsss : list group) : list group :=
  match todo with
  | [] => sorted ++ bsss
  | g :: t =>
      match istart m (gid g) with
      | None => if bss (gsect g) then sort_groups m t sorted (bsss ++ [g]) else sort_groups m t (sorted ++ [g]) bsss
      | Some s => sort_groups m t (insert_sorted m s g sorted) bsss
      end
  end.

(** bin-objfmt.c:409-467 group_assign_vstart_recurse; [Crash] is the null pointer dereference of
    line 449, group->bsd->vstart->line without vstart *)
Inductive vres := Crash | VOk (m : mem) (w : list bwarn) (e : list berr).
Definition vma_align (b : sect) : intnum := match valign b with None => lma_align b | Some v => v end.
Definition warn_valign (i : nat) (b : sect) : list bwarn :=
  match valign b with
  | None => []
  | Some a => if 0 <? compare (create_uint (salign b)) a then [WValign i] else []
  end.
Fixpoint assign_vstart (g : group) (st : intnum) (m : mem) : vres :=
  match g with
  | Group i b fs =>
      let v := bin_align st (vma_align b) in
      let go := fix go l (mm : mem) (w : list bwarn) (e : list berr) : vres :=
         match l with
         | [] => VOk mm w e
         | f :: r => match assign_vstart f (iadd v (blen b)) mm with
                     | Crash => Crash
                     | VOk mm' w' e' => go r mm' (w ++ w') (e ++ e')
                     end
         end in
      let next := go fs (set_ivstart m i v) (warn_valign i b) in
      match ivstart m i with
      | None => next []
      | Some _ => if compare st v =? 0 then next []
                  else match vstart b with None => Crash | Some _ => next [VInconsistent i] end
      end
  end.
(** bin-objfmt.c:1324-1335; a missing ivstart would be dereferenced by yasm_intnum_set *)
Fixpoint assign_vall (l : list group) (m : mem) (w : list bwarn) (e : list berr) : vres :=
  match l with
  | [] => VOk m w e
  | g :: r => match ivstart m (gid g) with
              | None => Crash
              | Some s => match assign_vstart g s m with
                          | Crash => Crash
                          | VOk m' w' e' => assign_vall r m' (w ++ w') (e ++ e')
                          end
              end
  end.

(** bin-objfmt.c:850-893 check_lma_overlap of section [i] against all sections; the number is the
    one printed in the message *)
Definition overlap (m : mem) (i : nat) (b : sect) (j : nat) (c : sect) : option Z :=
  if Nat.eqb i j then None else
  if is_zero (blen b) || is_zero (blen c) then None else
  match istart m i, istart m j with
  | Some x, Some y =>
      let o := if compare x y <=? 0 then isub (iadd x (blen b)) y else isub (iadd y (blen c)) x in
      if 0 <? sign o then Some (get_uint o) else None
  | _, _ => None
  end.
Fixpoint overlap_in (m : mem) (j : nat) (c : sect) (i : nat) (l : list sect) : option berr :=
  match l with
  | [] => None
  | b :: t => match overlap m i b j c with Some n => Some (Overlap i j n) | None => overlap_in m j c (S i) t end
  end.
Fixpoint check_overlap (m : mem) (all : list sect) (j : nat) (l : list sect) : option berr :=
  match l with
  | [] => None
  | c :: t => match overlap_in m j c O all with Some e => Some e | None => check_overlap m all (S j) t end
  end.

(** bin-objfmt.c:974-1017 bin_objfmt_output_bytecode: what one bytecode yields, and the writes.  The
    file position always follows the data written last. *)
Inductive chunk := Code (l : list Z) | Gap (n : Z).
Record file := File { data : list Z; pos : nat }.
Definition pad (f : list Z) (n : nat) : list Z := f ++ repeat 0 (n - length f).
Definition fwrite (f : file) (l : list Z) : file :=
  File (firstn (pos f) (pad (data f) (pos f)) ++ l ++ skipn (pos f + length l) (data f)) (pos f + length l).
Definition OUTBUF : Z := 1024.
(** lines 999-1007; [fuel] bounds the number of full buffers *)
Fixpoint write_gap (fuel : nat) (f : file) (left : Z) : file :=
  match fuel with
  | S n => if OUTBUF <? left then write_gap n (fwrite f (repeat 0 (Z.to_nat OUTBUF))) (left - OUTBUF)
           else fwrite f (repeat 0 (Z.to_nat left))
  | O => f
  end.
Definition out_chunk (f : file) (c : chunk) : file :=
  match c with
  | Code [] => f
  | Code l => fwrite f l
  | Gap n => if n =? 0 then f else write_gap (S (Z.to_nat (n / OUTBUF))) f n
  end.
(** bin-objfmt.c:1050-1087 bin_objfmt_output_section.  [fsmax] is the largest offset fseek accepts;
    beyond it the program ends with a fatal error. *)
Inductive ores := Fatal | OOk (f : file) (e : list berr).
Definition wrap64 (x : Z) : Z := (x + 2 ^ 63) mod 2 ^ 64 - 2 ^ 63.
Definition out_section (fsmax : Z) (org : intnum) (fstart : Z) (m : mem) (i : nat) (b : sect) (cs : list chunk) (f : file) : ores :=
  if bss b then OOk f []
  else match istart m i with
       | None => Fatal
       | Some x =>
           let d := isub x org in
           if sign d <? 0 then OOk f [BeforeOrg i]
           else if negb (check_size d 64 0 1) then OOk f [TooLarge i]
           else let p := wrap64 (get_int d + fstart) in
                if (p <? 0) || (fsmax <? p) then Fatal
                else OOk (fold_left out_chunk cs (File (data f) (Z.to_nat p))) []
       end.
Fixpoint out_sections (fsmax : Z) (org : intnum) (fstart : Z) (m : mem) (cs : nat -> list chunk) (i : nat) (l : list sect)
  (f : file) (e : list berr) : ores :=
  match l with
  | [] => OOk f e
  | b :: t => match out_section fsmax org fstart m i b (cs i) f with
              | Fatal => Fatal
              | OOk f' e' => out_sections fsmax org fstart m cs (S i) t f' (e ++ e')
              end
  end.

(** bin-objfmt.c:1105-1357 bin_objfmt_output *)
Inductive outcome := Rejected (e : list berr) | Segfault | FatalSeek | Output (m : mem) (f : file) (w : list bwarn) (e : list berr).
(** lines 1117-1133 *)
Definition origin (org : option (option intnum)) : intnum + berr :=
  match org with
  | None => inl (create_uint 0)
  | Some None => inr OrgComplex
  | Some (Some o) => if sign o <? 0 then inr OrgNegative else inl o
  end.
(** lines 1146-1335: the groups and all addresses *)
Inductive lres := LRejected (e : list berr) | LCrash | Placed (m : mem) (w : list bwarn) (e : list berr).
Definition layout (o : intnum) (l : list sect) : lres :=
  let '(gs, w0, e0) := create_groups O l in
  match e0 with
  | _ :: _ => LRejected e0
  | [] =>
      match resolve follows (length gs) [] gs with
      | inr e => LRejected [e]
      | inl lgs =>
          let '(m1, w1) := assign_all (sort_groups (mem0 l) lgs [] []) o o (create_uint 0) (mem0 l) in
          match resolve vfollows (length l) [] (vma_groups O l) with
          | inr e => LRejected [e]
          | inl vgs => match assign_vall vgs m1 (w0 ++ w1) [] with
                       | Crash => LCrash
                       | VOk m2 w e => Placed m2 w e
                       end
          end
      end
  end.
Definition bin_output (fsmax : Z) (org : option (option intnum)) (l : list sect) (cs : mem -> nat -> list chunk) (f : list Z) : outcome :=
  match origin org with
  | inr e => Rejected [e]
  | inl o =>
      match layout o l with
      | LRejected e => Rejected e
      | LCrash => Segfault
      | Placed m w e =>
          match check_overlap m l O l with
          | Some x => Rejected (e ++ [x])
          | None => match out_sections fsmax o (Z.of_nat (length f)) m (cs m) O l (File f (length f)) e with
                    | Fatal => FatalSeek
                    | OOk f' e' => Output m f' w e'
                    end
          end
      end
  end.

(** bin-objfmt.c:1440-1583 bin_objfmt_section_switch.  [old] is the section if it exists, [new] the
    attributes of this directive; is_exp2 of util.h:148 holds for 0. *)
Definition is_exp2 (x : Z) : bool := Z.land x (u64 (x - 1)) =? 0.
Definition pick {A} (n o : option A) : option A := match n with Some _ => n | None => o end.
Record attrs := Attrs { a_follows : option str; a_vfollows : option str; a_start : option (option intnum);
  a_vstart : option (option intnum); a_align : option intnum; a_valign : option intnum; a_bss : option bool }.
Inductive serr := StartFollows | VstartVfollows | BadAlign | BadValign.
Definition bss_name : str := [46; 98; 115; 115].
Definition switch (nm : str) (old : option sect) (new : attrs) : sect + serr :=
  let o := match old with Some s => s | None => Sect nm (str_eqb nm bss_name) 0 0 None None None None None None end in
  let fo := pick (a_follows new) (follows o) in
  let vf := pick (a_vfollows new) (vfollows o) in
  let st := pick (a_start new) (start o) in
  let vs := pick (a_vstart new) (vstart o) in
  let bs := match a_bss new with Some x => x | None => bss o end in
  match st, fo with
  | Some _, Some _ => inr StartFollows
  | _, _ =>
      match vs, vf with
      | Some _, Some _ => inr VstartVfollows
      | _, _ =>
          let bad a := match a with Some x => negb (is_exp2 (get_uint x)) | None => false end in
          if bad (a_align new) then inr BadAlign else
          if bad (a_valign new) then inr BadValign else
          inl (Sect nm bs (salign o) (len o) (pick (a_align new) (align o)) (pick (a_valign new) (valign o)) st vs fo vf)
      end
  end.
