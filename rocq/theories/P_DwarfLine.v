(** Specification and proofs for dwarf2-line.c: a reader of .debug_line by the rules of DWARF, and
    the rows intended for a section (C38, C39, C63). *)
From Coq Require Import Ascii String.
From Coq Require Import ZArith List Bool Lia Sorted.
From Verif Require Import Lib M_BitVect P_BitVect P_BitVectIO M_Intnum P_Intnum P_IntnumIO M_File M_DwarfLine.
Import ListNotations.
Open Scope string_scope.
Open Scope list_scope.
Open Scope Z_scope.

(** * Specification: reading a line number program *)
(** A row of the line table; the registers of the state machine are a row whose [w_end] is false *)
Record row := Row { w_addr : Z; w_file : Z; w_line : Z; w_col : Z; w_stmt : bool; w_bb : bool; w_end : bool;
  w_pe : bool; w_eb : bool; w_isa : Z; w_disc : Z }.
(** The fields of a header *)
Record header := Header { h_min : Z; h_stmt : bool; h_base : Z; h_range : Z; h_opbase : Z; h_lens : list Z;
  h_dirs : list str; h_files : list (str * Z * Z * Z) }.
(** The registers at the start of a sequence *)
Definition start (h : header) : row := Row 0 1 1 0 (h_stmt h) false false false false 0 0.
(** What appending a row does to the registers *)
Definition after_row (r : row) : row := Row (w_addr r) (w_file r) (w_line r) (w_col r) (w_stmt r) false false false false (w_isa r) 0.
Definition advance (r : row) (da dl : Z) : row := Row (w_addr r + da) (w_file r) (w_line r + dl) (w_col r) (w_stmt r) (w_bb r) (w_end r) (w_pe r) (w_eb r) (w_isa r) (w_disc r).
Definition set_addr (r : row) (a : Z) : row := Row a (w_file r) (w_line r) (w_col r) (w_stmt r) (w_bb r) (w_end r) (w_pe r) (w_eb r) (w_isa r) (w_disc r).
Definition set_file (r : row) (f : Z) : row := Row (w_addr r) f (w_line r) (w_col r) (w_stmt r) (w_bb r) (w_end r) (w_pe r) (w_eb r) (w_isa r) (w_disc r).
Definition set_col (r : row) (c : Z) : row := Row (w_addr r) (w_file r) (w_line r) c (w_stmt r) (w_bb r) (w_end r) (w_pe r) (w_eb r) (w_isa r) (w_disc r).
Definition negate (r : row) : row := Row (w_addr r) (w_file r) (w_line r) (w_col r) (negb (w_stmt r)) (w_bb r) (w_end r) (w_pe r) (w_eb r) (w_isa r) (w_disc r).
Definition set_bb (r : row) : row := Row (w_addr r) (w_file r) (w_line r) (w_col r) (w_stmt r) true (w_end r) (w_pe r) (w_eb r) (w_isa r) (w_disc r).
Definition set_pe (r : row) : row := Row (w_addr r) (w_file r) (w_line r) (w_col r) (w_stmt r) (w_bb r) (w_end r) true (w_eb r) (w_isa r) (w_disc r).
Definition set_eb (r : row) : row := Row (w_addr r) (w_file r) (w_line r) (w_col r) (w_stmt r) (w_bb r) (w_end r) (w_pe r) true (w_isa r) (w_disc r).
Definition set_isa (r : row) (i : Z) : row := Row (w_addr r) (w_file r) (w_line r) (w_col r) (w_stmt r) (w_bb r) (w_end r) (w_pe r) (w_eb r) i (w_disc r).
Definition set_disc (r : row) (d : Z) : row := Row (w_addr r) (w_file r) (w_line r) (w_col r) (w_stmt r) (w_bb r) (w_end r) (w_pe r) (w_eb r) (w_isa r) d.
Definition ended (r : row) : row := Row (w_addr r) (w_file r) (w_line r) (w_col r) (w_stmt r) (w_bb r) true (w_pe r) (w_eb r) (w_isa r) (w_disc r).

Definition take (n : Z) (l : list Z) : option (list Z * list Z) :=
  if (0 <=? n) && (n <=? Z.of_nat (length l)) then Some (firstn (Z.to_nat n) l, skipn (Z.to_nat n) l) else None.
Fixpoint skip_lebs (n : nat) (l : list Z) : option (list Z) :=
  match n with O => Some l | S m => match leb false l with Some (_, _, r) => skip_lebs m r | None => None end end.
(** One operation: the rows it appends, the registers after it, the bytes after it *)
Definition step (h : header) (r : row) (l : list Z) : option (list row * row * list Z) :=
  match l with
  | [] => None
  | b :: t =>
      let uleb_then f := match leb false t with Some (v, _, rest) => Some ([], f v, rest) | None => None end in
      if h_opbase h <=? b then
        let adj := b - h_opbase h in
        let r' := advance r (h_min h * (adj / h_range h)) (h_base h + adj mod h_range h) in
        Some ([r'], after_row r', t)
      else if b =? 0 then
        match leb false t with
        | Some (n, _, t1) =>
            match take n t1 with
            | Some (e :: body, rest) =>
                if e =? 1 then Some ([ended r], start h, rest)
                else if e =? 2 then Some ([], set_addr r (lev body), rest)
                else if e =? 4 then match leb false body with Some (v, _, _) => Some ([], set_disc r v, rest) | None => None end
                else Some ([], r, rest)
            | _ => None
            end
        | None => None
        end
      else if b =? 1 then Some ([r], after_row r, t)
      else if b =? 2 then uleb_then (fun v => advance r (h_min h * v) 0)
      else if b =? 3 then match leb true t with Some (v, _, rest) => Some ([], advance r 0 v, rest) | None => None end
      else if b =? 4 then uleb_then (set_file r)
      else if b =? 5 then uleb_then (set_col r)
      else if b =? 6 then Some ([], negate r, t)
      else if b =? 7 then Some ([], set_bb r, t)
      else if b =? 8 then Some ([], advance r (h_min h * ((255 - h_opbase h) / h_range h)) 0, t)
      else if b =? 9 then match take 2 t with Some (a, rest) => Some ([], advance r (lev a) 0, rest) | None => None end
      else if b =? 10 then Some ([], set_pe r, t)
      else if b =? 11 then Some ([], set_eb r, t)
      else if b =? 12 then uleb_then (set_isa r)
      else match nth_error (h_lens h) (Z.to_nat (b - 1)) with
           | Some n => match skip_lebs (Z.to_nat n) t with Some rest => Some ([], r, rest) | None => None end
           | None => None
           end
  end.
(** The rows of a program, to the end of its bytes *)
Fixpoint exec (n : nat) (h : header) (r : row) (l : list Z) : option (list row) :=
  match l, n with
  | [], _ => Some []
  | _, O => None
  | _, S m => match step h r l with
              | Some (a, r', rest) => match exec m h r' rest with Some b => Some (a ++ b) | None => None end
              | None => None
              end
  end.
Definition program (h : header) (l : list Z) : option (list row) := exec (length l) h (start h) l.

(** The header: a NUL terminated string, the two lists of strings, the whole unit *)
Fixpoint cstr (l : list Z) : option (str * list Z) :=
  match l with
  | [] => None
  | c :: t => if c =? 0 then Some ([], t) else match cstr t with Some (s, r) => Some (c :: s, r) | None => None end
  end.
Fixpoint read_dirs (n : nat) (l : list Z) : option (list str * list Z) :=
  match n with
  | O => None
  | S m => match cstr l with
           | Some ([], r) => Some ([], r)
           | Some (s, r) => match read_dirs m r with Some (ds, r') => Some (s :: ds, r') | None => None end
           | None => None
           end
  end.
Fixpoint read_files (n : nat) (l : list Z) : option (list (str * Z * Z * Z) * list Z) :=
  match n with
  | O => None
  | S m => match cstr l with
           | Some ([], r) => Some ([], r)
           | Some (s, r) =>
               match leb false r with
               | Some (d, _, r1) =>
                   match leb false r1 with
                   | Some (tm, _, r2) =>
                       match leb false r2 with
                       | Some (sz, _, r3) => match read_files m r3 with Some (fs, r') => Some ((s, d, tm, sz) :: fs, r') | None => None end
                       | None => None
                       end
                   | None => None
                   end
               | None => None
               end
           | None => None
           end
  end.
(** A 32-bit unit of version 2: header, rows, and the bytes after the unit *)
Definition read_unit (l : list Z) : option (header * list row * list Z) :=
  match take 4 l with
  | Some (n, l1) =>
      match take (lev n) l1 with
      | Some (u, rest) =>
          match take 2 u with
          | Some (v, u1) =>
              match take 4 u1 with
              | Some (hl, u2) =>
                  match take (lev hl) u2 with
                  | Some (mil :: st :: lb :: lr :: ob :: hs, prog) =>
                      match take (ob - 1) hs with
                      | Some (lens, h1) =>
                          match read_dirs (length h1) h1 with
                          | Some (dirs, h2) =>
                              match read_files (length h2) h2 with
                              | Some (files, _) =>
                                  let h := Header mil (negb (st =? 0)) (sgn 8 lb) lr ob lens dirs files in
                                  if lev v =? 2 then
                                    match program h prog with Some rows => Some (h, rows, rest) | None => None end
                                  else None
                              | None => None
                              end
                          | None => None
                          end
                      | None => None
                      end
                  | _ => None
                  end
              | None => None
              end
          | None => None
          end
      | None => None
      end
  | None => None
  end.

(** * Specification: the rows intended *)
(** The section's bytecodes lie one behind the other from offset 0 *)
Fixpoint laid_out (o : Z) (l : list bcode) : Prop :=
  match l with [] => True | b :: t => b_off b = o /\ 0 <= b_len b /\ laid_out (o + b_len b) t end.
Fixpoint size (l : list bcode) : Z := match l with [] => 0 | b :: t => b_len b + size t end.
(** Where a .loc directive on line [v] stands: the bytecode after it, the first on a later line *)
Definition site (bcs : list bcode) (v : Z) : option bcode := find (fun b => v <? b_line b) bcs.
(** The bytecodes before that *)
Fixpoint before (bcs : list bcode) (v : Z) : list bcode :=
  match bcs with [] => [] | b :: t => if v <? b_line b then [] else b :: before t v end.
(** The offset of the last label standing there, the label of a bytecode being at its end *)
Fixpoint label_end (l : list bcode) : option Z :=
  match l with
  | [] => None
  | b :: t => match label_end t with Some o => Some o | None => match b_syms b with [] => None | _ => Some (b_off b + b_len b) end end
  end.
Definition site_off (bcs : list bcode) (l : loc) : Z := match site bcs (l_vline l) with Some b => b_off b | None => 0 end.
(** The rows of .loc directives: of several at one offset the last gives the row, but the flags
    and the last discriminator of all of them count *)
Fixpoint loc_rows (base : Z) (off : loc -> Z) (isa : Z) (st bb pe eb : bool) (disc : Z) (ls : list loc) : list row :=
  match ls with
  | [] => []
  | l :: t =>
      let isa := if l_isach l then l_isa l else isa in
      let st := match l_stmt l with NoChange => st | SetStmt => true | ClearStmt => false end in
      let bb := bb || l_bb l in let pe := pe || l_pe l in let eb := eb || l_eb l in
      let disc := if l_disc l =? 0 then disc else l_disc l in
      if match t with n :: _ => off n =? off l | [] => false end
      then loc_rows base off isa st bb pe eb disc t
      else Row (base + off l) (l_file l) (l_line l) (l_col l) st bb false pe eb isa disc
           :: loc_rows base off isa st false false false 0 t
  end.
(** The .loc that gives the first row *)
Fixpoint first_row (off : loc -> Z) (l : loc) (t : list loc) : loc :=
  match t with [] => l | n :: t' => if off n =? off l then first_row off n t' else l end.
Definition end_row (a : Z) (r : row) : row := Row a (w_file r) (w_line r) (w_col r) (w_stmt r) false true false false (w_isa r) 0.
(** A sequence: the rows, and behind them the row that ends it at address [a] *)
Definition sequence (rows : list row) (a : Z) : list row := rows ++ [end_row a (last rows (Row 0 1 1 0 true false false false false 0 0))].

(** The text of a directory number, and the path a file number stands for: its directory and its
    name are those the path splits into (C40) *)
Definition dir_text (t : tables) (d : Z) : option str := if d =? 0 then Some [] else if 0 <? d then nth_error (t_dirs t) (Z.to_nat (d - 1)) else None.
Definition denotes (t : tables) (f : Z) (path : str) : Prop :=
  exists d, 1 <= f /\ nth_error (t_files t) (Z.to_nat (f - 1)) = Some (Some (snd (splitpath path), d)) /\
    dir_text t d = Some (firstn (Z.to_nat (fst (splitpath path))) path).
(** The bytecodes that stand at an offset of their own *)
Fixpoint emitting (l : list bcode) : list bcode :=
  match l with
  | [] => []
  | b :: t => if match t with n :: _ => b_off b =? b_off n | [] => false end then emitting t else b :: emitting t
  end.
(** The row of a bytecode: its address, the file and line it comes from *)
Definition bc_row (named : Z -> str -> Prop) (lookup : Z -> str * Z) (base : Z) (b : bcode) (w : row) : Prop :=
  exists f, w = Row (base + b_off b) f (snd (lookup (b_line b))) 0 true false false false false 0 0 /\ named f (fst (lookup (b_line b))).
(** A path that can be written: it has a name, and no NUL *)
Definition good_path (p : str) : Prop := Forall (fun c => 0 < c < 256) p /\ snd (splitpath p) <> [].
(** The path of a file number by the tables of a header *)
Definition file_is (h : header) (f : Z) (path : str) : Prop :=
  exists d, 1 <= f /\ nth_error (h_files h) (Z.to_nat (f - 1)) = Some (snd (splitpath path), d, 0, 0) /\
    let dir := firstn (Z.to_nat (fst (splitpath path))) path in
    (d = 0 /\ dir = [] \/ 0 < d /\ nth_error (h_dirs h) (Z.to_nat (d - 1)) = Some dir).

(** The numbers a directive can hold without being cut to 32 bits *)
Definition small_loc (l : loc) : Prop := 0 <= l_file l < 2 ^ 32 /\ 0 <= l_line l < 2 ^ 32 /\ 0 <= l_col l < 2 ^ 32 /\ 0 <= l_isa l < 2 ^ 32 /\ 0 <= l_disc l < 2 ^ 32.

(** The label of a bytecode marks its end *)
Definition labels_at (rs : Z -> Z) (base : Z) (bcs : list bcode) : Prop := forall b s, In b bcs -> In s (b_syms b) -> rs s = base + (b_off b + b_len b).
(** A section in loc mode and the rows meant for it: the first row's .loc directly follows a label *)
Inductive loc_sect (rs : Z -> Z) (asz : Z) : sect -> list row -> Prop :=
| no_locs code bcs : loc_sect rs asz (Sect code None bcs) []
| with_locs code bcs l t base : laid_out 0 bcs -> size bcs < 2 ^ 32 -> labels_at rs base bcs ->
    Sorted Z.le (map l_vline (l :: t)) -> Forall small_loc (l :: t) -> Forall (fun l => site bcs (l_vline l) <> None) (l :: t) ->
    let o := site_off bcs (first_row (site_off bcs) l t) in
    label_end (before bcs (l_vline (first_row (site_off bcs) l t))) = Some o -> 0 <= base + o < 256 ^ asz ->
    loc_sect rs asz (Sect code (Some (l :: t)) bcs) (sequence (loc_rows base (site_off bcs) 0 true false false false 0 (l :: t)) (base + size bcs)).
(** A section in asm mode, at address [base]: it begins with an empty bytecode, which the symbol of
    the section labels *)
Definition has_rows (x : sect) : bool := x_code x || match x_locs x with Some _ => true | None => false end.
Definition asm_sect (rs : Z -> Z) (asz : Z) (lookup : Z -> str * Z) (names : list str) (x : sect) (base : Z) : Prop :=
  has_rows x = true -> exists first rest, x_bcs x = first :: rest /\ rest <> [] /\ b_len first = 0 /\ b_syms first <> [] /\
    laid_out 0 (x_bcs x) /\ size (x_bcs x) < 2 ^ 32 /\ labels_at rs base (x_bcs x) /\ 0 <= base /\ base + size (x_bcs x) < 256 ^ asz /\
    Forall (fun b => In (fst (lookup (b_line b))) names /\ 0 <= snd (lookup (b_line b)) < 2 ^ 32) rest.
(** The length of the first bytecode of its own offset, if a label marks its end *)
Definition shift (x : sect) : Z := match emitting (tl (x_bcs x)) with b :: _ => match b_syms b with [] => 0 | _ => b_len b end | [] => 0 end.
(** The rows for sections at the given addresses *)
Fixpoint asm_rows (h : header) (lookup : Z -> str * Z) (l : list (sect * Z)) (rows : list row) : Prop :=
  match l with
  | [] => rows = []
  | (x, base) :: t => exists a b, rows = a ++ b /\ asm_rows h lookup t b /\
      if has_rows x then exists body, a = sequence body (base + size (x_bcs x)) /\ Forall2 (bc_row (file_is h) lookup base) (emitting (tl (x_bcs x))) body
      else a = []
  end.
(** .file directives: the path last given to a number *)
Fixpoint last_file (n : Z) (l : list (Z * str)) : option str :=
  match l with [] => None | (m, p) :: t => match last_file n t with Some q => Some q | None => if m =? n then Some p else None end end.
Definition no_holes (l : list (Z * str)) : Prop := forall n p m, In (n, p) l -> 1 <= m <= n -> exists q, In (m, q) l.
Definition files_of (l : list (Z * str)) : tables := fold_left (fun t f => add_file t (fst f) (snd f)) l (Tables [] []).

(** Options of a .loc directive *)
Fixpoint bytes_of (s : string) : str := match s with EmptyString => [] | String c t => Z.of_nat (nat_of_ascii c) :: bytes_of t end.
(** Words count in any case of their letters *)
Definition spells (s : str) (w : string) : Prop := map (fun c => if (65 <=? c) && (c <=? 90) then c + 32 else c) s = bytes_of w.
Inductive opt := Stmt (b : bool) | Isa (n : Z) | Disc (n : Z) | Block | Prologue | Epilogue.
Definition number (p : param) (n : Z) : Prop := p_what p = PExpr (Some (IL n)) /\ 0 <= n < 2 ^ 63.
(** name value, or name=value; a flag is its name *)
Inductive writes : opt -> list param -> Prop :=
| w_stmt2 s v p b : spells s "is_stmt" -> number p (Z.b2z b) -> writes (Stmt b) [Param None (PId s v); p]
| w_stmt1 s p b : spells s "is_stmt" -> number p (Z.b2z b) -> p_val p = Some s -> writes (Stmt b) [p]
| w_isa2 s v p n : spells s "isa" -> number p n -> writes (Isa n) [Param None (PId s v); p]
| w_isa1 s p n : spells s "isa" -> number p n -> p_val p = Some s -> writes (Isa n) [p]
| w_disc2 s v p n : spells s "discriminator" -> number p n -> writes (Disc n) [Param None (PId s v); p]
| w_disc1 s p n : spells s "discriminator" -> number p n -> p_val p = Some s -> writes (Disc n) [p]
| w_block s v : spells s "basic_block" -> writes Block [Param None (PId s v)]
| w_prologue s v : spells s "prologue_end" -> writes Prologue [Param None (PId s v)]
| w_epilogue s v : spells s "epilogue_begin" -> writes Epilogue [Param None (PId s v)].
(** What a list of options asks for *)
Definition asked {A} (f : opt -> option A) (l : list opt) : option A := fold_left (fun a o => match f o with Some x => Some x | None => a end) l None.
Definition asks_stmt := asked (fun o => match o with Stmt b => Some b | _ => None end).
Definition asks_isa := asked (fun o => match o with Isa n => Some n | _ => None end).
Definition asks_disc := asked (fun o => match o with Disc n => Some n | _ => None end).
Definition with_options (vline f n c : Z) (l : list opt) (st : stmt) : loc :=
  Loc vline f n c (match asks_disc l with Some d => d | None => 0 end) (match asks_isa l with Some _ => true | None => false end) (match asks_isa l with Some i => i | None => 0 end)
    st (existsb (fun o => match o with Block => true | _ => false end) l) (existsb (fun o => match o with Prologue => true | _ => false end) l)
    (existsb (fun o => match o with Epilogue => true | _ => false end) l) None None.

(** * The reader *)
Inductive Run (h : header) : row -> list Z -> list row -> Prop :=
| Run_nil r : Run h r [] []
| Run_step r l a r' rest rows : step h r l = Some (a, r', rest) -> Run h r' rest rows -> Run h r l (a ++ rows).
Lemma uleb_shorter : forall l v k r, uleb l = Some (v, k, r) -> (length r < length l)%nat.
Proof.
  induction l as [|c l IH]; intros v k r E; cbn [uleb] in E; [discriminate|]. destruct (c <? 128); [injection E as _ _ <-; cbn; lia|].
  destruct (uleb l) as [[[v' k'] r']|]; [|discriminate]. injection E as _ _ <-. specialize (IH _ _ _ eq_refl). cbn. lia.
Qed.
Lemma leb_shorter : forall s l v k r, leb s l = Some (v, k, r) -> (length r < length l)%nat.
Proof. intros s l v k r E. unfold leb in E. destruct (uleb l) as [[[v' k'] r']|] eqn:U; [|discriminate]. apply uleb_shorter in U. injection E as _ _ <-. auto. Qed.
Lemma take_shorter : forall n l a r, take n l = Some (a, r) -> (length r <= length l)%nat.
Proof. intros n l a r E. unfold take in E. destruct (_ && _); [|discriminate]. injection E as _ <-. rewrite skipn_length. lia. Qed.
Lemma skip_shorter : forall n l r, skip_lebs n l = Some r -> (length r <= length l)%nat.
Proof. induction n as [|n IH]; intros l r E; cbn in E; [injection E as <-; lia|]. destruct (leb false l) as [[[v k] r1]|] eqn:L; [|discriminate]. apply leb_shorter in L. apply IH in E. lia. Qed.
Lemma step_shorter : forall h r l a r' rest, step h r l = Some (a, r', rest) -> (length rest < length l)%nat.
Proof.
  intros h r l a r' rest E. destruct l as [|b t]; [discriminate|]. unfold step in E. cbn [length].
  destruct (h_opbase h <=? b); [injection E as _ _ <-; lia|].
  destruct (b =? 0).
  { destruct (leb false t) as [[[n k] t1]|] eqn:L; [|discriminate]. apply leb_shorter in L.
    destruct (take n t1) as [[[|e body] rs]|] eqn:T; try discriminate. apply take_shorter in T.
    destruct (e =? 1); [injection E as _ _ <-; lia|]. destruct (e =? 2); [injection E as _ _ <-; lia|].
    destruct (e =? 4); [destruct (leb false body) as [[[? ?] ?]|]; [|discriminate]|]; injection E as _ _ <-; lia. }
  destruct (b =? 1); [injection E as _ _ <-; lia|].
  destruct (b =? 2). { destruct (leb false t) as [[[n k] t1]|] eqn:L; [|discriminate]. apply leb_shorter in L. injection E as _ _ <-. lia. }
  destruct (b =? 3). { destruct (leb true t) as [[[n k] t1]|] eqn:L; [|discriminate]. apply leb_shorter in L. injection E as _ _ <-. lia. }
  destruct (b =? 4). { destruct (leb false t) as [[[n k] t1]|] eqn:L; [|discriminate]. apply leb_shorter in L. injection E as _ _ <-. lia. }
  destruct (b =? 5). { destruct (leb false t) as [[[n k] t1]|] eqn:L; [|discriminate]. apply leb_shorter in L. injection E as _ _ <-. lia. }
  destruct (b =? 6); [injection E as _ _ <-; lia|]. destruct (b =? 7); [injection E as _ _ <-; lia|]. destruct (b =? 8); [injection E as _ _ <-; lia|].
  destruct (b =? 9). { destruct (take 2 t) as [[x y]|] eqn:T; [|discriminate]. apply take_shorter in T. injection E as _ _ <-. lia. }
  destruct (b =? 10); [injection E as _ _ <-; lia|]. destruct (b =? 11); [injection E as _ _ <-; lia|].
  destruct (b =? 12). { destruct (leb false t) as [[[n k] t1]|] eqn:L; [|discriminate]. apply leb_shorter in L. injection E as _ _ <-. lia. }
  destruct (nth_error _ _) as [n|]; [|discriminate]. destruct (skip_lebs _ t) as [x|] eqn:K; [|discriminate]. apply skip_shorter in K. injection E as _ _ <-. lia.
Qed.
Lemma Run_exec : forall h r l rows, Run h r l rows -> forall n, (length l <= n)%nat -> exec n h r l = Some rows.
Proof.
  intros h r l rows H. induction H as [r|r l a r' rest rows S1 _ IH]; intros n L.
  - destruct n; reflexivity.
  - pose proof (step_shorter _ _ _ _ _ _ S1) as K. destruct l as [|b t]; [discriminate|]. destruct n as [|n]; [cbn in L; lia|]. cbn [exec]. rewrite S1. rewrite IH; [reflexivity|]. cbn [length] in *. lia.
Qed.

(** * What the operations do *)
Definition Seg (h : header) (r : row) (bs : list Z) (rows : list row) (r' : row) : Prop :=
  forall rest rows', Run h r' rest rows' -> Run h r (bs ++ rest) (rows ++ rows').
Lemma Seg_step : forall h r bs a r', (forall rest, step h r (bs ++ rest) = Some (a, r', rest)) -> Seg h r bs a r'.
Proof. intros h r bs a r' H rest rows' R. apply (Run_step h r (bs ++ rest) a r' rest); auto. Qed.
Definition Does (h : header) (rs : Z -> Z) (r : row) (ops : list line_op) (rows : list row) (r' : row) : Prop :=
  exists bs, ops_bytes rs ops = Good bs /\ sum (map op_len ops) = Z.of_nat (length bs) /\ Seg h r bs rows r'.
Lemma does_nil : forall h rs r, Does h rs r [] [] r.
Proof. intros. exists []. split; [reflexivity|]. split; [reflexivity|]. intros rest rows R. exact R. Qed.
Lemma ops_bytes_app : forall rs a b x y, ops_bytes rs a = Good x -> ops_bytes rs b = Good y -> ops_bytes rs (a ++ b) = Good (x ++ y).
Proof.
  induction a as [|o a IH]; intros b x y A B; cbn [ops_bytes app] in *; [injection A as <-; auto|].
  destruct (op_bytes rs o) as [w| | |]; try discriminate. cbn [bind] in *. destruct (ops_bytes rs a) as [z| | |]; try discriminate. cbn [bind] in *. injection A as <-.
  rewrite (IH b z y eq_refl B). cbn [bind]. rewrite app_assoc. reflexivity.
Qed.
Lemma sum_app : forall a b, sum (a ++ b) = sum a + sum b.
Proof. induction a; intros; cbn [sum app]; [reflexivity|rewrite IHa; lia]. Qed.
Lemma does_app : forall h rs r a x r1 b y r2, Does h rs r a x r1 -> Does h rs r1 b y r2 -> Does h rs r (a ++ b) (x ++ y) r2.
Proof.
  intros h rs r a x r1 b y r2 (bs & A1 & A2 & A3) (cs & B1 & B2 & B3). exists (bs ++ cs). split; [apply ops_bytes_app; auto|]. split.
  - rewrite map_app, sum_app, app_length, A2, B2. lia.
  - intros rest rows R. rewrite <- !app_assoc. apply A3. apply B3. exact R.
Qed.
Lemma does_one : forall h rs r o bs a r', op_bytes rs o = Good bs -> op_len o = Z.of_nat (length bs) ->
  (forall rest, step h r (bs ++ rest) = Some (a, r', rest)) -> Does h rs r [o] a r'.
Proof. intros h rs r o bs a r' A B C. exists bs. cbn [ops_bytes]. rewrite A. cbn [bind map sum]. rewrite app_nil_r, B. split; [auto|]. split; [lia|]. apply Seg_step. auto. Qed.

Lemma uint_leb : forall u, 0 <= u < 2 ^ 32 -> exists l, intnum_leb128 (create_uint u) false = Some l /\ Forall byte l /\
  intnum_size_leb128 (create_uint u) false = Z.of_nat (length l) /\ forall rest, leb false (l ++ rest) = Some (u, Z.of_nat (length l), rest).
Proof.
  intros u R. destruct (get_uleb_ok u ltac:(lia)) as [H _]. rewrite Z.mod_small in H by lia.
  destruct (H ltac:(lia)) as (l & A & B & C & D). exists l. unfold get_uleb128, size_uleb128 in *.
  assert (E : create_uint u = IL u) by (unfold create_uint, LONG_MAX; destruct (Z.ltb_spec 9223372036854775807 u); [lia|reflexivity]). rewrite E.
  destruct (Z.eq_dec u 0) as [->|N]; [split; [exact A|]; split; [auto|]; split; [exact C|auto]|].
  destruct (Z.eqb_spec u 0); [lia|]. unfold intnum_leb128, intnum_size_leb128. cbn [tobv]. unfold long_bv. destruct (Z.leb_spec 0 u); [|lia]. rewrite u64_small by (unfold w64; lia).
  destruct u; try lia; (split; [exact A|]; split; [auto|]; split; [exact C|auto]).
Qed.
Lemma int_leb : forall v, - 2 ^ 32 < v < 2 ^ 32 -> exists l, intnum_leb128 (create_int v) true = Some l /\ Forall byte l /\
  intnum_size_leb128 (create_int v) true = Z.of_nat (length l) /\ forall rest, leb true (l ++ rest) = Some (v, Z.of_nat (length l), rest).
Proof.
  intros v R. destruct (get_sleb_ok v ltac:(lia)) as [H _].
  assert (T : trunc32 v = v) by (unfold trunc32; rewrite Z.mod_small by lia; rewrite Z.mul_comm; apply Z.abs_sgn).
  rewrite T in H. destruct (H ltac:(lia)) as (l & A & B & C & D). exists l. unfold get_sleb128, size_sleb128, create_int in *.
  destruct (Z.eq_dec v 0) as [->|N]; [split; [exact A|]; split; [auto|]; split; [exact C|auto]|].
  destruct (Z.eqb_spec v 0); [lia|]. unfold intnum_leb128, intnum_size_leb128. cbn [tobv]. destruct v; try lia; (split; [exact A|]; split; [auto|]; split; [exact C|auto]).
Qed.

(** The header that is written *)
Definition Good_header (h : header) : Prop := h_min h = 1 /\ h_stmt h = true /\ h_base h = -5 /\ h_range h = 14 /\ h_opbase h = 13.
Section Steps.
Variable h : header.
Hypothesis H : Good_header h.
Variable rs : Z -> Z.
Lemma low : forall b, b < 13 -> (h_opbase h <=? b) = false.
Proof. intros b B. destruct H as (_ & _ & _ & _ & ->). apply Z.leb_gt. auto. Qed.
Lemma plain_bytes : forall k, 0 < k < 256 -> op_bytes rs (op k None) = Good [k] /\ op_len (op k None) = 1.
Proof.
  intros k K. unfold op_bytes, op_len, op. cbn [o_operand o_opcode o_ext put_leb bind o_int o_sym Z.ltb Z.compare app le]. rewrite Z.mod_small by lia. split; [reflexivity|].
  unfold DW_LNS_extended_op. destruct (Z.eqb_spec k 0); [lia|reflexivity].
Qed.
Lemma does_plain : forall k r a r', 0 < k < 256 -> (forall rest, step h r (k :: rest) = Some (a, r', rest)) -> Does h rs r [op k None] a r'.
Proof. intros k r a r' K S1. destruct (plain_bytes k K) as [A B]. apply (does_one h rs r (op k None) [k]); auto. Qed.
Lemma uint_bytes : forall k u, 0 < k < 256 -> k <> 3 -> 0 <= u < 2 ^ 32 -> exists l, op_bytes rs (op k (Some (create_uint u))) = Good (k :: l) /\
  op_len (op k (Some (create_uint u))) = Z.of_nat (length (k :: l)) /\ forall rest, leb false (l ++ rest) = Some (u, Z.of_nat (length l), rest).
Proof.
  intros k u K N3 U. destruct (uint_leb u U) as (l & A & B & C & D). exists l. unfold op_bytes, op_len, op. cbn [o_operand o_opcode o_ext o_int o_sym Z.ltb Z.compare].
  unfold DW_LNS_advance_line, DW_LNS_extended_op. destruct (Z.eqb_spec k 3); [lia|]. destruct (Z.eqb_spec k 0); [lia|]. cbn [put_leb]. rewrite A. cbn [bind le app].
  rewrite app_nil_r, Z.mod_small by lia. split; [reflexivity|]. split; [rewrite C; cbn [length]; lia|auto].
Qed.
Lemma does_uint : forall k u r r', 0 < k < 256 -> k <> 3 -> 0 <= u < 2 ^ 32 ->
  (forall l rest, leb false (l ++ rest) = Some (u, Z.of_nat (length l), rest) -> step h r (k :: l ++ rest) = Some ([], r', rest)) -> Does h rs r [op k (Some (create_uint u))] [] r'.
Proof. intros k u r r' K N3 U S1. destruct (uint_bytes k u K N3 U) as (l & A & B & C). apply (does_one h rs r _ (k :: l)); auto. intros rest. apply S1. auto. Qed.
Ltac stepn := unfold step; rewrite low by lia; match goal with |- context [?a =? 0] => change (a =? 0) with false end; cbn [Z.eqb Pos.eqb].
Lemma does_copy : forall r, Does h rs r [op DW_LNS_copy None] [r] (after_row r).
Proof. intros. apply does_plain; [unfold DW_LNS_copy; lia|]. intros rest. unfold step, DW_LNS_copy. rewrite low by lia. reflexivity. Qed.
Lemma does_negate : forall r, Does h rs r [op DW_LNS_negate_stmt None] [] (negate r).
Proof. intros. apply does_plain; [unfold DW_LNS_negate_stmt; lia|]. intros rest. unfold step, DW_LNS_negate_stmt. rewrite low by lia. reflexivity. Qed.
Lemma does_bb : forall r, Does h rs r [op DW_LNS_set_basic_block None] [] (set_bb r).
Proof. intros. apply does_plain; [unfold DW_LNS_set_basic_block; lia|]. intros rest. unfold step, DW_LNS_set_basic_block. rewrite low by lia. reflexivity. Qed.
Lemma does_pe : forall r, Does h rs r [op DW_LNS_set_prologue_end None] [] (set_pe r).
Proof. intros. apply does_plain; [unfold DW_LNS_set_prologue_end; lia|]. intros rest. unfold step, DW_LNS_set_prologue_end. rewrite low by lia. reflexivity. Qed.
Lemma does_eb : forall r, Does h rs r [op DW_LNS_set_epilogue_begin None] [] (set_eb r).
Proof. intros. apply does_plain; [unfold DW_LNS_set_epilogue_begin; lia|]. intros rest. unfold step, DW_LNS_set_epilogue_begin. rewrite low by lia. reflexivity. Qed.
Lemma does_const : forall r, Does h rs r [op DW_LNS_const_add_pc None] [] (advance r 17 0).
Proof.
  intros. apply does_plain; [unfold DW_LNS_const_add_pc; lia|]. intros rest. unfold step, DW_LNS_const_add_pc. rewrite low by lia.
  destruct H as (H1 & _ & _ & H4 & H5). rewrite H1, H4, H5. reflexivity.
Qed.
Lemma does_file : forall r f, 0 <= f < 2 ^ 32 -> Does h rs r [op DW_LNS_set_file (Some (create_uint f))] [] (set_file r f).
Proof. intros r f F. apply does_uint; unfold DW_LNS_set_file; try lia. intros l rest E. unfold step. rewrite low by lia. cbn [Z.eqb Pos.eqb]. rewrite E. reflexivity. Qed.
Lemma does_col : forall r f, 0 <= f < 2 ^ 32 -> Does h rs r [op DW_LNS_set_column (Some (create_uint f))] [] (set_col r f).
Proof. intros r f F. apply does_uint; unfold DW_LNS_set_column; try lia. intros l rest E. unfold step. rewrite low by lia. cbn [Z.eqb Pos.eqb]. rewrite E. reflexivity. Qed.
Lemma does_isa : forall r f, 0 <= f < 2 ^ 32 -> Does h rs r [op DW_LNS_set_isa (Some (create_uint f))] [] (set_isa r f).
Proof. intros r f F. apply does_uint; unfold DW_LNS_set_isa; try lia. intros l rest E. unfold step. rewrite low by lia. cbn [Z.eqb Pos.eqb]. rewrite E. reflexivity. Qed.
Lemma does_pc : forall r d, 0 <= d < 2 ^ 32 -> Does h rs r [op DW_LNS_advance_pc (Some (create_uint d))] [] (advance r d 0).
Proof. intros r f F. apply does_uint; unfold DW_LNS_advance_pc; try lia. intros l rest E. unfold step. rewrite low by lia. cbn [Z.eqb Pos.eqb]. rewrite E. destruct H as (H1 & _). rewrite H1, Z.mul_1_l. reflexivity. Qed.
Lemma does_line : forall r d, - 2 ^ 32 < d < 2 ^ 32 -> Does h rs r [op DW_LNS_advance_line (Some (create_int d))] [] (advance r 0 d).
Proof.
  intros r d D. destruct (int_leb d D) as (l & A & B & C & E). apply (does_one h rs r _ (3 :: l)).
  - unfold op_bytes, op. cbn [o_operand o_opcode o_ext o_int o_sym Z.ltb Z.compare put_leb]. change (DW_LNS_advance_line =? DW_LNS_advance_line) with true. rewrite A. cbn [bind le app]. rewrite app_nil_r. reflexivity.
  - unfold op_len, op. cbn [o_opcode o_operand]. change (DW_LNS_advance_line =? DW_LNS_extended_op) with false. change (DW_LNS_advance_line =? DW_LNS_advance_line) with true. cbv iota. rewrite C. cbn [length]. lia.
  - intros rest. cbn [app]. unfold step. rewrite low by lia. cbn [Z.eqb Pos.eqb]. rewrite E. reflexivity.
Qed.
Lemma does_special : forall r k da dl, 0 <= da -> -5 <= dl < 9 -> k = 18 + dl + 14 * da -> k <= 255 -> Does h rs r [op k None] [advance r da dl] (after_row (advance r da dl)).
Proof.
  intros r k da dl A B K L. apply does_plain; [lia|]. intros rest. unfold step. destruct H as (H1 & _ & H3 & H4 & H5). rewrite H1, H3, H4, H5.
  destruct (Z.leb_spec 13 k); [|lia]. cbv zeta. replace ((k - 13) / 14) with da by (apply Z.div_unique with (dl + 5); lia). replace ((k - 13) mod 14) with (dl + 5) by (apply Z.mod_unique with da; lia).
  replace (1 * da) with da by lia. replace (-5 + (dl + 5)) with dl by lia. reflexivity.
Qed.
Lemma take_app : forall a r, take (Z.of_nat (length a)) (a ++ r) = Some (a, r).
Proof. intros a r. unfold take. rewrite app_length. destruct (Z.leb_spec 0 (Z.of_nat (length a))); [|lia]. destruct (Z.leb_spec (Z.of_nat (length a)) (Z.of_nat (length a + length r))); [|lia]. cbn [andb].
  rewrite Nat2Z.id, firstn_app, skipn_app, firstn_all, skipn_all, Nat.sub_diag. cbn [firstn skipn]. rewrite app_nil_r. reflexivity. Qed.
Lemma ext_bytes : forall e size sym iv body, 0 < e < 256 -> 0 <= size < 2 ^ 31 -> put_leb iv false = Good body \/ (iv = None /\ body = []) ->
  Z.of_nat (length (match sym with Some s => le (Z.to_nat size) (rs s) | None => [] end ++ body)) = size ->
  exists l, op_bytes rs (LineOp DW_LNS_extended_op (Some (create_uint (size + 1))) e sym iv size) = Good (0 :: l ++ e :: match sym with Some s => le (Z.to_nat size) (rs s) | None => [] end ++ body) /\
    op_len (LineOp DW_LNS_extended_op (Some (create_uint (size + 1))) e sym iv size) = Z.of_nat (length (0 :: l ++ e :: match sym with Some s => le (Z.to_nat size) (rs s) | None => [] end ++ body)) /\
    forall rest, leb false (l ++ rest) = Some (size + 1, Z.of_nat (length l), rest).
Proof.
  intros e size sym iv body E Sz PL L. destruct (uint_leb (size + 1) ltac:(lia)) as (l & A & B & C & D). exists l.
  assert (P : put_leb iv false = Good body) by (destruct PL as [P|[-> ->]]; [auto|reflexivity]).
  unfold op_bytes, op_len. cbn [o_operand o_opcode o_ext o_int o_sym o_size]. change (DW_LNS_extended_op =? DW_LNS_advance_line) with false. change (DW_LNS_extended_op =? DW_LNS_extended_op) with true.
  cbn [put_leb]. rewrite A. cbn [bind]. destruct (Z.ltb_spec 0 e); [|lia]. rewrite P. cbn [bind le app]. rewrite (Z.mod_small e) by lia. split; [reflexivity|]. split; [|auto].
  rewrite C. cbn [length]. rewrite app_length. cbn [length]. rewrite <- L at 1. lia.
Qed.
Lemma step_ext : forall r l e body rest n, leb false (l ++ e :: body ++ rest) = Some (n, Z.of_nat (length l), e :: body ++ rest) -> n = Z.of_nat (length body) + 1 ->
  step h r (0 :: l ++ e :: body ++ rest) =
    if e =? 1 then Some ([ended r], start h, rest)
    else if e =? 2 then Some ([], set_addr r (lev body), rest)
    else if e =? 4 then match leb false body with Some (v, _, _) => Some ([], set_disc r v, rest) | None => None end
    else Some ([], r, rest).
Proof.
  intros r l e body rest n E N. unfold step. rewrite low by lia. cbn [Z.eqb]. rewrite E. replace n with (Z.of_nat (length (e :: body))) by (cbn [length]; lia).
  change (e :: body ++ rest) with ((e :: body) ++ rest). rewrite take_app. reflexivity.
Qed.
Lemma le_length : forall n v, length (le n v) = n.
Proof. induction n; intros; cbn [le length]; [reflexivity|rewrite IHn; reflexivity]. Qed.
Lemma lev_le : forall n v, 0 <= v < 256 ^ Z.of_nat n -> lev (le n v) = v.
Proof.
  induction n as [|n IH]; intros v R; cbn [le lev]; [cbn in R; lia|]. rewrite Nat2Z.inj_succ, Z.pow_succ_r in R by lia.
  rewrite IH; [rewrite (Z.div_mod v 256) at 3 by lia; lia|]. split; [apply Z.div_pos; lia|apply Z.div_lt_upper_bound; lia].
Qed.
Lemma le_bytes : forall n v, Forall byte (le n v).
Proof. induction n; intros; cbn [le]; constructor; auto. unfold byte. pose proof (Z.mod_pos_bound v 256 ltac:(lia)). lia. Qed.
Lemma does_addr : forall r asz s, 0 <= asz < 256 -> 0 <= rs s < 256 ^ asz -> Does h rs r [ext_op DW_LNE_set_address asz (Some s)] [] (set_addr r (rs s)).
Proof.
  intros r asz s A R. destruct (ext_bytes DW_LNE_set_address asz (Some s) None [] ltac:(unfold DW_LNE_set_address; lia) ltac:(lia) (or_intror (conj eq_refl eq_refl))) as (l & B & C & D).
  { rewrite app_nil_r, le_length. lia. }
  rewrite app_nil_r in *. eapply does_one; [exact B|exact C|]. intros rest.
  replace ((0 :: l ++ DW_LNE_set_address :: le (Z.to_nat asz) (rs s)) ++ rest) with (0 :: l ++ DW_LNE_set_address :: le (Z.to_nat asz) (rs s) ++ rest) by (cbn [app]; rewrite <- app_assoc; reflexivity).
  rewrite (step_ext _ _ _ _ _ _ (D _)); [|rewrite le_length; lia]. change (DW_LNE_set_address =? 1) with false. change (DW_LNE_set_address =? 2) with true. cbv iota.
  rewrite lev_le by (rewrite Z2Nat.id by lia; lia). reflexivity.
Qed.
Lemma does_end : forall r, Does h rs r [ext_op DW_LNE_end_sequence 0 None] [ended r] (start h).
Proof.
  intros r. destruct (ext_bytes DW_LNE_end_sequence 0 None None [] ltac:(unfold DW_LNE_end_sequence; lia) ltac:(lia) (or_intror (conj eq_refl eq_refl)) eq_refl) as (l & B & C & D).
  cbn [app] in *. eapply does_one; [exact B|exact C|]. intros rest.
  replace ((0 :: l ++ [DW_LNE_end_sequence]) ++ rest) with (0 :: l ++ DW_LNE_end_sequence :: [] ++ rest) by (cbn [app]; rewrite <- app_assoc; reflexivity).
  rewrite (step_ext _ _ _ _ _ _ (D _)) by reflexivity. reflexivity.
Qed.
Lemma leb_len_small : forall u, 0 <= u < 2 ^ 32 -> 0 <= intnum_size_leb128 (create_uint u) false <= 37.
Proof.
  intros u U. assert (E : create_uint u = IL u) by (unfold create_uint, LONG_MAX; destruct (Z.ltb_spec 9223372036854775807 u); [lia|reflexivity]). rewrite E.
  destruct (Z.eq_dec u 0) as [->|N]; [cbn; lia|]. destruct (long_bv_small u ltac:(lia)) as [A B].
  assert (M : uval (long_bv u) <> 0) by (pose proof (V_cases _ A) as (C1 & C2 & C3); lia).
  destruct (leb_sizes (long_bv u) false A M) as (k & K & _ & _ & R). unfold intnum_size_leb128. cbn [tobv]. destruct u; try lia; rewrite K; lia.
Qed.
Lemma does_disc : forall r d, 0 <= d < 2 ^ 32 -> Does h rs r [ext_op_int DW_LNE_set_discriminator (create_uint d)] [] (set_disc r d).
Proof.
  intros r d D. destruct (uint_leb d D) as (l & A & B & C & E). pose proof (leb_len_small d D) as K.
  destruct (ext_bytes DW_LNE_set_discriminator (intnum_size_leb128 (create_uint d) false) None (Some (create_uint d)) l) as (m & M1 & M2 & M3).
  { unfold DW_LNE_set_discriminator; lia. } { lia. } { left. cbn [put_leb]. rewrite A. reflexivity. } { cbn [app]. auto. }
  cbn [app] in *. eapply does_one; [exact M1|exact M2|]. intros rest.
  replace ((0 :: m ++ DW_LNE_set_discriminator :: l) ++ rest) with (0 :: m ++ DW_LNE_set_discriminator :: l ++ rest) by (cbn [app]; rewrite <- app_assoc; reflexivity).
  rewrite (step_ext _ _ _ _ _ _ (M3 _)); [|rewrite C; lia]. change (DW_LNE_set_discriminator =? 1) with false. change (DW_LNE_set_discriminator =? 2) with false. change (DW_LNE_set_discriminator =? 4) with true. cbv iota.
  rewrite <- (app_nil_r l) at 1. rewrite E. reflexivity.
Qed.

(** * One location *)
Definition same (s : state) (r : row) : Prop :=
  s_file s = w_file r /\ s_line s = w_line r /\ s_col s = w_col r /\ s_isa s = w_isa r /\ (s_stmt s = if w_stmt r then 1 else 0) /\ w_end r = false.
(** The registers after the operations of 364-410 *)
Definition regs (r : row) (l : loc) : row :=
  Row (w_addr r) (l_file l) (w_line r) (l_col l) (match l_stmt l with NoChange => w_stmt r | SetStmt => true | ClearStmt => false end)
    (w_bb r || l_bb l) (w_end r) (w_pe r || l_pe l) (w_eb r || l_eb l) (if l_isach l then l_isa l else w_isa r) (if l_disc l =? 0 then w_disc r else l_disc l).
Lemma does_if : forall (c : bool) r o r', (c = true -> Does h rs r o [] r') -> Does h rs r (if c then o else []) [] (if c then r' else r).
Proof. intros [] r o r' D; [auto|apply does_nil]. Qed.
Lemma gen_regs_ok : forall s r l, same s r -> small_loc l -> Does h rs r (fst (gen_regs s l)) [] (regs r l) /\ same (snd (gen_regs s l)) (regs r l) /\ s_prec (snd (gen_regs s l)) = s_prec s.
Proof.
  intros s r l (E1 & E2 & E3 & E4 & E5 & E6) (L1 & L2 & L3 & L4 & L5).
  set (st := match l_stmt l with NoChange => w_stmt r | SetStmt => true | ClearStmt => false end).
  assert (N : exists n z, match l_stmt l with
                  | SetStmt => if s_stmt s =? 0 then ([op DW_LNS_negate_stmt None], 1) else ([], s_stmt s)
                  | ClearStmt => if s_stmt s =? 1 then ([op DW_LNS_negate_stmt None], 0) else ([], s_stmt s)
                  | NoChange => ([], s_stmt s) end = (n, z) /\ z = (if st then 1 else 0) /\
                  forall r1, w_stmt r1 = w_stmt r -> Does h rs r1 n [] (Row (w_addr r1) (w_file r1) (w_line r1) (w_col r1) st (w_bb r1) (w_end r1) (w_pe r1) (w_eb r1) (w_isa r1) (w_disc r1))).
  { rewrite E5. unfold st. destruct (l_stmt l), (w_stmt r) eqn:W; cbn [Z.eqb Pos.eqb]; eexists _, _; (split; [reflexivity|]); (split; [reflexivity|]); intros r1 R1; destruct r1; cbn [w_stmt] in R1; subst;
      first [apply does_nil | apply does_negate]. }
  destruct N as (n & z & N1 & N2 & N3). unfold gen_regs. rewrite N1. cbn [fst snd]. split; [|split; [|reflexivity]].
  - change (@nil row) with (@nil row ++ []) at 1.
    set (r1 := set_file r (l_file l)). assert (D1 : Does h rs r (if s_file s =? l_file l then [] else [op DW_LNS_set_file (Some (create_uint (l_file l)))]) [] r1).
    { destruct (Z.eqb_spec (s_file s) (l_file l)); [|apply does_file; auto]. replace r1 with r; [apply does_nil|]. unfold r1, set_file. destruct r; cbn in *. f_equal. congruence. }
    set (r2 := set_col r1 (l_col l)). assert (D2 : Does h rs r1 (if s_col s =? l_col l then [] else [op DW_LNS_set_column (Some (create_uint (l_col l)))]) [] r2).
    { destruct (Z.eqb_spec (s_col s) (l_col l)); [|apply does_col; auto]. replace r2 with r1; [apply does_nil|]. unfold r2, r1, set_file, set_col. destruct r; cbn in *. f_equal. congruence. }
    set (r3 := if l_disc l =? 0 then r2 else set_disc r2 (l_disc l)). assert (D3 : Does h rs r2 (if l_disc l =? 0 then [] else [ext_op_int DW_LNE_set_discriminator (create_uint (l_disc l))]) [] r3).
    { unfold r3. destruct (Z.eqb_spec (l_disc l) 0); [apply does_nil|apply does_disc; auto]. }
    set (r4 := if l_isach l then set_isa r3 (l_isa l) else r3). assert (D4 : Does h rs r3 (if l_isach l then [op DW_LNS_set_isa (Some (create_uint (l_isa l)))] else []) [] r4).
    { unfold r4. apply does_if. intros _. apply does_isa; auto. }
    assert (W4 : w_stmt r4 = w_stmt r) by (unfold r4, r3; destruct (l_isach l), (l_disc l =? 0); reflexivity).
    pose proof (N3 r4 W4) as D5. set (r5 := Row _ _ _ _ _ _ _ _ _ _ _) in D5.
    assert (D6 : Does h rs r5 (if l_bb l then [op DW_LNS_set_basic_block None] else []) [] (if l_bb l then set_bb r5 else r5)) by (apply does_if; intros _; apply does_bb). set (r6 := if l_bb l then set_bb r5 else r5) in *.
    assert (D7 : Does h rs r6 (if l_pe l then [op DW_LNS_set_prologue_end None] else []) [] (if l_pe l then set_pe r6 else r6)) by (apply does_if; intros _; apply does_pe). set (r7 := if l_pe l then set_pe r6 else r6) in *.
    assert (D8 : Does h rs r7 (if l_eb l then [op DW_LNS_set_epilogue_begin None] else []) [] (if l_eb l then set_eb r7 else r7)) by (apply does_if; intros _; apply does_eb). set (r8 := if l_eb l then set_eb r7 else r7) in *.
    replace (regs r l) with r8.
    + exact (does_app _ _ _ _ _ _ _ _ _ D1 (does_app _ _ _ _ _ _ _ _ _ D2 (does_app _ _ _ _ _ _ _ _ _ D3 (does_app _ _ _ _ _ _ _ _ _ D4 (does_app _ _ _ _ _ _ _ _ _ D5 (does_app _ _ _ _ _ _ _ _ _ D6 (does_app _ _ _ _ _ _ _ _ _ D7 D8))))))).
    + unfold r8, r7, r6, r5, r4, r3, r2, r1, regs, st. destruct r. cbn [w_addr w_file w_line w_col w_stmt w_bb w_end w_pe w_eb w_isa w_disc].
      destruct (l_bb l), (l_pe l), (l_eb l), (l_disc l =? 0), (l_isach l); cbn; rewrite ?orb_true_r, ?orb_false_r; reflexivity.
  - unfold same, regs. cbn. repeat split; auto. + destruct (l_isach l); auto.
Qed.
Lemma s32_small : forall x, 0 <= x < 2 ^ 31 -> s32 (u64 x) = x.
Proof. intros x R. rewrite u64_small by (unfold w64; lia). unfold s32. apply sgn_small; [lia|]. change (2 ^ (32 - 1)) with (2 ^ 31). lia. Qed.
Lemma advance_advance : forall r a b c d, advance (advance r a b) c d = advance r (a + c) (b + d).
Proof. intros. destruct r. unfold advance. cbn. f_equal; lia. Qed.
Lemma gen_row_ok : forall r ld ad, - 2 ^ 32 < ld < 2 ^ 32 -> 0 <= ad < 2 ^ 32 -> Does h rs r (gen_row 1 ld ad) [advance r ad ld] (after_row (advance r ad ld)).
Proof.
  intros r ld0 ad L A. unfold gen_row, LINE_BASE, LINE_RANGE, OPCODE_BASE. change (MAX_DELTA 1) with 17.
  assert (P : exists pre ld r1, (if (ld0 <? -5) || (-5 + 14 <=? ld0) then ([op DW_LNS_advance_line (Some (create_int ld0))], 0) else ([], ld0)) = (pre, ld) /\
            -5 <= ld < 9 /\ Does h rs r pre [] r1 /\ forall d, advance r1 d ld = advance r d ld0).
  { destruct (Z.ltb_spec ld0 (-5)); cbn [orb].
    - eexists _, _, _. split; [reflexivity|]. split; [lia|]. split; [apply does_line; auto|]. intros. rewrite advance_advance. f_equal; lia.
    - destruct (Z.leb_spec (-5 + 14) ld0).
      + eexists _, _, _. split; [reflexivity|]. split; [lia|]. split; [apply does_line; auto|]. intros. rewrite advance_advance. f_equal; lia.
      + eexists _, _, _. split; [reflexivity|]. split; [lia|]. split; [apply does_nil|]. reflexivity. }
  destruct P as (pre & ld & r1 & E & R1 & D1 & D2). rewrite E. rewrite <- (D2 ad). change [advance r1 ad ld] with ([] ++ [advance r1 ad ld]).
  refine (does_app _ _ _ _ _ _ _ _ _ D1 _). clear D1 D2 E. rewrite !Z.div_1_r.
  destruct (Z.eqb_spec ld 0) as [Z1|Z1]; [destruct (Z.eqb_spec ad 0) as [Z2|Z2]|]; cbn [andb].
  1: { subst. replace (advance r1 0 0) with r1 by (destruct r1; unfold advance; cbn; f_equal; lia). apply does_copy. }
  all: destruct (Z.leb_spec ad 17) as [A17|A17]; cbn [andb].
  all: try rewrite (s32_small (13 + ld - -5 + 14 * ad)) by lia.
  all: try (destruct (Z.leb_spec (13 + ld - -5 + 14 * ad) 255) as [O1|O1]; [apply does_special; lia|]).
  all: assert (A18 : 17 <= ad) by lia; rewrite (u64_small (ad - 17)) by (unfold w64; lia); destruct (Z.leb_spec ad (2 * 17)) as [A34|A34]; cbn [andb].
  all: try rewrite (s32_small (13 + ld - -5 + 14 * (ad - 17))) by lia.
  all: try (destruct (Z.leb_spec (13 + ld - -5 + 14 * (ad - 17)) 255) as [O2|O2];
      [change [op DW_LNS_const_add_pc None; op (13 + ld - -5 + 14 * (ad - 17)) None] with ([op DW_LNS_const_add_pc None] ++ [op (13 + ld - -5 + 14 * (ad - 17)) None]);
       replace (advance r1 ad ld) with (advance (advance r1 17 0) (ad - 17) ld) by (rewrite advance_advance; f_equal; lia);
       refine (does_app _ _ _ _ _ _ _ _ _ (does_const _) _); apply does_special; lia|]).
  all: replace (advance r1 ad ld) with (advance (advance r1 ad 0) 0 ld) by (rewrite advance_advance; f_equal; lia).
  all: match goal with |- Does _ _ _ (?a :: ?b) _ _ => change (a :: b) with ([a] ++ b) end; refine (does_app _ _ _ _ _ _ _ _ _ (does_pc _ _ A) _).
  all: try (subst ld; replace (advance (advance r1 ad 0) 0 0) with (advance r1 ad 0) by (destruct r1; unfold advance; cbn; f_equal; lia); apply does_copy).
  all: apply does_special; lia.
Qed.

Variable asz : Z.
Hypothesis Asz : 0 <= asz < 256.
Definition off (l : loc) : Z := match l_bc l with Some b => b_off b | None => 0 end.
(** The address register: [X] is the address of offset 0 *)
Definition anchored (s : state) (r : row) (X : Z) (l : loc) : Prop :=
  match s_prec s with
  | Some p => w_addr r = X + b_off p /\ 0 <= b_off p <= off l
  | None => exists y, l_sym l = Some y /\ rs y = X + off l /\ 0 <= rs y < 256 ^ asz
  end.
Definition loc_row (X : Z) (r : row) (l : loc) : row :=
  Row (X + off l) (l_file l) (l_line l) (l_col l) (w_stmt (regs r l)) (w_bb (regs r l)) false (w_pe (regs r l)) (w_eb (regs r l)) (w_isa (regs r l)) (w_disc (regs r l)).
Lemma line_op_ok : forall s r X l b, same s r -> small_loc l -> l_bc l = Some b -> 0 <= b_off b < 2 ^ 32 -> 0 <= w_line r < 2 ^ 32 -> anchored s r X l ->
  exists o s', gen_line_op 1 asz s l None = Good (o, s') /\ Does h rs r o [loc_row X r l] (after_row (loc_row X r l)) /\ same s' (after_row (loc_row X r l)) /\ s_prec s' = Some b.
Proof.
  intros s r X l b Sm Sl B Bo Wl An. destruct (gen_regs_ok s r l Sm Sl) as (D1 & S1 & P1). unfold gen_line_op. destruct (gen_regs s l) as [pre s1] eqn:G. cbn [fst snd] in *. rewrite P1, B.
  destruct S1 as (E1 & E2 & E3 & E4 & E5 & E6). assert (WL : w_line (regs r l) = w_line r) by reflexivity. assert (SL : s_line s1 = w_line r) by congruence.
  destruct Sl as (L1 & L2 & L3 & L4 & L5).
  assert (LD : s64 (l_line l - s_line s1) = l_line l - w_line r) by (rewrite SL; unfold s64; apply sgn_small; [lia|]; change (2 ^ (64 - 1)) with (2 ^ 63); lia). rewrite LD.
  assert (SA : forall w, w = loc_row X r l -> same (State (s_file s1) (l_line l) (s_col s1) (s_isa s1) (s_stmt s1) (Some b)) (after_row w)).
  { intros w ->. unfold same, loc_row. cbn. repeat split; auto. }
  unfold anchored in An. destruct (s_prec s) as [p|].
  - destruct An as [W1 W2]. unfold off in W2. rewrite B in W2. destruct (Z.ltb_spec (b_off b) (b_off p)); [lia|]. eexists _, _. split; [reflexivity|]. cbn [app].
    assert (E : advance (regs r l) (b_off b - b_off p) (l_line l - w_line r) = loc_row X r l).
    { unfold advance, loc_row, off. rewrite B. destruct Sm as (_ & _ & _ & _ & _ & We). unfold regs in *. cbn. rewrite W1. f_equal; try lia. auto. }
    split; [|split; [apply SA; auto|reflexivity]]. change [loc_row X r l] with ([] ++ [loc_row X r l]). refine (does_app _ _ _ _ _ _ _ _ _ D1 _). rewrite <- E. apply gen_row_ok; lia.
  - destruct An as (y & Y1 & Y2 & Y3). rewrite Y1. eexists _, _. split; [reflexivity|].
    assert (E : advance (set_addr (regs r l) (rs y)) 0 (l_line l - w_line r) = loc_row X r l).
    { unfold advance, loc_row, off. rewrite B in *. unfold off in Y2. rewrite B in Y2. destruct Sm as (_ & _ & _ & _ & _ & We). unfold regs in *. cbn. f_equal; try lia. auto. }
    split; [|split; [apply SA; auto|reflexivity]]. change [loc_row X r l] with ([] ++ [] ++ [loc_row X r l]). refine (does_app _ _ _ _ _ _ _ _ _ D1 _).
    refine (does_app _ _ _ _ _ _ _ _ _ (does_addr _ asz y Asz Y3) _). rewrite <- E. apply gen_row_ok; lia.
Qed.
(** * The .loc directives of a section *)
Definition in_order (l : list loc) : Prop := forall a b t u, l = a ++ b :: t -> In u t -> off b <= off u.
Lemma first_row_in : forall o l t, In (first_row o l t) (l :: t) /\ o (first_row o l t) = o l.
Proof. intros o l t. revert l. induction t as [|n t IH]; intros l; cbn [first_row]; [auto with datatypes|]. destruct (Z.eqb_spec (o n) (o l)) as [E|E]; [|split; auto with datatypes]. destruct (IH n) as [A B]. split; [right; auto|congruence]. Qed.
Lemma gen_locs_ok : forall t l s r X, same s r -> Forall small_loc (l :: t) -> Forall (fun l => exists b, l_bc l = Some b /\ 0 <= b_off b < 2 ^ 32) (l :: t) -> in_order (l :: t) ->
  0 <= w_line r < 2 ^ 32 -> anchored s r X (first_row off l t) ->
  exists o s' w, gen_locs 1 asz s (l :: t) = Good (o, s') /\
    Does h rs r o (loc_rows X off (w_isa r) (w_stmt r) (w_bb r) (w_pe r) (w_eb r) (w_disc r) (l :: t)) (after_row w) /\
    (exists a, loc_rows X off (w_isa r) (w_stmt r) (w_bb r) (w_pe r) (w_eb r) (w_disc r) (l :: t) = a ++ [w]) /\ (exists u b, In u (l :: t) /\ l_bc u = Some b /\ s_prec s' = Some b /\ w_addr w = X + b_off b).
Proof.
  induction t as [|n t IH]; intros l s r X Sm Sl Bs Or Wl An; pose proof (Forall_inv Sl) as Sl1; destruct (Forall_inv Bs) as (b & B1 & B2).
  - cbn [first_row] in An. destruct (line_op_ok s r X l b Sm Sl1 B1 B2 Wl An) as (o & s' & G & D & S1 & P1). cbn [gen_locs hd_error]. rewrite G. cbn [bind]. rewrite app_nil_r.
    eexists o, s', _. split; [reflexivity|]. cbn [loc_rows]. split; [exact D|]. split; [exists []; reflexivity|]. exists l, b. split; [left; auto|]. split; [auto|]. split; [auto|]. unfold loc_row, off. rewrite B1. reflexivity.
  - pose proof (Forall_inv (Forall_inv_tail Bs)) as (nb & N1 & N2).
    assert (Or' : in_order (n :: t)) by (intros a c u v E I; apply (Or (l :: a) c u v); [cbn; rewrite E; reflexivity|auto]).
    cbn [gen_locs]. change (hd_error (n :: t)) with (Some n). cbn [first_row] in An. cbn [loc_rows].
    assert (GE : gen_line_op 1 asz s l (Some n) = if off n =? off l then Good (fst (gen_regs s l), snd (gen_regs s l)) else gen_line_op 1 asz s l None).
    { unfold gen_line_op. destruct (gen_regs s l) as [pre s1]. cbn [fst snd]. unfold off. rewrite N1, B1. reflexivity. }
    rewrite GE. destruct (Z.eqb_spec (off n) (off l)) as [EO|EO].
    + cbn [bind]. destruct (gen_regs_ok s r l Sm Sl1) as (D1 & S1 & P1).
      assert (An' : anchored (snd (gen_regs s l)) (regs r l) X (first_row off n t)).
      { unfold anchored in *. rewrite P1. destruct (s_prec s); auto. }
      destruct (IH n (snd (gen_regs s l)) (regs r l) X S1 (Forall_inv_tail Sl) (Forall_inv_tail Bs) Or' Wl An') as (o & s' & w & G & D & (a & Ra) & (u & ub & U1 & U2 & U3 & U4)).
      change (let '(o2, s2) := (o, s') in @Good _ (o2, s2)) with (@Good (list line_op * state) (o, s')) in *. cbn [gen_locs] in G. rewrite G. cbn [bind]. eexists _, s', w. split; [reflexivity|].
      split; [exact (does_app _ _ _ _ _ _ _ _ _ D1 D)|]. split; [exists a; exact Ra|]. exists u, ub. split; [right; auto|auto].
    + destruct (line_op_ok s r X l b Sm Sl1 B1 B2 Wl An) as (o1 & s1 & G1 & D1 & S1 & P1). rewrite G1. cbn [bind].
      assert (LN : off l < off (first_row off n t)). { destruct (first_row_in off n t) as [_ F2]. rewrite F2. specialize (Or [] l (n :: t) n eq_refl (or_introl eq_refl)). lia. }
      assert (OL : off l = b_off b) by (unfold off; rewrite B1; reflexivity).
      assert (An' : anchored s1 (after_row (loc_row X r l)) X (first_row off n t)).
      { unfold anchored. rewrite P1. split; [unfold loc_row; rewrite OL; reflexivity|lia]. }
      assert (Wl' : 0 <= w_line (after_row (loc_row X r l)) < 2 ^ 32) by apply Sl1.
      destruct (IH n s1 (after_row (loc_row X r l)) X S1 (Forall_inv_tail Sl) (Forall_inv_tail Bs) Or' Wl' An') as (o & s' & w & G & D & (a & Ra) & (u & ub & U1 & U2 & U3 & U4)).
      cbn [gen_locs] in G. rewrite G. cbn [bind]. eexists _, s', w. split; [reflexivity|].
      split; [exact (does_app _ _ _ _ _ _ _ _ _ D1 D)|]. split; [exists (loc_row X r l :: a); change (w_isa (after_row (loc_row X r l))) with (w_isa (regs r l)) in Ra; cbn [app]; rewrite <- Ra; reflexivity|]. exists u, ub. split; [right; auto|auto].
Qed.
(** The end of a sequence *)
Lemma gen_end_ok : forall w s' p first lst, s_prec s' = Some p -> 0 <= b_off p -> b_off p <= b_off lst + b_len lst < 2 ^ 32 ->
  Does h rs (after_row w) (gen_end 1 s' first lst) [end_row (w_addr w + (b_off lst + b_len lst - b_off p)) w] (start h).
Proof.
  intros w s' p first lst P B0 B. unfold gen_end, next_off. rewrite P. change (MAX_DELTA 1) with 17. rewrite (u64_small (b_off lst + b_len lst)) by (unfold w64; lia). rewrite u64_small by (unfold w64; lia).
  set (d := b_off lst + b_len lst - b_off p). assert (D0 : 0 <= d < 2 ^ 32) by (unfold d; lia). clearbody d.
  assert (E : forall x, x = advance (after_row w) d 0 -> ended x = end_row (w_addr w + d) w).
  { intros x ->. unfold ended, end_row, advance, after_row. cbn. f_equal; lia. }
  rewrite <- (E _ eq_refl). change [ended (advance (after_row w) d 0)] with ([] ++ [ended (advance (after_row w) d 0)]). refine (does_app _ _ _ _ _ _ _ _ _ _ (does_end _)).
  destruct (Z.eqb_spec d 17) as [->|N]; [apply does_const|]. destruct (Z.ltb_spec 0 d); [apply does_pc; auto|]. replace d with 0 by lia.
  replace (advance (after_row w) 0 0) with (after_row w) by (destruct w; unfold advance, after_row; cbn; f_equal; lia). apply does_nil.
Qed.
End Steps.
Lemma laid_range : forall l o b, laid_out o l -> In b l -> o <= b_off b /\ 0 <= b_len b /\ b_off b + b_len b <= o + size l.
Proof.
  induction l as [|c l IH]; intros o b L I; [destruct I|]. cbn [laid_out size] in *. destruct L as (L1 & L2 & L3).
  assert (S0 : 0 <= size l). { clear - L3. revert L3. generalize (o + b_len c). induction l as [|d l IH]; intros z L; cbn [size]; [lia|]. destruct L as (_ & A & B). specialize (IH _ B). lia. }
  destruct I as [->|I]; [lia|]. specialize (IH _ b L3 I). lia.
Qed.
Lemma laid_last : forall l o d, laid_out o l -> l <> [] -> b_off (last l d) + b_len (last l d) = o + size l.
Proof.
  induction l as [|c l IH]; intros o d L N; [congruence|]. destruct L as (L1 & L2 & L3). destruct l as [|e l]; [cbn [last size]; lia|].
  change (last (c :: e :: l) d) with (last (e :: l) d). rewrite (IH _ d L3) by discriminate. cbn [size]. lia.
Qed.
Lemma walk_ok : forall v l sym, exists rest, walk v l sym = (rest, last_sym sym (flat_map b_syms (before l v))) /\ l = before l v ++ rest /\ hd_error rest = site l v /\ Forall (fun b => b_line b <= v) (before l v).
Proof.
  intros v. induction l as [|b l IH]; intros sym; [exists []; cbn; auto|]. unfold site. cbn [walk before find].
  destruct (Z.leb_spec (b_line b) v), (Z.ltb_spec v (b_line b)); try lia.
  - destruct (IH (last_sym sym (b_syms b))) as (rest & A & B & C & D). exists rest. rewrite A. split; [|split; [cbn; congruence|split; [auto|constructor; auto]]].
    f_equal. cbn [flat_map]. generalize (flat_map b_syms (before l v)). intros u. clear. revert sym. induction (b_syms b) as [|x y IH]; intros sym; cbn; auto.
  - exists (b :: l). cbn. auto.
Qed.
Lemma site_skip : forall done l v, Forall (fun b => b_line b <= v) done -> site (done ++ l) v = site l v /\ before (done ++ l) v = done ++ before l v.
Proof.
  induction done as [|b d IH]; intros l v F; [auto|]. unfold site in *. cbn [app find before]. pose proof (Forall_inv F) as K. cbn beta in K. destruct (Z.ltb_spec v (b_line b)); [lia|]. destruct (IH l v (Forall_inv_tail F)) as [A B]. split; [auto|congruence].
Qed.
Lemma last_sym_app : forall a b s, last_sym s (a ++ b) = last_sym (last_sym s a) b.
Proof. induction a as [|x a IH]; intros; cbn; auto. Qed.
Definition located (bcs : list bcode) (l : loc) : loc := set_site l (site bcs (l_vline l)) (last_sym None (flat_map b_syms (before bcs (l_vline l)))).
Lemma finalize_ok : forall locs done l sym, StronglySorted Z.le (map l_vline locs) -> Forall (fun a => Forall (fun b => b_line b <= l_vline a) done) locs ->
  sym = last_sym None (flat_map b_syms done) -> finalize_locs l sym locs = map (located (done ++ l)) locs.
Proof.
  induction locs as [|a locs IH]; intros done l sym So F Es; [reflexivity|]. cbn [finalize_locs map].
  destruct (walk_ok (l_vline a) l sym) as (rest & W1 & W2 & W3 & W4). rewrite W1. destruct (site_skip done l (l_vline a) (Forall_inv F)) as [S1 S2].
  f_equal.
  - unfold located. rewrite S1, S2, W3, flat_map_app, last_sym_app, <- Es. reflexivity.
  - rewrite (IH (done ++ before l (l_vline a)) rest).
    + rewrite <- app_assoc, <- W2. reflexivity.
    + apply StronglySorted_inv in So. apply So.
    + cbn [map] in So. apply StronglySorted_inv in So. destruct So as [_ So]. rewrite Forall_map in So. pose proof (Forall_inv_tail F) as F2. rewrite Forall_forall in *. intros x I. apply Forall_app. split; [auto|].
      apply Forall_forall. intros b Hb. specialize (So x I). specialize (W4 b Hb). lia.
    + rewrite flat_map_app, last_sym_app, <- Es. reflexivity.
Qed.
Lemma site_mono : forall l o v1 v2 b1 b2, laid_out o l -> v1 <= v2 -> site l v1 = Some b1 -> site l v2 = Some b2 -> b_off b1 <= b_off b2.
Proof.
  unfold site. induction l as [|c l IH]; intros o v1 v2 b1 b2 L V E1 E2; cbn [find] in *; [discriminate|]. destruct (Z.ltb_spec v1 (b_line c)).
  - injection E1 as <-. assert (I : In b2 (c :: l)) by (destruct (v2 <? b_line c); [injection E2 as <-; left; auto|right; apply find_some in E2; apply E2]). pose proof (laid_range _ _ _ L I). destruct L as (L1 & _). lia.
  - destruct (Z.ltb_spec v2 (b_line c)); [lia|]. destruct L as (_ & _ & L3). apply (IH _ _ _ _ _ L3 V E1 E2).
Qed.
Lemma loc_rows_located : forall bcs locs X isa st bb pe eb d, loc_rows X off isa st bb pe eb d (map (located bcs) locs) = loc_rows X (site_off bcs) isa st bb pe eb d locs.
Proof.
  intros bcs. induction locs as [|l t IH]; intros; [reflexivity|]. cbn [map loc_rows]. rewrite !IH.
  assert (O : forall a, off (located bcs a) = site_off bcs a) by reflexivity. destruct t as [|n t]; cbn [map]; rewrite !O; reflexivity.
Qed.
Lemma first_row_located : forall bcs t l, first_row off (located bcs l) (map (located bcs) t) = located bcs (first_row (site_off bcs) l t).
Proof. intros bcs. induction t as [|n t IH]; intros l; [reflexivity|]. cbn [map first_row]. change (off (located bcs n)) with (site_off bcs n). change (off (located bcs l)) with (site_off bcs l). destruct (site_off bcs n =? site_off bcs l); auto. Qed.
(** Labels are at the end of the bytecode they are attached to *)
Lemma last_sym_in : forall l s, l <> [] -> exists y, last_sym s l = Some y /\ In y l.
Proof. induction l as [|x l IH]; intros s N; [congruence|]. cbn [last_sym]. destruct l as [|z l]; [exists x; cbn; auto|]. destruct (IH (Some x) ltac:(discriminate)) as (y & A & B). exists y. split; [auto|right; auto]. Qed.
Lemma label_end_ok : forall rs base l s, labels_at rs base l -> match label_end l with Some o => exists y, last_sym s (flat_map b_syms l) = Some y /\ rs y = base + o | None => last_sym s (flat_map b_syms l) = s end.
Proof.
  intros rs base. induction l as [|b l IH]; intros s L; [reflexivity|]. cbn [label_end flat_map]. rewrite last_sym_app. assert (L' : labels_at rs base l) by (intros c y I; apply L; right; auto).
  specialize (IH (last_sym s (b_syms b)) L'). destruct (label_end l) as [o|]; [auto|]. rewrite IH. destruct (b_syms b) as [|x t] eqn:E; [reflexivity|].
  destruct (last_sym_in (x :: t) s ltac:(discriminate)) as (y & A & B). exists y. split; [auto|]. apply L; [left; auto|rewrite E; auto].
Qed.
Lemma before_in : forall l v b, In b (before l v) -> In b l.
Proof. induction l as [|c l IH]; intros v b I; [auto|]. cbn [before] in I. destruct (v <? b_line c); [destruct I|]. destruct I as [->|I]; [left; auto|right; eauto]. Qed.
Lemma labels_sub : forall rs base l m, labels_at rs base l -> (forall b, In b m -> In b l) -> labels_at rs base m.
Proof. intros rs base l m L I b s B S1. apply L; auto. Qed.

Theorem loc_section_ok : forall h rs asz lookup tb code bcs l t base o,
  Good_header h -> 0 <= asz < 256 -> laid_out 0 bcs -> size bcs < 2 ^ 32 -> labels_at rs base bcs ->
  Sorted Z.le (map l_vline (l :: t)) -> Forall small_loc (l :: t) -> Forall (fun l => site bcs (l_vline l) <> None) (l :: t) ->
  label_end (before bcs (l_vline (first_row (site_off bcs) l t))) = Some o -> 0 <= base + o < 256 ^ asz ->
  let X := base + (o - site_off bcs (first_row (site_off bcs) l t)) in
  exists ops, gen_section 1 asz lookup tb false (Sect code (Some (l :: t)) bcs) = Good ops /\
    Does h rs (start h) ops (sequence (loc_rows X (site_off bcs) 0 true false false false 0 (l :: t)) (X + size bcs)) (start h).
Proof.
  intros h rs asz lookup tb code bcs l t base o GH Az LO SZ LA So SL SI LE BR X.
  assert (FIN : finalize_locs bcs None (l :: t) = map (located bcs) (l :: t)).
  { rewrite (finalize_ok (l :: t) [] bcs None); [reflexivity| |apply Forall_forall; intros; constructor|reflexivity]. apply Sorted_StronglySorted; [|auto]. intros x y z A B. lia. }
  assert (SI' : forall a, In a (l :: t) -> exists b, l_bc (located bcs a) = Some b /\ In b bcs).
  { intros a I. rewrite Forall_forall in SI. specialize (SI a I). cbn [located set_site l_bc]. destruct (site bcs (l_vline a)) as [b|] eqn:E; [|congruence]. exists b. split; auto. apply find_some in E. apply E. }
  destruct bcs as [|first rest]; [exfalso; specialize (SI' l (or_introl eq_refl)); destruct SI' as (? & _ & []) |].
  unfold gen_section. cbn [x_locs x_bcs]. cbv iota. set (bcs := first :: rest) in *.
  replace (match (Some (l :: t), false && x_code (Sect code (Some (l :: t)) bcs)) with _ => 0 end) with 0 by reflexivity.
  rewrite FIN. cbn [map].
  destruct (gen_locs_ok h GH rs asz Az (map (located bcs) t) (located bcs l) state0 (start h) X) as (ops & s' & w & G & D & (a & Ra) & (u & ub & U1 & U2 & U3 & U4)).
  { destruct GH as (_ & S1 & _). unfold same, start, state0. cbn. rewrite S1. repeat split; reflexivity. }
  { change (Forall small_loc (map (located bcs) (l :: t))). rewrite Forall_map. apply Forall_impl with (2 := SL). intros x Hx. exact Hx. }
  { change (Forall (fun l => exists b, l_bc l = Some b /\ 0 <= b_off b < 2 ^ 32) (map (located bcs) (l :: t))). rewrite Forall_map. apply Forall_forall. intros x I. destruct (SI' x I) as (b & B1 & B2). exists b. split; auto. pose proof (laid_range _ _ _ LO B2). lia. }
  { change (in_order (map (located bcs) (l :: t))). apply Sorted_StronglySorted in So; [|intros x y z A B; lia]. clear - So SI' LO. generalize (l :: t) So SI'. clear l t So SI'. intros ls So SI' a b c u E I.
    assert (Q : exists a1 b1 c1, ls = a1 ++ b1 :: c1 /\ b = located bcs b1 /\ c = map (located bcs) c1).
    { revert a E. clear. induction ls as [|x ls IH]; intros a E; cbn in E; [destruct a; discriminate|]. destruct a as [|y a]; cbn in E; injection E as E1 E2; [exists [], x, ls; auto|]. destruct (IH a E2) as (a1 & b1 & c1 & -> & -> & ->). exists (x :: a1), b1, c1. auto. }
    destruct Q as (a1 & b1 & c1 & -> & -> & ->). apply in_map_iff in I. destruct I as (u1 & <- & I).
    destruct (SI' b1 ltac:(apply in_app_iff; right; left; auto)) as (bb & B1 & B2). destruct (SI' u1 ltac:(apply in_app_iff; right; right; auto)) as (ub & U1 & U2).
    assert (V : l_vline b1 <= l_vline u1). { rewrite map_app in So. cbn [map] in So. clear - So I. induction a1 as [|x a1 IH]; cbn in So; apply StronglySorted_inv in So; destruct So as [S1 S2]; [|auto]. rewrite Forall_forall in S2. apply S2. apply in_map. auto. }
    unfold off. rewrite B1, U1. apply (site_mono bcs 0 (l_vline b1) (l_vline u1)); auto. }
  { cbn. lia. }
  { rewrite first_row_located. cbn [anchored s_prec state0]. unfold anchored, state0, s_prec.
    pose proof (label_end_ok rs base (before bcs (l_vline (first_row (site_off bcs) l t))) None (labels_sub _ _ _ _ LA (before_in _ _))) as K. rewrite LE in K. destruct K as (y & Y1 & Y2).
    exists y. split; [exact Y1|]. rewrite Y2. split; [change (off (located bcs (first_row (site_off bcs) l t))) with (site_off bcs (first_row (site_off bcs) l t)); unfold X; lia|auto]. }
  rewrite G. cbn [bind]. eexists. split; [reflexivity|].
  change (located bcs l :: map (located bcs) t) with (map (located bcs) (l :: t)) in D, Ra. rewrite loc_rows_located in D, Ra. change (w_isa (start h)) with 0 in D, Ra. assert (WS : w_stmt (start h) = true) by apply GH. rewrite WS in D, Ra.
  cbn [start w_bb w_pe w_eb w_disc] in D, Ra.
  unfold sequence. rewrite Ra at 2. rewrite last_last. refine (does_app _ _ _ _ _ _ _ _ _ D _).
  assert (UI : In ub bcs). { change (In u (map (located bcs) (l :: t))) in U1. apply in_map_iff in U1. destruct U1 as (u1 & <- & I1). destruct (SI' u1 I1) as (b & B1 & B2). congruence. }
  pose proof (laid_range _ _ _ LO UI) as UR. pose proof (laid_last bcs 0 first LO ltac:(discriminate)) as LL. set (lst := last bcs first) in *. clearbody lst.
  pose proof (gen_end_ok h GH rs w s' ub first lst U3 ltac:(lia) ltac:(lia)) as DE. replace (X + size bcs) with (w_addr w + (b_off lst + b_len lst - b_off ub)); [exact DE|].
  rewrite U4. lia.
Qed.

(** * File numbers *)
Lemma str_eqb_spec : forall a b, str_eqb a b = true <-> a = b.
Proof. intros. unfold str_eqb. destruct (list_eq_dec Z.eq_dec a b); split; congruence. Qed.
Lemma to_slash_len : forall r x, to_slash r = Some x -> (0 < length x <= length r)%nat.
Proof. induction r as [|c r IH]; intros x E; [discriminate|]. cbn in E. destruct (c =? SLASH); [injection E as <-; cbn; lia|]. specialize (IH _ E). cbn. lia. Qed.
Lemma strip_dots_len : forall r, (length (strip_dots r) <= length r)%nat.
Proof.
  assert (K : forall n r, (length r <= n)%nat -> (length (strip_dots r) <= length r)%nat).
  { induction n as [|n IH]; intros r L; [destruct r; [cbn; lia|cbn in L; lia]|]. destruct r as [|c [|d t]]; [cbn; lia|cbn; lia|]. cbn [strip_dots]. destruct (_ && _ && _); [|lia]. cbn [length] in *. specialize (IH t ltac:(lia)). lia. }
  intros r. apply (K (length r)). lia.
Qed.
Lemma strip_slashes_len : forall r, (length (strip_slashes r) <= length r)%nat.
Proof. induction r as [|c r IH]; [cbn; lia|]. cbn [strip_slashes]. destruct r as [|d t]; [lia|]. destruct (c =? SLASH); [|lia]. cbn [length] in *. lia. Qed.
Lemma split_range : forall p, 0 <= fst (splitpath p) <= Z.of_nat (length p).
Proof.
  intros p. unfold splitpath. destruct (to_slash (rev p)) as [r|] eqn:E; [|cbn; lia]. cbn [fst]. apply to_slash_len in E. rewrite rev_length in E.
  pose proof (strip_slashes_len (strip_dots r)). pose proof (strip_dots_len r). lia.
Qed.
Lemma head_empty : forall p, firstn (Z.to_nat (fst (splitpath p))) p = [] <-> fst (splitpath p) = 0.
Proof.
  intros p. pose proof (split_range p). split; intros E.
  - apply (f_equal (@length Z)) in E. rewrite firstn_length in E. cbn in E. lia.
  - rewrite E. reflexivity.
Qed.
Definition full_entry (t : tables) (f : option (str * Z)) : Prop := exists n d, f = Some (n, d) /\ 0 <= d <= Z.of_nat (length (t_dirs t)).
Lemma equals_ok : forall t n d path, Forall (fun s => s <> []) (t_dirs t) -> 0 <= d <= Z.of_nat (length (t_dirs t)) ->
  exists b, filename_equals t (Some (n, d)) path = Some b /\ (b = true <-> n = snd (splitpath path) /\ dir_text t d = Some (firstn (Z.to_nat (fst (splitpath path))) path)).
Proof.
  intros t n d path NE R. unfold filename_equals, dir_text. pose proof (head_empty path) as HE. destruct (splitpath path) as [dl tl]. cbn [fst snd] in *.
  destruct (Z.eqb_spec d 0) as [->|N].
  - destruct (Z.eqb_spec dl 0) as [E|E].
    + eexists. split; [reflexivity|]. rewrite str_eqb_spec. apply HE in E. rewrite E. tauto.
    + eexists. split; [reflexivity|]. split; [discriminate|]. intros [_ Q]. exfalso. apply E, HE. congruence.
  - destruct (Z.ltb_spec 0 d); [|lia]. destruct (nth_error (t_dirs t) (Z.to_nat (d - 1))) as [s|] eqn:Q; [|apply nth_error_None in Q; lia].
    destruct (str_eqb s (firstn (Z.to_nat dl) path)) eqn:EQ.
    + apply str_eqb_spec in EQ. eexists. split; [reflexivity|]. rewrite str_eqb_spec. subst s. tauto.
    + eexists. split; [reflexivity|]. split; [discriminate|]. intros [_ Q2]. exfalso. injection Q2 as Q2. apply str_eqb_spec in Q2. congruence.
Qed.
Lemma find_file_ok : forall t path l i, Forall (fun s => s <> []) (t_dirs t) -> Forall (full_entry t) l ->
  (exists k d, nth_error l k = Some (Some (snd (splitpath path), d)) /\ dir_text t d = Some (firstn (Z.to_nat (fst (splitpath path))) path)) ->
  exists f d, find_file t path i l = Good f /\ i + 1 <= f /\ nth_error l (Z.to_nat (f - i - 1)) = Some (Some (snd (splitpath path), d)) /\ dir_text t d = Some (firstn (Z.to_nat (fst (splitpath path))) path).
Proof.
  intros t path. induction l as [|e l IH]; intros i NE F (k & d & K1 & K2); [destruct k; discriminate|]. cbn [find_file].
  destruct (Forall_inv F) as (n & d' & -> & Dr). destruct (equals_ok t n d' path NE Dr) as (b & E1 & E2). rewrite E1. destruct b.
  - destruct E2 as [E2 _]. destruct (E2 eq_refl) as [-> E3]. exists (i + 1), d'. split; [auto|]. split; [lia|]. replace (i + 1 - i - 1) with 0 by lia. split; auto.
  - destruct k as [|k]; [cbn in K1; injection K1 as -> ->; exfalso; destruct E2 as [_ E2]; specialize (E2 (conj eq_refl K2)); discriminate|].
    destruct (IH (i + 1) NE (Forall_inv_tail F) (ex_intro _ k (ex_intro _ d (conj K1 K2)))) as (f & d2 & A & B & C & D). exists f, d2. split; [auto|]. split; [lia|].
    replace (Z.to_nat (f - i - 1)) with (S (Z.to_nat (f - (i + 1) - 1))) by lia. auto.
Qed.
Lemma file_number_ok : forall t path lastf, Forall (fun s => s <> []) (t_dirs t) -> Forall (full_entry t) (t_files t) -> 0 <= lastf <= Z.of_nat (length (t_files t)) ->
  (exists f, denotes t f path) -> exists f, file_number t path lastf = Good f /\ denotes t f path /\ 1 <= f <= Z.of_nat (length (t_files t)).
Proof.
  intros t path lastf NE F L (f0 & d0 & D1 & D2 & D3). unfold file_number.
  assert (FIND : exists f, find_file t path 0 (t_files t) = Good f /\ denotes t f path /\ 1 <= f <= Z.of_nat (length (t_files t))).
  { destruct (find_file_ok t path (t_files t) 0 NE F (ex_intro _ _ (ex_intro _ _ (conj D2 D3)))) as (f & d & A & B & C & D). exists f. split; [auto|]. replace (f - 0 - 1) with (f - 1) in C by lia. split; [exists d; repeat split; auto; lia|].
    assert (Z.to_nat (f - 1) < length (t_files t))%nat by (apply nth_error_Some; congruence). lia. }
  destruct (Z.ltb_spec 0 lastf); [|exact FIND]. destruct (nth_error (t_files t) (Z.to_nat (lastf - 1))) as [e|] eqn:Q; [|apply nth_error_None in Q; lia].
  pose proof F as F2. rewrite Forall_forall in F2. destruct (F2 e (nth_error_In _ _ Q)) as (n & d & -> & Dr). destruct (equals_ok t n d path NE Dr) as (b & E1 & E2). rewrite E1. destruct b; [|exact FIND].
  destruct E2 as [E2 _]. destruct (E2 eq_refl) as [-> E3]. exists lastf. split; [auto|]. split; [exists d; repeat split; auto; lia|lia].
Qed.

(** * Line information of the assembler source *)
Lemma emitting_off : forall t b, b_off (hd b (emitting (b :: t))) = b_off b /\ In (hd b (emitting (b :: t))) (b :: t) /\ emitting (b :: t) <> [].
Proof.
  induction t as [|n t IH]; intros b; cbn [emitting]; [cbn; auto with datatypes|]. destruct (Z.eqb_spec (b_off b) (b_off n)) as [E|E].
  - destruct (IH n) as (A & B & C). cbn [emitting] in *. assert (H : hd b (if match t with [] => false | n0 :: _ => b_off n =? b_off n0 end then emitting t else n :: emitting t) = hd n (if match t with [] => false | n0 :: _ => b_off n =? b_off n0 end then emitting t else n :: emitting t)).
    { destruct (if match t with [] => false | n0 :: _ => b_off n =? b_off n0 end then emitting t else n :: emitting t); [congruence|reflexivity]. }
    rewrite H. split; [congruence|]. split; [right; auto|auto].
  - cbn. split; [auto|]. split; [auto|discriminate].
Qed.
Section Asm.
Variable h : header.
Hypothesis GH : Good_header h.
Variables (rs : Z -> Z) (asz : Z) (lookup : Z -> str * Z) (tb : tables).
Hypothesis Az : 0 <= asz < 256.
Hypothesis NE : Forall (fun s => s <> []) (t_dirs tb).
Hypothesis FE : Forall (full_entry tb) (t_files tb).
Hypothesis FL : Z.of_nat (length (t_files tb)) < 2 ^ 32.
Definition clean (r : row) : Prop := w_bb r = false /\ w_pe r = false /\ w_eb r = false /\ w_disc r = 0 /\ w_isa r = 0 /\ w_stmt r = true.
Lemma gen_bcs_ok : forall bcs o s r sym lastf X, laid_out o bcs -> 0 <= o -> o + size bcs < 2 ^ 32 -> same s r -> clean r -> 0 <= w_line r < 2 ^ 32 -> 0 <= lastf <= Z.of_nat (length (t_files tb)) ->
  Forall (fun b => (exists f, denotes tb f (fst (lookup (b_line b)))) /\ 0 <= snd (lookup (b_line b)) < 2 ^ 32) bcs ->
  match s_prec s with
  | Some p => w_addr r = X + b_off p /\ 0 <= b_off p <= o
  | None => forall b, hd_error (emitting bcs) = Some b -> exists y, last_sym sym (b_syms b) = Some y /\ rs y = X + b_off b /\ 0 <= rs y < 256 ^ asz
  end ->
  exists ops s' rows r', gen_bcs 1 asz lookup tb s sym lastf bcs = Good (ops, s') /\ Does h rs r ops rows r' /\ Forall2 (bc_row (denotes tb) lookup X) (emitting bcs) rows /\
    (bcs = [] -> r' = r) /\ (bcs <> [] -> exists a w b, rows = a ++ [w] /\ r' = after_row w /\ s_prec s' = Some b /\ In b bcs /\ w_addr w = X + b_off b).
Proof.
  induction bcs as [|b t IH]; intros o s r sym lastf X LO O1 O2 Sm Cl Wl Lf FB An.
  - exists [], s, [], r. split; [reflexivity|]. split; [apply does_nil|]. split; [constructor|split; congruence].
  - destruct LO as (L1 & L2 & L3). cbn [size] in O2. assert (S0 : 0 <= size t) by (clear - L3; revert L3; generalize (o + b_len b); induction t as [|d l IH]; intros z L; cbn [size]; [lia|]; destruct L as (_ & A & B); specialize (IH _ B); lia).
    cbn [gen_bcs emitting]. cbn [emitting] in An. destruct (match t with n :: _ => b_off b =? b_off n | [] => false end) eqn:SK.
    + destruct t as [|n t]; [discriminate|]. apply Z.eqb_eq in SK.
      destruct (IH (o + b_len b) s r sym lastf X L3 ltac:(lia) ltac:(lia) Sm Cl Wl Lf (Forall_inv_tail FB)) as (ops & s' & rows & r' & G & D & F2 & _ & K).
      { destruct (s_prec s); [|auto]. destruct An as [A1 A2]. split; [auto|lia]. }
      exists ops, s', rows, r'. split; [exact G|]. split; [auto|]. split; [auto|]. split; [discriminate|]. intros _. destruct (K ltac:(discriminate)) as (a & w & ub & K1 & K2 & K3 & K4 & K5). exists a, w, ub. repeat split; auto. right; auto.
    + destruct (Forall_inv FB) as [(f0 & F0) LL]. destruct (lookup (b_line b)) as [path line] eqn:LK. cbn [fst snd] in *.
      destruct (file_number_ok tb path lastf NE FE Lf (ex_intro _ f0 F0)) as (f & N1 & N2 & N3). rewrite N1. cbn [bind].
      set (l := Loc (b_line b) f line 0 0 false 0 NoChange false false false (Some b) (last_sym sym (b_syms b))).
      assert (OL : off l = b_off b) by reflexivity.
      destruct (line_op_ok h GH rs asz Az s r X l b Sm) as (o1 & s1 & G1 & D1 & S1 & P1); auto.
      { unfold small_loc, l. cbn. lia. } { lia. }
      { unfold anchored. rewrite OL. destruct (s_prec s); [destruct An; split; [auto|lia]|]. apply (An b). reflexivity. }
      rewrite G1. cbn [bind]. set (w := loc_row X r l) in *.
      assert (W : w = Row (X + b_off b) f line 0 true false false false false 0 0).
      { unfold w, loc_row. rewrite OL. destruct Cl as (C1 & C2 & C3 & C4 & C5 & C6). unfold regs, l. cbn. rewrite C1, C2, C3, C4, C5, C6. reflexivity. }
      destruct (IH (o + b_len b) s1 (after_row w) (last_sym sym (b_syms b)) f X L3 ltac:(lia) ltac:(lia) S1) as (ops & s' & rows & r' & G & D & F2 & R0 & K); auto.
      { rewrite W. unfold clean. cbn. repeat split. } { lia. } { apply (Forall_inv_tail FB). }
      { rewrite P1. rewrite W. cbn. lia. }
      rewrite G. cbn [bind]. exists (o1 ++ ops), s', (w :: rows), r'. split; [reflexivity|]. split; [exact (does_app _ _ _ _ _ _ _ _ _ D1 D)|].
      split; [constructor; [exists f; rewrite LK; auto|auto]|]. split; [discriminate|]. intros _. destruct t as [|n t].
      * cbn [gen_bcs] in G. injection G as <- <-. inversion F2; subst rows. exists [], w, b. split; [auto|].
        rewrite (R0 eq_refl). do 2 (split; [auto|]). rewrite W. cbn. auto.
      * destruct (K ltac:(discriminate)) as (a & w' & ub & K1 & K2 & K3 & K4 & K5). exists (w :: a), w', ub. rewrite K1. repeat split; auto. right; auto.
Qed.
End Asm.
Lemma asm_section_ok : forall h rs asz lookup tb code locs first rest base,
  Good_header h -> 0 <= asz < 256 -> Forall (fun s => s <> []) (t_dirs tb) -> Forall (full_entry tb) (t_files tb) -> Z.of_nat (length (t_files tb)) < 2 ^ 32 ->
  code = true \/ locs <> None -> laid_out 0 (first :: rest) -> size (first :: rest) < 2 ^ 32 -> labels_at rs base (first :: rest) ->
  rest <> [] -> b_len first = 0 -> b_syms first <> [] -> 0 <= base -> base + size (first :: rest) < 256 ^ asz ->
  Forall (fun b => (exists f, denotes tb f (fst (lookup (b_line b)))) /\ 0 <= snd (lookup (b_line b)) < 2 ^ 32) rest ->
  let X := base + match emitting rest with b :: _ => match b_syms b with [] => 0 | _ => b_len b end | [] => 0 end in
  exists ops body, gen_section 1 asz lookup tb true (Sect code locs (first :: rest)) = Good ops /\
    Does h rs (start h) ops (sequence body (X + size (first :: rest))) (start h) /\ Forall2 (bc_row (denotes tb) lookup X) (emitting rest) body.
Proof.
  intros h rs asz lookup tb code locs first rest base GH Az NE FE FL CO LO SZ LA RN F0 SY B0 B1 FB X.
  pose proof LO as (L1 & L2 & L3). cbn [size] in SZ, B1.
  destruct rest as [|r1 rt]; [congruence|]. set (rest := r1 :: rt) in *.
  destruct (gen_bcs_ok h GH rs asz lookup tb Az NE FE FL rest (0 + b_len first) state0 (start h) (last_sym None (b_syms first)) 0 X L3) as (ops & s' & rows & r' & G & D & F2 & _ & K); auto; try lia.
  { unfold same, state0, start. cbn. destruct GH as (_ & -> & _). repeat split; auto. }
  { unfold clean, start. cbn. destruct GH as (_ & -> & _). repeat split; auto. }
  { cbn. lia. }
  { cbn [s_prec state0]. intros b HB. unfold state0, s_prec.
    pose proof (emitting_off rt r1) as (E1 & E2 & E3). fold rest in E1, E2, E3.
    assert (HD : hd r1 (emitting rest) = b) by (destruct (emitting rest); [discriminate|cbn in HB |- *; congruence]). rewrite HD in E1, E2.
    assert (O0 : b_off b = 0) by (rewrite E1; cbn in L3; lia).
    assert (XX : X = base + match b_syms b with [] => 0 | _ => b_len b end) by (unfold X; destruct (emitting rest) as [|e0 el]; [discriminate|cbn in HB; assert (e0 = b) by congruence; subst e0; reflexivity]).
    pose proof (laid_range _ _ _ LO (or_intror E2)) as LR. cbn [size] in LR.
    destruct (b_syms b) as [|y ys] eqn:EB.
    - cbn [last_sym]. destruct (last_sym_in (b_syms first) None SY) as (y & Y1 & Y2). exists y. split; [auto|]. rewrite (LA first y (or_introl eq_refl) Y2). split; lia.
    - destruct (last_sym_in (y :: ys) (last_sym None (b_syms first)) ltac:(discriminate)) as (z & Z1 & Z2). exists z. split; [auto|].
      rewrite (LA b z (or_intror E2) ltac:(rewrite EB; auto)). split; lia. }
  destruct (K RN) as (a & w & ub & K1 & K2 & K3 & K4 & K5).
  unfold gen_section. cbn [x_locs x_code x_bcs]. change (true && code) with code.
  assert (GS : (match locs, code with None, false => Good [] | _, _ => bind (gen_bcs 1 asz lookup tb state0 (last_sym None (b_syms first)) 0 rest) (fun '(o, s) => Good (o ++ gen_end 1 s first (last (first :: rest) first))) end) = Good (ops ++ gen_end 1 s' first (last (first :: rest) first))).
  { rewrite G. cbn [bind]. destruct locs; [destruct code; reflexivity|]. destruct code; [reflexivity|]. destruct CO; congruence. }
  exists (ops ++ gen_end 1 s' first (last (first :: rest) first)), rows. split; [destruct locs, code; exact GS|]. split; [|auto].
  unfold sequence. rewrite K1 at 2. rewrite last_last. refine (does_app _ _ _ _ _ _ _ _ _ D _). rewrite K2.
  pose proof (laid_range _ _ _ LO (or_intror K4)) as UR. pose proof (laid_last (first :: rest) 0 first LO ltac:(discriminate)) as LL. cbn [size] in *.
  set (lst := last (first :: rest) first) in *. clearbody lst.
  pose proof (gen_end_ok h GH rs w s' ub first lst K3 ltac:(lia) ltac:(lia)) as DE. replace (X + (b_len first + size rest)) with (w_addr w + (b_off lst + b_len lst - b_off ub)); [exact DE|].
  rewrite K5. lia.
Qed.

(** * The unit *)
Definition text (s : str) : Prop := s <> [] /\ Forall (fun c => 0 < c < 256) s.
Definition full_table (t : tables) : Prop :=
  Forall text (t_dirs t) /\ Z.of_nat (length (t_dirs t)) < 2 ^ 32 /\
  Forall (fun f => exists n d, f = Some (n, d) /\ text n /\ 0 <= d <= Z.of_nat (length (t_dirs t))) (t_files t).
Definition hdr (t : tables) : header :=
  Header 1 true (-5) 14 13 [0; 1; 1; 1; 1; 0; 0; 0; 1; 0; 0; 1] (t_dirs t) (map (fun f => match f with Some (n, d) => (n, d, 0, 0) | None => ([], 0, 0, 0) end) (t_files t)).
Lemma cstr_ok : forall s r, Forall (fun c => 0 < c < 256) s -> cstr (s ++ 0 :: r) = Some (s, r).
Proof. induction s as [|c s IH]; intros r F; [reflexivity|]. cbn [app cstr]. pose proof (Forall_inv F) as K. cbn beta in K. destruct (Z.eqb_spec c 0); [lia|]. rewrite (IH r (Forall_inv_tail F)). reflexivity. Qed.
Lemma read_dirs_ok : forall ds r n, Forall text ds -> (length ds < n)%nat -> read_dirs n (flat_map (fun d => d ++ [0]) ds ++ 0 :: r) = Some (ds, r).
Proof.
  induction ds as [|d ds IH]; intros r n F L; (destruct n as [|n]; [lia|]); [reflexivity|]. cbn [flat_map read_dirs]. rewrite <- !app_assoc. change ([0] ++ flat_map (fun d => d ++ [0]) ds ++ 0 :: r) with (0 :: (flat_map (fun d => d ++ [0]) ds ++ 0 :: r)).
  destruct (Forall_inv F) as [N T]. rewrite (cstr_ok d _ T). cbn [length] in L. rewrite (IH r n (Forall_inv_tail F) ltac:(lia)). destruct d; [congruence|reflexivity].
Qed.
Lemma dirs_len : forall ds, sum (map (fun d => Z.of_nat (length d) + 1) ds) = Z.of_nat (length (flat_map (fun d : str => d ++ [0]) ds)).
Proof. induction ds as [|d ds IH]; [reflexivity|]. cbn [map sum flat_map]. rewrite IH, !app_length. cbn [length]. lia. Qed.
Lemma dirs_short : forall ds : list str, (length ds <= length (flat_map (fun d : str => d ++ [0%Z]) ds))%nat.
Proof. induction ds as [|d ds IH]; cbn [flat_map length]; [lia|]. rewrite app_length, app_length. cbn [length]. lia. Qed.
Lemma files_ok : forall k fs, k < 2 ^ 32 -> Forall (fun f => exists n d, f = Some (n, d) /\ text n /\ 0 <= d <= k) fs ->
  exists fl fb, file_lens fs = Good fl /\ file_bytes fs = Good fb /\ sum fl = Z.of_nat (length fb) /\ (length fs <= length fb)%nat /\
    forall m r, (length fs < m)%nat -> read_files m (fb ++ 0 :: r) = Some (map (fun f => match f with Some (n, d) => (n, d, 0, 0) | None => ([], 0, 0, 0) end) fs, r).
Proof.
  intros k fs K. induction fs as [|f fs IH]; intros F.
  - exists [], []. do 4 (split; [cbn; auto|]). intros [|m] r L; [lia|reflexivity].
  - destruct (IH (Forall_inv_tail F)) as (fl & fb & A & B & C & D & E). destruct (Forall_inv F) as (n & d & -> & [N T] & R).
    destruct (get_uleb_ok d ltac:(lia)) as [H _]. rewrite Z.mod_small in H by lia. destruct (H ltac:(lia)) as (u & U1 & U2 & U3 & U4).
    eexists _, _. cbn [file_lens file_bytes]. rewrite A, B, U1. cbn [bind]. split; [reflexivity|]. split; [reflexivity|]. split; [|split].
    + cbn [sum]. rewrite C, U3, !app_length. cbn [length]. lia.
    + rewrite !app_length. cbn [length]. lia.
    + intros [|m] r L; [lia|]. cbn [read_files map]. rewrite <- !app_assoc. change ([0] ++ u ++ [0; 0] ++ fb ++ 0 :: r) with (0 :: (u ++ [0; 0] ++ fb ++ 0 :: r)). rewrite (cstr_ok n _ T). destruct n as [|c n]; [congruence|].
      rewrite U4. cbn [app]. change (leb false (0 :: 0 :: fb ++ 0 :: r)) with (Some (0, 1, 0 :: fb ++ 0 :: r)). cbv iota beta. change (leb false (0 :: fb ++ 0 :: r)) with (Some (0, 1, fb ++ 0 :: r)). cbv iota beta.
      rewrite E by (cbn [length] in L; lia). reflexivity.
Qed.
Lemma hdr_good : forall t, Good_header (hdr t).
Proof. intros. repeat split. Qed.
Lemma take_exact : forall n a r, n = Z.of_nat (length a) -> take n (a ++ r) = Some (a, r).
Proof. intros n a r ->. apply take_app. Qed.
Lemma unit_ok : forall asz rs lookup t (asm : bool) names xs ops rows, let t' := if asm then add_files t names else t in
  full_table t' -> gen_sections 1 asz lookup t' asm xs = Good ops -> Does (hdr t') rs (start (hdr t')) ops rows (start (hdr t')) ->
  exists bytes, debug_line 1 asz rs lookup t asm names xs = Good bytes /\ (Z.of_nat (length bytes) < 2 ^ 32 -> forall rest, read_unit (bytes ++ rest) = Some (hdr t', rows, rest)).
Proof.
  intros asz rs lookup t asm names xs ops rows t' (TD & TL & TF) G (prog & P1 & P2 & P3).
  unfold debug_line. fold t'. clearbody t'. clear t names.
  destruct (files_ok _ _ TL TF) as (fl & fb & A & B & C & D & E). unfold spp_len. rewrite A. cbn [bind]. rewrite G. cbn [bind]. unfold spp_bytes. rewrite B. cbn [bind]. rewrite P1. cbn [bind].
  eexists. split; [reflexivity|]. intros LEN rest.
  rewrite P2. rewrite P2 in LEN. rewrite C in *. rewrite dirs_len in *. unfold str in *. set (db := flat_map (fun d => d ++ [0]) (t_dirs t')) in *.
  set (sl := 4 + 5 + Z.of_nat (length num_operands) + Z.of_nat (length db) + 1 + Z.of_nat (length fb) + 1) in *.
  assert (SL : sl = 23 + Z.of_nat (length db) + Z.of_nat (length fb)) by (unfold sl; cbn [length num_operands]; lia). clearbody sl.
  rewrite !app_length, !le_length in LEN. cbn [length num_operands] in LEN.
  assert (US : u64 sl = sl) by (apply u64_small; unfold w64; lia). rewrite US.
  assert (US2 : u64 (sl - 4) = sl - 4) by (apply u64_small; unfold w64; lia). rewrite US2.
  unfold read_unit. set (un := 6 + sl + Z.of_nat (length prog) - 4).
  set (hb := le 1 1 ++ le 1 DEFAULT_IS_STMT ++ le 1 LINE_BASE ++ le 1 LINE_RANGE ++ le 1 OPCODE_BASE ++ num_operands ++ db ++ [0] ++ fb ++ [0]).
  assert (HL : Z.of_nat (length hb) = sl - 4) by (unfold hb; rewrite !app_length, !le_length; cbn [length num_operands]; lia).
  rewrite <- !app_assoc. rewrite (take_exact 4) by (rewrite le_length; reflexivity). rewrite lev_le by (unfold un; lia).
  replace (le 2 2 ++ le 4 (sl - 4) ++ hb ++ prog ++ rest) with ((le 2 2 ++ le 4 (sl - 4) ++ hb ++ prog) ++ rest) by (rewrite <- !app_assoc; reflexivity).
  rewrite (take_exact un) by (rewrite !app_length, !le_length; unfold un; lia).
  rewrite (take_exact 2) by (rewrite le_length; reflexivity). rewrite (take_exact 4) by (rewrite le_length; reflexivity). rewrite lev_le by lia. rewrite (take_exact (sl - 4)) by lia.
  unfold hb. change (le 1 1) with [1]. change (le 1 DEFAULT_IS_STMT) with [1]. change (le 1 LINE_BASE) with [251]. change (le 1 LINE_RANGE) with [14]. change (le 1 OPCODE_BASE) with [13]. cbn [app].
  rewrite (take_exact (13 - 1)) by reflexivity. unfold db at 1 2.
  rewrite read_dirs_ok; [|auto|]. 2: { rewrite !app_length. cbn [length]. apply (Nat.le_lt_trans _ _ _ (dirs_short (t_dirs t'))). unfold str. clear. lia. }
  rewrite E by (rewrite app_length; cbn [length]; lia).
  rewrite lev_le by (cbn; lia). change (2 =? 2) with true. cbv iota. change (sgn 8 251) with (-5). change (negb (1 =? 0)) with true.
  change (Header 1 true (-5) 14 13 num_operands (t_dirs t') (map (fun f => match f with Some (n, d) => (n, d, 0, 0) | None => ([], 0, 0, 0) end) (t_files t'))) with (hdr t').
  unfold program. rewrite (Run_exec (hdr t') (start (hdr t')) prog rows); [reflexivity| |lia].
  specialize (P3 [] [] (Run_nil _ _)). rewrite !app_nil_r in P3. exact P3.
Qed.
Lemma sections_ok : forall h rs asz lookup tb asm xs rowss,
  Forall2 (fun x rows => exists ops, gen_section 1 asz lookup tb asm x = Good ops /\ Does h rs (start h) ops rows (start h)) xs rowss ->
  exists ops, gen_sections 1 asz lookup tb asm xs = Good ops /\ Does h rs (start h) ops (concat rowss) (start h).
Proof.
  intros h rs asz lookup tb asm xs rowss F. induction F as [|x rows xs rowss (o1 & A & B) F (o2 & C & D)]; [exists []; split; [reflexivity|apply does_nil]|].
  exists (o1 ++ o2). cbn [gen_sections concat]. rewrite A, C. split; [reflexivity|]. exact (does_app _ _ _ _ _ _ _ _ _ B D).
Qed.

(** * The tables *)
Lemma index_spec : forall A (f : A -> bool) l i, exists k, index f i l = i + Z.of_nat k /\ (k <= length l)%nat /\
  match nth_error l k with Some a => f a = true | None => k = length l end.
Proof.
  induction l as [|a l IH]; intros i; [exists O; cbn; repeat split; lia|]. cbn [index]. destruct (f a) eqn:E; [exists O; cbn; repeat split; auto; lia|].
  destruct (IH (i + 1)) as (k & A1 & A2 & A3). exists (S k). cbn [length nth_error]. split; [lia|]. split; [lia|]. destruct (nth_error l k); auto.
Qed.
Lemma put_same : forall A n (a d : A) l, nth_error (put n a d l) n = Some a.
Proof. induction n as [|n IH]; intros a d [|x l]; cbn; auto. Qed.
Lemma put_other : forall A n (a d : A) l m x, m <> n -> nth_error l m = Some x -> nth_error (put n a d l) m = Some x.
Proof. induction n as [|n IH]; intros a d [|y l] [|m] x N E; cbn in *; auto; try discriminate; try congruence. Qed.
Lemma put_forall : forall A (P : A -> Prop) n a d l, P a -> (n <= length l)%nat -> Forall P l -> Forall P (put n a d l).
Proof. induction n as [|n IH]; intros a d [|y l] Pa L F; cbn in *; auto; try lia. - constructor; auto. apply (Forall_inv_tail F). - constructor; [apply (Forall_inv F)|]. apply IH; auto; [lia|apply (Forall_inv_tail F)]. Qed.
Lemma put_in : forall A n (a d : A) l x, In x (put n a d l) -> x = a \/ x = d \/ In x l.
Proof. induction n as [|n IH]; intros a d [|y l] x I; cbn in *; [intuition congruence|intuition congruence| |]; (destruct I as [I|I]; [intuition congruence|]; specialize (IH _ _ _ _ I); cbn in IH; intuition). Qed.
Definition table_inv (t : tables) : Prop := Forall (fun s => s <> []) (t_dirs t) /\ forall n d, In (Some (n, d)) (t_files t) -> 0 <= d <= Z.of_nat (length (t_dirs t)).
Lemma dir_text_app : forall ds fs fs' e d x, dir_text (Tables ds fs) d = Some x -> dir_text (Tables (ds ++ e) fs') d = Some x.
Proof.
  intros ds fs fs' e d x E. unfold dir_text in *. cbn [t_dirs] in *. destruct (d =? 0); [auto|]. destruct (0 <? d); [|discriminate]. rewrite nth_error_app1; auto. apply nth_error_Some. congruence.
Qed.
(** The directory part of add_file *)
Lemma add_dir : forall t path, table_inv t -> let '(dl, _) := splitpath path in let d := firstn (Z.to_nat dl) path in
  let dir := if 0 <? dl then index (str_eqb d) 1 (t_dirs t) else 0 in
  let dirs := if (0 <? dl) && (Z.of_nat (length (t_dirs t)) + 1 <=? dir) then t_dirs t ++ [d] else t_dirs t in
  0 <= dir <= Z.of_nat (length dirs) /\ (exists e, dirs = t_dirs t ++ e /\ (e = [] \/ e = [d] /\ d <> [])) /\ forall fs, dir_text (Tables dirs fs) dir = Some d.
Proof.
  intros t path [I1 I2]. pose proof (head_empty path) as HE. pose proof (split_range path) as SR. destruct (splitpath path) as [dl tl]. cbn [fst] in *. cbv zeta.
  set (d := firstn (Z.to_nat dl) path) in *. clearbody d. destruct (Z.ltb_spec 0 dl); cbn [andb].
  - destruct (index_spec _ (str_eqb d) (t_dirs t) 1) as (k & A1 & A2 & A3). rewrite A1. assert (ND : d <> []) by (intros X; apply HE in X; lia).
    destruct (Z.leb_spec (Z.of_nat (length (t_dirs t)) + 1) (1 + Z.of_nat k)).
    + assert (K : k = length (t_dirs t)) by lia. rewrite app_length. cbn [length]. split; [lia|]. split; [exists [d]; auto|]. intros fs. unfold dir_text. cbn [t_dirs]. destruct (Z.eqb_spec (1 + Z.of_nat k) 0); [lia|]. destruct (Z.ltb_spec 0 (1 + Z.of_nat k)); [|lia].
      replace (Z.to_nat (1 + Z.of_nat k - 1)) with k by lia. rewrite nth_error_app2 by lia. replace (k - length (t_dirs t))%nat with O by lia. reflexivity.
    + split; [lia|]. split; [exists []; rewrite app_nil_r; auto|]. intros fs. unfold dir_text. cbn [t_dirs]. destruct (Z.eqb_spec (1 + Z.of_nat k) 0); [lia|]. destruct (Z.ltb_spec 0 (1 + Z.of_nat k)); [|lia].
      replace (Z.to_nat (1 + Z.of_nat k - 1)) with k by lia. destruct (nth_error (t_dirs t) k) as [s|] eqn:N; [|lia]. apply str_eqb_spec in A3. rewrite A3. reflexivity.
  - split; [lia|]. split; [exists []; rewrite app_nil_r; auto|]. intros fs. unfold dir_text. cbn. rewrite (proj2 HE) by lia. reflexivity.
Qed.
Lemma add_file_ok : forall t n path, table_inv t -> 0 <= n -> let t' := add_file t n path in
  table_inv t' /\ (0 < n -> denotes t' n path) /\ (n = 0 -> exists f, denotes t' f path) /\ forall f p, denotes t f p -> f <> n -> denotes t' f p.
Proof.
  intros t n path IV N t'. pose proof (add_dir t path IV) as AD. unfold t', add_file in *. clear t'.
  assert (TLS : snd (splitpath path) = snd (splitpath path)) by auto. destruct (splitpath path) as [dl tl] eqn:SP. cbn [snd] in TLS. clear TLS.
  set (d := firstn (Z.to_nat dl) path) in *. cbv zeta in AD. set (dir := if 0 <? dl then index (str_eqb d) 1 (t_dirs t) else 0) in *.
  set (dirs := if (0 <? dl) && (Z.of_nat (length (t_dirs t)) + 1 <=? dir) then t_dirs t ++ [d] else t_dirs t) in *. destruct AD as (D1 & (e & D2 & D2') & D3). clearbody dir dirs.
  destruct IV as [I1 I2].
  set (g := fun f : option (str * Z) => match f with Some (g, e) => (e =? dir) && str_eqb g tl | None => true end).
  set (k := if n =? 0 then index g 0 (t_files t) else n - 1). assert (K0 : 0 <= k) by (unfold k; destruct (Z.eqb_spec n 0); [destruct (index_spec _ g (t_files t) 0) as (x & A & _); lia|lia]).
  assert (DEN : denotes (Tables dirs (put (Z.to_nat k) (Some (tl, dir)) None (t_files t))) (k + 1) path).
  { exists dir. rewrite SP. cbn [fst snd]. fold d. split; [lia|]. replace (k + 1 - 1) with k by lia. split; [apply put_same|apply D3]. }
  split; [|split; [|split]].
  - split; cbn [t_dirs t_files].
    + rewrite D2. apply Forall_app. split; [auto|]. destruct D2' as [->|[-> ND]]; auto.
    + intros m q Q. apply put_in in Q. destruct Q as [Q|[Q|Q]]; [injection Q as -> ->; lia|discriminate|]. specialize (I2 _ _ Q). rewrite D2, app_length. lia.
  - intros P. assert (KN : k + 1 = n) by (unfold k; destruct (Z.eqb_spec n 0); lia). rewrite KN in DEN. exact DEN.
  - intros _. eexists. exact DEN.
  - intros f p (q & Q1 & Q2 & Q3) NF. exists q. split; [auto|]. cbn [t_files]. split; [|destruct t as [ds fs]; cbn [t_dirs t_files] in *; rewrite D2; eapply dir_text_app; exact Q3].
    destruct (Nat.eq_dec (Z.to_nat (f - 1)) (Z.to_nat k)) as [EQ|NQ]; [|apply put_other; auto].
    unfold k in EQ |- *. destruct (Z.eqb_spec n 0) as [->|Z0]; [|lia].
    destruct (index_spec _ g (t_files t) 0) as (x & A1 & A2 & A3). rewrite A1 in *. assert (X : Z.to_nat (f - 1) = x) by lia. rewrite X in *. replace (Z.to_nat (0 + Z.of_nat x)) with x by lia.
    rewrite put_same. rewrite Q2 in A3. unfold g in A3. apply andb_prop in A3. destruct A3 as [A3 A4]. apply Z.eqb_eq in A3. apply str_eqb_spec in A4. rewrite <- A3, <- A4. reflexivity.
Qed.
Lemma tail_in : forall p c, In c (snd (splitpath p)) -> In c p.
Proof.
  intros p c I. unfold splitpath in I. destruct (to_slash (rev p)) as [r|]; cbn [snd] in I; [|auto]. rewrite <- (firstn_skipn (length r) p). apply in_app_iff. auto.
Qed.
Lemma good_parts : forall p, good_path p -> text (snd (splitpath p)) /\ Forall (fun c => 0 < c < 256) (firstn (Z.to_nat (fst (splitpath p))) p).
Proof.
  intros p [F N]. rewrite Forall_forall in F. split; [split; auto; apply Forall_forall; intros c I; apply F, tail_in, I|]. apply Forall_forall. intros c I. apply F. rewrite <- (firstn_skipn (Z.to_nat (fst (splitpath p))) p). apply in_app_iff. auto.
Qed.
(** Table entries as texts *)
Definition texts (t : tables) : Prop := Forall text (t_dirs t) /\ forall n d, In (Some (n, d)) (t_files t) -> text n.
Lemma add_file_texts : forall t n path, table_inv t -> texts t -> good_path path -> texts (add_file t n path) /\ (length (t_dirs (add_file t n path)) <= length (t_dirs t) + 1)%nat.
Proof.
  intros t n path IV [T1 T2] GP. pose proof (add_dir t path IV) as AD. pose proof (good_parts path GP) as [G1 G2]. unfold add_file. destruct (splitpath path) as [dl tl]. cbn [fst snd] in *. cbv zeta in AD.
  destruct AD as (_ & (e & -> & E) & _). cbn [t_dirs t_files]. split; [split|].
  - apply Forall_app. split; [auto|]. destruct E as [->|[-> N]]; [constructor|]. constructor; [split; auto|constructor].
  - intros m q Q. apply put_in in Q. destruct Q as [Q|[Q|Q]]; [injection Q as -> _; auto|discriminate|]. eapply T2; eauto.
  - rewrite app_length. destruct E as [->|[-> N]]; cbn; lia.
Qed.
Lemma add_file_full : forall t path, Forall (fun f => f <> None) (t_files t) -> Forall (fun f => f <> None) (t_files (add_file t 0 path)) /\ (length (t_files (add_file t 0 path)) <= length (t_files t) + 1)%nat.
Proof.
  intros t path F. unfold add_file. destruct (splitpath path) as [dl tl]. cbn [t_files]. change (0 =? 0) with true. cbv iota.
  match goal with |- context [index ?g 0 (t_files t)] => destruct (index_spec _ g (t_files t) 0) as (k & A1 & A2 & A3); rewrite A1 end. replace (Z.to_nat (0 + Z.of_nat k)) with k by lia.
  split; [apply put_forall; auto; discriminate|]. clear - A2. revert A2. generalize (t_files t). revert k. induction k as [|k IH]; intros [|y l] L; cbn [put length] in *; try lia. specialize (IH l ltac:(lia)). lia.
Qed.
Lemma add_files_ok : forall names t, table_inv t -> texts t -> Forall (fun f => f <> None) (t_files t) -> Forall good_path names ->
  let t' := add_files t names in table_inv t' /\ texts t' /\ Forall (fun f => f <> None) (t_files t') /\
    (length (t_dirs t') <= length (t_dirs t) + length names)%nat /\ (length (t_files t') <= length (t_files t) + length names)%nat /\
    (forall f p, denotes t f p -> 1 <= f -> denotes t' f p) /\ forall p, In p names -> exists f, denotes t' f p.
Proof.
  induction names as [|p names IH]; intros t IV TX FN GP t'.
  - unfold t', add_files. cbn [fold_left length]. do 5 (split; [auto; lia|]). split; [auto|]. intros p [].
  - unfold t', add_files. cbn [fold_left]. destruct (add_file_ok t 0 p IV ltac:(lia)) as (A1 & _ & A3 & A4). destruct (add_file_texts t 0 p IV TX (Forall_inv GP)) as [B1 B2]. destruct (add_file_full t p FN) as [C1 C2].
    destruct (IH (add_file t 0 p) A1 B1 C1 (Forall_inv_tail GP)) as (D1 & D2 & D3 & D4 & D5 & D6 & D7). fold (add_files (add_file t 0 p) names). cbn [length].
    do 3 (split; [auto|]). split; [lia|]. split; [lia|]. split; [intros f q Q F1; apply D6; auto; apply A4; auto; lia|].
    intros q [->|I]; [|auto]. destruct (A3 eq_refl) as (f & F). exists f. apply D6; auto. destruct F as (? & ? & _). auto.
Qed.
Lemma full_of : forall t, table_inv t -> texts t -> Forall (fun f => f <> None) (t_files t) -> Z.of_nat (length (t_dirs t)) < 2 ^ 32 -> full_table t.
Proof.
  intros t [I1 I2] [T1 T2] F L. split; [auto|]. split; [auto|]. apply Forall_forall. intros [[n d]|] I; [|rewrite Forall_forall in F; exfalso; exact (F _ I eq_refl)].
  exists n, d. split; [auto|]. split; [apply (T2 _ _ I)|apply (I2 _ _ I)].
Qed.
Lemma denotes_hdr : forall t f p, denotes t f p -> file_is (hdr t) f p.
Proof.
  intros t f p (d & D1 & D2 & D3). exists d. split; [auto|]. cbn [hdr h_files h_dirs]. split; [exact (map_nth_error (fun f => match f with Some (n, d) => (n, d, 0, 0) | None => ([], 0, 0, 0) end) _ _ D2)|].
  unfold dir_text in D3. cbv zeta. destruct (Z.eqb_spec d 0) as [->|N]; [left; split; [auto|congruence]|]. destruct (Z.ltb_spec 0 d); [|discriminate]. right. auto.
Qed.
Lemma inv0 : table_inv (Tables [] []).
Proof. split; [constructor|intros n d []]. Qed.
Lemma texts0 : texts (Tables [] []).
Proof. split; [constructor|intros n d []]. Qed.
Lemma put_length : forall A n (a d : A) l, length (put n a d l) = Nat.max (S n) (length l).
Proof. induction n as [|n IH]; intros a d [|y l]; cbn [put length]; auto; rewrite IH; cbn [length]; lia. Qed.
Lemma fold_files : forall l t, Forall (fun f => 1 <= fst f /\ good_path (snd f)) l -> table_inv t -> texts t ->
  let t' := fold_left (fun t f => add_file t (fst f) (snd f)) l t in
  table_inv t' /\ texts t' /\ (length (t_dirs t') <= length (t_dirs t) + length l)%nat /\
  (forall k, (k < length (t_files t'))%nat -> (k < length (t_files t))%nat \/ exists n p, In (n, p) l /\ Z.of_nat k + 1 <= n) /\
  forall n p, (last_file n l = Some p \/ last_file n l = None /\ denotes t n p) -> denotes t' n p.
Proof.
  induction l as [|[m p] l IH]; intros t F IV TX t'.
  - unfold t'. cbn [fold_left length]. do 2 (split; [auto|]). split; [lia|]. split; [auto|]. intros n p [H|[_ H]]; [discriminate|auto].
  - unfold t'. cbn [fold_left fst snd]. destruct (Forall_inv F) as [M GP]. cbn [fst snd] in M, GP.
    destruct (add_file_ok t m p IV ltac:(lia)) as (A1 & A2 & _ & A4). destruct (add_file_texts t m p IV TX GP) as [B1 B2].
    destruct (IH _ (Forall_inv_tail F) A1 B1) as (C1 & C2 & C3 & C4 & C5). do 2 (split; [auto|]). split; [cbn [length]; lia|]. split.
    + intros k K. destruct (C4 k K) as [K1|(n & q & K1 & K2)]; [|right; exists n, q; split; [right; auto|auto]].
      assert (L : length (t_files (add_file t m p)) = Nat.max (S (Z.to_nat (m - 1))) (length (t_files t))).
      { unfold add_file. destruct (splitpath p). cbn [t_files]. destruct (Z.eqb_spec m 0); [lia|]. apply put_length. }
      rewrite L in K1. destruct (Nat.lt_ge_cases k (length (t_files t))); [auto|]. right. exists m, p. split; [left; auto|lia].
    + intros n q Q. apply C5. cbn [last_file] in Q. destruct (last_file n l) as [x|]; [left; destruct Q as [Q|[Q _]]; [auto|discriminate]|]. right. split; [auto|].
      destruct (Z.eqb_spec m n) as [->|N]; [destruct Q as [Q|[Q _]]; [|discriminate]; assert (p = q) by congruence; subst q; apply A2; lia|].
      destruct Q as [Q|[_ Q]]; [discriminate|]. apply A4; auto.
Qed.
Lemma last_file_in : forall n q l, In (n, q) l -> exists p, last_file n l = Some p.
Proof.
  induction l as [|[m p] l IH]; intros I; [destruct I|]. cbn [last_file]. destruct I as [E|I].
  - injection E as -> ->. destruct (last_file n l); [eauto|]. rewrite Z.eqb_refl. eauto.
  - destruct (IH I) as (x & ->). eauto.
Qed.
Lemma files_of_ok : forall l, Forall (fun f => 1 <= fst f /\ good_path (snd f)) l -> no_holes l -> Z.of_nat (length l) < 2 ^ 32 ->
  full_table (files_of l) /\ forall n p, last_file n l = Some p -> denotes (files_of l) n p.
Proof.
  intros l F NH L. destruct (fold_files l (Tables [] []) F inv0 texts0) as (A & B & C & D & E). fold (files_of l) in *.
  split; [|intros n p H; apply E; auto]. apply full_of; auto; [|cbn [t_dirs length] in C; lia].
  apply Forall_forall. intros f I N. subst f. apply In_nth_error in I. destruct I as (k & K). assert (KL : (k < length (t_files (files_of l)))%nat) by (apply nth_error_Some; congruence).
  destruct (D k KL) as [H|(n & p & H1 & H2)]; [cbn in H; lia|]. destruct (NH n p (Z.of_nat k + 1) H1 ltac:(lia)) as (q & Q). destruct (last_file_in _ _ _ Q) as (q' & Q').
  destruct (E _ _ (or_introl Q')) as (d & _ & X & _). replace (Z.to_nat (Z.of_nat k + 1 - 1)) with k in X by lia. congruence.
Qed.

(** * Units *)
Theorem loc_unit_ok : forall asz rs lookup names l xs rowss, 0 <= asz < 256 -> l <> [] -> Forall (fun f => 1 <= fst f /\ good_path (snd f)) l -> no_holes l -> Z.of_nat (length l) < 2 ^ 32 ->
  Forall2 (loc_sect rs asz) xs rowss ->
  exists bytes h, generate 1 asz rs lookup (files_of l) names xs = Good bytes /\
    (Z.of_nat (length bytes) < 2 ^ 32 -> forall rest, read_unit (bytes ++ rest) = Some (h, concat rowss, rest)) /\
    forall n p, last_file n l = Some p -> file_is h n p.
Proof.
  intros asz rs lookup names l xs rowss Az NL F NH L FS. destruct (files_of_ok l F NH L) as [FT DN].
  assert (ASM : (match t_files (files_of l) with [] => true | _ => false end) = false).
  { destruct l as [|[n p] l]; [congruence|]. destruct (last_file_in n p ((n, p) :: l) (or_introl eq_refl)) as (q & Q). destruct (DN _ _ Q) as (d & _ & X & _). destruct (t_files (files_of ((n, p) :: l))); [|reflexivity]. destruct (Z.to_nat (n - 1)); discriminate. }
  unfold generate. rewrite ASM. set (t := files_of l) in *.
  destruct (sections_ok (hdr t) rs asz lookup t false xs rowss) as (ops & G & D).
  { induction FS as [|x rows xs rowss S1 FS IH]; constructor; auto. destruct S1 as [code bcs|code bcs a b base LO SZ LA So SL SI o LE BR].
    - exists []. split; [reflexivity|apply does_nil].
    - destruct (loc_section_ok (hdr t) rs asz lookup t code bcs a b base o (hdr_good t) Az LO SZ LA So SL SI LE BR) as (ops & G & D). exists ops. split; [auto|]. replace (base + (o - site_off bcs (first_row (site_off bcs) a b))) with base in D by (unfold o; lia). exact D. }
  destruct (unit_ok asz rs lookup t false names xs ops (concat rowss) FT G D) as (bytes & B1 & B2).
  exists bytes, (hdr t). split; [auto|]. split; [auto|]. intros n p H. apply denotes_hdr. auto.
Qed.
Theorem asm_unit_ok : forall asz rs lookup names l, 0 <= asz < 256 -> Forall good_path names -> Z.of_nat (length names) < 2 ^ 32 ->
  Forall (fun x => asm_sect rs asz lookup names (fst x) (snd x)) l ->
  exists bytes h rows, generate 1 asz rs lookup (Tables [] []) names (map fst l) = Good bytes /\
    (Z.of_nat (length bytes) < 2 ^ 32 -> forall rest, read_unit (bytes ++ rest) = Some (h, rows, rest)) /\
    asm_rows h lookup (map (fun x => (fst x, snd x + shift (fst x))) l) rows.
Proof.
  intros asz rs lookup names l Az GP LN FS. unfold generate. cbn [t_files]. set (t := add_files (Tables [] []) names).
  destruct (add_files_ok names (Tables [] []) inv0 texts0 ltac:(constructor) GP) as (A1 & A2 & A3 & A4 & A5 & _ & A7). fold t in A1, A2, A3, A4, A5, A7. cbn [t_dirs t_files length] in A4, A5.
  assert (FT : full_table t) by (apply full_of; auto; lia).
  assert (K : exists rowss, Forall2 (fun x rows => exists ops, gen_section 1 asz lookup t true x = Good ops /\ Does (hdr t) rs (start (hdr t)) ops rows (start (hdr t))) (map fst l) rowss /\
    asm_rows (hdr t) lookup (map (fun x => (fst x, snd x + shift (fst x))) l) (concat rowss)).
  { induction FS as [|[x base] l S1 FS (rowss & I1 & I2)]; [exists []; split; [constructor|reflexivity]|]. cbn [map fst snd] in *.
    destruct (has_rows x) eqn:HR.
    - destruct (S1 HR) as (first & rest & E & RN & F0 & SY & LO & SZ & LA & B0 & B1 & FB). destruct x as [code locs bcs]. cbn [x_bcs] in *. subst bcs.
      destruct (asm_section_ok (hdr t) rs asz lookup t code locs first rest base (hdr_good t) Az) as (ops & body & G & D & F2); auto.
      { apply A1. } { apply Forall_forall. intros f I. destruct FT as (_ & _ & FF). rewrite Forall_forall in FF. destruct (FF f I) as (n & d & E1 & _ & E2). exists n, d. auto. } { lia. }
      { unfold has_rows in HR. cbn [x_code x_locs] in HR. destruct code; [auto|]. right. destruct locs; discriminate. }
      { eapply Forall_impl; [|exact FB]. intros b [H1 H2]. split; auto. }
      exists (sequence body (base + shift (Sect code locs (first :: rest)) + size (first :: rest)) :: rowss). split; [constructor; [exists ops; split; [exact G|exact D]|auto]|].
      cbn [concat asm_rows]. exists (sequence body (base + shift (Sect code locs (first :: rest)) + size (first :: rest))), (concat rowss). split; [auto|]. split; [exact I2|]. rewrite HR. exists body. split; [auto|]. cbn [x_bcs tl]. cbv zeta in F2.
      unfold shift. cbn [x_bcs tl]. revert F2. generalize (emitting rest) at 2 4. intros em F2. clear - F2. induction F2 as [|b w em body (f & W1 & W2) F2 IH]; constructor; [|exact IH]. exists f. split; [exact W1|apply denotes_hdr; auto].
    - exists ([] :: rowss). split; [constructor; [|auto]|].
      + exists []. split; [|apply does_nil]. unfold has_rows in HR. destruct x as [[] [locs|] bcs]; try discriminate. reflexivity.
      + cbn [concat asm_rows]. exists [], (concat rowss). split; [auto|]. split; [exact I2|]. rewrite HR. reflexivity. }
  destruct K as (rowss & K1 & K2). destruct (sections_ok (hdr t) rs asz lookup t true _ rowss K1) as (ops & G & D).
  destruct (unit_ok asz rs lookup (Tables [] []) true names (map fst l) ops (concat rowss) FT G D) as (bytes & B1 & B2).
  exists bytes, (hdr t), (concat rowss). auto.
Qed.

(** * The .loc directive *)
Lemma spells_same : forall s w, spells s w -> forall x, map lower x = x -> same_word s x = str_eqb (bytes_of w) x.
Proof. intros s w S1 x X. unfold same_word. change (map lower s) with (map (fun c => if (65 <=? c) && (c <=? 90) then c + 32 else c) s). rewrite S1, X. reflexivity. Qed.
Definition merge (l : loc) (o : opt) : loc :=
  match o with
  | Stmt b => Loc (l_vline l) (l_file l) (l_line l) (l_col l) (l_disc l) (l_isach l) (l_isa l) (if b then ClearStmt else SetStmt) (l_bb l) (l_pe l) (l_eb l) (l_bc l) (l_sym l)
  | Isa n => Loc (l_vline l) (l_file l) (l_line l) (l_col l) (l_disc l) true n (l_stmt l) (l_bb l) (l_pe l) (l_eb l) (l_bc l) (l_sym l)
  | Disc n => Loc (l_vline l) (l_file l) (l_line l) (l_col l) n (l_isach l) (l_isa l) (l_stmt l) (l_bb l) (l_pe l) (l_eb l) (l_bc l) (l_sym l)
  | Block => set_flags l true false false
  | Prologue => set_flags l false true false
  | Epilogue => set_flags l false false true
  end.
Lemma int_values : forall p n, number p n -> vp_int p = Some (IL n) /\ sign (IL n) <? 0 = false /\ get_uint (IL n) = n.
Proof.
  intros p n [E R]. unfold vp_int. rewrite E. split; [auto|]. unfold sign, get_uint. split.
  - destruct (n =? 0); [reflexivity|]. destruct (Z.ltb_spec n 0); [lia|]. reflexivity.
  - destruct (Z.ltb_spec n 0); lia.
Qed.
Lemma option_ok : forall o ps, writes o ps -> forall l t, options l WNone (ps ++ t) = options (merge l o) WNone t.
Proof.
  intros o ps W l t. destruct W as [s v p b S1 N|s p b S1 N V|s v p n S1 N|s p n S1 N V|s v p n S1 N|s p n S1 N V|s v S1|s v S1|s v S1]; cbn [app options p_val vp_id p_what];
    try rewrite V; rewrite ?(spells_same _ _ S1 w_is_stmt eq_refl), ?(spells_same _ _ S1 M_DwarfLine.w_isa eq_refl), ?(spells_same _ _ S1 w_discriminator eq_refl),
      ?(spells_same _ _ S1 w_basic_block eq_refl), ?(spells_same _ _ S1 w_prologue_end eq_refl), ?(spells_same _ _ S1 w_epilogue_begin eq_refl).
  all: try (destruct (int_values _ _ N) as (I1 & I2 & I3); rewrite I1).
  1, 2: destruct b; reflexivity.
  1: change (str_eqb (bytes_of "isa") w_is_stmt) with false; change (str_eqb (bytes_of "isa") M_DwarfLine.w_isa) with true; cbv iota; unfold take_isa; rewrite I2, I3; reflexivity.
  1: change (str_eqb (bytes_of "isa") w_is_stmt) with false; change (str_eqb (bytes_of "isa") M_DwarfLine.w_isa) with true; cbv iota; unfold take_isa; rewrite I2, I3; reflexivity.
  1: change (str_eqb (bytes_of "discriminator") w_is_stmt) with false; change (str_eqb (bytes_of "discriminator") M_DwarfLine.w_isa) with false; change (str_eqb (bytes_of "discriminator") w_discriminator) with true; cbv iota; unfold take_disc; rewrite I2, I3; reflexivity.
  1: change (str_eqb (bytes_of "discriminator") w_is_stmt) with false; change (str_eqb (bytes_of "discriminator") M_DwarfLine.w_isa) with false; change (str_eqb (bytes_of "discriminator") w_discriminator) with true; cbv iota; unfold take_disc; rewrite I2, I3; reflexivity.
  all: reflexivity.
Qed.
Lemma options_ok : forall os pss, Forall2 writes os pss -> forall l, options l WNone (concat pss) = Some (fold_left merge os l).
Proof. intros os pss F. induction F as [|o ps os pss W F IH]; intros l; [reflexivity|]. cbn [concat fold_left]. rewrite (option_ok o ps W). apply IH. Qed.
Lemma merged : forall os l, fold_left merge os l =
  Loc (l_vline l) (l_file l) (l_line l) (l_col l)
    (match asks_disc os with Some d => d | None => l_disc l end) (match asks_isa os with Some _ => true | None => l_isach l end) (match asks_isa os with Some i => i | None => l_isa l end)
    (match asks_stmt os with Some b => if b then ClearStmt else SetStmt | None => l_stmt l end)
    (l_bb l || existsb (fun o => match o with Block => true | _ => false end) os) (l_pe l || existsb (fun o => match o with Prologue => true | _ => false end) os)
    (l_eb l || existsb (fun o => match o with Epilogue => true | _ => false end) os) (l_bc l) (l_sym l).
Proof.
  induction os as [|o os IH] using rev_ind; intros l; [destruct l; cbn; rewrite !orb_false_r; reflexivity|].
  rewrite fold_left_app, IH. cbn [fold_left]. unfold asks_disc, asks_isa, asks_stmt, asked. rewrite !fold_left_app, !existsb_app. cbn [fold_left existsb]. rewrite !orb_false_r.
  destruct o; cbn; unfold set_flags; cbn; rewrite ?orb_false_r, ?orb_true_r, ?orb_assoc; reflexivity.
Qed.
Theorem dir_loc_ok : forall vline f n c os pss, 1 <= f < 2 ^ 63 -> 0 <= n < 2 ^ 63 -> (forall x, c = Some x -> 0 <= x < 2 ^ 63) -> Forall2 writes os pss ->
  (c = None -> match concat pss with Param None (PExpr _) :: _ => False | _ => True end) ->
  dir_loc vline (Param None (PExpr (Some (IL f))) :: Param None (PExpr (Some (IL n))) :: match c with Some x => [Param None (PExpr (Some (IL x)))] | None => [] end ++ concat pss) =
  Some (with_options vline f n (match c with Some x => x | None => 0 end) os (match asks_stmt os with Some b => if b then ClearStmt else SetStmt | None => NoChange end)).
Proof.
  intros vline f n c os pss Rf Rn Rc F NC. unfold dir_loc.
  assert (SG : sign (IL f) = 1) by (unfold sign; destruct (Z.eqb_spec f 0); [lia|]; destruct (Z.ltb_spec f 0); [lia|reflexivity]). rewrite SG. change (negb (1 =? 1)) with false. cbv iota zeta.
  assert (GU : forall x, 0 <= x < 2 ^ 63 -> get_uint (IL x) = x) by (intros x R; unfold get_uint; destruct (Z.ltb_spec x 0); lia).
  rewrite (GU f), (GU n) by lia. destruct c as [x|].
  - cbn [app]. rewrite (GU x) by (apply Rc; auto). rewrite (options_ok os pss F), merged. reflexivity.
  - cbn [app]. specialize (NC eq_refl).
    assert (E : forall l, options l WNone (concat pss) = Some (fold_left merge os l)) by (apply options_ok; auto).
    destruct (concat pss) as [|[[v|] [s o|s|o]] t]; try contradiction; rewrite E, merged; reflexivity.
Qed.

(** * Statements for single sections and directives *)
Lemma does_program : forall h rs ops rows, Does h rs (start h) ops rows (start h) -> exists bs, ops_bytes rs ops = Good bs /\ program h bs = Some rows.
Proof.
  intros h rs ops rows (bs & A & _ & C). exists bs. split; [auto|]. specialize (C [] [] (Run_nil _ _)). rewrite !app_nil_r in C. unfold program. apply (Run_exec _ _ _ _ C). lia.
Qed.
Theorem loc_displaced : forall h rs asz lookup tb code bcs l t base o,
  Good_header h -> 0 <= asz < 256 -> laid_out 0 bcs -> size bcs < 2 ^ 32 -> labels_at rs base bcs ->
  Sorted Z.le (map l_vline (l :: t)) -> Forall small_loc (l :: t) -> Forall (fun l => site bcs (l_vline l) <> None) (l :: t) ->
  label_end (before bcs (l_vline (first_row (site_off bcs) l t))) = Some o -> 0 <= base + o < 256 ^ asz ->
  let X := base + (o - site_off bcs (first_row (site_off bcs) l t)) in
  exists ops bs, gen_section 1 asz lookup tb false (Sect code (Some (l :: t)) bcs) = Good ops /\ ops_bytes rs ops = Good bs /\
    program h bs = Some (sequence (loc_rows X (site_off bcs) 0 true false false false 0 (l :: t)) (X + size bcs)).
Proof.
  intros h rs asz lookup tb code bcs l t base o GH Az LO SZ LA So SL SI LE BR X.
  destruct (loc_section_ok h rs asz lookup tb code bcs l t base o GH Az LO SZ LA So SL SI LE BR) as (ops & G & D). destruct (does_program _ _ _ _ D) as (bs & B1 & B2). exists ops, bs. auto.
Qed.
Theorem loc_exact : forall h rs asz lookup tb x rows, Good_header h -> 0 <= asz < 256 -> loc_sect rs asz x rows ->
  exists ops bs, gen_section 1 asz lookup tb false x = Good ops /\ ops_bytes rs ops = Good bs /\ program h bs = Some rows.
Proof.
  intros h rs asz lookup tb x rows GH Az S1. destruct S1 as [code bcs|code bcs l t base LO SZ LA So SL SI o LE BR].
  - exists [], []. auto.
  - destruct (loc_displaced h rs asz lookup tb code bcs l t base o GH Az LO SZ LA So SL SI LE BR) as (ops & bs & A & B & C). exists ops, bs. split; [auto|]. split; [auto|].
    rewrite C. replace (base + (o - site_off bcs (first_row (site_off bcs) l t))) with base by (unfold o; lia). reflexivity.
Qed.
Theorem asm_exact : forall asz rs lookup names l, 0 <= asz < 256 -> Forall good_path names -> Z.of_nat (length names) < 2 ^ 32 ->
  Forall (fun x => asm_sect rs asz lookup names (fst x) (snd x) /\ shift (fst x) = 0) l ->
  exists bytes h rows, generate 1 asz rs lookup (Tables [] []) names (map fst l) = Good bytes /\
    (Z.of_nat (length bytes) < 2 ^ 32 -> forall rest, read_unit (bytes ++ rest) = Some (h, rows, rest)) /\ asm_rows h lookup l rows.
Proof.
  intros asz rs lookup names l Az GP LN F. destruct (asm_unit_ok asz rs lookup names l Az GP LN) as (bytes & h & rows & A & B & C).
  - eapply Forall_impl; [|exact F]. intros x [X _]. auto.
  - exists bytes, h, rows. split; [auto|]. split; [auto|]. rewrite (map_ext_in _ (fun x => x)) in C; [rewrite map_id in C; auto|]. intros [x b] I. rewrite Forall_forall in F. destruct (F _ I) as [_ K]. cbn [fst snd] in *. rewrite K, Z.add_0_r. reflexivity.
Qed.
Lemma file_lens_hole : forall fs k, nth_error fs k = Some None -> file_lens fs = Err.
Proof. induction fs as [|[[n d]|] fs IH]; intros [|k] E; try discriminate; auto. cbn [file_lens]. rewrite (IH k E). reflexivity. Qed.
Theorem hole_error : forall asz rs lookup t names xs k, nth_error (t_files t) k = Some None -> generate 1 asz rs lookup t names xs = Err.
Proof.
  intros asz rs lookup t names xs k E. unfold generate, debug_line. assert (N : t_files t <> []) by (intros X; rewrite X in E; destruct k; discriminate). destruct (t_files t) eqn:T; [congruence|]. unfold spp_len. rewrite T, (file_lens_hole _ k E). reflexivity.
Qed.
(** The tables any .file directives and generated names lead to *)
Inductive reachable : tables -> Prop :=
| reach0 : reachable (Tables [] [])
| reach_add t n path : reachable t -> 0 <= n -> reachable (add_file t n path).
Lemma reach_inv : forall t, reachable t -> table_inv t.
Proof. induction 1 as [|t n path R IH N]; [apply inv0|]. apply (add_file_ok t n path IH N). Qed.
Theorem dir_file_ok : forall t n path p, reachable t -> 0 <= n < 2 ^ 63 -> vp_string p = Some path ->
  exists t', dir_file t [Param None (PExpr (Some (IL n))); p] = Some t' /\ reachable t' /\
    (0 < n -> denotes t' n path) /\ (n = 0 -> exists f, denotes t' f path) /\ forall f q, denotes t f q -> f <> n -> denotes t' f q.
Proof.
  intros t n path p R N V. unfold dir_file. cbn [vp_string p_what]. rewrite V. assert (G : get_uint (IL n) = n) by (unfold get_uint; destruct (Z.ltb_spec n 0); lia). rewrite G.
  exists (add_file t n path). split; [auto|]. split; [apply reach_add; auto; lia|]. destruct (add_file_ok t n path (reach_inv t R) ltac:(lia)) as (_ & A & B & C). auto.
Qed.
Theorem number_found : forall t path lastf, reachable t -> Forall (fun f => f <> None) (t_files t) -> 0 <= lastf <= Z.of_nat (length (t_files t)) ->
  (exists f, denotes t f path) -> exists f, file_number t path lastf = Good f /\ denotes t f path.
Proof.
  intros t path lastf R F L D. destruct (reach_inv t R) as [I1 I2]. destruct (file_number_ok t path lastf I1) as (f & A & B & _); eauto.
  apply Forall_forall. intros [[n d]|] I; [exists n, d; split; [reflexivity|apply (I2 _ _ I)]|]. rewrite Forall_forall in F. exfalso. exact (F _ I eq_refl).
Qed.
