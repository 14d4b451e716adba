(** Model of libyasm/section.c: the size optimizer (yasm_object_optimize).
    Bytecodes of all sections are numbered through, as the code numbers them; each section starts
    with its empty bytecode.  Simplified: a span's value is an arbitrary function of its terms'
    values (or never computable), where the code substitutes them into an expression and adds the
    shifted relative term; a bytecode's expand callback is, per span, a fixed sequence of forms of which
    it takes the next that holds the value;
    an offset setter is the function from offset to length of its expand callback; integers are
    unbounded; of an error only the fact that it was reported is kept. *)
From Coq Require Import ZArith List Bool.
From Verif Require Import Lib M_Inttree.
Import ListNotations.
Open Scope Z_scope.

(** limits.h: LONG_MAX, which stands for a value that cannot be computed *)
Definition LONG_MAX : Z := 9223372036854775807.
(** section.c:859-864 yasm_span_term: the end of bytecode q minus the end of p, or minus the start
    of the span's own bytecode (precbc is NULL) *)
Inductive term := Diff (p q : nat) | Rel (q : nat).
(** What the expand callback does when a span outgrows its limits: reports an error, grows the
    bytecode and is done with the span, or grows it and sets the next limits. *)
Inductive form := Fail | Last (g : Z) | More (g lo hi : Z).
(** section.c:866-900 yasm_span, the part that does not change.  [any] is id <= 0, which only
    bytecode.c:270 uses (id 0, the count of a TIMES). *)
Record span := Span { sbc : nat; any : bool; terms : list term; value : option (list Z -> Z); lo0 : Z; hi0 : Z; forms : list form }.
(** section.c:866-900 yasm_span, the part that changes: new_val of the terms, cur_val, the limits,
    active (0, 1, 2; [Gone] is a span that was destroyed), and the forms not yet used *)
Inductive mode := Gone | Off | On | Queued.
Record dyn := Dyn { vals : list Z; cur : Z; lo : Z; hi : Z; act : mode; left : list form }.
Definition with_act (m : mode) (d : dyn) : dyn := Dyn (vals d) (cur d) (lo d) (hi d) m (left d).
Definition with_cur (c : Z) (d : dyn) : dyn := Dyn (vals d) c (lo d) (hi d) (act d) (left d).
Definition with_vals (v : list Z) (d : dyn) : dyn := Dyn v (cur d) (lo d) (hi d) (act d) (left d).
(** bytecode.h:183-230 yasm_bytecode: section, offset, len, mult_int, and for an offset setter its
    length by offset *)
Record bcode := BC { sec : nat; boff : Z; blen : Z; bmult : Z; setter : option (Z -> option Z) }.
Definition nobc : bcode := BC 0 0 0 0 None.
Definition bsize (b : bcode) : Z := blen b * bmult b.
Definition with_off (o : Z) (b : bcode) : bcode := BC (sec b) o (blen b) (bmult b) (setter b).
Definition with_len (n : Z) (b : bcode) : bcode := BC (sec b) (boff b) n (bmult b) (setter b).
Definition with_mult (m : Z) (b : bcode) : bcode := BC (sec b) (boff b) (blen b) m (setter b).
Definition nodyn : dyn := Dyn [] 0 0 0 Gone [].
Definition nospan : span := Span 0 false [] None 0 0 [].
Fixpoint upd {A : Type} (n : nat) (f : A -> A) (l : list A) : list A :=
  match l with [] => [] | x :: r => match n with O => f x :: r | S m => x :: upd m f r end end.

(** bytecode.c:219-223 yasm_bc_next_offset *)
Definition next_offset (bs : list bcode) (p : nat) : Z := boff (nth p bs nobc) + bsize (nth p bs nobc).
(** section.c:968-972, 1025-1026: a term's value from the stored offsets *)
Definition tval (bs : list bcode) (s : span) (t : term) : Z :=
  match t with
  | Diff p q => next_offset bs q - next_offset bs p
  | Rel q => next_offset bs q - boff (nth (sbc s) bs nobc)
  end.
(** section.c:1036-1064: new_val *)
Definition new_val (s : span) (d : dyn) : Z := match value s with None => LONG_MAX | Some f => f (vals d) end.
(** section.c:1033-1073 recalc_normal_span *)
Definition recalc (s : span) (d : dyn) : dyn * bool :=
  let v := new_val s d in
  (match value s with None => with_act Off d | Some _ => d end,
   if any s then negb (v =? cur d) else (v <? lo d) || (hi d <? v)).

(** section.c:1078-1117 update_all_bc_offsets; [prev] is the bytecode before, [off] the offset
    reached.  A setter that reports an error keeps its length. *)
Fixpoint offsets (prev : option bcode) (off : Z) (bs : list bcode) : list bcode * bool :=
  match bs with
  | [] => ([], false)
  | b :: r =>
      let first := match prev with None => true | Some p => negb (Nat.eqb (sec p) (sec b)) end in
      if first then let '(r', e) := offsets (Some b) 0 r in (b :: r', e)
      else
        let nxt := match prev with None => 0 | Some p => boff p + bsize p end in
        let '(b1, e1) := match setter b with
                         | None => (b, false)
                         | Some f => match f nxt with Some n => (with_len n b, false) | None => (b, true) end
                         end in
        let b2 := with_off off b1 in
        let '(r', e) := offsets (Some b2) (off + bsize b2) r in
        (b2 :: r', e1 || e)
  end.

(** The expand callback for the value [v]: growth, new limits if there are any, forms left.  Forms
    that cannot hold the value are skipped, as win64-except.c:422-459 win64_uwcode_bc_expand does;
    the other callbacks have one form. *)
Fixpoint advance (v : Z) (fs : list form) : option (Z * option (Z * Z) * list form) :=
  match fs with
  | [] => None
  | Fail :: _ => None
  | Last g :: r => Some (g, None, r)
  | More g l h :: r =>
      if (l <=? v) && (v <=? h) then Some (g, Some (l, h), r)
      else match advance v r with Some (g', o, r') => Some (g + g', o, r') | None => None end
  end.
(** bytecode.c:283-299 yasm_bc_expand *)
Definition expand (s : span) (d : dyn) (bs : list bcode) : Z * dyn * list bcode :=
  if any s then (1, d, upd (sbc s) (with_mult (new_val s d)) bs)
  else match advance (new_val s d) (left d) with
       | None => (-1, d, bs)
       | Some (g, None, r) => (0, Dyn (vals d) (cur d) (lo d) (hi d) (act d) r, upd (sbc s) (fun b => with_len (blen b + g) b) bs)
       | Some (g, Some (l, h), r) => (1, Dyn (vals d) (cur d) l h (act d) r, upd (sbc s) (fun b => with_len (blen b + g) b) bs)
       end.

(** section.c:1159-1186 optimize_itree_add: bytecodes whose size enters the term, if any *)
Definition range (s : span) (t : term) : option (Z * Z) :=
  let '(p, q) := match t with
                 | Diff p q => (Z.of_nat p, Z.of_nat q)
                 | Rel q => (Z.of_nat (sbc s) - 1, Z.of_nat q)
                 end in
  if p <? q then Some (p + 1, q) else if q <? p then Some (q + 1, p) else None.
(** section.c:1287-1290: the term grows with the bytecode (or shrinks) *)
Definition forward (s : span) (t : term) : bool :=
  match t with
  | Diff p q => Nat.ltb p q
  | Rel q => Z.of_nat (sbc s) - 1 <? Z.of_nat q
  end.
(** section.c:992-999: the span's own bytecode lies between a term's ends *)
Definition circular (s : span) : bool :=
  any s && existsb (fun t => match t with
                             | Diff p q => (Nat.ltb p (sbc s) && Nat.leb (sbc s) q) || (Nat.ltb q (sbc s) && Nat.leb (sbc s) p)
                             | Rel _ => false
                             end) (terms s).

(** section.c:1392-1416: step 1b for one span; the flag says that an error was reported *)
Definition first_look (s : span) (bs : list bcode) : dyn * list bcode * bool :=
  let d0 := Dyn (map (tval bs s) (terms s)) 0 (lo0 s) (hi0 s) On (forms s) in
  if circular s then (d0, bs, true)
  else
    let '(d1, over) := recalc s d0 in
    if over then
      let '(ret, d2, bs') := expand s d1 bs in
      if ret <? 0 then (with_cur (new_val s d2) d2, bs', true)
      else if 0 <? ret then
        (with_cur (new_val s d2) d2, bs', match act d2 with On => false | _ => true end)
      else (with_act Gone d2, bs', false)
    else (with_cur (new_val s d1) d1, bs, false).
(** section.c:1390-1417: step 1b *)
Fixpoint looks (ss : list span) (bs : list bcode) : list dyn * list bcode * bool :=
  match ss with
  | [] => ([], bs, false)
  | s :: r => let '(d, bs1, e1) := first_look s bs in
              let '(ds, bs2, e2) := looks r bs1 in
              (d :: ds, bs2, e1 || e2)
  end.
(** section.c:1430-1461: step 1d for one span; the flag says that it was queued *)
Definition second_look (s : span) (bs : list bcode) (d : dyn) : dyn * bool :=
  match act d with
  | Gone => (d, false)
  | _ => let '(d1, over) := recalc s (with_vals (map (tval bs s) (terms s)) d) in
         if over then (with_act Queued d1, true) else (d1, false)
  end.

(** The terms of all spans: span and position in its list. *)
Definition flat (ss : list span) : list (nat * nat) :=
  flat_map (fun k => map (fun j => (k, j)) (seq 0 (length (terms (nth k ss nospan))))) (seq 0 (length ss)).
Definition notgone (d : dyn) : bool := match act d with Gone => false | _ => true end.
(** section.c:1478-1484: the intervals put into the tree, with the place of the term in [flat] *)
Definition intervals (ss : list span) (ds : list dyn) : list (Z * Z * Z) :=
  flat_map (fun n => let '(k, j) := nth n (flat ss) (O, O) in
                     if notgone (nth k ds nodyn) then
                       match range (nth k ss nospan) (nth j (terms (nth k ss nospan)) (Rel 0)) with
                       | Some (l, h) => [(l, h, Z.of_nat n)]
                       | None => []
                       end
                     else []) (seq 0 (length (flat ss))).
Fixpoint insert_all (t : tree) (ops : list (Z * Z * Z)) : option tree :=
  match ops with [] => Some t | (l, h, d) :: r => match insert t l h d with Some t' => insert_all t' r | None => None end end.
(** IT_enumerate for one bytecode: the terms found, in the order of the callbacks *)
Definition across (ss : list span) (t : tree) (i : nat) : option (list (nat * nat)) :=
  match enumerate t (Z.of_nat i) (Z.of_nat i) with
  | Some out => Some (map (fun o => nth (Z.to_nat (snd o)) (flat ss) (O, O)) out)
  | None => None
  end.

(** section.c:1188-1261 check_cycle for the span [k] and a term of span [m]; [bts] are the
    backtraces (empty for NULL).  The duplicate test compares entries of the same list. *)
Definition check_cycle (ss : list span) (k m : nat) (bts : list (list nat)) : list (list nat) * bool :=
  if negb (any (nth m ss nospan)) then (bts, false)
  else
    let own := nth k bts [] in
    let err := existsb (Nat.eqb m) own in
    match nth m bts [] with
    | [] => (upd m (fun _ => own ++ [k]) bts, err)
    | dep =>
        let merged := fold_left (fun acc i =>
          if existsb (fun j => match nth_error own i, nth_error own j with Some a, Some b => Nat.eqb a b | _, _ => false end)
               (seq 0 (length acc))
          then acc else acc ++ [nth i own O]) (seq 0 (length own)) dep in
        (upd m (fun _ => merged ++ [k]) bts, err)
    end.
Fixpoint check_terms (ss : list span) (k : nat) (l : list (nat * nat)) (bts : list (list nat)) : list (list nat) * bool :=
  match l with
  | [] => (bts, false)
  | (m, _) :: r => let '(b1, e1) := check_cycle ss k m bts in
                   let '(b2, e2) := check_terms ss k r b1 in (b2, e1 || e2)
  end.
(** section.c:1486-1497: all spans *)
Fixpoint check_cycles (ss : list span) (ds : list dyn) (t : tree) (ks : list nat) (bts : list (list nat)) : option bool :=
  match ks with
  | [] => Some false
  | k :: r =>
      if any (nth k ss nospan) && notgone (nth k ds nodyn) then
        match across ss t (sbc (nth k ss nospan)) with
        | Some l => let '(b1, e1) := check_terms ss k l bts in
                    match check_cycles ss ds t r b1 with Some e2 => Some (e1 || e2) | None => None end
        | None => None
        end
      else check_cycles ss ds t r bts
  end.

(** The state of step 2; [oss] are the offset setters with cur_val (which equals new_val between
    rounds), [err] that an error was reported for one, [bad] is saw_error. *)
Record st := St { bcs : list bcode; dyns : list dyn; qa : list nat; qb : list nat; oss : list (nat * Z); err : bool; bad : bool }.
Definition set_dyn (k : nat) (d : dyn) (z : st) : st := St (bcs z) (upd k (fun _ => d) (dyns z)) (qa z) (qb z) (oss z) (err z) (bad z).
(** section.c:1263-1306 optimize_term_expand *)
Definition term_expand (ss : list span) (diff : Z) (z : st) (kj : nat * nat) : st :=
  let '(k, j) := kj in
  let s := nth k ss nospan in
  let d := nth k (dyns z) nodyn in
  match act d with
  | Gone | Off => z
  | m =>
      let d1 := with_vals (upd j (fun v => if forward s (nth j (terms s) (Rel 0)) then v + diff else v - diff) (vals d)) d in
      match m with
      | Queued => set_dyn k d1 z
      | _ => let '(d2, over) := recalc s d1 in
             if over then
               St (bcs z) (upd k (fun _ => with_act Queued d2) (dyns z))
                  (if any s then qa z ++ [k] else qa z) (if any s then qb z else qb z ++ [k]) (oss z) (err z) (bad z)
             else set_dyn k d2 z
      end
  end.
Definition touch (ss : list span) (t : tree) (i : nat) (diff : Z) (z : st) : option st :=
  match across ss t i with Some l => Some (fold_left (term_expand ss diff) l z) | None => None end.

(** What a round of the loop leads to: the next state, or the end of the program by
    yasm_internal_error; [None] would be a failure of the interval tree. *)
Inductive next := Go (z : st) | Crash.
(** section.c:1562-1592: the offset setters after bytecode [i], [done] being those before; [diff]
    is offset_diff *)
Fixpoint setters (ss : list span) (t : tree) (i : nat) (diff : Z) (done todo : list (nat * Z)) (z : st) : option next :=
  match todo with
  | [] => Some (Go (St (bcs z) (dyns z) (qa z) (qb z) done (err z) (bad z)))
  | (o, c) :: r =>
      if Nat.leb o i then setters ss t i diff (done ++ [(o, c)]) r z
      else
        let b := nth o (bcs z) nobc in
        if negb (Nat.eqb (sec b) (sec (nth i (bcs z) nobc))) || (diff =? 0) then
          Some (Go (St (bcs z) (dyns z) (qa z) (qb z) (done ++ (o, c) :: r) (err z) (bad z)))
        else if (diff <? 0) && (c <? - diff) then Some Crash
        else
          let n := c + diff in
          let '(len', e) := match setter b with
                            | Some f => match f n with Some len' => (len', false) | None => (blen b, true) end
                            | None => (blen b, true)
                            end in
          let z1 := St (upd o (with_len len') (bcs z)) (dyns z) (qa z) (qb z) (oss z) (err z || e) (bad z) in
          let diff' := n + len' - (c + blen b) in
          let ld := len' - blen b in
          match (if ld =? 0 then Some z1 else touch ss t o ld z1) with
          | Some z2 => setters ss t i diff' (done ++ [(o, n)]) r z2
          | None => None
          end
  end.
(** section.c:1522-1560: the span [k] taken from its queue *)
Definition round (ss : list span) (t : tree) (k : nat) (z : st) : option next :=
  let s := nth k ss nospan in
  let d := nth k (dyns z) nodyn in
  match act d with
  | Gone | Off => Some (Go z)
  | _ =>
      let '(d1, over) := recalc s (with_act On d) in
      if negb over then Some (Go (set_dyn k d1 z))
      else
        let orig := bsize (nth (sbc s) (bcs z) nobc) in
        let '(ret, d2, bs) := expand s d1 (bcs z) in
        if ret <? 0 then Some (Go (St (bcs z) (upd k (fun _ => d1) (dyns z)) (qa z) (qb z) (oss z) (err z) true))
        else
          let d3 := if 0 <? ret then with_cur (new_val s d2) d2 else with_act Off d2 in
          let z1 := St bs (upd k (fun _ => d3) (dyns z)) (qa z) (qb z) (oss z) (err z) (bad z) in
          let ld := bsize (nth (sbc s) bs nobc) - orig in
          if ld =? 0 then Some (Go z1)
          else match touch ss t (sbc s) ld z1 with
               | Some z2 => setters ss t (sbc s) ld [] (oss z2) z2
               | None => None
               end
  end.
Inductive result := Done (bs : list bcode) (ds : list dyn) | Error | Internal | OutOfFuel.
(** section.c:1504-1593: step 2, QA before QB *)
Fixpoint loop (fuel : nat) (ss : list span) (t : tree) (z : st) : result :=
  match fuel with
  | O => OutOfFuel
  | S f =>
      match qa z, qb z with
      | [], [] =>
          (* section.c:1595-1602: step 3 *)
          if bad z then Error
          else let '(bs, e) := offsets None 0 (bcs z) in if err z || e then Error else Done bs (dyns z)
      | k :: a, b =>
          match round ss t k (St (bcs z) (dyns z) a b (oss z) (err z) (bad z)) with
          | Some (Go z') => loop f ss t z' | Some Crash => Internal | None => Internal
          end
      | [], k :: b =>
          match round ss t k (St (bcs z) (dyns z) [] b (oss z) (err z) (bad z)) with
          | Some (Go z') => loop f ss t z' | Some Crash => Internal | None => Internal
          end
      end
  end.
(** section.c:1469-1476: the setters with their offsets *)
Definition setter_list (bs : list bcode) : list (nat * Z) :=
  flat_map (fun i => match setter (nth i bs nobc) with Some _ => [(i, boff (nth i bs nobc))] | None => [] end) (seq 0 (length bs)).
(** section.c:1308-1603 yasm_object_optimize, for the spans that step 1a collected; a bytecode's
    length is the one calc_len gave it (a setter's, its length at the offset reached), its count 0
    if it is a span's. *)
Definition optimize (fuel : nat) (ss : list span) (bs0 : list bcode) : result :=
  let '(bs1, e1) := offsets None 0 bs0 in
  if e1 then Error
  else
    let '(ds1, bs2, e2) := looks ss bs1 in
    if e2 then Error
    else
      let '(bs3, e3) := offsets None 0 bs2 in
      if e3 then Error
      else
        let look2 := map (fun '(s, d) => second_look s bs3 d) (combine ss ds1) in
        let ds := map fst look2 in
        let q := flat_map (fun k => if snd (nth k look2 (nodyn, false)) then [k] else []) (seq 0 (length look2)) in
        match q with
        | [] => Done bs3 ds
        | _ =>
            match insert_all Nil (intervals ss ds) with
            | None => Internal
            | Some t =>
                match check_cycles ss ds t (seq 0 (length ss)) (repeat [] (length ss)) with
                | None => Internal
                | Some true => Error
                | Some false => loop fuel ss t (St bs3 ds [] q (setter_list bs3) false false)
                end
            end
        end.
