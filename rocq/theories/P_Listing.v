(** Specification of the listing file, and proofs (C90). *)
From Coq Require Import ZArith List Bool Lia.
From Verif Require Import Lib M_Listing.
Import ListNotations.
Open Scope Z_scope.

(** * Specification: a reader of listings *)
Inductive item := Byte (b : Z) | Open (rel : bool) | Close (rel : bool).
Inductive row :=
  | RText (n : Z) (t : list Z)
  | RGap (n a : Z) (t : list Z)
  | RBytes (n a : Z) (its : list item) (more rept : bool) (t : option (list Z)).
Definition dig (b c : Z) : option Z :=
  let d := if (48 <=? c) && (c <=? 57) then c - 48 else if (65 <=? c) && (c <=? 70) then c - 55 else -1 in
  if (0 <=? d) && (d <? b) then Some d else None.
Fixpoint read_num (b acc : Z) (l : list Z) : Z * list Z :=
  match l with c :: r => match dig b c with Some d => read_num b (acc * b + d) r | None => (acc, l) end | [] => (acc, []) end.
Fixpoint skip (l : list Z) : list Z := match l with 32 :: r => skip r | _ => l end.
Fixpoint after (p l : list Z) : option (list Z) :=
  match p, l with [], _ => Some l | x :: p, y :: l => if x =? y then after p l else None | _, [] => None end.
Fixpoint read_cells (l : list Z) : list item * list Z :=
  match l with
  | c :: r =>
      let go x r := let (i, s) := read_cells r in (x :: i, s) in
      if c =? 40 then go (Open true) r else if c =? 91 then go (Open false) r else if c =? 41 then go (Close true) r else if c =? 93 then go (Close false) r
      else match dig 16 c, r with
           | Some d, c2 :: r2 => match dig 16 c2 with Some d2 => let (i, s) := read_cells r2 in (Byte (16 * d + d2) :: i, s) | None => ([], l) end
           | _, _ => ([], l)
           end
  | [] => ([], [])
  end.
Definition width (its : list item) : Z := fold_right (fun x w => match x with Byte _ => 2 | _ => 1 end + w) 0 its.
Definition pad (w : Z) : list Z := repeat 32 (Z.to_nat (Z.abs (19 - w))).
Definition read_source (l : list Z) : option (option (list Z)) :=
  match l with [] => Some None | _ => match after [32; 32; 32; 32] l with Some t => Some (Some t) | None => None end end.
Definition read_row (l : list Z) : option row :=
  let (n, l1) := read_num 10 0 (skip l) in
  match after [32] l1 with
  | None => None
  | Some l2 =>
      match after (repeat 32 32%nat) l2 with
      | Some t => Some (RText n t)
      | None =>
          let (a, l3) := read_num 16 0 l2 in
          match after [32] l3 with
          | None => None
          | Some l4 =>
              match after ([60; 103; 97; 112; 62] ++ repeat 32 18%nat) l4 with
              | Some t => Some (RGap n a t)
              | None =>
                  let (its, l5) := read_cells l4 in
                  match after [45] l5 with
                  | Some l6 => option_map (RBytes n a its true false) (read_source l6)
                  | None =>
                      let (rept, l6) := match after [60; 114; 101; 112; 116; 62] l5 with Some l6 => (true, l6) | None => (false, l5) end in
                      match after (pad (width its + if rept then 6 else 0)) l6 with
                      | Some l7 => option_map (RBytes n a its false rept) (read_source l7)
                      | None => None
                      end
                  end
              end
          end
      end
  end.
(** The lines of a text. *)
Fixpoint cut (l : list Z) : list (list Z) :=
  match l with [] => [] | c :: r => if c =? 10 then [] :: cut r else match cut r with [] => [[c]] | h :: t => (c :: h) :: t end end.
Fixpoint read_rows (l : list (list Z)) : option (list row) :=
  match l with [] => Some [] | x :: l => match read_row x, read_rows l with Some r, Some rs => Some (r :: rs) | _, _ => None end end.
Definition read_listing (text : list Z) : option (list row) := read_rows (cut text).
Definition rnum (r : row) : Z := match r with RText n _ | RGap n _ _ | RBytes n _ _ _ _ _ => n end.
(** The bytes, and where the brackets are: position, opening or closing, round or square. *)
Fixpoint bytes_of (its : list item) : list Z := match its with [] => [] | Byte b :: r => b :: bytes_of r | _ :: r => bytes_of r end.
Fixpoint marks (pos : Z) (its : list item) : list (Z * bool * bool) :=
  match its with [] => [] | Byte _ :: r => marks (pos + 1) r | Open x :: r => (pos, true, x) :: marks pos r | Close x :: r => (pos, false, x) :: marks pos r end.
(** The rows of a bytecode: every row has bytes, all but the last end with a hyphen and are full, the last says
    whether there are more copies, the first has the source. *)
Inductive chunks (off mult : Z) : option (list Z) -> list item -> list row -> Prop :=
  | chunks_none : forall src, chunks off mult src [] []
  | chunks_last : forall src n its, bytes_of its <> [] -> chunks off mult src its [RBytes n off its false (1 <? mult) src]
  | chunks_more : forall src n its rest rs, bytes_of its <> [] -> 18 <= width its <= 21 -> bytes_of rest <> [] -> chunks off mult None rest rs ->
      chunks off mult src (its ++ rest) (RBytes n off its true false src :: rs).
(** The first copy. *)
Definition copy_of (b : lbc) (c : list Z) : Prop := (lmult b <= 0 /\ c = []) \/ (1 <= lmult b /\ Z.of_nat (length (ldata b)) = lmult b * Z.of_nat (length c) /\ exists r, ldata b = c ++ r).
Definition bc_shown (b : lbc) (src : option (list Z)) (g : list row) : Prop :=
  if lgap b then exists n, g = [RGap n (loffset b) (match src with Some t => t | None => [] end)]
  else exists c its, copy_of b c /\ bytes_of its = c /\ chunks (loffset b) (lmult b) src its g.
(** The source is given once, unless it is beside a gap. *)
Fixpoint bcs_shown (src : option (list Z)) (bcs : list lbc) (g : list row) : Prop :=
  match bcs with
  | [] => g = []
  | b :: bcs => exists g1 g2, g = g1 ++ g2 /\ bc_shown b src g1 /\ bcs_shown (if lgap b then src else match g1 with [] => src | _ => None end) bcs g2
  end.
Definition line_shown (l : sline) (g : list row) : Prop :=
  match ssrc l, sbcs l with
  | Some t, None => exists n, g = [RText n t]
  | Some t, Some (_, bcs) => bcs_shown (Some t) bcs g
  | None, _ => g = []
  end.
(** lines before the first without source *)
Fixpoint sourced (l : list sline) : list sline := match l with [] => [] | x :: l => match ssrc x with Some _ => x :: sourced l | None => [] end end.
Definition byte (b : Z) : Prop := 0 <= b < 256.
Definition bc_ok (b : lbc) : Prop := 0 <= loffset b < 2 ^ 64 /\ Forall byte (ldata b) /\ (1 <= lmult b -> (lmult b | Z.of_nat (length (ldata b)))).
Definition line_ok (l : sline) : Prop :=
  (forall t, ssrc l = Some t -> ~ In 10 t) /\ (forall q bcs, sbcs l = Some (q, bcs) -> Forall bc_ok bcs).

(** * Numbers *)
Definition fval (b acc : Z) (ds : list Z) : Z := fold_left (fun a d => a * b + d) ds acc.
Lemma fval_app : forall b acc l x, fval b acc (l ++ [x]) = fval b acc l * b + x.
Proof. intros b acc l x. unfold fval. rewrite fold_left_app. reflexivity. Qed.
Lemma digits_val : forall k b v, 1 < b -> 0 <= v -> fval b 0 (digits k b v) = v mod b ^ Z.of_nat k.
Proof.
  induction k as [|k IH]; intros b v B V.
  - cbn. symmetry. apply Z.mod_1_r.
  - cbn [digits]. rewrite fval_app, IH by (auto; apply Z.div_pos; lia). rewrite Nat2Z.inj_succ, Z.pow_succ_r by lia. rewrite (Z.rem_mul_r v b) by (try lia; apply Z.pow_pos_nonneg; lia). lia.
Qed.
Lemma digits_length : forall k b v, length (digits k b v) = k.
Proof. induction k as [|k IH]; intros b v; [reflexivity|]. cbn [digits]. rewrite app_length, IH. cbn. lia. Qed.
Lemma digits_range : forall k b v, 0 < b -> Forall (fun d => 0 <= d < b) (digits k b v).
Proof. induction k as [|k IH]; intros b v B; [constructor|]. cbn [digits]. apply Forall_app. split; [apply IH; exact B|]. constructor; [apply Z.mod_pos_bound; exact B|constructor]. Qed.
Lemma strip_val : forall keep b l, fval b 0 (strip keep l) = fval b 0 l.
Proof.
  intros keep b. induction l as [|x l IH]; [reflexivity|]. cbn [strip]. destruct x; try reflexivity. destruct (keep <=? length l)%nat; [|reflexivity]. rewrite IH. unfold fval. cbn [fold_left]. reflexivity.
Qed.
Lemma strip_range : forall (P : Z -> Prop) keep l, Forall P l -> Forall P (strip keep l).
Proof. intros P keep. induction l as [|x l IH]; intros H; [constructor|]. cbn [strip]. destruct x; try exact H. destruct (keep <=? length l)%nat; [|exact H]. apply IH. inversion H; assumption. Qed.
Lemma strip_length : forall keep l, (keep <= length l)%nat -> (keep <= length (strip keep l))%nat.
Proof. intros keep. induction l as [|x l IH]; intros H; [exact H|]. cbn [strip]. destruct x; try exact H. destruct (Nat.leb_spec keep (length l)); [|exact H]. apply IH. assumption. Qed.
Lemma dig_chr : forall b d, 0 <= d < b -> b <= 16 -> dig b (chr d) = Some d.
Proof.
  intros b d H B. unfold dig, chr. destruct (Z.ltb_spec d 10).
  - replace ((48 <=? 48 + d) && (48 + d <=? 57)) with true by (symmetry; apply andb_true_iff; split; apply Z.leb_le; lia). replace (48 + d - 48) with d by lia. replace ((0 <=? d) && (d <? b)) with true; [reflexivity|]. symmetry. apply andb_true_iff. split; [apply Z.leb_le|apply Z.ltb_lt]; lia.
  - replace ((48 <=? 55 + d) && (55 + d <=? 57)) with false by (symmetry; apply andb_false_iff; right; apply Z.leb_gt; lia). replace ((65 <=? 55 + d) && (55 + d <=? 70)) with true by (symmetry; apply andb_true_iff; split; apply Z.leb_le; lia). replace (55 + d - 55) with d by lia. replace ((0 <=? d) && (d <? b)) with true; [reflexivity|]. symmetry. apply andb_true_iff. split; [apply Z.leb_le|apply Z.ltb_lt]; lia.
Qed.
Lemma read_digits : forall b ds acc rest, b <= 16 -> Forall (fun d => 0 <= d < b) ds -> (match rest with c :: _ => dig b c = None | [] => True end) -> read_num b acc (map chr ds ++ rest) = (fval b acc ds, rest).
Proof.
  intros b ds. induction ds as [|d ds IH]; intros acc rest B H R.
  - cbn [map app]. unfold fval. cbn [fold_left]. destruct rest as [|c rest]; [reflexivity|]. cbn [read_num]. rewrite R. reflexivity.
  - inversion H; subst. cbn [map app read_num]. rewrite dig_chr by assumption. rewrite IH by assumption. reflexivity.
Qed.
Lemma chr_range : forall d, 0 <= d < 16 -> 48 <= chr d <= 57 \/ 65 <= chr d <= 70.
Proof. intros d H. unfold chr. destruct (Z.ltb_spec d 10); lia. Qed.
Lemma skip_spaces : forall n d, (match d with c :: _ => c <> 32 | [] => True end) -> skip (repeat 32 n ++ d) = d.
Proof. induction n as [|n IH]; intros d H; [|exact (IH d H)]. destruct d as [|c d]; [reflexivity|]. cbn [repeat app skip]. destruct c as [|p|p]; try reflexivity. do 6 (destruct p; try reflexivity). contradiction (H eq_refl). Qed.
Lemma num6_read : forall n rest, 0 <= n < 10 ^ 20 -> (match rest with c :: _ => dig 10 c = None | [] => True end) -> read_num 10 0 (skip (num6 n ++ rest)) = (n, rest).
Proof.
  intros n rest N R. unfold num6. cbv zeta. unfold spaces. rewrite <- app_assoc. rewrite skip_spaces.
  - rewrite read_digits by (try lia; try exact R; apply strip_range, digits_range; lia). f_equal. rewrite strip_val, digits_val by lia. apply Z.mod_small. exact N.
  - assert (L : (1 <= length (strip 1 (digits 20 10 n)))%nat) by (apply strip_length; rewrite digits_length; lia). assert (F : Forall (fun d => 0 <= d < 10) (strip 1 (digits 20 10 n))) by (apply strip_range, digits_range; lia).
    destruct (strip 1 (digits 20 10 n)) as [|d ds]; [cbn in L; lia|]. inversion F; subst. cbn [map app]. pose proof (chr_range d ltac:(lia)). lia.
Qed.
Lemma hex8_read : forall n rest, 0 <= n < 2 ^ 64 -> (match rest with c :: _ => dig 16 c = None | [] => True end) -> read_num 16 0 (hex8 n ++ rest) = (n, rest).
Proof.
  intros n rest N R. unfold hex8. rewrite read_digits by (try lia; try exact R; apply strip_range, digits_range; lia). f_equal. rewrite strip_val, digits_val by lia. apply Z.mod_small. exact N.
Qed.
Lemma hex8_head : forall n, exists c r, hex8 n = c :: r /\ c <> 32.
Proof.
  intros n. unfold hex8. assert (L : (8 <= length (strip 8 (digits 16 16 n)))%nat) by (apply strip_length; rewrite digits_length; lia). assert (F : Forall (fun d => 0 <= d < 16) (strip 8 (digits 16 16 n))) by (apply strip_range, digits_range; lia).
  destruct (strip 8 (digits 16 16 n)) as [|d ds]; [cbn in L; lia|]. inversion F; subst. exists (chr d), (map chr ds). split; [reflexivity|]. pose proof (chr_range d ltac:(lia)). lia.
Qed.
Lemma after_app : forall p l, after p (p ++ l) = Some l.
Proof. induction p as [|x p IH]; intros l; [reflexivity|]. cbn [app after]. rewrite Z.eqb_refl. apply IH. Qed.
Lemma hex2_read : forall b rest, byte b -> read_cells (hex2 b ++ rest) = (let (i, s) := read_cells rest in (Byte b :: i, s)).
Proof.
  intros b rest B. unfold byte in B. unfold hex2. cbn [digits app map]. assert (D1 : 0 <= (b / 16) mod 16 < 16) by (apply Z.mod_pos_bound; lia). assert (D2 : 0 <= b mod 16 < 16) by (apply Z.mod_pos_bound; lia).
  pose proof (chr_range _ D1). pose proof (chr_range _ D2). cbn [read_cells]. repeat match goal with |- context [chr ?d =? ?k] => replace (chr d =? k) with false by (symmetry; apply Z.eqb_neq; lia) end. cbv zeta.
  rewrite !dig_chr by (auto; lia). destruct (read_cells rest). f_equal. f_equal. f_equal. rewrite (Z.mod_small (b / 16) 16) by (split; [apply Z.div_pos; lia|apply Z.div_lt_upper_bound; lia]). pose proof (Z.div_mod b 16). lia.
Qed.

(** * Rows *)
(** what is shown of the bytes, in one row *)
Definition opens (pos : Z) (rs : list reloc) : list item := match rs with r :: _ => if pos =? roff r then [Open (rrel r)] else [] | [] => [] end.
Definition closing (pos : Z) (rs : list reloc) : bool := match rs with r :: _ => pos + 1 =? u64 (roff r + rsize r) | [] => false end.
Definition closes (pos : Z) (rs : list reloc) : list item := if closing pos rs then match rs with r :: _ => [Close (rrel r)] | [] => [] end else [].
Fixpoint annot (pos : Z) (bs : list Z) (rs : list reloc) : list item :=
  match bs with [] => [] | b :: bs => opens pos rs ++ Byte b :: closes pos rs ++ annot (pos + 1) bs (if closing pos rs then tl rs else rs) end.
Lemma bytes_app : forall a b, bytes_of (a ++ b) = bytes_of a ++ bytes_of b.
Proof. induction a as [|x a IH]; intros b; [reflexivity|]. cbn [app bytes_of]. rewrite IH. destruct x; reflexivity. Qed.
Lemma bytes_opens : forall pos rs, bytes_of (opens pos rs) = [].
Proof. intros pos [|r rs]; [reflexivity|]. unfold opens. destruct (pos =? roff r); reflexivity. Qed.
Lemma bytes_closes : forall pos rs, bytes_of (closes pos rs) = [].
Proof. intros pos rs. unfold closes. destruct (closing pos rs); [|reflexivity]. destruct rs; reflexivity. Qed.
Lemma annot_bytes : forall bs pos rs, bytes_of (annot pos bs rs) = bs.
Proof. induction bs as [|b bs IH]; intros pos rs; [reflexivity|]. cbn [annot]. rewrite bytes_app, bytes_opens. cbn [app bytes_of]. rewrite bytes_app, bytes_closes, IH. reflexivity. Qed.
Lemma width_app : forall a b, width (a ++ b) = width a + width b.
Proof. induction a as [|x a IH]; intros b; [reflexivity|]. cbn [app]. unfold width in *. cbn [fold_right]. rewrite IH. lia. Qed.
Definition ends (t : list Z) : Prop := fst (read_cells t) = [] /\ snd (read_cells t) = t.
Definition mark_chr (x : item) : list Z := match x with Open r => [if r then 40 else 91] | Close r => [if r then 41 else 93] | Byte b => hex2 b end.
Lemma mark_read : forall x t, (forall b, x = Byte b -> byte b) -> read_cells (mark_chr x ++ t) = (let (i, s) := read_cells t in (x :: i, s)).
Proof. intros [b|r|r] t H; [exact (hex2_read b t (H b eq_refl))| |]; destruct r; reflexivity. Qed.
Lemma marks_read : forall its t, ends t -> Forall byte (bytes_of its) -> read_cells (flat_map mark_chr its ++ t) = (its, t).
Proof.
  induction its as [|x its IH]; intros t E F.
  - cbn [flat_map app]. destruct E as [E1 E2]. destruct (read_cells t). cbn in *. congruence.
  - cbn [flat_map]. rewrite <- app_assoc. assert (F' : Forall byte (bytes_of its)) by (destruct x; [inversion F; assumption|exact F|exact F]). rewrite mark_read; [rewrite (IH t E F'); reflexivity|]. intros b ->. inversion F; assumption.
Qed.
Definition wide (x : item) : Z := match x with Byte _ => 2 | _ => 1 end.
Lemma opens_small : forall pos rs, 0 <= width (opens pos rs) <= 1.
Proof. intros pos [|r rs]; [cbn; lia|]. unfold opens. destruct (pos =? roff r); cbn; lia. Qed.
Lemma closes_small : forall pos rs, 0 <= width (closes pos rs) <= 1.
Proof. intros pos rs. unfold closes. destruct (closing pos rs); [|cbn; lia]. destruct rs; cbn; lia. Qed.
Lemma cells_eq : forall i pos b bs rs, cells i pos (b :: bs) rs = if i <? 18 then
    let '(s, i2, p2, rest, rs2) := cells (i + width (opens pos rs) + 2 + width (closes pos rs)) (pos + 1) bs (if closing pos rs then tl rs else rs) in
    (flat_map mark_chr (opens pos rs) ++ hex2 b ++ flat_map mark_chr (closes pos rs) ++ s, i2, p2, rest, rs2)
  else ([], i, pos, b :: bs, rs).
Proof.
  intros i pos b bs rs. cbn [cells]. destruct (i <? 18); [|reflexivity]. unfold opens, closes, closing. destruct rs as [|r rs]; [reflexivity|].
  destruct (pos =? roff r), (pos + 1 =? u64 (roff r + rsize r)); reflexivity.
Qed.
Lemma cells_ok : forall bs i pos rs s i2 p2 rest rs2, cells i pos bs rs = (s, i2, p2, rest, rs2) ->
  exists its, s = flat_map mark_chr its /\ its ++ annot p2 rest rs2 = annot pos bs rs /\ bytes_of its ++ rest = bs /\ i2 = i + width its /\ (rest <> [] -> 18 <= i2) /\ (i <= 21 -> i2 <= 21) /\ (i < 18 -> bs <> [] -> bytes_of its <> []).
Proof.
  induction bs as [|b bs IH]; intros i pos rs s i2 p2 rest rs2 H.
  - cbn [cells] in H. injection H as <- <- <- <- <-. exists []. cbn. repeat split; try reflexivity; try lia; congruence.
  - rewrite cells_eq in H. destruct (Z.ltb_spec i 18).
    + destruct (cells _ _ bs _) as [[[[s' i'] p'] rest'] rs'] eqn:C in H. destruct (IH _ _ _ _ _ _ _ _ C) as (its & S & A & B & W & R & M & _). pose proof (opens_small pos rs). pose proof (closes_small pos rs).
      injection H as <- <- <- <- <-. exists (opens pos rs ++ Byte b :: closes pos rs ++ its). split.
      { rewrite flat_map_app. cbn [flat_map mark_chr]. rewrite flat_map_app, S, <- ?app_assoc. reflexivity. }
      split; [cbn [annot]; rewrite <- A, <- app_assoc; cbn [app]; rewrite <- app_assoc; reflexivity|].
      split; [rewrite bytes_app, bytes_opens; cbn [app bytes_of]; rewrite bytes_app, bytes_closes; cbn [app]; rewrite B; reflexivity|].
      split; [rewrite width_app; change (width (Byte b :: closes pos rs ++ its)) with (2 + width (closes pos rs ++ its)); rewrite width_app; lia|].
      split; [exact R|]. split; [intros _; apply M; lia|]. intros _ _. rewrite bytes_app, bytes_opens. discriminate.
    + injection H as <- <- <- <- <-. exists []. cbn [flat_map app bytes_of]. change (width []) with 0. repeat split; try reflexivity; try lia.
Qed.
Lemma ends_tail : forall more (rept : bool) w src, ends ((if more : bool then [45] else (if rept then [60; 114; 101; 112; 116; 62] else []) ++ pad w) ++ match src with Some t => repeat 32 4%nat ++ t | None => [] end).
Proof.
  intros more rept w src. unfold ends, pad. destruct more; [split; reflexivity|]. destruct rept; [split; reflexivity|]. cbn [app]. destruct (Z.to_nat (Z.abs (19 - w))); [|split; reflexivity]. destruct src; split; reflexivity.
Qed.
Lemma source_read : forall src, read_source (match src with Some t => repeat 32 4%nat ++ t | None => [] end) = Some src.
Proof. intros [t|]; reflexivity. Qed.
Lemma row_read : forall n off its (more rept : bool) src, 0 <= n < 10 ^ 20 -> 0 <= off < 2 ^ 64 -> Forall byte (bytes_of its) -> (more = true -> rept = false) -> bytes_of its <> [] ->
  read_row (num6 n ++ [32] ++ hex8 off ++ [32] ++ flat_map mark_chr its ++ (if more then [45] else (if rept then [60; 114; 101; 112; 116; 62] else []) ++ pad (width its + if rept then 6 else 0)) ++ match src with Some t => repeat 32 4%nat ++ t | None => [] end) = Some (RBytes n off its more rept src).
Proof.
  intros n off its more rept src N O F MR NB. unfold read_row. rewrite num6_read by (auto; reflexivity). rewrite (after_app [32]). destruct (hex8_head off) as (c & r & HC & C32).
  assert (A32 : forall x, after (repeat 32 32) (hex8 off ++ x) = None). { intros x. rewrite HC. cbn [repeat app after]. destruct (Z.eqb_spec 32 c); [congruence|reflexivity]. }
  rewrite A32. rewrite hex8_read by (auto; reflexivity). rewrite (after_app [32]).
  assert (AG : forall x, after ([60; 103; 97; 112; 62] ++ repeat 32 18) (flat_map mark_chr its ++ x) = None).
  { intros x. assert (Q : exists c s, flat_map mark_chr its = c :: s /\ c <> 60).
    { destruct its as [|y its]; [contradiction NB; reflexivity|]. cbn [flat_map]. destruct y as [b|b|b].
      - unfold hex2, mark_chr, hex2. cbn [digits app map]. eexists; eexists; split; [reflexivity|]. pose proof (chr_range ((b / 16) mod 16) ltac:(apply Z.mod_pos_bound; lia)). lia.
      - eexists; eexists; split; [reflexivity|]. destruct b; discriminate.
      - eexists; eexists; split; [reflexivity|]. destruct b; discriminate. }
    destruct Q as (q & s & -> & NQ). cbn [app after]. destruct (Z.eqb_spec 60 q); [congruence|reflexivity]. }
  rewrite AG. rewrite marks_read; [|apply ends_tail|exact F]. destruct more.
  - rewrite (MR eq_refl). rewrite (after_app [45]). rewrite source_read. reflexivity.
  - rewrite <- app_assoc. destruct rept.
    + change (after [45] ([60; 114; 101; 112; 116; 62] ++ pad (width its + 6) ++ match src with Some t => repeat 32 4 ++ t | None => [] end)) with (@None (list Z)). cbv iota. rewrite after_app. rewrite after_app. rewrite source_read. reflexivity.
    + cbn [app]. assert (NP : forall p, p <> 32 -> forall q, after (p :: q) (pad (width its + 0) ++ match src with Some t => repeat 32 4 ++ t | None => [] end) = None).
      { intros p PP q. unfold pad. cbn [after]. destruct (Z.to_nat (Z.abs (19 - (width its + 0)))); [destruct src; cbn [repeat app]; [|reflexivity]|cbn [repeat app]]; (destruct (Z.eqb_spec p 32); [congruence|reflexivity]). }
      rewrite !NP by discriminate. rewrite after_app, source_read. reflexivity.
Qed.

(** * The file *)
Fixpoint numbered (n : Z) (rs : list row) : Prop := match rs with [] => True | r :: rs => rnum r = n /\ numbered (n + 1) rs end.
Lemma numbered_app : forall a b n, numbered n a -> numbered (n + Z.of_nat (length a)) b -> numbered n (a ++ b).
Proof.
  induction a as [|x a IH]; intros b n A B.
  - cbn [length] in B. rewrite Z.add_0_r in B. exact B.
  - destruct A as [A1 A2]. cbn [app numbered]. split; [exact A1|]. apply IH; [exact A2|]. replace (n + 1 + Z.of_nat (length a)) with (n + Z.of_nat (length (x :: a))) by (cbn [length]; lia). exact B.
Qed.
Definition plainl (l : list Z) : Prop := Forall (fun c => c <> 10) l.
Lemma plain_app : forall a b, plainl a -> plainl b -> plainl (a ++ b).
Proof. intros a b A B. apply Forall_app. auto. Qed.
Lemma plain_spaces : forall n, plainl (repeat 32 n).
Proof. induction n; [constructor|]. constructor; [discriminate|assumption]. Qed.
Lemma plain_chr : forall ds, Forall (fun d => 0 <= d < 16) ds -> plainl (map chr ds).
Proof. intros ds H. unfold plainl. rewrite Forall_map. refine (Forall_impl _ _ H). intros d D. pose proof (chr_range d D). cbn. lia. Qed.
Lemma plain_num6 : forall n, plainl (num6 n).
Proof. intros n. unfold num6, spaces. apply plain_app; [apply plain_spaces|]. apply plain_chr. refine (Forall_impl _ _ (strip_range (fun d => 0 <= d < 10) 1 _ (digits_range 20 10 n ltac:(lia)))). cbn. lia. Qed.
Lemma plain_hex8 : forall n, plainl (hex8 n).
Proof. intros n. apply plain_chr. apply strip_range, digits_range. lia. Qed.
Lemma plain_items : forall its, plainl (flat_map mark_chr its).
Proof.
  induction its as [|x its IH]; [constructor|]. cbn [flat_map]. apply plain_app; [|exact IH]. destruct x as [b|r|r]; cbn [mark_chr].
  - apply plain_chr. apply digits_range. lia.
  - destruct r; (constructor; [discriminate|constructor]).
  - destruct r; (constructor; [discriminate|constructor]).
Qed.
Definition src_ok (src : option (list Z)) : Prop := match src with Some t => plainl t | None => True end.
Lemma plain_src : forall src, src_ok src -> plainl (match src with Some t => spaces 4 ++ t | None => [] end).
Proof. intros [t|] H; [|constructor]. apply plain_app; [apply plain_spaces|exact H]. Qed.
Ltac plain_lit := repeat (constructor; [discriminate|]); constructor.
Lemma rows_ok : forall fuel n off mult src pos bs rs ls n2 src2, rows fuel n off mult src pos bs rs = (ls, n2, src2) -> (length bs <= fuel)%nat -> Forall byte bs -> 0 <= off < 2 ^ 64 -> 0 <= n -> n + Z.of_nat (length ls) <= 10 ^ 20 -> src_ok src ->
  exists rws, map read_row ls = map Some rws /\ chunks off mult src (annot pos bs rs) rws /\ numbered n rws /\ n2 = n + Z.of_nat (length ls) /\ Forall plainl ls /\ src2 = match rws with [] => src | _ => None end.
Proof.
  induction fuel as [|fuel IH]; intros n off mult src pos bs rs ls n2 src2 H L FB O N NB SO.
  - destruct bs; [|cbn in L; lia]. cbn [rows] in H. injection H as <- <- <-. exists []. cbn. repeat split; try lia; constructor.
  - destruct bs as [|b bs]; [cbn [rows] in H; injection H as <- <- <-; exists []; cbn; repeat split; try lia; constructor|].
    remember (b :: bs) as all eqn:ALL. assert (H' : rows (S fuel) n off mult src pos all rs = (let '(s, i, pos, rest, rs) := cells 0 pos all rs in
      let tail := match rest with _ :: _ => [45] | [] => (if 1 <? mult then [60; 114; 101; 112; 116; 62] else []) ++ spaces (18 - (if 1 <? mult then i + 6 else i) + 1) end in
      let text := match src with Some t => spaces 4 ++ t | None => [] end in
      let '(ls, n2, src2) := rows fuel (n + 1) off mult None pos rest rs in ((num6 n ++ [32] ++ hex8 off ++ [32] ++ s ++ tail ++ text) :: ls, n2, src2))) by (subst all; reflexivity).
    rewrite H' in H. clear H'. destruct (cells 0 pos all rs) as [[[[s i] p2] rest] rs2] eqn:C. destruct (cells_ok _ _ _ _ _ _ _ _ _ C) as (its & S & A & B & W & R & M & NE). specialize (NE ltac:(lia) ltac:(subst all; discriminate)). cbv zeta in H.
    destruct (rows fuel (n + 1) off mult None p2 rest rs2) as [[ls' n'] src'] eqn:RR. assert (Q : ls = (num6 n ++ [32] ++ hex8 off ++ [32] ++ s ++ match rest with _ :: _ => [45] | [] => (if 1 <? mult then [60; 114; 101; 112; 116; 62] else []) ++ spaces (18 - (if 1 <? mult then i + 6 else i) + 1) end ++ match src with Some t => spaces 4 ++ t | None => [] end) :: ls' /\ n2 = n' /\ src2 = src') by (repeat split; congruence). destruct Q as (-> & -> & ->). clear H. cbn [length] in NB.
    assert (FA : Forall byte (bytes_of its) /\ Forall byte rest) by (apply Forall_app; rewrite B; exact FB). destruct FA as [FI FR].
    assert (LR : (length rest <= fuel)%nat). { assert (LA : length all = (length (bytes_of its) + length rest)%nat) by (rewrite <- B; apply app_length). destruct (bytes_of its); [congruence|]. cbn [length] in LA. lia. }
    destruct (IH (n + 1) off mult None p2 rest rs2 ls' n' src' RR LR FR O ltac:(lia) ltac:(lia) I) as (rws & MR & CH & NU & N2 & PL & SR).
    set (more := match rest with [] => false | _ => true end). set (rept := if more then false else 1 <? mult).
    assert (RD : read_row (num6 n ++ [32] ++ hex8 off ++ [32] ++ s ++ match rest with _ :: _ => [45] | [] => (if 1 <? mult then [60; 114; 101; 112; 116; 62] else []) ++ spaces (18 - (if 1 <? mult then i + 6 else i) + 1) end ++ match src with Some t => spaces 4 ++ t | None => [] end) = Some (RBytes n off its more rept src)).
    { rewrite <- (row_read n off its more rept src ltac:(lia) O FI ltac:(unfold rept; intros ->; reflexivity) NE). f_equal. do 4 f_equal. rewrite S. f_equal. unfold rept, more. f_equal. destruct rest; [|reflexivity]. f_equal. unfold spaces, pad. rewrite W. f_equal. f_equal. f_equal. destruct (1 <? mult); lia. }
    exists (RBytes n off its more rept src :: rws). cbn [map]. rewrite RD, MR. split; [reflexivity|]. split; [|split; [split; [reflexivity|exact NU]|split; [cbn [length]; lia|]]].
    + rewrite <- A. unfold rept, more. destruct rest as [|x rest].
      * assert (rws = []) by (destruct fuel; cbn [rows] in RR; injection RR as <- <- <-; destruct rws; [reflexivity|discriminate MR|reflexivity|discriminate MR]). subst rws. cbn [annot]. rewrite app_nil_r. apply chunks_last. exact NE.
      * apply chunks_more; [exact NE| |rewrite annot_bytes; discriminate|exact CH]. split; [specialize (R ltac:(discriminate)); lia|specialize (M ltac:(lia)); lia].
    + split.
      * constructor; [|exact PL]. apply plain_app; [apply plain_num6|]. apply plain_app; [plain_lit|]. apply plain_app; [apply plain_hex8|]. apply plain_app; [plain_lit|]. apply plain_app; [rewrite S; apply plain_items|]. apply plain_app; [|apply plain_src; exact SO]. destruct rest; [|plain_lit]. apply plain_app; [destruct (1 <? mult); plain_lit|apply plain_spaces].
      * rewrite SR. destruct rws; reflexivity.
Qed.
Lemma one_copy_ok : forall b, bc_ok b -> copy_of b (one_copy b) /\ Forall byte (one_copy b).
Proof.
  intros b (_ & F & D). unfold one_copy, copy_of. destruct (Z.leb_spec (lmult b) 0) as [L|L]; [split; [left; auto|constructor]|]. split.
  - right. split; [lia|]. specialize (D ltac:(lia)). destruct D as [k D]. assert (K : Z.of_nat (length (ldata b)) / lmult b = k) by (rewrite D; apply Z.div_mul; lia). rewrite K. assert (0 <= k) by nia. assert (KL : (Z.to_nat k <= length (ldata b))%nat) by nia. split; [|exists (skipn (Z.to_nat k) (ldata b)); symmetry; apply firstn_skipn]. rewrite firstn_length_le by exact KL. rewrite Z2Nat.id by lia. lia.
  - apply Forall_forall. intros x IX. rewrite Forall_forall in F. apply F. rewrite <- (firstn_skipn (Z.to_nat (Z.of_nat (length (ldata b)) / lmult b)) (ldata b)). apply in_or_app. left. exact IX.
Qed.
Lemma gap_read : forall n off src, 0 <= n < 10 ^ 20 -> 0 <= off < 2 ^ 64 -> read_row (num6 n ++ [32] ++ hex8 off ++ [32; 60; 103; 97; 112; 62] ++ spaces 18 ++ match src with Some t => t | None => [] end) = Some (RGap n off (match src with Some t => t | None => [] end)).
Proof.
  intros n off src N O. unfold read_row. rewrite num6_read by (auto; reflexivity). rewrite (after_app [32]). destruct (hex8_head off) as (c & r & HC & C32).
  assert (A32 : forall x, after (repeat 32 32) (hex8 off ++ x) = None). { intros x. rewrite HC. cbn [repeat app after]. destruct (Z.eqb_spec 32 c); [congruence|reflexivity]. }
  rewrite A32. rewrite hex8_read by (auto; reflexivity). reflexivity.
Qed.
Lemma bytecodes_ok : forall bcs n src next acc ls n2 next2, bytecodes bcs n src next acc = (ls, n2, next2) -> Forall bc_ok bcs -> 0 <= n -> n + Z.of_nat (length ls) <= 10 ^ 20 -> src_ok src ->
  exists rws, map read_row ls = map Some rws /\ bcs_shown src bcs rws /\ numbered n rws /\ n2 = n + Z.of_nat (length ls) /\ Forall plainl ls.
Proof.
  induction bcs as [|b bcs IH]; intros n src next acc ls n2 next2 H F N NB SO.
  - cbn [bytecodes] in H. injection H as <- <- <-. exists []. cbn. repeat split; try lia. constructor.
  - inversion F as [|? ? OB FB]; subst. cbn [bytecodes] in H. destruct (note next (loffset b) (lfields b) acc) as [nx ac] eqn:NO.
    destruct (if lgap b then _ else _) as [[ls1 n1] src1] eqn:R1 in H. destruct (bytecodes bcs n1 src1 nx ac) as [[ls2 n2'] nx2] eqn:R2. assert (Q : ls = ls1 ++ ls2 /\ n2 = n2' /\ next2 = nx2) by (repeat split; congruence). destruct Q as (-> & -> & ->). clear H. rewrite app_length, Nat2Z.inj_add in NB.
    assert (ONE : exists r1, map read_row ls1 = map Some r1 /\ bc_shown b src r1 /\ numbered n r1 /\ n1 = n + Z.of_nat (length ls1) /\ Forall plainl ls1 /\ src1 = (if lgap b then src else match r1 with [] => src | _ => None end)).
    { destruct (lgap b) eqn:G.
      - assert (Q : ls1 = [num6 n ++ [32] ++ hex8 (loffset b) ++ [32; 60; 103; 97; 112; 62] ++ spaces 18 ++ match src with Some t => t | None => [] end] /\ n1 = n + 1 /\ src1 = src) by (repeat split; congruence). destruct Q as (-> & -> & ->). clear R1. cbn [length] in *. exists [RGap n (loffset b) (match src with Some t => t | None => [] end)]. split; [cbn [map]; rewrite gap_read; [reflexivity|lia|exact (proj1 OB)]|].
        split; [unfold bc_shown; rewrite G; eauto|]. split; [split; [reflexivity|exact I]|]. split; [reflexivity|]. split; [|reflexivity]. constructor; [|constructor]. apply plain_app; [apply plain_num6|]. apply plain_app; [plain_lit|]. apply plain_app; [apply plain_hex8|]. apply plain_app; [plain_lit|]. apply plain_app; [apply plain_spaces|]. destruct src; [exact SO|constructor].
      - destruct (one_copy_ok b OB) as [CO CB]. destruct (rows_ok _ _ _ _ _ _ _ _ _ _ _ R1 ltac:(lia) CB (proj1 OB) N ltac:(lia) SO) as (r1 & A1 & A2 & A3 & A4 & A5 & A6). exists r1. split; [exact A1|]. split; [unfold bc_shown; rewrite G; exists (one_copy b), (annot 0 (one_copy b) ac); split; [exact CO|]; split; [apply annot_bytes|exact A2]|]. auto. }
    destruct ONE as (r1 & A1 & A2 & A3 & A4 & A5 & A6). assert (S1 : src_ok src1) by (rewrite A6; destruct (lgap b); [exact SO|]; destruct r1; [exact SO|exact I]).
    destruct (IH n1 src1 nx ac ls2 n2' nx2 R2 FB ltac:(lia) ltac:(lia) S1) as (r2 & B1 & B2 & B3 & B4 & B5). exists (r1 ++ r2). split; [rewrite !map_app, A1, B1; reflexivity|].
    split; [cbn [bcs_shown]; exists r1, r2; split; [reflexivity|]; split; [exact A2|]; rewrite <- A6; exact B2|]. assert (LE : length r1 = length ls1) by (rewrite <- (map_length Some r1), <- A1; apply map_length).
    split; [apply numbered_app; [exact A3|]; rewrite LE, <- A4; exact B3|]. split; [rewrite app_length; lia|]. apply Forall_app. auto.
Qed.
Lemma text_read : forall n t, 0 <= n < 10 ^ 20 -> read_row (num6 n ++ [32] ++ spaces 32 ++ t) = Some (RText n t).
Proof. intros n t N. unfold read_row. rewrite num6_read by (auto; reflexivity). reflexivity. Qed.
Lemma plain_notin : forall t, ~ In 10 t -> plainl t.
Proof. intros t H. apply Forall_forall. intros c IC Q. subst c. exact (H IC). Qed.
Lemma lines_ok : forall l n relocs, Forall line_ok l -> 0 <= n -> n + Z.of_nat (length (lines l n relocs)) <= 10 ^ 20 ->
  exists gs, map read_row (lines l n relocs) = map Some (concat gs) /\ numbered n (concat gs) /\ Forall2 line_shown (sourced l) gs /\ Forall plainl (lines l n relocs).
Proof.
  induction l as [|[src bcs] l IH]; intros n relocs F N NB.
  - exists []. cbn. repeat split; constructor.
  - inversion F as [|? ? [O1 O2] FL]; subst. cbn [ssrc M_Listing.sbcs] in O1, O2. destruct src as [t|]; [|exists []; cbn; repeat split; constructor]. specialize (O1 t eq_refl). apply plain_notin in O1. destruct bcs as [[q bcs]|].
    + cbn [lines] in *. destruct (bytecodes bcs n (Some t) (relocs q) []) as [[ls n2] next] eqn:B. rewrite app_length, Nat2Z.inj_add in NB. destruct (bytecodes_ok bcs n (Some t) (relocs q) [] ls n2 next B (O2 q bcs eq_refl) N ltac:(lia) O1) as (r1 & A1 & A2 & A3 & A4 & A5).
      destruct (IH n2 (fun s => if s =? q then next else relocs s) FL ltac:(lia) ltac:(lia)) as (gs & B1 & B2 & B3 & B4). exists (r1 :: gs). cbn [concat]. split; [rewrite !map_app, A1, B1; reflexivity|]. assert (LE : length r1 = length ls) by (rewrite <- (map_length Some r1), <- A1; apply map_length). split; [apply numbered_app; [exact A3|]; rewrite LE, <- A4; exact B2|].
      split; [cbn [sourced ssrc]; constructor; [exact A2|exact B3]|]. apply Forall_app. auto.
    + cbn [lines length] in *. destruct (IH (n + 1) relocs FL ltac:(lia) ltac:(lia)) as (gs & B1 & B2 & B3 & B4). exists ([RText n t] :: gs). change (concat ([RText n t] :: gs)) with (RText n t :: concat gs). cbn [map]. split; [rewrite text_read by lia; rewrite B1; reflexivity|]. split; [split; [reflexivity|exact B2]|]. split; [cbn [sourced ssrc]; constructor; [exists n; reflexivity|exact B3]|]. constructor; [|exact B4].
      apply plain_app; [apply plain_num6|]. apply plain_app; [plain_lit|]. apply plain_app; [apply plain_spaces|exact O1].
Qed.
Lemma cut_ok : forall ls, Forall plainl ls -> cut (flat_map (fun x => x ++ [10]) ls) = ls.
Proof.
  induction ls as [|x ls IH]; intros F; [reflexivity|]. inversion F as [|? ? PX FL]; subst. cbn [flat_map]. rewrite <- app_assoc. cbn [app]. specialize (IH FL). clear F FL. induction x as [|c x IX].
  - cbn [app cut]. rewrite IH. reflexivity.
  - inversion PX; subst. cbn [app cut]. destruct (Z.eqb_spec c 10); [congruence|]. rewrite IX by assumption. reflexivity.
Qed.
Lemma rows_some : forall ls rs, map read_row ls = map Some rs -> read_rows ls = Some rs.
Proof. induction ls as [|x ls IH]; intros [|r rs] H; try discriminate H; [reflexivity|]. cbn [map] in H. assert (read_row x = Some r /\ map read_row ls = map Some rs) as [A B] by (split; congruence). cbn [read_rows]. rewrite A, (IH rs B). reflexivity. Qed.
Theorem listing_ok : forall l relocs, Forall line_ok l -> Z.of_nat (length (listing l relocs)) < 2 ^ 64 ->
  exists gs, read_listing (listing l relocs) = Some (concat gs) /\ (forall k r, nth_error (concat gs) k = Some r -> rnum r = 1 + Z.of_nat k) /\ Forall2 line_shown (sourced l) gs.
Proof.
  intros l relocs F L. assert (LL : (length (lines l 1 relocs) <= length (listing l relocs))%nat).
  { unfold listing. induction (lines l 1 relocs) as [|x ls IH]; [cbn; lia|]. cbn [flat_map]. rewrite !app_length. cbn [length]. clear L. lia. }
  destruct (lines_ok l 1 relocs F ltac:(lia) ltac:(lia)) as (gs & A & B & C & D). exists gs. split; [unfold read_listing, listing; rewrite cut_ok by exact D; apply rows_some; exact A|]. split; [|exact C].
  clear - B. revert B. generalize 1. induction (concat gs) as [|r rs IH]; intros n B k x H; [destruct k; discriminate H|]. destruct B as [B1 B2]. destruct k as [|k]; [cbn in H; assert (r = x) by congruence; subst; lia|]. cbn [nth_error] in H. rewrite (IH (n + 1) B2 k x H). lia.
Qed.

(** * Brackets *)
(** fields in order, apart from each other, and not across the end of the copy *)
Fixpoint in_order (len pos : Z) (rs : list reloc) : Prop :=
  match rs with
  | [] => True
  | r :: rs => pos <= roff r /\ 1 <= rsize r /\ roff r + rsize r < 2 ^ 64 /\ (roff r < len -> roff r + rsize r <= len) /\ in_order len (roff r + rsize r) rs
  end.
Definition field_marks (r : reloc) : list (Z * bool * bool) := [(roff r, true, rrel r); (roff r + rsize r, false, rrel r)].
Definition within (len : Z) (r : reloc) : bool := roff r <? len.
Lemma marks_app : forall a b pos, marks pos (a ++ b) = marks pos a ++ marks (pos + Z.of_nat (length (bytes_of a))) b.
Proof.
  induction a as [|x a IH]; intros b pos.
  - cbn [app marks bytes_of length]. rewrite Z.add_0_r. reflexivity.
  - cbn [app]. destruct x; cbn [marks bytes_of length app]; rewrite IH; [replace (pos + 1 + Z.of_nat (length (bytes_of a))) with (pos + Z.of_nat (S (length (bytes_of a)))) by lia| |]; reflexivity.
Qed.
Lemma beyond : forall len rs pos, len <= pos -> in_order len pos rs -> filter (within len) rs = [].
Proof. intros len. induction rs as [|r rs IH]; intros pos L O; [reflexivity|]. destruct O as (A & B & C & D & E). cbn [filter]. unfold within at 1. destruct (Z.ltb_spec (roff r) len); [lia|]. apply (IH (roff r + rsize r)); [lia|exact E]. Qed.
Lemma annot_marks : forall bs pos rs len, len = pos + Z.of_nat (length bs) -> 0 <= pos ->
  (in_order len pos rs -> marks pos (annot pos bs rs) = flat_map field_marks (filter (within len) rs)) /\
  (forall r rs', rs = r :: rs' -> roff r < pos < roff r + rsize r -> roff r + rsize r <= len -> roff r + rsize r < 2 ^ 64 -> in_order len (roff r + rsize r) rs' -> marks pos (annot pos bs rs) = (roff r + rsize r, false, rrel r) :: flat_map field_marks (filter (within len) rs')).
Proof.
  induction bs as [|b bs IH]; intros pos rs len L P.
  - cbn [length] in L. split; [intros O; rewrite (beyond len rs pos) by (auto; lia); reflexivity|]. intros r rs' -> A B. lia.
  - cbn [length] in L. assert (L' : len = pos + 1 + Z.of_nat (length bs)) by lia. cbn [annot].
    assert (U : forall x, 0 <= x < 2 ^ 64 -> u64 x = x) by (intros x X; apply Z.mod_small; exact X).
    rewrite marks_app, bytes_opens. cbn [length app marks]. rewrite marks_app, bytes_closes. cbn [length]. rewrite !Z.add_0_r. split.
    + intros O. destruct rs as [|r rs]; [cbn [opens closes closing marks app]; exact (proj1 (IH (pos + 1) [] len L' ltac:(lia)) I)|]. destruct O as (A & B & C & D & E). unfold opens, closes, closing. rewrite U by lia.
      destruct (Z.eqb_spec pos (roff r)) as [Q|Q].
      * cbn [filter flat_map]. unfold within at 1. destruct (Z.ltb_spec (roff r) len); [|lia]. specialize (D ltac:(lia)). cbn [marks flat_map field_marks app]. destruct (Z.eqb_spec (pos + 1) (roff r + rsize r)) as [T|T].
        -- cbn [marks app tl]. rewrite <- T in E |- *. rewrite (proj1 (IH (pos + 1) rs len L' ltac:(lia)) E). rewrite Q. reflexivity.
        -- cbn [marks app]. rewrite (proj2 (IH (pos + 1) (r :: rs) len L' ltac:(lia)) r rs eq_refl) by (auto; lia). rewrite Q. reflexivity.
      * destruct (Z.eqb_spec (pos + 1) (roff r + rsize r)); [lia|]. cbn [marks app]. apply (proj1 (IH (pos + 1) (r :: rs) len L' ltac:(lia))). cbn [in_order]. repeat split; auto; lia.
    + intros r rs' -> A B C E. unfold opens, closes, closing. destruct (Z.eqb_spec pos (roff r)); [lia|]. cbn [marks app]. destruct (Z.eq_dec (roff r + rsize r) (pos + 1)) as [T|T].
      * rewrite U by lia. rewrite T, Z.eqb_refl. cbn [marks app tl]. rewrite T in E. rewrite (proj1 (IH (pos + 1) rs' len L' ltac:(lia)) E). reflexivity.
      * destruct (Z.eqb_spec (pos + 1) (u64 (roff r + rsize r))) as [X|X]; [rewrite U in X by lia; lia|]. cbn [marks app]. apply (proj2 (IH (pos + 1) (r :: rs') len L' ltac:(lia)) r rs' eq_refl); auto; lia.
Qed.
(** the address of a field *)
Definition faddr (b : lbc) (f : reloc) : Z := loffset b + roff f.
Lemma note_ok : forall p off fs acc later, (forall f, In f fs -> 0 <= off + roff f < 2 ^ 64) -> NoDup (map (fun f => off + roff f) fs) -> (forall f, In f fs -> ~ In (off + roff f) later) ->
  note (map (fun f => off + roff f) (filter p fs) ++ later) off fs acc = (later, acc ++ filter p fs).
Proof.
  intros p off. induction fs as [|f fs IH]; intros acc later A ND NI.
  - cbn. rewrite app_nil_r. reflexivity.
  - cbn [map] in ND. inversion ND as [|? ? N1 N2]; subst. assert (U : u64 (off + roff f) = off + roff f) by (apply Z.mod_small; apply A; left; reflexivity). cbn [filter]. destruct (p f) eqn:PF.
    + cbn [map app note]. rewrite U, Z.eqb_refl. rewrite IH; [rewrite <- app_assoc; reflexivity| |exact N2|]; intros g G; [apply A|apply NI]; right; exact G.
    + assert (SKIP : note (map (fun f => off + roff f) (filter p fs) ++ later) off (f :: fs) acc = note (map (fun f => off + roff f) (filter p fs) ++ later) off fs acc).
      { cbn [note]. destruct (map (fun f => off + roff f) (filter p fs) ++ later) as [|a r] eqn:Q; [reflexivity|]. rewrite U. destruct (Z.eqb_spec a (off + roff f)) as [E|E]; [exfalso|reflexivity].
        assert (IA : In a (map (fun f => off + roff f) (filter p fs) ++ later)) by (rewrite Q; left; reflexivity). apply in_app_or in IA. destruct IA as [IA|IA].
        - apply N1. rewrite <- E. apply in_map_iff in IA. destruct IA as (g & G1 & G2). apply filter_In in G2. rewrite <- G1. apply (in_map (fun f => off + roff f)). exact (proj1 G2).
        - apply (NI f (or_introl eq_refl)). rewrite <- E. exact IA. }
      rewrite SKIP. apply IH; [|exact N2|]; intros g G; [apply A|apply NI]; right; exact G.
Qed.
(** A line with one bytecode: the brackets are around the relocated fields of the first copy. *)
Theorem brackets_ok : forall b n t p later c, bc_ok b -> lgap b = false -> copy_of b c -> 0 <= n -> n + Z.of_nat (length c) <= 10 ^ 20 -> ~ In 10 t -> (forall f, In f (lfields b) -> 0 <= loffset b + roff f < 2 ^ 64) ->
  NoDup (map (faddr b) (lfields b)) -> (forall f, In f (lfields b) -> ~ In (faddr b f) later) -> in_order (Z.of_nat (length c)) 0 (filter p (lfields b)) ->
  exists ls rws its, bytecodes [b] n (Some t) (map (faddr b) (filter p (lfields b)) ++ later) [] = (ls, n + Z.of_nat (length ls), later) /\ map read_row ls = map Some rws /\
    chunks (loffset b) (lmult b) (Some t) its rws /\ bytes_of its = c /\ marks 0 its = flat_map field_marks (filter (within (Z.of_nat (length c))) (filter p (lfields b))).
Proof.
  intros b n t p later c OB G CO N NB NT FA ND NI IO. destruct (one_copy_ok b OB) as [CO' CB]. assert (EC : one_copy b = c).
  { destruct CO as [[A ->]|(A & B & r & C)], CO' as [[A' ->]|(A' & B' & r' & C')]; try lia; [reflexivity|]. assert (LL : length (one_copy b) = length c) by nia. rewrite C in C'. clear - C' LL. revert C' LL. generalize (one_copy b). intros x. revert x. induction c as [|y c IH]; intros [|z x] H L; try discriminate L; [reflexivity|]. cbn [app] in H. injection H as -> H. f_equal. apply IH; [exact H|]. cbn [length] in L. lia. }
  rewrite EC in CB. unfold faddr in *. cbn [bytecodes]. rewrite (note_ok p (loffset b) (lfields b) [] later FA ND NI). cbn [app]. rewrite G, EC. destruct (rows (length c) n (loffset b) (lmult b) (Some t) 0 c (filter p (lfields b))) as [[ls n2] s2] eqn:R.
  assert (LN : forall fuel n off mult src pos bs rs ls n2 s2, rows fuel n off mult src pos bs rs = (ls, n2, s2) -> (length ls <= fuel)%nat).
  { clear. induction fuel as [|fuel IH]; intros n off mult src pos bs rs ls n2 s2 H; [cbn [rows] in H; assert (ls = []) by congruence; subst; cbn; lia|]. destruct bs as [|b bs]; [cbn [rows] in H; assert (ls = []) by congruence; subst; cbn; lia|].
    cbn [rows] in H. destruct (cells 0 pos (b :: bs) rs) as [[[[s i] p2] rest] rs2]. destruct (rows fuel (n + 1) off mult None p2 rest rs2) as [[ls' n'] s'] eqn:Q. apply IH in Q. cbv zeta in H. match type of H with (?x :: ls', _, _) = _ => assert (E : ls = x :: ls') by congruence end. rewrite E. cbn [length]. lia. }
  pose proof (LN _ _ _ _ _ _ _ _ _ _ _ R) as LL. destruct (rows_ok _ _ _ _ _ _ _ _ _ _ _ R ltac:(lia) CB (proj1 OB) N ltac:(lia) (plain_notin t NT)) as (rws & A1 & A2 & A3 & A4 & A5 & A6).
  exists ls, rws, (annot 0 c (filter p (lfields b))). rewrite app_nil_r, A4. split; [reflexivity|]. split; [exact A1|]. split; [exact A2|]. split; [apply annot_bytes|]. exact (proj1 (annot_marks c 0 (filter p (lfields b)) (Z.of_nat (length c)) eq_refl ltac:(lia)) IO).
Qed.
(** Which lines are missing. *)
Theorem missing : forall src bcs rws, bcs_shown src bcs rws -> (rws = [] <-> Forall (fun b => lgap b = false /\ copy_of b []) bcs).
Proof.
  intros src bcs. revert src. induction bcs as [|b bcs IH]; intros src rws H.
  - cbn [bcs_shown] in H. subst rws. split; [constructor|reflexivity].
  - cbn [bcs_shown] in H. destruct H as (g1 & g2 & -> & B & R). apply IH in R. unfold bc_shown in B. destruct (lgap b) eqn:G.
    + destruct B as [n ->]. split; [discriminate|]. intros F. inversion F as [|? ? [Q _] _]; subst. congruence.
    + destruct B as (c & its & CO & BI & CH). split.
      * intros E. apply app_eq_nil in E. destruct E as [-> E2]. assert (its = []) by (inversion CH; reflexivity). subst its. cbn in BI. subst c. constructor; [auto|]. apply R. exact E2.
      * intros F. inversion F as [|? ? [_ Q] FB]; subst. assert (C0 : bytes_of its = []).
        { destruct CO as [[_ C]|(M & LE & r & D)]; [exact C|]. destruct Q as [[Q _]|(M' & LE' & _)]; [lia|]. cbn [length] in LE'. destruct (bytes_of its); [reflexivity|]. cbn [length] in LE. nia. }
        assert (g1 = []) by (inversion CH; subst; [reflexivity|congruence|rewrite bytes_app in C0; apply app_eq_nil in C0; destruct C0; congruence]). subst g1. cbn [app]. apply R. exact FB.
Qed.
