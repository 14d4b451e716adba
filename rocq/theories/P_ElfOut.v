(** The ELF object file: a reader for ELF files as the specification, and proofs. *)
From Coq Require Import ZArith List Bool Arith Lia Permutation.
From Verif Require Import Lib M_Elf P_Elf M_ElfOut.
Import ListNotations.
Open Scope Z_scope.

(** * Specification: reading an ELF file *)

(** Little-endian number, bytes [o .. o+n-1] of a file, and the number there. *)
Fixpoint val (b : list Z) : Z := match b with [] => 0 | x :: r => x + 256 * val r end.
Definition bytes_at (f : list Z) (o n : Z) : list Z := firstn (Z.to_nat n) (skipn (Z.to_nat o) f).
Definition num (f : list Z) (o n : Z) : Z := val (bytes_at f o n).
Definition signed64 (v : Z) : Z := if v <? 2 ^ 63 then v else v - 2 ^ 64.

(** The ELF header: identification, type (relocatable), machine; where the section headers are. *)
Definition is_elf (wide : bool) (f : list Z) : Prop :=
  bytes_at f 0 7 = [127; 69; 76; 70; if wide then 2 else 1; 1; 1] /\
  num f 16 2 = 1 /\ num f 18 2 = (if wide then 62 else 3) /\ num f 20 4 = 1 /\
  num f (if wide then 52 else 40) 2 = (if wide then 64 else 52) /\ num f (if wide then 58 else 46) 2 = (if wide then 64 else 40).
Definition shoff (wide : bool) (f : list Z) : Z := if wide then num f 40 8 else num f 32 4.
Definition shentsize (wide : bool) (f : list Z) : Z := num f (if wide then 58 else 46) 2.
Definition shnum (wide : bool) (f : list Z) : Z := num f (if wide then 60 else 48) 2.
Definition shstrndx (wide : bool) (f : list Z) : Z := num f (if wide then 62 else 50) 2.
(** Elf64_Shdr, Elf32_Shdr; the address is not kept *)
Definition read_header (wide : bool) (f : list Z) (o : Z) : header :=
  if wide then Header (num f o 4) (num f (o + 4) 4) (num f (o + 8) 8) (num f (o + 24) 8) (num f (o + 32) 8)
                 (num f (o + 40) 4) (num f (o + 44) 4) (num f (o + 48) 8) (num f (o + 56) 8)
  else Header (num f o 4) (num f (o + 4) 4) (num f (o + 8) 4) (num f (o + 16) 4) (num f (o + 20) 4)
                 (num f (o + 24) 4) (num f (o + 28) 4) (num f (o + 32) 4) (num f (o + 36) 4).
Definition headers (wide : bool) (f : list Z) : list header :=
  map (fun k => read_header wide f (shoff wide f + Z.of_nat k * shentsize wide f)) (seq 0 (Z.to_nat (shnum wide f))).
(** Elf64_Rela, Elf32_Rel *)
Definition read_reloc (wide : bool) (f : list Z) (o : Z) : reloc :=
  if wide then Reloc (num f o 8) (num f (o + 12) 4) (num f (o + 8) 4) (signed64 (num f (o + 16) 8))
  else Reloc (num f o 4) (num f (o + 4) 4 / 256) (num f (o + 4) 4 mod 256) 0.
(** Elf64_Sym, Elf32_Sym, with the name looked up in the string table *)
Record symview := SymView { w_name : option str; w_value : Z; w_size : Z; w_bind : Z; w_type : Z; w_vis : Z; w_shndx : Z }.
Definition read_symbol (wide : bool) (f names : list Z) (o : Z) : symview :=
  let info := num f (o + (if wide then 4 else 12)) 1 in
  SymView (string_at names (num f o 4))
    (if wide then num f (o + 8) 8 else num f (o + 4) 4) (if wide then num f (o + 16) 8 else num f (o + 8) 4)
    (info / 16) (info mod 16) (num f (o + (if wide then 5 else 13)) 1 mod 4) (num f (o + (if wide then 6 else 14)) 2).
(** A section as a reader sees it. *)
Inductive content := Nothing | Raw (b : list Z) | Rels (l : list reloc) | Syms (l : list symview).
Record view := View { v_name : option str; v_type : Z; v_flags : Z; v_size : Z; v_link : Z; v_info : Z; v_align : Z; v_entsize : Z; v_content : content }.
Definition stored (h : header) : list Z -> list Z := fun f => bytes_at f (h_offset h) (h_size h).
Definition entries (h : header) : list Z := map (fun k => h_offset h + Z.of_nat k * h_entsize h) (seq 0 (Z.to_nat (h_size h / h_entsize h))).
Definition nohdr : header := Header 0 0 0 0 0 0 0 0 0.
Definition read_content (wide : bool) (f : list Z) (hs : list header) (h : header) : content :=
  if (h_type h =? 0) || (h_type h =? 8) then Nothing
  else if h_type h =? 2 then Syms (map (read_symbol wide f (stored (nth (Z.to_nat (h_link h)) hs nohdr) f)) (entries h))
  else if h_type h =? (if wide then 4 else 9) then Rels (map (read_reloc wide f) (entries h))
  else Raw (stored h f).
Definition read_section (wide : bool) (f : list Z) (hs : list header) (h : header) : view :=
  View (string_at (stored (nth (Z.to_nat (shstrndx wide f)) hs nohdr) f) (h_name h)) (h_type h) (h_flags h) (h_size h) (h_link h) (h_info h)
    (h_align h) (h_entsize h) (read_content wide f hs h).
Definition read (wide : bool) (f : list Z) : list view := map (read_section wide f (headers wide f)) (headers wide f).

(** What should be read: the sections in order, each followed by its relocations if it has any. *)
Definition empty_section (s : section) : bool := o_type s =? 8.
Definition has_rels (s : section) : bool := negb (empty_section s) && match o_rels s with [] => false | _ => true end.
Definition sect_view (s : section) : view :=
  if empty_section s then View (Some (o_name s)) 8 (o_flags s) (o_size s) 0 0 (o_align s) (o_entsize s) Nothing
  else View (Some (o_name s)) (o_type s) (o_flags s) (Z.of_nat (length (o_data s))) 0 0 (o_align s) (o_entsize s) (Raw (o_data s)).
Definition rel_view (wide : bool) (k : Z) (s : section) : view :=
  let n := Z.of_nat (length (o_rels s)) in
  if wide then View (Some ([46; 114; 101; 108; 97] ++ o_name s)) 4 0 (24 * n) 3 k 8 24 (Rels (o_rels s))
  else View (Some ([46; 114; 101; 108] ++ o_name s)) 9 0 (8 * n) 3 k 4 8 (Rels (o_rels s)).
Fixpoint sect_views (wide : bool) (k : Z) (ss : list section) : list view :=
  match ss with
  | [] => []
  | s :: r => if has_rels s then sect_view s :: rel_view wide k s :: sect_views wide (k + 2) r else sect_view s :: sect_views wide (k + 1) r
  end.
(** The place of section [n] among the headers *)
Definition place (ss : list section) (n : nat) : Z := 4 + Z.of_nat n + Z.of_nat (length (filter has_rels (firstn n ss))).
Definition sym_view (wide : bool) (ss : list section) (names : list str) (y : symbol) : symview :=
  let m := if wide then 2 ^ 64 else 2 ^ 32 in
  SymView (Some (match y_name y with Some p => nth p names [] | None => [] end)) (y_value y mod m) (y_size y mod m) (y_bind y) (y_type y) (y_vis y)
    (match y_sect y with Some n => place ss n | None => y_index y end).
Definition zstrings (l : list str) : list Z := concat (map (fun s => s ++ [0]) l).
Definition section_names (wide : bool) (ss : list section) : list str :=
  [] :: map o_name ss ++ map (fun s => (if wide then [46; 114; 101; 108; 97] else [46; 114; 101; 108]) ++ o_name s) (filter has_rels ss) ++ [STRTAB; SYMTAB; SHSTRTAB].
Definition expected (wide : bool) (ss : list section) (names : list str) (syms : list symbol) (nlocal : Z) : list view :=
  let shnames := section_names wide ss in
  [ View (Some []) 0 0 0 0 0 0 0 Nothing;
    View (Some SHSTRTAB) 3 0 (Z.of_nat (length (zstrings shnames))) 0 0 0 0 (Raw (zstrings shnames));
    View (Some STRTAB) 3 0 (Z.of_nat (length (zstrings names))) 0 0 0 0 (Raw (zstrings names));
    (if wide then View (Some SYMTAB) 2 0 (24 * Z.of_nat (length syms)) 2 nlocal 8 24 (Syms (map (sym_view wide ss names) syms))
     else View (Some SYMTAB) 2 0 (16 * Z.of_nat (length syms)) 2 nlocal 4 16 (Syms (map (sym_view wide ss names) syms))) ]
  ++ sect_views wide 4 ss.

(** What the assembler hands to the writer. *)
Definition range (v n : Z) : Prop := 0 <= v < 2 ^ n.
Definition reloc_ok (wide : bool) (r : reloc) : Prop :=
  if wide then range (r_addr r) 64 /\ range (r_sym r) 32 /\ range (r_type r) 32 /\ - 2 ^ 63 <= r_addend r < 2 ^ 63
  else range (r_addr r) 32 /\ range (r_sym r) 24 /\ range (r_type r) 8 /\ r_addend r = 0.
Definition section_ok (wide : bool) (s : section) : Prop :=
  is_cstr (o_name s) /\ In (o_type s) [1; 3; 7; 8] /\ range (o_flags s) 32 /\ range (o_align s) 32 /\ range (o_entsize s) 32 /\
  range (o_size s) (if wide then 64 else 32) /\ Forall (reloc_ok wide) (o_rels s).
Definition symbol_ok (ss : list section) (names : list str) (y : symbol) : Prop :=
  range (y_bind y) 4 /\ range (y_type y) 4 /\ range (y_vis y) 2 /\ range (y_index y) 16 /\
  (forall p, y_name y = Some p -> (p < length names)%nat) /\ (forall n, y_sect y = Some n -> (n < length ss)%nat).

(** Sections with contents in the file. *)
Definition kept (h : header) : Prop := h_type h <> 0 /\ h_type h <> 8.
Definition table_type (h : header) : Prop := h_type h = 2 \/ h_type h = 4 \/ h_type h = 9.

(** * Bytes in a file *)
Lemma le_length : forall n v, length (le n v) = n.
Proof. induction n as [|n IH]; intro v; cbn [le length]; auto. Qed.
Lemma val_le : forall n v, val (le n v) = v mod 256 ^ Z.of_nat n.
Proof.
  induction n as [|n IH]; intro v.
  - cbn. rewrite Z.mod_1_r. reflexivity.
  - cbn [le val]. rewrite IH, Nat2Z.inj_succ, Z.pow_succ_r by lia.
    rewrite Z.rem_mul_r; [reflexivity|lia|]. apply Z.pow_pos_nonneg; lia.
Qed.
Definition has (f : list Z) (o : Z) (d : list Z) : Prop := exists a c, f = a ++ d ++ c /\ o = Z.of_nat (length a).
Lemma has_at : forall f o d n, has f o d -> n = Z.of_nat (length d) -> bytes_at f o n = d.
Proof.
  intros f o d n (a & c & -> & ->) ->. unfold bytes_at. rewrite !Nat2Z.id.
  rewrite skipn_app, skipn_all, Nat.sub_diag. cbn [app skipn]. rewrite firstn_app, firstn_all, Nat.sub_diag. cbn. apply app_nil_r.
Qed.
Lemma has_app : forall f o d x, has f o d -> has (f ++ x) o d.
Proof. intros f o d x (a & c & -> & ->). exists a, (c ++ x). split; [|reflexivity]. rewrite <- !app_assoc. reflexivity. Qed.
Lemma has_seek : forall f o d p, has f o d -> has (seek f p) o d.
Proof. intros. unfold seek. apply has_app. assumption. Qed.
Lemma has_end : forall f d, has (f ++ d) (Z.of_nat (length f)) d.
Proof. intros f d. exists f, []. rewrite app_nil_r. auto. Qed.
Lemma has_patch : forall f e o d, has f o d -> Z.of_nat (length e) <= o -> has (e ++ skipn (length e) f) o d.
Proof.
  intros f e o d (a & c & -> & ->) L. exists (e ++ skipn (length e) a), c. rewrite skipn_app.
  replace (length e - length a)%nat with O by lia. cbn [skipn]. rewrite <- !app_assoc. split; [reflexivity|].
  rewrite app_length, skipn_length. lia.
Qed.
Lemma has_split : forall f o x y, has f o (x ++ y) -> has f o x /\ has f (o + Z.of_nat (length x)) y.
Proof.
  intros f o x y (a & c & -> & ->). split.
  - exists a, (y ++ c). rewrite <- !app_assoc. auto.
  - exists (a ++ x), c. rewrite <- !app_assoc. split; [reflexivity|]. rewrite app_length. lia.
Qed.
Lemma has_num : forall f o n v k, has f o (le n v) -> k = Z.of_nat n -> num f o k = v mod 256 ^ k.
Proof. intros f o n v k H ->. unfold num. rewrite (has_at _ _ _ _ H) by (rewrite le_length; reflexivity). apply val_le. Qed.
Lemma val_app : forall x y, val (x ++ y) = val x + 256 ^ Z.of_nat (length x) * val y.
Proof.
  induction x as [|a x IH]; intro y; [cbn [app val length]; change (256 ^ Z.of_nat 0) with 1; lia|].
  cbn [app val length]. rewrite IH, Nat2Z.inj_succ, Z.pow_succ_r by lia. ring.
Qed.
Lemma word_length : forall wide v, Z.of_nat (length (word wide v)) = wordsize wide.
Proof. intros [|] v; reflexivity. Qed.
Lemma has_word : forall wide f o v, has f o (word wide v) -> range v 32 -> num f o (wordsize wide) = v.
Proof.
  intros wide f o v H R. unfold num. rewrite (has_at _ _ _ _ H) by (rewrite word_length; reflexivity).
  assert (E : val (le 4 v) = v) by (rewrite val_le; apply Z.mod_small; exact R).
  destruct wide; unfold word; [|exact E]. rewrite val_app, E. change (val (le 4 0)) with 0. lia.
Qed.
Lemma has_small : forall f o n v k, has f o (le n v) -> k = Z.of_nat n -> range v (8 * k) -> num f o k = v.
Proof.
  intros f o n v k H K R. rewrite (has_num _ _ _ _ _ H K). apply Z.mod_small. unfold range in R. rewrite Z.pow_mul_r in R by lia. exact R.
Qed.
Lemma int_length : forall wide v, Z.of_nat (length (int wide v)) = wordsize wide.
Proof. intros [|] v; reflexivity. Qed.
Lemma has_int : forall wide f o v, has f o (int wide v) -> num f o (wordsize wide) = v mod 2 ^ (8 * wordsize wide).
Proof. intros wide f o v H. rewrite (has_num _ _ _ _ (wordsize wide) H) by (destruct wide; reflexivity). destruct wide; reflexivity. Qed.
Ltac pieces_ H :=
  match type of H with
  | has _ _ (_ ++ _) => let A := fresh "P" in let B := fresh "Q" in
      destruct (has_split _ _ _ _ H) as [A B]; clear H;
      rewrite ?word_length, ?int_length, ?le_length in B; cbn [wordsize length Z.of_nat Pos.of_succ_nat Pos.succ] in B; rewrite <- ?Z.add_assoc in B; cbn [Z.add Pos.add Pos.succ Pos.add_carry] in B; pieces_ B
  | _ => idtac
  end.
Ltac pieces H := rewrite <- ?app_assoc in H; pieces_ H.

(** * The entries of tables *)
Definition header_ok (wide : bool) (h : header) : Prop :=
  range (h_name h) 32 /\ range (h_type h) 32 /\ range (h_flags h) 32 /\ range (h_offset h) 32 /\ range (h_size h) (if wide then 64 else 32) /\
  range (h_link h) 32 /\ range (h_info h) 32 /\ range (h_align h) 32 /\ range (h_entsize h) 32.
Lemma header_length : forall wide h, Z.of_nat (length (header_bytes wide h)) = shsize wide.
Proof. intros [|] h; reflexivity. Qed.
Ltac field w := first [ eapply has_small; [eassumption|reflexivity|assumption] | eapply (has_word w); [eassumption|assumption]
  | erewrite (has_int w) by eassumption; apply Z.mod_small; assumption ].
Lemma read_header_ok : forall wide f o h, has f o (header_bytes wide h) -> header_ok wide h -> read_header wide f o = h.
Proof.
  intros wide f o h H (R1 & R2 & R3 & R4 & R5 & R6 & R7 & R8 & R9). unfold header_bytes in H.
  destruct h as [a b c d e g i j k]. cbn [h_name h_type h_flags h_offset h_size h_link h_info h_align h_entsize] in *.
  destruct wide; pieces H; unfold read_header.
  - f_equal; field true.
  - f_equal; field false.
Qed.
Lemma reloc_length : forall wide r, Z.of_nat (length (reloc_bytes wide r)) = relsize wide.
Proof. intros [|] r; reflexivity. Qed.
Lemma read_reloc_ok : forall wide f o r, has f o (reloc_bytes wide r) -> reloc_ok wide r -> read_reloc wide f o = r.
Proof.
  intros wide f o [a y t d] H R. unfold reloc_bytes, reloc_ok in *. cbn [r_addr r_sym r_type r_addend] in *.
  destruct wide; destruct R as (R1 & R2 & R3 & R4).
  - pieces H. unfold read_reloc. f_equal; try (field true).
    match goal with Q : has f _ (le 8 d) |- _ => rewrite (has_num _ _ _ _ 8 Q) by reflexivity end. change (256 ^ 8) with (2 ^ 64). unfold signed64. destruct (Z.ltb_spec (d mod 2 ^ 64) (2 ^ 63)) as [L|L];
    destruct (Z.ltb_spec d 0) as [N|N].
    + rewrite <- (Z.mod_add d 1) in L by discriminate. rewrite Z.mod_small in L by lia. lia.
    + apply Z.mod_small. lia.
    + rewrite <- (Z.mod_add d 1) by discriminate. rewrite Z.mod_small by lia. lia.
    + rewrite Z.mod_small in L by lia. lia.
  - pieces H. unfold range in *. assert (E : num f (o + 4) 4 = y * 256 + t).
    { rewrite (has_num _ _ _ _ 4 Q) by reflexivity. rewrite Z.shiftl_mul_pow2 by lia. rewrite (Z.mod_small t) by lia. apply Z.mod_small. lia. }
    unfold read_reloc. rewrite E. f_equal.
    + eapply has_small; [eassumption|reflexivity|assumption].
    + rewrite Z.div_add_l by lia. rewrite Z.div_small by lia. lia.
    + rewrite Z.add_comm, Z.mod_add by lia. apply Z.mod_small. lia.
    + auto.
Qed.
Lemma symbol_length : forall wide st ix y, Z.of_nat (length (symbol_bytes wide st ix y)) = symsize wide.
Proof. intros [|] st ix y; reflexivity. Qed.
Lemma land_low : forall v n, range v n -> 0 <= n -> Z.land v (Z.ones n) = v.
Proof. intros v n R N. rewrite Z.land_ones by lia. apply Z.mod_small. exact R. Qed.
Lemma read_symbol_ok : forall wide f o st ix names y nm, has f o (symbol_bytes wide st ix y) ->
  range (match y_name y with Some p => str_index st p | None => 0 end) 32 ->
  string_at names (match y_name y with Some p => str_index st p | None => 0 end) = nm ->
  range (y_bind y) 4 -> range (y_type y) 4 -> range (y_vis y) 2 -> range (shndx ix y) 16 ->
  read_symbol wide f names o =
  SymView nm (y_value y mod 2 ^ (8 * wordsize wide)) (y_size y mod 2 ^ (8 * wordsize wide)) (y_bind y) (y_type y) (y_vis y) (shndx ix y).
Proof.
  intros wide f o st ix names y nm H R0 <- R1 R2 R3 R4. unfold symbol_bytes in H.
  change 15 with (Z.ones 4) in H. change 3 with (Z.ones 2) in H. rewrite (land_low (y_type y) 4 R2), (land_low (y_vis y) 2 R3) in H by lia.
  rewrite Z.shiftl_mul_pow2 in H by lia. unfold range in R1, R2, R3.
  assert (RI : range (y_bind y * 2 ^ 4 + y_type y) 8) by (unfold range; lia). assert (RV : range (y_vis y) 8) by (unfold range; lia).
  assert (D : (y_bind y * 2 ^ 4 + y_type y) / 16 = y_bind y) by (change (2 ^ 4) with 16; rewrite Z.div_add_l, Z.div_small by lia; lia).
  assert (M : (y_bind y * 2 ^ 4 + y_type y) mod 16 = y_type y) by (change (2 ^ 4) with 16; rewrite Z.add_comm, Z.mod_add by lia; apply Z.mod_small; lia).
  assert (V : y_vis y mod 4 = y_vis y) by (apply Z.mod_small; lia).
  destruct wide; pieces H; unfold read_symbol;
  repeat match goal with
  | Q : has f ?x (le 1 (y_bind y * 2 ^ 4 + y_type y)) |- _ => rewrite (has_small _ _ _ _ 1 Q eq_refl RI); clear Q
  | Q : has f ?x (le 1 (y_vis y)) |- _ => rewrite (has_small _ _ _ _ 1 Q eq_refl RV); clear Q
  | Q : has f ?x (le 2 _) |- _ => rewrite (has_small _ _ _ _ 2 Q eq_refl R4); clear Q
  | Q : has f ?x (le 8 _) |- _ => rewrite (has_num _ _ _ _ 8 Q eq_refl); clear Q
  | Q : has f ?x (le 4 (y_value y)) |- _ => rewrite (has_num _ _ _ _ 4 Q eq_refl); clear Q
  | Q : has f ?x (le 4 (y_size y)) |- _ => rewrite (has_num _ _ _ _ 4 Q eq_refl); clear Q
  | Q : has f ?x (le 4 _) |- _ => rewrite (has_small _ _ _ _ 4 Q eq_refl R0); clear Q
  end; rewrite D, M, V; reflexivity.
Qed.
Lemma has_nth : forall {A} (g : A -> list Z) (sz : Z) (l : list A), (forall x, Z.of_nat (length (g x)) = sz) ->
  forall f o k x, has f o (concat (map g l)) -> nth_error l k = Some x -> has f (o + Z.of_nat k * sz) (g x).
Proof.
  intros A g sz l G. induction l as [|y r IH]; intros f o [|k] x H N; try discriminate; cbn [map concat] in H; apply has_split in H; destruct H as [H1 H2].
  - injection N as ->. rewrite Z.add_0_r. exact H1.
  - rewrite G in H2. apply (IH _ _ _ _ H2) in N. rewrite Nat2Z.inj_succ. replace (o + Z.succ (Z.of_nat k) * sz) with (o + sz + Z.of_nat k * sz) by lia. exact N.
Qed.
Lemma concat_length : forall {A} (g : A -> list Z) (sz : Z) (l : list A), (forall x, Z.of_nat (length (g x)) = sz) ->
  Z.of_nat (length (concat (map g l))) = sz * Z.of_nat (length l).
Proof. intros A g sz l G. induction l as [|x r IH]; cbn [map concat length]; [lia|]. rewrite app_length, Nat2Z.inj_add, G, IH, Nat2Z.inj_succ. lia. Qed.
Lemma map_seq : forall {A} (h : nat -> A) (l : list A) m, (forall k x, nth_error l k = Some x -> h (m + k)%nat = x) -> map h (seq m (length l)) = l.
Proof.
  intros A h l. induction l as [|x r IH]; intros m H; [reflexivity|]. cbn [length seq map]. f_equal.
  - specialize (H O x eq_refl). rewrite Nat.add_0_r in H. exact H.
  - apply IH. intros k y N. specialize (H (S k) y N). rewrite Nat.add_succ_r in H. exact H.
Qed.
(** A table of entries is read back entry by entry. *)
Lemma read_table : forall {A B} (g : A -> list Z) (rd : Z -> B) (w : A -> B) (sz : Z) (l : list A) f h, (forall x, Z.of_nat (length (g x)) = sz) -> 0 < sz ->
  has f (h_offset h) (concat (map g l)) -> h_size h = sz * Z.of_nat (length l) -> h_entsize h = sz ->
  (forall x o, In x l -> has f o (g x) -> rd o = w x) -> map rd (entries h) = map w l.
Proof.
  intros A B g rd w sz l f h G S H Z E R. unfold entries. rewrite Z, E, Z.mul_comm, Z.div_mul, Nat2Z.id by lia. rewrite map_map.
  rewrite <- (map_length w l). apply map_seq. intros k y N. rewrite nth_error_map in N. destruct (nth_error l k) as [x|] eqn:X; [|discriminate]. injection N as <-.
  apply R; [eapply nth_error_In; exact X|]. exact (has_nth g sz l G _ _ _ _ H X).
Qed.
(** The ELF header. *)
Lemma ehdr_length : forall wide a b c, Z.of_nat (length (ehdr_bytes wide a b c)) = ehsize wide.
Proof. intros [|] a b c; reflexivity. Qed.
Lemma ehdr_ok : forall wide f a b c, has f 0 (ehdr_bytes wide a b c) -> range a 32 -> range b 16 -> range c 16 ->
  is_elf wide f /\ shoff wide f = a /\ shentsize wide f = shsize wide /\ shnum wide f = b /\ shstrndx wide f = c.
Proof.
  intros wide f a b c H A B C.
  assert (I7 : bytes_at f 0 7 = [127; 69; 76; 70; if wide then 2 else 1; 1; 1]).
  { destruct H as (x & y & -> & E). destruct x; [|cbn in E; lia]. destruct wide; reflexivity. }
  assert (N2 : forall o v, has f o (le 2 v) -> range v 16 -> num f o 2 = v) by (intros o v X Y; exact (has_small f o 2 v 2 X eq_refl Y)).
  assert (N4 : forall o v, has f o (le 4 v) -> range v 32 -> num f o 4 = v) by (intros o v X Y; exact (has_small f o 4 v 4 X eq_refl Y)).
  unfold ehdr_bytes in H. unfold is_elf, shoff, shentsize, shnum, shstrndx. rewrite I7.
  destruct wide; cbn [repeat ehsize shsize] in *.
  - pieces H. cbn [Z.add Pos.add Pos.succ] in *.
    assert (W : forall o v, has f o (word true v) -> range v 32 -> num f o 8 = v) by exact (has_word true f).
    split; [split; [reflexivity|]|].
    + split; [apply N2; [assumption|unfold range; lia]|]. split; [apply N2; [assumption|unfold range; lia]|].
      split; [apply N4; [assumption|unfold range; lia]|]. split; apply N2; (assumption || (unfold range; lia)).
    + split; [apply W; assumption|]. split; [apply N2; [assumption|unfold range; lia]|]. split; apply N2; assumption.
  - pieces H. cbn [Z.add Pos.add Pos.succ] in *.
    assert (W : forall o v, has f o (word false v) -> range v 32 -> num f o 4 = v) by exact (has_word false f).
    split; [split; [reflexivity|]|].
    + split; [apply N2; [assumption|unfold range; lia]|]. split; [apply N2; [assumption|unfold range; lia]|].
      split; [apply N4; [assumption|unfold range; lia]|]. split; apply N2; (assumption || (unfold range; lia)).
    + split; [apply W; assumption|]. split; [apply N2; [assumption|unfold range; lia]|]. split; apply N2; assumption.
Qed.
