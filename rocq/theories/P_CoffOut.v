(** The COFF object file: a reader for COFF files as the specification, and proofs. *)
From Coq Require Import ZArith List Bool Arith Lia.
From Verif Require Import Lib M_Elf P_Elf M_ElfOut P_ElfOut P_ElfOutR M_CoffReloc M_CoffOut.
Import ListNotations.
Open Scope Z_scope.

(** * Specification: reading a COFF file *)

(** The bytes before the first zero; the number that decimal digits mean. *)
Fixpoint cut (b : list Z) : str := match b with [] => [] | x :: r => if x =? 0 then [] else x :: cut r end.
Definition decimal (b : list Z) : Z := fold_left (fun a c => 10 * a + (c - 48)) b 0.

(** What a reader sees: symbols with their index in the table, relocations with the symbol they name. *)
Inductive auxv := NoAux | SectAux (size nrel : Z) | FileAux (s : option str).
Record csymv := CSymV { v_index : Z; v_name : option str; v_value : Z; v_section : Z; v_type : Z; v_class : Z; v_aux : auxv }.
Record crelv := CRelV { u_addr : Z; u_target : option csymv; u_type : Z }.
Record csectv := CSectV { w_name : option str; w_flags : Z; w_align : Z; w_size : Z; w_data : list Z; w_rels : list crelv }.
Record coffv := CoffV { f_machine : Z; f_time : Z; f_stripped : bool; f_sects : list csectv; f_syms : list csymv }.

Definition symptr (f : list Z) : Z := num f 8 4.
Definition symcount (f : list Z) : Z := num f 12 4.
(** The string table follows the symbols; the first four bytes, its length, count for the offsets. *)
Definition strings (f : list Z) : list Z := skipn (Z.to_nat (symptr f + 18 * symcount f)) f.
(** A name in a field of [n] bytes: if it begins with four zeros, the next four are an offset in the string table. *)
Definition read_name (f : list Z) (o n : Z) : option str :=
  if num f o 4 =? 0 then string_at (strings f) (num f (o + 4) 4) else Some (cut (bytes_at f o n)).
Definition read_sym (f : list Z) (i : Z) : csymv :=
  let o := symptr f + 18 * i in
  CSymV i (read_name f o 8) (num f (o + 8) 4) (num f (o + 12) 2) (num f (o + 14) 2) (num f (o + 16) 1)
    (if num f (o + 17) 1 =? 0 then NoAux
     else if num f (o + 16) 1 =? 103 then FileAux (read_name f (o + 18) 18)
     else SectAux (num f (o + 18) 4) (num f (o + 22) 2)).
Fixpoint read_syms (fuel : nat) (f : list Z) (i : Z) : list csymv :=
  match fuel with
  | O => []
  | S k => if symcount f <=? i then [] else read_sym f i :: read_syms k f (i + 1 + num f (symptr f + 18 * i + 17) 1)
  end.
Definition syms (f : list Z) : list csymv := read_syms (Z.to_nat (symcount f)) f 0.
Definition read_rel (f : list Z) (ys : list csymv) (o : Z) : crelv :=
  CRelV (num f o 4) (find (fun v => v_index v =? num f (o + 4) 4) ys) (num f (o + 8) 2).
(** Names of sections: for Windows "/" and a decimal offset in the string table. *)
Definition read_sect_name (w : bool) (f : list Z) (h : Z) : option str :=
  match cut (bytes_at f h 8) with
  | c :: ds => if w && (c =? 47) then string_at (strings f) (decimal ds) else Some (c :: ds)
  | [] => Some []
  end.
(** Many relocations: for Windows the first relocation holds their number, itself included. *)
Definition read_rels (w : bool) (f : list Z) (ys : list csymv) (h : Z) : list crelv :=
  let n := num f (h + 32) 2 in
  let p := num f (h + 24) 4 in
  if w && Z.testbit (num f (h + 36) 4) 24 && (n =? 65535)
  then map (fun k => read_rel f ys (p + 10 + 10 * Z.of_nat k)) (seq 0 (Z.to_nat (num f p 4 - 1)))
  else map (fun k => read_rel f ys (p + 10 * Z.of_nat k)) (seq 0 (Z.to_nat n)).
Definition align_of (flags : Z) : Z := let a := (flags / 2 ^ 20) mod 16 in if a =? 0 then 0 else 2 ^ (a - 1).
Definition plain (flags : Z) : Z := Z.land flags 4262461439.
Definition read_sect (w : bool) (f : list Z) (ys : list csymv) (h : Z) : csectv :=
  CSectV (read_sect_name w f h) (plain (num f (h + 36) 4)) (align_of (num f (h + 36) 4)) (num f (h + 16) 4)
    (if num f (h + 20) 4 =? 0 then [] else bytes_at f (num f (h + 20) 4) (num f (h + 16) 4)) (read_rels w f ys h).
Definition read_coff (w : bool) (f : list Z) : coffv :=
  CoffV (num f 0 2) (num f 4 4) (Z.testbit (num f 18 2) 3)
    (map (fun k => read_sect w f (syms f) (20 + 40 * Z.of_nat k)) (seq 0 (Z.to_nat (num f 2 2)))) (syms f).

(** * Specification: what is to be read *)
Definition uninit (s : csect) : bool := Z.land (s_flags s) 1023 =? 128.
Definition listed (all : bool) (y : csym) : bool := all || y_vis y || y_abs y || y_force y.
Definition storage (y : csym) : Z := if y_class y =? 0 then (if y_ext y then 2 else 3) else y_class y.
Definition size_of (s : csect) : Z := if uninit s then s_size s else Z.of_nat (length (s_data s)).
Definition aux_view (ss : list csect) (y : csym) : auxv :=
  match y_aux y with
  | None => NoAux
  | Some (AFile s) => FileAux (Some s)
  | Some ASect => match y_place y with
      | PSect n _ => match nth_error ss n with Some s => SectAux (size_of s) (Z.of_nat (length (s_rels s)) mod 65536) | None => SectAux 0 0 end
      | _ => SectAux 0 0 end
  end.
Definition sym_view (ss : list csect) (i : Z) (y : csym) : csymv :=
  CSymV i (Some (if y_abs y then [46; 97; 98; 115; 111; 108; 117; 116] else y_name y))
    (match y_place y with PSect _ o => o | PEqu v | PCommon v => v | _ => 0 end mod 2 ^ 32)
    (match y_place y with PSect n _ => Z.of_nat n + 1 | PEqu _ => 65535 | PNone => 65534 | _ => 0 end)
    (if y_func y && (y_type y =? 0) then 32 else y_type y) (storage y) (aux_view ss y).
(** For every symbol of the source what is in the table for it. *)
Fixpoint views (all : bool) (ss : list csect) (i : Z) (ys : list csym) : list (option csymv) :=
  match ys with
  | [] => []
  | y :: r => if listed all y then Some (sym_view ss i y) :: views all ss (i + match y_aux y with Some _ => 2 | None => 1 end) r
              else None :: views all ss i r
  end.
Fixpoint present {A} (l : list (option A)) : list A := match l with [] => [] | Some x :: r => x :: present r | None :: r => present r end.
Definition rel_view (vs : list (option csymv)) (q : creloc) : crelv := CRelV (q_addr q) (nth (q_sym q) vs None) (q_type q).
(** The sections; without Windows, names of more than 8 characters all become "/0", and only
    65535 relocations can be counted. *)
Definition sect_view (w : bool) (vs : list (option csymv)) (s : csect) : csectv :=
  CSectV (Some (if negb w && (8 <? Z.of_nat (length (s_name s))) then [47; 48] else s_name s)) (plain (s_flags s)) (Z.min (s_align s) 8192) (size_of s)
    (if uninit s then [] else s_data s)
    (map (rel_view vs) (if negb w && (65536 <=? Z.of_nat (length (s_rels s))) then firstn (Z.to_nat 65535) (s_rels s) else s_rels s)).
Definition expected (fl : flavour) (all : bool) (ts : Z) (ss : list csect) (ys : list csym) : coffv :=
  let all := all || win64 fl in
  let vs := views all ss 0 ys in
  CoffV (if i386 fl then 332 else 34404) (ts mod 2 ^ 32) (negb all) (map (sect_view (win fl) vs) ss) (present vs).

(** What the parser and the assembler guarantee, and the limits of the format. *)
Definition sect_ok (w : bool) (s : csect) : Prop :=
  is_cstr (s_name s) /\ (w = true -> hd 0 (s_name s) <> 47) /\
  range (s_flags s) 32 /\ Z.testbit (s_flags s) 24 = false /\ (s_align s = 0 \/ exists k, 0 <= k /\ s_align s = 2 ^ k) /\
  (uninit s = true -> s_rels s = [] /\ range (s_size s) 32) /\ (s_data s = [] -> s_rels s = []) /\
  Forall (fun q => range (q_addr q) 32 /\ range (q_type q) 16) (s_rels s).
Definition is_name (s : str) : Prop := Forall (fun x => 0 < x < 256) s /\ s <> [].
Definition sym_ok (ss : list csect) (y : csym) : Prop :=
  (if y_abs y then y_name y = [] /\ y_aux y = None else is_name (y_name y)) /\ range (y_class y) 8 /\ range (y_type y) 16 /\
  (match y_place y with PSect n _ => (n < length ss)%nat | _ => True end) /\
  (match y_aux y with Some (AFile s) => is_name s /\ y_class y = 103 | Some ASect => y_class y <> 103 | None => True end).

(** * Proofs *)
Lemma strncpy_length : forall n s, length (strncpy n s) = n.
Proof. induction n as [|n IH]; intros [|c s]; cbn [strncpy length]; auto. Qed.
Lemma strncpy_nil : forall n, strncpy n [] = repeat 0 n.
Proof. induction n as [|n IH]; cbn; congruence. Qed.
Lemma cut_zeros : forall n, cut (repeat 0 n) = [].
Proof. destruct n; reflexivity. Qed.
Lemma cut_strncpy : forall s n x, is_cstr s -> (length s <= n)%nat -> cut (strncpy n s ++ repeat 0 x) = s.
Proof.
  induction s as [|c s IH]; intros [|n] x C L; cbn [length] in L; try lia.
  - apply cut_zeros.
  - reflexivity.
  - inversion C; subst. cbn [strncpy app cut]. destruct (Z.eqb_spec c 0); [contradiction|]. rewrite IH; auto. lia.
Qed.
Lemma cut_strncpy0 : forall s n, is_cstr s -> (length s <= n)%nat -> cut (strncpy n s) = s.
Proof. intros s n C L. rewrite <- (app_nil_r (strncpy n s)). exact (cut_strncpy s n 0%nat C L). Qed.
Lemma has_shift : forall F p b x y o d, has F p b -> b = x ++ d ++ y -> o = p + Z.of_nat (length x) -> has F o d.
Proof. intros F p b x y o d H -> ->. apply has_split in H. destruct H as [_ H]. apply has_split in H. apply H. Qed.
Lemma skipn_twice : forall {A} n m (l : list A), skipn n (skipn m l) = skipn (m + n) l.
Proof. intros A n m. induction m as [|m IH]; intros [|x l]; cbn [skipn Nat.add]; auto. destruct n; reflexivity. Qed.
Lemma string_at_has : forall F p st o s, 0 <= p -> 0 <= o -> st = skipn (Z.to_nat p) F -> has F (p + o) (s ++ [0]) -> is_cstr s -> string_at st o = Some s.
Proof.
  intros F p st o s P O -> (a & c & -> & E) C. unfold string_at. rewrite skipn_twice.
  replace (Z.to_nat p + Z.to_nat o)%nat with (length a) by lia. rewrite skipn_app, skipn_all, Nat.sub_diag. cbn [app skipn].
  rewrite <- app_assoc. apply (cstr_self s c C).
Qed.

(** ** Decimal numbers *)
Lemma decimal_app : forall a b, decimal (a ++ [b]) = 10 * decimal a + (b - 48).
Proof. intros. unfold decimal. rewrite fold_left_app. reflexivity. Qed.
Lemma digits_ok : forall fuel v, 0 <= v < 10 ^ Z.of_nat fuel -> decimal (digits fuel v) = v /\ Forall (fun c => 48 <= c < 58) (digits fuel v) /\
  (forall k, v < 10 ^ Z.of_nat k -> (k > 0)%nat -> (length (digits fuel v) <= k)%nat).
Proof.
  induction fuel as [|n IH]; intros v R.
  - change (10 ^ Z.of_nat 0) with 1 in R. cbn [digits]. split; [unfold decimal; cbn; lia|]. split; [constructor|]. cbn. lia.
  - rewrite Nat2Z.inj_succ, Z.pow_succ_r in R by lia. cbn [digits]. destruct (Z.ltb_spec v 10) as [L|L].
    + split; [unfold decimal; cbn [fold_left]; lia|]. split; [constructor; [lia|constructor]|]. cbn. lia.
    + destruct (IH (v / 10)) as (D & FA & LE). { split; [apply Z.div_pos; lia|]. apply Z.div_lt_upper_bound; lia. }
      pose proof (Z.mod_pos_bound v 10). pose proof (Z.div_mod v 10). repeat match goal with |- _ /\ _ => split end.
      * rewrite decimal_app, D. lia.
      * apply Forall_app. split; [exact FA|]. constructor; [lia|constructor].
      * intros k K P. rewrite app_length. cbn [length]. destruct k as [|k]; [lia|]. rewrite Nat2Z.inj_succ, Z.pow_succ_r in K by lia.
        destruct k as [|k]; [change (10 ^ Z.of_nat 0) with 1 in K; lia|].
        assert (length (digits n (v / 10)) <= S k)%nat; [|lia]. apply LE; [|lia]. apply Z.div_lt_upper_bound; lia.
Qed.
Lemma dec_ok : forall v, 0 <= v < 10 ^ 7 -> decimal (dec v) = v /\ is_cstr (dec v) /\ (length (dec v) <= 7)%nat.
Proof.
  intros v R. destruct (digits_ok 20 v) as (D & FA & LE); [change (Z.of_nat 20) with 20; lia|]. split; [exact D|]. split.
  - unfold is_cstr. eapply Forall_impl; [|exact FA]. cbn. lia.
  - apply LE; [change (Z.of_nat 7) with 7; lia|lia].
Qed.

(** ** Flags *)
Lemma align_steps_add : forall n a f, align_steps n a f = f + align_steps n a 0.
Proof.
  induction n as [|n IH]; intros a f; cbn [align_steps]; [lia|]. destruct (a =? 0); [lia|]. rewrite IH, (IH _ (0 + _)). lia.
Qed.
Lemma align_steps_pow : forall k n, (k < n)%nat -> align_steps n (2 ^ Z.of_nat k) 0 = Z.of_nat (S k) * 2 ^ 20.
Proof.
  induction k as [|k IH]; intros [|n] L; try lia.
  - cbn [align_steps]. change (2 ^ Z.of_nat 0 =? 0) with false. cbv iota. change (Z.shiftr (2 ^ Z.of_nat 0) 1) with 0. destruct n; reflexivity.
  - cbn [align_steps]. destruct (Z.eqb_spec (2 ^ Z.of_nat (S k)) 0) as [E|_]; [pose proof (Z.pow_pos_nonneg 2 (Z.of_nat (S k))); lia|].
    rewrite Z.shiftr_div_pow2 by lia. replace (2 ^ Z.of_nat (S k) / 2 ^ 1) with (2 ^ Z.of_nat k).
    2:{ rewrite Nat2Z.inj_succ, Z.pow_succ_r by lia. change (2 ^ 1) with 2. rewrite Z.mul_comm, Z.div_mul by lia. reflexivity. }
    rewrite align_steps_add, IH by lia. change (Z.shiftl 1 20) with (2 ^ 20). lia.
Qed.
(** The alignment takes four bits. *)
Lemma align_field : forall a, (a = 0 \/ exists k, 0 <= k /\ a = 2 ^ k) -> exists j, 0 <= j < 15 /\
  align_steps 14 (if 8192 <? a then 8192 else a) 0 = j * 2 ^ 20 /\ Z.min a 8192 = if j =? 0 then 0 else 2 ^ (j - 1).
Proof.
  intros a [->|(k & K & ->)]; [exists 0; repeat split; lia|].
  destruct (Z.le_gt_cases k 13) as [L|L].
  - exists (k + 1). destruct (Z.ltb_spec 8192 (2 ^ k)) as [B|B].
    { assert (2 ^ k <= 2 ^ 13) by (apply Z.pow_le_mono_r; lia). lia. }
    split; [lia|]. rewrite <- (Z2Nat.id k K). rewrite align_steps_pow by lia. rewrite Z2Nat.id by lia. split; [lia|].
    destruct (Z.eqb_spec (k + 1) 0); [lia|]. replace (k + 1 - 1) with k by lia. lia.
  - exists 14. assert (2 ^ 14 <= 2 ^ k) by (apply Z.pow_le_mono_r; lia). destruct (Z.ltb_spec 8192 (2 ^ k)); [|lia].
    split; [lia|]. split; [reflexivity|]. cbn. lia.
Qed.
(** Clearing four bits and adding them is a combination of the bits. *)
Lemma field_add : forall f j, 0 <= j < 16 -> Z.land f (Z.lnot 15728640) + j * 2 ^ 20 = Z.lor (Z.land f (Z.lnot 15728640)) (Z.shiftl j 20).
Proof.
  intros f j J. rewrite Z.shiftl_mul_pow2 by lia. rewrite <- (Z.shiftl_mul_pow2 j 20) by lia. symmetry. rewrite <- Z.lxor_lor; [symmetry; apply Z.add_nocarry_lxor|];
  (apply Z.bits_inj'; intros n N; rewrite !Z.land_spec, Z.lnot_spec, Z.bits_0 by lia; change 15728640 with (Z.shiftl (Z.ones 4) 20); rewrite !Z.shiftl_spec by lia;
   destruct (Z.testbit j (n - 20)) eqn:B; [|rewrite andb_false_r; reflexivity];
   assert (20 <= n < 24);
   [ split; [destruct (Z.lt_ge_cases (n - 20) 0); [rewrite Z.testbit_neg_r in B by lia; discriminate|lia]|
     destruct (Z.lt_ge_cases (n - 20) 4); [lia|]; replace j with (Z.land j (Z.ones 4)) in B by (rewrite Z.land_ones by lia; apply Z.mod_small; lia);
     rewrite Z.land_spec, (Z.ones_spec_high 4) in B by lia; rewrite andb_false_r in B; discriminate]
   | rewrite Z.ones_spec_low by lia; cbn; rewrite andb_false_r; reflexivity]).
Qed.
