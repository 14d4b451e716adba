(** Data directives: specification and proofs (C26). *)
From Coq Require Import ZArith List Bool Lia Arith.
From Verif Require Import Lib LibBits M_BitVect P_BitVect P_BitVectIO M_Intnum P_Intnum P_IntnumIO M_Bytecode M_Data.
Import ListNotations.
Open Scope Z_scope.

(** * Specification *)
(** The [n] low bytes of a number, lowest first. *)
Fixpoint lebytes (n : nat) (z : Z) : list Z := match n with O => [] | S k => z mod 256 :: lebytes k (z / 256) end.
(** LEB128 (what it is: C06). *)
Definition leb_of (s : bool) (i : intnum) : list Z := match intnum_leb128 i s with Some l => l | None => [] end.
(** Zeros up to a multiple of the element size. *)
Definition up_to (size n : nat) : nat := ((size - n mod size) mod size)%nat.
(** One copy of an element written at [pos]. *)
Definition copy (outv : val -> nat -> Z -> option (list Z)) (size : nat) (arch : bool) (k : kind) (pos : Z) : list Z :=
  match k with
  | Empty => []
  | Value v => match early v with
               | Some i => if arch || (size =? 1)%nat then lebytes size (ival i)
                           else match outv v size pos with Some b => b | None => [] end
               | None => match outv v size pos with Some b => b | None => [] end
               end
  | Raw b => b ++ repeat 0 (up_to size (length b))
  | Uleb v => match late v with Some i => leb_of false i | None => [] end
  | Sleb v => match late v with Some i => leb_of true i | None => [] end
  | Reserve => repeat 0 size
  end.
Fixpoint copies (n : nat) (f : Z -> list Z) (pos : Z) : list Z :=
  match n with O => [] | S k => f pos ++ copies k f (pos + Z.of_nat (length (f pos))) end.
Definition reps (it : item) : nat := match mult it with Some (Some i) => Z.to_nat (ival i) | _ => 1%nat end.
(** What a directive stands for. *)
Fixpoint emit (outv : val -> nat -> Z -> option (list Z)) (size : nat) (arch zero : bool) (pos : Z) (l : list item) : list Z :=
  match l with
  | [] => []
  | it :: r => let b := copies (reps it) (copy outv size arch (what it)) pos ++ (if zero then [0] else []) in
               b ++ emit outv size arch zero (pos + Z.of_nat (length b)) r
  end.
(** The directives considered: elements of 1 to 32 bytes (0 for LEB128; less than 32 for what is
    left to the object format), constants canonical,
    counts from 1 to 2^32-1; no count on an element of no bytes. *)
Definition leb_ok (size : nat) (v : val) : Prop :=
  exists i, late v = Some i /\ canon i /\ match early v with Some j => j = i | None => size = 0%nat end.
Definition item_ok (size : nat) (it : item) : Prop :=
  (match mult it with None => True | Some (Some i) => canon i /\ 0 < ival i < 2 ^ 32 | Some None => False end) /\
  match what it with
  | Empty => True
  | Value v => (0 < size <= 32)%nat /\ match early v with Some i => canon i | None => (size < 32)%nat end
  | Raw b => (0 < size)%nat /\ (mult it <> None -> b <> [])
  | Uleb v => leb_ok size v
  | Sleb v => leb_ok size v
  | Reserve => mult it <> None -> (0 < size)%nat
  end.
Definition writer (outv : val -> nat -> Z -> option (list Z)) : Prop := forall v n pos, exists b, outv v n pos = Some b /\ length b = n.

(** * Encodings *)
Lemma lebytes_len : forall n z, length (lebytes n z) = n.
Proof. induction n; intros; cbn; auto. Qed.
Lemma lebytes_ok : forall n z, Forall byte (lebytes n z) /\ lev (lebytes n z) = z mod 256 ^ Z.of_nat n.
Proof.
  induction n as [|n IH]; intros z; [split; [constructor|cbn; rewrite Z.mod_1_r; auto]|]. cbn [lebytes lev]. destruct (IH (z / 256)) as [A B]. pose proof (Z.mod_pos_bound z 256 ltac:(lia)). split; [constructor; auto|].
  rewrite B, Nat2Z.inj_succ, Z.pow_succ_r, Z.rem_mul_r by (try apply Z.pow_pos_nonneg; lia). reflexivity.
Qed.
Lemma sized_ok : forall i size, canon i -> (0 < size <= 32)%nat -> sized i size = Some (lebytes size (ival i)).
Proof.
  intros i size C S. unfold sized. assert (FB : Forall byte (repeat 0 size)) by (apply Forall_forall; intros x H; apply repeat_spec in H; subst; unfold byte; lia).
  destruct (get_sized_ok i (repeat 0 size) (8 * Z.of_nat size) 0 1 C FB ltac:(lia) ltac:(lia) ltac:(rewrite repeat_length; lia)) as (out & i' & ws & E & B & L & T & _). rewrite E. f_equal. rewrite repeat_length in L, T. destruct (lebytes_ok size (ival i)) as [B' V']. apply lev_inj; auto; [rewrite lebytes_len; auto|]. rewrite V'.
  pose proof (lev_range out B) as R. rewrite L in R. change 256 with (2 ^ 8) in *. rewrite <- Z.pow_mul_r in * by lia. apply Z.bits_inj'. intros p P. destruct (Z.lt_ge_cases p (8 * Z.of_nat size)) as [Q|Q].
  - rewrite T by lia. change (Z.max 0 0) with 0. change (Z.max 0 (- 0)) with 0. rewrite Z.pow_0_r, Z.div_1_r, Z.sub_0_r, Z.mod_pow2_bits_low by lia. destruct (Z.leb_spec 0 p); [|lia]. destruct (Z.ltb_spec p (0 + 8 * Z.of_nat size)); [reflexivity|lia].
  - rewrite Z.mod_pow2_bits_high by lia. apply Z.testbit_false; [auto|]. rewrite Z.div_small; [reflexivity|]. pose proof (Z.pow_le_mono_r 2 (8 * Z.of_nat size) p ltac:(lia) Q). lia.
Qed.
Lemma pad_ok : forall size n, (0 < size)%nat -> (if (0 <? n mod size)%nat then repeat 0 (size - n mod size) else []) = repeat 0 (up_to size n).
Proof.
  intros size n S. unfold up_to. pose proof (Nat.mod_upper_bound n size ltac:(lia)). destruct (Nat.ltb_spec 0 (n mod size)).
  - rewrite (Nat.mod_small (size - _)) by lia. auto.
  - replace (size - n mod size)%nat with size by lia. rewrite Nat.mod_same by lia. auto.
Qed.
Lemma pad_len : forall size n, (0 < size)%nat -> ((n + size - 1) / size * size = n + up_to size n)%nat.
Proof.
  intros size n S. unfold up_to. pose proof (Nat.div_mod n size ltac:(lia)) as D. pose proof (Nat.mod_upper_bound n size ltac:(lia)) as U. set (q := (n / size)%nat) in *. set (r := (n mod size)%nat) in *.
  destruct (Nat.eq_dec r 0) as [Z|Z].
  - rewrite Z, Nat.sub_0_r, Nat.mod_same by lia. assert (E : ((n + size - 1) / size = q)%nat) by (symmetry; apply (Nat.div_unique _ _ _ (size - 1)); lia). rewrite E. lia.
  - rewrite (Nat.mod_small (size - r)) by lia. assert (E : ((n + size - 1) / size = q + 1)%nat) by (symmetry; apply (Nat.div_unique _ _ _ (r - 1)); lia). rewrite E. lia.
Qed.
Lemma leb_of_ok : forall s i, canon i -> intnum_leb128 i s = Some (leb_of s i) /\ intnum_size_leb128 i s = Z.of_nat (length (leb_of s i)) /\ leb_of s i <> [].
Proof.
  intros s i C. destruct (intnum_leb_ok i s C) as (l & E & _ & S & _ & D). unfold leb_of. rewrite E. split; auto. split; auto. intros ->. specialize (D []). cbn in D. discriminate.
Qed.

(** * The list as built in one pass *)
Definition zb (zero : bool) : list Z := if zero then [0] else [].
Inductive bent := BRaw (b : list Z) (m : option (option intnum)) | BVal (k : kind) (m : option (option intnum)).
Definition now (size : nat) (arch : bool) (k : kind) : option (list Z) :=
  match k with
  | Empty => Some []
  | Value v => match early v with Some i => if arch || (size =? 1)%nat then Some (lebytes size (ival i)) else None | None => None end
  | Raw b => Some (b ++ repeat 0 (up_to size (length b)))
  | Uleb v => match early v with Some i => Some (leb_of false i) | None => None end
  | Sleb v => match early v with Some i => Some (leb_of true i) | None => None end
  | Reserve => Some (repeat 0 size)
  end.
Definition raw_of (a : list Z) : list bent := match a with [] => [] | _ => [BRaw a None] end.
Fixpoint build (size : nat) (arch zero : bool) (acc : list Z) (l : list item) : list bent :=
  match l with
  | [] => raw_of acc
  | it :: r =>
      let '(pre, a0) := if flush it (length acc) then ([BRaw acc None], []) else ([], acc) in
      let '(mid, a1) := match now size arch (what it) with
                        | Some b => ([], a0 ++ b)
                        | None => (raw_of a0 ++ [BVal (what it) (mult it)], []) end in
      let '(post, a2) := if flush it (length a1) then ([BRaw a1 (mult it)], []) else ([], a1) in
      pre ++ mid ++ post ++ build size arch zero (a2 ++ zb zero) r
  end.
Definition shape (b : bent) : slot := match b with BRaw b m => SRaw (length b) m | BVal _ m => SVal m end.
Definition ent (size : nat) (b : bent) : entry := match b with BRaw b m => ERaw (map Some b) m | BVal k m => EVal (Some k) (vsize size) m end.

Lemma build_cons : forall size arch zero acc it r, build size arch zero acc (it :: r) =
  let '(pre, a0) := if flush it (length acc) then ([BRaw acc None], []) else ([], acc) in
  let '(mid, a1) := match now size arch (what it) with Some b => ([], a0 ++ b) | None => (raw_of a0 ++ [BVal (what it) (mult it)], []) end in
  let '(post, a2) := if flush it (length a1) then ([BRaw a1 (mult it)], []) else ([], a1) in
  pre ++ mid ++ post ++ build size arch zero (a2 ++ zb zero) r.
Proof. reflexivity. Qed.
Lemma shape_raw_of : forall a, (if (0 <? length a)%nat then [SRaw (length a) None] else []) = map shape (raw_of a).
Proof. intros [|x a]; reflexivity. Qed.
Lemma item_len : forall size arch it a, item_ok size it -> scan_item size arch it (length a) =
  match now size arch (what it) with Some b => Some ([], length (a ++ b)) | None => Some (map shape (raw_of a ++ [BVal (what it) (mult it)]), 0%nat) end.
Proof.
  intros size arch it a (_ & K). unfold scan_item, now. rewrite shape_raw_of. destruct (what it) as [|v|b|v|v|].
  - rewrite app_nil_r. auto.
  - destruct (early v); [|rewrite map_app; auto]. destruct (arch || (size =? 1)%nat); [|rewrite map_app; auto]. rewrite app_length, lebytes_len. auto.
  - destruct K as [K _]. destruct (Nat.eqb_spec size 0); [lia|]. rewrite pad_len by auto. rewrite !app_length, repeat_length. auto.
  - destruct K as (i & _ & C & E). destruct (early v) as [j|]; [|rewrite map_app; auto]. subst j. destruct (leb_of_ok false i C) as (_ & -> & _). rewrite app_length, Nat2Z.id. auto.
  - destruct K as (i & _ & C & E). destruct (early v) as [j|]; [|rewrite map_app; auto]. subst j. destruct (leb_of_ok true i C) as (_ & -> & _). rewrite app_length, Nat2Z.id. auto.
  - rewrite app_length, repeat_length. auto.
Qed.
Lemma scan_build : forall size arch zero l acc, Forall (item_ok size) l -> scan size arch zero (length acc) l = Some (map shape (build size arch zero acc l)).
Proof.
  intros size arch zero l. induction l as [|it r IH]; intros acc F; [cbn [scan build]; rewrite shape_raw_of; auto|]. apply Forall_cons_iff in F. destruct F as [F F']. cbn [scan]. rewrite build_cons.
  assert (P : exists pre a0, (if flush it (length acc) then ([BRaw acc None], []) else ([], acc)) = (pre, a0) /\ (if flush it (length acc) then ([SRaw (length acc) None], 0%nat) else ([], length acc)) = (map shape pre, length a0)).
  { destruct (flush it (length acc)); do 2 eexists; split; reflexivity. }
  destruct P as (pre & a0 & -> & ->). rewrite (item_len size arch it a0 F).
  assert (Q : exists mid a1, match now size arch (what it) with Some b => ([], a0 ++ b) | None => (raw_of a0 ++ [BVal (what it) (mult it)], []) end = (mid, a1) /\
     match now size arch (what it) with Some b => Some ([], length (a0 ++ b)) | None => Some (map shape (raw_of a0 ++ [BVal (what it) (mult it)]), 0%nat) end = Some (map shape mid, length a1)).
  { destruct (now size arch (what it)); do 2 eexists; split; reflexivity. }
  destruct Q as (mid & a1 & -> & ->).
  assert (R : exists post a2, (if flush it (length a1) then ([BRaw a1 (mult it)], []) else ([], a1)) = (post, a2) /\ (if flush it (length a1) then ([SRaw (length a1) (mult it)], 0%nat) else ([], length a1)) = (map shape post, length a2)).
  { destruct (flush it (length a1)); do 2 eexists; split; reflexivity. }
  destruct R as (post & a2 & -> & ->). specialize (IH (a2 ++ zb zero) F'). rewrite app_length in IH. replace (if zero then S (length a2) else length a2) with (length a2 + length (zb zero))%nat by (destruct zero; cbn; lia). rewrite IH, !map_app. reflexivity.
Qed.
Lemma build_head : forall size arch zero l acc, acc <> [] -> exists x m r, build size arch zero acc l = BRaw (acc ++ x) m :: r.
Proof.
  intros size arch zero l. induction l as [|it r IH]; intros acc N.
  - exists [], None, []. cbn [build]. destruct acc; [congruence|]. rewrite app_nil_r. auto.
  - rewrite build_cons. destruct (flush it (length acc)).
    + destruct (match now size arch (what it) with Some b => _ | None => _ end) as [mid a1]. destruct (if flush it (length a1) then _ else _) as [post a2]. exists [], None. rewrite app_nil_r. eexists. reflexivity.
    + destruct (now size arch (what it)) as [b|].
      * destruct (flush it (length (acc ++ b))); [exists b; do 2 eexists; reflexivity|]. cbn [app]. destruct (IH ((acc ++ b) ++ zb zero)) as (x & m & r' & E); [destruct acc; [congruence|discriminate]|]. rewrite E, <- !app_assoc. eauto.
      * exists [], None. rewrite app_nil_r. destruct acc; [congruence|]. cbn [flush length raw_of app]. destruct (if flush it 0 then _ else _) as [post a2]. eexists. reflexivity.
Qed.

(** * Both passes agree *)
Lemma close_ok : forall a m size, close (SRaw (length a) m) size a = ent size (BRaw a m).
Proof. intros. cbn [close ent]. rewrite Nat.sub_diag. cbn [repeat]. rewrite app_nil_r. auto. Qed.
Lemma write_ok : forall a b x m r, write (map shape (BRaw ((a ++ b) ++ x) m :: r)) a b = Some (a ++ b).
Proof. intros. cbn [map shape write]. rewrite !app_length. destruct (Nat.leb_spec (length a + length b) (length a + length b + length x)); [auto|lia]. Qed.
Lemma now_put : forall size it dvo done b arch, item_ok size it -> now size arch (what it) = Some b -> what it <> Empty ->
  fill_item size arch it dvo done = match write dvo done b with Some d => Some ([], dvo, d) | None => None end.
Proof.
  intros size it dvo done b arch (_ & K) N NE. unfold fill_item, now in *. destruct (what it) as [|v|c|v|v|]; [congruence| | | | |].
  - destruct K as [K1 K2]. destruct (early v); [|discriminate]. destruct (arch || (size =? 1)%nat); [|discriminate]. injection N as <-. rewrite sized_ok by auto. reflexivity.
  - destruct K as [K _]. injection N as <-. destruct (Nat.eqb_spec size 0); [lia|]. rewrite pad_ok by auto. reflexivity.
  - destruct K as (i & _ & C & E). destruct (early v) as [j|]; [|discriminate]. subst j. injection N as <-. destruct (leb_of_ok false i C) as (-> & _). reflexivity.
  - destruct K as (i & _ & C & E). destruct (early v) as [j|]; [|discriminate]. subst j. injection N as <-. destruct (leb_of_ok true i C) as (-> & _). reflexivity.
  - injection N as <-. reflexivity.
Qed.
Lemma defer_put : forall size arch it dvo done, now size arch (what it) = None -> fill_item size arch it dvo done =
  match (match done with [] => Some ([], dvo) | _ => step dvo size done end) with
  | Some (e, SVal m :: r) => Some (e ++ [EVal (Some (what it)) (vsize size) m], r, [])
  | _ => None end.
Proof.
  intros size arch it dvo done N. unfold fill_item, now in *. destruct (what it) as [|v|c|v|v|]; try discriminate.
  - destruct (early v); [|reflexivity]. destruct (arch || (size =? 1)%nat); [discriminate|reflexivity].
  - destruct (early v); [discriminate|reflexivity].
  - destruct (early v); [discriminate|reflexivity].
Qed.
Lemma now_bytes : forall size arch it b, item_ok size it -> mult it <> None -> non_empty (what it) = true -> now size arch (what it) = Some b -> b <> [].
Proof.
  intros size arch it b (_ & K) M NE N. unfold now in N. destruct (what it) as [|v|c|v|v|]; [discriminate| | | | |].
  - destruct K as [K _]. destruct (early v); [|discriminate]. destruct (arch || (size =? 1)%nat); [|discriminate]. injection N as <-. destruct size; [lia|discriminate].
  - destruct K as [_ K]. injection N as <-. specialize (K M). destruct c; [congruence|discriminate].
  - destruct K as (i & _ & C & E). destruct (early v) as [j|]; [|discriminate]. subst j. injection N as <-. apply (leb_of_ok false i C).
  - destruct K as (i & _ & C & E). destruct (early v) as [j|]; [|discriminate]. subst j. injection N as <-. apply (leb_of_ok true i C).
  - injection N as <-. specialize (K M). destruct size; [lia|discriminate].
Qed.
Lemma flush_true : forall it n, flush it n = true -> mult it <> None /\ non_empty (what it) = true /\ (0 < n)%nat.
Proof. intros it n H. unfold flush in H. rewrite !andb_true_iff in H. destruct H as [[A B] C]. apply Nat.ltb_lt in C. destruct (mult it); [|discriminate]. repeat split; auto. discriminate. Qed.
Lemma fill_cons : forall size arch zero o dvo done it r, fill size arch zero (o :: dvo) done (it :: r) =
  match (if flush it (length done) then step (o :: dvo) size done else Some ([], o :: dvo)) with
  | None => None
  | Some (e0, dvo0) =>
      match fill_item size arch it dvo0 (if flush it (length done) then [] else done) with
      | None => None
      | Some (e1, dvo1, done1) =>
          match (if flush it (length done1) then step dvo1 size done1 else Some ([], dvo1)) with
          | None => None
          | Some (e2, dvo2) =>
              match (if zero then write dvo2 (if flush it (length done1) then [] else done1) [0] else Some (if flush it (length done1) then [] else done1)) with
              | None => None
              | Some done3 => match fill size arch zero dvo2 done3 r with Some s => Some (e0 ++ e1 ++ e2 ++ s) | None => None end
              end
          end
      end
  end.
Proof. reflexivity. Qed.
(** the part of an iteration after the element itself *)
Lemma fill_rest : forall size arch zero it a1 r, item_ok size it ->
  (forall acc, fill size arch zero (map shape (build size arch zero acc r)) acc r = Some (map (ent size) (build size arch zero acc r))) ->
  forall post a2, (if flush it (length a1) then ([BRaw a1 (mult it)], []) else ([], a1)) = (post, a2) ->
  match (if flush it (length a1) then step (map shape (post ++ build size arch zero (a2 ++ zb zero) r)) size a1 else Some ([], map shape (post ++ build size arch zero (a2 ++ zb zero) r))) with
  | None => None
  | Some (e2, dvo2) =>
      match (if zero then write dvo2 (if flush it (length a1) then [] else a1) [0] else Some (if flush it (length a1) then [] else a1)) with
      | None => None
      | Some done3 => match fill size arch zero dvo2 done3 r with Some s => Some (e2 ++ s) | None => None end
      end
  end = Some (map (ent size) (post ++ build size arch zero (a2 ++ zb zero) r)).
Proof.
  intros size arch zero it a1 r K IH post a2 E. set (rest := build size arch zero (a2 ++ zb zero) r).
  assert (Z : (if zero then write (map shape rest) a2 [0] else Some a2) = Some (a2 ++ zb zero)).
  { unfold zb in *. destruct zero; [|rewrite app_nil_r; auto]. subst rest. destruct (build_head size arch true r (a2 ++ [0])) as (x & m & r' & ->); [destruct a2; discriminate|]. apply write_ok. }
  destruct (flush it (length a1)) eqn:Fl; injection E as <- <-.
  - cbn [app map step shape]. rewrite close_ok, Z. specialize (IH ([] ++ zb zero)). fold rest in IH. rewrite IH. reflexivity.
  - cbn [app]. rewrite Z. specialize (IH (a1 ++ zb zero)). fold rest in IH. rewrite IH. reflexivity.
Qed.
Lemma fill_build : forall size arch zero l acc, Forall (item_ok size) l -> fill size arch zero (map shape (build size arch zero acc l)) acc l = Some (map (ent size) (build size arch zero acc l)).
Proof.
  intros size arch zero l. induction l as [|it r IH]; intros acc F.
  - cbn [build]. destruct acc as [|x acc]; [reflexivity|]. cbn [raw_of map shape fill]. rewrite close_ok. reflexivity.
  - apply Forall_cons_iff in F. destruct F as [F F']. specialize (fun acc => IH acc F').
    assert (NE : build size arch zero acc (it :: r) = [] \/ build size arch zero acc (it :: r) <> []) by (destruct (build size arch zero acc (it :: r)); [auto|right; discriminate]). destruct NE as [NE|NE]; [rewrite NE; reflexivity|].
    destruct (map shape (build size arch zero acc (it :: r))) as [|o dvo] eqn:HD; [apply map_eq_nil in HD; congruence|].
    rewrite fill_cons, <- HD. clear HD o dvo. rewrite build_cons in *.
    (* leading flush *)
    assert (P : exists pre a0, (if flush it (length acc) then ([BRaw acc None], []) else ([], acc)) = (pre, a0) /\ (if flush it (length acc) then [] else acc) = a0 /\
       (pre <> [] -> flush it (length acc) = true) /\
       forall X, (if flush it (length acc) then step (map shape (pre ++ X)) size acc else Some ([], map shape (pre ++ X))) = Some (map (ent size) pre, map shape X)).
    { destruct (flush it (length acc)) eqn:Fl; do 2 eexists; (split; [reflexivity|]); (split; [reflexivity|]); split.
      - auto.
      - intros X. cbn [app map step shape]. rewrite close_ok. reflexivity.
      - congruence.
      - intros X. reflexivity. }
    destruct P as (pre & a0 & Epre & -> & PN & P). rewrite Epre in *.
    destruct (now size arch (what it)) as [b|] eqn:NW.
    + (* written at once *)
      destruct (if flush it (length (a0 ++ b)) then ([BRaw (a0 ++ b) (mult it)], []) else ([], a0 ++ b)) as [post a2] eqn:E2. cbn [app] in *. rewrite P.
      assert (W : fill_item size arch it (map shape (post ++ build size arch zero (a2 ++ zb zero) r)) a0 = Some ([], map shape (post ++ build size arch zero (a2 ++ zb zero) r), a0 ++ b)).
      { assert (WE : what it = Empty \/ what it <> Empty) by (destruct (what it); [auto|right; discriminate..]). destruct WE as [WE|WE].
        - unfold fill_item. rewrite WE in *. cbn in NW. injection NW as <-. rewrite app_nil_r. auto.
        - rewrite (now_put size it _ _ b arch F NW WE).
          assert (WR : write (map shape (post ++ build size arch zero (a2 ++ zb zero) r)) a0 b = Some (a0 ++ b)); [|rewrite WR; auto].
          destruct (flush it (length (a0 ++ b))); injection E2 as <- <-.
          + cbn [app]. replace (a0 ++ b) with ((a0 ++ b) ++ []) at 1 by apply app_nil_r. apply write_ok.
          + cbn [app] in *. assert (Q : (a0 ++ b) ++ zb zero = [] \/ (a0 ++ b) ++ zb zero <> []) by (destruct ((a0 ++ b) ++ zb zero); [auto|right; discriminate]). destruct Q as [Q|Q].
            * destruct pre as [|p0 pre].
              -- cbn [app] in NE. rewrite Q in *. apply app_eq_nil in Q. destruct Q as [Q _]. apply app_eq_nil in Q. destruct Q as [-> ->]. destruct (build size arch zero [] r) as [|[x m|k m] rr]; [congruence| |]; reflexivity.
              -- exfalso. destruct (flush_true _ _ (PN ltac:(discriminate))) as (M1 & M2 & _). apply (now_bytes size arch it b F M1 M2 NW). apply app_eq_nil in Q. destruct Q as [Q _]. apply app_eq_nil in Q. tauto.
            * destruct (build_head size arch zero r ((a0 ++ b) ++ zb zero) Q) as (x & m & rr & ->). rewrite <- app_assoc. apply write_ok. }
      rewrite W. clear W. pose proof (fill_rest size arch zero it (a0 ++ b) r F IH post a2 E2) as G. rewrite map_app with (l := pre). 
      destruct (if flush it (length (a0 ++ b)) then step _ size _ else _) as [[e2 dvo2]|]; [|discriminate]. destruct (if zero then write dvo2 _ [0] else _) as [done3|]; [|discriminate]. destruct (fill size arch zero dvo2 done3 r) as [s|]; [|discriminate]. injection G as <-. reflexivity.
    + (* left for later *)
      assert (FF : flush it (@length Z []) = false) by (unfold flush; cbn [length Nat.ltb Nat.leb]; apply andb_false_r).
      pose proof (fill_rest size arch zero it [] r F IH [] [] ltac:(rewrite FF; reflexivity)) as G. rewrite FF in *. rewrite <- !app_assoc. rewrite P. rewrite (defer_put size arch it _ _ NW).
      assert (D : match a0 with [] => Some ([], map shape (raw_of a0 ++ [BVal (what it) (mult it)] ++ [] ++ build size arch zero ([] ++ zb zero) r)) | _ => step (map shape (raw_of a0 ++ [BVal (what it) (mult it)] ++ [] ++ build size arch zero ([] ++ zb zero) r)) size a0 end
         = Some (map (ent size) (raw_of a0), SVal (mult it) :: map shape (build size arch zero (zb zero) r))).
      { destruct a0 as [|x a0]; [reflexivity|]. cbn [raw_of app map step shape]. rewrite close_ok. reflexivity. }
      rewrite D. rewrite FF. cbn [app] in G |- *.
      destruct (if zero then write _ [] [0] else _) as [done3|]; [|discriminate]. destruct (fill size arch zero _ done3 r) as [s|]; [|discriminate]. injection G as ->. rewrite !map_app. cbn [map ent]. rewrite <- !app_assoc. reflexivity.
Qed.

(** * What is written *)
Lemma create_ok : forall size arch zero l, Forall (item_ok size) l -> create_data size arch zero l = Some (map (ent size) (build size arch zero [] l)).
Proof. intros size arch zero l F. unfold create_data. pose proof (scan_build size arch zero l [] F) as S. cbn [length] in S. rewrite S. apply fill_build. auto. Qed.
Lemma read_some : forall b, read (map Some b) = Some b.
Proof. induction b as [|x b IH]; cbn; [auto|rewrite IH; auto]. Qed.
Definition mok (m : option (option intnum)) : Prop := match m with None => True | Some (Some i) => canon i /\ 0 < ival i < 2 ^ 32 | Some None => False end.
Definition mreps (m : option (option intnum)) : nat := match m with Some (Some i) => Z.to_nat (ival i) | _ => 1%nat end.
Lemma mult_ok : forall m, mok m -> dv_multiple (fin_mult m) = (Z.of_nat (mreps m), false) /\ (0 < mreps m)%nat.
Proof.
  intros [[i|]|] K; cbn [mok] in K; [|contradiction|split; [reflexivity|cbn; lia]]. destruct K as [C R]. cbn [fin_mult mreps]. destruct (tests_ok i C) as (Z0 & _ & _ & S). rewrite Z0. destruct (Z.eqb_spec (ival i) 0); [lia|]. cbn [dv_multiple]. rewrite S. destruct (Z.ltb_spec (Z.sgn (ival i)) 0); [lia|]. rewrite get_uint_ok by auto. cbv zeta. destruct (Z.ltb_spec (ival i) 0); [lia|]. destruct (Z.ltb_spec (ival i) (2 ^ 32)); [|lia]. split; [f_equal; lia|lia].
Qed.
Lemma copies_const : forall n b f pos, (forall p, f p = b) -> copies n f pos = concat (repeat b n).
Proof. induction n as [|n IH]; intros b f pos H; [auto|]. cbn [copies repeat concat]. rewrite H. f_equal. apply IH. auto. Qed.
Lemma now_copy : forall outv size arch it b pos, item_ok size it -> now size arch (what it) = Some b -> copy outv size arch (what it) pos = b.
Proof.
  intros outv size arch it b pos (_ & K) N. unfold now, copy in *. destruct (what it) as [|v|c|v|v|]; try (injection N as <-; reflexivity).
  - destruct (early v); [|discriminate]. destruct (arch || (size =? 1)%nat); [|discriminate]. injection N as <-. auto.
  - destruct K as (i & -> & _ & E). destruct (early v); [|discriminate]. subst. injection N as <-. auto.
  - destruct K as (i & -> & _ & E). destruct (early v); [|discriminate]. subst. injection N as <-. auto.
Qed.
Lemma repeat_copies : forall n f g pos, (forall p, f p = Some (g p)) -> repeat_pos n f pos = (copies n g pos, false).
Proof. induction n as [|n IH]; intros f g pos H; [auto|]. cbn [repeat_pos copies]. rewrite H, (IH f g) by auto. auto. Qed.
Lemma concat_nil : forall n, concat (repeat (@nil Z) n) = [].
Proof. induction n; cbn; auto. Qed.
Lemma vsize_id : forall n, (n < 32)%nat -> vsize n = n.
Proof. intros n H. unfold vsize. rewrite Nat.mod_small by lia. rewrite Nat.mul_comm. apply Nat.div_mul. discriminate. Qed.
Lemma later_bytes : forall outv size arch it n pos, writer outv -> (arch = true \/ (size < 32)%nat) -> item_ok size it -> now size arch (what it) = None ->
  entry_bytes outv (EVal (Some (what it)) (vsize size) (fin_mult (mult it))) n pos = Some (copies n (copy outv size arch (what it)) pos, false).
Proof.
  intros outv size arch it n pos W AR (_ & K) N. unfold now in N. destruct (what it) as [|v|c|v|v|]; try discriminate; cbn [entry_bytes].
  - assert (SZ : (size < 32)%nat) by (destruct AR as [-> |]; auto; destruct K as [_ K]; destruct (early v); [discriminate N|exact K]). rewrite vsize_id by exact SZ.
    f_equal. apply repeat_copies. intros p. cbn [copy]. destruct (W v size p) as (b & -> & _). destruct (early v); [|auto]. destruct (arch || (size =? 1)%nat); [discriminate|auto].
  - destruct K as (i & L & C & E). rewrite L. destruct (early v); [discriminate|]. subst size. destruct (leb_of_ok false i C) as (-> & _). cbn [repeat]. rewrite concat_nil, app_nil_r. rewrite (copies_const n (leb_of false i)); [auto|]. intros p. cbn [copy]. rewrite L. auto.
  - destruct K as (i & L & C & E). rewrite L. destruct (early v); [discriminate|]. subst size. destruct (leb_of_ok true i C) as (-> & _). cbn [repeat]. rewrite concat_nil, app_nil_r. rewrite (copies_const n (leb_of true i)); [auto|]. intros p. cbn [copy]. rewrite L. auto.
Qed.
Lemma db_cons : forall outv e n X pos b s, dv_multiple (mult_of e) = (Z.of_nat n, false) -> (0 < n)%nat -> entry_bytes outv e n pos = Some (b, false) ->
  data_bytes outv X (pos + Z.of_nat (length b)) = Some (s, false) -> data_bytes outv (e :: X) pos = Some (b ++ s, false).
Proof. intros outv e n X pos b s M N E R. cbn [data_bytes]. rewrite M. cbn [orb]. destruct (Z.eqb_spec (Z.of_nat n) 0); [lia|]. rewrite Nat2Z.id, E, R. auto. Qed.
Definition Fe (size : nat) (b : bent) : entry := finalize (ent size b).
Lemma db_raw : forall outv size a m X pos s, mok m -> data_bytes outv X (pos + Z.of_nat (length (concat (repeat a (mreps m))))) = Some (s, false) ->
  data_bytes outv (Fe size (BRaw a m) :: X) pos = Some (concat (repeat a (mreps m)) ++ s, false).
Proof.
  intros outv size a m X pos s M R. destruct (mult_ok m M) as [A B]. apply (db_cons outv _ (mreps m)); auto. unfold Fe. cbn [ent finalize entry_bytes]. rewrite read_some. auto.
Qed.
Lemma db_raw1 : forall outv size a X pos s, data_bytes outv X (pos + Z.of_nat (length a)) = Some (s, false) -> data_bytes outv (Fe size (BRaw a None) :: X) pos = Some (a ++ s, false).
Proof. intros outv size a X pos s H. pose proof (db_raw outv size a None X pos s Logic.I) as D. cbn [mreps repeat concat] in D. rewrite app_nil_r in D. auto. Qed.
Lemma emit_cons : forall outv size arch zero pos it r, emit outv size arch zero pos (it :: r) =
  let b := copies (reps it) (copy outv size arch (what it)) pos ++ zb zero in b ++ emit outv size arch zero (pos + Z.of_nat (length b)) r.
Proof. reflexivity. Qed.
Lemma data_bytes_ok : forall outv size arch zero, writer outv -> (arch = true \/ (size < 32)%nat) -> forall l acc pos, Forall (item_ok size) l ->
  data_bytes outv (map (Fe size) (build size arch zero acc l)) pos = Some (acc ++ emit outv size arch zero (pos + Z.of_nat (length acc)) l, false).
Proof.
  intros outv size arch zero W AR l. induction l as [|it r IH]; intros acc pos F.
  - cbn [build emit]. rewrite app_nil_r. destruct acc as [|x acc]; [reflexivity|]. cbn [raw_of map]. pose proof (db_raw outv size (x :: acc) None [] pos [] Logic.I eq_refl) as H. cbn [mreps repeat concat] in H. rewrite !app_nil_r in H. exact H.
  - apply Forall_cons_iff in F. destruct F as [F F']. specialize (fun acc pos => IH acc pos F'). rewrite build_cons.
    assert (RI : reps it = mreps (mult it)) by (unfold reps, mreps; destruct (mult it) as [[?|]|]; auto).
    assert (MO : mok (mult it)) by apply F.
    (* reduce to the case without leading flush *)
    assert (CORE : forall a0 p, (mult it <> None -> non_empty (what it) = true -> a0 = []) -> data_bytes outv (map (Fe size)
      (let '(mid, a1) := match now size arch (what it) with Some b => ([], a0 ++ b) | None => (raw_of a0 ++ [BVal (what it) (mult it)], []) end in
       let '(post, a2) := if flush it (length a1) then ([BRaw a1 (mult it)], []) else ([], a1) in
       mid ++ post ++ build size arch zero (a2 ++ zb zero) r)) p = Some (a0 ++ emit outv size arch zero (p + Z.of_nat (length a0)) (it :: r), false)).
    { intros a0 p A0. rewrite emit_cons. cbv zeta. destruct (now size arch (what it)) as [b|] eqn:NW.
      - rewrite (copies_const _ b) by (intros; apply (now_copy outv size arch it b); auto). destruct (flush it (length (a0 ++ b))) eqn:Fl.
        + destruct (flush_true _ _ Fl) as (M1 & M2 & _). rewrite (A0 M1 M2) in *. cbn [app map]. rewrite RI. rewrite (db_raw outv size b (mult it) _ p (zb zero ++ emit outv size arch zero (p + Z.of_nat (length (concat (repeat b (mreps (mult it))))) + Z.of_nat (length (zb zero))) r)); [|auto|apply IH].
          do 2 f_equal. cbn [length]. rewrite <- app_assoc. do 2 f_equal. rewrite app_length. f_equal. lia.
        + assert (CB : concat (repeat b (reps it)) = b).
          { destruct (mult it) as [m|] eqn:EM.
            - destruct (non_empty (what it)) eqn:NE.
              + exfalso. pose proof (now_bytes size arch it b F ltac:(congruence) NE NW) as NB. unfold flush in Fl. rewrite EM, NE in Fl. cbn [is_some andb] in Fl. apply Nat.ltb_ge in Fl. rewrite app_length in Fl. destruct b; [congruence|cbn in Fl; lia].
              + destruct (what it); try discriminate. cbn in NW. injection NW as <-. apply concat_nil.
            - rewrite RI. cbn [mreps repeat concat]. apply app_nil_r. }
          rewrite CB. cbn [app]. rewrite IH. do 2 f_equal. rewrite <- !app_assoc. do 4 f_equal. rewrite !app_length. lia.
      - assert (FF : flush it (@length Z []) = false) by (unfold flush; cbn [length Nat.ltb Nat.leb]; apply andb_false_r). rewrite FF. cbn [app]. rewrite <- app_assoc, map_app.
        assert (T : forall q, data_bytes outv (map (Fe size) ([BVal (what it) (mult it)] ++ build size arch zero (zb zero) r)) q =
           Some ((copies (reps it) (copy outv size arch (what it)) q ++ zb zero) ++ emit outv size arch zero (q + Z.of_nat (length (copies (reps it) (copy outv size arch (what it)) q ++ zb zero))) r, false)).
        { intros q. cbn [app map]. destruct (mult_ok _ MO) as [A B]. rewrite <- app_assoc. apply (db_cons outv _ (mreps (mult it))); auto.
          - unfold Fe. cbn [ent finalize]. rewrite RI. apply later_bytes; auto.
          - rewrite IH. do 3 f_equal. rewrite app_length. f_equal. lia. }
        destruct a0 as [|x a0].
        + cbn [raw_of map app length]. rewrite Z.add_0_r. apply T.
        + cbn [raw_of]. change (map (Fe size) [BRaw (x :: a0) None]) with ([Fe size (BRaw (x :: a0) None)]). cbn [app]. exact (db_raw1 outv size (x :: a0) _ p _ (T _)). }
    destruct (flush it (length acc)) eqn:Fl.
    + specialize (CORE [] (pos + Z.of_nat (length acc)) ltac:(auto)). destruct (match now size arch (what it) with Some b => _ | None => _ end) as [mid a1]. destruct (if flush it (length a1) then _ else _) as [post a2]. cbn [app map length] in *. rewrite Z.add_0_r in CORE. pose proof (db_raw outv size acc None _ pos _ Logic.I ltac:(cbn [mreps repeat concat]; rewrite app_nil_r; exact CORE)) as H. cbn [mreps repeat concat] in H. rewrite app_nil_r in H. exact H.
    + specialize (CORE acc pos). destruct (match now size arch (what it) with Some b => _ | None => _ end) as [mid a1]. destruct (if flush it (length a1) then _ else _) as [post a2]. cbn [app]. apply CORE. intros M N. unfold flush in Fl. rewrite N in Fl. destruct (mult it); [|congruence]. cbn [is_some andb] in Fl. apply Nat.ltb_ge in Fl. destruct acc; [auto|cbn in Fl; lia].
Qed.
(** * The length before layout *)
Definition gent (e : entry) : Prop :=
  (exists n, dv_multiple (mult_of e) = (Z.of_nat n, false) /\ (0 < n)%nat) /\
  match e with
  | ERaw _ _ => True
  | EVal (Some (Value _)) _ _ => True
  | EVal (Some (Uleb v)) size _ | EVal (Some (Sleb v)) size _ => size = 0%nat /\ exists i, late v = Some i /\ canon i
  | EVal _ _ _ => False
  end.
Lemma copies_len : forall n f size, (forall p, length (f p) = size) -> forall pos, length (copies n f pos) = (n * size)%nat.
Proof. induction n as [|n IH]; intros f size H pos; [auto|]. cbn [copies Nat.mul]. rewrite app_length, H, (IH f size) by auto. auto. Qed.
Lemma concat_len : forall n (b : list Z), length (concat (repeat b n)) = (n * length b)%nat.
Proof. induction n as [|n IH]; intros b; [auto|]. cbn [repeat concat Nat.mul]. rewrite app_length, IH. auto. Qed.
Lemma read_len : forall b s, read b = Some s -> length s = length b.
Proof. induction b as [|[x|] b IH]; intros s H; cbn in H; [injection H as <-; auto| |discriminate]. destruct (read b) as [t|]; [|discriminate]. injection H as <-. cbn. f_equal. auto. Qed.
Lemma entry_len_ok : forall outv e n pos b, writer outv -> gent e -> entry_bytes outv e n pos = Some (b, false) -> exists L, entry_len e = Some L /\ Z.of_nat (length b) = L * Z.of_nat n /\ 0 <= L.
Proof.
  intros outv e n pos b W (_ & G) H. destruct e as [c m|[k|] size m]; [| |contradiction].
  - cbn [entry_bytes entry_len] in *. destruct (read c) as [s|] eqn:R; [|discriminate]. injection H as <-. exists (Z.of_nat (length c)). split; auto. rewrite concat_len, (read_len c s R). lia.
  - destruct k as [|v|c|v|v|]; try contradiction; cbn [entry_bytes entry_len] in *.
    + assert (X : exists g, (forall p, outv v size p = Some (g p)) /\ forall p, length (g p) = size). { exists (fun p => match outv v size p with Some b => b | None => [] end). split; intros p; destruct (W v size p) as (b0 & -> & L0); auto. }
      destruct X as (g & G1 & G2). rewrite (repeat_copies n (outv v size) g) in H by auto. injection H as <-. exists (Z.of_nat size). split; auto. rewrite (copies_len n g size) by auto. lia.
    + destruct G as (-> & i & L & C). rewrite L in *. destruct (leb_of_ok false i C) as (E1 & E2 & _). rewrite E1 in H. injection H as <-. exists (intnum_size_leb128 i false). split; auto. rewrite E2. cbn [repeat]. rewrite concat_nil, app_nil_r, concat_len. lia.
    + destruct G as (-> & i & L & C). rewrite L in *. destruct (leb_of_ok true i C) as (E1 & E2 & _). rewrite E1 in H. injection H as <-. exists (intnum_size_leb128 i true). split; auto. rewrite E2. cbn [repeat]. rewrite concat_nil, app_nil_r, concat_len. lia.
Qed.
Lemma len_of_bytes : forall outv, writer outv -> forall es pos b n, Forall gent es -> data_bytes outv es pos = Some (b, false) -> 0 <= n -> n + Z.of_nat (length b) < 2 ^ 64 -> data_len es n = Some (n + Z.of_nat (length b)).
Proof.
  intros outv W. induction es as [|e es IH]; intros pos b n F H N B.
  - cbn in H. injection H as <-. cbn. f_equal. lia.
  - apply Forall_cons_iff in F. destruct F as [G F]. destruct (proj1 G) as (k & K1 & K2). cbn [data_bytes data_len] in *. rewrite K1 in *. cbn [orb] in H. destruct (Z.eqb_spec (Z.of_nat k) 0); [lia|]. rewrite Nat2Z.id in H. destruct (entry_bytes outv e k pos) as [[b1 [|]]|] eqn:E; try discriminate. destruct (data_bytes outv es _) as [[s e']|] eqn:R; [|discriminate]. injection H as <- ->. destruct (entry_len_ok outv e k pos b1 W G E) as (L & -> & L1 & L2). rewrite app_length in B. 
    assert (U : u64 (L * Z.of_nat k) = L * Z.of_nat k) by (unfold u64; change w64 with (2 ^ 64); apply Z.mod_small; lia). rewrite U, <- L1. assert (U2 : u64 (n + Z.of_nat (length b1)) = n + Z.of_nat (length b1)) by (unfold u64; change w64 with (2 ^ 64); apply Z.mod_small; lia). rewrite U2, (IH _ s _ F R); [|lia|lia]. rewrite app_length. f_equal. lia.
Qed.
Lemma gent_raw : forall size a m, mok m -> gent (Fe size (BRaw a m)).
Proof. intros size a m M. destruct (mult_ok m M) as [A B]. split; [exists (mreps m); auto|exact Logic.I]. Qed.
Lemma build_gent : forall size arch zero l acc, Forall (item_ok size) l -> Forall gent (map (Fe size) (build size arch zero acc l)).
Proof.
  intros size arch zero l. induction l as [|it r IH]; intros acc F.
  - cbn [build]. destruct acc; cbn [raw_of map]; constructor; [apply gent_raw; exact Logic.I|constructor].
  - apply Forall_cons_iff in F. destruct F as [F F']. specialize (fun acc => IH acc F'). rewrite build_cons.
    assert (RO : forall a, Forall gent (map (Fe size) (raw_of a))) by (intros [|x a]; cbn [raw_of map]; constructor; [apply gent_raw; exact Logic.I|constructor]).
    destruct (if flush it (length acc) then _ else _) as [pre a0] eqn:E0. destruct (match now size arch (what it) with Some b => _ | None => _ end) as [mid a1] eqn:E1. destruct (if flush it (length a1) then _ else _) as [post a2] eqn:E2. rewrite !map_app, !Forall_app. repeat split; auto.
    + destruct (flush it (length acc)); injection E0 as <- <-; cbn [map]; constructor; [apply gent_raw; exact Logic.I|constructor].
    + destruct (now size arch (what it)) eqn:NW; injection E1 as <- <-; [constructor|]. rewrite map_app, Forall_app. split; auto. cbn [map]. constructor; [|constructor]. destruct (mult_ok (mult it) (proj1 F)) as [A B]. split; [exists (mreps (mult it)); auto|]. destruct F as [_ K]. unfold Fe. cbn [ent finalize]. unfold now in NW. destruct (what it) as [|v|c|v|v|]; try discriminate; [exact Logic.I| |].
      * destruct K as (i & L & C & E). destruct (early v); [discriminate|]. subst size. eauto.
      * destruct K as (i & L & C & E). destruct (early v); [discriminate|]. subst size. eauto.
    + destruct (flush it (length a1)); injection E2 as <- <-; cbn [map]; constructor; [apply gent_raw; apply F|constructor].
Qed.
Lemma data_ok : forall outv size arch zero l, writer outv -> (arch = true \/ (size < 32)%nat) -> Forall (item_ok size) l -> Z.of_nat (length (emit outv size arch zero 0 l)) < 2 ^ 64 ->
  exists es, create_data size arch zero l = Some es /\
    data_bytes outv (map finalize es) 0 = Some (emit outv size arch zero 0 l, false) /\
    data_len (map finalize es) 0 = Some (Z.of_nat (length (emit outv size arch zero 0 l))).
Proof.
  intros outv size arch zero l W AR F B. exists (map (ent size) (build size arch zero [] l)). split; [apply create_ok; auto|]. rewrite map_map. change (fun x => finalize (ent size x)) with (Fe size).
  pose proof (data_bytes_ok outv size arch zero W AR l [] 0 F) as D. cbn [length app] in D. change (0 + Z.of_nat 0) with 0 in D. split; auto. apply (len_of_bytes outv W _ 0 _ 0 (build_gent size arch zero l [] F) D); lia.
Qed.
Lemma leb_data_ok : forall outv (sgnd : bool) l, writer outv ->
  Forall (fun it : item => mok (mult it) /\ exists v, what it = Value v /\ leb_ok 0 v) l ->
  let l' := map (fun it : item => match what it with Value v => Item (if sgnd then Sleb v else Uleb v) (mult it) | _ => it end) l in
  Z.of_nat (length (emit outv 0 false false 0 l')) < 2 ^ 64 ->
  exists es, create_leb sgnd l = Some es /\ data_bytes outv (map finalize es) 0 = Some (emit outv 0 false false 0 l', false) /\
    data_len (map finalize es) 0 = Some (Z.of_nat (length (emit outv 0 false false 0 l'))).
Proof.
  intros outv sgnd l W F l' B. apply (data_ok outv 0 false false l' W); [right; lia| |exact B]. subst l'. apply Forall_map. eapply Forall_impl; [|exact F]. intros it (M & v & E & K). cbn beta. rewrite E. split; [exact M|]. cbn [what]. destruct sgnd; exact K.
Qed.
Lemma dup0_refuted : exists es, create_data 1 true false [Item (Raw [5]) (Some (Some (IL 0)))] = Some es /\
  data_len (map finalize es) 0 = Some 1 /\ forall outv, data_bytes outv (map finalize es) 0 = Some ([5], false).
Proof. eexists. split; [vm_compute; reflexivity|]. split; [vm_compute; reflexivity|]. intros outv. reflexivity. Qed.
Lemma faults : create_data 1 true false [Item (Raw [65]) None; Item (Raw []) (Some (Some (IL 2)))] = None /\ create_leb false [Item (Raw [65]) None] = None.
Proof. split; vm_compute; reflexivity. Qed.
Lemma wide_empty : forall v arch, early v = None -> exists es, create_data 32 arch false [Item (Value v) None] = Some es /\
  data_len (map finalize es) 0 = Some 0 /\ forall outv, writer outv -> data_bytes outv (map finalize es) 0 = Some ([], false).
Proof.
  intros v arch H. exists [EVal (Some (Value v)) 0 None]. split; [|split; [reflexivity|]].
  - unfold create_data. cbn [scan scan_item what mult flush]. unfold scan_item. cbn [what]. rewrite H. cbn. rewrite H. reflexivity.
  - intros outv W. cbn. change (Pos.to_nat 1) with 1%nat. cbn [repeat_pos]. destruct (W v 0%nat 0) as (b & -> & L). destruct b; [reflexivity|discriminate L].
Qed.
