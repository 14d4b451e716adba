(** The size optimizer: specification and the invariant of its state (C28, C29). *)
From Coq Require Import ZArith List Bool Lia Permutation Arith.
From Verif Require Import Lib M_Inttree P_Inttree M_Optimize.
Import ListNotations.
Open Scope Z_scope.

(** * Specification *)
Definition bc (B : list bcode) (i : nat) : bcode := nth i B nobc.
Definition sp (ss : list span) (k : nat) : span := nth k ss nospan.
(** The bytes that section [c] has before bytecode [n]. *)
Fixpoint filled (c n : nat) (B : list bcode) : Z :=
  match n, B with
  | S m, b :: r => (if Nat.eqb (sec b) c then blen b * bmult b else 0) + filled c m r
  | _, _ => 0
  end.
(** Where a bytecode starts and ends, as the sum of what lies before it in its section. *)
Definition start (B : list bcode) (i : nat) : Z := filled (sec (bc B i)) i B.
Definition stop (B : list bcode) (i : nat) : Z := start B i + blen (bc B i) * bmult (bc B i).
(** Value of a term and of a span for given sizes. *)
Definition dist (B : list bcode) (s : span) (t : term) : Z :=
  match t with Diff p q => stop B q - stop B p | Rel q => stop B q - start B (sbc s) end.
Definition val (B : list bcode) (s : span) : Z :=
  match value s with None => LONG_MAX | Some f => f (map (dist B s) (terms s)) end.
(** The forms of a span: bytes added by the first [k] expansions, the limits then in force ([None]:
    the longest form), and whether [k] expansions are possible. *)
Definition grow (f : form) : Z := match f with Fail => 0 | Last g => g | More g _ _ => g end.
Definition sum (l : list Z) : Z := fold_right Z.add 0 l.
Definition grown (s : span) (k : nat) : Z := sum (map grow (firstn k (forms s))).
Definition limits (s : span) (k : nat) : option (Z * Z) :=
  match k with
  | O => Some (lo0 s, hi0 s)
  | S j => match nth j (forms s) Fail with More _ l h => Some (l, h) | _ => None end
  end.
Definition reach (s : span) (k : nat) : Prop :=
  (k <= length (forms s))%nat /\ (forall j, (j < k)%nat -> nth j (forms s) Fail <> Fail) /\
  (forall j, (S j < k)%nat -> exists g l h, nth j (forms s) Fail = More g l h).
Definition added (ss : list span) (ks : list nat) (i : nat) : Z :=
  sum (map (fun '(s, k) => if Nat.eqb (sbc s) i && negb (any s) then grown s k else 0) (combine ss ks)).
(** The sizes [B], with [ks] expansions of each span, are a consistent layout of the program:
    every offset is the sum of the sizes before it, every bytecode has the length of its forms,
    every offset setter the length that its offset demands, every counted bytecode the count that
    its expression has, and every span is within the limits of its form. *)
Record settled (ss : list span) (B0 B : list bcode) (ks : list nat) : Prop := {
  s_spans : length ks = length ss;
  s_same : length B = length B0 /\ forall i, sec (bc B i) = sec (bc B0 i) /\ setter (bc B i) = setter (bc B0 i);
  s_off : forall i, (i < length B)%nat -> boff (bc B i) = start B i;
  s_len : forall i, (i < length B)%nat -> setter (bc B i) = None -> blen (bc B i) = blen (bc B0 i) + added ss ks i;
  s_set : forall i f, (i < length B)%nat -> setter (bc B i) = Some f -> f (start B i) = Some (blen (bc B i));
  s_count : forall s, In s ss -> any s = true -> bmult (bc B (sbc s)) = val B s;
  s_plain : forall i, (forall s, In s ss -> any s = true -> sbc s <> i) -> bmult (bc B i) = bmult (bc B0 i);
  s_form : forall k, (k < length ss)%nat -> any (sp ss k) = false -> reach (sp ss k) (nth k ks O) /\
    match limits (sp ss k) (nth k ks O) with None => True | Some (l, h) => l <= val B (sp ss k) <= h end
}.
(** Well-formed programs: sections one after the other, each starting with its empty bytecode;
    spans belong to other bytecodes, and their terms to one section each; a bytecode has at most
    one counting span, and its count starts at 0. *)
Definition first (B : list bcode) (i : nat) : Prop := match i with O => True | S j => sec (bc B j) <> sec (bc B (S j)) end.
Definition wf_term (B : list bcode) (s : span) (t : term) : Prop :=
  match t with
  | Diff p q => (p < length B)%nat /\ (q < length B)%nat /\ sec (bc B p) = sec (bc B q)
  | Rel q => (q < length B)%nat /\ sec (bc B q) = sec (bc B (sbc s))
  end.
Record wfB (B : list bcode) : Prop := {
  w_sorted : forall i j, (i <= j)%nat -> (j < length B)%nat -> (sec (bc B i) <= sec (bc B j))%nat;
  w_first : forall i, (i < length B)%nat -> first B i -> boff (bc B i) = 0 /\ blen (bc B i) = 0 /\ setter (bc B i) = None;
  w_once : forall i, (i < length B)%nat -> setter (bc B i) <> None -> bmult (bc B i) = 1
}.
Record wf (ss : list span) (B : list bcode) : Prop := {
  w_small : Z.of_nat (length B) < 2 ^ 31;
  w_bcs : wfB B;
  w_span : forall s, In s ss -> (sbc s < length B)%nat /\ ~ first B (sbc s) /\ setter (bc B (sbc s)) = None;
  w_terms : forall s t, In s ss -> In t (terms s) -> wf_term B s t;
  w_count : forall s, In s ss -> any s = true -> bmult (bc B (sbc s)) = 0;
  w_alone : forall k m, (k < length ss)%nat -> (m < length ss)%nat -> any (sp ss k) = true -> any (sp ss m) = true ->
    sbc (sp ss k) = sbc (sp ss m) -> k = m
}.

(** * Lists *)
Lemma upd_length : forall {A} (f : A -> A) l n, length (upd n f l) = length l.
Proof. intros A f l. induction l as [|x r IH]; intros [|n]; cbn; auto. Qed.
Lemma upd_same : forall {A} (f : A -> A) d l n, (n < length l)%nat -> nth n (upd n f l) d = f (nth n l d).
Proof. intros A f d l. induction l as [|x r IH]; intros [|n] H; cbn in *; try lia; auto. apply IH. lia. Qed.
Lemma upd_other : forall {A} (f : A -> A) d l n m, n <> m -> nth m (upd n f l) d = nth m l d.
Proof. intros A f d l. induction l as [|x r IH]; intros [|n] [|m] H; cbn; try congruence; auto. Qed.
Lemma upd_nth : forall {A} (f : A -> A) d l n m, nth m (upd n f l) d = if Nat.eqb n m && Nat.ltb n (length l) then f (nth m l d) else nth m l d.
Proof.
  intros A f d l n m. destruct (Nat.eqb_spec n m) as [->|E]; [|rewrite upd_other by auto; reflexivity].
  destruct (Nat.ltb_spec m (length l)) as [L|L]; cbn; [apply upd_same; auto|]. rewrite !nth_overflow; auto; rewrite ?upd_length; lia.
Qed.
Lemma upd_app : forall {A} (f : A -> A) l r n, (n < length l)%nat -> upd n f (l ++ r) = upd n f l ++ r.
Proof. intros A f l. induction l as [|x l IH]; intros r [|n] H; cbn in *; try lia; auto. rewrite IH by lia. reflexivity. Qed.
Lemma combine_upd_sum : forall {A D} (g : A * D -> Z) (f : D -> D) (da : A) (dd : D) (l : list A) (m : list D) n, length l = length m -> (n < length m)%nat ->
  sum (map g (combine l (upd n f m))) = sum (map g (combine l m)) - g (nth n l da, nth n m dd) + g (nth n l da, f (nth n m dd)).
Proof.
  intros A D g f da dd l. induction l as [|x l IH]; intros [|y m] [|n] E L; cbn in *; try lia.
  rewrite IH by (auto; lia). unfold sum. lia.
Qed.
Lemma combine_nth_eq : forall {A D} (da : A) (dd : D) (l : list A) (m : list D) n, length l = length m -> nth n (combine l m) (da, dd) = (nth n l da, nth n m dd).
Proof. intros. apply combine_nth. auto. Qed.
Lemma app_nth_eq : forall {A} (P r : list A) x d, nth (length P) (P ++ x :: r) d = x.
Proof. intros. rewrite app_nth2 by lia. rewrite Nat.sub_diag. reflexivity. Qed.

(** * Offsets *)
Lemma filled_app : forall c P r, filled c (length P) (P ++ r) = filled c (length P) P.
Proof. intros c P r. induction P as [|b P IH]; cbn; [destruct r; reflexivity|]. rewrite IH. reflexivity. Qed.
Lemma filled_app_le : forall c n P r, (n <= length P)%nat -> filled c n (P ++ r) = filled c n P.
Proof. intros c n. induction n as [|n IH]; intros [|b P] r H; cbn in *; try lia; auto. rewrite IH by lia. reflexivity. Qed.
Lemma filled_snoc : forall c P b, filled c (S (length P)) (P ++ [b]) = filled c (length P) P + (if Nat.eqb (sec b) c then bsize b else 0).
Proof. intros c P b. unfold bsize. induction P as [|x P IH]; cbn [filled length app]; [cbn; lia|]. cbn [filled length app] in IH. rewrite IH. lia. Qed.
Lemma filled_S : forall c n B, (n < length B)%nat -> filled c (S n) B = filled c n B + (if Nat.eqb (sec (bc B n)) c then bsize (bc B n) else 0).
Proof.
  unfold bsize, bc. intros c n. induction n as [|n IH]; intros [|b B] H; cbn [length] in *; try lia; [cbn; destruct B; cbn; lia|].
  change (filled c (S (S n)) (b :: B)) with ((if Nat.eqb (sec b) c then blen b * bmult b else 0) + filled c (S n) B). rewrite IH by lia.
  change (filled c (S n) (b :: B)) with ((if Nat.eqb (sec b) c then blen b * bmult b else 0) + filled c n B). change (nth (S n) (b :: B) nobc) with (nth n B nobc). lia.
Qed.
Lemma stop_filled : forall B i, (i < length B)%nat -> stop B i = filled (sec (bc B i)) (S i) B.
Proof. intros B i H. unfold stop, start. rewrite filled_S by auto. rewrite Nat.eqb_refl. reflexivity. Qed.
Lemma filled_none : forall c n B, (forall j, (j < n)%nat -> (j < length B)%nat -> sec (bc B j) <> c) -> filled c n B = 0.
Proof.
  intros c n. induction n as [|n IH]; intros [|b B] H; cbn; auto.
  pose proof (H O ltac:(lia) ltac:(cbn; lia)) as K. cbn in K. apply Nat.eqb_neq in K. rewrite K. rewrite IH; [lia|].
  intros j L L2. apply (H (S j)); [lia|cbn; lia].
Qed.
Lemma filled_ext : forall c n B B', length B = length B' -> (forall j, (j < n)%nat -> sec (bc B j) = sec (bc B' j) /\ (sec (bc B' j) = c -> bsize (bc B j) = bsize (bc B' j))) -> filled c n B = filled c n B'.
Proof.
  unfold bsize. intros c n. induction n as [|n IH]; intros [|b B] [|b' B'] L H; cbn in *; try lia; auto.
  destruct (H O ltac:(lia)) as [E1 E2]. cbn in E1, E2. rewrite E1. rewrite (IH B B'); [|lia|intros j J; apply (H (S j)); lia].
  destruct (Nat.eqb_spec (sec b') c); [rewrite E2 by auto|]; reflexivity.
Qed.

(** What one pass over the offsets does to the bytecode [i]. *)
Definition passed (B B' : list bcode) (e : bool) (i : nat) : Prop :=
  sec (bc B' i) = sec (bc B i) /\ setter (bc B' i) = setter (bc B i) /\ bmult (bc B' i) = bmult (bc B i) /\ boff (bc B' i) = start B' i /\
  match setter (bc B i) with
  | None => blen (bc B' i) = blen (bc B i)
  | Some f => match f (start B' i) with Some n => blen (bc B' i) = n | None => blen (bc B' i) = blen (bc B i) /\ e = true end
  end.
Lemma start_app : forall P r i, (i < length P)%nat -> start (P ++ r) i = start P i.
Proof. intros P r i H. unfold start, bc. rewrite app_nth1 by auto. apply filled_app_le. lia. Qed.
Lemma start_at : forall P b r, start (P ++ b :: r) (length P) = filled (sec b) (length P) P.
Proof. intros. unfold start, bc. rewrite app_nth_eq. apply filled_app. Qed.
Lemma sec_app_first : forall B B', length B = length B' -> (forall i, sec (bc B i) = sec (bc B' i)) -> forall i, first B i <-> first B' i.
Proof. intros B B' L E [|i]; cbn; [tauto|]. rewrite !E. tauto. Qed.

Lemma offsets_cons : forall prev off b r, offsets prev off (b :: r) =
  (if match prev with None => true | Some p => negb (Nat.eqb (sec p) (sec b)) end
   then let '(r', e) := offsets (Some b) 0 r in (b :: r', e)
   else
     let '(b1, e1) := match setter b with
                      | None => (b, false)
                      | Some f => match f match prev with None => 0 | Some p => boff p + bsize p end with Some n => (with_len n b, false) | None => (b, true) end
                      end in
     let '(r', e) := offsets (Some (with_off off b1)) (off + bsize (with_off off b1)) r in
     (with_off off b1 :: r', e1 || e)).
Proof. reflexivity. Qed.

Definition lastof (prev : option bcode) (P : list bcode) : Prop :=
  match prev with None => P = [] | Some p => exists P0, P = P0 ++ [p] /\ boff p + bsize p = filled (sec p) (length P) P end.
Lemma bc_app : forall (P r : list bcode) i, bc (P ++ r) i = if Nat.ltb i (length P) then bc P i else bc r (i - length P).
Proof. intros. unfold bc. destruct (Nat.ltb_spec i (length P)); [apply app_nth1|apply app_nth2]; lia. Qed.
Lemma offsets_pre : forall r P prev off r' e,
  (forall i j, (i <= j)%nat -> (j < length (P ++ r))%nat -> (sec (bc (P ++ r) i) <= sec (bc (P ++ r) j))%nat) ->
  (forall i, (length P <= i < length (P ++ r))%nat -> first (P ++ r) i -> boff (bc (P ++ r) i) = 0 /\ blen (bc (P ++ r) i) = 0 /\ setter (bc (P ++ r) i) = None) ->
  lastof prev P -> match prev with None => True | Some p => off = filled (sec p) (length P) P end ->
  offsets prev off r = (r', e) ->
  length r' = length r /\ forall i, (length P <= i < length (P ++ r))%nat -> passed (P ++ r) (P ++ r') e i.
Proof.
  induction r as [|b r IH]; intros P prev off r' e HS HF HL HO HR.
  - injection HR as <- <-. split; auto. intros i Hi. rewrite app_nil_r in Hi. lia.
  - rewrite offsets_cons in HR.
    assert (LB : length (P ++ b :: r) = S (length P + length r)) by (rewrite app_length; cbn; lia).
    assert (BB : bc (P ++ b :: r) (length P) = b) by (unfold bc; apply app_nth_eq).
    assert (STEP : forall b2 off2 e1 r2 e2, sec b2 = sec b -> boff b2 + bsize b2 = filled (sec b2) (length (P ++ [b2])) (P ++ [b2]) -> off2 = filled (sec b2) (length (P ++ [b2])) (P ++ [b2]) ->
              offsets (Some b2) off2 r = (r2, e2) -> r' = b2 :: r2 -> e = (e1 || e2)%bool -> passed (P ++ b :: r) (P ++ b2 :: r2) e (length P) ->
              length r' = length (b :: r) /\ forall i, (length P <= i < length (P ++ b :: r))%nat -> passed (P ++ b :: r) (P ++ r') e i).
    { intros b2 off2 e1 r2 e2 S2 B2 O2 R2 -> EE PA.
      assert (SEC : forall i, sec (bc ((P ++ [b2]) ++ r) i) = sec (bc (P ++ b :: r) i)).
      { intro i. rewrite <- app_assoc. cbn [app]. rewrite !bc_app. destruct (Nat.ltb i (length P)); auto. destruct (i - length P)%nat; cbn; auto. }
      assert (OTH : forall i, (length P < i)%nat -> bc ((P ++ [b2]) ++ r) i = bc (P ++ b :: r) i).
      { intros i L. rewrite <- app_assoc. cbn [app]. rewrite !bc_app. destruct (Nat.ltb_spec i (length P)); [lia|]. destruct (i - length P)%nat eqn:D; [lia|]. reflexivity. }
      assert (LL : length ((P ++ [b2]) ++ r) = length (P ++ b :: r)) by (rewrite !app_length; cbn; lia).
      destruct (IH (P ++ [b2]) (Some b2) off2 r2 e2) as [L2 K].
      - intros i j I J. rewrite !SEC. apply HS; [auto|rewrite <- LL; auto].
      - intros i I F. rewrite app_length in I; cbn [length] in I. rewrite OTH by lia. apply HF; [lia|]. apply (sec_app_first _ _ LL SEC). exact F.
      - exists P. auto.
      - exact O2.
      - exact R2.
      - split; [cbn; lia|]. intros i I. destruct (Nat.eq_dec i (length P)) as [->|N]; [exact PA|].
        specialize (K i). rewrite <- !app_assoc in K. cbn [app] in K. assert (KI : passed (P ++ b2 :: r) (P ++ b2 :: r2) e2 i) by (apply K; rewrite !app_length in *; cbn [length] in *; lia).
        assert (OB : bc (P ++ b2 :: r) i = bc (P ++ b :: r) i) by (rewrite <- (OTH i) by lia; rewrite <- app_assoc; reflexivity).
        unfold passed in *. rewrite OB in KI. destruct KI as (A1 & A2 & A3 & A4 & A5). repeat split; auto.
        destruct (setter (bc (P ++ b :: r) i)) as [f|]; auto. destruct (f (start (P ++ b2 :: r2) i)) as [n|]; auto. destruct A5 as [A5 A6]. split; auto. rewrite EE, A6. apply orb_true_r. }
    destruct (match prev with None => true | Some p => negb (Nat.eqb (sec p) (sec b)) end) eqn:FI.
    + destruct (offsets (Some b) 0 r) as [r2 e2] eqn:R2. injection HR as <- <-.
      assert (FF : first (P ++ b :: r) (length P)).
      { destruct prev as [p|]; [|rewrite HL; exact Logic.I]. destruct HL as (P0 & -> & _). rewrite app_length. cbn [length]. replace (length P0 + 1)%nat with (S (length P0)) by lia. cbn [first].
        rewrite <- app_assoc. cbn [app]. rewrite !bc_app. rewrite Nat.ltb_irrefl, Nat.sub_diag. replace (Nat.ltb (S (length P0)) (length P0)) with false by (symmetry; apply Nat.ltb_ge; lia).
        replace (S (length P0) - length P0)%nat with 1%nat by lia. cbn. apply negb_true_iff in FI. apply Nat.eqb_neq in FI. exact FI. }
      destruct (HF (length P) ltac:(lia) FF) as (F1 & F2 & F3). rewrite BB in F1, F2, F3.
      assert (Z0 : filled (sec b) (length P) P = 0).
      { apply filled_none. intros j J _. destruct prev as [p|]; [|rewrite HL in J; cbn in J; lia]. destruct HL as (P0 & -> & _). apply negb_true_iff in FI. apply Nat.eqb_neq in FI.
        rewrite app_length in J; cbn [length] in J.
        pose proof (HS j (length P0) ltac:(lia) ltac:(rewrite !app_length; cbn; lia)) as A. pose proof (HS (length P0) (length (P0 ++ [p])) ltac:(rewrite app_length; cbn; lia) ltac:(lia)) as C.
        rewrite BB in C. assert (E1 : bc ((P0 ++ [p]) ++ b :: r) (length P0) = p) by (rewrite <- app_assoc; unfold bc; apply app_nth_eq). rewrite E1 in A, C.
        rewrite (bc_app (P0 ++ [p])) in A. replace (Nat.ltb j (length (P0 ++ [p]))) with true in A by (symmetry; apply Nat.ltb_lt; rewrite app_length; cbn; lia). lia. }
      assert (SZ : bsize b = 0) by (unfold bsize; rewrite F2; lia).
      assert (FL : filled (sec b) (length (P ++ [b])) (P ++ [b]) = 0).
      { rewrite app_length. cbn [length]. replace (length P + 1)%nat with (S (length P)) by lia. rewrite filled_snoc, Z0, SZ. destruct (Nat.eqb (sec b) (sec b)); reflexivity. }
      apply (STEP b 0 false r2 e2); auto.
      * lia.
      * unfold passed. rewrite BB. assert (BB' : bc (P ++ b :: r2) (length P) = b) by (unfold bc; apply app_nth_eq). rewrite BB'. repeat split; auto.
        -- unfold start. rewrite BB', filled_app. lia.
        -- rewrite F3. reflexivity.
    + destruct prev as [p|]; [|discriminate]. apply negb_false_iff in FI. apply Nat.eqb_eq in FI. destruct HL as (P0 & EP & HP).
      destruct (match setter b with None => (b, false) | Some f => match f (boff p + bsize p) with Some n => (with_len n b, false) | None => (b, true) end end) as [b1 e1] eqn:E1.
      destruct (offsets (Some (with_off off b1)) (off + bsize (with_off off b1)) r) as [r2 e2] eqn:R2. injection HR as <- <-.
      assert (SB : sec (with_off off b1) = sec b).
      { cbn. destruct (setter b) as [f|]; [destruct (f (boff p + bsize p))|]; injection E1 as <- _; reflexivity. }
      assert (FL : filled (sec (with_off off b1)) (length (P ++ [with_off off b1])) (P ++ [with_off off b1]) = off + bsize (with_off off b1)).
      { rewrite app_length. cbn [length]. replace (length P + 1)%nat with (S (length P)) by lia. rewrite filled_snoc, Nat.eqb_refl, SB, <- FI, HO. reflexivity. }
      apply (STEP (with_off off b1) (off + bsize (with_off off b1)) e1 r2 e2); auto.
      unfold passed. rewrite BB. assert (BB' : bc (P ++ with_off off b1 :: r2) (length P) = with_off off b1) by (unfold bc; apply app_nth_eq). 
      assert (ST : start (P ++ with_off off b1 :: r2) (length P) = off) by (unfold start; rewrite BB', filled_app, SB, <- FI; auto).
      rewrite BB', ST. rewrite SB. rewrite HP, <- HO in E1.
      destruct (setter b) as [f|] eqn:SE; [destruct (f off) as [n|] eqn:FO|]; injection E1 as <- <-; cbn; rewrite ?SE, ?FO; repeat split; auto.
Qed.
Lemma offsets_ok : forall B B' e, wfB B -> offsets None 0 B = (B', e) -> length B' = length B /\ forall i, (i < length B)%nat -> passed B B' e i.
Proof.
  intros B B' e W H. destruct (offsets_pre B [] None 0 B' e) as [L K]; auto; cbn.
  - apply (w_sorted B W).
  - intros i I F. apply (w_first B W); [lia|auto].
  - reflexivity.
  - split; auto. intros i I. apply K. cbn. lia.
Qed.

(** * Distances *)
Lemma filled_upd : forall c n f B i, (i < length B)%nat -> sec (f (bc B i)) = sec (bc B i) ->
  filled c n (upd i f B) = filled c n B + (if Nat.ltb i n && Nat.eqb (sec (bc B i)) c then bsize (f (bc B i)) - bsize (bc B i) else 0).
Proof.
  unfold bsize, bc. intros c n f. induction n as [|n IH]; intros [|b B] [|i] L E; cbn in *; try lia.
  - rewrite E. destruct (Nat.eqb (sec b) c); lia.
  - rewrite IH by (auto; lia). change (Nat.ltb (S i) (S n)) with (Nat.ltb i n). destruct (Nat.eqb (sec b) c); lia.
Qed.
(** A term as a pair of boundaries: boundary [n] is the start of bytecode [n]. *)
Definition ends (s : span) (t : term) : nat * nat := match t with Diff p q => (S p, S q) | Rel q => (sbc s, S q) end.
Definition tsec (B : list bcode) (t : term) : nat := match t with Diff p q => sec (bc B q) | Rel q => sec (bc B q) end.
Lemma dist_ends : forall B s t, wf_term B s t -> dist B s t = filled (tsec B t) (snd (ends s t)) B - filled (tsec B t) (fst (ends s t)) B.
Proof.
  intros B s [p q|q] W; cbn [dist ends tsec fst snd wf_term] in *.
  - destruct W as (P & Q & E). rewrite !stop_filled by auto. rewrite E. reflexivity.
  - destruct W as (Q & E). rewrite stop_filled by auto. unfold start. rewrite E. reflexivity.
Qed.
Definition covers (s : span) (t : term) (i : nat) : bool :=
  let '(a, b) := ends s t in (Nat.leb a i && Nat.ltb i b) || (Nat.leb b i && Nat.ltb i a).
Lemma forward_ends : forall s t, forward s t = Nat.ltb (fst (ends s t)) (snd (ends s t)).
Proof.
  intros s [p q|q]; cbn [forward ends fst snd]; [reflexivity|].
  destruct (Z.ltb_spec (Z.of_nat (sbc s) - 1) (Z.of_nat q)); destruct (Nat.ltb_spec (sbc s) (S q)); lia.
Qed.
Lemma range_covers : forall s t i, match range s t with Some (l, h) => (l <=? Z.of_nat i) && (Z.of_nat i <=? h) | None => false end = covers s t i.
Proof.
  intros s t i. unfold range, covers. destruct t as [p q|q]; cbn [ends].
  - destruct (Z.ltb_spec (Z.of_nat p) (Z.of_nat q)); [|destruct (Z.ltb_spec (Z.of_nat q) (Z.of_nat p))];
    repeat match goal with |- context [Nat.leb ?a ?b] => destruct (Nat.leb_spec a b) | |- context [Nat.ltb ?a ?b] => destruct (Nat.ltb_spec a b) | |- context [?a <=? ?b] => destruct (Z.leb_spec a b) end; cbn; try reflexivity; lia.
  - destruct (Z.ltb_spec (Z.of_nat (sbc s) - 1) (Z.of_nat q)); [|destruct (Z.ltb_spec (Z.of_nat q) (Z.of_nat (sbc s) - 1))];
    repeat match goal with |- context [Nat.leb ?a ?b] => destruct (Nat.leb_spec a b) | |- context [Nat.ltb ?a ?b] => destruct (Nat.ltb_spec a b) | |- context [?a <=? ?b] => destruct (Z.leb_spec a b) end; cbn; try reflexivity; lia.
Qed.
Definition samesec (f : bcode -> bcode) : Prop := forall b, sec (f b) = sec b.
Lemma bc_upd : forall f B i j, bc (upd i f B) j = if Nat.eqb i j && Nat.ltb i (length B) then f (bc B j) else bc B j.
Proof. intros. apply upd_nth. Qed.
Lemma sec_upd : forall f B i j, samesec f -> sec (bc (upd i f B) j) = sec (bc B j).
Proof. intros f B i j H. rewrite bc_upd. destruct (_ && _); auto. Qed.
Lemma wf_term_ext : forall B B' s t, length B = length B' -> (forall i, sec (bc B i) = sec (bc B' i)) -> wf_term B s t -> wf_term B' s t.
Proof. intros B B' s [p q|q] L E; cbn; rewrite !E, L; auto. Qed.
Lemma dist_upd : forall f B i s t, samesec f -> (forall i j, (i <= j)%nat -> (j < length B)%nat -> (sec (bc B i) <= sec (bc B j))%nat) ->
  (i < length B)%nat -> (sbc s < length B)%nat -> wf_term B s t ->
  dist (upd i f B) s t = dist B s t + (if covers s t i then (if forward s t then bsize (f (bc B i)) - bsize (bc B i) else - (bsize (f (bc B i)) - bsize (bc B i))) else 0).
Proof.
  intros f B i s t F S L LS W.
  assert (W' : wf_term (upd i f B) s t) by (apply (wf_term_ext B); auto; [rewrite upd_length; auto|intro; rewrite sec_upd; auto]).
  rewrite !dist_ends by auto. assert (TS : tsec (upd i f B) t = tsec B t) by (destruct t; cbn; apply sec_upd; auto). rewrite TS.
  rewrite !filled_upd by auto. rewrite forward_ends.
  assert (CV : covers s t i = true -> sec (bc B i) = tsec B t).
  { unfold covers. destruct t as [p q|q]; cbn [ends tsec wf_term] in *.
    - destruct W as (P & Q & E). intro C. apply orb_true_iff in C. rewrite !andb_true_iff, !Nat.leb_le, !Nat.ltb_lt in C.
      destruct C as [C|C]; [pose proof (S p i ltac:(lia) L); pose proof (S i q ltac:(lia) Q)|pose proof (S q i ltac:(lia) L); pose proof (S i p ltac:(lia) P)]; lia.
    - destruct W as (Q & E). intro C. apply orb_true_iff in C. rewrite !andb_true_iff, !Nat.leb_le, !Nat.ltb_lt in C.
      destruct C as [C|C]; [pose proof (S (sbc s) i ltac:(lia) L); pose proof (S i q ltac:(lia) Q)|pose proof (S q i ltac:(lia) L); pose proof (S i (sbc s) ltac:(lia) LS)]; lia. }
  unfold covers in *. destruct (ends s t) as [a b]. cbn [fst snd] in *. set (ld := bsize (f (bc B i)) - bsize (bc B i)) in *. clearbody ld.
  destruct (Nat.eqb_spec (sec (bc B i)) (tsec B t)) as [E|E].
  - repeat match goal with |- context [Nat.leb ?a ?b] => destruct (Nat.leb_spec a b) | |- context [Nat.ltb ?a ?b] => destruct (Nat.ltb_spec a b) end; cbn; lia.
  - rewrite !andb_false_r. match goal with |- context [if ?c then _ else _] => destruct c eqn:CE end; [elim E; auto|lia].
Qed.

(** * The terms across a bytecode *)
Lemma insert_all_build : forall ops t, insert_all t ops = build t ops.
Proof. induction ops as [|[[l h] d] r IH]; intro t; cbn; auto. Qed.
Definition wanted (ss : list span) (ds : list dyn) (i : nat) (kj : nat * nat) : bool :=
  notgone (nth (fst kj) ds nodyn) && covers (sp ss (fst kj)) (nth (snd kj) (terms (sp ss (fst kj))) (Rel 0)) i.
Lemma seq_nth_map : forall {A} (l : list A) d, map (fun n => nth n l d) (seq 0 (length l)) = l.
Proof.
  intros A l d. induction l as [|x l IH]; auto. cbn [length seq map]. change (nth 0 (x :: l) d) with x. f_equal.
  rewrite <- seq_shift, map_map. exact IH.
Qed.
Lemma flat_map_map : forall {A B C} (f : B -> list C) (g : A -> B) l, flat_map f (map g l) = flat_map (fun x => f (g x)) l.
Proof. induction l; cbn; congruence. Qed.
Lemma filter_flat : forall {A} (p : A -> bool) l, flat_map (fun x => if p x then [x] else []) l = filter p l.
Proof. induction l as [|x l IH]; auto. cbn. rewrite IH. destruct (p x); reflexivity. Qed.
Lemma in_flat : forall ss k j, In (k, j) (M_Optimize.flat ss) <-> (k < length ss)%nat /\ (j < length (terms (sp ss k)))%nat.
Proof.
  intros ss k j. unfold M_Optimize.flat. rewrite in_flat_map. split.
  - intros (x & X & Y). apply in_map_iff in Y. destruct Y as (y & E & Y). injection E as <- <-. apply in_seq in X, Y. unfold sp. lia.
  - intros [K J]. exists k. split; [apply in_seq; lia|]. apply in_map_iff. exists j. split; auto. apply in_seq. unfold sp in J. lia.
Qed.
Lemma NoDup_flat_map : forall {A C} (f : A -> list C) l, NoDup l -> (forall x, In x l -> NoDup (f x)) -> (forall x y z, In x l -> In y l -> In z (f x) -> In z (f y) -> x = y) -> NoDup (flat_map f l).
Proof.
  intros A C f l. induction l as [|x l IH]; intros N F D; cbn; [constructor|]. apply NoDup_cons_iff in N. destruct N as [N1 N2].
  assert (G : forall (a b : list C), NoDup a -> NoDup b -> (forall z, In z a -> In z b -> False) -> NoDup (a ++ b)).
  { intros a b. induction a as [|z a IA]; intros NA NB DD; cbn; auto. apply NoDup_cons_iff in NA. destruct NA. constructor; [rewrite in_app_iff; intros [?|?]; [auto|apply (DD z); cbn; auto]|apply IA; auto; intros w ? ?; apply (DD w); cbn; auto]. }
  apply G; [apply F; cbn; auto|apply IH; auto; [intros; apply F; cbn; auto|intros y1 y2 z ? ?; apply D; cbn; auto]|].
  intros z Z1 Z2. apply in_flat_map in Z2. destruct Z2 as (y & Y1 & Y2). apply N1. rewrite (D x y z); cbn; auto.
Qed.
Lemma flat_nodup : forall ss, NoDup (M_Optimize.flat ss).
Proof.
  intro ss. unfold M_Optimize.flat. apply NoDup_flat_map; [apply seq_NoDup| |].
  - intros x _. apply FinFun.Injective_map_NoDup; [intros a b E; congruence|apply seq_NoDup].
  - intros x y z _ _ X Y. apply in_map_iff in X, Y. destruct X as (a & <- & _), Y as (b & E & _). congruence.
Qed.
Lemma intervals_hits : forall ss ds i, map (fun o => nth (Z.to_nat (snd o)) (M_Optimize.flat ss) (O, O)) (filter (hits (Z.of_nat i) (Z.of_nat i)) (intervals ss ds)) = filter (wanted ss ds i) (M_Optimize.flat ss).
Proof.
  intros ss ds i. unfold intervals.
  rewrite <- (filter_flat (wanted ss ds i)). transitivity (flat_map (fun x => if wanted ss ds i x then [x] else []) (map (fun n => nth n (M_Optimize.flat ss) (O, O)) (seq 0 (length (M_Optimize.flat ss))))); [|rewrite seq_nth_map; reflexivity]. rewrite flat_map_map.
  induction (seq 0 (length (M_Optimize.flat ss))) as [|n l IH]; auto. cbn [flat_map]. rewrite filter_app, map_app. f_equal; [|exact IH]. clear IH.
  destruct (nth n (M_Optimize.flat ss) (O, O)) as [k j] eqn:E. unfold wanted, sp. cbn [fst snd].
  destruct (notgone (nth k ds nodyn)); [|reflexivity]. cbn [andb]. rewrite <- range_covers.
  destruct (range (nth k ss nospan) (nth j (terms (nth k ss nospan)) (Rel 0))) as [[l' h]|]; [|reflexivity].
  cbn [filter hits]. unfold meetsb. destruct ((l' <=? Z.of_nat i) && (Z.of_nat i <=? h)); [|reflexivity].
  cbn [map snd]. rewrite Nat2Z.id, E. reflexivity.
Qed.
Lemma intervals_ok : forall ss ds B, wf ss B -> Forall interval (intervals ss ds).
Proof.
  intros ss ds B W. apply Forall_forall. intros o O. unfold intervals in O. apply in_flat_map in O. destruct O as (n & N & O). apply in_seq in N.
  assert (IF : In (nth n (M_Optimize.flat ss) (0%nat, 0%nat)) (M_Optimize.flat ss)) by (apply nth_In; lia).
  destruct (nth n (M_Optimize.flat ss) (0%nat, 0%nat)) as [k j]. apply in_flat in IF. destruct IF as [K J].
  destruct (notgone (nth k ds nodyn)); [|destruct O].
  assert (IS : In (sp ss k) ss) by (apply nth_In; auto).
  pose proof (w_terms ss B W _ _ IS (nth_In _ (Rel 0) J)) as WT. destruct (w_span ss B W _ IS) as (SL & SN & _). pose proof (w_small ss B W) as SM.
  change (nth k ss nospan) with (sp ss k) in O. unfold range in O.
  destruct (nth j (terms (sp ss k)) (Rel 0)) as [p q|q]; cbn [wf_term] in WT.
  - destruct (Z.ltb_spec (Z.of_nat p) (Z.of_nat q)); [|destruct (Z.ltb_spec (Z.of_nat q) (Z.of_nat p)); [|destruct O]]; (destruct O as [<-|[]]; cbn [interval]; unfold int32; lia).
  - destruct (Z.ltb_spec (Z.of_nat (sbc (sp ss k)) - 1) (Z.of_nat q)); [|destruct (Z.ltb_spec (Z.of_nat q) (Z.of_nat (sbc (sp ss k)) - 1)); [|destruct O]]; (destruct O as [<-|[]]; cbn [interval]; unfold int32; lia).
Qed.
Lemma across_ok : forall ss ds B t i, wf ss B -> (i < length B)%nat -> insert_all Nil (intervals ss ds) = Some t ->
  exists L, across ss t i = Some L /\ Permutation L (filter (wanted ss ds i) (M_Optimize.flat ss)).
Proof.
  intros ss ds B t i W I T. pose proof (w_small ss B W) as SM.
  destruct (enumerate_ok (intervals ss ds) (Z.of_nat i) (Z.of_nat i) (intervals_ok ss ds B W)) as (t' & out & A & E & P); try (unfold int32; lia).
  rewrite insert_all_build in T. rewrite T in A. injection A as <-. unfold across. rewrite E. eexists. split; [reflexivity|].
  rewrite <- intervals_hits. apply Permutation_map. exact P.
Qed.
Lemma tree_ok : forall ss ds, exists t, insert_all Nil (intervals ss ds) = Some t.
Proof. intros. destruct (balanced (intervals ss ds)) as (t & n & E & _). exists t. rewrite insert_all_build. exact E. Qed.

(** * The state of one span *)
Definition live (d : dyn) : bool := match act d with On | Queued => true | _ => false end.
Definition stage (s : span) (d : dyn) : nat := (length (forms s) - length (left d))%nat.
Definition over (s : span) (d : dyn) : bool :=
  if any s then negb (new_val s d =? cur d) else (new_val s d <? lo d) || (hi d <? new_val s d).
Lemma recalc_eq : forall s d, recalc s d = (match value s with None => with_act Off d | Some _ => d end, over s d).
Proof. reflexivity. Qed.
Record loc (s : span) (d : dyn) (bad : bool) : Prop := {
  l_left : left d = skipn (stage s d) (forms s);
  l_reach : reach s (stage s d);
  l_lim : limits s (stage s d) = Some (lo d, hi d) \/ limits s (stage s d) = None /\ live d = false;
  l_on : act d = On -> bad = false -> over s d = false;
  l_live : live d = true -> value s <> None;
  l_dead : live d = false -> any s = false /\ (limits s (stage s d) = None \/ value s = None /\ lo d <= LONG_MAX <= hi d)
}.
Definition dy (z : st) (k : nat) : dyn := nth k (dyns z) nodyn.
Record dinv (ss : list span) (z : st) : Prop := {
  d_len : length (dyns z) = length ss;
  d_loc : forall k, (k < length ss)%nat -> loc (sp ss k) (dy z k) (bad z);
  d_nodup : NoDup (qa z ++ qb z);
  d_queue : forall k, In k (qa z ++ qb z) <-> act (dy z k) = Queued
}.
(** What the updates of terms leave alone. *)
Definition kept (z z' : st) : Prop :=
  bcs z' = bcs z /\ oss z' = oss z /\ err z' = err z /\ bad z' = bad z /\ length (dyns z') = length (dyns z) /\
  forall k, cur (dy z' k) = cur (dy z k) /\ left (dy z' k) = left (dy z k) /\ live (dy z' k) = live (dy z k) /\ (live (dy z k) = false -> dy z' k = dy z k).
Lemma kept_refl : forall z, kept z z.
Proof. intro z. repeat split; auto. Qed.
Lemma kept_trans : forall a b c, kept a b -> kept b c -> kept a c.
Proof.
  intros a b c (A1 & A2 & A3 & A4 & A5 & A6) (B1 & B2 & B3 & B4 & B5 & B6). repeat split; try congruence.
  - destruct (A6 k), (B6 k); congruence.
  - destruct (A6 k) as (_ & ? & _), (B6 k) as (_ & ? & _); congruence.
  - destruct (A6 k) as (_ & _ & ? & _), (B6 k) as (_ & _ & ? & _); congruence.
  - intro H. destruct (A6 k) as (_ & _ & ? & X), (B6 k) as (_ & _ & ? & Y). rewrite Y by congruence. auto.
Qed.
Lemma loc_vals : forall s d v b, loc s d b -> act d = Queued -> loc s (with_vals v d) b.
Proof. intros s d v b [A1 A2 A3 A4 A5 A6] Q. constructor; auto. cbn. intro C. congruence. Qed.
Lemma loc_on : forall s d v b, loc s d b -> act d = On -> over s (with_vals v d) = false -> loc s (with_vals v d) b.
Proof. intros s d v b [A1 A2 A3 A4 A5 A6] Q O. constructor; auto. Qed.
Lemma loc_queued : forall s d v b, loc s d b -> act d = On -> loc s (with_act Queued (with_vals v d)) b.
Proof.
  intros s d v b [A1 A2 A3 A4 A5 A6] Q. assert (LV : live d = true) by (unfold live; rewrite Q; auto). constructor; auto; cbn.
  - destruct A3 as [A3|[A3 N]]; [left; exact A3|congruence].
  - discriminate.
  - discriminate.
Qed.
Definition shift (s : span) (j : nat) (diff v : Z) : Z := if forward s (nth j (terms s) (Rel 0)) then v + diff else v - diff.
Lemma term_expand_ok : forall ss diff z k j, dinv ss z -> (k < length ss)%nat ->
  dinv ss (term_expand ss diff z (k, j)) /\ kept z (term_expand ss diff z (k, j)) /\
  forall m, live (dy z m) = true -> vals (dy (term_expand ss diff z (k, j)) m) = if Nat.eqb k m then upd j (shift (sp ss k) j diff) (vals (dy z m)) else vals (dy z m).
Proof.
  intros ss diff z k j [DL DC DN DQ] K. unfold term_expand. fold (sp ss k). fold (dy z k).
  pose proof (DC k K) as LK.
  assert (UPD : forall d k2, nth k2 (upd k (fun _ => d) (dyns z)) nodyn = if Nat.eqb k k2 then d else dy z k2).
  { intros d k2. rewrite upd_nth. rewrite DL. apply Nat.ltb_lt in K. rewrite K, andb_true_r. reflexivity. }
  set (v := upd j _ (vals (dy z k))).
  assert (KEEP : forall d A Bq, act d <> Gone -> act d <> Off -> cur d = cur (dy z k) -> left d = left (dy z k) -> live (dy z k) = true ->
            kept z (St (bcs z) (upd k (fun _ => d) (dyns z)) A Bq (oss z) (err z) (bad z))).
  { intros d A Bq G F C LE LV. repeat split; cbn; auto; try (rewrite upd_length; auto); unfold dy; cbn [dyns]; rewrite UPD; destruct (Nat.eqb_spec k k0) as [->|N]; auto.
    - unfold live. destruct (act d); try congruence. unfold live, dy in LV. symmetry. exact LV. symmetry. exact LV.
    - intro C'. unfold dy in LV. congruence. }
  assert (VAL : forall d A Bq, vals d = v -> forall m, live (dy z m) = true -> vals (dy (St (bcs z) (upd k (fun _ => d) (dyns z)) A Bq (oss z) (err z) (bad z)) m) = (if Nat.eqb k m then upd j (shift (sp ss k) j diff) (vals (dy z m)) else vals (dy z m))).
  { intros d A Bq E m _. unfold dy at 1. cbn [dyns]. rewrite UPD. destruct (Nat.eqb_spec k m) as [->|N]; auto. }
  destruct (act (dy z k)) eqn:AC.
  - split; [constructor; auto|]. split; [apply kept_refl|]. intros m LM. destruct (Nat.eqb_spec k m) as [<-|N]; auto. unfold live in LM. rewrite AC in LM. discriminate.
  - split; [constructor; auto|]. split; [apply kept_refl|]. intros m LM. destruct (Nat.eqb_spec k m) as [<-|N]; auto. unfold live in LM. rewrite AC in LM. discriminate.
  - assert (LV : live (dy z k) = true) by (unfold live; rewrite AC; auto).
    rewrite recalc_eq. destruct (value (sp ss k)) eqn:VS; [|elim (l_live _ _ _ LK LV VS)].
    destruct (over (sp ss k) (with_vals v (dy z k))) eqn:OV.
    + split; [|split; [apply KEEP; cbn; auto; discriminate|apply VAL; reflexivity]].
      assert (NI : ~ In k (qa z ++ qb z)) by (rewrite DQ, AC; discriminate).
      assert (PM : Permutation ((if any (sp ss k) then qa z ++ [k] else qa z) ++ (if any (sp ss k) then qb z else qb z ++ [k])) (k :: qa z ++ qb z)).
      { destruct (any (sp ss k)); [rewrite <- app_assoc; cbn; symmetry; apply Permutation_middle|rewrite app_assoc; symmetry; apply Permutation_cons_append]. }
      constructor; cbn [dyns bad qa qb].
      * rewrite upd_length. auto.
      * intros m M. unfold dy. cbn [dyns]. rewrite UPD. destruct (Nat.eqb_spec k m) as [<-|N]; [apply loc_queued; auto|apply DC; auto].
      * apply (Permutation_NoDup (Permutation_sym PM)). constructor; auto.
      * intro m. unfold dy. cbn [dyns]. rewrite UPD. split.
        -- intro I. apply (Permutation_in _ PM) in I. destruct (Nat.eqb_spec k m); [reflexivity|]. destruct I as [I|I]; [congruence|]. apply DQ. auto.
        -- intro A. apply (Permutation_in _ (Permutation_sym PM)). destruct (Nat.eqb_spec k m); [left; auto|]. right. apply DQ. auto.
    + unfold set_dyn. split; [|split; [apply KEEP; cbn; rewrite ?AC; auto; discriminate|apply VAL; reflexivity]].
      constructor; cbn [dyns bad qa qb]; auto.
      * rewrite upd_length. auto.
      * intros m M. unfold dy. cbn [dyns]. rewrite UPD. destruct (Nat.eqb_spec k m) as [<-|N]; [apply loc_on; auto|apply DC; auto].
      * intro m. unfold dy. cbn [dyns]. rewrite UPD. rewrite DQ. destruct (Nat.eqb_spec k m) as [<-|N]; [cbn; tauto|reflexivity].
  - assert (LV : live (dy z k) = true) by (unfold live; rewrite AC; auto).
    unfold set_dyn. split; [|split; [apply KEEP; cbn; rewrite ?AC; auto; discriminate|apply VAL; reflexivity]].
    constructor; cbn [dyns bad qa qb]; auto.
    + rewrite upd_length. auto.
    + intros m M. unfold dy. cbn [dyns]. rewrite UPD. destruct (Nat.eqb_spec k m) as [<-|N]; [apply loc_vals; auto|apply DC; auto].
    + intro m. unfold dy. cbn [dyns]. rewrite UPD. rewrite DQ. destruct (Nat.eqb_spec k m) as [<-|N]; [cbn; tauto|reflexivity].
Qed.
Definition pair_dec : forall a b : nat * nat, {a = b} + {a <> b}.
Proof. intros [a b] [c d]. destruct (Nat.eq_dec a c), (Nat.eq_dec b d); [left|right|right|right]; congruence. Defined.
Lemma fold_ok : forall ss diff L z, dinv ss z -> (forall k j, In (k, j) L -> (k < length ss)%nat) ->
  dinv ss (fold_left (term_expand ss diff) L z) /\ kept z (fold_left (term_expand ss diff) L z) /\
  forall m, live (dy z m) = true -> length (vals (dy (fold_left (term_expand ss diff) L z) m)) = length (vals (dy z m)) /\
    forall j, (j < length (vals (dy z m)))%nat -> nth j (vals (dy (fold_left (term_expand ss diff) L z) m)) 0 =
      nth j (vals (dy z m)) 0 + Z.of_nat (count_occ pair_dec L (m, j)) * (if forward (sp ss m) (nth j (terms (sp ss m)) (Rel 0)) then diff else - diff).
Proof.
  intros ss diff L. induction L as [|[k j] L IH]; intros z D HL.
  - cbn. split; auto. split; [apply kept_refl|]. intros m _. split; auto. intros. lia.
  - cbn [fold_left]. destruct (term_expand_ok ss diff z k j D (HL k j (or_introl eq_refl))) as (D1 & K1 & V1).
    destruct (IH _ D1 (fun a b I => HL a b (or_intror I))) as (D2 & K2 & V2). set (z1 := term_expand ss diff z (k, j)) in *.
    split; auto. split; [apply (kept_trans _ z1); auto|]. intros m LM.
    assert (LM1 : live (dy z1 m) = true) by (destruct K1 as (_ & _ & _ & _ & _ & K1); destruct (K1 m) as (_ & _ & E & _); congruence).
    destruct (V2 m LM1) as [L2 N2]. specialize (V1 m LM).
    assert (L1 : length (vals (dy z1 m)) = length (vals (dy z m))) by (rewrite V1; destruct (Nat.eqb k m); [apply upd_length|auto]).
    split; [congruence|]. intros i I. rewrite N2 by lia. rewrite V1. cbn [count_occ].
    destruct (pair_dec (k, j) (m, i)) as [E|E].
    + injection E as -> ->. rewrite Nat.eqb_refl, upd_same by auto. unfold shift. destruct (forward (sp ss m) (nth i (terms (sp ss m)) (Rel 0))); lia.
    + destruct (Nat.eqb_spec k m) as [->|N]; auto. rewrite upd_other by congruence. reflexivity.
Qed.
Lemma nth_ext0 : forall (a b : list Z), length a = length b -> (forall j, (j < length a)%nat -> nth j a 0 = nth j b 0) -> a = b.
Proof. intros a b L H. apply (nth_ext a b 0 0); auto. Qed.
Lemma touch_ok : forall ss ds0 B0 B t i f z, wf ss B0 -> wfB B -> length B = length B0 -> (forall j, sec (bc B j) = sec (bc B0 j)) ->
  insert_all Nil (intervals ss ds0) = Some t -> (i < length B0)%nat -> samesec f -> bcs z = upd i f B -> dinv ss z ->
  (forall k, live (dy z k) = true -> notgone (nth k ds0 nodyn) = true) ->
  (forall k, live (dy z k) = true -> vals (dy z k) = map (dist B (sp ss k)) (terms (sp ss k))) ->
  exists z', touch ss t i (bsize (f (bc B i)) - bsize (bc B i)) z = Some z' /\ dinv ss z' /\ kept z z' /\
    forall k, live (dy z' k) = true -> vals (dy z' k) = map (dist (bcs z') (sp ss k)) (terms (sp ss k)).
Proof.
  intros ss ds0 B0 B t i f z W WB LB SB T I F EB D NG V.
  destruct (across_ok ss ds0 B0 t i W I T) as (L & A & P). unfold touch. rewrite A. eexists. split; [reflexivity|].
  assert (INL : forall k j, In (k, j) L -> (k < length ss)%nat).
  { intros k j IL. apply (Permutation_in _ P) in IL. apply filter_In in IL. destruct IL as [IL _]. apply in_flat in IL. tauto. }
  destruct (fold_ok ss (bsize (f (bc B i)) - bsize (bc B i)) L z D INL) as (D1 & K1 & V1). split; auto. split; auto.
  set (z' := fold_left _ L z) in *. intros k LK. destruct K1 as (KB & _ & _ & _ & KL & K1). destruct (K1 k) as (_ & _ & LV & _).
  assert (LZ : live (dy z k) = true) by congruence. destruct (V1 k LZ) as [N1 N2]. specialize (V k LZ).
  assert (KK : (k < length ss)%nat).
  { destruct (Nat.lt_ge_cases k (length ss)); auto. unfold dy in LZ. rewrite nth_overflow in LZ by (rewrite (d_len ss z D); auto). discriminate. }
  assert (IS : In (sp ss k) ss) by (apply nth_In; auto).
  apply nth_ext0; [rewrite N1, V, !map_length; auto|]. intros j J. rewrite N1 in J. rewrite N2 by auto. rewrite V in J |- *. rewrite map_length in J.
  rewrite (nth_indep _ 0 (dist B (sp ss k) (Rel 0))) by (rewrite map_length; auto). rewrite map_nth.
  rewrite (nth_indep (map (dist (bcs z') _) _) 0 (dist (bcs z') (sp ss k) (Rel 0))) by (rewrite map_length; auto). rewrite map_nth.
  pose proof (w_terms ss B0 W _ _ IS (nth_In _ (Rel 0) J)) as WT. destruct (w_span ss B0 W _ IS) as (SL & _ & _).
  rewrite KB, EB. rewrite dist_upd; auto.
  - f_equal. rewrite (Permutation_count_occ pair_dec) in P. rewrite P.
    assert (IF : In (k, j) (M_Optimize.flat ss)) by (apply in_flat; auto).
    assert (ND : NoDup (filter (wanted ss ds0 i) (M_Optimize.flat ss))) by (apply NoDup_filter, flat_nodup).
    destruct (covers (sp ss k) (nth j (terms (sp ss k)) (Rel 0)) i) eqn:C.
    + assert (IN : In (k, j) (filter (wanted ss ds0 i) (M_Optimize.flat ss))).
      { apply filter_In. split; auto. unfold wanted. cbn [fst snd]. rewrite C, (NG k LZ). reflexivity. }
      rewrite (NoDup_count_occ' pair_dec) in ND. rewrite (ND _ IN). lia.
    + assert (NI : ~ In (k, j) (filter (wanted ss ds0 i) (M_Optimize.flat ss))).
      { rewrite filter_In. unfold wanted. cbn [fst snd]. rewrite C, andb_false_r. intros [_ ?]. discriminate. }
      rewrite (count_occ_not_In pair_dec) in NI. rewrite NI. lia.
  - apply (w_sorted B WB).
  - lia.
  - lia.
  - apply (wf_term_ext B0); auto.
Qed.
