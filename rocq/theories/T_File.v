(** Property theorems for libyasm/file.c: C40, C41, C42, C51. *)
From Coq Require Import ZArith List Bool Lia.
From Verif Require Import M_File P_File.
Import ListNotations.
Open Scope Z_scope.

(** C40.  If [d] is the text of [p] through its last slash and no directory name in it ends in a
    single dot (the component "." itself is allowed), the head returned names the same
    directories ("." and empty components aside), is absolute exactly when [d] is, does not end
    in a slash unless it is "/", and the tail is what follows the last slash. *)
Theorem C40_split_correct : forall p d t, dir_part p d t -> Forall (fun c => ~ bad c) (comps d) ->
  exists n, splitpath p = (Z.of_nat n, t) /\ (n <= length d)%nat /\
    names (firstn n p) = names d /\ absolute (firstn n p) = absolute d /\
    (forall u c, firstn n p = u ++ [c; SLASH] -> False).
Proof. exact split_correct. Qed.
Print Assumptions C40_split_correct.

(** C40.  For every path at all: the tail is the text after the last slash. *)
Theorem C40_tail : forall p d t, dir_part p d t -> exists n, splitpath p = (Z.of_nat n, t) /\ (n <= length d)%nat.
Proof. exact split_tail. Qed.
Print Assumptions C40_tail.

(** C40.  Refutation for names ending in one dot: "a./b" has directory "a.", the head is "a". *)
Theorem C40_refuted : exists p d t n, dir_part p d t /\ splitpath p = (Z.of_nat n, t) /\
  names (firstn n p) <> names d.
Proof. exact split_refuted. Qed.
Print Assumptions C40_refuted.

(** Meets the hypotheses: "a/..b//./c.d". *)
Example C40_example :
  let d := [97; 47; 46; 46; 98; 47; 47; 46; 47] in let t := [99; 46; 100] in
  dir_part (d ++ t) d t /\ Forall (fun c => ~ bad c) (comps d) /\ splitpath (d ++ t) = (5, t).
Proof.
  cbv zeta. split; [|split].
  - split; [reflexivity|]. split; [|right; exists [97; 47; 46; 46; 98; 47; 47; 46]; reflexivity].
    simpl. intros X. repeat destruct X as [X|X]; try discriminate; auto.
  - vm_compute comps. repeat constructor; intros (x & e & X & N).
    + destruct x as [|? [|? x]]; discriminate.
    + destruct x as [|? [|? [|? x]]]; try discriminate. destruct x; discriminate.
    + destruct x as [|? x]; try discriminate. destruct x; discriminate.
  - vm_compute. reflexivity.
Qed.

(** C41.  Combination always ends, its result never contains two slashes in a row, and with its
    terminator fits in the memory allocated for it. *)
Theorem C41_total : forall from to, exists out, combpath from to = Some out /\ no_double_slash out /\
  Z.of_nat (length out) + 1 <= comb_alloc from to.
Proof. exact combpath_total. Qed.
Print Assumptions C41_total.

(** C41.  The result resolves to the same place as walking the components of [to] from the
    directory of [from] ("." staying, ".." climbing).  Required: the base has no name ending in a
    single dot and no "." component except a run of "./" at its end; or [to] does not begin by
    climbing. *)
Theorem C41_resolves : forall from to d t, dir_part from d t -> base_ok d to ->
  exists out, combpath from to = Some out /\
    place out = if absolute to then place to else (absolute d, resolve (absolute d) (comps d ++ comps to)).
Proof. exact combpath_place. Qed.
Print Assumptions C41_resolves.

(** C41.  Refutation for a base holding "." as a component: from "./b/x", "../../y" becomes "y"
    where walking gives "../y". *)
Theorem C41_refuted : exists from to d t out, dir_part from d t /\ absolute to = false /\
  combpath from to = Some out /\ place out <> (absolute d, resolve (absolute d) (comps d ++ comps to)).
Proof. exact combpath_refuted. Qed.
Print Assumptions C41_refuted.

(** Meets the hypotheses: from "../a//b/./f", to ".././../..//c/d". *)
Example C41_example :
  dir_part ([46; 46; 47; 97; 47; 47; 98; 47; 46; 47] ++ [102]) [46; 46; 47; 97; 47; 47; 98; 47; 46; 47] [102] /\ base_ok [46; 46; 47; 97; 47; 47; 98; 47; 46; 47] [46; 46; 47; 46; 47; 46; 46; 47; 46; 46; 47; 47; 99; 47; 100] /\ combpath ([46; 46; 47; 97; 47; 47; 98; 47; 46; 47] ++ [102]) [46; 46; 47; 46; 47; 46; 46; 47; 46; 46; 47; 47; 99; 47; 100] = Some [46; 46; 47; 46; 46; 47; 99; 47; 100].
Proof.
  split; [|split].
  - split; [reflexivity|]. split; [|right; exists [46; 46; 47; 97; 47; 47; 98; 47; 46]; reflexivity].
    simpl. intros X. repeat destruct X as [X|X]; try discriminate; auto.
  - left. exists [46; 46; 47; 97; 47; 47; 98; 47], 1%nat. split; [reflexivity|]. split; [right; exists [46; 46; 47; 97; 47; 47; 98]; reflexivity|].
    vm_compute comps. repeat constructor; intros [X|(x & e & X & N)]; try discriminate;
      repeat (destruct x as [|? x]; try discriminate); injection X; intros; subst; apply N; reflexivity.
  - vm_compute. reflexivity.
Qed.

(** C42.  Unescaping gives exactly the meaning of the escaped text, for every byte string. *)
Theorem C42_meaning : forall s o, unescape s = Some o <-> Dec s o.
Proof. exact unescape_correct. Qed.
Print Assumptions C42_meaning.

(** C42.  It always ends and never grows. *)
Theorem C42_never_grows : forall s, exists o, unescape s = Some o /\ (length o <= length s)%nat.
Proof. exact unescape_total. Qed.
Print Assumptions C42_never_grows.

(** C42.  Any byte string survives being written with escapes and unescaped. *)
Theorem C42_round_trip : forall s, Forall (fun c => 0 <= c < 256) s -> unescape (write_bytes s) = Some s.
Proof. exact unescape_write. Qed.
Print Assumptions C42_round_trip.

(** C42.  Run in place, reading and overwriting one buffer, the result is still the meaning of
    the original text, and lies within the buffer. *)
Theorem C42_in_place : forall m, exists m' n, unesc_mem (length m) m 0 0 = Some (m', n) /\ length m' = length m /\
  (n <= length m)%nat /\ Dec m (firstn n m').
Proof. exact in_place. Qed.
Print Assumptions C42_in_place.

Example C42_example :
  let s := [0; 34; 65; 92; 200; 255; 10] in
  Forall (fun c => 0 <= c < 256) s /\
  write_bytes s = [92; 48; 48; 48; 92; 34; 65; 92; 92; 92; 51; 49; 48; 92; 51; 55; 55; 92; 48; 49; 50] /\
  unescape [92; 49; 48; 49; 92; 120; 49; 50; 51; 70; 92; 110; 92; 34; 83; 92] = Some [65; 0x3F; 10; 34; 83; 92].
Proof. split; [repeat constructor; lia|]. split; vm_compute; reflexivity. Qed.

(** C51.  Whatever the lexer and the input do, the buffer shows the lexer the input stream: the
    text from the current token on is the stream's, and the cursor and marker stand at the same
    distance from the token's start; all within the bytes held. *)
Theorem C51_refines_stream : forall l a, blocks_ok l -> a_run a_init l = Some a ->
  let c := c_run scan_init l in
  skipn (Z.to_nat (tok c)) (bytes c) = skipn (Z.to_nat (a_tok a)) (text a) /\
  cur c - tok c = a_cur a - a_tok a /\ ptr c - tok c = a_ptr a - a_tok a /\ eof c = ended a /\
  0 <= tok c <= cur c /\ cur c <= Z.of_nat (length (bytes c)).
Proof. exact scan_refines. Qed.
Print Assumptions C51_refines_stream.

(** C51.  A fill never writes beyond the buffer, the closing newline included. *)
Theorem C51_in_bounds : forall l a b, blocks_ok l -> a_run a_init l = Some a -> Z.of_nat (length b) <= BSIZE ->
  let c := c_run scan_init l in snd (fill c b) <= cap (fst (fst (fill c b))).
Proof. exact scan_writes. Qed.
Print Assumptions C51_in_bounds.

(** C51.  A fill reports being the first exactly when no fill came before it. *)
Theorem C51_first : forall l b, snd (fst (fill (c_run scan_init l) b)) = true <-> (forall b', ~ In (Fill b') l).
Proof. exact fill_first. Qed.
Print Assumptions C51_first.

Example C51_example :
  let l := [Fill [97; 98; 99]; Advance 2; SetTok; Mark; Advance 1; Fill [100; 101]; Back; Advance 3; SetTok; Fill []; Fill [1]] in
  blocks_ok l /\ a_run a_init l = Some (Str [97; 98; 99; 100; 101] 5 2 5 true) /\
  c_run scan_init l = Scan true [] 0 (-3) 0 8193 true.
Proof. split; [repeat constructor; discriminate|]. split; vm_compute; reflexivity. Qed.
