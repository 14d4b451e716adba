(** Theorems on the listing file: C90. *)
From Coq Require Import ZArith List Bool Lia.
From Verif Require Import Lib M_Listing P_Listing.
Import ListNotations.
Open Scope Z_scope.

(** C90: a reader recovers from the listing, numbered without holes, for each line of source its text, and for each
    of its bytecodes the offset and the bytes of the first copy. *)
Theorem C90_listing : forall l relocs, Forall line_ok l -> Z.of_nat (length (listing l relocs)) < 2 ^ 64 ->
  exists gs, read_listing (listing l relocs) = Some (concat gs) /\ (forall k r, nth_error (concat gs) k = Some r -> rnum r = 1 + Z.of_nat k) /\ Forall2 line_shown (sourced l) gs.
Proof. exact listing_ok. Qed.
Print Assumptions C90_listing.
(** On a line with one bytecode the brackets are around the relocated fields. *)
Theorem C90_brackets : forall b n t p later c, bc_ok b -> lgap b = false -> copy_of b c -> 0 <= n -> n + Z.of_nat (length c) <= 10 ^ 20 -> ~ In 10 t -> (forall f, In f (lfields b) -> 0 <= loffset b + roff f < 2 ^ 64) ->
  NoDup (map (faddr b) (lfields b)) -> (forall f, In f (lfields b) -> ~ In (faddr b f) later) -> in_order (Z.of_nat (length c)) 0 (filter p (lfields b)) ->
  exists ls rws its, bytecodes [b] n (Some t) (map (faddr b) (filter p (lfields b)) ++ later) [] = (ls, n + Z.of_nat (length ls), later) /\ map read_row ls = map Some rws /\
    chunks (loffset b) (lmult b) (Some t) its rws /\ bytes_of its = c /\ marks 0 its = flat_map field_marks (filter (within (Z.of_nat (length c))) (filter p (lfields b))).
Proof. exact brackets_ok. Qed.
Print Assumptions C90_brackets.
(** A line is missing exactly when it has bytecodes and all of them are empty. *)
Theorem C90_missing : forall src bcs rws, bcs_shown src bcs rws -> (rws = [] <-> Forall (fun b => lgap b = false /\ copy_of b []) bcs).
Proof. exact missing. Qed.
Print Assumptions C90_missing.

(** "abc" without bytes; a call with a relocated field at 1, three times 12 bytes with a field at 8; a gap. *)
Definition ycall : lbc := Lbc 0 [232; 1; 2; 3; 4] false 1 [Reloc 1 4 true].
Definition ydata : lbc := Lbc 5 (concat (repeat [1; 2; 3; 4; 5; 6; 7; 8; 9; 10; 11; 12] 3)) false 3 [Reloc 8 4 false; Reloc 20 4 false; Reloc 32 4 false].
Definition ygap : lbc := Lbc 41 [] true 1 [].
Definition ylines : list sline := [Sline (Some [97; 98; 99]) None; Sline (Some [99]) (Some (0, [ycall])); Sline (Some [100]) (Some (0, [ydata])); Sline (Some [103]) (Some (0, [ygap]))].
Definition yrel (q : Z) : list Z := if q =? 0 then [1; 13; 25; 37] else [].
Example C90_ex : Forall line_ok ylines /\ read_listing (listing ylines yrel) = Some [
    RText 1 [97; 98; 99];
    RBytes 2 0 [Byte 232; Open true; Byte 1; Byte 2; Byte 3; Byte 4; Close true] false false (Some [99]);
    RBytes 3 5 [Byte 1; Byte 2; Byte 3; Byte 4; Byte 5; Byte 6; Byte 7; Byte 8; Open false; Byte 9] true false (Some [100]);
    RBytes 4 5 [Byte 10; Byte 11; Byte 12; Close false] false true None;
    RGap 5 41 [103]].
Proof.
  split; [|vm_compute; reflexivity]. assert (B : Forall bc_ok [ycall; ydata; ygap]).
  { repeat (apply Forall_cons; [split; [cbn; lia|]; split; [apply Forall_forall; intros x H; cbn in H; unfold byte; intuition lia|intros _; vm_compute]|]); [exists 5; reflexivity|exists 12; reflexivity|exists 0; reflexivity|constructor]. }
  inversion B as [|? ? B1 B']; subst. inversion B' as [|? ? B2 B'']; subst. inversion B'' as [|? ? B3 _]; subst.
  repeat (apply Forall_cons; [split; [intros t H; injection H as <-; cbn; intuition discriminate|intros q bcs H; try discriminate H; injection H as <- <-; auto]|]). constructor.
Qed.
Example C90_ex_brackets : exists ls rws its, bytecodes [ydata] 3 (Some [100]) (map (faddr ydata) (filter (fun _ => true) (lfields ydata)) ++ [99]) [] = (ls, 3 + Z.of_nat (length ls), [99]) /\ map read_row ls = map Some rws /\ chunks 5 3 (Some [100]) its rws /\ marks 0 its = [(8, true, false); (12, false, false)].
Proof.
  destruct (C90_brackets ydata 3 [100] (fun _ => true) [99] [1; 2; 3; 4; 5; 6; 7; 8; 9; 10; 11; 12]) as (ls & rws & its & A & B & C & _ & D).
  - split; [cbn; lia|]. split; [apply Forall_forall; intros x H; cbn in H; unfold byte; intuition lia|intros _; exists 12; reflexivity].
  - reflexivity.
  - right. split; [cbn; lia|]. split; [reflexivity|]. eexists. reflexivity.
  - lia.
  - vm_compute. discriminate.
  - cbn. intuition discriminate.
  - intros f H. cbn [lfields ydata In] in H. repeat (destruct H as [<-|H]; [cbn [loffset ydata roff]; lia|]). contradiction H.
  - cbn. repeat (apply NoDup_cons; [cbn; intuition discriminate|]). apply NoDup_nil.
  - intros f H. cbn [lfields ydata In] in H. repeat (destruct H as [<-|H]; [vm_compute; intuition discriminate|]). contradiction H.
  - cbn [lfields ydata filter in_order roff rsize length]. lia.
  - exists ls, rws, its. auto.
Qed.
(** A row that continues a bytecode repeats the offset of its first byte: byte 10 of [ydata] is at 14, and row 4 of
    the example above says 5. *)
Theorem C90_address_refuted : exists l relocs n a its r, Forall line_ok l /\ read_listing (listing l relocs) = Some [RBytes 1 5 [Byte 1; Byte 2; Byte 3; Byte 4; Byte 5; Byte 6; Byte 7; Byte 8; Byte 9] true false r; RBytes n a its false false None] /\
  l = [Sline r (Some (0, [Lbc 5 [1; 2; 3; 4; 5; 6; 7; 8; 9; 10] false 1 []]))] /\ bytes_of its = [10] /\ a <> 5 + 9.
Proof.
  exists [Sline (Some [100]) (Some (0, [Lbc 5 [1; 2; 3; 4; 5; 6; 7; 8; 9; 10] false 1 []]))], (fun _ => []), 2, 5, [Byte 10], (Some [100]). split.
  - constructor; [|constructor]. split; [intros t H; injection H as <-; cbn; intuition discriminate|]. intros q bcs H. injection H as <- <-. constructor; [|constructor]. split; [cbn; lia|]. split; [apply Forall_forall; intros x H; cbn in H; unfold byte; intuition lia|intros _; exists 10; reflexivity].
  - split; [vm_compute; reflexivity|]. split; [reflexivity|]. split; [reflexivity|discriminate].
Qed.
Print Assumptions C90_address_refuted.
(** Two bytecodes on a line: a call, and 8 bytes with a square field from 4 to 6.  The second shows the field of the
    call (round, from 1 to 5), and a closing bracket that was not opened. *)
Theorem C90_second_refuted : read_listing (listing [Sline (Some [99]) (Some (0, [ycall; Lbc 5 [1; 2; 3; 4; 5; 6; 7; 8] false 1 [Reloc 4 2 false]]))] (fun _ => [1; 9])) =
  Some [RBytes 1 0 [Byte 232; Open true; Byte 1; Byte 2; Byte 3; Byte 4; Close true] false false (Some [99]);
        RBytes 2 5 [Byte 1; Open true; Byte 2; Byte 3; Byte 4; Byte 5; Close true; Byte 6; Close false; Byte 7; Byte 8] false false None].
Proof. vm_compute. reflexivity. Qed.
Print Assumptions C90_second_refuted.
(** The source of a line whose only bytecode is empty, as "align 4" at 0, is not in the listing. *)
Theorem C90_lost_refuted : exists t, listing [Sline (Some t) (Some (0, [Lbc 0 [] false 1 []]))] (fun _ => []) = [] /\ t <> [].
Proof. exists [97; 108; 105; 103; 110; 32; 52]. split; [reflexivity|discriminate]. Qed.
Print Assumptions C90_lost_refuted.
