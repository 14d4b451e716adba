(** Property theorems for modules/objfmts/bin/bin-objfmt.c: C37, C66, C67, C68, C69. *)
From Coq Require Import ZArith List Bool Lia.
From Verif Require Import Lib M_Intnum P_Intnum M_BinObj P_BinNum P_BinForest P_BinObj P_BinTop P_BinMain P_BinOut P_BinSwitch.
Import ListNotations.
Open Scope Z_scope.

(** C37.  [wf]: any number of sections with distinct names, less than 4 GiB each, alignments that are
    powers of two, any follows, vfollows, start, vstart and valign.  Every section has a load address
    that is a multiple of its alignment: a section with a start has the first such address not below
    it; one that follows another the first not below the end of that one; any other the first not
    below the origin and the ends of all sections placed before it, in the order [root_order]. *)
Theorem C37_placement : forall o l m w e, wf l -> org_ok o -> layout o l = Placed m w e ->
  exists R, root_order l R /\ load_addresses (ival o) l R (LMA m).
Proof. exact placement. Qed.
Print Assumptions C37_placement.
(** C37.  The overlap check passes exactly if no two sections have a byte in common; what it reports
    is a real overlap; and whatever is written has none. *)
Theorem C37_overlap : forall o l m w e, wf l -> org_ok o -> layout o l = Placed m w e ->
  (check_overlap m l 0 l = None <-> all_apart l (LMA m)) /\
  forall x, check_overlap m l 0 l = Some x -> exists i j n b c s t, x = Overlap i j n /\ i <> j /\ nth_error l i = Some b /\ nth_error l j = Some c /\ LMA m i = Some s /\ LMA m j = Some t /\ ~ apart b s c t.
Proof. exact overlap_checked. Qed.
Print Assumptions C37_overlap.
(** C37.  Sections placed after one another do not overlap: without explicit starts, and with no two
    sections following the same one, no two sections have a byte in common. *)
Theorem C37_no_overlap : forall o l m w e, wf l -> org_ok o -> layout o l = Placed m w e -> (forall b, In b l -> start b = None) ->
  (forall i j b c f, nth_error l i = Some b -> nth_error l j = Some c -> follows b = Some f -> follows c = Some f -> i = j) -> all_apart l (LMA m).
Proof. exact no_overlap. Qed.
Print Assumptions C37_no_overlap.

Definition sec (n : Z) (nobits : bool) (ln : Z) (a va : option Z) (st vs : option Z) (fo vf : option Z) : sect :=
  Sect [n] nobits 0 ln (option_map IL a) (option_map IL va) (option_map (fun x => Some (IL x)) st) (option_map (fun x => Some (IL x)) vs) (option_map (fun x => [x]) fo) (option_map (fun x => [x]) vf).
(** A test for [wf] on small examples *)
Definition p2b (z : Z) : bool := existsb (fun k => z =? 2 ^ Z.of_nat k) (seq 0 32).
Definition attrb (o : option intnum) : bool := match o with Some (IL z) => p2b z && (z <? 2 ^ 31) | Some _ => false | None => true end.
Definition addrb (o : option (option intnum)) : bool := match o with Some (Some (IL z)) => (0 <=? z) && (z <? 2 ^ 31) | Some (Some _) => false | _ => true end.
Definition none {A B} (x : option A) (y : option B) : bool := match x, y with Some _, Some _ => false | _, _ => true end.
Definition okb (b : sect) : bool :=
  (0 <=? len b) && (len b <? 2 ^ 32) && (salign b =? 0) && attrb (align b) && attrb (valign b) && addrb (start b) && addrb (vstart b) && none (start b) (follows b) && none (vstart b) (vfollows b).
Lemma attrb_ok : forall o, attrb o = true -> attr_ok o.
Proof.
  intros [[z|v]|] H; cbn [attrb attr_ok] in *; auto; [|discriminate]. apply andb_true_iff in H. destruct H as [H L]. apply Z.ltb_lt in L. apply existsb_exists in H. destruct H as (k & K & E). apply Z.eqb_eq in E. apply in_seq in K. cbn [canon ival]. assert (0 < 2 ^ Z.of_nat k) by (apply Z.pow_pos_nonneg; lia).
  split; [lia|]. exists (Z.of_nat k). split; [lia|auto].
Qed.
Lemma addrb_ok : forall o, addrb o = true -> addr_ok o.
Proof.
  intros [[[z|v]|]|] H; cbn [addrb addr_ok] in *; auto; [|discriminate]. apply andb_true_iff in H. destruct H as [L0 L]. apply Z.leb_le in L0. apply Z.ltb_lt in L. cbn [canon ival]. split; [lia|]. assert (2 ^ 31 < 2 ^ 200) by (vm_compute; reflexivity). lia.
Qed.
Lemma none_ok : forall A B (x : option A) (y : option B), none x y = true -> x = None \/ y = None.
Proof. intros A B [|] [|] H; auto. discriminate. Qed.
Lemma okb_ok : forall b, okb b = true -> sect_ok b.
Proof.
  intros b H. unfold okb in H. repeat (apply andb_true_iff in H; destruct H as [H ?]). apply Z.leb_le in H. repeat match goal with K : (_ <? _) = true |- _ => apply Z.ltb_lt in K | K : (_ =? _) = true |- _ => apply Z.eqb_eq in K end.
  unfold sect_ok. split; [lia|]. split; [left; auto|]. split; [apply attrb_ok; auto|]. split; [apply attrb_ok; auto|]. split; [apply addrb_ok; auto|]. split; [apply addrb_ok; auto|]. split; apply none_ok; auto.
Qed.
Lemma okbs : forall l, forallb okb l = true -> Forall sect_ok l.
Proof. intros l H. apply Forall_forall. intros b B. apply okb_ok. rewrite forallb_forall in H. auto. Qed.
Ltac wfs := split; [apply okbs; vm_compute; reflexivity|split; [cbn; repeat constructor; cbn; intuition congruence|vm_compute; congruence]].
(** Section 5 follows 3 and is aligned to 16, 4 is nobits, 6 has a start, 7 a start and a virtual start,
    8 virtually follows 3 *)
Definition ex_l : list sect :=
  [sec 3 false 17 None None None None None None; sec 4 true 40 None None None None None None; sec 5 false 6 (Some 16) None None None (Some 3) None;
   sec 6 false 10 (Some 8) None (Some 4100) None None None; sec 7 false 4 None (Some 32) (Some 4096) (Some 8200) None None; sec 8 false 9 None None None None None (Some 3)].
Lemma ex_wf : wf ex_l.
Proof. wfs. Qed.
Lemma ex_org : org_ok (IL 256).
Proof. split; [split; vm_compute; congruence|vm_compute; split; congruence]. Qed.
Definition placed_of (r : lres) : mem := match r with Placed m _ _ => m | _ => mem0 [] end.
Definition ex_m : mem := placed_of (layout (IL 256) ex_l).
Example ex_layout : exists w e, layout (IL 256) ex_l = Placed ex_m w e /\ map (LMA ex_m) (seq 0 6) = map Some [256; 4128; 288; 4104; 4096; 4116] /\
  map (VMA ex_m) (seq 0 6) = map Some [256; 4128; 288; 4104; 8224; 276] /\ e = [VInconsistent 4] /\ check_overlap ex_m ex_l 0 ex_l = None.
Proof.
  destruct (layout (IL 256) ex_l) as [e| |m w e] eqn:E.
  - exfalso. vm_compute in E. discriminate.
  - exfalso. vm_compute in E. discriminate.
  - exists w, e. unfold ex_m. rewrite E. cbn [placed_of]. split; auto. vm_compute in E. injection E as <- <- <-. vm_compute. auto.
Qed.
(** Two sections of which one lies inside the other are reported, but with a wrong number of bytes:
    [8, 16) inside [0, 100) is said to overlap by 92 bytes. *)
Definition in_l : list sect := [sec 3 false 100 None None (Some 0) None None None; sec 4 false 8 None None (Some 8) None None None].
Theorem C37_amount_refuted : exists l m w i j n, wf l /\ org_ok (IL 0) /\ layout (IL 0) l = Placed m w [] /\ check_overlap m l 0 l = Some (Overlap i j n) /\
  forall b, nth_error l i = Some b -> len b < n.
Proof.
  exists in_l. destruct (layout (IL 0) in_l) as [e| |m w e] eqn:E; try (exfalso; vm_compute in E; discriminate). vm_compute in E. injection E as <- <- <-. eexists _, _, 1%nat, 0%nat, 92.
  split; [wfs|]. split; [split; [split; vm_compute; congruence|vm_compute; split; congruence]|]. split; [reflexivity|]. split; [vm_compute; reflexivity|]. intros b B. cbn [nth_error in_l] in B. injection B as <-. reflexivity.
Qed.
Print Assumptions C37_amount_refuted.

(** C66.  Every section has a virtual address that is a multiple of its virtual alignment (valign,
    otherwise align): with vstart the first such address not below it, with vfollows the first not
    below the virtual end of the section named.  The others, in the order in which the sections are
    placed, keep their distance from the load addresses, which is zero at first and grows where a
    valign demands it.  The errors are exactly the vstarts that are not multiples. *)
Theorem C66_virtual : forall o l m w e, wf l -> org_ok o -> layout o l = Placed m w e ->
  virtual_addresses l (VMA m) /\
  (exists R ms d, root_order l R /\ full_order l R ms /\ vwalk (LMA m) (VMA m) 0 ms d) /\
  forall x, In x e <-> exists i b s, x = VInconsistent i /\ nth_error l i = Some b /\ vstart b = Some (Some s) /\ ~ (vl b | ival s).
Proof. exact virtual. Qed.
Print Assumptions C66_virtual.
(** C66.  If valign is only used beside vstart or vfollows, no layout crashes, and sections without
    virtual attributes have equal load and virtual addresses. *)
Theorem C66_safe : forall o l, wf l -> org_ok o -> no_lone_valign l ->
  layout o l <> LCrash /\ forall m w e, layout o l = Placed m w e -> forall i b, nth_error l i = Some b -> ~ other b -> VMA m i = LMA m i.
Proof. exact safe. Qed.
Print Assumptions C66_safe.
Example ex_safe : no_lone_valign ex_l.
Proof. intros b B V. repeat (destruct B as [<-|B]; [cbn in V; try congruence; left; cbn; discriminate|]). destruct B. Qed.
(** Otherwise a section that has no virtual attribute itself can make the program read through a null
    pointer (line 449): here the first section moves the virtual addresses by 12, so that the second,
    at load address 16, gets the virtual address 28, which is no multiple of its alignment. *)
Theorem C66_crash_refuted : exists l, wf l /\ org_ok (IL 0) /\ layout (IL 0) l = LCrash.
Proof.
  exists [sec 3 false 4 (Some 4) (Some 16) (Some 4) None None None; sec 4 false 4 (Some 16) None None None None None]. split; [wfs|]. split; [split; [split; vm_compute; congruence|vm_compute; split; congruence]|]. vm_compute. reflexivity.
Qed.
Print Assumptions C66_crash_refuted.

(** C67.  A layout is refused exactly if a start or vstart is no constant or some section's chain of
    follows (or vfollows) does not end, by an unknown name or a loop; and the error names a section
    with that defect. *)
Theorem C67_rejection : forall o l, wf l -> org_ok o ->
  ((exists e, layout o l = LRejected e) <->
   (exists i b, nth_error l i = Some b /\ (start b = Some None \/ vstart b = Some None)) \/ (exists i, dead_end follows l i \/ dead_end vfollows l i)) /\
  (forall e, layout o l = LRejected e -> reason l e).
Proof. exact rejection. Qed.
Print Assumptions C67_rejection.
(** C67.  The output as a whole is refused for that reason or for an overlap. *)
Theorem C67_refused : forall fsmax org o l cs f e, wf l -> org_given org o -> bin_output fsmax org l cs f = Rejected e ->
  layout o l = LRejected e \/ exists m w e0 i j n, layout o l = Placed m w e0 /\ e = e0 ++ [Overlap i j n] /\ ~ all_apart l (LMA m).
Proof. exact rejected. Qed.
Print Assumptions C67_refused.
(** Section 3 follows 5, 5 follows 4 and 4 follows 3; in the second list 4 follows a section that
    does not exist *)
Definition loop_l : list sect := [sec 3 false 1 None None None None (Some 5) None; sec 4 false 2 None None None None (Some 3) None; sec 5 true 3 None None None None (Some 4) None].
Definition unknown_l : list sect := [sec 3 false 1 None None None None None (Some 4); sec 4 false 2 None None None None None (Some 9)].
Example ex_loop : wf loop_l /\ layout (IL 0) loop_l = LRejected [Loop 2 1] /\ wf unknown_l /\ layout (IL 0) unknown_l = LRejected [Unknown 1].
Proof. split; [wfs|]. split; [vm_compute; reflexivity|]. split; [wfs|vm_compute; reflexivity]. Qed.

(** C68.  Whenever the output is written without an error, the file consists of what was there before
    and the image: each byte of each progbits section lies at its load address less the origin, all
    other bytes are zero, and the file ends with the last such byte.  [fsmax] is the greatest offset
    the file system admits; [content_ok]: the bytecodes of a section yield as many bytes as its length. *)
Theorem C68_image : forall fsmax org o l cs f m f' w, wf l -> org_given org o -> fsmax < 2 ^ 63 - 1 -> Z.of_nat (length f) < 2 ^ 63 -> content_ok l cs ->
  bin_output fsmax org l cs f = Output m f' w [] -> is_image (ival o) l (LMA m) (fun i => bytes (cs m i)) f (data f').
Proof. exact image. Qed.
Print Assumptions C68_image.
(** C68.  And it is written if the layout is free of errors and overlaps and each progbits section
    lies less than 2 GiB behind the origin. *)
Theorem C68_accepts : forall fsmax org o l cs f m w, wf l -> org_given org o -> fsmax < 2 ^ 63 - 1 -> Z.of_nat (length f) < 2 ^ 63 -> content_ok l cs ->
  layout o l = Placed m w [] -> all_apart l (LMA m) ->
  (forall i b x, nth_error l i = Some b -> bss b = false -> LMA m i = Some x -> 0 <= x - ival o < 2 ^ 31 /\ Z.of_nat (length f) + (x - ival o) <= fsmax) ->
  exists f', bin_output fsmax org l cs f = Output m f' w [].
Proof. exact accepts. Qed.
Print Assumptions C68_accepts.
(** C68.  A section before the origin is an error. *)
Theorem C68_errors : forall fsmax org o l cs f m f' w e, wf l -> org_given org o -> fsmax < 2 ^ 63 - 1 -> Z.of_nat (length f) < 2 ^ 63 -> content_ok l cs ->
  bin_output fsmax org l cs f = Output m f' w e -> all_apart l (LMA m) /\
  forall i, In (BeforeOrg i) e <-> exists b x, nth_error l i = Some b /\ bss b = false /\ LMA m i = Some x /\ x < ival o.
Proof. exact errors. Qed.
Print Assumptions C68_errors.
(** A section of 5 bytes, 3 of them reserved, one of 2 bytes that follows it aligned to 8, and a nobits
    section, at the origin 16 behind one byte that is there already *)
Definition out_l : list sect := [sec 3 false 5 None None None None None None; sec 4 false 2 (Some 8) None None None (Some 3) None; sec 5 true 100 None None None None None None].
Definition out_cs (m : mem) (i : nat) : list chunk := match i with O => [Code [1]; Gap 3; Code []; Code [2]] | S O => [Code [7; 8]] | _ => [] end.
Definition out_m : mem := placed_of (layout (IL 16) out_l).
Example ex_output : wf out_l /\ org_given (Some (Some (IL 16))) (IL 16) /\ content_ok out_l out_cs /\
  match bin_output (2 ^ 40) (Some (Some (IL 16))) out_l out_cs [99] with Output m f _ e => data f = [99; 1; 0; 0; 0; 2; 0; 0; 0; 7; 8] /\ e = [] /\ map (LMA m) (seq 0 3) = map Some [16; 24; 28] | _ => False end.
Proof.
  split; [wfs|]. split; [split; [reflexivity|split; [split; vm_compute; congruence|vm_compute; split; congruence]]|]. split; [|vm_compute; auto].
  intros m i b B Bs. destruct i as [|[|[|i]]]; cbn [nth_error out_l] in B; try (injection B as <-; try discriminate).
  - split; [|reflexivity]. intros n N. destruct N as [N|[N|[N|[N|[]]]]]; try discriminate. assert (n = 3) by congruence. lia.
  - split; [|reflexivity]. intros n N. destruct N as [N|[]]. discriminate.
  - destruct i; discriminate.
Qed.
(** A section 2 GiB behind the origin, in a file system that could hold it, ends the program with a
    fatal error: the offset becomes LONG_MAX. *)
Definition far : sect := Sect [3] false 0 1 None None (Some (Some (iadd (IL (2 ^ 30)) (IL (2 ^ 30))))) None None None.
Lemma far_ok : sect_ok far.
Proof.
  unfold sect_ok, far. cbn [len salign align valign start vstart follows vfollows attr_ok addr_ok]. destruct (iadd_ok (IL (2 ^ 30)) (IL (2 ^ 30))) as [C E]; [apply small_good; split; reflexivity|apply small_good; split; reflexivity|cbn [ival]; split; vm_compute; congruence|].
  split; [lia|]. split; [left; reflexivity|]. do 2 (split; [exact I|]). split; [split; [exact C|rewrite E; cbn [ival]; split; vm_compute; congruence]|]. split; [exact I|]. split; [right; reflexivity|left; reflexivity].
Qed.
Theorem C68_far_refuted : exists l cs m w, wf l /\ content_ok l cs /\ layout (IL 0) l = Placed m w [] /\ LMA m 0 = Some (2 ^ 31) /\ bin_output (2 ^ 40) None l cs [] = FatalSeek.
Proof.
  exists [far], (fun _ _ => [Code [1]]).
  assert (K : match layout (IL 0) [far] with Placed m w e => LMA m 0 = Some (2 ^ 31) /\ e = [] | _ => False end) by (vm_compute; auto).
  assert (B : bin_output (2 ^ 40) None [far] (fun _ _ => [Code [1]]) [] = FatalSeek) by (vm_compute; reflexivity).
  destruct (layout (IL 0) [far]) as [e| |m w e]; try contradiction. destruct K as [K ->]. exists m, w. split; [|split; [|split; [|split]]]; auto.
  - split; [constructor; [exact far_ok|constructor]|split; [repeat constructor; intros []|vm_compute; congruence]].
  - intros m' i b' N _. destruct i as [|i]; [|destruct i; discriminate]. cbn [nth_error] in N. injection N as <-. split; [intros n [Q|[]]; discriminate|reflexivity].
Qed.
Print Assumptions C68_far_refuted.

(** C69.  A section that several directives name has for each attribute the value given last, and is
    nobits by default only if it is called .bss; start and follows exclude one another, also across
    directives, and so do vstart and vfollows. *)
Theorem C69_attributes : forall nm d ds r, switches nm None (d :: ds) = inl r -> exists s, r = Some s /\ name s = nm /\ holds nm (d :: ds) s.
Proof. exact attributes. Qed.
Print Assumptions C69_attributes.
(** C69.  Powers of two below 2^32 are taken as alignments; of all others only the numbers up to 0,
    2^32, and the sum of 2^32 and a power of two are. *)
Theorem C69_checked : forall nm old new s, switch nm old new = inl s -> forall a, a_align new = Some a \/ a_valign new = Some a -> canon a ->
  ival a <= 0 \/ pow2 (ival a) \/ ival a = 2 ^ 32 \/ pow2 (ival a - 2 ^ 32).
Proof. exact checked. Qed.
Print Assumptions C69_checked.
Theorem C69_taken : forall nm new, (forall a, a_align new = Some a \/ a_valign new = Some a -> canon a /\ pow2 (ival a)) -> (a_start new = None \/ a_follows new = None) -> (a_vstart new = None \/ a_vfollows new = None) -> exists s, switch nm None new = inl s.
Proof. exact taken. Qed.
Print Assumptions C69_taken.
Definition no_attrs : attrs := Attrs None None None None None None None.
Example ex_switch : switches [3] None [Attrs None (Some [5]) (Some (Some (IL 64))) None (Some (IL 8)) None (Some true); Attrs None None None None (Some (IL 32)) None None] =
  inl (Some (sec 3 true 0 (Some 32) None (Some 64) None None (Some 5))) /\
  switches [3] None [Attrs None None (Some (Some (IL 64))) None None None None; Attrs (Some [4]) None None None None None None] = inr StartFollows.
Proof. split; reflexivity. Qed.
(** The alignment 0 is taken, and a section that has it is placed at 0 whatever lies there. *)
Theorem C69_zero_refuted : exists s, switch [4] None (Attrs None None None None (Some (IL 0)) None None) = inl s /\
  match layout (IL 64) [sec 3 false 100 None None None None None None; s] with Placed m _ _ => map (LMA m) (seq 0 2) = [Some 64; Some 0] | _ => False end.
Proof. eexists. split; [reflexivity|]. vm_compute. reflexivity. Qed.
Print Assumptions C69_zero_refuted.
