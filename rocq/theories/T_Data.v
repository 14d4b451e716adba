(** Data directives: the theorems (C26). *)
From Coq Require Import ZArith List Bool Lia.
From Verif Require Import Lib M_BitVect P_BitVectIO M_Intnum P_Intnum M_Data P_Data.
Import ListNotations.
Open Scope Z_scope.

(** C26: the two passes never go out of step, and the bytes written are the elements' encodings in
    order, as many as were counted before layout. *)
Theorem C26_data : forall outv size arch zero l, writer outv -> (arch = true \/ (size < 32)%nat) -> Forall (item_ok size) l -> Z.of_nat (length (emit outv size arch zero 0 l)) < 2 ^ 64 ->
  exists es, create_data size arch zero l = Some es /\
    data_bytes outv (map finalize es) 0 = Some (emit outv size arch zero 0 l, false) /\
    data_len (map finalize es) 0 = Some (Z.of_nat (length (emit outv size arch zero 0 l))).
Proof. exact data_ok. Qed.
Print Assumptions C26_data.
Theorem C26_leb128 : forall outv (sgnd : bool) l, writer outv ->
  Forall (fun it : item => mok (mult it) /\ exists v, what it = Value v /\ leb_ok 0 v) l ->
  let l' := map (fun it : item => match what it with Value v => Item (if sgnd then Sleb v else Uleb v) (mult it) | _ => it end) l in
  Z.of_nat (length (emit outv 0 false false 0 l')) < 2 ^ 64 ->
  exists es, create_leb sgnd l = Some es /\ data_bytes outv (map finalize es) 0 = Some (emit outv 0 false false 0 l', false) /\
    data_len (map finalize es) 0 = Some (Z.of_nat (length (emit outv 0 false false 0 l'))).
Proof. exact leb_data_ok. Qed.
Print Assumptions C26_leb128.
(** A constant is its low bytes, lowest first. *)
Theorem C26_constant : forall n z, Forall byte (lebytes n z) /\ lev (lebytes n z) = z mod 256 ^ Z.of_nat n.
Proof. exact lebytes_ok. Qed.
Print Assumptions C26_constant.
(** Repeating zero times gives one copy. *)
Theorem C26_zero_refuted : exists es, create_data 1 true false [Item (Raw [5]) (Some (Some (IL 0)))] = Some es /\
  data_len (map finalize es) 0 = Some 1 /\ forall outv, data_bytes outv (map finalize es) 0 = Some ([5], false).
Proof. exact dup0_refuted. Qed.
Print Assumptions C26_zero_refuted.
(** A repeated empty string follows a null pointer; a string in LEB128 data divides by zero. *)
Theorem C26_fault_refuted : create_data 1 true false [Item (Raw [65]) None; Item (Raw []) (Some (Some (IL 2)))] = None /\ create_leb false [Item (Raw [65]) None] = None.
Proof. exact faults. Qed.
Print Assumptions C26_fault_refuted.

(** What is not a constant is dropped from data of 256 bits. *)
Theorem C26_wide_refuted : forall v arch, early v = None -> exists es, create_data 32 arch false [Item (Value v) None] = Some es /\
  data_len (map finalize es) 0 = Some 0 /\ forall outv, writer outv -> data_bytes outv (map finalize es) 0 = Some ([], false).
Proof. exact wide_empty. Qed.
Print Assumptions C26_wide_refuted.

(** dw "abc", 2 dup (0x1234), label, -1, ? : the string is padded, the label written by the object
    format at offset 8. *)
Definition label := Val 7 None None.
Definition num i := Val 0 (Some i) (Some i).
Definition five := [Item (Raw [97; 98; 99]) None; Item (Value (num (IL 0x1234))) (Some (Some (IL 2))); Item (Value label) None; Item (Value (num (IL (-1)))) None; Item Reserve None].
Definition outv (v : val) (n : nat) (pos : Z) : option (list Z) := match n with O => Some [] | S k => Some (100 + pos :: repeat (vid v) k) end.
Example five_ok : Forall (item_ok 2) five /\ writer outv /\
  emit outv 2 true false 0 five = [97; 98; 99; 0; 0x34; 0x12; 0x34; 0x12; 108; 7; 255; 255; 0; 0] /\
  create_data 2 true false five = Some [ERaw (map Some [97; 98; 99; 0]) None; ERaw (map Some [0x34; 0x12]) (Some (Some (IL 2))); EVal (Some (Value label)) 2 None; ERaw (map Some [255; 255; 0; 0]) None].
Proof.
  split; [repeat constructor; cbn; try lia; try congruence|]. split; [|split; vm_compute; reflexivity].
  intros v [|n] pos; cbn; eexists; (split; [reflexivity|]); cbn; rewrite ?repeat_length; reflexivity.
Qed.
(** .asciz "a", "" : each element ends in zero. *)
Example asciz : emit outv 1 true true 0 [Item (Raw [97]) None; Item (Raw []) None] = [97; 0; 0].
Proof. reflexivity. Qed.
(** .sleb128 -129 *)
Example sleb : exists es, create_leb true [Item (Value (num (IL (-129)))) None] = Some es /\ data_bytes outv (map finalize es) 0 = Some ([0xff; 0x7e], false).
Proof. eexists. split; [vm_compute; reflexivity|]. vm_compute. reflexivity. Qed.
