(** Theorems on the message digest of source files: C91. *)
From Coq Require Import ZArith List Bool Lia.
From Verif Require Import Lib M_Md5 P_Md5.
Import ListNotations.
Open Scope Z_scope.

(** C91: whatever was in memory and however the message is divided into parts, the digest is the one of RFC 1321, and
    nothing outside the arrays is touched. *)
Theorem C91_digest : forall mem parts, length mem = 64%nat -> Forall byte mem -> Forall (Forall byte) parts ->
  exists c, updates (init mem) parts = Some c /\ final c = Some (rfc_md5 (concat parts)).
Proof. exact digest_ok. Qed.
Print Assumptions C91_digest.
(** The digest of a file is the one of what was read before the first empty read. *)
Theorem C91_file : forall mem reads, length mem = 64%nat -> Forall byte mem -> Forall (Forall byte) reads ->
  file_digest mem reads = Some (rfc_md5 (concat (till_empty reads))).
Proof. exact file_ok. Qed.
Print Assumptions C91_file.
(** So of the whole file, if no read fails: each read but the last gives at least a byte. *)
Theorem C91_whole : forall mem content reads, length mem = 64%nat -> Forall byte mem -> Forall byte content -> Forall (fun r => r <> []) reads -> concat reads = content ->
  file_digest mem (reads ++ [[]]) = Some (rfc_md5 content).
Proof. exact whole_ok. Qed.
Print Assumptions C91_whole.
(** A failed read is taken for the end of the file: two files with different contents get one digest. *)
Theorem C91_error_refuted : exists mem r1 r2, length mem = 64%nat /\ Forall byte mem /\ rfc_md5 (concat r1) <> rfc_md5 (concat r2) /\ file_digest mem r1 = file_digest mem r2.
Proof. exact error_refuted. Qed.
Print Assumptions C91_error_refuted.

(** The test suite of RFC 1321 A.5: "", "a", "abc" in two parts *)
Example C91_empty : rfc_md5 [] = [0xd4; 0x1d; 0x8c; 0xd9; 0x8f; 0x00; 0xb2; 0x04; 0xe9; 0x80; 0x09; 0x98; 0xec; 0xf8; 0x42; 0x7e].
Proof. vm_compute. reflexivity. Qed.
Example C91_a : rfc_md5 [97] = [0x0c; 0xc1; 0x75; 0xb9; 0xc0; 0xf1; 0xb6; 0xa8; 0x31; 0xc3; 0x99; 0xe2; 0x69; 0x77; 0x26; 0x61].
Proof. vm_compute. reflexivity. Qed.
Example C91_abc : file_digest (repeat 7 64) [[97]; [98; 99]; []] = Some [0x90; 0x01; 0x50; 0x98; 0x3c; 0xd2; 0x4f; 0xb0; 0xd6; 0x96; 0x3f; 0x7d; 0x28; 0xe1; 0x7f; 0x72].
Proof. rewrite C91_file; [vm_compute; reflexivity | reflexivity | |]; repeat constructor; discriminate. Qed.
(** Eighty bytes in parts of 60, 10 and 10: a block is completed by the second part and two more hold the padding *)
Definition y80 : list Z := map (fun i => 48 + (Z.of_nat i + 1) mod 10) (seq 0 80).
Example C91_parts : file_digest (repeat 255 64) [firstn 60 y80; firstn 10 (skipn 60 y80); skipn 70 y80] =
  Some [0x57; 0xed; 0xf4; 0xa2; 0x2b; 0xe3; 0xc9; 0x55; 0xac; 0x49; 0xda; 0x2e; 0x21; 0x07; 0xb6; 0x7a].
Proof. vm_compute. reflexivity. Qed.
