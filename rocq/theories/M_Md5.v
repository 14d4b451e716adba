(** The message digest of source files: md5.c, used by cv-symline.c.  An unsigned long has 64 bits.  Bytes are numbers
    from 0 to 255; [None] stands for a write or read outside an array. *)
From Coq Require Import ZArith List Bool.
From Verif Require Import Lib.
Import ListNotations.
Open Scope Z_scope.

(** md5.h:15-19 yasm_md5_context *)
Record ctx := Ctx { buf : Z * Z * Z * Z; bits0 : Z; bits1 : Z; inb : list Z }.

(** memcpy(in + off, data, length data) into an array of 64 bytes *)
Definition put (a : list Z) (off : Z) (data : list Z) : option (list Z) :=
  if (0 <=? off) && (off + Z.of_nat (length data) <=? 64)
  then Some (firstn (Z.to_nat off) a ++ data ++ skipn (Z.to_nat off + length data) a) else None.
(** memset(in + off, 0, n) *)
Definition zero (a : list Z) (off n : Z) : option (list Z) := put a off (repeat 0 (Z.to_nat n)).

(** md5.c:41-46 getu32 *)
Definition getu32 (a : list Z) (off : nat) : Z :=
  let b k := nth (off + k) a 0 in
  Z.lor (u64 (Z.shiftl (Z.lor (u64 (Z.shiftl (Z.lor (u64 (Z.shiftl (b 3%nat) 8)) (b 2%nat)) 8)) (b 1%nat)) 8)) (b 0%nat).
(** md5.c:48-55 putu32 *)
Definition putu32 (d : Z) : list Z := [d mod 256; Z.shiftr d 8 mod 256; Z.shiftr d 16 mod 256; Z.shiftr d 24 mod 256].

(** md5.c:61-71 yasm_md5_init: [in] keeps what was in memory *)
Definition init (mem : list Z) : ctx := Ctx (0x67452301, 0xefcdab89, 0x98badcfe, 0x10325476) 0 0 mem.

(** md5.c:172-176 F1, F2, F3, F4 on unsigned long *)
Definition not64 (z : Z) : Z := u64 (Z.lnot z).
Definition F1 (x y z : Z) : Z := Z.lxor z (Z.land x (Z.lxor y z)).
Definition F2 (x y z : Z) : Z := F1 z x y.
Definition F3 (x y z : Z) : Z := Z.lxor (Z.lxor x y) z.
Definition F4 (x y z : Z) : Z := Z.lxor y (Z.lor x (not64 z)).
(** md5.c:179-180 MD5STEP: the new value of w *)
Definition md5step (f : Z -> Z -> Z -> Z) (w x y z data s : Z) : Z :=
  let w := u64 (w + u64 (f x y z + data)) in
  let w := Z.land w 0xffffffff in
  let w := Z.lor (u64 (Z.shiftl w s)) (Z.shiftr w (32 - s)) in
  u64 (w + x).

(** A use of MD5STEP: the function, the variables standing for w, x, y and z, the index of the word, the constant and
    the rotation *)
Inductive var := A | B | C | D.
Inductive line := Line (f : Z -> Z -> Z -> Z) (w x y z : var) (k : nat) (c s : Z).
Definition get (r : Z * Z * Z * Z) (v : var) : Z := match r, v with (a, b, c, d), A => a | (a, b, c, d), B => b | (a, b, c, d), C => c | (a, b, c, d), D => d end.
Definition set (r : Z * Z * Z * Z) (v : var) (n : Z) : Z * Z * Z * Z :=
  match r, v with (a, b, c, d), A => (n, b, c, d) | (a, b, c, d), B => (a, n, c, d) | (a, b, c, d), C => (a, b, n, d) | (a, b, c, d), D => (a, b, c, n) end.
Definition do_line (inw : list Z) (r : Z * Z * Z * Z) (l : line) : Z * Z * Z * Z :=
  match l with Line f w x y z k c s => set r w (md5step f (get r w) (get r x) (get r y) (get r z) (u64 (nth k inw 0 + c)) s) end.
(** md5.c:202-268: the steps *)
Definition steps : list line :=
  [Line F1 A B C D 0 0xd76aa478 7; Line F1 D A B C 1 0xe8c7b756 12; Line F1 C D A B 2 0x242070db 17; Line F1 B C D A 3 0xc1bdceee 22;
   Line F1 A B C D 4 0xf57c0faf 7; Line F1 D A B C 5 0x4787c62a 12; Line F1 C D A B 6 0xa8304613 17; Line F1 B C D A 7 0xfd469501 22;
   Line F1 A B C D 8 0x698098d8 7; Line F1 D A B C 9 0x8b44f7af 12; Line F1 C D A B 10 0xffff5bb1 17; Line F1 B C D A 11 0x895cd7be 22;
   Line F1 A B C D 12 0x6b901122 7; Line F1 D A B C 13 0xfd987193 12; Line F1 C D A B 14 0xa679438e 17; Line F1 B C D A 15 0x49b40821 22;
  Line F2 A B C D 1 0xf61e2562 5; Line F2 D A B C 6 0xc040b340 9; Line F2 C D A B 11 0x265e5a51 14; Line F2 B C D A 0 0xe9b6c7aa 20;
   Line F2 A B C D 5 0xd62f105d 5; Line F2 D A B C 10 0x02441453 9; Line F2 C D A B 15 0xd8a1e681 14; Line F2 B C D A 4 0xe7d3fbc8 20;
   Line F2 A B C D 9 0x21e1cde6 5; Line F2 D A B C 14 0xc33707d6 9; Line F2 C D A B 3 0xf4d50d87 14; Line F2 B C D A 8 0x455a14ed 20;
   Line F2 A B C D 13 0xa9e3e905 5; Line F2 D A B C 2 0xfcefa3f8 9; Line F2 C D A B 7 0x676f02d9 14; Line F2 B C D A 12 0x8d2a4c8a 20;
  Line F3 A B C D 5 0xfffa3942 4; Line F3 D A B C 8 0x8771f681 11; Line F3 C D A B 11 0x6d9d6122 16; Line F3 B C D A 14 0xfde5380c 23;
   Line F3 A B C D 1 0xa4beea44 4; Line F3 D A B C 4 0x4bdecfa9 11; Line F3 C D A B 7 0xf6bb4b60 16; Line F3 B C D A 10 0xbebfbc70 23;
   Line F3 A B C D 13 0x289b7ec6 4; Line F3 D A B C 0 0xeaa127fa 11; Line F3 C D A B 3 0xd4ef3085 16; Line F3 B C D A 6 0x04881d05 23;
   Line F3 A B C D 9 0xd9d4d039 4; Line F3 D A B C 12 0xe6db99e5 11; Line F3 C D A B 15 0x1fa27cf8 16; Line F3 B C D A 2 0xc4ac5665 23;
  Line F4 A B C D 0 0xf4292244 6; Line F4 D A B C 7 0x432aff97 10; Line F4 C D A B 14 0xab9423a7 15; Line F4 B C D A 5 0xfc93a039 21;
   Line F4 A B C D 12 0x655b59c3 6; Line F4 D A B C 3 0x8f0ccc92 10; Line F4 C D A B 10 0xffeff47d 15; Line F4 B C D A 1 0x85845dd1 21;
   Line F4 A B C D 8 0x6fa87e4f 6; Line F4 D A B C 15 0xfe2ce6e0 10; Line F4 C D A B 6 0xa3014314 15; Line F4 B C D A 13 0x4e0811a1 21;
   Line F4 A B C D 4 0xf7537e82 6; Line F4 D A B C 11 0xbd3af235 10; Line F4 C D A B 2 0x2ad7d2bb 15; Line F4 B C D A 9 0xeb86d391 21].
(** md5.c:187-274 yasm_md5_transform *)
Definition transform (r : Z * Z * Z * Z) (raw : list Z) : Z * Z * Z * Z :=
  let inw := map (fun i => getu32 raw (4 * i)) (seq 0 16) in
  match r, fold_left (do_line inw) steps r with
  | (a0, b0, c0, d0), (a, b, c, d) => (u64 (a0 + a), u64 (b0 + b), u64 (c0 + c), u64 (d0 + d))
  end.

(** md5.c:110-119: blocks of 64 bytes, then the rest.  [fuel] bounds the number of turns; out of fuel is [None]. *)
Fixpoint blocks_loop (fuel : nat) (r : Z * Z * Z * Z) (a : list Z) (data : list Z) : option (Z * Z * Z * Z * list Z) :=
  match fuel with
  | O => None
  | S fuel =>
      if Z.of_nat (length data) >=? 64
      then match put a 0 (firstn 64 data) with Some a => blocks_loop fuel (transform r a) a (skipn 64 data) | None => None end
      else match put a 0 data with Some a => Some (r, a) | None => None end
  end.
(** md5.c:77-120 yasm_md5_update: [data] has the [len] bytes at [buf] *)
Definition update (c : ctx) (data : list Z) : option ctx :=
  let len := Z.of_nat (length data) in
  let t := bits0 c in
  let b0 := Z.land (u64 (t + u64 (Z.shiftl len 3))) 0xffffffff in
  let b1 := if b0 <? t then u64 (bits1 c + 1) else bits1 c in
  let b1 := u64 (b1 + Z.shiftr len 29) in
  let t := Z.land (Z.shiftr t 3) 0x3f in
  let rest r a data := match blocks_loop (S (length data)) r a data with Some (r, a) => Some (Ctx r b0 b1 a) | None => None end in
  if negb (t =? 0) then
    let p := t in
    let t := u64 (64 - t) in
    if len <? t then match put (inb c) p data with Some a => Some (Ctx (buf c) b0 b1 a) | None => None end
    else match put (inb c) p (firstn (Z.to_nat t) data) with
         | Some a => rest (transform (buf c) a) a (skipn (Z.to_nat t) data)
         | None => None
         end
  else rest (buf c) (inb c) data.
(** md5.c:126-166 yasm_md5_final: the digest *)
Definition final (c : ctx) : option (list Z) :=
  let count := Z.land (Z.shiftr (bits0 c) 3) 0x3f in
  let p := count + 1 in
  match put (inb c) count [0x80] with
  | None => None
  | Some a =>
      let count := 64 - 1 - count in
      match (if count <? 8
             then match zero a p count with Some a => let r := transform (buf c) a in match zero a 0 56 with Some a => Some (r, a) | None => None end | None => None end
             else match zero a p (count - 8) with Some a => Some (buf c, a) | None => None end) with
      | None => None
      | Some (r, a) =>
          match put a 56 (putu32 (bits0 c)) with
          | None => None
          | Some a => match put a 60 (putu32 (bits1 c)) with
                      | None => None
                      | Some a => match transform r a with (a, b, c, d) => Some (putu32 a ++ putu32 b ++ putu32 c ++ putu32 d) end
                      end
          end
      end
  end.

(** cv-symline.c:372-382: the digest of a file.  [reads] are the successive results of fread of up to 1024 bytes; the
    loop ends at the first empty one, whether it was the end of the file or an error. *)
Fixpoint read_loop (c : ctx) (reads : list (list Z)) : option ctx :=
  match reads with
  | [] => Some c
  | [] :: _ => Some c
  | r :: reads => match update c r with Some c => read_loop c reads | None => None end
  end.
Definition file_digest (mem : list Z) (reads : list (list Z)) : option (list Z) :=
  match read_loop (init mem) reads with Some c => final c | None => None end.
