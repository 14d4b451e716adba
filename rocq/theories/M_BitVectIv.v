(** Model of libyasm/bitvect.c: copying and filling of intervals.  Conventions as in M_BitVect.
    X and Y of Interval_Copy are different vectors (as in all uses: intnum.c:828, floatnum.c:295, 568). *)
From Coq Require Import ZArith List Bool.
From Verif Require Import Lib M_BitVect.
Import ListNotations.
Open Scope Z_scope.

(** bitvect.c:1106-1138: bounds of the target word [tb] and its content outside the interval.
    [tlo], [thi]: first and last word of the interval; [lob], [hib]: first and last bit in them *)
Definition t_fresh (X : list Z) (tb tlo thi lob hib : Z) : Z * Z * Z * Z :=
  let w := nth (Z.to_nat tb) X 0 in
  match tb =? thi, tb =? tlo with
  | false, false => (0, BITS - 1, BITS, 0)
  | false, true => (lob, BITS - 1, BITS - lob, Z.land w (wnot (himask lob)))
  | true, false => (0, hib, hib + 1, Z.land w (himask (hib + 1)))
  | true, true => (lob, hib, hib - lob + 1, Z.land w (wnot (Z.land (himask lob) (wnot (himask (hib + 1))))))
  end.
(** bitvect.c:1157-1182: bounds of the source word [sb] *)
Definition s_fresh (sb slo shi lob hib : Z) : Z * Z * Z :=
  match sb =? shi, sb =? slo with
  | false, false => (0, BITS - 1, BITS)
  | false, true => (lob, BITS - 1, BITS - lob)
  | true, false => (0, hib, hib + 1)
  | true, true => (lob, hib, hib - lob + 1)
  end.
(** The loop variables.  t_upper and s_upper wrap when a word is used up going down; they are then
    dead, and the model keeps them as integers. *)
Record ic := IC { ix : list Z; tgt : Z; tb : Z; tl_ : Z; tu : Z; tbits : Z;
                  src : Z; sb : Z; sl : Z; su : Z; sbits : Z; notfirst : bool }.
Section Copy.
Variable asc : bool.
Variable Y : list Z.
Variables slo shi slob shib tlo thi tlob thib : Z.
(** bitvect.c:1087-1139: the word being assembled is stored and the next one begun; [inr]: break *)
Definition t_refill (s : ic) : ic + list Z :=
  if tbits s =? 0 then
    let fresh X b := let '(l, u, n, t) := t_fresh X b tlo thi tlob thib in
                     IC X t b l u n (src s) (sb s) (sl s) (su s) (sbits s) (notfirst s) in
    if notfirst s then
      let X := setnth (Z.to_nat (tb s)) (tgt s) (ix s) in
      if tb s =? (if asc then thi else tlo) then inr X
      else inl (fresh X (if asc then tb s + 1 else tb s - 1))
    else inl (fresh (ix s) (tb s))
  else inl s.
(** bitvect.c:1140-1183 *)
Definition s_refill (s : ic) : ic + list Z :=
  if sbits s =? 0 then
    let fresh b := let '(l, u, n) := s_fresh b slo shi slob shib in
                   IC (ix s) (tgt s) (tb s) (tl_ s) (tu s) (tbits s) (nth (Z.to_nat b) Y 0) b l u n (notfirst s) in
    if notfirst s then
      if sb s =? (if asc then shi else slo) then inr (ix s)
      else inl (fresh (if asc then sb s + 1 else sb s - 1))
    else inl (fresh (sb s))
  else inl s.
(** bitvect.c:1184-1228 *)
Definition ic_copy (s : ic) : ic :=
  let '(s_min, s_max, t_min, n) :=
    if tbits s <? sbits s then
      let b := tbits s - 1 in
      if asc then (sl s, sl s + b, tl_ s, b + 1) else (su s - b, su s, tl_ s, b + 1)
    else let b := sbits s - 1 in (sl s, su s, if asc then tl_ s else tu s - b, b + 1) in
  let mask := Z.land (himask s_min) (wnot (himask (s_max + 1))) in
  let piece := Z.land (src s) mask in
  let t := Z.lor (tgt s) (if s_min =? t_min then piece
                          else if s_min <? t_min then shl piece (t_min - s_min) else shr piece (s_min - t_min)) in
  let lo k := if asc then k + n else k in
  let hi k := if asc then k else k - n in
  IC (ix s) t (tb s) (lo (tl_ s)) (hi (tu s)) (tbits s - n) (src s) (sb s) (lo (sl s)) (hi (su s)) (sbits s - n) true.
Fixpoint ic_loop (fuel : nat) (s : ic) : option (list Z) :=
  match fuel with
  | O => None
  | S f => match t_refill s with
           | inr X => Some X
           | inl s1 => match s_refill s1 with
                       | inr X => Some X
                       | inl s2 => ic_loop f (ic_copy s2)
                       end
           end
  end.
End Copy.
(** bitvect.c:1045-1231 BitVector_Interval_Copy.  [None] would mean that the loop takes more turns
    than there are bits. *)
Definition Interval_Copy (X Y : bv) (xo yo len : Z) : option bv :=
  if (0 <? len) && (xo <? bits X) && (yo <? bits Y) then
    let len := if bits X <? xo + len then bits X - xo else len in
    let len := if bits Y <? yo + len then bits Y - yo else len in
    let asc := xo <=? yo in
    let slo := shr yo LOGBITS in let slob := Z.land yo MODMASK in
    let shi := shr (yo + (len - 1)) LOGBITS in let shib := Z.land (yo + (len - 1)) MODMASK in
    let tlo := shr xo LOGBITS in let tlob := Z.land xo MODMASK in
    let thi := shr (xo + (len - 1)) LOGBITS in let thib := Z.land (xo + (len - 1)) MODMASK in
    match ic_loop asc (wds Y) slo shi slob shib tlo thi tlob thib (Z.to_nat len + 1)
            (IC (wds X) 0 (if asc then tlo else thi) 0 0 0 0 (if asc then slo else shi) 0 0 0 false) with
    | Some X' => Some (BV (bits X) (mlast (mask_ (bits X)) X'))
    | None => None
    end
  else Some X.

(** bitvect.c:778-817 BitVector_Interval_Fill: one pass over the words from index [k] *)
Fixpoint fill_words (k lo hi lomask hmask : Z) (ws : list Z) : list Z :=
  match ws with
  | [] => []
  | w :: t => (if (k =? lo) && (k =? hi) then Z.lor w (Z.land lomask hmask)
               else if k =? lo then Z.lor w lomask
               else if k =? hi then Z.lor w hmask
               else if (lo <? k) && (k <? hi) then ONES else w) :: fill_words (k + 1) lo hi lomask hmask t
  end.
Definition Interval_Fill (x : bv) (lower upper : Z) : bv :=
  if (lower <? bits x) && (upper <? bits x) && (lower <=? upper) then
    BV (bits x) (mlast (mask_ (bits x))
      (fill_words 0 (shr lower LOGBITS) (shr upper LOGBITS) (himask (Z.land lower MODMASK))
                  (wnot (himask (Z.land upper MODMASK + 1))) (wds x)))
  else x.
