(** Model of libyasm/inttree.c: insertion and enumeration.

    The tree hangs off root->left; nil is [Nil].  Parent pointers become a path of frames from a
    node up to the root.  Left out: deletion and the successor functions (no caller in yasm),
    printing, destruction. *)
From Coq Require Import ZArith List Bool.
From Verif Require Import Lib.
Import ListNotations.
Open Scope Z_scope.

Definition LONG_MIN : Z := - 9223372036854775808.
(** inttree.h:46-58 *)
Inductive tree := Nil | Node (red : bool) (lo hi mh d : Z) (l r : tree).
Definition is_red (t : tree) : bool := match t with Nil => false | Node c _ _ _ _ _ _ => c end.
(** inttree.c:76-80: the nil node *)
Definition mhigh (t : tree) : Z := match t with Nil => LONG_MIN | Node _ _ _ m _ _ _ => m end.
(** inttree.c:52 *)
Definition itmax (a b : Z) : Z := if b <? a then a else b.
(** inttree.c:54-69 ITN_create, with the children set in 231 and the colour in 321 *)
Definition node (low high d : Z) : tree :=
  let (l, h) := if low <? high then (low, high) else (high, low) in Node true l h high d Nil Nil.

(** A parent: [onleft] tells whether the path continues from its left child. *)
Record frame := Fr { onleft : bool; fred : bool; flo : Z; fhi : Z; fmh : Z; fd : Z; fsib : tree }.
Definition up (f : frame) (t : tree) : tree :=
  if onleft f then Node (fred f) (flo f) (fhi f) (fmh f) (fd f) t (fsib f)
  else Node (fred f) (flo f) (fhi f) (fmh f) (fd f) (fsib f) t.
Fixpoint plug (t : tree) (p : list frame) : tree := match p with [] => t | f :: r => plug (up f t) r end.
Definition with_red (c : bool) (f : frame) : frame := Fr (onleft f) c (flo f) (fhi f) (fmh f) (fd f) (fsib f).
Definition with_mh (m : Z) (f : frame) : frame := Fr (onleft f) (fred f) (flo f) (fhi f) m (fd f) (fsib f).
Definition with_sib (t : tree) (f : frame) : frame := Fr (onleft f) (fred f) (flo f) (fhi f) (fmh f) (fd f) t.
Definition paint (c : bool) (t : tree) : tree :=
  match t with Nil => Nil | Node _ lo hi m d l r => Node c lo hi m d l r end.

(** inttree.c:113-162 LeftRotate; [None] when there is no right child *)
Definition rotl (t : tree) : option tree :=
  match t with
  | Node cx lx hx _ dx a (Node cy ly hy _ dy b c) =>
      let mx := itmax (mhigh a) (itmax (mhigh b) hx) in
      let my := itmax mx (itmax (mhigh c) hy) in
      Some (Node cy ly hy my dy (Node cx lx hx mx dx a b) c)
  | _ => None
  end.
(** inttree.c:179-228 RightRotate *)
Definition rotr (t : tree) : option tree :=
  match t with
  | Node cy ly hy _ dy (Node cx lx hx _ dx a b) c =>
      let my := itmax (mhigh b) (itmax (mhigh c) hy) in
      let mx := itmax (mhigh a) (itmax my hx) in
      Some (Node cx lx hx mx dx a (Node cy ly hy my dy b c))
  | _ => None
  end.

(** inttree.c:239-273 TreeInsertHelp: the path to the new leaf *)
Fixpoint descend (low : Z) (t : tree) (p : list frame) : list frame :=
  match t with
  | Nil => p
  | Node c lo hi m d l r =>
      if low <? lo then descend low l (Fr true c lo hi m d r :: p)
      else descend low r (Fr false c lo hi m d l :: p)
  end.
(** inttree.c:283-298 FixUpMaxHigh; [m] is the maximum of the child the path comes from *)
Fixpoint fixmax (m : Z) (p : list frame) : list frame :=
  match p with
  | [] => []
  | f :: r =>
      let m' := if onleft f then itmax (fhi f) (itmax m (mhigh (fsib f))) else itmax (fhi f) (itmax (mhigh (fsib f)) m) in
      with_mh m' f :: fixmax m' r
  end.
(** inttree.c:331-372: the recolouring loop from node [x] with the frames above it; [None] when a
    rotation would go through a sentinel *)
Fixpoint fixup (x : tree) (p : list frame) : option tree :=
  match p with
  | [] => Some x
  | f :: q =>
      if fred f then
        match q with
        | [] => None
        | g :: r =>
            if is_red (fsib g) then
              fixup (up (with_red true (with_sib (paint false (fsib g)) g)) (up (with_red false f) x)) r
            else if onleft g then
              match (if onleft f then Some (up f x) else rotl (up f x)) with
              | Some s => match rotr (up (with_red true g) (paint false s)) with Some t => Some (plug t r) | None => None end
              | None => None
              end
            else
              match (if onleft f then rotr (up f x) else Some (up f x)) with
              | Some s => match rotl (up (with_red true g) (paint false s)) with Some t => Some (plug t r) | None => None end
              | None => None
              end
        end
      else Some (plug x p)
  end.
(** inttree.c:314-383 IT_insert *)
Definition insert (t : tree) (low high d : Z) : option tree :=
  let z := node low high d in
  let zl := match z with Node _ l _ _ _ _ _ => l | Nil => 0 end in
  match fixup z (fixmax (mhigh z) (descend zl t [])) with
  | Some t' => Some (paint false t')
  | None => None
  end.

(** inttree.c:741-748 Overlap: the arguments are converted to int *)
Definition overlap (a1 a2 b1 b2 : Z) : bool :=
  let (a1, a2) := (s32 a1, s32 a2) in let (b1, b2) := (s32 b1, s32 b2) in
  if a1 <=? b1 then b1 <=? a2 else a1 <=? b2.
(** inttree.h:60-64: a stack entry (the right child of its start_node, tryRightBranch,
    parentIndex); the stack is listed from the top, entry 0 last *)
Record ent := Ent { eright : tree; etry : bool; eparent : Z }.
Definition set_try (i : Z) (s : list ent) : list ent :=
  let k := Z.of_nat (length s) - 1 - i in
  if (0 <=? k) && (k <? Z.of_nat (length s)) then
    match nth_error s (Z.to_nat k) with
    | Some e => firstn (Z.to_nat k) s ++ Ent (eright e) true (eparent e) :: skipn (S (Z.to_nat k)) s
    | None => s
    end
  else s.
(** inttree.c:838-846: popping until there is something to do.  Result: the node to go on with
    ([Nil] when finished), the stack, currentParent.  [n] is at least the height of the stack. *)
Fixpoint unwind (n : nat) (s : list ent) (cur : Z) : tree * list ent * Z :=
  match n, s with
  | S k, e :: ((_ :: _) as s') =>
      if etry e then
        let s'' := set_try (eparent e) s' in
        match eright e with Nil => unwind k s'' (eparent e) | x => (x, s'', eparent e) end
      else unwind k s' cur
  | _, _ => (Nil, s, cur)
  end.
(** inttree.c:789-852 IT_enumerate: the intervals (with data) the callback is called on, in order;
    [None] when [fuel] turns of the loop are not enough.  Entry 0 of the stack has no node. *)
Fixpoint enum (fuel : nat) (low high : Z) (x : tree) (s : list ent) (cur : Z) : option (list (Z * Z * Z)) :=
  match x with
  | Nil => Some []
  | Node _ lo hi _ d l r =>
      match fuel with
      | O => None
      | S k =>
          let hit := overlap low high lo hi in
          let s1 := if hit then set_try cur s else s in
          let '(x', s2, cur2) :=
            if low <=? mhigh l then (l, Ent r false cur :: s1, Z.of_nat (length s1)) else (r, s1, cur) in
          let '(x3, s3, cur3) := match x' with Nil => unwind (length s2) s2 cur2 | _ => (x', s2, cur2) end in
          match enum k low high x3 s3 cur3 with
          | Some out => Some (if hit then (lo, hi, d) :: out else out)
          | None => None
          end
      end
  end.
Fixpoint size (t : tree) : nat := match t with Nil => 0 | Node _ _ _ _ _ l r => S (size l + size r) end.
Definition enumerate (t : tree) (low high : Z) : option (list (Z * Z * Z)) := enum (size t) low high t [Ent Nil false 0] 0.
