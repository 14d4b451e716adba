(** Values in flat binaries: bin-objfmt.c, bin_objfmt_output_value. *)
From Coq Require Import ZArith List Bool.
From Verif Require Import Lib M_BitVect M_Intnum M_Expr M_Value M_CoffReloc.
Import ListNotations.
Open Scope Z_scope.

(** The bytes and warnings, or: an error, undefined behaviour in levelling, a float (written by C43). *)
Inductive bres := BErr | BFault | BFloat (neg : bool) (f : Z) (warn : bool) | BBytes (out : list Z) (ws : list swarn).

Section Bin.
(** equ: yasm_symrec_get_equ, at most [nequ]; label: yasm_symrec_get_label; the section of a bytecode and the
    offset of its end; the first bytecode of a section (yasm_section_bcs_first); the address ivstart of a
    section; yasm_symrec_is_abs *)
Variable nequ : nat.
Variable equ : Z -> option expr.
Variable label : Z -> option Z.
Variable sect next : Z -> Z.
Variable first : Z -> Z.
Variable vstart : Z -> intnum.
Variable is_abs : Z -> bool.
(** bin-objfmt.c:471-488 get_ssym_value: the special symbols of a section and their values, [None] for others *)
Inductive which := SSYM_START | SSYM_VSTART | SSYM_LENGTH.
Variable bsymd : Z -> option (Z * which).
Variable istart slength : Z -> intnum.
Definition ssym (s : Z) : option intnum :=
  match bsymd s with
  | None => None
  | Some (q, SSYM_START) => Some (istart q)
  | Some (q, SSYM_VSTART) => Some (vstart q)
  | Some (q, SSYM_LENGTH) => Some (slength q)
  end.
(** bin-objfmt.c:490-527 bin_objfmt_expr_xform, on a term: the address of a label or position *)
Definition address (p : Z) : option intnum :=
  match bc_dist sect next (first (sect p)) p with Some d => Some (ical d ADD (Some (vstart (sect p)))) | None => None end.
Definition special (t : item) : item := match t with TSym s => match ssym s with Some n => TInt n | None => t end | _ => t end.
Definition place (t : item) : item :=
  match (match t with TSym s => label s | TPrecbc b => Some b | _ => None end) with
  | Some p => match address p with Some n => TInt n | None => special t end
  | None => special t
  end.
Definition bin_xform : xform := fun e st => ((fst e, map place (snd e)), st).

Definition bind {A B} (r : res A) (k : A -> res B) : res B := match r with Fin a => k a | Fault => Fault | Deep => Deep end.
Definition node (e : expr) : item := TExpr (fst e) (snd e).
(** bin-objfmt.c:913-923: what stands for the symbol of the value *)
Definition target (s : Z) : option item :=
  if is_abs s then Some (TInt (create_uint 0))
  else match label s with
       | Some _ => Some (TSym s)
       | None => match ssym s with Some n => Some (TInt n) | None => None end
       end.
(** bin-objfmt.c:925-949: made into an expression and added to the absolute part; [blen] is
    bc->len * bc->mult_int *)
Definition combine (v : val) (t : item) (bc blen : Z) : res expr :=
  bind (create IDENT t None) (fun syme =>
  bind (if curpos_rel v then
          bind (create SUB (TPrecbc bc) (Some (TInt (create_uint (u64 blen))))) (fun sube => create SUB (node syme) (Some (node sube)))
        else Fin syme) (fun syme =>
  bind (if 0 <? rshift v then create SHR (node syme) (Some (TInt (create_uint (rshift v)))) else Fin syme) (fun syme =>
  match abs v with
  | None => Fin syme
  | Some a => create ADD (node a) (Some (node syme))
  end))).
Definition resolve (v : val) (bc blen : Z) : res val :=
  match rel v with
  | None => Fin v
  | Some s =>
      match target s with
      | None => Fin v
      | Some t =>
          bind (combine v t bc blen) (fun e =>
            Fin (Val (Some e) None (wrt v) (segof v) 0 false (if curpos_rel v then false else ip_rel v) (jump_target v) (section_rel v) (no_warn v) (signed v) (size v)))
      end
  end.
(** yasm_expr_get_intnum with distances (value.c:653) *)
Definition number (e : expr) : option intnum :=
  match M_Expr.get_intnum nequ equ label sect (bc_dist sect next) true e with Fin (Some n) => Some n | _ => None end.
(** bin-objfmt.c:895-972 bin_objfmt_output_value for the bytecode [bc] at offset [bcoff].  [num2] is the second
    attempt of yasm_value_output_basic (value.c:655-664), after removing a segment; levelling that runs into
    undefined behaviour in [number] counts as "too complex". *)
Definition bin_value (num2 : expr -> option intnum) (v : val) (buf : list Z) (bc bcoff blen : Z) (warn : bool) : bres :=
  match bind (resolve v bc blen) (fun v =>
          match abs v with
          | None => Fin v
          | Some e => bind (level_tree nequ equ true true true [bin_xform] e) (fun r => let '(e, _, _) := r in Fin (set_abs v (Some e)))
          end) with
  | Fault | Deep => BFault
  | Fin v =>
      match output_basic label sect next number num2 v (sect bc) bcoff warn with
      | OErr => BErr
      | OTodo => BErr
      | OFloat neg f w => BFloat neg f w
      | ONum n w => match get_sized n buf (size v) 0 w with Some (out, _, ws) => BBytes out ws | None => BFault end
      end
  end.
End Bin.
