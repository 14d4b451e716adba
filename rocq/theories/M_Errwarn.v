(** Model of libyasm/errwarn.c: error indicator, warning queue, diagnostic report.
    Messages are opaque integers (the formatted text); not modelled: formatting, fatal and
    internal errors, file name lookup at output time (see M_Linemap), memory release. *)
From Coq Require Import ZArith List Lia Bool.
From Verif Require Import Lib.
Import ListNotations.
Open Scope Z_scope.

(** libyasm/errwarn.h:51-69, selected classes. *)
Definition E_NONE := 0.
Definition E_GENERAL := 65535.   (* 0xFFFF *)
Definition E_PARSE := 32832.     (* 0x8040 *)

(** libyasm/errwarn.c:76-85, struct errwarn_data. *)
Inductive kind := KError | KWarn | KParse.
Record entry := Entry { n_line : Z; n_kind : kind; n_msg : Z; n_xline : Z; n_xmsg : Z }.

(** Global indicators (errwarn.c:57-74) and the report object (errwarn.c:87-98).
    [prev] is previous_we as an index into the list. *)
Record st := St {
  eclass : Z; emsg : Z; exline : Z; exmsg : Z;
  warns : list (Z * Z);
  mask : Z;
  report : list entry; prev : option nat;
  ecount : Z; wcount : Z
}.

(** libyasm/errwarn.c:110-126 and 419-428.  Classes 1,2,3,5,7 enabled. *)
Definition init : st :=
  St E_NONE 0 0 0 [] (Z.lor (2^1) (Z.lor (2^2) (Z.lor (2^3) (Z.lor (2^5) (2^7))))) [] None 0 0.

Inductive action := AHead | AAfter (i : nat).

(** libyasm/errwarn.c:204-217, the search loop; [None] = fuel exhausted. *)
Fixpoint search (fuel : nat) (l : list entry) (line : Z) (i : nat) : option (action * nat) :=
  match fuel with
  | O => None
  | S f =>
    match nth_error l i with
    | None => None
    | Some we =>
      if line <? n_line we then
        (if Nat.eqb i 0 then Some (AHead, i) else search f l line 0)
      else match nth_error l (S i) with
           | None => Some (AAfter i, i)
           | Some nx => if (n_line we <=? line) && (line <? n_line nx) then Some (AAfter i, i)
                        else search f l line (S i)
           end
    end
  end.

(** libyasm/errwarn.c:190-245, errwarn_data_new followed by the caller's filling in of the
    entry (457-462, 470-471).  Result: new list and index of the entry. *)
Definition data_new (l : list entry) (pv : option nat) (line : Z) (replace : bool)
    (fill : Z -> entry) : option (list entry * nat) :=
  let found := match pv, l with
               | Some i, _ :: _ =>
                   match search (2 * length l + 2) l line i with
                   | Some (a, ins) => Some (a, Some ins)
                   | None => None
                   end
               | _, _ => Some (AHead, pv)
               end in
  match found with
  | None => None
  | Some (a, ins) =>
    let repl := match ins with
                | Some i => match nth_error l i with
                            | Some we => match n_kind we with KParse => replace | _ => false end
                            | None => false
                            end
                | None => false
                end in
    if repl then
      match ins with
      | Some i => match nth_error l i with
                  | Some we => Some (firstn i l ++ fill (n_line we) :: skipn (S i) l, i)
                  | None => None
                  end
      | None => None
      end
    else match a with
         | AHead => Some (fill line :: l, 0%nat)
         | AAfter i => Some (firstn (S i) l ++ fill line :: skipn (S i) l, S i)
         end
  end.

(** libyasm/errwarn.c:458-462. *)
Definition err_kind (c : Z) : kind :=
  if negb (c =? E_GENERAL) && (Z.land c E_PARSE =? E_PARSE) then KParse else KError.

(** libyasm/errwarn.c:466-473, the warning loop. *)
Fixpoint prop_warns (l : list entry) (pv : option nat) (line : Z) (ws : list (Z * Z)) (wc : Z)
  : option (list entry * option nat * Z) :=
  match ws with
  | [] => Some (l, pv, wc)
  | (_, m) :: t =>
    match data_new l pv line false (fun ln => Entry ln KWarn m 0 0) with
    | None => None
    | Some (l', i) => prop_warns l' (Some i) line t (u32 (wc + 1))
    end
  end.

(** libyasm/errwarn.c:450-474, yasm_errwarn_propagate. *)
Definition propagate (s : st) (line : Z) : option st :=
  let first :=
    if eclass s =? E_NONE then Some (report s, prev s, ecount s)
    else match data_new (report s) (prev s) line true
                 (fun ln => Entry ln (err_kind (eclass s)) (emsg s) (exline s) (exmsg s)) with
         | None => None
         | Some (l, i) => Some (l, Some i, u32 (ecount s + 1))
         end in
  match first with
  | None => None
  | Some (l, pv, ec) =>
    match prop_warns l pv line (warns s) (wcount s) with
    | None => None
    | Some (l', pv', wc) =>
      Some (if eclass s =? E_NONE
            then St (eclass s) (emsg s) (exline s) (exmsg s) [] (mask s) l' pv' ec wc
            else St E_NONE 0 0 0 [] (mask s) l' pv' ec wc)
    end
  end.

Inductive op :=
| ESet (c m : Z)            (* yasm_error_set *)
| EXref (l m : Z)           (* yasm_error_set_xref *)
| EClear                    (* yasm_error_clear *)
| EFetch                    (* yasm_error_fetch *)
| WSet (c m : Z)            (* yasm_warn_set *)
| WFetch                    (* yasm_warn_fetch *)
| WClear                    (* yasm_warn_clear *)
| WEnable (c : Z) | WDisable (c : Z) | WDisableAll
| Propagate (line : Z).     (* yasm_errwarn_propagate *)

(** 1UL << c for an in-range class number. *)
Definition bit (c : Z) : Z := Z.shiftl 1 c.

(** One API call.  The second component lists the warnings taken off the queue, in order.
    errwarn.c: 247-258, 270-283, 294-308, 319-331, 333-345, 355-372, 383-399, 401-417. *)
Definition step (s : st) (o : op) : option (st * list (Z * Z)) :=
  match o with
  | ESet c m =>
      Some (if eclass s =? E_NONE
            then St c m (exline s) (exmsg s) (warns s) (mask s) (report s) (prev s) (ecount s) (wcount s)
            else s, [])
  | EXref l m =>
      Some (if eclass s =? E_NONE
            then St (eclass s) (emsg s) l m (warns s) (mask s) (report s) (prev s) (ecount s) (wcount s)
            else s, [])
  | EClear | EFetch =>
      Some (St E_NONE 0 0 0 (warns s) (mask s) (report s) (prev s) (ecount s) (wcount s), [])
  | WSet c m =>
      Some (if Z.land (mask s) (bit c) =? 0 then s
            else St (eclass s) (emsg s) (exline s) (exmsg s) (warns s ++ [(c, m)]) (mask s)
                    (report s) (prev s) (ecount s) (wcount s), [])
  | WFetch =>
      Some (match warns s with
            | [] => (s, [])
            | w :: t => (St (eclass s) (emsg s) (exline s) (exmsg s) t (mask s)
                            (report s) (prev s) (ecount s) (wcount s), [w])
            end)
  | WClear => Some (St (eclass s) (emsg s) (exline s) (exmsg s) [] (mask s)
                       (report s) (prev s) (ecount s) (wcount s), warns s)
  | WEnable c => Some (St (eclass s) (emsg s) (exline s) (exmsg s) (warns s)
                       (Z.lor (mask s) (bit c)) (report s) (prev s) (ecount s) (wcount s), [])
  | WDisable c => Some (St (eclass s) (emsg s) (exline s) (exmsg s) (warns s)
                       (Z.land (mask s) (Z.lnot (bit c))) (report s) (prev s) (ecount s) (wcount s), [])
  | WDisableAll => Some (St (eclass s) (emsg s) (exline s) (exmsg s) (warns s) 0
                       (report s) (prev s) (ecount s) (wcount s), [])
  | Propagate line =>
      match propagate s line with
      | None => None
      | Some s' => Some (s', warns s)
      end
  end.

Fixpoint run_from (s : st) (ops : list op) : option (st * list (Z * Z)) :=
  match ops with
  | [] => Some (s, [])
  | o :: t => match step s o with
              | None => None
              | Some (s', w) => match run_from s' t with
                                | None => None
                                | Some (s'', w') => Some (s'', w ++ w')
                                end
              end
  end.
Definition run (ops : list op) := run_from init ops.
