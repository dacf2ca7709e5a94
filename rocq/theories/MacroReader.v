(** Reading event files in a ROOT macro: MacroEventFileReader (MacroEventFileReader.hh and .cc) and
    the macro print_events.C. A macro has variables of this class; each holds a bare pointer to a
    RootEventFileReader on the heap. The class declares no copy constructor, so that the
    compiler makes one that copies the pointer. Event files do not change while the macro runs. *)
From Coq Require Import List Ascii String ZArith Bool.
From Coq Require Import Floats.SpecFloat.
From Verif Require Import Base Dbl Event Output MarSum Tools.
Import ListNotations.
Local Open Scope Z_scope.

(** EventFileReader.hh 66-107, 223-231 of EventFileReader.cc: a reader opens its file when it is
    first used; until then, and after a failure, it only has its name. *)
Inductive lazy := LNew (name : bytes) | LOpen (r : rreader).
Definition ensure (fs : store) (l : lazy) : res rreader :=
  match l with LNew n => ropen (fs n) | LOpen r => Ok r end.

(** RootEventFileReader.cc 81-97 and 99-104: the stream operator followed by the conversion to bool, as in the
    condition of a loop: whether there was an event, the event, the reader. *)
Definition lread (fs : store) (l : lazy) : res (bool * event) * lazy :=
  match ensure fs l with
  | Er e => (Er e, l)
  | Ok r => match rnext r with Er e => (Er e, LOpen r) | Ok (ok, ev, r') => (Ok (ok, ev), LOpen r') end
  end.
(** EventFileReader.cc 233-239, flux_averaged_xsec with natural units. *)
Definition lflux (fs : store) (l : lazy) : res spec_float * lazy :=
  match ensure fs l with Er e => (Er e, l) | Ok r => (Ok (rflux r), LOpen r) end.

(** What a macro does with its variables, which are numbered. *)
Inductive mop := MNew (v : nat) (name : bytes) | MCopy (v w : nat) | MAssign (v w : nat) | MRead (v : nat) | MFlux (v : nat) | MDelete (v : nat).
(** What it sees. *)
Inductive mout := ONone | ORead (r : res (bool * event)) | OFlux (r : res spec_float).

(** The heap, with freed cells marked, and the pointers in the variables. *)
Record mstate := mkm { m_heap : list (option lazy); m_vars : list (nat * nat) }.
Definition var_get (v : nat) (l : list (nat * nat)) : option nat := option_map snd (find (fun q => Nat.eqb (fst q) v) l).
Definition var_drop (v : nat) (l : list (nat * nat)) : list (nat * nat) := filter (fun q => negb (Nat.eqb (fst q) v)) l.
Fixpoint set_cell (i : nat) (c : option lazy) (h : list (option lazy)) : list (option lazy) :=
  match h, i with
  | [], _ => []
  | _ :: h, O => c :: h
  | x :: h, S i => x :: set_cell i c h
  end.

(** MacroEventFileReader.cc 30-53. Using a freed reader, or freeing it again, is undefined, and so is using a
    variable that does not exist; a variable is made once only. *)
Definition mstep (fs : store) (s : mstate) (op : mop) : res (mstate * mout) :=
  let cell v := match var_get v (m_vars s) with
    | None => Er Undefined
    | Some p => match nth_error (m_heap s) p with Some (Some l) => Ok (p, l) | _ => Er Undefined end
    end in
  match op with
  | MNew v name =>
      match var_get v (m_vars s) with
      | Some _ => Er Undefined
      | None => Ok (mkm (m_heap s ++ [Some (LNew name)]) ((v, List.length (m_heap s)) :: m_vars s), ONone)
      end
  | MCopy v w =>
      match var_get v (m_vars s), var_get w (m_vars s) with
      | None, Some p => Ok (mkm (m_heap s) ((v, p) :: m_vars s), ONone)
      | _, _ => Er Undefined
      end
  | MAssign v w =>
      match var_get v (m_vars s), var_get w (m_vars s) with
      | Some _, Some p => Ok (mkm (m_heap s) ((v, p) :: var_drop v (m_vars s)), ONone)
      | _, _ => Er Undefined
      end
  | MRead v => do (p, l) <- cell v; let '(r, l') := lread fs l in Ok (mkm (set_cell p (Some l') (m_heap s)) (m_vars s), ORead r)
  | MFlux v => do (p, l) <- cell v; let '(r, l') := lflux fs l in Ok (mkm (set_cell p (Some l') (m_heap s)) (m_vars s), OFlux r)
  | MDelete v => do (p, l) <- cell v; Ok (mkm (set_cell p None (m_heap s)) (var_drop v (m_vars s)), ONone)
  end.

(** A history; exceptions are caught by the macro. *)
Fixpoint mrun (fs : store) (s : mstate) (ops : list mop) : res (mstate * list mout) :=
  match ops with
  | [] => Ok (s, [])
  | op :: ops => do (s', o) <- mstep fs s op; do (s'', os) <- mrun fs s' ops; Ok (s'', o :: os)
  end.
Definition mempty : mstate := mkm [] [].

(** print_events.C 41-52: what is printed, and the exception that ends it. The count is an int, passed on as
    size_t. *)
Fixpoint print_events_loop (fuel : nat) (fs : store) (s : mstate) (k : Z) : bytes * res mstate :=
  match fuel with
  | O => ([], Er NoFuel)
  | S fuel =>
      match mstep fs s (MRead 0) with
      | Er e => ([], Er e)
      | Ok (s', ORead (Ok (true, ev))) =>
          if k =? 2 ^ 31 - 1 then (print_event k ev, Er Undefined)
          else let '(t, r) := print_events_loop fuel fs s' (k + 1) in (print_event k ev ++ t, r)
      | Ok (s', ORead (Er e)) => ([], Er e)
      | Ok (s', _) => ([], Ok s')
      end
  end.
Definition print_events (fuel : nat) (fs : store) (name : bytes) : bytes * res mstate :=
  match mstep fs mempty (MNew 0 name) with
  | Er e => ([], Er e)
  | Ok (s, _) =>
      let '(t, r) := print_events_loop fuel fs s 0 in
      (t, do s' <- r; do (s'', _) <- mstep fs s' (MDelete 0); Ok s'')
  end.
