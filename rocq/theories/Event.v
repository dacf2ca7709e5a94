(** Particles and events and their text forms (src/Particle.cc, src/Event.cc).

    Values only; which object owns which particle is in EventHeap.v. *)
From Coq Require Import List Ascii String ZArith Bool Lia.
From Coq Require Import Floats.SpecFloat.
From Verif Require Import Base Dbl Json Stream Pdg.
Import ListNotations.
Local Open Scope Z_scope.

(** Particle.hh: the data members. Doubles are binary64, ints are integers (the
    range of int is enforced where values are read). *)
Record particle := mkp {
  p_pdg : Z; p_E : spec_float; p_px : spec_float; p_py : spec_float;
  p_pz : spec_float; p_mass : spec_float; p_charge : Z
}.

Definition dbl_zero : spec_float := S754_zero false.

(** Particle.cc 57 and Particle.hh default member initialisers. *)
Definition default_particle : particle :=
  mkp 0 dbl_zero dbl_zero dbl_zero dbl_zero dbl_zero 0.

(** Event.hh: the data members. *)
Record event := mke {
  e_init : list particle; e_fin : list particle;
  e_Ex : spec_float; e_twoJ : Z; e_par : bool
}.

(** Event.cc 58-60 default constructor, 212-217 clear. *)
Definition empty_event : event := mke [] [] dbl_zero 0 true.

(** ** ASCII format *)

Definition sp : bytes := [" "%char].

(** Particle.cc 109-113, print, on a stream with std::scientific and precision
    17 (Event.cc 226-236). *)
Definition print_particle (p : particle) : bytes :=
  show_int (p_pdg p) ++ sp ++ show_e17 (p_E p) ++ sp ++ show_e17 (p_px p) ++ sp
  ++ show_e17 (p_py p) ++ sp ++ show_e17 (p_pz p) ++ sp ++ show_e17 (p_mass p)
  ++ sp ++ show_int (p_charge p).

Definition len {A} (l : list A) : Z := Z.of_nat (List.length l).

(** Event.cc 234-235, the header line. *)
Definition print_header (ev : event) : bytes :=
  show_int (len (e_init ev)) ++ sp ++ show_int (len (e_fin ev)) ++ sp
  ++ show_e17 (e_Ex ev) ++ sp ++ show_int (e_twoJ ev) ++ sp
  ++ [parity_to_char (e_par ev)] ++ [nl].

Definition print_lines (l : list particle) : bytes :=
  flat_map (fun p => print_particle p ++ [nl]) l.

(** Event.cc 226-241, print. *)
Definition print_event (ev : event) : bytes :=
  print_header ev ++ print_lines (e_init ev) ++ print_lines (e_fin ev).

(** Particle.cc 115-118, read. *)
Definition read_particle (s : bytes) : option (particle * bytes) :=
  olet (pdg, s) <- rd_int s;
  olet (E, s) <- rd_dbl s;
  olet (px, s) <- rd_dbl s;
  olet (py, s) <- rd_dbl s;
  olet (pz, s) <- rd_dbl s;
  olet (m, s) <- rd_dbl s;
  olet (q, s) <- rd_int s;
  Some (mkp pdg E px py pz m q, s).

(** Event.cc 271-289: read n particles; a parse failure throws. *)
Fixpoint read_particles (n : nat) (s : bytes) : res (list particle * bytes) :=
  match n with
  | O => Ok ([], s)
  | S n' =>
      match read_particle s with
      | None => Er MarleyErr
      | Some (p, s) =>
          do (l, s) <- read_particles n' s;
          Ok (p :: l, s)
      end
  end.

(** Event.cc 249, the header; None if the stream failed. *)
Definition read_header (s : bytes) : res (option (Z * Z * spec_float * Z * bool * bytes)) :=
  match (olet (ni, s) <- rd_int s;
         olet (nf, s) <- rd_int s;
         olet (ex, s) <- rd_dbl s;
         olet (tj, s) <- rd_int s;
         Some (ni, nf, ex, tj, s)) with
  | None => Ok None
  | Some (ni, nf, ex, tj, s) =>
      do r <- rd_parity s;
      match r with
      | None => Ok None
      | Some (p, s) => Ok (Some (ni, nf, ex, tj, p, s))
      end
  end.

(** Event.cc 243-290, read. [Ok None]: the header could not be read, the stream
    is in a failed state and the event has no particles. The max_size checks
    cannot fail for an int. *)
Definition read_event (s : bytes) : res (option (event * bytes)) :=
  do h <- read_header s;
  match h with
  | None => Ok None
  | Some (ni, nf, ex, tj, p, s) =>
      if ni <? 2 then Er MarleyErr
      else if nf <? 2 then Er MarleyErr
      else
        do (li, s) <- read_particles (Z.to_nat ni) s;
        do (lf, s) <- read_particles (Z.to_nat nf) s;
        Ok (Some (mke li lf ex tj p, s))
  end.

(** How a loop reading events ends. *)
Inductive ending := AtEnd | Thrown (e : err).

(** A loop of the form while (in >> ev), the events read and how it ended.
    Fuel: each event takes at least one byte. *)
Fixpoint read_events (f : nat) (s : bytes) : list event * ending :=
  match f with
  | O => ([], Thrown NoFuel)
  | S f' =>
      match read_event s with
      | Er e => ([], Thrown e)
      | Ok None => ([], AtEnd)
      | Ok (Some (ev, s)) => let '(l, e) := read_events f' s in (ev :: l, e)
      end
  end.
Definition read_all (s : bytes) : list event * ending := read_events (S (List.length s)) s.

(** ** JSON format *)

(** Particle.cc 120-130, to_json. *)
Definition particle_json (p : particle) : json :=
  JObj (obj_set (b "charge") (JInt (p_charge p))
    (obj_set (b "mass") (JFlt (p_mass p))
    (obj_set (b "pz") (JFlt (p_pz p))
    (obj_set (b "py") (JFlt (p_py p))
    (obj_set (b "px") (JFlt (p_px p))
    (obj_set (b "E") (JFlt (p_E p))
    (obj_set (b "pdg") (JInt (p_pdg p)) []))))))).

(** Event.cc 357-373, to_json. *)
Definition event_json (ev : event) : json :=
  JObj (obj_set (b "final_particles") (JArr (map particle_json (e_fin ev)))
    (obj_set (b "initial_particles") (JArr (map particle_json (e_init ev)))
    (obj_set (b "parity") (JInt (parity_to_int (e_par ev)))
    (obj_set (b "twoJ") (JInt (e_twoJ ev))
    (obj_set (b "Ex") (JFlt (e_Ex ev)) []))))).

(** Particle.cc 27-40, read_JSON_double. *)
Definition json_double (k : bytes) (j : json) : res spec_float :=
  if has_key k j then
    do v <- at_key k j;
    let '(x, ok) := to_double v in
    if ok then Ok x else Er MarleyErr
  else Er MarleyErr.

(** Particle.cc 42-55, read_JSON_integer. *)
Definition json_integer (k : bytes) (j : json) : res Z :=
  if has_key k j then
    do v <- at_key k j;
    let '(x, ok) := to_long v in
    if ok then Ok x else Er MarleyErr
  else Er MarleyErr.

(** Particle.cc 139-148, from_json. *)
Definition particle_of_json (j : json) : res particle :=
  do pdg <- json_integer (b "pdg") j;
  do q <- json_integer (b "charge") j;
  do E <- json_double (b "E") j;
  do px <- json_double (b "px") j;
  do py <- json_double (b "py") j;
  do pz <- json_double (b "pz") j;
  do m <- json_double (b "mass") j;
  Ok (mkp (to_int pdg) E px py pz m (to_int q)).

(** Event.cc 614-620 and 631-637: the particles of an array. *)
Fixpoint particles_of_json (l : list json) : res (list particle) :=
  match l with
  | [] => Ok []
  | j :: r =>
      match j with
      | JObj _ =>
          do p <- particle_of_json j;
          do ps <- particles_of_json r;
          Ok (p :: ps)
      | _ => Er MarleyErr
      end
  end.

(** Event.cc 602-639: one array of particles. *)
Definition json_particles (k : bytes) (j : json) : res (list particle) :=
  if has_key k j then
    do v <- at_key k j;
    match v with JArr l => particles_of_json l | _ => Er MarleyErr end
  else Er MarleyErr.

(** Event.cc 574-639, from_json. *)
Definition event_of_json (j : json) : res event :=
  do ex <- json_double (b "Ex") j;
  do tj <- json_integer (b "twoJ") j;
  do vp <- at_key (b "parity") j;
  do par <- parity_of_int (to_int (fst (to_long vp)));
  if snd (to_long vp) then
    do li <- json_particles (b "initial_particles") j;
    do lf <- json_particles (b "final_particles") j;
    Ok (mke li lf ex (to_int tj) par)
  else Er MarleyErr.

(** ** HEPEVT format *)

(** IEEE division: the rounding of the exact quotient. *)
Definition dbl_div (x y : spec_float) : spec_float :=
  match x, y with
  | S754_nan, _ | _, S754_nan => S754_nan
  | S754_infinity _, S754_infinity _ => S754_nan
  | S754_infinity s, S754_finite t _ _ | S754_infinity s, S754_zero t => S754_infinity (xorb s t)
  | S754_zero s, S754_infinity t | S754_finite s _ _, S754_infinity t => S754_zero (xorb s t)
  | S754_zero _, S754_zero _ => S754_nan
  | S754_zero s, S754_finite t _ _ => S754_zero (xorb s t)
  | S754_finite s _ _, S754_zero t => S754_infinity (xorb s t)
  | S754_finite s m e, S754_finite t m' e' =>
      rnd64 (xorb s t) (dnum m e * dden e') (dden e * dnum m' e')
  end.

(** Event.cc 41. *)
Definition GEV_TO_MEV : spec_float := dbl_of_int 1000.

(** Event.hh 32-37. *)
Definition ST_INITIAL := 3.
Definition ST_FINAL := 1.
Definition ST_INFO := 11.

Definition gev (x : spec_float) : bytes := show_e17 (dbl_div x GEV_TO_MEV).

(** Event.cc 294-311, dump_hepevt_particle. *)
Definition hep_line (p : particle) (status jmo1 jmo2 : Z) : bytes :=
  show_int status ++ sp ++ show_int (p_pdg p) ++ sp ++ show_int jmo1 ++ sp
  ++ show_int jmo2 ++ b " 0 0 " ++ gev (p_px p) ++ sp ++ gev (p_py p) ++ sp
  ++ gev (p_pz p) ++ sp ++ gev (p_E p) ++ sp ++ gev (p_mass p)
  ++ b " 0. 0. 0. 0." ++ [nl].

(** Event.cc 323-329: the dummy particle. *)
Definition hep_dummy (ev : event) (flux : spec_float) : particle :=
  mkp 0 (dbl_mul (e_Ex ev) GEV_TO_MEV) dbl_zero dbl_zero dbl_zero
      (dbl_mul flux GEV_TO_MEV) 0.

(** Event.cc 313-355, write_hepevt. *)
Definition print_hepevt (num : Z) (flux : spec_float) (ev : event) : bytes :=
  show_int num ++ sp ++ show_int (1 + len (e_init ev) + len (e_fin ev)) ++ [nl]
  ++ flat_map (fun p => hep_line p ST_INITIAL 0 0) (e_init ev)
  ++ hep_line (hep_dummy ev flux) ST_INFO (e_twoJ ev) (parity_to_int (e_par ev))
  ++ flat_map (fun p => hep_line p ST_FINAL 0 0) (e_fin ev).

(** One particle entry of a HEPEVT record, as read. *)
Record hep_entry := mkh {
  h_status : Z; h_pdg : Z; h_jmo1 : Z; h_jmo2 : Z;
  h_px : spec_float; h_py : spec_float; h_pz : spec_float; h_E : spec_float;
  h_M : spec_float
}.

(** Event.cc 435-448: read one entry. *)
Definition read_hep_entry (s : bytes) : option (hep_entry * bytes) :=
  olet (st, s) <- rd_int s;
  olet (pdg, s) <- rd_int s;
  olet (j1, s) <- rd_int s;
  olet (j2, s) <- rd_int s;
  olet (_, s) <- rd_int s;
  olet (_, s) <- rd_int s;
  olet (px, s) <- rd_dbl s;
  olet (py, s) <- rd_dbl s;
  olet (pz, s) <- rd_dbl s;
  olet (E, s) <- rd_dbl s;
  olet (M, s) <- rd_dbl s;
  olet (_, s) <- rd_dbl s;
  olet (_, s) <- rd_dbl s;
  olet (_, s) <- rd_dbl s;
  olet (_, s) <- rd_dbl s;
  Some (mkh st pdg j1 j2 px py pz E M, s).

(** The state of the loop of read_hepevt: the event under construction, the
    cross section, and the counters and indices of Event.cc 388-405. *)
Record hep_state := mks {
  s_ev : event; s_flux : spec_float;
  s_ninit : Z; s_nions : Z; s_nlep : Z; s_nfions : Z;
  s_lep : nat; s_ion : nat; s_A : Z
}.
Definition hep_start : hep_state := mks empty_event dbl_zero 0 0 0 0 0 0 0.

(** Event.cc 477-490: convert to MeV and build the particle; the constructor
    (Particle.cc 86-89) looks up the charge, which throws for unknown codes. *)
Definition hep_particle (h : hep_entry) : res particle :=
  do q <- particle_charge (h_pdg h);
  Ok (mkp (h_pdg h) (dbl_mul (h_E h) GEV_TO_MEV) (dbl_mul (h_px h) GEV_TO_MEV)
        (dbl_mul (h_py h) GEV_TO_MEV) (dbl_mul (h_pz h) GEV_TO_MEV)
        (dbl_mul (h_M h) GEV_TO_MEV) q).

(** Event.cc 449-468: the dummy particle. *)
Definition hep_info (h : hep_entry) (st : hep_state) : res hep_state :=
  do par <- parity_of_int (h_jmo2 h);
  let ev := s_ev st in
  Ok (mks (mke (e_init ev) (e_fin ev) (h_E h) (h_jmo1 h) par) (h_M h)
        (s_ninit st) (s_nions st) (s_nlep st) (s_nfions st) (s_lep st) (s_ion st) (s_A st)).

(** Event.cc 487-492: an initial particle. *)
Definition hep_initial (h : hep_entry) (st : hep_state) : res hep_state :=
  do p <- hep_particle h;
  let ev := s_ev st in
  Ok (mks (mke (e_init ev ++ [p]) (e_fin ev) (e_Ex ev) (e_twoJ ev) (e_par ev)) (s_flux st)
        (s_ninit st + 1) (if is_ion (h_pdg h) then s_nions st + 1 else s_nions st)
        (s_nlep st) (s_nfions st) (s_lep st) (s_ion st) (s_A st)).

(** Event.cc 492-509: a final particle. *)
Definition hep_final (h : hep_entry) (st : hep_state) : res hep_state :=
  do p <- hep_particle h;
  let ev := s_ev st in
  let fin := e_fin ev ++ [p] in
  let idx := (List.length fin - 1)%nat in
  let lep := is_lepton (h_pdg h) in
  let ion := is_ion (h_pdg h) in
  let A := particle_A (h_pdg h) in
  let larger := ion && (s_A st <? A) in
  Ok (mks (mke (e_init ev) fin (e_Ex ev) (e_twoJ ev) (e_par ev)) (s_flux st)
        (s_ninit st) (s_nions st)
        (if lep then s_nlep st + 1 else s_nlep st)
        (if ion then s_nfions st + 1 else s_nfions st)
        (if lep then idx else s_lep st)
        (if larger then idx else s_ion st)
        (if larger then A else s_A st)).

(** Event.cc 449-509: one entry. *)
Definition hep_step (h : hep_entry) (st : hep_state) : res hep_state :=
  if h_status h =? ST_INFO then hep_info h st
  else if h_status h =? ST_INITIAL then hep_initial h st
  else if h_status h =? ST_FINAL then hep_final h st
  else Ok st.

(** Event.cc 433-513: the loop over entries. *)
Fixpoint hep_loop (n : nat) (st : hep_state) (s : bytes) : res (hep_state * bytes) :=
  match n with
  | O => Ok (st, s)
  | S n' =>
      match read_hep_entry s with
      | None => Er MarleyErr
      | Some (h, s) =>
          do st <- hep_step h st;
          hep_loop n' st s
      end
  end.

(** Replace element i. *)
Fixpoint set_nth {A} (i : nat) (x : A) (l : list A) : list A :=
  match l, i with
  | [], _ => []
  | _ :: r, O => x :: r
  | y :: r, S i' => y :: set_nth i' x r
  end.

(** std::iter_swap of two elements of a vector (both indices valid). *)
Definition swap {A} (i j : nat) (l : list A) : list A :=
  match nth_error l i, nth_error l j with
  | Some x, Some y => set_nth i y (set_nth j x l)
  | _, _ => l
  end.

Definition set_charge (q : Z) (p : particle) : particle :=
  mkp (p_pdg p) (p_E p) (p_px p) (p_py p) (p_pz p) (p_mass p) q.

(** Apply a function to element i. *)
Definition upd_nth {A} (i : nat) (f : A -> A) (l : list A) : list A :=
  match nth_error l i with Some x => set_nth i (f x) l | None => l end.

Definition pdg_at (i : nat) (l : list particle) : Z := p_pdg (nth i l default_particle).

(** Event.cc 557-567: sum of the charges of the final ions other than the
    residue (index 1). *)
Fixpoint sum_other_ions (i : nat) (l : list particle) : Z :=
  match l with
  | [] => 0
  | p :: r => (if Nat.eqb i 1 then 0 else if is_ion (p_pdg p) then p_charge p else 0)
              + sum_other_ions (S i) r
  end.

(** Event.cc 515-572: checks, reordering and charges. *)
Definition hep_finish (st : hep_state) : res event :=
  if negb (s_ninit st =? 2) then Er MarleyErr
  else if negb (s_nions st =? 1) then Er MarleyErr
  else if negb (s_nlep st =? 1) then Er MarleyErr
  else if s_nfions st <? 1 then Er MarleyErr
  else
    let ev := s_ev st in
    let ini := if is_ion (pdg_at 1 (e_init ev)) then e_init ev else swap 0 1 (e_init ev) in
    let fin := if Nat.eqb (s_lep st) 0 then e_fin ev else swap 0 (s_lep st) (e_fin ev) in
    let fin := if Nat.eqb (s_ion st) 1 then fin else swap 1 (s_ion st) fin in
    let qf := - p_charge (nth 0 fin default_particle) in
    Ok (mke (upd_nth 1 (set_charge 0) ini)
            (upd_nth 1 (set_charge (qf - sum_other_ions 0 fin)) fin)
            (e_Ex ev) (e_twoJ ev) (e_par ev)).

(** Event.cc 380-572, read_hepevt: [Ok None] is the return value false. The
    event, the cross section and the rest of the stream. *)
Definition read_hepevt (s : bytes) : res (option (event * spec_float * bytes)) :=
  match (olet (_, s) <- rd_int s; rd_int s) with
  | None => Ok None
  | Some (n, s) =>
      if n <? 0 then Er MarleyErr
      else
        do (st, s) <- hep_loop (Z.to_nat n) hep_start s;
        do ev <- hep_finish st;
        Ok (Some (ev, s_flux st, s))
  end.
