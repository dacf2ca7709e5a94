(** The example programs that come with MARLEY: marprint, which prints event files
    (examples/executables/marprint.cc), and mardumpxs, which tabulates a total cross section
    (examples/executables/mardumpxs.cc). *)
From Coq Require Import List Ascii String ZArith Bool.
From Coq Require Import Floats.SpecFloat.
From Verif Require Import Base Dbl Json Stream Pdg Event Output Main MarSum Report.
Import ListNotations.
Local Open Scope Z_scope.

(** ** marprint *)

(** marprint.cc 33-71, print_particle_info and print_event_info. The former is the same
    function as the one of Event.cc. *)
Definition print_event (num : Z) (ev : event) : bytes :=
  [nl] ++ b "*** Event " ++ show_int num ++ b " has " ++ show_int (len (e_init ev)) ++ b " initial particles and "
  ++ show_int (len (e_fin ev)) ++ b " final particles. ***" ++ [nl]
  ++ b "The residual nucleus initially had excitation energy " ++ show_g6 (e_Ex ev) ++ b " MeV and spin-parity " ++ event_spin ev ++ [nl]
  ++ b "Initial particles" ++ [nl] ++ flat_map particle_info (e_init ev) ++ b "Final particles" ++ [nl] ++ flat_map particle_info (e_fin ev).

(** marprint.cc 83-88: the loop over the events of a file, from the number [k]; the text
    printed, and the next number or the exception. The number is an int, which must not
    overflow. *)
Fixpoint print_loop (fuel : nat) (r : rreader) (k : Z) : bytes * res Z :=
  match fuel with
  | O => ([], Er NoFuel)
  | S fuel =>
      match rnext r with
      | Er e => ([], Er e)
      | Ok (ok, ev, r') =>
          if (ok : bool) then
            if k =? 2 ^ 31 - 1 then (print_event k ev, Er Undefined)
            else let '(t, v) := print_loop fuel r' (k + 1) in (print_event k ev ++ t, v)
          else ([], Ok k)
      end
  end.

(** marprint.cc 75-89, print_all_events, and 103-106: the loop over the files. *)
Fixpoint print_files (fuel : nat) (fs : store) (ins : list bytes) (k : Z) : bytes * res Z :=
  match ins with
  | [] => ([], Ok k)
  | n :: ins =>
      match ropen (fs n) with
      | Er e => ([], Er e)
      | Ok r =>
          match print_loop fuel r k with
          | (t, Er e) => (t, Er e)
          | (t, Ok k') => let '(t', v) := print_files fuel fs ins k' in (t ++ t', v)
          end
      end
  end.

(** marprint.cc 91-109, main, for the program called [self]: what it prints, and the exit
    status or the exception that ends it. *)
Definition marprint (fuel : nat) (self : bytes) (args : list bytes) (fs : store) : bytes * res Z :=
  match args with
  | [] => (b "Usage: " ++ self ++ b " INPUT_FILE..." ++ [nl], Ok 0)
  | _ => let '(t, v) := print_files fuel fs args 0 in (t, do _ <- v; Ok 0)
  end.

(** ** mardumpxs *)

(** mardumpxs.cc 50-78, get_double_dump_param and get_int_dump_param: the value [d] stays
    if there is no such key. Integers go through long. *)
Definition double_param (j : json) (k : bytes) (d : spec_float) : res spec_float :=
  if negb (has_key k j) then Ok d
  else
    do v <- at_key k j;
    let '(x, ok) := to_double v in
    if negb ok then Er MarleyErr else Ok x.
Definition int_param (j : json) (k : bytes) (d : Z) : res Z :=
  if negb (has_key k j) then Ok d
  else
    do v <- at_key k j;
    let '(z, ok) := to_long v in
    if negb ok then Er MarleyErr else Ok (wrap32 z).

(** mardumpxs.cc 38-45 and 117-133: energies, steps and code. *)
Definition dump_params (j : json) : res (spec_float * spec_float * Z * Z) :=
  do lo <- double_param j (b "xsec_dump_KEmin") dbl_zero;
  do hi <- double_param j (b "xsec_dump_KEmax") (dbl_of_int 100);
  do steps <- int_param j (b "xsec_dump_steps") 10000;
  do pdg <- int_param j (b "xsec_dump_pdg") ELECTRON_NEUTRINO;
  Ok (lo, hi, steps, pdg).

(** mardumpxs.cc 155-157: the factor from MeV^-2 to 10^-42 cm^2. *)
Definition dump_unit : spec_float := SFmul 53 1024 (SFmul 53 1024 hbar_c2 (dec_to_dbl false 1 14)) (dec_to_dbl false 1 2).

(** mardumpxs.cc 135-166: the loop, writing a line for each step; [xs] is total_xs of the
    generator at the chosen code. What goes to the log is left out. *)
Fixpoint dump_loop (xs : spec_float -> spec_float) (delta : spec_float) (n : nat) (KE : spec_float) : bytes :=
  match n with
  | O => []
  | S n =>
      let KE := SFadd 53 1024 KE delta in
      show_g6 KE ++ b " " ++ show_g6 (SFmul 53 1024 (xs KE) dump_unit) ++ [nl] ++ dump_loop xs delta n KE
  end.

Section dump.
(** create_generator and Generator::total_xs. *)
Context {G : Type} (create : json -> res G) (total_xs : G -> Z -> spec_float -> spec_float).

(** mardumpxs.cc 82-169, main, with the arguments after the program's name: the files
    afterwards, and the exit status or the exception that ends the program. The output
    file is opened, which empties it, before the configuration file is read (107-117). *)
Definition mardumpxs (args : list bytes) (w : world) : world * res Z :=
  match args with
  | out :: cfg :: _ =>
      let '(go, rest) := match w_fs w out with Some _ => prompt (w_in w) | None => (true, w_in w) end in
      let w := set_in rest w in
      if go then
        let w := set_disk out (Some []) w in
        match (do j <- match w_fs w cfg with Some s => load s | None => Er MarleyErr end;
               do g <- create j;
               do p <- dump_params j;
               Ok (g, p)) with
        | Er e => (w, Er e)
        | Ok (g, (lo, hi, steps, pdg)) =>
            let delta := SFdiv 53 1024 (SFsub 53 1024 hi lo) (dbl_of_int steps) in
            (set_disk out (Some (dump_loop (total_xs g pdg) delta (Z.to_nat steps) lo)) w, Ok 0)
        end
      else (w, Ok 0)
  | _ => (w, Ok 1)
  end.
End dump.
