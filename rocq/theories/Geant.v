(** The Geant4 application that comes with MARLEY (examples/marg4): the number of events on its
    command line, and the handing over of MARLEY's events to Geant4. Geant4 itself is not
    modelled. *)
From Coq Require Import List Ascii String ZArith Reals Bool.
From Verif Require Import Base Dbl Stream Names Report Pdg Kin Decay Rot Run.
Import ListNotations.
Local Open Scope Z_scope.

(** std::stoi(arg, &pos): spaces, a sign and digits; the value, and the rest of the text from
    pos on. *)
Definition stoi_pos (s : bytes) : res (Z * bytes) :=
  let t := skip_sp s in
  let '(neg, u) := match t with
                   | c :: r => if ceq c "-" then (true, r) else if ceq c "+" then (false, r) else (false, t)
                   | [] => (false, t)
                   end in
  match take_digits u with
  | [] => Er StdInvalid
  | ds =>
      let n := if neg : bool then - digits_val ds else digits_val ds in
      if (n <? - 2 ^ 31) || (2 ^ 31 <=? n) then Er StdRange else Ok (n, skipn (List.length ds) u)
  end.

(** marg4.cc 35-60, get_num_events. *)
Definition get_num_events (arg : bytes) : option Z :=
  match stoi_pos arg with
  | Er _ => None
  | Ok (x, rest) => if Nat.ltb 0 (List.length rest) then None else if x <? 0 then None else Some x
  end.

(** MarleyPrimaryGeneratorAction.cc 74-84: what Geant4 is told about a particle. *)
Record primary := mkprim { g_pdg : Z; g_px : R; g_py : R; g_pz : R; g_E : R; g_charge : Z }.
Definition to_primary (p : part) : primary := mkprim (pid p) (px p) (py p) (pz p) (en p) (chg p).

(** MarleyPrimaryGeneratorAction.cc 59-90, GeneratePrimaries, for the event that the generator
    made: the particles of the vertex, in order. *)
Definition generate_primaries (ev : kevent) : list primary := map to_primary (final_parts ev).

(** EventAction.cc 25-32, BeginOfEventAction, with the number of events begun before. *)
Definition begin_event (k : nat) : bytes :=
  if Z.of_nat k mod 100 =? 0 then b "Beginning event #" ++ show_int (Z.of_nat k) ++ [nl] else [].

(** G4RunManager::BeamOn, as Geant4 documents it: for each event the primaries are generated
    and then the event begins. An exception ends the program. *)
Fixpoint beam_on (v : env) (gs : Z -> res (Z * bool)) (ds : nat -> run_draws) (fuel : nat) (n k : nat) (z : generator) : bytes * list (list primary) * res generator :=
  match n with
  | O => ([], [], Ok z)
  | S n =>
      match create_event v gs z (ds k) fuel with
      | (_, Er e) => ([], [], Er e)
      | (z', Ok ev) =>
          let '(t, l, r) := beam_on v gs ds fuel n (S k) z' in
          (begin_event k ++ t, generate_primaries ev :: l, r)
      end
  end.

(** marg4.cc 64-115, main: what is printed (without Geant4's own messages and the complaints on standard error), the
    events handed over, and the exit status. [create] makes the generator from the
    configuration file. *)
Definition marg4 (create : bytes -> res generator) (v : env) (gs : Z -> res (Z * bool)) (ds : nat -> run_draws) (fuel : nat) (args : list bytes)
    : bytes * list (list primary) * res Z :=
  match args with
  | num :: cfg :: _ =>
      match get_num_events num with
      | None => ([], [], Ok 2)
      | Some n =>
          match create cfg with
          | Er e => ([], [], Er e)
          | Ok z =>
              let '(t, l, r) := beam_on v gs ds fuel (Z.to_nat n) 0 z in
              (b "Simulating " ++ show_int n ++ b " events . . ." ++ [nl] ++ t, l, do _ <- r; Ok 0)
          end
      end
  | _ => (b "Usage: marg4 NUM_EVENTS MARLEY_CONFIG_FILE" ++ [nl], [], Ok 1)
  end.
