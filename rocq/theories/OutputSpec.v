(** Vocabulary for statements about output files. *)
From Coq Require Import List Ascii String ZArith Bool.
From Coq Require Import Floats.SpecFloat.
From Verif Require Import Base Dbl Json JsonSpec Stream Pdg Event EventSpec EventJsonProofs Output.
Import ListNotations.
Local Open Scope Z_scope.

(** [crash l l']: the actions l' have reached the disk when the machine stops
    during l. The bytes of a stream reach the disk in order, so any prefix of a
    write can be there. *)
Inductive crash : list act -> list act -> Prop :=
| cr_now l : crash l []
| cr_put s p q l : s = p ++ q -> crash (Put s :: l) [Put p]
| cr_next a l l' : crash l l' -> crash (a :: l) (a :: l').

(** Events written one after another. *)
Fixpoint write_many (evs : list event) (f : tfile) : res (tfile * list act) :=
  match evs with
  | [] => Ok (f, [])
  | ev :: r =>
      do (f1, a) <- write_event ev f;
      do (f2, a') <- write_many r f1;
      Ok (f2, a ++ a')
  end.

(** The JSON value [j] holds the event [ev], with doubles related by [D]. *)
Definition stores (D : spec_float -> spec_float -> Prop) (ev : event) (j : json) : Prop :=
  exists ev', event_of_json j = Ok ev' /\ event_rel D ev ev'.

(** The event array of a document, and its generator state. *)
Definition doc_events (j : json) : option (list json) :=
  match j with
  | JObj l => match obj_get (b "events") l with Some (JArr a) => Some a | _ => None end
  | _ => None
  end.
Definition doc_state (j : json) : option json :=
  match j with JObj l => obj_get (b "gen_state") l | _ => None end.

(** A number read back for the double [x]: always close, and the same if [x] is
    printed without exponent. *)
Definition best_num (x : spec_float) (j : json) : Prop :=
  near_num x j /\ (fixed_dbl x -> same_num x j).
Definition best_dbl (x y : spec_float) : Prop :=
  near_dbl x y /\ (fixed_dbl x -> same_dbl x y).

Section gen.
Variable C : Type.
Variable create : Z -> json -> res (generator C).
Variable next : C -> rng -> res (event * C * rng).
Variable flux : C -> spec_float.

(** The random engine's numbers are 64-bit words. *)
Definition rng_ok (r : rng) : Prop := r <> [] /\ Forall (fun w => 0 <= w < 2 ^ 64) r.

(** What the generator state of a file says: configuration, state of the random
    engine, seed, number of events, cross section; doubles related by [R]. *)
Definition state_holds (R : spec_float -> json -> Prop) (config : json) (g : generator C) (count : Z)
    (gs : json) : Prop :=
  exists cfg x, gs = JObj [(b "config", cfg); (b "event_count", JInt count); (b "flux_avg_xsec", x);
                           (b "generator_state_string", JStr (show_rng (g_rng g)));
                           (b "seed", JStr (show_int (g_seed g)))] /\
    rel_value R config cfg /\ rel_value R (JFlt (flux (g_cfg g))) x.

(** A generator state that can be written. *)
Definition savable (P : spec_float -> Prop) (config : json) (g : generator C) (count : Z) : Prop :=
  all_floats P config /\ P (flux (g_cfg g)) /\ is_long count.

(** A closed JSON file: it is a complete document, nothing follows it, and it
    consists of the event array and the generator state. *)
Definition closed_file (R : spec_float -> json -> Prop) (s : bytes) (l : list json) (config : json)
    (g : generator C) (count : Z) : Prop :=
  hd_error s = Some "{"%char /\
  exists gs, load_rest s = Ok (JObj [(b "events", JArr l); (b "gen_state", gs)], []) /\
    state_holds R config g count gs.

(** One session with a JSON file: the indent, the events written, and what is
    passed to close. *)
Record session := mkss {
  ss_now : Z; ss_indent : option nat; ss_events : list event;
  ss_config : json; ss_gen : generator C; ss_count : Z
}.

Definition close_session (se : session) (f : tfile) : list act :=
  close_file C flux (ss_config se) (ss_gen se) (ss_count se) f.

(** What happens to the file in a fresh session: open, write, close. *)
Definition fresh_acts (se : session) (exists_ : bool) : res (list act) :=
  do (f, a) <- open_file (b "json") (b "overwrite") true (ss_indent se) exists_ true;
  do (f', a') <- write_many (ss_events se) f;
  Ok (a ++ a' ++ close_session se f').

Definition fresh_session (se : session) (old : disk) : res disk :=
  do a <- fresh_acts se (match old with Some _ => true | None => false end);
  Ok (apply_acts a old).

(** The same for a resumed file: open, resume, write, close. *)
Definition resumed_acts (se : session) (s : bytes) : res (generator C * Z * list act) :=
  do (f0, a0) <- open_file (b "json") (b "resume") false (ss_indent se) true true;
  let '(x, a) := resume C create (ss_now se) s f0 in
  do (g, n, f) <- x;
  do (f', a') <- write_many (ss_events se) f;
  Ok (g, n, a0 ++ a ++ a' ++ close_session se f').

Definition resumed_session (se : session) (s : bytes) : res (generator C * Z * disk) :=
  do (g, n, a) <- resumed_acts se s;
  Ok (g, n, apply_acts a (Some s)).

(** Any number of resumed sessions, one after another: what each resume
    returned, and the file at the end. *)
Fixpoint sessions (l : list session) (s : bytes) : res (list (generator C * Z) * bytes) :=
  match l with
  | [] => Ok ([], s)
  | se :: r =>
      do (g, n, d) <- resumed_session se s;
      match d with
      | None => Er Undefined
      | Some s' => do (gs, s'') <- sessions r s'; Ok ((g, n) :: gs, s'')
      end
  end.

(** A session that [se'] can continue: the random engine's words are 64-bit and
    every configuration close to the stored one gives a generator whose engine
    has as many. *)
Definition continues (R : spec_float -> json -> Prop) (se se' : session) : Prop :=
  rng_ok (g_rng (ss_gen se)) /\
  forall cfg, rel_value R (ss_config se) cfg -> exists g0, create (ss_now se') cfg = Ok g0 /\
    List.length (g_rng g0) = List.length (g_rng (ss_gen se)).

Fixpoint continuing (R : spec_float -> json -> Prop) (se : session) (l : list session) : Prop :=
  match l with
  | [] => True
  | se' :: r => continues R se se' /\ continuing R se' r
  end.

(** What resuming after [se] returns in [se']: the stored event count, and a
    generator built from the stored configuration with the stored state of the
    random engine. *)
Definition returned (R : spec_float -> json -> Prop) (se se' : session) (gn : generator C * Z) : Prop :=
  exists cfg g0, rel_value R (ss_config se) cfg /\ create (ss_now se') cfg = Ok g0 /\
    fst gn = mkg (g_cfg g0) (g_rng (ss_gen se)) (g_seed g0) /\ snd gn = ss_count se.

Fixpoint all_returned (R : spec_float -> json -> Prop) (se : session) (l : list session)
    (gs : list (generator C * Z)) : Prop :=
  match l, gs with
  | [], [] => True
  | se' :: r, g :: gs' => returned R se se' g /\ all_returned R se' r gs'
  | _, _ => False
  end.

(** The first [n] events a generator produces, and the generator after them. *)
Fixpoint produces (n : nat) (g : generator C) : res (list event * generator C) :=
  match n with
  | O => Ok ([], g)
  | S n' =>
      do (ev, g1) <- create_event C next g;
      do (l, g2) <- produces n' g1;
      Ok (ev :: l, g2)
  end.

(** A file just opened for writing from the start, in a format the executable
    can write without ROOT. *)
Definition fresh_file (fd : outfile) : Prop :=
  exists fmt force i old answer a,
    open_file fmt (b "overwrite") force i (match old with Some _ => true | None => false end) answer
    = Ok (fst fd, a) /\
    t_mode (fst fd) = Overwrite /\ t_format (fst fd) <> FRoot /\ snd fd = apply_acts a old.

(** What such a file holds after a run that produced [evs], in each format. *)
Definition holds (config : json) (g : generator C) (n : Z) (x : spec_float) (evs : list event)
    (f : format) (d : disk) : Prop :=
  match f with
  | FAscii => d = Some (show_e17 x ++ nl :: events_text evs)
  | FHepevt => d = Some (flat_map (print_hepevt 0 x) evs)
  | FJson => exists s l, d = Some s /\ closed_file best_num s l config g n /\
               Forall2 (stores best_dbl) evs l
  | FRoot => False
  end.

(** Everything the generator can produce can be written. *)
Definition printable (P : spec_float -> Prop) (g : generator C) : Prop :=
  forall m evs g', produces m g = Ok (evs, g') ->
    Forall (event_ok P) evs /\ normal_dbl (flux (g_cfg g')).

(** A run of the executable that resumes a single JSON file with contents [s]. *)
Record job := mkj { j_now : Z; j_num : Z; j_intr : nat -> bool; j_indent : option nat }.

Definition first_run (config : json) (j : job) (old : disk) : res (Z * generator C * bytes) :=
  do (f, a) <- open_file (b "json") (b "overwrite") true (j_indent j)
                 (match old with Some _ => true | None => false end) true;
  do (n, g, ds) <- run C create next flux (j_now j) config (j_num j) (j_intr j) [(f, apply_acts a old)];
  match ds with [Some s] => Ok (n, g, s) | _ => Er Undefined end.

Definition resumed_run (config : json) (j : job) (s : bytes) : res (Z * generator C * bytes) :=
  do (f, a) <- open_file (b "json") (b "resume") false (j_indent j) true true;
  do (n, g, ds) <- run C create next flux (j_now j) config (j_num j) (j_intr j) [(f, apply_acts a (Some s))];
  match ds with [Some s'] => Ok (n, g, s') | _ => Er Undefined end.

Fixpoint resumed_runs (config : json) (l : list job) (s : bytes) : res bytes :=
  match l with
  | [] => Ok s
  | j :: r => do (n, g, s') <- resumed_run config j s; resumed_runs config r s'
  end.

(** The generator has no state besides the random engine: whatever is close to
    the configuration gives the same configured part [c0], which drawing an event
    does not change; drawing never fails. *)
Definition stateless (config : json) (c0 : C) (size : nat) : Prop :=
  (forall now cfg, rel_value best_num config cfg \/ cfg = config ->
     exists g, create now cfg = Ok g /\ g_cfg g = c0 /\ List.length (g_rng g) = size /\ rng_ok (g_rng g)) /\
  (forall r, List.length r = size -> rng_ok r ->
     exists ev r', next c0 r = Ok (ev, c0, r') /\ List.length r' = size /\ rng_ok r' /\ event_ok fixed_dbl ev) /\
  all_floats normal_dbl config /\ normal_dbl (flux c0).

End gen.
Arguments mkss {C}.
Arguments ss_now {C}.
Arguments ss_indent {C}.
Arguments ss_events {C}.
Arguments ss_config {C}.
Arguments ss_gen {C}.
Arguments ss_count {C}.
Arguments state_holds {C}.
Arguments savable {C}.
Arguments closed_file {C}.
Arguments continuing {C}.
Arguments continues {C}.
Arguments all_returned {C}.
Arguments returned {C}.
Arguments holds {C}.
