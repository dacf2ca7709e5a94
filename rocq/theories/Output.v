(** Model of marley::OutputFile and marley::TextOutputFile (src/OutputFile.cc),
    of the event loop of the marley executable (src/marley.cc) and of
    marley::EventFileReader (src/EventFileReader.cc). *)
From Coq Require Import List Ascii String ZArith Bool.
From Coq Require Import Floats.SpecFloat.
From Verif Require Import Base Dbl Json Stream Pdg Event.
Import ListNotations.
Local Open Scope Z_scope.

(** ** Files *)

(** Contents of a file on disk; None if it does not exist. *)
Definition disk := option bytes.

(** What a program does to a file, in order: opening it for appending creates it
    if needed, opening it with trunc empties it, and every other effect appends
    bytes. *)
Inductive act := Create | Trunc | Put (s : bytes).

Definition apply_act (d : disk) (a : act) : disk :=
  match a with
  | Create => match d with None => Some [] | _ => d end
  | Trunc => Some []
  | Put s => match d with None => Some s | Some t => Some (t ++ s) end
  end.

Definition apply_acts (l : list act) (d : disk) : disk := fold_left apply_act l d.

(** ** Settings *)

(** OutputFile.hh 81 and 120. *)
Inductive format := FRoot | FHepevt | FJson | FAscii.
Inductive mode := Overwrite | Append | Resume.

(** OutputFile.cc 27-53, the constructor's checks. *)
Definition parse_format (s : bytes) : option format :=
  if bytes_eqb s (b "root") then Some FRoot
  else if bytes_eqb s (b "hepevt") then Some FHepevt
  else if bytes_eqb s (b "json") then Some FJson
  else if bytes_eqb s (b "ascii") then Some FAscii
  else None.

Definition parse_settings (fmt md : bytes) : res (format * mode) :=
  match parse_format fmt with
  | None => Er MarleyErr
  | Some f =>
      if bytes_eqb md (b "overwrite") then Ok (f, Overwrite)
      else if bytes_eqb md (b "append") then
        match f with FHepevt | FAscii => Ok (f, Append) | _ => Er MarleyErr end
      else if bytes_eqb md (b "resume") then
        match f with FRoot | FJson => Ok (f, Resume) | _ => Er MarleyErr end
      else Er MarleyErr
  end.

(** OutputFile.hh 122-155: the state of a TextOutputFile that matters after
    construction. [None] stands for the default indent -1; other negative
    indents, which only set_indent or a direct constructor call can produce, are
    not modelled. *)
Record tfile := mkt {
  t_format : format; t_mode : mode; t_indent : option nat;
  t_comma : bool; t_flux : spec_float
}.

(** [indent_ >= 0] and [indent_ > 0] of the code. *)
Definition ind0 (i : option nat) (s : nat -> bytes) : bytes :=
  match i with Some n => s n | None => [] end.
Definition ind1 (i : option nat) (s : nat -> bytes) : bytes :=
  match i with Some (S n) => s (S n) | _ => [] end.

(** OutputFile.cc 74-95, start_json_output(true). *)
Definition start_json (i : option nat) : bytes :=
  b "{" ++ ind0 i (fun n => nl :: spaces n)
  ++ dquote :: b "events" ++ dquote :: ind0 i (fun _ => b " ")
  ++ b ":" ++ ind0 i (fun _ => b " ")
  ++ b "[" ++ ind0 i (fun n => nl :: spaces (2 * n)).

(** OutputFile.cc 67-72 and 97-135, the constructor of TextOutputFile and open.
    [exists_] says whether the file can be read, [answer] is the user's answer
    to the overwrite prompt. The result is the file object and what happens to
    the file. *)
Definition open_file (fmt md : bytes) (force : bool) (i : option nat)
    (exists_ answer : bool) : res (tfile * list act) :=
  do (f, m) <- parse_settings fmt md;
  let m := match m with
           | Overwrite => if exists_ && negb force && negb answer
                          then match f with FJson => Resume | _ => Append end
                          else Overwrite
           | _ => m
           end in
  match m with
  | Resume =>
      match f with
      | FJson => if exists_ then Ok (mkt f m i false dbl_zero, [Create]) else Er MarleyErr
      | _ => Er MarleyErr
      end
  | Append => Ok (mkt f m i false dbl_zero, [Create])
  | Overwrite =>
      Ok (mkt f m i false dbl_zero,
          Trunc :: match f with FJson => [Put (start_json i)] | _ => [] end)
  end.

(** ** Writing events *)

(** OutputFile.cc 263-272: one event in the JSON format. *)
Definition event_text (i : option nat) (j : json) : bytes :=
  match i with
  | None => dump None j
  | Some n => print n true (2 * n) j
  end.

(** OutputFile.cc 252-287, write_event, for a non-null pointer. *)
Definition write_event (ev : event) (f : tfile) : res (tfile * list act) :=
  match t_format f with
  | FAscii => Ok (f, [Put (print_event ev)])
  | FJson =>
      let sep := if t_comma f then b "," ++ ind1 (t_indent f) (fun n => nl :: spaces (2 * n)) else [] in
      Ok (mkt FJson (t_mode f) (t_indent f) true (t_flux f),
          [Put (sep ++ event_text (t_indent f) (event_json ev))])
  | FHepevt => Ok (f, [Put (print_hepevt 0 (t_flux f) ev)])
  | FRoot => Er MarleyErr
  end.

(** OutputFile.cc 341-367, write_flux_avg_tot_xsec. [d] is the file: with
    libstdc++ and glibc the position of a stream opened for appending is the end
    of the file, so tellp() == 0 holds exactly when the file is empty. *)
Definition write_flux (x : spec_float) (d : disk) (f : tfile) : tfile * list act :=
  match t_format f with
  | FAscii =>
      match d with
      | Some (_ :: _) => (f, [])
      | _ => (mkt (t_format f) (t_mode f) (t_indent f) (t_comma f) x, [Put (show_e17 x ++ [nl])])
      end
  | _ => (mkt (t_format f) (t_mode f) (t_indent f) (t_comma f) x, [])
  end.

(** ** The random number generator's state string *)

(** Generator.cc 105-110: operator<< of std::mersenne_twister_engine in
    libstdc++ writes the words of the state and the position, separated by
    single spaces. The state is the list of these numbers. *)
Definition rng := list Z.
Fixpoint show_rng (r : rng) : bytes :=
  match r with
  | [] => []
  | [w] => show_int w
  | w :: r => show_int w ++ sp ++ show_rng r
  end.

Definition u64_max := 2 ^ 64 - 1.

(** Generator.cc 91-97, seed_using_state_string: operator>> of the engine reads
    as many numbers as it has words. If one cannot be read the stream fails and
    nothing is reported; [None] then. Simplification: a minus sign, which
    operator>> for unsigned types would accept, is rejected. *)
Fixpoint read_rng (n : nat) (s : bytes) : option (rng * bytes) :=
  match n with
  | O => Some ([], s)
  | S n => olet (w, s) <- rd_num 0 u64_max s;
           olet (r, s) <- read_rng n s;
           Some (w :: r, s)
  end.

(** ** Generator state and the JSON metadata *)

Section gen.
(** What the model needs to know of marley::Generator: the configured part [C]
    (source, target, reactions, structure data, ...), how it is built from a
    configuration (JSONConfig::create_generator, with the time of day as the
    default seed), and how an event is drawn from it and the random number
    engine (Generator.cc 67-89). [C] is arbitrary: it may contain any hidden
    state. *)
Variable C : Type.
Record generator := mkg { g_cfg : C; g_rng : rng; g_seed : Z }.
Variable create : Z -> json -> res generator.
Variable next : C -> rng -> res (event * C * rng).
Variable flux : C -> spec_float.

(** Generator.cc 67-89, create_event. *)
Definition create_event (g : generator) : res (event * generator) :=
  do (ev, c, r) <- next (g_cfg g) (g_rng g);
  Ok (ev, mkg c r (g_seed g)).

(** Generator.cc 91-97: on failure the engine is left as it is
    (simplification: libstdc++ may have overwritten some of its words). *)
Definition set_state (s : bytes) (g : generator) : generator :=
  match read_rng (List.length (g_rng g)) s with
  | Some (r, _) => mkg (g_cfg g) r (g_seed g)
  | None => g
  end.

(** OutputFile.cc 303-312, the object written by write_generator_state. *)
Definition gen_state_json (config : json) (g : generator) (count : Z) : json :=
  JObj (obj_set (b "flux_avg_xsec") (JFlt (flux (g_cfg g)))
    (obj_set (b "event_count") (JInt count)
    (obj_set (b "seed") (JStr (show_int (g_seed g)))
    (obj_set (b "generator_state_string") (JStr (show_rng (g_rng g)))
    (obj_set (b "config") config []))))).

(** OutputFile.cc 289-316, write_generator_state. *)
Definition gen_state_text (i : option nat) (config : json) (g : generator) (count : Z) : bytes :=
  b "," ++ ind1 i (fun n => nl :: spaces n)
  ++ dquote :: b "gen_state" ++ dquote :: ind1 i (fun _ => b " ")
  ++ b ":" ++ ind1 i (fun _ => b " ")
  ++ match i with
     | None => dump None (gen_state_json config g count)
     | Some n => print n true n (gen_state_json config g count)
     end.

(** OutputFile.cc 318-339, close. *)
Definition close_file (config : json) (g : generator) (count : Z) (f : tfile) : list act :=
  match t_format f with
  | FJson =>
      let i := t_indent f in
      [Put (ind1 i (fun n => nl :: spaces n) ++ b "]"
            ++ gen_state_text i config g count
            ++ ind1 i (fun _ => [nl]) ++ b "}")]
  | _ => []
  end.

(** JSON.hh 307-309, non-const at on an object: a missing key is inserted with a
    null value. *)
Definition at_mut (k : bytes) (j : json) : json :=
  match j with
  | JObj l => match obj_get k l with Some v => v | None => JNull end
  | _ => JNull
  end.

(** OutputFile.cc 215-226: the old events are written again. *)
Fixpoint old_events (i : option nat) (first : bool) (l : list json) : bytes :=
  match l with
  | [] => []
  | j :: r =>
      (if first then [] else b ",")
      ++ match i with
         | None => dump None j
         | Some n => nl :: spaces (2 * n) ++ print n true (2 * n) j
         end
      ++ old_events i false r
  end.

(** OutputFile.cc 137-240, resume, on a file with contents [s] at time [now].
    The result and what happens to the file. *)
Definition resume (now : Z) (s : bytes) (f : tfile) :
    res (generator * Z * tfile) * list act :=
  match t_mode f, t_format f with
  | Resume, FJson =>
      match (do j <- load s;
             if has_key (b "gen_state") j then
               do gs <- at_key (b "gen_state") j;
               if negb (has_key (b "config") gs) then Er MarleyErr else
               do config <- at_key (b "config") gs;
               if negb (has_key (b "generator_state_string") gs) then Er MarleyErr else
               do st <- at_key (b "generator_state_string") gs;
               if negb (has_key (b "seed") gs) then Er MarleyErr else
               if negb (has_key (b "event_count") gs) then Er MarleyErr else
               do cnt <- at_key (b "event_count") gs;
               if negb (snd (to_long cnt)) then Er MarleyErr else
               do g <- create now config;
               Ok (set_state (to_string st) g, fst (to_long cnt), array_range (at_mut (b "events") j))
             else Er MarleyErr) with
      | Er e => (Er e, [])
      | Ok (g, n, old) =>
          (Ok (g, n, mkt FJson Resume (t_indent f) (match old with [] => false | _ => true end) (t_flux f)),
           [Trunc; Put (start_json (t_indent f)); Put (old_events (t_indent f) true old); Create])
      end
  | _, _ => (Er MarleyErr, [])
  end.

(** ** The executable *)

(** One output file of a run: the object and the file on disk. *)
Definition outfile := (tfile * disk)%type.

(** marley.cc 472-474: write the event to every file, in order. *)
Fixpoint write_all (ev : event) (fs : list outfile) : res (list outfile) :=
  match fs with
  | [] => Ok []
  | (f, d) :: r =>
      do (f', a) <- write_event ev f;
      do r' <- write_all ev r;
      Ok ((f', apply_acts a d) :: r')
  end.

(** marley.cc 467-494, the event loop. [todo] bounds the number of iterations:
    num_events - count + 1. [intr k] is the value of the flag set by the signal
    handler when the loop condition is evaluated for the k-th time. The result is
    the final counter, generator and files. *)
Fixpoint loop (todo : nat) (k : nat) (intr : nat -> bool) (count : Z) (g : generator)
    (fs : list outfile) : res (Z * generator * list outfile) :=
  match todo with
  | O => Ok (count, g, fs)
  | S todo' =>
      if intr k then Ok (count, g, fs)
      else
        do (ev, g') <- create_event g;
        do fs' <- write_all ev fs;
        loop todo' (S k) intr (count + 1) g' fs'
  end.

(** marley.cc 453-459. *)
Definition flux_all (x : spec_float) (fs : list outfile) : list outfile :=
  map (fun fd => let '(f, a) := write_flux x (snd fd) (fst fd) in (f, apply_acts a (snd fd))) fs.

(** marley.cc 502-507. *)
Definition close_all (config : json) (g : generator) (count : Z) (fs : list outfile) : list disk :=
  map (fun fd => apply_acts (close_file config g count (fst fd)) (snd fd)) fs.

(** marley.cc 441-507, from the point where the generator exists: [old] events
    have been generated before, [num] is the requested total. The result is the
    final number of events, the generator and the files. *)
Definition generate (config : json) (num old : Z) (intr : nat -> bool) (g : generator)
    (fs : list outfile) : res (Z * generator * list disk) :=
  do (count, g', fs') <- loop (Z.to_nat (num - old)) 0 intr (1 + old) g (flux_all (flux (g_cfg g)) fs);
  Ok (count - 1, g', close_all config g' (count - 1) fs').

(** marley.cc 413-430: resume from the file in resume mode, if there is one.
    Files are visited in order; a second one in resume mode is an error. [g0] is
    the generator obtained so far. *)
Fixpoint resume_all (now : Z) (fs : list outfile) (g0 : option (generator * Z)) :
    res (option (generator * Z) * list outfile) :=
  match fs with
  | [] => Ok (g0, [])
  | (f, d) :: r =>
      match t_mode f with
      | Resume =>
          match g0 with
          | Some _ => Er MarleyErr
          | None =>
              let '(x, a) := resume now (match d with Some s => s | None => [] end) f in
              do (g, n, f') <- x;
              do (g', r') <- resume_all now r (Some (g, n));
              Ok (g', (f', apply_acts a d) :: r')
          end
      | _ =>
          do (g', r') <- resume_all now r g0;
          Ok (g', (f, d) :: r')
      end
  end.

(** marley.cc 413-507: a whole run, given opened files. *)
Definition run (now : Z) (config : json) (num : Z) (intr : nat -> bool) (fs : list outfile) :
    res (Z * generator * list disk) :=
  do (og, fs') <- resume_all now fs None;
  match og with
  | Some (g, old) => generate config num old intr g fs'
  | None => do g <- create now config; generate config num 0 intr g fs'
  end.

End gen.
Arguments mkg {C}.
Arguments g_cfg {C}.
Arguments g_rng {C}.
Arguments g_seed {C}.

(** ** Reading event files *)

(** EventFileReader.hh: the state of a reader after initialisation. For JSON,
    the array, and the position of the iterator plus one (0 = one before the
    first event). For the text formats, the bytes not yet read, or None once the
    stream has failed. *)
Inductive reader :=
| RJson (l : list json) (pos : nat) (x : spec_float)
| RAscii (s : option bytes) (x : spec_float)
| RHep (s : option bytes) (x : spec_float).

(** EventFileReader.hh: flux_avg_tot_xs_. *)
Definition reader_flux (r : reader) : spec_float :=
  match r with RJson _ _ x => x | RAscii _ x => x | RHep _ x => x end.

(** EventFileReader.cc 109-158, initialize, for the JSON format. *)
Definition init_json (s : bytes) : res reader :=
  do j <- load s;
  Ok (RJson (array_range (at_mut (b "events") j)) 0
        (fst (to_double (at_mut (b "flux_avg_xsec") (at_mut (b "gen_state") j))))).

(** EventFileReader.cc 69-83: is the file in ASCII format? *)
Definition ascii_ok (s : bytes) : bool :=
  match rd_dbl s with
  | None => false
  | Some (_, t) => match read_event t with Ok (Some _) => true | _ => false end
  end.

(** EventFileReader.cc 85-99: is the file in HEPEVT format? Only marley::Error
    is caught. *)
Definition hep_ok (s : bytes) : res bool :=
  match read_hepevt s with
  | Ok (Some _) => Ok true
  | Ok None => Ok false
  | Er MarleyErr => Ok false
  | Er e => Er e
  end.

(** EventFileReader.cc 37-107 and 223-231, deduce_file_format and
    ensure_initialized, on a readable file with contents [s]. ROOT files are not
    modelled. *)
Definition open_reader (s : bytes) : res reader :=
  match skip_sp s with
  | c :: _ =>
      if ceq c "{"%char then init_json s
      else if ascii_ok s then
        Ok (match rd_dbl s with
            | Some (x, t) => RAscii (Some t) x
            | None => RAscii None dbl_zero
            end)
      else
        do h <- hep_ok s;
        if h then Ok (RHep (Some s) (match read_hepevt s with
                                    | Ok (Some (_, x, _)) => x | _ => dbl_zero end))
        else Er MarleyErr
  | [] => Er MarleyErr
  end.

(** EventFileReader.cc 160-196, next_event, on an initialised reader: the value
    returned, the event, the new state. Dereferencing the iterator past the end
    of the array is undefined. *)
Definition next_event (r : reader) : res (bool * event * reader) :=
  match r with
  | RAscii None x => Ok (false, empty_event, r)
  | RAscii (Some s) x =>
      do o <- read_event s;
      match o with
      | Some (ev, t) => Ok (true, ev, RAscii (Some t) x)
      | None => Ok (false, empty_event, RAscii None x)
      end
  | RHep None x => Ok (false, empty_event, r)
  | RHep (Some s) x =>
      do o <- read_hepevt s;
      match o with
      | Some (ev, y, t) => Ok (true, ev, RHep (Some t) y)
      | None => Ok (false, empty_event, RHep None x)
      end
  | RJson l pos x =>
      let r' := RJson l (S pos) x in
      if Nat.eqb pos (List.length l) then Ok (false, empty_event, r')
      else match nth_error l pos with
           | Some j => do ev <- event_of_json j; Ok (true, ev, r')
           | None => Er Undefined
           end
  end.

(** The first n calls of next_event. *)
Fixpoint calls (n : nat) (r : reader) : res (list (bool * event) * reader) :=
  match n with
  | O => Ok ([], r)
  | S n' =>
      do (ok, ev, r) <- next_event r;
      do (l, r) <- calls n' r;
      Ok ((ok, ev) :: l, r)
  end.
