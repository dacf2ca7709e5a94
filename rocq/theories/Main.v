(** Model of the marley executable (src/marley.cc): command line, settings of a run, output
    files, exit status; with the typed accessors of JSON.hh. The event loop is in Output.v;
    here it also says what is in the files when it is left by an exception. The status display
    and the time of day on the terminal are left out. *)
From Coq Require Import List Ascii String ZArith Bool.
From Coq Require Import Floats.SpecFloat.
From Verif Require Import Base Dbl Json Stream Strings Pdg Event Output.
Import ListNotations.
Local Open Scope Z_scope.

(** ** Typed accessors *)

(** Conversion of a double to long: towards zero, undefined if it does not fit. *)
Definition long_of_dbl (x : spec_float) : res Z :=
  match x with
  | S754_zero _ => Ok 0
  | S754_finite s m e =>
      let a := dnum m e / dden e in
      let z := if s then - a else a in
      if (- 2 ^ 63 <=? z) && (z <? 2 ^ 63) then Ok z else Er Undefined
  | _ => Er Undefined
  end.

(** JSON.hh 364-369, 384-390, 402-408, 420-426: the _or_throw conversions. Integers and flags
    go through a variable of type double. *)
Definition to_string_or_throw (j : json) : res bytes := match j with JStr s => Ok (escape s) | _ => Er MarleyErr end.
Definition to_double_or_throw (j : json) : res spec_float := if snd (to_double j) then Ok (fst (to_double j)) else Er MarleyErr.
Definition to_long_or_throw (j : json) : res Z := if snd (to_long j) then long_of_dbl (dbl_of_int (fst (to_long j))) else Er MarleyErr.
Definition to_bool_or_throw (j : json) : res bool := if snd (to_bool j) then Ok (fst (to_bool j)) else Er MarleyErr.

(** JSON.hh 570-574 and 615-693: get_double, get_long, get_bool and get_string, with a default
    value ([Some]) or without. *)
Definition get {A} (conv : json -> res A) (k : bytes) (default : option A) (j : json) : res A :=
  match j with
  | JObj l =>
      match obj_get k l with
      | Some v => conv v
      | None => match default with Some d => Ok d | None => Er MarleyErr end
      end
  | _ => Er MarleyErr
  end.
Definition get_double := get to_double_or_throw.
Definition get_long := get to_long_or_throw.
Definition get_bool := get to_bool_or_throw.
Definition get_string := get to_string_or_throw.

(** JSON.hh 695-703, get_object. The error for a missing key is made but not thrown. *)
Definition get_object (k : bytes) (j : json) : res json :=
  match j with
  | JObj l => match obj_get k l with Some v => Ok v | None => Ok (JObj []) end
  | _ => Er MarleyErr
  end.

(** ** Settings of the run *)

(** Conversion of a long to int. *)
Definition wrap32 (z : Z) : Z := (z + 2 ^ 31) mod 2 ^ 32 - 2 ^ 31.

(** marley.cc 320-350: the executable settings, the number of events and the number of events
    between status messages. *)
Definition run_settings (j : json) : res (json * Z * Z) :=
  do ex <- get_object (b "executable_settings") j;
  do num <- get_long (b "events") (Some 1000) ex;
  do sui <-
    (if has_key (b "status_update_interval") ex then
       do v <- at_key (b "status_update_interval") ex;
       let i := wrap32 (fst (to_long v)) in
       if negb (snd (to_long v)) || (i <? 1) then Er MarleyErr else Ok i
     else Ok 100);
  Ok (ex, num, sui).

(** ** Files *)

(** The files by name, those that cannot be opened for writing, and what the user types. *)
Record world := mkw { w_fs : bytes -> disk; w_ro : bytes -> bool; w_in : bytes }.
Definition set_disk (n : bytes) (d : disk) (w : world) : world :=
  if w_ro w n then w else mkw (fun n' => if bytes_eqb n n' then d else w_fs w n') (w_ro w) (w_in w).
Definition set_in (s : bytes) (w : world) : world := mkw (w_fs w) (w_ro w) s.

(** marley_utils.cc 312-321, prompt_yes_no: whether the answer is yes, and what is left of the
    input. *)
Fixpoint prompt_lines (fuel : nat) (s : bytes) : bool * bytes :=
  match fuel with
  | O => (false, s)
  | S fuel =>
      match getline nl s with
      | None => (false, [])
      | Some (t, r) =>
          if bytes_eqb t (b "y") || bytes_eqb t (b "Y") then (true, r)
          else if bytes_eqb t (b "n") || bytes_eqb t (b "N") then (false, r)
          else prompt_lines fuel r
      end
  end.
Definition prompt (s : bytes) : bool * bytes := prompt_lines (S (List.length s)) s.

(** OutputFile.cc 67-72 and 97-135, with the question asked when it has to be. A stream that
    cannot be opened takes everything without complaint. *)
Definition open_output (name fmt md : bytes) (force : bool) (i : option nat) (w : world) : res (bytes * tfile) * world :=
  match parse_settings fmt md with
  | Er x => (Er x, w)
  | Ok (_, m) =>
      let ex := match w_fs w name with Some _ => true | None => false end in
      let '(answer, rest) := match m with
                             | Overwrite => if ex && negb force then prompt (w_in w) else (true, w_in w)
                             | _ => (true, w_in w)
                             end in
      let w := set_in rest w in
      match open_file fmt md force i ex answer with
      | Er x => (Er x, w)
      | Ok (t, a) => (Ok (name, t), set_disk name (apply_acts a (w_fs w name)) w)
      end
  end.

(** marley.cc 359-398: one element of "output". *)
Definition open_element (el : json) (w : world) : res (bytes * tfile) * world :=
  if negb (has_key (b "file") el) then (Er MarleyErr, w)
  else if negb (has_key (b "format") el) then (Er MarleyErr, w)
  else
    match el with
    | JObj l =>
        let str k d := match obj_get k l with Some v => to_string v | None => d end in
        let name := str (b "file") [] in
        let fmt := str (b "format") [] in
        let md := str (b "mode") (b "overwrite") in
        let force := match obj_get (b "force") l with Some v => fst (to_bool v) | None => false end in
        match
          (if bytes_eqb fmt (b "json") then
             match obj_get (b "indent") l with
             | Some v =>
                 let i := wrap32 (fst (to_long v)) in
                 if negb (snd (to_long v)) || (i <? 0) then Er MarleyErr else Ok (Some (Z.to_nat i))
             | None => Ok None
             end
           else Ok None)
        with
        | Er x => (Er x, w)
        | Ok i => open_output name fmt md force i w
        end
    | _ => (Er MarleyErr, w)
    end.
Fixpoint open_elements (l : list json) (w : world) : res (list (bytes * tfile)) * world :=
  match l with
  | [] => (Ok [], w)
  | el :: r =>
      let '(o, w1) := open_element el w in
      match o with
      | Er x => (Er x, w1)
      | Ok f =>
          let '(o2, w2) := open_elements r w1 in
          match o2 with Er x => (Er x, w2) | Ok fs => (Ok (f :: fs), w2) end
      end
  end.

(** marley.cc 352-405. *)
Definition open_outputs (ex : json) (w : world) : res (list (bytes * tfile)) * world :=
  if has_key (b "output") ex then
    match at_key (b "output") ex with
    | Ok (JArr l) => open_elements l w
    | Ok _ => (Er MarleyErr, w)
    | Er x => (Er x, w)
    end
  else
    let '(o, w1) := open_output (b "events.ascii") (b "ascii") (b "overwrite") false None w in
    match o with Er x => (Er x, w1) | Ok f => (Ok [f], w1) end.

(** ** The run *)

Section gen.
(** As in Output.v. *)
Variable C : Type.
Variable create : Z -> json -> res (generator C).
Variable next : C -> rng -> res (event * C * rng).
Variable flux : C -> spec_float.
(** The constructor of JSONConfig, which sets up the logger (LogConf.v). *)
Variable configure : json -> res unit.

(** marley.cc 413-430 (Output.resume_all), with the files also after an exception. *)
Fixpoint resume_files (now : Z) (fs : list outfile) (g0 : option (generator C * Z)) : list outfile * res (option (generator C * Z)) :=
  match fs with
  | [] => ([], Ok g0)
  | (f, d) :: r =>
      match t_mode f with
      | Resume =>
          match g0 with
          | Some _ => (fs, Er MarleyErr)
          | None =>
              let '(x, a) := resume C create now (match d with Some s => s | None => [] end) f in
              match x with
              | Er e => ((f, apply_acts a d) :: r, Er e)
              | Ok (g, n, f') => let '(r', y) := resume_files now r (Some (g, n)) in ((f', apply_acts a d) :: r', y)
              end
          end
      | _ => let '(r', y) := resume_files now r g0 in ((f, d) :: r', y)
      end
  end.

(** marley.cc 472-474 (Output.write_all), likewise. *)
Fixpoint write_files (ev : event) (fs : list outfile) : list outfile * res unit :=
  match fs with
  | [] => ([], Ok tt)
  | (f, d) :: r =>
      match write_event ev f with
      | Er e => (fs, Er e)
      | Ok (f', a) => let '(r', y) := write_files ev r in ((f', apply_acts a d) :: r', y)
      end
  end.

(** marley.cc 467-494 (Output.loop), likewise. *)
Fixpoint event_loop (todo k : nat) (intr : nat -> bool) (count : Z) (g : generator C) (fs : list outfile) : list outfile * res (Z * generator C) :=
  match todo with
  | O => (fs, Ok (count, g))
  | S todo' =>
      if intr k then (fs, Ok (count, g))
      else
        match create_event C next g with
        | Er e => (fs, Er e)
        | Ok (ev, g') =>
            let '(fs', y) := write_files ev fs in
            match y with
            | Er e => (fs', Er e)
            | Ok _ => event_loop todo' (S k) intr (count + 1) g' fs'
            end
        end
  end.

(** marley.cc 407-507 (Output.run), likewise; the result is the number of events. *)
Definition run_files (now : Z) (config : json) (num : Z) (intr : nat -> bool) (fs : list outfile) : list disk * res Z :=
  let '(fs1, og) := resume_files now fs None in
  match (match og with
         | Er e => Er e
         | Ok (Some (g, old)) => Ok (g, old)
         | Ok None => do g <- create now config; Ok (g, 0)
         end) with
  | Er e => (map snd fs1, Er e)
  | Ok (g, old) =>
      let '(fs2, y) := event_loop (Z.to_nat (num - old)) 0 intr (1 + old) g (flux_all (flux (g_cfg g)) fs1) in
      match y with
      | Er e => (map snd fs2, Er e)
      | Ok (count, g') => (close_all C flux config g' (count - 1) fs2, Ok (count - 1))
      end
  end.

Fixpoint put_back (l : list (bytes * disk)) (w : world) : world :=
  match l with [] => w | (n, d) :: r => put_back r (set_disk n d w) end.

(** marley.cc 304-507, for the configuration file [cfg]. Simplification: a file listed twice
    is treated as two files of which the last is kept. *)
Definition job (now : Z) (intr : nat -> bool) (cfg : bytes) (w : world) : world * res Z :=
  match (do j <- match w_fs w cfg with Some s => load s | None => Er MarleyErr end;
         do _ <- configure j;
         do x <- run_settings j;
         Ok (j, x)) with
  | Er e => (w, Er e)
  | Ok (j, (ex, num, _)) =>
      let '(o, w1) := open_outputs ex w in
      match o with
      | Er e => (w1, Er e)
      | Ok files =>
          let '(ds, r) := run_files now j num intr (map (fun nt => (snd nt, w_fs w1 (fst nt))) files) in
          (put_back (combine (map fst files) ds) w1, r)
      end
  end.

(** ** The command line *)

(** marley.cc 267-301: what the arguments (without the program's name) ask for. *)
Inductive command := ShowHelp | ShowVersion | ShowPicture | Unrecognised (o : bytes) | Job (cfg : bytes).
Definition command_line (args : list bytes) : command :=
  match args with
  | [] => ShowHelp
  | a :: _ =>
      if negb (bytes_eqb (firstn 1 a) (b "-")) then Job a
      else if bytes_eqb a (b "-h") || bytes_eqb a (b "--help") then ShowHelp
      else if bytes_eqb a (b "-v") || bytes_eqb a (b "--version") then ShowVersion
      else if bytes_eqb a (b "--marley") then ShowPicture
      else Unrecognised a
  end.

(** marley.cc 248-541: the files afterwards and the exit status. Every exception is caught;
    undefined behaviour has no status. *)
Definition main (now : Z) (intr : nat -> bool) (args : list bytes) (w : world) : world * res Z :=
  match command_line args with
  | Job cfg =>
      let '(w', r) := job now intr cfg w in
      (w', match r with
           | Ok _ => Ok 0
           | Er Undefined => Er Undefined
           | Er NoFuel => Er NoFuel
           | Er _ => Ok 1
           end)
  | _ => (w, Ok 0)
  end.
End gen.
