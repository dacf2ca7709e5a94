(** The log settings of a job: JSONConfig.cc 100-116 and 838-926. A log file is known by its
    name, so files with several names are not modelled; nor is buffering: text reaches its
    file when it is given to the stream. *)
From Coq Require Import List ZArith Bool Ascii String.
From Verif Require Import Base Json Files Logger.
Import ListNotations.
Open Scope list_scope.

(** An output file stream: its address, its file, whether it appends, and where it writes
    next if it does not. *)
Record ofile := mkof { o_addr : Z; o_path : bytes; o_app : bool; o_pos : nat }.

(** The file system:
    - [d_ok]: can a file be opened for writing;
    - [d_text]: what a file holds, None if there is none;
    - [d_next]: the address of the next stream, [d_open]: the open streams. *)
Record disk := mkdisk { d_ok : bytes -> bool; d_text : bytes -> option bytes; d_next : Z; d_open : list ofile }.

Definition set_text (p : bytes) (t : bytes) (f : bytes -> option bytes) : bytes -> option bytes :=
  fun q => if bytes_eqb p q then Some t else f q.
Definition content (d : disk) (p : bytes) : bytes := match d_text d p with Some t => t | None => [] end.

(** JSONConfig.cc 919: the constructor of std::ofstream with std::ios::out and either
    std::ios::trunc or std::ios::app. *)
Definition open_log (p : bytes) (trunc : bool) (d : disk) : disk :=
  mkdisk (d_ok d) (set_text p (if trunc then [] else content d p) (d_text d)) (d_next d + 1) (d_open d ++ [mkof (d_next d) p (negb trunc) 0]).

(** JSONConfig.cc 879-892. *)
Definition log_level (el : json) : res level :=
  if has_key (b "level") el then
    do v <- at_key (b "level") el;
    let s := to_string v in
    if bytes_eqb s (b "error") then Ok LError
    else if bytes_eqb s (b "warning") then Ok LWarning
    else if bytes_eqb s (b "info") then Ok LInfo
    else if bytes_eqb s (b "debug") then Ok LDebug
    else if bytes_eqb s (b "disabled") then Ok LDisabled
    else Er MarleyErr
  else Ok LInfo.

(** JSONConfig.cc 905-917: overwrite the file? *)
Definition log_overwrite (el : json) : res bool :=
  if has_key (b "overwrite") el then
    do v <- at_key (b "overwrite") el;
    let '(ow, ok) := to_bool v in if ok then Ok ow else Er MarleyErr
  else Ok false.

(** JSONConfig.cc 872-923: one element of the list. *)
Definition log_element (el : json) (g : logger) (d : disk) : logger * disk * res unit :=
  if negb (has_key (b "file") el) then (g, d, Er MarleyErr)
  else
    match at_key (b "file") el with
    | Ok (JStr s) =>
        let name := escape s in
        match log_level el with
        | Er x => (g, d, Er x)
        | Ok lev =>
            if bytes_eqb name (b "stdout") then (fst (add_stream false Cout lev g), d, Ok tt)
            else if bytes_eqb name (b "stderr") then (fst (add_stream false Cerr lev g), d, Ok tt)
            else
              match log_overwrite el with
              | Er x => (g, d, Er x)
              | Ok trunc =>
                  if d_ok d name then (fst (add_stream true (Other (d_next d)) lev g), open_log name trunc d, Ok tt)
                  else (g, d, Er MarleyErr)
              end
        end
    | Ok _ => (g, d, Er MarleyErr)
    | Er x => (g, d, Er x)
    end.

(** JSONConfig.cc 871-924, the loop. *)
Fixpoint log_elements (l : list json) (g : logger) (d : disk) : logger * disk * res unit :=
  match l with
  | [] => (g, d, Ok tt)
  | el :: r =>
      let '(g', d', o) := log_element el g d in
      match o with Ok _ => log_elements r g' d' | Er x => (g', d', Er x) end
  end.

(** Logger.cc 89: streams that are no longer registered are destroyed, which closes their
    files. *)
Definition close_all (d : disk) : disk := mkdisk (d_ok d) (d_text d) (d_next d) [].

(** JSONConfig.cc 838-926, update_logger_settings. *)
Definition update_logger_settings (j : json) (g : logger) (d : disk) : logger * disk * res unit :=
  let g := clear_streams g in
  let d := close_all d in
  if negb (has_key (b "log") j) then (enable true (fst (add_stream false Cout LInfo g)), d, Ok tt)
  else
    match at_key (b "log") j with
    | Ok (JArr []) => (enable false g, d, Ok tt)
    | Ok (JArr l) => log_elements l (enable true g) d
    | Ok _ => (g, d, Er MarleyErr)
    | Er x => (g, d, Er x)
    end.

(** JSONConfig.cc 100-103: the constructor given a JSON object. *)
Definition config_object (j : json) (g : logger) (d : disk) : logger * disk * res json :=
  let '(g, d, o) := update_logger_settings j g d in (g, d, do _ <- o; Ok j).

(** JSONConfig.cc 105-116: the constructor given the name of a file; [text] is what the file
    holds. A file that cannot be opened (JSON.hh 1008-1015, load_file) makes it fail. *)
Definition config_file (text : option bytes) (g : logger) (d : disk) : logger * disk * res json :=
  let '(g, d, o) := update_logger_settings JNull g d in
  match (do _ <- o; match text with Some t => load t | None => Er MarleyErr end) with
  | Ok j => config_object j g d
  | Er x => (g, d, Er x)
  end.

(** ** Writing to the log files *)

(** Text put into a file at a position. *)
Definition splice (pos : nat) (t old : bytes) : bytes := firstn pos old ++ repeat zero (pos - List.length old) ++ t ++ skipn (pos + List.length t) old.

(** Text given to the stream with address [a]. *)
Fixpoint put_streams (a : Z) (t : bytes) (l : list ofile) (f : bytes -> option bytes) : list ofile * (bytes -> option bytes) :=
  match l with
  | [] => ([], f)
  | o :: r =>
      if Z.eqb (o_addr o) a then
        let old := match f (o_path o) with Some x => x | None => [] end in
        if o_app o then (o :: r, set_text (o_path o) (old ++ t) f)
        else (mkof a (o_path o) false (o_pos o + List.length t) :: r, set_text (o_path o) (splice (o_pos o) t old) f)
      else let '(r', f') := put_streams a t r f in (o :: r', f')
  end.
Definition put1 (d : disk) (p : sid * bytes) : disk :=
  match fst p with
  | Other a => let '(l, f) := put_streams a (snd p) (d_open d) (d_text d) in mkdisk (d_ok d) f (d_next d) l
  | _ => d
  end.
(** What the logger wrote reaches the files. *)
Definition put (w : written) (d : disk) : disk := fold_left put1 w d.
