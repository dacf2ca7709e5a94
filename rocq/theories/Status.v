(** What the marley program shows while it runs: elapsed and estimated times, amounts of
    data, the status lines and the stream buffer that repeats them before every line of
    the log (src/marley.cc, src/marley_utils.cc, include/marley/marley_utils.hh). *)
From Coq Require Import List Ascii String ZArith Bool Lia.
From Coq Require Import Floats.SpecFloat.
From Verif Require Import Base Dbl Strings.
Import ListNotations.
Local Open Scope Z_scope.

Local Notation divd := (SFdiv 53 1024).
Local Notation muld := (SFmul 53 1024).

(** ** Numbers *)

(** operator<< for a double on a stream with std::fixed and precision [p], that is
    printf's %.*f: the exact value rounded to [p] decimals, ties to even. *)
Definition show_fixed (p : nat) (x : spec_float) : bytes :=
  match x with
  | S754_infinity s => sign_str s ++ b "inf"
  | S754_nan => b "nan"
  | S754_zero _ | S754_finite _ _ _ =>
      let '(s, n) := match x with
                     | S754_finite s m e => (s, rne_div (dnum m e * 10 ^ Z.of_nat p) (dden e))
                     | S754_zero s => (s, 0)
                     | _ => (false, 0)
                     end in
      sign_str s ++ digits (n / 10 ^ Z.of_nat p) ++
      match p with
      | O => []
      | S _ => "."%char :: pad_left (digits (n mod 10 ^ Z.of_nat p)) p "0"%char
      end
  end.

(** marley_utils.cc 358-388, num_bytes_to_string. Callers pass a count of bytes (a 64-bit
    integer), which the call converts to double; all the limits are below 2^53, so that
    comparing the integers is comparing the doubles. *)
Definition num_bytes_to_string (bytes_count : Z) (precision : nat) : res bytes :=
  if bytes_count <? 1000 then
    if bytes_count <? - 2 ^ 31 then Er Undefined else Ok (show_int bytes_count ++ b " B")
  else
    let '(divisor, prefix) :=
      if bytes_count <? 10 ^ 6 then (10 ^ 3, "k"%char)
      else if bytes_count <? 10 ^ 9 then (10 ^ 6, "M"%char)
      else if bytes_count <? 10 ^ 12 then (10 ^ 9, "G"%char)
      else (10 ^ 12, "T"%char) in
    Ok (show_fixed precision (divd (dbl_of_int bytes_count) (dbl_of_int divisor)) ++ " "%char :: prefix :: b "B").

(** marley.cc 74-95, format_number. The stream is static; it is emptied and its flags
    cleared before each use. *)
Definition format_number (x : spec_float) : bytes := show_fixed 1 x.

(** ** Times *)

(** static_cast<int>(std::chrono::duration_cast<unit>(duration) / unit(1)) for a duration
    of n/d seconds and a unit of u seconds. A count outside the range of int is undefined
    for durations with a floating-point count, and out of reach for the others. *)
Definition unit_count (u n d : Z) : res Z :=
  let c := Z.quot n (u * d) in
  if (- 2 ^ 31 <=? c) && (c <? 2 ^ 31) then Ok c else Er Undefined.

Definition pad2 (c : Z) : bytes := (if c <? 10 then b "0" else []) ++ show_int c.

(** marley_utils.hh 400-434, duration_to_string, for a duration of n/d seconds (d > 0).
    Exact arithmetic; for the estimated total time the count is a double and each step
    rounds. *)
Definition duration_to_string (n d : Z) : res bytes :=
  do days <- unit_count 86400 n d;
  let n := n - 86400 * d * days in
  do hours <- unit_count 3600 n d;
  let n := n - 3600 * d * hours in
  do minutes <- unit_count 60 n d;
  let n := n - 60 * d * minutes in
  do seconds <- unit_count 1 n d;
  Ok ((if 1 <? days then show_int days ++ b " days " else []) ++
      (if days =? 1 then show_int days ++ b " day " else []) ++
      pad2 hours ++ b ":" ++ pad2 minutes ++ b ":" ++ pad2 seconds).

(** Time points and differences are nanoseconds in a 64-bit integer. *)
Definition NS : Z := 1000000000.

(** marley_utils.cc 397-406, elapsed_time_string. *)
Definition elapsed_time_string (start now : Z) : res bytes := duration_to_string (now - start) NS.

(** marley.cc 125-137, put_time: a string of 100 spaces, into which std::strftime writes its
    text and a null character, with the spaces after them removed. [None] for a text that
    does not fit, after which the contents of the string are unspecified. *)
Definition put_time (text : bytes) : option bytes :=
  if Nat.ltb (List.length text) 100 then
    Some (trim_right whitespace (text ++ chr 0 :: repeat " "%char (99 - List.length text)))
  else None.

(** ** The status lines *)

Definition esc : ascii := chr 27.
Definition erase : bytes := esc :: b "[K".
Definition up : bytes := esc :: b "[F".

(** marley.cc 177-181: one line for each output file with its name and bytes_written(). *)
Fixpoint file_lines (files : list (bytes * Z)) : res bytes :=
  match files with
  | [] => Ok []
  | (name, n) :: r =>
      do size <- num_bytes_to_string n 2;
      do rest <- file_lines r;
      Ok (b "Data written to " ++ name ++ b " " ++ size ++ erase ++ [nl] ++ rest)
  end.

(** marley.cc 141-199, makeStatusLines. [clock] is the text of put_time for a time point.
    [now] and [start] are time points; the estimated total time is the rational number
    [est_n / est_d] of seconds (168-171, in exact arithmetic; callers have made at least
    one event, ev_count > num_old_events). Converting it to a 64-bit number of nanoseconds
    and adding the start time (183-185) is undefined outside the range of the type. *)
Definition status_lines (clock : Z -> bytes) (ev_count num_events num_old : Z) (start now : Z) (files : list (bytes * Z)) : res bytes :=
  let rate := divd (dbl_of_int (ev_count - num_old)) (divd (dbl_of_int (now - start)) (dbl_of_int NS)) in
  let percent := muld (divd (dbl_of_int ev_count) (dbl_of_int num_events)) (dbl_of_int 100) in
  do elapsed <- elapsed_time_string start now;
  let est_n := (now - start) * (num_events - num_old) in
  let est_d := NS * (ev_count - num_old) in
  do total <- duration_to_string est_n est_d;
  do lines <- file_lines files;
  let ns := Z.quot est_n (ev_count - num_old) in
  if negb ((- 2 ^ 63 <=? ns) && (ns <? 2 ^ 63)) then Er Undefined else
  if negb ((- 2 ^ 63 <=? start + ns) && (start + ns <? 2 ^ 63)) then Er Undefined else
  Ok ([nl] ++ b "Event Count = " ++ show_int ev_count ++ b "/" ++ show_int num_events ++ b " (" ++ format_number percent
      ++ b "% complete, " ++ format_number rate ++ b " events / s)" ++ erase ++ [nl]
      ++ b "Elapsed time: " ++ elapsed ++ b " (Estimated total run time: " ++ total ++ b ")" ++ erase ++ [nl]
      ++ lines ++ b "MARLEY is estimated to terminate on " ++ clock (start + ns) ++ [nl]
      ++ List.concat (repeat up (List.length files)) ++ up ++ up ++ up ++ up).

(** marley.cc 472-474: whether the status lines are printed after event [ev_count]. Both
    operands of % are positive. *)
Definition shows_status (ev_count num_events num_old interval : Z) : bool :=
  (Z.rem (ev_count - num_old) interval =? 1) || (ev_count =? num_events) || (interval =? 1).

(** ** The stream buffer between the log and the screen *)

(** marley.cc 204-244, StatusInserter: the two flags and what the destination got. *)
Record inserter := mki { i_start : bool; i_status : bool; i_dest : bytes }.

(** marley.cc 206-213, constructor. *)
Definition new_inserter : inserter := mki true true [].

(** marley.cc 227-243, overflow, for one character; [status] is what makeStatusLines
    returns at that moment. The buffer has no put area, so that every character written
    to the stream arrives here. The destination accepts everything. *)
Definition overflow (status : bytes) (c : ascii) (i : inserter) : inserter :=
  let d := if i_status i && i_start i then i_dest i ++ status else i_dest i in
  let start := ceq c nl in
  let d := if start then d ++ erase else d in
  mki start (i_status i) (d ++ [c]).

(** What happens to it: a character is written, or set_do_status (215) is called. *)
Inductive sop := Put (c : ascii) (status : bytes) | Switch (on : bool).

Definition sstep (i : inserter) (o : sop) : inserter :=
  match o with
  | Put c st => overflow st c i
  | Switch on => mki (i_start i) on (i_dest i)
  end.
Definition srun (l : list sop) : inserter := fold_left sstep l new_inserter.

(** marley.cc 475-488: the status lines after an event are written through the buffer with
    the automatic ones off. *)
Definition update (text : bytes) : list sop := Switch false :: map (fun c => Put c []) text ++ [Switch true].
