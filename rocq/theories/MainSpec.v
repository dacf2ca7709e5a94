(** Vocabulary for statements about the marley executable. *)
From Coq Require Import List Ascii String ZArith Bool.
From Coq Require Import Floats.SpecFloat.
From Verif Require Import Base Dbl Json Stream Strings Pdg Event EventSpec Output Main.
Import ListNotations.
Local Open Scope Z_scope.

(** The value under a key, and the value under a key of the executable settings. *)
Definition field (j : json) (k : string) : option json := match j with JObj l => obj_get (b k) l | _ => None end.
Definition setting (j : json) (k : string) : option json :=
  match field j "executable_settings" with Some ex => field ex k | None => None end.

(** The configuration names a file to write. Without a list of files, there is one of a fixed
    name. *)
Definition listed (j : json) (name : bytes) : Prop :=
  match setting j "output" with
  | Some (JArr l) => exists el v, In el l /\ field el "file" = Some v /\ name = to_string v
  | Some _ => False
  | None => name = b "events.ascii"
  end.

(** Lines of text, each ended by a newline. *)
Definition text_of (l : list bytes) : bytes := flat_map (fun t => t ++ [nl]) l.
Definition yes (t : bytes) : Prop := t = b "y" \/ t = b "Y".
Definition no (t : bytes) : Prop := t = b "n" \/ t = b "N".

(** No line says yes. *)
Definition never_yes (s : bytes) : Prop :=
  forall p t q, s = p ++ t ++ q -> yes t -> (p = [] \/ exists p', p = p' ++ [nl]) -> (q = [] \/ exists q', q = nl :: q') -> False.

(** An element of the list that does not ask for existing contents to go. *)
Definition careful (el : json) : Prop :=
  field el "force" <> Some (JBool true) /\ field el "format" <> Some (JStr (b "json")).

(** An element asks for a file to be written from the start, in a given format. [ex] tells
    whether the file is there already. *)
Definition words : list (string * format) := [("ascii", FAscii); ("hepevt", FHepevt); ("json", FJson)]%string.
Record wants (ex : bytes -> bool) (el : json) (name : bytes) (fmt : format) (i : option nat) : Prop := mk_wants {
  wt_file : field el "file" = Some (JStr name);
  wt_plain : escape name = name;
  wt_format : exists k, field el "format" = Some (JStr (b k)) /\ In (k, fmt) words;
  wt_mode : field el "mode" = None \/ field el "mode" = Some (JStr (b "overwrite"));
  wt_force : field el "force" = Some (JBool true) \/ ex name = false;
  wt_indent : match fmt with
              | FJson => match i with
                         | None => field el "indent" = None
                         | Some k => field el "indent" = Some (JInt (Z.of_nat k)) /\ Z.of_nat k < 2 ^ 31
                         end
              | _ => i = None
              end
}.

(** A configuration file that asks for [num] events in such files, all different and all
    writable. Left out, the number is 1000 and the file is events.ascii. *)
Record request := mkr { r_name : bytes; r_format : format; r_indent : option nat }.
Definition there (w : world) (n : bytes) : bool := match w_fs w n with Some _ => true | None => false end.
Record plan (w : world) (cfg : bytes) (j : json) (num : Z) (rs : list request) : Prop := mk_plan {
  pl_text : exists s, w_fs w cfg = Some s /\ load s = Ok j;
  pl_object : exists l, j = JObj l;
  pl_settings : field j "executable_settings" = None \/ exists l, field j "executable_settings" = Some (JObj l);
  pl_events : (setting j "events" = Some (JInt num) /\ - 2 ^ 53 <= num <= 2 ^ 53) \/ (setting j "events" = None /\ num = 1000);
  pl_status : setting j "status_update_interval" = None \/
              exists k, setting j "status_update_interval" = Some (JInt k) /\ 1 <= k < 2 ^ 31;
  pl_output : (exists els, setting j "output" = Some (JArr els) /\
                 Forall2 (fun el r => wants (there w) el (r_name r) (r_format r) (r_indent r)) els rs) \/
              (setting j "output" = None /\ rs = [mkr (b "events.ascii") FAscii None] /\ there w (b "events.ascii") = false);
  pl_distinct : NoDup (map r_name rs);
  pl_writable : forall r, In r rs -> w_ro w (r_name r) = false
}.

(** What a file holds when it has been opened, when the events [evs] have been written to it
    and it has not been closed. *)
Definition opened (r : request) : bytes := match r_format r with FJson => start_json (r_indent r) | _ => [] end.
Definition json_part (i : option nat) (evs : list event) : bytes :=
  match evs with
  | [] => []
  | e :: l => event_text i (event_json e) ++
      flat_map (fun e => b "," ++ ind1 i (fun n => nl :: spaces (2 * n)) ++ event_text i (event_json e)) l
  end.
Definition unfinished (x : spec_float) (evs : list event) (r : request) : bytes :=
  match r_format r with
  | FAscii => show_e17 x ++ nl :: flat_map print_event evs
  | FHepevt => flat_map (print_hepevt 0 x) evs
  | FJson => start_json (r_indent r) ++ json_part (r_indent r) evs
  | FRoot => []
  end.

(** An error that is an exception. *)
Definition thrown (e : err) : Prop := e <> Undefined /\ e <> NoFuel.
