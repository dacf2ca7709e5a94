(** The message logger: Logger.cc and Logger.hh. A stream is known by its address. What a
    call writes is a list of texts, each with the stream it goes to, in order. The single
    instance (Logger.cc 109-112) is a state handed from call to call. Stream buffering and
    failing streams are not modelled, nor streams that are destroyed while registered. *)
From Coq Require Import List ZArith Bool Ascii String.
From Verif Require Import Base.
Import ListNotations.
Open Scope list_scope.

(** Logger.hh 54. The enumerators are ordered as written. *)
Inductive level := LDisabled | LError | LWarning | LInfo | LDebug.
Definition rank (l : level) : Z :=
  match l with LDisabled => 0 | LError => 1 | LWarning => 2 | LInfo => 3 | LDebug => 4 end.
(** a >= b and a <> b of the code. *)
Definition level_ge (a b : level) : bool := Z.leb (rank b) (rank a).
Definition level_eqb (a b : level) : bool := Z.eqb (rank a) (rank b).

(** Addresses of streams: the two standard ones, the null pointer and any other. *)
Inductive sid := Cout | Cerr | Null | Other (n : Z).
Definition sid_eqb (a b : sid) : bool :=
  match a, b with
  | Cout, Cout | Cerr, Cerr | Null, Null => true
  | Other n, Other m => Z.eqb n m
  | _, _ => false
  end.

(** Logger.hh 63-118, OutStream: stream_, level_ and enabled_. *)
Record ostr := mkostr { s_id : sid; s_level : level; s_on : bool }.

(** Logger.hh 252-260: streams_, enabled_ and old_level_. *)
Record logger := mklogger { g_streams : list ostr; g_on : bool; g_old : level }.

Definition written := list (sid * bytes).

(** Logger.cc 23-39. *)
Definition level_str (l : level) : bytes :=
  match l with
  | LError => Base.b "[ERROR]: "
  | LWarning => Base.b "[WARNING]: "
  | LDebug => Base.b "[DEBUG]: "
  | _ => []
  end.

(** Logger.cc 121-139, get_stream (both versions): the first stream at an address. *)
Definition get_stream (s : sid) (l : list ostr) : option ostr := find (fun o => sid_eqb (s_id o) s) l.

(** Logger.cc 114-119. *)
Definition has_stream (g : logger) (s : sid) : bool := match get_stream s (g_streams g) with Some _ => true | None => false end.

(** Logger.cc 148-153: update the first stream at an address. *)
Fixpoint update (s : sid) (lev : level) (on : bool) (l : list ostr) : list ostr :=
  match l with
  | [] => []
  | o :: r => if sid_eqb (s_id o) s then mkostr s lev on :: r else o :: update s lev on r
  end.

(** Logger.cc 141-175, find_stream and the two versions of add_stream. Given as a shared
    pointer ([ptr]), a new stream that is std::cout or std::cerr is refused by the
    constructor of OutStream (41-52). *)
Definition add_stream (ptr : bool) (s : sid) (lev : level) (g : logger) : logger * res written :=
  let on := g_on g && level_ge lev (g_old g) in
  match get_stream s (g_streams g) with
  | Some _ => (mklogger (update s lev on (g_streams g)) (g_on g) (g_old g), Ok [])
  | None =>
      if ptr && (sid_eqb s Cout || sid_eqb s Cerr) then (g, Er MarleyErr)
      else (mklogger (g_streams g ++ [mkostr s lev on]) (g_on g) (g_old g), Ok [])
  end.

(** Logger.cc 87-95. *)
Definition clear_streams (g : logger) : logger := fst (add_stream false Cerr LWarning (mklogger [] (g_on g) (g_old g))).

(** Logger.cc 97-107. *)
Definition new_logger (on : bool) : logger :=
  fst (add_stream false Cout LInfo (fst (add_stream false Cerr LWarning (mklogger [] on LInfo)))).

(** Logger.cc 177-180, enable, and disable (Logger.hh 268). *)
Definition enable (on : bool) (g : logger) : logger :=
  mklogger (map (fun o => mkostr (s_id o) (s_level o) (on && level_ge (s_level o) (g_old g))) (g_streams g)) on (g_old g).

(** Logger.cc 194-203: the new state of one stream for a message of level [lev]. *)
Definition stream_on (changed : bool) (lev : level) (o : ostr) : bool :=
  if changed then
    let b := level_ge (s_level o) lev in
    if sid_eqb (s_id o) Cout then b && negb (level_ge LWarning lev) else b
  else s_on o.

(** Logger.cc 182-210, log: the stream is used (204) without checking for a null pointer. *)
Definition log (lev : level) (g : logger) : logger * res written :=
  if level_eqb lev LDisabled then (g, Er MarleyErr)
  else if g_on g then
    let changed := negb (level_eqb lev (g_old g)) in
    let l := map (fun o => mkostr (s_id o) (s_level o) (stream_on changed lev o)) (g_streams g) in
    let users := filter s_on l in
    (mklogger l true lev,
     if existsb (fun o => sid_eqb (s_id o) Null) users then Er Undefined
     else Ok (map (fun o => (s_id o, level_str lev)) users))
  else (g, Ok []).

(** Logger.hh 268-273, operator<< of OutStreamVector; also the two versions for
    manipulators (Logger.cc 63-77), flush and newline (79-85). *)
Definition put_text (t : bytes) (g : logger) : written :=
  map (fun o => (s_id o, t)) (filter (fun o => s_on o && negb (sid_eqb (s_id o) Null)) (g_streams g)).

(** The calls a user can make. A message is one [OLog], any number of [OText] and one
    [OEnd] (the destructor of Message, Logger.hh 147-149). *)
Inductive lop :=
| OAdd (ptr : bool) (s : sid) (lev : level)
| OClear
| OEnable (on : bool)
| OLog (lev : level)
| OText (t : bytes)
| OEnd
| ONewline.

Definition lstep (g : logger) (op : lop) : logger * res written :=
  match op with
  | OAdd ptr s lev => add_stream ptr s lev g
  | OClear => (clear_streams g, Ok [])
  | OEnable on => (enable on g, Ok [])
  | OLog lev => log lev g
  | OText t => (g, Ok (put_text t g))
  | OEnd => (g, Ok (put_text [nl] g))
  | ONewline => (g, Ok (put_text [nl] g))
  end.

(** A history: the state after it, and what was written. A call that throws writes
    nothing; after undefined behaviour nothing is known. *)
Fixpoint lrun (g : logger) (ops : list lop) : res (logger * written) :=
  match ops with
  | [] => Ok (g, [])
  | op :: r =>
      let '(g', w) := lstep g op in
      match w with
      | Er Undefined => Er Undefined
      | Er _ => lrun g' r
      | Ok w => do (g'', w') <- lrun g' r; Ok (g'', w ++ w')
      end
  end.
