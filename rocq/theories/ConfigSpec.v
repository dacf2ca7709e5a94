(** Vocabulary for the job configuration. *)
From Coq Require Import List Ascii String ZArith Reals Bool.
From Coq Require Import Floats.SpecFloat.
From Verif Require Import Base Dbl Json Source SourceThms Grid Rot RotSpec Config.
Import ListNotations.
Open Scope string_scope.
Open Scope list_scope.
Open Scope R_scope.

(** The value of a key of an object. *)
Definition held (j : json) (k : string) : option json := match j with JObj l => obj_get (b k) l | _ => None end.

(** The number a value stands for: integers become doubles. *)
Definition numeric (v : json) : option R :=
  match v with JFlt x => Some (dbl_R x) | JInt n => Some (dbl_R (dbl_of_int n)) | _ => None end.

(** The number under a key, with the value used if the key is missing. *)
Definition entry (j : json) (k : string) (default : option R) : option R :=
  match held j k with Some v => numeric v | None => default end.

(** The text under a key. *)
Definition word (j : json) (k : string) : option bytes := match held j k with Some (JStr s) => Some (escape s) | _ => None end.
Definition named (j : json) (names : list string) : Prop := exists n, In n names /\ word j "type" = Some (b n).

(** The list of numbers under a key. *)
Definition vector (j : json) (k : string) (xs : list R) : Prop := exists l, held j k = Some (JArr l) /\ Forall2 (fun v x => numeric v = Some x) l xs.

(** Interpolation rules: the names, and codes from 1 to 5; every other code means constant
    interpolation. *)
Definition rule_names : list (string * imethod) :=
  [("const", IConstant); ("constant", IConstant); ("lin", ILinLin); ("linlin", ILinLin); ("log", ILogLog); ("loglog", ILogLog);
   ("linlog", ILinLog); ("loglin", ILogLin)].
Definition rule_codes : list (Z * imethod) := [(1, IConstant); (2, ILinLin); (3, ILinLog); (4, ILogLin); (5, ILogLog)]%Z.
Definition decimal (s : bytes) : Prop := s <> [] /\ Forall (fun c => is_digit c = true) s.
Definition names_rule (s : bytes) (m : imethod) : Prop :=
  (exists n, In (n, m) rule_names /\ s = b n) \/
  (decimal s /\ (digits_val s < 2 ^ 31)%Z /\ (In (digits_val s, m) rule_codes \/ ~ (1 <= digits_val s <= 5)%Z /\ m = IConstant)).

(** Neutrino types: the names, or the particle code with or without sign. *)
Definition neutrino_names : list (string * Z) := [("ve", 12); ("vebar", -12); ("vu", 14); ("vubar", -14); ("vt", 16); ("vtbar", -16)]%Z.
Definition names_neutrino (s : bytes) (pdg : Z) : Prop :=
  neutrino pdg /\
  ((exists n, In (n, pdg) neutrino_names /\ s = b n) \/
   (exists ds, decimal ds /\ (s = ds /\ pdg = digits_val ds \/ s = "+"%char :: ds /\ pdg = digits_val ds \/ s = "-"%char :: ds /\ pdg = - digits_val ds)%Z)).

(** The bins of a histogram: contents divided by widths. *)
Fixpoint densities (edges contents ds : list R) : Prop :=
  match edges, contents, ds with
  | e :: (e' :: _) as r, w :: ws, d :: ds' => e < e' /\ d = w / (e' - e) /\ densities r ws ds'
  | [_], [], [] => True
  | _, _, _ => False
  end.

(** What a source specification describes. *)
Inductive described (spec : json) (pdg : Z) : source -> Prop :=
| is_mono E : named spec ["mono"; "monoenergetic"] -> entry spec "energy" None = Some E -> 0 < E -> described spec pdg (Mono pdg E)
| is_dar : named spec ["dar"; "decay-at-rest"] -> pdg <> 16%Z -> pdg <> (-16)%Z -> described spec pdg (DecayAtRest pdg)
| is_fermi lo hi T eta s : named spec ["fd"; "fermi-dirac"; "fermi_dirac"] ->
    entry spec "Emin" None = Some lo -> entry spec "Emax" None = Some hi -> entry spec "temperature" None = Some T -> entry spec "eta" (Some 0) = Some eta ->
    0 <= lo < hi -> 0 < T -> make_fermi pdg lo hi T eta = Ok s -> described spec pdg s
| is_beta lo hi mean beta s : named spec ["bf"; "beta"; "beta-fit"] ->
    entry spec "Emin" None = Some lo -> entry spec "Emax" None = Some hi -> entry spec "Emean" None = Some mean -> entry spec "beta" (Some (9 / 2)) = Some beta ->
    0 <= lo < hi -> 0 < mean -> 1 <= beta -> make_beta pdg lo hi mean beta = Ok s -> described spec pdg s
| is_hist es ws hi ds s : named spec ["hist"; "histogram"] -> vector spec "E_bin_lefts" es -> vector spec "weights" ws -> entry spec "Emax" None = Some hi ->
    0 < hi -> densities (es ++ [hi]) ws ds -> make_grid_source_xy pdg (es ++ [hi]) (ds ++ [0]) IConstant = Ok s -> described spec pdg s
| is_grid es ps m s : named spec ["grid"] -> vector spec "energies" es -> vector spec "prob_densities" ps ->
    (exists rule, word spec "rule" = Some rule /\ names_rule rule m) \/ (held spec "rule" = None /\ m = ILinLin) ->
    make_grid_source_xy pdg es ps m = Ok s -> described spec pdg s.
