(** Neutrino sources made from ROOT histograms and graphs. The ROOT library itself is not
    modelled: a file is a finite set of named objects, and an object is what the accessors
    of its class return. Numbers are reals, as in the model of the other sources. *)
From Coq Require Import List Ascii String ZArith Reals Bool.
From Verif Require Import Base Dbl Json Grid Source Gen Run Config.
Import ListNotations.
Open Scope list_scope.
Open Scope R_scope.

(** What TFile::Get finds (marley_root.hh 65): a one-dimensional histogram with the left
    edge and content of each bin, followed by those of the overflow bin; a graph with its
    points; or an object of another class. *)
Inductive root_object : Type :=
| TH1 (bins : list (R * R)) (top over : R)
| TGraph (pts : list (R * R))
| TOther.

(** The files TFile::Open can read (marley_root.hh 59-60), by name, and their objects, by
    name and cycle. *)
Definition root_files := bytes -> option (bytes -> option root_object).

(** marley_root.hh 52-83, get_root_object: an unreadable file is an error; a missing object
    gives the null pointer. (The ownership of the object is not modelled.) *)
Definition get_root_object (files : root_files) (tfile namecycle : bytes) : res (option root_object) :=
  match files tfile with
  | None => Er MarleyErr
  | Some objects => Ok (objects namecycle)
  end.

(** marley_root.cc 46-52: the loop that divides all but the last content by the bin width. *)
Fixpoint th1_densities (es ps : list R) : res (list R) :=
  match es, ps with
  | e :: (e' :: _) as r, p :: ps' =>
      if Rle_dec (e' - e) 0 then Er MarleyErr
      else do ds <- th1_densities r ps'; Ok (p / (e' - e) :: ds)
  | _, _ => Ok ps
  end.

(** marley_root.cc 21-68, make_root_neutrino_source for a histogram; the cast of the object
    to its class (marley_root.hh 65) gives the null pointer, refused on line 24, for an
    object of another class. *)
Definition th1_source (pdg : Z) (o : option root_object) : res source :=
  match o with
  | Some (TH1 bins top over) =>
      let es := map fst bins ++ [top] in
      let ps := map snd bins ++ [over] in
      do ds <- th1_densities es ps;
      make_grid_source_xy pdg es (removelast ds ++ [0]) IConstant
  | _ => Er MarleyErr
  end.

(** marley_root.cc 70-93, make_root_neutrino_source for a graph. *)
Definition tgraph_source (pdg : Z) (o : option root_object) : res source :=
  match o with
  | Some (TGraph pts) => make_grid_source_xy pdg (map fst pts) (map snd pts) ILinLin
  | _ => Er MarleyErr
  end.

(** RootJSONConfig.cc 25-60, process_extra_source_types: nothing if the type is not one of
    the two. *)
Definition extra_source (files : root_files) (type : bytes) (pdg : Z) (j : json) : option (res source) :=
  if one_of type ["th1"; "tgraph"]%string then
    Some (do tfile <- text (b "tfile") j (Er MarleyErr);
          do namecycle <- text (b "namecycle") j (Er MarleyErr);
          do o <- get_root_object files tfile namecycle;
          if one_of type ["th1"]%string then th1_source pdg o else tgraph_source pdg o)
  else None.

(** The types that JSONConfig.cc 577-684 handles itself. *)
Definition own_types : list string :=
  ["mono"; "monoenergetic"; "dar"; "decay-at-rest"; "fd"; "fermi-dirac"; "fermi_dirac"; "bf"; "beta"; "beta-fit"; "hist"; "histogram"; "grid"]%string.

(** JSONConfig.cc 577-697 in the class RootJSONConfig. *)
Definition make_source_root (files : root_files) (type : bytes) (pdg : Z) (j : json) : res source :=
  if one_of type own_types then make_source type pdg j
  else match extra_source files type pdg j with
       | Some r => r
       | None => Er MarleyErr
       end.

(** JSONConfig.cc 525-713, prepare_neutrino_source, in the class RootJSONConfig. *)
Definition prepare_source_root (files : root_files) (j : json) (z : generator) : res generator :=
  do z <- (if has_key (b "energy_pdf_max") j then do m <- number (b "energy_pdf_max") j 0; Ok (with_state z (set_default_max (z_state z) m)) else Ok z);
  if negb (has_key (b "source") j) then Ok z
  else
    do spec <- at_key (b "source") j;
    match spec with
    | JNull => Ok z
    | _ =>
        do type <- text (b "type") spec (Er MarleyErr);
        do nu <- text (b "neutrino") spec (Er MarleyErr);
        do pdg <- neutrino_pdg nu;
        do s <- make_source_root files type pdg spec;
        do g <- (if has_key (b "weight_flux") spec then
                   do v <- at_key (b "weight_flux") spec;
                   match v with JBool w => Ok (set_weight_flux (z_state z) w) | _ => Er MarleyErr end
                 else Ok (z_state z));
        do ns <- as_nsource s;
        let '(g', r) := set_source g (Some ns) in
        do _ <- r; Ok (with_state z g')
    end.
