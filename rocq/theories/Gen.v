(** Generator.cc: the bookkeeping of reactions, source and target, the density of reacting
    neutrino energies and the choice of a reaction. Real numbers stand for doubles. *)
From Coq Require Import List ZArith Reals Bool.
From Verif Require Import Base Pdg Sample Quad Target.
Import ListNotations.
Open Scope R_scope.

(** What the generator uses of a Reaction object (Reaction.hh): the projectile pdg_a(), the
    code of atomic_target() and total_xs(pdg, KE). The nuclear and electron reactions are
    modelled in NucReact.v and React.v. *)
Record rxn := mkrxn { x_proj : Z; x_atom : Z; x_xs : Z -> R -> R }.

(** What it uses of a NeutrinoSource object (Source.v): get_pid, get_Emin, get_Emax and pdf,
    here a source whose density is finite everywhere. *)
Record nsource := mknsource { ns_pid : Z; ns_min : R; ns_max : R; ns_pdf : R -> R }.

(** Generator.hh 291-347: the data members concerned. [gn_max] is E_pdf_max_ and [gn_default]
    E_PDF_MAX_DEFAULT_, with None for UNKNOWN_MAX; [gn_hold] is dont_normalize_E_pdf_. *)
Record gstate := mkgstate
  { gn_rx : list rxn; gn_xs : list R; gn_source : nsource; gn_target : option target;
    gn_weight : bool; gn_norm : R; gn_hold : bool; gn_default : option R; gn_max : option R }.

(** NeutrinoSource.hh 99-100: the default source, electron neutrinos of 10 MeV. *)
Definition default_source : nsource := mknsource 12 10 10 (fun E => if Req_EM_T 10 E then 1 else 0).

(** Generator.cc 35-52 and the default member values in Generator.hh. E_pdf_max_ is not
    initialised by the code; it is first used by sample_reaction, after a normalisation has
    set it. *)
Definition new_generator : gstate := mkgstate [] [] default_source None true 1 false None None.

(** Generator.cc 281-291: one reaction's cross section, weighted by the atom fraction. *)
Definition weighted_xs (g : gstate) (E : R) (r : rxn) : R :=
  let x := x_xs r (ns_pid (gn_source g)) E in
  match gn_target g with Some t => x * atom_fraction t (x_atom r) | None => x end.

(** total_xs_values_.at(j) = x. *)
Fixpoint store (j : nat) (x : R) (l : list R) : res (list R) :=
  match l, j with
  | [], _ => Er StdRange
  | _ :: r, O => Ok (x :: r)
  | y :: r, S j' => do r' <- store j' x r; Ok (y :: r')
  end.

(** Generator.cc 275-299: the loop over the reactions from index [j] on. *)
Fixpoint sum_reactions (g : gstate) (E : R) (rx : list rxn) (j : nat) (xs : list R) (pdf : R) : res (list R * R) :=
  match rx with
  | [] => Ok (xs, pdf)
  | r :: rest =>
      let x := weighted_xs g E r in
      do xs' <- store j x xs;
      sum_reactions g E rest (S j) xs' (pdf + x)
  end.

(** Generator.cc 267-320, E_pdf: the new contents of total_xs_values_ and the density. The
    result is unspecified here when norm_ is zero (the code then gives an infinity or NaN). *)
Definition E_pdf (g : gstate) (E : R) : res (list R * R) :=
  do (xs, sum) <- sum_reactions g E (gn_rx g) 0 (gn_xs g) 0;
  if gn_weight g then Ok (xs, sum * ns_pdf (gn_source g) E / gn_norm g)
  else if Rle_dec sum 0 then Ok (xs, 0)
  else Ok (xs, ns_pdf (gn_source g) E / gn_norm g).

Definition set_norm (g : gstate) (n : R) : gstate := mkgstate (gn_rx g) (gn_xs g) (gn_source g) (gn_target g) (gn_weight g) n (gn_hold g) (gn_default g) (gn_max g).
Definition set_xs (g : gstate) (xs : list R) : gstate := mkgstate (gn_rx g) xs (gn_source g) (gn_target g) (gn_weight g) (gn_norm g) (gn_hold g) (gn_default g) (gn_max g).
Definition set_max (g : gstate) (m : option R) : gstate := mkgstate (gn_rx g) (gn_xs g) (gn_source g) (gn_target g) (gn_weight g) (gn_norm g) (gn_hold g) (gn_default g) m.

(** The density as a function, for the integrator: E_pdf throws only if the slots are too
    few, which is checked where it is used. *)
Definition E_density (g : gstate) (E : R) : R := match E_pdf g E with Ok (_, v) => v | Er _ => 0 end.

(** Generator.cc 116-166, normalize_E_pdf. An operation returns the new state also when it
    throws. The last point the integrator evaluates leaves its cross sections in
    total_xs_values_ (Integrator.cc 57-60, from left to right). *)
Definition normalize (g0 : gstate) : gstate * res unit :=
  if gn_hold g0 then (g0, Ok tt)
  else
    let g := set_norm (set_max g0 (gn_default g0)) 1 in
    let lo := ns_min (gn_source g) in
    let hi := ns_max (gn_source g) in
    let last := if Req_EM_T lo hi then lo else (hi + lo) / 2 - (hi - lo) / 2 * offset 50 49 in
    match E_pdf g last with
    | Er e => (g, Er e)
    | Ok (xs, v) =>
        let n := if Req_EM_T lo hi then v else utils_integrate (E_density g) lo hi in
        (set_norm (set_xs g xs) n, if Rle_dec n 0 then Er MarleyErr else Ok tt)
    end.

(** Generator.cc 388-404 (None for a null pointer). *)
Definition set_source (g : gstate) (s : option nsource) : gstate * res unit :=
  match s with
  | None => (g, Ok tt)
  | Some s => let g' := mkgstate (gn_rx g) (gn_xs g) s (gn_target g) (gn_weight g) (gn_norm g) (gn_hold g) (gn_default g) (gn_max g) in
              match gn_rx g' with [] => (g', Ok tt) | _ :: _ => normalize g' end
  end.

(** Generator.cc 538-553. *)
Definition set_target (g : gstate) (t : option target) : gstate * res unit :=
  match t with
  | None => (g, Ok tt)
  | Some t => let g' := mkgstate (gn_rx g) (gn_xs g) (gn_source g) (Some t) (gn_weight g) (gn_norm g) (gn_hold g) (gn_default g) (gn_max g) in
              match gn_rx g' with [] => (g', Ok tt) | _ :: _ => normalize g' end
  end.

(** Generator.cc 406-426. *)
Definition add_reaction (g : gstate) (r : option rxn) : gstate * res unit :=
  match r with
  | None => (g, Ok tt)
  | Some r => normalize (mkgstate (gn_rx g ++ [r]) (gn_xs g ++ [0]) (gn_source g) (gn_target g) (gn_weight g) (gn_norm g) (gn_hold g) (gn_default g) (gn_max g))
  end.

(** Generator.cc 428-434. *)
Definition clear_reactions (g : gstate) : gstate := mkgstate [] [] (gn_source g) (gn_target g) (gn_weight g) 1 (gn_hold g) (gn_default g) (gn_max g).

(** Generator.cc 458-460. *)
Definition set_weight_flux (g : gstate) (w : bool) : gstate := mkgstate (gn_rx g) (gn_xs g) (gn_source g) (gn_target g) w (gn_norm g) (gn_hold g) (gn_default g) (gn_max g).

(** Generator.cc 322-374, sample_reaction: the new state, the energy and the index. [draws],
    [maximum] and [fuel] as in Sample.v; [u] is the draw of the discrete distribution. The
    rejection loop ends with a call of E_pdf at the accepted energy. *)
Definition sample_reaction (g : gstate) (safety maximum : R) (draws : nat -> R * R) (u : R) (fuel : nat) : res (gstate * R * nat) :=
  match gn_rx g with
  | [] => Er MarleyErr
  | _ :: _ =>
      do (E, m) <- rejection_sample (E_density g) (ns_min (gn_source g)) (ns_max (gn_source g)) (gn_max g) safety maximum draws fuel;
      do (xs, _) <- E_pdf g E;
      let g' := set_max (set_xs g xs) (Some m) in
      let i := discrete xs u in
      if Nat.ltb i (length (gn_rx g)) then Ok (g', E, i) else Er StdRange
  end.

(** Generator.cc 513-536, flux_averaged_total_xs. *)
Definition flux_averaged (g : gstate) : R :=
  if negb (gn_weight g) then 0
  else
    let lo := ns_min (gn_source g) in
    let hi := ns_max (gn_source g) in
    if Req_EM_T lo hi then gn_norm g / ns_pdf (gn_source g) lo
    else gn_norm g / utils_integrate (ns_pdf (gn_source g)) lo hi.

(** Generator.cc 555-591: the total cross section for one kind of atom, with the index and
    weight lists. [j] is the index of the first reaction of [rx]. *)
Fixpoint total_xs_loop (rx : list rxn) (pdg : Z) (E : R) (atom : Z) (j : nat) : R * list nat * list R :=
  match rx with
  | [] => (0, [], [])
  | r :: rest =>
      let '(s, is, ws) := total_xs_loop rest pdg E atom (S j) in
      if negb (Z.eqb atom (x_atom r)) then (s, is, ws)
      else if negb (Z.eqb pdg (x_proj r)) then (s, is, ws)
      else
        let x := x_xs r pdg E in
        if Rlt_dec 0 x then (x + s, j :: is, x :: ws) else (s, is, ws)
  end.
Definition total_xs_atom (g : gstate) (pdg : Z) (E : R) (atom : Z) : R * list nat * list R := total_xs_loop (gn_rx g) pdg E atom 0.

(** Generator.cc 593-616: the first part of create_event with given initial particles, up to
    the choice of the reaction. *)
Definition pick_reaction (g : gstate) (pdg : Z) (E : R) (atom : Z) (u : R) : res nat :=
  let '(tot, is, ws) := total_xs_atom g pdg E atom in
  match ws with
  | [] => Er MarleyErr
  | _ :: _ =>
      if Rle_dec tot 0 then Er MarleyErr
      else match nth_error is (discrete ws u) with
           | None => Er StdRange
           | Some i => if Nat.ltb i (length (gn_rx g)) then Ok i else Er StdRange
           end
  end.

(** Generator.cc 641-668: the cross section averaged over the target. *)
Definition total_xs_target (g : gstate) (pdg : Z) (E : R) : R :=
  fold_left (fun acc r => acc + match gn_target g with Some t => x_xs r pdg E * atom_fraction t (x_atom r) | None => x_xs r pdg E end) (gn_rx g) 0.
