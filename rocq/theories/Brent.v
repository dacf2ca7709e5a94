(** The search for the minimum and the maximum of a function (src/marley_utils.cc
    153-248), its use by rejection sampling (src/Generator.cc 219-241), and the sampling of
    incident neutrinos (src/NeutrinoSource.cc 41-48). Real numbers stand for doubles. *)
From Coq Require Import List ZArith Reals.
From Verif Require Import Base XReal Sample Source.
Import ListNotations.
Local Open Scope R_scope.

(** marley_utils.cc 160-161: the constants c and SQRT_DBL_EPSILON (DBL_EPSILON is 2^-52). *)
Definition golden : R := 1 / 2 * (3 - sqrt 5).
Definition sqrt_eps : R := (/ 2) ^ 26.

(** marley_utils.cc 159 and 163-165: the variables kept from one turn of the loop to the next. *)
Record bst := mkb { ba : R; bb : R; bv : R; bw : R; bx : R; bd : R; be : R; bfv : R; bfw : R; bfx : R }.

(** marley_utils.cc 173: tol at the head of the loop. *)
Definition btol (eps : R) (s : bst) : R := sqrt_eps * Rabs (bx s) + eps.

(** marley_utils.cc 172-175: the condition of the loop. *)
Definition more (eps : R) (s : bst) : bool :=
  let m := 1 / 2 * (ba s + bb s) in
  if Rlt_dec (2 * btol eps s - 1 / 2 * (bb s - ba s)) (Rabs (bx s - m)) then true else false.

(** marley_utils.cc 177-187: the numbers p, q and r of the parabola, and the new e. *)
Definition parabola (eps : R) (s : bst) : R * R * R * R :=
  if Rlt_dec (btol eps s) (Rabs (be s)) then
    let r := (bx s - bw s) * (bfx s - bfv s) in
    let q := (bx s - bv s) * (bfx s - bfw s) in
    let p := (bx s - bv s) * q - (bx s - bw s) * r in
    let q := 2 * (q - r) in
    if Rlt_dec 0 q then (- p, q, be s, bd s) else (p, - q, be s, bd s)
  else (0, 0, 0, be s).

(** marley_utils.cc 188-204: the new d and e. *)
Definition shift (eps : R) (s : bst) : R * R :=
  let m := 1 / 2 * (ba s + bb s) in
  let tol := btol eps s in
  let '(p, q, r, e) := parabola eps s in
  if Rlt_dec (Rabs p) (Rabs (1 / 2 * q * r)) then
    if Rlt_dec p (q * (ba s - bx s)) then
      if Rlt_dec p (q * (bb s - bx s)) then
        let d := p / q in
        let u := bx s + d in
        let close := if Rlt_dec (u - ba s) (2 * tol) then true else if Rlt_dec (bb s - u) (2 * tol) then true else false in
        ((if close then (if Rlt_dec (bx s) m then tol else - tol) else d), e)
      else let e := (if Rlt_dec (bx s) m then bb s else ba s) - bx s in (golden * e, e)
    else let e := (if Rlt_dec (bx s) m then bb s else ba s) - bx s in (golden * e, e)
  else let e := (if Rlt_dec (bx s) m then bb s else ba s) - bx s in (golden * e, e).

(** marley_utils.cc 206-211: the next point u. *)
Definition point (eps : R) (s : bst) (d : R) : R :=
  let tol := btol eps s in
  if Rle_dec tol (Rabs d) then bx s + d else if Rlt_dec 0 d then bx s + tol else bx s - tol.

(** marley_utils.cc 214-234: the update with the point u, where the function has the value
    fu. *)
Definition update (s : bst) (d e u fu : R) : bst :=
  if Rle_dec fu (bfx s) then
    mkb (if Rlt_dec u (bx s) then ba s else bx s) (if Rlt_dec u (bx s) then bx s else bb s)
        (bw s) (bx s) u d e (bfw s) (bfx s) fu
  else
    let a := if Rlt_dec u (bx s) then u else ba s in
    let b := if Rlt_dec u (bx s) then bb s else u in
    let take_w := mkb a b (bw s) u (bx s) d e (bfw s) fu (bfx s) in
    let take_v := mkb a b u (bw s) (bx s) d e fu (bfw s) (bfx s) in
    let take_none := mkb a b (bv s) (bw s) (bx s) d e (bfv s) (bfw s) (bfx s) in
    if Rle_dec fu (bfw s) then take_w
    else if Req_EM_T (bw s) (bx s) then take_w
    else if Rle_dec fu (bfv s) then take_v
    else if Req_EM_T (bv s) (bx s) then take_v
    else if Req_EM_T (bv s) (bw s) then take_v
    else take_none.

(** What a search gives: the place, the value there, and the points at which the function
    was called, in order (the function is the caller's, so the calls can be seen). *)
Record found := mkfound { at_x : R; at_f : R; calls : list R }.

(** marley_utils.cc 171-236: the loop. The fuel bounds the number of turns. *)
Fixpoint brent (f : R -> R) (eps : R) (s : bst) (fuel : nat) : res found :=
  match fuel with
  | O => Er NoFuel
  | S fuel' =>
      if more eps s then
        let '(d, e) := shift eps s in
        let u := point eps s d in
        do r <- brent f eps (update s d e u (f u)) fuel';
        Ok (mkfound (at_x r) (at_f r) (u :: calls r))
      else Ok (mkfound (bx s) (bfx s) [])
  end.

(** marley_utils.cc 167-169: the start. *)
Definition bstart (f : R -> R) (lo hi : R) : bst :=
  let x := lo + golden * (hi - lo) in mkb lo hi x x x 0 0 (f x) (f x) (f x).

(** marley_utils.cc 153-237, minimize. *)
Definition minimize (f : R -> R) (lo hi eps : R) (fuel : nat) : res found :=
  do r <- brent f eps (bstart f lo hi) fuel;
  Ok (mkfound (at_x r) (at_f r) (bx (bstart f lo hi) :: calls r)).

(** marley_utils.cc 239-248, maximize. *)
Definition maximize (f : R -> R) (lo hi eps : R) (fuel : nat) : res found :=
  do r <- minimize (fun x => -1 * f x) lo hi eps fuel;
  Ok (mkfound (at_x r) (-1 * at_f r) (calls r)).

(** Generator.cc 219-265: rejection sampling, with the search when the maximum is not
    known (None stands for UNKNOWN_MAX). The result is the point and the value left in the
    argument fmax. *)
Definition sample_search (f : R -> R) (lo hi : R) (fmax : option R) (safety eps : R)
    (draws : nat -> R * R) (sfuel fuel : nat) : res (R * R) :=
  match fmax with
  | Some m => rejection_sample f lo hi (Some m) safety 0 draws fuel
  | None => do r <- maximize f lo hi eps sfuel; rejection_sample f lo hi None safety (at_f r) draws fuel
  end.

(** Generator.hh 90 and 289: the default safety factor and tolerance. *)
Definition usual_safety : R := 101 / 100.
Definition usual_tol : R := / 10 ^ 8.

(** NeutrinoSource.cc 41-48, sample_incident_neutrino: the particle, the energy and the
    new value of the static variable max, which is one for the whole program ([smax] is its
    value before the call). A density that is not finite counts as zero here. *)
Definition sample_incident (s : source) (smax : option R) (draws : nat -> R * R) (sfuel fuel : nat)
  : res (Z * R * option R) :=
  do lo <- source_Emin s;
  do hi <- source_Emax s;
  let f := fun E => match pdf s E with Ok (Fin r) => r | _ => 0 end in
  do (E, m) <- sample_search f lo hi smax usual_safety usual_tol draws sfuel fuel;
  Ok (source_pid s, E, Some m).
