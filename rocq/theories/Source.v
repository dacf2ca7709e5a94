(** NeutrinoSource.cc and NeutrinoSource.hh: incident neutrino spectra. Real numbers stand
    for doubles. *)
From Coq Require Import List ZArith Reals.
From Verif Require Import Base Sample XReal Grid Quad Mass.
Import ListNotations.
Open Scope R_scope.

(** NeutrinoSource.cc 32-39, pids_, and NeutrinoSource.hh 290-291, pdg_is_allowed. *)
Definition source_pids : list Z := [12; -12; 14; -14; 16; -16]%Z.
Definition pdg_is_allowed (pdg : Z) : bool := existsb (Z.eqb pdg) source_pids.

(** NeutrinoSource.cc 22-28: the base class constructor. *)
Definition check_pid (pdg : Z) : res unit := if pdg_is_allowed pdg then Ok tt else Er MarleyErr.

(** The classes derived from NeutrinoSource, with their data members. *)
Inductive source :=
| Mono (pid : Z) (E : R)
| FermiDirac (pid : Z) (Emin Emax T eta C : R)
| BetaFit (pid : Z) (Emin Emax Emean beta C : R)
| FunctionSource (pid : Z) (Emin Emax : R) (density : R -> R)
| DecayAtRest (pid : Z)
| GridSource (pid : Z) (g : grid).

(** NeutrinoSource.hh 241-246: the muon mass in MeV, and the static members Emin_ and
    Emax_ of the decay at rest source. *)
Definition m_mu : R := 1134289267 / 10000 * micro_amu.
Definition dar_max : R := m_mu / 2.

(** std::pow for a base that is not negative and an exponent that is not negative
    (a negative base, outside the model, gives 0 here). *)
Definition cpow (x y : R) : R := if Rlt_dec 0 x then Rpower x y else if Req_EM_T x 0 then (if Req_EM_T y 0 then 1 else 0) else 0.

(** The test E < Emin || E > Emax of every pdf function: the value [v] if it fails. *)
Definition within (lo hi E v : R) : R := if Rlt_dec E lo then 0 else if Rlt_dec hi E then 0 else v.

(** NeutrinoSource.cc 66-70. The model is faithful for a temperature that is not zero. *)
Definition fermi_pdf (lo hi T eta C E : R) : R := within lo hi E (C / T ^ 4 * (E ^ 2 / (1 + exp (E / T - eta)))).

(** NeutrinoSource.cc 95-101, faithful for a mean energy that is not zero and E / Emean
    that is not negative. *)
Definition beta_pdf (lo hi Emean beta C E : R) : R :=
  within lo hi E (if (if Req_EM_T E 0 then if Rlt_dec beta 1 then true else false else false) then 0
                  else C * cpow (E / Emean) (beta - 1) * exp (- beta * E / Emean)).

(** NeutrinoSource.cc 128-141. *)
Definition dar_pdf (pid : Z) (E : R) : R :=
  within 0 dar_max E
    (if Z.eqb (Z.abs pid) 12 then 96 * E ^ 2 * (1 / (m_mu * m_mu * m_mu * m_mu)) * (m_mu - 2 * E)
     else 16 * E ^ 2 * (1 / (m_mu * m_mu * m_mu * m_mu)) * (3 * m_mu - 4 * E)).

(** NeutrinoSource.hh 308-311. *)
Definition make_mono (pid : Z) (E : R) : res source := do _ <- check_pid pid; Ok (Mono pid E).

(** NeutrinoSource.cc 50-64. A vanishing integral, which in the code makes C infinite, is
    outside the model. *)
Definition make_fermi (pid : Z) (lo hi T eta : R) : res source :=
  do _ <- check_pid pid;
  Ok (FermiDirac pid lo hi T eta (1 / utils_integrate (fermi_pdf lo hi T eta 1) lo hi)).

(** NeutrinoSource.cc 72-93. *)
Definition make_beta (pid : Z) (lo hi Emean beta : R) : res source :=
  do _ <- check_pid pid;
  if Rlt_dec beta 1 then Er MarleyErr
  else Ok (BetaFit pid lo hi Emean beta (1 / utils_integrate (beta_pdf lo hi Emean beta 1) lo hi)).

(** NeutrinoSource.cc 103-113, for a function of real values. *)
Definition make_function (pid : Z) (lo hi : R) (f : R -> R) : res source :=
  do _ <- check_pid pid;
  let integral := utils_integrate f lo hi in
  Ok (FunctionSource pid lo hi (fun E => f E / integral)).

(** NeutrinoSource.cc 115-126. *)
Definition make_dar (pid : Z) : res source :=
  do _ <- check_pid pid;
  if (negb (Z.eqb (Z.abs pid) 12) && negb (Z.eqb (Z.abs pid) 14))%bool then Er MarleyErr else Ok (DecayAtRest pid).

(** std::nextafter(0, infinity): the smallest positive double. *)
Definition tiny : R := (/ 2) ^ 1074.

(** NeutrinoSource.cc 150-165: the loop over the grid points, with the sum of the densities
    so far. *)
Fixpoint check_points (pts : list (R * R)) (sum : R) : res (list (R * R) * R) :=
  match pts with
  | [] => Ok ([], sum)
  | (x, y) :: r =>
      if Rlt_dec x 0 then Er MarleyErr
      else
        let x' := if Req_EM_T x 0 then tiny else x in
        if Rlt_dec y 0 then Er MarleyErr
        else do (r', s) <- check_points r (sum + y); Ok ((x', y) :: r', s)
  end.

(** NeutrinoSource.cc 145-170 and NeutrinoSource.hh 323-324: a source from a grid. *)
Definition make_grid_source (pid : Z) (g : grid) : res source :=
  do _ <- check_pid pid;
  if Nat.ltb (length (g_pts g)) 2 then Er MarleyErr
  else
    do (pts, s) <- check_points (g_pts g) 0;
    if Rle_dec s 0 then Er MarleyErr else Ok (GridSource pid (mkgrid (g_im g) (g_em g) pts)).

(** NeutrinoSource.hh 326-329: a source from two vectors; the extrapolation rule is the
    default one, InterpolationGrid.hh 119-122. The base class is built first. *)
Definition make_grid_source_xy (pid : Z) (xs ys : list R) (im : imethod) : res source :=
  do _ <- check_pid pid;
  do g <- make_grid xs ys im EZero;
  make_grid_source pid g.

Definition source_pid (s : source) : Z :=
  match s with
  | Mono p _ | FermiDirac p _ _ _ _ _ | BetaFit p _ _ _ _ _ | FunctionSource p _ _ _ | DecayAtRest p | GridSource p _ => p
  end.

(** The get_Emin and get_Emax functions: NeutrinoSource.hh 294-295, 299-323. *)
Definition source_Emin (s : source) : res R :=
  match s with
  | Mono _ E => Ok E
  | FermiDirac _ lo _ _ _ _ | BetaFit _ lo _ _ _ _ | FunctionSource _ lo _ _ => Ok lo
  | DecayAtRest _ => Ok 0
  | GridSource _ g => do p <- grid_front g; Ok (fst p)
  end.
Definition source_Emax (s : source) : res R :=
  match s with
  | Mono _ E => Ok E
  | FermiDirac _ _ hi _ _ _ | BetaFit _ _ hi _ _ _ | FunctionSource _ _ hi _ => Ok hi
  | DecayAtRest _ => Ok dar_max
  | GridSource _ g => do p <- grid_back g; Ok (fst p)
  end.

(** The pdf functions: NeutrinoSource.hh 296-297 (Mono), 308-311 (Function), 323-324 (grid)
    and NeutrinoSource.cc as above. *)
Definition pdf (s : source) (E : R) : res xr :=
  match s with
  | Mono _ E0 => Ok (Fin (if Req_EM_T E0 E then 1 else 0))
  | FermiDirac _ lo hi T eta C => Ok (Fin (fermi_pdf lo hi T eta C E))
  | BetaFit _ lo hi Em beta C => Ok (Fin (beta_pdf lo hi Em beta C E))
  | FunctionSource _ lo hi f => Ok (Fin (within lo hi E (f E)))
  | DecayAtRest p => Ok (Fin (dar_pdf p E))
  | GridSource _ g => interpolate g E
  end.
