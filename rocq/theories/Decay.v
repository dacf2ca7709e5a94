(** Nuclear de-excitation (src/DecayScheme.cc 35-135, src/Level.cc, src/ExitChannel.cc,
    src/HauserFeshbachDecay.cc, src/NucleusDecayer.cc).

    Numbers are real numbers. Random draws are explicit: each is a number in the unit
    interval. Optical model, gamma strength function, level densities, numerical
    integration and the Chebyshev approximant are parameters of the environment. *)
From Coq Require Import List ZArith Reals Bool.
From Verif Require Import Base Pdg Kin Sample Mass.
Import ListNotations.
Local Open Scope R_scope.

(** ** Discrete levels *)

(** Level.hh and Gamma.hh: energy, doubled spin, parity, and the gammas as relative
    intensity and index of the end level (None for a null pointer). *)
Record rlevel := mkrl { rl_E : R; rl_twoJ : Z; rl_par : bool; rl_gammas : list (R * option nat) }.

(** DecayScheme.hh: the nuclide's code (DecayScheme.cc 67-69) and the levels in order
    of energy. *)
Record rscheme := mkrs { s_pdg : Z; s_levels : list rlevel }.

(** DecayScheme.cc, level_lower_bound_index (std::lower_bound by energy). *)
Fixpoint rl_lower_bound (E : R) (ls : list rlevel) : nat :=
  match ls with
  | [] => O
  | l :: r => if Rlt_dec (rl_E l) E then S (rl_lower_bound E r) else O
  end.

(** DecayScheme.cc 35-65, get_pointer_to_closest_level, as an index. *)
Definition rl_closest (ls : list rlevel) (E : R) : option nat :=
  match ls with
  | [] => None
  | _ =>
      let e := rl_lower_bound E ls in
      if Nat.eqb e (List.length ls) then Some (pred e)
      else if Nat.ltb 0 e then
        match nth_error ls e, nth_error ls (pred e) with
        | Some a, Some b =>
            if Rlt_dec (Rabs (E - rl_E b)) (Rabs (E - rl_E a)) then Some (pred e) else Some e
        | _, _ => None
        end
      else Some e
  end.

(** Particle.cc 59-74, the constructors that take code and mass (energy zero, charge
    looked up) and code, mass and charge (at rest). *)
Definition particle2 (id : Z) (m : R) : res part :=
  do q <- particle_charge id; Ok (mkpart id 0 0 0 0 m q).
Definition particle3 (id : Z) (m : R) (q : Z) : part := mkpart id m 0 0 0 m q.

(** Ground-state mass of an ion (ExitChannel.cc 394-402, DecayScheme.cc 113-114,
    NucleusDecayer.cc 83-84): atomic mass less q electron masses. *)
Definition ion_mass (t : mtab) (pdg q : Z) : res R :=
  do m <- atomic_mass t pdg true;
  do me <- particle_mass t ELECTRON;
  Ok (m - IZR q * me).

(** DecayScheme.cc 71-135, do_cascade from level [lev]. The draws of a turn choose the
    gamma (Level.cc 29-41), the polar and the azimuthal angle. The result is the final
    residue and the gammas in order of emission. *)
Fixpoint cascade (t : mtab) (ds : rscheme) (q : Z) (lev : rlevel) (residue : part)
    (draws : nat -> R * R * R) (turn fuel : nat) : res (part * list part) :=
  match fuel with
  | O => Er NoFuel
  | S fuel' =>
      match rl_gammas lev with
      | [] => Ok (residue, [])
      | gs =>
          let '(u, uc, up) := draws turn in
          match nth_error gs (discrete (map fst gs) u) with
          | None => Er Undefined
          | Some (_, None) => Er MarleyErr
          | Some (_, Some j) =>
              match nth_error (s_levels ds) j with
              | None => Er Undefined
              | Some lev' =>
                  do gamma <- particle2 PHOTON 0;
                  do m0 <- ion_mass t (s_pdg ds) q;
                  let nucleus := particle3 (s_pdg ds) (m0 + rl_E lev') q in
                  do (g, n) <- two_body_decay residue gamma nucleus (uniform (-1) 1 uc) (uniform 0 (2 * PI) up);
                  do (r, gs') <- cascade t ds q lev' n draws (S turn) fuel';
                  Ok (r, g :: gs')
              end
          end
      end
  end.

(** ** Exit channels *)

(** Everything the statistical model consults. [v_frags] is the fragment table
    (StructureDatabase.cc 363-383): code, doubled spin and parity. [v_T nucleus energy
    fragment 2j l 2s] and [v_TX nucleus electric multipolarity energy] are the
    transmission coefficients. [v_integrate f a b] is marley_utils::num_integrate and
    [v_cdf f a b] the cumulative distribution built from Chebyshev points. *)
Record env := mkenv {
  v_mt : mtab;
  v_scheme : Z -> option rscheme;
  v_frags : list (Z * (Z * bool));
  v_rho : Z -> R -> Z -> bool -> R;
  v_T : Z -> R -> Z -> Z -> Z -> Z -> R;
  v_TX : Z -> bool -> Z -> R -> R;
  v_flmax : Z;
  v_glmax : Z;
  v_integrate : (R -> R) -> R -> R -> R;
  v_cdf : (R -> R) -> R -> R -> R -> R;
  v_tol : R
}.

(** The state of the compound nucleus: code, charge, excitation energy, doubled spin
    and parity (members of ExitChannel, ExitChannel.hh 100-125). *)
Record comp := mkcomp { c_pdg : Z; c_q : Z; c_Ex : R; c_twoJ : Z; c_par : bool }.

(** for (i = lo; i <= hi; i += 2) and for (i = lo; i <= hi; ++i). *)
Definition range2 (lo hi : Z) : list Z :=
  map (fun i => lo + 2 * Z.of_nat i)%Z (seq 0 (Z.to_nat ((hi - lo) / 2 + 1))).
Definition range1 (lo hi : Z) : list Z :=
  map (fun i => lo + Z.of_nat i)%Z (seq 0 (Z.to_nat (hi - lo + 1))).

(** ExitChannel.cc 60-72 and ExitChannel.hh, final_nucleus_pdg. *)
Definition fragment_final (pdgi f : Z) : Z :=
  nucleus_pid (particle_Z pdgi - particle_Z f) (particle_A pdgi - particle_A f).

(** ExitChannel.cc 118-138: the inner loop over l, which flips the parity of the final
    state as it goes; the values of l that contribute. *)
Fixpoint l_loop (Pi P : bool) (l : Z) (n : nat) : list Z :=
  match n with
  | O => []
  | S n' => (if parity_eqb Pi P then [l] else []) ++ l_loop Pi (parity_neg P) (l + 1)%Z n'
  end.

(** ExitChannel.cc 113-139: the pairs (2j, l) that contribute to emission of a
    fragment of doubled spin [two_s] and parity [Pa] leaving a level. *)
Definition discrete_terms (twoJi : Z) (Pi : bool) (twoJf : Z) (Pf : bool) (two_s : Z) (Pa : bool) : list (Z * Z) :=
  flat_map (fun two_j =>
    let j_plus_s := Z.quot (two_j + two_s) 2 in
    let l := Z.quot (Z.abs (two_j - two_s)) 2 in
    let P := parity_mul (parity_mul Pf Pa) (negb (Z.odd l)) in
    map (fun l => (two_j, l)) (l_loop Pi P l (Z.to_nat (j_plus_s - l + 1))))
    (range2 (Z.abs (twoJi - twoJf)) (twoJi + twoJf)).

(** ExitChannel.hh 59: the normalisation of the widths. *)
Definition norm_rho (v : env) (c : comp) : R := / (2 * PI * v_rho v (c_pdg c) (c_Ex c) (c_twoJ c) (c_par c)).

(** ExitChannel.cc 74-79, max_Exf. *)
Definition max_Exf (v : env) (c : comp) (f : Z) : res R :=
  do s <- separation (v_mt v) (c_pdg c) f true; Ok (c_Ex c - s).

(** ExitChannel.cc 81-140, FragmentDiscreteExitChannel::compute_total_width. *)
Definition fragment_discrete_width (v : env) (c : comp) (f two_s : Z) (Pa : bool) (lev : rlevel) : res R :=
  do Exf_max <- max_Exf v c f;
  if Rle_dec Exf_max (rl_E lev) then Ok 0
  else Ok (sumR (map (fun p => norm_rho v c *
             v_T v (fragment_final (c_pdg c) f) (Exf_max - rl_E lev) f (fst p) (snd p) two_s)
             (discrete_terms (c_twoJ c) (c_par c) (rl_twoJ lev) (rl_par lev) two_s Pa))).

(** ExitChannel.cc 151-163, get_transition_type: whether the transition is electric. *)
Definition is_electric (Pi : bool) (mpol : Z) (Pf : bool) : bool :=
  parity_eqb Pi (parity_mul Pf (negb (Z.odd mpol))).

(** ExitChannel.cc 188-194: the multipolarities summed over. *)
Definition multipolarities (twoJi twoJf : Z) : list Z :=
  range1 (Z.max 1 (Z.quot (Z.abs (twoJi - twoJf)) 2)) (Z.quot (twoJi + twoJf) 2).

(** ExitChannel.cc 165-209, GammaDiscreteExitChannel::compute_total_width. *)
Definition gamma_discrete_width (v : env) (c : comp) (lev : rlevel) : R :=
  if Rle_dec (c_Ex c) (rl_E lev) then 0
  else sumR (map (fun m => norm_rho v c * v_TX v (c_pdg c) (is_electric (c_par c) m (rl_par lev)) m (c_Ex c - rl_E lev))
         (multipolarities (c_twoJ c) (rl_twoJ lev))).

Definition tiny_offset : R := 1 / 1000000.

(** ExitChannel.cc 243-275: the loops over l, 2j and 2Jf; each term is (l, 2j, 2Jf, Pf). *)
Fixpoint continuum_l (twoJi two_s : Z) (P : bool) (l : Z) (n : nat) : list (Z * Z * Z * bool) :=
  match n with
  | O => []
  | S n' =>
      flat_map (fun two_j =>
        map (fun twoJf => (l, two_j, twoJf, P)) (range2 (Z.abs (twoJi - two_j)) (twoJi + two_j)))
        (range2 (Z.abs (2 * l - two_s)) (2 * l + two_s))
      ++ continuum_l twoJi two_s (parity_neg P) (l + 1)%Z n'
  end.
Definition fragment_terms (twoJi : Z) (Pi : bool) (two_s : Z) (Pa : bool) (lmax : Z) : list (Z * Z * Z * bool) :=
  continuum_l twoJi two_s (if parity_eqb Pi Pa then true else false) 0%Z (Z.to_nat (lmax + 1)).

(** A row of the table of final spins and parities (ExitChannel.hh, SpinParityWidth). *)
Record jpi := mkjpi { j_twoJ : Z; j_par : bool; j_w : R }.

(** ExitChannel.cc 211-277, FragmentContinuumExitChannel::differential_width: the table
    stored; the value returned is the sum of its last column. *)
Definition fragment_table (v : env) (c : comp) (f two_s : Z) (Pa : bool) (Ecmin Exf : R) : res (list jpi) :=
  do Exf_max <- max_Exf v c f;
  if Rlt_dec Exf_max Ecmin then Er MarleyErr
  else if Rlt_dec Exf (Ecmin - tiny_offset) then Ok []
  else if Rlt_dec (Exf_max + tiny_offset) Exf then Ok []
  else
    let nuc := fragment_final (c_pdg c) f in
    Ok (map (fun '(l, two_j, twoJf, P) =>
      mkjpi twoJf P (norm_rho v c * v_T v nuc (Exf_max - Exf) f two_j l two_s * v_rho v nuc Exf twoJf P))
      (fragment_terms (c_twoJ c) (c_par c) two_s Pa (v_flmax v))).

(** ExitChannel.cc 337-364: the loops over multipolarity, 2Jf and parity. *)
Definition gamma_terms (twoJi lmax : Z) : list (Z * Z * bool) :=
  flat_map (fun m => flat_map (fun twoJf => [(m, twoJf, true); (m, twoJf, false)])
    (range2 (Z.abs (twoJi - 2 * m)) (twoJi + 2 * m))) (range1 1 lmax).

(** ExitChannel.cc 306-366, GammaContinuumExitChannel::differential_width. *)
Definition gamma_table (v : env) (c : comp) (Ecmin Exf : R) : res (list jpi) :=
  if Rlt_dec (c_Ex c) Ecmin then Er MarleyErr
  else if Rlt_dec Exf (Ecmin - tiny_offset) then Ok []
  else if Rlt_dec (c_Ex c + tiny_offset) Exf then Ok []
  else
    Ok (map (fun '(m, twoJf, P) =>
      mkjpi twoJf P (norm_rho v c * v_TX v (c_pdg c) (is_electric (c_par c) m P) m (c_Ex c - Exf)
                     * v_rho v (c_pdg c) Exf twoJf P))
      (gamma_terms (c_twoJ c) (v_glmax v))).

(** The four kinds of channel: what is emitted (None for a gamma, else fragment code,
    doubled spin and parity) and where it leads (a level, or the continuum above an
    energy), with the width. *)
Inductive dest := ToLevel (lev : rlevel) | ToContinuum (Ecmin : R).
Record chan := mkchan { x_frag : option (Z * Z * bool); x_dest : dest; x_width : R }.

Definition table (v : env) (c : comp) (fr : option (Z * Z * bool)) (Ecmin Exf : R) : res (list jpi) :=
  match fr with
  | None => gamma_table v c Ecmin Exf
  | Some (f, two_s, Pa) => fragment_table v c f two_s Pa Ecmin Exf
  end.

(** The differential width as a function, for the integrator (ExitChannel.cc 291-295).
    It does not throw there, because the bounds have been compared (286-291). *)
Definition diff_width (v : env) (c : comp) (fr : option (Z * Z * bool)) (Ecmin Exf : R) : R :=
  match table v c fr Ecmin Exf with Ok l => sumR (map j_w l) | Er _ => 0 end.

(** E_c_max of ExitChannel.hh. *)
Definition chan_max (v : env) (c : comp) (fr : option (Z * Z * bool)) : res R :=
  match fr with None => Ok (c_Ex c) | Some (f, _, _) => max_Exf v c f end.

(** ExitChannel.cc 279-304, ContinuumExitChannel::compute_total_width. *)
Definition continuum_width (v : env) (c : comp) (fr : option (Z * Z * bool)) (Ecmin : R) : res R :=
  do Ec_max <- chan_max v c fr;
  if Rlt_dec Ec_max Ecmin then Er MarleyErr
  else Ok (v_integrate v (diff_width v c fr Ecmin) Ecmin Ec_max).

(** HauserFeshbachDecay.cc 113-126 and 164-175: the loop over levels below a maximum. *)
Fixpoint level_channels (v : env) (c : comp) (fr : option (Z * Z * bool)) (top : R) (ls : list rlevel) : res (list chan) :=
  match ls with
  | [] => Ok []
  | lev :: r =>
      if Rlt_dec (rl_E lev) top then
        do w <- match fr with
                | None => Ok (gamma_discrete_width v c lev)
                | Some (f, two_s, Pa) => fragment_discrete_width v c f two_s Pa lev
                end;
        do cs <- level_channels v c fr top r;
        Ok (mkchan fr (ToLevel lev) w :: cs)
      else Ok []
  end.

(** Energy of the highest level, or zero (HauserFeshbachDecay.cc 90-105 and 145-162). *)
Definition continuum_floor (ds : option rscheme) : R :=
  match ds with
  | Some s => match rev (s_levels s) with lev :: _ => rl_E lev | [] => 0 end
  | None => 0
  end.

(** HauserFeshbachDecay.cc 90-140 and 145-190: the channels for one emitted particle. *)
Definition particle_channels (v : env) (c : comp) (fr : option (Z * Z * bool)) (top : R) (ds : option rscheme) : res (list chan) :=
  do cs <- match ds with Some s => level_channels v c fr top (s_levels s) | None => Ok [] end;
  let Ecmin := continuum_floor ds in
  if Rlt_dec Ecmin top then
    do w <- continuum_width v c fr Ecmin;
    Ok (cs ++ [mkchan fr (ToContinuum Ecmin) w])
  else Ok cs.

(** HauserFeshbachDecay.cc 59-141: the loop over fragments. A NaN maximum leads to no
    channel, because every comparison with it is false. *)
Fixpoint fragment_channels (v : env) (c : comp) (frags : list (Z * (Z * bool))) : res (list chan) :=
  match frags with
  | [] => Ok []
  | (f, (two_s, Pa)) :: r =>
      do Sa <- separation_ZA (v_mt v) (particle_Z (c_pdg c)) (particle_A (c_pdg c)) f true;
      let top := c_Ex c - Sa in
      do cs <- (if nan_separation (v_mt v) (particle_Z (c_pdg c)) (particle_A (c_pdg c)) f then Ok []
                else if Rle_dec top 0 then Ok []
                else particle_channels v c (Some (f, two_s, Pa)) top (v_scheme v (fragment_final (c_pdg c) f)));
      do cs' <- fragment_channels v c r;
      Ok (cs ++ cs')
  end.

(** HauserFeshbachDecay.cc 33-191, build_exit_channels. *)
Definition exit_channels (v : env) (c : comp) : res (list chan) :=
  do cs <- fragment_channels v c (v_frags v);
  do gs <- particle_channels v c None (c_Ex c) (v_scheme v (c_pdg c));
  Ok (cs ++ gs).

(** ** One decay *)

(** The draws of one statistical decay: channel, final energy, final spin and parity,
    polar and azimuthal angle. *)
Record hdraw := mkhd { h_chan : R; h_E : R; h_jpi : R; h_cos : R; h_phi : R }.

Definition emitted_pdg (x : chan) : Z := match x_frag x with None => PHOTON | Some (f, _, _) => f end.
Definition final_pdg (c : comp) (x : chan) : Z :=
  match x_frag x with None => c_pdg c | Some (f, _, _) => fragment_final (c_pdg c) f end.

(** ExitChannel.cc 380-419, prepare_products: the emitted particle and the residue. *)
Definition prepare_products (v : env) (c : comp) (x : chan) (nucleus : part) (Exf uc up : R) : res (part * part) :=
  do m <- particle_mass (v_mt v) (emitted_pdg x);
  do e <- particle2 (emitted_pdg x) m;
  let qf := (c_q c - particle_Z (emitted_pdg x))%Z in
  do m0 <- ion_mass (v_mt v) (final_pdg c x) qf;
  let r := particle3 (final_pdg c x) (m0 + Exf) qf in
  two_body_decay nucleus e r (uniform (-1) 1 uc) (uniform 0 (2 * PI) up).

(** ExitChannel.cc 368-378 and 421-521: the final energy, spin and parity of a decay
    into a channel. *)
Definition sample_final (v : env) (c : comp) (x : chan) (d : hdraw) (fuel : nat) : res (R * Z * bool) :=
  match x_dest x with
  | ToLevel lev => Ok (rl_E lev, rl_twoJ lev, rl_par lev)
  | ToContinuum Ecmin =>
      do Emax <- chan_max v c (x_frag x);
      do Exf <- inverse_transform (v_cdf v (diff_width v c (x_frag x) Ecmin) Ecmin Emax) Ecmin Emax (v_tol v) (h_E d) fuel;
      do tb <- table v c (x_frag x) Ecmin Exf;
      if Rle_dec (sumR (map j_w tb)) 0 then Er MarleyErr
      else match nth_error tb (discrete (map j_w tb) (h_jpi d)) with
           | None => Er StdRange
           | Some j => Ok (Exf, j_twoJ j, j_par j)
           end
  end.

(** HauserFeshbachDecay.cc 193-204 and 238-259 with the constructor (25-31): sample a
    channel and decay into it. The result: emitted particle, residue, its energy, spin
    and parity, and whether it is in the continuum. *)
Definition hf_decay (v : env) (nucleus : part) (Ex : R) (twoJ : Z) (P : bool) (d : hdraw) (fuel : nat)
  : res (part * part * R * Z * bool * bool) :=
  let c := mkcomp (pid nucleus) (chg nucleus) Ex twoJ P in
  do cs <- exit_channels v c;
  let ws := map x_width cs in
  if Rle_dec (sumR ws) 0 then Er MarleyErr
  else match nth_error cs (discrete ws (h_chan d)) with
       | None => Er StdRange
       | Some x =>
           do (Exf, twoJf, Pf) <- sample_final v c x d fuel;
           do (e, r) <- prepare_products v c x nucleus Exf (h_cos d) (h_phi d);
           Ok (e, r, Exf, twoJf, Pf, match x_dest x with ToContinuum _ => true | ToLevel _ => false end)
       end.

(** ** The de-excitation of an event *)

Definition gs_cutoff : R := 1 / 1000.
Definition ex_tolerance : R := 1 / 100000.

(** NucleusDecayer.cc 130-155: the loop of statistical decays, begun in the continuum.
    The result: residue, energy, whether it is still in the continuum, and the emitted
    particles in order. *)
Fixpoint hf_loop (v : env) (residue : part) (Ex : R) (twoJ : Z) (P : bool) (draws : nat -> hdraw) (turn fuel : nat)
  : res (part * R * bool * list part) :=
  match fuel with
  | O => Er NoFuel
  | S fuel' =>
      if Rlt_dec gs_cutoff Ex then
        do (e, r, Exf, twoJf, Pf, cont) <- hf_decay v residue Ex twoJ P (draws turn) fuel;
        if cont then
          do (r', E', cont', es) <- hf_loop v r Exf twoJf Pf draws (S turn) fuel';
          Ok (r', E', cont', e :: es)
        else Ok (r, Exf, false, [e])
      else Ok (residue, Ex, true, [])
  end.

(** Event with a new residue and further final particles. *)
Definition with_residue (ev : kevent) (r : part) (more : list part) : kevent :=
  mkev (e_projectile ev) (e_target ev) (e_ejectile ev) r (e_others ev ++ more) (e_Ex ev) (e_twoJ ev) (e_parity ev).

(** NucleusDecayer.cc 157-188: the gamma cascade at the end. *)
Definition finish (v : env) (residue : part) (Ex : R) (check : bool) (draws : nat -> R * R * R) (fuel : nat)
  : res (part * list part) :=
  match v_scheme v (pid residue) with
  | None => Er Undefined
  | Some ds =>
      match rl_closest (s_levels ds) Ex with
      | None => Er MarleyErr
      | Some i =>
          match nth_error (s_levels ds) i with
          | None => Er Undefined
          | Some lev =>
              if (check && (if Rlt_dec ex_tolerance (Rabs (Ex - rl_E lev)) then true else false))%bool
              then Er MarleyErr
              else cascade (v_mt v) ds (chg residue) lev residue draws 0 fuel
          end
      end
  end.

(** NucleusDecayer.cc 46-190, process_event. *)
Definition deexcite (v : env) (ev : kevent) (hd : nat -> hdraw) (cd : nat -> R * R * R) (fuel : nat) : res kevent :=
  let Ex := e_Ex ev in
  let residue := e_residue ev in
  if Req_EM_T Ex 0 then Ok ev
  else if Rlt_dec Ex 0 then Er MarleyErr
  else if negb (is_ion (pid residue)) then Ok ev
  else
    do gs <- ion_mass (v_mt v) (pid residue) (chg residue);
    if Rlt_dec ex_tolerance (Rabs (mass residue - (gs + Ex))) then
      if Rle_dec (Rabs (mass residue - gs)) ex_tolerance then Ok ev else Er MarleyErr
    else
      do thr <- unbound_threshold (v_mt v) (pid residue);
      let continuum := if Rlt_dec thr Ex then true
                       else match v_scheme v (pid residue) with None => true | Some _ => false end in
      if continuum then
        do (r, E', cont, es) <- hf_loop v residue Ex (e_twoJ ev) (e_parity ev) hd 0 fuel;
        if cont then Ok (with_residue ev r es)
        else
          do (r', gs') <- finish v r E' false cd fuel;
          Ok (with_residue ev r' (es ++ gs'))
      else
        do (r', gs') <- finish v residue Ex true cd fuel;
        Ok (with_residue ev r' gs').
