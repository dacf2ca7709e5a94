(** The nuclear optical model: potential, S-matrix elements, transmission coefficients. *)
From Coq Require Import List ZArith Reals Bool.
From Verif Require Import Base Dbl Pdg Mass Strength.
Import ListNotations.
Open Scope R_scope.

(** ** std::complex<double>, over the reals

    Where C++ would give an infinity or NaN because of a division by zero there is no value
    (None); the code computes nothing finite from such a value. *)
Definition cpx : Type := (R * R)%type.
Definition cre (x : R) : cpx := (x, 0).
Definition cadd (x y : cpx) : cpx := (fst x + fst y, snd x + snd y).
Definition csub (x y : cpx) : cpx := (fst x - fst y, snd x - snd y).
Definition cmul (x y : cpx) : cpx := (fst x * fst y - snd x * snd y, fst x * snd y + snd x * fst y).
Definition cscale (a : R) (x : cpx) : cpx := (a * fst x, a * snd x).
Definition cconj (x : cpx) : cpx := (fst x, - snd x).
Definition cnorm (x : cpx) : R := fst x ^ 2 + snd x ^ 2.
Definition cabs (x : cpx) : R := sqrt (cnorm x).
Definition cdiv (x y : cpx) : option cpx :=
  if Req_EM_T (cnorm y) 0 then None else Some (cscale (/ cnorm y) (cmul x (cconj y))).

(** ** Parameters *)

(** KoningDelarocheOpticalModel.hh 111-116: the parameters for one kind of nucleon. *)
Record kdn := mkkdn {
  v1 : R; v2 : R; v3 : R; v4 : R; w1 : R; w2 : R; d1 : R; d2 : R; d3 : R;
  vso1 : R; vso2 : R; wso1 : R; wso2 : R; Ef : R;
  Rv : R; av : R; Rd : R; ad : R; Rso : R; aso : R }.

(** The parts of the object fixed at construction. *)
Record kd := mkkd { k_Z : Z; k_A : Z; k_n : kdn; k_p : kdn; k_Rc : R; k_Vcbar : R; k_step : R }.

(** KoningDelarocheOpticalModel.cc 194-254, the constructor, but for the target's mass, which
    every public function sets again. For A <= 0, where std::pow has no value, the numbers
    here mean nothing. *)
Definition new_kd (Zn A : Z) (step : R) : kd :=
  let N := (A - Zn)%Z in
  let c := Rpower (IZR A) (1 / 3) in
  let rv := (13039 / 10 ^ 4) * c - 4054 / 10 ^ 4 in
  let a_v := 6778 / 10 ^ 4 - 1487 / 10 ^ 7 * IZR A in
  let rd := (13424 / 10 ^ 4) * c - 1585 / 10 ^ 5 * c ^ 2 in
  let rso := (11854 / 10 ^ 4) * c - 647 / 10 ^ 3 in
  let dd2 := 180 / 10 ^ 4 + (3802 / 10 ^ 6) / (1 + exp ((IZR A - 156) / 8)) in
  let ww2 := 7355 / 100 + 795 / 10 ^ 4 * IZR A in
  let so1 := 5922 / 10 ^ 3 + 30 / 10 ^ 4 * IZR A in
  let n := mkkdn (593 / 10 - 21 * IZR (N - Zn) / IZR A - 24 / 10 ^ 3 * IZR A)
                 (7228 / 10 ^ 6 - 148 / 10 ^ 8 * IZR A) (1994 / 10 ^ 8 - 2 / 10 ^ 8 * IZR A) (7 / 10 ^ 9)
                 (12195 / 10 ^ 3 + 167 / 10 ^ 4 * IZR A) ww2 (16 - 16 * IZR (N - Zn) / IZR A) dd2 (115 / 10)
                 so1 (40 / 10 ^ 4) (- 31 / 10) 160 (- 112814 / 10 ^ 4 + 2646 / 10 ^ 5 * IZR A)
                 rv a_v rd (5446 / 10 ^ 4 - 1656 / 10 ^ 7 * IZR A) rso (59 / 100) in
  let p := mkkdn (593 / 10 + 21 * IZR (N - Zn) / IZR A - 24 / 10 ^ 3 * IZR A)
                 (7067 / 10 ^ 6 + 423 / 10 ^ 8 * IZR A) (1729 / 10 ^ 8 + 1136 / 10 ^ 11 * IZR A) (7 / 10 ^ 9)
                 (14667 / 10 ^ 3 + 9629 / 10 ^ 6 * IZR A) ww2 (16 + 16 * IZR (N - Zn) / IZR A) dd2 (115 / 10)
                 so1 (40 / 10 ^ 4) (- 31 / 10) 160 (- 84075 / 10 ^ 4 + 1378 / 10 ^ 5 * IZR A)
                 rv a_v rd (5187 / 10 ^ 4 + 5205 / 10 ^ 7 * IZR A) rso (59 / 100) in
  let rc := (1198 / 10 ^ 3) * c + (697 / 10 ^ 3) / c + 12994 / 10 ^ 3 / c ^ 4 in
  mkkd Zn A n p rc (173 / 100 * IZR Zn / rc) step.

(** KoningDelarocheOpticalModel.hh 146: the default step. *)
Definition default_step : R := 1 / 10.

(** KoningDelarocheOpticalModel.hh 126-130, the temporary storage of a calculation. *)
Record omp := mkomp { o_Rv : R; o_av : R; o_Rd : R; o_ad : R; o_Rso : R; o_aso : R;
  o_Vv : R; o_Wv : R; o_Wd : R; o_Vso : R; o_Wso : R; o_so : R; o_z : Z }.

(** KoningDelarocheOpticalModel.cc 79-192, calculate_om_parameters. [E] is fragment_KE_lab_.
    A fragment code with mass number zero, for which E_eff is infinite, has parameters 0 here
    as there. *)
Definition om_parameters (k : kd) (E : R) (pdg two_j l two_s : Z) : omp :=
  let z := particle_Z pdg in
  let a := particle_A pdg in
  let n := (a - z)%Z in
  let spin_zero := Z.eqb two_s 0 in
  let so := if spin_zero then 0 else (1 / 4) * IZR ((two_j - two_s) * (two_j + two_s + 2)) - IZR (l * (l + 1)) in
  let E_eff := E / IZR a in
  let part (on : bool) (x : R) := if on then x else 0 in
  let on_n := Z.ltb 0 n in
  let on_p := Z.ltb 0 z in
  let kn := k_n k in
  let kp := k_p k in
  let en := E_eff - Ef kn in
  let ep := E_eff - Ef kp in
  let Vv := part on_n (IZR n * v1 kn * (1 - v2 kn * en + v3 kn * en ^ 2 - v4 kn * en ^ 3))
          + part on_p (IZR z * v1 kp * (1 - v2 kp * ep + v3 kp * ep ^ 2 - v4 kp * ep ^ 3
                         + k_Vcbar k * (v2 kp - 2 * v3 kp * ep + 3 * v4 kp * ep ^ 2))) in
  let Wv := part on_n (IZR n * w1 kn * en ^ 2 / (en ^ 2 + w2 kn ^ 2))
          + part on_p (IZR z * w1 kp * ep ^ 2 / (ep ^ 2 + w2 kp ^ 2)) in
  let Wd := part on_n (IZR n * d1 kn * en ^ 2 * exp (- d2 kn * en) / (en ^ 2 + d3 kn ^ 2))
          + part on_p (IZR z * d1 kp * ep ^ 2 * exp (- d2 kp * ep) / (ep ^ 2 + d3 kp ^ 2)) in
  let sum (g : kdn -> R) := part on_n (IZR n * g kn) + part on_p (IZR z * g kp) in
  let mean (g : kdn -> R) := if Z.ltb 1 a then sum g / IZR a else sum g in
  let es_n := E - Ef kn in
  let es_p := E - Ef kp in
  let Vso := part (on_n && negb spin_zero) (vso1 kn * exp (- vso2 kn * es_n)) + part (on_p && negb spin_zero) (vso1 kp * exp (- vso2 kp * es_p)) in
  let Wso := part (on_n && negb spin_zero) (wso1 kn * es_n ^ 2 / (es_n ^ 2 + wso2 kn ^ 2))
           + part (on_p && negb spin_zero) (wso1 kp * es_p ^ 2 / (es_p ^ 2 + wso2 kp ^ 2)) in
  let factor := (if Z.odd z && Z.odd n then 2 else if xorb (Z.odd z) (Z.odd n) then 1 else 0) / IZR (2 * a) in
  let fold (x : R) := if Z.ltb 1 a && negb spin_zero then x * factor else x in
  mkomp (mean Rv) (mean av) (mean Rd) (mean ad) (mean Rso) (mean aso) Vv Wv Wd (fold Vso) (fold Wso) so z.

(** ** The potential *)

(** KoningDelarocheOpticalModel.cc 471-475, f. *)
Definition woods_saxon (r c a : R) : R := / (1 + exp ((r - c) / a)).

(** KoningDelarocheOpticalModel.cc 484-495, dfdr. *)
Definition dwoods_saxon (r c a : R) : R :=
  let exponent := (r - c) / a in
  if Rlt_dec 100 (Rabs exponent) then 0
  else let temp := exp exponent in - temp / (a * (1 + temp) ^ 2).

(** KoningDelarocheOpticalModel.cc 461-468, Vc. *)
Definition coulomb (r c : R) (Q q : Z) : R :=
  if (Z.eqb Q 0 || Z.eqb q 0)%bool then 0
  else if Rlt_dec r c then IZR (Q * q) * (hbar_c * fine_structure) * (3 - (r / c) ^ 2) / (2 * c)
  else IZR (Q * q) * (hbar_c * fine_structure) / r.

(** KoningDelarocheOpticalModel.hh 120-124. *)
Definition pion_wavelength2 : R := (hbar_c / (13957018 / 10 ^ 5)) * (hbar_c / (13957018 / 10 ^ 5)).

(** KoningDelarocheOpticalModel.cc 50-74, omp_minus_Vc. *)
Definition omp_minus_Vc (o : omp) (r : R) : cpx :=
  let f_v := woods_saxon r (o_Rv o) (o_av o) in
  let dfdr_d := dwoods_saxon r (o_Rd o) (o_ad o) in
  let Wd := - 4 * o_Wd o * o_ad o * dfdr_d in
  let '(Vso, Wso) := if Req_EM_T (o_so o) 0 then (0, 0)
    else let factor_so := pion_wavelength2 * dwoods_saxon r (o_Rso o) (o_aso o) * o_so o / r in
         (o_Vso o * factor_so, o_Wso o * factor_so) in
  (- (o_Vv o * f_v) + Vso, - (o_Wv o * f_v) - Wd + Wso).

(** KoningDelarocheOpticalModel.cc 478-481, omp. *)
Definition omp_at (k : kd) (o : omp) (r : R) : cpx :=
  cadd (omp_minus_Vc o r) (cre (coulomb r (k_Rc k) (o_z o) (k_Z k))).

(** ** Kinematics *)

(** KoningDelarocheOpticalModel.hh 64-75: the members set by each calculation. *)
Record kst := mkkst { s_M : R; s_K : R; s_m : R; s_T : R; s_p2 : R; s_om : omp }.

(** KoningDelarocheOpticalModel.cc 518-524, update_target_mass; a mass that cannot be found
    leaves the object as it was. *)
Definition target_mass (t : mtab) (k : kd) (q : Z) : res R :=
  do m <- atomic_mass_ZA t (k_Z k) (k_A k) true;
  do me <- particle_mass t 11; Ok (m - IZR q * me).

(** KoningDelarocheOpticalModel.cc 497-516, calculate_kinematic_variables. *)
Definition lab_energy (M m K : R) : R := K * (2 * (m + M) + K) / (2 * M).
Definition cm_momentum2 (M m T : R) : R := M ^ 2 * T * (2 * m + T) / ((m + M) ^ 2 + 2 * M * T).

(** marley_utils.cc 301-308, real_sqrt. *)
Definition real_sqrt (x : R) : R := if Rlt_dec x 0 then 0 else sqrt x.

(** KoningDelarocheOpticalModel.cc 39-41 and 270-272: the total kinetic energy in the
    centre-of-mass frame for a given energy of the fragment in the laboratory. *)
Definition cm_energy (M m T : R) : R := Rmax 0 (real_sqrt ((M + m) ^ 2 + 2 * M * T) - m - M).

(** ** The radial wave function *)

(** KoningDelarocheOpticalModel.cc 442-457, a, both versions. *)
Definition radial (K p2 : R) (l : Z) (r : R) (U : cpx) : cpx :=
  cadd (cre (IZR (- l * (l + 1)) / r ^ 2))
       (cscale (p2 / (hbar_c * hbar_c)) (csub (cre 1) (cscale (/ K) U))).

(** KoningDelarocheOpticalModel.cc 372-374 and 397-399, a step of Numerov's method. *)
Definition numerov (h : R) (a2 a1 a0 : cpx) (u2 u1 : option cpx) : option cpx :=
  match u2, u1 with
  | Some u2, Some u1 =>
      cdiv (csub (cmul (csub (cre 2) (cscale (10 * (h ^ 2 / 12)) a1)) u1)
                 (cmul (cadd (cre 1) (cscale (h ^ 2 / 12) a2)) u2))
           (cadd (cre 1) (cscale (h ^ 2 / 12) a0))
  | _, _ => None
  end.

(** The variables of the loops: r, a_n_minus_one, a_n, u_n_minus_one, u_n. *)
Record nst := mknst { n_r : R; n_a1 : cpx; n_a0 : cpx; n_u1 : option cpx; n_u0 : option cpx }.

Definition nstep (h K p2 : R) (l : Z) (pot : R -> cpx) (s : nst) : nst :=
  let r := n_r s + h in
  let a0 := radial K p2 l r (pot r) in
  mknst r (n_a0 s) a0 (n_u0 s) (numerov h (n_a1 s) (n_a0 s) a0 (n_u1 s) (n_u0 s)).

(** KoningDelarocheOpticalModel.cc 359-376, the first do-while loop; the threshold is that of
    KoningDelarocheOpticalModel.hh 134. *)
Fixpoint loop_match (fuel : nat) (h K p2 : R) (l : Z) (pot nuclear : R -> cpx) (s : nst) : res nst :=
  match fuel with
  | O => Er NoFuel
  | S f => let s' := nstep h K p2 l pot s in
           if Rlt_dec (1 / 1000) (cabs (nuclear (n_r s'))) then loop_match f h K p2 l pot nuclear s' else Ok s'
  end.

(** KoningDelarocheOpticalModel.cc 386-401, the second do-while loop. *)
Fixpoint loop_beyond (fuel : nat) (h K p2 : R) (l : Z) (pot : R -> cpx) (r_max : R) (s : nst) : res nst :=
  match fuel with
  | O => Er NoFuel
  | S f => let s' := nstep h K p2 l pot s in
           if Rlt_dec (n_r s') r_max then loop_beyond f h K p2 l pot r_max s' else Ok s'
  end.

(** KoningDelarocheOpticalModel.cc 406-417: the Sommerfeld parameter. *)
Definition sommerfeld (Q q : Z) (m T : R) : R :=
  let beta := real_sqrt (T ^ 2 + 2 * T * m) / (T + m) in
  let beta := if Rle_dec beta 0 then 1 / 10 ^ 8 else beta in
  IZR (Q * q) * fine_structure / beta.

(** KoningDelarocheOpticalModel.cc 434-436: the S-matrix element from the wave function and
    the Coulomb functions at two radii. *)
Definition s_ratio (u1 u2 h1 h2 : option cpx) : option cpx :=
  match u1, u2, h1, h2 with
  | Some u1, Some u2, Some h1, Some h2 =>
      cdiv (csub (cmul u1 (cconj h2)) (cmul u2 (cconj h1))) (csub (cmul u1 h2) (cmul u2 h1))
  | _, _, _, _ => None
  end.

(** KoningDelarocheOpticalModel.cc 324-438, s_matrix_element, for a wave function that starts
    from [start]. [H l eta rho] is coulomb_H_plus (coulomb_wavefunctions.cc 24-53), a function of the
    GNU Scientific Library, with None for a value that is not finite. *)
Definition s_matrix_from (H : Z -> R -> R -> option cpx) (fuel : nat) (k : kd) (s : kst) (l : Z) (start : cpx) : res (option cpx) :=
  let h := k_step k in
  let pot := omp_at k (s_om s) in
  let K := s_K s in
  let p2 := s_p2 s in
  do x <- loop_match fuel h K p2 l pot (omp_minus_Vc (s_om s)) (mknst h (0, 0) (radial K p2 l h (pot h)) (Some (0, 0)) (Some start));
  do y <- loop_beyond fuel h K p2 l pot (12 / 10 * n_r x) x;
  let eta := sommerfeld (k_Z k) (o_z (s_om s)) (s_m s) (s_T s) in
  let kk := real_sqrt p2 / hbar_c in
  Ok (s_ratio (n_u0 x) (n_u0 y) (H l eta (kk * n_r x)) (H l eta (kk * n_r y))).

Definition s_matrix (H : Z -> R -> R -> option cpx) (fuel : nat) (k : kd) (s : kst) (l : Z) : res (option cpx) :=
  s_matrix_from H fuel k s l (cre (powerRZ (k_step k) (l + 1))).

(** ** The public functions

    Each returns the new contents of the object along with its result. An exception leaves
    the object as it was here; in the code it may have changed the target's mass, which
    no later result depends on. *)

(** Masses, kinematics and parameters for a calculation at total energy [K]. *)
Definition prepare (t : mtab) (k : kd) (K : R) (pdg two_j l two_s q : Z) : res kst :=
  do M <- target_mass t k q;
  do m <- particle_mass t pdg;
  let T := lab_energy M m K in
  Ok (mkkst M K m T (cm_momentum2 M m T) (om_parameters k T pdg two_j l two_s)).

(** KoningDelarocheOpticalModel.cc 24-46, optical_model_potential. *)
Definition om_potential (t : mtab) (k : kd) (s : kst) (r T : R) (pdg two_j l two_s q : Z) : kst * res cpx :=
  match (do M <- target_mass t k q; do m <- particle_mass t pdg; prepare t k (cm_energy M m T) pdg two_j l two_s q) with
  | Er e => (s, Er e)
  | Ok s' => (s', Ok (omp_at k (s_om s') r))
  end.

(** KoningDelarocheOpticalModel.cc 292-322, transmission_coefficient. *)
Definition clamp_T (sm : option cpx) : R := match sm with None => 0 | Some x => 1 - Rmin 1 (Rmax 0 (cnorm x)) end.

Definition om_T (H : Z -> R -> R -> option cpx) (fuel : nat) (t : mtab) (k : kd) (s : kst) (K : R) (pdg two_j l two_s q : Z) : kst * res R :=
  if Rle_dec K 0 then (s, Ok 0)
  else match prepare t k K pdg two_j l two_s q with
       | Er e => (s, Er e)
       | Ok s' => (s', do sm <- s_matrix H fuel k s' l; Ok (clamp_T sm))
       end.

(** KoningDelarocheOpticalModel.cc 256-290, total_cross_section: the sum over 2j for one l,
    and over l. None: not finite. What the object keeps of the potential's parameters is not
    represented. *)
Definition xs_term (H : Z -> R -> R -> option cpx) (fuel : nat) (k : kd) (s : kst) (pdg l two_s two_j : Z) : res (option R) :=
  let s' := mkkst (s_M s) (s_K s) (s_m s) (s_T s) (s_p2 s) (om_parameters k (s_T s) pdg two_j l two_s) in
  do sm <- s_matrix H fuel k s' l;
  Ok (match sm with None => None | Some x => Some (IZR (two_j + 1) * (1 - fst x)) end).

Definition oadd (x y : option R) : option R := match x, y with Some x, Some y => Some (x + y) | _, _ => None end.

Fixpoint xs_loop_j (n : nat) (H : Z -> R -> R -> option cpx) (fuel : nat) (k : kd) (s : kst) (pdg l two_s two_j : Z) (sum : option R) : res (option R) :=
  match n with
  | O => Ok sum
  | S n => do x <- xs_term H fuel k s pdg l two_s two_j; xs_loop_j n H fuel k s pdg l two_s (two_j + 2) (oadd sum x)
  end.

Fixpoint xs_loop_l (n : nat) (H : Z -> R -> R -> option cpx) (fuel : nat) (k : kd) (s : kst) (pdg l two_s : Z) (sum : option R) : res (option R) :=
  match n with
  | O => Ok sum
  | S n =>
      let lo := Z.abs (2 * l - two_s) in
      let hi := (2 * l + two_s)%Z in
      do x <- xs_loop_j (Z.to_nat ((hi - lo) / 2 + 1)) H fuel k s pdg l two_s lo sum;
      xs_loop_l n H fuel k s pdg (l + 1) two_s x
  end.

Definition om_xs (H : Z -> R -> R -> option cpx) (fuel : nat) (t : mtab) (k : kd) (s : kst) (T : R) (pdg two_s lmax q : Z) : kst * res (option R) :=
  match (do M <- target_mass t k q; do m <- particle_mass t pdg; prepare t k (cm_energy M m T) pdg two_s 0 two_s q) with
  | Er e => (s, Er e)
  | Ok s' => (s', do sum <- xs_loop_l (Z.to_nat (lmax + 1)) H fuel k s' pdg 0 two_s (Some 0);
                  Ok (match sum with None => None | Some x => Some (2 * PI * x / (IZR (two_s + 1) * s_p2 s')) end))
  end.
