(** Relativistic kinematics (src/marley_kinematics.cc, src/Reaction.cc 196-256).

    Numbers are real numbers: rounding of double arithmetic is not modelled here,
    nor are NaN and infinities. Division by zero is therefore excluded by the
    hypotheses of the theorems rather than given a meaning. *)
From Coq Require Import List ZArith Reals.
From Verif Require Import Base.
Import ListNotations.
Local Open Scope R_scope.

(** Particle.hh: PDG code, total energy, 3-momentum, mass and charge. *)
Record part := mkpart { pid : Z; en : R; px : R; py : R; pz : R; mass : R; chg : Z }.

(** marley_utils.cc 301-308. *)
Definition real_sqrt (x : R) : R := if Rlt_dec x 0 then 0 else sqrt x.

(** marley_kinematics.cc 23-35, get_beta2. *)
Definition get_beta2 (bx by_ bz : R) : res R :=
  let b2 := bx ^ 2 + by_ ^ 2 + bz ^ 2 in
  if Req_EM_T b2 1 then Er MarleyErr
  else if Rlt_dec 1 b2 then Er MarleyErr
  else Ok b2.

(** The setters set_total_energy, set_px, set_py, set_pz of Particle.hh together. *)
Definition set_p4 (e x y z : R) (p : part) : part := mkpart (pid p) e x y z (mass p) (chg p).

(** marley_kinematics.cc 62-100, lorentz_boost. *)
Definition boost (bx by_ bz : R) (p : part) : res part :=
  do b2 <- get_beta2 bx by_ bz;
  if Req_EM_T b2 0 then Ok p
  else
    let g := 1 / sqrt (1 - b2) in
    let bp := bx * px p + by_ * py p + bz * pz p in
    let f := (g - 1) * bp / b2 in
    let e := g * (en p - bp) in
    let e := if Rlt_dec e (mass p) then mass p else e in
    let x := (- g * en p + f) * bx + px p in
    let y := (- g * en p + f) * by_ + py p in
    let z := (- g * en p + f) * bz + pz p in
    Ok (set_p4 e x y z p).

(** marley_kinematics.cc 110-183, two_body_decay. The product particles supply code,
    mass and charge. *)
Definition two_body_decay (p0 p1 p2 : part) (ct phi : R) : res (part * part) :=
  let M := mass p0 in
  let m1 := mass p1 in
  let m2 := mass p2 in
  if Rlt_dec M (m1 + m2) then Er MarleyErr
  else
    let e1 := (M ^ 2 - m2 ^ 2 + m1 ^ 2) / (2 * M) in
    let e2 := M - e1 in
    let e1 := if Rlt_dec e1 m1 then m1 else e1 in
    let e2 := if Rlt_dec e2 m2 then m2 else e2 in
    let q := real_sqrt (e1 ^ 2 - m1 ^ 2) in
    let st := real_sqrt (1 - ct ^ 2) in
    let x := q * st * cos phi in
    let y := q * st * sin phi in
    let z := q * ct in
    let f1 := set_p4 e1 x y z p1 in
    let f2 := set_p4 e2 (- x) (- y) (- z) p2 in
    let bx := - px p0 / en p0 in
    let by_ := - py p0 / en p0 in
    let bz := - pz p0 / en p0 in
    do g1 <- boost bx by_ bz f1;
    do g2 <- boost bx by_ bz f2;
    Ok (g1, g2).

(** marley_kinematics.cc 187-230, get_mandelstam_s. *)
Definition mandelstam_s (p1 p2 : part) : res R :=
  if Req_EM_T (en p1) (mass p1) then Ok (mass p1 ^ 2 + mass p2 ^ 2 + 2 * mass p1 * en p2)
  else if Req_EM_T (en p2) (mass p2) then Ok (mass p1 ^ 2 + mass p2 ^ 2 + 2 * mass p2 * en p1)
  else
    let e := en p1 + en p2 in
    let x := px p1 + px p2 in
    let y := py p1 + py p2 in
    let z := pz p1 + pz p2 in
    let m := mass p1 + mass p2 in
    let bx := x / e in
    let by_ := y / e in
    let bz := z / e in
    do b2 <- get_beta2 bx by_ bz;
    let g := 1 / sqrt (1 - b2) in
    let ecm := g * (e - (bx * x + by_ * y + bz * z)) in
    let ecm := if Rlt_dec ecm m then m else ecm in
    Ok (ecm ^ 2).

(** marley_kinematics.cc 234-249, boost_to_cm_frame. *)
Definition boost_to_cm (p1 p2 : part) : res (part * part) :=
  let e := en p1 + en p2 in
  let bx := (px p1 + px p2) / e in
  let by_ := (py p1 + py p2) / e in
  let bz := (pz p1 + pz p2) / e in
  do q1 <- boost bx by_ bz p1;
  do q2 <- boost bx by_ bz p2;
  Ok (q1, q2).

(** marley_kinematics.cc 39-58, rotate_momentum_vector. *)
Definition rotate_momentum (x y z : R) (p : part) : part :=
  let r := sqrt (x ^ 2 + y ^ 2 + z ^ 2) in
  let rp := sqrt (px p ^ 2 + py p ^ 2 + pz p ^ 2) in
  let ratio := rp / r in
  mkpart (pid p) (en p) (x * ratio) (y * ratio) (z * ratio) (mass p) (chg p).

(** What Reaction.hh keeps about the four particles a + b -> c + d: codes, charges
    and masses. [k_md] is the current residue mass, including excitation. *)
Record masses := mkmass { k_ma : R; k_mb : R; k_mc : R; k_md : R }.

(** Reaction.cc 196-216, two_two_scatter: s, Ec, pc and Ed in the centre of mass. *)
Definition two_two_scatter (k : masses) (KEa : R) : R * R * R * R :=
  let Ea := KEa + k_ma k in
  let s := k_ma k * k_ma k + k_mb k * k_mb k + 2 * k_mb k * Ea in
  let rs := sqrt s in
  let Ec := (s + k_mc k * k_mc k - k_md k * k_md k) / (2 * rs) in
  let pc := real_sqrt (Ec ^ 2 - k_mc k * k_mc k) in
  let Ed := Rmax (rs - Ec) (k_md k) in
  (s, Ec, pc, Ed).

(** An event as far as kinematics is concerned: projectile, target, ejectile,
    residue and the other final particles, with the residue's excitation energy,
    doubled spin and parity (Event.hh). *)
Record kevent := mkev {
  e_projectile : part; e_target : part; e_ejectile : part; e_residue : part;
  e_others : list part; e_Ex : R; e_twoJ : Z; e_parity : bool
}.

(** Reaction.cc 218-256, make_event_object. [ids] and [qs] are the codes and charges
    of the four particles. *)
Definition make_event_object (k : masses) (ids qs : Z * Z * Z * Z)
    (KEa pc ct phi Ec Ed Ex : R) (twoJ : Z) (P : bool) : res kevent :=
  let '(ia, ib, ic, id) := ids in
  let '(qa, qb, qc, qd) := qs in
  let st := real_sqrt (1 - ct ^ 2) in
  let x := st * cos phi * pc in
  let y := st * sin phi * pc in
  let z := ct * pc in
  let Ea := KEa + k_ma k in
  let pa := real_sqrt (KEa * (KEa + 2 * k_ma k)) in
  let a := mkpart ia Ea 0 0 pa (k_ma k) qa in
  let b := mkpart ib (k_mb k) 0 0 0 (k_mb k) qb in
  let c := mkpart ic Ec x y z (k_mc k) qc in
  let d := mkpart id Ed (- x) (- y) (- z) (k_md k) qd in
  let bz := pa / (Ea + k_mb k) in
  do c' <- boost 0 0 (- bz) c;
  do d' <- boost 0 0 (- bz) d;
  Ok (mkev a b c' d' [] Ex twoJ P).

(** Event.hh, get_initial_particles and get_final_particles. *)
Definition initial_parts (e : kevent) : list part := [e_projectile e; e_target e].
Definition final_parts (e : kevent) : list part := e_ejectile e :: e_residue e :: e_others e.
