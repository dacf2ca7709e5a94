(** Rotations and the projectile direction (src/RotationMatrix.cc,
    src/ProjectileDirectionRotator.cc, include/marley/ProjectileDirectionRotator.hh).
    Real numbers stand for doubles. *)
From Coq Require Import List ZArith Reals.
From Verif Require Import Base Kin.
Import ListNotations.
Local Open Scope R_scope.

(** std::array<double, 3>. *)
Record vec := mkv { vx : R; vy : R; vz : R }.

(** RotationMatrix.hh: three rows. *)
Record mat := mkmat { row0 : vec; row1 : vec; row2 : vec }.

(** RotationMatrix.cc 29-52: the helpers. *)
Definition cross (a b : vec) : vec :=
  mkv (vy a * vz b - vz a * vy b) (vz a * vx b - vx a * vz b) (vx a * vy b - vy a * vx b).
Definition dot (a b : vec) : R := vx a * vx b + vy a * vy b + vz a * vz b.
Definition sub (a b : vec) : vec := mkv (vx a - vx b) (vy a - vy b) (vz a - vz b).

Definition vnull : vec := mkv 0 0 0.

(** Comparison of arrays with ==. *)
Definition vec_eq_dec (a b : vec) : {a = b} + {a <> b}.
Proof.
  destruct (Req_EM_T (vx a) (vx b)), (Req_EM_T (vy a) (vy b)), (Req_EM_T (vz a) (vz b));
    [left; destruct a as [a0 a1 a2], b as [b0 b1 b2]; cbn in *; congruence|right; congruence..].
Defined.

(** RotationMatrix.cc 56-58: the default constructor. *)
Definition identity : mat := mkmat (mkv 1 0 0) (mkv 0 1 0) (mkv 0 0 1).

(** RotationMatrix.cc 61-73, normalize. *)
Definition normalize (v : vec) : res vec :=
  let n := sqrt (vx v ^ 2 + vy v ^ 2 + vz v ^ 2) in
  if Rle_dec n 0 then Er MarleyErr
  else let f := 1 / n in Ok (mkv (f * vx v) (f * vy v) (f * vz v)).

(** RotationMatrix.cc 76-89, rotate_copy and rotate_inplace. *)
Definition apply_mat (m : mat) (v : vec) : vec := mkv (dot (row0 m) v) (dot (row1 m) v) (dot (row2 m) v).

(** RotationMatrix.cc 92-103, rotate_particle_inplace. *)
Definition momentum (p : part) : vec := mkv (px p) (py p) (pz p).
Definition rotate_part (m : mat) (p : part) : part :=
  let r := apply_mat m (momentum p) in
  mkpart (pid p) (en p) (vx r) (vy r) (vz r) (mass p) (chg p).

(** RotationMatrix.cc 138-165: the axis most nearly orthogonal to a vector. *)
Definition far_axis (from : vec) : vec :=
  let x0 := Rabs (vx from) in
  let x1 := Rabs (vy from) in
  let x2 := Rabs (vz from) in
  if Rlt_dec x0 x1 then
    if Rlt_dec x0 x2 then mkv 1 0 0 else mkv 0 0 1
  else
    if Rlt_dec x1 x2 then mkv 0 1 0 else mkv 0 0 1.

(** RotationMatrix.cc 131-185: nearly parallel vectors. *)
Definition reflect2 (from to : vec) : mat :=
  let x := far_axis from in
  let u := sub x from in
  let v := sub x to in
  let c1 := 2 / dot u u in
  let c2 := 2 / dot v v in
  let c3 := c1 * c2 * dot u v in
  let entry (f g : vec -> R) := - c1 * f u * g u - c2 * f v * g v + c3 * f v * g u in
  mkmat (mkv (entry vx vx + 1) (entry vx vy) (entry vx vz))
        (mkv (entry vy vx) (entry vy vy + 1) (entry vy vz))
        (mkv (entry vz vx) (entry vz vy) (entry vz vz + 1)).

(** RotationMatrix.cc 186-212: the common case. *)
Definition turn (from to : vec) (e : R) : mat :=
  let v := cross from to in
  let h := 1 / (1 + e) in
  let hvx := h * vx v in
  let hvz := h * vz v in
  let hvxy := hvx * vy v in
  let hvxz := hvx * vz v in
  let hvyz := hvz * vy v in
  mkmat (mkv (e + hvx * vx v) (hvxy - vz v) (hvxz + vy v))
        (mkv (hvxy + vz v) (e + h * vy v * vy v) (hvyz - vx v))
        (mkv (hvxz - vy v) (hvyz + vx v) (e + hvz * vz v)).

(** RotationMatrix.cc 111-213: the constructor from two directions. *)
Definition rotation_matrix (from_vec to_vec : vec) : res mat :=
  if vec_eq_dec from_vec vnull then Er MarleyErr
  else if vec_eq_dec to_vec vnull then Er MarleyErr
  else
    do from <- normalize from_vec;
    do to <- normalize to_vec;
    let e := dot from to in
    if Rlt_dec (1 - 1 / 1000000) (Rabs e) then Ok (reflect2 from to) else Ok (turn from to e).

(** ** The event processor *)

(** ProjectileDirectionRotator.hh: the configured direction, the last unrotated
    projectile direction, the cached matrix, and the isotropic flag. *)
Record rotator := mkrot { o_dir : vec; o_last : vec; o_mat : mat; o_random : bool }.

Definition zaxis : vec := mkv 0 0 1.

(** ProjectileDirectionRotator.cc 23-32, constructor; the default argument is z. *)
Definition new_rotator (dir : vec) : res rotator :=
  if vec_eq_dec dir vnull then Er MarleyErr
  else do d <- normalize dir; Ok (mkrot d zaxis identity false).

(** ProjectileDirectionRotator.hh 48-51, set_projectile_direction. *)
Definition set_direction (dir : vec) (o : rotator) : res rotator :=
  do d <- normalize dir; Ok (mkrot d d (o_mat o) (o_random o)).

(** ProjectileDirectionRotator.cc 105-109. *)
Definition set_random (b : bool) (o : rotator) : rotator := mkrot (o_dir o) (o_last o) (o_mat o) b.

(** ProjectileDirectionRotator.cc 85-103, sample_isotropic_direction, from the two
    numbers drawn. *)
Definition isotropic (ct phi : R) : vec :=
  let st := real_sqrt (1 - ct ^ 2) in mkv (st * cos phi) (st * sin phi) ct.

(** ProjectileDirectionRotator.cc 71-83, rotate_event. *)
Definition rotate_event (m : mat) (e : kevent) : kevent :=
  mkev (rotate_part m (e_projectile e)) (rotate_part m (e_target e))
       (rotate_part m (e_ejectile e)) (rotate_part m (e_residue e))
       (map (rotate_part m) (e_others e)) (e_Ex e) (e_twoJ e) (e_parity e).

(** Particle.cc, momentum_magnitude. *)
Definition momentum_magnitude (p : part) : R := sqrt (px p ^ 2 + py p ^ 2 + pz p ^ 2).

(** ProjectileDirectionRotator.cc 34-69, process_event. [ct] and [phi] are what the
    generator would draw for a random direction. *)
Definition process_event (o : rotator) (ct phi : R) (e : kevent) : res (rotator * kevent) :=
  let p := e_projectile e in
  let pm := momentum_magnitude p in
  if Rle_dec pm 0 then Ok (o, e)
  else
    let pdir := mkv (px p / pm) (py p / pm) (pz p / pm) in
    do o <- (if o_random o then set_direction (isotropic ct phi) o else Ok o);
    if vec_eq_dec pdir (o_dir o) then Ok (o, e)
    else
      do o <- (if vec_eq_dec pdir (o_last o) then Ok o
               else do m <- rotation_matrix pdir (o_dir o); Ok (mkrot (o_dir o) pdir m (o_random o)));
      Ok (o, rotate_event (o_mat o) e).

(** A history of uses of a rotator; a call that throws leaves it as it was. *)
Inductive rot_op :=
| SetDir (d : vec)
| SetRandom (b : bool)
| Process (ct phi : R) (e : kevent).

Definition rot_step (o : rotator) (op : rot_op) : rotator :=
  match op with
  | SetDir d => match set_direction d o with Ok o' => o' | Er _ => o end
  | SetRandom b => set_random b o
  | Process ct phi e => match process_event o ct phi e with Ok (o', _) => o' | Er _ => o end
  end.

Definition rot_run (o : rotator) (ops : list rot_op) : rotator := fold_left rot_step ops o.
