(** Vocabulary for statements about rotations. *)
From Coq Require Import List ZArith Reals.
From Verif Require Import Base Kin Rot.
Import ListNotations.
Local Open Scope R_scope.

(** Columns, determinant, proper rotations. *)
Definition col0 (m : mat) := mkv (vx (row0 m)) (vx (row1 m)) (vx (row2 m)).
Definition col1 (m : mat) := mkv (vy (row0 m)) (vy (row1 m)) (vy (row2 m)).
Definition col2 (m : mat) := mkv (vz (row0 m)) (vz (row1 m)) (vz (row2 m)).

Definition det (m : mat) : R := dot (row0 m) (cross (row1 m) (row2 m)).

Definition proper (m : mat) : Prop :=
  dot (col0 m) (col0 m) = 1 /\ dot (col1 m) (col1 m) = 1 /\ dot (col2 m) (col2 m) = 1 /\
  dot (col0 m) (col1 m) = 0 /\ dot (col0 m) (col2 m) = 0 /\ dot (col1 m) (col2 m) = 0 /\
  det m = 1.

(** Length, and the unit vector of a direction. *)
Definition norm (v : vec) : R := sqrt (dot v v).
Definition unit_of (v : vec) : vec := mkv (vx v / norm v) (vy v / norm v) (vz v / norm v).

Definition scale (k : R) (v : vec) : vec := mkv (k * vx v) (k * vy v) (k * vz v).

(** The direction asked for by a history of calls without random directions: the
    last one set that was not the null vector, z by default. *)
Definition asked (ops : list rot_op) : vec :=
  fold_left (fun d op => match op with
    | SetDir v => if vec_eq_dec v vnull then d else unit_of v
    | _ => d end) ops zaxis.
Definition fixed_direction (op : rot_op) : Prop := match op with SetRandom b => b = false | _ => True end.

(** Draws the generator can make for a random direction. *)
Definition good_draw (op : rot_op) : Prop := match op with Process ct _ _ => -1 <= ct <= 1 | _ => True end.
