(** InterpolationGrid.hh, with both numeric types double. Grid points are real numbers;
    results may be infinite or NaN. *)
From Coq Require Import List Reals Bool Arith.
From Verif Require Import Base XReal.
Import ListNotations.
Open Scope R_scope.

(** InterpolationGrid.hh 63-65 and 96-97. *)
Inductive imethod := IConstant | ILinLin | ILinLog | ILogLin | ILogLog.
Inductive emethod := EZero | EEndpoint | EContinue | EThrow.

(** InterpolationGrid.hh 210-220. *)
Record grid := mkgrid { g_im : imethod; g_em : emethod; g_pts : list (R * R) }.

(** libstdc++'s std::__lower_bound and std::__upper_bound: halve the range [first, first +
    len), moving right while the test holds at the middle. *)
Fixpoint partition_point (test : nat -> bool) (first len fuel : nat) : nat :=
  match fuel with
  | O => first
  | S fuel' =>
      match len with
      | O => first
      | _ => let half := Nat.div2 len in
             let mid := (first + half)%nat in
             if test mid then partition_point test (S mid) (len - half - 1) fuel'
             else partition_point test first half fuel'
      end
  end.

Definition x_at (pts : list (R * R)) (i : nat) : R := fst (nth i pts (0, 0)).
Definition y_at (pts : list (R * R)) (i : nat) : R := snd (nth i pts (0, 0)).

(** InterpolationGrid.hh 168-175, as an index: the size of the grid for end. *)
Definition grid_lower_bound (pts : list (R * R)) (x : R) : nat :=
  partition_point (fun i => if Rlt_dec (x_at pts i) x then true else false) 0 (length pts) (length pts).

(** InterpolationGrid.hh 179-186. *)
Definition grid_upper_bound (pts : list (R * R)) (x : R) : nat :=
  partition_point (fun i => if Rlt_dec x (x_at pts i) then false else true) 0 (length pts) (length pts).

(** InterpolationGrid.hh 99-106. *)
Definition empty_grid (im : imethod) (em : emethod) : grid := mkgrid im em [].

(** InterpolationGrid.hh 119-138: the vectors must have equal sizes. old_x stays minus
    infinity throughout, so no finite abscissa is refused. *)
Definition make_grid (xs ys : list R) (im : imethod) (em : emethod) : res grid :=
  if negb (Nat.eqb (length xs) (length ys)) then Er MarleyErr else Ok (mkgrid im em (combine xs ys)).

(** InterpolationGrid.hh 226-268, check_grid and find_bin_limits: whether x is outside and
    the indices of the two points to use. *)
Definition find_bin_limits (g : grid) (x : R) : res (bool * nat * nat) :=
  let pts := g_pts g in
  if Nat.ltb (length pts) 2 then Er MarleyErr
  else
    let p := grid_lower_bound pts x in
    if Nat.eqb p 0 then Ok (if Req_EM_T (x_at pts 0) x then false else true, 0%nat, 1%nat)
    else if Nat.eqb p (length pts) then Ok (true, (length pts - 2)%nat, (length pts - 1)%nat)
    else Ok (false, (p - 1)%nat, p).

(** InterpolationGrid.hh 323-330. *)
Definition uses_log_x (im : imethod) : bool := match im with ILinLog | ILogLog => true | _ => false end.
Definition uses_log_y (im : imethod) : bool := match im with ILogLin | ILogLog => true | _ => false end.

(** InterpolationGrid.hh 308-343: the value from the two points (x1, y1), (x2, y2). *)
Definition bin_value (im : imethod) (outside : bool) (x1 y1 x2 y2 x : R) : xr :=
  match im with
  | IConstant => if outside then (if Rlt_dec x x1 then Fin y1 else Fin y2) else Fin y1
  | _ =>
      let lx v := if uses_log_x im then xlog (Fin v) else Fin v in
      let ly v := if uses_log_y im then xlog (Fin v) else Fin v in
      let r := xadd (ly y1) (xmul (xdiv (xsub (ly y2) (ly y1)) (xsub (lx x2) (lx x1))) (xsub (lx x) (lx x1))) in
      if uses_log_y im then xexp r else r
  end.

(** InterpolationGrid.hh 271-344. *)
Definition interpolate (g : grid) (x : R) : res xr :=
  do (o, lo, up) <- find_bin_limits g x;
  let pts := g_pts g in
  let inside := Ok (bin_value (g_im g) o (x_at pts lo) (y_at pts lo) (x_at pts up) (y_at pts up) x) in
  if o then
    match g_em g with
    | EZero => Ok (Fin 0)
    | EEndpoint => Ok (Fin (if Rlt_dec x (x_at pts lo) then y_at pts lo else y_at pts up))
    | EThrow => Er MarleyErr
    | EContinue => inside
    end
  else inside.

(** InterpolationGrid.hh 346-359. *)
Definition grid_insert (g : grid) (x y : R) : grid :=
  let p := grid_upper_bound (g_pts g) x in
  mkgrid (g_im g) (g_em g) (firstn p (g_pts g) ++ (x, y) :: skipn p (g_pts g)).

(** InterpolationGrid.hh 150, 189 and 192 (front and back of an empty vector are
    undefined). *)
Definition grid_clear (g : grid) : grid := mkgrid (g_im g) (g_em g) [].
Definition grid_front (g : grid) : res (R * R) := match g_pts g with p :: _ => Ok p | [] => Er Undefined end.
Definition grid_back (g : grid) : res (R * R) := match rev (g_pts g) with p :: _ => Ok p | [] => Er Undefined end.
