(** ChebyshevInterpolatingFunction.hh and .cc: interpolation of a function at Chebyshev
    points, over the real numbers (no rounding). *)
From Coq Require Import List Reals Bool Arith ZArith.
From Verif Require Import Base Sample.
Import ListNotations.
Open Scope R_scope.

(** ChebyshevInterpolatingFunction.hh 87-106, without the work arrays of the transform. *)
Record cheb := mkcheb { ch_N : nat; ch_lo : R; ch_hi : R; ch_Xs : list R; ch_Fs : list R; ch_coeffs : list R; ch_integral : R }.

(** ChebyshevInterpolatingFunction.hh 116-122. *)
Definition chebyshev_point (N : nat) (lo hi : R) (j : nat) : R :=
  let x := cos (PI * INR j / INR N) in
  ((hi - lo) * x + (hi + lo)) / 2.

(** fftpack4.cc 752-834, cost, as documented by FFTPACK: the discrete cosine transform of
    a list of two or more numbers. The fast algorithm itself is in Fft.v, and C74_list
    (FftThms.v) proves that it gives these values. *)
Definition cost (x : list R) : list R :=
  let n := length x in
  map (fun i => nth 0 x 0 + (-1) ^ i * nth (n - 1) x 0 +
                sumR (map (fun k => 2 * nth k x 0 * cos (INR k * INR i * PI / INR (n - 1))) (seq 1 (n - 2))))
      (seq 0 n).

(** fftpack4.cc 4190-4225: the loop of rffti1 that writes the factors of n, trying 4, 2, 3,
    5, 7, 9, ... in turn; here the number of factors found. *)
Fixpoint factors (j ntry nl nf : nat) (fuel : nat) : res nat :=
  match fuel with
  | O => Er NoFuel
  | S fuel' =>
      if Nat.eqb (nl mod ntry) 0 then
        let nq := (nl / ntry)%nat in
        if Nat.eqb nq 1 then Ok (S nf) else factors j ntry nq (S nf) fuel'
      else factors (S j) (match S j with 2 => 2 | 3 => 3 | 4 => 5 | _ => ntry + 2 end) nl nf fuel'
  end.

(** ChebyshevInterpolatingFunction.cc 71-75 and fftpack4.cc 836-870, 4159-4235: whether the
    array of factors, of half the number of points, has room for what rffti1 writes (n, the
    number of factors, the factors). For two or three points the transform writes nothing. *)
Definition room_for_factors (N : nat) : res bool :=
  if Nat.leb (S N) 3 then Ok true
  else do nf <- factors 1 4 N 0 (2 * N + 8); Ok (Nat.leb (nf + 2) (S N / 2)).

(** ChebyshevInterpolatingFunction.cc 59-76: one turn of the loop: points, values and
    transform for N + 1 points. *)
Definition grid_pass (f : R -> R) (lo hi : R) (N : nat) : res (list R * list R * list R) :=
  let Xs := map (chebyshev_point N lo hi) (seq 0 (S N)) in
  let Fs := map f Xs in
  do room <- room_for_factors N;
  if room then Ok (Xs, Fs, cost Fs) else Er Undefined.

(** ChebyshevInterpolatingFunction.cc 31. *)
Definition epsilon : R := / 2 ^ 52.

(** ChebyshevInterpolatingFunction.cc 77-94: the last two coefficients are negligible. *)
Definition settled (cs : list R) : bool :=
  let biggest := fold_right (fun c m => Rmax (Rabs c) m) 0 cs in
  let limit := 2 * biggest * epsilon in
  (if Rlt_dec (Rabs (nth (length cs - 1) cs 0)) limit then true else false) &&
  (if Rlt_dec (Rabs (nth (length cs - 2) cs 0)) limit then true else false).

(** ChebyshevInterpolatingFunction.cc 50-99 (N_MAX_ is 65536): the loop over grid sizes. *)
Fixpoint find_size (f : R -> R) (lo hi : R) (ok : bool) (N : nat) (fuel : nat) : res (nat * list R * list R * list R) :=
  match fuel with
  | O => Er NoFuel
  | S fuel' =>
      let N := if ok then N else (2 * N)%nat in
      do (Xs, Fs, cs) <- grid_pass f lo hi N;
      if (ok || settled cs || (65536 <=? Z.of_nat N)%Z)%bool then Ok (N, Xs, Fs, cs)
      else find_size f lo hi false N fuel'
  end.

(** ChebyshevInterpolatingFunction.cc 104-118, compute_integral. *)
Definition compute_integral (N : nat) (cs : list R) (lo hi : R) : R :=
  sumR (map (fun k => let term := nth k cs 0 * 2 / (1 - INR k ^ 2) in
                      if (Nat.eqb k 0 || Nat.eqb k N)%bool then term / 2 else term)
            (filter Nat.even (seq 0 (S N)))) * ((hi - lo) / 2).

(** ChebyshevInterpolatingFunction.cc 34-102, the constructor. *)
Definition build (f : R -> R) (lo hi : R) (N : nat) : res cheb :=
  do (N', Xs, Fs, cs) <- (if Nat.eqb N 0 then find_size f lo hi false 1 17 else find_size f lo hi true N 1);
  let cs' := map (fun d => d / INR N') cs in
  Ok (mkcheb N' lo hi Xs Fs cs' (compute_integral N' cs' lo hi)).

(** ChebyshevInterpolatingFunction.hh 40-60, the loop of evaluate. The lists have N + 1
    members, so that at() does not throw (C66_sizes). *)
Fixpoint bary (g : cheb) (x : R) (j : nat) (w numer denom : R) (left : nat) : R :=
  match left with
  | O => numer / denom
  | S left' =>
      let w := - w in
      let xj := nth j (ch_Xs g) 0 in
      let fj := nth j (ch_Fs g) 0 in
      if Req_EM_T xj x then fj
      else
        let temp := w / (x - xj) in
        let temp := if (Nat.eqb j 0 || Nat.eqb j (ch_N g))%bool then temp / 2 else temp in
        bary g x (S j) w (numer + temp * fj) (denom + temp) left'
  end.

Definition evaluate (g : cheb) (x : R) : R := bary g x 0 (-1) 0 0 (S (ch_N g)).

(** ChebyshevInterpolatingFunction.cc 121-168, cdf. *)
Definition cdf (g : cheb) : cheb :=
  let a := fun k => nth k (ch_coeffs g) 0 in
  let N := ch_N g in
  let beta_0 := a 0%nat + - (1 / 2) * a 1%nat +
    sumR (map (fun j => 2 * a j * (-1) ^ (j + 1) / (INR j * INR j - 1)) (seq 2 (N - 1))) in
  let bs := [beta_0] ++ map (fun k => (a (k - 1)%nat - a (k + 1)%nat) / (2 * INR k)) (seq 1 (N - 1)) ++
            [a (N - 1)%nat / (2 * INR N)] ++ [a N / (2 * (INR N + 1))] in
  let bs := map (fun d => d * ((ch_hi g - ch_lo g) / 2)) bs in
  let N' := S N in
  mkcheb N' (ch_lo g) (ch_hi g) (map (chebyshev_point N' (ch_lo g) (ch_hi g)) (seq 0 (S N')))
         (map (fun d => d * (1 / 2)) (cost bs)) bs (compute_integral N' bs (ch_lo g) (ch_hi g)).

(** Generator.cc 462-476: sampling from a density by way of its interpolant, of 64 + 1
    points; 480-511 is [inverse_transform]. *)
Definition inverse_transform_density (f : R -> R) (lo hi tol prob : R) (fuel : nat) : res R :=
  do func <- build f lo hi 64;
  inverse_transform (evaluate (cdf func)) lo hi tol prob fuel.
