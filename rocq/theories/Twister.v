(** The random number engine: Generator.hh 286 (std::mt19937_64), its seeding at Generator.cc
    99-105 (std::seed_seq) and std::generate_canonical, as the C++ standard and libstdc++
    (random.tcc, random.h) define them. *)
From Coq Require Import List ZArith Bool.
From Coq Require Import Floats.SpecFloat.
From Verif Require Import Base Output SampleDbl.
Import ListNotations.
Local Open Scope Z_scope.

(** Unsigned arithmetic. *)
Definition wrap32 (x : Z) : Z := x mod 2 ^ 32.
Definition wrap64 (x : Z) : Z := x mod 2 ^ 64.

(** Arrays. *)
Definition get (a : list Z) (i : Z) : Z := nth (Z.to_nat i) a 0.
Fixpoint upd (i : nat) (x : Z) (a : list Z) : list Z :=
  match a, i with
  | [], _ => []
  | _ :: r, O => x :: r
  | y :: r, S i' => y :: upd i' x r
  end.
Definition put_at (a : list Z) (i x : Z) : list Z := upd (Z.to_nat i) x a.

(** std::seed_seq::generate ([rand.util.seedseq]) for 624 words and one seed [v]: n = 624, s = 1,
    t = 11, p = 306, q = 317, m = 624. *)
Definition mixed (x : Z) : Z := Z.lxor x (Z.shiftr x 27).
Definition seed_step1 (v : Z) (a : list Z) (k : Z) : list Z :=
  let kn := k mod 624 in
  let kp := (k + 306) mod 624 in
  let kq := (k + 317) mod 624 in
  let r1 := wrap32 (1664525 * mixed (Z.lxor (Z.lxor (get a kn) (get a kp)) (get a ((k + 623) mod 624)))) in
  let r2 := wrap32 (r1 + if k =? 0 then 1 else if k =? 1 then kn + v else kn) in
  let a1 := put_at a kp (wrap32 (get a kp + r1)) in
  let a2 := put_at a1 kq (wrap32 (get a1 kq + r2)) in
  put_at a2 kn r2.
Definition seed_step2 (a : list Z) (k : Z) : list Z :=
  let kn := k mod 624 in
  let kp := (k + 306) mod 624 in
  let kq := (k + 317) mod 624 in
  let r3 := wrap32 (1566083941 * mixed (wrap32 (get a kn + get a kp + get a ((k + 623) mod 624)))) in
  let r4 := wrap32 (r3 - kn) in
  let a1 := put_at a kp (wrap32 (Z.lxor (get a kp) r3)) in
  let a2 := put_at a1 kq (wrap32 (Z.lxor (get a1 kq) r4)) in
  put_at a2 kn r4.
Definition count_from (i : Z) (n : nat) : list Z := map (fun j => i + Z.of_nat j) (seq 0 n).
Definition seed_words (v : Z) : list Z :=
  fold_left seed_step2 (count_from 624 (Z.to_nat 624)) (fold_left (seed_step1 v) (count_from 0 (Z.to_nat 624)) (repeat 2341178251 (Z.to_nat 624))).

(** mersenne_twister_engine::seed(Sseq&): two words make one, and the state that only gives
    zeros is avoided. *)
Fixpoint join (a : list Z) : list Z :=
  match a with x :: y :: r => wrap64 (x + 2 ^ 32 * y) :: join r | _ => [] end.
Definition high (x : Z) : Z := Z.shiftl (Z.shiftr x 31) 31.
Definition low (x : Z) : Z := Z.land x (2 ^ 31 - 1).
Definition avoid_zero (ws : list Z) : list Z :=
  match ws with
  | [] => []
  | w :: r => if (high w =? 0) && forallb (Z.eqb 0) r then 2 ^ 63 :: r else ws
  end.
Record engine := mkengine { e_words : list Z; e_pos : Z }.

(** Generator.cc 99-108, reseed; seed_seq keeps the low 32 bits of what it is given. *)
Definition reseed (seed : Z) : engine := mkengine (avoid_zero (join (seed_words (wrap32 seed)))) 312.

(** mersenne_twister_engine::_M_gen_rand, in place. *)
Definition twist_step (a : list Z) (k : Z) : list Z :=
  let y := Z.lor (high (get a k)) (low (get a ((k + 1) mod 312))) in
  put_at a k (wrap64 (Z.lxor (Z.lxor (get a ((k + 156) mod 312)) (Z.shiftr y 1)) (if Z.odd y then 13043109905998158313 else 0))).
Definition twist (a : list Z) : list Z := fold_left twist_step (count_from 0 (Z.to_nat 312)) a.

(** mersenne_twister_engine::operator(). *)
Definition temper (z : Z) : Z :=
  let z := wrap64 (Z.lxor z (Z.land (Z.shiftr z 29) 6148914691236517205)) in
  let z := wrap64 (Z.lxor z (Z.land (Z.shiftl z 17) 8202884508482404352)) in
  let z := wrap64 (Z.lxor z (Z.land (Z.shiftl z 37) 18444473444759240704)) in
  wrap64 (Z.lxor z (Z.shiftr z 43)).
Definition draw (e : engine) : Z * engine :=
  let e := if 312 <=? e_pos e then mkengine (twist (e_words e)) 0 else e in
  (temper (get (e_words e) (e_pos e)), mkengine (e_words e) (e_pos e + 1)).
Fixpoint draws (n : nat) (e : engine) : list Z * engine :=
  match n with
  | O => ([], e)
  | S n' => let '(x, e1) := draw e in let '(xs, e2) := draws n' e1 in (x :: xs, e2)
  end.

(** Generator.cc 91-97 and 110-114: the state string. *)
Definition state_string (e : engine) : bytes := show_rng (e_words e ++ [e_pos e]).
Definition from_state_string (old : engine) (s : bytes) : engine :=
  match read_rng 313 s with Some (r, _) => mkengine (removelast r) (last r 0) | None => old end.

(** std::generate_canonical<double, 53> with one number of the engine, of 64 bits. *)
Definition two64 : spec_float := S754_finite false 4503599627370496 12.
Definition canonical (x : Z) : spec_float :=
  let r := SFdiv 53 1024 (SpecFloat.binary_normalize 53 1024 x 0 false) two64 in
  if SFleb dbl_one r then S754_finite false 9007199254740991 (-53) else r.
