(** fftpack4.cc: the fast cosine transform used for Chebyshev interpolation, over the real
    numbers (no rounding). The constants of the code (pi, the square root of one half, sines
    and cosines of fifths of a turn) are the numbers they approximate. Arrays are functions
    of the Fortran index, counted from 1, as in the code after its "parameter adjustments"
    (fftpack4.cc 3153-3160 and the like). *)
From Coq Require Import List Reals Bool Arith.
From Verif Require Import Base.
Import ListNotations.
Open Scope nat_scope.

Definition arr := nat -> R.

(** An assignment to one element, such as fftpack4.cc 3164-3168; its right-hand side may
    read the array assigned to. *)
Definition put {A} (a : nat -> A) (i : nat) (v : A) : nat -> A := fun x => if Nat.eqb x i then v else a x.
Definition asg (A : Type) : Type := (nat * ((nat -> A) -> A))%type.
Definition set {A} (i : nat) (v : A) : asg A := (i, fun _ => v).
Definition run {A} (l : list (asg A)) (a : nat -> A) : nat -> A :=
  fold_left (fun a s => put a (fst s) (snd s a)) l a.

(** The values of the variable of a loop for (k = lo; k <= hi; k += st), such as
    fftpack4.cc 3163 and 3182. *)
Definition upto (lo hi st : nat) : list nat := map (fun t => lo + st * t) (seq 0 ((hi + st - lo) / st)).

(** Element (i, j, k) of an array of dimensions d1, d2, _, and (i, j) of an array of
    dimensions d1, _ (fftpack4.cc 3153-3160, 3558-3574). *)
Definition at3 (d1 d2 i j k : nat) : nat := i + d1 * ((j - 1) + d2 * (k - 1)).
Definition at2 (d1 i j : nat) : nat := i + d1 * (j - 1).

(** The array that starts at element [i] of [a] (arguments such as &wa[iw],
    fftpack4.cc 4080-4083). *)
Definition from (a : arr) (i : nat) : arr := fun x => a (i + x - 1).

(** ** Factors and the table of sines and cosines *)

(** fftpack4.cc 4163, 4192-4202: the next divisor to try. *)
Definition next_try (j ntry : nat) : nat :=
  match j with 1 => 4 | 2 => 2 | 3 => 3 | 4 => 5 | _ => ntry + 2 end.

(** fftpack4.cc 4211-4226: one more factor is stored, a factor 2 before all others. *)
Definition store_factor (ntry nf : nat) (ifac : nat -> nat) : nat -> nat :=
  let ifac := put ifac (nf + 2) ntry in
  if negb (Nat.eqb ntry 2) then ifac
  else if Nat.eqb nf 1 then ifac
  else
    let ifac := run (map (fun i => let ib := nf - i + 2 in (ib + 2, fun a => a (ib + 1))) (upto 2 nf 1)) ifac in
    put ifac 3 2.

(** fftpack4.cc 4188-4232, entered at L104. The array ifac has no bounds here: what happens
    when it is too short is in Cheb.v (room_for_factors). *)
Fixpoint find_factors (j ntry nl nf : nat) (ifac : nat -> nat) (fuel : nat) : res (nat * (nat -> nat)) :=
  match fuel with
  | O => Er NoFuel
  | S fuel =>
      let nq := nl / ntry in
      let nr := nl - ntry * nq in
      if negb (Nat.eqb nr 0) then find_factors (S j) (next_try (S j) ntry) nl nf ifac fuel
      else
        let nf := S nf in
        let ifac := store_factor ntry nf ifac in
        if negb (Nat.eqb nq 1) then find_factors j ntry nq nf ifac fuel else Ok (nf, ifac)
  end.

(** fftpack4.cc 4253-4262: the innermost loop of the table, over ii. *)
Definition table_ii (ido i : nat) (argld : R) (wa : arr) : arr :=
  snd (fold_left (fun s (_ : nat) =>
         let '(i, fi, wa) := s in
         let i := i + 2 in
         let fi := (fi + 1)%R in
         let arg := (fi * argld)%R in
         (i, fi, put (put wa (i - 1) (cos arg)) i (sin arg))) (upto 3 ido 2) (i, 0%R, wa)).

(** fftpack4.cc 4249-4265: the loop over j; state ld, is, wa. *)
Definition table_j (ido ipm l1 : nat) (argh : R) (s : nat * nat * arr) : nat * nat * arr :=
  fold_left (fun s (_ : nat) =>
    let '(ld, is, wa) := s in
    let ld := ld + l1 in
    let argld := (INR ld * argh)%R in
    (ld, is + ido, table_ii ido is argld wa)) (upto 1 ipm 1) s.

(** fftpack4.cc 4243-4266: the loop over the factors but the last; state is, l1, wa. *)
Definition table (n nf : nat) (ifac : nat -> nat) (argh : R) (wa : arr) : arr :=
  snd (fold_left (fun s k1 =>
         let '(is, l1, wa) := s in
         let ip := ifac (k1 + 2) in
         let l2 := l1 * ip in
         let ido := n / l2 in
         let ipm := ip - 1 in
         let '(_, is, wa) := table_j ido ipm l1 argh (0, is, wa) in
         (is, l2, wa)) (upto 1 (nf - 1) 1) (0, 1, wa)).

(** fftpack4.cc 4159-4268, rffti1, and 4145-4157, rffti. The search for factors is given
    fuel enough for any n. *)
Definition rffti (n : nat) (wa : arr) (ifac : nat -> nat) : res (arr * (nat -> nat)) :=
  if Nat.eqb n 1 then Ok (wa, ifac)
  else
    do r <- find_factors 1 (next_try 1 0) n 0 ifac (2 * n + 8);
    let '(nf, ifac) := r in
    let ifac := put (put ifac 1 n) 2 nf in
    let argh := (2 * PI / INR n)%R in
    Ok (table n nf ifac argh wa, ifac).

(** ** One factor *)

Section Radix.
  Variables (ido l1 : nat) (cc ch : arr).

  (** cc(i, k, j) is an array of ido, l1 and ip elements, ch(i, j, k) of ido, ip and l1. *)
  Let c (i k j : nat) : R := cc (at3 ido l1 i k j).

  (** fftpack4.cc 3141-3216, radf2. *)
  Definition radf2 (wa1 : arr) : arr :=
    let o (i j k : nat) := at3 ido 2 i j k in
    let first := run (flat_map (fun k =>
      [ set (o 1 1 k) (c 1 k 1 + c 1 k 2)%R;
        set (o ido 2 k) (c 1 k 1 - c 1 k 2)%R ]) (upto 1 l1 1)) in
    let middle := run (flat_map (fun k => flat_map (fun i =>
      let ic := ido + 2 - i in
      let tr2 := (wa1 (i - 2)%nat * c (i - 1) k 2 + wa1 (i - 1)%nat * c i k 2)%R in
      let ti2 := (wa1 (i - 2)%nat * c i k 2 - wa1 (i - 1)%nat * c (i - 1) k 2)%R in
      [ set (o i 1 k) (c i k 1 + ti2)%R;
        set (o ic 2 k) (ti2 - c i k 1)%R;
        set (o (i - 1) 1 k) (c (i - 1) k 1 + tr2)%R;
        set (o (ic - 1) 2 k) (c (i - 1) k 1 - tr2)%R ]) (upto 3 ido 2)) (upto 1 l1 1)) in
    let last := run (flat_map (fun k =>
      [ set (o 1 2 k) (- c ido k 2)%R;
        set (o ido 1 k) (c ido k 1) ]) (upto 1 l1 1)) in
    if Nat.ltb ido 2 then first ch
    else if Nat.eqb ido 2 then last (first ch)
    else if Nat.eqb (ido mod 2) 1 then middle (first ch)
    else last (middle (first ch)).

  (** fftpack4.cc 3218-3295, radf3. *)
  Definition taur : R := (- (1 / 2))%R.
  Definition taui : R := (sqrt 3 / 2)%R.
  Definition radf3 (wa1 wa2 : arr) : arr :=
    let o (i j k : nat) := at3 ido 3 i j k in
    let first := run (flat_map (fun k =>
      let cr2 := (c 1 k 2 + c 1 k 3)%R in
      [ set (o 1 1 k) (c 1 k 1 + cr2)%R;
        set (o 1 3 k) (taui * (c 1 k 3 - c 1 k 2))%R;
        set (o ido 2 k) (c 1 k 1 + taur * cr2)%R ]) (upto 1 l1 1)) in
    let middle := run (flat_map (fun k => flat_map (fun i =>
      let ic := ido + 2 - i in
      let dr2 := (wa1 (i - 2)%nat * c (i - 1) k 2 + wa1 (i - 1)%nat * c i k 2)%R in
      let di2 := (wa1 (i - 2)%nat * c i k 2 - wa1 (i - 1)%nat * c (i - 1) k 2)%R in
      let dr3 := (wa2 (i - 2)%nat * c (i - 1) k 3 + wa2 (i - 1)%nat * c i k 3)%R in
      let di3 := (wa2 (i - 2)%nat * c i k 3 - wa2 (i - 1)%nat * c (i - 1) k 3)%R in
      let cr2 := (dr2 + dr3)%R in
      let ci2 := (di2 + di3)%R in
      let tr2 := (c (i - 1) k 1 + taur * cr2)%R in
      let ti2 := (c i k 1 + taur * ci2)%R in
      let tr3 := (taui * (di2 - di3))%R in
      let ti3 := (taui * (dr3 - dr2))%R in
      [ set (o (i - 1) 1 k) (c (i - 1) k 1 + cr2)%R;
        set (o i 1 k) (c i k 1 + ci2)%R;
        set (o (i - 1) 3 k) (tr2 + tr3)%R;
        set (o (ic - 1) 2 k) (tr2 - tr3)%R;
        set (o i 3 k) (ti2 + ti3)%R;
        set (o ic 2 k) (ti3 - ti2)%R ]) (upto 3 ido 2)) (upto 1 l1 1)) in
    if Nat.eqb ido 1 then first ch else middle (first ch).

  (** fftpack4.cc 3297-3411, radf4. *)
  Definition hsqt2 : R := (/ sqrt 2)%R.
  Definition radf4 (wa1 wa2 wa3 : arr) : arr :=
    let o (i j k : nat) := at3 ido 4 i j k in
    let first := run (flat_map (fun k =>
      let tr1 := (c 1 k 2 + c 1 k 4)%R in
      let tr2 := (c 1 k 1 + c 1 k 3)%R in
      [ set (o 1 1 k) (tr1 + tr2)%R;
        set (o ido 4 k) (tr2 - tr1)%R;
        set (o ido 2 k) (c 1 k 1 - c 1 k 3)%R;
        set (o 1 3 k) (c 1 k 4 - c 1 k 2)%R ]) (upto 1 l1 1)) in
    let middle := run (flat_map (fun k => flat_map (fun i =>
      let ic := ido + 2 - i in
      let cr2 := (wa1 (i - 2)%nat * c (i - 1) k 2 + wa1 (i - 1)%nat * c i k 2)%R in
      let ci2 := (wa1 (i - 2)%nat * c i k 2 - wa1 (i - 1)%nat * c (i - 1) k 2)%R in
      let cr3 := (wa2 (i - 2)%nat * c (i - 1) k 3 + wa2 (i - 1)%nat * c i k 3)%R in
      let ci3 := (wa2 (i - 2)%nat * c i k 3 - wa2 (i - 1)%nat * c (i - 1) k 3)%R in
      let cr4 := (wa3 (i - 2)%nat * c (i - 1) k 4 + wa3 (i - 1)%nat * c i k 4)%R in
      let ci4 := (wa3 (i - 2)%nat * c i k 4 - wa3 (i - 1)%nat * c (i - 1) k 4)%R in
      let tr1 := (cr2 + cr4)%R in
      let tr4 := (cr4 - cr2)%R in
      let ti1 := (ci2 + ci4)%R in
      let ti4 := (ci2 - ci4)%R in
      let ti2 := (c i k 1 + ci3)%R in
      let ti3 := (c i k 1 - ci3)%R in
      let tr2 := (c (i - 1) k 1 + cr3)%R in
      let tr3 := (c (i - 1) k 1 - cr3)%R in
      [ set (o (i - 1) 1 k) (tr1 + tr2)%R;
        set (o (ic - 1) 4 k) (tr2 - tr1)%R;
        set (o i 1 k) (ti1 + ti2)%R;
        set (o ic 4 k) (ti1 - ti2)%R;
        set (o (i - 1) 3 k) (ti4 + tr3)%R;
        set (o (ic - 1) 2 k) (tr3 - ti4)%R;
        set (o i 3 k) (tr4 + ti3)%R;
        set (o ic 2 k) (tr4 - ti3)%R ]) (upto 3 ido 2)) (upto 1 l1 1)) in
    let last := run (flat_map (fun k =>
      let ti1 := (- hsqt2 * (c ido k 2 + c ido k 4))%R in
      let tr1 := (hsqt2 * (c ido k 2 - c ido k 4))%R in
      [ set (o ido 1 k) (tr1 + c ido k 1)%R;
        set (o ido 3 k) (c ido k 1 - tr1)%R;
        set (o 1 2 k) (ti1 - c ido k 3)%R;
        set (o 1 4 k) (ti1 + c ido k 3)%R ]) (upto 1 l1 1)) in
    if Nat.ltb ido 2 then first ch
    else if Nat.eqb ido 2 then last (first ch)
    else if Nat.eqb (ido mod 2) 1 then middle (first ch)
    else last (middle (first ch)).

  (** fftpack4.cc 3413-3533, radf5. *)
  Definition tr11 : R := cos (2 * PI / 5).
  Definition ti11 : R := sin (2 * PI / 5).
  Definition tr12 : R := cos (4 * PI / 5).
  Definition ti12 : R := sin (4 * PI / 5).
  Definition radf5 (wa1 wa2 wa3 wa4 : arr) : arr :=
    let o (i j k : nat) := at3 ido 5 i j k in
    let first := run (flat_map (fun k =>
      let cr2 := (c 1 k 5 + c 1 k 2)%R in
      let ci5 := (c 1 k 5 - c 1 k 2)%R in
      let cr3 := (c 1 k 4 + c 1 k 3)%R in
      let ci4 := (c 1 k 4 - c 1 k 3)%R in
      [ set (o 1 1 k) (c 1 k 1 + cr2 + cr3)%R;
        set (o ido 2 k) (c 1 k 1 + tr11 * cr2 + tr12 * cr3)%R;
        set (o 1 3 k) (ti11 * ci5 + ti12 * ci4)%R;
        set (o ido 4 k) (c 1 k 1 + tr12 * cr2 + tr11 * cr3)%R;
        set (o 1 5 k) (ti12 * ci5 - ti11 * ci4)%R ]) (upto 1 l1 1)) in
    let middle := run (flat_map (fun k => flat_map (fun i =>
      let ic := ido + 2 - i in
      let dr2 := (wa1 (i - 2)%nat * c (i - 1) k 2 + wa1 (i - 1)%nat * c i k 2)%R in
      let di2 := (wa1 (i - 2)%nat * c i k 2 - wa1 (i - 1)%nat * c (i - 1) k 2)%R in
      let dr3 := (wa2 (i - 2)%nat * c (i - 1) k 3 + wa2 (i - 1)%nat * c i k 3)%R in
      let di3 := (wa2 (i - 2)%nat * c i k 3 - wa2 (i - 1)%nat * c (i - 1) k 3)%R in
      let dr4 := (wa3 (i - 2)%nat * c (i - 1) k 4 + wa3 (i - 1)%nat * c i k 4)%R in
      let di4 := (wa3 (i - 2)%nat * c i k 4 - wa3 (i - 1)%nat * c (i - 1) k 4)%R in
      let dr5 := (wa4 (i - 2)%nat * c (i - 1) k 5 + wa4 (i - 1)%nat * c i k 5)%R in
      let di5 := (wa4 (i - 2)%nat * c i k 5 - wa4 (i - 1)%nat * c (i - 1) k 5)%R in
      let cr2 := (dr2 + dr5)%R in
      let ci5 := (dr5 - dr2)%R in
      let cr5 := (di2 - di5)%R in
      let ci2 := (di2 + di5)%R in
      let cr3 := (dr3 + dr4)%R in
      let ci4 := (dr4 - dr3)%R in
      let cr4 := (di3 - di4)%R in
      let ci3 := (di3 + di4)%R in
      let tr2 := (c (i - 1) k 1 + tr11 * cr2 + tr12 * cr3)%R in
      let ti2 := (c i k 1 + tr11 * ci2 + tr12 * ci3)%R in
      let tr3 := (c (i - 1) k 1 + tr12 * cr2 + tr11 * cr3)%R in
      let ti3 := (c i k 1 + tr12 * ci2 + tr11 * ci3)%R in
      let tr5 := (ti11 * cr5 + ti12 * cr4)%R in
      let ti5 := (ti11 * ci5 + ti12 * ci4)%R in
      let tr4 := (ti12 * cr5 - ti11 * cr4)%R in
      let ti4 := (ti12 * ci5 - ti11 * ci4)%R in
      [ set (o (i - 1) 1 k) (c (i - 1) k 1 + cr2 + cr3)%R;
        set (o i 1 k) (c i k 1 + ci2 + ci3)%R;
        set (o (i - 1) 3 k) (tr2 + tr5)%R;
        set (o (ic - 1) 2 k) (tr2 - tr5)%R;
        set (o i 3 k) (ti2 + ti5)%R;
        set (o ic 2 k) (ti5 - ti2)%R;
        set (o (i - 1) 5 k) (tr3 + tr4)%R;
        set (o (ic - 1) 4 k) (tr3 - tr4)%R;
        set (o i 5 k) (ti3 + ti4)%R;
        set (o ic 4 k) (ti4 - ti3)%R ]) (upto 3 ido 2)) (upto 1 l1 1)) in
    if Nat.eqb ido 1 then first ch else middle (first ch).
End Radix.

Section General.
  (** fftpack4.cc 3535-3878, radfg, for any factor. cc, c1 and c2 are one array, indexed in
      three ways, and so are ch and ch2. Both arrays change. *)
  Variables (ido ip l1 idl1 : nat).
  Let o1 (i k j : nat) : nat := at3 ido l1 i k j.
  Let o2 (ik j : nat) : nat := at2 idl1 ik j.
  Let occ (i j k : nat) : nat := at3 ido ip i j k.
  Let ipph : nat := (ip + 1) / 2.
  Let ipp2 : nat := ip + 2.
  Let idp2 : nat := ido + 2.
  Let nbd : nat := (ido - 1) / 2.

  (** fftpack4.cc 3587-3643: the input times powers of the root of unity, into ch. *)
  Definition radfg_twiddle (wa c1 ch : arr) : arr :=
    let ch := run (map (fun ik => set (o2 ik 1) (c1 (o2 ik 1))) (upto 1 idl1 1)) ch in
    let ch := run (flat_map (fun j => map (fun k => set (o1 1 k j) (c1 (o1 1 k j))) (upto 1 l1 1)) (upto 2 ip 1)) ch in
    let body (is i k j : nat) :=
      let idij := is + (i - 1) in
      [ set (o1 (i - 1) k j) (wa (idij - 1)%nat * c1 (o1 (i - 1) k j) + wa idij * c1 (o1 i k j))%R;
        set (o1 i k j) (wa (idij - 1)%nat * c1 (o1 i k j) - wa idij * c1 (o1 (i - 1) k j))%R ] in
    if Nat.ltb l1 nbd then
      run (flat_map (fun j => let is := (j - 2) * ido in
             flat_map (fun k => flat_map (fun i => body is i k j) (upto 3 ido 2)) (upto 1 l1 1)) (upto 2 ip 1)) ch
    else
      run (flat_map (fun j => let is := (j - 2) * ido in
             flat_map (fun i => flat_map (fun k => body is i k j) (upto 1 l1 1)) (upto 3 ido 2)) (upto 2 ip 1)) ch.

  (** fftpack4.cc 3644-3697: sums and differences of opposite terms, back into c1. *)
  Definition radfg_fold (c1 ch : arr) : arr :=
    let body (i k j : nat) :=
      let jc := ipp2 - j in
      [ set (o1 (i - 1) k j) (ch (o1 (i - 1) k j) + ch (o1 (i - 1) k jc))%R;
        set (o1 (i - 1) k jc) (ch (o1 i k j) - ch (o1 i k jc))%R;
        set (o1 i k j) (ch (o1 i k j) + ch (o1 i k jc))%R;
        set (o1 i k jc) (ch (o1 (i - 1) k jc) - ch (o1 (i - 1) k j))%R ] in
    if Nat.ltb nbd l1 then
      run (flat_map (fun j => flat_map (fun i => flat_map (fun k => body i k j) (upto 1 l1 1)) (upto 3 ido 2)) (upto 2 ipph 1)) c1
    else
      run (flat_map (fun j => flat_map (fun k => flat_map (fun i => body i k j) (upto 3 ido 2)) (upto 1 l1 1)) (upto 2 ipph 1)) c1.

  (** fftpack4.cc 3698-3703. *)
  Definition radfg_copy (c2 ch2 : arr) : arr :=
    run (map (fun ik => set (o2 ik 1) (ch2 (o2 ik 1))) (upto 1 idl1 1)) c2.

  (** fftpack4.cc 3704-3716. *)
  Definition radfg_fold1 (c1 ch : arr) : arr :=
    run (flat_map (fun j => let jc := ipp2 - j in flat_map (fun k =>
      [ set (o1 1 k j) (ch (o1 1 k j) + ch (o1 1 k jc))%R;
        set (o1 1 k jc) (ch (o1 1 k jc) - ch (o1 1 k j))%R ]) (upto 1 l1 1)) (upto 2 ipph 1)) c1.

  (** fftpack4.cc 3734-3749: the loop over j for one l; state ar2, ai2, ch2. *)
  Definition radfg_sum_j (l lc : nat) (dc2 ds2 : R) (c2 : arr) (s : R * R * arr) : R * R * arr :=
    fold_left (fun s j =>
      let '(ar2, ai2, ch2) := s in
      let jc := ipp2 - j in
      let ar2h := (dc2 * ar2 - ds2 * ai2)%R in
      let ai2 := (dc2 * ai2 + ds2 * ar2)%R in
      let ar2 := ar2h in
      (ar2, ai2, run (flat_map (fun ik =>
         [ (o2 ik l, fun a : arr => (a (o2 ik l) + ar2 * c2 (o2 ik j))%R);
           (o2 ik lc, fun a : arr => (a (o2 ik lc) + ai2 * c2 (o2 ik jc))%R) ]) (upto 1 idl1 1)) ch2)) (upto 3 ipph 1) s.

  (** fftpack4.cc 3576-3579, 3718-3751: the loop over l; state ar1, ai1, ch2. *)
  Definition radfg_sum_l (c2 ch2 : arr) : arr :=
    let arg := (2 * PI / INR ip)%R in
    let dcp := cos arg in
    let dsp := sin arg in
    snd (fold_left (fun s l =>
      let '(ar1, ai1, ch2) := s in
      let lc := ipp2 - l in
      let ar1h := (dcp * ar1 - dsp * ai1)%R in
      let ai1 := (dcp * ai1 + dsp * ar1)%R in
      let ar1 := ar1h in
      let ch2 := run (flat_map (fun ik =>
         [ set (o2 ik l) (c2 (o2 ik 1) + ar1 * c2 (o2 ik 2))%R;
           set (o2 ik lc) (ai1 * c2 (o2 ik ip))%R ]) (upto 1 idl1 1)) ch2 in
      (ar1, ai1, snd (radfg_sum_j l lc ar1 ai1 c2 (ar1, ai1, ch2)))) (upto 2 ipph 1) (1%R, 0%R, ch2)).

  (** fftpack4.cc 3752-3759. *)
  Definition radfg_sum_1 (c2 ch2 : arr) : arr :=
    run (flat_map (fun j => map (fun ik => (o2 ik 1, fun a : arr => (a (o2 ik 1) + c2 (o2 ik j))%R)) (upto 1 idl1 1)) (upto 2 ipph 1)) ch2.

  (** fftpack4.cc 3761-3877: the result in its order, from ch into cc. *)
  Definition radfg_result (cc ch : arr) : arr :=
    let cc :=
      if Nat.ltb ido l1 then
        run (flat_map (fun i => map (fun k => set (occ i 1 k) (ch (o1 i k 1))) (upto 1 l1 1)) (upto 1 ido 1)) cc
      else
        run (flat_map (fun k => map (fun i => set (occ i 1 k) (ch (o1 i k 1))) (upto 1 ido 1)) (upto 1 l1 1)) cc in
    let cc := run (flat_map (fun j => let jc := ipp2 - j in let j2 := j + j in flat_map (fun k =>
      [ set (occ ido (j2 - 2) k) (ch (o1 1 k j));
        set (occ 1 (j2 - 1) k) (ch (o1 1 k jc)) ]) (upto 1 l1 1)) (upto 2 ipph 1)) cc in
    let body (i k j : nat) :=
      let jc := ipp2 - j in
      let j2 := j + j in
      let ic := idp2 - i in
      [ set (occ (i - 1) (j2 - 1) k) (ch (o1 (i - 1) k j) + ch (o1 (i - 1) k jc))%R;
        set (occ (ic - 1) (j2 - 2) k) (ch (o1 (i - 1) k j) - ch (o1 (i - 1) k jc))%R;
        set (occ i (j2 - 1) k) (ch (o1 i k j) + ch (o1 i k jc))%R;
        set (occ ic (j2 - 2) k) (ch (o1 i k jc) - ch (o1 i k j))%R ] in
    if Nat.eqb ido 1 then cc
    else if Nat.ltb nbd l1 then
      run (flat_map (fun j => flat_map (fun i => flat_map (fun k => body i k j) (upto 1 l1 1)) (upto 3 ido 2)) (upto 2 ipph 1)) cc
    else
      run (flat_map (fun j => flat_map (fun k => flat_map (fun i => body i k j) (upto 3 ido 2)) (upto 1 l1 1)) (upto 2 ipph 1)) cc.

  Definition radfg (cc ch wa : arr) : arr * arr :=
    let '(cc, ch) :=
      if Nat.eqb ido 1 then (radfg_copy cc ch, ch)
      else let ch := radfg_twiddle wa cc ch in (radfg_fold cc ch, ch) in
    let cc := radfg_fold1 cc ch in
    let ch := radfg_sum_l cc ch in
    let ch := radfg_sum_1 cc ch in
    (radfg_result cc ch, ch).
End General.

(** ** The transforms *)

(** fftpack4.cc 4053-4133: one turn of the loop of rfftf1, for the factor [ip]; state na,
    l2, iw and the arrays c__ and ch. *)
Definition rfftf1_step (n ip : nat) (wa : arr) (s : nat * nat * nat * arr * arr) : nat * nat * nat * arr * arr :=
  let '(na, l2, iw, c, ch) := s in
  let l1 := l2 / ip in
  let ido := n / l2 in
  let idl1 := ido * l1 in
  let iw := iw - (ip - 1) * ido in
  let na := 1 - na in
  let ix2 := iw + ido in
  let ix3 := ix2 + ido in
  let ix4 := ix3 + ido in
  let w1 := from wa iw in
  let w2 := from wa ix2 in
  let w3 := from wa ix3 in
  let w4 := from wa ix4 in
  let apply radf := if negb (Nat.eqb na 0) then (na, l1, iw, radf ch c, ch) else (na, l1, iw, c, radf c ch) in
  if Nat.eqb ip 4 then apply (fun a d => radf4 ido l1 a d w1 w2 w3)
  else if Nat.eqb ip 2 then apply (fun a d => radf2 ido l1 a d w1)
  else if Nat.eqb ip 3 then apply (fun a d => radf3 ido l1 a d w1 w2)
  else if Nat.eqb ip 5 then apply (fun a d => radf5 ido l1 a d w1 w2 w3 w4)
  else
    let na := if Nat.eqb ido 1 then 1 - na else na in
    if negb (Nat.eqb na 0) then let '(ch, c) := radfg ido ip l1 idl1 ch c w1 in (0, l1, iw, c, ch)
    else let '(c, ch) := radfg ido ip l1 idl1 c ch w1 in (1, l1, iw, c, ch).

(** fftpack4.cc 4031-4143, rfftf1, and 4015-4029, rfftf. *)
Definition rfftf (n : nat) (c ch wa : arr) (ifac : nat -> nat) : arr * arr :=
  if Nat.eqb n 1 then (c, ch)
  else
    let nf := ifac 2 in
    let '(na, _, _, c, ch) :=
      fold_left (fun s k1 => rfftf1_step n (ifac (nf - k1 + 3)) wa s) (upto 1 nf 1) (1, n, n, c, ch) in
    if Nat.eqb na 1 then (c, ch)
    else (run (map (fun i => set i (ch i)) (upto 1 n 1)) c, ch).

(** fftpack4.cc 836-874, costi. The array wsave is modelled as its three parts: the n
    weights, n - 1 elements of work space and the n - 1 elements of the table. *)
Definition costi (n : nat) (w wa : arr) (ifac : nat -> nat) : res (arr * arr * (nat -> nat)) :=
  if Nat.leb n 3 then Ok (w, wa, ifac)
  else
    let dt := (PI / INR (n - 1))%R in
    let w := snd (fold_left (fun s k =>
      let '(fk, w) := s in
      let kc := n + 1 - k in
      let fk := (fk + 1)%R in
      (fk, put (put w k (sin (fk * dt) * 2)%R) kc (cos (fk * dt) * 2)%R)) (upto 2 (n / 2) 1) (0%R, w)) in
    do r <- rffti (n - 1) wa ifac;
    let '(wa, ifac) := r in
    Ok (w, wa, ifac).

(** fftpack4.cc 796-812: the values for the real transform; state c1, x. *)
Definition cost_before (n : nat) (w : arr) (x : arr) : R * arr :=
  let ns2 := n / 2 in
  let c1 := (x 1%nat - x n)%R in
  let x := put x 1 (x 1%nat + x n)%R in
  let '(c1, x) := fold_left (fun s k =>
    let '(c1, x) := s in
    let kc := n + 1 - k in
    let t1 := (x k + x kc)%R in
    let t2 := (x k - x kc)%R in
    let c1 := (c1 + w kc * t2)%R in
    let t2 := (w k * t2)%R in
    (c1, put (put x k (t1 - t2)%R) kc (t1 + t2)%R)) (upto 2 ns2 1) (c1, x) in
  (c1, if negb (Nat.eqb (n mod 2) 0) then put x (ns2 + 1) (x (ns2 + 1)%nat + x (ns2 + 1)%nat)%R else x).

(** fftpack4.cc 819-832: the result from the real transform; state xim2, x. *)
Definition cost_after (n : nat) (c1 : R) (x : arr) : arr :=
  let xim2 := x 2 in
  let x := put x 2 c1 in
  let '(xim2, x) := fold_left (fun s i =>
    let '(xim2, x) := s in
    let xi := x i in
    let x := put x i (x (i - 2)%nat - x (i - 1)%nat)%R in
    let x := put x (i - 1) xim2 in
    (xi, x)) (upto 4 n 2) (xim2, x) in
  if negb (Nat.eqb (n mod 2) 0) then put x n xim2 else x.

(** fftpack4.cc 752-834, cost. *)
Definition cost (n : nat) (x w ch wa : arr) (ifac : nat -> nat) : arr * arr :=
  if Nat.ltb n 2 then (x, ch)
  else if Nat.eqb n 2 then (put (put x 2 (x 1%nat - x 2%nat)%R) 1 (x 1%nat + x 2%nat)%R, ch)
  else if negb (Nat.ltb 3 n) then
    let x1p3 := (x 1%nat + x 3%nat)%R in
    let tx2 := (x 2%nat + x 2%nat)%R in
    (put (put (put x 2 (x 1%nat - x 3%nat)%R) 1 (x1p3 + tx2)%R) 3 (x1p3 - tx2)%R, ch)
  else
    let '(c1, x) := cost_before n w x in
    let '(x, ch) := rfftf (n - 1) x ch wa ifac in
    (cost_after n c1 x, ch).
