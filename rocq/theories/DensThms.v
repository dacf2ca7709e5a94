(** Theorems about the level density model (Dens.v). *)
From Coq Require Import List ZArith Reals Bool Lia Lra.
From Verif Require Import Base Pdg Mass XReal Dens.
Import ListNotations.
Open Scope R_scope.

(** ** C67: level densities *)

(** The parameters an object for the nuclide with [Zn] protons and [A] nucleons holds,
    with [c] the cube root and [h] the square root of the mass number, [W] the shell
    correction (measured mass excess minus liquid drop estimate) and [Sn] the neutron
    separation energy. *)
Definition shift (Zn A : Z) (h : R) : R :=
  173015 / 10 ^ 6 +
  match Z.even Zn, Z.even (A - Zn) with true, true => 12 / h | false, false => - (12 / h) | _, _ => 0 end.
Definition a_inf (A : Z) (c : R) : R := 722396 / 10 ^ 7 * IZR A + 195267 / 10 ^ 6 * c ^ 2.
Definition damping (c : R) : R := 410289 / 10 ^ 6 / c.

Lemma cube_root A : (0 < A)%Z -> 0 < Rpower (IZR A) (1 / 3) /\ Rpower (IZR A) (1 / 3) ^ 3 = IZR A.
Proof.
  intros HA. assert (PA : 0 < IZR A) by (apply IZR_lt; exact HA).
  assert (P3 : 0 < Rpower (IZR A) (1 / 3)) by (unfold Rpower; apply exp_pos). split; [exact P3|].
  rewrite <- Rpower_pow by exact P3. rewrite Rpower_mult. replace (1 / 3 * INR 3) with 1 by (cbn [INR]; lra).
  apply Rpower_1. exact PA.
Qed.

Lemma cube_inj x y : 0 < x -> 0 < y -> x ^ 3 = y ^ 3 -> x = y.
Proof.
  intros Hx Hy H. assert (K : (x - y) * (x * x + x * y + y * y) = 0) by (cbn [pow] in H; lra).
  apply Rmult_integral in K as [K|K]; [lra|]. assert (0 < x * x) by nra. assert (0 < x * y) by nra. assert (0 < y * y) by nra. lra.
Qed.

Lemma new_form t Zn A m : new_bfg t Zn A = Ok m -> (0 < A)%Z ->
  exists c W, 0 < c /\ c ^ 3 = IZR A /\ mass_excess t Zn A true = Ok (ldm_excess Zn A + W) /\
    separation_ZA t Zn A 2112 true = Ok (b_Sn m) /\ b_A m = A /\ b_atilde m = a_inf A c /\ b_gamma m = damping c /\
    b_dW m = W /\ b_Delta m = shift Zn A (sqrt (IZR A)) /\ b_sigd m = 83 / 100 * Rpower (IZR A) (26 / 100).
Proof.
  intros H HA. unfold new_bfg in H. destruct (mass_excess t Zn A true) as [ex|] eqn:E1; [|discriminate H]. cbn [bind] in H.
  destruct (separation_ZA t Zn A NEUTRON true) as [sn|] eqn:E2; [|discriminate H]. cbn [bind] in H. injection H as <-.
  cbn [b_Z b_A b_atilde b_gamma b_dW b_Delta b_sigd b_Sn].
  destruct (cube_root A HA) as [P3 C3]. exists (Rpower (IZR A) (1 / 3)), (ex - ldm_excess Zn A).
  assert (PS : 0 < sqrt (IZR A)) by (apply sqrt_lt_R0; apply IZR_lt; exact HA).
  split; [exact P3|]. split; [exact C3|]. split; [f_equal; lra|]. split; [exact E2|]. split; [reflexivity|].
  split; [reflexivity|]. split; [reflexivity|]. split; [reflexivity|]. split; [|reflexivity].
  unfold shift. rewrite <- !Z.negb_even. destruct (Z.even Zn), (Z.even (A - Zn)); cbn [negb andb]; try lra.
Qed.

Lemma a_inf_pos A c : (0 < A)%Z -> 0 < c -> 0 < a_inf A c.
Proof. intros HA Hc. apply IZR_lt in HA. unfold a_inf. assert (0 < c ^ 2) by (apply pow_lt; exact Hc). lra. Qed.
Lemma damping_pos c : 0 < c -> 0 < damping c.
Proof. intros Hc. unfold damping. apply Rmult_lt_0_compat; [lra|apply Rinv_0_lt_compat; exact Hc]. Qed.

(** What the shell correction is divided by: 1 - e^(-gU) lies between gU/(1+gU) and gU. *)
Lemma exp_bounds x : 0 < x -> x / (1 + x) < 1 - exp (- x) /\ 1 - exp (- x) < x.
Proof.
  intros Hx. split.
  - rewrite exp_Ropp. pose proof (exp_ineq1 x ltac:(lra)) as H. assert (/ exp x < / (1 + x)) by (apply Rinv_lt_contravar; [apply Rmult_lt_0_compat; lra|lra]).
    replace (x / (1 + x)) with (1 - / (1 + x)) by (field; lra). lra.
  - pose proof (exp_ineq1 (- x) ltac:(lra)). lra.
Qed.

Lemma parameter_pos t Zn A m Ex : new_bfg t Zn A = Ok m -> (0 < A)%Z -> 0 < 1 + b_gamma m * b_dW m -> 0 < density_parameter m Ex.
Proof.
  intros H HA HG. destruct (new_form _ _ _ _ H HA) as (c & W & Pc & C3 & _ & _ & _ & Ea & Eg & Ew & _).
  unfold density_parameter. pose proof (a_inf_pos A c HA Pc) as PA. pose proof (damping_pos c Pc) as PG. rewrite Ea, Eg, Ew in *.
  set (g := damping c) in *. set (U := Ex - b_Delta m). destruct (Rle_dec U 0) as [HU|HU]; apply Rmult_lt_0_compat; try assumption.
  assert (PU : 0 < U) by lra. assert (PX : 0 < g * U) by (apply Rmult_lt_0_compat; assumption).
  destruct (exp_bounds _ PX) as [B1 B2]. replace (- g * U) with (- (g * U)) by ring. set (q := 1 - exp (- (g * U))) in *.
  assert (Pq : 0 < q). { assert (0 < g * U / (1 + g * U)) by (apply Rmult_lt_0_compat; [lra|apply Rinv_0_lt_compat; lra]). lra. }
  assert (Q : 0 < q / U < g).
  { split; [apply Rmult_lt_0_compat; [exact Pq|apply Rinv_0_lt_compat; exact PU]|].
    apply (Rmult_lt_reg_r U); [exact PU|]. unfold Rdiv. rewrite Rmult_assoc, Rinv_l by lra. lra. }
  replace (W / U * q) with (W * (q / U)) by (field; lra). set (r := q / U) in *. clearbody r q g. clear - Q HG. nra.
Qed.

Lemma cutoff_pos m Ex a : 0 < b_atilde m -> 0 < b_sigd m -> 0 < a -> 0 <= Ex -> b_Delta m < Ex -> 0 < cutoff2 m Ex a.
Proof.
  intros P1 P2 Pa HE HD.
  assert (SF : forall E, b_Delta m < E -> 0 < sigma_F2 m E a).
  { intros E HE'. unfold sigma_F2. apply Rmult_lt_0_compat; [|apply Rinv_0_lt_compat; exact P1].
    apply Rmult_lt_0_compat; [apply Rmult_lt_0_compat; [lra|unfold Rpower; apply exp_pos]|].
    apply sqrt_lt_R0. apply Rmult_lt_0_compat; lra. }
  unfold cutoff2. destruct (Rle_dec (b_Sn m) Ex) as [H|H]; [apply SF; exact HD|]. cbv zeta.
  assert (PS : 0 < sigma_F2 m (b_Sn m) a) by (apply SF; lra). set (s := sigma_F2 m (b_Sn m) a) in *.
  assert (PD : 0 < b_sigd m ^ 2) by (apply pow_lt; exact P2). set (d := b_sigd m ^ 2) in *.
  assert (PN : 0 < b_Sn m) by lra. set (n := b_Sn m) in *. rewrite !Rminus_0_r.
  replace (d + Ex * (s - d) / n) with ((d * (n - Ex) + s * Ex) / n) by (field; lra).
  apply Rmult_lt_0_compat; [|apply Rinv_0_lt_compat; exact PN].
  assert (0 < d * (n - Ex)) by (apply Rmult_lt_0_compat; lra). assert (0 <= s * Ex) by (apply Rmult_le_pos; lra). lra.
Qed.

Lemma sigd_pos t Zn A m : new_bfg t Zn A = Ok m -> (0 < A)%Z -> 0 < b_sigd m.
Proof.
  intros H HA. destruct (new_form _ _ _ _ H HA) as (c & W & _ & _ & _ & _ & _ & _ & _ & _ & _ & ->).
  apply Rmult_lt_0_compat; [lra|unfold Rpower; apply exp_pos].
Qed.

(** The regular case: a positive parameter. *)
Lemma total_regular t Zn A m s0 Ex : new_bfg t Zn A = Ok m -> (0 < A)%Z -> 0 <= Ex ->
  b_Delta m < Ex -> 0 < density_parameter m Ex ->
  let a := density_parameter m Ex in
  let U := Ex - b_Delta m in
  let s := sqrt (cutoff2 m Ex a) in
  0 < s /\ s ^ 2 = cutoff2 m Ex a /\
  total_density m s0 Ex =
    (Fin s, Fin (/ (12 * s * (sqrt (2 * sqrt (a * U)) * U * exp (-2 * sqrt (a * U)) + exp (- (a * U) - 1) / a)))).
Proof.
  intros H HA HE HD Pa a U s. pose proof (sigd_pos _ _ _ _ H HA) as PD.
  destruct (new_form _ _ _ _ H HA) as (c & W & Pc & _ & _ & _ & _ & Ea & _).
  assert (PC : 0 < cutoff2 m Ex a) by (apply cutoff_pos; auto; rewrite Ea; apply a_inf_pos; assumption).
  assert (Ps : 0 < s) by (apply sqrt_lt_R0; exact PC). split; [exact Ps|].
  split; [unfold s; rewrite <- Rsqr_pow2; apply Rsqr_sqrt; lra|].
  unfold total_density. cbv zeta. fold a U s. destruct (Rle_dec U 0) as [L|_]; [unfold U in L; lra|].
  destruct (Rlt_dec a 0) as [L|_]; [unfold a in L; lra|].
  assert (X : (if Rle_dec (b_Sn m) Ex then false else if Req_EM_T (b_Sn m) 0 then true else false) = false).
  { destruct (Rle_dec (b_Sn m) Ex); [reflexivity|]. destruct (Req_EM_T (b_Sn m) 0); [lra|reflexivity]. }
  rewrite X. destruct (Rlt_dec (cutoff2 m Ex a) 0) as [L|_]; [lra|]. destruct (Req_EM_T a 0) as [L|_]; [unfold a in L; lra|].
  destruct (Req_EM_T s 0) as [L|_]; [lra|]. reflexivity.
Qed.

Lemma density_inner_pos a U : 0 < a -> 0 < U ->
  0 < sqrt (2 * sqrt (a * U)) * U * exp (-2 * sqrt (a * U)) + exp (- (a * U) - 1) / a.
Proof.
  intros Pa PU. assert (0 < sqrt (a * U)) by (apply sqrt_lt_R0; apply Rmult_lt_0_compat; assumption).
  assert (0 < sqrt (2 * sqrt (a * U))) by (apply sqrt_lt_R0; lra).
  apply Rplus_lt_0_compat.
  - apply Rmult_lt_0_compat; [apply Rmult_lt_0_compat; assumption|apply exp_pos].
  - apply Rmult_lt_0_compat; [apply exp_pos|apply Rinv_0_lt_compat; exact Pa].
Qed.

(** The condition under which densities are sane: the shell correction, damped, does not
    outweigh the asymptotic parameter. It holds for every nuclide without a measured mass
    (the correction is zero then), and for all but eight of the nuclides of MARLEY's table. *)
Definition moderate (t : mtab) (Zn A : Z) : Prop :=
  exists c W, 0 < c /\ c ^ 3 = IZR A /\ mass_excess t Zn A true = Ok (ldm_excess Zn A + W) /\ - c < 410289 / 10 ^ 6 * W.

Lemma moderate_good t Zn A m : new_bfg t Zn A = Ok m -> (0 < A)%Z -> (moderate t Zn A <-> 0 < 1 + b_gamma m * b_dW m).
Proof.
  intros H HA. destruct (new_form _ _ _ _ H HA) as (c & W & Pc & C3 & EM & _ & _ & _ & Eg & Ew & _). rewrite Eg, Ew. unfold damping.
  assert (X : 1 + 410289 / 10 ^ 6 / c * W = (c + 410289 / 10 ^ 6 * W) / c) by (field; lra). rewrite X. split.
  - intros (c' & W' & Pc' & C3' & EM' & HW). rewrite (cube_inj c' c) in HW by (auto; congruence).
    rewrite EM in EM'. injection EM' as E. assert (EW : W' = W) by lra. rewrite EW in HW.
    apply Rmult_lt_0_compat; [lra|apply Rinv_0_lt_compat; exact Pc].
  - intros HP. exists c, W. split; [exact Pc|]. split; [exact C3|]. split; [exact EM|].
    assert (0 < c + 410289 / 10 ^ 6 * W); [|lra].
    replace (c + 410289 / 10 ^ 6 * W) with ((c + 410289 / 10 ^ 6 * W) / c * c) by (field; lra). apply Rmult_lt_0_compat; assumption.
Qed.

Theorem C67_estimated t Zn A m : new_bfg t Zn A = Ok m -> (0 < A)%Z ->
  assoc (nucleus_pid Zn A) (t_atom t) = None -> moderate t Zn A.
Proof.
  intros H HA HN. destruct (new_form _ _ _ _ H HA) as (c & W & Pc & C3 & EM & _). exists c, W. repeat (split; [assumption|]).
  unfold mass_excess, lookup_ZA in EM. rewrite HN in EM. cbn [bind] in EM. injection EM as EM. unfold ldm_mass in EM. lra.
Qed.
Print Assumptions C67_estimated.

(** Positive, finite densities at all energies and spins; half for each parity. *)
Theorem C67_positive t Zn A m s0 Ex : new_bfg t Zn A = Ok m -> (2 <= A)%Z -> moderate t Zn A -> 0 <= Ex ->
  exists r, 0 < r /\ snd (total_density m s0 Ex) = Fin r /\
  forall J, (0 <= J)%Z -> exists rJ, 0 < rJ /\ snd (spin_density m s0 Ex J) = Fin rJ /\
    forall P, snd (parity_density m s0 Ex J P) = Fin (rJ / 2).
Proof.
  intros H HA HM HE. assert (HA0 : (0 < A)%Z) by lia. apply (moderate_good _ _ _ _ H HA0) in HM.
  assert (HP := parameter_pos t Zn A m Ex H HA0 HM). pose proof (sigd_pos _ _ _ _ H HA0) as PD.
  assert (HT : exists s r, 0 < s /\ 0 < r /\ total_density m s0 Ex = (Fin s, Fin r)).
  { destruct (Rle_dec Ex (b_Delta m)) as [HD|HD].
    - exists (b_sigd m), (exp 1 * density_parameter m Ex / (12 * b_sigd m)). split; [exact PD|]. split.
      + apply Rmult_lt_0_compat; [apply Rmult_lt_0_compat; [apply exp_pos|exact HP]|apply Rinv_0_lt_compat; lra].
      + unfold total_density. cbv zeta. destruct (Rle_dec (Ex - b_Delta m) 0); [reflexivity|lra].
    - destruct (total_regular t Zn A m s0 Ex H HA0 HE ltac:(lra) HP) as (Ps & _ & ->).
      eexists _, _. split; [exact Ps|]. split; [|reflexivity]. apply Rinv_0_lt_compat. apply Rmult_lt_0_compat; [lra|].
      apply density_inner_pos; [exact HP|lra]. }
  destruct HT as (s & r & Ps & Pr & HT). exists r. split; [exact Pr|]. split; [rewrite HT; reflexivity|]. intros J HJ.
  unfold parity_density, spin_density. rewrite HT. destruct (Req_EM_T s 0) as [E|_]; [lra|]. cbv zeta. cbn [snd].
  eexists. split; [|split; [reflexivity|]].
  - assert (0 < IZR (J + 1)) by (apply IZR_lt; lia). assert (0 < 2 * s ^ 2) by (pose proof (pow_lt s 2 Ps); lra).
    apply Rmult_lt_0_compat; [|exact Pr]. apply Rmult_lt_0_compat; [|apply exp_pos].
    apply Rmult_lt_0_compat; [assumption|apply Rinv_0_lt_compat; assumption].
  - intros P. cbn [snd xmul]. f_equal. lra.
Qed.
Print Assumptions C67_positive.

(** The two parities together make up the density for the spin, whatever the object. *)
Theorem C67_parities m s0 s1 s2 Ex J : 
  snd (parity_density m s1 Ex J true) = snd (parity_density m s2 Ex J false) /\
  xadd (snd (parity_density m s1 Ex J true)) (snd (parity_density m s2 Ex J false)) = snd (spin_density m s0 Ex J).
Proof.
  unfold parity_density, spin_density. 
  assert (X : forall s s', total_density m s Ex = total_density m s' Ex) by reflexivity.
  rewrite (X s1 s0), (X s2 s0). destruct (total_density m s0 Ex) as [[s| |] [r| |]]; cbn [snd]; try (split; reflexivity).
  destruct (Req_EM_T s 0); cbn [snd xmul xadd]; split; try reflexivity. f_equal. lra.
Qed.
Print Assumptions C67_parities.

(** The stored spin cut-off parameter, which every call overwrites, never leaks from one
    call into another: any sequence of calls on the same object, even a new one whose
    parameter is not initialised, gives each call the value it would have alone. *)
Fixpoint answers (m : bfg) (s : xr) (l : list ldcall) : list xr :=
  match l with
  | [] => []
  | c :: r => let '(s', x) := ldstep m s c in x :: answers m s' r
  end.

Theorem C67_history m s l s' : answers m s l = map (fun c => snd (ldstep m s' c)) l.
Proof.
  revert s. induction l as [|c l IH]; intros s; [reflexivity|]. cbn [answers map].
  assert (X : ldstep m s c = ldstep m s' c) by (destruct c; reflexivity). rewrite X.
  destruct (ldstep m s' c) as [s1 x]. rewrite IH. reflexivity.
Qed.
Print Assumptions C67_history.

(** The value below the energy shift: constant. *)
Theorem C67_low t Zn A m s0 Ex c h W : new_bfg t Zn A = Ok m -> (2 <= A)%Z ->
  0 < c -> c ^ 3 = IZR A -> 0 < h -> h ^ 2 = IZR A -> mass_excess t Zn A true = Ok (ldm_excess Zn A + W) ->
  Ex <= shift Zn A h ->
  snd (total_density m s0 Ex) =
    Fin (exp 1 * (a_inf A c * (1 + damping c * W)) / (12 * (83 / 100 * Rpower (IZR A) (26 / 100)))).
Proof.
  intros H HA Pc C3 Ph H2 EM HE. assert (HA0 : (0 < A)%Z) by lia.
  destruct (new_form _ _ _ _ H HA0) as (c' & W' & Pc' & C3' & EM' & _ & _ & Ea & Eg & Ew & Ed & Es).
  assert (Ec : c' = c) by (apply cube_inj; auto; congruence). subst c'. rewrite EM in EM'. injection EM' as E.
  assert (EW : W' = W) by lra. rewrite EW in Ew. clear W' EW E.
  assert (Eh : h = sqrt (IZR A)) by (rewrite <- H2; symmetry; apply sqrt_pow2; lra). rewrite <- Eh in Ed.
  unfold total_density, density_parameter. cbv zeta. rewrite Ed, Ea, Eg, Ew, Es.
  destruct (Rle_dec (Ex - shift Zn A h) 0) as [_|N]; [reflexivity|lra].
Qed.
Print Assumptions C67_low.

(** Above it: the total density is the harmonic sum of the Fermi gas density and the
    low energy limit, with the damped shell correction in the parameter a, and a spin
    cut-off that goes from the discrete one at zero energy, linearly in its square, to the
    Fermi gas one at the neutron separation energy. *)
Theorem C67_value t Zn A m s0 Ex c h W Sn : new_bfg t Zn A = Ok m -> (2 <= A)%Z ->
  0 < c -> c ^ 3 = IZR A -> 0 < h -> h ^ 2 = IZR A -> mass_excess t Zn A true = Ok (ldm_excess Zn A + W) ->
  separation_ZA t Zn A 2112 true = Ok Sn -> 0 <= Ex ->
  let U := Ex - shift Zn A h in
  let a := a_inf A c * (1 + W / U * (1 - exp (- (damping c * U)))) in
  0 < U -> 0 < a ->
  let fermi E := 1389 / 10 ^ 5 * (IZR A * c ^ 2) * sqrt (a * (E - shift Zn A h)) / a_inf A c in
  let discrete := (83 / 100 * Rpower (IZR A) (26 / 100)) ^ 2 in
  exists s r, 0 < s /\ 0 < r /\
    s ^ 2 = (if Rle_dec Sn Ex then fermi Ex else (1 - Ex / Sn) * discrete + Ex / Sn * fermi Sn) /\
    (let rhoF := exp (2 * sqrt (a * U)) / (12 * sqrt 2 * s * Rpower a (1 / 4) * Rpower U (5 / 4)) in
     let rho0 := exp (1 + a * U) * a / (12 * s) in
     / r = / rhoF + / rho0) /\
    snd (total_density m s0 Ex) = Fin r /\
    forall J, snd (spin_density m s0 Ex J) =
      Fin ((IZR J + 1) / (2 * s ^ 2) * exp (- (IZR J / 2 + 1 / 2) ^ 2 / (2 * s ^ 2)) * r).
Proof.
  intros H HA Pc C3 Ph H2 EM ES HE U a PU Pa fermi discrete. assert (HA0 : (0 < A)%Z) by lia.
  destruct (new_form _ _ _ _ H HA0) as (c' & W' & Pc' & C3' & EM' & ES' & EA & Ea & Eg & Ew & Ed & Es).
  assert (Ec : c' = c) by (apply cube_inj; auto; congruence). subst c'. rewrite EM in EM'. injection EM' as E.
  assert (EW : W' = W) by lra. rewrite EW in Ew. clear W' EW E.
  rewrite ES in ES'. injection ES' as ESn.
  assert (Eh : h = sqrt (IZR A)) by (rewrite <- H2; symmetry; apply sqrt_pow2; lra). rewrite <- Eh in Ed.
  assert (EP : density_parameter m Ex = a).
  { unfold density_parameter. cbv zeta. rewrite Ed, Ea, Eg, Ew. fold U. destruct (Rle_dec U 0); [lra|]. unfold a. do 5 f_equal. ring. }
  destruct (total_regular t Zn A m s0 Ex H HA0 HE ltac:(rewrite Ed; unfold U in PU; lra) ltac:(rewrite EP; exact Pa)) as (Ps & S2 & HT).
  rewrite EP in *. rewrite Ed in HT. fold U in HT. set (s := sqrt (cutoff2 m Ex a)) in *.
  set (r := / _) in HT. exists s, r. split; [exact Ps|].
  assert (PI := density_inner_pos a U Pa PU).
  assert (PR : 0 < r) by (apply Rinv_0_lt_compat; apply Rmult_lt_0_compat; [lra|exact PI]). split; [exact PR|].
  assert (P53 : Rpower (IZR A) (5 / 3) = IZR A * c ^ 2).
  { assert (PA : 0 < IZR A) by (apply IZR_lt; exact HA0).
    replace (5 / 3) with (1 + 2 / 3) by lra. rewrite Rpower_plus, Rpower_1 by exact PA. f_equal.
    destruct (cube_root A HA0) as [Q1 Q2]. rewrite <- (cube_inj _ c Q1 Pc ltac:(congruence)).
    rewrite <- Rpower_pow by exact Q1. rewrite Rpower_mult. f_equal. cbn [INR]. lra. }
  split; [|split; [|split]].
  - rewrite S2. unfold cutoff2, sigma_F2. cbv zeta. rewrite EA, Ed, Ea, Es, P53, <- ESn. fold fermi. unfold fermi, discrete.
    destruct (Rle_dec Sn Ex) as [_|N]; [reflexivity|]. rewrite !Rminus_0_r. field. assert (0 < a_inf A c) by (apply a_inf_pos; assumption). split; lra.
  - cbv zeta. unfold r. rewrite Rinv_inv.
    assert (Q : sqrt (2 * sqrt (a * U)) * U = sqrt 2 * Rpower a (1 / 4) * Rpower U (5 / 4)).
    { rewrite sqrt_mult_alt by lra. rewrite Rmult_assoc, Rmult_assoc. f_equal.
      assert (PaU : 0 < a * U) by (apply Rmult_lt_0_compat; assumption).
      rewrite <- (Rpower_sqrt (a * U)) by exact PaU. rewrite <- Rpower_sqrt by (unfold Rpower; apply exp_pos).
      rewrite Rpower_mult. replace (/ 2 * / 2) with (1 / 4) by lra.
      rewrite <- Rpower_mult_distr by assumption. rewrite Rmult_assoc. f_equal.
      replace (5 / 4) with (1 / 4 + 1) by lra. rewrite Rpower_plus, Rpower_1 by exact PU. reflexivity. }
    rewrite Q. replace (-2 * sqrt (a * U)) with (- (2 * sqrt (a * U))) by ring. replace (- (a * U) - 1) with (- (1 + a * U)) by ring.
    rewrite !exp_Ropp. pose proof (exp_pos (2 * sqrt (a * U))). pose proof (exp_pos (1 + a * U)).
    assert (0 < sqrt 2) by (apply sqrt_lt_R0; lra).
    assert (0 < Rpower a (1 / 4)) by (unfold Rpower; apply exp_pos). assert (0 < Rpower U (5 / 4)) by (unfold Rpower; apply exp_pos).
    set (e1 := exp (2 * _)) in *. set (e2 := exp (1 + _)) in *. set (p1 := Rpower a _) in *. set (p2 := Rpower U _) in *.
    set (q := sqrt 2) in *. clearbody e1 e2 p1 p2 q s. field. repeat split; lra.
  - rewrite HT. reflexivity.
  - intros J. unfold spin_density. rewrite HT. destruct (Req_EM_T s 0) as [N|_]; [lra|]. cbv zeta. cbn [snd]. f_equal. f_equal. rewrite plus_IZR. f_equal. f_equal.
    field. lra.
Qed.
Print Assumptions C67_value.

(** The spins. The terms (2J+1)/(2s^2) e^(-(J+1/2)^2/(2s^2)) at x = J + 1/2. *)
Definition sterm (s x : R) : R := x / s ^ 2 * exp (- (x ^ 2 / (2 * s ^ 2))).
Definition sprim (s x : R) : R := - exp (- (x ^ 2 / (2 * s ^ 2))).

Lemma sprim_deriv s x : 0 < s -> derivable_pt_lim (sprim s) x (sterm s x).
Proof.
  intros Hs. unfold sprim, sterm. assert (0 < s ^ 2) by (apply pow_lt; exact Hs).
  assert (D1 : derivable_pt_lim (fun x => - (x ^ 2 / (2 * s ^ 2))) x (- (x / s ^ 2))).
  { replace (- (x / s ^ 2)) with ((- / (2 * s ^ 2)) * (INR 2 * x ^ 1)) by (cbn [INR]; field; lra).
    assert (E : forall f, (forall y, f y = (- / (2 * s ^ 2)) * y ^ 2) -> derivable_pt_lim f x ((- / (2 * s ^ 2)) * (INR 2 * x ^ 1))).
    { intros f Hf. intros e He. destruct (derivable_pt_lim_scal (fun y => y ^ 2) (- / (2 * s ^ 2)) x _ (derivable_pt_lim_pow x 2) e He) as [d Hd].
      exists d. intros k K1 K2. specialize (Hd k K1 K2). unfold mult_real_fct in Hd. rewrite !Hf. exact Hd. }
    apply E. intros y. field. lra. }
  pose proof (derivable_pt_lim_comp _ exp x _ _ D1 (derivable_pt_lim_exp _)) as D2.
  apply derivable_pt_lim_opp in D2. unfold opp_fct, comp in D2.
  replace (x / s ^ 2 * exp (- (x ^ 2 / (2 * s ^ 2)))) with (- (exp (- (x ^ 2 / (2 * s ^ 2))) * - (x / s ^ 2))) by ring. exact D2.
Qed.

(** The terms rise up to x = s and fall afterwards: with u = x/s, x e^(-x^2/2s^2). *)
Lemma sterm_quot s x y : 0 < s -> 0 < x -> 0 < y ->
  sterm s x <= sterm s y <-> ln x - x ^ 2 / (2 * s ^ 2) <= ln y - y ^ 2 / (2 * s ^ 2).
Proof.
  intros Hs Hx Hy. assert (0 < s ^ 2) by (apply pow_lt; exact Hs).
  assert (E : forall z, 0 < z -> sterm s z = / s ^ 2 * exp (ln z - z ^ 2 / (2 * s ^ 2))).
  { intros z Hz. unfold sterm, Rminus. rewrite exp_plus, exp_ln by exact Hz. field. lra. }
  rewrite (E x Hx), (E y Hy). assert (0 < / s ^ 2) by (apply Rinv_0_lt_compat; assumption). split; intros K.
  - apply Rnot_lt_le. intros L. apply exp_increasing in L. apply Rmult_le_reg_l in K; [lra|assumption].
  - apply Rmult_le_compat_l; [lra|]. destruct K as [K|K]; [left; apply exp_increasing; exact K|right; f_equal; exact K].
Qed.

Lemma ln_le_sub q : 0 < q -> ln q <= q - 1.
Proof.
  intros Hq. apply Rnot_lt_le. intros L. apply exp_increasing in L. rewrite exp_ln in L by exact Hq.
  pose proof (exp_ineq1_le (q - 1)). lra.
Qed.

Lemma sterm_rises s x y : 0 < s -> 0 < x -> x <= y -> y <= s -> sterm s x <= sterm s y.
Proof.
  intros Hs Hx Hxy Hy. apply sterm_quot; [exact Hs|exact Hx|lra|].
  assert (0 < s ^ 2) by (apply pow_lt; exact Hs).
  assert (L : ln x - ln y <= x / y - 1).
  { assert (0 < y) by lra.
    assert (E : ln (x / y) = ln x - ln y) by (unfold Rdiv; rewrite ln_mult, ln_Rinv by (try apply Rinv_0_lt_compat; lra); ring).
    rewrite <- E. apply ln_le_sub. apply Rmult_lt_0_compat; [exact Hx|apply Rinv_0_lt_compat; lra]. }
  assert (K : x ^ 2 / (2 * s ^ 2) - y ^ 2 / (2 * s ^ 2) = - ((y - x) * ((y + x) / (2 * s ^ 2)))) by (field; lra).
  assert (M : x / y - 1 = - ((y - x) * / y)) by (field; lra).
  assert (Q : (y + x) / (2 * s ^ 2) <= / y).
  { apply (Rmult_le_reg_r (2 * s ^ 2)); [lra|]. unfold Rdiv. rewrite Rmult_assoc, Rinv_l by lra.
    apply (Rmult_le_reg_r y); [lra|]. replace (/ y * (2 * s ^ 2) * y) with (2 * s ^ 2) by (field; lra). nra. }
  assert ((y - x) * ((y + x) / (2 * s ^ 2)) <= (y - x) * / y) by (apply Rmult_le_compat_l; lra). lra.
Qed.

Lemma sterm_falls s x y : 0 < s -> s <= x -> x <= y -> sterm s y <= sterm s x.
Proof.
  intros Hs Hx Hxy. apply sterm_quot; [exact Hs|lra|lra|].
  assert (0 < s ^ 2) by (apply pow_lt; exact Hs).
  assert (L : ln y - ln x <= y / x - 1).
  { assert (E : ln (y / x) = ln y - ln x) by (unfold Rdiv; rewrite ln_mult, ln_Rinv by (try apply Rinv_0_lt_compat; lra); ring).
    rewrite <- E. apply ln_le_sub. apply Rmult_lt_0_compat; [lra|apply Rinv_0_lt_compat; lra]. }
  assert (K : y ^ 2 / (2 * s ^ 2) - x ^ 2 / (2 * s ^ 2) = (y - x) * ((y + x) / (2 * s ^ 2))) by (field; lra).
  assert (M : y / x - 1 = (y - x) * / x) by (field; lra).
  assert (Q : / x <= (y + x) / (2 * s ^ 2)).
  { apply (Rmult_le_reg_r (2 * s ^ 2)); [lra|]. unfold Rdiv. rewrite (Rmult_assoc (y + x)), Rinv_l by lra.
    apply (Rmult_le_reg_r x); [lra|]. replace (/ x * (2 * s ^ 2) * x) with (2 * s ^ 2) by (field; lra). nra. }
  assert ((y - x) * / x <= (y - x) * ((y + x) / (2 * s ^ 2))) by (apply Rmult_le_compat_l; lra). lra.
Qed.

Lemma sprim_step s x : 0 < s -> exists z, x < z < x + 1 /\ sprim s (x + 1) - sprim s x = sterm s z.
Proof.
  intros Hs. destruct (MVT_cor2 (sprim s) (sterm s) x (x + 1) ltac:(lra) (fun z _ => sprim_deriv s z Hs)) as (z & E & Hz).
  exists z. split; [exact Hz|]. lra.
Qed.

Fixpoint ssum (s x0 : R) (n : nat) : R := match n with O => sterm s x0 | S n' => ssum s x0 n' + sterm s (x0 + INR n) end.

Lemma ssum_bounds s x0 n : 0 < s -> 0 < x0 ->
  let x := x0 + INR n in
  let d := sprim s x - sprim s x0 in
  (if Rle_dec x s then ssum s x0 n <= d + sterm s x else ssum s x0 n <= d + sterm s s) /\
  (if Rle_dec x s then d <= ssum s x0 n else d - sterm s s + sterm s x <= ssum s x0 n).
Proof.
  intros Hs Hx. induction n as [|n IH]; cbv zeta in *.
  - cbn [ssum INR]. rewrite Rplus_0_r. assert (0 < sterm s x0).
    { unfold sterm. apply Rmult_lt_0_compat; [|apply exp_pos]. apply Rmult_lt_0_compat; [exact Hx|apply Rinv_0_lt_compat; apply pow_lt; exact Hs]. }
    destruct (Rle_dec x0 s) as [L|L]; [lra|]. pose proof (sterm_falls s s x0 Hs ltac:(lra) ltac:(lra)). lra.
  - cbn [ssum]. rewrite !S_INR. replace (x0 + (INR n + 1)) with (x0 + INR n + 1) by ring. pose proof (pos_INR n) as PN.
    set (x := x0 + INR n) in *. assert (Px : 0 < x) by (unfold x; lra).
    destruct (sprim_step s x Hs) as (z & Hz & E). destruct IH as [I1 I2].
    assert (F1 : s <= x -> sterm s (x + 1) <= sterm s z /\ sterm s z <= sterm s x).
    { intros L. split; apply sterm_falls; lra. }
    assert (F2 : x + 1 <= s -> sterm s x <= sterm s z /\ sterm s z <= sterm s (x + 1)).
    { intros L. split; apply sterm_rises; lra. }
    assert (F3 : sterm s z <= sterm s s).
    { destruct (Rle_dec z s); [apply sterm_rises; lra|apply sterm_falls; lra]. }
    assert (F4 : x <= s -> sterm s x <= sterm s s) by (intros L; apply sterm_rises; lra).
    assert (F5 : s <= x + 1 -> sterm s (x + 1) <= sterm s s) by (intros L; apply sterm_falls; lra).
    destruct (Rle_dec (x + 1) s) as [L1|L1]; destruct (Rle_dec x s) as [L2|L2]; try (exfalso; lra).
    + specialize (F2 L1). lra.
    + specialize (F4 L2). specialize (F5 ltac:(lra)). split; [|lra].
      destruct (Rle_dec z s) as [Lz|Lz].
      * pose proof (sterm_rises s x z Hs Px ltac:(lra) Lz). lra.
      * pose proof (sterm_falls s z (x + 1) Hs ltac:(lra) ltac:(lra)). lra.
    + specialize (F1 ltac:(lra)). lra.
Qed.

(** Summed over the spins from the lowest up to any J, the densities for given spin add up
    to the total density times e^(-x0^2/2s^2) - e^(-x^2/2s^2), where x0 and x are the lowest
    and the highest spin plus a half, to within e^(-1/2)/s of it. Here s is the spin cut-off,
    several units for all but the lightest nuclides. *)
Fixpoint spins_total (m : bfg) (s0 : xr) (Ex : R) (lowest : Z) (n : nat) : xr :=
  match n with
  | O => snd (spin_density m s0 Ex lowest)
  | S n' => xadd (spins_total m s0 Ex lowest n') (snd (spin_density m s0 Ex (lowest + 2 * Z.of_nat n)))
  end.

Theorem C67_spin_sum t Zn A m s0 Ex : new_bfg t Zn A = Ok m -> (2 <= A)%Z -> moderate t Zn A -> 0 <= Ex ->
  exists s r, 0 < s /\ 0 < r /\ total_density m s0 Ex = (Fin s, Fin r) /\
  forall lowest n, (lowest = 0 \/ lowest = 1)%Z ->
    let x0 := (IZR lowest + 1) / 2 in
    exists q, spins_total m s0 Ex lowest n = Fin (r * q) /\
      Rabs (q - (exp (- (x0 ^ 2 / (2 * s ^ 2))) - exp (- ((x0 + INR n) ^ 2 / (2 * s ^ 2))))) <= exp (- (1 / 2)) / s.
Proof.
  intros H HA HM HE. assert (HA0 : (0 < A)%Z) by lia. apply (moderate_good _ _ _ _ H HA0) in HM.
  assert (HP := parameter_pos t Zn A m Ex H HA0 HM). pose proof (sigd_pos _ _ _ _ H HA0) as PD.
  assert (HT : exists s r, 0 < s /\ 0 < r /\ total_density m s0 Ex = (Fin s, Fin r)).
  { destruct (Rle_dec Ex (b_Delta m)) as [HD|HD].
    - exists (b_sigd m), (exp 1 * density_parameter m Ex / (12 * b_sigd m)). split; [exact PD|]. split.
      + apply Rmult_lt_0_compat; [apply Rmult_lt_0_compat; [apply exp_pos|exact HP]|apply Rinv_0_lt_compat; lra].
      + unfold total_density. cbv zeta. destruct (Rle_dec (Ex - b_Delta m) 0); [reflexivity|lra].
    - destruct (total_regular t Zn A m s0 Ex H HA0 HE ltac:(lra) HP) as (Ps & _ & ->).
      eexists _, _. split; [exact Ps|]. split; [|reflexivity]. apply Rinv_0_lt_compat. apply Rmult_lt_0_compat; [lra|].
      apply density_inner_pos; [exact HP|lra]. }
  destruct HT as (s & r & Ps & Pr & HT). exists s, r. split; [exact Ps|]. split; [exact Pr|]. split; [exact HT|].
  intros lowest n HL x0. exists (ssum s x0 n).
  assert (T : forall J, snd (spin_density m s0 Ex J) = Fin (r * sterm s ((IZR J + 1) / 2))).
  { intros J. unfold spin_density. rewrite HT. destruct (Req_EM_T s 0) as [N|_]; [lra|]. cbv zeta. cbn [snd]. f_equal. unfold sterm.
    rewrite plus_IZR. rewrite (Rmult_comm r). f_equal. f_equal; [field; lra|]. f_equal. field. lra. }
  split.
  - induction n as [|n IH]; cbn [spins_total ssum]; [rewrite T; reflexivity|]. rewrite IH, T. cbn [xadd]. f_equal.
    rewrite <- Rmult_plus_distr_l. do 3 f_equal. unfold x0. rewrite plus_IZR, mult_IZR, <- INR_IZR_INZ. lra.
  - assert (Px : 0 < x0) by (unfold x0; destruct HL as [->| ->]; lra).
    destruct (ssum_bounds s x0 n Ps Px) as [B1 B2]. cbv zeta in B1, B2. set (x := x0 + INR n) in *.
    assert (M : sterm s s = exp (- (1 / 2)) / s).
    { unfold sterm. replace (s ^ 2 / (2 * s ^ 2)) with (1 / 2) by (field; lra). field. lra. }
    assert (PM : 0 <= sterm s x).
    { unfold sterm. apply Rmult_le_pos; [|left; apply exp_pos]. apply Rmult_le_pos; [unfold x; pose proof (pos_INR n); lra|].
      left. apply Rinv_0_lt_compat. apply pow_lt. exact Ps. }
    assert (PX : 0 < x) by (unfold x; pose proof (pos_INR n); lra).
    assert (PQ : x <= s -> sterm s x <= sterm s s) by (intros L; apply sterm_rises; lra).
    unfold sprim in B1, B2. rewrite <- M. apply Rabs_le.
    destruct (Rle_dec x s) as [L|L]; [specialize (PQ L)|]; lra.
Qed.
Print Assumptions C67_spin_sum.

(** ** Cases *)

(** A table without the nuclide: the masses estimated. *)
Definition t0 : mtab := mkmt [(11%Z, 548580); (2112%Z, 1008664916)] [].
Example C67_example : exists m, new_bfg t0 18 40 = Ok m /\ moderate t0 18 40.
Proof. eexists. split; [reflexivity|]. eapply C67_estimated; [reflexivity|lia|reflexivity]. Qed.

(** Carbon 12, of mass 12 u: its binding beyond the liquid drop estimate outweighs the
    asymptotic parameter. The density is negative up to the energy shift and not a number
    at energies just above it. *)
Definition t1 : mtab := mkmt [(11%Z, 548580); (2112%Z, 1008664916)] [(1000060120%Z, 12000000)].

Theorem C67_carbon_refuted : exists m, new_bfg t1 6 12 = Ok m /\
  (forall s0 Ex, Ex <= b_Delta m -> exists r, snd (total_density m s0 Ex) = Fin r /\ r < 0) /\
  (forall s0 Ex, b_Delta m < Ex <= b_Delta m + 1 / 100 -> snd (total_density m s0 Ex) = NaN).
Proof.
  eexists. split; [reflexivity|]. set (m := mkbfg _ _ _ _ _ _ _ _).
  assert (H : new_bfg t1 6 12 = Ok m) by reflexivity. clearbody m.
  destruct (new_form _ _ _ _ H ltac:(lia)) as (c & W & Pc & C3 & EM & _ & _ & Ea & Eg & Ew & _).
  pose proof (sigd_pos _ _ _ _ H ltac:(lia)) as PD. pose proof (a_inf_pos 12 c ltac:(lia) Pc) as PA. pose proof (damping_pos c Pc) as PG.
  assert (C1 : 2289 / 1000 < c) by (apply Rnot_le_lt; intros L; assert (c ^ 3 <= (2289 / 1000) ^ 3) by (apply pow_incr; lra); lra).
  assert (C2 : c < 229 / 100) by (apply Rnot_le_lt; intros L; assert ((229 / 100) ^ 3 <= c ^ 3) by (apply pow_incr; lra); lra).
  assert (HW : W < - (574 / 100)).
  { unfold mass_excess, lookup_ZA in EM. change (assoc (nucleus_pid 6 12) (t_atom t1)) with (Some 12000000) in EM. cbn [bind] in EM. injection EM as EM.
    unfold ldm_excess in EM. change (12 - 6)%Z with 6%Z in EM. change (6 - 6)%Z with 0%Z in EM. change (Z.odd 6) with false in EM. cbv zeta in EM. cbn [andb negb] in EM.
    destruct (cube_root 12 ltac:(lia)) as [Q1 Q2]. rewrite (cube_inj _ c Q1 Pc ltac:(congruence)) in EM.
    assert (P2 : Rpower 12 (2 / 3) = c ^ 2).
    { rewrite <- (cube_inj _ c Q1 Pc ltac:(congruence)). rewrite <- Rpower_pow by exact Q1. rewrite Rpower_mult. f_equal. cbn [INR]. lra. }
    rewrite P2 in EM.
    assert (S1 : 3464 / 1000 < sqrt 12) by (apply Rsqr_incrst_0; [rewrite Rsqr_sqrt by lra; unfold Rsqr; lra|lra|apply sqrt_pos]).
    assert (S2 : - 11 / sqrt 12 > - (31756 / 10000)).
    { assert (/ sqrt 12 < / (3464 / 1000)) by (apply Rinv_lt_contravar; [apply Rmult_lt_0_compat; lra|exact S1]).
      replace (/ (3464 / 1000)) with (1000 / 3464) in * by field. unfold Rdiv at 1. lra. }
    assert (S3 : 717 / 1000 / c > 3131 / 10000).
    { assert (/ (229 / 100) < / c) by (apply Rinv_lt_contravar; [apply Rmult_lt_0_compat; lra|exact C2]).
      replace (/ (229 / 100)) with (100 / 229) in * by field. unfold Rdiv at 1. lra. }
    assert (S4 : (2289 / 1000) ^ 2 < c ^ 2) by (cbn [pow]; nra).
    lra. }
  assert (K : 1 + damping c * W / (1 + 18 / 10000) < 0).
  { assert (G1 : 1791 / 10000 < damping c).
    { unfold damping. assert (/ (229 / 100) < / c) by (apply Rinv_lt_contravar; [apply Rmult_lt_0_compat; lra|exact C2]).
      replace (/ (229 / 100)) with (100 / 229) in * by field. unfold Rdiv at 1. lra. }
    assert (damping c * W < 1791 / 10000 * - (574 / 100)) by nra. lra. }
  assert (G2 : damping c < 1795 / 10000).
  { unfold damping. assert (/ c < / (2289 / 1000)) by (apply Rinv_lt_contravar; [apply Rmult_lt_0_compat; lra|exact C1]).
    replace (/ (2289 / 1000)) with (1000 / 2289) in * by field. unfold Rdiv at 1. lra. }
  split; intros s0 Ex HE.
  - exists (exp 1 * (b_atilde m * (1 + b_gamma m * b_dW m)) / (12 * b_sigd m)). split.
    + unfold total_density, density_parameter. cbv zeta. destruct (Rle_dec (Ex - b_Delta m) 0); [reflexivity|lra].
    + rewrite Ea, Eg, Ew. assert (1 + damping c * W < 0) by nra. pose proof (exp_pos 1) as PE.
      assert (0 < exp 1 * a_inf 12 c * / (12 * b_sigd m)) by (apply Rmult_lt_0_compat; [apply Rmult_lt_0_compat; assumption|apply Rinv_0_lt_compat; lra]).
      unfold Rdiv. replace (exp 1 * (a_inf 12 c * (1 + damping c * W)) * / (12 * b_sigd m)) with ((exp 1 * a_inf 12 c * / (12 * b_sigd m)) * (1 + damping c * W)) by ring. nra.
  - unfold total_density. cbv zeta. destruct (Rle_dec (Ex - b_Delta m) 0) as [N|_]; [lra|].
    assert (HN : density_parameter m Ex < 0).
    { unfold density_parameter. cbv zeta. destruct (Rle_dec (Ex - b_Delta m) 0) as [N|_]; [lra|]. rewrite Ea, Eg, Ew.
      set (U := Ex - b_Delta m) in *. assert (PU : 0 < U <= 1 / 100) by (unfold U; lra). clearbody U.
      set (g := damping c) in *. assert (PX : 0 < g * U) by (apply Rmult_lt_0_compat; lra). destruct (exp_bounds _ PX) as [B1 _].
      replace (- g * U) with (- (g * U)) by ring. set (q := 1 - exp (- (g * U))) in *.
      assert (Q : g / (1 + 18 / 10000) < q / U).
      { apply (Rmult_lt_reg_r U); [lra|]. replace (q / U * U) with q by (field; lra). refine (Rle_lt_trans _ _ _ _ B1).
        replace (g / (1 + 18 / 10000) * U) with (g * U / (1 + 18 / 10000)) by field.
        apply Rmult_le_compat_l; [lra|]. apply Rinv_le_contravar; [lra|]. assert (g * U <= 1795 / 10000 * (1 / 100)) by nra. lra. }
      replace (W / U * q) with (W * (q / U)) by (field; lra). set (v := q / U) in *. clearbody v g q.
      replace (g * W / (1 + 18 / 10000)) with (W * (g / (1 + 18 / 10000))) in K by field. set (w := g / (1 + 18 / 10000)) in *. clearbody w.
      clear - K HW Q PA. assert (W * v < W * w) by nra. nra. }
    destruct (Rlt_dec (density_parameter m Ex) 0) as [_|N]; [reflexivity|contradiction].
Qed.
Print Assumptions C67_carbon_refuted.
