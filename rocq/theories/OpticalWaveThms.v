(** More theorems about the radial equation and the matching of the optical model. *)
From Coq Require Import List ZArith Reals Bool Lia Lra.
From Verif Require Import Base Dbl Pdg Mass Strength Optical OpticalThms OpticalRunThms.
Import ListNotations.
Open Scope R_scope.

(** [u] satisfies u'' = - a u at all positive radii. *)
Definition solves (a u : R -> R) : Prop :=
  exists u', (forall r, 0 < r -> derivable_pt_lim u r (u' r)) /\ (forall r, 0 < r -> derivable_pt_lim u' r (- a r * u r)).

Lemma dlim_eq f r v w : derivable_pt_lim f r v -> v = w -> derivable_pt_lim f r w.
Proof. intros H <-. exact H. Qed.

Lemma dlim_scale c f r v : derivable_pt_lim f r v -> derivable_pt_lim (fun x => c * f x) r (c * v).
Proof. intros H. apply (derivable_pt_lim_scal f c r v H). Qed.

Lemma dlim_sin q r : derivable_pt_lim (fun x => sin (q * x)) r (q * cos (q * r)).
Proof.
  eapply dlim_eq; [apply (derivable_pt_lim_comp (fun x => q * x) sin r q (cos (q * r)))|ring].
  - eapply dlim_eq; [apply dlim_scale; apply derivable_pt_lim_id|ring].
  - apply derivable_pt_lim_sin.
Qed.
Lemma dlim_cos q r : derivable_pt_lim (fun x => cos (q * x)) r (- q * sin (q * r)).
Proof.
  eapply dlim_eq; [apply (derivable_pt_lim_comp (fun x => q * x) cos r q (- sin (q * r)))|ring].
  - eapply dlim_eq; [apply dlim_scale; apply derivable_pt_lim_id|ring].
  - apply derivable_pt_lim_cos.
Qed.

(** The equation that is integrated is the radial Schroedinger equation: without momentum the
    powers r^(l+1) solve it, which is how the code starts; s waves in a constant potential are
    sines of the wave number there; free p waves are Riccati-Bessel functions. The imaginary
    part is minus that of the potential in these units. *)
Theorem C69_radial K p2 : 0 < K -> 0 < p2 ->
  let hc := 1973269718 / 10 ^ 7 in
  (forall n U, solves (fun r => fst (radial K 0 (Z.of_nat n) r (U r))) (fun r => r ^ S n)) /\
  (forall V, V < K -> solves (fun r => fst (radial K p2 0 r (V, 0))) (fun r => sin (sqrt (p2 * (1 - V / K)) / hc * r))) /\
  (let q := sqrt p2 / hc in solves (fun r => fst (radial K p2 1 r (0, 0))) (fun r => sin (q * r) / (q * r) - cos (q * r))) /\
  (forall l r V W, snd (radial K p2 l r (V, W)) = - (p2 / hc ^ 2) * (W / K)).
Proof.
  intros PK Pp hc. assert (Eh : hbar_c = hc) by reflexivity. assert (Ph : 0 < hc) by (unfold hc; lra). clearbody hc.
  split; [|split; [|split]].
  - intros n U. exists (fun r => INR (S n) * r ^ n). split.
    + intros r Hr. apply derivable_pt_lim_pow.
    + intros r Hr. eapply dlim_eq; [apply dlim_scale; apply derivable_pt_lim_pow|].
      unfold radial, cadd, cre, cscale, csub. cbn [fst snd]. unfold Rdiv at 2. rewrite Rmult_0_l, Rmult_0_l, Rplus_0_r.
      rewrite mult_IZR, opp_IZR, plus_IZR, <- INR_IZR_INZ. rewrite S_INR. cbn [pow].
      destruct n as [|n]; [cbn [INR pred pow]; unfold Rdiv; ring|]. cbn [pred pow]. field. lra.
  - intros V HV. set (q := sqrt (p2 * (1 - V / K)) / hc). exists (fun r => q * cos (q * r)). split.
    + intros r Hr. apply dlim_sin.
    + intros r Hr. eapply dlim_eq; [apply dlim_scale; apply dlim_cos|].
      assert (Q : q * q = p2 * (1 - V / K) / (hc * hc)).
      { unfold q. replace (sqrt (p2 * (1 - V / K)) / hc * (sqrt (p2 * (1 - V / K)) / hc)) with (sqrt (p2 * (1 - V / K)) * sqrt (p2 * (1 - V / K)) / (hc * hc)) by (field; lra).
        rewrite sqrt_sqrt; [reflexivity|]. apply Rmult_le_pos; [lra|]. assert (V / K < 1) by (apply Rmult_lt_reg_r with K; [exact PK|]; unfold Rdiv; rewrite Rmult_assoc, Rinv_l by lra; lra). lra. }
      replace (q * (- q * sin (q * r))) with (- (q * q) * sin (q * r)) by ring. rewrite Q.
      unfold radial, cadd, cre, cscale, csub. cbn [fst snd Z.opp Z.mul]. rewrite Eh. field. repeat split; lra.
  - intros q. assert (Pq : 0 < q) by (apply Rdiv_lt_0_compat; [apply sqrt_lt_R0; exact Pp|exact Ph]).
    assert (Q : q * q = p2 / (hc * hc)).
    { unfold q. replace (sqrt p2 / hc * (sqrt p2 / hc)) with (sqrt p2 * sqrt p2 / (hc * hc)) by (field; lra). rewrite sqrt_sqrt by lra. reflexivity. }
    assert (Dinv : forall r, 0 < r -> derivable_pt_lim (fun x => / x) r (- / r ^ 2)).
    { intros r Hr. eapply dlim_eq; [|instantiate (1 := (0 * id r - 1 * 1) / Rsqr (id r)); unfold id, Rsqr; field; lra].
      assert (I : derivable_pt_lim (fct_cte 1 / id)%F r ((0 * id r - 1 * fct_cte 1 r) / Rsqr (id r))).
      { apply derivable_pt_lim_div; [apply derivable_pt_lim_const|apply derivable_pt_lim_id|unfold id; lra]. }
      unfold fct_cte in I at 2. intros eps He. destruct (I eps He) as [d Hd]. exists d. intros h H1 H2. specialize (Hd h H1 H2).
      unfold div_fct, fct_cte, id in Hd. unfold Rdiv in Hd at 2 3. rewrite !Rmult_1_l in Hd. unfold id. rewrite ?Rmult_1_l in *. exact Hd. }
    assert (DS : forall r, 0 < r -> derivable_pt_lim (fun x => sin (q * x) * / x) r (q * cos (q * r) * / r + sin (q * r) * (- / r ^ 2))).
    { intros r Hr. apply (derivable_pt_lim_mult (fun x => sin (q * x)) (fun x => / x)); [apply dlim_sin|apply Dinv; exact Hr]. }
    assert (DC : forall r, 0 < r -> derivable_pt_lim (fun x => cos (q * x) * / x) r (- q * sin (q * r) * / r + cos (q * r) * (- / r ^ 2))).
    { intros r Hr. apply (derivable_pt_lim_mult (fun x => cos (q * x)) (fun x => / x)); [apply dlim_cos|apply Dinv; exact Hr]. }
    assert (DSS : forall r, 0 < r -> derivable_pt_lim (fun x => sin (q * x) * / x * / x) r
      ((q * cos (q * r) * / r + sin (q * r) * (- / r ^ 2)) * / r + sin (q * r) * / r * (- / r ^ 2))).
    { intros r Hr. apply (derivable_pt_lim_mult (fun x => sin (q * x) * / x) (fun x => / x)); [apply DS; exact Hr|apply Dinv; exact Hr]. }
    exists (fun r => / q * (q * (cos (q * r) * / r) - sin (q * r) * / r * / r) + q * sin (q * r)). split.
    + intros r Hr.
      assert (X : derivable_pt_lim (fun x => / q * (sin (q * x) * / x) - cos (q * x)) r
        (/ q * (q * cos (q * r) * / r + sin (q * r) * (- / r ^ 2)) - - q * sin (q * r))).
      { apply (derivable_pt_lim_minus (fun x => / q * (sin (q * x) * / x)) (fun x => cos (q * x))); [apply dlim_scale; apply DS; exact Hr|apply dlim_cos]. }
      eapply dlim_eq; [|instantiate (1 := / q * (q * cos (q * r) * / r + sin (q * r) * (- / r ^ 2)) - - q * sin (q * r)); field; lra].
      intros eps He. destruct (X eps He) as [d Hd]. assert (Pd : 0 < Rmin d r) by (apply Rmin_pos; [apply cond_pos|exact Hr]).
      exists (mkposreal _ Pd). intros h H1 H2. cbn [pos] in H2.
      assert (Hh : Rabs h < d) by (eapply Rlt_le_trans; [exact H2|apply Rmin_l]).
      assert (Hr2 : Rabs h < r) by (eapply Rlt_le_trans; [exact H2|apply Rmin_r]). apply Rabs_def2 in Hr2.
      specialize (Hd h H1 Hh). 
      replace (sin (q * (r + h)) / (q * (r + h)) - cos (q * (r + h))) with (/ q * (sin (q * (r + h)) * / (r + h)) - cos (q * (r + h))) by (field; lra).
      replace (sin (q * r) / (q * r) - cos (q * r)) with (/ q * (sin (q * r) * / r) - cos (q * r)) by (field; lra). exact Hd.
    + intros r Hr.
      assert (X : derivable_pt_lim (fun r => / q * (q * (cos (q * r) * / r) - sin (q * r) * / r * / r) + q * sin (q * r)) r
        (/ q * (q * (- q * sin (q * r) * / r + cos (q * r) * (- / r ^ 2)) - ((q * cos (q * r) * / r + sin (q * r) * (- / r ^ 2)) * / r + sin (q * r) * / r * (- / r ^ 2))) + q * (q * cos (q * r)))).
      { apply (derivable_pt_lim_plus (fun r => / q * (q * (cos (q * r) * / r) - sin (q * r) * / r * / r)) (fun r => q * sin (q * r))).
        - apply dlim_scale. apply (derivable_pt_lim_minus (fun r => q * (cos (q * r) * / r)) (fun r => sin (q * r) * / r * / r)); [apply dlim_scale; apply DC; exact Hr|apply DSS; exact Hr].
        - apply dlim_scale. apply dlim_sin. }
      eapply dlim_eq; [exact X|]. unfold radial, cadd, cre, cscale, csub. cbn [fst snd]. change (- (1) * (1 + 1))%Z with (-2)%Z. rewrite Eh, <- Q.
      field. repeat split; lra.
  - intros l r V W. unfold radial, cadd, cre, cscale, csub. cbn [fst snd]. rewrite Eh. field. split; lra.
Qed.
Print Assumptions C69_radial.

(** The Sommerfeld parameter is the product of the charges and the fine-structure constant over
    the fragment's speed in the target's rest frame. *)
Theorem C69_sommerfeld Q q m T beta : 0 < m -> 0 < T -> 0 < beta -> (T + m) ^ 2 * (1 - beta ^ 2) = m ^ 2 ->
  sommerfeld Q q m T * beta = IZR Q * IZR q * (72973525698 / 10 ^ 13).
Proof.
  intros Hm HT Hb E. unfold sommerfeld. assert (P : 0 < T ^ 2 + 2 * T * m) by (assert (0 < T * T) by (apply Rmult_lt_0_compat; lra); assert (0 < T * m) by (apply Rmult_lt_0_compat; lra); nra).
  assert (X : real_sqrt (T ^ 2 + 2 * T * m) / (T + m) = beta).
  { unfold real_sqrt. destruct (Rlt_dec _ 0); [lra|]. replace (T ^ 2 + 2 * T * m) with ((beta * (T + m)) ^ 2) by (replace ((beta * (T + m)) ^ 2) with ((T + m) ^ 2 - (T + m) ^ 2 * (1 - beta ^ 2)) by ring; rewrite E; ring).
    rewrite sqrt_pow2 by (apply Rmult_le_pos; lra). field. lra. }
  rewrite X. cbv zeta. destruct (Rle_dec beta 0); [lra|]. rewrite mult_IZR. unfold fine_structure. field. lra.
Qed.
Print Assumptions C69_sommerfeld.

Example C69_sommerfeld_example : let m := 9 in let T := 6 in 0 < 4 / 5 /\ (T + m) ^ 2 * (1 - (4 / 5) ^ 2) = m ^ 2.
Proof. cbv zeta. lra. Qed.

(** The mass that is used for the target is that of its atom without the electrons removed from
    it. *)
Theorem C69_target t k q M me : target_mass t k q = Ok M -> particle_mass t 11 = Ok me ->
  atomic_mass_ZA t (k_Z k) (k_A k) true = Ok (M + IZR q * me).
Proof.
  intros H E. unfold target_mass in H. destruct (atomic_mass_ZA t (k_Z k) (k_A k) true) as [m|]; [|discriminate H]. cbn [bind] in H. rewrite E in H. cbn [bind] in H.
  injection H as <-. f_equal. ring.
Qed.
Print Assumptions C69_target.

Example C69_target_example : exists M me, target_mass t_om k_om 500 = Ok M /\ particle_mass t_om 11 = Ok me /\ 0 < me /\ M < 1000000000000 * micro_amu.
Proof.
  exists (1000000000000 * micro_amu - 500 * (micro_amu * 548580)), (micro_amu * 548580). split; [reflexivity|]. split; [reflexivity|]. unfold micro_amu. lra.
Qed.

(** ** Matching *)

Lemma loop_match_steps fuel h K p2 l pot nuc s0 : forall s x, stepped h K p2 l pot s0 s -> loop_match fuel h K p2 l pot nuc s = Ok x ->
  stepped h K p2 l pot s0 x /\ cabs (nuc (n_r x)) <= 1 / 1000.
Proof.
  induction fuel as [|f IH]; intros s x Hs H; [discriminate H|]. cbn [loop_match] in H. cbv zeta in H.
  destruct (Rlt_dec _ _) as [L|L]; [apply (IH _ _ (SNext _ _ _ _ _ _ _ Hs) H)|]. injection H as <-. split; [apply SNext; exact Hs|lra].
Qed.
Lemma loop_beyond_steps fuel h K p2 l pot rm s0 : forall s x, stepped h K p2 l pot s0 s -> loop_beyond fuel h K p2 l pot rm s = Ok x ->
  stepped h K p2 l pot s0 x /\ rm <= n_r x.
Proof.
  induction fuel as [|f IH]; intros s x Hs H; [discriminate H|]. cbn [loop_beyond] in H. cbv zeta in H.
  destruct (Rlt_dec _ _) as [L|L]; [apply (IH _ _ (SNext _ _ _ _ _ _ _ Hs) H)|]. injection H as <-. split; [apply SNext; exact Hs|lra].
Qed.

(** The element is found by matching at two radii, the first where the nuclear potential is at
    most a keV and the second at least a fifth farther out: if the wave function found by the
    integration is incoming minus S times outgoing Coulomb wave at both, the answer is S. *)
Theorem C69_matching H fuel k s l sm eta beta : s_matrix H fuel k s l = Ok sm ->
  0 < s_m s -> 0 < s_T s -> 0 <= s_p2 s ->
  0 < beta -> (s_T s + s_m s) ^ 2 * (1 - beta ^ 2) = s_m s ^ 2 -> eta = IZR (k_Z k) * IZR (o_z (s_om s)) * (72973525698 / 10 ^ 13) / beta ->
  let pot r := cadd (omp_minus_Vc (s_om s) r) (coulomb r (k_Rc k) (o_z (s_om s)) (k_Z k), 0) in
  let h := k_step k in
  let q := sqrt (s_p2 s) / (1973269718 / 10 ^ 7) in
  exists x y, 
    stepped h (s_K s) (s_p2 s) l pot (mknst h (0, 0) (radial (s_K s) (s_p2 s) l h (pot h)) (Some (0, 0)) (Some (powerRZ h (l + 1), 0))) x /\
    stepped h (s_K s) (s_p2 s) l pot x y /\
    cabs (omp_minus_Vc (s_om s) (n_r x)) <= 1 / 1000 /\ 1.2 * n_r x <= n_r y /\
    forall C S h1 h2, H l eta (q * n_r x) = Some h1 -> H l eta (q * n_r y) = Some h2 ->
      n_u0 x = Some (cmul C (csub (cconj h1) (cmul S h1))) -> n_u0 y = Some (cmul C (csub (cconj h2) (cmul S h2))) ->
      C <> (0, 0) -> csub (cmul (cconj h1) h2) (cmul (cconj h2) h1) <> (0, 0) -> sm = Some S.
Proof.
  intros E Hm HT Hp Hb Eb Ee pot h q. unfold s_matrix, s_matrix_from in E. cbv zeta in E.
  destruct (loop_match _ _ _ _ _ _ _ _) as [x|] eqn:E1; [|discriminate E]. cbn [bind] in E.
  destruct (loop_beyond _ _ _ _ _ _ _ _) as [y|] eqn:E2; [|discriminate E]. cbn [bind] in E. apply (f_equal (fun r => match r with Ok v => v | Er _ => None end)) in E. cbv beta iota in E.
  exists x, y.
  destruct (loop_match_steps _ _ _ _ _ _ _ _ _ _ (SStart _ _ _ _ _ _) E1) as [S1 L1].
  destruct (loop_beyond_steps _ _ _ _ _ _ _ _ _ _ (SStart _ _ _ _ _ _) E2) as [S2 L2].
  split; [exact S1|]. split; [exact S2|]. split; [exact L1|]. split; [lra|].
  intros C S h1 h2 G1 G2 U1 U2 HC HD. rewrite <- E.
  assert (EE : sommerfeld (k_Z k) (o_z (s_om s)) (s_m s) (s_T s) = eta).
  { rewrite Ee, <- (C69_sommerfeld (k_Z k) (o_z (s_om s)) (s_m s) (s_T s) beta Hm HT Hb Eb). field. lra. }
  assert (EQ : real_sqrt (s_p2 s) / hbar_c = q) by (unfold real_sqrt; destruct (Rlt_dec _ 0); [lra|reflexivity]).
  rewrite EE, EQ, G1, G2, U1, U2. unfold s_ratio.
  set (D := csub (cmul (cconj h1) h2) (cmul (cconj h2) h1)) in *.
  match goal with |- cdiv ?a ?b = _ => assert (Ea : a = cmul (cmul C D) S); [|assert (Eb2 : b = cmul C D)] end.
  - unfold D, cmul, csub, cconj. cbn [fst snd]. f_equal; ring.
  - unfold D, cmul, csub, cconj. cbn [fst snd]. f_equal; ring.
  - rewrite Ea, Eb2. apply cdiv_mul. intros Z0. apply cnorm_zero in Z0. rewrite cnorm_mul in Z0. apply Rmult_integral in Z0.
    destruct Z0 as [Z0|Z0]; apply cnorm_zero in Z0; contradiction.
Qed.
Print Assumptions C69_matching.
