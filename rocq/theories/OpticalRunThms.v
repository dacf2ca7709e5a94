(** Theorems about wave functions and S-matrix elements of the optical model (Optical.v). *)
From Coq Require Import List ZArith Reals Bool Lia Lra Permutation.
From Verif Require Import Base Dbl Pdg Mass Strength Optical OpticalThms.
Import ListNotations.
Open Scope R_scope.

(** ** Complex numbers *)

Lemma cnorm_mul x y : cnorm (cmul x y) = cnorm x * cnorm y.
Proof. unfold cnorm, cmul. cbn [fst snd]. ring. Qed.

Lemma cnorm_zero x : cnorm x = 0 <-> x = (0, 0).
Proof.
  unfold cnorm. destruct x as [a b]. cbn [fst snd]. split.
  - intros H. pose proof (pow2_ge_0 a). pose proof (pow2_ge_0 b). assert (A : a ^ 2 = 0) by lra. assert (B : b ^ 2 = 0) by lra.
    f_equal; [destruct (Req_dec a 0) as [E|N]; [exact E|exfalso; apply (pow_nonzero a 2 N A)]|destruct (Req_dec b 0) as [E|N]; [exact E|exfalso; apply (pow_nonzero b 2 N B)]].
  - intros E. injection E as -> ->. ring.
Qed.

Lemma cdiv_scale c x y : cdiv (cmul c x) y = option_map (cmul c) (cdiv x y).
Proof.
  unfold cdiv. destruct (Req_EM_T (cnorm y) 0); [reflexivity|]. cbn [option_map]. f_equal. unfold cscale, cmul, cconj. cbn [fst snd]. f_equal; ring.
Qed.

Lemma cdiv_cancel c x y : c <> (0, 0) -> cdiv (cmul c x) (cmul c y) = cdiv x y.
Proof.
  intros Hc. assert (Nc : cnorm c <> 0) by (intros E; apply Hc; apply cnorm_zero; exact E).
  unfold cdiv. rewrite cnorm_mul. destruct (Req_EM_T (cnorm y) 0) as [E|N].
  - destruct (Req_EM_T (cnorm c * cnorm y) 0) as [_|M]; [reflexivity|]. exfalso. apply M. rewrite E. ring.
  - destruct (Req_EM_T (cnorm c * cnorm y) 0) as [M|_]; [exfalso; apply Rmult_integral in M; tauto|]. f_equal.
    unfold cscale, cmul, cconj. unfold cnorm in *. cbn [fst snd]. destruct c as [c1 c2], x as [x1 x2], y as [y1 y2]. cbn [fst snd] in *.
    f_equal; field; split; assumption.
Qed.

Lemma cdiv_mul x d : d <> (0, 0) -> cdiv (cmul d x) d = Some x.
Proof.
  intros Hd. assert (Nd : cnorm d <> 0) by (intros E; apply Hd; apply cnorm_zero; exact E).
  unfold cdiv. destruct (Req_EM_T (cnorm d) 0); [contradiction|]. f_equal. unfold cscale, cmul, cconj. unfold cnorm in *. destruct d as [d1 d2], x as [x1 x2]. cbn [fst snd] in *.
  f_equal; field; assumption.
Qed.

Lemma cdiv_some x y z : cdiv x y = Some z -> y <> (0, 0) /\ x = cmul y z.
Proof.
  unfold cdiv. destruct (Req_EM_T (cnorm y) 0) as [E|N]; [discriminate|]. intros H. injection H as <-. split.
  - intros ->. apply N. apply cnorm_zero. reflexivity.
  - unfold cscale, cmul, cconj. unfold cnorm in *. destruct x as [x1 x2], y as [y1 y2]. cbn [fst snd] in *. f_equal; field; assumption.
Qed.

(** ** Numerov's method *)

(** It is exact for polynomials up to degree five: if [u] satisfies u'' = - a u at the three
    points, the step from the two before gives the value at the third. *)
Definition quintic (c : nat -> R) (x : R) : R := c 0%nat + c 1%nat * x + c 2%nat * x ^ 2 + c 3%nat * x ^ 3 + c 4%nat * x ^ 4 + c 5%nat * x ^ 5.
Definition quintic'' (c : nat -> R) (x : R) : R := 2 * c 2%nat + 6 * c 3%nat * x + 12 * c 4%nat * x ^ 2 + 20 * c 5%nat * x ^ 3.

Theorem C69_numerov c d r h a2 a1 a0 :
  let u x := (quintic c x, quintic d x) in
  let u'' x := (quintic'' c x, quintic'' d x) in
  cmul a2 (u (r - h)) = cscale (- 1) (u'' (r - h)) -> cmul a1 (u r) = cscale (- 1) (u'' r) -> cmul a0 (u (r + h)) = cscale (- 1) (u'' (r + h)) ->
  cadd (cre 1) (cscale (h ^ 2 / 12) a0) <> (0, 0) ->
  numerov h a2 a1 a0 (Some (u (r - h))) (Some (u r)) = Some (u (r + h)).
Proof.
  intros u u'' H2 H1 H0 N. unfold numerov. etransitivity; [|exact (cdiv_mul (u (r + h)) _ N)]. f_equal.
  assert (X : forall q a v, cmul (cadd (cre 1) (cscale q a)) v = cadd v (cscale q (cmul a v))).
  { intros q a v. unfold cmul, cadd, cscale, cre. cbn [fst snd]. f_equal; ring. }
  assert (Y : forall q a v, cmul (csub (cre 2) (cscale q a)) v = csub (cscale 2 v) (cscale q (cmul a v))).
  { intros q a v. unfold cmul, csub, cscale, cre. cbn [fst snd]. f_equal; ring. }
  rewrite !X, Y, H2, H1, H0. unfold csub, cadd, cscale, u, u''. cbn [fst snd]. unfold quintic, quintic''. f_equal; field.
Qed.
Print Assumptions C69_numerov.

(** ** The start value does not matter *)

Definition scaled_nst (c : cpx) (s : nst) : nst :=
  mknst (n_r s) (n_a1 s) (n_a0 s) (option_map (cmul c) (n_u1 s)) (option_map (cmul c) (n_u0 s)).

Lemma numerov_scale h c a2 a1 a0 u2 u1 :
  numerov h a2 a1 a0 (option_map (cmul c) u2) (option_map (cmul c) u1) = option_map (cmul c) (numerov h a2 a1 a0 u2 u1).
Proof.
  destruct u2 as [u2|], u1 as [u1|]; cbn [option_map numerov]; try reflexivity. rewrite <- cdiv_scale. f_equal.
  unfold cmul, csub, cadd, cscale, cre. cbn [fst snd]. f_equal; ring.
Qed.

Lemma nstep_scale h K p2 l pot c s : nstep h K p2 l pot (scaled_nst c s) = scaled_nst c (nstep h K p2 l pot s).
Proof. unfold nstep, scaled_nst. cbn [n_r n_a1 n_a0 n_u1 n_u0]. rewrite numerov_scale. reflexivity. Qed.

Definition res_map {A B} (f : A -> B) (x : res A) : res B := match x with Ok a => Ok (f a) | Er e => Er e end.

Lemma loop_match_scale h K p2 l pot nuc c fuel : forall s,
  loop_match fuel h K p2 l pot nuc (scaled_nst c s) = res_map (scaled_nst c) (loop_match fuel h K p2 l pot nuc s).
Proof.
  induction fuel as [|f IH]; intros s; [reflexivity|]. cbn [loop_match]. rewrite nstep_scale. cbn [n_r scaled_nst].
  destruct (Rlt_dec _ _); [apply IH|reflexivity].
Qed.

Lemma loop_beyond_scale h K p2 l pot rm c fuel : forall s,
  loop_beyond fuel h K p2 l pot rm (scaled_nst c s) = res_map (scaled_nst c) (loop_beyond fuel h K p2 l pot rm s).
Proof.
  induction fuel as [|f IH]; intros s; [reflexivity|]. cbn [loop_beyond]. rewrite nstep_scale. cbn [n_r scaled_nst].
  destruct (Rlt_dec _ _); [apply IH|reflexivity].
Qed.

Lemma s_ratio_scale c u1 u2 h1 h2 : c <> (0, 0) -> s_ratio (option_map (cmul c) u1) (option_map (cmul c) u2) h1 h2 = s_ratio u1 u2 h1 h2.
Proof.
  intros Hc. destruct u1 as [u1|], u2 as [u2|], h1 as [h1|], h2 as [h2|]; cbn [option_map s_ratio]; try reflexivity.
  rewrite <- (cdiv_cancel c (csub (cmul u1 _) _)) by exact Hc. f_equal; unfold cmul, csub, cconj; cbn [fst snd]; f_equal; ring.
Qed.

Theorem C69_normalisation H fuel k s l c : 0 < k_step k -> c <> (0, 0) -> s_matrix_from H fuel k s l c = s_matrix H fuel k s l.
Proof.
  intros Hh Hc. assert (X : forall c, c <> (0, 0) -> s_matrix_from H fuel k s l c = s_matrix_from H fuel k s l (1, 0)).
  { clear c Hc. intros c Hc. unfold s_matrix_from. cbv zeta.
    pose (i0 := mknst (k_step k) (0, 0) (radial (s_K s) (s_p2 s) l (k_step k) (omp_at k (s_om s) (k_step k))) (Some (0, 0)) (Some (1, 0))).
    assert (E : mknst (k_step k) (0, 0) (radial (s_K s) (s_p2 s) l (k_step k) (omp_at k (s_om s) (k_step k))) (Some (0, 0)) (Some c) = scaled_nst c i0).
    { unfold scaled_nst, i0. cbn [n_r n_a1 n_a0 n_u1 n_u0 option_map]. unfold cmul; cbn [fst snd].
      assert (P1 : (0, 0) = (fst c * 0 - snd c * 0, fst c * 0 + snd c * 0)) by (f_equal; ring).
      assert (P2 : c = (fst c * 1 - snd c * 0, fst c * 0 + snd c * 1)) by (destruct c; cbn [fst snd]; f_equal; ring).
      rewrite <- P1, <- P2. reflexivity. }
    match goal with |- (do x <- loop_match _ _ _ _ _ _ _ ?i1; _) = (do x2 <- loop_match _ _ _ _ _ _ _ ?i2; _) => change i2 with i0; replace i1 with (scaled_nst c i0) by (symmetry; exact E) end.
    rewrite loop_match_scale. destruct (loop_match _ _ _ _ _ _ _ i0) as [x|]; [|reflexivity]. cbn [res_map bind]. cbn [n_r scaled_nst].
    change (mknst (n_r x) (n_a1 x) (n_a0 x) (option_map (cmul c) (n_u1 x)) (option_map (cmul c) (n_u0 x))) with (scaled_nst c x).
    rewrite loop_beyond_scale. destruct (loop_beyond _ _ _ _ _ _ _ x) as [y|]; [|reflexivity]. cbn [res_map bind]. cbn [n_r n_u0 scaled_nst].
    rewrite s_ratio_scale by exact Hc. reflexivity. }
  unfold s_matrix. rewrite (X c Hc). symmetry. apply X. unfold cre. intros E. injection E as E. apply (powerRZ_NOR (k_step k) (l + 1)); [lra|exact E].
Qed.
Print Assumptions C69_normalisation.

(** ** Without absorption nothing is transmitted *)

Definition real_nst (s : nst) : Prop :=
  snd (n_a1 s) = 0 /\ snd (n_a0 s) = 0 /\ (forall u, n_u1 s = Some u -> snd u = 0) /\ (forall u, n_u0 s = Some u -> snd u = 0).

Lemma nstep_real h K p2 l pot s : (forall r, snd (pot r) = 0) -> real_nst s -> real_nst (nstep h K p2 l pot s).
Proof.
  intros Hp (R1 & R2 & R3 & R4). unfold nstep. assert (RA : forall r, snd (radial K p2 l r (pot r)) = 0).
  { intros r. unfold radial, cadd, cscale, csub, cre. cbn [fst snd]. rewrite Hp. ring. }
  split; [|split; [|split]]; cbn [n_a1 n_a0 n_u1 n_u0]; [exact R2|apply RA|exact R4|].
  intros u Hu. unfold numerov in Hu. destruct (n_u1 s) as [u2|]; [|discriminate]. destruct (n_u0 s) as [u1|]; [|discriminate].
  specialize (R3 _ eq_refl). specialize (R4 _ eq_refl). unfold cdiv in Hu. destruct (Req_EM_T _ 0); [discriminate|]. injection Hu as <-.
  unfold cscale, cmul, csub, cadd, cconj, cre. cbn [fst snd]. rewrite R1, R2, R3, R4. 
  rewrite RA. ring.
Qed.

Lemma loop_match_real h K p2 l pot nuc fuel : (forall r, snd (pot r) = 0) -> forall s x, real_nst s -> loop_match fuel h K p2 l pot nuc s = Ok x -> real_nst x.
Proof.
  intros Hp. induction fuel as [|f IH]; intros s x Hs; [discriminate|]. cbn [loop_match]. pose proof (nstep_real h K p2 l pot s Hp Hs) as HN.
  destruct (Rlt_dec _ _); [apply IH; exact HN|]. intros E. injection E as <-. exact HN.
Qed.

Lemma loop_beyond_real h K p2 l pot rm fuel : (forall r, snd (pot r) = 0) -> forall s x, real_nst s -> loop_beyond fuel h K p2 l pot rm s = Ok x -> real_nst x.
Proof.
  intros Hp. induction fuel as [|f IH]; intros s x Hs; [discriminate|]. cbn [loop_beyond]. pose proof (nstep_real h K p2 l pot s Hp Hs) as HN.
  destruct (Rlt_dec _ _); [apply IH; exact HN|]. intros E. injection E as <-. exact HN.
Qed.

Theorem C69_elastic H fuel t k s K pdg two_j l two_s q s' T : om_T H fuel t k s K pdg two_j l two_s q = (s', Ok T) -> 0 < K ->
  (forall r, snd (omp_minus_Vc (s_om s') r) = 0) -> T = 0.
Proof.
  intros E HK Hr. unfold om_T in E. destruct (Rle_dec K 0); [lra|]. destruct (prepare _ _ _ _ _ _ _ _) as [s1|]; [|discriminate].
  destruct (s_matrix H fuel k s1 l) as [sm|] eqn:ES; [|discriminate]. cbn [bind] in E. injection E as <- <-.
  unfold s_matrix, s_matrix_from in ES. cbv zeta in ES.
  assert (Hp : forall r, snd (omp_at k (s_om s1) r) = 0) by (intros r; unfold omp_at, cadd, cre; cbn [fst snd]; rewrite Hr; ring).
  set (i0 := mknst _ _ _ _ _) in ES. assert (R0 : real_nst i0).
  { unfold i0, real_nst. cbn [n_a1 n_a0 n_u1 n_u0]. split; [reflexivity|]. split; [unfold radial, cadd, cscale, csub, cre; cbn [fst snd]; rewrite Hp; ring|].
    split; intros u Eu; injection Eu as <-; reflexivity. }
  destruct (loop_match _ _ _ _ _ _ _ i0) as [x|] eqn:E1; [|discriminate]. cbn [bind] in ES. pose proof (loop_match_real _ _ _ _ _ _ _ Hp _ _ R0 E1) as Rx.
  destruct (loop_beyond _ _ _ _ _ _ _ x) as [y|] eqn:E2; [|discriminate]. cbn [bind] in ES. pose proof (loop_beyond_real _ _ _ _ _ _ _ Hp _ _ Rx E2) as Ry.
  injection ES as <-. destruct Rx as (_ & _ & _ & Rx). destruct Ry as (_ & _ & _ & Ry). unfold clamp_T, s_ratio.
  destruct (n_u0 x) as [u1|]; [|reflexivity]. destruct (n_u0 y) as [u2|]; [|reflexivity]. specialize (Rx _ eq_refl). specialize (Ry _ eq_refl).
  destruct (H _ _ (_ * n_r x)) as [h1|]; [|reflexivity]. destruct (H _ _ (_ * n_r y)) as [h2|]; [|reflexivity].
  destruct (cdiv _ _) as [z|] eqn:ED; [|reflexivity]. apply cdiv_some in ED. destruct ED as [Nz Ez].
  assert (EN : cnorm (csub (cmul u1 (cconj h2)) (cmul u2 (cconj h1))) = cnorm (csub (cmul u1 h2) (cmul u2 h1))).
  { unfold cnorm, csub, cmul, cconj. cbn [fst snd]. rewrite Rx, Ry. ring. }
  rewrite Ez, cnorm_mul in EN. assert (Nn : cnorm (csub (cmul u1 h2) (cmul u2 h1)) <> 0) by (intros E0; apply Nz; apply cnorm_zero; exact E0).
  assert (Z1 : cnorm z = 1). { apply (Rmult_eq_reg_l (cnorm (csub (cmul u1 h2) (cmul u2 h1)))); [lra|exact Nn]. }
  rewrite Z1. rewrite Rmax_right by lra. rewrite Rmin_left by lra. lra.
Qed.
Print Assumptions C69_elastic.

(** ** Absorption *)

(** Fragments without spin are absorbed, never created: the potential's imaginary part is not
    positive. *)
Theorem C69_absorbs Zn A step E pdg two_j l r : (0 <= Zn <= A)%Z -> (0 < A <= 3288)%Z -> (1 <= particle_A pdg)%Z -> (0 <= particle_Z pdg <= particle_A pdg)%Z ->
  snd (omp_minus_Vc (om_parameters (new_kd Zn A step) E pdg two_j l 0) r) <= 0.
Proof.
  intros HZ HA Ha Hz. set (k := new_kd Zn A step). set (o := om_parameters k E pdg two_j l 0).
  assert (PA : 0 < IZR A) by (apply IZR_lt; lia). assert (UA : IZR A <= 3288) by (apply IZR_le; lia).
  assert (PZ : 0 <= IZR Zn) by (apply IZR_le; lia). assert (PN : 0 <= IZR (A - Zn)) by (apply IZR_le; lia).
  assert (Pn : 0 <= IZR (particle_A pdg - particle_Z pdg)) by (apply IZR_le; lia). assert (Pz : 0 <= IZR (particle_Z pdg)) by (apply IZR_le; lia).
  assert (Pa : 0 < IZR (particle_A pdg)) by (apply IZR_lt; lia).
  assert (SO : o_so o = 0) by reflexivity.
  assert (Q : forall x y, 0 <= x ^ 2 / (x ^ 2 + y ^ 2)).
  { intros x y. pose proof (pow2_ge_0 x). pose proof (pow2_ge_0 y). destruct (Req_dec (x ^ 2 + y ^ 2) 0) as [E0|N]; [rewrite E0; unfold Rdiv; rewrite Rinv_0; lra|].
    apply Rmult_le_pos; [assumption|]. left. apply Rinv_0_lt_compat. lra. }
  assert (D1 : 0 <= d1 (k_n k)).
  { unfold k, new_kd. cbn [k_n d1]. replace (16 - 16 * IZR (A - Zn - Zn) / IZR A) with (32 * IZR Zn / IZR A) by (rewrite !minus_IZR; field; lra).
    apply Rmult_le_pos; [lra|left; apply Rinv_0_lt_compat; exact PA]. }
  assert (D2 : 0 <= d1 (k_p k)).
  { unfold k, new_kd. cbn [k_p d1]. replace (16 + 16 * IZR (A - Zn - Zn) / IZR A) with (32 * IZR (A - Zn) / IZR A) by (rewrite !minus_IZR; field; lra).
    apply Rmult_le_pos; [lra|left; apply Rinv_0_lt_compat; exact PA]. }
  assert (W1 : 0 <= w1 (k_n k)) by (unfold k, new_kd; cbn [k_n w1]; lra).
  assert (W2 : 0 <= w1 (k_p k)) by (unfold k, new_kd; cbn [k_p w1]; lra).
  assert (A1 : 0 <= ad (k_n k)) by (unfold k, new_kd; cbn [k_n ad]; lra).
  assert (A2 : 0 <= ad (k_p k)) by (unfold k, new_kd; cbn [k_p ad]; lra).
  assert (C : forall (b : bool) x, 0 <= x -> 0 <= (if b then x else 0)) by (intros [] x Hx; lra).
  assert (PW : 0 <= o_Wv o).
  { unfold o, om_parameters. cbn [o_Wv]. apply Rplus_le_le_0_compat; apply C; unfold Rdiv; rewrite Rmult_assoc; apply Rmult_le_pos; try apply Q; apply Rmult_le_pos; assumption. }
  assert (PD : 0 <= o_Wd o).
  { unfold o, om_parameters. cbn [o_Wd]. assert (G : forall n d e y x, 0 <= n -> 0 <= d -> 0 <= n * d * x ^ 2 * exp e / (x ^ 2 + y ^ 2)).
    { intros n d e y x Hn Hd. replace (n * d * x ^ 2 * exp e / (x ^ 2 + y ^ 2)) with (n * d * (x ^ 2 / (x ^ 2 + y ^ 2)) * exp e) by (unfold Rdiv; ring).
      apply Rmult_le_pos; [|left; apply exp_pos]. apply Rmult_le_pos; [apply Rmult_le_pos; assumption|apply Q]. }
    apply Rplus_le_le_0_compat; apply C; apply G; assumption. }
  assert (PAD : 0 <= o_ad o).
  { unfold o, om_parameters. cbn [o_ad]. assert (0 <= (if Z.ltb 0 (particle_A pdg - particle_Z pdg) then IZR (particle_A pdg - particle_Z pdg) * ad (k_n k) else 0) + (if Z.ltb 0 (particle_Z pdg) then IZR (particle_Z pdg) * ad (k_p k) else 0)).
    { apply Rplus_le_le_0_compat; apply C; apply Rmult_le_pos; assumption. }
    destruct (Z.ltb 1 (particle_A pdg)); [|assumption]. apply Rmult_le_pos; [assumption|left; apply Rinv_0_lt_compat; exact Pa]. }
  clearbody o. unfold omp_minus_Vc. cbv zeta. destruct (Req_EM_T (o_so o) 0) as [e0|e0]; [|contradiction]. cbn [snd].
  assert (F : 0 < woods_saxon r (o_Rv o) (o_av o)) by (unfold woods_saxon; apply Rinv_0_lt_compat; pose proof (exp_pos ((r - o_Rv o) / o_av o)); lra).
  assert (X1 : 0 <= o_Wv o * woods_saxon r (o_Rv o) (o_av o)) by (apply Rmult_le_pos; lra).
  assert (X2 : o_ad o * dwoods_saxon r (o_Rd o) (o_ad o) <= 0).
  { unfold dwoods_saxon. cbv zeta. destruct (Rlt_dec 100 _); [lra|]. set (e := exp _). assert (0 < e) by apply exp_pos. clearbody e.
    destruct (Req_dec (o_ad o) 0) as [Z0|N]; [rewrite Z0; lra|]. replace (o_ad o * (- e / (o_ad o * (1 + e) ^ 2))) with (- (e / (1 + e) ^ 2)) by (field; split; lra).
    assert (0 < e / (1 + e) ^ 2) by (apply Rmult_lt_0_compat; [assumption|apply Rinv_0_lt_compat; apply pow_lt; lra]). lra. }
  assert (X3 : 0 <= o_Wd o * - (o_ad o * dwoods_saxon r (o_Rd o) (o_ad o))) by (apply Rmult_le_pos; lra).
  lra.
Qed.
Print Assumptions C69_absorbs.

(** In an absorbing potential the flux of the computed wave function is inward at every step:
    with w = (1 + h^2 a / 12) u, the imaginary part of w_(n-1)* w_n never exceeds zero. *)
Inductive stepped (h K p2 : R) (l : Z) (pot : R -> cpx) (s : nst) : nst -> Prop :=
| SStart : stepped h K p2 l pot s s
| SNext x : stepped h K p2 l pot s x -> stepped h K p2 l pot s (nstep h K p2 l pot x).

Definition wave (h : R) (a u : cpx) : cpx := cmul (cadd (cre 1) (cscale (h ^ 2 / 12) a)) u.

Theorem C69_flux h K p2 l pot a start x u1 u0 : 0 < K -> 0 <= p2 -> (forall r, snd (pot r) <= 0) ->
  stepped h K p2 l pot (mknst h (0, 0) a (Some (0, 0)) (Some start)) x -> (a = radial K p2 l h (pot h)) ->
  n_u1 x = Some u1 -> n_u0 x = Some u0 ->
  snd (cmul (cconj (wave h (n_a1 x) u1)) (wave h (n_a0 x) u0)) <= 0.
Proof.
  intros HK Hp Hpot Hs Ha. revert u1 u0. 
  assert (RA : forall r, 0 <= snd (radial K p2 l r (pot r))).
  { intros r. unfold radial, cadd, cscale, csub, cre. cbn [fst snd]. specialize (Hpot r).
    assert (0 <= p2 / (hbar_c * hbar_c)). { apply Rmult_le_pos; [exact Hp|]. left. apply Rinv_0_lt_compat. unfold hbar_c. apply Rmult_lt_0_compat; lra. }
    assert (0 <= / K * - snd (pot r)) by (apply Rmult_le_pos; [left; apply Rinv_0_lt_compat; exact HK|lra]).
    assert (0 <= p2 / (hbar_c * hbar_c) * (/ K * - snd (pot r))) by (apply Rmult_le_pos; assumption). lra. }
  enough (G : 0 <= snd (n_a0 x) /\ forall u1 u0, n_u1 x = Some u1 -> n_u0 x = Some u0 -> snd (cmul (cconj (wave h (n_a1 x) u1)) (wave h (n_a0 x) u0)) <= 0) by (destruct G; assumption).
  induction Hs as [|x Hs [IA IH]].
  - cbn [n_a0 n_a1 n_u1 n_u0]. split; [rewrite Ha; apply RA|]. intros u1 u0 E1 E0. injection E1 as <-. injection E0 as <-.
    unfold wave, cmul, cconj, cadd, cscale, cre. cbn [fst snd]. apply Req_le. ring.
  - split; [cbn [nstep n_a0]; apply RA|]. intros u1 u0 E1 E0. cbn [nstep n_a0 n_a1 n_u1 n_u0] in *.
    destruct (n_u1 x) as [v2|] eqn:V2; [|discriminate]. rewrite E1 in E0. cbn [numerov] in E0. apply cdiv_some in E0. destruct E0 as [_ E0].
    specialize (IH v2 u1 eq_refl E1). set (a0 := radial K p2 l (n_r x + h) (pot (n_r x + h))) in *.
    fold (wave h a0 u0) in E0. rewrite <- E0. unfold wave in IH |- *. set (q := h ^ 2 / 12) in *. assert (Pq : 0 <= q) by (unfold q; pose proof (pow2_ge_0 h); lra). clearbody q a0.
    destruct (n_a0 x) as [b1 b2], (n_a1 x) as [c1 c2], u1 as [p1 p2'], v2 as [t1 t2]. cbn [snd] in IA.
    unfold cmul, cconj, cadd, csub, cscale, cre in *. cbn [fst snd] in *.
    assert (0 <= q * (b2 * (p1 ^ 2 + p2' ^ 2))).
    { apply Rmult_le_pos; [exact Pq|]. apply Rmult_le_pos; [exact IA|]. pose proof (pow2_ge_0 p1). pose proof (pow2_ge_0 p2'). lra. }
    clear - IH H. nra.
Qed.
Print Assumptions C69_flux.

(** ** The calculations end *)

Lemma bind_inv {A B} (r : res A) (k : A -> res B) y : bind r k = Ok y -> exists x, r = Ok x /\ k x = Ok y.
Proof. destruct r as [x|e]; cbn [bind]; [|discriminate]. intros E. exists x. split; [reflexivity|exact E]. Qed.

Lemma beyond_reach o : 0 < o_av o -> 0 < o_ad o -> 0 < o_aso o -> exists R0, forall r, R0 < r -> cabs (omp_minus_Vc o r) <= 1 / 1000.
Proof.
  intros Pv Pd Ps. set (B := Rabs (o_Vv o) + Rabs (o_Wv o)).
  exists (Rmax (o_Rv o + o_av o * (1000 * B)) (Rmax (o_Rd o + 100 * o_ad o) (o_Rso o + 100 * o_aso o))).
  intros r Hr. pose proof (Rmax_l (o_Rv o + o_av o * (1000 * B)) (Rmax (o_Rd o + 100 * o_ad o) (o_Rso o + 100 * o_aso o))) as M1.
  pose proof (Rmax_r (o_Rv o + o_av o * (1000 * B)) (Rmax (o_Rd o + 100 * o_ad o) (o_Rso o + 100 * o_aso o))) as M2.
  pose proof (Rmax_l (o_Rd o + 100 * o_ad o) (o_Rso o + 100 * o_aso o)) as M3. pose proof (Rmax_r (o_Rd o + 100 * o_ad o) (o_Rso o + 100 * o_aso o)) as M4.
  assert (D : forall c a, 0 < a -> c + 100 * a < r -> dwoods_saxon r c a = 0).
  { intros c a Pa Hc. unfold dwoods_saxon. cbv zeta. destruct (Rlt_dec 100 (Rabs ((r - c) / a))) as [_|N]; [reflexivity|]. exfalso. apply N.
    apply Rlt_le_trans with ((r - c) / a); [|apply Rle_abs]. apply Rmult_lt_reg_r with a; [exact Pa|]. unfold Rdiv. rewrite Rmult_assoc, Rinv_l by lra. lra. }
  unfold omp_minus_Vc. cbv zeta. rewrite (D (o_Rd o) (o_ad o)) by lra. rewrite (D (o_Rso o) (o_aso o)) by lra.
  set (f := woods_saxon r (o_Rv o) (o_av o)).
  match goal with |- cabs ?x <= _ => replace x with (- (o_Vv o * f), - (o_Wv o * f)) by (destruct (Req_EM_T (o_so o) 0); f_equal; unfold Rdiv; ring) end.
  assert (PB : 0 <= B) by (unfold B; pose proof (Rabs_pos (o_Vv o)); pose proof (Rabs_pos (o_Wv o)); lra).
  assert (Y : 1000 * B < (r - o_Rv o) / o_av o).
  { apply Rmult_lt_reg_r with (o_av o); [exact Pv|]. replace ((r - o_Rv o) / o_av o * o_av o) with (r - o_Rv o) by (field; lra). lra. }
  assert (F0 : 0 < f) by (unfold f, woods_saxon; apply Rinv_0_lt_compat; pose proof (exp_pos ((r - o_Rv o) / o_av o)); lra).
  assert (F : B * f <= 1 / 1000).
  { assert (X : f * (1 + exp ((r - o_Rv o) / o_av o)) = 1) by (unfold f, woods_saxon; apply Rinv_l; pose proof (exp_pos ((r - o_Rv o) / o_av o)); lra).
    assert (1 + (r - o_Rv o) / o_av o < exp ((r - o_Rv o) / o_av o)) by (apply exp_ineq1; lra).
    assert (f * (1000 * B) <= f * (1 + exp ((r - o_Rv o) / o_av o))) by (apply Rmult_le_compat_l; lra). lra. }
  unfold cabs, cnorm. cbn [fst snd]. apply Rle_trans with (B * f); [|exact F].
  rewrite <- (sqrt_pow2 (B * f)) by (apply Rmult_le_pos; lra). apply sqrt_le_1_alt. unfold B.
  rewrite Rpow_mult_distr. assert (Q : forall x, x ^ 2 = Rabs x ^ 2) by (intros x; rewrite RPow_abs; symmetry; apply Rabs_right; apply Rle_ge; apply pow2_ge_0).
  replace ((- (o_Vv o * f)) ^ 2 + (- (o_Wv o * f)) ^ 2) with ((o_Vv o ^ 2 + o_Wv o ^ 2) * f ^ 2) by ring.
  apply Rmult_le_compat_r; [apply pow2_ge_0|]. rewrite (Q (o_Vv o)), (Q (o_Wv o)).
  assert (0 <= Rabs (o_Vv o) * Rabs (o_Wv o)) by (apply Rmult_le_pos; apply Rabs_pos). lra.
Qed.

Lemma nstep_r h K p2 l pot s : n_r (nstep h K p2 l pot s) = n_r s + h.
Proof. reflexivity. Qed.

Lemma loop_match_ends h K p2 l pot nuc R0 : 0 < h -> (forall r, R0 < r -> cabs (nuc r) <= 1 / 1000) ->
  forall n s, R0 < n_r s + INR n * h -> exists x, forall fuel, (n < fuel)%nat -> loop_match fuel h K p2 l pot nuc s = Ok x.
Proof.
  intros Hh HR. induction n as [|n IH]; intros s Hn.
  - exists (nstep h K p2 l pot s). intros [|f] Hf; [lia|]. cbn [loop_match]. cbv zeta. rewrite nstep_r. cbn [INR] in Hn.
    destruct (Rlt_dec (1 / 1000) (cabs (nuc (n_r s + h)))) as [L|_]; [|reflexivity]. specialize (HR (n_r s + h)). exfalso. apply (Rlt_not_le _ _ L). apply HR. lra.
  - destruct (IH (nstep h K p2 l pot s)) as [x Hx]; [rewrite nstep_r; rewrite S_INR in Hn; lra|].
    destruct (Rlt_dec (1 / 1000) (cabs (nuc (n_r s + h)))) as [L|N].
    + exists x. intros [|f] Hf; [lia|]. cbn [loop_match]. cbv zeta. rewrite nstep_r. destruct (Rlt_dec (1 / 1000) (cabs (nuc (n_r s + h)))); [|contradiction]. apply Hx. lia.
    + exists (nstep h K p2 l pot s). intros [|f] Hf; [lia|]. cbn [loop_match]. cbv zeta. rewrite nstep_r. destruct (Rlt_dec (1 / 1000) (cabs (nuc (n_r s + h)))); [contradiction|reflexivity].
Qed.

Lemma loop_beyond_ends h K p2 l pot rm : 0 < h ->
  forall n s, rm < n_r s + INR n * h -> exists x, forall fuel, (n < fuel)%nat -> loop_beyond fuel h K p2 l pot rm s = Ok x.
Proof.
  intros Hh. induction n as [|n IH]; intros s Hn.
  - exists (nstep h K p2 l pot s). intros [|f] Hf; [lia|]. cbn [loop_beyond]. cbv zeta. rewrite nstep_r. cbn [INR] in Hn.
    destruct (Rlt_dec (n_r s + h) rm) as [L|_]; [lra|reflexivity].
  - destruct (IH (nstep h K p2 l pot s)) as [x Hx]; [rewrite nstep_r; rewrite S_INR in Hn; lra|].
    destruct (Rlt_dec (n_r s + h) rm) as [L|N].
    + exists x. intros [|f] Hf; [lia|]. cbn [loop_beyond]. cbv zeta. rewrite nstep_r. destruct (Rlt_dec (n_r s + h) rm); [|contradiction]. apply Hx. lia.
    + exists (nstep h K p2 l pot s). intros [|f] Hf; [lia|]. cbn [loop_beyond]. cbv zeta. rewrite nstep_r. destruct (Rlt_dec (n_r s + h) rm); [contradiction|reflexivity].
Qed.

Lemma steps_to h x y : 0 < h -> exists n, y < x + INR n * h.
Proof.
  intros Hh. destruct (archimed ((y - x) / h)) as [Hn _].
  assert (Hm : IZR (up ((y - x) / h)) <= INR (Z.to_nat (Z.max 0 (up ((y - x) / h))))) by (rewrite INR_IZR_INZ, Z2Nat.id by lia; apply IZR_le; lia).
  exists (Z.to_nat (Z.max 0 (up ((y - x) / h)))). assert (Hn' : INR (Z.to_nat (Z.max 0 (up ((y - x) / h)))) > (y - x) / h) by lra. clear Hn. rename Hn' into Hn. apply Rmult_gt_compat_r with (r := h) in Hn; [|exact Hh]. replace ((y - x) / h * h) with (y - x) in Hn by (field; lra). lra.
Qed.

Lemma s_matrix_ends H k s l : 0 < k_step k -> 0 < o_av (s_om s) -> 0 < o_ad (s_om s) -> 0 < o_aso (s_om s) ->
  exists n S, forall fuel, (n < fuel)%nat -> s_matrix H fuel k s l = Ok S.
Proof.
  intros Hh P1 P2 P3. destruct (beyond_reach (s_om s) P1 P2 P3) as [R0 HR]. unfold s_matrix, s_matrix_from. cbv zeta.
  match goal with |- exists n S, forall fuel, _ -> (do x <- loop_match fuel ?h ?K ?p2 ?l ?pot ?nuc ?s0; _) = _ =>
    destruct (steps_to h (n_r s0) R0 Hh) as [n1 Hn1]; destruct (loop_match_ends h K p2 l pot nuc R0 Hh HR n1 s0 Hn1) as [x Hx];
    destruct (steps_to h (n_r x) (12 / 10 * n_r x) Hh) as [n2 Hn2]; destruct (loop_beyond_ends h K p2 l pot (12 / 10 * n_r x) Hh n2 x Hn2) as [y Hy] end.
  exists (n1 + n2)%nat. eexists. intros fuel Hf. rewrite Hx by lia. cbn [bind]. rewrite Hy by lia. cbn [bind]. reflexivity.
Qed.

Lemma om_widths Zn A step E pdg two_j l two_s : (0 < A <= 3288)%Z -> (1 <= particle_A pdg)%Z -> (0 <= particle_Z pdg <= particle_A pdg)%Z ->
  let o := om_parameters (new_kd Zn A step) E pdg two_j l two_s in 0 < o_av o /\ 0 < o_ad o /\ 0 < o_aso o.
Proof.
  intros HA Ha Hz. cbv zeta. set (k := new_kd Zn A step).
  assert (PA : 0 < IZR A) by (apply IZR_lt; lia). assert (UA : IZR A <= 3288) by (apply IZR_le; lia).
  assert (W : forall g, 0 < g (k_n k) -> 0 < g (k_p k) -> let sum := (if Z.ltb 0 (particle_A pdg - particle_Z pdg) then IZR (particle_A pdg - particle_Z pdg) * g (k_n k) else 0) + (if Z.ltb 0 (particle_Z pdg) then IZR (particle_Z pdg) * g (k_p k) else 0) in
    0 < (if Z.ltb 1 (particle_A pdg) then sum / IZR (particle_A pdg) else sum)).
  { intros g G1 G2 sum. assert (0 < sum).
    { unfold sum. destruct (Z.ltb_spec 0 (particle_A pdg - particle_Z pdg)), (Z.ltb_spec 0 (particle_Z pdg)); [| | |lia].
      - apply Rplus_lt_0_compat; apply Rmult_lt_0_compat; try assumption; apply IZR_lt; lia.
      - rewrite Rplus_0_r. apply Rmult_lt_0_compat; [apply IZR_lt; lia|assumption].
      - rewrite Rplus_0_l. apply Rmult_lt_0_compat; [apply IZR_lt; lia|assumption]. }
    destruct (Z.ltb 1 (particle_A pdg)); [|assumption]. apply Rmult_lt_0_compat; [assumption|]. apply Rinv_0_lt_compat. apply IZR_lt. lia. }
  unfold om_parameters. cbv zeta. cbn [o_av o_ad o_aso].
  split; [apply (W av)|split; [apply (W ad)|apply (W aso)]]; unfold k, new_kd; cbn [k_n k_p av ad aso]; lra.
Qed.

(** A transmission coefficient and a total cross section are found after finitely many steps,
    whatever the masses, energies and angular momenta; more steps make no difference. *)
Theorem C69_terminates H t Zn A step s pdg two_s q M m : 0 < step -> (0 < A <= 3288)%Z -> (1 <= particle_A pdg)%Z -> (0 <= particle_Z pdg <= particle_A pdg)%Z ->
  target_mass t (new_kd Zn A step) q = Ok M -> particle_mass t pdg = Ok m ->
  (forall K two_j l, exists n T, forall fuel, (n <= fuel)%nat -> snd (om_T H fuel t (new_kd Zn A step) s K pdg two_j l two_s q) = Ok T) /\
  (forall T lmax, exists n X, forall fuel, (n <= fuel)%nat -> snd (om_xs H fuel t (new_kd Zn A step) s T pdg two_s lmax q) = Ok X).
Proof.
  intros Hh HA Ha Hz EM Em. set (k := new_kd Zn A step) in *.
  assert (G : forall T two_j l, let o := om_parameters k T pdg two_j l two_s in 0 < o_av o /\ 0 < o_ad o /\ 0 < o_aso o) by (intros; apply om_widths; assumption).
  assert (Hk : 0 < k_step k) by exact Hh. clearbody k. split.
  - intros K two_j l. unfold om_T. destruct (Rle_dec K 0) as [L|L]; [exists 0%nat, 0; reflexivity|].
    unfold prepare. rewrite EM, Em. cbn [bind]. cbv zeta. cbn [snd].
    match goal with |- exists n T, forall fuel, _ -> (do sm <- s_matrix H fuel k ?s1 l; _) = _ => destruct (s_matrix_ends H k s1 l) as [n [S HS]]; cbn [s_om]; try (apply G); [exact Hk|] end.
    exists (Datatypes.S n), (clamp_T S). intros fuel Hf. rewrite HS by lia. reflexivity.
  - intros T lmax. unfold om_xs. rewrite EM, Em. cbn [bind]. unfold prepare. rewrite EM, Em. cbn [bind]. cbv zeta. cbn [snd].
    match goal with |- context [xs_loop_l _ H _ k ?s1 pdg 0 two_s (Some 0)] => set (s' := s1) end.
    assert (J : forall c l two_j sum, exists n X, forall fuel, (n <= fuel)%nat -> xs_loop_j c H fuel k s' pdg l two_s two_j sum = Ok X).
    { induction c as [|c IH]; intros l two_j sum; [exists 0%nat, sum; reflexivity|]. cbn [xs_loop_j].
      unfold xs_term. cbv zeta. match goal with |- context [s_matrix H _ k ?s2 l] => destruct (s_matrix_ends H k s2 l) as [n [S HS]]; cbn [s_om]; try (apply G); [exact Hk|] end.
      destruct (IH l (two_j + 2)%Z (oadd sum (match S with None => None | Some x => Some (IZR (two_j + 1) * (1 - fst x)) end))) as [n2 [X HX]].
      exists (Datatypes.S n + n2)%nat, X. intros fuel Hf. rewrite HS by lia. cbn [bind]. apply HX. lia. }
    assert (LL : forall c l sum, exists n X, forall fuel, (n <= fuel)%nat -> xs_loop_l c H fuel k s' pdg l two_s sum = Ok X).
    { induction c as [|c IH]; intros l sum; [exists 0%nat, sum; reflexivity|]. cbn [xs_loop_l]. cbv zeta.
      destruct (J (Z.to_nat ((2 * l + two_s - Z.abs (2 * l - two_s)) / 2 + 1)) l (Z.abs (2 * l - two_s)) sum) as [n [X HX]].
      destruct (IH (l + 1)%Z X) as [n2 [Y HY]]. exists (n + n2)%nat, Y. intros fuel Hf. rewrite HX by lia. cbn [bind]. apply HY. lia. }
    destruct (LL (Z.to_nat (lmax + 1)) 0%Z (Some 0)) as [n [X HX]]. exists n. eexists. intros fuel Hf. rewrite HX by exact Hf. cbn [bind]. reflexivity.
Qed.
Print Assumptions C69_terminates.

(** ** Total cross sections *)

Definition Rsum {A} (f : A -> R) (l : list A) : R := fold_right Rplus 0 (map f l).

Lemma Rsum_app {A} (f : A -> R) l1 l2 : Rsum f (l1 ++ l2) = Rsum f l1 + Rsum f l2.
Proof. unfold Rsum. rewrite map_app. induction (map f l1) as [|a l IH]; cbn [app fold_right]; [ring|rewrite IH; ring]. Qed.

Lemma Rsum_perm {A} (f : A -> R) l1 l2 : Permutation l1 l2 -> Rsum f l1 = Rsum f l2.
Proof. unfold Rsum. induction 1; cbn [map fold_right]; [reflexivity|rewrite IHPermutation; reflexivity|ring|congruence]. Qed.

Fixpoint js (n : nat) (l two_j : Z) : list (Z * Z) := match n with O => [] | S n => (l, two_j) :: js n l (two_j + 2) end.

Lemma js_in n l : forall tj x, In x (js n l tj) <-> fst x = l /\ exists i, (0 <= i < Z.of_nat n)%Z /\ snd x = (tj + 2 * i)%Z.
Proof.
  induction n as [|n IH]; intros tj [a c].
  - cbn. split; [tauto|]. intros [_ [i [Hi _]]]. lia.
  - cbn [js In fst snd]. rewrite IH. cbn [fst snd]. split.
    + intros [E|[E [i [Hi Ei]]]]; [injection E as <- <-; split; [reflexivity|exists 0%Z; lia]|]. split; [exact E|]. exists (i + 1)%Z. lia.
    + intros [E [i [Hi Ei]]]. destruct (Z.eq_dec i 0) as [->|N]; [left; f_equal; lia|]. right. split; [exact E|]. exists (i - 1)%Z. lia.
Qed.

Lemma js_nodup n l : forall tj, NoDup (js n l tj).
Proof.
  induction n as [|n IH]; intros tj; cbn [js]; constructor; [|apply IH]. rewrite js_in. cbn [fst snd]. intros [_ [i [Hi Ei]]]. lia.
Qed.

Fixpoint pairs (n : nat) (l two_s : Z) : list (Z * Z) :=
  match n with O => [] | S n => js (Z.to_nat ((2 * l + two_s - Z.abs (2 * l - two_s)) / 2 + 1)) l (Z.abs (2 * l - two_s)) ++ pairs n (l + 1) two_s end.

Lemma pairs_fst n two_s : forall l x, In x (pairs n l two_s) -> (l <= fst x)%Z.
Proof.
  induction n as [|n IH]; intros l x Hx; [contradiction|]. cbn [pairs] in Hx. apply in_app_iff in Hx. destruct Hx as [Hx|Hx]; [apply js_in in Hx; lia|]. apply IH in Hx. lia.
Qed.

Lemma pairs_nodup n two_s : forall l, NoDup (pairs n l two_s).
Proof.
  induction n as [|n IH]; intros l; cbn [pairs]; [constructor|].
  assert (D : forall x, In x (js (Z.to_nat ((2 * l + two_s - Z.abs (2 * l - two_s)) / 2 + 1)) l (Z.abs (2 * l - two_s))) -> ~ In x (pairs n (l + 1) two_s)).
  { intros x H1 H2. apply js_in in H1. apply pairs_fst in H2. lia. }
  revert D. generalize (js_nodup (Z.to_nat ((2 * l + two_s - Z.abs (2 * l - two_s)) / 2 + 1)) l (Z.abs (2 * l - two_s))).
  generalize (js (Z.to_nat ((2 * l + two_s - Z.abs (2 * l - two_s)) / 2 + 1)) l (Z.abs (2 * l - two_s))). intros L NL D. induction NL as [|x L Hx NL IL]; [apply IH|].
  cbn [app]. constructor; [|apply IL; intros y Hy; apply D; right; exact Hy]. rewrite in_app_iff. intros [H|H]; [tauto|]. apply (D x); [left; reflexivity|exact H].
Qed.

Lemma pairs_in n two_s : (0 <= two_s)%Z -> forall l x, (0 <= l)%Z -> In x (pairs n l two_s) <->
  (l <= fst x < l + Z.of_nat n)%Z /\ (Z.abs (2 * fst x - two_s) <= snd x <= 2 * fst x + two_s)%Z /\ Z.even (snd x - two_s) = true.
Proof.
  intros Hs. induction n as [|n IH]; intros l [a c] Hl; cbn [pairs].
  - cbn. split; [tauto|]. lia.
  - rewrite in_app_iff, js_in, IH by lia. cbn [fst snd]. rewrite Z.even_spec. split.
    + intros [[-> [i [Hi Ei]]]|[Ha [Hc Hv]]]; [|split; [lia|split; [exact Hc|exact Hv]]].
      assert (Hd : (0 <= (2 * l + two_s - Z.abs (2 * l - two_s)) / 2)%Z) by (apply Z.div_pos; lia).
      pose proof (Z.mul_div_le (2 * l + two_s - Z.abs (2 * l - two_s)) 2 ltac:(lia)).
      split; [lia|]. split; [lia|]. destruct (Z.abs_spec (2 * l - two_s)) as [[_ Ea]|[_ Ea]]; [exists (l - two_s + i)%Z; lia|exists (i - l)%Z; lia].
    + intros [Ha [Hc [e He]]]. destruct (Z.eq_dec a l) as [->|N]; [left|right; split; [lia|split; [exact Hc|exists e; exact He]]].
      split; [reflexivity|]. destruct (Z.abs_spec (2 * l - two_s)) as [[_ Ea]|[_ Ea]].
      * exists (e - l + two_s)%Z. assert (Hd : ((2 * l + two_s - Z.abs (2 * l - two_s)) / 2 = two_s)%Z) by (rewrite Ea; replace (2 * l + two_s - (2 * l - two_s))%Z with (two_s * 2)%Z by lia; apply Z.div_mul; lia). rewrite Hd. lia.
      * exists (e + l)%Z. assert (Hd : ((2 * l + two_s - Z.abs (2 * l - two_s)) / 2 = 2 * l)%Z) by (rewrite Ea; replace (2 * l + two_s - - (2 * l - two_s))%Z with (2 * l * 2)%Z by lia; apply Z.div_mul; lia). rewrite Hd. lia.
Qed.

Lemma oadd_some x y z : oadd x y = Some z -> exists a c, x = Some a /\ y = Some c /\ z = a + c.
Proof. destruct x as [a|], y as [c|]; cbn [oadd]; try discriminate. intros E. injection E as <-. exists a, c. tauto. Qed.

(** The state in which the S-matrix element of a partial wave is found. *)
Definition wave_state (k : kd) (M m T : R) (pdg two_j l two_s : Z) : kst :=
  let K := cm_energy M m T in mkkst M K m T (cm_momentum2 M m T) (om_parameters k T pdg two_j l two_s).

(** The total cross section at laboratory energy [T] is 2 pi / ((2s + 1) p^2) times the sum over
    every l up to the limit and every j that l and s can make, each once, of (2j + 1)(1 - Re S). *)
Theorem C69_total H fuel t k s s' T pdg two_s lmax q X M m (S : Z * Z -> cpx) (L : list (Z * Z)) :
  om_xs H fuel t k s T pdg two_s lmax q = (s', Ok (Some X)) -> (0 <= two_s)%Z -> 0 <= T -> 0 < M -> 0 < m ->
  target_mass t k q = Ok M -> particle_mass t pdg = Ok m ->
  NoDup L -> (forall l tj, In (l, tj) L <-> (0 <= l <= lmax)%Z /\ (Z.abs (2 * l - two_s) <= tj <= 2 * l + two_s)%Z /\ Z.even (tj - two_s) = true) ->
  (forall l tj x, In (l, tj) L -> s_matrix H fuel k (wave_state k M m T pdg tj l two_s) l = Ok (Some x) -> S (l, tj) = x) ->
  (forall l tj, In (l, tj) L -> exists x, s_matrix H fuel k (wave_state k M m T pdg tj l two_s) l = Ok (Some x)) /\
  X = 2 * PI / (IZR (two_s + 1) * (M ^ 2 * T * (2 * m + T) / ((m + M) ^ 2 + 2 * M * T))) * Rsum (fun x => IZR (snd x + 1) * (1 - fst (S x))) L.
Proof.
  intros E Hs HT HM Hm EM Em ND HL HS. unfold om_xs in E. rewrite EM, Em in E. cbn [bind] in E. unfold prepare in E. rewrite EM, Em in E. cbn [bind] in E. cbv zeta in E.
  rewrite (lab_back M m T HM Hm HT) in E. apply pair_equal_spec in E. destruct E as [_ E].
  match type of E with context [xs_loop_l _ H fuel k ?s1 pdg 0 two_s (Some 0)] => set (s1' := s1) in E end.
  apply bind_inv in E. destruct E as [sum [E1 E]]. destruct sum as [x|]; [|discriminate]. injection E as <-.
  assert (J : forall c l tj sum v, (forall i, (0 <= i < Z.of_nat c)%Z -> In (l, tj + 2 * i)%Z L) -> xs_loop_j c H fuel k s1' pdg l two_s tj sum = Ok (Some v) ->
    exists u, sum = Some u /\ v = u + Rsum (fun x => IZR (snd x + 1) * (1 - fst (S x))) (js c l tj) /\
      forall y, In y (js c l tj) -> exists x, s_matrix H fuel k (wave_state k M m T pdg (snd y) (fst y) two_s) (fst y) = Ok (Some x)).
  { induction c as [|c IH]; intros l tj sum v HI Hv; cbn [xs_loop_j js] in *; [injection Hv as ->; exists v; split; [reflexivity|split; [cbn; ring|intros y []]]|].
    assert (Hin : In (l, tj) L) by (specialize (HI 0%Z); rewrite Z.mul_0_r, Z.add_0_r in HI; apply HI; lia).
    apply bind_inv in Hv. destruct Hv as [tm [Ht Hv]]. unfold xs_term in Ht. cbv zeta in Ht. apply bind_inv in Ht. destruct Ht as [sm [Hsm Ht]]. injection Ht as <-.
    change (s_matrix H fuel k (wave_state k M m T pdg tj l two_s) l = Ok sm) in Hsm.
    apply IH in Hv; [|intros i Hi; replace (tj + 2 + 2 * i)%Z with (tj + 2 * (i + 1))%Z by lia; apply HI; lia].
    destruct Hv as [u [Hu [-> Hall]]]. apply oadd_some in Hu. destruct Hu as [a [d [-> [Hd ->]]]]. destruct sm as [z|]; [|discriminate]. injection Hd as <-. exists a. split; [reflexivity|].
    split; [unfold Rsum; cbn [map fold_right snd]; rewrite (HS l tj z Hin Hsm); ring|].
    intros y [<-|Hy]; [cbn [fst snd]; exists z; exact Hsm|apply Hall; exact Hy]. }
  assert (LL : forall c l sum v, (forall y, In y (pairs c l two_s) -> In y L) -> xs_loop_l c H fuel k s1' pdg l two_s sum = Ok (Some v) ->
    exists u, sum = Some u /\ v = u + Rsum (fun x => IZR (snd x + 1) * (1 - fst (S x))) (pairs c l two_s) /\
      forall y, In y (pairs c l two_s) -> exists x, s_matrix H fuel k (wave_state k M m T pdg (snd y) (fst y) two_s) (fst y) = Ok (Some x)).
  { induction c as [|c IH]; intros l sum v HI Hv; cbn [xs_loop_l pairs] in *; [injection Hv as ->; exists v; split; [reflexivity|split; [cbn; ring|intros y []]]|].
    cbv zeta in Hv. apply bind_inv in Hv. destruct Hv as [sj [Hj Hv]]. apply IH in Hv; [|intros y Hy; apply HI; apply in_app_iff; right; exact Hy].
    destruct Hv as [u [-> [-> Hall]]]. apply J in Hj; [|intros i Hi; apply HI; apply in_app_iff; left; apply js_in; cbn [fst snd]; split; [reflexivity|exists i; lia]].
    destruct Hj as [w [-> [-> Hal2]]]. exists w. split; [reflexivity|]. split; [rewrite Rsum_app; ring|]. intros y Hy. apply in_app_iff in Hy. destruct Hy as [Hy|Hy]; [apply Hal2|apply Hall]; exact Hy. }
  assert (P : forall y, In y (pairs (Z.to_nat (lmax + 1)) 0 two_s) <-> In y L).
  { intros [l tj]. rewrite (pairs_in (Z.to_nat (lmax + 1)) two_s Hs 0 (l, tj)) by lia. cbn [fst snd]. rewrite HL.
    split; intros [P1 P2]; (split; [lia|exact P2]). }
  apply LL in E1; [|intros y; apply P]. destruct E1 as [u [Eu [-> Hall]]]. injection Eu as <-.
  split; [intros l tj Hin; apply (Hall (l, tj)); apply P; exact Hin|].
  rewrite (Rsum_perm _ _ L (NoDup_Permutation (pairs_nodup _ _ _) ND P)). unfold s1'. cbn [s_p2]. unfold cm_momentum2, Rdiv. ring.
Qed.
Print Assumptions C69_total.

(** ** Cases *)

Definition t_om : mtab := mkmt [(11%Z, 548580); (2112%Z, 1008664916)] [(1005010000%Z, 1000000000000)].

(** A neutron and a nuclide of 1000 nucleons, at the energy where nothing is absorbed. *)
Example C69_ends_example : exists M m n T, target_mass t_om (new_kd 500 1000 default_step) 0 = Ok M /\ particle_mass t_om 2112 = Ok m /\ 0 < M /\ 0 < m /\
  (1 <= particle_A 2112)%Z /\ (0 <= particle_Z 2112 <= particle_A 2112)%Z /\
  forall fuel, (n <= fuel)%nat -> snd (om_T (fun _ _ _ => Some (1, 1)) fuel t_om (new_kd 500 1000 default_step) (mkkst 0 0 0 0 0 (om_parameters (new_kd 500 1000 default_step) 0 2112 1 0 1)) 1 2112 1 0 1 0) = Ok T.
Proof.
  eexists. eexists.
  match goal with |- exists n T, ?a = Ok ?M /\ ?b = Ok ?m /\ _ => assert (E1 : a = Ok M) by reflexivity; assert (E2 : b = Ok m) by reflexivity end.
  edestruct (C69_terminates (fun _ _ _ => Some (1, 1)) t_om 500 1000 default_step) as [G _]; [| | | |exact E1|exact E2|]; [unfold default_step; lra|lia|vm_compute; discriminate|vm_compute; split; discriminate|].
  destruct (G 1 1%Z 0%Z) as [n [T HT]]. exists n, T. split; [exact E1|]. split; [exact E2|].
  split; [|split; [|split; [vm_compute; discriminate|split; [vm_compute; split; discriminate|exact HT]]]]; unfold micro_amu; lra.
Qed.

(** The same pair, with steps so long that the wave function can be followed by hand: the
    cross section of the first partial wave is found. *)
Lemma long_steps k s (v : R -> R) : k_step k = 100000 -> 0 < s_K s -> 1 <= s_p2 s -> o_z (s_om s) = 0%Z ->
  (forall r, 100000 <= r -> omp_minus_Vc (s_om s) r = (- v r, 0) /\ 0 <= v r <= 1 / 1000) ->
  exists S, s_matrix (fun _ _ rho => if Rlt_dec rho (real_sqrt (s_p2 s) / hbar_c * 250000) then Some (0, 0) else Some (1, 0)) 1 k s 0 = Ok (Some S).
Proof.
  intros Hh HK Hp Hz Hv. unfold s_matrix, s_matrix_from. cbv zeta. rewrite Hh.
  assert (P : forall r, 100000 <= r -> omp_at k (s_om s) r = (- v r, 0)).
  { intros r Hr. unfold omp_at. rewrite (proj1 (Hv r Hr)), Hz. unfold coulomb. cbn [Z.eqb orb]. unfold cadd, cre. cbn [fst snd]. f_equal; ring. }
  assert (Q : forall r, 100000 <= r -> exists x, radial (s_K s) (s_p2 s) 0 r (omp_at k (s_om s) r) = (x, 0) /\ 0 < x /\ / 40000 <= x).
  { intros r Hr. rewrite (P r Hr). destruct (Hv r Hr) as [_ V]. unfold radial, cadd, cscale, csub, cre. cbn [fst snd]. exists (s_p2 s / (hbar_c * hbar_c) * (1 + / s_K s * v r)).
    assert (0 <= / s_K s * v r) by (apply Rmult_le_pos; [left; apply Rinv_0_lt_compat; exact HK|lra]).
    assert (/ 40000 <= s_p2 s / (hbar_c * hbar_c)).
    { apply Rmult_le_reg_r with (hbar_c * hbar_c); [unfold hbar_c; lra|]. unfold Rdiv. rewrite Rmult_assoc, Rinv_l by (unfold hbar_c; lra). unfold hbar_c. lra. }
    assert (s_p2 s / (hbar_c * hbar_c) * 1 <= s_p2 s / (hbar_c * hbar_c) * (1 + / s_K s * v r)) by (apply Rmult_le_compat_l; lra).
    split; [f_equal; [cbn [Z.opp Z.mul Z.add]; unfold Rdiv|]; ring|]. lra. }
  set (kk := real_sqrt (s_p2 s) / hbar_c).
  assert (Pk : 0 < kk).
  { unfold kk, real_sqrt. destruct (Rlt_dec (s_p2 s) 0); [lra|]. apply Rmult_lt_0_compat; [apply sqrt_lt_R0; lra|apply Rinv_0_lt_compat; unfold hbar_c; lra]. }
  destruct (Q 100000) as [x1 [E1 [X1 Y1]]]; [lra|]. destruct (Q (100000 + 100000)) as [x2 [E2 [X2 Y2]]]; [lra|]. destruct (Q (100000 + 100000 + 100000)) as [x3 [E3 [X3 Y3]]]; [lra|].
  assert (Po : 0 < powerRZ 100000 (0 + 1)) by (apply powerRZ_lt; lra). set (st := powerRZ 100000 (0 + 1)) in *. clearbody st.
  cbn [loop_match]. cbv zeta. rewrite nstep_r. cbn [n_r].
  assert (N1 : cabs (omp_minus_Vc (s_om s) (100000 + 100000)) <= 1 / 1000).
  { destruct (Hv (100000 + 100000)) as [-> V]; [lra|]. unfold cabs, cnorm. cbn [fst snd]. replace ((- v (100000 + 100000)) ^ 2 + 0 ^ 2) with (v (100000 + 100000) ^ 2) by ring. rewrite sqrt_pow2; lra. }
  destruct (Rlt_dec (1 / 1000) (cabs (omp_minus_Vc (s_om s) (100000 + 100000)))) as [L|_]; [lra|]. cbn [bind loop_beyond]. cbv zeta. rewrite !nstep_r. cbn [n_r].
  destruct (Rlt_dec (100000 + 100000 + 100000) (12 / 10 * (100000 + 100000))) as [L|_]; [lra|]. cbn [bind]. rewrite !nstep_r. cbn [n_r].
  destruct (Rlt_dec (kk * (100000 + 100000)) (kk * 250000)) as [_|N]; [|exfalso; apply N; apply Rmult_lt_compat_l; lra].
  destruct (Rlt_dec (kk * (100000 + 100000 + 100000)) (kk * 250000)) as [N|_]; [exfalso; apply Rmult_lt_reg_l in N; lra|].
  unfold nstep. cbv zeta. cbn [n_r n_a1 n_a0 n_u1 n_u0]. rewrite E1, E2, E3.
  assert (D : forall x, 0 < x -> cnorm (cadd (cre 1) (cscale (100000 ^ 2 / 12) (x, 0))) <> 0).
  { intros x Hx. unfold cnorm, cadd, cre, cscale. cbn [fst snd]. assert (0 < 100000 ^ 2 / 12 * x) by (apply Rmult_lt_0_compat; lra).
    assert (0 < (1 + 100000 ^ 2 / 12 * x) ^ 2) by (apply pow_lt; lra). pose proof (pow2_ge_0 (0 + 100000 ^ 2 / 12 * 0)). lra. }
  assert (NU : forall a2 a1 x u2 u1, 0 < x -> numerov 100000 a2 a1 (x, 0) (Some u2) (Some u1) = Some (cscale (/ cnorm (cadd (cre 1) (cscale (100000 ^ 2 / 12) (x, 0))))
    (cmul (csub (cmul (csub (cre 2) (cscale (10 * (100000 ^ 2 / 12)) a1)) u1) (cmul (cadd (cre 1) (cscale (100000 ^ 2 / 12) a2)) u2)) (cconj (cadd (cre 1) (cscale (100000 ^ 2 / 12) (x, 0))))))).
  { intros a2 a1 x u2 u1 Hx. unfold numerov, cdiv. destruct (Req_EM_T _ 0) as [B|_]; [exfalso; exact (D x Hx B)|reflexivity]. }
  match goal with |- context [numerov 100000 ?p ?q (x2, 0) ?a ?b] => replace (numerov 100000 p q (x2, 0) a b) with (Some (cscale (/ cnorm (cadd (cre 1) (cscale (100000 ^ 2 / 12) (x2, 0))))
    (cmul (csub (cmul (csub (cre 2) (cscale (10 * (100000 ^ 2 / 12)) (x1, 0))) (cre st)) (cmul (cadd (cre 1) (cscale (100000 ^ 2 / 12) (0, 0))) (0, 0))) (cconj (cadd (cre 1) (cscale (100000 ^ 2 / 12) (x2, 0)))))))
    by (symmetry; apply (NU (0, 0) (x1, 0) x2 (0, 0) (cre st) X2)) end.
  match goal with |- context [s_ratio (Some ?u) _ _ _] => set (u1 := u) end. rewrite (NU (x1, 0) (x2, 0) x3 (cre st) u1 X3).
  match goal with |- context [s_ratio _ (Some ?u) _ _] => generalize u end. intros u2.
  assert (Nz : cnorm u1 <> 0).
  { unfold u1. specialize (D x2 X2). set (c := cnorm (cadd (cre 1) (cscale (100000 ^ 2 / 12) (x2, 0)))) in *. clearbody c.
    assert (B : 0 < 100000 ^ 2 / 12 * x2) by (apply Rmult_lt_0_compat; lra). set (g := 100000 ^ 2 / 12) in *. 
    assert (W : 2 - 10 * g * x1 < 0). { assert (G : 10 * g * / 40000 <= 10 * g * x1) by (apply Rmult_le_compat_l; [unfold g; lra|lra]). assert (2 < 10 * g * / 40000) by (unfold g; lra). lra. }
    clearbody g. intros Z0. apply cnorm_zero in Z0. unfold cscale, cmul, csub, cadd, cconj, cre in Z0. cbn [fst snd] in Z0. injection Z0 as Z1 _.
    assert (Z2 : / c * ((2 - 10 * g * x1) * (st * (1 + g * x2))) = 0) by (rewrite <- Z1; ring). clear Z1. rename Z2 into Z1.
    apply Rmult_integral in Z1. destruct Z1 as [Z1|Z1]; [apply (Rinv_neq_0_compat c D Z1)|]. apply Rmult_integral in Z1. destruct Z1 as [Z1|Z1]; [lra|].
    assert (0 < st * (1 + g * x2)) by (apply Rmult_lt_0_compat; lra). lra. }
  unfold s_ratio, cdiv. assert (Ed : csub (cmul u1 (1, 0)) (cmul u2 (0, 0)) = u1) by (unfold cmul, csub; clearbody u1; destruct u1 as [p q]; cbn [fst snd]; f_equal; ring).
  rewrite Ed. destruct (Req_EM_T (cnorm u1) 0) as [B|_]; [contradiction|]. eexists. reflexivity.
Qed.

Definition k_om : kd := new_kd 500 1000 100000.

Example C69_total_example : exists H s' X M m, om_xs H 1 t_om k_om (mkkst 0 0 0 0 0 (om_parameters k_om 0 2112 0 0 0)) (151786 / 10000) 2112 0 0 0 = (s', Ok (Some X)) /\
  target_mass t_om k_om 0 = Ok M /\ particle_mass t_om 2112 = Ok m /\ 0 < M /\ 0 < m.
Proof.
  set (T := 151786 / 10000).
  assert (EM : target_mass t_om k_om 0 = Ok (1000000000000 * micro_amu - 0 * (micro_amu * 548580))) by reflexivity.
  assert (Em : particle_mass t_om 2112 = Ok (micro_amu * 1008664916)) by reflexivity.
  set (M := 1000000000000 * micro_amu - 0 * (micro_amu * 548580)) in *. set (m := micro_amu * 1008664916) in *.
  assert (PM : 0 < M) by (unfold M, micro_amu; lra). assert (Pm : 0 < m) by (unfold m, micro_amu; lra).
  destruct (long_steps k_om (wave_state k_om M m T 2112 0 0 0) (fun r => 353 / 10 * woods_saxon r (13039 / 10 ^ 4 * Rpower 1000 (1 / 3) - 4054 / 10 ^ 4) (5291 / 10000))) as [S HS].
  - reflexivity.
  - cbn [wave_state s_K]. unfold cm_energy. apply Rlt_le_trans with (real_sqrt ((M + m) ^ 2 + 2 * M * T) - m - M); [|apply Rmax_r].
    unfold real_sqrt. assert (0 < 2 * M * T) by (apply Rmult_lt_0_compat; unfold T; lra). pose proof (pow2_ge_0 (M + m)). destruct (Rlt_dec _ 0); [lra|].
    assert (sqrt ((M + m) ^ 2) < sqrt ((M + m) ^ 2 + 2 * M * T)) by (apply sqrt_lt_1_alt; lra). rewrite sqrt_pow2 in H1 by lra. lra.
  - cbn [wave_state s_p2]. unfold cm_momentum2. assert (0 < (m + M) ^ 2 + 2 * M * T) by (pose proof (pow2_ge_0 (m + M)); assert (0 < 2 * M * T) by (apply Rmult_lt_0_compat; unfold T; lra); lra).
    apply Rmult_le_reg_r with ((m + M) ^ 2 + 2 * M * T); [assumption|]. match goal with |- _ <= ?x / ?y * ?y => replace (x / y * y) with x by (field; lra) end. unfold M, m, T, micro_amu. lra.
  - reflexivity.
  - intros r Hr. unfold wave_state. cbv zeta. cbn [s_om]. 
    assert (EA : particle_A 2112 = 1%Z) by reflexivity. assert (EZ : particle_Z 2112 = 0%Z) by reflexivity.
    unfold om_parameters. rewrite EA, EZ. cbv zeta. cbn [Z.sub Z.ltb Z.compare Z.eqb Pos.compare Z.opp Z.add Z.pos_sub Pos.compare_cont].
    unfold omp_minus_Vc. cbn [o_so o_Rv o_av o_Rd o_ad o_Vv o_Wv o_Wd]. cbv zeta. destruct (Req_EM_T 0 0) as [_|N]; [|exfalso; apply N; reflexivity].
    unfold k_om, new_kd. cbn [k_n Ef v1 v2 v3 v4 w1 w2 d1 d2 d3 Rv av Rd ad].
    assert (C3 : Rpower 1000 (1 / 3) = 10). { replace 1000 with (Rpower 10 3) by (replace 3 with (INR 3) by (cbn; lra); rewrite Rpower_pow by lra; lra). rewrite Rpower_mult. replace (3 * (1 / 3)) with 1 by lra. apply Rpower_1. lra. }
    set (A := 1000) in *. rewrite C3.
    assert (Hx : T / 1 - (- 112814 / 10 ^ 4 + 2646 / 10 ^ 5 * A) = 0) by (unfold T, A; lra). 
    split.
    + rewrite !Hx. replace (1 * (6778 / 10 ^ 4 - 1487 / 10 ^ 7 * A) + 0) with (5291 / 10000) by (unfold A; lra).
      replace (1 * (13039 / 10 ^ 4 * 10 - 4054 / 10 ^ 4) + 0) with (13039 / 10 ^ 4 * 10 - 4054 / 10 ^ 4) by lra.
      set (f := woods_saxon r (13039 / 10 ^ 4 * 10 - 4054 / 10 ^ 4) (5291 / 10000)). clearbody f. replace (1000 - 500 - 500)%Z with 0%Z by reflexivity.
      f_equal; [unfold A; lra|unfold Rdiv; ring].
    + cbv beta. rewrite ?C3. set (x := (r - (13039 / 10 ^ 4 * 10 - 4054 / 10 ^ 4)) / (5291 / 10000)). assert (Hx2 : 100000 <= x) by (unfold x; match goal with |- _ <= ?y / _ => replace (y / (5291 / 10000)) with (y * (10000 / 5291)) by field; lra end).
      unfold woods_saxon. fold x. assert (1 + x < exp x) by (apply exp_ineq1; lra). set (e := exp x) in *. clearbody e.
      assert (0 < / (1 + e)) by (apply Rinv_0_lt_compat; lra). assert (/ (1 + e) <= / 100000) by (apply Rinv_le_contravar; lra). unfold A. lra.
  - match type of HS with s_matrix ?H0 _ _ _ _ = _ => set (Hc := H0) in HS; clearbody Hc; exists Hc end. eexists. eexists. exists M, m. split; [|split; [exact EM|split; [exact Em|split; assumption]]].
    unfold om_xs. rewrite EM, Em. cbn [bind]. unfold prepare. rewrite EM, Em. cbn [bind]. cbv zeta. rewrite (lab_back M m T PM Pm) by (unfold T; lra).
    apply f_equal. change (Z.to_nat (0 + 1)) with 1%nat. cbn [xs_loop_l]. cbv zeta. change (Z.to_nat ((2 * 0 + 0 - Z.abs (2 * 0 - 0)) / 2 + 1)) with 1%nat. cbn [xs_loop_j].
    change (Z.abs (2 * 0 - 0)) with 0%Z. unfold xs_term. cbv zeta. cbn [s_M s_K s_m s_T s_p2].
    unfold wave_state in HS. cbv zeta in HS. rewrite HS. cbn [bind oadd]. reflexivity.
Qed.

(** At that energy nothing is absorbed anywhere. *)
Example C69_elastic_example r : snd (omp_minus_Vc (om_parameters k_om (151786 / 10000) 2112 0 0 0) r) = 0.
Proof.
  assert (EA : particle_A 2112 = 1%Z) by reflexivity. assert (EZ : particle_Z 2112 = 0%Z) by reflexivity.
  unfold om_parameters. rewrite EA, EZ. cbv zeta. cbn [Z.sub Z.ltb Z.compare Z.eqb Pos.compare Z.opp Z.add Z.pos_sub Pos.compare_cont].
  unfold omp_minus_Vc. cbn [o_so o_Rv o_av o_Rd o_ad o_Vv o_Wv o_Wd]. cbv zeta. destruct (Req_EM_T 0 0) as [_|N]; [|exfalso; apply N; reflexivity].
  unfold k_om, new_kd. cbn [k_n Ef v1 v2 v3 v4 w1 w2 d1 d2 d3 Rv av Rd ad snd]. set (A := 1000).
  replace (151786 / 10000 / 1 - (- 112814 / 10 ^ 4 + 2646 / 10 ^ 5 * A)) with 0 by (unfold A; lra). unfold Rdiv. ring.
Qed.
