(** Property C79: the Fermi function. *)
From Coq Require Import List ZArith Reals Lia Lra Psatz.
From Verif Require Import Base React Kin NucReact NucSpec NucThms NucEventThms Fermi.
Import ListNotations.
Local Open Scope R_scope.

Definition conj (a : cx) : cx := mkcx (re a) (- im a).

Lemma cx_eq a b : re a = re b -> im a = im b -> a = b.
Proof. destruct a as [x y], b as [x0 y0]; cbn [re im]; intros -> ->; reflexivity. Qed.
Lemma conj_add a b : conj (cadd a b) = cadd (conj a) (conj b). Proof. apply cx_eq; cbn [conj cadd re im]; ring. Qed.
Lemma conj_mul a b : conj (cmul a b) = cmul (conj a) (conj b). Proof. apply cx_eq; cbn [conj cmul re im]; ring. Qed.
Lemma conj_scale x a : conj (cscale x a) = cscale x (conj a). Proof. apply cx_eq; cbn [conj cscale re im]; ring. Qed.
Lemma norm_conj a : cnorm (conj a) = cnorm a. Proof. unfold cnorm. cbn [conj re im]. ring. Qed.
Lemma conj_inv a : conj (cinv a) = cinv (conj a). Proof. apply cx_eq; unfold cinv; rewrite norm_conj; cbn [conj re im]; unfold Rdiv; ring. Qed.
Lemma conj_exp a : conj (cexp a) = cexp (conj a). Proof. apply cx_eq; cbn [conj cexp re im]; rewrite ?cos_neg, ?sin_neg; ring. Qed.
Lemma conj_sin a : conj (csin a) = csin (conj a).
Proof. apply cx_eq; cbn [conj csin re im]; unfold cosh, sinh; rewrite ?Ropp_involutive; field. Qed.
Lemma conj_log a : conj (clog a) = clog (conj a).
Proof. apply cx_eq; unfold clog; rewrite norm_conj; cbn [conj re im]; [reflexivity|]. replace (- im a / re a) with (- (im a / re a)) by (unfold Rdiv; ring). rewrite atan_opp. reflexivity. Qed.
Lemma conj_pow a w : conj (cpow a w) = cpow (conj a) (conj w). Proof. unfold cpow. rewrite conj_exp, conj_mul, conj_log. reflexivity. Qed.
Lemma conj_real x : conj (mkcx x 0) = mkcx x 0. Proof. apply cx_eq; cbn [conj re im]; ring. Qed.
Lemma conj_sum z ps : forall j x, conj (lanczos_sum z j ps x) = lanczos_sum (conj z) j ps (conj x).
Proof. induction ps as [|p r IH]; intros j x; cbn [lanczos_sum]; [reflexivity|]. rewrite IH, conj_add, conj_scale, conj_inv, conj_add, conj_real. reflexivity. Qed.
Lemma conj_right z : conj (gamma_right z) = gamma_right (conj z).
Proof.
  unfold gamma_right, lanczos. cbv zeta. rewrite !conj_mul, conj_pow, conj_exp, conj_scale, conj_sum, !conj_add, !conj_real. reflexivity.
Qed.

(** The gamma function takes conjugate values at conjugate numbers. *)
Theorem C79_conjugate z : gamma (conj z) = conj (gamma z).
Proof.
  unfold gamma. change (re (conj z)) with (re z). destruct (Rlt_dec (re z) (1 / 2)); [|symmetry; apply conj_right].
  rewrite conj_scale, conj_inv, conj_mul, conj_sin, conj_right, conj_scale, conj_add, conj_real, conj_scale. reflexivity.
Qed.
Print Assumptions C79_conjugate.

Lemma norm_pos a : 0 <= cnorm a.
Proof. unfold cnorm. pose proof (pow2_ge_0 (re a)). pose proof (pow2_ge_0 (im a)). lra. Qed.
Lemma pow2_inv_nonneg x : 0 <= / x ^ 2.
Proof. destruct (Req_dec x 0) as [->|N]; [replace (0 ^ 2) with 0 by ring; rewrite Rinv_0; lra|]. left. apply Rinv_0_lt_compat. pose proof (pow2_ge_0 x). destruct (Rle_lt_or_eq_dec _ _ H) as [L|L]; [exact L|]. symmetry in L. apply pow_nonzero with (n := 2%nat) in N. contradiction. Qed.

(** The Fermi function is never negative. *)
Theorem C79_nonneg tgamma n beta : 0 <= fermi_function tgamma n beta.
Proof.
  unfold fermi_function. cbv zeta. set (s := sqrt _). assert (0 <= s) by apply sqrt_pos. unfold Rdiv.
  apply Rmult_le_pos; [|apply pow2_inv_nonneg]. apply Rmult_le_pos; [|apply norm_pos]. apply Rmult_le_pos; [|left; apply exp_pos]. apply Rmult_le_pos; [lra|]. left. unfold Rpower. apply exp_pos.
Qed.
Print Assumptions C79_nonneg.

(** So the Coulomb correction and the total cross section are never negative, for any
    Coulomb mode. *)
Theorem C79_cross_section tgamma n pdg KEa t : masses_ok n -> Forall (fun m => 0 <= me_str m) (n_mes n) ->
  nuc_total_xs n (fermi_function tgamma n) pdg KEa = Ok t -> 0 <= t.
Proof.
  intros M S H. eapply C58_nonneg; [exact M|exact S| |exact H]. apply C59_factor; [|intros beta _; apply C79_nonneg].
  unfold masses_ok in M. lra.
Qed.
Print Assumptions C79_cross_section.

(** An emitted antilepton sees the opposite charge: at the same speed the Fermi function for
    a lepton is exp (2 pi alpha Z / beta) times that for its antiparticle, so never smaller. *)
Theorem C79_charge tgamma n n' beta : 0 < beta < 1 ->
  (0 < r_c (n_r n))%Z -> r_c (n_r n') = (- r_c (n_r n))%Z -> r_d (n_r n') = r_d (n_r n) -> n_mc n' = n_mc n ->
  let Zf := code_Z (r_d (n_r n)) in
  fermi_function tgamma n beta = exp (2 * PI * alpha * IZR Zf / beta) * fermi_function tgamma n' beta /\
  ((0 <= Zf)%Z -> fermi_function tgamma n' beta <= fermi_function tgamma n beta).
Proof.
  intros Hb Hc Hc' Hd Hm Zf.
  assert (E : fermi_function tgamma n beta = exp (2 * PI * alpha * IZR Zf / beta) * fermi_function tgamma n' beta).
  { unfold fermi_function. cbv zeta. rewrite Hd, Hm. fold Zf.
    replace (Z.ltb 0 (r_c (n_r n))) with true by (symmetry; apply Z.ltb_lt; exact Hc). replace (Z.ltb 0 (r_c (n_r n'))) with false by (symmetry; apply Z.ltb_ge; lia).
    set (s := sqrt _). set (eta := alpha * IZR Zf / beta). set (P := Rpower _ _). set (bq := tgamma _ ^ 2).
    replace (mkcx s (eta * -1)) with (conj (mkcx s eta)) by (apply cx_eq; cbn [conj re im]; ring). rewrite C79_conjugate, norm_conj.
    replace (exp (PI * eta)) with (exp (2 * PI * alpha * IZR Zf / beta) * exp (PI * (eta * -1))); [unfold Rdiv; ring|]. rewrite <- exp_plus. f_equal. unfold eta, Rdiv. ring. }
  split; [exact E|]. intros HZ. rewrite E. pose proof (C79_nonneg tgamma n' beta) as N.
  assert (1 <= exp (2 * PI * alpha * IZR Zf / beta)); [|nra]. apply Rle_trans with (exp 0); [rewrite exp_0; lra|].
  assert (0 <= 2 * PI * alpha * IZR Zf / beta).
  { unfold Rdiv. apply Rmult_le_pos; [|left; apply Rinv_0_lt_compat; lra]. apply IZR_le in HZ. pose proof PI_RGT_0. assert (0 < alpha) by (unfold alpha; lra). apply Rmult_le_pos; [|exact HZ]. apply Rmult_le_pos; lra. }
  destruct H as [H|H]; [left; apply exp_increasing; exact H|right; f_equal; exact H].
Qed.
Print Assumptions C79_charge.

(** ** Without charge *)

(** Taylor polynomials of the exponential. *)
Fixpoint coef (n : nat) : R := match n with O => 1 | S m => coef m / INR (S m) end.
Fixpoint taylor (n : nat) (x : R) : R := match n with O => 1 | S m => taylor m x + coef (S m) * x ^ S m end.

Lemma taylor_0 n : taylor n 0 = 1.
Proof. induction n as [|n IH]; cbn [taylor]; [reflexivity|]. rewrite IH, pow_i by lia. ring. Qed.
Lemma term_D n x : derivable_pt_lim (fun x => coef (S n) * x ^ S n) x (coef n * x ^ n).
Proof.
  replace (coef n * x ^ n) with (coef (S n) * (INR (S n) * x ^ n)) by (cbn [coef]; field; apply not_0_INR; lia).
  apply (derivable_pt_lim_scal (fun x => x ^ S n)). apply derivable_pt_lim_pow.
Qed.
Lemma taylor_D n x : derivable_pt_lim (taylor (S n)) x (taylor n x).
Proof.
  induction n as [|n IH].
  - replace (taylor 0 x) with (0 + coef 0 * x ^ 0) by (cbn [taylor coef pow]; ring). apply (derivable_pt_lim_plus (fun _ => 1) (fun x => coef 1 * x ^ 1)); [apply derivable_pt_lim_const|apply term_D].
  - change (taylor (S n) x) with (taylor n x + coef (S n) * x ^ S n). apply (derivable_pt_lim_plus (taylor (S n)) (fun x => coef (S (S n)) * x ^ S (S n))); [exact IH|apply term_D].
Qed.

Lemma monotone_zero f g a : (forall x, 0 <= x <= a -> derivable_pt_lim f x (g x)) -> (forall x, 0 <= x <= a -> 0 <= g x) -> 0 <= f 0 -> forall x, 0 <= x <= a -> 0 <= f x.
Proof.
  intros D G F0 x Hx. destruct (Req_dec x 0) as [->|N]; [exact F0|].
  destruct (MVT_cor2 f g 0 x ltac:(lra) ltac:(intros c Hc; apply D; lra)) as (c & E & Hc). pose proof (G c ltac:(lra)). nra.
Qed.

Lemma exp_above n : forall x, 0 <= x <= 1 -> 0 <= exp x - taylor n x.
Proof.
  induction n as [|n IH].
  - intros x Hx. cbn [taylor]. pose proof (exp_ineq1_le x). lra.
  - apply (monotone_zero (fun x => exp x - taylor (S n) x) (fun x => exp x - taylor n x)); [|exact IH|rewrite taylor_0, exp_0; lra].
    intros x _. apply (derivable_pt_lim_minus exp (taylor (S n))); [apply derivable_pt_lim_exp|apply taylor_D].
Qed.
Lemma exp_below n : forall x, 0 <= x <= 1 -> 0 <= taylor n x + 3 * (coef (S n) * x ^ S n) - exp x.
Proof.
  induction n as [|n IH].
  - apply (monotone_zero (fun x => taylor 0 x + 3 * (coef 1 * x ^ 1) - exp x) (fun x => 0 + 3 * (coef 0 * x ^ 0) - exp x)).
    + intros x _. apply (derivable_pt_lim_minus (fun x => taylor 0 x + 3 * (coef 1 * x ^ 1)) exp); [|apply derivable_pt_lim_exp].
      apply (derivable_pt_lim_plus (taylor 0) (fun x => 3 * (coef 1 * x ^ 1))); [apply derivable_pt_lim_const|]. apply (derivable_pt_lim_scal (fun x => coef 1 * x ^ 1)), term_D.
    + intros x Hx. cbn [coef pow]. pose proof exp_le_3. assert (exp x <= exp 1); [|lra]. destruct (Req_dec x 1) as [->|N]; [lra|left; apply exp_increasing; lra].
    + cbn [taylor coef pow]. rewrite exp_0. lra.
  - apply (monotone_zero (fun x => taylor (S n) x + 3 * (coef (S (S n)) * x ^ S (S n)) - exp x) (fun x => taylor n x + 3 * (coef (S n) * x ^ S n) - exp x)); [|exact IH|].
    + intros x _. apply (derivable_pt_lim_minus (fun x => taylor (S n) x + 3 * (coef (S (S n)) * x ^ S (S n))) exp); [|apply derivable_pt_lim_exp].
      apply (derivable_pt_lim_plus (taylor (S n)) (fun x => 3 * (coef (S (S n)) * x ^ S (S n)))); [apply taylor_D|]. apply (derivable_pt_lim_scal (fun x => coef (S (S n)) * x ^ S (S n))), term_D.
    + rewrite taylor_0, pow_i, exp_0 by lia. lra.
Qed.

Lemma e_bounds : 2.7182818284 < exp 1 < 2.7182818286.
Proof.
  pose proof (exp_above 13 1 ltac:(lra)) as A. pose proof (exp_below 13 1 ltac:(lra)) as B.
  cbn [taylor coef] in A, B. rewrite !pow1 in A, B. rewrite !INR_IZR_INZ in A, B. cbn [Z.of_nat Pos.of_succ_nat Pos.succ] in A, B. replace (INR 14) with 14 in B by (rewrite INR_IZR_INZ; reflexivity). rewrite ?pow1 in B. split; lra.
Qed.

Lemma exp_nat n : exp (INR n) = exp 1 ^ n.
Proof. induction n as [|n IH]; [exact exp_0|]. rewrite S_INR, exp_plus, IH. cbn [pow]. ring. Qed.
Lemma exp_15 : 3269017.36 < exp 15 < 3269017.38.
Proof.
  pose proof e_bounds as [A B]. assert (E : exp 15 = exp 1 ^ 15). { rewrite <- exp_nat. f_equal. rewrite INR_IZR_INZ. reflexivity. }
  rewrite E. split.
  - apply Rlt_le_trans with (2.7182818284 ^ 15); [|apply pow_incr; lra]. lra.
  - apply Rle_lt_trans with (2.7182818286 ^ 15); [apply pow_incr; pose proof (exp_pos 1); lra|]. lra.
Qed.

(** The sum of the Lanczos formula at 1. *)
Definition sum_1 : R := fold_right Rplus 0 (map (fun p => fst p / IZR (snd p)) (combine lanczos [1; 1; 2; 3; 4; 5; 6; 7; 8]%Z)).

Lemma real_step j p x : (0 < j)%Z -> cadd (mkcx x 0) (cscale p (cinv (cadd (mkcx 0 0) (mkcx (IZR j) 0)))) = mkcx (x + p / IZR j) 0.
Proof.
  intros Hj. apply IZR_lt in Hj. apply cx_eq; cbn [cadd cscale cinv re im]; unfold cnorm; cbn [re im cadd]; field; nra.
Qed.

Lemma gamma_1 : gamma (mkcx 1 0) = mkcx (sqrt (2 * gamma_pi) * sqrt (15 / 2) * exp (- (15 / 2)) * sum_1) 0.
Proof.
  unfold gamma. cbn [re]. destruct (Rlt_dec 1 (1 / 2)); [lra|]. unfold gamma_right, lanczos. cbv zeta.
  replace (cadd (mkcx 1 0) (mkcx (-1) 0)) with (mkcx 0 0) by (apply cx_eq; cbn [cadd re im]; ring).
  cbn [lanczos_sum]. do 8 (rewrite real_step by lia; cbn [Z.add Pos.add Pos.succ]).
  replace (cadd (mkcx 0 0) (mkcx (7 + 1 / 2) 0)) with (mkcx (15 / 2) 0) by (apply cx_eq; cbn [cadd re im]; field).
  replace (cadd (mkcx 0 0) (mkcx (1 / 2) 0)) with (mkcx (1 / 2) 0) by (apply cx_eq; cbn [cadd re im]; field).
  assert (P : cpow (mkcx (15 / 2) 0) (mkcx (1 / 2) 0) = mkcx (sqrt (15 / 2)) 0).
  { unfold cpow, clog, cmul, cexp, cnorm. cbn [re im]. replace (0 / (15 / 2)) with 0 by field. rewrite atan_0.
    replace (1 / 2 * 0 + 0 * (1 / 2 * ln ((15 / 2) ^ 2 + 0 ^ 2))) with 0 by ring. rewrite cos_0, sin_0.
    apply cx_eq; cbn [re im]; [|ring]. replace ((15 / 2) ^ 2 + 0 ^ 2) with ((15 / 2) * (15 / 2)) by ring. rewrite ln_mult by lra. rewrite Rmult_1_r.
    rewrite <- (Rpower_sqrt (15 / 2)) by lra. unfold Rpower. f_equal. field. }
  rewrite P. apply cx_eq; cbn [cmul cexp cscale re im]; replace (-1 * 0) with 0 by ring; rewrite cos_0, sin_0; [|ring].
  replace (-1 * (15 / 2)) with (- (15 / 2)) by field.
  replace sum_1 with (fold_right Rplus 0 (map (fun p => fst p / IZR (snd p)) (combine lanczos [1; 1; 2; 3; 4; 5; 6; 7; 8]%Z))) by reflexivity.
  cbn [lanczos combine map fold_right fst snd]. field.
Qed.

Lemma norm_1 : Rabs (cnorm (gamma (mkcx 1 0)) - 1) < 0.00000001.
Proof.
  rewrite gamma_1. unfold cnorm. cbn [re im].
  replace ((sqrt (2 * gamma_pi) * sqrt (15 / 2) * exp (- (15 / 2)) * sum_1) ^ 2 + 0 ^ 2) with ((sqrt (2 * gamma_pi) * sqrt (2 * gamma_pi)) * (sqrt (15 / 2) * sqrt (15 / 2)) * (exp (- (15 / 2)) * exp (- (15 / 2))) * sum_1 ^ 2) by ring.
  rewrite !sqrt_sqrt by (unfold gamma_pi; lra). rewrite <- exp_plus. replace (- (15 / 2) + - (15 / 2)) with (- (15)) by field. rewrite exp_Ropp.
  pose proof exp_15 as [A B]. set (E := exp 15) in *.
  set (N := 2 * gamma_pi * (15 / 2) * sum_1 ^ 2). assert (HN : 3269017.371 < N < 3269017.374) by (unfold N, gamma_pi, sum_1; cbn [lanczos combine map fold_right fst snd]; lra).
  replace (2 * gamma_pi * (15 / 2) * / E * sum_1 ^ 2 - 1) with ((N - E) / E) by (unfold N; field; lra).
  unfold Rdiv. rewrite Rabs_mult, (Rabs_right (/ E)) by (left; apply Rinv_0_lt_compat; lra).
  apply Rmult_lt_reg_r with E; [lra|]. rewrite Rmult_assoc, Rinv_l, Rmult_1_r by lra. apply Rabs_def1; lra.
Qed.

(** For an uncharged residue there is nothing to correct: the Fermi function is 1 to eight
    digits, whatever the speed, the mass and the sign of the lepton. (The gamma function of
    the C library has the value 2 at 3.) *)
Theorem C79_neutral tgamma n beta : tgamma 3 = 2 -> code_Z (r_d (n_r n)) = 0%Z -> Rabs (fermi_function tgamma n beta - 1) < 0.00000001.
Proof.
  intros HT HZ. unfold fermi_function. rewrite HZ. cbv zeta. replace (1 - (alpha * 0) ^ 2) with 1 by ring. rewrite sqrt_1. replace (1 + 2 * 1) with 3 by ring. rewrite HT.
  replace (2 * 1 - 2) with 0 by ring. replace (alpha * 0 / beta) with 0 by (unfold Rdiv; ring). replace (if Z.ltb 0 (r_c (n_r n)) then 0 else 0 * -1) with 0 by (destruct (Z.ltb _ _); ring).
  rewrite Rmult_0_r, exp_0. unfold Rpower. rewrite Rmult_0_l, exp_0. replace (2 * (1 + 1) * 1 * 1 * cnorm (gamma (mkcx 1 0)) / 2 ^ 2) with (cnorm (gamma (mkcx 1 0))) by field. exact norm_1.
Qed.
Print Assumptions C79_neutral.
