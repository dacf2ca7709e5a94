(** The spectra of NeutrinoSource.cc have one peak. *)
From Coq Require Import List ZArith Reals Lra Lia.
From Verif Require Import Base XReal Source SourceThms Brent BrentProofs BrentThms.
Import ListNotations.
Local Open Scope R_scope.

(** ** Fermi-Dirac *)
Definition fshape (eta y : R) : R := y² / (1 + exp (y - eta)).

Lemma exp_gap x y : x < y -> exp x < exp y.
Proof. apply exp_increasing. Qed.

Lemma fshape_deriv eta y : derivable_pt_lim (fshape eta) y (y * (2 + (2 - y) * exp (y - eta)) / (1 + exp (y - eta))²).
Proof.
  pose proof (exp_pos (y - eta)) as E.
  assert (D2 : derivable_pt_lim (fun y => 1 + exp (y - eta)) y (0 + exp (y - eta) * (1 - 0))).
  { apply (derivable_pt_lim_plus (fct_cte 1) (comp exp (fun y => y - eta))).
    - apply derivable_pt_lim_const.
    - apply derivable_pt_lim_comp; [|apply derivable_pt_lim_exp].
      apply (derivable_pt_lim_minus id (fct_cte eta)); [apply derivable_pt_lim_id|apply derivable_pt_lim_const]. }
  pose proof (derivable_pt_lim_div Rsqr (fun y => 1 + exp (y - eta)) y _ _ (derivable_pt_lim_Rsqr y) D2 ltac:(lra)) as D.
  cbv beta in D. match type of D with derivable_pt_lim _ _ ?l => replace l with (y * (2 + (2 - y) * exp (y - eta)) / (1 + exp (y - eta))²) in D end.
  - exact D.
  - unfold Rsqr. field. lra.
Qed.

Lemma fslope_root eta : exists y0, 2 <= y0 /\ (forall y, 0 < y < y0 -> 0 < 2 + (2 - y) * exp (y - eta)) /\
  (forall y, y0 < y -> 2 + (2 - y) * exp (y - eta) < 0).
Proof.
  set (g := fun y => (y - 2) * exp (y - eta) - 2).
  assert (Cg : continuity g).
  { unfold g. apply (continuity_minus (fun y => (y - 2) * exp (y - eta)) (fct_cte 2)); [|apply continuity_const; intros ? ?; reflexivity].
    apply (continuity_mult (fun y => y - 2) (fun y => exp (y - eta))).
    - apply (continuity_minus id (fct_cte 2)); [apply derivable_continuous, derivable_id|apply continuity_const; intros ? ?; reflexivity].
    - apply (continuity_comp (fun y => y - eta) exp); [|apply derivable_continuous, derivable_exp].
      apply (continuity_minus id (fct_cte eta)); [apply derivable_continuous, derivable_id|apply continuity_const; intros ? ?; reflexivity]. }
  set (Y := 3 + 2 * exp eta). pose proof (exp_pos eta) as Ee.
  assert (G2 : g 2 < 0) by (unfold g; replace (2 - 2) with 0 by ring; lra).
  assert (GY : 0 < g Y).
  { unfold g. assert (1 < exp Y) by (rewrite <- exp_0; apply exp_increasing; unfold Y; lra).
    assert (2 * exp eta < (Y - 2) * exp Y) by (unfold Y in *; nra).
    assert (E : exp (Y - eta) * exp eta = exp Y) by (rewrite <- exp_plus; f_equal; ring).
    apply Rmult_lt_reg_r with (exp eta); [exact Ee|]. rewrite Rmult_0_l, Rmult_minus_distr_r, Rmult_assoc, E. lra. }
  destruct (IVT g 2 Y Cg ltac:(unfold Y; lra) G2 GY) as (y0 & Hy & Z). exists y0. split; [lra|].
  unfold g in Z. split.
  - intros y Hlt. pose proof (exp_pos (y - eta)). destruct (Rle_dec y 2); [nra|].
    pose proof (exp_increasing (y - eta) (y0 - eta) ltac:(lra)). nra.
  - intros y Hlt. pose proof (exp_pos (y0 - eta)).
    pose proof (exp_increasing (y0 - eta) (y - eta) ltac:(lra)). nra.
Qed.

Lemma fshape_peak eta : exists y0, 2 <= y0 /\
  (forall x y, 0 <= x -> x < y -> y <= y0 -> fshape eta x < fshape eta y) /\
  (forall x y, y0 <= x -> x < y -> fshape eta y < fshape eta x).
Proof.
  destruct (fslope_root eta) as (y0 & H2 & HL & HR). exists y0. split; [exact H2|].
  assert (S : forall c, 0 < (1 + exp (c - eta))²) by (intros c; apply Rsqr_pos_lt; pose proof (exp_pos (c - eta)); lra).
  split; intros x y A B C || intros x y A B;
    destruct (MVT_cor2 (fshape eta) _ x y B (fun c _ => fshape_deriv eta c)) as (c & E & Hc); cbv beta in E.
  - assert (0 < c * (2 + (2 - c) * exp (c - eta)) / (1 + exp (c - eta))²).
    { apply Rdiv_lt_0_compat; [|apply S]. specialize (HL c ltac:(lra)). nra. }
    nra.
  - assert (0 < c * - (2 + (2 - c) * exp (c - eta)) / (1 + exp (c - eta))²).
    { apply Rdiv_lt_0_compat; [|apply S]. specialize (HR c ltac:(lra)). nra. }
    assert (c * (2 + (2 - c) * exp (c - eta)) / (1 + exp (c - eta))² = - (c * - (2 + (2 - c) * exp (c - eta)) / (1 + exp (c - eta))²))
      by (unfold Rdiv; ring).
    nra.
Qed.

Lemma fermi_shape lo hi T eta C E : 0 < T -> lo <= E <= hi -> fermi_pdf lo hi T eta C E = C / T ^ 2 * fshape eta (E / T).
Proof.
  intros HT HE. unfold fermi_pdf. rewrite within_in by exact HE. unfold fshape, Rsqr. pose proof (exp_pos (E / T - eta)). field. lra.
Qed.

(** A peak on the half line gives one on an interval. *)
Lemma clamp_peak f h lo hi y0 : lo <= hi -> (forall x, lo <= x <= hi -> f x = h x) ->
  (forall x y, lo <= x -> x < y -> y <= y0 -> h x < h y) -> (forall x y, y0 <= x -> x < y -> lo <= x -> y <= hi -> h y < h x) ->
  peak f lo hi (Rmax lo (Rmin hi y0)).
Proof.
  intros H E L R. set (z := Rmax lo (Rmin hi y0)).
  assert (Z : (z = lo /\ y0 <= lo) \/ (z = y0 /\ lo <= y0 <= hi) \/ (z = hi /\ hi <= y0)).
  { unfold z, Rmax, Rmin. destruct (Rle_dec hi y0); destruct (Rle_dec lo _); lra. }
  split; [lra|]. split; intros x y A B C.
  - rewrite !E by lra. apply L; lra.
  - rewrite !E by lra. apply R; lra.
Qed.

Lemma fermi_peak lo hi T eta C : 0 <= lo <= hi -> 0 < T -> 0 < C ->
  exists z, peak (fermi_pdf lo hi T eta C) lo hi z /\ (z = hi \/ 2 * T <= z).
Proof.
  intros H HT HC. destruct (fshape_peak eta) as (y0 & H2 & L & R). exists (Rmax lo (Rmin hi (T * y0))).
  assert (K : 0 < C / T ^ 2) by (apply Rdiv_lt_0_compat; [exact HC|apply pow_lt; exact HT]).
  assert (I : forall x y, x < y -> x / T < y / T) by (intros x y B; apply Rmult_lt_compat_r; [apply Rinv_0_lt_compat; exact HT|exact B]).
  assert (V : forall x, x / T <= y0 <-> x <= T * y0).
  { intros x. split; intros B.
    - apply (Rmult_le_compat_l T) in B; [|lra]. replace (T * (x / T)) with x in B by (field; lra). exact B.
    - apply Rmult_le_reg_l with T; [exact HT|]. replace (T * (x / T)) with x by (field; lra). exact B. }
  assert (V' : forall x, T * y0 <= x -> y0 <= x / T).
  { intros x B. apply Rmult_le_reg_l with T; [exact HT|]. replace (T * (x / T)) with x by (field; lra). exact B. }
  split.
  - apply (clamp_peak _ (fun E => C / T ^ 2 * fshape eta (E / T))); [lra|intros; apply fermi_shape; assumption| |].
    + intros x y A B D. apply Rmult_lt_compat_l; [exact K|]. apply L; [apply Rmult_le_pos; [lra|apply Rlt_le, Rinv_0_lt_compat; exact HT]|apply I; exact B|apply V; exact D].
    + intros x y A B _ _. apply Rmult_lt_compat_l; [exact K|]. apply R; [apply V'; exact A|apply I; exact B].
  - unfold Rmax, Rmin. destruct (Rle_dec hi (T * y0)); destruct (Rle_dec lo _); try (right; nra); left; lra.
Qed.

(** Near the peak the spectrum is flat. *)
Lemma fermi_flat lo hi T eta C z x : 0 <= lo -> 1 / 1000 <= T -> 0 < C -> 1 / 1000 <= hi -> hi <= 1000 * T ->
  lo <= z <= hi -> (z = hi \/ 2 * T <= z) -> lo <= x <= hi ->
  Rabs (x - z) <= 2 * (sqrt_eps * Rabs x + usual_tol) -> fermi_pdf lo hi T eta C z <= usual_safety * fermi_pdf lo hi T eta C x.
Proof.
  intros Hlo HT HC Hh Hh' Hz Hp Hx D. rewrite !fermi_shape by lra.
  assert (Z0 : 1 / 1000 <= z) by lra. rewrite (Rabs_right x) in D by lra. unfold usual_tol, sqrt_eps, usual_safety in *.
  assert (K : 0 < C / T ^ 2) by (apply Rdiv_lt_0_compat; [exact HC|apply pow_lt; lra]).
  enough (Q : fshape eta (z / T) <= 101 / 100 * fshape eta (x / T)) by nra.
  assert (B : Rabs (x - z) <= 2 * (x * (3 / 10 ^ 8) + / 10 ^ 8)) by lra. clear D.
  unfold fshape. pose proof (exp_pos (z / T - eta)) as Ez. pose proof (exp_pos (x / T - eta)) as Ex.
  destruct (Rle_dec x z) as [L|L].
  - rewrite Rabs_left1 in B by lra. assert (X : 9999 / 10000 * z <= x) by lra.
    assert (E1 : exp (x / T - eta) <= exp (z / T - eta)).
    { destruct L as [L| ->]; [|lra]. apply Rlt_le, exp_increasing. apply Rplus_lt_compat_r, Rmult_lt_compat_r; [apply Rinv_0_lt_compat; lra|exact L]. }
    assert (S2 : (z / T)² <= 101 / 100 * (x / T)²).
    { unfold Rsqr. assert (0 < / T) by (apply Rinv_0_lt_compat; lra). unfold Rdiv.
      assert (P : z * z <= 101 / 100 * (x * x)) by nra.
      replace (z * / T * (z * / T)) with (z * z * (/ T * / T)) by ring. replace (101 * / 100 * (x * / T * (x * / T))) with (101 / 100 * (x * x) * (/ T * / T)) by (field; lra).
      apply Rmult_le_compat_r; [nra|exact P]. }
    apply Rle_trans with ((z / T)² / (1 + exp (x / T - eta))).
    + apply Rmult_le_compat_l; [apply Rle_0_sqr|]. apply Rinv_le_contravar; lra.
    + unfold Rdiv at 1 5. rewrite <- Rmult_assoc. apply Rmult_le_compat_r; [apply Rlt_le, Rinv_0_lt_compat; lra|exact S2].
  - rewrite Rabs_right in B by lra. set (t := (x - z) / T).
    assert (T0 : 0 < t <= 1 / 1000).
    { unfold t. split; [apply Rdiv_lt_0_compat; lra|]. apply Rmult_le_reg_r with T; [lra|]. unfold Rdiv. rewrite Rmult_assoc, Rinv_l by lra. lra. }
    assert (E1 : exp (x / T - eta) = exp t * exp (z / T - eta)) by (rewrite <- exp_plus; f_equal; unfold t; field; lra).
    assert (E2 : exp t <= 101 / 100).
    { pose proof (exp_ineq1 (- t) ltac:(lra)) as N. rewrite exp_Ropp in N. pose proof (exp_pos t) as P.
      apply (Rmult_lt_compat_r (exp t)) in N; [|exact P]. rewrite Rinv_l in N by lra. nra. }
    assert (S2 : (z / T)² <= (x / T)²).
    { apply Rsqr_incr_1; [apply Rmult_le_compat_r; [apply Rlt_le, Rinv_0_lt_compat|]; lra| |]; apply Rmult_le_pos; try lra; apply Rlt_le, Rinv_0_lt_compat; lra. }
    assert (E3 : 1 + exp (x / T - eta) <= 101 / 100 * (1 + exp (z / T - eta))) by (rewrite E1; nra).
    apply Rmult_le_reg_r with (1 + exp (z / T - eta)); [lra|]. apply Rmult_le_reg_r with (1 + exp (x / T - eta)); [lra|].
    replace ((z / T)² / (1 + exp (z / T - eta)) * (1 + exp (z / T - eta)) * (1 + exp (x / T - eta))) with ((z / T)² * (1 + exp (x / T - eta))) by (field; lra).
    replace (101 / 100 * ((x / T)² / (1 + exp (x / T - eta))) * (1 + exp (z / T - eta)) * (1 + exp (x / T - eta)))
      with ((x / T)² * (101 / 100 * (1 + exp (z / T - eta)))) by (field; lra).
    apply Rmult_le_compat; [apply Rle_0_sqr|lra|exact S2|exact E3].
Qed.

(** ** Beta fit *)
Lemma ln_over x y : 0 < x -> 0 < y -> ln (y / x) = ln y - ln x.
Proof. intros. unfold Rdiv. rewrite ln_mult, ln_Rinv; [ring|assumption|assumption|apply Rinv_0_lt_compat; assumption]. Qed.

Lemma ln_gap x y : 0 < x -> x < y -> (y - x) / y < ln y - ln x < (y - x) / x.
Proof.
  intros Hx H. assert (E : ln y - ln x = ln (y / x)) by (rewrite ln_over; lra). split.
  - assert (N : ln (x / y) < x / y - 1).
    { assert (P : 0 < x / y) by (apply Rdiv_lt_0_compat; lra). assert (Q : x / y <> 1) by (intros Q; apply (f_equal (Rmult y)) in Q; replace (y * (x / y)) with x in Q by (field; lra); lra).
      pose proof (exp_ineq1 (ln (x / y))) as I. rewrite exp_ln in I by exact P. enough (ln (x / y) <> 0) by (specialize (I H0); lra).
      intros Z. rewrite <- ln_1 in Z. apply ln_inv in Z; lra. }
    rewrite ln_over in N by lra. replace ((y - x) / y) with (1 - x / y) by (field; lra). lra.
  - rewrite E. assert (P : 0 < y / x) by (apply Rdiv_lt_0_compat; lra). assert (Q : y / x <> 1) by (intros Q; apply (f_equal (Rmult x)) in Q; replace (x * (y / x)) with y in Q by (field; lra); lra).
    pose proof (exp_ineq1 (ln (y / x))) as I. rewrite exp_ln in I by exact P. assert (Z : ln (y / x) <> 0) by (intros Z; rewrite <- ln_1 in Z; apply ln_inv in Z; lra).
    specialize (I Z). replace ((y - x) / x) with (y / x - 1) by (field; lra). lra.
Qed.

Definition bshape (beta y : R) : R := cpow y (beta - 1) * exp (- beta * y).

Lemma bshape_pos beta y : 0 < y -> bshape beta y = exp ((beta - 1) * ln y - beta * y).
Proof.
  intros H. unfold bshape, cpow. destruct (Rlt_dec 0 y); [|lra]. unfold Rpower. rewrite <- exp_plus. f_equal. ring.
Qed.

Lemma bshape_rise beta x y : 1 <= beta -> 0 <= x -> x < y -> y <= (beta - 1) / beta -> bshape beta x < bshape beta y.
Proof.
  intros Hb Hx H Hy. assert (Hb' : 0 < beta - 1) by (destruct (Req_dec beta 1) as [->|]; [replace ((1 - 1) / 1) with 0 in Hy by field; lra|lra]).
  rewrite (bshape_pos beta y) by lra. destruct Hx as [Hx|<-].
  - rewrite bshape_pos by exact Hx. apply exp_increasing.
    destruct (ln_gap x y Hx H) as [G _]. assert (B : beta <= (beta - 1) / y).
    { apply Rmult_le_reg_r with y; [lra|]. unfold Rdiv. rewrite Rmult_assoc, Rinv_l by lra.
      apply (Rmult_le_compat_l beta) in Hy; [|lra]. replace (beta * ((beta - 1) / beta)) with (beta - 1) in Hy by (field; lra). lra. }
    assert (beta * (y - x) <= (beta - 1) * ((y - x) / y)) by (replace ((beta - 1) * ((y - x) / y)) with ((beta - 1) / y * (y - x)) by (field; lra); nra).
    nra.
  - unfold bshape, cpow. destruct (Rlt_dec 0 0); [lra|]. destruct (Req_EM_T 0 0); [|lra]. destruct (Req_EM_T (beta - 1) 0); [lra|].
    rewrite Rmult_0_l. apply exp_pos.
Qed.

Lemma bshape_fall beta x y : 1 <= beta -> 0 <= x -> (beta - 1) / beta <= x -> x < y -> bshape beta y < bshape beta x.
Proof.
  intros Hb Hx Hy H. rewrite (bshape_pos beta y) by lra. destruct Hx as [Hx|<-].
  - rewrite bshape_pos by exact Hx. apply exp_increasing.
    destruct (ln_gap x y Hx H) as [_ G]. assert (B : (beta - 1) / x <= beta).
    { apply Rmult_le_reg_r with x; [lra|]. unfold Rdiv. rewrite Rmult_assoc, Rinv_l by lra.
      apply (Rmult_le_compat_l beta) in Hy; [|lra]. replace (beta * ((beta - 1) / beta)) with (beta - 1) in Hy by (field; lra). lra. }
    assert (Q : (beta - 1) * ((y - x) / x) <= beta * (y - x)) by (replace ((beta - 1) * ((y - x) / x)) with ((beta - 1) / x * (y - x)) by (field; lra); nra).
    destruct (Req_dec beta 1) as [->|N]; [nra|]. nra.
  - assert (beta = 1) as ->.
    { assert (0 <= (beta - 1) / beta) by (apply Rmult_le_pos; [lra|apply Rlt_le, Rinv_0_lt_compat; lra]).
      assert (Z : (beta - 1) / beta = 0) by lra. apply (f_equal (Rmult beta)) in Z. replace (beta * ((beta - 1) / beta)) with (beta - 1) in Z by (field; lra). lra. }
    unfold bshape, cpow. destruct (Rlt_dec 0 0); [lra|]. destruct (Req_EM_T 0 0); [|lra]. destruct (Req_EM_T (1 - 1) 0); [|lra].
    rewrite (Rmult_1_l (exp _)). apply exp_increasing. lra.
Qed.

Lemma beta_shape lo hi Em beta C E : 0 < Em -> 1 <= beta -> lo <= E <= hi -> beta_pdf lo hi Em beta C E = C * bshape beta (E / Em).
Proof.
  intros HT Hb HE. unfold beta_pdf. rewrite within_in by exact HE. destruct (Req_EM_T E 0) as [->|N].
  - destruct (Rlt_dec beta 1); [lra|]. unfold bshape. rewrite Rmult_assoc. do 3 f_equal. field. lra.
  - unfold bshape. rewrite Rmult_assoc. do 3 f_equal. field. lra.
Qed.

Lemma beta_peak lo hi Em beta C : 0 <= lo <= hi -> 0 < Em -> 1 <= beta -> 0 < C ->
  peak (beta_pdf lo hi Em beta C) lo hi (Rmax lo (Rmin hi (Em * (1 - / beta)))).
Proof.
  intros H HT Hb HC.
  assert (I : forall x y, x < y -> x / Em < y / Em) by (intros x y B; apply Rmult_lt_compat_r; [apply Rinv_0_lt_compat; exact HT|exact B]).
  assert (Y : (beta - 1) / beta = 1 - / beta) by (field; lra).
  assert (P : forall x, 0 <= x -> 0 <= x / Em) by (intros x Hx; apply Rmult_le_pos; [exact Hx|apply Rlt_le, Rinv_0_lt_compat; exact HT]).
  apply (clamp_peak _ (fun E => C * bshape beta (E / Em))); [lra|intros; apply beta_shape; assumption| |].
  - intros x y A B D. apply Rmult_lt_compat_l; [exact HC|]. apply bshape_rise; [exact Hb|apply P; lra|apply I; exact B|].
    rewrite Y. apply Rmult_le_reg_l with Em; [exact HT|]. replace (Em * (y / Em)) with y by (field; lra). exact D.
  - intros x y A B D1 D2. apply Rmult_lt_compat_l; [exact HC|]. apply bshape_fall; [exact Hb|apply P; lra| |apply I; exact B].
    rewrite Y. apply Rmult_le_reg_l with Em; [exact HT|]. replace (Em * (x / Em)) with x by (field; lra). exact A.
Qed.

(** ** Decay at rest *)
Lemma m_mu_bounds : 105 < m_mu < 106.
Proof. unfold m_mu, Mass.micro_amu. lra. Qed.

Definition dar_peak_at (pid : Z) : R := if Z.eqb (Z.abs pid) 12 then m_mu / 3 else m_mu / 2.

Lemma dar_peak pid : peak (dar_pdf pid) 0 dar_max (dar_peak_at pid).
Proof.
  pose proof m_mu_bounds as HM. unfold dar_peak_at, dar_max.
  assert (K : 0 < 1 / (m_mu * m_mu * m_mu * m_mu)) by (apply Rdiv_lt_0_compat; [lra|]; repeat apply Rmult_lt_0_compat; lra).
  set (k := 1 / (m_mu * m_mu * m_mu * m_mu)) in *.
  assert (F : forall E, 0 <= E <= m_mu / 2 -> dar_pdf pid E = (if Z.eqb (Z.abs pid) 12 then 96 * k * (E ^ 2 * (m_mu - 2 * E)) else 16 * k * (E ^ 2 * (3 * m_mu - 4 * E)))).
  { intros E HE. unfold dar_pdf. rewrite within_in by exact HE. fold k. destruct (Z.eqb (Z.abs pid) 12); ring. }
  assert (P1 : forall x y, 0 <= x -> x < y -> y <= m_mu / 3 -> x ^ 2 * (m_mu - 2 * x) < y ^ 2 * (m_mu - 2 * y)).
  { intros x y A B D. apply Rminus_gt_0_lt. replace (y ^ 2 * (m_mu - 2 * y) - x ^ 2 * (m_mu - 2 * x)) with ((y - x) * (m_mu * (x + y) - 2 * (x * x + x * y + y * y))) by ring.
    apply Rmult_lt_0_compat; [lra|]. nra. }
  assert (P2 : forall x y, m_mu / 3 <= x -> x < y -> y ^ 2 * (m_mu - 2 * y) < x ^ 2 * (m_mu - 2 * x)).
  { intros x y A B. apply Rminus_gt_0_lt. replace (x ^ 2 * (m_mu - 2 * x) - y ^ 2 * (m_mu - 2 * y)) with ((y - x) * (2 * (x * x + x * y + y * y) - m_mu * (x + y))) by ring.
    apply Rmult_lt_0_compat; [lra|]. nra. }
  assert (P3 : forall x y, 0 <= x -> x < y -> y <= m_mu / 2 -> x ^ 2 * (3 * m_mu - 4 * x) < y ^ 2 * (3 * m_mu - 4 * y)).
  { intros x y A B D. apply Rminus_gt_0_lt. replace (y ^ 2 * (3 * m_mu - 4 * y) - x ^ 2 * (3 * m_mu - 4 * x)) with ((y - x) * (3 * m_mu * (x + y) - 4 * (x * x + x * y + y * y))) by ring.
    apply Rmult_lt_0_compat; [lra|]. nra. }
  destruct (Z.eqb (Z.abs pid) 12); (split; [lra|]); split; intros x y A B D; rewrite !F by lra; apply Rmult_lt_compat_l; try lra;
    [apply P1|apply P2|apply P3]; lra.
Qed.

Lemma dar_top pid : 0 < dar_pdf pid (dar_peak_at pid).
Proof.
  pose proof m_mu_bounds as HM. unfold dar_peak_at, dar_pdf.
  assert (K : 0 < 1 / (m_mu * m_mu * m_mu * m_mu)) by (apply Rdiv_lt_0_compat; [lra|]; repeat apply Rmult_lt_0_compat; lra).
  rewrite within_in by (unfold dar_max; destruct (Z.eqb (Z.abs pid) 12); lra).
  destruct (Z.eqb (Z.abs pid) 12); repeat apply Rmult_lt_0_compat; try apply pow_lt; lra.
Qed.

Lemma dar_flat pid x : 0 <= x <= dar_max -> Rabs (x - dar_peak_at pid) <= 2 * (sqrt_eps * Rabs x + usual_tol) ->
  dar_pdf pid (dar_peak_at pid) <= usual_safety * dar_pdf pid x.
Proof.
  intros Hx D. pose proof m_mu_bounds as HM. unfold usual_tol, sqrt_eps, usual_safety, dar_max in *. rewrite (Rabs_right x) in D by lra.
  assert (K : 0 < 1 / (m_mu * m_mu * m_mu * m_mu)) by (apply Rdiv_lt_0_compat; [lra|]; repeat apply Rmult_lt_0_compat; lra).
  assert (B : Rabs (x - dar_peak_at pid) <= 1 / 10000) by lra. clear D. assert (B' : - (1 / 10000) <= x - dar_peak_at pid <= 1 / 10000) by (unfold Rabs in B; destruct (Rcase_abs _); lra). clear B. rename B' into B.
  unfold dar_peak_at, dar_pdf in *. set (k := 1 / (m_mu * m_mu * m_mu * m_mu)) in *.
  rewrite !within_in by (unfold dar_max; destruct (Z.eqb (Z.abs pid) 12); lra).
  destruct (Z.eqb (Z.abs pid) 12).
  - enough ((m_mu / 3) ^ 2 * (m_mu - 2 * (m_mu / 3)) <= 101 / 100 * (x ^ 2 * (m_mu - 2 * x))) by nra.
    assert (999 / 1000 * (m_mu / 3) <= x) by lra. assert (999 / 1000 * (m_mu / 3) <= m_mu - 2 * x) by lra.
    assert ((999 / 1000 * (m_mu / 3)) ^ 2 <= x ^ 2) by nra.
    apply Rle_trans with (101 / 100 * ((999 / 1000 * (m_mu / 3)) ^ 2 * (999 / 1000 * (m_mu / 3)))).
    + assert (0 < (m_mu / 3) ^ 3) by (apply pow_lt; lra). nra.
    + apply Rmult_le_compat_l; [lra|]. apply Rmult_le_compat; try lra. apply pow_le; lra.
  - enough ((m_mu / 2) ^ 2 * (3 * m_mu - 4 * (m_mu / 2)) <= 101 / 100 * (x ^ 2 * (3 * m_mu - 4 * x))) by nra.
    assert (999 / 1000 * (m_mu / 2) <= x) by lra. assert (m_mu <= 3 * m_mu - 4 * x) by lra.
    assert ((999 / 1000 * (m_mu / 2)) ^ 2 <= x ^ 2) by nra.
    apply Rle_trans with (101 / 100 * ((999 / 1000 * (m_mu / 2)) ^ 2 * m_mu)).
    + assert (0 < (m_mu / 2) ^ 2 * m_mu) by (apply Rmult_lt_0_compat; [apply pow_lt|]; lra). nra.
    + apply Rmult_le_compat_l; [lra|]. apply Rmult_le_compat; try lra. apply pow_le; lra.
Qed.
