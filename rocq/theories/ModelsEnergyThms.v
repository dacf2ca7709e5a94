(** C75: the energy that MARLEY's models give to a nucleus left in the continuum. *)
From Coq Require Import List ZArith Reals Lra Lia Bool.
From Verif Require Import Base Pdg Mass Kin Sample SampleProofs XReal Optical Quad QuadThms Cheb ChebProofs ChebThms
  Decay DecaySpec DecayProofs ChannelProofs DeexSpec DeexProofs DeexThms Models ModelsThms.
Import ListNotations.
Local Open Scope R_scope.

(** The 65 points at which the differential width is evaluated. *)
Definition cheb_pt (lo hi : R) (j : nat) : R := (lo + hi) / 2 + (hi - lo) / 2 * cos (INR j * PI / 64).

Lemma INR_64 : INR 64 = 64.
Proof. rewrite INR_IZR_INZ. reflexivity. Qed.

Lemma cheb_pt_eq lo hi j : chebyshev_point 64 lo hi j = cheb_pt lo hi j.
Proof. unfold chebyshev_point, cheb_pt. rewrite INR_64. replace (PI * INR j / 64) with (INR j * PI / 64) by (unfold Rdiv; ring). field. Qed.

(** The cumulative function is the integral of the polynomial through the 65 values, up to a
    share of their alternating sum. *)
Lemma own_cdf_spec f lo hi : lo < hi -> exists cs, length cs = 65%nat /\
  (forall j, (j <= 64)%nat -> poly cs (cheb_pt lo hi j) = f (cheb_pt lo hi j)) /\
  forall F, (forall y, derivable_pt_lim F y (poly cs y)) -> forall y, lo <= y <= hi ->
    Rabs (own_cdf f lo hi y - (F y - F lo)) <= (hi - lo) / 2 * Rabs (alternating 64 (fun j => f (cheb_pt lo hi j))) / (64 * 63).
Proof.
  intros H. destruct (build_made f lo hi 64 ltac:(lia) eq_refl) as (g & B & M).
  destruct (C66_interpolates f lo hi 64 g B ltac:(lia) H) as (cs & L & E & P & _).
  exists cs. split; [exact L|]. split.
  - intros j Hj. rewrite <- cheb_pt_eq. apply P. destruct M as (_ & _ & -> & _) || destruct M as (_ & _ & _ & -> & _).
    apply in_map. apply in_seq. lia.
  - intros F HF y Hy. unfold own_cdf. rewrite B.
    pose proof (C66_cdf f lo hi 64 g cs F B ltac:(lia) H E HF y Hy) as K. rewrite INR_64 in K.
    replace (alternating 64 (fun j => f (cheb_pt lo hi j))) with (alternating 64 (fun j => nth j (ch_Fs g) 0)).
    + replace (64 * 63) with (64 * (64 - 1)) by ring. exact K.
    + unfold alternating. apply sumn_ext. intros j Hj. rewrite (made_values _ _ _ _ _ j M) by lia. rewrite cheb_pt_eq. reflexivity.
Qed.

(** When a decay leads to the continuum, the energy of the nucleus that is left is the
    quantile of the drawn number for the cumulative function of the differential width,
    computed from the polynomial through its values at 65 Chebyshev points between the top of
    the known levels and the highest energy possible, up to 10^-12 MeV and the error stated. *)
Theorem C75_energy H fuel t scheme frags flmax glmax nucleus Ex J P d k e r Exf Jf Pf :
  let v := own_env H fuel t scheme frags flmax glmax in
  let c := mkcomp (pid nucleus) (chg nucleus) Ex J P in
  hf_decay v nucleus Ex J P d k = Ok (e, r, Exf, Jf, Pf, true) ->
  exists frag top cs S, let lo := continuum_floor (scheme (pid r)) in let f := diff_width v c frag lo in
    chan_max v c frag = Ok top /\ lo < top /\ pid e = match frag with Some (p, _, _) => p | None => PHOTON end /\
    length cs = 65%nat /\ (forall j, (j <= 64)%nat -> poly cs (cheb_pt lo top j) = f (cheb_pt lo top j)) /\
    (forall F, (forall y, derivable_pt_lim F y (poly cs y)) -> forall y, lo <= y <= top ->
      Rabs (S y - (F y - F lo)) <= (top - lo) / 2 * Rabs (alternating 64 (fun j => f (cheb_pt lo top j))) / (64 * 63)) /\
    (h_E d = 0 -> Exf = lo) /\ (h_E d = 1 -> Exf = top) /\
    (h_E d <> 0 -> h_E d <> 1 -> S Exf / S top = h_E d \/
      exists a b, lo <= a /\ b <= top /\ Exf = (a + b) / 2 /\ a <= b /\ b - a <= 1 / 10 ^ 12 /\
        (a = lo \/ S a / S top < h_E d) /\ (b = top \/ h_E d < S b / S top)).
Proof.
  intros v c HD. pose proof (hf_decay_inv _ _ _ _ _ _ _ _ _ _ _ _ _ HD) as X. cbv zeta in X. fold c in X.
  destruct X as (cs0 & x & EC & EN & HI & HC & _ & ES & EP & CT).
  apply prepare_inv in EP. destruct EP as (m & q & m0 & _ & _ & _ & _ & Pe & _ & _ & Pr & _).
  destruct HC as (top & HT & HX). destruct (x_dest x) as [lev|Ec] eqn:ED; [discriminate|]. destruct HX as (HF & LT & _).
  change (v_scheme v) with scheme in HF. rewrite <- Pr in HF.
  assert (EM : chan_max v c (x_frag x) = Ok top).
  { destruct (x_frag x) as [[[f s] Pa]|]; cbn [top_of chan_max] in *; [apply HT|congruence]. }
  destruct (own_cdf_spec (diff_width v c (x_frag x) Ec) Ec top LT) as (cs & L & PT & CD).
  exists (x_frag x), top, cs, (own_cdf (diff_width v c (x_frag x) Ec) Ec top). cbv zeta. rewrite <- HF.
  split; [exact EM|]. split; [exact LT|]. split; [exact Pe|]. split; [exact L|]. split; [exact PT|]. split; [exact CD|].
  unfold sample_final in ES. rewrite ED, EM in ES. cbn [bind] in ES.
  change (v_cdf v) with own_cdf in ES. change (v_tol v) with (1 / 10 ^ 12) in ES.
  set (S := own_cdf (diff_width v c (x_frag x) Ec) Ec top) in *.
  destruct (inverse_transform S Ec top (1 / 10 ^ 12) (h_E d) k) as [E0|] eqn:EI; cbn [bind] in ES; [|discriminate].
  assert (E0 = Exf) as ->.
  { destruct (table v c (x_frag x) Ec E0) as [tb|]; cbn [bind] in ES; [|discriminate].
    destruct (Rle_dec _ 0); [discriminate|]. destruct (nth_error tb _); [|discriminate]. injection ES as <- _ _. reflexivity. }
  unfold inverse_transform in EI. destruct (Req_EM_T (h_E d) 0) as [Z|Z].
  - injection EI as <-. split; [reflexivity|]. split; [intros; lra|]. intros; contradiction.
  - destruct (Req_EM_T (h_E d) 1) as [O|O].
    + injection EI as <-. split; [intros; lra|]. split; [reflexivity|]. intros; contradiction.
    + split; [intros; contradiction|]. split; [intros; contradiction|]. intros _ _.
      apply bisect_spec in EI; [|lra]. destruct EI as [_ EI]. exact EI.
Qed.
Print Assumptions C75_energy.

(** Non-vacuity: a nucleus of potassium-40 at 20 MeV without level data or fragments always
    decays into the continuum. *)
Example C75_energy_case H d : hf_draws (fun _ => d) -> 0 < h_E d < 1 ->
  exists k e r Exf Jf Pf, hf_decay (own_env H 5 est_mt (fun _ => None) [] 5 5) est_K40 20 2 true d k = Ok (e, r, Exf, Jf, Pf, true).
Proof.
  intros Hd D6. destruct (Hd 0%nat) as (_ & _ & _ & D4 & _). destruct est_nucleus as [(Zn & A & HN & Hp & Hq & Ho & HM) HX].
  assert (AP : applicable est_mt (pid est_K40)) by (apply (est_applicable 1000190400); vm_compute; discriminate).
  assert (EO : env_ok (own_env H 5 est_mt (fun _ => None) [] 5 5)).
  { destruct (est_ok H) as (T & _). split; [exact T|]. split; [constructor|]. intros pdg ds E. discriminate. }
  assert (SO : schemes_ok (own_env H 5 est_mt (fun _ => None) [] 5 5)) by (intros pdg ds E; discriminate).
  destruct (C75_decay H 5 est_mt (fun _ => None) [] 5 5 est_K40 20 2 true d Zn A EO SO est_known AP ltac:(lia)) as [D [k K]]; try assumption; try lia; try lra.
  - intros f s Pa [].
  - exact I.
  - exists k. destruct (hf_decay (own_env H 5 est_mt (fun _ => None) [] 5 5) est_K40 20 2 true d k) as [[[[[[e r] Exf] Jf] Pf] cont]|err] eqn:E.
    + exists e, r, Exf, Jf, Pf. destruct cont; [reflexivity|]. exfalso.
      pose proof (hf_decay_inv _ _ _ _ _ _ _ _ _ _ _ _ _ E) as X. cbv zeta in X. destruct X as (cs0 & x & _ & _ & _ & (top & _ & HC) & _ & _ & _ & CT).
      destruct (x_dest x); [|discriminate]. destruct HC as (ds & HS & _). discriminate.
    + exfalso. destruct (D k err E) as [->|(_ & f & s & Pa & Exf & [] & _)]. apply K. reflexivity.
Qed.
