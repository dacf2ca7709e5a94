(** Theorems about cross sections and reaction events: C27, C45, C46, C58, C59, C60. *)
From Coq Require Import List ZArith Reals Lra Lia Psatz Bool String Rpower.
From Verif Require Import Base Pdg React Kin KinSpec KinProofs Sample SampleProofs NucReact NucSpec NucProofs.
Import ListNotations.
Local Open Scope R_scope.

(** ** C46: angular distributions *)

(** Both angular distributions are non-negative and integrate to one, for every
    ejectile speed up to that of light. *)
Theorem C46_normalised ty beta : ty = 0%Z \/ ty = 1%Z -> 0 <= beta <= 1 ->
  (forall c, -1 <= c <= 1 -> exists v, cos_pdf ty c beta = Ok v /\ 0 <= v) /\
  integral (fun c => value (cos_pdf ty c beta)) (-1) 1 1.
Proof.
  intros Ht Hb. split.
  - intros c Hc. destruct Ht as [-> | ->]; unfold cos_pdf; cbn [Z.eqb Pos.eqb]; eexists; (split; [reflexivity|]); nra.
  - destruct (cos_pdf_linear ty beta Ht) as [b E].
    replace 1 with (2 * (1 / 2) + 2 / 3 * 0) at 2 by lra. apply (integral_sym _ (1 / 2) b 0).
    intros c _. rewrite E. cbn [value]. lra.
Qed.
Print Assumptions C46_normalised.

(** The two have opposite asymmetries: the mean cosine is a third of the speed for
    Fermi transitions and minus a ninth of it for Gamow-Teller ones. *)
Theorem C46_asymmetry beta :
  integral (fun c => c * value (cos_pdf 0 c beta)) (-1) 1 (beta / 3) /\
  integral (fun c => c * value (cos_pdf 1 c beta)) (-1) 1 (- beta / 9).
Proof.
  split.
  - replace (beta / 3) with (2 * 0 + 2 / 3 * (beta / 2)) by field. apply (integral_sym _ 0 (1 / 2) (beta / 2)).
    intros c _. unfold cos_pdf. cbn [Z.eqb Pos.eqb value]. lra.
  - replace (- beta / 9) with (2 * 0 + 2 / 3 * (- beta / 6)) by field. apply (integral_sym _ 0 (1 / 2) (- beta / 6)).
    intros c _. unfold cos_pdf. cbn [Z.eqb Pos.eqb value]. lra.
Qed.
Print Assumptions C46_asymmetry.

(** Any other transition type is refused. *)
Theorem C46_type_refused ty c beta : ty <> 0%Z -> ty <> 1%Z -> cos_pdf ty c beta = Er MarleyErr.
Proof. intros H0 H1. unfold cos_pdf. destruct (Z.eqb_spec ty 0), (Z.eqb_spec ty 1); congruence. Qed.
Print Assumptions C46_type_refused.

(** A sampled cosine is in range and was accepted under the angular distribution of
    the transition: the height used for rejection never has to be raised. *)
Theorem C46_sampled_cosine ty beta draws fuel ct : 0 <= beta <= 1 -> (forall k, good_pair (draws k)) ->
  sample_cos ty beta draws fuel = Ok ct ->
  exists top n, (forall c, -1 <= c <= 1 -> value (cos_pdf ty c beta) <= top) /\ 0 < top /\
    ct = -1 + 2 * fst (draws n) /\ -1 <= ct <= 1 /\
    snd (draws n) <= value (cos_pdf ty ct beta) / top /\
    forall k, (k < n)%nat -> value (cos_pdf ty (-1 + 2 * fst (draws k)) beta) / top < snd (draws k).
Proof.
  intros Hb Hd H. unfold sample_cos in H.
  destruct (if Z.eqb ty 0 then _ else _) as [top|] eqn:E; cbn [bind] in H; [|discriminate].
  pose proof (cos_pdf_max ty beta ltac:(lra) top E) as Hmax.
  assert (Htop : 0 < top).
  { unfold cos_pdf in E. destruct (Z.eqb ty 0); [injection E as <-; lra|].
    destruct (Z.eqb ty 1); [injection E as <-; lra|discriminate]. }
  match type of H with context [rejection_sample ?F _ _ _ _ _ _ _] => set (f := F) in * end.
  unfold rejection_sample in H.
  destruct (rejection f (-1) 1 top default_safety draws 0 fuel) as [[x m]|] eqn:ER; cbn [bind] in H; [|discriminate].
  injection H as <-. apply rejection_spec in ER. destruct ER as (n & Hn & Hk & Hx & Hy & Hm).
  assert (Ee : forall k, estimate f (-1) 1 top default_safety draws 0 k = top)
    by (intros k; apply estimate_const; [lra|exact Hd|exact Hmax]).
  assert (U : forall u, uniform (-1) 1 u = -1 + 2 * u) by (intros u; unfold uniform; ring).
  cbn [Nat.add] in *.
  assert (Hr : -1 <= x <= 1) by (rewrite Hx; apply uniform_in; [lra|exact (proj1 (Hd n))]).
  exists top, n. split; [exact Hmax|]. split; [exact Htop|]. split; [rewrite Hx; apply U|]. split; [exact Hr|].
  rewrite Ee in Hy. split.
  - apply Rmult_le_reg_r with top; [exact Htop|].
    replace (value (cos_pdf ty x beta) / top * top) with (f x) by (unfold f, value; field; lra). exact Hy.
  - intros k Hlt. specialize (Hk k Hlt). rewrite Ee, U in Hk. cbn [Nat.add] in Hk.
    apply Rmult_lt_reg_r with top; [exact Htop|].
    replace (value (cos_pdf ty (-1 + 2 * fst (draws k)) beta) / top * top) with (f (-1 + 2 * fst (draws k)))
      by (unfold f, value; field; lra). exact Hk.
Qed.
Print Assumptions C46_sampled_cosine.

(** Electron scattering: the differential cross section is non-negative and
    integrates to the total one, for all couplings, masses and energies. *)
Theorem C46_electron l pdg KEa :
  0 < k_mb (l_k l) -> 0 <= k_ma (l_k l) -> 0 <= KEa -> (0 <= l_Z l)%Z ->
  (forall c, -1 <= c <= 1 -> 0 <= el_diff_xs l pdg KEa c) /\
  integral (el_diff_xs l pdg KEa) (-1) 1 (el_total_xs l pdg KEa).
Proof.
  intros Hb Ha HK HZ.
  assert (Hs : 0 < el_s l KEa) by (unfold el_s; nra).
  set (r := k_md (l_k l) * k_md (l_k l) / el_s l KEa).
  assert (Hr : 0 <= r) by (apply Rmult_le_pos; [nra|left; apply Rinv_0_lt_compat; exact Hs]).
  assert (HZ' : 0 <= IZR (l_Z l)) by (apply IZR_le in HZ; exact HZ).
  assert (HP : 0 < 2 / PI) by (apply Rmult_lt_0_compat; [lra|apply Rinv_0_lt_compat, PI_RGT_0]).
  split.
  - intros c Hc. unfold el_diff_xs. destruct (negb _); [lra|]. destruct (Rlt_dec _ _); [lra|]. cbv zeta. fold r.
    pose proof (el_terms_nonneg (l_g1 l) (l_g2 l) r c Hr Hc) as H.
    apply Rmult_le_pos; [|exact HZ']. apply Rmult_le_pos; [|exact H]. apply Rmult_le_pos; [lra|apply pow2_ge_0].
  - unfold el_total_xs, el_diff_xs. destruct (negb _).
    { apply integral_zero. reflexivity. }
    destruct (Rlt_dec _ _).
    { apply integral_zero. reflexivity. }
    cbv zeta. fold r. set (K := GF * el_Ec l KEa). set (g1 := l_g1 l). set (g2 := l_g2 l).
    set (h := (1 - r) / 2).
    pose (q := 2 / PI * K ^ 2 * IZR (l_Z l)).
    match goal with |- integral ?f _ _ ?v =>
      replace v with (2 * (q * (g1 ^ 2 - g1 * g2 * r + g2 ^ 2 * (1 - h) ^ 2)) + 2 / 3 * (q * (g2 ^ 2 * h ^ 2)));
      [apply (integral_sym f (q * (g1 ^ 2 - g1 * g2 * r + g2 ^ 2 * (1 - h) ^ 2))
                (q * (g1 * g2 * r + 2 * g2 ^ 2 * (1 - h) * h)) (q * (g2 ^ 2 * h ^ 2)))|] end.
    + intros c _. unfold q, h. field. apply PI_neq0.
    + unfold q, h. field. apply PI_neq0.
Qed.
Print Assumptions C46_electron.

(** The height used for rejection sampling of the electron scattering angle is never
    exceeded. *)
Theorem C46_electron_maximum l pdg KEa c : 0 < k_mb (l_k l) -> 0 <= k_ma (l_k l) -> 0 <= KEa -> (0 <= l_Z l)%Z ->
  -1 <= c <= 1 -> forall s, el_diff_xs l pdg KEa c <= el_max l pdg KEa s.
Proof.
  intros Hb Ha HK HZ Hc s.
  assert (H : el_diff_xs l pdg KEa c <= Rmax (el_diff_xs l pdg KEa (-1)) (el_diff_xs l pdg KEa 1)).
  { unfold el_diff_xs. destruct (negb _); [apply Rmax_l|]. destruct (Rlt_dec _ _); [apply Rmax_l|]. cbv zeta.
    set (r := k_md (l_k l) * k_md (l_k l) / el_s l KEa).
    set (g1 := l_g1 l). set (g2 := l_g2 l). set (K := 2 / PI * (GF * el_Ec l KEa) ^ 2). set (h := (1 - r) / 2).
    assert (HZ' : 0 <= IZR (l_Z l)) by (apply IZR_le in HZ; exact HZ).
    assert (HK' : 0 <= K).
    { unfold K. apply Rmult_le_pos; [|apply pow2_ge_0]. left. apply Rmult_lt_0_compat; [lra|apply Rinv_0_lt_compat, PI_RGT_0]. }
    assert (E : forall x, K * (g1 ^ 2 + g1 * g2 * r * (x - 1) + (g2 * (1 + 1 / 2 * (1 - r) * (x - 1))) ^ 2) * IZR (l_Z l) =
      K * IZR (l_Z l) * (g1 ^ 2 - g1 * g2 * r + g2 ^ 2 * (1 - h) ^ 2) +
      K * IZR (l_Z l) * (g1 * g2 * r + 2 * g2 ^ 2 * (1 - h) * h) * x + K * IZR (l_Z l) * (g2 ^ 2 * h ^ 2) * x ^ 2)
      by (intros x; unfold h; field).
    rewrite !E. apply quad_max; [|exact Hc].
    apply Rmult_le_pos; [apply Rmult_le_pos; assumption|]. replace (g2 ^ 2 * h ^ 2) with ((g2 * h) ^ 2) by ring. apply pow2_ge_0. }
  unfold el_max. cbv zeta. destruct (Rle_dec _ _); [|exact H]. destruct (Rle_dec _ _); [|exact H].
  eapply Rle_trans; [exact H|apply Rmax_l].
Qed.
Print Assumptions C46_electron_maximum.

(** ** C58: the cross section of a nuclear reaction *)

(** The part of a matrix element in the total: its own cross section if the level can
    be reached, nothing otherwise. *)
Definition contribution (n : nuc) (fermi : R -> R) (KEa : R) (m : rme) : R :=
  if Rle_dec ((n_mc n + (n_mdgs n + me_energy m)) ^ 2) ((n_ma n + n_mb n) ^ 2 + 2 * n_mb n * KEa)
  then match level_xs n fermi KEa m with Ok (x, _) => x | Er _ => 0 end
  else 0.

Lemma prefix_sum n fermi KEa ms ws :
  partial_xs n fermi KEa None ms = Ok ws ->
  sumR ws = sumR (map (fun m => match level_xs n fermi KEa m with Ok (x, _) => x | Er _ => 0 end) (prefix_ok n KEa ms)).
Proof.
  revert ws. induction ms as [|m r IH]; intros ws H; cbn [partial_xs prefix_ok] in *.
  { injection H as <-. reflexivity. }
  destruct (Rlt_dec _ _); [injection H as <-; reflexivity|]. cbn [map sumR].
  destruct (Req_EM_T (me_str m) 0) as [Z0|Z0].
  - rewrite (IH ws H). unfold level_xs at 2. destruct (Req_EM_T (me_str m) 0); [lra|contradiction].
  - destruct (level_xs n fermi KEa m) as [[xs b]|] eqn:E; cbn [bind] in H; [|discriminate].
    destruct (partial_xs n fermi KEa None r) as [ws'|]; cbn [bind] in H; [|discriminate].
    injection H as <-. cbn [sumR]. rewrite (IH ws' eq_refl). reflexivity.
Qed.

(** If the level energies ascend, the total cross section is the sum over all
    reachable levels. *)
Theorem C58_sum n fermi KEa t : masses_ok n -> ascending (n_mes n) -> 0 < KEa ->
  nuc_total_xs n fermi (r_a (n_r n)) KEa = Ok t ->
  t = sumR (map (contribution n fermi KEa) (n_mes n)).
Proof.
  intros Hm HA HK H. unfold nuc_total_xs, summed_xs in H. rewrite Z.eqb_refl in H. cbn [negb] in H.
  destruct (Rle_dec KEa 0); [lra|].
  destruct (partial_xs n fermi KEa None (n_mes n)) as [ws|] eqn:E; cbn [bind] in H; [|discriminate].
  injection H as <-. rewrite (prefix_sum _ _ _ _ _ E), (prefix_filter n KEa (n_mes n) HA).
  assert (HE : Forall (fun m => 0 <= me_energy m) (n_mes n)) by apply Hm.
  clear E HA. induction HE as [|m r He Hr IH]; [reflexivity|]. cbn [filter map sumR].
  rewrite <- IH. unfold contribution at 1. pose proof (access_iff n KEa m Hm He ltac:(lra)) as A. unfold accessible in A.
  destruct (Rle_dec (me_energy m) _) as [L|L]; destruct (Rle_dec ((n_mc n + _) ^ 2) _) as [L'|L']; try (exfalso; tauto);
    cbn [map sumR]; try reflexivity; lra.
Qed.
Print Assumptions C58_sum.

(** Without that condition a reachable level can be left out: level matching can put
    a table out of order, and the loop stops at the first level that is too high. *)
Theorem C58_unordered_refuted : exists n KEa t, masses_ok n /\ 0 < KEa /\
  nuc_total_xs n (fun _ => 1) (r_a (n_r n)) KEa = Ok t /\ t = 0 /\
  0 < sumR (map (contribution n (fun _ => 1) KEa) (n_mes n)) /\
  (forall a b, In a (n_mes n) -> In b (n_mes n) -> me_en a < me_en b -> nth_error (n_mes n) 0 = Some a).
Proof.
  set (r := mkr NC 12 1000180400 12 1000180400 0 0 0 0).
  set (n := mknuc r 0 10 1 11 NoCorrection [mkrme 4 1 1 (Some (9, 0%Z, true)); mkrme 5 1 1 None]).
  assert (Hs : (n_ma n + n_mb n) ^ 2 + 2 * n_mb n * 15 = 400) by (cbn [n n_ma n_mb]; lra).
  assert (Hq : sqrt 400 = 20) by (replace 400 with (20 * 20) by lra; apply sqrt_square; lra).
  assert (Hmax : max_level_energy n 15 = 8).
  { unfold max_level_energy. rewrite Hs, Hq. cbn [n n_mc n_mdgs]. lra. }
  exists n, 15, 0. split.
  { unfold masses_ok. cbn [n n_ma n_mb n_mc n_mdgs n_mes]. repeat split; try lra.
    repeat constructor; unfold me_energy; cbn [me_lev me_en]; lra. }
  split; [lra|]. split.
  { unfold nuc_total_xs, summed_xs. rewrite Z.eqb_refl. cbn [negb]. destruct (Rle_dec 15 0); [lra|].
    cbn [n n_mes partial_xs]. fold n. rewrite Hmax. unfold me_energy. cbn [me_lev].
    destruct (Rlt_dec 8 9) as [_|C]; [|exfalso; lra]. reflexivity. }
  split; [reflexivity|]. split.
  - cbn [n n_mes map sumR]. fold n. unfold contribution. rewrite Hs. cbn [n n_mc n_mdgs]. fold n. unfold me_energy. cbn [me_lev me_en].
    destruct (Rle_dec _ 400) as [C|_]; [exfalso; lra|]. destruct (Rle_dec _ 400) as [_|C]; [|exfalso; lra].
    unfold level_xs. cbn [me_str]. destruct (Req_EM_T 1 0) as [C|_]; [exfalso; lra|]. rewrite Hs, Hq.
    cbn [n n_ma n_mb n_mc n_mdgs n_r r r_proc me_type Z.eqb]. unfold me_energy. cbn [me_lev me_en].
    set (Ec := (400 + 1 * 1 - (11 + 5) ^ 2) / (2 * 20)). set (Eb := (400 + 10 * 10 - 0 * 0) / (2 * 20)).
    assert (H1 : 3 < Ec < 4) by (unfold Ec; lra). assert (H2 : 0 < Eb) by (unfold Eb; lra).
    assert (H3 : 0 < real_sqrt (Ec ^ 2 - 1 * 1)).
    { unfold real_sqrt. destruct (Rlt_dec _ _) as [C|_]; [exfalso; nra|]. apply sqrt_lt_R0. nra. }
    pose proof GF_pos. set (pc := real_sqrt (Ec ^ 2 - 1 * 1)) in *.
    assert (0 < Eb * (20 - Ec) / 400) by nra.
    assert (0 < GF * GF / PI * (Eb * (20 - Ec) / 400) * Ec * pc).
    { apply Rmult_lt_0_compat; [|exact H3]. apply Rmult_lt_0_compat; [|lra]. apply Rmult_lt_0_compat; assumption. }
    lra.
  - cbn [n n_mes In nth_error]. intros a b [<-|[<-|[]]] [<-|[<-|[]]]; cbn [me_en]; intros L; try reflexivity; exfalso; lra.
Qed.
Print Assumptions C58_unordered_refuted.

(** Other projectiles, and energies not above zero, have no cross section. *)
Theorem C58_zero n fermi pdg KEa : pdg <> r_a (n_r n) \/ KEa <= 0 ->
  nuc_total_xs n fermi pdg KEa = Ok 0 /\ forall c, nuc_diff_xs n fermi pdg KEa c = Ok 0.
Proof.
  intros H. unfold nuc_total_xs, nuc_diff_xs, summed_xs. destruct (Z.eqb_spec pdg (r_a (n_r n))) as [E|E]; cbn [negb].
  - destruct H as [H|H]; [contradiction|]. destruct (Rle_dec KEa 0); [|lra]. split; [reflexivity|].
    intros c. destruct (Rlt_dec 1 (Rabs c)); reflexivity.
  - split; [reflexivity|intros; reflexivity].
Qed.
Print Assumptions C58_zero.

(** Below threshold the cross section is zero. *)
Theorem C58_threshold n fermi pdg KEa : masses_ok n -> 0 <= KEa ->
  KEa < threshold (n_ma n) (n_mb n) (n_mc n) (n_mdgs n) ->
  nuc_total_xs n fermi pdg KEa = Ok 0.
Proof.
  intros Hm HK Ht. unfold nuc_total_xs, summed_xs. destruct (negb _); [reflexivity|].
  destruct (Rle_dec KEa 0); [reflexivity|].
  assert (E : partial_xs n fermi KEa None (n_mes n) = Ok []).
  { destruct (n_mes n) as [|m r] eqn:En; [reflexivity|]. cbn [partial_xs].
    destruct (Rlt_dec _ _) as [L|L]; [reflexivity|]. exfalso. apply Rnot_lt_le in L.
    assert (He : 0 <= me_energy m) by (destruct Hm as (_ & _ & _ & _ & Hm); rewrite En in Hm; inversion Hm; assumption).
    apply (access_iff n KEa m Hm He HK) in L. unfold accessible in L. destruct Hm as (M1 & M2 & M3 & M4 & _).
    unfold threshold in Ht. apply (Rmult_lt_compat_r (2 * n_mb n)) in Ht; [|lra].
    replace (((n_mc n + n_mdgs n) ^ 2 - (n_ma n + n_mb n) ^ 2) / (2 * n_mb n) * (2 * n_mb n))
      with ((n_mc n + n_mdgs n) ^ 2 - (n_ma n + n_mb n) ^ 2) in Ht by (field; lra).
    assert ((n_mc n + n_mdgs n) ^ 2 <= (n_mc n + (n_mdgs n + me_energy m)) ^ 2) by (apply pow_incr; lra). lra. }
  rewrite E. reflexivity.
Qed.
Print Assumptions C58_threshold.

(** It is never negative, if strengths and correction factors are not. *)
Theorem C58_nonneg n fermi pdg KEa t : masses_ok n -> Forall (fun m => 0 <= me_str m) (n_mes n) ->
  factor_nonneg n fermi -> nuc_total_xs n fermi pdg KEa = Ok t -> 0 <= t.
Proof.
  intros Hm Hs HF H. unfold nuc_total_xs, summed_xs in H. destruct (negb _); [injection H as <-; lra|].
  destruct (Rle_dec KEa 0); [injection H as <-; lra|].
  destruct (partial_xs n fermi KEa None (n_mes n)) as [ws|] eqn:E; cbn [bind] in H; [|discriminate].
  injection H as <-. apply sumR_nonneg. apply (partial_nonneg n fermi KEa); try assumption. lra.
Qed.
Print Assumptions C58_nonneg.

(** The differential cross section integrates to the total one. *)
Theorem C58_diff n fermi pdg KEa t : Forall valid_type (n_mes n) -> nuc_total_xs n fermi pdg KEa = Ok t ->
  (forall c, exists v, nuc_diff_xs n fermi pdg KEa c = Ok v) /\
  (forall c, 1 < Rabs c -> nuc_diff_xs n fermi pdg KEa c = Ok 0) /\
  integral (fun c => value (nuc_diff_xs n fermi pdg KEa c)) (-1) 1 t.
Proof.
  intros HV H. unfold nuc_total_xs, summed_xs in H. unfold nuc_diff_xs, summed_xs.
  assert (Hz : integral (fun _ => 0) (-1) 1 0).
  { apply integral_zero. reflexivity. }
  assert (Hq : forall c, -1 <= c <= 1 -> ~ 1 < Rabs c) by (intros c Hc C; apply Rabs_le in Hc; lra).
  assert (Hz' : integral (fun c => value (do p <- (if if Rlt_dec 1 (Rabs c) then true else false then Ok ([], 0) else Ok (@nil R, 0)); let (_, t0) := p in Ok t0)) (-1) 1 0).
  { apply integral_zero. intros x _.
    destruct (if Rlt_dec 1 (Rabs x) then true else false); reflexivity. }
  destruct (negb _).
  { injection H as <-. split; [intros c; eexists; reflexivity|]. split; [intros; reflexivity|]. exact Hz. }
  destruct (Rle_dec KEa 0).
  { injection H as <-. split; [intros c; destruct (Rlt_dec 1 (Rabs c)); eexists; reflexivity|].
    split; [intros c _; destruct (Rlt_dec 1 (Rabs c)); reflexivity|]. exact Hz'. }
  destruct (partial_xs n fermi KEa None (n_mes n)) as [ws|] eqn:E; cbn [bind] in H; [|discriminate].
  injection H as <-. destruct (partial_linear _ _ _ _ _ HV E) as [b Hb]. split; [|split].
  - intros c. destruct (Hb c) as (wc & E1 & _). destruct (Rlt_dec 1 (Rabs c)); [eexists; reflexivity|].
    rewrite E1. eexists. reflexivity.
  - intros c Hc. destruct (Rlt_dec 1 (Rabs c)); [reflexivity|contradiction].
  - replace (sumR ws) with (2 * (sumR ws / 2) + 2 / 3 * 0) by field.
    apply (integral_sym _ (sumR ws / 2) b 0). intros c Hc. destruct (Hb c) as (wc & E1 & E2).
    destruct (Rlt_dec 1 (Rabs c)) as [C|_]; [exfalso; exact (Hq c Hc C)|]. rewrite E1. cbn [bind value]. rewrite E2. lra.
Qed.
Print Assumptions C58_diff.
