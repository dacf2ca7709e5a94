(** Property C45, continued: the reactions that make no event. *)
From Coq Require Import List ZArith Reals Bool Lia Lra.
From Verif Require Import Base Pdg React Kin KinSpec KinProofs KinThms Sample SampleProofs NucReact NucSpec NucProofs NucThms NucEventThms.
Import ListNotations.
Open Scope R_scope.

(** A nuclear reaction makes no event for another projectile (marley::Error), below its
    threshold (std::range_error), and when its total cross section is not positive
    (marley::Error); it passes on the exception of a cross section that has none. *)
Theorem C45_nuclear_refused n fermi gs ld pdg KEa d fuel :
  let E := nuc_create n fermi gs ld pdg KEa d fuel in
  let thr := ((n_mc n + n_mdgs n) ^ 2 - (n_ma n + n_mb n) ^ 2) / (2 * n_mb n) in
  (pdg <> r_a (n_r n) -> E = Er MarleyErr) /\
  (pdg = r_a (n_r n) -> KEa < thr -> E = Er StdOther) /\
  (pdg = r_a (n_r n) -> thr <= KEa ->
    (forall t, nuc_total_xs n fermi pdg KEa = Ok t -> t <= 0 -> E = Er MarleyErr) /\
    (forall e, nuc_total_xs n fermi pdg KEa = Er e -> E = Er e)).
Proof.
  cbv zeta. unfold nuc_create, threshold, nuc_total_xs. split; [|split].
  - intros H. destruct (Z.eqb_spec pdg (r_a (n_r n))); [contradiction|]. reflexivity.
  - intros -> H. rewrite Z.eqb_refl. cbn [negb]. destruct (Rlt_dec KEa _) as [_|C]; [reflexivity|contradiction].
  - intros -> H. rewrite Z.eqb_refl. cbn [negb]. destruct (Rlt_dec KEa _) as [C|_]; [lra|].
    destruct (summed_xs n fermi (r_a (n_r n)) KEa None) as [[ws t]|e]; cbn [bind].
    + split; [|discriminate]. intros t' X T. injection X as <-. destruct ws as [|w ws]; [reflexivity|]. destruct (Rle_dec t 0); [reflexivity|contradiction].
    + split; [discriminate|]. intros e' X. injection X as <-. reflexivity.
Qed.
Print Assumptions C45_nuclear_refused.

(** A reaction on electrons makes no event for another projectile and below its threshold
    (marley::Error). Otherwise it makes one, unless the rejection loop is endless. *)
Theorem C45_electron_refused l pdg KEa d fuel :
  let E := el_create l pdg KEa d fuel in
  let k := l_k l in let thr := ((k_mc k + k_md k) ^ 2 - (k_ma k + k_mb k) ^ 2) / (2 * k_mb k) in
  (pdg <> r_a (l_r l) -> E = Er MarleyErr) /\
  (pdg = r_a (l_r l) -> KEa < thr -> E = Er MarleyErr) /\
  (pdg = r_a (l_r l) -> thr <= KEa -> 0 <= k_ma k -> 0 < k_mb k -> 0 <= k_mc k -> 0 <= k_md k -> 0 <= KEa -> good_draws d ->
    E = Er NoFuel \/ exists ev, E = Ok ev).
Proof.
  cbv zeta. unfold el_create, el_threshold, threshold. split; [|split].
  - intros H. destruct (Z.eqb_spec pdg (r_a (l_r l))); [contradiction|]. reflexivity.
  - intros -> H. rewrite Z.eqb_refl. cbn [negb]. destruct (Rlt_dec KEa _) as [_|C]; [reflexivity|contradiction].
  - intros -> H A1 A2 A3 A4 A5 Hd. rewrite Z.eqb_refl. cbn [negb]. destruct (Rlt_dec KEa _) as [C|L]; [lra|].
    destruct (two_two_scatter (l_k l) KEa) as [[[s Ec] pc] Ed] eqn:ES.
    destruct (rejection_sample _ _ _ _ _ _ _ _) as [[ct m]|e] eqn:ER; cbn [bind].
    2:{ left. assert (e = NoFuel) as ->; [|reflexivity]. unfold rejection_sample in ER. revert ER. generalize (el_max l (r_a (l_r l)) KEa s). generalize 0%nat. induction fuel as [|fuel IH]; intros tn mx ER; cbn [rejection] in ER; [congruence|].
        cbv zeta in ER. destruct (Rlt_dec _ (uniform 0 _ _)) in ER; [eapply IH; exact ER|discriminate]. }
    right.
    assert (Hct : -1 <= ct <= 1).
    { unfold rejection_sample in ER. apply rejection_spec in ER. destruct ER as (q & _ & _ & Hx & _). destruct Hd as (D1 & D2 & D3 & D4). rewrite Hx. apply uniform_in; [lra|exact (proj1 (D4 _))]. }
    assert (A6 : (k_mc (l_k l) + k_md (l_k l)) ^ 2 <= (k_ma (l_k l) + k_mb (l_k l)) ^ 2 + 2 * k_mb (l_k l) * KEa).
    { apply (Rmult_le_compat_r (2 * k_mb (l_k l))) in H; [|lra].
      replace (((k_mc (l_k l) + k_md (l_k l)) ^ 2 - (k_ma (l_k l) + k_mb (l_k l)) ^ 2) / (2 * k_mb (l_k l)) * (2 * k_mb (l_k l)))
        with ((k_mc (l_k l) + k_md (l_k l)) ^ 2 - (k_ma (l_k l) + k_mb (l_k l)) ^ 2) in H by (field; lra). lra. }
    destruct (C45_scattering (l_k l) (ids_of (l_r l)) (charges_of (l_r l)) KEa ct (uniform 0 (2 * PI) (d_phi d)) 0 1 true
       s Ec pc Ed A1 A2 A3 A4 A5 Hct A6 ES) as (ev' & E1 & _).
    exists ev'. exact E1.
Qed.
Print Assumptions C45_electron_refused.

(** Non-vacuity: the electron reaction of C45_electron_case, with another neutrino. *)
Example C45_refused_case : el_create ex_elec 14 2 ex_draws 1 = Er MarleyErr /\ el_create ex_elec 12 (-1) ex_draws 1 = Er MarleyErr /\
  forall n, n_mes n = [] -> 0 < n_mb n -> nuc_create n (fun _ => 1) (Ok (0%Z, true)) (fun _ _ _ => 1) (r_a (n_r n)) (Rmax 0 (((n_mc n + n_mdgs n) ^ 2 - (n_ma n + n_mb n) ^ 2) / (2 * n_mb n))) ex_draws 1 = Er MarleyErr.
Proof.
  split; [apply (proj1 (C45_electron_refused ex_elec 14 2 ex_draws 1)); cbn; lia|]. split.
  - apply (proj1 (proj2 (C45_electron_refused ex_elec 12 (-1) ex_draws 1))); [reflexivity|]. unfold ex_elec. cbn [l_k k_ma k_mb k_mc k_md]. lra.
  - intros n H B. eapply (proj1 (proj2 (proj2 (C45_nuclear_refused n (fun _ => 1) (Ok (0%Z, true)) (fun _ _ _ => 1) (r_a (n_r n)) _ ex_draws 1)) eq_refl (Rmax_r _ _)) 0); [|lra].
    unfold nuc_total_xs, summed_xs. rewrite Z.eqb_refl, H. cbn [negb partial_xs bind sumR]. destruct (Rle_dec _ 0); reflexivity.
Qed.
