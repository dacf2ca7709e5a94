(** Theorems about angular momentum and parity in statistical decays (C31). *)
From Coq Require Import List ZArith Reals Lra Lia Bool.
From Verif Require Import Base Pdg PdgThms Kin Sample SampleProofs Mass MassThms Decay DecaySpec DecayProofs ChannelProofs.
Import ListNotations.
Local Open Scope R_scope.

(** Emission of a fragment to a level: the terms of the width are the allowed pairs of
    orbital and total angular momentum, each once. *)
Theorem C31_fragment_level Ji Pi Jf Pf s Pa : (0 <= Ji)%Z -> (0 <= Jf)%Z -> (0 <= s)%Z -> Z.even (Ji + Jf + s) = true ->
  NoDup (discrete_terms Ji Pi Jf Pf s Pa) /\
  forall two_j l, In (two_j, l) (discrete_terms Ji Pi Jf Pf s Pa) <-> fragment_allowed Ji Pi Jf Pf s Pa two_j l.
Proof. intros H1 H2 H3 H4. split; [apply nodup_discrete_terms|]. intros two_j l. apply in_discrete_terms; assumption. Qed.
Print Assumptions C31_fragment_level.

(** Emission of a gamma to a level: the multipolarities are the allowed ones, each
    once; none for zero to zero; and the radiation is electric or magnetic as parity
    demands. *)
Theorem C31_gamma_level Ji Jf : (0 <= Ji)%Z -> (0 <= Jf)%Z -> Z.even (Ji + Jf) = true ->
  NoDup (multipolarities Ji Jf) /\
  (forall m, In m (multipolarities Ji Jf) <-> gamma_allowed Ji Jf m) /\
  (Ji = 0%Z -> Jf = 0%Z -> multipolarities Ji Jf = []) /\
  (forall Pi m Pf, is_electric Pi m Pf = true <-> sign Pi = (sign Pf * minus_one_to m)%Z) /\
  (forall Pi m Pf, is_electric Pi m Pf = false <-> sign Pi = (sign Pf * minus_one_to (m + 1))%Z).
Proof.
  intros H1 H2 H3. split; [apply nodup_range1|]. split; [intros m; apply in_multipolarities; assumption|].
  split; [intros -> ->; reflexivity|]. split; [intros; apply electric_iff|].
  intros Pi m Pf. pose proof (electric_iff Pi m Pf) as E. unfold sign, minus_one_to in *. rewrite even_flip.
  destruct (is_electric Pi m Pf).
  - split; [discriminate|]. intros C. pose proof (proj1 E eq_refl) as E1. destruct Pi, Pf, (Z.even m); discriminate.
  - split; [|reflexivity]. intros _. destruct Pi, Pf, (Z.even m); try reflexivity; discriminate (proj2 E eq_refl).
Qed.
Print Assumptions C31_gamma_level.

(** Emission of a fragment to the continuum: the terms are the allowed combinations up
    to the maximal orbital angular momentum, each once. *)
Theorem C31_fragment_continuum Ji Pi s Pa lmax : (0 <= Ji)%Z -> (0 <= s)%Z ->
  NoDup (fragment_terms Ji Pi s Pa lmax) /\
  forall l two_j Jf Pf, In (l, two_j, Jf, Pf) (fragment_terms Ji Pi s Pa lmax) <->
    (0 <= l <= lmax)%Z /\ fragment_allowed Ji Pi Jf Pf s Pa two_j l.
Proof. intros H1 H2. split; [apply nodup_continuum_l|]. intros. apply in_fragment_terms; assumption. Qed.
Print Assumptions C31_fragment_continuum.

(** Emission of a gamma to the continuum, likewise. *)
Theorem C31_gamma_continuum Ji lmax : (0 <= Ji)%Z ->
  NoDup (gamma_terms Ji lmax) /\
  forall m Jf Pf, In (m, Jf, Pf) (gamma_terms Ji lmax) <-> (m <= lmax)%Z /\ gamma_allowed Ji Jf m.
Proof. intros H1. split; [apply nodup_gamma_terms|]. intros. apply in_gamma_terms; assumption. Qed.
Print Assumptions C31_gamma_continuum.

(** A level that cannot be reached has no width. *)
Theorem C31_forbidden v c f s Pa lev w : (0 <= c_twoJ c)%Z -> (0 <= rl_twoJ lev)%Z -> (0 <= s)%Z ->
  Z.even (c_twoJ c + rl_twoJ lev + s) = true ->
  fragment_discrete_width v c f s Pa lev = Ok w -> w <> 0 ->
  exists two_j l, fragment_allowed (c_twoJ c) (c_par c) (rl_twoJ lev) (rl_par lev) s Pa two_j l.
Proof.
  intros H1 H2 H3 H4 H Hw. unfold fragment_discrete_width in H. destruct (max_Exf v c f) as [top|]; cbn [bind] in H; [|discriminate].
  destruct (Rle_dec top (rl_E lev)); injection H as <-; [contradiction|].
  destruct (discrete_terms _ _ _ _ _ _) as [|[two_j l] r] eqn:ED; [exfalso; apply Hw; reflexivity|].
  exists two_j, l. apply in_discrete_terms; try assumption. rewrite ED. left. reflexivity.
Qed.
Print Assumptions C31_forbidden.

Theorem C31_gamma_forbidden v c lev : (0 <= c_twoJ c)%Z -> (0 <= rl_twoJ lev)%Z -> Z.even (c_twoJ c + rl_twoJ lev) = true ->
  gamma_discrete_width v c lev <> 0 -> exists m, gamma_allowed (c_twoJ c) (rl_twoJ lev) m.
Proof.
  intros H1 H2 H3 Hw. unfold gamma_discrete_width in Hw. destruct (Rle_dec _ _); [contradiction|].
  destruct (multipolarities _ _) as [|m r] eqn:ED; [exfalso; apply Hw; reflexivity|].
  exists m. apply in_multipolarities; try assumption. rewrite ED. left. reflexivity.
Qed.
Print Assumptions C31_gamma_forbidden.

(** Half-integer spins go with odd mass numbers throughout the structure data. *)
Definition spins_match (v : env) : Prop :=
  (forall pdg ds lev, v_scheme v pdg = Some ds -> In lev (s_levels ds) -> spin_matches (particle_A pdg) (rl_twoJ lev)) /\
  (forall f s Pa, In (f, (s, Pa)) (v_frags v) -> spin_matches (particle_A f) s).

(** The decay that is sampled conserves angular momentum and parity: the final state
    can be reached by the particle emitted. The nucleus left again has a spin that
    fits its mass number. *)
Theorem C31_decay v nucleus Ex J P d fuel e r Exf Jf Pf cont :
  hf_decay v nucleus Ex J P d fuel = Ok (e, r, Exf, Jf, Pf, cont) ->
  nonneg_at v (pid nucleus) -> 0 <= Ex -> spins_match v -> spin_matches (particle_A (pid nucleus)) J -> 0 < h_chan d <= 1 -> 0 < h_jpi d <= 1 ->
  (0 <= particle_Z (pid nucleus) - particle_Z (pid e) <= 999)%Z -> (0 <= particle_A (pid nucleus) - particle_A (pid e) <= 999)%Z ->
  ((pid e = 22%Z /\ pid r = pid nucleus /\ exists m, gamma_allowed J Jf m) \/
   (exists s Pa two_j l, In (pid e, (s, Pa)) (v_frags v) /\
      particle_Z (pid r) = (particle_Z (pid nucleus) - particle_Z (pid e))%Z /\
      particle_A (pid r) = (particle_A (pid nucleus) - particle_A (pid e))%Z /\
      fragment_allowed J P Jf Pf s Pa two_j l)) /\
  spin_matches (particle_A (pid r)) Jf.
Proof.
  intros H Hv HEx [HS1 HS2] HJ Hd1 Hd2 HZ HA. pose proof (hf_decay_inv _ _ _ _ _ _ _ _ _ _ _ _ _ H) as I. cbv zeta in I.
  set (c := mkcomp (pid nucleus) (chg nucleus) Ex J P) in *.
  destruct I as (cs & x & EC & EN & HI & HC & HW & ES & EP & _).
  apply prepare_inv in EP. destruct EP as (m & q & m0 & _ & _ & _ & _ & Pe & _ & _ & Pr & _ & _).
  assert (Wx : 0 < x_width x).
  { apply (nth_discrete_pos x_width cs (h_chan d) x); try assumption. apply Forall_forall. intros y Hy.
    apply channel_width_nonneg with v c; [split; [exact Hv|split; [exact HEx|apply HJ]]|]. eapply exit_channels_in; eassumption. }
  destruct HJ as [HJ0 HJ1]. destruct HC as (top & HT & HD).
  rewrite Pe in HZ, HA |- *. rewrite Pr. unfold final_pdg, emitted_pdg in *.
  unfold sample_final in ES. destruct (x_frag x) as [[[f s] Pa]|] eqn:EF.
  - (* fragments *)
    destruct HT as (Hf & HT & _ & _). destruct (HS2 _ _ _ Hf) as [Hs0 Hs1].
    change (c_pdg c) with (pid nucleus) in *. unfold fragment_final.
    destruct (C21_decodes (particle_Z (pid nucleus) - particle_Z f) (particle_A (pid nucleus) - particle_A f) HZ HA) as (D1 & D2 & _).
    rewrite D1, D2.
    assert (X : (exists two_j l, fragment_allowed J P Jf Pf s Pa two_j l) /\ (0 <= Jf)%Z).
    { destruct (x_dest x) as [lev|Ec].
      - injection ES as <- <- <-. destruct HD as (ds & Eds & Hl & _ & HWl). cbn [level_width] in HWl.
        destruct (HS1 _ _ _ Eds Hl) as [L0 L1]. unfold fragment_final in L1. rewrite D2 in L1. split; [|exact L0].
        eapply (C31_forbidden v c f s Pa lev (x_width x)); try assumption; [|lra].
        change (c_twoJ c) with J. rewrite !Z.even_add in *. rewrite !Z.even_sub in L1.
        destruct (Z.even J), (Z.even (rl_twoJ lev)), (Z.even s), (Z.even (particle_A (pid nucleus))), (Z.even (particle_A f)); try reflexivity; discriminate.
      - destruct (chan_max v c _) as [mx|]; cbn [bind] in ES; [|discriminate].
        destruct (inverse_transform _ _ _ _ _ _) as [E'|]; cbn [bind] in ES; [|discriminate].
        destruct (table v c _ Ec E') as [tb|] eqn:ET; cbn [bind] in ES; [|discriminate].
        destruct (Rle_dec _ 0) as [|LE]; [discriminate|]. destruct (nth_error tb _) as [j|] eqn:EJ; [|discriminate].
        injection ES as _ <- <-. apply nth_error_In in EJ. cbn [table] in ET. unfold fragment_table in ET.
        destruct (max_Exf v c f) as [t|]; cbn [bind] in ET; [|discriminate].
        repeat (destruct (Rlt_dec _ _); [try discriminate; injection ET as <-; destruct EJ|]). cbv zeta in ET. injection ET as <-.
        apply in_map_iff in EJ. destruct EJ as ([[[l tj] Jf'] P'] & <- & HIn). cbn [j_twoJ j_par].
        apply in_fragment_terms in HIn; [|exact HJ0|exact Hs0]. destruct HIn as [_ HA']. split; [exists tj, l; exact HA'|].
        destruct HA' as ([A1 _] & _). change (c_twoJ c) with J in A1. lia. }
    destruct X as [(tj & l & HAl) HJf]. split.
    + right. exists s, Pa, tj, l. repeat split; try assumption; try reflexivity; apply HAl.
    + split; [exact HJf|]. destruct HAl as ((_ & T1) & (_ & T2) & _). rewrite Z.even_add, Z.even_mul in T2. rewrite !Z.even_add in *. rewrite Z.even_sub.
      destruct (Z.even J), (Z.even Jf), (Z.even s), (Z.even tj), (Z.even (particle_A (pid nucleus))), (Z.even (particle_A f)); try reflexivity; discriminate.
  - (* gammas *)
    change (c_pdg c) with (pid nucleus) in *.
    assert (X : (exists m, gamma_allowed J Jf m) /\ (0 <= Jf)%Z).
    { destruct (x_dest x) as [lev|Ec].
      - injection ES as <- <- <-. destruct HD as (ds & Eds & Hl & _ & HWl). cbn [level_width] in HWl. injection HWl as HWl.
        destruct (HS1 _ _ _ Eds Hl) as [L0 L1]. split; [|exact L0].
        eapply (C31_gamma_forbidden v c lev); try assumption; [|lra].
        change (c_twoJ c) with J. rewrite !Z.even_add in *.
        destruct (Z.even J), (Z.even (rl_twoJ lev)), (Z.even (particle_A (pid nucleus))); try reflexivity; discriminate.
      - destruct (chan_max v c _) as [mx|]; cbn [bind] in ES; [|discriminate].
        destruct (inverse_transform _ _ _ _ _ _) as [E'|]; cbn [bind] in ES; [|discriminate].
        destruct (table v c _ Ec E') as [tb|] eqn:ET; cbn [bind] in ES; [|discriminate].
        destruct (Rle_dec _ 0) as [|LE]; [discriminate|]. destruct (nth_error tb _) as [j|] eqn:EJ; [|discriminate].
        injection ES as _ <- <-. apply nth_error_In in EJ. cbn [table] in ET. unfold gamma_table in ET.
        repeat (destruct (Rlt_dec _ _); [try discriminate; injection ET as <-; destruct EJ|]). injection ET as <-.
        apply in_map_iff in EJ. destruct EJ as ([[m' Jf'] P'] & <- & HIn). cbn [j_twoJ j_par].
        apply in_gamma_terms in HIn; [|exact HJ0]. destruct HIn as [_ HA']. split; [exists m'; exact HA'|].
        destruct HA' as (_ & A1 & _). change (c_twoJ c) with J in A1. lia. }
    destruct X as [(m' & HAl) HJf]. split.
    + left. split; [reflexivity|]. split; [reflexivity|]. exists m'. exact HAl.
    + split; [exact HJf|]. destruct HAl as (_ & _ & T1). rewrite Z.even_add, Z.even_mul in T1. rewrite !Z.even_add in *.
      destruct (Z.even J), (Z.even Jf), (Z.even (particle_A (pid nucleus))); try reflexivity; discriminate.
Qed.
Print Assumptions C31_decay.

(** Without that relation between spins the sums contain terms that couple to
    nothing: here two_j = 1 with a spin-one fragment and l = 0. *)
Theorem C31_mixed_spins_refuted :
  In (1, 0)%Z (discrete_terms 0 true 1 true 2 true) /\ ~ fragment_allowed 0 true 1 true 2 true 1 0.
Proof. split; [left; reflexivity|]. intros (_ & (H & _) & _). lia. Qed.
Print Assumptions C31_mixed_spins_refuted.

(** Concrete cases: neutron emission 2- to 1/2+ and a gamma 4- to 3-. *)
Example C31_case :
  discrete_terms 4 false 1 true 1 true = [(3, 1); (5, 3)]%Z /\
  fragment_allowed 4 false 1 true 1 true 3 1 /\
  multipolarities 8 6 = [1; 2; 3; 4; 5; 6; 7]%Z /\ gamma_allowed 8 6 1 /\ is_electric false 1 false = false.
Proof.
  split; [reflexivity|]. split; [repeat split; try lia|]. split; [reflexivity|]. split; [repeat split; lia|reflexivity].
Qed.
