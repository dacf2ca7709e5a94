(** Concrete cases for the theorems about de-excitation: potassium-40 with three
    levels, measured neighbours, and neutron emission. *)
From Coq Require Import List ZArith Reals Lra Lia Bool.
From Verif Require Import Base Pdg PdgThms Kin KinSpec KinProofs KinThms Sample SampleProofs SampleThms Mass MassThms
  Decay DecaySpec DecayProofs ChannelProofs CascadeThms SelectThms DeexSpec DeexProofs DeexThms.
Import ListNotations.
Local Open Scope R_scope.

Definition case_mt : mtab := mkmt
  [(11%Z, 548); (22%Z, 0); (2112%Z, 1008664); (2212%Z, 1007276); (1000010020%Z, 2013553); (1000010030%Z, 3015501);
   (1000020030%Z, 3014932); (1000020040%Z, 4001506)]
  [(1000190400%Z, 39963998); (1000190390%Z, 38963706); (1000180390%Z, 38964313); (1000180380%Z, 37962732);
   (1000180370%Z, 36966776); (1000170370%Z, 36965902); (1000170360%Z, 35968306)].

Definition case_env : env := mkenv case_mt (fun p => if Z.eqb p 1000190400 then Some demo_scheme else None)
  [(2112%Z, (1%Z, true))] (fun _ _ _ _ => 1) (fun _ _ _ _ _ _ => 1) (fun _ _ _ _ => 1) 2 2
  (fun _ _ _ => 1) (fun _ a _ x => x - a) 1.

Lemma assoc_cases {B} (k : Z) (l : list (Z * B)) v : assoc k l = Some v -> In (k, v) l.
Proof.
  induction l as [|[k' v'] r IH]; cbn [assoc]; [discriminate|]. destruct (Z.eqb_spec k k') as [->|N]; intros H.
  - injection H as ->. left. reflexivity.
  - right. apply IH. exact H.
Qed.

Lemma case_table : table_ok case_mt.
Proof.
  split; [exists (micro_amu * 548); split; [reflexivity|unfold micro_amu; lra]|]. split.
  - intros f m [<-|H] E; [injection E as <-; unfold micro_amu; lra|]. unfold fragment_pdgs in H.
    repeat (destruct H as [<-|H]; [injection E as <-; unfold micro_amu; lra|]). destruct H.
  - intros Zn A m HN E. apply assoc_cases in E. destruct (nuclide_decodes Zn A HN) as [_ D].
    cbn [case_mt t_atom] in E. unfold micro_amu.
    repeat (destruct E as [E|E]; [injection E as E1 <-; rewrite <- E1 in D; vm_compute in D; subst A; lra|]). destruct E.
Qed.

Lemma case_ok : env_ok case_env.
Proof.
  split; [exact case_table|]. split; [apply Forall_cons; [left; reflexivity|apply Forall_nil]|].
  intros pdg ds H. cbn [case_env v_scheme] in H. destruct (Z.eqb_spec pdg 1000190400); [|discriminate]. injection H as <-. subst pdg.
  split; [reflexivity|]. pose proof demo_good as G. rewrite Forall_forall in *. intros l Hl. split; [apply G; exact Hl|].
  destruct Hl as [<-|[<-|[<-|[]]]]; cbn [rl_E]; lra.
Qed.

Lemma case_schemes : schemes_ok case_env.
Proof.
  intros pdg ds H. cbn [case_env v_scheme] in H. destruct (Z.eqb_spec pdg 1000190400); [|discriminate]. injection H as <-.
  split; [exact demo_downward|exact demo_sorted].
Qed.

Definition K40 (Ex : R) : part := let m := 39963998 * micro_amu - 1 * (micro_amu * 548) + Ex in mkpart 1000190400 m 0 0 0 m 1.
Definition case_event (Ex : R) : kevent :=
  mkev (mkpart 12 10 0 0 10 0 0) (mkpart 1000180400 37215 0 0 0 37215 0) (mkpart 11 5 0 0 5 0 (-1)) (K40 Ex) [] Ex 0 true.

Lemma K40_nucleus Ex : 0 <= Ex -> is_nucleus (K40 Ex).
Proof.
  intros H. exists 19%Z, 40%Z. unfold K40, micro_amu. cbn [pid chg mass]. repeat split; cbn [mass en px py pz]; try lia; try lra.
Qed.

Lemma case_mass Zn A m : assoc (nucleus_pid Zn A) (t_atom case_mt) = Some m -> mass_MeV case_mt Zn A = m * micro_amu.
Proof. intros E. unfold mass_MeV. rewrite E. reflexivity. Qed.

Lemma case_sep f Zx Ax mf md :
  In f fragment_pdgs -> particle_mass case_mt f = Ok (micro_amu * mf) -> particle_Z f = Zx -> particle_A f = Ax ->
  assoc (nucleus_pid (19 - Zx) (40 - Ax)) (t_atom case_mt) = Some md ->
  separation_ZA case_mt 19 40 f true = Ok (md * micro_amu + micro_amu * mf + IZR Zx * (micro_amu * 548) - 39963998 * micro_amu).
Proof.
  intros Hf EM EZ EA ED.
  assert (H0 : (0 <= f)%Z) by (unfold fragment_pdgs in Hf; repeat (destruct Hf as [<-|Hf]; [discriminate|]); destruct Hf).
  rewrite (C49_separation case_mt 19 40 f (micro_amu * 548) (micro_amu * mf) H0 eq_refl EM).
  rewrite EZ, EA, (case_mass _ _ _ ED), (case_mass 19 40 39963998 eq_refl). reflexivity.
Qed.

Lemma case_separations f : In f fragment_pdgs -> exists s, separation_ZA case_mt 19 40 f true = Ok s /\ 2 < s < 20.
Proof.
  intros H. unfold fragment_pdgs in H.
  destruct H as [<-|H]; [eexists; split; [apply (case_sep _ 0 1 1008664 38963706); [left; reflexivity|reflexivity..]|unfold micro_amu; lra]|].
  destruct H as [<-|H]; [eexists; split; [apply (case_sep _ 1 1 1007276 38964313); [right; left; reflexivity|reflexivity..]|unfold micro_amu; lra]|].
  destruct H as [<-|H]; [eexists; split; [apply (case_sep _ 1 2 2013553 37962732); [do 2 right; left; reflexivity|reflexivity..]|unfold micro_amu; lra]|].
  destruct H as [<-|H]; [eexists; split; [apply (case_sep _ 1 3 3015501 36966776); [do 3 right; left; reflexivity|reflexivity..]|unfold micro_amu; lra]|].
  destruct H as [<-|H]; [eexists; split; [apply (case_sep _ 2 3 3014932 36965902); [do 4 right; left; reflexivity|reflexivity..]|unfold micro_amu; lra]|].
  destruct H as [<-|H]; [eexists; split; [apply (case_sep _ 2 4 4001506 35968306); [do 5 right; left; reflexivity|reflexivity..]|unfold micro_amu; lra]|].
  destruct H.
Qed.

Lemma case_threshold : exists u, unbound_threshold case_mt 1000190400 = Ok u /\ 2 < u < 20.
Proof.
  assert (X : forall l b, incl l fragment_pdgs -> exists u, min_threshold case_mt 19 40 b l = Ok u).
  { induction l as [|f r IH]; intros b Hi; cbn [min_threshold]; [eexists; reflexivity|].
    destruct (case_separations f (Hi f (or_introl eq_refl))) as (s & -> & _). cbn [bind]. apply IH. intros g Hg. apply Hi. right. exact Hg. }
  destruct (X fragment_pdgs max_double (incl_refl _)) as [u E].
  assert (E' : unbound_threshold case_mt 1000190400 = Ok u) by exact E. exists u. split; [exact E'|].
  pose proof (C49_threshold _ _ _ E') as (T1 & T2 & T3). cbv zeta in *. unfold separation in *.
  change (particle_Z 1000190400) with 19%Z in *. change (particle_A 1000190400) with 40%Z in *.
  change [2112; 2212; 1000010020; 1000010030; 1000020030; 1000020040]%Z with fragment_pdgs in *. change (IZR (2 ^ 1024 - 2 ^ 971)) with max_double in *.
  assert (NB : In 2112%Z fragment_pdgs /\ (measured case_mt 19 40 \/ (0 < 40)%Z) /\
    (measured case_mt (19 - particle_Z 2112) (40 - particle_A 2112) \/ (0 < 40 - particle_A 2112)%Z)) by (split; [left; reflexivity|split; right; reflexivity]).
  destruct (T1 _ NB) as (s & Es & Ls). destruct (case_separations 2112%Z (or_introl eq_refl)) as (s' & Es' & Hs). rewrite Es in Es'. injection Es' as <-.
  split; [|lra]. destruct T2 as [T2|(f & [Hf _] & Ef)].
  - exfalso. rewrite T2 in Ls. assert (20 < max_double) by (unfold max_double; apply IZR_lt; reflexivity). lra.
  - destruct (case_separations f Hf) as (s2 & Es2 & Hs2). rewrite Ef in Es2. injection Es2 as <-. lra.
Qed.

(** Two gammas from the bound level at 1.64 MeV, after which the event is settled. *)
Example C32_case_bound hd cd : cascade_draws cd ->
  exists ev', deexcite case_env (case_event (164 / 100)) hd cd 3 = Ok ev' /\ length (e_others ev') = 2%nat /\
    contains (e_residue (case_event (164 / 100))) (e_others ev') /\
    deexcite case_env ev' hd cd 3 = Ok ev'.
Proof.
  intros Hd. destruct case_threshold as (u & EU & HU). destruct (C29_case cd Hd) as (r & gs & EC & EL).
  assert (EI : ion_mass case_mt 1000190400 1 = Ok (39963998 * micro_amu - 1 * (micro_amu * 548))) by reflexivity.
  set (m := 39963998 * micro_amu - 1 * (micro_amu * 548)) in *.
  assert (CC : cascade case_mt demo_scheme 1 (mkrl (164 / 100) 0 true [(0, Some 0%nat); (1, Some 1%nat)]) (K40 (164 / 100)) cd 0 3 = Ok (r, gs)).
  { rewrite <- EC. assert (G : forall fuel lev p turn, cascade case_mt demo_scheme 1 lev p cd turn fuel = cascade demo_mt demo_scheme 1 lev p cd turn fuel);
    [|apply G]. induction fuel as [|fuel IH]; intros lev p turn; [reflexivity|]. rewrite !cascade_unfold.
    destruct (rl_gammas lev); [reflexivity|]. destruct (nth_error _ _) as [[w [j|]]|]; try reflexivity.
    destruct (nth_error (s_levels demo_scheme) j) as [lev'|]; [|reflexivity].
    change (ion_mass case_mt (s_pdg demo_scheme) 1) with (ion_mass demo_mt (s_pdg demo_scheme) 1).
    destruct (ion_mass demo_mt _ _) as [m0|]; cbn [bind]; [|reflexivity].
    destruct (two_body_decay _ _ _ _ _) as [[g n]|]; cbn [bind]; [|reflexivity]. rewrite IH. reflexivity. }
  assert (FI : finish case_env (K40 (164 / 100)) (164 / 100) true cd 3 = Ok (r, gs)).
  { unfold finish. change (v_scheme case_env (pid (K40 (164 / 100)))) with (Some demo_scheme). cbv iota.
    assert (RC : rl_closest (s_levels demo_scheme) (164 / 100) = Some 2%nat).
    { unfold rl_closest. cbn [s_levels demo_scheme rl_lower_bound rl_E].
      destruct (Rlt_dec 0 (164 / 100)); [|lra]. destruct (Rlt_dec (3 / 100) (164 / 100)); [|lra]. destruct (Rlt_dec (164 / 100) (164 / 100)); [lra|].
      cbn [Nat.eqb length Nat.ltb Nat.leb nth_error pred rl_E]. replace (164 / 100 - 164 / 100) with 0 by ring. rewrite Rabs_R0.
      destruct (Rlt_dec _ 0) as [C|C]; [pose proof (Rabs_pos (164 / 100 - 3 / 100)); lra|reflexivity]. }
    rewrite RC. cbn [nth_error s_levels demo_scheme rl_E]. replace (164 / 100 - 164 / 100) with 0 by ring. rewrite Rabs_R0.
    destruct (Rlt_dec ex_tolerance 0) as [C|C]; [unfold ex_tolerance in C; lra|]. cbn [andb]. exact CC. }
  assert (DE : deexcite case_env (case_event (164 / 100)) hd cd 3 = Ok (with_residue (case_event (164 / 100)) r gs)).
  { unfold deexcite. cbv zeta. cbn [case_event e_Ex e_residue]. destruct (Req_EM_T (164 / 100) 0); [lra|]. destruct (Rlt_dec (164 / 100) 0); [lra|].
    change (negb (is_ion (pid (K40 (164 / 100))))) with false. cbv iota.
    change (ion_mass (v_mt case_env) (pid (K40 (164 / 100))) (chg (K40 (164 / 100)))) with (ion_mass case_mt 1000190400 1). rewrite EI. cbn [bind].
    change (mass (K40 (164 / 100))) with (m + 164 / 100). replace (m + 164 / 100 - (m + 164 / 100)) with 0 by ring. rewrite Rabs_R0.
    destruct (Rlt_dec ex_tolerance 0) as [C|C]; [unfold ex_tolerance in C; lra|].
    change (unbound_threshold (v_mt case_env) (pid (K40 (164 / 100)))) with (unbound_threshold case_mt 1000190400). rewrite EU. cbn [bind].
    destruct (Rlt_dec u (164 / 100)); [lra|]. change (v_scheme case_env (pid (K40 (164 / 100)))) with (Some demo_scheme). cbv iota.
    rewrite FI. reflexivity. }
  exists (with_residue (case_event (164 / 100)) r gs). split; [exact DE|]. cbn [with_residue e_others case_event app]. split; [exact EL|].
  destruct (finish_spec _ _ _ _ _ _ _ _ FI case_ok Hd (K40_nucleus (164 / 100) ltac:(lra))) as (ds & lev & la & m0 & F1 & F2 & F3 & F4 & F5 & F6 & F7 & F8 & F9 & F10 & F11 & F12 & F13 & F14 & F15).
  split.
  - destruct (no_photon_sums [] gs F8) as (S1 & S2 & S3 & S4). cbn [app] in S1, S2, S3. unfold contains. rewrite S1, S2, S3.
    cbn [e_residue]. unfold protons, neutrons, nucleons, protons. cbn [K40 pid zsum fold_right]. vm_compute. intuition congruence.
  - apply (C33_twice _ _ _ _ _ _ m0 hd cd 3 DE).
    + cbn [case_event e_Ex]. unfold ex_tolerance. lra.
    + cbn [with_residue e_residue]. rewrite F11, F12. exact F7.
    + cbn [with_residue e_residue]. rewrite F15 by (intros ->; discriminate).
      assert (E0 : rl_E la = 0).
      { change (v_scheme case_env (pid (K40 (164 / 100)))) with (Some demo_scheme) in F1. injection F1 as <-.
        destruct F3 as [<-|[<-|[<-|[]]]]; [reflexivity|discriminate|discriminate]. }
      rewrite E0. replace (m0 + 0 - m0) with 0 by ring. rewrite Rabs_R0. unfold ex_tolerance. lra.
Qed.

Lemma gamma_channels_ok v c ds : exists gs, particle_channels v c None (c_Ex c) ds = Ok gs.
Proof.
  assert (L : forall ls, exists cs, level_channels v c None (c_Ex c) ls = Ok cs).
  { induction ls as [|lev r [cs IH]]; cbn [level_channels]; [eexists; reflexivity|].
    destruct (Rlt_dec (rl_E lev) (c_Ex c)); [cbn [bind]; rewrite IH; cbn [bind]|]; eexists; reflexivity. }
  assert (X : exists cs, match ds with Some s => level_channels v c None (c_Ex c) (s_levels s) | None => Ok [] end = Ok cs)
    by (destruct ds; [apply L|eexists; reflexivity]).
  destruct X as [cs E]. unfold particle_channels. rewrite E. cbn [bind]. cbv zeta.
  destruct (Rlt_dec (continuum_floor ds) (c_Ex c)); [|eexists; reflexivity].
  unfold continuum_width. cbn [chan_max bind]. destruct (Rlt_dec (c_Ex c) (continuum_floor ds)); [exfalso; lra|]. cbn [bind]. eexists. reflexivity.
Qed.

Lemma case_positive n : positive_at case_env n.
Proof.
  split.
  - repeat split; intros; try (cbn; lra). cbn [case_env v_scheme] in H. destruct (Z.eqb pdg _); [|discriminate]. injection H as <-.
    destruct H0 as [<-|[<-|[<-|[]]]]; cbn; lra.
  - repeat split; intros; try (cbn; lra); try (cbn; lia). destruct H as [H|[]]. injection H as _ <- _. lia.
Qed.

(** A statistical decay of potassium-40 at 20 MeV: neutron or gamma emission. *)
Example C32_case_unbound d : hf_draws (fun _ => d) -> h_E d < 1 ->
  exists fuel e r Exf Jf Pf cont, hf_decay case_env (K40 20) 20 2 true d fuel = Ok (e, r, Exf, Jf, Pf, cont) /\
    positive_at case_env (pid (K40 20)) /\ spins_match case_env /\ spin_matches (particle_A (pid (K40 20))) 2 /\ contains (K40 20) [e].
Proof.
  intros Hd D6. destruct (Hd 0%nat) as (D1 & D2 & D3 & D4 & D5).
  pose proof (case_separations 2112%Z (or_introl eq_refl)) as SEP.
  destruct SEP as (s & ES & Hs).
  assert (EC : exists cs, exit_channels case_env (mkcomp (pid (K40 20)) (chg (K40 20)) 20 2 true) = Ok cs /\ 0 < sumR (map x_width cs)).
  { unfold exit_channels. cbn [case_env v_frags fragment_channels c_pdg v_mt K40 pid chg].
    change (particle_Z 1000190400) with 19%Z. change (particle_A 1000190400) with 40%Z. rewrite ES. cbn [bind]. cbv zeta. cbn [c_Ex].
    change (nan_separation case_mt 19 40 2112) with false. cbv iota. destruct (Rle_dec (20 - s) 0); [lra|].
    unfold particle_channels at 1. change (v_scheme case_env (fragment_final 1000190400 2112)) with (@None rscheme).
    change (v_scheme (mkenv case_mt (fun p => if Z.eqb p 1000190400 then Some demo_scheme else None)
  [(2112%Z, (1%Z, true))] (fun _ _ _ _ => 1) (fun _ _ _ _ _ _ => 1) (fun _ _ _ _ => 1) 2 2
  (fun _ _ _ => 1) (fun _ a _ x => x - a) 1) (fragment_final 1000190400 2112)) with (@None rscheme).
    cbn [bind continuum_floor]. cbv zeta. destruct (Rlt_dec 0 (20 - s)); [|lra].
    fold case_env.
    assert (CW : continuum_width case_env (mkcomp 1000190400 1 20 2 true) (Some (2112%Z, 1%Z, true)) 0 = Ok 1).
    { unfold continuum_width. cbn [chan_max]. unfold max_Exf, separation. cbn [c_pdg c_Ex].
      change (particle_Z 1000190400) with 19%Z. change (particle_A 1000190400) with 40%Z. change (v_mt case_env) with case_mt. rewrite ES. cbn [bind].
      destruct (Rlt_dec (20 - s) 0); [lra|reflexivity]. }
    rewrite CW. cbn [bind app fragment_channels].
    assert (GC : exists gs, particle_channels case_env (mkcomp 1000190400 1 20 2 true) None 20 (v_scheme case_env 1000190400) = Ok gs).
    { apply gamma_channels_ok. }
    destruct GC as [gs EG]. rewrite EG. cbn [bind]. eexists. split; [reflexivity|]. cbn [app map x_width sumR fold_right].
    assert (0 <= sumR (map x_width gs)).
    { apply sumR_nonneg. unfold nonneg. apply Forall_map. apply Forall_forall. intros x Hx.
      apply (channel_width_nonneg case_env (mkcomp 1000190400 1 20 2 true)).
      - split; [apply case_positive|]. split; [cbn; lra|cbn; lia].
      - destruct (particle_channels_in _ _ _ _ _ _ _ EG Hx) as [A B]. exists 20. split; [rewrite A; reflexivity|]. unfold final_pdg. rewrite A. exact B. }
    unfold sumR in *. lra. }
  destruct EC as (cs & EC & HS).
  destruct (K40_nucleus 20 ltac:(lra)) as (Zn & A & HN & Hp & Hq & Ho & HM).
  assert (HN' : nuclide 19 40) by (split; lia).
  assert (EMIT : forall x, In x cs -> emitted_pdg x = 22%Z \/ emitted_pdg x = 2112%Z).
  { intros x Hx. destruct (exit_channels_in _ _ _ _ EC Hx) as (top & HT & _). unfold emitted_pdg. destruct (x_frag x) as [[[f s'] Pa]|]; [|left; reflexivity].
    right. destruct HT as ([HT|[]] & _). injection HT as <- _ _. reflexivity. }
  destruct (C32_decay_succeeds case_env (K40 20) 20 2 true cs d 19 40 case_ok) as (fuel & e & r & Exf & Jf & Pf & cont & E);
    [|change (Ok (micro_amu * 0) = Ok 0); rewrite Rmult_0_r; reflexivity|exact HN'|reflexivity|cbn [K40 chg]; lia|exact Ho|exact HM| |lra|lia|exact D4|exact D6|exact EC|exact HS| |].
  - apply case_positive.
  - exists (39963998 * micro_amu - 1 * (micro_amu * 548)). split; reflexivity.
  - intros x Hx. destruct (EMIT x Hx) as [->| ->]; (split; cbn; lia).
  - exists fuel, e, r, Exf, Jf, Pf, cont. split; [exact E|]. split; [apply case_positive|]. split; [|split].
    + split.
      * intros pdg ds lev H. cbn [case_env v_scheme] in H. destruct (Z.eqb_spec pdg 1000190400); [|discriminate]. injection H as <-. subst pdg.
        intros [<-|[<-|[<-|[]]]]; (split; [cbn; lia|reflexivity]).
      * intros f s' Pa [H|[]]. injection H as <- <- _. split; [lia|reflexivity].
    + split; [lia|reflexivity].
    + pose proof (hf_decay_inv _ _ _ _ _ _ _ _ _ _ _ _ _ E) as I. cbv zeta in I. destruct I as (cs' & x & EC' & _ & HI & _ & _ & _ & EP & _).
      change (mkcomp _ _ _ _ _) with (mkcomp (pid (K40 20)) (chg (K40 20)) 20 2 true) in EC'. rewrite EC in EC'. injection EC' as <-.
      apply prepare_inv in EP. destruct EP as (m & q & m0 & _ & _ & _ & _ & Pe & _).
      unfold contains, neutrons, protons, nucleons, zsum. cbn [fold_right]. rewrite Pe. destruct (EMIT x HI) as [->| ->]; vm_compute; intuition congruence.
Qed.
