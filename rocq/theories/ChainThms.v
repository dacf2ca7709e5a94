(** The course of a de-excitation: which decays follow which (C31, C32). *)
From Coq Require Import List ZArith Reals Lra Lia Bool.
From Verif Require Import Base Pdg PdgThms Kin KinSpec KinProofs KinThms Sample SampleProofs SampleThms Mass MassThms
  Decay DecaySpec DecayProofs ChannelProofs CascadeThms SelectThms DeexSpec DeexProofs DeexThms DeexCases.
Import ListNotations.
Local Open Scope R_scope.

(** A chain of statistical decays, each from the state that the one before has left, with
    its own draws: [chain v d k nucleus E J P es r E'] ends with the nucleus [r] at
    [E'], in a level or, if [cont], below 1 keV in the continuum. *)
Inductive chain (v : env) (d : nat -> hdraw) : nat -> part -> R -> Z -> bool -> list part -> part -> R -> bool -> Prop :=
| chain_low k r E J P : E <= 1 / 1000 -> chain v d k r E J P [] r E true
| chain_level k r E J P fuel e r' E' J' P' : 1 / 1000 < E ->
    hf_decay v r E J P (d k) fuel = Ok (e, r', E', J', P', false) -> chain v d k r E J P [e] r' E' false
| chain_more k r E J P fuel e r' E' J' P' es rf Ef cont : 1 / 1000 < E ->
    hf_decay v r E J P (d k) fuel = Ok (e, r', E', J', P', true) ->
    chain v d (S k) r' E' J' P' es rf Ef cont -> chain v d k r E J P (e :: es) rf Ef cont.

(** The same chain as a list of spins and parities: each particle takes the nucleus from one
    state to the next by the selection rules. *)
Inductive spin_chain (frags : list (Z * (Z * bool))) : Z -> bool -> list part -> Prop :=
| spins_end J P : spin_chain frags J P []
| spins_gamma J P e es J' P' m : pid e = 22%Z -> gamma_allowed J J' m -> spin_chain frags J' P' es -> spin_chain frags J P (e :: es)
| spins_fragment J P e es J' P' s Pa two_j l : In (pid e, (s, Pa)) frags -> fragment_allowed J P J' P' s Pa two_j l ->
    spin_chain frags J' P' es -> spin_chain frags J P (e :: es).

(** The gamma cascade at the end starts in the level closest to the energy. *)
Definition cascade_from (v : env) (nucleus : part) (E : R) (gs : list part) (r : part) : Prop :=
  exists ds lev path m0, v_scheme v (pid nucleus) = Some ds /\ In lev (s_levels ds) /\
    (forall l, In l (s_levels ds) -> Rabs (E - rl_E lev) <= Rabs (E - rl_E l)) /\
    cascade_path ds lev path /\ length gs = length path /\ Forall photon gs /\
    ion_mass (v_mt v) (pid nucleus) (chg nucleus) = Ok m0 /\
    pid r = pid nucleus /\ chg r = chg nucleus /\ (path <> [] -> mass r = m0 + rl_E (last_level lev path)).

Lemma loop_chain v d : forall fuel r E J P k rf Ef cont es,
  hf_loop v r E J P d k fuel = Ok (rf, Ef, cont, es) -> chain v d k r E J P es rf Ef cont.
Proof.
  induction fuel as [|fuel IH]; intros r E J P k rf Ef cont es H; [discriminate|]. cbn [hf_loop] in H.
  destruct (Rlt_dec gs_cutoff E) as [L|L]; unfold gs_cutoff in L.
  - destruct (hf_decay _ _ _ _ _ _ _) as [[[[[[e r1] E1] J1] P1] c1]|] eqn:ED; cbn [bind] in H; [|discriminate]. destruct c1.
    + destruct (hf_loop v r1 E1 J1 P1 d (S k) fuel) as [[[[r' E'] c'] es']|] eqn:EL; cbn [bind] in H; [|discriminate].
      injection H as <- <- <- <-. eapply chain_more; [exact L|exact ED|]. apply IH. exact EL.
    + injection H as <- <- <- <-. eapply chain_level; [exact L|exact ED].
  - injection H as <- <- <- <-. apply chain_low. lra.
Qed.

Lemma closest_nearest ls E i lev : levels_sorted ls -> rl_closest ls E = Some i -> nth_error ls i = Some lev ->
  forall l, In l ls -> Rabs (E - rl_E lev) <= Rabs (E - rl_E l).
Proof.
  intros HS HC HN l Hl. destruct (In_nth_error _ _ Hl) as [k Hk]. unfold rl_closest in HC. destruct ls as [|l0 r] eqn:EL; [discriminate|]. rewrite <- EL in *.
  cbv zeta in HC. destruct (lower_bound_spec E ls) as (H1 & H2 & H3). set (e := rl_lower_bound E ls) in *. clearbody e.
  assert (LK : (k < length ls)%nat) by (apply nth_error_Some; congruence).
  assert (Low : forall a, nth_error ls (pred e) = Some a -> (k < e)%nat -> Rabs (E - rl_E a) <= Rabs (E - rl_E l)).
  { intros a Ha Hke. pose proof (HS k (pred e) l a ltac:(lia) Hk Ha). pose proof (H3 k l Hke Hk). pose proof (H3 (pred e) a ltac:(lia) Ha).
    rewrite !Rabs_pos_eq by lra. lra. }
  assert (High : forall a, nth_error ls e = Some a -> (e <= k)%nat -> Rabs (E - rl_E a) <= Rabs (E - rl_E l)).
  { intros a Ha Hke. pose proof (HS e k a l Hke Ha Hk). pose proof (H2 a Ha). rewrite (Rabs_minus_sym E (rl_E a)), (Rabs_minus_sym E (rl_E l)). rewrite !Rabs_pos_eq by lra. lra. }
  destruct (Nat.eqb_spec e (length ls)) as [E1|E1].
  - injection HC as <-. apply (Low lev HN). lia.
  - destruct (Nat.ltb_spec 0 e) as [E2|E2].
    + destruct (nth_error ls e) as [a|] eqn:EA; [|discriminate]. destruct (nth_error ls (pred e)) as [b|] eqn:EB; [|discriminate].
      destruct (Rlt_dec _ _) as [C|C]; injection HC as <-.
      * rewrite EB in HN. injection HN as ->. destruct (le_lt_dec e k) as [G|G]; [|apply (Low lev eq_refl G)].
        pose proof (High a eq_refl G). lra.
      * rewrite EA in HN. injection HN as ->. destruct (le_lt_dec e k) as [G|G]; [apply (High lev eq_refl G)|].
        pose proof (Low b eq_refl G). lra.
    + injection HC as <-. apply (High lev HN). lia.
Qed.

Lemma finish_from v nucleus E check cd fuel r gs : finish v nucleus E check cd fuel = Ok (r, gs) ->
  env_ok v -> schemes_ok v -> cascade_draws cd -> is_nucleus nucleus ->
  cascade_from v nucleus E gs r /\
  (check = true -> exists ds lev, v_scheme v (pid nucleus) = Some ds /\ In lev (s_levels ds) /\ Rabs (E - rl_E lev) <= 1 / 100000).
Proof.
  intros H Hv HSc Hd (Zn & A & HN & Hp & Hq & Ho & HM). unfold finish in H.
  destruct (v_scheme v (pid nucleus)) as [ds|] eqn:ES; [|discriminate].
  destruct (rl_closest (s_levels ds) E) as [i|] eqn:EC; [|discriminate].
  destruct (nth_error (s_levels ds) i) as [lev|] eqn:EL; [|discriminate].
  destruct (_ && _)%bool eqn:EB; [discriminate|].
  pose proof Hv as (Ht & _ & Hs). destruct (Hs _ _ ES) as [HP HL].
  pose proof Ht as ((me & Hme & _) & _).
  destruct (ion_mass_nuclide (v_mt v) Zn A (chg nucleus) me Ht HN Hq Hme) as [EI Hpos]. rewrite <- Hp in EI.
  pose proof (nth_error_In _ _ EL) as HIn. rewrite Forall_forall in HL.
  set (m0 := mass_MeV (v_mt v) Zn A - IZR (chg nucleus) * me) in *.
  destruct (C29_conserves _ _ _ _ _ _ _ _ _ _ m0 H Hd) as (path & P1 & P2 & P3 & P4 & P5 & P6 & P7).
  - rewrite HP. exact EI.
  - apply Forall_forall. intros l Hl. destruct (HL l Hl). split; [assumption|lra].
  - apply HL. exact HIn.
  - exact Ho.
  - exact HM.
  - split.
    + exists ds, lev, path, m0. split; [exact ES|]. split; [exact HIn|]. split; [apply (closest_nearest _ _ i); [apply (HSc _ _ ES)|exact EC|exact EL]|].
      split; [exact P1|]. split; [exact P2|]. split; [exact P3|]. split; [exact EI|].
      destruct path as [|p0 path]; [rewrite (P6 eq_refl); repeat split; intros C; contradiction|].
      destruct (P7 ltac:(discriminate)) as (Q1 & Q2 & Q3). rewrite HP in Q1. split; [exact Q1|]. split; [exact Q2|]. intros _. exact Q3.
    + intros ->. exists ds, lev. split; [reflexivity|]. split; [exact HIn|]. cbn [andb] in EB. unfold ex_tolerance in EB. destruct (Rlt_dec (1 / 100000) _) in EB; [discriminate|lra].
Qed.

(** A nucleus whose excitation energy does not exceed the threshold for emission of a
    fragment, and whose levels are known, emits gammas only, by a cascade that starts in
    the level within 10 eV of its energy. *)
Theorem C32_bound v ev hd cd fuel ev' u : deexcite v ev hd cd fuel = Ok ev' ->
  env_ok v -> schemes_ok v -> cascade_draws cd -> is_nucleus (e_residue ev) ->
  unbound_threshold (v_mt v) (pid (e_residue ev)) = Ok u -> e_Ex ev <= u -> v_scheme v (pid (e_residue ev)) <> None ->
  ev' = ev \/
  exists gs, e_others ev' = e_others ev ++ gs /\ cascade_from v (e_residue ev) (e_Ex ev) gs (e_residue ev') /\
    exists ds lev, v_scheme v (pid (e_residue ev)) = Some ds /\ In lev (s_levels ds) /\ Rabs (e_Ex ev - rl_E lev) <= 1 / 100000.
Proof.
  intros H Hv Hs Hc HR HU HE HN. unfold deexcite in H. cbv zeta in H. destruct (Req_EM_T (e_Ex ev) 0); [injection H as <-; left; reflexivity|].
  destruct (Rlt_dec (e_Ex ev) 0); [discriminate|].
  destruct (negb (is_ion _)); [injection H as <-; left; reflexivity|].
  destruct (ion_mass _ _ _) as [gs|]; cbn [bind] in H; [|discriminate].
  destruct (Rlt_dec ex_tolerance _) as [L|L].
  { destruct (Rle_dec _ ex_tolerance); [injection H as <-; left; reflexivity|discriminate]. }
  rewrite HU in H. cbn [bind] in H. destruct (Rlt_dec u (e_Ex ev)) as [C|_]; [lra|].
  destruct (v_scheme v (pid (e_residue ev))) as [ds|] eqn:ES; [|contradiction].
  destruct (finish v (e_residue ev) (e_Ex ev) true cd fuel) as [[r' gs']|] eqn:EF; cbn [bind] in H; [|discriminate]. injection H as <-.
  right. exists gs'. split; [reflexivity|]. cbn [with_residue e_residue].
  destruct (finish_from _ _ _ _ _ _ _ _ EF Hv Hs Hc HR) as [F1 F2]. split; [exact F1|]. destruct (F2 eq_refl) as (ds' & lev & G1 & G2 & G3).
  exists ds', lev. rewrite ES in G1. repeat split; assumption.
Qed.
Print Assumptions C32_bound.

(** Otherwise it decays statistically, from its energy, spin and parity, until a level or
    1 keV is reached, and a cascade from that level follows. *)
Theorem C32_statistical v ev hd cd fuel ev' u : deexcite v ev hd cd fuel = Ok ev' ->
  env_ok v -> schemes_ok v -> hf_draws hd -> cascade_draws cd -> is_nucleus (e_residue ev) ->
  unbound_threshold (v_mt v) (pid (e_residue ev)) = Ok u -> u < e_Ex ev \/ v_scheme v (pid (e_residue ev)) = None ->
  ev' = ev \/
  exists es gs r E cont, e_others ev' = e_others ev ++ es ++ gs /\
    chain v hd 0 (e_residue ev) (e_Ex ev) (e_twoJ ev) (e_parity ev) es r E cont /\
    (cont = true -> gs = [] /\ e_residue ev' = r) /\
    (cont = false -> contains (e_residue ev) es -> cascade_from v r E gs (e_residue ev')).
Proof.
  intros H Hv Hs Hh Hc HR HU HM. unfold deexcite in H. cbv zeta in H. destruct (Req_EM_T (e_Ex ev) 0); [injection H as <-; left; reflexivity|].
  destruct (Rlt_dec (e_Ex ev) 0); [discriminate|].
  destruct (negb (is_ion _)); [injection H as <-; left; reflexivity|].
  destruct (ion_mass _ _ _) as [gs|]; cbn [bind] in H; [|discriminate].
  destruct (Rlt_dec ex_tolerance _) as [L|L].
  { destruct (Rle_dec _ ex_tolerance); [injection H as <-; left; reflexivity|discriminate]. }
  rewrite HU in H. cbn [bind] in H. right.
  assert (EB : (if Rlt_dec u (e_Ex ev) then true else match v_scheme v (pid (e_residue ev)) with None => true | Some _ => false end) = true).
  { destruct (Rlt_dec u (e_Ex ev)); [reflexivity|]. destruct HM as [HM| ->]; [contradiction|reflexivity]. }
  rewrite EB in H. destruct (hf_loop _ _ _ _ _ _ _ _) as [[[[r E'] cont] es]|] eqn:EL; cbn [bind] in H; [|discriminate].
  pose proof (loop_chain _ _ _ _ _ _ _ _ _ _ _ _ EL) as CH. destruct cont.
  - injection H as <-. exists es, [], r, E', true. cbn [with_residue e_others e_residue]. rewrite app_nil_r.
    split; [reflexivity|]. split; [exact CH|]. split; [intros _; split; reflexivity|discriminate].
  - destruct (finish v r E' false cd fuel) as [[r' gs']|] eqn:EF; cbn [bind] in H; [|discriminate]. injection H as <-.
    exists es, gs', r, E', false. cbn [with_residue e_others e_residue]. split; [reflexivity|]. split; [exact CH|]. split; [discriminate|].
    intros _ HC. destruct HR as (Zn & A & HN & Hp & Hq & Ho & HMs). pose proof Hv as (((me & Hme & _) & _) & _ & _).
    destruct (hf_loop_step v hd me Hv Hme Hh _ _ _ _ _ _ _ _ _ _ Zn A EL HN Hp Hq Ho HMs HC)
      as (Zf & Af & I1 & I2 & I3 & I4 & I5 & I6 & I7 & I8 & _).
    apply (finish_from _ _ _ _ _ _ _ _ EF Hv Hs Hc). exists Zf, Af. repeat split; try assumption; try apply I3; apply I7.
Qed.
Print Assumptions C32_statistical.

Lemma hf_decay_kinds v nucleus Ex J P d fuel e r Exf Jf Pf cont :
  hf_decay v nucleus Ex J P d fuel = Ok (e, r, Exf, Jf, Pf, cont) ->
  (cont = false -> exists ds, v_scheme v (pid r) = Some ds).
Proof.
  intros H ->. pose proof (hf_decay_inv _ _ _ _ _ _ _ _ _ _ _ _ _ H) as I. cbv zeta in I.
  destruct I as (cs & x & EC & EN & HI & HC & HW & ES & EP & EK).
  apply prepare_inv in EP. destruct EP as (m & q & m0 & _ & _ & _ & _ & _ & _ & _ & Pr & _ & _).
  destruct HC as (top & _ & HD). destruct (x_dest x); [|discriminate]. destruct HD as (ds & D & _). exists ds. rewrite Pr. exact D.
Qed.

(** In the chain the selection rules are obeyed from each state to the next. *)
Theorem C31_chain v d k nucleus E J P es r E' cont : chain v d k nucleus E J P es r E' cont ->
  (forall n, (particle_Z (pid nucleus) - zsum protons es <= particle_Z n <= particle_Z (pid nucleus))%Z ->
             (particle_A (pid nucleus) - zsum nucleons es <= particle_A n <= particle_A (pid nucleus))%Z -> nonneg_at v n) ->
  spins_match v -> hf_draws d -> spin_matches (particle_A (pid nucleus)) J -> contains nucleus es ->
  (particle_Z (pid nucleus) <= 999)%Z -> (particle_A (pid nucleus) <= 999)%Z -> Forall emitted es ->
  spin_chain (v_frags v) J P es.
Proof.
  induction 1 as [k r E J P L|k r E J P fuel e r' E' J' P' L HD|k r E J P fuel e r' E' J' P' es rf Ef cont L HD _ IH];
    intros Hv HS Hd HJ HC RZ RA HE.
  - constructor.
  - destruct (Hd k) as (D1 & D2 & _). destruct HC as (C1 & C2 & C3). rewrite !zsum_cons in C1, C2, C3. change (zsum protons []) with 0%Z in C1.
    change (zsum neutrons []) with 0%Z in C2. change (zsum nucleons []) with 0%Z in C3. pose proof (emitted_nonneg [e] HE) as EN. rewrite !zsum_cons in EN.
    change (zsum protons []) with 0%Z in EN. change (zsum neutrons []) with 0%Z in EN. change (zsum nucleons []) with 0%Z in EN.
    assert (Hr : nonneg_at v (pid r)).
    { apply Hv; rewrite !zsum_cons; change (zsum protons []) with 0%Z; change (zsum nucleons []) with 0%Z; unfold neutrons, nucleons, protons in *; lia. }
    unfold neutrons, nucleons, protons in C1, C2, C3, EN.
    destruct (C31_decay _ _ _ _ _ _ _ _ _ _ _ _ _ HD Hr ltac:(lra) HS HJ D1 D2 ltac:(lia) ltac:(lia)) as [[(A1 & A2 & m & A3)|(s & Pa & tj & l & A1 & A2 & A3 & A4)] _].
    + apply (spins_gamma (v_frags v) J P e [] J' P' m A1 A3). constructor.
    + apply (spins_fragment (v_frags v) J P e [] J' P' s Pa tj l A1 A4). constructor.
  - destruct (Hd k) as (D1 & D2 & _). destruct HC as (C1 & C2 & C3). rewrite zsum_cons in C1, C2, C3.
    destruct (emitted_nonneg es (Forall_inv_tail HE)) as (N1 & N2 & N3). pose proof (emitted_nonneg [e] (Forall_cons _ (Forall_inv HE) (Forall_nil _))) as EN.
    rewrite !zsum_cons in EN. change (zsum protons []) with 0%Z in EN. change (zsum neutrons []) with 0%Z in EN. change (zsum nucleons []) with 0%Z in EN.
    assert (Q : protons e = particle_Z (pid e) /\ nucleons e = particle_A (pid e) /\ neutrons e = (particle_A (pid e) - particle_Z (pid e))%Z /\
                protons r = particle_Z (pid r) /\ nucleons r = particle_A (pid r) /\ neutrons r = (particle_A (pid r) - particle_Z (pid r))%Z /\
                protons r' = particle_Z (pid r') /\ nucleons r' = particle_A (pid r') /\ neutrons r' = (particle_A (pid r') - particle_Z (pid r'))%Z) by (repeat split).
    destruct Q as (Q1 & Q2 & Q3 & Q4 & Q5 & Q6 & Q7 & Q8 & Q9).
    rewrite !zsum_cons in Hv.
    destruct (C31_decay _ _ _ _ _ _ _ _ _ _ _ _ _ HD (Hv (pid r) ltac:(lia) ltac:(lia)) ltac:(lra) HS HJ D1 D2 ltac:(lia) ltac:(lia)) as [[(A1 & A2 & m & A3)|(s & Pa & tj & l & A1 & A2 & A3 & A4)] HJ'].
    + apply (spins_gamma (v_frags v) J P e es J' P' m A1 A3). rewrite A2 in Q7, Q8, Q9. apply IH; try assumption.
      * intros n HZ HA. rewrite A2 in HZ, HA. apply Hv; lia.
      * unfold contains. lia.
      * rewrite A2. exact RZ.
      * rewrite A2. exact RA.
      * exact (Forall_inv_tail HE).
    + apply (spins_fragment (v_frags v) J P e es J' P' s Pa tj l A1 A4). apply IH; try assumption.
      * intros n HZ HA. apply Hv; lia.
      * unfold contains. lia.
      * lia.
      * lia.
      * exact (Forall_inv_tail HE).
Qed.
Print Assumptions C31_chain.

(** ** Nothing undefined *)

Definition defd {A} (r : res A) : Prop := r <> Er Undefined.

Lemma defd_bind {A B} (r : res A) (k : A -> res B) : defd r -> (forall x, r = Ok x -> defd (k x)) -> defd (bind r k).
Proof. unfold defd. intros H1 H2. destruct r as [x|e]; cbn [bind]; [apply H2; reflexivity|]. intros C. injection C as ->. apply H1. reflexivity. Qed.

Lemma defd_ok {A} (x : A) : defd (Ok x).
Proof. discriminate. Qed.
Lemma defd_er {A} e : e <> Undefined -> defd (@Er A e).
Proof. intros H C. injection C as ->. apply H. reflexivity. Qed.

Ltac dd := repeat first
  [ match goal with |- defd (Ok _) => apply defd_ok | |- defd (Er _) => apply defd_er; discriminate end
  | match goal with |- defd (bind _ _) => apply defd_bind; [|intros ? ?] end
  | match goal with |- defd (let _ := _ in _) => cbv zeta end
  | match goal with |- defd (match ?x with _ => _ end) => destruct x end ].

Lemma dd_part t i : defd (part_at t i). Proof. unfold part_at. dd. Qed.
Lemma dd_mass t i : defd (particle_mass t i). Proof. unfold particle_mass. dd. apply dd_part. Qed.
Lemma dd_lookup t z a b : defd (lookup_ZA t z a b). Proof. unfold lookup_ZA. dd. Qed.
Lemma dd_ion t p q : defd (ion_mass t p q). Proof. unfold ion_mass, atomic_mass, lookup_pdg. dd; first [apply dd_mass|apply dd_part]. Qed.
Lemma dd_sepZA t z a f b : defd (separation_ZA t z a f b).
Proof. unfold separation_ZA. cbv zeta. apply defd_bind; [apply dd_part|intros me _]. apply defd_bind; [apply dd_part|intros mp _]. dd; apply dd_lookup. Qed.
Lemma dd_thr t p : defd (unbound_threshold t p).
Proof.
  unfold unbound_threshold. generalize max_double. induction fragment_pdgs as [|f r IH]; intros b; cbn [min_threshold]; [apply defd_ok|].
  apply defd_bind; [apply dd_sepZA|]. intros s _. apply IH.
Qed.
Lemma dd_max v c f : defd (max_Exf v c f). Proof. unfold max_Exf. repeat (apply defd_bind; [first [apply dd_sepZA|apply dd_mass|apply dd_part|apply dd_ion]|intros ? _]). dd. Qed.
Lemma dd_charge i : defd (particle_charge i). Proof. unfold particle_charge. dd. Qed.
Lemma dd_boost x y z p : defd (boost x y z p). Proof. unfold boost, get_beta2. dd. Qed.
Lemma dd_decay a b c x y : defd (two_body_decay a b c x y). Proof. unfold two_body_decay. dd; apply dd_boost. Qed.
Lemma dd_level v c fr lev : defd (level_width v c fr lev).
Proof. unfold level_width. destruct fr as [[[f s] Pa]|]; [|apply defd_ok]. unfold fragment_discrete_width. apply defd_bind; [apply dd_max|]. intros. dd. Qed.
Lemma dd_levels v c fr top ls : defd (level_channels v c fr top ls).
Proof.
  induction ls as [|lev r IH]; cbn [level_channels]; [apply defd_ok|]. destruct (Rlt_dec _ _); [|apply defd_ok].
  apply defd_bind; [exact (dd_level v c fr lev)|]. intros w _. apply defd_bind; [exact IH|]. intros. apply defd_ok.
Qed.
Lemma dd_chan_max v c fr : defd (chan_max v c fr).
Proof. unfold chan_max. destruct fr as [[[f s] Pa]|]; [apply dd_max|apply defd_ok]. Qed.
Lemma dd_particle v c fr top ds : defd (particle_channels v c fr top ds).
Proof.
  unfold particle_channels. apply defd_bind; [destruct ds; [apply dd_levels|apply defd_ok]|]. intros cs _. cbv zeta. destruct (Rlt_dec _ _); [|apply defd_ok].
  apply defd_bind; [|intros; apply defd_ok]. unfold continuum_width. apply defd_bind; [apply dd_chan_max|]. intros. dd.
Qed.
Lemma dd_exit v c : defd (exit_channels v c).
Proof.
  unfold exit_channels. apply defd_bind.
  - induction (v_frags v) as [|[f [s Pa]] r IH]; cbn [fragment_channels]; [apply defd_ok|]. apply defd_bind; [apply dd_sepZA|]. intros Sa _. cbv zeta.
    apply defd_bind; [destruct (nan_separation _ _ _ _); [apply defd_ok|]; destruct (Rle_dec _ _); [apply defd_ok|apply dd_particle]|]. intros cs _.
    apply defd_bind; [exact IH|]. intros. apply defd_ok.
  - intros cs _. apply defd_bind; [apply dd_particle|]. intros. apply defd_ok.
Qed.
Lemma dd_table v c fr E0 E : defd (table v c fr E0 E).
Proof.
  unfold table. destruct fr as [[[f s] Pa]|].
  - unfold fragment_table. apply defd_bind; [apply dd_max|]. intros. dd.
  - unfold gamma_table. dd.
Qed.
Lemma dd_inverse F lo hi tol p fuel : defd (inverse_transform F lo hi tol p fuel).
Proof.
  unfold inverse_transform. destruct (Req_EM_T _ _); [apply defd_ok|]. destruct (Req_EM_T _ _); [apply defd_ok|]. cbv zeta.
  generalize (F hi). intros nn. revert lo hi. induction fuel as [|fuel IH]; intros lo hi; cbn [bisect]; [apply defd_er; discriminate|].
  destruct (Rlt_dec _ _); [|apply defd_ok]. cbv zeta. destruct (Req_EM_T _ _); [apply defd_ok|]. destruct (Rlt_dec _ _); apply IH.
Qed.
Lemma dd_hf v n E J P d fuel : defd (hf_decay v n E J P d fuel).
Proof.
  unfold hf_decay. cbv zeta. apply defd_bind; [apply dd_exit|]. intros cs _. destruct (Rle_dec _ _); [apply defd_er; discriminate|].
  destruct (nth_error _ _) as [x|]; [|apply defd_er; discriminate]. apply defd_bind.
  - unfold sample_final. destruct (x_dest x) as [lev|E0]; [apply defd_ok|]. apply defd_bind; [apply dd_chan_max|]. intros Em _.
    apply defd_bind; [apply dd_inverse|]. intros E' _. apply defd_bind; [apply dd_table|]. intros tb _. dd.
  - intros [[E' J'] P'] _. apply defd_bind; [|intros [e r] _; apply defd_ok]. unfold prepare_products.
    apply defd_bind; [apply dd_mass|]. intros m _. apply defd_bind; [unfold particle2; apply defd_bind; [apply dd_charge|intros; apply defd_ok]|]. intros e _. cbv zeta.
    apply defd_bind; [apply dd_ion|]. intros m0 _. apply dd_decay.
Qed.

Lemma dd_loop v d : forall fuel r E J P k, defd (hf_loop v r E J P d k fuel).
Proof.
  induction fuel as [|fuel IH]; intros r E J P k; cbn [hf_loop]; [apply defd_er; discriminate|]. destruct (Rlt_dec _ _); [|apply defd_ok].
  apply defd_bind; [apply dd_hf|]. intros [[[[[e r1] E1] J1] P1] c1] _. destruct c1; [|apply defd_ok]. apply defd_bind; [apply IH|].
  intros [[[r2 E2] c2] es2] _. apply defd_ok.
Qed.

Lemma chain_scheme v d k n E J P es r E' cont : chain v d k n E J P es r E' cont -> cont = false -> exists ds, v_scheme v (pid r) = Some ds.
Proof. induction 1; intros C; [discriminate| |auto]. eapply hf_decay_kinds; [eassumption|reflexivity]. Qed.

Lemma dd_cascade t ds q draws : downward ds -> forall fuel i lev n turn, nth_error (s_levels ds) i = Some lev -> defd (cascade t ds q lev n draws turn fuel).
Proof.
  intros Hd. induction fuel as [|fuel IH]; intros i lev n turn HL; [apply defd_er; discriminate|]. rewrite cascade_unfold.
  destruct (rl_gammas lev) as [|g0 gr] eqn:EG; [apply defd_ok|]. rewrite <- ?EG.
  assert (NE : rl_gammas lev <> []) by congruence.
  destruct (nth_discrete_some (fun x : R * option nat => fst x) (rl_gammas lev) (fst (fst (draws turn))) NE) as [[w e] EN].
  assert (EN' : nth_error (rl_gammas lev) (discrete (map fst (rl_gammas lev)) (fst (fst (draws turn)))) = Some (w, e)) by exact EN.
  rewrite EN'. destruct (Hd i lev w e HL (nth_error_In _ _ EN')) as (j & -> & Hj).
  assert (HJ : (j < length (s_levels ds))%nat) by (apply Nat.lt_trans with i; [exact Hj|]; apply nth_error_Some; congruence).
  destruct (nth_error (s_levels ds) j) as [lev'|] eqn:EL; [|apply nth_error_None in EL; lia].
  apply defd_bind; [apply dd_ion|]. intros m0 _. apply defd_bind; [apply dd_decay|]. intros [g n'] _.
  apply defd_bind; [apply (IH j); exact EL|]. intros [r' gs'] _. apply defd_ok.
Qed.

(** De-excitation never dereferences a null pointer or goes past the end of a list, if the
    levels are in order and gammas lead downwards. *)
Theorem C32_defined v ev hd cd fuel : schemes_ok v -> deexcite v ev hd cd fuel <> Er Undefined.
Proof.
  intros Hs. change (defd (deexcite v ev hd cd fuel)).
  assert (F : forall n E check, v_scheme v (pid n) <> None -> defd (finish v n E check cd fuel)).
  { intros n E check HN. unfold finish. destruct (v_scheme v (pid n)) as [ds|] eqn:ES; [|contradiction].
    destruct (rl_closest (s_levels ds) E) as [i|] eqn:EC; [|apply defd_er; discriminate].
    destruct (closest_in_range _ _ _ EC) as [lev EL]. rewrite EL. destruct (_ && _)%bool; [apply defd_er; discriminate|].
    apply (dd_cascade _ _ _ _ (proj1 (Hs _ _ ES)) fuel i). exact EL. }
  unfold deexcite. cbv zeta. destruct (Req_EM_T _ _); [apply defd_ok|]. destruct (Rlt_dec _ _); [apply defd_er; discriminate|].
  destruct (negb _); [apply defd_ok|]. apply defd_bind; [apply dd_ion|]. intros gs _. destruct (Rlt_dec _ _); [dd|].
  apply defd_bind; [apply dd_thr|]. intros thr _.
  destruct (if Rlt_dec thr (e_Ex ev) then true else match v_scheme v (pid (e_residue ev)) with None => true | Some _ => false end) eqn:EB.
  - apply defd_bind; [apply dd_loop|]. intros [[[r E] c] es] EL. destruct c; [apply defd_ok|].
    apply defd_bind; [|intros [r' gs'] _; apply defd_ok]. apply F. destruct (chain_scheme _ _ _ _ _ _ _ _ _ _ _ (loop_chain _ _ _ _ _ _ _ _ _ _ _ _ EL) eq_refl) as [ds ->]. discriminate.
  - apply defd_bind; [|intros [r' gs'] _; apply defd_ok]. apply F. intros C. rewrite C in EB. destruct (Rlt_dec thr (e_Ex ev)) in EB; discriminate.
Qed.
Print Assumptions C32_defined.

(** The scheme of the case meets the hypotheses; see also C32_case_bound, whose event is in
    the bound mode, and C32_case_unbound, which with this satisfies those of C65. *)
Example C32_course_case : schemes_ok case_env /\ env_ok case_env /\
  (exists u, unbound_threshold (v_mt case_env) (pid (e_residue (case_event (164 / 100)))) = Ok u /\
     e_Ex (case_event (164 / 100)) <= u /\ u < e_Ex (case_event 20)) /\
  v_scheme case_env (pid (e_residue (case_event (164 / 100)))) <> None /\ is_nucleus (e_residue (case_event 20)).
Proof.
  split; [exact case_schemes|]. split; [exact case_ok|]. split; [|split; [discriminate|apply K40_nucleus; lra]].
  destruct case_threshold as (u & EU & HU). exists u. split; [exact EU|]. cbn [case_event e_Ex]. lra.
Qed.
