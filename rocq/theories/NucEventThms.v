(** Theorems about single reaction events and Coulomb corrections: C27, C45, C59,
    C60. *)
From Coq Require Import List FinFun ZArith Reals Lra Lia Psatz Bool String Rpower.
From Verif Require Import Base Pdg React Kin KinSpec KinProofs KinThms Sample SampleProofs NucReact NucSpec NucProofs NucThms.
Import ListNotations.
Local Open Scope R_scope.

Lemma create_accessible n fermi KEa ws i me : masses_ok n -> 0 <= KEa ->
  partial_xs n fermi KEa None (n_mes n) = Ok ws -> (i < List.length ws)%nat -> nth_error (n_mes n) i = Some me ->
  0 <= me_energy me /\ me_energy me <= max_level_energy n KEa /\ accessible n KEa me.
Proof.
  intros Hm HK EP Hi EN. pose proof (partial_length _ _ _ _ _ EP) as Hlen.
  destruct (prefix_nth n KEa (n_mes n) i me ltac:(lia) EN) as [_ L].
  assert (He : 0 <= me_energy me).
  { destruct Hm as (_ & _ & _ & _ & Hm). rewrite Forall_forall in Hm. apply Hm. apply nth_error_In in EN. exact EN. }
  split; [exact He|]. split; [exact L|]. apply access_iff; assumption.
Qed.

(** ** C45: events of nuclear reactions and electron scattering conserve
    four-momentum *)

(** Whatever the table (zero strengths and unordered levels included), the energy and
    the draws, an event that is created conserves four-momentum, has all particles on
    their mass shells and carries the codes, charges and excitation energy of a level
    of the table that can be reached. *)
Theorem C45_nuclear_event n fermi gs ld pdg KEa d fuel ev :
  masses_ok n -> good_draws d -> nuc_create n fermi gs ld pdg KEa d fuel = Ok ev ->
  same_p4 (initial_parts ev) (final_parts ev) /\
  Forall on_shell (initial_parts ev) /\ Forall on_shell (final_parts ev) /\
  map pid (initial_parts ev ++ final_parts ev) = [r_a (n_r n); r_b (n_r n); r_c (n_r n); r_d (n_r n)] /\
  map chg (initial_parts ev ++ final_parts ev) = [r_qa (n_r n); r_qb (n_r n); r_qc (n_r n); r_qd (n_r n)] /\
  pdg = r_a (n_r n) /\ en (e_projectile ev) = KEa + n_ma n /\
  exists me, In me (n_mes n) /\ accessible n KEa me /\ e_Ex ev = me_energy me /\
    map mass (initial_parts ev ++ final_parts ev) = [n_ma n; n_mb n; n_mc n; n_mdgs n + me_energy me].
Proof.
  intros Hm Hd H. destruct (create_inv _ _ _ _ _ _ _ _ _ H) as (Ep & Ht & HK & ws & me & s & Ec & pc & Ed & ct & g & J & P & EP & EW & ET & EN & EK).
  cbv zeta in EK. destruct EK as (ES & EC & EG & ER & EM).
  destruct Hd as (D1 & D2 & D3 & D4).
  destruct (create_accessible n fermi KEa ws _ me Hm ltac:(lra) EP (discrete_lt ws _ EW) EN) as (He & _ & Hac).
  pose proof Hm as (M1 & M2 & M3 & M4 & _).
  set (k := mkmass (n_ma n) (n_mb n) (n_mc n) (n_mdgs n + me_energy me)) in *.
  assert (A1 : 0 <= k_ma k) by exact M1. assert (A2 : 0 < k_mb k) by exact M2. assert (A3 : 0 <= k_mc k) by exact M3.
  assert (A4 : 0 <= k_md k) by (cbn [k k_md]; lra). assert (A5 : 0 <= KEa) by lra.
  assert (A6 : (k_mc k + k_md k) ^ 2 <= (k_ma k + k_mb k) ^ 2 + 2 * k_mb k * KEa) by exact Hac.
  pose proof (beta_nonneg k KEa s Ec pc Ed A1 A2 A3 A4 A5 A6 ES) as Hbeta.
  assert (Hct : -1 <= ct <= 1) by (apply (sample_cos_range _ _ _ _ _ (fun i => D4 i) Hbeta EC)).
  destruct (C45_scattering k (ids_of (n_r n)) (charges_of (n_r n)) KEa ct (uniform 0 (2 * PI) (d_phi d)) (me_energy me) J P
     s Ec pc Ed A1 A2 A3 A4 A5 Hct A6 ES) as (ev' & E1 & C1 & C2 & C3 & C4 & C5 & C6 & C7 & C8 & C9 & C10 & C11 & C12 & C13 & C14 & C15 & C16).
  rewrite E1 in EM. injection EM as <-. split; [exact C1|]. split; [exact C2|]. split; [exact C3|].
  split; [exact C4|]. split; [exact C5|]. split; [exact Ep|]. split; [exact C7|].
  exists me. split; [apply nth_error_In in EN; exact EN|]. split; [exact Hac|]. split; [exact C14|exact C6].
Qed.
Print Assumptions C45_nuclear_event.

(** The same for electron scattering. *)
Theorem C45_electron_event l pdg KEa d fuel ev :
  0 <= k_ma (l_k l) -> 0 < k_mb (l_k l) -> 0 <= k_mc (l_k l) -> 0 <= k_md (l_k l) -> 0 <= KEa ->
  good_draws d -> el_create l pdg KEa d fuel = Ok ev ->
  same_p4 (initial_parts ev) (final_parts ev) /\
  Forall on_shell (initial_parts ev) /\ Forall on_shell (final_parts ev) /\
  map pid (initial_parts ev ++ final_parts ev) = [r_a (l_r l); r_b (l_r l); r_c (l_r l); r_d (l_r l)] /\
  map chg (initial_parts ev ++ final_parts ev) = [r_qa (l_r l); r_qb (l_r l); r_qc (l_r l); r_qd (l_r l)] /\
  map mass (initial_parts ev ++ final_parts ev) = [k_ma (l_k l); k_mb (l_k l); k_mc (l_k l); k_md (l_k l)] /\
  pdg = r_a (l_r l) /\ e_Ex ev = 0 /\ e_twoJ ev = 1%Z /\ e_parity ev = true.
Proof.
  intros A1 A2 A3 A4 A5 Hd H. unfold el_create in H.
  destruct (Z.eqb_spec pdg (r_a (l_r l))) as [E|E]; cbn [negb] in H; [|discriminate].
  destruct (Rlt_dec KEa _) as [L|L]; [discriminate|].
  destruct (two_two_scatter (l_k l) KEa) as [[[s Ec] pc] Ed] eqn:ES.
  destruct (rejection_sample _ _ _ _ _ _ _ _) as [[ct m]|] eqn:ER; cbn [bind] in H; [|discriminate].
  unfold rejection_sample in ER. apply rejection_spec in ER. destruct ER as (q & _ & _ & Hx & _).
  destruct Hd as (D1 & D2 & D3 & D4).
  assert (Hct : -1 <= ct <= 1) by (rewrite Hx; apply uniform_in; [lra|exact (proj1 (D4 _))]).
  assert (A6 : (k_mc (l_k l) + k_md (l_k l)) ^ 2 <= (k_ma (l_k l) + k_mb (l_k l)) ^ 2 + 2 * k_mb (l_k l) * KEa).
  { apply Rnot_lt_le in L. unfold el_threshold, threshold in L.
    apply (Rmult_le_compat_r (2 * k_mb (l_k l))) in L; [|lra].
    replace (((k_mc (l_k l) + k_md (l_k l)) ^ 2 - (k_ma (l_k l) + k_mb (l_k l)) ^ 2) / (2 * k_mb (l_k l)) * (2 * k_mb (l_k l)))
      with ((k_mc (l_k l) + k_md (l_k l)) ^ 2 - (k_ma (l_k l) + k_mb (l_k l)) ^ 2) in L by (field; lra). lra. }
  destruct (C45_scattering (l_k l) (ids_of (l_r l)) (charges_of (l_r l)) KEa ct (uniform 0 (2 * PI) (d_phi d)) 0 1 true
     s Ec pc Ed A1 A2 A3 A4 A5 Hct A6 ES) as (ev' & E1 & C1 & C2 & C3 & C4 & C5 & C6 & C7 & C8 & C9 & C10 & C11 & C12 & C13 & C14 & C15 & C16).
  rewrite E1 in H. injection H as <-. repeat (split; [assumption|]). exact C16.
Qed.
Print Assumptions C45_electron_event.

(** A nuclear event is refused only for the reasons the code gives: wrong projectile,
    energy below threshold, no reachable level or vanishing cross section, a
    correction factor that is refused, an unknown transition type, no ground state
    for the target. Apart from these only an endless rejection loop is possible. *)
Theorem C45_nuclear_created n fermi g ld KEa d fuel t :
  masses_ok n -> Forall valid_type (n_mes n) -> good_draws d -> (0 <= fst g)%Z ->
  threshold (n_ma n) (n_mb n) (n_mc n) (n_mdgs n) <= KEa ->
  nuc_total_xs n fermi (r_a (n_r n)) KEa = Ok t -> 0 < t ->
  nuc_create n fermi (Ok g) ld (r_a (n_r n)) KEa d fuel = Er NoFuel \/
  exists ev, nuc_create n fermi (Ok g) ld (r_a (n_r n)) KEa d fuel = Ok ev.
Proof.
  intros Hm HV Hd Hg Ht HT Hpos. unfold nuc_total_xs in HT.
  destruct (summed_xs n fermi (r_a (n_r n)) KEa None) as [[ws t']|] eqn:ES; cbn [bind] in HT; [|discriminate].
  injection HT as ->. unfold nuc_create. rewrite Z.eqb_refl, ES. cbn [negb bind].
  destruct (Rlt_dec KEa _) as [C|_]; [exfalso; lra|].
  unfold summed_xs in ES. rewrite Z.eqb_refl in ES. cbn [negb] in ES.
  destruct (Rle_dec KEa 0) as [K|K].
  { assert (t = 0) by congruence. exfalso. lra. }
  destruct (partial_xs n fermi KEa None (n_mes n)) as [ws'|] eqn:EP; cbn [bind] in ES; [|discriminate].
  assert (ws' = ws /\ sumR ws' = t) as [-> Et] by (split; congruence). clear ES.
  assert (EW : ws <> []) by (intros ->; cbn [sumR] in Et; lra).
  destruct ws as [|w ws]; [contradiction|]. destruct (Rle_dec t 0) as [C|_]; [exfalso; lra|].
  set (i := discrete (w :: ws) (d_level d)). pose proof (discrete_lt (w :: ws) (d_level d) EW) as Hi. fold i in Hi.
  pose proof (partial_length _ _ _ _ _ EP) as HL. pose proof (prefix_len n KEa (n_mes n)) as HL'.
  destruct (nth_error (n_mes n) i) as [me|] eqn:EN; [|apply nth_error_None in EN; lia].
  destruct (create_accessible n fermi KEa _ i me Hm ltac:(lra) EP Hi EN) as (He & _ & Hac).
  assert (Hv : valid_type me) by (rewrite Forall_forall in HV; apply HV; apply nth_error_In in EN; exact EN).
  cbv zeta. destruct (two_two_scatter _ KEa) as [[[s Ec] pc] Ed] eqn:ES.
  destruct Hd as (D1 & D2 & D3 & D4). pose proof Hm as (M1 & M2 & M3 & M4 & _).
  set (k := mkmass (n_ma n) (n_mb n) (n_mc n) (n_mdgs n + me_energy me)) in *.
  assert (A1 : 0 <= k_ma k) by exact M1. assert (A2 : 0 < k_mb k) by exact M2. assert (A3 : 0 <= k_mc k) by exact M3.
  assert (A4 : 0 <= k_md k) by (cbn [k k_md]; lra). assert (A5 : 0 <= KEa) by lra.
  assert (A6 : (k_mc k + k_md k) ^ 2 <= (k_ma k + k_mb k) ^ 2 + 2 * k_mb k * KEa) by exact Hac.
  pose proof (beta_nonneg k KEa s Ec pc Ed A1 A2 A3 A4 A5 A6 ES) as Hbeta.
  destruct (sample_cos (me_type me) (pc / Ec) (d_cos d) fuel) as [ct|e] eqn:EC; cbn [bind].
  - right. pose proof (sample_cos_range _ _ _ _ _ (fun i => D4 i) Hbeta EC) as Hct.
    assert (exists J P, residue_spin me g ld (d_spin d) = Ok (J, P)) as (J & P & ER).
    { unfold residue_spin. destruct g as [tg Pg]. cbn [fst] in Hg. destruct (me_lev me) as [[[e J] P]|]; [eexists _, _; reflexivity|].
      destruct Hv as [-> | ->]; cbn [Z.eqb Pos.eqb]; [eexists _, _; reflexivity|].
      destruct (Z.eqb_spec tg 0) as [|Hne]; [eexists _, _; reflexivity|].
      match goal with |- context [discrete ?l ?u] => set (wl := l); pose proof (discrete_lt wl u) as Hdl end.
      assert (Hn : (0 < List.length (gt_spins tg))%nat).
      { unfold gt_spins. cbv zeta. rewrite map_length, seq_length.
        assert (1 <= (tg + 2 - Z.abs (tg - 2)) / 2 + 1)%Z by (assert (0 <= (tg + 2 - Z.abs (tg - 2)) / 2)%Z by (apply Z.div_pos; lia); lia). lia. }
      assert (Hwl : List.length wl = List.length (gt_spins tg)) by (unfold wl; apply map_length).
      assert (Hne' : wl <> []) by (intros C; rewrite C in Hwl; cbn [List.length] in Hwl; lia). specialize (Hdl Hne').
      destruct (nth_error (gt_spins tg) _) as [x|] eqn:EX; [eexists _, _; reflexivity|].
      apply nth_error_None in EX. lia. }
    rewrite ER. cbn [bind].
    destruct (C45_scattering k (ids_of (n_r n)) (charges_of (n_r n)) KEa ct (uniform 0 (2 * PI) (d_phi d)) (me_energy me) J P
      s Ec pc Ed A1 A2 A3 A4 A5 Hct A6 ES) as (ev & E1 & _). exists ev. exact E1.
  - left. f_equal. unfold sample_cos, cos_pdf, rejection_sample in EC. destruct Hv as [Hv|Hv]; rewrite Hv in EC; cbn [Z.eqb Pos.eqb bind] in EC;
      match type of EC with context [rejection ?f ?a ?b ?c ?dd ?ee ?n0 ?m0] =>
        destruct (rejection f a b c dd ee n0 m0) as [[x m]|e'] eqn:EE; cbn [bind] in EC; [discriminate|];
        apply rejection_er in EE; congruence end.
Qed.
Print Assumptions C45_nuclear_created.

(** ** C27: the level used is the one sampled *)

(** If no strength is zero, the matrix element used is the one whose cross section was
    sampled: entry [i] of the table is used exactly for the draws in its share of the
    total, and its cross section is positive. *)
Theorem C27_sampled n fermi gs ld pdg KEa d fuel ev :
  masses_ok n -> Forall (fun m => 0 < me_str m) (n_mes n) -> factor_nonneg n fermi -> good_draws d ->
  nuc_create n fermi gs ld pdg KEa d fuel = Ok ev ->
  exists i me w b before total,
    nth_error (n_mes n) i = Some me /\ accessible n KEa me /\ level_xs n fermi KEa me = Ok (w, b) /\ 0 < w /\
    e_Ex ev = me_energy me /\ mass (e_residue ev) = n_mdgs n + me_energy me /\
    nuc_total_xs n fermi pdg KEa = Ok total /\
    List.length before = i /\
    (forall j, (j < i)%nat -> exists m x y, nth_error (n_mes n) j = Some m /\ nth_error before j = Some x /\
                                          level_xs n fermi KEa m = Ok (x, y)) /\
    sumR before < d_level d * total <= sumR before + w.
Proof.
  intros Hm Hst HF Hd H.
  destruct (C45_nuclear_event n fermi gs ld pdg KEa d fuel ev Hm Hd H) as (_ & _ & _ & _ & _ & _ & _ & me0 & _ & _ & X1 & X2).
  destruct (create_inv _ _ _ _ _ _ _ _ _ H) as (Ep & Ht & HK & ws & me & s & Ec & pc & Ed & ct & g & J & P & EP & EW & ET & EN & EK).
  destruct Hd as (D1 & D2 & D3 & D4).
  destruct (create_accessible n fermi KEa ws _ me Hm ltac:(lra) EP (discrete_lt ws _ EW) EN) as (He & _ & Hac).
  assert (HN : nonneg ws).
  { apply (partial_nonneg n fermi KEa); try assumption; [|lra]. apply Forall_impl with (P := fun m => 0 < me_str m); [intros; lra|exact Hst]. }
  destruct (discrete_spec ws (d_level d) HN ET D1) as [Hi HB]. set (i := discrete ws (d_level d)) in *.
  pose proof (partial_spec _ _ _ _ _ EP) as HS.
  assert (Hf : filter nonzero (prefix_ok n KEa (n_mes n)) = prefix_ok n KEa (n_mes n)).
  { rewrite prefix_firstn. generalize (List.length (prefix_ok n KEa (n_mes n))) as q. clear - Hst.
    induction Hst as [|m r Hm0 Hr IH]; intros q; [rewrite firstn_nil; reflexivity|]. destruct q as [|q]; [reflexivity|].
    cbn [firstn filter]. unfold nonzero at 1. destruct (Req_EM_T (me_str m) 0); [lra|]. f_equal. apply IH. }
  rewrite Hf in HS.
  assert (Hnth : forall j, (j < List.length ws)%nat -> exists m x y, nth_error (n_mes n) j = Some m /\ nth_error ws j = Some x /\ level_xs n fermi KEa m = Ok (x, y)).
  { rewrite prefix_firstn in HS. intros j Hj.
    assert (G : forall (l : list rme) (l' : list R), Forall2 (fun m w => exists b, level_xs n fermi KEa m = Ok (w, b)) l l' ->
       forall j, (j < List.length l')%nat -> exists m x y, nth_error l j = Some m /\ nth_error l' j = Some x /\ level_xs n fermi KEa m = Ok (x, y)).
    { induction 1 as [|m x l l' (y & E) F IH]; intros q Hq; [cbn [List.length] in Hq; lia|]. destruct q as [|q].
      - exists m, x, y. repeat split. exact E.
      - cbn [nth_error List.length] in *. apply IH. lia. }
    destruct (G _ _ HS j Hj) as (m & x & y & E1 & E2 & E3). exists m, x, y. split; [|split; assumption].
    revert E1. generalize (List.length (prefix_ok n KEa (n_mes n))) as q. clear. generalize (n_mes n) as l. intros l q. revert j q.
    induction l as [|a l IH]; intros j q E; [rewrite firstn_nil in E; destruct j; discriminate|].
    destruct q as [|q]; [destruct j; discriminate|]. destruct j as [|j]; cbn [firstn nth_error] in *; [exact E|]. apply (IH _ _ E). }
  destruct (Hnth i Hi) as (m & w & b & E1 & E2 & E3). rewrite EN in E1. injection E1 as <-.
  assert (Hw : 0 < w) by (apply (discrete_positive ws (d_level d) w HN ET D1 E2)).
  rewrite (sum_firstn_S _ _ _ E2) in HB.
  cbv zeta in EK. destruct EK as (ES & EC & EG & ER & EM).
  exists i, me, w, b, (firstn i ws), (sumR ws). split; [exact EN|]. split; [exact Hac|]. split; [exact E3|]. split; [exact Hw|].
  assert (EX : e_Ex ev = me_energy me).
  { unfold make_event_object in EM. destruct (ids_of _) as [[[? ?] ?] ?]. destruct (charges_of _) as [[[? ?] ?] ?].
    destruct (boost _ _ _ _); cbn [bind] in EM; [|discriminate]. destruct (boost _ _ _ _); cbn [bind] in EM; [|discriminate].
    injection EM as <-. reflexivity. }
  split; [exact EX|]. split.
  { unfold initial_parts, final_parts in X2. cbn [map app] in X2. rewrite X1 in EX. rewrite EX in X2. congruence. }
  split.
  { unfold nuc_total_xs, summed_xs. rewrite Ep, Z.eqb_refl. cbn [negb]. destruct (Rle_dec KEa 0); [lra|]. rewrite EP. reflexivity. }
  split; [rewrite firstn_length; lia|]. split; [|exact HB].
  intros j Hj. destruct (Hnth j ltac:(lia)) as (m' & x & y & F1 & F2 & F3). exists m', x, y. split; [exact F1|]. split; [|exact F3].
  rewrite <- F2. clear - Hj. revert j Hj. generalize i as q. induction ws as [|a l IH]; intros q j Hj; [rewrite firstn_nil; reflexivity|].
  destruct q as [|q]; [lia|]. destruct j as [|j]; [reflexivity|]. cbn [firstn nth_error]. apply IH. lia.
Qed.
Print Assumptions C27_sampled.

(** With a zero strength in the table the code can use a matrix element other than
    the one sampled: here the event populates a level whose strength is zero. *)
Definition ex_reaction : reaction := mkr NC 12 1000180400 12 1000180400 0 0 0 0.
Definition ex_nuc (mes : list rme) : nuc := mknuc ex_reaction 0 10 1 11 NoCorrection mes.
Definition ex_draws : draws := mkdr (1 / 2) (fun _ => (1 / 2, 0)) 0 (1 / 2).

Lemma ex_s mes : (n_ma (ex_nuc mes) + n_mb (ex_nuc mes)) ^ 2 + 2 * n_mb (ex_nuc mes) * 15 = 400.
Proof. cbn [ex_nuc n_ma n_mb]. lra. Qed.

Lemma sqrt_400 : sqrt 400 = 20.
Proof. replace 400 with (20 * 20) by lra. apply sqrt_square. lra. Qed.

Lemma ex_max mes : max_level_energy (ex_nuc mes) 15 = 8.
Proof. unfold max_level_energy. rewrite ex_s, sqrt_400. cbn [ex_nuc n_mc n_mdgs]. lra. Qed.

Lemma ex_xs mes me : 0 < me_str me -> me_type me = 1%Z -> 0 <= me_energy me < 8 ->
  exists w b, level_xs (ex_nuc mes) (fun _ => 1) 15 me = Ok (w, b) /\ 0 < w.
Proof.
  intros Hs Ht He. unfold level_xs. rewrite ex_s, sqrt_400. destruct (Req_EM_T (me_str me) 0) as [C|_]; [exfalso; lra|].
  cbn [ex_nuc n_ma n_mb n_mc n_mdgs n_r ex_reaction r_proc]. rewrite Ht. cbn [Z.eqb Pos.eqb].
  eexists _, _. split; [reflexivity|].
  set (E := me_energy me) in *. set (Ec := (400 + 1 * 1 - (11 + E) ^ 2) / (2 * 20)).
  assert (H1 : 1 < Ec < 8) by (unfold Ec; nra).
  set (Eb := (400 + 10 * 10 - 0 * 0) / (2 * 20)). assert (H2 : 0 < Eb) by (unfold Eb; lra).
  assert (H3 : 0 < real_sqrt (Ec ^ 2 - 1 * 1)).
  { unfold real_sqrt. destruct (Rlt_dec _ _) as [C|_]; [exfalso; nra|]. apply sqrt_lt_R0. nra. }
  pose proof GF_pos. set (pc := real_sqrt (Ec ^ 2 - 1 * 1)) in *.
  assert (0 < Eb * (20 - Ec) / 400) by nra.
  apply Rmult_lt_0_compat; [|exact Hs]. apply Rmult_lt_0_compat; [|exact H3]. apply Rmult_lt_0_compat; [|lra]. apply Rmult_lt_0_compat; assumption.
Qed.

Lemma ex_good : good_draws ex_draws.
Proof. unfold good_draws, ex_draws. cbn [d_level d_phi d_spin d_cos fst snd]. repeat split; lra. Qed.

Lemma ex_masses mes : Forall (fun m => 0 <= me_energy m) mes -> masses_ok (ex_nuc mes).
Proof. intros H. unfold masses_ok. cbn [ex_nuc n_ma n_mb n_mc n_mdgs n_mes]. repeat split; try lra. exact H. Qed.

Lemma ex_sample_cos beta : 0 <= beta <= 1 -> sample_cos 1 beta (fun _ => (1 / 2, 0)) 1 = Ok 0.
Proof.
  intros Hb. unfold sample_cos, cos_pdf. cbn [Z.eqb Pos.eqb bind]. unfold rejection_sample. cbn [rejection fst snd]. cbv zeta.
  assert (E : uniform (-1) 1 (1 / 2) = 0) by (unfold uniform; lra). rewrite E.
  destruct (Rlt_dec _ (uniform _ _ _)) as [C|_]; [exfalso; unfold uniform in C; lra|]. reflexivity.
Qed.

(** A created event of the example, for later use. *)
Lemma ex_created mes m w ws : Forall (fun m => 0 <= me_energy m) mes -> Forall valid_type mes ->
  partial_xs (ex_nuc mes) (fun _ => 1) 15 None mes = Ok (w :: ws) -> 0 < sumR (w :: ws) ->
  nth_error mes (discrete (w :: ws) (1 / 2)) = Some m -> me_type m = 1%Z ->
  exists ev, nuc_create (ex_nuc mes) (fun _ => 1) (Ok (0%Z, true)) (fun _ _ _ => 1) 12 15 ex_draws 1 = Ok ev /\ e_Ex ev = me_energy m.
Proof.
  intros HE HV EP HS EN Hty. pose proof (ex_masses mes HE) as Hm.
  assert (Hthr : threshold 0 10 1 11 <= 15) by (unfold threshold; lra).
  assert (HT : nuc_total_xs (ex_nuc mes) (fun _ => 1) 12 15 = Ok (sumR (w :: ws))).
  { unfold nuc_total_xs, summed_xs. cbn [ex_nuc n_r ex_reaction r_a Z.eqb Pos.eqb negb]. destruct (Rle_dec 15 0); [exfalso; lra|].
    fold (ex_nuc mes). cbn [ex_nuc n_mes]. fold (ex_nuc mes). rewrite EP. reflexivity. }
  destruct (C45_nuclear_created (ex_nuc mes) (fun _ => 1) (0%Z, true) (fun _ _ _ => 1) 15 ex_draws 1 (sumR (w :: ws)) Hm HV ex_good
    ltac:(cbn [fst]; lia) Hthr HT HS) as [C|[ev E]].
  - exfalso. unfold nuc_create, summed_xs in C. cbn [ex_nuc n_r ex_reaction r_a Z.eqb Pos.eqb negb n_ma n_mb n_mc n_mdgs n_mes ex_draws d_level] in C.
    fold (ex_nuc mes) in C. destruct (Rlt_dec 15 _) as [C'|_]; [lra|]. destruct (Rle_dec 15 0); [lra|]. rewrite EP in C. cbn [bind] in C.
    destruct (Rle_dec _ 0); [lra|]. rewrite EN in C.
    set (k := mkmass 0 10 1 (11 + me_energy m)) in *.
    destruct (two_two_scatter k 15) as [[[s Ec] pc] Ed] eqn:ES.
    destruct (create_accessible (ex_nuc mes) (fun _ => 1) 15 _ _ m Hm ltac:(lra) EP (discrete_lt (w :: ws) (1/2) ltac:(discriminate)) EN) as (He & _ & Hac).
    assert (Hb : 0 <= pc / Ec <= 1).
    { assert (A6 : (k_mc k + k_md k) ^ 2 <= (k_ma k + k_mb k) ^ 2 + 2 * k_mb k * 15) by exact Hac.
      assert (B0 : 0 <= pc / Ec) by (apply (beta_nonneg k 15 s Ec pc Ed); cbn [k k_ma k_mb k_mc k_md]; try lra; [exact A6|exact ES]).
      split; [exact B0|]. unfold two_two_scatter in ES. cbv zeta in ES. cbn [k k_ma k_mb k_mc k_md] in ES.
      assert (Es : s = 0 * 0 + 10 * 10 + 2 * 10 * (15 + 0)) by congruence. assert (Es' : s = 400) by lra. rewrite <- Es, Es', sqrt_400 in ES.
      assert (EEc : Ec = (400 + 1 * 1 - (11 + me_energy m) * (11 + me_energy m)) / (2 * 20)) by congruence.
      rewrite <- EEc in ES. assert (Ep : pc = real_sqrt (Ec ^ 2 - 1 * 1)) by congruence.
      cbn [k k_ma k_mb k_mc k_md] in A6.
      assert (HEc : 1 <= Ec) by (rewrite EEc; nra).
      assert (pc <= Ec). { rewrite Ep. unfold real_sqrt. destruct (Rlt_dec _ _); [lra|]. apply Rsqr_incr_0_var; [|lra]. rewrite Rsqr_sqrt by lra. unfold Rsqr. lra. }
      apply Rmult_le_reg_r with Ec; [lra|]. replace (pc / Ec * Ec) with pc by (field; lra). lra. }
    rewrite Hty in C. cbn [ex_draws d_cos] in C. rewrite (ex_sample_cos _ Hb) in C. cbn [bind] in C.
    unfold residue_spin in C. rewrite Hty in C. cbn [Z.eqb Pos.eqb] in C.
    assert (HC : forall J P, make_event_object k (12, 1000180400, 12, 1000180400)%Z (0, 0, 0, 0)%Z 15 pc 0 (uniform 0 (2 * PI) 0) Ec Ed (me_energy m) J P <> Er NoFuel).
    { intros J P. destruct (C45_scattering k (12, 1000180400, 12, 1000180400)%Z (0, 0, 0, 0)%Z 15 0 (uniform 0 (2 * PI) 0) (me_energy m) J P s Ec pc Ed) as (ev & E1 & _);
        try (cbn [k k_ma k_mb k_mc k_md]; lra); [exact Hac|exact ES|]. rewrite E1. discriminate. }
    destruct (me_lev m) as [[[e J] P]|]; cbn [bind] in C; exact (HC _ _ C).
  - exists ev. split; [exact E|].
    destruct (create_inv _ _ _ _ _ _ _ _ _ E) as (_ & _ & _ & ws' & me & s & Ec & pc & Ed & ct & g & J & P & EP' & _ & _ & EN' & EK).
    cbn [ex_nuc n_mes] in EP', EN'. fold (ex_nuc mes) in EP'. rewrite EP in EP'. injection EP' as <-. cbn [ex_draws d_level] in EN'.
    rewrite EN in EN'. injection EN' as <-. cbv zeta in EK. destruct EK as (_ & _ & _ & _ & EM).
    unfold make_event_object in EM. destruct (ids_of _) as [[[? ?] ?] ?]. destruct (charges_of _) as [[[? ?] ?] ?].
    destruct (boost _ _ _ _); cbn [bind] in EM; [|discriminate]. destruct (boost _ _ _ _); cbn [bind] in EM; [|discriminate].
    injection EM as <-. reflexivity.
Qed.

Theorem C27_zero_strength_refuted : exists n KEa d ev m,
  masses_ok n /\ Forall (fun m => 0 <= me_str m) (n_mes n) /\ good_draws d /\
  nuc_create n (fun _ => 1) (Ok (0%Z, true)) (fun _ _ _ => 1) 12 KEa d 1 = Ok ev /\
  nth_error (n_mes n) 0 = Some m /\ me_str m = 0 /\ e_Ex ev = me_energy m /\
  level_xs n (fun _ => 1) KEa m = Ok (0, 0) /\
  Forall (fun m' => m' = m \/ me_energy m' <> me_energy m) (n_mes n).
Proof.
  set (mes := [mkrme 0 0 1 None; mkrme 2 1 1 None]).
  destruct (ex_xs mes (mkrme 2 1 1 None)) as (w & b & Ew & Hw);
    [cbn [me_str]; lra|reflexivity|unfold me_energy; cbn [me_lev me_en]; lra|].
  assert (EP : partial_xs (ex_nuc mes) (fun _ => 1) 15 None mes = Ok [w]).
  { unfold mes at 2. cbn [partial_xs]. rewrite ex_max. unfold me_energy. cbn [me_lev me_en me_str].
    destruct (Rlt_dec 8 0) as [C|_]; [exfalso; lra|]. destruct (Req_EM_T 0 0) as [_|C]; [|exfalso; lra].
    destruct (Rlt_dec 8 2) as [C|_]; [exfalso; lra|]. destruct (Req_EM_T 1 0) as [C|_]; [exfalso; lra|].
    fold mes. rewrite Ew. reflexivity. }
  destruct (ex_created mes (mkrme 0 0 1 None) w []) as (ev & E & EX).
  - repeat constructor; unfold me_energy; cbn [me_lev me_en]; lra.
  - repeat constructor; right; reflexivity.
  - exact EP.
  - cbn [sumR]. lra.
  - reflexivity.
  - reflexivity.
  - exists (ex_nuc mes), 15, ex_draws, ev, (mkrme 0 0 1 None). split.
    { apply ex_masses. repeat constructor; unfold me_energy; cbn [me_lev me_en]; lra. }
    split; [repeat constructor; cbn [me_str]; lra|]. split; [exact ex_good|]. split; [exact E|]. split; [reflexivity|]. split; [reflexivity|].
    split; [exact EX|]. split.
    { unfold level_xs. cbn [me_str]. destruct (Req_EM_T 0 0) as [_|C]; [reflexivity|exfalso; lra]. }
    constructor; [left; reflexivity|]. constructor; [|constructor]. right. unfold me_energy. cbn [me_lev me_en]. lra.
Qed.
Print Assumptions C27_zero_strength_refuted.

(** Non-vacuity: a table of two non-zero strengths; an event is created. *)
Example C27_case : exists n ev, masses_ok n /\ Forall (fun m => 0 < me_str m) (n_mes n) /\ List.length (n_mes n) = 2%nat /\
  factor_nonneg n (fun _ => 1) /\ good_draws ex_draws /\
  nuc_create n (fun _ => 1) (Ok (0%Z, true)) (fun _ _ _ => 1) 12 15 ex_draws 1 = Ok ev.
Proof.
  set (mes := [mkrme 0 1 1 None; mkrme 2 1 1 (Some (3, 2%Z, false))]).
  destruct (ex_xs mes (mkrme 0 1 1 None)) as (w & b & Ew & Hw);
    [cbn [me_str]; lra|reflexivity|unfold me_energy; cbn [me_lev me_en]; lra|].
  destruct (ex_xs mes (mkrme 2 1 1 (Some (3, 2%Z, false)))) as (w' & b' & Ew' & Hw');
    [cbn [me_str]; lra|reflexivity|unfold me_energy; cbn [me_lev me_en]; lra|].
  assert (EP : partial_xs (ex_nuc mes) (fun _ => 1) 15 None mes = Ok [w; w']).
  { unfold mes at 2. cbn [partial_xs]. rewrite ex_max. unfold me_energy. cbn [me_lev me_en me_str].
    destruct (Rlt_dec 8 0) as [C|_]; [exfalso; lra|]. destruct (Req_EM_T 1 0) as [C|_]; [exfalso; lra|].
    fold mes. rewrite Ew. cbn [bind]. destruct (Rlt_dec 8 3) as [C|_]; [exfalso; lra|]. rewrite Ew'. reflexivity. }
  assert (HE : Forall (fun m => 0 <= me_energy m) mes) by (repeat constructor; unfold me_energy; cbn [me_lev me_en]; lra).
  assert (HS : 0 < sumR [w; w']) by (cbn [sumR]; lra).
  assert (HN : exists m, nth_error mes (discrete [w; w'] (1 / 2)) = Some m /\ me_type m = 1%Z).
  { pose proof (discrete_lt [w; w'] (1/2) ltac:(discriminate)) as L. cbn [List.length] in L.
    destruct (discrete [w; w'] (1 / 2)) as [|[|q]]; [| |lia]; eexists; split; reflexivity. }
  destruct HN as (m & HN & Hty).
  destruct (ex_created mes m w [w'] HE ltac:(repeat constructor; right; reflexivity) EP HS HN Hty) as (ev & E & _).
  exists (ex_nuc mes), ev. split; [apply ex_masses; exact HE|]. split; [repeat constructor; cbn [me_str]; lra|]. split; [reflexivity|].
  split; [|split; [exact ex_good|exact E]]. intros beta f _ Hf. unfold coulomb_factor in Hf. cbn [ex_nuc n_mode] in Hf. injection Hf as <-. lra.
Qed.

(** ** C59: Coulomb corrections *)

Lemma ema_setup n beta : 0 < n_mc n -> 0 < beta < 1 -> (0 < code_Z (r_d (n_r n)))%Z ->
  let E := 1 / sqrt (1 - beta ^ 2) * n_mc n in
  let p := beta * E in
  let V := (-3 * IZR (code_Z (r_d (n_r n))) * alpha) / (2 * radius (code_A (r_d (n_r n)))) in
  n_mc n < E /\ 0 < p /\ p ^ 2 = E ^ 2 - n_mc n ^ 2 /\ V < 0.
Proof.
  intros Hm Hb HZ. cbv zeta. set (g := sqrt (1 - beta ^ 2)).
  assert (Hg2 : g * g = 1 - beta ^ 2) by (apply sqrt_sqrt; nra).
  assert (Hg : 0 < g) by (apply sqrt_lt_R0; nra).
  assert (Hg1 : g < 1) by nra.
  assert (Hinv : 1 / g * g = 1) by (field; lra).
  set (h := 1 / g) in *. assert (Hh : 1 < h) by nra.
  assert (Hmh : n_mc n < h * n_mc n) by nra.
  split; [exact Hmh|]. split; [nra|]. split.
  - assert (Hk : h ^ 2 * (1 - beta ^ 2) = 1) by (rewrite <- Hg2; replace (h ^ 2 * (g * g)) with ((h * g) * (h * g)) by ring; rewrite Hinv; ring).
    replace ((beta * (h * n_mc n)) ^ 2) with ((h ^ 2 - h ^ 2 * (1 - beta ^ 2)) * n_mc n ^ 2) by ring. rewrite Hk. ring.
  - assert (HR : 0 < radius (code_A (r_d (n_r n)))).
    { unfold radius, r0, hbar_c, Rpower. pose proof (exp_pos (1 / 3 * ln (IZR (code_A (r_d (n_r n)))))) as He.
      apply Rmult_lt_0_compat; [apply Rmult_lt_0_compat; lra|apply Rinv_0_lt_compat; lra]. }
    apply IZR_lt in HZ. assert (Ha : 0 < alpha) by (unfold alpha; lra).
    assert (0 < 3 * IZR (code_Z (r_d (n_r n))) * alpha / (2 * radius (code_A (r_d (n_r n))))).
    { apply Rmult_lt_0_compat; [apply Rmult_lt_0_compat; lra|apply Rinv_0_lt_compat; lra]. }
    replace (-3 * IZR (code_Z (r_d (n_r n))) * alpha / (2 * radius (code_A (r_d (n_r n)))))
      with (- (3 * IZR (code_Z (r_d (n_r n))) * alpha / (2 * radius (code_A (r_d (n_r n)))))) by (field; lra). lra.
Qed.

Lemma div_cmp a b : 0 < b -> (b < a -> 1 < a / b) /\ (a < b -> a / b < 1) /\ (0 <= a -> 0 <= a / b).
Proof.
  intros Hb. assert (E : a / b * b = a) by (field; lra). split; [|split]; intros H.
  - apply Rmult_lt_reg_r with b; [exact Hb|]. lra.
  - apply Rmult_lt_reg_r with b; [exact Hb|]. lra.
  - apply Rmult_le_reg_r with b; [exact Hb|]. lra.
Qed.

(** A negative lepton is attracted: the effective momentum approximation is always
    valid and enhances the cross section. *)
Theorem C59_attractive n beta modified : 0 < n_mc n -> 0 < beta < 1 -> (0 < code_Z (r_d (n_r n)))%Z ->
  (0 < r_c (n_r n))%Z -> exists f, ema_factor n beta modified = (f, true) /\ 1 < f.
Proof.
  intros Hm Hb HZ Hc. destruct (ema_setup n beta Hm Hb HZ) as (H1 & H2 & H3 & H4). cbv zeta in *.
  unfold ema_factor. cbv zeta. apply Z.ltb_lt in Hc. rewrite Hc.
  set (E := 1 / sqrt (1 - beta ^ 2) * n_mc n) in *. set (p := beta * E) in *.
  set (V := (-3 * IZR (code_Z (r_d (n_r n))) * alpha) / (2 * radius (code_A (r_d (n_r n))))) in *.
  destruct (Rle_dec (n_mc n) (E - V)) as [_|C]; [|exfalso; lra].
  set (q := real_sqrt ((E - V) ^ 2 - n_mc n * n_mc n)).
  assert (Hq2 : q * q = (E - V) ^ 2 - n_mc n * n_mc n).
  { unfold q, real_sqrt. destruct (Rlt_dec _ 0) as [C|C]; [exfalso; nra|]. apply sqrt_sqrt. lra. }
  assert (Hq : 0 <= q) by (unfold q, real_sqrt; destruct (Rlt_dec _ _); [lra|apply sqrt_pos]).
  assert (Hpq : p < q) by nra.
  eexists. split; [reflexivity|]. destruct modified.
  - assert (HpE : 0 < p * E) by nra. apply (proj1 (div_cmp (q * (E - V)) (p * E) HpE)). nra.
  - pose proof (proj1 (div_cmp q p H2) Hpq). nra.
Qed.
Print Assumptions C59_attractive.

(** A positive lepton is repelled: where the approximation is valid it reduces the
    cross section, and it is valid exactly if the lepton has more kinetic energy than
    the potential takes. *)
Theorem C59_repulsive n beta modified : 0 < n_mc n -> 0 < beta < 1 -> (0 < code_Z (r_d (n_r n)))%Z ->
  (r_c (n_r n) <= 0)%Z ->
  let E := 1 / sqrt (1 - beta ^ 2) * n_mc n in
  let V := 3 * IZR (code_Z (r_d (n_r n))) * alpha / (2 * radius (code_A (r_d (n_r n)))) in
  0 < V /\ exists f ok, ema_factor n beta modified = (f, ok) /\
    (ok = true <-> V <= E - n_mc n) /\ (ok = true -> 0 <= f < 1).
Proof.
  intros Hm Hb HZ Hc. destruct (ema_setup n beta Hm Hb HZ) as (H1 & H2 & H3 & H4). cbv zeta in *.
  unfold ema_factor. cbv zeta. assert (Hc' : (0 <? r_c (n_r n))%Z = false) by (apply Z.ltb_ge; exact Hc). rewrite Hc'.
  set (E := 1 / sqrt (1 - beta ^ 2) * n_mc n) in *. set (p := beta * E) in *.
  set (V := 3 * IZR (code_Z (r_d (n_r n))) * alpha / (2 * radius (code_A (r_d (n_r n))))).
  set (V' := (-3 * IZR (code_Z (r_d (n_r n))) * alpha) / (2 * radius (code_A (r_d (n_r n))))) in *.
  assert (EV : - V' = V) by (unfold V, V', Rdiv; ring).
  rewrite EV. assert (HV : 0 < V) by lra. split; [exact HV|].
  eexists _, _. split; [reflexivity|].
  split.
  { destruct (Rle_dec (n_mc n) (E - V)); split; intros X; try reflexivity; try discriminate; lra. }
  destruct (Rle_dec (n_mc n) (E - V)) as [L|L]; [intros _|discriminate].
  set (q := real_sqrt ((E - V) ^ 2 - n_mc n * n_mc n)).
  assert (Hq2 : q * q = (E - V) ^ 2 - n_mc n * n_mc n).
  { unfold q, real_sqrt. destruct (Rlt_dec _ 0) as [C|C]; [exfalso; nra|]. apply sqrt_sqrt. lra. }
  assert (Hq : 0 <= q) by (unfold q, real_sqrt; destruct (Rlt_dec _ _); [lra|apply sqrt_pos]).
  assert (Hpq : q < p) by nra. destruct modified.
  - assert (HpE : 0 < p * E) by nra. pose proof (div_cmp (q * (E - V)) (p * E) HpE) as (_ & A & B).
    split; [apply B; nra|apply A; nra].
  - pose proof (div_cmp q p H2) as (_ & A & B). specialize (A Hpq). specialize (B Hq). nra.
Qed.
Print Assumptions C59_repulsive.

(** The factor a mode uses: nothing, the Fermi function, the (modified) effective
    momentum approximation or an error, or the one of the two that is nearer to one,
    with the Fermi function where the approximation is invalid. *)
Theorem C59_modes n fermi beta :
  let ema := ema_factor n beta in
  match n_mode n with
  | NoCorrection => coulomb_factor n fermi beta = Ok 1
  | FermiFunction => coulomb_factor n fermi beta = Ok (fermi beta)
  | EMA | MEMA =>
      let m := match n_mode n with MEMA => true | _ => false end in
      coulomb_factor n fermi beta = if snd (ema m) then Ok (fst (ema m)) else Er MarleyErr
  | FermiAndEMA | FermiAndMEMA =>
      let m := match n_mode n with FermiAndMEMA => true | _ => false end in
      exists f, coulomb_factor n fermi beta = Ok f /\ Rabs (f - 1) <= Rabs (fermi beta - 1) /\
        (f = fermi beta \/ (snd (ema m) = true /\ f = fst (ema m))) /\
        (snd (ema m) = true -> Rabs (f - 1) <= Rabs (fst (ema m) - 1))
  end.
Proof.
  cbv zeta. unfold coulomb_factor. destruct (n_mode n); cbv iota; try reflexivity; try (destruct (ema_factor n beta _) as [f ok]; reflexivity).
  - destruct (ema_factor n beta false) as [f [|]]; cbn [fst snd].
    + destruct (Rlt_dec _ _) as [L|L]; eexists; (split; [reflexivity|]); (split; [lra|]); (split; [tauto|]); intros _; lra.
    + exists (fermi beta). split; [reflexivity|]. split; [lra|]. split; [left; reflexivity|discriminate].
  - destruct (ema_factor n beta true) as [f [|]]; cbn [fst snd].
    + destruct (Rlt_dec _ _) as [L|L]; eexists; (split; [reflexivity|]); (split; [lra|]); (split; [tauto|]); intros _; lra.
    + exists (fermi beta). split; [reflexivity|]. split; [lra|]. split; [left; reflexivity|discriminate].
Qed.
Print Assumptions C59_modes.

(** In the combined modes, if both factors lie on the same side of one, so does the
    result; it is never negative. *)
Theorem C59_nonneg n fermi beta f : 0 < n_mc n -> 0 < beta < 1 -> (0 < code_Z (r_d (n_r n)))%Z ->
  0 <= fermi beta -> coulomb_factor n fermi beta = Ok f -> 0 <= f.
Proof.
  intros Hm Hb HZ HF H.
  assert (G : forall m x, ema_factor n beta m = (x, true) -> 0 <= x).
  { intros m x E. destruct (Z_lt_le_dec 0 (r_c (n_r n))) as [C|C].
    - destruct (C59_attractive n beta m Hm Hb HZ C) as (y & E1 & E2). rewrite E in E1. injection E1 as ->. lra.
    - destruct (C59_repulsive n beta m Hm Hb HZ C) as (_ & y & ok & E1 & _ & E2). rewrite E in E1. injection E1 as -> <-.
      specialize (E2 eq_refl). lra. }
  unfold coulomb_factor in H. destruct (n_mode n).
  - injection H as <-. lra.
  - injection H as <-. exact HF.
  - destruct (ema_factor n beta false) as [x [|]] eqn:E; [|discriminate]. injection H as <-. apply (G _ _ E).
  - destruct (ema_factor n beta true) as [x [|]] eqn:E; [|discriminate]. injection H as <-. apply (G _ _ E).
  - destruct (ema_factor n beta false) as [x [|]] eqn:E; injection H as <-; [|exact HF].
    destruct (Rlt_dec _ _); [exact HF|apply (G _ _ E)].
  - destruct (ema_factor n beta true) as [x [|]] eqn:E; injection H as <-; [|exact HF].
    destruct (Rlt_dec _ _); [exact HF|apply (G _ _ E)].
Qed.
Print Assumptions C59_nonneg.

(** The factor is not negative in any mode, for any nuclei and any speed up to that of
    light, provided the Fermi function is not (so the hypothesis of C58_nonneg and
    C27_sampled is met). *)
Theorem C59_factor n fermi : 0 <= n_mc n -> (forall beta, 0 <= beta <= 1 -> 0 <= fermi beta) -> factor_nonneg n fermi.
Proof.
  intros Hm HF beta f Hb H. specialize (HF beta Hb).
  assert (G : forall m x, ema_factor n beta m = (x, true) -> 0 <= x).
  { intros m x E. unfold ema_factor in E. cbv zeta in E. revert E. set (gam := 1 / sqrt (1 - beta ^ 2)).
    match goal with |- context [if Rle_dec ?a ?b then true else false] => set (Ee := b) end. set (pe := real_sqrt _).
    destruct (Rle_dec (n_mc n) Ee) as [L|L]; intros E; injection E as <-; [|discriminate].
    assert (Hpe : 0 <= pe) by (unfold pe, real_sqrt; destruct (Rlt_dec _ _); [lra|apply sqrt_pos]).
    destruct m; [|apply pow2_ge_0]. apply Rmult_le_pos; [apply Rmult_le_pos; lra|].
    assert (D : 0 <= beta * (gam * n_mc n) * (gam * n_mc n)).
    { rewrite Rmult_assoc. apply Rmult_le_pos; [lra|]. pose proof (pow2_ge_0 (gam * n_mc n)). lra. }
    destruct (Req_dec (beta * (gam * n_mc n) * (gam * n_mc n)) 0) as [Z0|Z0]; [rewrite Z0, Rinv_0; lra|].
    left. apply Rinv_0_lt_compat. lra. }
  unfold coulomb_factor in H. destruct (n_mode n).
  - injection H as <-. lra.
  - injection H as <-. exact HF.
  - destruct (ema_factor n beta false) as [x [|]] eqn:E; [|discriminate]. injection H as <-. apply (G _ _ E).
  - destruct (ema_factor n beta true) as [x [|]] eqn:E; [|discriminate]. injection H as <-. apply (G _ _ E).
  - destruct (ema_factor n beta false) as [x [|]] eqn:E; injection H as <-; [|exact HF].
    destruct (Rlt_dec _ _); [exact HF|apply (G _ _ E)].
  - destruct (ema_factor n beta true) as [x [|]] eqn:E; injection H as <-; [|exact HF].
    destruct (Rlt_dec _ _); [exact HF|apply (G _ _ E)].
Qed.
Print Assumptions C59_factor.

(** The names of the modes: every mode has one and it is read back; every other
    string is refused. *)
Theorem C59_names s : (forall m, string_of_cmode m = Ok s -> cmode_of_string s = Ok m) /\
  (forall m, cmode_of_string s = Ok m -> string_of_cmode m = Ok s) /\
  (cmode_of_string s <> Er MarleyErr -> In s ["none"; "Fermi"; "EMA"; "MEMA"; "Fermi-EMA"; "Fermi-MEMA"]%string) /\
  (forall m, exists x, string_of_cmode m = Ok x).
Proof.
  assert (G : forall m, cmode_of_string s = Ok m -> string_of_cmode m = Ok s /\ In s ["none"; "Fermi"; "EMA"; "MEMA"; "Fermi-EMA"; "Fermi-MEMA"]%string).
  { intros m H. unfold cmode_of_string in H. destruct (find _ cmode_names) as [[m' t]|] eqn:E; [|discriminate].
    injection H as <-. apply find_some in E. destruct E as [HI HE]. cbn [snd] in HE. apply String.eqb_eq in HE. subst t.
    cbn [cmode_names In] in HI.
    repeat (destruct HI as [HI|HI]; [injection HI as <- <-; split; [reflexivity|cbn; tauto]|]). contradiction. }
  split; [|split; [|split]].
  - intros m H. destruct m; unfold string_of_cmode in H; cbn in H; injection H as <-; reflexivity.
  - intros m H. apply (G m H).
  - intros H. destruct (cmode_of_string s) as [m|e] eqn:E; [apply (G m eq_refl)|].
    exfalso. apply H. unfold cmode_of_string in E. destruct (find _ cmode_names) as [[m' t]|]; [discriminate|]. symmetry. exact E.
  - intros m. destruct m; eexists; reflexivity.
Qed.
Print Assumptions C59_names.

(** Non-vacuity: potassium-40 and an electron; and the names. *)
Example C59_case : exists f, ema_factor (mknuc (mkr NeutrinoCC 12 1000180400 11 1000190400 0 0 (-1) 1) 0 37 (1/2) 37 FermiAndMEMA []) (1/2) true = (f, true) /\ 1 < f.
Proof. apply C59_attractive; cbn [n_mc n_r r_c r_d]; try lra; vm_compute; reflexivity. Qed.
Example C59_names_case : cmode_of_string "Fermi-MEMA" = Ok FermiAndMEMA.
Proof. reflexivity. Qed.

(** ** C60: spin and parity of the residue *)

(** A transition to a level keeps the level's spin and parity. A Fermi transition to
    the continuum keeps those of the target's ground state. A Gamow-Teller one keeps
    the parity and changes the spin by at most one unit, and never from zero to
    zero. *)
Theorem C60_selection me tgs Pgs ld u J P : (0 <= tgs)%Z ->
  residue_spin me (tgs, Pgs) ld u = Ok (J, P) ->
  match me_lev me with
  | Some (_, t, p) => J = t /\ P = p
  | None =>
      P = Pgs /\
      ((me_type me = 0%Z /\ J = tgs) \/
       (me_type me = 1%Z /\ (Z.abs (tgs - 2) <= J <= tgs + 2)%Z /\ Z.even (J - tgs) = true /\ (0 <= J)%Z /\
        (tgs = 0%Z -> J = 2%Z)))
  end.
Proof.
  intros Ht H. unfold residue_spin in H. destruct (me_lev me) as [[[e t] p]|]; [injection H as <- <-; split; reflexivity|].
  destruct (Z.eqb_spec (me_type me) 0) as [E0|E0]; [injection H as <- <-; split; [reflexivity|left; split; [exact E0|reflexivity]]|].
  destruct (Z.eqb_spec (me_type me) 1) as [E1|E1]; [|discriminate].
  destruct (Z.eqb_spec tgs 0) as [Z0|Z0].
  { injection H as <- <-. subst tgs. split; [reflexivity|]. right. split; [exact E1|]. split; [lia|]. split; [reflexivity|]. split; [lia|reflexivity]. }
  cbv zeta in H. destruct (nth_error (gt_spins tgs) _) as [x|] eqn:EX; [|discriminate]. injection H as <- <-.
  split; [reflexivity|]. right. split; [exact E1|].
  apply nth_error_In in EX. unfold gt_spins in EX. cbv zeta in EX. apply in_map_iff in EX. destruct EX as (i & <- & Hi).
  apply in_seq in Hi. assert (Hi' : (0 <= Z.of_nat i <= (tgs + 2 - Z.abs (tgs - 2)) / 2)%Z) by lia.
  pose proof (Z.mul_div_le (tgs + 2 - Z.abs (tgs - 2)) 2 ltac:(lia)) as Hd.
  split; [lia|]. split; [|split; [lia|intros C; contradiction]].
  destruct (Z_le_dec 2 tgs).
  - replace (Z.abs (tgs - 2) + 2 * Z.of_nat i - tgs)%Z with (2 * (Z.of_nat i - 1))%Z by lia. apply Z.even_mul.
  - assert (tgs = 1%Z) by lia. subst tgs. replace (Z.abs (1 - 2) + 2 * Z.of_nat i - 1)%Z with (2 * Z.of_nat i)%Z by lia. apply Z.even_mul.
Qed.
Print Assumptions C60_selection.

(** Every allowed spin can be reached: its weight is the level density, and it is
    chosen for a share of the draws in proportion. *)
Theorem C60_all_spins tgs J : (0 < tgs)%Z ->
  (In J (gt_spins tgs) <-> ((Z.abs (tgs - 2) <= J <= tgs + 2)%Z /\ Z.even (J - tgs) = true)) /\ NoDup (gt_spins tgs).
Proof.
  intros Ht. unfold gt_spins. cbv zeta. split.
  - rewrite in_map_iff. split.
    + intros (i & <- & Hi). apply in_seq in Hi. assert (Hi' : (0 <= Z.of_nat i <= (tgs + 2 - Z.abs (tgs - 2)) / 2)%Z) by lia.
      pose proof (Z.mul_div_le (tgs + 2 - Z.abs (tgs - 2)) 2 ltac:(lia)) as Hd. split; [lia|].
      destruct (Z_le_dec 2 tgs).
      * replace (Z.abs (tgs - 2) + 2 * Z.of_nat i - tgs)%Z with (2 * (Z.of_nat i - 1))%Z by lia. apply Z.even_mul.
      * assert (tgs = 1%Z) by lia. subst tgs. replace (Z.abs (1 - 2) + 2 * Z.of_nat i - 1)%Z with (2 * Z.of_nat i)%Z by lia. apply Z.even_mul.
    + intros [Hr He]. apply Z.even_spec in He. destruct He as [q Hq].
      destruct (Z_le_dec 2 tgs) as [L|L].
      * exists (Z.to_nat (q + 1)). split; [lia|]. apply in_seq. replace (Z.abs (tgs - 2)) with (tgs - 2)%Z by lia.
        replace (tgs + 2 - (tgs - 2))%Z with (2 * 2)%Z by lia. change (2 * 2 / 2)%Z with 2%Z. lia.
      * assert (tgs = 1%Z) by lia. subst tgs. exists (Z.to_nat q). split; [lia|]. apply in_seq.
        change ((1 + 2 - Z.abs (1 - 2)) / 2 + 1)%Z with 2%Z. lia.
  - apply FinFun.Injective_map_NoDup; [|apply seq_NoDup]. intros a b H. lia.
Qed.
Print Assumptions C60_all_spins.

(** Non-vacuity: doubled spins 1 and 4. *)
Example C60_case : gt_spins 1 = [1; 3]%Z /\ gt_spins 4 = [2; 4; 6]%Z /\
  residue_spin (mkrme 9 1 1 None) (4%Z, false) (fun _ _ _ => 1) (1 / 2) = Ok (4%Z, false).
Proof.
  split; [reflexivity|]. split; [reflexivity|]. unfold residue_spin. cbn [me_lev me_type Z.eqb Pos.eqb].
  change (gt_spins 4) with [2; 4; 6]%Z. cbn [map].
  assert (E : discrete [1; 1; 1] (1 / 2) = 1%nat).
  { apply discrete_iff; [repeat constructor; lra|cbn [sumR]; lra|lra|cbn [List.length]; lia|cbn [firstn sumR]; lra]. }
  rewrite E. reflexivity.
Qed.

(** ** More non-vacuity cases *)

(** C46 and C45: electron scattering of a neutrino of 2 on a particle of mass 1/2. *)
Definition ex_elec : elec := mkel (mkr NuElectronElastic 12 11 12 11 0 (-1) 0 (-1)) (mkmass 0 (1 / 2) 0 (1 / 2)) 1 (1 / 4) 18.
Example C45_electron_case : exists ev, good_draws ex_draws /\ el_create ex_elec 12 2 ex_draws 1 = Ok ev.
Proof.
  assert (H : exists ev, el_create ex_elec 12 2 ex_draws 1 = Ok ev).
  2: { destruct H as [ev H]. exists ev. split; [exact ex_good|exact H]. }
  unfold el_create. change (negb (Z.eqb 12 (r_a (l_r ex_elec)))) with false. cbv iota.
  assert (T : el_threshold ex_elec = 0) by (unfold el_threshold, threshold, ex_elec; cbn [l_k k_ma k_mb k_mc k_md]; field).
  destruct (Rlt_dec _ _) as [C|_]; [exfalso; lra|].
  destruct (two_two_scatter (l_k ex_elec) 2) as [[[s Ec] pc] Ed] eqn:ES.
  unfold rejection_sample. cbn [rejection ex_draws d_cos d_phi fst snd].
  destruct (Rlt_dec _ (uniform 0 _ 0)) as [C|_].
  { exfalso. match type of C with _ < uniform 0 ?m 0 => replace (uniform 0 m 0) with 0 in C by (unfold uniform; lra) end.
    assert (0 <= el_diff_xs ex_elec 12 2 (uniform (-1) 1 (1 / 2))); [|lra].
    apply C46_electron; unfold ex_elec, uniform; cbn [l_k k_ma k_mb l_Z]; try lra; lia. }
  cbn [bind].
  destruct (C45_scattering (l_k ex_elec) (ids_of (l_r ex_elec)) (charges_of (l_r ex_elec)) 2 (uniform (-1) 1 (1 / 2))
    (uniform 0 (2 * PI) 0) 0 1 true s Ec pc Ed) as (ev & E & _);
    try (unfold ex_elec, uniform; cbn [l_k k_ma k_mb k_mc k_md]; lra); [exact ES|].
  exists ev. exact E.
Qed.

(** C46: a sampled cosine. *)
Example C46_case : sample_cos 1 (1 / 2) (fun _ => (1 / 2, 0)) 1 = Ok 0 /\ forall k : nat, good_pair (1 / 2, 0).
Proof. split; [apply ex_sample_cos; lra|]. intros k. unfold good_pair. cbn [fst snd]. lra. Qed.

(** C58: a table of two levels, the second above the reach of the projectile. *)
Example C58_case : exists n t, masses_ok n /\ ascending (n_mes n) /\ List.length (n_mes n) = 2%nat /\
  nuc_total_xs n (fun _ => 1) 12 15 = Ok t /\ 0 < t /\ Forall valid_type (n_mes n).
Proof.
  set (mes := [mkrme 0 1 1 None; mkrme 9 1 1 None]).
  destruct (ex_xs mes (mkrme 0 1 1 None)) as (w & b & Ew & Hw);
    [cbn [me_str]; lra|reflexivity|unfold me_energy; cbn [me_lev me_en]; lra|].
  exists (ex_nuc mes), w. split.
  { apply ex_masses. repeat constructor; unfold me_energy; cbn [me_lev me_en]; lra. }
  split.
  { intros [|[|i]] [|[|j]] x y L A B; try lia; cbn in A, B; try (destruct j; discriminate B); try (destruct i; discriminate A).
    injection A as <-. injection B as <-. unfold me_energy. cbn [me_lev me_en]. lra. }
  split; [reflexivity|]. split.
  - unfold nuc_total_xs, summed_xs. cbn [ex_nuc n_r ex_reaction r_a Z.eqb Pos.eqb negb]. destruct (Rle_dec 15 0); [exfalso; lra|].
    fold (ex_nuc mes). change (n_mes (ex_nuc mes)) with mes. unfold mes at 2. cbn [partial_xs]. rewrite ex_max.
    unfold me_energy. cbn [me_lev me_en me_str].
    destruct (Rlt_dec 8 0) as [C|_]; [exfalso; lra|]. destruct (Req_EM_T 1 0) as [C|_]; [exfalso; lra|]. rewrite Ew. cbn [bind].
    destruct (Rlt_dec 8 9) as [_|C]; [|exfalso; lra]. cbn [bind sumR]. f_equal. lra.
  - split; [exact Hw|]. repeat (apply Forall_cons; [right; reflexivity|]). apply Forall_nil.
Qed.
