(** Lemmas about the de-excitation of events. *)
From Coq Require Import List ZArith Reals Lra Lia Bool.
From Verif Require Import Base Pdg PdgThms Kin KinSpec KinProofs KinThms Sample SampleProofs Mass MassThms
  Decay DecaySpec DecayProofs ChannelProofs CascadeThms DeexSpec.
Import ListNotations.
Local Open Scope R_scope.

(** ** Masses *)

Lemma Rpower_le_self x y : 1 <= x -> 0 <= y <= 1 -> 0 < Rpower x y <= x.
Proof.
  intros Hx Hy. split; [apply exp_pos|]. rewrite <- (Rpower_1 x) at 2 by lra. apply Rle_Rpower; lra.
Qed.

Lemma ldm_heavy Zn A : nuclide Zn A -> 890 * IZR A <= ldm_mass Zn A.
Proof.
  intros [HZ HA]. unfold ldm_mass, ldm_excess. cbv zeta.
  set (a := IZR A). set (z := IZR Zn). set (n := IZR (A - Zn)).
  assert (Ha : 1 <= a) by (apply IZR_le; lia).
  assert (Hz : 0 <= z <= a) by (split; apply IZR_le; lia).
  assert (Hn : 0 <= n) by (apply IZR_le; lia).
  assert (Hzn : n + z = a) by (unfold n, z, a; rewrite minus_IZR; ring).
  replace (IZR (A - Zn - Zn)) with (n - z) by (unfold n, z; rewrite <- minus_IZR; reflexivity).
  set (k := ((n - z) / a) ^ 2).
  assert (Hk : 0 <= k <= 1).
  { unfold k. assert (-1 <= (n - z) / a <= 1).
    { split; [apply Rmult_le_reg_r with a|apply Rmult_le_reg_r with a]; try lra; unfold Rdiv; rewrite Rmult_assoc, Rinv_l by lra; lra. }
    split; [apply pow2_ge_0|]. cbn [pow]. nra. }
  set (p3 := Rpower a (2 / 3)). set (p1 := Rpower a (1 / 3)).
  assert (H3 : 0 < p3 <= a) by (apply Rpower_le_self; lra).
  assert (H1 : 0 < p1 <= a) by (apply Rpower_le_self; lra).
  set (q := 717 / 1000 / p1 - 121129 / 100000 / a).
  assert (Hq : - (121129 / 100000) * / a <= q).
  { unfold q, Rdiv. assert (0 < / p1) by (apply Rinv_0_lt_compat; lra). nra. }
  assert (Hqz : - (122 / 100) * a <= q * z ^ 2).
  { assert (z ^ 2 <= a ^ 2) by (cbn [pow]; nra). assert (0 <= z ^ 2) by apply pow2_ge_0.
    assert (0 < / a) by (apply Rinv_0_lt_compat; lra).
    apply Rle_trans with (- (121129 / 100000) * / a * z ^ 2); [|apply Rmult_le_compat_r; assumption].
    assert (/ a * z ^ 2 <= / a * a ^ 2) by (apply Rmult_le_compat_l; lra).
    replace (/ a * a ^ 2) with a in H4 by (field; lra). nra. }
  set (c1 := 15677 / 1000 * (1 - 179 / 100 * k)). set (c2 := 1856 / 100 * (1 - 179 / 100 * k)).
  assert (Hc1 : c1 <= 15677 / 1000) by (unfold c1; lra).
  assert (Hc2 : - (15 / 1) <= c2) by (unfold c2; lra).
  assert (V1 : - (16 * a) <= - c1 * a) by nra.
  assert (V2 : - (15 * a) <= c2 * p3) by nra.
  assert (Hs : 1 <= sqrt a) by (rewrite <- sqrt_1 at 1; apply sqrt_le_1; lra).
  assert (His : 0 < / sqrt a <= 1).
  { split; [apply Rinv_0_lt_compat; lra|]. rewrite <- Rinv_1. apply Rinv_le_contravar; lra. }
  set (dl := if (Z.odd Zn && Z.odd (A - Zn))%bool then 11 / sqrt a else
     if (negb (Z.odd Zn) && negb (Z.odd (A - Zn)))%bool then - 11 / sqrt a else 0).
  assert (Hd : - 11 <= dl).
  { unfold dl, Rdiv. destruct (Z.odd Zn), (Z.odd (A - Zn)); cbn [andb negb]; lra. }
  clearbody dl c1 c2 q p1 p3 k. unfold micro_amu. nra.
Qed.

Lemma mass_heavy t Zn A : table_ok t -> nuclide Zn A -> 890 * IZR A <= mass_MeV t Zn A.
Proof.
  intros (_ & _ & H) HN. unfold mass_MeV. destruct (assoc _ _) as [m|] eqn:E; [exact (H Zn A m HN E)|apply ldm_heavy; exact HN].
Qed.

Lemma nuclide_decodes Zn A : nuclide Zn A -> particle_Z (nucleus_pid Zn A) = Zn /\ particle_A (nucleus_pid Zn A) = A.
Proof. intros [H1 H2]. destruct (C21_decodes Zn A ltac:(lia) ltac:(lia)) as (E1 & E2 & _). split; assumption. Qed.

Lemma ion_mass_nuclide t Zn A q me : table_ok t -> nuclide Zn A -> (q <= Zn)%Z -> particle_mass t ELECTRON = Ok me ->
  ion_mass t (nucleus_pid Zn A) q = Ok (mass_MeV t Zn A - IZR q * me) /\ 0 < mass_MeV t Zn A - IZR q * me.
Proof.
  intros Ht HN Hq Hme. pose proof (mass_heavy t Zn A Ht HN) as HM. destruct Ht as ((me' & E & Hm) & _). rewrite Hme in E. injection E as <-.
  split.
  - unfold ion_mass. destruct HN as [H1 H2]. rewrite (proj1 (C49_by_code t Zn A true ltac:(lia) ltac:(lia))), atomic_ZA_true. cbn [bind]. rewrite Hme. reflexivity.
  - destruct HN as [H1 H2]. assert (IZR q <= IZR A) by (apply IZR_le; lia). assert (1 <= IZR A) by (apply IZR_le; lia).
    destruct (Rle_dec 0 (IZR q)); nra.
Qed.

(** ** Codes of emitted particles *)

Lemma emitted_charge f : In f (PHOTON :: fragment_pdgs) -> particle_charge f = Ok (particle_Z f) /\
  (0 <= particle_Z f <= particle_A f)%Z /\ (particle_A f <= 4)%Z.
Proof.
  intros [<-|H]; [split; [reflexivity|cbn; lia]|].
  unfold fragment_pdgs in H. repeat (destruct H as [<-|H]; [split; [reflexivity|vm_compute; intuition congruence]|]). destruct H.
Qed.

Lemma zsum_app f a b : zsum f (a ++ b) = (zsum f a + zsum f b)%Z.
Proof. induction a as [|p a IH]; [reflexivity|]. cbn [app zsum fold_right]. fold (zsum f (a ++ b)). rewrite IH. unfold zsum. lia. Qed.
Lemma zsum_cons f p l : zsum f (p :: l) = (f p + zsum f l)%Z.
Proof. reflexivity. Qed.

(** Particles that may be emitted. *)
Definition emitted (p : part) : Prop := In (pid p) (PHOTON :: fragment_pdgs) /\ chg p = protons p.

Lemma emitted_nonneg l : Forall emitted l -> (0 <= zsum protons l)%Z /\ (0 <= zsum neutrons l)%Z /\ (0 <= zsum nucleons l)%Z.
Proof.
  induction 1 as [|p l [H _] _ IH]; [cbn; lia|]. destruct (emitted_charge _ H) as (_ & H1 & H2).
  rewrite !zsum_cons. change (particle_Z (pid p)) with (protons p) in H1. change (particle_A (pid p)) with (nucleons p) in H1.
  assert (neutrons p = (nucleons p - protons p)%Z) by reflexivity. lia.
Qed.

(** ** One decay *)

Lemma floor_nonneg v pdg : env_ok v -> 0 <= continuum_floor (v_scheme v pdg).
Proof.
  intros (_ & _ & H). unfold continuum_floor. destruct (v_scheme v pdg) as [ds|] eqn:E; [|lra].
  destruct (H _ _ E) as [_ HL]. rewrite Forall_forall in HL. destruct (rev (s_levels ds)) as [|lev r] eqn:ER; [lra|].
  apply HL. apply in_rev. rewrite ER. left. reflexivity.
Qed.

Lemma sample_final_nonneg v c x d fuel Exf J P : env_ok v -> channel_ok v c x ->
  sample_final v c x d fuel = Ok (Exf, J, P) -> 0 <= Exf.
Proof.
  intros Hv (top & HT & H) HS. unfold sample_final in HS. destruct (x_dest x) as [lev|Ec].
  - injection HS as <- _ _. destruct H as (ds & E & HI & _). destruct Hv as (_ & _ & Hv). destruct (Hv _ _ E) as [_ HL].
    rewrite Forall_forall in HL. apply HL. exact HI.
  - destruct H as (EF & LT & _). pose proof (floor_nonneg v (final_pdg c x) Hv) as HF. rewrite <- EF in HF.
    assert (EM : chan_max v c (x_frag x) = Ok top).
    { destruct (x_frag x) as [[[f s] Pa]|]; cbn [top_of chan_max] in *; [apply HT|congruence]. }
    rewrite EM in HS. cbn [bind] in HS.
    destruct (inverse_transform _ Ec top _ _ fuel) as [E|] eqn:EI; cbn [bind] in HS; [|discriminate].
    assert (HE : 0 <= E).
    { unfold inverse_transform in EI. destruct (Req_EM_T _ 0); [injection EI as <-; lra|]. destruct (Req_EM_T _ 1); [injection EI as <-; lra|].
      apply bisect_spec in EI; lra. }
    destruct (table _ _ _ _ _) as [tb|]; cbn [bind] in HS; [|discriminate]. destruct (Rle_dec _ 0); [discriminate|].
    destruct (nth_error tb _) as [j|]; [|discriminate]. injection HS as <- _ _. exact HE.
Qed.

Lemma emitted_code v c x : env_ok v -> channel_ok v c x -> In (emitted_pdg x) (PHOTON :: fragment_pdgs).
Proof.
  intros (_ & Hf & _) (top & HT & _). unfold emitted_pdg. destruct (x_frag x) as [[[f s] Pa]|]; [|left; reflexivity].
  right. destruct HT as (HI & _). rewrite Forall_forall in Hf. exact (Hf _ HI).
Qed.

Lemma final_pdg_nuclide Zn A c x : c_pdg c = nucleus_pid Zn A -> nuclide Zn A ->
  final_pdg c x = nucleus_pid (Zn - particle_Z (emitted_pdg x)) (A - particle_A (emitted_pdg x)).
Proof.
  intros E HN. destruct (nuclide_decodes Zn A HN) as [D1 D2]. unfold final_pdg, emitted_pdg.
  destruct (x_frag x) as [[[f s] Pa]|].
  - unfold fragment_final. rewrite E, D1, D2. reflexivity.
  - change (particle_Z PHOTON) with 0%Z. change (particle_A PHOTON) with 0%Z. rewrite !Z.sub_0_r. exact E.
Qed.

(** Everything a decay conserves. *)
Lemma hf_step v nucleus Ex J P d fuel e r Exf Jf Pf cont Zn A me :
  hf_decay v nucleus Ex J P d fuel = Ok (e, r, Exf, Jf, Pf, cont) -> env_ok v -> unit_draw (h_cos d) ->
  particle_mass (v_mt v) ELECTRON = Ok me ->
  nuclide Zn A -> pid nucleus = nucleus_pid Zn A -> (chg nucleus <= Zn)%Z -> on_shell nucleus -> 0 < mass nucleus ->
  contains nucleus [e] ->
  let Zf := (Zn - protons e)%Z in let Af := (A - nucleons e)%Z in
  emitted e /\ on_shell e /\ on_shell r /\ same_p4 [nucleus] [e; r] /\ chg r = (chg nucleus - chg e)%Z /\
  nuclide Zf Af /\ pid r = nucleus_pid Zf Af /\ (chg r <= Zf)%Z /\ 0 < mass r /\ 0 <= Exf /\
  mass r = mass_MeV (v_mt v) Zf Af - IZR (chg r) * me + Exf.
Proof.
  intros H Hv Hu Hme HN Hp Hq Ho HM Hc Zf Af.
  pose proof (hf_decay_inv _ _ _ _ _ _ _ _ _ _ _ _ _ H) as I. cbv zeta in I.
  set (c := mkcomp (pid nucleus) (chg nucleus) Ex J P) in *.
  destruct I as (cs & x & EC & EN & HI & HC & HW & ES & EP & _).
  apply prepare_inv in EP. destruct EP as (m & q & m0 & Em & Eq & E0 & ED & Pe & Me & Ce & Pr & Mr & Cr).
  pose proof (emitted_code v c x Hv HC) as HE. destruct (emitted_charge _ HE) as (EQ & HZe & HAe).
  rewrite EQ in Eq. injection Eq as Eq.
  assert (PE : protons e = particle_Z (emitted_pdg x)) by (unfold protons; rewrite Pe; reflexivity).
  assert (NE : nucleons e = particle_A (emitted_pdg x)) by (unfold nucleons; rewrite Pe; reflexivity).
  destruct (nuclide_decodes Zn A HN) as [D1 D2].
  assert (NF : nuclide Zf Af).
  { destruct Hc as (C1 & C2 & C3). rewrite zsum_cons in C1, C2, C3. cbn [zsum fold_right] in C1, C2, C3. unfold neutrons in C2.
    unfold Zf, Af. unfold protons at 2 in C1. unfold nucleons at 2, protons at 2 in C2. unfold nucleons at 2 in C3. rewrite Hp, ?D1, ?D2 in C1, C2, C3.
    destruct HN. unfold nuclide. lia. }
  rewrite (final_pdg_nuclide Zn A c x Hp HN) in *. rewrite <- PE, <- NE in *. fold Zf Af in E0, Pr, ED.
  change (c_q c) with (chg nucleus) in *.
  assert (Cr' : (chg r <= Zf)%Z) by (rewrite Cr; unfold Zf; lia).
  destruct (ion_mass_nuclide (v_mt v) Zf Af (chg nucleus - protons e) me (proj1 Hv) NF ltac:(unfold Zf; lia) Hme) as [E0' Hpos].
  rewrite E0 in E0'. injection E0' as E0'.
  pose proof (sample_final_nonneg v c x d fuel Exf Jf Pf Hv HC ES) as HX.
  assert (Hm : 0 <= m) by (destruct Hv as ((_ & T & _) & _); exact (T _ _ HE Em)).
  apply decay_step in ED; [|exact Ho|exact HM|exact Hm|cbn [mass particle3]; rewrite E0'; lra|apply uniform_unit; [lra|exact Hu]].
  destruct ED as (O1 & O2 & _ & _ & P4 & _).
  split; [split; [rewrite Pe; exact HE|rewrite Ce; symmetry; exact Eq]|].
  assert (CP : chg e = protons e) by (rewrite Ce; symmetry; exact Eq).
  assert (HMr : 0 < mass r) by (rewrite Mr, E0'; lra).
  split; [exact O1|]. split; [exact O2|]. split; [exact P4|]. split; [rewrite Cr, CP; reflexivity|].
  split; [exact NF|]. split; [exact Pr|]. split; [exact Cr'|]. split; [exact HMr|]. split; [exact HX|].
  rewrite Mr, E0', Cr. reflexivity.
Qed.

(** ** The loop *)

Lemma contains_split nucleus e es r : emitted e -> Forall emitted es ->
  contains nucleus (e :: es) -> protons r = (protons nucleus - protons e)%Z -> nucleons r = (nucleons nucleus - nucleons e)%Z ->
  contains nucleus [e] /\ contains r es.
Proof.
  intros He Hes (C1 & C2 & C3) E1 E2. pose proof (emitted_nonneg es Hes) as (N1 & N2 & N3).
  rewrite zsum_cons in C1, C2, C3. unfold contains. rewrite !zsum_cons. cbn [zsum fold_right].
  assert (E3 : forall p, neutrons p = (nucleons p - protons p)%Z) by reflexivity. rewrite (E3 e), (E3 r), (E3 nucleus) in *. lia.
Qed.

Lemma hf_decay_emitted v nucleus Ex J P d fuel e r Exf Jf Pf cont : env_ok v ->
  hf_decay v nucleus Ex J P d fuel = Ok (e, r, Exf, Jf, Pf, cont) -> emitted e.
Proof.
  intros Hv H. pose proof (hf_decay_inv _ _ _ _ _ _ _ _ _ _ _ _ _ H) as I. cbv zeta in I.
  destruct I as (cs & x & EC & EN & HI & HC & HW & ES & EP & _).
  apply prepare_inv in EP. destruct EP as (m & q & m0 & Em & Eq & E0 & ED & Pe & Me & Ce & Pr & Mr & Cr).
  pose proof (emitted_code v _ x Hv HC) as HE. destruct (emitted_charge _ HE) as (EQ & _).
  rewrite EQ in Eq. injection Eq as Eq. unfold emitted, protons. rewrite Pe. split; [exact HE|congruence].
Qed.

Lemma hf_loop_emitted v draws : env_ok v -> forall fuel residue Ex J P turn r E cont es,
  hf_loop v residue Ex J P draws turn fuel = Ok (r, E, cont, es) -> Forall emitted es.
Proof.
  intros Hv. induction fuel as [|fuel IH]; intros residue Ex J P turn r E cont es H; [discriminate|].
  cbn [hf_loop] in H. destruct (Rlt_dec gs_cutoff Ex); [|injection H as _ _ _ <-; constructor].
  destruct (hf_decay _ _ _ _ _ _ _) as [[[[[[e r1] E1] J1] P1] c1]|] eqn:ED; cbn [bind] in H; [|discriminate].
  pose proof (hf_decay_emitted _ _ _ _ _ _ _ _ _ _ _ _ _ Hv ED) as He.
  destruct c1.
  - destruct (hf_loop v r1 E1 J1 P1 draws (S turn) fuel) as [[[[r' E'] c'] es']|] eqn:EL; cbn [bind] in H; [|discriminate].
    injection H as <- <- <- <-. constructor; [exact He|]. eapply IH. exact EL.
  - injection H as <- <- <- <-. constructor; [exact He|constructor].
Qed.

Lemma hf_decay_final v nucleus Ex J P d fuel e r Exf Jf Pf : hf_decay v nucleus Ex J P d fuel = Ok (e, r, Exf, Jf, Pf, false) ->
  exists ds lev, v_scheme v (pid r) = Some ds /\ In lev (s_levels ds) /\ rl_E lev = Exf.
Proof.
  intros H. pose proof (hf_decay_inv _ _ _ _ _ _ _ _ _ _ _ _ _ H) as I. cbv zeta in I.
  destruct I as (cs & x & EC & EN & HI & HC & HW & ES & EP & Eco).
  apply prepare_inv in EP. destruct EP as (m & q & m0 & Em & Eq & E0 & ED & Pe & Me & Ce & Pr & Mr & Cr).
  destruct HC as (top & _ & HC). unfold sample_final in ES. destruct (x_dest x) as [lev|]; [|discriminate].
  injection ES as <- <- <-. destruct HC as (ds & E & HL & _). exists ds, lev. rewrite Pr. repeat split; assumption.
Qed.

(** The state of a nucleus whose mass is that of its excitation energy. *)
Definition excited (t : mtab) (p : part) (E : R) : Prop := exists m0, ion_mass t (pid p) (chg p) = Ok m0 /\ mass p = m0 + E.

Lemma hf_loop_step v draws me : env_ok v -> particle_mass (v_mt v) ELECTRON = Ok me -> hf_draws draws ->
  forall fuel residue Ex J P turn r E cont es Zn A,
  hf_loop v residue Ex J P draws turn fuel = Ok (r, E, cont, es) ->
  nuclide Zn A -> pid residue = nucleus_pid Zn A -> (chg residue <= Zn)%Z -> on_shell residue -> 0 < mass residue ->
  contains residue es ->
  exists Zf Af, Zf = (Zn - zsum protons es)%Z /\ Af = (A - zsum nucleons es)%Z /\ nuclide Zf Af /\ pid r = nucleus_pid Zf Af /\
    (chg r <= Zf)%Z /\ chg r = (chg residue - zsum chg es)%Z /\ on_shell r /\ 0 < mass r /\ Forall on_shell es /\
    same_p4 [residue] (r :: es) /\
    (es = [] -> r = residue /\ E = Ex /\ cont = true) /\
    (es <> [] -> 0 <= E /\ excited (v_mt v) r E) /\
    (cont = true -> E <= gs_cutoff) /\
    (cont = false -> exists ds lev, v_scheme v (pid r) = Some ds /\ In lev (s_levels ds) /\ rl_E lev = E).
Proof.
  intros Hv Hme Hd. induction fuel as [|fuel IH]; intros residue Ex J P turn r E cont es Zn A H HN Hp Hq Ho HM Hc; [discriminate|].
  cbn [hf_loop] in H. destruct (Rlt_dec gs_cutoff Ex) as [L|L].
  2: { injection H as <- <- <- <-. exists Zn, A. cbn [zsum fold_right]. rewrite !Z.sub_0_r.
       split; [reflexivity|]. split; [reflexivity|]. split; [exact HN|]. split; [exact Hp|]. split; [exact Hq|]. split; [reflexivity|].
       split; [exact Ho|]. split; [exact HM|]. split; [constructor|]. split; [apply same_p4_refl|]. split; [intros _; repeat split|].
       split; [intros C; contradiction|]. split; [intros _; lra|discriminate]. }
  destruct (hf_decay _ _ _ _ _ _ _) as [[[[[[e r1] E1] J1] P1] c1]|] eqn:ED; cbn [bind] in H; [|discriminate].
  destruct (Hd turn) as (D1 & D2 & D3 & D4 & D5).
  pose proof (hf_decay_emitted _ _ _ _ _ _ _ _ _ _ _ _ _ Hv ED) as He.
  assert (Rest : exists es', es = e :: es' /\ Forall emitted es').
  { destruct c1.
    - destruct (hf_loop v r1 E1 J1 P1 draws (S turn) fuel) as [[[[r' E'] c'] es']|] eqn:EL; cbn [bind] in H; [|discriminate].
      injection H as <- <- <- <-. exists es'. split; [reflexivity|]. eapply hf_loop_emitted; eassumption.
    - injection H as <- <- <- <-. exists []. split; [reflexivity|constructor]. }
  destruct Rest as (es' & -> & Hes).
  assert (C1 : contains residue [e]).
  { pose proof (emitted_nonneg es' Hes). destruct Hc as (C1 & C2 & C3). rewrite zsum_cons in C1, C2, C3. unfold contains. rewrite !zsum_cons. cbn [zsum fold_right]. lia. }
  destruct (hf_step _ _ _ _ _ _ _ _ _ _ _ _ _ Zn A me ED Hv D4 Hme HN Hp Hq Ho HM C1) as (S1 & S2 & S3 & S4 & S5 & S6 & S7 & S8 & S9 & S10 & S11).
  destruct (nuclide_decodes Zn A HN) as [N1 N2]. destruct (nuclide_decodes _ _ S6) as [N3 N4].
  assert (C2 : contains r1 es').
  { apply (contains_split residue e es' r1 He Hes Hc).
    - replace (protons r1) with (Zn - protons e)%Z by (symmetry; unfold protons at 1; rewrite S7; exact N3).
      replace (protons residue) with Zn by (symmetry; unfold protons; rewrite Hp; exact N1). reflexivity.
    - replace (nucleons r1) with (A - nucleons e)%Z by (symmetry; unfold nucleons at 1; rewrite S7; exact N4).
      replace (nucleons residue) with A by (symmetry; unfold nucleons; rewrite Hp; exact N2). reflexivity. }
  assert (X1 : excited (v_mt v) r1 E1).
  { destruct (ion_mass_nuclide (v_mt v) _ _ (chg r1) me (proj1 Hv) S6 S8 Hme) as [EI _].
    exists (mass_MeV (v_mt v) (Zn - protons e) (A - nucleons e) - IZR (chg r1) * me). rewrite S7. split; [exact EI|exact S11]. }
  destruct c1.
  - destruct (hf_loop v r1 E1 J1 P1 draws (S turn) fuel) as [[[[r' E'] c'] es'']|] eqn:EL; cbn [bind] in H; [|discriminate].
    injection H as <- <- <- <-.
    destruct (IH _ _ _ _ _ _ _ _ _ _ _ EL S6 S7 S8 S3 S9 C2) as (Zf & Af & I1 & I2 & I3 & I4 & I5 & I6 & I7 & I8 & I9 & I10 & I11 & I12 & I13 & I14).
    exists Zf, Af. rewrite !zsum_cons. split; [lia|]. split; [lia|]. split; [exact I3|]. split; [exact I4|]. split; [exact I5|].
    split; [lia|]. split; [exact I7|]. split; [exact I8|]. split; [constructor; assumption|]. split; [p4|].
    split; [discriminate|]. split; [|split; assumption]. intros _. destruct es'' as [|e2 es2].
    + destruct (I11 eq_refl) as (-> & -> & _). split; assumption.
    + apply I12. discriminate.
  - injection H as <- <- <- <-. exists (Zn - protons e)%Z, (A - nucleons e)%Z. rewrite !zsum_cons. cbn [zsum fold_right].
    rewrite !Z.add_0_r. split; [reflexivity|]. split; [reflexivity|]. split; [exact S6|]. split; [exact S7|]. split; [exact S8|].
    split; [exact S5|]. split; [exact S3|]. split; [exact S9|]. split; [constructor; [exact S2|constructor]|]. split; [p4|].
    split; [discriminate|]. split; [intros _; split; assumption|]. split; [discriminate|]. intros _. eapply hf_decay_final. exact ED.
Qed.

(** ** The closest level *)

Lemma lower_bound_spec E ls : let k := rl_lower_bound E ls in
  (k <= length ls)%nat /\ (forall a, nth_error ls k = Some a -> E <= rl_E a) /\
  (forall i a, (i < k)%nat -> nth_error ls i = Some a -> rl_E a < E).
Proof.
  induction ls as [|l r IH]; cbn [rl_lower_bound]; cbv zeta in *.
  - cbn. repeat split; try lia. intros a H. discriminate.
  - destruct (Rlt_dec (rl_E l) E) as [L|L].
    + destruct IH as (I1 & I2 & I3). cbn [length nth_error]. split; [lia|]. split; [exact I2|].
      intros [|i] a Hi Ha; [injection Ha as <-; exact L|]. apply (I3 i); [lia|exact Ha].
    + split; [cbn; lia|]. split; [intros a Ha; injection Ha as <-; lra|]. intros i a Hi. lia.
Qed.

Lemma closest_in_range ls E i : rl_closest ls E = Some i -> exists lev, nth_error ls i = Some lev.
Proof.
  unfold rl_closest. destruct ls as [|l0 r] eqn:EL; [discriminate|]. rewrite <- EL in *. cbv zeta.
  destruct (lower_bound_spec E ls) as (H1 & _). assert (LN : (0 < length ls)%nat) by (rewrite EL; cbn; lia).
  assert (X : forall k, (k < length ls)%nat -> exists lev, nth_error ls k = Some lev).
  { intros k Hk. destruct (nth_error ls k) eqn:E1; [eexists; reflexivity|]. apply nth_error_None in E1. lia. }
  destruct (Nat.eqb_spec (rl_lower_bound E ls) (length ls)) as [E1|E1].
  - intros H. injection H as <-. apply X. lia.
  - destruct (Nat.ltb_spec 0 (rl_lower_bound E ls)).
    + destruct (nth_error ls (rl_lower_bound E ls)) as [a|] eqn:EA; [|discriminate].
      destruct (nth_error ls (pred (rl_lower_bound E ls))) as [b|] eqn:EB; [|discriminate].
      destruct (Rlt_dec _ _); intros H0; injection H0 as <-; eexists; eassumption.
    + intros H0. injection H0 as <-. apply X. lia.
Qed.

Lemma closest_some ls E : ls <> [] -> exists i, rl_closest ls E = Some i.
Proof.
  intros HN. unfold rl_closest. destruct ls as [|l0 r] eqn:EL; [contradiction|]. rewrite <- EL in *. cbv zeta.
  destruct (lower_bound_spec E ls) as (H1 & _).
  destruct (Nat.eqb_spec (rl_lower_bound E ls) (length ls)) as [E1|E1]; [eexists; reflexivity|].
  destruct (Nat.ltb_spec 0 (rl_lower_bound E ls)); [|eexists; reflexivity].
  destruct (nth_error ls (rl_lower_bound E ls)) as [a|] eqn:EA; [|apply nth_error_None in EA; lia].
  destruct (nth_error ls (pred (rl_lower_bound E ls))) as [b|] eqn:EB; [|apply nth_error_None in EB; lia].
  destruct (Rlt_dec _ _); eexists; reflexivity.
Qed.

(** A level energy is found exactly. *)
Lemma closest_exact ls lev : levels_sorted ls -> In lev ls ->
  exists i lev', rl_closest ls (rl_E lev) = Some i /\ nth_error ls i = Some lev' /\ rl_E lev' = rl_E lev.
Proof.
  intros HS HI. destruct (In_nth_error _ _ HI) as [k Hk]. set (E := rl_E lev) in *.
  destruct (lower_bound_spec E ls) as (H1 & H2 & H3). remember (rl_lower_bound E ls) as e eqn:Ee.
  assert (LK : (k < length ls)%nat) by (apply nth_error_Some; congruence).
  assert (KE : (e <= k)%nat).
  { destruct (le_lt_dec e k) as [L|L]; [exact L|]. exfalso. pose proof (H3 k lev L Hk). unfold E in H. lra. }
  destruct (nth_error ls e) as [a|] eqn:EA; [|apply nth_error_None in EA; lia].
  assert (EE : rl_E a = E).
  { pose proof (H2 a eq_refl). pose proof (HS e k a lev KE EA Hk). unfold E in *. lra. }
  exists e, a. split; [|split; [exact EA|exact EE]].
  unfold rl_closest. destruct ls as [|l0 r] eqn:EL; [destruct k; discriminate|]. rewrite <- EL in *. cbv zeta. rewrite <- Ee.
  destruct (Nat.eqb_spec e (length ls)) as [E1|E1]; [lia|].
  destruct (Nat.ltb_spec 0 e); [|reflexivity]. rewrite EA.
  destruct (nth_error ls (pred e)) as [b|] eqn:EB; [|apply nth_error_None in EB; lia].
  destruct (Rlt_dec _ _) as [C|C]; [|reflexivity]. exfalso. rewrite EE in C. replace (E - E) with 0 in C by ring. rewrite Rabs_R0 in C.
  pose proof (Rabs_pos (E - rl_E b)). lra.
Qed.
