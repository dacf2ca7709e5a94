From Coq Require Import List ZArith Reals Lra Lia Psatz Bool Rpower.
From Verif Require Import Base Pdg React Kin KinSpec KinProofs Sample SampleProofs NucReact NucSpec.
Import ListNotations.
Local Open Scope R_scope.

(** ** Integrals of quadratics *)

Lemma deriv_quad a b c x :
  derivable_pt_lim (fun t => a * t + b / 2 * t ^ 2 + c / 3 * t ^ 3) x (a + b * x + c * x ^ 2).
Proof.
  replace (a + b * x + c * x ^ 2) with ((a * 1 + b / 2 * (INR 2 * x ^ 1)) + c / 3 * (INR 3 * x ^ 2)).
  - apply derivable_pt_lim_plus; [apply derivable_pt_lim_plus|].
    + apply derivable_pt_lim_scal. apply derivable_pt_lim_id.
    + apply derivable_pt_lim_scal. apply (derivable_pt_lim_pow x 2).
    + apply derivable_pt_lim_scal. apply (derivable_pt_lim_pow x 3).
  - cbn [INR pow]. field.
Qed.

Lemma integral_quad f a b c lo hi : lo <= hi ->
  (forall x, lo < x < hi -> f x = a + b * x + c * x ^ 2) ->
  forall pr : Riemann_integrable f lo hi,
  RiemannInt pr = (a * hi + b / 2 * hi ^ 2 + c / 3 * hi ^ 3) - (a * lo + b / 2 * lo ^ 2 + c / 3 * lo ^ 3).
Proof.
  intros Hl Hf pr.
  set (F := fun t => a * t + b / 2 * t ^ 2 + c / 3 * t ^ 3).
  assert (D : derivable F) by (intros x; exists (a + b * x + c * x ^ 2); apply deriv_quad).
  assert (E : forall x, derive F D x = a + b * x + c * x ^ 2).
  { intros x. unfold derive. apply derive_pt_eq_0. apply deriv_quad. }
  assert (C : continuity (derive F D)).
  { intros x. apply continuity_pt_locally_ext with (f := fun t => a + b * t + c * t ^ 2) (a := 1); [lra| |reg].
    intros y _. symmetry. apply E. }
  pose (G := mkC1 C).
  assert (P : Riemann_integrable (derive G (diff0 G)) lo hi).
  { apply continuity_implies_RiemannInt; [exact Hl|]. intros x _. apply C. }
  pose proof (FTC_Riemann G P) as H.
  assert (X : RiemannInt pr = RiemannInt P).
  { apply RiemannInt_P18; [exact Hl|]. intros x Hx. rewrite (Hf x Hx). symmetry.
    change (derive G (diff0 G) x) with (derive F D x). apply E. }
  rewrite X, H. reflexivity.
Qed.

Lemma integrable_quad f a b c lo hi : lo <= hi ->
  (forall x, lo <= x <= hi -> f x = a + b * x + c * x ^ 2) -> Riemann_integrable f lo hi.
Proof.
  intros Hl Hf. apply Riemann_integrable_ext with (f := fun x => a + b * x + c * x ^ 2).
  - intros x Hx. rewrite Rmin_left, Rmax_right in Hx by exact Hl. symmetry. apply Hf. exact Hx.
  - apply continuity_implies_RiemannInt; [exact Hl|]. intros x _. reg.
Qed.

Lemma integral_sym f a b c : (forall x, -1 <= x <= 1 -> f x = a + b * x + c * x ^ 2) ->
  integral f (-1) 1 (2 * a + 2 / 3 * c).
Proof.
  intros Hf. exists (integrable_quad f a b c (-1) 1 ltac:(lra) Hf).
  rewrite (integral_quad f a b c (-1) 1); [field|lra|]. intros x Hx. apply Hf. lra.
Qed.

Lemma integral_zero f : (forall x, -1 <= x <= 1 -> f x = 0) -> integral f (-1) 1 0.
Proof.
  intros Hf. assert (H : integral f (-1) 1 (2 * 0 + 2 / 3 * 0)).
  { apply (integral_sym f 0 0 0). intros x Hx. rewrite (Hf x Hx). lra. }
  replace (2 * 0 + 2 / 3 * 0) with 0 in H by lra. exact H.
Qed.

(** ** Kinematics of one level *)

Lemma access_iff n KEa m : masses_ok n -> 0 <= me_energy m -> 0 <= KEa ->
  (me_energy m <= max_level_energy n KEa <-> accessible n KEa m).
Proof.
  intros (Ha & Hb & Hc & Hd & _) He HK. unfold max_level_energy, accessible.
  set (s := (n_ma n + n_mb n) ^ 2 + 2 * n_mb n * KEa).
  assert (Hs : 0 <= s) by (unfold s; pose proof (pow2_ge_0 (n_ma n + n_mb n)); nra).
  pose proof (sqrt_pos s) as Hp. pose proof (sqrt_sqrt s Hs) as Hq. split; intros H; nra.
Qed.

Lemma kin_signs n KEa E : masses_ok n -> 0 <= E -> 0 <= KEa ->
  (n_mc n + (n_mdgs n + E)) ^ 2 <= (n_ma n + n_mb n) ^ 2 + 2 * n_mb n * KEa ->
  let md2 := (n_mdgs n + E) ^ 2 in
  let s := (n_ma n + n_mb n) ^ 2 + 2 * n_mb n * KEa in
  let rs := sqrt s in
  let Eb := (s + n_mb n * n_mb n - n_ma n * n_ma n) / (2 * rs) in
  let Ec := (s + n_mc n * n_mc n - md2) / (2 * rs) in
  0 < s /\ 0 < rs /\ 0 <= Eb /\ n_mc n <= Ec /\ n_mdgs n + E <= rs - Ec.
Proof.
  intros (Ha & Hb & Hc & Hd & _) HE HK H. cbv zeta.
  set (md := n_mdgs n + E) in *. set (s := (n_ma n + n_mb n) ^ 2 + 2 * n_mb n * KEa) in *.
  assert (Hm : 0 <= md) by (unfold md; lra).
  assert (H1 : (n_ma n + n_mb n) ^ 2 <= s) by (unfold s; nra).
  assert (H2 : 0 < (n_ma n + n_mb n) ^ 2) by (apply pow_lt; lra).
  assert (Hs : 0 < s) by lra.
  pose proof (sqrt_lt_R0 s Hs) as Hr. pose proof (sqrt_sqrt s ltac:(lra)) as Hq.
  set (rs := sqrt s) in *.
  assert (Hsum : n_mc n + md <= rs) by nra.
  assert (HEb : 0 <= s + n_mb n * n_mb n - n_ma n * n_ma n) by nra.
  split; [exact Hs|]. split; [exact Hr|]. split; [|split].
  - apply Rmult_le_pos; [exact HEb|]. left. apply Rinv_0_lt_compat. lra.
  - apply Rmult_le_reg_r with (2 * rs); [lra|].
    replace ((s + n_mc n * n_mc n - md ^ 2) / (2 * rs) * (2 * rs)) with (s + n_mc n * n_mc n - md ^ 2) by (field; lra).
    rewrite <- Hq. nra.
  - apply Rmult_le_reg_r with (2 * rs); [lra|].
    replace ((rs - (s + n_mc n * n_mc n - md ^ 2) / (2 * rs)) * (2 * rs)) with (2 * (rs * rs) - (s + n_mc n * n_mc n - md ^ 2)) by (field; lra).
    rewrite Hq, <- Hq. nra.
Qed.

Lemma GF_pos : 0 < GF * GF / PI.
Proof. unfold GF. pose proof PI_RGT_0. apply Rmult_lt_0_compat; [lra|]. apply Rinv_0_lt_compat. exact H. Qed.

Lemma speed_range d x : 0 <= d -> 0 <= x -> 0 <= real_sqrt (d ^ 2 - x) / d <= 1.
Proof.
  intros Hd Hx. assert (H : 0 <= real_sqrt (d ^ 2 - x) <= d).
  { unfold real_sqrt. destruct (Rlt_dec _ _); [lra|]. split; [apply sqrt_pos|]. rewrite <- (sqrt_pow2 d Hd) at 2. apply sqrt_le_1_alt. lra. }
  destruct (Req_dec d 0) as [->|N]; [unfold Rdiv; rewrite Rinv_0; lra|].
  assert (0 < d) by lra. split; [apply Rmult_le_pos; [lra|left; apply Rinv_0_lt_compat; lra]|].
  apply (Rmult_le_reg_r d); [assumption|]. unfold Rdiv. rewrite Rmult_assoc, Rinv_l, Rmult_1_r, Rmult_1_l by lra. lra.
Qed.

Lemma level_xs_nonneg n fermi KEa me xs beta : masses_ok n -> 0 <= me_energy me -> 0 <= me_str me -> 0 <= KEa ->
  factor_nonneg n fermi -> accessible n KEa me -> level_xs n fermi KEa me = Ok (xs, beta) ->
  0 <= xs /\ 0 <= beta.
Proof.
  intros Hm He Hst HK HF Hac H. unfold level_xs in H. destruct (Req_EM_T (me_str me) 0) as [Z0|Z0].
  { injection H as <- <-. lra. }
  destruct (kin_signs n KEa (me_energy me) Hm He HK Hac) as (S1 & S2 & S3 & S4 & S5). cbv zeta in H, S2, S3, S4, S5.
  assert (Hc : 0 <= n_mc n) by apply Hm. assert (Hd : 0 <= n_mdgs n) by apply Hm.
  revert H.
  set (s := (n_ma n + n_mb n) ^ 2 + 2 * n_mb n * KEa) in *.
  set (Eb := (s + n_mb n * n_mb n - n_ma n * n_ma n) / (2 * sqrt s)) in *.
  set (Ec := (s + n_mc n * n_mc n - (n_mdgs n + me_energy me) ^ 2) / (2 * sqrt s)) in *.
  set (pc := real_sqrt (Ec ^ 2 - n_mc n * n_mc n)).
  assert (Hpc : 0 <= pc).
  { unfold pc, real_sqrt. destruct (Rlt_dec _ _); [lra|]. apply sqrt_pos. }
  assert (Hx : 0 <= GF * GF / PI * (Eb * (sqrt s - Ec) / s) * Ec * pc * me_str me).
  { pose proof GF_pos. assert (0 <= Eb * (sqrt s - Ec) / s).
    { apply Rmult_le_pos; [apply Rmult_le_pos; lra|]. left. apply Rinv_0_lt_compat. exact S1. }
    apply Rmult_le_pos; [|exact Hst]. apply Rmult_le_pos; [|exact Hpc]. apply Rmult_le_pos; [|lra].
    apply Rmult_le_pos; [lra|assumption]. }
  set (x := GF * GF / PI * (Eb * (sqrt s - Ec) / s) * Ec * pc * me_str me) in *.
  assert (Hb : 0 <= pc / Ec).
  { destruct (Req_dec Ec 0) as [Z1|Z1].
    - assert (pc = 0). { unfold pc, real_sqrt. destruct (Rlt_dec _ _); [reflexivity|]. replace (Ec ^ 2 - n_mc n * n_mc n) with 0; [apply sqrt_0|]. nra. }
      rewrite H. unfold Rdiv. lra.
    - apply Rmult_le_pos; [exact Hpc|]. left. apply Rinv_0_lt_compat. lra. }
  assert (Hbr : 0 <= real_sqrt (((sqrt s - Ec) * Ec + pc ^ 2) ^ 2 - n_mc n * n_mc n * (n_mdgs n + me_energy me) ^ 2) / ((sqrt s - Ec) * Ec + pc ^ 2) <= 1).
  { apply speed_range; [|apply Rmult_le_pos; [nra|apply pow2_ge_0]]. pose proof (pow2_ge_0 pc). assert (0 <= (sqrt s - Ec) * Ec) by (apply Rmult_le_pos; lra). lra. }
  destruct (r_proc (n_r n)).
  1,2: destruct (coulomb_factor n fermi _) as [f|] eqn:Ef; cbn [bind]; [|discriminate]; intros H; injection H as <- <-;
    apply (HF _ _ Hbr) in Ef; split; [|exact Hb]; assert (0 <= Vud * Vud) by (unfold Vud; lra);
    apply Rmult_le_pos; [exact Hx|]; apply Rmult_le_pos; assumption.
  - intros H. injection H as <- <-. split; [|exact Hb]. destruct (Z.eqb _ _); [|exact Hx].
    apply Rmult_le_pos; [exact Hx|]. pose proof (pow2_ge_0 (weak_charge n)). lra.
  - discriminate.
Qed.

(** ** The loop over matrix elements *)

(** The elements before the first one that is too high. *)
Fixpoint prefix_ok (n : nuc) (KEa : R) (ms : list rme) : list rme :=
  match ms with
  | [] => []
  | m :: r => if Rlt_dec (max_level_energy n KEa) (me_energy m) then [] else m :: prefix_ok n KEa r
  end.

Definition nonzero (m : rme) : bool := if Req_EM_T (me_str m) 0 then false else true.

Lemma partial_spec n fermi KEa ms ws : partial_xs n fermi KEa None ms = Ok ws ->
  Forall2 (fun m w => exists b, level_xs n fermi KEa m = Ok (w, b)) (filter nonzero (prefix_ok n KEa ms)) ws.
Proof.
  revert ws. induction ms as [|m r IH]; intros ws H; cbn [partial_xs prefix_ok] in *.
  { injection H as <-. constructor. }
  destruct (Rlt_dec _ _); [injection H as <-; constructor|]. cbn [filter]. unfold nonzero at 1.
  destruct (Req_EM_T (me_str m) 0); [apply IH; exact H|].
  destruct (level_xs n fermi KEa m) as [[xs b]|] eqn:E; cbn [bind] in H; [|discriminate].
  destruct (partial_xs n fermi KEa None r) as [ws'|]; cbn [bind] in H; [|discriminate].
  injection H as <-. constructor; [exists b; exact E|]. apply IH. reflexivity.
Qed.

Lemma partial_length n fermi KEa ms ws : partial_xs n fermi KEa None ms = Ok ws ->
  (length ws <= length (prefix_ok n KEa ms))%nat.
Proof.
  intros H. apply partial_spec in H. assert (forall A B (P : A -> B -> Prop) l l', Forall2 P l l' -> length l = length l') by (induction 1; cbn [length]; congruence).
  apply H0 in H. rewrite <- H. clear. induction (prefix_ok n KEa ms) as [|x l IH]; cbn [filter length]; [lia|].
  destruct (nonzero x); cbn [length]; lia.
Qed.

Lemma prefix_nth n KEa ms i m : (i < length (prefix_ok n KEa ms))%nat -> nth_error ms i = Some m ->
  nth_error (prefix_ok n KEa ms) i = Some m /\ me_energy m <= max_level_energy n KEa.
Proof.
  revert i. induction ms as [|x r IH]; intros i Hi H; cbn [prefix_ok] in *; [cbn [length] in Hi; lia|].
  destruct (Rlt_dec _ _) as [L|L]; [cbn [length] in Hi; lia|]. destruct i as [|i].
  - injection H as ->. split; [reflexivity|lra].
  - cbn [nth_error length] in *. apply IH; [lia|exact H].
Qed.

Lemma prefix_len n KEa ms : (length (prefix_ok n KEa ms) <= length ms)%nat.
Proof. induction ms as [|m r IH]; cbn [prefix_ok length]; [lia|]. destruct (Rlt_dec _ _); cbn [length]; lia. Qed.

Lemma prefix_firstn n KEa ms : prefix_ok n KEa ms = firstn (length (prefix_ok n KEa ms)) ms.
Proof. induction ms as [|m r IH]; cbn [prefix_ok]; [reflexivity|]. destruct (Rlt_dec _ _); [reflexivity|]. cbn [length firstn]. congruence. Qed.

(** With ascending level energies the prefix is exactly the accessible elements. *)
Lemma prefix_filter n KEa ms : ascending ms ->
  prefix_ok n KEa ms = filter (fun m => if Rle_dec (me_energy m) (max_level_energy n KEa) then true else false) ms.
Proof.
  intros HA. induction ms as [|m r IH]; [reflexivity|].
  assert (HA' : ascending r).
  { intros i j a b Hij Hi Hj. apply (HA (S i) (S j) a b); [lia|exact Hi|exact Hj]. }
  cbn [prefix_ok filter]. destruct (Rlt_dec _ _) as [L|L].
  - destruct (Rle_dec _ _) as [L'|L']; [lra|]. symmetry. clear IH HA'.
    assert (Hall : forall x, In x r -> max_level_energy n KEa < me_energy x).
    { intros x Hx. apply In_nth_error in Hx. destruct Hx as [j Hj].
      pose proof (HA O (S j) m x ltac:(lia) eq_refl Hj). lra. }
    clear HA L L'. induction r as [|x r IH]; [reflexivity|]. cbn [filter].
    destruct (Rle_dec _ _) as [L|L]; [specialize (Hall x (or_introl eq_refl)); lra|].
    apply IH. intros y Hy. apply Hall. right. exact Hy.
  - destruct (Rle_dec _ _) as [L'|L']; [|lra]. rewrite (IH HA'). reflexivity.
Qed.

Lemma partial_nonneg n fermi KEa ws : masses_ok n -> Forall (fun m => 0 <= me_str m) (n_mes n) -> 0 <= KEa ->
  factor_nonneg n fermi -> partial_xs n fermi KEa None (n_mes n) = Ok ws -> nonneg ws.
Proof.
  intros Hm Hst HK HF H. pose proof (partial_spec _ _ _ _ _ H) as S.
  assert (Hall : forall m, In m (filter nonzero (prefix_ok n KEa (n_mes n))) -> 0 <= me_energy m /\ 0 <= me_str m /\ accessible n KEa m).
  { intros m Hin. apply filter_In in Hin. destruct Hin as [Hin _].
    apply In_nth_error in Hin. destruct Hin as [i Hi].
    assert (Li : (i < length (prefix_ok n KEa (n_mes n)))%nat) by (apply nth_error_Some; congruence).
    assert (Hi' : exists m', nth_error (n_mes n) i = Some m').
    { destruct (nth_error (n_mes n) i) eqn:E; [eexists; reflexivity|]. apply nth_error_None in E.
      pose proof (prefix_len n KEa (n_mes n)). lia. }
    destruct Hi' as [m' Hi']. destruct (prefix_nth _ _ _ _ _ Li Hi') as [E L]. rewrite E in Hi. injection Hi as ->.
    apply nth_error_In in Hi'. destruct Hm as (M1 & M2 & M3 & M4 & M5).
    rewrite Forall_forall in M5, Hst. assert (He : 0 <= me_energy m) by (apply M5; exact Hi').
    split; [exact He|]. split; [apply Hst; exact Hi'|]. apply access_iff; [|exact He|exact HK|exact L].
    repeat split; try assumption. apply Forall_forall. exact M5. }
  unfold nonneg. clear H. induction S as [|m w l ws' (b & E) S IH]; [constructor|]. constructor.
  - destruct (Hall m (or_introl eq_refl)) as (A & B & C). exact (proj1 (level_xs_nonneg n fermi KEa m w b Hm A B HK HF C E)).
  - apply IH. intros x Hx. apply Hall. right. exact Hx.
Qed.

(** ** The differential cross section is linear in the cosine *)

Lemma cos_pdf_linear ty beta : ty = 0%Z \/ ty = 1%Z ->
  exists b, forall c, cos_pdf ty c beta = Ok (1/2 + b * c).
Proof.
  intros [-> | ->]; unfold cos_pdf; cbn [Z.eqb Pos.eqb]; eexists; intros c; f_equal.
  - instantiate (1 := beta / 2). lra.
  - instantiate (1 := - beta / 6). lra.
Qed.

Lemma partial_linear n fermi KEa ms ws : Forall valid_type ms -> partial_xs n fermi KEa None ms = Ok ws ->
  exists b, forall c, exists wc, partial_xs n fermi KEa (Some c) ms = Ok wc /\ sumR wc = sumR ws / 2 + b * c.
Proof.
  intros HV. revert ws. induction HV as [|m r Hv Hr IH]; intros ws H; cbn [partial_xs] in *.
  { injection H as <-. exists 0. intros c. exists []. split; [reflexivity|]. cbn [sumR]. lra. }
  destruct (Rlt_dec _ _).
  { injection H as <-. exists 0. intros c. exists []. split; [reflexivity|]. cbn [sumR]. lra. }
  destruct (Req_EM_T (me_str m) 0); [apply IH; exact H|].
  destruct (level_xs n fermi KEa m) as [[xs b]|] eqn:E; cbn [bind] in H |- *; [|discriminate].
  destruct (partial_xs n fermi KEa None r) as [ws'|]; cbn [bind] in H; [|discriminate].
  injection H as <-. destruct (IH ws' eq_refl) as [b' Hb']. destruct (cos_pdf_linear (me_type m) b Hv) as [q Hq].
  exists (xs * q + b'). intros c. destruct (Hb' c) as (wc & E1 & E2). rewrite Hq, E1. cbn [bind].
  eexists. split; [reflexivity|]. cbn [sumR]. rewrite E2. lra.
Qed.

(** ** Angles *)

Lemma cos_pdf_max ty beta : 0 <= beta -> forall top,
  (if Z.eqb ty 0 then cos_pdf ty 1 beta else if Z.eqb ty 1 then cos_pdf ty (-1) beta else Er MarleyErr) = Ok top ->
  forall c, -1 <= c <= 1 -> value (cos_pdf ty c beta) <= top.
Proof.
  intros Hb top H c Hc. unfold cos_pdf in *. destruct (Z.eqb ty 0).
  - injection H as <-. cbn [value]. nra.
  - destruct (Z.eqb ty 1); [|discriminate]. injection H as <-. cbn [value]. nra.
Qed.

Lemma sample_cos_range ty beta draws fuel ct : (forall k, good_pair (draws k)) -> 0 <= beta ->
  sample_cos ty beta draws fuel = Ok ct -> -1 <= ct <= 1.
Proof.
  intros Hd Hb H. unfold sample_cos in H.
  destruct (if Z.eqb ty 0 then _ else _) as [top|] eqn:E; cbn [bind] in H; [|discriminate].
  match type of H with context [rejection_sample ?F _ _ _ _ _ _ _] => set (f := F) in * end.
  unfold rejection_sample in H.
  destruct (rejection f (-1) 1 top default_safety draws 0 fuel) as [[x m]|] eqn:ER; cbn [bind] in H; [|discriminate].
  injection H as <-. apply rejection_spec in ER. destruct ER as (k & _ & _ & -> & _).
  apply uniform_in; [lra|]. exact (proj1 (Hd _)).
Qed.

(** ** Events *)

Lemma create_inv n fermi gs ld pdg KEa d fuel ev : nuc_create n fermi gs ld pdg KEa d fuel = Ok ev ->
  pdg = r_a (n_r n) /\ threshold (n_ma n) (n_mb n) (n_mc n) (n_mdgs n) <= KEa /\ 0 < KEa /\
  exists ws me s Ec pc Ed ct g twoJ P,
    partial_xs n fermi KEa None (n_mes n) = Ok ws /\ ws <> [] /\ 0 < sumR ws /\
    nth_error (n_mes n) (discrete ws (d_level d)) = Some me /\
    (let k := mkmass (n_ma n) (n_mb n) (n_mc n) (n_mdgs n + me_energy me) in
     two_two_scatter k KEa = (s, Ec, pc, Ed) /\
     sample_cos (me_type me) (pc / Ec) (d_cos d) fuel = Ok ct /\
     gs = Ok g /\ residue_spin me g ld (d_spin d) = Ok (twoJ, P) /\
     make_event_object k (ids_of (n_r n)) (charges_of (n_r n)) KEa pc ct (uniform 0 (2 * PI) (d_phi d))
       Ec Ed (me_energy me) twoJ P = Ok ev).
Proof.
  intros H. unfold nuc_create in H. destruct (Z.eqb_spec pdg (r_a (n_r n))) as [E|E]; cbn [negb] in H; [|discriminate].
  split; [exact E|]. destruct (Rlt_dec KEa _) as [L|L]; [discriminate|]. split; [lra|].
  unfold summed_xs in H. rewrite E, Z.eqb_refl in H. cbn [negb] in H.
  destruct (Rle_dec KEa 0) as [K|K]; [cbn [bind] in H; discriminate|]. split; [lra|].
  destruct (partial_xs n fermi KEa None (n_mes n)) as [ws|] eqn:EP; cbn [bind] in H; [|discriminate].
  destruct ws as [|w ws]; [discriminate|]. destruct (Rle_dec (sumR (w :: ws)) 0) as [T|T]; [discriminate|].
  destruct (nth_error (n_mes n) _) as [me|] eqn:EN; [|discriminate].
  destruct (two_two_scatter _ KEa) as [[[s Ec] pc] Ed] eqn:ES.
  destruct (sample_cos _ _ _ _) as [ct|] eqn:EC; cbn [bind] in H; [|discriminate].
  destruct gs as [g|]; cbn [bind] in H; [|discriminate].
  destruct (residue_spin me g ld (d_spin d)) as [[J P]|] eqn:ER; cbn [bind] in H; [|discriminate].
  exists (w :: ws), me, s, Ec, pc, Ed, ct, g, J, P.
  split; [reflexivity|]. split; [discriminate|]. split; [lra|]. split; [exact EN|]. cbv zeta.
  repeat split; assumption.
Qed.

Lemma beta_nonneg k KEa s Ec pc Ed : 0 <= k_ma k -> 0 < k_mb k -> 0 <= k_mc k -> 0 <= k_md k -> 0 <= KEa ->
  (k_mc k + k_md k) ^ 2 <= (k_ma k + k_mb k) ^ 2 + 2 * k_mb k * KEa ->
  two_two_scatter k KEa = (s, Ec, pc, Ed) -> 0 <= pc / Ec.
Proof.
  intros Ha Hb Hc Hd HK Hthr E. unfold two_two_scatter in E. cbv zeta in E.
  assert (Es : s = k_ma k * k_ma k + k_mb k * k_mb k + 2 * k_mb k * (KEa + k_ma k)) by congruence.
  rewrite <- Es in E.
  assert (EEc : Ec = (s + k_mc k * k_mc k - k_md k * k_md k) / (2 * sqrt s)) by congruence.
  rewrite <- EEc in E. assert (Ep : pc = real_sqrt (Ec ^ 2 - k_mc k * k_mc k)) by congruence.
  assert (Hs : (k_mc k + k_md k) ^ 2 <= s) by (rewrite Es; lra).
  assert (Hs0 : 0 < s) by (rewrite Es; clear - Ha Hb HK; nra).
  pose proof (sqrt_lt_R0 s Hs0) as Hr.
  assert (HEc : 0 <= Ec).
  { assert (k_md k * k_md k <= (k_mc k + k_md k) ^ 2) by nra.
    rewrite EEc. apply Rmult_le_pos; [clear EEc; nra|]. left. apply Rinv_0_lt_compat. lra. }
  assert (Hp : 0 <= pc). { rewrite Ep. unfold real_sqrt. destruct (Rlt_dec _ _); [lra|apply sqrt_pos]. }
  destruct (Req_dec Ec 0) as [Z1|Z1].
  - assert (pc = 0) as ->.
    { rewrite Ep. unfold real_sqrt. destruct (Rlt_dec _ _) as [L|L]; [reflexivity|].
      replace (Ec ^ 2 - k_mc k * k_mc k) with 0; [apply sqrt_0|]. nra. }
    unfold Rdiv. lra.
  - apply Rmult_le_pos; [exact Hp|]. left. apply Rinv_0_lt_compat. lra.
Qed.

(** ** Electrons *)

Lemma el_terms_nonneg g1 g2 r c : 0 <= r -> -1 <= c <= 1 ->
  0 <= g1 ^ 2 + g1 * g2 * r * (c - 1) + (g2 * (1 + 1 / 2 * (1 - r) * (c - 1))) ^ 2.
Proof.
  intros Hr Hc. set (x := 1 - c). replace (c - 1) with (- x) by (unfold x; ring).
  assert (Hx : 0 <= x <= 2) by (unfold x; lra).
  set (D := 1 + 1 / 2 * (1 - r) * - x).
  assert (HD : r * x <= 2 * D) by (unfold D; nra).
  assert (Hrx : 0 <= r * x) by nra.
  destruct (Rle_dec 0 (g1 * g2)) as [H|H].
  - assert (g1 * g2 * (r * x) <= g1 * g2 * (2 * D)) by (apply Rmult_le_compat_l; lra).
    pose proof (pow2_ge_0 (g1 - g2 * D)). nra.
  - assert (0 <= - (g1 * g2) * (r * x)) by (apply Rmult_le_pos; lra).
    pose proof (pow2_ge_0 g1). pose proof (pow2_ge_0 (g2 * D)). nra.
Qed.

Lemma quad_max a b q c : 0 <= q -> -1 <= c <= 1 ->
  a + b * c + q * c ^ 2 <= Rmax (a + b * -1 + q * (-1) ^ 2) (a + b * 1 + q * 1 ^ 2).
Proof.
  intros Hq Hc. assert (Hc2 : c ^ 2 <= 1) by nra.
  assert (q * c ^ 2 <= q * 1) by (apply Rmult_le_compat_l; assumption).
  destruct (Rle_dec 0 b) as [L|L].
  - apply Rle_trans with (a + b * 1 + q * 1 ^ 2); [nra|apply Rmax_r].
  - apply Rle_trans with (a + b * -1 + q * (-1) ^ 2); [nra|apply Rmax_l].
Qed.
