(** Theorems about the optical model (Optical.v). *)
From Coq Require Import List ZArith Reals Bool Lia Lra.
From Verif Require Import Base Dbl Pdg Mass Strength Optical.
Import ListNotations.
Open Scope R_scope.

(** ** C69: optical model *)

(** Whatever the Coulomb functions give, a transmission coefficient is between 0 and 1; at
    non-positive energies it is 0. *)
Theorem C69_bounds H fuel t k s K pdg two_j l two_s q s' T :
  om_T H fuel t k s K pdg two_j l two_s q = (s', Ok T) -> 0 <= T <= 1 /\ (K <= 0 -> T = 0).
Proof.
  unfold om_T. destruct (Rle_dec K 0) as [L|L].
  - intros E. injection E as _ <-. split; [lra|reflexivity].
  - destruct (prepare _ _ _ _ _ _ _ _) as [s1|]; [|discriminate]. destruct (s_matrix _ _ _ _ _) as [sm|]; [|discriminate]. cbn [bind].
    intros E. injection E as _ <-. split; [|intros; lra]. unfold clamp_T. destruct sm as [x|]; [|lra].
    assert (0 <= Rmin 1 (Rmax 0 (cnorm x)) <= 1).
    { split; [apply Rmin_glb; [lra|apply Rmax_l]|apply Rmin_l]. }
    lra.
Qed.
Print Assumptions C69_bounds.

(** The answers of one object do not depend on what it was asked before. *)
Inductive omcall : Type :=
| AskPotential (r T : R) (pdg two_j l two_s q : Z)
| AskT (K : R) (pdg two_j l two_s q : Z)
| AskXs (T : R) (pdg two_s lmax q : Z).
Inductive omanswer : Type := APot (x : res cpx) | AT (x : res R) | AXs (x : res (option R)).

Definition ask H fuel t k (s : kst) (c : omcall) : kst * omanswer :=
  match c with
  | AskPotential r T pdg two_j l two_s q => let '(s', x) := om_potential t k s r T pdg two_j l two_s q in (s', APot x)
  | AskT K pdg two_j l two_s q => let '(s', x) := om_T H fuel t k s K pdg two_j l two_s q in (s', AT x)
  | AskXs T pdg two_s lmax q => let '(s', x) := om_xs H fuel t k s T pdg two_s lmax q in (s', AXs x)
  end.

Fixpoint ask_all H fuel t k (s : kst) (l : list omcall) : list omanswer :=
  match l with
  | [] => []
  | c :: r => let '(s', x) := ask H fuel t k s c in x :: ask_all H fuel t k s' r
  end.

Theorem C69_history H fuel t k s s0 l : ask_all H fuel t k s l = map (fun c => snd (ask H fuel t k s0 c)) l.
Proof.
  revert s. induction l as [|c l IH]; intros s; [reflexivity|]. cbn [ask_all map].
  destruct (ask H fuel t k s c) as [s1 x] eqn:E. rewrite IH. f_equal.
  destruct c; cbn [ask] in E |- *; unfold om_potential, om_T, om_xs in *.
  - destruct (bind _ _); injection E as _ <-; reflexivity.
  - destruct (Rle_dec K 0); [injection E as _ <-; reflexivity|]. destruct (prepare _ _ _ _ _ _ _ _); injection E as _ <-; reflexivity.
  - destruct (bind _ _); injection E as _ <-; reflexivity.
Qed.
Print Assumptions C69_history.

(** Kinematics: the total kinetic energy [K] in the centre-of-mass frame, the fragment's
    energy [T] in the target's rest frame and the common momentum belong to the same
    motion. *)
Lemma lab_back M m T : 0 < M -> 0 < m -> 0 <= T -> lab_energy M m (cm_energy M m T) = T.
Proof.
  intros PM Pm HT. unfold cm_energy, real_sqrt. assert (PT : 0 <= M * T) by (apply Rmult_le_pos; lra).
  pose proof (pow2_ge_0 (M + m)) as P2. destruct (Rlt_dec ((M + m) ^ 2 + 2 * M * T) 0); [lra|].
  set (q := sqrt _). assert (Hq : M + m <= q).
  { unfold q. rewrite <- (sqrt_pow2 (M + m)) at 1 by lra. apply sqrt_le_1_alt. lra. }
  assert (Q2 : q ^ 2 = (M + m) ^ 2 + 2 * M * T) by (unfold q; rewrite pow2_sqrt by lra; reflexivity).
  rewrite Rmax_right by lra. unfold lab_energy. replace ((q - m - M) * (2 * (m + M) + (q - m - M))) with (q ^ 2 - (M + m) ^ 2) by ring.
  rewrite Q2. field. lra.
Qed.

Theorem C69_kinematics M m K : 0 < M -> 0 < m -> 0 <= K ->
  let T := lab_energy M m K in
  let p2 := cm_momentum2 M m T in
  (m + T + M) ^ 2 - ((m + T) ^ 2 - m ^ 2) = (M + m + K) ^ 2 /\
  0 <= p2 /\ sqrt (M ^ 2 + p2) + sqrt (m ^ 2 + p2) = M + m + K /\
  cm_energy M m T = K.
Proof.
  intros PM Pm HK T p2.
  assert (ET : 2 * M * T = K * (2 * (m + M) + K)) by (unfold T, lab_energy; field; lra).
  assert (HT : 0 <= T).
  { unfold T, lab_energy. apply Rmult_le_pos; [apply Rmult_le_pos; lra|left; apply Rinv_0_lt_compat; lra]. }
  set (W := M + m + K). assert (PW : 0 < W) by (unfold W; lra).
  assert (ES : (m + M) ^ 2 + 2 * M * T = W ^ 2) by (rewrite ET; unfold W; ring).
  split; [replace ((m + T + M) ^ 2 - ((m + T) ^ 2 - m ^ 2)) with ((m + M) ^ 2 + 2 * M * T) by ring; exact ES|].
  assert (EP : p2 = M ^ 2 * T * (2 * m + T) / W ^ 2) by (unfold p2, cm_momentum2; rewrite ES; reflexivity).
  assert (P0 : 0 <= p2).
  { rewrite EP. apply Rmult_le_pos; [|left; apply Rinv_0_lt_compat; apply pow_lt; exact PW].
    apply Rmult_le_pos; [|lra]. apply Rmult_le_pos; [apply pow2_ge_0|exact HT]. }
  split; [exact P0|].
  assert (T2 : T = (W ^ 2 - (m + M) ^ 2) / (2 * M)) by (rewrite <- ES; field; lra).
  assert (E1 : M ^ 2 + p2 = ((W ^ 2 + M ^ 2 - m ^ 2) / (2 * W)) ^ 2).
  { rewrite EP, T2. field. split; lra. }
  assert (E2 : m ^ 2 + p2 = ((W ^ 2 - M ^ 2 + m ^ 2) / (2 * W)) ^ 2).
  { rewrite EP, T2. field. split; lra. }
  split.
  - rewrite E1, E2. assert (m ^ 2 < W ^ 2) by (unfold W; nra).
    assert (M ^ 2 < W ^ 2) by (unfold W; nra).
    assert (0 < W ^ 2 + M ^ 2 - m ^ 2) by (pose proof (pow2_ge_0 M); lra).
    assert (0 < W ^ 2 - M ^ 2 + m ^ 2) by (pose proof (pow2_ge_0 m); lra).
    rewrite !sqrt_pow2 by (apply Rmult_le_pos; [lra|left; apply Rinv_0_lt_compat; lra]). fold W. field. lra.
  - unfold cm_energy, real_sqrt. replace ((M + m) ^ 2 + 2 * M * T) with (W ^ 2) by (rewrite <- ES; ring).
    destruct (Rlt_dec (W ^ 2) 0) as [N|_]; [pose proof (pow2_ge_0 W); lra|]. rewrite sqrt_pow2 by lra. unfold W. rewrite Rmax_right; lra.
Qed.
Print Assumptions C69_kinematics.

(** The shape of the wells and its derivative. *)
Lemma ws_derivative r c a : a <> 0 ->
  derivable_pt_lim (fun x => 1 / (1 + exp ((x - c) / a))) r (- exp ((r - c) / a) / (a * (1 + exp ((r - c) / a)) ^ 2)).
Proof.
  intros Ha. set (g := fun x => 1 + exp ((x - c) / a)).
  assert (D : derivable_pt_lim g r (exp ((r - c) / a) * / a)).
  { unfold g. replace (exp ((r - c) / a) * / a) with (0 + exp ((r - c) / a) * / a) by ring.
    apply derivable_pt_lim_plus; [apply derivable_pt_lim_const|].
    apply (derivable_pt_lim_comp (fun x => (x - c) / a) exp).
    - replace (/ a) with ((1 - 0) * / a + (r - c) * 0) by ring. apply (derivable_pt_lim_mult (fun x => x - c) (fun _ => / a)).
      + apply derivable_pt_lim_minus; [apply derivable_pt_lim_id|apply derivable_pt_lim_const].
      + apply derivable_pt_lim_const.
    - apply derivable_pt_lim_exp. }
  assert (Pg : g r <> 0) by (unfold g; pose proof (exp_pos ((r - c) / a)); lra).
  pose proof (derivable_pt_lim_div (fun _ => 1) g r 0 _ (derivable_pt_lim_const 1 r) D Pg) as I. unfold g in I.
  match type of I with derivable_pt_lim _ _ ?v => replace (- exp ((r - c) / a) / (a * (1 + exp ((r - c) / a)) ^ 2)) with v end; [exact I|].
  unfold Rsqr. pose proof (exp_pos ((r - c) / a)). field. split; lra.
Qed.

Theorem C69_shape r c a : 0 < a ->
  0 < woods_saxon r c a < 1 /\ woods_saxon c c a = 1 / 2 /\
  (forall r', r < r' -> woods_saxon r' c a < woods_saxon r c a) /\
  exists d, derivable_pt_lim (fun x => woods_saxon x c a) r d /\ d < 0 /\
    (Rabs (r - c) <= 100 * a -> dwoods_saxon r c a = d) /\
    Rabs (dwoods_saxon r c a - d) < exp (- 100) / a /\ dwoods_saxon r c a <= 0.
Proof.
  intros Ha. set (e := fun x => exp ((x - c) / a)). assert (Pe : forall x, 0 < e x) by (intros; apply exp_pos).
  assert (W : forall x, woods_saxon x c a = / (1 + e x)) by reflexivity.
  split; [|split; [|split]].
  - rewrite W. specialize (Pe r). split; [apply Rinv_0_lt_compat; lra|]. rewrite <- Rinv_1. apply Rinv_lt_contravar; lra.
  - unfold woods_saxon. replace ((c - c) / a) with 0 by (field; lra). rewrite exp_0. lra.
  - intros r' L. rewrite !W. assert (e r < e r').
    { unfold e. apply exp_increasing. apply Rmult_lt_compat_r; [apply Rinv_0_lt_compat; exact Ha|lra]. }
    pose proof (Pe r). apply Rinv_lt_contravar; [apply Rmult_lt_0_compat; lra|lra].
  - pose proof (ws_derivative r c a ltac:(lra)) as D. fold (e r) in D. set (d := - e r / (a * (1 + e r) ^ 2)) in D. exists d. pose proof (Pe r) as P.
    assert (PD : 0 < a * (1 + e r) ^ 2) by (apply Rmult_lt_0_compat; [exact Ha|apply pow_lt; lra]).
    assert (ND : d < 0) by (unfold d; assert (0 < e r / (a * (1 + e r) ^ 2)) by (apply Rmult_lt_0_compat; [exact P|apply Rinv_0_lt_compat; exact PD]); unfold Rdiv in *; lra).
    split; [|split; [exact ND|split; [|]]].
    + intros eps He. destruct (D eps He) as [dl Hd]. exists dl. intros h Hh Hl. specialize (Hd h Hh Hl). unfold woods_saxon.
      unfold Rdiv in Hd at 2 4. rewrite !Rmult_1_l in Hd. exact Hd.
    + intros L. unfold dwoods_saxon. cbv zeta. destruct (Rlt_dec 100 (Rabs ((r - c) / a))) as [N|_]; [|reflexivity]. exfalso.
      unfold Rdiv in N. rewrite Rabs_mult, (Rabs_right (/ a)) in N by (left; apply Rinv_0_lt_compat; exact Ha).
      apply (Rmult_lt_compat_r a) in N; [|exact Ha]. rewrite Rmult_assoc, Rinv_l in N by lra. lra.
    + unfold dwoods_saxon. cbv zeta. fold (e r). fold d. destruct (Rlt_dec 100 (Rabs ((r - c) / a))) as [N|_].
      2: { split; [|lra]. rewrite Rminus_diag_eq by reflexivity. rewrite Rabs_R0. apply Rmult_lt_0_compat; [apply exp_pos|apply Rinv_0_lt_compat; exact Ha]. }
      split; [|lra]. replace (0 - d) with (- d) by ring.
      assert (B : - d < exp (- 100) / a).
      { unfold d. replace (- (- e r / (a * (1 + e r) ^ 2))) with (e r / (1 + e r) ^ 2 * / a) by (field; split; lra). unfold Rdiv at 2.
        apply Rmult_lt_compat_r; [apply Rinv_0_lt_compat; exact Ha|]. set (x := (r - c) / a) in *. assert (Ex : e r = exp x) by reflexivity. rewrite Ex in *.
        unfold Rabs in N. destruct (Rcase_abs x) as [L|L].
        - assert (exp x < exp (- 100)) by (apply exp_increasing; lra). apply Rle_lt_trans with (exp x); [|assumption].
          rewrite <- (Rmult_1_r (exp x)) at 3. unfold Rdiv. apply Rmult_le_compat_l; [lra|]. rewrite <- Rinv_1. apply Rinv_le_contravar; [lra|]. nra.
        - assert (exp (- x) < exp (- 100)) by (apply exp_increasing; lra). apply Rle_lt_trans with (exp (- x)); [|assumption].
          rewrite exp_Ropp. replace (exp x / (1 + exp x) ^ 2) with (/ ((1 + exp x) ^ 2 / exp x)) by (field; split; lra).
          apply Rinv_le_contravar; [lra|]. apply (Rmult_le_reg_r (exp x)); [lra|]. unfold Rdiv. rewrite Rmult_assoc, Rinv_l by lra. nra. }
      rewrite Rabs_right by lra. exact B.
Qed.
Print Assumptions C69_shape.

(** The Coulomb potential is that of a uniformly charged sphere: continuous, with the field of
    the charge enclosed. *)
Theorem C69_coulomb c Q q : 0 < c -> (Q <> 0)%Z -> (q <> 0)%Z ->
  let e2 := IZR Q * IZR q * (1973269718 / 10 ^ 7) * (72973525698 / 10 ^ 13) in
  (forall r, c <= r -> coulomb r c Q q = e2 / r) /\
  (forall r, 0 < r < c -> derivable_pt_lim (fun x => coulomb x c Q q) r (- e2 * (r / c) ^ 3 / r ^ 2)) /\
  (forall eps, 0 < eps -> exists d, 0 < d /\ forall r, c - d < r < c -> Rabs (coulomb r c Q q - coulomb c c Q q) < eps).
Proof.
  intros Pc HQ Hq e2.
  assert (E : forall r, coulomb r c Q q = if Rlt_dec r c then e2 * (3 - (r / c) ^ 2) / (2 * c) else e2 / r).
  { intros r. unfold coulomb. destruct (Z.eqb_spec Q 0); [contradiction|]. destruct (Z.eqb_spec q 0); [contradiction|]. cbn [orb].
    rewrite mult_IZR. unfold e2, hbar_c, fine_structure. destruct (Rlt_dec r c); unfold Rdiv; ring. }
  set (g := fun x => e2 * (3 - (x / c) ^ 2) / (2 * c)).
  assert (G : forall r, derivable_pt_lim g r (- e2 * r / c ^ 3)).
  { intros r. assert (X : forall x, g x = (e2 * 3 / (2 * c)) - (e2 / (2 * c ^ 3)) * (x * x)) by (intros x; unfold g; field; lra).
    intros eps He.
    pose proof (derivable_pt_lim_minus (fun _ => e2 * 3 / (2 * c)) (fun x => (e2 / (2 * c ^ 3)) * (x * x)) r 0 ((e2 / (2 * c ^ 3)) * (1 * r + r * 1))
      (derivable_pt_lim_const _ r) (derivable_pt_lim_scal (fun x => x * x) _ r _ (derivable_pt_lim_mult id id r 1 1 (derivable_pt_lim_id r) (derivable_pt_lim_id r)))) as D.
    destruct (D eps He) as [dl Hd]. exists dl. intros h Hh Hl. specialize (Hd h Hh Hl). unfold minus_fct in Hd. rewrite !X.
    replace (- e2 * r / c ^ 3) with (0 - e2 / (2 * c ^ 3) * (1 * r + r * 1)) by (field; lra). exact Hd. }
  split; [|split].
  - intros r L. rewrite E. destruct (Rlt_dec r c); [lra|reflexivity].
  - intros r [L1 L2]. replace (- e2 * (r / c) ^ 3 / r ^ 2) with (- e2 * r / c ^ 3) by (field; lra).
    intros eps He. destruct (G r eps He) as [dl Hd]. assert (PM : 0 < Rmin dl (c - r)) by (apply Rmin_glb_lt; [apply cond_pos|lra]).
    exists (mkposreal _ PM). intros h Hh Hl. cbn [pos] in Hl. rewrite !E.
    assert (Rabs h < dl) by (eapply Rlt_le_trans; [exact Hl|apply Rmin_l]).
    assert (Rabs h < c - r) by (eapply Rlt_le_trans; [exact Hl|apply Rmin_r]).
    pose proof (Rle_abs h). destruct (Rlt_dec (r + h) c); [|lra]. destruct (Rlt_dec r c); [|lra]. apply Hd; assumption.
  - intros eps He. assert (Cc : coulomb c c Q q = g c). { rewrite E. destruct (Rlt_dec c c); [lra|]. unfold g. field. lra. }
    assert (CT : continuity_pt g c) by (apply derivable_continuous_pt; exists (- e2 * c / c ^ 3); apply G).
    destruct (CT eps He) as (d & Pd & Hd). exists d. split; [exact Pd|]. intros r Hr. rewrite Cc, E. destruct (Rlt_dec r c); [|lra].
    specialize (Hd r). cbn in Hd. unfold R_dist in Hd. apply Hd. split; [split; [exact I|lra]|]. rewrite Rabs_left; lra.
Qed.
Print Assumptions C69_coulomb.

(** ** Nucleons: the published potential *)

(** Central depths and spin-orbit strengths at energy [e] above the Fermi energy. *)
Definition depth (a b c d e : R) : R := a * (1 - b * e + c * e ^ 2 - d * e ^ 3).
Definition absorb (w b e : R) : R := w * e ^ 2 / (e ^ 2 + b ^ 2).
Definition surface (w b c e : R) : R := w * e ^ 2 * exp (- c * e) / (e ^ 2 + b ^ 2).

(** [U] is the potential at [r] made of central wells of depth [V] + i [W], a surface term
    [D], spin-orbit terms [Vs] + i [Ws] times [ls] (the eigenvalue of l.sigma) and the
    Coulomb potential [C]: wells at radius [Rw] with diffuseness [aw], surface [Rs], [as_] and
    spin-orbit [Rl], [al]. *)
Definition composed (r V W D Vs Ws ls C Rw aw Rs as_ Rl al : R) (U : cpx) : Prop :=
  exists ds dl,
    derivable_pt_lim (fun x => 1 / (1 + exp ((x - Rs) / as_))) r ds /\
    derivable_pt_lim (fun x => 1 / (1 + exp ((x - Rl) / al))) r dl /\
    let well := 1 / (1 + exp ((r - Rw) / aw)) in
    let lso := ls * (1973269718 / 10 ^ 7 / (13957018 / 10 ^ 5)) ^ 2 * dl / r in
    fst U = - V * well + Vs * lso + C /\ snd U = - W * well + 4 * as_ * D * ds + Ws * lso.

(** The eigenvalue of l.sigma for spin one half. *)
Definition l_sigma (two_j l : Z) (ls : R) : Prop :=
  (two_j = (2 * l + 1)%Z /\ ls = IZR l) \/ (two_j = (2 * l - 1)%Z /\ ls = - IZR (l + 1)).

Definition kd_Rw (c : R) : R := 1.3039 * c - 0.4054.
Definition kd_aw (A : R) : R := 0.6778 - 1.487 / 10 ^ 4 * A.
Definition kd_Rs (c : R) : R := 1.3424 * c - 0.01585 * c ^ 2.
Definition kd_Rl (c : R) : R := 1.1854 * c - 0.647.

Lemma so_eigenvalue two_j l ls : l_sigma two_j l ls -> 1 / 4 * IZR ((two_j - 1) * (two_j + 1 + 2)) - IZR (l * (l + 1)) = ls.
Proof.
  intros [[-> ->]|[-> ->]]; repeat first [rewrite plus_IZR | rewrite minus_IZR | rewrite mult_IZR]; field.
Qed.

Lemma dws_eq r c a : 0 < a -> Rabs (r - c) <= 100 * a ->
  derivable_pt_lim (fun x => 1 / (1 + exp ((x - c) / a))) r (dwoods_saxon r c a).
Proof.
  intros Ha L. unfold dwoods_saxon. cbv zeta. destruct (Rlt_dec 100 (Rabs ((r - c) / a))) as [N|_].
  - exfalso. unfold Rdiv in N. rewrite Rabs_mult, (Rabs_right (/ a)) in N by (left; apply Rinv_0_lt_compat; exact Ha).
    apply (Rmult_lt_compat_r a) in N; [|exact Ha]. rewrite Rmult_assoc, Rinv_l in N by lra. lra.
  - apply ws_derivative. lra.
Qed.

Lemma composed_intro o r C : 0 < o_ad o -> 0 < o_aso o -> Rabs (r - o_Rd o) <= 100 * o_ad o -> Rabs (r - o_Rso o) <= 100 * o_aso o ->
  composed r (o_Vv o) (o_Wv o) (o_Wd o) (o_Vso o) (o_Wso o) (o_so o) C (o_Rv o) (o_av o) (o_Rd o) (o_ad o) (o_Rso o) (o_aso o)
    (cadd (omp_minus_Vc o r) (cre C)).
Proof.
  intros Pd Ps L1 L2. exists (dwoods_saxon r (o_Rd o) (o_ad o)), (dwoods_saxon r (o_Rso o) (o_aso o)).
  split; [apply dws_eq; assumption|]. split; [apply dws_eq; assumption|]. cbv zeta. unfold omp_minus_Vc. cbv zeta.
  assert (EW : woods_saxon r (o_Rv o) (o_av o) = 1 / (1 + exp ((r - o_Rv o) / o_av o))) by (unfold woods_saxon; lra). rewrite EW.
  assert (EP : pion_wavelength2 = (1973269718 / 10 ^ 7 / (13957018 / 10 ^ 5)) ^ 2) by (unfold pion_wavelength2, hbar_c; ring). rewrite EP.
  set (lam := (_ / (13957018 / 10 ^ 5)) ^ 2). clearbody lam. set (w := 1 / _). clearbody w.
  destruct (Req_EM_T (o_so o) 0) as [E|N]; unfold cadd, cre; cbn [fst snd]; [rewrite E|]; unfold Rdiv; split; ring.
Qed.

Theorem C69_neutron t Zn A step s s' r T two_j l ls q U c M m : (0 < A <= 3288)%Z -> 0 < c -> c ^ 3 = IZR A -> 
  target_mass t (new_kd Zn A step) q = Ok M -> particle_mass t 2112 = Ok m -> 0 < M -> 0 < m -> 0 <= T ->
  l_sigma two_j l ls ->
  let a := IZR A in let asym := (IZR (A - Zn) - IZR Zn) / a in
  let aS := 0.5446 - 1.656 / 10 ^ 4 * a in
  Rabs (r - kd_Rs c) <= 100 * aS -> Rabs (r - kd_Rl c) <= 59 ->
  om_potential t (new_kd Zn A step) s r T 2112 two_j l 1 q = (s', Ok U) ->
  let e := T - (- 11.2814 + 0.02646 * a) in
  composed r (depth (59.30 - 21.0 * asym - 0.024 * a) (0.007228 - 1.48 / 10 ^ 6 * a) (1.994 / 10 ^ 5 - 2.0 / 10 ^ 8 * a) (7 / 10 ^ 9) e)
    (absorb (12.195 + 0.0167 * a) (73.55 + 0.0795 * a) e)
    (surface (16.0 - 16.0 * asym) 11.5 (0.0180 + 0.003802 / (1 + exp ((a - 156) / 8))) e)
    ((5.922 + 0.0030 * a) * exp (- 0.0040 * e)) (absorb (- 3.1) 160 e) ls 0
    (kd_Rw c) (kd_aw a) (kd_Rs c) aS (kd_Rl c) 0.59 U.
Proof.
  intros HA Pc C3 HM Hm PM Pm HT Hls a asym aS L1 L2 H e.
  assert (PA : 0 < a) by (unfold a; apply IZR_lt; lia). assert (UA : a <= 3288) by (unfold a; apply IZR_le; lia).
  assert (Ec : Rpower (IZR A) (1 / 3) = c).
  { rewrite <- C3, <- Rpower_pow by exact Pc. rewrite Rpower_mult. replace (INR 3 * (1 / 3)) with 1 by (cbn [INR]; lra). apply Rpower_1. exact Pc. }
  unfold om_potential, prepare in H. rewrite HM, Hm in H. cbn [bind] in H. injection H as <- <-. cbn [s_om]. rewrite lab_back by assumption.
  set (o := om_parameters _ _ _ _ _ _).
  assert (EU : omp_at (new_kd Zn A step) o r = cadd (omp_minus_Vc o r) (cre 0)).
  { unfold omp_at. assert (Z0 : o_z o = 0%Z) by reflexivity. rewrite Z0. reflexivity. }
  rewrite EU.
  assert (F : o_Rv o = kd_Rw c /\ o_av o = kd_aw a /\ o_Rd o = kd_Rs c /\ o_ad o = aS /\ o_Rso o = kd_Rl c /\ o_aso o = 0.59).
  { unfold o, om_parameters. change (particle_Z 2112) with 0%Z. change (particle_A 2112) with 1%Z. cbn [Z.sub Z.ltb Z.compare Pos.compare Pos.compare_cont Z.opp Z.add].
    unfold new_kd. cbn [k_n k_p Rv av Rd ad Rso aso o_Rv o_av o_Rd o_ad o_Rso o_aso]. rewrite Ec. unfold kd_Rw, kd_aw, kd_Rs, kd_Rl, aS. fold a.
    repeat split; lra. }
  destruct F as (F1 & F2 & F3 & F4 & F5 & F6).
  assert (G : o_Vv o = depth (59.30 - 21.0 * asym - 0.024 * a) (0.007228 - 1.48 / 10 ^ 6 * a) (1.994 / 10 ^ 5 - 2.0 / 10 ^ 8 * a) (7 / 10 ^ 9) e /\
    o_Wv o = absorb (12.195 + 0.0167 * a) (73.55 + 0.0795 * a) e /\
    o_Wd o = surface (16.0 - 16.0 * asym) 11.5 (0.0180 + 0.003802 / (1 + exp ((a - 156) / 8))) e /\
    o_Vso o = (5.922 + 0.0030 * a) * exp (- 0.0040 * e) /\ o_Wso o = absorb (- 3.1) 160 e /\ o_so o = ls).
  { unfold o, om_parameters. change (particle_Z 2112) with 0%Z. change (particle_A 2112) with 1%Z. cbn [Z.sub Z.ltb Z.compare Pos.compare Pos.compare_cont Z.opp Z.add].
    cbn [Z.eqb andb negb]. rewrite (so_eigenvalue two_j l ls Hls).
    unfold new_kd. cbn [k_n k_p k_Vcbar v1 v2 v3 v4 w1 w2 d1 d2 d3 vso1 vso2 wso1 wso2 Ef o_Vv o_Wv o_Wd o_Vso o_Wso o_so]. fold a. replace (T / 1) with T by field.
    assert (Ee : T - (- 112814 / 10 ^ 4 + 2646 / 10 ^ 5 * a) = e) by (unfold e; lra). rewrite Ee. clearbody e.
    assert (EA : IZR (A - Zn - Zn) / a = asym) by (unfold asym; rewrite minus_IZR; reflexivity).
    unfold Rdiv in EA. 
    assert (EA1 : 21 * IZR (A - Zn - Zn) / a = 21 * asym) by (rewrite <- EA; unfold Rdiv; ring).
    assert (EA2 : 16 * IZR (A - Zn - Zn) / a = 16 * asym) by (rewrite <- EA; unfold Rdiv; ring).
    rewrite EA1, EA2. clearbody asym. unfold depth, absorb, surface. set (x := 1 + exp _). clearbody x.
    split; [lra|]. split; [|split; [|split; [|split; [|reflexivity]]]].
    - rewrite Rplus_0_r. apply (f_equal2 Rdiv); [lra|]. replace (7355 / 100 + 795 / 10 ^ 4 * a) with (73.55 + 0.0795 * a) by lra. reflexivity.
    - rewrite Rplus_0_r. replace (180 / 10 ^ 4 + 3802 / 10 ^ 6 / x) with (0.0180 + 0.003802 / x) by (unfold Rdiv; lra).
      set (y := exp _). clearbody y. apply (f_equal2 Rdiv); lra.
    - rewrite Rplus_0_r. apply (f_equal2 Rmult); [lra|]. f_equal. lra.
    - rewrite Rplus_0_r. apply (f_equal2 Rdiv); lra. }
  destruct G as (G1 & G2 & G3 & G4 & G5 & G6). clearbody o.
  rewrite <- F1, <- F2, <- F3, <- F4, <- F5, <- F6, <- G1, <- G2, <- G3, <- G4, <- G5, <- G6.
  apply composed_intro; rewrite ?F3, ?F4, ?F5, ?F6; try assumption; try lra. unfold aS. lra.
Qed.
Print Assumptions C69_neutron.

Definition kd_Rc (c : R) : R := 1.198 * c + 0.697 / c + 12.994 / c ^ 4.

Theorem C69_proton t Zn A step s s' r T two_j l ls q U c M m : (0 < A)%Z -> 0 < c -> c ^ 3 = IZR A ->
  target_mass t (new_kd Zn A step) q = Ok M -> particle_mass t 2212 = Ok m -> 0 < M -> 0 < m -> 0 <= T ->
  l_sigma two_j l ls ->
  let a := IZR A in let asym := (IZR (A - Zn) - IZR Zn) / a in
  let aS := 0.5187 + 5.205 / 10 ^ 4 * a in
  Rabs (r - kd_Rs c) <= 100 * aS -> Rabs (r - kd_Rl c) <= 59 ->
  om_potential t (new_kd Zn A step) s r T 2212 two_j l 1 q = (s', Ok U) ->
  let e := T - (- 8.4075 + 0.01378 * a) in
  let b1 := 59.30 + 21.0 * asym - 0.024 * a in
  let b2 := 0.007067 + 4.23 / 10 ^ 6 * a in
  let b3 := 1.729 / 10 ^ 5 + 1.136 / 10 ^ 8 * a in
  let b4 := 7 / 10 ^ 9 in
  composed r (depth b1 b2 b3 b4 e + 1.73 * IZR Zn / kd_Rc c * b1 * (b2 - 2 * b3 * e + 3 * b4 * e ^ 2))
    (absorb (14.667 + 0.009629 * a) (73.55 + 0.0795 * a) e)
    (surface (16.0 + 16.0 * asym) 11.5 (0.0180 + 0.003802 / (1 + exp ((a - 156) / 8))) e)
    ((5.922 + 0.0030 * a) * exp (- 0.0040 * e)) (absorb (- 3.1) 160 e) ls (coulomb r (kd_Rc c) 1 Zn)
    (kd_Rw c) (kd_aw a) (kd_Rs c) aS (kd_Rl c) 0.59 U.
Proof.
  intros HA Pc C3 HM Hm PM Pm HT Hls a asym aS L1 L2 H e b1 b2 b3 b4.
  assert (PA : 0 < a) by (unfold a; apply IZR_lt; lia).
  assert (Ec : Rpower (IZR A) (1 / 3) = c).
  { rewrite <- C3, <- Rpower_pow by exact Pc. rewrite Rpower_mult. replace (INR 3 * (1 / 3)) with 1 by (cbn [INR]; lra). apply Rpower_1. exact Pc. }
  unfold om_potential, prepare in H. rewrite HM, Hm in H. cbn [bind] in H. injection H as <- <-. cbn [s_om]. rewrite lab_back by assumption.
  assert (ER : k_Rc (new_kd Zn A step) = kd_Rc c).
  { unfold new_kd. cbn [k_Rc]. rewrite Ec. unfold kd_Rc, Rdiv. lra. }
  set (o := om_parameters _ _ _ _ _ _).
  assert (EU : omp_at (new_kd Zn A step) o r = cadd (omp_minus_Vc o r) (cre (coulomb r (kd_Rc c) 1 Zn))).
  { unfold omp_at. rewrite ER. reflexivity. }
  rewrite EU.
  assert (F : o_Rv o = kd_Rw c /\ o_av o = kd_aw a /\ o_Rd o = kd_Rs c /\ o_ad o = aS /\ o_Rso o = kd_Rl c /\ o_aso o = 0.59).
  { unfold o, om_parameters. change (particle_Z 2212) with 1%Z. change (particle_A 2212) with 1%Z. change (1 - 1)%Z with 0%Z. cbn [Z.sub Z.ltb Z.compare Pos.compare Pos.compare_cont Z.opp Z.add].
    unfold new_kd. cbn [k_n k_p Rv av Rd ad Rso aso o_Rv o_av o_Rd o_ad o_Rso o_aso]. rewrite Ec. unfold kd_Rw, kd_aw, kd_Rs, kd_Rl, aS. fold a.
    repeat split; lra. }
  destruct F as (F1 & F2 & F3 & F4 & F5 & F6).
  assert (G : o_Vv o = depth b1 b2 b3 b4 e + 1.73 * IZR Zn / kd_Rc c * b1 * (b2 - 2 * b3 * e + 3 * b4 * e ^ 2) /\
    o_Wv o = absorb (14.667 + 0.009629 * a) (73.55 + 0.0795 * a) e /\
    o_Wd o = surface (16.0 + 16.0 * asym) 11.5 (0.0180 + 0.003802 / (1 + exp ((a - 156) / 8))) e /\
    o_Vso o = (5.922 + 0.0030 * a) * exp (- 0.0040 * e) /\ o_Wso o = absorb (- 3.1) 160 e /\ o_so o = ls).
  { assert (EV : k_Vcbar (new_kd Zn A step) = 1.73 * IZR Zn / kd_Rc c).
    { rewrite <- ER. unfold new_kd. cbn [k_Vcbar k_Rc]. apply (f_equal2 Rdiv); [lra|reflexivity]. }
    unfold o, om_parameters. rewrite EV. set (vc := 1.73 * IZR Zn / kd_Rc c). clearbody vc.
    change (particle_Z 2212) with 1%Z. change (particle_A 2212) with 1%Z. change (1 - 1)%Z with 0%Z. cbn [Z.ltb Z.compare Pos.compare Pos.compare_cont Z.opp Z.add].
    cbn [Z.eqb andb negb]. rewrite (so_eigenvalue two_j l ls Hls).
    unfold new_kd. cbn [k_n k_p k_Vcbar v1 v2 v3 v4 w1 w2 d1 d2 d3 vso1 vso2 wso1 wso2 Ef o_Vv o_Wv o_Wd o_Vso o_Wso o_so]. fold a. replace (T / 1) with T by field.
    assert (Ee : T - (- 84075 / 10 ^ 4 + 1378 / 10 ^ 5 * a) = e) by (unfold e; lra). rewrite Ee. clearbody e.
    assert (EA : IZR (A - Zn - Zn) / a = asym) by (unfold asym; rewrite minus_IZR; reflexivity). unfold Rdiv in EA.
    assert (EA1 : 21 * IZR (A - Zn - Zn) / a = 21 * asym) by (rewrite <- EA; unfold Rdiv; ring).
    assert (EA2 : 16 * IZR (A - Zn - Zn) / a = 16 * asym) by (rewrite <- EA; unfold Rdiv; ring).
    rewrite EA1, EA2. unfold b1, b2, b3, b4. clearbody asym. unfold depth, absorb, surface. set (x := 1 + exp _). clearbody x.
    split; [lra|]. split; [|split; [|split; [|split; [|reflexivity]]]].
    - rewrite Rplus_0_l. apply (f_equal2 Rdiv); [lra|]. replace (7355 / 100 + 795 / 10 ^ 4 * a) with (73.55 + 0.0795 * a) by lra. reflexivity.
    - rewrite Rplus_0_l. replace (180 / 10 ^ 4 + 3802 / 10 ^ 6 / x) with (0.0180 + 0.003802 / x) by (unfold Rdiv; lra).
      set (y := exp _). clearbody y. apply (f_equal2 Rdiv); lra.
    - rewrite Rplus_0_l. apply (f_equal2 Rmult); [lra|]. f_equal. lra.
    - rewrite Rplus_0_l. apply (f_equal2 Rdiv); lra. }
  destruct G as (G1 & G2 & G3 & G4 & G5 & G6). clearbody o.
  rewrite <- F1, <- F2, <- F3, <- F4, <- F5, <- F6, <- G1, <- G2, <- G3, <- G4, <- G5, <- G6.
  apply composed_intro; rewrite ?F3, ?F4, ?F5, ?F6; try assumption; try lra. unfold aS. lra.
Qed.
Print Assumptions C69_proton.

(** ** Composite fragments

    Their central wells are the sums of those of their nucleons at equal shares of the energy,
    geometries are averages, and spin-orbit terms are those of the nucleons at the full
    energy, halved for the deuteron, divided by six for triton and helion. *)
Theorem C69_folding k E pdg z n two_j l two_s jn ln jp lp : (0 <= z)%Z -> (0 <= n)%Z -> (2 <= z + n < 1000)%Z -> (z < 1000)%Z ->
  pdg = (1000000000 + 10000 * z + 10 * (z + n))%Z ->
  let a := IZR (z + n) in
  let o := om_parameters k E pdg two_j l two_s in
  let N := om_parameters k (E / a) 2112 jn ln 1 in
  let P := om_parameters k (E / a) 2212 jp lp 1 in
  let N1 := om_parameters k E 2112 jn ln 1 in
  let P1 := om_parameters k E 2212 jp lp 1 in
  let sum (g : omp -> R) := IZR n * g N + IZR z * g P in
  o_Vv o = sum o_Vv /\ o_Wv o = sum o_Wv /\ o_Wd o = sum o_Wd /\
  (forall g, In g [o_Rv; o_av; o_Rd; o_ad; o_Rso; o_aso] -> g o = sum g / a) /\
  (two_s = 0%Z -> o_so o = 0 /\ o_Vso o = 0 /\ o_Wso o = 0) /\
  (two_s <> 0%Z -> (0 < z)%Z -> (0 < n)%Z ->
     forall g, In g [o_Vso; o_Wso] ->
       g o = (g N1 + g P1) * (if Z.odd z && Z.odd n then 1 / a else if xorb (Z.odd z) (Z.odd n) then 1 / (2 * a) else 0)).
Proof.
  intros Hz Hn Ha Hz2 -> a o N P N1 P1 sum.
  assert (EZ : particle_Z (1000000000 + 10000 * z + 10 * (z + n)) = z).
  { unfold particle_Z. destruct (Z.eqb_spec (1000000000 + 10000 * z + 10 * (z + n)) PROTON) as [E0|_]; [unfold PROTON in E0; lia|].
    destruct (Z.eqb_spec (1000000000 + 10000 * z + 10 * (z + n)) NEUTRON) as [E0|_]; [unfold NEUTRON in E0; lia|].
    destruct (Z.ltb_spec 1000000000 (1000000000 + 10000 * z + 10 * (z + n))); [|lia].
    replace (1000000000 + 10000 * z + 10 * (z + n))%Z with (10000 * z + 10 * (z + n) + 100 * 10000000)%Z by lia.
    rewrite Z.mod_add by lia. rewrite Z.mod_small by lia. replace (10000 * z + 10 * (z + n))%Z with (10 * (z + n) + z * 10000)%Z by lia.
    rewrite Z.div_add by lia. rewrite Z.div_small by lia. lia. }
  assert (EA : particle_A (1000000000 + 10000 * z + 10 * (z + n)) = (z + n)%Z).
  { unfold particle_A. destruct (Z.eqb_spec (1000000000 + 10000 * z + 10 * (z + n)) PROTON) as [E0|_]; [unfold PROTON in E0; lia|].
    destruct (Z.eqb_spec (1000000000 + 10000 * z + 10 * (z + n)) NEUTRON) as [E0|_]; [unfold NEUTRON in E0; lia|].
    destruct (Z.ltb_spec 1000000000 (1000000000 + 10000 * z + 10 * (z + n))); [|lia].
    replace (1000000000 + 10000 * z + 10 * (z + n))%Z with (10 * (z + n) + (100000 + z) * 10000)%Z by lia.
    rewrite Z.mod_add by lia. rewrite Z.mod_small by lia. rewrite Z.mul_comm, Z.div_mul by lia. reflexivity. }
  assert (PA : 0 < a) by (unfold a; apply IZR_lt; lia).
  assert (B : forall (b : bool) (x : R), (if b then x else 0) = x * (if b then 1 else 0)) by (intros [] x; ring).
  assert (Bn : IZR n * (if Z.ltb 0 n then 1 else 0) = IZR n). { destruct (Z.ltb_spec 0 n); [ring|]. assert (n = 0%Z) by lia. subst n. ring. }
  assert (Bz : IZR z * (if Z.ltb 0 z then 1 else 0) = IZR z). { destruct (Z.ltb_spec 0 z); [ring|]. assert (z = 0%Z) by lia. subst z. ring. }
  assert (L : Z.ltb 1 (z + n) = true) by (apply Z.ltb_lt; lia).
  assert (S1 : forall x : R, (if Z.ltb 0 n then IZR n * x else 0) = IZR n * x) by (intros x; rewrite B; rewrite <- Bn at 2; ring).
  assert (S2 : forall x : R, (if Z.ltb 0 z then IZR z * x else 0) = IZR z * x) by (intros x; rewrite B; rewrite <- Bz at 2; ring).
  assert (T1 : forall x : R, x / 1 = x) by (intros; field).
  unfold sum, o, N, P, N1, P1, om_parameters. rewrite EZ, EA. replace (z + n - z)%Z with n by lia.
  change (particle_Z 2112) with 0%Z. change (particle_A 2112) with 1%Z. change (particle_Z 2212) with 1%Z. change (particle_A 2212) with 1%Z.
  change (1 - 0)%Z with 1%Z. change (1 - 1)%Z with 0%Z. change (Z.ltb 0 1) with true. change (Z.ltb 0 0) with false. change (Z.ltb 1 1) with false.
  cbn [andb o_Vv o_Wv o_Wd]. rewrite !T1, L. fold a. cbn [andb].
  split; [|split; [|split; [|split; [|split]]]].
  - rewrite <- Bn, <- Bz. destruct (Z.ltb 0 n), (Z.ltb 0 z); ring.
  - rewrite <- Bn, <- Bz. destruct (Z.ltb 0 n), (Z.ltb 0 z); unfold Rdiv; ring.
  - rewrite <- Bn, <- Bz. destruct (Z.ltb 0 n), (Z.ltb 0 z); unfold Rdiv; ring.
  - intros g Hg. cbn [In] in Hg. repeat (destruct Hg as [<-|Hg]; [cbn [o_Rv o_av o_Rd o_ad o_Rso o_aso]; rewrite S1, S2; unfold Rdiv; ring|]). contradiction.
  - intros ->. cbn [Z.eqb negb o_so o_Vso o_Wso]. rewrite !andb_false_r. repeat split; ring.
  - intros Hs Pz Pn g Hg. assert (Es : Z.eqb two_s 0 = false) by (apply Z.eqb_neq; exact Hs). rewrite Es.
    assert (L1 : Z.ltb 0 n = true) by (apply Z.ltb_lt; exact Pn). assert (L2 : Z.ltb 0 z = true) by (apply Z.ltb_lt; exact Pz). rewrite L1, L2.
    rewrite mult_IZR. change (Z.eqb 1 0) with false. fold a. cbn [negb andb]. cbn [In] in Hg.
    assert (J : forall x y f f' : R, f = f' -> (x + y) * f = (x + 0 + (0 + y)) * f') by (intros x y f f' ->; ring).
    destruct Hg as [<-|[<-|[]]]; cbn [o_Vso o_Wso]; apply J; destruct (Z.odd z), (Z.odd n); cbn [andb xorb]; field; lra.
Qed.
Print Assumptions C69_folding.
