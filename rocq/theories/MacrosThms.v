(** C87: the analysis macros. *)
From Coq Require Import List ZArith Reals Bool Lia Lra Psatz.
From Flocq Require Import Core.
From Verif Require Import Base Pdg PdgThms React Kin KinSpec DeexSpec Rot RotSpec RotThms Run RunThms Macros.
Import ListNotations.
Local Open Scope R_scope.

(** ** Bins *)

Definition width (a : axis) : R := (ax_hi a - ax_lo a) / INR (ax_n a).

(** The bins have equal widths and together make up the range; a value at the end of the range
    is not in it. *)
Theorem C87_bins a x k : (0 < ax_n a)%nat -> ax_lo a < ax_hi a ->
  (find_bin a x = O <-> x < ax_lo a) /\ (find_bin a x = S (ax_n a) <-> ax_hi a <= x) /\
  ((1 <= k <= ax_n a)%nat -> (find_bin a x = k <-> ax_lo a + (INR k - 1) * width a <= x < ax_lo a + INR k * width a)).
Proof.
  intros HN HL. assert (N0 : 0 < INR (ax_n a)) by (apply lt_0_INR; exact HN). assert (W : 0 < width a) by (unfold width; apply Rdiv_lt_0_compat; lra).
  assert (WN : INR (ax_n a) * width a = ax_hi a - ax_lo a) by (unfold width; field; lra).
  set (y := INR (ax_n a) * (x - ax_lo a) / (ax_hi a - ax_lo a)). assert (Y : y * width a = x - ax_lo a) by (unfold y, width; field; lra).
  unfold find_bin. fold y. destruct (Rlt_dec x (ax_lo a)) as [A|A]; [|destruct (Rlt_dec x (ax_hi a)) as [B|B]].
  - split; [tauto|]. split; [split; [discriminate|lra]|]. intros [K1 K2]. split; [lia|]. intros [Q _]. apply le_INR in K1. change (INR 1) with 1 in K1. assert (0 <= (INR k - 1) * width a) by (apply Rmult_le_pos; lra). lra.
  - assert (Y0 : 0 <= y) by (apply (Rmult_le_reg_r (width a)); lra). assert (YN : y < INR (ax_n a)) by (apply (Rmult_lt_reg_r (width a)); lra).
    assert (F0 : (0 <= Zfloor y)%Z) by (apply Zfloor_lub; exact Y0). pose proof (Zfloor_lb y) as L. pose proof (Zfloor_ub y) as U.
    assert (FN : (Zfloor y < Z.of_nat (ax_n a))%Z) by (apply lt_IZR; rewrite <- INR_IZR_INZ; lra).
    split; [split; [discriminate|lra]|]. split; [split; [lia|lra]|]. intros [K1 K2].
    assert (IK : INR k = IZR (Z.of_nat k)) by apply INR_IZR_INZ. split.
    + intros <-. rewrite IK. rewrite Nat2Z.inj_succ, Z2Nat.id, succ_IZR by exact F0. split.
      * replace (IZR (Zfloor y) + 1 - 1) with (IZR (Zfloor y)) by ring. apply (Rmult_le_compat_r (width a)) in L; lra.
      * apply (Rmult_lt_compat_r (width a)) in U; lra.
    + intros [Q1 Q2]. assert (E : Zfloor y = (Z.of_nat k - 1)%Z).
      { apply Zfloor_imp. rewrite minus_IZR. rewrite Z.sub_add. rewrite <- IK. split; apply (Rmult_le_reg_r (width a)) || apply (Rmult_lt_reg_r (width a)); lra. }
      rewrite E. lia.
  - split; [split; [discriminate|lra]|]. split; [split; [lra|reflexivity]|]. intros [K1 K2]. split; [lia|]. intros [_ Q]. apply le_INR in K2.
    apply (Rmult_le_compat_r (width a)) in K2; lra.
Qed.
Print Assumptions C87_bins.

(** The number of values in the range. *)
Definition within (a : axis) (xs : list R) : nat := length (filter (fun x => if Rle_dec (ax_lo a) x then if Rlt_dec x (ax_hi a) then true else false else false) xs).
Definition area (a : axis) (h : nat -> R) : R := width a * fold_right Rplus 0 (map h (seq 1 (ax_n a))).

Lemma area_content a f xs : (0 < ax_n a)%nat -> ax_lo a < ax_hi a -> area a (content a f xs) = width a * f * INR (within a xs).
Proof.
  intros HN HL. unfold area, content. rewrite Rmult_assoc. f_equal.
  transitivity (f * INR (list_sum (map (fun k => length (filter (fun x => Nat.eqb (find_bin a x) k) xs)) (seq 1 (ax_n a))))).
  { induction (seq 1 (ax_n a)) as [|k l IH]; cbn [map fold_right]; [unfold list_sum; cbn; ring|]. rewrite IH. unfold list_sum. cbn [fold_right]. rewrite plus_INR. ring. }
  f_equal. f_equal. unfold within. induction xs as [|x xs IH]; cbn [filter].
  { cbn [length]. induction (seq 1 (ax_n a)) as [|k l IHl]; [reflexivity|]. cbn [map list_sum fold_right]. exact IHl. }
  assert (SS : forall l, NoDup l -> list_sum (map (fun k => length (if Nat.eqb (find_bin a x) k then x :: filter (fun x => Nat.eqb (find_bin a x) k) xs else filter (fun x => Nat.eqb (find_bin a x) k) xs)) l) =
    ((if in_dec Nat.eq_dec (find_bin a x) l then 1 else 0) + list_sum (map (fun k => length (filter (fun x => Nat.eqb (find_bin a x) k) xs)) l))%nat).
  { induction l as [|k l IHl]; intros D; [reflexivity|]. inversion D as [|k' l' D1 D2]; subst. cbn [map list_sum fold_right]. fold (list_sum (map (fun k => length (if Nat.eqb (find_bin a x) k then x :: filter (fun x => Nat.eqb (find_bin a x) k) xs else filter (fun x => Nat.eqb (find_bin a x) k) xs)) l)).
    rewrite (IHl D2). fold (list_sum (map (fun k => length (filter (fun x => Nat.eqb (find_bin a x) k) xs)) l)).
    destruct (in_dec Nat.eq_dec (find_bin a x) (k :: l)) as [I1|I1]; destruct (in_dec Nat.eq_dec (find_bin a x) l) as [I2|I2]; destruct (Nat.eqb_spec (find_bin a x) k) as [E|E]; cbn [length]; try lia.
    - subst k. contradiction.
    - exfalso. destruct I1 as [I1|I1]; [congruence|contradiction].
    - exfalso. apply I1. right. exact I2.
    - exfalso. apply I1. right. exact I2.
    - exfalso. apply I1. left. congruence. }
  rewrite SS by apply seq_NoDup. rewrite IH. destruct (C87_bins a x 0 HN HL) as (B1 & B2 & _).
  destruct (in_dec Nat.eq_dec (find_bin a x) (seq 1 (ax_n a))) as [I1|I1]; rewrite in_seq in I1.
  - destruct (Rle_dec (ax_lo a) x) as [A|A]; [|exfalso; assert (find_bin a x = O) by (apply B1; lra); lia]. destruct (Rlt_dec x (ax_hi a)) as [B|B]; [reflexivity|exfalso; assert (find_bin a x = S (ax_n a)) by (apply B2; lra); lia].
  - destruct (Rle_dec (ax_lo a) x) as [A|A]; [|reflexivity]. destruct (Rlt_dec x (ax_hi a)) as [B|B]; [|reflexivity]. exfalso. apply I1.
    assert (L : find_bin a x <> O) by (intros E; apply B1 in E; lra). assert (U : find_bin a x <> S (ax_n a)) by (intros E; apply B2 in E; lra).
    unfold find_bin in *. destruct (Rlt_dec x (ax_lo a)); [lra|]. destruct (Rlt_dec x (ax_hi a)); [|lra].
    assert (YN : (Zfloor (INR (ax_n a) * (x - ax_lo a) / (ax_hi a - ax_lo a)) < Z.of_nat (ax_n a))%Z).
    { apply lt_IZR. rewrite <- INR_IZR_INZ. assert (N0 : 0 < INR (ax_n a)) by (apply lt_0_INR; exact HN). eapply Rle_lt_trans; [apply Zfloor_lb|].
      apply (Rmult_lt_reg_r (ax_hi a - ax_lo a)); [lra|]. unfold Rdiv. rewrite Rmult_assoc, Rinv_l, Rmult_1_r by lra. apply Rmult_lt_compat_l; lra. }
    lia.
Qed.

(** The plots are normalized to the cross section: the area below the histogram is the
    flux-averaged cross section times the share of the events that the range covers. *)
Theorem C87_area xsec evs : evs <> [] ->
  area cos_axis (cos_plot xsec evs) = xsec * (INR (within cos_axis (map cos_theta evs)) / INR (length evs)) /\
  area nu_axis (nu_spect xsec evs) = xsec * (INR (within nu_axis (map (fun ev => en (e_projectile ev)) evs)) / INR (length evs)) /\
  area reco_axis (reco_spectrum xsec evs) = xsec * (INR (within reco_axis (map E_reco evs)) / INR (length evs)).
Proof.
  intros HE. assert (N : 0 < INR (length evs)) by (apply lt_0_INR; destruct evs; [congruence|cbn; lia]).
  unfold cos_plot, nu_spect, reco_spectrum. repeat split; (rewrite area_content; [|cbn; lia|cbn; lra]).
  - unfold width, cos_axis at 1 2 3. cbn [ax_hi ax_lo ax_n]. replace (INR 10) with 10 by (cbn; ring). field. lra.
  - unfold width, nu_axis at 1 2 3. cbn [ax_hi ax_lo ax_n]. replace (INR 100) with 100 by (rewrite INR_IZR_INZ; reflexivity). field. lra.
  - unfold width, reco_axis at 1 2 3. cbn [ax_hi ax_lo ax_n]. replace (INR 110) with 110 by (rewrite INR_IZR_INZ; reflexivity). field. lra.
Qed.
Print Assumptions C87_area.

(** ** Cosines *)

Lemma cos_dot ev : cos_theta ev = dot (momentum (e_projectile ev)) (momentum (e_ejectile ev)) / (norm (momentum (e_projectile ev)) * norm (momentum (e_ejectile ev))).
Proof. unfold cos_theta. rewrite !magnitude_norm. reflexivity. Qed.

Lemma lagrange a c : dot a a * dot c c - dot a c * dot a c = (vy a * vz c - vz a * vy c) ^ 2 + (vz a * vx c - vx a * vz c) ^ 2 + (vx a * vy c - vy a * vx c) ^ 2.
Proof. unfold dot. ring. Qed.

Lemma norm_sq w : norm w * norm w = dot w w.
Proof. unfold norm. apply sqrt_sqrt. unfold dot. nra. Qed.

(** The cosine lies between -1 and 1, and is 1 exactly if the ejectile goes in the direction of the
    neutrino. *)
Theorem C87_cosine ev : momentum (e_projectile ev) <> vnull -> momentum (e_ejectile ev) <> vnull ->
  -1 <= cos_theta ev <= 1 /\
  (cos_theta ev = 1 <-> exists t, 0 < t /\ momentum (e_ejectile ev) = scale t (momentum (e_projectile ev))).
Proof.
  rewrite cos_dot. set (a := momentum (e_projectile ev)). set (c := momentum (e_ejectile ev)). clearbody a c. intros Ha Hc.
  assert (P : forall w, w <> vnull -> 0 < norm w).
  { intros w Hw. unfold norm. apply sqrt_lt_R0. destruct w as [x y z]. unfold dot. cbn [vx vy vz]. destruct (Req_EM_T x 0) as [->|]; [destruct (Req_EM_T y 0) as [->|]; [destruct (Req_EM_T z 0) as [->|]|]|]; [exfalso; apply Hw; reflexivity| | |]; nra. }
  pose proof (P a Ha) as Na. pose proof (P c Hc) as Nc. pose proof (lagrange a c) as L. pose proof (norm_sq a) as Sa. pose proof (norm_sq c) as Sc.
  assert (NN : 0 < norm a * norm c) by (apply Rmult_lt_0_compat; assumption).
  assert (Q : dot a c * dot a c <= (norm a * norm c) * (norm a * norm c)) .
  { replace (norm a * norm c * (norm a * norm c)) with ((norm a * norm a) * (norm c * norm c)) by ring. rewrite Sa, Sc.
    pose proof (pow2_ge_0 (vy a * vz c - vz a * vy c)). pose proof (pow2_ge_0 (vz a * vx c - vx a * vz c)). pose proof (pow2_ge_0 (vx a * vy c - vy a * vx c)). lra. }
  set (n := norm a * norm c) in *. assert (B : - n <= dot a c <= n) by nra. split.
  - split; apply (Rmult_le_reg_r n); try exact NN; unfold Rdiv; rewrite Rmult_assoc, Rinv_l, Rmult_1_r by lra; lra.
  - split.
    + intros E. assert (D : dot a c = n) by (apply (Rmult_eq_reg_r (/ n)); [|apply Rinv_neq_0_compat; lra]; rewrite Rinv_r by lra; exact E).
      exists (norm c / norm a). split; [apply Rdiv_lt_0_compat; assumption|].
      assert (Z : (vy a * vz c - vz a * vy c) ^ 2 + (vz a * vx c - vx a * vz c) ^ 2 + (vx a * vy c - vy a * vx c) ^ 2 = 0).
      { rewrite <- L, D, <- Sa, <- Sc. unfold n. ring. }
      pose proof (pow2_ge_0 (vy a * vz c - vz a * vy c)) as G1. pose proof (pow2_ge_0 (vz a * vx c - vx a * vz c)) as G2. pose proof (pow2_ge_0 (vx a * vy c - vy a * vx c)) as G3.
      assert (SQ : forall t, t ^ 2 = 0 -> t = 0) by (intros t T; destruct (Req_EM_T t 0) as [E0|E0]; [exact E0|exfalso; apply (pow_nonzero t 2 E0); exact T]).
      assert (Z1 : vy a * vz c - vz a * vy c = 0) by (apply SQ; lra). assert (Z2 : vz a * vx c - vx a * vz c = 0) by (apply SQ; lra). assert (Z3 : vx a * vy c - vy a * vx c = 0) by (apply SQ; lra).
      (* dot a c * a - dot a a * c = 0 *)
      assert (K : norm a * norm c = dot a c) by (symmetry; exact D).
      assert (E1 : dot a c * vx a = dot a a * vx c) by (transitivity (dot a a * vx c + vy a * (vx a * vy c - vy a * vx c) - vz a * (vz a * vx c - vx a * vz c)); [unfold dot; ring|rewrite Z3, Z2; ring]).
      assert (E2 : dot a c * vy a = dot a a * vy c) by (transitivity (dot a a * vy c - vx a * (vx a * vy c - vy a * vx c) + vz a * (vy a * vz c - vz a * vy c)); [unfold dot; ring|rewrite Z3, Z1; ring]).
      assert (E3 : dot a c * vz a = dot a a * vz c) by (transitivity (dot a a * vz c + vx a * (vz a * vx c - vx a * vz c) - vy a * (vy a * vz c - vz a * vy c)); [unfold dot; ring|rewrite Z2, Z1; ring]).
      rewrite <- K, <- Sa in E1, E2, E3.
      assert (G : forall u w, norm a * norm c * u = norm a * norm a * w -> w = norm c / norm a * u).
      { intros u w G. apply (Rmult_eq_reg_l (norm a * norm a)); [|nra]. rewrite <- G. field. lra. }
      destruct c as [c1 c2 c3]. unfold scale. cbn [vx vy vz] in *. f_equal; apply G; assumption.
    + intros (t & T & E). assert (D : dot a c = t * dot a a) by (rewrite E; unfold dot, scale; cbn [vx vy vz]; ring).
      assert (M : norm c = t * norm a).
      { unfold norm. rewrite E. replace (dot (scale t a) (scale t a)) with ((t * t) * dot a a) by (unfold dot, scale; cbn [vx vy vz]; ring).
        rewrite sqrt_mult by (unfold dot; nra). rewrite sqrt_square by lra. reflexivity. }
      unfold n. rewrite D, M, <- Sa. field. lra.
Qed.
Print Assumptions C87_cosine.

(** The plot of an event does not depend on the direction of the neutrinos. *)
Theorem C87_direction m ev : (forall v w, dot (apply_mat m v) (apply_mat m w) = dot v w) -> cos_theta (rotate_event m ev) = cos_theta ev.
Proof.
  intros H. rewrite !cos_dot. assert (E : forall p, momentum (rotate_part m p) = apply_mat m (momentum p)) by (intros p; unfold rotate_part, momentum; cbn [px py pz]; destruct (apply_mat m _); reflexivity).
  unfold rotate_event. cbn [e_projectile e_ejectile]. rewrite !E. unfold norm. rewrite !H. reflexivity.
Qed.
Print Assumptions C87_direction.

(** An event whose ejectile goes straight forward is missing from the plot: it is counted above the
    range, so that the area is too small. *)
Theorem C87_forward_refuted xsec evs ev : 0 < xsec -> In ev evs -> (forall e, In e evs -> momentum (e_projectile e) <> vnull /\ momentum (e_ejectile e) <> vnull) ->
  (exists t, 0 < t /\ momentum (e_ejectile ev) = scale t (momentum (e_projectile ev))) ->
  find_bin cos_axis (cos_theta ev) = 11%nat /\ area cos_axis (cos_plot xsec evs) < xsec.
Proof.
  intros HX HI HM HT. destruct (HM ev HI) as [M1 M2]. destruct (C87_cosine ev M1 M2) as [_ C]. assert (E : cos_theta ev = 1) by (apply C; exact HT).
  split.
  - rewrite E. apply (proj1 (proj2 (C87_bins cos_axis 1 0 ltac:(cbn; lia) ltac:(cbn; lra)))). cbn. lra.
  - destruct (C87_area xsec evs) as (A & _ & _); [destruct evs; [destruct HI|discriminate]|]. rewrite A.
    assert (L : (within cos_axis (map cos_theta evs) < length evs)%nat).
    { unfold within. clear - HI E. induction evs as [|e evs IH]; [destruct HI|]. cbn [map filter]. 
      assert (G : (length (filter (fun x => if Rle_dec (ax_lo cos_axis) x then if Rlt_dec x (ax_hi cos_axis) then true else false else false) (map cos_theta evs)) <= length evs)%nat).
      { clear. induction evs as [|e evs IH]; [cbn; lia|]. cbn [map filter]. destruct (Rle_dec _ _); [destruct (Rlt_dec _ _)|]; cbn [length]; lia. }
      destruct HI as [->|HI].
      - rewrite E. cbn [ax_lo ax_hi cos_axis] in *. destruct (Rle_dec (-1) 1); [|lra]. destruct (Rlt_dec 1 1); [lra|]. cbn [length]. lia.
      - specialize (IH HI). destruct (Rle_dec _ _); [destruct (Rlt_dec _ _)|]; cbn [length]; lia. }
    apply lt_INR in L. pose proof (pos_INR (within cos_axis (map cos_theta evs))) as P0.
    assert (Q : INR (within cos_axis (map cos_theta evs)) / INR (length evs) < 1).
    { apply (Rmult_lt_reg_r (INR (length evs))); [lra|]. unfold Rdiv. rewrite Rmult_assoc, Rinv_l, Rmult_1_r, Rmult_1_l by lra. exact L. }
    nra.
Qed.
Print Assumptions C87_forward_refuted.

(** ** Ranges found from the data *)

Fixpoint increasing (l : list R) : Prop := match l with x :: (y :: _) as r => x < y /\ increasing r | _ => True end.

Lemma increasing_snoc l x y : increasing (l ++ [x]) -> x < y -> increasing ((l ++ [x]) ++ [y]).
Proof.
  intros H L. induction l as [|z l IH]; [cbn; split; [exact L|exact Logic.I]|]. destruct l as [|w l]; cbn [app increasing] in *; [tauto|]. destruct H as [H1 H2]. split; [exact H1|]. apply IH. exact H2.
Qed.

(** The range that fp_spect.C gives to its histogram starts at the largest energy. It ends at
    another energy, so that the range is reversed and ROOT chooses one; or, if the energies
    happen to increase, at 10^30. *)
Theorem C87_fp_range l : l <> [] -> (forall x, In x l -> 0 <= x < 10 ^ 30) ->
  In (ax_lo (fp_axis l)) l /\ (forall x, In x l -> x <= ax_lo (fp_axis l)) /\
  ((automatic (fp_axis l) /\ In (ax_hi (fp_axis l)) l) \/ (increasing l /\ ax_hi (fp_axis l) = 10 ^ 30)).
Proof.
  intros HN HB. assert (H : In (fst (fp_range l)) l /\ (forall x, In x l -> x <= fst (fp_range l)) /\
    ((snd (fp_range l) <= fst (fp_range l) /\ In (snd (fp_range l)) l) \/ (increasing l /\ snd (fp_range l) = 10 ^ 30 /\ exists l', l = l' ++ [fst (fp_range l)]))).
  { induction l as [|x l IH] using rev_ind; [congruence|]. unfold fp_range. rewrite fold_left_app. cbn [fold_left]. fold (fp_range l). unfold fp_step.
    assert (BX : 0 <= x < 10 ^ 30) by (apply HB; apply in_app_iff; right; left; reflexivity).
    destruct l as [|y l].
    - unfold fp_range. cbn [fold_left fst snd app]. destruct (Rlt_dec (- 10 ^ 30) x) as [_|C]; [|exfalso; apply C; lra]. cbn [fst snd].
      split; [left; reflexivity|]. split; [intros z [->|[]]; lra|]. right. split; [exact Logic.I|]. split; [reflexivity|]. exists []. reflexivity.
    - set (l1 := y :: l) in *. destruct IH as (I1 & I2 & I3); [discriminate|intros z Hz; apply HB; apply in_app_iff; left; exact Hz|].
      destruct (Rlt_dec (fst (fp_range l1)) x) as [A|A]; [|destruct (Rlt_dec x (snd (fp_range l1))) as [B|B]]; cbn [fst snd].
      + split; [apply in_app_iff; right; left; reflexivity|]. split; [intros z Hz; apply in_app_iff in Hz as [Hz|[->|[]]]; [specialize (I2 z Hz); lra|lra]|].
        destruct I3 as [[J1 J2]|(J1 & J2 & l' & J3)]; [left; split; [lra|apply in_app_iff; left; exact J2]|]. right. split; [|split; [exact J2|exists l1; reflexivity]].
        rewrite J3. apply increasing_snoc; [rewrite <- J3; exact J1|exact A].
      + split; [apply in_app_iff; left; exact I1|]. split; [intros z Hz; apply in_app_iff in Hz as [Hz|[->|[]]]; [exact (I2 z Hz)|lra]|].
        left. split; [lra|]. apply in_app_iff. right. left. reflexivity.
      + split; [apply in_app_iff; left; exact I1|]. split; [intros z Hz; apply in_app_iff in Hz as [Hz|[->|[]]]; [exact (I2 z Hz)|lra]|].
        destruct I3 as [[J1 J2]|(J1 & J2 & l' & J3)]; [left; split; [exact J1|apply in_app_iff; left; exact J2]|]. exfalso. rewrite J2 in B. lra. }
  unfold automatic, fp_axis. destruct (fp_range l) as [mx mn]. cbn [fst snd ax_lo ax_hi] in *. destruct H as (H1 & H2 & [[H3 H4]|(H3 & H4 & _)]); split; auto.
Qed.
Print Assumptions C87_fp_range.

(** In the second case all energies but the largest are below the range of the plot. *)
Theorem C87_fp_range_refuted l : l <> [] -> (forall x, In x l -> 0 <= x < 10 ^ 30) -> increasing l ->
  ax_lo (fp_axis l) < ax_hi (fp_axis l) /\ forall x, In x l -> x < ax_lo (fp_axis l) -> find_bin (fp_axis l) x = O.
Proof.
  intros HN HB HI. destruct (C87_fp_range l HN HB) as (H1 & H2 & H3).
  assert (HX : ax_hi (fp_axis l) = 10 ^ 30).
  { assert (G : forall l r, (forall x, In x l -> fst r < x) -> increasing l -> snd (fold_left fp_step l r) = snd r).
    { clear. induction l as [|x l IH]; intros r Hr HI; [reflexivity|]. cbn [fold_left]. assert (E : fp_step r x = (x, snd r)) by (unfold fp_step; destruct (Rlt_dec (fst r) x) as [_|C]; [reflexivity|exfalso; apply C; apply Hr; left; reflexivity]).
      rewrite E, IH; [reflexivity| |destruct l; [exact Logic.I|apply HI]]. cbn [fst].
      clear - HI. revert x HI. induction l as [|y l IH]; [intros x HI z []|]. intros x HI z [<-|Hz]; [apply HI|]. destruct HI as [H1 H2]. specialize (IH y H2 z Hz). lra. }
    unfold fp_axis. specialize (G l (- 10 ^ 30, 10 ^ 30)). fold (fp_range l) in G. destruct (fp_range l) as [mx mn]. cbn [snd fst ax_hi] in *. apply G; [intros x Hx; specialize (HB x Hx); lra|exact HI]. }
  split; [rewrite HX; apply (HB _ H1)|]. intros x Hx L. unfold find_bin. destruct (Rlt_dec x (ax_lo (fp_axis l))); [reflexivity|contradiction].
Qed.
Print Assumptions C87_fp_range_refuted.

Example C87_fp_case : fp_axis [3; 5; 2; 5] = mkaxis 100 5 2 /\ fp_axis [1; 2] = mkaxis 100 2 (10 ^ 30).
Proof.
  assert (T : (0 < 10 ^ 30)) by (apply pow_lt; lra). assert (T5 : 5 < 10 ^ 30) by (change 30%nat with (29 + 1)%nat; rewrite pow_add, pow_1; pose proof (pow_R1_Rle 10 29 ltac:(lra)); lra).
  unfold fp_axis, fp_range. cbn [fold_left]. unfold fp_step. set (t := 10 ^ 30) in *. clearbody t. cbn [fst snd]. split;
    repeat (match goal with |- context [Rlt_dec ?a ?c] => destruct (Rlt_dec a c) end; cbn [fst snd] in *; try (exfalso; lra)); reflexivity.
Qed.

(** Ex.C looks for the largest excitation energy and finds the smallest, so that ROOT chooses the
    range of its histogram. *)
Theorem C87_Ex_range evs : (forall ev, In ev evs -> 0 <= e_Ex ev) -> automatic (Ex_axis evs) /\ forall ev, In ev evs -> Ex_max (map e_Ex evs) <= e_Ex ev.
Proof.
  intros H. assert (G : forall l m, 0 <= m -> (forall x, In x l -> 0 <= x) -> let r := fold_left (fun m x => if Rlt_dec x m then x else m) l m in 0 <= r <= m /\ forall x, In x l -> r <= x).
  { clear. induction l as [|x l IH]; intros m Hm Hl; cbv zeta; [cbn; split; [lra|intros x []]|]. cbn [fold_left].
    assert (X : 0 <= x) by (apply Hl; left; reflexivity). destruct (IH (if Rlt_dec x m then x else m)) as [I1 I2]; [destruct (Rlt_dec x m); lra|intros y Hy; apply Hl; right; exact Hy|]. cbv zeta in *.
    split; [destruct (Rlt_dec x m); lra|]. intros y [<-|Hy]; [destruct (Rlt_dec x m); lra|exact (I2 y Hy)]. }
  destruct (G (map e_Ex evs) (/ 2 ^ 1022)) as [G1 G2]; [left; apply Rinv_0_lt_compat, pow_lt; lra|intros x Hx; apply in_map_iff in Hx as (ev & <- & Hev); exact (H ev Hev)|]. cbv zeta in *.
  fold (Ex_max (map e_Ex evs)) in G1, G2. split; [unfold automatic, Ex_axis; cbn [ax_lo ax_hi]; lra|]. intros ev Hev. apply G2. apply in_map. exact Hev.
Qed.
Print Assumptions C87_Ex_range.

(** ** Reconstruction *)

Definition neutron_KE (ev : kevent) : R := fold_right Rplus 0 (map kinetic_energy (filter (fun p => Z.eqb (pid p) 2112) (final_parts ev))).

(** The reconstructed energy of an event is the neutrino's energy, less what the neutrons carry away, less
    the mass made in the reaction beyond the assumed 1.5044 MeV. *)
Theorem C87_reco ev : balanced ev ->
  E_reco ev = en (e_projectile ev) - neutron_KE ev - ((total mass (final_parts ev) - en (e_target ev)) - 15044 / 10000).
Proof.
  intros ((B1 & _) & _ & _ & _ & B6). apply Forall_app in B6 as [_ B6].
  assert (K : forall l s, Forall on_shell l -> fold_left (fun KE p => if Z.eqb (pid p) 2112 then KE else KE + kinetic_energy p) l s =
    s + (total en l - total mass l) - fold_right Rplus 0 (map kinetic_energy (filter (fun p => Z.eqb (pid p) 2112) l))).
  { induction l as [|p l IH]; intros s F; cbn [fold_left filter map fold_right]; [unfold total; cbn; ring|]. inversion F as [|p' l' F1 F2]; subst. rewrite (IH _ F2).
    assert (KE : kinetic_energy p = en p - mass p) by (unfold kinetic_energy; apply Rmax_left; destruct F1 as (_ & F1 & _); lra).
    assert (T : forall f : part -> R, total f (p :: l) = f p + total f l) by reflexivity. rewrite !T. destruct (Z.eqb (pid p) 2112); cbn [map fold_right]; rewrite KE; ring. }
  unfold E_reco, neutron_KE, Q_ground_state. rewrite (K _ _ B6), <- B1. unfold initial_parts, total at 1. cbn [map fold_right]. ring.
Qed.
Print Assumptions C87_reco.

(** So it is right if no neutron is emitted and the masses are as assumed. *)
Theorem C87_reco_right ev : balanced ev -> (forall p, In p (final_parts ev) -> pid p <> 2112%Z) -> total mass (final_parts ev) = en (e_target ev) + 15044 / 10000 ->
  E_reco ev = en (e_projectile ev).
Proof.
  intros HB HN HM. rewrite (C87_reco ev HB), HM. assert (N : neutron_KE ev = 0).
  { unfold neutron_KE. revert HN. clear. induction (final_parts ev) as [|p l IH]; intros HN; [reflexivity|]. cbn [filter]. destruct (Z.eqb_spec (pid p) 2112) as [E|E]; [exfalso; apply (HN p); [left; reflexivity|exact E]|].
    apply IH. intros q Hq. apply HN. right. exact Hq. }
  lra.
Qed.
Print Assumptions C87_reco_right.

(** ** Counters *)

Lemma count_sum l : forall c, let c' := fold_left count_particle l c in
  (c_gamma c' + c_n c' + c_p c' + c_other c' = c_gamma c + c_n c + c_p c + c_other c + length (filter (fun p => Z.ltb 1000020040 (pid p)) l))%nat.
Proof.
  induction l as [|p l IH]; intros c; cbv zeta; [cbn; lia|]. cbn [fold_left filter]. specialize (IH (count_particle c p)). cbv zeta in IH. rewrite IH. unfold count_particle.
  destruct (Z.leb_spec (pid p) 1000020040) as [A|A]; destruct (Z.ltb_spec 1000020040 (pid p)) as [B|B]; try lia.
  cbn [length]. destruct (Z.eqb (pid p) 1000190400); [cbn; lia|]. destruct (Z.eqb (pid p) 1000190390); [cbn; lia|]. destruct (Z.eqb (pid p) 1000180390); cbn; lia.
Qed.

(** Every event with one final nucleus heavier than an alpha particle is counted once. *)
Theorem C87_counts evs : (forall ev, In ev evs -> length (filter (fun p => Z.ltb 1000020040 (pid p)) (final_parts ev)) = 1%nat) ->
  let c := count_events evs in (c_gamma c + c_n c + c_p c + c_other c = length evs)%nat.
Proof.
  intros H. cbv zeta. unfold count_events. assert (G : forall evs c, (forall ev, In ev evs -> length (filter (fun p => Z.ltb 1000020040 (pid p)) (final_parts ev)) = 1%nat) ->
    let c' := fold_left count_event evs c in (c_gamma c' + c_n c' + c_p c' + c_other c' = c_gamma c + c_n c + c_p c + c_other c + length evs)%nat).
  { clear. induction evs as [|ev evs IH]; intros c H; cbv zeta; [cbn; lia|]. cbn [fold_left length]. specialize (IH (count_event c ev) (fun e He => H e (or_intror He))). cbv zeta in IH. rewrite IH.
    unfold count_event. pose proof (count_sum (final_parts ev) c) as S. cbv zeta in S. rewrite S, (H ev (or_introl eq_refl)). lia. }
  specialize (G evs (mkcounts 0 0 0 0) H). cbv zeta in G. rewrite G. reflexivity.
Qed.
Print Assumptions C87_counts.

(** The particles of a kind in a list, and in a list of events. *)
Definition how_many (code : Z) (l : list part) : nat := length (filter (fun p => Z.eqb (pid p) code) l).
Definition in_events (code : Z) (evs : list kevent) : nat := how_many code (flat_map final_parts evs).

(** The first three counters are the numbers of final potassium-40, potassium-39 and argon-39
    nuclei. *)
Theorem C87_counters evs : let c := count_events evs in
  c_gamma c = in_events 1000190400 evs /\ c_n c = in_events 1000190390 evs /\ c_p c = in_events 1000180390 evs.
Proof.
  assert (G1 : forall l c, let c' := fold_left count_particle l c in
    c_gamma c' = (c_gamma c + how_many 1000190400 l)%nat /\ c_n c' = (c_n c + how_many 1000190390 l)%nat /\ c_p c' = (c_p c + how_many 1000180390 l)%nat).
  { unfold how_many. induction l as [|p l IH]; intros c; cbv zeta; [cbn; lia|]. cbn [fold_left filter]. destruct (IH (count_particle c p)) as (I1 & I2 & I3). rewrite I1, I2, I3. unfold count_particle.
    destruct (Z.leb_spec (pid p) 1000020040) as [A|A].
    - destruct (Z.eqb_spec (pid p) 1000190400); [lia|]. destruct (Z.eqb_spec (pid p) 1000190390); [lia|]. destruct (Z.eqb_spec (pid p) 1000180390); [lia|]. auto.
    - destruct (Z.eqb_spec (pid p) 1000190400) as [->|]; [cbn [c_gamma c_n c_p Z.eqb Pos.eqb length]; lia|]. destruct (Z.eqb_spec (pid p) 1000190390) as [->|]; [cbn [c_gamma c_n c_p Z.eqb Pos.eqb length]; lia|].
      destruct (Z.eqb_spec (pid p) 1000180390) as [_|_]; cbn [c_gamma c_n c_p length]; lia. }
  assert (G2 : forall evs c, fold_left count_event evs c = fold_left count_particle (flat_map final_parts evs) c).
  { clear. induction evs as [|ev evs IH]; intros c; [reflexivity|]. cbn [fold_left flat_map]. rewrite IH, fold_left_app. reflexivity. }
  cbv zeta. unfold count_events. rewrite G2. apply (G1 (flat_map final_parts evs) (mkcounts 0 0 0 0)).
Qed.
Print Assumptions C87_counters.

(** The spectrum of a kind of particle has an entry for each of them, its energy less its mass. *)
Theorem C87_fp_entries pdg evs : (forall ev, In ev evs -> Forall on_shell (final_parts ev)) ->
  length (fp_energies pdg evs) = in_events pdg evs /\
  (forall x, In x (fp_energies pdg evs) <-> exists ev p, In ev evs /\ In p (final_parts ev) /\ pid p = pdg /\ x = en p - mass p /\ 0 <= x).
Proof.
  intros H. split.
  - unfold fp_energies, in_events, how_many. clear H. induction evs as [|ev evs IH]; [reflexivity|]. cbn [flat_map]. rewrite filter_app, !app_length, map_length, IH. reflexivity.
  - intros x. unfold fp_energies. rewrite in_flat_map. split.
    + intros (ev & He & Hx). apply in_map_iff in Hx as (p & <- & Hp). apply filter_In in Hp as [Hp E]. apply Z.eqb_eq in E. exists ev, p.
      pose proof (proj1 (Forall_forall _ _) (H ev He) p Hp) as (_ & M & _). unfold kinetic_energy. rewrite Rmax_left by lra. repeat split; try assumption; lra.
    + intros (ev & p & He & Hp & E & -> & M). exists ev. split; [exact He|]. apply in_map_iff. exists p. split; [unfold kinetic_energy; apply Rmax_left; exact M|]. apply filter_In. split; [exact Hp|]. apply Z.eqb_eq. exact E.
Qed.
Print Assumptions C87_fp_entries.

(** A decay product: a photon, a nucleon or a light nucleus. *)
Definition product (p : part) : Prop := In (pid p) [22; 2112; 2212; 1000010020; 1000010030; 1000020030; 1000020040]%Z.

Lemma light l : Forall product l -> (0 <= zsum protons l)%Z /\ (zsum protons l <= zsum nucleons l)%Z /\
  (zsum nucleons l = 0 -> how_many 2112 l = 0%nat /\ how_many 2212 l = 0%nat /\ Forall (fun p => pid p = 22) l)%Z /\
  (zsum nucleons l = 1 -> Z.of_nat (how_many 2212 l) = zsum protons l /\ (how_many 2112 l + how_many 2212 l = 1)%nat /\ Forall (fun p => pid p = 22 \/ pid p = 2112 \/ pid p = 2212) l)%Z.
Proof.
  induction l as [|p l IH]; intros F; [cbn; repeat split; try lia; constructor|]. inversion F as [|p' l' F1 F2]; subst. destruct (IH F2) as (I1 & I2 & I3 & I4). clear IH F.
  change (zsum protons (p :: l)) with (particle_Z (pid p) + zsum protons l)%Z. change (zsum nucleons (p :: l)) with (particle_A (pid p) + zsum nucleons l)%Z.
  unfold how_many in *. cbn [filter]. unfold product in F1. cbn [In] in F1.
  destruct F1 as [E|[E|[E|[E|[E|[E|[E|[]]]]]]]]; rewrite <- E;
    match goal with |- context [particle_Z ?c] => let z := eval vm_compute in (particle_Z c) in let n := eval vm_compute in (particle_A c) in
      change (particle_Z c) with z; change (particle_A c) with n end; cbn [Z.eqb Pos.eqb length]; (split; [lia|]); (split; [lia|]); split; intros Q; try lia.
  - destruct (I3 ltac:(lia)) as (J1 & J2 & J3). repeat split; try assumption. constructor; [congruence|exact J3].
  - destruct (I4 ltac:(lia)) as (J1 & J2 & J3). repeat split; try lia. constructor; [left; congruence|exact J3].
  - destruct (I3 ltac:(lia)) as (J1 & J2 & J3). repeat split; try lia. constructor; [right; left; congruence|]. eapply Forall_impl; [|exact J3]. intros a Ha. left. exact Ha.
  - destruct (I3 ltac:(lia)) as (J1 & J2 & J3). repeat split; try lia. constructor; [right; right; congruence|]. eapply Forall_impl; [|exact J3]. intros a Ha. left. exact Ha.
Qed.

(** The classes mean what they are called: for electron neutrinos on argon-40, the events counted for
    potassium-40 emit photons only, those for potassium-39 one neutron and photons, and those for argon-39
    one proton and photons. *)
Theorem C87_classes ev : balanced ev -> pid (e_projectile ev) = 12%Z -> chg (e_projectile ev) = 0%Z -> pid (e_target ev) = 1000180400%Z ->
  pid (e_ejectile ev) = 11%Z -> chg (e_ejectile ev) = (-1)%Z -> Forall product (e_others ev) ->
  (pid (e_residue ev) = 1000190400 -> Forall (fun p => pid p = 22) (e_others ev))%Z /\
  (pid (e_residue ev) = 1000190390 -> how_many 2112 (e_others ev) = 1%nat /\ Forall (fun p => pid p = 22 \/ pid p = 2112) (e_others ev))%Z /\
  (pid (e_residue ev) = 1000180390 -> how_many 2212 (e_others ev) = 1%nat /\ Forall (fun p => pid p = 22 \/ pid p = 2212) (e_others ev))%Z.
Proof.
  intros (_ & _ & B3 & B4 & _) P1 P2 T1 J1 J2 F. destruct (light _ F) as (L1 & L2 & L3 & L4).
  change (particle_A (pid (e_projectile ev)) + (particle_A (pid (e_target ev)) + 0) = particle_A (pid (e_ejectile ev)) + (particle_A (pid (e_residue ev)) + zsum nucleons (e_others ev)))%Z in B3.
  change (chg (e_projectile ev) + particle_Z (pid (e_target ev)) = chg (e_ejectile ev) + (particle_Z (pid (e_residue ev)) + zsum protons (e_others ev)))%Z in B4.
  rewrite P1, T1, J1 in B3. rewrite P2, T1, J2 in B4.
  change (particle_A 12) with 0%Z in B3. change (particle_A 1000180400) with 40%Z in B3. change (particle_A 11) with 0%Z in B3. change (particle_Z 1000180400) with 18%Z in B4.
  assert (NO : forall code c', (code <> c')%Z -> how_many code (e_others ev) = O -> Forall (fun p => pid p = 22 \/ pid p = code \/ pid p = c')%Z (e_others ev) -> Forall (fun p => pid p = 22 \/ pid p = c')%Z (e_others ev)).
  { clear. intros code c' D. unfold how_many. induction (e_others ev) as [|p l IH]; intros H G; [constructor|]. inversion G as [|p' l' G1 G2]; subst. cbn [filter] in H.
    destruct (Z.eqb_spec (pid p) code) as [E|E]; [discriminate H|]. constructor; [destruct G1 as [G1|[G1|G1]]; [left; exact G1|contradiction|right; exact G1]|]. apply IH; assumption. }
  split; [|split]; intros R; rewrite R in B3, B4.
  - change (particle_A 1000190400) with 40%Z in B3. apply L3. lia.
  - change (particle_A 1000190390) with 39%Z in B3. change (particle_Z 1000190390) with 19%Z in B4. destruct (L4 ltac:(lia)) as (K1 & K2 & K3). assert (H0 : how_many 2212 (e_others ev) = O) by lia.
    split; [lia|]. apply (NO 2212 2112)%Z; [lia|exact H0|]. eapply Forall_impl; [|exact K3]. intros a [Ha|[Ha|Ha]]; auto.
  - change (particle_A 1000180390) with 39%Z in B3. change (particle_Z 1000180390) with 18%Z in B4. destruct (L4 ltac:(lia)) as (K1 & K2 & K3). assert (H0 : how_many 2112 (e_others ev) = O) by lia.
    split; [lia|]. apply (NO 2112 2212)%Z; [lia|exact H0|exact K3].
Qed.
Print Assumptions C87_classes.

(** An event with two photons; the electron goes straight forward. *)
Definition case_event : kevent :=
  mkev (mkpart 12 (964480968 / 10 ^ 8) 0 0 (964480968 / 10 ^ 8) 0 0) (mkpart 1000180400 40000 0 0 0 40000 0)
    (mkpart 11 (1064480968 / 10 ^ 8) 0 0 (964480968 / 10 ^ 8) (45044 / 10000) (-1)) (mkpart 1000190400 39997 0 0 0 39997 1)
    [mkpart 22 1 1 0 0 0 0; mkpart 22 1 (-1) 0 0 0 0] 2 0 true.
Example C87_case : balanced case_event /\ Forall product (e_others case_event) /\ E_reco case_event = en (e_projectile case_event) /\
  length (filter (fun p => Z.ltb 1000020040 (pid p)) (final_parts case_event)) = 1%nat /\
  momentum (e_projectile case_event) <> vnull /\ (exists t, 0 < t /\ momentum (e_ejectile case_event) = scale t (momentum (e_projectile case_event))).
Proof.
  assert (B : balanced case_event).
  { unfold balanced, same_p4, total, zsum, initial_parts, final_parts, case_event. cbn [e_projectile e_target e_ejectile e_residue e_others fold_right app en px py pz mass chg].
    split; [repeat split; lra|]. split; [reflexivity|]. split; [vm_compute; reflexivity|]. split; [vm_compute; reflexivity|].
    repeat (constructor; [unfold on_shell; cbn [en px py pz mass]; repeat split; lra|]). constructor. }
  split; [exact B|]. split; [repeat (constructor; [left; reflexivity|]); constructor|]. split.
  - apply C87_reco_right; [exact B| |unfold total, final_parts, case_event; cbn [e_target e_ejectile e_residue e_others fold_right en mass]; lra].
    intros p [<-|[<-|[<-|[<-|[]]]]]; discriminate.
  - split; [reflexivity|]. unfold momentum, case_event. cbn [e_projectile e_ejectile px py pz]. split; [intros H; apply (f_equal vz) in H; cbn [vz vnull] in H; lra|].
    exists 1. split; [lra|]. unfold scale. cbn [vx vy vz]. f_equal; lra.
Qed.
