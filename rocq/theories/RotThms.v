(** Rotations: C42, and the projectile direction: C41. *)
From Coq Require Import List ZArith Reals Lra Lia Psatz.
From Verif Require Import Base Kin KinSpec KinProofs Rot RotSpec RotProofs.
Import ListNotations.
Local Open Scope R_scope.

(** ** C42 *)

(** For any two non-null directions the matrix keeps all scalar products, has
    determinant one, and takes the first direction to the second. *)
Theorem C42_proper_rotation a b :
  a <> vnull -> b <> vnull ->
  exists m, rotation_matrix a b = Ok m /\
    (forall v w, dot (apply_mat m v) (apply_mat m w) = dot v w) /\ det m = 1 /\
    apply_mat m a = scale (norm a / norm b) b.
Proof.
  intros Ha Hb. destruct (rotation_matrix_ok a b Ha Hb) as (m & E & P & T). exists m.
  split; [exact E|]. split; [intros v w; apply proper_dot; exact P|]. split; [apply P|].
  pose proof (norm_pos a Ha) as Na. pose proof (norm_pos b Hb) as Nb.
  assert (Ea : a = scale (norm a) (unit_of a)).
  { destruct a as [x y z]. unfold scale, unit_of. cbn [vx vy vz]. f_equal; field; lra. }
  assert (Es : forall k v, apply_mat m (scale k v) = scale k (apply_mat m v)).
  { intros k v. unfold apply_mat, scale, dot. cbn [vx vy vz]. f_equal; ring. }
  rewrite Ea at 1. rewrite Es, T. unfold scale, unit_of. cbn [vx vy vz]. f_equal; field; lra.
Qed.
Print Assumptions C42_proper_rotation.

(** Null vectors are refused. *)
Theorem C42_null_refused a b : a = vnull \/ b = vnull -> rotation_matrix a b = Er MarleyErr.
Proof.
  intros H. unfold rotation_matrix. destruct (vec_eq_dec a vnull) as [|Na]; [reflexivity|].
  destruct (vec_eq_dec b vnull); [reflexivity|]. destruct H; contradiction.
Qed.
Print Assumptions C42_null_refused.

(** A rotated particle keeps its kind, energy and mass shell. *)
Theorem C42_particle m a b p :
  rotation_matrix a b = Ok m ->
  same_kind p (rotate_part m p) /\ en (rotate_part m p) = en p /\ (on_shell p -> on_shell (rotate_part m p)).
Proof.
  intros E. destruct (vec_eq_dec a vnull) as [C|Ha].
  { rewrite (C42_null_refused a b (or_introl C)) in E. discriminate. }
  destruct (vec_eq_dec b vnull) as [C|Hb].
  { rewrite (C42_null_refused a b (or_intror C)) in E. discriminate. }
  destruct (C42_proper_rotation a b Ha Hb) as (m' & E' & D & _). rewrite E in E'. injection E' as <-.
  split; [repeat split|]. split; [reflexivity|]. intros (Hm & He & Hs).
  unfold on_shell, rotate_part. cbn [mass en px py pz]. split; [exact Hm|]. split; [exact He|].
  specialize (D (momentum p) (momentum p)). 
  set (r := apply_mat m (momentum p)) in *. unfold dot, momentum in D. cbn [vx vy vz] in D. lra.
Qed.
Print Assumptions C42_particle.

(** Opposite directions take the two-reflection path, perpendicular ones the common
    path. *)
Example C42_example :
  rotation_matrix (mkv 0 0 2) (mkv 3 0 0) = Ok (mkmat (mkv 0 0 1) (mkv 0 1 0) (mkv (-1) 0 0)) /\
  exists m, rotation_matrix (mkv 0 0 2) (mkv 0 0 (-5)) = Ok m /\ apply_mat m (mkv 0 0 2) = mkv 0 0 (-2).
Proof.
  assert (N : forall x y z, x <> 0 \/ z <> 0 -> mkv x y z <> vnull).
  { intros x y z H C. injection C as -> -> ->. destruct H as [H|H]; apply H; reflexivity. }
  assert (S4 : sqrt (0 ^ 2 + 0 ^ 2 + 2 ^ 2) = 2) by (replace (0 ^ 2 + 0 ^ 2 + 2 ^ 2) with (2 ^ 2) by ring; apply sqrt_pow2; lra).
  assert (S9 : sqrt (3 ^ 2 + 0 ^ 2 + 0 ^ 2) = 3) by (replace (3 ^ 2 + 0 ^ 2 + 0 ^ 2) with (3 ^ 2) by ring; apply sqrt_pow2; lra).
  split.
  - unfold rotation_matrix. destruct (vec_eq_dec _ _) as [C|_]; [exfalso; revert C; apply N; lra|].
    destruct (vec_eq_dec _ _) as [C|_]; [exfalso; revert C; apply N; lra|].
    unfold normalize. cbn [vx vy vz]. rewrite S4, S9. cbv zeta.
    destruct (Rle_dec 2 0); [lra|]. destruct (Rle_dec 3 0); [lra|]. cbn [bind]. unfold dot. cbn [vx vy vz].
    replace (1 / 2 * 0 * (1 / 3 * 3) + 1 / 2 * 0 * (1 / 3 * 0) + 1 / 2 * 2 * (1 / 3 * 0)) with 0 by lra.
    rewrite Rabs_R0. destruct (Rlt_dec _ 0); [lra|]. f_equal. unfold turn, cross. cbv zeta. cbn [vx vy vz].
    f_equal; f_equal; field.
  - destruct (C42_proper_rotation (mkv 0 0 2) (mkv 0 0 (-5))) as (m & E & _ & _ & T);
      [apply N; lra|apply N; lra|].
    exists m. split; [exact E|]. rewrite T. unfold norm, dot, scale. cbn [vx vy vz].
    replace (0 * 0 + 0 * 0 + 2 * 2) with (2 ^ 2) by ring. replace (0 * 0 + 0 * 0 + -5 * -5) with (5 ^ 2) by ring.
    rewrite !sqrt_pow2 by lra. f_equal; field.
Qed.

(** ** C41 *)

Lemma zaxis_unit : dot zaxis zaxis = 1.
Proof. unfold dot, zaxis. cbn [vx vy vz]. ring. Qed.

(** What a rotator reached through the API satisfies. *)
Definition rot_inv (o : rotator) : Prop :=
  dot (o_dir o) (o_dir o) = 1 /\
  (o_last o = o_dir o \/ proper (o_mat o) /\ apply_mat (o_mat o) (o_last o) = o_dir o).

Definition default_rotator : rotator := mkrot zaxis zaxis identity false.
Lemma default_is_default : new_rotator zaxis = Ok default_rotator.
Proof.
  unfold new_rotator. destruct (vec_eq_dec zaxis vnull) as [C|_]; [exfalso; exact (unit_not_null _ zaxis_unit C)|].
  rewrite normalize_ok by (apply unit_not_null, zaxis_unit). cbn [bind].
  rewrite unit_of_id by apply zaxis_unit. reflexivity.
Qed.
Lemma default_inv : rot_inv default_rotator.
Proof. split; [apply zaxis_unit|]. left. reflexivity. Qed.

Lemma set_direction_inv d o : match set_direction d o with Ok o' => rot_inv o' | Er _ => d = vnull end.
Proof.
  unfold set_direction. destruct (vec_eq_dec d vnull) as [->|H].
  - rewrite normalize_null. reflexivity.
  - rewrite normalize_ok by exact H. cbn [bind]. split; [apply unit_of_unit; exact H|]. left. reflexivity.
Qed.

Lemma isotropic_unit ct phi : -1 <= ct <= 1 -> dot (isotropic ct phi) (isotropic ct phi) = 1.
Proof.
  intros H. pose proof (sphere 1 ct phi ltac:(nra)) as S. unfold isotropic, dot. cbv zeta. cbn [vx vy vz]. lra.
Qed.

Lemma magnitude_norm p : momentum_magnitude p = norm (momentum p).
Proof. unfold momentum_magnitude, norm, momentum, dot. cbn [vx vy vz]. f_equal. ring. Qed.

(** The whole effect of one call. *)
Lemma process_spec o ct phi e : rot_inv o -> (o_random o = true -> -1 <= ct <= 1) ->
  exists o' e', process_event o ct phi e = Ok (o', e') /\ rot_inv o' /\ o_random o' = o_random o /\
    (momentum_magnitude (e_projectile e) = 0 -> e' = e /\ o' = o) /\
    (0 < momentum_magnitude (e_projectile e) ->
      o_dir o' = (if o_random o then isotropic ct phi else o_dir o) /\
      exists m, proper m /\ e' = rotate_event m e /\
        apply_mat m (momentum (e_projectile e)) = scale (momentum_magnitude (e_projectile e)) (o_dir o')).
Proof.
  intros HI HR. unfold process_event. cbv zeta.
  assert (Hid : forall p, rotate_part identity p = p).
  { intros [i en0 x y z m q]. unfold rotate_part. rewrite identity_apply. reflexivity. }
  assert (Hide : e = rotate_event identity e).
  { destruct e as [a b c d l Ex tj P]. unfold rotate_event. cbn [e_projectile e_target e_ejectile e_residue e_others e_Ex e_twoJ e_parity].
    rewrite !Hid. f_equal. rewrite <- (map_id l) at 1. apply map_ext. intros p. symmetry. apply Hid. }
  destruct (Rle_dec (momentum_magnitude (e_projectile e)) 0) as [L|L].
  { exists o, e. split; [reflexivity|]. split; [exact HI|]. split; [reflexivity|].
    split; [auto|]. intros C. exfalso. lra. }
  set (pm := momentum_magnitude (e_projectile e)) in *.
  assert (Hpm : 0 < pm) by lra.
  assert (Epm : pm = norm (momentum (e_projectile e))) by apply magnitude_norm.
  set (p := e_projectile e) in *. set (pd := mkv (px p / pm) (py p / pm) (pz p / pm)).
  assert (Epd : pd = unit_of (momentum p)) by (unfold pd, unit_of; rewrite <- Epm; reflexivity).
  assert (Hnn : momentum p <> vnull).
  { intros C. rewrite C in Epm. unfold norm, vnull, dot in Epm. cbn [vx vy vz] in Epm.
    replace (0 * 0 + 0 * 0 + 0 * 0) with 0 in Epm by ring. rewrite sqrt_0 in Epm. lra. }
  assert (Upd : dot pd pd = 1) by (rewrite Epd; apply unit_of_unit; exact Hnn).
  assert (Esc : momentum p = scale pm pd) by (unfold scale, pd, momentum; cbn [vx vy vz]; f_equal; field; lra).
  assert (H1 : exists o1, (if o_random o then set_direction (isotropic ct phi) o else Ok o) = Ok o1 /\ rot_inv o1 /\
      o_random o1 = o_random o /\ o_dir o1 = (if o_random o then isotropic ct phi else o_dir o)).
  { destruct (o_random o) eqn:Er; [|exists o; auto].
    pose proof (isotropic_unit ct phi (HR eq_refl)) as U.
    pose proof (set_direction_inv (isotropic ct phi) o) as SI.
    unfold set_direction in SI |- *. rewrite normalize_ok in SI |- * by (apply unit_not_null; exact U).
    cbn [bind] in SI |- *. eexists. split; [reflexivity|]. split; [exact SI|]. split; [exact Er|]. cbn [o_dir].
    apply unit_of_id. exact U. }
  destruct H1 as (o1 & E1 & I1 & R1 & D1). rewrite E1. cbn [bind].
  destruct (vec_eq_dec pd (o_dir o1)) as [Ed|Ed].
  { exists o1, e. split; [reflexivity|]. split; [exact I1|]. split; [exact R1|].
    split; [intros C; exfalso; lra|]. intros _. split; [exact D1|].
    exists identity. split; [apply identity_proper|]. split; [exact Hide|].
    rewrite identity_apply, Esc, Ed. reflexivity. }
  assert (Es : forall m k v, apply_mat m (scale k v) = scale k (apply_mat m v)).
  { intros m k v. unfold apply_mat, scale, dot. cbn [vx vy vz]. f_equal; ring. }
  destruct I1 as [U1 I1].
  destruct (vec_eq_dec pd (o_last o1)) as [El|El].
  - destruct I1 as [I1|[P1 A1]]; [exfalso; congruence|]. cbn [bind].
    exists o1, (rotate_event (o_mat o1) e). split; [reflexivity|]. split; [split; auto|]. split; [exact R1|].
    split; [intros C; exfalso; lra|]. intros _. split; [exact D1|].
    exists (o_mat o1). split; [exact P1|]. split; [reflexivity|].
    rewrite Esc, Es, El, A1. reflexivity.
  - destruct (rotation_matrix_ok pd (o_dir o1) (unit_not_null _ Upd) (unit_not_null _ U1)) as (m & Em & Pm & Tm).
    rewrite (unit_of_id pd Upd), (unit_of_id _ U1) in Tm. rewrite Em. cbn [bind].
    eexists _, _. split; [reflexivity|]. cbn [o_dir o_last o_mat o_random].
    split; [split; [exact U1|right; split; [exact Pm|exact Tm]]|]. split; [exact R1|].
    split; [intros C; exfalso; lra|]. intros _. split; [exact D1|].
    exists m. split; [exact Pm|]. split; [reflexivity|]. rewrite Esc, Es, Tm. reflexivity.
Qed.

Lemma step_inv o op : rot_inv o -> (o_random o = true -> good_draw op) -> rot_inv (rot_step o op).
Proof.
  intros HI HG. destruct op as [d|b|ct phi e]; cbn [rot_step].
  - pose proof (set_direction_inv d o) as H. destruct (set_direction d o); [exact H|exact HI].
  - exact HI.
  - destruct (process_spec o ct phi e HI HG) as (o' & e' & E & I' & _). rewrite E. exact I'.
Qed.

Lemma run_inv ops o : rot_inv o -> Forall good_draw ops -> rot_inv (rot_run o ops).
Proof.
  revert o. induction ops as [|op r IH]; intros o HI HG; [exact HI|].
  inversion HG as [|? ? G1 G2]; subst. cbn [rot_run fold_left]. apply IH; [|exact G2].
  apply step_inv; [exact HI|auto].
Qed.

(** After any history of direction changes and events, an event with a moving
    projectile comes out with the projectile along the rotator's direction, all of its
    particles turned by one proper rotation; an event whose projectile is at rest is
    untouched. *)
Theorem C41_history ops ct phi e :
  Forall good_draw ops -> -1 <= ct <= 1 ->
  let o := rot_run default_rotator ops in
  exists o' e', process_event o ct phi e = Ok (o', e') /\
    (momentum_magnitude (e_projectile e) = 0 -> e' = e) /\
    (0 < momentum_magnitude (e_projectile e) ->
      momentum (e_projectile e') = scale (momentum_magnitude (e_projectile e)) (o_dir o') /\
      dot (o_dir o') (o_dir o') = 1 /\
      o_dir o' = (if o_random o then isotropic ct phi else o_dir o) /\
      exists m, (forall v w, dot (apply_mat m v) (apply_mat m w) = dot v w) /\ det m = 1 /\ e' = rotate_event m e).
Proof.
  intros HG Hc o. pose proof (run_inv ops default_rotator default_inv HG) as HI. fold o in HI.
  destruct (process_spec o ct phi e HI (fun _ => Hc)) as (o' & e' & E & (U & _) & _ & S1 & S2).
  exists o', e'. split; [exact E|]. split; [apply S1|]. intros H. destruct (S2 H) as (D & m & P & Ee & T).
  split.
  { rewrite Ee. cbn [rotate_event e_projectile]. unfold rotate_part, momentum at 1. cbn [px py pz].
    rewrite T. destruct (o_dir o'). reflexivity. }
  split; [exact U|]. split; [exact D|].
  exists m. split; [intros v w; apply proper_dot; exact P|]. split; [apply P|exact Ee].
Qed.
Print Assumptions C41_history.

Lemma asked_app ops op : asked (ops ++ [op]) = match op with
    | SetDir v => if vec_eq_dec v vnull then asked ops else unit_of v
    | _ => asked ops end.
Proof. unfold asked. rewrite fold_left_app. reflexivity. Qed.

(** Without random directions, the rotator's direction is the last one asked for. *)
Theorem C41_direction ops :
  Forall fixed_direction ops -> let o := rot_run default_rotator ops in
  o_dir o = asked ops /\ o_random o = false.
Proof.
  cbv zeta. intros HF.
  enough (H : rot_inv (rot_run default_rotator ops) /\ o_dir (rot_run default_rotator ops) = asked ops /\
              o_random (rot_run default_rotator ops) = false) by (split; apply H).
  revert HF. induction ops as [|op r IH] using rev_ind; intros HF.
  { split; [apply default_inv|split; reflexivity]. }
  apply Forall_app in HF. destruct HF as [HF1 HF2]. inversion HF2 as [|? ? F _]; subst.
  destruct (IH HF1) as (II & ID & IR). unfold rot_run in *. rewrite asked_app, fold_left_app. cbn [fold_left].
  set (o := fold_left rot_step r default_rotator) in *.
  split; [apply step_inv; [exact II|intros C; congruence]|].
  destruct op as [d|b|ct phi e]; cbn [rot_step].
  - unfold set_direction. destruct (vec_eq_dec d vnull) as [->|H].
    + rewrite normalize_null. cbn [bind]. split; [exact ID|exact IR].
    + rewrite normalize_ok by exact H. cbn [bind o_dir o_random]. split; [reflexivity|exact IR].
  - cbn [fixed_direction] in F. subst b. split; [exact ID|reflexivity].
  - destruct (process_spec o ct phi e II) as (o' & e' & E & _ & Rr & S1 & S2); [intros C; congruence|].
    rewrite E. split; [|congruence].
    destruct (Rle_lt_dec (momentum_magnitude (e_projectile e)) 0) as [L|L].
    + assert (Z : momentum_magnitude (e_projectile e) = 0) by (pose proof (sqrt_pos (px (e_projectile e) ^ 2 + py (e_projectile e) ^ 2 + pz (e_projectile e) ^ 2)); unfold momentum_magnitude in *; lra).
      destruct (S1 Z) as [_ ->]. exact ID.
    + destruct (S2 L) as [D _]. rewrite D, IR. exact ID.
Qed.
Print Assumptions C41_direction.

(** An event whose projectile already travels along the direction is left exactly as it was,
    and so is the rotator. *)
Theorem C41_aligned ops ct phi e : Forall fixed_direction ops -> let o := rot_run default_rotator ops in
  0 < momentum_magnitude (e_projectile e) ->
  momentum (e_projectile e) = scale (momentum_magnitude (e_projectile e)) (asked ops) ->
  process_event o ct phi e = Ok (o, e).
Proof.
  intros HF o HM HD. destruct (C41_direction ops HF) as [D1 D2]. fold o in D1, D2. rewrite <- D1 in HD.
  unfold process_event. cbv zeta. set (pm := momentum_magnitude (e_projectile e)) in *. destruct (Rle_dec pm 0); [lra|].
  rewrite D2. cbn [bind]. unfold momentum, scale in HD. injection HD as X Y Z. rewrite X, Y, Z.
  destruct (vec_eq_dec _ (o_dir o)) as [_|N]; [reflexivity|]. exfalso. apply N. clear - n.
  destruct (o_dir o) as [x y z]. cbn [vx vy vz]. f_equal; field; lra.
Qed.
Print Assumptions C41_aligned.

(** Without random directions a second pass changes nothing. *)
Theorem C41_twice ops ct phi e o' e' ct' phi' : Forall fixed_direction ops -> Forall good_draw ops -> -1 <= ct <= 1 ->
  process_event (rot_run default_rotator ops) ct phi e = Ok (o', e') ->
  process_event o' ct' phi' e' = Ok (o', e').
Proof.
  intros HF GD Hc E. set (ops' := ops ++ [Process ct phi e]).
  assert (HF' : Forall fixed_direction ops') by (apply Forall_app; split; [exact HF|repeat constructor]).
  assert (EO : rot_run default_rotator ops' = o').
  { unfold ops', rot_run. rewrite fold_left_app. cbn [fold_left rot_step]. unfold rot_run in E. rewrite E. reflexivity. }
  destruct (C41_history ops ct phi e GD Hc) as (o2 & e2 & E2 & H1 & H2). cbv zeta in E2. rewrite E in E2. injection E2 as <- <-.
  destruct (Rle_lt_dec (momentum_magnitude (e_projectile e)) 0) as [L|L].
  - assert (Z : momentum_magnitude (e_projectile e) = 0) by (pose proof (sqrt_pos (px (e_projectile e) ^ 2 + py (e_projectile e) ^ 2 + pz (e_projectile e) ^ 2)); unfold momentum_magnitude in *; lra).
    rewrite (H1 Z). unfold process_event. cbv zeta. destruct (Rle_dec _ 0); [reflexivity|contradiction].
  - destruct (H2 L) as (M & U & _ & m & PR & _ & EE).
    assert (MM : momentum_magnitude (e_projectile e') = momentum_magnitude (e_projectile e)).
    { injection M as X Y Z. unfold momentum_magnitude at 1. rewrite X, Y, Z.
      assert (Q : forall k (w : vec), dot w w = 1 -> (k * vx w) ^ 2 + (k * vy w) ^ 2 + (k * vz w) ^ 2 = k ^ 2).
      { intros k w Hw. unfold dot in Hw. transitivity (k ^ 2 * (vx w * vx w + vy w * vy w + vz w * vz w)); [ring|rewrite Hw; ring]. }
      rewrite (Q _ _ U). rewrite sqrt_pow2; [reflexivity|lra]. }
    rewrite <- EO in *. apply C41_aligned; [exact HF'|rewrite MM; exact L|]. rewrite MM, M. f_equal. apply (C41_direction ops' HF').
Qed.
Print Assumptions C41_twice.

(** Total momentum, energy and mass shells survive: the rotated event conserves
    four-momentum whenever the original does. *)
Theorem C41_conserves ops ct phi e o' e' :
  Forall good_draw ops -> -1 <= ct <= 1 ->
  process_event (rot_run default_rotator ops) ct phi e = Ok (o', e') ->
  same_p4 (initial_parts e) (final_parts e) -> same_p4 (initial_parts e') (final_parts e').
Proof.
  intros HG Hc E S.
  destruct (process_spec (rot_run default_rotator ops) ct phi e (run_inv _ _ default_inv HG) (fun _ => Hc))
    as (o2 & e2 & E2 & _ & _ & S1 & S2).
  rewrite E in E2. injection E2 as <- <-.
  destruct (Rle_lt_dec (momentum_magnitude (e_projectile e)) 0) as [L|L].
  { assert (Z : momentum_magnitude (e_projectile e) = 0) by (pose proof (sqrt_pos (px (e_projectile e) ^ 2 + py (e_projectile e) ^ 2 + pz (e_projectile e) ^ 2)); unfold momentum_magnitude in *; lra).
    destruct (S1 Z) as [-> _]. exact S. }
  destruct (S2 L) as (_ & m & _ & -> & _).
  assert (HT : forall l, total px (map (rotate_part m) l) = dot (row0 m) (mkv (total px l) (total py l) (total pz l)) /\
     total py (map (rotate_part m) l) = dot (row1 m) (mkv (total px l) (total py l) (total pz l)) /\
     total pz (map (rotate_part m) l) = dot (row2 m) (mkv (total px l) (total py l) (total pz l)) /\
     total en (map (rotate_part m) l) = total en l).
  { induction l as [|p l (I0 & I1 & I2 & I3)].
    - unfold total, dot. cbn [map fold_right vx vy vz]. repeat split; ring.
    - change (total px (map (rotate_part m) (p :: l))) with (px (rotate_part m p) + total px (map (rotate_part m) l)).
      change (total py (map (rotate_part m) (p :: l))) with (py (rotate_part m p) + total py (map (rotate_part m) l)).
      change (total pz (map (rotate_part m) (p :: l))) with (pz (rotate_part m p) + total pz (map (rotate_part m) l)).
      change (total en (map (rotate_part m) (p :: l))) with (en (rotate_part m p) + total en (map (rotate_part m) l)).
      rewrite I0, I1, I2, I3.
      change (total px (p :: l)) with (px p + total px l). change (total py (p :: l)) with (py p + total py l).
      change (total pz (p :: l)) with (pz p + total pz l). change (total en (p :: l)) with (en p + total en l).
      unfold rotate_part, apply_mat, momentum, dot. cbn [px py pz en vx vy vz]. repeat split; ring. }
  assert (Ei : initial_parts (rotate_event m e) = map (rotate_part m) (initial_parts e)) by reflexivity.
  assert (Ef : final_parts (rotate_event m e) = map (rotate_part m) (final_parts e)) by reflexivity.
  unfold same_p4 in *. rewrite Ei, Ef.
  destruct (HT (initial_parts e)) as (A0 & A1 & A2 & A3), (HT (final_parts e)) as (B0 & B1 & B2 & B3).
  destruct S as (Z0 & Z1 & Z2 & Z3). rewrite A0, A1, A2, A3, B0, B1, B2, B3, Z0, Z1, Z2, Z3. auto.
Qed.
Print Assumptions C41_conserves.

(** A rotator constructed directly with another direction does not turn events whose
    projectile moves along z. *)
Definition still : part := mkpart 0 0 0 0 0 0 0.
Definition along_z : kevent := mkev (mkpart 12 5 0 0 5 0 0) still still still [] 0 0 true.

Theorem C41_constructor_refuted :
  exists o, new_rotator (mkv 1 0 0) = Ok o /\ o_dir o = mkv 1 0 0 /\
  forall ct phi, exists o' e', process_event o ct phi along_z = Ok (o', e') /\
    momentum (e_projectile e') = mkv 0 0 5.
Proof.
  assert (U : dot (mkv 1 0 0) (mkv 1 0 0) = 1) by (unfold dot; cbn [vx vy vz]; ring).
  exists (mkrot (mkv 1 0 0) zaxis identity false). split.
  { unfold new_rotator. destruct (vec_eq_dec _ _) as [C|_]; [exfalso; exact (unit_not_null _ U C)|].
    rewrite normalize_ok by (apply unit_not_null, U). cbn [bind]. rewrite unit_of_id by exact U. reflexivity. }
  split; [reflexivity|]. intros ct phi.
  assert (M : momentum_magnitude (e_projectile along_z) = 5).
  { unfold momentum_magnitude, along_z. cbn [e_projectile px py pz].
    replace (0 ^ 2 + 0 ^ 2 + 5 ^ 2) with (5 ^ 2) by ring. apply sqrt_pow2. lra. }
  unfold process_event. cbv zeta. rewrite M. destruct (Rle_dec 5 0); [lra|]. cbn [o_random bind].
  assert (Ed : mkv (px (e_projectile along_z) / 5) (py (e_projectile along_z) / 5) (pz (e_projectile along_z) / 5) = zaxis).
  { unfold along_z, zaxis. cbn [e_projectile px py pz]. f_equal; field. }
  rewrite Ed. destruct (vec_eq_dec zaxis (o_dir (mkrot (mkv 1 0 0) zaxis identity false))) as [C|_].
  { exfalso. apply (f_equal vx) in C. unfold zaxis in C. cbn [o_dir vx] in C. lra. }
  destruct (vec_eq_dec zaxis (o_last _)) as [_|C]; [|exfalso; apply C; reflexivity]. cbn [bind].
  eexists _, _. split; [reflexivity|].
  unfold rotate_event. cbn [e_projectile o_mat]. unfold momentum at 1, rotate_part. rewrite identity_apply. reflexivity.
Qed.
Print Assumptions C41_constructor_refuted.

(** The null vector is refused as a direction, by the constructor and later on, and nothing
    else is. *)
Theorem C41_null dir o :
  (new_rotator dir = Er MarleyErr <-> dir = vnull) /\ (set_direction dir o = Er MarleyErr <-> dir = vnull) /\
  (dir <> vnull -> exists o1 o2, new_rotator dir = Ok o1 /\ set_direction dir o = Ok o2 /\ o_dir o1 = o_dir o2 /\ dot (o_dir o1) (o_dir o1) = 1).
Proof.
  destruct (vec_eq_dec dir vnull) as [->|N].
  - assert (E1 : new_rotator vnull = Er MarleyErr) by (unfold new_rotator; destruct (vec_eq_dec vnull vnull) as [_|C]; [reflexivity|contradiction]).
    assert (E2 : set_direction vnull o = Er MarleyErr) by (unfold set_direction; rewrite normalize_null; reflexivity).
    rewrite E1, E2. split; [tauto|]. split; [tauto|]. intros C. contradiction.
  - assert (E1 : new_rotator dir = Ok (mkrot (unit_of dir) zaxis identity false)) by (unfold new_rotator; destruct (vec_eq_dec dir vnull) as [C|_]; [contradiction|]; rewrite normalize_ok by exact N; reflexivity).
    assert (E2 : set_direction dir o = Ok (mkrot (unit_of dir) (unit_of dir) (o_mat o) (o_random o))) by (unfold set_direction; rewrite normalize_ok by exact N; reflexivity).
    rewrite E1, E2. split; [split; [discriminate|contradiction]|]. split; [split; [discriminate|contradiction]|]. intros _. eexists _, _. split; [reflexivity|]. split; [reflexivity|]. split; [reflexivity|]. cbn [o_dir]. apply unit_of_unit, N.
Qed.
Print Assumptions C41_null.

(** Three directions in a row, with events in between. *)
Example C41_example : exists o' e',
  process_event (rot_run default_rotator
    [Process 0 0 along_z; SetDir (mkv 3 0 4); Process 0 0 along_z; SetDir vnull; SetDir (mkv 0 2 0); Process 0 0 along_z]) 0 0 along_z = Ok (o', e') /\
  momentum (e_projectile e') = mkv 0 5 0.
Proof.
  set (ops := [Process 0 0 along_z; SetDir (mkv 3 0 4); Process 0 0 along_z; SetDir vnull; SetDir (mkv 0 2 0); Process 0 0 along_z]).
  assert (HG : Forall good_draw ops) by (unfold ops; repeat apply Forall_cons; cbn [good_draw]; try lra; auto).
  assert (HF : Forall fixed_direction ops) by (unfold ops; repeat apply Forall_cons; cbn [fixed_direction]; auto).
  destruct (C41_history ops 0 0 along_z HG ltac:(lra)) as (o' & e' & E & _ & H).
  assert (M : momentum_magnitude (e_projectile along_z) = 5).
  { unfold momentum_magnitude, along_z. cbn [e_projectile px py pz].
    replace (0 ^ 2 + 0 ^ 2 + 5 ^ 2) with (5 ^ 2) by ring. apply sqrt_pow2. lra. }
  destruct (H ltac:(lra)) as (P & _ & D & _). destruct (C41_direction ops HF) as [A R].
  exists o', e'. split; [exact E|]. rewrite P, D, R, A, M. unfold ops, asked. cbn [fold_left].
  destruct (vec_eq_dec vnull vnull) as [_|C]; [|contradiction C; reflexivity].
  destruct (vec_eq_dec (mkv 0 2 0) vnull) as [C|_]; [apply (f_equal vy) in C; cbn [vy vnull] in C; lra|].
  unfold unit_of, norm, dot, scale. cbn [vx vy vz]. replace (0 * 0 + 2 * 2 + 0 * 0) with (2 ^ 2) by ring.
  rewrite sqrt_pow2 by lra. f_equal; field.
Qed.
