(** Property C66: interpolation at Chebyshev points. *)
From Coq Require Import List Reals Bool Arith ZArith Lia Lra Ranalysis.
From Verif Require Import Base Sample SampleProofs SampleThms Quad QuadThms Cheb ChebProofs.
Import ListNotations.
Open Scope R_scope.

(** ** The work array of the transform *)

Lemma factors_bound : forall fuel j ntry nl nf r, (2 <= ntry)%nat -> (1 <= nl)%nat -> (1 <= j)%nat ->
  factors j ntry nl nf fuel = Ok r -> (nf < r)%nat /\ (2 ^ (r - nf) <= nl)%nat.
Proof.
  induction fuel as [|fuel IH]; intros j ntry nl nf r H2 H1 Hj H; [discriminate|]. cbn [factors] in H. cbv zeta in H.
  destruct (Nat.eqb_spec (nl mod ntry) 0) as [D|ND].
  - assert (EM : nl = (ntry * (nl / ntry))%nat) by (rewrite (Nat.div_mod nl ntry) at 1 by lia; lia).
    destruct (Nat.eqb_spec (nl / ntry) 1) as [Q|NQ].
    + injection H as <-. replace (S nf - nf)%nat with 1%nat by lia. cbn [Nat.pow]. rewrite Q in EM. lia.
    + apply IH in H; [|exact H2|destruct (nl / ntry)%nat; lia|exact Hj]. destruct H as [HA HB]. split; [lia|].
      replace (r - nf)%nat with (S (r - S nf)) by lia. cbn [Nat.pow]. nia.
  - apply IH in H; [exact H| |exact H1|lia]. destruct j as [|[|[|[|j]]]]; lia.
Qed.

Lemma div_exact ntry nl : (2 <= ntry)%nat -> (nl mod ntry = 0)%nat -> nl = (ntry * (nl / ntry))%nat.
Proof. intros H D. rewrite (Nat.div_mod nl ntry) at 1 by lia. lia. Qed.

(** The search ends: from the third trial on the divisors are odd and grow by two, and
    what is left is odd and has no smaller divisor. *)
Lemma factors_odd : forall fuel j ntry nl nf, (2 <= ntry)%nat -> (1 < nl)%nat ->
  (forall d, (2 <= d)%nat -> (d < ntry)%nat -> nl mod d <> 0)%nat -> (3 <= j)%nat -> Nat.odd ntry = true -> Nat.odd nl = true ->
  (3 = j -> ntry = 3)%nat -> (nl + nl <= fuel + ntry)%nat ->
  exists r, factors j ntry nl nf fuel = Ok r.
Proof.
  induction fuel as [|fuel IH]; intros j ntry nl nf H2 HN HD Hj HO HL E3 HF;
  (assert (LE : (ntry <= nl)%nat) by (apply Nat.nlt_ge; intros C; apply (HD nl); [lia|exact C|]; apply Nat.mod_same; lia)).
  - lia.
  - cbn [factors]. cbv zeta. destruct (Nat.eqb_spec (nl mod ntry) 0) as [D|ND].
    + pose proof (div_exact _ _ H2 D) as EM. set (q := (nl / ntry)%nat) in *. destruct (Nat.eqb_spec q 1) as [Q|NQ]; [eexists; reflexivity|].
      assert (Q2 : (2 <= q)%nat) by nia. apply IH; [exact H2|lia| |exact Hj|exact HO| |exact E3|nia].
      * intros d D1 D2 C. apply (HD d D1 D2). apply Nat.mod_divide; [lia|]. apply Nat.mod_divide in C; [|lia]. rewrite EM. apply Nat.divide_mul_r. exact C.
      * rewrite EM, Nat.odd_mul, HO in HL. exact HL.
    + replace (match S j with 2%nat => 2%nat | 3%nat => 3%nat | 4%nat => 5%nat | _ => (ntry + 2)%nat end) with (ntry + 2)%nat.
      2:{ destruct j as [|[|[|[|j]]]]; [lia|lia|lia| |reflexivity]. rewrite (E3 eq_refl). reflexivity. }
      apply IH; [lia|exact HN| |lia| |exact HL|lia|lia].
      * intros d D1 D2. destruct (le_lt_dec ntry d) as [L|L]; [|apply HD; assumption]. destruct (Nat.eq_dec d ntry) as [->|NE]; [exact ND|].
        assert (d = S ntry) by lia. subst d. intros C. apply Nat.mod_divide in C; [|lia]. destruct C as [c C]. rewrite C, Nat.odd_mul, Nat.odd_succ in HL.
        rewrite <- Nat.negb_odd, HO in HL. rewrite andb_false_r in HL. discriminate.
      * rewrite Nat.odd_add, HO. reflexivity.
Qed.

Lemma odd_mod2 n : (n mod 2 <> 0)%nat -> Nat.odd n = true.
Proof. intros H. rewrite <- Nat.negb_even. destruct (Nat.even n) eqn:E; [|reflexivity]. exfalso. apply H. apply Nat.even_spec in E. destruct E as [k ->]. rewrite Nat.mul_comm. apply Nat.mod_mul. lia. Qed.

Lemma factors_two : forall fuel nl nf, (1 < nl)%nat -> (nl + nl + 2 <= fuel)%nat -> exists r, factors 2 2 nl nf fuel = Ok r.
Proof.
  induction fuel as [|fuel IH]; intros nl nf HN HF; [lia|]. cbn [factors]. cbv zeta. destruct (Nat.eqb_spec (nl mod 2) 0) as [D|ND].
  - pose proof (div_exact 2 nl ltac:(lia) D) as EM. set (q := (nl / 2)%nat) in *. destruct (Nat.eqb_spec q 1) as [Q|NQ]; [eexists; reflexivity|]. apply IH; lia.
  - apply factors_odd; try lia; [|reflexivity|apply odd_mod2; exact ND]. intros d D1 D2. assert (d = 2)%nat by lia. subst d. exact ND.
Qed.

Lemma factors_four : forall fuel nl nf, (1 < nl)%nat -> (nl + nl + 3 <= fuel)%nat -> exists r, factors 1 4 nl nf fuel = Ok r.
Proof.
  induction fuel as [|fuel IH]; intros nl nf HN HF; [lia|]. cbn [factors]. cbv zeta. destruct (Nat.eqb_spec (nl mod 4) 0) as [D|ND].
  - pose proof (div_exact 4 nl ltac:(lia) D) as EM. set (q := (nl / 4)%nat) in *. destruct (Nat.eqb_spec q 1) as [Q|NQ]; [eexists; reflexivity|]. apply IH; lia.
  - apply factors_two; lia.
Qed.

Lemma pow2_big n : (5 <= n)%nat -> (2 * n + 2 < 2 ^ n)%nat.
Proof. intros H. induction H as [|n H IH]; [cbn; lia|]. cbn [Nat.pow]. lia. Qed.

Lemma room_cases N : (1 <= N)%nat -> room_for_factors N = Ok (negb (existsb (Nat.eqb N) [3; 4; 6]%nat)).
Proof.
  intros HN. destruct (le_lt_dec 12 N) as [L|L].
  - unfold room_for_factors. destruct (Nat.leb_spec (S N) 3); [lia|]. destruct (factors_four (2 * N + 8) N 0 ltac:(lia) ltac:(lia)) as [r E]. rewrite E. cbn [bind].
    apply factors_bound in E; [|lia|lia|lia]. destruct E as [_ E]. rewrite Nat.sub_0_r in E.
    destruct (Nat.leb_spec (r + 2) (S N / 2)) as [_|C].
    + cbn [existsb]. destruct (Nat.eqb_spec N 3), (Nat.eqb_spec N 4), (Nat.eqb_spec N 6); try lia. reflexivity.
    + exfalso. assert (D : (S N <= 2 * (S N / 2) + 1)%nat). { pose proof (Nat.div_mod (S N) 2 ltac:(lia)). pose proof (Nat.mod_upper_bound (S N) 2 ltac:(lia)). lia. }
      assert (6 <= S N / 2)%nat by (apply Nat.div_le_lower_bound; lia). pose proof (pow2_big r ltac:(lia)). lia.
  - do 12 (destruct N as [|N]; [try lia; reflexivity|]). lia.
Qed.

Lemma pass_made f lo hi N : (1 <= N)%nat -> existsb (Nat.eqb N) [3; 4; 6]%nat = false ->
  let Xs := map (chebyshev_point N lo hi) (seq 0 (S N)) in grid_pass f lo hi N = Ok (Xs, map f Xs, cost (map f Xs)).
Proof. intros HN HE. cbv zeta. unfold grid_pass. rewrite (room_cases N HN), HE. reflexivity. Qed.

Lemma pass_undefined f lo hi N : (1 <= N)%nat -> existsb (Nat.eqb N) [3; 4; 6]%nat = true -> grid_pass f lo hi N = Er Undefined.
Proof. intros HN HE. unfold grid_pass. rewrite (room_cases N HN), HE. reflexivity. Qed.

Lemma build_made f lo hi N : (1 <= N)%nat -> existsb (Nat.eqb N) [3; 4; 6]%nat = false -> exists g, build f lo hi N = Ok g /\ made f lo hi N g.
Proof.
  intros HN HE. unfold build. destruct (Nat.eqb_spec N 0); [lia|]. cbn [find_size]. cbv zeta. rewrite (pass_made f lo hi N HN HE). cbn [bind orb].
  eexists. split; [reflexivity|]. unfold made. cbn [ch_N ch_lo ch_hi ch_Xs ch_Fs ch_coeffs ch_integral]. auto 10.
Qed.

Lemma build_is_made f lo hi N g : (1 <= N)%nat -> build f lo hi N = Ok g -> made f lo hi N g.
Proof.
  intros HN H. destruct (existsb (Nat.eqb N) [3; 4; 6]%nat) eqn:E.
  - unfold build in H. destruct (Nat.eqb_spec N 0); [lia|]. cbn [find_size] in H. cbv zeta in H. rewrite (pass_undefined f lo hi N HN E) in H. discriminate.
  - destruct (build_made f lo hi N HN E) as (g' & E' & M). rewrite E' in H. injection H as <-. exact M.
Qed.

(** ** Polynomials *)

Definition ispoly (d : nat) (f : R -> R) : Prop := exists cs, length cs = d /\ forall x, f x = poly cs x.

Lemma poly_add : forall a b, length a = length b -> exists c, length c = length a /\ forall x, poly c x = poly a x + poly b x.
Proof.
  induction a as [|u a IH]; intros [|v b] H; try discriminate H; [exists []; split; [reflexivity|]; intros; cbn [poly]; ring|].
  injection H as H. destruct (IH b H) as (c & L & E). exists (u + v :: c). split; [cbn [length]; lia|]. intros x. cbn [poly]. rewrite E. ring.
Qed.
Lemma poly_scale k : forall a, exists c, length c = length a /\ forall x, poly c x = k * poly a x.
Proof. induction a as [|u a (c & L & E)]; [exists []; split; [reflexivity|intros; cbn [poly]; ring]|]. exists (k * u :: c). split; [cbn [length]; lia|]. intros x. cbn [poly]. rewrite E. ring. Qed.
Lemma poly_pad : forall a n, (length a <= n)%nat -> exists c, length c = n /\ forall x, poly c x = poly a x.
Proof.
  induction a as [|u a IH]; intros n H.
  - exists (repeat 0 n). split; [apply repeat_length|]. intros x. induction n as [|n IHn]; [reflexivity|]. cbn [repeat poly]. rewrite IHn by (cbn [length]; lia). cbn [poly]. ring.
  - destruct n as [|n]; [cbn [length] in H; lia|]. destruct (IH n ltac:(cbn [length] in H; lia)) as (c & L & E). exists (u :: c). split; [cbn [length]; lia|]. intros x. cbn [poly]. rewrite E. reflexivity.
Qed.

Lemma ispoly_plus d f g : ispoly d f -> ispoly d g -> ispoly d (fun x => f x + g x).
Proof. intros (a & La & Ea) (b & Lb & Eb). destruct (poly_add a b) as (c & L & E); [congruence|]. exists c. split; [congruence|]. intros x. rewrite E, Ea, Eb. reflexivity. Qed.
Lemma ispoly_scal d k f : ispoly d f -> ispoly d (fun x => k * f x).
Proof. intros (a & La & Ea). destruct (poly_scale k a) as (c & L & E). exists c. split; [congruence|]. intros x. rewrite E, Ea. reflexivity. Qed.
Lemma ispoly_pad d n f : (d <= n)%nat -> ispoly d f -> ispoly n f.
Proof. intros H (a & La & Ea). destruct (poly_pad a n ltac:(lia)) as (c & L & E). exists c. split; [exact L|]. intros x. rewrite E. apply Ea. Qed.
Lemma ispoly_x d f : ispoly d f -> ispoly (S d) (fun x => x * f x).
Proof. intros (a & La & Ea). exists (0 :: a). split; [cbn [length]; lia|]. intros x. cbn [poly]. rewrite <- Ea. ring. Qed.
Lemma ispoly_ext d f g : (forall x, g x = f x) -> ispoly d f -> ispoly d g.
Proof. intros H (a & La & Ea). exists a. split; [exact La|]. intros x. rewrite H. apply Ea. Qed.

Lemma T_ispoly lo hi m : ispoly (S m) (fun x => T m (std lo hi x)).
Proof.
  assert (L : forall d f, ispoly d f -> ispoly (S d) (fun x => std lo hi x * f x)).
  { intros d f H. apply (ispoly_ext (S d) (fun x => 2 / (hi - lo) * (x * f x) + - (hi + lo) / (hi - lo) * f x)); [intros x; unfold std, Rdiv; ring|].
    apply (ispoly_plus (S d) (fun x => 2 / (hi - lo) * (x * f x)) (fun x => - (hi + lo) / (hi - lo) * f x)).
    - apply (ispoly_scal (S d) (2 / (hi - lo)) (fun x => x * f x)). apply ispoly_x. exact H.
    - apply (ispoly_pad d); [lia|]. apply ispoly_scal. exact H. }
  induction m as [| |m I1 I2] using two_step.
  - exists [1]. split; [reflexivity|]. intros x. rewrite T_0. cbn [poly]. ring.
  - apply (ispoly_ext 2 (fun x => std lo hi x * 1)); [intros x; rewrite T_1; ring|]. apply (L 1%nat (fun _ => 1)). exists [1]. split; [reflexivity|]. intros x. cbn [poly]. ring.
  - apply (ispoly_ext (S (S (S m))) (fun x => 2 * (std lo hi x * T (S m) (std lo hi x)) + -1 * T m (std lo hi x))); [intros x; rewrite T_SS; ring|].
    apply (ispoly_plus (S (S (S m))) (fun x => 2 * (std lo hi x * T (S m) (std lo hi x))) (fun x => -1 * T m (std lo hi x))).
    + apply (ispoly_scal _ 2 (fun x => std lo hi x * T (S m) (std lo hi x))). apply (L _ (fun x => T (S m) (std lo hi x))). exact I2.
    + apply (ispoly_pad (S m)); [lia|]. apply ispoly_scal. exact I1.
Qed.

Lemma series_ispoly lo hi N a : ispoly (S N) (fun x => series N a (std lo hi x)).
Proof.
  assert (G : forall n, (n <= S N)%nat -> ispoly (S N) (fun x => sumn (fun k => ends N k * a k * T k (std lo hi x)) n)).
  { induction n as [|n IH]; intros Hn; cbn [sumn]; [apply (ispoly_pad 0); [lia|]; exists []; split; reflexivity|].
    apply (ispoly_plus (S N) (fun x => sumn (fun k => ends N k * a k * T k (std lo hi x)) n) (fun x => ends N n * a n * T n (std lo hi x))); [apply IH; lia|].
    apply ispoly_scal. apply (ispoly_pad (S n)); [lia|]. apply T_ispoly. }
  apply G. lia.
Qed.

(** ** Theorems *)

(** The sampling points: the ends of the interval and points between, in falling order,
    more closely spaced towards the ends. *)
Theorem C66_points f lo hi N g : build f lo hi N = Ok g -> (1 <= N)%nat -> lo < hi ->
  ch_N g = N /\ length (ch_Xs g) = S N /\ length (ch_Fs g) = S N /\ length (ch_coeffs g) = S N /\
  (forall j, (j <= N)%nat -> nth j (ch_Xs g) 0 = (lo + hi) / 2 + (hi - lo) / 2 * cos (INR j * PI / INR N)) /\
  nth 0 (ch_Xs g) 0 = hi /\ nth N (ch_Xs g) 0 = lo /\ (forall x, In x (ch_Xs g) -> lo <= x <= hi) /\
  (forall j, (j < N)%nat -> nth (S j) (ch_Xs g) 0 < nth j (ch_Xs g) 0).
Proof.
  intros H HN HL. apply build_is_made in H; [|exact HN]. destruct (made_length _ _ _ _ _ H) as (L1 & L2 & L3). destruct H as (E1 & _ & _ & HX & _).
  pose proof (INR_ge1 N HN) as PN. pose proof PI_RGT_0 as HP.
  assert (EX : forall j, (j <= N)%nat -> nth j (ch_Xs g) 0 = (lo + hi) / 2 + (hi - lo) / 2 * cos (INR j * PI / INR N)).
  { intros j Hj. rewrite HX, nth_grid by exact Hj. unfold chebyshev_point. cbv zeta. rewrite (Rmult_comm PI). field. }
  split; [exact E1|]. split; [exact L1|]. split; [exact L2|]. split; [exact L3|]. split; [exact EX|]. split; [|split; [|split]].
  - rewrite EX by lia. cbn [INR]. replace (0 * PI / INR N) with 0 by (unfold Rdiv; ring). rewrite cos_0. field.
  - rewrite EX by lia. replace (INR N * PI / INR N) with PI by (field; lra). rewrite cos_PI. field.
  - intros x Hx. rewrite HX in Hx. apply in_map_iff in Hx. destruct Hx as (j & <- & _). unfold chebyshev_point. cbv zeta. pose proof (COS_bound (PI * INR j / INR N)). nra.
  - intros j Hj. rewrite !EX by lia. enough (cos (INR (S j) * PI / INR N) < cos (INR j * PI / INR N)) by nra.
    assert (B : INR (S j) <= INR N) by (apply le_INR; lia). rewrite S_INR in *. pose proof (pos_INR j).
    assert (I : 0 < / INR N) by (apply Rinv_0_lt_compat; lra).
    assert (X1 : 0 <= INR j * PI / INR N) by (unfold Rdiv; apply Rmult_le_pos; [nra|lra]).
    assert (X2 : (INR j + 1) * PI / INR N <= PI) by (apply (Rmult_le_reg_r (INR N)); [lra|]; unfold Rdiv; rewrite Rmult_assoc, Rinv_l by lra; nra).
    assert (X3 : INR j * PI / INR N < (INR j + 1) * PI / INR N) by (unfold Rdiv; apply Rmult_lt_compat_r; [exact I|nra]).
    apply cos_decreasing_1; lra.
Qed.
Print Assumptions C66_points.

(** Only values of the function inside the interval matter. *)
Theorem C66_inside f h lo hi N : lo <= hi -> (1 <= N)%nat -> (forall x, lo <= x <= hi -> f x = h x) -> build f lo hi N = build h lo hi N.
Proof.
  intros HL HN H. assert (EP : grid_pass f lo hi N = grid_pass h lo hi N).
  { unfold grid_pass. cbv zeta. replace (map h (map (chebyshev_point N lo hi) (seq 0 (S N)))) with (map f (map (chebyshev_point N lo hi) (seq 0 (S N)))); [reflexivity|].
    apply map_ext_in. intros x Hx. apply H. apply in_map_iff in Hx. destruct Hx as (j & <- & _). unfold chebyshev_point. cbv zeta. pose proof (COS_bound (PI * INR j / INR N)). nra. }
  unfold build. destruct (Nat.eqb_spec N 0); [lia|]. cbn [find_size]. cbv zeta. rewrite EP. reflexivity.
Qed.
Print Assumptions C66_inside.

(** The interpolant is the polynomial of degree at most N that takes the values of the
    function at the N + 1 points, its integral is exact, and it can be evaluated anywhere. *)
Theorem C66_interpolates f lo hi N g : build f lo hi N = Ok g -> (1 <= N)%nat -> lo < hi ->
  exists cs, length cs = S N /\ (forall x, evaluate g x = poly cs x) /\ (forall x, In x (ch_Xs g) -> poly cs x = f x) /\
    (forall F, (forall x, derivable_pt_lim F x (poly cs x)) -> ch_integral g = F hi - F lo).
Proof.
  intros H HN HL. apply build_is_made in H; [|exact HN]. assert (NE : lo <> hi) by lra. pose proof (made_evaluate _ _ _ _ _ H HN NE) as EV.
  set (a := fun k => nth k (ch_coeffs g) 0) in *. destruct (series_ispoly lo hi N a) as (cs & LC & EC). exists cs.
  split; [exact LC|]. split; [intros x; rewrite EV; apply EC|]. split.
  - intros x Hx. pose proof H as (_ & _ & _ & HX & _). rewrite HX in Hx. apply in_map_iff in Hx. destruct Hx as (j & <- & Hj). apply in_seq in Hj.
    rewrite <- EC, std_point by exact NE. symmetry. apply made_nodes; [exact H|exact HN|lia].
  - intros F HF. destruct H as (_ & _ & _ & _ & _ & _ & HI). rewrite HI, integral_series. fold a.
    assert (D : forall x, derivable_pt_lim (fun x => (hi - lo) / 2 * aseries N a (std lo hi x)) x (poly cs x)).
    { intros x. rewrite <- EC. apply (std_deriv lo hi (aseries N a) (series N a)); [exact NE|]. intros t. apply aseries_deriv. }
    pose proof (same_deriv _ _ _ lo hi D HF) as E. cbv beta in E. rewrite std_low, std_high, aseries_low in E by exact NE. rewrite <- E. ring.
Qed.
Print Assumptions C66_interpolates.

(** The values at N + 1 different points determine a polynomial of degree at most N: a
    polynomial with as many roots as coefficients is zero. *)
Lemma poly_root : forall cs r, exists qs, length qs = (length cs - 1)%nat /\ forall x, poly cs x = poly cs r + (x - r) * poly qs x.
Proof.
  induction cs as [|c cs IH]; intros r; [exists []; split; [reflexivity|]; intros; cbn [poly]; ring|].
  destruct (IH r) as (qs & L & E). destruct cs as [|c' cs'].
  - exists []. split; [reflexivity|]. intros x. cbn [poly]. ring.
  - exists (poly (c' :: cs') r :: qs). split; [cbn [length] in *; lia|]. intros x. cbn [poly] in *. specialize (E x). rewrite E. ring.
Qed.

Lemma poly_zeros : forall n cs l, length cs = n -> NoDup l -> (n <= length l)%nat -> (forall x, In x l -> poly cs x = 0) -> forall x, poly cs x = 0.
Proof.
  induction n as [|n IH]; intros cs l L ND LL H x.
  - destruct cs; [reflexivity|discriminate].
  - destruct l as [|r l]; [cbn [length] in LL; lia|]. destruct (poly_root cs r) as (qs & LQ & E). inversion ND as [|? ? NI ND']; subst.
    rewrite E, (H r (or_introl eq_refl)), Rplus_0_l. rewrite (IH qs l); [ring|lia|exact ND'|cbn [length] in LL; lia|].
    intros y Hy. assert (NY : y - r <> 0). { intros C. apply NI. replace r with y by lra. exact Hy. }
    pose proof (E y) as EY. rewrite (H y (or_intror Hy)), (H r (or_introl eq_refl)) in EY. apply (Rmult_eq_reg_l (y - r)); [lra|exact NY].
Qed.

Theorem C66_unique (l : list R) cs ds : NoDup l -> length cs = length l -> length ds = length l ->
  (forall x, In x l -> poly cs x = poly ds x) -> forall x, poly cs x = poly ds x.
Proof.
  intros ND L1 L2 H x. destruct (poly_scale (-1) ds) as (ms & LM & EM). destruct (poly_add cs ms ltac:(congruence)) as (es & LE & EE).
  assert (Z : poly es x = 0). { apply (poly_zeros (length l) es l); [congruence|exact ND|lia|]. intros y Hy. rewrite EE, EM, (H y Hy). ring. }
  rewrite EE, EM in Z. lra.
Qed.
Print Assumptions C66_unique.

Lemma map_NoDup_in {X Y} (h : X -> Y) l : (forall a b, In a l -> In b l -> h a = h b -> a = b) -> NoDup l -> NoDup (map h l).
Proof.
  induction l as [|a l IH]; intros H ND; [constructor|]. apply NoDup_cons_iff in ND. destruct ND as [N1 N2]. cbn [map]. constructor.
  - intros C. apply in_map_iff in C. destruct C as (b & E & Hb). apply N1. rewrite (H a b (or_introl eq_refl) (or_intror Hb)); [exact Hb|congruence].
  - apply IH; [|exact N2]. intros x y Hx Hy. apply H; right; assumption.
Qed.

Lemma grid_NoDup N lo hi : (1 <= N)%nat -> lo < hi -> NoDup (map (chebyshev_point N lo hi) (seq 0 (S N))).
Proof.
  intros HN HL. pose proof (INR_ge1 N HN) as PN. pose proof PI_RGT_0 as HP. apply map_NoDup_in; [|apply seq_NoDup].
  intros i j Hi Hj E. apply in_seq in Hi, Hj.
  assert (EQ : cos (PI * INR i / INR N) = cos (PI * INR j / INR N)). { unfold chebyshev_point in E. cbv zeta in E. apply (Rmult_eq_reg_l (hi - lo)); lra. }
  assert (I : 0 < / INR N) by (apply Rinv_0_lt_compat; lra).
  assert (RNG : forall k, (k <= N)%nat -> 0 <= PI * INR k / INR N <= PI).
  { intros k Hk. apply le_INR in Hk. pose proof (pos_INR k). split; [unfold Rdiv; apply Rmult_le_pos; [nra|lra]|]. apply (Rmult_le_reg_r (INR N)); [lra|]. unfold Rdiv. rewrite Rmult_assoc, Rinv_l by lra. nra. }
  assert (X : PI * INR i / INR N = PI * INR j / INR N). 
  { destruct (RNG i ltac:(lia)), (RNG j ltac:(lia)). destruct (Rtotal_order (PI * INR i / INR N) (PI * INR j / INR N)) as [C|[C|C]]; [|exact C|]; exfalso.
    - pose proof (cos_decreasing_1 (PI * INR i / INR N) (PI * INR j / INR N)). lra.
    - pose proof (cos_decreasing_1 (PI * INR j / INR N) (PI * INR i / INR N)). lra. }
  apply INR_eq. apply (Rmult_eq_reg_l (PI / INR N)); [|unfold Rdiv; apply Rgt_not_eq; apply Rmult_lt_0_compat; lra]. unfold Rdiv in *. lra.
Qed.

(** So a polynomial of degree at most N is represented exactly, and integrated exactly. *)
Theorem C66_exact cs lo hi N g : build (poly cs) lo hi N = Ok g -> (1 <= N)%nat -> lo < hi -> (length cs <= S N)%nat ->
  (forall x, evaluate g x = poly cs x) /\ (forall F, (forall x, derivable_pt_lim F x (poly cs x)) -> ch_integral g = F hi - F lo).
Proof.
  intros H HN HL LC. destruct (C66_interpolates _ _ _ _ _ H HN HL) as (ds & LD & ED & XD & ID).
  destruct (poly_pad cs (S N) LC) as (cs' & L' & E').
  assert (EQ : forall x, poly ds x = poly cs x).
  { intros x. rewrite <- E'. pose proof (build_is_made _ _ _ _ _ HN H) as (_ & _ & _ & HX & _).
    apply (C66_unique (ch_Xs g)); [rewrite HX; apply grid_NoDup; assumption|rewrite HX, map_length, seq_length; exact LD|rewrite HX, map_length, seq_length; exact L'|].
    intros y Hy. rewrite E'. apply XD. exact Hy. }
  split; [intros x; rewrite ED; apply EQ|]. intros F HF. apply ID. intros x. rewrite EQ. apply HF.
Qed.
Print Assumptions C66_exact.

(** ** The cumulative function *)

Lemma T_bound m t : -1 <= t <= 1 -> -1 <= T m t <= 1.
Proof. intros H. rewrite <- (cos_acos t) by exact H. rewrite T_cos. apply COS_bound. Qed.

Lemma std_range lo hi x : lo < hi -> lo <= x <= hi -> -1 <= std lo hi x <= 1.
Proof.
  intros HL Hx. unfold std. split; [apply (Rmult_le_reg_r (hi - lo)); [lra|]|apply (Rmult_le_reg_r (hi - lo)); [lra|]]; unfold Rdiv; rewrite Rmult_assoc, Rinv_l by lra; lra.
Qed.

Lemma error_bound N t : (2 <= N)%nat -> -1 <= t <= 1 -> Rabs (cdf_error N t) <= 1 / (INR N - 1).
Proof.
  intros HN Ht. destruct N as [|[|m]]; [lia|lia|]. unfold cdf_error. pose proof (T_bound (S m) t Ht) as HT. pose proof (pos_INR m) as PM.
  replace (INR (S (S m)) * INR (S (S m)) - 1) with ((INR m + 1) * (INR m + 3)) by (rewrite !S_INR; ring). rewrite !S_INR. replace (INR m + 1 + 1 - 1) with (INR m + 1) by ring. set (q := INR m) in *.
  apply Rle_trans with (Rabs ((-1) ^ (S (S m) + 1) / ((q + 1) * (q + 3))) + Rabs (T (S m) t / (2 * (q + 1)))); [unfold Rminus; eapply Rle_trans; [apply Rabs_triang|]; rewrite Rabs_Ropp; lra|].
  unfold Rdiv. rewrite !Rabs_mult, pow_1_abs, !Rabs_inv, !Rabs_mult, (Rabs_pos_eq (q + 1)), (Rabs_pos_eq (q + 3)), (Rabs_pos_eq 2) by lra.
  assert (AT : Rabs (T (S m) t) <= 1) by (apply Rabs_le; lra). assert (I1 : 0 < / (q + 1)) by (apply Rinv_0_lt_compat; lra).
  assert (I3 : 0 < / (q + 3) <= / 3) by (split; [apply Rinv_0_lt_compat; lra|apply Rinv_le_contravar; lra]). rewrite !Rinv_mult. pose proof (Rabs_pos (T (S m) t)). nra.
Qed.

(** Half weight for the two ends, alternating signs. *)
Definition alternating (N : nat) (v : nat -> R) : R := sumn (fun j => ends N j * ((-1) ^ j * v j)) (S N).

(** The cumulative function is the exact integral of the interpolant from the lower end,
    up to an error proportional to the alternating sum of the samples. *)
Theorem C66_cdf f lo hi N g cs F : build f lo hi N = Ok g -> (2 <= N)%nat -> lo < hi ->
  (forall x, evaluate g x = poly cs x) -> (forall x, derivable_pt_lim F x (poly cs x)) -> forall x, lo <= x <= hi ->
  Rabs (evaluate (cdf g) x - (F x - F lo)) <= (hi - lo) / 2 * Rabs (alternating N (fun j => nth j (ch_Fs g) 0)) / (INR N * (INR N - 1)).
Proof.
  intros H HN HL HE HF x Hx. apply build_is_made in H; [|lia]. assert (NE : lo <> hi) by lra.
  pose proof (made_evaluate _ _ _ _ _ H ltac:(lia) NE) as EV. rewrite (cdf_evaluate _ _ _ _ _ H ltac:(lia) NE).
  set (a := fun k => nth k (ch_coeffs g) 0) in *.
  assert (D : forall y, derivable_pt_lim (fun y => (hi - lo) / 2 * aseries N a (std lo hi y)) y (poly cs y)).
  { intros y. rewrite <- HE, EV. apply (std_deriv lo hi (aseries N a) (series N a)); [exact NE|]. intros t. apply aseries_deriv. }
  pose proof (same_deriv _ _ _ lo x D HF) as E. cbv beta in E. rewrite std_low, aseries_low in E by exact NE.
  replace ((hi - lo) / 2 * (aseries N a (std lo hi x) + nth N (ch_coeffs g) 0 / 2 * cdf_error N (std lo hi x)) - (F x - F lo))
    with ((hi - lo) / 2 * (nth N (ch_coeffs g) 0 / 2 * cdf_error N (std lo hi x))) by lra.
  assert (PN : 2 <= INR N) by (apply (le_INR 2); exact HN).
  assert (EA : nth N (ch_coeffs g) 0 / 2 = alternating N (fun j => nth j (ch_Fs g) 0) / INR N).
  { rewrite (made_last _ _ _ _ _ H ltac:(lia)). unfold alternating. rewrite (sumn_ext _ (fun j => ends N j * ((-1) ^ j * nth j (ch_Fs g) 0))); [field; lra|].
    intros j Hj. rewrite (made_values _ _ _ _ _ _ H) by lia. reflexivity. }
  rewrite EA. set (al := alternating N _). pose proof (error_bound N (std lo hi x) HN (std_range _ _ _ HL Hx)) as EB. set (e := cdf_error N _) in *.
  unfold Rdiv in *. rewrite !Rabs_mult, !Rabs_inv, (Rabs_pos_eq 2), (Rabs_pos_eq (INR N)), (Rabs_pos_eq (hi - lo)) by lra.
  rewrite Rinv_mult. pose proof (Rabs_pos al) as PA. assert (I : 0 < / INR N) by (apply Rinv_0_lt_compat; lra). rewrite Rmult_1_l in EB.
  replace ((hi - lo) * / 2 * Rabs al * (/ INR N * / (INR N - 1))) with (((hi - lo) * / 2 * (Rabs al * / INR N)) * / (INR N - 1)) by ring.
  replace ((hi - lo) * / 2 * (Rabs al * / INR N * Rabs e)) with (((hi - lo) * / 2 * (Rabs al * / INR N)) * Rabs e) by ring.
  apply Rmult_le_compat_l; [|exact EB]. apply Rmult_le_pos; [lra|]. apply Rmult_le_pos; lra.
Qed.
Print Assumptions C66_cdf.

Lemma last_vanishes cs lo hi N g : made (poly cs) lo hi N g -> (1 <= N)%nat -> (length cs <= N)%nat -> nth N (ch_coeffs g) 0 = 0.
Proof.
  intros H HN LC. rewrite (made_last _ _ _ _ _ H HN). destruct (tspan_poly cs ((hi - lo) / 2) ((hi + lo) / 2)) as (e & HE).
  rewrite (sumn_ext _ (fun j => sumn (fun k => e k * (ends N j * ((-1) ^ j * T k (node N j)))) (length cs))).
  - rewrite sumn_swap. rewrite (sumn_zero _ (length cs)); [ring|]. intros k Hk. rewrite sumn_scal, (alt_sum N HN) by lia. destruct (Nat.eqb_spec k N); [lia|ring].
  - intros j Hj. rewrite point_node. replace (((hi - lo) * node N j + (hi + lo)) / 2) with ((hi + lo) / 2 + (hi - lo) / 2 * node N j) by field.
    rewrite HE. unfold tcomb. rewrite <- Rmult_assoc, <- sumn_scal. apply sumn_ext. intros; ring.
Qed.

(** For polynomials of degree below N the cumulative function is exact everywhere. *)
Theorem C66_cdf_exact cs lo hi N g F : build (poly cs) lo hi N = Ok g -> (1 <= N)%nat -> lo < hi -> (length cs <= N)%nat ->
  (forall x, derivable_pt_lim F x (poly cs x)) -> forall x, evaluate (cdf g) x = F x - F lo.
Proof.
  intros H HN HL LC HF x. destruct (C66_exact _ _ _ _ _ H HN HL ltac:(lia)) as [HE _]. apply build_is_made in H; [|exact HN]. assert (NE : lo <> hi) by lra.
  pose proof (made_evaluate _ _ _ _ _ H HN NE) as EV. rewrite (cdf_evaluate _ _ _ _ _ H HN NE), (last_vanishes _ _ _ _ _ H HN LC).
  set (a := fun k => nth k (ch_coeffs g) 0) in *.
  assert (D : forall y, derivable_pt_lim (fun y => (hi - lo) / 2 * aseries N a (std lo hi y)) y (poly cs y)).
  { intros y. rewrite <- HE, EV. apply (std_deriv lo hi (aseries N a) (series N a)); [exact NE|]. intros t. apply aseries_deriv. }
  pose proof (same_deriv _ _ _ lo x D HF) as E. cbv beta in E. rewrite std_low, aseries_low in E by exact NE. lra.
Qed.
Print Assumptions C66_cdf_exact.

(** Degree N is not enough, for any N: the last coefficient is counted twice. The
    cumulative function of 1 + T_N, which is nowhere negative, does not start at zero. *)
Theorem C66_cdf_refuted N g : (2 <= N)%nat -> build (fun x => 1 + T N x) (-1) 1 N = Ok g ->
  ispoly (S N) (fun x => 1 + T N x) /\ (forall x, -1 <= x <= 1 -> 0 <= 1 + T N x) /\ evaluate (cdf g) (-1) <> 0.
Proof.
  intros HN H. apply build_is_made in H; [|lia]. split; [|split].
  - apply (ispoly_plus (S N) (fun _ => 1) (T N)); [apply (ispoly_pad 1); [lia|]; exists [1]; split; [reflexivity|]; intros; cbn [poly]; ring|].
    apply (ispoly_ext (S N) (fun x => T N (std (-1) 1 x))); [intros x; f_equal; unfold std; field|]. apply T_ispoly.
  - intros x Hx. pose proof (T_bound N x Hx). lra.
  - rewrite (cdf_evaluate _ _ _ _ _ H) by (try lia; lra). rewrite std_low by lra. rewrite aseries_low, Rplus_0_l.
    assert (PN : 2 <= INR N) by (apply (le_INR 2); exact HN).
    assert (EA : nth N (ch_coeffs g) 0 = 2).
    { rewrite (made_last _ _ _ _ _ H) by lia.
      rewrite (sumn_ext _ (fun j => ends N j * ((-1) ^ j * T 0 (node N j)) + ends N j * ((-1) ^ j * T N (node N j)))).
      - rewrite sumn_plus, !(alt_sum N ltac:(lia)) by lia. destruct (Nat.eqb_spec 0 N); [lia|]. rewrite Nat.eqb_refl. field. lra.
      - intros j Hj. rewrite point_node. replace (((1 - -1) * node N j + (1 + -1)) / 2) with (node N j) by field. rewrite T_0. ring. }
    rewrite EA. destruct N as [|[|m]]; [lia|lia|]. unfold cdf_error. rewrite T_m1. pose proof (pos_INR m) as PM.
    replace (S (S m) + 1)%nat with (2 + S m)%nat by lia. rewrite pow_add. replace ((-1) ^ 2) with 1 by ring. rewrite Rmult_1_l.
    replace (INR (S (S m)) * INR (S (S m)) - 1) with ((INR m + 1) * (INR m + 3)) by (rewrite !S_INR; ring). rewrite S_INR.
    intros C. assert (NZ : (-1) ^ S m <> 0) by (intros C'; pose proof (m1_sq (S m)); rewrite C' in *; lra).
    assert (X : (-1) ^ S m * (- 1 / (2 * (INR m + 3))) = 0).
    { rewrite <- C. field. lra. }
    apply Rmult_integral in X. destruct X as [X|X]; [contradiction|]. assert (0 < / (2 * (INR m + 3))) by (apply Rinv_0_lt_compat; lra). lra.
Qed.
Print Assumptions C66_cdf_refuted.

(** With three points, it may even fall where the density is positive: x^2 on [-1, 1]. *)
Theorem C66_falling_refuted : exists g, build (poly [0; 0; 1]) (-1) 1 2 = Ok g /\
  (forall x, evaluate g x = x ^ 2) /\ evaluate (cdf g) (1 / 2) < evaluate (cdf g) (1 / 4).
Proof.
  destruct (build_made (poly [0; 0; 1]) (-1) 1 2) as (g & E & M); [lia|reflexivity|]. exists g. split; [exact E|].
  destruct (C66_exact _ _ _ _ _ E) as [EV _]; [lia|lra|cbn; lia|]. split; [intros x; rewrite EV; cbn [poly]; ring|].
  assert (NE : (-1) <> 1) by lra. rewrite !(cdf_evaluate _ _ _ _ _ M) by (try lia; lra).
  assert (EA : nth 2 (ch_coeffs g) 0 = 1).
  { rewrite (made_last _ _ _ _ _ M) by lia. cbn [sumn]. unfold ends. cbn [Nat.eqb orb]. rewrite !point_node.
    assert (N0 : node 2 0 = 1) by (unfold node; cbn [INR]; replace (PI * 0 / (1 + 1)) with 0 by field; apply cos_0).
    assert (N1 : node 2 1 = 0) by (unfold node; cbn [INR]; replace (PI * 1 / (1 + 1)) with (PI / 2) by field; apply cos_PI2).
    assert (N2 : node 2 2 = -1) by (unfold node; cbn [INR]; replace (PI * (1 + 1) / (1 + 1)) with PI by field; apply cos_PI).
    rewrite N0, N1, N2. cbn [poly INR pow]. field. }
  rewrite EA.
  assert (D : forall y, derivable_pt_lim (fun y => (1 - -1) / 2 * aseries 2 (fun k => nth k (ch_coeffs g) 0) (std (-1) 1 y)) y (y ^ 2)).
  { intros y. replace (y ^ 2) with (evaluate g y) by (rewrite EV; cbn [poly]; ring). rewrite (made_evaluate _ _ _ _ _ M) by (try lia; lra). apply (std_deriv (-1) 1 _ (series 2 (fun k => nth k (ch_coeffs g) 0))); [exact NE|]. intros t. apply aseries_deriv. }
  assert (D3 : forall y, derivable_pt_lim (fun y => 1 / 3 * y ^ 3) y (y ^ 2)).
  { intros y. replace (y ^ 2) with (1 / 3 * (INR 3 * y ^ 2)) by (cbn [INR]; field). apply derivable_pt_lim_scal. apply (derivable_pt_lim_pow y 3). }
  pose proof (same_deriv _ _ _ (1 / 4) (1 / 2) D D3) as EQ. cbv beta in EQ.
  replace (std (-1) 1 (1 / 2)) with (1 / 2) in * by (unfold std; field). replace (std (-1) 1 (1 / 4)) with (1 / 4) in * by (unfold std; field).
  unfold cdf_error. rewrite !T_1. cbn [INR Nat.add pow] in *. lra.
Qed.
Print Assumptions C66_falling_refuted.

(** ** Which sizes work *)

(** The constructor succeeds for every requested size except 3, 4 and 6, for which the
    transform writes past the end of its work array. *)
Theorem C66_sizes f lo hi N : (1 <= N)%nat ->
  (N <> 3 /\ N <> 4 /\ N <> 6)%nat /\ (exists g, build f lo hi N = Ok g) \/ (N = 3 \/ N = 4 \/ N = 6)%nat /\ build f lo hi N = Er Undefined.
Proof.
  intros HN. destruct (existsb (Nat.eqb N) [3; 4; 6]%nat) eqn:E.
  - right. split.
    + cbn [existsb] in E. destruct (Nat.eqb_spec N 3), (Nat.eqb_spec N 4), (Nat.eqb_spec N 6); try discriminate; lia.
    + unfold build. destruct (Nat.eqb_spec N 0); [lia|]. cbn [find_size]. cbv zeta. rewrite (pass_undefined f lo hi N HN E). reflexivity.
  - left. split.
    + cbn [existsb] in E. destruct (Nat.eqb_spec N 3), (Nat.eqb_spec N 4), (Nat.eqb_spec N 6); try discriminate; lia.
    + destruct (build_made f lo hi N HN E) as (g & H & _). exists g. exact H.
Qed.
Print Assumptions C66_sizes.

(** Adaptive sizing (size 0) therefore works only if three points are enough. *)
Theorem C66_adaptive f lo hi :
  (exists g, build f lo hi 0 = Ok g /\ build f lo hi 2 = Ok g) \/ build f lo hi 0 = Er Undefined.
Proof.
  unfold build. cbn [Nat.eqb find_size]. cbv zeta.
  destruct (build_made f lo hi 2) as (g & E & _); [lia|reflexivity|].
  change (2 * 1)%nat with 2%nat. rewrite (pass_made f lo hi 2) by (try lia; reflexivity). cbn [bind orb].
  destruct (settled _ || _)%bool; [left; eexists; split; reflexivity|]. right.
  change (2 * 2)%nat with 4%nat. rewrite (pass_undefined f lo hi 4) by (try lia; reflexivity). reflexivity.
Qed.
Print Assumptions C66_adaptive.

(** Three points are enough exactly if the function is nearly constant: with the values at the ends and in the middle of the
    interval, their differences have to vanish to about machine precision. *)
Theorem C66_adaptive_when f lo hi : let a := f hi in let m := f ((lo + hi) / 2) in let z := f lo in
  let limit := 2 * Rmax (Rabs (a + z + 2 * m)) (Rmax (Rabs (a - z)) (Rabs (a + z - 2 * m))) * / 2 ^ 52 in
  (Rabs (a - z) < limit /\ Rabs (a + z - 2 * m) < limit -> build f lo hi 0 = build f lo hi 2) /\
  (limit <= Rabs (a - z) \/ limit <= Rabs (a + z - 2 * m) -> build f lo hi 0 = Er Undefined).
Proof.
  cbv zeta. unfold build. cbn [Nat.eqb find_size]. cbv zeta. change (2 * 1)%nat with 2%nat. rewrite (pass_made f lo hi 2) by (try lia; reflexivity). cbn [bind orb].
  assert (N0 : chebyshev_point 2 lo hi 0 = hi) by (unfold chebyshev_point; cbn [INR]; replace (PI * 0 / (1 + 1)) with 0 by field; rewrite cos_0; field).
  assert (N1 : chebyshev_point 2 lo hi 1 = (lo + hi) / 2) by (unfold chebyshev_point; cbn [INR]; replace (PI * 1 / (1 + 1)) with (PI / 2) by field; rewrite cos_PI2; field).
  assert (N2 : chebyshev_point 2 lo hi 2 = lo) by (unfold chebyshev_point; cbn [INR]; replace (PI * (1 + 1) / (1 + 1)) with PI by field; rewrite cos_PI; field).
  cbn [seq map]. rewrite N0, N1, N2. set (a := f hi). set (m := f ((lo + hi) / 2)). set (z := f lo).
  assert (EC : cost [a; m; z] = [a + z + 2 * m; a - z; a + z - 2 * m]).
  { unfold cost. cbn [length seq map nth sumR Nat.sub]. cbn [INR pow].
    replace (1 * 0 * PI / (1 + 1)) with 0 by field. replace (1 * 1 * PI / (1 + 1)) with (PI / 2) by field. replace (1 * (1 + 1) * PI / (1 + 1)) with PI by field.
    rewrite cos_0, cos_PI2, cos_PI. f_equal; [ring|]. f_equal; [ring|]. f_equal. ring. }
  rewrite !EC. set (c0 := a + z + 2 * m). set (c1 := a - z). set (c2 := a + z - 2 * m).
  assert (M : fold_right (fun c u => Rmax (Rabs c) u) 0 [c0; c1; c2] = Rmax (Rabs c0) (Rmax (Rabs c1) (Rabs c2))).
  { cbn [fold_right]. rewrite (Rmax_left (Rabs c2) 0) by apply Rabs_pos. reflexivity. }
  unfold settled. rewrite M. cbn [length Nat.sub nth]. fold epsilon. change (65536 <=? Z.of_nat 2)%Z with false. rewrite orb_false_r.
  change (2 * 2)%nat with 4%nat. rewrite (pass_undefined f lo hi 4) by (try lia; reflexivity). cbn [bind].
  set (l := 2 * Rmax (Rabs c0) (Rmax (Rabs c1) (Rabs c2)) * epsilon). split.
  - intros [H1 H2]. destruct (Rlt_dec (Rabs c2) l); [|contradiction]. destruct (Rlt_dec (Rabs c1) l); [|contradiction]. reflexivity.
  - intros [H|H]; destruct (Rlt_dec (Rabs c2) l), (Rlt_dec (Rabs c1) l); try reflexivity; lra.
Qed.
Print Assumptions C66_adaptive_when.

(** Any constant but zero is accepted. *)
Example C66_adaptive_case c lo hi : c <> 0 -> build (fun _ => c) lo hi 0 = build (fun _ => c) lo hi 2.
Proof.
  intros H. apply (C66_adaptive_when (fun _ => c)). replace (c - c) with 0 by ring. replace (c + c - 2 * c) with 0 by ring. rewrite Rabs_R0.
  assert (0 < 2 * Rmax (Rabs (c + c + 2 * c)) (Rmax 0 0) * / 2 ^ 52); [|lra].
  apply Rmult_lt_0_compat; [|apply Rinv_0_lt_compat, pow_lt; lra]. apply Rmult_lt_0_compat; [lra|].
  apply Rlt_le_trans with (2 := Rmax_l _ _). apply Rabs_pos_lt. intros E. apply H. lra.
Qed.

Theorem C66_adaptive_refuted : build (poly [0; 0; 1]) (-1) 1 0 = Er Undefined.
Proof.
  unfold build. cbn [Nat.eqb find_size]. cbv zeta. change (2 * 1)%nat with 2%nat. rewrite (pass_made (poly [0; 0; 1]) (-1) 1 2) by (try lia; reflexivity). cbn [bind orb].
  assert (N0 : chebyshev_point 2 (-1) 1 0 = 1) by (unfold chebyshev_point; cbn [INR]; replace (PI * 0 / (1 + 1)) with 0 by field; rewrite cos_0; field).
  assert (N1 : chebyshev_point 2 (-1) 1 1 = 0) by (unfold chebyshev_point; cbn [INR]; replace (PI * 1 / (1 + 1)) with (PI / 2) by field; rewrite cos_PI2; field).
  assert (N2 : chebyshev_point 2 (-1) 1 2 = -1) by (unfold chebyshev_point; cbn [INR]; replace (PI * (1 + 1) / (1 + 1)) with PI by field; rewrite cos_PI; field).
  cbn [seq map]. rewrite N0, N1, N2. set (vs := [poly [0; 0; 1] 1; poly [0; 0; 1] 0; poly [0; 0; 1] (-1)]).
  assert (EC : cost vs = [2; 0; 2]).
  { unfold cost, vs. cbn [length seq map nth sumR Nat.sub poly]. cbn [INR pow].
    replace (1 * 0 * PI / (1 + 1)) with 0 by field. replace (1 * 1 * PI / (1 + 1)) with (PI / 2) by field. replace (1 * (1 + 1) * PI / (1 + 1)) with PI by field.
    rewrite cos_0, cos_PI2, cos_PI. f_equal; [ring|]. f_equal; [ring|]. f_equal. ring. }
  rewrite EC. assert (ST : settled [2; 0; 2] = false).
  { unfold settled. cbn [length Nat.sub nth fold_right]. rewrite Rabs_R0, (Rabs_pos_eq 2) by lra. rewrite (Rmax_right 0 (Rmax 2 0)) by (eapply Rle_trans; [|apply Rmax_l]; lra).
    rewrite (Rmax_left 2 0) by lra. rewrite Rmax_left by lra.
    assert (epsilon <= / 8). { unfold epsilon. apply Rinv_le_contravar; [lra|]. replace 8 with (2 ^ 3) by ring. apply Rle_pow; [lra|]. lia. }
    destruct (Rlt_dec 2 (2 * 2 * epsilon)); [lra|]. reflexivity. }
  rewrite ST. cbn [orb]. change (65536 <=? Z.of_nat 2)%Z with false. cbv iota. change (2 * 2)%nat with 4%nat.
  rewrite (pass_undefined _ (-1) 1 4) by (try lia; reflexivity). reflexivity.
Qed.
Print Assumptions C66_adaptive_refuted.

(** ** Sampling *)

Lemma rising f F lo hi : (forall x, derivable_pt_lim F x (f x)) -> (forall x, lo <= x <= hi -> 0 <= f x) ->
  forall a b, lo <= a -> a <= b -> b <= hi -> F a <= F b.
Proof.
  intros HF Hf a b H1 H2 H3. destruct (Rle_lt_or_eq_dec a b H2) as [L|E]; [|subst; lra].
  destruct (MVT_cor2 F f a b L) as (c & EC & HC); [intros c _; apply HF|]. assert (0 <= f c) by (apply Hf; lra). nra.
Qed.

(** Sampling from a density that is a polynomial of degree below 64: the result is, within
    half the tolerance, the point where the integral of the density from the lower end
    reaches the drawn fraction of the whole. *)
Theorem C66_sample cs lo hi tol prob fuel x F : lo < hi -> 0 <= prob <= 1 -> (length cs <= 64)%nat ->
  (forall y, lo <= y <= hi -> 0 <= poly cs y) -> (forall y, derivable_pt_lim F y (poly cs y)) -> F lo < F hi -> 0 < tol ->
  inverse_transform_density (poly cs) lo hi tol prob fuel = Ok x ->
  lo <= x <= hi /\ exists y, lo <= y <= hi /\ Rabs (x - y) <= tol / 2 /\ F y - F lo = prob * (F hi - F lo).
Proof.
  intros HL HP LC Hpos HF HFF Ht H. unfold inverse_transform_density in H.
  destruct (build_made (poly cs) lo hi 64) as (g & E & M); [lia|reflexivity|]. rewrite E in H. cbn [bind] in H.
  assert (EV : forall y, evaluate (cdf g) y = F y - F lo) by (intros y; apply (C66_cdf_exact cs lo hi 64 g F); [exact E|lia|exact HL|exact LC|exact HF]).
  pose proof (rising _ _ _ _ HF Hpos) as MON.
  assert (C : continuity (fun y => F y - F lo - prob * (F hi - F lo))).
  { assert (CF : continuity F) by (intros y; apply derivable_continuous_pt; exists (poly cs y); apply HF).
    apply (continuity_minus (fun y => F y - F lo) (fun _ => prob * (F hi - F lo))); [apply (continuity_minus F (fun _ => F lo)); [exact CF|]|]; apply continuity_const; intros ? ?; reflexivity. }
  apply C37_quantile in H; [|exact HL|exact HP|rewrite EV; ring|rewrite EV; lra|].
  2:{ intros a b H1 H2 H3. rewrite !EV. pose proof (MON a b H1 H2 H3). lra. }
  destruct H as [Hx [Q|(a & b & A1 & A2 & A3 & A4 & A5 & A6 & _)]].
  - split; [exact Hx|]. exists x. split; [exact Hx|]. split; [replace (x - x) with 0 by ring; rewrite Rabs_R0; lra|].
    rewrite !EV in Q. rewrite <- Q. field. lra.
  - split; [exact Hx|]. rewrite !EV in A6. assert (PH : 0 < F hi - F lo) by lra. destruct A6 as [B1 B2].
    assert (G1 : F a - F lo <= prob * (F hi - F lo)) by (apply (Rmult_le_compat_r (F hi - F lo)) in B1; [|lra]; unfold Rdiv in B1; rewrite Rmult_assoc, Rinv_l in B1 by lra; lra).
    assert (G2 : prob * (F hi - F lo) <= F b - F lo) by (apply (Rmult_le_compat_r (F hi - F lo)) in B2; [|lra]; unfold Rdiv in B2; rewrite Rmult_assoc, Rinv_l in B2 by lra; lra).
    destruct (Req_dec (F a - F lo) (prob * (F hi - F lo))) as [EA|NA].
    { exists a. split; [lra|]. split; [|exact EA]. rewrite Rabs_pos_eq; lra. }
    destruct (Req_dec (F b - F lo) (prob * (F hi - F lo))) as [EB|NB].
    { exists b. split; [lra|]. split; [|exact EB]. rewrite Rabs_left1; lra. }
    assert (AB : a < b). { destruct (Rle_lt_or_eq_dec a b) as [L|Eab]; [lra|exact L|]. subst b. lra. }
    destruct (IVT (fun y => F y - F lo - prob * (F hi - F lo)) a b C AB) as (y & Hy & EY); [lra|lra|].
    exists y. split; [lra|]. split; [apply Rabs_le; lra|lra].
Qed.
Print Assumptions C66_sample.

(** Non-vacuity: x on [0, 2], sampled at a quarter of the integral, gives 1. *)
Example C66_case : (exists g, build (poly [0; 1]) 0 2 64 = Ok g /\ evaluate g 1 = 1 /\ evaluate (cdf g) 1 = 1 / 2 /\ ch_integral g = 2) /\
  (exists n x, inverse_transform_density (poly [0; 1]) 0 2 (1 / 1000) (1 / 4) n = Ok x /\ Rabs (x - 1) <= 1 / 2000) /\
  (exists g, build (fun x => 1 + T 64 x) (-1) 1 64 = Ok g).
Proof.
  assert (D : forall y, derivable_pt_lim (fun y => 1 / 2 * y ^ 2) y (poly [0; 1] y)).
  { intros y. replace (poly [0; 1] y) with (1 / 2 * (INR 2 * y ^ 1)) by (cbn [poly INR pow]; field). apply derivable_pt_lim_scal. apply (derivable_pt_lim_pow y 2). }
  destruct (build_made (poly [0; 1]) 0 2 64) as (g & E & M); [lia|reflexivity|]. split; [|split].
  - exists g. split; [exact E|]. destruct (C66_exact _ _ _ _ _ E) as [EV EI]; [lia|lra|cbn [length]; lia|]. rewrite EV, (EI _ D).
    rewrite (C66_cdf_exact _ _ _ _ _ _ E ltac:(lia) ltac:(lra) ltac:(cbn [length]; lia) D). cbn [poly]. split; [ring|]. split; field.
  - destruct (C37_ends_always (evaluate (cdf g)) 0 2 (1 / 1000) (1 / 4)) as (n & x & EX); [lra|]. exists (S n), x.
    assert (EI : inverse_transform_density (poly [0; 1]) 0 2 (1 / 1000) (1 / 4) (S n) = Ok x) by (unfold inverse_transform_density; rewrite E; exact EX).
    split; [exact EI|].
    destruct (C66_sample [0; 1] 0 2 (1 / 1000) (1 / 4) (S n) x (fun y => 1 / 2 * y ^ 2)) as (Hx & y & Hy & A1 & B); [lra|lra|cbn [length]; lia| |exact D|cbn [pow]; lra|lra|exact EI|].
    { intros y Hy. cbn [poly]. lra. }
    destruct (Req_dec y 1) as [->|NY]; [lra|]. exfalso. apply NY. assert (Z : (y - 1) * (y + 1) = 0) by (cbn [pow] in B; lra). apply Rmult_integral in Z. destruct Z; lra.
  - destruct (build_made (fun x => 1 + T 64 x) (-1) 1 64) as (g' & E' & _); [lia|reflexivity|]. exists g'. exact E'.
Qed.
