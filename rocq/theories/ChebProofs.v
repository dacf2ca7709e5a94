(** Proofs about Chebyshev interpolation: the barycentric formula, the coefficients, the
    integral and the cumulative function. *)
From Coq Require Import List Reals Bool Arith ZArith Lia Lra Ranalysis.
From Verif Require Import Base Sample SampleProofs Quad QuadThms Cheb.
Import ListNotations.
Open Scope R_scope.

(** ** Points *)

Lemma INR_ge1 N : (1 <= N)%nat -> 1 <= INR N.
Proof. intros H. apply (le_INR 1). exact H. Qed.

Definition node (N j : nat) : R := cos (PI * INR j / INR N).

Lemma ck_node N j k : (1 <= N)%nat -> ck N j k = T k (node N j).
Proof. intros HN. apply INR_ge1 in HN. unfold ck, node. rewrite T_cos. f_equal. field. lra. Qed.

Lemma ck_sym N j k : ck N j k = ck N k j.
Proof. unfold ck. f_equal. unfold Rdiv. ring. Qed.

Lemma cos_int_pi k : cos (INR k * PI) = (-1) ^ k.
Proof.
  induction k as [|k IH]; [cbn [INR pow]; rewrite Rmult_0_l; apply cos_0|]. rewrite S_INR. replace ((INR k + 1) * PI) with (INR k * PI + PI) by ring.
  rewrite cos_plus, cos_PI, sin_PI, IH. cbn [pow]. ring.
Qed.

Lemma ck_N N j : (1 <= N)%nat -> ck N j N = (-1) ^ j.
Proof. intros HN. apply INR_ge1 in HN. unfold ck. rewrite <- cos_int_pi. f_equal. field. lra. Qed.

Lemma m1_sq j : (-1) ^ j * (-1) ^ j = 1.
Proof. rewrite <- Rpow_mult_distr. replace (-1 * -1) with 1 by ring. apply pow1. Qed.

(** ** Barycentric sums in the standard variable *)

Section bary.
  Variables (N : nat) (t : R).
  Hypothesis HN : (1 <= N)%nat.
  Hypothesis Ht : forall j, (j <= N)%nat -> node N j <> t.

  Definition bsum (v : nat -> R) : R := sumn (fun j => ends N j * ((-1) ^ j * v j / (t - node N j))) (S N).

  Lemma bsum_plus v w : bsum (fun j => v j + w j) = bsum v + bsum w.
  Proof. unfold bsum. rewrite <- sumn_plus. apply sumn_ext. intros j Hj. unfold Rdiv. ring. Qed.
  Lemma bsum_scal c v : bsum (fun j => c * v j) = c * bsum v.
  Proof. unfold bsum. rewrite <- sumn_scal. apply sumn_ext. intros j Hj. unfold Rdiv. ring. Qed.
  Lemma bsum_ext v w : (forall j, (j <= N)%nat -> v j = w j) -> bsum v = bsum w.
  Proof. intros H. unfold bsum. apply sumn_ext. intros j Hj. rewrite H by lia. reflexivity. Qed.
  Lemma bsum_sum (v : nat -> nat -> R) n : bsum (fun j => sumn (fun k => v k j) n) = sumn (fun k => bsum (v k)) n.
  Proof.
    induction n as [|n IH]; cbn [sumn].
    - transitivity (0 * bsum (fun _ => 0)); [|ring]. rewrite <- bsum_scal. apply bsum_ext. intros; ring.
    - rewrite <- IH. apply bsum_plus.
  Qed.

  Lemma bsum_node v : bsum (fun j => node N j * v j) = t * bsum v - sumn (fun j => ends N j * ((-1) ^ j * v j)) (S N).
  Proof.
    unfold bsum. rewrite <- sumn_scal.
    enough (E : sumn (fun j => ends N j * ((-1) ^ j * (node N j * v j) / (t - node N j))) (S N) + sumn (fun j => ends N j * ((-1) ^ j * v j)) (S N) =
       sumn (fun j => t * (ends N j * ((-1) ^ j * v j / (t - node N j)))) (S N)) by lra.
    rewrite <- sumn_plus. apply sumn_ext. intros j Hj. assert (t - node N j <> 0) by (intros C; apply (Ht j); [lia|lra]). field. assumption.
  Qed.

  Definition tsum (k : nat) : R := bsum (fun j => T k (node N j)).

  Lemma alt_sum k : (k <= N)%nat -> sumn (fun j => ends N j * ((-1) ^ j * T k (node N j))) (S N) = if Nat.eqb k N then INR N else 0.
  Proof.
    intros Hk. transitivity (sumn (fun j => ends N j * (ck N j k * ck N j N)) (S N)).
    - apply sumn_ext. intros j Hj. rewrite ck_N by exact HN. rewrite <- ck_node by exact HN. ring.
    - rewrite orthogonal by lia. rewrite Nat.eqb_refl, orb_true_r. reflexivity.
  Qed.

  Lemma tsum_step k : (k <= N)%nat ->
    tsum (S k) = match k with O => t * tsum 0 | S m => 2 * t * tsum k - tsum m end - (match k with O => 1 | _ => 2 end) * (if Nat.eqb k N then INR N else 0).
  Proof.
    intros Hk. destruct k as [|m].
    - unfold tsum at 1. rewrite (bsum_ext _ (fun j => node N j * T 0 (node N j))) by (intros j _; rewrite T_0, T_1; ring).
      rewrite bsum_node, alt_sum by exact Hk. unfold tsum. ring.
    - unfold tsum at 1. rewrite (bsum_ext _ (fun j => 2 * (node N j * T (S m) (node N j)) + -1 * T m (node N j))) by (intros j _; rewrite T_SS; ring).
      rewrite bsum_plus, !bsum_scal, bsum_node, alt_sum by exact Hk. unfold tsum. ring.
  Qed.

  Lemma tsum_T k : (k <= N)%nat -> tsum k = T k t * tsum 0.
  Proof.
    induction k as [| |k I1 I2] using two_step; intros Hk.
    - rewrite T_0. ring.
    - rewrite tsum_step by lia. destruct (Nat.eqb_spec 0 N); [lia|]. rewrite T_1. ring.
    - rewrite tsum_step by lia. destruct (Nat.eqb_spec (S k) N); [lia|]. rewrite I1, I2, T_SS by lia. ring.
  Qed.

  (** The next polynomial agrees with the one before last at every node. *)
  Lemma node_reflect j : T (S N) (node N j) = T (N - 1) (node N j).
  Proof.
    pose proof (INR_ge1 N HN) as PN. unfold node. rewrite !T_cos, S_INR, minus_INR by exact HN. change (INR 1) with 1.
    replace ((INR N + 1) * (PI * INR j / INR N)) with (INR j * PI + PI * INR j / INR N) by (field; lra).
    replace ((INR N - 1) * (PI * INR j / INR N)) with (INR j * PI - PI * INR j / INR N) by (field; lra).
    rewrite cos_plus, cos_minus. destruct (cos_pi_nat j) as [_ ->]. ring.
  Qed.

  Lemma bsum_nonzero : tsum 0 <> 0.
  Proof.
    intros C. pose proof (INR_ge1 N HN) as PN.
    assert (E : tsum (S N) = tsum (N - 1)) by (unfold tsum; apply bsum_ext; intros; apply node_reflect).
    pose proof (tsum_step (S (N - 1)) ltac:(lia)) as ST. cbv iota in ST. replace (S (N - 1)) with N in ST by lia. rewrite Nat.eqb_refl in ST.
    rewrite E, (tsum_T N), (tsum_T (N - 1)), C in ST by lia. lra.
  Qed.

  Lemma bary_exact (e : nat -> R) v : (forall j, (j <= N)%nat -> v j = sumn (fun k => e k * T k (node N j)) (S N)) ->
    bsum v / bsum (fun _ => 1) = sumn (fun k => e k * T k t) (S N).
  Proof.
    intros H. rewrite (bsum_ext v _ H). rewrite (bsum_sum (fun k j => e k * T k (node N j))).
    rewrite (sumn_ext _ (fun k => (e k * T k t) * tsum 0)).
    - assert (E0 : bsum (fun _ => 1) = tsum 0) by (unfold tsum; apply bsum_ext; intros; rewrite T_0; reflexivity). rewrite E0.
      pose proof bsum_nonzero. rewrite (sumn_ext _ (fun k => tsum 0 * (e k * T k t))) by (intros; ring). rewrite sumn_scal. field. assumption.
    - intros k Hk. rewrite (bsum_scal (e k) (fun j => T k (node N j))). fold (tsum k). rewrite tsum_T by lia. ring.
  Qed.
End bary.

(** ** The loop of evaluate *)

Definition std (lo hi x : R) : R := (2 * x - (hi + lo)) / (hi - lo).

Lemma point_node N lo hi j : chebyshev_point N lo hi j = ((hi - lo) * node N j + (hi + lo)) / 2.
Proof. reflexivity. Qed.

Lemma std_point N lo hi j : lo <> hi -> std lo hi (chebyshev_point N lo hi j) = node N j.
Proof. intros H. rewrite point_node. unfold std. field. lra. Qed.

Definition scaled (g : cheb) (x : R) (v : nat -> R) (j : nat) : R := ends (ch_N g) j * ((-1) ^ j * v j / (x - nth j (ch_Xs g) 0)).

Lemma bary_loop g x : forall left j numer denom, (j + left = S (ch_N g))%nat ->
  (forall i, (j <= i)%nat -> (i <= ch_N g)%nat -> nth i (ch_Xs g) 0 <> x) ->
  bary g x j (- (-1) ^ j) numer denom left =
    (numer + sumn (fun i => scaled g x (fun k => nth k (ch_Fs g) 0) (j + i)) left) / (denom + sumn (fun i => scaled g x (fun _ => 1) (j + i)) left).
Proof.
  induction left as [|left IH]; intros j numer denom HL HX; cbn [bary sumn]; [rewrite !Rplus_0_r; reflexivity|]. cbv zeta.
  destruct (Req_EM_T (nth j (ch_Xs g) 0) x) as [C|_]; [exfalso; apply (HX j); [lia|lia|exact C]|].
  replace (- - (-1) ^ j) with (- (-1) ^ S j) by (cbn [pow]; ring). rewrite IH; [|lia|intros; apply HX; lia].
  assert (SH : forall h, sumn (fun i => scaled g x h (j + i)) (S left) = scaled g x h j + sumn (fun i => scaled g x h (S j + i)) left).
  { intros h. rewrite sumn_first, Nat.add_0_r. f_equal. apply sumn_ext. intros i _. f_equal. lia. }
  pose proof (SH (fun k => nth k (ch_Fs g) 0)) as S1. pose proof (SH (fun _ => 1)) as S2. cbn [sumn] in S1, S2. rewrite S1, S2.
  assert (W : (if (Nat.eqb j 0 || Nat.eqb j (ch_N g))%bool then - (-1) ^ S j / (x - nth j (ch_Xs g) 0) / 2 else - (-1) ^ S j / (x - nth j (ch_Xs g) 0)) = scaled g x (fun _ => 1) j).
  { unfold scaled, ends. destruct (_ || _)%bool; cbn [pow]; unfold Rdiv; rewrite ?Rmult_1_l; ring. }
  rewrite W. rewrite <- !Rplus_assoc. f_equal. f_equal. f_equal. unfold scaled, Rdiv. ring.
Qed.

(** The first point met decides if the argument is a point of the grid. *)
Lemma bary_hit g x i : nth i (ch_Xs g) 0 = x -> (forall j, (j < i)%nat -> nth j (ch_Xs g) 0 <> x) ->
  forall left j w numer denom, (j <= i)%nat -> (i < j + left)%nat -> bary g x j w numer denom left = nth i (ch_Fs g) 0.
Proof.
  intros Hi Hb. induction left as [|left IH]; intros j w numer denom H1 H2; [lia|]. cbn [bary]. cbv zeta.
  destruct (Req_EM_T (nth j (ch_Xs g) 0) x) as [E|NE].
  - destruct (Nat.eq_dec j i) as [->|D]; [reflexivity|]. exfalso. apply (Hb j); [lia|exact E].
  - apply IH; [|lia]. destruct (Nat.eq_dec j i) as [->|D]; [contradiction|lia].
Qed.

Lemma first_hit (l : list R) x : In x l -> exists i, (i < length l)%nat /\ nth i l 0 = x /\ forall j, (j < i)%nat -> nth j l 0 <> x.
Proof.
  induction l as [|y l IH]; intros H; [destruct H|]. destruct (Req_EM_T y x) as [E|NE].
  - exists 0%nat. cbn [length nth]. split; [lia|]. split; [exact E|]. intros; lia.
  - destruct H as [H|H]; [contradiction|]. destruct (IH H) as (i & I1 & I2 & I3). exists (S i). cbn [length nth]. split; [lia|]. split; [exact I2|].
    intros [|j] Hj; [exact NE|]. apply I3. lia.
Qed.

Definition on_grid (g : cheb) : Prop := ch_lo g <> ch_hi g /\ (1 <= ch_N g)%nat /\
  ch_Xs g = map (chebyshev_point (ch_N g) (ch_lo g) (ch_hi g)) (seq 0 (S (ch_N g))).

Lemma nth_grid N lo hi j : (j <= N)%nat -> nth j (map (chebyshev_point N lo hi) (seq 0 (S N))) 0 = chebyshev_point N lo hi j.
Proof.
  intros H. rewrite (nth_indep _ 0 (chebyshev_point N lo hi 0)) by (rewrite map_length, seq_length; lia).
  rewrite (map_nth (chebyshev_point N lo hi)). rewrite seq_nth by lia. reflexivity.
Qed.

(** Values that are those of a combination of Chebyshev polynomials at the nodes give that
    combination everywhere. *)
Lemma evaluate_series g (e : nat -> R) : on_grid g ->
  (forall j, (j <= ch_N g)%nat -> nth j (ch_Fs g) 0 = sumn (fun k => e k * T k (node (ch_N g) j)) (S (ch_N g))) ->
  forall x, evaluate g x = sumn (fun k => e k * T k (std (ch_lo g) (ch_hi g) x)) (S (ch_N g)).
Proof.
  intros (HL & HN & HX) HF x. unfold evaluate.
  assert (PX : forall j, (j <= ch_N g)%nat -> nth j (ch_Xs g) 0 = chebyshev_point (ch_N g) (ch_lo g) (ch_hi g) j) by (intros j Hj; rewrite HX; apply nth_grid; exact Hj).
  destruct (in_dec Req_EM_T x (ch_Xs g)) as [HI|NI].
  - destruct (first_hit _ _ HI) as (i & I1 & I2 & I3). rewrite HX, map_length, seq_length in I1. rewrite (bary_hit g x i I2 I3) by lia.
    rewrite HF by lia. rewrite <- I2, PX by lia. rewrite std_point by exact HL. reflexivity.
  - assert (NX : forall i, (0 <= i)%nat -> (i <= ch_N g)%nat -> nth i (ch_Xs g) 0 <> x).
    { intros i _ Hi C. apply NI. rewrite <- C. apply nth_In. rewrite HX, map_length, seq_length. lia. }
    replace (-1) with (- (-1) ^ 0) at 1 by (cbn [pow]; ring). rewrite bary_loop; [|lia|exact NX]. rewrite !Rplus_0_l.
    set (lo := ch_lo g) in *. set (hi := ch_hi g) in *. set (N := ch_N g) in *. set (t := std lo hi x).
    assert (HT : forall j, (j <= N)%nat -> node N j <> t).
    { intros j Hj C. apply (NX j); [lia|exact Hj|]. rewrite PX by exact Hj. rewrite point_node, C. unfold t, std. field. lra. }
    assert (SC : forall h, sumn (fun i => scaled g x h (0 + i)) (S N) = 2 / (hi - lo) * bsum N t h).
    { intros h. unfold bsum. rewrite <- sumn_scal. apply sumn_ext. intros j Hj. cbn [Nat.add]. unfold scaled. fold N. rewrite PX by lia.
      assert (t - node N j <> 0) by (intros C; apply (HT j); [lia|lra]).
      replace (x - chebyshev_point N lo hi j) with ((hi - lo) / 2 * (t - node N j)) by (rewrite point_node; unfold t, std; field; lra). field. lra. }
    rewrite !SC. rewrite <- (bary_exact N t HN HT e (fun k => nth k (ch_Fs g) 0)) by exact HF.
    assert (NZ : bsum N t (fun _ => 1) <> 0).
    { replace (bsum N t (fun _ => 1)) with (tsum N t 0); [apply bsum_nonzero; assumption|]. reflexivity. }
    field. split; [exact NZ|lra].
Qed.

(** ** Coefficients *)

Lemma cost_length x : length (cost x) = length x.
Proof. unfold cost. rewrite map_length, seq_length. reflexivity. Qed.

Lemma cost_nth x N i : length x = S N -> (1 <= N)%nat -> (i <= N)%nat ->
  nth i (cost x) 0 = 2 * sumn (fun k => ends N k * (nth k x 0 * ck N k i)) (S N).
Proof.
  intros HL HN Hi. pose proof (INR_ge1 N HN) as PN. unfold cost. rewrite HL. set (h := fun i => _).
  rewrite (nth_indep _ 0 (h 0%nat)) by (rewrite map_length, seq_length; lia). rewrite (map_nth h), seq_nth by lia. cbn [Nat.add]. unfold h. clear h.
  replace (S N - 1)%nat with N by lia. replace (S N - 2)%nat with (N - 1)%nat by lia.
  rewrite (sum_ends N (fun k => nth k x 0 * ck N k i) HN). rewrite sumR_seq. unfold ck at 1. replace (INR 0 * INR i * PI / INR N) with 0 by (cbn [INR]; unfold Rdiv; ring). rewrite cos_0.
  rewrite (ck_sym N N i), ck_N by exact HN. rewrite Rmult_plus_distr_l, <- sumn_scal. f_equal; [field|]. apply sumn_ext. intros k _. unfold ck. cbn [Nat.add]. ring.
Qed.

(** The transform is its own inverse, up to a factor. *)
Lemma cost_inverse x N j : length x = S N -> (1 <= N)%nat -> (j <= N)%nat ->
  sumn (fun k => ends N k * (nth k (cost x) 0 * ck N k j)) (S N) = INR N * nth j x 0.
Proof.
  intros HL HN Hj.
  rewrite (sumn_ext _ (fun k => sumn (fun m => 2 * (ends N m * nth m x 0) * (ends N k * (ck N k m * ck N k j))) (S N))).
  - rewrite sumn_swap. rewrite (sumn_ext _ (fun m => 2 * (ends N m * nth m x 0) * sumn (fun k => ends N k * (ck N k m * ck N k j)) (S N))) by (intros; apply sumn_scal).
    rewrite (sumn_single _ (S N) j); [|lia|].
    + rewrite orthogonal by lia. rewrite Nat.eqb_refl. unfold ends. destruct (_ || _)%bool; lra.
    + intros i Hi NE. rewrite orthogonal by lia. destruct (Nat.eqb_spec i j); [contradiction|]. ring.
  - intros k Hk. rewrite (cost_nth x N k) by (try exact HL; lia). set (c := sumn _ _). 
    transitivity (2 * ends N k * ck N k j * c); [ring|]. unfold c. rewrite <- sumn_scal. apply sumn_ext. intros m Hm. rewrite (ck_sym N m k). ring.
Qed.

Lemma nth_map_div c l k : nth k (map (fun d => d / c) l) 0 = nth k l 0 / c.
Proof. replace 0 with (0 / c) at 1 by (unfold Rdiv; ring). apply (map_nth (fun d => d / c)). Qed.
Lemma nth_map_mul c l k : nth k (map (fun d => d * c) l) 0 = nth k l 0 * c.
Proof. replace 0 with (0 * c) at 1 by ring. apply (map_nth (fun d => d * c)). Qed.

(** The series with coefficients a, first and last halved. *)
Definition series (N : nat) (a : nat -> R) (t : R) : R := sumn (fun k => ends N k * a k * T k t) (S N).

(** What the constructor stores, for the size it ends with. *)
Definition made (f : R -> R) (lo hi : R) (N : nat) (g : cheb) : Prop :=
  ch_N g = N /\ ch_lo g = lo /\ ch_hi g = hi /\ ch_Xs g = map (chebyshev_point N lo hi) (seq 0 (S N)) /\ ch_Fs g = map f (ch_Xs g) /\
  ch_coeffs g = map (fun d => d / INR N) (cost (ch_Fs g)) /\ ch_integral g = compute_integral N (ch_coeffs g) lo hi.

Lemma made_values f lo hi N g j : made f lo hi N g -> (j <= N)%nat -> nth j (ch_Fs g) 0 = f (chebyshev_point N lo hi j).
Proof.
  intros (_ & _ & _ & HX & HF & _) Hj. rewrite HF, HX. rewrite map_map. set (h := fun x => f (chebyshev_point N lo hi x)).
  rewrite (nth_indep _ 0 (h 0%nat)) by (rewrite map_length, seq_length; lia). rewrite (map_nth h), seq_nth by lia. reflexivity.
Qed.

Lemma made_length f lo hi N g : made f lo hi N g -> length (ch_Xs g) = S N /\ length (ch_Fs g) = S N /\ length (ch_coeffs g) = S N.
Proof. intros (_ & _ & _ & HX & HF & HC & _). rewrite HC, HF, HX, ?map_length, cost_length, ?map_length, seq_length. auto. Qed.

Lemma made_nodes f lo hi N g j : made f lo hi N g -> (1 <= N)%nat -> (j <= N)%nat ->
  f (chebyshev_point N lo hi j) = series N (fun k => nth k (ch_coeffs g) 0) (node N j).
Proof.
  intros HM HN Hj. pose proof (INR_ge1 N HN) as PN. rewrite <- (made_values _ _ _ _ _ _ HM Hj). destruct (made_length _ _ _ _ _ HM) as (_ & LF & _).
  pose proof (cost_inverse (ch_Fs g) N j LF HN Hj) as E. destruct HM as (_ & _ & _ & _ & _ & HC & _).
  unfold series. rewrite HC. apply (Rmult_eq_reg_l (INR N)); [|lra]. rewrite <- E, <- sumn_scal. apply sumn_ext. intros k Hk. rewrite nth_map_div.
  rewrite (ck_sym N k j), ck_node by exact HN. field. lra.
Qed.

Lemma made_evaluate f lo hi N g : made f lo hi N g -> (1 <= N)%nat -> lo <> hi -> forall x,
  evaluate g x = series N (fun k => nth k (ch_coeffs g) 0) (std lo hi x).
Proof.
  intros HM HN HL x. pose proof HM as (E1 & E2 & E3 & HX & _). unfold series.
  rewrite (evaluate_series g (fun k => ends N k * nth k (ch_coeffs g) 0)); rewrite ?E1, ?E2, ?E3; [reflexivity| |].
  - unfold on_grid. rewrite E1, E2, E3. auto.
  - intros j Hj. rewrite (made_values _ _ _ _ _ _ HM Hj). apply made_nodes; assumption.
Qed.

(** The last coefficient. *)
Lemma made_last f lo hi N g : made f lo hi N g -> (1 <= N)%nat ->
  nth N (ch_coeffs g) 0 = 2 / INR N * sumn (fun j => ends N j * ((-1) ^ j * f (chebyshev_point N lo hi j))) (S N).
Proof.
  intros HM HN. destruct (made_length _ _ _ _ _ HM) as (_ & LF & _). pose proof HM as (_ & _ & _ & _ & _ & HC & _).
  rewrite HC, nth_map_div, (cost_nth _ N N LF HN) by lia.
  rewrite (sumn_ext (fun k => ends N k * (nth k (ch_Fs g) 0 * ck N k N)) (fun j => ends N j * ((-1) ^ j * f (chebyshev_point N lo hi j)))).
  - unfold Rdiv. ring.
  - intros k Hk. rewrite ck_N by exact HN. rewrite (made_values _ _ _ _ _ _ HM) by lia. ring.
Qed.

(** ** Antiderivatives *)

(** The antiderivative of T k that vanishes at -1. *)
Definition A (k : nat) (t : R) : R :=
  match k with
  | O => t + 1
  | S O => 1 / 2 * t ^ 2 - 1 / 2
  | S (S m) => / (2 * INR (S (S (S m)))) * T (S (S (S m))) t - / (2 * INR (S m)) * T (S m) t + (-1) ^ (k + 1) / (INR k * INR k - 1)
  end.

Lemma m1_even m : (-1) ^ m = if Nat.even m then 1 else -1.
Proof.
  destruct (even_cases m) as [k [[-> E]|[-> E]]]; rewrite E.
  - rewrite pow_mult. replace ((-1) ^ 2) with 1 by ring. apply pow1.
  - cbn [pow]. rewrite pow_mult. replace ((-1) ^ 2) with 1 by ring. rewrite pow1. ring.
Qed.

Lemma T_m1 m : T m (-1) = (-1) ^ m.
Proof. rewrite T_at_m1, m1_even. reflexivity. Qed.

Lemma A_low k : A k (-1) = 0.
Proof.
  destruct k as [|[|m]]; unfold A; [ring|field|]. rewrite !T_m1.
  assert (P : 0 <= INR m) by apply pos_INR. rewrite !S_INR. replace (S (S m) + 1)%nat with (S (S (S m))) by lia. cbn [pow]. field. split; [|split]; nra.
Qed.

Lemma A_deriv k t : derivable_pt_lim (A k) t (T k t).
Proof.
  destruct k as [|[|m]].
  - rewrite T_0. replace 1 with (1 + 0) by ring. apply (derivable_pt_lim_plus (fun t => t) (fun _ => 1)); [apply derivable_pt_lim_id|apply derivable_pt_lim_const].
  - rewrite T_1. replace t with (1 / 2 * (INR 2 * t ^ 1) - 0) at 2 by (cbn [INR pow]; field).
    apply (derivable_pt_lim_minus (fun t => 1 / 2 * t ^ 2) (fun _ => 1 / 2)); [|apply derivable_pt_lim_const]. apply derivable_pt_lim_scal. apply (derivable_pt_lim_pow t 2).
  - assert (P1 : INR (S m) <> 0) by (apply not_0_INR; lia). assert (P3 : INR (S (S (S m))) <> 0) by (apply not_0_INR; lia).
    replace (T (S (S m)) t) with (/ (2 * INR (S (S (S m)))) * (INR (S (S (S m))) * V (S (S m)) t) - / (2 * INR (S m)) * (INR (S m) * V m t) + 0).
    + apply (derivable_pt_lim_plus (fun x => / (2 * INR (S (S (S m)))) * T (S (S (S m))) x - / (2 * INR (S m)) * T (S m) x) (fun _ => (-1) ^ (S (S m) + 1) / (INR (S (S m)) * INR (S (S m)) - 1))); [|apply derivable_pt_lim_const].
      apply (derivable_pt_lim_minus (fun x => / (2 * INR (S (S (S m)))) * T (S (S (S m))) x) (fun x => / (2 * INR (S m)) * T (S m) x)); apply derivable_pt_lim_scal; apply T_deriv.
    + pose proof (V_T m t) as VT. replace (T (S (S m)) t) with ((V (S (S m)) t - V m t) / 2) by lra. field. split; assumption.
Qed.

Lemma A_high k : A k 1 = TI k.
Proof. destruct (T_anti k) as (U & HU & EU). rewrite <- EU. rewrite <- (same_deriv (A k) U (T k) (-1) 1 (A_deriv k) HU). rewrite A_low. ring. Qed.

Definition aseries (N : nat) (a : nat -> R) (t : R) : R := sumn (fun k => ends N k * a k * A k t) (S N).

Lemma aseries_deriv N a t : derivable_pt_lim (aseries N a) t (series N a t).
Proof.
  unfold aseries, series. generalize (S N) as n. induction n as [|n IH]; cbn [sumn]; [apply (derivable_pt_lim_const 0)|].
  apply (derivable_pt_lim_plus (fun t => sumn (fun k => ends N k * a k * A k t) n) (fun t => ends N n * a n * A n t)); [exact IH|].
  apply derivable_pt_lim_scal. apply A_deriv.
Qed.

Lemma aseries_low N a : aseries N a (-1) = 0.
Proof. unfold aseries. apply sumn_zero. intros. rewrite A_low. ring. Qed.

Lemma std_deriv lo hi F f x : lo <> hi -> (forall t, derivable_pt_lim F t (f t)) ->
  derivable_pt_lim (fun x => (hi - lo) / 2 * F (std lo hi x)) x (f (std lo hi x)).
Proof.
  intros HL HF. replace (f (std lo hi x)) with ((hi - lo) / 2 * (f (std lo hi x) * (2 / (hi - lo)))) by (field; lra). apply derivable_pt_lim_scal.
  apply (derivable_pt_lim_comp (std lo hi) F); [|apply HF].
  assert (D : derivable_pt_lim (fun y => 2 / (hi - lo) * y + - (hi + lo) / (hi - lo)) x (2 / (hi - lo) * 1 + 0)).
  { apply (derivable_pt_lim_plus (fun y => 2 / (hi - lo) * y) (fun _ => - (hi + lo) / (hi - lo))); [apply (derivable_pt_lim_scal (fun y => y)); apply derivable_pt_lim_id|apply derivable_pt_lim_const]. }
  rewrite Rmult_1_r, Rplus_0_r in D. intros eps Heps. destruct (D eps Heps) as [del Hd]. exists del. intros h H1 H2. specialize (Hd h H1 H2).
  replace (std lo hi (x + h)) with (2 / (hi - lo) * (x + h) + - (hi + lo) / (hi - lo)) by (unfold std; field; lra).
  replace (std lo hi x) with (2 / (hi - lo) * x + - (hi + lo) / (hi - lo)) by (unfold std; field; lra). exact Hd.
Qed.

Lemma std_low lo hi : lo <> hi -> std lo hi lo = -1.
Proof. intros H. unfold std. field. lra. Qed.
Lemma std_high lo hi : lo <> hi -> std lo hi hi = 1.
Proof. intros H. unfold std. field. lra. Qed.

(** ** The integral *)

Lemma sumR_filter (p : nat -> bool) h l : sumR (map h (filter p l)) = sumR (map (fun k => if p k then h k else 0) l).
Proof. induction l as [|x l IH]; [reflexivity|]. cbn [filter map sumR]. destruct (p x); cbn [map sumR]; rewrite IH; lra. Qed.

Lemma integral_series N cs lo hi : compute_integral N cs lo hi = (hi - lo) / 2 * aseries N (fun k => nth k cs 0) 1.
Proof.
  unfold compute_integral. rewrite sumR_filter, sumR_seq. rewrite Rmult_comm. f_equal. unfold aseries. apply sumn_ext. intros k Hk. cbn [Nat.add]. rewrite A_high. unfold TI, ends.
  cbv zeta. destruct (Nat.even k); [|ring]. destruct (_ || _)%bool; unfold Rdiv; ring.
Qed.

(** ** The cumulative function *)

Lemma cdf_coeffs_length g : (1 <= ch_N g)%nat -> length (ch_coeffs (cdf g)) = S (S (ch_N g)).
Proof. intros H. unfold cdf. cbn [ch_coeffs]. rewrite !map_length, !app_length, !map_length, seq_length. cbn [length]. lia. Qed.

Lemma cdf_coeff g k : (1 <= ch_N g)%nat -> length (ch_coeffs g) = S (ch_N g) -> (1 <= k)%nat -> (k <= S (ch_N g))%nat ->
  nth k (ch_coeffs (cdf g)) 0 = (nth (k - 1) (ch_coeffs g) 0 - nth (k + 1) (ch_coeffs g) 0) / (2 * INR k) * ((ch_hi g - ch_lo g) / 2).
Proof.
  intros HN HL H1 H2. unfold cdf. cbn [ch_coeffs]. set (a := fun k => nth k (ch_coeffs g) 0). rewrite nth_map_mul. f_equal.
  set (h := fun k : nat => (a (k - 1)%nat - a (k + 1)%nat) / (2 * INR k)). change (nth k _ 0) with (nth k ([(a 0%nat + - (1 / 2) * a 1%nat + sumR (map (fun j : nat => 2 * a j * (-1) ^ (j + 1) / (INR j * INR j - 1)) (seq 2 (ch_N g - 1))))] ++
    map h (seq 1 (ch_N g - 1)) ++ [a (ch_N g - 1)%nat / (2 * INR (ch_N g))] ++ [a (ch_N g) / (2 * (INR (ch_N g) + 1))]) 0) at 1.
  change (_ = _) with (nth k ([(a 0%nat + - (1 / 2) * a 1%nat + sumR (map (fun j : nat => 2 * a j * (-1) ^ (j + 1) / (INR j * INR j - 1)) (seq 2 (ch_N g - 1))))] ++
    map h (seq 1 (ch_N g - 1)) ++ [a (ch_N g - 1)%nat / (2 * INR (ch_N g))] ++ [a (ch_N g) / (2 * (INR (ch_N g) + 1))]) 0 = h k).
  destruct k as [|k]; [lia|]. cbn [app nth].
  destruct (le_lt_dec (ch_N g - 1) k) as [L|L].
  - rewrite app_nth2 by (rewrite map_length, seq_length; exact L). rewrite map_length, seq_length.
    destruct (Nat.eq_dec k (ch_N g - 1)) as [E|NE].
    + replace (k - (ch_N g - 1))%nat with 0%nat by lia. cbn [nth]. unfold h. replace (S k - 1)%nat with (ch_N g - 1)%nat by lia. replace (S k) with (ch_N g) by lia.
      unfold a at 3. rewrite (nth_overflow (ch_coeffs g)) by lia. rewrite Rminus_0_r. reflexivity.
    + replace (k - (ch_N g - 1))%nat with 1%nat by lia. cbn [nth]. unfold h. replace (S k - 1)%nat with (ch_N g) by lia. replace (S k) with (S (ch_N g)) by lia.
      unfold a at 3. rewrite (nth_overflow (ch_coeffs g)) by lia. rewrite Rminus_0_r, S_INR. reflexivity.
  - rewrite app_nth1 by (rewrite map_length, seq_length; exact L). rewrite (nth_indep _ 0 (h 0%nat)) by (rewrite map_length, seq_length; exact L).
    rewrite (map_nth h), seq_nth by exact L. reflexivity.
Qed.

Lemma cdf_coeff0 g : nth 0 (ch_coeffs (cdf g)) 0 =
  (nth 0 (ch_coeffs g) 0 - 1 / 2 * nth 1 (ch_coeffs g) 0 + 2 * sumn (fun i => nth (i + 2) (ch_coeffs g) 0 * ((-1) ^ (i + 2 + 1) / (INR (i + 2) * INR (i + 2) - 1))) (ch_N g - 1)) *
  ((ch_hi g - ch_lo g) / 2).
Proof.
  unfold cdf. cbn [ch_coeffs map app nth]. f_equal. rewrite sumR_seq. rewrite <- sumn_scal.
  rewrite (sumn_ext _ (fun i => 2 * (nth (i + 2) (ch_coeffs g) 0 * ((-1) ^ (i + 2 + 1) / (INR (i + 2) * INR (i + 2) - 1))))); [ring|].
  intros i _. rewrite (Nat.add_comm 2 i). unfold Rdiv. ring.
Qed.

Lemma ends_mid N k : (0 < k < N)%nat -> ends N k = 1.
Proof. intros H. unfold ends. destruct (Nat.eqb_spec k 0); [lia|]. destruct (Nat.eqb_spec k N); [lia|]. reflexivity. Qed.
Lemma ends_last N : ends N N = 1 / 2.
Proof. unfold ends. rewrite Nat.eqb_refl, orb_true_r. reflexivity. Qed.
Lemma ends_zero N : ends N 0 = 1 / 2.
Proof. reflexivity. Qed.

(** The error of the cumulative function, a multiple of the last coefficient. *)
Definition cdf_error (N : nat) (t : R) : R :=
  match N with S (S m) => (-1) ^ (N + 1) / (INR N * INR N - 1) - T (S m) t / (2 * INR (S m)) | _ => - (1 / 4) end.

Lemma cdf_series g t : (1 <= ch_N g)%nat -> length (ch_coeffs g) = S (ch_N g) ->
  series (S (ch_N g)) (fun k => nth k (ch_coeffs (cdf g)) 0) t =
  (ch_hi g - ch_lo g) / 2 * (aseries (ch_N g) (fun k => nth k (ch_coeffs g) 0) t + nth (ch_N g) (ch_coeffs g) 0 / 2 * cdf_error (ch_N g) t).
Proof.
  intros HN HL. set (W := (ch_hi g - ch_lo g) / 2). set (a := fun k => nth k (ch_coeffs g) 0).
  unfold series. cbn [sumn]. rewrite ends_last. rewrite (cdf_coeff g (S (ch_N g))) by (try assumption; lia). fold W.
  change (sumn ?f (ch_N g) + ?y) with (sumn f (S (ch_N g))). rewrite sumn_first. rewrite ends_zero, cdf_coeff0. fold W.
  rewrite (sumn_ext (fun i => ends (S (ch_N g)) (S i) * nth (S i) (ch_coeffs (cdf g)) 0 * T (S i) t) (fun i => W * ((a i - a (i + 2)%nat) / (2 * INR (S i)) * T (S i) t))).
  2:{ intros i Hi. rewrite ends_mid by lia. rewrite (cdf_coeff g (S i)) by (try assumption; lia). fold W. replace (S i - 1)%nat with i by lia. replace (S i + 1)%nat with (i + 2)%nat by lia.
      unfold a. ring. }
  rewrite sumn_scal. replace (S (ch_N g) - 1)%nat with (ch_N g) by lia. rewrite T_0.
  assert (OV : forall k, (ch_N g < k)%nat -> a k = 0) by (intros k Hk; unfold a; apply nth_overflow; lia).
  change (nth (S (ch_N g) + 1) (ch_coeffs g) 0) with (a (S (ch_N g) + 1)%nat). rewrite (OV (S (ch_N g) + 1)%nat) by lia.
  change (nth (ch_N g) (ch_coeffs g) 0) with (a (ch_N g)). change (nth 0 (ch_coeffs g) 0) with (a 0%nat). change (nth 1 (ch_coeffs g) 0) with (a 1%nat).
  change (fun i => nth (i + 2) (ch_coeffs g) 0 * ((-1) ^ (i + 2 + 1) / (INR (i + 2) * INR (i + 2) - 1))) with (fun i => a (i + 2)%nat * ((-1) ^ (i + 2 + 1) / (INR (i + 2) * INR (i + 2) - 1))).
  unfold aseries. clearbody W. revert OV. generalize (ch_N g) HN. clear HN HL. intros N HN OV. clearbody a. clear g.
  destruct N as [|[|m]]; [lia| |].
  - cbn [sumn Nat.sub Nat.add ends Nat.eqb orb cdf_error A INR]. rewrite (OV 2%nat) by lia. cbn [ends]. unfold ends. cbn [Nat.eqb orb]. rewrite T_SS, T_1, T_0. field.
  - set (N := S (S m)). assert (PM : 0 <= INR m) by apply pos_INR.
    assert (Q1 : sumn (fun i => (a i - a (i + 2)%nat) / (2 * INR (S i)) * T (S i) t) N + a N / (2 * INR (S N)) * T (S N) t =
       a 0%nat / 2 * T 1 t + a 1%nat / 4 * T 2 t + sumn (fun i => a (i + 2)%nat * (/ (2 * INR (S (S (S i)))) * T (S (S (S i))) t - / (2 * INR (S i)) * T (S i) t)) (S m)).
    { rewrite (sumn_ext _ (fun i => a i / (2 * INR (S i)) * T (S i) t + -1 * (a (i + 2)%nat / (2 * INR (S i)) * T (S i) t))) by (intros; unfold Rdiv; ring).
      rewrite sumn_plus, sumn_scal.
      assert (X : sumn (fun i => a i / (2 * INR (S i)) * T (S i) t) N + a N / (2 * INR (S N)) * T (S N) t = a 0%nat / 2 * T 1 t + a 1%nat / 4 * T 2 t + sumn (fun i => a (i + 2)%nat * (/ (2 * INR (S (S (S i)))) * T (S (S (S i))) t)) (S m)).
      { change (sumn (fun i => a i / (2 * INR (S i)) * T (S i) t) (S N) = a 0%nat / 2 * T 1 t + a 1%nat / 4 * T 2 t + sumn (fun i => a (i + 2)%nat * (/ (2 * INR (S (S (S i)))) * T (S (S (S i))) t)) (S m)).
        unfold N. rewrite !sumn_first. rewrite <- (sumn_first (fun i => a (S (S i)) / (2 * INR (S (S (S i)))) * T (S (S (S i))) t)).
        rewrite <- (sumn_first (fun i => a (i + 2)%nat * (/ (2 * INR (S (S (S i)))) * T (S (S (S i))) t))).
        rewrite (sumn_ext (fun i => a (S (S i)) / (2 * INR (S (S (S i)))) * T (S (S (S i))) t) (fun i => a (i + 2)%nat * (/ (2 * INR (S (S (S i)))) * T (S (S (S i))) t))) by (intros i _; replace (i + 2)%nat with (S (S i)) by lia; unfold Rdiv; ring).
        change (INR 1) with 1. change (INR 2) with 2. field. }
      assert (Y : sumn (fun i => a (i + 2)%nat / (2 * INR (S i)) * T (S i) t) N = sumn (fun i => a (i + 2)%nat / (2 * INR (S i)) * T (S i) t) (S m)).
      { unfold N. cbn [sumn]. rewrite (OV (S m + 2)%nat) by lia. unfold Rdiv. ring. }
      rewrite Y. rewrite (sumn_ext (fun i => a (i + 2)%nat * (/ (2 * INR (S (S (S i)))) * T (S (S (S i))) t - / (2 * INR (S i)) * T (S i) t)) (fun i => a (i + 2)%nat * (/ (2 * INR (S (S (S i)))) * T (S (S (S i))) t) + -1 * (a (i + 2)%nat / (2 * INR (S i)) * T (S i) t))) by (intros; unfold Rdiv; ring).
      rewrite sumn_plus, sumn_scal. lra. }
    assert (Q2 : sumn (fun k => ends N k * a k * A k t) (S N) = a 0%nat / 2 * (t + 1) + a 1%nat * A 1 t + sumn (fun i => a (i + 2)%nat * A (i + 2) t) (S m) - a N / 2 * A N t).
    { unfold N at 2. rewrite sumn_first, sumn_first. rewrite ends_zero. rewrite (ends_mid N 1) by (unfold N; lia). cbn [sumn].
      rewrite (sumn_ext (fun i => ends N (S (S i)) * a (S (S i)) * A (S (S i)) t) (fun i => a (i + 2)%nat * A (i + 2) t)).
      - change (S (S m)) with N. replace (m + 2)%nat with N by (unfold N; lia). rewrite ends_last. change (A 0 t) with (t + 1). lra.
      - intros i Hi. rewrite ends_mid by (unfold N; lia). replace (i + 2)%nat with (S (S i)) by lia. ring. }
    rewrite Q2. clear Q2.
    rewrite (sumn_ext (fun i => a (i + 2)%nat * A (i + 2) t) (fun i => a (i + 2)%nat * (/ (2 * INR (S (S (S i)))) * T (S (S (S i))) t - / (2 * INR (S i)) * T (S i) t) + a (i + 2)%nat * ((-1) ^ (i + 2 + 1) / (INR (i + 2) * INR (i + 2) - 1)))).
    2:{ intros i Hi. replace (A (i + 2) t) with (A (S (S i)) t) by (f_equal; lia). unfold A. replace (S (S i)) with (i + 2)%nat by lia. ring. }
    rewrite sumn_plus. set (S0 := sumn (fun i => a (i + 2)%nat * ((-1) ^ (i + 2 + 1) / _)) _). set (X1 := sumn (fun i => (a i - _) / _ * _) N) in *. set (X2 := sumn _ (S m)) in *.
    replace (N - 1)%nat with (S m) by (unfold N; lia). fold S0.
    replace (A N t) with (/ (2 * INR (S N)) * T (S N) t - / (2 * INR (S m)) * T (S m) t + (-1) ^ (N + 1) / (INR N * INR N - 1)) by reflexivity.
    replace (cdf_error N t) with ((-1) ^ (N + 1) / (INR N * INR N - 1) - T (S m) t / (2 * INR (S m))) by reflexivity.
    rewrite (T_SS 0), T_1, T_0 in Q1. unfold A at 1. unfold Rdiv in *. rewrite !Rinv_mult in *. 
    set (s := (-1) ^ (N + 1) * / (INR N * INR N - 1)). set (u := T (S N) t) in *. set (v := T (S m) t) in *. set (i1 := / INR (S N)) in *. set (i2 := / INR (S m)). clearbody s u v i1 i2 S0 X1 X2.
    transitivity (W * (1 / 2 * (a 0%nat - 1 / 2 * a 1%nat + 2 * S0) + (X1 + a N * (/ 2 * i1) * u) - 1 / 2 * (a N * (/ 2 * i1) * u))); [field|].
    rewrite Q1. field.
Qed.

Lemma cdf_evaluate f lo hi N g : made f lo hi N g -> (1 <= N)%nat -> lo <> hi -> forall x,
  evaluate (cdf g) x = (hi - lo) / 2 * (aseries N (fun k => nth k (ch_coeffs g) 0) (std lo hi x) + nth N (ch_coeffs g) 0 / 2 * cdf_error N (std lo hi x)).
Proof.
  intros HM HN HL x. pose proof HM as (E1 & E2 & E3 & _). destruct (made_length _ _ _ _ _ HM) as (_ & _ & LC).
  transitivity (series (S N) (fun k => nth k (ch_coeffs (cdf g)) 0) (std lo hi x)).
  - assert (F1 : ch_N (cdf g) = S N) by (cbn [cdf ch_N]; rewrite E1; reflexivity).
    assert (F2 : ch_lo (cdf g) = lo) by exact E2. assert (F3 : ch_hi (cdf g) = hi) by exact E3.
    rewrite (evaluate_series (cdf g) (fun k => ends (S N) k * nth k (ch_coeffs (cdf g)) 0)); rewrite ?F1, ?F2, ?F3; [reflexivity| |].
    + unfold on_grid. rewrite F1, F2, F3. split; [exact HL|]. split; [lia|]. cbn [cdf ch_Xs]. rewrite E1, E2, E3. reflexivity.
    + intros j Hj. change (ch_Fs (cdf g)) with (map (fun d => d * (1 / 2)) (cost (ch_coeffs (cdf g)))). rewrite nth_map_mul.
      rewrite (cost_nth _ (S N) j); [|rewrite cdf_coeffs_length by lia; rewrite E1; reflexivity|lia|exact Hj].
      rewrite Rmult_comm, <- Rmult_assoc. replace (1 / 2 * 2) with 1 by field. rewrite Rmult_1_l. apply sumn_ext. intros k Hk.
      rewrite (ck_sym (S N) k j), ck_node by lia. ring.
  - rewrite <- E1. rewrite cdf_series by lia. rewrite E1, E2, E3. reflexivity.
Qed.
