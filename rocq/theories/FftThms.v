(** Theorems on the fast cosine transform. *)
From Coq Require Import List Reals Bool Arith Lra Lia.
From Verif Require Import Base Sample Cheb QuadThms Fft FftMath FftStep FftRadix FftGeneral FftTable FftWhole FftCost.
Import ListNotations.
Open Scope R_scope.

(** ** The cosine sum *)
Lemma dct_sum N y i : dct N y i = y 0%nat + (-1) ^ i * y N + sumR (map (fun k => 2 * y k * cos (INR k * INR i * PI / INR N)) (seq 1 (N - 1))).
Proof.
  unfold dct. rewrite sumR_seq, <- sumn_scal. f_equal. apply sumn_ext. intros k _. cbn [Nat.add].
  replace (PI * INR (S k) * INR i / INR N) with (INR (S k) * INR i * PI / INR N) by (unfold Rdiv; ring). ring.
Qed.

Theorem C74_cosine n w wa ifac : (2 <= n)%nat ->
  exists w' wa' ifac', costi n w wa ifac = Ok (w', wa', ifac') /\
  forall x ch i, (1 <= i <= n)%nat ->
    fst (Fft.cost n x w' ch wa' ifac') i =
    x 1%nat + (-1) ^ (i - 1) * x n +
    sumR (map (fun k => 2 * x k * cos (INR (k - 1) * INR (i - 1) * PI / INR (n - 1))) (seq 2 (n - 2))).
Proof.
  intros Hn. destruct (cost_ok n w wa ifac Hn) as (w' & wa' & ifac' & E & _ & _ & H). exists w', wa', ifac'. split; [exact E|].
  intros x ch i Hi. destruct (H x ch) as (H1 & _). replace i with (S (i - 1)) at 1 by lia. rewrite H1 by lia. rewrite dct_sum.
  replace (S (n - 1)) with n by lia. f_equal. replace (n - 1 - 1)%nat with (n - 2)%nat by lia. rewrite <- (seq_shift (n - 2) 1), map_map. f_equal. apply map_ext. intros k. replace (S k - 1)%nat with k by lia. reflexivity.
Qed.
Print Assumptions C74_cosine.

(** In terms of lists: what Cheb.v takes the transform to be. *)
Theorem C74_list l w wa ifac : (2 <= length l)%nat ->
  exists w' wa' ifac', costi (length l) w wa ifac = Ok (w', wa', ifac') /\
  forall x ch, (forall i, (i < length l)%nat -> x (S i) = nth i l 0) ->
    map (fst (Fft.cost (length l) x w' ch wa' ifac')) (seq 1 (length l)) = Cheb.cost l.
Proof.
  intros Hn. destruct (cost_ok (length l) w wa ifac Hn) as (w' & wa' & ifac' & E & _ & _ & H). exists w', wa', ifac'. split; [exact E|].
  intros x ch Hx. destruct (H x ch) as (H1 & _). unfold Cheb.cost. rewrite <- seq_shift, map_map. apply map_ext_in. intros i Hi. apply in_seq in Hi. rewrite H1 by lia. rewrite dct_sum.
  rewrite (Hx 0%nat), (Hx (length l - 1)%nat) by lia. f_equal. replace (length l - 1 - 1)%nat with (length l - 2)%nat by lia. f_equal. apply map_ext_in. intros k Hk. apply in_seq in Hk. rewrite Hx by lia. reflexivity.
Qed.
Print Assumptions C74_list.

(** ** Only these elements change *)
Theorem C74_frame n w wa ifac : (2 <= n)%nat ->
  exists w' wa' ifac', costi n w wa ifac = Ok (w', wa', ifac') /\
  (forall k, (k < 1 \/ n < k)%nat -> w' k = w k) /\ (forall k, (k < 1 \/ n - 1 < k)%nat -> wa' k = wa k) /\
  forall x ch k, ((k < 1 \/ n < k)%nat -> fst (Fft.cost n x w' ch wa' ifac') k = x k) /\
                 ((k < 1 \/ n - 1 < k)%nat -> snd (Fft.cost n x w' ch wa' ifac') k = ch k).
Proof.
  intros Hn. destruct (cost_ok n w wa ifac Hn) as (w' & wa' & ifac' & E & O1 & O2 & H). exists w', wa', ifac'. split; [exact E|].
  split; [intros k Hk; apply O1; lia|]. split; [intros k Hk; apply O2; lia|].
  intros x ch k. destruct (H x ch) as (_ & H2 & H3). split; intros Hk; [apply H2|apply H3]; lia.
Qed.
Print Assumptions C74_frame.

(** ** Twice the transform *)
Lemma ck_sym N a b : ck N a b = ck N b a.
Proof. unfold ck. f_equal. unfold Rdiv. ring. Qed.
Lemma cos_pow i : cos (INR i * PI) = (-1) ^ i.
Proof.
  induction i as [|i IH]; [cbn [INR pow]; rewrite Rmult_0_l; apply cos_0|]. rewrite S_INR. replace ((INR i + 1) * PI) with (INR i * PI + PI) by ring.
  rewrite neg_cos, IH. cbn [pow]. ring.
Qed.
Lemma dct_ends N y i : (1 <= N)%nat -> dct N y i = 2 * sumn (fun k => ends N k * (y k * ck N k i)) (S N).
Proof.
  intros HN. assert (IN : INR N <> 0) by (apply not_0_INR; lia). rewrite (sum_ends N (fun k => y k * ck N k i) HN). unfold dct, ck.
  replace (INR 0 * INR i * PI / INR N) with 0 by (change (INR 0) with 0; unfold Rdiv; ring). rewrite cos_0.
  replace (INR N * INR i * PI / INR N) with (INR i * PI) by (field; exact IN). rewrite cos_pow.
  rewrite (sumn_ext (fun k => y (S k) * cos (PI * INR (S k) * INR i / INR N)) (fun k => y (S k) * cos (INR (S k) * INR i * PI / INR N))).
  - field.
  - intros k _. f_equal. f_equal. unfold Rdiv. ring.
Qed.
Lemma dct_twice N y j : (1 <= N)%nat -> (j <= N)%nat -> dct N (dct N y) j = 2 * INR N * y j.
Proof.
  intros HN Hj. rewrite dct_ends by exact HN.
  rewrite (sumn_ext _ (fun i => sumn (fun k => 2 * (ends N k * y k) * (ends N i * (ck N i k * ck N i j))) (S N))).
  2:{ intros i _. rewrite (dct_ends N y i HN). transitivity ((2 * (ends N i * ck N i j)) * sumn (fun k => ends N k * (y k * ck N k i)) (S N)); [ring|]. rewrite <- sumn_scal. apply sumn_ext. intros k _. rewrite (ck_sym N k i). ring. }
  rewrite sumn_swap.
  rewrite (sumn_ext _ (fun k => 2 * (ends N k * y k) * (if Nat.eqb k j then (if (Nat.eqb j 0 || Nat.eqb j N)%bool then INR N else INR N / 2) else 0))).
  2:{ intros k Hk. rewrite sumn_scal, orthogonal by lia. reflexivity. }
  rewrite (sumn_single _ (S N) j).
  - rewrite Nat.eqb_refl. unfold ends. destruct (Nat.eqb j 0 || Nat.eqb j N)%bool; field.
  - lia.
  - intros i Hi NE. destruct (Nat.eqb_spec i j); [contradiction|]. ring.
Qed.

Theorem C74_twice n w wa ifac : (2 <= n)%nat ->
  exists w' wa' ifac', costi n w wa ifac = Ok (w', wa', ifac') /\
  forall x ch i, (1 <= i <= n)%nat ->
    let '(x1, ch1) := Fft.cost n x w' ch wa' ifac' in
    fst (Fft.cost n x1 w' ch1 wa' ifac') i = 2 * INR (n - 1) * x i.
Proof.
  intros Hn. destruct (cost_ok n w wa ifac Hn) as (w' & wa' & ifac' & E & _ & _ & H). exists w', wa', ifac'. split; [exact E|].
  intros x ch i Hi. destruct (H x ch) as (H1 & _). destruct (Fft.cost n x w' ch wa' ifac') as [x1 ch1]. cbn [fst] in H1. destruct (H x1 ch1) as (H2 & _).
  replace i with (S (i - 1)) at 1 by lia. rewrite H2 by lia.
  transitivity (dct (n - 1) (dct (n - 1) (fun t => x (S t))) (i - 1)).
  - unfold dct at 1. rewrite (H1 0%nat), (H1 (n - 1)%nat) by lia. set (D := dct (n - 1) (fun t => x (S t))). unfold dct. f_equal. f_equal. apply sumn_ext. intros k Hk. rewrite H1 by lia. reflexivity.
  - rewrite dct_twice by lia. f_equal. f_equal. lia.
Qed.
Print Assumptions C74_twice.

(** ** The real transform *)
Theorem C74_fourier n wa ifac : (2 <= n)%nat ->
  exists wa' ifac', rffti n wa ifac = Ok (wa', ifac') /\
  forall c ch, let r := fst (rfftf n c ch wa' ifac') in
    r 1%nat = sumR (map c (seq 1 n)) /\
    (forall q, (1 <= q)%nat -> (2 * q <= n)%nat -> r (2 * q)%nat = sumR (map (fun t => c (S t) * cos (2 * PI * INR q * INR t / INR n)) (seq 0 n))) /\
    (forall q, (1 <= q)%nat -> (2 * q + 1 <= n)%nat -> r (2 * q + 1)%nat = - sumR (map (fun t => c (S t) * sin (2 * PI * INR q * INR t / INR n)) (seq 0 n))).
Proof.
  intros Hn. destruct (rffti_ok n wa ifac Hn) as (fs & wa' & ifac' & E & I2 & IS & IP & IG & IT & _). exists wa', ifac'. split; [exact E|]. intros c ch r.
  destruct (rfftf_ok n c ch wa' ifac' fs Hn I2 IS IP IG IT) as (H & _). fold r in H. split; [|split].
  - rewrite (H 0%nat) by lia. rewrite packed_0, sumR_seq. unfold dcos. apply sumn_ext. intros t _. change (INR 0) with 0. replace (2 * PI * 0 * INR t / INR n) with 0 by (unfold Rdiv; ring). rewrite cos_0. cbn [Nat.add]. ring.
  - intros q H1 H2. replace (2 * q)%nat with (S (2 * q - 1)) by lia. rewrite H by lia. rewrite (packed_re _ _ _ q) by lia. rewrite sumR_seq. reflexivity.
  - intros q H1 H2. replace (2 * q + 1)%nat with (S (2 * q)) by lia. rewrite H by lia. rewrite (packed_im _ _ _ q) by lia. rewrite sumR_seq. reflexivity.
Qed.
Print Assumptions C74_fourier.

(** ** The factors *)
Lemma factors_same : forall fuel j d nl nf ifac, (1 <= j)%nat ->
  factors j d nl nf fuel = match find_factors j d nl nf ifac fuel with Ok (k, _) => Ok k | Er e => Er e end.
Proof.
  induction fuel as [|fuel IH]; intros j d nl nf ifac Hj; [reflexivity|]. cbn [factors find_factors].
  assert (E : Nat.eqb (nl mod d) 0 = Nat.eqb (nl - d * (nl / d)) 0).
  { destruct d as [|d]; [cbn; rewrite Nat.sub_0_r; reflexivity|]. rewrite Nat.mod_eq by lia. reflexivity. }
  rewrite E. destruct (Nat.eqb (nl - d * (nl / d)) 0); cbn [negb].
  - destruct (Nat.eqb (nl / d) 1); cbn [negb]; [reflexivity|]. apply IH. exact Hj.
  - rewrite <- (IH (S j) (next_try (S j) d) nl nf ifac) by lia. destruct j as [|[|[|[|j]]]]; try reflexivity. lia.
Qed.
Theorem C74_factors n wa ifac : (2 <= n)%nat ->
  exists wa' ifac', rffti n wa ifac = Ok (wa', ifac') /\
  let fs := map ifac' (seq 3 (ifac' 2%nat)) in
  ifac' 1%nat = n /\ fold_right Nat.mul 1%nat fs = n /\ (1 <= length fs)%nat /\
  (forall f, In f fs -> f = 2 \/ f = 4 \/ Nat.odd f = true /\ 3 <= f)%nat /\
  (forall a b, (a < b < length fs)%nat -> Nat.odd (nth a fs 0%nat) = true -> Nat.odd (nth b fs 0%nat) = true) /\
  (forall k, (k < 1 \/ ifac' 2%nat + 2 < k)%nat -> ifac' k = ifac k) /\
  factors 1 4 n 0 (2 * n + 8) = Ok (ifac' 2%nat).
Proof.
  intros Hn. destruct (rffti_ok n wa ifac Hn) as (fs & wa' & ifac' & E & I2 & IS & IP & IG & IT & _ & IO). exists wa', ifac'. split; [exact E|].
  assert (EF : map ifac' (seq 3 (ifac' 2%nat)) = fs).
  { rewrite I2. rewrite <- (proj1 (stored_map ifac' fs) IS) at 2. rewrite <- !seq_shift, !map_map. apply map_ext. intros i. f_equal. lia. }
  cbv zeta. rewrite EF. split.
  - clear - Hn E. unfold rffti in E. destruct (Nat.eqb_spec n 1); [lia|]. destruct (find_factors _ _ _ _ _ _) as [[nf i1]|]; [|discriminate]. cbn [bind] in E. injection E as _ <-. rewrite put_other by lia. apply put_same.
  - split; [exact IP|]. split; [destruct fs; [cbn in IP; lia|cbn; lia]|]. split.
    + destruct IG as (ev & od & -> & G1 & G2). intros f Hf. apply in_app_or in Hf. destruct Hf as [Hf|Hf]; [destruct (G1 f Hf); tauto|destruct (G2 f Hf); tauto].
    + split; [|split].
      * intros a b [Hab Hb] Ho. destruct (nth_split fs 0%nat (n := a) ltac:(lia)) as (pre & post & E1 & L1). 
        destruct IG as (ev & od & E0 & G1 & G2).
        assert (La : (length ev <= a)%nat). { destruct (Nat.le_gt_cases (length ev) a) as [L|L]; [exact L|]. exfalso. rewrite E0, app_nth1 in Ho by exact L. destruct (G1 (nth a ev 0%nat) (nth_In ev 0%nat L)) as [Ev|Ev]; rewrite Ev in Ho; discriminate. }
        rewrite E0, app_nth2 by lia. apply G2. apply nth_In. rewrite E0, app_length in Hb. lia.
      * intros k Hk. apply IO. lia.
      * rewrite (factors_same _ _ _ _ _ ifac) by lia. unfold rffti in E. destruct (Nat.eqb_spec n 1); [lia|]. change 4%nat with (next_try 1 0). destruct (find_factors _ _ _ _ _ _) as [[nf i1]|]; [|discriminate]. cbn [bind] in E. injection E as _ <-. reflexivity.
Qed.
Print Assumptions C74_factors.

(** ** The grid of the interpolating function
    What Cheb.v takes for the transform of the values on the grid is what this algorithm
    gives, and all that it writes to the array of factors is within half the number of points. *)
Theorem C74_grid f lo hi N Xs Fs C w wa ifac : (1 <= N)%nat -> grid_pass f lo hi N = Ok (Xs, Fs, C) ->
  exists w' wa' ifac', costi (S N) w wa ifac = Ok (w', wa', ifac') /\
  (forall k, (S N / 2 < k)%nat -> ifac' k = ifac k) /\
  forall x ch, (forall i, (i <= N)%nat -> x (S i) = f (nth i Xs 0)) ->
    forall i, (i <= N)%nat -> fst (Fft.cost (S N) x w' ch wa' ifac') (S i) = nth i C 0.
Proof.
  intros HN G. unfold grid_pass in G. cbv zeta in G. destruct (room_for_factors N) as [[|]|] eqn:RF; [|discriminate|discriminate]. cbn [bind] in G. set (X0 := map (chebyshev_point N lo hi) (seq 0 (S N))) in G. assert (EX : X0 = Xs) by congruence. assert (EF : map f X0 = Fs) by congruence. assert (EC : Cheb.cost (map f X0) = C) by congruence. clear G.
  assert (LX : length Xs = S N) by (rewrite <- EX; unfold X0; rewrite map_length, seq_length; reflexivity).
  assert (LF : length Fs = S N) by (rewrite <- EF, EX, map_length; exact LX). rewrite EX in EF. rewrite EX, EF in EC.
  destruct (C74_list Fs w wa ifac ltac:(lia)) as (w' & wa' & ifac' & E & H). rewrite LF in E. exists w', wa', ifac'. split; [exact E|]. split.
  - intros k Hk. unfold room_for_factors in RF. unfold costi in E. destruct (Nat.leb_spec (S N) 3) as [L3|L3]; [injection E as _ _ <-; reflexivity|].
    replace (S N - 1)%nat with N in E by lia. destruct (C74_factors N wa ifac ltac:(lia)) as (wb & ifb & E2 & _ & _ & _ & _ & _ & IO & HF).
    rewrite E2 in E. cbn [bind] in E. injection E as _ _ <-. rewrite HF in RF. cbn [bind] in RF. injection RF as RF. apply Nat.leb_le in RF. apply IO. right. eapply Nat.le_lt_trans; [exact RF|exact Hk].
  - intros x ch Hx i Hi. rewrite LF in H. specialize (H x ch). rewrite EC in H. rewrite <- H.
    + rewrite (nth_indep _ 0 (fst (Fft.cost (S N) x w' ch wa' ifac') 0%nat)) by (rewrite map_length, seq_length; lia). rewrite map_nth, seq_nth by lia. reflexivity.
    + intros j Hj. rewrite Hx by lia. rewrite <- EF. rewrite (nth_indep (map f Xs) 0 (f 0)) by (rewrite map_length; lia). rewrite map_nth. reflexivity.
Qed.
Print Assumptions C74_grid.

(** 66 values, as for the cumulative distribution from 64 + 1 points: 65 is 5 times 13. *)
Example factors_65 : match find_factors 1 (next_try 1 0) 65 0 (fun _ => 0%nat) (2 * 65 + 8) with Ok (nf, f) => (nf, map f (seq 3 nf)) | Er _ => (0%nat, []) end = (2%nat, [5; 13]%nat).
Proof. vm_compute. reflexivity. Qed.
Example factors_64 : match find_factors 1 (next_try 1 0) 64 0 (fun _ => 0%nat) (2 * 64 + 8) with Ok (nf, f) => (nf, map f (seq 3 nf)) | Er _ => (0%nat, []) end = (3%nat, [4; 4; 4]%nat).
Proof. vm_compute. reflexivity. Qed.
Example factors_2520 : match find_factors 1 (next_try 1 0) 2520 0 (fun _ => 0%nat) (2 * 2520 + 8) with Ok (nf, f) => (nf, map f (seq 3 nf)) | Er _ => (0%nat, []) end = (6%nat, [2; 4; 3; 3; 5; 7]%nat).
Proof. vm_compute. reflexivity. Qed.

(** The transform of 1, 0, ..., 0, 0 has all elements 1, whatever was in the work arrays. *)
Example impulse w wa ifac : exists w' wa' ifac', costi 66 w wa ifac = Ok (w', wa', ifac') /\
  forall ch i, (1 <= i <= 66)%nat -> fst (Fft.cost 66 (put (fun _ => 0) 1 1) w' ch wa' ifac') i = 1.
Proof.
  destruct (C74_cosine 66 w wa ifac ltac:(lia)) as (w' & wa' & ifac' & E & H). exists w', wa', ifac'. split; [exact E|]. intros ch i Hi. rewrite H by exact Hi.
  rewrite put_same. rewrite put_other by lia. rewrite sumR_seq, sumn_zero; [ring|]. intros k _. rewrite put_other by lia. ring.
Qed.

(** The default number of points leaves room for the factors. *)
Example grid_64 f lo hi : exists Xs Fs C, grid_pass f lo hi 64 = Ok (Xs, Fs, C).
Proof. unfold grid_pass. replace (room_for_factors 64) with (Ok true) by (vm_compute; reflexivity). cbv zeta. cbn [bind]. eexists _, _, _. reflexivity. Qed.
