(** C93: atom fractions in floating point. *)
From Coq Require Import List ZArith Bool Lia Reals Lra Psatz Permutation Sorted.
From Coq Require Import Floats.SpecFloat.
From Flocq Require Import Core Relative Plus_error.
From Flocq Require IEEE754.BinarySingleNaN.
From Verif Require Import Base Pdg Names Dbl EventSpec DblArith Sample SampleProofs Target TargetThms TargetDbl.
Import ListNotations.
Local Open Scope R_scope.

Definition u : R := bpow radix2 (-53).
Lemma u_bounds : 0 < u <= / 1024.
Proof. unfold u. change (bpow radix2 (-53)) with (/ IZR (2 ^ 53)). split; lra. Qed.

(** Fractions that a user can mean. *)
Definition amount (x : spec_float) : Prop := finite_dbl x /\ 0 <= val x.
Definition added (fs : list spec_float) (s : spec_float) : spec_float := fold_left (SFadd 53 1024) fs s.
Definition exact_sum (fs : list spec_float) : R := sumR (map val fs).

Lemma power_low n : 1 - INR n * u <= (1 - u) ^ n <= 1.
Proof.
  pose proof u_bounds as U. induction n as [|n IH]; [cbn; lra|]. rewrite S_INR. cbn [pow]. pose proof (pos_INR n) as P.
  assert (0 <= (1 - u) ^ n) by (apply pow_le; lra). split; nra.
Qed.

Lemma plus_error x y : finite_dbl x -> finite_dbl y -> 0 <= val x -> 0 <= val y -> Rabs (rnd (val x + val y) - (val x + val y)) <= u * (val x + val y).
Proof.
  intros Fx Fy Px Py. pose proof u_bounds as U. destruct (Rle_or_lt (bpow radix2 (-1022)) (val x + val y)) as [L|L].
  - pose proof (relative_error_N_FLT radix2 (-1074) 53 eq_refl (fun n => negb (Z.even n)) (val x + val y)) as T.
    rewrite (Rabs_pos_eq (val x + val y)) in T by lra. specialize (T L). apply (Rle_trans _ _ _ T). apply Rmult_le_compat_r; [lra|].
    unfold u. change (bpow radix2 (- (53) + 1)) with (/ IZR (2 ^ 52)). change (bpow radix2 (-53)) with (/ IZR (2 ^ 53)). lra.
  - rewrite rnd_id; [rewrite Rminus_diag_eq by reflexivity; rewrite Rabs_R0; nra|].
    pose proof (val_format x Fx) as Gx. pose proof (val_format y Fy) as Gy. change fexp with (FLT_exp (-1074) 53) in *.
    apply FLT_format_plus_small; [reflexivity|exact Gx|exact Gy|]. rewrite Rabs_pos_eq by lra. apply Rlt_le, (Rlt_trans _ _ _ L), bpow_lt. lia.
Qed.

(** The sum as it is computed, after [k] additions have led to [s] in place of [E]. *)
Lemma sum_error fs : forall s E k, amount s -> (1 - u) ^ k * E <= val s -> val s * (1 - u) ^ k <= E -> 0 <= E -> Forall amount fs ->
  E + exact_sum fs <= bpow radix2 1022 -> INR (k + length fs) * u <= / 4 ->
  amount (added fs s) /\ (1 - u) ^ (k + length fs) * (E + exact_sum fs) <= val (added fs s) /\ val (added fs s) * (1 - u) ^ (k + length fs) <= E + exact_sum fs /\
  val s <= val (added fs s) /\ Forall (fun x => val x <= val (added fs s)) fs.
Proof.
  pose proof u_bounds as U. induction fs as [|x fs IH]; intros s E k [Fs Ps] L1 L2 PE HF HB HN; unfold exact_sum, added in *; cbn [map sumR fold_left length] in *.
  - rewrite Nat.add_0_r, !Rplus_0_r. split; [split; assumption|]. split; [exact L1|]. split; [exact L2|]. split; [lra|constructor].
  - pose proof (Forall_inv HF) as [Fx Px]. pose proof (Forall_inv_tail HF) as HF'.
    assert (PT : 0 <= sumR (map val fs)).
    { clear - HF'. induction fs as [|y fs IH]; cbn [map sumR]; [lra|]. pose proof (Forall_inv HF') as [_ Y]. specialize (IH (Forall_inv_tail HF')). lra. }
    assert (NK : INR k * u <= / 4). { apply (Rle_trans _ (INR (k + S (length fs)) * u)); [|exact HN]. apply Rmult_le_compat_r; [lra|]. apply le_INR. lia. }
    pose proof (power_low k) as [K1 K2]. set (K := (1 - u) ^ k) in *.
    assert (B : val s + val x <= huge).
    { assert (val s * (3 / 4) <= E) by nra. unfold huge. change 1023%Z with (1022 + 1)%Z. rewrite bpow_plus, bpow_1. cbn [radix_val radix2]. change (IZR 2) with 2.
      pose proof (bpow_gt_0 radix2 1022). lra. }
    destruct (add_finite s x Fs Fx) as [FA VA]; [rewrite Rabs_pos_eq by lra; exact B|].
    pose proof (plus_error s x Fs Fx Ps Px) as ER. apply Rabs_le_inv in ER. rewrite <- VA in ER. set (s1 := SFadd 53 1024 s x) in *.
    assert (P1 : 0 <= val s1) by nra.
    assert (MS : val s <= val s1) by (rewrite VA, <- (rnd_id (val s)) at 1 by (apply val_format; exact Fs); apply rnd_le; lra).
    assert (MX : val x <= val s1) by (rewrite VA, <- (rnd_id (val x)) at 1 by (apply val_format; exact Fx); apply rnd_le; lra).
    destruct (IH s1 (E + val x) (S k)) as (H1 & H2 & H3 & H4 & H5).
    + split; assumption.
    + cbn [pow]. fold K. assert (K * (E + val x) <= val s + val x) by nra. nra.
    + cbn [pow]. fold K. assert (G : val s1 * (1 - u) <= val s + val x) by nra.
      replace (val s1 * ((1 - u) * K)) with ((val s1 * (1 - u)) * K) by ring. apply (Rle_trans _ ((val s + val x) * K)); [apply Rmult_le_compat_r; lra|]. nra.
    + lra.
    + exact HF'.
    + lra.
    + replace (S k + length fs)%nat with (k + S (length fs))%nat by lia. exact HN.
    + replace (k + S (length fs))%nat with (S k + length fs)%nat by lia. rewrite <- Rplus_assoc.
      split; [exact H1|]. split; [exact H2|]. split; [exact H3|]. split; [lra|]. constructor; [lra|exact H5].
Qed.

(** ** The map *)

Lemma fill_dbl_ok : forall l t t', fill_doubles l t = Ok t' -> StronglySorted lt_key t ->
  Permutation t' (rev l ++ t) /\ StronglySorted lt_key t' /\ NoDup (map fst l) /\ (forall n, In n (map fst l) -> ~ In n (map fst t)).
Proof.
  induction l as [|[n f] r IH]; intros t t' H HS; cbn [fill_doubles] in H.
  - injection H as <-. split; [reflexivity|]. split; [exact HS|]. split; [constructor|intros ? []].
  - destruct (assoc n t) eqn:E; [destruct (atom_name n); discriminate|].
    destruct (IH _ _ H (put_sorted _ _ _ HS)) as (P & S & D & F). pose proof (put_fresh n f t E) as PF. cbn [map fst].
    assert (NT : ~ In n (map fst t)) by (apply assoc_none; exact E). split; [|split; [exact S|split]].
    + cbn [rev]. rewrite P, PF, <- app_assoc. reflexivity.
    + constructor; [|exact D]. intros I. apply (F _ I). apply (Permutation_in n (Permutation_map fst (Permutation_sym PF))). left. reflexivity.
    + intros m [<-|I]; [exact NT|]. intros J. apply (F _ I). apply (Permutation_in m (Permutation_map fst (Permutation_sym PF))). right. exact J.
Qed.

Lemma fill_dbl_accepts : forall l t, NoDup (map fst l) -> (forall n, In n (map fst l) -> ~ In n (map fst t)) -> exists t', fill_doubles l t = Ok t'.
Proof.
  induction l as [|[n f] r IH]; intros t HD HF; cbn [fill_doubles]; [eexists; reflexivity|]. cbn [map fst] in *.
  pose proof (HF n (or_introl eq_refl)) as A. apply assoc_none in A. rewrite A. apply NoDup_cons_iff in HD. destruct HD as [H1 H2].
  apply IH; [exact H2|]. intros m I J. apply (Permutation_in m (Permutation_map fst (put_fresh n f t A))) in J. destruct J as [J|J].
  - cbn in J. subst m. exact (H1 I).
  - exact (HF m (or_intror I) J).
Qed.

Lemma check_dbl_ok lg : forall ns fs s x, length ns = length fs -> check_doubles lg ns fs s = Ok x -> x = added fs s.
Proof.
  induction ns as [|n ns IH]; intros [|f fs] s x L H; try discriminate L; cbn [check_doubles] in H; [injection H as <-; reflexivity|].
  injection L as L. destruct (SFltb f (S754_zero false)); [destruct (atom_name n); discriminate H|].
  destruct (if SFeqb f (S754_zero false) then _ else _) as [w|]; [|discriminate H]. cbn [bind] in H. exact (IH _ _ _ L H).
Qed.

Lemma zero_finite : finite_dbl (S754_zero false).
Proof. split; reflexivity. Qed.

Lemma check_dbl_accepts lg : forall ns fs s, length ns = length fs -> Forall amount fs -> (lg = true -> Forall (fun n => ~ nameless n) ns) -> check_doubles lg ns fs s = Ok (added fs s).
Proof.
  induction ns as [|n ns IH]; intros [|f fs] s L HF HN; try discriminate L; cbn [check_doubles]; [reflexivity|]. injection L as L.
  pose proof (Forall_inv HF) as [Ff Pf]. assert (E : SFltb f (S754_zero false) = false).
  { destruct (SFltb f (S754_zero false)) eqn:T; [|reflexivity]. apply (ltb_finite f _ Ff zero_finite) in T. change (val (S754_zero false)) with 0 in T. lra. }
  rewrite E. assert (W : exists w, (if SFeqb f (S754_zero false) then if lg then atom_name n else Ok [] else Ok []) = Ok w).
  { destruct (SFeqb f (S754_zero false)); [|eexists; reflexivity]. destruct lg; [|eexists; reflexivity]. apply atom_name_ok. exact (Forall_inv (HN eq_refl)). }
  destruct W as [w ->]. cbn [bind]. change (added (f :: fs) s) with (added fs (SFadd 53 1024 s f)). apply IH; [exact L|exact (Forall_inv_tail HF)|]. intros G. exact (Forall_inv_tail (HN G)).
Qed.

Lemma leb_zero s : finite_dbl s -> 0 < val s -> SFleb s (S754_zero false) = false.
Proof.
  intros F P. destruct (finite_float _ F) as (f & <- & Ff & Vf). pose proof (IEEE754.BinarySingleNaN.Bleb_correct 53 1024 f (IEEE754.BinarySingleNaN.B754_zero false) Ff eq_refl) as C.
  unfold IEEE754.BinarySingleNaN.Bleb in C. cbn [IEEE754.BinarySingleNaN.B2SF] in C. rewrite C, Vf. apply Rle_bool_false. exact P.
Qed.

(** What the constructor needs. *)
Definition good (ns : list Z) (fs : list spec_float) : Prop :=
  length ns = length fs /\ Forall amount fs /\ 0 < exact_sum fs <= bpow radix2 1022 /\ (Z.of_nat (length fs) <= 2 ^ 51)%Z.

Lemma good_count (fs : list spec_float) : (Z.of_nat (length fs) <= 2 ^ 51)%Z -> INR (0 + length fs) * u <= / 4.
Proof.
  intros H. cbn [Nat.add]. rewrite INR_IZR_INZ. apply IZR_le in H. unfold u. change (bpow radix2 (-53)) with (/ IZR (2 ^ 53)). lra.
Qed.

Lemma good_sum ns fs : good ns fs -> let s := added fs (S754_zero false) in amount s /\ 0 < val s /\
  (1 - INR (length fs) * u) * exact_sum fs <= val s /\ val s * (1 - INR (length fs) * u) <= exact_sum fs /\ Forall (fun x => val x <= val s) fs.
Proof.
  intros (L & A & [S1 S2] & N) s. pose proof (good_count _ N) as NU. pose proof u_bounds as U.
  destruct (sum_error fs (S754_zero false) 0 0%nat) as (H1 & H2 & H3 & _ & H5).
  - split; [apply zero_finite|]. change (val (S754_zero false)) with 0. lra.
  - change (val (S754_zero false)) with 0. cbn. lra.
  - change (val (S754_zero false)) with 0. cbn. lra.
  - lra.
  - exact A.
  - rewrite Rplus_0_l. exact S2.
  - exact NU.
  - fold s in H1, H2, H3, H5. rewrite Rplus_0_l in *. cbn [Nat.add] in *. destruct (power_low (length fs)) as [K1 K2]. split; [exact H1|].
    assert (0 <= val s) by apply H1. split; [|split; [nra|split; [nra|exact H5]]]. assert (3 / 4 * exact_sum fs <= val s) by nra. lra.
Qed.

Theorem C93_accepts lg ns fs : good ns fs -> NoDup ns -> (lg = true -> Forall (fun n => ~ nameless n) ns) -> exists t, make_target_dbl lg ns fs = Ok t.
Proof.
  intros G D HN. destruct (good_sum _ _ G) as (A & P & _). destruct G as (L & HF & [S1 _] & _). unfold make_target_dbl. rewrite L, Nat.eqb_refl. cbn [negb].
  destruct fs as [|f fs']; [unfold exact_sum in S1; cbn in S1; lra|]. cbn [length Nat.eqb]. rewrite (check_dbl_accepts _ _ _ _ L HF HN). cbn [bind].
  rewrite (leb_zero _ (proj1 A) P). apply fill_dbl_accepts; [|intros k _ []]. rewrite map_fst_combine; [exact D|]. rewrite map_length. exact L.
Qed.
Print Assumptions C93_accepts.

Lemma make_dbl_inv lg ns fs t : make_target_dbl lg ns fs = Ok t ->
  length ns = length fs /\ NoDup ns /\ Permutation t (combine ns (map (fun f => SFdiv 53 1024 f (added fs (S754_zero false))) fs)) /\ StronglySorted lt_key t.
Proof.
  unfold make_target_dbl. destruct (Nat.eqb_spec (length ns) (length fs)) as [L|]; cbn [negb]; [|discriminate].
  destruct (Nat.eqb (length ns) 0); [discriminate|]. destruct (check_doubles lg ns fs (S754_zero false)) as [x|] eqn:E; [|discriminate]. cbn [bind].
  rewrite (check_dbl_ok _ _ _ _ _ L E). destruct (SFleb _ _); [discriminate|]. intros H.
  set (g := fun f => SFdiv 53 1024 f (added fs (S754_zero false))) in *.
  assert (L' : length ns = length (map g fs)) by (rewrite map_length; exact L).
  destruct (fill_dbl_ok _ _ _ H ltac:(constructor)) as (P & S & D & _). rewrite (map_fst_combine _ _ L') in D. rewrite app_nil_r in P.
  split; [exact L|]. split; [exact D|]. split; [|exact S]. rewrite P. symmetry. apply Permutation_rev.
Qed.

(** One fraction: the quotient and its error. *)
Lemma fraction_error ns fs x : good ns fs -> In x fs -> let f := SFdiv 53 1024 x (added fs (S754_zero false)) in
  finite_dbl f /\ val f = rnd (val x / val (added fs (S754_zero false))) /\ 0 <= val f <= 1 /\
  Rabs (val f - val x / exact_sum fs) <= 3 * INR (length fs) * u * (val x / exact_sum fs) + bpow radix2 (-1075).
Proof.
  intros G I f. destruct (good_sum _ _ G) as ((Fs & _) & P & B1 & B2 & M). destruct G as (_ & HF & [S1 _] & N). pose proof (good_count _ N) as NU. cbn [Nat.add] in NU. pose proof u_bounds as U.
  rewrite Forall_forall in HF, M. destruct (HF x I) as [Fx Px]. specialize (M x I). set (s := added fs (S754_zero false)) in *.
  assert (Q : 0 <= val x / val s <= 1).
  { split; [apply Rmult_le_pos; [exact Px|left; apply Rinv_0_lt_compat; exact P]|]. apply (Rmult_le_reg_r (val s)); [exact P|]. unfold Rdiv. rewrite Rmult_assoc, Rinv_l by lra. lra. }
  assert (HH : 1 <= huge) by (change 1 with (bpow radix2 0); apply bpow_le; lia).
  destruct (div_finite x s Fx Fs) as [Ff Vf]; [lra|rewrite Rabs_pos_eq by lra; lra|]. fold f in Ff, Vf.
  assert (R01 : 0 <= rnd (val x / val s) <= 1).
  { split.
    - rewrite <- (rnd_id 0) at 1 by apply generic_format_0. apply rnd_le. lra.
    - rewrite <- (rnd_id 1); [apply rnd_le; lra|]. change 1 with (bpow radix2 0). apply generic_format_bpow. vm_compute. discriminate. }
  split; [exact Ff|]. split; [exact Vf|]. split; [rewrite Vf; exact R01|].
  assert (N1 : 1 <= INR (length fs)). { destruct fs as [|z fs]; [destruct I|]. cbn [length]. rewrite S_INR. pose proof (pos_INR (length fs)). lra. }
  destruct (error_N_FLT radix2 (-1074) 53 eq_refl (fun n => negb (Z.even n)) (val x / val s)) as (eps & eta & E1 & E2 & _ & E3).
  change (round radix2 (FLT_exp (-1074) 53) (Znearest (fun n => negb (Z.even n))) (val x / val s)) with (rnd (val x / val s)) in E3.
  rewrite Vf, E3. set (a := INR (length fs) * u) in *. assert (UA : u <= a) by (unfold a; nra).
  replace (3 * INR (length fs) * u) with (3 * a) by (unfold a; ring).
  assert (EPS : Rabs eps <= u) by (apply (Rle_trans _ _ _ E1); unfold u; change (bpow radix2 (- (53) + 1)) with (/ IZR (2 ^ 52)); change (bpow radix2 (-53)) with (/ IZR (2 ^ 53)); lra).
  assert (ETA : Rabs eta <= bpow radix2 (-1075)).
  { apply (Rle_trans _ _ _ E2). change (-1075)%Z with (-1074 + -1)%Z. rewrite bpow_plus. change (bpow radix2 (-1)) with (/ 2). lra. }
  set (S := exact_sum fs) in *. set (q := S / val s). assert (E : val x / val s = val x / S * q) by (unfold q; field; split; lra). rewrite E.
  set (p := val x / S). assert (P0 : 0 <= p) by (apply Rmult_le_pos; [exact Px|left; apply Rinv_0_lt_compat; exact S1]).
  assert (QB : 1 - a <= q /\ q * (1 - a) <= 1).
  { unfold q, Rdiv. split; apply (Rmult_le_reg_r (val s)); try exact P.
    - rewrite Rmult_assoc, Rinv_l by lra. lra.
    - replace (S * / val s * (1 - a) * val s) with (S * (1 - a)) by (field; lra). lra. }
  clearbody q p a. clear - EPS ETA P0 QB UA NU U. apply Rabs_le_inv in EPS. apply Rabs_le_inv in ETA.
  assert (a0 : 0 < a) by lra. assert (Q2 : q <= 1 + 4 / 3 * a) by nra.
  assert (Z : 1 - 3 * a <= q * (1 + eps) <= 1 + 3 * a) by (split; nra).
  replace (p * q * (1 + eps) + eta - p) with (p * (q * (1 + eps) - 1) + eta) by ring. apply Rabs_le. split; nra.
Qed.

Lemma nth_combine {A B} (ns : list A) : forall (fs : list B) j n f, nth_error ns j = Some n -> nth_error fs j = Some f -> In (n, f) (combine ns fs).
Proof.
  induction ns as [|a ns IH]; intros [|c fs] [|j] n f En Ef; try discriminate; cbn [combine nth_error] in *; [left; congruence|right; apply (IH _ j); assumption].
Qed.

(** Every atom's fraction is the given one over the exact sum, up to a relative error of
    3 n / 2^53 for n atoms and the smallest double; it lies between zero and one, and the
    fractions sum to one up to n / 2^51. *)
Theorem C93_fractions lg ns fs t : good ns fs -> make_target_dbl lg ns fs = Ok t ->
  (forall j n x, nth_error ns j = Some n -> nth_error fs j = Some x -> exists f, atom_fraction_dbl t n = f /\ finite_dbl f /\ 0 <= val f <= 1 /\
     Rabs (val f - val x / sumR (map val fs)) <= 3 * INR (length fs) / 2 ^ 53 * (val x / sumR (map val fs)) + bpow radix2 (-1075)) /\
  Permutation (map fst t) ns /\ StronglySorted Z.lt (map fst t) /\ Rabs (sumR (map val (map snd t)) - 1) <= INR (length fs) / 2 ^ 51.
Proof.
  intros G H. destruct (make_dbl_inv _ _ _ _ H) as (L & D & P & SS). set (s := added fs (S754_zero false)) in *. set (g := fun f => SFdiv 53 1024 f s) in *.
  assert (L' : length ns = length (map g fs)) by (rewrite map_length; exact L).
  assert (PK : Permutation (map fst t) ns) by (rewrite <- (map_fst_combine ns _ L'); apply Permutation_map; exact P).
  assert (PV : Permutation (map snd t) (map g fs)) by (rewrite <- (map_snd_combine ns _ L'); apply Permutation_map; exact P).
  assert (UE : u = / 2 ^ 53) by (unfold u; change (bpow radix2 (-53)) with (/ IZR (2 ^ 53)); lra).
  split; [|split; [exact PK|split]].
  - intros j n x En Ex. exists (g x). split.
    + unfold atom_fraction_dbl. rewrite (assoc_in n (g x) t (sorted_nodup _ SS)); [reflexivity|]. apply (Permutation_in _ (Permutation_sym P)).
      apply (nth_combine _ _ j); [exact En|]. apply map_nth_error. exact Ex.
    + destruct (fraction_error ns fs x G (nth_error_In _ _ Ex)) as (F1 & _ & F2 & F3). split; [exact F1|]. split; [exact F2|].
      fold s in F3. fold (g x) in F3. unfold exact_sum in F3. rewrite UE in F3. exact F3.
  - clear - SS. induction SS as [|a l _ IH H]; cbn [map]; constructor; [exact IH|]. apply Forall_map. exact H.
  - rewrite (sumR_perm _ _ (Permutation_map val PV)), map_map.
    assert (T : forall l, incl l fs -> Rabs (sumR (map (fun x => val (g x)) l) - exact_sum l / exact_sum fs)
      <= 3 * INR (length fs) * u * (exact_sum l / exact_sum fs) + INR (length l) * bpow radix2 (-1075)).
    { induction l as [|x l IH]; intros I.
      - unfold exact_sum at 1 3. cbn [map sumR length INR]. unfold Rdiv. rewrite !Rmult_0_l, Rminus_0_r, Rmult_0_r, Rabs_R0. lra.
      - destruct (fraction_error ns fs x G (I x (or_introl eq_refl))) as (_ & _ & _ & F). fold s in F. fold (g x) in F.
        specialize (IH (fun y Y => I y (or_intror Y))). unfold exact_sum at 1 3. cbn [map sumR length]. fold (exact_sum l). rewrite S_INR.
        apply Rabs_le_inv in F. apply Rabs_le_inv in IH. unfold Rdiv in *. apply Rabs_le. split; lra. }
    specialize (T fs (incl_refl fs)). destruct G as (_ & _ & [S1 _] & _). unfold Rdiv in T. rewrite Rinv_r in T by lra.
    rewrite Rmult_1_r in T. apply (Rle_trans _ _ _ T). pose proof (pos_INR (length fs)) as PI. rewrite UE.
    assert (TI : bpow radix2 (-1075) <= / 2 ^ 53) by (rewrite <- UE; unfold u; apply bpow_le; lia). nra.
Qed.
Print Assumptions C93_fractions.

(** Larger amounts do not get smaller fractions. *)
Theorem C93_order lg ns fs t i j m n x y : good ns fs -> make_target_dbl lg ns fs = Ok t ->
  nth_error ns i = Some m -> nth_error fs i = Some x -> nth_error ns j = Some n -> nth_error fs j = Some y -> val x <= val y ->
  val (atom_fraction_dbl t m) <= val (atom_fraction_dbl t n).
Proof.
  intros G H Em Ex En Ey XY. destruct (make_dbl_inv _ _ _ _ H) as (L & D & P & SS).
  assert (T : forall k z a, nth_error ns k = Some z -> nth_error fs k = Some a -> val (atom_fraction_dbl t z) = rnd (val a / val (added fs (S754_zero false)))).
  { intros k z a Ez Ea. destruct (fraction_error ns fs a G (nth_error_In _ _ Ea)) as (_ & V & _). rewrite <- V. unfold atom_fraction_dbl.
    rewrite (assoc_in z (SFdiv 53 1024 a (added fs (S754_zero false))) t (sorted_nodup _ SS)); [reflexivity|]. apply (Permutation_in _ (Permutation_sym P)).
    apply (nth_combine _ _ k); [exact Ez|]. apply (map_nth_error (fun f => SFdiv 53 1024 f (added fs (S754_zero false)))). exact Ea. }
  rewrite (T i m x Em Ex), (T j n y En Ey). apply rnd_le. destruct (good_sum _ _ G) as (_ & Ps & _).
  apply Rmult_le_compat_r; [left; apply Rinv_0_lt_compat; exact Ps|exact XY].
Qed.
Print Assumptions C93_order.

(** Nuclides which were not given have the fraction zero; the others are contained if their
    fraction is not zero. *)
Theorem C93_absent lg ns fs t n : make_target_dbl lg ns fs = Ok t -> ~ In n ns -> atom_fraction_dbl t n = S754_zero false /\ contains_dbl t n = false.
Proof.
  intros H N. destruct (make_dbl_inv _ _ _ _ H) as (L & _ & P & _).
  assert (A : assoc n t = None).
  { destruct (assoc n t) as [f|] eqn:E; [|reflexivity]. exfalso. apply N.
    assert (I2 : In (n, f) t).
    { clear - E. induction t as [|[k g] r IH]; cbn [assoc] in E; [discriminate|]. destruct (Z.eqb_spec n k) as [->|].
      - left. congruence.
      - right. apply IH. exact E. }
    apply (Permutation_in _ P) in I2. exact (in_combine_l _ _ _ _ I2). }
  unfold contains_dbl, atom_fraction_dbl. rewrite A. split; reflexivity.
Qed.
Print Assumptions C93_absent.

Theorem C93_contains lg ns fs t n : good ns fs -> make_target_dbl lg ns fs = Ok t -> In n ns -> (contains_dbl t n = true <-> 0 < val (atom_fraction_dbl t n)).
Proof.
  intros G H I2. destruct (In_nth_error _ _ I2) as [j Ej]. destruct (nth_error fs j) as [x|] eqn:Ex.
  2:{ exfalso. apply nth_error_None in Ex. destruct G as (L & _). assert (j < length ns)%nat by (apply nth_error_Some; rewrite Ej; discriminate). rewrite L in *. lia. }
  destruct (proj1 (C93_fractions _ _ _ _ G H) j n x Ej Ex) as (f & <- & F & [V _] & _). unfold contains_dbl.
  assert (E : exists g, atom_fraction_dbl t n = g) by (eexists; reflexivity). destruct E as [g E]. rewrite E in *. clear E.
  destruct g as [s|s| |s m e]; try (destruct F; discriminate).
  - cbn. split; [destruct s; discriminate|lra].
  - split; [intros _|intros _; destruct s; reflexivity]. destruct s; [exfalso|apply F2R_gt_0; reflexivity].
    assert (val (S754_finite true m e) < 0) by (apply F2R_lt_0; reflexivity). lra.
Qed.
Print Assumptions C93_contains.

(** A target of one nuclide has the fraction one exactly, whatever the amount. *)
Theorem C93_one lg n x : finite_dbl x -> 0 < val x -> exists f, make_target_dbl lg [n] [x] = Ok [(n, f)] /\ finite_dbl f /\ val f = 1.
Proof.
  intros F P. assert (Z0 : SFltb x (S754_zero false) = false).
  { destruct (SFltb x (S754_zero false)) eqn:T; [|reflexivity]. apply (ltb_finite x _ F zero_finite) in T. change (val (S754_zero false)) with 0 in T. lra. }
  assert (AD : SFadd 53 1024 (S754_zero false) x = x) by (destruct x; try reflexivity; cbn in P; lra).
  assert (ZE : SFeqb x (S754_zero false) = false).
  { destruct x as [s|s| |s m e]; try (destruct F; discriminate); [cbn in P; lra|]. destruct s; reflexivity. }
  unfold make_target_dbl. cbn [length Nat.eqb negb check_doubles]. rewrite Z0, ZE. cbn [bind]. rewrite AD, (leb_zero x F P).
  cbn [combine map fill_doubles assoc put]. eexists. split; [reflexivity|].
  destruct (div_finite x x F F) as [D V]; [lra| |]; unfold Rdiv in *; rewrite Rinv_r in * by lra.
  - rewrite Rabs_R1. change 1 with (bpow radix2 0). apply bpow_le. lia.
  - split; [exact D|]. rewrite V. apply rnd_id. change 1 with (bpow radix2 0). apply generic_format_bpow. vm_compute. discriminate.
Qed.
Print Assumptions C93_one.

(** Amounts that are not numbers are accepted and spoil all fractions; amounts whose sum
    overflows leave a target without atoms; a tiny amount beside a large one is lost. *)
Definition tiny : spec_float := S754_finite false 1 (-1074).
Definition large : spec_float := S754_finite false 4503599627370496 971.
Theorem C93_nan_refuted : ~ (forall ns fs t n, make_target_dbl true ns fs = Ok t -> In n ns -> finite_dbl (atom_fraction_dbl t n)).
Proof.
  intros H. specialize (H [1000180400; 1000010010]%Z [S754_nan; Dbl.dbl_of_int 1] _ 1000010010%Z eq_refl (or_intror (or_introl eq_refl))).
  vm_compute in H. destruct H as [H _]. discriminate H.
Qed.
Print Assumptions C93_nan_refuted.
Theorem C93_overflow_refuted : exists t, make_target_dbl true [1000180400; 1000010010]%Z [large; large] = Ok t /\
  contains_dbl t 1000180400 = false /\ contains_dbl t 1000010010 = false /\ Forall finite_dbl [large; large].
Proof. eexists. split; [vm_compute; reflexivity|]. split; [reflexivity|]. split; [reflexivity|]. repeat constructor. Qed.
Print Assumptions C93_overflow_refuted.
Theorem C93_contains_refuted : exists t, make_target_dbl true [1000180400; 1000010010]%Z [Dbl.dbl_of_int 4; tiny] = Ok t /\
  contains_dbl t 1000180400 = true /\ contains_dbl t 1000010010 = false /\ 0 < val tiny.
Proof.
  eexists. split; [vm_compute; reflexivity|]. split; [reflexivity|]. split; [reflexivity|].
  unfold val, tiny, IEEE754.BinarySingleNaN.SF2R, F2R. cbn [Fnum Fexp cond_Zopp]. rewrite Rmult_1_l. apply bpow_gt_0.
Qed.
Print Assumptions C93_contains_refuted.

Example C93_case : let ns := [1000080160; 1000010010]%Z in let fs := [Dbl.dbl_of_int 1; Dbl.dbl_of_int 2] in
  good ns fs /\ exists f g, make_target_dbl true ns fs = Ok [(1000010010%Z, g); (1000080160%Z, f)] /\ f = S754_finite false 6004799503160661 (-54) /\ g = S754_finite false 6004799503160661 (-53).
Proof.
  cbv zeta. split.
  - assert (E1 : Dbl.dbl_of_int 1 = S754_finite false 4503599627370496 (-52)) by (vm_compute; reflexivity).
    assert (E2 : Dbl.dbl_of_int 2 = S754_finite false 4503599627370496 (-51)) by (vm_compute; reflexivity).
    assert (V1 : val (Dbl.dbl_of_int 1) = 1) by (rewrite E1; unfold val, IEEE754.BinarySingleNaN.SF2R, F2R; cbn [Fnum Fexp cond_Zopp]; change (bpow radix2 (-52)) with (/ IZR (2 ^ 52)); lra).
    assert (V2 : val (Dbl.dbl_of_int 2) = 2) by (rewrite E2; unfold val, IEEE754.BinarySingleNaN.SF2R, F2R; cbn [Fnum Fexp cond_Zopp]; change (bpow radix2 (-51)) with (/ IZR (2 ^ 51)); lra).
    split; [reflexivity|]. split; [constructor; [|constructor; [|constructor]]; (split; [split; vm_compute; reflexivity|lra])|]. split.
    + unfold exact_sum. cbn [map sumR]. rewrite V1, V2. split; [lra|]. apply (Rle_trans _ (bpow radix2 2)); [change (bpow radix2 2) with 4; lra|apply bpow_le; lia].
    + vm_compute. discriminate.
  - do 2 eexists. split; [vm_compute; reflexivity|]. split; vm_compute; reflexivity.
Qed.
