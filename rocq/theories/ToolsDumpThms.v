(** Theorems on mardumpxs, the program that tabulates a total cross section (C84). *)
From Coq Require Import List Ascii String ZArith Lia Bool Reals Lra.
From Coq Require Import Floats.SpecFloat.
From Flocq Require Import Core Relative.
From Verif Require Import Base Dbl EventSpec DblArith Json JsonSpec JsonProofs Pdg Event Output Main MarSum Report Tools.
From Verif Require StatusThms JsonRtProofs.
Import ListNotations.
Local Open Scope Z_scope.

(** ** Specification *)

(** The value of a setting: the default [d] without the key, otherwise what it is set to. *)
Definition setting {A} (conv : json -> A -> Prop) (j : json) (k : bytes) (d x : A) : Prop :=
  match j with
  | JObj l => match obj_get k l with Some v => conv v x | None => x = d end
  | _ => x = d
  end.
Definition number (v : json) (x : spec_float) : Prop := v = JFlt x \/ exists z, v = JInt z /\ x = dbl_of_int z.
(** An integer is reduced to the range of int. *)
Definition int_value (v : json) (z : Z) : Prop :=
  - 2 ^ 31 <= z < 2 ^ 31 /\ exists y, v = JInt y /\ exists k, y = z + k * 2 ^ 32.

Definition asked (j : json) (lo hi : spec_float) (steps pdg : Z) : Prop :=
  setting number j (b "xsec_dump_KEmin") (dbl_of_int 0) lo /\ setting number j (b "xsec_dump_KEmax") (dbl_of_int 100) hi /\
  setting int_value j (b "xsec_dump_steps") 10000 steps /\ setting int_value j (b "xsec_dump_pdg") 12 pdg.

(** The line for one energy. *)
Definition line (xs : spec_float -> spec_float) (E : spec_float) : bytes :=
  show_g6 E ++ b " " ++ show_g6 (SFmul 53 1024 (xs E) dump_unit) ++ [nl].

(** The energies of a table of [n] lines from [a] to [c], none of which exceeds [M]: the
    line number i, counted from one, is for a + i (c - a) / n, up to i roundings. *)
Definition spaced (a c M : R) (n : Z) (Es : list spec_float) : Prop :=
  List.length Es = Z.to_nat n /\
  forall i E, nth_error Es i = Some E -> finite_dbl E /\
    (Rabs (val E - (a + IZR (Z.of_nat i + 1) * ((c - a) / IZR n))) <= IZR (Z.of_nat i + 1) * (M / 2 ^ 49))%R.

Definition rising (Es : list spec_float) : Prop :=
  forall i j E F, (i <= j)%nat -> nth_error Es i = Some E -> nth_error Es j = Some F -> (val E <= val F)%R.

(** ** Rounding *)

Local Open Scope R_scope.

Lemma rnd_err x : Rabs (rnd x - x) <= / 2 ^ 53 * Rabs x + bpow radix2 (-1075).
Proof.
  destruct (error_N_FLT radix2 (-1074) 53 eq_refl (fun n => negb (Z.even n)) x) as (eps & eta & H1 & H2 & _ & H).
  change (rnd x) with (round radix2 (FLT_exp (-1074) 53) ZnearestE x). rewrite H.
  replace (x * (1 + eps) + eta - x) with (eps * x + eta) by ring.
  apply Rle_trans with (1 := Rabs_triang _ _). rewrite Rabs_mult.
  assert (D1 : Rabs eps <= / 2 * / IZR 4503599627370496) by exact H1.
  assert (D2 : Rabs eta <= bpow radix2 (-1075)).
  { replace (bpow radix2 (-1075)) with (/ 2 * bpow radix2 (-1074)); [exact H2|]. change (-1075)%Z with (-1 + -1074)%Z. rewrite bpow_plus. reflexivity. }
  pose proof (Rabs_pos x). apply Rplus_le_compat; [apply Rmult_le_compat_r; lra|exact D2].
Qed.

Lemma tiny_le : bpow radix2 (-1075) <= / 2 ^ 60.
Proof. apply Rle_trans with (bpow radix2 (-60)); [apply bpow_le; lia|]. change (bpow radix2 (-60)) with (/ IZR 1152921504606846976). lra. Qed.

Lemma rnd_err_M x K M : 1 <= M -> Rabs x <= K * M -> 0 <= K -> Rabs (rnd x - x) <= (K + / 2 ^ 7) * (M / 2 ^ 53).
Proof.
  intros HM HX HK. pose proof (rnd_err x) as H. pose proof tiny_le as T. assert (/ 2 ^ 60 <= / 2 ^ 7 * (M / 2 ^ 53)) by lra.
  replace ((K + / 2 ^ 7) * (M / 2 ^ 53)) with (/ 2 ^ 53 * (K * M) + / 2 ^ 7 * (M / 2 ^ 53)) by field. nra.
Qed.

Lemma big_ok x M : 1 <= M <= bpow radix2 1000 -> Rabs x <= 8 * M -> Rabs x <= huge.
Proof.
  intros [_ HM] HX. apply Rle_trans with (1 := HX). apply Rle_trans with (bpow radix2 (3 + 1000)); [|apply bpow_le; lia].
  rewrite bpow_plus. change (bpow radix2 3) with 8. lra.
Qed.

Lemma delta_ok lo hi n M : finite_dbl lo -> finite_dbl hi -> 1 <= M <= bpow radix2 1000 -> Rabs (val lo) <= M -> Rabs (val hi) <= M ->
  (0 < n < 2 ^ 31)%Z ->
  finite_dbl (SFdiv 53 1024 (SFsub 53 1024 hi lo) (dbl_of_int n)) /\
  Rabs (val (SFdiv 53 1024 (SFsub 53 1024 hi lo) (dbl_of_int n)) - (val hi - val lo) / IZR n) <= 6 * (M / 2 ^ 53) /\
  (val lo <= val hi -> 0 <= val (SFdiv 53 1024 (SFsub 53 1024 hi lo) (dbl_of_int n))).
Proof.
  intros Fl Fh HM Bl Bh Hn. set (d := val hi - val lo).
  assert (Bd : Rabs d <= 2 * M) by (unfold d; apply Rle_trans with (Rabs (val hi) + Rabs (- val lo)); [apply Rabs_triang|rewrite Rabs_Ropp; lra]).
  destruct (sub_finite hi lo Fh Fl) as [Fd Vd]; [apply (big_ok _ M HM); fold d; lra|]. fold d in Vd.
  set (D := SFsub 53 1024 hi lo) in *.
  assert (E1 : Rabs (val D - d) <= 3 * (M / 2 ^ 53)).
  { rewrite Vd. apply Rle_trans with (1 := rnd_err_M d 2 M ltac:(lra) Bd ltac:(lra)). apply Rmult_le_compat_r; [apply Rmult_le_pos; lra|lra]. }
  destruct (StatusThms.Rdbl_of_int n ltac:(lia)) as [Fn Vn].
  assert (N1 : 1 <= IZR n) by (apply IZR_le; lia).
  assert (I1 : 0 < / IZR n <= 1) by (split; [apply Rinv_0_lt_compat; lra|]; rewrite <- Rinv_1; apply Rinv_le_contravar; lra).
  assert (BD : Rabs (val D) <= (2 + / 2 ^ 20) * M).
  { replace (val D) with (d + (val D - d)) by ring. apply Rle_trans with (1 := Rabs_triang _ _). lra. }
  assert (DV : forall x, Rabs (x / IZR n) <= Rabs x).
  { intros x. unfold Rdiv. rewrite Rabs_mult, (Rabs_pos_eq (/ IZR n)) by lra. pose proof (Rabs_pos x). nra. }
  destruct (div_finite D (dbl_of_int n) Fd Fn) as [FD VD]; [rewrite Vn; lra|rewrite Vn; apply (big_ok _ M HM); pose proof (DV (val D)); lra|].
  rewrite Vn in VD. split; [exact FD|]. split.
  - rewrite VD. replace (rnd (val D / IZR n) - d / IZR n) with ((rnd (val D / IZR n) - val D / IZR n) + (val D - d) / IZR n) by (field; lra).
    apply Rle_trans with (1 := Rabs_triang _ _).
    assert (P1 : Rabs (rnd (val D / IZR n) - val D / IZR n) <= ((2 + / 2 ^ 20) + / 2 ^ 7) * (M / 2 ^ 53)).
    { apply rnd_err_M; [lra| |lra]. pose proof (DV (val D)). lra. }
    pose proof (DV (val D - d)). lra.
  - intros L. rewrite VD. replace 0 with (rnd 0) by (apply round_0; typeclasses eauto). apply rnd_le.
    assert (0 <= val D). { rewrite Vd. replace 0 with (rnd 0) by (apply round_0; typeclasses eauto). apply rnd_le. unfold d. lra. }
    apply Rmult_le_pos; lra.
Qed.

(** ** The energies *)

Fixpoint energies (delta : spec_float) (n : nat) (KE : spec_float) : list spec_float :=
  match n with
  | O => []
  | S n => let KE := SFadd 53 1024 KE delta in KE :: energies delta n KE
  end.

Lemma energies_length delta n : forall KE, List.length (energies delta n KE) = n.
Proof. induction n as [|n IH]; intros KE; cbn [energies List.length]; [reflexivity|]. rewrite IH. reflexivity. Qed.

Lemma dump_lines xs delta n : forall KE, dump_loop xs delta n KE = List.concat (map (line xs) (energies delta n KE)).
Proof.
  induction n as [|n IH]; intros KE; [reflexivity|]. cbn [dump_loop energies map List.concat]. rewrite IH. unfold line. rewrite <- !app_assoc. reflexivity.
Qed.

Lemma nth_energies delta n : forall KE i E, nth_error (energies delta n KE) i = Some E ->
  (i < n)%nat /\ E = SFadd 53 1024 (match i with O => KE | S i' => nth i' (energies delta n KE) KE end) delta.
Proof.
  induction n as [|n IH]; intros KE i E H; [destruct i; discriminate H|]. cbn [energies] in H |- *. destruct i as [|i]; cbn [nth_error] in H.
  - injection H as <-. split; [lia|reflexivity].
  - destruct (IH _ _ _ H) as [L ->]. split; [lia|]. destruct i as [|i]; [reflexivity|]. cbn [nth]. f_equal. apply nth_indep. rewrite energies_length. lia.
Qed.

Lemma spaced_energies lo hi n M : finite_dbl lo -> finite_dbl hi -> 1 <= M <= bpow radix2 1000 -> Rabs (val lo) <= M -> Rabs (val hi) <= M ->
  (0 < n < 2 ^ 31)%Z ->
  spaced (val lo) (val hi) M n (energies (SFdiv 53 1024 (SFsub 53 1024 hi lo) (dbl_of_int n)) (Z.to_nat n) lo).
Proof.
  intros Fl Fh HM Bl Bh Hn. destruct (delta_ok lo hi n M Fl Fh HM Bl Bh Hn) as (FD & ED & _). set (delta := SFdiv _ _ _ _) in *.
  set (s := (val hi - val lo) / IZR n) in *. split; [apply energies_length|].
  assert (N1 : 1 <= IZR n) by (apply IZR_le; lia).
  assert (PT : forall k, (0 <= k <= n)%Z -> Rabs (val lo + IZR k * s) <= M).
  { intros k [K1 K2]. apply IZR_le in K1, K2. set (t := IZR k / IZR n).
    assert (T : 0 <= t <= 1).
    { unfold t. split; [apply Rmult_le_pos; [lra|left; apply Rinv_0_lt_compat; lra]|]. apply Rmult_le_reg_r with (IZR n); [lra|]. unfold Rdiv. rewrite Rmult_assoc, Rinv_l by lra. lra. }
    replace (val lo + IZR k * s) with ((1 - t) * val lo + t * val hi) by (unfold s, t; field; lra).
    apply Rle_trans with (1 := Rabs_triang _ _). rewrite !Rabs_mult, (Rabs_pos_eq (1 - t)), (Rabs_pos_eq t) by lra. nra. }
  induction i as [|i IH]; intros E HE; destruct (nth_energies _ _ _ _ _ HE) as [Li ->]; fold s.
  - pose proof (PT 1%Z ltac:(lia)) as P. change (Z.of_nat 0 + 1)%Z with 1%Z. rewrite !Rmult_1_l in *.
    assert (B : Rabs (val lo + val delta) <= (1 + / 2 ^ 20) * M).
    { replace (val lo + val delta) with ((val lo + s) + (val delta - s)) by ring. apply Rle_trans with (1 := Rabs_triang _ _). lra. }
    destruct (add_finite lo delta Fl FD) as [F V]; [apply (big_ok _ M HM); lra|]. split; [exact F|]. rewrite V.
    replace (rnd (val lo + val delta) - (val lo + s)) with ((rnd (val lo + val delta) - (val lo + val delta)) + (val delta - s)) by ring.
    apply Rle_trans with (1 := Rabs_triang _ _). pose proof (rnd_err_M _ (1 + / 2 ^ 20) M ltac:(lra) B ltac:(lra)). lra.
  - set (prev := nth i _ lo) in *. destruct (nth_error (energies delta (Z.to_nat n) lo) i) as [P|] eqn:EP.
    2:{ exfalso. apply nth_error_None in EP. rewrite energies_length in EP. lia. }
    assert (prev = P) by (unfold prev; apply nth_error_nth; exact EP). subst prev. rewrite H in *. clear H.
    destruct (IH P eq_refl) as [FP EPv]. fold s in EPv.
    assert (HI : IZR (Z.of_nat (S i) + 1) = IZR (Z.of_nat i + 1) + 1) by (rewrite <- plus_IZR; f_equal; lia).
    rewrite HI. set (k := IZR (Z.of_nat i + 1)) in *.
    assert (K : 1 <= k <= 2147483648) by (unfold k; split; apply IZR_le; lia).
    pose proof (PT (Z.of_nat (S i) + 1)%Z ltac:(lia)) as PP. rewrite HI in PP. fold k in PP.
    assert (S1 : k * (M / 2 ^ 49) <= M / 2 ^ 18).
    { apply Rle_trans with (2147483648 * (M / 2 ^ 49)); [apply Rmult_le_compat_r; [apply Rmult_le_pos; lra|lra]|lra]. }
    assert (B : Rabs (val P + val delta) <= (1 + / 2 ^ 17) * M).
    { replace (val P + val delta) with ((val lo + (k + 1) * s) + ((val P - (val lo + k * s)) + (val delta - s))) by ring.
      apply Rle_trans with (1 := Rabs_triang _ _). pose proof (Rabs_triang (val P - (val lo + k * s)) (val delta - s)). lra. }
    destruct (add_finite P delta FP FD) as [F V]; [apply (big_ok _ M HM); lra|]. split; [exact F|]. rewrite V.
    replace (rnd (val P + val delta) - (val lo + (k + 1) * s)) with
      ((rnd (val P + val delta) - (val P + val delta)) + ((val P - (val lo + k * s)) + (val delta - s))) by ring.
    apply Rle_trans with (1 := Rabs_triang _ _). pose proof (Rabs_triang (val P - (val lo + k * s)) (val delta - s)).
    pose proof (rnd_err_M _ (1 + / 2 ^ 17) M ltac:(lra) B ltac:(lra)). lra.
Qed.

Lemma rising_energies lo hi n M : finite_dbl lo -> finite_dbl hi -> 1 <= M <= bpow radix2 1000 -> Rabs (val lo) <= M -> Rabs (val hi) <= M ->
  (0 < n < 2 ^ 31)%Z -> val lo <= val hi ->
  rising (energies (SFdiv 53 1024 (SFsub 53 1024 hi lo) (dbl_of_int n)) (Z.to_nat n) lo).
Proof.
  intros Fl Fh HM Bl Bh Hn L. destruct (delta_ok lo hi n M Fl Fh HM Bl Bh Hn) as (FD & _ & PD). specialize (PD L).
  destruct (spaced_energies lo hi n M Fl Fh HM Bl Bh Hn) as [_ SP]. set (delta := SFdiv _ _ _ _) in *. set (Es := energies delta (Z.to_nat n) lo) in *.
  intros i j E F H. induction H as [|j H IH] in F |- *; intros HE HF; [rewrite HE in HF; injection HF as <-; lra|].
  destruct (nth_error Es j) as [P|] eqn:EP.
  2:{ exfalso. apply nth_error_None in EP. assert (S j < List.length Es)%nat by (apply nth_error_Some; congruence). lia. }
  apply Rle_trans with (val P); [apply IH; [exact HE|reflexivity]|]. destruct (nth_energies _ _ _ _ _ HF) as [_ EF]. fold Es in EF.
  rewrite (nth_error_nth Es j lo EP) in EF. destruct (SP _ _ EP) as [FP _]. destruct (SP _ _ HF) as [FF _]. subst F.
  rewrite (add_finite_inv P delta FP FD FF). rewrite <- (rnd_id (val P)) at 1 by (apply val_format; exact FP). apply rnd_le. lra.
Qed.

(** ** Settings *)

Local Open Scope Z_scope.

Lemma wrap32_spec z : - 2 ^ 31 <= wrap32 z < 2 ^ 31 /\ exists k, z = wrap32 z + k * 2 ^ 32.
Proof.
  unfold wrap32. pose proof (Z.mod_pos_bound (z + 2 ^ 31) (2 ^ 32) ltac:(lia)). split; [lia|]. exists ((z + 2 ^ 31) / 2 ^ 32).
  pose proof (Z.div_mod (z + 2 ^ 31) (2 ^ 32) ltac:(lia)). lia.
Qed.
Lemma wrap32_unique z x : - 2 ^ 31 <= x < 2 ^ 31 -> (exists k, z = x + k * 2 ^ 32) -> wrap32 z = x.
Proof.
  intros H (k & ->). unfold wrap32. replace (x + k * 2 ^ 32 + 2 ^ 31) with (x + 2 ^ 31 + k * 2 ^ 32) by ring.
  rewrite Z.mod_add by lia. rewrite Z.mod_small by lia. ring.
Qed.

Lemma double_param_iff j k d x : double_param j k d = Ok x <-> setting number j k d x.
Proof.
  unfold double_param, setting, has_key, at_key. destruct j as [| | | | |l|l]; cbn [negb]; try (split; intros H; [injection H as <-; reflexivity|rewrite H; reflexivity]).
  destruct (obj_get k l) as [v|]; cbn [negb bind]; [|split; intros H; [injection H as <-; reflexivity|rewrite H; reflexivity]].
  unfold number. destruct v; cbn [to_double negb]; (split; [intros H; try discriminate H; injection H as <-|intros [H|(zz & H & Hx)]; try discriminate H]); eauto.
  - injection H as ->. rewrite Hx. reflexivity.
  - injection H as ->. reflexivity.
Qed.

Lemma int_param_iff j k d x : int_param j k d = Ok x <-> setting int_value j k d x.
Proof.
  unfold int_param, setting, has_key, at_key. destruct j as [| | | | |l|l]; cbn [negb]; try (split; intros H; [injection H as <-; reflexivity|rewrite H; reflexivity]).
  destruct (obj_get k l) as [v|]; cbn [negb bind]; [|split; intros H; [injection H as <-; reflexivity|rewrite H; reflexivity]].
  unfold int_value. destruct v; cbn [to_long negb]; (split; [intros H; try discriminate H|intros (R & y & H & Hy); try discriminate H]).
  - assert (Hx : x = wrap32 z) by congruence. rewrite Hx. split; [apply wrap32_spec|]. exists z. split; [reflexivity|]. apply wrap32_spec.
  - injection H as ->. f_equal. apply wrap32_unique; assumption.
Qed.

Lemma dump_params_iff j lo hi steps pdg : dump_params j = Ok (lo, hi, steps, pdg) <-> asked j lo hi steps pdg.
Proof.
  unfold asked. rewrite <- !double_param_iff, <- !int_param_iff. unfold dump_params. change (dbl_of_int 0) with dbl_zero. change ELECTRON_NEUTRINO with 12.
  destruct (double_param j _ dbl_zero) as [a|]; cbn [bind]; [|split; [discriminate|intros (H & _); discriminate H]].
  destruct (double_param j _ (dbl_of_int 100)) as [c|]; cbn [bind]; [|split; [discriminate|intros (_ & H & _); discriminate H]].
  destruct (int_param j _ 10000) as [n|]; cbn [bind]; [|split; [discriminate|intros (_ & _ & H & _); discriminate H]].
  destruct (int_param j _ 12) as [p|]; cbn [bind]; [|split; [discriminate|intros (_ & _ & _ & H); discriminate H]].
  split; [intros H; injection H as <- <- <- <-; repeat split|]. intros (H1 & H2 & H3 & H4). congruence.
Qed.

Lemma dump_params_err j e : dump_params j = Er e -> e = MarleyErr.
Proof.
  assert (D : forall k d e, double_param j k d = Er e -> e = MarleyErr).
  { intros k d e0. unfold double_param, has_key, at_key. destruct j as [| | | | |l|l]; cbn [negb]; try discriminate. destruct (obj_get k l) as [v|]; cbn [negb bind]; [|discriminate].
    destruct (to_double v) as [x []]; cbn [negb]; congruence. }
  assert (I0 : forall k d e, int_param j k d = Er e -> e = MarleyErr).
  { intros k d e0. unfold int_param, has_key, at_key. destruct j as [| | | | |l|l]; cbn [negb]; try discriminate. destruct (obj_get k l) as [v|]; cbn [negb bind]; [|discriminate].
    destruct (to_long v) as [x []]; cbn [negb]; congruence. }
  unfold dump_params. destruct (double_param j _ dbl_zero) eqn:E1; cbn [bind]; [|intros H; injection H as <-; eapply D; eassumption].
  destruct (double_param j _ (dbl_of_int 100)) eqn:E2; cbn [bind]; [|intros H; injection H as <-; eapply D; eassumption].
  destruct (int_param j _ 10000) eqn:E3; cbn [bind]; [|intros H; injection H as <-; eapply I0; eassumption].
  destruct (int_param j _ ELECTRON_NEUTRINO) eqn:E4; cbn [bind]; [discriminate|intros H; injection H as <-; eapply I0; eassumption].
Qed.

(** ** The program *)

Section dump.
Context {G : Type} (create : json -> res G) (total_xs : G -> Z -> spec_float -> spec_float).
Notation prog := (mardumpxs create total_xs).

(** The user lets the program write its output, and the file system does. *)
Definition may_dump (w : world) (out : bytes) : Prop :=
  w_ro w out = false /\ (w_fs w out = None \/ fst (prompt (w_in w)) = true).

(** A configuration file that MARLEY accepts, with the settings of the table. *)
Definition configured (w : world) (cfg : bytes) (g : G) (lo hi : spec_float) (steps pdg : Z) : Prop :=
  exists s j, w_fs w cfg = Some s /\ load s = Ok j /\ create j = Ok g /\ asked j lo hi steps pdg.

Lemma set_disk_same n d w : w_ro w n = false -> w_fs (set_disk n d w) n = d.
Proof. intros H. unfold set_disk. rewrite H. cbn [w_fs]. rewrite JsonRtProofs.bytes_eqb_refl. reflexivity. Qed.
Lemma set_disk_other n d w m : m <> n -> w_fs (set_disk n d w) m = w_fs w m.
Proof.
  intros H. unfold set_disk. destruct (w_ro w n); [reflexivity|]. cbn [w_fs]. destruct (bytes_eqb n m) eqn:E; [|reflexivity].
  apply JsonRtProofs.bytes_eqb_eq in E. congruence.
Qed.
Lemma set_disk_ro n d w m : w_ro (set_disk n d w) m = w_ro w m.
Proof. unfold set_disk. destruct (w_ro w n); reflexivity. Qed.

Lemma prog_run out cfg rest w : may_dump w out -> cfg <> out ->
  exists w1, (forall n, n <> out -> w_fs w1 n = w_fs w n) /\ w_ro w1 out = false /\ w_fs w1 out = Some [] /\
    prog (out :: cfg :: rest) w =
    match (do j <- match w_fs w cfg with Some s => load s | None => Er MarleyErr end; do g <- create j; do p <- dump_params j; Ok (g, p)) with
    | Er e => (w1, Er e)
    | Ok (g, (lo, hi, steps, pdg)) =>
        (set_disk out (Some (dump_loop (total_xs g pdg) (SFdiv 53 1024 (SFsub 53 1024 hi lo) (dbl_of_int steps)) (Z.to_nat steps) lo)) w1, Ok 0)
    end.
Proof.
  intros [HR HM] HC. unfold mardumpxs.
  assert (GO : fst (match w_fs w out with Some _ => prompt (w_in w) | None => (true, w_in w) end) = true).
  { destruct (w_fs w out); [|reflexivity]. destruct HM; [discriminate|assumption]. }
  destruct (match w_fs w out with Some _ => prompt (w_in w) | None => (true, w_in w) end) as [go r]. cbn [fst] in GO. subst go. cbv iota zeta.
  exists (set_disk out (Some []) (set_in r w)). rewrite (set_disk_other out (Some []) (set_in r w) cfg HC).
  split; [intros n Hn; rewrite set_disk_other by exact Hn; reflexivity|]. split; [rewrite set_disk_ro; exact HR|]. split; [apply set_disk_same; exact HR|].
  reflexivity.
Qed.

(** The table: one line for each step, giving an energy and the total cross section there;
    the energies go up evenly from above the lower bound to the upper one. *)
Theorem C84_table out cfg rest w g lo hi steps pdg M : may_dump w out -> cfg <> out -> configured w cfg g lo hi steps pdg ->
  finite_dbl lo -> finite_dbl hi -> (1 <= M <= bpow radix2 1000)%R -> (Rabs (val lo) <= M)%R -> (Rabs (val hi) <= M)%R -> 0 < steps ->
  exists w' Es, prog (out :: cfg :: rest) w = (w', Ok 0) /\ w_fs w' out = Some (List.concat (map (line (total_xs g pdg)) Es)) /\
    (forall n, n <> out -> w_fs w' n = w_fs w n) /\ spaced (val lo) (val hi) M steps Es /\ ((val lo <= val hi)%R -> rising Es).
Proof.
  intros HM HC (s & j & HS & HL & HG & HA) Fl Fh BM Bl Bh Hn. destruct (prog_run out cfg rest w HM HC) as (w1 & W1 & W2 & _ & E).
  rewrite HS, HL in E. cbn [bind] in E. rewrite HG in E. cbn [bind] in E. apply dump_params_iff in HA. rewrite HA in E. cbn [bind] in E.
  assert (HB : 0 < steps < 2 ^ 31).
  { split; [exact Hn|]. apply dump_params_iff in HA. destruct HA as (_ & _ & H & _). unfold setting in H. destruct j; try (rewrite H; lia).
    destruct (obj_get _ _); [|rewrite H; lia]. destruct H as [H _]. lia. }
  do 2 eexists. split; [exact E|]. rewrite set_disk_same by exact W2. split; [rewrite dump_lines; reflexivity|].
  split; [intros n Hn'; rewrite set_disk_other by exact Hn'; apply W1; exact Hn'|]. split; [apply spaced_energies; assumption|].
  intros L. apply (rising_energies lo hi steps M); assumption.
Qed.
Print Assumptions C84_table.

(** Without a positive number of steps the file is empty. *)
Theorem C84_no_steps out cfg rest w g lo hi steps pdg : may_dump w out -> cfg <> out -> configured w cfg g lo hi steps pdg -> steps <= 0 ->
  exists w', prog (out :: cfg :: rest) w = (w', Ok 0) /\ w_fs w' out = Some [] /\ forall n, n <> out -> w_fs w' n = w_fs w n.
Proof.
  intros HM HC (s & j & HS & HL & HG & HA) Hn. destruct (prog_run out cfg rest w HM HC) as (w1 & W1 & W2 & _ & E).
  rewrite HS, HL in E. cbn [bind] in E. rewrite HG in E. cbn [bind] in E. apply dump_params_iff in HA. rewrite HA in E. cbn [bind] in E.
  replace (Z.to_nat steps) with O in E by lia. eexists. split; [exact E|]. rewrite set_disk_same by exact W2. split; [reflexivity|].
  intros n Hn'. rewrite set_disk_other by exact Hn'. apply W1. exact Hn'.
Qed.
Print Assumptions C84_no_steps.

(** With fewer than two arguments, or if the user keeps the file, nothing is written. *)
Theorem C84_declined args w :
  (List.length args < 2)%nat \/ (exists out cfg rest, args = out :: cfg :: rest /\ w_fs w out <> None /\ fst (prompt (w_in w)) = false) ->
  exists w' s, prog args w = (w', Ok s) /\ (s = 1 <-> (List.length args < 2)%nat) /\ forall n, w_fs w' n = w_fs w n.
Proof.
  intros [H|(out & cfg & rest & -> & H1 & H2)].
  - destruct args as [|a [|c args]]; cbn [List.length] in H; try lia; do 2 eexists; (split; [reflexivity|]); cbn [List.length]; split; try (intros; reflexivity); lia.
  - unfold mardumpxs. destruct (w_fs w out); [|congruence]. destruct (prompt (w_in w)) as [go r]. cbn [fst] in H2. subst go. cbv iota zeta.
    do 2 eexists. split; [reflexivity|]. cbn [List.length]. split; [lia|reflexivity].
Qed.
Print Assumptions C84_declined.

(** The only other outcome: the configuration cannot be read, is refused, or has a setting of
    the table of the wrong type. *)
Theorem C84_refused out cfg rest w e : may_dump w out -> cfg <> out ->
  (exists w', prog (out :: cfg :: rest) w = (w', Er e)) <->
  ((w_fs w cfg = None /\ e = MarleyErr) \/ exists s, w_fs w cfg = Some s /\
    (load s = Er e \/ exists j, load s = Ok j /\
      (create j = Er e \/ exists g, create j = Ok g /\ e = MarleyErr /\ forall lo hi steps pdg, ~ asked j lo hi steps pdg))).
Proof.
  intros HM HC. destruct (prog_run out cfg rest w HM HC) as (w1 & W1 & W2 & _ & E). rewrite E. clear E.
  destruct (w_fs w cfg) as [s|]; cbn [bind].
  2:{ split; [intros (w' & H); injection H as _ <-; left; split; reflexivity|]. intros [[_ ->]|(s & H & _)]; [eexists; reflexivity|discriminate H]. }
  destruct (load s) as [j|e1] eqn:EL; cbn [bind].
  2:{ split; [intros (w' & H); injection H as _ <-; right; exists s; split; [reflexivity|left; exact EL]|].
      intros [[H _]|(s' & H & [K|(j & K & _)])]; [discriminate H| |]; injection H as <-; [|congruence]. rewrite EL in K. injection K as <-. eexists; reflexivity. }
  destruct (create j) as [g|e1] eqn:EC; cbn [bind].
  2:{ split; [intros (w' & H); injection H as _ <-; right; exists s; split; [reflexivity|right; exists j; split; [exact EL|left; exact EC]]|].
      intros [[H _]|(s' & H & [K|(j' & K & [L|(g & L & _)])])]; [discriminate H| | |]; injection H as <-; rewrite EL in K; try discriminate K; injection K as <-; [|congruence].
      rewrite EC in L. injection L as <-. eexists; reflexivity. }
  destruct (dump_params j) as [[[[lo hi] steps] pdg]|e1] eqn:EP; cbn [bind].
  - split; [intros (w' & H); discriminate H|]. intros [[H _]|(s' & H & [K|(j' & K & [L|(g' & L & _ & N)])])]; [discriminate H| | |]; injection H as <-; rewrite EL in K; try discriminate K; injection K as <-; [congruence|].
    exfalso. apply (N lo hi steps pdg). apply dump_params_iff. exact EP.
  - pose proof (dump_params_err _ _ EP) as ->. split.
    + intros (w' & H). injection H as _ <-. right. exists s. split; [reflexivity|]. right. exists j. split; [exact EL|]. right. exists g. split; [exact EC|]. split; [reflexivity|].
      intros lo hi steps pdg A. apply dump_params_iff in A. congruence.
    + intros [[H _]|(s' & H & [K|(j' & K & [L|(g' & L & -> & N)])])]; [discriminate H| | |]; injection H as <-; rewrite EL in K; try discriminate K; injection K as <-; [congruence|]. eexists; reflexivity.
Qed.
Print Assumptions C84_refused.

(** A configuration that is refused costs the user the previous table. *)
Theorem C84_lost_refuted out cfg rest w w' e : may_dump w out -> cfg <> out -> prog (out :: cfg :: rest) w = (w', Er e) -> w_fs w' out = Some [].
Proof.
  intros HM HC H. destruct (prog_run out cfg rest w HM HC) as (w1 & W1 & W2 & W3 & E). rewrite E in H.
  destruct (bind _ _) as [[g [[[lo hi] steps] pdg]]|e1]; [discriminate H|]. injection H as <- _. exact W3.
Qed.
Print Assumptions C84_lost_refuted.

(** Naming the configuration file as the output destroys it. *)
Theorem C84_own_config_refuted cfg rest w : may_dump w cfg ->
  exists w' e, prog (cfg :: cfg :: rest) w = (w', Er e) /\ w_fs w' cfg = Some [].
Proof.
  intros [HR HM]. unfold mardumpxs.
  assert (GO : fst (match w_fs w cfg with Some _ => prompt (w_in w) | None => (true, w_in w) end) = true).
  { destruct (w_fs w cfg); [|reflexivity]. destruct HM; [discriminate|assumption]. }
  destruct (match w_fs w cfg with Some _ => prompt (w_in w) | None => (true, w_in w) end) as [go r]. cbn [fst] in GO. subst go. cbv iota zeta.
  rewrite (set_disk_same cfg (Some []) (set_in r w) HR). replace (load []) with (@Er json MarleyErr) by (vm_compute; reflexivity). cbn [bind].
  do 2 eexists. split; [reflexivity|]. apply set_disk_same. exact HR.
Qed.
Print Assumptions C84_own_config_refuted.
End dump.

(** The unit: hbar c = 197.3269718 MeV fm, and 10^-42 cm^2 = 10^-16 fm^2. *)
Theorem C84_unit : finite_dbl dump_unit /\ (Rabs (val dump_unit - (1973269718 / 10000000) ^ 2 * 10 ^ 16) <= / 2 ^ 50 * ((1973269718 / 10000000) ^ 2 * 10 ^ 16))%R.
Proof.
  split; [split; vm_compute; reflexivity|].
  assert (E : exists m, dump_unit = S754_finite false m 16 /\ (Z.abs (Z.pos m * 2 ^ 16 - 1973269718 ^ 2 * 100) * 2 ^ 50 <=? 1973269718 ^ 2 * 100) = true).
  { eexists. split; [vm_compute; reflexivity|]. vm_compute. reflexivity. }
  destruct E as (m & -> & L). apply Z.leb_le, IZR_le in L. rewrite !mult_IZR, abs_IZR, minus_IZR, !mult_IZR in L.
  change (val (S754_finite false m 16)) with (IZR (Z.pos m) * IZR (2 ^ 16))%R.
  change (IZR (2 ^ 50)) with (IZR 1125899906842624) in L. change (IZR (1973269718 ^ 2)) with (IZR 3893793379975799524) in L.
  replace ((1973269718 / 10000000) ^ 2 * 10 ^ 16)%R with (3893793379975799524 * 100)%R by field.
  replace (/ 2 ^ 50)%R with (/ 1125899906842624)%R by (f_equal; ring). apply Rmult_le_reg_r with 1125899906842624%R; [lra|].
  replace (/ 1125899906842624 * (3893793379975799524 * 100) * 1125899906842624)%R with (3893793379975799524 * 100)%R by field. exact L.
Qed.
Print Assumptions C84_unit.

(** ** A case *)

(** A configuration asking for two steps up to 3 MeV; the cross section is one everywhere. *)
Definition dump_world : world :=
  mkw (fun n => if bytes_eqb n (b "c") then Some (b "{ xsec_dump_KEmax: 3, xsec_dump_steps: 2 }") else if bytes_eqb n (b "o") then Some (b "old") else None)
    (fun _ => false) (b "y" ++ [nl]).
Definition any_config (j : json) : res unit := Ok tt.
Definition one_xs (g : unit) (pdg : Z) (E : spec_float) : spec_float := dbl_of_int 1.

Example C84_case : may_dump dump_world (b "o") /\ configured any_config dump_world (b "c") tt (dbl_of_int 0) (dbl_of_int 3) 2 12 /\
  finite_dbl (dbl_of_int 0) /\ finite_dbl (dbl_of_int 3) /\ val (dbl_of_int 0) = 0%R /\ val (dbl_of_int 3) = 3%R /\
  w_fs (fst (mardumpxs any_config one_xs [b "o"; b "c"] dump_world)) (b "o") = Some (b "1.5 3.89379e+20" ++ [nl] ++ b "3 3.89379e+20" ++ [nl]).
Proof.
  split; [split; [reflexivity|right; vm_compute; reflexivity]|]. split.
  { do 2 eexists. split; [reflexivity|]. split; [vm_compute; reflexivity|]. split; [reflexivity|]. apply dump_params_iff. vm_compute. reflexivity. }
  split; [split; vm_compute; reflexivity|]. split; [split; vm_compute; reflexivity|].
  destruct (StatusThms.Rdbl_of_int 0 ltac:(lia)) as [_ ->]. destruct (StatusThms.Rdbl_of_int 3 ltac:(lia)) as [_ ->].
  split; [reflexivity|]. split; [reflexivity|]. vm_compute. reflexivity.
Qed.
Example C84_refused_case : exists w', mardumpxs any_config one_xs [b "o"; b "none"] dump_world = (w', Er MarleyErr) /\ b "none" <> b "o".
Proof. eexists. split; [vm_compute; reflexivity|discriminate]. Qed.
