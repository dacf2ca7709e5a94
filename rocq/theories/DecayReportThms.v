(** C92: the report on the decay of a compound nucleus. *)
From Coq Require Import List Ascii String ZArith Bool Lia Reals Lra Psatz.
From Coq Require Import Floats.SpecFloat.
From Flocq Require Import Core Relative.
From Flocq Require IEEE754.BinarySingleNaN.
From Verif Require Import Base Dbl Strings DigitsProofs DblProofs EventSpec DblArith Pdg Names PdgThms React Event Levels Report ReportThms ReportNumThms DecayReport.
Import ListNotations.
Local Open Scope Z_scope.

(** What the line on a channel says: what is emitted, where the nucleus is left, the width. *)
Definition emitted (f : option Z) (s : bytes) : Prop :=
  match f with None => s = b "gamma-ray" | Some z => In (z, s) particle_symbols end.
Definition channel_text (c : channel_view) (t : bytes) : Prop :=
  exists s, emitted (cv_fragment c) s /\
  ((exists e, cv_level c = Some e /\ t = b "  " ++ s ++ b " emission to level at " ++ show_g6 e ++ b " MeV width = " ++ show_g6 (cv_width c) ++ b " MeV" ++ [nl]) \/
   (cv_level c = None /\ t = b "  " ++ s ++ b " emission to the continuum width = " ++ show_g6 (cv_width c) ++ b " MeV" ++ [nl])).

(** Fragments without a symbol. *)
Definition nameless (c : channel_view) : Prop := exists z, cv_fragment c = Some z /\ forall s, ~ In (z, s) particle_symbols.

Lemma assoc_some {A} (k : Z) (l : list (Z * A)) v : In (k, v) l -> exists w, assoc k l = Some w.
Proof.
  induction l as [|[k' v'] l IH]; [intros []|]. intros [H|H]; cbn [assoc].
  - injection H as -> ->. rewrite Z.eqb_refl. exists v. reflexivity.
  - destruct (k =? k'); [exists v'; reflexivity|apply IH; exact H].
Qed.

Lemma nameless_lookup c : nameless c <-> assoc (emitted_pdg c) particle_symbols = None.
Proof.
  unfold nameless, emitted_pdg. split.
  - intros (z & -> & H). destruct (assoc z particle_symbols) as [w|] eqn:E; [|reflexivity]. exfalso. apply (H w). apply assoc_in. exact E.
  - intros H. destruct (cv_fragment c) as [z|]; [|vm_compute in H; discriminate H]. exists z. split; [reflexivity|].
    intros s G. destruct (assoc_some _ _ _ G) as [w W]. congruence.
Qed.

Lemma lines_spec cs : exists done ts, fst (channel_lines cs) = List.concat ts /\ Forall2 channel_text done ts /\ Forall (fun c => ~ nameless c) done /\
  ((snd (channel_lines cs) = Ok tt /\ cs = done) \/ (snd (channel_lines cs) = Er StdRange /\ exists c r, cs = done ++ c :: r /\ nameless c)).
Proof.
  induction cs as [|c cs IH]; cbn [channel_lines].
  - exists [], []. repeat split; try constructor. split; reflexivity.
  - destruct (assoc (emitted_pdg c) particle_symbols) as [s|] eqn:E.
    + destruct (channel_lines cs) as [rest o]. cbn [fst snd] in *. destruct IH as (done & ts & -> & F & N & O).
      exists (c :: done). eexists (_ :: ts). split; [reflexivity|].
      assert (NC : ~ nameless c) by (rewrite nameless_lookup; congruence).
      split; [|split; [constructor; assumption|]].
      * constructor; [|exact F].
        exists (match cv_fragment c with Some _ => s | None => b "gamma-ray" end). split.
        { unfold emitted, emitted_pdg in *. destruct (cv_fragment c) as [z|]; [apply assoc_in; exact E|reflexivity]. }
        destruct (cv_level c) as [e|]; [left; exists e; split; [reflexivity|]|right; split; [reflexivity|]]; rewrite <- ?app_assoc; reflexivity.
      * destruct O as [[-> ->]|(-> & c' & r & -> & H)]; [left; split; reflexivity|right; split; [reflexivity|]]. exists c', r. split; [reflexivity|exact H].
    + exists [], []. cbn [fst snd]. split; [reflexivity|]. split; [constructor|]. split; [constructor|]. right. split; [reflexivity|].
      exists c, cs. split; [reflexivity|]. apply nameless_lookup. exact E.
Qed.

(** The report gives the nucleus, its energy, spin, parity, width and lifetime, and then one
    line for each channel, in order. It is cut short, with std::out_of_range, before the first
    channel that emits a fragment without a symbol, and only there. *)
Theorem C92_text d : 0 <= dv_twoJ d -> exists done ts, Forall2 channel_text done ts /\ Forall (fun c => ~ nameless c) done /\
  fst (print_decay d) = b "Compound nucleus " ++ show_int (dv_pdg d) ++ b " with Ex = " ++ show_g6 (dv_Ex d)
    ++ b ", spin = " ++ digits (dv_twoJ d / 2) ++ (if Z.even (dv_twoJ d) then [] else b ".5") ++ b ", and parity = " ++ [if dv_par d then "+"%char else "-"%char] ++ [nl]
    ++ b "Total width = " ++ show_g6 (dv_total d) ++ b " MeV" ++ [nl]
    ++ b "Mean lifetime = " ++ show_g6 (SFdiv 53 1024 HBAR (dv_total d)) ++ b " s" ++ [nl] ++ List.concat ts /\
  ((snd (print_decay d) = Ok tt /\ dv_channels d = done) \/
   (snd (print_decay d) = Er StdRange /\ exists c r, dv_channels d = done ++ c :: r /\ nameless c)).
Proof.
  intros J. destruct (lines_spec (dv_channels d)) as (done & ts & H1 & H2 & H3 & H4). exists done, ts.
  split; [exact H2|]. split; [exact H3|]. unfold print_decay. destruct (channel_lines (dv_channels d)) as [t o]. cbn [fst snd] in *. split; [|exact H4].
  rewrite H1. unfold decay_heading, compound_spin. destruct (halves _ J) as (E1 & E2 & E3 & E4). rewrite E1, E2, (show_nonneg (dv_twoJ d / 2)) by (apply Z.div_pos; lia).
  replace (dv_twoJ d mod 2 =? 0) with (Z.even (dv_twoJ d)).
  2: { destruct (Z.even (dv_twoJ d)); [rewrite (proj1 E3 eq_refl)|rewrite (proj1 E4 eq_refl)]; reflexivity. }
  unfold parity_to_char. rewrite <- !app_assoc. reflexivity.
Qed.
Print Assumptions C92_text.

(** The fragments in MARLEY's own table: neutron, proton, deuteron, triton, helion, alpha. A
    nucleus that emits only these and gamma rays has a complete report. *)
Theorem C92_complete d : (forall c z, In c (dv_channels d) -> cv_fragment c = Some z -> In z [2112; 2212; 1000010020; 1000010030; 1000020030; 1000020040]) ->
  snd (print_decay d) = Ok tt.
Proof.
  intros H. unfold print_decay. destruct (lines_spec (dv_channels d)) as (done & ts & _ & _ & _ & O). destruct (channel_lines (dv_channels d)) as [t o]. cbn [fst snd] in *.
  destruct O as [[O _]|(_ & c & r & E & z & Ez & N)]; [exact O|]. exfalso.
  assert (G : In c (dv_channels d)) by (rewrite E; apply in_or_app; right; left; reflexivity).
  specialize (H c z G Ez). assert (T : exists s, In (z, s) particle_symbols).
  { cbn [In] in H. decompose [or] H; try contradiction; subst z; eexists; unfold particle_symbols; cbn [In]; tauto. }
  destruct T as [s T]. exact (N s T).
Qed.
Print Assumptions C92_complete.

(** ** The lifetime *)

Definition hbar : R := 658211951 / 10 ^ 30.

Lemma hbar_value : finite_dbl HBAR /\ (Rabs (val HBAR - hbar) <= / 10 ^ 15 * hbar)%R.
Proof.
  assert (E : HBAR = S754_finite false 6999310019435274 (-123)) by (vm_compute; reflexivity). rewrite E. split; [split; reflexivity|].
  unfold val, BinarySingleNaN.SF2R, F2R. cbn [Fnum Fexp cond_Zopp]. change (bpow radix2 (-123)) with (/ IZR (2 ^ 123))%R. unfold hbar.
  apply Rabs_le. split; lra.
Qed.

Lemma positive_double x : finite_dbl x -> (0 < val x)%R -> (bpow radix2 (-1074) <= val x)%R.
Proof.
  intros H P. apply (generic_format_ge_bpow radix2 fexp); [|exact P|apply val_format; exact H].
  intros e. rewrite fexp_FLT. unfold FLT_exp. lia.
Qed.

(** For every width that can occur the lifetime shown is hbar / width, with hbar = 6.58211951e-22
    MeV s, to about six digits. *)
Theorem C92_lifetime d : finite_dbl (dv_total d) -> (0 < val (dv_total d) <= IZR (10 ^ 280))%R ->
  exists v, denotes (show_g6 (SFdiv 53 1024 HBAR (dv_total d))) v /\ (Rabs (v - hbar / val (dv_total d)) <= 6 / 10 ^ 6 * (hbar / val (dv_total d)))%R.
Proof.
  intros F [P U]. destruct hbar_value as [HF HV]. pose proof (positive_double _ F P) as L. set (w := val (dv_total d)) in *.
  assert (HB : (0 < hbar)%R) by (unfold hbar; lra). apply Rabs_le_inv in HV.
  set (h := val HBAR) in *. assert (h0 : (0 < h)%R) by lra.
  assert (WB : (IZR (10 ^ 280) <= bpow radix2 931)%R) by (change (bpow radix2 931) with (IZR (2 ^ 931)); apply IZR_le; vm_compute; discriminate).
  assert (I1 : (/ w <= bpow radix2 1074)%R).
  { change 1074 with (- (-1074)). rewrite bpow_opp. apply Rinv_le; [apply bpow_gt_0|exact L]. }
  assert (I2 : (bpow radix2 (-931) <= / w)%R).
  { change (-931) with (- (931)). rewrite bpow_opp. apply Rinv_le; [exact P|lra]. }
  assert (h1 : (bpow radix2 (-71) <= h <= bpow radix2 (-70))%R).
  { change (bpow radix2 (-71)) with (/ IZR (2 ^ 71))%R. change (bpow radix2 (-70)) with (/ IZR (2 ^ 70))%R. unfold hbar in HV. split; lra. }
  assert (Q0 : (0 < h / w)%R) by (apply Rdiv_lt_0_compat; assumption).
  assert (Q1 : (h / w <= huge)%R).
  { unfold Rdiv. apply (Rle_trans _ (bpow radix2 (-70) * bpow radix2 1074)); [apply Rmult_le_compat; try lra; left; apply Rinv_0_lt_compat; exact P|].
    rewrite <- bpow_plus. apply bpow_le. lia. }
  assert (Q2 : (bpow radix2 (-1022) <= h / w)%R).
  { unfold Rdiv. apply (Rle_trans _ (bpow radix2 (-71) * bpow radix2 (-931))); [rewrite <- bpow_plus; apply bpow_le; lia|].
    apply Rmult_le_compat; try lra; apply bpow_ge_0. }
  destruct (div_finite HBAR (dv_total d) HF F) as [DF DV].
  { fold w. lra. } { fold h w. rewrite Rabs_pos_eq by lra. exact Q1. }
  fold h w in DV. destruct (C83_number _ DF) as (v & D & B & _). exists v. split; [exact D|]. rewrite DV in B.
  assert (RE : (Rabs (rnd (h / w) - h / w) <= / 10 ^ 15 * (h / w))%R).
  { pose proof (relative_error_N_FLT radix2 (-1074) 53 eq_refl (fun n => negb (Z.even n)) (h / w)) as T. rewrite (Rabs_pos_eq (h / w)) in T by lra. specialize (T Q2).
    apply (Rle_trans _ _ _ T). apply Rmult_le_compat_r; [lra|]. change (bpow radix2 (- (53) + 1)) with (/ IZR (2 ^ 52))%R. lra. }
  set (r := rnd (h / w)) in *. set (q := (h / w)%R) in *.
  assert (G : (q = hbar / w * (h / hbar))%R) by (unfold q; field; split; lra).
  assert (k1 : (1 - / 10 ^ 15 <= h / hbar <= 1 + / 10 ^ 15)%R).
  { split; apply (Rmult_le_reg_r hbar); try exact HB; unfold Rdiv; rewrite Rmult_assoc, Rinv_l, Rmult_1_r by lra; lra. }
  assert (p0 : (0 < hbar / w)%R) by (apply Rdiv_lt_0_compat; assumption).
  set (p := (hbar / w)%R) in *. set (k := (h / hbar)%R) in *. clearbody p k q r. clear DV DF D.
  apply Rabs_le_inv in RE. assert (r0 : (0 < r)%R) by lra. rewrite (Rabs_pos_eq r) in B by lra. apply Rabs_le_inv in B.
  assert (q1 : (p * (1 - / 10 ^ 15) <= q <= p * (1 + / 10 ^ 15))%R) by (rewrite G; split; apply Rmult_le_compat_l; lra).
  apply Rabs_le. split; lra.
Qed.
Print Assumptions C92_lifetime.

(** Without a width the lifetime is infinite; a width that is not a number gives none. *)
Theorem C92_edges : (forall s, show_g6 (SFdiv 53 1024 HBAR (S754_zero s)) = (if s then b "-inf" else b "inf")) /\
  show_g6 (SFdiv 53 1024 HBAR S754_nan) = b "nan" /\ show_g6 (SFdiv 53 1024 HBAR (S754_infinity false)) = b "0".
Proof. split; [intros [|]; vm_compute; reflexivity|]. split; vm_compute; reflexivity. Qed.
Print Assumptions C92_edges.

(** ** What a report determines *)

Lemma cut x s (l1 l2 r1 r2 : bytes) : ~ In x l1 -> ~ In x l2 -> l1 ++ (x :: s) ++ r1 = l2 ++ (x :: s) ++ r2 -> l1 = l2 /\ r1 = r2.
Proof.
  revert l2. induction l1 as [|a l1 IH]; intros [|a2 l2] N1 N2 E; cbn [app] in E.
  - split; [reflexivity|]. injection E as E. apply app_inv_head in E. exact E.
  - exfalso. injection E as -> _. apply N2. left. reflexivity.
  - exfalso. injection E as -> _. apply N1. left. reflexivity.
  - injection E as -> E. destruct (IH l2) as [-> ->]; [intros G; apply N1; right; exact G|intros G; apply N2; right; exact G|exact E|split; reflexivity].
Qed.

Lemma out_app x (s t : bytes) : ~ In x s -> ~ In x t -> ~ In x (s ++ t).
Proof. intros H G K. apply in_app_iff in K. tauto. Qed.
Lemma out_digits x t : is_digit x = false -> forallb is_digit t = true -> ~ In x t.
Proof. intros H G K. rewrite forallb_forall in G. specialize (G _ K). congruence. Qed.
Definition separator (x : ascii) : Prop := x = " "%char \/ x = ","%char \/ x = nl.

Lemma out_frac x t : separator x -> ~ In x t -> ~ In x (frac_str (strip0 t)).
Proof.
  intros SP H. assert (G : ~ In x (strip0 t)) by (intros K; apply H; apply strip0_in; exact K).
  unfold frac_str. destruct (strip0 t); [exact G|]. apply (out_app x ["."%char]); [|exact G].
  intros [K|[]]. destruct SP as [-> | [-> | ->]]; discriminate K.
Qed.
Lemma out_int x z : separator x -> ~ In x (show_int z).
Proof.
  intros SP. assert (D : is_digit x = false) by (destruct SP as [-> | [-> | ->]]; reflexivity). unfold show_int. destruct (Z.ltb_spec z 0).
  - apply (out_app x ["-"%char]); [intros [K|[]]; destruct SP as [-> | [-> | ->]]; discriminate K|apply out_digits, digits_all; [exact D|lia]].
  - apply out_digits, digits_all; [exact D|lia].
Qed.
Lemma out_g6 x y : separator x -> ~ In x (show_g6 y).
Proof.
  intros SP. assert (D : is_digit x = false) by (destruct SP as [-> | [-> | ->]]; reflexivity).
  assert (W : forall t, In t [b "0"; b "inf"; b "nan"; b "-"; b "+"; b "e"; []] -> ~ In x t).
  { intros t T K. cbn [In] in T. destruct SP as [-> | [-> | ->]]; decompose [or] T; try contradiction; subst t; cbn in K; decompose [or] K; try contradiction; discriminate. }
  assert (SG : forall s, ~ In x (sign_str s)) by (intros [|]; apply W; cbn; tauto).
  destruct y as [s|s| |s m e]; cbn [show_g6].
  1, 2: apply out_app; [apply SG|apply W; cbn; tauto].
  { apply W. cbn. tauto. }
  destruct (to_dec 6 (dnum m e) (dden e)) as [N X] eqn:E. apply out_app; [apply SG|].
  assert (HD : ~ In x (digits N)).
  { apply out_digits, digits_all; [exact D|]. pose proof (to_dec_spec 6 (dnum m e) (dden e) ltac:(lia) (dnum_pos m e) (dden_pos e)) as T. rewrite E in T. lia. }
  assert (F : forall n, ~ In x (firstn n (digits N))) by (intros n K; apply HD; exact (firstn_in _ _ _ K)).
  assert (S : forall n, ~ In x (skipn n (digits N))) by (intros n K; apply HD; exact (skipn_in _ _ _ K)).
  destruct ((X <? -4) || (6 <=? X)); [|destruct (X <? 0)].
  - apply out_app; [apply F|]. apply out_app; [apply out_frac; [exact SP|apply S]|].
    apply (out_app x ["e"%char]); [apply W; cbn; tauto|]. unfold show_exp. apply (out_app x [if X <? 0 then "-"%char else "+"%char]); [destruct (X <? 0); apply W; cbn; tauto|].
    destruct (Z.abs X <? 10); [apply (out_app x ["0"%char]); [apply W; cbn; tauto|]|]; (apply out_digits, digits_all; [exact D|lia]).
  - apply (out_app x ["0"%char]); [apply W; cbn; tauto|]. apply out_frac; [exact SP|]. apply out_app; [|exact HD]. intros K. apply repeat_spec in K. subst x. discriminate D.
  - apply out_app; [apply F|]. apply out_frac; [exact SP|apply S].
Qed.

Lemma show_int_inj z z' : show_int z = show_int z' -> z = z'.
Proof.
  assert (M : forall n k, 0 <= n -> 0 <= k -> "-"%char :: digits n <> digits k).
  { intros n k Hn Hk E. pose proof (digits_all k Hk) as D. rewrite <- E in D. discriminate D. }
  unfold show_int. destruct (Z.ltb_spec z 0), (Z.ltb_spec z' 0); intros E.
  - injection E as E. apply (f_equal digits_val) in E. rewrite !digits_val_digits in E by lia. lia.
  - exfalso. apply (M (- z) z'); try lia. exact E.
  - exfalso. apply (M (- z') z); try lia. symmetry. exact E.
  - apply (f_equal digits_val) in E. rewrite !digits_val_digits in E by lia. lia.
Qed.
Lemma spin_inj j j' : 0 <= j -> 0 <= j' -> compound_spin j = compound_spin j' -> j = j'.
Proof.
  intros H H' E. destruct (C83_compound_spin j H) as (k & K & C). destruct (C83_compound_spin j' H') as (k' & K' & C').
  assert (P : forall n, 0 <= n -> ~ In "."%char (digits n)) by (intros n Hn; apply out_digits, digits_all; [reflexivity|exact Hn]).
  destruct C as [[-> C]|[-> C]], C' as [[-> C']|[-> C']]; rewrite C, C' in E.
  - apply (f_equal digits_val) in E. rewrite !digits_val_digits in E by lia. lia.
  - exfalso. apply (P k K). rewrite E. apply in_app_iff. right. left. reflexivity.
  - exfalso. apply (P k' K'). rewrite <- E. apply in_app_iff. right. left. reflexivity.
  - apply app_inv_tail in E. apply (f_equal digits_val) in E. rewrite !digits_val_digits in E by lia. lia.
Qed.

Lemma emitted_facts : forallb (fun p => forallb no_space (snd p) && negb (same_bytes (snd p) (b "gamma-ray"))
  && forallb (fun q => negb (same_bytes (snd p) (snd q)) || (fst p =? fst q)) particle_symbols) particle_symbols = true.
Proof. vm_compute. reflexivity. Qed.
Lemma emitted_no_space f s : emitted f s -> ~ In " "%char s.
Proof.
  destruct f as [z|]; cbn [emitted].
  - intros H K. pose proof emitted_facts as T. rewrite forallb_forall in T. specialize (T _ H). cbn [snd fst] in T. apply andb_prop in T as [T _]. apply andb_prop in T as [T _].
    rewrite forallb_forall in T. specialize (T _ K). discriminate T.
  - intros -> K. cbn in K. decompose [or] K; try contradiction; discriminate.
Qed.
Lemma emitted_inj f f' s : emitted f s -> emitted f' s -> f = f'.
Proof.
  assert (N : forall z, ~ In (z, b "gamma-ray") particle_symbols).
  { intros z H. pose proof emitted_facts as T. rewrite forallb_forall in T. specialize (T _ H). cbn [snd fst] in T. apply andb_prop in T as [T _]. apply andb_prop in T as [_ T]. vm_compute in T. discriminate T. }
  destruct f as [z|], f' as [z'|]; cbn [emitted].
  - intros H H'. pose proof emitted_facts as T. rewrite forallb_forall in T. specialize (T _ H). cbn [snd fst] in T. apply andb_prop in T as [_ T].
    rewrite forallb_forall in T. specialize (T _ H'). cbn [snd fst] in T. unfold same_bytes in T. destruct (list_eq_dec ascii_dec s s); [|congruence].
    cbn [negb orb] in T. apply Z.eqb_eq in T. congruence.
  - intros H ->. exfalso. exact (N _ H).
  - intros -> H. exfalso. exact (N _ H).
  - reflexivity.
Qed.

(** Two channels that look the same. *)
Definition alike (c c' : channel_view) : Prop :=
  cv_fragment c = cv_fragment c' /\ option_map show_g6 (cv_level c) = option_map show_g6 (cv_level c') /\ show_g6 (cv_width c) = show_g6 (cv_width c').

Lemma line_inj c c' t t' r r' : channel_text c t -> channel_text c' t' -> t ++ r = t' ++ r' -> alike c c' /\ r = r'.
Proof.
  intros (s & M & H) (s' & M' & H') E. unfold alike.
  assert (S : separator " "%char) by (left; reflexivity).
  assert (L : b " emission to level at " = " "%char :: b "emission to " ++ b "level at ") by reflexivity.
  assert (C : b " emission to the continuum width = " = " "%char :: b "emission to " ++ b "the continuum width = ") by reflexivity.
  assert (V : b " MeV width = " = " "%char :: b "MeV width = ") by reflexivity.
  assert (U : b " MeV" ++ [nl] = " "%char :: b "MeV" ++ [nl]) by reflexivity.
  assert (HEAD : forall k k' : bytes, s ++ (" "%char :: b "emission to ") ++ k = s' ++ (" "%char :: b "emission to ") ++ k' -> cv_fragment c = cv_fragment c' /\ k = k').
  { intros k k' G. apply cut in G as [-> G]; [split; [exact (emitted_inj _ _ _ M M')|exact G]| |]; eapply emitted_no_space; eassumption. }
  destruct H as [(e & He & ->)|[He ->]], H' as [(e' & He' & ->)|[He' ->]]; rewrite He, He'; cbn [option_map];
    rewrite <- !app_assoc in E; apply app_inv_head in E; rewrite ?L, ?C, ?V in E.
  - apply (HEAD (b "level at " ++ show_g6 e ++ (" "%char :: b "MeV width = ") ++ show_g6 (cv_width c) ++ b " MeV" ++ [nl] ++ r)
             (b "level at " ++ show_g6 e' ++ (" "%char :: b "MeV width = ") ++ show_g6 (cv_width c') ++ b " MeV" ++ [nl] ++ r')) in E as [F E].
    apply app_inv_head in E. apply cut in E as [E1 E]; [|apply out_g6; exact S|apply out_g6; exact S].
    change (b " MeV") with (" "%char :: b "MeV") in E. apply cut in E as [E2 E]; [|apply out_g6; exact S|apply out_g6; exact S].
    apply app_inv_head in E. rewrite E1, E2. repeat split; assumption.
  - exfalso. apply (HEAD (b "level at " ++ show_g6 e ++ (" "%char :: b "MeV width = ") ++ show_g6 (cv_width c) ++ b " MeV" ++ [nl] ++ r)
             (b "the continuum width = " ++ show_g6 (cv_width c') ++ b " MeV" ++ [nl] ++ r')) in E as [_ E]. discriminate E.
  - exfalso. apply (HEAD (b "the continuum width = " ++ show_g6 (cv_width c) ++ b " MeV" ++ [nl] ++ r)
             (b "level at " ++ show_g6 e' ++ (" "%char :: b "MeV width = ") ++ show_g6 (cv_width c') ++ b " MeV" ++ [nl] ++ r')) in E as [_ E]. discriminate E.
  - apply (HEAD (b "the continuum width = " ++ show_g6 (cv_width c) ++ b " MeV" ++ [nl] ++ r)
             (b "the continuum width = " ++ show_g6 (cv_width c') ++ b " MeV" ++ [nl] ++ r')) in E as [F E].
    apply app_inv_head in E. change (b " MeV") with (" "%char :: b "MeV") in E. apply cut in E as [E2 E]; [|apply out_g6; exact S|apply out_g6; exact S].
    apply app_inv_head in E. rewrite E2. repeat split; assumption.
Qed.

Lemma text_nonempty c t r : channel_text c t -> t ++ r <> [].
Proof. intros (s & _ & [(e & _ & ->)|[_ ->]]) H; discriminate H. Qed.

Lemma all_lines_inj cs cs' ts ts' : Forall2 channel_text cs ts -> Forall2 channel_text cs' ts' -> List.concat ts = List.concat ts' -> Forall2 alike cs cs'.
Proof.
  intros H. revert cs' ts'. induction H as [|c t cs ts H1 H2 IH]; intros cs' ts' H' E; destruct H' as [|c' t' cs' ts' H1' H2']; cbn [List.concat] in E.
  - constructor.
  - exfalso. symmetry in E. exact (text_nonempty _ _ _ H1' E).
  - exfalso. exact (text_nonempty _ _ _ H1 E).
  - destruct (line_inj _ _ _ _ _ _ H1 H1' E) as [A E']. constructor; [exact A|]. exact (IH _ _ H2' E').
Qed.

Lemma head_inj (c c' : ascii) (k k' : bytes) : [c] ++ k = [c'] ++ k' -> c = c' /\ k = k'.
Proof. cbn [app]. intros E. injection E as -> ->. split; reflexivity. Qed.

(** Two complete reports are the same only if they are on the same nucleus with the same spin
    and parity, and the energies and widths shown agree, channel by channel. *)
Theorem C92_determines d d' : 0 <= dv_twoJ d -> 0 <= dv_twoJ d' -> snd (print_decay d) = Ok tt -> snd (print_decay d') = Ok tt ->
  fst (print_decay d) = fst (print_decay d') ->
  dv_pdg d = dv_pdg d' /\ dv_twoJ d = dv_twoJ d' /\ dv_par d = dv_par d' /\ show_g6 (dv_Ex d) = show_g6 (dv_Ex d') /\ show_g6 (dv_total d) = show_g6 (dv_total d') /\
  Forall2 alike (dv_channels d) (dv_channels d').
Proof.
  intros J J'. unfold print_decay. destruct (lines_spec (dv_channels d)) as (cs & ts & H1 & H2 & _ & H4). destruct (lines_spec (dv_channels d')) as (cs' & ts' & H1' & H2' & _ & H4').
  destruct (channel_lines (dv_channels d)) as [t o]. destruct (channel_lines (dv_channels d')) as [t' o']. cbn [fst snd] in *. intros -> -> E.
  destruct H4 as [[_ ->]|[H4 _]]; [|discriminate H4]. destruct H4' as [[_ ->]|[H4' _]]; [|discriminate H4']. subst t t'.
  unfold decay_heading in E. rewrite <- !app_assoc in E. apply app_inv_head in E.
  assert (S : separator " "%char) by (left; reflexivity). assert (K : separator ","%char) by (right; left; reflexivity).
  change (b " with Ex = ") with (" "%char :: b "with Ex = ") in E. apply cut in E as [E1 E]; [|apply out_int; exact S|apply out_int; exact S].
  change (b ", spin = ") with (","%char :: b " spin = ") in E. apply cut in E as [E2 E]; [|apply out_g6; exact K|apply out_g6; exact K].
  assert (CS : forall j, ~ In ","%char (compound_spin j)).
  { intros j. unfold compound_spin. apply out_app; [apply out_int; exact K|]. destruct (Z.rem j 2 =? 0); intros G; cbn in G; decompose [or] G; try contradiction; discriminate. }
  change (b ", and parity = ") with (","%char :: b " and parity = ") in E. apply cut in E as [E3 E]; [|apply CS|apply CS].
  apply head_inj in E as [E4 E]. apply app_inv_head in E. apply app_inv_head in E.
  change (b " MeV") with (" "%char :: b "MeV") in E. apply cut in E as [E5 E]; [|apply out_g6; exact S|apply out_g6; exact S].
  apply app_inv_head in E. apply app_inv_head in E. change (b " s") with (" "%char :: b "s") in E. apply cut in E as [_ E]; [|apply out_g6; exact S|apply out_g6; exact S].
  apply app_inv_head in E.
  split; [apply show_int_inj; exact E1|]. split; [apply spin_inj; assumption|]. split; [destruct (dv_par d), (dv_par d'); try reflexivity; discriminate E4|].
  split; [exact E2|]. split; [exact E5|]. exact (all_lines_inj _ _ _ _ H2 H2' E).
Qed.
Print Assumptions C92_determines.

Definition some_decay (f : Z) : decay_view :=
  mkdv 1000190400 (dbl_of_int 12) 3 false (rnd64 false 1 1024) [mkcv (Some 2112) None (rnd64 false 1 2048); mkcv (Some f) (Some (dbl_of_int 2)) (rnd64 false 1 4096); mkcv None (Some dbl_zero) (rnd64 false 1 4096)].
Example C92_case :
  print_decay (some_decay 2212) = (b "Compound nucleus 1000190400 with Ex = 12, spin = 1.5, and parity = -" ++ [nl] ++ b "Total width = 0.000976562 MeV" ++ [nl] ++ b "Mean lifetime = 6.74009e-19 s" ++ [nl]
    ++ b "  n emission to the continuum width = 0.000488281 MeV" ++ [nl] ++ b "  p emission to level at 2 MeV width = 0.000244141 MeV" ++ [nl] ++ b "  gamma-ray emission to level at 0 MeV width = 0.000244141 MeV" ++ [nl], Ok tt) /\
  snd (print_decay (some_decay 1000030060)) = Er StdRange /\ nameless (mkcv (Some 1000030060) None dbl_zero) /\
  (0 < val (dv_total (some_decay 2212)) <= IZR (10 ^ 280))%R.
Proof.
  split; [vm_compute; reflexivity|]. split; [vm_compute; reflexivity|]. split.
  - exists 1000030060. split; [reflexivity|]. intros s G. cbn in G. decompose [or] G; try contradiction; discriminate.
  - assert (E : dv_total (some_decay 2212) = S754_finite false 4503599627370496 (-62)) by (vm_compute; reflexivity). rewrite E.
    unfold val, BinarySingleNaN.SF2R, F2R. cbn [Fnum Fexp cond_Zopp]. change (bpow radix2 (-62)) with (/ IZR (2 ^ 62))%R. split; lra.
Qed.
