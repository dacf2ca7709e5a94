(** C83: the numbers and the names of particles in texts for people. *)
From Coq Require Import List Ascii String ZArith Bool Lia Reals Lra.
From Coq Require Import Floats.SpecFloat.
From Flocq Require Import Core.
From Flocq Require IEEE754.BinarySingleNaN.
From Verif Require Import Base Dbl Strings DigitsProofs DblProofs EventSpec DblArith Pdg Names PdgThms React Event Levels Report ReportThms.
Import ListNotations.
Local Open Scope Z_scope.

(** ** Numbers *)

(** The exponent at the end of a number: none, or the letter e, a sign and digits. *)
Definition exponent (t : bytes) (X : Z) : Prop :=
  (t = [] /\ X = 0) \/
  exists s ds, t = "e"%char :: (if s : bool then "-"%char else "+"%char) :: ds /\ ds <> [] /\ forallb is_digit ds = true /\
    X = (if s then - digits_val ds else digits_val ds).

(** The number that a text stands for: a sign, digits, perhaps a point and more digits, perhaps
    an exponent. *)
Definition denotes (t : bytes) (x : R) : Prop :=
  exists (s : bool) ip fp ex X, ip <> [] /\ forallb is_digit ip = true /\ forallb is_digit fp = true /\ exponent ex X /\
    t = (if s then ["-"%char] else []) ++ ip ++ (match fp with [] => [] | _ => "."%char :: fp end) ++ ex /\
    x = ((if s then -1 else 1) * IZR (digits_val (ip ++ fp)) * bpow radix10 (X - Z.of_nat (List.length fp)))%R.

Lemma digits_split (l1 l2 r1 r2 : bytes) : forallb is_digit l1 = true -> forallb is_digit l2 = true ->
  (forall c r, r1 = c :: r -> is_digit c = false) -> (forall c r, r2 = c :: r -> is_digit c = false) -> l1 ++ r1 = l2 ++ r2 -> l1 = l2 /\ r1 = r2.
Proof.
  intros H1 H2 N1 N2 E. revert l2 H2 E. induction l1 as [|x l1 IH]; intros [|y l2] H2 E; cbn [app forallb] in *.
  - split; [reflexivity|exact E].
  - specialize (N1 y (l2 ++ r2) E). rewrite N1 in H2. discriminate H2.
  - specialize (N2 x (l1 ++ r1) (eq_sym E)). rewrite N2 in H1. discriminate H1.
  - injection E as <- E. apply andb_prop in H1 as [_ H1]. apply andb_prop in H2 as [_ H2]. destruct (IH H1 l2 H2 E) as [-> ->]. split; reflexivity.
Qed.

Lemma exponent_head t X c r : exponent t X -> t = c :: r -> is_digit c = false /\ c <> "."%char.
Proof. intros [[-> _]|(s & ds & -> & _)] H; [discriminate H|]. injection H as <- _. split; [reflexivity|discriminate]. Qed.

Lemma exponent_unique t X X' : exponent t X -> exponent t X' -> X = X'.
Proof.
  intros [[-> ->]|(s & ds & -> & _ & _ & ->)] [[E ->]|(s' & ds' & E & _ & _ & ->)]; try discriminate E; [reflexivity|].
  injection E as E ->. destruct s, s'; try discriminate E; reflexivity.
Qed.

(** No text stands for two numbers. *)
Theorem C83_one_value t x y : denotes t x -> denotes t y -> x = y.
Proof.
  intros (s & ip & fp & ex & X & N & D1 & D2 & EX & -> & ->) (s' & ip' & fp' & ex' & X' & N' & D1' & D2' & EX' & E & ->).
  assert (SG : s = s' /\ ip ++ (match fp with [] => [] | _ => "."%char :: fp end) ++ ex = ip' ++ (match fp' with [] => [] | _ => "."%char :: fp' end) ++ ex').
  { destruct ip as [|c ip]; [congruence|]. destruct ip' as [|c' ip']; [congruence|]. cbn [forallb] in D1, D1'. apply andb_prop in D1 as [C _]. apply andb_prop in D1' as [C' _].
    destruct s, s'; cbn [app] in E |- *; injection E; intros; subst; try discriminate; split; congruence. }
  destruct SG as [<- E']. clear E.
  assert (HD : forall fp ex X, exponent ex X -> forall c r, (match fp with [] => [] | _ => "."%char :: fp end) ++ ex = c :: r -> is_digit c = false).
  { intros f e Y HY c r H. destruct f; cbn [app] in H; [exact (proj1 (exponent_head _ _ _ _ HY H))|]. injection H as <- _. reflexivity. }
  destruct (digits_split _ _ _ _ D1 D1' (HD fp ex X EX) (HD fp' ex' X' EX') E') as [<- E2].
  assert (FP : fp = fp' /\ ex = ex').
  { destruct fp as [|c fp], fp' as [|c' fp']; cbn [app] in E2.
    - split; [reflexivity|exact E2].
    - exfalso. destruct (exponent_head _ _ _ _ EX E2) as [_ G]. apply G. reflexivity.
    - exfalso. destruct (exponent_head _ _ _ _ EX' (eq_sym E2)) as [_ G]. apply G. reflexivity.
    - assert (E3 : (c :: fp) ++ ex = (c' :: fp') ++ ex') by (cbn [app]; congruence).
      exact (digits_split (c :: fp) (c' :: fp') ex ex' D2 D2' (fun a r H => proj1 (exponent_head _ _ _ _ EX H)) (fun a r H => proj1 (exponent_head _ _ _ _ EX' H)) E3). }
  destruct FP as [<- <-]. rewrite (exponent_unique _ _ _ EX EX'). reflexivity.
Qed.
Print Assumptions C83_one_value.

Lemma dv_strip ip l E : (IZR (digits_val (ip ++ strip0 l)) * bpow radix10 (E - Z.of_nat (List.length (strip0 l))) =
  IZR (digits_val (ip ++ l)) * bpow radix10 (E - Z.of_nat (List.length l)))%R.
Proof.
  destruct (strip0_spec l) as (n & H & _). remember (strip0 l) as k eqn:K. rewrite H. rewrite app_assoc, (digits_val_app2 (ip ++ k)), digits_val_zeros, Z.add_0_r, app_length, repeat_length, mult_IZR.
  change (IZR (10 ^ Z.of_nat n)) with (IZR (Zpower radix10 (Z.of_nat n))). rewrite (IZR_Zpower radix10 (Z.of_nat n)) by lia. rewrite Rmult_assoc, <- bpow_plus. f_equal. f_equal. lia.
Qed.

Lemma exp_text X : exists ds, show_exp X = (if X <? 0 then "-"%char else "+"%char) :: ds /\ ds <> [] /\ forallb is_digit ds = true /\ digits_val ds = Z.abs X.
Proof.
  unfold show_exp. pose proof (digits_all (Z.abs X) ltac:(lia)) as A. pose proof (digits_val_digits (Z.abs X) ltac:(lia)) as V. pose proof (digits_nonempty (Z.abs X) ltac:(lia)) as N.
  destruct (Z.abs X <? 10); eexists; (split; [reflexivity|]).
  - split; [discriminate|]. split; [cbn [forallb]; exact A|]. rewrite digits_val_cons, V. reflexivity.
  - split; [intros H; rewrite H in N; cbn in N; lia|]. split; [exact A|exact V].
Qed.

Lemma g6_value s m e : exists D X, to_dec 6 (dnum m e) (dden e) = (D, X) /\ 10 ^ 5 <= D < 10 ^ 6 /\
  (Rabs (IZR D * bpow radix10 (X - 5) - IZR (Z.pos m) * bpow radix2 e) <= / 2 * (IZR (Z.pos m) * bpow radix2 e * bpow radix10 (-5)))%R /\
  denotes (show_g6 (S754_finite s m e)) ((if s then -1 else 1) * (IZR D * bpow radix10 (X - 5)))%R.
Proof.
  cbn [show_g6]. pose proof (to_dec_spec 6 (dnum m e) (dden e) ltac:(lia) (dnum_pos m e) (dden_pos e)) as T.
  destruct (to_dec 6 (dnum m e) (dden e)) as [D X]. destruct T as [[T1 T2] T3]. rewrite Qr_dbl in T3.
  exists D, X. split; [reflexivity|]. split; [split; assumption|]. replace (X - 6 + 1) with (X - 5) in T3 by lia. split; [exact T3|].
  change (6 - 1) with 5 in T1.
  assert (DA : forallb is_digit (digits D) = true) by (apply digits_all; lia).
  assert (DV : digits_val (digits D) = D) by (apply digits_val_digits; lia).
  assert (DL : List.length (digits D) = 6%nat).
  { pose proof (digits_length D 6 ltac:(lia) ltac:(lia)). lia. }
  assert (SPL : forall k, forallb is_digit (firstn k (digits D)) = true /\ forallb is_digit (skipn k (digits D)) = true).
  { intros k. rewrite <- (firstn_skipn k (digits D)), forallb_app in DA. apply andb_prop in DA. exact DA. }
  assert (FR : forall l, frac_str (strip0 l) = match strip0 l with [] => [] | _ => "."%char :: strip0 l end) by (intros l; unfold frac_str; destruct (strip0 l); reflexivity).
  destruct ((X <? -4) || (6 <=? X)) eqn:E1; [|destruct (X <? 0) eqn:E2].
  - destruct (exp_text X) as (ds & -> & N1 & N2 & N3). destruct (SPL 1%nat) as [S1 S2].
    exists s, (firstn 1 (digits D)), (strip0 (skipn 1 (digits D))), ("e"%char :: (if X <? 0 then "-"%char else "+"%char) :: ds), X.
    split; [destruct (digits D); [cbn in DL; lia|discriminate]|]. split; [exact S1|]. split; [apply strip0_digits; exact S2|].
    split; [right; exists (X <? 0), ds; split; [reflexivity|]; split; [exact N1|]; split; [exact N2|]; rewrite N3; destruct (Z.ltb_spec X 0); lia|].
    split; [rewrite FR; unfold sign_str; reflexivity|]. rewrite Rmult_assoc, dv_strip, firstn_skipn, DV, skipn_length, DL. do 2 f_equal.
  - apply orb_false_iff in E1 as [E1 E3]. apply Z.ltb_ge in E1. apply Z.ltb_lt in E2.
    exists s, ["0"%char], (strip0 (repeat "0"%char (Z.to_nat (- X - 1)) ++ digits D)), [], 0.
    split; [discriminate|]. split; [reflexivity|].
    split; [apply strip0_digits; rewrite forallb_app, DA, andb_true_r; apply forallb_forall; intros c Hc; apply repeat_spec in Hc; subst c; reflexivity|].
    split; [left; split; reflexivity|]. split; [rewrite FR, app_nil_r; unfold sign_str; reflexivity|].
    rewrite Rmult_assoc, dv_strip, app_assoc. change (["0"%char] ++ repeat "0"%char (Z.to_nat (- X - 1))) with (repeat "0"%char (S (Z.to_nat (- X - 1)))).
    rewrite digits_val_app2, digits_val_zeros, Z.mul_0_l, Z.add_0_l, DV, app_length, repeat_length, DL. do 3 f_equal. lia.
  - apply orb_false_iff in E1 as [_ E3]. apply Z.leb_gt in E3. apply Z.ltb_ge in E2. destruct (SPL (Z.to_nat (X + 1))) as [S1 S2].
    exists s, (firstn (Z.to_nat (X + 1)) (digits D)), (strip0 (skipn (Z.to_nat (X + 1)) (digits D))), [], 0.
    split; [destruct (digits D); [cbn in DL; lia|]; replace (Z.to_nat (X + 1)) with (S (Z.to_nat X)) by lia; discriminate|].
    split; [exact S1|]. split; [apply strip0_digits; exact S2|]. split; [left; split; reflexivity|]. split; [rewrite FR, app_nil_r; unfold sign_str; reflexivity|].
    rewrite Rmult_assoc, dv_strip, firstn_skipn, DV, skipn_length, DL. do 3 f_equal. lia.
Qed.

Lemma sign_abs (s : bool) (z : R) : Rabs ((if s then -1 else 1) * z) = Rabs z.
Proof. destruct s; [rewrite <- Rabs_Ropp; f_equal; ring|f_equal; ring]. Qed.

(** A number is printed with six significant digits: the text stands for the number of that
    kind that is closest. *)
Theorem C83_number x : finite_dbl x -> exists v, denotes (show_g6 x) v /\ (Rabs (v - val x) <= / 2 * Rabs (val x) / 10 ^ 5)%R /\
  exists D k, v = (IZR D * bpow radix10 k)%R /\ Z.abs D < 10 ^ 6.
Proof.
  intros [F V]. destruct x as [s|s| |s m e]; try discriminate F.
  { exists 0%R. split.
    - exists s, ["0"%char], [], [], 0. split; [discriminate|]. split; [reflexivity|]. split; [reflexivity|]. split; [left; split; reflexivity|].
      split; [destruct s; reflexivity|]. change (digits_val (["0"%char] ++ [])) with 0. lra.
    - split; [|exists 0, 0; split; [lra|reflexivity]]. unfold val. cbn. rewrite Rminus_0_r, Rabs_R0. lra. }
  assert (VX : val (S754_finite s m e) = ((if s then -1 else 1) * (IZR (Z.pos m) * bpow radix2 e))%R).
  { unfold val, BinarySingleNaN.SF2R, F2R. cbn [Fnum Fexp]. destruct s; cbn [cond_Zopp]; [change (Z.neg m) with (- Z.pos m); rewrite opp_IZR|]; ring. }
  destruct (g6_value s m e) as (D & X & _ & T1 & T3 & T4).
  set (q := (IZR (Z.pos m) * bpow radix2 e)%R) in *.
  assert (Q : (0 < q)%R) by (apply Rmult_lt_0_compat; [apply IZR_lt; lia|apply bpow_gt_0]).
  exists ((if s then -1 else 1) * (IZR D * bpow radix10 (X - 5)))%R. split; [exact T4|split].
  - rewrite VX. replace ((if s then -1 else 1) * (IZR D * bpow radix10 (X - 5)) - (if s then -1 else 1) * q)%R with ((if s then -1 else 1) * (IZR D * bpow radix10 (X - 5) - q))%R by ring.
    rewrite !sign_abs, (Rabs_pos_eq q) by lra. replace (/ 2 * q / 10 ^ 5)%R with (/ 2 * (q * bpow radix10 (-5)))%R; [exact T3|].
    change (bpow radix10 (-5)) with (/ IZR 100000)%R. field.
  - exists (if s then - D else D), (X - 5). split; [destruct s; [rewrite opp_IZR|]; ring|destruct s; lia].
Qed.
Print Assumptions C83_number.

Lemma no_e l : forallb is_digit l = true -> ~ In "e"%char l.
Proof. intros H I0. rewrite forallb_forall in H. discriminate (H _ I0). Qed.

(** An exponent is used for numbers other than zero that are shown as less than 0.0001 or as at least a million, and for
    no others. *)
Theorem C83_exponent x v : finite_dbl x -> denotes (show_g6 x) v -> (In "e"%char (show_g6 x) <-> v <> 0%R /\ ((Rabs v < / 10 ^ 4)%R \/ (10 ^ 6 <= Rabs v)%R)).
Proof.
  intros [F V] HV. destruct x as [s|s| |s m e]; try discriminate F.
  { assert (Z0 : denotes (show_g6 (S754_zero s)) 0%R).
    { exists s, ["0"%char], [], [], 0. split; [discriminate|]. split; [reflexivity|]. split; [reflexivity|]. split; [left; split; reflexivity|].
      split; [destruct s; reflexivity|]. change (digits_val (["0"%char] ++ [])) with 0. lra. }
    rewrite (C83_one_value _ _ _ HV Z0). split; [|intros [K _]; congruence]. destruct s; cbn; intros H; repeat destruct H as [H|H]; discriminate H || destruct H. }
  destruct (g6_value s m e) as (D & X & E & T1 & _ & T4). rewrite (C83_one_value _ _ _ HV T4). clear HV T4 v. rewrite sign_abs.
  assert (B0 : (0 < bpow radix10 (X - 5))%R) by apply bpow_gt_0.
  assert (L1 : (bpow radix10 X <= IZR D * bpow radix10 (X - 5))%R).
  { replace X with (5 + (X - 5)) at 1 by lia. rewrite bpow_plus. apply Rmult_le_compat_r; [lra|]. change (bpow radix10 5) with (IZR 100000). apply IZR_le. lia. }
  assert (L2 : (IZR D * bpow radix10 (X - 5) < bpow radix10 (X + 1))%R).
  { replace (X + 1) with (6 + (X - 5)) by lia. rewrite bpow_plus. apply Rmult_lt_compat_r; [lra|]. change (bpow radix10 6) with (IZR 1000000). apply IZR_lt. lia. }
  assert (P : (0 < IZR D * bpow radix10 (X - 5))%R) by (pose proof (bpow_gt_0 radix10 X); lra). rewrite (Rabs_pos_eq _ (Rlt_le _ _ P)).
  assert (NZ : ((if s then -1 else 1) * (IZR D * bpow radix10 (X - 5)) <> 0)%R) by (destruct s; lra).
  assert (DA : forallb is_digit (digits D) = true) by (apply digits_all; lia).
  assert (SG : ~ In "e"%char (sign_str s)) by (destruct s; cbn; intros H; repeat destruct H as [H|H]; discriminate H || destruct H).
  assert (FN : forall l, forallb is_digit l = true -> ~ In "e"%char (frac_str (strip0 l))).
  { intros l H. apply strip0_digits in H. unfold frac_str. destruct (strip0 l); [intros []|]. intros [K|K]; [discriminate K|]. exact (no_e _ H K). }
  assert (SPL : forall k, forallb is_digit (firstn k (digits D)) = true /\ forallb is_digit (skipn k (digits D)) = true).
  { intros k. rewrite <- (firstn_skipn k (digits D)), forallb_app in DA. apply andb_prop in DA. exact DA. }
  assert (M4 : forall k, k <= -4 -> (bpow radix10 k <= / 10 ^ 4)%R).
  { intros k H. apply (bpow_le radix10) in H. change (bpow radix10 (-4)) with (/ IZR 10000)%R in H. lra. }
  assert (M6 : forall k, 6 <= k -> (10 ^ 6 <= bpow radix10 k)%R).
  { intros k H. apply (bpow_le radix10) in H. change (bpow radix10 6) with (IZR 1000000)%R in H. lra. }
  assert (G : -4 <= X -> (/ 10 ^ 4 <= bpow radix10 X)%R).
  { intros H. apply (bpow_le radix10) in H. change (bpow radix10 (-4)) with (/ IZR 10000)%R in H. lra. }
  assert (G6 : X + 1 <= 6 -> (bpow radix10 (X + 1) <= 10 ^ 6)%R).
  { intros H. apply (bpow_le radix10) in H. change (bpow radix10 6) with (IZR 1000000)%R in H. lra. }
  cbn [show_g6]. rewrite E. destruct (Z.ltb_spec X (-4)) as [A|A]; [|destruct (Z.leb_spec 6 X) as [A'|A']]; cbn [orb].
  - split; [intros _|intros _; rewrite !in_app_iff; right; right; right; left; reflexivity]. split; [exact NZ|]. left. specialize (M4 (X + 1) ltac:(lia)). lra.
  - split; [intros _|intros _; rewrite !in_app_iff; right; right; right; left; reflexivity]. split; [exact NZ|]. right. specialize (M6 X ltac:(lia)). lra.
  - split; [|intros [_ [K|K]]; [specialize (G ltac:(lia)); lra|specialize (G6 ltac:(lia)); lra]]. intros H. exfalso. destruct (X <? 0).
    + apply in_app_iff in H as [H|[H|H]]; [exact (SG H)|discriminate H|]. refine (FN _ _ H). rewrite forallb_app, DA, andb_true_r. apply forallb_forall. intros c Hc. apply repeat_spec in Hc. subst c. reflexivity.
    + destruct (SPL (Z.to_nat (X + 1))) as [S1 S2]. rewrite !in_app_iff in H. destruct H as [H|[H|H]]; [exact (SG H)|exact (no_e _ S1 H)|exact (FN _ S2 H)].
Qed.
Print Assumptions C83_exponent.

Example C83_number_case : show_g6 (dbl_of_int 1234567) = b "1.23457e+06" /\ denotes (b "1.23457e+06") 1234570 /\
  show_g6 (S754_finite true 6755399441055744 (-62)) = b "-0.00146484" /\ denotes (b "-0.00146484") (-146484 / 100000000) /\
  show_g6 (dbl_of_int 40) = b "40".
Proof.
  split; [vm_compute; reflexivity|]. split.
  { exists false, (b "1"), (b "23457"), (b "e+06"), 6. split; [discriminate|]. split; [reflexivity|]. split; [reflexivity|].
    split; [right; exists false, (b "06"); repeat split; discriminate|]. split; [reflexivity|].
    change (digits_val (b "1" ++ b "23457")) with 123457. change (bpow radix10 (6 - Z.of_nat (List.length (b "23457")))) with 10%R. lra. }
  split; [vm_compute; reflexivity|]. split; [|vm_compute; reflexivity].
  exists true, (b "0"), (b "00146484"), [], 0. split; [discriminate|]. split; [reflexivity|]. split; [reflexivity|].
  split; [left; split; reflexivity|]. split; [reflexivity|].
  change (digits_val (b "0" ++ b "00146484")) with 146484. change (bpow radix10 (0 - Z.of_nat (List.length (b "00146484")))) with (/ IZR 100000000)%R. lra.
Qed.

(** ** Names *)

(** The usual symbols, with a superscript sign for charged particles whatever the size of the
    charge: n, p, d, t, h and Greek alpha for nucleons and light nuclei, e, mu, tau and nu with
    the flavour for leptons, gamma for photons. *)
Definition nu : bytes := utf8 [206; 189].
Definition plus : bytes := utf8 [226; 129; 186].
Definition minus : bytes := utf8 [226; 129; 187].
Definition usual_symbols : list (Z * bytes) :=
  [(11, b "e" ++ minus); (-11, b "e" ++ plus); (13, utf8 [206; 188] ++ minus); (-13, utf8 [206; 188] ++ plus); (15, utf8 [207; 132] ++ minus); (-15, utf8 [207; 132] ++ plus);
   (12, nu ++ b "e"); (-12, b "anti-" ++ nu ++ b "e"); (14, nu ++ utf8 [206; 188]); (-14, b "anti-" ++ nu ++ utf8 [206; 188]);
   (16, nu ++ utf8 [207; 132]); (-16, b "anti-" ++ nu ++ utf8 [207; 132]); (22, utf8 [206; 179]); (2112, b "n"); (2212, b "p" ++ plus);
   (1000010020, b "d" ++ plus); (1000010030, b "t" ++ plus); (1000020030, b "h" ++ plus); (1000020040, utf8 [206; 177] ++ plus)].

Theorem C83_usual pid s : In (pid, s) usual_symbols -> particle_symbol pid = Ok s.
Proof.
  intros H. unfold usual_symbols in H. cbn [In] in H.
  repeat (destruct H as [H|H]; [assert (E1 : fst (pid, s) = pid) by reflexivity; assert (E2 : snd (pid, s) = s) by reflexivity; rewrite <- H in E1, E2; cbn [fst snd] in E1, E2; rewrite <- E1, <- E2; vm_compute; reflexivity|]).
  destruct H.
Qed.
Print Assumptions C83_usual.

(** No other particle with a code below those of nuclei has a symbol, and of the nuclei only the light
    ones above and those with the opposite codes. *)
Theorem C83_named pid s : particle_symbol pid = Ok s -> exists s', In (pid, s') usual_symbols \/ In (- pid, s') usual_symbols.
Proof.
  unfold particle_symbol. destruct (particle_charge pid); cbn [bind]; [|discriminate]. destruct (assoc (Z.abs pid) particle_symbols) as [u|] eqn:E; [|discriminate]. intros _.
  assert (A : In (Z.abs pid, u) particle_symbols) by (apply assoc_in; exact E).
  assert (H : forall q w, In (q, w) particle_symbols -> exists w', In (q, w') usual_symbols).
  { intros q w Q. unfold particle_symbols in Q. cbn [In] in Q.
    repeat (destruct Q as [Q|Q]; [assert (E1 : fst (q, w) = q) by reflexivity; rewrite <- Q in E1; cbn [fst] in E1; subst q; eexists; unfold usual_symbols; cbn [In]; tauto || (repeat (try (left; reflexivity); right))|]). destruct Q. }
  destruct (H _ _ A) as (w & W). exists w. destruct (Z.abs_spec pid) as [[_ e0]|[_ e0]]; rewrite e0 in W; [left|right]; exact W.
Qed.
Print Assumptions C83_named.

(** The description of scattering on electrons names the neutrino and the electron on both sides. *)
Theorem C83_electron_text pa s : In pa [12; -12; 14; -14; 16; -16] -> In (pa, s) usual_symbols ->
  electron_description pa = Ok (s ++ b " + e" ++ minus ++ b " --> " ++ s ++ b " + e" ++ minus).
Proof.
  intros H K. apply C83_usual in K. assert (E : particle_symbol ELECTRON = Ok (b "e" ++ minus)) by (vm_compute; reflexivity).
  assert (J : ejectile pa NuElectronElastic = Ok pa) by (cbn [In] in H; destruct H as [<-|[<-|[<-|[<-|[<-|[<-|[]]]]]]]; vm_compute; reflexivity).
  unfold electron_description. rewrite J. cbn [bind]. rewrite K. cbn [bind]. rewrite E. cbn [bind]. f_equal.
Qed.
Print Assumptions C83_electron_text.

(** ** Nuclides without padding *)

Lemma first_take ds r : forallb is_digit ds = true -> ds <> [] -> (forall c k, r = c :: k -> is_digit c = false) -> first_digits (ds ++ r) = ds.
Proof.
  intros D N R. assert (T : forall l, forallb is_digit l = true -> take_digits (l ++ r) = l).
  { induction l as [|c l IH]; intros H; cbn [app take_digits].
    - destruct r as [|c k]; [reflexivity|]. cbn [take_digits]. rewrite (R c k eq_refl). reflexivity.
    - cbn [forallb] in H. apply andb_prop in H as [H1 H2]. rewrite H1, IH by exact H2. reflexivity. }
  destruct ds as [|c ds]; [congruence|]. cbn [app first_digits]. pose proof D as D'. cbn [forallb] in D'. apply andb_prop in D' as [D' _]. rewrite D'. exact (T (c :: ds) D).
Qed.
Lemma after_skip ds r : forallb is_digit ds = true -> ds <> [] -> (forall c k, r = c :: k -> is_digit c = false) -> after_digits (ds ++ r) = r.
Proof.
  intros D N R. assert (T : forall l, forallb is_digit l = true -> skip_digits (l ++ r) = r).
  { induction l as [|c l IH]; intros H; cbn [app skip_digits].
    - destruct r as [|c k]; [reflexivity|]. cbn [skip_digits]. rewrite (R c k eq_refl). reflexivity.
    - cbn [forallb] in H. apply andb_prop in H as [H1 H2]. rewrite H1, IH by exact H2. reflexivity. }
  destruct ds as [|c ds]; [congruence|]. cbn [app after_digits]. cbn [forallb] in D. apply andb_prop in D as [D1 D2]. rewrite D1. exact (T ds D2).
Qed.

(** The name of a nuclide also comes out right from an identifier without padding. *)
Theorem C83_short_names z a s : element_symbol z = Ok s -> 1 <= a <= 999 -> nucid_to_symbol (digits a ++ to_uppercase s) = digits a ++ s.
Proof.
  intros Hs Ha. pose proof (symbols_ok z s Hs) as K.
  assert (U : forall c d, s = [c; d] -> is_digit (upper d) = false).
  { intros c d ->. unfold element_symbol in Hs. destruct (assoc z element_symbols) as [w|] eqn:E; [|discriminate]. assert (Hw : b w = [c; d]) by congruence. apply assoc_in in E.
    assert (T : forallb (fun p => match b (snd p) with [_; y] => negb (is_digit (upper y)) | _ => true end) element_symbols = true) by (vm_compute; reflexivity).
    rewrite forallb_forall in T. specialize (T _ E). cbn [snd] in T. rewrite Hw in T. apply negb_true_iff in T. exact T. }
  pose proof (digits_all a ltac:(lia)) as D. pose proof (digits_nonempty a ltac:(lia)) as N.
  assert (L : (List.length (digits a) <= 3)%nat).
  { destruct (Z_lt_le_dec a 10); [rewrite (digits_length a 1) by (cbn; lia); cbn; lia|]. destruct (Z_lt_le_dec a 100); [rewrite (digits_length a 2) by (cbn; lia); cbn; lia|].
    rewrite (digits_length a 3) by (cbn; lia). cbn. lia. }
  assert (NE : digits a <> []) by (intros E; rewrite E in N; cbn in N; lia). unfold nucid_to_symbol.
  destruct s as [|c [|d [|x y]]]; try discriminate K; cbn [symbol_ok] in K; repeat (apply andb_prop in K as [K ?]); unfold ceq in *;
    repeat match goal with H : Ascii.eqb _ _ = true |- _ => apply Ascii.eqb_eq in H | H : negb _ = true |- _ => apply negb_true_iff in H end.
  - change (to_uppercase [c]) with [upper c]. rewrite K.
    assert (R : forall q k, [c] = q :: k -> is_digit q = false) by (intros q k E; injection E as <- _; assumption).
    rewrite (first_take _ _ D NE R), (after_skip _ _ D NE R), app_length. cbn [List.length].
    destruct (Nat.eqb_spec (List.length (digits a) + 1) 5) as [E|_]; [lia|]. reflexivity.
  - change (to_uppercase [c; d]) with [upper c; upper d]. rewrite K.
    assert (R : forall q k, [c; upper d] = q :: k -> is_digit q = false) by (intros q k E; injection E as <- _; assumption).
    rewrite (first_take _ _ D NE R), (after_skip _ _ D NE R), app_length, lower_last_app. cbn [List.length].
    replace (lower (upper d)) with d by congruence.
    destruct (Nat.eqb_spec (List.length (digits a) + 2) 5) as [E|_].
    + unfold trim. change (digits a ++ [c; d]) with (digits a ++ [c] ++ [d]). rewrite app_assoc, ?trim_right_keep, <- ?app_assoc by assumption. cbn [app]. rewrite ?trim_left_digits by lia. rewrite ?app_assoc, ?trim_right_keep by assumption. rewrite <- ?app_assoc. reflexivity.
    + change (lower_last [c; upper d]) with [c; lower (upper d)]. replace (lower (upper d)) with d by congruence. reflexivity.
Qed.
Print Assumptions C83_short_names.

Example C83_short_case : nucid_to_symbol (b "40AR") = b "40Ar" /\ nucid_to_symbol (b "16O") = b "16O" /\ nucid_to_symbol (b "208PB") = b "208Pb".
Proof. vm_compute. repeat split. Qed.

(** ** Texts of particles and levels *)

(** A text shows a number to six digits. *)
Definition shows (t : bytes) (x : spec_float) : Prop := exists v, denotes t v /\ (Rabs (v - val x) <= / 2 * Rabs (val x) / 10 ^ 5)%R.

Lemma g6_shows x : finite_dbl x -> shows (show_g6 x) x.
Proof. intros H. destruct (C83_number x H) as (v & D & B & _). exists v. split; assumption. Qed.

(** A printed particle shows its code, energy, momentum, mass and charge, each in its place. *)
Theorem C83_particle p : finite_dbl (p_E p) -> finite_dbl (p_px p) -> finite_dbl (p_py p) -> finite_dbl (p_pz p) -> finite_dbl (p_mass p) ->
  exists code e x y z m q, show_int (p_pdg p) = code /\ shows e (p_E p) /\ shows x (p_px p) /\ shows y (p_py p) /\ shows z (p_pz p) /\ shows m (p_mass p) /\ show_int (p_charge p) = q /\
  particle_info p = b "  particle with PDG code = " ++ code ++ b " has total energy " ++ e ++ b " MeV," ++ [nl]
    ++ b "    3-momentum = (" ++ x ++ b " MeV, " ++ y ++ b " MeV, " ++ z ++ b " MeV)," ++ [nl]
    ++ b "    mass = " ++ m ++ b " MeV, and charge = " ++ q ++ b " times the proton charge." ++ [nl].
Proof.
  intros H1 H2 H3 H4 H5. do 7 eexists. split; [reflexivity|]. split; [exact (g6_shows _ H1)|]. split; [exact (g6_shows _ H2)|]. split; [exact (g6_shows _ H3)|].
  split; [exact (g6_shows _ H4)|]. split; [exact (g6_shows _ H5)|]. split; reflexivity.
Qed.
Print Assumptions C83_particle.

(** A printed event shows its number, the numbers of particles, the excitation energy, the
    spin, and then its particles: first all initial ones, then all final ones. *)
Theorem C83_event_text num ev : finite_dbl (e_Ex ev) -> 0 <= e_twoJ ev ->
  exists x, shows x (e_Ex ev) /\
  print_human_readable num ev = [nl] ++ b "*** MARLEY Event " ++ (if num <? 0 then [] else digits num ++ b " ") ++ b "has " ++ digits (Z.of_nat (List.length (e_init ev)))
    ++ b " initial particles and " ++ digits (Z.of_nat (List.length (e_fin ev))) ++ b " final particles. ***" ++ [nl]
    ++ b "The residual nucleus initially had excitation energy " ++ x ++ b " MeV and spin-parity "
    ++ spin_text (e_twoJ ev) ++ [if e_par ev then "+"%char else "-"%char] ++ [nl]
    ++ b "Initial particles" ++ [nl] ++ List.concat (map particle_info (e_init ev)) ++ b "Final particles" ++ [nl] ++ List.concat (map particle_info (e_fin ev)).
Proof.
  intros H J. exists (show_g6 (e_Ex ev)). split; [apply g6_shows; exact H|]. unfold print_human_readable. rewrite (C83_event_spin ev J), !flat_map_concat_map. unfold len.
  rewrite (show_nonneg (Z.of_nat (List.length (e_init ev)))), (show_nonneg (Z.of_nat (List.length (e_fin ev)))) by lia.
  destruct (Z.ltb_spec num 0) as [L|L]; destruct (Z.leb_spec 0 num) as [L'|L']; try lia.
  - rewrite <- !app_assoc. reflexivity.
  - rewrite (show_nonneg num) by lia. rewrite <- !app_assoc. reflexivity.
Qed.
Print Assumptions C83_event_text.

(** The text for a gamma ray: its energy, that of the level where it ends, its intensity. *)
Definition gamma_text (levels : list (nat * level)) (g : gamma) (t : bytes) : Prop :=
  exists a l, g_end g = Some a /\ In (a, l) levels /\
  t = b "  has a gamma with energy " ++ show_g6 (g_energy g) ++ b " MeV (transition to level at " ++ show_g6 (l_energy l) ++ b " MeV)" ++ [nl]
      ++ b "    and relative intensity " ++ show_g6 (g_ri g) ++ [nl].
Definition level_text (levels : list (nat * level)) (e : nat * level) (t : bytes) : Prop :=
  exists gs, Forall2 (gamma_text levels) (l_gammas (snd e)) gs /\
  t = b "Level at " ++ show_g6 (l_energy (snd e)) ++ b " MeV has spin-parity " ++ spin_parity_string (snd e) ++ [nl] ++ List.concat gs.

(** The report lists all levels in order, and with each level all its gamma rays in order,
    each with the energy of the level where it ends. *)
Theorem C83_report_text s t : print_report s = Ok t -> exists ts, t = List.concat ts /\ Forall2 (level_text (s_levels s)) (s_levels s) ts.
Proof.
  unfold print_report. generalize (s_levels s) at 1 3. intros all.
  assert (G : forall gs t, gamma_lines all gs = Ok t -> exists ts, t = List.concat ts /\ Forall2 (gamma_text all) gs ts).
  { induction gs as [|g gs IH]; cbn [gamma_lines]; intros u H; [exists []; split; [cbn; congruence|constructor]|].
    destruct (g_end g) as [a|] eqn:Ea; [|discriminate H]. destruct (find _ all) as [[a' l']|] eqn:F; [|discriminate H].
    apply find_some in F as [F1 F2]. cbn [fst] in F2. apply Nat.eqb_eq in F2. subst a'. cbn [snd] in H.
    destruct (gamma_lines all gs) as [r|]; [|discriminate H]. cbn [bind] in H. destruct (IH r eq_refl) as (ts & -> & HF).
    exists ((b "  has a gamma with energy " ++ show_g6 (g_energy g) ++ b " MeV (transition to level at " ++ show_g6 (l_energy l') ++ b " MeV)" ++ [nl]
      ++ b "    and relative intensity " ++ show_g6 (g_ri g) ++ [nl]) :: ts). split.
    - match type of H with Ok ?x = Ok ?y => assert (E : x = y) by congruence end. rewrite <- E. cbn [List.concat]. rewrite <- !app_assoc. reflexivity.
    - constructor; [|exact HF]. exists a, l'. split; [exact Ea|]. split; [exact F1|reflexivity]. }
  revert t. induction (s_levels s) as [|[i l] ls IH]; cbn [report_lines]; intros u H; [exists []; split; [cbn; congruence|constructor]|].
  destruct (gamma_lines all (l_gammas l)) as [gs|] eqn:E1; [|discriminate H]. cbn [bind] in H. destruct (report_lines all ls) as [r|]; [|discriminate H]. cbn [bind] in H.
  destruct (IH r eq_refl) as (ts & -> & HF). destruct (G _ _ E1) as (gt & -> & HG).
  exists ((b "Level at " ++ show_g6 (l_energy l) ++ b " MeV has spin-parity " ++ spin_parity_string l ++ [nl] ++ List.concat gt) :: ts). split.
  - match type of H with Ok ?x = Ok ?y => assert (E : x = y) by congruence end. rewrite <- E. cbn [List.concat]. rewrite <- !app_assoc. reflexivity.
  - constructor; [|exact HF]. exists gt. split; [exact HG|reflexivity].
Qed.
Print Assumptions C83_report_text.
