(** Theorems on ROOT files and the program marsum (C77). *)
From Coq Require Import List Ascii String ZArith Lia Bool Reals Lra.
From Coq Require Import Floats.SpecFloat.
From Flocq Require Import Core Relative.
From Verif Require Import Base Dbl DigitsProofs DblArith Json Stream Pdg Event EventSpec EventProofs HepNumProofs HepSpec HepProofs StreamProofs JsonSpec JsonProofs JsonRtProofs Output OutputSpec
  OutputProofs OutputReadProofs Main MainSpec MainProofs MarSum StructProofs EventThms OutputThms.
Import ListNotations.
Local Open Scope Z_scope.

(** ** Specification *)

(** What a reader hands out until it is exhausted: each event with the cross section known after it
    was read. *)
Inductive delivers : rreader -> list (spec_float * event) -> Prop :=
| Dend : forall r e r', rnext r = Ok (false, e, r') -> delivers r []
| Devent : forall r ev r' l, rnext r = Ok (true, ev, r') -> delivers r' l -> delivers r ((rflux r', ev) :: l).

(** An entry about the particle [p]. *)
Definition about (p : particle) (d : product) : Prop :=
  d_pdg d = p_pdg p /\ d_E d = p_E p /\ d_KE d = kinetic p /\ d_px d = p_px p /\ d_py d = p_py p /\ d_pz d = p_pz p.

(** The entry [w] about the event [ev] of a file with the cross section [x]. *)
Definition summarises (w : row) (xe : spec_float * event) : Prop :=
  let '(x, ev) := xe in
  (exists v, nth_error (e_init ev) 0 = Some v /\ about v (r_v w)) /\
  (exists t, nth_error (e_init ev) 1 = Some t /\ r_pdgt w = p_pdg t /\ r_Mt w = p_mass t) /\
  (exists l, nth_error (e_fin ev) 0 = Some l /\ about l (r_l w)) /\
  (exists r, nth_error (e_fin ev) 1 = Some r /\ about r (r_r w)) /\
  r_Ex w = e_Ex ev /\ r_twoJ w = e_twoJ ev /\ r_parity w = (if e_par ev then 1 else -1) /\
  r_np w = Z.of_nat (List.length (r_products w)) /\ Forall2 about (skipn 2 (e_fin ev)) (r_products w) /\
  r_xsec w = in_units x.

(** At least two particles before and after. *)
Definition two_two (ev : event) : Prop := (2 <= List.length (e_init ev))%nat /\ (2 <= List.length (e_fin ev))%nat.

(** The file [n] is an event file holding [l]. *)
Definition event_file (fs : store) (n : bytes) (l : list (spec_float * event)) : Prop :=
  exists r, ropen (fs n) = Ok r /\ delivers r l.

(** The user lets the program replace its output file. *)
Definition may_write (fs : store) (out input : bytes) : Prop := fs out = None \/ fst (prompt input) = true.

(** The summary file with these entries. *)
Definition summary (rows : list row) : option content := Some (CRoot (mkroot None None None None None (Some rows))).

(** ** Rows *)

Lemma about_of p : about p (product_of p).
Proof. repeat split. Qed.

Lemma row_two_two x ev : two_two ev -> exists w, row_of x ev = Ok w /\ summarises w (x, ev).
Proof.
  intros [H1 H2]. unfold row_of. destruct (e_init ev) as [|v [|t i]] eqn:EI; cbn [List.length] in H1; [lia|lia|].
  destruct (e_fin ev) as [|l [|r ps]] eqn:EF; cbn [List.length] in H2; [lia|lia|].
  eexists. split; [reflexivity|]. unfold summarises. rewrite EI, EF. cbn [nth_error r_v r_pdgt r_Mt r_l r_r r_Ex r_twoJ r_parity r_np r_products r_xsec skipn].
  split; [eexists; split; [reflexivity|apply about_of]|]. split; [eexists; repeat split|].
  split; [eexists; split; [reflexivity|apply about_of]|]. split; [eexists; split; [reflexivity|apply about_of]|].
  split; [reflexivity|]. split; [reflexivity|]. split; [reflexivity|].
  split; [unfold len; cbn [List.length]; rewrite map_length; lia|].
  split; [|reflexivity]. clear. induction ps; constructor; [apply about_of|assumption].
Qed.

Lemma row_not_two x ev w : row_of x ev = Ok w -> two_two ev.
Proof.
  unfold row_of, two_two. destruct (e_init ev) as [|v [|t i]]; try discriminate.
  destruct (e_fin ev) as [|l [|r ps]]; try discriminate. cbn [List.length]. lia.
Qed.

Lemma summarise_delivers r l : delivers r l -> forall fuel, (List.length l < fuel)%nat -> Forall (fun xe => two_two (snd xe)) l ->
  exists rows, summarise fuel r = Ok rows /\ Forall2 summarises rows l.
Proof.
  induction 1 as [r e r' H|r ev r' l H _ IH]; intros fuel HF HT.
  - destruct fuel; [lia|]. cbn [summarise]. rewrite H. cbn [bind]. exists []. split; [reflexivity|constructor].
  - destruct fuel; cbn [List.length] in HF; [lia|]. inversion HT as [|? ? T1 T2]; subst. cbn [summarise]. rewrite H. cbn [bind].
    destruct (row_two_two (rflux r') ev T1) as (w & -> & W). cbn [bind].
    destruct (IH fuel ltac:(lia) T2) as (rows & -> & R). cbn [bind]. exists (w :: rows). split; [reflexivity|]. constructor; assumption.
Qed.

Lemma Forall2_app' {A B} (P : A -> B -> Prop) l1 l2 k1 k2 : Forall2 P l1 k1 -> Forall2 P l2 k2 -> Forall2 P (l1 ++ l2) (k1 ++ k2).
Proof. intros H1 H2. apply Forall2_app; assumption. Qed.

Lemma summarise_all fuel fs ins ls : Forall2 (event_file fs) ins ls -> Forall (fun l => (List.length l < fuel)%nat) ls ->
  Forall (fun xe => two_two (snd xe)) (List.concat ls) ->
  exists rows, summarise_files fuel fs ins = Ok rows /\ Forall2 summarises rows (List.concat ls).
Proof.
  induction 1 as [|n l ins ls (r & E & D) _ IH]; intros HF HT; cbn [summarise_files List.concat].
  - exists []. split; [reflexivity|constructor].
  - cbn [List.concat] in HT. apply Forall_app in HT as [T1 T2]. inversion HF as [|? ? F1 F2]; subst. rewrite E. cbn [bind].
    destruct (summarise_delivers r l D fuel F1 T1) as (rows & -> & R). cbn [bind].
    destruct (IH F2 T2) as (rows' & -> & R'). cbn [bind]. exists (rows ++ rows'). split; [reflexivity|]. apply Forall2_app'; assumption.
Qed.

Lemma put_same n c fs : put n c fs n = Some c.
Proof. unfold put. replace (bytes_eqb n n) with true; [reflexivity|]. symmetry. apply bytes_eqb_eq. reflexivity. Qed.
Lemma put_other n c fs m : m <> n -> put n c fs m = fs m.
Proof. unfold put. intros H. destruct (bytes_eqb n m) eqn:E; [|reflexivity]. apply bytes_eqb_eq in E. congruence. Qed.

Lemma event_file_put fs out c ins ls : ~ In out ins -> Forall2 (event_file fs) ins ls -> Forall2 (event_file (put out c fs)) ins ls.
Proof.
  intros H F. induction F as [|n l ins ls (r & E & D) F IH]; constructor.
  - exists r. split; [|exact D]. rewrite put_other; [exact E|]. intros ->. apply H. left. reflexivity.
  - apply IH. intros HI. apply H. right. exact HI.
Qed.

Lemma may_write_go fs out input : may_write fs out input ->
  fst (match fs out with Some _ => prompt input | None => (true, input) end) = true.
Proof. intros [H|H]; destruct (fs out); try congruence; reflexivity. Qed.

(** The program lists every event of every input file, in the order of the files and of the events in
    them, and touches no file but its output. *)
Theorem C77_rows fuel out ins fs input ls : ins <> [] -> ~ In out ins -> may_write fs out input ->
  Forall2 (event_file fs) ins ls -> Forall (fun l => (List.length l < fuel)%nat) ls ->
  Forall (fun xe => two_two (snd xe)) (List.concat ls) ->
  exists rows fs' input', marsum fuel (out :: ins) fs input = (fs', input', Ok 0) /\
    fs' out = summary rows /\ Forall2 summarises rows (List.concat ls) /\ forall n, n <> out -> fs' n = fs n.
Proof.
  intros HN HI HM HE HF HT. unfold marsum. destruct ins as [|i ins]; [congruence|].
  pose proof (may_write_go _ _ _ HM) as G.
  destruct (match fs out with Some _ => prompt input | None => (true, input) end) as [go rest]. cbn [fst] in G. subst go. cbv iota.
  destruct (summarise_all fuel (put out (CRoot blank_root) fs) (i :: ins) ls) as (rows & -> & R);
    [apply event_file_put; assumption|exact HF|exact HT|].
  exists rows. do 2 eexists. split; [reflexivity|]. split; [apply put_same|]. split; [exact R|].
  intros n Hn. rewrite !put_other by exact Hn. reflexivity.
Qed.
Print Assumptions C77_rows.

(** ** Units *)

Lemma val_pos m e : val (S754_finite false m e) = (IZR (Z.pos m) * bpow radix2 e)%R.
Proof. reflexivity. Qed.

Lemma rel_mul a c : finite_dbl a -> finite_dbl c -> (2 <= val c <= bpow radix2 59)%R -> (bpow radix2 (-1000) <= Rabs (val a) <= bpow radix2 900)%R ->
  finite_dbl (SFmul 53 1024 a c) /\ (Rabs (val a) <= Rabs (val (SFmul 53 1024 a c)) <= Rabs (val a) * bpow radix2 60)%R /\
  exists d, (Rabs d <= / 2 ^ 53)%R /\ val (SFmul 53 1024 a c) = (val a * val c * (1 + d))%R.
Proof.
  intros Fa Fc [C1 C2] [A1 A2].
  assert (AC : Rabs (val c) = val c) by (apply Rabs_pos_eq; lra).
  assert (L : (bpow radix2 (-1022) <= Rabs (val a * val c))%R).
  { rewrite Rabs_mult, AC. pose proof (bpow_le radix2 (-1022) (-1000) ltac:(lia)) as B. pose proof (Rabs_pos (val a)). nra. }
  assert (U : (Rabs (val a * val c) <= huge)%R).
  { rewrite Rabs_mult, AC. unfold huge. pose proof (bpow_le radix2 (900 + 59) 1023 ltac:(lia)) as B. rewrite bpow_plus in B.
    apply Rle_trans with (2 := B). apply Rmult_le_compat; [apply Rabs_pos|lra|exact A2|exact C2]. }
  destruct (mul_finite a c Fa Fc U) as [F V]. split; [exact F|].
  assert (D : exists d, (Rabs d <= / 2 ^ 53)%R /\ val (SFmul 53 1024 a c) = (val a * val c * (1 + d))%R).
  { rewrite V. destruct (relative_error_N_FLT_ex radix2 (-1074) 53 eq_refl (fun n => negb (Z.even n)) _ L) as (d & D1 & D2).
    exists d. split; [|exact D2]. assert (D3 : (Rabs d <= / 2 * / IZR 4503599627370496)%R) by exact D1. lra. }
  split; [|exact D]. destruct D as (d & D1 & ->). rewrite !Rabs_mult, AC.
  assert (B : (1 / 2 <= Rabs (1 + d) <= 2)%R) by (unfold Rabs in *; repeat destruct (Rcase_abs _); lra).
  replace (bpow radix2 60) with (bpow radix2 59 * 2)%R by (change 60 with (59 + 1); rewrite bpow_plus; reflexivity).
  pose proof (Rabs_pos (val a)) as P. split.
  - apply Rle_trans with (Rabs (val a) * (2 * (1 / 2)))%R; [lra|]. rewrite Rmult_assoc. apply Rmult_le_compat_l; [exact P|]. apply Rmult_le_compat; lra.
  - rewrite Rmult_assoc. apply Rmult_le_compat_l; [exact P|]. apply Rmult_le_compat; lra.
Qed.

(** hbar c = 197.3269718 MeV fm, and 10^-42 cm^2 = 10^-16 fm^2. *)
Definition in_units_real (x : R) : R := (x * (1973269718 / 10000000) ^ 2 * 10 ^ 16)%R.

(** The entry for the cross section is the one of the reader in units of 10^-42 cm^2, up to rounding. *)
Theorem C77_units x : finite_dbl x -> (bpow radix2 (-1000) <= Rabs (val x) <= bpow radix2 700)%R ->
  finite_dbl (in_units x) /\ (Rabs (val (in_units x) - in_units_real (val x)) <= / 2 ^ 50 * Rabs (in_units_real (val x)))%R.
Proof.
  intros FX [X1 X2]. unfold in_units.
  assert (E1 : hbar_c2 = S754_finite false 5351588871800755 (-37)) by (vm_compute; reflexivity).
  assert (E2 : dec_to_dbl false 1 14 = S754_finite false 6400000000000000 (-6)) by (vm_compute; reflexivity).
  assert (E3 : dec_to_dbl false 1 2 = S754_finite false 7036874417766400 (-46)) by (vm_compute; reflexivity).
  rewrite E1, E2, E3.
  assert (V1 : val (S754_finite false 5351588871800755 (-37)) = (5351588871800755 / 137438953472)%R)
    by (rewrite val_pos; change (bpow radix2 (-37)) with (/ IZR 137438953472)%R; lra).
  assert (V2 : val (S754_finite false 6400000000000000 (-6)) = 100000000000000%R)
    by (rewrite val_pos; change (bpow radix2 (-6)) with (/ IZR 64)%R; lra).
  assert (V3 : val (S754_finite false 7036874417766400 (-46)) = 100%R)
    by (rewrite val_pos; change (bpow radix2 (-46)) with (/ IZR 70368744177664)%R; lra).
  assert (B59 : bpow radix2 59 = 576460752303423488%R) by reflexivity.
  pose proof (bpow_le radix2 700 900 ltac:(lia)) as L0.
  destruct (rel_mul x (S754_finite false 5351588871800755 (-37))) as (F1 & [S1 T1] & d1 & D1 & R1);
    [exact FX|split; reflexivity|rewrite V1, B59; lra|lra|].
  set (y1 := SFmul 53 1024 x _) in *.
  assert (U1 : (Rabs (val y1) <= bpow radix2 760)%R).
  { apply Rle_trans with (1 := T1). change 760 with (700 + 60). rewrite bpow_plus. apply Rmult_le_compat_r; [apply bpow_ge_0|exact X2]. }
  pose proof (bpow_le radix2 760 900 ltac:(lia)) as L1.
  destruct (rel_mul y1 (S754_finite false 6400000000000000 (-6))) as (F2 & [S2 T2] & d2 & D2 & R2);
    [exact F1|split; reflexivity|rewrite V2, B59; lra|lra|].
  set (y2 := SFmul 53 1024 y1 _) in *.
  assert (U2 : (Rabs (val y2) <= bpow radix2 820)%R).
  { apply Rle_trans with (1 := T2). change 820 with (760 + 60). rewrite bpow_plus. apply Rmult_le_compat_r; [apply bpow_ge_0|exact U1]. }
  pose proof (bpow_le radix2 820 900 ltac:(lia)) as L2.
  destruct (rel_mul y2 (S754_finite false 7036874417766400 (-46))) as (F3 & _ & d3 & D3 & R3);
    [exact F2|split; reflexivity|rewrite V3, B59; lra|lra|].
  set (y3 := SFmul 53 1024 y2 _) in *. split; [exact F3|].
  rewrite R3, R2, R1, V1, V2, V3.
  set (d0 := (5351588871800755 / 137438953472 / (1973269718 / 10000000) ^ 2 - 1)%R).
  assert (D0 : (Rabs d0 <= / 2 ^ 51)%R) by (unfold d0; apply Rabs_le; lra).
  assert (K : (5351588871800755 / 137438953472 = (1973269718 / 10000000) ^ 2 * (1 + d0))%R) by (unfold d0; field).
  rewrite K. unfold in_units_real.
  set (z := (val x * (1973269718 / 10000000) ^ 2 * 10 ^ 16)%R).
  replace (val x * ((1973269718 / 10000000) ^ 2 * (1 + d0)) * (1 + d1) * 100000000000000 * (1 + d2) * 100 * (1 + d3) - z)%R
    with (((1 + d0) * ((1 + d1) * ((1 + d2) * (1 + d3))) - 1) * z)%R by (unfold z; ring).
  rewrite Rabs_mult. apply Rmult_le_compat_r; [apply Rabs_pos|].
  clearbody d0. clear - D0 D1 D2 D3.
  apply Rabs_le. apply Rabs_le_inv in D0, D1, D2, D3.
  set (u := (/ 2 ^ 53)%R) in *. assert (HU : (0 < u <= / 1000000)%R) by (unfold u; lra).
  replace (/ 2 ^ 51)%R with (4 * u)%R in D0 by (unfold u; lra). replace (/ 2 ^ 50)%R with (8 * u)%R by (unfold u; lra).
  clearbody u.
  assert (P : forall p q a b : R, (Rabs (p - 1) <= a * u)%R -> (Rabs (q - 1) <= b * u)%R -> (0 <= a <= 100)%R -> (0 <= b <= 100)%R ->
    (Rabs (p * q - 1) <= (a + b + / 100) * u)%R).
  { clear - HU. intros p q a b0 Hp Hq A B. replace (p * q - 1)%R with ((p - 1) + (q - 1) + (p - 1) * (q - 1))%R by ring.
    eapply Rle_trans; [apply Rabs_triang|]. rewrite Rabs_mult. pose proof (Rabs_triang (p - 1) (q - 1)).
    pose proof (Rmult_le_compat _ _ _ _ (Rabs_pos (p - 1)) (Rabs_pos (q - 1)) Hp Hq) as M.
    assert (a * u * (b0 * u) <= / 100 * u)%R.
    { replace (a * u * (b0 * u))%R with ((a * b0 * u) * u)%R by ring. apply Rmult_le_compat_r; [lra|].
      assert (a * b0 <= 10000)%R by nra. nra. }
    lra. }
  assert (Q : forall d, (- u <= d <= u)%R -> (Rabs (1 + d - 1) <= 1 * u)%R) by (intros d Hd; apply Rabs_le; lra).
  pose proof (P _ _ _ _ (Q _ D2) (Q _ D3) ltac:(lra) ltac:(lra)) as P1.
  pose proof (P _ _ _ _ (Q _ D1) P1 ltac:(lra) ltac:(lra)) as P2.
  assert (Q0 : (Rabs (1 + d0 - 1) <= 4 * u)%R) by (apply Rabs_le; lra).
  pose proof (P _ _ _ _ Q0 P2 ltac:(lra) ltac:(lra)) as P3. apply Rabs_le_inv in P3. lra.
Qed.
Print Assumptions C77_units.

(** The kinetic energy is the difference of energy and mass, rounded, and never negative. *)
Theorem C77_kinetic p : finite_dbl (p_E p) -> finite_dbl (p_mass p) -> (Rabs (val (p_E p) - val (p_mass p)) <= huge)%R ->
  finite_dbl (kinetic p) /\ val (kinetic p) = Rmax 0 (rnd (val (p_E p) - val (p_mass p))).
Proof.
  intros FE FM B. destruct (sub_finite _ _ FE FM B) as [F V]. unfold kinetic. cbv zeta.
  assert (F0 : finite_dbl dbl_zero) by (split; reflexivity).
  assert (V0 : val dbl_zero = 0%R) by reflexivity.
  destruct (SFltb _ _) eqn:E.
  - split; [exact F0|]. apply (ltb_finite _ _ F F0) in E. rewrite V0, V in E. rewrite V0, Rmax_left by lra. reflexivity.
  - split; [exact F|]. rewrite V. rewrite Rmax_right; [reflexivity|]. apply Rnot_lt_le. intros L.
    rewrite <- V, <- V0 in L. apply (ltb_finite _ _ F F0) in L. congruence.
Qed.
Print Assumptions C77_kinetic.

(** ** Files that MARLEY wrote *)

Definition one_xsec (r : reader) : Prop := match r with RHep _ _ => False | _ => True end.

Lemma next_one_xsec r ok ev r' : one_xsec r -> next_event r = Ok (ok, ev, r') -> one_xsec r' /\ reader_flux r' = reader_flux r.
Proof.
  destruct r as [l pos x|[s|] x|s x]; cbn [one_xsec next_event]; try tauto; intros _.
  - destruct (Nat.eqb pos _); [intros H; injection H as _ _ <-; split; [exact I|reflexivity]|]. destruct (nth_error l pos); [|discriminate].
    destruct (event_of_json j); [|discriminate]. cbn [bind]. intros H; injection H as _ _ <-; split; [exact I|reflexivity].
  - destruct (read_event s) as [[[e t]|]|]; cbn [bind]; try discriminate; intros H; injection H as _ _ <-; split; try exact I; reflexivity.
  - intros H; injection H as _ _ <-; split; [exact I|reflexivity].
Qed.

Lemma calls_delivers evs : forall r r', calls (S (List.length evs)) r = Ok (map (pair true) evs ++ [(false, empty_event)], r') ->
  one_xsec r -> delivers (RText r) (map (pair (reader_flux r)) evs).
Proof.
  induction evs as [|ev evs IH]; intros r r' H O.
  - cbn [List.length map app] in *. cbn [calls] in H. destruct (next_event r) as [[[ok e] r1]|] eqn:E; [|discriminate H]. cbn [bind] in H.
    injection H as -> _ _. eapply Dend. cbn [rnext]. rewrite E. reflexivity.
  - cbn [List.length] in H. set (n := S (List.length evs)) in *. cbn [calls map app] in H. destruct (next_event r) as [[[ok e] r1]|] eqn:E; [|discriminate H].
    cbn [bind] in H. destruct (calls n r1) as [[l r2]|] eqn:EC; [|discriminate H]. cbn [bind] in H. injection H as -> -> -> ->.
    destruct (next_one_xsec _ _ _ _ O E) as [O1 X1]. cbn [map]. rewrite <- X1 at 1. change (reader_flux r1) with (rflux (RText r1)).
    eapply Devent; [cbn [rnext]; rewrite E; reflexivity|]. rewrite <- X1. eapply IH; [exact EC|exact O1].
Qed.

Lemma hep_delivers x : hep_dbl x -> forall evs w y, forallb is_space w = true -> (evs = [] -> w = [nl]) -> Forall hep_good evs ->
  exists l, Forall2 (fun ev xe => near_dbl x (fst xe) /\ event_rel near_dbl ev (snd xe)) evs l /\
    delivers (RText (RHep (Some (w ++ flat_map (print_hepevt 0 x) evs)) y)) l.
Proof.
  intros Hx. induction evs as [|ev evs IH]; intros w y Hw HE H.
  - exists []. split; [constructor|]. rewrite (HE eq_refl). eapply Dend. reflexivity.
  - inversion H as [|? ? (H1 & H2 & H3) H4]; subst.
    destruct (hep_roundtrip w 0 x ev (flat_map (print_hepevt 0 x) evs) Hw ltac:(split; vm_compute; congruence) H3 H1 Hx H2)
      as (ev' & x' & E1 & E2 & E3).
    destruct (IH [nl] x' eq_refl (fun _ => eq_refl) H4) as (l & F & D). exists ((x', ev') :: l). split; [constructor; [split; assumption|exact F]|].
    change x' with (rflux (RText (RHep (Some ([nl] ++ flat_map (print_hepevt 0 x) evs)) x'))) at 1. eapply Devent; [|exact D].
    cbn [rnext next_event flat_map]. rewrite E1. reflexivity.
Qed.

Lemma near_refl x : finite_dbl x -> near_dbl x x.
Proof. intros [H1 H2]. apply same_near; [left; reflexivity|]. destruct x; try discriminate H1; exact I. Qed.

(** An ASCII file delivers exactly the events written to it, each with the cross section written. *)
Theorem C77_ascii x evs fs n : finite_dbl x -> Forall good_event evs -> evs <> [] ->
  fs n = Some (CText (show_e17 x ++ nl :: events_text evs)) -> event_file fs n (map (pair x) evs).
Proof.
  intros Hx Hg Hne E. destruct (reader_ascii x evs 0 Hx Hg Hne) as (r & r' & E1 & E2 & E3). exists (RText r). split.
  - cbn [ropen]. rewrite E. cbn [ropen]. rewrite E1. reflexivity.
  - rewrite <- E2. apply calls_delivers with r'; [replace (S (List.length evs)) with (List.length evs + 1)%nat by lia; exact E3|].
    assert (HR : rd_dbl (show_e17 x ++ nl :: events_text evs) = Some (x, nl :: events_text evs))
      by (apply (rd_dbl_show [] x); [reflexivity|exact Hx|reflexivity]).
    unfold open_reader in E1. destruct (rd_dbl_not_brace _ _ _ HR) as (c & u & EU & Ec). rewrite EU, Ec in E1.
    assert (EA : ascii_ok (show_e17 x ++ nl :: events_text evs) = true).
    { unfold ascii_ok. rewrite HR. destruct evs as [|ev evs]; [congruence|]. inversion Hg; subst.
      change (nl :: events_text (ev :: evs)) with ([nl] ++ print_event ev ++ events_text evs).
      rewrite read_event_print by (try reflexivity; assumption). reflexivity. }
    rewrite EA, HR in E1. injection E1 as <-. exact I.
Qed.
Print Assumptions C77_ascii.

(** A file that a run of the generator left, in any of the text formats, delivers the events of the
    run, each with the cross section of the run, up to the precision of the format. *)
Theorem C77_files (C : Type) (flux : C -> spec_float) config g k x evs f d fs n :
  holds flux config g k x evs f d -> x = flux (g_cfg g) -> finite_dbl x -> hep_dbl x ->
  Forall good_event evs -> Forall hep_good evs -> evs <> [] ->
  fs n = match d with Some s => Some (CText s) | None => None end ->
  exists l, event_file fs n l /\ Forall2 (fun ev xe => near_dbl x (fst xe) /\ event_rel near_dbl ev (snd xe)) evs l.
Proof.
  intros Hh -> Hx Hhx Hg Hhep Hne E.
  assert (HD : forall s r evs' r', d = Some s -> open_reader s = Ok r -> one_xsec r -> near_dbl (flux (g_cfg g)) (reader_flux r) ->
    Forall2 (event_rel near_dbl) evs evs' -> calls (S (List.length evs)) r = Ok (map (pair true) evs' ++ [(false, empty_event)], r') ->
    exists l, event_file fs n l /\ Forall2 (fun ev xe => near_dbl (flux (g_cfg g)) (fst xe) /\ event_rel near_dbl ev (snd xe)) evs l).
  { intros s r evs' r' -> E1 O E2 E3 E4. exists (map (pair (reader_flux r)) evs'). split.
    - exists (RText r). split; [rewrite E; cbn [ropen]; rewrite E1; reflexivity|]. apply calls_delivers with r'; [|exact O].
      assert (L : List.length evs = List.length evs') by (clear - E3; induction E3; cbn [List.length]; congruence). rewrite <- L. exact E4.
    - clear - E2 E3. induction E3; constructor; [split; assumption|assumption]. }
  pose proof (C19_run_then_read C flux config g k _ evs f d Hh eq_refl Hx Hhx Hg Hhep Hne) as (s & r & evs' & r' & -> & E1 & E2 & E3 & E4).
  destruct f; cbn [holds] in Hh.
  - contradiction.
  - injection Hh as ->. destruct (hep_delivers _ Hhx evs [] (reader_flux r) eq_refl ltac:(congruence) Hhep) as (l & F & D).
    exists l. split; [|exact F]. exists (RText r). split; [rewrite E; cbn [ropen]; rewrite E1; reflexivity|]. cbn [app] in D.
    destruct evs as [|ev evs]; [congruence|]. inversion Hhep as [|? ? (H1 & H2 & H3) H4]; subst.
    unfold open_reader in E1. cbn [flat_map] in E1. destruct (hep_not_brace (flux (g_cfg g)) ev (flat_map (print_hepevt 0 (flux (g_cfg g))) evs)) as (u & Eu).
    rewrite Eu in E1. change (ceq "0" "{") with false in E1. cbv iota in E1.
    rewrite hep_not_ascii in E1; [|exact H1|exact H3|apply nuclear_init; exact H2].
    destruct (hep_ok _) as [[|]|]; cbn [bind] in E1; try discriminate E1. injection E1 as <-. exact D.
  - destruct Hh as (s' & l & Es & (Hhd & Hcl) & Hst). injection Es as <-.
    refine (HD s r evs' r' eq_refl E1 _ E2 E3 E4). unfold open_reader in E1. destruct s as [|c u]; [discriminate Hhd|]. injection Hhd as ->.
    change (skip_sp ("{"%char :: u)) with ("{"%char :: u) in E1. change (ceq "{" "{") with true in E1. cbv iota in E1. unfold init_json in E1.
    destruct (load _); cbn [bind] in E1; [|discriminate E1]. injection E1 as <-. exact I.
  - injection Hh as ->. destruct (C77_ascii _ evs fs n Hx Hg Hne E) as (q & Q1 & Q2).
    exists (map (pair (flux (g_cfg g))) evs). split; [exists q; split; assumption|]. clear - Hg Hx.
    induction Hg as [|ev evs [Hok _] _ IH]; constructor; [|exact IH]. cbn [fst snd]. split; [apply near_refl; exact Hx|].
    destruct Hok as (H1 & H2 & H3 & H4).
    assert (HP : forall ps, Forall (particle_ok finite_dbl) ps -> Forall2 (particle_rel near_dbl) ps ps).
    { intros ps HF. induction HF as [|p ps (P1 & P2 & P3 & P4 & P5 & P6 & P7) _ IHp]; constructor; [|exact IHp].
      unfold particle_rel. repeat split; apply near_refl; assumption. }
    unfold event_rel. split; [apply HP; exact H1|]. split; [apply HP; exact H2|].
    split; [apply near_refl; exact H3|]. split; reflexivity.
Qed.
Print Assumptions C77_files.

(** ** ROOT files *)

(** A run writing to a ROOT file: the tree after the events, and the file after close. *)
Definition root_events (evs : list event) (tree : list event) : list event := fold_left (fun t ev => root_write ev t) evs tree.
Definition root_run (md : mode) (force answer : bool) (config : json) (state : bytes) (seed : Z) (flux : spec_float) (evs : list event)
  (c : option content) : res rootfile :=
  do (m, r, tree) <- root_open md force answer c;
  Ok (root_close config state seed flux r (root_events evs tree)).

Lemma root_events_app evs : forall tree, root_events evs tree = tree ++ evs.
Proof.
  induction evs as [|ev evs IH]; intros tree; cbn [root_events fold_left]; [rewrite app_nil_r; reflexivity|].
  change (fold_left (fun t e => root_write e t) evs (root_write ev tree)) with (root_events evs (root_write ev tree)).
  rewrite IH. unfold root_write. rewrite <- app_assoc. reflexivity.
Qed.

Lemma root_reader_delivers l x : forall pre, delivers (RRoot (pre ++ l) (List.length pre) x) (map (pair x) l).
Proof.
  induction l as [|ev l IH]; intros pre.
  - eapply Dend. cbn [rnext]. replace (nth_error (pre ++ []) (List.length pre)) with (@None event); [reflexivity|].
    symmetry. apply nth_error_None. rewrite app_nil_r. lia.
  - cbn [map]. change x with (rflux (RRoot (pre ++ ev :: l) (S (List.length pre)) x)) at 2. eapply Devent.
    + cbn [rnext]. rewrite nth_error_app2, Nat.sub_diag by lia. reflexivity.
    + specialize (IH (pre ++ [ev])). rewrite <- app_assoc, app_length, Nat.add_1_r in IH. exact IH.
Qed.

(** The events a ROOT file holds for the reader and for a run that resumes it. *)
Definition root_holds (c : option content) (config : json) (state : bytes) (x : spec_float) (l : list event) : Prop :=
  exists r, c = Some (CRoot r) /\ rt_events r = Some l /\ rt_flux r = Some x /\
    rt_config r = Some (dump None config) /\ rt_state r = Some state.

(** A run that overwrites leaves its own events only; one that resumes adds them to those of the file.
    It starts with the configuration and the state of the generator that the previous run left, and
    with the number of events in the file. *)
Theorem C77_root_fresh force answer config state seed x evs c : c = None \/ force = true \/ answer = true ->
  exists r, root_run Overwrite force answer config state seed x evs c = Ok r /\ root_holds (Some (CRoot r)) config state x evs.
Proof.
  intros H. unfold root_run, root_open.
  assert (E : match c with Some _ => if force || answer then Ok (Overwrite, blank_root, []) else
      match c with Some (CRoot r) => match rt_events r with Some l => Ok (Resume, r, l) | None => Er MarleyErr end | _ => Er MarleyErr end
    | None => Ok (Overwrite, blank_root, []) end = Ok (A := mode * rootfile * list event) (Overwrite, blank_root, [])).
  { destruct c; [|reflexivity]. destruct H as [H|[->| ->]]; [discriminate H|reflexivity|]. rewrite orb_true_r. reflexivity. }
  rewrite E. cbn [bind]. eexists. split; [reflexivity|]. rewrite root_events_app. eexists. split; [reflexivity|]. repeat split.
Qed.
Print Assumptions C77_root_fresh.

Theorem C77_root_resume md force answer config0 state0 x0 l config state seed x evs c :
  root_holds c config0 state0 x0 l -> (md = Resume \/ md = Overwrite /\ force = false /\ answer = false) ->
  (exists r, root_open md force answer c = Ok (Resume, r, l) /\
     root_resume Resume r l = (do j <- load (dump None config0); Ok (j, state0, Z.of_nat (List.length l)))) /\
  exists r, root_run md force answer config state seed x evs c = Ok r /\ root_holds (Some (CRoot r)) config state x (l ++ evs).
Proof.
  intros (r & -> & E1 & E2 & E3 & E4) H.
  assert (EO : root_open md force answer (Some (CRoot r)) = Ok (Resume, r, l)).
  { unfold root_open. rewrite E1. destruct H as [->|(-> & -> & ->)]; reflexivity. }
  split.
  - exists r. split; [exact EO|]. unfold root_resume. rewrite E3, E4. reflexivity.
  - unfold root_run. rewrite EO. cbn [bind]. eexists. split; [reflexivity|]. rewrite root_events_app. eexists. split; [reflexivity|]. repeat split.
Qed.
Print Assumptions C77_root_resume.

(** Such a file delivers its events, each with the cross section of the last run. *)
Theorem C77_root_read fs n config state x l : root_holds (fs n) config state x l -> event_file fs n (map (pair x) l).
Proof.
  intros (r & E & E1 & E2 & _). exists (RRoot l 0 x). split; [rewrite E; cbn [ropen]; rewrite E1, E2; reflexivity|].
  exact (root_reader_delivers l x []).
Qed.
Print Assumptions C77_root_read.

(** Anything but a ROOT file with events cannot be resumed, and mode "append" is refused: nothing is
    written. *)
Theorem C77_root_refused md force answer config state seed x evs c :
  (forall r, c = Some (CRoot r) -> rt_events r = None) ->
  (md = Append \/ md = Resume \/ md = Overwrite /\ c <> None /\ force = false /\ answer = false) ->
  root_run md force answer config state seed x evs c = Er MarleyErr.
Proof.
  intros HC H. unfold root_run, root_open.
  assert (E : match c with Some (CRoot r) => match rt_events r with Some l => Ok (Resume, r, l) | None => Er MarleyErr end | _ => Er MarleyErr end
    = Er (A := mode * rootfile * list event) MarleyErr).
  { destruct c as [[s|r]|]; try reflexivity. rewrite (HC r eq_refl). reflexivity. }
  rewrite E. destruct H as [->|[->|(-> & HN & -> & ->)]]; [reflexivity|destruct c; reflexivity|].
  destruct c; [reflexivity|congruence].
Qed.
Print Assumptions C77_root_refused.

(** ** What ends the program early *)

(** Too few arguments, or an output file that exists and no yes: nothing happens. *)
Theorem C77_declined fuel args fs input :
  (List.length args < 2)%nat \/ (exists out ins, args = out :: ins /\ ~ may_write fs out input) ->
  exists input', marsum fuel args fs input = (fs, input', Ok 0).
Proof.
  intros [H|(out & ins & -> & H)].
  - destruct args as [|a [|c args]]; cbn [List.length] in H; try lia; eexists; reflexivity.
  - unfold marsum. destruct ins as [|i ins]; [eexists; reflexivity|]. unfold may_write in H.
    destruct (fs out) as [c|]; [|exfalso; apply H; left; reflexivity].
    destruct (prompt input) as [go rest]. cbn [fst] in H. destruct go; [exfalso; apply H; right; reflexivity|]. eexists. reflexivity.
Qed.
Print Assumptions C77_declined.

(** Otherwise the program either writes a complete summary, or is ended by an exception after its
    output was replaced by a file without entries; it never writes a part. *)
Theorem C77_failed fuel out ins fs input : ins <> [] -> may_write fs out input ->
  exists fs' input' v, marsum fuel (out :: ins) fs input = (fs', input', v) /\ (forall n, n <> out -> fs' n = fs n) /\
    match v with
    | Ok s => s = 0 /\ (exists rows, fs' out = summary rows) /\ ~ In out ins /\ Forall (fun n => exists r, ropen (fs n) = Ok r) ins
    | Er _ => fs' out = Some (CRoot blank_root)
    end.
Proof.
  intros HN HM. unfold marsum. destruct ins as [|i ins]; [congruence|]. pose proof (may_write_go _ _ _ HM) as G.
  destruct (match fs out with Some _ => prompt input | None => (true, input) end) as [go rest]. cbn [fst] in G. subst go. cbv iota.
  destruct (summarise_files fuel (put out (CRoot blank_root) fs) (i :: ins)) as [rows|e] eqn:E; do 3 eexists; (split; [reflexivity|]).
  - split; [intros n Hn; rewrite !put_other by exact Hn; reflexivity|]. split; [reflexivity|]. split; [exists rows; apply put_same|].
    assert (G : Forall (fun n => exists r, ropen (put out (CRoot blank_root) fs n) = Ok r) (i :: ins)).
    { clear HN HM. revert rows E. induction (i :: ins) as [|n l IH]; intros rows E; constructor; cbn [summarise_files] in E;
      destruct (ropen (put out (CRoot blank_root) fs n)) as [r|]; cbn [bind] in E; try discriminate E; [eexists; reflexivity|].
      destruct (summarise fuel r); cbn [bind] in E; [|discriminate E]. destruct (summarise_files _ _ l) eqn:E2; cbn [bind] in E; [|discriminate E].
      eapply IH. reflexivity. }
    assert (HI : ~ In out (i :: ins)).
    { intros HI. rewrite Forall_forall in G. destruct (G out HI) as (r & Hr). rewrite put_same in Hr. discriminate Hr. }
    split; [exact HI|]. rewrite Forall_forall in *. intros n Hn. destruct (G n Hn) as (r & Hr). exists r.
    rewrite put_other in Hr; [exact Hr|]. intros ->. apply HI. exact Hn.
  - split; [intros n Hn; rewrite put_other by exact Hn; reflexivity|]. apply put_same.
Qed.
Print Assumptions C77_failed.

(** So a name that is not an event file costs the user the previous contents of the output file, and
    so does naming it among the inputs. *)
Theorem C77_lost_refuted fuel out ins fs input : may_write fs out input -> (In out ins \/ exists n, In n ins /\ fs n = None) ->
  exists fs' input' e, marsum fuel (out :: ins) fs input = (fs', input', Er e) /\ fs' out = Some (CRoot blank_root).
Proof.
  intros HM H. assert (HN : ins <> []) by (intros ->; destruct H as [[]|(n & [] & _)]).
  destruct (C77_failed fuel out ins fs input HN HM) as (fs' & input' & v & E & _ & K). destruct v as [s|e].
  - exfalso. destruct K as (_ & _ & K1 & K2). destruct H as [H|(n & Hn & H)]; [exact (K1 H)|].
    rewrite Forall_forall in K2. destruct (K2 n Hn) as (r & Hr). rewrite H in Hr. discriminate Hr.
  - exists fs', input', e. split; assumption.
Qed.
Print Assumptions C77_lost_refuted.

(** Opening an event file leaves the logging of errors switched off; it is restored only if the
    contents are in none of the formats. *)
Theorem C77_logging_refuted log s r : open_reader s = Ok r -> log_after log s = false.
Proof.
  unfold open_reader, log_after. destruct (skip_sp s) as [|c u]; [discriminate|]. destruct (ceq c "{"); [reflexivity|].
  destruct (ascii_ok s); [reflexivity|]. destruct (hep_ok s) as [[|]|]; cbn [bind]; try discriminate; reflexivity.
Qed.
Print Assumptions C77_logging_refuted.

(** ** Termination *)

Definition left_in (r : rreader) : nat :=
  match r with
  | RText (RJson l pos _) => List.length l - pos
  | RText (RAscii (Some s) _) | RText (RHep (Some s) _) => List.length s
  | RText _ => 0
  | RRoot l pos _ => List.length l - pos
  end.

Lemma read_particle_len s p t : read_particle s = Some (p, t) -> (List.length t <= List.length s)%nat.
Proof.
  unfold read_particle. destruct (rd_int s) as [[? u1]|] eqn:E1; cbn [obind]; [|discriminate].
  destruct (rd_dbl u1) as [[? u2]|] eqn:E2; cbn [obind]; [|discriminate]. destruct (rd_dbl u2) as [[? u3]|] eqn:E3; cbn [obind]; [|discriminate].
  destruct (rd_dbl u3) as [[? u4]|] eqn:E4; cbn [obind]; [|discriminate]. destruct (rd_dbl u4) as [[? u5]|] eqn:E5; cbn [obind]; [|discriminate].
  destruct (rd_dbl u5) as [[? u6]|] eqn:E6; cbn [obind]; [|discriminate]. destruct (rd_int u6) as [[? u7]|] eqn:E7; cbn [obind]; [|discriminate].
  intros H. injection H as _ <-. apply rd_num_len in E1, E7. apply rd_dbl_len in E2, E3, E4, E5, E6. lia.
Qed.

Lemma read_particles_len n : forall s l t, read_particles n s = Ok (l, t) -> (List.length t <= List.length s)%nat.
Proof.
  induction n as [|n IH]; intros s l t; cbn [read_particles]; [intros H; injection H as _ <-; lia|].
  destruct (read_particle s) as [[p s1]|] eqn:E; [|discriminate]. destruct (read_particles n s1) as [[l' t']|] eqn:E2; cbn [bind]; [|discriminate].
  intros H. injection H as _ <-. apply read_particle_len in E. apply IH in E2. lia.
Qed.

Lemma read_event_len s ev t : read_event s = Ok (Some (ev, t)) -> (List.length t < List.length s)%nat.
Proof.
  unfold read_event, read_header. destruct (rd_int s) as [[ni s1]|] eqn:E1; cbn [obind bind]; [|discriminate].
  destruct (rd_int s1) as [[nf s2]|] eqn:E2; cbn [obind bind]; [|discriminate]. destruct (rd_dbl s2) as [[ex s3]|] eqn:E3; cbn [obind bind]; [|discriminate].
  destruct (rd_int s3) as [[tj s4]|] eqn:E4; cbn [obind bind]; [|discriminate]. unfold rd_parity.
  destruct (rd_char s4) as [[c s5]|] eqn:E5; cbn [bind]; [|discriminate]. destruct (parity_of_char c); cbn [bind]; [|discriminate].
  destruct (ni <? 2); [discriminate|]. destruct (nf <? 2); [discriminate|].
  destruct (read_particles (Z.to_nat ni) s5) as [[li s6]|] eqn:E6; cbn [bind]; [|discriminate].
  destruct (read_particles (Z.to_nat nf) s6) as [[lf s7]|] eqn:E7; cbn [bind]; [|discriminate].
  intros H. injection H as _ <-. apply rd_num_len in E1, E2, E4. apply rd_dbl_len in E3. apply rd_char_len in E5. apply read_particles_len in E6, E7. lia.
Qed.

Lemma hep_entry_len s h t : read_hep_entry s = Some (h, t) -> (List.length t <= List.length s)%nat.
Proof.
  unfold read_hep_entry. intros H.
  repeat match type of H with
  | obind (rd_int ?u) _ = _ => let E := fresh in let v := fresh "v" in let x := fresh in destruct (rd_int u) as [[x v]|] eqn:E; cbn [obind] in H; [apply rd_num_len in E|discriminate H]
  | obind (rd_dbl ?u) _ = _ => let E := fresh in let v := fresh "v" in let x := fresh in destruct (rd_dbl u) as [[x v]|] eqn:E; cbn [obind] in H; [apply rd_dbl_len in E|discriminate H]
  end.
  injection H as _ <-. lia.
Qed.

Lemma hep_loop_len n : forall st s st' t, hep_loop n st s = Ok (st', t) -> (List.length t <= List.length s)%nat.
Proof.
  induction n as [|n IH]; intros st s st' t; cbn [hep_loop]; [intros H; injection H as _ <-; lia|].
  destruct (read_hep_entry s) as [[h s1]|] eqn:E; [|discriminate]. destruct (hep_step h st); cbn [bind]; [|discriminate].
  intros H. apply IH in H. apply hep_entry_len in E. lia.
Qed.

Lemma read_hepevt_len s ev x t : read_hepevt s = Ok (Some (ev, x, t)) -> (List.length t < List.length s)%nat.
Proof.
  unfold read_hepevt. destruct (rd_int s) as [[? s1]|] eqn:E1; cbn [obind]; [|discriminate]. destruct (rd_int s1) as [[n s2]|] eqn:E2; [|discriminate].
  destruct (n <? 0); [discriminate|]. destruct (hep_loop _ _ _) as [[st s3]|] eqn:E3; cbn [bind]; [|discriminate].
  destruct (hep_finish st); cbn [bind]; [|discriminate]. intros H. injection H as _ _ <-. apply rd_num_len in E1, E2. apply hep_loop_len in E3. lia.
Qed.

Lemma rnext_less r ev r' : rnext r = Ok (true, ev, r') -> (left_in r' < left_in r)%nat.
Proof.
  destruct r as [[l pos x|[s|] x|[s|] x]|l pos x]; cbn [rnext next_event].
  - destruct (Nat.eqb pos _); [discriminate|]. destruct (nth_error l pos) as [j|] eqn:E; [|discriminate].
    destruct (event_of_json j); cbn [bind]; [|discriminate]. intros H. injection H as _ <-. cbn [left_in].
    assert (pos < List.length l)%nat by (apply nth_error_Some; congruence). lia.
  - destruct (read_event s) as [[[e t]|]|] eqn:E; cbn [bind]; try discriminate. intros H. injection H as _ <-. cbn [left_in]. eapply read_event_len. exact E.
  - discriminate.
  - destruct (read_hepevt s) as [[[[e y] t]|]|] eqn:E; cbn [bind]; try discriminate. intros H. injection H as _ <-. cbn [left_in]. eapply read_hepevt_len. exact E.
  - discriminate.
  - destruct (nth_error l pos) as [j|] eqn:E; [|discriminate]. intros H. injection H as _ <-. cbn [left_in].
    assert (pos < List.length l)%nat by (apply nth_error_Some; congruence). lia.
Qed.

Lemma json_double_fuel k j : json_double k j <> Er NoFuel.
Proof.
  unfold json_double. destruct (has_key k j); [|discriminate]. unfold at_key. destruct j; cbn [bind]; try discriminate.
  destruct (obj_get _ _); cbn [bind]; [|discriminate]. destruct (to_double _) as [? []]; discriminate.
Qed.

Lemma json_integer_fuel k j : json_integer k j <> Er NoFuel.
Proof.
  unfold json_integer. destruct (has_key k j); [|discriminate]. unfold at_key. destruct j; cbn [bind]; try discriminate.
  destruct (obj_get _ _); cbn [bind]; [|discriminate]. destruct (to_long _) as [? []]; discriminate.
Qed.

Lemma bind_fuel {A B} (r : res A) (k : A -> res B) : r <> Er NoFuel -> (forall a, k a <> Er NoFuel) -> bind r k <> Er NoFuel.
Proof. intros H1 H2. destruct r as [a|e]; cbn [bind]; [apply H2|]. congruence. Qed.

Lemma json_particles_fuel k j : json_particles k j <> Er NoFuel.
Proof.
  unfold json_particles. destruct (has_key k j); [|discriminate]. apply bind_fuel.
  - unfold at_key. destruct j; try discriminate. destruct (obj_get _ _); discriminate.
  - intros v. destruct v; try discriminate. induction l as [|v l IH]; cbn [particles_of_json]; [discriminate|].
    destruct v; try discriminate. apply bind_fuel; [|intros p; apply bind_fuel; [exact IH|discriminate]].
    unfold particle_of_json. repeat (apply bind_fuel; [first [apply json_integer_fuel|apply json_double_fuel]|intros ?]). discriminate.
Qed.

Lemma event_json_fuel j : event_of_json j <> Er NoFuel.
Proof.
  unfold event_of_json. apply bind_fuel; [apply json_double_fuel|intros ?]. apply bind_fuel; [apply json_integer_fuel|intros ?].
  apply bind_fuel; [unfold at_key; destruct j; try discriminate; destruct (obj_get _ _); discriminate|intros v].
  apply bind_fuel; [unfold parity_of_int; repeat destruct (_ =? _); discriminate|intros ?]. destruct (snd _); [|discriminate].
  repeat (apply bind_fuel; [apply json_particles_fuel|intros ?]). discriminate.
Qed.

Lemma read_event_fuel s : read_event s <> Er NoFuel.
Proof.
  unfold read_event. apply bind_fuel.
  - unfold read_header. destruct (obind _ _) as [[[[[ni nf] ex] tj] u]|]; [|discriminate]. apply bind_fuel; [|intros [[]|]; discriminate].
    unfold rd_parity. destruct (rd_char u) as [[c w]|]; [|discriminate]. unfold parity_of_char. destruct (ceq c "+"); [discriminate|].
    destruct (ceq c "-"); discriminate.
  - assert (HP : forall n u, read_particles n u <> Er NoFuel).
    { induction n as [|n IH]; intros u; cbn [read_particles]; [discriminate|]. destruct (read_particle u) as [[]|]; [|discriminate].
      apply bind_fuel; [apply IH|intros []; discriminate]. }
    intros [[[[[[ni nf] ex] tj] p] u]|]; [|discriminate]. destruct (ni <? 2); [discriminate|]. destruct (nf <? 2); [discriminate|].
    apply bind_fuel; [apply HP|intros []]. apply bind_fuel; [apply HP|intros []]. discriminate.
Qed.

Lemma read_hepevt_fuel s : read_hepevt s <> Er NoFuel.
Proof.
  unfold read_hepevt. destruct (obind _ _) as [[n u]|]; [|discriminate]. destruct (n <? 0); [discriminate|].
  assert (HP : forall h, hep_particle h <> Er NoFuel).
  { intros h. unfold hep_particle, particle_charge. apply bind_fuel; [|discriminate]. destruct (_ <? _); [discriminate|].
    destruct (assoc _ _); discriminate. }
  apply bind_fuel.
  - generalize hep_start. revert u. induction (Z.to_nat n) as [|m IH]; intros u st; cbn [hep_loop]; [discriminate|].
    destruct (read_hep_entry u) as [[h w]|]; [|discriminate]. apply bind_fuel; [|intros; apply IH].
    unfold hep_step. destruct (_ =? _); [apply bind_fuel; [unfold parity_of_int; repeat destruct (_ =? _); discriminate|discriminate]|].
    destruct (_ =? _); [apply bind_fuel; [apply HP|discriminate]|]. destruct (_ =? _); [apply bind_fuel; [apply HP|discriminate]|discriminate].
  - intros [st w]. apply bind_fuel; [|discriminate]. unfold hep_finish. repeat (destruct (negb _); [discriminate|]). destruct (_ <? _); discriminate.
Qed.

Lemma rnext_fuel r : rnext r <> Er NoFuel.
Proof.
  destruct r as [[l pos x|[s|] x|[s|] x]|l pos x]; cbn [rnext next_event]; try discriminate.
  - destruct (Nat.eqb pos _); [discriminate|]. destruct (nth_error l pos); [|discriminate]. apply bind_fuel; [|intros [[] ]; discriminate].
    apply bind_fuel; [apply event_json_fuel|discriminate].
  - apply bind_fuel; [|intros [[] ]; discriminate]. apply bind_fuel; [apply read_event_fuel|intros [[]|]; discriminate].
  - apply bind_fuel; [|intros [[] ]; discriminate]. apply bind_fuel; [apply read_hepevt_fuel|intros [[[]]|]; discriminate].
  - destruct (nth_error l pos); discriminate.
Qed.

Lemma row_fuel x ev : row_of x ev <> Er NoFuel.
Proof. unfold row_of. destruct (e_init ev) as [|? [|? ?]]; try discriminate. destruct (e_fin ev) as [|? [|? ?]]; discriminate. Qed.

Lemma summarise_fuel k : forall f r, (left_in r < k)%nat -> (left_in r < f)%nat -> summarise f r = summarise k r /\ summarise k r <> Er NoFuel.
Proof.
  induction k as [|k IH]; intros f r H1 H2; [lia|]. destruct f as [|f]; [lia|]. cbn [summarise].
  destruct (rnext r) as [[[ok ev] r']|e] eqn:E; cbn [bind]; [|split; [reflexivity|intros H; injection H as ->; exact (rnext_fuel r E)]].
  destruct ok; [|split; [reflexivity|discriminate]]. apply rnext_less in E. pose proof (row_fuel (rflux r') ev) as R.
  destruct (row_of (rflux r') ev) as [w|e]; cbn [bind]; [|split; [reflexivity|congruence]].
  destruct (IH f r' ltac:(lia) ltac:(lia)) as [-> N]. split; [reflexivity|]. apply bind_fuel; [exact N|discriminate].
Qed.

Lemma open_fuel c : ropen c <> Er NoFuel.
Proof.
  destruct c as [[s|r]|]; cbn [ropen]; [| |discriminate].
  - apply bind_fuel; [|discriminate]. unfold open_reader. destruct (skip_sp s) as [|c u]; [discriminate|].
    destruct (ceq c "{"); [unfold init_json; apply bind_fuel; [apply load_nofuel|discriminate]|]. destruct (ascii_ok s); [discriminate|].
    apply bind_fuel; [|intros []; discriminate]. unfold hep_ok. pose proof (read_hepevt_fuel s) as N.
    destruct (read_hepevt s) as [[]|[]]; try discriminate. congruence.
  - destruct (rt_events r); [|discriminate]. destruct (rt_flux r); discriminate.
Qed.

Lemma files_fuel fs ins : exists k, forall f, (k <= f)%nat -> summarise_files f fs ins = summarise_files k fs ins /\ summarise_files k fs ins <> Er NoFuel.
Proof.
  induction ins as [|n ins (k & IH)]; [exists O; intros; split; [reflexivity|discriminate]|].
  pose proof (open_fuel (fs n)) as N. destruct (ropen (fs n)) as [r|e] eqn:E.
  - exists (max (S (left_in r)) k). intros f Hf. cbn [summarise_files]. rewrite E. cbn [bind]. set (m := max (S (left_in r)) k) in *.
    destruct (summarise_fuel m f r ltac:(lia) ltac:(lia)) as [-> N1].
    destruct (IH f ltac:(lia)) as [-> N2]. destruct (IH m ltac:(lia)) as [-> _]. split; [reflexivity|].
    apply bind_fuel; [exact N1|intros ?]. apply bind_fuel; [exact N2|discriminate].
  - exists O. intros f _. cbn [summarise_files]. rewrite E. cbn [bind]. split; [reflexivity|congruence].
Qed.

(** Whatever the files hold, the program comes to an end. *)
Theorem C77_ends args fs input : exists k, forall fuel, (k <= fuel)%nat ->
  marsum fuel args fs input = marsum k args fs input /\ snd (marsum fuel args fs input) <> Er NoFuel.
Proof.
  destruct args as [|out [|i ins]]; [exists O; intros; split; [reflexivity|discriminate]|exists O; intros; split; [reflexivity|discriminate]|].
  destruct (files_fuel (put out (CRoot blank_root) fs) (i :: ins)) as (k & H). exists k. intros fuel Hf. unfold marsum.
  destruct (match fs out with Some _ => prompt input | None => (true, input) end) as [go rest].
  destruct go; [|split; [reflexivity|discriminate]]. destruct (H fuel Hf) as [-> N]. split; [reflexivity|].
  destruct (summarise_files k _ _); cbn [snd]; [discriminate|]. congruence.
Qed.
Print Assumptions C77_ends.

(** ** Cases *)

(** Two runs into a ROOT file, and an ASCII file: the summary has three entries. *)
Definition c77_store : store := fun n =>
  if bytes_eqb n (b "a") then Some (CText (show_e17 (toy_flux tt) ++ nl :: events_text [sample]))
  else if bytes_eqb n (b "b") then
    match (do r <- root_run Overwrite false false (JObj []) [] 1 (toy_flux tt) [sample] None;
           root_run Resume false false (JObj []) [] 1 (toy_flux tt) [sample] (Some (CRoot r))) with
    | Ok r => Some (CRoot r)
    | Er _ => None
    end
  else None.
Example C77_case : may_write c77_store (b "out") [] /\ Forall2 (event_file c77_store) [b "a"; b "b"] [[(toy_flux tt, sample)]; [(toy_flux tt, sample); (toy_flux tt, sample)]] /\
  two_two sample /\ exists rows fs', marsum 3 [b "out"; b "a"; b "b"] c77_store [] = (fs', [], Ok 0) /\ fs' (b "out") = summary rows /\ List.length rows = 3%nat.
Proof.
  split; [left; reflexivity|].
  assert (G : Forall good_event [sample]) by (pose proof C08_example as H; inversion H; subst; constructor; [assumption|constructor]).
  split; [constructor; [|constructor; [|constructor]]|].
  - apply (C77_ascii (toy_flux tt) [sample]); [vm_compute; split; reflexivity|exact G|discriminate|reflexivity].
  - apply (C77_root_read c77_store (b "b") (JObj []) [] (toy_flux tt) [sample; sample]). eexists. split; [reflexivity|]. repeat split.
  - split; [split; vm_compute; lia|]. do 2 eexists. split; [vm_compute; reflexivity|]. split; [vm_compute; reflexivity|]. reflexivity.
Qed.

(** Cross sections of the size that occur, in MeV^-2. *)
Definition small_xsec : spec_float := S754_finite false 4503599627370496 (-119).
Example C77_units_case : finite_dbl small_xsec /\ (bpow radix2 (-1000) <= Rabs (val small_xsec) <= bpow radix2 700)%R.
Proof.
  split; [split; reflexivity|]. assert (E : val small_xsec = bpow radix2 (-67)).
  { unfold small_xsec. rewrite val_pos. change (IZR 4503599627370496) with (bpow radix2 52). rewrite <- bpow_plus. reflexivity. }
  rewrite E, Rabs_pos_eq by apply bpow_ge_0. split; apply bpow_le; lia.
Qed.
