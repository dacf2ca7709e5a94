(** C70: level data files in the TALYS format. *)
From Coq Require Import List Ascii String ZArith Bool Lia Sorting.Sorted.
From Coq Require Import Floats.SpecFloat.
From Verif Require Import Base Dbl DigitsProofs JsonRtProofs Strings Stream StreamProofs Pdg Event Levels LevelsProofs Names Files MatEl MatElThms PdgThms Talys.
Import ListNotations.
Local Open Scope Z_scope.

(** ** What a data set says *)

(** The line that starts the data of a nuclide with [n] excited levels: eighteen columns of
    digits and blanks, 57 blanks, the mass number right aligned in three columns and the symbol
    of the element left aligned in two. The fourth number of the line is [n]. *)
Definition header_of (z a : Z) (line : bytes) : Prop :=
  exists pre k sym, line = pre ++ repeat " "%char 57 ++ repeat " "%char k ++ show_int a ++ pad_right sym 2 " "%char /\
    List.length pre = 18%nat /\ (forall c, In c pre -> is_digit c = true \/ c = " "%char) /\
    (k + List.length (show_int a) = 3)%nat /\ element_symbol z = Ok sym.
Definition says_count (n : Z) (line : bytes) : Prop :=
  exists i1 r1 i2 r2 i3 r3 r4, rd_int line = Some (i1, r1) /\ rd_int r1 = Some (i2, r2) /\ rd_int r2 = Some (i3, r3) /\
    rd_int r3 = Some (n, r4).

(** A level: energy, doubled spin, parity, and gammas as final level number and branching
    ratio. *)
Record talys_level := mkt { t_energy : spec_float; t_twoJ : Z; t_parity : bool; t_gammas : list (Z * spec_float) }.

Definition gamma_line (l : bytes) (q : Z * spec_float) : Prop :=
  exists r1 r2, rd_int l = Some (fst q, r1) /\ rd_dbl r1 = Some (snd q, r2).
Definition level_lines (ls : list bytes) (t : talys_level) : Prop :=
  exists l gl i r1 r2 spin r3 r4 r5, ls = l :: gl /\
    rd_int l = Some (i, r1) /\ rd_dbl r1 = Some (t_energy t, r2) /\ rd_dbl r2 = Some (spin, r3) /\
    2 * units spin = t_twoJ t * 2 ^ 1074 /\ int_min <= t_twoJ t <= int_max /\
    rd_int r3 = Some ((if t_parity t then 1 else -1), r4) /\
    rd_int r4 = Some (Z.of_nat (List.length (t_gammas t)), r5) /\ Forall2 gamma_line gl (t_gammas t).

(** The level as an object of the decay scheme: gammas without strength are left out, the energy
    of a gamma is the difference between the levels, computed in double precision. *)
Definition level_object (all : list talys_level) (t : talys_level) : level :=
  mkl (t_energy t) (t_twoJ t) (t_parity t)
    (map (fun q => mkg (SFsub 53 1024 (t_energy t) (nth (Z.to_nat (fst q)) (map t_energy all) S754_nan)) (snd q) (Some (Z.to_nat (fst q))))
       (filter (fun q => 0 <? units (snd q)) (t_gammas t))).

(** Final levels are listed before or at the level itself. *)
Definition ends_listed (ts : list talys_level) : Prop :=
  forall i t q, nth_error ts i = Some t -> In q (t_gammas t) -> 0 < units (snd q) -> 0 <= fst q <= Z.of_nat i.

Definition rising (ts : list talys_level) : Prop := StronglySorted (fun x y => units (t_energy x) < units (t_energy y)) ts.

(** ** Names in the file *)

Definition talys_name_ok (p : Z * string) : bool :=
  let s := b (snd p) in
  match (match to_uppercase s with [c] => [c; " "%char] | t => t end), pad_right s 2 " "%char with
  | [c; d], [c'; d'] => ceq c c' && ceq (lower d) d' && negb (ceq c nl) && negb (ceq d' nl) && negb (ceq c (chr 13)) && negb (ceq d' (chr 13))
  | _, _ => false
  end.
Lemma talys_names : forallb talys_name_ok element_symbols = true.
Proof. vm_compute. reflexivity. Qed.

Lemma lower_last_app : forall m c d, lower_last (m ++ [c; d]) = m ++ [c; lower d].
Proof.
  induction m as [|x m IH]; intros c d; [reflexivity|]. cbn [app lower_last]. rewrite IH.
  destruct m as [|y m]; reflexivity.
Qed.

Lemma talys_id : forall z a sym, element_symbol z = Ok sym -> 1 <= a <= 999 ->
  exists k id, nuc_id z a = Ok id /\ lower_last id = repeat " "%char k ++ show_int a ++ pad_right sym 2 " "%char /\
    (k + List.length (show_int a) = 3)%nat /\
    exists c d, pad_right sym 2 " "%char = [c; d] /\ forall x, In x [c; d] -> x <> nl /\ x <> chr 13.
Proof.
  intros z a sym Hs Ha. destruct (C22_nucid z a sym Hs Ha) as (k & m & s2 & H1 & Hm & Hl & Hs2 & _ & _).
  exists k, (m ++ s2). split; [exact H1|].
  unfold element_symbol in Hs. destruct (assoc z element_symbols) as [w|] eqn:E; [|discriminate Hs].
  injection Hs as <-. pose proof (assoc_in _ _ _ E) as Hin.
  pose proof (proj1 (forallb_forall _ _) talys_names _ Hin) as HT. unfold talys_name_ok in HT. cbn [snd] in HT. cbv zeta in HT.
  assert (HP : pad_right (to_uppercase (b w)) 2 " "%char =
     match to_uppercase (b w) with [c] => [c; " "%char] | t => t end).
  { destruct (to_uppercase (b w)) as [|c [|d [|e l]]]; try discriminate HT; reflexivity. }
  rewrite HP in Hs2. destruct (match to_uppercase (b w) with [c] => _ | _ => _ end) as [|c [|d [|e l]]]; try discriminate HT.
  destruct (pad_right (b w) 2 " "%char) as [|c' [|d' [|e l]]]; try discriminate HT.
  repeat rewrite andb_true_iff in HT. destruct HT as [[[[[A1 A2] A3] A4] A5] A6].
  apply Ascii.eqb_eq in A1, A2. subst c' d'. subst s2. rewrite lower_last_app, Hm, <- app_assoc. split; [reflexivity|].
  split; [rewrite Hm, app_length, repeat_length in Hl; exact Hl|].
  exists c, (lower d). split; [reflexivity|]. unfold ceq in *.
  intros x [<-|[<-|[]]]; (split; intros Hx; rewrite Hx, Ascii.eqb_refl in *; discriminate).
Qed.

Lemma firstn_18 : forall (p q : bytes), List.length p = 18%nat -> firstn 18 (p ++ q) = p /\ skipn 18 (p ++ q) = q.
Proof.
  intros p q H. rewrite <- H. rewrite firstn_app, skipn_app, Nat.sub_diag, firstn_all, skipn_all. cbn. rewrite app_nil_r. split; reflexivity.
Qed.

Lemma digit_or_space_spec : forall c, digit_or_space c = true <-> is_digit c = true \/ c = " "%char.
Proof. intros c. unfold digit_or_space. rewrite orb_true_iff. unfold ceq. rewrite Ascii.eqb_eq. reflexivity. Qed.

(** The pattern accepts exactly the header lines of the nuclide. *)
Lemma nuclide_line_spec : forall z a id, nuc_id z a = Ok id -> forall line, nuclide_line (lower_last id) line = true <-> header_of z a line.
Proof.
  intros z a id Hid line. destruct (C22_nucid_rejects z a (ex_intro _ _ Hid)) as [Ha [sym Hs]].
  destruct (talys_id z a sym Hs Ha) as (k & id' & H1 & H2 & H3 & _). rewrite Hid in H1. injection H1 as <-. rewrite H2.
  unfold nuclide_line. split.
  - intros H. apply andb_prop in H as [A B]. apply bytes_eqb_eq in B. rewrite <- (firstn_skipn 18 line), B.
    exists (firstn 18 line), k, sym. split; [reflexivity|]. split.
    + rewrite firstn_length. assert (List.length (skipn 18 line) <> 0)%nat by (rewrite B; cbn; lia). rewrite skipn_length in H. lia.
    + split; [|split; assumption]. intros c Hc. apply digit_or_space_spec. exact (proj1 (forallb_forall _ _) A c Hc).
  - intros (pre & k' & sym' & -> & Hl & Hp & Hk & Hs'). rewrite Hs in Hs'. injection Hs' as <-.
    assert (k' = k) by lia. subst k'. destruct (firstn_18 pre (repeat " "%char 57 ++ repeat " "%char k ++ show_int a ++ pad_right sym 2 " "%char) Hl) as [-> ->].
    apply andb_true_intro. split; [|apply bytes_eqb_eq; reflexivity].
    apply forallb_forall. intros c Hc. apply digit_or_space_spec. apply Hp. exact Hc.
Qed.

(** No line is a header of two nuclides. *)
Theorem C70_header_unique : forall z a z' a' line, header_of z a line -> header_of z' a' line -> 1 <= a <= 999 -> 1 <= a' <= 999 ->
  z = z' /\ a = a'.
Proof.
  intros z a z' a' line H H' Ha Ha'. destruct H as (pre & k & sym & E & Hl & _ & Hk & Hs). destruct H' as (pre' & k' & sym' & E' & Hl' & _ & Hk' & Hs').
  destruct (talys_id z a sym Hs Ha) as (k1 & id & I1 & I2 & I3 & c & d & Ic & _). destruct (talys_id z' a' sym' Hs' Ha') as (k1' & id' & I1' & I2' & I3' & c' & d' & Ic' & _).
  rewrite E in E'. assert (X : repeat " "%char 57 ++ repeat " "%char k ++ show_int a ++ pad_right sym 2 " "%char =
    repeat " "%char 57 ++ repeat " "%char k' ++ show_int a' ++ pad_right sym' 2 " "%char).
  { destruct (firstn_18 pre (repeat " "%char 57 ++ repeat " "%char k ++ show_int a ++ pad_right sym 2 " "%char) Hl) as [_ <-].
    rewrite E'. apply (firstn_18 pre' _ Hl'). }
  apply app_inv_head in X. rewrite Ic, Ic' in X.
  rewrite !app_assoc in X.
  assert (Y : repeat " "%char k ++ show_int a = repeat " "%char k' ++ show_int a' /\ [c; d] = [c'; d']).
  { clear - X. change [c; d] with ([c] ++ [d]) in X. change [c'; d'] with ([c'] ++ [d']) in X. rewrite !app_assoc in X.
    apply app_inj_tail in X as [X ->]. apply app_inj_tail in X as [X ->]. split; [exact X|reflexivity]. }
  destruct Y as [Y1 Y2].
  assert (Za : a = a').
  { assert (S : skip_sp (repeat " "%char k ++ show_int a) = skip_sp (repeat " "%char k' ++ show_int a')) by (rewrite Y1; reflexivity).
    assert (K : forall n x, 1 <= x -> skip_sp (repeat " "%char n ++ show_int x) = show_int x).
    { intros n x Hx. induction n as [|n IH]; cbn [repeat app skip_sp]; [|exact IH].
      destruct (show_int x) as [|y r] eqn:Es; [reflexivity|]. cbn [skip_sp].
      assert (D : is_digit y = true).
      { assert (F : forallb is_digit (show_int x) = true) by (unfold show_int; destruct (Z.ltb_spec x 0); [lia|apply digits_all; lia]).
        rewrite Es in F. cbn [forallb] in F. apply andb_prop in F. apply F. }
      destruct (is_space y) eqn:Ey; [|reflexivity]. exfalso. clear - D Ey. destruct y as [[] [] [] [] [] [] [] []]; vm_compute in D, Ey; discriminate. }
    rewrite !K in S by lia. unfold show_int in S. destruct (Z.ltb_spec a 0), (Z.ltb_spec a' 0); try lia.
    rewrite <- (digits_val_digits a), <- (digits_val_digits a') by lia. rewrite S. reflexivity. }
  split; [|exact Za]. subst a'.
  assert (J : forall z sym c d, element_symbol z = Ok sym -> pad_right sym 2 " "%char = [c; d] -> atomic_number (trim_right whitespace [c; d]) = Ok z).
  { clear. intros z sym c d Hs HP. unfold element_symbol in Hs. destruct (assoc z element_symbols) as [w|] eqn:E; [|discriminate Hs].
    injection Hs as <-. pose proof (assoc_in _ _ _ E) as Hin.
    assert (T : forallb (fun p : Z * string => match atomic_number (trim_right whitespace (pad_right (b (snd p)) 2 " "%char)) with Ok z => z =? fst p | _ => false end) element_symbols = true) by (vm_compute; reflexivity).
    apply (proj1 (forallb_forall _ _) T) in Hin. cbn [fst snd] in Hin. rewrite HP in Hin. destruct (atomic_number _); [|discriminate Hin].
    apply Z.eqb_eq in Hin. congruence. }
  pose proof (J z sym c d Hs Ic) as J1. pose proof (J z' sym' c' d' Hs' Ic') as J2. rewrite <- Y2 in J2. congruence.
Qed.
Print Assumptions C70_header_unique.

(** ** Lines *)

Lemma rd_int_nonblank : forall s x, rd_int s = Some x -> skip_sp s <> [].
Proof. intros s x H E. apply skip_sp_nil in E. unfold rd_int in H. rewrite rd_num_blank in H by exact E. discriminate H. Qed.
Lemma get_int_rd : forall s z r, rd_int s = Some (z, r) -> get_int s = Got z r.
Proof. intros s z r H. unfold get_int. pose proof (rd_int_nonblank _ _ H). destruct (skip_sp s); [contradiction|]. rewrite H. reflexivity. Qed.
Lemma get_dbl_rd : forall s z r, rd_dbl s = Some (z, r) -> get_dbl s = Got z r.
Proof. intros s z r H. unfold get_dbl. pose proof (rd_dbl_nonblank _ _ H). destruct (skip_sp s); [contradiction|]. rewrite H. reflexivity. Qed.

Lemma round_twice_exact : forall spin tj, 2 * units spin = tj * 2 ^ 1074 -> int_min <= tj <= int_max -> round_twice spin = Ok tj.
Proof.
  intros spin tj H Hr. unfold round_twice. cbv zeta. set (u := units spin) in *.
  replace (2 ^ 1075) with (2 * 2 ^ 1074) by reflexivity.
  assert (HD : 0 < 2 ^ 1074) by (apply Z.pow_pos_nonneg; lia). set (D := 2 ^ 1074) in *. clearbody D u.
  assert (E : Z.sgn u * ((4 * Z.abs u + D) / (2 * D)) = tj).
  { assert (Ha : 4 * Z.abs u = Z.abs tj * (2 * D)) by nia.
    rewrite Ha. rewrite Z.add_comm, Z.div_add by lia. rewrite Z.div_small by lia. nia. }
  rewrite E. destruct (Z.ltb_spec tj int_min); [lia|]. destruct (Z.ltb_spec int_max tj); [lia|]. reflexivity.
Qed.

(** The spin of any level line: twice the number in the file, to the nearest integer, and away
    from zero if two are equally near. *)
Theorem C70_spin : forall spin tj, round_twice spin = Ok tj ->
  Z.abs (tj * 2 ^ 1074 - 2 * units spin) * 2 <= 2 ^ 1074 /\
  (Z.abs (tj * 2 ^ 1074 - 2 * units spin) * 2 = 2 ^ 1074 -> Z.abs (2 * units spin) < Z.abs (tj * 2 ^ 1074)) /\
  int_min <= tj <= int_max.
Proof.
  intros spin tj H. unfold round_twice in H. cbv zeta in H. set (u := units spin) in *.
  replace (2 ^ 1075) with (2 * 2 ^ 1074) in H by reflexivity.
  assert (HD : 0 < 2 ^ 1074) by (apply Z.pow_pos_nonneg; lia). set (D := 2 ^ 1074) in *. clearbody D u.
  set (q := (4 * Z.abs u + D) / (2 * D)) in *.
  pose proof (Z.div_mod (4 * Z.abs u + D) (2 * D) ltac:(lia)) as E. fold q in E.
  pose proof (Z.mod_pos_bound (4 * Z.abs u + D) (2 * D) ltac:(lia)) as B.
  set (m := (4 * Z.abs u + D) mod (2 * D)) in *. clearbody q m.
  destruct (Z.ltb_spec (Z.sgn u * q) int_min); [discriminate H|]. destruct (Z.ltb_spec int_max (Z.sgn u * q)); [discriminate H|].
  cbn [orb] in H. injection H as <-.
  assert (Hq : 0 <= q) by nia.
  destruct (Z.lt_trichotomy u 0) as [Hu|[Hu|Hu]].
  - rewrite (Z.sgn_neg u Hu) in *. replace (-1 * q * D - 2 * u) with (- (q * D - 2 * Z.abs u)) by (rewrite Z.abs_neq by lia; ring).
    rewrite Z.abs_opp. split; [|split; [|lia]].
    + assert (Z.abs (q * D - 2 * Z.abs u) * 2 = Z.abs (2 * D * q - 4 * Z.abs u)) by lia. lia.
    + intros Hx. replace (2 * u) with (- (2 * Z.abs u)) by lia. replace (-1 * q * D) with (- (q * D)) by ring. rewrite !Z.abs_opp. lia.
  - subst u. change (Z.sgn 0) with 0. cbn [Z.mul Z.abs Z.sub Z.opp] in *. split; [lia|]. split; [lia|]. unfold int_min, int_max; lia.
  - rewrite (Z.sgn_pos u Hu) in *. rewrite (Z.abs_eq u) in * by lia. rewrite Z.mul_1_l in *.
    split; [|split; [|lia]].
    + lia.
    + intros Hx. lia.
Qed.
Print Assumptions C70_spin.

Lemma read_level_line_ok : forall l gl t, level_lines (l :: gl) t ->
  read_level_line l = Ok (t_energy t, t_twoJ t, t_parity t, Z.of_nat (List.length (t_gammas t))).
Proof.
  intros l gl t (l' & gl' & i & r1 & r2 & spin & r3 & r4 & r5 & E & H1 & H2 & H3 & H4 & H5 & H6 & H7 & _). injection E as <- <-.
  unfold read_level_line. rewrite (get_int_rd _ _ _ H1), (get_dbl_rd _ _ _ H2), (get_dbl_rd _ _ _ H3), (get_int_rd _ _ _ H6).
  rewrite (round_twice_exact _ _ H4 H5). cbn [bind]. rewrite (get_int_rd _ _ _ H7). destruct (t_parity t); reflexivity.
Qed.

Lemma read_gamma_line_ok : forall l q, gamma_line l q -> read_gamma_line l = Ok q.
Proof.
  intros l [i br] (r1 & r2 & H1 & H2). cbn [fst snd] in *. unfold read_gamma_line.
  rewrite (get_int_rd _ _ _ H1), (get_dbl_rd _ _ _ H2). reflexivity.
Qed.

(** ** Levels and gammas *)

(** The first [k] levels stand in the scheme in file order, under the addresses 0, 1, ... *)
Definition in_place (all : list talys_level) (L : list (nat * level)) : Prop :=
  forall i p, nth_error L i = Some p -> fst p = i /\ exists t, nth_error all i = Some t /\ l_energy (snd p) = t_energy t.

Lemma nth_energy : forall all i t, nth_error all i = Some t -> nth i (map t_energy all) S754_nan = t_energy t.
Proof. intros all i t H. apply nth_error_nth. rewrite nth_error_map, H. reflexivity. Qed.

Lemma add_gamma_last : forall z a n L k e tj pi gs g, (forall i p, nth_error L i = Some p -> fst p = i) -> k = List.length L ->
  add_gamma k g (mksc z a n (L ++ [(k, mkl e tj pi gs)])) = mksc z a n (L ++ [(k, mkl e tj pi (gs ++ [g]))]).
Proof.
  intros z a n L k e tj pi gs g HL Hk. unfold add_gamma. cbn [s_Z s_A s_next s_levels]. f_equal. rewrite map_app. f_equal.
  - rewrite <- map_id. apply map_ext_in. intros p Hp. apply In_nth_error in Hp as [i Hi]. rewrite (HL i p Hi).
    assert (i < List.length L)%nat by (apply nth_error_Some; congruence).
    destruct (Nat.eqb_spec i k); [lia|reflexivity].
  - cbn [map fst snd]. rewrite Nat.eqb_refl. reflexivity.
Qed.

Definition gammas_of (all : list talys_level) (e : spec_float) (qs : list (Z * spec_float)) : list gamma :=
  map (fun q => mkg (SFsub 53 1024 e (nth (Z.to_nat (fst q)) (map t_energy all) S754_nan)) (snd q) (Some (Z.to_nat (fst q))))
    (filter (fun q => 0 <? units (snd q)) qs).

Lemma talys_gammas_run : forall all z a n L k e tj pi, in_place all L -> k = List.length L ->
  (exists t, nth_error all k = Some t /\ e = t_energy t) ->
  forall gl qs gs rest tl line, Forall2 gamma_line gl qs -> (forall q, In q qs -> 0 < units (snd q) -> 0 <= fst q <= Z.of_nat k) ->
  exists line', talys_gammas (List.length qs) k e (mksc z a n (L ++ [(k, mkl e tj pi gs)])) (mkin (gl ++ rest) tl) line =
    Ok (mksc z a n (L ++ [(k, mkl e tj pi (gs ++ gammas_of all e qs))]), mkin rest tl, line').
Proof.
  intros all z a n L k e tj pi HL Hk (t & Ht & He) gl qs gs rest tl line H. revert gs line.
  induction H as [|l q gl qs Hl _ IH]; intros gs line HQ.
  - exists line. cbn [List.length talys_gammas app gammas_of filter map]. unfold gammas_of. cbn [filter map]. rewrite app_nil_r. reflexivity.
  - cbn [List.length talys_gammas app get_line i_lines i_tail]. rewrite (read_gamma_line_ok _ _ Hl). cbn [bind]. destruct q as [i br].
    assert (HQ' : forall q, In q qs -> 0 < units (snd q) -> 0 <= fst q <= Z.of_nat k) by (intros q Hq; apply HQ; right; exact Hq).
    unfold gammas_of. cbn [filter snd]. destruct (Z.ltb_spec 0 (units br)) as [Hb|Hb].
    + pose proof (HQ (i, br) (or_introl eq_refl) Hb) as Hi. cbn [fst] in Hi.
      cbn [s_levels]. unfold level_at. destruct (Z.ltb_spec i 0); [lia|].
      destruct (nth_error (L ++ [(k, mkl e tj pi gs)]) (Z.to_nat i)) as [p|] eqn:Ep.
      2:{ exfalso. apply nth_error_None in Ep. rewrite app_length in Ep. cbn in Ep. lia. }
      cbn [bind].
      assert (Hp : fst p = Z.to_nat i /\ l_energy (snd p) = nth (Z.to_nat i) (map t_energy all) S754_nan).
      { destruct (Nat.eq_dec (Z.to_nat i) k) as [Ei|Ni].
        - rewrite Ei, nth_error_app2, Hk, Nat.sub_diag in Ep by lia. cbn in Ep. injection Ep as <-. cbn [fst snd l_energy].
          rewrite Ei, (nth_energy all k t Ht). split; [symmetry; exact Hk| exact He].
        - rewrite nth_error_app1 in Ep by lia. destruct (HL _ _ Ep) as (A & t' & B & C). rewrite (nth_energy _ _ _ B). split; assumption. }
      destruct Hp as [P1 P2]. rewrite P1, P2.
      rewrite add_gamma_last by (first [exact Hk|intros j p' Hj; apply (HL _ _ Hj)]).
      destruct (IH (gs ++ [mkg (SFsub 53 1024 e (nth (Z.to_nat i) (map t_energy all) S754_nan)) br (Some (Z.to_nat i))]) l HQ') as [line' IH'].
      exists line'. rewrite IH'. do 4 f_equal. cbn [map fst snd]. rewrite <- app_assoc. reflexivity.
    + apply IH. exact HQ'.
Qed.

Lemma lower_bound_all : forall e L, (forall p, In p L -> units (energy_of p) < units e) -> lower_bound_index e L = List.length L.
Proof.
  intros e L. induction L as [|p L IH]; intros H; [reflexivity|]. cbn [lower_bound_index List.length]. unfold dlt.
  destruct (Z.ltb_spec (units (energy_of p)) (units e)); [|specialize (H p (or_introl eq_refl)); lia]. f_equal. apply IH.
  intros q Hq. apply H. right. exact Hq.
Qed.
Lemma insert_at_end : forall {A} (x : A) L, insert_at (List.length L) x L = L ++ [x].
Proof. intros A x L. induction L as [|y L IH]; [reflexivity|]. cbn [List.length insert_at app]. rewrite IH. reflexivity. Qed.

Definition placed (all ts : list talys_level) : list (nat * level) := combine (seq 0 (List.length ts)) (map (level_object all) ts).

Lemma nth_placed : forall all ts i, nth_error (placed all ts) i = match nth_error ts i with Some t => Some (i, level_object all t) | None => None end.
Proof.
  intros all ts. unfold placed. 
  assert (K : forall ts s i, nth_error (combine (seq s (List.length ts)) (map (level_object all) ts)) i =
    match nth_error ts i with Some t => Some ((s + i)%nat, level_object all t) | None => None end).
  { clear ts. induction ts as [|t ts IH]; intros s [|i]; cbn [List.length seq map combine nth_error]; try reflexivity.
    - rewrite Nat.add_0_r. reflexivity.
    - rewrite IH. destruct (nth_error ts i); [|reflexivity]. do 2 f_equal. lia. }
  intros i. rewrite K. reflexivity.
Qed.
Lemma placed_length : forall all ts, List.length (placed all ts) = List.length ts.
Proof. intros. unfold placed. rewrite combine_length, seq_length, map_length. lia. Qed.
Lemma placed_snoc : forall all ts t, placed all (ts ++ [t]) = placed all ts ++ [(List.length ts, level_object all t)].
Proof.
  intros all ts t. unfold placed. rewrite app_length, Nat.add_1_r, seq_S, map_app. cbn [Nat.add map].
  assert (K : forall A B (x : list A) (y : list B) u v, List.length x = List.length y -> combine (x ++ [u]) (y ++ [v]) = combine x y ++ [(u, v)]).
  { induction x as [|c x IH]; intros [|d y] u v H; try discriminate H; [reflexivity|]. cbn [app combine]. rewrite IH by (injection H as H; exact H). reflexivity. }
  apply K. rewrite seq_length, map_length. reflexivity.
Qed.

Lemma in_place_placed : forall all done todo, all = done ++ todo -> in_place all (placed all done).
Proof.
  intros all done todo -> i p H. rewrite nth_placed in H. destruct (nth_error done i) as [t|] eqn:E; [|discriminate H]. injection H as <-.
  split; [reflexivity|]. exists t. split; [|reflexivity]. rewrite nth_error_app1; [exact E|]. apply nth_error_Some. congruence.
Qed.

Lemma add_level_end : forall z a all done t todo tj pi, all = done ++ t :: todo -> rising all ->
  add_level (mkl (t_energy t) tj pi []) (mksc z a (List.length done) (placed all done)) =
  (List.length done, mksc z a (S (List.length done)) (placed all done ++ [(List.length done, mkl (t_energy t) tj pi [])])).
Proof.
  intros z a all done t todo tj pi E HR. unfold add_level. cbn [s_levels s_next s_Z s_A l_energy].
  rewrite lower_bound_all.
  - rewrite insert_at_end. reflexivity.
  - intros p Hp. apply In_nth_error in Hp as [i Hi]. destruct (in_place_placed all done _ E i p Hi) as (_ & x & Hx & He).
    unfold energy_of. rewrite He. assert (i < List.length done)%nat by (rewrite <- (placed_length all); apply nth_error_Some; congruence).
    rewrite E in Hx, HR. rewrite nth_error_app1 in Hx by lia. clear - Hx HR. unfold rising in HR.
    apply nth_error_In in Hx. induction done as [|y done IH]; [destruct Hx|]. cbn [app] in HR. inversion HR as [|? ? H1 H2]; subst.
    destruct Hx as [->|Hx]; [|apply IH; assumption]. rewrite Forall_forall in H2. apply H2. apply in_or_app. right. left. reflexivity.
Qed.

(** ** Reading a whole data set *)

Lemma talys_levels_run : forall z a all, rising all -> ends_listed all -> forall todo done lss rest tl line, all = done ++ todo ->
  Forall2 level_lines lss todo ->
  talys_levels (List.length todo) (mksc z a (List.length done) (placed all done)) (mkin (List.concat lss ++ rest) tl) line =
    Ok (mksc z a (List.length all) (placed all all)).
Proof.
  intros z a all HR HE todo. induction todo as [|t todo IH]; intros done lss rest tl line E H.
  - rewrite app_nil_r in E. subst done. reflexivity.
  - inversion H as [|ls ? lss' ? Hl Hls]; subst. set (all := done ++ t :: todo) in *.
    pose proof Hl as (l & gl & i & r1 & r2 & spin & r3 & r4 & r5 & Els & _ & _ & _ & _ & _ & _ & _ & HG). subst ls.
    cbn [List.length talys_levels List.concat]. rewrite <- app_assoc. cbn [app get_line i_lines i_tail].
    rewrite (read_level_line_ok _ _ _ Hl). cbn [bind]. rewrite (add_level_end z a all done t todo _ _ eq_refl HR). rewrite Nat2Z.id.
    assert (Ht : nth_error all (List.length done) = Some t) by (unfold all; rewrite nth_error_app2, Nat.sub_diag by lia; reflexivity).
    destruct (talys_gammas_run all z a (S (List.length done)) (placed all done) (List.length done) (t_energy t) (t_twoJ t) (t_parity t)
      (in_place_placed all done _ eq_refl) (eq_sym (placed_length all done)) (ex_intro _ t (conj Ht eq_refl))
      gl (t_gammas t) [] (List.concat lss' ++ rest) tl l HG (fun q Hq Hb => HE _ _ _ Ht Hq Hb)) as [line' ->].
    cbn [bind app]. specialize (IH (done ++ [t]) lss' rest tl line').
    rewrite app_length, Nat.add_1_r, placed_snoc in IH. apply IH; [|exact Hls]. unfold all. rewrite <- app_assoc. reflexivity.
Qed.

Lemma find_lines_first : forall id pre h r t, Forall (fun l => nuclide_line id l = false) pre -> nuclide_line id h = true ->
  find_lines id (pre ++ h :: r) t = Some (h, mkin r (Some t)).
Proof.
  intros id pre h r t HP Hh. induction HP as [|l pre Hl _ IH]; cbn [app find_lines]; [rewrite Hh; reflexivity|]. rewrite Hl. exact IH.
Qed.

Lemma header_count_says : forall n l, says_count n l -> header_count l = Ok n.
Proof.
  intros n l (i1 & r1 & i2 & r2 & i3 & r3 & r4 & H1 & H2 & H3 & H4). unfold header_count.
  rewrite (get_int_rd _ _ _ H1), (get_int_rd _ _ _ H2), (get_int_rd _ _ _ H3), (get_int_rd _ _ _ H4). reflexivity.
Qed.

Lemma header_id : forall z a hdr, header_of z a hdr -> 1 <= a -> exists id, nuc_id z a = Ok id.
Proof.
  intros z a hdr (pre & k & sym & _ & _ & _ & Hk & Hs) Ha. assert (a <= 999).
  { destruct (Z.le_gt_cases a 999) as [|G]; [assumption|exfalso]. unfold show_int in Hk. destruct (Z.ltb_spec a 0); [lia|].
    pose proof (digits_len_bounds a ltac:(lia)) as B. assert (HL : (List.length (digits a) <= 3)%nat) by lia.
    destruct B as [_ B]. assert (a < 10 ^ 3); [|lia]. eapply Z.lt_le_trans; [exact B|]. apply Z.pow_le_mono_r; lia. }
  destruct (talys_id z a sym Hs ltac:(lia)) as (_ & id & Hid & _). exists id. exact Hid.
Qed.

(** A file with any lines, the header of the nuclide, its levels in order of energy and then
    anything gives the decay scheme that the levels say: the level at place i is level i of the
    file. *)
Theorem C70_dataset : forall z a pre hdr lss rest t ts,
  Forall no_nl pre -> no_nl hdr -> Forall (Forall no_nl) lss -> Forall no_nl rest -> no_nl t -> 1 <= a ->
  Forall (fun l => ~ header_of z a l) pre -> header_of z a hdr -> says_count (Z.of_nat (List.length ts) - 1) hdr ->
  Forall2 level_lines lss ts -> rising ts -> ends_listed ts ->
  exists sc, parse_talys z a (Some (unlines (pre ++ hdr :: List.concat lss ++ rest) ++ t)) = Ok sc /\
    s_Z sc = z /\ s_A sc = a /\ List.length (s_levels sc) = List.length ts /\
    forall i tl, nth_error ts i = Some tl -> nth_error (s_levels sc) i = Some (i, level_object ts tl).
Proof.
  intros z a pre hdr lss rest t ts N1 N2 N3 N4 N5 Ha HP HH HC HL HR HE.
  destruct (header_id z a hdr HH Ha) as [id Hid].
  exists (mksc z a (List.length ts) (placed ts ts)). split.
  - unfold parse_talys. rewrite Hid. cbn [bind]. cbv zeta. unfold find_dataset. rewrite lines_of_unlines.
    + rewrite (find_lines_first _ pre hdr).
      * rewrite (header_count_says _ _ HC). cbn [bind]. replace (Z.to_nat (Z.of_nat (List.length ts) - 1 + 1)) with (List.length ts) by lia.
        apply (talys_levels_run z a ts HR HE ts [] lss rest (Some t) hdr eq_refl HL).
      * eapply Forall_impl; [|exact HP]. intros l Hl. cbv beta in Hl. destruct (nuclide_line (lower_last id) l) eqn:El; [|reflexivity].
        exfalso. apply Hl. apply (nuclide_line_spec z a id Hid). exact El.
      * apply (nuclide_line_spec z a id Hid). exact HH.
    + apply Forall_app. split; [exact N1|]. constructor; [exact N2|]. apply Forall_app. split; [|exact N4].
      clear - N3. induction N3 as [|x l H _ IH]; [constructor|]. cbn [List.concat]. apply Forall_app. split; assumption.
    + exact N5.
  - cbn [s_Z s_A s_levels]. split; [reflexivity|]. split; [reflexivity|]. split; [apply placed_length|].
    intros i tl Hi. rewrite nth_placed, Hi. reflexivity.
Qed.
Print Assumptions C70_dataset.

(** ** Files that stop too early *)

Lemma talys_gammas_app : forall n m a e sc f line,
  talys_gammas (n + m) a e sc f line = do (sc1, f1, line1) <- talys_gammas n a e sc f line; talys_gammas m a e sc1 f1 line1.
Proof.
  induction n as [|n IH]; intros m a e sc f line; [reflexivity|]. cbn [Nat.add talys_gammas].
  destruct (get_line f line) as [[f1 line1] ok]. destruct (read_gamma_line line1) as [[i br]|x]; [|reflexivity]. cbn [bind].
  destruct (0 <? units br); [|apply IH]. destruct (level_at i (s_levels sc)) as [p|x]; [|reflexivity]. cbn [bind]. apply IH.
Qed.

Lemma Forall2_app_left : forall A B (R : A -> B -> Prop) x y l, Forall2 R (x ++ y) l ->
  exists l1 l2, l = l1 ++ l2 /\ Forall2 R x l1 /\ Forall2 R y l2.
Proof. intros A B R x y l H. apply Forall2_app_inv_l in H as (l1 & l2 & H1 & H2 & ->). exists l1, l2. auto. Qed.

(** A line that has no number, or only a first one. *)
Definition short_line (l : bytes) : Prop := skip_sp l = [] \/ exists i r, rd_int l = Some (i, r) /\ skip_sp r = [].

Lemma read_short : forall l, short_line l -> read_gamma_line l = Er Undefined /\ read_level_line l = Er Undefined.
Proof.
  intros l [H|(i & r & H & Hr)]; unfold read_gamma_line, read_level_line.
  - unfold get_int. rewrite H. split; reflexivity.
  - rewrite (get_int_rd _ _ _ H). unfold get_dbl. rewrite Hr. split; reflexivity.
Qed.

Lemma talys_levels_cut : forall z a all after tl, rising all -> ends_listed all ->
  (forall line, short_line (snd (fst (get_line (mkin after tl) line)))) -> forall todo done lss kept lost line, all = done ++ todo ->
  Forall2 level_lines lss todo -> List.concat lss = kept ++ lost -> lost <> [] ->
  talys_levels (List.length todo) (mksc z a (List.length done) (placed all done)) (mkin (kept ++ after) tl) line = Er Undefined.
Proof.
  intros z a all after tl HR HE HS todo. induction todo as [|t todo IH]; intros done lss kept lost line E H HC HN.
  - inversion H; subst. cbn [List.concat] in HC. destruct kept, lost; try discriminate HC. contradiction.
  - inversion H as [|ls ? lss' ? Hl Hls]; subst lss. subst. set (all := done ++ t :: todo) in *.
    pose proof Hl as (l & gl & i & r1 & r2 & spin & r3 & r4 & r5 & Els & _ & _ & _ & _ & _ & _ & _ & HG). subst ls.
    cbn [List.length talys_levels]. destruct kept as [|l0 kept].
    { cbn [app]. specialize (HS line). destruct (get_line (mkin after tl) line) as [[f1 line1] ok]. cbn [fst snd] in HS. rewrite (proj2 (read_short _ HS)). reflexivity. }
    cbn [List.concat app] in HC. injection HC as <- HC. cbn [app get_line i_lines i_tail].
    rewrite (read_level_line_ok _ _ _ Hl). cbn [bind]. rewrite (add_level_end z a all done t todo _ _ eq_refl HR). rewrite Nat2Z.id.
    assert (Ht : nth_error all (List.length done) = Some t) by (unfold all; rewrite nth_error_app2, Nat.sub_diag by lia; reflexivity).
    pose proof (talys_gammas_run all z a (S (List.length done)) (placed all done) (List.length done) (t_energy t) (t_twoJ t) (t_parity t)
      (in_place_placed all done _ eq_refl) (eq_sym (placed_length all done)) (ex_intro _ t (conj Ht eq_refl))) as RUN.
    apply app_eq_app in HC as (x & [[E1 E2]|[E1 E2]]).
    + subst gl. destruct x as [|x0 x].
      * cbn [app] in E2. subst lost. rewrite app_nil_r in HG.
        destruct (RUN kept (t_gammas t) [] after tl l HG (fun q Hq Hb => HE _ _ _ Ht Hq Hb)) as [line' R]. rewrite R.
        cbn [bind app]. specialize (IH (done ++ [t]) lss' [] (List.concat lss') line').
        rewrite app_length, Nat.add_1_r, placed_snoc in IH. apply IH; [|exact Hls|reflexivity|exact HN]. unfold all. rewrite <- app_assoc. reflexivity.
      * apply Forall2_app_left in HG as (q1 & q2 & Eq & G1 & G2).
        assert (HQ : forall q, In q q1 -> 0 < units (snd q) -> 0 <= fst q <= Z.of_nat (List.length done)).
        { intros q Hq Hb. apply (HE _ _ _ Ht); [rewrite Eq; apply in_or_app; left; exact Hq|exact Hb]. }
        destruct (RUN kept q1 [] after tl l G1 HQ) as [line' R].
        rewrite Eq, app_length, talys_gammas_app, R. cbn [bind]. inversion G2; subst. cbn [List.length talys_gammas].
        specialize (HS line'). destruct (get_line (mkin after tl) line') as [[f1 line1] ok]. cbn [fst snd] in HS. rewrite (proj1 (read_short _ HS)). reflexivity.
    + subst kept. rewrite <- app_assoc. destruct (RUN gl (t_gammas t) [] (x ++ after) tl l HG (fun q Hq Hb => HE _ _ _ Ht Hq Hb)) as [line' ->].
      cbn [bind app]. specialize (IH (done ++ [t]) lss' x lost line').
      rewrite app_length, Nat.add_1_r, placed_snoc in IH. apply IH; [|exact Hls|exact E2|exact HN]. unfold all. rewrite <- app_assoc. reflexivity.
Qed.

(** A data set whose last lines are missing, in a file that ends with a newline, is not loaded:
    the code uses variables that were never set. *)
Theorem C70_truncated : forall z a pre hdr lss kept lost ts,
  Forall no_nl pre -> no_nl hdr -> Forall no_nl kept -> 1 <= a ->
  Forall (fun l => ~ header_of z a l) pre -> header_of z a hdr -> says_count (Z.of_nat (List.length ts) - 1) hdr ->
  Forall2 level_lines lss ts -> rising ts -> ends_listed ts -> List.concat lss = kept ++ lost -> lost <> [] ->
  parse_talys z a (Some (unlines (pre ++ hdr :: kept))) = Er Undefined.
Proof.
  intros z a pre hdr lss kept lost ts N1 N2 N3 Ha HP HH HC HL HR HE HX HN.
  destruct (header_id z a hdr HH Ha) as [id Hid].
  unfold parse_talys. rewrite Hid. cbn [bind]. cbv zeta. unfold find_dataset.
  rewrite <- (app_nil_r (unlines _)). rewrite lines_of_unlines.
  - rewrite (find_lines_first _ pre hdr).
    + rewrite (header_count_says _ _ HC). cbn [bind]. replace (Z.to_nat (Z.of_nat (List.length ts) - 1 + 1)) with (List.length ts) by lia.
      pose proof (talys_levels_cut z a ts [] (Some []) HR HE (fun _ => or_introl eq_refl) ts [] lss kept lost hdr eq_refl HL HX HN) as K. rewrite app_nil_r in K. exact K.
    + eapply Forall_impl; [|exact HP]. intros l Hl. cbv beta in Hl. destruct (nuclide_line (lower_last id) l) eqn:El; [|reflexivity].
      exfalso. apply Hl. apply (nuclide_line_spec z a id Hid). exact El.
    + apply (nuclide_line_spec z a id Hid). exact HH.
  - apply Forall_app. split; [exact N1|]. constructor; assumption.
  - intros [].
Qed.
Print Assumptions C70_truncated.

(** Nor is a data set loaded in which a line stops after its first number (the number of a
    level, or the index of the level a gamma goes to), or is blank. *)
Theorem C70_short_line : forall z a pre hdr lss kept lost short rest t ts,
  Forall no_nl pre -> no_nl hdr -> Forall no_nl kept -> no_nl short -> Forall no_nl rest -> no_nl t -> 1 <= a ->
  Forall (fun l => ~ header_of z a l) pre -> header_of z a hdr -> says_count (Z.of_nat (List.length ts) - 1) hdr ->
  Forall2 level_lines lss ts -> rising ts -> ends_listed ts -> List.concat lss = kept ++ lost -> lost <> [] -> short_line short ->
  parse_talys z a (Some (unlines (pre ++ hdr :: kept ++ short :: rest) ++ t)) = Er Undefined.
Proof.
  intros z a pre hdr lss kept lost short rest t ts N1 N2 N3 N4 N5 N6 Ha HP HH HC HL HR HE HX HN HS.
  destruct (header_id z a hdr HH Ha) as [id Hid].
  unfold parse_talys. rewrite Hid. cbn [bind]. cbv zeta. unfold find_dataset. rewrite lines_of_unlines.
  - rewrite (find_lines_first _ pre hdr).
    + rewrite (header_count_says _ _ HC). cbn [bind]. replace (Z.to_nat (Z.of_nat (List.length ts) - 1 + 1)) with (List.length ts) by lia.
      exact (talys_levels_cut z a ts (short :: rest) (Some t) HR HE (fun _ => HS) ts [] lss kept lost hdr eq_refl HL HX HN).
    + eapply Forall_impl; [|exact HP]. intros l Hl. cbv beta in Hl. destruct (nuclide_line (lower_last id) l) eqn:El; [|reflexivity].
      exfalso. apply Hl. apply (nuclide_line_spec z a id Hid). exact El.
    + apply (nuclide_line_spec z a id Hid). exact HH.
  - apply Forall_app. split; [exact N1|]. constructor; [exact N2|]. apply Forall_app. split; [exact N3|]. constructor; assumption.
  - exact N6.
Qed.
Print Assumptions C70_short_line.

(** ** Files that cannot be used *)

Lemma find_lines_none : forall id ls t, (forall l, In l ls \/ l = t -> nuclide_line id l = false) -> find_lines id ls t = None.
Proof.
  intros id ls t. induction ls as [|l ls IH]; intros H; cbn [find_lines].
  - rewrite (H t) by (right; reflexivity). reflexivity.
  - rewrite (H l) by (left; left; reflexivity). apply IH. intros l' [Hl|Hl]; apply H; [left; right; exact Hl|right; exact Hl].
Qed.

(** No file, or no data for the nuclide in it: an error of MARLEY. *)
Theorem C70_missing : forall z a sym, element_symbol z = Ok sym -> 1 <= a <= 999 ->
  parse_talys z a None = Er MarleyErr /\
  forall ls t, Forall no_nl ls -> no_nl t -> Forall (fun l => ~ header_of z a l) (ls ++ [t]) ->
    parse_talys z a (Some (unlines ls ++ t)) = Er MarleyErr.
Proof.
  intros z a sym Hs Ha. destruct (talys_id z a sym Hs Ha) as (k & id & Hid & _).
  unfold parse_talys. rewrite Hid. cbn [bind]. split; [reflexivity|]. intros ls t HL Ht HN. cbv zeta. unfold find_dataset.
  rewrite lines_of_unlines by assumption. rewrite find_lines_none; [reflexivity|].
  intros l Hl. destruct (nuclide_line (lower_last id) l) eqn:El; [|reflexivity]. exfalso.
  rewrite Forall_forall in HN. apply (HN l).
  - apply in_or_app. destruct Hl as [Hl| ->]; [left; exact Hl|right; left; reflexivity].
  - apply (nuclide_line_spec z a id Hid). exact El.
Qed.
Print Assumptions C70_missing.

(** ** Any file *)

Definition ends_of (sc : scheme) : list (nat * spec_float) := map (fun p => (fst p, energy_of p)) (s_levels sc).
Definition gammas_good (En : list (nat * spec_float)) (p : nat * level) : Prop :=
  Forall (fun g => 0 < units (g_ri g) /\ exists x ex, g_end g = Some x /\ In (x, ex) En /\ g_energy g = SFsub 53 1024 (energy_of p) ex) (l_gammas (snd p)).
Definition good (sc : scheme) : Prop :=
  ordered (s_levels sc) /\ fresh_ok sc /\ NoDup (map fst (s_levels sc)) /\ Forall (gammas_good (ends_of sc)) (s_levels sc).

Lemma good_add_level : forall e tj pi sc, good sc -> good (snd (add_level (mkl e tj pi []) sc)) /\
  In (s_next sc, e) (ends_of (snd (add_level (mkl e tj pi []) sc))).
Proof.
  intros e tj pi sc (HO & HF & HN & HG). destruct (add_level_ordered (mkl e tj pi []) sc HF HO) as [HO' HF'].
  pose proof (insert_at_perm (lower_bound_index e (s_levels sc)) (s_next sc, mkl e tj pi []) (s_levels sc)) as HP.
  assert (HI : forall p, In p (s_levels (snd (add_level (mkl e tj pi []) sc))) <-> In p (s_levels sc) \/ p = (s_next sc, mkl e tj pi [])).
  { intros p. cbn [add_level snd s_levels l_energy]. split.
    - intros H. apply (Permutation.Permutation_in _ HP) in H. apply in_app_or in H as [H|[<-|[]]]; auto.
    - intros H. apply (Permutation.Permutation_in _ (Permutation.Permutation_sym HP)). apply in_or_app.
      destruct H as [H| ->]; [left; exact H|right; left; reflexivity]. }
  split; [|unfold ends_of; apply in_map_iff; exists (s_next sc, mkl e tj pi []); split; [reflexivity|apply HI; right; reflexivity]].
  split; [exact HO'|]. split; [exact HF'|]. split.
  - cbn [add_level snd s_levels l_energy]. eapply Permutation.Permutation_NoDup; [apply Permutation.Permutation_map, Permutation.Permutation_sym, HP|].
    rewrite map_app. cbn [map fst]. eapply Permutation.Permutation_NoDup; [apply Permutation.Permutation_cons_append|].
    constructor; [|exact HN]. intros H. apply in_map_iff in H as (p & E & Hp). unfold fresh_ok in HF. rewrite Forall_forall in HF.
    specialize (HF p Hp). lia.
  - rewrite Forall_forall in *. intros p Hp. apply HI in Hp as [Hp| ->]; [|constructor].
    specialize (HG p Hp). unfold gammas_good in *. eapply Forall_impl; [|exact HG].
    intros g (A & x & ex & B & C & D). split; [exact A|]. exists x, ex. split; [exact B|]. split; [|exact D].
    unfold ends_of in *. apply in_map_iff in C as (q & E & Hq). apply in_map_iff. exists q. split; [exact E|]. apply HI. left. exact Hq.
Qed.

Lemma ends_add_gamma : forall a g sc, ends_of (add_gamma a g sc) = ends_of sc.
Proof.
  intros a g sc. unfold ends_of. rewrite add_gamma_levels, map_map. apply map_ext. intros p.
  rewrite add_gamma_to_fst, add_gamma_to_en. reflexivity.
Qed.

Lemma good_add_gamma : forall a e br x ex sc, good sc -> In (a, e) (ends_of sc) -> In (x, ex) (ends_of sc) -> 0 < units br ->
  good (add_gamma a (mkg (SFsub 53 1024 e ex) br (Some x)) sc).
Proof.
  intros a e br x ex sc (HO & HF & HN & HG) Ha Hx Hb. set (g := mkg _ _ _).
  destruct (add_gamma_ordered a g sc HF HO) as [HO' HF']. split; [exact HO'|]. split; [exact HF'|]. split.
  - rewrite add_gamma_levels, map_map. erewrite map_ext; [exact HN|]. intros p. apply add_gamma_to_fst.
  - rewrite ends_add_gamma, add_gamma_levels. rewrite Forall_forall in *. intros p Hp. apply in_map_iff in Hp as (q & <- & Hq).
    pose proof (HG q Hq) as Gq. unfold gammas_good in *. rewrite add_gamma_to_en. unfold add_gamma_to.
    destruct (Nat.eqb_spec (fst q) a) as [E|E]; [|exact Gq]. cbn [snd l_gammas]. apply Forall_app. split; [exact Gq|].
    constructor; [|constructor]. cbn [g_ri g_end g_energy g]. split; [exact Hb|]. exists x, ex. split; [reflexivity|]. split; [exact Hx|].
    f_equal. unfold ends_of in Ha. apply in_map_iff in Ha as (q' & E' & Hq'). injection E' as E1 E2.
    assert (q = q'); [|subst q'; symmetry; exact E2].
    clear - HN Hq Hq' E E1. rewrite <- E1 in E. clear E1. induction (s_levels sc) as [|y l IH]; [destruct Hq|].
    cbn [map] in HN. inversion HN as [|? ? H1 H2]; subst. destruct Hq as [->|Hq], Hq' as [->|Hq']; [reflexivity| | |apply IH; assumption].
    + exfalso. apply H1. rewrite E. apply in_map. exact Hq'.
    + exfalso. apply H1. rewrite <- E. apply in_map. exact Hq.
Qed.

Lemma talys_gammas_good : forall n a e sc f line sc' f' line', talys_gammas n a e sc f line = Ok (sc', f', line') -> good sc ->
  In (a, e) (ends_of sc) -> good sc' /\ s_Z sc' = s_Z sc /\ s_A sc' = s_A sc /\ List.length (s_levels sc') = List.length (s_levels sc).
Proof.
  induction n as [|n IH]; intros a e sc f line sc' f' line' H HG Ha; cbn [talys_gammas] in H; [injection H as <- <- <-; auto|].
  destruct (get_line f line) as [[f1 line1] ok]. destruct (read_gamma_line line1) as [[i br]|]; [|discriminate H]. cbn [bind] in H.
  destruct (Z.ltb_spec 0 (units br)) as [Hb|Hb]; [|apply (IH _ _ _ _ _ _ _ _ H HG Ha)].
  unfold level_at in H. destruct (i <? 0); [discriminate H|]. destruct (nth_error (s_levels sc) (Z.to_nat i)) as [p|] eqn:Ep; [|discriminate H].
  cbn [bind] in H. apply IH in H.
  - destruct H as (A & B & C & D). split; [exact A|]. split; [exact B|]. split; [exact C|]. rewrite D, add_gamma_levels, map_length. reflexivity.
  - apply good_add_gamma; [exact HG|exact Ha| |exact Hb]. apply nth_error_In in Ep. unfold ends_of. apply in_map_iff. exists p. auto.
  - rewrite ends_add_gamma. exact Ha.
Qed.

Lemma talys_levels_good : forall n sc f line sc', talys_levels n sc f line = Ok sc' -> good sc ->
  good sc' /\ s_Z sc' = s_Z sc /\ s_A sc' = s_A sc /\ List.length (s_levels sc') = (n + List.length (s_levels sc))%nat.
Proof.
  induction n as [|n IH]; intros sc f line sc' H HG; cbn [talys_levels] in H; [injection H as <-; auto|].
  destruct (get_line f line) as [[f1 line1] ok]. destruct (read_level_line line1) as [[[[e tj] pi] ng]|]; [|discriminate H]. cbn [bind] in H.
  destruct (add_level (mkl e tj pi []) sc) as [a sc1] eqn:EA. destruct (good_add_level e tj pi sc HG) as [G1 G2]. rewrite EA in G1, G2. cbn [snd] in *.
  unfold add_level in EA. injection EA as <- EA.
  destruct (talys_gammas _ _ _ _ _ _) as [[[sc2 f2] line2]|] eqn:EG; [|discriminate H]. cbn [bind] in H.
  apply talys_gammas_good in EG as (A & B & C & D); [|exact G1|exact G2]. apply IH in H as (A' & B' & C' & D'); [|exact A].
  split; [exact A'|]. split; [rewrite B', B, <- EA; reflexivity|]. split; [rewrite C', C, <- EA; reflexivity|].
  rewrite D', D, <- EA. cbn [s_levels]. rewrite insert_at_split, app_length. cbn [List.length]. 
  rewrite firstn_length, skipn_length. lia.
Qed.

(** Whatever the file holds, a scheme that is loaded belongs to the nuclide asked for, its levels
    are in order of energy, each gamma has a positive branching ratio and leads to a level of
    the scheme, and its energy is the difference between the two levels. *)
Theorem C70_any_file : forall z a file sc, parse_talys z a (Some file) = Ok sc ->
  s_Z sc = z /\ s_A sc = a /\ StronglySorted (fun p q => units (energy_of p) <= units (energy_of q)) (s_levels sc) /\
  NoDup (map fst (s_levels sc)) /\
  (forall p g, In p (s_levels sc) -> In g (l_gammas (snd p)) -> 0 < units (g_ri g) /\
     exists q, In q (s_levels sc) /\ g_end g = Some (fst q) /\ g_energy g = SFsub 53 1024 (energy_of p) (energy_of q)) /\
  (exists hdr n, header_of z a hdr /\ header_count hdr = Ok n /\ List.length (s_levels sc) = Z.to_nat (n + 1)).
Proof.
  intros z a file sc H. unfold parse_talys in H. destruct (nuc_id z a) as [id|] eqn:Hid; [|discriminate H]. cbn [bind] in H. cbv zeta in H.
  destruct (find_dataset (lower_last id) file) as [[hdr f]|] eqn:EF; [|discriminate H].
  destruct (header_count hdr) as [n|] eqn:EN; [|discriminate H]. cbn [bind] in H.
  assert (HH : header_of z a hdr).
  { apply (nuclide_line_spec z a id Hid). unfold find_dataset in EF. destruct (lines_of file) as [ls t]. clear - EF.
    induction ls as [|l ls IH]; cbn [find_lines] in EF.
    - destruct (nuclide_line (lower_last id) t) eqn:E; [|discriminate EF]. injection EF as <- _. exact E.
    - destruct (nuclide_line (lower_last id) l) eqn:E; [|apply IH; exact EF]. injection EF as <- _. exact E. }
  apply talys_levels_good in H.
  2:{ split; [constructor|]. split; [constructor|]. split; constructor. }
  destruct H as ((HO & _ & HN & HG) & HZ & HA & HL). split; [exact HZ|]. split; [exact HA|]. split.
  { clear - HO. induction HO as [|p l _ IH Hp]; constructor; [exact IH|]. eapply Forall_impl; [|exact Hp].
    intros q [Hq|[Hq _]]; lia. }
  split; [exact HN|]. split.
  - intros p g Hp Hg. rewrite Forall_forall in HG. specialize (HG p Hp). unfold gammas_good in HG. rewrite Forall_forall in HG.
    destruct (HG g Hg) as (A & x & ex & B & C & D). split; [exact A|]. unfold ends_of in C. apply in_map_iff in C as (q & E & Hq).
    injection E as <- <-. exists q. auto.
  - exists hdr, n. split; [exact HH|]. split; [exact EN|]. rewrite HL. cbn [new_scheme s_levels List.length]. lia.
Qed.
Print Assumptions C70_any_file.

(** ** The list of all nuclides *)

(** A header line of any nuclide: eighteen columns of digits and blanks, 56 blanks, four columns
    of digits and blanks, two more characters. *)
Definition any_header (line : bytes) : Prop :=
  exists p q c d, line = p ++ repeat " "%char 56 ++ q ++ [c; d] /\ List.length p = 18%nat /\ List.length q = 4%nat /\
    (forall x, In x p \/ In x q -> is_digit x = true \/ x = " "%char) /\ (forall x, In x [c; d] -> x <> nl /\ x <> chr 13).
Definition says_nuclide (z a : Z) (line : bytes) : Prop :=
  exists x r y r', rd_dbl line = Some (x, r) /\ rd_dbl r = Some (y, r') /\ units x = z * 2 ^ 1074 /\ units y = a * 2 ^ 1074 /\
    int_min <= z <= int_max /\ int_min <= a <= int_max.

Lemma any_header_spec : forall line, any_nuclide_line line = true <-> any_header line.
Proof.
  intros line. unfold any_nuclide_line. split.
  - intros H. repeat rewrite andb_true_iff in H. destruct H as [[[[H1 H2] H3] H4] H5]. apply Nat.eqb_eq in H1.
    assert (E1 : line = firstn 18 line ++ skipn 18 line) by (symmetry; apply firstn_skipn).
    assert (E2 : skipn 18 line = firstn 56 (skipn 18 line) ++ skipn 56 (skipn 18 line)) by (symmetry; apply firstn_skipn).
    assert (SK : forall n m (l : bytes), skipn n (skipn m l) = skipn (m + n) l).
    { intros n m. induction m as [|m IH]; intros l; [reflexivity|]. destruct l; [destruct n; reflexivity|]. cbn [skipn Nat.add]. apply IH. }
    rewrite SK in E2. cbn [Nat.add] in E2.
    assert (E3 : skipn 74 line = firstn 4 (skipn 74 line) ++ skipn 4 (skipn 74 line)) by (symmetry; apply firstn_skipn).
    rewrite SK in E3. cbn [Nat.add] in E3.
    assert (L5 : List.length (skipn 78 line) = 2%nat) by (rewrite skipn_length; lia).
    assert (L4 : List.length (firstn 4 (skipn 74 line)) = 4%nat) by (rewrite firstn_length, skipn_length; lia).
    assert (L3 : List.length (firstn 56 (skipn 18 line)) = 56%nat) by (rewrite firstn_length, skipn_length; lia).
    assert (L2 : List.length (firstn 18 line) = 18%nat) by (rewrite firstn_length; lia).
    assert (B : firstn 56 (skipn 18 line) = repeat " "%char 56).
    { assert (K : forall l, forallb (fun c => ceq c " "%char) l = true -> l = repeat " "%char (List.length l)).
      { clear. induction l as [|c l IH]; intros H; [reflexivity|]. cbn [forallb] in H. apply andb_prop in H as [H1 H2]. apply Ascii.eqb_eq in H1 as ->.
        cbn [List.length repeat]. f_equal. apply IH. exact H2. }
      pose proof (K _ H3) as B. rewrite L3 in B. exact B. }
    rewrite E1, E2, E3, B. set (q := firstn 4 (skipn 74 line)) in *. set (p := firstn 18 line) in *.
    destruct (skipn 78 line) as [|c [|d [|e l]]]; try discriminate L5. exists p, q, c, d.
    split; [reflexivity|]. split; [exact L2|]. split; [exact L4|]. split.
    + intros x [Hx|Hx]; apply digit_or_space_spec; [exact (proj1 (forallb_forall _ _) H2 x Hx)|exact (proj1 (forallb_forall _ _) H4 x Hx)].
    + intros x Hx. apply (proj1 (forallb_forall _ _) H5) in Hx. apply andb_prop in Hx as [A A']. unfold ceq in *.
      split; intros ->; rewrite Ascii.eqb_refl in *; discriminate.
  - intros (p & q & c & d & -> & Hp & Hq & HD & HE).
    assert (P18 : firstn 18 (p ++ repeat " "%char 56 ++ q ++ [c; d]) = p /\ skipn 18 (p ++ repeat " "%char 56 ++ q ++ [c; d]) = repeat " "%char 56 ++ q ++ [c; d]) by (apply firstn_18; exact Hp).
    destruct P18 as [P1 P2]. rewrite P1, P2.
    destruct p as [|p1 [|p2 [|p3 [|p4 [|p5 [|p6 [|p7 [|p8 [|p9 [|p10 [|p11 [|p12 [|p13 [|p14 [|p15 [|p16 [|p17 [|p18 [|p19 p]]]]]]]]]]]]]]]]]]]; try discriminate Hp.
    destruct q as [|q1 [|q2 [|q3 [|q4 [|q5 q]]]]]; try discriminate Hq. clear Hp Hq P1 P2.
    apply andb_true_intro; split; [apply andb_true_intro; split; [apply andb_true_intro; split; [apply andb_true_intro; split|]|]|].
    + reflexivity.
    + apply forallb_forall. intros x Hx. apply digit_or_space_spec. apply HD. left. exact Hx.
    + reflexivity.
    + apply forallb_forall. intros x Hx. apply digit_or_space_spec. apply HD. right. exact Hx.
    + apply forallb_forall. intros x Hx. destruct (HE x Hx) as [A B]. unfold ceq.
      destruct (Ascii.eqb_spec x nl); [contradiction|]. destruct (Ascii.eqb_spec x (chr 13)); [contradiction|]. reflexivity.
Qed.

(** Every header of a nuclide is one of these. *)
Lemma header_any : forall z a line, header_of z a line -> 1 <= a -> any_header line.
Proof.
  intros z a line (pre & k & sym & -> & Hl & Hp & Hk & Hs) Ha.
  assert (A9 : a <= 999).
  { destruct (header_id z a (pre ++ repeat " "%char 57 ++ repeat " "%char k ++ show_int a ++ pad_right sym 2 " "%char)) as [id Hid].
    - exists pre, k, sym. auto.
    - exact Ha.
    - apply (C22_nucid_rejects z a (ex_intro _ id Hid)). }
  destruct (talys_id z a sym Hs ltac:(lia)) as (k' & id & _ & _ & Hk' & c & d & Hcd & Hne). rewrite Hcd.
  exists pre, (" "%char :: repeat " "%char k ++ show_int a), c, d. split.
  - f_equal. replace (repeat " "%char 57) with (repeat " "%char 56 ++ [" "%char]) by reflexivity. cbn [app]. rewrite <- !app_assoc. reflexivity.
  - split; [exact Hl|]. split; [cbn [List.length]; rewrite app_length, repeat_length, Hk; reflexivity|]. split; [|exact Hne].
    intros x [Hx|[<-|Hx]]; [apply Hp; exact Hx|right; reflexivity|]. apply in_app_or in Hx as [Hx|Hx].
    + right. exact (repeat_spec _ _ _ Hx).
    + left. unfold show_int in Hx. destruct (Z.ltb_spec a 0); [lia|]. exact (proj1 (forallb_forall _ _) (digits_all a ltac:(lia)) x Hx).
Qed.

Lemma to_int_exact : forall x z, units x = z * 2 ^ 1074 -> int_min <= z <= int_max -> to_int x = Ok z.
Proof.
  intros x z H Hr. unfold to_int. rewrite H. cbv zeta. rewrite Z.quot_mul by (apply Z.pow_nonzero; lia).
  destruct (Z.ltb_spec z int_min); [lia|]. destruct (Z.ltb_spec int_max z); [lia|]. reflexivity.
Qed.

Lemma nuclides_in_spec : forall ls old found, (forall l, In l ls -> any_header l -> exists z a, says_nuclide z a l) ->
  exists out, nuclides_in ls old found = Ok out /\ forall pdg, In pdg out <-> In pdg found \/
    exists l z a, In l ls /\ any_header l /\ says_nuclide z a l /\ pdg = nucleus_pid z a.
Proof.
  induction ls as [|l ls IH]; intros old found H; cbn [nuclides_in].
  - exists found. split; [reflexivity|]. intros pdg. split; [auto|]. intros [Hf|(l & z & a & [] & _)]. exact Hf.
  - assert (H' : forall l, In l ls -> any_header l -> exists z a, says_nuclide z a l) by (intros l' Hl'; apply H; right; exact Hl').
    destruct (any_nuclide_line l) eqn:El.
    + apply any_header_spec in El. destruct (H l (or_introl eq_refl) El) as (z & a & Hs). pose proof Hs as (x & r & y & r' & R1 & R2 & U1 & U2 & B1 & B2).
      unfold header_ZA. rewrite (get_dbl_rd _ _ _ R1), (get_dbl_rd _ _ _ R2). rewrite (to_int_exact _ _ U1 B1), (to_int_exact _ _ U2 B2). cbn [bind].
      destruct (IH (Some x, Some y) (nucleus_pid z a :: found) H') as (out & E & S). exists out. split; [exact E|].
      intros pdg. rewrite S. split.
      * intros [[<-|Hf]|(l' & z' & a' & Hl' & Hr)]; [right; exists l, z, a; auto using in_eq|left; exact Hf|].
        right. exists l', z', a'. split; [right; exact Hl'|exact Hr].
      * intros [Hf|(l' & z' & a' & [<-|Hl'] & HA & HS' & HP)]; [left; right; exact Hf| |right; exists l', z', a'; auto].
        left. left. rewrite HP. destruct HS' as (x' & t & y' & t' & R1' & R2' & U1' & U2' & _). rewrite R1 in R1'. injection R1' as <- <-.
        rewrite R2 in R2'. injection R2' as <- <-. assert (z' = z /\ a' = a) as [-> ->]; [|reflexivity].
        assert (0 < 2 ^ 1074) by (apply Z.pow_pos_nonneg; lia). rewrite U1 in U1'. rewrite U2 in U2'.
        apply Z.mul_cancel_r in U1', U2'; [auto|lia|lia].
    + destruct (IH old found H') as (out & E & S). exists out. split; [exact E|]. intros pdg. rewrite S. split.
      * intros [Hf|(l' & z' & a' & Hl' & Hr)]; [left; exact Hf|right; exists l', z', a'; split; [right; exact Hl'|exact Hr]].
      * intros [Hf|(l' & z' & a' & [<-|Hl'] & HA & HS' & HP)]; [left; exact Hf| |right; exists l', z', a'; auto].
        apply any_header_spec in HA. congruence.
Qed.

(** If every header line says which nuclide it is for, the list holds exactly the codes of these
    nuclides; and a nuclide whose data can be found is in it. *)
Theorem C70_nuclides : forall ls t, Forall no_nl ls -> no_nl t ->
  (forall l, In l (ls ++ [t]) -> any_header l -> exists z a, says_nuclide z a l) ->
  exists out, find_all_nuclides (Some (unlines ls ++ t)) = Ok out /\
    (forall pdg, In pdg out <-> exists l z a, In l (ls ++ [t]) /\ any_header l /\ says_nuclide z a l /\ pdg = nucleus_pid z a) /\
    (forall l z a, In l (ls ++ [t]) -> header_of z a l -> 1 <= a -> says_nuclide z a l -> In (nucleus_pid z a) out).
Proof.
  intros ls t HL Ht H. unfold find_all_nuclides. rewrite lines_of_unlines by assumption.
  set (all := match t with [] => ls | _ => ls ++ [t] end).
  assert (HI : forall l, any_header l -> (In l all <-> In l (ls ++ [t]))).
  { intros l Hh. unfold all. destruct t; [|reflexivity]. rewrite in_app_iff. split; [auto|]. intros [X|[<-|[]]]; [exact X|].
    destruct Hh as (p & q & c & d & E & Hp & _). destruct p; [discriminate Hp|discriminate E]. }
  destruct (nuclides_in_spec all (None, None) []) as (out & E & S).
  { intros l Hl Hh. apply H; [apply HI; assumption|exact Hh]. }
  exists out. split; [exact E|].
  assert (M : forall pdg, In pdg out <-> exists l z a, In l (ls ++ [t]) /\ any_header l /\ says_nuclide z a l /\ pdg = nucleus_pid z a).
  { intros pdg. rewrite S. split.
    - intros [[]|(l & z & a & A & B & C & D)]. exists l, z, a. split; [apply HI; assumption|auto].
    - intros (l & z & a & A & B & C & D). right. exists l, z, a. split; [apply HI; assumption|auto]. }
  split; [exact M|]. intros l z a Hl Hh Ha Hs. apply M. exists l, z, a. split; [exact Hl|]. split; [apply (header_any z a l Hh Ha)|]. auto.
Qed.
Print Assumptions C70_nuclides.

(** ** Examples *)

Definition hdr40 : bytes := b "  19  40    2    2" ++ spaces 57 ++ b " 40K ".
Definition lines40 : list bytes :=
  [b "   0   0.000000   4.0   -1  0"; b "   1   0.029829   3.0   -1  1"; b "                              0  1.000000";
   b "   2   0.800143   2.0   -1  2"; b "                              1  1.000000"; b "                              0  0.000000"].
Definition file40 : bytes := unlines ([b "# levels"; hdr40] ++ lines40 ++ [b "  20  40    0    0" ++ spaces 57 ++ b " 40Ca"; b "   0   0.000000   0.0    1  0"]).

Example C70_example : (exists sc, parse_talys 19 40 (Some file40) = Ok sc /\ 
    map (fun p => (fst p, l_twoJ (snd p), l_parity (snd p), map (fun g => (show_g17 (g_energy g), g_end g)) (l_gammas (snd p)))) (s_levels sc) =
    [(0%nat, 8, false, []); (1%nat, 6, false, [(b "0.029829000000000001", Some 0%nat)]); (2%nat, 4, false, [(b "0.77031400000000005", Some 1%nat)])]) /\
  (exists sc, parse_talys 20 40 (Some file40) = Ok sc /\ List.length (s_levels sc) = 1%nat) /\
  parse_talys 18 40 (Some file40) = Er MarleyErr /\
  find_all_nuclides (Some file40) = Ok [1000200400; 1000190400].
Proof.
  split; [eexists; split; [vm_compute; reflexivity|vm_compute; reflexivity]|]. split; [eexists; split; [vm_compute; reflexivity|vm_compute; reflexivity]|]. split; vm_compute; reflexivity.
Qed.

(** The hypotheses of C70_dataset, C70_truncated and C70_nuclides hold of this file. *)
Definition levels40 : list talys_level :=
  match (olet (e0, _) <- rd_dbl (b "0.000000"); olet (e1, _) <- rd_dbl (b "0.029829"); olet (e2, _) <- rd_dbl (b "0.800143");
         olet (one, _) <- rd_dbl (b "1.000000"); Some (e0, e1, e2, one)) with
  | Some (e0, e1, e2, one) => [mkt e0 8 false []; mkt e1 6 false [(0, one)]; mkt e2 4 false [(1, one); (0, e0)]]
  | None => []
  end.
Definition text40 : list (list bytes) := [firstn 1 lines40; firstn 2 (skipn 1 lines40); skipn 3 lines40].

Example C70_dataset_example : header_of 19 40 hdr40 /\ says_count (Z.of_nat (List.length levels40) - 1) hdr40 /\
  Forall2 level_lines text40 levels40 /\ rising levels40 /\ ends_listed levels40 /\ ~ header_of 19 40 (b "# levels") /\
  says_nuclide 19 40 hdr40.
Proof.
  split.
  { exists (b "  19  40    2    2"), 1%nat, (b "K"). split; [reflexivity|]. split; [reflexivity|]. split; [|split; reflexivity].
    intros c Hc. apply digit_or_space_spec. revert c Hc. apply forallb_forall. reflexivity. }
  split; [do 7 eexists; repeat (split; [vm_compute; reflexivity|]); vm_compute; reflexivity|].
  split.
  { change text40 with [[nth 0 lines40 []]; [nth 1 lines40 []; nth 2 lines40 []]; [nth 3 lines40 []; nth 4 lines40 []; nth 5 lines40 []]].
    apply Forall2_cons; [|apply Forall2_cons; [|apply Forall2_cons; [|apply Forall2_nil]]].
    - do 9 eexists. split; [reflexivity|]. do 3 (split; [vm_compute; reflexivity|]). split; [vm_compute; reflexivity|]. split; [split; vm_compute; discriminate|]. do 2 (split; [vm_compute; reflexivity|]). apply Forall2_nil.
    - do 9 eexists. split; [reflexivity|]. do 3 (split; [vm_compute; reflexivity|]). split; [vm_compute; reflexivity|]. split; [split; vm_compute; discriminate|]. do 2 (split; [vm_compute; reflexivity|]).
      apply Forall2_cons; [|apply Forall2_nil]. do 2 eexists. split; [vm_compute; reflexivity|vm_compute; reflexivity].
    - do 9 eexists. split; [reflexivity|]. do 3 (split; [vm_compute; reflexivity|]). split; [vm_compute; reflexivity|]. split; [split; vm_compute; discriminate|]. do 2 (split; [vm_compute; reflexivity|]).
      apply Forall2_cons; [|apply Forall2_cons; [|apply Forall2_nil]]; (do 2 eexists; split; [vm_compute; reflexivity|vm_compute; reflexivity]). }
  split.
  { apply SSorted_cons; [apply SSorted_cons; [apply SSorted_cons; [apply SSorted_nil|apply Forall_nil]|]|].
    - apply Forall_cons; [vm_compute; reflexivity|apply Forall_nil].
    - apply Forall_cons; [vm_compute; reflexivity|]. apply Forall_cons; [vm_compute; reflexivity|apply Forall_nil]. }
  split.
  { intros i t q Hi Hq _. destruct i as [|[|[|i]]]; vm_compute in Hi; try (destruct i; discriminate Hi); injection Hi as <-; cbn [t_gammas In] in Hq;
      repeat destruct Hq as [<-|Hq]; try contradiction; cbn [fst]; lia. }
  split.
  { intros H. destruct (nuc_id 19 40) as [id|] eqn:Hid; [|vm_compute in Hid; discriminate Hid]. apply (nuclide_line_spec 19 40 id Hid) in H. vm_compute in H. discriminate H. }
  do 4 eexists. do 4 (split; [vm_compute; reflexivity|]). split; split; vm_compute; discriminate.
Qed.

(** A gamma line without a branching ratio. *)
Example C70_short_line_example : short_line (b "     0  ") /\ no_nl (b "     0  ") /\
  List.concat text40 = firstn 2 lines40 ++ skipn 2 lines40 /\ skipn 2 lines40 <> [].
Proof. split; [right; do 2 eexists; split; reflexivity|]. split; [|split; [reflexivity|discriminate]]. intros H. cbn in H. intuition discriminate. Qed.

(** A file cut inside the data set whose last line does not end with a newline: that line is read
    again and again as the lines that are missing, and the levels are loaded. *)
Theorem C70_truncated_refuted : exists sc, parse_talys 19 40 (Some (unlines [hdr40] ++ b "   0   0.000000   4.0   -1  0")) = Ok sc /\
  map (fun p => (fst p, show_g17 (energy_of p), l_twoJ (snd p))) (s_levels sc) = [(2%nat, b "0", 8); (1%nat, b "0", 8); (0%nat, b "0", 8)].
Proof. eexists. split; [vm_compute; reflexivity|vm_compute; reflexivity]. Qed.
Print Assumptions C70_truncated_refuted.

(** Two levels of equal energy: the later one is put before the earlier one, and the level
    numbers of the file no longer name the right levels. Here the gamma goes to level 1 in the
    file, which has spin 1, but is loaded with level 0, of spin 4, as its end. *)
Theorem C70_equal_energies_refuted :
  let f := unlines [hdr40; b "0 0.0 4.0 -1 0"; b "1 0.0 1.0 1 0"; b "2 0.5 2.0 1 1"; b "1 1.0"] in
  exists sc p q r g, parse_talys 19 40 (Some f) = Ok sc /\ s_levels sc = [q; p; r] /\ l_gammas (snd r) = [g] /\
    l_twoJ (snd p) = 8 /\ l_twoJ (snd q) = 2 /\ g_end g = Some (fst p).
Proof. do 5 eexists. split; [vm_compute; reflexivity|]. split; [reflexivity|]. split; [reflexivity|]. repeat split. Qed.
Print Assumptions C70_equal_energies_refuted.

(** Levels out of order: the same; and a final level listed later is an error. *)
Theorem C70_order_refuted :
  parse_talys 19 40 (Some (unlines [hdr40; b "0 0.0 4.0 -1 1"; b "1 1.0"; b "1 0.5 1.0 1 0"; b "2 0.7 1.0 1 0"])) = Er StdRange /\
  (exists sc, parse_talys 19 40 (Some (unlines [hdr40; b "0 0.0 4.0 -1 0"; b "1 0.5 1.0 1 0"; b "2 0.2 2.0 1 1"; b "1 1.0"])) = Ok sc /\
    map (fun p => (fst p, map g_end (l_gammas (snd p)))) (s_levels sc) = [(0%nat, []); (2%nat, [Some 2%nat]); (1%nat, [])]).
Proof. split; [vm_compute; reflexivity|]. eexists. split; [vm_compute; reflexivity|vm_compute; reflexivity]. Qed.
Print Assumptions C70_order_refuted.

(** A line of eighty blanks counts as a header for the list of nuclides: before any other header
    variables without value are used, after one the nuclide is listed again. *)
Theorem C70_blank_header_refuted : find_all_nuclides (Some (unlines [spaces 80])) = Er Undefined /\
  find_all_nuclides (Some (unlines [hdr40; spaces 80])) = Ok [1000190400; 1000190400] /\
  find_all_nuclides None = Er MarleyErr.
Proof. split; [vm_compute; reflexivity|]. split; vm_compute; reflexivity. Qed.
Print Assumptions C70_blank_header_refuted.
