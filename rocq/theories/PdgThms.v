(** Theorems about particle codes, names, charges, parities and the particles of
    reactions (C21 to C24, C47). *)
From Coq Require Import List Ascii String ZArith Bool Lia.
From Verif Require Import Base Dbl DigitsProofs Json JsonRtProofs Stream Pdg Strings Names React.
Import ListNotations.
Local Open Scope Z_scope.

(** ** C21: nuclear PDG codes *)

Lemma decode_fields : forall z a, 0 <= z <= 999 -> 0 <= a <= 999 ->
  (10000 * z + 10 * a + 1000000000) mod 10000000 / 10000 = z /\
  (10000 * z + 10 * a + 1000000000) mod 10000 / 10 = a.
Proof.
  intros z a Hz Ha. split.
  - rewrite <- (Z.mod_unique (10000 * z + 10 * a + 1000000000) 10000000 100 (10000 * z + 10 * a)) by lia.
    symmetry. apply Z.div_unique with (10 * a); lia.
  - rewrite <- (Z.mod_unique (10000 * z + 10 * a + 1000000000) 10000 (100000 + z) (10 * a)) by lia.
    symmetry. apply Z.div_unique with 0; lia.
Qed.

Theorem C21_decodes : forall z a, 0 <= z <= 999 -> 0 <= a <= 999 ->
  particle_Z (nucleus_pid z a) = z /\ particle_A (nucleus_pid z a) = a /\ is_int (nucleus_pid z a).
Proof.
  intros z a Hz Ha. destruct (decode_fields z a Hz Ha) as [F1 F2].
  assert (C : (z = 0 /\ a = 1) \/ (z = 1 /\ a = 1) \/ nucleus_pid z a = 10000 * z + 10 * a + 1000000000).
  { unfold nucleus_pid. destruct (Z.eqb_spec z 0), (Z.eqb_spec a 1), (Z.eqb_spec z 1); cbn [andb]; auto; lia. }
  destruct C as [[-> ->] | [[-> ->] | ->]]; try (split; [reflexivity|split; [reflexivity|split; vm_compute; congruence]]).
  unfold particle_Z, particle_A, is_int, int_min, int_max.
  destruct (Z.eqb_spec (10000 * z + 10 * a + 1000000000) PROTON) as [E|_]; [unfold PROTON in E; lia|].
  destruct (Z.eqb_spec (10000 * z + 10 * a + 1000000000) NEUTRON) as [E|_]; [unfold NEUTRON in E; lia|].
  destruct (Z.ltb_spec 1000000000 (10000 * z + 10 * a + 1000000000)); [rewrite F1, F2|]; lia.
Qed.
Print Assumptions C21_decodes.

Theorem C21_injective : forall z a z' a', 0 <= z <= 999 -> 0 <= a <= 999 -> 0 <= z' <= 999 -> 0 <= a' <= 999 ->
  nucleus_pid z a = nucleus_pid z' a' -> z = z' /\ a = a'.
Proof.
  intros z a z' a' H1 H2 H3 H4 E. destruct (C21_decodes z a H1 H2) as (A1 & A2 & _).
  destruct (C21_decodes z' a' H3 H4) as (B1 & B2 & _). rewrite E in A1, A2. split; congruence.
Qed.
Print Assumptions C21_injective.

Theorem C21_ions : forall z a, 0 <= z <= 999 -> 2 <= a <= 999 -> is_ion (nucleus_pid z a) = true.
Proof.
  intros z a Hz Ha. unfold nucleus_pid, is_ion. destruct (Z.eqb_spec a 1); [lia|]. rewrite !andb_false_r.
  apply andb_true_iff. split; apply Z.ltb_lt; lia.
Qed.
Print Assumptions C21_ions.

Example C21_example : nucleus_pid 18 40 = 1000180400 /\ nucleus_pid 0 1 = 2112 /\ nucleus_pid 1 1 = 2212 /\
  nucleus_pid 1 2 = 1000010020.
Proof. repeat split. Qed.

(** The codes are those of the PDG: free nucleons have their own, and the digits of
    all others are 10 0ZZZ AAA 0. *)
Theorem C21_standard : forall z a, 0 <= z <= 999 -> 0 <= a <= 999 ->
  (nucleus_pid z a = 2112 <-> z = 0 /\ a = 1) /\ (nucleus_pid z a = 2212 <-> z = 1 /\ a = 1) /\
  (~ (a = 1 /\ (z = 0 \/ z = 1)) ->
     nucleus_pid z a / 10 ^ 7 = 100 /\ (nucleus_pid z a / 10 ^ 4) mod 1000 = z /\ (nucleus_pid z a / 10) mod 1000 = a /\
     nucleus_pid z a mod 10 = 0).
Proof.
  intros z a Hz Ha. unfold nucleus_pid, NEUTRON, PROTON.
  destruct (Z.eqb_spec z 0); destruct (Z.eqb_spec z 1); destruct (Z.eqb_spec a 1); cbn [andb]; try lia;
    (split; [split; lia|split; [split; lia|]]); intros Hn; try (exfalso; apply Hn; lia);
    change (10 ^ 7) with 10000000; change (10 ^ 4) with 10000; repeat split; 
    Z.to_euclidean_division_equations; lia.
Qed.
Print Assumptions C21_standard.

(** Beyond 999 the fields run into each other. *)
Theorem C21_beyond_refuted : particle_A (nucleus_pid 18 1040) = 40 /\ particle_Z (nucleus_pid 18 1040) = 19.
Proof. split; reflexivity. Qed.

(** ** C22: names *)

Lemma nuc_id_mass : forall a, 1 <= a <= 999 ->
  let m := if a <? 10 then b "  " ++ show_int a else if a <? 100 then b " " ++ show_int a else show_int a in
  List.length m = 3%nat /\ exists k, m = repeat " "%char k ++ show_int a.
Proof.
  intros a Ha. cbv zeta. unfold show_int. destruct (Z.ltb_spec a 0); [lia|].
  destruct (Z.ltb_spec a 10).
  - split; [|exists 2%nat; reflexivity]. rewrite app_length, (digits_length a 1) by (cbn; lia). reflexivity.
  - destruct (Z.ltb_spec a 100).
    + split; [|exists 1%nat; reflexivity]. rewrite app_length, (digits_length a 2) by (cbn; lia). reflexivity.
    + split; [|exists 0%nat; reflexivity]. rewrite (digits_length a 3) by (cbn; lia). reflexivity.
Qed.

(** The last two characters of the nucid of each element decode to its number. *)
Definition sym2 (s : bytes) : bytes := match to_uppercase s with [c] => [c; " "%char] | t => t end.
Definition table_ok (p : Z * string) : bool :=
  match sym2 (b (snd p)) with
  | [c; d] =>
      match atomic_number (trim_right whitespace [c; lower d]) with
      | Ok z => z =? fst p
      | Er _ => false
      end
  | _ => false
  end.
Lemma table_all : forallb table_ok element_symbols = true.
Proof. vm_compute. reflexivity. Qed.

Lemma assoc_in : forall {A} (k : Z) (l : list (Z * A)) v, assoc k l = Some v -> In (k, v) l.
Proof.
  intros A k l v. induction l as [|[k' x] l IH]; intros H; [discriminate H|]. cbn [assoc] in H.
  destruct (Z.eqb_spec k k') as [->|]; [injection H as ->; left; reflexivity|right; apply IH; exact H].
Qed.

(** For every element of the table and every mass number up to 999 the nucid is
    the mass number, right aligned in three characters, and the element symbol in
    two; reading it gives the proton number back. *)
Theorem C22_nucid : forall z a s, element_symbol z = Ok s -> 1 <= a <= 999 ->
  exists k m sym, nuc_id z a = Ok (m ++ sym) /\ m = repeat " "%char k ++ show_int a /\ List.length m = 3%nat /\
    sym = pad_right (to_uppercase s) 2 " "%char /\ List.length (m ++ sym) = 5%nat /\ nucid_to_Z (m ++ sym) = Ok z.
Proof.
  intros z a s Hs Ha. unfold element_symbol in Hs. destruct (assoc z element_symbols) as [w|] eqn:E; [|discriminate Hs].
  injection Hs as <-. pose proof (assoc_in _ _ _ E) as Hin.
  pose proof (proj1 (forallb_forall _ _) table_all _ Hin) as HT. unfold table_ok in HT. cbn [fst snd] in HT.
  destruct (nuc_id_mass a Ha) as [Hl [k Hk]]. cbv zeta in Hl, Hk.
  unfold nuc_id. destruct (Z.ltb_spec z 0) as [Hz|Hz].
  { exfalso. clear - Hin Hz. assert (HP : forallb (fun p => 0 <=? fst p) element_symbols = true) by (vm_compute; reflexivity).
    apply (proj1 (forallb_forall _ _) HP) in Hin. cbn [fst] in Hin. apply Z.leb_le in Hin. lia. }
  destruct (Z.ltb_spec a 1); [lia|]. destruct (Z.ltb_spec 999 a); [lia|]. cbn [orb].
  unfold element_symbol. rewrite E. cbn [bind]. cbv zeta.
  set (m := if a <? 10 then _ else _) in *. unfold sym2 in HT.
  assert (HP : pad_right (to_uppercase (b w)) 2 " "%char =
     match to_uppercase (b w) with [c] => [c; " "%char] | t => t end).
  { destruct (to_uppercase (b w)) as [|c [|d [|e l]]]; try discriminate HT; reflexivity. }
  exists k, m, (pad_right (to_uppercase (b w)) 2 " "%char). rewrite HP.
  split; [destruct (to_uppercase (b w)) as [|? [|? ?]]; reflexivity|].
  split; [exact Hk|]. split; [exact Hl|]. split; [reflexivity|].
  destruct (match to_uppercase (b w) with [c] => [c; " "%char] | t => t end) as [|c [|d [|e l]]]; try discriminate HT.
  split; [rewrite app_length, Hl; reflexivity|]. unfold nucid_to_Z.
  clearbody m. clear - Hl HT. destruct m as [|x [|y [|u [|v m]]]]; try discriminate Hl.
  cbn [app List.length Nat.eqb lower_last skipn]. destruct (atomic_number _) as [z'|]; [|discriminate HT].
  apply Z.eqb_eq in HT. congruence.
Qed.
Print Assumptions C22_nucid.

Example C22_example : nuc_id 18 40 = Ok (b " 40AR") /\ nuc_id 19 40 = Ok (b " 40K ") /\ nucid_to_Z (b " 40K ") = Ok 19 /\
  nucid_to_Z (b "40Ar") = Ok 18.
Proof. repeat split; vm_compute; reflexivity. Qed.

(** Symbols and numbers of the elements determine each other. *)
Theorem C22_symbols : forall z s, element_symbol z = Ok s <-> atomic_number s = Ok z.
Proof.
  assert (H1 : forallb (fun p => match atomic_number (b (snd p)) with Ok z => z =? fst p | Er _ => false end) element_symbols = true)
    by (vm_compute; reflexivity).
  assert (H2 : forallb (fun p => match element_symbol (snd p) with Ok s => bytes_eqb s (b (fst p)) | Er _ => false end) atomic_numbers = true)
    by (vm_compute; reflexivity).
  intros z s. split.
  - intros H. unfold element_symbol in H. destruct (assoc z element_symbols) as [w|] eqn:E; [|discriminate H].
    injection H as <-. apply assoc_in in E. apply (proj1 (forallb_forall _ _) H1) in E. cbn [fst snd] in E.
    destruct (atomic_number (b w)); [|discriminate E]. apply Z.eqb_eq in E. congruence.
  - intros H. unfold atomic_number in H. destruct (find_name s atomic_numbers) as [z'|] eqn:E; [|discriminate H].
    injection H as ->. revert H2 E. generalize atomic_numbers. induction l as [|[k z'] l IH]; cbn [forallb find_name]; intros H2 E; [discriminate E|].
    apply andb_prop in H2 as [H2 H3]. destruct (bytes_eqb s (b k)) eqn:Ek; [|exact (IH H3 E)].
    injection E as ->. cbn [fst snd] in H2. apply bytes_eqb_eq in Ek as ->. destruct (element_symbol z); [|discriminate H2].
    apply bytes_eqb_eq in H2. congruence.
Qed.
Print Assumptions C22_symbols.

(** A mass number and a symbol without padding, the symbol in capitals or as usually
    written, decode as well. *)
Lemma lower_last_app : forall s c, lower_last (s ++ [c]) = s ++ [lower c].
Proof. induction s as [|x s IH]; intros c; [reflexivity|]. cbn [app lower_last]. rewrite IH. destruct (s ++ [c]) eqn:E; [destruct s; discriminate E|reflexivity]. Qed.

Lemma skip_digits_app : forall d s, forallb is_digit d = true -> (match s with c :: _ => is_digit c = false | [] => True end) ->
  skip_digits (d ++ s) = s.
Proof.
  induction d as [|c d IH]; intros s Hd Hs.
  - destruct s as [|c s]; [reflexivity|]. cbn [app skip_digits]. rewrite Hs. reflexivity.
  - cbn [forallb] in Hd. apply andb_prop in Hd as [Hc Hd]. cbn [app skip_digits]. rewrite Hc. apply IH; assumption.
Qed.

Lemma after_digits_app : forall d s, d <> [] -> forallb is_digit d = true -> (match s with c :: _ => is_digit c = false | [] => True end) ->
  after_digits (d ++ s) = s.
Proof.
  intros [|c d] s Hne Hd Hs; [congruence|]. cbn [forallb] in Hd. apply andb_prop in Hd as [Hc Hd].
  cbn [app after_digits]. rewrite Hc. apply skip_digits_app; assumption.
Qed.

Definition plain_ok (p : Z * string) : bool :=
  let s := b (snd p) in
  let good t := match (match t with _ :: _ :: _ => atomic_number (lower_last t) | _ => atomic_number t end) with Ok z => z =? fst p | Er _ => false end in
  let alpha t := match t with c :: _ => negb (is_digit c) | [] => false end in
  good s && good (to_uppercase s) && alpha s && alpha (to_uppercase s) &&
  Nat.leb (List.length s) 2 && Nat.leb (List.length (to_uppercase s)) 2 && 
  bytes_eqb (trim_right whitespace (lower_last s)) (lower_last s) &&
  bytes_eqb (trim_right whitespace (lower_last (to_uppercase s))) (lower_last (to_uppercase s)).
Lemma plain_all : forallb plain_ok element_symbols = true.
Proof. vm_compute. reflexivity. Qed.

Theorem C22_plain : forall z a s t, element_symbol z = Ok s -> 1 <= a <= 999 -> t = s \/ t = to_uppercase s ->
  nucid_to_Z (show_int a ++ t) = Ok z.
Proof.
  intros z a s t Hs Ha Ht. unfold element_symbol in Hs. destruct (assoc z element_symbols) as [w|] eqn:E; [|discriminate Hs].
  injection Hs as <-. apply assoc_in in E. apply (proj1 (forallb_forall _ _) plain_all) in E. unfold plain_ok in E. cbn [fst snd] in E.
  repeat match type of E with _ && _ = true => let K := fresh "K" in apply andb_prop in E as [E K] end.
  assert (HT : exists t1, t = t1 /\ match (match t with _ :: _ :: _ => atomic_number (lower_last t) | _ => atomic_number t end) with Ok z' => z' =? z | Er _ => false end = true
     /\ (List.length t <= 2)%nat /\ match t with c :: _ => is_digit c = false | [] => False end /\ bytes_eqb (trim_right whitespace (lower_last t)) (lower_last t) = true).
  { exists t. split; [reflexivity|]. destruct Ht as [->| ->].
    - split; [exact E|]. split; [apply Nat.leb_le; assumption|]. split; [|assumption].
      destruct (b w); [discriminate|]. apply negb_true_iff. assumption.
    - split; [assumption|]. split; [apply Nat.leb_le; assumption|]. split; [|assumption].
      destruct (to_uppercase (b w)); [discriminate|]. apply negb_true_iff. assumption. }
  destruct HT as (_ & _ & HG & HL & HD & HS). clear - Ha HG HL HD HS.
  assert (Hdig : forallb is_digit (show_int a) = true /\ show_int a <> [] /\ (List.length (show_int a) <= 3)%nat).
  { unfold show_int. destruct (Z.ltb_spec a 0); [lia|]. split; [apply digits_all; lia|].
    split; [intros H0; pose proof (digits_nonempty a ltac:(lia)) as H1; rewrite H0 in H1; cbn in H1; lia|].
    destruct (Z.ltb_spec a 10); [rewrite (digits_length a 1) by (cbn; lia); lia|].
    destruct (Z.ltb_spec a 100); [rewrite (digits_length a 2) by (cbn; lia); lia|].
    rewrite (digits_length a 3) by (cbn; lia). lia. }
  destruct Hdig as (D1 & D2 & D3). unfold nucid_to_Z.
  destruct (Nat.eqb (List.length (show_int a ++ t)) 5) eqn:E5.
  - apply Nat.eqb_eq in E5. rewrite app_length in E5. assert (L3 : List.length (show_int a) = 3%nat) by lia.
    assert (L2 : List.length t = 2%nat) by lia. destruct t as [|c [|d [|? ?]]]; try discriminate L2.
    change (show_int a ++ [c; d]) with (show_int a ++ ([c] ++ [d])). rewrite app_assoc, lower_last_app, <- app_assoc.
    replace (skipn 3 (show_int a ++ [c] ++ [lower d])) with [c; lower d]
      by (clear - L3; destruct (show_int a) as [|? [|? [|? [|? ?]]]]; try discriminate L3; reflexivity).
    apply bytes_eqb_eq in HS. cbn [lower_last] in HS, HG |- *. rewrite HS.
    destruct (atomic_number _); try discriminate HG; apply Z.eqb_eq in HG; congruence.
  - rewrite after_digits_app; [|exact D2|exact D1|destruct t; [exact I|exact HD]].
    destruct t as [|c [|d r]]; [destruct HD| |]; destruct (atomic_number _); try discriminate HG; apply Z.eqb_eq in HG; congruence.
Qed.
Print Assumptions C22_plain.

(** Everything else is an exception. *)
Theorem C22_nucid_rejects : forall z a, (exists t, nuc_id z a = Ok t) -> 1 <= a <= 999 /\ exists s, element_symbol z = Ok s.
Proof.
  intros z a [t H]. unfold nuc_id in H. destruct (Z.ltb_spec z 0); [discriminate H|].
  destruct (Z.ltb_spec a 1); [discriminate H|]. destruct (Z.ltb_spec 999 a); [discriminate H|]. cbn [orb] in H.
  split; [lia|]. destruct (element_symbol z) as [s|]; [exists s; reflexivity|discriminate H].
Qed.
Print Assumptions C22_nucid_rejects.

(** Neutrino names: strings and codes determine each other, nothing else is
    accepted. *)
Theorem C22_neutrinos : forall s pdg,
  neutrino_of_string s = Some pdg <->
  (In pdg [12; -12; 14; -14; 16; -16] /\ s = neutrino_to_string pdg).
Proof.
  intros s pdg. split.
  - unfold neutrino_of_string. intros H.
    repeat match type of H with (if bytes_eqb s ?n then _ else _) = _ =>
      destruct (bytes_eqb s n) eqn:E; [apply bytes_eqb_eq in E; subst s; injection H as <-; split; [cbn; tauto|reflexivity]|clear E]
    end. discriminate H.
  - intros [H ->]. cbn [In] in H. repeat (destruct H as [<-|H]; [reflexivity|]). destruct H.
Qed.
Print Assumptions C22_neutrinos.

(** Coulomb correction modes, likewise. *)
Theorem C22_coulomb : forall s m, cmode_of_string s = Ok m <-> cmode_to_string m = Ok s.
Proof.
  intros s m. split.
  - unfold cmode_of_string, cmode_names. cbn [find_cmode]. intros H.
    repeat match type of H with (if bytes_eqb s ?n then _ else _) = _ =>
      destruct (bytes_eqb s n) eqn:E; [apply bytes_eqb_eq in E; subst s; injection H as <-; reflexivity|clear E]
    end. discriminate H.
  - intros H. destruct m; cbn in H; injection H as <-; reflexivity.
Qed.
Print Assumptions C22_coulomb.

Theorem C22_coulomb_total : forall m, exists s, cmode_to_string m = Ok s.
Proof. intros []; eexists; reflexivity. Qed.
Print Assumptions C22_coulomb_total.

(** The documented names. *)
Theorem C22_coulomb_names : 
  cmode_to_string NoCorrection = Ok (b "none") /\ cmode_to_string FermiFunction = Ok (b "Fermi") /\
  cmode_to_string EMA = Ok (b "EMA") /\ cmode_to_string MEMA = Ok (b "MEMA") /\
  cmode_to_string FermiAndEMA = Ok (b "Fermi-EMA") /\ cmode_to_string FermiAndMEMA = Ok (b "Fermi-MEMA").
Proof. repeat split. Qed.
Print Assumptions C22_coulomb_names.

(** ** C23: charges *)

Lemma charge_abs : forall pid, particle_charge pid =
  if 1000000000 <? pid then Ok (particle_Z pid)
  else match assoc (Z.abs pid) charge_table with None => Er StdRange | Some q => Ok (if pid <? 0 then - q else q) end.
Proof.
  intros pid. unfold particle_charge, particle_Z. destruct (Z.ltb_spec 1000000000 pid).
  - destruct (Z.eqb_spec pid PROTON) as [->|]; [exfalso; unfold PROTON in *; lia|].
    destruct (Z.eqb_spec pid NEUTRON) as [->|]; [exfalso; unfold NEUTRON in *; lia|]. reflexivity.
  - destruct (assoc _ _) as [q|]; [|reflexivity]. destruct (pid <? 0); f_equal; lia.
Qed.

Theorem C23_antiparticle : forall pid q q', particle_charge pid = Ok q -> particle_charge (- pid) = Ok q' -> q' = - q.
Proof.
  intros pid q q' H H'. rewrite charge_abs in H, H'. rewrite Z.abs_opp in H'.
  assert (K : forall x, assoc x charge_table <> None -> x <= 1000000000).
  { intros x Hx. unfold charge_table in Hx. cbn [assoc] in Hx.
    repeat match type of Hx with context [x =? ?y] => destruct (Z.eqb_spec x y); [lia|] end. congruence. }
  destruct (Z.ltb_spec 1000000000 pid).
  - destruct (Z.ltb_spec 1000000000 (- pid)); [lia|]. specialize (K (Z.abs pid)).
    destruct (assoc (Z.abs pid) charge_table); [|discriminate H']. specialize (K ltac:(discriminate)). lia.
  - destruct (Z.ltb_spec 1000000000 (- pid)).
    + specialize (K (Z.abs pid)). destruct (assoc (Z.abs pid) charge_table); [|discriminate H].
      specialize (K ltac:(discriminate)). lia.
    + destruct (assoc (Z.abs pid) charge_table) as [x|] eqn:E; [|discriminate H].
      destruct (Z.ltb_spec pid 0), (Z.ltb_spec (- pid) 0); injection H as <-; injection H' as <-; try lia.
      assert (pid = 0) by lia. subst pid. cbn in E. discriminate E.
Qed.
Print Assumptions C23_antiparticle.

Theorem C23_ions : forall z a, 0 <= z <= 999 -> 2 <= a <= 999 -> particle_charge (nucleus_pid z a) = Ok z.
Proof.
  intros z a Hz Ha. rewrite charge_abs. pose proof (C21_ions z a Hz Ha) as Hi. unfold is_ion in Hi.
  apply andb_true_iff in Hi as [Hi _]. rewrite Hi. destruct (C21_decodes z a Hz ltac:(lia)) as [E _]. rewrite E. reflexivity.
Qed.
Print Assumptions C23_ions.

Theorem C23_unknown : forall pid,
  (pid <= 1000000000 /\ ~ In (Z.abs pid) [11; 12; 13; 14; 15; 16; 22; 2112; 2212]) <-> particle_charge pid = Er StdRange.
Proof.
  intros pid. rewrite charge_abs. split.
  - intros [H1 H2]. destruct (Z.ltb_spec 1000000000 pid); [lia|]. unfold charge_table. cbn [assoc].
    repeat match goal with |- context [Z.abs pid =? ?y] =>
      destruct (Z.eqb_spec (Z.abs pid) y) as [E|_]; [exfalso; apply H2; rewrite E; cbn; tauto|] end. reflexivity.
  - intros H. destruct (Z.ltb_spec 1000000000 pid); [discriminate H|]. split; [lia|]. intros Hin.
    cbn [In] in Hin. repeat (destruct Hin as [E|Hin]; [rewrite <- E in H; discriminate H|]). destruct Hin.
Qed.
Print Assumptions C23_unknown.

Example C23_example : particle_charge 11 = Ok (-1) /\ particle_charge (-11) = Ok 1 /\ particle_charge 2212 = Ok 1 /\
  particle_charge 1000180400 = Ok 18 /\ particle_charge 111 = Er StdRange.
Proof. repeat split; vm_compute; reflexivity. Qed.

(** ** C24: reactions conserve charge, baryon number and lepton family *)

(** Lepton family: 0, 1, 2 for e, mu, tau. *)
Definition family (pdg : Z) : Z := (Z.abs pdg - 11) / 2.

Definition conserves (r : reaction) : Prop :=
  r_qa r + r_qb r = r_qc r + r_qd r /\
  particle_A (r_a r) + particle_A (r_b r) = particle_A (r_c r) + particle_A (r_d r) /\
  is_lepton (r_a r) = true /\ is_lepton (r_c r) = true /\
  family (r_c r) = family (r_a r) /\ Z.sgn (r_c r) = Z.sgn (r_a r).

Lemma map_res_in : forall {A B} (f : A -> res B) l l', map_res f l = Ok l' ->
  Forall2 (fun x y => f x = Ok y) l l'.
Proof.
  intros A B f l. induction l as [|x l IH]; intros l' H; cbn [map_res] in H.
  - injection H as <-. constructor.
  - destruct (f x) as [y|] eqn:E; [|discriminate H]. cbn [bind] in H. destruct (map_res f l) as [r|]; [|discriminate H].
    injection H as <-. constructor; [exact E|]. apply IH. reflexivity.
Qed.

Lemma pid_ranges : forall pid, 0 <= particle_Z pid <= 999 /\ 0 <= particle_A pid <= 999.
Proof.
  intros pid. unfold particle_Z, particle_A.
  destruct (pid =? PROTON); [lia|]. destruct (pid =? NEUTRON); [lia|]. destruct (1000000000 <? pid); [|lia].
  pose proof (Z.mod_pos_bound pid 10000000 ltac:(lia)). pose proof (Z.mod_pos_bound pid 10000 ltac:(lia)).
  split; (split; [apply Z.div_pos; lia|]); apply Z.lt_succ_r; apply Z.div_lt_upper_bound; lia.
Qed.

(** Baryon number and nuclear charge of target and residue. *)
Lemma residue_spec : forall pt pdg_b d q, residue pt pdg_b = Ok (d, q) ->
  particle_A d = particle_A pdg_b /\ particle_Z d = particle_Z pdg_b + q.
Proof.
  intros pt pdg_b d q H. destruct (pid_ranges pdg_b) as [H1 H2]. unfold residue in H. destruct pt.
  - destruct (Z.leb_spec (particle_A pdg_b - particle_Z pdg_b) 0); [discriminate H|]. injection H as <- <-.
    destruct (C21_decodes (particle_Z pdg_b + 1) (particle_A pdg_b)) as (A & B & _); [lia|lia|]. split; assumption.
  - destruct (Z.leb_spec (particle_Z pdg_b) 0); [discriminate H|]. injection H as <- <-.
    destruct (C21_decodes (particle_Z pdg_b - 1) (particle_A pdg_b)) as (A & B & _); [lia|lia|]. split; assumption.
  - injection H as <- <-. split; [reflexivity|lia].
  - discriminate H.
Qed.

(** The neutrinos and antineutrinos of the three families each process is made for. *)
Definition neutrinos (pt : proc) : list Z :=
  let nu := [12; 14; 16] in
  match pt with
  | NeutrinoCC => nu
  | AntiNeutrinoCC => map Z.opp nu
  | NC | NuElectronElastic => nu ++ map Z.opp nu
  end.

(** Every reaction built from a data file, for any target code. In an event the
    charges of all particles balance, and so do proton numbers and lepton charges. *)
Theorem C24_nuclear : forall pt pdg_b l, nuclear_reactions pt pdg_b = Ok l ->
  map r_a l = neutrinos pt /\
  Forall (fun r => r_b r = pdg_b /\ r_qb r = 0 /\ conserves r /\
    r_qa r + particle_Z (r_b r) = r_qc r + particle_Z (r_d r)) l.
Proof.
  intros pt pdg_b l H. unfold nuclear_reactions in H. destruct (residue pt pdg_b) as [[d qd]|] eqn:E; [|discriminate H].
  cbn [bind] in H. apply map_res_in in H. destruct (residue_spec pt pdg_b d qd E) as [HA HZ].
  assert (K : forall a r, (do c <- ejectile a pt; nuclear_reaction pt a pdg_b c d qd) = Ok r -> In a (projectiles pt) ->
    r_a r = a /\ r_b r = pdg_b /\ r_qb r = 0 /\ conserves r /\ r_qa r + particle_Z (r_b r) = r_qc r + particle_Z (r_d r)).
  { intros a r Hr Ha. destruct (ejectile a pt) as [c|] eqn:Ec; [|discriminate Hr]. cbn [bind] in Hr.
    unfold nuclear_reaction in Hr. destruct (element_symbol (code_Z pdg_b)); [|discriminate Hr]. cbn [bind] in Hr.
    destruct (element_symbol (code_Z d)); [|discriminate Hr]. cbn [bind] in Hr.
    destruct (particle_charge a) as [qa|] eqn:Qa; [|discriminate Hr]. cbn [bind] in Hr.
    destruct (particle_charge pdg_b) as [qb|]; [|discriminate Hr]. cbn [bind] in Hr.
    destruct (particle_charge c) as [qc|] eqn:Qc; [|discriminate Hr]. cbn [bind] in Hr.
    destruct (particle_charge d) as [x|]; [|discriminate Hr]. cbn [bind] in Hr. injection Hr as <-.
    cbn [r_a r_b r_qa r_qb r_qc r_qd r_c r_d]. split; [reflexivity|]. split; [reflexivity|]. split; [reflexivity|].
    unfold conserves. cbn [r_a r_b r_qa r_qb r_qc r_qd r_c r_d]. rewrite HA, HZ.
    unfold residue in E. destruct pt; cbn [projectiles In] in Ha; try discriminate E.
    - destruct (_ <=? 0) in E; [discriminate E|]. injection E as _ <-.
      repeat (destruct Ha as [<-|Ha]; [cbn in Ec; injection Ec as <-; cbn in Qa, Qc; injection Qa as <-; injection Qc as <-;
        repeat split; lia|]). destruct Ha.
    - destruct (_ <=? 0) in E; [discriminate E|]. injection E as _ <-.
      repeat (destruct Ha as [<-|Ha]; [cbn in Ec; injection Ec as <-; cbn in Qa, Qc; injection Qa as <-; injection Qc as <-;
        repeat split; lia|]). destruct Ha.
    - injection E as _ <-.
      repeat (destruct Ha as [<-|Ha]; [cbn in Ec; injection Ec as <-; cbn in Qa, Qc; injection Qa as <-; injection Qc as <-;
        repeat split; lia|]). destruct Ha. }
  assert (HN : projectiles pt = neutrinos pt) by (destruct pt; reflexivity). rewrite <- HN.
  revert K H. generalize (projectiles pt). clear. intros ps K H. induction H as [|a r ps l Hr _ IH].
  - split; [reflexivity|constructor].
  - destruct (K a r Hr (or_introl eq_refl)) as (K1 & K2). destruct IH as [I1 I2].
    { intros a' r' Hr' Ha'. apply K; [exact Hr'|right; exact Ha']. }
    cbn [map]. split; [rewrite K1, I1; reflexivity|]. constructor; assumption.
Qed.
Print Assumptions C24_nuclear.

Theorem C24_electron : forall l, electron_reactions = Ok l -> map r_a l = neutrinos NuElectronElastic /\ Forall conserves l.
Proof.
  intros l H. vm_compute in H. injection H as <-. split; [reflexivity|].
  repeat (constructor; [unfold conserves; repeat split|]). constructor.
Qed.
Print Assumptions C24_electron.

Example C24_example : exists l1 l2, nuclear_reactions NeutrinoCC 1000180400 = Ok l1 /\ electron_reactions = Ok l2 /\
  map r_c l1 = [11; 13; 15] /\ map r_d l1 = [1000190400; 1000190400; 1000190400] /\ List.length l2 = 6%nat.
Proof. do 2 eexists. split; [vm_compute; reflexivity|]. split; [vm_compute; reflexivity|]. repeat split. Qed.

(** Targets and projectiles a process cannot have are refused. *)
Theorem C24_rejects : forall pdg_b a pt, 
  (particle_A pdg_b <= particle_Z pdg_b -> nuclear_reactions NeutrinoCC pdg_b = Er MarleyErr) /\
  (particle_Z pdg_b <= 0 -> nuclear_reactions AntiNeutrinoCC pdg_b = Er MarleyErr) /\
  (~ In a (projectiles pt) -> ejectile a pt = Er MarleyErr).
Proof.
  intros pdg_b a pt. unfold nuclear_reactions, residue. split; [|split].
  - intros H. destruct (Z.leb_spec (particle_A pdg_b - particle_Z pdg_b) 0); [reflexivity|lia].
  - intros H. destruct (Z.leb_spec (particle_Z pdg_b) 0); [reflexivity|lia].
  - intros H. unfold ejectile. destruct (existsb (Z.eqb a) (projectiles pt)) eqn:E; [|reflexivity].
    apply existsb_exists in E as (x & Hx & Ex). apply Z.eqb_eq in Ex. subst x. contradiction.
Qed.
Print Assumptions C24_rejects.

(** With hydrogen as target the residue is a neutron to which events give charge
    -1; and a target given as a free proton gets proton number 0 and mass number
    221 in the cross section. *)
Theorem C24_hydrogen_refuted : exists l, nuclear_reactions AntiNeutrinoCC 1000010010 = Ok l /\
  Forall (fun r => r_d r = NEUTRON /\ r_qd r = -1) l /\ particle_charge NEUTRON = Ok 0 /\
  code_Z PROTON = 0 /\ code_A PROTON = 221.
Proof. eexists. split; [vm_compute; reflexivity|]. split; [repeat constructor|]. repeat split. Qed.

(** ** C47: parities *)

Definition sign (p : bool) : Z := parity_to_int p.

(** Parities are the two signs: conversions, product, comparison, flip. *)
Theorem C47_sign_group : forall p q i,
  (sign p = 1 \/ sign p = -1) /\
  (parity_of_int i = Ok p <-> i = sign p) /\
  sign (parity_mul p q) = sign p * sign q /\
  sign (parity_neg p) = - sign p /\
  parity_times p i = sign p * i /\
  (parity_eqb p q = true <-> sign p = sign q) /\ parity_neqb p q = negb (parity_eqb p q).
Proof.
  intros p q i. unfold parity_of_int, sign.
  split; [destruct p; cbn; auto|]. split.
  { split.
    - destruct (Z.eqb_spec i 1) as [E|_]; [intros H; injection H as <-; exact E|].
      destruct (Z.eqb_spec i (-1)) as [E|_]; intros H; [injection H as <-; exact E|discriminate H].
    - intros E. rewrite E. destruct p; reflexivity. }
  split; [destruct p, q; reflexivity|]. split; [destruct p; reflexivity|].
  split; [destruct p; cbn [parity_times parity_to_int]; lia|].
  split; [|destruct p, q; reflexivity]. destruct p, q; cbn; split; congruence.
Qed.
Print Assumptions C47_sign_group.

Theorem C47_rejects : forall i c,
  (i <> 1 -> i <> -1 -> parity_of_int i = Er MarleyErr) /\
  (c <> "+"%char -> c <> "-"%char -> parity_of_char c = Er MarleyErr).
Proof.
  intros i c. split.
  - intros H1 H2. unfold parity_of_int. destruct (Z.eqb_spec i 1); [contradiction|].
    destruct (Z.eqb_spec i (-1)); [contradiction|reflexivity].
  - intros H1 H2. unfold parity_of_char, ceq. destruct (Ascii.eqb_spec c "+"); [contradiction|].
    destruct (Ascii.eqb_spec c "-"); [contradiction|reflexivity].
Qed.
Print Assumptions C47_rejects.

(** Written as a character, after any white space, and read back. *)
Theorem C47_roundtrip : forall p w t, forallb is_space w = true ->
  parity_of_char (parity_to_char p) = Ok p /\
  rd_parity (w ++ parity_to_char p :: t) = Ok (Some (p, t)).
Proof.
  intros p w t Hw. split; [destruct p; reflexivity|]. unfold rd_parity, rd_char.
  assert (E : skip_sp (w ++ parity_to_char p :: t) = parity_to_char p :: t).
  { induction w as [|c w IH]; [destruct p; reflexivity|]. cbn [forallb] in Hw. apply andb_true_iff in Hw as [Hc Hw].
    cbn [app skip_sp]. rewrite Hc. exact (IH Hw). }
  rewrite E. destruct p; reflexivity.
Qed.
Print Assumptions C47_roundtrip.

Example C47_example : rd_parity (b " +1") = Ok (Some (true, b "1")) /\ rd_parity (b "0") = Er MarleyErr /\ rd_parity [] = Ok None.
Proof. repeat split. Qed.
