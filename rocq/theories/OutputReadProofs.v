(** Proofs about reading event files and about the files a run leaves. *)
From Coq Require Import List Ascii String ZArith Bool Lia.
From Coq Require Import Floats.SpecFloat.
From Verif Require Import Base Dbl DigitsProofs DblProofs Json JsonSpec JsonProofs JsonNumProofs
  JsonExpProofs JsonRtProofs JsonExtraProofs Stream StreamProofs Pdg Event EventSpec EventProofs EventJsonProofs
  HepNumProofs HepSpec HepProofs Output OutputSpec OutputProofs.
Import ListNotations.
Local Open Scope Z_scope.

Lemma calls_app : forall n m r l r', calls n r = Ok (l, r') ->
  calls (n + m) r = do (l2, r2) <- calls m r'; Ok (l ++ l2, r2).
Proof.
  induction n as [|n IH]; intros m r l r' H.
  - injection H as <- <-. cbn [Nat.add app]. destruct (calls m r) as [[l2 r2]|]; reflexivity.
  - cbn [calls Nat.add] in *. destruct (next_event r) as [[[ok ev] r1]|]; [|discriminate H]. cbn [bind] in *.
    destruct (calls n r1) as [[l1 r1']|] eqn:E; [|discriminate H]. cbn [bind] in H. injection H as <- <-.
    rewrite (IH m r1 l1 r1' E). destruct (calls m r1') as [[l2 r2]|]; reflexivity.
Qed.

(** ** JSON *)

Lemma calls_json : forall D evs l pre x, Forall2 (stores D) evs l ->
  exists evs', Forall2 (event_rel D) evs evs' /\
  calls (List.length evs) (RJson (pre ++ l) (List.length pre) x)
  = Ok (map (pair true) evs', RJson (pre ++ l) (List.length (pre ++ l)) x).
Proof.
  induction evs as [|ev evs IH]; intros l pre x H; inversion H as [|? j ? l' Hs Hl]; subst.
  - exists []. split; [constructor|]. rewrite app_nil_r. reflexivity.
  - destruct Hs as (ev' & E1 & E2). destruct (IH l' (pre ++ [j]) x Hl) as (evs' & F1 & F2).
    exists (ev' :: evs'). split; [constructor; assumption|]. cbn [List.length calls next_event].
    assert (Hlt : Nat.eqb (List.length pre) (List.length (pre ++ j :: l')) = false).
    { apply Nat.eqb_neq. rewrite app_length. cbn. lia. }
    rewrite Hlt. rewrite nth_error_app2 by lia. rewrite Nat.sub_diag. cbn [nth_error]. rewrite E1. cbn [bind].
    rewrite <- app_assoc in F2. cbn [app] in F2. rewrite app_length in F2. cbn [List.length] in F2.
    rewrite Nat.add_1_r in F2. rewrite F2. reflexivity.
Qed.

Section gen.
Variable C : Type.
Variable flux : C -> spec_float.

Lemma reader_json : forall R (D : spec_float -> spec_float -> Prop) s l config g n evs, numeric R -> (forall x y, read_as R x y -> D x y) ->
  closed_file flux R s l config g n -> Forall2 (stores D) evs l ->
  exists r evs' r', open_reader s = Ok r /\ D (flux (g_cfg g)) (reader_flux r) /\
    Forall2 (event_rel D) evs evs' /\
    calls (S (List.length evs)) r = Ok (map (pair true) evs' ++ [(false, empty_event)], r') /\
    next_event r' = Er Undefined.
Proof.
  intros R D s l config g n evs HR HD (Hhd & gs & Hs & cfg & x & -> & Hc & Hx) Hev.
  destruct (calls_json D evs l [] (fst (to_double x)) Hev) as (evs' & E1 & E2).
  exists (RJson l 0 (fst (to_double x))), evs', (RJson l (S (List.length l)) (fst (to_double x))).
  split.
  { unfold open_reader. destruct s as [|c r]; [discriminate Hhd|]. injection Hhd as ->.
    change (skip_sp ("{"%char :: r)) with ("{"%char :: r).
    change (ceq "{" "{") with true. cbv iota. unfold init_json, load. rewrite Hs. cbn [bind fst]. reflexivity. }
  split; [cbn [reader_flux]; destruct (rel_flt R _ _ HR Hx) as (y & Y1 & Y2); rewrite Y1; apply HD; exact Y2|].
  split; [exact E1|]. cbn [app List.length] in E2. split.
  - replace (S (List.length evs)) with (List.length evs + 1)%nat by lia.
    rewrite (calls_app _ 1 _ _ _ E2). cbn [calls next_event]. rewrite Nat.eqb_refl. reflexivity.
  - cbn [next_event]. assert (Hn : Nat.eqb (S (List.length l)) (List.length l) = false) by (apply Nat.eqb_neq; lia).
    rewrite Hn. assert (HN : nth_error l (S (List.length l)) = None) by (apply nth_error_None; lia).
    rewrite HN. reflexivity.
Qed.

End gen.

(** ** ASCII *)

Definition ascii_left (w : bytes) (evs : list event) : bytes := match evs with [] => w | _ => [nl] end.

Lemma calls_ascii : forall evs w x, forallb is_space w = true -> Forall good_event evs ->
  calls (List.length evs) (RAscii (Some (w ++ events_text evs)) x)
  = Ok (map (pair true) evs, RAscii (Some (ascii_left w evs)) x).
Proof.
  induction evs as [|ev evs IH]; intros w x Hw H.
  - cbn. rewrite app_nil_r. reflexivity.
  - inversion H as [|? ? H1 H2]; subst. cbn [List.length calls next_event].
    change (events_text (ev :: evs)) with (print_event ev ++ events_text evs).
    rewrite read_event_print by assumption. cbn [bind].
    specialize (IH [nl] x eq_refl H2). cbn [app] in IH. rewrite IH. cbn [bind map].
    unfold ascii_left. destruct evs; reflexivity.
Qed.

Lemma calls_ascii_end : forall k x, 
  calls k (RAscii None x) = Ok (repeat (false, empty_event) k, RAscii None x).
Proof. induction k; intros x; cbn [calls next_event bind repeat]; [reflexivity|]. rewrite IHk. reflexivity. Qed.

Lemma rd_dbl_not_brace : forall s v t, rd_dbl s = Some (v, t) -> exists c r, skip_sp s = c :: r /\ ceq c "{"%char = false.
Proof.
  intros s v t H. unfold rd_dbl in H. destruct (skip_sp s) as [|c r] eqn:E; [discriminate H|].
  exists c, r. split; [reflexivity|]. destruct (ceq c "{"%char) eqn:Ec; [|reflexivity].
  apply ceq_true in Ec. subst c. discriminate H.
Qed.

Lemma reader_ascii : forall x evs k, finite_dbl x -> Forall good_event evs -> evs <> [] ->
  exists r r', open_reader (show_e17 x ++ nl :: events_text evs) = Ok r /\ reader_flux r = x /\
    calls (List.length evs + S k) r = Ok (map (pair true) evs ++ repeat (false, empty_event) (S k), r').
Proof.
  intros x evs k Hx Hev Hne. exists (RAscii (Some (nl :: events_text evs)) x), (RAscii None x).
  assert (HR : rd_dbl (show_e17 x ++ nl :: events_text evs) = Some (x, nl :: events_text evs))
    by (apply (rd_dbl_show [] x); [reflexivity|exact Hx|reflexivity]).
  split; [|split; [reflexivity|]].
  - unfold open_reader. destruct (rd_dbl_not_brace _ _ _ HR) as (c & r & E & Ec). rewrite E, Ec.
    unfold ascii_ok. rewrite HR. destruct evs as [|ev evs]; [congruence|]. inversion Hev; subst.
    change (nl :: events_text (ev :: evs)) with ([nl] ++ print_event ev ++ events_text evs).
    rewrite read_event_print by (try reflexivity; assumption). reflexivity.
  - pose proof (calls_ascii evs [nl] x eq_refl Hev) as HC. cbn [app] in HC.
    rewrite (calls_app _ (S k) _ _ _ HC).
    assert (HL : ascii_left [nl] evs = [nl]) by (destruct evs; reflexivity). rewrite HL.
    cbn [calls next_event]. rewrite (read_event_blank [nl] eq_refl). cbn [bind].
    rewrite calls_ascii_end. reflexivity.
Qed.

(** ** HEPEVT *)

Lemma rd_dbl_token : forall w z t, forallb is_space w = true ->
  match t with [] => True | c :: _ => is_space c = true end ->
  rd_dbl (w ++ show_int z ++ t) = None \/ exists v, rd_dbl (w ++ show_int z ++ t) = Some (v, t).
Proof.
  intros w z t Hw Ht. unfold rd_dbl. rewrite skip_sp_app by exact Hw.
  assert (HS : exists neg n, 0 <= n /\ take_sign (skip_sp (show_int z ++ t)) = (neg, digits n ++ t)).
  { unfold show_int. destruct (Z.ltb_spec z 0) as [Hz|Hz].
    - exists true, (- z). split; [lia|]. reflexivity.
    - exists false, z. split; [lia|]. pose proof (digits_all z Hz) as Ha.
      destruct (digits z) as [|c r] eqn:Ed; [pose proof (digits_nonempty z Hz) as HL; rewrite Ed in HL; cbn in HL; lia|].
      cbn [forallb] in Ha. apply andb_prop in Ha as [Hc _]. cbn [app].
      rewrite skip_sp_digit by exact Hc. rewrite take_sign_digit by exact Hc. reflexivity. }
  destruct HS as (neg & n & Hn & E). rewrite E.
  rewrite span_digits_app; [|apply digits_all; exact Hn|destruct t as [|c t]; [exact I|apply space_cases in Ht; tauto]].
  assert (HE : rd_exp t = Some (0, t) /\ match t with c :: r' => if ceq c "."%char then span_digits r' else ([], t) | [] => ([], t) end = ([], t)).
  { destruct t as [|c t]; [split; reflexivity|]. apply space_cases in Ht as (_ & _ & _ & H4 & H5 & H6).
    unfold rd_exp. rewrite H4, H5, H6. split; reflexivity. }
  destruct HE as [H1 H2]. rewrite H2. rewrite app_nil_r. destruct (digits n) as [|d ds]; [auto|].
  rewrite H1. cbn [obind]. destruct (is_finite_dbl _); eauto.
Qed.

Lemma hep_not_ascii : forall x ev t, event_ok hep_dbl ev -> is_int (1 + len (e_init ev) + len (e_fin ev)) ->
  e_init ev <> [] -> ascii_ok (print_hepevt 0 x ev ++ t) = false.
Proof.
  intros x ev t Hok Hn Hi. unfold ascii_ok, print_hepevt.
  rewrite <- !app_assoc.
  match goal with |- context [rd_dbl (show_int 0 ++ ?u)] => set (rest := u) end.
  destruct (rd_dbl_token [] 0 rest eq_refl eq_refl) as [E|(v & E)]; cbn [app] in E; rewrite E; [reflexivity|].
  unfold rest. destruct (e_init ev) as [|p ps] eqn:Ei; [congruence|].
  assert (Hp : is_int (p_pdg p)).
  { destruct Hok as (H1 & _). rewrite Ei in H1. inversion H1 as [|? ? H2 _]; subst. apply H2. }
  unfold read_event, read_header. rewrite rd_int_show; [|reflexivity|exact Hn|reflexivity]. cbn [obind].
  cbn [flat_map]. unfold hep_line at 1. rewrite <- !app_assoc.
  rewrite rd_int_show; [|reflexivity|split; vm_compute; congruence|reflexivity]. cbn [obind].
  match goal with |- context [rd_dbl (sp ++ show_int (p_pdg p) ++ ?u)] =>
    destruct (rd_dbl_token sp (p_pdg p) u eq_refl eq_refl) as [E2|(v2 & E2)] end;
    rewrite E2; cbn [obind bind]; [reflexivity|].
  rewrite rd_int_show; [|reflexivity|split; vm_compute; congruence|reflexivity]. cbn [obind].
  match goal with |- context [rd_parity ?u] => assert (HP : rd_parity u = Er MarleyErr) by reflexivity end.
  rewrite HP. reflexivity.
Qed.

Definition hep_good (ev : event) : Prop :=
  event_ok hep_dbl ev /\ nuclear_event ev /\ is_int (1 + len (e_init ev) + len (e_fin ev)).

Lemma nuclear_init : forall ev, nuclear_event ev -> e_init ev <> [].
Proof. intros ev H. unfold nuclear_event in H. destruct H as (? & ? & ? & ? & ? & -> & _). discriminate. Qed.

Lemma calls_hep : forall x evs w y, forallb is_space w = true -> hep_dbl x -> Forall (hep_good) evs ->
  exists evs' z, Forall2 (event_rel near_dbl) evs evs' /\
  calls (List.length evs) (RHep (Some (w ++ flat_map (print_hepevt 0 x) evs)) y)
  = Ok (map (pair true) evs', RHep (Some (ascii_left w evs)) z).
Proof.
  induction evs as [|ev evs IH]; intros w y Hw Hx H.
  - exists [], y. split; [constructor|]. cbn. rewrite app_nil_r. reflexivity.
  - inversion H as [|? ? (H1 & H2 & H3) H4]; subst. cbn [List.length calls next_event flat_map].
    destruct (hep_roundtrip w 0 x ev (flat_map (print_hepevt 0 x) evs) Hw ltac:(split; vm_compute; congruence) H3 H1 Hx H2)
      as (ev' & x' & E1 & E2 & E3).
    rewrite E1. cbn [bind]. destruct (IH [nl] x' eq_refl Hx H4) as (evs' & z & F1 & F2). cbn [app] in F2.
    exists (ev' :: evs'), z. split; [constructor; assumption|]. rewrite F2. cbn [bind map].
    unfold ascii_left. destruct evs; reflexivity.
Qed.

Lemma calls_hep_end : forall k x, calls k (RHep None x) = Ok (repeat (false, empty_event) k, RHep None x).
Proof. induction k; intros x; cbn [calls next_event bind repeat]; [reflexivity|]. rewrite IHk. reflexivity. Qed.

Lemma hep_not_brace : forall x ev t, exists r, skip_sp (print_hepevt 0 x ev ++ t) = "0"%char :: r.
Proof. intros. eexists. unfold print_hepevt. rewrite <- !app_assoc. reflexivity. Qed.

Lemma reader_hep : forall x evs k, hep_dbl x -> Forall (hep_good) evs -> evs <> [] ->
  exists r r' evs', open_reader (flat_map (print_hepevt 0 x) evs) = Ok r /\ near_dbl x (reader_flux r) /\
    Forall2 (event_rel near_dbl) evs evs' /\
    calls (List.length evs + S k) r = Ok (map (pair true) evs' ++ repeat (false, empty_event) (S k), r').
Proof.
  intros x evs k Hx Hev Hne. destruct evs as [|ev evs]; [congruence|].
  inversion Hev as [|? ? (H1 & H2 & H3) H4]; subst.
  destruct (hep_roundtrip [] 0 x ev (flat_map (print_hepevt 0 x) evs) eq_refl ltac:(split; vm_compute; congruence) H3 H1 Hx H2)
      as (ev' & x' & E1 & E2 & E3). cbn [app] in E1.
  destruct (calls_hep x (ev :: evs) [] x' eq_refl Hx Hev) as (evs' & z & F1 & F2). cbn [app] in F2.
  change (ascii_left [] (ev :: evs)) with [nl] in F2.
  exists (RHep (Some (flat_map (print_hepevt 0 x) (ev :: evs))) x'), (RHep None z), evs'.
  split; [|split; [exact E3|split; [exact F1|]]].
  - cbn [flat_map]. unfold open_reader. destruct (hep_not_brace x ev (flat_map (print_hepevt 0 x) evs)) as (r & Er).
    rewrite Er. change (ceq "0" "{") with false. cbv iota.
    rewrite hep_not_ascii; [|exact H1|exact H3|apply nuclear_init; exact H2].
    unfold hep_ok. rewrite E1. reflexivity.
  - rewrite (calls_app _ (S k) _ _ _ F2). cbn [calls next_event].
    change (read_hepevt [nl]) with (Ok (A:=option (event * spec_float * bytes)) None). cbn [bind].
    rewrite calls_hep_end. reflexivity.
Qed.
