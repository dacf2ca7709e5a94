(** Proofs about output files. *)
From Coq Require Import List Ascii String ZArith Bool Lia.
From Coq Require Import Floats.SpecFloat.
From Verif Require Import Base Dbl DigitsProofs DblProofs Json JsonSpec JsonProofs JsonNumProofs
  JsonExpProofs JsonRtProofs JsonExtraProofs Stream StreamProofs Pdg Event EventSpec EventProofs EventJsonProofs
  Output OutputSpec.
Import ListNotations.
Local Open Scope Z_scope.

(** ** The event array *)

(** An element of the array: white space before it, its value, its text. *)
Notation elem := (bytes * json * bytes)%type.
Definition el_val (e : elem) : json := snd (fst e).
Definition el_text (e : elem) : bytes := fst (fst e) ++ snd e.
Definition okel (e : elem) : Prop := ws (fst (fst e)) /\ denotes (el_val e) (snd e).

Definition open_body (es : list elem) : bytes :=
  match es with
  | [] => []
  | e :: r => el_text e ++ flat_map (fun e => ","%char :: el_text e) r
  end.

Definition has_elems (es : list elem) : bool := match es with [] => false | _ => true end.

Lemma open_body_snoc : forall es e,
  open_body (es ++ [e]) = open_body es ++ (if has_elems es then [","%char] else []) ++ el_text e.
Proof.
  intros [|e0 es] e; cbn [open_body app has_elems flat_map].
  - rewrite app_nil_r. reflexivity.
  - rewrite flat_map_app. cbn [flat_map]. rewrite app_nil_r, <- app_assoc. reflexivity.
Qed.

Lemma arr_text_body : forall es w0 w1, ws w0 -> ws w1 -> spaced w1 -> Forall okel es ->
  arr_text (map el_val es) (w0 ++ open_body es ++ w1 ++ ["]"%char]).
Proof.
  induction es as [|[[w v] t] es IH]; intros w0 w1 H0 H1 Hs Hok.
  - cbn [open_body app map]. rewrite app_assoc. apply ar_end. apply ws_app; assumption.
  - inversion Hok as [|? ? [Hw Hd] Hok']; subst. cbn [fst snd el_val] in *.
    destruct es as [|e es].
    + cbn [open_body flat_map map]. rewrite app_nil_r. unfold el_text. cbn [fst snd].
      replace (w0 ++ (w ++ t) ++ w1 ++ ["]"%char]) with ((w0 ++ w) ++ t ++ w1 ++ ["]"%char])
        by (rewrite <- !app_assoc; reflexivity).
      apply ar_last; [apply ws_app; assumption|exact Hd|]. split; [exact H1|intros _; exact Hs].
    + specialize (IH [] w1 ws_nil H1 Hs Hok'). cbn [map app] in IH.
      cbn [map]. change (el_val (w, v, t)) with v.
      assert (E : w0 ++ open_body ((w, v, t) :: e :: es) ++ w1 ++ ["]"%char]
        = (w0 ++ w) ++ t ++ [] ++ ","%char :: (open_body (e :: es) ++ w1 ++ ["]"%char])).
      { cbn [open_body flat_map]. unfold el_text at 1. cbn [fst snd]. repeat (rewrite <- !app_assoc; cbn [app]).
        reflexivity. }
      rewrite E. apply ar_more; [apply ws_app; assumption|exact Hd| |exact IH].
      split; [constructor|intros _; exact I].
Qed.

Lemma ws_nl_spaces : forall n, ws (nl :: spaces n).
Proof. intros. apply ws_space; [reflexivity|apply ws_spaces]. Qed.

Lemma ws_sp1 : ws (b " ").
Proof. apply ws_space; [reflexivity|constructor]. Qed.

Lemma ws_ind0 : forall i s, (forall n, ws (s n)) -> ws (ind0 i s).
Proof. intros [n|] s H; cbn; [apply H|constructor]. Qed.
Lemma ws_ind1 : forall i s, (forall n, ws (s n)) -> ws (ind1 i s).
Proof. intros [[|n]|] s H; cbn [ind1]; try constructor. apply H. Qed.
Lemma spaced_ind1 : forall i s, (forall n, spaced (s n)) -> spaced (ind1 i s).
Proof. intros [[|n]|] s H; cbn [ind1]; try exact I. apply H. Qed.

Lemma key_quoted : forall k w, plain_key k -> ws w -> key_text k (dquote :: k ++ [dquote]) w.
Proof.
  intros k w Hk Hw. apply kt_quoted; [|exact Hw].
  rewrite <- (plain_escape k Hk) at 2. apply escape_text.
Qed.

(** The text of a closed file is a document. *)
Lemma closed_text : forall i es gs gt, Forall okel es -> denotes gs gt -> is_number gs = false ->
  load_rest (start_json i ++ open_body es ++ ind1 i (fun n => nl :: spaces n) ++ b "]"
    ++ b "," ++ ind1 i (fun n => nl :: spaces n) ++ dquote :: b "gen_state" ++ dquote :: ind1 i (fun _ => b " ")
    ++ b ":" ++ ind1 i (fun _ => b " ") ++ gt ++ ind1 i (fun _ => [nl]) ++ b "}")
  = Ok (JObj [(b "events", JArr (map el_val es)); (b "gen_state", gs)], []).
Proof.
  intros i es gs gt Hes Hgs Hnum.
  set (w0 := ind0 i (fun n => nl :: spaces n)). set (w1 := ind0 i (fun _ => b " ")).
  set (w2 := ind0 i (fun n => nl :: spaces (2 * n))). set (w3 := ind1 i (fun n => nl :: spaces n)).
  set (w4 := ind1 i (fun _ => b " ")). set (w5 := ind1 i (fun _ => [nl])).
  assert (Hw0 : ws w0) by (apply ws_ind0; intros; apply ws_nl_spaces).
  assert (Hw1 : ws w1) by (apply ws_ind0; intros; apply ws_sp1).
  assert (Hw2 : ws w2) by (apply ws_ind0; intros; apply ws_nl_spaces).
  assert (Hw3 : ws w3) by (apply ws_ind1; intros; apply ws_nl_spaces).
  assert (Hw4 : ws w4) by (apply ws_ind1; intros; apply ws_sp1).
  assert (Hw5 : ws w5) by (apply ws_ind1; intros; apply ws_space; [reflexivity|constructor]).
  assert (S3 : spaced w3) by (apply spaced_ind1; reflexivity).
  assert (S5 : spaced w5) by (apply spaced_ind1; reflexivity).
  set (A := "["%char :: (w2 ++ open_body es ++ w3 ++ ["]"%char])).
  assert (HA : denotes (JArr (map el_val es)) A) by (apply dn_arr; apply arr_text_body; assumption).
  set (K1 := dquote :: b "events" ++ [dquote]). set (K2 := dquote :: b "gen_state" ++ [dquote]).
  assert (P1 : plain_key (b "events")) by (apply plain_keyb_ok; reflexivity).
  assert (P2 : plain_key (b "gen_state")) by (apply plain_keyb_ok; reflexivity).
  set (T := w0 ++ K1 ++ w1 ++ ":"%char :: w1 ++ A ++ [] ++ ","%char ::
            (w3 ++ K2 ++ w4 ++ ":"%char :: w4 ++ gt ++ w5 ++ ["}"%char])).
  assert (HT : obj_text [(b "events", JArr (map el_val es)); (b "gen_state", gs)] T).
  { apply ob_more; try assumption.
    - apply key_quoted; assumption.
    - split; [constructor|intros _; exact I].
    - apply ob_last; try assumption; [apply key_quoted; assumption|]. split; [exact Hw5|intros _; exact S5]. }
  assert (HD : denotes (JObj [(b "events", JArr (map el_val es)); (b "gen_state", gs)]) ("{"%char :: T)).
  { rewrite <- mk_obj_sorted.
    - apply dn_obj. exact HT.
    - apply sorted_keysb_ok. reflexivity.
    - constructor; [exact P1|]. constructor; [exact P2|constructor]. }
  pose proof (load_rest_document _ [] T [] ws_nil HD) as HL. cbn [app] in HL. rewrite app_nil_r in HL.
  rewrite <- HL. f_equal. unfold T, start_json, K1, K2, A. fold w0 w1 w2. change (b "{") with ["{"%char].
  change (b "]") with ["]"%char]. change (b ",") with [","%char]. change (b ":") with [":"%char].
  change (b "}") with ["}"%char]. change (b "[") with ["["%char].
  repeat (rewrite <- !app_assoc; cbn [app]). reflexivity.
Qed.

(** ** The state of a JSON file being written *)

Definition json_at (i : option nat) (es : list elem) (f : tfile) (d : disk) : Prop :=
  t_format f = FJson /\ t_indent f = i /\ t_comma f = has_elems es /\
  d = Some (start_json i ++ open_body es) /\ Forall okel es.

Definition text_class (P : spec_float -> Prop) (R : spec_float -> json -> Prop) : Prop :=
  forall x, P x -> exists j, num_text j (show_g17 x) /\ R x j.

Lemma apply_acts_app : forall a b d, apply_acts (a ++ b) d = apply_acts b (apply_acts a d).
Proof. intros. unfold apply_acts. apply fold_left_app. Qed.

Lemma event_text_denotes : forall P R i j, text_class P R -> all_floats P j ->
  exists j', denotes j' (event_text i j) /\ rel_value R j j'.
Proof.
  intros P R [n|] j HPR Hj; unfold event_text, dump; apply (print_denotes_gen P R HPR); exact Hj.
Qed.

Lemma has_elems_snoc : forall es e, has_elems (es ++ [e]) = true.
Proof. intros [|]; reflexivity. Qed.

Lemma write_event_json : forall P R i es f d ev, text_class P R -> json_at i es f d ->
  all_floats P (event_json ev) ->
  exists f' a e, write_event ev f = Ok (f', a) /\ rel_value R (event_json ev) (el_val e) /\
    json_at i (es ++ [e]) f' (apply_acts a d) /\ t_mode f' = t_mode f.
Proof.
  intros P R i es f d ev HPR (H1 & H2 & H3 & H4 & H5) Hev. unfold write_event. rewrite H1, H2, H3.
  destruct (event_text_denotes P R i (event_json ev) HPR Hev) as (v & Hd & Hr).
  exists (mkt FJson (t_mode f) i true (t_flux f)).
  set (w := if has_elems es then ind1 i (fun n => nl :: spaces (2 * n)) else []).
  eexists. exists (w, v, event_text i (event_json ev)). split; [reflexivity|]. split; [exact Hr|].
  split; [|reflexivity].
  assert (Hw : ws w).
  { unfold w. destruct (has_elems es); [|constructor]. apply ws_ind1. intros; apply ws_nl_spaces. }
  split; [reflexivity|]. split; [reflexivity|]. split; [cbn [t_comma]; rewrite has_elems_snoc; reflexivity|].
  split.
  - subst d. cbn [apply_acts fold_left apply_act]. rewrite open_body_snoc. f_equal.
    rewrite <- !app_assoc. do 2 f_equal. unfold el_text, w. cbn [fst snd].
    destruct (has_elems es); [|reflexivity]. rewrite <- app_assoc. reflexivity.
  - apply Forall_app. split; [exact H5|]. constructor; [|constructor]. split; [exact Hw|exact Hd].
Qed.

Lemma write_many_json : forall P R i evs es f d, text_class P R -> json_at i es f d ->
  Forall (fun ev => all_floats P (event_json ev)) evs ->
  exists f' a new, write_many evs f = Ok (f', a) /\
    Forall2 (fun ev e => rel_value R (event_json ev) (el_val e)) evs new /\
    json_at i (es ++ new) f' (apply_acts a d) /\ t_mode f' = t_mode f.
Proof.
  intros P R i evs. induction evs as [|ev evs IH]; intros es f d HPR Hat Hev.
  - exists f, [], []. rewrite app_nil_r. repeat split; try apply Hat. constructor.
  - inversion Hev as [|? ? Hev1 Hev2]; subst.
    destruct (write_event_json P R i es f d ev HPR Hat Hev1) as (f1 & a1 & e & E1 & E2 & E3 & E4).
    destruct (IH (es ++ [e]) f1 (apply_acts a1 d) HPR E3 Hev2) as (f2 & a2 & new & F1 & F2 & F3 & F4).
    exists f2, (a1 ++ a2), (e :: new). cbn [write_many]. rewrite E1. cbn [bind]. rewrite F1. cbn [bind].
    split; [reflexivity|]. split; [constructor; assumption|]. rewrite apply_acts_app.
    rewrite <- app_assoc in F3. split; [exact F3|congruence].
Qed.

(** ** Closing *)

Section gen.
Variable C : Type.
Variable create : Z -> json -> res (generator C).
Variable next : C -> rng -> res (event * C * rng).
Variable flux : C -> spec_float.

Lemma gen_state_eq : forall config g count, gen_state_json C flux config g count =
  JObj [(b "config", config); (b "event_count", JInt count); (b "flux_avg_xsec", JFlt (flux (g_cfg g)));
        (b "generator_state_string", JStr (show_rng (g_rng g))); (b "seed", JStr (show_int (g_seed g)))].
Proof. reflexivity. Qed.

Lemma gen_state_floats : forall P config g count, savable flux P config g count ->
  all_floats P (gen_state_json C flux config g count).
Proof.
  intros P config g count (H1 & H2 & H3). rewrite gen_state_eq.
  apply st_obj; [apply sorted_keysb_ok; reflexivity| |].
  - repeat apply Forall_cons; try apply Forall_nil; apply plain_keyb_ok; reflexivity.
  - repeat apply Forall_cons; try apply Forall_nil; cbn [snd]; try apply st_str.
    + exact H1.
    + apply st_int. exact H3.
    + apply st_flt. exact H2.
Qed.

Lemma state_holds_rel : forall R config g count gs,
  rel_value R (gen_state_json C flux config g count) gs -> state_holds flux R config g count gs.
Proof.
  intros R config g count gs H. rewrite gen_state_eq in H. apply rel_obj in H as (l & -> & H).
  apply rel_cons in H as (v1 & l1 & -> & H1 & H). apply rel_cons in H as (v2 & l2 & -> & H2 & H).
  apply rel_cons in H as (v3 & l3 & -> & H3 & H). apply rel_cons in H as (v4 & l4 & -> & H4 & H).
  apply rel_cons in H as (v5 & l5 & -> & H5 & H). apply rel_nil in H. subst l5.
  apply rel_int in H2. subst v2. inversion H4; subst. inversion H5; subst.
  exists v1, v3. split; [reflexivity|]. split; assumption.
Qed.

Lemma close_json : forall P R i es f d config g count, text_class P R -> json_at i es f d ->
  savable flux P config g count ->
  exists s, apply_acts (close_file C flux config g count f) d = Some s /\
    closed_file flux R s (map el_val es) config g count.
Proof.
  intros P R i es f d config g count HPR (H1 & H2 & H3 & H4 & H5) Hsv.
  apply gen_state_floats in Hsv. unfold close_file. rewrite H1, H2, H4.
  cbn [apply_acts fold_left apply_act]. eexists. split; [reflexivity|].
  set (gt := match i with
             | None => dump None (gen_state_json C flux config g count)
             | Some n => print n true n (gen_state_json C flux config g count)
             end).
  assert (HG : exists gs, denotes gs gt /\ rel_value R (gen_state_json C flux config g count) gs).
  { unfold gt, dump. destruct i; apply (print_denotes_gen P R HPR); exact Hsv. }
  destruct HG as (gs & G1 & G2). split; [reflexivity|]. exists gs. split; [|apply state_holds_rel; exact G2].
  rewrite <- (closed_text i es gs gt H5 G1).
  - f_equal. unfold gen_state_text. fold gt. repeat (rewrite <- !app_assoc; cbn [app]). reflexivity.
  - rewrite gen_state_eq in G2. inversion G2; reflexivity.
Qed.

(** ** A fresh file *)

Lemma open_fresh : forall i old, exists f a, 
  open_file (b "json") (b "overwrite") true i old true = Ok (f, a) /\
  a = [Trunc; Put (start_json i)] /\ t_format f = FJson /\ t_mode f = Overwrite /\
  forall d, json_at i [] f (apply_acts a d).
Proof.
  intros i old. exists (mkt FJson Overwrite i false dbl_zero), [Trunc; Put (start_json i)].
  split; [destruct old; reflexivity|]. split; [reflexivity|]. split; [reflexivity|]. split; [reflexivity|]. intros d. cbn [open_body].
  unfold json_at. cbn [open_body]. rewrite app_nil_r. repeat split. constructor.
Qed.

Lemma fresh_closed : forall P R P2 R2 se old, text_class P R -> text_class P2 R2 ->
  Forall (fun ev => all_floats P (event_json ev)) (ss_events se) ->
  savable flux P2 (ss_config se) (ss_gen se) (ss_count se) ->
  exists s l, fresh_session C flux se old = Ok (Some s) /\
    Forall2 (rel_value R) (map event_json (ss_events se)) l /\
    closed_file flux R2 s l (ss_config se) (ss_gen se) (ss_count se).
Proof.
  intros P R P2 R2 se old H1 H2 Hev Hsv. unfold fresh_session, fresh_acts.
  destruct (open_fresh (ss_indent se) (match old with Some _ => true | None => false end)) as (f & a & E & _ & _ & _ & Hat).
  rewrite E. cbn [bind].
  destruct (write_many_json P R _ (ss_events se) [] f _ H1 (Hat old) Hev) as (f' & a' & new & W1 & W2 & W3 & W4).
  rewrite W1. cbn [bind]. cbn [app] in W3.
  destruct (close_json P2 R2 _ _ _ _ (ss_config se) (ss_gen se) (ss_count se) H2 W3 Hsv) as (s & S1 & S2).
  exists s, (map el_val new). rewrite !apply_acts_app. unfold close_session. rewrite S1.
  split; [reflexivity|]. split; [|exact S2]. clear - W2. induction W2; constructor; auto.
Qed.

(** ** Resuming *)

Lemma old_events_body : forall P R i l first, text_class P R -> Forall (all_floats P) l ->
  exists es, Forall2 (fun j e => rel_value R j (el_val e)) l es /\ Forall okel es /\
    old_events i first l = (match es with
                            | [] => []
                            | e :: r => (if first then [] else [","%char]) ++ open_body (e :: r)
                            end).
Proof.
  intros P R i l. induction l as [|j l IH]; intros first HPR Hl.
  - exists []. repeat split; constructor.
  - inversion Hl as [|? ? Hj Hl']; subst. destruct (IH false HPR Hl') as (es & E1 & E2 & E3).
    set (w := match i with None => [] | Some n => nl :: spaces (2 * n) end).
    destruct (event_text_denotes P R i j HPR Hj) as (v & V1 & V2).
    exists ((w, v, event_text i j) :: es). split; [constructor; assumption|].
    split; [constructor; [|exact E2]; split; [|exact V1]; unfold w; destruct i; [apply ws_nl_spaces|constructor]|].
    cbn [old_events]. rewrite E3. change (b ",") with [","%char].
    assert (ET : match i with
       | None => dump None j
       | Some n => nl :: spaces (2 * n) ++ print n true (2 * n) j
       end = el_text (w, v, event_text i j)) by (unfold el_text, w; cbn [fst snd]; destruct i; reflexivity).
    rewrite ET. f_equal. cbn [open_body]. f_equal. destruct es as [|e es]; [reflexivity|].
    cbn [flat_map app open_body]. reflexivity.
Qed.

Lemma show_rng_chars : forall r c, In c (show_rng r) -> is_digit c = true \/ c = "-"%char \/ c = " "%char.
Proof.
  assert (HI : forall z x, In x (show_int z) -> is_digit x = true \/ x = "-"%char \/ x = " "%char).
  { intros z x Hx. unfold show_int in Hx. destruct (Z.ltb_spec z 0) as [Hz|Hz].
    - destruct Hx as [<-|Hx]; [auto|]. left. assert (Hn : 0 <= - z) by lia. pose proof (digits_all _ Hn) as Ha.
      rewrite forallb_forall in Ha. exact (Ha x Hx).
    - left. pose proof (digits_all _ Hz) as Ha. rewrite forallb_forall in Ha. exact (Ha x Hx). }
  induction r as [|w r IH]; intros c Hc; [destruct Hc|]. cbn [show_rng] in Hc.
  destruct r as [|w2 r]; [eapply HI; exact Hc|].
  apply in_app_or in Hc as [Hc|Hc]; [eapply HI; exact Hc|].
  apply in_app_or in Hc as [[<-|F]|Hc]; [auto|destruct F|]. apply IH. exact Hc.
Qed.

Lemma show_rng_plain : forall r, escape (show_rng r) = show_rng r.
Proof.
  intros r. apply plain_escape. intros c Hc He.
  apply show_rng_chars in Hc. unfold needs_escape in He. cbn [In] in He. destruct Hc as [Hd|[-> | ->]].
  - unfold is_digit in Hd. apply andb_prop in Hd as [H1 H2]. apply Z.leb_le in H1, H2. lia.
  - change (code "-"%char) with 45 in He. lia.
  - change (code " "%char) with 32 in He. lia.
Qed.

Lemma read_rng_show : forall r t, Forall (fun w => 0 <= w < 2 ^ 64) r -> stops t -> 
  forall w, forallb is_space w = true -> r <> [] ->
  read_rng (List.length r) (w ++ show_rng r ++ t) = Some (r, t).
Proof.
  induction r as [|x r IH]; intros t Hr Ht w Hw Hn; [congruence|].
  inversion Hr as [|? ? Hx Hr']; subst. assert (Hu : 0 <= x <= u64_max) by (unfold u64_max; lia).
  destruct r as [|y r].
  - cbn [show_rng List.length read_rng]. rewrite rd_num_show by assumption. reflexivity.
  - change (show_rng (x :: y :: r)) with (show_int x ++ sp ++ show_rng (y :: r)).
    change (List.length (x :: y :: r)) with (S (List.length (y :: r))). remember (y :: r) as r' eqn:Er.
    cbn [read_rng]. rewrite <- !app_assoc. rewrite rd_num_show; [|assumption|assumption|reflexivity].
    specialize (IH t Hr' Ht sp eq_refl). cbn [obind]. rewrite IH; [reflexivity|]. rewrite Er. discriminate.
Qed.

Lemma set_state_show : forall (g g0 : generator C), rng_ok (g_rng g) ->
  List.length (g_rng g0) = List.length (g_rng g) ->
  set_state C (to_string (JStr (show_rng (g_rng g)))) g0 = mkg (g_cfg g0) (g_rng g) (g_seed g0).
Proof.
  intros g g0 [H1 H2] Hl. unfold set_state. cbn [to_string]. rewrite show_rng_plain, Hl.
  pose proof (read_rng_show (g_rng g) [] H2 I [] eq_refl H1) as E. cbn [app] in E. rewrite app_nil_r in E.
  rewrite E. reflexivity.
Qed.

Lemma resume_json : forall P R R2 s l config g count now f,
  text_class P R -> Forall (all_floats P) l ->
  closed_file flux R2 s l config g count -> rng_ok (g_rng g) ->
  t_mode f = Resume -> t_format f = FJson ->
  (forall cfg, rel_value R2 config cfg -> exists g0, create now cfg = Ok g0 /\
     List.length (g_rng g0) = List.length (g_rng g)) ->
  exists f' a es cfg g0, rel_value R2 config cfg /\ create now cfg = Ok g0 /\
    resume C create now s f = (Ok (mkg (g_cfg g0) (g_rng g) (g_seed g0), count, f'), a) /\
    Forall2 (fun j e => rel_value R j (el_val e)) l es /\
    (forall d, json_at (t_indent f) es f' (apply_acts a d)) /\ t_mode f' = Resume.
Proof.
  intros P R R2 s l config g count now f HPR Hl (_ & gs & Hs & cfg & x & -> & Hc & Hx) Hr Hm Hf Hcr.
  destruct (Hcr cfg Hc) as (g0 & Hcr' & Hlen).
  destruct (old_events_body P R (t_indent f) l true HPR Hl) as (es & E1 & E2 & E3).
  unfold resume. rewrite Hm, Hf. unfold load. rewrite Hs. cbn [bind fst].
  set (gsj := JObj [(b "config", cfg); (b "event_count", JInt count); (b "flux_avg_xsec", x);
                    (b "generator_state_string", JStr (show_rng (g_rng g)));
                    (b "seed", JStr (show_int (g_seed g)))]).
  change (has_key (b "gen_state") (JObj [(b "events", JArr l); (b "gen_state", gsj)])) with true.
  change (at_key (b "gen_state") (JObj [(b "events", JArr l); (b "gen_state", gsj)])) with (Ok gsj).
  change (at_mut (b "events") (JObj [(b "events", JArr l); (b "gen_state", gsj)])) with (JArr l).
  cbn [bind].
  change (has_key (b "config") gsj) with true. change (at_key (b "config") gsj) with (Ok cfg).
  change (has_key (b "generator_state_string") gsj) with true.
  change (at_key (b "generator_state_string") gsj) with (Ok (JStr (show_rng (g_rng g)))).
  change (has_key (b "seed") gsj) with true. change (has_key (b "event_count") gsj) with true.
  change (at_key (b "event_count") gsj) with (Ok (JInt count)). cbn [bind negb].
  change (to_long (JInt count)) with (count, true). cbn [snd fst negb].
  rewrite Hcr'. cbn [bind]. rewrite (set_state_show g g0 Hr Hlen).
  change (array_range (JArr l)) with l.
  eexists _, _, es, cfg, g0. split; [exact Hc|]. split; [exact Hcr'|]. split; [reflexivity|].
  split; [exact E1|]. split; [|reflexivity]. intros d.
  split; [reflexivity|]. split; [reflexivity|]. split; [|split; [|exact E2]].
  - cbn [t_comma]. destruct E1; reflexivity.
  - cbn [apply_acts fold_left apply_act app]. f_equal. f_equal. rewrite E3. destruct es; reflexivity.
Qed.

(** ** A resumed session *)

Lemma resumed_closed : forall P R P2 R2 s l se se', text_class P R -> text_class P2 R2 ->
  Forall (all_floats P) l ->
  closed_file flux R2 s l (ss_config se) (ss_gen se) (ss_count se) -> continues create R2 se se' ->
  Forall (fun ev => all_floats P (event_json ev)) (ss_events se') ->
  savable flux P2 (ss_config se') (ss_gen se') (ss_count se') ->
  exists g n s' l', resumed_session C create flux se' s = Ok (g, n, Some s') /\
    returned create R2 se se' (g, n) /\
    Forall2 (rel_value R) (l ++ map event_json (ss_events se')) l' /\
    closed_file flux R2 s' l' (ss_config se') (ss_gen se') (ss_count se').
Proof.
  intros P R P2 R2 s l se se' H1 H2 Hl Hcl [Hr Hcr] Hev Hsv. unfold resumed_session, resumed_acts.
  change (open_file (b "json") (b "resume") false (ss_indent se') true true)
    with (Ok (mkt FJson Resume (ss_indent se') false dbl_zero, [Create])). cbn [bind].
  destruct (resume_json P R R2 s l (ss_config se) (ss_gen se) (ss_count se) (ss_now se')
              (mkt FJson Resume (ss_indent se') false dbl_zero) H1 Hl Hcl Hr eq_refl eq_refl Hcr)
    as (f' & a & es & cfg & g0 & R3 & R4 & R5 & R6 & R7 & R8).
  rewrite R5. cbn [bind].
  destruct (write_many_json P R _ (ss_events se') es f' _ H1 (R7 (Some s)) Hev)
    as (f2 & a2 & new & W1 & W2 & W3 & W4).
  rewrite W1. cbn [bind].
  destruct (close_json P2 R2 _ _ _ _ (ss_config se') (ss_gen se') (ss_count se') H2 W3 Hsv) as (s' & S1 & S2).
  eexists _, _, s', (map el_val (es ++ new)). rewrite !apply_acts_app. unfold close_session.
  cbn [apply_acts fold_left apply_act] in *. rewrite S1.
  split; [reflexivity|]. split; [exists cfg, g0; auto|]. split; [|exact S2].
  rewrite map_app. apply Forall2_app.
  - clear - R6. induction R6; constructor; auto.
  - clear - W2. induction W2; constructor; auto.
Qed.

(** ** Chains of sessions *)

Definition stable (P : spec_float -> Prop) (R : spec_float -> json -> Prop) : Prop :=
  text_class P R /\
  (forall x j, R x j -> exists z, j = JInt z \/ exists y, j = JFlt y) /\
  (forall x y, P x -> R x (JFlt y) -> P y) /\
  (forall x y j, R x (JFlt y) -> R y j -> R x j).

Lemma floats_again : forall P R, stable P R -> forall j j', all_floats P j -> rel_value R j j' ->
  wf_json j' -> all_floats P j'.
Proof.
  intros P R (_ & S1 & S2 & _).
  induction j using json_ind2; intros j' Ha Hr Hw; inversion Hr; subst.
  - constructor.
  - constructor.
  - exact Ha.
  - inversion Ha; subst. destruct (S1 _ _ H0) as (z & [->|(y & ->)]).
    + inversion Hw; subst. apply st_int. assumption.
    + apply st_flt. eapply S2; eassumption.
  - constructor.
  - apply st_arr. inversion Ha as [| | | | |? Hl|]; subst. inversion Hw as [| | | | |? Hwl|]; subst.
    clear Ha Hr Hw. revert l' H1 Hwl. induction H as [|v l Hv Hl' IH]; intros l' HF Hwl; inversion HF; subst; constructor.
    + inversion Hl; inversion Hwl; subst. apply Hv; assumption.
    + inversion Hl; inversion Hwl; subst. apply IH; assumption.
  - inversion Ha as [| | | | | |? Hk Hp Hl]; subst. inversion Hw as [| | | | | |? Hks Hwl]; subst.
    apply st_obj; [exact Hks| |]; clear Ha Hr Hw Hk Hks; revert l' H1 Hwl;
      induction H as [|v l Hv Hl' IH]; intros l' HF Hwl;
      inversion HF as [|? ? ? ? [F1 F2] F3]; subst; constructor; inversion Hl; inversion Hwl; inversion Hp; subst.
    + rewrite <- F1. assumption.
    + apply IH; assumption.
    + apply Hv; assumption.
    + apply IH; assumption.
Qed.

Lemma rel_trans : forall P R, stable P R -> forall j j' j'', rel_value R j j' -> rel_value R j' j'' ->
  rel_value R j j''.
Proof.
  intros P R (_ & S1 & _ & S2).
  induction j using json_ind2; intros j' j'' H1 H2; inversion H1; subst; try exact H2.
  - apply sv_flt. destruct (S1 _ _ H0) as (z & [->|(y & ->)]).
    + inversion H2; subst. assumption.
    + inversion H2; subst. eapply S2; eassumption.
  - inversion H2; subst. apply sv_arr. clear H1 H2. revert l' l'0 H3 H4.
    induction H as [|v l Hv Hl' IH]; intros l1 l2 HA HB; inversion HA; subst; inversion HB; subst; constructor.
    + eapply Hv; eassumption.
    + eapply IH; eassumption.
  - inversion H2; subst. apply sv_obj. clear H1 H2. revert l' l'0 H3 H4.
    induction H as [|v l Hv Hl' IH]; intros l1 l2 HA HB; inversion HA as [|? ? ? ? [A1 A2] A3]; subst;
      inversion HB as [|? ? ? ? [B1 B2] B3]; subst; constructor.
    + split; [congruence|]. eapply Hv; eassumption.
    + eapply IH; eassumption.
Qed.

Lemma closed_wf : forall R s l config g count, closed_file flux R s l config g count -> Forall wf_json l.
Proof.
  intros R s l config g count (_ & gs & Hs & _).
  assert (HL : load s = Ok (JObj [(b "events", JArr l); (b "gen_state", gs)])) by (unfold load; rewrite Hs; reflexivity).
  apply load_wf in HL. inversion HL as [| | | | | |? _ HF]; subst. inversion HF as [|? ? H1 _]; subst.
  cbn [snd] in H1. inversion H1; subst. assumption.
Qed.

Lemma rel_list_trans : forall P R a b' c, stable P R -> Forall2 (rel_value R) a b' ->
  Forall2 (rel_value R) b' c -> Forall2 (rel_value R) a c.
Proof.
  intros P R a b' c HS H. revert c. induction H; intros c Hc; inversion Hc; subst; constructor; auto.
  eapply rel_trans; eassumption.
Qed.

Lemma rel_list_floats : forall P R a c, stable P R -> Forall (all_floats P) a ->
  Forall2 (rel_value R) a c -> Forall wf_json c -> Forall (all_floats P) c.
Proof.
  intros P R a c HS Ha H. induction H; intros Hc; inversion Hc; inversion Ha; subst; constructor; auto.
  eapply floats_again; eassumption.
Qed.

Lemma rel_list_app : forall P R a b' c d, stable P R -> Forall2 (rel_value R) a b' ->
  Forall2 (rel_value R) (b' ++ c) d -> Forall2 (rel_value R) (a ++ c) d.
Proof.
  intros P R a b' c d HS H. revert d. induction H as [|x y a b' Hxy H IH]; intros d Hd; [exact Hd|].
  cbn [app] in *. inversion Hd; subst. constructor; [|apply IH; assumption]. eapply rel_trans; eassumption.
Qed.

Lemma sessions_closed : forall P R P2 R2 rest s l l0 se, stable P R -> text_class P2 R2 ->
  Forall (all_floats P) l0 -> Forall2 (rel_value R) l0 l ->
  closed_file flux R2 s l (ss_config se) (ss_gen se) (ss_count se) -> continuing create R2 se rest ->
  Forall (fun se => Forall (fun ev => all_floats P (event_json ev)) (ss_events se) /\
                    savable flux P2 (ss_config se) (ss_gen se) (ss_count se)) rest ->
  exists gs s' l', sessions C create flux rest s = Ok (gs, s') /\
    all_returned create R2 se rest gs /\
    Forall2 (rel_value R) (l0 ++ map event_json (flat_map ss_events rest)) l' /\
    let z := last rest se in closed_file flux R2 s' l' (ss_config z) (ss_gen z) (ss_count z).
Proof.
  intros P R P2 R2 rest. induction rest as [|se' rest IH]; intros s l l0 se HS H2 Hl0 Hll Hcl Hco Hok.
  - exists [], s, l. cbn [flat_map map last]. rewrite app_nil_r. split; [reflexivity|]. split; [exact I|]. split; [exact Hll|exact Hcl].
  - inversion Hok as [|? ? [Hev Hsv] Hok']; subst. destruct Hco as [Hc1 Hc2].
    assert (Hl : Forall (all_floats P) l) by (eapply rel_list_floats; eauto using closed_wf).
    destruct (resumed_closed P R P2 R2 s l se se' (proj1 HS) H2 Hl Hcl Hc1 Hev Hsv)
      as (g & n & s' & l' & E1 & E2 & E3 & E4).
    assert (HA : Forall2 (rel_value R) (l0 ++ map event_json (ss_events se')) l')
      by (eapply rel_list_app; eassumption).
    assert (HB : Forall (all_floats P) (l0 ++ map event_json (ss_events se'))).
    { apply Forall_app. split; [exact Hl0|]. rewrite Forall_map. exact Hev. }
    destruct (IH s' l' _ se' HS H2 HB HA E4 Hc2 Hok') as (gs & s'' & l'' & F1 & F2 & F3 & F4).
    exists ((g, n) :: gs), s'', l''. cbn [sessions]. rewrite E1. cbn [bind]. rewrite F1. cbn [bind].
    split; [reflexivity|]. split; [split; assumption|].
    split; [cbn [flat_map]; rewrite map_app, app_assoc; exact F3|].
    cbv zeta in *. replace (last (se' :: rest) se) with (last rest se'); [exact F4|].
    destruct rest as [|x rest]; [reflexivity|]. cbn [last]. clear. revert x.
    induction rest as [|y rest IH]; intros x; [reflexivity|]. apply IH.
Qed.

End gen.

(** ** Classes of doubles *)

Lemma class_fixed : text_class fixed_dbl same_num.
Proof. intros x H. apply show_g17_text. exact H. Qed.

Lemma stable_fixed : stable fixed_dbl same_num.
Proof.
  split; [exact class_fixed|]. split; [|split].
  - intros x j H. destruct j as [| |z|y| | |]; try contradiction; [exists z; auto|exists 0; eauto].
  - intros x y H1 H2. cbn [same_num] in H2. destruct H2 as [<-|[H2 (t & ->)]]; [exact H1|exact I].
  - intros x y j H1 H2. cbn [same_num] in H1. destruct H1 as [<-|[(t & ->) (t' & ->)]]; [exact H2|].
    destruct j as [| |z|w| | |]; try contradiction; cbn [same_num] in *; unfold same_dbl in *;
      destruct H2 as [H2|[_ H2]]; try (rewrite <- H2); right; eauto.
Qed.

Lemma same_near : forall x y, same_dbl x y -> (match x with S754_zero _ | S754_finite _ _ _ => True | _ => False end) -> near_dbl x y.
Proof.
  intros x y [<-|[(t & ->) (t' & ->)]] Hx; [|exact I]. destruct x as [| | |s m e]; try contradiction; [exact I|].
  cbn [near_dbl]. split; [reflexivity|]. rewrite Z.sub_diag. change (Z.abs 0) with 0. rewrite Z.mul_0_r.
  apply Z.mul_nonneg_nonneg; [pose proof (dnum_pos m e); lia|pose proof (dden_pos e); lia].
Qed.

Lemma fixed_dec : forall x, fixed_dbl x \/ ~ fixed_dbl x.
Proof.
  intros [s|s| |s m e]; cbn [fixed_dbl]; auto. destruct (valid_dbl (S754_finite s m e)); [|right; intuition congruence].
  unfold fixed_range. destruct (Z.le_gt_cases (dden e) (10000 * dnum m e)); [|right; lia].
  destruct (Z.lt_ge_cases (dnum m e) (10 ^ 17 * dden e)); [auto|right; lia].
Qed.

Lemma class_best : text_class normal_dbl best_num.
Proof.
  intros x Hx. destruct (fixed_dec x) as [Hf|Hf].
  - destruct (show_g17_text x Hf) as (j & H1 & H2). exists j. split; [exact H1|]. split; [|auto].
    assert (HX : match x with S754_zero _ | S754_finite _ _ _ => True | _ => False end) by (destruct x; auto).
    destruct j as [| |z|y| | |]; try contradiction; apply same_near; assumption.
  - destruct (show_g17_near x Hx) as (j & H1 & H2). exists j. split; [exact H1|]. split; [exact H2|]. tauto.
Qed.

Lemma numeric_best : numeric best_num.
Proof. intros x j [H _]. apply (numeric_near x j H). Qed.

Lemma read_as_best : forall x y, read_as best_num x y -> best_dbl x y.
Proof.
  intros x y (j & [H1 H2] & H3). split.
  - apply read_as_near. exists j. auto.
  - intros Hf. apply read_as_same. exists j. auto.
Qed.

Lemma Forall2_imp : forall {A B} (P Q : A -> B -> Prop) l l', (forall x y, P x y -> Q x y) ->
  Forall2 P l l' -> Forall2 Q l l'.
Proof. intros A B P Q l l' H HF. induction HF; constructor; auto. Qed.

Lemma event_rel_imp : forall (D D' : spec_float -> spec_float -> Prop) ev ev', (forall x y, D x y -> D' x y) ->
  event_rel D ev ev' -> event_rel D' ev ev'.
Proof.
  intros D D' ev ev' HD (H1 & H2 & H3 & H4). 
  assert (HP : forall p q, particle_rel D p q -> particle_rel D' p q) by (unfold particle_rel; intuition auto).
  repeat split; try tauto; try (apply HD; exact H3); eapply Forall2_imp; try eassumption; auto.
Qed.

Lemma stores_rel : forall R (D : spec_float -> spec_float -> Prop) evs l, numeric R -> (forall x y, read_as R x y -> D x y) ->
  Forall ints_ok evs -> Forall2 (rel_value R) (map event_json evs) l -> Forall2 (stores D) evs l.
Proof.
  intros R D evs l HR HD. revert l. induction evs as [|ev evs IH]; intros l Hi H; inversion H; subst; constructor;
    inversion Hi; subst; [|apply IH; assumption].
  destruct (event_of_rel R ev y HR H3 H2) as (ev' & E1 & E2).
  exists ev'. split; [exact E1|]. eapply event_rel_imp; [exact HD|exact E2].
Qed.
