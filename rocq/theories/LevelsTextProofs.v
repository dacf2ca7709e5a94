(** Printing and reading decay schemes. *)
From Coq Require Import List Ascii String ZArith Bool Lia Sorted Permutation.
From Coq Require Import Floats.SpecFloat.
From Verif Require Import Base Dbl DigitsProofs DblProofs Stream StreamProofs Pdg Event EventSpec Levels LevelsProofs.
Import ListNotations.
Local Open Scope Z_scope.

(** The content of a scheme, without addresses: gammas name their end level by
    position. *)
Definition shape_of (f : spec_float -> spec_float) (s : scheme) :=
  (s_Z s, s_A s,
   map (fun p : nat * level => (f (l_energy (snd p)), l_twoJ (snd p), l_parity (snd p),
      map (fun g => (f (g_energy g), f (g_ri g), end_index (s_levels s) g)) (l_gammas (snd p)))) (s_levels s)).
Definition shape (s : scheme) := shape_of (fun x => x) s.

(** Gammas go to a level no higher than their own in the list. *)
Definition gammas_down (s : scheme) : Prop := forall i p g,
  nth_error (s_levels s) i = Some p -> In g (l_gammas (snd p)) -> 0 <= end_index (s_levels s) g <= Z.of_nat i.

(** Printed integers fit their types and printed doubles satisfy [P]. *)
Definition scheme_ok (P : spec_float -> Prop) (s : scheme) : Prop :=
  is_int (s_Z s) /\ is_int (s_A s) /\ len (s_levels s) <= int_max /\
  Forall (fun p : nat * level => P (l_energy (snd p)) /\ is_int (l_twoJ (snd p)) /\ len (l_gammas (snd p)) <= int_max /\
     Forall (fun g => P (g_energy g) /\ P (g_ri g)) (l_gammas (snd p))) (s_levels s).

Section round_trip.
  Variable fmt : spec_float -> bytes.
  Variable rnd : spec_float -> spec_float.
  Variable P : spec_float -> Prop.
  Hypothesis fmt_read : forall w x t, forallb is_space w = true -> P x -> stops t ->
    rd_dbl (w ++ fmt x ++ t) = Some (rnd x, t).
  Variable L : list (nat * level).
  Variable n0 : nat.

  Definition conv_gamma (g : gamma) : gamma :=
    mkg (rnd (g_energy g)) (rnd (g_ri g)) (Some (n0 + Z.to_nat (end_index L g))%nat).
  Definition conv_level (p : nat * level) : level :=
    mkl (rnd (l_energy (snd p))) (l_twoJ (snd p)) (l_parity (snd p)) (map conv_gamma (l_gammas (snd p))).
  Fixpoint convs (k : nat) (l : list (nat * level)) : list (nat * level) :=
    match l with [] => [] | p :: r => ((n0 + k)%nat, conv_level p) :: convs (S k) r end.

  Lemma convs_length : forall l k, List.length (convs k l) = List.length l.
  Proof. induction l as [|p l IH]; intros k; [reflexivity|]. cbn [convs List.length]. rewrite IH. reflexivity. Qed.

  Lemma convs_nth : forall l k i p, nth_error l i = Some p -> nth_error (convs k l) i = Some ((n0 + (k + i))%nat, conv_level p).
  Proof.
    induction l as [|q l IH]; intros k [|i] p H; cbn [nth_error] in H; try discriminate.
    - injection H as ->. cbn. rewrite Nat.add_0_r. reflexivity.
    - cbn [convs nth_error]. rewrite (IH (S k) i p H). do 2 f_equal. lia.
  Qed.

  Lemma convs_app : forall l l' k, convs k (l ++ l') = convs k l ++ convs (k + List.length l) l'.
  Proof.
    induction l as [|q l IH]; intros l' k; cbn [app convs List.length]; [rewrite Nat.add_0_r; reflexivity|].
    rewrite IH. f_equal. f_equal. f_equal. lia.
  Qed.

  Lemma convs_addr : forall l k p, In p (convs k l) -> (n0 + k <= fst p < n0 + k + List.length l)%nat.
  Proof.
    induction l as [|q l IH]; intros k p H; [destruct H|]. cbn [convs In] in H. cbn [List.length].
    destruct H as [<-|H]; [cbn; lia|]. apply IH in H. lia.
  Qed.

  Lemma read_gammas_ok : forall gs pre dn a E tj pi z m nx t,
    a = (n0 + List.length pre)%nat ->
    (forall p, In p pre -> fst p <> a) ->
    (forall i p, nth_error pre i = Some p -> fst p = (n0 + i)%nat) ->
    Forall (fun g => P (g_energy g) /\ P (g_ri g)) gs ->
    Forall (fun g => 0 <= end_index L g <= Z.of_nat (List.length pre)) gs ->
    Z.of_nat (List.length pre) <= int_max ->
    read_gammas (List.length gs) a (mksc z m nx (pre ++ [(a, mkl E tj pi dn)])) ([nl] ++ flat_map (print_gamma fmt L) gs ++ t) =
    Ok (mksc z m nx (pre ++ [(a, mkl E tj pi (dn ++ map conv_gamma gs))]), [nl] ++ t).
  Proof.
    induction gs as [|g gs IH]; intros pre dn a E tj pi z m nx t Ha Hne Hpre HP HD Hm.
    - cbn [List.length read_gammas flat_map map app]. rewrite app_nil_r. reflexivity.
    - inversion HP as [|? ? [P1 P2] HP']; subst. inversion HD as [|? ? Hd HD']; subst.
      cbn [List.length read_gammas flat_map]. unfold print_gamma at 1.
      repeat rewrite <- app_assoc.
      rewrite (app_assoc [nl] (b "    ")). rewrite (fmt_read ([nl] ++ b "    ") (g_energy g)); [|reflexivity|exact P1|reflexivity].
      cbn [obind]. rewrite (fmt_read sp (g_ri g)); [|reflexivity|exact P2|reflexivity]. cbn [obind].
      unfold rd_int. rewrite (rd_num_show int_min int_max sp (end_index L g)); [|reflexivity|unfold int_min; lia|reflexivity].
      cbn [obind]. cbn [s_levels]. unfold level_at. destruct (Z.ltb_spec (end_index L g) 0); [lia|].
      assert (HN : exists q, nth_error (pre ++ [((n0 + List.length pre)%nat, mkl E tj pi dn)]) (Z.to_nat (end_index L g)) = Some q
                  /\ fst q = (n0 + Z.to_nat (end_index L g))%nat).
      { destruct (Nat.eq_dec (Z.to_nat (end_index L g)) (List.length pre)) as [Eq|Nq].
        - rewrite Eq, nth_error_app2, Nat.sub_diag by lia. eexists. split; [reflexivity|reflexivity].
        - rewrite nth_error_app1 by lia.
          destruct (nth_error pre (Z.to_nat (end_index L g))) as [q|] eqn:Eq; [|apply nth_error_None in Eq; lia].
          exists q. split; [reflexivity|]. apply Hpre. exact Eq. }
      destruct HN as (q & -> & Hq). cbn [bind]. rewrite Hq.
      assert (HA : add_gamma (n0 + List.length pre) (conv_gamma g) (mksc z m nx (pre ++ [((n0 + List.length pre)%nat, mkl E tj pi dn)]))
         = mksc z m nx (pre ++ [((n0 + List.length pre)%nat, mkl E tj pi (dn ++ [conv_gamma g]))])).
      { unfold add_gamma. cbn [s_Z s_A s_next s_levels]. f_equal. rewrite map_app. cbn [map]. cbn [fst snd]. rewrite Nat.eqb_refl.
        f_equal. rewrite <- (map_id pre) at 2. apply map_ext_in. intros p Hp. specialize (Hne p Hp).
        destruct (Nat.eqb_spec (fst p) (n0 + List.length pre)); [contradiction|reflexivity]. }
      change (mkg (rnd (g_energy g)) (rnd (g_ri g)) (Some (n0 + Z.to_nat (end_index L g))%nat)) with (conv_gamma g).
      rewrite HA. rewrite (IH pre (dn ++ [conv_gamma g]) (n0 + List.length pre)%nat E tj pi z m nx t); auto.
      cbn [map]. rewrite <- app_assoc. reflexivity.
  Qed.

  Lemma lb_end : forall e l, Forall (fun p => en p < units e) l -> lower_bound_index e l = List.length l.
  Proof.
    intros e l H. induction H as [|p l Hp _ IH]; [reflexivity|]. cbn [lower_bound_index List.length]. unfold dlt.
    destruct (Z.ltb_spec (units (energy_of p)) (units e)); [rewrite IH; reflexivity|lia].
  Qed.

  Lemma read_levels_ok : forall l pre z m t,
    L = pre ++ l ->
    StronglySorted (fun x y => units x < units y) (map (fun p => rnd (energy_of p)) L) ->
    Forall (fun p : nat * level => P (l_energy (snd p)) /\ is_int (l_twoJ (snd p)) /\ len (l_gammas (snd p)) <= int_max /\
       Forall (fun g => P (g_energy g) /\ P (g_ri g)) (l_gammas (snd p))) l ->
    (forall i p g, nth_error L i = Some p -> In g (l_gammas (snd p)) -> 0 <= end_index L g <= Z.of_nat i) ->
    Z.of_nat (List.length L) <= int_max ->
    read_levels (List.length l) (mksc z m (n0 + List.length pre) (convs 0 pre)) ([nl] ++ flat_map (print_level fmt L) l ++ t) =
    Ok (mksc z m (n0 + List.length L) (convs 0 L), [nl] ++ t).
  Proof.
    induction l as [|p l IH]; intros pre z m t HL HS HF HD Hm.
    - cbn [List.length read_levels flat_map app]. rewrite app_nil_r in HL. subst pre. reflexivity.
    - inversion HF as [|? ? (P1 & P2 & P3 & P4) HF']; subst x l0. cbn [List.length read_levels flat_map].
      unfold print_level at 1. repeat rewrite <- app_assoc.
      rewrite (app_assoc [nl] (b "  ")). rewrite (fmt_read ([nl] ++ b "  ")); [|reflexivity|exact P1|reflexivity].
      cbn [obind]. unfold rd_int at 1. rewrite (rd_num_show int_min int_max sp (l_twoJ (snd p))); [|reflexivity|exact P2|reflexivity].
      cbn [obind].
      assert (HR : forall u, rd_parity (sp ++ [parity_to_char (l_parity (snd p))] ++ u) = Ok (Some (l_parity (snd p), u))).
      { intros u. destruct (l_parity (snd p)); reflexivity. }
      rewrite HR. cbn [bind]. unfold rd_int at 1.
      assert (Hg0 : 0 <= len (l_gammas (snd p))) by (unfold len; lia).
      rewrite (rd_num_show int_min int_max sp); [|reflexivity|unfold int_min; lia|reflexivity].
      unfold add_level. cbn [s_levels s_next s_Z s_A l_energy]. rewrite lb_end.
      2:{ apply Forall_forall. intros q Hq. rewrite HL, map_app in HS.
          assert (HX : forall (l1 l2 : list spec_float), StronglySorted (fun x y => units x < units y) (l1 ++ l2) ->
             forall x y, In x l1 -> In y l2 -> units x < units y).
          { induction l1 as [|x0 l1 IH1]; intros l2 Hs x y Hx Hy; [destruct Hx|]. cbn [app] in Hs. inversion Hs; subst.
            destruct Hx as [<-|Hx]; [rewrite Forall_forall in H2; apply H2; apply in_or_app; right; exact Hy|].
            apply (IH1 l2); assumption. }
          apply In_nth_error in Hq as [i Hi].
          assert (Hi' : (i < List.length pre)%nat) by (rewrite <- (convs_length pre 0); apply nth_error_Some; congruence).
          destruct (nth_error pre i) as [q'|] eqn:Eq; [|apply nth_error_None in Eq; lia].
          rewrite (convs_nth pre 0 i q' Eq) in Hi. injection Hi as <-.
          change (units (rnd (energy_of q')) < units (rnd (energy_of p))). apply (HX _ _ HS).
          - apply in_map_iff. exists q'. split; [reflexivity|]. eapply nth_error_In. exact Eq.
          - left. reflexivity. }
      rewrite insert_at_split, firstn_all, skipn_all2 by lia. unfold len. rewrite Nat2Z.id.
      rewrite (read_gammas_ok (l_gammas (snd p)) (convs 0 pre) []); cbn [app].
      + cbn [bind]. change (nl :: flat_map (print_level fmt L) l ++ t) with ([nl] ++ flat_map (print_level fmt L) l ++ t).
        specialize (IH (pre ++ [p]) z m t). rewrite app_length, convs_app in IH. cbn [List.length convs] in IH.
        rewrite Nat.add_0_l in IH.
        replace (n0 + (List.length pre + 1))%nat with (S (n0 + List.length pre)) in IH by lia.
        apply IH; auto. rewrite HL, <- app_assoc. reflexivity.
      + rewrite convs_length. reflexivity.
      + intros q Hq. apply convs_addr in Hq. lia.
      + intros i q Hi. assert (Hi' : (i < List.length pre)%nat) by (rewrite <- (convs_length pre 0); apply nth_error_Some; congruence).
        destruct (nth_error pre i) as [q'|] eqn:Eq; [|apply nth_error_None in Eq; lia].
        rewrite (convs_nth pre 0 i q' Eq) in Hi. injection Hi as <-. reflexivity.
      + exact P4.
      + apply Forall_forall. intros g Hg. rewrite convs_length. apply (HD (List.length pre) p g); [|exact Hg].
        rewrite HL, nth_error_app2, Nat.sub_diag by lia. reflexivity.
      + rewrite convs_length. rewrite HL, app_length in Hm. lia.
  Qed.

  Lemma index_convs : forall l k i, (i < List.length l)%nat -> index_of (n0 + (k + i)) (convs k l) = Some i.
  Proof.
    induction l as [|p l IH]; intros k i Hi; cbn [List.length] in Hi; [lia|]. cbn [convs index_of fst].
    destruct i as [|i].
    - rewrite Nat.add_0_r, Nat.eqb_refl. reflexivity.
    - destruct (Nat.eqb_spec (n0 + k) (n0 + (k + S i))); [lia|]. replace (k + S i)%nat with (S k + i)%nat by lia.
      rewrite IH by lia. reflexivity.
  Qed.
End round_trip.

Lemma read_print : forall fmt rnd (P : spec_float -> Prop),
  (forall w x t, forallb is_space w = true -> P x -> stops t -> rd_dbl (w ++ fmt x ++ t) = Some (rnd x, t)) ->
  forall s sc t, scheme_ok P s -> gammas_down s ->
  StronglySorted (fun x y => units x < units y) (map (fun p => rnd (energy_of p)) (s_levels s)) ->
  exists s', read_scheme sc (print_scheme fmt s ++ t) = Ok (Some (s', [nl] ++ t)) /\ shape s' = shape_of rnd s.
Proof.
  intros fmt rnd P HF s sc t (H1 & H2 & H3 & H4) HD HS. unfold len in H3.
  exists (mksc (s_Z s) (s_A s) (s_next sc + List.length (s_levels s)) (convs rnd (s_levels s) (s_next sc) 0 (s_levels s))).
  split.
  - unfold read_scheme, print_scheme. repeat rewrite <- app_assoc. unfold rd_int.
    rewrite <- (app_nil_l (show_int (s_Z s) ++ _)). rewrite rd_num_show; [|reflexivity|exact H1|reflexivity]. cbn [obind].
    rewrite rd_num_show; [|reflexivity|exact H2|reflexivity]. cbn [obind].
    rewrite rd_num_show; [|reflexivity|unfold len, int_min; lia|reflexivity]. cbn [obind].
    unfold len. rewrite Nat2Z.id.
    pose proof (read_levels_ok fmt rnd P HF (s_levels s) (s_next sc) (s_levels s) [] (s_Z s) (s_A s) t eq_refl HS H4 HD H3) as HR.
    cbn [List.length convs] in HR. rewrite Nat.add_0_r in HR. rewrite HR. reflexivity.
  - unfold shape, shape_of. cbn [s_Z s_A s_levels]. f_equal.
    set (L := s_levels s) in *. set (n0 := s_next sc).
    assert (K : forall l pre, L = pre ++ l ->
      map (fun p : nat * level => (l_energy (snd p), l_twoJ (snd p), l_parity (snd p),
        map (fun g => (g_energy g, g_ri g, end_index (convs rnd L n0 0 L) g)) (l_gammas (snd p)))) (convs rnd L n0 (List.length pre) l) =
      map (fun p : nat * level => (rnd (l_energy (snd p)), l_twoJ (snd p), l_parity (snd p),
        map (fun g => (rnd (g_energy g), rnd (g_ri g), end_index L g)) (l_gammas (snd p)))) l).
    { induction l as [|p l IH]; intros pre HL; [reflexivity|]. cbn [convs map]. f_equal.
      - cbn [snd conv_level l_energy l_twoJ l_parity l_gammas]. f_equal. rewrite map_map. apply map_ext_in. intros g Hg.
        cbn [conv_gamma g_energy g_ri]. f_equal. unfold end_index at 1. cbn [conv_gamma g_end].
        assert (Hn : nth_error L (List.length pre) = Some p) by (rewrite HL, nth_error_app2, Nat.sub_diag by lia; reflexivity).
        pose proof (HD (List.length pre) p g Hn Hg) as Hd. fold L in Hd.
        assert (Hlt : (List.length pre < List.length L)%nat) by (apply nth_error_Some; congruence).
        pose proof (index_convs rnd L n0 L 0 (Z.to_nat (end_index L g)) ltac:(lia)) as HI. cbn [Nat.add] in HI.
        rewrite HI. lia.
      - specialize (IH (pre ++ [p])). rewrite app_length in IH. cbn [List.length] in IH. rewrite Nat.add_1_r in IH.
        apply IH. rewrite HL, <- app_assoc. reflexivity. }
    apply (K L []). reflexivity.
Qed.
