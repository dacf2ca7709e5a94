(** Theorems about gamma cascades (C29). *)
From Coq Require Import List ZArith Reals Lra Lia Bool.
From Verif Require Import Base Pdg PdgThms Kin KinSpec KinProofs KinThms Sample SampleProofs Mass MassThms Decay DecaySpec DecayProofs.
Import ListNotations.
Local Open Scope R_scope.

Definition photon_part : part := mkpart 22 0 0 0 0 0 0.
Lemma photon_made : particle2 PHOTON 0 = Ok photon_part.
Proof. reflexivity. Qed.

(** The level a cascade ends in. *)
Definition last_level (lev : rlevel) (path : list rlevel) : rlevel := last path lev.

Lemma cascade_unfold t ds q lev residue draws turn fuel :
  cascade t ds q lev residue draws turn (S fuel) =
  match rl_gammas lev with
  | [] => Ok (residue, [])
  | _ :: _ =>
      match nth_error (rl_gammas lev) (discrete (map fst (rl_gammas lev)) (fst (fst (draws turn)))) with
      | None => Er Undefined
      | Some (_, None) => Er MarleyErr
      | Some (_, Some j) =>
          match nth_error (s_levels ds) j with
          | None => Er Undefined
          | Some lev' =>
              do m0 <- ion_mass t (s_pdg ds) q;
              do (g, n) <- two_body_decay residue photon_part (particle3 (s_pdg ds) (m0 + rl_E lev') q)
                   (uniform (-1) 1 (snd (fst (draws turn)))) (uniform 0 (2 * PI) (snd (draws turn)));
              do (r, gs') <- cascade t ds q lev' n draws (S turn) fuel;
              Ok (r, g :: gs')
          end
      end
  end.
Proof. cbn [cascade]. destruct (rl_gammas lev) as [|g gs] eqn:EG; [reflexivity|]. rewrite <- ?EG. destruct (draws turn) as [[u uc] up]. reflexivity. Qed.

(** A cascade that ends: it follows gammas of positive intensity down to a level that
    has none; it emits one photon per step; energy and momentum are conserved; every
    particle is on its mass shell; and the nucleus left is the same nuclide, with the
    same charge, with the mass of that last level. *)
Theorem C29_conserves t ds q lev residue draws turn fuel r gs m0 :
  cascade t ds q lev residue draws turn fuel = Ok (r, gs) ->
  cascade_draws draws -> ion_mass t (s_pdg ds) q = Ok m0 ->
  Forall (fun l => good_intensities l /\ 0 < m0 + rl_E l) (s_levels ds) -> good_intensities lev ->
  on_shell residue -> 0 < mass residue ->
  exists path, cascade_path ds lev path /\ length gs = length path /\
    Forall photon gs /\ Forall on_shell (r :: gs) /\ same_p4 [residue] (r :: gs) /\
    (path = [] -> r = residue) /\
    (path <> [] -> pid r = s_pdg ds /\ chg r = q /\ mass r = m0 + rl_E (last_level lev path)).
Proof.
  intros H Hd Hm Hs. revert lev residue turn r gs H.
  induction fuel as [|fuel IH]; intros lev residue turn r gs H Hl Ho HM; [discriminate|].
  rewrite cascade_unfold in H. destruct (rl_gammas lev) as [|g0 gr] eqn:EG.
  - injection H as <- <-. exists []. split; [constructor; exact EG|]. split; [reflexivity|]. split; [constructor|].
    split; [constructor; [exact Ho|constructor]|]. split; [apply same_p4_refl|]. split; [reflexivity|]. intros C. contradiction.
  - rewrite <- ?EG in H. destruct (nth_error (rl_gammas lev) _) as [[w e]|] eqn:EN; [|discriminate].
    destruct e as [j|]; [|discriminate]. destruct (nth_error (s_levels ds) j) as [lev'|] eqn:EL; [|discriminate].
    rewrite Hm in H. cbn [bind] in H.
    destruct (two_body_decay _ _ _ _ _) as [[g n]|] eqn:ED; cbn [bind] in H; [|discriminate].
    destruct (cascade t ds q lev' n draws (S turn) fuel) as [[r' gs']|] eqn:EC; cbn [bind] in H; [|discriminate].
    injection H as <- <-.
    destruct (Hd turn) as (D1 & D2 & D3).
    assert (HL' : good_intensities lev' /\ 0 < m0 + rl_E lev').
    { rewrite Forall_forall in Hs. apply Hs. eapply nth_error_In. exact EL. }
    destruct HL' as [HL' HP].
    assert (HW : In (w, Some j) (rl_gammas lev) /\ 0 < fst (w, Some j)).
    { destruct Hl as [Hl|[Hl1 Hl2]]; [congruence|]. eapply nth_discrete_pos; [exact Hl1|exact Hl2|exact D1|exact EN]. }
    destruct HW as [HI HW]. cbn [fst] in HW.
    apply decay_step in ED; [|exact Ho|exact HM|cbn; lra|cbn; lra|apply uniform_unit; [lra|exact D2]].
    destruct ED as (O1 & O2 & K1 & K2 & P4 & _). destruct K1 as (K1a & K1b & K1c). destruct K2 as (K2a & K2b & K2c).
    cbn [pid mass chg photon_part particle3] in K1a, K1b, K1c, K2a, K2b, K2c.
    destruct (IH lev' n (S turn) r' gs' EC HL' O2 ltac:(rewrite <- K2b; exact HP)) as (path & A1 & A2 & A3 & A4 & A5 & A6 & A7).
    exists (lev' :: path). split; [econstructor; eassumption|]. split; [cbn [length]; lia|].
    split; [constructor; [repeat split; symmetry; assumption|exact A3]|].
    pose proof (Forall_inv A4) as B1. pose proof (Forall_inv_tail A4) as B2. split; [constructor; [exact B1|constructor; [exact O1|exact B2]]|].
    split; [p4|]. split; [discriminate|]. intros _.
    destruct path as [|p path].
    + rewrite (A6 eq_refl). unfold last_level. cbn [last]. rewrite <- K2a, <- K2b, <- K2c. repeat split.
    + destruct (A7 ltac:(discriminate)) as (B3 & B4 & B5). split; [exact B3|]. split; [exact B4|]. rewrite B5.
      unfold last_level. f_equal. f_equal. cbn [last]. clear. revert p. induction path as [|a path IH]; intros p; [reflexivity|]. exact (IH a).
Qed.
Print Assumptions C29_conserves.

Lemma decay_no_fuel p0 p1 p2 ct phi : two_body_decay p0 p1 p2 ct phi <> Er NoFuel.
Proof.
  assert (B : forall x y z p, boost x y z p <> Er NoFuel).
  { intros x y z p. unfold boost, get_beta2. cbv zeta. repeat (destruct (Rle_dec _ _) || destruct (Rlt_dec _ _) || destruct (Req_EM_T _ _)); cbn [bind]; repeat (destruct (Rle_dec _ _) || destruct (Rlt_dec _ _) || destruct (Req_EM_T _ _)); discriminate. }
  unfold two_body_decay. destruct (Rlt_dec _ _); [discriminate|]. cbv zeta.
  match goal with |- bind ?b _ <> _ => destruct b as [x|e] eqn:E1 end; cbn [bind].
  - match goal with |- bind ?b _ <> _ => destruct b as [y|e] eqn:E2 end; cbn [bind]; [discriminate|].
    intros C. injection C as ->. exact (B _ _ _ _ E2).
  - intros C. injection C as ->. exact (B _ _ _ _ E1).
Qed.

Lemma ion_mass_no_fuel t p q : ion_mass t p q <> Er NoFuel.
Proof.
  unfold ion_mass, atomic_mass, lookup_pdg, particle_mass, part_at. cbv zeta.
  destruct (assoc p (t_atom t)); cbn [bind]; destruct (assoc _ (t_part t)); cbn [bind]; discriminate.
Qed.

(** Where gammas lead to lower levels a cascade from the level of index [i] ends after
    at most [i] gammas, whatever the draws. *)
Theorem C29_terminates t ds q residue draws turn i lev fuel :
  downward ds -> nth_error (s_levels ds) i = Some lev -> (i < fuel)%nat ->
  cascade t ds q lev residue draws turn fuel <> Er NoFuel.
Proof.
  intros Hd. revert i lev residue turn. induction fuel as [|fuel IH]; intros i lev residue turn HL Hi; [lia|].
  rewrite cascade_unfold. destruct (rl_gammas lev) as [|g0 gr] eqn:EG; [discriminate|]. rewrite <- ?EG.
  destruct (nth_error (rl_gammas lev) _) as [[w e]|] eqn:EN; [|discriminate].
  destruct (Hd i lev w e HL (nth_error_In _ _ EN)) as (j & -> & Hj).
  destruct (nth_error (s_levels ds) j) as [lev'|] eqn:EL; [|discriminate].
  destruct (ion_mass t (s_pdg ds) q) as [m0|e] eqn:EM; cbn [bind].
  - destruct (two_body_decay _ _ _ _ _) as [[g n]|e] eqn:ED; cbn [bind].
    + pose proof (IH j lev' n (S turn) EL ltac:(lia)) as IHn.
      destruct (cascade t ds q lev' n draws (S turn) fuel) as [[r' gs']|e]; cbn [bind]; [discriminate|].
      intros C. apply IHn. exact C.
    + intros C. injection C as ->. apply (decay_no_fuel _ _ _ _ _ ED).
  - intros C. injection C as ->. exact (ion_mass_no_fuel _ _ _ EM).
Qed.
Print Assumptions C29_terminates.

Lemma cascade_length t ds q draws : downward ds -> forall fuel i lev residue turn r gs,
  nth_error (s_levels ds) i = Some lev ->
  cascade t ds q lev residue draws turn fuel = Ok (r, gs) -> (length gs <= i)%nat.
Proof.
  intros Hd. induction fuel as [|fuel IH]; intros i lev residue turn r gs HL H; [discriminate|].
  rewrite cascade_unfold in H. destruct (rl_gammas lev) as [|g0 gr] eqn:EG; [injection H as _ <-; cbn; lia|]. rewrite <- ?EG in H.
  destruct (nth_error (rl_gammas lev) _) as [[w e]|] eqn:EN; [|discriminate].
  destruct (Hd i lev w e HL (nth_error_In _ _ EN)) as (j & -> & Hj).
  destruct (nth_error (s_levels ds) j) as [lev'|] eqn:EL; [|discriminate].
  destruct (ion_mass t (s_pdg ds) q) as [m0|e] eqn:EM; cbn [bind] in H; [|discriminate].
  destruct (two_body_decay _ _ _ _ _) as [[g n]|e] eqn:ED; cbn [bind] in H; [|discriminate].
  destruct (cascade t ds q lev' n draws (S turn) fuel) as [[r' gs']|e] eqn:EC; cbn [bind] in H; [|discriminate].
  injection H as _ <-. apply (IH j) in EC; [|exact EL]. cbn [length]. lia.
Qed.

(** Where, besides, the levels are in order of energy, and the nucleus has the mass
    of its level, the cascade succeeds, with at most as many gammas as there are levels
    below, and the result satisfies [C29_conserves]. *)
Theorem C29_succeeds t ds q residue draws turn i lev fuel m0 :
  downward ds -> levels_sorted (s_levels ds) -> nth_error (s_levels ds) i = Some lev -> (i < fuel)%nat ->
  ion_mass t (s_pdg ds) q = Ok m0 -> Forall (fun l => 0 < m0 + rl_E l) (s_levels ds) ->
  cascade_draws draws -> on_shell residue -> mass residue = m0 + rl_E lev ->
  exists r gs, cascade t ds q lev residue draws turn fuel = Ok (r, gs) /\ (length gs <= i)%nat.
Proof.
  intros Hd Hs HL Hi Hm Hp Hdr Ho HM.
  assert (X : exists r gs, cascade t ds q lev residue draws turn fuel = Ok (r, gs)).
  { revert i lev residue turn HL Hi Ho HM. induction fuel as [|fuel IH]; intros i lev residue turn HL Hi Ho HM; [lia|].
    rewrite cascade_unfold. destruct (rl_gammas lev) as [|g0 gr] eqn:EG; [eexists; eexists; reflexivity|]. rewrite <- ?EG.
    assert (NE : rl_gammas lev <> []) by congruence.
    destruct (nth_discrete_some (fun x : R * option nat => fst x) (rl_gammas lev) (fst (fst (draws turn))) NE) as [[w e] EN].
    assert (EN' : nth_error (rl_gammas lev) (discrete (map fst (rl_gammas lev)) (fst (fst (draws turn)))) = Some (w, e)) by exact EN.
    rewrite EN'. destruct (Hd i lev w e HL (nth_error_In _ _ EN')) as (j & -> & Hj).
    assert (HJ : (j < length (s_levels ds))%nat) by (apply Nat.lt_trans with i; [exact Hj|]; apply nth_error_Some; congruence).
    destruct (nth_error (s_levels ds) j) as [lev'|] eqn:EL; [|apply nth_error_None in EL; lia].
    rewrite Hm. cbn [bind]. rewrite Forall_forall in Hp.
    pose proof (Hp lev (nth_error_In _ _ HL)) as P1. pose proof (Hp lev' (nth_error_In _ _ EL)) as P2.
    pose proof (Hs j i lev' lev ltac:(lia) EL HL) as LE. destruct (Hdr turn) as (_ & D2 & _).
    destruct (C44_conserves residue photon_part (particle3 (s_pdg ds) (m0 + rl_E lev') q)
      (uniform (-1) 1 (snd (fst (draws turn)))) (uniform 0 (2 * PI) (snd (draws turn)))) as (g & n & ED & G1 & G2 & G3 & G4 & G5);
      [exact Ho|lra|cbn; lra|cbn; lra|cbn; lra|apply uniform_unit; [lra|exact D2]|].
    rewrite ED. cbn [bind].
    destruct (IH j lev' n (S turn) EL ltac:(lia) G2) as (r & gs & EC).
    { destruct G4 as (_ & E & _). cbn [mass particle3] in E. symmetry. exact E. }
    rewrite EC. cbn [bind]. eexists; eexists; reflexivity. }
  destruct X as (r & gs & E). exists r, gs. split; [exact E|]. eapply cascade_length; eassumption.
Qed.
Print Assumptions C29_succeeds.

(** A three-level scheme for the non-vacuity of the above. *)
Definition demo_mt : mtab := mkmt [(11%Z, 548); (22%Z, 0); (2112%Z, 1008664); (2212%Z, 1007276)] [(1000190400%Z, 39963998)].
Definition demo_scheme : rscheme := mkrs 1000190400
  [mkrl 0 8 false []; mkrl (3 / 100) 6 false [(1, Some 0%nat)]; mkrl (164 / 100) 0 true [(0, Some 0%nat); (1, Some 1%nat)]].
Lemma demo_mass : ion_mass demo_mt 1000190400 1 = Ok (39963998 * micro_amu - 1 * (micro_amu * 548)).
Proof. reflexivity. Qed.
Lemma demo_downward : downward demo_scheme.
Proof.
  intros i lev w e H HI. destruct i as [|[|[|i]]]; cbn in H.
  - injection H as <-. destruct HI.
  - injection H as <-. destruct HI as [HI|[]]. injection HI as <- <-. exists 0%nat. split; [reflexivity|lia].
  - injection H as <-. destruct HI as [HI|[HI|[]]]; injection HI as <- <-; [exists 0%nat|exists 1%nat]; (split; [reflexivity|lia]).
  - destruct i; discriminate.
Qed.
Lemma demo_sorted : levels_sorted (s_levels demo_scheme).
Proof.
  intros i j a b Hij Ha Hb. destruct i as [|[|[|i]]]; cbn in Ha; try (injection Ha as <-);
  destruct j as [|[|[|j]]]; cbn in Hb; try (injection Hb as <-); cbn [rl_E]; try lia; try lra;
  try (destruct j; discriminate); try (destruct i; discriminate).
Qed.
Lemma demo_positive : Forall (fun l => 0 < (39963998 * micro_amu - 1 * (micro_amu * 548)) + rl_E l) (s_levels demo_scheme).
Proof. unfold micro_amu. repeat (apply Forall_cons; [cbn [rl_E]; lra|]). apply Forall_nil. Qed.
Lemma demo_good : Forall good_intensities (s_levels demo_scheme).
Proof.
  apply Forall_cons; [left; reflexivity|]. apply Forall_cons; [right; split; [apply Forall_cons; [cbn; lra|apply Forall_nil]|cbn; lra]|].
  apply Forall_cons; [right; split; [|cbn; lra]|apply Forall_nil]. apply Forall_cons; [cbn; lra|]. apply Forall_cons; [cbn; lra|apply Forall_nil].
Qed.

Example C29_case draws : cascade_draws draws ->
  let m := 39963998 * micro_amu - 1 * (micro_amu * 548) + 164 / 100 in
  exists r gs, cascade demo_mt demo_scheme 1 (mkrl (164 / 100) 0 true [(0, Some 0%nat); (1, Some 1%nat)])
     (mkpart 1000190400 m 0 0 0 m 1) draws 0 3 = Ok (r, gs) /\ length gs = 2%nat.
Proof.
  intros Hd m. destruct (C29_succeeds demo_mt demo_scheme 1 (mkpart 1000190400 m 0 0 0 m 1) draws 0 2
    (mkrl (164 / 100) 0 true [(0, Some 0%nat); (1, Some 1%nat)]) 3 _ demo_downward demo_sorted eq_refl ltac:(lia) demo_mass demo_positive Hd) as (r & gs & E & _).
  - unfold on_shell, m, micro_amu. cbn [mass en px py pz]. lra.
  - reflexivity.
  - exists r, gs. split; [exact E|].
    destruct (C29_conserves _ _ _ _ _ _ _ _ _ _ _ E Hd demo_mass) as (path & A1 & A2 & _).
    + pose proof demo_good as G. pose proof demo_positive as P. rewrite Forall_forall in *. intros l Hl. split; [apply G|apply P]; exact Hl.
    + pose proof demo_good as G. rewrite Forall_forall in G. apply G. right. right. left. reflexivity.
    + unfold on_shell, m, micro_amu. cbn [mass en px py pz]. lra.
    + unfold m, micro_amu. cbn [mass]. lra.
    + rewrite A2. inversion A1 as [? C|? w j lev' ls HI Hw HN HP]; subst; [discriminate|].
      destruct HI as [HI|[HI|[]]]; injection HI as <- <-; [lra|]. cbn in HN. injection HN as <-.
      inversion HP as [? C|? w' j' lev'' ls' HI' Hw' HN' HP']; subst; [discriminate|].
      destruct HI' as [HI'|[]]. injection HI' as <- <-. cbn in HN'. injection HN' as <-.
      inversion HP' as [? C|? w3 j3 l3 ls3 HI3]; subst; [reflexivity|]. destruct HI3.
Qed.

(** The conditions are needed. A gamma that leads back to its own level makes the
    cascade endless, whatever the draws. *)
Theorem C29_self_loop_refuted t q m0 E draws turn fuel residue :
  let lev := mkrl E 0 true [(1, Some 0%nat)] in
  ion_mass t 1000190400 q = Ok m0 -> 0 < m0 + E -> cascade_draws draws -> on_shell residue -> mass residue = m0 + E ->
  cascade t (mkrs 1000190400 [lev]) q lev residue draws turn fuel = Er NoFuel.
Proof.
  intros lev Hm HP Hd. revert turn residue. induction fuel as [|fuel IH]; intros turn residue Ho HM; [reflexivity|].
  rewrite cascade_unfold. change (rl_gammas lev) with [(1%R, Some 0%nat)]. cbv iota.
  assert (L : (discrete (map fst [(1%R, Some 0%nat)]) (fst (fst (draws turn))) < 1)%nat) by (apply (discrete_lt [1]); discriminate).
  destruct (discrete (map fst [(1%R, Some 0%nat)]) (fst (fst (draws turn)))) as [|k]; [|lia]. cbn [nth_error s_levels s_pdg]. rewrite Hm. cbn [bind]. destruct (Hd turn) as (_ & D2 & _).
  match goal with |- context [two_body_decay ?a ?b ?c ?d ?e] => destruct (C44_conserves a b c d e) as (g & n & ED & G1 & G2 & G3 & G4 & G5);
      [exact Ho|lra|cbn; lra|cbn; lra|cbn; lra|apply uniform_unit; [lra|exact D2]|] end.
  rewrite ED. cbn [bind]. rewrite IH; [reflexivity|exact G2|]. destruct G4 as (_ & E1 & _). symmetry. exact E1.
Qed.
Print Assumptions C29_self_loop_refuted.

(** A gamma without an end level is an error. *)
Theorem C29_no_end t ds q residue draws turn fuel lev w : rl_gammas lev = [(w, None)] ->
  cascade t ds q lev residue draws turn (S fuel) = Er MarleyErr.
Proof.
  intros E. rewrite cascade_unfold, E.
  assert (L : (discrete (map fst [(w, @None nat)]) (fst (fst (draws turn))) < 1)%nat) by (apply (discrete_lt [w]); discriminate).
  destruct (discrete (map fst [(w, None)]) (fst (fst (draws turn)))) as [|k]; [reflexivity|lia].
Qed.
Print Assumptions C29_no_end.
