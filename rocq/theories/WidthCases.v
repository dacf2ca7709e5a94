(** Cases for the theorems about widths and branching (C65) and about incomplete tables of
    spins (C64). *)
From Coq Require Import List ZArith Reals Lra Lia Bool String.
From Verif Require Import Base Pdg PdgThms Kin KinSpec KinProofs KinThms Sample SampleProofs SampleThms Mass MassThms
  Decay DecaySpec DecayProofs ChannelProofs CascadeThms SelectThms DeexSpec DeexProofs DeexThms DeexCases WidthThms.
From Verif Require Strings Ground GroundThms.
Import ListNotations.
Local Open Scope R_scope.

(** Potassium-40 at 20 MeV: there are channels, one is chosen, and it carries weight. *)
Example C65_case d : hf_draws (fun _ => d) -> h_E d < 1 ->
  exists fuel e r Exf Jf Pf cont cs i x, hf_decay case_env (K40 20) 20 2 true d fuel = Ok (e, r, Exf, Jf, Pf, cont) /\
    exit_channels case_env (mkcomp (pid (K40 20)) (chg (K40 20)) 20 2 true) = Ok cs /\ nth_error cs i = Some x /\ 0 < x_width x /\
    nonneg_at case_env (pid (K40 20)) /\ spins_match case_env /\ spin_matches (particle_A (pid (K40 20))) 2.
Proof.
  intros Hd H1. destruct (C32_case_unbound d Hd H1) as (fuel & e & r & Exf & Jf & Pf & cont & H & HP & HS & HM & _).
  assert (NN : nonneg_at case_env (pid (K40 20))) by (destruct HP; unfold nonneg_at in *; intuition (try lra)).
  destruct (Hd 0%nat) as (D1 & D2 & D3 & D4 & D5).
  destruct (C65_branching _ _ _ _ _ _ _ _ _ _ _ _ _ H NN ltac:(lra) HS HM) as (cs & i & x & E1 & E2 & T & B & _); [assumption..|].
  exists fuel, e, r, Exf, Jf, Pf, cont, cs, i, x. split; [exact H|]. split; [exact E1|]. split; [exact E2|].
  split; [|split; [exact NN|split; assumption]].
  set (tot := sumR (map x_width cs)) in *. set (bef := sumR (map x_width (firstn i cs))) in *.
  assert (G : bef / tot < (bef + x_width x) / tot) by lra. apply (Rmult_lt_compat_r tot) in G; [|exact T].
  unfold Rdiv in G. rewrite !Rmult_assoc, Rinv_l, !Rmult_1_r in G by lra. lra.
Qed.

(** The levels of potassium-40 are sorted and different. *)
Example C65_channels_case : all_sorted case_env /\ NoDup (s_levels demo_scheme) /\ NoDup (v_frags case_env).
Proof.
  split; [|split].
  - intros pdg ds H. cbn [case_env v_scheme] in H. destruct (Z.eqb pdg 1000190400); [|discriminate H]. injection H as <-. exact demo_sorted.
  - cbn [demo_scheme s_levels]. repeat constructor; cbn [In]; intros H; decompose [or] H; try contradiction; discriminate.
  - repeat constructor. intros [].
Qed.

(** The table with two entries is one with a fragment missing. *)
Example C64_incomplete_case : GroundThms.jpi_ok GroundThms.short_table /\ GroundThms.has_table GroundThms.short_files [] GroundThms.short_table /\
  (exists f, In f GroundThms.light /\ GroundThms.tabled f GroundThms.short_table = None) /\
  snd (Ground.gs_spin_parity GroundThms.short_files [] 2112 Ground.no_statics) = Er MarleyErr.
Proof.
  split; [repeat constructor; vm_compute; congruence|]. split; [split; [discriminate|reflexivity]|].
  split; [|vm_compute; reflexivity]. exists 2212%Z. split; [|vm_compute; reflexivity]. unfold GroundThms.light. cbn [In]. tauto.
Qed.
