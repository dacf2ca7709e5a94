(** The ROOT macros that come with MARLEY (examples/macros), for the list of events that the
    reader delivers (C19, C77). Numbers are real numbers. Drawing is left out, and so is the
    third histogram of reco_spectrum.C. *)
From Coq Require Import List ZArith Reals Bool.
From Flocq Require Import Core.
From Verif Require Import Base Pdg Kin Rot.
Import ListNotations.
Local Open Scope R_scope.

(** Particle.cc 99-101, kinetic_energy. *)
Definition kinetic_energy (p : part) : R := Rmax (en p - mass p) 0.

(** ROOT's TH1D with bins of equal width, as ROOT documents it: bin 0 holds values below the
    range, bin n + 1 those at its end and above. If the range is empty or reversed ROOT
    chooses one from the data. *)
Record axis := mkaxis { ax_n : nat; ax_lo : R; ax_hi : R }.
Definition find_bin (a : axis) (x : R) : nat :=
  if Rlt_dec x (ax_lo a) then O
  else if Rlt_dec x (ax_hi a) then S (Z.to_nat (Zfloor (INR (ax_n a) * (x - ax_lo a) / (ax_hi a - ax_lo a))))
  else S (ax_n a).
Definition automatic (a : axis) : Prop := ax_hi a <= ax_lo a.

(** Fill for each value and then Scale: the content of a bin. *)
Definition content (a : axis) (factor : R) (xs : list R) (k : nat) : R :=
  factor * INR (length (filter (fun x => Nat.eqb (find_bin a x) k) xs)).

(** cos_plot.C 6-9 and 24-33: bins and the cosine of one event. *)
Definition cos_axis : axis := mkaxis 10 (-1) 1.
Definition cos_theta (ev : kevent) : R :=
  let nu := e_projectile ev in let e := e_ejectile ev in
  (px nu * px e + py nu * py e + pz nu * pz e) / (momentum_magnitude nu * momentum_magnitude e).

(** cos_plot.C 11-43: the content of a bin, for a flux-averaged cross section [xsec]. *)
Definition cos_plot (xsec : R) (evs : list kevent) (k : nat) : R :=
  content cos_axis (xsec / ((1 - -1) / 10) / INR (length evs)) (map cos_theta evs) k.

(** nu_spect.C 6-33. *)
Definition nu_axis : axis := mkaxis 100 0 60.
Definition nu_spect (xsec : R) (evs : list kevent) (k : nat) : R :=
  content nu_axis (xsec / INR (length evs) / ((60 - 0) / 100)) (map (fun ev => en (e_projectile ev)) evs) k.

(** fp_spect.C 11-27: the kinetic energies of the final particles with a code. *)
Definition fp_energies (pdg : Z) (evs : list kevent) : list R :=
  flat_map (fun ev => map kinetic_energy (filter (fun p => Z.eqb (pid p) pdg) (final_parts ev))) evs.
(** fp_spect.C 29-35: the largest and the smallest. *)
Definition fp_step (r : R * R) (ke : R) : R * R :=
  if Rlt_dec (fst r) ke then (ke, snd r) else if Rlt_dec ke (snd r) then (fst r, ke) else r.
Definition fp_range (l : list R) : R * R := fold_left fp_step l (- 10 ^ 30, 10 ^ 30).
(** fp_spect.C 41: the histogram is made from KE_max to KE_min. *)
Definition fp_axis (l : list R) : axis := let '(mx, mn) := fp_range l in mkaxis 100 mx mn.

(** Ex.C 7-29: DBL_MIN, the smallest positive normal double, is where the search for the
    largest excitation energy starts. *)
Definition Ex_max (l : list R) : R := fold_left (fun m x => if Rlt_dec x m then x else m) l (/ 2 ^ 1022).
Definition Ex_axis (evs : list kevent) : axis := mkaxis 100 (Ex_max (map e_Ex evs) * (11 / 10)) 0.

(** reco_spectrum.C 19 and 51-72: the reconstructed energy of an event. *)
Definition Q_ground_state : R := 15044 / 10000.
Definition E_reco (ev : kevent) : R :=
  fold_left (fun KE p => if Z.eqb (pid p) 2112 then KE else KE + kinetic_energy p) (final_parts ev) 0 + Q_ground_state.

(** reco_spectrum.C 33-40 and 62-68: the four counters of final nuclei. *)
Record counts := mkcounts { c_gamma : nat; c_n : nat; c_p : nat; c_other : nat }.
Definition count_particle (c : counts) (p : part) : counts :=
  if Z.leb (pid p) 1000020040 then c
  else if Z.eqb (pid p) 1000190400 then mkcounts (S (c_gamma c)) (c_n c) (c_p c) (c_other c)
  else if Z.eqb (pid p) 1000190390 then mkcounts (c_gamma c) (S (c_n c)) (c_p c) (c_other c)
  else if Z.eqb (pid p) 1000180390 then mkcounts (c_gamma c) (c_n c) (S (c_p c)) (c_other c)
  else mkcounts (c_gamma c) (c_n c) (c_p c) (S (c_other c)).
Definition count_event (c : counts) (ev : kevent) : counts := fold_left count_particle (final_parts ev) c.
Definition count_events (evs : list kevent) : counts := fold_left count_event evs (mkcounts 0 0 0 0).

(** reco_spectrum.C 8-11 and 75-90. *)
Definition reco_axis : axis := mkaxis 110 0 55.
Definition reco_spectrum (xsec : R) (evs : list kevent) (k : nat) : R :=
  content reco_axis (xsec / INR (length evs) / ((55 - 0) / 110)) (map E_reco evs) k.
