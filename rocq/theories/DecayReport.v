(** The report on the decay of a compound nucleus (src/HauserFeshbachDecay.cc,
    include/marley/ExitChannel.hh). *)
From Coq Require Import List Ascii String ZArith Bool.
From Coq Require Import Floats.SpecFloat.
From Verif Require Import Base Dbl Strings Pdg Names React Event Levels Report.
Import ListNotations.
Local Open Scope Z_scope.

(** ExitChannel.hh 66-103, 165-176, 192-222 and 265: what the report asks of an exit channel.
    The fragment is absent if a gamma ray is emitted, the level energy if the channel ends in
    the continuum. The cast to a discrete channel (HauserFeshbachDecay.cc 230-232) fails for no
    class of channel that is not one of the continuum, so it is left out. *)
Record channel_view := mkcv { cv_fragment : option Z; cv_level : option spec_float; cv_width : spec_float }.

(** HauserFeshbachDecay.hh, members that are printed. *)
Record decay_view := mkdv { dv_pdg : Z; dv_Ex : spec_float; dv_twoJ : Z; dv_par : bool; dv_total : spec_float; dv_channels : list channel_view }.

(** HauserFeshbachDecay.cc 209. *)
Definition HBAR : spec_float := rnd64 false 658211951 (10 ^ 30).

(** ExitChannel.hh 192 and 217, emitted_particle_pdg, with PHOTON of marley_utils.hh. *)
Definition emitted_pdg (c : channel_view) : Z := match cv_fragment c with Some f => f | None => 22 end.

(** HauserFeshbachDecay.cc 211-217: before the loop. *)
Definition decay_heading (d : decay_view) : bytes :=
  b "Compound nucleus " ++ show_int (dv_pdg d) ++ b " with Ex = " ++ show_g6 (dv_Ex d) ++ b ", spin = " ++ compound_spin (dv_twoJ d)
  ++ b ", and parity = " ++ [parity_to_char (dv_par d)] ++ [nl]
  ++ b "Total width = " ++ show_g6 (dv_total d) ++ b " MeV" ++ [nl]
  ++ b "Mean lifetime = " ++ show_g6 (SFdiv 53 1024 HBAR (dv_total d)) ++ b " s" ++ [nl].

(** HauserFeshbachDecay.cc 218-236: what the loop has written when it ends or an exception
    leaves it. The symbol is looked up first, also for gamma rays. *)
Fixpoint channel_lines (cs : list channel_view) : bytes * res unit :=
  match cs with
  | [] => ([], Ok tt)
  | c :: r =>
      match assoc (emitted_pdg c) particle_symbols with
      | None => ([], Er StdRange)
      | Some symbol =>
          let line := b "  " ++ (match cv_fragment c with Some _ => symbol | None => b "gamma-ray" end)
            ++ (match cv_level c with
                | None => b " emission to the continuum width = "
                | Some e => b " emission to level at " ++ show_g6 e ++ b " MeV width = "
                end) ++ show_g6 (cv_width c) ++ b " MeV" ++ [nl] in
          let '(rest, o) := channel_lines r in (line ++ rest, o)
      end
  end.

(** HauserFeshbachDecay.cc 206-237, print: the text written and how the call ends. *)
Definition print_decay (d : decay_view) : bytes * res unit :=
  let '(t, o) := channel_lines (dv_channels d) in (decay_heading d ++ t, o).
