(** Reaction data files and matching of matrix elements to levels
    (src/Reaction.cc 69-190 and 287-453, src/marley_utils.cc 434-454,
    include/marley/MatrixElement.hh). *)
From Coq Require Import List Ascii String ZArith Bool Lia.
From Coq Require Import Floats.SpecFloat.
From Verif Require Import Base Dbl Stream Pdg Names React Event Levels.
Import ListNotations.
Local Open Scope Z_scope.

(** ** Matrix elements *)

(** MatrixElement.hh: tabulated energy, strength, type code and level pointer. The
    pointer is shown with the level it points to. The type is kept as the integer
    read from the file: casting a value outside 0..1 to the enumeration gives an
    unspecified value in C++. *)
Record matel := mkm { m_energy : spec_float; m_strength : spec_float; m_type : Z; m_level : option (nat * level) }.

(** MatrixElement.hh, level_energy. *)
Definition level_energy (m : matel) : spec_float :=
  match m_level m with Some p => energy_of p | None => m_energy m end.

Definition set_level (p : option (nat * level)) (m : matel) : matel :=
  mkm (m_energy m) (m_strength m) (m_type m) p.

Definition uses_level (a : nat) (m : matel) : bool :=
  match m_level m with Some p => Nat.eqb (fst p) a | None => false end.

(** Reaction.cc 107-188, the loop of set_level_ptrs: [pre] are the elements already
    visited. The selection rule warnings have no effect and are left out. A scheme
    without levels gives a null pointer that is dereferenced. *)
Fixpoint match_levels (sc : scheme) (thr : spec_float) (pre todo : list matel) : res (list matel) :=
  match todo with
  | [] => Ok pre
  | m :: r =>
      if dlt thr (m_energy m) then match_levels sc thr (pre ++ [set_level None m]) r
      else match closest_level (m_energy m) sc with
           | None => Er Undefined
           | Some p =>
               if existsb (uses_level (fst p)) (pre ++ m :: r) then Er MarleyErr
               else match_levels sc thr (pre ++ [set_level (Some p) m]) r
           end
  end.

(** What the loader needs from the structure database and the mass table: the decay
    scheme of a nuclide if there is one, the spin-parity of its ground state, and
    its threshold for fragment emission. *)
Record nuclear_data := mkn {
  n_scheme : Z -> res (option scheme);
  n_gs : Z -> res (Z * parity);
  n_threshold : Z -> res spec_float
}.

(** Reaction.cc 71-105, the beginning of set_level_ptrs. *)
Definition set_level_ptrs (nd : nuclear_data) (pdg_b pdg_d : Z) (ms : list matel) : res (list matel) :=
  do o <- n_scheme nd pdg_d;
  match o with
  | None => Ok ms
  | Some sc =>
      if negb (pdg_d =? nucleus_pid (s_Z sc) (s_A sc)) then Er MarleyErr
      else
        do thr <- n_threshold nd pdg_d;
        do _ <- n_gs nd pdg_b;
        match_levels sc thr [] ms
  end.

(** ** Reading the file *)

(** The lines of a file: those ended by a newline, and what follows the last
    newline. *)
Fixpoint lines_of (s : bytes) : list bytes * bytes :=
  match s with
  | [] => ([], [])
  | c :: r =>
      let '(ls, t) := lines_of r in
      if ceq c nl then ([] :: ls, t)
      else match ls with
           | [] => ([], c :: t)
           | l :: ls' => ((c :: l) :: ls', t)
           end
  end.

(** regex_match(line, "#.*"): '.' matches any character but the line terminators,
    so a line ending in a carriage return is not a comment. *)
Definition is_comment (l : bytes) : bool :=
  match l with
  | c :: r => ceq c "#"%char && forallb (fun x => negb (ceq x (chr 13)) && negb (ceq x nl)) r
  | [] => false
  end.

(** marley_utils.cc 434-454, get_next_line, with match == false: the line, the lines
    left, and whether the stream is still good. The piece after the last newline is
    returned with the end of file flag set. *)
Fixpoint next_line (ls : list bytes) (tail : bytes) : bytes * list bytes * bool :=
  match ls with
  | l :: r => if is_comment l then next_line r tail else (l, r, true)
  | [] => if is_comment tail then ([], [], false) else (tail, [], false)
  end.

(** A variable extracted from a stream: a value and the rest of the stream; or the
    value stored by a failed conversion; or left as it was because there was nothing
    but white space. *)
Inductive got (A : Type) := Got (x : A) (r : bytes) | Bad (x : A) | Unset.
Arguments Got {A} x r. Arguments Bad {A} x. Arguments Unset {A}.

Definition get_int (s : bytes) : got Z :=
  match skip_sp s with
  | [] => Unset
  | _ => match rd_int s with
         | Some (z, r) => Got z r
         | None => let '(neg, r) := take_sign (skip_sp s) in
                   match span_digits r with
                   | ([], _) => Bad 0
                   | _ => Bad (if neg then int_min else int_max)
                   end
         end
  end.

Definition dbl_max (s : bool) : spec_float := S754_finite s (2 ^ 53 - 1)%positive 971.

(** A failed conversion to double stores 0, or the largest double on overflow. *)
Definition get_dbl (s : bytes) : got spec_float :=
  match skip_sp s with
  | [] => Unset
  | _ => match rd_dbl s with
         | Some (x, r) => Got x r
         | None =>
             let '(neg, r) := take_sign (skip_sp s) in
             let '(ip, r1) := span_digits r in
             let '(fp, r2) := match r1 with
                              | c :: r' => if ceq c "."%char then span_digits r' else ([], r1)
                              | [] => ([], r1)
                              end in
             match ip ++ fp, rd_exp r2 with
             | _ :: _, Some _ => Bad (dbl_max neg)
             | _, _ => Bad dbl_zero
             end
         end
  end.

(** Reaction.cc 371-394: one line of the table. *)
Definition read_matel (old : spec_float) (line : bytes) : res matel :=
  match get_dbl line with
  | Unset => Er Undefined
  | Bad e => if dle e old then Er MarleyErr else Er Undefined
  | Got e r1 =>
      if dle e old then Er MarleyErr
      else match get_dbl r1 with
           | Unset | Bad _ => Er Undefined
           | Got st r2 =>
               match get_int r2 with
               | Unset => Er Undefined
               | Bad t => Ok (mkm e st t None)
               | Got t _ => Ok (mkm e st t None)
               end
           end
  end.

(** Reaction.cc 364-395: the table. Lines not ended by a newline are not used. *)
Fixpoint read_table (old : spec_float) (ls : list bytes) : res (list matel) :=
  match ls with
  | [] => Ok []
  | l :: r =>
      if is_comment l then read_table old r
      else
        do m <- read_matel old l;
        do ms <- read_table (m_energy m) r;
        Ok (m :: ms)
  end.

(** TargetAtom.cc 46-51, check_pdg_validity. *)
Definition target_atom (pdg : Z) : res Z := if particle_A pdg <=? 0 then Er MarleyErr else Ok pdg.

(** Reaction.cc 327-332: the targets on one line, while the extraction succeeds. *)
Fixpoint line_targets (f : nat) (s : bytes) : list Z :=
  match f with
  | O => []
  | S k => match rd_int s with Some (z, r) => z :: line_targets k r | None => [] end
  end.

(** Reaction.cc 324-344: targets of electron scattering, up to an empty line or the
    end of the file. *)
Fixpoint more_targets (ls : list bytes) (tail : bytes) : list Z :=
  match ls with
  | l :: r =>
      if is_comment l then more_targets r tail
      else match l with [] => [] | _ => line_targets (S (List.length l)) l ++ more_targets r tail end
  | [] => if is_comment tail then [] else line_targets (S (List.length tail)) tail
  end.

Inductive loaded :=
| Nuclear (rs : list reaction) (table : list matel)
| Electron (rs : list (Z * reaction)).

(** Reaction.cc 287-453, load_from_file, on the content of the file. *)
Definition load (nd : nuclear_data) (s : bytes) : res loaded :=
  let '(ls, tail) := lines_of s in
  let '(line, ls1, good) := next_line ls tail in
  match get_int line with
  | Unset | Bad _ => Er Undefined
  | Got pt r =>
      match proc_of_int pt with
      | Some NuElectronElastic =>
          let targets := line_targets (S (List.length r)) r ++
            (if good then more_targets ls1 tail else []) in
          do ts <- map_res (fun t => do t' <- target_atom t; do rs <- electron_reactions; Ok (map (pair t') rs)) targets;
          Ok (Electron (List.concat ts))
      | op =>
          match get_int r with
          | Unset => Er Undefined
          | Bad pdg_b | Got pdg_b _ =>
              do ms <- read_table (dbl_max true) ls1;
              match op with
              | None => Er MarleyErr
              | Some p =>
                  do (d, _) <- residue p pdg_b;
                  do ms' <- set_level_ptrs nd pdg_b d ms;
                  do rs <- nuclear_reactions p pdg_b;
                  Ok (Nuclear rs ms')
              end
          end
      end
  end.
