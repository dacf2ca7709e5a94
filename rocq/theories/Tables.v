(** The table of levels and gamma rays that is printed for LaTeX (src/DecayScheme.cc,
    src/marley_utils.cc). *)
From Coq Require Import List Ascii String ZArith Bool.
From Verif Require Import Base Dbl Strings Names Event Levels Report.
Import ListNotations.
Local Open Scope Z_scope.

(** A line of a literal text; marley_utils.cc 35-108 writes "\n" at its end. *)
Definition ln (s : string) : bytes := b s ++ [nl].

(** marley_utils.cc 35-64, latex_table_1. *)
Definition latex_table_1 : bytes :=
  ln "\documentclass[12pt]{article}"
  ++ ln ""
  ++ ln "\usepackage{amsmath}"
  ++ ln "\usepackage{booktabs}"
  ++ ln "\usepackage[justification=justified,"
  ++ ln "width=\textwidth,"
  ++ ln "labelformat=empty]{caption}"
  ++ ln "\usepackage[top=1in, bottom=1in, left=0.25in, right=0.25in]{geometry}"
  ++ ln "\usepackage{isotope}"
  ++ ln "\usepackage{longtable}"
  ++ ln "\usepackage{multirow}"
  ++ ln "\usepackage{siunitx}"
  ++ ln ""
  ++ ln "\newcommand{\ExtraRowSpace}{1cm}"
  ++ ln ""
  ++ ln "\begin{document}"
  ++ ln "\begin{center}"
  ++ ln "\begin{longtable}{"
  ++ ln "S[table-number-alignment = center,"
  ++ ln "  table-text-alignment = center]"
  ++ ln "c"
  ++ ln "S[table-number-alignment = center,"
  ++ ln "  table-text-alignment = center]"
  ++ ln "%  table-column-width = 2cm]"
  ++ ln "S[table-number-alignment = center,"
  ++ ln "  table-text-alignment = center]"
  ++ ln "S[table-number-alignment = center,"
  ++ ln "  table-text-alignment = center]"
  ++ ln "}"
  ++ b "\caption".

(** marley_utils.cc 66-81, latex_table_2. *)
Definition latex_table_2 : bytes :=
  ln "\toprule"
  ++ ln "%{\centering\textbf{Level Energy (keV)}}"
  ++ ln "%& {\centering\textbf{Spin-Parity}}"
  ++ ln "%& {\centering\textbf{$\boldsymbol{\gamma}$ Energy (keV)}}"
  ++ ln "%& {\centering\textbf{$\boldsymbol{\gamma}$ RI}}"
  ++ ln "%& {\centering\textbf{Final Energy (keV)}} \\"
  ++ ln "{\multirow{3}{2cm}{\centering\textbf{Level Energy (keV)}}}"
  ++ ln "& {\multirow{3}{2cm}{\centering\textbf{Spin-Parity}}}"
  ++ ln "& {\multirow{3}{2cm}{\centering\textbf{$\boldsymbol{\gamma}$ Energy (keV)}}}"
  ++ ln "& {\multirow{3}{2cm}{\centering\textbf{$\boldsymbol{\gamma}$ RI}}}"
  ++ ln "& {\multirow{3}{2.5cm}{\centering\textbf{Final Level Energy (keV)}}} \\"
  ++ ln "& & & & \\"
  ++ ln "& & & & \\"
  ++ ln "\midrule"
  ++ ln "\endfirsthead"
  ++ b "\caption[]".

(** marley_utils.cc 83-104, latex_table_3. *)
Definition latex_table_3 : bytes :=
  ln "\toprule"
  ++ ln "%{\centering\textbf{Level Energy (keV)}}"
  ++ ln "%& {\centering\textbf{Spin-Parity}}"
  ++ ln "%& {\centering\textbf{$\boldsymbol{\gamma}$ Energy (keV)}}"
  ++ ln "%& {\centering\textbf{$\boldsymbol{\gamma}$ RI}}"
  ++ ln "%& {\centering\textbf{Final Energy (keV)}} \\"
  ++ ln "{\multirow{3}{2cm}{\centering\textbf{Level Energy (keV)}}}"
  ++ ln "& {\multirow{3}{2cm}{\centering\textbf{Spin-Parity}}}"
  ++ ln "& {\multirow{3}{2cm}{\centering\textbf{$\boldsymbol{\gamma}$ Energy (keV)}}}"
  ++ ln "& {\multirow{3}{2cm}{\centering\textbf{$\boldsymbol{\gamma}$ RI}}}"
  ++ ln "& {\multirow{3}{2.5cm}{\centering\textbf{Final Level Energy (keV)}}} \\"
  ++ ln "& & & & \\"
  ++ ln "& & & & \\"
  ++ ln "\midrule"
  ++ ln "\noalign{\vspace{-\ExtraRowSpace}}"
  ++ ln "\endhead"
  ++ ln "\bottomrule \multicolumn{4}{r}{\textit{Continued on next page}} \\"
  ++ ln "\endfoot"
  ++ ln "\bottomrule"
  ++ ln "\endlastfoot"
  ++ ln "% Table data"
  ++ ln "".

(** marley_utils.cc 106-108, latex_table_4. *)
Definition latex_table_4 : bytes :=
  ln "\end{longtable}"
  ++ ln "\end{center}"
  ++ b "\end{document}".

(** DecayScheme.cc 295-303: the beginning of the two captions, from the mass number and the
    symbol of the element. *)
Definition caption_beginning (names : bytes * bytes) : bytes :=
  b "{\textbf{Levels" ++ b " and $\boldsymbol{\gamma}$ transitions " ++ [nl] ++ b " for " ++ b "\isotope[\boldsymbol{" ++ fst names
  ++ b "}]{\textbf{" ++ snd names ++ b "}} " ++ [nl].

(** DecayScheme.cc 327-329 and 343-347: the end of the last row of a level. *)
Definition level_end (last : bool) : bytes := if last then [nl] else b " \\ \addlinespace[\ExtraRowSpace]" ++ [nl].

(** DecayScheme.cc 333-350: the cells of the gamma rays of a level. [first] says that the
    first gamma ray is still to come, [last] that the level is the last of the scheme. The code
    compares addresses with those of the front and the back of the vectors; here these are
    positions. A gamma ray that leads nowhere is undefined, as in [Report.gamma_lines]. *)
Fixpoint gamma_cells (levels : list (nat * level)) (last first : bool) (gs : list gamma) : res bytes :=
  match gs with
  | [] => Ok []
  | g :: r =>
      match g_end g with
      | None => Er Undefined
      | Some a =>
          match find (fun p => Nat.eqb (fst p) a) levels with
          | None => Er Undefined
          | Some p =>
              do rest <- gamma_cells levels last false r;
              Ok ((if first then [] else b " & & ") ++ show_g6 (g_energy g) ++ b " & " ++ show_g6 (g_ri g) ++ b " & " ++ show_g6 (l_energy (snd p))
                  ++ match r with [] => level_end last | _ => b " \\*" ++ [nl] end ++ rest)
          end
      end
  end.

(** DecayScheme.cc 315-351: the rows of all levels. *)
Fixpoint level_cells (levels : list (nat * level)) (ls : list (nat * level)) : res bytes :=
  match ls with
  | [] => Ok []
  | (_, l) :: r =>
      let last := match r with [] => true | _ => false end in
      do gs <- gamma_cells levels last true (l_gammas l);
      do rest <- level_cells levels r;
      Ok (show_g6 (l_energy l) ++ b " & " ++ spin_parity_string l ++ b " & "
          ++ match l_gammas l with [] => b " &  &" ++ level_end last | _ => [] end ++ gs ++ rest)
  end.

(** DecayScheme.cc 291-353, print_latex_table. *)
Definition print_latex_table (s : scheme) : res bytes :=
  do names <- caption_names (s_Z s) (s_A s);
  do rows <- level_cells (s_levels s) (s_levels s);
  Ok (latex_table_1 ++ caption_beginning names ++ b "}}\\" ++ [nl] ++ latex_table_2 ++ caption_beginning names
      ++ b " -- \textit{continued}}} \\" ++ [nl] ++ latex_table_3 ++ rows ++ latex_table_4 ++ [nl]).
