# MARLEY formal model: design

The model is written in Rocq (Coq 8.16.1) under `rocq/theories`. Each code
area `X` has up to four files:

| file | content |
|------|---------|
| `X.v` | the model: computable Gallina definitions, one per C++ function, each with a comment citing file and lines in `/repo` |
| `XSpec.v` (where useful) | small, independent specification used in statements |
| `XProofs.v` | lemmas |
| `XThms.v`, `XCases.v` | property theorems, each followed by `Print Assumptions`, and `Example`s showing that the hypotheses can be met |

`properties.jsonl` lists the properties, `MANIFEST.json` the theorems for each.

## Modelling conventions

* **Outcomes.** `marley::Error`, other C++ exceptions, undefined behaviour and running
  out of fuel are different constructors of the result type in `Base.v`. A theorem that says
  "this returns normally" therefore excludes the others.
* **Text.** Files and streams are lists of bytes (`ascii`). Formatting and parsing are
  modelled character by character, including `operator>>` for integers and doubles.
* **Doubles.** In the text formats a double is a binary64 value
  (sign, mantissa, exponent) with exact correctly rounded decimal conversion (glibc's
  `printf` and `strtod` round correctly). NaN and infinities are modelled in the JSON reader only.
  A configuration or mass table with a number that is infinite or NaN (1e400, 0e400) is outside the
  model of what is made from it.
  In kinematics, cross sections, interpolation and probability densities a double is a real
  number: those theorems are about the formulas in exact arithmetic, not about rounding.
  Where the code's behaviour depends on infinities or NaN (interpolation grids, sources, level
  densities, strength functions) a double is a real number, an infinity or NaN (`XReal.v`).
* **int / long.** Mathematical integers; conversions from long to int wrap where the code
  depends on it; overflow is otherwise not modelled unless a comment says so.
* **Randomness.** A random stream is an argument (list or function of draws, or an
  arbitrary oracle), so theorems hold for every sequence of random numbers.
* **Loops** whose termination is not structural carry fuel; running out of fuel is a
  distinct outcome and theorems show it cannot occur (or bound the fuel).
* **False claims.** Where the natural claim is false of the code, the property states the
  conditions under which it holds, and a theorem with suffix `_refuted` shows a case outside them.
* **Partial results.** A theorem whose name ends in `_partial` proves part of the property only.

## Plan per property

| id | modelled | method |
|----|----------|--------|
| C01 | `json_escape`, `parse_string` (JSON.hh) on bytes | induction over the string |
| C02 | JSON tree, `print`, full recursive-descent parser | mutual induction over trees; fuel shown sufficient |
| C03 | full parser with fuel = input length + 1 | strictly-decreasing-input invariant, fuel never runs out |
| C04 | same | induction over trees: every proper prefix of a printed value makes the parser report an error |
| C05 | `%.17g` printing, `parse_number` with its `stod(..)*pow(10,..)` | decimal round-trip theorem plus character-level formatting; refutations by computation |
| C06 | `%.17e` printing, `strtod` as correct rounding | exact integer arithmetic: 18 significant digits separate neighbouring doubles |
| C07 | `Event`/`Particle` `to_json`, `from_json` | unfolding and induction over particle lists |
| C08 | `Event::print/read`, `Particle::print/read` on bytes | token-level lemmas, induction over particles and events |
| C09 | same, with truncated text | prefix lemma for readers |
| C10 | `write_hepevt`, `read_hepevt` on parsed tokens | induction over particles |
| C11 | `read_hepevt` reorder | case analysis on positions, permutation argument |
| C12 | heap of particles with raw pointers, all special member functions | ownership invariant over arbitrary operation histories |
| C13 | `TextOutputFile` as a state machine over a file | invariant over event lists; composition with C02 |
| C14 | `resume` | induction over sessions |
| C15 | `open`, `resume` | case analysis over every failing check |
| C16 | file contents at every byte written | C04 applied to the partial document; refutation for resume |
| C17 | main loop of `marley.cc` with an interrupt oracle | loop invariant |
| C18 | main loop + resume with abstract generator step | induction over sessions |
| C19 | `EventFileReader` | iterator-position invariant |
| C20 | constructor and `open` | exhaustive case analysis over arbitrary strings |
| C21 | PDG arithmetic | `lia` over Z with truncated division |
| C22 | string conversions and element table | case analysis over the finite table, arithmetic for A |
| C23 | charge table and ion rule | case analysis |
| C24 | ejectile PDG, product nuclide and ion charge | case analysis + arithmetic |
| C25 | line-by-line loader | invariant over lines |
| C26 | closest level, `set_level_ptrs` | sorted-list induction |
| C27 | `summed_xs_helper`, discrete sampling | induction, refutation with witness |
| C28 | `add_level` | insertion invariant |
| C29 | `do_cascade` with an oracle for branches | well-founded induction on level index; four-momentum over R |
| C30 | `print`, `read_from_stream` on tokens | induction over levels; refutation |
| C31 | loop nests of the exit channels | set-equality of enumerated quantum numbers with the triangle/parity specification |
| C32 | decay loop with arbitrary channels | invariant over the number of steps |
| C33 | `process_event` guards | case analysis |
| C34 | generator state machine | invariant over histories |
| C35 | `total_xs` overloads | induction over the reaction list |
| C36 | rejection loop with arbitrary random stream | loop invariant |
| C37 | bisection | loop invariant, halving argument |
| C38 | grid construct/interpolate/insert | sorted-list reasoning over R |
| C39 | source densities | case analysis; integrals over R |
| C40 | `check_for_errors` | list induction |
| C41 | rotator state machine | history invariant |
| C42 | matrix construction over R | algebra |
| C43 | boost over R | algebra |
| C44 | two-body decay over R | algebra |
| C45 | scattering over R | algebra |
| C46 | densities over R | integrals |
| C47 | parity | case analysis |
| C48 | `Target::initialize` | list induction over R |
| C49 | mass table | field arithmetic over R |
| C50 | logger state machine | history invariant; refutation for stdout |
| C51 | structure database state machine | history invariant |
| C52 | string helpers | list induction |
| C53 | configuration choices | list induction |
| C54 | `JSONConfig`'s reading of quoted and unquoted keys, comments and nested values (JSON.hh relaxed syntax) | induction over trees, printing with arbitrary white space and comments |
| C55 | `JSON` object accessors | case analysis and list induction (objects as maps) |
| C56 | parser | invariant over the recursive descent |
| C57 | `std::discrete_distribution` from its definition (normalised cumulative sums) | list induction over R |
| C58 | `summed_xs_helper`, `total_xs`, level matching | induction over the matrix elements |
| C59 | Coulomb-correction modes, Fermi function and effective momentum approximation | case analysis, monotonicity over R; the Fermi function is a parameter here, see C79 |
| C60 | residue spins and parities | case analysis |
| C61 | Clenshaw-Curtis quadrature (`Integrator`) | trigonometric identities for every N: exactness on polynomials |
| C62 | `Generator::create_event` down to the finished event | composition of the models of C24, C29, C32, C36, C41, C45 |
| C63 | `FileManager` over an abstract file system | list induction |
| C64 | ground-state spin table, fragments | history invariant over static state |
| C65 | `build_exit_channels`, partial widths, `do_decay` | list induction; sums over finite sets specified independently |
| C66 | `ChebyshevInterpolatingFunction` | discrete orthogonality of cosines, antiderivatives, bisection of C37 |
| C67 | `BackshiftedFermiGasModel` | real analysis; comparison of the sum over spins with its integral |
| C68 | `StandardLorentzianModel`, `WeisskopfSingleParticleModel` | algebra and inequalities over R |
| C69 | `KoningDelarocheOpticalModel` | real analysis, induction over integration steps, scaling and flux invariants of Numerov's method |
| C70 | `DecayScheme::parse_talys`, `StructureDatabase::find_all_nuclides` | induction over levels and gammas with the scheme built so far as invariant; simulation of a cut file |
| C71 | `JSONConfig::update_logger_settings`, `JSONConfig` constructors | settings reduced to a history of logger calls (C50); simulation of file positions |
| C72 | `JSON` constructors, assignment, destructor, `set_type`, `append`, `operator[]`, `at` | refinement: each slot owns a set of nodes, disjoint from all others, and stands for a tree; operations on a slot reached by a path keep this |
| C73 | `main` of `marley.cc`, `prompt_yes_no`, `JSON::get_*` | the run of C17 with the files kept at each exception; case analysis of how the loop ends; prefix relation and frame for files by name |
| C74 | `cost`, `costi`, `rffti`, `rffti1`, `rfftf`, `rfftf1`, `radf2`-`radf5`, `radfg` | each loop nest is a list of assignments; every assignment stores the value of a target function and together they cover its domain; induction over the factors with the invariant that each block holds a shorter transform (decimation in time) |
| C75 | `HauserFeshbachDecay`, `ExitChannel` with the models of `StructureDatabase` | instantiate the parameters of the decay model; positivity of densities (C67), strengths (C68) and quadrature (C61), transmission coefficients in [0,1] (C69); bisection ends strictly inside; invariant: every continuum state lies above all levels |
| C76 | `Generator::uniform_random_double`, `sample_from_distribution` on doubles | operations of `spec_float` as rounded real ones; nextafter as Flocq's successor; a factor below one takes a normal double to its predecessor or less; halving search with an invariant that needs no order; error of sums of nonnegative doubles by induction |
| C77 | `marsum`, `RootOutputFile`, `RootEventFileReader` | what a reader delivers as an inductive relation, composed with C19; the measure is what is left to read; three rounded products with a relative error each |
| C78 | `marley_utils::minimize`, `maximize`, `Generator::rejection_sample` with an unknown maximum, `NeutrinoSource::sample_incident_neutrino` | each turn takes at least one tolerance from the bracket and keeps the peak inside; dependence on the calls only; one peak of each spectrum by the mean value theorem or by bounds on the logarithm; composed with C36 |
| C79 | `NuclearReaction::fermi_function`, `marley_utils::gamma` | conjugation through the code; Taylor bounds on e; numerator of the Lanczos sum as a polynomial over Q, stable by a continued fraction computed in the kernel |
| C80 | `make_root_neutrino_source`, `get_root_object`, `RootJSONConfig` | the densities of C53 and the grid theorems of C38 and C40; equality of the two configuration steps, failures included |
| C81 | `FileManager` and `MassTable` constructors and singletons over a changing environment and file system | induction over the history of requests; independent description of the file's entries |
| C82 | `duration_to_string`, `num_bytes_to_string`, `makeStatusLines`, `StatusInserter`, `put_time` | division with remainder; rounding error of one quotient; a terminal as specification of the cursor; histories of the buffer |
| C83 | `set_description`, `get_particle_symbol`, `nucid_to_symbol`, `spin_parity_string`, `print_report`, `print_human_readable` | unique parsing by character classes; induction over levels and gammas |
| C84 | `mardumpxs.cc`: parameters, prompt, loop over energies | rounding error of repeated additions by induction; exact characterisation of the failures |
| C85 | `marprint.cc`: loops over files and events | induction over files and events on the reader theorems of C77; fuel shown to be enough |
| C86 | `marg4.cc`: `get_num_events`, main; `GeneratePrimaries`, `BeginOfEventAction` | unique parsing; induction over the events on C62 |
| C87 | `examples/macros/*.C`: bins, normalisation, cosine, ranges, reconstructed energy, classes | floor of a quotient; double counting; Cauchy-Schwarz; conservation laws of C62 |
| C88 | `solve_quadratic_equation` | factorisation; case analysis on signs |
| C89 | `MacroEventFileReader`, `print_events.C` | invariant over histories of objects: one owner for each reader |
| C90 | `print_latex_table`, `latex_table_1` to `_4` | induction over levels and gamma rays; characters of printed numbers |
| C91 | `IteratorToPointerMember`, `IteratorToMember`, `level_lower_bound_index` | refinement to a list with a gap; halving search; IEEE comparison |
| C92 | `HauserFeshbachDecay::print` | text written and outcome; cutting lines at separators; rounding of the quotient |
| C93 | `Target` with doubles | induction on the additions with the factor (1-u)^k; Flocq's error bounds |
| C94 | `Generator::total_xs` with doubles | invariant of the loop over reactions; rounding bounds of C76 |
| C95 | `Generator::reseed`, the Mersenne twister and its state string | every step of the seeding can be undone; invariant of the engine |
## What is modelled and what is not

The table lists, for every source and header file, how many lines hold code (no blanks, comments or
preprocessor lines), how many of them are cited by a comment of the model, and which.
A cited range is modelled except for what the citing comment leaves out. Header
lines that only declare members or functions defined elsewhere are not cited.

| source file | code lines | cited | lines cited by the model | model files |
|---|---|---|---|---|
| `BackshiftedFermiGasModel.cc` | 65 | 65 | 23-134 | Dens.v |
| `BackshiftedFermiGasModel.hh` | 26 | 17 | 58-82 | Dens.v |
| `ChebyshevInterpolatingFunction.cc` | 100 | 98 | 31, 34-168 | Cheb.v |
| `ChebyshevInterpolatingFunction.hh` | 52 | 28 | 40-60, 87-106, 116-122 | Cheb.v, SampleDbl.v |
| `DecayScheme.cc` | 249 | 218 | 35-135, 143-259, 264-353, 358-427 | Decay.v, Iter.v, Levels.v, Report.v, Tables.v, Talys.v |
| `DecayScheme.hh` | 50 | 0 | - | Decay.v, Levels.v |
| `ElectronReaction.cc` | 113 | 109 | 29-216 | Config.v, NucReact.v, React.v, Report.v |
| `ElectronReaction.hh` | 24 | 2 | 42-43 | Run.v |
| `Error.cc` | 1 | 0 | - | - |
| `Error.hh` | 16 | 15 | 31-57 | Base.v, MarSum.v |
| `Event.cc` | 403 | 397 | 41-51, 58-665 | Dbl.v, Event.v, EventHeap.v, MarSum.v, Report.v, Tools.v |
| `Event.hh` | 88 | 29 | 32-37, 239-257, 276-305 | Event.v, EventHeap.v, Kin.v |
| `EventFileReader.cc` | 140 | 133 | 37-239 | MacroReader.v, MarSum.v, Output.v |
| `EventFileReader.hh` | 28 | 12 | 66-107 | MacroReader.v, Output.v |
| `EventProcessor.hh` | 11 | 0 | - | - |
| `ExitChannel.cc` | 270 | 244 | 60-140, 151-499 | Decay.v, Iter.v, Models.v, SampleDbl.v |
| `ExitChannel.hh` | 177 | 45 | 59, 66-125, 165-176, 192-222, 265 | Decay.v, DecayReport.v |
| `FileManager.cc` | 114 | 104 | 52-163, 173-216 | Files.v, Startup.v |
| `FileManager.hh` | 29 | 3 | 75-77 | Startup.v |
| `Fragment.hh` | 36 | 0 | - | - |
| `Gamma.cc` | 6 | 0 | - | - |
| `Gamma.hh` | 36 | 0 | - | Decay.v, Levels.v |
| `GammaStrengthFunctionModel.cc` | 8 | 5 | 28-33 | Strength.v |
| `GammaStrengthFunctionModel.hh` | 18 | 1 | 43 | Strength.v |
| `Generator.cc` | 340 | 314 | 35-52, 67-374, 388-434, 442-668 | Brent.v, Cheb.v, Gen.v, GenDbl.v, Output.v, Run.v, Sample.v, SampleDbl.v, Twister.v |
| `Generator.hh` | 92 | 37 | 90, 101, 110, 172-190, 262-265, 286-357 | Brent.v, Config.v, Gen.v, Models.v, NucReact.v, Run.v, SampleDbl.v, SampleDblThms.v, Twister.v |
| `HauserFeshbachDecay.cc` | 132 | 125 | 33-259 | Decay.v, DecayReport.v, Models.v, Report.v, SampleDbl.v |
| `HauserFeshbachDecay.hh` | 37 | 0 | - | DecayReport.v |
| `Integrator.cc` | 32 | 28 | 28-44, 47-64 | Gen.v, Quad.v |
| `Integrator.hh` | 13 | 0 | - | - |
| `InterpolationGrid.hh` | 181 | 145 | 63-106, 119-138, 150, 168-192, 210-268, 271-359 | Grid.v, Source.v |
| `IteratorToMember.hh` | 94 | 50 | 68-76, 79, 87-89, 101-155 | Iter.v |
| `IteratorToPointerMember.hh` | 97 | 51 | 76-85, 94-96, 108-162 | Iter.v |
| `JSON.hh` | 817 | 758 | 44-58, 61-341, 354-426, 447-566, 570-613, 615-703, 737-1005, 1008-1033 | Dbl.v, Json.v, JsonHeap.v, LogConf.v, Main.v, Output.v |
| `JSONConfig.cc` | 617 | 585 | 41-96, 100-439, 451-484, 489-820, 838-926 | Config.v, LogConf.v, RootSource.v |
| `JSONConfig.hh` | 39 | 5 | 80-84 | Config.v |
| `KoningDelarocheOpticalModel.cc` | 330 | 330 | 24-524 | Optical.v |
| `KoningDelarocheOpticalModel.hh` | 50 | 17 | 64-75, 111-116, 120-134, 146 | Optical.v |
| `Level.cc` | 37 | 25 | 29-64, 74-79 | Decay.v, Iter.v, Levels.v, Report.v, SampleDbl.v |
| `Level.hh` | 47 | 6 | 135-140 | Decay.v, Iter.v, Levels.v |
| `LevelDensityModel.hh` | 9 | 0 | - | - |
| `Logger.cc` | 137 | 114 | 23-39, 63-77, 87-210 | LogConf.v, Logger.v, LoggerThms.v |
| `Logger.hh` | 99 | 23 | 54, 63-118, 147-149, 252-260, 268-273 | Logger.v, Target.v |
| `MacroEventFileReader.cc` | 24 | 19 | 30-53 | MacroReader.v |
| `MacroEventFileReader.hh` | 17 | 0 | - | MacroReader.v |
| `MassTable.cc` | 221 | 208 | 27-134, 137-262, 275-294, 303-343 | Mass.v, Startup.v |
| `MassTable.hh` | 41 | 1 | 185 | Mass.v |
| `MatrixElement.hh` | 51 | 16 | 77-84, 141-157 | Config.v, MatEl.v, NucReact.v |
| `NeutrinoSource.cc` | 108 | 108 | 22-170 | Brent.v, BrentSpectra.v, Source.v |
| `NeutrinoSource.hh` | 139 | 38 | 99-100, 241-246, 290-291, 294-297, 299-329 | Gen.v, Source.v |
| `NuclearReaction.cc` | 378 | 348 | 37-46, 53-61, 65-168, 175-382, 399-573, 592-646, 650-754 | Config.v, Fermi.v, Names.v, NucReact.v, React.v, Report.v, SampleDbl.v |
| `NuclearReaction.hh` | 57 | 5 | 60-61, 167-168, 239 | Config.v, Names.v, NucReact.v, Run.v |
| `NucleusDecayer.cc` | 76 | 71 | 46-190 | Decay.v |
| `NucleusDecayer.hh` | 9 | 0 | - | - |
| `OpticalModel.hh` | 20 | 0 | - | - |
| `OutputFile.cc` | 261 | 246 | 27-53, 67-240, 252-367 | Dbl.v, Main.v, Output.v |
| `OutputFile.hh` | 58 | 15 | 81, 120-155 | Output.v |
| `Parity.cc` | 25 | 18 | 24-29, 45-62 | Ground.v, Pdg.v |
| `Parity.hh` | 57 | 38 | 47-49, 62-95, 109-119 | Pdg.v |
| `Particle.cc` | 97 | 73 | 27-40, 42-74, 86-89, 99-130, 139-148 | Decay.v, Event.v, Macros.v, MarSum.v, Rot.v |
| `Particle.hh` | 64 | 0 | - | Event.v, Kin.v |
| `ProjectileDirectionRotator.cc` | 54 | 54 | 23-109 | Rot.v |
| `ProjectileDirectionRotator.hh` | 24 | 4 | 48-51 | Rot.v |
| `Reaction.cc` | 227 | 210 | 47-190, 196-277, 287-453 | Config.v, Kin.v, MatEl.v, React.v |
| `Reaction.hh` | 48 | 16 | 46-51, 60-100 | Gen.v, GenDbl.v, Kin.v, React.v |
| `RootEventFileReader.cc` | 55 | 51 | 31-104 | MacroReader.v, MarSum.v |
| `RootEventFileReader.hh` | 17 | 5 | 46-63 | MarSum.v |
| `RootJSONConfig.cc` | 31 | 31 | 25-60 | RootSource.v |
| `RootJSONConfig.hh` | 12 | 0 | - | - |
| `RootOutputFile.cc` | 139 | 110 | 33-96, 129-215 | MarSum.v |
| `RootOutputFile.hh` | 25 | 0 | - | - |
| `RotationMatrix.cc` | 139 | 136 | 29-52, 56-213 | Rot.v |
| `RotationMatrix.hh` | 15 | 0 | - | Rot.v |
| `StandardLorentzianModel.cc` | 73 | 72 | 29-146 | Strength.v |
| `StandardLorentzianModel.hh` | 23 | 0 | - | - |
| `StructureDatabase.cc` | 257 | 250 | 36-122, 125-301, 310-417 | Decay.v, Ground.v, Mass.v, Models.v, Run.v, Struct.v, Talys.v |
| `StructureDatabase.hh` | 70 | 27 | 139-143, 160-172, 190-253 | Ground.v, Models.v, Struct.v |
| `Target.cc` | 76 | 71 | 23-44, 52-131 | Config.v, Target.v, TargetDbl.v |
| `Target.hh` | 25 | 3 | 66-67, 86-91 | Target.v |
| `TargetAtom.cc` | 24 | 18 | 23-30, 40-51 | MatEl.v, Target.v |
| `TargetAtom.hh` | 37 | 4 | 70-73 | Target.v |
| `WeisskopfSingleParticleModel.cc` | 49 | 48 | 25-90 | Strength.v |
| `WeisskopfSingleParticleModel.hh` | 14 | 0 | - | - |
| `coulomb_wavefunctions.cc` | 25 | 15 | 24-53 | Optical.v |
| `coulomb_wavefunctions.hh` | 3 | 0 | - | - |
| `fftpack4.cc` | 4164 | 1038 | 752-874, 3141-3878, 4031-4143, 4159-4268 | Cheb.v, Fft.v |
| `marley.cc` | 296 | 267 | 74-95, 125-244, 248-541 | Main.v, Output.v, Status.v |
| `marley_kinematics.cc` | 132 | 130 | 23-35, 39-249 | Kin.v |
| `marley_kinematics.hh` | 15 | 0 | - | - |
| `marley_root.cc` | 47 | 47 | 21-93 | RootSource.v |
| `marley_root.hh` | 24 | 14 | 52-83 | RootSource.v |
| `marley_utils.cc` | 707 | 570 | 35-406, 434-454, 490-817 | Brent.v, Fermi.v, Kin.v, Main.v, MatEl.v, Names.v, Optical.v, Quad.v, Quadratic.v, Report.v, Status.v, Tables.v |
| `marley_utils.hh` | 285 | 210 | 49-54, 62-75, 109-126, 138-160, 176-190, 238-370, 400-434, 452-502 | DecayReport.v, Ground.v, MarSum.v, NucReact.v, Pdg.v, Report.v, Status.v, Strength.v, Strings.v |
| `marsum.cc` | 127 | 124 | 44-222 | MarSum.v |


Not modelled:

* The ROOT library (a ROOT file is a set of named objects in C77 and C80), its interpreter and the class dictionaries.
* Coulomb wavefunctions (`coulomb_wavefunctions.cc`, the GNU Scientific Library): an arbitrary function
  in C69.
* The Mersenne twister except in C95: elsewhere an arbitrary state machine with a printable state, or a stream of draws.
* The transforms of `fftpack4.cc` that MARLEY does not call (all but `cost`, `costi` and what they call).
* `tgamma` of the C library: a parameter of the Fermi function (C79), without zeros to the right of 0 where a theorem needs it.
* Rounding errors of floating-point arithmetic outside the text formats, atom fractions (C93), total cross sections (C94), random draws (C76) and inverse transform sampling (C37), and quadrature error
  (theorems speak about the quadrature rule itself).
* Texts of log and error messages, except that a message may itself throw (names of elements without a
  symbol). Printing of help and version texts, signal handling (an interrupt is an oracle),
  clocks, two output settings that name the same file (C73).
* Memory management other than `Event`'s ownership of particles (C12), the decay schemes in the structure
  database (C51), JSON values (C72) and the work arrays of C66.
* Concurrency: the code is single-threaded; static and global state is explicit in the models
  (C40, C41, C62, C64).

## Findings

Behaviour of the code that a user would not expect, met while modelling. Those marked with a theorem are proved of the model.

Files and events:

* JSON: keys with characters that need escaping do not round trip; doubles from 1e17 on, infinities and NaN cannot be
  read back; values printed with an exponent may change in the last digit; -0.0 and integer-valued doubles come back as integers;
  text after a value is ignored (C05, C02 and their refutations).
* Building an event from JSON without a parity throws `std::out_of_range`, where every other defect gives `marley::Error` (C07_refused).
* `Event::read_hepevt` swaps particles using a stale index when the heaviest ion comes first; ions with A = 0 are
  never the residue (C11). Event numbers beyond the range of int end the reading.
* `Event`: self copy-assignment empties the event, self move-assignment resets it (C12).
* Resuming: a file without "events" counts as empty, an unreadable generator state is ignored, a second file that cannot be resumed is found
  only after the first was truncated (C14, C15, C16 refutations).
* `EventFileReader`: an ASCII file without events is an error; asking for another event after the end of a JSON file is undefined behaviour (C19).
* `mardumpxs` empties the old table before it looks at the configuration (C84_lost_refuted), and destroys the configuration file if that is named as the output
  (C84_own_config_refuted). `marprint` numbers events with an int, which overflows at 2^31 (C85_too_many_refuted).
* Macros: `fp_spect.C` passes the largest energy as the start of the range and the smallest as its end, and does not find the smallest when the energies increase
  (C87_fp_range, C87_fp_range_refuted); `Ex.C` looks for the largest energy with the comparison for the smallest (C87_Ex_range); `cos_plot.C` loses events at cos = 1
  (C87_forward_refuted).
* The output format "root" in a build without ROOT truncates the file before it throws (C20).

Reaction and structure data:

* Reaction files: blank or short lines use uninitialised variables; a last line without newline is dropped for nuclear reactions but
  used for electron scattering; comment lines ending in CR LF are not recognised (C25).
* Zero strengths shift the index of the sampled level (C27_zero_strength_refuted); matched level energies that do not increase cut the sum short
  (C58_unordered_refuted).
* Decay schemes: levels that print alike change the destination of gammas; gammas without destination cannot be read back (C30).
* TALYS level files: when the file is cut inside a data set and does not end with a newline, the last line is read again for every missing one and
  the scheme is loaded (C70_truncated_refuted); levels of equal energy or out of order shift the level numbers, so that gammas lead to other levels
  (C70_equal_energies_refuted, C70_order_refuted).
* A ground-state spin table lacking a fragment is reported once and then silently used (C64_incomplete_refuted).
* `add_decay_scheme` for a nuclide already present destroys the given scheme; `emplace_decay_scheme` erases the old one before building the new (C51).
* Hydrogen targets: the residual neutron of an antineutrino reaction gets charge -1; atom code 2212 is read as Z = 0, A = 221 (C24).
* Elements 113, 115 and from 117 on have no symbol: naming them throws `std::out_of_range`, in log messages only if a log stream is open (C22, C48).

* Only the low 32 bits of the seed count: seeds that differ by a multiple of 2^32 give the same events (C95_same, C95_seeds_refuted).

Physics:

* `flux_averaged_total_xs` with no reactions is not zero (C35_empty_refuted); `set_weight_flux` does not renormalise (C35_flag_refuted).
* `InterpolationGrid`: the monotonicity check never fires, the constant rule takes the right end of a bin, and the LinearLog and LogLinear rules are
  swapped against their documentation (C38).
* Grid sources accept unsorted energies and densities that make the interpolation NaN; a static maximum is shared by all sources (C39, C40).
* Rotator: constructed with a direction other than z it leaves events along z unrotated (C41).
* `inverse_transform_sample` never ends once the spacing of doubles exceeds the tolerance; rejection sampling never ends for a zero density (C36, C37).
* In floating point, numbers drawn from a closed interval can exceed its upper end, and a weighted choice can return its last position although
  that has weight zero, such as a reaction without cross section (C76_upper_refuted, C76_last_weight_refuted).
* Chebyshev interpolation: the work array is too small for N = 3, 4 and 6 (C66_sizes, C66_adaptive_refuted); the cumulative function
  counts the last coefficient twice (C66_cdf_refuted, C66_falling_refuted).
* Level densities are negative or NaN for (Z,A) = (1,2), (2,4), (2,5), (3,5), (3,6), (6,12), (7,14), (50,100) (C67_carbon_refuted).
* Quadrupole strength is negative from A = 510 on (C68_heavy_refuted); Weisskopf's double factorial overflows from multipolarity ten on (C68_overflow_refuted).
* De-exciting a residue left in an isomer, or with between 1e-5 and 1e-3 MeV, a second time is an error (C33_partly).

Configuration and logging:

* The marley program: an output file that cannot be written is not reported and the exit status is 0 (C73_unwritable_refuted); a mistake in a later
  output element or in the generator settings is found only when the output files before it have been emptied (C73_late_refuted, C73_failed);
  "events" beyond 2^53 changes and near the largest long is undefined (C73_large_refuted); an unrecognised option has exit status 0 (C73_command_line).
* Reactions are checked for duplicates by the first reaction of a file only (C53_reactions_refuted, C53_dropped_refuted); "reactions": null
  leaves the generator without normalisation (C53_null_refuted); a direction object without z keeps z = 1.
* JSON values: assignment over an object, array or string never releases it (C72_leak_refuted); moving a value to itself loses it
  (C72_self_move_refuted); `operator[]` and the non-const `at` insert missing keys and replace values of another type (C72_reading_refuted).
* Log settings: a file name with a quotation mark or a backslash opens another file; two elements that overwrite the same file destroy each other's
  messages (C71_name_refuted, C71_twice_refuted).
* Logger: after enabling, standard output can receive warnings and errors as well; `newline()` obeys the level although documented otherwise (C50).
* marsum replaces its output before it looks at its inputs, so that an input that cannot be read, or that is the output itself, costs the user
  the previous output (C77_lost_refuted); opening an event file leaves error logging switched off (C77_logging_refuted).
* The minimiser never takes a parabolic step: `p < q*(a - x)` should be `p > q*(a - x)` (C78_parabola_refuted). The maximum used by
  `sample_incident_neutrino` is a static variable shared by all sources, which biases every source sampled after one with a lower peak
  (C78_shared_refuted).
* A directory entry that is a socket counts as a regular file (C63).
* Half-integer spins of levels are printed wrongly, 3/2 as 1/2 (C83_level_spin_refuted).
* The status display has undefined behaviour if the estimated end of the run is later than 2262, as for 10^12 events at 100 per second
  (C82_long_refuted); after the system clock has been set back it shows times like 00:00:0-5 (C82_duration_back_refuted); calendar texts are
  printed with a null character (C82_calendar).
* `solve_quadratic_equation` exchanges its two results against the documentation for negative A (C88_signs) and returns numbers for equations without
  solutions (C88_complex_refuted).
* `MacroEventFileReader` keeps a bare pointer and has no copy operations of its own: copying frees memory twice (C89_copy_refuted), assigning
  leaks (C89_assign_refuted).
* The headings of the LaTeX table give keV for energies in MeV (C90_units_refuted).
* A level with the energy NaN makes `add_level` put later levels in the wrong order (C91_nan_refuted).
* `Target` accepts an atom fraction that is NaN, and fractions whose sum overflows, and is then useless without a message (C93_nan_refuted, C93_overflow_refuted).
* A cross section that is NaN is skipped when events are made but makes the average over the target NaN; so does an infinite one of an atom
  that the target does not contain (C94_nan_refuted, C94_infinite_refuted).
* `HauserFeshbachDecay::print` looks up the symbols of fragments in a fixed table and throws `std::out_of_range` half-way for any other fragment of the data file (C92_text).
* Tabulated zeros under logarithmic interpolation give NaN in the following bin (C38_zero_values).

## Seeded edits

`seeded/LOG.jsonl` has one line for each of 2092 edits of the model made in a scratch copy
(the definition, the edit, the text replaced, the claim it breaks, the theorems whose proofs failed).
107 of them at first broke no theorem although they broke a claim: the theorems named in `theorems_tightened`
were then added or strengthened, and `rerun_failed` names what fails now. A failing proof alone does not show
that the statement is false of the edited program; the theorems were read for that.


## Trusted base

* Coq's kernel (8.16.1); `coqchk` accepts the compiled files.
* The axioms printed by `Print Assumptions`, all of them from the Coq standard library (the construction of the
  real numbers, functional extensionality and, through lemmas on limits and integrals, excluded middle).
  No axiom is declared in this development.
* The reading of the C++ code recorded in the comments of the model, including the behaviour of the C and C++ standard libraries
  it uses (stream extraction and formatting, `std::stod`, `std::discrete_distribution`, `std::map`, regular expressions for
  reaction files, `strtod`/`printf` rounding correctly).
* For theorems over R, that the formulas in exact arithmetic are what matters.

Axioms per theorem:

* **no axioms** (closed under the global context) (253 theorems): C01_to_string_plain, C01_to_string_refuted, C02_key_refuted, C03_depth_bound, C03_load_ends, C04_truncated_text_rejected, C05_small_refuted, C07_file_refuted, C07_json_exact, C07_refused, C07_rejects, C08_refuted, C09_exact_prefix_refuted, C10_number_refuted, C11_accepted, C11_heaviest_first_refuted, C11_refused, C11_whole, C12_copy_independent, C12_no_leak, C12_owned, C12_self_assignment, C12_values, C13_large_refuted, C14_bad_state_refuted, C15_failed, C15_rejects, C15_two_files_refuted, C16_resume_loses, C17_secondary_refuted, C18_hidden_refuted, C19_json, C19_no_events_refuted, C20_append, C20_declined, C20_settings, C21_beyond_refuted, C21_decodes, C21_injective, C21_ions, C21_standard, C22_coulomb, C22_coulomb_names, C22_coulomb_total, C22_neutrinos, C22_nucid, C22_nucid_rejects, C22_plain, C22_symbols, C23_antiparticle, C23_ions, C23_unknown, C24_electron, C24_hydrogen_refuted, C24_nuclear, C24_rejects, C25_ascending_or_error, C25_comment_lines, C25_comments, C25_electron, C25_every_file, C25_failures, C25_file, C25_last_line, C25_table, C25_unchecked_refuted, C25_unreadable, C25_unreadable_refuted, C26_duplicates, C26_loaded, C26_matched, C28_closest, C28_distance, C28_sorted, C30_equal_energies_refuted, C30_failures, C30_no_end_refuted, C30_reads, C30_round_trip, C31_fragment_continuum, C31_fragment_level, C31_gamma_continuum, C31_gamma_level, C31_mixed_spins_refuted, C37_double_loop_refuted, C38_constructor, C47_rejects, C47_roundtrip, C47_sign_group, C49_assign, C50_defined, C50_message, C50_newline, C50_registered, C50_stdout, C50_stdout_refuted, C51_add_after_failure_refuted, C51_by_numbers, C51_distinct, C51_dropped, C51_explicit, C51_failed_replace_refuted, C51_lookup, C51_models, C51_removed, C51_same, C51_total, C52_blanks, C52_case, C52_join, C52_pad, C52_split, C52_trim, C52_trim_sides, C52_trim_unique, C53_neutrinos, C53_rules, C55_get_set_other, C55_get_set_same, C55_set_sorted, C59_names, C60_all_spins, C63_all, C63_as_given, C63_exists, C63_first, C64_first, C64_incomplete, C64_incomplete_refuted, C64_missing, C64_table, C70_any_file, C70_blank_header_refuted, C70_dataset, C70_equal_energies_refuted, C70_header_unique, C70_missing, C70_nuclides, C70_order_refuted, C70_short_line, C70_spin, C70_truncated, C70_truncated_refuted, C71_accepted, C71_default, C71_job_file, C71_messages, C71_name_refuted, C71_off, C71_refused, C71_stdout_refuted, C71_twice_refuted, C72_const_at_refuted, C72_independent, C72_largest_index_refuted, C72_leak_refuted, C72_no_leak, C72_reading, C72_reading_refuted, C72_self_move_refuted, C72_values, C73_command_line, C73_keeps, C73_large_refuted, C73_late_refuted, C73_name_refuted, C73_only_outputs, C73_options, C73_prompt, C73_refused, C73_unwritable_refuted, C76_choice, C76_choice_weight, C77_declined, C77_ends, C77_failed, C77_logging_refuted, C77_lost_refuted, C77_root_fresh, C77_root_read, C77_root_refused, C77_root_resume, C77_rows, C81_folders, C81_folders_colon_refuted, C81_path, C82_calendar, C82_cursor, C82_cursor_refuted, C82_defined, C82_duration, C82_duration_back_refuted, C82_duration_same, C82_interval, C82_long_refuted, C82_messages, C82_screen, C82_small, C82_update, C83_compound_spin, C83_description, C83_description_electron, C83_electron_text, C83_event_spin, C83_level_spin, C83_level_spin_refuted, C83_named, C83_names, C83_report, C83_report_text, C83_short_names, C83_usual, C84_declined, C84_lost_refuted, C84_no_steps, C84_own_config_refuted, C84_refused, C85_broken, C85_ends, C85_event, C85_prints, C85_stops, C85_too_many_refuted, C85_usage, C86_number, C87_counters, C87_counts, C89_assign_refuted, C89_copy_refuted, C89_independent, C89_print, C90_printed, C90_refused, C90_units_refuted, C91_collect, C91_nan_refuted, C91_search, C91_walk, C92_complete, C92_edges, C92_text, C93_absent, C93_nan_refuted, C93_overflow_refuted, C94_infinite_refuted, C94_lists, C94_nan_refuted, C95_different, C95_draws, C95_nonzero, C95_same, C95_seeds_refuted, C95_state_string.

* **`ClassicalDedekindReals.sig_forall_dec`** (1 theorems): C87_classes.

* **`ClassicalDedekindReals.sig_forall_dec`, `FunctionalExtensionality.functional_extensionality_dep`** (70 theorems): C05_large_rejected, C35_average, C35_pick, C35_total, C36_acceptance, C36_accepted, C36_endless_refuted, C36_ends, C37_ends, C37_ends_always, C37_quantile, C38_insert, C38_inserted, C38_unsorted_refuted, C39_endpoint, C40_accepts, C40_points, C40_unsorted_refuted, C40_vectors, C40_zero, C46_sampled_cosine, C46_type_refused, C48_accepts, C48_atom, C48_canonical, C48_contains, C48_fractions, C48_numbers, C48_rejects, C48_single, C49_antiparticle, C49_missing_particle, C56_loaded_wf, C57_positive, C57_share, C57_zero_draw_refuted, C58_unique, C60_selection, C65_sum_unique, C66_unique, C68_spacing, C68_units, C69_coulomb, C69_flux, C69_numerov, C76_last_weight_refuted, C76_upper_refuted, C80_histograms, C80_same_graph, C81_history, C81_once, C83_event_lines, C83_event_text, C83_exponent, C83_number, C83_one_value, C83_particle, C84_unit, C85_lines, C87_Ex_range, C87_bins, C87_fp_entries, C87_fp_range, C87_fp_range_refuted, C87_reco, C87_reco_right, C90_braces, C90_table, C92_determines, C93_contains_refuted.

* **`ClassicalDedekindReals.sig_forall_dec`, `ClassicalDedekindReals.sig_not_dec`, `FunctionalExtensionality.functional_extensionality_dep`** (84 theorems): C31_gamma_forbidden, C34_bookkeeping, C34_density, C34_forgets, C34_normalised, C34_sampled, C34_share, C35_empty, C35_empty_refuted, C35_flag_refuted, C35_flux_average, C35_unweighted, C41_aligned, C41_conserves, C41_constructor_refuted, C41_direction, C41_history, C41_null, C41_twice, C42_null_refused, C42_particle, C42_proper_rotation, C43_boost_back, C43_boost_on_shell, C43_boost_products, C43_boost_refused, C43_boost_to_rest, C43_cm_frame, C43_mandelstam, C43_point, C44_conserves, C44_direction, C44_refused, C45_direction, C45_electron_event, C45_electron_refused, C45_recoil, C45_scattering, C46_electron_maximum, C46_recoil, C61_degree_refuted, C61_inside, C61_linear, C61_monotone, C66_adaptive, C66_adaptive_refuted, C66_adaptive_when, C66_inside, C66_points, C66_sizes, C68_multipoles, C68_relation, C68_zero, C69_folding, C69_kinematics, C69_matching, C69_normalisation, C69_radial, C69_sommerfeld, C74_cosine, C74_factors, C74_fourier, C74_frame, C74_grid, C74_list, C74_twice, C78_calls, C78_ends, C78_maximize, C78_minimize, C78_missed_refuted, C78_parabola_refuted, C78_peak, C78_point, C78_sampling, C87_area, C87_cosine, C87_direction, C87_forward_refuted, C88_complex_refuted, C88_double_zero_refuted, C88_linear_refuted, C88_roots, C88_signs.

* **`ClassicalDedekindReals.sig_forall_dec`, `ClassicalDedekindReals.sig_not_dec`, `Classical_Prop.classic`, `FunctionalExtensionality.functional_extensionality_dep`** (227 theorems): C01_string_roundtrip, C02_document_roundtrip, C02_document_roundtrip_exact, C02_document_roundtrip_near, C04_truncated_rejected, C05_double_exact, C05_double_near, C05_long_exact, C06_lossless, C07_file_near, C07_file_same, C08_ascii_roundtrip, C09_truncated, C10_layout, C10_roundtrip, C13_closed, C14_resume_near, C14_sessions, C16_fresh, C16_resumed, C17_count, C17_fresh, C17_resumed, C18_chain, C19_appended, C19_ascii, C19_hepevt, C19_run_then_read, C27_sampled, C27_zero_strength_refuted, C29_conserves, C29_no_end, C29_self_loop_refuted, C29_succeeds, C29_terminates, C30_lossless, C31_chain, C31_decay, C31_forbidden, C32_bound, C32_cascade_succeeds, C32_conserves, C32_decay_succeeds, C32_defined, C32_ends, C32_feasible, C32_statistical, C33_ground, C33_partly, C33_trivial, C33_twice, C37_double_bracket, C37_double_ends, C38_between, C38_constant, C38_constant_doc_refuted, C38_grid_points, C38_log_names_refuted, C38_outside, C38_refused, C38_repeated_first, C38_zero_abscissa, C38_zero_beyond, C38_zero_values, C39_density, C39_muon_normalised, C39_pids, C39_shape, C40_density, C40_log_zero_refuted, C45_nuclear_created, C45_nuclear_event, C45_nuclear_refused, C46_asymmetry, C46_electron, C46_normalised, C49_atomic, C49_binding, C49_by_code, C49_estimate, C49_excess, C49_missing_atom, C49_missing_binding, C49_missing_fragment, C49_order, C49_separation, C49_threshold, C53_calls, C53_default_target, C53_density, C53_direction, C53_dropped_refuted, C53_event, C53_failures, C53_failures_refuted, C53_given_target, C53_histogram, C53_masses, C53_modes, C53_null_refuted, C53_reactions, C53_reactions_refuted, C53_settings, C53_source, C53_sources, C53_uniform, C54_documents_load, C58_diff, C58_nonneg, C58_sum, C58_threshold, C58_unordered_refuted, C58_value, C58_zero, C59_attractive, C59_factor, C59_modes, C59_nonneg, C59_repulsive, C59_value, C61_exact, C62_event, C62_fixed, C62_no_throw, C62_sound, C62_source, C62_spin, C65_branching, C65_channels, C65_edges, C65_no_width, C65_outside, C65_widths, C66_cdf, C66_cdf_exact, C66_cdf_refuted, C66_exact, C66_falling_refuted, C66_interpolates, C66_sample, C67_carbon_refuted, C67_estimated, C67_history, C67_low, C67_parities, C67_positive, C67_spin_sum, C67_value, C68_arguments, C68_electric, C68_heavy_refuted, C68_magnetic, C68_overflow_refuted, C68_positive, C68_relation_weisskopf, C68_weisskopf, C69_absorbs, C69_bounds, C69_elastic, C69_history, C69_neutron, C69_proton, C69_shape, C69_target, C69_terminates, C69_total, C73_done, C73_failed, C73_getters, C73_status, C73_succeeds, C75_channels, C75_decay, C75_energy, C75_loop, C75_rules, C75_widths, C76_choice_share, C76_cosine, C76_from_zero, C76_uniform, C77_ascii, C77_files, C77_kinetic, C77_units, C78_beta, C78_dar, C78_fermi, C78_range, C78_shared_refuted, C79_attraction, C79_charge, C79_conjugate, C79_cross_section, C79_formula, C79_gamma_nonzero, C79_neutral, C79_nonneg, C79_positive, C79_reflection, C80_density, C80_described, C80_graphs, C80_half_open_refuted, C80_others, C80_replaced, C80_same_histogram, C81_loads, C81_masses, C82_bytes, C84_table, C86_announces, C86_hands_over, C86_progress, C86_status, C91_compare, C91_levels, C92_lifetime, C93_accepts, C93_contains, C93_fractions, C93_one, C93_order, C94_average, C94_pick, C94_share, C94_total.

