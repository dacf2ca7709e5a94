{
 "claims": [
  {
   "property": "C01",
   "status": "proved",
   "theorems": [
    "C01_string_roundtrip",
    "C01_to_string_plain",
    "C01_to_string_refuted"
   ],
   "note": "Strings are preserved by dump/load for every byte content under a key that needs no escape; refutation: to_string returns the escaped form."
  },
  {
   "property": "C02",
   "status": "proved",
   "theorems": [
    "C02_document_roundtrip",
    "C02_document_roundtrip_exact",
    "C02_document_roundtrip_near",
    "C02_key_refuted"
   ],
   "note": "Exact for values without floats and for doubles in [1e-4,1e17); within 2^-51 for [1e-300,1e17); keys needing an escape are changed (refutation)."
  },
  {
   "property": "C03",
   "status": "proved",
   "theorems": [
    "C03_load_ends",
    "C03_depth_bound"
   ],
   "note": "Loading any bytes ends with an object or a thrown exception; no undefined behaviour; recursion depth at most twice the text length (stack exhaustion is not modelled)."
  },
  {
   "property": "C04",
   "status": "proved",
   "theorems": [
    "C04_truncated_rejected",
    "C04_truncated_text_rejected"
   ],
   "note": "Every proper prefix of a dumped object, and of any text that ends where its object ends, is rejected."
  },
  {
   "property": "C05",
   "status": "proved",
   "theorems": [
    "C05_long_exact",
    "C05_double_exact",
    "C05_double_near",
    "C05_large_rejected",
    "C05_small_refuted"
   ],
   "note": "Exact in [1e-4,1e17) and zero; within 2^-51 in [1e-300,1e17); rejected from 1e17 up, inf, nan; refutation of exactness below 1e-4. std::pow(10,k) is modelled as correctly rounded."
  },
  {
   "property": "C06",
   "status": "proved",
   "theorems": [
    "C06_lossless"
   ],
   "note": "Every finite double, any leading white space, any following white space or end of input."
  },
  {
   "property": "C07",
   "status": "proved",
   "theorems": [
    "C07_refused",
    "C07_json_exact",
    "C07_rejects",
    "C07_file_same",
    "C07_file_near",
    "C07_file_refuted"
   ],
   "note": "Exact in memory for all events whose integers fit int; through a file exact in value for doubles in [1e-4,1e17), within 2^-51 in [1e-300,1e17); refutation: an event with a double above 1e17 cannot be read back."
  },
  {
   "property": "C08",
   "status": "proved",
   "theorems": [
    "C08_ascii_roundtrip",
    "C08_refuted"
   ],
   "note": "Every list of events with at least two initial and two final particles and finite doubles; refutation for fewer particles."
  },
  {
   "property": "C09",
   "status": "proved",
   "theorems": [
    "C09_truncated",
    "C09_exact_prefix_refuted"
   ],
   "note": "Every cut; refutation of the stronger claim that the event being cut is never returned altered (its last charge can be)."
  },
  {
   "property": "C10",
   "status": "proved",
   "theorems": [
    "C10_layout",
    "C10_roundtrip",
    "C10_number_refuted"
   ],
   "note": "Layout and round trip up to rounding of the MeV/GeV conversion; refutation: event numbers above the int range are read as end of file."
  },
  {
   "property": "C11",
   "status": "proved",
   "theorems": [
    "C11_accepted",
    "C11_heaviest_first_refuted",
    "C11_whole",
    "C11_refused"
   ],
   "note": "Every accepted and every refused record; refutation for the case of the heaviest ion in first place."
  },
  {
   "property": "C12",
   "status": "proved",
   "theorems": [
    "C12_owned",
    "C12_no_leak",
    "C12_values",
    "C12_copy_independent",
    "C12_self_assignment"
   ],
   "note": "Every history of constructions, copies, moves, assignments, additions and destructions: each particle is owned by exactly one live event, nothing leaks or is deleted twice, and the values are those of plain value semantics; self-assignment is the exception and its effect is stated."
  },
  {
   "property": "C13",
   "status": "proved",
   "theorems": [
    "C13_closed",
    "C13_large_refuted"
   ],
   "note": "Any list of events with doubles in [1e-300,1e17) or zero, any previous file content; exact for doubles in [1e-4,1e17), else one part in 2^51; refutation for doubles from 1e17 up."
  },
  {
   "property": "C14",
   "status": "proved",
   "theorems": [
    "C14_sessions",
    "C14_resume_near",
    "C14_bad_state_refuted"
   ],
   "note": "Any number of resumed sessions with doubles in [1e-4,1e17) in the events; one resume for [1e-300,1e17); refutation: an unreadable state string is ignored without notice."
  },
  {
   "property": "C15",
   "status": "proved",
   "theorems": [
    "C15_failed",
    "C15_rejects",
    "C15_two_files_refuted"
   ],
   "note": "Any failing resume of one file leaves it unchanged, and resume succeeds only on complete documents; refutation for two files in resume mode."
  },
  {
   "property": "C16",
   "status": "proved",
   "theorems": [
    "C16_fresh",
    "C16_resumed",
    "C16_resume_loses"
   ],
   "note": "Every crash point of a fresh or resumed session, down to single bytes of each write; a resumed session passes through an empty file."
  },
  {
   "property": "C17",
   "status": "proved",
   "theorems": [
    "C17_fresh",
    "C17_resumed",
    "C17_count",
    "C17_secondary_refuted"
   ],
   "note": "Every interrupt schedule, any number of fresh files, with or without one resumed file; refutation: the count of a fresh JSON file beside a resumed one."
  },
  {
   "property": "C18",
   "status": "proved",
   "theorems": [
    "C18_chain",
    "C18_hidden_refuted"
   ],
   "note": "Every split into interrupted runs, for generators whose only changing state is the random engine; refutation for hidden state."
  },
  {
   "property": "C19",
   "status": "proved",
   "theorems": [
    "C19_ascii",
    "C19_json",
    "C19_hepevt",
    "C19_run_then_read",
    "C19_appended",
    "C19_no_events_refuted"
   ],
   "note": "All three text formats; refutations: ASCII file without events; calling again after the end of a JSON file is undefined behaviour."
  },
  {
   "property": "C20",
   "status": "proved",
   "theorems": [
    "C20_settings",
    "C20_declined",
    "C20_append"
   ],
   "note": "All strings; opening, declining, and appending."
  },
  {
   "property": "C21",
   "status": "proved",
   "theorems": [
    "C21_decodes",
    "C21_injective",
    "C21_ions",
    "C21_standard",
    "C21_beyond_refuted"
   ],
   "note": "All Z and A up to 999; a witness beyond."
  },
  {
   "property": "C22",
   "status": "proved",
   "theorems": [
    "C22_nucid",
    "C22_symbols",
    "C22_plain",
    "C22_nucid_rejects",
    "C22_neutrinos",
    "C22_coulomb",
    "C22_coulomb_total",
    "C22_coulomb_names"
   ],
   "note": "The element table has 115 entries; every accepted Z and A; all strings."
  },
  {
   "property": "C23",
   "status": "proved",
   "theorems": [
    "C23_antiparticle",
    "C23_ions",
    "C23_unknown"
   ],
   "note": "Every integer."
  },
  {
   "property": "C24",
   "status": "proved",
   "theorems": [
    "C24_nuclear",
    "C24_electron",
    "C24_rejects",
    "C24_hydrogen_refuted"
   ],
   "note": "Every target code for which reactions can be built; finding for hydrogen targets stated as a refutation."
  },
  {
   "property": "C25",
   "status": "proved",
   "theorems": [
    "C25_failures",
    "C25_unreadable",
    "C25_unreadable_refuted",
    "C25_every_file",
    "C25_comment_lines",
    "C25_comments",
    "C25_table",
    "C25_ascending_or_error",
    "C25_file",
    "C25_last_line",
    "C25_electron",
    "C25_unchecked_refuted"
   ],
   "note": "Every file text. The cases the loader does not check are stated as C25_unchecked_refuted."
  },
  {
   "property": "C26",
   "status": "proved",
   "theorems": [
    "C26_matched",
    "C26_duplicates",
    "C26_loaded"
   ],
   "note": "Every scheme built through the API and every table, including tables obtained from a file."
  },
  {
   "property": "C27",
   "status": "proved",
   "theorems": [
    "C27_sampled",
    "C27_zero_strength_refuted"
   ],
   "note": "Tables without zero strengths; with zero strengths the index shifts, stated as C27_zero_strength_refuted."
  },
  {
   "property": "C28",
   "status": "proved",
   "theorems": [
    "C28_sorted",
    "C28_closest",
    "C28_distance"
   ],
   "note": "Every history of level and gamma insertions; distances are compared after rounding to double, as the code does."
  },
  {
   "property": "C29",
   "status": "proved",
   "theorems": [
    "C29_conserves",
    "C29_terminates",
    "C29_succeeds",
    "C29_self_loop_refuted",
    "C29_no_end"
   ],
   "note": "All level schemes, draws and starting levels. Gammas must lead to lower levels (C29_self_loop_refuted shows why); recoil kinematics over exact reals. That the other particles of the event are left alone and the gammas appended is C32_conserves."
  },
  {
   "property": "C30",
   "status": "proved",
   "theorems": [
    "C30_reads",
    "C30_failures",
    "C30_round_trip",
    "C30_lossless",
    "C30_equal_energies_refuted",
    "C30_no_end_refuted"
   ],
   "note": "Every decay scheme with strictly ascending printed energies and downward gammas; the two excluded cases are refuted by witnesses."
  },
  {
   "property": "C31",
   "status": "proved",
   "theorems": [
    "C31_chain",
    "C31_fragment_level",
    "C31_gamma_level",
    "C31_fragment_continuum",
    "C31_gamma_continuum",
    "C31_forbidden",
    "C31_gamma_forbidden",
    "C31_decay",
    "C31_mixed_spins_refuted"
   ],
   "note": "Every level or continuum state chosen with positive probability is reached by some allowed total and orbital angular momentum (fragments) or multipole (gammas) with the parity it requires; forbidden levels carry zero width. Spins of mixed kind (half-integer against integer) are not excluded by the code itself: C31_mixed_spins_refuted. Transmission coefficients and level densities are parameters of the environment, not negative for the nuclides concerned (C75 fills in MARLEY's own)."
  },
  {
   "property": "C32",
   "status": "proved",
   "theorems": [
    "C32_bound",
    "C32_statistical",
    "C32_defined",
    "C32_conserves",
    "C32_feasible",
    "C32_cascade_succeeds",
    "C32_ends",
    "C32_decay_succeeds"
   ],
   "note": "Whole de-excitation of an event: four-momentum, charge, proton and nucleon numbers, masses on shell, nothing else changed; plus feasibility of each decay, termination of the gamma cascade and success under positive widths (C75 does without this for MARLEY's own models). Hypothesis 'contains' excludes emission of more nucleons than the nucleus has, which the code does not check for very light nuclei."
  },
  {
   "property": "C33",
   "status": "proved",
   "theorems": [
    "C33_trivial",
    "C33_ground",
    "C33_twice",
    "C33_partly"
   ],
   "note": "An event with no excitation energy is returned unchanged, and a second pass after reaching the ground state changes nothing; residues left in an isomer or with a small continuum energy are not covered and C33_partly shows what happens."
  },
  {
   "property": "C34",
   "status": "proved",
   "theorems": [
    "C34_bookkeeping",
    "C34_density",
    "C34_sampled",
    "C34_share",
    "C34_normalised",
    "C34_forgets"
   ],
   "note": "All histories of the configuration calls, including those that throw; sampled reactions have matching projectile, positive cross section and a present target, each with the share of its cross section; after a successful change the energy density is normalised (under the code's own quadrature). Reactions are assumed not to throw when asked for a cross section. A discrete draw of exactly 0 is excluded (C57_zero_draw_refuted)."
  },
  {
   "property": "C35",
   "status": "proved",
   "theorems": [
    "C35_empty",
    "C35_empty_refuted",
    "C35_total",
    "C35_pick",
    "C35_average",
    "C35_flux_average",
    "C35_flag_refuted",
    "C35_unweighted"
   ],
   "note": "All reaction lists with non-negative cross sections that vanish for other projectiles. C35_unweighted: after flux weighting is switched off the flux-averaged cross section is zero. C35_flag_refuted: the flux-averaged value is stale after switching the flux weighting flag."
  },
  {
   "property": "C36",
   "status": "proved",
   "theorems": [
    "C36_accepted",
    "C36_acceptance",
    "C36_ends",
    "C36_endless_refuted"
   ],
   "note": "Every function and every stream of draws, in exact arithmetic; a density that is never accepted gives an endless loop, stated as C36_endless_refuted."
  },
  {
   "property": "C37",
   "status": "proved",
   "theorems": [
    "C37_double_ends",
    "C37_double_bracket",
    "C37_double_loop_refuted",
    "C37_quantile",
    "C37_ends",
    "C37_ends_always"
   ],
   "note": "Every continuous increasing distribution, in exact arithmetic; in double arithmetic (C37_double_ends, C37_double_bracket) the bisection ends in at most 59 turns for every cumulative function if the interval lies within 8192 of zero, and its result stays in the interval; with the default tolerance it cannot end above 8192 (C37_double_loop_refuted)."
  },
  {
   "property": "C38",
   "status": "proved",
   "theorems": [
    "C38_grid_points",
    "C38_between",
    "C38_constant",
    "C38_constant_doc_refuted",
    "C38_outside",
    "C38_refused",
    "C38_insert",
    "C38_inserted",
    "C38_constructor",
    "C38_unsorted_refuted",
    "C38_repeated_first",
    "C38_log_names_refuted",
    "C38_zero_values",
    "C38_zero_beyond",
    "C38_zero_abscissa"
   ],
   "note": "All grids with increasing abscissae, all rules and extrapolation modes, over reals extended with infinities and NaN. The constructor does not check the order (C38_unsorted_refuted); the documented bins of the constant rule and the names of the two semi-logarithmic rules are refuted. Zeros under the logarithmic rules: C38_zero_values, C38_zero_beyond, C38_zero_abscissa."
  },
  {
   "property": "C39",
   "status": "proved",
   "theorems": [
    "C39_endpoint",
    "C39_pids",
    "C39_density",
    "C39_shape",
    "C39_muon_normalised"
   ],
   "note": "All six kinds of source, all parameters in range; normalisation under the code's quadrature, and for stopped muons also the exact Riemann integral."
  },
  {
   "property": "C40",
   "status": "proved",
   "theorems": [
    "C40_zero",
    "C40_accepts",
    "C40_points",
    "C40_vectors",
    "C40_density",
    "C40_unsorted_refuted",
    "C40_log_zero_refuted"
   ],
   "note": "Acceptance characterised exactly for all tables; C40_unsorted_refuted and C40_log_zero_refuted show accepted tables that cannot be sampled properly."
  },
  {
   "property": "C41",
   "status": "proved",
   "theorems": [
    "C41_history",
    "C41_direction",
    "C41_aligned",
    "C41_twice",
    "C41_conserves",
    "C41_constructor_refuted",
    "C41_null"
   ],
   "note": "Every history of set-direction, set-random and process calls, in exact arithmetic; the constructor case is refuted (a rotator constructed with a direction other than z leaves z-events unrotated)."
  },
  {
   "property": "C42",
   "status": "proved",
   "theorems": [
    "C42_proper_rotation",
    "C42_null_refused",
    "C42_particle"
   ],
   "note": "All pairs of non-null vectors, in exact arithmetic; null vectors refused."
  },
  {
   "property": "C43",
   "status": "proved",
   "theorems": [
    "C43_boost_on_shell",
    "C43_boost_products",
    "C43_boost_back",
    "C43_boost_to_rest",
    "C43_boost_refused",
    "C43_mandelstam",
    "C43_cm_frame",
    "C43_point"
   ],
   "note": "All boosts below light speed, in exact arithmetic; others refused."
  },
  {
   "property": "C44",
   "status": "proved",
   "theorems": [
    "C44_conserves",
    "C44_direction",
    "C44_refused"
   ],
   "note": "All masses and energies above threshold, all angles, in exact arithmetic; below threshold refused."
  },
  {
   "property": "C45",
   "status": "proved",
   "theorems": [
    "C45_scattering",
    "C45_direction",
    "C45_nuclear_event",
    "C45_electron_event",
    "C45_nuclear_created",
    "C45_nuclear_refused",
    "C45_electron_refused",
    "C45_recoil"
   ],
   "note": "Two-two scattering, and whole nuclear and electron events as created by the reaction classes, for every projectile energy, table, Coulomb mode and draw, in exact arithmetic."
  },
  {
   "property": "C46",
   "status": "proved",
   "theorems": [
    "C46_normalised",
    "C46_asymmetry",
    "C46_type_refused",
    "C46_sampled_cosine",
    "C46_electron",
    "C46_electron_maximum",
    "C46_recoil"
   ],
   "note": "All speeds, energies, couplings and masses, in exact arithmetic."
  },
  {
   "property": "C47",
   "status": "proved",
   "theorems": [
    "C47_sign_group",
    "C47_rejects",
    "C47_roundtrip"
   ],
   "note": "All integers, characters and surrounding text."
  },
  {
   "property": "C48",
   "status": "proved",
   "theorems": [
    "C48_numbers",
    "C48_atom",
    "C48_fractions",
    "C48_accepts",
    "C48_rejects",
    "C48_canonical",
    "C48_contains",
    "C48_single"
   ],
   "note": "All atom and fraction lists; also acceptance and rejection exactly characterised."
  },
  {
   "property": "C49",
   "status": "proved",
   "theorems": [
    "C49_missing_particle",
    "C49_missing_atom",
    "C49_missing_fragment",
    "C49_missing_binding",
    "C49_atomic",
    "C49_by_code",
    "C49_separation",
    "C49_order",
    "C49_binding",
    "C49_excess",
    "C49_estimate",
    "C49_antiparticle",
    "C49_threshold",
    "C49_assign"
   ],
   "note": "All tables, nuclides and fragments, over exact reals; the JSON reading of the data file is covered by C02/C55."
  },
  {
   "property": "C50",
   "status": "proved",
   "theorems": [
    "C50_message",
    "C50_stdout",
    "C50_stdout_refuted",
    "C50_defined",
    "C50_newline",
    "C50_registered"
   ],
   "note": "All histories of calls. C50_stdout_refuted: standard output receives warnings after logging is switched on again. C50_newline: newline() obeys the level settings, contrary to its documentation. C50_defined: a null pointer added as a stream makes the next admitted message undefined behaviour, and nothing else does. Messages that are interleaved with other calls are covered only as far as the state after them is concerned."
  },
  {
   "property": "C51",
   "status": "proved",
   "theorems": [
    "C51_same",
    "C51_distinct",
    "C51_explicit",
    "C51_dropped",
    "C51_removed",
    "C51_by_numbers",
    "C51_lookup",
    "C51_total",
    "C51_models",
    "C51_add_after_failure_refuted",
    "C51_failed_replace_refuted"
   ],
   "note": "All histories of additions, replacements, removals and lookups, with the index and data files given by an arbitrary file system. C51_lookup needs readable data files; the nuclides that come along in a file are kept. C51_add_after_failure_refuted: a scheme added after a failed lookup is dropped silently. C51_failed_replace_refuted: a replacement that throws loses the old scheme."
  },
  {
   "property": "C52",
   "status": "proved",
   "theorems": [
    "C52_split",
    "C52_join",
    "C52_trim",
    "C52_trim_unique",
    "C52_trim_sides",
    "C52_blanks",
    "C52_pad",
    "C52_case"
   ],
   "note": "All strings."
  },
  {
   "property": "C53",
   "status": "proved",
   "theorems": [
    "C53_reactions_refuted",
    "C53_dropped_refuted",
    "C53_null_refuted",
    "C53_failures",
    "C53_failures_refuted",
    "C53_default_target",
    "C53_given_target",
    "C53_calls",
    "C53_modes",
    "C53_density",
    "C53_event",
    "C53_rules",
    "C53_neutrinos",
    "C53_sources",
    "C53_histogram",
    "C53_direction",
    "C53_source",
    "C53_settings",
    "C53_reactions",
    "C53_uniform",
    "C53_masses"
   ],
   "note": "create_generator and its helpers are modelled on parsed JSON whose numbers are finite, a file system, the mass table and the reaction loader. C53_reactions has the condition that a file is about one atom and process; C53_uniform shows that only electron-scattering files can fail it, and C53_reactions_refuted and C53_dropped_refuted show it is needed. C53_calls, C53_modes and C53_event carry a configuration through to events. C53_null_refuted: with null reactions the generator is never normalised. C53_failures classifies every failure; C53_failures_refuted shows that each exception to the rule occurs, and that an empty reaction file leads to undefined behaviour."
  },
  {
   "property": "C54",
   "status": "proved",
   "theorems": [
    "C54_documents_load"
   ],
   "note": "All texts."
  },
  {
   "property": "C55",
   "status": "proved",
   "theorems": [
    "C55_get_set_same",
    "C55_get_set_other",
    "C55_set_sorted"
   ],
   "note": ""
  },
  {
   "property": "C56",
   "status": "proved",
   "theorems": [
    "C56_loaded_wf"
   ],
   "note": ""
  },
  {
   "property": "C57",
   "status": "proved",
   "theorems": [
    "C57_share",
    "C57_positive",
    "C57_zero_draw_refuted"
   ],
   "note": "All weight lists, in exact arithmetic; the draw zero is the exception (C57_zero_draw_refuted)."
  },
  {
   "property": "C58",
   "status": "proved",
   "theorems": [
    "C58_sum",
    "C58_unordered_refuted",
    "C58_zero",
    "C58_threshold",
    "C58_nonneg",
    "C58_diff",
    "C58_value",
    "C58_unique"
   ],
   "note": "All tables with ascending level energies; C58_unordered_refuted is the witness that the condition is needed."
  },
  {
   "property": "C59",
   "status": "proved",
   "theorems": [
    "C59_attractive",
    "C59_repulsive",
    "C59_modes",
    "C59_nonneg",
    "C59_factor",
    "C59_names",
    "C59_value"
   ],
   "note": "All modes, nuclei and speeds below light speed; the Fermi function itself is a parameter here and the subject of C79."
  },
  {
   "property": "C60",
   "status": "proved",
   "theorems": [
    "C60_selection",
    "C60_all_spins"
   ],
   "note": "All levels, doubled spins and draws."
  },
  {
   "property": "C61",
   "status": "proved",
   "theorems": [
    "C61_inside",
    "C61_linear",
    "C61_monotone",
    "C61_exact",
    "C61_degree_refuted"
   ],
   "note": "All numbers of points N >= 1, all functions (linearity, monotonicity) and all polynomials up to degree 2N+1 (exactness), over exact reals; C61_degree_refuted shows that the degree bound is needed."
  },
  {
   "property": "C62",
   "status": "proved",
   "theorems": [
    "C62_sound",
    "C62_event",
    "C62_fixed",
    "C62_spin",
    "C62_no_throw",
    "C62_source"
   ],
   "note": "Composition of the reaction, de-excitation, rotation, source and generator models. The balance is stated for residues that hold what they emit (the code does not check this for very light nuclei). A cross section that throws counts as zero, which C62_no_throw shows to be possible only in the two pure effective-momentum modes. Draws of exactly zero are excluded. C62_source: every proper source meets what is asked of the source."
  },
  {
   "property": "C63",
   "status": "proved",
   "theorems": [
    "C63_as_given",
    "C63_first",
    "C63_exists",
    "C63_all"
   ],
   "note": "All file systems (existence, directory listings and texts are arbitrary functions), search paths and names."
  },
  {
   "property": "C64",
   "status": "proved",
   "theorems": [
    "C64_table",
    "C64_first",
    "C64_missing",
    "C64_incomplete",
    "C64_incomplete_refuted"
   ],
   "note": "All tables with int entries, all histories after the first call. C64_incomplete_refuted: when a fragment is missing from the table, only the first call reports it."
  },
  {
   "property": "C65",
   "status": "proved",
   "theorems": [
    "C65_edges",
    "C65_outside",
    "C65_no_width",
    "C65_sum_unique",
    "C65_widths",
    "C65_channels",
    "C65_branching"
   ],
   "note": "For arbitrary transmission coefficients, level densities and strength functions (parameters of the model), with the integral of the code's quadrature as a parameter. C65_sum_unique shows that the specification of the sums determines them. C65_channels needs level schemes in increasing order."
  },
  {
   "property": "C66",
   "status": "proved",
   "theorems": [
    "C66_points",
    "C66_inside",
    "C66_interpolates",
    "C66_unique",
    "C66_exact",
    "C66_cdf",
    "C66_cdf_exact",
    "C66_cdf_refuted",
    "C66_falling_refuted",
    "C66_sizes",
    "C66_adaptive",
    "C66_adaptive_when",
    "C66_adaptive_refuted",
    "C66_sample"
   ],
   "note": "Exact reals; the fast cosine transform is represented by its documented definition, which C74_list and C74_grid prove of the algorithm itself. C66_cdf_refuted and C66_falling_refuted: for degree N the cumulative function counts the last coefficient twice, need not start at zero and may fall. C66_sizes and C66_adaptive_refuted: with N = 3, 4 or 6, and hence nearly always with adaptive sizing, the transform writes past the end of its work array."
  },
  {
   "property": "C67",
   "status": "proved",
   "theorems": [
    "C67_estimated",
    "C67_positive",
    "C67_parities",
    "C67_history",
    "C67_low",
    "C67_value",
    "C67_spin_sum",
    "C67_carbon_refuted"
   ],
   "note": "Exact reals with the special values of floating point for logarithms, roots and divisions. C67_carbon_refuted: with the tabulated masses of carbon-12 the density is negative below the back shift. The spin cut-off, hence the density, jumps at the back shift."
  },
  {
   "property": "C68",
   "status": "proved",
   "theorems": [
    "C68_relation",
    "C68_relation_weisskopf",
    "C68_electric",
    "C68_magnetic",
    "C68_positive",
    "C68_zero",
    "C68_multipoles",
    "C68_heavy_refuted",
    "C68_arguments",
    "C68_spacing",
    "C68_weisskopf",
    "C68_overflow_refuted",
    "C68_units"
   ],
   "note": "Exact reals. C68_heavy_refuted: quadrupole strength is negative from 510 nucleons on. C68_overflow_refuted: the single-particle model's double factorial leaves the range of int from multipolarity ten on."
  },
  {
   "property": "C69",
   "status": "proved",
   "theorems": [
    "C69_numerov",
    "C69_normalisation",
    "C69_elastic",
    "C69_absorbs",
    "C69_flux",
    "C69_terminates",
    "C69_total",
    "C69_bounds",
    "C69_history",
    "C69_kinematics",
    "C69_shape",
    "C69_coulomb",
    "C69_neutron",
    "C69_proton",
    "C69_folding",
    "C69_radial",
    "C69_sommerfeld",
    "C69_target",
    "C69_matching"
   ],
   "note": "Exact reals; the Coulomb functions of the GNU Scientific Library are an arbitrary parameter, with a missing value where theirs is not finite. C69_bounds therefore also covers the code's clamping. C69_terminates needs at most 3288 nucleons: beyond, a diffuseness parameter becomes negative."
  },
  {
   "property": "C70",
   "status": "proved",
   "theorems": [
    "C70_header_unique",
    "C70_spin",
    "C70_dataset",
    "C70_truncated",
    "C70_short_line",
    "C70_missing",
    "C70_any_file",
    "C70_nuclides",
    "C70_truncated_refuted",
    "C70_equal_energies_refuted",
    "C70_order_refuted",
    "C70_blank_header_refuted"
   ],
   "note": "Doubles and streams as in the other file formats. C70_truncated_refuted: a file cut inside a line, or without a newline at the end, is loaded with its last line read again for every missing one. C70_equal_energies_refuted and C70_order_refuted: with levels of equal energy or out of order, the level numbers of the file name the wrong levels. C70_blank_header_refuted: a line of eighty blanks counts as a header in the list of nuclides."
  },
  {
   "property": "C71",
   "status": "proved",
   "theorems": [
    "C71_accepted",
    "C71_messages",
    "C71_default",
    "C71_off",
    "C71_refused",
    "C71_job_file",
    "C71_name_refuted",
    "C71_twice_refuted",
    "C71_stdout_refuted"
   ],
   "note": "Files are known by name; buffering is not modelled. Files listed twice are excluded: C71_twice_refuted shows that two elements overwriting the same file destroy each other's messages. C71_name_refuted: quotation marks and backslashes in a file name are escaped, so another file is opened. C71_stdout_refuted: right after a warning, standard output gets warnings too."
  },
  {
   "property": "C72",
   "status": "proved",
   "theorems": [
    "C72_values",
    "C72_independent",
    "C72_reading",
    "C72_no_leak",
    "C72_leak_refuted",
    "C72_self_move_refuted",
    "C72_reading_refuted",
    "C72_largest_index_refuted",
    "C72_const_at_refuted"
   ],
   "note": "Statements between different parts of the same variable are not modelled. C72_leak_refuted: copy and move assignment over an object never release the old one. C72_self_move_refuted: x = std::move(x) empties x. C72_reading_refuted: operator[] and the non-const at insert missing keys and replace values of another type. C72_const_at_refuted and C72_largest_index_refuted: the const at on a value that is no object, and the index 2^32 - 1, are undefined."
  },
  {
   "property": "C73",
   "status": "proved",
   "theorems": [
    "C73_options",
    "C73_command_line",
    "C73_done",
    "C73_failed",
    "C73_succeeds",
    "C73_status",
    "C73_only_outputs",
    "C73_keeps",
    "C73_refused",
    "C73_prompt",
    "C73_getters",
    "C73_large_refuted",
    "C73_late_refuted",
    "C73_unwritable_refuted",
    "C73_name_refuted"
   ],
   "note": "The generator is an arbitrary parameter, as in C13 to C20; terminal output and the status display are not modelled. A file listed twice is excluded from C73_done and C73_failed. C73_large_refuted: integers go through a double, so those beyond 2^53 change and the largest are undefined; a status interval is taken modulo 2^32. C73_late_refuted, and C73_failed for the generator: mistakes found after the first output file was opened have already emptied it. C73_unwritable_refuted: a file that cannot be opened for writing is not reported, with status 0. C73_name_refuted: a backslash in a file name is doubled."
  },
  {
   "property": "C74",
   "status": "proved",
   "theorems": [
    "C74_cosine",
    "C74_list",
    "C74_frame",
    "C74_twice",
    "C74_fourier",
    "C74_factors",
    "C74_grid"
   ],
   "note": "Exact reals; the decimal constants of the radix 3 and 5 steps and of pi are the numbers they approximate. The array wsave is modelled as its three parts, and an array as a function of its index, so that staying within bounds is stated as changing nothing outside. The array of factors is too short for N = 3, 4 and 6: see C66_sizes."
  },
  {
   "property": "C75",
   "status": "proved",
   "theorems": [
    "C75_energy",
    "C75_channels",
    "C75_widths",
    "C75_decay",
    "C75_rules",
    "C75_loop"
   ],
   "note": "Composes the models of C49, C61, C66 to C69 with that of C31 and C32 over exact reals. The Coulomb function is arbitrary; a transmission coefficient whose computation throws, and a density that is not finite, count as zero (the latter does not occur for the nuclides considered). 'moderate' is the condition of C67, met by every nuclide without a measured mass and by all but eight of MARLEY's table. gamma_open says that a gamma can be emitted from the first state: there are no level data, or the energy lies above the highest level, or some level below can be reached. C75_loop assumes that nuclei outside the range are not reached."
  },
  {
   "property": "C76",
   "status": "proved",
   "theorems": [
    "C76_uniform",
    "C76_from_zero",
    "C76_cosine",
    "C76_upper_refuted",
    "C76_choice",
    "C76_choice_weight",
    "C76_last_weight_refuted",
    "C76_choice_share"
   ],
   "note": "Doubles as Coq's spec_float, related to the rounded reals by Flocq. The arithmetic is that of libstdc++'s uniform_real_distribution and discrete_distribution; the number in [0,1) they start from is an argument, and the engine is not modelled. C76_upper_refuted: from 1 to 1.25 a closed draw can exceed 1.25, and a half-open one can return it. C76_last_weight_refuted: the last position can be chosen although its weight is zero, here for the weights 2, 3, 1, 1, 0 and the largest draw."
  },
  {
   "property": "C77",
   "status": "proved",
   "theorems": [
    "C77_rows",
    "C77_units",
    "C77_kinetic",
    "C77_ascii",
    "C77_files",
    "C77_root_fresh",
    "C77_root_resume",
    "C77_root_read",
    "C77_root_refused",
    "C77_declined",
    "C77_failed",
    "C77_lost_refuted",
    "C77_logging_refuted",
    "C77_ends"
   ],
   "note": "The ROOT library is not modelled: a ROOT file is a set of named objects and a tree a list of entries. C77_rows assumes that the inputs are event files (C77_ascii, C77_files and C77_root_read show which are) with at least two particles before and after each event, and that the output is not among them. C77_lost_refuted: an input that does not exist, or that is the output file, costs the user the previous contents of the output file. C77_logging_refuted: opening any event file leaves the logging of errors switched off. The cross section is that of the file for ASCII, JSON and ROOT and that of each event for HEPEVT."
  },
  {
   "property": "C78",
   "status": "proved",
   "theorems": [
    "C78_range",
    "C78_fermi",
    "C78_dar",
    "C78_beta",
    "C78_shared_refuted",
    "C78_minimize",
    "C78_maximize",
    "C78_ends",
    "C78_point",
    "C78_calls",
    "C78_missed_refuted",
    "C78_parabola_refuted",
    "C78_peak",
    "C78_sampling"
   ],
   "note": "Exact arithmetic over the reals. C78_fermi and C78_dar are for the first neutrino that a program samples: C78_shared_refuted shows that the maximum is a static variable shared by all sources, so that later sources can be sampled with a maximum that is too small. C78_missed_refuted: for every function and every height there is a function with a peak of that height that the search misses. C78_parabola_refuted: the test that decides about a parabolic step has one sign wrong, so that no such step is ever taken and only golden sections and steps of one tolerance remain. For beta fit spectra the place of the maximum is shown, and sampling is covered by C78_sampling under its hypothesis on flatness."
  },
  {
   "property": "C79",
   "status": "proved",
   "theorems": [
    "C79_gamma_nonzero",
    "C79_positive",
    "C79_attraction",
    "C79_reflection",
    "C79_formula",
    "C79_conjugate",
    "C79_nonneg",
    "C79_cross_section",
    "C79_charge",
    "C79_neutral"
   ],
   "note": "Exact reals; std::complex operations by their mathematical definitions. The gamma function of the C library is an arbitrary function: C79_neutral assumes that its value at 3 is 2, C79_positive and C79_attraction that it has no zero to the right of 0. C79_gamma_nonzero writes the sum of Lanczos as a quotient of polynomials and shows by a division of Routh and Hurwitz, checked in exact rational arithmetic, that the numerator has no zero to the right of the imaginary axis."
  },
  {
   "property": "C80",
   "status": "proved",
   "theorems": [
    "C80_histograms",
    "C80_density",
    "C80_half_open_refuted",
    "C80_same_histogram",
    "C80_same_graph",
    "C80_graphs",
    "C80_described",
    "C80_others",
    "C80_replaced"
   ],
   "note": "The ROOT library is not modelled: a file is a set of named objects, and an object is what its accessors return. Exact reals. C80_half_open_refuted: at the left edge of the overflow bin the density is that of the last bin, although the comment in the code says otherwise. C80_density leaves out energies below the smallest positive double, which replaces an edge of zero."
  },
  {
   "property": "C81",
   "status": "proved",
   "theorems": [
    "C81_path",
    "C81_folders",
    "C81_folders_colon_refuted",
    "C81_loads",
    "C81_masses",
    "C81_history",
    "C81_once"
   ],
   "note": "FileManager's constructor and the mass table's are modelled on an environment, a file system and the JSON reader; a process is any sequence of requests, each with its own environment and file system. Masses that are infinite or not numbers (1e400) are excluded. C81_folders_colon_refuted: below a MARLEY folder with a colon in its name nothing is found."
  },
  {
   "property": "C82",
   "status": "proved",
   "theorems": [
    "C82_duration",
    "C82_duration_same",
    "C82_duration_back_refuted",
    "C82_calendar",
    "C82_bytes",
    "C82_small",
    "C82_interval",
    "C82_defined",
    "C82_long_refuted",
    "C82_cursor",
    "C82_cursor_refuted",
    "C82_messages",
    "C82_screen",
    "C82_update"
   ],
   "note": "Text, not time: clock readings are integers, the calendar text is a parameter, and the estimated total time is computed in exact arithmetic where the code rounds. The terminal of C82_cursor and C82_screen does not wrap long lines. Refuted: times after the clock has been set back, long runs, file names with a newline; the first message after an update is written without the status lines (C82_update). The calendar text carries a null character (C82_calendar)."
  },
  {
   "property": "C83",
   "status": "proved",
   "theorems": [
    "C83_one_value",
    "C83_number",
    "C83_exponent",
    "C83_usual",
    "C83_named",
    "C83_electron_text",
    "C83_short_names",
    "C83_particle",
    "C83_event_text",
    "C83_report_text",
    "C83_event_spin",
    "C83_compound_spin",
    "C83_level_spin",
    "C83_level_spin_refuted",
    "C83_report",
    "C83_names",
    "C83_description",
    "C83_description_electron",
    "C83_event_lines"
   ],
   "note": "The half-integer spins of level reports are refuted (C83_level_spin_refuted). Two numbers closer than six digits show are printed alike. The LaTeX table is modelled by its caption names only, and the print function of a Hauser-Feshbach decay by its spin."
  },
  {
   "property": "C84",
   "status": "proved",
   "theorems": [
    "C84_table",
    "C84_no_steps",
    "C84_declined",
    "C84_refused",
    "C84_lost_refuted",
    "C84_own_config_refuted",
    "C84_unit"
   ],
   "note": "The generator and its total cross section are parameters. Files are told apart by their names. The rounding error of the i-th energy is bounded by i M / 2^49 for energies up to M in size; messages to the log are left out. Refuted: a failed run keeps the old table (C84_lost_refuted); the configuration file is safe (C84_own_config_refuted)."
  },
  {
   "property": "C85",
   "status": "proved",
   "theorems": [
    "C85_prints",
    "C85_stops",
    "C85_broken",
    "C85_too_many_refuted",
    "C85_event",
    "C85_lines",
    "C85_usage",
    "C85_ends"
   ],
   "note": "Events and files are those of the event reader (C19, C77). Refuted for 2^31 events (C85_too_many_refuted)."
  },
  {
   "property": "C86",
   "status": "proved",
   "theorems": [
    "C86_number",
    "C86_hands_over",
    "C86_progress",
    "C86_status",
    "C86_announces"
   ],
   "note": "Geant4 is not modelled: BeamOn generates the primaries of each event and then begins it, as documented. The generator is any one reached by a history of public calls; the conversion of MeV by Geant4's unit system, in which MeV is 1, is exact."
  },
  {
   "property": "C87",
   "status": "proved",
   "theorems": [
    "C87_bins",
    "C87_area",
    "C87_cosine",
    "C87_direction",
    "C87_forward_refuted",
    "C87_fp_range",
    "C87_fp_range_refuted",
    "C87_Ex_range",
    "C87_reco",
    "C87_reco_right",
    "C87_counts",
    "C87_counters",
    "C87_fp_entries",
    "C87_classes"
   ],
   "note": "Over the real numbers, with ROOT's histograms as documented. Refuted for exactly forward ejectiles (C87_forward_refuted) and for increasing energies in fp_spect.C (C87_fp_range_refuted). Drawing and the third histogram of reco_spectrum.C are not modelled."
  },
  {
   "property": "C88",
   "status": "proved",
   "theorems": [
    "C88_roots",
    "C88_signs",
    "C88_double_zero_refuted",
    "C88_complex_refuted",
    "C88_linear_refuted"
   ],
   "note": "Over the real numbers: the loss of precision that the branch avoids is not treated. The function is part of the utilities and has no caller in this commit. Refuted: C88_double_zero_refuted, C88_complex_refuted, C88_linear_refuted."
  },
  {
   "property": "C89",
   "status": "proved",
   "theorems": [
    "C89_independent",
    "C89_copy_refuted",
    "C89_assign_refuted",
    "C89_print"
   ],
   "note": "The interpreter is not modelled; constructors and destructors follow C++. Refuted for copies (C89_copy_refuted) and assignments (C89_assign_refuted)."
  },
  {
   "property": "C90",
   "status": "proved",
   "theorems": [
    "C90_printed",
    "C90_refused",
    "C90_table",
    "C90_braces",
    "C90_units_refuted"
   ],
   "note": "Rows are cut at the ampersands and blanks do not count; the text outside the rows is given up to the packages and comments. LaTeX itself is not modelled. Refuted: the unit of the headings (C90_units_refuted)."
  },
  {
   "property": "C91",
   "status": "proved",
   "theorems": [
    "C91_walk",
    "C91_collect",
    "C91_search",
    "C91_compare",
    "C91_levels",
    "C91_nan_refuted"
   ],
   "note": "std::lower_bound and the copy of a range are libstdc++'s. operator-> and operator[] are not modelled: no code uses them, and operator[] of IteratorToPointerMember does not compile. Also shows that the order of doubles assumed by C28 is IEEE 754's for finite ones (C91_compare). Refuted with a NaN (C91_nan_refuted)."
  },
  {
   "property": "C92",
   "status": "proved",
   "theorems": [
    "C92_text",
    "C92_complete",
    "C92_lifetime",
    "C92_edges",
    "C92_determines"
   ],
   "note": "Widths and energies are doubles as the object holds them; how they come about is modelled in reals (C65). The numbers' notation is that of C83."
  },
  {
   "property": "C93",
   "status": "proved",
   "theorems": [
    "C93_accepts",
    "C93_fractions",
    "C93_order",
    "C93_absent",
    "C93_contains",
    "C93_one",
    "C93_nan_refuted",
    "C93_overflow_refuted",
    "C93_contains_refuted"
   ],
   "note": "Arithmetic is IEEE 754 binary64 as in Flocq. The bounds are for amounts without overflow; what happens otherwise is C93_nan_refuted, C93_overflow_refuted and C93_contains_refuted. The real-number model of the same code is C48."
  },
  {
   "property": "C94",
   "status": "proved",
   "theorems": [
    "C94_lists",
    "C94_total",
    "C94_pick",
    "C94_share",
    "C94_average",
    "C94_nan_refuted",
    "C94_infinite_refuted"
   ],
   "note": "Arithmetic is IEEE 754 binary64 as in Flocq; a reaction's cross section is an arbitrary function. The rest of create_event is C62; the real-number model of the same code is C35. Refuted for cross sections that are NaN or infinite (C94_nan_refuted, C94_infinite_refuted)."
  },
  {
   "property": "C95",
   "status": "proved",
   "theorems": [
    "C95_same",
    "C95_seeds_refuted",
    "C95_different",
    "C95_draws",
    "C95_nonzero",
    "C95_state_string"
   ],
   "note": "std::mt19937_64 and std::seed_seq as the C++ standard defines them and libstdc++ implements them. How the numbers become doubles is not modelled; C76 starts from a double between zero and one. Refuted without the restriction to 32 bits (C95_seeds_refuted)."
  }
 ]
}