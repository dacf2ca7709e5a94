{"id": "C01", "title": "JSON strings survive dump and load", "statement": "If a JSON object holds a string value, then loading the text produced by dumping the object gives back an object holding the same string, byte for byte, whatever bytes (quotes, backslashes, control characters, UTF-8) it contains and whatever indent is used.", "quantifier": "every byte string; every indent setting", "why_tests_cant": "the set of strings is infinite and the escape and unescape loops interact character by character; tests try a handful", "anchors": ["include/marley/JSON.hh: json_escape, parse_string, dump_string, print, load"]}
{"id": "C02", "title": "JSON documents survive dump and load", "statement": "Loading the text dumped (compact or pretty-printed with any indent) from a JSON object yields an equal object: same keys, same array order, same strings, booleans, nulls and numeric values. The exceptions are exactly those the code forces: keys containing a character that needs escaping, and floating-point numbers whose printed form uses an exponent.", "quantifier": "every finite JSON tree of any depth and width; every indent", "why_tests_cant": "trees are unbounded in depth and width, and printer and parser are mutually recursive", "anchors": ["include/marley/JSON.hh: print, dump_string, parse_object, parse_array, parse_next, load"]}
{"id": "C03", "title": "Loading any text terminates with a value or an error", "statement": "JSON::load applied to any text whatsoever, well formed or not, terminates: it either returns a value or throws; it never loops forever.", "quantifier": "every input byte string", "why_tests_cant": "a test suite can only feed finitely many malformed inputs", "anchors": ["include/marley/JSON.hh: load, parse_next, parse_object, parse_array, parse_string, parse_number, skip_comment, skip_ws"]}
{"id": "C04", "title": "A truncated JSON document is rejected", "statement": "If a dumped JSON object is cut at any byte before its end (an interrupted write), loading what is left throws an error instead of returning a partial object.", "quantifier": "every document; every truncation point", "why_tests_cant": "every crash point of every document would have to be tried", "anchors": ["include/marley/JSON.hh: load, parse_object, parse_array, parse_string, get_next_char"]}
{"id": "C05", "title": "JSON numbers keep their value", "statement": "A finite double whose %.17g form has no exponent (zero, or magnitude from 1e-4 up to 1e17) keeps its exact numeric value through JSON dump and load. Values outside that range do not in general: at 1e17 and above the dumped text is not loadable, and below 1e-4 the last digit may change.", "quantifier": "every finite binary64 value", "why_tests_cant": "there are 2^64 doubles; failures sit on rare bit patterns", "anchors": ["include/marley/JSON.hh: parse_number, print, dump_string"]}
{"id": "C06", "title": "ASCII output of a double is lossless", "statement": "Every finite double written with the precision used by Event::print (scientific, 17 digits after the point) and read back with the stream extraction operator is the same double, bit for bit, including zeros of either sign and subnormals.", "quantifier": "every finite binary64 value", "why_tests_cant": "2^64 inputs; boundary cases at powers of two and ten and among subnormals", "anchors": ["src/Event.cc: print, read", "src/Particle.cc: print, read"]}
{"id": "C07", "title": "Events survive JSON conversion", "statement": "Converting any event to JSON and building an event from that JSON gives an event equal to the original in every field: all initial and final particles in order with PDG code, four-momentum, mass and charge, and the excitation energy, spin and parity. JSON of any other form is refused: with a MARLEY error, or with std::out_of_range if the energy and the spin are there and the parity is missing.", "quantifier": "every event with at least two initial and two final particles", "why_tests_cant": "events have an unbounded number of particles with arbitrary values", "anchors": ["src/Event.cc: to_json, from_json", "src/Particle.cc: to_json, from_json"]}
{"id": "C08", "title": "Events survive the ASCII format", "statement": "Writing any sequence of events in ASCII format and reading the text back event by event gives the same events in the same order, with every double bit-identical, and then end of input.", "quantifier": "every list of valid events, every number of particles", "why_tests_cant": "unbounded sequences, values and token boundaries", "anchors": ["src/Event.cc: print, read", "src/Particle.cc: print, read", "src/EventFileReader.cc: next_event"]}
{"id": "C09", "title": "A truncated ASCII file never alters the complete events before the cut", "statement": "If an ASCII event file is cut at an arbitrary byte, reading it yields the events completely before the cut, unchanged and in order, before anything else happens.", "quantifier": "every list of valid events; every truncation point", "why_tests_cant": "every crash point of every file", "anchors": ["src/Event.cc: read", "src/Particle.cc: read"]}
{"id": "C10", "title": "HEPEVT records describe the event", "statement": "A HEPEVT record written for an event announces exactly the number of particle lines that follow (initial particles, one dummy line, final particles), marks initial, dummy and final particles with different status codes, and reading such a record back recovers the same initial and final particles, excitation energy, spin, parity and cross section for nuclear-scattering events whose final lepton is already first and whose residue is already second and is the heaviest final ion.", "quantifier": "every event with arbitrarily many final particles", "why_tests_cant": "unbounded particle lists, and the reorder step on reading depends on positions", "anchors": ["src/Event.cc: write_hepevt, dump_hepevt_particle, read_hepevt"]}
{"id": "C11", "title": "HEPEVT reading puts the ejectile first and the residue second", "statement": "For any HEPEVT record that is accepted, the resulting event has the projectile and target first and second among initial particles, no particle is lost or invented, and (when the lepton does not follow the heaviest ion at position zero, a case in which the code misorders them) the only final lepton is the ejectile and the heaviest final ion is the residue. Excitation energy, spin, parity and cross section are those of the last entry with status 11, or zero and positive parity without one. Any other record is refused with an exception: std::out_of_range for a particle code without a known charge, marley::Error otherwise.", "quantifier": "every accepted record, any order of particles", "why_tests_cant": "all permutations of unbounded lists", "anchors": ["src/Event.cc: read_hepevt"]}
{"id": "C12", "title": "Event objects own their particles", "statement": "Under any sequence of event constructions, copies, moves, assignments, particle insertions, clears and destructions, each particle belongs to exactly one live event, no freed particle is reachable, nothing is freed twice and nothing is leaked. A copy is independent of its original. Assigning an event to itself empties it.", "quantifier": "every finite history of operations on any number of events", "why_tests_cant": "histories are unbounded and aliasing bugs only show in particular interleavings", "anchors": ["src/Event.cc: Event, operator=, clear, add_initial_particle, add_final_particle, ~Event"]}
{"id": "C13", "title": "A closed JSON output file is complete and loadable", "statement": "After opening a JSON output file, writing any sequence of events and closing it, the file is a loadable JSON document whose event array holds exactly the written events in order and whose generator state holds the configuration, state string, seed and event count passed at close.", "quantifier": "every event sequence; every indent setting accepted by the executable", "why_tests_cant": "unbounded sequences; comma and indentation logic depends on history", "anchors": ["src/OutputFile.cc: open, start_json_output, write_event, close, write_generator_state"]}
{"id": "C14", "title": "Resuming a JSON file keeps the old events", "statement": "Resuming a previously closed JSON file, writing more events and closing again gives a file whose event array is the old events followed by the new ones, for any number of successive resumes; the generator handed back has the stored configuration and random state and the reported number of previous events is the stored count.", "quantifier": "every chain of sessions, every number of events in each", "why_tests_cant": "chains of resumes are unbounded", "anchors": ["src/OutputFile.cc: resume, write_event, close", "src/marley.cc: main"]}
{"id": "C15", "title": "A failed resume leaves the file alone", "statement": "If resuming a run fails for any reason reported as an error (file is not loadable JSON, missing generator state, configuration, state string, seed or event count, or a configuration the generator rejects), the file's contents are unchanged.", "quantifier": "every file content", "why_tests_cant": "all malformed files", "anchors": ["src/OutputFile.cc: open, resume"]}
{"id": "C16", "title": "An output file not yet closed is never mistaken for a complete one", "statement": "At any crash point between opening a JSON output file and the end of close, the bytes on disk do not load as a JSON document, so a half-written file cannot be silently read or resumed as if complete. A crash while resuming, however, can lose all previously stored events.", "quantifier": "every event sequence; every crash point (byte)", "why_tests_cant": "crash points are unbounded", "anchors": ["src/OutputFile.cc: open, write_event, close, resume"]}
{"id": "C17", "title": "The event count matches the events for every interruption schedule", "statement": "When the executable writes a fresh or resumed JSON file, the stored event count equals the number of events in the array whatever moment the user interrupts the run; no more events are generated than requested; every output file of the run receives the same new events in the same order.", "quantifier": "every interruption schedule, every requested count, any number of output files", "why_tests_cant": "the interrupt may arrive at any iteration", "anchors": ["src/marley.cc: main"]}
{"id": "C18", "title": "Interrupting and resuming gives the same events as one uninterrupted run", "statement": "If the stored generator state determines the events generated next, then stopping after any number of events and resuming as often as desired gives the same event array as one run of the total length.", "quantifier": "every way to split a run into sessions", "why_tests_cant": "every split of every run length", "anchors": ["src/OutputFile.cc: resume, close", "src/marley.cc: main", "src/Generator.cc: get_state_string, seed_using_state_string"]}
{"id": "C19", "title": "The event reader yields each stored event exactly once", "statement": "An EventFileReader opened on a JSON or ASCII file of N events returns true with the stored events, in order, on exactly the first N calls of next_event and returns false with an empty event on the next call; the reported flux-averaged cross section is the stored one. Calling next_event again after the end is safe for ASCII but reads past the end of the array for JSON.", "quantifier": "every stored sequence of events, every N", "why_tests_cant": "unbounded N; iterator offset arithmetic", "anchors": ["src/EventFileReader.cc: deduce_file_format, initialize, next_event"]}
{"id": "C20", "title": "Output file settings are validated", "statement": "An output file object is created only for the documented format and mode names in the documented combinations (append for hepevt and ascii, resume for root and json, overwrite for all); anything else is an error. Declining to overwrite never truncates the existing file.", "quantifier": "every format string, mode string, force flag, prompt answer and existing file", "why_tests_cant": "arbitrary strings and file states", "anchors": ["src/OutputFile.cc: OutputFile, open"]}
{"id": "C21", "title": "Nuclear PDG codes encode Z and A faithfully", "statement": "For every proton number and mass number from 0 to 999 the nuclear PDG code decodes to the same Z and A (the free neutron and proton codes included), distinct nuclides get distinct codes, and every composite nucleus is recognised as an ion.", "quantifier": "all Z and A in 0..999 (and where exactly it fails beyond)", "why_tests_cant": "a million combinations plus special cases for nucleons", "anchors": ["include/marley/marley_utils.hh: get_nucleus_pid, get_particle_Z, get_particle_A, is_ion"]}
{"id": "C22", "title": "ENSDF nucids and neutrino names round trip", "statement": "The nucid string built for any Z in the element table and 1<=A<=999 is five characters long and decodes to the same Z; neutrino names and PDG codes, and Coulomb-correction mode names and modes, convert back and forth without change, and every other string is rejected.", "quantifier": "all table entries and A; all strings", "why_tests_cant": "all strings", "anchors": ["src/marley_utils.cc: nuc_id, nucid_to_Z, string_to_neutrino_pdg, neutrino_pdg_to_string", "src/NuclearReaction.cc: coulomb_mode_from_string, string_from_coulomb_mode"]}
{"id": "C23", "title": "Antiparticles have opposite charge", "statement": "For every PDG code with a known charge, the opposite code, when also known, has the opposite charge; ions have charge equal to their proton number; unknown codes raise an exception.", "quantifier": "every integer PDG code", "why_tests_cant": "all integers", "anchors": ["include/marley/marley_utils.hh: get_particle_charge"]}
{"id": "C24", "title": "Reactions conserve electric charge, baryon number and lepton family", "statement": "For every process type, projectile and target nuclide accepted when a reaction is built, the projectile-target and ejectile-residue systems have equal electric charge and baryon number, and the ejectile is in the projectile's lepton family with the same particle/antiparticle character.", "quantifier": "all process types, all projectiles, all target nuclides", "why_tests_cant": "all nuclides", "anchors": ["src/Reaction.cc: get_ejectile_pdg, load_from_file", "src/NuclearReaction.cc: NuclearReaction, make_event_object"]}
{"id": "C25", "title": "Reaction tables load in ascending energy or not at all", "statement": "If loading a nuclear reaction data file whose lines hold the expected numbers succeeds, each reaction returned has one matrix element per newline-terminated line that is not a comment, in file order, with the numbers written there, in strictly ascending excitation energy; a repeat or a decrease is an error. Comment lines change nothing. A last line without a newline is dropped. An electron-scattering file gives the six reactions for each of its targets. Empty tables, unknown transition types and negative strengths are accepted, and a blank or short line uses unset values. Every other failure is a MARLEY error, or std::out_of_range for a nuclide without a symbol, or the failure met on looking up the residue. A line that starts with something that is no number counts as one of energy zero.", "quantifier": "every file content", "why_tests_cant": "arbitrary files", "anchors": ["src/Reaction.cc: load_from_file"]}
{"id": "C26", "title": "Matrix elements are matched to the closest level, once", "statement": "Level matching assigns to each bound matrix element the level whose energy is nearest (ties to the upper one), leaves unbound ones unmatched, and reports an error rather than assign the same level twice.", "quantifier": "every level list and every table", "why_tests_cant": "all sorted lists", "anchors": ["src/Reaction.cc: set_level_ptrs", "src/DecayScheme.cc: get_pointer_to_closest_level"]}
{"id": "C27", "title": "The sampled final level corresponds to the weight that selected it", "statement": "If every tabulated strength is non-zero, the matrix element used for the event is the one whose partial cross section was sampled, it is kinematically accessible, and a zero-weight element is never selected. If some strength is zero the code can use a different matrix element from the one sampled.", "quantifier": "every matrix element table and every random draw", "why_tests_cant": "all tables and draws; index shifts show only for particular tables", "anchors": ["src/NuclearReaction.cc: summed_xs_helper, create_event"]}
{"id": "C28", "title": "Decay scheme levels stay sorted", "statement": "After any sequence of level insertions the levels of a decay scheme are in non-decreasing energy order, no level is lost or duplicated, and the closest-level query returns a level minimising the energy difference.", "quantifier": "every insertion history; every query energy", "why_tests_cant": "unbounded histories", "anchors": ["src/DecayScheme.cc: add_level, level_lower_bound_index, get_pointer_to_closest_level"]}
{"id": "C29", "title": "Gamma cascades terminate and conserve energy and momentum", "statement": "If every gamma goes to a level of lower index, a gamma cascade started at any level ends, whatever branches the random generator picks, at a level without gammas, after at most as many gammas as the starting level's index; the emitted gammas plus the residue carry the initial four-momentum; projectile, target and ejectile are unchanged and gammas are appended.", "quantifier": "every decay scheme, every starting level, every sequence of random choices", "why_tests_cant": "all branch histories", "anchors": ["src/DecayScheme.cc: do_cascade"]}
{"id": "C30", "title": "Decay schemes survive printing and reading", "statement": "Printing a decay scheme with strictly ascending level energies and downward gammas, and reading it back, rebuilds the same levels and gamma destinations (up to the printed precision of numbers). With two levels of equal energy the gamma destinations can change. From any other text, reading gives the announced number of levels with the numbers written there, in ascending order of energy, or fails at the first level that is out of order: with a MARLEY error for a bad parity, std::out_of_range for a transition to a level not yet read, and with values never set if numbers are missing.", "quantifier": "every decay scheme and every text", "why_tests_cant": "arbitrary schemes; index resolution against a partially built list", "anchors": ["src/DecayScheme.cc: print, read_from_stream"]}
{"id": "C31", "title": "Compound-nucleus channels obey angular momentum and parity selection rules", "statement": "The (orbital, channel spin, final spin, parity) combinations that contribute to fragment and gamma widths are exactly those allowed by the triangle inequalities and parity conservation up to the configured maximum, each counted once, for both discrete and continuum channels.", "quantifier": "all spins, parities, fragments and l_max", "why_tests_cant": "unbounded spins", "anchors": ["src/ExitChannel.cc: compute_total_width, differential_width, get_transition_type"]}
{"id": "C32", "title": "De-excitation conserves charge, nucleon number and four-momentum", "statement": "However many particles a nucleus emits and whatever channels are sampled, the de-excited event has the same total electric charge, proton number, nucleon number and four-momentum as before, the ejectile and initial particles are unchanged and all emissions are appended after the residue.", "quantifier": "every sequence of sampled channels and emission directions", "why_tests_cant": "unbounded cascades", "anchors": ["src/NucleusDecayer.cc: process_event", "src/ExitChannel.cc: prepare_products, final_nucleus_pdg", "src/HauserFeshbachDecay.cc: do_decay"]}
{"id": "C33", "title": "De-exciting twice changes nothing", "statement": "Applying the nucleus decayer to an event whose residue is already in its ground state leaves it unchanged; partially de-excited residues and negative excitation energies are errors.", "quantifier": "every event", "why_tests_cant": "all events", "anchors": ["src/NucleusDecayer.cc: process_event"]}
{"id": "C34", "title": "Generator reaction bookkeeping is consistent", "statement": "After any sequence of adding reactions, clearing reactions, setting the source, target and weighting flag, there is exactly one stored cross-section slot per reaction, and a reaction is sampled only if its projectile matches, its target is present and its cross section is positive.", "quantifier": "every configuration history and every draw", "why_tests_cant": "unbounded histories", "anchors": ["src/Generator.cc: add_reaction, clear_reactions, E_pdf, sample_reaction, set_source, set_target"]}
{"id": "C35", "title": "Total cross sections only count applicable reactions", "statement": "The total cross section for a projectile, energy and target atom is the sum over exactly the loaded reactions matching both, the index and weight lists returned agree element by element, and the target-averaged value weights each atom by its atom fraction.", "quantifier": "every reaction list and target composition", "why_tests_cant": "all lists", "anchors": ["src/Generator.cc: total_xs, create_event"]}
{"id": "C36", "title": "Rejection sampling returns a point of the interval accepted under the density", "statement": "Whatever random numbers are drawn, a value returned by rejection sampling lies in the requested interval and its density is at least the accepted height; the running maximum never decreases during the call.", "quantifier": "every density, interval and random stream", "why_tests_cant": "all random streams", "anchors": ["src/Generator.cc: rejection_sample"]}
{"id": "C37", "title": "Inverse-transform sampling brackets the quantile", "statement": "Bisection on a non-decreasing cumulative function keeps the requested quantile bracketed, terminates, and returns a value in the interval within the tolerance of a point where the cumulative function crosses the drawn value.", "quantifier": "every monotone function, interval, tolerance and draw", "why_tests_cant": "all functions", "anchors": ["src/Generator.cc: inverse_transform_sample"]}
{"id": "C38", "title": "Interpolation grids interpolate", "statement": "For a grid with strictly increasing abscissae, linear interpolation reproduces the tabulated value at every grid point, stays between neighbouring values elsewhere, and values outside the grid follow the chosen extrapolation rule; inserting points keeps the grid sorted. The constructor's claim to reject unsorted input does not hold. A tabulated zero under a logarithmic rule makes the value not a number in the bin that starts with it, zero in the one that ends with it, and not a number or infinite on continuation beyond the grid.", "quantifier": "every grid, query point and insertion history", "why_tests_cant": "all grids", "anchors": ["include/marley/InterpolationGrid.hh: InterpolationGrid, interpolate, find_bin_limits, insert"]}
{"id": "C39", "title": "Neutrino sources return densities supported on their energy range", "statement": "Every neutrino source accepts only neutrino PDG codes, its density is zero outside its energy range and non-negative inside, and the stopped-muon spectra integrate to one.", "quantifier": "all energies and parameters", "why_tests_cant": "continuum of energies", "anchors": ["src/NeutrinoSource.cc", "include/marley/NeutrinoSource.hh"]}
{"id": "C40", "title": "A grid source is accepted only if it can be sampled", "statement": "A tabulated source that constructs successfully has at least two points, non-negative energies and densities, a positive sum, and never queries a zero energy.", "quantifier": "every table", "why_tests_cant": "all tables", "anchors": ["src/NeutrinoSource.cc: check_for_errors"]}
{"id": "C41", "title": "Events end up along the configured neutrino direction", "statement": "For any history of direction changes and events, after an event is processed its projectile travels along the direction currently configured, all energies, masses, momentum magnitudes and angles between particles are unchanged, and events already along the direction are left exactly as they were. A rotator constructed directly with a direction other than z leaves events along z unrotated. The null vector is refused as a direction with a MARLEY error, and nothing else is.", "quantifier": "every history of set-direction and process-event operations", "why_tests_cant": "cached state makes the result depend on history", "anchors": ["src/ProjectileDirectionRotator.cc: process_event, set_projectile_direction", "src/Generator.cc: set_neutrino_direction"]}
{"id": "C42", "title": "Rotation matrices are proper rotations taking one direction to the other", "statement": "For any two non-null vectors the rotation matrix built from them is orthogonal with determinant one and maps the direction of the first to the direction of the second, in both the general and the nearly parallel case.", "quantifier": "all pairs of non-null vectors", "why_tests_cant": "continuum of directions, with a case split near parallel", "anchors": ["src/RotationMatrix.cc: RotationMatrix, normalize, rotate_copy"]}
{"id": "C43", "title": "Lorentz boosts preserve invariant masses", "statement": "Boosting by any velocity below the speed of light preserves invariant masses and all four-vector products, boosting a particle by its own velocity brings it to rest, and opposite boosts undo each other.", "quantifier": "all four-vectors and velocities", "why_tests_cant": "continuum", "anchors": ["src/marley_kinematics.cc: lorentz_boost, boost_to_cm_frame"]}
{"id": "C44", "title": "Two-body decays conserve four-momentum", "statement": "For every mother particle with positive mass and every pair of daughter masses not exceeding it, and every emission direction, the daughters are on their mass shells and their four-momenta add up to the mother's; if the masses do not fit an error is raised.", "quantifier": "all momenta, masses and directions", "why_tests_cant": "continuum", "anchors": ["src/marley_kinematics.cc: two_body_decay, rotate_momentum_vector"]}
{"id": "C45", "title": "Scattering events conserve four-momentum", "statement": "Two-to-two scattering above threshold produces outgoing particles on their mass shells with total four-momentum equal to the incoming one, for every scattering angle; the Mandelstam s used agrees between all its formulas.", "quantifier": "all energies, masses and angles", "why_tests_cant": "continuum", "anchors": ["src/Reaction.cc: two_two_scatter, make_event_object", "src/marley_kinematics.cc: get_mandelstam_s"]}
{"id": "C46", "title": "Angular and energy distributions are normalised densities", "statement": "The Fermi and Gamow-Teller angular distributions are non-negative and integrate to one over all angles for every ejectile speed up to that of light, and the electron-scattering differential cross section integrates to the total cross section.", "quantifier": "all speeds and energies", "why_tests_cant": "continuum", "anchors": ["include/marley/MatrixElement.hh: cos_theta_pdf", "src/ElectronReaction.cc: total_xs, diff_xs"]}
{"id": "C47", "title": "Parities form the sign group", "statement": "Parities can only be +1 or -1; their product and comparison behave like signs; writing and reading a parity as a character returns the same parity and every other character or integer is rejected.", "quantifier": "all integers and characters", "why_tests_cant": "all inputs", "anchors": ["src/Parity.cc", "include/marley/Parity.hh"]}
{"id": "C48", "title": "Target atom fractions sum to one", "statement": "A target that constructs successfully has non-negative atom fractions summing to one, proportional to the ones given, with each nuclide listed once; mismatched lengths, empty lists, negative or all-zero fractions and duplicates are errors. A target given by proton and mass number is all of the nuclide with these numbers.", "quantifier": "every list of nuclides and fractions", "why_tests_cant": "unbounded lists", "anchors": ["src/Target.cc: initialize, atom_fraction, contains"]}
{"id": "C49", "title": "Masses and separation energies are unit-consistent", "statement": "Atomic masses, binding energies, mass excesses and separation energies are expressed in MeV by the same formula whether each mass comes from the table (micro-amu) or from the liquid-drop estimate (MeV), in all four mixed cases; the unbound threshold is the smallest fragment separation energy; antiparticles weigh the same as particles. What is in none of the tables is refused: particles with std::out_of_range, atoms with marley::Error, and these only if no estimate is wanted.", "quantifier": "all mass tables and nuclides", "why_tests_cant": "mixed measured and theoretical pairs are rare in tests", "anchors": ["src/MassTable.cc"]}
{"id": "C50", "title": "Log messages reach exactly the interested streams", "statement": "For any history of adding streams, enabling, disabling and logging, a message reaches a stream (other than standard output) exactly when logging is enabled and the stream's level admits the message. Standard output is meant to be spared warnings and errors, but after re-enabling or re-adding it at that level it receives them.", "quantifier": "every history of logger operations", "why_tests_cant": "cached per-stream state depends on history", "anchors": ["src/Logger.cc: log, enable, add_stream, find_stream"]}
{"id": "C51", "title": "Structure data lookups are stable", "statement": "Once a decay scheme has been returned for a nuclide, later lookups return the same one until it is removed or replaced; explicitly loaded schemes are never overwritten by automatic loading; a nuclide without data gives a null result.", "quantifier": "every history of lookups, additions, removals", "why_tests_cant": "history dependent cache", "anchors": ["src/StructureDatabase.cc: get_decay_scheme, add_decay_scheme, emplace_decay_scheme, remove_decay_scheme, clear"]}
{"id": "C52", "title": "String helpers split, trim and pad without losing text", "statement": "Splitting a string at a delimiter and joining the pieces restores it (up to one trailing delimiter), trimming removes only whitespace (blanks, tabs, line ends) at the ends, changing case changes letters only, and padding only adds characters up to the requested width.", "quantifier": "all strings, delimiters and widths", "why_tests_cant": "all strings", "anchors": ["include/marley/marley_utils.hh: split_string, trim_*, pad_*"]}
{"id": "C53", "title": "Job configuration is resolved deterministically", "statement": "Among the listed reaction files the first to provide a given target and process wins and the rest are ignored; a default target has equal fractions over the distinct target atoms of the reactions; a missing direction means +z; unknown source types and interpolation rule names are rejected, while out-of-range numeric interpolation codes are silently treated as constant interpolation. A configuration is refused with a MARLEY error, except that std::out_of_range escapes for integers beyond 32 bits given as neutrino type or interpolation rule and for atoms of elements without a symbol, and that what goes wrong while a reaction file is read is passed on.", "quantifier": "every configuration", "why_tests_cant": "arbitrary configurations", "anchors": ["src/JSONConfig.cc: prepare_reactions, prepare_target, prepare_direction, get_interpolation_method"]}
{"id": "C54", "title": "Configuration syntax is read as documented", "statement": "Loading a document gives the value it denotes under the configuration-file grammar: white space, // and /* */ comments anywhere between tokens, trailing commas, unquoted keys, escapes, and repeated keys (the last one wins).", "quantifier": "every document of the grammar", "why_tests_cant": "infinitely many documents; comments and nesting combine", "anchors": ["include/marley/JSON.hh: load, parse_next, parse_object, parse_array, parse_number, get_next_char"]}
{"id": "C55", "title": "JSON objects behave as maps", "statement": "After setting a key, reading it gives the value set, every other key reads as before, and keys stay distinct and sorted.", "quantifier": "all keys, values and objects", "why_tests_cant": "all histories of updates", "anchors": ["include/marley/JSON.hh: operator[], at, has_key"]}
{"id": "C56", "title": "Whatever is loaded is a well-formed value", "statement": "A value obtained by loading any text has distinct sorted keys, integers that fit in a long and valid doubles, at every depth.", "quantifier": "every input text that loads", "why_tests_cant": "arbitrary nesting and malformed numbers", "anchors": ["include/marley/JSON.hh: load, parse_number, parse_object"]}
{"id": "C57", "title": "Weighted choices have the right probabilities", "statement": "Choosing an index from a list of non-negative weights with positive sum picks each index for a share of the uniform draws equal to its weight over the sum, never picks an index out of range, and picks an index of zero weight for at most the single draw zero (which picks the first index whatever its weight).", "quantifier": "all weight lists and draws", "why_tests_cant": "probabilities over a continuum of draws", "anchors": ["include/marley/Generator.hh: sample_from_distribution", "src/Level.cc: sample_gamma", "src/NuclearReaction.cc: create_event"]}
{"id": "C58", "title": "A nuclear cross section is the sum over reachable levels", "statement": "The total cross section of a nuclear reaction is the sum of the cross sections of all levels that can be reached at the projectile energy, if the level energies in its table ascend (after matching to discrete levels they need not, and a reachable level may then be left out); it is zero for other projectiles and below threshold, never negative for non-negative strengths, and the differential cross section integrates to it.", "quantifier": "all tables, masses, energies and projectiles", "why_tests_cant": "continuum of energies, arbitrary tables", "anchors": ["src/NuclearReaction.cc: total_xs, diff_xs, summed_xs_helper"]}
{"id": "C59", "title": "Coulomb corrections follow the chosen mode", "statement": "Without a correction the factor is one. The effective momentum approximations raise the cross section for electrons and are always valid there; for positrons they lower it, and they are valid exactly when the kinetic energy is not less than the Coulomb potential, otherwise the EMA and MEMA modes raise an error. The combined modes use whichever of the Fermi function and the approximation is nearer to one, and the Fermi function where the approximation is invalid. Factors are never negative. Mode names are read back as the mode they name and other names are refused.", "quantifier": "all modes, nuclei, speeds and strings", "why_tests_cant": "continuum of speeds", "anchors": ["src/NuclearReaction.cc: coulomb_correction_factor, ema_factor, coulomb_mode_from_string, string_from_coulomb_mode"]}
{"id": "C60", "title": "Residual nuclei obey the allowed selection rules", "statement": "A residue left in a discrete level has that level's spin and parity. A residue left in the continuum has the target ground state's parity; after a Fermi transition it has its spin, and after a Gamow-Teller transition a spin differing by at most one unit, never zero again after zero. Every spin so allowed is in the list sampled from, once.", "quantifier": "all levels, spins, densities and draws", "why_tests_cant": "every spin and parity of the target", "anchors": ["src/NuclearReaction.cc: create_event"]}
{"id": "C61", "title": "Numerical integration is linear, monotone and exact for polynomials", "statement": "The integrator used for every normalisation evaluates the function only inside the interval, is linear in the function, changes sign when the limits are exchanged, never gives a smaller integral for a larger function (so a density positive inside the interval has a positive integral), and with parameter N gives the exact integral of every polynomial of degree up to 2N+1.", "quantifier": "all functions, intervals, numbers of points and polynomials", "why_tests_cant": "continuum of functions and limits; exactness is an identity for every N", "anchors": ["src/Integrator.cc: Integrator, num_integrate", "src/marley_utils.cc: num_integrate"]}
{"id": "C62", "title": "Complete events balance and follow the configuration", "statement": "Whatever calls came before, a generated event comes from one of the reactions added since they were last cleared, whose projectile is that of the source and whose target atom is present; its kinetic energy is in the range of the source and has positive flux and cross section; the projectile points along the set (or freshly drawn) direction; and after de-excitation and rotation energy, momentum, charge, protons and nucleons balance and every particle is on its mass shell. An event asked for with a given projectile, energy, target atom and direction has exactly those, whatever events came before.", "quantifier": "all histories of configuration calls and events, all reactions, sources, targets and draws", "why_tests_cant": "an unbounded history in front of every event, and a continuum of draws", "anchors": ["src/Generator.cc: create_event", "src/NuclearReaction.cc: create_event", "src/ElectronReaction.cc: create_event", "src/NucleusDecayer.cc: process_event", "src/ProjectileDirectionRotator.cc: process_event"]}
{"id": "C63", "title": "Data files are found in search-path order", "statement": "A name that exists as given is used as it is. Otherwise the file is looked for in the directories of the search path, in their order, and the first directory holding a regular file of that name wins; directories that cannot be opened are skipped; an empty name comes back exactly when no directory has it. The list of all files holds exactly the regular files of the readable directories of the search path.", "quantifier": "all file systems, search paths and names", "why_tests_cant": "unbounded search paths and directory contents", "anchors": ["src/FileManager.cc: find_file, list_all_files"]}
{"id": "C64", "title": "Ground-state spins and fragments come from one reading of the table", "statement": "With a readable table that lists all of neutron, proton, deuteron, triton, helion and alpha, any first call reads it, and from then on, whatever calls are made and whatever becomes of the file, each nuclide has the spin and parity of its last line, an unlisted nuclide is an error, and the fragments are exactly those six in order of their codes. Without the table every call is an error and changes nothing. A table that lacks a fragment is reported only once: later calls silently see fewer fragments.", "quantifier": "all tables, file systems, nuclides and histories of calls", "why_tests_cant": "unbounded histories over static state", "anchors": ["src/StructureDatabase.cc: initialize_jpi_table, get_gs_spin_parity, get_fragment", "include/marley/StructureDatabase.hh: fragments"]}
{"id": "C65", "title": "Decay channels, widths and branching follow the statistical model", "statement": "A decaying nuclear state has exactly one exit channel for each energetically open destination: every fragment that can be emitted, and the gamma ray, to every known level below the highest reachable energy and to the continuum above the known levels. Each channel's partial width is the sum over all spins, orbital momenta, multipolarities and parities that angular momentum and parity conservation allow, each once, of the transmission coefficient (times the level density, integrated over energy, for the continuum). A channel, and then the spin and parity of a continuum state, is chosen with probability equal to its share of the total width. The differential width of a continuum channel vanishes at all energies more than 10^-6 MeV outside the continuum, and a nucleus whose widths are all zero is refused with a MARLEY error.", "quantifier": "all compound states, level schemes, fragments, transmission coefficients, level densities and draws", "why_tests_cant": "unbounded sets of levels and spins, arbitrary transmission functions and a continuum of draws", "anchors": ["src/HauserFeshbachDecay.cc: build_exit_channels, do_decay", "src/ExitChannel.cc: compute_total_width, differential_width, sample_spin_parity"]}
{"id": "C66", "title": "Interpolated functions agree with what they interpolate", "statement": "A function sampled at N+1 Chebyshev points of an interval is evaluated only inside it (both ends included) and is replaced by the one polynomial of degree at most N through the samples, which can be evaluated at every point; its reported integral is that polynomial's exact integral, so polynomials of degree up to N are represented and integrated exactly. Its cumulative function is the exact integral from the lower end for degrees below N, and otherwise off by at most a bound proportional to the alternating sum of the samples; sampling from a polynomial density of degree below 64 returns, within the bisection tolerance, the quantile of the drawn probability.", "quantifier": "all functions, intervals, numbers of points, evaluation points and draws", "why_tests_cant": "continuum of functions and evaluation points; identities for every N", "anchors": ["src/ChebyshevInterpolatingFunction.cc: constructor, compute_integral, cdf", "include/marley/ChebyshevInterpolatingFunction.hh: evaluate", "src/Generator.cc: inverse_transform_sample"]}
{"id": "C67", "title": "Nuclear level densities are positive, symmetric in parity and follow the back-shifted Fermi gas", "statement": "For every nuclide with moderate shell correction (every nuclide without a measured mass is one), at every excitation energy from zero up: the total level density is a positive number, constant in temperature below the back shift and the documented Fermi-gas value above; each spin has a positive density; both parities have half of it; and the densities summed over spins agree with the integral of the spin distribution to within a small fraction (e^(-1/2) over the spin cut-off) of the total. No answer depends on what was asked before. For nuclides whose shell correction is strongly negative, such as carbon-12, densities can be negative or undefined.", "quantifier": "all mass tables, nuclides, excitation energies, spins and histories of calls", "why_tests_cant": "a continuum of energies, unbounded sums over spins, arbitrary call histories over hidden state", "anchors": ["src/BackshiftedFermiGasModel.cc: constructor, level_density", "include/marley/LevelDensityModel.hh"]}
{"id": "C68", "title": "Gamma-ray strength functions and transmission coefficients agree with each other and with their documented forms", "statement": "In both models the transmission coefficient is 2 pi times the strength times the energy to the power 2l+1. The standard Lorentzian model gives the documented giant-resonance values for electric and magnetic radiation of every multipolarity, magnetic dipole strength at 7 MeV in the documented ratio to electric dipole strength, and a fixed small factor for each further multipolarity; for nuclides with protons and neutrons and at most 509 nucleons all strengths at positive energies are positive, and transmission vanishes at zero energy. The single-particle model gives the Weisskopf estimates, with partial width equal to spacing times transmission over 2 pi, for multipolarities up to nine. Multipolarities below one and non-positive level spacings are errors.", "quantifier": "all nuclides, energies, transition types and multipolarities", "why_tests_cant": "a continuum of energies and unbounded multipolarities", "anchors": ["src/StandardLorentzianModel.cc", "src/WeisskopfSingleParticleModel.cc", "include/marley/GammaStrengthFunctionModel.hh: check_multipolarity"]}
{"id": "C69", "title": "Optical-model transmission coefficients are probabilities and follow the documented potential", "statement": "Transmission coefficients lie between 0 and 1, vanish at non-positive energies and wherever the potential absorbs nothing, and do not depend on earlier calls or on how the radial wave function is normalised. The potential is the documented global potential for neutrons and protons, with composite fragments folded from it; its surface term is the derivative of its volume term's shape, its Coulomb term is that of a uniform sphere and continuous; it absorbs spinless fragments and never creates them, so the flux of the computed wave is inward at every step. Kinematics are relativistic and invertible; every calculation ends; integration steps are exact for fifth-degree polynomials; the total cross section adds each allowed pair of orbital and total angular momentum once.", "quantifier": "all nuclides up to 3288 nucleons, fragments, energies, angular momenta, step sizes, Coulomb functions and histories of calls", "why_tests_cant": "a continuum of energies and radii, unbounded numbers of steps and partial waves, arbitrary call histories over hidden state", "anchors": ["src/KoningDelarocheOpticalModel.cc", "include/marley/KoningDelarocheOpticalModel.hh", "include/marley/OpticalModel.hh"]}
{"id": "C70", "title": "A level data file in TALYS format is loaded as the decay scheme it describes", "statement": "For a file whose data set for the nuclide lists its levels in increasing order of energy and whose gammas lead to levels already listed, the loaded scheme has exactly these levels in this order, with doubled spins and parities, and exactly the gammas with positive branching ratio, each leading to the listed final level with the energy difference as its energy. Lines before the header of the nuclide and after its data do not matter, and no line is a header of two nuclides. Whatever the file holds, a scheme that is loaded is for the nuclide asked for, has its levels in order, and each gamma's energy is the difference between its two levels. A missing file or data set is an error, and a data set cut off after a complete line is never loaded. The list of all nuclides of a file holds exactly the nuclides of its header lines.", "quantifier": "all files, nuclides, numbers of levels and gammas, and cut points", "why_tests_cant": "unbounded files and counts; positions in the file turn into positions in a sorted vector while it grows", "anchors": ["src/DecayScheme.cc: parse_talys", "src/StructureDatabase.cc: find_all_nuclides", "src/marley_utils.cc: nuc_id"]}
{"id": "C71", "title": "The log settings of a job decide which messages reach which stream and file", "statement": "The settings are accepted exactly when there are none, or they are a list whose elements each name a destination, a known level (or none, meaning info) and, for a file, whether to overwrite it, and all files can be opened; everything else is refused with a MARLEY error. In whatever state the logger was before, afterwards every sequence of messages arrives whole and in order exactly where the list says: in each file listed once, those its level admits, after the file's old content unless it was to be overwritten; on standard error those admitted by the level last given for it, otherwise warnings and errors; on standard output the information and debugging messages admitted. No other file changes. Without settings, information goes to standard output and nothing to files; an empty list switches everything off. Settings read from a job file act as if given in memory.", "quantifier": "all earlier histories of the logger, settings, file systems and sequences of messages", "why_tests_cant": "arbitrary histories over hidden state, unbounded lists of destinations and messages", "anchors": ["src/JSONConfig.cc: JSONConfig constructors, update_logger_settings", "src/Logger.cc: clear_streams, add_stream, enable, log"]}
{"id": "C72", "title": "A JSON value behaves like a tree of its own, however it was copied, moved or reached", "statement": "Whatever a program does with JSON variables - declaring, assigning numbers, strings and flags through chains of keys and indexes, appending, copying, moving and destroying them - each variable holds exactly the tree that these operations describe, exceptions are thrown exactly where the description says so, and no storage is used after it was released or released twice. Copies share nothing: later changes to, moves from and destruction of other variables do not change a value. Reaching for an element that is there changes nothing. When the last variable is gone nothing stays allocated, provided that no JSON value was assigned over one that holds a string, array or object.", "quantifier": "all programs, of any length, over any number of variables, with paths and values of any depth; indexes below 2^32 - 1", "why_tests_cant": "unbounded histories of operations on shared storage; dangling pointers and leaks show no effect in most runs", "anchors": ["include/marley/JSON.hh: constructors, assignment operators, destructor, set_type, append, operator[], at"]}
{"id": "C73", "title": "The marley program does what its job file says, touches no other file, and its exit status tells whether it did", "statement": "Started with a job file, the program writes the number of events asked for (1000 if not given) to each file listed (events.ascii if none is), the same events in all, complete and closed, and exits with status 0; if it is interrupted, with the events finished until then. If an event or the generator cannot be made, it exits with status 1, text files hold the complete events before the failure, and JSON files are not mistaken for complete ones. No file that the job file does not list is ever changed. A text file listed without force keeps its contents unless the user answers yes; the answer is the first line among y, Y, n, N, and no at the end of input. Unreadable job files and settings of the wrong type are refused before any file is touched, with status 1. Without arguments, or with any option, no file is touched. Typed access to a setting returns a value of the right type, the default only if the key is missing, and an error otherwise.", "quantifier": "all job files, files on disk, user input, moments of interruption, generators and points of failure", "why_tests_cant": "unbounded numbers of files and events; every point of failure and interruption; effects on files that no test looks at", "anchors": ["src/marley.cc: main", "src/marley_utils.cc: prompt_yes_no", "include/marley/JSON.hh: get_long, get_double, get_bool, get_string, get_object, to_long_or_throw"]}
{"id": "C74", "title": "The fast cosine transform gives the exact cosine sums for every number of points", "statement": "For every number n >= 2 of values, after one call of the initialization the transform replaces x(1)..x(n) by x(1) + (-1)^(i-1) x(n) + the sum over the others of 2 x(k) cos(pi (k-1)(i-1)/(n-1)), whatever the work arrays held before, and as often as it is called; twice gives 2(n-1) times the original. The real transform inside gives the Fourier sums of its input for every length, whatever the factors of the length. The initialization finds factors whose product is the length. No element outside the n values, the n weights, the n-1 elements of work space and of the table, and the places for the factors is ever changed.", "quantifier": "all numbers of points with any prime factors, all values, all contents of the work arrays, any number of calls", "why_tests_cant": "unbounded lengths with a different path through the code for each list of factors (2, 3, 4, 5 and any other), each a different nest of loops over index arithmetic", "anchors": ["src/fftpack4.cc: cost, costi, rffti, rffti1, rfftf, rfftf1, radf2, radf3, radf4, radf5, radfg", "src/ChebyshevInterpolatingFunction.cc: constructor, cdf"]}
{"id": "C75", "title": "With MARLEY's own nuclear models a statistical decay cannot fail for want of a channel", "statement": "With the level densities, optical model, gamma strengths, quadrature and interpolation that MARLEY uses by default, for every nuclide of moderate shell correction with Z >= 3, at least three neutrons and A <= 509: the list of decay channels can always be made, no width is negative, and the total is positive if a gamma can be emitted. A decay then succeeds and obeys the selection rules, unless the energy drawn for the nucleus that is left is one where all transmission coefficients of the chosen fragment vanish, in which case an error is reported. The same holds for the whole sequence of statistical decays: after a decay into the continuum there is always a gamma that can follow. The energy that a nucleus left in the continuum receives is, within 10^-12 MeV, the quantile of the drawn number for the cumulative function of the differential width, built from its values at 65 Chebyshev points with a stated error.", "quantifier": "all mass tables, level schemes, fragments, limits on angular momentum, excitation energies, spins, parities and draws; any values of the Coulomb functions", "why_tests_cant": "the widths are integrals and sums over all levels and angular momenta of products of five models; that no combination makes the total vanish is not seen by trying some", "anchors": ["src/HauserFeshbachDecay.cc: build_exit_channels, do_decay", "src/ExitChannel.cc: compute_total_width, differential_width, sample_spin_parity", "src/StructureDatabase.cc: get_optical_model, get_level_density_model, get_gamma_strength_function_model", "src/BackshiftedFermiGasModel.cc", "src/KoningDelarocheOpticalModel.cc", "src/StandardLorentzianModel.cc"]}
{"id": "C76", "title": "Random numbers computed in floating point stay in their interval and choices follow their weights", "statement": "In double precision, a number drawn from an interval is finite and never below the lower end, and can exceed the upper end only by rounding (2^-50 of the larger end). Numbers drawn from zero to a normal number h never exceed h, and never reach it if the interval is half-open; this covers azimuths. Cosines drawn from -1 to 1 lie in [-1, 1). A weighted choice always returns the position of a weight, whatever the weights; a position of weight zero other than the last is never returned for a positive draw; and the draws that lead to a position are those of its share of the total weight, up to n times 2^-49 for n weights.", "quantifier": "all doubles as ends of the interval up to 2^1000, all draws in [0,1), all lists of up to 2^20 weights", "why_tests_cant": "the cases that matter are single draws out of 2^53 at the edge of an interval; rounding differs for every interval and every list of weights", "anchors": ["src/Generator.cc: uniform_random_double, sample_reaction", "include/marley/Generator.hh: sample_from_distribution", "src/Level.cc: sample_gamma", "src/NuclearReaction.cc: create_event", "src/HauserFeshbachDecay.cc: do_decay", "src/ExitChannel.cc: sample_spin_parity", "src/ProjectileDirectionRotator.cc"]}
{"id": "C77", "title": "The summary program lists every event of every input file, and ROOT files keep the events of all runs", "statement": "marsum OUT IN... leaves in OUT one entry for each event of each input file, in the order of the files and of the events in them, with the projectile, target, ejectile, residue and every further product of that event, its excitation energy, spin and parity, kinetic energies that are never negative, and the cross section in 10^-42 cm^2. Files written by MARLEY in any format deliver all their events with the cross section of the run. No file but OUT is changed, and OUT is kept unless the user lets it be replaced. Whatever the files hold the program comes to an end, and OUT holds a complete summary or none. A ROOT file that is resumed keeps its events and gains those of the new run, which starts with the configuration, random number state and number of events saved; mode append and files without events are refused.", "quantifier": "all stores of files and their contents, argument lists, user input, runs, numbers of events and particles", "why_tests_cant": "unbounded numbers of files, events and particles; every point at which reading can fail", "anchors": ["src/marsum.cc: main", "src/RootOutputFile.cc: open, resume, write_event, close", "src/RootEventFileReader.cc: deduce_file_format, initialize, next_event", "src/EventFileReader.cc: flux_averaged_xsec, ensure_initialized"]}
{"id": "C78", "title": "The search for the largest value of a density, and sampling from a density whose maximum is not known", "statement": "Searching the minimum or maximum of a function on an interval ends for every function, with no more calls than one plus the number of tolerances in the interval. The function is called only inside the interval, the place returned is one of the points called, and the value returned is the value there and the best of all the calls. For a function with one peak the place is within twice the tolerance of it, and rejection sampling with an unknown maximum then follows the density exactly provided the density is that flat around its peak; this is the case for the Fermi-Dirac and decay-at-rest spectra. Nothing is guaranteed for several peaks: a peak between the points called is missed whatever its height.", "quantifier": "all functions, intervals, tolerances, safety factors and random draws; all parameters of the spectra", "why_tests_cant": "functions are arbitrary; the number of calls has no fixed bound; the bracket has to hold the peak after every turn", "anchors": ["src/marley_utils.cc: minimize, maximize", "src/Generator.cc: rejection_sample", "src/NeutrinoSource.cc: NeutrinoSource::sample_incident_neutrino, pdf functions"]}
{"id": "C79", "title": "The Fermi function is positive and has the right dependence on charge", "statement": "The factor that corrects a cross section for the attraction or repulsion of the emitted lepton by the nucleus is never negative, and positive for every nucleus of at most 137 protons, so that with it no total cross section is negative. For an electron it is exp(2 pi alpha Z / beta) times the factor for a positron of the same speed, hence larger. For an uncharged residue it is 1 to eight digits whatever the speed. Written with the momentum and energy of the lepton it is the textbook formula. The complex gamma function used for it takes conjugate values at conjugate numbers, has no zero with a positive real part and satisfies the reflection formula for real parts between 0 and 1/2.", "quantifier": "all reactions, Coulomb correction modes, speeds, masses and residues; all complex numbers", "why_tests_cant": "the gamma function is evaluated by a sum of nine terms of mixed sign whose zeros are not seen by trying some arguments", "anchors": ["src/NuclearReaction.cc: fermi_function, coulomb_correction_factor", "src/marley_utils.cc: gamma"]}
{"id": "C80", "title": "Neutrino sources given as ROOT histograms and graphs", "statement": "A configuration with a source of type th1 or tgraph uses the object it names in the file it names; without the file, the object, the class or one of the two keys it is refused with a MARLEY error. A histogram is accepted exactly if it has a bin, ascending edges that are not negative, and contents that are not negative and not all zero. The density in a bin is then its content over its width, zero outside, and the overflow bin plays no part. A graph is accepted if it has two points, none negative, and gives straight lines between ascending points. Both prepare the generator exactly as the same numbers listed in the configuration as hist or grid do, and sources of other types are prepared as without ROOT.", "quantifier": "all files, objects, configurations, numbers of bins and points, edges and contents", "why_tests_cant": "histograms have any number of bins with any edges; equality with the listed source has to hold for failures too", "anchors": ["src/marley_root.cc: make_root_neutrino_source", "include/marley/marley_root.hh: get_root_object", "src/RootJSONConfig.cc: process_extra_source_types", "src/JSONConfig.cc: prepare_neutrino_source"]}
{"id": "C81", "title": "A process has one search path and one mass table", "statement": "Without the environment variable MARLEY looking for a data file or asking for the mass table is an error. Otherwise the first request made with MARLEY set fixes the search path for the life of the process: MARLEY_SEARCH_PATH if it is set, and otherwise the folders data, data/react and data/structure below MARLEY (if MARLEY has no colon in it). The mass table is made from the mass table file found with that path, exactly if the file can be loaded and has non-empty lists of particle and atomic masses in which every entry has an integer code and a number; otherwise there is an error, which is not remembered. Each particle and atom gets the mass given last for its code, in MeV, and antiparticles those of particles. Every mass table a process is given is the same, however the environment and the files change.", "quantifier": "all environments, file systems, mass table files and sequences of requests with the environment and the files changing between them", "why_tests_cant": "the result depends on the history of the process, its environment and the contents of files; tests run with one environment and one file", "anchors": ["src/FileManager.cc:49-85", "src/MassTable.cc:26-77", "src/MassTable.cc:303-343"]}
{"id": "C82", "title": "What the program shows while it runs is right", "statement": "Elapsed and estimated times are shown as days, hours, minutes and seconds that add up to the time, and two times look the same only if they have the same number of whole seconds. Amounts of data are shown in the largest unit in which they are at least one, correct to half of the last decimal. The status is shown after the first event and the last, and at least once in any status_update_interval events in a row. Drawing it leaves the cursor in its row, and every log message reaches the screen complete, in order and on a row of its own. Once the system clock has been set back the times are garbled, and a run whose estimated end lies beyond the range of the clock (the year 2262) has undefined behaviour.", "quantifier": "every time, amount of data, event count, interval, list of output files and sequence of log messages", "why_tests_cant": "The display depends on the clock, on the lengths of the run and of the messages and on their interleaving; tests look at a few values.", "anchors": ["src/marley.cc:141-199", "src/marley.cc:204-244", "src/marley.cc:460-490", "src/marley_utils.cc:358-406", "include/marley/marley_utils.hh:385-434"]}
{"id": "C83", "title": "Printed reports name particles, nuclides and spins unambiguously", "statement": "The description of a reaction determines its projectile, its ejectile, both nuclides and whether excited states can be reached, and never equals that of another kind of reaction. The name and the table caption of a nuclide are its mass number and element symbol. A printed event shows the spin of the residue in the usual notation and three lines for each particle. Every finite number is printed as a decimal text that stands for one number only, the closest with six significant digits, and every particle that can take part has its usual symbol. The report on a level scheme shows integer spins rightly, but half-integer ones as half of the next lower integer (3/2 as 1/2), and is defined exactly if every gamma ray has an end level.", "quantifier": "every pair of reactions, every nuclide of the tables, every event and every level scheme", "why_tests_cant": "Uniqueness is a statement about all pairs of reactions; the spins in shipped data for argon are integers, so tests do not meet the other ones.", "anchors": ["src/NuclearReaction.cc:719-735", "src/ElectronReaction.cc:39-43", "src/marley_utils.cc:523-541", "src/DecayScheme.cc:264-355", "src/Level.cc:74-79", "src/Event.cc:641-665", "src/HauserFeshbachDecay.cc:206-215"]}
{"id": "C84", "title": "The cross section program tabulates what its configuration asks for", "statement": "The program mardumpxs, given the names of an output file and of a configuration file, writes one line for each step: an energy and the total cross section of the configured generator there, in units of 10^-42 cm^2. The energies rise from the asked minimum (not shown itself) to the asked maximum in equal steps, up to rounding. An existing output file is replaced only if the user agrees; no other file is changed. The program fails exactly if the configuration file is missing or not JSON, if the generator cannot be made, or if a key for the table has a value of the wrong kind. A failure loses the old table all the same, and naming the configuration file as the output destroys it.", "quantifier": "all configurations, energy ranges, numbers of steps, generators, files and answers of the user", "why_tests_cant": "energies are accumulated by rounded additions, any number of them, and the loss of the file depends on what exists before the run", "anchors": ["examples/executables/mardumpxs.cc:38-169"]}
{"id": "C85", "title": "The event printing program prints every event once, with running numbers", "statement": "The program marprint, given the names of event files, prints all events of all files in order, each once, numbered from zero across the files, in the same text as the library's own printing apart from the heading, and ends. If a file cannot be read, the events of the files before it are printed and the program ends with the exception. With 2^31 events in a file the numbers overflow, which is undefined behaviour.", "quantifier": "all numbers of files and events, all formats of event files and all contents", "why_tests_cant": "files hold any number of events and the numbering depends on all files before; tests print one short file", "anchors": ["examples/executables/marprint.cc:33-109"]}
{"id": "C86", "title": "The Geant4 application hands over every event unchanged", "statement": "The program marg4 takes a number of events written with digits only (after spaces and a sign at most) that is not negative and below 2^31, and ends with status 2 for any other text and 1 without two arguments. It then gives Geant4 exactly that many events. Each is an event of the generator: its primary particles are the final particles in order, with their codes, momenta, energies and charges. Together they carry the energy, momentum and charge of the neutrino and its target, and the masses Geant4 derives are those of MARLEY. The number of events is announced first, and a line is printed for the first of every hundred events.", "quantifier": "all texts, numbers of events, configured generators, histories and random draws", "why_tests_cant": "conservation has to hold for every event of every configuration, and the text of the number is arbitrary", "anchors": ["examples/marg4/src/marg4.cc:35-115", "examples/marg4/src/MarleyPrimaryGeneratorAction.cc:59-90", "examples/marg4/src/EventAction.cc:25-32"]}
{"id": "C87", "title": "What the analysis macros plot", "statement": "In the histograms of the macros each bin holds the values from its lower edge up to, but not including, its upper edge. The area below the plots of the scattering cosine, of the neutrino energy and of the reconstructed energy is the flux-averaged cross section times the share of the events in the range. The cosine lies between -1 and 1 and does not depend on the direction of the neutrinos; events with the ejectile exactly forward are missing from its plot. The reconstructed energy is the neutrino energy less the kinetic energies of neutrons and less the mass made beyond the assumed 1.5044 MeV. Each event is counted in one class, and for electron neutrinos on argon-40 the classes have photons only, one neutron and one proton. The ranges that fp_spect.C and Ex.C compute are not those of the data: they are reversed, so that ROOT chooses the range, or leave out all energies but the largest.", "quantifier": "all lists of events of any length, all kinematically allowed events, all values", "why_tests_cant": "sums over any number of events and bins; the identity for the reconstructed energy holds for every event that conserves energy", "anchors": ["examples/macros/cos_plot.C", "examples/macros/nu_spect.C", "examples/macros/reco_spectrum.C", "examples/macros/fp_spect.C", "examples/macros/Ex.C"]}
{"id": "C88", "title": "Quadratic equations are solved, if they have solutions", "statement": "For A x^2 + B x + C = 0 with A not zero, real solutions and B, C not both zero, solve_quadratic_equation gives exactly the solutions, the larger as the plus solution. For positive A that is the documented choice of signs; for negative A the two are exchanged against the documentation. For B = C = 0 one of the values is 0/0; for equations without real solutions two numbers that are not solutions are returned without an error; for A = 0 no finite value is found.", "quantifier": "all coefficients", "why_tests_cant": "three real parameters and a branch on a sign; the statement is that no solution is missed", "anchors": ["src/marley_utils.cc:262-293"]}
{"id": "C89", "title": "Reading event files in a ROOT macro", "statement": "Each MacroEventFileReader of a macro that is not copied or assigned reads its own file from the beginning, whatever the others do, and its memory is freed exactly once, when the variable goes. The macro print_events.C prints for a file exactly what marprint prints. A copy shares the position in the file with the original and frees the same memory again, which is undefined; an assignment loses the memory of the reader assigned to.", "quantifier": "all sequences of creating, reading, copying, assigning and leaving readers, all files", "why_tests_cant": "the fault depends on the history of all objects of the macro", "anchors": ["src/MacroEventFileReader.cc:30-53", "include/marley/MacroEventFileReader.hh:24-52", "examples/macros/print_events.C"]}
{"id": "C90", "title": "The LaTeX table lists all levels and gamma rays", "statement": "For a scheme of a known element in which every gamma ray ends at a level, print_latex_table writes a document with one table. It has five columns and five headings. Its rows are those of all levels in order: for a level with gamma rays one row each, in order, with the energy of the gamma ray, its relative intensity and the energy of the level where it ends, the first also with energy and spin-parity of the level; for a level without gamma rays one row. Rows of a level are not torn apart at a page break, levels are set apart with extra space, and every brace is closed. Both captions name the nucleus. An unknown element and a mass number outside 1 to 999 are refused with an exception. The headings say keV although the energies are in MeV.", "quantifier": "all schemes with any number of levels and gamma rays", "why_tests_cant": "the text has any number of rows, and the first and last rows of a level and of the table differ from the others", "anchors": ["src/DecayScheme.cc:291-353", "src/marley_utils.cc:35-108"]}
{"id": "C91", "title": "Iterators over members find the right level", "statement": "The iterators that MARLEY makes for the energies of levels and for the weights of choices behave like places in the list of those numbers: whatever is read and however they are moved, the same values come out, and only moves outside the list are undefined. A search for an energy among n levels compares at most 1 + log2 n of them, is defined for every list, and for finite energies finds the first level that is not lower. Levels added one after the other are therefore in order. A level with an energy that is not a number breaks the order of the others.", "quantifier": "all lists of objects, all sequences of reads and moves, all histories of added levels", "why_tests_cant": "lists of any length and moves of any number; the halving search meets every position", "anchors": ["include/marley/IteratorToPointerMember.hh", "include/marley/IteratorToMember.hh", "src/DecayScheme.cc:358-378"]}
{"id": "C92", "title": "The report on a compound nucleus is complete and right", "statement": "Printing the decay of a compound nucleus gives its code, energy, spin and parity, its total width, the mean lifetime, which is hbar over the width to about six digits for every width that can occur, and one line for each way to decay, in order, with what is emitted, the level reached or the continuum, and the width. Two complete reports are the same only if nucleus, spin, parity and all the channels agree and all the energies and widths look the same. With the fragments that come with MARLEY the report is always complete. A fragment from a user's table that has no symbol ends it with std::out_of_range after the lines of the channels before. Without a width the lifetime is shown as infinite.", "quantifier": "all nuclei, all lists of exit channels with any energies and widths, finite or not", "why_tests_cant": "any number of channels and any widths; that no two reports coincide is about all pairs", "anchors": ["src/HauserFeshbachDecay.cc:206-237", "include/marley/ExitChannel.hh"]}
{"id": "C93", "title": "Atom fractions are right in floating point", "statement": "Computed with doubles, the fraction of every atom of a target is finite, lies between zero and one, and equals its amount divided by the exact sum of the amounts up to a relative error of 3n/2^53 for n atoms (and half the smallest double); the fractions sum to one up to n/2^51, larger amounts do not get smaller fractions, and a single nuclide has the fraction one exactly. This holds for all finite non-negative amounts with a sum up to 2^1022 and up to 2^51 atoms, all of which are accepted if the atoms differ and have names. An amount that is not a number is accepted and makes every fraction not a number; amounts whose sum overflows give a target that contains none of its atoms; a tiny amount beside a large one may vanish. Atoms which were not given have the fraction zero, and an atom is contained exactly if its fraction is positive.", "quantifier": "all lists of atoms and of amounts, of any length up to 2^51, with any rounding they cause", "why_tests_cant": "rounding errors accumulate with the number of atoms; no set of test values bounds them for all amounts", "anchors": ["src/Target.cc:52-109"]}
{"id": "C94", "title": "Total cross sections are right in floating point, and the reaction is chosen accordingly", "statement": "Computed with doubles, the total cross section for a projectile and an atom lists exactly the reactions for both that have a positive cross section, in their order, and equals the exact sum up to a relative error of n/2^52 for n reactions. Creating an event for given initial particles is refused exactly if this list is empty; otherwise a reaction of the list is chosen, whatever the cross sections are, and the draw lies between the exact shares of the reactions before the chosen one and of those up to it, up to n/2^49. The cross section averaged over the target equals the exact sum of cross sections times atom fractions up to n/2^51 of it and n times the smallest double. A cross section that is not a number is ignored in the first sum but spoils the average, as does an infinite one of an atom that the target does not contain.", "quantifier": "all lists of reactions with any cross sections as functions of projectile and energy, all targets and all draws", "why_tests_cant": "rounding errors accumulate with the number of reactions, and infinities and NaN reach only some of the sums; tests use few reactions with ordinary values", "anchors": ["src/Generator.cc:555-616", "src/Generator.cc:641-668"]}
{"id": "C95", "title": "Seeds determine the random numbers, and the state string restores them", "statement": "Seeding the generator with two numbers that agree in their low 32 bits gives the same random numbers (so that the seeds 1 and 2^32+1 do, though both are accepted and recorded as different); two that differ there give different engine states, unless both fall on the one that replaces the state of zeros. A seeded engine has a word other than zero; every number drawn and every word of the state has 64 bits, after any number of draws. The state string taken after any number of draws restores exactly this engine in any other, so that the same numbers follow.", "quantifier": "all seeds, any number of draws before and after saving", "why_tests_cant": "there are 2^32 distinct seedings and unboundedly many draws; tests compare a few", "anchors": ["src/Generator.cc:91-114", "include/marley/Generator.hh:286"]}
