{"id": "C01", "title": "Work splitting partitions the spin systems", "statement": "When Simulator.run splits the spin systems into n_jobs >= 1 chunks, the chunks concatenated in order are exactly the original list (nothing lost, duplicated or reordered), there are exactly n_jobs chunks, no two chunk sizes differ by more than one and the longer chunks come first.", "quantifier": "every list of spin systems (any length) and every positive n_jobs", "why_tests_cant": "lists and n_jobs are unbounded; a test fixes a few lengths", "anchors": ["src/mrsimulator/simulator/__init__.py:get_chunks"]}
{"id": "C02", "title": "Negative n_jobs follows the joblib convention", "statement": "n_jobs = -k with 1 <= k <= cpu_count behaves as cpu_count+1-k chunks and still covers every spin system. n_jobs = 0 is rejected with an error. A value below -(cpu_count+1) must not silently lose spin systems.", "quantifier": "every list, every cpu count, every integer n_jobs", "why_tests_cant": "cpu count and n_jobs are unbounded and machine dependent", "anchors": ["src/mrsimulator/simulator/__init__.py:get_chunks", "src/mrsimulator/simulator/__init__.py:Simulator.run"]}
{"id": "C03", "title": "The spectrum does not depend on n_jobs", "statement": "For a fixed simulator, Simulator.run computes the same spectrum whatever positive n_jobs is used.", "quantifier": "every list of spin systems, every method, every pair of positive n_jobs values", "why_tests_cant": "a schedule-independence claim over all splittings of all inputs", "anchors": ["src/mrsimulator/simulator/__init__.py:Simulator.run", "src/c_lib/base/base_model.pyx:one_d_spectrum"]}
{"id": "C04", "title": "The spectrum is the sum of the spectra of the individual spin systems", "statement": "Running a simulator with spin systems s1..sn yields the pointwise sum of the spectra obtained by running each spin system alone.", "quantifier": "every list of spin systems and every method", "why_tests_cant": "unbounded lists; the failing cases need particular neighbouring systems", "anchors": ["src/c_lib/base/base_model.pyx:one_d_spectrum (transition pathway cache, lines 439-454)"]}
{"id": "C05", "title": "The spectrum does not depend on the order of the spin systems", "statement": "Permuting the list of spin systems leaves the summed spectrum unchanged.", "quantifier": "every list of spin systems and every permutation of it", "why_tests_cant": "all permutations of all lists", "anchors": ["src/c_lib/base/base_model.pyx:one_d_spectrum"]}
{"id": "C06", "title": "The spectrum is linear in the abundances", "statement": "Multiplying the abundance of every spin system by c multiplies the spectrum by c, and a system of abundance 0 contributes nothing.", "quantifier": "every list of spin systems and every rational factor", "why_tests_cant": "all inputs", "anchors": ["src/c_lib/base/base_model.pyx:one_d_spectrum (line 484)"]}
{"id": "C07", "title": "Spin systems without the observed isotope are inert", "statement": "Removing or inserting spin systems that contain no site of the method channel's isotope does not change the computed spectrum.", "quantifier": "every list of spin systems, any positions of the inert systems", "why_tests_cant": "any interleaving of inert systems in any list", "anchors": ["src/c_lib/base/base_model.pyx:one_d_spectrum (lines 249-255)"]}
{"id": "C08", "title": "Decomposed spectra align with the spin systems and add up", "statement": "With decompose_spectrum='spin_system' the result holds exactly one entry per spin system, in order, the entry of a system without the channel isotope is empty, and the non-empty entries add up to the spectrum computed with decompose_spectrum='none' - for every n_jobs.", "quantifier": "every list of spin systems, every n_jobs", "why_tests_cant": "all lists and all splittings, including splittings with empty chunks", "anchors": ["src/mrsimulator/simulator/__init__.py:Simulator.run", "src/c_lib/base/base_model.pyx:one_d_spectrum"]}
{"id": "C09", "title": "run() touches only the selected methods", "statement": "Simulator.run(method_index=L) replaces the simulation of exactly the methods listed in L and leaves every other method (simulation, dimensions, order and number) unchanged; running the same selection twice gives the same result as running it once.", "quantifier": "every simulator state, every selection of indexes", "why_tests_cant": "frame property over all states and selections", "anchors": ["src/mrsimulator/simulator/__init__.py:Simulator.run"]}
{"id": "C10", "title": "Zeeman states enumerate the full spin space exactly once", "statement": "The Zeeman states of a spin system are all tuples (m_1..m_n) with -I_k <= m_k <= I_k in unit steps, each listed exactly once, in lexicographic order; there are prod(2 I_k + 1) of them.", "quantifier": "every list of site spins (any number of sites, any half-integer spin)", "why_tests_cant": "unbounded number of sites and spins", "anchors": ["src/c_lib/base/base_model.pyx:get_zeeman_states", "src/mrsimulator/spin_system/__init__.py:SpinSystem.zeeman_energy_states"]}
{"id": "C11", "title": "All transitions of a spin system are listed exactly once", "statement": "SpinSystem.all_transitions lists every ordered pair (initial state, final state) exactly once, N^2 entries for N Zeeman states.", "quantifier": "every spin system", "why_tests_cant": "unbounded state space", "anchors": ["src/mrsimulator/spin_system/__init__.py:SpinSystem._all_transitions", "src/mrsimulator/method/utils.py:cartesian_product"]}
{"id": "C12", "title": "Transition queries select exactly the matching transitions", "statement": "For a single-channel P (and optional D) query, a transition of the spin system is selected iff its per-site P vector (and D vector) equals, on the channel sites, some permutation of one of the query items padded with zeros, and is zero on all other sites; selected transitions are listed without duplicates in enumeration order.", "quantifier": "every spin system, every query, every transition", "why_tests_cant": "exactness (soundness and completeness) over all queries and systems", "anchors": ["src/mrsimulator/method/utils.py:query_permutations,get_symmetry_indexes,P_symmetry_indexes,D_symmetry_indexes", "src/mrsimulator/method/__init__.py:Method._get_transition_pathways"]}
{"id": "C13", "title": "Transition pathways are all combinations of the selected transitions", "statement": "The transition pathways of a method over a spin system are exactly the tuples choosing one selected transition per event, each once, the last event varying fastest.", "quantifier": "every method (any number of dimensions and events) and spin system", "why_tests_cant": "unbounded events and transitions", "anchors": ["src/mrsimulator/method/__init__.py:Method._get_transition_pathways"]}
{"id": "C14", "title": "Querying pathways does not alter the method", "statement": "Asking a method for its transition pathways leaves the method's transition queries unchanged, so a later request for another spin system gives the same answer as on a fresh method.", "quantifier": "every method, every sequence of spin systems queried", "why_tests_cant": "history property over all call sequences", "anchors": ["src/mrsimulator/method/utils.py:query_permutations (line 119 pads in place)", "src/mrsimulator/method/__init__.py:Method._get_transition_pathways"]}
{"id": "C15", "title": "Powder interpolation conserves the signal", "statement": "A triangle of the powder average whose three frequencies lie inside the spectral window deposits exactly its amplitude on the spectrum: the sum over the bins grows by the amplitude.", "quantifier": "every three in-window frequencies (any order, any coincidences), every amplitude and every number of points", "why_tests_cant": "continuous inputs; coincidences and bin edges", "anchors": ["src/c_lib/lib/interpolation.c:__triangle_interpolation,left_triangle_interpolate,right_triangle_interpolate"]}
{"id": "C16", "title": "Powder interpolation is exact in every bin", "statement": "Bin k receives amplitude times the fraction of the triangle's unit-area tent density that lies between k and k+1.", "quantifier": "every three in-window frequencies, every amplitude, every bin", "why_tests_cant": "continuous inputs and every bin", "anchors": ["src/c_lib/lib/interpolation.c:__triangle_interpolation"]}
{"id": "C17", "title": "Powder interpolation does not depend on the vertex order", "statement": "Permuting the three frequencies passed to the triangle interpolation leaves the deposited spectrum unchanged.", "quantifier": "every three frequencies, in or out of the window, every permutation", "why_tests_cant": "continuous inputs", "anchors": ["src/c_lib/lib/interpolation.c:__triangle_interpolation"]}
{"id": "C18", "title": "Interpolation never writes outside the spectrum", "statement": "Interpolating any triangle or delta only writes bins 0..points-1 of the spectrum.", "quantifier": "every frequencies, amplitude, number of points", "why_tests_cant": "memory safety over all inputs", "anchors": ["src/c_lib/lib/interpolation.c:delta_fn_interpolation,__triangle_interpolation"]}
{"id": "C19", "title": "The spectral window only crops the spectrum", "statement": "The part of the signal inside the window does not depend on where the window ends: bins computed with a narrower window equal the same bins computed with a wider window.", "quantifier": "every frequencies, every pair of windows", "why_tests_cant": "continuous inputs and all window positions", "anchors": ["src/c_lib/lib/interpolation.c:__triangle_interpolation"]}
{"id": "C20", "title": "A delta peak is shared between the two nearest bins, conserving area and position", "statement": "A delta signal at position f inside the window deposits non-negative weights in at most two adjacent bins, which add up to its amplitude, and whose centroid is f when it does not touch the window edges.", "quantifier": "every frequency, amplitude, number of points", "why_tests_cant": "continuous inputs, both window edges", "anchors": ["src/c_lib/lib/interpolation.c:delta_fn_interpolation"]}
{"id": "C21", "title": "The octahedron face is triangulated exactly once", "statement": "For integration density n the interpolation visits exactly n^2 triangles, all vertex indexes lie in 0..(n+1)(n+2)/2-1, no triangle is visited twice, and every triangle joins neighbouring points of two adjacent rows of the grid.", "quantifier": "every integration density n >= 1", "why_tests_cant": "unbounded n", "anchors": ["src/c_lib/lib/interpolation.c:octahedronInterpolation,octahedronDeltaInterpolation,octahedronInterpolation2D"]}
{"id": "C22", "title": "The powder weights are normalised", "statement": "The amplitudes deposited by all the triangles of the powder average add up to one, so with infinite spinning and every frequency inside the window the spectrum of a transition pathway integrates to one, whatever the integration density or volume.", "quantifier": "every integration density, octant or hemisphere, every set of in-window frequencies", "why_tests_cant": "unbounded density, continuous frequencies", "anchors": ["src/c_lib/lib/octahedron.c:get_total_amplitude", "src/c_lib/lib/schemes.c", "src/c_lib/lib/mrsimulator.c:MRS_create_plan", "src/c_lib/lib/frequency_averaging.c:__1D_averaging"]}
{"id": "C23", "title": "Powder orientations are distinct unit vectors", "statement": "Every orientation of the powder scheme has direction cosines x,y,z >= 0 with x^2+y^2+z^2 = 1, there are (n+1)(n+2)/2 of them and they are pairwise different.", "quantifier": "every integration density n >= 1", "why_tests_cant": "unbounded n", "anchors": ["src/c_lib/lib/octahedron.c:octahedronGetDirectionCosineSquareAndWeightsOverOctant"]}
{"id": "C24", "title": "Reported orientation count equals the number used", "statement": "ConfigSimulator.get_orientations_count() equals the number of orientations in the averaging scheme of the C library, for both integration volumes.", "quantifier": "every integration density and volume", "why_tests_cant": "unbounded density", "anchors": ["src/mrsimulator/simulator/config.py:get_orientations_count", "src/c_lib/lib/schemes.c:MRS_create_averaging_scheme"]}
{"id": "C25", "title": "Spectrum bins agree with the reported axis", "statement": "The frequency at the centre of bin k of the simulation equals the k-th coordinate reported by the spectral dimension (coordinates_Hz).", "quantifier": "every count, spectral width, reference offset, bin", "why_tests_cant": "odd/even counts and all widths/offsets", "anchors": ["src/c_lib/base/base_model.pyx (lines 146-151)", "src/mrsimulator/method/spectral_dimension.py:SpectralDimension.coordinates_Hz", "src/c_lib/lib/method.c"]}
{"id": "C26", "title": "Negative gyromagnetic ratio reverses the frequency axis", "statement": "For an isotope of negative gyromagnetic ratio the spectrum is index-reversed (k -> -k mod n along every dimension), and after the reversal every bin still sits at the coordinate the axis reports (even counts).", "quantifier": "every spectrum size and contents", "why_tests_cant": "all sizes", "anchors": ["src/c_lib/base/base_model.pyx (lines 140-150, 494-503)"]}
{"id": "C27", "title": "The affine matrix acts on the physical frequencies", "statement": "For a 2D method the coordinates of every contribution are A*(f1,f2) in Hz, where A is the user's 2x2 affine matrix (identity if none), whatever the increments of the two dimensions.", "quantifier": "every matrix with non-zero first element, every pair of frequencies, every positive increments", "why_tests_cant": "continuous inputs", "anchors": ["src/c_lib/base/base_model.pyx (lines 183-192)", "src/c_lib/lib/frequency_averaging.c:two_dimensional_averaging"]}
{"id": "C28", "title": "MQ-VAS and ST-VAS shears remove the fourth-rank second-order broadening", "statement": "For every supported multiple-quantum (satellite-transition) order and spin, the built-in affine matrix makes the fourth-rank second-order quadrupolar contribution along the isotropic dimension vanish for every tensor and orientation, and the isotropic dimension weights of the two transitions sum to one.", "quantifier": "every entry of the shear tables, every Cq, eta, orientation, field", "why_tests_cant": "continuous tensor parameters and all orientations", "anchors": ["src/mrsimulator/methods/mqvas.py", "src/mrsimulator/methods/stvas.py", "src/c_lib/include/frequency/spin_transition_functions.h"]}
{"id": "C29", "title": "MQ/ST methods select exactly the intended coherences", "statement": "ThreeQ/FiveQ/SevenQ_VAS select exactly the symmetric transition |-m> -> |m> (or its reverse, according to spin) then the central transition; ST1/ST2_VAS select exactly the two satellite transitions then the central transition.", "quantifier": "every single-site spin system of every half-integer spin that supports the transition", "why_tests_cant": "unbounded spins", "anchors": ["src/mrsimulator/methods/mqvas.py:MQ_VAS.update", "src/mrsimulator/methods/stvas.py:ST_VAS.update"]}
{"id": "C30", "title": "Mixing zero and non-zero rotor frequencies is rejected", "statement": "A method whose events mix zero and non-zero rotor frequencies raises ValueError whatever the order of the events; otherwise the sideband count used is 1 for static and the configured number for spinning methods.", "quantifier": "every sequence of event rotor frequencies over any number of dimensions", "why_tests_cant": "all orders of all event sequences", "anchors": ["src/c_lib/base/base_model.pyx (lines 118-139)"]}
{"id": "C31", "title": "Sideband orders cover a full symmetric period once", "statement": "For N sidebands the sideband offsets are exactly the integers -floor(N/2)..ceil(N/2)-1 times the rotor frequency, each once, in FFT output order.", "quantifier": "every N >= 1, every rotor frequency", "why_tests_cant": "unbounded N", "anchors": ["src/c_lib/include/vm_common.h:__get_frequency_in_FFT_order"]}
{"id": "C32", "title": "Spinning sidebands conserve intensity", "statement": "For a single-event dimension the sideband intensities of every orientation add up to the powder weight of that orientation, so spinning only redistributes intensity.", "quantifier": "every number of sidebands and every phase modulation", "why_tests_cant": "all phases, unbounded N (Parseval)", "anchors": ["src/c_lib/lib/mrsimulator.c:MRS_get_amplitudes_from_plan,MRS_create_plan"]}
{"id": "C33", "title": "Frequency-contribution flags act independently", "statement": "Each frequency contribution of an event is included iff it is listed in the event's freq_contrib, for every site of the spin system.", "quantifier": "every subset of contributions, every spin system and transition", "why_tests_cant": "all subsets, all numbers of sites", "anchors": ["src/c_lib/lib/mrsimulator.c:MRS_rotate_single_site_interaction_components", "src/mrsimulator/method/event.py:_freq_contrib_flags"]}
{"id": "C34", "title": "A dimension's frequency is the fraction-weighted sum over its events", "statement": "The frequency of a contribution along a dimension is the sum over its events of fraction times event frequency, and does not depend on frequencies left over from previously simulated pathways.", "quantifier": "every list of events and any history of previous pathways", "why_tests_cant": "all event lists and histories", "anchors": ["src/c_lib/lib/mrsimulator.c:MRS_get_normalized_frequencies_from_plan", "src/c_lib/lib/simulation.c:__mrsimulator_core"]}
{"id": "C35", "title": "Reversing a transition negates its frequency contributions", "statement": "Swapping the initial and final state negates every first-order shielding/quadrupolar/J/dipolar and second-order quadrupolar contribution; a transition between equal states has zero frequency; symmetric transitions have no first-order quadrupolar contribution.", "quantifier": "every spin and every pair of states", "why_tests_cant": "unbounded spins", "anchors": ["src/c_lib/include/frequency/spin_transition_functions.h", "src/c_lib/include/frequency/frequency_component_functions.h"]}
{"id": "C36", "title": "Wigner rotations preserve tensor norm and are identity at zero", "statement": "The second and fourth rank rotation used for every interaction tensor preserves the norm of its components and leaves the tensor unchanged for zero Euler angles; rotating by beta then by -beta restores it.", "quantifier": "every tensor and every Euler angles", "why_tests_cant": "continuous angles", "anchors": ["src/c_lib/lib/angular_momentum.c:__wigner_d_matrix,single_wigner_rotation"]}
{"id": "C37", "title": "The reduced rotation used in powder averaging equals the full rotation", "statement": "The half-matrix powder rotation yields exactly the first l+1 components of the full Wigner rotation for every tensor of a real interaction.", "quantifier": "every real tensor (R_{-m} = (-1)^m conj R_m), every orientation", "why_tests_cant": "continuous inputs", "anchors": ["src/c_lib/lib/angular_momentum.c:__wigner_rotation_2,half matrices,__batch_wigner_rotation"]}
{"id": "C38", "title": "Euler angle beta and -beta are distinguished", "statement": "Specifying an interaction tensor with a negative beta Euler angle rotates it by that negative angle.", "quantifier": "every Euler angle beta", "why_tests_cant": "all real angles, sign handling", "anchors": ["src/c_lib/include/vm.h:get_cos_sin_from_table", "src/c_lib/lib/angular_momentum.c:single_wigner_rotation"]}
{"id": "C39", "title": "Powder rotations leave the shared tables intact", "statement": "Evaluating the frequencies of a pathway leaves the orientation phase table of the averaging scheme as it was, so later pathways and spin systems see the same orientations; octant k of a hemisphere sees azimuth alpha - k*pi/2.", "quantifier": "every table content, any number of pathways evaluated", "why_tests_cant": "history property", "anchors": ["src/c_lib/lib/angular_momentum.c:__batch_wigner_rotation"]}
{"id": "C40", "title": "Physical quantities survive a save/load cycle", "statement": "Serialising a Site, SpinSystem, Event, SpectralDimension or Method with units and parsing the result back yields an equal object.", "quantifier": "every valid object, every subset of optional attributes set", "why_tests_cant": "all attribute combinations", "anchors": ["src/mrsimulator/utils/parseable.py", "src/mrsimulator/spin_system/site.py", "src/mrsimulator/spin_system/coupling.py", "src/mrsimulator/method/__init__.py", "src/mrsimulator/simulator/__init__.py:Simulator.json,parse_dict_with_units"]}
{"id": "C41", "title": "Reduced dictionaries drop exactly the excluded and unset entries", "statement": "reduced_dict removes, at every level of nesting, exactly the excluded keys and the keys holding None, writes isotopes as their symbols, and keeps everything else unchanged and in order.", "quantifier": "every dictionary", "why_tests_cant": "nested data of any shape", "anchors": ["src/mrsimulator/utils/extra.py:_reduce_dict"]}
{"id": "C42", "title": "Method-level attributes are defaults for the events", "statement": "magnetic_flux_density, rotor_frequency and rotor_angle given at method level apply to every event of every spectral dimension that does not set its own value, and never override one that does; expansion is idempotent.", "quantifier": "every method dictionary, any number of dimensions and events", "why_tests_cant": "unbounded nested input", "anchors": ["src/mrsimulator/method/utils.py:expand_spectral_dimension_object"]}
{"id": "C43", "title": "Method templates: attribute precedence", "statement": "Generating a method from a template, an event attribute takes the value given in the event, else the keyword argument, else the template value.", "quantifier": "every template, keyword arguments and events", "why_tests_cant": "all override combinations", "anchors": ["src/mrsimulator/methods/utils.py:generate_method_from_template"]}
{"id": "C44", "title": "Transition lists only hold transitions", "statement": "After any sequence of the list operations, every element of a TransitionList is a Transition.", "quantifier": "every sequence of operations on every list", "why_tests_cant": "all operation histories", "anchors": ["src/mrsimulator/transition/__init__.py:TransitionList", "src/mrsimulator/utils/abstract_list.py:AbstractList"]}
{"id": "C45", "title": "Transition filters are exact", "statement": "TransitionList.filter(P, D) returns exactly the transitions whose P (D) values match the request, in order.", "quantifier": "every transition list and request", "why_tests_cant": "all lists", "anchors": ["src/mrsimulator/transition/__init__.py:TransitionList.filter", "src/mrsimulator/transition/base.py"]}
{"id": "C46", "title": "Fitting parameter names round-trip", "statement": "Encoding an attribute path of a spin system to a parameter name and decoding it returns the same path, and different paths get different names.", "quantifier": "every spin system index, site index and attribute", "why_tests_cant": "unbounded indexes, injectivity", "anchors": ["src/mrsimulator/utils/spectral_fitting.py:_str_encode,_str_decode"]}
{"id": "C47", "title": "Fitted abundances add up to one hundred percent", "statement": "make_LMFIT_params scales the abundances to a total of 100 and defines the last one as 100 minus the others, so for every assignment the parameters add up to 100.", "quantifier": "every list of spin systems with positive total abundance", "why_tests_cant": "all lists and all later parameter values", "anchors": ["src/mrsimulator/utils/spectral_fitting.py:_traverse_dictionaries,make_LMFIT_params"]}
{"id": "C48", "title": "Spin-system generation broadcasts and filters correctly", "statement": "single_site_system_generator returns, in order, one spin system per entry with abundance above the cutoff, scalars being broadcast; arrays of different lengths are rejected.", "quantifier": "every combination of scalar and array arguments", "why_tests_cant": "unbounded array lengths", "anchors": ["src/mrsimulator/utils/collection.py:single_site_system_generator"]}
{"id": "C49", "title": "Signal processing applies the operations in order", "statement": "Applying a list of operations equals applying them one after another; scaling multiplies every component; apodization multiplies only the selected dependent variables.", "quantifier": "every operation list and dataset", "why_tests_cant": "all lists of operations", "anchors": ["src/mrsimulator/signal_processing/__init__.py:SignalProcessor.apply_operations"]}
{"id": "C50", "title": "Haeberlen parameters and principal components are inverse", "statement": "Converting (zeta, eta) to principal components and back returns (zeta, eta); for any traceless tensor eta lies in [0,1] and |zeta| is the largest component.", "quantifier": "every zeta != 0, eta in [0,1]; every traceless triple", "why_tests_cant": "continuous inputs", "anchors": ["src/mrsimulator/models/utils.py:get_principal_components,get_Haeberlen_components"]}
{"id": "C51", "title": "Extended Czjzek keeps the dominant tensor", "statement": "The extended Czjzek model perturbs the dominant tensor the user supplied, including axially symmetric ones.", "quantifier": "every dominant tensor", "why_tests_cant": "all parameter values", "anchors": ["src/mrsimulator/models/czjzek.py:ExtCzjzekDistribution.rvs"]}
{"id": "C52", "title": "Unique sites", "statement": "Simulator.sites lists every distinct site of the spin systems once, in order of first appearance.", "quantifier": "every list of spin systems", "why_tests_cant": "unbounded lists", "anchors": ["src/mrsimulator/simulator/__init__.py:Simulator.sites"]}
{"id": "C53", "title": "Isotope listing", "statement": "get_isotopes returns exactly the isotopes present (with the requested spin), sorted, without duplicates.", "quantifier": "every list of spin systems and spin filter", "why_tests_cant": "unbounded lists", "anchors": ["src/mrsimulator/simulator/__init__.py:Simulator.get_isotopes", "src/mrsimulator/spin_system/__init__.py:SpinSystem.get_isotopes"]}
{"id": "C54", "title": "Isotope strings normalise idempotently", "statement": "Formatting an isotope string gives a known isotope symbol or an error, formatting a formatted symbol changes nothing, and white space between mass number and element is ignored.", "quantifier": "every string", "why_tests_cant": "all strings", "anchors": ["src/mrsimulator/spin_system/isotope.py:format_isotope_string"]}
{"id": "C55", "title": "Table trigonometry stays in bounds", "statement": "The table-based sine and cosine used for sideband phases and rotations only read inside their tables and are 2*pi-periodic and even/odd like the functions they replace.", "quantifier": "every angle", "why_tests_cant": "all real inputs", "anchors": ["src/c_lib/include/vm.h:get_cos_sin_from_table,vm_double_complex_exp_imag_only", "src/c_lib/include/tables/trig.h"]}
{"id": "C56", "title": "Every event has an initialised spinning plan", "statement": "Every event of a method is simulated with a plan built for its own rotor frequency and angle.", "quantifier": "every sequence of events", "why_tests_cant": "all combinations of equal/different rotor settings", "anchors": ["src/c_lib/lib/method.c:MRS_set_event"]}
{"id": "C57", "title": "Dimensions read from a dataset describe the same axis", "statement": "get_spectral_dimensions of a CSDM dataset gives count, width and offset whose coordinates equal the dataset's coordinates.", "quantifier": "every dimension with positive or negative increment, any count, complex_fft or not", "why_tests_cant": "all counts (parity) and increments", "anchors": ["src/mrsimulator/utils/__init__.py:get_spectral_dimensions"]}
{"id": "C58", "title": "Nested attribute flattening is lossless", "statement": "flatten_dict maps different nested attributes of a site to different keys.", "quantifier": "every nested dictionary", "why_tests_cant": "nesting depth unbounded", "anchors": ["src/mrsimulator/utils/__init__.py:flatten_dict"]}
{"id": "C59", "title": "The spectrum of one spin system", "statement": "Running one spin system that holds the method's channel yields, in every bin, the sum over its transition pathways (the user supplied ones when given) of the pathway's contribution times the abundance over the normalisation, with the axis reversed for a negative gyromagnetic ratio; a system without any pathway raises ValueError.", "quantifier": "every spin system, method and pathway list", "why_tests_cant": "unbounded pathway lists and spectra", "anchors": ["src/c_lib/base/base_model.pyx:one_d_spectrum"]}
{"id": "C60", "title": "Orientation phases are unit phases", "statement": "For every powder orientation exp(I alpha) and exp(I beta) have modulus one and reproduce the direction cosines.", "quantifier": "every orientation of every integration density", "why_tests_cant": "unbounded density", "anchors": ["src/c_lib/lib/octahedron.c:octahedronGetComplexExpOfPolarAngleOverOctant"]}
{"id": "C61", "title": "The spectral window only crops a sideband pattern", "statement": "The powder pattern of every sideband is cropped by the window: bins of a narrower window equal the same bins of a wider one, also when the centre of a sideband lies outside the narrower window.", "quantifier": "every pattern, number of sidebands, pair of windows", "why_tests_cant": "continuous inputs, all window positions", "anchors": ["src/c_lib/lib/frequency_averaging.c:__1D_averaging"]}
{"id": "C62", "title": "Only a pattern without dispersion is treated as a single peak", "statement": "A powder pattern is collapsed to a single delta peak only if all its orientations have the same frequency.", "quantifier": "every integration density and set of frequencies", "why_tests_cant": "all frequency sets", "anchors": ["src/c_lib/lib/frequency_averaging.c:__1D_averaging"]}
{"id": "C63", "title": "A resonance appears at its chemical shift on the reported axis", "statement": "For a spin with only an isotropic shift the whole signal is in the bin whose reported coordinate is shift times the Larmor frequency, for either sign of the gyromagnetic ratio, and the ppm coordinate of that bin is the shift.", "quantifier": "every dimension, field, gyromagnetic ratio, shift, integration density and weights", "why_tests_cant": "all sizes and offsets, both signs", "anchors": ["src/c_lib/lib/mrsimulator.c", "src/c_lib/base/base_model.pyx", "src/mrsimulator/method/spectral_dimension.py:coordinates_Hz_to_ppm"]}
{"id": "C64", "title": "The sideband phase factor is exp(i phase)", "statement": "The phase factor whose Fourier transform gives the sideband intensities is exp(i phase) for every phase, positive or negative, up to the table accuracy.", "quantifier": "every phase", "why_tests_cant": "all real inputs", "anchors": ["src/c_lib/include/vm.h:vm_double_complex_exp_imag_only", "src/c_lib/lib/mrsimulator.c:MRS_get_amplitudes_from_plan"]}
{"id": "C65", "title": "The rotation matrices are Wigner's", "statement": "The second and fourth rank matrices and the rotor angle vector are the Wigner small-d elements of the angle, and successive rotations about the same axis add.", "quantifier": "every angle and every pair of components", "why_tests_cant": "all real angles; a few tabulated values do not fix polynomials in two variables", "anchors": ["src/c_lib/lib/angular_momentum.c:__wigner_d_matrices_from_exp_I_beta", "src/c_lib/lib/angular_momentum.c:wigner_dm0_vector"]}
{"id": "C66", "title": "Frequency constants are accurate", "statement": "The eighteen decimal constants in the spin transition and spatial tensor functions equal the square-root expressions of the documentation to a relative 4e-10.", "quantifier": "all eighteen constants", "why_tests_cant": "irrational numbers; a test compares rounded values", "anchors": ["src/c_lib/include/frequency/spin_transition_functions.h", "src/c_lib/include/frequency/spatial_orientation_tensor_components.h"]}
{"id": "C67", "title": "The default rotor angle is the magic angle", "statement": "With the default rotor angle second-rank interactions contribute less than 1e-9 of their size to the centre-band frequency, for every tensor and orientation; at angle zero (static samples) they contribute fully.", "quantifier": "every tensor, orientation", "why_tests_cant": "all tensors and orientations", "anchors": ["src/mrsimulator/method/event.py:BaseEvent.rotor_angle", "src/c_lib/lib/mrsimulator.c:MRS_get_normalized_frequencies_from_plan"]}
{"id": "C68", "title": "The sideband phase is the integral of the modulated frequency", "statement": "The phase used for the sideband amplitudes at step s of N is 2 pi times the integral of the rotor-modulated part of the frequency from time 0 to s/N of the rotor period.", "quantifier": "every real second and fourth rank tensor, rotor angle, rotor frequency, number of sidebands and step", "why_tests_cant": "an integral over a continuum for all tensors", "anchors": ["src/c_lib/lib/mrsimulator.c:MRS_get_amplitudes_from_plan,__get_components"]}
{"id": "C69", "title": "Intensity does not depend on the number of sidebands", "statement": "The total intensity of an orientation over all sidebands does not depend on the number of sidebands, for any number of events and dimensions.", "quantifier": "every number of sidebands, event list and dimension", "why_tests_cant": "all sideband numbers and phases", "anchors": ["src/c_lib/lib/frequency_averaging.c", "src/c_lib/lib/mrsimulator.c:MRS_create_plan"]}
{"id": "C70", "title": "Bloch decay methods select exactly the single-quantum (central) transitions", "statement": "BlochDecaySpectrum selects, for a site of spin I, exactly the 2I transitions m -> m-1, each once, by increasing m; BlochDecayCTSpectrum selects exactly the central transition of half-integer spins and nothing for integer spins.", "quantifier": "every spin", "why_tests_cant": "unbounded spins", "anchors": ["src/mrsimulator/methods/methods_data.json", "src/mrsimulator/method/__init__.py:Method._get_transition_pathways_np"]}
{"id": "C71", "title": "Transition lists behave as Python lists", "statement": "On a list of transitions append adds the checked item at the end or raises and changes nothing, extend adds the items up to the first refused one, reverse reverses, clear empties and pop removes the last element. Deleting a slice, inserting, deleting, popping and assigning at an index, counted from either end, change exactly that part; an index outside the list raises an IndexError and changes nothing.", "quantifier": "every transition list and argument", "why_tests_cant": "the mixin operations run through overridden methods; lists are unbounded", "anchors": ["src/mrsimulator/transition/pathway.py:TransitionList", "src/mrsimulator/utils/abstract_list.py:AbstractList"]}
{"id": "C72", "title": "Site table", "statement": "The table of unique sites has one row per site, in order; each cell shows the value of the site's attribute or nothing when it is unset, columns that are empty throughout are left out, and every attribute of a site is shown.", "quantifier": "every list of sites, every subset of attributes set", "why_tests_cant": "columns are chosen from a fixed list; which attributes are set varies per site", "anchors": ["src/mrsimulator/simulator/__init__.py:Sites.to_pd", "src/mrsimulator/utils/__init__.py:flatten_dict"]}
{"id": "C73", "title": "Building a method does not change its arguments", "statement": "Building a method from a template leaves the caller's list of spectral dimensions unchanged, so that building twice from the same arguments gives equal methods.", "quantifier": "every template, list of spectral dimensions and keyword arguments", "why_tests_cant": "tests build each method once, with literals", "anchors": ["src/mrsimulator/methods/utils.py:generate_method_from_template"]}
{"id": "C74", "title": "Polar tensor coordinates round trip", "statement": "Converting (zeta, eta) to the x-y coordinates used by the polar option and back returns zeta exactly and eta to 1e-11; the point lies in the first quadrant at distance |zeta|.", "quantifier": "every zeta != 0 and eta in [0,1]", "why_tests_cant": "continuous inputs, and a boundary where the two branches meet", "anchors": ["src/mrsimulator/models/utils.py:x_y_from_zeta_eta,x_y_to_zeta_eta"]}
{"id": "C75", "title": "Distribution pdfs are normalised and centred on the grid", "statement": "The pdf of a tensor distribution is a table with one row per point of the second axis and one column per point of the first; its entries are non-negative and add up to one, and each is the fraction of the variates in range lying within half a grid step of the grid point. With no variate in range all entries are NaN.", "quantifier": "every grid and every list of random variates", "why_tests_cant": "grids and random variates are unbounded", "anchors": ["src/mrsimulator/models/czjzek.py:AbstractDistribution.pdf"]}
{"id": "C76", "title": "Signal processing does not change the dataset passed in", "statement": "apply_operations documents that it returns a copy of the data after applying the operations: the dataset passed in keeps its values.", "quantifier": "every operation list and dataset", "why_tests_cant": "all lists of operations and where the first Fourier transform stands in them", "anchors": ["src/mrsimulator/signal_processing/__init__.py:SignalProcessor.apply_operations"]}
{"id": "C77", "title": "The affine scale scales the coordinates of one dimension", "statement": "Applying an affine Scale multiplies every coordinate of the selected dimension by the factor and leaves the other dimensions and all components as they are.", "quantifier": "every dataset, dimension index (from either end) and non-zero factor", "why_tests_cant": "all datasets", "anchors": ["src/mrsimulator/signal_processing/affine.py:Scale.operate"]}
{"id": "C78", "title": "Apodization functions are the documented ones", "statement": "Exponential multiplies by exp(-Gamma pi |x|) and Gaussian by exp(-2 pi^2 sigma^2 x^2) of the coordinate x, whatever the units of width and coordinates.", "quantifier": "every dimension, width and unit", "why_tests_cant": "real-valued parameters and every number of points", "anchors": ["src/mrsimulator/signal_processing/apodization.py:Exponential.fn", "src/mrsimulator/signal_processing/apodization.py:Gaussian.fn"]}
{"id": "C79", "title": "The shear applies the documented phase", "statement": "Shear multiplies every selected component by exp(-2 pi i a x y) of the coordinates x and y of the two dimensions and the factor a, whatever units the three are given in.", "quantifier": "every dataset, pair of dimensions, factor and units", "why_tests_cant": "all units and coordinates", "anchors": ["src/mrsimulator/signal_processing/affine.py:Shear.operate"]}
{"id": "C80", "title": "Fit parameters of operations lead back to them", "statement": "The parameters made for a signal processor name exactly the operations with a number to fit, with their values; writing values to these names sets exactly those numbers.", "quantifier": "every operation list and assignment of values", "why_tests_cant": "all lists of operations", "anchors": ["src/mrsimulator/utils/spectral_fitting.py:_post_sim_LMFIT_params", "src/mrsimulator/utils/spectral_fitting.py:_update_post_sim_from_LMFIT_params"]}
{"id": "C81", "title": "Two-dimensional named methods honour the user's affine matrix, and SSB2D separates sidebands", "statement": "MQ-VAS, ST-VAS and SSB2D methods use a given affine matrix unchanged for every spin; SSB2D without one maps the pair (isotropic + sideband, isotropic) to (sideband, isotropic), selects the central transition in both dimensions, and is refused unless a non-zero rotor_frequency is given.", "quantifier": "every affine matrix, spin, frequency and set of arguments", "why_tests_cant": "all matrices, spins and frequencies", "anchors": ["src/mrsimulator/methods/mqvas.py:MQ_VAS.update", "src/mrsimulator/methods/stvas.py:ST_VAS.update", "src/mrsimulator/methods/ssb2d.py:SSB2D"]}
{"id": "C82", "title": "Quantities are read in any unit of their type", "statement": "Reading an object from its serialised form gives every attribute with a unit the amount that was written, converted to the unit the attribute is stored in; a quantity of another physical type, or a number without a unit, is an error; and two serialised forms that differ only by the units in which the same amounts are written give the same object.", "quantifier": "every serialised tensor, site, coupling, spin system, event, spectral dimension, method and simulator, every nesting, every unit of the table", "why_tests_cant": "tests read a few literals in one or two units", "anchors": ["src/mrsimulator/utils/parseable.py:enforce_units", "src/mrsimulator/utils/parseable.py:parse_dict_with_units", "src/mrsimulator/method/utils.py:expand_spectral_dimension_object"]}
{"id": "C83", "title": "Reading a dictionary does not change it", "statement": "Calling parse_dict_with_units on a dictionary leaves the caller's dictionary as it was, so that it can be read again with the same result.", "quantifier": "every dictionary that can be read as a tensor, a site or a coupling", "why_tests_cant": "tests read a dictionary once", "anchors": ["src/mrsimulator/utils/parseable.py:parse_dict_with_units", "src/mrsimulator/spin_system/site.py:parse_dict_with_units", "src/mrsimulator/spin_system/coupling.py:parse_dict_with_units"]}
{"id": "C84", "title": "The physical type of a width, an offset or a zeta matters", "statement": "A spectral width, an offset or a shielding zeta that is accepted in ppm and in Hz is converted, so that the same number of ppm and of Hz does not describe the same axis or tensor.", "quantifier": "every number given in ppm and in Hz", "why_tests_cant": "tests check the printed units, not the axis", "anchors": ["src/mrsimulator/method/spectral_dimension.py:SpectralDimension", "src/mrsimulator/spin_system/tensors.py:SymmetricTensor", "src/c_lib/base/base_model.pyx:one_d_spectrum"]}
{"id": "C85", "title": "Two dimensional spectra conserve amplitude and project to one dimensional ones", "statement": "A powder triangle that lies inside the two windows adds exactly its amplitude to the two dimensional spectrum, and the sum of the spectrum over the second dimension is the one dimensional spectrum of the first dimension, bin by bin.", "quantifier": "every triangle and every face of the octahedron, every grid density, every amplitude, every number of points; for the projection also triangles that stick out of the first window", "why_tests_cant": "the number of rows, sections and clipped parts is unbounded", "anchors": ["src/c_lib/lib/interpolation.c:triangle_interpolation2D", "src/c_lib/lib/interpolation.c:octahedronInterpolation2D"]}
{"id": "C86", "title": "The two dimensional interpolation is memory safe and defined", "statement": "Whatever the frequencies, the two dimensional interpolation only adds to elements of the spectrum's array and only uses values it has computed.", "quantifier": "every triangle, inside the window or not, every number of points", "why_tests_cant": "undefined behaviour depends on where the vertices fall relative to the window; a test sees whatever the stack held", "anchors": ["src/c_lib/lib/interpolation.c:triangle_interpolation2D", "src/c_lib/lib/interpolation.c:octahedronInterpolation2D"]}
{"id": "C87", "title": "A cell of a two dimensional spectrum holds the triangle's area inside it", "statement": "The amplitude a powder triangle gives to a cell of the two dimensional spectrum is in proportion to the area of the part of the triangle that lies in the cell.", "quantifier": "every triangle, every cell of the spectrum", "why_tests_cant": "the area is a real integral over an arbitrary polygon; tests compare a handful of spectra with stored results", "anchors": ["src/c_lib/lib/interpolation.c:triangle_interpolation2D", "src/c_lib/lib/interpolation.c:triangle_interpolation"]}
{"id": "C88", "title": "A two dimensional spectrum contains every pair of sidebands, every octant and every orientation", "statement": "The two dimensional spectrum of a spin system adds up to the sum over all pairs of sidebands, all octants and all triangles of the product of the sideband amplitudes of all the events and the weight of the orientation; no memory outside the arrays is read or written.", "quantifier": "every grid density, integration volume, number of sidebands, events, affine matrix, frequencies", "why_tests_cant": "sums over unbounded grids, sidebands and events", "anchors": ["src/c_lib/lib/frequency_averaging.c:two_dimensional_averaging"]}
{"id": "C89", "title": "A simulation only uses its own memory and gives it back", "statement": "A simulation never reads or writes outside of the memory it allocated, never uses memory it has released or never written, leaves everything else as it was, and has given back all it allocated when it returns or raises.", "quantifier": "every integration density and volume, number of sidebands, number of dimensions and events with any rotor frequencies and angles, every list of spin systems with any number of transition pathways, every heap the call starts from, every number of calls", "why_tests_cant": "leaks and stray accesses do not change the results a test compares; whether one happens depends on sizes, volumes and on which events share what", "anchors": ["src/c_lib/base/base_model.pyx:one_d_spectrum", "src/c_lib/lib/schemes.c:MRS_create_averaging_scheme", "src/c_lib/lib/schemes.c:MRS_free_averaging_scheme", "src/c_lib/lib/method.c:MRS_create_dimensions", "src/c_lib/lib/method.c:MRS_free_dimension", "src/c_lib/lib/mrsimulator.c:MRS_free_plan", "src/c_lib/lib/simulation.c:__mrsimulator_core", "src/c_lib/lib/frequency_averaging.c:two_dimensional_averaging"]}
{"id": "C90", "title": "Every event is simulated with the tables of its own rotor frequency and angle", "statement": "Events whose rotor frequency or rotor angle equals that of the first event of their dimension are simulated with sideband frequencies, phases and rotation elements computed from their own rotor frequency and angle, for every spin system and pathway, although the tables are shared between events.", "quantifier": "every number of dimensions and events, all rotor frequencies and angles, every grid, volume and number of sidebands, any number of spin systems and pathways simulated before", "why_tests_cant": "sharing of tables between events depends on which of them agree; a bug of aliasing only shows with three or more events or after the first pathway", "anchors": ["src/c_lib/lib/method.c:__set_event", "src/c_lib/lib/method.c:create_plans_for_events_in_dimension", "src/c_lib/lib/mrsimulator.c:MRS_copy_plan", "src/c_lib/lib/mrsimulator.c:MRS_plan_update_from_rotor_angle_in_rad", "src/c_lib/lib/mrsimulator.c:MRS_plan_update_from_sample_rotation_frequency_in_hz"]}
{"id": "C91", "title": "The simulation only reads the quantum numbers of its own transition pathways", "statement": "While a spin system is simulated, every read of the array of transition pathways - for the sites and for the couplings - is inside of that array, for every list of spin systems, whatever couplings and transition pathways the API accepted.", "quantifier": "all lists of spin systems in any order, with any isotopes, couplings and user supplied transition pathways; all methods with any numbers of events and any transition queries", "why_tests_cant": "a read outside of the array usually returns a plausible number from a neighbouring object; whether it happens depends on indexes, the number of events and on which earlier system's array is reused", "anchors": ["src/c_lib/base/base_model.pyx:one_d_spectrum", "src/c_lib/lib/simulation.c:__mrsimulator_core", "src/c_lib/lib/mrsimulator.c:MRS_rotate_single_site_interaction_components", "src/c_lib/lib/mrsimulator.c:MRS_rotate_coupled_site_interaction_components", "src/mrsimulator/spin_system/coupling.py:Coupling.validate_site_index", "src/mrsimulator/spin_system/__init__.py:SpinSystem.transition_pathways_must_include_transition"]}
{"id": "C92", "title": "A method's affine matrix always fits its spectral dimensions", "statement": "After any sequence of assignments to a method's spectral dimensions and affine matrix, the affine matrix is None or an n by n matrix with a non-zero first element, n being the number of spectral dimensions, and running the method reads and writes only inside of it.", "quantifier": "all sequences of assignments of any number of spectral dimensions and matrices of any size, all increments, any content of the memory around the matrix", "why_tests_cant": "the matrix is validated when it is assigned, the dimensions may change later; the reads are without bounds checks", "anchors": ["src/mrsimulator/method/__init__.py:Method.validate_affine_matrix", "src/c_lib/base/base_model.pyx:one_d_spectrum", "src/c_lib/lib/frequency_averaging.c:two_dimensional_averaging"]}
{"id": "C93", "title": "Every spectrum of a decomposed simulation is labelled after its own spin system", "statement": "When a simulation is decomposed by spin systems, every non-empty spectrum becomes one dependent variable, in order, holding its own data and the name, label, description and metadata of its own spin system; without decomposition none of these is attached.", "quantifier": "all lists of spin systems with any names, labels and descriptions, present, empty or missing; all lists of spectra, empty ones included", "why_tests_cant": "whether a label is wrong depends on which earlier spin systems have one; the tests look at one or two systems", "anchors": ["src/mrsimulator/simulator/__init__.py:Simulator._as_csdm_object", "src/mrsimulator/simulator/__init__.py:Simulator._update_name_description_application"]}
{"id": "C94", "title": "A method that took over the dimensions of its experiment simulates on the experiment's axes", "statement": "After update_spectral_dimension_attributes_from_experiment the simulated dataset has, dimension by dimension, the same coordinates as the experiment; if that cannot be, the call raises and changes nothing.", "quantifier": "all methods with any number of spectral dimensions, all experimental datasets with linear dimensions of any count, increment, offset, with or without complex_fft", "why_tests_cant": "one test with one dimension; order, sign and offset conventions only show for other datasets", "anchors": ["src/mrsimulator/method/__init__.py:Method.update_spectral_dimension_attributes_from_experiment", "src/mrsimulator/method/spectral_dimension.py:SpectralDimension.to_csdm_dimension", "src/mrsimulator/simulator/__init__.py:Simulator._as_csdm_object"]}
{"id": "C95", "title": "Saving is all or nothing", "statement": "When save (or export_spin_systems) returns, the file holds the whole text; when it raises or is stopped at any point, the file holds what it held before.", "quantifier": "all previous contents of the file, all texts in any pieces, failures at any place and crashes at any point", "why_tests_cant": "a crash or a failure half way is not reproduced by tests that save good objects", "anchors": ["src/mrsimulator/simulator/__init__.py:Simulator.save", "src/mrsimulator/simulator/__init__.py:Simulator.export_spin_systems"]}
{"id": "C96", "title": "A simulator can be serialised after every session", "statement": "Whatever was run and assigned before, including runs that failed, json (with the methods) and dict return.", "quantifier": "all sequences of runs of any methods, packed as datasets or not, failing at any method, and of assignments of any values to the simulation and experiment of any method; any number of methods", "why_tests_cant": "the kind of the stored simulation depends on the history of the options given to run", "anchors": ["src/mrsimulator/simulator/__init__.py:Simulator.run", "src/mrsimulator/method/__init__.py:Method.json", "src/mrsimulator/method/__init__.py:Method.dict", "src/mrsimulator/method/__init__.py:Method.validate_simulation"]}
{"id": "C97", "title": "The function a fit minimises depends on the parameters only", "statement": "An evaluation of LMFIT_min_function with values for the parameters made by make_LMFIT_params sets every attribute of the simulator and every operation of the processor to its value, and returns (experiment - processed simulation) / sigma for these. The result is the same after any earlier evaluations with other values, also those that raised.", "quantifier": "all spin systems with any attributes, all lists of operations, all values, all sequences of earlier evaluations, any outcome of each run", "why_tests_cant": "a minimiser calls the function hundreds of times on the same mutable objects; a test evaluates it on fresh objects", "anchors": ["src/mrsimulator/utils/spectral_fitting.py:LMFIT_min_function", "src/mrsimulator/utils/spectral_fitting.py:_set_simulator_object_value", "src/mrsimulator/utils/spectral_fitting.py:_update_post_sim_from_LMFIT_params"]}
{"id": "C98", "title": "A fit does not depend on decompose_spectrum", "statement": "The difference returned by LMFIT_min_function is the same whether the spectrum is decomposed by spin systems, processed and added up, or processed as a whole.", "quantifier": "all lists of operations, all datasets of any number of spin systems, all experiments and sigma", "why_tests_cant": "needs that every operation commutes with adding up any number of spectra", "anchors": ["src/mrsimulator/utils/spectral_fitting.py:LMFIT_min_function", "src/mrsimulator/signal_processing/__init__.py:SignalProcessor.apply_operations"]}
{"id": "C99", "title": "A signal processor is read back from its serialisation", "statement": "SignalProcessor.parse_dict_with_units(p.json()) is a processor equal to p: the same operations in the same order, with the same widths, factors, units and indexes.", "quantifier": "all lists of operations of every kind, any numbers, units, dimension and variable indexes, in a process that imported any of the submodules", "why_tests_cant": "the tests read back one processor with units in the process that made it", "anchors": ["src/mrsimulator/signal_processing/__init__.py:SignalProcessor.parse_dict_with_units", "src/mrsimulator/signal_processing/__init__.py:SignalProcessor.json", "src/mrsimulator/signal_processing/_base.py:AbstractOperation", "src/mrsimulator/signal_processing/utils.py:_str_to_quantity", "src/mrsimulator/utils/parseable.py:Parseable.json"]}
{"id": "C100", "title": "Interpolating machine numbers never writes outside the spectrum", "statement": "Adding a triangle (three frequencies and an amplitude, all doubles) to a spectrum of any size, in one or two dimensions, changes no memory outside the spectrum, whatever the frequencies: huge, infinite or NaN, and however the compiler reorders the arithmetic.", "quantifier": "all triples of doubles, all numbers of points, both ways processors cast doubles out of the range of int, any rounding or reordering of sums, products and quotients", "why_tests_cant": "the tests use a few frequencies of ordinary size on one processor and one compiler", "anchors": ["src/c_lib/lib/interpolation.c:delta_fn_interpolation", "src/c_lib/lib/interpolation.c:triangle_interpolation", "src/c_lib/lib/interpolation.c:triangle_interpolation1D", "src/c_lib/lib/interpolation.c:triangle_interpolation2D", "setup.py"]}
{"id": "C101", "title": "Cosy and Inadequate select the pathways of their experiments", "statement": "On any spin system with sites of the channel's isotope, Cosy selects exactly the pairs of transitions that each lower the quantum number of one such site by one and change nothing else; Inadequate selects exactly the pairs of a transition lowering two such sites together and one lowering one. Every pathway appears once. A system that has no such pathway contributes nothing.", "quantifier": "all spin systems: any number of sites, isotopes in any order, any spins", "why_tests_cant": "the tests use one system of two spin-1/2 sites; the number of transitions grows exponentially with the sites", "anchors": ["src/mrsimulator/methods/correlation.py:Cosy.update", "src/mrsimulator/methods/correlation.py:Inadequate.update", "src/mrsimulator/method/transition_query.py:query_permutations", "src/mrsimulator/method/__init__.py:Method._get_transition_pathways_np"]}
{"id": "C102", "title": "Sites, couplings and spin systems stay valid in every session", "statement": "Whatever tensors, sites, couplings and spin systems are made, and whatever is assigned to their attributes, in any order: a site with a quadrupolar tensor has a nucleus of spin 1 or more, an asymmetry lies in [0, 1], a coupling names two different sites, an abundance lies in [0, 100]. A statement that raises changes nothing. Assigning None removes a tensor.", "quantifier": "all sessions: any number of objects and statements, objects shared between each other, failed statements in between, any of the three ways pydantic versions copy arguments", "why_tests_cant": "the tests check single constructions and assignments, never histories of them or shared tensors", "anchors": ["src/mrsimulator/spin_system/site.py:Site", "src/mrsimulator/spin_system/coupling.py:Coupling", "src/mrsimulator/spin_system/tensors.py:SymmetricTensor", "src/mrsimulator/spin_system/__init__.py:SpinSystem.abundance"]}
{"id": "C103", "title": "A tensor is serialised with the units of its use", "statement": "In every session the serialisation of a site or a coupling gives its shielding anisotropy in ppm, its quadrupolar coupling constant, J anisotropy and dipolar coupling constant in Hz and all angles in rad, whatever else was done with the tensor objects.", "quantifier": "all sessions as in C102", "why_tests_cant": "the tests give a fresh tensor to every field", "anchors": ["src/mrsimulator/spin_system/site.py:Site.spin_must_be_at_least_one", "src/mrsimulator/spin_system/site.py:Site.shielding_symmetric_must_not_contain_Cq_and_D", "src/mrsimulator/spin_system/coupling.py:Coupling.j_symmetric_must_not_contain_Cq_and_D", "src/mrsimulator/spin_system/coupling.py:Coupling.dipolar_must_not_contain_Cq_and_zeta", "src/mrsimulator/utils/parseable.py:Parseable.json"]}
{"id": "C104", "title": "A saved named method is read back as the same method by its class", "statement": "A method made by one of the named classes (BlochDecaySpectrum, BlochDecayCTSpectrum, Method1D, Method2D, ThreeQ_VAS, FiveQ_VAS, SevenQ_VAS, ST1_VAS, ST2_VAS, SSB2D) is, after being saved and read by Simulator.parse_dict_with_units, equal to what was saved: dimensions, events, transition queries, affine matrix, channels, texts and attached data, although the file has no queries and leaves out what the events share.", "quantifier": "all classes, all keyword arguments with any dimensions and events given as dicts, all Method objects with the attributes of the class", "why_tests_cant": "the tests compare a few default methods", "anchors": ["src/mrsimulator/methods/utils.py:generate_method_from_template", "src/mrsimulator/methods/utils.py:prepare_method_structure", "src/mrsimulator/methods/utils.py:check_for_at_least_one_event", "src/mrsimulator/methods/base.py:Method2D", "src/mrsimulator/methods/mqvas.py:MQ_VAS.update", "src/mrsimulator/methods/stvas.py:ST_VAS.update", "src/mrsimulator/methods/ssb2d.py:SSB2D", "src/mrsimulator/method/__init__.py:Method.json", "src/mrsimulator/simulator/__init__.py:Simulator.parse_dict_with_units"]}
{"id": "C105", "title": "A method of a two-dimensional class always selects the symmetries of the class", "statement": "Whatever keyword arguments are given and whatever a file says about transition queries, a method of ThreeQ_VAS, FiveQ_VAS, SevenQ_VAS, ST1_VAS, ST2_VAS or SSB2D under the name of its class has in the first event of each of its two dimensions the P and D symmetries of the class for the spin of its first channel, the description of the class and an affine matrix.", "quantifier": "all keyword arguments, all dicts read", "why_tests_cant": "the tests look at the queries of a few methods made from default arguments", "anchors": ["src/mrsimulator/methods/mqvas.py:MQ_VAS.update", "src/mrsimulator/methods/stvas.py:ST_VAS.update", "src/mrsimulator/methods/ssb2d.py:SSB2D.update", "src/mrsimulator/methods/base.py:Method2D"]}
{"id": "C106", "title": "Attributes that are left out have their documented default values", "statement": "Whatever other attributes are given, by keyword or in a serialised form, an attribute of a tensor, site, coupling, spin system, transition query, event, spectral dimension, method, configuration or simulator that is not given has the default value of the documentation (isotope 1H, shift 0, abundance 100 %, 9.4 T, rotor frequency 0, magic angle, all frequency contributions, 1024 points, 25 kHz, 64 sidebands, density 70, octant, ...). The same for the operations of a signal processor.", "quantifier": "every class, every set of given attributes with every value", "why_tests_cant": "a test leaves out one attribute with one choice of the others", "anchors": ["src/mrsimulator/spin_system/tensors.py:SymmetricTensor", "src/mrsimulator/spin_system/site.py:Site", "src/mrsimulator/spin_system/coupling.py:Coupling", "src/mrsimulator/spin_system/__init__.py:SpinSystem", "src/mrsimulator/method/event.py:Event", "src/mrsimulator/method/spectral_dimension.py:SpectralDimension", "src/mrsimulator/method/__init__.py:Method", "src/mrsimulator/simulator/config.py:ConfigSimulator", "src/mrsimulator/method/transition_query.py:TransitionQuery"]}
{"id": "C107", "title": "Values outside the documented ranges are refused", "statement": "An object that is made by its constructor or read from a serialised form has its attributes in the documented ranges: eta within 0 and 1, abundance within 0 and 100 %, two different site indices of a coupling, a flux density and rotor frequency that are not negative, a rotor angle from 0 to pi/2, contributions of the enumeration, a positive number of points and width, positive sidebands and density, a known volume and decomposition. A value within the range is accepted and kept as given; one outside is a ValueError.", "quantifier": "every attribute with every value", "why_tests_cant": "the tests try a few values on either side", "anchors": ["src/mrsimulator/spin_system/tensors.py:SymmetricTensor", "src/mrsimulator/spin_system/site.py:Site", "src/mrsimulator/spin_system/coupling.py:Coupling", "src/mrsimulator/spin_system/__init__.py:SpinSystem", "src/mrsimulator/method/event.py:Event", "src/mrsimulator/method/spectral_dimension.py:SpectralDimension", "src/mrsimulator/method/__init__.py:Method", "src/mrsimulator/simulator/config.py:ConfigSimulator", "src/mrsimulator/method/transition_query.py:TransitionQuery"]}
{"id": "C108", "title": "Euler angles turn the tensors as rotations of space do", "statement": "The Euler angles of a shielding, quadrupolar, J or dipolar tensor, and the orientations of the powder average, act on the tensors as rotations of space: the spherical components that the library computes are those of the tensor along axes turned by alpha about z, beta about y and gamma about z, and zeta and eta are the principal values in the convention of Haeberlen, up to the rounding of its constants and tables.", "quantifier": "every traceless symmetric tensor, every alpha, beta in [0, 2 pi), gamma", "why_tests_cant": "a test compares a few rotations with numbers of the same convention", "anchors": ["src/c_lib/lib/angular_momentum.c", "src/c_lib/include/frequency/frequency_tensor_components.h", "src/c_lib/include/frequency/spin_transition_functions.h", "src/c_lib/include/frequency/spatial_orientation_tensor_components.h"]}
{"id": "C109", "title": "The frequency of a static event is the difference of two energies of the spin system", "statement": "In every orientation of a crystallite the frequency that the library gives a transition of a spin system with any sites, spins, shieldings, quadrupolar, J and dipolar couplings is the difference of the energies of the two states: Larmor frequency times shift and shielding along the field, first and second order perturbation theory of the quadrupolar Hamiltonian with the spin matrices, J and dipolar couplings.", "quantifier": "every spin system, field, pair of states, orientation", "why_tests_cant": "the tests compare spectra of a few systems with other programs", "anchors": ["src/c_lib/lib/angular_momentum.c", "src/c_lib/include/frequency/frequency_tensor_components.h", "src/c_lib/include/frequency/spin_transition_functions.h", "src/c_lib/include/frequency/spatial_orientation_tensor_components.h"]}
{"id": "C110", "title": "The frequency of a spinning sample is the mean of the energy differences over a turn of the rotor", "statement": "For a sample that spins at any angle to the field, the frequency of an event without its sidebands is the mean over a turn of the rotor of the differences of the energies of the two states; the frequency of a spectral dimension in every orientation is the sum of these over its events, weighted with their fractions.", "quantifier": "every spin system, field, pathway, rotor angle, orientation, number of dimensions and events", "why_tests_cant": "the tests compare spectra at the magic angle and a few others", "anchors": ["src/c_lib/lib/angular_momentum.c", "src/c_lib/include/frequency/frequency_tensor_components.h", "src/c_lib/include/frequency/spin_transition_functions.h", "src/c_lib/include/frequency/spatial_orientation_tensor_components.h"]}
{"id": "C111", "title": "Spinning sidebands are those of the energies as the rotor turns", "statement": "For a spinning event and any spin system, transition, orientation, rotor angle and rotor frequency, the phase that produces the sidebands at step s of nsb is 2 pi times the integral over s/nsb of the rotor period of the difference of the energies of the two states minus its mean over the turn, up to the stated tolerance of the constants; and the relative intensity of every sideband is that of the Fourier transform of the exponential of this phase.", "quantifier": "all spin systems, couplings, transitions, orientations, rotor angles, positive rotor frequencies, numbers of sidebands, steps and sidebands", "why_tests_cant": "A test compares a few patterns with a reference program; the claim is for every spin system, orientation and rotor frequency, and is about an integral over a continuous time.", "anchors": ["src/c_lib/lib/mrsimulator.c: MRS_get_amplitudes_from_plan, __get_components, MRS_plan_update_from_rotor_frequency_in_Hz", "src/c_lib/lib/frequency_component_generators.c", "src/c_lib/lib/angular_momentum.c: __wigner_rotation_2, wigner_dm0_vector"]}
{"id": "C112", "title": "The centre of gravity of a powder pattern", "statement": "The spectrum that one spin system contributes through one event has its centre of gravity where the frequencies put it: within half a bin of the mean of the orientations' frequencies, each triangle of neighbouring orientations counting with the weight of its vertices and each sideband at its own place; in particular it cannot leave the interval of the frequencies by more than half a bin.", "quantifier": "all grid densities, octants, sidebands, frequencies inside the spectral window, weights (of either sign for the moment, not negative for the centre), offsets and numbers of bins", "why_tests_cant": "A test compares a few simulated patterns; the claim is for all frequencies and weights on grids of every density, with vertices falling anywhere relative to the bins.", "anchors": ["src/c_lib/lib/interpolation.c: triangle_interpolation, __triangle_interpolation, delta_fn_interpolation, octahedronInterpolation", "src/c_lib/lib/frequency_averaging.c: one_dimensional_averaging"]}
{"id": "C113", "title": "Single elements of the Wigner matrices", "statement": "The documented function for a single element, given a rank, two orders and an angle, returns the Wigner small-d element of that rank, orders and angle; successive rotations about the axis add.", "quantifier": "all ranks, orders and angles", "why_tests_cant": "The function is marked as not tested; a test would compare a few ranks and angles, the claim is for every rank and every real angle.", "anchors": ["src/c_lib/lib/angular_momentum.c: wigner_d_element, wigner_d_element_from_exp_I_beta, generic_wigner_d_element, fac, my_power", "src/c_lib/include/angular_momentum.h"]}
{"id": "C114", "title": "The field and the rotor given to a named method are those of its events", "statement": "When a named method is made or read without events, every spectral dimension has exactly one event, with the magnetic flux density, rotor angle, rotor frequency and fraction of the call or of the dict, converted to T, rad and Hz, and with the defaults of the class for what is not given: 9.4 T, 0.9553 rad, and a rotor frequency of 0 for the one-dimensional and 1e12 Hz for the two-dimensional classes; SSB2D has the given rotor frequency in its first dimension only.", "quantifier": "all keyword arguments and dicts without events, every class", "why_tests_cant": "Tests make a few methods with a few numbers; the claim is for every combination of arguments, units and classes.", "anchors": ["src/mrsimulator/methods/utils.py: generate_method_from_template, gen_event, fix_strings_in_events, check_rotor_frequency", "src/mrsimulator/methods/base.py: BaseNamedMethod2D", "src/mrsimulator/methods/ssb2d.py: SSB2D", "src/mrsimulator/method/event.py: Event", "src/mrsimulator/method/utils.py: expand_spectral_dimension_object"]}
{"id": "C115", "title": "Methods, simulators and lists compare equal exactly when they are the same", "statement": "m1 == m2 is True exactly when every attribute of the two methods is the same, with affine matrices compared by their elements; the same for two simulators; == on the lists of the library (sites, transitions, pathways) is True exactly for the same class and the same items; the order of the operands does not matter and no comparison raises.", "quantifier": "all pairs of methods with any affine matrix the validator accepts and any stored result, all pairs of simulators, all pairs of lists", "why_tests_cant": "Tests compare a few objects that differ in one attribute; numpy broadcasting and stored arrays make the answer depend on shapes, which tests do not range over.", "anchors": ["src/mrsimulator/method/__init__.py: Method.__eq__, validate_affine_matrix", "src/mrsimulator/simulator/__init__.py: Simulator.__eq__", "src/mrsimulator/utils/abstract_list.py: AbstractList.__eq__"]}
{"id": "C116", "title": "The centre of gravity of a powder pattern of first order is the isotropic frequency at every integration density", "statement": "For shieldings, quadrupolar couplings of first order, J and dipolar couplings with any orientations, the weighted average over the orientations of the simulator of the frequency of a transition is the frequency of the isotropic parts alone: exactly, for every integration density, for a static sample and for the mean over a turn of a rotor at any angle. Hence the centre of gravity of the spectrum does not move when the density is raised.", "quantifier": "all integration densities from 1, all spin systems with any number of sites and couplings and any Euler angles, all pairs of states, all rotor angles; integration over an octant or the hemisphere", "why_tests_cant": "Tests compare a few line shapes at one density with stored spectra to a tolerance; that the average vanishes identically at every density, and for which volumes and ranks it does, is a statement about all grids and tensors.", "anchors": ["src/c_lib/lib/octahedron.c: octahedronGetDirectionCosineSquareAndWeightsOverOctant", "src/c_lib/lib/schemes.c: MRS_create_averaging_scheme", "src/c_lib/lib/interpolation.c: octahedronInterpolation, octahedronDeltaInterpolation", "src/c_lib/lib/simulation.c: mrsimulator_core", "src/mrsimulator/simulator/config.py: ConfigSimulator"]}
{"id": "C117", "title": "Raising the integration density converges the powder average to the average over all directions", "statement": "For every quantity that depends on the direction of the field in the crystallite without jumps, the weighted average over the orientations of the simulator differs from the integral over the sphere by at most a constant, which depends on the quantity only, divided by the integration density. This holds for the frequencies of every spin system with first and second order in a static sample; the centre of gravity of the spectrum converges with it to the mean frequency.", "quantifier": "all integration densities from 1, all quantities with a bounded slope on the unit sphere, all spin systems with any number of sites and couplings, any Euler angles and second-order quadrupolar shifts, all pairs of states; integration over an octant or the hemisphere", "why_tests_cant": "Tests compare spectra at one or two densities with stored ones; convergence is a statement about all densities at once, and its limit is an integral that no run computes.", "anchors": ["src/c_lib/lib/octahedron.c: octahedronGetDirectionCosineSquareAndWeightsOverOctant", "src/c_lib/lib/schemes.c: MRS_create_averaging_scheme", "src/c_lib/lib/interpolation.c: octahedronInterpolation", "src/mrsimulator/simulator/config.py: ConfigSimulator.integration_density"]}
{"id": "C118", "title": "The centre of gravity of a quadrupolar powder pattern goes to the isotropic shift plus the quadrupolar induced shift, at every rotor angle", "statement": "With the quadrupolar interaction to second order, the average over all directions of the frequency of any transition is the frequency of the isotropic parts plus the quadrupolar induced shift, a closed formula in Cq, eta, the spin and the states; for the central transition it is -(3/40)(Cq^2/nu0)(I(I+1)-3/4)/(I^2(2I-1)^2)(1+eta^2/3). It depends neither on the Euler angles nor on the rotor angle, nor on whether the sample spins. The powder average of the simulator, and the centre of gravity of the spectrum, converge to it as one over the integration density.", "quantifier": "all spins, all transitions, all spin systems with any number of sites and couplings, all Cq, eta and Euler angles, all rotor angles, all integration densities from 1, integration over the hemisphere", "why_tests_cant": "Tests compare a few spectra with stored ones; that the limit is the same at every rotor angle, and is the closed formula, is a statement about integrals over all directions and all spins.", "anchors": ["src/c_lib/include/frequency/quadrupolar.h: FCF_2nd_order_electric_quadrupole_tensor_components_0", "src/c_lib/lib/octahedron.c: octahedronGetDirectionCosineSquareAndWeightsOverOctant", "src/c_lib/lib/interpolation.c: octahedronInterpolation", "src/c_lib/lib/simulation.c: mrsimulator_core"]}
{"id": "C119", "title": "The shape of the simulated powder pattern goes to the distribution of the frequency over all directions", "statement": "Seen through any function F of the position with bounded slope, the spectrum divided by its total differs from the average over all directions of F of the frequency by at most the slope of F times half a bin, the rounding of frequencies and weights, and a constant over the integration density. So the whole line shape, not only its centre of gravity, is that of a powder in which all directions are equally likely. For any number of sidebands, and weights of either sign, every triangle acts as its weight at the positions of its vertices, to half a bin and its width.", "quantifier": "all functions F of bounded slope, all integration densities from 1, all spin systems with any number of sites and couplings, all Euler angles, static or spinning at infinite speed at any angle, all windows that hold the frequencies; for the statement about one pattern, all numbers of octants and sidebands and all amplitudes", "why_tests_cant": "A comparison with a stored spectrum is at one density and through no function; convergence of a distribution quantifies over all densities and all functions of the position.", "anchors": ["src/c_lib/lib/interpolation.c: octahedronInterpolation, triangle_interpolation1D_linear", "src/c_lib/lib/octahedron.c: octahedronGetDirectionCosineSquareAndWeightsOverOctant", "src/c_lib/lib/simulation.c: mrsimulator_core"]}
{"id": "C120", "title": "The powder pattern does not depend on the frame in which a spin system is described", "statement": "Turning all the tensors of a spin system (shielding, quadrupolar, J and dipolar) by one common rotation leaves the distribution of the frequency of every transition over all directions unchanged, static or averaged over a turn of the rotor at any angle, first and second order. The Euler angles in the turned frame always exist. The spectra the code makes of the two descriptions agree, through any function of bounded slope, to half bins, rounding, and a constant over the integration density; at a finite density they do differ.", "quantifier": "all rotations, all spin systems with any number of sites and couplings, all transitions, all rotor angles, all functions of bounded slope, all integration densities from 1, integration over the hemisphere", "why_tests_cant": "A test compares the spectra of a few rotated systems at one density; independence of the frame is over all rotations and systems and holds only in the limit.", "anchors": ["src/c_lib/lib/simulation.c: mrsimulator_core", "src/c_lib/lib/frequency_averaging.c: one_dimensional_averaging", "src/c_lib/lib/angular_momentum/wigner_matrix.c: single_wigner_rotation", "src/c_lib/lib/octahedron.c: octahedronGetDirectionCosineSquareAndWeightsOverOctant"]}
{"id": "C121", "title": "A simulator saved and loaded without units comes back the same", "statement": "Saving a simulator with with_units=False and loading the file with parse_units=False returns an equal simulator: the same spin systems, methods (with queries, events, simulation and experiment datasets) and configuration, for every simulator a user can build or read.", "quantifier": "all simulators whose spin systems, methods and configuration were read from dicts or built from attributes; any number of sites, couplings, dimensions and events; any simulation and experiment dataset", "why_tests_cant": "A test saves one simulator; which attributes are lost, and which simulators cannot be saved at all, depends on every unit, query, matrix and nested dict of the object.", "anchors": ["src/mrsimulator/simulator/__init__.py: Simulator.save, Simulator.load, Simulator.reduced_dict", "src/mrsimulator/utils/extra.py: _reduce_dict", "src/mrsimulator/method/__init__.py: Method.dict"]}
{"id": "C122", "title": "Exported spin systems are loaded again", "statement": "Spin systems written with export_spin_systems and read into any simulator with load_spin_systems are the same spin systems, in the same order, in place of the ones it had; all else in that simulator stays. Exporting what was loaded writes the same file. A file that cannot be read, or holds something else, leaves the simulator as it was.", "quantifier": "all lists of spin systems that were read or built; all simulators into which they are loaded; all JSON files", "why_tests_cant": "A test exports one list and loads it; the claim is about every spin system, every file (also those of another kind) and every simulator it is loaded into.", "anchors": ["src/mrsimulator/simulator/__init__.py: Simulator.export_spin_systems, Simulator.load_spin_systems", "src/mrsimulator/spin_system/__init__.py: SpinSystem.parse_dict_with_units", "src/mrsimulator/utils/parseable.py: Parseable.json"]}
{"id": "C123", "title": "The shape of a pattern of spinning sidebands goes to that over all directions", "statement": "When the sidebands of a spectrum have intensities and frequencies that are functions of the direction, the spectrum divided by its total goes, as the integration density grows, to the average over all directions of the sidebands at their positions with their intensities: seen through any bounded function of the position of bounded slope it differs from it by at most half a bin, the rounding of the numbers and a multiple of one over the density. The integral of one sideband goes to the mean of its intensity over the directions.", "quantifier": "all numbers of sidebands above one, all intensities and frequencies that depend on the direction with bounded slope, all densities, windows, positions, bounded functions of the position of bounded slope", "why_tests_cant": "A test compares a few patterns at one density with stored ones; the claim is a limit, for every pattern.", "anchors": ["src/c_lib/lib/frequency_averaging.c: __1D_averaging", "src/c_lib/lib/simulation.c: __mrsimulator_core", "src/c_lib/lib/octahedron.c"]}
{"id": "C124", "title": "With more sidebands computed, their intensities go to those of the turning rotor", "statement": "For a spinning event and any spin system, transition, orientation, rotor angle and rotor frequency, the relative intensity of the sideband of any order (positive or negative) goes, as number_of_sidebands grows, to the square of the Fourier coefficient of that order of the signal of the transition while the rotor turns: it differs from it by at most the tolerance of the constants and 8 pi (B / rotor frequency + |order|) / number_of_sidebands, where B bounds how far the frequency goes from its mean in a turn. These intensities are at most one together, and without anisotropy all intensity is in the centreband.", "quantifier": "all spin systems, couplings, transitions, orientations, rotor angles, positive rotor frequencies, numbers of sidebands and orders", "why_tests_cant": "A test compares a few patterns at one number of sidebands with a reference program; the claim is a limit with an explicit error, for every spin system and order.", "anchors": ["src/c_lib/lib/mrsimulator.c: MRS_get_amplitudes_from_plan, MRS_plan_update_from_rotor_frequency_in_Hz", "src/c_lib/lib/frequency_component_generators.c", "src/mrsimulator/simulator/config.py: ConfigSimulator.number_of_sidebands"]}
{"id": "C125", "title": "How many sidebands a simulation needs", "statement": "When the frequency of a transition goes at most B from its mean in a turn of the rotor, the sidebands of orders m and more, on both sides, together contain at most (2 B / (m * rotor frequency))^2 of the intensity, and those of orders below m at least the rest; all orders together contain the whole. A simulation with number_of_sidebands at least 2 m - 1 puts at least this rest, less the tolerance of the constants for each sideband, into the sidebands of orders below m.", "quantifier": "all spin systems, couplings, transitions, orientations, rotor angles, positive rotor frequencies, numbers of sidebands, bounds B and orders m", "why_tests_cant": "A test looks at one pattern with the default 64 sidebands; how far a given number is enough for any tensor and rotor frequency is a bound over all of them.", "anchors": ["src/c_lib/lib/mrsimulator.c: MRS_get_amplitudes_from_plan", "src/mrsimulator/simulator/config.py: ConfigSimulator.number_of_sidebands"]}
{"id": "C126", "title": "None for an optional attribute means that it is left out", "statement": "Giving None for an attribute of a tensor, site, coupling or spin system whose default is None makes the same object as leaving the attribute out; the same for D, F and transitions of a transition query. A number with a default of its own refuses None.", "quantifier": "all dicts of attributes and all such attributes", "why_tests_cant": "A test gives None for one attribute beside a few others; the claim is for every attribute in every dict, whatever else it holds.", "anchors": ["src/mrsimulator/spin_system/site.py: Site, Site.parse_dict_with_units", "src/mrsimulator/spin_system/coupling.py: Coupling, Coupling.parse_dict_with_units", "src/mrsimulator/spin_system/tensors.py", "src/mrsimulator/method/transition_query.py: TransitionQuery"]}
{"id": "C127", "title": "Searching and comparing transition lists", "statement": "In a list of transitions, index(value, start, stop) returns the first place in the range that holds the given transition, negative bounds counting from the end, and raises a ValueError exactly when there is none. 'value in list' says whether one is there, count how many there are, and remove takes out the first and nothing else, or raises a ValueError and changes nothing. A value stands for a transition when it is that transition or the dict of just its two lists. What append accepted can be found and removed again by the same value. Two lists are equal exactly when they are of one class and hold the same transitions in the same order.", "quantifier": "every list of transitions, every value with distinct keys, all bounds of index, every pair of lists and pathways", "why_tests_cant": "Tests look up a few transitions in short lists; which bounds, repetitions and dicts work is a claim about all lists and values.", "anchors": ["src/mrsimulator/utils/abstract_list.py:AbstractList", "src/mrsimulator/transition/pathway.py:TransitionList", "src/mrsimulator/transition/pathway.py:TransitionPathway", "src/mrsimulator/transition/base.py:Transition"]}
{"id": "C128", "title": "An interrupted run leaves every method with its old or its new simulation", "statement": "If run(method_index) is interrupted at any point, no method is lost or changed in what it simulates; each has either its old simulation or its complete new one with the new offsets, methods that were not asked for are as before, and running again gives exactly what the run would have given without the interruption. The run ends without an error exactly when every index is that of a method that can be simulated. When it raises, the methods before the one at fault have their new simulation and all others their old one.", "quantifier": "every list of methods with any number of dimensions, every list of indices (negative ones and repetitions included), every point of interruption, every outcome of the simulations, one process or several", "why_tests_cant": "Tests run to the end; the state after an exception or a keyboard interrupt depends on the point at which it comes.", "anchors": ["src/mrsimulator/simulator/__init__.py:Simulator.run", "src/c_lib/base/base_model.pyx:one_d_spectrum"]}
{"id": "C129", "title": "Attributes that are left out count as zero in the simulation", "statement": "The simulation uses the isotropic shift, the tensors and the orientations of each site as they are given, and a left out attribute or tensor is the same as zeros. The quadrupolar tensor is used if and only if the spin of the first channel of the method is above 1/2. A coupling acts on its two sites in the given order, with its J, its symmetric J tensor and its dipolar tensor.", "quantifier": "every site and coupling, with every choice of the attributes that are left out, every spin of the channel", "why_tests_cant": "Tests leave out a few combinations of attributes; there are hundreds of them per site.", "anchors": ["src/c_lib/base/base_model.pyx:one_d_spectrum"]}
