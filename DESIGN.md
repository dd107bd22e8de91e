# Formal model of mrsimulator in Rocq (Coq 8.16.1)

## Layout

    rocq/theories/
      Base.v                small list / rational helpers (no model content)
      <Area>Model.v         the model of the code: definitions only, each citing /repo file and lines
      <Area>Spec.v          (where useful) small independent specifications used in statements
      <Area>Proofs.v        lemmas and proofs
      Prop<Area>.v          the property theorems, each followed by Print Assumptions and a
                            non-vacuity Example
    properties.jsonl        the properties C01.. in English
    MANIFEST.json           property -> theorem names and status
    seeded/LOG.jsonl        mutation experiments

## Conventions

* Python and C numbers are modelled by exact rationals `Q` (every finite double is a
  rational). Floating-point rounding is NOT modelled. Where square roots or trigonometry are needed the
  standard library's reals `R` are used.
* A C cast `(int)x` is truncation toward zero (`trunc`), `int` overflow is not modelled.
* Python exceptions are values (`Err` constructors), never silently replaced by a default.
* Spin quantum numbers are modelled by their doubles where integrality matters (2I : nat, 2m : Z).
* A C array write outside its bounds is modelled as an explicit recorded write, never dropped.
* External functions (numpy FFT, random numbers, physical simulation of one pathway) are Section
  variables, so that theorems quantify over all their behaviours.

## Findings

Where the code violates the property, the full property is refuted by a theorem
`..._refuted` with a concrete witness, and the strongest conditional version found is proved with
the suffix `_partial`.

* C03-C06: the pathways of a spin system are reused for the next one when the number of sites is equal
  (base_model.pyx line 439), although isotopes, spins or custom pathways differ.
* C08: the effect of that cache depends on the order and on the splitting over jobs.
* C12: a query for two channels is not complete; C14: the direct call differs from the simulation.
* C18: the triangle interpolation writes at index `points`, one past the end, when a triangle starts in the last bin's
  right edge.
* C19: the first bin is wrong for triangles crossing the left end; a delta just outside the right end is kept.
* C20: a delta peak in the outer half bins loses area and gets a negative weight for positions in (-1, -1/2).
* C22: the powder weights are never normalised (get_total_amplitude is never called), so intensities depend on the density.
* C25: for odd counts every bin is half an increment off its coordinate.
* C26: for a negative gyromagnetic ratio the first bin is aliased by a spectral width.
* C30: a static first event with a spinning later one is accepted (and one sideband never rejects).
* C55, C64: the table sine of a negative angle has the sign of the positive one; the phase factor is computed in place
  through `restrict` pointers.
* C57: odd count without complex_fft, and negative increment with complex_fft, change the axis.
* C60: exp(i alpha) is 0 at the pole; C61: a sideband centred outside the window is dropped with its wings;
  C62: the delta shortcut compares only three corners of the first octant.
* C63: the ppm axis divides by reference_offset + origin_offset rather than the Larmor frequency.
* C36, C38: a negative beta Euler angle is rotated as a positive one, so rotating by -beta does not undo a rotation by beta.
* C33: the flags of freq_contrib are consumed by a pointer that is advanced per site and contribution: with several flipping sites the
  second site gets other contributions than listed, and four flipping spins read past the array (mrsimulator.c lines 470-523).
* C56: an event that differs from the first event of its dimension in both rotor frequency and angle gets no plan (method.c lines 20-54).
* C69: the sideband amplitudes of several events or two dimensions are multiplied but normalised once, so the intensity grows with
  the number of sidebands.
* Not stated as properties: a quadrupolar tensor is ignored when the first channel's spin is 1/2 (base_model.pyx line 317); the
  asymmetry of dipolar couplings is read but never used; local_frequency is cleared by scaling uninitialised memory with 0.
* C28: the shear factors of stvas.py have the wrong sign for ST1_VAS on spins 5/2, 7/2, 9/2 and ST2_VAS on spin 9/2; the fourth-rank broadening is increased instead of removed (C28_st_refuted).
* C44: TransitionList.insert does not check its argument (any object can be stored); assigning a Transition to a slice stores (field, value) tuples, because pydantic models are iterable (C44_insert_refuted, C44_slice_refuted).
* C58: flatten_dict passes only the immediate parent key down, so in a dictionary of three levels different attributes get the same key and all but the last are lost. Serialised sites have two levels, where nothing is lost.
* C72: Sites.to_pd has no column for shielding_antisymmetric, so this attribute is missing from the table of sites.
* C41: `_reduce_dict` calls itself without its `exclude` argument, so keys a caller excludes are kept in nested objects (C41_nested_refuted).
* C73: the constructor of a template method pops "events" from the caller's spectral dimensions: a second call with the same argument builds a different method (C73_events_refuted). Related, not stated as a property: attributes a template fixes, such as the infinite rotor frequency of Method2D, are refused as keyword arguments but accepted inside an event (C43_precedence).
* C50: `get_Haeberlen_components` returns zeta > 0 for every tensor with eta = 1, so (zeta < 0, eta = 1) comes back with the opposite sign (C50_tie_refuted).
* C51: `ExtCzjzekDistribution.rvs` uses the dominant tensor only when zeta and eta are both non-zero; an axially symmetric dominant tensor (eta = 0) is silently replaced by the zero tensor, the perturbation vanishes with its norm and every draw is zeta = 0, eta = NaN (C51_axial_refuted).
* C74: at eta = 1 a positive zeta comes back negative from the polar coordinates (C74_refuted).
* C48: `single_site_system_generator` raises IndexError when every argument is a single item (no array), so a single system cannot be generated (C48_scalars_refuted); an empty array is not counted by the size check and fails later (C48_empty_refuted). Tuples are treated as single items.
* C46, C47: the decoding table of spectral_fitting.py has `_shielding_j_` where the encoding table has `_j_symmetric_`, and neither has the antisymmetric tensors. The name of such an attribute does not lead back to it, and make_LMFIT_params raises AttributeError for every simulator holding a spin system with a number in one of these tensors (C46_refuted, C47_refuted).
* C49: apodization with a negative dim_index takes the coordinates of the right dimension but weights along the next one, because `_get_broadcast_shape` uses `-dim - 1`; for -1 that is the axis of the components and the operation raises ValueError (C49_refuted, C49_last_refuted). A width given as a bare number, the default included, raises TypeError when applied (C49_no_unit).
* C76: apply_operations says it returns a copy; all operations but the Fourier transform work in place, so the dataset passed in is changed by every operation before the first transform (C76_given, C76_refuted).
* C78: Gaussian apodization is an inverse DFT scaled by 1/(sigma sqrt(2 pi)), not the documented function: at coordinate zero it stays below 1 for every FWHM of one unit or more, and for an odd number of points ifftshift in place of fftshift puts its maximum one point after coordinate zero (C78_refuted, C78_shift_refuted).
* C79: Shear converts `1/factor unit` to the product of the dimension units and multiplies by the result, the inverse of the right conversion: a factor in units not coherent with the dimensions gives a phase off by the square of the ratio (C79_shear, C79_refuted).
* C81: SSB2D called with a rotor_frequency in an event but not as a keyword raises KeyError instead of the intended ValueError (C81_ssb2d_rotor).
* C40: objects that do not survive a save and load cycle: an empty name, label or description comes back as None (C40_empty_text_refuted); a shielding with Cq or D, a quadrupolar tensor with zeta or D, a dipolar tensor with zeta or Cq is saved without the unit and cannot be read (C40_site_tensor_refuted, C40_coupling_tensor_refuted); a coupling with an antisymmetric J tensor, or a symmetric one without zeta, cannot be read at all, because the unit of zeta is then ppm (C40_antisymmetric_j_refuted); a query with P None comes back with the default P (C40_query_refuted); the json of a spin system with transition pathways holds Python objects (C40_pathways_refuted); a method with a dimension without events comes back with an event or cannot be saved (C40_no_events_refuted); a Method whose name is that of a named method is saved without its queries (C40_named_refuted), also in a simulator for the names of NAMED_METHODS that are no class (C40_named_simulator_refuted); a simulator with an unnamed method cannot be read again (C40_unnamed_refuted).
* C83: `parse_dict_with_units` of the tensors, Site and Coupling replaces the quantities in the caller's dict by numbers; a second call with the same dict fails (C83_site_refuted, C83_coupling_refuted, C83_tensor_refuted).
* C84: a spectral width or offset in ppm, or a shielding zeta in Hz, is accepted but never converted: the simulation uses the number as Hz, or as ppm (C84_ppm_refuted, C84_zeta_refuted). The exception of parseable.py line 66 can never be raised.
* C86: `triangle_interpolation2D` reads `freq10_01` and `freq11_02` before they are set when the lowest vertex is at or below -1 bins and the middle vertex is in (-1, 1), or the lower two are at or below -1 and the highest in (-1, 1) (C86_unset_variable, C86_defined_refuted; interpolation.c lines 333-341 skip the assignment when clip_left1 is set, lines 355-360 read them): the spectrum near the lower edge of the first dimension is then undefined.
* C87: when two vertices are clipped at the lower edge, `line_down` is made positive before `slope_diff` is added to it (interpolation.c lines 402 and 431-432), so the rows after the first are split between the two sub-triangles in the wrong ratio and amplitude moves to wrong columns (C87_clipped_refuted: 0.9 instead of 1 in a cell). Row 0 and column 0 also collect what lies in (-1, 0) below the window.
* C88: `two_dimensional_averaging` multiplies total_orientations amplitudes from the address of each octant (frequency_averaging.c lines 213-215): with integration_volume hemisphere it reads past the end of both amplitude arrays for the last sideband (C88_reads_refuted). A pair of sidebands whose centre is outside a window is skipped, although part of its powder pattern is inside (C88_centre_refuted).
* C89: every simulation leaks. `MRS_free_plan` releases a table only when its pointer is NULL, `MRS_free_event` releases a plan only when its pointer is NULL (mrsimulator.c lines 18-26, method.c lines 13-18), and the structures of the averaging scheme, the FFT and the dimensions are never released; an exception (a spin system without pathways, static and spinning events mixed) skips the release altogether. C89_returns_and_leaves_behind_partial counts what is left, C89_grows_with_every_call that it grows without bound (C89_released_refuted).
* C89: integration volume 2 (the sphere), which the C library has and the configuration does not offer, writes past the end of the rotated Wigner components (C89_sphere_refuted; angular_momentum.c lines 883-975 writes 16 octants into room for 8).
* C91: `Coupling.site_index` is checked for two different integers only (coupling.py lines 184-190); an index that is negative or not smaller than the number of sites makes the C code read outside of the array of transitions (C91_reads_inside_iff, C91_reads_inside_refuted). `SpinSystem.transition_pathways` with fewer transitions than the method has events does the same (C91_user_pathways).
* C92: a method with one spectral dimension accepts a 1x1 affine matrix, and `one_d_spectrum` then reads (and, if the garbage there is not zero, writes) elements 2 and 3 of an array of one (base_model.pyx lines 186-197, no bounds checks). Assigning spectral dimensions does not validate the matrix again: a 1x1 matrix is stretched over two dimensions without a word, a 2x2 matrix for three raises at run time (C92_matrix_refuted, C92_raises_iff).
* C93: `_as_csdm_object` fills the same dictionary in every turn and only overwrites the label and the description when the spin system has one, so a spectrum without them gets those of an earlier spin system (simulator/__init__.py lines 569-612; C93_own_label_refuted).
* C94: `update_spectral_dimension_attributes_from_experiment` goes through the experiment's dimensions forward, while datasets are packed with the spectral dimensions in reverse: for two dimensions the axes are exchanged (C94_axes_in_reverse, C94_axes_refuted). It ignores complex_fft, and fails half way for a negative increment or too many dimensions.
* C95, C96: `Simulator.save` opens the file for writing before it serialises (lines 481-492), so if serialising raises - as it does after `run(pack_as_csdm=False)`, because `Method.json` calls `to_dict` on an array - the previous file is lost (C95_failed_save_refuted, C96_arrays_refuted).
* C97: `LMFIT_min_function` has `post_sim=None` as default but calls `post_sim.apply_operations` unconditionally (spectral_fitting.py line 339), so no evaluation without a processor returns (C97_no_post_sim_refuted).
* C98: an operation with dv_index acts on spin systems when the spectrum is decomposed and on the only variable otherwise, so changing decompose_spectrum changes the fit or makes it raise IndexError (C98_chosen_refuted).
* C99: `SignalProcessor.parse_dict_with_units` looks up `apodization` and `affine` as attributes of the package, which does not import them, so reading a saved processor in a new process raises AttributeError (C99_not_imported_refuted). A width given as a number is written as "5.0 " and read back as a number without an entry in property_units; an affine factor given as a number is written as "2.0 1.0" (C99_number_refuted, C99_affine_number_refuted).
* C100: with one NaN among the frequencies of a triangle the order of the vertices is lost and the loops `while (p != pmid) spec[p++] += ...` start above their end: they write past the array (C100_nan_refuted). A frequency beyond the range of int (an offset of more than 2^31 bins) is undefined behaviour in the cast; on x86 the whole triangle is lost although part of it lies in the window (C100_overflow_refuted).
* C101: Inadequate on a sample with one spin system that has a single site of the observed isotope aborts the whole run with ValueError (C101_lone_site_refuted). The selection of pathways never looks at the couplings: Cosy pairs the transitions of two sites of a system whether or not they are coupled.
* C102: `site.isotope = "1H"` is accepted for a site with a quadrupolar tensor, as only the assigned field is validated (C102_isotope_refuted); `tensor.eta = 5` is accepted, as the tensors are not validated on assignment (C102_eta_refuted). `Coupling(site_index=[1, 1], j_symmetric=t)` raises but has changed the unit of `t.zeta` to Hz (C102_rejected_refuted). `site.shielding_symmetric = None` and `Site(shielding_symmetric=None)` raise AttributeError, so a shielding cannot be removed (C102_clear_refuted). Not stated: `SpinSystem(couplings=None)`, the documented default given explicitly, is rejected because the validator calls `list(None)` (spin_system/__init__.py lines 177-182).
* C103: the validators remove and set entries of the `property_units` of the tensor given, which pydantic's shallow copy shares with the caller's object: after `Coupling(j_symmetric=t)` a site made before with `shielding_symmetric=t` is saved with zeta in Hz (C103_coupling_refuted); a site with the same tensor as shielding and quadrupolar is saved with bare numbers (C103_site_refuted), which cannot be read again.
* C104: several events of a BlochDecaySpectrum that differ in nothing but their queries are left out of the saved file altogether and one comes back (C104_events_refuted); a query given to a class of `NAMED_METHODS` is not saved (C104_query_refuted); a `Method2D` whose first event has a rotor frequency other than 1e12 Hz is made and saved, and `parse_dict_with_units` raises ValueError (C104_rotor_refuted); the check compares the text, so "1000000000 kHz" is refused too (C104_unit_refuted); the description given to a two-dimensional class is replaced (C105_made, C104_description_refuted).
* C106: the documentation of SpinSystem.couplings gives an empty list as the default; it is None (C106_couplings_refuted). C107: a number of points that is not whole is cut without an error (C107_count_cut).
* C112: the delta test of `__1D_averaging` compares the three corners of the first octant only; a pattern whose corners agree and whose other orientations do not is drawn as one peak at the corner's frequency, so that its centre of gravity is off by any amount.
* C113: `wigner_d_element(2, ...)` always returns 0: it calls `wigner_d_element_from_exp_I_beta` with rank 1, which returns 0 for every rank but 2 (`C113_rank2_refuted`). For the other ranks it returns the element at minus beta, so that those with odd m1 - m2 have the sign opposite to the documentation and to the matrices of `wigner_d_matrices` (`C113_sign_refuted`). Orders outside the rank end the process (`exit(1)`). The function is documented and exported but not called by the library.
* C114: ThreeQ_VAS, FiveQ_VAS, SevenQ_VAS, ST1_VAS and ST2_VAS reading a dict that gives spectral dimensions but no rotor frequency make a method with rotor frequency 0, a static experiment; the call of the class with the same entries makes one with 1e12 Hz (`C114_static_refuted`).
* C115: Method.__eq__ compares affine matrices with numpy broadcasting. Matrices given with three axes can compare equal though different (`C115_axes_refuted`); the same elements given flat and as a matrix compare unequal (`C115_flat_refuted`). After run(pack_as_csdm=False) comparing the method with itself raises ValueError (`C115_array_refuted`).
* C116: with integration_volume octant (the default) the powder average of a tensor with off-diagonal elements in the frame of the crystallite is not its isotropic part, at any density (`C116_octant_refuted`): the centre of gravity of the spectrum of two tensors with relative orientation is shifted. Over the hemisphere it is exact (`C116_tensor`). Averages of rank 4 (second-order quadrupolar) depend on the density (`C116_rank4_refuted`).
* C120: at a finite integration density the spectrum depends on the frame in which the tensors are given: at density 1 a shielding tensor with its axis along z and the same one turned by 45 degrees about y give different patterns (C120_density_refuted); only the limit of the density is independent of it.
* C121: saving without units raises for every simulator with a method that has an affine matrix (all MQMAS and STMAS methods), with a spin system that has pathways, or with a simulation made with decompose_spectrum="spin_system" (the reduction takes the symbol of the text under the key isotope); the file is opened for writing before that, so what it held is lost. Widths and offsets in ppm come back as the same numbers in Hz, anisotropies of shieldings in Hz as the same numbers in ppm (C121_units_refuted), and a query with P None comes back with the default P. Unlike with units (C40), empty texts, methods without a name and methods with the names of the named classes come back.
* C122: a spin system whose shielding tensor has a Cq can be loaded from a file and exported, but the exported file cannot be loaded (C122_role_refuted, C122_stray_case). load_spin_systems of a file that holds {} or "" removes all spin systems without an error (C122_empty_refuted).
* `Site(quadrupolar=None)` is accepted, but `Site.parse_dict_with_units({"quadrupolar": None})` raises, as does a tensor with `"zeta": None` (C126_parse_refuted). `TransitionQuery(P=None)` selects without a condition on P, while leaving P out selects P = -1 of the first channel (C126_query_refuted).
* A dict that append or the constructor of a transition list accepts need not be found afterwards: {'final': [0.5]} adds the transition with an empty initial list, but 'in', index, count and remove compare the whole dict of the transition with the given one, so remove raises a ValueError (C127_appended_refuted).

## Plan per property

| id | model | proof |
|---|---|---|
| C01,C02 | `get_chunks` as written, with list slicing and the n_jobs adjustment | prefix-sum invariant over the chunk loop |
| C03-C08 | `one_d_spectrum` driver loop as a fold with the cached pathway state; the C core is an arbitrary function of (method, system, pathway list) | fold invariants; refutation witnesses by computation; conditional theorems under "equal site count implies equal isotopes and no custom pathways" |
| C09 | `run` as a fold over method indexes on a list of methods | frame by induction |
| C10,C11 | `get_zeeman_states` via kron, `_all_transitions` | kron enumeration = lexicographic product, NoDup, membership iff |
| C12-C14 | `query_permutations`, `get_symmetry_indexes`, `_get_transition_pathways` | soundness and completeness both ways |
| C15-C20 | the interpolation routines write by write, over Q | exact integration against an independent cumulative tent function; induction over the bin loops |
| C21,C22 | the triangle walk (i, j, local_index loop) | row invariant, for all nt |
| C23,C24 | direction-cosine loops | induction over rows; unit norm by field |
| C25,C26 | bin centre arithmetic, axis arithmetic, DFT-free index reversal | field/ring; the identity fft(conj(ifft x)) = reversal is proved in a separate file over C if possible |
| C27 | affine pre-scaling and in-place updates | field |
| C28,C29 | shear tables and the spin transition functions | finite tables lifted to all tensor parameters; selection via C12 theorems |
| C30 | the event loop of the sideband check | induction |
| C31 | FFT ordering loops | permutation proof |
| C32 | Parseval for a finite DFT over the reals | trigonometric sums |
| C33,C34 | flag pointer walk, frequency accumulation | induction over sites / events |
| C35 | spin transition functions over Q | ring |
| C36-C39 | Wigner matrices over R as written | ring with cos^2+sin^2=1 |
| C40-C43,C58 | Python values as a JSON-like inductive type; parse/json functions | structural induction |
| C44,C45 | list operations as a state machine | invariant |
| C46,C47 | Python string replacement on Coq strings; objects as trees; abundances in Q | replacement lifted to strings with symbolic numerals, then computation; tree induction for reading and writing; decimal numerals for the substring test |
| C48 | generator with broadcast and filter | induction |
| C49 | operations on datasets of complex arrays with numpy broadcasting over R | induction over operations, named dimensions and selected variables |
| C50,C51,C74 | Haeberlen conversions over the reals, eigenvalues as roots of the characteristic polynomial | case analysis, uniqueness of sorted roots |
| C75 | histogram of the random variates | each value in range falls in exactly one bin |
| C52,C53 | unique / sorted unique | induction |
| C54 | the regular expression match as a string scanner | induction |
| C55 | table indexing arithmetic over R | lra |
| C56 | plan selection per event | case analysis |
| C57 | axis arithmetic | field, parity |
| C59-C65 | see the rows of the same files | |
| C66,C67 | the decimal constants as exact decimals | interval bounds on squares; Taylor bounds for the cosine |
| C68 | the phase factors of the plan | antiderivative of cis |
| C69 | product of the event amplitudes | Parseval |
| C76 | the caller's object beside the one at hand | invariant over the operations |
| C77 | linear dimensions over R | computation |
| C78 | apodization functions over R | Fourier sums bounded by their value at zero |
| C79 | shear with units as numbers | broadcasting lemma for two axes, field |
| C80 | names as strings, operations as a list | induction with the part already written |
| C70-C73 | queries of the named methods; list operations; site tables | selection theorems of C12-C14; computation on lists |
| C81 | the updates of the named methods | computation, ring |
| C82,C83,C84 | units as a table of types and sizes; reading as functions on dicts | relation between dicts preserved by every step; inversion of the reading |
| C85,C86 | the interpolation as calls of the one dimensional one, rows and amounts; variables not yet set as an option | every call keeps its amount in its row; induction on the rows |
| C87 | area of a triangle in a rectangle by integration (Coquelicot) | both sides as differences of means of positive parts along strips |
| C88 | calls of the averaging with their interpolation | sums over calls |
| C126 | None for an optional attribute | the constructors read every attribute by its key alone, and the optional ones treat None as a missing key; refuted for P of a query and for the reading with units by following the dict through it |
| C127 | searching and comparing transition lists | the loop of index is characterised by the first place in the range by induction on the fuel; remove from that and the deletion of C71; equality of dicts with distinct keys by cases; refuted for dicts that append completes |
| C128 | an interrupted run | the run as a list of writes; every prefix of it keeps, for each method, the alternative of old and new simulation, by induction on the indices; the writes depend on nothing the writes change, so that a second run makes the same ones |
| C129 | left out attributes are zeros | the packing of a site and of a coupling compared, field by field, with the given numbers, by cases on what is left out |
| C125 | how many sidebands matter | the differences of neighbouring points of the signal are transformed into the transform times 1 - e^(2 pi i k / nsb), of square at least (pi k / nsb)^2; Parseval for the differences, which are at most 2 pi B / (nsb * vr); the energies come back after a turn, so that the signal closes; then the limit of C124 |
| C124 | intensities in the limit of the number of sidebands | the transform at place k mod nsb is a left sum of the Fourier integral of order k, of a function whose slope is bounded by the deviation of the frequency and the order; sums against integrals as in C117; then C111. At most one together: Parseval for nsb points, and the limit |
| C123 | shape of a pattern of sidebands | C119_pattern for the sidebands; on a triangle the sum of weight times intensity is near the weight times the intensity at a vertex; the errors summed over the sidebands stay relative to the total since the intensities add up to one; then C117 for the products |
| C122 | export and load of spin systems | json.dump and the iteration over a JSON value as functions; the serialised form does not depend on empty texts, so the round trips of C40 apply to the object without them; every other object fails in the reading of a tensor |
| C121 | save and load without units | pydantic's dict() of every class, the reduction and json.dump as functions; the written dict of every object entry by entry, the constructors applied to it; exceptions of the reduction and of json.dump propagate outwards |
| C120 | independence of the frame | the energies are functions of the direction of the field in the crystal frame that do not tell a direction from its opposite; averages over the hemisphere are invariant under turns about z (periodicity) and under the exchange of y and z (symmetry of the octahedron sums, in the limit), hence under all Euler angles |
| C119 | shape of the powder pattern | every deposit of a triangle lies between its extreme frequencies, so a function of bounded slope moves by at most the width of the triangle and half a bin; the widths fall with the density; then the convergence of C117 for the composed function |
| C118 | centre of gravity with the second order | the second-order energy is a combination of two quadratic forms of the tensor; their means over a turn and over the hemisphere are integrals of trigonometric polynomials; the rest is linear |
| C117 | convergence of the powder average with the density | triangle sums are Riemann sums on the face x+y+z=1, whose weights are the Jacobian of the projection on the sphere; change of variables and Fubini for functions of bounded slope; the energies are polynomials in the direction |
| C116 | the powder average of a first-order interaction is its isotropic part | symmetry of the triangle sums under permutations of the axes; the four octants cancel the off-diagonal elements; the energies are affine in a traceless tensor along the field |
| C115 | comparison of methods, simulators and lists with == | a model of numpy's broadcasting; places of elements as an initial segment of the naturals; row against column by cases |
| C114 | the numbers of the events of the named methods | inversion of the constructors and of the reading of dicts, for any arguments |
| C113 | WignerElement against Wigner's formula and the action of spinor rotations on polynomials | binomial theorem and Cauchy product; uniqueness of the coefficients of a polynomial |
| C112 | the first moment of the deposits of InterpModel and PowderModel | partial moment of a tent, telescoping sum over the bins, induction over triangles, octants and sidebands |
| C111 | the phases of DftModel and the amplitudes of FreqModel against PhysLevels | linear readings of the components; the rows of the rotation matrices; bound of an integral; Lipschitz bound of the Fourier transform |
| C108-C110 | WignerModel and FreqModel against PhysSpec and PhysLevels, written without the model | rotation of spherical components = rotation of the tensor; Clebsch-Gordan products turn as tensors; matrix elements of quadratic forms in the spin; interval arithmetic for the constants; integral over the turn of the rotor |
| C106, C107 | the constructors and readers of JsonModel | inversion of the constructors; reading with units leaves out what was left out; both directions for the ranges |
| C104, C105 | the classes' constructors and readers over the objects and dicts of JsonModel | lookup of every key of the printed dict; induction over dimensions and events; inversion of the constructors for what they make |
| C102, C103 | a heap of tensors, unit dictionaries, sites and couplings, statements as steps, three ways of copying | invariants over all sessions; for C103 a log of which units were changed for which field |
| C101 | the queries of Cosy and Inadequate, the selection of C12 and C13 | rearrangements of an item with zeros are placements on distinct sites (Permutation of the indices of the channel), then the algebra of each query |
| C100 | the interpolations on doubles, arithmetic as parameters, casts for two processors | sorting keeps the order of the truncated values (Flocq: comparison and truncation agree with the reals), then induction over the loops |
| C99 | operations as values with the entry of property_units; the imported submodules as a parameter | case analysis over operations, induction over the list; round trip of units as hypothesis |
| C97,C98 | the objects an evaluation changes as a state; any list of earlier evaluations | two settings of the same tree of attributes along different paths commute and a second setting replaces the first; additivity of every operation |
| C93-C96 | the dictionary shared by the turns of the loop; the list of dimensions with the exception after a partial update; the file as a string under a list of effects; sessions as lists of acts | induction over the loop with the last non-empty label as invariant; prefix of the effects for crash points; invariants over sessions |
| C91,C92 | the indexes read as lists, pointers as numbers; the attributes of a method under any sequence of assignments | membership in the lists of reads; invariant of the loop over spin systems with its cache; induction over histories |
| C89,C90 | a heap with allocation, release, reads and writes that fail when undefined; the functions of one simulation in a state monad | weakest preconditions with a frame relation between heaps; counting of live blocks; invariants of loops |

## Trusted base

* Coq 8.16.1 kernel (including vm_compute).
* Axioms per theorem: as listed by `Print Assumptions` in the Prop files.  Only standard library axioms occur:
  `ClassicalDedekindReals.sig_not_dec`, `ClassicalDedekindReals.sig_forall_dec`,
  `FunctionalExtensionality.functional_extensionality_dep` (the reals) and `Classical_Prop.classic` (some lemmas about
  them).  The theorems of MANIFEST.json that use axioms, as printed:
  - `sig_forall_dec`: C129_coupling, C80_params, C80_round_trip, C80_update.
  - `sig_forall_dec`, `functional_extensionality_dep`: C119_centre, C119_pattern, C129_left_out, C129_site, C50_array, C50_components, C50_convention, C50_parameters_partial, C50_tie_refuted, C75_cells, C75_normalised, C75_out_of_range.
  - `sig_forall_dec`, `sig_not_dec`, `functional_extensionality_dep`: C108_axes, C108_components, C108_exact, C108_principal, C109_central_shift, C109_spin_matrices, C113_action, C113_addition, C113_element_partial, C113_from_exp_partial, C113_parity, C113_rank2_refuted, C113_sign_refuted, C116_centre_partial, C116_octant, C116_octant_refuted, C116_rank4_refuted, C116_static, C116_tensor, C118_central, C123_one, C124_bounded, C124_unique, C22_normalised_refuted, C23_orientations, C26_reversal, C28_mq, C28_st_partial, C28_st_refuted, C32_no_modulation, C32_sidebands_conserve, C33_all_partial, C33_listed_partial, C33_past_end_refuted, C33_second_site_refuted, C34_closed_form_partial, C34_history_partial, C34_sum_partial, C35_negated, C35_pathway, C35_reversed, C35_symmetric, C36_identity, C36_inverse_partial, C37_half_rotation, C39_tables_restored, C49_exponential_partial, C49_last_refuted, C49_no_unit, C49_refuted, C49_scale, C49_sequence, C51_axial_refuted, C51_czjzek, C51_missing, C51_partial, C51_unperturbed, C56_no_plan_refuted, C56_own_plan_partial, C60_phases_partial, C60_pole_refuted, C65_compose, C66_constants, C67_exact_angles, C68_plan_phase, C69_several_events_refuted, C76_given, C76_refuted, C76_unchanged_partial, C77_scale_dimension, C78_exponential, C79_coherent_partial, C79_refuted, C79_shear, C97_no_post_sim_refuted, C97_objective_partial, C98_chosen_refuted, C98_decomposed_partial.
  - `sig_forall_dec`, `sig_not_dec`, `classic`, `functional_extensionality_dep`: C100_machine_2D_safe_partial, C100_machine_safe_partial, C100_rows_safe, C108_rotation, C109_static_partial, C110_core_partial, C110_spinning_partial, C111_intensity_partial, C111_phase_partial, C116_spinning, C117_centre_partial, C117_constant, C117_hemisphere, C117_octant, C117_rank4, C117_static, C117_tensor, C117_total, C118_centre_partial, C118_mean, C118_spinning, C118_static, C119_limit, C119_spinning_partial, C119_static_partial, C120_average, C120_density_refuted, C120_exists, C120_spectra_partial, C120_spinning, C120_spinning_spectra_partial, C120_static, C123_converges, C123_limit, C123_sideband, C123_spinning_partial, C124_intensity_partial, C124_still, C124_total, C125_all, C125_code_partial, C125_kept, C125_tail, C32_sidebands_table, C36_inverse_refuted, C36_norm, C38_sign_of_beta_partial, C38_sign_of_beta_refuted, C55_odd_refuted, C55_table_bounds_partial, C64_inplace_refuted, C64_phase_factor_partial, C65_wigner_formula, C67_default_magic_angle, C68_phase_is_integral, C69_single_event_partial, C69_two_dimensions_refuted, C74_radius, C74_refuted, C74_round_trip_partial, C78_refuted, C78_shift_refuted, C87_cell_area_partial, C87_clipped_refuted.
  All the others are closed under the global context.
* That the model matches the code: it was written by hand from the source text, with line citations.

Not modelled: floating point rounding, BLAS/FFTW internals, memory beyond the blocks of MemModel and the arrays
of ReadModel, pydantic field coercion except where stated, csdmpy, astropy units (units are symbols),
joblib process scheduling (the results are assumed to come back in order).

## What is modelled

| files | code |
|---|---|
| ChunksModel | simulator/__init__.py get_chunks and the job split |
| SimModel, PathwayModel | base_model.pyx one_d_spectrum driver, get_zeeman_states; method/transition selection |
| InterpModel | lib/interpolation.c 1D triangle and delta interpolation, octahedron walk |
| PowderModel | octahedron.c direction cosines and weights, frequency_averaging.c 1D |
| AxisModel | spectral_dimension.py, base_model.pyx axis arithmetic, method.c offsets, affine pre-scaling, csdm import/export of dimensions, rotor frequency check, FFT order |
| DftModel | sideband amplitudes in mrsimulator.c, table trigonometry in vm.h, spectrum reversal |
| WignerModel | lib/angular_momentum.c: Wigner matrices of rank 2 and 4, half matrices, single and batch rotations, exp_Im_alpha table; the single elements are in WignerElement, the 8-octant branch is left out (unreachable from Python) |
| WignerMatrix, WignerNorm, WignerProofs | proof files for WignerModel |
| FreqModel | include/frequency/*.h, mrsimulator.c plans, components and frequencies, method.c events, the loops of simulation.c, site and coupling packing and pathway loop of base_model.pyx, event flags |
| MethodsModel | methods/mqvas.py, stvas.py, ssb2d.py `update` and tables, the queries of BlochDecaySpectrum and BlochDecayCTSpectrum |
| MethodsProofs, MethodsSelect, MethodsShear | proof files for MethodsModel |
| TListModel | utils/abstract_list.py, transition/pathway.py, transition/base.py, and the mixin methods of collections.abc.MutableSequence they inherit (extend, pop, reverse, clear; remove, index, count and __eq__ are in TListFind); slices with a step are left out |
| TListProofs | proof file for TListModel |
| SitesModel, SitesSpec, SitesProofs, PropSites | spin_system/isotope.py symbols and spins; allowed_isotopes; get_isotopes; Simulator.sites; flatten_dict; Sites.to_pd (the pandas frame as a list of columns) |
| DictModel, DictSpec, DictProofs, PropDict | utils/extra.py; method/utils.py expand_spectral_dimension_object; methods/utils.py generate_method_from_template without making the pydantic objects; tuples are lists; the default event and the text of a number with its unit are parameters |
| TensorModel, TensorSpec, TensorProofs, PropTensor | models/utils.py and models/czjzek.py, one tensor at a time; random numbers are an input, np.linalg.eigvalsh a parameter whose documented behaviour is a hypothesis, np.histogram2d is modelled; the polar option only as x_y_from_zeta_eta; non-uniform grids only for the normalisation |
| CollectModel, CollectSpec, CollectProofs, PropCollect | utils/collection.py for flat arrays; the systems are records of the constructor arguments, validated for the isotope only |
| FitModel, FitSpec, FitProofs, PropFit | utils/spectral_fitting.py lines 10-201, 254-299 and 340-343 for post_sim=None; objects are trees of dicts and lists; pydantic's validation of assigned values, lmfit's clipping and the run of the simulation are not modelled |
| SigModel, SigSpec, SigProofs, PropSig | signal_processing/__init__.py lines 77-166, apodization.py, affine.py, _base.py lines 29-42, utils.py lines 12-20; utils/spectral_fitting.py lines 55 and 204-246; csdmpy's transform is a parameter returning a new dataset, its linear dimensions and axis order are modelled; units are their sizes in a coherent system; json and parse of the processor are not modelled here |
| JsonModel, JsonSpec, JsonProofs, JsonUnits, JsonSame, JsonLost, PropJson | utils/parseable.py; parse_dict_with_units and json of the tensors, Site, Coupling, SpinSystem, TransitionQuery, Event, SpectralDimension, Method, Simulator and ConfigSimulator; exact numbers, a part of the unit table of astropy, no conversions between texts and numbers by pydantic, csdmpy's to_dict and parse_dict inverse to each other, time stamps ignored; the reading of named method classes is a parameter, for which NamedModel has the classes |
| Interp2DModel, Interp2DSpec, Interp2DProofs, TentReal, AreaSpec, AreaProofs, Interp2DExact, TwoDModel, TwoDProofs, PropInterp2D | interpolation.c lines 156-478 and 703-738, frequency_averaging.c lines 108-230 (with the calls of AxisModel); exact arithmetic, variables not yet set are an option, divisions by zero of slopes that are not used give 0 instead of infinity |
| MemModel, MemSpec, MemProofs, MemPlan, MemDims, MemRun, MemCore, MemSetup, MemWhole, PropMem | the memory of one call of one_d_spectrum: schemes.c, method.c, mrsimulator.c (plans, frequencies, amplitudes), simulation.c lines 36-174, frequency_averaging.c, octahedron.c (tables), batch rotation of angular_momentum.c, base_model.pyx lines 81-184, 285-300 and 438-508; a heap of blocks whose elements may be unset, numbers are opaque, the numerical routines and whether a pair of sidebands is in the window are arbitrary functions; fftw is a block with a plan; Python's own arrays (sites, spectrum) are not modelled |
| ReadModel, ReadSpec, ReadProofs, PropRead | base_model.pyx lines 183-197, 249-284, 345-375, 439-484; simulation.c lines 93-151; mrsimulator.c lines 453-566 (which elements of the array of transitions are read); coupling.py lines 184-190; method/__init__.py lines 193-203; numpy's broadcasting of one dimensional arrays |
| OutModel, OutSpec, OutProofs, PropOut | simulator/__init__.py lines 380-519 (run: only which kind of object is stored and where it stops; save, export_spin_systems: only the order of opening, serialising and writing), 555-612; method/__init__.py lines 172-191, 236-295; json.dump as a list of pieces, each of which may raise |
| FitRunModel, FitRunSpec, FitRunProofs, FitRunLinear, PropFitRun | utils/spectral_fitting.py lines 302-355; Simulator.run is a parameter from the simulator's attributes to a dataset and an exception, csdmpy's transform a parameter; arrays of other shapes are an error (numpy stretches axes of length 1); a processor whose update raises is left as it was |
| ProcModel, ProcSpec, ProcProofs, PropProc | signal_processing/__init__.py lines 38-75 and the attributes of all operations; _base.py lines 14-26, 44-53; apodization.py and affine.py (constructors, json, parse_dict_with_units); utils.py lines 23-29; parseable.py lines 87-147; astropy's units are a type with a text and a reader; assignment of texts to attributes and pydantic's conversion of texts to integers are left out |
| MachModel, MachSpec, MachProofs, Mach2DModel, Mach2DProofs, PropMach | interpolation.c lines 12-478 and 633-639 on doubles (Flocq's BinarySingleNaN): comparisons, fabs and casts are those of the machine, the four operations and the conversion of int are any functions (the library is compiled with -ffast-math); int additions and products that overflow are excluded by bounds on the sizes |
| CorrModel, CorrSpec, CorrProofs, PropCorr | methods/correlation.py lines 95-106 and 180-192: the queries of Cosy and Inadequate as values; the events and dimensions they belong to are those of Method2D |
| LiveModel, LiveSpec, LiveProofs, PropLive | site.py lines 154-198, coupling.py lines 150-193, tensors.py lines 86-117 and 148-163, spin_system/__init__.py lines 157 and 164-166, as a heap of objects; pydantic 1 as described in LiveModel |
| NamedModel, NamedSpec, NamedProofs, PropNamed | methods/utils.py lines 30-225, methods/base.py lines 92-170, mqvas.py, stvas.py, ssb2d.py, methods_data.json; JsonModel's reading of named classes is this one; dimensions and events in calls are dicts, the keyword property_units is not given |
| PropDefaults | the constructors and readers of JsonModel: defaults and ranges of all attributes; the table of units (C82_units) |
| PhysSpec, PhysLevels (specification), PhysRot, PhysCouple, PhysSpin, PhysExact, PhysClose, PhysRotor, PhysEvent, PropPhys | no new code: the models of WignerModel and FreqModel against tensors in space, spin matrices and perturbation theory |
| PhysRead, PhysSide, PropSide | no new code: the phases and intensities of the sidebands (DftModel, FreqModel) against the energies of PhysLevels in a turning rotor |
| PowderMoment, PropMoment | no new code: the first moment of the interpolated triangles and of the averaged pattern (InterpModel, PowderModel) |
| WignerElement, WignerElementProofs, PropElement | `src/c_lib/lib/angular_momentum.c` lines 16-42, 626-752 (`fac`, `my_power`, `generic_wigner_d_element`, `wigner_d_element`, `wigner_d_element_from_exp_I_beta`) |
| NamedValues, PropNamedValues | the events of NamedModel and JsonModel; no new code |
| EqualModel, EqualSpec, EqualProofs, PropEqual | method/__init__.py 152-167 and 193-203, simulator/__init__.py 156-170, utils/abstract_list.py 44-57; numpy's broadcasting of == |
| AverageSpec, AverageProofs, AveragePhys, AverageCentre, PropAverage | the weighted sum over the orientations (octahedron.c 12-158, schemes.c 12-118, interpolation.c 670-701) applied to the energies of C109/C110; no new model of code |
| SphereSpec, SphereRiemann, SphereChange, SphereProofs, SpherePhys, PropSphere | the weights and directions of octahedron.c 12-158 and the triangle sums of interpolation.c 670-701 as a Riemann sum of the integral over the sphere; no new model of code |
| InducedSpec, InducedProofs, PropInduced | averages over the directions and over a turn of the rotor of the second-order energies of C109/C110; no new model of code |
| ShapeSpec, ShapeProofs, ShapeClose, PropShape | the spectrum of the powder patterns (InterpModel) weighed with functions of the position; no new model of code |
| FrameSpec, FrameProofs, FramePhys, PropFrame | common rotations of all the tensors of a spin system; no new model of code |
| BareModel, BareSpec, BareProofs, BareRead, BareLost, PropBare | simulator/__init__.py reduced_dict, save and load without units; utils/extra.py; pydantic's dict() and constructors of the classes |
| ExportModel, ExportSpec, ExportProofs, PropExport | simulator/__init__.py export_spin_systems and load_spin_systems, on the values of JsonModel |
| SidebandLimit, PropSideband | frequency_averaging.c __1D_averaging with several sidebands, in the limit of the density |
| SelectTwo | method/utils.py query_permutations on two channels (numpy broadcasting of the rows) |
| SideLimit, PropOrders | mrsimulator.c MRS_get_amplitudes_from_plan, in the limit of the number of sidebands |
| SideTail, PropTail | mrsimulator.c MRS_get_amplitudes_from_plan and number_of_sidebands: how the intensity falls off with the order |
| PropNull | the constructors of the spin system classes and TransitionQuery, given None (BareModel, JsonModel) |
| TListFind, PropFind | the methods index, count, remove and the operator in that utils/abstract_list.py inherits from collections.abc, and its __eq__ with Python's choice of the operand; pydantic's equality of models and dicts |
| PropTable | the table of Site objects: Sites.to_pd on the json() of JsonModel |
| RunModel, PropRun | simulator/__init__.py lines 432-479 and base_model.pyx line 154 as a sequence of writes to the methods, cut at any point; the computation and the packing are parameters |
| PropPack | theorems on the packing in FreqModel (base_model.pyx lines 264-329 and 353-403) |
