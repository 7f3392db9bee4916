# Design: a Rocq (Coq 8.16.1) model of Schoyen/quantum-systems

## How to read this

* `properties.jsonl` states the properties in English; `MANIFEST.json` maps each to its theorems.
* `rocq/theories/Prop_*.v` contains the property theorems and nothing else: each is closed by
  `exact`, followed by `Print Assumptions`, with an `Example` that meets its hypotheses.
* `*Spec.v` files hold the vocabulary the theorems are stated in (index formulas, integrals, graph
  isomorphism, ...); they do not use the functions of the model.
* A property the code violates has a definition `Cxx_claim` (the full statement), a theorem
  `Cxx_refuted : ~ Cxx_claim`, and theorems saying exactly what happens instead and under which
  conditions the claim does hold. Its manifest status is `partial` and its note begins `REFUTED`.
* `seeded/LOG.jsonl` records the wrong programs the theorems were tried against.

## The model, file by file

| model file | code in /repo/quantum_systems | level of detail |
|---|---|---|
| `Scalar.v`, `ScalarC.v` | the numbers | exact: a commutative ring with conjugation, i, 1/2 and the test `abs(x) < 1e-12`; theorems are for all such rings. `QI` (Gaussian rationals) computes the examples, `CC` is the complex numbers |
| `Py.v` | the Python run time | exceptions as values; methods are state transformers, the state left by an exception is part of the result; slices with Python's rules for negative bounds |
| `Numpy.v` | the NumPy calls made by the library | arrays with shape, element type tag, content; dot, tensordot, transpose, kron, einsum patterns, trace, slicing, broadcasting, casting rules and the exceptions they raise |
| `BasisSet.v`, `Ownership.v` | `basis_set.py`, overridden methods of `sinc_dvr/one_dim/sinc_dvr.py` | every method and setter |
| `Systems.v`, `Worlds.v` | `system.py`, `general_orbital_system.py`, `spatial_orbital_system.py`, `time_evolution_operators/operator.py` | every method, in a world of objects that refer to each other by identity; histories of public operations |
| `PyHeap.v` | `copy_basis`, `copy_system`, `construct_general_orbital_system`, `copy.deepcopy` | object graphs of any shape, memo table |
| `TwoDim.v`, `Coulomb.v`, `Angular.v`, `Orbitals.v`, `Wells.v` | `quantum_dots/two_dim/two_dim_helper.py`, `coulomb_elements.py`, `two_dim_ho.py` | function by function over Z, R and C |
| `TwoDimBasis.v` | constructors of `two_dim_ho.py` | the basis objects they produce |
| `Cache.v` | `get_coulomb_elements` with the disk cache | files, directories, several processes, every crash point |
| `Parallel.v` | `_get_coulomb_elements` | threads sharing an array, every schedule |
| `OneDim.v`, `Potentials.v` | `quantum_dots/one_dim/*` | function by function over R and C, constructors as basis objects |
| `SincDvr.v` | constructor of `ODSincDVR` | function by function |
| `Molecule.v` | `custom_system.py` | both PySCF constructors |
| `RandomBasis.v` | `random_basis.py` | every method |
| `FloatModel.v` | arithmetic of `basis_set.py` (transformations, anti-symmetrization, spin doubling), energies and Fock matrices, densities, `one_dim_qd.py` (grid, kernel, quadrature, integrals, levels) | once more in IEEE double precision |
| `FloatCoulomb.v` | `coulomb_ho` and its helpers | every result of IEEE double precision under reordering and fusing |
| `FloatDvr.v` | `ODSincDVR.setup_basis`: h and u | IEEE double precision, one rounding per operation; `x ** 2` is any function within two units of roundoff |
| `FloatOperator.v` | `LaserField.h_t`, `CustomOneBodyOperator.h_t`, `AdiabaticSwitching.u_t` | every result of IEEE double precision under reordering and fusing |
| `FloatOverflow.v` | `ODHO.normalization`, `ho_function`, `construct_dipole_moment` | in IEEE double precision with infinities, NaN and signed zeros |
| `Helpers.v` | `system_helper.py` (`delta`, `spin_delta`) | over the integers |
| `Sampler.v` | `sampler.py` | every method; user samplers are arbitrary programs |

`TwoDimSmoothDoubleWell.setup_basis` is unreachable (C50) and its matrix helper is modelled on its
own (C75). `quantum_systems/__init__.py` and the re-exporting `__init__` files contain no code of
their own. The test-suite helpers and `setup.py` are not modelled.

### Simplifications

* **Numbers are exact**, except in the `Float*.v` files. There the parts of the library listed in the table are
  modelled again with the rounding of IEEE double precision including underflow (Flocq's `round` to nearest even); NumPy sums
  in any order, with or without fused operations. Overflow, infinities, NaN and the sign of zero are modelled only in `FloatOverflow.v`. Element
  types are kept as tags, because the library's casting errors depend on them.
* **Oracles.** `numpy.linalg.eigh`, the random generator, PySCF, user supplied potentials,
  pulses, polarizations and samplers are parameters. What a theorem needs of them is a hypothesis:
  `eigenbasis` for eigh (an orthonormal, ascending eigenbasis of the one matrix it is given), shapes for
  PySCF, nothing for the others.
* **Mathematical functions.** `sqrt`, `exp`, `sin`, `pi`, `scipy.special.hermite`/`factorial`, `math.lgamma` are
  the real functions; lgamma is only called on half-integers and is modelled there, C44 is for every function with Gamma's
  recursion. SymPy's radial integration is the improper Riemann integral itself (Coquelicot's `RInt_gen`),
  whose convergence is proved where theorems use it.
* **numba** functions are their Python source; unchecked indexing is noted where it could matter.
* **Files** in `Cache.v`: a file is a header cell and one cell per number; a write
  transfers any positive number of cells at the process's own offset; a crash stops a process between two steps. Timing,
  printing and warnings are not modelled anywhere.
* **pandas** in the magnetic-field table: a table is the list of its rows; `round`, `unique`,
  `sort_values` and `iloc` are the list functions in `TwoDim.v`.
* **Object graphs** (`PyHeap.v`): attributes and container slots are edges; `np.asarray` returns the same
  object; slices, numbers and strings are atoms; a DataFrame is a buffer; a system and its basis set
  hold the same array module.
* **Fuel** appears in two recursive functions (`shell_loop`, `deepcopy`); theorems show that enough fuel is
  always supplied.

## Trusted base

* Coq 8.16.1's kernel and the compiled standard library; Coquelicot (definitions of derivative,
  integral, complex numbers); Flocq (definition of rounding). No axioms, parameters, admitted proofs, functors or kernel flags of our own.
* That the model describes the code: every definition cites the lines it models. This correspondence was checked by
  reading, and by the mutation runs in `seeded/LOG.jsonl`.
* What `Print Assumptions` lists. Only axioms of the standard library occur:

| axioms | theorems |
|---|---|
| none (closed under the global context) | C01_one_body_formula, C01_one_body_mismatch, C02_two_body_formula, C03_basis_changes_compose, C04_inverse_round_trip, C05_hermiticity_preserved, C06_refuted, C06_spin_2_tb_follows, C06_spin_matrices_untouched, C07_all_sizes, C07_core_sizes, C07_refuted, C07_refuted_bra, C08_refuted, C08_state_after_rejection, C09_antisymmetrize_once, C09_flagged_is_final, C107_delta, C107_elements, C107_parity, C10_full_antisymmetry, C10_survives_basis_change, C118_closed_shell, C118_refuted, C118_spin_diagonal_partial, C118_tilted, C118_value, C119_expansion, C11_flag_truthful, C11_refuted, C11_refuted_double, C11_refuted_dvr, C121_koopmans, C125_no_garbage, C125_no_race, C125_schedule, C125_terminates, C12_spin_doubling, C130_fock_follows, C130_promotion, C13_doubled_once, C14_doubling_commutes, C15_bad_pair, C15_no_overlap, C15_no_retry, C15_refuted, C16_pauli_algebra, C17_spin_algebra, C17_spin_elements, C18_orthonormal_case, C18_refuted, C18_spin_2_cubes_the_overlap, C19_closed_shell_singlet, C20_reference_energies_agree, C20_without_antisymmetrization, C21_fock_matrices_agree, C22_energy_from_fock, C23_energy_real, C23_fock_hermitian, C24_aliased_buffer, C24_buffer_irrelevant, C24_none_rejected, C24_refuted, C25_energy_rotation_invariant, C26_bookkeeping, C26_general_accepts, C26_general_rejects, C26_refuted_for_negative_n, C26_spatial_accepts, C26_spatial_rejects, C27_failed_change_basis, C27_refuted, C27_refuted_shared_basis, C27_sizes_agree, C28_refuted, C28_undisturbed, C29_construct_general, C29_originals_untouched, C30_copy_basis, C30_copy_system, C30_independence_refuted, C30_operator_redirected, C31_construct_general_partial, C31_construct_general_refuted, C31_copy_basis_iff, C31_copy_basis_partial, C31_copy_basis_refuted, C31_copy_system_iff, C31_copy_system_partial, C31_gaussian, C31_operator, C31_set_operator, C31_shared_operator, C32_dual_orbitals_follow, C32_refuted, C33_density_formula, C33_density_real, C34_density_rotated, C34_density_rotated_formula, C35_accepted_types, C35_refuted, C36_constants_ignore_the_pulse, C36_laser_partial, C36_refuted, C37_custom, C37_flags, C37_no_operator, C37_switching, C38_covariance_partial, C38_custom_matrix_untransformed, C38_refuted, C39_own_operator_partial, C39_refuted, C40_indices_of_number, C40_number_of_indices, C41_energy, C41_monotone, C41_shells, C59_change, C59_doubled, C59_transform, C60_never_switches, C61_always_raises, C61_flagged_only, C63_hermitian_only_if, C63_hermitian_refuted, C63_ready, C63_symmetries_partial, C64_atomic, C64_molecular, C64_odd_rejected, C64_overlap, C64_symmetries, C65_calls, C65_collects, C65_dump, C65_dump_fails, C65_map, C65_steps_in_order, C65_stops, C66_arrays_move, C66_cast_keeps_values, C66_module_keeps_values, C66_refuted, C67_previews, C68_frozen_polarization, C68_refuted, C68_same_dimension_partial, C69_refuted_second_rectangular_change, C70_fock_formula, C70_reference_energy_formula, C84_custom, C84_laser, C84_switching, C88_constructed, C88_fermions, C88_reference_energy, C89_C90_fock, C91_C92_spin, C92_particle_number, C93_hamiltonian, C93_operators |
| `ClassicalDedekindReals.sig_forall_dec`, `FunctionalExtensionality.functional_extensionality_dep` | C50_always_raises, C50_refuted, C95_growth |
| `ClassicalDedekindReals.sig_forall_dec`, `ClassicalDedekindReals.sig_not_dec`, `FunctionalExtensionality.functional_extensionality_dep` | C102_unique, C111_simple_levels, C112_ground, C112_nodes, C113_dot, C113_potentials, C114_dipole, C114_interaction_dot, C115_density_dot, C115_fock_dot, C116_same_basis, C116_same_energy, C117_values, C122_change_basis, C122_change_compact, C122_elements, C126_spin, C127_hermitian, C128_change_basis, C128_change_least, C128_dot, C128_dot_bound, C128_dvr, C128_general, C128_least, C128_raise, C128_system, C130_gap, C131_laser, C131_rate, C132_constructed, C132_unique, C133_ODQD, C133_rows, C133_sinc_dvr, C134_stronger, C135_between, C135_close, C135_order, C135_shift, C138_evolution, C140_states, C140_values, C143_mean, C143_sum, C146_holes, C146_none, C48_selection_rule, C49_no_barrier, C49_parity, C51_fails_below_resolution, C51_lowest_states, C51_refuted, C51_succeeds_partial, C52_field_free, C52_field_free_rows, C53_dot, C53_dot_values, C54_dipole, C54_orthonormal, C55_ready, C55_sizes, C57_linear, C57_numpy, C57_rule, C58_kink, C59_constructed, C60_refuted, C60_silent, C61_antisymmetric_refuted, C61_constructs_refuted, C61_full_storage, C62_accepts, C62_one_body, C62_two_body, C72_unique, C74_orbitals_depend_on_the_product, C81_particle_number, C82_energy_bounds, C83_dot, C83_energy, C83_general_energy, C87_minimum |
| `ClassicalDedekindReals.sig_forall_dec`, `ClassicalDedekindReals.sig_not_dec`, `Classical_Prop.classic`, `FunctionalExtensionality.functional_extensionality_dep` | C100_levels, C101_density, C102_array, C102_coulomb_integral, C103_energy, C103_general_energy, C103_repulsive, C104_double_well, C104_field, C104_oscillator, C105_field, C105_field_turning, C105_line, C105_oscillator, C106_field, C106_line, C106_oscillator, C108_double_well, C108_double_well_mirror, C108_field, C108_oscillator, C108_oscillator_mirror, C109_closed_shells, C109_two_electrons, C109_two_electrons_field, C110_double_well, C110_field, C110_oscillator, C113_oscillator, C114_interaction_oscillator, C115_density_oscillator, C115_fock_oscillator, C117_error, C117_limit, C119_gradient, C120_brillouin, C122_dot, C122_dvr_compact, C122_dvr_full, C122_oscillator, C123_spectrum, C124_dipole, C124_functions, C124_normal_partial, C124_raises, C124_refuted, C124_zero, C125_coulomb, C126_coulomb, C126_double_well, C126_field, C126_oscillator, C128_double_well, C128_dvr_bound, C128_field, C128_field_bound, C128_line, C128_line_bound, C128_oscillator, C128_oscillator_bound, C129_matrix, C129_solver, C129_spectrum, C130_exists, C131_driven, C131_stationary, C132_ODHO, C132_ODQD, C132_TwoDim, C132_TwoDimDW, C132_change, C132_field, C132_reference, C133_ODHO, C133_TwoDim, C133_TwoDimDW, C133_field, C134_ODHO, C134_ODQD, C134_TwoDim, C134_concave, C134_concave_ODHO, C134_concave_ODQD, C134_concave_sinc_dvr, C134_levels, C134_sinc_dvr, C136_ODHO, C136_ODQD, C136_component, C136_double_well, C136_evolution, C136_field, C136_general, C136_oscillator, C136_simple, C136_states, C137_error, C137_exists, C137_ground, C137_libm, C137_momentum, C137_shells, C138_degeneracy, C138_library, C138_lower, C138_lowest_projection, C138_odd, C138_polarized, C138_raise, C138_simple, C138_states, C139_ODHO, C139_ODQD, C139_TwoDim, C139_TwoDimB, C139_TwoDimDW, C139_follow, C139_laser, C139_lowered, C139_moment, C139_reversed, C139_sinc_dvr, C140_ODHO, C140_ODHO_free, C140_ODHO_ladder, C140_ODQD, C140_ODQD_free, C140_TwoDim, C140_TwoDimB, C140_ground, C140_repulsion, C140_spectrum, C141_diagonal, C141_interaction, C141_offdiagonal, C141_symmetric, C142_degenerate, C142_exchange, C142_field, C142_oscillator, C143_ODHO, C143_oscillator, C143_sinc_dvr, C143_system, C144_axis, C144_custom, C144_custom_hermitian, C144_default, C144_hermitian, C144_laser, C144_nearly_hermitian, C144_off, C144_switched, C144_switched_symmetric, C145_ODHO, C145_electron, C145_hole, C145_oscillator, C146_full, C147_reference, C147_states, C148_bounds, C149_field, C149_oscillator, C42_angular_momentum, C43_mirror, C43_symmetries, C44_formula, C45_files_stay_valid, C45_readonly_directory, C45_transparent, C46_concurrent_refuted, C46_crash_is_permanent, C46_quiescence_partial, C46_refuted, C46_right_or_zero_partial, C46_silent_zeros, C46_steps_agree, C47_theta, C48_hermitian, C48_values, C49_hermitian, C49_values, C53_oscillator, C55_oscillator_ready, C56_dipole, C56_energies, C57_affine, C58_derivative_partial, C58_double_well, C58_refuted, C58_symmetric_double_well, C71_orthonormal, C71_orthonormal_table, C72_field_matrix, C72_field_rows, C72_oscillator_matrix, C73_correct_matrix, C73_refuted, C73_unit_mass_partial, C74_equal_mass_partial, C74_refuted, C75_parity_of_the_potential, C75_refuted, C75_same_m_partial, C76_oscillator_functions, C77_beta_ignored, C77_refuted, C78_collocation, C79_double_well, C79_field, C79_field_raises, C79_oscillator, C80_no_barrier, C80_no_field, C83_oscillator, C85_converges, C85_trapezoid_error, C86_levels, C94_antisymmetry, C94_spin, C95_functions, C95_one_body, C95_two_body, C96_energy, C96_fock, C97_grid, C98_kernel, C99_integrals, C99_trapezoidal |

`ClassicalDedekindReals.sig_forall_dec`, `ClassicalDedekindReals.sig_not_dec` and `FunctionalExtensionality.functional_extensionality_dep` come with
the standard library's real numbers, `Classical_Prop.classic` with its (and Coquelicot's) analysis.

## Per property: what is modelled and how it is proved

| id | property | status | how |
|---|---|---|---|
| C01 | One-body basis transformation formula | proved | call-by-call model of the tensordots; contractions unfolded and compared with the sum formula for all shapes |
| C02 | Two-body basis transformation formula | proved | call-by-call model of the tensordots; contractions unfolded and compared with the sum formula for all shapes |
| C03 | Basis changes compose | proved | final state of change_basis characterised attribute by attribute; algebra of finite sums |
| C04 | Basis change with an inverse pair is undone | proved | final state of change_basis characterised attribute by attribute; algebra of finite sums |
| C05 | Hermiticity and orthonormality are preserved | proved | final state of change_basis characterised attribute by attribute; algebra of finite sums |
| C06 | Spin operators follow a basis change | refuted in part | the loop that rebinds its variable, modelled as written; witness, and a theorem for all inputs that the spin matrices never change |
| C07 | Array sizes always match l | refuted in part | invariants by induction over histories of public operations, failing ones included; witnesses where false |
| C08 | A rejected basis change leaves the basis set usable | refuted in part | exact state after each possible exception |
| C09 | Anti-symmetrization gives anti-symmetric elements once and only once | proved | pointwise algebra; idempotence over any number of calls |
| C10 | Full antisymmetry | proved | pointwise algebra; idempotence over any number of calls |
| C11 | The anti_symmetrized_u flag tells the truth | refuted in part | invariants by induction over histories of public operations, failing ones included; witnesses where false |
| C12 | Spin doubling of the matrix elements | proved | kron index arithmetic (div/mod), commutation with the change of basis |
| C13 | Spin doubling happens at most once | proved | invariants by induction over histories of public operations, failing ones included; witnesses where false |
| C14 | Spin doubling commutes with spatial basis changes | proved | kron index arithmetic (div/mod), commutation with the change of basis |
| C15 | A rejected spin doubling leaves the basis set usable | refuted in part | exact state after each possible exception |
| C16 | Pauli matrices in any spin basis | proved | algebra of the spin pair; sums over occupied spin orbitals |
| C17 | Spin matrices obey angular momentum algebra | proved | algebra of the spin pair; sums over occupied spin orbitals |
| C18 | One-body spin squared operator | refuted in part | algebra of the spin pair; sums over occupied spin orbitals |
| C19 | Closed-shell reference is a singlet | proved | algebra of the spin pair; sums over occupied spin orbitals |
| C20 | Reference energy is representation independent | proved | model value shown equal to the textbook sum, then algebra of finite sums |
| C21 | Fock matrix is representation independent | proved | model value shown equal to the textbook sum, then algebra of finite sums |
| C22 | Reference energy from the Fock matrix | proved | model value shown equal to the textbook sum, then algebra of finite sums |
| C23 | Fock matrix is Hermitian | proved | model value shown equal to the textbook sum, then algebra of finite sums |
| C24 | Fock matrix buffer is overwritten | refuted in part | buffer semantics with element types; universal theorem plus two witnesses |
| C25 | Reference energy is invariant under orbital rotations that keep the occupied space | proved | model value shown equal to the textbook sum, then algebra of finite sums |
| C26 | System size bookkeeping | refuted in part | integer arithmetic on slices; invariants over histories of the world |
| C27 | System and basis set agree on the size | refuted in part | integer arithmetic on slices; invariants over histories of the world |
| C28 | Systems on one basis set do not disturb each other | refuted in part | frame theorems: which objects an operation touches; witness for shared basis sets |
| C29 | construct_general_orbital_system leaves the spatial system untouched | proved | frame theorems: which objects an operation touches; witness for shared basis sets |
| C30 | Deep copies are independent and faithful | refuted in part | deepcopy builds an isomorphic disjoint graph (induction on fuel, invariant relating memo and heap); frame theorem for programs on the copy; witnesses |
| C31 | Copies succeed for every basis set and system | refuted in part | deepcopy builds an isomorphic disjoint graph (induction on fuel, invariant relating memo and heap); frame theorem for programs on the copy; witnesses |
| C32 | Dual orbitals follow the orbitals | refuted in part | invariants by induction over histories of public operations, failing ones included; witnesses where false |
| C33 | Particle density formula | proved | loop invariant over the double loop; exact table of accepted element types |
| C34 | Particle density in a rotated basis | proved | loop invariant over the double loop; exact table of accepted element types |
| C35 | Density needs matching element types | refuted in part | loop invariant over the double loop; exact table of accepted element types |
| C36 | Laser Hamiltonian | refuted in part | operators as objects with lazily rewritten fields; invariants over call histories; witnesses |
| C37 | Switching and custom operators | proved | operators as objects with lazily rewritten fields; invariants over call histories; witnesses |
| C38 | Time-dependent Hamiltonian is covariant | refuted in part | operators as objects with lazily rewritten fields; invariants over call histories; witnesses |
| C39 | An operator serves the system it was set on | refuted in part | operators as objects with lazily rewritten fields; invariants over call histories; witnesses |
| C40 | 2D oscillator indexing is a bijection | proved | loop invariant, integer arithmetic; counting of shells |
| C41 | 2D oscillator orbitals come in shells of rising energy | proved | loop invariant, integer arithmetic; counting of shells |
| C42 | Coulomb elements conserve angular momentum | proved | reindexing of the four nested sums; logarithms removed; any function with the Gamma recursion |
| C43 | Coulomb elements have the two-body symmetries | proved | reindexing of the four nested sums; logarithms removed; any function with the Gamma recursion |
| C44 | Log-space Coulomb evaluation equals the closed formula | proved | reindexing of the four nested sums; logarithms removed; any function with the Gamma recursion |
| C45 | Coulomb cache is transparent | proved | state machine of processes and files; invariants over all interleavings and crash points; witness traces |
| C46 | Coulomb cache survives crashes and concurrency | refuted in part | state machine of processes and files; invariants over all interleavings and crash points; witness traces |
| C47 | 2D angular integrals are right | proved | antiderivatives (Coquelicot) |
| C48 | 2D dipole matrices are Hermitian and obey the selection rule | proved | Gaussian moments as improper integrals, orthogonality of Laguerre polynomials and their differential equation, polar derivatives |
| C49 | 2D double well one-body matrix | proved | Gaussian moments as improper integrals, orthogonality of Laguerre polynomials and their differential equation, polar derivatives |
| C50 | The smooth 2D double well can be constructed | refuted in part | values at concrete parameters differ; uniqueness of the matrix; positive theorems for the remaining cases |
| C51 | Magnetic-field basis holds the lowest states | refuted in part | sorted lists: a prefix of the sorted finite table is a prefix of the infinite spectrum; tolerance arithmetic |
| C52 | Zero magnetic field reproduces the plain oscillator | proved | sorted lists: a prefix of the sorted finite table is a prefix of the infinite spectrum; tolerance arithmetic |
| C53 | 1D quantum dot two-body symmetries | proved | finite sums over C; eigh as an oracle with its contract |
| C54 | 1D quantum dot orbitals are orthonormal on the grid | proved | finite sums over C; eigh as an oracle with its contract |
| C55 | ODQD rejects impossible sizes | proved | finite sums over C; eigh as an oracle with its contract |
| C56 | 1D harmonic oscillator dipole elements | proved | Hermite polynomials: recursion, differential equation, orthogonality by Gaussian moments |
| C57 | Trapezoidal rule | proved | induction on the number of grid points |
| C58 | Potential derivatives are derivatives | refuted in part | derivatives by is_derive; witness for SymmetricDWPotential; central difference quotients at the kink of the double well |
| C59 | Sinc-DVR 2d and 4d representations agree | proved | simulation between compact and full storage through every operation |
| C60 | set_u_repr switches the representation | refuted in part | simulation between compact and full storage through every operation |
| C61 | A sinc-DVR basis can be used in a GeneralOrbitalSystem | refuted in part | simulation between compact and full storage through every operation |
| C62 | Sinc-DVR one-body elements | proved | derivatives of the cardinal function from its integral representation |
| C63 | Random basis symmetries | refuted in part | pointwise algebra for every draw; the draws for which u is Hermitian |
| C64 | PySCF constructors | proved | constructors executed on arbitrary oracle answers |
| C65 | Sample collection | proved | dictionary objects with identity; induction over call histories with user code as arbitrary programs |
| C66 | Casting and module change keep values | refuted in part | attribute-by-attribute description; tag per array for its module |
| C67 | Preview equals change | proved | two executions compared |
| C68 | Default polarization adapts to the system | refuted in part | operators as objects with lazily rewritten fields; invariants over call histories; witnesses |
| C69 | Repeated truncation of a spin-orbital basis | refuted in part | exact trace of the second change |
| C70 | Reference energy and Fock matrix are the textbook expressions | proved | model value shown equal to the textbook sum, then algebra of finite sums |
| C71 | 2D oscillator orbitals are orthonormal | proved | Gaussian moments as improper integrals, orthogonality of Laguerre polynomials and their differential equation, polar derivatives |
| C72 | 2D one-body matrices are those of the Hamiltonian | proved | Gaussian moments as improper integrals, orthogonality of Laguerre polynomials and their differential equation, polar derivatives |
| C73 | 2D double well uses the mass consistently | refuted in part | values at concrete parameters differ; uniqueness of the matrix; positive theorems for the remaining cases |
| C74 | Equal orbitals have equal Coulomb elements | refuted in part | values at concrete parameters differ; uniqueness of the matrix; positive theorems for the remaining cases |
| C75 | Smooth 2D double-well matrix | refuted in part | values at concrete parameters differ; uniqueness of the matrix; positive theorems for the remaining cases |
| C76 | 1D oscillator functions, overlap, energies and dipole agree | proved | Hermite polynomials: recursion, differential equation, orthogonality by Gaussian moments |
| C77 | Non-dipole strength of the 1D oscillator | refuted in part | Hermite polynomials: recursion, differential equation, orthogonality by Gaussian moments |
| C78 | Sinc-DVR h is the Hamiltonian at the grid points | proved | derivatives of the cardinal function from its integral representation |
| C79 | 2D constructors give complete, consistent basis sets | proved | the constructors executed symbolically to a description of every array; that description implies the specification (with C42-C49, C71, C72) and equality of objects |
| C80 | 2D systems reduce to the plain oscillator | proved | the constructors executed symbolically to a description of every array; that description implies the specification (with C42-C49, C71, C72) and equality of objects |
| C81 | The density of a 1D quantum dot integrates to the number of particles | proved | orthonormality of the orbitals (C54); completeness of n orthonormal columns by a trace argument, Parseval, Bessel, Ky Fan |
| C82 | Orbital energies of a 1D dot lie between the bounds of the Hamiltonian | proved | summation by parts turns the kinetic energy into a sum of squares |
| C83 | Repulsive interaction never lowers the energy | proved | 2 (direct - exchange) is a double sum of non-negative weights times squared moduli; energies with C20 |
| C84 | The time-dependent Hamiltonian is Hermitian at all times | proved | from C36 and C37 |
| C85 | Grid integrals converge to the true integrals | proved | one panel by integrating (x-a)(b-x) f"; sum over panels; limit |
| C86 | Energies of a 1D dot approximate the exact levels to second order | proved | Taylor bound for central differences by four mean value steps; residual bound for eigenvalues |
| C87 | The stored orbitals of a 1D dot have the lowest energies | proved | orthonormality of the orbitals (C54); completeness of n orthonormal columns by a trace argument, Parseval, Bessel, Ky Fan |
| C88 | The reference energy is the expectation value of the many-body Hamiltonian | proved | anticommutation relations by cases on the order of the indices; the two-particle density of a determinant by moving a creator to the right; C20 for the constructed system |
| C89 | Diagonal Fock elements are ionization and attachment energies | proved | difference of expectation values of neighbouring determinants; matrix element of a single excitation by anticommuting the annihilator of an empty orbital |
| C90 | Off-diagonal Fock elements are the couplings to single excitations | proved | difference of expectation values of neighbouring determinants; matrix element of a single excitation by anticommuting the annihilator of an empty orbital |
| C91 | spin_2 and spin_2_tb are the square of the total spin, and closed shells are singlets | proved | product and commutator of one-body operators, commutator of a one- and a two-body operator; delta (x) sigma commutes with doubled arrays |
| C92 | The Hamiltonian conserves spin and particle number | proved | product and commutator of one-body operators, commutator of a one- and a two-body operator; delta (x) sigma commutes with doubled arrays |
| C93 | change_basis does not change the many-body Hamiltonian | proved | dual pairing of transformed elements and transformed operators, index by index |
| C94 | Anti-symmetry and spin blocks survive rounding bit for bit | proved | rounding commutes with negation; a difference of floats rounds to zero only if it is zero; products with 0 and 1 are exact |
| C95 | Rounding error of a change of basis | proved | induction over every summation tree: a sum or dot product of k terms stays within the growth (1+u)^k; the bounds compose |
| C96 | Rounding error of the reference energy and the Fock matrix | proved | induction over every summation tree: a sum or dot product of k terms stays within the growth (1+u)^k; the bounds compose |
| C97 | The one-dimensional grid in double precision | proved | spacing of neighbouring floats against the step of the grid (of the levels) |
| C98 | The shielded Coulomb interaction in double precision | proved | bounds of each operation relative to the result; monotonicity of rounding |
| C99 | Rounding error of the trapezoidal rule and the two-body integrals | proved | induction over every summation tree: a sum or dot product of k terms stays within the growth (1+u)^k; the bounds compose |
| C100 | Harmonic oscillator levels in double precision | proved | spacing of neighbouring floats against the step of the grid (of the levels) |
| C101 | Rounding error of the particle density | proved | induction over every summation tree: a sum or dot product of k terms stays within the growth (1+u)^k; the bounds compose |
| C102 | The 2D two-body elements are Coulomb integrals | proved | orbitals as polynomials in z and conj(z) times a Gaussian; centre and separation, binomial theorem, Gaussian moments; term by term equal to the sum in the code |
| C103 | In two dimensions the interaction never lowers the energy | proved | the square of the modulus of f(x1)g(x2) - g(x1)f(x2) is not negative under the integral of C102; then as C83 |
| C104 | The 2D position matrices in closed form | proved | ladder operators on polynomials in z and conj(z): the integral of the product is a Gaussian moment; uniqueness of matrix elements against C79 |
| C105 | Light only drives the transitions of the oscillator's spectrum | proved | C104, energies of neighbouring states; all neighbours of a state are in the table, so the sum over the table is the sum over at most four neighbours |
| C106 | Sum rules hold inside the basis set | proved | C104, energies of neighbouring states; all neighbours of a state are in the table, so the sum over the table is the sum over at most four neighbours |
| C107 | spin_delta is the spin structure of doubled basis sets | proved | bit 0 of an integer is its parity; the doubling formula of C10 |
| C108 | The Fock matrix has the symmetries of the dot | proved | selection rule of the two-body elements (C42) inside the sum over occupied orbitals; the phases of two orbitals with equal m cancel |
| C109 | Reference energies of dots in closed form | proved | sum over full shells; C103 for the interaction; the first Coulomb element in closed form |
| C110 | Densities of states with sharp angular momentum are round | proved | selection rule of the two-body elements (C42) inside the sum over occupied orbitals; the phases of two orbitals with equal m cancel |
| C111 | Levels of a 1D dot are never degenerate | proved | three-term recursion of the tridiagonal matrix: two vectors with one eigenvalue are proportional; the number of sign changes is the number of negative squares of a quadratic form (discrete Sturm oscillation, NodeProofs.v), compared with the position in the spectrum by a dimension count |
| C112 | Orbital number p of a 1D dot has exactly p nodes | proved | three-term recursion of the tridiagonal matrix: two vectors with one eigenvalue are proportional; the number of sign changes is the number of negative squares of a quadratic form (discrete Sturm oscillation, NodeProofs.v), compared with the position in the spectrum by a dimension count |
| C113 | Orbitals of symmetric dots are even and odd in turn | proved | the mirrored eigenvector has the same energy, so it is the vector times a sign, and the sign is fixed by the number of nodes; sums over the grid of odd functions vanish |
| C114 | Parity selection rules of symmetric 1D dots | proved | the mirrored eigenvector has the same energy, so it is the vector times a sign, and the sign is fixed by the number of nodes; sums over the grid of odd functions vanish |
| C115 | Parity is kept by the Fock matrix and the density | proved | the mirrored eigenvector has the same energy, so it is the vector times a sign, and the sign is fixed by the number of nodes; sums over the grid of odd functions vanish |
| C116 | Results of a 1D dot do not depend on the eigensolver | proved | Ky Fan sums determine the eigenvalues; simple levels determine the vectors up to sign |
| C117 | The 1D dot reproduces the particle in a box | proved | discrete sine transform; uniqueness (C116); Taylor bounds of the cosine |
| C118 | The density of a spin-doubled basis set is the density of electrons with spin | refuted in part | the doubled orbitals of C13 inside the sum of C33; the four spin blocks of the density matrix |
| C119 | The Fock matrix is the gradient of the reference energy | proved | the energy is a quadratic form in the density matrix of the occupied orbitals; its linear part at the reference is the Fock matrix (RotationProofs.v); for a plane rotation the change of density is sin cos A + sin^2 B |
| C120 | Orbitals of lowest energy satisfy the Brillouin condition | proved | a rotation that keeps the energy minimal has derivative 0 (C119), for the phases 1 and i |
| C121 | Removing a particle costs its Fock energy (Koopmans) | proved | the last row and column of the double sum |
| C122 | The one-dimensional interactions are positive | proved | 1/sqrt(d^2+a^2) is an integral of Gaussians (PositiveKernel.v), exp(2xy) a series of squares; quadrature weights and orbitals go into the coefficients (PositiveForms.v); Cauchy-Schwarz for the elements |
| C123 | Sinc-DVR energies lie between the bottom of the potential and the cutoff of the grid | proved | the matrix is the second derivative of the cardinal function of C78, a Fourier integral of t^2 times the squared Fourier sum; compare with the same integral without t^2 |
| C124 | Every orbital of the 1D oscillator has a positive normalization in double precision | refuted in part | Flocq operations with overflow; 2^150 150! is below and 2^151 151! above the largest double, by computation in Z; the square root of infinity is infinity and one over it zero; relative errors multiplied |
| C125 | The Coulomb elements do not depend on the scheduling of the parallel loop | proved | invariant of the pool of threads: registers right, every element written or ahead of some thread, rows owned by one thread each; a measure per thread that drops by one with each action |
| C126 | The Coulomb interaction of two-dimensional quantum dots is positive | proved | translations and dilations of the plane determine the integrals of monomials times a Gaussian up to one constant (FourierPoly.v); both the Coulomb integral (PlaneForm.v) and an integral over wave numbers of complex Hermite polynomials have these symmetries, so each element is such an integral of a product of two transformed densities (PlanePositive.v) |
| C127 | A system with Hermitian elements has a self-adjoint Hamiltonian: real energies, orthogonal eigenstates | proved | inner product of Fock space (InnerSpec.v); creation is adjoint to annihilation, so the Hamiltonian is its own adjoint when its coefficients are Hermitian (InnerProofs.v); the reference energy is the determinant entry of C55 |
| C128 | Electron repulsion raises every energy; lower bounds on all many-electron energies | proved | with amplitudes c_pq = <.|a_q a_p f> the interaction term of <f|Hf> is a sum of pair energies, each nonnegative by the Gaussian decompositions behind C122 and C126 (RaiseProofs.v, RaiseFock.v); the one-body term is a sum of occupation weights times levels, least when the lowest are filled; systems and constructors in RaiseTheorems.v |
| C129 | Exact many-electron states exist; the reference energy is never below the ground-state energy | proved | Compactness.v (a continuous function on a closed bounded set of real vectors has a minimum, by completeness, without choice) gives the lowest eigenvector of a Hermitian matrix; SpectralProofs.v splits it off by induction (spectral theorem, real version for ODQD). FockSpectrum.v numbers the m-electron occupations, n choose m of them, and carries the theorem to the many-electron Hamiltonian; GroundTheorems.v expands the reference determinant in the eigenstates. |
| C130 | Orbitals of lowest energy exist and diagonalise their own Fock matrix | proved | The unitary matrices are a closed bounded set in 2 l^2 real numbers and the reference energy of the changed system is a polynomial in them (HartreeFockProofs.v), so Compactness.v gives a minimum; C120 kills the occupied-empty block of the Fock matrix, the spectral theorem diagonalises both blocks, and the Fock matrix follows such a rotation. Promotion energies from the exact expansion C119 with a quarter turn. |
| C131 | Time evolution under h_t and u_t keeps overlaps and particles and exists; a laser does work through the dipole moment | proved | differentiation of amplitudes (EvolutionCalculus.v); overlaps from self-adjointness (C127), particle number because the weight outside a sector is a kept overlap, uniqueness from linearity (EvolutionProofs.v); existence by the Dyson series, dominated by an exponential (LinearOde.v); h_t and u_t after any reads by C36 and C37; without an operator the expansion in the eigenstates of C129 solves the equation and uniqueness does the rest (EvolutionTheorems.v) |
| C132 | Exact energies do not depend on the orbitals; fewer orbitals never lower them | proved | orthonormal columns give an isometry of Fock spaces (OrbitalMap.v) under which H of the old orbitals becomes H of the new ones between states (OrbitalEnergy.v); a dimension count (more unknowns than equations over the complex numbers) then orders the levels (min-max); equality by going back with the adjoint; constructor elements do not depend on l |
| C133 | Larger basis sets continue smaller ones | proved | closed forms of the constructed arrays do not mention l; for the field system the sorted table below l is pinned down by the order on (energy, row) being total, so the cut at l and at l+1 share their rows (slt_total, field_prefix in NestedProofs.v); sinc-DVR by the first grid point, which moves with l |
| C134 | Stronger repulsion raises every exact energy | proved | the many-electron Hamiltonian is linear in h and u, a repulsion with a non-negative kernel raises every pair (C127), so the difference of the two Hamiltonians is non-negative on every state and the dimension count of C132 orders the levels; concavity by trying the ground state of the mixture in both ends |
| C135 | The levels of ODQD follow its potential | proved | min-max for real symmetric matrices by a dimension count, with the vectors of the shorter grid placed inside the longer one (LevelOrder.v); box levels from C117 |
| C136 | Exact states have sharp quantum numbers | proved | a Hermitian matrix made of blocks has a complete set of ascending eigenvectors inside the blocks (induction with the lowest vector, SharpProofs.v); creation and annihilation shift the labels (SharpProofs.v); selection rules of C42, C63 and C114 for the constructors (SharpSystems.v); uniqueness of the evolution from C131 |
| C137 | Rounding error of the two-dimensional Coulomb elements | proved | FloatCoulomb.v relates the quantum numbers to every number any order of evaluation can give; the size of each exponent is at most (3w+8) ln(w+2) for w quanta, so its rounding error is bounded by the dot product theorem of C94; errors of the exponentials, of the two nested sums and of the normalization compound (FloatCoulombProofs.v); numbers and totality in FloatCoulombTheorems.v |
| C138 | Exact energies come in spin multiplets | proved | spin operators as sums over electrons of 2 x 2 matrices, their commutators and adjoints (MultipletProofs.v); norms of raised and lowered states and the possible values of S^2 by induction up the ladder (MultipletLadder.v); a spectrum of the Hamiltonian among the eigenstates of S^2 by the block diagonalization of C136 (MultipletBasis.v); the spin arrays of the library from C91 (MultipletSystems.v); the spin operators take solutions of the time-dependent equation to solutions (MultipletEvolution.v) |
| C139 | A static electric field on a symmetric quantum dot: opposite fields give equal energies, a field never raises the ground-state energy | proved | the change of sign of the odd orbitals is a rotation that reverses the field, so C132 gives equal energies; C134 makes the least energy concave in the field, and an even concave function falls away from zero (StaticProofs.v), and so is the exchange of mirrored grid points; the labels of C136 and the selection rules of C48 and C114 for the dots of the library, the laser through the elements of C131 (StaticSystems.v) |
| C140 | Without interaction exact energies are sums of orbital energies; with repulsion none is below them | proved | a diagonal one-body operator multiplies every amplitude by the sum of the occupied levels, so determinants sorted by that sum are a spectrum, and C132 makes the energies unique (FreeProofs.v); C134 compares with repulsion, C128 and C136 supply diagonal h and Hermitian u of the dots (FreeSystems.v) |
| C141 | Rounding in the sinc-DVR matrices | proved | the spacing error of C97 enters squared, the remaining operations add at most ten roundings, and C98 together with a Lipschitz bound of the shielded kernel gives the two-body elements (FloatDvrProofs.v, FloatDvrTheorems.v) |
| C142 | Exact states with opposite angular momenta have equal energies; so have opposite magnetic fields | proved | a permutation of the orbitals acts on many-electron states as an isometry under which Hamiltonian and angular momentum transform (C132), and as many orthonormal states as levels are complete (ReversalProofs.v); C43 makes the Coulomb elements symmetric under m to -m, C40 and C51 give the permutation (ReversalSystems.v, ReversalField.v) |
| C143 | The exact energies add up to the traces of the elements | proved | the energy of a determinant in terms of the exact states, summed over all determinants, is the sum of the energies; how many determinants contain one or two given spin-orbitals is counted by induction on their number (TraceProofs.v); the traces of the dots are in TraceSystems.v |
| C144 | Rounding in the time-dependent Hamiltonian | proved | floating-point model in FloatOperator.v; the error bounds compose those of FloatProofs.v; a sum of products in which at most one product is not zero is that product rounded, in every order (induction over the computation, FloatOperatorProofs.v) |
| C145 | One electron, and one electron missing | proved | an annihilator is moved through the Hamiltonian with the anticommutation relations (HoleProofs.v); every state with one electron missing is a combination of annihilators on the full determinant, every state of one electron a combination of creators on the vacuum (HoleTheorems.v, ElectronProofs.v); both kinds of systems in HoleSystems.v, the oscillators in HoleDots.v |
| C146 | Holes are particles | proved | an antilinear map exchanges occupied and empty spin-orbitals, creators and annihilators; the image of the Hamiltonian is put in normal order (ParticleHole.v), which gives one direction, and the other since the same map leads back (ParticleHoleSystems.v); the full basis set in FullTheorems.v |
| C147 | How far the reference energy is from the exact energies | proved | the residual is expanded in the exact states (ResidualProofs.v); Weinstein and Temple inequalities |
| C148 | Fock energies bound ionization and attachment | proved | determinants with one electron removed or added are trial states; their mean energies come from the Fock matrix (IonizationProofs.v) |
| C149 | Two electrons in a two-dimensional trap | proved | without repulsion two electrons fill the lowest orbital; with it the reference state is a trial state of known energy (TwoElectrons.v) |

## Findings: where the code does not do what its users would expect

* **C06 Spin operators follow a basis change.** change_basis drops the transformed spin matrices (basis_set.py:346-350). Proved: the negation of the claim, and for every basis exactly what happens instead.
* **C07 Array sizes always match l.** rectangular change_basis leaves spin_x/y/z/2 at the old size, and bra_spf is never resized while spf is unset. Proved for all successful histories: h, s, u, dipole, spf, spin_2_tb; all attributes under resize_safe.
* **C08 A rejected basis change leaves the basis set usable.** l is overwritten before the shapes are checked. Proved: the exact state left by every rejected call with matrix arguments.
* **C11 The anti_symmetrized_u flag tells the truth.** the u setter keeps the flag, compact DVR storage is flagged without being anti-symmetrized, spin doubling after anti-symmetrization. Proved for all histories (failing operations included) avoiding these three.
* **C15 A rejected spin doubling leaves the basis set usable.** a rejected call leaves l doubled and the includes-spin flag set; exact corrupted states proved for both rejections
* **C18 One-body spin squared operator.** for non-orthonormal overlaps: spin_2 = 3/4 kron(sss,1); holds for s = 1
* **C24 Fock matrix buffer is overwritten.** f=None raises UFuncTypeError for real h and complex u where a complex buffer works, and passing h itself as buffer loses the one-body part. Proved for all buffers of sufficient element type.
* **C26 System size bookkeeping.** for n < 0: negative particle numbers are accepted and the occupied slice then selects l+n orbitals. n+m=l, n<=l, the partition of 0..l-1 and the rejection of n>l and odd n are proved for every history.
* **C27 System and basis set agree on the size.** change_basis to fewer functions than particles raises after transforming the basis set; sharing leaves other systems stale. Proved along every history where each basis set belongs to one system and is resized only through it by successful calls.
* **C28 Systems on one basis set do not disturb each other.** GeneralOrbitalSystem(n, bs) doubles a basis set shared with another system in place. Proved for every history that does not modify the shared basis set itself.
* **C30 Deep copies are independent and faithful.** in full generality: deepcopy returns functions as they are, so an array held by a function (the lambda LaserField.h_t stores for a constant polarization) is shared between original and copy (C30_independence_refuted). Proved for every object graph, cyclic ones included: the copy is isomorphic to the original, made of new objects except modules and functions, internal references are redirected, and if reachable functions hold nothing mutable then no sequence of mutations of one shows in the other.
* **C31 Copies succeed for every basis set and system.** copy_basis with GaussianPotential always raises TypeError and leaves the original without its module; construct_general_orbital_system with a time-evolution operator always raises; copy_system raises when its operator was later set on another system. Proved: success is exactly the absence of a reachable module, and every other potential / own operator / no operator succeeds.
* **C32 Dual orbitals follow the orbitals.** after bra_spf has been read, assigning spf leaves the old cached bra_spf. Proved for all histories without that and with C_tilde = C^dagger.
* **C35 Density needs matching element types.** complex rho with real orbitals raises UFuncTypeError, bra/ket type mismatch raises AssertionError. C35_accepted_types gives the exact accepted combinations.
* **C36 Laser Hamiltonian.** a LaserField whose pulse and polarization are both constants evaluates the pulse to the polarization (two lambdas share one local). Proved whenever one of the two is callable, for every time and history of reads.
* **C38 Time-dependent Hamiltonian is covariant.** for CustomOneBodyOperator, whose matrix is not transformed by change_basis; proved for every other operator.
* **C39 An operator serves the system it was set on.** setting one operator on two systems makes the first evaluate with the second's elements. Proved along every history that never does so.
* **C46 Coulomb cache survives crashes and concurrency.** a crash while the file is written makes every later call raise ValueError, and concurrent first calls can return arrays with silent zeros. Proved for all interleavings and crash points: results are right up to zeroed entries, or an exception; files are complete once no process writes (crash-free).
* **C50 The smooth 2D double well can be constructed.** the constructor reads an unbound name l and raises NameError (AssertionError for l_ho_factor < 1) for all arguments.
* **C51 Magnetic-field basis holds the lowest states.** success for every omega fails: energies are grouped with absolute tolerances 1e-8 and 1e-6, so for omega(4l+9) < 5e-9 the constructor raises IndexError. Whenever it succeeds (omega_0 <> 0) the orbitals are the l lowest states of the infinite spectrum in order of (E, m); it succeeds if omega(l+4) >= 2e-6.
* **C58 Potential derivatives are derivatives.** SymmetricDWPotential.derivative has 3*b*x^3 instead of 4*b*x^3; all other classes are right; GaussianPotentialHardWall offers no derivative; at the kink of the double well the derivative is the mean of the two one-sided slopes
* **C60 set_u_repr switches the representation.** set_u_repr builds the new array and drops it; it changes nothing on any object and raises nothing for 2d and 4d.
* **C61 A sinc-DVR basis can be used in a GeneralOrbitalSystem.** GeneralOrbitalSystem always raises TypeError on a sinc-DVR basis without spin (the override takes no spin vectors); called directly in 2d storage the elements are flagged anti-symmetric and never are. Direct calls in 4d storage are proved right.
* **C63 Random basis symmetries.** the random two-body elements are not Hermitian (only particle exchange is imposed); they could be only if the generator drew exact zeros for all diagonal imaginary parts. Hermiticity of h, s, dipole and particle exchange of u proved for every draw.
* **C66 Casting and module change keep values.** Values and cast: proved for every state. only for 'belongs to the module' on a sinc-DVR basis with compact u (change_module records the module, converts nothing, warns); proved for all others
* **C68 Default polarization adapts to the system.** the first evaluation freezes the default polarization, so a later system with another number of dipole components raises ValueError. Proved for tours through systems of equal dimension.
* **C69 Repeated truncation of a spin-orbital basis.** for every spin-doubled basis: the second change raises ValueError with h and u left in different bases.
* **C73 2D double well uses the mass consistently.** the barrier term lacks the factor mass; true for mass = 1.
* **C74 Equal orbitals have equal Coulomb elements.** u is scaled with sqrt(omega) while the orbitals depend on mass*omega; true for equal masses.
* **C75 Smooth 2D double-well matrix.** the angular factors are wrong for m_p != m_q; right for equal m.
* **C77 Non-dipole strength of the 1D oscillator.** ODHO stores beta and never uses it
* **C118 The density of a spin-doubled basis set is the density of electrons with spin.** add_spin_spf stores every orbital twice without its spin function, so compute_particle_density adds the products of up and down orbitals; one electron with spin (3/5, 4/5) gets 49/25 of its density, with spin (1, -1)/sqrt 2 none. Characterised for all density matrices (C118_value) and proved correct when rho does not couple the spins (C118_spin_diagonal_partial, C118_closed_shell).
* **C124 Every orbital of the 1D oscillator has a positive normalization in double precision.** from orbital 151 on the factor is 0. Proved: orbitals 0..150 have a positive factor with relative error below 2^-35; the rest is 0, 0-or-NaN, or an exception, as stated.

## Not settled

* That the iterated integral of C102 (over the centre, then over the separation) may be taken in any other order; the
  order is part of its definition.
* Accuracy of floating-point evaluation outside the parts covered by C94-C101 and C137. For the Coulomb elements C137 bounds the error relative to the
  sum of the absolute values of the terms; how much these cancel is not bounded.
* The behaviour of LAPACK, PySCF, SymPy and numba themselves.
