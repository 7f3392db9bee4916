{
 "claims": [
  {
   "property": "C01",
   "status": "proved",
   "theorems": [
    "C01_one_body_formula",
    "C01_one_body_mismatch"
   ],
   "note": "All sizes, rectangular C and C_tilde; exact arithmetic."
  },
  {
   "property": "C02",
   "status": "proved",
   "theorems": [
    "C02_two_body_formula"
   ],
   "note": "All sizes; exact arithmetic."
  },
  {
   "property": "C03",
   "status": "proved",
   "theorems": [
    "C03_basis_changes_compose"
   ],
   "note": "For every ready basis whose spin matrices are unset or whose intermediate size equals l; the excluded case is C69."
  },
  {
   "property": "C04",
   "status": "proved",
   "theorems": [
    "C04_inverse_round_trip"
   ],
   "note": "Needs only C C_tilde = 1; same size condition as C03 for spin matrices."
  },
  {
   "property": "C05",
   "status": "proved",
   "theorems": [
    "C05_hermiticity_preserved"
   ],
   "note": "h, s, each dipole component, both two-body symmetries, orthonormality."
  },
  {
   "property": "C06",
   "status": "partial",
   "theorems": [
    "C06_refuted",
    "C06_spin_matrices_untouched",
    "C06_spin_2_tb_follows"
   ],
   "note": "REFUTED: change_basis drops the transformed spin matrices (basis_set.py:346-350). Proved: the negation of the claim, and for every basis exactly what happens instead."
  },
  {
   "property": "C07",
   "status": "partial",
   "theorems": [
    "C07_refuted",
    "C07_refuted_bra",
    "C07_core_sizes",
    "C07_all_sizes"
   ],
   "note": "REFUTED: rectangular change_basis leaves spin_x/y/z/2 at the old size, and bra_spf is never resized while spf is unset. Proved for all successful histories: h, s, u, dipole, spf, spin_2_tb; all attributes under resize_safe."
  },
  {
   "property": "C08",
   "status": "partial",
   "theorems": [
    "C08_refuted",
    "C08_state_after_rejection"
   ],
   "note": "REFUTED: l is overwritten before the shapes are checked. Proved: the exact state left by every rejected call with matrix arguments."
  },
  {
   "property": "C09",
   "status": "proved",
   "theorems": [
    "C09_antisymmetrize_once",
    "C09_flagged_is_final"
   ],
   "note": "four-index u, any number of calls"
  },
  {
   "property": "C10",
   "status": "proved",
   "theorems": [
    "C10_full_antisymmetry",
    "C10_survives_basis_change"
   ],
   "note": ""
  },
  {
   "property": "C100",
   "status": "proved",
   "theorems": [
    "C100_levels"
   ],
   "note": "Overflow, infinities, NaN and the sign of zero are not modelled."
  },
  {
   "property": "C101",
   "status": "proved",
   "theorems": [
    "C101_density"
   ],
   "note": "Overflow, infinities, NaN and the sign of zero are not modelled."
  },
  {
   "property": "C102",
   "status": "proved",
   "theorems": [
    "C102_coulomb_integral",
    "C102_array",
    "C102_unique"
   ],
   "note": "The double integral is iterated: first over the centre of the two positions, then over their separation (Jacobian 1). C79 gives the hypothesis of C102_array for each constructor."
  },
  {
   "property": "C103",
   "status": "proved",
   "theorems": [
    "C103_repulsive",
    "C103_energy",
    "C103_general_energy"
   ],
   "note": "C79 gives the hypothesis on the basis for each constructor."
  },
  {
   "property": "C104",
   "status": "proved",
   "theorems": [
    "C104_oscillator",
    "C104_double_well",
    "C104_field"
   ],
   "note": "Elements are stated through the two circular quantum numbers (LadderSpec.v)."
  },
  {
   "property": "C105",
   "status": "proved",
   "theorems": [
    "C105_line",
    "C105_oscillator",
    "C105_field",
    "C105_field_turning"
   ],
   "note": "The double well is left out: its h is not diagonal."
  },
  {
   "property": "C106",
   "status": "proved",
   "theorems": [
    "C106_line",
    "C106_oscillator",
    "C106_field"
   ],
   "note": "e are the diagonal entries of h, which is shown to be diagonal."
  },
  {
   "property": "C107",
   "status": "proved",
   "theorems": [
    "C107_parity",
    "C107_delta",
    "C107_elements"
   ],
   "note": "Python's & and ^ on integers are Z.land and Z.lxor (two's complement)."
  },
  {
   "property": "C108",
   "status": "proved",
   "theorems": [
    "C108_oscillator",
    "C108_field",
    "C108_double_well",
    "C108_oscillator_mirror",
    "C108_double_well_mirror"
   ],
   "note": "For spatial-orbital systems; C21 relates general-orbital systems to them."
  },
  {
   "property": "C109",
   "status": "proved",
   "theorems": [
    "C109_closed_shells",
    "C109_two_electrons",
    "C109_two_electrons_field"
   ],
   "note": "In atomic units with the library's interaction (mass enters it as C74 says)."
  },
  {
   "property": "C11",
   "status": "partial",
   "theorems": [
    "C11_refuted",
    "C11_refuted_dvr",
    "C11_refuted_double",
    "C11_flag_truthful"
   ],
   "note": "REFUTED: the u setter keeps the flag, compact DVR storage is flagged without being anti-symmetrized, spin doubling after anti-symmetrization. Proved for all histories (failing operations included) avoiding these three."
  },
  {
   "property": "C110",
   "status": "proved",
   "theorems": [
    "C110_oscillator",
    "C110_double_well",
    "C110_field"
   ],
   "note": "For every array the method returns; C33 says when it returns one."
  },
  {
   "property": "C111",
   "status": "proved",
   "theorems": [
    "C111_simple_levels"
   ],
   "note": "eigh is a parameter constrained to numpy's documented behaviour (solves), exact arithmetic."
  },
  {
   "property": "C112",
   "status": "proved",
   "theorems": [
    "C112_nodes",
    "C112_ground"
   ],
   "note": "Sign changes are counted over the stored grid values, skipping zeros (NodeSpec.v). eigh is a parameter constrained to numpy's documented behaviour (solves), exact arithmetic."
  },
  {
   "property": "C113",
   "status": "proved",
   "theorems": [
    "C113_dot",
    "C113_oscillator",
    "C113_potentials"
   ],
   "note": "eigh is a parameter constrained to numpy's documented behaviour (solves), exact arithmetic."
  },
  {
   "property": "C114",
   "status": "proved",
   "theorems": [
    "C114_interaction_dot",
    "C114_interaction_oscillator",
    "C114_dipole"
   ],
   "note": "The dipole matrix of ODHO is tridiagonal in closed form (C54). eigh is a parameter constrained to numpy's documented behaviour (solves), exact arithmetic."
  },
  {
   "property": "C115",
   "status": "proved",
   "theorems": [
    "C115_fock_dot",
    "C115_fock_oscillator",
    "C115_density_dot",
    "C115_density_oscillator"
   ],
   "note": "For spatial-orbital systems. eigh is a parameter constrained to numpy's documented behaviour (solves), exact arithmetic."
  },
  {
   "property": "C116",
   "status": "proved",
   "theorems": [
    "C116_same_basis",
    "C116_same_energy"
   ],
   "note": "eigh is a parameter constrained to numpy's documented behaviour (solves), exact arithmetic."
  },
  {
   "property": "C117",
   "status": "proved",
   "theorems": [
    "C117_values",
    "C117_error",
    "C117_limit"
   ],
   "note": "eigh is a parameter constrained to numpy's documented behaviour (solves), exact arithmetic."
  },
  {
   "property": "C118",
   "status": "partial",
   "theorems": [
    "C118_refuted",
    "C118_value",
    "C118_spin_diagonal_partial",
    "C118_closed_shell",
    "C118_tilted"
   ],
   "note": "REFUTED: add_spin_spf stores every orbital twice without its spin function, so compute_particle_density adds the products of up and down orbitals; one electron with spin (3/5, 4/5) gets 49/25 of its density, with spin (1, -1)/sqrt 2 none. Characterised for all density matrices (C118_value) and proved correct when rho does not couple the spins (C118_spin_diagonal_partial, C118_closed_shell)."
  },
  {
   "property": "C119",
   "status": "proved",
   "theorems": [
    "C119_expansion",
    "C119_gradient"
   ],
   "note": "u must have the particle-exchange symmetry. Exact arithmetic; the derivative is Coquelicot's, over the complex instance."
  },
  {
   "property": "C12",
   "status": "proved",
   "theorems": [
    "C12_spin_doubling"
   ],
   "note": "every array of change_to_general_orbital_basis, BasisSet and 4d ODSincDVR"
  },
  {
   "property": "C120",
   "status": "proved",
   "theorems": [
    "C120_brillouin"
   ],
   "note": "From C119 with the phases 1 and i."
  },
  {
   "property": "C121",
   "status": "proved",
   "theorems": [
    "C121_koopmans"
   ],
   "note": "The removed orbital is the last occupied one, as set_system_size keeps the first n."
  },
  {
   "property": "C122",
   "status": "proved",
   "theorems": [
    "C122_dot",
    "C122_oscillator",
    "C122_dvr_full",
    "C122_dvr_compact",
    "C122_change_basis",
    "C122_change_compact",
    "C122_elements"
   ],
   "note": "The shielded Coulomb function is a mixture of Gaussians, and a Gaussian of the distance is a convergent sum of squares. After a change of basis with an independent C_tilde nothing is claimed."
  },
  {
   "property": "C123",
   "status": "proved",
   "theorems": [
    "C123_spectrum"
   ],
   "note": "The matrix is the Fourier integral of k^2/2 over the wave numbers below pi/dx. Exact arithmetic."
  },
  {
   "property": "C124",
   "status": "partial",
   "theorems": [
    "C124_refuted",
    "C124_normal_partial",
    "C124_zero",
    "C124_functions",
    "C124_dipole",
    "C124_raises"
   ],
   "note": "REFUTED: from orbital 151 on the factor is 0. Proved: orbitals 0..150 have a positive factor with relative error below 2^-35; the rest is 0, 0-or-NaN, or an exception, as stated."
  },
  {
   "property": "C125",
   "status": "proved",
   "theorems": [
    "C125_schedule",
    "C125_terminates",
    "C125_no_race",
    "C125_no_garbage",
    "C125_coulomb"
   ],
   "note": "Threads interleave action by action on one shared array. Trusted: numba keeps variables assigned in a prange body private to the iteration, and stores of different elements do not interfere."
  },
  {
   "property": "C126",
   "status": "proved",
   "theorems": [
    "C126_coulomb",
    "C126_oscillator",
    "C126_double_well",
    "C126_field",
    "C126_spin"
   ],
   "note": "Exact arithmetic. Cache files on disk are assumed complete (C66 tells what happens otherwise)."
  },
  {
   "property": "C127",
   "status": "proved",
   "theorems": [
    "C127_hermitian"
   ],
   "note": "Exact arithmetic. That eigenstates exist is C129."
  },
  {
   "property": "C128",
   "status": "proved",
   "theorems": [
    "C128_dot",
    "C128_line",
    "C128_dvr",
    "C128_oscillator",
    "C128_double_well",
    "C128_field",
    "C128_change_basis",
    "C128_raise",
    "C128_dot_bound",
    "C128_line_bound",
    "C128_oscillator_bound",
    "C128_field_bound",
    "C128_dvr_bound",
    "C128_least",
    "C128_change_least",
    "C128_system",
    "C128_general"
   ],
   "note": "Exact arithmetic. No bound is given for the one-body matrix of the double well. Cache files on disk are assumed complete (C66 tells what happens otherwise)."
  },
  {
   "property": "C129",
   "status": "proved",
   "theorems": [
    "C129_spectrum",
    "C129_solver",
    "C129_matrix"
   ],
   "note": "Exact arithmetic. That numpy.linalg.eigh finds such a result is not claimed."
  },
  {
   "property": "C13",
   "status": "proved",
   "theorems": [
    "C13_doubled_once"
   ],
   "note": ""
  },
  {
   "property": "C130",
   "status": "proved",
   "theorems": [
    "C130_exists",
    "C130_fock_follows",
    "C130_promotion",
    "C130_gap"
   ],
   "note": "Exact arithmetic. Uniqueness of the minimum and convergence of any iteration towards it are not claimed."
  },
  {
   "property": "C131",
   "status": "proved",
   "theorems": [
    "C131_driven",
    "C131_rate",
    "C131_laser",
    "C131_stationary"
   ],
   "note": "Exact arithmetic and exact time; no integrator is modelled (the library has none)."
  },
  {
   "property": "C132",
   "status": "proved",
   "theorems": [
    "C132_unique",
    "C132_change",
    "C132_reference",
    "C132_constructed",
    "C132_ODHO",
    "C132_ODQD",
    "C132_TwoDim",
    "C132_TwoDimDW",
    "C132_field"
   ],
   "note": "Exact arithmetic. ODSincDVR is not nested (C133) and not claimed."
  },
  {
   "property": "C133",
   "status": "proved",
   "theorems": [
    "C133_ODHO",
    "C133_ODQD",
    "C133_TwoDim",
    "C133_TwoDimDW",
    "C133_rows",
    "C133_field",
    "C133_sinc_dvr"
   ],
   "note": "Exact arithmetic; same eigensolver results for ODQD."
  },
  {
   "property": "C134",
   "status": "proved",
   "theorems": [
    "C134_levels",
    "C134_concave",
    "C134_stronger",
    "C134_ODHO",
    "C134_ODQD",
    "C134_sinc_dvr",
    "C134_TwoDim",
    "C134_concave_ODHO",
    "C134_concave_ODQD",
    "C134_concave_sinc_dvr"
   ],
   "note": "Exact arithmetic; same eigensolver results for both calls of ODQD."
  },
  {
   "property": "C135",
   "status": "proved",
   "theorems": [
    "C135_order",
    "C135_close",
    "C135_shift",
    "C135_between"
   ],
   "note": "Exact arithmetic; the results of numpy.linalg.eigh are assumed to be an orthonormal eigenbasis with ascending eigenvalues."
  },
  {
   "property": "C136",
   "status": "proved",
   "theorems": [
    "C136_states",
    "C136_simple",
    "C136_component",
    "C136_oscillator",
    "C136_field",
    "C136_double_well",
    "C136_ODHO",
    "C136_ODQD",
    "C136_general",
    "C136_evolution"
   ],
   "note": "Exact arithmetic; for ODQD the results of numpy.linalg.eigh are assumed to be an orthonormal eigenbasis; cache files are assumed to hold what the library wrote."
  },
  {
   "property": "C137",
   "status": "proved",
   "theorems": [
    "C137_error",
    "C137_shells",
    "C137_momentum",
    "C137_exists",
    "C137_libm",
    "C137_ground"
   ],
   "note": "The errors of log, exp and lgamma are a hypothesis (met by correctly rounded functions, C137_libm). The error is relative to the sum of the absolute values of the terms: the sums cancel, so it is not small relative to the element for high orbitals. Transformations of fastmath other than reordering, fusing and contracting are not modelled."
  },
  {
   "property": "C138",
   "status": "proved",
   "theorems": [
    "C138_states",
    "C138_lower",
    "C138_raise",
    "C138_lowest_projection",
    "C138_degeneracy",
    "C138_odd",
    "C138_simple",
    "C138_library",
    "C138_polarized",
    "C138_evolution"
   ],
   "note": "Exact arithmetic. The library theorem is for the default spin functions of change_to_general_orbital_basis."
  },
  {
   "property": "C139",
   "status": "proved",
   "theorems": [
    "C139_reversed",
    "C139_lowered",
    "C139_moment",
    "C139_follow",
    "C139_ODHO",
    "C139_ODQD",
    "C139_TwoDim",
    "C139_TwoDimDW",
    "C139_TwoDimB",
    "C139_sinc_dvr",
    "C139_laser"
   ],
   "note": "Exact arithmetic. The one-dimensional dot needs beta = 0, since beta adds an even term to its dipole moment, and the eigensolver of C111."
  },
  {
   "property": "C14",
   "status": "proved",
   "theorems": [
    "C14_doubling_commutes"
   ],
   "note": ""
  },
  {
   "property": "C140",
   "status": "proved",
   "theorems": [
    "C140_states",
    "C140_values",
    "C140_spectrum",
    "C140_ground",
    "C140_repulsion",
    "C140_ODHO_free",
    "C140_ODQD_free",
    "C140_ODHO_ladder",
    "C140_ODHO",
    "C140_ODQD",
    "C140_TwoDim",
    "C140_TwoDimB"
   ],
   "note": "Exact arithmetic. The double well is left out: its h is not diagonal."
  },
  {
   "property": "C141",
   "status": "proved",
   "theorems": [
    "C141_offdiagonal",
    "C141_diagonal",
    "C141_symmetric",
    "C141_interaction"
   ],
   "note": "Flocq's binary64 format without overflow, which the ranges of L and l exclude for h. The function x ** 2 is any function within two units of roundoff; the rounding of the potential enters through its supplied values."
  },
  {
   "property": "C142",
   "status": "proved",
   "theorems": [
    "C142_exchange",
    "C142_degenerate",
    "C142_oscillator",
    "C142_field"
   ],
   "note": "Exact arithmetic. With incomplete shells, or levels cut by the number of orbitals, the basis set itself is not symmetric."
  },
  {
   "property": "C143",
   "status": "proved",
   "theorems": [
    "C143_sum",
    "C143_mean",
    "C143_system",
    "C143_sinc_dvr",
    "C143_ODHO",
    "C143_oscillator"
   ],
   "note": "Exact arithmetic."
  },
  {
   "property": "C144",
   "status": "proved",
   "theorems": [
    "C144_laser",
    "C144_custom",
    "C144_switched",
    "C144_axis",
    "C144_default",
    "C144_hermitian",
    "C144_nearly_hermitian",
    "C144_custom_hermitian",
    "C144_switched_symmetric",
    "C144_off"
   ],
   "note": "Rounding to nearest without overflow (FloatModel.v)."
  },
  {
   "property": "C145",
   "status": "proved",
   "theorems": [
    "C145_electron",
    "C145_hole",
    "C145_ODHO",
    "C145_oscillator"
   ],
   "note": "Exact arithmetic."
  },
  {
   "property": "C146",
   "status": "proved",
   "theorems": [
    "C146_holes",
    "C146_full",
    "C146_none"
   ],
   "note": "Exact arithmetic."
  },
  {
   "property": "C147",
   "status": "proved",
   "theorems": [
    "C147_reference",
    "C147_states"
   ],
   "note": "Exact arithmetic. The residual is not expressed through matrix elements."
  },
  {
   "property": "C148",
   "status": "proved",
   "theorems": [
    "C148_bounds"
   ],
   "note": "Exact arithmetic."
  },
  {
   "property": "C149",
   "status": "proved",
   "theorems": [
    "C149_oscillator",
    "C149_field"
   ],
   "note": "Exact arithmetic."
  },
  {
   "property": "C15",
   "status": "partial",
   "theorems": [
    "C15_refuted",
    "C15_no_overlap",
    "C15_bad_pair",
    "C15_no_retry"
   ],
   "note": "REFUTED: a rejected call leaves l doubled and the includes-spin flag set; exact corrupted states proved for both rejections"
  },
  {
   "property": "C16",
   "status": "proved",
   "theorems": [
    "C16_pauli_algebra"
   ],
   "note": ""
  },
  {
   "property": "C17",
   "status": "proved",
   "theorems": [
    "C17_spin_algebra",
    "C17_spin_elements"
   ],
   "note": ""
  },
  {
   "property": "C18",
   "status": "partial",
   "theorems": [
    "C18_refuted",
    "C18_spin_2_cubes_the_overlap",
    "C18_orthonormal_case"
   ],
   "note": "REFUTED for non-orthonormal overlaps: spin_2 = 3/4 kron(sss,1); holds for s = 1"
  },
  {
   "property": "C19",
   "status": "proved",
   "theorems": [
    "C19_closed_shell_singlet"
   ],
   "note": ""
  },
  {
   "property": "C20",
   "status": "proved",
   "theorems": [
    "C20_reference_energies_agree",
    "C20_without_antisymmetrization"
   ],
   "note": "For base-class basis sets with overlap set, u not anti-symmetrized beforehand and no time-evolution operator attached (with one attached construct_general_orbital_system raises TypeError)."
  },
  {
   "property": "C21",
   "status": "proved",
   "theorems": [
    "C21_fock_matrices_agree"
   ],
   "note": "Same hypotheses as C20."
  },
  {
   "property": "C22",
   "status": "proved",
   "theorems": [
    "C22_energy_from_fock"
   ],
   "note": ""
  },
  {
   "property": "C23",
   "status": "proved",
   "theorems": [
    "C23_fock_hermitian",
    "C23_energy_real"
   ],
   "note": ""
  },
  {
   "property": "C24",
   "status": "partial",
   "theorems": [
    "C24_refuted",
    "C24_buffer_irrelevant",
    "C24_none_rejected",
    "C24_aliased_buffer"
   ],
   "note": "REFUTED: f=None raises UFuncTypeError for real h and complex u where a complex buffer works, and passing h itself as buffer loses the one-body part. Proved for all buffers of sufficient element type."
  },
  {
   "property": "C25",
   "status": "proved",
   "theorems": [
    "C25_energy_rotation_invariant"
   ],
   "note": "For C with C Ct = Ct C = 1; default C_tilde covers unitary C."
  },
  {
   "property": "C26",
   "status": "partial",
   "theorems": [
    "C26_bookkeeping",
    "C26_general_accepts",
    "C26_spatial_accepts",
    "C26_spatial_rejects",
    "C26_general_rejects",
    "C26_refuted_for_negative_n"
   ],
   "note": "REFUTED for n < 0: negative particle numbers are accepted and the occupied slice then selects l+n orbitals. n+m=l, n<=l, the partition of 0..l-1 and the rejection of n>l and odd n are proved for every history."
  },
  {
   "property": "C27",
   "status": "partial",
   "theorems": [
    "C27_refuted",
    "C27_failed_change_basis",
    "C27_refuted_shared_basis",
    "C27_sizes_agree"
   ],
   "note": "REFUTED: change_basis to fewer functions than particles raises after transforming the basis set; sharing leaves other systems stale. Proved along every history where each basis set belongs to one system and is resized only through it by successful calls."
  },
  {
   "property": "C28",
   "status": "partial",
   "theorems": [
    "C28_refuted",
    "C28_undisturbed"
   ],
   "note": "REFUTED: GeneralOrbitalSystem(n, bs) doubles a basis set shared with another system in place. Proved for every history that does not modify the shared basis set itself."
  },
  {
   "property": "C29",
   "status": "proved",
   "theorems": [
    "C29_construct_general",
    "C29_originals_untouched"
   ],
   "note": ""
  },
  {
   "property": "C30",
   "status": "partial",
   "theorems": [
    "C30_copy_basis",
    "C30_copy_system",
    "C30_operator_redirected",
    "C30_independence_refuted"
   ],
   "note": "REFUTED in full generality: deepcopy returns functions as they are, so an array held by a function (the lambda LaserField.h_t stores for a constant polarization) is shared between original and copy (C30_independence_refuted). Proved for every object graph, cyclic ones included: the copy is isomorphic to the original, made of new objects except modules and functions, internal references are redirected, and if reachable functions hold nothing mutable then no sequence of mutations of one shows in the other."
  },
  {
   "property": "C31",
   "status": "partial",
   "theorems": [
    "C31_copy_basis_partial",
    "C31_copy_system_partial",
    "C31_construct_general_partial",
    "C31_gaussian",
    "C31_operator",
    "C31_shared_operator",
    "C31_copy_basis_iff",
    "C31_copy_system_iff",
    "C31_copy_basis_refuted",
    "C31_construct_general_refuted",
    "C31_set_operator"
   ],
   "note": "REFUTED: copy_basis with GaussianPotential always raises TypeError and leaves the original without its module; construct_general_orbital_system with a time-evolution operator always raises; copy_system raises when its operator was later set on another system. Proved: success is exactly the absence of a reachable module, and every other potential / own operator / no operator succeeds."
  },
  {
   "property": "C32",
   "status": "partial",
   "theorems": [
    "C32_refuted",
    "C32_dual_orbitals_follow"
   ],
   "note": "REFUTED: after bra_spf has been read, assigning spf leaves the old cached bra_spf. Proved for all histories without that and with C_tilde = C^dagger."
  },
  {
   "property": "C33",
   "status": "proved",
   "theorems": [
    "C33_density_formula",
    "C33_density_real"
   ],
   "note": "all sizes, grids and contents"
  },
  {
   "property": "C34",
   "status": "proved",
   "theorems": [
    "C34_density_rotated",
    "C34_density_rotated_formula"
   ],
   "note": "all rho (any shape and type), C, C_tilde"
  },
  {
   "property": "C35",
   "status": "partial",
   "theorems": [
    "C35_refuted",
    "C35_accepted_types"
   ],
   "note": "REFUTED: complex rho with real orbitals raises UFuncTypeError, bra/ket type mismatch raises AssertionError. C35_accepted_types gives the exact accepted combinations."
  },
  {
   "property": "C36",
   "status": "partial",
   "theorems": [
    "C36_refuted",
    "C36_constants_ignore_the_pulse",
    "C36_laser_partial"
   ],
   "note": "REFUTED: a LaserField whose pulse and polarization are both constants evaluates the pulse to the polarization (two lambdas share one local). Proved whenever one of the two is callable, for every time and history of reads."
  },
  {
   "property": "C37",
   "status": "proved",
   "theorems": [
    "C37_switching",
    "C37_custom",
    "C37_no_operator",
    "C37_flags"
   ],
   "note": "All operators, times and histories of reads."
  },
  {
   "property": "C38",
   "status": "partial",
   "theorems": [
    "C38_refuted",
    "C38_custom_matrix_untransformed",
    "C38_covariance_partial"
   ],
   "note": "REFUTED for CustomOneBodyOperator, whose matrix is not transformed by change_basis; proved for every other operator."
  },
  {
   "property": "C39",
   "status": "partial",
   "theorems": [
    "C39_refuted",
    "C39_own_operator_partial"
   ],
   "note": "REFUTED: setting one operator on two systems makes the first evaluate with the second's elements. Proved along every history that never does so."
  },
  {
   "property": "C40",
   "status": "proved",
   "theorems": [
    "C40_number_of_indices",
    "C40_indices_of_number"
   ],
   "note": "get_index_p and get_indices_nm on all of Z (loop with fuel p, shown sufficient)."
  },
  {
   "property": "C41",
   "status": "proved",
   "theorems": [
    "C41_shells",
    "C41_monotone",
    "C41_energy"
   ],
   "note": ""
  },
  {
   "property": "C42",
   "status": "proved",
   "theorems": [
    "C42_angular_momentum"
   ],
   "note": "For every table of quantum numbers; plain and magnetic-field oscillators."
  },
  {
   "property": "C43",
   "status": "proved",
   "theorems": [
    "C43_symmetries",
    "C43_mirror"
   ],
   "note": "Exchange, transposition (elements are real), and reversal of all angular momenta, for all states."
  },
  {
   "property": "C44",
   "status": "proved",
   "theorems": [
    "C44_formula"
   ],
   "note": "Code's logarithmic evaluation equals the closed formula of Anisimovas and Matulis in exact real arithmetic, for every function satisfying the Gamma recursion; independent specification in CoulombSpec.v. That the formula equals the integral is not proved."
  },
  {
   "property": "C45",
   "status": "proved",
   "theorems": [
    "C45_transparent",
    "C45_files_stay_valid",
    "C45_readonly_directory"
   ],
   "note": "Sequential histories of calls of any length; a directory that cannot be written raises OSError, characterised."
  },
  {
   "property": "C46",
   "status": "partial",
   "theorems": [
    "C46_refuted",
    "C46_crash_is_permanent",
    "C46_concurrent_refuted",
    "C46_silent_zeros",
    "C46_right_or_zero_partial",
    "C46_quiescence_partial",
    "C46_steps_agree"
   ],
   "note": "REFUTED: a crash while the file is written makes every later call raise ValueError, and concurrent first calls can return arrays with silent zeros. Proved for all interleavings and crash points: results are right up to zeroed entries, or an exception; files are complete once no process writes (crash-free)."
  },
  {
   "property": "C47",
   "status": "proved",
   "theorems": [
    "C47_theta"
   ],
   "note": "All four angular integrals, every pair of integers."
  },
  {
   "property": "C48",
   "status": "proved",
   "theorems": [
    "C48_hermitian",
    "C48_selection_rule",
    "C48_values"
   ],
   "note": "Also: the elements are the integrals of x and y between the orbitals (improper Riemann integrals in polar coordinates)."
  },
  {
   "property": "C49",
   "status": "proved",
   "theorems": [
    "C49_hermitian",
    "C49_no_barrier",
    "C49_parity",
    "C49_values"
   ],
   "note": "Also: h is the matrix of T + oscillator + omega^2/2 (b^2/4 - b|x|)."
  },
  {
   "property": "C50",
   "status": "partial",
   "theorems": [
    "C50_refuted",
    "C50_always_raises"
   ],
   "note": "REFUTED: the constructor reads an unbound name l and raises NameError (AssertionError for l_ho_factor < 1) for all arguments."
  },
  {
   "property": "C51",
   "status": "partial",
   "theorems": [
    "C51_refuted",
    "C51_lowest_states",
    "C51_succeeds_partial",
    "C51_fails_below_resolution"
   ],
   "note": "REFUTED: success for every omega fails: energies are grouped with absolute tolerances 1e-8 and 1e-6, so for omega(4l+9) < 5e-9 the constructor raises IndexError. Whenever it succeeds (omega_0 <> 0) the orbitals are the l lowest states of the infinite spectrum in order of (E, m); it succeeds if omega(l+4) >= 2e-6."
  },
  {
   "property": "C52",
   "status": "proved",
   "theorems": [
    "C52_field_free",
    "C52_field_free_rows"
   ],
   "note": "For omega_0 <> 0: whenever the basis can be built, and it can for |omega_0|(l+4) >= 2e-6."
  },
  {
   "property": "C53",
   "status": "proved",
   "theorems": [
    "C53_dot",
    "C53_oscillator",
    "C53_dot_values"
   ],
   "note": "numba loops as sums over the complex numbers; exact arithmetic"
  },
  {
   "property": "C54",
   "status": "proved",
   "theorems": [
    "C54_orthonormal",
    "C54_dipole"
   ],
   "note": "numpy.linalg.eigh is a parameter assumed to return an orthonormal ascending eigenbasis of the one matrix it is given"
  },
  {
   "property": "C55",
   "status": "proved",
   "theorems": [
    "C55_sizes",
    "C55_ready",
    "C55_oscillator_ready"
   ],
   "note": "raises exactly when N < 3 or l > N - 2"
  },
  {
   "property": "C56",
   "status": "proved",
   "theorems": [
    "C56_dipole",
    "C56_energies"
   ],
   "note": ""
  },
  {
   "property": "C57",
   "status": "proved",
   "theorems": [
    "C57_linear",
    "C57_rule",
    "C57_numpy",
    "C57_affine"
   ],
   "note": ""
  },
  {
   "property": "C58",
   "status": "partial",
   "theorems": [
    "C58_refuted",
    "C58_derivative_partial",
    "C58_symmetric_double_well",
    "C58_double_well",
    "C58_kink"
   ],
   "note": "REFUTED: SymmetricDWPotential.derivative has 3*b*x^3 instead of 4*b*x^3; all other classes are right; GaussianPotentialHardWall offers no derivative; at the kink of the double well the derivative is the mean of the two one-sided slopes"
  },
  {
   "property": "C59",
   "status": "proved",
   "theorems": [
    "C59_transform",
    "C59_change",
    "C59_doubled",
    "C59_constructed"
   ],
   "note": "Method with and without direct anti-symmetrization over any scalar; change of basis and spin doubling followed by change of basis on any compact object; and the two objects ODSincDVR constructs."
  },
  {
   "property": "C60",
   "status": "partial",
   "theorems": [
    "C60_refuted",
    "C60_never_switches",
    "C60_silent"
   ],
   "note": "REFUTED: set_u_repr builds the new array and drops it; it changes nothing on any object and raises nothing for 2d and 4d."
  },
  {
   "property": "C61",
   "status": "partial",
   "theorems": [
    "C61_constructs_refuted",
    "C61_always_raises",
    "C61_antisymmetric_refuted",
    "C61_flagged_only",
    "C61_full_storage"
   ],
   "note": "REFUTED: GeneralOrbitalSystem always raises TypeError on a sinc-DVR basis without spin (the override takes no spin vectors); called directly in 2d storage the elements are flagged anti-symmetric and never are. Direct calls in 4d storage are proved right."
  },
  {
   "property": "C62",
   "status": "proved",
   "theorems": [
    "C62_one_body",
    "C62_two_body",
    "C62_accepts"
   ],
   "note": "Over the complex numbers with real pi, sqrt, sin. Includes when the constructor raises."
  },
  {
   "property": "C63",
   "status": "partial",
   "theorems": [
    "C63_symmetries_partial",
    "C63_hermitian_refuted",
    "C63_hermitian_only_if",
    "C63_ready"
   ],
   "note": "REFUTED: the random two-body elements are not Hermitian (only particle exchange is imposed); they could be only if the generator drew exact zeros for all diagonal imaginary parts. Hermiticity of h, s, dipole and particle exchange of u proved for every draw."
  },
  {
   "property": "C64",
   "status": "proved",
   "theorems": [
    "C64_atomic",
    "C64_molecular",
    "C64_overlap",
    "C64_odd_rejected",
    "C64_symmetries"
   ],
   "note": "PySCF is an oracle returning arbitrary integrals of the announced shapes. Both constructors, with and without spin; k molecular orbitals, any k."
  },
  {
   "property": "C65",
   "status": "proved",
   "theorems": [
    "C65_steps_in_order",
    "C65_calls",
    "C65_stops",
    "C65_dump",
    "C65_dump_fails",
    "C65_map",
    "C65_collects"
   ],
   "note": "Samplers are arbitrary user code on a shared state; every history of sample, dump, add_sample and get_samples, with exceptions caught by the caller."
  },
  {
   "property": "C66",
   "status": "partial",
   "theorems": [
    "C66_cast_keeps_values",
    "C66_module_keeps_values",
    "C66_arrays_move",
    "C66_refuted"
   ],
   "note": "Values and cast: proved for every state. REFUTED only for 'belongs to the module' on a sinc-DVR basis with compact u (change_module records the module, converts nothing, warns); proved for all others"
  },
  {
   "property": "C67",
   "status": "proved",
   "theorems": [
    "C67_previews"
   ],
   "note": ""
  },
  {
   "property": "C68",
   "status": "partial",
   "theorems": [
    "C68_refuted",
    "C68_frozen_polarization",
    "C68_same_dimension_partial"
   ],
   "note": "REFUTED: the first evaluation freezes the default polarization, so a later system with another number of dipole components raises ValueError. Proved for tours through systems of equal dimension."
  },
  {
   "property": "C69",
   "status": "partial",
   "theorems": [
    "C69_refuted_second_rectangular_change"
   ],
   "note": "REFUTED for every spin-doubled basis: the second change raises ValueError with h and u left in different bases."
  },
  {
   "property": "C70",
   "status": "proved",
   "theorems": [
    "C70_reference_energy_formula",
    "C70_fock_formula"
   ],
   "note": ""
  },
  {
   "property": "C71",
   "status": "proved",
   "theorems": [
    "C71_orthonormal",
    "C71_orthonormal_table"
   ],
   "note": "Via orthogonality of the associated Laguerre polynomials, proved for all degrees."
  },
  {
   "property": "C72",
   "status": "proved",
   "theorems": [
    "C72_oscillator_matrix",
    "C72_field_matrix",
    "C72_field_rows",
    "C72_unique"
   ],
   "note": "Via the Laguerre differential equation; partial derivatives away from the origin."
  },
  {
   "property": "C73",
   "status": "partial",
   "theorems": [
    "C73_refuted",
    "C73_unit_mass_partial",
    "C73_correct_matrix"
   ],
   "note": "REFUTED: the barrier term lacks the factor mass; true for mass = 1."
  },
  {
   "property": "C74",
   "status": "partial",
   "theorems": [
    "C74_refuted",
    "C74_orbitals_depend_on_the_product",
    "C74_equal_mass_partial"
   ],
   "note": "REFUTED: u is scaled with sqrt(omega) while the orbitals depend on mass*omega; true for equal masses."
  },
  {
   "property": "C75",
   "status": "partial",
   "theorems": [
    "C75_refuted",
    "C75_same_m_partial",
    "C75_parity_of_the_potential"
   ],
   "note": "REFUTED: the angular factors are wrong for m_p != m_q; right for equal m."
  },
  {
   "property": "C76",
   "status": "proved",
   "theorems": [
    "C76_oscillator_functions"
   ],
   "note": ""
  },
  {
   "property": "C77",
   "status": "partial",
   "theorems": [
    "C77_refuted",
    "C77_beta_ignored"
   ],
   "note": "REFUTED: ODHO stores beta and never uses it"
  },
  {
   "property": "C78",
   "status": "proved",
   "theorems": [
    "C78_collocation"
   ],
   "note": "Cardinal function defined by the integral of cos(pi y t) over [0,1]; its derivatives are computed and compared with the stored h."
  },
  {
   "property": "C79",
   "status": "proved",
   "theorems": [
    "C79_oscillator",
    "C79_double_well",
    "C79_field",
    "C79_field_raises"
   ],
   "note": "Objects produced by the three working constructors, including the disk cache environment and array-module conversion. SymPy integration is exact; u is compared with the closed formula of C44."
  },
  {
   "property": "C80",
   "status": "proved",
   "theorems": [
    "C80_no_barrier",
    "C80_no_field"
   ],
   "note": "All attributes compared (element types may differ)."
  },
  {
   "property": "C81",
   "status": "proved",
   "theorems": [
    "C81_particle_number"
   ],
   "note": ""
  },
  {
   "property": "C82",
   "status": "proved",
   "theorems": [
    "C82_energy_bounds"
   ],
   "note": ""
  },
  {
   "property": "C83",
   "status": "proved",
   "theorems": [
    "C83_dot",
    "C83_oscillator",
    "C83_energy",
    "C83_general_energy"
   ],
   "note": "The energy theorems are for any basis with repulsive elements; the first two provide them."
  },
  {
   "property": "C84",
   "status": "proved",
   "theorems": [
    "C84_laser",
    "C84_switching",
    "C84_custom"
   ],
   "note": "Two constants as pulse and polarization are excluded (C36)."
  },
  {
   "property": "C85",
   "status": "proved",
   "theorems": [
    "C85_trapezoid_error",
    "C85_converges"
   ],
   "note": "Exact arithmetic."
  },
  {
   "property": "C86",
   "status": "proved",
   "theorems": [
    "C86_levels"
   ],
   "note": "Residual bound; requires l = num_grid_points - 2."
  },
  {
   "property": "C87",
   "status": "proved",
   "theorems": [
    "C87_minimum"
   ],
   "note": "Ky Fan's minimum principle."
  },
  {
   "property": "C88",
   "status": "proved",
   "theorems": [
    "C88_fermions",
    "C88_reference_energy",
    "C88_constructed"
   ],
   "note": "States are functions of the occupation; C88_fermions shows the operators used in the statements are those of fermions."
  },
  {
   "property": "C89",
   "status": "proved",
   "theorems": [
    "C89_C90_fock"
   ],
   "note": ""
  },
  {
   "property": "C90",
   "status": "proved",
   "theorems": [
    "C89_C90_fock"
   ],
   "note": ""
  },
  {
   "property": "C91",
   "status": "proved",
   "theorems": [
    "C91_C92_spin"
   ],
   "note": "Identity overlap, as in C17."
  },
  {
   "property": "C92",
   "status": "proved",
   "theorems": [
    "C91_C92_spin",
    "C92_particle_number"
   ],
   "note": "Identity overlap."
  },
  {
   "property": "C93",
   "status": "proved",
   "theorems": [
    "C93_hamiltonian",
    "C93_operators"
   ],
   "note": ""
  },
  {
   "property": "C94",
   "status": "proved",
   "theorems": [
    "C94_antisymmetry",
    "C94_spin"
   ],
   "note": "Overflow, infinities, NaN and the sign of zero are not modelled."
  },
  {
   "property": "C95",
   "status": "proved",
   "theorems": [
    "C95_one_body",
    "C95_two_body",
    "C95_functions",
    "C95_growth"
   ],
   "note": "Overflow, infinities, NaN and the sign of zero are not modelled. C95_growth puts (1+u)^k - 1 into numbers."
  },
  {
   "property": "C96",
   "status": "proved",
   "theorems": [
    "C96_energy",
    "C96_fock"
   ],
   "note": "Overflow, infinities, NaN and the sign of zero are not modelled."
  },
  {
   "property": "C97",
   "status": "proved",
   "theorems": [
    "C97_grid"
   ],
   "note": "Overflow, infinities, NaN and the sign of zero are not modelled."
  },
  {
   "property": "C98",
   "status": "proved",
   "theorems": [
    "C98_kernel"
   ],
   "note": "Overflow, infinities, NaN and the sign of zero are not modelled."
  },
  {
   "property": "C99",
   "status": "proved",
   "theorems": [
    "C99_trapezoidal",
    "C99_integrals"
   ],
   "note": "Overflow, infinities, NaN and the sign of zero are not modelled."
  }
 ]
}