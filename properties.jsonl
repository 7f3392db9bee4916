{"id": "C01", "title": "One-body basis transformation formula", "statement": "BasisSet.transform_one_body_elements(h, C, np, C_tilde) returns the matrix whose (p,q) entry is the sum over a,b of C_tilde[p,a]*h[a,b]*C[b,q]; when C_tilde is omitted it is the conjugate transpose of C. Incompatible shapes raise ValueError, and the inputs are not modified.", "quantifier": "every size, every rectangular C and C_tilde, every matrix content", "why_tests_cant": "the tests compare one random 10x10 square draw", "anchors": ["quantum_systems/basis_set.py:transform_one_body_elements"]}
{"id": "C02", "title": "Two-body basis transformation formula", "statement": "BasisSet.transform_two_body_elements(u, C, np, C_tilde) returns the four-index array whose (p,q,r,s) entry is the sum over a,b,c,d of C_tilde[p,a]*C_tilde[q,b]*C[c,r]*C[d,s]*u[a,b,c,d]; the sequence of tensordot/transpose calls puts every axis in its place.", "quantifier": "every size, every rectangular C and C_tilde, every u", "why_tests_cant": "a swapped axis is invisible on symmetric data or square C; tests use one random square draw", "anchors": ["quantum_systems/basis_set.py:transform_two_body_elements"]}
{"id": "C03", "title": "Basis changes compose", "statement": "Calling change_basis(C1, Ct1) and then change_basis(C2, Ct2) leaves h, s, u, every dipole component, the single-particle functions and their duals with the same values as one change_basis(C1 C2, Ct2 Ct1).", "quantifier": "every basis set, every pair of rectangular coefficient matrices with compatible shapes; spin matrices unset or the intermediate size equal to l (see C69 for the rest)", "why_tests_cant": "algebraic law over all contents and all sizes", "anchors": ["quantum_systems/basis_set.py:BasisSet.change_basis", "quantum_systems/system.py:QuantumSystem.change_basis"]}
{"id": "C04", "title": "Basis change with an inverse pair is undone", "statement": "If C Ct = 1 and Ct C = 1, then change_basis(C, Ct) followed by change_basis(Ct, C) restores l, h, s, u, dipole moment, spf and bra_spf exactly.", "quantifier": "every basis set and every invertible C with inverse Ct; spin matrices unset or the intermediate size equal to l (see C69 for the rest)", "why_tests_cant": "round-trip for all sizes and contents", "anchors": ["quantum_systems/basis_set.py:BasisSet.change_basis"]}
{"id": "C05", "title": "Hermiticity and orthonormality are preserved", "statement": "With the default C_tilde, change_basis maps Hermitian h, s and dipole matrices to Hermitian ones and preserves the two-body symmetries u[pqrs]=u[qpsr] and u[pqrs]=conj(u[rspq]); if the overlap is the identity and Ct C = 1 the new overlap is again the identity.", "quantifier": "every size, every rectangular C, every Hermitian content", "why_tests_cant": "holds for all contents; tests only look at stored reference arrays", "anchors": ["quantum_systems/basis_set.py:BasisSet.change_basis"]}
{"id": "C06", "title": "Spin operators follow a basis change", "statement": "After change_basis(C, Ct) on a spin-doubled basis the operators spin_x, spin_y, spin_z and spin_2 are the operators expressed in the new basis, i.e. Ct S C, with axes of the new length.", "quantifier": "every spin-doubled basis set and every C", "why_tests_cant": "the suite never reads spin_x after change_basis, and C=1 hides the fault", "anchors": ["quantum_systems/basis_set.py:_change_basis_one_body_elements"]}
{"id": "C07", "title": "Array sizes always match l", "statement": "After any sequence of successfully completed public operations, every axis of h, s, u, each dipole component, the spin matrices and the first axis of spf/bra_spf has length l.", "quantifier": "every history of public BasisSet operations", "why_tests_cant": "invariant over histories of unbounded length", "anchors": ["quantum_systems/basis_set.py:BasisSet.h", "quantum_systems/basis_set.py:BasisSet.check_axis_lengths", "quantum_systems/basis_set.py:BasisSet.change_basis"]}
{"id": "C08", "title": "A rejected basis change leaves the basis set usable", "statement": "If change_basis raises (for instance because C does not have l rows), the basis set is as it was before the call.", "quantifier": "every basis set and every argument for which the call raises", "why_tests_cant": "needs the state at every failure point", "anchors": ["quantum_systems/basis_set.py:BasisSet.change_basis", "quantum_systems/system.py:QuantumSystem.change_basis"]}
{"id": "C09", "title": "Anti-symmetrization gives anti-symmetric elements once and only once", "statement": "anti_symmetrize_two_body_elements replaces u[pqrs] by u[pqrs]-u[pqsr], which is antisymmetric in its last two indices; calling it any further number of times changes nothing.", "quantifier": "every u, every number of repeated calls", "why_tests_cant": "idempotence for all contents and call counts", "anchors": ["quantum_systems/basis_set.py:anti_symmetrize_two_body_elements", "quantum_systems/basis_set.py:anti_symmetrize_u"]}
{"id": "C10", "title": "Full antisymmetry", "statement": "If u[pqrs]=u[qpsr] before anti-symmetrization then afterwards u[pqrs] = -u[qprs] = -u[pqsr] = u[qpsr], and the same survives any later change of basis.", "quantifier": "every u with particle-exchange symmetry, every C and C_tilde", "why_tests_cant": "tests sample three systems with fixed sizes", "anchors": ["quantum_systems/basis_set.py:anti_symmetrize_u"]}
{"id": "C11", "title": "The anti_symmetrized_u flag tells the truth", "statement": "Whenever anti_symmetrized_u is True, u is antisymmetric under exchange of its last two indices.", "quantifier": "every history of public operations starting from a fresh basis set", "why_tests_cant": "the flag and the data can drift apart only along particular histories", "anchors": ["quantum_systems/basis_set.py:BasisSet.anti_symmetrized_u", "quantum_systems/basis_set.py:anti_symmetrize_two_body_elements", "quantum_systems/sinc_dvr/one_dim/sinc_dvr.py:anti_symmetrize_u"]}
{"id": "C12", "title": "Spin doubling of the matrix elements", "statement": "change_to_general_orbital_basis doubles l; new element h[P,Q] is h[P//2,Q//2] if P and Q have equal parity and 0 otherwise (same for s and every dipole component), u[P,Q,R,S] is u[P//2,Q//2,R//2,S//2] when P,R and Q,S have pairwise equal parity and 0 otherwise (minus its exchange partner if anti-symmetrized), and spf[P] = spf[P//2].", "quantifier": "every basis set, every index", "why_tests_cant": "tests use a single size with random content", "anchors": ["quantum_systems/basis_set.py:change_to_general_orbital_basis", "quantum_systems/basis_set.py:add_spin_one_body", "quantum_systems/basis_set.py:add_spin_two_body", "quantum_systems/basis_set.py:add_spin_spf", "quantum_systems/system_helper.py:spin_delta"]}
{"id": "C13", "title": "Spin doubling happens at most once", "statement": "Once a basis set includes spin, further calls of change_to_general_orbital_basis leave every array and l unchanged.", "quantifier": "every history", "why_tests_cant": "any number of repetitions", "anchors": ["quantum_systems/basis_set.py:change_to_general_orbital_basis"]}
{"id": "C14", "title": "Spin doubling commutes with spatial basis changes", "statement": "Changing basis by C and then spin-doubling gives the same h, s, u, dipole moment and spf as spin-doubling and then changing basis by kron(C, 1_2).", "quantifier": "every basis set, every rectangular C and C_tilde, anti-symmetrized or not", "why_tests_cant": "equality of two operation orders for all contents", "anchors": ["quantum_systems/basis_set.py:change_to_general_orbital_basis", "quantum_systems/basis_set.py:change_basis"]}
{"id": "C15", "title": "A rejected spin doubling leaves the basis set usable", "statement": "If change_to_general_orbital_basis raises (spin vectors not orthonormal, or no overlap set) the basis set is as it was before.", "quantifier": "every basis set and spin vectors for which the call raises", "why_tests_cant": "needs the state at every failure point", "anchors": ["quantum_systems/basis_set.py:change_to_general_orbital_basis"]}
{"id": "C16", "title": "Pauli matrices in any spin basis", "statement": "For every orthonormal pair of spin vectors, setup_pauli_matrices returns Hermitian, traceless matrices that square to the identity and satisfy sigma_x sigma_y = i sigma_z and cyclic permutations.", "quantifier": "every orthonormal pair a, b of complex 2-vectors", "why_tests_cant": "continuum of spin bases", "anchors": ["quantum_systems/basis_set.py:setup_pauli_matrices"]}
{"id": "C17", "title": "Spin matrices obey angular momentum algebra", "statement": "After spin doubling an orthonormal basis, [Sx,Sy]=i Sz and cyclic; element (P,Q) of S_k is half the overlap of the spatial parts times the Pauli element of the spin parts.", "quantifier": "every basis size and every orthonormal spin pair", "why_tests_cant": "all sizes and all spin directions", "anchors": ["quantum_systems/basis_set.py:change_to_general_orbital_basis"]}
{"id": "C18", "title": "One-body spin squared operator", "statement": "spin_2 is the one-body operator S^2, i.e. (3/4) times the overlap matrix of the spin-orbitals.", "quantifier": "every overlap matrix, including the non-orthogonal ones PySCF AO bases have", "why_tests_cant": "tests only use orthonormal orbitals (the suite has a TODO about it)", "anchors": ["quantum_systems/basis_set.py:BasisSet.setup_spin_squared_operator", "quantum_systems/custom_system.py:construct_pyscf_system_ao"]}
{"id": "C19", "title": "Closed-shell reference is a singlet", "statement": "For an orthonormal spatial basis of any size and n/2 doubly occupied orbitals, the expectation value of S^2 in the reference determinant computed from spin_2 and the anti-symmetrized spin_2_tb is 0.", "quantifier": "every l, every even n, every orthonormal spin pair", "why_tests_cant": "all sizes", "anchors": ["quantum_systems/basis_set.py:BasisSet.setup_spin_squared_operator"]}
{"id": "C20", "title": "Reference energy is representation independent", "statement": "construct_general_orbital_system().compute_reference_energy() equals compute_reference_energy() of the closed-shell spatial system it was made from.", "quantifier": "every h, u, every l and every even particle number", "why_tests_cant": "equality of two formulas for all matrix elements", "anchors": ["quantum_systems/spatial_orbital_system.py:compute_reference_energy", "quantum_systems/general_orbital_system.py:compute_reference_energy", "quantum_systems/spatial_orbital_system.py:construct_general_orbital_system"]}
{"id": "C21", "title": "Fock matrix is representation independent", "statement": "The Fock matrix of the constructed general system equals kron(F, 1_2) where F is the restricted Fock matrix of the spatial system.", "quantifier": "every h, u, every l and n", "why_tests_cant": "all contents", "anchors": ["quantum_systems/spatial_orbital_system.py:construct_fock_matrix", "quantum_systems/general_orbital_system.py:construct_fock_matrix"]}
{"id": "C22", "title": "Reference energy from the Fock matrix", "statement": "The general-orbital reference energy is half the sum over occupied i of h[i,i]+f[i,i]; the restricted one is the sum of h[i,i]+f[i,i].", "quantifier": "every h, u, n, l", "why_tests_cant": "identity linking two API functions for all inputs", "anchors": ["quantum_systems/spatial_orbital_system.py:compute_reference_energy", "quantum_systems/general_orbital_system.py:compute_reference_energy", "quantum_systems/general_orbital_system.py:construct_fock_matrix"]}
{"id": "C23", "title": "Fock matrix is Hermitian", "statement": "If h is Hermitian and u has the symmetries of a Hermitian two-body operator, construct_fock_matrix returns a Hermitian matrix, and the reference energy is real.", "quantifier": "every h, u, n, l", "why_tests_cant": "all contents", "anchors": ["quantum_systems/spatial_orbital_system.py:construct_fock_matrix", "quantum_systems/general_orbital_system.py:construct_fock_matrix"]}
{"id": "C24", "title": "Fock matrix buffer is overwritten", "statement": "construct_fock_matrix(h, u, f) returns the same matrix whatever f contained, equal to the one returned with f=None.", "quantifier": "every buffer content of the right shape", "why_tests_cant": "all stale buffer contents", "anchors": ["quantum_systems/spatial_orbital_system.py:construct_fock_matrix", "quantum_systems/general_orbital_system.py:construct_fock_matrix"]}
{"id": "C25", "title": "Reference energy is invariant under orbital rotations that keep the occupied space", "statement": "Changing basis by a block-diagonal C (occupied-occupied and virtual-virtual blocks, C_tilde its inverse) does not change compute_reference_energy.", "quantifier": "every system and every such C", "why_tests_cant": "continuous family of rotations", "anchors": ["quantum_systems/system.py:change_basis", "quantum_systems/general_orbital_system.py:compute_reference_energy", "quantum_systems/spatial_orbital_system.py:compute_reference_energy"]}
{"id": "C26", "title": "System size bookkeeping", "statement": "For every constructed system and after every successful operation: n + m = l, the occupied and virtual slices together enumerate 0..l-1 exactly once, and the occupied slice selects n orbitals; n > l and (for spatial systems) odd n are rejected.", "quantifier": "every integer n (including negative) and every history", "why_tests_cant": "all integers and histories", "anchors": ["quantum_systems/system.py:set_system_size", "quantum_systems/spatial_orbital_system.py:SpatialOrbitalSystem.__init__", "quantum_systems/system.py:QuantumSystem.change_basis"]}
{"id": "C27", "title": "System and basis set agree on the size", "statement": "After any history of operations on a system, successful or not, system.l equals the number of basis functions of its basis set.", "quantifier": "every history including calls that raise", "why_tests_cant": "failure interleavings", "anchors": ["quantum_systems/system.py:QuantumSystem.change_basis", "quantum_systems/system.py:QuantumSystem.__init__"]}
{"id": "C28", "title": "Systems on one basis set do not disturb each other", "statement": "Creating or using one system does not change the matrix elements another system sees.", "quantifier": "every pair of systems and every history", "why_tests_cant": "aliasing shows up only for particular combinations", "anchors": ["quantum_systems/general_orbital_system.py:GeneralOrbitalSystem.__init__", "quantum_systems/spatial_orbital_system.py:construct_general_orbital_system", "quantum_systems/basis_set.py:change_to_general_orbital_basis"]}
{"id": "C29", "title": "construct_general_orbital_system leaves the spatial system untouched", "statement": "construct_general_orbital_system returns a system with l doubled and n doubled while every array of the original system keeps its value.", "quantifier": "every spatial system", "why_tests_cant": "all states", "anchors": ["quantum_systems/spatial_orbital_system.py:construct_general_orbital_system", "quantum_systems/basis_set.py:copy_basis"]}
{"id": "C30", "title": "Deep copies are independent and faithful", "statement": "copy_basis and copy_system return an object graph equal in content to the original that shares no mutable object with it, with internal references (operator to system) redirected to the copies; later mutation of one never shows in the other.", "quantifier": "every object graph, including cyclic ones, and every later mutation sequence", "why_tests_cant": "graph-shape and mutation-sequence quantification", "anchors": ["quantum_systems/basis_set.py:copy_basis", "quantum_systems/system.py:copy_system"]}
{"id": "C31", "title": "Copies succeed for every basis set and system", "statement": "copy_basis, copy_system and construct_general_orbital_system succeed for every library object: any potential, with or without a time-evolution operator.", "quantifier": "every library-constructible object", "why_tests_cant": "the suite copies one ODQD system without operator", "anchors": ["quantum_systems/basis_set.py:copy_basis", "quantum_systems/system.py:copy_system", "quantum_systems/spatial_orbital_system.py:construct_general_orbital_system", "quantum_systems/quantum_dots/one_dim/one_dim_potentials.py:GaussianPotential"]}
{"id": "C32", "title": "Dual orbitals follow the orbitals", "statement": "While the user has not assigned bra_spf, bra_spf equals the complex conjugate of the current spf.", "quantifier": "every history of public operations", "why_tests_cant": "the getter caches, so the fault depends on the history", "anchors": ["quantum_systems/basis_set.py:bra_spf", "quantum_systems/basis_set.py:change_module", "quantum_systems/basis_set.py:spf"]}
{"id": "C33", "title": "Particle density formula", "statement": "compute_particle_density(rho) at every grid point is the sum over p,q of bra_spf[p]*rho[q,p]*spf[q]; it is real for Hermitian rho when bra_spf is the conjugate of spf.", "quantifier": "every rho, spf and grid point", "why_tests_cant": "all contents", "anchors": ["quantum_systems/system_helper.py:compute_particle_density", "quantum_systems/basis_set.py:compute_particle_density"]}
{"id": "C34", "title": "Particle density in a rotated basis", "statement": "compute_particle_density(rho, C, C_tilde) equals change_basis(C, C_tilde) followed by compute_particle_density(rho), does not modify the basis set, and equals the density of C rho C_tilde in the original basis.", "quantifier": "every rho, C, C_tilde, spf", "why_tests_cant": "all contents and rectangular shapes", "anchors": ["quantum_systems/basis_set.py:compute_particle_density", "quantum_systems/system.py:compute_particle_density"]}
{"id": "C35", "title": "Density needs matching element types", "statement": "compute_particle_density succeeds for every density matrix of the right shape.", "quantifier": "every element type combination", "why_tests_cant": "type combinations not in the suite", "anchors": ["quantum_systems/system_helper.py:compute_particle_density"]}
{"id": "C36", "title": "Laser Hamiltonian", "statement": "With a LaserField set, h_t(t) = h + E(t) * sum_i eps_i(t) d_i with eps the x direction by default; the value at t does not depend on which or how many earlier calls were made, and u_t(t)=u.", "quantifier": "every pulse, polarization (constant or callable), time and call history", "why_tests_cant": "call histories: the operator rewrites its own fields on first use", "anchors": ["quantum_systems/time_evolution_operators/operator.py:LaserField.h_t"]}
{"id": "C37", "title": "Switching and custom operators", "statement": "With AdiabaticSwitching(f), u_t(t)=f(t)*u and h_t=h; with CustomOneBodyOperator(w,A), h_t(t)=h+w(t)*A and u_t=u; with no operator h_t=h and u_t=u, and the has_one_body/has_two_body flags say which part is time dependent.", "quantifier": "every operator, time and call history", "why_tests_cant": "call histories", "anchors": ["quantum_systems/time_evolution_operators/operator.py:AdiabaticSwitching", "quantum_systems/time_evolution_operators/operator.py:CustomOneBodyOperator", "quantum_systems/system.py:h_t", "quantum_systems/system.py:u_t", "quantum_systems/system.py:set_time_evolution_operator"]}
{"id": "C38", "title": "Time-dependent Hamiltonian is covariant", "statement": "After system.change_basis(C, Ct), h_t(t) is Ct h_t_old(t) C and u_t(t) the transform of u_t_old(t), whichever operator is set.", "quantifier": "every operator, C and time", "why_tests_cant": "all operators and contents", "anchors": ["quantum_systems/time_evolution_operators/operator.py:LaserField.h_t", "quantum_systems/time_evolution_operators/operator.py:CustomOneBodyOperator.h_t", "quantum_systems/system.py:change_basis"]}
{"id": "C39", "title": "An operator serves the system it was set on", "statement": "system.h_t(t) and u_t(t) depend only on that system's own matrix elements and its operator.", "quantifier": "every assignment history of operators to systems", "why_tests_cant": "shared operators only show the fault in certain orders", "anchors": ["quantum_systems/system.py:set_time_evolution_operator", "quantum_systems/time_evolution_operators/operator.py:set_system"]}
{"id": "C40", "title": "2D oscillator indexing is a bijection", "statement": "get_indices_nm and get_index_p are mutually inverse bijections between orbital numbers p >= 0 and quantum numbers (n >= 0, m).", "quantifier": "every p and every (n, m)", "why_tests_cant": "infinite domain; floating-point middle test and parity cases", "anchors": ["quantum_systems/quantum_dots/two_dim/two_dim_helper.py:get_index_p", "quantum_systems/quantum_dots/two_dim/two_dim_helper.py:get_indices_nm"]}
{"id": "C41", "title": "2D oscillator orbitals come in shells of rising energy", "statement": "The diagonal one-body energies 2n+|m|+1 are non-decreasing in p and the k-th energy value is taken by exactly k consecutive orbitals.", "quantifier": "every number of orbitals", "why_tests_cant": "infinite domain", "anchors": ["quantum_systems/quantum_dots/two_dim/two_dim_helper.py:get_shell_energy", "quantum_systems/quantum_dots/two_dim/two_dim_helper.py:get_one_body_elements"]}
{"id": "C42", "title": "Coulomb elements conserve angular momentum", "statement": "The 2D Coulomb element u[p,q,r,s] vanishes unless m_p+m_q = m_r+m_s.", "quantifier": "every four orbitals", "why_tests_cant": "infinite domain", "anchors": ["quantum_systems/quantum_dots/two_dim/coulomb_elements.py:coulomb_ho", "quantum_systems/quantum_dots/two_dim/two_dim_helper.py:get_coulomb_elements"]}
{"id": "C43", "title": "Coulomb elements have the two-body symmetries", "statement": "u[p,q,r,s] = u[q,p,s,r] = u[r,s,p,q], and u is unchanged when all m change sign.", "quantifier": "every four orbitals", "why_tests_cant": "infinite domain, nested sums of unbounded size", "anchors": ["quantum_systems/quantum_dots/two_dim/coulomb_elements.py:coulomb_ho"]}
{"id": "C44", "title": "Log-space Coulomb evaluation equals the closed formula", "statement": "coulomb_ho evaluated with logarithms of factorials equals the Anisimovas-Matulis formula with factorials, binomials and Gamma functions.", "quantifier": "every four orbitals (exact arithmetic)", "why_tests_cant": "all arguments", "anchors": ["quantum_systems/quantum_dots/two_dim/coulomb_elements.py:coulomb_ho", "quantum_systems/quantum_dots/two_dim/coulomb_elements.py:log_factorial", "quantum_systems/quantum_dots/two_dim/coulomb_elements.py:log_product_1", "quantum_systems/quantum_dots/two_dim/coulomb_elements.py:log_product_2", "quantum_systems/quantum_dots/two_dim/coulomb_elements.py:log_product_3"]}
{"id": "C45", "title": "Coulomb cache is transparent", "statement": "With QS_CACHE_TDHO set, get_coulomb_elements returns the same array as without, whatever calls with whatever orbital numbers came before.", "quantifier": "every history of calls and environment settings", "why_tests_cant": "histories", "anchors": ["quantum_systems/quantum_dots/two_dim/two_dim_helper.py:get_coulomb_elements"]}
{"id": "C46", "title": "Coulomb cache survives crashes and concurrency", "statement": "If a process dies while writing the cache file, or two processes run concurrently, later calls still return the right elements.", "quantifier": "every crash point and interleaving", "why_tests_cant": "crash points", "anchors": ["quantum_systems/quantum_dots/two_dim/two_dim_helper.py:get_coulomb_elements"]}
{"id": "C47", "title": "2D angular integrals are right", "statement": "theta_1_integral, theta_2_integral, theta_1_tilde_integral and theta_2_tilde_integral equal the integrals over [0,2pi] of cos, sin, |cos| and |sin| times exp(-i m_p t) exp(i m_q t).", "quantifier": "every pair of integers m_p, m_q", "why_tests_cant": "the tests sweep -100..100 for two of the four", "anchors": ["quantum_systems/quantum_dots/two_dim/two_dim_helper.py:theta_1_integral", "quantum_systems/quantum_dots/two_dim/two_dim_helper.py:theta_2_integral", "quantum_systems/quantum_dots/two_dim/two_dim_helper.py:theta_1_tilde_integral", "quantum_systems/quantum_dots/two_dim/two_dim_helper.py:theta_2_tilde_integral"]}
{"id": "C48", "title": "2D dipole matrices are Hermitian and obey the selection rule", "statement": "Each 2D oscillator dipole matrix is Hermitian and has non-zero elements only between orbitals whose m differ by one.", "quantifier": "every l, omega, mass", "why_tests_cant": "all sizes", "anchors": ["quantum_systems/quantum_dots/two_dim/two_dim_ho.py:construct_dipole_moment"]}
{"id": "C49", "title": "2D double well one-body matrix", "statement": "The double-well one-body matrix is Hermitian, equals the oscillator one when the barrier strength is 0, and only couples orbitals whose m differ by an even number.", "quantifier": "every l, omega, mass, barrier and axis", "why_tests_cant": "all sizes and parameters", "anchors": ["quantum_systems/quantum_dots/two_dim/two_dim_helper.py:get_double_well_one_body_elements"]}
{"id": "C50", "title": "The smooth 2D double well can be constructed", "statement": "TwoDimSmoothDoubleWell(l, radius, points, ...) returns a basis set with l functions and Hermitian elements.", "quantifier": "every argument list", "why_tests_cant": "no test constructs it", "anchors": ["quantum_systems/quantum_dots/two_dim/two_dim_ho.py:TwoDimSmoothDoubleWell"]}
{"id": "C51", "title": "Magnetic-field basis holds the lowest states", "statement": "TwoDimHarmonicOscB(l, ..., omega_c) succeeds for every l >= 1 and its l orbitals are the l lowest single-particle states of the infinite spectrum omega(2n+|m|+1)-omega_c m/2, in order of energy and then m.", "quantifier": "every l, omega, omega_c", "why_tests_cant": "infinite spectrum; one test with l=10", "anchors": ["quantum_systems/quantum_dots/two_dim/two_dim_helper.py:construct_dataframe", "quantum_systems/quantum_dots/two_dim/two_dim_ho.py:TwoDimHarmonicOscB.setup_basis"]}
{"id": "C52", "title": "Zero magnetic field reproduces the plain oscillator", "statement": "With omega_c = 0 the orbitals of TwoDimHarmonicOscB have the same (n, m) in the same order as TwoDimensionalHarmonicOscillator, for every l.", "quantifier": "every l", "why_tests_cant": "one test with l=6", "anchors": ["quantum_systems/quantum_dots/two_dim/two_dim_helper.py:construct_dataframe", "quantum_systems/quantum_dots/two_dim/two_dim_helper.py:get_indices_nm"]}
{"id": "C53", "title": "1D quantum dot two-body symmetries", "statement": "ODQD and ODHO two-body elements satisfy u[pqrs]=u[qpsr]=conj(u[rspq]).", "quantifier": "every grid, screening and set of orbitals", "why_tests_cant": "all contents", "anchors": ["quantum_systems/quantum_dots/one_dim/one_dim_qd.py:_compute_inner_integral", "quantum_systems/quantum_dots/one_dim/one_dim_qd.py:_compute_orbital_integrals", "quantum_systems/quantum_dots/one_dim/one_dim_qd.py:_trapz"]}
{"id": "C54", "title": "1D quantum dot orbitals are orthonormal on the grid", "statement": "ODQD orbitals vanish at both ends of the grid and their trapezoidal overlap is the identity, so the stored overlap s is the true one; dipole matrix is Hermitian and h is diagonal.", "quantifier": "every grid size, potential", "why_tests_cant": "all sizes and potentials", "anchors": ["quantum_systems/quantum_dots/one_dim/one_dim_qd.py:ODQD.setup_basis", "quantum_systems/quantum_dots/one_dim/one_dim_qd.py:construct_dipole_moment"]}
{"id": "C55", "title": "ODQD rejects impossible sizes", "statement": "ODQD(l, L, N) raises when fewer than l orbitals fit on the N-2 interior grid points.", "quantifier": "every l and N", "why_tests_cant": "boundary over all sizes", "anchors": ["quantum_systems/quantum_dots/one_dim/one_dim_qd.py:ODQD.setup_basis"]}
{"id": "C56", "title": "1D harmonic oscillator dipole elements", "statement": "ODHO dipole elements are sqrt((n+1)/(2 omega)) between neighbouring levels and 0 elsewhere, and h is omega(n+1/2) on the diagonal.", "quantifier": "every l and omega > 0", "why_tests_cant": "all sizes; normalization product with factorials", "anchors": ["quantum_systems/quantum_dots/one_dim/one_dim_qd.py:ODHO.construct_dipole_moment", "quantum_systems/quantum_dots/one_dim/one_dim_qd.py:ODHO.normalization"]}
{"id": "C57", "title": "Trapezoidal rule", "statement": "_trapz is linear, exact for affine functions on every uniform grid and equals numpy.trapz there.", "quantifier": "every grid length and function", "why_tests_cant": "all sizes", "anchors": ["quantum_systems/quantum_dots/one_dim/one_dim_qd.py:_trapz"]}
{"id": "C58", "title": "Potential derivatives are derivatives", "statement": "For every potential class that offers derivative(x), derivative is the derivative of __call__ away from kinks; at the kink of DWPotential it is the mean of the one-sided derivatives.", "quantifier": "every parameter value and every x", "why_tests_cant": "continuum of points; no test calls derivative", "anchors": ["quantum_systems/quantum_dots/one_dim/one_dim_potentials.py:HOPotential", "quantum_systems/quantum_dots/one_dim/one_dim_potentials.py:DWPotential", "quantum_systems/quantum_dots/one_dim/one_dim_potentials.py:DWPotentialSmooth", "quantum_systems/quantum_dots/one_dim/one_dim_potentials.py:SymmetricDWPotential", "quantum_systems/quantum_dots/one_dim/one_dim_potentials.py:AsymmetricDWPotential", "quantum_systems/quantum_dots/one_dim/one_dim_potentials.py:GaussianPotential", "quantum_systems/quantum_dots/one_dim/one_dim_potentials.py:AtomicPotential"]}
{"id": "C59", "title": "Sinc-DVR 2d and 4d representations agree", "statement": "Transforming the compact 2d Coulomb matrix gives the same four-index elements as transforming the 4d array it stands for, also after spin doubling and with direct anti-symmetrization.", "quantifier": "every grid, l, C, C_tilde", "why_tests_cant": "all contents", "anchors": ["quantum_systems/sinc_dvr/one_dim/sinc_dvr.py:transform_two_body_elements", "quantum_systems/sinc_dvr/one_dim/sinc_dvr.py:add_spin_two_body", "quantum_systems/sinc_dvr/one_dim/sinc_dvr.py:construct_coulomb_elements"]}
{"id": "C60", "title": "set_u_repr switches the representation", "statement": "After set_u_repr(r) with r in {2d,4d}, u_repr == r and u describes the same operator.", "quantifier": "every DVR basis and r", "why_tests_cant": "never tested", "anchors": ["quantum_systems/sinc_dvr/one_dim/sinc_dvr.py:set_u_repr"]}
{"id": "C61", "title": "A sinc-DVR basis can be used in a GeneralOrbitalSystem", "statement": "GeneralOrbitalSystem(n, ODSincDVR(...)) constructs a system whose two-body elements are anti-symmetric when anti_symmetrize is True.", "quantifier": "every DVR basis", "why_tests_cant": "never tested", "anchors": ["quantum_systems/sinc_dvr/one_dim/sinc_dvr.py:change_to_general_orbital_basis", "quantum_systems/general_orbital_system.py:GeneralOrbitalSystem.__init__"]}
{"id": "C62", "title": "Sinc-DVR one-body elements", "statement": "The sinc-DVR h is Hermitian, the Coulomb matrix symmetric, the dipole diagonal and the basis functions are 1/sqrt(dx) at their own grid point and 0 at all others.", "quantifier": "every l >= 2, grid length and potential", "why_tests_cant": "all sizes", "anchors": ["quantum_systems/sinc_dvr/one_dim/sinc_dvr.py:setup_basis", "quantum_systems/sinc_dvr/one_dim/sinc_dvr.py:construct_sinc_grid"]}
{"id": "C63", "title": "Random basis symmetries", "statement": "RandomBasisSet produces Hermitian h, s and dipole matrices and u with all symmetries of second quantized two-body elements (particle exchange and Hermiticity).", "quantifier": "every random draw", "why_tests_cant": "all draws", "anchors": ["quantum_systems/random_basis.py:setup_basis", "quantum_systems/random_basis.py:make_hermitian", "quantum_systems/random_basis.py:make_two_body_symmetry"]}
{"id": "C64", "title": "PySCF constructors", "statement": "The PySCF constructors store u[p,q,r,s]=(pr|qs), return a spatial system with n/2 occupied orbitals or the equivalent general one with n; odd electron numbers are rejected; for the RHF constructor with S-orthonormal C the stored overlap is the identity.", "quantifier": "every molecule (any integrals PySCF may return)", "why_tests_cant": "all integral values", "anchors": ["quantum_systems/custom_system.py:construct_pyscf_system_ao", "quantum_systems/custom_system.py:construct_pyscf_system_rhf"]}
{"id": "C65", "title": "Sample collection", "statement": "Every sampler sees exactly the sequence of steps passed to SampleCollector.sample, in order, and dump threads the samples dictionary through all samplers in order; add_sample/get_samples behave as a map.", "quantifier": "every sampler list and every call history", "why_tests_cant": "histories", "anchors": ["quantum_systems/sampler.py:SampleCollector"]}
{"id": "C66", "title": "Casting and module change keep values", "statement": "change_module and cast_to_complex never change the value of any array, and afterwards every matrix element array that is set is complex (cast) or belongs to the module (change).", "quantifier": "every basis set state", "why_tests_cant": "all states", "anchors": ["quantum_systems/basis_set.py:change_module", "quantum_systems/basis_set.py:cast_to_complex"]}
{"id": "C67", "title": "Preview equals change", "statement": "get_transformed_h(C) and get_transformed_u(C) return what h and u become after change_basis(C), without modifying the basis set.", "quantifier": "every basis set and C", "why_tests_cant": "all contents", "anchors": ["quantum_systems/basis_set.py:get_transformed_h", "quantum_systems/basis_set.py:get_transformed_u"]}
{"id": "C68", "title": "Default polarization adapts to the system", "statement": "A LaserField without explicit polarization uses the x direction of whichever system it is currently set on.", "quantifier": "every sequence of systems the operator is set on", "why_tests_cant": "histories", "anchors": ["quantum_systems/time_evolution_operators/operator.py:LaserField.h_t"]}
{"id": "C69", "title": "Repeated truncation of a spin-orbital basis", "statement": "On a spin-doubled basis set, change_basis with a rectangular C can be followed by another change_basis.", "quantifier": "every spin-doubled basis set and every pair of compatible rectangular coefficient matrices", "why_tests_cant": "the failure depends on the shapes of two successive matrices and on hidden state (stale spin matrices); no test performs two rectangular changes", "anchors": ["quantum_systems/basis_set.py: BasisSet._change_basis_one_body_elements", "quantum_systems/basis_set.py: BasisSet.change_basis"]}
{"id": "C70", "title": "Reference energy and Fock matrix are the textbook expressions", "statement": "compute_reference_energy and construct_fock_matrix return the textbook formulas: sum_i h_ii + 1/2 sum_ij u_ijij and f_pq = h_pq + sum_i u_piqi for general systems, 2 sum_i h_ii + sum_ij (2 u_ijij - u_ijji) and f_pq = h_pq + sum_i (2 u_piqi - u_piiq) for closed-shell spatial systems, and change nothing.", "quantifier": "every h, u, every number of occupied orbitals and basis functions, every buffer of sufficient type", "why_tests_cant": "tests compare with reference numbers for a few systems, where index mistakes hidden by symmetries of u go unnoticed", "anchors": ["quantum_systems/general_orbital_system.py: GeneralOrbitalSystem.compute_reference_energy, construct_fock_matrix", "quantum_systems/spatial_orbital_system.py: SpatialOrbitalSystem.compute_reference_energy, construct_fock_matrix"]}
{"id": "C71", "title": "2D oscillator orbitals are orthonormal", "statement": "The single-particle functions of the two-dimensional oscillators (plain, double-well and magnetic-field classes) are orthonormal over the plane, so the stored overlap matrix s = identity is their true overlap.", "quantifier": "every pair of orbitals, mass > 0, omega > 0, and every table of distinct quantum numbers", "why_tests_cant": "Grid sums only approximate the integral and cover a few orbitals; orthogonality for all quantum numbers needs the Laguerre identities.", "anchors": ["quantum_systems/quantum_dots/two_dim/two_dim_helper.py:spf_state", "quantum_systems/quantum_dots/two_dim/two_dim_helper.py:spf_norm", "quantum_systems/quantum_dots/two_dim/two_dim_ho.py:setup_basis"]}
{"id": "C72", "title": "2D one-body matrices are those of the Hamiltonian", "statement": "h[p,q] of the two-dimensional oscillator (and of the oscillator in a magnetic field) equals the integral of conj(phi_p) H phi_q, where phi are the single-particle functions the object provides and H = -laplacian/(2 mass) + mass omega^2 r^2/2 (minus omega_c/2 L_z in a field).", "quantifier": "every pair of orbitals, mass > 0, omega > 0, omega_0 != 0, omega_c", "why_tests_cant": "It equates stored numbers with differential operators applied to the functions, for infinitely many quantum numbers and real parameters.", "anchors": ["quantum_systems/quantum_dots/two_dim/two_dim_helper.py:get_one_body_elements", "quantum_systems/quantum_dots/two_dim/two_dim_helper.py:get_one_body_elements_B", "quantum_systems/quantum_dots/two_dim/two_dim_helper.py:spf_state"]}
{"id": "C73", "title": "2D double well uses the mass consistently", "statement": "h of the two-dimensional double well is the matrix of the Hamiltonian with potential mass omega^2/2 (r^2 + b^2/4 - b|x|), i.e. oscillator and barrier are scaled with the same mass.", "quantifier": "every mass > 0, omega > 0, barrier and axis", "why_tests_cant": "Tests use mass 1, where the missing factor is invisible.", "anchors": ["quantum_systems/quantum_dots/two_dim/two_dim_helper.py:get_double_well_one_body_elements"]}
{"id": "C74", "title": "Equal orbitals have equal Coulomb elements", "statement": "Two two-dimensional oscillators whose single-particle functions coincide (same mass*omega) have the same two-body elements u.", "quantifier": "every two pairs (mass, omega) and every element", "why_tests_cant": "Relates two objects; tests use mass 1 only.", "anchors": ["quantum_systems/quantum_dots/two_dim/two_dim_ho.py:setup_basis", "quantum_systems/quantum_dots/two_dim/two_dim_helper.py:get_coulomb_elements"]}
{"id": "C75", "title": "Smooth 2D double-well matrix", "statement": "get_smooth_double_well_one_body_elements returns the matrix of the oscillator Hamiltonian plus omega^2 a^2/64 + omega^2/4 (x^4/a^2 - 5b/2 x^2); in particular it does not couple orbitals of different parity.", "quantifier": "every pair of orbitals, mass, omega > 0, a != 0, b", "why_tests_cant": "The class using it cannot be constructed, and a value check needs the exact integrals.", "anchors": ["quantum_systems/quantum_dots/two_dim/two_dim_helper.py:get_smooth_double_well_one_body_elements", "quantum_systems/quantum_dots/two_dim/two_dim_helper.py:smooth_theta_integral_1", "quantum_systems/quantum_dots/two_dim/two_dim_helper.py:smooth_theta_integral_2"]}
{"id": "C76", "title": "1D oscillator functions, overlap, energies and dipole agree", "statement": "The rows of ODHO.spf sample functions f_p on the grid such that s[p,q] is the integral of f_p f_q over the line, dipole_moment[0,p,q] the integral of f_p x f_q, and f_p an eigenfunction of -1/2 d^2/dx^2 + omega^2 x^2/2 with eigenvalue h[p,p].", "quantifier": "every l, grid and omega > 0, every pair of levels", "why_tests_cant": "Integrals over the line and Hermite polynomials of every order.", "anchors": ["quantum_systems/quantum_dots/one_dim/one_dim_qd.py:ODHO.ho_function", "quantum_systems/quantum_dots/one_dim/one_dim_qd.py:ODHO.setup_basis", "quantum_systems/quantum_dots/one_dim/one_dim_qd.py:ODHO.construct_dipole_moment"]}
{"id": "C77", "title": "Non-dipole strength of the 1D oscillator", "statement": "ODHO(..., beta) has the matrix of x + beta x^2 as its dipole matrix, as ODQD does with the same parameter.", "quantifier": "every beta and omega > 0", "why_tests_cant": "Integrals over the line; no test passes beta.", "anchors": ["quantum_systems/quantum_dots/one_dim/one_dim_qd.py:ODHO.__init__", "quantum_systems/quantum_dots/one_dim/one_dim_qd.py:ODHO.construct_dipole_moment"]}
{"id": "C78", "title": "Sinc-DVR h is the Hamiltonian at the grid points", "statement": "Basis function p of ODSincDVR, sampled on the grid, is the normalised cardinal (sinc) function of grid point p; and for every p and grid point i, sum_j h[i,j] spf[p,j] is exactly the value at x_i of -1/2 f'' + V f for that function f.", "quantifier": "every number of points >= 2, positive grid length, potential and orbital", "why_tests_cant": "a statement about second derivatives of a function at all points, for all sizes", "anchors": ["quantum_systems/sinc_dvr/one_dim/sinc_dvr.py:setup_basis", "quantum_systems/sinc_dvr/one_dim/sinc_dvr.py:construct_sinc_grid"]}
{"id": "C79", "title": "2D constructors give complete, consistent basis sets", "statement": "TwoDimensionalHarmonicOscillator, TwoDimensionalDoubleWell and TwoDimHarmonicOscB return basis sets with dim 2 and arrays of the announced sizes in which h is the Hermitian matrix of the Hamiltonian between the stored orbitals, s the identity and the overlap of these orbitals, the two dipole components the Hermitian matrices of x and y, u the Coulomb elements of the closed formula times sqrt(omega) with both two-body symmetries, and spf the orbital values at angle 2 pi i/(N-1) and radius L j/(N-1). The magnetic-field constructor raises exactly when its table of states cannot be built.", "quantifier": "all numbers of orbitals and grid points, lengths, positive masses and frequencies, barriers, axes, fields, keyword arguments, cache settings with complete files", "why_tests_cant": "Tests compare a few arrays with stored reference data from the same code; they cannot relate all arrays of all sizes to one set of functions.", "anchors": ["quantum_systems/quantum_dots/two_dim/two_dim_ho.py:TwoDimensionalHarmonicOscillator", "quantum_systems/quantum_dots/two_dim/two_dim_ho.py:TwoDimensionalDoubleWell", "quantum_systems/quantum_dots/two_dim/two_dim_ho.py:TwoDimHarmonicOscB"]}
{"id": "C80", "title": "2D systems reduce to the plain oscillator", "statement": "A double well with barrier_strength 0 and an oscillator in zero magnetic field hold the same values in every attribute as the plain two-dimensional oscillator with the same arguments.", "quantifier": "all sizes, grids, positive frequencies, masses, axes, keyword arguments and cache states", "why_tests_cant": "Equality is needed for every size and parameter; the three constructors compute their arrays by different routes (analytic, symbolic integration, sorted table).", "anchors": ["quantum_systems/quantum_dots/two_dim/two_dim_ho.py:TwoDimensionalDoubleWell.setup_basis", "quantum_systems/quantum_dots/two_dim/two_dim_ho.py:TwoDimHarmonicOscB.setup_basis"]}
{"id": "C81", "title": "The density of a 1D quantum dot integrates to the number of particles", "statement": "For a successfully built ODQD, compute_particle_density of any density matrix gives grid values whose trapezoidal integral over the grid is the trace of the density matrix.", "quantifier": "all potentials, grids, lengths, numbers of orbitals, density matrices of the right shape (any element type, Hermitian or not), given that eigh returns an orthonormal eigenbasis", "why_tests_cant": "The identity must hold for every eigenbasis and density matrix; tests can only integrate a few densities within a tolerance.", "anchors": ["quantum_systems/quantum_dots/one_dim/one_dim_qd.py:ODQD.setup_basis", "quantum_systems/basis_set.py:BasisSet.compute_particle_density"]}
{"id": "C82", "title": "Orbital energies of a 1D dot lie between the bounds of the Hamiltonian", "statement": "Every orbital energy in h of an ODQD is real, at least the minimum of the potential on the inner grid points, and at most its maximum plus 2/dx^2.", "quantifier": "all potentials, grids, lengths and numbers of orbitals, given that eigh returns an orthonormal eigenbasis", "why_tests_cant": "A bound for all potentials and sizes; a wrong sign or factor in the kinetic energy can pass a test on one potential.", "anchors": ["quantum_systems/quantum_dots/one_dim/one_dim_qd.py:ODQD.setup_basis"]}
{"id": "C83", "title": "Repulsive interaction never lowers the energy", "statement": "With alpha >= 0 and a != 0 the two-body elements of ODQD and ODHO satisfy u_pqpq >= 0 and u_pqpq - u_pqqp >= 0. Hence the reference energy of a SpatialOrbitalSystem on such a basis is at least twice the sum of the occupied one-body energies (their difference is real and non-negative); the same holds for the GeneralOrbitalSystem made from it.", "quantifier": "all orbitals, grids, interaction strengths alpha >= 0, screening a != 0, numbers of particles, orthonormal spin vectors", "why_tests_cant": "An inequality over all parameters, relying on exchange symmetry of the kernel and of the quadrature.", "anchors": ["quantum_systems/quantum_dots/one_dim/one_dim_qd.py:_compute_orbital_integrals", "quantum_systems/quantum_dots/one_dim/one_dim_qd.py:_shielded_coulomb", "quantum_systems/spatial_orbital_system.py:SpatialOrbitalSystem.compute_reference_energy", "quantum_systems/general_orbital_system.py:GeneralOrbitalSystem.compute_reference_energy"]}
{"id": "C84", "title": "The time-dependent Hamiltonian is Hermitian at all times", "statement": "If h, u and the dipole components are Hermitian, then after setting a LaserField (pulse or polarization callable), an AdiabaticSwitching or a CustomOneBodyOperator with Hermitian operator, h_t(t) and u_t(t) are Hermitian at every time at which pulse and polarization are real, whatever is read or evaluated in between.", "quantifier": "all systems, dipole dimensions, pulses, polarizations, times and sequences of reading operations", "why_tests_cant": "All times, all pulses, all sequences of calls on an object with internal state.", "anchors": ["quantum_systems/system.py:QuantumSystem.h_t", "quantum_systems/system.py:QuantumSystem.u_t", "quantum_systems/time_evolution_operators/operator.py:LaserField"]}
{"id": "C85", "title": "Grid integrals converge to the true integrals", "statement": "For a function with continuous second derivative bounded by M on [-L, L], the library's trapezoidal rule on N points of the constructors' grid differs from the integral by at most M (2L) dx^2 / 12, and tends to it as N grows.", "quantifier": "all twice continuously differentiable functions, lengths L > 0, N >= 2", "why_tests_cant": "A quantitative bound over a function class, and a limit.", "anchors": ["quantum_systems/quantum_dots/one_dim/one_dim_qd.py:_trapz", "quantum_systems/quantum_dots/one_dim/one_dim_qd.py:ODQD", "quantum_systems/quantum_dots/one_dim/one_dim_qd.py:ODHO"]}
{"id": "C86", "title": "Energies of a 1D dot approximate the exact levels to second order", "statement": "If E is an exact level of the box [-L, L] with potential V, with an eigenfunction f vanishing at the ends whose fourth derivative is bounded by M, then an ODQD that keeps all orbitals stores an energy e with (e - E)^2 sum_i f(x_i)^2 <= (N-2) (M dx^2 / 24)^2.", "quantifier": "all potentials, levels, eigenfunctions with four derivatives, lengths and grid sizes, given that eigh returns an orthonormal eigenbasis", "why_tests_cant": "Accuracy as a function of the grid spacing for all potentials; tests look at one potential and one grid.", "anchors": ["quantum_systems/quantum_dots/one_dim/one_dim_qd.py:ODQD.setup_basis"]}
{"id": "C87", "title": "The stored orbitals of a 1D dot have the lowest energies", "statement": "For every m <= l the sum of the first m orbital energies is at most the energy of any m functions on the grid that vanish at its ends and are orthonormal in the trapezoidal inner product.", "quantifier": "all potentials, grids, m <= l, orthonormal families of real grid functions, given that eigh returns an orthonormal ascending eigenbasis", "why_tests_cant": "A minimum over all orthonormal families.", "anchors": ["quantum_systems/quantum_dots/one_dim/one_dim_qd.py:ODQD.setup_basis"]}
{"id": "C88", "title": "The reference energy is the expectation value of the many-body Hamiltonian", "statement": "compute_reference_energy of a GeneralOrbitalSystem with anti-symmetrized u is <Phi|H|Phi> for the determinant Phi of the n lowest spin-orbitals and H = sum h_pq a+_p a_q + 1/4 sum u_pqrs a+_p a+_q a_s a_r. For a SpatialOrbitalSystem it is <Phi|H|Phi> for n electrons in the n/2 lowest orbitals with both spins and the spin-independent H (factor 1/2). construct_general_orbital_system yields arrays with the same H on the whole Fock space.", "quantifier": "all systems, sizes, numbers of particles, h and u (anti-symmetric in the last two indices for general systems), orthonormal spin vectors, all many-body states", "why_tests_cant": "Equality with an operator expression on a space of 2^l determinants, for all sizes and matrix elements.", "anchors": ["quantum_systems/general_orbital_system.py:GeneralOrbitalSystem.compute_reference_energy", "quantum_systems/spatial_orbital_system.py:SpatialOrbitalSystem.compute_reference_energy", "quantum_systems/spatial_orbital_system.py:SpatialOrbitalSystem.construct_general_orbital_system"]}
{"id": "C89", "title": "Diagonal Fock elements are ionization and attachment energies", "statement": "With F = construct_fock_matrix(h, u) and e the reference energy, removing an occupied spin-orbital i changes the energy of the determinant by -F_ii, adding a particle in an unoccupied a changes it by +F_aa, for general systems (anti-symmetrized u) and, per spin-orbital, for spatial systems.", "quantifier": "all systems, sizes, numbers of particles, orbitals i and a, h, u with u_pqrs = u_qpsr, admissible f buffers", "why_tests_cant": "All determinants with one particle more or less, for all sizes and elements.", "anchors": ["quantum_systems/general_orbital_system.py:GeneralOrbitalSystem.construct_fock_matrix", "quantum_systems/spatial_orbital_system.py:SpatialOrbitalSystem.construct_fock_matrix"]}
{"id": "C90", "title": "Off-diagonal Fock elements are the couplings to single excitations", "statement": "<Phi_i^a|H|Phi> = F_ai for every occupied i and unoccupied a of a general system; for spatial systems the coupling of spin-orbitals of equal spin is F_ai and of different spin zero. In particular F_ai = 0 for all i, a means that H does not couple Phi to single excitations (Brillouin).", "quantifier": "all systems, sizes, numbers of particles, i, a, h, u with u_pqrs = u_qpsr, admissible f buffers", "why_tests_cant": "All single excitations, for all sizes and elements.", "anchors": ["quantum_systems/general_orbital_system.py:GeneralOrbitalSystem.construct_fock_matrix", "quantum_systems/spatial_orbital_system.py:SpatialOrbitalSystem.construct_fock_matrix"]}
{"id": "C91", "title": "spin_2 and spin_2_tb are the square of the total spin, and closed shells are singlets", "statement": "After change_to_general_orbital_basis of an orthonormal basis, sum spin_2_pq a+_p a_q + x sum spin_2_tb_pqrs a+_p a+_q a_s a_r (x = 1, or 1/2 when anti-symmetrized) equals S_x^2 + S_y^2 + S_z^2 of the second-quantized spin_x, spin_y, spin_z on every state; each of the latter annihilates every closed-shell determinant.", "quantifier": "all orthonormal basis sets, orthonormal spin vectors, both values of anti_symmetrize, all many-body states, all closed-shell determinants", "why_tests_cant": "An operator identity on the whole Fock space.", "anchors": ["quantum_systems/basis_set.py:BasisSet.change_to_general_orbital_basis", "quantum_systems/basis_set.py:BasisSet.setup_spin_squared_operator"]}
{"id": "C92", "title": "The Hamiltonian conserves spin and particle number", "statement": "After change_to_general_orbital_basis of an orthonormal basis the second-quantized spin_x, spin_y, spin_z commute with the Hamiltonian of the stored h and u on every state; every Hamiltonian of this form commutes with the particle number.", "quantifier": "all orthonormal basis sets, spin vectors, both values of anti_symmetrize, all prefactors of u, all many-body states", "why_tests_cant": "Commutation on the whole Fock space for all h and u.", "anchors": ["quantum_systems/basis_set.py:BasisSet.change_to_general_orbital_basis", "quantum_systems/basis_set.py:BasisSet.add_spin_one_body", "quantum_systems/basis_set.py:BasisSet.add_spin_two_body"]}
{"id": "C93", "title": "change_basis does not change the many-body Hamiltonian", "statement": "If C C~ = 1, the arrays h and u after change_basis(C, C~), together with the operators that create sum_a C_ap |a> and annihilate sum_a C~_pa <a|, give the same one-body and two-body operators on every many-body state as before. If C~ C = 1, the new operators obey the anticommutation relations.", "quantifier": "all basis sets, possibly rectangular C and C~ (C~ may be omitted), all many-body states", "why_tests_cant": "An operator identity on the whole Fock space for all coefficient matrices.", "anchors": ["quantum_systems/basis_set.py:BasisSet.change_basis", "quantum_systems/basis_set.py:BasisSet.transform_one_body_elements", "quantum_systems/basis_set.py:BasisSet.transform_two_body_elements"]}
{"id": "C94", "title": "Anti-symmetry and spin blocks survive rounding bit for bit", "statement": "In double precision anti_symmetrize_u returns an array with u_pqrs = -u_pqsr exactly, also u_pqrs = -u_qprs if the input is symmetric under exchange of particles; an element is zero only if the direct and exchange elements are equal; each element is within relative error 2^-53 (per real and imaginary part) of the exact difference. Doubling h and u with spin changes no bit of the copied elements and the other elements are exactly zero.", "quantifier": "all sizes, all arrays of double-precision numbers including subnormal ones, without overflow", "why_tests_cant": "Equality of rounded numbers for all pairs of doubles.", "anchors": ["quantum_systems/basis_set.py:BasisSet.anti_symmetrize_u", "quantum_systems/basis_set.py:BasisSet.add_spin_one_body", "quantum_systems/basis_set.py:BasisSet.add_spin_two_body"]}
{"id": "C95", "title": "Rounding error of a change of basis", "statement": "In double precision transform_one_body_elements, transform_two_body_elements and the transformation of spf and bra_spf return each element within (1+u)^k - 1 of the exact value relative to the sum of the moduli of all terms, with u = 2^-53 and k = 4l, 8l, 2l, plus an explicit underflow term; this holds whatever order the library underneath adds the products in and whether or not it fuses multiplications and additions.", "quantifier": "all sizes, rectangular coefficient matrices, arrays of doubles, all summation orders, fused or separate operations, without overflow", "why_tests_cant": "The summation order is not under the control of the library; the bound is over all orders and inputs.", "anchors": ["quantum_systems/basis_set.py:BasisSet.transform_one_body_elements", "quantum_systems/basis_set.py:BasisSet.transform_two_body_elements", "quantum_systems/basis_set.py:BasisSet.transform_spf", "quantum_systems/basis_set.py:BasisSet.transform_bra_spf"]}
{"id": "C96", "title": "Rounding error of the reference energy and the Fock matrix", "statement": "In double precision compute_reference_energy and construct_fock_matrix (general and spatial systems) are within (1+u)^k - 1 of the exact value relative to the sum of moduli of their terms, with k = 2n+2, 2n+3, n+1, n+3 for n occupied orbitals, plus an explicit underflow term, for every order of summation.", "quantifier": "all sizes, numbers of particles, arrays of doubles, all summation orders, without overflow", "why_tests_cant": "As C95.", "anchors": ["quantum_systems/general_orbital_system.py:GeneralOrbitalSystem.compute_reference_energy", "quantum_systems/spatial_orbital_system.py:SpatialOrbitalSystem.compute_reference_energy", "quantum_systems/general_orbital_system.py:GeneralOrbitalSystem.construct_fock_matrix", "quantum_systems/spatial_orbital_system.py:SpatialOrbitalSystem.construct_fock_matrix"]}
{"id": "C97", "title": "The one-dimensional grid in double precision", "statement": "numpy.linspace(-L, L, N), as used for the grid, has exactly -L and L as end points, is strictly increasing, every point is within 6uL of the exact one, and grid[1] - grid[0], which the integration uses as step, is within a relative error of 5(N-1)u of 2L/(N-1).", "quantifier": "all doubles L >= 2^-900 and numbers of points 2 <= N <= 2^50", "why_tests_cant": "Monotonicity and error for all lengths and numbers of points.", "anchors": ["quantum_systems/quantum_dots/one_dim/one_dim_qd.py:ODHO.__init__", "quantum_systems/quantum_dots/one_dim/one_dim_qd.py:ODQD.__init__"]}
{"id": "C98", "title": "The shielded Coulomb interaction in double precision", "statement": "_shielded_coulomb(x1, x2, alpha, a) computed in double precision is symmetric in x1 and x2 bit for bit, never larger than on the diagonal, positive, and within a relative error of (1+u)^4 - 1 of alpha/sqrt((x1-x2)^2+a^2).", "quantifier": "all doubles x1, x2, alpha > 0, |a| >= 2^-450, results not below 2^-1021 for the last two parts, without overflow", "why_tests_cant": "For all pairs of doubles; cancellation in x1 - x2 has to be excluded as a source of error.", "anchors": ["quantum_systems/quantum_dots/one_dim/one_dim_qd.py:_shielded_coulomb"]}
{"id": "C99", "title": "Rounding error of the trapezoidal rule and the two-body integrals", "statement": "_trapz and the two-body integrals of one-dimensional quantum dots computed in double precision are within (1+u)^k - 1 of the exact quadrature relative to the quadrature of the moduli, k = n+4 and 2N+20, plus an explicit underflow term.", "quantifier": "all numbers of grid points and functions, all doubles on the grid, without overflow", "why_tests_cant": "Error bound for all grids and orbitals.", "anchors": ["quantum_systems/quantum_dots/one_dim/one_dim_qd.py:_trapz", "quantum_systems/quantum_dots/one_dim/one_dim_qd.py:_compute_inner_integral", "quantum_systems/quantum_dots/one_dim/one_dim_qd.py:_compute_orbital_integrals"]}
{"id": "C100", "title": "Harmonic oscillator levels in double precision", "statement": "The eigenenergies omega*(p+0.5) of the ODHO basis are within relative error 2^-53 and strictly increasing in p.", "quantifier": "all omega >= 2^-1000 and quantum numbers below 2^51", "why_tests_cant": "Strict monotonicity after rounding for all omega.", "anchors": ["quantum_systems/quantum_dots/one_dim/one_dim_qd.py:ODHO"]}
{"id": "C101", "title": "Rounding error of the particle density", "statement": "compute_particle_density in double precision is within (1+u)^(l*l+4) - 1 of the exact density relative to the sum of the moduli of its terms, plus an explicit underflow term.", "quantifier": "all numbers of orbitals, density matrices, orbitals and grid points, without overflow", "why_tests_cant": "As C95.", "anchors": ["quantum_systems/system_helper.py:compute_particle_density"]}
{"id": "C102", "title": "The 2D two-body elements are Coulomb integrals", "statement": "coulomb_ho(n0, m0, ..., n3, m3), evaluated exactly, times sqrt(mass*omega) is the integral of conj(f0(x1)) conj(f1(x2)) f2(x1) f3(x2) / |x1 - x2| over both positions in the plane, for the single-particle functions with these quantum numbers that the library tabulates. Hence for mass 1 the array u of all three 2D constructors holds exactly the Coulomb integrals of the orbitals stored in spf; for other masses it holds them divided by sqrt(mass) (compare C74).", "quantifier": "all quantum numbers, positive masses and frequencies, numbers of orbitals, barriers, magnetic fields", "why_tests_cant": "The reference values in the tests come from the same formula; the identity of a six-fold alternating sum with a singular four-dimensional integral holds for infinitely many index tuples.", "anchors": ["quantum_systems/quantum_dots/two_dim/coulomb_elements.py:coulomb_ho", "quantum_systems/quantum_dots/two_dim/two_dim_helper.py:spf_state", "quantum_systems/quantum_dots/two_dim/two_dim_ho.py:TwoDimensionalHarmonicOscillator", "quantum_systems/quantum_dots/two_dim/two_dim_ho.py:TwoDimensionalDoubleWell", "quantum_systems/quantum_dots/two_dim/two_dim_ho.py:TwoDimHarmonicOscB"]}
{"id": "C103", "title": "In two dimensions the interaction never lowers the energy", "statement": "The two-body elements of the 2D constructors satisfy u_pqpq >= 0 and u_pqpq - u_pqqp >= 0. Hence the reference energy of a SpatialOrbitalSystem on such a basis is at least twice the sum of the occupied one-body energies (the difference is real and non-negative); the same holds for the GeneralOrbitalSystem made from it.", "quantifier": "all orbitals, positive masses and frequencies, barriers, fields, numbers of particles, orthonormal spin vectors", "why_tests_cant": "The elements are alternating sums; their signs for all quantum numbers follow only from their meaning as integrals.", "anchors": ["quantum_systems/quantum_dots/two_dim/coulomb_elements.py:coulomb_ho", "quantum_systems/quantum_dots/two_dim/two_dim_ho.py:TwoDimensionalHarmonicOscillator", "quantum_systems/spatial_orbital_system.py:SpatialOrbitalSystem.compute_reference_energy", "quantum_systems/general_orbital_system.py:GeneralOrbitalSystem.compute_reference_energy"]}
{"id": "C104", "title": "The 2D position matrices in closed form", "statement": "The position arrays of the 2D constructors are those of the ladder operators: <n m|x + iy|n' m'> between the stored states is sqrt of a quantum number over mass*omega when one circular quantum number changes by one, and zero otherwise; x and y are its Hermitian combinations.", "quantifier": "all pairs of orbitals, numbers of orbitals, positive masses and frequencies, barriers, magnetic fields, cache settings", "why_tests_cant": "The code integrates each radial function symbolically; agreement with the selection rules for all quantum numbers is a statement about infinitely many integrals.", "anchors": ["quantum_systems/quantum_dots/two_dim/two_dim_helper.py:get_indices_nm", "quantum_systems/quantum_dots/two_dim/two_dim_ho.py:TwoDimensionalHarmonicOscillator", "quantum_systems/quantum_dots/two_dim/two_dim_ho.py:TwoDimensionalDoubleWell", "quantum_systems/quantum_dots/two_dim/two_dim_ho.py:TwoDimHarmonicOscB"]}
{"id": "C105", "title": "Light only drives the transitions of the oscillator's spectrum", "statement": "If the dipole element between two orbitals is not zero, their energies in h differ by exactly omega (1D and 2D harmonic oscillator) or by one of the two magneto-optical frequencies Omega -/+ omega_c/2 (2D oscillator in a magnetic field); for x + iy (circular polarisation) only one sign of each occurs.", "quantifier": "all pairs of orbitals, basis sizes, positive masses and frequencies, magnetic fields of either sign", "why_tests_cant": "A test can compare some elements; that no others are non-zero for any size and field needs a proof.", "anchors": ["quantum_systems/quantum_dots/one_dim/one_dim_qd.py:ODHO", "quantum_systems/quantum_dots/two_dim/two_dim_ho.py:TwoDimensionalHarmonicOscillator", "quantum_systems/quantum_dots/two_dim/two_dim_ho.py:TwoDimensionalDoubleWell", "quantum_systems/quantum_dots/two_dim/two_dim_ho.py:TwoDimHarmonicOscB"]}
{"id": "C106", "title": "Sum rules hold inside the basis set", "statement": "Sum over q of (e_q - e_p) |<p|x_i|q>|^2 = 1/(2 mass) and sum over q of |<p|x_i|q>|^2 = <p|x_i^2|p> in closed form, for each axis and every orbital whose dipole partners all lie in the basis set (p + 1 < l in 1D; p in the first k of k + 1 full shells in 2D; levels below the top by the larger frequency in a magnetic field).", "quantifier": "all orbitals as described, all sizes, positive masses and frequencies, magnetic fields", "why_tests_cant": "Sum rules relate all elements of a row; tests check single rows of single sizes, and rounding hides small defects.", "anchors": ["quantum_systems/quantum_dots/one_dim/one_dim_qd.py:ODHO", "quantum_systems/quantum_dots/two_dim/two_dim_ho.py:TwoDimensionalHarmonicOscillator", "quantum_systems/quantum_dots/two_dim/two_dim_ho.py:TwoDimensionalDoubleWell", "quantum_systems/quantum_dots/two_dim/two_dim_ho.py:TwoDimHarmonicOscB"]}
{"id": "C107", "title": "spin_delta is the spin structure of doubled basis sets", "statement": "spin_delta(p, q) is 1 when p and q have the same parity and 0 otherwise, also for negative integers; delta(p, q) is equality and is delta(p//2, q//2) and spin_delta(p, q) together; the matrix elements after change_to_general_orbital_basis are those of the spatial orbitals p//2, q//2 times spin_delta, with the exchange term when anti-symmetrized.", "quantifier": "all integers; all basis sets, orthonormal spin vectors, and all indices", "why_tests_cant": "Tests use spin_delta as their own reference; that it agrees with kron and add_spin for all indices is not an input/output pair.", "anchors": ["quantum_systems/system_helper.py:delta", "quantum_systems/system_helper.py:spin_delta", "quantum_systems/basis_set.py:BasisSet.change_to_general_orbital_basis"]}
{"id": "C108", "title": "The Fock matrix has the symmetries of the dot", "statement": "construct_fock_matrix on a 2D oscillator (with or without magnetic field) never mixes orbitals with different angular momentum m; on a double well the interaction does not mix them and the matrix never mixes even with odd m. When the occupied orbitals fill complete shells, the matrix does not change if every m is replaced by -m.", "quantifier": "all numbers of particles, orbitals, frequencies, barriers, fields; closed shells for the mirror symmetry", "why_tests_cant": "Symmetries are relations between all entries of a matrix built from a four-index tensor, for every size.", "anchors": ["quantum_systems/spatial_orbital_system.py:SpatialOrbitalSystem.construct_fock_matrix", "quantum_systems/quantum_dots/two_dim/two_dim_ho.py:TwoDimensionalHarmonicOscillator", "quantum_systems/quantum_dots/two_dim/two_dim_ho.py:TwoDimensionalDoubleWell", "quantum_systems/quantum_dots/two_dim/two_dim_ho.py:TwoDimHarmonicOscB"]}
{"id": "C109", "title": "Reference energies of dots in closed form", "statement": "With n = 1 occupied orbital (two electrons) the reference energy on the 2D oscillator, with or without magnetic field, is 2 Omega + sqrt(pi Omega/2). With k full shells it is at least omega k(k+1)(2k+1)/3, the energy of non-interacting electrons.", "quantifier": "all frequencies, masses, fields, basis sizes, numbers of shells", "why_tests_cant": "One value can be tested, the dependence on all parameters cannot.", "anchors": ["quantum_systems/spatial_orbital_system.py:SpatialOrbitalSystem.compute_reference_energy", "quantum_systems/quantum_dots/two_dim/two_dim_ho.py:TwoDimensionalHarmonicOscillator", "quantum_systems/quantum_dots/two_dim/two_dim_ho.py:TwoDimensionalDoubleWell", "quantum_systems/quantum_dots/two_dim/two_dim_ho.py:TwoDimHarmonicOscB"]}
{"id": "C110", "title": "Densities of states with sharp angular momentum are round", "statement": "compute_particle_density on a 2D basis gives the same value at every angle of the grid for each radius, when the density matrix does not couple orbitals with different m.", "quantifier": "all density matrices of this kind, all grids, orbitals, frequencies, fields, barriers", "why_tests_cant": "The statement is about all grid points of all grids for all density matrices.", "anchors": ["quantum_systems/basis_set.py:BasisSet.compute_particle_density", "quantum_systems/quantum_dots/two_dim/two_dim_ho.py:TwoDimensionalHarmonicOscillator", "quantum_systems/quantum_dots/two_dim/two_dim_ho.py:TwoDimensionalDoubleWell", "quantum_systems/quantum_dots/two_dim/two_dim_ho.py:TwoDimHarmonicOscB"]}
{"id": "C111", "title": "Levels of a 1D dot are never degenerate", "statement": "The orbital energies in h of an ODQD increase strictly: two stored orbitals never have the same energy.", "quantifier": "all potentials, lengths, grids and numbers of orbitals, given that eigh returns an orthonormal eigenbasis in ascending order", "why_tests_cant": "Near-degenerate wells (a high barrier between two minima) have splittings below rounding, so a test sees equal numbers; strictness for every potential is a theorem.", "anchors": ["quantum_systems/quantum_dots/one_dim/one_dim_qd.py:ODQD"]}
{"id": "C112", "title": "Orbital number p of a 1D dot has exactly p nodes", "statement": "On the stored grid, orbital p of an ODQD changes sign exactly p times, whatever the potential; the ground orbital has no zero between the end points and one sign everywhere.", "quantifier": "all potentials, lengths, grids, numbers of orbitals and stored orbitals, given that eigh returns an orthonormal eigenbasis", "why_tests_cant": "The oscillation theorem relates every grid value of every orbital to the position of its energy in the sorted list, for every potential.", "anchors": ["quantum_systems/quantum_dots/one_dim/one_dim_qd.py:ODQD"]}
{"id": "C113", "title": "Orbitals of symmetric dots are even and odd in turn", "statement": "If the potential is even on [-L, L], the values of orbital p of an ODQD at mirrored grid points differ exactly by the factor (-1)^p; the same holds for ODHO. The library's potentials are even except the asymmetric well with b != 0 and Gaussian wells off centre.", "quantifier": "all even potentials, lengths, grids, orbitals; all frequencies for ODHO; all parameters of the library's potentials", "why_tests_cant": "Parity of every orbital holds only because levels cannot be degenerate; tests can look at some orbitals of some wells.", "anchors": ["quantum_systems/quantum_dots/one_dim/one_dim_qd.py:ODQD", "quantum_systems/quantum_dots/one_dim/one_dim_qd.py:ODHO", "quantum_systems/quantum_dots/one_dim/one_dim_potentials.py"]}
{"id": "C114", "title": "Parity selection rules of symmetric 1D dots", "statement": "With an even potential u[p,q,r,s] = 0 whenever p+q+r+s is odd (ODQD and ODHO), for any alpha and screening a. The dipole element of ODQD is the trapezoidal mean of x if p+q is odd and beta times that of x^2 if p+q is even; so for beta = 0 no orbital has a permanent dipole moment.", "quantifier": "all even potentials, grids, lengths, interaction parameters, orbitals and index tuples", "why_tests_cant": "Exact zeros for all index tuples of all sizes cannot be sampled, and rounding blurs them.", "anchors": ["quantum_systems/quantum_dots/one_dim/one_dim_qd.py:ODQD", "quantum_systems/quantum_dots/one_dim/one_dim_qd.py:ODHO"]}
{"id": "C115", "title": "Parity is kept by the Fock matrix and the density", "statement": "construct_fock_matrix on a symmetric ODQD or on ODHO never mixes even with odd orbitals; compute_particle_density gives a mirror-symmetric density whenever the density matrix does not couple even and odd orbitals.", "quantifier": "all numbers of particles and orbitals, even potentials, grids, interaction parameters, density matrices of this kind", "why_tests_cant": "The statement is about all entries of a matrix built from a four-index tensor for every size.", "anchors": ["quantum_systems/spatial_orbital_system.py:SpatialOrbitalSystem.construct_fock_matrix", "quantum_systems/basis_set.py:BasisSet.compute_particle_density", "quantum_systems/quantum_dots/one_dim/one_dim_qd.py:ODQD", "quantum_systems/quantum_dots/one_dim/one_dim_qd.py:ODHO"]}
{"id": "C116", "title": "Results of a 1D dot do not depend on the eigensolver", "statement": "Two runs of ODQD with different implementations of eigh (both returning an orthonormal eigenbasis in ascending order) give the same h; orbitals agree up to one sign per orbital, and u and the dipole carry the product of these signs. The reference energy of a system on either basis is the same.", "quantifier": "all pairs of correct eigensolvers, all potentials, grids, orbitals, interaction parameters and numbers of particles", "why_tests_cant": "A test runs one LAPACK on one machine; the claim compares all implementations that meet numpy's documentation.", "anchors": ["quantum_systems/quantum_dots/one_dim/one_dim_qd.py:ODQD", "quantum_systems/spatial_orbital_system.py:SpatialOrbitalSystem.compute_reference_energy"]}
{"id": "C117", "title": "The 1D dot reproduces the particle in a box", "statement": "With a constant potential c the energies stored by ODQD are c + (1 - cos((p+1) pi/(N-1)))/dx^2 and the orbitals are +-sqrt(1/L) sin((p+1) pi (x+L)/(2L)), which at the grid points is the exact eigenfunction. The energies lie below the exact levels by at most k^4 dx^2/24, k = (p+1) pi/(2L), and tend to them as the grid is refined.", "quantifier": "all lengths, constants, grids, orbitals, and every correct eigensolver", "why_tests_cant": "Closed forms for all N and p, with an error bound for the limit N to infinity, are beyond sampling.", "anchors": ["quantum_systems/quantum_dots/one_dim/one_dim_qd.py:ODQD"]}
{"id": "C118", "title": "The density of a spin-doubled basis set is the density of electrons with spin", "statement": "After change_to_general_orbital_basis, compute_particle_density(rho) at every grid point is the sum over both spins of the density in that spin; spin-up and spin-down orbitals are orthogonal, so their products contribute nothing.", "quantifier": "all basis sets, spin functions, grids and one-body density matrices over the 2l spin-orbitals", "why_tests_cant": "Density matrices of closed shells and of determinants of spin-orbitals give the same numbers with or without the cross terms; only coherences between the spins tell, for all of which a statement is needed.", "anchors": ["quantum_systems/basis_set.py:BasisSet.compute_particle_density", "quantum_systems/basis_set.py:BasisSet.add_spin_spf", "quantum_systems/basis_set.py:BasisSet.change_to_general_orbital_basis"]}
{"id": "C119", "title": "The Fock matrix is the gradient of the reference energy", "statement": "For any change of basis the new reference energy is the old one plus tr(D F) (twice that for closed shells) plus a term quadratic in D, where D is the change of the density matrix of the occupied orbitals and F is what construct_fock_matrix returned before. In particular, rotating occupied orbital i towards empty orbital a by an angle t with phase z changes the energy at the rate 2 Re(z F_ia + conj(z) F_ai) for closed shells and half of it for general orbitals.", "quantifier": "all systems of both kinds, all coefficient matrices (also rectangular, with any C_tilde), all pairs of an occupied and an empty orbital and all phases", "why_tests_cant": "It links two functions of the API through all coefficient matrices; finite differences can only check some directions to some digits.", "anchors": ["quantum_systems/spatial_orbital_system.py:SpatialOrbitalSystem.construct_fock_matrix", "quantum_systems/spatial_orbital_system.py:SpatialOrbitalSystem.compute_reference_energy", "quantum_systems/general_orbital_system.py:GeneralOrbitalSystem.construct_fock_matrix", "quantum_systems/general_orbital_system.py:GeneralOrbitalSystem.compute_reference_energy", "quantum_systems/system.py:QuantumSystem.change_basis"]}
{"id": "C120", "title": "Orbitals of lowest energy satisfy the Brillouin condition", "statement": "If no unitary change of basis lowers the reference energy of a system with Hermitian h and u, the Fock matrix has no elements between occupied and empty orbitals.", "quantifier": "all systems of both kinds, all numbers of particles and orbitals", "why_tests_cant": "The hypothesis quantifies over all unitary matrices.", "anchors": ["quantum_systems/spatial_orbital_system.py:SpatialOrbitalSystem.construct_fock_matrix", "quantum_systems/spatial_orbital_system.py:SpatialOrbitalSystem.compute_reference_energy", "quantum_systems/general_orbital_system.py:GeneralOrbitalSystem.construct_fock_matrix", "quantum_systems/general_orbital_system.py:GeneralOrbitalSystem.compute_reference_energy", "quantum_systems/system.py:QuantumSystem.change_basis"]}
{"id": "C121", "title": "Removing a particle costs its Fock energy (Koopmans)", "statement": "Lowering the number of particles by one with set_system_size lowers the reference energy of a general-orbital system with anti-symmetrized u by exactly the diagonal Fock element of the removed orbital, and that of a closed-shell system by 2 F_kk - u_kkkk.", "quantifier": "all systems of both kinds, all numbers of particles and orbitals, all h, all u with the stated symmetries", "why_tests_cant": "An identity between energies of different particle numbers for all matrix elements.", "anchors": ["quantum_systems/system.py:QuantumSystem.set_system_size", "quantum_systems/spatial_orbital_system.py:SpatialOrbitalSystem.construct_fock_matrix", "quantum_systems/spatial_orbital_system.py:SpatialOrbitalSystem.compute_reference_energy", "quantum_systems/general_orbital_system.py:GeneralOrbitalSystem.construct_fock_matrix", "quantum_systems/general_orbital_system.py:GeneralOrbitalSystem.compute_reference_energy"]}
{"id": "C122", "title": "The one-dimensional interactions are positive", "statement": "For alpha >= 0 and a != 0 the two-body elements of ODQD, ODHO and ODSincDVR (both storages) are positive semidefinite as an interaction between charge distributions: any distribution built from products of orbitals has a non-negative energy with its own complex conjugate. Changing the basis keeps this, also to fewer orbitals. Hence exchange elements u[p,q,q,p] are never negative and |u[p,q,r,s]|^2 <= u[p,r,r,p] u[s,q,q,s] for all indices, which is what Cholesky decomposition, density fitting and integral screening rely on.", "quantifier": "all sizes, grids, potentials, shieldings and strengths; all complex coefficients; all coefficient matrices", "why_tests_cant": "Positive semidefiniteness quantifies over all complex coefficient vectors of every length, and numerically small negative eigenvalues cannot be told from rounding.", "anchors": ["quantum_systems/quantum_dots/one_dim/one_dim_qd.py:_shielded_coulomb", "quantum_systems/quantum_dots/one_dim/one_dim_qd.py:_compute_inner_integral", "quantum_systems/quantum_dots/one_dim/one_dim_qd.py:_compute_orbital_integrals", "quantum_systems/quantum_dots/one_dim/one_dim_qd.py:ODQD", "quantum_systems/quantum_dots/one_dim/one_dim_qd.py:ODHO", "quantum_systems/sinc_dvr/one_dim/sinc_dvr.py:ODSincDVR.__init__", "quantum_systems/basis_set.py:BasisSet.change_basis"]}
{"id": "C123", "title": "Sinc-DVR energies lie between the bottom of the potential and the cutoff of the grid", "statement": "Every expectation value, and every eigenvalue, of the one-body matrix h of ODSincDVR is real, not below the smallest value of the potential on the grid, and not above the largest value plus pi^2 / (2 dx^2), the kinetic energy of the shortest wave the grid can hold.", "quantifier": "all sizes, grid lengths and potentials; all complex vectors", "why_tests_cant": "A bound on a quadratic form for all vectors and all matrix sizes.", "anchors": ["quantum_systems/sinc_dvr/one_dim/sinc_dvr.py:ODSincDVR.__init__", "quantum_systems/sinc_dvr/one_dim/sinc_dvr.py:ODSincDVR.setup_basis"]}
{"id": "C124", "title": "Every orbital of the 1D oscillator has a positive normalization in double precision", "statement": "The normalization of every orbital of ODHO that can be constructed at all is a positive finite double, so that no orbital or dipole element vanishes or turns into NaN. FALSE: 2**n * n! overflows for n >= 151, so the factor is 0, all values of these orbitals are 0 or NaN, the dipole elements from (150, 151) on too, with no exception raised; from n = 1024 on OverflowError is raised. Up to orbital 150 the factor is right to relative 2^-35.", "quantifier": "all orbital numbers, all frequencies, all grid points, any factorial function accurate to relative 2^-40", "why_tests_cant": "The tests use about 20 orbitals; the failure is silent and depends on the range of doubles.", "anchors": ["quantum_systems/quantum_dots/one_dim/one_dim_qd.py:ODHO.normalization", "quantum_systems/quantum_dots/one_dim/one_dim_qd.py:ODHO.ho_function", "quantum_systems/quantum_dots/one_dim/one_dim_qd.py:ODHO.construct_dipole_moment"]}
{"id": "C125", "title": "The Coulomb elements do not depend on the scheduling of the parallel loop", "statement": "get_coulomb_elements fills its array with several threads. For every number of threads, every distribution of the rows over them and every interleaving of their actions, the array returned is the one a single thread computes, element by element, whatever the arithmetic of the element function; no two threads ever write to the same element, no element ever holds anything but zero or its final value, and the threads finish after a number of actions fixed by num_orbitals.", "quantifier": "all numbers of orbitals, all thread counts, all distributions of the rows, all schedules, all element functions", "why_tests_cant": "Thread schedules cannot be enumerated or forced by a test; a race shows only now and then.", "anchors": ["quantum_systems/quantum_dots/two_dim/two_dim_helper.py:_get_coulomb_elements", "quantum_systems/quantum_dots/two_dim/two_dim_helper.py:get_coulomb_elements", "quantum_systems/quantum_dots/two_dim/two_dim_helper.py:get_indices_nm"]}
{"id": "C126", "title": "The Coulomb interaction of two-dimensional quantum dots is positive", "statement": "For every list of two-dimensional oscillator orbitals the two-body elements u form a positive semidefinite interaction: the sum over p,q,r,s of x[p,r] * conj(x[s,q]) * u[p,q,r,s] is a real number >= 0 for every complex matrix x. So it is for the u of every TwoDimensionalHarmonicOscillator, TwoDimensionalDoubleWell and TwoDimHarmonicOscB object, for all frequencies, masses, barriers and fields, and it stays so when a positive interaction is spin-doubled. By C122 exchange elements are then not negative and Schwarz screening is safe.", "quantifier": "all basis sizes, all quantum numbers, all parameters of the three constructors, all complex matrices x", "why_tests_cant": "The claim is about all linear combinations of orbital products for all basis sizes; a test can compute eigenvalues of one matrix with rounding errors that blur the sign.", "anchors": ["quantum_systems/quantum_dots/two_dim/coulomb_elements.py:coulomb_ho", "quantum_systems/quantum_dots/two_dim/two_dim_ho.py:TwoDimensionalHarmonicOscillator", "quantum_systems/quantum_dots/two_dim/two_dim_ho.py:TwoDimensionalDoubleWell", "quantum_systems/quantum_dots/two_dim/two_dim_ho.py:TwoDimHarmonicOscB", "quantum_systems/basis_set.py:BasisSet.change_to_general_orbital_basis"]}
{"id": "C127", "title": "A system with Hermitian elements has a self-adjoint Hamiltonian: real energies, orthogonal eigenstates", "statement": "For every spatial or general system whose h and u are Hermitian (and, for a general system, anti-symmetrized), the many-electron Hamiltonian made of h and u on Fock space is self-adjoint: <f|Hg> = <Hf|g> for all states, every eigenvalue is real, eigenstates with different eigenvalues are orthogonal; compute_reference_energy returns a real number, leaves the system as it was, and the number is <D|H D> for a normalised state D with the system's number of electrons, so the exact ground-state energy cannot be above it.", "quantifier": "all systems, all numbers of particles and orbitals, all Hermitian elements, all states of Fock space", "why_tests_cant": "The dimension of Fock space is exponential in the number of orbitals; a test can diagonalise a few small cases only and sees rounding errors instead of exactly real eigenvalues.", "anchors": ["quantum_systems/spatial_orbital_system.py:SpatialOrbitalSystem.compute_reference_energy", "quantum_systems/general_orbital_system.py:GeneralOrbitalSystem.compute_reference_energy", "quantum_systems/system.py:QuantumSystem.h", "quantum_systems/system.py:QuantumSystem.u"]}
{"id": "C128", "title": "Electron repulsion raises every energy; lower bounds on all many-electron energies", "statement": "For ODQD, ODHO and ODSincDVR bases with alpha >= 0 and a != 0 (the latter with four-index u) and for every two-dimensional oscillator, double well and oscillator in a field, the interaction energy of every two-electron state is real and >= 0, in the basis as made and after change_basis with any matrix. So in every spatial system made with such a basis the interaction does not lower the energy <f|Hf> of any many-electron state, and every energy of 2n electrons, reference energy included, is at least that of n doubly occupied lowest orbitals (omega n^2 for ODHO; twice the sum of the n first diagonal elements of h for ODQD with a correct eigensolver and for the two oscillators), or for sinc functions at least 2n times the least value of the potential on the grid, a bound that changes to orthonormal orbitals keep. Bounds are inherited by the general system made with construct_general_orbital_system.", "quantifier": "all constructor parameters meeting the conditions, all basis sizes and electron numbers, all states of Fock space", "why_tests_cant": "The claim is about all states of an exponentially large space and all parameters; a test sees single energies of single systems.", "anchors": ["quantum_systems/quantum_dots/one_dim/one_dim_qd.py:ODQD", "quantum_systems/quantum_dots/one_dim/one_dim_qd.py:ODHO", "quantum_systems/sinc_dvr/one_dim/sinc_dvr.py:ODSincDVR", "quantum_systems/quantum_dots/two_dim/two_dim_ho.py:TwoDimensionalHarmonicOscillator", "quantum_systems/quantum_dots/two_dim/two_dim_ho.py:TwoDimensionalDoubleWell", "quantum_systems/quantum_dots/two_dim/two_dim_ho.py:TwoDimHarmonicOscB", "quantum_systems/basis_set.py:BasisSet.change_basis", "quantum_systems/spatial_orbital_system.py:SpatialOrbitalSystem.compute_reference_energy", "quantum_systems/spatial_orbital_system.py:SpatialOrbitalSystem.construct_general_orbital_system"]}
{"id": "C129", "title": "Exact many-electron states exist; the reference energy is never below the ground-state energy", "statement": "For every spatial or general system whose h and u are Hermitian (and anti-symmetrized for a general system) the states with the system's number m of electrons in its n spin-orbitals have an orthonormal basis of (n choose m) eigenstates of the Hamiltonian made of h and u, with real ascending energies; norm and energy of every state are given by its expansion, and no m-electron eigenstate has another energy. compute_reference_energy returns a number at or above the lowest energy, and equal to it only if the reference determinant is itself an exact ground state. ODQD: for every box, grid of at least three points and potential there is an eigensolver result as the code expects it, and with it the constructor succeeds.", "quantifier": "all systems, numbers of particles and orbitals, Hermitian elements; all grids and potentials", "why_tests_cant": "Existence and completeness of eigenstates is a statement about all Hermitian elements and exponentially large spaces; a test can diagonalise a few small matrices in floating point.", "anchors": ["quantum_systems/spatial_orbital_system.py:SpatialOrbitalSystem.compute_reference_energy", "quantum_systems/general_orbital_system.py:GeneralOrbitalSystem.compute_reference_energy", "quantum_systems/quantum_dots/one_dim/one_dim_qd.py:ODQD.setup_basis", "quantum_systems/system.py:QuantumSystem.h", "quantum_systems/system.py:QuantumSystem.u"]}
{"id": "C130", "title": "Orbitals of lowest energy exist and diagonalise their own Fock matrix", "statement": "For every spatial or general system with Hermitian h and u there is a unitary matrix C such that after change_basis(C) the reference energy is the lowest among all unitary changes of basis and construct_fock_matrix gives a diagonal real matrix, its diagonal ascending among occupied and among empty orbitals. A change of basis that mixes occupied orbitals only with occupied and empty only with empty ones transforms the Fock matrix like a one-body operator. Putting empty orbital a in the place of occupied orbital i changes the reference energy by F_aa - F_ii - u_iaia (general) or 2(F_aa - F_ii) + u_aaaa + u_iiii - 2(2u_iaia - u_iaai) (spatial); so for spin-orbitals of lowest energy F_ii + u_iaia <= F_aa.", "quantifier": "all systems with Hermitian elements, all unitary matrices, all pairs of an occupied and an empty orbital", "why_tests_cant": "change_to_hf_basis is not implemented in the library, users run their own Hartree-Fock; that a solution exists at all cannot be tested, and a test sees one converged iteration, never the infimum over all unitary matrices.", "anchors": ["quantum_systems/spatial_orbital_system.py:SpatialOrbitalSystem.construct_fock_matrix", "quantum_systems/general_orbital_system.py:GeneralOrbitalSystem.construct_fock_matrix", "quantum_systems/spatial_orbital_system.py:SpatialOrbitalSystem.change_to_hf_basis", "quantum_systems/general_orbital_system.py:GeneralOrbitalSystem.change_to_hf_basis", "quantum_systems/spatial_orbital_system.py:SpatialOrbitalSystem.compute_reference_energy", "quantum_systems/system.py:QuantumSystem.change_basis"]}
{"id": "C131", "title": "Time evolution under h_t and u_t keeps overlaps and particles and exists; a laser does work through the dipole moment", "statement": "Let a spatial or general system with Hermitian h and u carry a time-evolution operator whose terms are Hermitian (a laser with real pulse and polarization and Hermitian dipole moments, a real switching of u, or a weighted one-body matrix). Then h_t and u_t can be read at every time, after any number of earlier reads, and the Schroedinger equation i d psi/dt = H(t) psi of the many-electron Hamiltonian made of them conserves overlaps between solutions (hence norms) and the number of electrons, has at most one solution through a state, and, when the operator is continuous in time, has one through every state at every time. The energy changes at the rate given by the derivatives of the elements; under a laser with fixed polarization that rate is the derivative of the pulse times the expectation value of the dipole moment along the polarization. Without an operator the energy is conserved and a state is at every time the sum of its components along the exact eigenstates, each multiplied by exp(-i E t).", "quantifier": "all systems, numbers of electrons and orbitals, Hermitian elements and Hermitian operators, all times, states and sequences of earlier reads of h_t and u_t", "why_tests_cant": "Existence, uniqueness and conservation laws are statements about all solutions of a differential equation over continuous time; a test integrates numerically for a few steps and sees discretisation error.", "anchors": ["quantum_systems/system.py:QuantumSystem.h_t", "quantum_systems/system.py:QuantumSystem.u_t", "quantum_systems/system.py:QuantumSystem.set_time_evolution_operator", "quantum_systems/time_evolution_operators/operator.py:LaserField", "quantum_systems/time_evolution_operators/operator.py:AdiabaticSwitching", "quantum_systems/time_evolution_operators/operator.py:CustomOneBodyOperator"]}
{"id": "C132", "title": "Exact energies do not depend on the orbitals; fewer orbitals never lower them", "statement": "Let a spatial or general system have Hermitian h and u. The exact energies of every number of electrons (the eigenvalues of the many-electron Hamiltonian made of h and u, in ascending order) are determined by h and u. After change_basis with a matrix whose columns are orthonormal, h and u are Hermitian again and the p-th energy is never below the p-th energy before; with a square matrix it is the same. The reference energy in any such orbitals is at least the exact ground-state energy of the original basis. construct_general_orbital_system keeps all energies and all exact states. ODHO, ODQD, TwoDimensionalHarmonicOscillator and TwoDimensionalDoubleWell called with a larger l and otherwise equal arguments never give a higher energy, for any number of electrons and any level.", "quantifier": "all systems, numbers of orbitals kept, numbers of electrons, levels, Hermitian elements and coefficient matrices with orthonormal columns; all constructor arguments", "why_tests_cant": "The claim compares all eigenvalues of two operators on Fock spaces of exponentially growing dimension, for every matrix C; a test diagonalises one small case.", "anchors": ["quantum_systems/system.py:QuantumSystem.change_basis", "quantum_systems/general_orbital_system.py:GeneralOrbitalSystem.compute_reference_energy", "quantum_systems/spatial_orbital_system.py:SpatialOrbitalSystem.construct_general_orbital_system", "quantum_systems/basis_set.py:BasisSet.change_basis", "quantum_systems/quantum_dots/one_dim/one_dim_qd.py:ODQD", "quantum_systems/quantum_dots/two_dim/two_dim_ho.py:TwoDimensionalHarmonicOscillator"]}
{"id": "C133", "title": "Larger basis sets continue smaller ones", "statement": "ODHO, ODQD, TwoDimensionalHarmonicOscillator, TwoDimensionalDoubleWell and TwoDimHarmonicOscB called with a larger l and otherwise equal arguments keep the first l orbitals: h, s, u, the dipole moments and the values of the orbitals on the grid agree on all indices below the smaller l, whatever the state of the Coulomb cache. In a magnetic field this includes that the table of states, which is built, sorted and cut again for every l, has the same first rows. ODSincDVR never has this property, because its orbitals are the points of a grid that moves with l.", "quantifier": "all constructor arguments, all pairs of basis sizes, all consistent cache directories, all orbital and grid indices", "why_tests_cant": "A test compares a few sizes; the table of states is cut by a heuristic that depends on l and on ties between energies.", "anchors": ["quantum_systems/quantum_dots/one_dim/one_dim_qd.py:ODHO", "quantum_systems/quantum_dots/one_dim/one_dim_qd.py:ODQD", "quantum_systems/quantum_dots/two_dim/two_dim_ho.py:TwoDimensionalHarmonicOscillator", "quantum_systems/quantum_dots/two_dim/two_dim_ho.py:TwoDimensionalDoubleWell", "quantum_systems/quantum_dots/two_dim/two_dim_ho.py:TwoDimHarmonicOscB", "quantum_systems/quantum_dots/two_dim/two_dim_helper.py:construct_dataframe", "quantum_systems/sinc_dvr/one_dim/sinc_dvr.py:ODSincDVR"]}
{"id": "C134", "title": "Stronger repulsion raises every exact energy", "statement": "For ODHO, ODQD and ODSincDVR (4d) called with a larger interaction strength alpha, or a smaller shielding a at non-negative alpha, and otherwise equal arguments, every exact energy of every number of electrons stays or rises; in the sinc-DVR basis a potential that is higher by c at every grid point raises each of the m-electron energies by at least m c. For TwoDimensionalHarmonicOscillator at a larger omega every energy divided by omega falls or stays and every energy divided by sqrt(omega) rises or stays. The least energy is a concave function of alpha (and of the potential in the sinc-DVR basis), and of the elements h and u of any Hermitian system.", "quantifier": "all constructor arguments, all numbers of orbitals and electrons, all energies, all Hermitian elements h and u", "why_tests_cant": "A test compares a few energies of a few sizes; the claim orders all eigenvalues of matrices whose dimension grows like a binomial coefficient.", "anchors": ["quantum_systems/quantum_dots/one_dim/one_dim_qd.py:ODHO", "quantum_systems/quantum_dots/one_dim/one_dim_qd.py:ODQD", "quantum_systems/quantum_dots/one_dim/one_dim_qd.py:_shielded_coulomb", "quantum_systems/sinc_dvr/one_dim/sinc_dvr.py:ODSincDVR", "quantum_systems/quantum_dots/two_dim/two_dim_ho.py:TwoDimensionalHarmonicOscillator"]}
{"id": "C135", "title": "The levels of ODQD follow its potential", "statement": "With an exact eigensolver, the single-particle energies that ODQD stores in h are monotone in the potential: a potential that is at most c higher at the inner grid points raises no level by more than c. So no level moves by more than the largest change of the potential, a constant added to the potential is added to every level, a longer grid with the same spacing and potential raises no level, and a potential between m and M gives levels between those of the boxes with bottoms m and M, which are known in closed form. Neither the number of orbitals nor the parameters of the interaction matter.", "quantifier": "all potentials, grid lengths, numbers of grid points and orbitals, all levels", "why_tests_cant": "A test compares a few potentials on a few grids; the claim orders all eigenvalues for every pair of potentials.", "anchors": ["quantum_systems/quantum_dots/one_dim/one_dim_qd.py:ODQD", "quantum_systems/quantum_dots/one_dim/one_dim_qd.py:ODQD.setup_basis"]}
{"id": "C136", "title": "Exact states have sharp quantum numbers", "statement": "If the matrix elements in h and u of a system keep a label of the orbitals (an integer added up over the electrons, possibly modulo a number), then the m-electron space has an orthonormal basis of exact eigenstates in which every state has one value of each such label and, for spatial orbital systems, one spin projection. An eigenstate with an energy of its own is sharp by itself, and the part of any eigenstate with one value of the label is an eigenstate or null. TwoDimensionalHarmonicOscillator and TwoDimHarmonicOscB keep the total angular momentum, TwoDimensionalDoubleWell its parity, ODHO and ODQD with an even potential the reflection parity. construct_general_orbital_system does not change this. Under h_t(t) and u_t(t) the weight of each value of a label is constant in time if the time-dependent operator keeps the label; the spin projection of spatial systems is kept by every operator.", "quantifier": "all numbers of orbitals and electrons, all parameters of the constructors, all conserved labels, all states, all times, all interleaved reading calls", "why_tests_cant": "The library builds h and u only; that the exact states built from them carry quantum numbers is a statement about all states of spaces of any dimension.", "anchors": ["quantum_systems/quantum_dots/two_dim/two_dim_ho.py:TwoDimensionalHarmonicOscillator", "quantum_systems/quantum_dots/two_dim/two_dim_ho.py:TwoDimHarmonicOscB", "quantum_systems/quantum_dots/two_dim/two_dim_ho.py:TwoDimensionalDoubleWell", "quantum_systems/quantum_dots/one_dim/one_dim_qd.py:ODQD", "quantum_systems/quantum_dots/one_dim/one_dim_qd.py:ODHO", "quantum_systems/system.py:QuantumSystem.h_t", "quantum_systems/system.py:QuantumSystem.u_t", "quantum_systems/spatial_orbital_system.py:SpatialOrbitalSystem.construct_general_orbital_system"]}
{"id": "C137", "title": "Rounding error of the two-dimensional Coulomb elements", "statement": "coulomb_ho computed in double precision, with the sums added in any order and multiplications fused into additions or not (the functions are compiled with fastmath), differs from the Anisimovas-Matulis element by at most a stated factor times the sum of the absolute values of the terms of the formula, given the errors of log, exp and lgamma. For orbitals of the first 13 shells and functions correct to two units in the last place the factor is below 2e-10. Elements that do not conserve angular momentum are exactly zero, and for the lowest orbital the bound is a relative error.", "quantifier": "all quantum numbers with at most 48 quanta in total, all orders of summation, all fused and unfused evaluations, all log, exp and lgamma with relative errors of at most 1e-6", "why_tests_cant": "Tests compare a few elements on one machine; the order of the operations depends on the compiler, and the sums cancel.", "anchors": ["quantum_systems/quantum_dots/two_dim/coulomb_elements.py:coulomb_ho", "quantum_systems/quantum_dots/two_dim/coulomb_elements.py:log_factorial", "quantum_systems/quantum_dots/two_dim/coulomb_elements.py:log_ratio_1", "quantum_systems/quantum_dots/two_dim/coulomb_elements.py:log_ratio_2", "quantum_systems/quantum_dots/two_dim/coulomb_elements.py:log_product_1", "quantum_systems/quantum_dots/two_dim/coulomb_elements.py:log_product_2", "quantum_systems/quantum_dots/two_dim/coulomb_elements.py:log_product_3"]}
{"id": "C138", "title": "Exact energies come in spin multiplets", "statement": "For Hermitian elements h and u of a spatial-orbital system the m-electron states have an orthonormal basis of exact eigenstates with sharp total spin, sharp projection and sharp conserved labels. The spin is at most m/2, at most l - m/2, and differs from m/2 by an integer; every level of spin s/2 comes with all s + 1 projections at the same energy. So every exact energy is found at projection 0 or 1/2, levels of spin s/2 are at least (s + 1)-fold, no level of an odd number of electrons is simple, and a simple level has no spin. The spin is what spin_z, spin_2 and spin_2_tb measure after change_to_general_orbital_basis with default arguments. Under the elements returned by h_t and u_t of a spatial system with a Hermitian time-dependent operator the spin and its projection are conserved.", "quantifier": "all numbers of orbitals and electrons, all Hermitian h and u, all conserved labels", "why_tests_cant": "Degeneracies of exact spectra are statements about every Hamiltonian and every eigenstate; tests diagonalize one matrix and compare rounded numbers.", "anchors": ["quantum_systems/basis_set.py:BasisSet.change_to_general_orbital_basis", "quantum_systems/basis_set.py:BasisSet.add_spin_one_body", "quantum_systems/basis_set.py:BasisSet.add_spin_two_body", "quantum_systems/basis_set.py:BasisSet.spin_z", "quantum_systems/basis_set.py:BasisSet.spin_2", "quantum_systems/basis_set.py:BasisSet.spin_2_tb"]}
{"id": "C139", "title": "A static electric field on a symmetric quantum dot: opposite fields give equal energies, a field never raises the ground-state energy", "statement": "For the symmetric dots (ODHO, ODQD with an even potential and beta = 0, ODSincDVR with an even potential and beta = 0, the two-dimensional oscillator, double well and oscillator in a magnetic field), any number of electrons and any direction of the field, the exact energies of h + F d and h - F d coincide, d being the dipole moment along the field, and the least energy does not rise with the strength of the field. Without field, states of simple levels have no dipole moment. The least energy for the elements returned by h_t and u_t with a laser is at no time above the one without laser. Every level follows the field continuously, by at most the number of electrons times the largest mean value of d for every unit of field.", "quantifier": "all numbers of orbitals and electrons, all field strengths and directions, all parameters of the constructors", "why_tests_cant": "The statement compares exact many-electron spectra for all fields; tests can diagonalize for a few fields only and compare rounded numbers.", "anchors": ["quantum_systems/time_evolution_operators/operator.py:LaserField.h_t", "quantum_systems/quantum_dots/one_dim/one_dim_qd.py:ODHO", "quantum_systems/quantum_dots/one_dim/one_dim_qd.py:ODQD", "quantum_systems/quantum_dots/two_dim/two_dim_ho.py:TwoDimensionalHarmonicOscillator", "quantum_systems/quantum_dots/two_dim/two_dim_ho.py:TwoDimensionalDoubleWell", "quantum_systems/quantum_dots/two_dim/two_dim_ho.py:TwoDimHarmonicOscB", "quantum_systems/basis_set.py:BasisSet.dipole_moment", "quantum_systems/sinc_dvr/one_dim/sinc_dvr.py:ODSincDVR"]}
{"id": "C140", "title": "Without interaction exact energies are sums of orbital energies; with repulsion none is below them", "statement": "When h is diagonal and u vanishes, every determinant is an exact state, and the exact energies of any number of electrons are the sums of the energies of that many different spin-orbitals, each as often as it occurs. This holds for ODHO and ODQD with alpha = 0, where the energies of ODHO are omega times an integer plus half the number of electrons, and 2n electrons have least energy omega n^2. With repulsion (ODHO, ODQD, the two-dimensional oscillator with or without magnetic field) each exact energy is at least the sum in the same place of the ordered list of sums.", "quantifier": "all numbers of orbitals and electrons, restricted and general systems, all diagonal h, all parameters of the constructors", "why_tests_cant": "The spectrum has binomially many levels and the claim concerns all of them with their multiplicities, for all sizes and parameters.", "anchors": ["quantum_systems/quantum_dots/one_dim/one_dim_qd.py:ODHO", "quantum_systems/quantum_dots/one_dim/one_dim_qd.py:ODQD", "quantum_systems/quantum_dots/two_dim/two_dim_ho.py:TwoDimensionalHarmonicOscillator", "quantum_systems/quantum_dots/two_dim/two_dim_ho.py:TwoDimHarmonicOscB", "quantum_systems/basis_set.py:BasisSet.h", "quantum_systems/basis_set.py:BasisSet.u"]}
{"id": "C141", "title": "Rounding in the sinc-DVR matrices", "statement": "In double precision every off-diagonal element of h of the sinc-DVR basis has a relative error of at most 35 (l - 1) units of roundoff. A diagonal element misses its exact value by at most 38 (l - 1) units of roundoff of the kinetic term, one unit of the potential and twice the error of the supplied potential. The computed h and u are exactly symmetric, off-diagonal elements of h depend on the difference of the indices alone, and every two-body element is positive with an error of at most 8 units of roundoff of itself plus 13 units of L alpha / a^2.", "quantifier": "all numbers of points up to 2^26, all grid lengths that are floats between 2^-400 and 2^400, all potentials, alpha and a, all functions for x ** 2 that are within two units of roundoff", "why_tests_cant": "Rounding errors depend on every input; tests compare a few matrices with a tolerance.", "anchors": ["quantum_systems/sinc_dvr/one_dim/sinc_dvr.py:ODSincDVR"]}
{"id": "C142", "title": "Exact states with opposite angular momenta have equal energies; so have opposite magnetic fields", "statement": "In the two-dimensional oscillator with complete shells the exact states of any number of electrons come in two complete lists with the same energies, in which states in the same place have opposite total angular momenta and the same spin projection; hence a state with angular momentum different from 0 shares its energy with another state, and a level without degeneracy has angular momentum 0. In a magnetic field the exact energies for omega_c and -omega_c agree when the orbitals fill the levels they belong to.", "quantifier": "all numbers of complete shells, electrons and parameters of the constructors; in general all elements h, u that do not change when orbitals are exchanged in pairs", "why_tests_cant": "The claim concerns all eigenstates of a matrix of binomial size for all numbers of electrons and orbitals; tests look at single matrix elements.", "anchors": ["quantum_systems/quantum_dots/two_dim/two_dim_ho.py:TwoDimensionalHarmonicOscillator", "quantum_systems/quantum_dots/two_dim/two_dim_ho.py:TwoDimHarmonicOscB", "quantum_systems/quantum_dots/two_dim/two_dim_helper.py:get_coulomb_elements", "quantum_systems/basis_set.py:BasisSet.h", "quantum_systems/basis_set.py:BasisSet.u"]}
{"id": "C143", "title": "The exact energies add up to the traces of the elements", "statement": "For every system with Hermitian elements the sum of all exact energies of m electrons is C(n-1,m-1) times the trace of h over the n spin-orbitals plus C(n-2,m-2) times the trace of the interaction over pairs (2 u_pqpq - u_pqqp for spatial orbitals, u_pqpq / 2 for anti-symmetrized elements). So the mean of the energies, a number that needs no diagonalization, bounds the ground-state energy from above and the highest energy from below, and with all orbitals occupied the reference energy is exact. For ODSincDVR (4d) the sum follows from the potential and the repulsion on the grid; for ODHO and for complete shells of TwoDimensionalHarmonicOscillator the one-body part is in closed form.", "quantifier": "all Hermitian h and u, both kinds of systems, all numbers of orbitals and electrons; all constructor arguments", "why_tests_cant": "The sum runs over binomially many eigenvalues; tests diagonalize nothing.", "anchors": ["quantum_systems/basis_set.py:BasisSet.h", "quantum_systems/basis_set.py:BasisSet.u", "quantum_systems/spatial_orbital_system.py:SpatialOrbitalSystem.compute_reference_energy", "quantum_systems/general_orbital_system.py:GeneralOrbitalSystem.compute_reference_energy", "quantum_systems/sinc_dvr/one_dim/sinc_dvr.py:ODSincDVR", "quantum_systems/quantum_dots/one_dim/one_dim_qd.py:ODHO", "quantum_systems/quantum_dots/two_dim/two_dim_ho.py:TwoDimensionalHarmonicOscillator"]}
{"id": "C144", "title": "Rounding in the time-dependent Hamiltonian", "statement": "In floating point, whatever the order of summation, h_t of LaserField differs from h + E(t) * sum_i pol_i dipole_i by at most the relative errors of 2 d + 3 roundings (d components), h_t of CustomOneBodyOperator from h + w(t) * operator by those of 3, and u_t of AdiabaticSwitching from s(t) * u by those of 2. With a real pulse and the polarization along one axis (the default is x) h_t is h plus the rescaled component, bit for bit Hermitian if h and that component are; for every real polarization it is Hermitian up to twice the error bound. A real switching function keeps Hermiticity, anti-symmetry and particle symmetry of u bit for bit. Where the pulse or the weight is 0, or the switching function 1, not a bit of h or u changes.", "quantifier": "all dimensions, elements, polarizations, pulses, weights, indices, orders of summation and choices of fused operations", "why_tests_cant": "Rounding errors depend on every input and on the order in which BLAS adds; tests compare a few values with a tolerance.", "anchors": ["quantum_systems/time_evolution_operators/operator.py:LaserField.h_t", "quantum_systems/time_evolution_operators/operator.py:AdiabaticSwitching.u_t", "quantum_systems/time_evolution_operators/operator.py:CustomOneBodyOperator.h_t"]}
{"id": "C145", "title": "One electron, and one electron missing", "statement": "The exact energies of one electron are the eigenvalues of the stored h, whatever u holds. With every orbital occupied, E is an exact energy with one electron removed if and only if compute_reference_energy() - E is an eigenvalue of construct_fock_matrix(h, u): removing an electron from a full basis set is exactly described by the Fock matrix. So one electron in ODHO has the energies omega (p + 1/2), p < l, and in TwoDimensionalHarmonicOscillator omega (k + 1) for the shells k that have begun, and no others.", "quantifier": "all Hermitian h and u with particle symmetry, both kinds of systems, all numbers of orbitals; all constructor arguments", "why_tests_cant": "The claim is an equality of spectra in a space of many electrons; tests diagonalize nothing.", "anchors": ["quantum_systems/spatial_orbital_system.py:SpatialOrbitalSystem.construct_fock_matrix", "quantum_systems/general_orbital_system.py:GeneralOrbitalSystem.construct_fock_matrix", "quantum_systems/spatial_orbital_system.py:SpatialOrbitalSystem.compute_reference_energy", "quantum_systems/general_orbital_system.py:GeneralOrbitalSystem.compute_reference_energy", "quantum_systems/quantum_dots/one_dim/one_dim_qd.py:ODHO", "quantum_systems/quantum_dots/two_dim/two_dim_ho.py:TwoDimensionalHarmonicOscillator"]}
{"id": "C146", "title": "Holes are particles", "statement": "With every orbital occupied, E is an exact energy with m electrons removed if and only if E - compute_reference_energy() is an exact energy of m electrons whose one-body elements are minus construct_fock_matrix(h, u) and whose two-body elements are the same u. With no electron removed the reference energy is the only exact energy, and more electrons than spin-orbitals have no state at all.", "quantifier": "all Hermitian h and u with particle symmetry (anti-symmetrized u for general systems), both kinds of systems, all numbers of orbitals and of removed electrons", "why_tests_cant": "The claim equates spectra of many electrons for every number of holes; tests diagonalize nothing.", "anchors": ["quantum_systems/spatial_orbital_system.py:SpatialOrbitalSystem.construct_fock_matrix", "quantum_systems/general_orbital_system.py:GeneralOrbitalSystem.construct_fock_matrix", "quantum_systems/spatial_orbital_system.py:SpatialOrbitalSystem.compute_reference_energy", "quantum_systems/general_orbital_system.py:GeneralOrbitalSystem.compute_reference_energy"]}
{"id": "C147", "title": "How far the reference energy is from the exact energies", "statement": "Let e = compute_reference_energy(), Phi the determinant with the occupied orbitals and r the norm of H Phi - e Phi. Some exact energy differs from e by at most r, and the ground-state energy E0 is not arbitrarily far below e: (e - E0)(E1 - e) <= r^2 for the next exact energy E1. The first bound holds for every state of any number of electrons and every trial energy.", "quantifier": "all Hermitian h and u, both kinds of systems, all numbers of orbitals and occupied orbitals, all states", "why_tests_cant": "The exact spectrum and the residual of the determinant live in a space no test builds.", "anchors": ["quantum_systems/spatial_orbital_system.py:SpatialOrbitalSystem.compute_reference_energy", "quantum_systems/general_orbital_system.py:GeneralOrbitalSystem.compute_reference_energy"]}
{"id": "C148", "title": "Fock energies bound ionization and attachment", "statement": "With e = compute_reference_energy() and f = construct_fock_matrix(h, u), the lowest exact energy with one electron less is at most e - f_ii for every occupied orbital i, and the lowest exact energy with one electron more at most e + f_aa for every empty orbital a.", "quantifier": "all Hermitian h and u with particle symmetry (anti-symmetrized u for general systems), both kinds of systems, all numbers of orbitals and occupied orbitals", "why_tests_cant": "The lowest exact energies are minima over spaces of many electrons; tests diagonalize nothing.", "anchors": ["quantum_systems/spatial_orbital_system.py:SpatialOrbitalSystem.construct_fock_matrix", "quantum_systems/general_orbital_system.py:GeneralOrbitalSystem.construct_fock_matrix", "quantum_systems/spatial_orbital_system.py:SpatialOrbitalSystem.compute_reference_energy", "quantum_systems/general_orbital_system.py:GeneralOrbitalSystem.compute_reference_energy"]}
{"id": "C149", "title": "Two electrons in a two-dimensional trap", "statement": "For TwoDimensionalHarmonicOscillator the lowest exact energy of two electrons in the orbitals of the basis lies between 2*omega and 2*omega + sqrt(pi*omega/2). For TwoDimHarmonicOscB it does with omega = sqrt(omega_0**2 + omega_c**2/4).", "quantifier": "all bases of at least one function, all omega > 0 (omega_0 not zero and any omega_c for the field), all grids and masses; cached Coulomb files, if any, as the code writes them", "why_tests_cant": "The lowest energy is a minimum over all states of two electrons, for every size of the basis; tests try one size and diagonalize nothing.", "anchors": ["quantum_systems/quantum_dots/two_dim/two_dim_ho.py:TwoDimensionalHarmonicOscillator", "quantum_systems/quantum_dots/two_dim/two_dim_ho.py:TwoDimHarmonicOscB", "quantum_systems/spatial_orbital_system.py:SpatialOrbitalSystem.compute_reference_energy"]}
