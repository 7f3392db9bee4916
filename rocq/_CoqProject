-Q theories Verif
theories/Scalar.v
theories/Py.v
theories/Numpy.v
theories/BasisSet.v
theories/NumpyFacts.v
theories/Spec.v
theories/TransformFacts.v
theories/BasisSpec.v
theories/BasisFacts.v
theories/ChangeProofs.v
theories/Examples.v
theories/ConvProofs.v
theories/Ownership.v
theories/SpinFacts.v
theories/DoubleFacts.v
theories/SpinProofs.v
theories/Histories.v
theories/Frame.v
theories/SizeProofs.v
theories/FlagProofs.v
theories/BraProofs.v
theories/HistExamples.v
theories/DensitySpec.v
theories/DensityProofs.v
theories/DensityExamples.v
theories/Systems.v
theories/EnergySpec.v
theories/EnergyFacts.v
theories/EnergyProofs.v
theories/SystemFacts.v
theories/SystemProofs.v
theories/Worlds.v
theories/WorldProofs.v
theories/SystemExamples.v
theories/OperatorSpec.v
theories/OperatorProofs.v
theories/OperatorProofs2.v
theories/OperatorProofs3.v
theories/OperatorExamples.v
theories/TwoDim.v
theories/TwoDimProofs.v
theories/FieldProofs.v
theories/TwoDimExamples.v
theories/Coulomb.v
theories/CoulombSpec.v
theories/CoulombProofs.v
theories/Cache.v
theories/CacheProofs.v
theories/CacheExamples.v
theories/ScalarC.v
theories/Angular.v
theories/AngularSpec.v
theories/AngularProofs.v
theories/Gauss.v
theories/Moments.v
theories/Orbitals.v
theories/OrbitalSpec.v
theories/Laguerre.v
theories/OrbitalProofs.v
theories/Schroedinger.v
theories/MatrixProofs.v
theories/Wells.v
theories/WellProofs.v
theories/Potentials.v
theories/PotentialProofs.v
theories/OneDim.v
theories/OneDimSpec.v
theories/OneDimProofs.v
theories/DotProofs.v
theories/Hermite.v
theories/LineProofs.v
theories/DvrSpec.v
theories/DvrProofs.v
theories/DvrCompare.v
theories/SincDvr.v
theories/SincSpec.v
theories/SincProofs.v
theories/DvrSystem.v
theories/Molecule.v
theories/MoleculeSpec.v
theories/MoleculeProofs.v
theories/RandomBasis.v
theories/RandomProofs.v
theories/Sampler.v
theories/SamplerProofs.v
theories/Prop_Change.v
theories/Prop_Spin.v
theories/Prop_Conv.v
theories/Prop_Hist.v
theories/Prop_Density.v
theories/Prop_System.v
theories/Prop_Operator.v
theories/Prop_TwoDim.v
theories/Prop_Coulomb.v
theories/Prop_Orbital.v
theories/Prop_OneDim.v
theories/Prop_Dvr.v
theories/Prop_Misc.v
theories/PyHeap.v
theories/HeapSpec.v
theories/HeapProofs.v
theories/HeapFrame.v
theories/HeapCopy.v
theories/HeapLib.v
theories/HeapExamples.v
theories/Prop_Copy.v
theories/TwoDimBasis.v
theories/PlaneSpec.v
theories/PlaneProofs.v
theories/Prop_Plane.v
theories/GridSpec.v
theories/GridProofs.v
theories/QuadProofs.v
theories/SpectrumProofs.v
theories/RepulsionProofs.v
theories/GridExamples.v
theories/Prop_Grid.v
theories/FockSpec.v
theories/FockProofs.v
theories/FockSystem.v
theories/FockExamples.v
theories/Prop_Fock.v
theories/FloatModel.v
theories/FloatSpec.v
theories/FloatProofs.v
theories/FloatCode.v
theories/FloatGrid.v
theories/FloatExamples.v
theories/FloatTheorems.v
theories/Prop_Float.v
theories/PairSpec.v
theories/PairProofs.v
theories/PairTheorems.v
theories/Prop_Pair.v
theories/LadderSpec.v
theories/LadderProofs.v
theories/LevelProofs.v
theories/DipoleSpec.v
theories/DipoleProofs.v
theories/DipoleTheorems.v
theories/Prop_Dipole.v
theories/Helpers.v
theories/SymmetryProofs.v
theories/SymmetryTheorems.v
theories/Prop_Symmetry.v
theories/NodeSpec.v
theories/NodeProofs.v
theories/ParityProofs.v
theories/ParitySpec.v
theories/ParityTheorems.v
theories/BoxProofs.v
theories/BoxTheorems.v
theories/Prop_Parity.v
theories/SpinDensitySpec.v
theories/SpinDensityProofs.v
theories/SpinDensityExamples.v
theories/Prop_SpinDensity.v
theories/RotationSpec.v
theories/RotationProofs.v
theories/RotationTheorems.v
theories/RotationExamples.v
theories/KoopmansProofs.v
theories/Prop_Rotation.v
theories/PositiveSpec.v
theories/PositiveKernel.v
theories/PositiveForms.v
theories/PositiveTheorems.v
theories/KineticSpec.v
theories/KineticProofs.v
theories/Prop_Positive.v
theories/FloatOverflow.v
theories/OverflowSpec.v
theories/OverflowProofs.v
theories/OverflowAccuracy.v
theories/Prop_Overflow.v
theories/Parallel.v
theories/ParallelSpec.v
theories/ParallelProofs.v
theories/Prop_Parallel.v
theories/FourierPoly.v
theories/PlaneForm.v
theories/PlanePositive.v
theories/Prop_PlanePositive.v
theories/InnerSpec.v
theories/InnerProofs.v
theories/RaiseSpec.v
theories/RaiseProofs.v
theories/RaiseFock.v
theories/RaiseTheorems.v
theories/Prop_Energies.v
theories/Compactness.v
theories/SpectralSpec.v
theories/SpectralProofs.v
theories/FockSpectrumSpec.v
theories/FockSpectrum.v
theories/GroundTheorems.v
theories/HartreeFockProofs.v
theories/HartreeFockTheorems.v
theories/HartreeFockExamples.v
theories/Prop_Ground.v
theories/Prop_HartreeFock.v
theories/EvolutionSpec.v
theories/EvolutionCalculus.v
theories/EvolutionProofs.v
theories/LinearOde.v
theories/EvolutionTheorems.v
theories/EvolutionExamples.v
theories/Prop_Evolution.v
theories/OrbitalMap.v
theories/OrbitalEnergy.v
theories/VariationalSpec.v
theories/VariationalTheorems.v
theories/VariationalSystems.v
theories/Prop_Variational.v
theories/NestedSpec.v
theories/NestedProofs.v
theories/Prop_Nested.v
theories/StrengthSpec.v
theories/StrengthProofs.v
theories/StrengthSystems.v
theories/Prop_Strength.v
theories/LevelOrder.v
theories/Prop_Potential.v
theories/SharpSpec.v
theories/SharpProofs.v
theories/SharpTheorems.v
theories/SharpSystems.v
theories/Prop_Sharp.v
theories/FloatCoulomb.v
theories/FloatCoulombSpec.v
theories/FloatCoulombProofs.v
theories/FloatCoulombTheorems.v
theories/Prop_FloatCoulomb.v
theories/MultipletSpec.v
theories/MultipletProofs.v
theories/MultipletLadder.v
theories/MultipletBasis.v
theories/MultipletTheorems.v
theories/MultipletSystems.v
theories/MultipletEvolution.v
theories/Prop_Multiplet.v
theories/StaticSpec.v
theories/StaticProofs.v
theories/StaticSystems.v
theories/Prop_Static.v
theories/FreeSpec.v
theories/FreeProofs.v
theories/FreeSystems.v
theories/Prop_Free.v
theories/FloatDvr.v
theories/FloatDvrSpec.v
theories/FloatDvrProofs.v
theories/FloatDvrTheorems.v
theories/Prop_FloatDvr.v
theories/ReversalSpec.v
theories/ReversalProofs.v
theories/ReversalTheorems.v
theories/ReversalSystems.v
theories/ReversalField.v
theories/Prop_Reversal.v
theories/KinkProofs.v
theories/Prop_Kink.v
theories/TraceSpec.v
theories/TraceProofs.v
theories/TraceSystems.v
theories/Prop_Trace.v
theories/FloatOperator.v
theories/FloatOperatorProofs.v
theories/Prop_FloatOperator.v
theories/HoleSpec.v
theories/HoleProofs.v
theories/HoleTheorems.v
theories/HoleSystems.v
theories/ElectronProofs.v
theories/HoleExamples.v
theories/HoleDots.v
theories/Prop_Hole.v
theories/FullTheorems.v
theories/ParticleHole.v
theories/ParticleHoleSystems.v
theories/ParticleHoleExamples.v
theories/Prop_ParticleHole.v
theories/ResidualSpec.v
theories/ResidualProofs.v
theories/Prop_Residual.v
theories/IonizationProofs.v
theories/Prop_Ionization.v
theories/TwoElectrons.v
theories/Prop_TwoElectrons.v
