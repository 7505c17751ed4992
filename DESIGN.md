# Formal model of rampack in Rocq (Coq 8.16.1)

## 1. Method

* The C++ in `/repo` is read as text and transcribed, function by function, into small total Gallina
  definitions (`*Model.v`). Every definition carries the file and the lines it models; every
  simplification is named in that comment.
* Undefined behaviour, thrown exceptions, failed `Expects`/`Assert` and non-termination are explicit
  outcomes of the model (`option`, `result`, fuel exhaustion), never a silently chosen default.
* The properties of `properties.jsonl` are stated in `*Properties.v` files. These contain only statements (each
  closed by `exact lemma`), a `Print Assumptions` per theorem, and non-vacuity `Example`s. Proofs are in
  `*Proofs.v`. Independent specifications (what the user relies on) are in `*Spec.v` or at the head of the
  property file when tiny.
* A full statement which is false of the code is proved false with a witness
  (`..._refuted`); the statement in `properties.jsonl` then names the defect in parentheses ("The source ...") and the rest of it is proved. Such cases are the "findings" of section 6. `_partial` is the suffix of a theorem which proves only a part (none at present).

## 2. Numbers

* `double` geometry (boxes, positions, distances, energies) is modelled with Coq's real numbers `R`: rounding,
  overflow, NaN and infinities are not modelled unless a definition says so (e.g. infinite energy is a separate constructor).
* `std::size_t` indices are `nat`/`Z`/`N`; where the code relies on 64-bit wrap-around (neighbour offsets, RAMTRJ
  sizes) the wrap-around is modelled explicitly (`mod 2^64`).
* Text is a list of character codes (`Z`, 0 to 255; `TextModel.v`); bytes are numbers `< 256`.

## 3. Trusted base

* Coq's kernel (8.16.1; `vm_compute` is used, `native_compute` is not) and the fidelity of the hand transcription
  from C++ to Gallina. No check of the kernel is switched off.
* Axioms: only those of Coq's standard library (real numbers and classical logic). Coquelicot is used for integrals
  (`is_RInt`) in `VolSpec.v` and the proofs about volumes; it adds no axioms of its own to what is listed here. Section 7 has the list printed by
  `Print Assumptions` for every theorem.
* No axioms, parameters, functors or module types of our own; external calls are section variables or fields of records, over which
  theorems quantify.
* Definitions which are part of statements and must be read to trust them: the `*Spec.v` files and the models.

## 4. Plan per property

| id | modelled code | how proved |
|----|---------------|------------|
| C01 | `Matrix::inverse` (adjugate), `TriclinicBox` conversions | field identities over R; singular = `None` |
| C02, C03 | `PeriodicBoundaryConditions` loops with fuel | induction on the integer part; uniqueness of the result |
| C04 | `getDistance2` | proved for orthogonal sides, refuted for a triclinic box |
| C05 | volume, heights, scaling | algebra |
| C06 | linked lists in arrays `cellHeads`, `successors` | refinement to a map cell -> list by induction over the history |
| C07 | cell numbering, reflection, translations | integer arithmetic + real floor lemma |
| C08 | offsets (with wrap-around) | arithmetic over all divisions |
| C09 | `resize` | equality of grid states |
| C10, C11, C12, C13, C14 | packing as state machine over an abstract symmetric pair relation | induction over histories, permutation of pair sums, interleavings of a shared flag |
| C15 | `Shape::translate`, centres | invariant |
| C16, C17, C18, C19 | domain decomposition | interval arithmetic over R |
| C20-C24 | `Simulation` | case analysis and induction over cycles |
| C25, C26, C57 | rotation algebra | nsatz/nra style identities |
| C27-C31 | RAMTRJ bytes and player | codec lemmas, induction over snapshots and histories |
| C32, C33, C34 | text metadata, backwards getline | induction over strings |
| C35, C36 | PYON recursive descent parser | induction over values; fuel sufficiency |
| C37, C38 | matchers | refinement to a Python-style binding specification |
| C39-C41 | dynamic parameters, interactions | algebra and list induction |
| C42-C44 | Config, Version, explode/implode | list induction |
| C45 | histograms | permutation invariance |
| C46-C48 | bond, smectic, nematic order | sorting lemma, enumeration lemma, trigonometric identity |
| C49 | run auto-detection | list induction over run states |
| C50, C51 | scaling directions | list induction / finite case analysis over parsed structure |
| C52, C53 | lattice | list induction; divergence proof |
| C54, C55 | segments | quadratic minimisation over R |
| C56 | bisection | invariant |
| C58 | walls | case analysis |
| C59, C60 | collector | list induction |
| C61 | `PolysphereGeometry`, `PolyspherocylinderGeometry`, `ShapeGeometry` (named points, axes, volume, mass centre) | acceptance as an iff, list induction, uniqueness of the mass centre |
| C62 | hard interactions of spheres and polyspheres | overlap reported iff open balls meet; transfers C10-C14 to these interactions |
| C63 | support functions of primitives and operations, the stack of `XCBodyBuilder` | each geometry refines a convex body given as a set; induction over scripts |
| C64 | `XenoCollide::intersect`, `XenoCollideTraits::CollideInteraction` | loop invariants (portal encloses the ray), for every fuel |
| C65 | `KMerTraits`, `PolysphereWedgeTraits`, `PolysphereLollipopTraits`, `VolumeCalculator` | induction over the spheres; volumes as integrals of areas of sections (Coquelicot) |
| C66 | `SmoothWedgeTraits`, `PolyhedralWedgeTraits` | union of parts = convex hull by induction over parts; volumes as integrals of sections |
| C67 | enumerators of pairs, pair density correlation, pair averaged correlation, probability evolution, correlation functions; schedules of threads as orders of additions | distance vectors by geometric characterisation, histograms by tallies over permutations of additions, means by induction over snapshots; findings by explicit packings |
| C68 | density histogram, bin averaged function and functions of particles; a loop as an order of additions or as an interleaving of calculate and store steps of threads | invariant over snapshots and clears, uniqueness of the periodic image, tallies over permutations; race by an explicit interleaving of two threads |
| C69 | Fourier tracker: coefficients, origins for one, two and three waves, normalisation against the previous origin, reset; the polynomial solver is an argument | trigonometric expansion of the modulation, exact argument functions, derivative at a maximum gives a root of the printed polynomial, induction over calls; refuted for one particle by a tangent above all returned roots |
| C70 | layer and column associations, layer-wise, layer rotation, columnar, flip and rotation randomising transformers; drawn numbers are arguments | sorting and binning of coordinates, least common multiple and replication of layers, index arithmetic over cells, permutation of generated molecules, folds over cells |
| C71 | molecules and boxes of unit cells of all types, custom cells | differences of positions of a crystal as integer vectors with a quadratic form of the squared distance; bounded search of its minimal vectors is proved complete; cells of the lattice box are those of the crystal |
| C72 | dimensions read from the input, three ways of specifying the lattice, choice of the axis order, fillings and the pipeline of transformations; parsed values are arguments | box algebra, reduction to lattices of C52 and C53, case analysis of sorting, induction over transformations; counterexample with a bcc cell |
| C73 | shrinkPacking and the transformer which uses it; the interaction is given by its range and a function telling if a packing in a box has overlaps | a general theorem about bisection, box algebra, induction over axes with a relation for the stages; success and failure both characterised |
| C74 | all steps of the layer-wise transformer: layers, cell, spacing, centring, normalisation | bisection with tests which need fuel, induction over layers with coordinates of layers as the abstract state; counterexample with three layers of hard spheres |
| C75 | generators of the geometry of bananas of spheres (current and legacy) and of spherocylinders, the two checks of an arc, volumes | points of the arc by trigonometry, runs of spheres around the arc containing a given point, volumes of parts as integrals of cross-sections; findings by explicit shapes |
| C76 | the trajectory mode after parsing of options: choice of the run, environment, loading and truncation of the player, all outputs; the check of dynamic parameters | simulation relation between players and a shelf of snapshots, induction on replay loops, an exact list of stages; findings by explicit runs |
| C77 | the input file: classes rampack, integration, overlap_relaxation, dynamic parameters, moves, box moves, writers and recorders, as matchers over the modelled parser; classes of shapes, arrangements and observables are parameters | each matcher denotes a relation of the specification, composed up to the whole input; findings by an explicit input |
| C78 | the XYZ writer, streams with separate or joint positions, the recorder and its factory; printing of numbers is a parameter giving numerals | a reader of the format written in the specification is run on the written text; histories by induction, positions of the last header from the lines read backwards, crash points by cases on the length of what was written |
| C79 | the subdivision of the octahedron, the mesh of support points, its orientation, volume and moves; the QuickHull library is a parameter | the hypothesis on the library is that it returns hull points and faces of the hull; angles by induction on subdivisions, containment by convexity of bodies given by support functions |
| C80 | printers of shapes, Wolfram and OBJ output; printing of numbers is a parameter | a lexer and parser of expressions and a reader of OBJ lines are written in the specification and run on the printed text; by induction over lists of shapes, parts and triangles |
| C81 | the matchers of convex bodies and of generic convex shapes over the modelled matcher library, and the commands of the body builder they give | the language of descriptions is an inductive type with its meaning as a support function; acceptance by induction over descriptions, the meaning by the refinement of the body builder proved for C18 |
| C82 | ParseUtils, processCommand and the generic shapes of the legacy shape factory; reading of doubles is a parameter | words, layouts of fields, commands and lists of numbers are relations in the specification; equivalences with what is parsed by induction over texts and tokens |
| C83 | OrthorhombicArrangingModel; ceil(cbrt(n)) without rounding | the n-th visited site by division with remainder; positions relative to the middle of the box and rotations about axes determine the shapes, so the result is characterised completely |
| C84 | the three factories of old input files; reading of doubles is a parameter | grammars as relations, mutually inductive for nested parameters; soundness by induction over fuel, completeness by induction over derivations with the length of the text as a measure |
| C85 | the legacy arrangement factory for orthorhombic arrangements; reading of doubles and minimal distances are parameters | occurrences of keywords in a sequence of words by induction, then reading word by word; equivalence with a description of the arrangement whose shapes are those of C83 |

Not expressible here: floating point rounding effects, the actual OpenMP memory model (only interleavings of
atomic steps are modelled), statistical correctness of the Monte Carlo sampling.

## 5. What is modelled

Each definition cites file and lines; the table lists which files of `/repo/src` are cited by which model.

| model | source files |
|-------|--------------|
| `BananaModel` | `PolysphereBananaTraits.cpp`, `PolyspherocylinderBananaTraits.cpp`, `PolyspherocylinderTraits.h` |
| `BeadsModel` | `KMerTraits.cpp`, `PolysphereLollipopTraits.cpp`, `PolysphereTraits.h`, `PolysphereWedgeTraits.cpp`, `VolumeCalculator.cpp` |
| `BinsModel` | `BinAveragedFunction.cpp`, `ConstantShapeFunction.h`, `DensityHistogram.cpp`, `ShapeAxis.cpp`, `ShapeAxisCoordinate.cpp`, `ShapeQTensor.cpp` |
| `BondModel` | `BondOrder.cpp`, `BondOrder.h`, `Vector.h` |
| `BoxModel` | `TriclinicAdapter.h`, `TriclinicBox.cpp`, `TriclinicBox.h` |
| `CellModel` | `LatticeMatcher.cpp`, `Shape.h`, `TriclinicBox.h`, `UnitCell.h`, `UnitCellFactory.cpp` |
| `CollideModel` | `XenoCollide.h`, `XenoCollideTraits.h` |
| `ConfigModel` | `Config.cpp`, `Config.h` |
| `ConvexModel` | `GenericConvexGeometryMatcher.cpp`, `RecursiveMatcher.h`, `ShapeMatcher.cpp` |
| `CorrModel` | `AxesAngle.h`, `AxisCorrelation.cpp`, `Histogram.tpp`, `HistogramBuilder.tpp`, `LayerwiseRadialEnumerator.cpp`, `LinearEnumerator.cpp`, `Packing.cpp`, `PairAveragedCorrelation.cpp`, `PairDensityCorrelation.cpp`, `ProbabilityEvolution.cpp`, `ProbabilityEvolution.h`, `RadialEnumerator.cpp`, `S110Correlation.h`, `S220Correlation.h`, `S221Correlation.h` |
| `DimsModel` | `LatticeDimensionsOptimizer.cpp` |
| `DistModel` | `DistanceOptimizer.cpp`, `DistanceOptimizer.h`, `FreeBoundaryConditions.h` |
| `DomModel` | `ActiveDomain.cpp`, `ActiveDomain.h`, `DomainDecomposition.cpp`, `DomainDecomposition.h`, `Packing.h`, `Simulation.cpp` |
| `DynModel` | `ConstantDynamicParameter.h`, `ExponentialDynamicParameter.h`, `LinearDynamicParameter.h`, `PiecewiseDynamicParameter.cpp`, `ShiftedDynamicParameter.cpp` |
| `FactoryModel` | `AnisotropicVolumeScaler.cpp`, `MoveSamplerFactory.cpp`, `ParameterUpdaterFactory.cpp`, `PiecewiseDynamicParameter.cpp`, `RototranslationSampler.cpp`, `TriclinicBoxScalerFactory.cpp`, `Utils.h` |
| `GeoModel` | `PolysphereTraits.cpp`, `PolysphereTraits.h`, `PolyspherocylinderTraits.cpp`, `PolyspherocylinderTraits.h`, `ShapeGeometry.cpp`, `ShapeGeometry.h`, `Vector.tpp` |
| `GeomModel` | `Matrix.tpp`, `Vector.h`, `Vector.tpp` |
| `HistModel` | `Histogram.h`, `Histogram.tpp`, `HistogramBuilder.h`, `HistogramBuilder.tpp` |
| `InputModel` | `AnisotropicVolumeScaler.cpp`, `BoxScalerMatcher.cpp`, `DynamicParameterMatcher.cpp`, `FileSnapshotWriterMatcher.cpp`, `MatcherDataclass.cpp`, `MatcherDataclass.h`, `MoveSamplerMatcher.cpp`, `RampackMatcher.cpp`, `RampackParameters.h`, `SimulationRecorderFactoryMatcher.cpp`, `Version.h` |
| `InterModel` | `CentralInteraction.h`, `CompoundInteraction.cpp`, `Interaction.cpp`, `Interaction.h`, `LennardJonesInteraction.cpp`, `RepulsiveLennardJonesInteraction.cpp`, `SquareInverseCoreInteraction.cpp` |
| `LatticeModel` | `Lattice.cpp`, `Lattice.h`, `LatticeTraits.cpp`, `RandomPopulator.cpp`, `SerialPopulator.cpp`, `SerialPopulator.h`, `UnitCell.cpp`, `UnitCell.h` |
| `LegacyArrangeModel` | `ArrangementFactory.cpp` |
| `LegacyModel` | `ParseUtils.cpp`, `ParseUtils.h`, `ShapeFactory.cpp`, `XCBodyBuilder.cpp` |
| `LinesModel` | `GetlineBackwards.cpp` |
| `LoadModel` | `CasinoMode.cpp`, `FileSnapshotWriter.cpp`, `Packing.cpp`, `PackingLoader.cpp`, `PackingLoader.h`, `RampackParameters.h`, `RamsnapReader.cpp`, `Simulation.cpp` |
| `MatchModel` | `MatcherAlternative.cpp`, `MatcherAlternative.h`, `MatcherArray.cpp`, `MatcherArray.h`, `MatcherBase.h`, `MatcherBoolean.cpp`, `MatcherDataclass.cpp`, `MatcherDataclass.h`, `MatcherDictionary.cpp`, `MatcherDictionary.h`, `MatcherNone.cpp`, `MatcherNumeral.h`, `MatcherString.cpp`, `Node.h`, `NodeDictionary.cpp` |
| `MeshModel` | `Polyhedron.cpp`, `Polyhedron.h`, `XCPrinter.cpp` |
| `NGModel` | `NeighbourGrid.cpp`, `NeighbourGrid.h` |
| `NematicModel` | `NematicOrder.cpp` |
| `ObsModel` | `Observable.h`, `ObservablesCollector.cpp`, `ObservablesCollector.h` |
| `OptModel` | shared definitions (standard library text streams, options, floor) |
| `OrthoModel` | `OrthorhombicArrangingModel.cpp`, `OrthorhombicArrangingModel.h` |
| `PackModel` | `BoundaryConditions.h`, `Interaction.h`, `Packing.cpp`, `Packing.h`, `PeriodicBoundaryConditions.cpp`, `Shape.cpp` |
| `ParModel` | `Packing.cpp` |
| `PbcModel` | `FreeBoundaryConditions.h`, `PeriodicBoundaryConditions.cpp`, `Shape.cpp`, `Shape.h` |
| `PbcTotalModel` | `PeriodicBoundaryConditions.cpp` |
| `PrintModel` | `Polyhedron.cpp`, `PolysphereTraits.cpp`, `PolyspherocylinderTraits.cpp`, `SphereTraits.cpp`, `SpherocylinderTraits.cpp`, `Traits.cpp`, `Vector.tpp`, `WolframWriter.cpp`, `XCObjShapePrinter.cpp`, `XCWolframShapePrinter.cpp` |
| `PyonModel` | `Parser.cpp` |
| `QuantityModel` | `Quantity.cpp` |
| `RFloorModel` | shared definitions (standard library text streams, options, floor) |
| `RamsnapModel` | `RamsnapReader.cpp`, `RamsnapWriter.cpp` |
| `ReplayModel` | `CasinoMode.cpp`, `IO.cpp`, `RampackParameters.h`, `RamtrjPlayer.cpp`, `Simulation.cpp`, `Simulation.h`, `SimulationRecorderFactory.cpp`, `TrajectoryMode.cpp`, `TruncatedPlayer.cpp`, `TruncatedPlayer.h` |
| `RotModel` | `EulerAngles.cpp`, `EulerAngles.h`, `FlipSampler.cpp`, `Matrix.tpp`, `Quaternion.cpp`, `ShapeGeometry.cpp`, `Simulation.cpp`, `Vector.h` |
| `ScalingModel` | `AnisotropicVolumeScaler.cpp`, `AnisotropicVolumeScaler.h`, `BoxScalerMatcher.cpp`, `DeltaVolumeScaler.cpp`, `LinearScalingFactorSampler.cpp`, `LogScalingFactorSampler.cpp`, `ScalingDirectionParser.cpp`, `TriclinicAdapter.h`, `TriclinicDeltaScaler.cpp` |
| `SegModel` | `SegmentDistanceCalculator.h` |
| `ShapesModel` | `PolysphereTraits.cpp`, `PolysphereTraits.h`, `PolyspherocylinderTraits.cpp`, `PolyspherocylinderTraits.h`, `SphereTraits.cpp`, `SphereTraits.h`, `SpherocylinderTraits.cpp`, `SpherocylinderTraits.h` |
| `ShrinkModel` | `CellOptimizationTransformer.cpp`, `DistanceOptimizer.cpp`, `LayerWiseCellOptimizationTransformer.cpp` |
| `SimModel` | `CasinoMode.cpp`, `DynamicParameter.h`, `FlipSampler.cpp`, `RotationSampler.cpp`, `RototranslationSampler.cpp`, `Simulation.cpp`, `Simulation.h`, `TranslationSampler.cpp`, `TriclinicBoxScaler.cpp` |
| `SmecticModel` | `SmecticOrder.cpp` |
| `StringsModel` | `Utils.cpp`, `Utils.h`, `Version.cpp`, `Version.h` |
| `TextModel` | shared definitions (standard library text streams, options, floor) |
| `TrackerModel` | `FourierTracker.cpp`, `FourierTracker.h` |
| `TransModel` | `ColumnarTransformer.cpp`, `FlipRandomizingTransformer.cpp`, `Lattice.cpp`, `LatticeTraits.cpp`, `LayerRotationTransformer.cpp`, `LayerWiseTransformer.cpp`, `RotationRandomizingTransformer.cpp`, `RotationRandomizingTransformer.h`, `ShapeGeometry.cpp`, `ShapeGeometry.h` |
| `TrjModel` | `RamtrjIO.cpp`, `RamtrjIO.h`, `RamtrjPlayer.cpp`, `RamtrjPlayer.h`, `RamtrjRecorder.cpp`, `RamtrjRecorder.h`, `TruncatedPlayer.cpp`, `TruncatedPlayer.h` |
| `WedgeModel` | `PolyhedralWedgeTraits.cpp`, `PolyhedralWedgeTraits.h`, `SmoothWedgeTraits.cpp`, `SmoothWedgeTraits.h`, `XenoCollideTraits.h` |
| `XcModel` | `AbstractXCGeometry.h`, `XCBodyBuilder.cpp`, `XCBodyBuilder.h`, `XCOperations.cpp`, `XCOperations.h`, `XCPrimitives.cpp`, `XCPrimitives.h`, `XCUtils.h` |
| `XyzModel` | `Simulation.cpp`, `SimulationRecorderFactory.cpp`, `XYZRecorder.cpp`, `XYZRecorder.h`, `XYZWriter.cpp` |

Simplified inside the models: doubles are reals (or 64-bit patterns in RAMTRJ); loops of the periodic boundary conditions have proved closed forms;
arrays per thread are kept per particle; logger messages, timings and texts of errors are left out; random numbers are arbitrary inputs over which theorems quantify;
printing and scanning of doubles is a parameter with the round-trip property as hypothesis.

Not modelled: the QuickHull library, command line handling and `Main.cpp`, `PreviewMode`, `ShapePreviewMode`,
legacy INI input (`frontend/legacy`, apart from `Config`, shapes given by fields, moves, dynamic parameters, scaling of the box and orthorhombic arrangements), the matchers of shapes and observables which only list parameters of a class,
and the logger.

## 6. Findings

Statements which the code does not satisfy. Where theorems are named, they prove the defect on a witness in the model.

* C04 (`C04_distance_refuted`). The source drops the signs of relative coordinates, so for triclinic boxes the distance reported may be larger than the distance to the image chosen by getTranslation.
* C10 (`C10_narrow_refuted`). The source looks at only one image of a pair without the grid, so in narrower boxes the numbers with and without the grid differ.
* C14 (`C14_upscaling_refuted`). The source does not look for overlaps of convex particles when all sides of the box become longer; in skew boxes particles may then come closer, so overlaps are accepted.
* C19 (`C19_no_grid_refuted`). The source reads the neighbour grid without checking that there is one: in boxes too small for the grid a division into domains is undefined behaviour.
* C20 (`C20_zero_refuted`). The source accepts them for u = 0, which the generator may return.
* C22 (`C22_maximum_refuted`). The source lets the step itself exceed its maximum, by at most one increase.
* C24 (`C24_complete_refuted`). The source checks only the first performed run for completeness: a later one may start scaling without any pressure.
* C25 (`C25_allowed_refuted`). The source silently discards the fix when overlaps are allowed.
* C29 (`C29_report_refuted`). The source does not report the number of snapshots claimed by the header of a repaired file: the report says 0.
* C30 (`C30_reset_refuted`). The source dereferences a null pointer when a closed player is reset.
* C32 (`C32_empty_refuted`, `C32_values_refuted`). The source accepts also metadata which cannot be read back: no metadata at all, which makes the whole file unreadable, empty values, values starting with white space, and values with a line feed.
* C34 (`C34_first_refuted`). The source never returns an empty first piece.
* C35 (`C35_numbers_refuted`). The source refuses floats whose integer part does not fit in 64 bits, accepts white space and a sign after 0b, and reads numbers with a leading zero as octal if possible and as floats otherwise.
* C37 (`C37_repeated_names_refuted`). The source accepts repeated parameter names in a declaration; such a matcher matches nothing and throws when the arguments fit.
* C38 (`C38_nested_refuted`). The source tries only dataclass matchers on dataclasses: an alternative or a recursive matcher used as a variant is skipped for them, although it would match.
* C39 (`C39_long_refuted`). The source converts starts to long: a start of 2^63 or more is accepted but cannot be evaluated.
* C41 (`C41_truncation_refuted`). The source declares the range of 3 sigma for Lennard-Jones, but does not truncate it: the energy is never zero beyond it.
* C42 (`C42_root_refuted`). The source refuses to fetch a root section which has only subsections.
* C43 (`C43_negative_refuted`). The source accepts negative components, taken modulo 2^64.
* C44 (`C44_empty_refuted`). Replacing all occurrences of the empty text never ends.
* C45 (`C45_initial_value_refuted`). The source adds the initial value once more for each thread and each snapshot, so if it is not zero the result depends on the number of threads; averages in empty bins are not numbers.
* C46 (`C46_isolated_refuted`, `C46_no_plane_refuted`). The source pads the list with particle 0 and does not skip particles with fewer than r neighbours: if no particle has a neighbour, local order is reported as 1 instead of 0. When the wave vector points opposite to an axis of coordinates, for example for Miller indices -1 0 0, vectors in the plane are not numbers.
* C47 (`C47_normalisation_refuted`). The sum is divided by the volume and not by the number of particles, so the order parameter may exceed 1.
* C48 (`C48_isotropic_refuted`). For the isotropic matrix Q = 0 an assertion fails.
* C49 (`C49_averaging_refuted`, `C49_no_output_refuted`, `C49_relaxation_refuted`, `C49_stuck_refuted`). The source takes a run interrupted during averaging for the second time, or an interrupted overlap relaxation, as finished; a run with fewer cycles left than between snapshots fails each time it is continued; starting after a run without a RAMSNAP file is undefined behaviour.
* C50 (`C50_nothing_scaled_refuted`). The source also accepts a string in which all directions are in square brackets, so nothing is scaled: the constructor of the scaler then fails on its precondition.
* C51 (`C51_delta_v_reflected_refuted`, `C51_delta_v_triclinic_refuted`). The source uses the product of heights instead of the volume in delta_v, so in triclinic boxes the volume changes by a different amount, and a negative change larger than the volume gives a mirrored box instead of being refused.
* C53 (`C53_every_box_refuted`). The source: for flatter boxes a dimension rounds to zero, the product stays zero and the loop never ends.
* C54 (`C54_minimum_refuted`, `C54_point_refuted`). The source snaps numerators smaller than 1e-10 to zero even when the denominator is as small, so nearly parallel, crossing unit segments are reported as 0.45 apart; and when the second segment is a point, the distance from it to an end of the first one is returned, so the result depends on the order of arguments.
* C55 (`C55_exact_refuted`). The source inherits the error of the segment distance: two spherocylinders with crossing, nearly parallel axes are reported as not overlapping.
* C57 (`C57_gimbal_refuted`). The branch for the gimbal lock is never taken; a division by zero is made instead.
* C58 (`C58_left_handed_refuted`, `C58_narrow_refuted`). The source checks the further wall only if the particle is far from the nearer one, so with walls closer than the total range it misses particles sticking out through the further wall; and in left-handed boxes the normals point outwards, so every particle is reported.
* C60 (`C60_late_refuted`). The source does not refuse them if the snapshots captured so far had no columns; the table can never be printed then.
* C61 (`C61_origin_name_refuted`, `C61_secondary_axis_refuted`, `C61_thin_refuted`, `C61_wide_refuted`). The source compares the squared distance of spherocylinders with the unsquared sum of radii, so it accepts some intersecting wide ones and refuses some separate thin ones; a polyspherocylinder with only the primary axis throws bad_optional_access when asked whether it has the secondary one; and a custom point named o is accepted but never found.
* C63 (`C63_inner_ball_sum_refuted`, `C63_inner_ball_wrap_refuted`, `C63_outer_ball_refuted`, `C63_round_football_refuted`, `C63_short_direction_refuted`). The source gives the radius 0 for a point away from the origin, so the outer ball of a hull of points does not contain it; it takes two coinciding components away from the origin, or a component which does not contain its own origin, for ones around the origin, so the inner ball may stick out; for directions shorter than about 1e-12 it gives the centre of a disk instead of its edge; and a football as wide as long has no support point at its ends. The claim about the outer ball is made for scripts without points away from the origin, about the inner one for those in which all components contain their origins and no two coinciding ones away from the origin are wrapped.
* C64 (`C64_no_false_overlap_refuted`). The source replaces a wrong vertex of the portal when a new support point falls exactly in the plane of the centre, the origin and a vertex, so it may report an overlap of bodies a large distance apart; the claim about reported overlaps is made for configurations without such ties. Whether the loops end is not claimed.
* C65 (`C65_intersection_refuted`, `C65_lollipop_refuted`). The source uses the formula for crossing balls also if one is inside the other, where the result may be negative; and it takes off the common part of the tip with the last sphere of the stick only, so the volume of a lollipop is wrong if the tip reaches other spheres outside of this one. The claims are made without these cases; the tip is harmless for two spheres or if its penetration is at most the diameter of a stick sphere less half of the penetration of stick spheres.
* C66 (`C66_polyhedral_refuted`). The source refuses a smooth wedge divided into two or more parts when the difference of the radii equals the distance, and equal balls at distance 0, although the documented preconditions allow these; it accepts negative sides of a polyhedral wedge, and then the volume and the inner radius may be negative.
* C67 (`C67_linear_refuted`, `C67_s221_refuted`, `C67_self_refuted`, `C67_single_layer_refuted`). The source takes the volume of one side only in linear binning, so that the density of a uniform system is 2 and not 1; it counts every particle with itself in the first bin of the pair averaged correlation, so S221 is never a number there and other functions are wrong; and layerwise binning with hkl = [0, 0, 1] does not project all particles onto one plane as documented: pairs across the boundary of the single layer are dropped.
* C68 (`C68_average_threads_refuted`). The source calculates and reads values of the function in one object shared by all threads: with two threads the mean may be that of other particles, although counts are correct.
* C69 (`C69_three_waves_refuted`). The source does not handle the degenerate equation 0 = 0, which is the case for one particle: for every solver there is a position of one particle for which the reported origin is not a maximum.
* C72 (`C72_number_of_shapes_refuted`). 
* C74 (`C74_layers_tangent_refuted`). The source starts the search for a layer at the coordinate which the previous layer had before it was moved, so with three or more layers they are not tangent as documented, and the cell is higher than it has to be.
* C75 (`C75_legacy_symmetry_refuted`, `C75_mass_centre_refuted`, `C75_no_mass_centre_refuted`, `C75_volume_refuted`). The source gives the mass centre of the banana of spheres also when spheres overlap, since it compares the squared distance with the squared radius and not diameter; it does not give the documented mass centre for spherocylinders; the volume with two segments may be below that of one ball contained in the shape, since the check of the centre is left out; the legacy shape is not symmetric for an even number of spheres, although its documentation says so.
* C76 (`C76_fix_size_refuted`, `C76_last_cycle_refuted`, `C76_nothing_refuted`, `C76_overwritten_refuted`, `C76_unfinished_refuted`). The source stores observables over the input trajectory if asked for under its name; a piecewise parameter has no value, breaking a precondition, in a replay of a trajectory which ends before its last piece begins, although the simulation had one; the last snapshot may be replayed with another temperature than that of averaging, which is checked only before the last cycle; asking for the last snapshot of a trajectory truncated to no cycles breaks a precondition; with auto-fix the number of molecules of a complete trajectory is not checked and a precondition fails later.
* C77 (`C77_array_version_refuted`, `C77_averaging_every_refuted`, `C77_later_run_refuted`, `C77_single_piece_refuted`). The source checks only the environment of the first run, so that an accepted input may have a later run which moves the box without pressure; a negative averaging_every is accepted and becomes a number near 2^64, so that nothing is averaged; the documented form version = [1, 0, 0] is refused; a piecewise parameter of one piece is refused although any number is documented.
* C78 (`C78_continued_refuted`, `C78_interrupted_refuted`, `C78_quotes_refuted`). The source does not return to the end of the stream after it has looked for the last cycle; on a file, which has a single position, new snapshots are therefore written over the last one from the end of its first line, and no continued XYZ trajectory can be read, although the reported cycles agree. An interrupted snapshot is accepted as a complete one as soon as the first digit of its cycle number has been written, with the missing digits dropped, and stays in the file. A quotation mark in a value with white space makes a snapshot unreadable.
* C79 (`C79_moved_volume_refuted`). The source moves the centre of a mesh but does not rotate it; the volume of a rotated mesh whose centre is not fixed by the rotation may differ from that of the mesh.
* C80 (`C80_exponent_refuted`). The source prints spheres without the fixed notation it uses for all other shapes; a sphere with a coordinate or radius printed with an exponent, as 1e-05, does not give a number in Mathematica, and the output is not readable.
* C81 (`C81_axes_refuted`, `C81_position_refuted`). The source ignores the position and rotation of a primitive which is not inside a sum, difference or wrap; it says that the axes must be orthogonal, but accepts every pair of axes with a negative scalar product, even opposite ones.
* C82 (`C82_dropped_refuted`, `C82_negative_refuted`, `C82_superfluous_refuted`). The source ignores everything after the numbers of a command, takes a negative number of bodies modulo 2^64, so that -18446744073709551615 is 1, and reads a list of numbers only up to the first thing which is not a number, for which it takes 0: the rest of spheres is left out without a message.
* C83 (`C83_alternate_refuted`, `C83_default_refuted`). 
* C84 (`C84_ignored_refuted`, `C84_negative_refuted`). The source ignores everything which follows the numbers of rotation, flip, or a limit, takes negative numbers of flip modulo 2^64, and looks only at the first line of a piece or direction. Pieces of a piecewise parameter inside another one cannot be written: the comma ends the outer piece, so the inner parameter has always one piece.
* C85 (`C85_clinicity_refuted`, `C85_order_refuted`, `C85_spaces_refuted`). The source looks for keywords surrounded by single spaces anywhere in the text: words separated by tabs are refused, the polarisation cannot come before the clinicity, and a word after the arrangement, which is otherwise ignored, can change the clinicity.

Noticed while reading, not part of a theorem: Lennard-Jones energies at distance 0 are not numbers; `MatcherBoolean` has swapped messages; the byte 0xFF is the end of
input for the PYON parser; `snapshotEvery == 0` divides by zero; a player of RAMTRJ 1.0 accepts a cycle step 0; copies of a lattice share the box; the documentation names
`.start`/`.end` where the code has `.first`/`.last`; `LayerWiseTransformer.cpp:64` adds where the others divide; `gatherRunData` catches `std::logic_error`, but
`ValidationException` is a `runtime_error`; `Polyhedron::transformed` does not rotate the centre; `sphericalCap` accepts negative heights.
The documentation names the class of hexagonal cells `hex`, and the code `hexagonal`; a second use of the same lattice object would transform it again.
The layer-wise optimisation centres the middle of the first and the last molecule in the list, which need not be the first and the last layer; the documentation says that `optimize_cell` needs a regular lattice, and the code that it needs a normalised one; the last assertion in `shrinkPacking` may fail for skewed boxes.

## 7. Assumptions of the theorems

As printed by `Print Assumptions`: F = `ClassicalDedekindReals.sig_forall_dec`, N = `ClassicalDedekindReals.sig_not_dec`,
E = `FunctionalExtensionality.functional_extensionality_dep`, C = `Classical_Prop.classic`.

* none (closed under the global context): C11_no_endless_run, C21_requested, C24_complete_refuted, C24_found, C24_inherited, C24_stays_disabled, C27_accepted, C27_read_back, C27_written, C28_append, C28_continues, C28_refused, C29_crash, C29_report_refuted, C29_size, C30_belongs, C30_defined, C30_player, C30_reset_refuted, C30_wrong_size, C31_truncated, C32_empty_refuted, C32_flat_refused, C32_key_refused, C32_old_box, C32_read_back, C32_values_refuted, C33_accepted, C33_continues, C33_cut, C33_other_header, C33_runs, C34_backwards, C34_first_refuted, C34_pieces, C35_canonical, C35_layout, C35_numbers_refuted, C36_duplicate_key, C36_duplicate_keyword, C36_positional_after_keyword, C36_sound, C36_total, C37_bound, C37_class, C37_declared, C37_errors, C37_quiet, C37_repeated_names_refuted, C38_alternative, C38_array, C38_dictionary, C38_dictionary_node, C38_nested_refuted, C38_scalars, C38_together, C38_typed, C39_refused, C39_shifted, C39_unique, C42_dangling, C42_delimiter, C42_fields, C42_once, C42_parse, C42_root_refuted, C42_section, C42_section_missing, C43_back, C43_missing, C43_negative_refuted, C43_order, C43_refused, C44_empty_refuted, C44_ends, C44_explode, C44_explode_implode, C44_implode, C44_implode_explode, C44_replace, C44_trim, C45_flat, C45_index, C47_once, C47_one_of_two, C49_all_finished, C49_averaging_refuted, C49_by_name, C49_completes, C49_continue, C49_continue_name, C49_corrupted, C49_later_performed, C49_never_refused, C49_no_output_refuted, C49_previous, C49_relaxation_refuted, C49_scratch, C49_stuck_refuted, C49_unknown_name, C50_accepted, C50_configured, C50_nothing_scaled_refuted, C59_samples, C60_aligned, C60_inline, C60_late, C60_late_refuted, C60_table, C76_bulk_name, C76_checked, C76_input_spared, C76_interrupted, C76_refused, C76_replay, C78_refused, C78_reopened, C82_command, C82_command_missing, C82_command_words, C82_fields, C82_layout, C82_numbers, C82_words, C84_direction, C84_nested, C84_parameter, C84_scaler
* F: C39_long_refuted, C39_outside, C39_segment, C46_enough, C52_axis_order, C61_has_named_point, C76_fix_size_refuted, C76_nothing_refuted, C76_overwritten_refuted, C77_array_version_refuted, C77_pieces, C77_single_piece_refuted, C77_started, C79_moved, C82_negative_refuted, C82_superfluous_refuted
* F E: C01_box_constructible_iff, C01_box_round_trip, C02_correction, C02_correction_unique, C03_translation, C04_distance, C04_distance_refuted, C04_perpendicular, C04_same_signs, C05_scale, C05_volume, C15_translate_in_box, C25_drift, C25_orthogonal, C40_parts, C40_refused, C40_shapes, C40_sites, C41_core, C45_bin, C45_cleared, C45_counted, C45_created, C45_dividers, C45_dumped, C45_initial_value_refuted, C45_middles, C45_number_of_threads, C45_out_of_range, C45_sums, C45_threads, C48_tensor, C51_delta_triclinic, C51_delta_triclinic_refused, C52_cells, C52_generated, C52_is_normalized, C52_random, C52_serial, C52_size, C52_untouched, C54_attained, C64_wall, C67_normalized, C68_average, C68_average_threads_refuted, C68_created, C68_density, C68_density_total, C68_one_thread, C68_parallel_counts, C68_place, C68_values, C69_create, C70_columns_refused, C71_centred, C72_full, C72_input, C72_packing, C72_random, C72_serial, C72_serial_auto, C76_last_cycle_refuted, C77_averaging_every_refuted, C77_later_run_refuted, C77_read, C79_moved_volume, C79_moved_volume_refuted, C80_affine, C80_exponent_refuted, C80_obj, C80_standard, C81_geometry_accepted, C84_ignored_refuted, C84_move, C84_negative_refuted, C85_box
* F N E: C05_heights, C05_scale_sides, C06_contents, C06_positions, C07_complete, C08_half, C08_views, C09_resize_as_fresh, C09_resize_result, C16_cells, C17_decomposition, C17_nonempty, C17_separated, C18_listed, C18_one_domain, C21_selection, C22_constructed, C22_displacement, C22_displacement_step, C22_maximum_refuted, C22_rotation, C22_translation, C26_axis_angle, C26_flip, C26_involution, C26_normalized, C26_setup, C39_values, C40_lawful, C40_reach, C40_total_range, C46_nearest, C46_no_plane_refuted, C46_plane, C46_wave_vector, C47_bound, C47_density, C47_greatest, C47_images, C47_normalisation_refuted, C47_opposite, C47_refused, C47_wave_vector, C51_linear, C51_linear_too_far, C51_log, C52_box, C52_normalized, C54_close, C54_minimum_refuted, C54_point_refuted, C55_complete, C55_exact_refuted, C55_poly_complete, C55_poly_sound, C55_shortcuts, C55_sound, C56_axes, C56_distance, C56_monotone, C56_sphere, C57_quaternion, C58_polysphere, C58_polyspherocylinder, C58_sphere, C58_spherocylinder, C59_error, C59_few, C59_order, C59_statistics, C59_units, C61_flip_axis, C61_mass_centre, C61_named_points, C61_origin_name_refuted, C61_polysphere, C61_polyspherocylinder, C61_rigid, C61_secondary_axis_refuted, C61_thin_refuted, C61_wide_refuted, C62_beads, C62_polysphere_lawful, C62_polyspheres, C62_sphere, C62_sphere_lawful, C63_builder_accepts, C63_builder_bodies, C63_inner_ball_sum_refuted, C63_inner_ball_wrap_refuted, C63_outer_ball_refuted, C63_round_football_refuted, C63_short_direction_refuted, C64_answer_definite, C64_no_false_overlap, C64_no_false_overlap_refuted, C64_no_missed_overlap, C64_range_radius, C66_polyhedral_refuted, C67_expected, C67_linear_distance, C67_single_layer_refuted, C70_columns, C70_flips, C70_flips_refused, C70_layers, C70_layers_refused, C70_layerwise, C71_balls, C71_box, C71_hcp_layers, C71_hexagonal_layers, C71_molecules, C71_neighbours, C72_box, C72_cells, C72_number_of_shapes, C73_optimize_cell, C73_shrink_packing, C74_layers_tangent_refuted, C74_optimize_layers, C75_checks_refused, C75_legacy, C75_legacy_symmetry_refuted, C75_open, C75_origin_outside, C76_same_parameters, C76_unfinished_refuted, C78_appended, C78_continued, C78_continued_refuted, C78_interrupted, C78_interrupted_refuted, C78_misused, C78_quotes_refuted, C78_recorded, C78_snapshot, C79_directions, C79_mesh, C79_refined, C79_refused, C79_triangles, C81_axes_refuted, C81_axes_unit, C81_geometry_bodies, C81_position_refuted, C81_shape, C81_shape_accepted, C82_convex, C82_dropped_refuted, C82_polysphere, C82_polyspherocylinder, C82_processed, C83_accepted, C83_alternate_refuted, C83_apart, C83_arranged, C83_default, C83_default_accepted, C83_default_refuted, C83_inside, C83_mirrored, C85_clinicity_refuted, C85_order_refuted, C85_spaces_refuted, C85_written
* F N C E: C10_count, C10_energy, C10_grid_or_not, C10_narrow_refuted, C11_early_exit, C11_schedules, C12_cached, C12_histories_run, C13_revert, C13_try, C14_move, C14_scaling, C14_upscaling_refuted, C15_in_box, C16_schedules, C17_legal, C19_no_grid_refuted, C19_retry, C20_cycle, C20_extremes, C20_no_overlaps, C20_relaxed, C20_rule, C20_run, C20_zero_refuted, C21_counters, C22_limits, C22_tuning, C23_schedule, C23_snapshots, C23_total, C25_allowed_refuted, C25_renormalize, C41_built, C41_lawful, C41_lennard_jones, C41_repulsive, C41_truncation_refuted, C46_isolated_refuted, C46_order, C46_perfect, C46_range, C48_P2, C48_eigenvalues, C48_isotropic_refuted, C48_perfect, C51_delta_v, C51_delta_v_reflected_refuted, C51_delta_v_triclinic_refuted, C53_enough, C53_every_box_refuted, C53_never_ends, C53_result, C53_terminates, C57_euler, C57_gimbal_refuted, C58_count, C58_early_exit, C58_left_handed_refuted, C58_narrow_refuted, C65_cap, C65_intersection, C65_intersection_refuted, C65_kmer, C65_lollipop, C65_lollipop_refuted, C65_wedge, C66_polyhedral, C66_smooth, C67_averaged, C67_density, C67_enumerated, C67_evolution, C67_first_bin, C67_functions, C67_linear_refuted, C67_s221_refuted, C67_self_refuted, C69_three_waves, C69_three_waves_refuted, C69_waves, C70_rotations, C70_rotations_refused, C72_number_of_shapes_refuted, C72_shapes, C72_shapes_terminates, C75_mass_centre_refuted, C75_no_mass_centre_refuted, C75_rods, C75_spheres, C75_volume_refuted
