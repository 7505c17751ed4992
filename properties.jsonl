{"id": "C01", "title": "Box coordinate conversions are mutually inverse", "statement": "For a TriclinicBox built from any three linearly independent side vectors, absoluteToRelative and relativeToAbsolute undo each other exactly (in real arithmetic) in both orders, and building a box from linearly dependent sides is refused with an exception rather than yielding a box.", "quantifier": "all 3x3 real side matrices, all points", "why_tests_cant": "the set of boxes and points is uncountable; a test checks a few boxes and a wrong cofactor sign can cancel on symmetric ones", "anchors": ["src/core/TriclinicBox.h:TriclinicBox::absoluteToRelative", "src/core/TriclinicBox.h:TriclinicBox::relativeToAbsolute", "src/geometry/Matrix.tpp:Matrix::inverse"]}
{"id": "C02", "title": "Periodic correction terminates and puts every point in the box", "statement": "PeriodicBoundaryConditions::getCorrection(p) returns, for every box and every finite p, an integer combination of the box sides such that p plus the correction has all relative coordinates in [0,1); a point already in the box gets the zero correction.", "quantifier": "all non-degenerate boxes, all points however far outside the box", "why_tests_cant": "needs the while-loops to be right after any number of iterations and for every relative position", "anchors": ["src/core/PeriodicBoundaryConditions.cpp:getCorrection"]}
{"id": "C03", "title": "Periodic translation selects the nearest image along every box axis", "statement": "getTranslation(p1,p2) is an integer combination of box sides such that every relative coordinate of p2+T-p1 lies in [-1/2,1/2]; no other lattice translate has a smaller absolute relative coordinate along any axis; and it depends on p1,p2 only through p2-p1.", "quantifier": "all boxes, all pairs of points", "why_tests_cant": "quantifies over all pairs of points and all competing lattice vectors", "anchors": ["src/core/PeriodicBoundaryConditions.cpp:getTranslation"]}
{"id": "C04", "title": "Periodic distance equals the length of the displacement to the chosen image", "statement": "getDistance2(p1,p2) equals the squared length of p2 + getTranslation(p1,p2) - p1 for every box with perpendicular sides, where it is the smallest over all periodic images, and, in any box, for points the difference of which has relative coordinates of one sign. In every box it is the squared length of that displacement with the relative coordinates mirrored along the axes along which p2 precedes p1. (The source drops the signs of relative coordinates, so for triclinic boxes the distance reported may be larger than the distance to the image chosen by getTranslation.)", "quantifier": "all boxes, all pairs of points", "why_tests_cant": "only non-orthogonal boxes and sign combinations not in the unit tests expose the difference", "anchors": ["src/core/PeriodicBoundaryConditions.cpp:getDistance2"]}
{"id": "C05", "title": "Box volume, heights and scaling are consistent", "statement": "getVolume() is |det| of the side matrix, each height times the area of the opposite face is the volume, and scaling a box by positive factors (s0,s1,s2) multiplies the volume by s0*s1*s2 and keeps relative coordinates of all points when the side vectors are multiplied.", "quantifier": "all non-degenerate boxes, all positive factors", "why_tests_cant": "algebraic identities over all reals", "anchors": ["src/core/TriclinicBox.cpp:getVolume", "src/core/TriclinicBox.cpp:getHeights", "src/core/volume_scalers/TriclinicAdapter.h:updateBox"]}
{"id": "C06", "title": "The neighbour grid behaves like a map from cells to id lists", "statement": "After any legal history of add, remove and clear calls, listing any cell of the neighbour grid terminates and returns exactly the ids currently in that cell, most recently added first, each once; operations on one cell never change what other cells list; removing an id that is not in that cell changes nothing.", "quantifier": "all grid sizes, all histories of add/remove/clear", "why_tests_cant": "linked lists in shared arrays: corruption depends on the whole operation history", "anchors": ["src/core/NeighbourGrid.cpp:add", "src/core/NeighbourGrid.cpp:remove", "src/core/NeighbourGrid.cpp:clear", "src/core/NeighbourGrid.cpp:getCell"]}
{"id": "C07", "title": "Neighbour queries never miss an interacting periodic image", "statement": "For every point p in the box and every stored point q whose periodic image q+L (L a box lattice vector) is no farther from p than the cell size used to create the grid, enumerating getNeighbouringCells(p) visits q together with exactly that translation L.", "quantifier": "all boxes, cell sizes, grids with at least one cell per axis, all pairs of points and images", "why_tests_cant": "missed pairs occur only for special geometries on cell or box borders", "anchors": ["src/core/NeighbourGrid.cpp:positionToCellNo", "src/core/NeighbourGrid.cpp:getReflectedCellData", "src/core/NeighbourGrid.cpp:fillNeighbouringCellsOffsets", "src/core/NeighbourGrid.h:NeighboursViewIterator::operator*"]}
{"id": "C08", "title": "Neighbouring cells are enumerated once each, and the half enumeration covers every pair of cells once", "statement": "getNeighbouringCells visits each of the 27 cell images around a cell exactly once; with onlyPositive, out of every two mutually neighbouring cell images exactly one is visited from one side, and the cell itself is not visited.", "quantifier": "all grid dimensions and all cells", "why_tests_cant": "double counting depends on grid dimension and on wrap-around of unsigned offsets", "anchors": ["src/core/NeighbourGrid.cpp:fillNeighbouringCellsOffsets", "src/core/NeighbourGrid.cpp:getNeighbouringCells"]}
{"id": "C09", "title": "Resizing the neighbour grid is equivalent to constructing it anew", "statement": "After resize(newBox,newCellSize) the grid answers every subsequent query as a freshly constructed grid for newBox and newCellSize does; the return value tells whether the number of cells changed, and no stale particle remains.", "quantifier": "all previous grid states, all new boxes and cell sizes", "why_tests_cant": "arrays are reused when shrinking; stale entries depend on the history of sizes", "anchors": ["src/core/NeighbourGrid.cpp:resize", "src/core/NeighbourGrid.cpp:setupSizes"]}
{"id": "C10", "title": "Overlap counting with and without the neighbour grid agree", "statement": "For every interaction depending on displacements and every history of a packing, the number of overlaps and the energy computed through the neighbour grid are those of all pairs of interaction centres of different particles, all periodic images included. When every box height is more than twice the range, computing without the grid over all pairs gives the same. (The source looks at only one image of a pair without the grid, so in narrower boxes the numbers with and without the grid differ.)", "quantifier": "all numbers of particles, interaction centres, positions and overlap relations of bounded range", "why_tests_cant": "combinatorial in the number of particles and cells", "anchors": ["src/core/Packing.cpp:countTotalOverlaps", "src/core/Packing.cpp:countTotalOverlapsNGCellHelper", "src/core/Packing.cpp:countParticleOverlaps"]}
{"id": "C11", "title": "Early-exit overlap tests return zero exactly when there are no overlaps, under every thread schedule", "statement": "The early-exit variants of the overlap counters return a non-zero value if and only if the full count is non-zero, for every interleaving of the worker threads sharing the 'found' flag.", "quantifier": "all configurations, all numbers of threads and all interleavings", "why_tests_cant": "races depend on the schedule", "anchors": ["src/core/Packing.cpp:countTotalOverlaps"]}
{"id": "C12", "title": "The cached number of overlaps always equals a recount", "statement": "With overlap counting switched on, after any history of tried, accepted, rejected and reverted moves and box scalings, the cached number of overlaps equals the number obtained by counting all overlaps of the current configuration anew.", "quantifier": "all histories of tryTranslation/tryRotation/tryMove/accept*/tryScaling/revertScaling", "why_tests_cant": "drift appears only after particular histories", "anchors": ["src/core/Packing.cpp:acceptTranslation", "src/core/Packing.cpp:acceptMove", "src/core/Packing.cpp:tryScaling", "src/core/Packing.cpp:revertScaling"]}
{"id": "C13", "title": "Trying a move does not change the configuration; reverting a scaling restores it", "statement": "tryTranslation, tryRotation and tryMove leave box, particles, neighbour grid contents and cached overlap count as they were; tryScaling followed by revertScaling restores all of them exactly.", "quantifier": "all states and all moves", "why_tests_cant": "quantifies over all states and components that must not change", "anchors": ["src/core/Packing.cpp:tryTranslation", "src/core/Packing.cpp:tryRotation", "src/core/Packing.cpp:tryMove", "src/core/Packing.cpp:tryScaling", "src/core/Packing.cpp:revertScaling"]}
{"id": "C14", "title": "The reported energy change of a move is the change of the total energy", "statement": "For every particle move the energy difference returned by tryMove/tryTranslation/tryRotation equals total energy after accepting the move minus total energy before, and infinity is returned exactly when the move creates a hard overlap (no-overlap mode). The same is true of tryScaling, when particles are not convex or some side does not become longer or overlaps are counted. (The source does not look for overlaps of convex particles when all sides of the box become longer; in skew boxes particles may then come closer, so overlaps are accepted.)", "quantifier": "all configurations, all moves, all pair energies", "why_tests_cant": "exponential number of configurations", "anchors": ["src/core/Packing.cpp:calculateMoveOverlapEnergy", "src/core/Packing.cpp:getTotalEnergy"]}
{"id": "C15", "title": "Particles always stay inside the box", "statement": "After any history of accepted moves, scalings and reversions all particle positions and all interaction centres kept by the packing have relative coordinates in [0,1).", "quantifier": "all histories", "why_tests_cant": "invariant over histories", "anchors": ["src/core/Shape.cpp:translate", "src/core/Packing.cpp:recalculateAbsoluteInteractionCentres", "src/core/Packing.cpp:tryScaling"]}
{"id": "C16", "title": "Concurrent moves in different active domains do not interfere", "statement": "Two accepted moves of particles in different active domains commute: whatever the interleaving of their try/accept steps, every neighbour grid cell read or written by one is not written by the other, so the result is that of a sequential execution.", "quantifier": "all boxes, domain divisions, particle positions and moves within active domains, all interleavings", "why_tests_cant": "races depend on schedule and geometry", "anchors": ["src/core/DomainDecomposition.cpp:prepareDomains", "src/core/Simulation.cpp:performMovesWithDomainDivision", "src/core/Packing.cpp:acceptMove"]}
{"id": "C17", "title": "Active domains are disjoint and separated by more than the interaction range", "statement": "For every admissible division the active domains along an axis are non-empty, pairwise disjoint, and any two points in different domains are separated along that axis (periodically) by at least total range - range + neighbour grid cell size; the internal precondition checks never fire once TooNarrowDomainException was not thrown.", "quantifier": "all box heights, ranges, cell sizes, division counts and random origins", "why_tests_cant": "rounding to neighbour grid cells and periodic wrapping interact with the random origin", "anchors": ["src/core/DomainDecomposition.cpp:prepareDomains", "src/core/DomainDecomposition.cpp:fitPeriodically"]}
{"id": "C18", "title": "Every particle is assigned to exactly one active domain or to the ghost layer", "statement": "After domain decomposition a particle is listed in domain d exactly when its relative position lies inside d's active bounds; no particle is listed twice.", "quantifier": "all packings, divisions and origins", "why_tests_cant": "depends on rounding and periodic wrapping for every position", "anchors": ["src/core/DomainDecomposition.cpp:populateDomains", "src/core/DomainDecomposition.cpp:isRelativeVectorInActiveRegion"]}
{"id": "C19", "title": "Too narrow domains are merged and the retry terminates", "statement": "When domains are too narrow along an axis, the division along exactly that axis is decreased by one and the decomposition is retried; this ends, for every sequence of random origins, with the largest division along each axis which is not too narrow, for which the decomposition succeeds with all origins, and the sequential algorithm is used exactly when nothing is divided. (The source reads the neighbour grid without checking that there is one: in boxes too small for the grid a division into domains is undefined behaviour.)", "quantifier": "all divisions and box sizes", "why_tests_cant": "termination for all inputs", "anchors": ["src/core/Simulation.cpp:performMoves", "src/core/DomainDecomposition.cpp:prepareDomains"]}
{"id": "C20", "title": "Metropolis acceptance rule", "statement": "A move is accepted exactly when a uniform number u in [0,1) satisfies u <= exp(-dE/T); energy-lowering moves are always accepted and moves creating a hard overlap are not accepted for any u > 0, so that no packing shown by a run has overlaps. (The source accepts them for u = 0, which the generator may return.)", "quantifier": "all energy differences, temperatures and random numbers", "why_tests_cant": "a single value of the random number (u=0) decides", "anchors": ["src/core/Simulation.cpp:tryMove", "src/core/Simulation.cpp:tryScaling"]}
{"id": "C21", "title": "Move statistics count every performed move exactly once", "statement": "After any sequence of cycles performed by any number of threads, for each move group total moves equals the number of performed moves, accepted moves equals the number of accepted ones, and the per-thread counters combine to the same totals in every order.", "quantifier": "all histories, all distributions of moves over threads", "why_tests_cant": "depends on distribution over threads", "anchors": ["src/core/Simulation.cpp:Counter", "src/core/Simulation.cpp:accumulateCounters"]}
{"id": "C22", "title": "Step sizes are tuned in the right direction and stay positive", "statement": "During thermalisation a step is increased exactly when the acceptance rate of the last window exceeds the upper threshold and decreased exactly when below the lower one; outside it is unchanged; step sizes remain positive and no displacement exceeds the maximum after any history. (The source lets the step itself exceed its maximum, by at most one increase.)", "quantifier": "all histories of rates and step sizes", "why_tests_cant": "invariant over histories", "anchors": ["src/core/Simulation.cpp:evaluateMoleculeMoveCounter", "src/core/Simulation.cpp:evaluateScalingMoveCounter", "src/core/move_samplers/RotationSampler.cpp", "src/core/move_samplers/TranslationSampler.cpp"]}
{"id": "C23", "title": "Cycle accounting and snapshot schedule", "statement": "integrate() performs exactly thermalisation + averaging cycles (unless interrupted), and snapshots are taken exactly at those absolute cycle numbers (offset included) that are multiples of snapshotEvery; observables are averaged exactly at the multiples of averagingEvery in the averaging phase.", "quantifier": "all cycle counts, periods, offsets and interruption points", "why_tests_cant": "schedule arithmetic over all parameters", "anchors": ["src/core/Simulation.cpp:integrate"]}
{"id": "C24", "title": "Environment inheritance between runs", "statement": "The environment used by run n is, parameter by parameter, the last one specified among the global section and runs 1..n; box scaling disabled in a run stays disabled until a scaler is set again. (The source checks only the first performed run for completeness: a later one may start scaling without any pressure.)", "quantifier": "all lists of runs and all subsets of specified parameters", "why_tests_cant": "combinatorial", "anchors": ["src/core/Simulation.cpp:Environment::combine", "src/core/Simulation.cpp:Environment::isComplete", "src/frontend/modes/CasinoMode.cpp:recreateEnvironment"]}
{"id": "C25", "title": "Orientation renormalisation keeps rotations and reduces drift", "statement": "fixRotationMatrix leaves every orthogonal matrix unchanged; renormalizeOrientations replaces orientations by fixed ones or reports the overlaps it introduced. (The source silently discards the fix when overlaps are allowed.)", "quantifier": "all matrices and packings", "why_tests_cant": "all inputs", "anchors": ["src/core/Packing.cpp:renormalizeOrientations", "src/core/Packing.cpp:fixRotationMatrix", "src/core/Packing.cpp:tryOrientationFix"]}
{"id": "C26", "title": "Sampled rotations are rotations and flips are involutions preserving the geometric origin", "statement": "Matrix::rotation(axis,angle) is a proper rotation fixing the axis for every unit axis and angle; a flip move rotates by pi about the flip axis, keeps the geometric origin in place, and performed twice restores position and orientation.", "quantifier": "all axes, angles and shapes", "why_tests_cant": "all reals", "anchors": ["src/geometry/Matrix.tpp:rotation", "src/core/move_samplers/FlipSampler.cpp:sampleMove"]}
{"id": "C27", "title": "RAMTRJ trajectories round-trip", "statement": "Opening a trajectory written and closed by RamtrjRecorder yields the same number of molecules, cycle step, number of snapshots and, for each snapshot, exactly the stored box, positions and Euler angles bit by bit.", "quantifier": "all numbers of particles, snapshots and 64-bit contents", "why_tests_cant": "codec over all byte patterns", "anchors": ["src/core/io/RamtrjRecorder.cpp", "src/core/io/RamtrjPlayer.cpp", "src/core/io/RamtrjIO.cpp"]}
{"id": "C28", "title": "Appending to a RAMTRJ trajectory equals recording it in one go", "statement": "Recording some snapshots, closing, reopening in append mode and recording the rest produces byte for byte the file recorded without interruption; appending with a different number of molecules or cycle step is refused and leaves the file unchanged.", "quantifier": "all splits of all sequences of snapshots", "why_tests_cant": "history quantification", "anchors": ["src/core/io/RamtrjRecorder.cpp", "src/core/io/RamtrjIO.cpp"]}
{"id": "C29", "title": "Interrupted RAMTRJ recordings are recovered up to the last complete snapshot", "statement": "If the process dies at any byte while recording, opening the file without auto-fix reports an error (unless nothing is missing) and opening with auto-fix yields exactly the completely stored snapshots. (The source does not report the number of snapshots claimed by the header of a repaired file: the report says 0.)", "quantifier": "all crash points", "why_tests_cant": "every byte prefix of every file", "anchors": ["src/core/io/RamtrjPlayer.cpp:AutoFix", "src/core/io/RamtrjPlayer.cpp:tryFixing"]}
{"id": "C30", "title": "Trajectory player navigation", "statement": "For every history of reset, nextSnapshot, jumpToSnapshot and lastSnapshot the player delivers the snapshot belonging to the cycle number it reports, hasNext is true exactly before the last snapshot, and reading past the end is refused. (The source dereferences a null pointer when a closed player is reset.)", "quantifier": "all navigation histories", "why_tests_cant": "history quantification", "anchors": ["src/core/io/RamtrjPlayer.cpp:nextSnapshot", "src/core/io/RamtrjPlayer.cpp:jumpToSnapshot", "src/core/io/RamtrjPlayer.cpp:hasNext"]}
{"id": "C31", "title": "Truncated player shows exactly the first cycles", "statement": "A TruncatedPlayer for a total number of cycles behaves, for every navigation history, exactly as a player of a trajectory which consists only of the snapshots up to this cycle: nothing beyond is shown, the last snapshot is that of the given cycle, and totals which are not multiples of the cycle step or are beyond the end are refused.", "quantifier": "all trajectories, all c, all navigation histories", "why_tests_cant": "history quantification", "anchors": ["src/core/io/TruncatedPlayer.cpp"]}
{"id": "C32", "title": "RAMSNAP metadata round-trips", "statement": "A RAMSNAP file written with metadata whose keys are words and values single lines starting with a visible character is read back: the metadata, the box and the shapes are unchanged; keys with white space are refused when writing; the old format with three box heights is read as the orthorhombic box. (The source accepts also metadata which cannot be read back: no metadata at all, which makes the whole file unreadable, empty values, values starting with white space, and values with a line feed.)", "quantifier": "all maps of strings", "why_tests_cant": "whitespace and empty strings; arbitrary sizes", "anchors": ["src/core/io/RamsnapWriter.cpp", "src/core/io/RamsnapReader.cpp:restoreAuxInfo"]}
{"id": "C33", "title": "Continued observable files detect the last stored cycle", "statement": "Attaching an existing observables file with the same header finds the cycle number of its last row (0 when there are no rows), and rows appended afterwards follow it; a different header is refused, and so is a file which does not end with a complete line.", "quantifier": "all file contents", "why_tests_cant": "backward reading at arbitrary file lengths", "anchors": ["src/core/ObservablesCollector.cpp:attachOnTheFlyOutput", "src/core/ObservablesCollector.cpp:findOnTheFlyLastCycleNumber", "src/utils/GetlineBackwards.cpp"]}
{"id": "C34", "title": "Reading lines backwards is the mirror image of reading them forwards", "statement": "Repeated GetlineBackwards calls from the end of a stream return exactly the pieces of the text between delimiters, in reverse order and each once, including the empty piece after a final delimiter, then fail. (The source never returns an empty first piece.)", "quantifier": "all byte strings", "why_tests_cant": "all file contents", "anchors": ["src/utils/GetlineBackwards.cpp"]}
{"id": "C35", "title": "PYON expressions parse back to what was printed", "statement": "For every PYON value (None, booleans, 64-bit integers, floats in decimal notation, strings, arrays, dictionaries with distinct keys, dataclasses with identifiers) its canonical text, and any other layout of it with white space and comments between the tokens, parses to that value. (The source refuses floats whose integer part does not fit in 64 bits, accepts white space and a sign after 0b, and reads numbers with a leading zero as octal if possible and as floats otherwise.)", "quantifier": "all values of any depth", "why_tests_cant": "unbounded nesting and string contents", "anchors": ["src/pyon/Parser.cpp"]}
{"id": "C36", "title": "The PYON parser is total and strict", "statement": "For every input string the parser terminates with a value or an error, consumes the whole input, and rejects duplicated dictionary keys, duplicated keyword arguments and positional arguments after keyword ones.", "quantifier": "all strings", "why_tests_cant": "all inputs", "anchors": ["src/pyon/Parser.cpp"]}
{"id": "C37", "title": "Dataclass arguments are bound like Python call arguments", "statement": "MatcherDataclass binds positional arguments left to right, then keywords by name, then defaults; excess goes to the variadic matchers if declared; it reports an error exactly when an argument is missing, given twice, unknown or excessive, or when a matcher of an argument or a filter refuses. (The source accepts repeated parameter names in a declaration; such a matcher matches nothing and throws when the arguments fit.)", "quantifier": "all signatures and all argument lists", "why_tests_cant": "combinatorial", "anchors": ["src/pyon/MatcherDataclass.cpp"]}
{"id": "C38", "title": "Alternative, array and dictionary matchers", "statement": "An alternative matches exactly when one of its variants does and returns the value of the first one that does; an array matches exactly when every element and every array filter does; each dictionary key is matched by the first key matcher that accepts it. (The source tries only dataclass matchers on dataclasses: an alternative or a recursive matcher used as a variant is skipped for them, although it would match.)", "quantifier": "all matchers and nodes", "why_tests_cant": "recursive composition", "anchors": ["src/pyon/MatcherAlternative.cpp", "src/pyon/MatcherArray.cpp", "src/pyon/MatcherDictionary.cpp"]}
{"id": "C39", "title": "Piecewise parameters use the segment containing the cycle", "statement": "A piecewise dynamic parameter evaluates at cycle c the segment with the greatest start not exceeding c, in that segment's own cycle count, with the next start (or total) as its end; cycles beyond the total, segments starting beyond the total and unordered lists are refused. (The source converts starts to long: a start of 2^63 or more is accepted but cannot be evaluated.)", "quantifier": "all segment lists, cycles and totals", "why_tests_cant": "all lists and cycles", "anchors": ["src/core/dynamic_parameters/PiecewiseDynamicParameter.cpp", "src/core/dynamic_parameters/ShiftedDynamicParameter.cpp"]}
{"id": "C40", "title": "Compound interactions combine their parts", "statement": "A CompoundInteraction overlaps exactly when one of its hard parts does, has energy equal to the sum of its soft parts, range equal to the larger range, and refuses parts with different interaction centres.", "quantifier": "all pairs of interactions and configurations", "why_tests_cant": "all configurations", "anchors": ["src/core/interactions/CompoundInteraction.cpp"]}
{"id": "C41", "title": "Short-range potentials vanish outside their declared range", "statement": "The repulsive Lennard-Jones and square inverse core energies are zero whenever the distance is not smaller than the declared range, non-negative inside (of the sign of epsilon for the square inverse core), and continuous at the cut-off; the Lennard-Jones potential is truncated at 3 sigma. (The source declares the range of 3 sigma for Lennard-Jones, but does not truncate it: the energy is never zero beyond it.)", "quantifier": "all distances, energies and sizes", "why_tests_cant": "all reals", "anchors": ["src/core/interactions/RepulsiveLennardJonesInteraction.cpp", "src/core/interactions/SquareInverseCoreInteraction.cpp", "src/core/interactions/LennardJonesInteraction.cpp"]}
{"id": "C42", "title": "INI configuration parsing", "statement": "A key-value configuration written out (any sections, unique keys without special characters, any white space, comments, empty lines and continued values) parses back to the same fields in order; malformed lines are refused and duplicate keys are rejected or replaced according to the flag; sections are listed once in order of appearance; fetching a listed section gives its fields without its name. (The source refuses to fetch a root section which has only subsections.)", "quantifier": "all configurations", "why_tests_cant": "unbounded inputs", "anchors": ["src/utils/Config.cpp"]}
{"id": "C43", "title": "Version comparison is a total order and parsing inverts printing", "statement": "Versions are totally ordered lexicographically by (major, minor, patch), missing components count as zero, and parsing the printed form returns the same version; empty components and more than three are refused. (The source accepts negative components, taken modulo 2^64.)", "quantifier": "all versions", "why_tests_cant": "infinite domain", "anchors": ["src/utils/Version.cpp", "src/utils/Version.h"]}
{"id": "C44", "title": "Splitting and joining strings are inverse", "statement": "explode(implode(parts, d), d) = parts whenever no part contains d (and parts is not the single empty string); implode(explode(s,d),d) = s for every s; replaceAll replaces every occurrence left to right and terminates for a non-empty search string.", "quantifier": "all strings", "why_tests_cant": "all strings", "anchors": ["src/utils/Utils.cpp:explode", "src/utils/Utils.h:implode", "src/utils/Utils.cpp:replaceAll"]}
{"id": "C45", "title": "Histogram filling is independent of the distribution over threads", "statement": "Each value added in range lands in the unique bin whose half-open interval contains it (upper end in the last bin), flat and multi-dimensional indices are inverse, and the accumulated histogram after any history of snapshots has in each bin the sum and the number of values added to it, so it does not depend on which thread added which value nor on the order. (The source adds the initial value once more for each thread and each snapshot, so if it is not zero the result depends on the number of threads; averages in empty bins are not numbers.)", "quantifier": "all values, bin counts, threads and interleavings", "why_tests_cant": "schedules and boundaries", "anchors": ["src/core/observables/Histogram.tpp", "src/core/observables/HistogramBuilder.tpp"]}
{"id": "C46", "title": "Bond order uses the nearest neighbours", "statement": "For each particle the list used for bond order contains the k nearest in-plane neighbours of the same layer sorted by distance, the plane is perpendicular to the layering wave vector, and the order parameter of rank r is the mean over particles of the mean of exp(i r angle) over r nearest neighbours, between 0 and 1. (The source pads the list with particle 0 and does not skip particles with fewer than r neighbours: if no particle has a neighbour, local order is reported as 1 instead of 0. When the wave vector points opposite to an axis of coordinates, for example for Miller indices -1 0 0, vectors in the plane are not numbers.)", "quantifier": "all sets of points, all k", "why_tests_cant": "all inputs", "anchors": ["src/core/observables/BondOrder.cpp:insertDistance", "src/core/observables/BondOrder.cpp:constructKnn", "src/core/observables/BondOrder.cpp:doCalculateBondOrder"]}
{"id": "C47", "title": "The smectic order search visits every wave vector once up to sign", "statement": "For every hkl range the search visits exactly one of k and -k for each non-zero integer triple in range, reports the triple with the greatest order parameter among all non-zero triples in range together with its wave vector, and the value does not depend on the choice of periodic images. (The documentation divides the sum by the number of particles, but the source divides it by the volume, so the value is the documented one multiplied by the number density and may exceed 1.)", "quantifier": "all ranges, all order parameter values", "why_tests_cant": "all ranges", "anchors": ["src/core/observables/SmecticOrder.cpp:calculate"]}
{"id": "C48", "title": "Nematic order eigenvalues", "statement": "For every symmetric matrix that is not a multiple of identity no assertion fails and the three returned numbers are the roots of its characteristic polynomial with multiplicity; the reported order parameter is the eigenvalue of the greatest magnitude of the Q tensor, lies between -1/2 and 1, and equals 1 when all axes are parallel. (For an isotropic sample, Q=0, the observable should be 0, but the source aborts with an assertion.)", "quantifier": "all symmetric 3x3 matrices", "why_tests_cant": "all reals", "anchors": ["src/core/observables/NematicOrder.cpp:calculateEigenvalues"]}
{"id": "C49", "title": "Automatic restart finds the first unfinished run", "statement": "With --start-from .auto the program starts from the first run that is not finished (its file has fewer cycles than thermalisation and averaging together), continues it if it has done any cycles, refuses when a corrupted run or a later performed run exists, and does nothing when all are finished; continuing performs exactly the missing thermalisation cycles followed by the whole averaging phase. After any history of runs started this way, interrupted or killed at any time, .auto does not refuse; without interruptions all runs get finished. With --start-from NAME the run starts from the last snapshot of the previous one, and with --continue N its thermalisation goes on up to N cycles. (The source takes a run interrupted during averaging for the second time, or an interrupted overlap relaxation, as finished; a run with fewer cycles left than between snapshots fails each time it is continued; starting after a run without a RAMSNAP file is undefined behaviour.)", "quantifier": "all lists of runs and states of their files", "why_tests_cant": "combinatorial histories of previous invocations", "anchors": ["src/frontend/PackingLoader.cpp:autoFindStartRunIndex", "src/frontend/PackingLoader.cpp:loadPackingContinuation", "src/frontend/PackingLoader.cpp:gatherRunData"]}
{"id": "C50", "title": "Scaling direction strings", "statement": "A scaling direction string is accepted exactly when it is a sequence of free directions, directions in round brackets (scaled together) and directions in square brackets (not scaled) in which each of x, y, z occurs exactly once, or one of five predefined names, and the resulting groups are the ones written, in the order written. (The source also accepts a string in which all directions are in square brackets, so nothing is scaled: the constructor of the scaler then fails on its precondition.)", "quantifier": "all strings", "why_tests_cant": "all strings", "anchors": ["src/frontend/ScalingDirectionParser.cpp:parse"]}
{"id": "C51", "title": "Box scaling changes only the requested directions", "statement": "Anisotropic volume scaling changes exactly the sides of the alternatives which are sampled (a single one when scaled independently, all of them otherwise): sides in one group are multiplied by the same exponential of the step for log steps and have their heights increased by the same step for linear ones, directions not mentioned are left as they were, and a linear step which would collapse the box is refused by an assertion. delta_v scales all sides of an orthogonal box by the same factor and changes the volume by the sampled amount, delta_triclinic adds the steps to elements of all sides or of one of them. (The source uses the product of heights instead of the volume in delta_v, so in triclinic boxes the volume changes by a different amount, and a negative change larger than the volume gives a mirrored box instead of being refused.)", "quantifier": "all direction sets, boxes and random numbers", "why_tests_cant": "all random draws", "anchors": ["src/core/volume_scalers/AnisotropicVolumeScaler.cpp:sampleScalingFactors", "src/core/volume_scalers/LogScalingFactorSampler.cpp", "src/core/volume_scalers/LinearScalingFactorSampler.cpp"]}
{"id": "C52", "title": "Lattice generation and normalisation", "statement": "A lattice of n0 x n1 x n2 cells generates one molecule per cell molecule at (i,j,k)+relative position, size() equals the number generated, serial population returns the first n of them in axis order, and normalisation keeps the multiset of molecules modulo the lattice box while bringing all relative coordinates into [0,1).", "quantifier": "all unit cells, dimensions and populations", "why_tests_cant": "all sizes", "anchors": ["src/core/lattice/Lattice.cpp", "src/core/lattice/SerialPopulator.cpp", "src/core/lattice/UnitCell.cpp"]}
{"id": "C53", "title": "Automatic lattice dimensions accommodate all particles", "statement": "The lattice dimension optimizer returns dimensions with at least the requested number of molecules: the nearest to cubic cells, with the first greatest dimension increased only as much as needed. It terminates whenever no height of the box is lower than half of the side of such a cubic cell. (The source: for flatter boxes a dimension rounds to zero, the product stays zero and the loop never ends.)", "quantifier": "all boxes and numbers of particles", "why_tests_cant": "non-termination on special inputs", "anchors": ["src/frontend/LatticeDimensionsOptimizer.cpp:optimize"]}
{"id": "C54", "title": "Segment distance is the minimal distance between points of the two segments", "statement": "SegmentDistanceCalculator always returns the squared distance of two points of the segments, and its square root exceeds the distance of any other two points by at most an explicit bound: about 1e-10 relative to the spreads of the segments when they are neither degenerate nor nearly parallel, and a bound in terms of the parallelism otherwise. (The source snaps numerators smaller than 1e-10 to zero even when the denominator is as small, so nearly parallel, crossing unit segments are reported as 0.45 apart; and when the second segment is a point, the distance from it to an end of the first one is returned, so the result depends on the order of arguments.)", "quantifier": "all pairs of segments", "why_tests_cant": "minimum over uncountable set", "anchors": ["src/geometry/SegmentDistanceCalculator.h:calculate"]}
{"id": "C55", "title": "Spherocylinder overlap shortcut is exact", "statement": "The sphere pre-checks in the overlap tests of spherocylinders and polyspherocylinders never change the answer: an overlap is reported only when the axis segments come closer than the sum of radii, and always when they come closer than that by more than the error of the segment distance (C54). (The source inherits the error of the segment distance: two spherocylinders with crossing, nearly parallel axes are reported as not overlapping.)", "quantifier": "all positions and orientations", "why_tests_cant": "all configurations", "anchors": ["src/core/shapes/SpherocylinderTraits.cpp:overlapBetween"]}
{"id": "C56", "title": "Tangent distance search", "statement": "DistanceOptimizer's search along a direction always ends. It fails exactly when the direction is shorter than 10^-6, the interaction has no hard part, the shapes do not overlap at distance 0, or they overlap at all of the distances 1, 2, 4, ..., 512. Otherwise it returns a distance without an overlap such that at most 10^-12 below it there is an overlap; if the overlap is monotone along the direction, there are no overlaps at this distance and above it and there are overlaps everywhere below it minus 10^-12. For spheres it is the diameter up to 10^-12.", "quantifier": "all interactions, shapes and directions", "why_tests_cant": "all thresholds and all overlap predicates", "anchors": ["src/core/lattice/DistanceOptimizer.cpp:minimizeForDirection"]}
{"id": "C57", "title": "Euler angles and quaternions describe the orientation", "statement": "The quaternion computed for a rotation matrix has unit norm and rotates vectors as the matrix does; Euler angles reproduce the matrix when |R31| < 1. (The gimbal lock branch is unreachable in the source.)", "quantifier": "all rotation matrices", "why_tests_cant": "all reals", "anchors": ["src/geometry/Quaternion.cpp", "src/geometry/EulerAngles.cpp"]}
{"id": "C58", "title": "Wall overlap counting", "statement": "countWallOverlaps counts exactly the pairs of an interaction centre and an active wall (nearer or further one) such that the part of the particle belonging to the centre sticks out through the wall, after any history of moves, scalings and wall toggling; with early exit a non-zero number is returned exactly when there is such a pair. This holds for spheres, polyspheres, spherocylinders and polyspherocylinders in right-handed boxes whose walls are not closer than the total range of the particle. (The source checks the further wall only if the particle is far from the nearer one, so with walls closer than the total range it misses particles sticking out through the further wall; and in left-handed boxes the normals point outwards, so every particle is reported.)", "quantifier": "all boxes, walls and shapes", "why_tests_cant": "all configurations", "anchors": ["src/core/Packing.cpp:countParticleWallOverlaps"]}
{"id": "C59", "title": "Statistical estimates of observables", "statement": "The average reported for an observable is the arithmetic mean of its samples and the error the standard error of the mean; adding samples in any order gives the same result.", "quantifier": "all sample lists", "why_tests_cant": "all lists", "anchors": ["src/utils/Quantity.cpp:calculateFromSamples", "src/core/ObservablesCollector.cpp:getFlattenedAverageValues"]}
{"id": "C60", "title": "Observable tables are rectangular and aligned with their header", "statement": "After any sequence of snapshots every printed row has as many columns as the header and column i holds the value of the observable named in header i. Observables are refused after values have been captured. (The source does not refuse them if the snapshots captured so far had no columns; the table can never be printed then.)", "quantifier": "all sets of observables and all histories", "why_tests_cant": "history", "anchors": ["src/core/ObservablesCollector.cpp:addObservable", "src/core/ObservablesCollector.cpp:addSnapshot", "src/core/ObservablesCollector.cpp:printSnapshots"]}
{"id": "C61", "title": "Geometry reported for polyspheres and polyspherocylinders", "statement": "A polysphere or polyspherocylinder geometry is accepted exactly when it is non-empty, all radii are positive, axes are not zero vectors, the secondary axis is not given without the primary one, the parts do not overlap (up to 10^-12) unless the volume is given explicitly, and the names of points do not repeat. Its volume is then the given one or the sum of the volumes of its parts, the axes are unit vectors along the given ones, every named point is the geometric origin, the point of the part with the given number or the custom one and moves with the shape as with a rigid body. Normalizing the mass centre moves it to the origin together with all points, and doing it again changes nothing. The flip axis is a unit vector perpendicular to the primary axis if there is no secondary one. (The source compares the squared distance of spherocylinders with the unsquared sum of radii, so it accepts some intersecting wide ones and refuses some separate thin ones; a polyspherocylinder with only the primary axis throws bad_optional_access when asked whether it has the secondary one; and a custom point named o is accepted but never found.)", "quantifier": "all lists of parts, axes, origins, volumes and custom points", "why_tests_cant": "all lists and all reals", "anchors": ["src/core/shapes/PolysphereTraits.cpp:PolysphereGeometry", "src/core/shapes/PolyspherocylinderTraits.cpp:PolyspherocylinderGeometry", "src/core/ShapeGeometry.cpp:findFlipAxis"]}
{"id": "C62", "title": "Overlaps of hard spheres and polyspheres are geometric", "statement": "An overlap of spheres or of two beads of polyspheres is reported exactly when the balls have a common inner point, and an overlap of two whole polyspheres exactly when some inner point of a bead of the first one is an inner point of a bead of the other one. These overlaps are symmetric and local, so the statements about packings apply to them.", "quantifier": "all radii, beads, positions, orientations and translations", "why_tests_cant": "all real configurations", "anchors": ["src/core/shapes/SphereTraits.cpp:HardInteraction::overlapBetween", "src/core/shapes/PolysphereTraits.cpp:HardInteraction::overlapBetween", "src/core/Interaction.cpp:overlapBetweenShapes"]}
{"id": "C63", "title": "Bodies made by the body builder are those described by the script", "statement": "A script of the generic convex body builder is accepted exactly when all arguments are valid, every operation has enough bodies on the stack and one body is left. The geometry made describes the body which the script means, made of the primitives by motions, Minkowski sums and differences and convex hulls: its centre lies in the body, the support point for a direction is a point of the body lying the furthest in this direction, the outer ball around the origin contains the body and the inner one is contained in it. (The source gives the radius 0 for a point away from the origin, so the outer ball of a hull of points does not contain it; it takes two coinciding components away from the origin, or a component which does not contain its own origin, for ones around the origin, so the inner ball may stick out; for directions shorter than about 1e-12 it gives the centre of a disk instead of its edge; and a football as wide as long has no support point at its ends. The claim about the outer ball is made for scripts without points away from the origin, about the inner one for those in which all components contain their origins and no two coinciding ones away from the origin are wrapped.)", "quantifier": "all scripts of all lengths and all directions", "why_tests_cant": "scripts are unbounded and support points must be right for all real directions", "anchors": ["src/geometry/xenocollide/XCPrimitives.cpp", "src/geometry/xenocollide/XCOperations.cpp", "src/geometry/xenocollide/XCBodyBuilder.cpp"]}
{"id": "C64", "title": "The collision test of convex bodies", "statement": "For convex bodies with exact support points, all positions, orientations and translations, the collision test gives numbers at every step and its answer does not depend on how many more steps are allowed. If no overlap is reported, the bodies are at most 10^-12 deep in each other: a direction exists in which moving by this distance separates them. If an overlap is reported, the bodies have points no further than 2*10^-6 from each other, and bodies further than the range radius never overlap. An overlap with a wall is reported exactly when some point of the body lies on the wall or behind it. (The source replaces a wrong vertex of the portal when a new support point falls exactly in the plane of the centre, the origin and a vertex, so it may report an overlap of bodies a large distance apart; the claim about reported overlaps is made for configurations without such ties. Whether the loops end is not claimed.)", "quantifier": "all convex bodies, positions and orientations, and any number of steps of the loops", "why_tests_cant": "the test is iterative and its result must be right for all real configurations", "anchors": ["src/geometry/xenocollide/XenoCollide.h:intersect", "src/core/shapes/XenoCollideTraits.h:CollideInteraction"]}
{"id": "C65", "title": "Spheres on a line: geometry and volume", "statement": "A k-mer, a wedge made of spheres and a lollipop are built exactly for two or more spheres, positive radii and allowed penetrations (a positive distance for a k-mer). The spheres lie on the z axis with the requested radii and distances, from the one of the radius for the bottom to that for the top in equal steps for a wedge; the extent along the axis is symmetric around the origin; the axes and the named points (origin, each sphere, both ends, the mass centre where it is given) are the right ones. The volume is that of the union of the spheres, meaning the integral of areas of cross-sections. The helper functions give the volume of a spherical cap and of the common part of two balls. (The source uses the formula for crossing balls also if one is inside the other, where the result may be negative; and it takes off the common part of the tip with the last sphere of the stick only, so the volume of a lollipop is wrong if the tip reaches other spheres outside of this one. The claims are made without these cases; the tip is harmless for two spheres or if its penetration is at most the diameter of a stick sphere less half of the penetration of stick spheres.)", "quantifier": "all numbers of spheres, all radii, distances and penetrations", "why_tests_cant": "the volume of a union of any number of balls, for all real parameters, is compared with an integral", "anchors": ["src/core/shapes/KMerTraits.cpp:generateGeometry", "src/core/shapes/PolysphereWedgeTraits.cpp:generateGeometry", "src/core/shapes/PolysphereLollipopTraits.cpp:generateGeometry", "src/geometry/VolumeCalculator.cpp"]}
{"id": "C66", "title": "Smooth and polyhedral wedges are divided exactly", "statement": "A smooth wedge is the convex hull of two balls and a polyhedral wedge the convex hull of two parallel rectangles at a given distance. A wedge is accepted exactly for valid parameters, with any number of subdivisions. The parts into which it is divided, at their interaction centres, make up the whole body and nothing else; each part has exact support points, an outer ball containing it and an inner ball contained in it; there are as many parts as requested, of equal outer radii for a smooth wedge and of equal heights for a polyhedral one. The reported volume is that of the body (the integral of areas of cross-sections) and the axes and named points are those of the body. (The source refuses a smooth wedge divided into two or more parts when the difference of the radii equals the distance, and equal balls at distance 0, although the documented preconditions allow these; it accepts negative sides of a polyhedral wedge, and then the volume and the inner radius may be negative.)", "quantifier": "all radii, sides, lengths and numbers of subdivisions", "why_tests_cant": "a union of any number of convex parts is compared with a hull point by point for all real parameters", "anchors": ["src/core/shapes/SmoothWedgeTraits.cpp", "src/core/shapes/SmoothWedgeTraits.h:CollideGeometry", "src/core/shapes/PolyhedralWedgeTraits.cpp", "src/core/shapes/PolyhedralWedgeTraits.h:CollideGeometry"]}
{"id": "C67", "title": "Correlation functions are averages over pairs", "statement": "Every pair of particles is taken once, with the distance vector between their focal points through the nearest periodic image: the whole vector (radial), its part normal to a face of the box (linear), or its part in the plane of layers if both particles are in the same layer (layerwise). For any sequence of snapshots, any number of threads and any order in which they add pairs, the pair density correlation prints in each bin the mean over snapshots of the number of neighbours divided by the number expected for the mean density and the volume of the bin; the probability evolution prints numbers of pairs in bins of distance and value, per snapshot, as a probability density with integral 1 or with mean 1; the pair averaged correlation prints the mean of the function over pairs in the bin. S110, S220, S221 and the angle between axes are in their ranges and have their symmetries. (The source takes the volume of one side only in linear binning, so that the density of a uniform system is 2 and not 1; it counts every particle with itself in the first bin of the pair averaged correlation, so S221 is never a number there and other functions are wrong; and layerwise binning with hkl = [0, 0, 1] does not project all particles onto one plane as documented: pairs across the boundary of the single layer are dropped.)", "quantifier": "all packings, binnings, functions, sequences of snapshots, numbers of threads and orders of additions", "why_tests_cant": "averages over unboundedly many pairs and snapshots must not depend on how threads are scheduled", "anchors": ["src/core/observables/correlation/PairDensityCorrelation.cpp", "src/core/observables/correlation/PairAveragedCorrelation.cpp", "src/core/observables/correlation/ProbabilityEvolution.cpp", "src/core/observables/correlation/RadialEnumerator.cpp", "src/core/observables/correlation/LinearEnumerator.cpp", "src/core/observables/correlation/LayerwiseRadialEnumerator.cpp", "src/core/observables/correlation_functions/S221Correlation.h"]}
{"id": "C68", "title": "Density histograms and bin averages in the frame of the tracked origin", "statement": "The box is divided into equal bins of relative coordinates (0 bins mean 1; the observable is refused if no direction has more than one). A particle is in the bin of its periodic image inside the box after it is moved back by what the tracked origin has moved since the first snapshot after the last clear. For any sequence of snapshots and clears, any number of threads and any order of their additions, the density histogram prints in each bin the mean over snapshots since the last clear of the number of particles, or of the number relative to the mean number in a bin, so that the sum over bins is the mean number of particles or the number of bins; printed counts are totals. The bin averaged function prints the mean of every component of a function of a particle (constant, axis, Q-tensor) over all particles in the bin. (The source calculates and reads values of the function in one object shared by all threads: with two threads the mean may be that of other particles, although counts are correct.)", "quantifier": "all packings in periodic boxes, numbers of bins, sequences of snapshots, origins and clears, numbers of threads and schedules", "why_tests_cant": "an average over unboundedly many particles and snapshots must not depend on how threads are scheduled", "anchors": ["src/core/observables/DensityHistogram.cpp", "src/core/observables/BinAveragedFunction.cpp", "src/core/observables/shape_functions/ShapeQTensor.cpp", "src/core/observables/shape_functions/ShapeAxis.cpp", "src/core/observables/shape_functions/ShapeAxisCoordinate.cpp"]}
{"id": "C69", "title": "The tracked origin is the maximum of the modulation, followed continuously", "statement": "A Fourier tracker with wavenumbers (one per direction, not all zero) and a function of a particle with one value is accepted; others are refused. For any sequence of packings and resets, the reported origin is inside the box, and there the sum over particles of products of cosine waves centred at particles, times the function, is maximal up to 2e-8. Of all copies of it by halves of wavelengths the closest one to the previously reported origin (in relative coordinates with periodic boundaries; the corner of the box at first and after a reset) is taken, so it does not jump. With one or two waves which are not vanishing, it is exactly a maximum and the closest one of all maxima. With three waves it holds if all roots of the equation for the tangent of the third phase are found and some maximum is not at a zero of the third cosine. (The source does not handle the degenerate equation 0 = 0, which is the case for one particle: for every solver there is a position of one particle for which the reported origin is not a maximum.)", "quantifier": "all packings in periodic boxes, wavenumbers, functions with one value, sequences of calls, and all behaviours of the equation solver", "why_tests_cant": "maximum over all points of space, for all particles and histories", "anchors": ["src/core/observables/trackers/FourierTracker.cpp", "src/core/observables/trackers/FourierTracker.h"]}
{"id": "C70", "title": "Lattice transformers act on the layers, columns and molecules they name", "statement": "Layers along an axis are molecules with the same relative coordinate, numbered in the whole lattice, from cell to cell. The layer rotation turns each molecule of a regular, normalised lattice in place about the given coordinate axis by the given angle, or, if alternating, by the angle in layers with even numbers and by the opposite one in the others. If numbers of layers in a cell and of cells are both odd this is impossible and it is refused, as are lattices which are not regular or normalised or have empty cells. The unit cell may be made larger, but the box and the set of all other data are as before; the same holds for any operation repeating itself every n layers. The columnar transformation translates all molecules of each column (same two other coordinates, cells in a row) along the axis by a number drawn for the column, and nothing else changes up to sides of the box. The flip randomisation turns chosen molecules by 180 degrees about an axis perpendicular to their primary axis (the secondary axis, if defined) so that geometric origins stay in place; shapes without the primary axis are refused. The rotation randomisation turns each molecule by a drawn angle about a given direction or an axis of the shape, or by three drawn angles about x, y and z, with positions kept; directions which are too short and shapes without the requested axis are refused.", "quantifier": "all lattices built by operations of the API, all unit cells (whose layers or columns are not closer than 1e-10 to each other unless equal), dimensions, axes, angles, drawn numbers and geometries of shapes", "why_tests_cant": "layers and columns go through an unbounded number of cells with any number of molecules", "anchors": ["src/core/lattice/LayerWiseTransformer.cpp", "src/core/lattice/LayerRotationTransformer.cpp", "src/core/lattice/ColumnarTransformer.cpp", "src/core/lattice/FlipRandomizingTransformer.cpp", "src/core/lattice/RotationRandomizingTransformer.cpp", "src/core/lattice/LatticeTraits.cpp"]}
{"id": "C71", "title": "Unit cells are the crystals they are named after", "statement": "For balls of any diameter, a cell of type sc, bcc, fcc, hcp or hexagonal created for this diameter gives a crystal (all translations of its molecules by sides of its box) in which no balls overlap and each ball touches exactly 6, 8, 12, 12 or 8 others; for hcp and hexagonal cells with any axis six of them are in the layer perpendicular to the axis, and 3 or 1 in each of the two layers next to it. Relative positions in the cell are the documented ones, inside the cell and centred in it along each axis, with no rotations, whatever the size of the cell; a custom cell has positions and rotations (degrees, about x, y, z) as given. If sides or a box are given instead of a diameter, the cell has exactly these. Any number of cells put together, with periodic boundaries, has no overlaps of balls.", "quantifier": "all types of cells, diameters, axes, boxes, and numbers of cells along each axis", "why_tests_cant": "distances in an infinite crystal, for all real diameters and any number of cells", "anchors": ["src/core/lattice/UnitCellFactory.cpp", "src/core/lattice/UnitCellFactory.h", "src/frontend/matchers/LatticeMatcher.cpp:create_cell"]}
{"id": "C72", "title": "The class lattice fills the requested box with the requested cells", "statement": "A box is accepted if it is a positive number, three positive numbers or three vectors with a volume above 1e-8, and has the written sides. For a given cell and numbers of cells the box of the packing has sides multiplied by these numbers; for a given box and numbers of cells, or a given box and a number of shapes, the packing has exactly this box, divided equally into cells, each with molecules at the relative positions and rotations of the type of the cell. For a given number of shapes the numbers of cells are those of nearly cubic cells, and there are at least as many shapes as requested. Transformations are made in the listed order, each on the result of the previous one, and if any fails there is no packing. The full filling takes all molecules; the serial one the first n in the order of axes, or, by default, with the outermost loop along the axis with the most cells; the random one n chosen molecules, and filling with more molecules than places is refused. (The documentation says that the packing for a given number of shapes has this number of them, but the source fills all places of the lattice, so that there may be more.)", "quantifier": "all types of cells, boxes, numbers of cells and shapes, lists of transformations, and ways of filling", "why_tests_cant": "any number of cells, shapes and transformations, and all real boxes", "anchors": ["src/frontend/matchers/LatticeMatcher.cpp", "src/frontend/LatticeDimensionsOptimizer.cpp", "src/core/lattice/SerialPopulator.cpp", "src/core/lattice/RandomPopulator.cpp"]}
{"id": "C73", "title": "Optimisation of the cell shrinks axes one by one until molecules touch", "statement": "For any interaction with a hard part, any packing without overlaps whose heights exceed the range, and any order of three different axes, the box is shrunk along one axis after another with relative positions and directions of sides kept: the factor for an axis is such that there are no overlaps with it, but there are with one smaller by at most 1e-12 (and the side is then made larger by the factor 1 + 1e-12, still with no overlaps). The optimisation of a normalised lattice ends with the same numbers of cells, molecules and relative positions, and each side of the cell multiplied so that the height is that of the shrunk cell increased by the spacing. It ends for all inputs, and fails exactly if the interaction is not hard, the order of axes is wrong, the lattice is not normalised, a height is too small, there are overlaps, there are no overlaps with the height equal to the range, adding the margin makes overlaps, or the height with a negative spacing is not positive.", "quantifier": "all lattices built by operations of the API, interactions, orders of axes and spacings", "why_tests_cant": "a search over real factors must end with touching molecules for every interaction and lattice", "anchors": ["src/core/lattice/DistanceOptimizer.cpp:shrinkPacking", "src/core/lattice/CellOptimizationTransformer.cpp"]}
{"id": "C74", "title": "Optimisation of layers moves layers down and shrinks the cell until they touch", "statement": "For a regular normalised lattice and a hard interaction, layers are moved down in turn: the coordinate of a layer is found between the former coordinates of the previous one and of itself so that there are no overlaps with it, but there are with one smaller by at most 1e-12 (or it has reached the former coordinate of the previous layer), and 1e-12 is added. Then the cell is shrunk along the axis, with molecules staying in place, until there are overlaps with a factor smaller by at most 1e-12. The height is increased by the spacing for each layer and the i-th layer (from 0) is moved up by i spacings, the middle between the first and the last molecule is put in the middle of the cell, and molecules are moved by whole cells into the unit cell; other coordinates, rotations, numbers of cells and the other two sides stay the same. It ends for all inputs and fails exactly if the interaction is not hard, the lattice is not regular or normalised, its cell is empty, there are overlaps, a height is too small, there are no overlaps with the height equal to the range, or the height with a negative spacing is not positive. (The source starts the search for a layer at the coordinate which the previous layer had before it was moved, so with three or more layers they are not tangent as documented, and the cell is higher than it has to be.)", "quantifier": "all lattices built by operations of the API whose layers are not closer than 1e-10 to each other unless equal, interactions, axes and spacings", "why_tests_cant": "a search over real coordinates of any number of layers", "anchors": ["src/core/lattice/LayerWiseCellOptimizationTransformer.cpp", "src/core/lattice/LatticeTraits.cpp:getLayerAssociation"]}
{"id": "C75", "title": "Shapes built on an arc have parts, volumes and named points of the arc", "statement": "The banana of spheres is accepted exactly for a positive arc radius, an arc angle between 0 and 360 degrees, at least two spheres and a sphere radius which is positive and not larger than that of the arc. Spheres divide the arc, symmetric with respect to x in the plane xz and opening towards positive x, into equal parts; the origin is in the middle between the ends for an angle below 180 degrees (and every sphere centre is within half of their distance from it) and in the centre of the arc otherwise. The reported volume is that of all balls minus the parts common to neighbours and to both ends, and each point (other than the centre of the arc) of the body is counted exactly once in this way. The banana of spherocylinders is accepted exactly if, besides, with more than two segments, every point of every segment is not closer to the centre than the radius, and for an angle above 180 degrees its ends are not closer than the diameter, both with the tolerance 1e-12, and there is at least one subdivision; the spherocylinders join points dividing the segments between points dividing the arc, in order. Its reported volume is that of cylinders between these points, of a ball, and, for each bend, of the sector of a ball minus the part of the cylinders cut by the planes of the bend. Axes are +z and -x, and named points are centres of spheres or points and ends of spherocylinders, with beg and end at the ends of the arc. The legacy banana of spheres lies in the plane xy with the middle of mass in the origin. (The source gives the mass centre of the banana of spheres also when spheres overlap, since it compares the squared distance with the squared radius and not diameter; it does not give the documented mass centre for spherocylinders; the volume with two segments may be below that of one ball contained in the shape, since the check of the centre is left out; the legacy shape is not symmetric for an even number of spheres, although its documentation says so.)", "quantifier": "all radii, angles, numbers of spheres, segments and subdivisions", "why_tests_cant": "a count of overlapping parts at every point of space, for all real parameters and numbers of spheres", "anchors": ["src/core/shapes/PolysphereBananaTraits.cpp", "src/core/shapes/PolysphereBananaTraits.h", "src/core/shapes/PolyspherocylinderBananaTraits.cpp", "src/core/shapes/PolyspherocylinderBananaTraits.h"]}
{"id": "C76", "title": "The trajectory mode replays exactly what was recorded, whatever the combination of options", "statement": "For every recorded trajectory and every combination of options of the trajectory mode, the run is the named one (.first, .last, the first run of that name, or the only one if no name is given), and temperature and pressure are those in force in it. Truncation to N cycles is refused unless N does not exceed all cycles and is a multiple of the snapshot interval, and then everything else sees only the snapshots of the first N cycles. Each stored trajectory contains all these snapshots, in order, with their cycle numbers, a RAMTRJ copy being a complete trajectory of them; observables are computed once for each of them, with the temperature and the pressure (zero without box scaling) at its cycle; bulk averages are taken over exactly the snapshots whose cycle is not earlier than the given start, which is refused if it is before the first snapshot or not before the end; a stored snapshot is the last one. Options are processed in a fixed order, none of them changes what another one gives, and a refused one leaves the outputs of the earlier ones. The same is true, with auto-fix, of a trajectory left by a process which died at any moment, restricted to its complete snapshots; without auto-fix such a file is not replayed unless nothing is missing. Trajectories and snapshots are never stored over the input. Before a simulation, a parameter is accepted exactly if it is constant in all cycles of averaging, and its value at a cycle does not depend on the number of all cycles. (The source stores observables over the input trajectory if asked for under its name; a piecewise parameter has no value, breaking a precondition, in a replay of a trajectory which ends before its last piece begins, although the simulation had one; the last snapshot may be replayed with another temperature than that of averaging, which is checked only before the last cycle; asking for the last snapshot of a trajectory truncated to no cycles breaks a precondition; with auto-fix the number of molecules of a complete trajectory is not checked and a precondition fails later.)", "quantifier": "all trajectories, options, runs, environments and moments of interruption", "why_tests_cant": "any number of snapshots and any combination of options, each depending on the position left by the previous one", "anchors": ["src/frontend/modes/TrajectoryMode.cpp", "src/frontend/IO.cpp", "src/frontend/modes/CasinoMode.cpp", "src/core/io/RamtrjPlayer.cpp", "src/core/io/TruncatedPlayer.cpp", "src/frontend/SimulationRecorderFactory.cpp"]}
{"id": "C77", "title": "An input file is accepted exactly if every part of it is right, and it is read as written", "statement": "For every text and all classes of shapes, arrangements, observables and bulk observables, the input is accepted exactly if it is a PYON expression rampack(...) with all required parameters, none unknown or repeated, in which each value is of its documented kind (positive numbers of cycles and steps, steps within their limits, at least one move, non-empty file names, run names made of letters, digits and underscores, three walls and three divisions, a version between 0.9 and the current one), names of runs are distinct, each integration has at least one phase, averaging has its period and its outputs appear only with it, bulk observables have a file pattern, and the base environment together with that of the first run is complete. The parameters read then are exactly those written, with documented defaults for those left out, whether they are given by position or by name; everything in lists keeps its order; the file by which a run is continued is the first one of the internal format. The first run of an accepted input can always be started, afresh or as a continuation, and each accepted piecewise parameter can be built. (The source checks only the environment of the first run, so that an accepted input may have a later run which moves the box without pressure; a negative averaging_every is accepted and becomes a number near 2^64, so that nothing is averaged; the documented form version = [1, 0, 0] is refused; a piecewise parameter of one piece is refused although any number is documented.)", "quantifier": "all texts, all families of classes and all values", "why_tests_cant": "the grammar of nested parameters, their combinations and defaults is unbounded", "anchors": ["src/frontend/matchers/RampackMatcher.cpp", "src/frontend/matchers/DynamicParameterMatcher.cpp", "src/frontend/matchers/MoveSamplerMatcher.cpp", "src/frontend/matchers/BoxScalerMatcher.cpp", "src/frontend/matchers/FileSnapshotWriterMatcher.cpp", "src/frontend/matchers/SimulationRecorderFactoryMatcher.cpp", "docs/input-file.md"]}
{"id": "C78", "title": "XYZ snapshots hold the packing, and a recording that is reopened goes on from its last cycle", "statement": "A reader of the extended XYZ format gets from every written snapshot, whatever follows it, the three box vectors in order, the auxiliary pairs, and for each particle its position and a unit quaternion acting on vectors as its orientation does. A file recorded from the start holds exactly the recorded snapshots in order, whatever it held before, and the recorder reports the last recorded cycle (0 if none). A recording opened again to be appended reports its last cycle, for every text: it is the number after the first cycles= in the last line beginning with Lattice, and a text without such a line or number is refused, as are a missing file, a non-empty stream which is not to be appended, a null stream, and a snapshot after close. On a stream with separate read and write positions new snapshots follow the old ones. After a process has died at any point of writing a snapshot, what the reopened recording reports is determined by that point. (The source does not return to the end of the stream after it has looked for the last cycle; on a file, which has a single position, new snapshots are therefore written over the last one from the end of its first line, and no continued XYZ trajectory can be read, although the reported cycles agree. An interrupted snapshot is accepted as a complete one as soon as the first digit of its cycle number has been written, with the missing digits dropped, and stays in the file. A quotation mark in a value with white space makes a snapshot unreadable.)", "quantifier": "all packings, auxiliary pairs, histories of snapshots, texts and crash points", "why_tests_cant": "histories, texts and points of interruption are unbounded; the unit test reopens a string buffer, whose positions are separate", "anchors": ["src/core/io/XYZWriter.cpp", "src/core/io/XYZRecorder.cpp", "src/frontend/SimulationRecorderFactory.cpp:XYZRecorderFactory", "src/utils/GetlineBackwards.cpp", "src/geometry/Quaternion.cpp"]}
{"id": "C79", "title": "The mesh of a convex shape lies in the shape, comes as near to it as the number of subdivisions says, and its triangles face outwards", "statement": "The sampled directions after n subdivisions are unit vectors, 8*4^n - 2 in number, contain with each direction the opposite one and all directions of fewer subdivisions, and every direction has one of them at an angle of cosine at least 1 - 1/2^n. For every convex geometry the mesh built from them is contained in the body, and in no direction the body extends further than the mesh by more than sqrt(2/2^n) times its diameter. Its triangles are those of the convex hull of the support points, turned so that their normals point away from the centre of the body; if the centre is inside the mesh, all of the mesh lies behind every triangle. The volume is that of the pyramids from the centre over the triangles. A moved mesh has the moved triangles, and the same volume if the centre lies on the axis of the rotation. (The source moves the centre of a mesh but does not rotate it; the volume of a rotated mesh whose centre is not fixed by the rotation may differ from that of the mesh.)", "quantifier": "all convex geometries, numbers of subdivisions, rotations and displacements", "why_tests_cant": "directions, bodies and subdivisions are unbounded; the unit tests check the meshes of a few bodies", "anchors": ["src/geometry/xenocollide/XCPrinter.cpp", "src/geometry/xenocollide/XCPrinter.h", "src/geometry/Polyhedron.cpp", "src/geometry/Polyhedron.h"]}
{"id": "C80", "title": "Packings printed for Mathematica and shapes printed as Wavefront OBJ read back as the solids they show, where they are", "statement": "For every list of shapes and every printer of spheres, polyspheres, spherocylinders, polyspherocylinders or meshes (the composite ones with at least one part), the standard Mathematica output is a single well-formed expression: Graphics3D of the list of shapes in order, each the ball, list of balls, capsule between the two cap centres, list of tubes, or transformed meshes with vertices numbered from 1, at the rotated and shifted positions. The affine transform output is a single expression: the shape at the origin transformed by every rotation (by rows) and position, in order. A reader of Wavefront OBJ gets from a printed shape of any number of meshes the points of all of them, where the shape is, and exactly their triangles, with every index leading to the right point. (The source prints spheres without the fixed notation it uses for all other shapes; a sphere with a coordinate or radius printed with an exponent, as 1e-05, does not give a number in Mathematica, and the output is not readable.)", "quantifier": "all packings, printers, meshes and texts of numbers", "why_tests_cant": "shapes, meshes and packings are unbounded; the unit tests compare a few texts", "anchors": ["src/core/io/WolframWriter.cpp", "src/core/shapes/SphereTraits.cpp", "src/core/shapes/PolysphereTraits.cpp", "src/core/shapes/SpherocylinderTraits.cpp", "src/core/shapes/PolyspherocylinderTraits.cpp", "src/core/shapes/XCWolframShapePrinter.cpp", "src/core/shapes/XCObjShapePrinter.cpp", "src/geometry/Polyhedron.cpp:storeWolframGraphicsComplex, storeWavefrontObj"]}
{"id": "C81", "title": "A convex body described in an input file is accepted exactly if it is well formed, and the shape made is the body described", "statement": "A text is accepted as a description of a convex body exactly if it is a point, a segment, rectangle, cuboid, disk, sphere, ellipse, ellipsoid, saucer or football with sizes in their ranges and optional position and rotation, or a sum, a difference sum or a wrap of such descriptions, nested to any depth, with at least two components of a sum or wrap. Every accepted description is made into a body without an error; its support points and centre are those of the Minkowski sum or convex hull of the placed components, and its outer ball contains it if there are no points away from the origin. A shape is accepted exactly if its geometry is, its volume is positive, its axes are not zero (they are normalized) and the secondary axis comes only with the primary one, and its named points have distinct allowed names; the shape made has exactly the geometry, axes, origin, volume and points written. (The source ignores the position and rotation of a primitive which is not inside a sum, difference or wrap; it says that the axes must be orthogonal, but accepts every pair of axes with a negative scalar product, even opposite ones.)", "quantifier": "all texts, descriptions of any depth and any number of components, and all directions", "why_tests_cant": "descriptions nest without bound; the unit tests match a few texts", "anchors": ["src/frontend/matchers/GenericConvexGeometryMatcher.cpp", "src/frontend/matchers/ShapeMatcher.cpp:create_generic_convex", "src/core/shapes/GenericXenoCollideTraits.cpp", "src/geometry/xenocollide/XCBodyBuilder.cpp"]}
{"id": "C82", "title": "Old input files: fields are found wherever they stand, commands of scripts do what they say, and shapes given by fields are the shapes described", "statement": "A text is cut into words. Words are divided into fields at the names of fields; each field is returned with exactly the words which follow its name, and nothing is returned if a field comes twice or if words belong to no field. A text is a command of the body builder exactly if, without the white space around it, it is a known name followed by as many numbers as the command takes (the number of bodies of sum and wrap is 2 if there is nothing after the name); then it does what the command does, and otherwise it is refused without any effect. A convex body, polysphere or polyspherocylinder given by fields is accepted exactly if all required fields are there once, in any order, the axes are not shorter than 10^-8, the volume and radii are positive, and the script builds a single body, or the spheres, spherocylinders and chains consist of complete groups of numbers; the shape made has the normalized axes, the origin, volume and points written, and exactly the body of the script, the spheres, or the spherocylinders between the given ends. (The source ignores everything after the numbers of a command, takes a negative number of bodies modulo 2^64, so that -18446744073709551615 is 1, and reads a list of numbers only up to the first thing which is not a number, for which it takes 0: the rest of spheres is left out without a message.)", "quantifier": "all texts, lists of fields and tokens, commands, scripts and stacks of bodies, and all ways of reading numbers", "why_tests_cant": "texts, scripts and lists are unbounded; the unit tests read a few texts", "anchors": ["src/utils/ParseUtils.cpp", "src/utils/ParseUtils.h", "src/geometry/xenocollide/XCBodyBuilder.cpp:processCommand", "src/frontend/legacy/ShapeFactory.cpp:parse_generic_xeno_collide, parse_polysphere_geometry, parse_polyspherocylinder"]}
{"id": "C83", "title": "Orthorhombic arrangements put shapes on a centred lattice inside the box, layer by layer", "statement": "Arranging n shapes on a lattice with given numbers of sites and cell sizes along the axes in a given box is refused if n or one of the numbers or lengths is not positive, if the sites do not fit inside the box, or if the polarisations of layers are opposite and the number of layers is odd. Otherwise as many shapes are made as are asked for (as many as there are sites, if this is less), site by site along z, then y, then x; the lattice is in the middle of the box. Shapes are tilted by the given angle about the tilt axis; in every second layer those of opposite clinicity are tilted the other way, and those of opposite polarisation are first turned by 180 degrees about the axis of layers. All shapes are inside the box; two of them, with all periodic images, are at least a cell apart along some axis, or as far apart as the lattice is from its own image; a full lattice is symmetric about the middle of the box. The default lattice is the smallest cubic one with enough sites; it fills the box, and there is one for every number of shapes unless polarisations are opposite. (For 27 shapes in layers of opposite polarisation the source refuses its own default lattice, which has 3 layers. It does not check that the number of layers of opposite clinicity is even, so the first and last of 3 layers, which are neighbours, are tilted the same way.)", "quantifier": "all numbers of shapes and of sites, cells, boxes, polarisations, clinicities, axes and angles", "why_tests_cant": "numbers of shapes and sites are unbounded and lengths are real numbers; the unit tests arrange a few shapes", "anchors": ["src/core/lattice/OrthorhombicArrangingModel.cpp:arrange", "src/core/lattice/OrthorhombicArrangingModel.h"]}
{"id": "C84", "title": "Old input files: texts of moves, dynamic parameters and scaling of the box mean what they say, and nothing else is accepted", "statement": "A text is a move exactly if it is one of the four names followed by positive numbers: one to three for rototranslation and one or two for translation, the last being a limit not smaller than the step, one for rotation, and for flip a number or nothing, which means 10; the move has exactly these steps. A text is a dynamic parameter exactly if it is a number, or const, linear or exp with one or two numbers and nothing else (in linear and exp the value at the beginning comes first), or piecewise with a list separated by commas of cycles, each followed by a dynamic parameter, where the first cycle is 0 and no cycle is smaller than the one before; the parameter has exactly these values. A text is a scaling of the box exactly if it is disabled, delta V, delta triclinic, or linear or log followed by a direction in which something is scaled, the last three also after the word independent; directions are the same as in new input files. Everything else is refused. (The source ignores everything which follows the numbers of rotation, flip, or a limit, takes negative numbers of flip modulo 2^64, and looks only at the first line of a piece or direction. Pieces of a piecewise parameter inside another one cannot be written: the comma ends the outer piece, so the inner parameter has always one piece.)", "quantifier": "all texts, all ways of reading numbers, and any nesting of parameters", "why_tests_cant": "texts are unbounded and parameters are nested to any depth; the unit tests read a few texts", "anchors": ["src/frontend/legacy/MoveSamplerFactory.cpp:create", "src/frontend/legacy/ParameterUpdaterFactory.cpp:create", "src/frontend/legacy/TriclinicBoxScalerFactory.cpp:create", "src/utils/Utils.h:convert_string"]}
{"id": "C85", "title": "Old input files: orthorhombic arrangements mean what is written", "statement": "The size of the box is the word auto or three positive numbers. An orthorhombic arrangement written as optional clinicity (with the axis and angle of the tilt), optional polarisation (with its axis) and a layout, with one space before every word, is accepted exactly if the clinicity comes with a polarisation, the lattice is big enough and fits the box and layers of opposite polarisation are even in number; a default layout and a layout by numbers of rows only need a given box. The shapes are those of a lattice in the middle of the box with exactly these rows, cells, polarisation and tilt: cells are as given, or fill the box, or are the minimal distances plus the spacing; the box is the given one, or all the cells when automatic or with spacing. (The source looks for keywords surrounded by single spaces anywhere in the text: words separated by tabs are refused, the polarisation cannot come before the clinicity, and a word after the arrangement, which is otherwise ignored, can change the clinicity.)", "quantifier": "all arrangements, words of numbers, sizes of the box, numbers of shapes, ways of reading numbers and minimal distances", "why_tests_cant": "there are unboundedly many texts and lattices; the unit tests read a few", "anchors": ["src/frontend/legacy/ArrangementFactory.cpp:arrangePacking", "src/frontend/legacy/ArrangementFactory.cpp:arrange_orthorhombic_shapes", "src/frontend/legacy/ArrangementFactory.cpp:parse_box_dimensions", "src/core/lattice/OrthorhombicArrangingModel.cpp:arrange"]}
