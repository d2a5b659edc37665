{"id": "C01", "title": "Regular grid: index and coordinate are inverse bijections", "statement": "On an equidistant grid of size NX x NY x NZ, index2coordinate maps every index in [0, NX*NY*NZ) to a coordinate inside the grid, coordinate2index maps every coordinate inside the grid to an index in that range, the two are inverse to each other in both directions, and coordinate2index reports an error exactly for coordinates outside the grid.", "quantifier": "every NX, NY, NZ > 0, every index, every integer coordinate", "why_tests_cant": "Tests sample a few sizes and points; the claim is a bijection for every grid size.", "anchors": ["src/Acquisition/Coordinates.cpp: init() 269-295, mapIndex2coordinate 615-645, map3Dcoordinate2index 668-694, index2coordinate, coordinate2index"]}
{"id": "C02", "title": "Variable grid: every grid point index survives the round trip through its coordinate", "statement": "For a layered grid with different spacings per layer, index2coordinate followed by coordinate2index returns the same index for every index below the number of grid points, the coordinate lies inside the model, and so two different grid points never get the same coordinate.", "quantifier": "every accepted list of layer interfaces and spacing factors, every model size, every grid-point index", "why_tests_cant": "The number of layers, spacings and sizes is unbounded and the layer bookkeeping is cumulative; sampling a few grids cannot cover it.", "anchors": ["src/Acquisition/Coordinates.cpp: init(dhFactors, interfaces) 115-247, mapIndex2coordinate 615-645, map3Dcoordinate2index 668-694"]}
{"id": "C03", "title": "Variable grid: coordinate lookup is defined for every coordinate inside the model", "statement": "coordinate2index gives a grid-point index below the number of grid points (or an error report) for every coordinate inside the model; it never reads outside its layer tables. A coordinate that lies inside a layer is mapped to the grid point obtained by rounding each offset down to the layer's spacing.", "quantifier": "every accepted layered grid, every integer coordinate inside the model", "why_tests_cant": "Only coordinates between two layers trigger the failure; random or interface-aligned tests do not look there.", "anchors": ["src/Acquisition/Coordinates.cpp: map3Dcoordinate2index 668-694, getLayer 392-406"]}
{"id": "C04", "title": "Variable grid: layers partition the depth range with aligned interfaces", "statement": "After construction of a layered grid the layers are ordered and disjoint, each layer holds a whole number of cells of its own spacing, each interface is the largest aligned depth not below-aligned to the requested one (adjustment only moves an interface up by less than one coarse cell), the model never grows, and the number of grid points reported is the sum over the layers of nx*ny*nz.", "quantifier": "every accepted interface list, spacing list and model size", "why_tests_cant": "The adjustment loop couples each interface to all previous ones; the claim is about every length of layer list.", "anchors": ["src/Acquisition/Coordinates.cpp: init(dhFactors, interfaces) 115-247"]}
{"id": "C05", "title": "Variable grid construction terminates", "statement": "Constructing a layered grid finishes for every positive model size and every accepted layer list.", "quantifier": "every positive NX, NZ and every list of spacing factors that are powers of three", "why_tests_cant": "Non-termination only shows for particular size/spacing combinations, and a test that hangs is not a verdict.", "anchors": ["src/Acquisition/Coordinates.cpp: init(dhFactors, interfaces) 150-185 (while(true) loops)"]}
{"id": "C06", "title": "Re-initialising a coordinate object forgets the previous grid", "statement": "After init() has been called again on the same Coordinates object with a new size, all mappings are those of the new size only.", "quantifier": "every history of init calls with any sizes", "why_tests_cant": "The claim ranges over call histories; unit tests construct fresh objects.", "anchors": ["src/Acquisition/Coordinates.cpp: init() 269-295 (push_back without clear)"]}
{"id": "C07", "title": "Edge distance is the true distance to the nearest model face", "statement": "edgeDistance returns, per axis, the number of grid steps to the nearer of the two faces; it is non-negative inside the model, zero exactly on a face, changes by at most one between neighbouring points, and is symmetric under mirroring the model.", "quantifier": "every model size and every coordinate inside it", "why_tests_cant": "Universally quantified over sizes and points.", "anchors": ["src/Acquisition/Coordinates.cpp: estimateDistanceToEdges3D 734-750, edgeDistance"]}
{"id": "C08", "title": "Layer, interface and transition queries agree with the geometry", "statement": "getLayer returns the unique layer whose depth range contains the point, locatedOnInterface is true exactly for the points on an interface, distToInterface is the minimum distance to an interior interface, and getTransition answers for every point for which locatedOnInterface is true and raises an error otherwise.", "quantifier": "every layered grid, every grid point", "why_tests_cant": "Ranges over every layer list and every point.", "anchors": ["src/Acquisition/Coordinates.cpp: getLayer 392-406, locatedOnInterface 482-491, distToInterface 498-507, getTransition 524-537"]}
{"id": "C09", "title": "Finite-difference coefficients have the advertised accuracy", "statement": "For each supported order the staggered coefficients are antisymmetric and the stencil returns the exact derivative at the midpoint for every polynomial of degree up to the order (orders 2,4,6,8 exactly; orders 10 and 12, which are stored as rounded decimals, up to a stated tiny relative defect).", "quantifier": "every supported order, every polynomial of the stated degree, every evaluation point", "why_tests_cant": "Tests check a few polynomials at a few points; the claim is for all of them and for all positions.", "anchors": ["src/ForwardSolver/Derivatives/Derivatives.cpp: setFDCoef 2001-2042"]}
{"id": "C10", "title": "Derivative matrix rows stay inside the grid and reduce the order correctly at edges", "statement": "Assembling the x-derivative row of any grid point terminates, every column it writes is a grid point of the same grid line, no column is written twice, and the order used is the largest even order not above the requested one whose stencil fits (falling back to the neighbouring second-order stencil on the last point).", "quantifier": "every grid size NX>=2, every supported order, every grid point", "why_tests_cant": "The edge handling restarts the loop with changed parameters; whether it terminates and fits for all N and orders is not testable.", "anchors": ["src/ForwardSolver/Derivatives/Derivatives.cpp: calcDxf 129-186, calcDxb 706-763"]}
{"id": "C11", "title": "Derivative matrices are consistent at every point including edges", "statement": "Applied to a constant field every assembled derivative row gives zero, and applied to a linear field it gives the slope, at every grid point of an equidistant grid including the edges.", "quantifier": "every grid size NX>=2, every supported order, every grid point, every linear field", "why_tests_cant": "Edge rows for every size and order.", "anchors": ["src/ForwardSolver/Derivatives/Derivatives.cpp: calcDxf 129-186, calcDxb 706-763, setFDCoef"]}
{"id": "C12", "title": "Forward and backward derivative are negative adjoints", "statement": "The backward derivative matrix equals minus the transpose of the forward derivative matrix of the same axis, which is what makes the discrete wave equation energy conserving and its adjoint computable.", "quantifier": "every grid size and every order, both the stencil and the sparse implementation", "why_tests_cant": "A matrix identity for all sizes.", "anchors": ["src/ForwardSolver/Derivatives/FDTD2D.cpp 156-183", "src/ForwardSolver/Derivatives/FDTD3D.cpp 183-219", "src/ForwardSolver/Derivatives/Derivatives.cpp: calcDxf, calcDxb"]}
{"id": "C13", "title": "Derivative rows in coarse layers are never empty", "statement": "In a layer with spacing factor 3 or more the derivative row of a grid point next to the model edge still contains a second-order difference.", "quantifier": "every spacing factor, every order, every edge point", "why_tests_cant": "Only visible for coarse layers with orders above 2 at the edge.", "anchors": ["src/ForwardSolver/Derivatives/Derivatives.cpp: calcDxf 129-186 (p += 2*Xmin), calcDxb 706-763"]}
{"id": "C14", "title": "Free-surface derivative is the derivative of the odd extension", "statement": "The free-surface vertical derivative of a field equals the ordinary derivative of the field continued antisymmetrically above the surface (image method).", "quantifier": "every order, every depth, every field", "why_tests_cant": "Quantified over all fields, depths and orders.", "anchors": ["src/ForwardSolver/Derivatives/Derivatives.cpp: calcDyfFreeSurface, calcDybFreeSurface 367-697"]}
{"id": "C15", "title": "Seismograms are linear in the sources", "statement": "Running the 2-D acoustic solver with the sum of two source sets (or a multiple of one) yields the sum (multiple) of the recorded seismograms and wavefields, with any combination of PML, damping frame and free surface.", "quantifier": "every grid, model, boundary setting, number of time steps and pair of source signals", "why_tests_cant": "Superposition over all models, all durations and all signals.", "anchors": ["src/ForwardSolver/ForwardSolver2Dacoustic.cpp: run 91-194", "src/ForwardSolver/SourceReceiverImpl/SourceReceiverImpl.cpp"]}
{"id": "C16", "title": "Recorded data are causal", "statement": "A sample recorded at time step t does not depend on source samples after t, and does depend on the sample at t itself when receiver and source coincide (source is added before recording).", "quantifier": "every model, setting, pair of source signals agreeing up to t", "why_tests_cant": "Quantified over all pairs of signals and all times.", "anchors": ["src/ForwardSolver/ForwardSolver2Dacoustic.cpp: run 91-194 (applySource before gatherSeismogram)"]}
{"id": "C17", "title": "Shots are independent", "statement": "The seismograms of a shot are the same whatever shots were simulated before it in the same process, because wavefields and PML memory are reset between shots.", "quantifier": "every sequence of earlier shots, every model and setting", "why_tests_cant": "Ranges over histories of shots.", "anchors": ["src/Simulation.cpp: shot loop", "src/ForwardSolver/ForwardSolver2Dacoustic.cpp: resetCPML", "src/ForwardSolver/BoundaryCondition/CPML2DAcoustic.cpp: resetCPML"]}
{"id": "C18", "title": "Information travels at most one stencil width per time step", "statement": "A disturbance at one grid point cannot change the field at a point farther than (order-1) cells per time step away; outside that cone fields are bit-for-bit those of the undisturbed run.", "quantifier": "every grid, model, order, duration, pair of initial states or sources", "why_tests_cant": "Quantified over all states, distances and durations.", "anchors": ["src/ForwardSolver/ForwardSolver2Dacoustic.cpp: run 91-194", "src/ForwardSolver/Derivatives/FDTD2D.cpp"]}
{"id": "C19", "title": "Discrete energy is conserved without absorbing boundaries", "statement": "With no damping, no PML, no source and the stencil derivative matrices, the staggered-time energy of the 2-D acoustic scheme is exactly the same at every time step.", "quantifier": "every grid size, order, positive modulus and density model, initial state and number of steps", "why_tests_cant": "A conservation law over all states and durations.", "anchors": ["src/ForwardSolver/ForwardSolver2Dacoustic.cpp: run 91-194", "src/ForwardSolver/Derivatives/FDTD2D.cpp 156-183"]}
{"id": "C20", "title": "Source-receiver reciprocity", "statement": "With no absorbing boundaries, the pressure recorded at B for a pressure source at A, scaled by the modulus at A, equals the pressure recorded at A for the same source at B, scaled by the modulus at B.", "quantifier": "every grid, order, model, pair of points, source signal and time", "why_tests_cant": "An identity between two runs for all models and signals.", "anchors": ["src/ForwardSolver/ForwardSolver2Dacoustic.cpp: run 91-194", "src/ForwardSolver/SourceReceiverImpl/SourceReceiverImpl.cpp"]}
{"id": "C21", "title": "Free surface keeps the pressure zero at the surface", "statement": "With the free surface switched on, after every time step the pressure is zero at every surface point that carries no pressure source, and other points are unaffected by the enforcement.", "quantifier": "every model, step count and source set", "why_tests_cant": "An invariant over all runs.", "anchors": ["src/ForwardSolver/BoundaryCondition/FreeSurface.cpp: setSurfaceZero", "src/ForwardSolver/ForwardSolver2Dacoustic.cpp: run 187-193"]}
{"id": "C22", "title": "Co-located sources add up", "statement": "Injecting sources adds to each grid point the sum of the samples of all sources located there, and leaves all other points unchanged.", "quantifier": "every list of source positions (including repeats), every sample vector and field", "why_tests_cant": "Quantified over lists with arbitrary repetition.", "anchors": ["src/ForwardSolver/SourceReceiverImpl/SourceReceiverImpl.cpp: applySourceSingle, gatherSeismogramSingle"]}
{"id": "C23", "title": "A homogeneous static state stays static", "statement": "A zero wavefield without sources stays zero for ever, and the scheme is time reversible when no absorbing boundary is active: the previous state can be recovered exactly from the next.", "quantifier": "every model, setting and number of steps", "why_tests_cant": "Infinite executions.", "anchors": ["src/ForwardSolver/ForwardSolver2Dacoustic.cpp: run 91-194"]}
{"id": "C24", "title": "PML coefficients are stable", "statement": "For every PML position the recursion factor b lies in (0,1] and a in (-1,0], b is non-increasing with increasing damping, so that the PML memory stays bounded by the running maximum of its input.", "quantifier": "every width, power, frequency, velocity, time step and spacing allowed by the interface; every input history", "why_tests_cant": "Real-valued parameters and infinite input histories.", "anchors": ["src/ForwardSolver/BoundaryCondition/CPML.cpp: calcCoeffCPML 39-68, applyCPML 84-95"]}
{"id": "C25", "title": "PML acts only inside its frame", "statement": "Outside the boundary frame (and, with a free surface, below the surface away from the other edges) the PML leaves the field derivative untouched at every time step, and inside the frame every absorbing edge point gets a coefficient belonging to its distance; no table access is out of range.", "quantifier": "every grid, boundary width, free-surface flag, point and input history", "why_tests_cant": "Quantified over geometry and history.", "anchors": ["src/ForwardSolver/BoundaryCondition/CPML2DAcoustic.cpp: init 106-210"]}
{"id": "C26", "title": "Damping frame factors lie in (0,1] and never amplify", "statement": "The exponential damping factors lie in [1-D/100, 1), grow monotonically towards the interior, are exactly 1 outside the frame, and applying them never increases the magnitude of any field value.", "quantifier": "every width > 0, every damping coefficient 0<D<100, every field", "why_tests_cant": "Real-valued parameters.", "anchors": ["src/ForwardSolver/BoundaryCondition/ABS2D.cpp: init 110-178, apply", "src/ForwardSolver/BoundaryCondition/ABS3D.cpp 154-218"]}
{"id": "C27", "title": "Damping frame covers exactly the points near an absorbing edge", "statement": "Without free surface a point is damped exactly if it is closer than BoundaryWidth to some edge; with a free surface exactly if it is closer than BoundaryWidth to the left, right or bottom edge. The memory estimate counts exactly the damped points.", "quantifier": "every grid size, width, free-surface flag and point", "why_tests_cant": "The rule has corner cases (thin models, corners) for every size.", "anchors": ["src/ForwardSolver/BoundaryCondition/ABS2D.cpp: estimateMemory 57-97, init 110-178"]}
{"id": "C28", "title": "Source files are read completely and in order", "statement": "Reading a source file returns one entry per data line in file order with the columns in their documented meaning, skips comment and blank lines, and rejects a line with the wrong number of columns.", "quantifier": "every file content", "why_tests_cant": "Every possible text.", "anchors": ["src/Acquisition/AcquisitionSettings.hpp: readAllSettings 54-109, 238-283"]}
{"id": "C29", "title": "Unique shot numbers list each shot once in order of first appearance", "statement": "The list of unique shot numbers contains exactly the absolute shot numbers occurring in the source list, each once, in order of first occurrence; the per-shot source lists together contain every source exactly once.", "quantifier": "every non-empty source list", "why_tests_cant": "Lists of any length and order.", "anchors": ["src/Acquisition/AcquisitionSettings.hpp: calcuniqueShotNo 190-202, createSettingsForShot 118-127, getuniqueShotInd 208-231"]}
{"id": "C30", "title": "Per-shot model window contains all its sources", "statement": "Cutting the sources to a shot window either raises an error or returns the same sources in window coordinates, every one of them inside the window and outside the boundary frame.", "quantifier": "every source list, window size, boundary width and cut position", "why_tests_cant": "Quantified over geometry.", "anchors": ["src/Acquisition/AcquisitionSettings.hpp: getSettingsPerShot 135-183"]}
{"id": "C31", "title": "Every shot is simulated exactly once", "statement": "With block distribution of the shots over shot domains every shot index is processed by exactly one domain exactly once, in increasing order per domain.", "quantifier": "every number of shots and domains", "why_tests_cant": "All sizes.", "anchors": ["src/Simulation.cpp: shot loop", "src/Partitioning/Partitioning.hpp: getShotDomain 43-81"]}
{"id": "C32", "title": "Processes are divided evenly among shot domains", "statement": "getShotDomain assigns every rank to a domain so that every domain has the same number of ranks and consecutive ranks; it raises an error exactly when the number of ranks is not a multiple of the number of domains.", "quantifier": "every communicator size and number of domains", "why_tests_cant": "All sizes.", "anchors": ["src/Partitioning/Partitioning.hpp: getShotDomain 43-81", "src/Common/Common.hpp: checkNumShotDomains 465-471"]}
{"id": "C33", "title": "Random shot selection draws the requested number of distinct valid shots", "statement": "Each mode of random shot selection returns numShotDomains distinct shot indices inside the range of shots, and terminates.", "quantifier": "every number of shots, domains, iteration and every random sequence", "why_tests_cant": "Ranges over all random sequences.", "anchors": ["src/Acquisition/AcquisitionSettings.hpp: getRandomShotInds 436-483"]}
{"id": "C34", "title": "Supershot encoding assigns every shot to exactly one supershot and leaves none empty", "statement": "Source encoding puts every shot into exactly one supershot, no supershot exceeds its capacity, and no supershot is empty.", "quantifier": "every number of shots and domains, every random sequence, all encoding modes", "why_tests_cant": "All sizes and random sequences.", "anchors": ["src/Acquisition/Sources.cpp: calcSourceSettingsEncode 569-683"]}
{"id": "C35", "title": "Shot thinning terminates and keeps an ordered subset with the requested spacing", "statement": "Selecting shots with a spatial increment terminates and returns a subsequence of the shots, starting at the first one, with consecutive kept shots at least the increment apart.", "quantifier": "every source line and increment", "why_tests_cant": "Depends on an index-decrement loop whose termination is input dependent.", "anchors": ["src/Acquisition/Sources.cpp: getAcquisitionSettings 500-560"]}
{"id": "C36", "title": "Traces are sorted by component without loss", "statement": "Initialising the seismogram handler distributes the receivers over the four components so that each receiver appears in exactly the component of its type, in the original order, and the trace counts add up.", "quantifier": "every receiver list", "why_tests_cant": "All lists.", "anchors": ["src/Acquisition/AcquisitionGeometry.cpp: initSeismogramHandler 18-76"]}
{"id": "C37", "title": "Local and global receivers agree", "statement": "Over all processes the locally owned acquisition points together are exactly the global ones, each on exactly the process that owns its grid point.", "quantifier": "every distribution of grid points over processes, every list of coordinates", "why_tests_cant": "All distributions.", "anchors": ["src/Acquisition/AcquisitionSettings.hpp: Global2Local 294-324, calcDistribution 331-342"]}
{"id": "C38", "title": "The polarity of the wavelet follows the sign of the given amplitude", "statement": "When source signals are read from file the trace is multiplied by +1 for a positive amplitude and by -1 for a negative one.", "quantifier": "every amplitude value", "why_tests_cant": "Real-valued amplitudes; sampled tests use integers.", "anchors": ["src/Acquisition/Sources.cpp: init 16-46, copySignalsToSeismogramHandler 354-387"]}
{"id": "C39", "title": "Differentiating an integrated trace gives the trace back", "statement": "integrateTraces followed by differentiateTraces restores the trace (from the second sample on), i.e. differentiation is the backward difference divided by DT.", "quantifier": "every trace length, sample values and DT", "why_tests_cant": "All traces.", "anchors": ["src/Acquisition/Seismogram.cpp: integrateTraces 475-487, differentiateTraces 495-507"]}
{"id": "C40", "title": "Normalised traces have unit norm or are zero", "statement": "After normalisation every non-zero trace has maximum absolute value 1 (type 1) or l2 norm 1 (type 2), is a positive multiple of the original, zero traces stay zero, and normalising twice changes nothing more.", "quantifier": "every number of traces, samples and values", "why_tests_cant": "All data.", "anchors": ["src/Acquisition/Seismogram.cpp: normalizeTrace 215-260"]}
{"id": "C41", "title": "Automatic gain control divides by a sliding-window mean", "statement": "The running-sum implementation of AGC yields at every sample the mean over the window of up to 2*NAGC samples around it clipped to the trace, identical to the direct definition.", "quantifier": "every trace, window length >= 1", "why_tests_cant": "All lengths; running-sum drift at ends.", "anchors": ["src/Acquisition/Seismogram.cpp: getAGCSum 268-316, calcInverseAGC 323-387"]}
{"id": "C42", "title": "isFinite detects every invalid trace", "statement": "The finiteness check of a seismogram returns false whenever some trace contains a non-finite sample at the checked time.", "quantifier": "every number of traces and position of the invalid one", "why_tests_cant": "The position of the invalid trace matters.", "anchors": ["src/Acquisition/Seismogram.cpp: isFinite 529-539"]}
{"id": "C43", "title": "Resampling is linear interpolation at the requested times", "statement": "Each resampled sample is the linear interpolation of the two neighbouring samples at the requested time, weights are non-negative and sum to one, and resampling with coefficient 1 is the identity.", "quantifier": "every trace length and positive resampling coefficient", "why_tests_cant": "All lengths and coefficients.", "anchors": ["src/Common/Common.hpp: calcResampleMat 201-233"]}
{"id": "C44", "title": "SU files round-trip trace data", "statement": "Traces written in SU format and read back have the same number of traces and the same samples, and reading trace k alone gives trace k.", "quantifier": "every number of traces, every number of samples, every sample values", "why_tests_cant": "All sizes including those beyond header field width.", "anchors": ["src/IO/SUIO.hpp: writeSU 156-269, readDataSU 280-340, readSingleDataSU 350-372, readHeaderSU 380-405"]}
{"id": "C45", "title": "SU headers round-trip acquisition coordinates", "statement": "Receiver and source grid coordinates written into the SU trace header in millimetres are recovered exactly when the header is read.", "quantifier": "every grid spacing above one millimetre, every coordinate", "why_tests_cant": "Rounding behaviour depends on arithmetic of spacing and index.", "anchors": ["src/IO/SUIO.hpp: writeSU header", "src/Acquisition/suHandler.cpp 60-117"]}
{"id": "C46", "title": "Configuration lookup returns the last value given for a name", "statement": "Reading a configuration yields for each name, independent of letter case, the value of the last line defining it; names appear once in the listing, in order of first definition; a missing name raises an error or yields the stated default.", "quantifier": "every file content and history of reads and additions", "why_tests_cant": "All texts and histories.", "anchors": ["src/Configuration/Configuration.cpp 15-87", "src/Configuration/Configuration.hpp 63-143"]}
{"id": "C47", "title": "Comments in configuration files are ignored", "statement": "Text after a '#' never defines or changes a parameter.", "quantifier": "every line", "why_tests_cant": "All texts.", "anchors": ["src/Configuration/Configuration.cpp: readFromFile 15-87"]}
{"id": "C48", "title": "An accepted time step satisfies the CFL stability limit of the chosen order", "statement": "If checkStabilityCriterion accepts dt then dt does not exceed dh/(h*sqrt(dim)*vmax) where h is the sum of the absolute finite-difference coefficients of the chosen order.", "quantifier": "every order, dimension, spacing, velocity and time step", "why_tests_cant": "Real-valued parameters for each order.", "anchors": ["src/CheckParameter/CheckParameter.hpp: checkStabilityCriterion 60-113"]}
{"id": "C49", "title": "Accepted sources and receivers lie on grid points", "statement": "checkSources and checkReceivers accept exactly the acquisition points which lie inside the model and coincide with a grid point.", "quantifier": "every grid, every acquisition list", "why_tests_cant": "All lists and geometries.", "anchors": ["src/CheckParameter/CheckParameter.hpp: checkSources 259-277, checkReceivers 286-306"]}
{"id": "C50", "title": "The 2-D median filter returns the median of the window", "statement": "For odd kernel size each output sample is the median of the kernel-size-square window around it (with the chosen edge extension).", "quantifier": "every image size, odd kernel size and values", "why_tests_cant": "All images.", "anchors": ["src/Common/medianfilter.cpp 81-166"]}
{"id": "C51", "title": "FFT padding never shortens a signal", "statement": "The zero-padded length chosen for filtering and for envelopes is a power of two not smaller than the number of samples, so that the all-pass filter returns the signal unchanged.", "quantifier": "every number of samples >= 1", "why_tests_cant": "Fails only for special lengths.", "anchors": ["src/Filter/Filter.cpp: init 8-18, apply", "src/Common/Common.hpp: calcNextPowTwo 186-194, calcEnvelope 271-290"]}
{"id": "C52", "title": "Unwrapped phase is continuous and congruent to the wrapped phase", "statement": "Phase unwrapping returns a sequence whose consecutive differences are at most pi in magnitude and each of whose values differs from the wrapped phase by a multiple of 2 pi.", "quantifier": "every sequence of wrapped phases", "why_tests_cant": "All sequences.", "anchors": ["src/Common/Common.hpp: calcInstantaneousPhase 321-338"]}
{"id": "C53", "title": "Threshold replacement changes exactly the selected values", "statement": "searchAndReplace replaces exactly the entries standing in the chosen relation to the threshold, keeps all others, and rejects unknown relations; limiting Vp by Vs establishes the ratio bound at every point and changes only violating points.", "quantifier": "every vector, threshold, relation code", "why_tests_cant": "All vectors.", "anchors": ["src/Common/Common.hpp: searchAndReplace 67-120, replaceVpwithVs 148-181"]}
{"id": "C54", "title": "Derived model parameters are never stale", "statement": "After any sequence of setting velocities and density and reading derived quantities, the P- and S-wave modulus and the averaged parameters returned are those computed from the currently set velocities and density.", "quantifier": "every sequence of set and get operations", "why_tests_cant": "Ranges over operation histories.", "anchors": ["src/Modelparameter/ModelparameterSeismic.cpp: setDensity 194, setVelocityP 269, setVelocityS 286, getPWaveModulus 208, getSWaveModulus 234, calcAveragedSWaveModulus 421-432", "src/Modelparameter/Elastic.cpp: calculateAveraging"]}
{"id": "C55", "title": "Averaging keeps homogeneous models and stays within neighbouring values", "statement": "Every row of every averaging matrix has non-negative weights summing to one over grid points of the model, so that a homogeneous parameter is unchanged and an averaged value lies between the smallest and largest contributing value.", "quantifier": "every grid size, every point, every parameter field", "why_tests_cant": "All sizes and fields; edges and corners.", "anchors": ["src/Modelparameter/Modelparameter.cpp: calcAverageMatrixX 336, Y 373, Z 416, calc4PointAverageMatrixRow 449-526"]}
{"id": "C56", "title": "Velocity and modulus conversions are inverse", "statement": "calcVelocityFromModulus after calcModulusFromVelocity returns the velocity for every non-negative velocity and positive density.", "quantifier": "every velocity and density", "why_tests_cant": "Real-valued.", "anchors": ["src/Modelparameter/ModelparameterSeismic.cpp 131-157"]}
{"id": "C57", "title": "Per-shot submodels are windows of the big model", "statement": "The submodel extracted for a shot has at each of its points the value of the big model at the point shifted by the cut position, and extraction never leaves the big model.", "quantifier": "every model size, window size and cut position with the window inside the model", "why_tests_cant": "All geometries.", "anchors": ["src/Modelparameter/Modelparameter.cpp: getShrinkMatrix 152-172"]}
{"id": "C58", "title": "Snapshots are written exactly at the requested times", "statement": "With valid first, last and increment times the snapshots taken during a run are exactly the time steps first, first+inc, ... not beyond last.", "quantifier": "every first, last, increment and number of steps", "why_tests_cant": "All integer parameters, including increment zero.", "anchors": ["src/Simulation.cpp 460-475", "src/Common/Common.hpp: time2index 239-243"]}
{"id": "C59", "title": "Equation type names select the right physics case-insensitively", "statement": "checkEquationType accepts exactly the nine supported names in any letter case, and tells seismic from electromagnetic ones correctly.", "quantifier": "every string", "why_tests_cant": "All strings.", "anchors": ["src/Common/Common.hpp: checkEquationType 248-265"]}
{"id": "C60", "title": "Receiver types in use are listed without repetition", "statement": "The list of unique receiver types built for whole-space receivers contains each type in use exactly once.", "quantifier": "every list of receiver types", "why_tests_cant": "Needs at least three receivers of alternating type.", "anchors": ["src/Acquisition/Receivers.cpp: initWholeSpace 161-190"]}
{"id": "C61", "title": "Exact PML rule for every model thickness", "statement": "In each direction a point gets the CPML profile value of its distance to the nearer end of its grid line (in whole cells of its layer, with the staggered half-cell offset) if that distance is smaller than the frame width in cells, and zero coefficients otherwise; with a free surface the y-direction additionally gets zero coefficients in the whole top part of the frame, even where the bottom frame overlaps it. Points with zero coefficients are left unchanged by the PML in every time step, whatever the history.", "quantifier": "every regular or layered grid, boundary width, free-surface flag, PML parameters, point and input history", "why_tests_cant": "Quantified over geometry, real parameters and history.", "anchors": ["src/ForwardSolver/BoundaryCondition/CPML2DAcoustic.cpp: init 106-210", "src/ForwardSolver/BoundaryCondition/CPML3D.cpp: init", "src/ForwardSolver/BoundaryCondition/CPML.cpp: 39-95"]}
{"id": "C62", "title": "Exact rule of the damping frame under a free surface", "statement": "With a free surface a point is damped exactly if it is closer than BoundaryWidth to the left or right edge (front or back edge in 3-D), or if it lies below the first BoundaryWidth rows and is closer than BoundaryWidth to the bottom; its factor is (1-D/100)^(((BW-m)/BW)^2) for the smallest such distance m.", "quantifier": "every regular or layered grid, width > 0, 0<D<100, point", "why_tests_cant": "The rule has corner cases (thin models, corners) for every size.", "anchors": ["src/ForwardSolver/BoundaryCondition/ABS2D.cpp: init 110-178", "src/ForwardSolver/BoundaryCondition/ABS3D.cpp: init 154-218"]}
{"id": "C63", "title": "Exact rule of per-shot windows", "statement": "Cutting the sources (or receivers) to a shot window raises an error or returns the same entries in window coordinates with x and y outside the boundary frame; z is also outside the frame whenever the window is thicker than two boundary widths, and untested otherwise.", "quantifier": "every list, window size, boundary width and cut position", "why_tests_cant": "Quantified over all positions and window sizes.", "anchors": ["src/Acquisition/AcquisitionSettings.hpp: getSettingsPerShot 135-183"]}
{"id": "C64", "title": "Ranks per shot domain, for the number of domains in use", "statement": "With d = min(NumShotDomains, number of ranks), getShotDomain raises an error exactly if d does not divide the number of ranks; otherwise domain k gets the consecutive ranks k*np .. (k+1)*np-1 with np = ranks/d.", "quantifier": "every communicator size and configured number of domains", "why_tests_cant": "Needs every communicator size.", "anchors": ["src/Partitioning/Partitioning.hpp: getShotDomain 43-81", "src/Common/Common.hpp: checkNumShotDomains 465-471"]}
{"id": "C65", "title": "Exact behaviour of random shot selection", "statement": "Mode 1 returns distinct valid shots that were below the usage limit and counts them in the history; it terminates for every random sequence that hits every shot again and again if enough shots are below the limit. Mode 2 always returns valid shots, distinct exactly if the number of domains is at most N/gcd(step,N) with step = ceil(N/domains). Mode 3 always returns valid shots, distinct exactly if there are at most N domains.", "quantifier": "every number of shots, domains, history, limit and random sequence", "why_tests_cant": "Random sequences and number-theoretic conditions.", "anchors": ["src/Acquisition/AcquisitionSettings.hpp: getRandomShotInds 436-483"]}
{"id": "C66", "title": "Exact behaviour of supershot encoding", "statement": "Every mode puts every shot into exactly one supershot and respects the capacity ceil(n/domains). Modes 1 and 2 leave no supershot empty if there are at least as many shots as domains; mode 3 leaves none empty exactly if (domains-1)*capacity < n. Mode 1 terminates for every random sequence that hits every supershot again and again.", "quantifier": "every number of shots and domains and every random sequence", "why_tests_cant": "Random sequences and all sizes.", "anchors": ["src/Acquisition/Sources.cpp: calcSourceSettingsEncode 569-683"]}
{"id": "C67", "title": "Shot thinning on ordered source lines", "statement": "Whenever shot thinning returns, it returns an ordered subset of the shots starting at the first one. It terminates on source lines with non-decreasing positions whose gaps do not exceed the increment. On a line with constant spacing s and increment m*s it keeps exactly every m-th shot.", "quantifier": "every source line of this kind and every increment above the grid spacing", "why_tests_cant": "Loop termination for all inputs.", "anchors": ["src/Acquisition/Sources.cpp: getAcquisitionSettings 500-560"]}
{"id": "C68", "title": "Polarity follows the truncated amplitude", "statement": "When source signals are read from file the trace is multiplied by +1 if the amplitude is at least 1 and by -1 otherwise.", "quantifier": "every amplitude value and trace", "why_tests_cant": "Quantified over all amplitudes.", "anchors": ["src/Acquisition/Sources.cpp: init 16-46, copySignalsToSeismogramHandler 354-387"]}
{"id": "C69", "title": "What integrateTraces and differentiateTraces compute", "statement": "Integration gives sample 0 plus DT times the sum of the samples 1..j. Differentiation gives the sequence d with d_0 = y_0 and d_{j+1}*DT + d_j = y_{j+1}; after integration the third sample is restored only if y_0 + y_1*DT = y_1.", "quantifier": "every trace length, sample values and non-zero DT", "why_tests_cant": "All traces.", "anchors": ["src/Acquisition/Seismogram.cpp: integrateTraces 475-487, differentiateTraces 495-507"]}
{"id": "C70", "title": "Gain control of traces with at least two samples", "statement": "getAGCSum yields at sample t the mean of the l2-normalised samples t-N..t+N-1 that exist, N = min(NAGC, NT/2); calcInverseAGC yields 1/sqrt of the mean of squares plus water level over the same window.", "quantifier": "every trace of at least two samples, window length >= 1", "why_tests_cant": "All traces and window lengths.", "anchors": ["src/Acquisition/Seismogram.cpp: getAGCSum 268-316, calcInverseAGC 323-387"]}
{"id": "C71", "title": "What isFinite detects", "statement": "The finiteness check returns false exactly if one of the local traces other than the last one has a non-finite last sample.", "quantifier": "every number of traces and samples and position of the invalid one", "why_tests_cant": "All sizes.", "anchors": ["src/Acquisition/Seismogram.cpp: isFinite 529-539"]}
{"id": "C72", "title": "SU round trip up to 65535 samples", "statement": "For traces of at most 65535 samples reading trace k alone gives trace k and reading the headers gives one header per trace, in order; reading all traces works for every length, independently of the numbers of writing and reading processes.", "quantifier": "every number of traces, every sample values", "why_tests_cant": "All sizes and contents.", "anchors": ["src/IO/SUIO.hpp: writeSU 156-269, readDataSU 280-340, readSingleDataSU 350-372, readHeaderSU 380-405"]}
{"id": "C73", "title": "Which SU coordinates survive", "statement": "For every grid spacing above one millimetre source coordinates are recovered exactly; a receiver coordinate is recovered exactly if and only if rounding to millimetres did not go down, in particular if the grid spacing is a whole number of millimetres.", "quantifier": "every grid spacing above one millimetre, every coordinate that fits into 32 bits in millimetres", "why_tests_cant": "All spacings and coordinates.", "anchors": ["src/IO/SUIO.hpp: 220-246", "src/Acquisition/suHandler.cpp: 60-117"]}
{"id": "C74", "title": "Exact rule for configuration values", "statement": "Each definition (a line of a file read with or without overwriting, or an added value) replaces the value of its name if overwriting is on and otherwise only sets it if the name is unknown; the only exception is NZ, which becomes 1 in a file after a line that defines DIMENSION as 2D padded with blanks to 16 characters. Names are compared independent of letter case; the listing holds each name once in order of first definition; asking for an unknown name is an error or yields the default.", "quantifier": "every history of reads and additions, every name without '#' and '='", "why_tests_cant": "All file contents and histories.", "anchors": ["src/Configuration/Configuration.cpp 15-102", "src/Configuration/Configuration.hpp 63-143"]}
{"id": "C75", "title": "Comments do not matter for proper names", "statement": "For every name without '#' the value read from a file is the value read from the file with the comments removed; a line starting with '#' or without '=' has no effect at all.", "quantifier": "every file content and every prior configuration", "why_tests_cant": "All contents.", "anchors": ["src/Configuration/Configuration.cpp: readFromFile 44-90"]}
{"id": "C76", "title": "The stability criterion actually applied", "statement": "checkStabilityCriterion accepts exactly if the dimension is 2D or 3D, the order is one of 2,4,...,12 and dt*sqrt(dim)*vmax <= dh (or vmax is 0), whatever the order; otherwise it throws.", "quantifier": "every order, dimension text, spacing, velocity and time step", "why_tests_cant": "Real-valued inputs.", "anchors": ["src/CheckParameter/CheckParameter.hpp: checkStabilityCriterion 60-113"]}
{"id": "C77", "title": "The model check covers every point of every layer", "statement": "checkNumericalArtefactsAndInstabilities accepts exactly if every grid point of every process fulfils dt*sqrt(dim)*v <= spacing of its layer and, for (visco)elastic equations, vp/vs >= sqrt(2); the dispersion warning of a layer is given exactly if the spacing exceeds v/(2 fc N) for a point of the layer with positive velocity (or for 3e8 m/s).", "quantifier": "every grid, distribution of points over processes, velocity field, source frequencies, orders per layer", "why_tests_cant": "All models and distributions.", "anchors": ["src/CheckParameter/CheckParameter.hpp: 121-250"]}
{"id": "C78", "title": "The model check does not depend on the letter case of the equation type", "statement": "Two spellings of an equation type that differ only in letter case lead to the same result of checkNumericalArtefactsAndInstabilities.", "quantifier": "every spelling", "why_tests_cant": "All spellings and models.", "anchors": ["src/CheckParameter/CheckParameter.hpp: 165-218", "src/Common/Common.hpp: checkEquationType 248-265"]}
{"id": "C79", "title": "Exact content of the list of receiver types", "statement": "uniqueReceiverTypes returns the first type followed by the whole rest of the list from its first change on; the result lists every type exactly once iff that rest contains no repetition and not the first type; an empty list is an out-of-range read.", "quantifier": "every list of receiver types", "why_tests_cant": "All lists.", "anchors": ["src/Common/Common.hpp: uniqueReceiverTypes"]}
{"id": "C80", "title": "Phase residuals are shifted by the best whole number of turns", "statement": "The residual returned is the given residual shifted by a whole number of turns such that its norm is minimal among all such shifts; for an empty trace the search does not end.", "quantifier": "every residual trace", "why_tests_cant": "All real sequences.", "anchors": ["src/Common/Common.hpp: phase residual"]}
{"id": "C81", "title": "replaceInvalid replaces exactly the invalid values", "statement": "Every entry that is not finite becomes the replacement value and every other entry stays.", "quantifier": "every vector", "why_tests_cant": "All vectors.", "anchors": ["src/Common/Common.hpp: replaceInvalid"]}
{"id": "C82", "title": "Exact condition for the filter to keep the signal", "statement": "The padded length is the smallest power of two not below nt-1; the all-pass filter returns the signal unchanged unless nt = 1 or nt-1 is a power of two, in which case exactly the last sample is set to zero.", "quantifier": "every number of samples and every signal", "why_tests_cant": "All signals.", "anchors": ["src/Filter/Filter.cpp: init, apply", "src/Common/Common.hpp: calcNextPowTwo"]}
{"id": "C83", "title": "The Hilbert transform yields the analytic signal and the envelope its magnitude", "statement": "The signal returned has the given signal as real part and no negative frequencies; a cosine becomes the complex exponential and has envelope one; for one sample the code leaves its array.", "quantifier": "every signal, every cosine below half the sampling rate", "why_tests_cant": "All signals.", "anchors": ["src/Common/HilbertFFT.cpp", "src/Common/Common.hpp: calcEnvelope"]}
{"id": "C84", "title": "The instantaneous phase as computed only tells the sign", "statement": "calcInstantaneousPhase returns -pi/4, 3pi/4 or 0 according to the sign of each sample (its Hilbert transform is commented out), which is not the argument of the analytic signal.", "quantifier": "every signal", "why_tests_cant": "All signals.", "anchors": ["src/Common/Common.hpp: calcInstantaneousPhase 285-310"]}
{"id": "C85", "title": "The 1-D median filter takes five samples with mirrored ends", "statement": "Each output sample is the median of the five samples around it with the ends mirrored, whatever kernel size is given; a single sample is kept.", "quantifier": "every signal with at least two samples, every kernel size", "why_tests_cant": "All signals.", "anchors": ["src/Common/Common.hpp: medianfilter1D"]}
{"id": "C86", "title": "Averages use exactly the corners of the staggered cell, clipped at the model end", "statement": "On a regular grid the row of each averaging matrix (X, Y, Z, XY, XZ, YZ) at a point is the uniform average over the corners of the cell spanned from that point in the direction(s) of the matrix, where directions in which the model ends at that point are left out.", "quantifier": "every grid size, every averaging matrix, every point", "why_tests_cant": "All sizes, edges and corners.", "anchors": ["src/Modelparameter/Modelparameter.cpp: calcAverageMatrixX 336, Y 373, Z 416, calc4PointAverageMatrixRow 449-526"]}
{"id": "C87", "title": "Every derived parameter returned is current up to the lower limit on the shear modulus", "statement": "After any sequence of setting, adding, subtracting, scaling, assigning, copying, thresholding, preparing and reading, in each of the five seismic classes: a P modulus returned is that of the current parameters (with relaxation in the viscoelastic classes); a shear modulus returned is that of the current parameters or this raised to at least 1; an inverse density is that of the current density; an average returned is empty (never computed) or the one of the current parameters with the matrix of its staggered position. Each operation changes exactly the parameters it names.", "quantifier": "every sequence of operations, every class, every grid", "why_tests_cant": "Ranges over operation histories.", "anchors": ["src/Modelparameter/ModelparameterSeismic.cpp 24-41, 131-375, 421-620", "src/Modelparameter/Elastic.cpp, Acoustic.cpp, SH.cpp, ViscoSH.cpp, Viscoelastic.cpp: prepareForModelling, calculateAveraging, operators, copy constructors"]}
{"id": "C88", "title": "Preparation makes every derived parameter available", "statement": "After prepareForModelling on parameter vectors of the size of the grid every derived parameter the class has can be read without recomputation and belongs to the current parameters.", "quantifier": "every history of operations, every regular grid, every class", "why_tests_cant": "Ranges over operation histories.", "anchors": ["src/Modelparameter/Elastic.cpp: prepareForModelling 28-45 and the other classes"]}
{"id": "C89", "title": "Re-initialising a parameter object keeps derived parameters computed before", "statement": "init with new values marks nothing as out of date: a modulus or average computed before is returned unchanged for the new velocities and density.", "quantifier": "every object state and every new value", "why_tests_cant": "Depends on the history.", "anchors": ["src/Modelparameter/Viscoelastic.cpp: init 232-243", "src/Modelparameter/Modelparameter.cpp: initModelparameter 239-262"]}
{"id": "C90", "title": "Thresholds are respected", "statement": "After applyThresholds with lower thresholds not above the upper ones, every velocity and density lies within its thresholds, except that zero velocities stay zero and the density is zero where the leading velocity is zero. A value below its interval becomes the lower threshold, one above the upper threshold (the P velocity after it was limited to the ratios times the S velocity).", "quantifier": "every model, every class, every thresholds", "why_tests_cant": "All fields and thresholds.", "anchors": ["src/Modelparameter/Elastic.cpp: applyThresholds 51-96 and the other classes"]}
{"id": "C91", "title": "Thresholds leave admissible points alone, except fluids", "statement": "A point whose velocities, density and velocity ratio are within the thresholds is unchanged by applyThresholds. A fluid point (zero shear velocity) of the elastic and viscoelastic classes gets the lower threshold as P velocity whatever its P velocity was.", "quantifier": "every model and thresholds", "why_tests_cant": "All fields and thresholds.", "anchors": ["src/Modelparameter/Elastic.cpp: applyThresholds 51-96", "src/Common/Common.hpp: replaceVpwithVs 148-181"]}
{"id": "C92", "title": "Per-shot models are windows except for the relaxation mechanisms", "statement": "The per-shot model holds the windows of the velocities, density and attenuation of the big model. In the classes without attenuation its moduli are the windows of the moduli of the big model; in the viscoelastic class the relaxation mechanisms are not handed over and its moduli are the unrelaxed ones.", "quantifier": "every model size, window and parameters", "why_tests_cant": "All geometries and fields.", "anchors": ["src/Modelparameter/Viscoelastic.cpp: getModelPerShot 103-145", "src/Simulation.cpp 289, 396-400"]}
{"id": "C93", "title": "A time step of the elastic and acoustic solvers is the staggered-grid scheme of the wave equation", "statement": "On grids of uniform spacing one run of the 2-D and 3-D elastic, SH and acoustic solvers maps the fields at one time step to those given by the staggered-grid discretisation: velocities advance by the inverse density times the divergence of the stress (free surface matrices in depth with the image method), stresses by Hooke's law with the gradient of the new velocities, the vertical strain at free surface points is the one that keeps the normal stress zero and the normal stress is zero there, derivatives are the stretched ones of the PML whose memories advance by the recursion, and the damping frame multiplies the result.", "quantifier": "every field, every matrices and parameters, every grid, every choice of PML, damping and free surface", "why_tests_cant": "Ranges over all fields and parameters.", "anchors": ["src/ForwardSolver/ForwardSolver2Delastic.cpp: run", "src/ForwardSolver/ForwardSolver3Delastic.cpp: run", "src/ForwardSolver/ForwardSolver2Dsh.cpp: run", "src/ForwardSolver/ForwardSolver2Dacoustic.cpp: run", "src/ForwardSolver/ForwardSolver3Dacoustic.cpp: run", "src/ForwardSolver/BoundaryCondition/FreeSurfaceElastic.cpp, FreeSurface2Delastic.cpp, FreeSurface3Delastic.cpp"]}
{"id": "C94", "title": "A time step of the viscoelastic solvers is the staggered-grid scheme for standard linear solids", "statement": "On grids of uniform spacing, with FreeSurface 0 or 1 in 2-D, one run of the viscoelastic and viscoelastic SH solvers advances the velocities as in the elastic case, the stresses by Hooke's law with the unrelaxed moduli plus the time step times the mean of old and new relaxation variables, and each relaxation variable by the centred scheme of tau R' = - R - (Hooke's law with the relaxation moduli); at free surface points the vertical strain is the one that keeps the normal stress zero, and normal stress and its relaxation variables are zero. The unrelaxed modulus of a shear stress is the averaged modulus times one plus L times tauS of the full point, not of the averaged tauS.  With FreeSurface = 2 the 2-D solver uses free surface vectors that have not been set.", "quantifier": "every field, every number of mechanisms, every matrices and parameters, every grid, every choice of PML and damping", "why_tests_cant": "Ranges over all fields, parameters and numbers of mechanisms.", "anchors": ["src/ForwardSolver/ForwardSolver2Dviscoelastic.cpp: run", "src/ForwardSolver/ForwardSolver3Dviscoelastic.cpp: run", "src/ForwardSolver/ForwardSolver2Dviscosh.cpp: run", "src/ForwardSolver/BoundaryCondition/FreeSurfaceViscoelastic.cpp"]}
{"id": "C95", "title": "A time step of the electromagnetic solvers is Yee's scheme with Debye relaxation", "statement": "On grids of uniform spacing one run of the six electromagnetic solvers advances the magnetic field by the curl of the electric field over mu, the electric field by the centred scheme of eps E' + sigma E = curl H - sum of relaxation currents (optical eps and sigma in the relaxing case), the relaxation currents by the centred scheme of tau r' = - r - g E, the PML memories by their recursion, and applies the damping frame. In the 3-D solvers this holds if the PML coefficients in x of half and full points agree; the memory of d hY / d x is advanced with those of the half points.", "quantifier": "every field, every number of mechanisms, every matrices and parameters, every choice of PML and damping", "why_tests_cant": "Ranges over all fields, parameters and numbers of mechanisms.", "anchors": ["src/ForwardSolverEM/ForwardSolver2Demem.cpp: run", "src/ForwardSolverEM/ForwardSolver2Dtmem.cpp: run", "src/ForwardSolverEM/ForwardSolver3Demem.cpp: run", "src/ForwardSolverEM/ForwardSolver2Dviscoemem.cpp: run", "src/ForwardSolverEM/ForwardSolver2Dviscotmem.cpp: run", "src/ForwardSolverEM/ForwardSolver3Dviscoemem.cpp: run", "src/ForwardSolverEM/BoundaryCondition/CPMLEM3D.cpp: apply_hyx"]}
{"id": "C96", "title": "Source signals over the whole time axis are the samples of their wavelet", "statement": "For a positive number of samples, time step and centre frequency the signals Ricker, FGaussian, Ricker_GprMax and Sin hold the amplitude times their wavelet at the times 0, DT, ..., (NT-1)DT, delayed by 1.5/FC, 1.2/FC, 1/FC and 0 plus Tshift. Berlage holds its causal wavelet scaled so that its largest magnitude is the amplitude, and not-a-number if all its samples vanish. Every class but Spike rejects other arguments.", "quantifier": "every NT, DT, FC, AMP, Tshift", "why_tests_cant": "Ranges over all real parameters.", "anchors": ["src/Acquisition/SourceSignal/Ricker.cpp", "src/Acquisition/SourceSignal/FGaussian.cpp", "src/Acquisition/SourceSignal/Ricker_GprMax.cpp", "src/Acquisition/SourceSignal/Sin.cpp", "src/Acquisition/SourceSignal/Berlage.cpp", "src/Acquisition/Sources.cpp: generateSyntheticSignal"]}
{"id": "C97", "title": "Source signals of one period lie between the time shift and one period later", "statement": "With a = floor(Tshift/DT) and m = floor(1/(FC DT)), SinThree, SinW and IntgSinThree throw if a is not below NT, write outside the vector if a is negative or a + m = NT, and otherwise hold the wavelet at the times (i-a)DT for a <= i <= a+m. Elsewhere SinThree and SinW are zero, and IntgSinThree is AMP 2/(3 pi FC), not zero. Spike is AMP at sample a and zero elsewhere.", "quantifier": "every NT, DT, FC, AMP, Tshift", "why_tests_cant": "Ranges over all real parameters; the write past the end needs one exact length.", "anchors": ["src/Acquisition/SourceSignal/SinThree.cpp", "src/Acquisition/SourceSignal/SinW.cpp", "src/Acquisition/SourceSignal/IntgSinThree.cpp", "src/Acquisition/SourceSignal/Spike.cpp"]}
{"id": "C98", "title": "Peak of the source signals", "statement": "No sample exceeds in magnitude |AMP| times: 1 for Ricker, SinThree, Sin, Spike and Berlage, 3 sqrt(3)/4 for SinW, sqrt(2/e) for FGaussian, 4/(3 pi FC) for IntgSinThree, 2 pi FC exp(1/(8 pi^2 FC^2) - 1/2) for Ricker_GprMax; the wavelets reach these values, so for the last four AMP is not the largest magnitude. Berlage reaches |AMP|.", "quantifier": "every NT, DT, FC, AMP, Tshift, every time", "why_tests_cant": "Suprema over real arguments.", "anchors": ["src/Acquisition/SourceSignal/*.cpp"]}
{"id": "C99", "title": "Relations between the source wavelets", "statement": "Ricker is the derivative of s exp(-(pi FC s)^2), FGaussian times pi FC and Ricker_GprMax are derivatives of a Gaussian, IntgSinThree is the integral of SinThree. Ricker is even, FGaussian and Ricker_GprMax are odd, SinThree is even and SinW odd about the middle of the period, Sin is periodic. SinThree and SinW vanish at both ends of the period, IntgSinThree at the start only.", "quantifier": "every positive FC, every time", "why_tests_cant": "Derivatives at all real points.", "anchors": ["src/Acquisition/SourceSignal/*.cpp"]}
{"id": "C100", "title": "Every source gets the signal it asks for, and the two kinds of signal files do not mix over all shots", "statement": "Generating the signals of the shots of a process one after the other gives every source the synthetic signal of its shape and parameters (type 1), row 0 (type 2) or its own row (type 3) of the signal file; it succeeds if and only if all these signals exist and there are not both sources of type 2 and of type 3, be it in different shots, since the flags are kept from shot to shot.", "quantifier": "every list of shots, every signal file", "why_tests_cant": "Ranges over all lists of sources.", "anchors": ["src/Acquisition/Sources.cpp: generateSignals", "src/Acquisition/Sources.hpp: wavelet_type_flag_2, wavelet_type_flag_3"]}
{"id": "C101", "title": "Electromagnetic velocity and averages belong to the current parameters", "statement": "After any history of setters, relaxation setters, scaling, addition, subtraction, assignment, copies, thresholds, petrophysics, preparations and queries, the velocity that an electromagnetic parameter object returns is 1/sqrt(eps mu) of its current permittivity (in the classes with relaxation the real effective one, at least that of vacuum) and permeability where this is a number and 0 elsewhere, and every averaged vector it returns is the average of the current parameter with the matrix of its place (arithmetic for conductivity, permittivity and relaxation times, inverse of the arithmetic mean for the inverse permeability). Every operation changes exactly the vectors it should: setters one vector, the arithmetic operators the vectors of the class pointwise.", "quantifier": "every class, grid, history", "why_tests_cant": "Ranges over all histories of operations.", "anchors": ["src/ModelparameterEM/ModelparameterEM.cpp", "src/ModelparameterEM/EMEM.cpp", "src/ModelparameterEM/TMEM.cpp", "src/ModelparameterEM/ViscoEMEM.cpp", "src/ModelparameterEM/ViscoTMEM.cpp"]}
{"id": "C102", "title": "A prepared electromagnetic model offers velocity and averages", "statement": "Whenever all vectors of an object have the size of the regular grid (and the relaxation mechanisms are set in the classes that need them), prepareForModelling succeeds in every state the object can reach, keeps the parameters, and afterwards the read-only getters of velocity and of every average of the class succeed and give the values of C101.", "quantifier": "every class, regular grid, history", "why_tests_cant": "Ranges over all histories.", "anchors": ["src/ModelparameterEM/EMEM.cpp", "src/ModelparameterEM/TMEM.cpp", "src/ModelparameterEM/ViscoEMEM.cpp", "src/ModelparameterEM/ViscoTMEM.cpp"]}
{"id": "C103", "title": "Re-initialising an electromagnetic parameter object leaves the flags as they were", "statement": "The initialisations (homogeneous or from files) do not mark the derived vectors as out of date: an object whose velocity and averages were computed before returns exactly the same vectors afterwards, whatever the new parameters are. In particular an object with eps = mu = 1 whose velocity was read, initialised with eps = 4, returns the velocity 1 although the new velocity is 1/2.", "quantifier": "every class, object, new values", "why_tests_cant": "Needs the same object to be initialised twice.", "anchors": ["src/ModelparameterEM/EMEM.cpp", "src/ModelparameterEM/TMEM.cpp", "src/ModelparameterEM/ViscoEMEM.cpp", "src/ModelparameterEM/ViscoTMEM.cpp"]}
{"id": "C104", "title": "Velocity and permittivity are converted into each other", "statement": "The conversion to velocity gives 1/sqrt(eps mu) where this is a number and 0 elsewhere. For positive permeability the conversion of non-negative velocities to permittivity and back is the identity, and for positive permittivity and permeability the conversion to velocity and back is the identity.", "quantifier": "every vector", "why_tests_cant": "Ranges over all real vectors.", "anchors": ["src/ModelparameterEM/ModelparameterEM.cpp: calcVelocityFromModulus, calcModulusFromVelocity"]}
{"id": "C105", "title": "Static and real effective electromagnetic values are converted into each other", "statement": "With relaxation frequencies f_l, centre frequency fc, A = mean of (fc/f)^2/(1+(fc/f)^2) and B = mean of 2 pi fc (fc/f)/(1+(fc/f)^2) the effective permittivity is max(eps0, eps (1 - A te) + sigma ts) and the effective conductivity max(0, sigma + B te eps). Where 1 - A te - B te ts is not zero the conversion back gives max(eps0, (e - s ts)/(1 - A te - B te ts)) and max(0, s - B te eps); both compositions are the identity at points where none of the values is limited. The results are never below vacuum or negative.", "quantifier": "every vector, every list of nonzero relaxation frequencies", "why_tests_cant": "Ranges over all real vectors and lists.", "anchors": ["src/ModelparameterEM/ModelparameterEM.cpp: getElectricConductivityRealEffective, getDielectricPermittivityRealEffective, getElectricConductivityStatic, getDielectricPermittivityStatic"]}
{"id": "C106", "title": "Writing and reading the electromagnetic parameters", "statement": "Writing the parameters of a class without relaxation to files and reading them into another object returns permeability, conductivity, permittivity exactly, and porosity, saturation, reflectivity exactly if they are written and zero otherwise. With relaxation the relaxation times are returned exactly, and permittivity and conductivity at every point where the effective and static values are not limited. A point with the permittivity of vacuum, no conductivity and relaxation strength 1/2 comes back with 4/3 of its permittivity.", "quantifier": "every class, object", "why_tests_cant": "Ranges over all real vectors.", "anchors": ["src/ModelparameterEM/EMEM.cpp", "src/ModelparameterEM/TMEM.cpp", "src/ModelparameterEM/ViscoEMEM.cpp", "src/ModelparameterEM/ViscoTMEM.cpp"]}
{"id": "C107", "title": "Thresholds of the electromagnetic classes without relaxation", "statement": "With ordered thresholds, applyThresholds limits the conductivity and the relative permittivity of every point that is not vacuum (relative permittivity exactly 1) to their intervals, leaves admissible values as they are, gives every vacuum point the permittivity of vacuum and conductivity zero, limits porosity, saturation and reflectivity where a threshold for them is set and makes them zero in vacuum. It throws if the porosity has another size than the permittivity.", "quantifier": "every vector, every ordered thresholds", "why_tests_cant": "Ranges over all real vectors.", "anchors": ["src/ModelparameterEM/EMEM.cpp", "src/ModelparameterEM/TMEM.cpp"]}
{"id": "C108", "title": "Thresholds of the electromagnetic classes with relaxation", "statement": "With ordered thresholds the limits are applied to the effective permittivity and conductivity, to the relaxation strength and to the relaxation time relative to 1/(2 pi fc); points whose effective permittivity is that of vacuum get it with conductivity and relaxation zero; the others get the static values that correspond to the limited effective values, limited to vacuum and zero again. For positive frequencies and non-negative strengths the static conductivity is then within [0, upper] and the permittivity not below vacuum. The effective conductivity however can exceed the upper threshold (conductivity 0, upper threshold 0, relaxation strength 1/2).", "quantifier": "every vector, every ordered thresholds, every list of nonzero relaxation frequencies", "why_tests_cant": "Ranges over all real vectors.", "anchors": ["src/ModelparameterEM/ViscoEMEM.cpp", "src/ModelparameterEM/ViscoTMEM.cpp"]}
{"id": "C109", "title": "Initialisation of the electromagnetic parameters", "statement": "The check of the relaxation mechanisms rejects a number below 1 and a first frequency that is not positive, and looks at nothing else. Without relaxation a homogeneous medium and files that hold the same constants give the same object. With relaxation the constants are static values while files hold effective values, so the same numbers give other media (relative permittivity 4 with strength 1/2 and one mechanism at the centre frequency gives 4 from constants and 16/3 from files). A later mechanism with frequency zero passes the check, makes every effective permittivity and conductivity not a number and the velocity zero everywhere.", "quantifier": "every class, constants, mechanisms", "why_tests_cant": "Ranges over all real constants and lists of frequencies.", "anchors": ["src/ModelparameterEM/EMEM.cpp", "src/ModelparameterEM/TMEM.cpp", "src/ModelparameterEM/ViscoEMEM.cpp", "src/ModelparameterEM/ViscoTMEM.cpp", "src/ModelparameterEM/ModelparameterEM.cpp"]}
{"id": "C110", "title": "Per-shot electromagnetic models are windows", "statement": "On regular grids the model of a shot holds, for every vector of the class (and the rock matrix if petrophysics is used), the window of the big vector at the shot's corner. Without relaxation the velocity of the small model is the window of the big velocity. With relaxation the mechanisms are not handed over, and the velocity computed from the small model is zero in every point.", "quantifier": "every class, window inside the grid, parameters", "why_tests_cant": "Ranges over all grids and vectors.", "anchors": ["src/ModelparameterEM/EMEM.cpp", "src/ModelparameterEM/TMEM.cpp", "src/ModelparameterEM/ViscoEMEM.cpp", "src/ModelparameterEM/ViscoTMEM.cpp", "src/Simulation.cpp"]}
{"id": "C111", "title": "Rock matrix and electromagnetic medium are converted into each other", "statement": "For porosity in (0,1) and positive saturation the rock matrix has the water conductivity max(0, a s / (phi^m S^n)) and the relative permittivity x^2 limited to [1,81], where x is the index of the matrix by the mixing law sqrt(e) = x (1-phi) + (9 S + 1 - S) phi. The medium computed from porosity, saturation and rock matrix has the permittivity of the mixing law limited to [1,81] and the conductivity max(0, w/a phi^m S^n); with relaxation these are the effective values, provided static values for them exist. Matrix and back is the identity if x is in [1,9]. A negative x is squared: half pores full of water with the permittivity of vacuum come back with 64 times that permittivity.", "quantifier": "every class, vector, Archie parameters", "why_tests_cant": "Ranges over all real vectors.", "anchors": ["src/ModelparameterEM/ModelparameterEM.cpp: calcRockMatrixParameter, calcWaveModulusFromPetrophysics"]}
{"id": "C112", "title": "Saturation and porosity are recovered from the electromagnetic medium", "statement": "If the permittivity of a point follows the mixing law with porosity phi, saturation S and matrix index r, the conversion to petrophysics returns S (in all modes but the exchange mode, and there in the even calls; phi not 0) or phi (in the odd calls of the exchange mode; index of the pores not r); where the division is by zero the result is 0. It changes nothing else and counts its calls. In particular, for porosity and saturation in (0,1] and matrix permittivity in [1,81], computing the medium and then the petrophysics leaves porosity and saturation as they were.", "quantifier": "every class, vector, mode and number of calls", "why_tests_cant": "Ranges over all real vectors and modes.", "anchors": ["src/ModelparameterEM/ModelparameterEM.cpp: calcPetrophysicsFromWaveModulus, calcWaveModulusFromPetrophysics"]}
{"id": "C113", "title": "Re-meshing converts three electromagnetic vectors only", "statement": "The conversion to a variable grid multiplies permeability, conductivity and permittivity with the matrix and leaves all other vectors as they were. If the numbers of points differ, thresholds cannot be applied afterwards (exception) and a ViscoTMEM model has no velocity (exception); a ViscoEMEM model is rejected.", "quantifier": "every class, matrix, parameters", "why_tests_cant": "Ranges over all matrices and vectors.", "anchors": ["src/ModelparameterEM/EMEM.cpp", "src/ModelparameterEM/TMEM.cpp", "src/ModelparameterEM/ViscoEMEM.cpp", "src/ModelparameterEM/ViscoTMEM.cpp"]}
{"id": "C114", "title": "The smallest velocity ignores values up to 1", "statement": "getVmin returns the smallest velocity above 1 if there is a velocity above 1, and otherwise the largest velocity.", "quantifier": "every non-empty velocity vector", "why_tests_cant": "Ranges over all real vectors.", "anchors": ["src/Modelparameter/Modelparameter.cpp:104-124"]}
{"id": "C115", "title": "Arithmetic of wavefield objects", "statement": "For two objects of the same class and size, += and -= add and subtract every member vector and every memory variable point by point; *= with a number and with a vector scales every one of them (by the number, by the vector's value in that point); assignment copies every one of them; applyTransform multiplies every one of them by the matrix. No member of a class is left out and nothing else of the object changes, in particular not the number of mechanisms.", "quantifier": "all 14 classes, sizes, numbers of mechanisms, values", "why_tests_cant": "Ranges over all contents; a forgotten member of one class shows only in runs that use it.", "anchors": ["src/Wavefields/Wavefields*.cpp: assign, plusAssign, minusAssign, timesAssign, applyTransform", "src/WavefieldsEM/Wavefields*.cpp: assign, plusAssign, minusAssign, timesAssign, applyTransform", "src/Wavefields/Wavefields.cpp"]}
{"id": "C116", "title": "Initialisation and reset of wavefield objects", "statement": "After init an object holds zeros of the right size in every member and memory variable, whatever it held before. A reset zeroes every propagated field and every memory variable, keeps the sizes, and leaves the directional parts (only 2D acoustic and 2D TM have them) as they were; so the claim that a reset clears the whole object is false for these two.", "quantifier": "all classes, sizes, earlier contents", "why_tests_cant": "Ranges over all earlier contents.", "anchors": ["src/Wavefields/Wavefields*.cpp: init, resetWavefields", "src/WavefieldsEM/Wavefields*.cpp: init, resetWavefields"]}
{"id": "C117", "title": "Products of wavefield objects", "statement": "wavefield * number returns a new object with every member scaled, without memory variables. For every class with memory variables except 3D viscoelastic it is undefined if there is a mechanism, because it writes into empty vectors. The *= of a class, called on an object of that class, computes this product and leaves the object unchanged.", "quantifier": "all classes, sizes, mechanisms, factors", "why_tests_cant": "The undefined case depends on a default constructed result object.", "anchors": ["src/Wavefields/Wavefields*.cpp: operator*, operator*=", "src/WavefieldsEM/Wavefields*.cpp: operator*, operator*="]}
{"id": "C118", "title": "Time derivative for the decomposition", "statement": "The auxiliary object of the time loop, assigned before a step, minus the new wavefield, times -1/DT, holds (new - old)/DT in every member. Its memory variables are those of the old wavefield, because the auxiliary object was never initialised and counts no mechanisms.", "quantifier": "all classes, sizes, values, DT other than zero", "why_tests_cant": "Ranges over all wavefields.", "anchors": ["src/Simulation.cpp: lines 327, 450, 458-459"]}
{"id": "C119", "title": "Decomposition into directions", "statement": "In 2D acoustic and 2D TM wavefields decomposition 1 splits the fields into up and down, 2 into left and right. In a point the field goes to the negative part if the sum of the energy flux and the scaled second flux is negative, to the positive part if it is positive, to both if it is zero. Hence the two parts add up to the field exactly where the sum is not zero; where it is zero they add up to twice the field. If the second flux vanishes everywhere both parts depend on the sign of not-a-number. Nothing else changes; all other classes and types do nothing.", "quantifier": "both classes, types, sizes, fields, derivative matrices", "why_tests_cant": "Ranges over all real fields.", "anchors": ["src/Wavefields/Wavefields2Dacoustic.cpp: decompose", "src/WavefieldsEM/Wavefields2Dtmem.cpp: decompose"]}
{"id": "C120", "title": "Files of a snapshot", "statement": "Snapshot types 1 and 2 together write every propagated field and every memory variable (under its name followed by the number of the mechanism), the velocities and magnetic fields with type 1, the rest with type 2, no label twice. File names of different labels or time steps differ. Type 3 writes in 2D the signed curl and divergence, in 3D their magnitudes, times the square root of a model vector (3D visco-EM uses the conductivity for the divergence where all other electromagnetic classes use the velocity); the acoustic, SH and 2D TE classes reject it. Types 0, 4, 5 are accepted only by the two classes with directional parts; 4 and 5 write the field and its two parts. All other types throw. A decomposition selects type 4 or 5, so for the other classes the snapshot throws although their decompose does nothing.", "quantifier": "all classes, types, sizes, base names, time steps", "why_tests_cant": "Ranges over all strings, numbers of mechanisms and matrices.", "anchors": ["src/Wavefields/Wavefields*.cpp: write, getCurl, getDiv", "src/WavefieldsEM/Wavefields*.cpp: write, getCurl, getDiv", "src/Simulation.cpp: lines 314-322, 466-475"]}
{"id": "C121", "title": "The check for invalid values", "statement": "isFinite of an electromagnetic wavefield holds exactly if all values of EX and EZ (as far as allocated) are numbers. Of a seismic wavefield it looks only at the value in the middle of VX and VZ. So a wavefield with a not-a-number in HX, in another point of VX, or in a stress passes.", "quantifier": "all classes, sizes, contents", "why_tests_cant": "Ranges over all positions of the invalid value.", "anchors": ["src/Wavefields/WavefieldsSeismic.cpp: isFinite", "src/WavefieldsEM/WavefieldsEM.cpp: isFinite"]}
{"id": "C122", "title": "Memory estimate of the wavefields", "statement": "The estimate is the number of points times the bytes per value times the number of vectors that an initialised object holds, in MB, for every class without directional parts. 2D acoustic and 2D TM objects hold 15 and 7 vectors while the estimate counts 3.", "quantifier": "all classes, sizes, mechanisms", "why_tests_cant": "Counts vectors for all numbers of mechanisms.", "anchors": ["src/Wavefields/Wavefields.cpp: getMemoryUsage", "src/Wavefields/Wavefields*.cpp: estimateMemory", "src/WavefieldsEM/Wavefields*.cpp: estimateMemory"]}
{"id": "C123", "title": "Compensation of damping", "statement": "The compensation for t steps is exp(sigma/epsilon t DT) in every point with non-zero permittivity. Multiplying a value once per step for t steps by the compensation of one step is multiplying it by that of t steps. With non-negative conductivity it is at least 1 and it undoes the damping exp(-sigma/epsilon t DT). Seismic models throw.", "quantifier": "all vectors, DT, t", "why_tests_cant": "Ranges over all real vectors and numbers of steps.", "anchors": ["src/Modelparameter/Modelparameter.cpp: getCompensation"]}
{"id": "C124", "title": "Reordering matrix", "statement": "On a regular grid the matrix takes a vector ordered with y fastest, then x, then z to the order of the grid points: the value of point (x,y,z) is read from position y + x NY + z NX NY. Its transpose undoes it, in both orders.", "quantifier": "all NX, NY, NZ, vectors", "why_tests_cant": "Ranges over all grid sizes.", "anchors": ["src/Wavefields/Wavefields.cpp: calcTransformMatrixXYZ"]}
{"id": "C125", "title": "Pore fluid and Biot coefficient", "statement": "Biot's coefficient is porosity/0.4 cut at 0 and 1 in every point. For every saturation between 0 and 1 the bulk modulus of the pore fluid averages compressibilities: it is that of air for saturation 0, that of water for 1, and grows with the saturation. For porosity and saturation between 0 and 1 the pore modulus M satisfies 1/M = porosity/Kf + (b - porosity)/Kma where porosity and grain modulus are positive and is 0 where one of them is 0.", "quantifier": "all vectors, sizes, porosities, saturations", "why_tests_cant": "Ranges over all real porosities and saturations including the division by zero cases.", "anchors": ["src/Modelparameter/ModelparameterSeismic.cpp: getBiotCoefficient, getBulkModulusKf, getBulkModulusM"]}
{"id": "C126", "title": "Rock matrix from a medium", "statement": "calcRockMatrixParameter of the four classes with shear waves succeeds on vectors of one size, changes no velocity, density, porosity, saturation or reflectivity and, in every point with porosity below 0.4 and a density of at least that of the pore fluid, gives grains whose density, shear modulus and bulk modulus make up the medium under Gassmann's relations, with rho (vp^2 - vs^2) taken as bulk modulus of the medium.", "quantifier": "all four classes, vectors, points", "why_tests_cant": "Ranges over all real vectors.", "anchors": ["src/Modelparameter/SH.cpp: calcRockMatrixParameter", "src/Modelparameter/Elastic.cpp: calcRockMatrixParameter", "src/Modelparameter/ViscoSH.cpp: calcRockMatrixParameter", "src/Modelparameter/Viscoelastic.cpp: calcRockMatrixParameter"]}
{"id": "C127", "title": "Medium from petrophysics", "statement": "calcWaveModulusFromPetrophysics of the four classes with shear waves succeeds on vectors of one size and gives in every point the density (1 - porosity) rho_ma + porosity rho_fluid, shear velocity with rho vs^2 = (1 - b) mu_ma, and P-wave velocity with rho (vp^2 - vs^2) equal to Gassmann's bulk modulus. Velocities are never negative and are 0 where the density is 0.", "quantifier": "all four classes, vectors, points", "why_tests_cant": "Ranges over all real vectors.", "anchors": ["src/Modelparameter/SH.cpp: calcWaveModulusFromPetrophysics", "src/Modelparameter/Elastic.cpp: calcWaveModulusFromPetrophysics", "src/Modelparameter/ViscoSH.cpp: calcWaveModulusFromPetrophysics", "src/Modelparameter/Viscoelastic.cpp: calcWaveModulusFromPetrophysics"]}
{"id": "C128", "title": "Rock matrix and back", "statement": "Computing the rock matrix of a model and then the medium from it gives back density and velocities in every point with porosity below 0.4, saturation in [0,1], positive density of at least that of the pore fluid and vs <= vp.", "quantifier": "all four classes, vectors, points", "why_tests_cant": "A round trip for all real vectors.", "anchors": ["src/Modelparameter/SH.cpp: calcRockMatrixParameter, calcWaveModulusFromPetrophysics", "src/Modelparameter/Elastic.cpp: calcRockMatrixParameter, calcWaveModulusFromPetrophysics", "src/Modelparameter/ViscoSH.cpp: calcRockMatrixParameter, calcWaveModulusFromPetrophysics", "src/Modelparameter/Viscoelastic.cpp: calcRockMatrixParameter, calcWaveModulusFromPetrophysics"]}
{"id": "C129", "title": "Porosity from a medium", "statement": "calcPetrophysicsFromWaveModulus sets the porosity to 0.4 (1 - mu/mu_ma), to 0 where mu_ma is 0, and changes nothing else. After calcWaveModulusFromPetrophysics it gives the porosity back, cut at 0 and 0.4.", "quantifier": "all four classes, vectors, points with positive grain shear modulus and density", "why_tests_cant": "A round trip for all real vectors.", "anchors": ["src/Modelparameter/SH.cpp: calcPetrophysicsFromWaveModulus", "src/Modelparameter/Elastic.cpp: calcPetrophysicsFromWaveModulus", "src/Modelparameter/ViscoSH.cpp: calcPetrophysicsFromWaveModulus", "src/Modelparameter/Viscoelastic.cpp: calcPetrophysicsFromWaveModulus"]}
{"id": "C130", "title": "Porosity above the critical one", "statement": "At and above porosity 0.4 calcRockMatrixParameter sets the moduli of the rock matrix to 0 whatever the rest of the model holds.", "quantifier": "all four classes, vectors, points", "why_tests_cant": "Ranges over all real vectors.", "anchors": ["src/Modelparameter/SH.cpp: calcRockMatrixParameter", "src/Modelparameter/Elastic.cpp: calcRockMatrixParameter", "src/Modelparameter/ViscoSH.cpp: calcRockMatrixParameter", "src/Modelparameter/Viscoelastic.cpp: calcRockMatrixParameter"]}
{"id": "C131", "title": "P-wave velocity from petrophysics is too small", "statement": "Because 4 / 3 is an integer division, the P-wave velocity is sqrt((K + mu)/rho), strictly smaller than sqrt((K + 4/3 mu)/rho) of the medium wherever the grains have shear strength and the porosity is below 0.4.", "quantifier": "both elastic classes, vectors, points", "why_tests_cant": "Ranges over all real vectors.", "anchors": ["src/Modelparameter/Elastic.cpp: calcWaveModulusFromPetrophysics", "src/Modelparameter/Viscoelastic.cpp: calcWaveModulusFromPetrophysics"]}
{"id": "C132", "title": "Rock matrix of a prepared model", "statement": "In the classes without relaxation the rock matrix uses the stored shear modulus. In a prepared object this is max(1, rho vs^2), so that (1 - b) mu_ma = max(1, rho vs^2): the result depends on whether the object was prepared before.", "quantifier": "SH and elastic, all operation sequences, points", "why_tests_cant": "Ranges over all operation sequences and vectors.", "anchors": ["src/Modelparameter/SH.cpp: calcRockMatrixParameter, prepareForModelling", "src/Modelparameter/Elastic.cpp: calcRockMatrixParameter, prepareForModelling"]}
{"id": "C133", "title": "Petrophysics in the acoustic class and in the preparation", "statement": "The three conversions of the acoustic class do nothing. With a petrophysical parameterisation prepareForModelling of the classes with P-waves throws if the rock matrix does not have the size of the porosity, so always for an acoustic object without rock matrix and a non-empty model. With vectors of one size it succeeds whenever the rest of the preparation does and changes nothing else.", "quantifier": "all classes, grids, objects", "why_tests_cant": "Ranges over all objects.", "anchors": ["src/Modelparameter/Acoustic.cpp: calcRockMatrixParameter, prepareForModelling", "src/Modelparameter/Elastic.cpp: prepareForModelling", "src/Modelparameter/Viscoelastic.cpp: prepareForModelling"]}
{"id": "C134", "title": "Arithmetic of petrophysical models", "statement": "The copy constructor, and with it every sum of two objects, keeps porosity, saturation and reflectivity but loses the rock matrix, so that the conversion to velocities, which works on the original, throws on the copy and on the sum. Assignment takes over all that the class needs: the conversion gives the same medium. Scaling and linear combinations act on porosity, saturation and reflectivity point by point and leave the rock matrix as it is.", "quantifier": "all classes, objects, factors", "why_tests_cant": "Ranges over all objects.", "anchors": ["src/Modelparameter/Acoustic.cpp: copy constructor, operator+, assign, plusAssign, minusAssign, operator*=", "src/Modelparameter/SH.cpp: copy constructor, operator+, assign, plusAssign, minusAssign, operator*=", "src/Modelparameter/Elastic.cpp: copy constructor, operator+, assign, plusAssign, minusAssign, operator*=", "src/Modelparameter/ViscoSH.cpp: copy constructor, operator+, assign, plusAssign, minusAssign, operator*=", "src/Modelparameter/Viscoelastic.cpp: copy constructor, operator+, assign, plusAssign, minusAssign, operator*="]}
{"id": "C135", "title": "Thresholds for petrophysics", "statement": "applyThresholds cuts porosity, saturation and reflectivity at their bounds when the configuration asks for it, sets them to 0 where the velocity that serves as mask is 0, keeps the rock matrix, and treats the other parameters as without petrophysics.", "quantifier": "all classes, bounds, vectors", "why_tests_cant": "Ranges over all real vectors and bounds.", "anchors": ["src/Modelparameter/Acoustic.cpp: applyThresholds", "src/Modelparameter/SH.cpp: applyThresholds", "src/Modelparameter/Elastic.cpp: applyThresholds", "src/Modelparameter/ViscoSH.cpp: applyThresholds", "src/Modelparameter/Viscoelastic.cpp: applyThresholds"]}
{"id": "C136", "title": "Model on a variable grid", "statement": "The conversion of an acoustic or elastic model to a variable grid gives every point the density and velocities of the regular grid's point with the same coordinates. Porosity, saturation and reflectivity keep the size of the regular grid, so that applyThresholds throws if the grids have different numbers of points.", "quantifier": "all grids, objects, thresholds", "why_tests_cant": "Ranges over all grids.", "anchors": ["src/Modelparameter/Acoustic.cpp: init with two coordinate objects", "src/Modelparameter/Elastic.cpp: init with two coordinate objects"]}
{"id": "C137", "title": "Petrophysics of the per-shot model", "statement": "On regular grids with the window inside the big model, porosity, saturation and reflectivity of the per-shot model are the window of those of the big model; with a petrophysical parameterisation the rock matrix too. The conversion to velocities commutes with taking the window.", "quantifier": "all classes, grid sizes, windows, vectors", "why_tests_cant": "Ranges over all grids and windows.", "anchors": ["src/Modelparameter/Acoustic.cpp: getModelPerShot", "src/Modelparameter/SH.cpp: getModelPerShot", "src/Modelparameter/Elastic.cpp: getModelPerShot", "src/Modelparameter/ViscoSH.cpp: getModelPerShot", "src/Modelparameter/Viscoelastic.cpp: getModelPerShot"]}
{"id": "C138", "title": "Reflectivity", "statement": "On a regular grid with at least order/2 layers, the reflectivity in a layer y with order/2 <= y < NY - order/2 is minus the finite difference of the impedance (density times P velocity in the acoustic class, S velocity otherwise) divided by the sum of the impedances of y and y+1, for stencil and assembled matrices and any DH and DT; it is not a number where that sum is 0, and 0 in the first and last order/2 layers. Nothing else changes. For order 2 and positive impedances it is (I(y) - I(y+1))/(I(y) + I(y+1)), lies strictly between -1 and 1 and is 0 exactly where the impedance does not change. With fewer than order/2 layers the calculation throws.", "quantifier": "all classes, grid sizes, orders 2 to 12, DH, DT, vectors", "why_tests_cant": "Ranges over all grids, orders and real vectors.", "anchors": ["src/Modelparameter/Acoustic.cpp: calcReflectivity", "src/Modelparameter/SH.cpp: calcReflectivity", "src/Modelparameter/Elastic.cpp: calcReflectivity", "src/Modelparameter/ViscoSH.cpp: calcReflectivity", "src/Modelparameter/Viscoelastic.cpp: calcReflectivity"]}
{"id": "C139", "title": "Butterworth polynomial", "statement": "For every order n of at least 2 the coefficients computed by multiplying the factors in the frequency domain are those of the monic polynomial with the n zeros exp(i pi (2k+n-1)/(2n)), k = 1..n: all zeros have a negative real part and the squared magnitude at i x is 1 + x^(2n). For the orders 0 and 1 the calculation throws.", "quantifier": "all orders, all complex arguments, all frequencies", "why_tests_cant": "Ranges over all orders and complex numbers.", "anchors": ["src/Filter/Filter.cpp: calcButterPoly"]}
{"id": "C140", "title": "Butterworth gain", "statement": "For every sampling interval, signal length of at least 3, order of at least 2 and corner frequencies, entry i of the transfer function belongs to the frequency i/(L dt), negative in the second half, and its squared magnitude is 1/(1+(f/fc)^(2n)) for a low pass, 1/(1+(fc/f)^(2n)) for a high pass (0 at f = 0) and the product of both for a band pass. So the power is halved at the corner, lies between 0 and 1, falls with the frequency for a low pass and rises for a high pass. Other families, types, corner frequencies that are not positive and orders below 2 are rejected.", "quantifier": "all dt > 0, lengths >= 3, orders, corner frequencies, entries", "why_tests_cant": "Ranges over all orders, frequencies and lengths.", "anchors": ["src/Filter/Filter.cpp: calcFrequencyVector, calcFrequencyMat, calcButterworthLp, calcButterworthHp, calcButterworthBp, calcButterworthFilt, calc"]}
{"id": "C141", "title": "Filtered harmonics", "statement": "When the signal length is a power of two, at least 4, a Butterworth filter turns a harmonic trace with m periods, 0 < m < nt/2, into a harmonic trace with m periods whose amplitude is multiplied by the gain at its frequency. A constant trace passes a low pass unchanged and is removed by a high pass and a band pass.", "quantifier": "all dt > 0, powers of two nt >= 4, orders, corner frequencies, m, amplitudes, phases", "why_tests_cant": "Ranges over all lengths, frequencies, amplitudes and phases.", "anchors": ["src/Filter/Filter.cpp: calc, apply"]}
{"id": "C142", "title": "One-frequency filters", "statement": "When the signal length is a power of two, the ideal filter of order 0 keeps the harmonic with ceil(fc nt dt) periods and removes all other harmonics; the ideal filter of any other order does the same but halves the amplitude. Applied to a matrix the latter scales the result so that the largest magnitude is 1, whatever the amplitudes were.", "quantifier": "all dt > 0, powers of two nt >= 4, frequencies, amplitudes, phases, matrices", "why_tests_cant": "Ranges over all lengths, frequencies, amplitudes and phases.", "anchors": ["src/Filter/Filter.cpp: calcIdealBp, apply"]}
{"id": "C143", "title": "What a filter object remembers", "statement": "Designing the ideal filter of order 0 twice gives a filter that changes nothing. Once an ideal filter of another order has been designed, a later Butterworth design has no effect on the traces and init does not remove it: with another length every apply throws.", "quantifier": "all filter objects, designs, signals", "why_tests_cant": "Ranges over all sequences and signals.", "anchors": ["src/Filter/Filter.cpp: init, calc, calcIdealBp, apply"]}
{"id": "C144", "title": "Horizontal derivatives on layered grids", "statement": "On every layered grid whose layers are not too thin, the rows of the forward and backward x- and z-derivatives are central differences of the configured order whenever the stencil fits into the model. In a row inside a layer they use the spacing of the layer and are centred half a cell to the right or left of the point. In a row on an interface between layers whose factors differ by 3 they use the spacing of the coarser layer and are centred half a cell of the finer layer beside the point. Every column is the grid point at exactly the position of the stencil, so orders up to 8 differentiate polynomials up to the order exactly at the staggered position.", "quantifier": "all layered grids, grid points, configured orders, spacings, polynomials", "why_tests_cant": "Ranges over all grids, points and fields.", "anchors": ["src/ForwardSolver/Derivatives/Derivatives.cpp: calcDxf, calcDxb, calcDzf, calcDzb"]}
{"id": "C145", "title": "Vertical derivatives on layered grids", "statement": "On every layered grid whose layers are not too thin, the rows of the vertical derivatives inside a layer are central differences whose order is the configured one, reduced so that the stencil ends at the nearest interface, and whose columns are grid points of the same vertical line; no lookup fails, although rows between layers may belong to no layer. On an interface the order is 2: the forward derivative joins the interface row with the next row of the lower layer, the backward derivative joins the rows whose staggered levels lie half a coarse cell above and below the interface.", "quantifier": "all layered grids, grid points, configured orders, spacings", "why_tests_cant": "Ranges over all grids and points.", "anchors": ["src/ForwardSolver/Derivatives/Derivatives.cpp: calcDyf, calcDyb"]}
{"id": "C146", "title": "Interpolation at grid interfaces", "statement": "On every layered grid the rows of all four interpolation matrices are unit rows away from the interfaces. On an interface between layers whose factors have ratio 1 or 3 the full interpolation takes exactly the points of the interface that belong to the coarser grid and are nearer than one coarse cell, with the products of hat functions as weights. Where such points exist on all sides, bilinear fields are reproduced. Points of the coarser grid keep their values, and interpolating twice is interpolating once.", "quantifier": "all layered grids, grid points, fields", "why_tests_cant": "Ranges over all grids, points and fields.", "anchors": ["src/ForwardSolver/Derivatives/Derivatives.cpp: calcInterpolationFull"]}
{"id": "C147", "title": "Interpolation of staggered points at interfaces", "statement": "On an interface between layers with factors 1 and 3 the interpolation of points staggered in x, in z, or in both uses only the staggered points of the coarser grid and reproduces bilinear fields up to both edges when the model is at least five fine cells wide in the staggered directions.", "quantifier": "all layered grids, grid points, fields", "why_tests_cant": "Ranges over all grids, points and fields.", "anchors": ["src/ForwardSolver/Derivatives/Derivatives.cpp: calcInterpolationStaggeredX, calcInterpolationStaggeredZ, calcInterpolationStaggeredXZ"]}
{"id": "C148", "title": "Vertical derivatives of staggered fields on layered grids", "statement": "On every layered grid with distinct interfaces and factors of ratio 1 or 3 the rows of the vertical derivatives for fields staggered in x or z are, inside a layer, the part inside the model of the central difference half a cell below or above the point, with the configured order reduced so that the stencil ends at the nearest interface; every column has exactly the staggered horizontal position of the point although the spacing changes at the interface. Where the stencil fits the row is the full central difference. On an interface, at staggered points of the coarser layer, the rows join the two staggered levels half a coarse cell above and below the interface (backward) or a cell of the lower layer (forward).", "quantifier": "all layered grids, grid points, configured orders, spacings", "why_tests_cant": "Ranges over all grids and points.", "anchors": ["src/ForwardSolver/Derivatives/Derivatives.cpp: calcDyfStaggeredX, calcDyfStaggeredZ, calcDybStaggeredX, calcDybStaggeredZ"]}
{"id": "C149", "title": "Free surface on layered grids", "statement": "On every layered grid with distinct interfaces and factors of ratio 1 or 3 the backward vertical derivatives with free surface, for unstaggered fields and for fields staggered in x or z, give at every point inside a layer the central difference of the field continued antisymmetrically about the level half a cell above the first row.", "quantifier": "all layered grids, grid points, configured orders, spacings, fields", "why_tests_cant": "Ranges over all grids, points and fields.", "anchors": ["src/ForwardSolver/Derivatives/Derivatives.cpp: calcDybFreeSurface, calcDybStaggeredXFreeSurface, calcDybStaggeredZFreeSurface"]}
{"id": "C150", "title": "Hilbert transform by a FIR filter", "statement": "For every even kernel size the coefficients are those of the ideal Hilbert transformer, 2/(pi m) at odd m, times a Blackman window. Filtering any signal reads nothing out of range; each sample with a full kernel on both sides holds the convolution of the signal with these coefficients, so that a harmonic is turned into the same harmonic a quarter of a period later, times a factor depending on the frequency only, and a constant is removed. The exact values at both ends of the signal are given too, and the transform of a matrix acts row by row.", "quantifier": "all even kernel sizes, signals, frequencies, phases", "why_tests_cant": "Ranges over all kernel sizes and real signals.", "anchors": ["src/Common/HilbertFIR.cpp: calcHilbertCoefficient, hilbert"]}
{"id": "C151", "title": "Node weights of the partitioning", "statement": "For every combination of dimension and equation type with an entry in the table, every grid and all usable orders of the derivatives the weight of a grid point is its cost divided by the cost of the whole grid: the number of derivatives times the cost of a derivative of the order of its layer, the vector operations, and an extra cost for each direction in which the point has PML coefficients. The weights are positive and add up to 1.", "quantifier": "all grids, orders per layer, PML widths, surface settings", "why_tests_cant": "Ranges over all grids and configurations.", "anchors": ["src/Partitioning/Partitioning.hpp: Weights"]}
{"id": "C152", "title": "Memory estimate of the PML", "statement": "For every grid and every distribution of its points over processes the memory estimate of the PML counts exactly the pairs of a point and a direction for which the initialisation stores coefficients, and reports the memory of the vectors with that many entries in whole MB.", "quantifier": "all grids, PML widths, distributions", "why_tests_cant": "Ranges over all grids and distributions.", "anchors": ["src/ForwardSolver/BoundaryCondition/CPML2DAcoustic.cpp, CPML3DAcoustic.cpp, CPML2D.cpp, CPML3D.cpp: estimateMemory"]}
{"id": "C153", "title": "Conserved discrete energy", "statement": "In a closed box of any size with heterogeneous media, without source, the acoustic, elastic and SH solvers conserve for ever the discrete energy: kinetic energy as the product of two consecutive velocities divided by the buoyancy, plus the elastic energy of the stresses (p^2 / modulus, for solids the complementary energy of the isotropic law).", "quantifier": "all grids, orders, media, initial states, numbers of time steps", "why_tests_cant": "Ranges over all media, states and times.", "anchors": ["src/ForwardSolver/ForwardSolver2Dacoustic.cpp, 3Dacoustic.cpp, 2Delastic.cpp, 3Delastic.cpp, 2Dsh.cpp: run"]}
{"id": "C154", "title": "Attenuation and conductivity only take energy out", "statement": "In a closed box without source the viscoelastic and viscoSH solvers lower, in each time step, the energy of springs, Maxwell elements and motion by exactly the work of the dash-pots, which is not negative; the electromagnetic solvers lower the sum of magnetic and electric energy by exactly the heat sigma E^2, E being the mean of two time levels.", "quantifier": "all grids, orders, media, numbers of relaxation mechanisms, initial states, times", "why_tests_cant": "Ranges over all media, states and times.", "anchors": ["src/ForwardSolver/ForwardSolver2Dviscoelastic.cpp, 3Dviscoelastic.cpp, 2Dviscosh.cpp: run", "src/ForwardSolverEM/ForwardSolver2Demem.cpp, 3Demem.cpp, 2Dtmem.cpp: run"]}
{"id": "C155", "title": "Stability below the CFL limit", "statement": "If the time step is below the CFL limit of the order used, for a velocity v with v^2 at least the largest modulus times the largest buoyancy (for electromagnetic waves 1/(mu eps)), then at all times and all points of a closed box every field is bounded by the initial energy divided by 1 - q, q being the squared ratio of the time step to the limit. This holds for the acoustic, elastic, SH, viscoelastic, viscoSH and the electromagnetic solvers in heterogeneous media.", "quantifier": "all grids, orders, media, initial states, numbers of time steps", "why_tests_cant": "Stability concerns infinitely many time steps and all initial states.", "anchors": ["src/ForwardSolver/ForwardSolver2Dacoustic.cpp, 3Dacoustic.cpp, 2Delastic.cpp, 3Delastic.cpp, 2Dsh.cpp: run", "src/ForwardSolver/ForwardSolver2Dviscoelastic.cpp, 3Dviscoelastic.cpp, 2Dviscosh.cpp: run", "src/ForwardSolverEM/ForwardSolver2Demem.cpp, 3Demem.cpp, 2Dtmem.cpp: run", "src/CheckParameter/CheckParameter.hpp: checkStabilityCriterion"]}
{"id": "C156", "title": "Instability beyond the CFL limit", "statement": "For each order and dimension, every time step beyond the CFL limit makes the acoustic solver unstable on all sufficiently large closed boxes with a homogeneous medium: some initial state grows beyond every bound. For each order above 2 the stability check accepts such time steps.", "quantifier": "all orders, dimensions, time steps, velocities, large grids", "why_tests_cant": "Unbounded growth concerns infinitely many time steps.", "anchors": ["src/ForwardSolver/ForwardSolver2Dacoustic.cpp, ForwardSolver3Dacoustic.cpp: run", "src/CheckParameter/CheckParameter.hpp: checkStabilityCriterion"]}
{"id": "C157", "title": "Factories choose matching classes", "statement": "For every dimension string and equation type the four factories called at the start of the simulation (derivatives, model parameters, wavefields, forward solver) give objects of one equation type and dimension, exactly for the fourteen supported combinations, in any letter case; the four combinations sh, viscosh, tmem, viscotmem in three dimensions dereference a null pointer, all other strings are rejected with an error; the wavefield object has every vector the solver advances. The later checks accept only dimension 2D or 3D in capitals, and acoustic, sh and viscosh only in lower case.", "quantifier": "all strings", "why_tests_cant": "Infinitely many strings; tests use the documented spelling.", "anchors": ["src/ForwardSolver/ForwardSolverFactory.cpp: Create", "src/Wavefields/WavefieldsFactory.cpp: Create", "src/Modelparameter/ModelparameterFactory.cpp: Create", "src/ForwardSolver/Derivatives/DerivativesFactory.cpp: Create", "src/Simulation.cpp: main"]}
{"id": "C158", "title": "Common offset profile", "statement": "If every shot records one trace, of one component for all shots, and there are n > 1 shots distributed evenly over any number of shot domains, then after the round one profile file is written; it has n rows, row k is the trace of shot k, and no files are written for single shots. If the shots record different components the profile is wrong: with one domain traces are lost, with two domains traces of one component end up in the file of another one.", "quantifier": "all numbers of shots and domains, traces, components, formats", "why_tests_cant": "Needs several shot domains with MPI and a comparison with the single traces for every distribution.", "anchors": ["src/Simulation.cpp: main (lines 356-563)", "src/Acquisition/Seismogram.cpp: write, sumShotDomain", "src/Acquisition/SeismogramHandler.cpp: setShotInd, sumShotDomain, assignCOP"]}
{"id": "C159", "title": "Hilbert common offset profile", "statement": "With a wavefield decomposition the shots are simulated a second time with the Hilbert transformed source. The profile of the second round is that of the traces of the second round if there is one shot domain. With D >= 2 domains row k is the trace of the second round plus (D-1) times the trace of the first round for the shots of the first domain and plus (D-2) times that trace for the others, since only the first domain clears its profile; so row 0 is always wrong.", "quantifier": "all numbers of shots and domains, traces", "why_tests_cant": "Needs several shot domains; the wrong rows look like plausible traces.", "anchors": ["src/Simulation.cpp: main (lines 362-567)", "src/Acquisition/SeismogramHandler.cpp: assignCOP", "src/Acquisition/Seismogram.cpp: sumShotDomain"]}
{"id": "C160", "title": "Receivers of a shot from the mark matrix", "statement": "A supershot records exactly the receivers that the mark matrix marks for at least one of its shots, in the order of the receiver list; a normal shot records those marked in the first selected row with its number. If no selected row has the number and the last row of the matrix is not selected, no error is reported and the receivers of the last selected row are used.", "quantifier": "all mark matrices with marks 0 or 1, selections, encodings", "why_tests_cant": "The wrong marks are silent; tests use complete mark files.", "anchors": ["src/Acquisition/Receivers.cpp: getAcquisitionSettings (lines 252-302)"]}
{"id": "C161", "title": "Decoding and encoding of supershots (multi offset data)", "statement": "If the number of shots differs from the number of receivers: decoding gives each shot of the supershot the traces of its own receivers of the type, with the sign of its amplitude, followed by one row of zeros for each of its receivers of another type, and with encode type 1 writes exactly these matrices under shot number and component; encoding from such files gives the signed sum over the shots that mark the receiver; encoding decoded data gives each trace times the number of shots that mark its receiver; decoding is the adjoint of encoding. With several receiver types the decoded files have rows that are no traces, and encoding from files with exactly the traces of the type fails.", "quantifier": "all mark matrices, receiver types, encodings, traces, files", "why_tests_cant": "All overlaps of shots and mixes of receiver types.", "anchors": ["src/Acquisition/Receivers.cpp: encode, decode (lines 354-573)"]}
{"id": "C162", "title": "Decoding and encoding of supershots (common offset data)", "statement": "If receiver k is marked for shot k only and the selection is increasing: decoding gives each shot its trace with its sign and writes no file, encoding from the profile takes the row of each shot with its sign, and encoding what was decoded restores the supershot. A survey with as many receivers as shots in which all receivers record all shots is treated in the same way, and decoding a supershot of fewer shots then writes outside dataDecode.", "quantifier": "all numbers of shots, receiver types, encodings, traces", "why_tests_cant": "The misclassification depends on the equality of two counts.", "anchors": ["src/Acquisition/Receivers.cpp: encode, decode (lines 354-573)"]}
{"id": "C163", "title": "Graph of the partitioners", "statement": "The matrix getGraph hands to the graph partitioners is antisymmetric with zero diagonal, so its graph is undirected without loops. On a regular grid two points are joined exactly if they lie on a common grid line and are neighbours for the order in use near that place, i.e. exactly if a backward derivative at one of them uses the value at the other. Couplings of the forward derivatives are contained where the line goes on for p more points, but for every order p >= 4 the last point of every line is used by the forward derivative at the point p/2 before it without being joined to it.", "quantifier": "all grids for the symmetry; all sizes, orders 2 to 12 and pairs of points of regular grids for the edges", "why_tests_cant": "Partitioning only changes the speed, so missing edges do not show up in results.", "anchors": ["src/ForwardSolver/Derivatives/FDTD2D.cpp: getGraph (lines 288-316)", "src/ForwardSolver/Derivatives/FDTD3D.cpp: getGraph (lines 345-376)", "src/Partitioning/Partitioning.hpp (lines 501, 548)"]}
{"id": "C164", "title": "Error of the finite differences for smooth functions", "statement": "Applied to samples of a function whose derivative of order q+1 is bounded by M, a row of the forward (backward) derivative matrices on a regular grid gives the derivative half a cell to the right (left) of its point up to error_const(q)*M*h^q, where q is the largest even number not above the requested order p for which the stencil fits into the line; at the last (first) point of a line it gives the derivative half a cell to the other side, with q = 2. The constants are 1/24, 3/512, 725/458752 and 354095/679477248 for q = 2, 4, 6, 8. The rounded coefficients of orders 10 and 12 add at most 3e-12 of the sum of the Taylor terms.", "quantifier": "all grid sizes, orders, points, spacings, all smooth functions", "why_tests_cant": "Tests can sample a few functions; the order of accuracy near the edges is a statement about all of them.", "anchors": ["src/ForwardSolver/Derivatives/Derivatives.cpp: calcDxf, calcDyf, calcDzf, calcDxb, calcDyb, calcDzb", "src/ForwardSolver/Derivatives/Derivatives.cpp: setFDCoef"]}
{"id": "C165", "title": "The acoustic solvers converge", "statement": "For each acoustic solver, order p in {2,4,6,8}, bounds Kmin <= K <= Kmax, bmin <= 1/rho <= bmax on the moduli and inverse densities, velocity v with Kmax*bmax <= v^2, and bounds Mx, Mt on the space derivatives of order p+1 and the third time derivatives of the solution there is a constant C such that on every regular grid with spacing h, for every time step dt below the CFL limit for v and every smooth solution of the acoustic equations (with the grid's coefficients, vanishing at the points outside the grid that the stencils reach), a run without sources started from samples of the solution (velocities half a time step earlier) satisfies after n steps, t = n*dt: (1 - dt/limit) * (sum over the grid of squared errors of pressure and velocities) <= number of points * (C*t*(dt^2 + h^p))^2. C does not depend on the grid, the spacing, the time step, the number of steps or the solution.", "quantifier": "all solvers, orders, grids, coefficient fields within the bounds, time steps below the CFL limit, smooth solutions, numbers of steps", "why_tests_cant": "Convergence is a limit statement over all grids and solutions; a test compares a few resolutions of one wave.", "anchors": ["src/ForwardSolver/ForwardSolver2Dacoustic.cpp: run", "src/ForwardSolver/ForwardSolver3Dacoustic.cpp: run", "src/ForwardSolver/Derivatives/FDTD2D.cpp", "src/ForwardSolver/Derivatives/FDTD3D.cpp", "src/CheckParameter/CheckParameter.hpp: checkStabilityCriterion"]}
{"id": "C166", "title": "Width of the model of a shot", "statement": "getModelPerShotSize looks at all sources if there are less than twenty, otherwise at every (n/10)-th of n. The source and all receivers of a shot that is looked at lie at least BoundaryWidth points inside the model of width NXPerShot (otherwise there is an error), and NXPerShot is NX or the smallest width with this property; without receivers per shot it is NX. With less than twenty sources the windows of all shots are then accepted by getSettingsPerShot. For every n >= 20 there is a survey accepted with a source outside the model, and a stream in which the window of a shot is refused later although a wider model would do.", "quantifier": "all surveys, numbers of shots, receivers, cut coordinates, widths", "why_tests_cant": "The skipped shots only matter in surveys with twenty or more shots of different spread; tests use a few shots.", "anchors": ["src/Acquisition/Receivers.cpp: getModelPerShotSize", "src/Acquisition/AcquisitionSettings.hpp: getSettingsPerShot, getCutCoord", "src/Simulation.cpp: NXPerShot"]}
{"id": "C167", "title": "Grid configuration file", "statement": "A column of integers of the grid configuration file is read from every data line in order; comments, blank lines and further columns do not matter; a missing file or a data line with too few columns is an error, and no text leads to undefined behaviour while reading. A variable grid is made exactly if the first interface is 0, the others increase and neighbouring factors are equal or differ by a factor 3; it is the layered grid with these interfaces and factors and has one layer per data line. For the inversion grid the extents are those of the model divided by the factor and rounded up. checkVariableGrid reports exactly the interfaces that were moved. Not detected are columns such as 3.9 (taken for 3) or 40-9 (taken for two columns), interfaces outside the model (a layer gets a negative number of points) and a factor 0 (division by zero).", "quantifier": "all file contents, columns, model sizes", "why_tests_cant": "Tests use one well-formed file; the malformed ones and those with interfaces outside the model are a matter of all texts.", "anchors": ["src/Common/Common.hpp: readColumnFromFile", "src/Acquisition/Coordinates.cpp: init(config, DHInversion, NXPerShot)", "src/CheckParameter/CheckParameter.hpp: checkVariableGrid"]}
{"id": "C168", "title": "Setup of the derivatives", "statement": "Setup of a new derivatives object fails exactly if a stencil matrix is asked for without grid partitioning, a hybrid free surface without stencil matrix, variable operators with stencil matrix, or an unknown order. Otherwise the switches are those of the configuration and each layer uses the configured order, or with variable operators the third column of its line of the grid configuration file. If grid and derivatives are made from one configuration, every layer of the grid has a known order, whatever the file contains. Orders given as a vector are taken for the layers unless one is unknown or grid partitioning is set, which are errors. A second setup of the same object keeps using the order of the first one (with variable operators the orders of the second file come after those of the first) and never forgets an elastic type, although the program announces that the setup is overwritten.", "quantifier": "all configurations, files, layers", "why_tests_cant": "A second setup of one object does not occur in the tests; agreement of the number of orders with the number of layers is a statement over all files.", "anchors": ["src/ForwardSolver/Derivatives/Derivatives.cpp: setup, setFDOrder", "src/ForwardSolver/Derivatives/FDTD2D.cpp: init, estimateMemory", "src/Common/Common.hpp: readColumnFromFile"]}
{"id": "C169", "title": "The elastic, SH and viscoelastic solvers converge", "statement": "For each elastic, SH, viscoelastic or viscoelastic SH solver, order p in {2,4,6,8}, number of relaxation mechanisms (with a bound on the relaxation times), bounds on the inverse densities and on the elastic moduli (the relaxed law and the relaxation law positive definite with a common lower bound, the unrelaxed Lame parameters bounded above), velocity v with stiffness * bmax <= v^2, and bounds Mx, Mt on the space derivatives of order p+1 and the time derivatives (of order three, for the relaxation variables also of order two) of the solution there is a constant C such that on every regular grid with spacing h, for every time step dt below the CFL limit for v and every smooth solution of the (visco)elastic equations with the grid's coefficients, vanishing at the points outside the grid that the stencils reach, a run without sources started from samples of the solution (velocities half a time step earlier) satisfies after n steps, t = n*dt: (1 - dt/limit) * (sum over the grid of the squared errors of all velocity and stress components) <= number of points * (C*t*(dt^2 + h^p))^2. C does not depend on the grid, the spacing, the time step, the number of steps or the solution.", "quantifier": "all solvers, orders, grids, coefficient fields within the bounds, relaxation frequencies, time steps below the CFL limit, smooth solutions, numbers of steps", "why_tests_cant": "Convergence is a limit statement over all grids and solutions; a test compares a few resolutions of one wave.", "anchors": ["src/ForwardSolver/ForwardSolver2Delastic.cpp: run", "src/ForwardSolver/ForwardSolver3Delastic.cpp: run", "src/ForwardSolver/ForwardSolver2Dsh.cpp: run", "src/ForwardSolver/ForwardSolver2Dviscoelastic.cpp: run", "src/ForwardSolver/ForwardSolver3Dviscoelastic.cpp: run", "src/ForwardSolver/ForwardSolver2Dviscosh.cpp: run", "src/CheckParameter/CheckParameter.hpp: checkStabilityCriterion"]}
{"id": "C170", "title": "The electromagnetic solvers converge", "statement": "For each of the solvers 2Demem, 2Dtmem and 3Demem, order p in {2,4,6,8}, bounds mmin <= 1/mu <= mmax, 0 < emin <= eps <= emax and 0 <= sigma <= smax on the coefficients, velocity v with mmax/emin <= v^2, and bounds Mx, Mt on the space derivatives of order p+1 and the time derivatives of order three (for the electric field also two) of the solution there is a constant C such that on every regular grid with spacing h, for every time step dt below the CFL limit for v and every smooth solution of Maxwell's equations d/dt H = -(1/mu) curl E, eps d/dt E + sigma E = curl H with the grid's coefficients, vanishing at the points outside the grid that the stencils reach, a run without sources started from samples of the solution (magnetic fields half a time step earlier) satisfies after n steps, t = n*dt: (1 - dt/limit) * (sum over the grid of the squared errors of all electric and magnetic components) <= number of points * (C*t*(dt^2 + h^p))^2. C does not depend on the grid, the spacing, the time step, the number of steps or the solution.", "quantifier": "all solvers, orders, grids, coefficient fields within the bounds, time steps below the CFL limit, smooth solutions, numbers of steps", "why_tests_cant": "Convergence is a limit statement over all grids and solutions; a test compares a few resolutions of one wave.", "anchors": ["src/ForwardSolverEM/ForwardSolver2Demem.cpp: run", "src/ForwardSolverEM/ForwardSolver2Dtmem.cpp: run", "src/ForwardSolverEM/ForwardSolver3Demem.cpp: run", "src/ForwardSolverEM/ForwardSolver2Demem.cpp: prepareForModelling", "src/CheckParameter/CheckParameter.hpp: checkStabilityCriterion"]}
{"id": "C171", "title": "Energy balance and stability of the solvers with Debye relaxation", "statement": "In a closed box without sources, with relaxation times T_l, strengths g_l = eps*tau/(L*T_l), optical permittivity epsO = max(eps0, eps*(1-tau) + sigma*tauS) and relaxation currents that vanish where eps*tau does, the solvers 2Dviscoemem, 2Dviscotmem and 3Dviscoemem change the sum of magnetic energy, electric energy of epsO and energy of the polarization in every step by exactly minus the ohmic loss of the static conductivity and minus a relaxation loss. The relaxation loss is not negative if dt <= 2*T_l for all mechanisms. Then, for a time step below the CFL limit for a velocity v with v^2 >= largest 1/mu over smallest epsO, the electric, magnetic and relaxation fields stay below bounds given by the initial energy at all times and points. The condition dt <= 2*T_l, which the program does not check, is needed: there is a run below the CFL limit whose electric field exceeds every bound.", "quantifier": "all grids, orders, media, numbers of mechanisms, initial states, numbers of time steps", "why_tests_cant": "Stability concerns infinitely many time steps and all initial states.", "anchors": ["src/ForwardSolverEM/ForwardSolver2Dviscoemem.cpp: run", "src/ForwardSolverEM/ForwardSolver2Dviscotmem.cpp: run", "src/ForwardSolverEM/ForwardSolver3Dviscoemem.cpp: run", "src/ForwardSolverEM/ForwardSolverEM.cpp: getAveragedCinv, getAveragedCa, getAveragedCb, getCc, getAveragedCd", "src/CheckParameter/CheckParameter.hpp: checkStabilityCriterion"]}
{"id": "C172", "title": "Writing and reading model files", "statement": "For each of the nine classes of model parameters and each of the file formats 1 (mtx), 2 (lmf) and 3 (frv): writing a model puts every quantity of the class into the file base.quantity.ending and changes no other file. Reading a model succeeds exactly when every quantity of the class has such a file with one number per grid point; the object then holds the contents of the files, zeros for porosity, saturation and reflectivity when they are not used, and keeps everything else; otherwise an exception is thrown. So a model that was written is read back by an object of the same class and settings, up to the rounding of the format, and a model written by one class can be read by another exactly when the quantities of the reader are among those of the writer. Any other file format makes both throw.", "quantifier": "all classes, settings, base names, formats, file systems and vectors", "why_tests_cant": "Tests use a few base names and models; the independence of the files and the exact condition for reading concern all file systems and all pairs of classes.", "anchors": ["src/IO/IO.hpp: writeVector, readVector", "src/Modelparameter/Acoustic.cpp, SH.cpp, Elastic.cpp, ViscoSH.cpp, Viscoelastic.cpp: init, write", "src/ModelparameterEM/EMEM.cpp, TMEM.cpp, ViscoEMEM.cpp, ViscoTMEM.cpp: init, write", "src/Modelparameter/Modelparameter.cpp: initModelparameter"]}
{"id": "C173", "title": "The model files created by TwoLayer", "statement": "The tool TwoLayer writes, for every equation type and each of the three formats, only files of the configured base name. The simulation can read them as a model of the class it creates for the equation type exactly for acoustic, elastic and SH modelling (in any case of letters) and for the name \"viscoelastic\" in small letters. Every quantity it reads has the value of the upper layer at the grid points with y < 40 and the value of the lower layer at the others. For viscoelastic SH modelling, and for \"Viscoelastic\" written with a capital letter, the files with the attenuation are missing and reading throws.", "quantifier": "all grid sizes, equation types, base names, formats", "why_tests_cant": "The layering concerns all grid sizes and points, the readability all spellings of the equation type.", "anchors": ["src/Tools/CreateModel/TwoLayer.cpp: main", "src/Modelparameter/ModelparameterFactory.cpp: Create", "src/Modelparameter/ViscoSH.cpp: init"]}
{"id": "C174", "title": "The verdict of the integration test on seismograms", "statement": "The program that compares seismograms with a reference accepts finite recordings exactly when the sum over the types of the l2 norms of the differences is at most 5e-7 times the largest amplitude times the sum of the numbers of samples times the sum of the numbers of traces, and returns 1 otherwise. So equal seismograms are accepted, and in an accepted run no sample differs from the reference by more than that bound. Seismograms of different shapes make it throw. The bound is not a mean per sample: there is an accepted run where every sample is off by twice the stated relative tolerance. A run with a sample that is infinite or not a number is never rejected. The reference is named after the part of the file name before the first \".ci\", so for a configured name with \".ci\" all shots are compared with the same reference.", "quantifier": "all numbers of types, traces, samples, all recordings and names", "why_tests_cant": "The program is itself a test; what it accepts concerns all recordings, in particular those with invalid numbers.", "anchors": ["src/Tests/IntegrationTest/Test_CompareSeismogram.cpp: main", "src/Acquisition/Seismogram.cpp: operator-"]}
{"id": "C175", "title": "The weights of the model of one shot", "statement": "For regular grids getShrinkVector succeeds exactly when the window of the shot and both borders lie in the big model, and throws otherwise. All weights are between 0 and 1. At z = 0 the points at distance d < width from the right (else the left) edge of the window have the weight sin^2(pi d / (2 width)), which rises from 0 at the edge towards 1; all other points have weight 1 inside the window and 0 outside. So in two dimensions, with a window of the full height, the weights are the tapered window. Two things one would expect fail: with a window of less than the full height there are points outside it with a weight above 0, because the borders are set on every row of the big model, and in three dimensions the borders keep weight 1 away from z = 0.", "quantifier": "all regular grids, windows and widths of the borders", "why_tests_cant": "Tests use one window; that the weights are a partition into taper, 1 and 0, and that nothing outside the window is touched, concerns every point and window.", "anchors": ["src/Modelparameter/Modelparameter.cpp: getShrinkVector"]}
{"id": "C176", "title": "The memory estimates of the derivative matrices", "statement": "On regular and layered grids the estimate for one sparse derivative matrix is, summed over the layers, the number of points times the order times the size of a value and an index, plus two indices per point; it is defined exactly when points times order of every layer fits into a 32 bit index. With one order for the whole grid it is the same formula for the whole grid, the two overloads agree, and it is at least the memory that each of the derivative matrices (with and without free surface) needs in compressed rows. The total is this times the number of matrices, plus the interpolation matrices on layered grids, and asking for it before the setup throws. Two things fail: with an order for each layer the estimate can be smaller than the memory needed, because the rows at an interface have the order of the coarser layer but are counted with that of the finer one; and for a regular grid of 600^3 points and order 12 the product overflows although the number of points fits.", "quantifier": "all grids the constructors produce, all orders, all derivative matrices", "why_tests_cant": "The bound concerns the rows of every grid point, including the reduced ones at edges and interfaces; the overflow needs grids no test can allocate.", "anchors": ["src/ForwardSolver/Derivatives/Derivatives.cpp: getMemoryUsage, getMemoryStencilMatrix, getMemorySparseMatrix, getMemoryInterpolationMatrix", "src/ForwardSolver/Derivatives/FDTD2D.cpp, FDTD3D.cpp: getNumDMatrices, getNumInterpMatrices, estimateMemory"]}
{"id": "C177", "title": "The frequencies of a source encoding and the list of the supershots", "statement": "With a gradient in the frequency domain the frequencies a source can get are, each once, the even positive multiples of df from fc1 up to the first one that reaches fc2 (all multiples from fc1/2 to twice fc2 without an encoding), where a zero fc2 stands for twice the CPML frequency; half of the nFFT samples hold a whole number of periods of each of them. The selection turns the sources of the listed supershots into sines with such frequencies, never gives one frequency to two sources of one supershot and changes nothing else about a source. It ends for every fair random generator when no supershot is above its capacity and there are as many supershots as shot domains, and it is refused when there are fewer frequencies than shots per supershot. sourceFC holds for each supershot the frequencies of its sources in their order. The file of the supershots has one line for each domain with the increasing numbers of its shots. Two things fail: with useSourceEncode 3 and five shots in four domains both the selection and the file read past the end of the list of supershots; and a supershot with fewer shots than the first keeps the frequencies of the supershot before it at the end of its record.", "quantifier": "all frequencies, samplings, source lists, random sequences, numbers of domains", "why_tests_cant": "Random draws, real corner frequencies and all sizes of supershots; the read past the end gives no visible error in a test.", "anchors": ["src/Acquisition/Sources.cpp: calcSourceSettingsEncode, writeSourceEncode"]}
{"id": "C178", "title": "Source encoding with frequencies, from the shots to the files", "statement": "With at least as many shots as shot domains and enough frequencies, the random and the cyclic encoding followed by the selection of frequencies end for every fair random generator with every source a sine of a selectable frequency, no frequency twice in a supershot, and everything but number, sign and signal unchanged. The encoding in blocks does so exactly when the blocks reach the last domain, that is when (domains - 1) times the capacity is below the number of shots; otherwise no number of draws gives a result and the file of the supershots reads past the end of a vector. The file of the frequencies has one line for each domain with the frequencies of the sources of that supershot in their order, without the left-over entries of sourceFC; without an encoding it has one line with all frequencies.", "quantifier": "all source lists, numbers of domains, frequencies, random sequences", "why_tests_cant": "The result depends on random draws and on the relation between shots, domains and capacity for all sizes.", "anchors": ["src/Acquisition/Sources.cpp: calcSourceSettingsEncode, writeSourceEncode, writeSourceFC"]}
{"id": "C179", "title": "The factory of the source-receiver classes", "statement": "The factory gives, for the names of the simulations in any letter case, the class of its table, a null pointer exactly for the equations that exist in two dimensions only when they are asked for in three, and an exception for every other text. It agrees with the solvers: whenever the objects of a simulation can be created it gives the class that the solver of that simulation uses in its run function, and it gives a null pointer exactly where the start of the program uses one.", "quantifier": "all texts for the dimension and the equation", "why_tests_cant": "Ranges over all texts and compares two places of the code that never meet in a run.", "anchors": ["src/ForwardSolver/SourceReceiverImpl/SourceReceiverImplFactory.cpp: Create", "src/ForwardSolver/ForwardSolver*.cpp: run"]}
{"id": "C180", "title": "The file of the shots that are left after the thinning", "statement": "Without a thinning (shotIncr not above DH) no file is written. With one, if the kept sources belong to different shots, the file has for each of them, in order, its place in the list of all sources counted from one and its shot number; if two kept sources belong to one shot, the program stops with an exception.", "quantifier": "all source lists, spacings and thinnings", "why_tests_cant": "Ranges over all lists of sources and over the results of the thinning loop.", "anchors": ["src/Acquisition/Sources.cpp: writeShotIndsIncr", "src/Simulation.cpp: main"]}
{"id": "C181", "title": "The file of the cut coordinates", "statement": "The head of the file gives the number of points and the sizes of the model of one shot. Then there is one line for every source of the big model, in order, with its shot number and the coordinates of its cut, and adding the cut to the source of the small model gives the source of the big one. No vector is read out of range.", "quantifier": "all source lists, cuts, sizes and encodings", "why_tests_cant": "Connects three functions for all lists of sources.", "anchors": ["src/Acquisition/AcquisitionSettings.hpp: getCutCoord, getSettingsPerShot, writeCutCoordToFile", "src/Simulation.cpp: main"]}
{"id": "C182", "title": "Decoding a supershot with a gradient in the frequency domain", "statement": "With gradientDomain != 0 and multi offset data, decoding gives every shot of a supershot the part of its own traces that has the frequency of the shot (rounded up to a whole number of periods), with the sign of the shot and scaled so that the largest magnitude is 1 (not a number if that part is zero everywhere). A positive factor of the supershot changes nothing. If the traces are sums of one harmonic per shot, each with the frequency of its shot, and the frequencies differ, every shot gets exactly its own harmonics up to one positive factor. The filter object that is kept between the shots carries nothing over.", "quantifier": "all supershots, receivers, traces, signs, amplitudes, frequencies and sampling intervals; lengths that are powers of two, at least 4", "why_tests_cant": "Needs the exact Fourier sums for all frequencies and lengths.", "anchors": ["src/Acquisition/Receivers.cpp: encode, decode", "src/Filter/Filter.cpp: init, calc, calcIdealBp, apply"]}
{"id": "C183", "title": "Supershots of common offset data with a gradient in the frequency domain", "statement": "With gradientDomain != 0 and common offset data, decoding gives every shot of a supershot half the part of its trace that has the frequency of the shot (rounded up to a whole number of periods), with the sign of the shot and without the scaling that multi offset data get. Encoding from the file of the profile gives half the part of the trace of each shot, with its sign. Encoding and decoding again gives every shot a quarter of the part of its own trace, below half the sampling frequency.", "quantifier": "all supershots, receivers, traces, signs, frequencies and sampling intervals; lengths that are powers of two, at least 4", "why_tests_cant": "Needs the exact Fourier sums for all frequencies and lengths, and an induction over the shots.", "anchors": ["src/Acquisition/Receivers.cpp: encode, decode", "src/Filter/Filter.cpp: init, calc, calcIdealBp, apply"]}
