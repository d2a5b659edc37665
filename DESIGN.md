# Machine-checked model of WAVE-Simulation (Rocq/Coq 8.16.1)

## What this is

`/verif/rocq/theories` holds a hand-written Gallina model of parts of the C++ code in `/repo`
and theorems about that model. `properties.jsonl` lists the properties in English, `MANIFEST.json`
maps each property to theorem names. The code was read as text, never run; the only tie between
model and code is the reading, so every definition cites file and lines.

C01 to C60 are the properties given at the start. The later ones were added while the model grew: most
of them are the exact behaviour in places where the faithful model falsifies a property as first
stated (the old one is then `partial` and has a `_refuted` theorem), the others cover more of the code.

## Conventions

* `M_*.v` model files: only definitions, each with a citation and the simplifications made.
* `S_*.v` specification files: small independent definitions used to state theorems (some
  specifications are short enough to sit in the theorem statement).
* `L_*.v` lemma files: proofs.
* `P_*.v` property files: theorems, `Print Assumptions`, and `Example`s that show that the
  hypotheses are met by a concrete, non-trivial case.
* `_refuted`: the faithful model violates the English property; the theorem exhibits the witness.
* `_partial`: only part of the English property is proved; a comment says what is missing.
* Outcomes of C++ code are `res A := Ok a | Throw | UB | Fuel` (`Base.v`): a value, an exception or
  assertion, undefined behaviour (out-of-range access, uninitialised read), a loop that did not
  finish within the fuel. Non-termination is proved for every fuel.
* C++ `/` and `%` on integers are `Z.quot` / `Z.rem`.

## Trusted base

* Coq's kernel (8.16.1).
* The axioms of the standard library that `Print Assumptions` lists; see the letters in the table at the end:
  * `-`: closed under the global context.
  * `R0`: `ClassicalDedekindReals.sig_forall_dec`.
  * `R1`: R0 and `FunctionalExtensionality.functional_extensionality_dep`.
  * `R2`: R1 and `ClassicalDedekindReals.sig_not_dec`.
  * `R3`: R2 and `Classical_Prop.classic` (comes with Rtrigo, Ratan, Rpower of the standard library).
  * `F`: `functional_extensionality_dep` only.

  No axiom is declared in this development. `lia`, `lra`, `nra`, `ring`, `field` produce kernel-checked proofs.
  Files are compiled with libraries loaded that declare `ssrunder` axioms; no theorem uses them.
* The reading of the code (see the citations), and the English-to-Coq reading of the statements.

## What is modelled

| code | model | how |
|------|-------|-----|
| `Acquisition/Coordinates.hpp, .cpp` | `M_Grid` | the whole class: init for regular and layered grids (the adjustment loops with fuel), both index maps, queries for layers, interfaces, edges, transitions |
| `ForwardSolver/Derivatives/Derivatives.cpp`, `FDTD2D.cpp`, `FDTD3D.cpp` | `M_Deriv`, `M_Inter`, `M_Env` | stencil coefficients as exact rationals, row assembly with the restart loop, free surface rows, stencil and hybrid matrices, getters of the matrices used by the solvers; interpolation and staggered vertical derivatives at the interfaces of layered grids |
| the fourteen `ForwardSolver*::run`, the boundary classes they call, `Wavefields*::resetWavefields`, `SourceReceiverImpl*`, time and shot loop of `Simulation.cpp` | `M_Prog`, `M_Solvers` | every `run` is a straight-line program over named vectors, one statement per C++ statement, with its line number; the semantics is parametrised by an arithmetic, so that statements about dependence hold for floating point too, and statements about values use the reals |
| `FreeSurface*` initialisation | `M_Surface` | the vectors computed once |
| `prepareForModelling` of the solvers | `M_Relax` | relaxation coefficients, electromagnetic Ca, Cb, Cc, Cd |
| `CPML*.cpp`, `ABS2D.cpp`, `ABS3D.cpp` | `M_Bound` | coefficients over the reals, which points get them, memory estimate of the damping frame |
| `AcquisitionSettings.hpp`, `AcquisitionGeometry.cpp`, `Sources.cpp`, `Receivers.cpp`, part of `Partitioning.hpp` and `Simulation.cpp` | `M_Acq` | text files as lists of characters, shot numbers, windows, distribution over domains, random selection with an oracle for the random numbers, supershots, thinning |
| `Common/HilbertFIR.cpp` | `M_Fir` | coefficients and filter of vectors and matrices; real numbers or not a number |
| `Partitioning.hpp` (`Weights`), `estimateMemory` of the CPML classes | `M_Weights` | cost table, weights of the points and their normalisation, number of stored PML coefficients |
| `Seismogram.cpp`, `SeismogramHandler.cpp`, `SUIO.hpp`, `suHandler.cpp`, `segy.hpp`, resampling of `Common.hpp` | `M_Seis` | traces as lists; bytes of the SU header |
| `Acquisition/SourceSignal/*.cpp`, `generateSignals` of `Sources.cpp` | `M_Signal` | vectors as lists of reals; writes outside a vector are undefined; the flags that the object keeps from shot to shot |
| `Configuration.cpp, .hpp` | `M_Conf` | lines and maps of strings; conversion of values abstract |
| `CheckParameter.hpp` | `M_Check` | the checks of stability, dispersion, sources and receivers, numbers of layers |
| `Common.hpp` | `M_Common`, `M_Fft` | search and threshold helpers, phases, time index, snapshot condition |
| `Filter.cpp` (init, apply), `HilbertFFT.cpp` | `M_Fft` | discrete Fourier transforms as finite sums of complex numbers |
| `Filter.cpp` (design of Butterworth and one-frequency filters, filter objects) | `M_Butter` | orders are natural numbers; the entry at frequency 0, which may be invalid before it is overwritten, holds an arbitrary number until then |
| `medianfilter.cpp` | `M_Median` | arrays with undefined elements |
| `Modelparameter.cpp` (averaging, windows) | `M_Average` | rows of the matrices |
| `Modelparameter/ModelparameterSeismic.cpp`, `Acoustic`, `SH`, `Elastic`, `ViscoSH`, `Viscoelastic` | `M_Model` | objects with dirty flags, all modifying operations, thresholds, per-shot models |
| petrophysics, rock matrix, reflectivity of the seismic classes, conversion to a variable grid | `M_Petro` | the members added to the objects of `M_Model`; while a formula is evaluated elements may be infinite or not a number; the derivative matrix is a parameter with the rows of `M_Env` |
| `ModelparameterEM/*.cpp` | `M_ModelEM` | the four classes in the same way, with relaxation, files, thresholds, petrophysics; elements of vectors may be infinite or not a number |
| `Wavefields/*.cpp`, decomposition and snapshots in `Simulation.cpp`, `getCompensation` | `M_Wave` | one process; an object is a table from member names to vectors; which members each method of each of the 14 classes touches is written down class by class; LAMA's file writer is left out (a snapshot is the list of file names and vectors); the sign of not-a-number is a parameter |
| the factories `ForwardSolverFactory.cpp`, `WavefieldsFactory.cpp`, `ModelparameterFactory.cpp`, `DerivativesFactory.cpp` and their use at the start of `Simulation.cpp` | `M_Factory` | strings to classes; a null pointer that is used is undefined |
| collection of common offset profiles: `Seismogram::write`, `sumShotDomain`, `SeismogramHandler` (`setShotInd`, `sumShotDomain`, `assignCOP`, `allocateCOP`), shot loop of `Simulation.cpp` | `M_Cop` | one process per shot domain; recorded traces and the resampling are parameters; a collective call that only some domains reach does not return |
| marks of the receivers and supershots: `Receivers::getAcquisitionSettings` with marks, `encode`, `decode` | `M_Decode` | gradientDomain = 0 (decoding with a filter: `M_DecodeF`); marks are integers; the selection of shots and the source lines are parameters; reads and writes of rows that do not exist throw, other index errors are UB |
| `Receivers::getModelPerShotSize` (Receivers.cpp 574-700) | `M_PerShot` | the lists of sources and cuts are inputs; reading the files is the subject of C28 |
| `readColumnFromFile`, `Coordinates::init(config, ...)`, `checkVariableGrid`, `Derivatives::setup` and `setFDOrder` | `M_GridFile` | a file is its content or absent; `operator>>` for int in the "C" locale; DH, origin, DT and the free surface switch are left out; NXPerShot is an integer |
| `IO::writeVector`, `IO::readVector`, `init` from files and `write` of the nine parameter classes, `TwoLayer.cpp` | `M_ModelFiles` | one process; a file is the vector in it; missing files and other sizes make LAMA throw; the rounding of a format is a parameter |
| `Test_CompareSeismogram.cpp` | `M_Compare` | real numbers with infinities and not-a-number; reading of configuration and files left out |
| `getShrinkVector` of `Modelparameter.cpp` | `M_Shrink` | real numbers; one process |
| `getMemoryUsage`, `getMemory*Matrix` of `Derivatives.cpp`, `getNumDMatrices`, `getNumInterpMatrices`, `estimateMemory` of `FDTD2D.cpp`, `FDTD3D.cpp` | `M_Memory` | exact arithmetic, products of indices overflow at 32 bits |
| frequencies of `Sources::calcSourceSettingsEncode`, `writeSourceEncode`, `writeSourceFC` of `Sources.cpp` | `M_Freq`, `M_FreqFile` | real frequencies; an oracle for the random numbers; indices out of range are UB; the file as a list of lines of numbers |
| `SourceReceiverImplFactory.cpp`, choice of the class in the `run` functions | `M_SRFactory` | texts as lists of characters; the null pointer is an outcome |
| supershots with gradientDomain != 0: the filtering branches of `Receivers::encode` | `M_DecodeF` | one receiver type; of multi offset data the decoding only; real arithmetic; a matrix without numbers is `None` |
| `Sources::writeShotIndsIncr`, `writeCutCoordToFile` | `M_IncrFile`, `M_CutFile` | the files as lists of lines of numbers |
| `getGraph` of `FDTD2D.cpp` and `FDTD3D.cpp` (graph of the grid points for the partitioners) | `M_Graph` | entry (i,j) of the sum of the transposed backward matrices minus the backward matrices, from the rows of `M_Deriv` |

## What is not modelled

* IEEE rounding. `ValueType` (float/double) is modelled by exact rationals `Q` or by the reals `R`.
  Where truncation or rounding to integers is part of the code it is modelled (`Qfloor`, `Int_part`).
  Not-a-number and infinities exist only where a theorem is about them (`fpv` in `M_Common`).
  Statements C16-C18 hold for every arithmetic and hence for floating point.
* Overflow of `IndexType`, except in `M_Memory`.
* The LAMA library. Dense vectors are functions or lists; a sparse matrix row is the list of its entries;
  `fillFromAssembly` overwrites or adds as documented; `purge` gives a 0 x 0 matrix, operations on vectors of different size throw;
  `fft`/`ifft` are the unnormalised discrete transforms; `resize` cuts or fills with zeros; distributions are functions
  from index to owner.
* MPI communication, file system failures, GPU contexts, logging, timing, the graph partitioner itself (its node weights and its graph are modelled).
* Equivalent-medium and inversion related code, except as listed above.
* Division by `1 + relaxation sum * tau = 0` in the visco moduli (excluded in the statements).
* A member that the code never initialises is `None` or arbitrary (for example `centerFrequencyCPML`), never a chosen value.

## How the proofs go

* Grids (C01-C08): induction over the list of layers with cumulative counts; integer division lemmas. Termination of the
  adjustment loops is characterised exactly.
* Derivatives (C09-C14): moments of the stencils by computation, lifted to all polynomials by linearity; an invariant of the
  restart loop gives the closed form of every row.
* Derivatives on layered grids (C144, C145): the corrected interfaces and the rows of the layers are related layer by layer
  (`layered`), rows that fit are central differences about a doubled position, powers of three divide each other, so every
  stencil point is a grid point.
* Interpolation at interfaces (C146, C147): each row is computed from the lemmas of C144/C145 on layers and transitions; the
  weights of one direction are shown to reproduce linear functions and the rows are products of two directions.
* Vertical derivatives of staggered fields and the free surface on layered grids (C148, C149): every column is shown to lie on
  the staggered line of its point; the free surface coefficients are rewritten as a sum over the antisymmetric continuation.
* Solvers, dependence (C15-C18, C22, C23): an abstract interpretation of programs (`L_Prog`) proved sound once, evaluated on each
  of the fourteen programs by computation.
* Solvers, energy, reciprocity, reversibility (C19-C21, C23): closed form of one step, adjointness of the stencil matrices,
  induction over time.
* Solvers, equations (C93-C95): symbolic execution of each program, loops over the mechanisms by induction, compared with the
  discretised equations in `S_Step.v`.
* Solvers, energy and stability (C153-C155): a weighted Cauchy-Schwarz inequality bounds each stencil by twice the sum of its
  coefficients, line by line; the closed form of a time step and the adjointness of the stencils give the energy balance; below
  the CFL limit the energy bounds every field.
* Instability (C156): with alternating signs the scheme conserves a quadratic form; if it is negative the norm of the pressure has
  second differences bounded below. The checkerboard makes it negative since the stencil coefficients alternate too.
* Boundaries (C24-C27, C61, C62): real analysis of the exponential; case analysis of the points.
* Acquisition (C28-C38, C63-C68): induction over characters and lists.
* Seismograms and SU files (C39-C45, C69-C73): induction over samples; bytes.
* Source signals (C96-C100): element-wise evaluation of the vector code, real analysis of the wavelets, induction over sources.
* Configuration and checks (C46-C49, C59, C74-C78): refinement to a last-writer map; case analysis.
* Helpers, filters, median (C50-C53, C58, C60, C79-C85): sums of roots of unity, permutations, order statistics.
* Model parameters (C54-C57, C86-C92, C101-C103): invariant of the object states over all operation sequences.
* Electromagnetic parameters (C104-C114): pointwise evaluation of the vector code at points that hold numbers.
* Wavefield objects (C115-C124): the member lists of the 14 classes are compared with the specification by computation; the
  operations are then proved once for any complete list.
* Factories (C157): the functions are evaluated on each class of strings; the vectors of the solvers are compared by computation.
* Graph of the grid (C163): entry (i,j) is the difference of two matrix entries, each the coefficient of at most one axis; a check of all
  pairs of stencils shows that they never cancel.
* Accuracy (C164): the moments of the stencils (C57) cancel the Taylor terms up to order p; Lagrange's remainder bounds the rest.
* Convergence (C165): the error obeys the scheme with the truncation errors as a source. The discrete energy of C153 is a quadratic form,
  equivalent to the sum of squares below the CFL limit; its square root is a norm, so errors grow at most linearly in the number of steps.
  Waves are sampled on the program's grid: the exact solution and its smoothness are hypotheses, existence of solutions is not proved
  (a standing wave is given as an example).
* Convergence of the elastic and viscoelastic solvers (C169): the same argument; the norm is the discrete energy of C153-C154, which for
  relaxation mechanisms includes the springs. The stress truncation errors are chosen so that the velocity truncation errors at the next
  half step are absorbed (the scheme is leap-frog), hence the factor fd_h dt/h, which the CFL limit bounds by 1/v.
* Convergence of the electromagnetic solvers (C170): the same; the norm is the energy of C154. The conduction current is the mean of two
  steps, its error is that of the trapezoidal rule; the electric truncation error is divided by eps + dt sigma / 2 >= emin.
* Debye relaxation, energy and stability (C171): each mechanism stores T/g times a mean of r^2 over two steps with weights 1/2 -+ dt/(4T);
  with it the sum of all energies changes by exact squares. The run that shows dt <= 2T to be needed lives on one grid point; the fields
  stay in a plane on which one step is a matrix of determinant 7/6 and complex eigenvalues, so a definite quadratic form grows.
* Supershots (C160-C162): the loops over receivers are related to filters of the receiver numbers; the loop over types is handled once
  for all encode types by the fact that the types are distinct.
* Model size per shot (C166): an invariant of the loop relates the extents to the minimum and maximum over the shots looked at.
* Model files (C172, C173): sequences of writes and reads are treated as lists of quantities; file names are injective in the quantity, so
  the last write to each name decides. TwoLayer: induction over the planes of the loop.
* Weights of the model of one shot (C175): the assignments are executed on the vector; the value at a point is that of the last assignment to it, computed by induction over the loops; injectivity of the numbering separates the points.
* Memory estimates (C176): the length of a row is bounded by an invariant of the loops that build it (the order only falls, or becomes 2), for every grid; the estimate is a sum over the layers.
* Frequencies of an encoding (C177, C178): the ceilings are characterised by inequalities, so membership in the list is an equivalence; the marks of used frequencies are an invariant of the loop over the shots; termination from fairness and a free frequency in the marks.
* Source-receiver factory (C179): case distinction over the known names, everything else is rejected.
* Supershots with a filter (C182, C183): the product with the two columns of the filter is the Fourier part of the trace (C142); parts are linear, and a harmonic has no part at another frequency; the scaling is unique.
* Files of the thinned shots and of the cuts (C180, C181): as many unique numbers as sources means that no number occurs twice.
* Comparison of seismograms (C174): the loop over the types computes the maximum and the sum of norms; once a square sum is infinite or
  not a number, the quotient is not a number and the comparison is false.
* Grid configuration file (C167, C168): induction over the columns of a line and the lines of the file; the grid is the one of C02.
* Common offset profiles (C158, C159): an invariant gives the profiles of all domains after a round; the all-reduce is a sum in
  which one domain plays a special part.
* Petrophysics (C125-C138): existence and pointwise value of every vector operation, then algebra of the relations at one point.

## Mutation tests

`seeded/LOG.jsonl` lists the edits made to copies of the model, the theorems that failed and those that were tightened because
of a surviving edit.

## Properties and theorems

| id | property | status | file | theorems [axioms] |
|----|----|----|----|----|
| C01 | Regular grid: index and coordinate are inverse bijections | proved | P_Grid | `C01_regular_bijection` [-], `C01_regular_formula` [-] |
| C02 | Variable grid: every grid point index survives the round trip through its coordinate | partial | P_Grid | `C02_variable_roundtrip_partial` [-], `C02_variable_roundtrip_refuted` [-] |
| C03 | Variable grid: coordinate lookup is defined for every coordinate inside the model | partial | P_Grid | `C03_lookup_partial` [-], `C03_lookup_refuted` [-] |
| C04 | Variable grid: layers partition the depth range with aligned interfaces | partial | P_Grid | `C04_layers_partial` [-], `C04_layers_refuted` [-] |
| C05 | Variable grid construction terminates | partial | P_Grid | `C05_termination_iff` [-], `C05_termination_refuted` [-] |
| C06 | Re-initialising a coordinate object forgets the previous grid | partial | P_Grid | `C06_reinit_refuted` [-], `C06_reinit_keeps_old_table` [-] |
| C07 | Edge distance is the true distance to the nearest model face | proved | P_Grid | `C07_edge_distance` [-] |
| C08 | Layer, interface and transition queries agree with the geometry | partial | P_Grid | `C08_queries_partial` [-], `C08_getLayer_refuted` [-] |
| C09 | Finite-difference coefficients have the advertised accuracy | proved | P_Deriv | `C09_antisymmetric` [-], `C09_exact` [-], `C09_near` [-] |
| C10 | Derivative matrix rows stay inside the grid and reduce the order correctly at edges | proved | P_Deriv | `C10_Dx_rows` [-], `C10_Dy_rows` [-], `C10_Dz_rows` [-] |
| C11 | Derivative matrices are consistent at every point including edges | proved | P_Deriv | `C11_consistent` [-] |
| C12 | Forward and backward derivative are negative adjoints | partial | P_Deriv | `C12_stencil` [-], `C12_sparse_refuted` [-], `C12_sparse_interior_partial` [-] |
| C13 | Derivative rows in coarse layers are never empty | partial | P_Deriv | `C13_coarse_edge_refuted` [-], `C13_fitting_rows_partial` [-] |
| C14 | Free-surface derivative is the derivative of the odd extension | proved | P_Deriv | `C14_Dyf_image` [-], `C14_Dyb_image` [-], `C14_extension_odd` [-] |
| C15 | Seismograms are linear in the sources | proved | P_Solver | `C15_linear` [R1] |
| C16 | Recorded data are causal | proved | P_Solver | `C16_causal` [-], `C16_same_step` [R1] |
| C17 | Shots are independent | proved | P_Solver | `C17_shots_independent` [-], `C17_pml_reset` [-] |
| C18 | Information travels at most one stencil width per time step | partial | P_Solver | `C18_cone` [-], `C18_order2_sparse_refuted` [-], `C18_order2_sparse_partial` [-] |
| C19 | Discrete energy is conserved without absorbing boundaries | proved | P_Solver2 | `C19_energy_conserved` [R1] |
| C20 | Source-receiver reciprocity | partial | P_Solver2 | `C20_reciprocity` [R1], `C20_sparse_refuted` [-], `C20_free_surface_refuted` [-] |
| C21 | Free surface keeps the pressure zero at the surface | proved | P_Solver2 | `C21_surface_zero` [R1], `C21_others_unaffected` [R1], `C21_surface_points` [-] |
| C22 | Co-located sources add up | proved | P_Solver | `C22_one_type` [R1], `C22_unchanged` [-], `C22_step` [R1] |
| C23 | A homogeneous static state stays static | proved | P_Solver, P_Solver2 | `C23_zero_stays_zero` [R1], `C23_reversible` [R1] |
| C24 | PML coefficients are stable | proved | P_Bound | `C24_coefficients` [R3], `C24_profile` [R3], `C24_b_decreasing` [R3], `C24_b_velocity` [R3], `C24_memory_bounded` [R3], `C24_position_monotone_refuted` [R3] |
| C25 | PML acts only inside its frame | partial | P_Bound | `C25_coefficients` [R3], `C25_untouched` [R3], `C25_regular_partial` [R3], `C25_thin_refuted` [R3] |
| C26 | Damping frame factors lie in (0,1] and never amplify | proved | P_Bound | `C26_factor2D` [R3], `C26_factor3D` [R3], `C26_range` [R3], `C26_monotone` [R3], `C26_no_amplification` [R3] |
| C27 | Damping frame covers exactly the points near an absorbing edge | partial | P_Bound | `C27_covers_no_surface` [R3], `C27_covers_surface_exact` [R3], `C27_covers_surface_partial` [R3], `C27_thin_refuted` [R3], `C27_memory_estimate` [R3] |
| C28 | Source files are read completely and in order | proved | P_Acq | `C28_sources` [-], `C28_sources_or_error` [-], `C28_sources_wrong_columns` [-], `C28_every_file` [-], `C28_receivers` [-], `C28_receivers_or_error` [-], `C28_receivers_wrong_columns` [-] |
| C29 | Unique shot numbers list each shot once in order of first appearance | proved | P_Acq | `C29_unique` [-], `C29_partition` [-], `C29_index` [-] |
| C30 | Per-shot model window contains all its sources | partial | P_Acq | `C30_partial` [-], `C30_or_error` [-], `C30_receivers_partial` [-], `C30_z_refuted` [-] |
| C31 | Every shot is simulated exactly once | proved | P_Acq | `C31_one_domain` [-], `C31_every_shot_once` [-], `C31_else_error` [-], `C31_encoded` [-], `C31_decomposition` [-] |
| C32 | Processes are divided evenly among shot domains | partial | P_Acq | `C32_even` [-], `C32_configured_refuted` [-], `C32_other_definitions` [-] |
| C33 | Random shot selection draws the requested number of distinct valid shots | partial | P_Acq | `C33_mode1` [-], `C33_mode1_terminates` [-], `C33_mode2_partial` [-], `C33_mode3_partial` [-], `C33_terminates_refuted` [-], `C33_limit_refuted` [-], `C33_mode2_refuted` [-] |
| C34 | Supershot encoding assigns every shot to exactly one supershot and leaves none empty | partial | P_Acq | `C34_mode1_partial` [-], `C34_mode1_terminates` [-], `C34_mode2` [-], `C34_mode3_partial` [-], `C34_mode1_terminates_refuted` [-], `C34_mode3_refuted` [-] |
| C35 | Shot thinning terminates and keeps an ordered subset with the requested spacing | partial | P_Acq | `C35_subset_partial` [-], `C35_terminates_partial` [-], `C35_uniform_partial` [-], `C35_terminates_refuted` [-], `C35_spacing_refuted` [-], `C35_diagonal_refuted` [-] |
| C36 | Traces are sorted by component without loss | proved | P_Acq | `C36_components` [-], `C36_bad_type` [-] |
| C37 | Local and global receivers agree | proved | P_Acq | `C37_local_global` [-], `C37_outside` [-] |
| C38 | The polarity of the wavelet follows the sign of the given amplitude | partial | P_Acq | `C38_partial` [-], `C38_refuted` [-] |
| C39 | Differentiating an integrated trace gives the trace back | partial | P_Seis | `C39_differentiate_integrate_refuted` [R1], `C39_backward_difference_refuted` [R1], `C39_differentiate_integrate_partial` [R1], `C39_backward_difference_partial` [R1] |
| C40 | Normalised traces have unit norm or are zero | proved | P_Seis | `C40_max_norm` [R2], `C40_l2_norm` [R2] |
| C41 | Automatic gain control divides by a sliding-window mean | partial | P_Seis | `C41_agc_mean_refuted` [R2], `C70_agc_mean` [R2] |
| C42 | isFinite detects every invalid trace | partial | P_Seis | `C42_isFinite_refuted` [-], `C71_isFinite` [-], `C71_handler` [-] |
| C43 | Resampling is linear interpolation at the requested times | proved | P_Seis | `C43_interpolation` [-], `C43_weights` [-], `C43_identity` [-] |
| C44 | SU files round-trip trace data | partial | P_Seis | `C44_data` [-], `C44_refuted` [-], `C44_single_trace_refuted` [-], `C72_single_trace` [-], `C72_headers` [-] |
| C45 | SU headers round-trip acquisition coordinates | partial | P_Seis | `C45_source_partial` [-], `C45_receiver_refuted` [-], `C73_receiver` [-], `C73_whole_millimetres` [-] |
| C46 | Configuration lookup returns the last value given for a name | partial | P_Conf | `C46_constructor_partial` [-], `C46_missing_partial` [-], `C46_reread_refuted` [-], `C46_nz_refuted` [-], `C74_history` [-], `C74_listing` [-] |
| C47 | Comments in configuration files are ignored | partial | P_Conf | `C47_comment_refuted` [-], `C75_comments` [-], `C75_comment_line` [-] |
| C48 | An accepted time step satisfies the CFL stability limit of the chosen order | partial | P_Check | `C48_order2_partial` [R2], `C48_cfl_refuted` [R2], `C48_intended_h` [R1], `C76_criterion` [R2] |
| C49 | Accepted sources and receivers lie on grid points | partial | P_Check | `C49_regular` [-], `C49_variable_partial` [-], `C49_gap_refuted` [-], `C49_lists` [-] |
| C50 | The 2-D median filter returns the median of the window | proved | P_Median | `C50_median` [R1], `C50_unique` [R1] |
| C51 | FFT padding never shortens a signal | partial | P_Fft | `C51_refuted` [R3], `C82_length` [R3], `C82_allpass` [R3] |
| C52 | Unwrapped phase is continuous and congruent to the wrapped phase | proved | P_Common | `C52_unwrapped` [R2] |
| C53 | Threshold replacement changes exactly the selected values | proved | P_Common | `C53_replaced` [R1], `C53_ratio` [R1] |
| C54 | Derived model parameters are never stale | partial | P_Model, P_Model2 | `C54_refuted` [R2], `C54_S_after_prepare` [R2], `C87_P` [R2], `C87_S` [R2], `C87_inverse` [R2], `C87_averages` [R2], `C87_parameters` [R2] |
| C55 | Averaging keeps homogeneous models and stays within neighbouring values | partial | P_Average | `C55_regular` [R1], `C55_layered` [R1], `C55_refuted` [R1] |
| C56 | Velocity and modulus conversions are inverse | proved | P_Model | `C56_velocity` [R2], `C56_modulus` [R2], `C56_values` [R2] |
| C57 | Per-shot submodels are windows of the big model | proved | P_Average | `C57_window` [R1], `C57_outside` [R0] |
| C58 | Snapshots are written exactly at the requested times | proved | P_Common | `C58_snapshots` [R1], `C58_zero_increment` [R1], `C58_time_index` [R1] |
| C59 | Equation type names select the right physics case-insensitively | proved | P_Check | `C59_names` [-] |
| C60 | Receiver types in use are listed without repetition | partial | P_Common | `C60_refuted` [-], `C79_listed` [-], `C79_correct_iff` [-], `C79_single_type` [-] |
| C61 | Exact PML rule for every model thickness | proved | P_Bound | `C25_coefficients` [R3], `C25_untouched` [R3] |
| C62 | Exact rule of the damping frame under a free surface | proved | P_Bound | `C27_covers_surface_exact` [R3], `C26_factor2D` [R3], `C26_factor3D` [R3] |
| C63 | Exact rule of per-shot windows | proved | P_Acq | `C30_partial` [-], `C30_or_error` [-], `C30_receivers_partial` [-] |
| C64 | Ranks per shot domain, for the number of domains in use | proved | P_Acq | `C32_even` [-] |
| C65 | Exact behaviour of random shot selection | proved | P_Acq | `C33_mode1` [-], `C33_mode1_terminates` [-], `C33_mode2_partial` [-], `C33_mode3_partial` [-] |
| C66 | Exact behaviour of supershot encoding | proved | P_Acq | `C34_mode1_partial` [-], `C34_mode1_terminates` [-], `C34_mode2` [-], `C34_mode3_partial` [-] |
| C67 | Shot thinning on ordered source lines | proved | P_Acq | `C35_subset_partial` [-], `C35_terminates_partial` [-], `C35_uniform_partial` [-] |
| C68 | Polarity follows the truncated amplitude | proved | P_Acq | `C38_partial` [-] |
| C69 | What integrateTraces and differentiateTraces compute | proved | P_Seis | `C69_integrate` [R1], `C69_differentiate` [R1], `C69_third_sample` [R1] |
| C70 | Gain control of traces with at least two samples | proved | P_Seis | `C70_agc_mean` [R2], `C70_inverse_agc` [R2] |
| C71 | What isFinite detects | proved | P_Seis | `C71_isFinite` [-], `C71_handler` [-] |
| C72 | SU round trip up to 65535 samples | proved | P_Seis | `C72_single_trace` [-], `C72_headers` [-], `C44_data` [-] |
| C73 | Which SU coordinates survive | proved | P_Seis | `C45_source_partial` [-], `C73_receiver` [-], `C73_whole_millimetres` [-] |
| C74 | Exact rule for configuration values | proved | P_Conf | `C74_history` [-], `C74_total` [-], `C74_listing` [-], `C74_listing_total` [-], `C74_case` [-] |
| C75 | Comments do not matter for proper names | proved | P_Conf | `C75_comments` [-], `C75_comment_line` [-] |
| C76 | The stability criterion actually applied | proved | P_Check | `C76_criterion` [R2], `C48_intended_h` [R1] |
| C77 | The model check covers every point of every layer | proved | P_Check | `C77_model_check` [R2], `C77_warnings` [R2] |
| C78 | The model check does not depend on the letter case of the equation type | partial | P_Check | `C78_acoustic_case_refuted` [R2], `C78_elastic_case_refuted` [R2], `C77_model_check` [R2] |
| C79 | Exact content of the list of receiver types | proved | P_Common | `C79_listed` [-], `C79_correct_iff` [-], `C79_single_type` [-] |
| C80 | Phase residuals are shifted by the best whole number of turns | proved | P_Common | `C80_residual` [R2], `C80_empty` [R2] |
| C81 | replaceInvalid replaces exactly the invalid values | proved | P_Common | `C81_invalid` [-] |
| C82 | Exact condition for the filter to keep the signal | proved | P_Fft | `C82_length` [R3], `C82_allpass` [R3] |
| C83 | The Hilbert transform yields the analytic signal and the envelope its magnitude | proved | P_Fft | `C83_analytic` [R2], `C83_cosine` [R2], `C83_envelope` [R3], `C83_cosine_envelope` [R3], `C83_single_sample` [R3] |
| C84 | The instantaneous phase as computed only tells the sign | proved | P_Fft | `C84_phase` [R3], `C84_not_the_argument` [R3] |
| C85 | The 1-D median filter takes five samples with mirrored ends | proved | P_Median | `C85_median` [R1], `C85_single` [-], `C85_size_ignored` [R1] |
| C86 | Averages use exactly the corners of the staggered cell, clipped at the model end | proved | P_Average | `C86_regular_cells` [R1] |
| C87 | Every derived parameter returned is current up to the lower limit on the shear modulus | proved | P_Model, P_Model2 | `C87_P` [R2], `C87_S` [R2], `C87_inverse` [R2], `C87_averages` [R2], `C87_parameters` [R2], `C54_S_after_prepare` [R2] |
| C88 | Preparation makes every derived parameter available | partial | P_Model | `C88_available` [R2], `C88_refuted` [R2] |
| C89 | Re-initialising a parameter object keeps derived parameters computed before | proved | P_Model2 | `C89_stale` [R2], `C89_wrong` [R2] |
| C90 | Thresholds are respected | proved | P_Model2 | `C90_within` [R1], `C90_values` [R1] |
| C91 | Thresholds leave admissible points alone, except fluids | proved | P_Model2 | `C91_unchanged` [R1], `C91_fluid` [R1] |
| C92 | Per-shot models are windows except for the relaxation mechanisms | proved | P_Model2 | `C92_window` [R1], `C92_moduli` [R2], `C92_unrelaxed` [R2], `C92_refuted` [R2] |
| C93 | A time step of the elastic and acoustic solvers is the staggered-grid scheme of the wave equation | proved | P_Step | `C93_elastic` [R1], `C93_sh` [R1], `C93_acoustic` [R1] |
| C94 | A time step of the viscoelastic solvers is the staggered-grid scheme for standard linear solids | proved | P_Step | `C94_viscoelastic` [R2], `C94_viscosh` [R2], `C94_averaged_tauS_refuted` [R2], `C94_free_surface_2_refuted` [R2] |
| C95 | A time step of the electromagnetic solvers is Yee's scheme with Debye relaxation | proved | P_Step | `C95_maxwell` [R1], `C95_debye` [R2], `C95_hyx` [R1], `C95_pml_refuted` [R1] |
| C96 | Source signals over the whole time axis are the samples of their wavelet | proved | P_Signal | `C96_formula` [R2], `C96_berlage` [R2], `C96_rejected` [R2] |
| C97 | Source signals of one period lie between the time shift and one period later | proved | P_Signal | `C97_window` [R2], `C97_spike` [R1], `C97_zero_refuted` [R2], `C97_end_refuted` [R2] |
| C98 | Peak of the source signals | proved | P_Signal | `C98_peak` [R3], `C98_samples` [R3], `C98_berlage` [R3], `C98_amplitude_refuted` [R2] |
| C99 | Relations between the source wavelets | proved | P_Signal, P_Signal2 | `C99_derivative` [R2], `C99_symmetry` [R2], `C99_ends` [R2], `C99_generated` [R2] |
| C100 | Every source gets the signal it asks for, and the two kinds of signal files do not mix over all shots | proved | P_Signal, P_Signal2 | `C100_signals` [R2], `C100_served` [R2], `C100_shapes` [R2], `C100_unknown` [R2], `C100_each_shot_refuted` [R2] |
| C101 | Electromagnetic velocity and averages belong to the current parameters | proved | P_ModelEM | `C101_velocity` [R3], `C101_averages` [R3], `C101_parameters` [R3] |
| C102 | A prepared electromagnetic model offers velocity and averages | proved | P_ModelEM | `C102_available` [R3] |
| C103 | Re-initialising an electromagnetic parameter object leaves the flags as they were | proved | P_ModelEM | `C103_stale` [R3], `C103_wrong` [R3] |
| C104 | Velocity and permittivity are converted into each other | proved | P_ModelEM | `C104_values` [R2], `C104_velocity` [R2], `C104_permittivity` [R2] |
| C105 | Static and real effective electromagnetic values are converted into each other | proved | P_ModelEM2 | `C105_effective` [R2], `C105_static` [R2], `C105_back` [R2], `C105_bounds` [R2] |
| C106 | Writing and reading the electromagnetic parameters | proved | P_ModelEM2 | `C106_plain` [R2], `C106_visco` [R2], `C106_refuted` [R2] |
| C107 | Thresholds of the electromagnetic classes without relaxation | proved | P_ModelEM2 | `C107_plain` [R2], `C107_sizes` [R2] |
| C108 | Thresholds of the electromagnetic classes with relaxation | proved | P_ModelEM2 | `C108_visco` [R2], `C108_static` [R2], `C108_refuted` [R2] |
| C109 | Initialisation of the electromagnetic parameters | proved | P_ModelEM3 | `C109_mechanisms` [R1], `C109_plain` [R2], `C109_visco` [R2], `C109_refuted` [R2], `C109_zero` [R2] |
| C110 | Per-shot electromagnetic models are windows | proved | P_ModelEM3 | `C110_window` [R1], `C110_velocity` [R2], `C110_relaxation` [R2] |
| C111 | Rock matrix and electromagnetic medium are converted into each other | proved | P_ModelEM4 | `C111_rock` [R3], `C111_medium` [R3], `C111_back` [R3], `C111_refuted` [R3] |
| C112 | Saturation and porosity are recovered from the electromagnetic medium | proved | P_ModelEM4 | `C112_saturation` [R2], `C112_porosity` [R2], `C112_back` [R3] |
| C113 | Re-meshing converts three electromagnetic vectors only | proved | P_ModelEM3 | `C113_remesh` [R2] |
| C114 | The smallest velocity ignores values up to 1 | proved | P_ModelEM3 | `C114_vmin` [R1] |
| C115 | Arithmetic of wavefield objects | proved | P_Wave | `C115_plus` [R0], `C115_minus` [R0], `C115_scale` [R1], `C115_weight` [R1], `C115_assign` [-], `C115_transform` [R1] |
| C116 | Initialisation and reset of wavefield objects | proved | P_Wave | `C116_init` [R0], `C116_reset` [R0], `C116_refuted` [R1] |
| C117 | Products of wavefield objects | proved | P_Wave | `C117_product` [R1], `C117_undefined` [R1], `C117_assign` [R1] |
| C118 | Time derivative for the decomposition | proved | P_Wave | `C118_derivative` [R1] |
| C119 | Decomposition into directions | proved | P_Wave2 | `C119_parts` [R1], `C119_sum` [R1], `C119_flat` [R1], `C119_none` [R1], `C119_refuted` [R1] |
| C120 | Files of a snapshot | proved | P_Wave3 | `C120_names` [-], `C120_complete` [R3], `C120_steps` [R3], `C120_rejected` [R3], `C120_directions` [R3], `C120_nothing` [R3], `C120_decomposed` [R3], `C120_curl` [R3] |
| C121 | The check for invalid values | proved | P_Wave2 | `C121_seismic` [-], `C121_em` [-], `C121_refuted` [R0] |
| C122 | Memory estimate of the wavefields | proved | P_Wave2 | `C122_estimate` [R1], `C122_directional` [R1], `C122_refuted` [R1] |
| C123 | Compensation of damping | proved | P_Wave2 | `C123_value` [R2], `C123_steps` [R2], `C123_grows` [R3], `C123_seismic` [-] |
| C124 | Reordering matrix | proved | P_Wave2 | `C124_reorder` [R1], `C124_inverse` [R1] |
| C125 | Pore fluid and Biot coefficient | proved | P_Petro | `C125_biot` [R1], `C125_fluid` [R1], `C125_M` [R1] |
| C126 | Rock matrix from a medium | proved | P_Petro | `C126_matrix` [R2] |
| C127 | Medium from petrophysics | proved | P_Petro2 | `C127_medium` [R2] |
| C128 | Rock matrix and back | proved | P_Petro2 | `C128_back` [R2] |
| C129 | Porosity from a medium | proved | P_Petro2 | `C129_porosity` [R2], `C129_back` [R2] |
| C130 | Porosity above the critical one | proved | P_Petro | `C130_critical` [R2] |
| C131 | P-wave velocity from petrophysics is too small | proved | P_Petro2 | `C131_too_slow` [R2] |
| C132 | Rock matrix of a prepared model | proved | P_Petro2 | `C132_prepared` [R2], `C132_differs` [R2] |
| C133 | Petrophysics in the acoustic class and in the preparation | proved | P_Petro3 | `C133_acoustic` [R2], `C133_prepare` [R2], `C133_prepared` [R2] |
| C134 | Arithmetic of petrophysical models | proved | P_Petro3 | `C134_copy` [R2], `C134_sum` [R2], `C134_assign` [R2], `C134_scale` [R1], `C134_combine` [-] |
| C135 | Thresholds for petrophysics | proved | P_Petro3 | `C135_thresholds` [R1] |
| C136 | Model on a variable grid | proved | P_Petro3 | `C136_variable` [R1], `C136_same_point` [R1] |
| C137 | Petrophysics of the per-shot model | proved | P_Petro3 | `C137_window` [R1], `C137_commutes` [R2] |
| C138 | Reflectivity | proved | P_Reflect | `C138_reflectivity` [R1], `C138_second_order` [R1], `C138_too_few_layers` [R1] |
| C139 | Butterworth polynomial | proved | P_Butter | `C139_polynomial` [R3], `C139_stable` [R3], `C139_magnitude` [R3], `C139_small_order` [R3] |
| C140 | Butterworth gain | proved | P_Butter | `C140_values` [R3], `C140_gain` [R3], `C140_shape` [R1], `C140_rejected` [R3] |
| C141 | Filtered harmonics | proved | P_Butter2 | `C141_harmonic` [R3], `C141_constant` [R3] |
| C142 | One-frequency filters | proved | P_Butter2 | `C142_by_fft` [R3], `C142_by_dft` [R3], `C142_matrix_scaled` [R2] |
| C143 | What a filter object remembers | proved | P_Butter2 | `C143_twice` [R3], `C143_sticky` [R3], `C143_init` [R3] |
| C144 | Horizontal derivatives on layered grids | proved | P_DerivVar | `C144_horizontal` [-], `C144_exact` [-], `C144_equal_layers_refuted` [-] |
| C145 | Vertical derivatives on layered grids | proved | P_DerivVar | `C145_vertical` [-], `C145_interface` [-] |
| C146 | Interpolation at grid interfaces | proved | P_Inter | `C146_full` [-], `C146_coarse_kept` [-], `C146_idempotent` [-], `C146_constant_refuted` [-] |
| C147 | Interpolation of staggered points at interfaces | proved | P_Inter | `C147_staggered` [-], `C147_coarser_refuted` [-] |
| C148 | Vertical derivatives of staggered fields on layered grids | proved | P_Stag | `C148_inside` [-], `C148_fits` [-], `C148_interface` [-], `C148_thin_layer_refuted` [-] |
| C149 | Free surface on layered grids | proved | P_Stag | `C149_free_surface` [-] |
| C150 | Hilbert transform by a FIR filter | proved | P_Fir | `C150_kernel` [R2], `C150_filter` [R2], `C150_harmonic` [R2], `C150_matrix` [R2], `C150_odd_refuted` [R2], `C150_left_end_refuted` [R2] |
| C151 | Node weights of the partitioning | proved | P_Weights | `C151_weights` [R3], `C151_partition_of_unity` [R3], `C151_missing_refuted` [R3], `C151_order_refuted` [R1] |
| C152 | Memory estimate of the PML | proved | P_Weights | `C152_memory` [R3] |
| C153 | Conserved discrete energy | proved | P_Energy | `C153_acoustic` [R1], `C153_elastic` [R1] |
| C154 | Attenuation and conductivity only take energy out | proved | P_Energy | `C154_visco` [R2], `C154_maxwell` [R1] |
| C155 | Stability below the CFL limit | proved | P_Energy | `C155_acoustic` [R2], `C155_elastic` [R2], `C155_visco` [R2], `C155_maxwell` [R2] |
| C156 | Instability beyond the CFL limit | proved | P_Blowup | `C156_unstable` [R1], `C156_sharp` [R2], `C156_accepted` [R2] |
| C157 | Factories choose matching classes | proved | P_Factory | `C157_classes` [-], `C157_rejected` [-], `C157_vectors` [-], `C157_spelling` [R2] |
| C158 | Common offset profile | proved | P_Cop | `C158_profile` [R1], `C158_types_one_domain` [R0], `C158_types_two_domains` [R1] |
| C159 | Hilbert common offset profile | proved | P_Cop | `C159_hilbert_exact` [R1], `C159_one_domain` [R1], `C159_wrong` [R1], `C159_refuted` [R1] |
| C160 | Receivers of a shot from the mark matrix | proved | P_Decode | `C160_supershot` [-], `C160_kept` [-], `C160_normal` [-], `C160_missing` [-], `C160_refuted` [-] |
| C161 | Decoding and encoding of supershots (multi offset data) | proved | P_Decode | `C161_decode` [R1], `C161_one_type` [R1], `C161_encode` [R1], `C161_again` [R1], `C161_adjoint` [R1], `C161_rows_refuted` [R1], `C161_files_refuted` [R1] |
| C162 | Decoding and encoding of supershots (common offset data) | proved | P_Decode | `C162_decode` [R1], `C162_encode` [R1], `C162_again` [R1], `C162_square` [R1], `C162_square_refuted` [R1] |
| C163 | Graph of the partitioners | proved | P_Graph | `C163_symmetric` [-], `C163_edges_2D` [-], `C163_edges_3D` [-], `C163_forward` [-], `C163_forward_refuted` [-] |
| C164 | Error of the finite differences for smooth functions | proved | P_Taylor | `C164_quotient` [R3], `C164_quotient_rounded` [R3], `C164_rows` [R3] |
| C165 | The acoustic solvers converge | proved | P_Conv | `C165_convergence` [R3] |
| C166 | Width of the model of a shot | proved | P_PerShot | `C166_size` [-], `C166_off` [-], `C166_small` [-], `C166_refuted` [-] |
| C167 | Grid configuration file | proved | P_GridFile | `C167_column` [-], `C167_errors` [-], `C167_text_refuted` [-], `C167_grid` [-], `C167_others` [-], `C167_moved` [-], `C167_layers` [-], `C167_inversion` [-], `C167_outside_refuted` [-] |
| C168 | Setup of the derivatives | proved | P_GridFile | `C168_setup` [-], `C168_every_layer` [-], `C168_second_setup` [-], `C168_second_file` [-], `C168_overwrite_refuted` [-], `C168_vector` [-], `C168_switches` [-] |
| C169 | The elastic, SH and viscoelastic solvers converge | proved | P_Conv2 | `C169_elastic` [R3], `C169_visco` [R3] |
| C170 | The electromagnetic solvers converge | proved | P_Conv3 | `C170_maxwell` [R3] |
| C171 | Energy balance and stability of the solvers with Debye relaxation | proved | P_Energy2, P_Energy3 | `C171_balance` [R2], `C171_stable` [R2], `C171_coarse_refuted` [R2] |
| C172 | Writing and reading model files | proved | P_ModelFiles | `C172_read` [-], `C172_write` [-], `C172_roundtrip` [-], `C172_cross` [-], `C172_format` [-] |
| C173 | The model files created by TwoLayer | proved | P_ModelFiles | `C173_writes` [R1], `C173_readable` [R1], `C173_layers` [R1], `C173_refuted` [R1], `C173_case_refuted` [R1] |
| C174 | The verdict of the integration test on seismograms | proved | P_Compare | `C174_verdict` [R2], `C174_same` [R2], `C174_sample` [R2], `C174_shapes` [R2], `C174_average_refuted` [R2], `C174_nonfinite_accepted` [R2], `C174_nan_refuted` [R2], `C174_name` [-], `C174_same_reference` [-] |
| C175 | The weights of the model of one shot | proved | P_Shrink | `C175_weights` [R2], `C175_outside` [R2], `C175_taper` [R2], `C175_flat` [R2], `C175_outside_refuted` [R2], `C175_depth_refuted` [R2] |
| C176 | The memory estimates of the derivative matrices | proved | P_Memory | `C176_bytes` [-], `C176_constant` [-], `C176_enough` [-], `C176_rows` [-], `C176_var_refuted` [-], `C176_overflow_refuted` [-], `C176_total` [-] |
| C177 | The frequencies of a source encoding and the list of the supershots | proved | P_Freq | `C177_frequencies` [R1], `C177_frequencies_plain` [R1], `C177_steady` [R3], `C177_select` [-], `C177_recorded` [-], `C177_terminates` [-], `C177_too_few` [-], `C177_listing` [-], `C177_past_the_end_refuted` [-], `C177_left_over_refuted` [-] |
| C178 | Source encoding with frequencies, from the shots to the files | proved | P_FreqFile | `C178_mode1` [-], `C178_mode2` [-], `C178_mode3` [-], `C178_file` [-], `C178_file_plain` [-] |
| C179 | The factory of the source-receiver classes | proved | P_SRFactory | `C179_class` [-], `C179_agrees` [-] |
| C180 | The file of the shots that are left after the thinning | proved | P_IncrFile | `C180_file` [-] |
| C181 | The file of the cut coordinates | proved | P_CutFile | `C181_file` [-] |
| C182 | Decoding a supershot with a gradient in the frequency domain | proved | P_DecodeF | `C182_decode` [R3], `C182_amplitude` [R3], `C182_separate` [R3] |
| C183 | Supershots of common offset data with a gradient in the frequency domain | proved | P_DecodeG | `C183_decode` [R3], `C183_encode` [R3], `C183_again` [R3] |
