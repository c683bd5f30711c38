# Design

Subject: mockingbirdnest/Principia, source read as text in `/repo` (never built, never modified).
Everything below is in Rocq/Coq 8.16.1 under `rocq/theories`, logical prefix `Verif`.

## Organisation

For each area `X` there are three kinds of files:

* `X_Model.v`  — Gallina transcription of the C++ functions.  Every definition cites the file and
  lines it transcribes and states its simplifications.  Undefined behaviour and `CHECK` failures are
  explicit outcomes (`None`, `Crash`, ...), never silently totalised.
* `X_Proofs.v` — specifications independent of the model's helpers, and the lemmas.
* `X_Props.v`  — the theorems claimed in `MANIFEST.json`, each with `Print Assumptions` and next to a
  concrete example meeting its hypotheses.

Naming: a theorem `..._partial` proves part of a property; `..._refuted` exhibits a witness showing
that the statement is false of the (faithful) model; the positive theorem next to it says what holds.

## Trusted base

* The Coq kernel (and `vm_compute`).
* The axioms printed by `Print Assumptions` under each theorem: either none ("Closed under the global
  context") or axioms of Coq's standard library (real numbers: `ClassicalDedekindReals.sig_not_dec`,
  `ClassicalDedekindReals.sig_forall_dec`, `FunctionalExtensionality.functional_extensionality_dep`,
  and `Classical_Prop.classic` for Flocq-based results).  No axiom of our own, none from other libraries.
* The fidelity of the transcriptions: the C++ compiler, `absl`, `protobuf`, `gipfeli`, the C++ standard
  library containers and threads are not modelled beyond the contracts stated in the model comments.
  Concurrency models take each mutex critical section as one atomic step and each atomic access as
  one step (sequential consistency).
* "Exact arithmetic" properties model `double` by real numbers; floating-point properties use
  Flocq's binary64 formats or the standard library's `SpecFloat`.

## How to read `seeded/LOG.jsonl`

Each line is one wrong program tried against the theorems in a scratch copy.

* `failed` lists the theorems whose proof no longer goes through, directly or through a lemma that fails.
  That the proof breaks doesn't show that the statement is false of the wrong program.
* An empty `failed` with no `outcome`, or with `SURVIVED`, is a wrong program that no theorem detects.
* `INCONCLUSIVE`: the prover timed out, ran out of memory or was killed before the theorems were checked.
  Nothing was learnt about the theorems.  A `note` gives the file.
* `LEMMA-ONLY`: only auxiliary lemmas are known to fail, not a theorem.
* `INVALID`: the edited model didn't compile, so nothing was tested.

Until late in the work the script that ran the wrong programs counted the last three cases as detected.
The lines concerned were annotated afterwards, as far as the outputs of the script had been kept; a line without
`outcome` predates this distinction, and a timeout may have been counted as a failure there.
Where an attempt was run again, the new line comes later in the file.

## Properties: what is modelled and how it is proved

| Id | Model | Proof |
|----|-------|-------|
| C01 | 32-bit machine-word transcription of the loop (explicit uint32 wrap). | Invariant on the carry mask; reversal defined independently bit by bit; induction for the cycle. |
| C02 | The recursive functions on nat/N. | Strong induction. |
| C03 | Bit-level loops of Encode/Decode with the two repertoires (the literal block table transcribed). | The bit stream spec is a list of booleans; general lemma on regrouping; table injectivity checked by computation inside the proof (finite table). |
| C04 | Backward byte loop over a memory (function from addresses) so that aliasing is visible; decode loop. | Loop invariant on the memory. |
| C05 | 64-bit wrap-around arithmetic. | Number-theoretic argument on `a + (~a >> 47)`. |
| C06 | Heap of nodes (parent, rank, properties). | Forest invariant plus refinement to an abstract partition. |
| C07 | Small-step two-thread machine (mutex critical sections atomic). | Invariant + progress measure; refinement to the byte list. |
| C08 | Same style as C07. | Invariant. |
| C09 | Small-step machine with n workers and a destructor. | Invariant for at-most-once; counterexample for destruction. |
| C10 | Small-step machine of Add/Toil/Join with the mutex and the atomics. | Counterexample schedule; invariant for what holds. |
| C11 | memcmp on byte representation. | Counterexample for 2-byte elements; theorem for 1-byte elements. |
| C12 | Enumeration and table transcribed; action on triples. | Case analysis. |
| C13 | Record of two reals, one definition per overload. | ring; counterexample for real-minus-complex. |
| C14 | Quaternions over R. | ring / trigonometric identities. |
| C15 | Fold over a list of weighted points in R. | Induction and field. |
| C16 | Affine maps over R^3 with an abstract linear map given by its laws. | Algebra. |
| C25 | Formulas over R. | field; counterexample for the L1 bound; calculus for the L2 norm. |
| C29 | Integer model of the civil calendar functions. | lia with div/mod. |
| C30 | Integer model. | lia / periodicity. |
| C31 | Parsers as functions on character lists. | Inversion of the parser; counterexamples for the stray W and negative ordinal dates. |
| C34 | List of segments (time lists) plus the map. | Invariant per operation; counterexamples where it fails. |
| C35 | Iterators as (segment, point) positions. | Refinement to positions in the merged list. |
| C36 | As C35. | Refinement. |
| C37 | As C34. | Set equality; counterexample at junctions. |
| C38 | Segment with downsampling state, error function abstract. | Invariant; counterexample for the reload. |
| C39 | Sorted map; critical sections as steps. | Order lemmas; counterexample for the concurrent reader. |
| C40 | Multiset/multimap and threads. | Invariant; counterexample for the race. |
| C41 | Multiset. | Permutation lemmas. |
| C44 | State machine of flight_plan.cpp with the integrator as an arbitrary oracle. | Inductive invariant over all histories. |
| C45 | As C44. | Case analysis; counterexample. |
| C46 | As C44. | Counterexample for Remove; invariant for the others. |
| C47 | As C44. | Counterexample. |
| C48 | Formulas over R. | exp/ln/sqrt lemmas, derivative. |
| C49 | Parts with pile-up labels and the missing count. | Invariant of unions. |
| C53 | The linear maps of C12/C14 over R, frames replaced by the sign of the determinant. | ring; counterexample for reversing conformal maps. |
| C54 | Rigid transformations with angular velocity and origin velocity over R. | Algebra; derivative of inner products. |
| C55 | Formulas over R with explicit infinities and NaNs. | Case analysis on the discriminant. |
| C56 | Scanner over lists of characters; the value is a rational. | Induction on the string; counterexamples for overflow and absence of digits. |
| C32 | Calendar dates, times of day, rational seconds. | Tables by computation over the months 1961-2022, induction-free arithmetic; a successor relation on UTC times as specification. |
| C33 | Arrays as lists with a distinct out-of-bounds outcome, recursion on fuel. | Induction on fuel. |
| C57 | The two tables in full; rational arithmetic. | Lipschitz bound of broken lines by induction over the points; hypotheses on the tables by vm_compute. |
| C17 | Double_Model.v: TwoSum, TwoDifference (vectors and points), QuickTwoSum, QuickTwoDifference, ExponentInterval and ProperlyOrdered, on the binary64 numbers of Flocq with IEEE rounding to nearest, infinities and NaNs. Not modelled: quantities and multivectors (the functions apply to each coordinate), other rounding modes, the debug-mode checks other than their condition. | Double_Proofs.v, DoubleOrder_Proofs.v: finiteness of the results implies that of all intermediate ones; Pff TwoSum and Fast2Sum theorems; own proof for a first argument that is a multiple of the ulp of the second one. |
| C18 | Double_Model.v: TwoProduct with FMA and VeltkampDekkerProduct. | Double_Proofs.v: Pff Dekker theorem and the exactness of the error of a product. |
| C19 | Double_Model.v: Trunc, Frac, the subtraction of double-doubles. | DoubleOrder_Proofs.v, DoubleFrac_Proofs.v: gap between a representable number and the integers; exactness of the subtraction. |
| C20 | Double_Model.v: NextUp, NextDown, LogB (loops). | DoubleNext_Proofs.v: comparison with the Flocq successor. |
| C21 | Double_Model.v: ScaleB (loops). | DoubleScale_Proofs.v: induction on the exponent. |
| C22 | Double_Model.v: ULPDistance on the bit patterns of Flocq. | DoubleUlp_Proofs.v: the rank of a number is an order isomorphism onto an interval; NextUp increments it. |
| C26 | RootFinders_Model.v: Bisect, Barycentre of two doubles, Sign, on the binary64 numbers of Flocq; the function is any function of doubles. Not modelled: units, points with an origin other than 0. | RootFinders_Proofs.v: the midpoint is the rounded midpoint (halving after rounding), strictly inside unless the bounds are adjacent; induction on the difference of ranks. |
| C58 | RootFinders_Model.v: Brent (zeroes), every operation on doubles. DoubleBrent, GoldenSectionSearch and Brent (extrema): see C83. | RootFinders_Proofs.v: invariant of the loop (values and signs), exactness of the tolerance by Sterbenz. |
| C23 | Polynomial_Model.v: the Estrin and Horner evaluators, Pow, FallingFactorial and Binomial on int64, and the operators, AtOrigin, Derivative, Primitive and Compose of polynomials in the monomial basis, on lists of real coefficients. Not modelled: rounding, coefficients with several coordinates, Integrate (Gauss-Legendre quadrature), serialization. | Polynomial_Proofs.v: the value is a sum of monomials; blocks of coefficients split and shift; induction on the degree; derivatives with derivable_pt_lim of the Reals library; binomial theorem of the library, the coefficients up to degree 20 by computation. |
| C24 | Chebyshev_Model.v: operator(), EvaluateDerivative of polynomials in the Чебышёв basis, on lists of real coefficients; accesses out of bounds are distinguished. Not modelled: rounding, DCHECKs, coefficients with several coordinates, serialization. | Chebyshev_Proofs.v: T and U by their recurrences, T_n(cos a) = cos(n a); Clenshaw's recurrence by its invariant; derivatives with derivable_pt_lim. |
| C59 | Chebyshev_Model.v: FrobeniusCompanionMatrix, MayHaveRealRoots, RealRoots. The eigenvalues of the companion matrix are a parameter: RealSchurDecomposition is not modelled. | Chebyshev_Proofs.v: |T_n| <= 1 on [-1, 1]; an eigenvector is a multiple of (T_0(x), ..., T_{N-1}(x)). |
| C60 | Approximation_Model.v: ЧебышёвInterpolationMatrix, ЧебышёвPolynomialInterpolant, the streaming and adaptive versions; the function, the criterion of subdivision and the (stateful) criterion of termination are any. Not modelled: rounding; the recursion of the subdivision is bounded by fuel. | Approximation_Proofs.v: discrete orthogonality of cosines; nesting of the points; invariants of the recursions. |
| C28 | `NearestNeighbour_Model.v`: the whole of numerics/nearest_neighbour_body.hpp over exact reals: BuildTree (fuel; std::nth_element is any function with the postcondition of the C++ standard, the principal axis is any function that returns a unit vector, both fields of a `library` record), Initialize, Add with the descent and the split of a full leaf, Find with the flag `must_check_other_side` that is stored by the child (a read of an unset flag and a failed CHECK are `None`), FindNearestNeighbour. Not modelled: the diagonalization that gives the axis, the bound of 2^31 on the number of values, rounding | invariant of the tree (unit axes, the first child on the nonpositive side of its plane and the second on the nonnegative side, nonempty leaves, indices a permutation) kept by BuildTree and Add; Cauchy-Schwarz for the pruning; induction on the tree for Find |
| C27 | `FourierTransform_Model.v`: the constructor of FastFourierTransform (reindexing with BitReversedIncrement of `Bits_Model.v`, stores in the array), DanielsonLánczos with its specializations for chunks of 1, 2 and 4, the recurrence for the twiddle factors, PowerSpectrum and Mode. Values are real (vectors are transformed coordinate by coordinate); exact arithmetic; Mode and PowerSpectrum for Δt > 0, where the map is in the order of the indices | induction on the logarithm of the size with the Danielson-Lánczos lemma; the specializations are shown equal to the general step; Parseval from the parallelogram identity; symmetry from the formula; scan invariant for Mode |
| C61 | `Complexification_Model.v`: every operator of geometry/complexification_body.hpp, Conjugate, Norm², Norm, InnerProduct, with real components and exact arithmetic. Not modelled: the stream output | `field_theory` of the standard library by ring and field; the operator real - complex is characterized exactly: right only for real arguments |
| C52 | `Parser_Model.v`: quantities/parser_body.hpp: ParseUnit with its table (exact real scales), ParseExponent (strtol with saturation and conversion to int), ParseExponentiationUnit, ParseProductUnit, ParseQuotientUnit, ParseQuantity, on lists of bytes with the searches of std::string and npos. strtod is a parameter. Not modelled: overflow of the 64-bit exponents of the dimensions, rounding | unit expressions with arbitrary blanks as trees, a printer and a denotation; induction on factors, products and quotients, with lemmas that locate each separator |
| C43 | HarmonicDamping and both functions, over R; lengths may be infinite. | Derivatives of the standard Reals glued at the thresholds; the derivative is a continuous function of a clamped argument. |
| C62 | Precomputations, updates, sums over orders and degrees, initialization and the switch of geopotential_body.hpp, over R, arrays with arbitrary contents; normalization factors are a parameter; NaN and infinite positions are not modelled. | Invariant on the arrays through the two loops; derivative of each term along a line; terms that are skipped have a null value and gradient; the zonal basis is exchanged by uniqueness of the derivative. |
| C63 | The constructor with the priority queue as a sorted list, std::partition_point as its specification on a partitioned sequence; maxima of Legendre functions are a parameter. | Queue sorted and a permutation; invariant of the loop that fills the dampings. |
| C64 | `RotatingBody_Model.v`: the parameters and accessors of RotatingBody (axes, angular velocity, AngleAt, the rotations of the celestial and surface frames as the code composes them from quaternions), BodySurfaceFrameField::FromThisFrame, ToSpherical and ToCartesian; over R. Not modelled: serialization and the compatibility paths, min/mean/max radii, rounding. | `RotatingBody_Proofs.v`: the quaternions of Euler rotations act as products of elementary rotations; atan2 as the unique angle in (-pi, pi]; `VectorCalculus_Proofs.v`: rules for derivatives of vectors. |
| C65 | `ReferenceFrame_Model.v`: `SimilarMotion`, action, `SMMul`, `SMInverse`, `DilatationAboutOrigin`, `SMIdentity`, `RMForget`, after `similar_motion_body.hpp`, `conformal_map_body.hpp`, `homothecy_body.hpp`; over R; the determinants of the orthogonal maps are Booleans. Not modelled: serialization, `Forget` to other classes, the concept constraints. | `SimilarMotion_Proofs.v`: algebra of the similarities, product rule for moving similarities; specification is the derivative (`derivable_pt_lim` by coordinates). |
| C66 | `ReferenceFrame_Model.v`: trihedra and their derivatives, angular velocity and acceleration, the five geometric accelerations, the potential, the motions of the four rigid frames, the cache of `BarycentreDerivative`, `FrenetFrame`. The trajectories are functions of time with their derivatives given; gravitation is an arbitrary function. Not modelled: serialization, time bounds, the case of a null cross product (the Normalize yields NaNs), the locks (the cache is used under its lock). | `ReferenceFrame_Proofs.v`, `ReferenceFrame_Proofs2.v`, `ReferenceFrame_Proofs3.v`: the equations are proved for every moving frame, then each frame is proved to be one by differentiating the trihedron. |
| C67 | `ReferenceFrame_Model.v`: `r_derivatives`, `pulsating_ToThisFrame`, `pulsating_GeometricAcceleration`, `pulsating_RotationFreeGeometricAccelerationAtRest`, `pulsating_GeometricPotential` (in units where the frame length is 1). | `ReferenceFrame_Proofs3.v`: quotient rule twice on the image of the rigid frame of C66. |
| C68 | `Ephemeris_Model.v`: the constructor, the accelerations between massive bodies (all, or one), on massless bodies with the status, the potential, the jerks, the Jacobian applied to a vector, `ToleranceToErrorRatio`; over R; a geopotential is an arbitrary pair of functions (acceleration, potential), linked to `Geopotential_Model.v` by `C68_conservative`; vectors indexed by bodies are functions. Not modelled: the integration itself, the locks, the intrinsic accelerations, checkpoints, apsides. | `Ephemeris_Proofs.v` (constructor, double loops), `Ephemeris_Proofs2.v` (conservation by antisymmetry, massless bodies), `Ephemeris_Proofs3.v` (potential, gradients, jerks, errors), `Ephemeris_Proofs4.v` (geopotentials of C62 and of J2). |
| C42 | `Hierarchy_Model.v`: `BarycentreCalculator` of degrees of freedom, `JacobiCoordinates` (both `Add`s, `System`, `BarycentricDegreesOfFreedom`), `HierarchicalSystem::Add`, the comparison of the elements with its `LOG(FATAL)`, `ToBarycentric`, `ConsumeBarycentricSystem`; over R. A hierarchy is a tree; `std::sort` is any function satisfying its contract (an insertion sort is shown to satisfy it); the `StateVectors` of the orbit are an arbitrary function of the sum of the gravitational parameters (see C69 for the orbits). Not modelled: serialization, moved-from objects. | `Hierarchy_Proofs.v` (specification `laid_out`, induction on the tree, invariant of the loop over the satellites), `Hierarchy_Proofs2.v` (bodies, semimajor axes, construction, sort). |
| C69 | `Kepler_Model.v`: `CompleteConicParametersByCategory`, `CompleteConicParameters`; values are real numbers or not finite. Not modelled: rounding, the distinction of NaNs and infinities. | `Kepler_Proofs.v` (specification `measures`, the categories), `Kepler_Proofs2.v` (the fifteen pairs of categories), `Kepler_Proofs3.v` (composition). |
| C70 | `Kepler_Model.v`: `CompleteOrientationParameters`, `CompleteAnomalies`, `OrbitFromElements`, `StateVectors`; the root finder is a function argument with a contract, and an Example shows that one exists. Not modelled: the rounding, the accuracy of `Brent`. | `Kepler_Proofs4.v` (specification, root finders, derivative of an inverse function, state vectors), `Kepler_Proofs5.v` (law of areas, ellipses, hyperbolas), `Kepler_Proofs6.v` (composition). |
| C71 | `Kepler_Model.v`: `OrbitFromState` with `AngleBetween`, `OrientedAngleBetween`, `ReduceAngle`, then the functions of C70. Not modelled: rounding, signed zeros. | `Kepler_Proofs7.v` (angles, conic parameters from the state), `Kepler_Proofs8.v` (orientation, same state, witnesses). |
| C51 | `Multistep_Tables`, `Multistep_Model`: `FiniteDifference` and its tables (n up to 9), the tables of Adams-Moulton, Cohen-Hubbard-Oesterwinter, Adams-Bashforth, Quinlan and Quinlan-Tremaine methods (generated from the sources), one step of `ExplicitLinearMultistepIntegrator` and of `SymmetricLinearMultistepIntegrator`, `ComputeVelocity`; numbers are real | `Multistep_Proofs`, `Multistep_Proofs2`, `Multistep_Proofs3`, `Multistep_Props`: each formula is exact on all the polynomials of its degree, for every step size, and the degree is the best possible; the symmetric methods are symmetric in time |
| C72 | `Multistep_Model.v`: `starter_solve`, `startup_append_state`, `multistep_loop`, `multistep_solve`, `e_step`, `s_step`, `ComputeVelocity`; the startup integrators are `rk_solve` and `srkn_solve` of `OneStep_Model.v`. Not modelled: rounding and compensated sums, thread stops, serialization. | `Multistep_Proofs4.v` (states of an instance, generic), `Multistep_Proofs5.v` (both integrators), `Multistep_Proofs6.v`, `Multistep_Proofs7.v` (stops) (calls which go nowhere). |
| C73 | `OneStep_Model.v`: `srkn_solve`, `srkn_iterate`, `srkn_checks`, `AsSRKN`, `rk_solve`, `rk_iterate`, `rk_checks`, with one loop `one_step_loop`. Not modelled: rounding and compensated sums, thread stops, serialization. | `OneStep_Proofs.v` (loop, Runge-Kutta), `OneStep_Proofs2.v` (kicks and drifts, reversibility), `OneStep_Proofs3.v` (symplecticity, continuation, statuses). |
| C74 | `Adaptive_Model.v`: `adaptive_loop`, `adaptive_solve`, `adapt`, `erk_attempt`, `erk_begin`, `erk_checks`, `rkn_attempt`, `rkn_checks`; `Adaptive_Tables.v`: the tables. Not modelled: rounding and compensated sums, infinite ratios (zero error), thread stops, serialization, clones. | `Adaptive_Proofs.v` (control of the step, generic), `Adaptive_Proofs2.v` (steps of the methods), `Adaptive_Proofs3.v` (instances, tables, interrupted integrations). |
| C75 | `Adaptive_Model.v`: `erk_attempt`, `rkn_attempt`; `Adaptive_Tables.v`: the tables, as rational numbers; `OneStep_Model.v`: `Kutta1901Vsigma1`. Not modelled: rounding (of the coefficients and of the computations). | `Order_Proofs.v` (asymptotic expansions), `Order_Proofs2.v` (trees, equations as expressions, expansions of the stages and of the solutions over trees), `Order_Proofs3.v` (enumeration of the trees and verification of the order conditions in integers), `Order_Proofs4.v` (the order conditions imply the order), `Order_Proofs5.v` (steps of the integrators, tables), `Order_Proofs6.v` (Fine1987RKNG34). |
| C76 | `OneStep_Model.v`: `srkn_iterate`, `srkn_checks`, `AsSRKN`; `Symplectic_Tables.v`: the 31 tables, as the decimal numbers that are written, and `double_of`. Not modelled: rounding of the computations. | `Order_Proofs7.v` (the kicks and drifts as a Nyström method, errors when the conditions hold within a tolerance), `Order_Proofs8.v` (arithmetic with errors, enumeration of the trees, verification of the tables), `Order_Proofs9.v` (`double_of` rounds to nearest; accuracy of the written coefficients; leapfrog). |
| C77 | `Matrix_Model.v`: BackSubstitution, ForwardSubstitution, Solve, R3x3Matrix::Solve over exact rationals. Not modelled: rounding, units, rectangular matrices, logging. | `Matrix_Spec.v` (sums, products, independence), `Matrix_Proofs.v` (invariant P A = L U of the loop; substitutions), `Matrix_Proofs2.v` (success for dimensions 1 and 2 and for column dominant matrices). |
| C78 | `Eigen_Model.v`: ComputeHouseholderReflection, Premultiply, PostMultiply, HessenbergDecomposition, FrancisQRStep, the matrix T of RealSchurDecomposition, SymmetricSchurDecomposition2By2, ClassicalJacobi, over exact real numbers. Not modelled: rounding, units, the real and complex eigenvalues computed from the diagonal blocks of T, logging. | `Eigen_Spec.v` (orthogonality, similarity, eigenvalues, residuals), `Eigen_Proofs.v` (matrix algebra, reflections), `Eigen_Proofs2.v` (Hessenberg, Francis, deflation), `Eigen_Proofs3.v` (Jacobi). |
| C79 | `Lattice_Model.v`: UnitriangularGramSchmidt, Round (through a binary floating-point number of 168 digits), LenstraLenstraLovász, with cpp_int as Z and cpp_rational as canonical rationals; the storage that UninitializedQ and UninitializedR return is a parameter (the same at each call; `C79_gram_schmidt_initialized` says that it does not matter). Not modelled: the instances for double elements, the range of the exponent of cpp_bin_float_50. | `Lattice_Spec.v` (orthogonalization, lattices, reduced bases, lengths), `Lattice_Proofs.v` (orthogonalization), `Lattice_Proofs2.v` (effect of the operations on columns), `Lattice_Proofs3.v` (termination, the first vector, rounding). |
| C80 | `NguyenStehle_Model.v`: Gram (also with the extent of its storage), Insert, CholeskyFactorization, SizeReduce, NguyễnStehlé, as functions of the floating-point operations (`float_ops`), with two instances: exact rationals and binary64 (`SpecFloat`). cpp_int is Z; the storage extends itself when written, and its initial contents are parameters. Not modelled: the conversion of large cpp_int to double other than to nearest; llround out of range or of NaN is a parameter. | `NguyenStehle_Spec.v` (Gram matrix, independence, reduced bases), `NguyenStehle_Proofs.v` (exact part, any arithmetic), `NguyenStehle_Proofs2.v` (the factorization), `NguyenStehle_Proofs3.v` (independence, the iterations), `NguyenStehle_Proofs4.v` and `NguyenStehle_Proofs5.v` (termination), `NguyenStehle_Proofs6.v` (infinite executions). |
| C50 | `Journal_Model.v`: the object of class Method (constructors, Return, destructor), Recorder (WriteAtConstruction, WriteAtDestruction, WriteLocked, Activate, Deactivate) as a transition system whose events are the steps of any number of threads; GetLine over a model of std::istream::getline; Player (Read, Process, Play) with one RunIfAppropriate for each profile. A message is an extension number and three opaque submessages; the serialization, the parsing, the memory of the buffers, the list of profiles and the compatibility of versions are parameters. Not modelled: the fields of the messages (Fill, Insert, Run), the pointer map, the test of the active recorder and the reading of its pointer as two steps, the buffering of the file and failures of the file system, the logging. | `Journal_Spec.v` (records of a call, disciplined executions), `Journal_Proofs.v` (invariant of the recorder), `Journal_Proofs2.v` (lines, the player), `Journal_Proofs3.v` (executions). |
| C81 | `Davenport_Model.v`: the attitude profile matrix, the matrix K, the choice of the eigenvalue and DavenportQMethod, over the model of ClassicalJacobi of C78 and that of Rotation and R3x3Matrix of C14, in exact arithmetic. Not modelled: rounding, infinities and NaN (for which no eigenvalue would be chosen). | `Davenport_Spec.v` (gain and loss of Wahba), `Davenport_Proofs.v` (quadratic forms, inequality of Cauchy and Schwarz). |
| C82 | `Cholesky_Model.v`: CholeskyDecomposition, the RDR decomposition, ClassicalGramSchmidt (for square matrices), RayleighQuotient and RayleighQuotientIteration, in exact arithmetic, with a division by zero or the square root of a negative number as a failure, and arbitrary contents of the uninitialized storage. The number of iterations, the threshold and Solve are parameters. Not modelled: rounding, propagation of NaN. | `Cholesky_Spec.v` (positive definite matrices, orthonormal columns), `Cholesky_Proofs.v` (triangular systems, pivots). |
| C83 | `Extrema_Model.v`: GoldenSectionSearch, Brent (extrema) and DoubleBrent, for any arithmetic, with the reals and the doubles as instances; in DoubleBrent the calls to Brent are parameters, and `DoubleBrentDoubles` has the actual ones. The arguments and the values are numbers (no affine spaces), f is a total function without side effects. Not modelled: exceptions and non-deterministic functions. | `Extrema_Spec.v` (orders, unimodal functions, evaluated points, crossings), `Extrema_Proofs.v` (golden section), `Extrema_Proofs2.v` (Brent: best point, distance of the points to the bounds in exact arithmetic), `Extrema_Proofs3.v` (DoubleBrent), `Extrema_Proofs4.v` (doubles). |
| C84 | `Recurrence_Model.v`: the constructor with overflow as an outcome, the accessors in turns, mod and Sign, ClosestRecurrence once κ is computed for any arithmetic (reals and doubles), and ClosestRecurrence for doubles in SI units. Not modelled: the accessors on doubles, the longitudes of LongitudesOfEquatorialCrossings, the status messages. | `Recurrence_Spec.v` (preconditions, subcycle, simple continued fractions and their values), `Recurrence_Proofs.v` (constructor, matrices of continued fractions, Euclid), `Recurrence_Proofs2.v` (penultimate convergent, ground track, best approximations and the theorem of Lagrange). |
| C85 | `Perspective_Model.v`: SegmentBehindFocalPlane, IsHiddenBySphere, VisibleSegments for a sphere with its CHECK and DCHECKs, for any arithmetic (extended real numbers and doubles); VisibleSegments for several spheres, for any function on a sphere. Not modelled: operator(), Tan²AngularDistance, the construction of the similarities. | `Perspective_Spec.v` (hidden points, parts of a segment), `Perspective_Proofs.v` (shadows), `Perspective_Proofs2.v` (listing of the intersections with the cone), `Perspective_Proofs3.v` (shadow on a line, tangents), `Perspective_Proofs4.v` (sorting and cutting), `Perspective_Proofs5.v` (the algorithms, several spheres). |
| C86 | `Euler_Model.v`: the constructor of EulerSolver with its CHECKs, AngularMomentumAt, AngularVelocityFor, AttitudeAt, Compute𝒫ₜ, on real numbers with infinities for the argument of the hyperbolic functions; the elliptic functions are a parameter. Not modelled: MotionAt, the serialization, the implementation of the elliptic functions. | `Euler_Spec.v` (elliptic functions, torque-free motion), `Euler_Proofs.v` (frames, algebra), `Euler_Proofs2.v` (derivative of the attitude from that of the angle), `Euler_Proofs3.v` (formulas i and ii), `Euler_Proofs4.v` (formula iii), `Euler_Proofs5.v` (the solver), `Euler_Proofs6.v` (the elliptic functions exist). |
| C87 | `MechanicalSystem_Model.v`: MechanicalSystem (AddRigidBody, LinearMotion, centre_of_mass, mass, AngularMomentum, InertiaTensor), Anticommutator and AnticommutatorInverse, SymmetricSquare, the constructor of RigidMotion from the motion of FromFrame, on real numbers; the failed CHECK of an empty barycentre is None. The orthogonal maps and rigid motions are those of `Geometry_Model.v`. Not modelled: the serialization. | `MechanicalSystem_Spec.v` (material points and their sums), `MechanicalSystem_Proofs.v` (second moments, transport of forms), `MechanicalSystem_Proofs2.v` (the state after AddRigidBody, the results). |
| C88 | `PushPull_Model.v`: the members of PushPullCallback and PushPullExecutor, the four operations and Shutdown, the thread of the task, get and the destructor, and the loop of the managed code; the critical sections are atomic steps, interleaved arbitrarily. Not modelled: exceptions, the moves of the values, tasks that call the callback from several threads (an example shows that this does not work) or that do not terminate. | `PushPull_Spec.v` (direct evaluation of the task), `PushPull_Proofs.v` (invariant with the exact number of remaining steps). |
| C89 | `Recurring_Model.v`: RecurringThread with an output: Start, Stop, Restart, the destructor, RepeatedlyRunAction, Put, Get, RunAction with each of its checks of the stop token, as atomic steps that are interleaved arbitrarily; the time; the use of a destroyed member is an undefined behaviour. Not modelled: the specialization without output, which only lacks the last check and the storage of the output; exceptions. | `Recurring_Spec.v` (subsequences, outputs of an action with a state), `Recurring_Proofs.v` (invariants of the inputs, of the outputs, of the stop token and of the period; ranks). |
| C90 | `Legendre_Model.v`: DoubleFactorial, LegendreCoefficientsGenerator with the conversions between std::size_t and std::int64_t, LegendrePolynomial with coefficients on real numbers and on doubles; the factorials and the evaluation are those of C23. An overflow is an undefined result. | `Legendre_Spec.v` (recurrence of Bonnet, integral from -1 to 1), `Legendre_Proofs.v` (relations between the polynomials and their derivatives, equation, orthogonality, norm), `Legendre_Proofs2.v` (coefficients, overflow, rounding). |
| C91 | `Dimensions_Model.v`: ExponentSerializer, Dimensions, DimensionsAreSerializable, the generators of dimensions and of types (types are values, a compilation error is [None]), WriteToMessage and ReadFromMessage. Not modelled: the overflow of the exponents at compile time, the arithmetic of the magnitudes, which is that of doubles, the formatting. | `Dimensions_Spec.v` (changes of units), `Dimensions_Proofs.v`. |
| C92 | `ContinuousTrajectory_Model.v`: Append, ComputeBestNewhallApproximation, Prepend, t_min, t_max, FindPolynomialForInstant, the choice of polynomial of EvaluatePosition and EvaluateVelocity, WriteToCheckpoint, ReadFromCheckpoint. Instants and lengths are integers (multiples of the smallest double), the Newhall approximation is an arbitrary function and the check of the step an arbitrary relation. Not modelled: the mutex, the computation of the polynomials, the rounding of the multiplication by 1e6, NaNs and infinities, the serialization. | `ContinuousTrajectory_Spec.v`, `ContinuousTrajectory_Proofs.v`, `ContinuousTrajectory_Proofs2.v`. |
| C93 | `AngleReduction_Model.v`: the three versions of ReduceAngle, with and without the integer part. Angles are real numbers and the additions and divisions are exact; the reduction modulo π/2 (Reduce, numerics/sin_cos.cpp:617-627) is an arbitrary function with an error. Not modelled: the algorithms of Reduce (Cody and Waite, Boldo, Daumas and Li, Payne and Hanek), the rounding of the additions and of the integer part. | `AngleReduction_Spec.v` (parts of an angle), `AngleReduction_Proofs.v`. |
| C94 | `Collision_Model.v`: ComputeCollisionIntervals, with the detection of anomalous apsides, both loops and the checks; the choice of the time of an apsis in ComputeApsides. Times and squared distances are real numbers; the root finder is exact; the set of times is a list in increasing order. Not modelled: the evaluation of the trajectories, the construction of the set of times, the rest of ComputeApsides. `FirstCollision_Model.v`: ComputeFirstCollision on top of the streaming interpolation of C60; the height above the terrain is any function, and the roots of an interpolant are given by a parameter, assumed exact for the interpolants produced. Not modelled: the frames and spherical coordinates, the precision of the roots. | `Collision_Spec.v` (intervals of collision), `Collision_Proofs.v`. |
