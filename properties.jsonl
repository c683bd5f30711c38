{"id": "C01", "title": "Bit-reversed counting enumerates every index exactly once", "statement": "For every width b in 1..31 and every n in [0, 2^b), BitReversedIncrement(n, b) returns the index whose b-bit reversal is one more (mod 2^b) than the b-bit reversal of n. Hence iterating from 0 visits each of the 2^b indices exactly once, k-th visit being the bit reversal of k, and the result is always < 2^b.", "quantifier": "all widths 1..31, all indices", "why_tests_cant": "2^32 inputs per width class and an iteration property over whole cycles; the tests check widths up to 4", "anchors": ["base/bits_body.hpp:BitReversedIncrement", "numerics/fast_fourier_transform_body.hpp:FastFourierTransform"]}
{"id": "C02", "title": "FloorLog2 and PowerOf2Le bracket their argument", "statement": "For every n >= 1, 2^FloorLog2(n) <= n < 2^(FloorLog2(n)+1) and PowerOf2Le(n) is the largest power of two not exceeding n.", "quantifier": "all positive integers", "why_tests_cant": "unbounded domain", "anchors": ["base/bits_body.hpp:FloorLog2", "base/bits_body.hpp:PowerOf2Le"]}
{"id": "C03", "title": "Base32768 text encoding is lossless", "statement": "For every byte string b, Decode(Encode(b)) = b; Encode emits exactly EncodedLength(|b|) code units, each of them a member of the encoder's own repertoires, and DecodedLength of the emitted text is |b|.", "quantifier": "all byte strings of any length", "why_tests_cant": "infinite domain; padding and the 7-bit tail depend on the length modulo 15 and on bit contents", "anchors": ["base/base32768_body.hpp:Base32768Encoder::Encode", "base/base32768_body.hpp:Base32768Encoder::Decode", "base/base32768_body.hpp:EncodedLength", "base/base32768_body.hpp:DecodedLength"]}
{"id": "C04", "title": "Hexadecimal text encoding is lossless, also in place", "statement": "For every byte string b, Decode(Encode(b)) = b, the encoding has 2|b| characters all in 0-9A-F, decoding is case-insensitive, an odd trailing digit is ignored and characters that are not hexadecimal digits read as 0. The result is the same when the input and output buffers overlap in the way that the function's precondition admits.", "quantifier": "all byte strings, all admissible overlaps, all character inputs", "why_tests_cant": "infinite domain, and aliasing of buffers at every admissible offset", "anchors": ["base/hexadecimal_body.hpp:HexadecimalEncoder::Encode", "base/hexadecimal_body.hpp:HexadecimalEncoder::Decode"]}
{"id": "C05", "title": "Fingerprints are never 0 or 1", "statement": "Fingerprint2011 and FingerprintCat2011 never return 0 or 1, for any input.", "quantifier": "all strings, all pairs of 64-bit words", "why_tests_cant": "2^128 pairs; the claim is in the doc comment and no test exercises it", "anchors": ["base/fingerprint2011.hpp:FingerprintCat2011", "base/fingerprint2011.hpp:Fingerprint2011"]}
{"id": "C06", "title": "Disjoint sets implement the generated equivalence relation", "statement": "After MakeSingleton on some elements and any sequence of Unite and Find calls, Find(x) == Find(y) if and only if x and y are related by the equivalence relation generated by the Unite calls; Find never changes that relation; the mutable properties of a subset are the merge of the properties of exactly its singletons, each used once.", "quantifier": "all call sequences on any number of elements", "why_tests_cant": "histories are unbounded; path compression and union by rank mutate the structure on every query", "anchors": ["base/disjoint_sets_body.hpp:Subset::Unite", "base/disjoint_sets_body.hpp:Subset::Find", "base/disjoint_sets_body.hpp:Subset::Node::Root"]}
{"id": "C07", "title": "Pull serialization delivers exactly the serialized bytes", "statement": "For every serialized byte sequence, every chunk size, every number of chunks accepted by the constructor and every interleaving of the serializing thread and the pulling thread, the concatenation of the arrays returned by successive Pull calls is the serialized byte sequence, followed by an empty array; no deadlock occurs and no buffer that the client still holds is overwritten.", "quantifier": "all byte sequences, chunk configurations and schedules", "why_tests_cant": "the property ranges over thread schedules", "anchors": ["base/pull_serializer_body.hpp:PullSerializer::Pull", "base/pull_serializer_body.hpp:PullSerializer::Push", "base/pull_serializer_body.hpp:DelegatingArrayOutputStream"]}
{"id": "C08", "title": "Push deserialization consumes exactly the pushed bytes and runs each done callback once", "statement": "For every sequence of Push calls (terminated by an empty push) and every interleaving with the deserializing thread, the bytes read are the concatenation of the pushed arrays and the done callback of each push is run exactly once, in push order, and only after the last byte of that push has been consumed; no deadlock occurs.", "quantifier": "all push sequences and schedules", "why_tests_cant": "ranges over schedules and chunk boundaries", "anchors": ["base/push_deserializer_body.hpp:PushDeserializer::Push", "base/push_deserializer_body.hpp:PushDeserializer::Pull", "base/push_deserializer_body.hpp:DelegatingArrayInputStream"]}
{"id": "C09", "title": "Thread pool runs every added call exactly once", "statement": "Every function given to ThreadPool::Add (or accepted by TryAdd) is executed exactly once, whatever the interleaving of the adding threads, the workers and the destructor; TryAdd returns a future only if a thread is available to run the call.", "quantifier": "all schedules, all numbers of threads and calls", "why_tests_cant": "ranges over schedules including destruction", "anchors": ["base/thread_pool_body.hpp:ThreadPool::Add", "base/thread_pool_body.hpp:ThreadPool::TryAdd", "base/thread_pool_body.hpp:ThreadPool::DequeueCallAndExecute", "base/thread_pool_body.hpp:~ThreadPool"]}
{"id": "C10", "title": "Bundle::Join waits for all tasks and reports the first error", "statement": "Join returns only after every task added before it has finished, and returns the status of the first task that failed (OK if none did); its completion notification is raised at most once.", "quantifier": "all schedules of adders, workers and joiner", "why_tests_cant": "a race in a narrow window cannot be provoked reliably by tests", "anchors": ["base/bundle.cpp:Bundle::Add", "base/bundle.cpp:Bundle::Join", "base/bundle.cpp:Bundle::Toil"]}
{"id": "C11", "title": "Array equality is deep equality", "statement": "For every element type, two Arrays compare equal with operator== if and only if they have the same size and the same elements.", "quantifier": "all arrays of every element size", "why_tests_cant": "the tests only use one-byte elements", "anchors": ["base/array_body.hpp:operator=="]}
{"id": "C12", "title": "Permutations form the symmetric group and act accordingly", "statement": "Composition, inverse, determinant and coordinate action of Permutation are those of the symmetric group on three axes: (p*q)(v) = p(q(v)), p.Inverse()(p(v)) = v, composition is associative with Identity neutral, Determinant is a homomorphism, and conversion to a rotation (for even permutations) or orthogonal map acts identically on vectors; serialization round-trips.", "quantifier": "all permutations and all vectors", "why_tests_cant": "the action is on all real vectors; the composition table is hand-written", "anchors": ["geometry/permutation_body.hpp:operator*", "geometry/permutation_body.hpp:Permutation::Inverse", "geometry/permutation_body.hpp:Permutation::Forget", "geometry/permutation.hpp:CoordinatePermutation"]}
{"id": "C13", "title": "Complexification is the complex algebra over its vector space", "statement": "The operators of Complexification (including the mixed ones whose other operand is real) satisfy the identities of complex arithmetic: for instance real - z = -(z - real), z - z = 0, conjugation is multiplicative and Norm² is z times its conjugate.", "quantifier": "all complex values", "why_tests_cant": "algebraic identity over all values; several overloads never appear in tests", "anchors": ["geometry/complexification_body.hpp:operator-", "geometry/complexification_body.hpp:operator*", "geometry/complexification_body.hpp:Complexification::Norm²"]}
{"id": "C14", "title": "Rotations compose, invert and preserve geometry", "statement": "Rotation's action by quaternion equals the orthogonal matrix action, preserves inner products and orientation, composition of rotations acts as composition of actions, and Inverse undoes it, in exact arithmetic for every unit quaternion; every constructor (from two or three axes, Euler and Cardano angles, axis-angle) yields a unit quaternion with the documented effect on the basis vectors.", "quantifier": "all rotations, all vectors, all angles", "why_tests_cant": "real parameters", "anchors": ["geometry/rotation_body.hpp:Rotation", "geometry/quaternion_body.hpp:operator*"]}
{"id": "C15", "title": "Barycentres are weighted means independent of order", "statement": "BarycentreCalculator returns the weighted mean of the added points, independently of the order of Add calls and of the choice of origin, and adding the barycentre of a subset with the sum of its weights is equivalent to adding its elements (exact arithmetic).", "quantifier": "all non-empty finite sequences of points and weights with non-zero total", "why_tests_cant": "unbounded sequences", "anchors": ["geometry/barycentre_calculator_body.hpp:BarycentreCalculator"]}
{"id": "C16", "title": "Affine maps compose and invert", "statement": "For affine maps f, g: (f*g)(x) = f(g(x)), f.Inverse()(f(x)) = x, and f(x) - f(y) is the linear part applied to x - y (exact arithmetic).", "quantifier": "all affine maps over any linear map type, all points", "why_tests_cant": "real parameters", "anchors": ["geometry/affine_map_body.hpp:AffineMap"]}
{"id": "C17", "title": "Compensated sums are exact", "statement": "Barring overflow, for all doubles a, b: TwoSum(a,b) and TwoDifference(a,b) return (value, error) with value the correctly rounded result and value + error exactly equal to a ± b; QuickTwoSum and QuickTwoDifference do so whenever |a| >= |b| or a = 0.", "quantifier": "all pairs of finite doubles", "why_tests_cant": "2^128 pairs", "anchors": ["numerics/double_precision_body.hpp:TwoSum", "numerics/double_precision_body.hpp:TwoDifference", "numerics/double_precision_body.hpp:QuickTwoSum", "numerics/double_precision_body.hpp:QuickTwoDifference"]}
{"id": "C18", "title": "Compensated products are exact", "statement": "Barring overflow and underflow, for all doubles a, b: TwoProduct(a,b) returns value = the correctly rounded product and value + error = a*b exactly, both with FMA and with Veltkamp-Dekker splitting.", "quantifier": "all pairs of doubles", "why_tests_cant": "2^128 pairs", "anchors": ["numerics/double_precision_body.hpp:TwoProduct", "numerics/double_precision_body.hpp:VeltkampDekkerProduct", "numerics/double_precision_body.hpp:VeltkampSplitting"]}
{"id": "C19", "title": "Truncation and fractional part of double-double numbers", "statement": "For every normalized double-double a, Trunc(a) is the integer part of a rounded towards 0 and Frac(a) = a - Trunc(a) has the sign of a and magnitude < 1.", "quantifier": "all normalized double-double values", "why_tests_cant": "2^128 values; tests only use values whose leading double is an integer", "anchors": ["numerics/double_precision_body.hpp:Trunc", "numerics/double_precision_body.hpp:Frac"]}
{"id": "C20", "title": "NextUp and NextDown are the IEEE neighbours", "statement": "For every finite double x other than the largest, NextUp(x) is the least double greater than x; NextDown(x) = -NextUp(-x) is the greatest double less than x.", "quantifier": "all doubles", "why_tests_cant": "2^64 inputs", "anchors": ["numerics/next_body.hpp:NextUp", "numerics/next_body.hpp:NextDown", "numerics/scale_b_body.hpp:ScaleB", "numerics/log_b_body.hpp:LogB"]}
{"id": "C21", "title": "ScaleB scales by a power of two with a single rounding", "statement": "For all finite x and integers N, ScaleB(x, N) is x * 2^N correctly rounded, and ScaleB(-x, N) = -ScaleB(x, N).", "quantifier": "all doubles, all exponents", "why_tests_cant": "domain size; negative arguments are not tested", "anchors": ["numerics/scale_b_body.hpp:ScaleB"]}
{"id": "C22", "title": "ULPDistance is a metric counting representable numbers", "statement": "ULPDistance(x, y) is 0 iff x == y, symmetric, equals the number of steps between adjacent doubles (saturated at the maximal int64), and satisfies the triangle inequality.", "quantifier": "all pairs/triples of non-NaN doubles", "why_tests_cant": "2^128 pairs", "anchors": ["numerics/ulp_distance_body.hpp:ULPDistance"]}
{"id": "C23", "title": "Polynomial evaluation and algebra", "statement": "Estrin and Horner evaluators compute the same polynomial for every degree; EvaluateDerivative evaluates the derivative polynomial; sum, product, composition, change of origin and integration of polynomials commute with evaluation (exact arithmetic).", "quantifier": "all degrees, coefficients and arguments", "why_tests_cant": "templates over all degrees; real coefficients", "anchors": ["numerics/polynomial_evaluators_body.hpp:EstrinEvaluator", "numerics/polynomial_evaluators_body.hpp:HornerEvaluator", "numerics/polynomial_in_monomial_basis_body.hpp:PolynomialInMonomialBasis"]}
{"id": "C24", "title": "Чебышёв series evaluation", "statement": "The evaluator of a polynomial in the Чебышёв basis computes Σ a_k T_k(x) for every degree and coefficients, with T_k the Чебышёв polynomials, and its derivative evaluator computes the derivative.", "quantifier": "all degrees, coefficients, arguments", "why_tests_cant": "unbounded degrees", "anchors": ["numerics/polynomial_in_чебышёв_basis_body.hpp"]}
{"id": "C25", "title": "Cubic Hermite interpolation and its error bounds", "statement": "Hermite3 interpolates the given values and derivatives at both arguments; LInfinityL1NormUpperBound returns an upper bound of the L1 norm over the whole interval [lower, upper]; LInfinityL2Norm returns the maximum of the norm over the interval when value and derivative vanish at the lower bound (exact arithmetic).", "quantifier": "all interpolation data and all arguments in the interval", "why_tests_cant": "a maximum over a continuum", "anchors": ["numerics/hermite3_body.hpp:MakePolynomial", "numerics/hermite3_body.hpp:LInfinityL1NormUpperBound", "numerics/hermite3_body.hpp:LInfinityL2Norm"]}
{"id": "C26", "title": "Bisection terminates and brackets a sign change", "statement": "For every function f of doubles with f(lower), f(upper) non-zero of opposite signs, Bisect terminates and returns an argument m in [lower, upper] such that f(m) = 0 or f changes sign between m and an adjacent double.", "quantifier": "all functions (not only continuous), all intervals", "why_tests_cant": "function-valued input", "anchors": ["numerics/root_finders_body.hpp:Bisect"]}
{"id": "C27", "title": "Fast Fourier transform equals the discrete Fourier transform", "statement": "For every power-of-two size and every input sequence, coefficient s of FastFourierTransform is Σ_k x_k exp(-2πi k s / N) (exact arithmetic), including the specialized short transforms; Mode returns the neighbourhood of a frequency of largest power among those in its range.", "quantifier": "all sizes 2^k, all inputs", "why_tests_cant": "templates over all sizes; real inputs", "anchors": ["numerics/fast_fourier_transform_body.hpp:DanielsonLánczos", "numerics/fast_fourier_transform_body.hpp:FastFourierTransform"]}
{"id": "C28", "title": "Nearest-neighbour search returns a nearest admissible point", "statement": "After construction from any points with at least one value allowed per cell (with 0 the recursion of the construction never ends), and any sequence of Add calls, FindNearestNeighbour(v, filter) returns a point admitted by the filter at minimal distance from v among all admitted points, and null iff none is admitted (exact arithmetic).", "quantifier": "all point sets, insertion histories, filters and queries", "why_tests_cant": "the pruning logic must be right for every tree shape", "anchors": ["numerics/nearest_neighbour_body.hpp:PrincipalComponentPartitioningTree::Find", "numerics/nearest_neighbour_body.hpp:PrincipalComponentPartitioningTree::BuildTree", "numerics/nearest_neighbour_body.hpp:PrincipalComponentPartitioningTree::Add"]}
{"id": "C29", "title": "Julian dates and calendar dates are inverse and successive", "statement": "For every valid calendar date accepted by the Date constructors (Julian or Gregorian, years down to -9999), jd() increases by exactly one per civil day, Date::JD(d.jd()) denotes the same day, next_day is the calendar successor, ordinal() is the day number within the year, and the order on dates is chronological.", "quantifier": "all dates", "why_tests_cant": "over 7 million dates in two calendars; tests sample a few", "anchors": ["astronomy/date_time_body.hpp:Date::jd", "astronomy/date_time_body.hpp:Date::JD", "astronomy/date_time_body.hpp:Date::next_day", "astronomy/date_time_body.hpp:Date::ordinal", "astronomy/date_time_body.hpp:Date::Ordinal"]}
{"id": "C30", "title": "ISO week dates", "statement": "For every year >= 1583, week in range and day 1..7, Date::Week(y, w, d) is the ISO 8601 day: it has weekday d, week 1 is the week containing January 4th, consecutive weeks are consecutive, and the week number range is exactly that of the year.", "quantifier": "all years, weeks and days", "why_tests_cant": "unbounded years; leap/weekday interaction", "anchors": ["astronomy/date_time_body.hpp:Date::Week", "astronomy/date_time_body.hpp:number_of_iso_weeks_in_year", "astronomy/date_time_body.hpp:ordinal_of_w_01_1"]}
{"id": "C31", "title": "Date and time literals: accepted exactly on the documented formats, printing round-trips", "statement": "The date parser succeeds exactly on strings of the documented forms (YYYY-MM-DD, YYYYMMDD, YYYY-Www-D, YYYYWwwD, YYYY-DDD, YYYYDDD with optional J/G prefix and optional sign), the time parser exactly on hh:mm:ss, hhmmss with up to three decimals; printing a date or time and parsing it back yields an equal value.", "quantifier": "all strings; all dates and times", "why_tests_cant": "acceptance is a property of all strings", "anchors": ["astronomy/date_time_body.hpp:DateParser", "astronomy/date_time_body.hpp:TimeParser", "astronomy/date_time_body.hpp:operator<<"]}
{"id": "C32", "title": "UTC leap-second bookkeeping", "statement": "For every UTC date from 1972 to 2022, UTC-TAI decreases by exactly one second across each announced leap second and is otherwise constant; a 60th second is accepted exactly on days with an announced leap second; in stretchy UTC (1961-1972), a date-time is accepted exactly when it exists on that time scale, in particular on the days with negative leaps.", "quantifier": "all dates and times in range", "why_tests_cant": "every second of six decades", "anchors": ["astronomy/time_scales_body.hpp:ModernUTCMinusTAI", "astronomy/time_scales_body.hpp:IsValidModernUTC", "astronomy/time_scales_body.hpp:IsValidStretchyUTC", "astronomy/time_scales_body.hpp:LeapSecond"]}
{"id": "C33", "title": "Earth-orientation lookup is a correct binary search", "statement": "Given a non-empty table sorted by time whose first entry is not after t, the lookup functions return the last entry whose time is at most t.", "quantifier": "all sorted tables and arguments", "why_tests_cant": "unbounded tables", "anchors": ["astronomy/time_scales_body.hpp:LookupUT1", "astronomy/time_scales_body.hpp:LookupTT"]}
{"id": "C34", "title": "Discrete trajectories stay consistent under every history of operations", "statement": "Starting from an empty trajectory, after any sequence of NewSegment, Append, AttachSegments, DetachSegments, DeleteSegments, ForgetAfter, ForgetBefore, clear, Merge and serialization round-trips within their documented preconditions, the internal consistency check that the library runs holds (segment junctions agree, the time-to-segment map is exact), so no CHECK fails.", "quantifier": "all histories", "why_tests_cant": "unbounded histories; the repository's tests mention several past failures of this kind", "anchors": ["physics/discrete_trajectory_body.hpp:DiscreteTrajectory::ConsistencyStatus", "physics/discrete_trajectory_body.hpp:AttachSegments", "physics/discrete_trajectory_body.hpp:DetachSegments", "physics/discrete_trajectory_body.hpp:ForgetAfter", "physics/discrete_trajectory_body.hpp:ForgetBefore", "physics/discrete_trajectory_body.hpp:Merge"]}
{"id": "C35", "title": "Trajectory iteration visits each point once, in time order", "statement": "On every consistent trajectory, forward iteration from begin() to end() visits every distinct time exactly once in strictly increasing order across segment junctions and empty or one-point segments, backward iteration is its reverse, ++ and -- are inverse, it += n is n increments, iterator difference counts points and size() equals the number of points visited.", "quantifier": "all consistent trajectories", "why_tests_cant": "segment structures with empty/one-point segments are unbounded", "anchors": ["physics/discrete_trajectory_iterator_body.hpp", "physics/discrete_trajectory_body.hpp:size"]}
{"id": "C36", "title": "Point lookup in trajectories", "statement": "find, lower_bound and upper_bound on a trajectory return the point a search in the merged ordered list of points would return.", "quantifier": "all consistent trajectories, all times", "why_tests_cant": "as above", "anchors": ["physics/discrete_trajectory_body.hpp:find", "physics/discrete_trajectory_body.hpp:lower_bound", "physics/discrete_trajectory_body.hpp:upper_bound"]}
{"id": "C37", "title": "Forgetting removes exactly the documented points", "statement": "ForgetAfter(t) deletes exactly the points with a time in [t, end[ and ForgetBefore(t) exactly the points with a time in [begin, t[; the remaining points are unchanged.", "quantifier": "all consistent trajectories, all times", "why_tests_cant": "junction cases", "anchors": ["physics/discrete_trajectory_body.hpp:ForgetAfter", "physics/discrete_trajectory_body.hpp:ForgetBefore", "physics/discrete_trajectory_segment_body.hpp:ForgetAfter", "physics/discrete_trajectory_segment_body.hpp:ForgetBefore"]}
{"id": "C38", "title": "Downsampling never exceeds its tolerance, also after save and load", "statement": "In a downsampled segment, every point that was appended and later dropped lies within the downsampling tolerance of the retained interpolation; saving and reloading (or merging) a segment at any moment preserves this guarantee for subsequent appends, i.e. transfers the whole downsampling state.", "quantifier": "all append histories, all save points", "why_tests_cant": "crash/save points at every append", "anchors": ["physics/discrete_trajectory_segment_body.hpp:Append", "physics/discrete_trajectory_segment_body.hpp:UpdateDownsampling", "physics/discrete_trajectory_segment_body.hpp:ReadFromMessage", "physics/discrete_trajectory_segment_body.hpp:Merge"]}
{"id": "C39", "title": "Checkpointer queries", "statement": "After any history of checkpoint creations, the query functions return the extreme checkpoint satisfying their documented bound (or ±∞), WriteToCheckpointIfNeeded creates a checkpoint iff the last is older than the given interval, reading calls the reader on exactly the designated checkpoint, and serialization round-trips; under concurrency a reader only ever sees checkpoints completely filled by the writer.", "quantifier": "all histories and schedules", "why_tests_cant": "histories and schedules", "anchors": ["physics/checkpointer_body.hpp:Checkpointer"]}
{"id": "C40", "title": "Protector delays callbacks while a range is protected", "statement": "A callback for ]-∞, t[ given to RunWhenUnprotected runs exactly once, and only at a moment when ]-∞, t[ is unprotected; it runs as soon as the range becomes unprotected; callbacks run in time order.", "quantifier": "all histories and schedules", "why_tests_cant": "schedules", "anchors": ["physics/protector.cpp:Protector"]}
{"id": "C41", "title": "Clientele tracks the earliest client", "statement": "At every moment first() is the least key among live clients, or the default key if there are none; leaving undoes exactly one joining.", "quantifier": "all histories", "why_tests_cant": "histories", "anchors": ["physics/clientele_body.hpp:Clientele"]}
{"id": "C42", "title": "Hierarchical systems are laid out around their barycentre", "statement": "For every hierarchy of bodies, ConsumeBarycentricSystem returns every body exactly once with degrees of freedom such that the system's barycentre is motionless at the origin, each satellite subsystem's barycentre is placed relative to the barycentre of the primary and the subsystems inside it as its Jacobi elements specify, and a body's offsets within a subsystem are preserved (exact arithmetic).", "quantifier": "all hierarchies", "why_tests_cant": "unbounded trees", "anchors": ["physics/hierarchical_system_body.hpp:ToBarycentric", "physics/jacobi_coordinates_body.hpp:JacobiCoordinates"]}
{"id": "C43", "title": "Geopotential damping is smooth and monotone", "statement": "The harmonic damping sigmoid is 1 up to the inner threshold, 0 at the outer threshold, continuous with continuous derivative at both, monotone and between 0 and 1 in between, and the returned gradient is the derivative of the damped radial function.", "quantifier": "all radii and thresholds", "why_tests_cant": "a continuum", "anchors": ["physics/harmonic_damping_body.hpp:ComputeDampedRadialQuantities"]}
{"id": "C44", "title": "Flight plans alternate coasts and burns and account for anomalies", "statement": "After any sequence of successful or failed flight plan operations and for every outcome of the numerical integrations, a plan with n manœuvres has 2n+1 segments; segments from the first failed integration on are anomalous and the later ones have length 0; number_of_anomalous_manœuvres and anomalous_status report exactly the manœuvres that follow the first anomalous segment and its status.", "quantifier": "all operation histories and integration outcomes", "why_tests_cant": "histories times integrator outcomes", "anchors": ["ksp_plugin/flight_plan.cpp:ComputeSegments", "ksp_plugin/flight_plan.cpp:PopLastSegments", "ksp_plugin/flight_plan.cpp:ResetLastSegment", "ksp_plugin/flight_plan.cpp:RecomputeSegmentsAvoidingDeadlineIfNeeded"]}
{"id": "C45", "title": "Failed flight plan edits have no effect; successful ones keep manœuvres ordered", "statement": "When Insert, Replace or SetDesiredFinalTime report a rejection the flight plan is unchanged, and after every accepted edit the manœuvres are disjoint and in order within the plan.", "quantifier": "all edits on all plans", "why_tests_cant": "histories", "anchors": ["ksp_plugin/flight_plan.cpp:Insert", "ksp_plugin/flight_plan.cpp:Replace", "ksp_plugin/flight_plan.cpp:Remove", "ksp_plugin/flight_plan.cpp:SetDesiredFinalTime"]}
{"id": "C46", "title": "Mass is conserved along a flight plan", "statement": "At every moment, the initial mass of each manœuvre equals the final mass of the preceding one (the plan's initial mass for the first).", "quantifier": "all edit histories", "why_tests_cant": "histories", "anchors": ["ksp_plugin/flight_plan.cpp:UpdateInitialMassOfManœuvresAfter", "ksp_plugin/flight_plan.cpp:Remove", "ksp_plugin/flight_plan.cpp:Insert", "ksp_plugin/flight_plan.cpp:Replace"]}
{"id": "C47", "title": "A copied flight plan is indistinguishable from its original", "statement": "Copying a flight plan yields a plan whose queries (segments, manœuvres, anomaly count and status, final times) return the same results as those of the original.", "quantifier": "all reachable flight plans", "why_tests_cant": "all reachable states, notably anomalous ones", "anchors": ["ksp_plugin/flight_plan.cpp:FlightPlan(FlightPlan const&)"]}
{"id": "C48", "title": "Burns obey the rocket equation", "statement": "For every burn with positive thrust, mass and specific impulse, final mass = initial mass * exp(-|Δv| / Isp), 0 < final mass <= initial mass, integrating the thrust acceleration over the burn gives |Δv|, and half of Δv has been delivered at time_of_half_Δv, which lies within the burn; specifying the burn by either timing gives the same manœuvre.", "quantifier": "all burns", "why_tests_cant": "real parameters", "anchors": ["ksp_plugin/manœuvre_body.hpp:Manœuvre", "ksp_plugin/manœuvre_body.hpp:time_to_half_Δv", "ksp_plugin/manœuvre_body.hpp:ComputeIntrinsicAcceleration"]}
{"id": "C49", "title": "Pile-ups after collection are exactly the collected subsets", "statement": "After any sequence of Unite calls followed by Collect on all subsets, each part belongs to exactly one pile-up, two parts share a pile-up iff they were united, and an existing pile-up object is kept iff its set of parts is exactly one of the subsets.", "quantifier": "all numbers of parts, prior pile-ups and Unite sequences", "why_tests_cant": "histories", "anchors": ["ksp_plugin/part_subsets.cpp:Subset<Part>::Properties"]}
{"id": "C50", "title": "Journals contain matched call/return records that replay to the same messages", "statement": "For every interleaving of journalled calls from several threads, the journal is a sequence of pairs of consecutive records, the first with the inputs and the second with the outputs of one call; the player reads back exactly the recorded messages in order.", "quantifier": "all call histories and schedules", "why_tests_cant": "schedules and arbitrary message bytes", "anchors": ["journal/recorder.cpp:Recorder", "journal/method_body.hpp:Method", "journal/player.cpp:Player"]}
{"id": "C51", "title": "Multistep and quadrature coefficient tables have their stated order", "statement": "The tabulated coefficients of the linear multistep integrators and finite-difference formulae satisfy the order conditions of their stated order, i.e. the formulae are exact for all polynomials up to the corresponding degree and every step size.", "quantifier": "all polynomials of the degree, all step sizes", "why_tests_cant": "numerical convergence tests cannot distinguish small coefficient errors; exactness is over all polynomials", "anchors": ["integrators/adams_moulton_integrator_body.hpp", "integrators/cohen_hubbard_oesterwinter_body.hpp", "integrators/methods.hpp", "numerics/finite_difference_coefficients.mathematica.h"]}
{"id": "C52", "title": "Unit parsing computes the dimension and scale of the expression", "statement": "ParseQuantity on a string of the form `number unit-expression` built with product (blank), quotient (/) and exponentiation (^) returns the number times the scale denoted by the expression with left-associative quotients, and dies if the dimensions differ from the requested ones or if the string is not such an expression.", "quantifier": "all unit expressions", "why_tests_cant": "recursive grammar", "anchors": ["quantities/parser_body.hpp:ParseQuotientUnit", "quantities/parser_body.hpp:ParseProductUnit", "quantities/parser_body.hpp:ParseExponentiationUnit"]}
{"id": "C53", "title": "Determinants of linear maps", "statement": "The determinant reported by each linear map class (Permutation, Signature, Rotation, OrthogonalMap, Homothecy, ConformalMap) is the factor by which the map multiplies oriented volumes; signatures constructed by deducing a sign have the determinant that their frames require.", "quantifier": "all maps, all triples of vectors, both handednesses", "why_tests_cant": "quantified over the reals; the existing test expects the magnitude only", "anchors": ["geometry/conformal_map_body.hpp:Determinant", "geometry/signature_body.hpp:Signature", "geometry/permutation_body.hpp:Determinant", "geometry/orthogonal_map_body.hpp"]}
{"id": "C54", "title": "Rigid motions compose, invert and compute the velocity in the moving frame", "statement": "RigidMotion composition and inversion act on degrees of freedom as composition and inverse of the actions, for frames of either handedness, and the velocity computed by a rigid motion is the time derivative of the position in the moving frame (exact arithmetic).", "quantifier": "all motions, all trajectories differentiable at the instant", "why_tests_cant": "quantified over reals and over differentiable trajectories", "anchors": ["physics/rigid_motion_body.hpp:operator()", "physics/rigid_motion_body.hpp:Inverse", "physics/rigid_motion_body.hpp:operator*"]}
{"id": "C55", "title": "Quadratic equations are solved exactly", "statement": "SolveQuadraticEquation returns exactly the real solutions of a0 + a1 (x - origin) + a2 (x - origin)^2 = 0, in increasing order, including for linear and constant equations (exact arithmetic).", "quantifier": "all coefficients, including zero leading coefficients", "why_tests_cant": "degenerate coefficients and all signs", "anchors": ["numerics/root_finders_body.hpp:SolveQuadraticEquation"]}
{"id": "C56", "title": "Julian date literals denote the right time, exactly", "statement": "A literal JD or MJD followed by a decimal number denotes exactly that number of days since the origin of the Julian dates or of the modified Julian dates; nothing else is accepted; no signed overflow occurs.", "quantifier": "all strings", "why_tests_cant": "acceptance and value are properties of all strings", "anchors": ["astronomy/date_time_body.hpp:JulianDateParser", "astronomy/date_time_body.hpp:JulianDate::JD", "astronomy/date_time_body.hpp:JulianDate::MJD"]}
{"id": "C57", "title": "UT1 and the Earth rotation from the tables of Earth orientation parameters", "statement": "For the UT1 times from the start of the first table to the end of the second one, TT is a continuous function of UT1 whose difference with UT1 varies by less than 1e-7 s/s, it agrees with UTC at every tabulated midnight, the UT1 Julian day used for the Earth rotation angle is its inverse, and arguments outside of the tables are detected rather than read past the end.", "quantifier": "all times, and all entries of the two tables in the code", "why_tests_cant": "each entry, each leap second and the junction between the series must be consistent, for a continuum of times", "anchors": ["astronomy/time_scales_body.hpp:FromUT1", "astronomy/time_scales_body.hpp:EarthRotationAngle", "astronomy/time_scales_body.hpp:DateTimeAsUT1", "astronomy/eop_c04.generated.h", "astronomy/experimental_eop_c02.generated.h"]}
{"id": "C58", "title": "Brent's method returns a zero or a point next to a change of sign", "statement": "For every function of doubles and every bounds, if Brent (the zero finder) returns b then f(b) = 0, or there is an argument c where f has the opposite sign, with |f(b)| <= |f(c)| and |c - b| <= 4 eps |b| (in reals, b not minute); this holds whatever the interpolation steps do, and in the presence of infinities and NaNs.", "quantifier": "all functions, bounds and numbers of iterations", "why_tests_cant": "The guarantee rests on the joint bookkeeping of a, b, c and f_a, f_b, f_c across interpolation, swap and restart; tests only exercise smooth functions, on which a stale value still converges.", "anchors": ["numerics/root_finders_body.hpp:Brent"]}
{"id": "C59", "title": "Real roots of Чебышёв series", "statement": "When MayHaveRealRoots(error) is false, no function within the error of the series vanishes between the bounds; the real eigenvalues of the companion matrix are exactly the roots of the series, so that RealRoots returns the roots between the bounds and only them (exact arithmetic).", "quantifier": "all degrees, coefficients, bounds, errors and all functions within the error", "why_tests_cant": "a statement about all functions close to the series; collisions with celestials are found with it", "anchors": ["numerics/polynomial_in_чебышёв_basis_body.hpp:MayHaveRealRootsOrDie", "numerics/polynomial_in_чебышёв_basis_body.hpp:FrobeniusCompanionMatrix", "numerics/polynomial_in_чебышёв_basis_body.hpp:RealRootsOrDie", "physics/apsides_body.hpp"]}
{"id": "C60", "title": "Adaptive Чебышёв interpolation", "statement": "The interpolant goes through the function at the Чебышёв-Lobatto points of its degree, which is at most the maximum; the error estimate bounds its distance to the interpolant of twice the degree over the whole interval. The adaptive versions produce interpolants over consecutive intervals which cover the interval in order, up to the one which stops, each accurate enough or not to be subdivided, and report the largest of the error estimates.", "quantifier": "all functions, intervals, maximum degrees and errors, all criteria of subdivision and termination", "why_tests_cant": "function-valued inputs, unbounded degrees and depths of subdivision", "anchors": ["numerics/approximation_body.hpp"]}
{"id": "C61", "title": "Complex numbers form a field in which the reals are embedded", "statement": "Complexification over the reals is a field with an element of square -1, and each operator that takes a real and a complex number does what it would do after conversion of the real number; norms and the Hermitian product are consistent with conjugation.", "quantifier": "all real and complex operands", "why_tests_cant": "an operator overload that no test exercises can be wrong for every operand", "anchors": ["geometry/complexification_body.hpp:operator-", "geometry/complexification_body.hpp:operator/", "geometry/complexification_body.hpp:InnerProduct"]}
{"id": "C62", "title": "The geopotential is the damped sum of spherical harmonics and the acceleration is minus its gradient", "statement": "For every body, tolerance and position other than the centre, the potential that is computed is the sum over the degrees from 2 and the orders of the damped spherical harmonics in the frame of the surface, with associated Legendre functions obtained by differentiating the Legendre polynomials, and does not depend on the contents of uninitialized arrays; the acceleration is the opposite of the gradient of that potential at every such position, including the poles and the damping thresholds, although the implementation changes of basis and truncates the sums at the thresholds; the debug checks hold.", "quantifier": "all bodies of any degree up to the number of cases, all tolerances, all positions, all contents of uninitialized arrays", "why_tests_cant": "the identity between a recurrence on precomputed arrays and the derivative of an infinite family of functions; the thresholds and the poles have measure zero", "anchors": ["physics/geopotential_body.hpp:GeneralSphericalHarmonicsAcceleration", "physics/geopotential_body.hpp:GeneralSphericalHarmonicsPotential", "physics/geopotential_body.hpp:InitializePrecomputations", "physics/geopotential_body.hpp:DegreeNOrderM"]}
{"id": "C63", "title": "The thresholds of the geopotential cover the harmonics", "statement": "The damping of each degree starts at the largest of the thresholds of the harmonics of that degree and of the higher ones, hence decreases with the degree, that of the sectoral harmonics of degree 2 at the largest of theirs and of those of the higher degrees; beyond it a harmonic is below the tolerance; the limiting degree is the number of degrees whose damping is not complete.", "quantifier": "all bodies, tolerances and distances", "why_tests_cant": "a priority queue processed with side effects on two arrays; the orders of the thresholds are arbitrary", "anchors": ["physics/geopotential_body.hpp:Geopotential", "physics/geopotential_body.hpp:LimitingDegree"]}
{"id": "C64", "title": "Rotating bodies: axes, surface frame, spherical coordinates", "statement": "The polar axis of a rotating body has the declared right ascension and declination; equatorial, biequatorial and polar axes are a right-handed orthonormal basis with the biequatorial axis at the ascending node of the equator; ToCelestialFrame sends them to the axes of the celestial frame. FromSurfaceFrame and ToSurfaceFrame are inverse rotations which send the surface z axis to the polar axis and a point of given latitude and longitude to the direction at the angle AngleAt(t) + longitude from the node; vectors fixed to the surface have as derivative the product with the declared angular velocity. BodySurfaceFrameField yields the direct north, east, nadir trihedron away from the poles. ToSpherical and ToCartesian are inverse of one another on every vector.", "quantifier": "all orientations of the pole, angles, frequencies, instants, latitudes and longitudes, all axes and positions, over the reals", "why_tests_cant": "Tests look at a few bodies and instants; the sign conventions, the composition order of Euler rotations and the branches of the inverse trigonometric functions have to be right for all orientations.", "anchors": ["physics/rotating_body_body.hpp", "physics/rotating_body.hpp", "physics/body_surface_frame_field_body.hpp", "geometry/r3_element_body.hpp"]}
{"id": "C65", "title": "Similar motions are kinematically coherent", "statement": "SimilarMotion composes and inverts like the group of the motions it represents; the identity, a rigid motion (Forget) and a dilatation about the origin act as declared; and if the similarity really moves with the declared velocity of the origin, angular velocity and dilatation rate, then the velocity computed by the motion is the derivative of the position computed by it.", "quantifier": "all similarities with a unit quaternion and a non-null scale, all degrees of freedom, all differentiable motions, over the reals", "why_tests_cant": "the composition of the angular velocities and of the dilatation rates in different frames is checked by tests at a few points with a tolerance; coherence is about derivatives", "anchors": ["physics/similar_motion_body.hpp", "physics/similar_motion.hpp", "geometry/conformal_map_body.hpp", "geometry/homothecy_body.hpp", "physics/rigid_motion_body.hpp:Forget"]}
{"id": "C66", "title": "Rigid reference frames yield the equations of motion", "statement": "In each of the rigid reference frames (body-centred non-rotating, body surface, body-centred body direction, barycentric rotating) the velocity of the image of every trajectory is the derivative of its position, and the geometric acceleration is the derivative of its velocity. The primary (the barycentre of all the bodies) is the origin, at rest, the secondaries stay on the positive x axis. The rotation-free acceleration at rest is the opposite of the gradient of the geometric potential. The angular acceleration is the derivative of the angular velocity. The cache of the derivatives of the barycentres is not observable. The Frenet frame has the velocity along x and the acceleration in the half-plane of positive y.", "quantifier": "all trajectories of the bodies with three derivatives and never in radial relative motion, all trajectories of the point, all masses, all sequences of requests, over the reals", "why_tests_cant": "tests compare with finite differences or closed forms for circular or two-body motions; the formulas for the derivatives of the trihedron are for arbitrary motions", "anchors": ["physics/rigid_reference_frame_body.hpp", "physics/body_centred_non_rotating_reference_frame_body.hpp", "physics/body_surface_reference_frame_body.hpp", "physics/body_centred_body_direction_reference_frame_body.hpp", "physics/barycentric_rotating_reference_frame_body.hpp", "physics/reference_frame_body.hpp"]}
{"id": "C67", "title": "The rotating-pulsating frame yields the equations of motion", "statement": "In the rotating-pulsating frame, whose unit of length is the distance of the barycentres of the primaries and of the secondaries, those barycentres are at rest at distance 1 on the x axis, the velocity of the image of every trajectory is the derivative of its position, the geometric acceleration is the derivative of its velocity, and the rotation-free acceleration at rest is the opposite of the gradient of the geometric potential.", "quantifier": "all trajectories and masses of the bodies, never in radial relative motion, all trajectories of the point, over the reals", "why_tests_cant": "the equations in the pulsating frame have terms in the first and second derivatives of the distance, null in circular motion; tests check a few instants", "anchors": ["physics/rotating_pulsating_reference_frame_body.hpp", "physics/rotating_pulsating_reference_frame.hpp"]}
{"id": "C68", "title": "The ephemeris computes the gravitation of its bodies", "statement": "The constructor of Ephemeris puts the oblate bodies first, each with its geopotential, and rejects only duplicates. The accelerations computed for all massive bodies at once, or for one of them, are the sums of the attractions of the others, with action equal to reaction also for the harmonics: the momentum is conserved, and the angular momentum when the bodies are spherical. The acceleration of massless bodies is the sum of the fields, is the opposite of the gradient of the potential returned by ComputeGravitationalPotential, and the status is kOutOfRange exactly if some point is too close to some body. The jerks and the Jacobian are derivatives of the accelerations. The ratio of tolerance to error is at least 1 exactly if all errors are within the tolerances.", "quantifier": "all numbers of bodies, spherical or oblate in any order, all positions without coincidence, all instants and trajectories, over the reals", "why_tests_cant": "the code sums over pairs, updating both bodies of the pair, with four loops for the kinds of bodies: a pair missed or taken twice shows only for some mixture of bodies; conservation and gradients are universally quantified identities that tests check at a few points with a tolerance", "anchors": ["physics/ephemeris_body.hpp:95-172", "physics/ephemeris_body.hpp:488-696", "physics/ephemeris_body.hpp:1174-1622", "physics/ephemeris_body.hpp:1698-1718"]}
{"id": "C69", "title": "Any two conic parameters determine the Keplerian elements", "statement": "KeplerOrbit accepts any two parameters of different categories (eccentricity, semimajor axis, semiminor axis, semilatus rectum, periapsis and apoapsis distances, each category having one to seven parameters) that belong to an ellipse or a hyperbola, and fills the sixteen conic parameters with the values that they have for that conic; a parameter is filled with a value that is not finite exactly if it does not exist for the conic (e.g., the period of a hyperbola, the turning angle of an ellipse).", "quantifier": "all gravitational parameters, all ellipses and hyperbolas, all pairs of parameters of different categories (94 pairs), over the reals", "why_tests_cant": "the completion is a cascade of one step by category, fifteen cases for pairs of categories, and another step by category, with square and cubic roots of negative numbers used on purpose to produce NaNs; tests use a few numerical orbits with a tolerance", "anchors": ["physics/kepler_orbit.hpp:28-86", "physics/kepler_orbit_body.hpp:262-560"]}
{"id": "C70", "title": "A Kepler orbit is a solution of the two-body problem", "statement": "For an orbit constructed from any two conic parameters, an orientation and an anomaly, StateVectors is defined at all times; it is a solution of the two-body problem x'' = -mu x / |x|^3 whose velocity is the derivative of its position; at the epoch it has the given true anomaly, or goes through the periapsis at the time given by the mean anomaly and the mean motion; and it is periodic, with the period of the elements, on an ellipse.", "quantifier": "all ellipses and hyperbolas, all orientations and anomalies at the epoch, all times, over the reals; for any root finder that meets the contract of Brent", "why_tests_cant": "a differential equation cannot be tested; tests compare a few states with those of Horizons within a tolerance", "anchors": ["physics/kepler_orbit_body.hpp:123-138", "physics/kepler_orbit_body.hpp:209-254", "physics/kepler_orbit_body.hpp:563-645"]}
{"id": "C71", "title": "The orbit constructed from state vectors goes through them", "statement": "The Keplerian elements computed from a displacement and a velocity are those of the osculating orbit: StateVectors at the epoch returns the displacement and the velocity, StateVectors at any time is on the solution of the two-body problem with these initial conditions, and the conic parameters at the epoch are those of one conic, an ellipse exactly if the speed is less than the escape velocity.", "quantifier": "all gravitational parameters, all displacements and velocities that are not collinear and not parabolic, over the reals", "why_tests_cant": "the elements involve angles between vectors with an orientation, and angles that are not defined for circular or equatorial orbits; tests use a few bodies of the solar system, which are in none of the special cases", "anchors": ["physics/kepler_orbit_body.hpp:140-207", "physics/kepler_orbit_body.hpp:209-254", "geometry/grassmann_body.hpp:352-357", "geometry/r3_element_body.hpp:601-609", "numerics/angle_reduction_body.hpp:172-191"]}
{"id": "C72", "title": "The multistep integrators compute one trajectory of their method, however Solve is called", "statement": "The states appended by the multistep integrators, over any increasing sequence of calls to Solve on an instance, are those of one trajectory at the times t0 + n h: the first ones are obtained by the startup integrator with the step h / 16, the others satisfy the linear recurrence of the method (and, for the symmetric methods, the formula for the velocities). All the steps up to the last final time are appended, once each, and the status tells whether the integration was stopped.", "quantifier": "all methods in the tables, all startup methods passing the checks, all right-hand sides, all steps h > 0, all initial states, all increasing sequences of final times", "why_tests_cant": "the startup can be interrupted in the middle of a step and resumed by another call; tests compare a few errors on the harmonic oscillator for a single call", "anchors": ["integrators/starter_body.hpp:23-81", "integrators/explicit_linear_multistep_integrator_body.hpp:23-131", "integrators/symmetric_linear_multistep_integrator_body.hpp:22-152", "integrators/symmetric_linear_multistep_integrator_body.hpp:281-321", "integrators/integrators.hpp:91-94"]}
{"id": "C73", "title": "The one-step integrators make the steps of their method and keep its geometric properties", "statement": "SymplecticRungeKuttaNyström integrators append, for every whole step before the final time, the state obtained by the alternating kicks and drifts of the method; the integration may be interrupted and resumed; a time-reversible method, run backward, goes through the same states; the steps preserve the symplectic form if the derivative of the acceleration is symmetric; ABA and BAB methods derived from a partitioned method exchange kicks and drifts. Explicit Runge-Kutta integrators make the steps of their tableau, including with reuse of the last stage. An Aborted status stops the integration.", "quantifier": "all coefficients passing the checks of the constructors, all accelerations, all steps of either sign, all states", "why_tests_cant": "the reuse of evaluations between steps, the three compositions and the two directions interact; tests observe orders of convergence on the harmonic oscillator", "anchors": ["integrators/symplectic_runge_kutta_nyström_integrator_body.hpp:24-144", "integrators/symplectic_runge_kutta_nyström_integrator_body.hpp:197-240", "integrators/explicit_runge_kutta_integrator_body.hpp:30-171", "integrators/methods.hpp:135-187"]}
{"id": "C74", "title": "The adaptive step size integrators only make tolerable steps, reach the final time and terminate", "statement": "The states appended by the embedded Runge-Kutta and Runge-Kutta-Nyström integrators are successive steps of the method of higher order, in the direction of the integration and not beyond the final time, for each of which the tolerance accepts the difference between the two methods; unless it is interrupted (maximum number of steps, vanishing step, Aborted) an integration ends exactly at the final time if the last step is exact, and otherwise just before an acceptable step that goes beyond it. With a maximum number of steps, a bounded right-hand side and a tolerance that accepts small errors, Solve terminates. An interrupted integration may be retried, and integrating to a time and then to a later one is integrating to the later one.", "quantifier": "all methods passing the checks of the constructors, all right-hand sides, tolerances and parameters, all states, both directions", "why_tests_cant": "the control loop jumps into its middle, reuses evaluations across rejected and accepted steps and changes the step at the end; tests integrate a few oscillators forward", "anchors": ["integrators/embedded_explicit_runge_kutta_integrator_body.hpp:47-264", "integrators/embedded_explicit_runge_kutta_nyström_integrator_body.hpp:44-258", "integrators/embedded_explicit_generalized_runge_kutta_nyström_integrator_body.hpp:46-268", "integrators/integrators.hpp:148-190", "integrators/ordinary_differential_equations.hpp:29-46"]}
{"id": "C75", "title": "The Runge-Kutta and Nyström methods have the orders that they claim", "statement": "A step of DormandPrince1986RK547FC, Kutta1901Vσ1, DormandElMikkawyPrince1986RKN434FM, Fine1987RKNG34 or Fine1987RKNG45 started on a solution of a differential equation differs from the solution by O(h^(p+1)), where p is the order of the method of higher order, for the positions and for the velocities, and the error estimate given to the tolerance is O(h^p).", "quantifier": "all systems of equations whose right-hand sides are built from the time, the positions and the velocities by sums, products, inverses and square roots, all their solutions at points where the right-hand side is defined, all small steps in both directions", "why_tests_cant": "an order is an asymptotic property of all equations: a mistyped coefficient only degrades the accuracy, and the tests integrate a few equations, most of which do not depend on the velocities", "anchors": ["integrators/methods.hpp:443-648", "integrators/embedded_explicit_runge_kutta_integrator_body.hpp:175-244", "integrators/embedded_explicit_generalized_runge_kutta_nyström_integrator_body.hpp:181-249", "integrators/embedded_explicit_runge_kutta_nyström_integrator_body.hpp:176-241"]}
{"id": "C76", "title": "The symplectic methods have the orders that they claim", "statement": "A step of a symplectic integrator started on a solution of a second-order equation differs from the solution by O(h^(p+1)) plus h times a constant that is proportional to the largest error of the order conditions of the method; and the coefficients of all the methods of the code, rounded to doubles, in each of the compositions that AsSymplecticRungeKuttaNyström accepts, pass the checks of the constructor and satisfy the conditions of the stated order within a small multiple of the precision of the numbers.", "quantifier": "all systems of equations whose right-hand sides are built from the time and the positions by sums, products, inverses and square roots, all their solutions, all methods, all small steps; all the rooted trees up to the stated order, all the methods of the code", "why_tests_cant": "an order is an asymptotic property of all equations, the error of a mistyped digit is smaller than the errors that the tests accept, and tests measure the convergence on the harmonic oscillator only", "anchors": ["integrators/methods.hpp:95-190", "integrators/methods.hpp:269-1400", "integrators/symplectic_runge_kutta_nyström_integrator_body.hpp:40-230"]}
{"id": "C77", "title": "Linear systems are solved correctly", "statement": "BackSubstitution and ForwardSubstitution succeed exactly when the diagonal has no zero and return the only solution; when the functions Solve and R3x3Matrix::Solve return, whatever the uninitialized storage contained, the result is the only solution, the columns of the matrix are independent, and P A = L U; they succeed on all nonsingular systems.", "quantifier": "all dimensions, all matrices and right-hand sides, all contents of the uninitialized storage", "why_tests_cant": "tests solve a few small systems; the systems for which the pivoting fails form a set of measure zero, which tests on random or textbook matrices do not meet", "anchors": ["numerics/matrix_computations_body.hpp:709-746", "numerics/matrix_computations_body.hpp:1058-1123", "geometry/r3x3_matrix_body.hpp:168-240", "geometry/symmetric_bilinear_form_body.hpp:385-395"]}
{"id": "C78", "title": "Orthogonal transformations preserve eigenvalues and converge to them", "statement": "ComputeHouseholderReflection returns an orthogonal reflection that maps the vector to a multiple of the first vector of the basis; HessenbergDecomposition and FrancisQRStep return matrices in Hessenberg form that are orthogonally similar to the given one; RealSchurDecomposition returns a quasi-triangular matrix with the same eigenvalues; ClassicalJacobi returns an orthogonal matrix, annihilates the chosen element at each iteration, decreases the elements that are not on the diagonal at a fixed rate, and for enough iterations returns eigenvalues and eigenvectors whose residuals are below the requested accuracy.", "quantifier": "all dimensions, all matrices (symmetric for ClassicalJacobi), all accuracies and numbers of iterations", "why_tests_cant": "tests decompose a few matrices; the vectors for which the reflection is wrong form a set of measure zero, and the convergence of an iteration for all matrices is not observable by tests", "anchors": ["numerics/matrix_computations_body.hpp:46-163", "numerics/matrix_computations_body.hpp:180-238", "numerics/matrix_computations_body.hpp:843-1019"]}
{"id": "C79", "title": "The reduction of lattices terminates and returns a reduced basis of the same lattice", "statement": "UnitriangularGramSchmidt returns orthogonal columns Q and a unitriangular R with A = QR, without reading uninitialized storage, even for dependent columns; LenstraLenstraLovász terminates for all integer matrices, its result generates the same lattice, satisfies the conditions of Lenstra, Lenstra and Lovász, and the length of its first vector is within a factor 2^((n-1)/2) of that of any nonzero vector of the lattice.", "quantifier": "all dimensions, all integer matrices (of any size, with independent or dependent columns), all contents of the uninitialized storage", "why_tests_cant": "tests reduce a few small lattices; termination, preservation of the lattice and the bound on the length quantify over all matrices, and entries beyond the precision of Round are not tested", "anchors": ["numerics/lattices_body.hpp:460-512", "numerics/matrix_computations_body.hpp:783-841", "numerics/elementary_functions_body.hpp:243-246"]}
{"id": "C80", "title": "The reduction of Nguyễn and Stehlé returns a reduced basis of the same lattice", "statement": "Gram computes the Gram matrix within its storage; Insert and SizeReduce keep it exact; NguyễnStehlé terminates, its result generates the lattice that it was given whatever the rounding of the floating-point operations, and is reduced.", "quantifier": "all dimensions, all integer matrices, all contents of the uninitialized storage, all floating-point operations (for the preservation of the lattice)", "why_tests_cant": "tests reduce a few lattices with independent columns of moderate size; termination, the exactness of the Gram matrix and the preservation of the lattice quantify over all matrices, and dependent columns, zero columns and large elements are not tested", "anchors": ["numerics/lattices_body.hpp:38-41", "numerics/lattices_body.hpp:244-465", "numerics/lattices_body.hpp:513-573"]}
{"id": "C81", "title": "The q-method returns the rotation that best maps the first vectors to the second ones", "statement": "DavenportQMethod returns a unit quaternion; the matrix K is that of the gain of Wahba in the coordinates of the quaternion, with the conventions of Rotation; the gain of the result is maximal among all rotations up to what the method of Jacobi leaves off the diagonal, and when the second vectors are exact images each first vector is mapped near its image.", "quantifier": "all lists of vectors and weights, all numbers of iterations and thresholds", "why_tests_cant": "tests compare three configurations with a tolerance; optimality quantifies over all rotations, and a wrong sign in K or a missing conjugation is compatible with symmetric data", "anchors": ["numerics/davenport_q_method_body.hpp:26-88", "numerics/matrix_computations_body.hpp:967-1019", "geometry/r3x3_matrix_body.hpp:391-398"]}
{"id": "C82", "title": "The decompositions of Cholesky and of Gram and Schmidt factor the matrix, exactly when they should, and the Rayleigh iteration returns a vector with its best eigenvalue", "statement": "CholeskyDecomposition and the RDR decomposition produce factors of the symmetric matrix given by its upper half, and produce positive pivots if and only if it is positive definite; ClassicalGramSchmidt produces orthonormal columns and a triangular matrix with a positive diagonal whose product is the matrix, if and only if the columns are independent; RayleighQuotientIteration returns the eigenvector closest to its argument.", "quantifier": "all sizes, all matrices, all contents of the uninitialized storage", "why_tests_cant": "tests decompose a few fixed matrices; the equivalences quantify over all matrices and vectors, and the failures need special matrices", "anchors": ["numerics/matrix_computations_body.hpp:655-707", "numerics/matrix_computations_body.hpp:748-783", "numerics/matrix_computations_body.hpp:1021-1056", "numerics/matrix_computations.hpp:91-158"]}
{"id": "C83", "title": "The searches for extrema return the best point that they saw and bracket the extremum, and DoubleBrent returns ordered zeroes", "statement": "GoldenSectionSearch terminates on doubles for all functions, comparators and bounds, returns a point of the interval, never loses the best value, and its bracket around the extremum of a unimodal function shrinks by the golden ratio; Brent for extrema returns the best point where it evaluated the function, terminates in exact arithmetic and is within its tolerance of the extremum of a unimodal function; DoubleBrent returns, in increasing order, points of the interval that are zeroes or bounds returned by the search for a zero, misses neither a zero at a bound nor a change of sign, terminates, and finds all the zeroes.", "quantifier": "all functions, all bounds, all tolerances, all comparators that are strict weak orders, all contents of uninitialized storage", "why_tests_cant": "tests use a few smooth functions; termination and optimality quantify over all functions, including discontinuous ones, and over all iterations of the loops", "anchors": ["numerics/root_finders_body.hpp:158-268", "numerics/root_finders_body.hpp:270-326", "numerics/root_finders_body.hpp:328-457", "numerics/root_finders.hpp:40-83"]}
{"id": "C84", "title": "The recurrence of a ground track has the right subcycle, and the closest recurrence is the last convergent", "statement": "The constructor of OrbitRecurrence accepts exactly the triples that satisfy its preconditions; the subcycle that its loop finds is the smallest one, and it is the denominator of the penultimate convergent of the number of revolutions per day; the ground track closes after exactly that number of revolutions, its nodes are on a grid of the stated interval, and the first pass next to the origin takes place after the subcycle; the grid interval is positive; ClosestRecurrence returns the best approximation with a bounded cycle, which is the last convergent whose denominator does not exceed the bound, and its result satisfies the preconditions of the constructor.", "quantifier": "all triples of integers whose cycle fits, all frequencies and bounds (real numbers for the positive results, doubles for the refutations)", "why_tests_cant": "the tests use ten or so actual satellites; the characterization by continued fractions is a statement about all triples, and the failure of the check occurs for rare doubles", "anchors": ["astronomy/orbit_recurrence_body.hpp:25-64", "astronomy/orbit_recurrence_body.hpp:66-103", "astronomy/orbit_recurrence_body.hpp:105-145", "astronomy/orbit_recurrence.hpp:19-120", "base/mod.hpp:11-13"]}
{"id": "C85", "title": "The segments that a perspective considers as visible are exactly those that the spheres do not hide", "statement": "VisibleSegments for a sphere returns at most two parts of the segment, no point of which is hidden by the sphere, i.e., is such that the segment from the camera to that point meets the open ball; all the points of the segment that are not hidden, except possibly its extremities, are in these parts; IsHiddenBySphere tells if a point is hidden; SegmentBehindFocalPlane returns exactly the part of the segment whose depth is at least the focal length; VisibleSegments for several spheres remains within the bounds of its vector and returns the segments that remain when the spheres are considered one after the other.", "quantifier": "all cameras, segments and spheres (real numbers for the positive results, doubles for the refutations); for several spheres, all functions that return at most two segments", "why_tests_cant": "the tests use a handful of segments and one random scene; the intersection of a line with the cone and the sphere has a dozen configurations, some of which (infinite parameters, equal signs, degenerate quadratics) are only met on sets of measure zero", "anchors": ["geometry/perspective_body.hpp:71-98", "geometry/perspective_body.hpp:116-158", "geometry/perspective_body.hpp:160-369", "geometry/perspective_body.hpp:371-428", "numerics/root_finders_body.hpp:459-502", "geometry/barycentre_calculator_body.hpp:20-60"]}
{"id": "C86", "title": "The solver of the equations of Euler returns the torque-free motion of a rigid body", "statement": "For moments of inertia that are positive and in increasing order, whether or not some of them are equal, and for any angular momentum, initial attitude and initial time, no check of the constructor of EulerSolver fails; the angular momentum returned by AngularMomentumAt has the cross product of itself and the angular velocity as its derivative at all times; the attitude returned by AttitudeAt maps it to the constant angular momentum in the inertial frame, is the initial attitude at the initial time, and its derivative is given by the angular velocity that AngularVelocityFor computes; the norm of the angular momentum and the energy are constant.", "quantifier": "all moments of inertia, angular momenta, unit quaternions and times, in real numbers, and all functions that satisfy the definitions of the elliptic integrals and functions", "why_tests_cant": "the tests follow a few trajectories of a few bodies; the solution has four formulas, two regions and eight combinations of signs, it unwinds angles through arc tangents with two arguments, and it has limits (symmetric bodies, steady rotation about the intermediate axis) that are met on sets of measure zero", "anchors": ["physics/euler_solver_body.hpp:34-259", "physics/euler_solver_body.hpp:267-305", "physics/euler_solver_body.hpp:307-322", "physics/euler_solver_body.hpp:324-414", "physics/euler_solver_body.hpp:462-502", "physics/euler_solver.hpp:109-165"]}
{"id": "C87", "title": "A system of rigid bodies has the mass, the centre of mass, the angular momentum and the inertia of its points", "statement": "If each of the bodies given to MechanicalSystem::AddRigidBody is made of material points whose centre of mass is the origin of its frame, with their total mass and their inertia tensor, and if it moves rigidly, in a frame of either handedness, then mass and centre_of_mass are the total mass and the barycentre of all the points; LinearMotion is the translation by the centre of mass; AngularMomentum and InertiaTensor are the angular momentum and the inertia of all the points with respect to the centre of mass; they don't depend on the order of the bodies or on the way the points are distributed among them; if all the points move like a single rigid body, the angular momentum is the product of the inertia tensor and the angular velocity; a system without bodies has no centre of mass.", "quantifier": "all lists of bodies, all lists of points, all rigid motions with a unit quaternion, in real numbers, as long as the total mass is not 0", "why_tests_cant": "the tests have a few systems of two or four bodies with simple motions; the definition by points is not in the code, which transports forms and bivectors through several frames and relies on the theorem of the parallel axes", "anchors": ["physics/mechanical_system_body.hpp:18-35", "physics/mechanical_system_body.hpp:37-48", "physics/mechanical_system_body.hpp:50-59", "physics/mechanical_system_body.hpp:61-79", "physics/mechanical_system_body.hpp:81-96", "physics/mechanical_system.hpp:47-94"]}
{"id": "C88", "title": "A task that calls back the managed code computes what it would compute with an ordinary function", "statement": "For any terminating task given to PushPullExecutor, any callback, even one that has a state, and any interleaving of the thread of the task and of the managed thread that pulls arguments and pushes results until Pull returns false: the calls executed by the managed code are those that the task would make if the callback was an ordinary function, in the same order; the result that get returns is the same; the check of get does not fail; there is no deadlock and the execution ends after four steps for each call and five more, with the thread of the task joined. After Shutdown, Pull always returns false. Not pulling, or destroying the executor before Pull has returned false, blocks for ever.", "quantifier": "all tasks (trees of calls that depend on the results of the preceding ones), all callbacks that depend on the history of the calls, all interleavings of the critical sections of the two threads", "why_tests_cant": "a test runs a few interleavings out of those that the scheduler may choose, and cannot show the absence of deadlocks", "anchors": ["base/push_pull_callback_body.hpp:16-61", "base/push_pull_callback_body.hpp:63-88", "base/push_pull_callback_body.hpp:90-123", "base/push_pull_callback.hpp:15-97", "ksp_plugin/interface_collision.cpp:65-105"]}
{"id": "C89", "title": "The recurring thread runs its action on the inputs in order and at most once, with its period, and is stopped and destroyed properly", "statement": "In any interleaving of calls to Put, Get, Start, Stop and Restart with the steps of the thread and the passing of time: the inputs on which the action of a RecurringThread is run are a subsequence of those given to Put, and the values returned by Get are a subsequence of the outputs of the action; if the thread runs and is not stopped, the action is run on an input that is not overwritten; after Stop or Restart has requested the thread to stop, it makes at most three more steps and at most finishes the action that it was about to run; nothing is run when the thread is stopped; Start and Stop are idempotent; since the creation of the thread, the action is run at most once for each period and once more; the behaviour is defined as long as the object is not destroyed, or if the thread is stopped before that. As the comments say: the action is run no more frequently than the period; an input is either picked by the action or overwritten; the thread is stopped by the destruction of the object. These three are false.", "quantifier": "all actions with a state, all periods, all sequences of calls and of steps", "why_tests_cant": "a test sees one interleaving at a time; the loss of an input and the use of destroyed members happen in windows of a few instructions", "anchors": ["base/recurring_thread_body.hpp:18-52", "base/recurring_thread_body.hpp:61-99", "base/recurring_thread.hpp:18-84", "base/stoppable_thread.hpp:29-36"]}
{"id": "C90", "title": "The Legendre polynomials are those of the recurrence of Bonnet, are orthogonal and have exact coefficients", "statement": "LegendrePolynomial<n>, evaluated with any evaluator, is the polynomial given by the recurrence of Bonnet; it satisfies the differential equation of Legendre, is 1 at 1 and has the parity of n; the integral from -1 to 1 of the product of two polynomials is 0, or 2/(2n+1) if they are equal; the coefficients computed on doubles have no rounding error. The double factorial of 2n-1 is the product of the odd numbers, that of 2n is 2^n n!. The polynomials exist for all degrees: this is false, there is an overflow for all degrees from 18 on.", "quantifier": "all degrees, all arguments, all evaluators", "why_tests_cant": "the tests compare the polynomials of a few degrees with a table; the orthogonality and the equation are statements on all real numbers", "anchors": ["numerics/legendre_body.hpp:20-49", "numerics/combinatorics_body.hpp:12-35"]}
{"id": "C91", "title": "Dimensions are those of changes of units, and a serialized quantity can only be read with its own dimensions", "statement": "The product, quotient, power and root of dimensions are those of the factors by which measures change when the base units change, and different dimensions have different factors; the root is defined exactly if there is one; the types of the products, quotients and roots of quantities have these dimensions, and are double exactly when there is no dimension. The representation of the dimensions fits in 40 bits and determines them when all exponents are in -24 .. 7, which is the condition for serialization; a quantity that was written may be read with the same dimensions, giving the same magnitude, and fails the check with any others.", "quantifier": "all exponents, all changes of units, all magnitudes", "why_tests_cant": "the packed representation has 2^40 values; a collision between two dimensions would make a save readable with the wrong type", "anchors": ["quantities/dimensions_body.hpp:14-157", "quantities/generators_body.hpp:21-78", "quantities/quantities_body.hpp:70-86"]}
{"id": "C92", "title": "A continuous trajectory approximates all its points, evaluates the right polynomial, and returns to its checkpoints", "statement": "Points may be appended to a continuous trajectory exactly if they are separated by the step. The polynomials approximate the successive groups of 9 points, sharing their end points, and the points that are not yet approximated are kept. The degree stays in 3 .. 17 and its age in 0 .. 100; a polynomial that is appended is within the tolerance or has the maximal degree, unless the approximation is unstable. Evaluation is defined exactly between t_min and t_max, and uses the polynomial of the interval that contains the time, whatever the cache. Reading a checkpoint after appending more points restores the trajectory. Prepending a trajectory gives the evaluation of the prefix up to its end and of the trajectory afterwards.", "quantifier": "all approximations, all errors, all sequences of points, all times and cache states, all checkpoints", "why_tests_cant": "the degree is adjusted by a history of up to 100 approximations whose errors are arbitrary; the cache and the checkpoint may be used in any state", "anchors": ["physics/continuous_trajectory_body.hpp:35-60", "physics/continuous_trajectory_body.hpp:82-167", "physics/continuous_trajectory_body.hpp:589-721", "physics/continuous_trajectory_body.hpp:758-885"]}
{"id": "C93", "title": "Reduced angles are in their interval and differ from the angle by the integer number of periods that is returned", "statement": "If the reduction modulo a quarter of turn returns the quadrant modulo 4 and a remainder with an error of less than an eighth of turn, the fractional part returned by ReduceAngle is in the interval that starts at -pi/2, -pi or 0 and has the length of the period, without its upper bound; the integer part is the integer number of periods such that the sum is the angle, with the same error as the reduction; without errors both parts are determined by the angle.", "quantifier": "all angles, all reductions and quadrants, all errors below pi/4", "why_tests_cant": "the cases depend on the quadrant and on the sign of the remainder, which may be wrong near the ends of the interval because of rounding errors", "anchors": ["numerics/angle_reduction_body.hpp:138-220"]}
{"id": "C94", "title": "The collision intervals are the times where the trajectory is below the maximum radius", "statement": "If the distance is monotonic between the successive apsides and ends of the trajectory, and if the minima and maxima alternate, the intervals returned by ComputeCollisionIntervals contain all the times where the trajectory is below the maximum radius, the trajectory is never above the maximum radius in them, they are disjoint and ordered, and no check fails; if the minima and maxima do not alternate there is no interval. The time returned by ComputeFirstCollision is the first zero of the successive interpolants of the height, where the height is at most the maximum error if the error estimates are bounds; if there is none the interpolants cover the interval and do not vanish.", "quantifier": "all distances that are monotonic between the apsides, all radii, any number of apsides, all exact root finders", "why_tests_cant": "two nested loops on alternating extrema, with special cases at both ends and checks that end the process; the cases depend on the order of any number of distances", "anchors": ["physics/apsides_body.hpp:105-131", "physics/apsides_body.hpp:159-373", "physics/apsides_body.hpp:373-475"]}
