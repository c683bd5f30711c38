{
 "claims": [
  {
   "property": "C01",
   "status": "proved",
   "theorems": [
    "C01_bit_reversed_increment",
    "C01_iteration_is_bit_reversal",
    "C01_visits_every_index_once"
   ],
   "note": "Full statement, for all widths 1..31."
  },
  {
   "property": "C02",
   "status": "proved",
   "theorems": [
    "C02_floor_log2",
    "C02_power_of_2_le"
   ],
   "note": "Full statement over the domain of std::int64_t."
  },
  {
   "property": "C03",
   "status": "partial",
   "theorems": [
    "C03_encode_succeeds",
    "C03_round_trip",
    "C03_encoded_length",
    "C03_decoded_length",
    "C03_alphabet",
    "C03_null_terminated_round_trip_refuted",
    "C03_decode_bounds_refuted"
   ],
   "note": "Round trip, lengths and alphabet proved for all byte strings with the non-null-terminated encoder. Refuted: with null_terminated=true Decode(Encode(b)) differs from b although encoder.hpp says the input of Decode may be null-terminated; decoding malformed text goes out of bounds."
  },
  {
   "property": "C04",
   "status": "partial",
   "theorems": [
    "C04_encode",
    "C04_encode_admitted_overlap_refuted",
    "C04_decode",
    "C04_encode_checked",
    "C04_decode_checked",
    "C04_round_trip",
    "C04_encode_new",
    "C04_alphabet",
    "C04_decode_new",
    "C04_decode_case_insensitive",
    "C04_decode_high_characters_refuted"
   ],
   "note": "Encoding proved on a byte-addressed memory for all overlaps that leave room for the terminator. Refuted: the overlap precondition of the code admits the null-terminated output ending exactly where the input starts, which destroys the first byte; decoding characters >= 0x80 indexes out of bounds (signed char). The overlap precondition itself is checked by C04_encode_checked and C04_decode_checked."
  },
  {
   "property": "C05",
   "status": "proved",
   "theorems": [
    "C05_fingerprint_cat_not_0_1",
    "C05_fingerprint_not_0_1"
   ],
   "note": "Full statement."
  },
  {
   "property": "C06",
   "status": "proved",
   "theorems": [
    "C06_disjoint_sets"
   ],
   "note": "Full statement for all histories after MakeSingleton on distinct elements, from an arbitrary earlier heap."
  },
  {
   "property": "C07",
   "status": "partial",
   "theorems": [
    "C07_no_check_fails",
    "C07_received_prefix",
    "C07_received_all",
    "C07_bytes_partial",
    "C07_bytes_refuted",
    "C07_no_deadlock",
    "C07_terminates",
    "C07_held_array_intact"
   ],
   "note": "All interleavings of the serializing thread and the client, with or without compressor. Byte equality is proved if the writer ends with BackUp; refuted otherwise: if the last buffer is filled exactly and BackUp is not called (allowed by the contract of ZeroCopyOutputStream) the last chunk is lost."
  },
  {
   "property": "C08",
   "status": "proved",
   "theorems": [
    "C08_no_check_fails",
    "C08_consumed_prefix",
    "C08_callbacks_in_order",
    "C08_complete",
    "C08_no_deadlock",
    "C08_terminates"
   ],
   "note": "All interleavings, all chunk configurations, with or without compressor; the reader consumes arbitrary pieces of each array. Parsing errors are not modelled."
  },
  {
   "property": "C09",
   "status": "partial",
   "theorems": [
    "C09_in_order_at_most_once",
    "C09_all_executed_partial",
    "C09_threads_terminate",
    "C09_all_executed_refuted",
    "C09_try_add_iff",
    "C09_try_add_no_wait",
    "C09_destroyed",
    "C09_destructor_returns"
   ],
   "note": "In-order, at-most-once execution, termination, TryAdd and destruction proved for all schedules. That every added call is executed is proved only if the destructor has not started; refuted otherwise (the destructor drops queued calls)."
  },
  {
   "property": "C10",
   "status": "partial",
   "theorems": [
    "C10_join_returns",
    "C10_progress",
    "C10_join_terminates",
    "C10_notified_once_partial",
    "C10_notified_twice_refuted"
   ],
   "note": "Join semantics, progress and termination proved for all schedules. The completion notification is raised at most once only if Add is not called while workers may finish; refuted in general (double Notify)."
  },
  {
   "property": "C11",
   "status": "partial",
   "theorems": [
    "C11_byte_array_equality_partial",
    "C11_wide_array_equality_refuted",
    "C11_equal_arrays_compare_equal"
   ],
   "note": "Holds for one-byte elements; refuted for every larger element size (memcmp is given the element count as byte count)."
  },
  {
   "property": "C12",
   "status": "proved",
   "theorems": [
    "C12_action",
    "C12_composition",
    "C12_associative",
    "C12_identity",
    "C12_inverse",
    "C12_determinant",
    "C12_faithful",
    "C12_bivectors",
    "C12_forget",
    "C12_serialized_code"
   ],
   "note": "Full statement over all six permutations; messages are modelled by the int32 code they store."
  },
  {
   "property": "C13",
   "status": "partial",
   "theorems": [
    "C13_sums",
    "C13_differences",
    "C13_products",
    "C13_quotients",
    "C13_quotient_real",
    "C13_faithful",
    "C13_conjugation",
    "C13_inner_product",
    "C13_definite",
    "C13_real_minus_complex_refuted"
   ],
   "note": "All operators over R and the Hermitian product over complexified vectors. Refuted: real - z keeps the imaginary part of z instead of negating it."
  },
  {
   "property": "C14",
   "status": "proved",
   "theorems": [
    "C14_matrix",
    "C14_preserves",
    "C14_composition",
    "C14_inverse",
    "C14_identity",
    "C14_angle_axis",
    "C14_defines_frame",
    "C14_to_axes",
    "C14_from_axes",
    "C14_angles_define_from",
    "C14_angles_define_to",
    "C14_axis_angle_roundtrip",
    "C14_exp",
    "C14_forms",
    "C14_signatures",
    "C14_signature_group",
    "C14_signature_bivectors",
    "C14_orthogonalization",
    "C14_orthogonal",
    "C14_orthogonal_composition",
    "C14_orthogonal_forms"
   ],
   "note": "Exact arithmetic. All constructors, Exp, recovered axis and angle (half-turns included), symmetric bilinear forms, signatures and orthogonal maps."
  },
  {
   "property": "C15",
   "status": "proved",
   "theorems": [
    "C15_weighted_mean",
    "C15_empty",
    "C15_order",
    "C15_subset",
    "C15_unweighted"
   ],
   "note": "Exact arithmetic over R^3; also the unweighted overload."
  },
  {
   "property": "C16",
   "status": "proved",
   "theorems": [
    "C16_composition",
    "C16_inverse",
    "C16_linear_part",
    "C16_origins",
    "C16_similarities",
    "C16_similarity_inverse",
    "C16_similarity_linear_part"
   ],
   "note": "Exact arithmetic, for rigid transformations and similarities of either handedness."
  },
  {
   "property": "C17",
   "status": "proved",
   "theorems": [
    "C17_two_sum",
    "C17_two_difference",
    "C17_two_difference_points",
    "C17_no_overflow",
    "C17_quick_two_sum",
    "C17_quick_two_difference",
    "C17_properly_ordered"
   ],
   "note": "IEEE binary64 of Flocq, rounding to nearest even; hypotheses: the two results are finite (and for the quick variants, the documented precondition or the one checked in debug mode, which is shown to imply it)."
  },
  {
   "property": "C18",
   "status": "proved",
   "theorems": [
    "C18_fma",
    "C18_dekker"
   ],
   "note": "Both branches; exact if the product vanishes or is at least 2^-969 in magnitude."
  },
  {
   "property": "C19",
   "status": "partial",
   "theorems": [
    "C19_trunc_partial",
    "C19_frac_partial",
    "C19_off_by_one_refuted"
   ],
   "note": "Proved when the value is an integer or has the sign of the error; in all other cases the result is off by one: C19_off_by_one_refuted."
  },
  {
   "property": "C20",
   "status": "proved",
   "theorems": [
    "C20_next_up",
    "C20_next_down",
    "C20_special",
    "C20_log_b"
   ],
   "note": "All finite doubles; infinities and NaNs in C20_special."
  },
  {
   "property": "C21",
   "status": "partial",
   "theorems": [
    "C21_scale_b_partial",
    "C21_opp_partial",
    "C21_negative_refuted"
   ],
   "note": "Proved for nonnegative numbers and for powers of at least 2^-1023; negative numbers vanish below: C21_negative_refuted."
  },
  {
   "property": "C22",
   "status": "proved",
   "theorems": [
    "C22_ranks",
    "C22_metric",
    "C22_steps"
   ],
   "note": "All non-NaN doubles, including infinities and signed zeroes."
  },
  {
   "property": "C23",
   "status": "partial",
   "theorems": [
    "C23_evaluate",
    "C23_evaluate_derivative",
    "C23_algebra",
    "C23_origins",
    "C23_compose",
    "C23_at_origin_partial",
    "C23_at_origin_overflow_refuted",
    "C23_primitive",
    "C23_derivative",
    "C23_estrin_split"
   ],
   "note": "All degrees, coefficients, origins and arguments, exact arithmetic. AtOrigin only up to degree 20: above, its binomial coefficients overflow, C23_at_origin_overflow_refuted. Integration: the primitive; Integrate itself is a quadrature with decimal tables and is not modelled."
  },
  {
   "property": "C24",
   "status": "partial",
   "theorems": [
    "C24_basis",
    "C24_evaluate",
    "C24_derivative_partial",
    "C24_derivative_degree_0_refuted"
   ],
   "note": "All degrees, coefficients, bounds and arguments, exact arithmetic. The derivative of a series of degree 0 reads out of bounds: C24_derivative_degree_0_refuted."
  },
  {
   "property": "C25",
   "status": "partial",
   "theorems": [
    "C25_interpolates",
    "C25_interpolates_same",
    "C25_derivative",
    "C25_l2_norm",
    "C25_l1_bound_partial",
    "C25_l1_bound_general",
    "C25_l1_bound_refuted"
   ],
   "note": "Exact arithmetic. Interpolation, derivatives and the L-infinity-L2 norm (maximum, attained) proved. The L-infinity-L1 bound is proved only for polynomials vanishing at both ends; refuted in general since the ends of the interval are not considered."
  },
  {
   "property": "C26",
   "status": "partial",
   "theorems": [
    "C26_bisect_partial",
    "C26_checks",
    "C26_overflow_refuted",
    "C26_infinite_refuted"
   ],
   "note": "All functions of doubles, all finite bounds below 2^1023 in magnitude, in any order; false above: C26_overflow_refuted, and between infinities: C26_infinite_refuted."
  },
  {
   "property": "C27",
   "status": "partial",
   "theorems": [
    "C27_transform",
    "C27_wrong_size",
    "C27_parseval",
    "C27_symmetry",
    "C27_frequency",
    "C27_mode_partial",
    "C27_no_mode",
    "C27_mode_2_refuted",
    "C27_mode_1_refuted"
   ],
   "note": "Mode dereferences the end of the spectrum for sizes 1 and 2 (C27_mode_1_refuted, C27_mode_2_refuted); the theorem about Mode is therefore for sizes of at least 4. The transform itself is proved for all sizes."
  },
  {
   "property": "C28",
   "status": "proved",
   "theorems": [
    "C28_nearest",
    "C28_cells",
    "C28_library",
    "C28_empty_cells"
   ],
   "note": "For any axis computation that returns unit vectors and any nth_element with the standard postcondition, in exact arithmetic; C28_library shows that these assumptions can be met. C28_empty_cells: with 0 values per cell the construction does not terminate."
  },
  {
   "property": "C29",
   "status": "partial",
   "theorems": [
    "C29_calendar",
    "C29_jd_partial",
    "C29_jd_everywhere",
    "C29_JD",
    "C29_same_day_partial",
    "C29_next_day_partial",
    "C29_ordinal_partial",
    "C29_ordinal_accepts",
    "C29_order_partial",
    "C29_proleptic_gregorian_refuted",
    "C29_negative_refuted"
   ],
   "note": "Proved for the Julian calendar from -4715 and the Gregorian calendar from -98, with an exact description of the error elsewhere. Refuted for earlier years: two successive dates may be equal, the next day may be a year later. Exact arithmetic instead of double."
  },
  {
   "property": "C30",
   "status": "proved",
   "theorems": [
    "C30_week",
    "C30_consecutive",
    "C30_january_4th"
   ],
   "note": "Proved for all years that are accepted, 1583 to 9999."
  },
  {
   "property": "C31",
   "status": "partial",
   "theorems": [
    "C31_dates_accepted_partial",
    "C31_only_dates_partial",
    "C31_times",
    "C31_printed_date",
    "C31_printed_time",
    "C31_dates_with_times_partial",
    "C31_only_dates_with_times",
    "C31_printed_date_with_time",
    "C31_stray_W_refuted",
    "C31_negative_ordinal_refuted",
    "C31_no_decimals_refuted",
    "C31_year_10000_refuted",
    "C31_mixed_formats_refuted",
    "C31_overflow_refuted"
   ],
   "note": "Times: proved. Dates: refuted, a W is ignored if there are 8 digits and negative ordinal dates are rejected. Round trips proved for the years up to 9999, refuted for 10000 (the successor of 9999-12-31). Dates with times: refuted for negative years in basic format, which are mistaken for the extended format. Long texts overflow."
  },
  {
   "property": "C32",
   "status": "partial",
   "theorems": [
    "C32_utc_minus_tai",
    "C32_sixtieth_second",
    "C32_accepts_partial",
    "C32_negative_leap_refuted",
    "C32_elapsed",
    "C32_end_of_day"
   ],
   "note": "Exact rational time. C32_accepts_partial excludes the last minute of 1961-07-31 and 1968-01-31, where the code rejects existing times: C32_negative_leap_refuted."
  },
  {
   "property": "C33",
   "status": "proved",
   "theorems": [
    "C33_lookup_c02",
    "C33_lookup_ut1",
    "C33_lookup_tt",
    "C33_in_bounds"
   ],
   "note": "The three recursive searches over arbitrary tables; an index out of the table is a distinct outcome."
  },
  {
   "property": "C34",
   "status": "partial",
   "theorems": [
    "C34_reachable_consistent",
    "C34_check_exact",
    "C34_no_check_fails_partial",
    "C34_delete_segments",
    "C34_detach_segments",
    "C34_attach_segments",
    "C34_merge",
    "C34_forget_before_refuted",
    "C34_attach_refuted",
    "C34_detach_refuted",
    "C34_no_segment_refuted"
   ],
   "note": "All histories of NewSegment, DetachSegments, AttachSegments, DeleteSegments, ForgetAfter, ForgetBefore, Append (downsampling outcome arbitrary), clear and Merge; the check is exact. Operations are shown not to fail under explicit conditions. Refuted: ForgetBefore between the last two points of a non-final segment fails a CHECK, as do AttachSegments of a trajectory starting with a one-point segment and DetachSegments of empty segments; after deleting all segments NewSegment/Append/clear are undefined. Serialization is not modelled here."
  },
  {
   "property": "C35",
   "status": "proved",
   "theorems": [
    "C35_points_exist_unique",
    "C35_begin",
    "C35_increment",
    "C35_decrement",
    "C35_advance",
    "C35_retreat",
    "C35_distance",
    "C35_equality",
    "C35_size"
   ],
   "note": "Full statement for all reachable trajectories, including +=, -=, - and ==."
  },
  {
   "property": "C36",
   "status": "proved",
   "theorems": [
    "C36_find",
    "C36_lower_bound",
    "C36_upper_bound",
    "C36_t_min",
    "C36_t_max"
   ],
   "note": "Full statement for all reachable trajectories, with t_min and t_max."
  },
  {
   "property": "C37",
   "status": "partial",
   "theorems": [
    "C37_forget_before",
    "C37_forget_after_exact",
    "C37_forget_after_partial",
    "C37_forget_after_refuted"
   ],
   "note": "ForgetBefore: full statement when it returns. ForgetAfter: exact characterization; the documented behaviour holds unless t is a junction preceded by a segment of several points, where the point at t is kept (refuted)."
  },
  {
   "property": "C38",
   "status": "partial",
   "theorems": [
    "C38_downsampling",
    "C38_reload_partial",
    "C38_reload_state",
    "C38_reload_refuted",
    "C38_merge_refuted"
   ],
   "note": "Exact arithmetic, all histories of Append, ForgetAfter, ForgetBefore, SetDownsampling, ClearDownsampling, clear, and save/reload with lossless compression. The tolerance holds without reload; with n reloads the bound (n+1) times the tolerance is proved; refuted for the documented bound after a reload and after a Merge, which do not transfer the accumulated error."
  },
  {
   "property": "C39",
   "status": "partial",
   "theorems": [
    "C39_history",
    "C39_if_needed",
    "C39_queries",
    "C39_reading",
    "C39_serialization",
    "C39_deserialization",
    "C39_single_thread",
    "C39_complete_partial",
    "C39_incomplete_refuted",
    "C39_iterators_partial",
    "C39_iterators_refuted"
   ],
   "note": "All histories for the sequential specification; all interleavings for the threads. Refuted: a reader may be given a checkpoint that the writer has not filled yet, and iterators of the absl::btree_map are read after the lock was released, when another insertion may have invalidated them. Both are proved absent for a single thread."
  },
  {
   "property": "C40",
   "status": "partial",
   "theorems": [
    "C40_exactly_once",
    "C40_quiescent",
    "C40_progress",
    "C40_single_thread",
    "C40_decision_partial",
    "C40_race_refuted"
   ],
   "note": "All interleavings. Each callback is run exactly once or is pending behind a protection; progress and quiescence. Refuted: between the critical section and the execution of the callback another thread may install a protection that covers its time; the decision itself is right when it is made."
  },
  {
   "property": "C41",
   "status": "partial",
   "theorems": [
    "C41_first",
    "C41_join_leave",
    "C41_raii",
    "C41_reference",
    "C41_reference_refuted"
   ],
   "note": "Full statement for the values; refuted for the reference returned by first(), which dangles after another Join or Leave."
  },
  {
   "property": "C42",
   "status": "partial",
   "theorems": [
    "C42_layout_partial",
    "C42_layout_refuted",
    "C42_axes",
    "C42_add",
    "C42_sort"
   ],
   "note": "Proved for hierarchies where the elements of the satellites of a given body are of the same kind (all semimajor axes, or all mean motions, or all periods); otherwise the comparison is a fatal error (`C42_layout_refuted`) although each set of elements is valid for a KeplerOrbit."
  },
  {
   "property": "C43",
   "status": "proved",
   "theorems": [
    "C43_ends",
    "C43_smooth",
    "C43_quantities",
    "C43_quantity"
   ],
   "note": "The continuity of the derivative is that of sigma_prime, the derivative of sigma."
  },
  {
   "property": "C44",
   "status": "proved",
   "theorems": [
    "C44_segments",
    "C44_anomalous_manœuvres",
    "C44_final_time",
    "C44_construction",
    "C44_status"
   ],
   "note": "All histories of construction, Insert, Remove, Replace, SetDesiredFinalTime, RecomputeAll and deadline avoidance, for every honest integrator (it reaches the target when it returns OK, and does not return the statuses of rejected edits). Times only, exact arithmetic. Reading from a message is not covered."
  },
  {
   "property": "C45",
   "status": "partial",
   "theorems": [
    "C45_rejection",
    "C45_order_partial",
    "C45_removal",
    "C45_order_refuted",
    "C45_insertion_refuted"
   ],
   "note": "Rejections proved. Order and absence of check failures proved for the edits that do not lengthen later burns, and for removal from a plan that conserves mass. Refuted: replacing a burn by one with a smaller Δv makes later burns longer, they may overlap and the integration fails a CHECK; likewise for an insertion after a removal."
  },
  {
   "property": "C46",
   "status": "partial",
   "theorems": [
    "C46_masses_partial",
    "C46_masses_refuted"
   ],
   "note": "Proved for all edits but removal before the last manœuvre; refuted there: the manœuvre after the removed one keeps its old mass."
  },
  {
   "property": "C47",
   "status": "partial",
   "theorems": [
    "C47_copy_partial",
    "C47_copy_refuted"
   ],
   "note": "Proved except for the status; refuted for anomalous plans, whose status is not copied, so that the copy is never recomputed to avoid deadlines."
  },
  {
   "property": "C48",
   "status": "partial",
   "theorems": [
    "C48_final_mass",
    "C48_Δv",
    "C48_timings",
    "C48_serialization",
    "C48_tsiolkovsky",
    "C48_flight_plan",
    "C48_no_thrust_refuted"
   ],
   "note": "Exact arithmetic; Coriolis and frame changes are not modelled. Refuted for a vanishing thrust: the time of half Δv of a vanishing burn is 0/0."
  },
  {
   "property": "C49",
   "status": "proved",
   "theorems": [
    "C49_frames"
   ],
   "note": "Full statement, over all sequences of frames, with parts added and removed between frames."
  },
  {
   "property": "C50",
   "status": "partial",
   "theorems": [
    "C50_safe",
    "C50_pairs",
    "C50_accounting",
    "C50_progress",
    "C50_get_line",
    "C50_replay",
    "C50_played_pairs",
    "C50_record_replay",
    "C50_nested_refuted",
    "C50_activation_refuted",
    "C50_deactivation_refuted",
    "C50_truncated_refuted",
    "C50_checks",
    "C50_replacement_refuted"
   ],
   "note": "Proved for all schedules of disciplined executions: the calls of a thread are not nested, Return is called exactly once, and the recorder is switched when no call is in progress. Without this: a nested call (as in principia__SerializePlugin when PRINCIPIA_VERIFY_SERIALIZATION is set) blocks the whole journal for ever (`C50_nested_refuted`); activating a recorder during a call of another thread yields an unpaired record and releases a lock that is not held (`C50_activation_refuted`); deactivating it may delete the lock under another thread (`C50_deactivation_refuted`). A file truncated inside a record terminates the player (`C50_truncated_refuted`)."
  },
  {
   "property": "C51",
   "status": "proved",
   "theorems": [
    "C51_finite_difference",
    "C51_finite_difference_sharp",
    "C51_adams_moulton",
    "C51_cohen_hubbard_oesterwinter",
    "C51_adams_bashforth",
    "C51_adams_bashforth_sharp",
    "C51_symmetric",
    "C51_symmetric_sharp",
    "C51_symmetric_velocity",
    "C51_symmetric_reverse"
   ],
   "note": "The tables are compared with exact arithmetic on the monomials and the exactness on all polynomials follows by linearity.  Rounding errors are not modelled.  Convergence of the methods is not proved."
  },
  {
   "property": "C52",
   "status": "partial",
   "theorems": [
    "C52_expression",
    "C52_quantity",
    "C52_names",
    "C52_exponent_refuted",
    "C52_no_exponent"
   ],
   "note": "Every printed expression is parsed to its denotation; C52_exponent_refuted: not every other string is rejected, since what follows the digits of an exponent is ignored (m^2x, m^2^3) and an exponent beyond an int is reduced modulo 2^32."
  },
  {
   "property": "C53",
   "status": "partial",
   "theorems": [
    "C53_permutation",
    "C53_signature",
    "C53_signature_constructors",
    "C53_rotation",
    "C53_orthogonal",
    "C53_conformal_preserving",
    "C53_conformal_reversing_refuted",
    "C53_conformal_maps"
   ],
   "note": "Holds for all classes except orientation-reversing conformal maps, whose Determinant has the wrong sign (refuted)."
  },
  {
   "property": "C54",
   "status": "proved",
   "theorems": [
    "C54_composition",
    "C54_inverse",
    "C54_kinematics"
   ],
   "note": "Exact arithmetic. Composition, inverse and kinematics for frames of either handedness. SimilarMotion is not covered here."
  },
  {
   "property": "C55",
   "status": "partial",
   "theorems": [
    "C55_roots_exact",
    "C55_roots_increasing",
    "C55_constant_refuted",
    "C55_infinity_refuted"
   ],
   "note": "Exact arithmetic with infinities and NaNs for the divisions by zero. Exact unless a1 = a2 = 0; refuted for constants (a NaN is returned) and linear equations also return an infinity."
  },
  {
   "property": "C56",
   "status": "partial",
   "theorems": [
    "C56_accepted",
    "C56_only",
    "C56_no_digits_refuted",
    "C56_overflow_refuted"
   ],
   "note": "Proved up to 18 digits; whatever is accepted has the right value. Refuted: texts without digits are accepted, leading zeroes lead to an overflow."
  },
  {
   "property": "C57",
   "status": "partial",
   "theorems": [
    "C57_defined",
    "C57_rate",
    "C57_at_entries",
    "C57_inverse",
    "C57_range_checked",
    "C57_rotation_before",
    "C57_past_the_end_refuted"
   ],
   "note": "Both tables are transcribed in full; rational arithmetic. Julian dates and the Earth rotation angle are not range-checked at the end: C57_past_the_end_refuted."
  },
  {
   "property": "C58",
   "status": "proved",
   "theorems": [
    "C58_brent"
   ],
   "note": "Any function of doubles and any bounds, under IEEE arithmetic: what Brent guarantees if it returns. Its termination is not proved."
  },
  {
   "property": "C59",
   "status": "partial",
   "theorems": [
    "C59_zero_free",
    "C59_companion",
    "C59_real_roots_partial",
    "C59_degree_1_refuted",
    "C59_degree_1_eigenvalue"
   ],
   "note": "All series of degree at least 2, exact eigenvalues assumed. In degree 1 RealRoots gives half of the root: C59_degree_1_refuted; such series are produced by ЧебышёвPolynomialInterpolant."
  },
  {
   "property": "C60",
   "status": "proved",
   "theorems": [
    "C60_interpolant",
    "C60_streaming",
    "C60_adaptive",
    "C60_collisions"
   ],
   "note": "All functions, intervals, degrees and errors, exact arithmetic. The subdivision is described when it ends; that it ends is not proved."
  },
  {
   "property": "C61",
   "status": "partial",
   "theorems": [
    "C61_field",
    "C61_embedding",
    "C61_mixed_partial",
    "C61_real_minus_complex_refuted",
    "C61_norm",
    "C61_inner_product"
   ],
   "note": "C61_real_minus_complex_refuted: operator-(real, complex) does not negate the imaginary part, so 1 - i is computed as 1 + i; C61_mixed_partial covers the seven other mixed operators."
  },
  {
   "property": "C62",
   "status": "partial",
   "theorems": [
    "C62_potential",
    "C62_harmonic",
    "C62_legendre",
    "C62_acceleration",
    "C62_checks_refuted",
    "C62_tesseral_refuted",
    "C62_cases_refuted"
   ],
   "note": "Refuted: at the exact distance where the sectoral harmonics end a DCHECK_LT fails (the comparison for zonal bodies is strict the other way); non-zero coefficients of degree 2 and order 1 are ignored; a body of a degree above the last case of the switch is fatal."
  },
  {
   "property": "C63",
   "status": "proved",
   "theorems": [
    "C63_construction",
    "C63_limiting_degree",
    "C63_antitone",
    "C63_negligible"
   ],
   "note": "Exact arithmetic; the maxima of the Legendre functions are only assumed positive in C63_negligible."
  },
  {
   "property": "C64",
   "status": "partial",
   "theorems": [
    "C64_axes",
    "C64_celestial",
    "C64_surface",
    "C64_planetocentric",
    "C64_rotation",
    "C64_not_rotating",
    "C64_geopotential_axes",
    "C64_frame_field",
    "C64_spherical",
    "C64_cartesian",
    "C64_spherical_zero_refuted"
   ],
   "note": "Refuted part: the null vector has no spherical coordinates (the latitude is a NaN); everything else proved for all inputs."
  },
  {
   "property": "C65",
   "status": "proved",
   "theorems": [
    "C65_compose",
    "C65_inverse",
    "C65_identity",
    "C65_forget",
    "C65_dilatation",
    "C65_kinematics"
   ],
   "note": ""
  },
  {
   "property": "C66",
   "status": "partial",
   "theorems": [
    "C66_any_frame",
    "C66_non_rotating",
    "C66_body_surface",
    "C66_body_direction",
    "C66_body_direction_axes",
    "C66_barycentric",
    "C66_angular_acceleration",
    "C66_second_derivative_refuted",
    "C66_second_derivative",
    "C66_potential",
    "C66_at_rest",
    "C66_cache",
    "C66_frenet"
   ],
   "note": "Refuted part: the lambda that computes the second derivative of a normalized vector has the wrong sign for one term (its error is along the vector, so that the angular acceleration is right nonetheless). The equations of motion are proved under the hypothesis that the bodies are never in radial relative motion."
  },
  {
   "property": "C67",
   "status": "proved",
   "theorems": [
    "C67_equations",
    "C67_fixed_points",
    "C67_potential"
   ],
   "note": ""
  },
  {
   "property": "C68",
   "status": "partial",
   "theorems": [
    "C68_constructor",
    "C68_massive",
    "C68_one_massive",
    "C68_momentum",
    "C68_angular_momentum",
    "C68_massless",
    "C68_gradient",
    "C68_potential",
    "C68_conservative",
    "C68_jerk_massive_partial",
    "C68_jacobian_partial",
    "C68_jerk_massless_partial",
    "C68_jerk_refuted",
    "C68_tolerance"
   ],
   "note": "The jerks and the Jacobian are proved to be derivatives of the accelerations for spherical bodies (`_partial`); with an oblate body they ignore the harmonics, as a NOTE in the code says, and `C68_jerk_refuted` shows that the jerk is not the derivative."
  },
  {
   "property": "C69",
   "status": "proved",
   "theorems": [
    "C69_conic_parameters",
    "C69_unique",
    "C69_rejected",
    "C69_orientation"
   ],
   "note": ""
  },
  {
   "property": "C70",
   "status": "partial",
   "theorems": [
    "C70_motion_partial",
    "C70_incoming_refuted"
   ],
   "note": "False of the code for a hyperbola given by a true anomaly before the periapsis: the hyperbolic mean anomaly is computed with ArcCosh, which loses the sign, and the state vectors at the epoch are those of the opposite true anomaly (`C70_incoming_refuted`); proved in all other cases (`C70_motion_partial`)."
  },
  {
   "property": "C71",
   "status": "partial",
   "theorems": [
    "C71_state_vectors_partial",
    "C71_incoming_refuted",
    "C71_circular_refuted",
    "C71_equatorial_refuted"
   ],
   "note": "Proved for the orbits that are neither circular nor in the xy plane, except hyperbolas before the periapsis (`C71_state_vectors_partial`). In the three other cases the code is wrong in exact arithmetic: `C71_incoming_refuted` (any hyperbola before the periapsis), `C71_circular_refuted`, `C71_equatorial_refuted` (witnesses: the argument of the periapsis or the true anomaly is measured from a zero vector)."
  },
  {
   "property": "C72",
   "status": "partial",
   "theorems": [
    "C72_explicit",
    "C72_symmetric",
    "C72_explicit_repeated_refuted",
    "C72_symmetric_repeated_refuted",
    "C72_status_refuted",
    "C72_abort"
   ],
   "note": "Proved for right-hand sides without errors, and for those that ask to stop after the startup (`C72_abort`). Refuted: a second Solve with the same time during the startup fails a CHECK, though it is harmless afterwards (`C72_*_repeated_refuted`); an Aborted status during the startup is lost, Solve returns OK (`C72_status_refuted`)."
  },
  {
   "property": "C73",
   "status": "partial",
   "theorems": [
    "C73_symplectic_solve",
    "C73_continuation",
    "C73_round_trip",
    "C73_symplectic",
    "C73_partitioned",
    "C73_abort",
    "C73_abort_refuted",
    "C73_runge_kutta_solve"
   ],
   "note": "The theorems on symplectic methods assume that the sum of the coefficients a is 1 exactly (`consistent`); the constructor only checks it within 4 ULPs. Refuted: Aborted does not stop the integration if the right-hand side has returned another error before (`C73_abort_refuted`)."
  },
  {
   "property": "C74",
   "status": "partial",
   "theorems": [
    "C74_runge_kutta_sound",
    "C74_nystrom_sound",
    "C74_tables_checked",
    "C74_runge_kutta_terminates",
    "C74_nystrom_terminates",
    "C74_runge_kutta_continues",
    "C74_nystrom_continues",
    "C74_backward_refuted",
    "C74_retry_refuted",
    "C74_restart_refuted",
    "C74_abort_refuted"
   ],
   "note": "Proved for an exact last step in both directions, and forward otherwise. The first-same-as-last generalized methods need conditions on aʹ and b̂ʹ which the constructor does not check; they hold for Fine1987RKNG45 (`C74_tables_checked`). Refuted: backward without an exact last step, an integration drops its first acceptable step and appends nothing (`C74_backward_refuted`); an instance whose last step is exact cannot be retried after the maximum number of steps (`C74_retry_refuted`); a restarted integration reuses the step before its adaptation (`C74_restart_refuted`); the Nyström integrators that are not generalized do not stop on Aborted (`C74_abort_refuted`)."
  },
  {
   "property": "C75",
   "status": "partial",
   "theorems": [
    "C75_dormand_prince_order",
    "C75_kutta_order",
    "C75_special_nystrom_orders",
    "C75_fine45_order",
    "C75_fine34_refuted",
    "C75_fine34_corrected"
   ],
   "note": "Proved for all the methods, except Fine1987RKNG34 for forces that depend on the velocities: its coefficient aʹ₃₁ is mistyped (methods.hpp:560 has -234/128, the row does not sum to c₃), and its order is then 1 (`C75_fine34_refuted`); with -243/128 it has its order 4 (`C75_fine34_corrected`). The order is that of one step; there is no statement about the global error."
  },
  {
   "property": "C76",
   "status": "partial",
   "theorems": [
    "C76_error",
    "C76_nystrom_tables",
    "C76_partitioned_tables",
    "C76_yoshida_tables",
    "C76_coefficients",
    "C76_yoshida_refuted",
    "C76_leapfrog"
   ],
   "note": "Proved for all the methods, in all their compositions. The order conditions hold within 1e-14, except for the methods of order 8 of Yoshida: A within 1e-11 and B and E within 1e-13, because of the rounding of large coefficients, C and D within 1e-12, because the coefficients, although written with 20 digits, are wrong from the 13th digit (`C76_yoshida_refuted`)."
  },
  {
   "property": "C77",
   "status": "partial",
   "theorems": [
    "C77_back_substitution",
    "C77_forward_substitution",
    "C77_solve",
    "C77_r3x3_solve",
    "C77_factorization",
    "C77_small",
    "C77_dominant",
    "C77_r3x3_dominant",
    "C77_pivoting_refuted",
    "C77_singular_refuted",
    "C77_multipliers_refuted"
   ],
   "note": "Proved, except the success on all nonsingular systems, which is proved in dimensions 1 and 2 and for column dominant matrices, and refuted in general: the rows are exchanged according to the elements of the original matrix instead of those of the partially eliminated matrix. There is a positive definite symmetric matrix with a zero pivot (`C77_pivoting_refuted`), a nonsingular matrix declared singular (`C77_singular_refuted`), and multipliers far larger than 1 (`C77_multipliers_refuted`)."
  },
  {
   "property": "C78",
   "status": "partial",
   "theorems": [
    "C78_householder",
    "C78_householder_total",
    "C78_householder_refuted",
    "C78_checked",
    "C78_hessenberg_shape",
    "C78_hessenberg_partial",
    "C78_hessenberg_refuted",
    "C78_schur_refuted",
    "C78_zero_column_refuted",
    "C78_francis_shape",
    "C78_francis_partial",
    "C78_schur_shape",
    "C78_schur_block",
    "C78_jacobi_rotation",
    "C78_jacobi",
    "C78_jacobi_converges",
    "C78_jacobi_total"
   ],
   "note": "ClassicalJacobi is proved entirely, including its convergence. ComputeHouseholderReflection is refuted for the negative multiples of the first vector of the basis: the factor is -2 where it should be 2, so that the transformation triples the vector (`C78_householder_refuted`); for this reason HessenbergDecomposition and RealSchurDecomposition return matrices with the wrong eigenvalues for a symmetric matrix that is already in Hessenberg form (`C78_hessenberg_refuted`, `C78_schur_refuted`), and similarity is proved when these vectors are not met (`C78_hessenberg_partial`, `C78_francis_partial`; `checked` is the computation of the code restricted to the other vectors, see `C78_checked`). The division by the norm of a vector that vanishes produces NaNs, for instance for the identity (`C78_zero_column_refuted`). RealSchurDecomposition only updates the diagonal block at each step, so that T is not similar to the matrix in general even when its eigenvalues are right; this is not stated as a theorem. The shape of the results is proved unconditionally."
  },
  {
   "property": "C79",
   "status": "partial",
   "theorems": [
    "C79_gram_schmidt",
    "C79_gram_schmidt_initialized",
    "C79_terminates",
    "C79_deterministic",
    "C79_same_lattice",
    "C79_reduced",
    "C79_rounds_exists",
    "C79_short",
    "C79_dependent",
    "C79_round",
    "C79_round_refuted",
    "C79_reduced_refuted"
   ],
   "note": "Termination (by a lexicographic measure made of integral multiples of the squared lengths of the orthogonalized vectors), preservation of the lattice and the bound on the first vector are proved for all matrices. That the result is reduced is proved for any function that rounds to the nearest integer. The code rounds through cpp_bin_float_50: this is right if the numerator is below 2^167 (`C79_round`) and wrong in general (`C79_round_refuted`), and for entries beyond that size the returned basis is not reduced (`C79_reduced_refuted`)."
  },
  {
   "property": "C80",
   "status": "partial",
   "theorems": [
    "C80_gram",
    "C80_gram_storage",
    "C80_gram_storage_refuted",
    "C80_insert",
    "C80_size_reduce",
    "C80_same_lattice",
    "C80_exact_reduced",
    "C80_exact_terminates",
    "C80_exact_progress",
    "C80_deterministic",
    "C80_dependent_refuted",
    "C80_large_refuted",
    "C80_zero_refuted",
    "C80_exact_dependent_refuted"
   ],
   "note": "The lattice is preserved and the Gram matrix is exact for any arithmetic. In exact arithmetic, for independent columns, the result is reduced, and (for at most 56 columns, because of the saturation of the coefficients at 2^54) the function terminates without failing its check. For binary64 this is not proved for any class of matrices, and it is false in general: with dependent columns (`C80_dependent_refuted`) or elements whose squares overflow (`C80_large_refuted`) the function does not return, and with a zero first column the result may not be reduced (`C80_zero_refuted`). The algorithm mishandles dependent columns even in exact arithmetic (`C80_exact_dependent_refuted`). For an UnboundedMatrix with more columns than rows Gram writes out of the bounds of its storage (`C80_gram_storage_refuted`)."
  },
  {
   "property": "C81",
   "status": "proved",
   "theorems": [
    "C81_form",
    "C81_optimal",
    "C81_loss",
    "C81_recovers",
    "C81_total",
    "C81_converges"
   ],
   "note": "The bound is relative to the sum of the squares left off the diagonal: it is that of the threshold, or is multiplied by 5/6 at each of the 20 iterations, that is by less than 0.027. In exact arithmetic."
  },
  {
   "property": "C82",
   "status": "partial",
   "theorems": [
    "C82_cholesky",
    "C82_cholesky_total",
    "C82_cholesky_converse",
    "C82_semidefinite_refuted",
    "C82_rdr",
    "C82_rdr_total",
    "C82_rdr_converse",
    "C82_rdr_refuted",
    "C82_gram_schmidt",
    "C82_gram_schmidt_total",
    "C82_rayleigh",
    "C82_rayleigh_eigenvector",
    "C82_rayleigh_refuted",
    "C82_closest_refuted"
   ],
   "note": "The comment that NaNs are produced for the matrices that are not positive definite is refuted by a semidefinite matrix; the RDR decomposition is documented for all symmetric matrices but fails on the exchange matrix; the Rayleigh iteration is documented to return the closest eigenvector, but fails on diag(0, 1, -1) and (1, 1, 1), and returns the wrong eigenvector for (8, 12, 11). In exact arithmetic."
  },
  {
   "property": "C83",
   "status": "partial",
   "theorems": [
    "C83_golden_terminates",
    "C83_golden_within",
    "C83_golden_best",
    "C83_golden_converges",
    "C83_golden_exact_refuted",
    "C83_brent_best",
    "C83_brent_terminates",
    "C83_brent_unimodal",
    "C83_brent_parabola",
    "C83_double_brent_sound",
    "C83_double_brent_ordered",
    "C83_double_brent_within",
    "C83_double_brent_found",
    "C83_double_brent_exhausted",
    "C83_double_brent_terminates_partial",
    "C83_double_brent_zero_refuted",
    "C83_double_brent_all_refuted"
   ],
   "note": "Termination of Brent (extrema) and its accuracy are in exact arithmetic. The termination of DoubleBrent is proved for positive intervals, assuming that the searches return; on the interval from 0 to 0 it recurses without end whatever the function. The comment that it finds all the zeroes is refuted by a piecewise linear function with two zeroes, none of which is found. The golden-section search does not terminate in exact arithmetic: it relies on rounding."
  },
  {
   "property": "C84",
   "status": "partial",
   "theorems": [
    "C84_constructor",
    "C84_constructor_refuted",
    "C84_subcycle_convergent",
    "C84_ground_track",
    "C84_ground_subcycle",
    "C84_base_interval",
    "C84_grid_positive_partial",
    "C84_grid_positive_refuted",
    "C84_closest_best",
    "C84_closest_overflow",
    "C84_closest_convergent",
    "C84_closest_tie_refuted",
    "C84_closest_doubles_refuted",
    "C84_closest_uninitialized_refuted"
   ],
   "note": "The positive results on ClosestRecurrence are in exact arithmetic, for at most 92681 days so that the products do not overflow; beyond, the constructor overflows on triples that satisfy its preconditions. On doubles the CHECK on the greatest common divisor fails for a period of 5400 s and a rotation such that there are 60/11 revolutions per day, with the bound of 100 days that the analysis of orbits uses: 33 days are selected because of rounding. The grid interval is not always positive when the first number of the triple is 0. With a bound of 0 a variable is not initialized; with a bound of 1 the result need not be a convergent."
  },
  {
   "property": "C85",
   "status": "partial",
   "theorems": [
    "C85_visible_partial",
    "C85_camera_inside",
    "C85_point",
    "C85_point_refuted",
    "C85_focal_plane_partial",
    "C85_focal_plane_refuted",
    "C85_spheres",
    "C85_aligned_refuted",
    "C85_orthogonal_refuted",
    "C85_check_refuted"
   ],
   "note": "The theorem on VisibleSegments is in exact arithmetic with infinities and NaNs, with the DCHECKs off; it needs that the camera, A and B are not aligned and that KA and KC are not orthogonal. Without these hypotheses the claim is false, also on doubles: a segment aligned with the camera is returned although it is behind the sphere, and so is a segment through the centre of the sphere whose first extremity is at a right angle from the centre. With the DCHECKs on, one of them fails if the second extremity is on the sphere. IsHiddenBySphere is wrong if the camera is in the sphere. SegmentBehindFocalPlane multiplies the depth by the square of the scale of the similarity; it is right for isometries only."
  },
  {
   "property": "C86",
   "status": "proved",
   "theorems": [
    "C86_torque_free",
    "C86_elliptic_functions",
    "C86_angular_velocity",
    "C86_conserved"
   ],
   "note": "On real numbers: the rounding errors are not modelled, and the elliptic functions are any functions that satisfy their definitions, which are shown to exist; their implementation is not modelled. The infinite value of nu for a steady rotation about the intermediate axis is modelled and the result is shown to be right."
  },
  {
   "property": "C87",
   "status": "proved",
   "theorems": [
    "C87_centre_of_mass",
    "C87_linear_motion",
    "C87_angular_momentum",
    "C87_inertia",
    "C87_rigid",
    "C87_partition",
    "C87_empty"
   ],
   "note": "On real numbers: the rounding errors are not modelled. The bodies are finite sets of points."
  },
  {
   "property": "C88",
   "status": "proved",
   "theorems": [
    "C88_result",
    "C88_terminates",
    "C88_shutdown",
    "C88_deadlock",
    "C88_get_early"
   ],
   "note": "The mutual exclusion of absl::Mutex and the semantics of Await are assumed: each critical section is atomic."
  },
  {
   "property": "C89",
   "status": "partial",
   "theorems": [
    "C89_in_order",
    "C89_runs",
    "C89_no_hang",
    "C89_stop",
    "C89_stopped",
    "C89_idempotent",
    "C89_started",
    "C89_exclusion",
    "C89_period",
    "C89_period_refuted",
    "C89_put_refuted",
    "C89_defined",
    "C89_destruction_refuted"
   ],
   "note": "The mutual exclusion of absl::Mutex and the semantics of std::jthread are assumed. C89_period_refuted: two consecutive actions may be separated by less than the period, because the time of the next one is determined before the first one is started. C89_put_refuted: an input is lost if the thread is stopped between the time when it takes it and the time when it checks its stop token. C89_destruction_refuted: the members of RecurringThread are destroyed before the destructor of the base class stops the thread, so a thread that was not stopped may use them (the users, Ephemeris and Vessel, do call Stop in their destructors)."
  },
  {
   "property": "C90",
   "status": "partial",
   "theorems": [
    "C90_polynomial",
    "C90_overflow_refuted",
    "C90_doubles",
    "C90_equation",
    "C90_orthogonal",
    "C90_values",
    "C90_double_factorial"
   ],
   "note": "C90_overflow_refuted: the double factorial of 2n-1 overflows an std::int64_t from n = 18 on; as the coefficients are constexpr this is an error at compile time. The evaluation is on real numbers as in C23; only the coefficients are computed on doubles."
  },
  {
   "property": "C91",
   "status": "proved",
   "theorems": [
    "C91_algebra",
    "C91_faithful",
    "C91_root",
    "C91_types",
    "C91_product_defined",
    "C91_representation",
    "C91_serializable",
    "C91_read_written"
   ],
   "note": "The product of two doubles is ambiguous between two specializations (C91_product_defined); that is why it is not exported. The classical axiom is used to obtain a change of units."
  },
  {
   "property": "C92",
   "status": "partial",
   "theorems": [
    "C92_append",
    "C92_polynomials",
    "C92_degree",
    "C92_age",
    "C92_approximation",
    "C92_evaluate",
    "C92_checkpoint",
    "C92_prepend_partial",
    "C92_tolerance_refuted",
    "C92_stable_refuted",
    "C92_prepend_refuted"
   ],
   "note": "When the error increases with the degree, the degree and the error estimate are reverted, but the polynomial of the higher degree is the one that is kept, so its error may be much larger than the adjusted tolerance, with an OK status (C92_tolerance_refuted). A vanishing error makes the approximation unstable, because the previous error estimate is initialized to twice the error (C92_stable_refuted). Prepend on a trajectory that has points but no polynomial drops the points, after which the next point cannot be appended (C92_prepend_refuted); C92_prepend_partial is for trajectories that have polynomials. The cache last_accessed_polynomial_ is written under a reader lock: this is a data race, which is not modelled."
  },
  {
   "property": "C93",
   "status": "proved",
   "theorems": [
    "C93_mpi_2_pi_2",
    "C93_mpi_pi",
    "C93_0_2pi",
    "C93_unique",
    "C93_wraps"
   ],
   "note": "A small negative angle is reduced to almost 2 π (C93_wraps), so an error of Reduce on a small positive angle may change the result by a turn, with the integer part that compensates for it."
  },
  {
   "property": "C94",
   "status": "partial",
   "theorems": [
    "C94_collisions_partial",
    "C94_anomalous",
    "C94_constant_refuted",
    "C94_interpolation_refuted",
    "C94_first_collision",
    "C94_height",
    "C94_missed"
   ],
   "note": "A trajectory whose distance is the same at two successive apsides or ends, for instance a circular one, is considered as anomalous and gives no interval even if it is below the maximum radius (C94_constant_refuted); C94_collisions_partial is for alternating extrema. In ComputeApsides the linear interpolation that should be used when there is not exactly one extremum is always overwritten by the last extremum, and the array is accessed even if it is empty (C94_interpolation_refuted)."
  }
 ]
}