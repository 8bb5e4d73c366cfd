claim("C01", "proved", "C01_unconfigured_replies C01_unconfigured_no_trace")
claim("C02", "partial", "C02_reset_history_independent C02_reset_status",
      "Only OK/InvalidArgument, independent of history; the exact set of accepted parameters is still to come.")
claim("C03", "proved", "C03_failed_reset_no_effect C03_failed_reset_keep_no_effect")
claim("C04", "proved", "C04_failed_update_keeps_vector")
claim("C05", "proved", "C05_update_appends C05_update_oblivious")
claim("C06", "partial", "C11_down_echo C06_up_at_least_one C06_move_same_time_refuted", "Down and Up: proved. A Move at the timestamp of the previous input succeeds with no result (refuted); later Moves still to come.")
claim("C07", "proved", "C07_wrong_phase_rejected C07_accepted_events_well_formed C07_reset_ends_stroke C07_down_accepted")
claim("C08", "proved", "C08_stale_input_rejected C08_accepted_not_earlier")
claim("C09", "partial", "C09_invalid_input_rejected", "The characterisation of the invalid inputs in IEEE arithmetic is still to come.")
claim("C10", "partial", "C10_rejected_update_no_trace_partial C10_rejected_move_refuted",
      "Missing: a Move rejected as too far / non-finite, for which the claim is false of the code.")
claim("C11", "proved", "C11_down_echo")
claim("C12", "proved", "C12_predict_no_trace C12_predicts_removable")
claim("C13", "partial", "C13_predict_needs_stroke C13_predict_disabled_partial C13_predict_succeeds C13_predict_replaces C13_disabled_refuted",
      "Prediction disabled: proved unless the history both enabled prediction and restored; false of the code otherwise.")
claim("C14", "partial", "C14_restore_undoes_partial C14_across_strokes_refuted",
      "Missing: a stroke begun between Save and Restore while another was in progress at Save; a stale predictor of an older configuration. False of the code there.")
claim("C15", "proved", "C15_save_invisible")
claim("C16", "proved", "C16_restore_without_save")
claim("C17", "partial", "C17_restore_repeatable_partial", "Same exclusions as C14.")
claim("C18", "partial", "C18_reset_as_new_partial C18_stale_predictor_refuted", "Missing exactly the stale saved predictor, for which the claim is false of the code.")
claim("C19", "partial", "C19_reset_keep_succeeds C19_reset_keep_equals_reset_partial", "Same exclusion as C18.")
claim("C20", "partial", "C20_strokes_independent_partial", "Same exclusion as C18.")
claim("C21", "partial", "C21_move_bound C21_up_bound_partial C21_stroke_end_prediction_bound C21_kalman_prediction_count C21_up_refuted C21_predict_refuted",
      "Down (exactly one, C11) and Move: proved. Up and Predict: false of the code; the bounds that do hold are proved: for Kalman prediction (exact arithmetic, mitigation off) in terms of the distance it has to catch up, min_catchup_velocity and prediction_interval.")
claim("C30", "proved", "C30_other_mode_params_irrelevant C31_closest_point_move C31_closest_point_up C31_closest_point_predict C32_normal_projection_move C32_normal_projection_up C32_normal_projection_predict C31_float_closest_point_move C31_float_closest_point_up C31_float_closest_point_predict C29_float_stylus_data_update C29_float_stylus_data_predict", "The polyline in the C31 theorems is exactly the most recent max_input_samples inputs; in the C32 theorems it is `held`: at least min_input_samples inputs and at least min_sample_duration of history (exact arithmetic). float_kept in C29_float_stylus_data_update and _predict says which inputs are in memory in binary32/binary64, for both projections.")
claim("C33", "proved", "C33_disabled_mitigation_irrelevant C33_projection_has_no_influence C38_spring_law C33_float_projection_refuted",
      "The first holds in every arithmetic, the next two in exact arithmetic. C33_float_projection_refuted: in binary32 the projection can change the last bits of a position, because a result is computed as projection + (tip - projection) * 1.")
claim("C35", "proved", "C35_disabled_smoothing_irrelevant")
claim("C47", "proved", "C47_stylus_data_no_influence C47_unknown_no_influence C47_unknown_refuted",
  "Every arithmetic, whenever both histories return (see C45, C46). C47_unknown_no_influence: known or unknown, for the projection along the stroke normal. C47_unknown_refuted (binary32): not so for the projection to the closest point, where a velocity changes.")
claim("C26", "proved", "C26_unknown_stays_unknown_update C26_unknown_stays_unknown_predict C26_unknown_stays_unknown_update_exact C26_unknown_stays_unknown_predict_exact",
      "For histories in which the stroke was not re-entered by a Restore across strokes (see C14).")
claim("C27", "partial", "C27_pressure_in_range_update C27_pressure_in_range_predict C27_pressure_in_range_update_partial C27_pressure_in_range_predict_partial C27_mitigation_refuted",
      "Loop mitigation off: proved. On: proved up to NaN, and NaN is reachable (refuted).")
claim("C28", "partial", "C28_orientation_in_range_update C28_orientation_in_range_predict C28_orientation_in_range_update_partial C28_orientation_in_range_predict_partial C28_mitigation_refuted",
      "Loop mitigation off: proved. On: proved up to NaN, and NaN is reachable (refuted).")
claim("C46", "proved", "C46_terminates C46_every_call_returns C46_huge_orientation_refuted", "The second theorem shows that the hypothesis on orientations is needed: a finite orientation of 1e30 makes Update loop forever.")
claim("C39", "proved", "C39_predict_empty_until_stable C39_predict_nonempty_from_stable C39_predict_nonempty_from_stable_exact",
      "For histories in which the stroke was not re-entered by a Restore across strokes. The second part: whenever the call returns (see C45 for Kalman and undefined behaviour).")
claim("C49", "partial", "C49_finite_refuted", "False of the code; the Down case is C11.")
claim("C22", "partial", "C22_stroke_rate C22_move_evenly_spaced C22_move_exact_count C22_up_spacing C22_predict_spacing", "Exact arithmetic. Missing: binary64 rounding of times.")
claim("C23", "partial", "C23_times_never_decrease C23_up_times_never_decrease C23_predict_times_never_decrease", "Exact arithmetic. Missing: binary64 rounding of times.")
claim("C24", "proved", "C24_end_of_stroke C24_float_end_of_stroke", "Exact arithmetic, loop mitigation off; and in binary32/binary64 with explicit error bounds, for strokes without known stylus data, normal projection off, finite results, coordinates up to 2^60 and a stopping distance between 2^-60 and 2^40. There a step is sure to bring the tip closer only if it starts within 524288 stopping distances of the anchor: further out one step can be lost in the rounding of the comparison.")
claim("C25", "proved", "C25_prediction_is_lifting_the_pen C25_float_prediction_is_lifting_the_pen C25_angle_limit_refuted", "Exact arithmetic; and, bit by bit including the stylus fields, in binary32/binary64 for a stroke without known stylus data, the angle limit off and projection to the closest point. C25_angle_limit_refuted: with the angle limit on, rounding can make such an Up give one result more than the prediction.")
claim("C38", "proved", "C38_spring_law C38_spring_law_smoothed C38_float_spring_law", "Exact arithmetic; and in binary32/binary64 up to about a millionth of the numbers involved, for strokes without known stylus data, smoothing, mitigation and normal projection off, as long as the results are finite. In exact arithmetic with smoothing on, the anchors run along the smoothed positions of C36.")
claim("C45", "proved", "C45_no_undefined_behaviour C45_kalman_predict_defined", "C45_no_undefined_behaviour: binary32/binary64, for every acosf that maps [-1,1] to non-negative numbers. C45_kalman_predict_defined: Kalman predictions, exact arithmetic, up to a stated size.")
claim("C50", "proved", "C50_angle_limit C50_exact_count C50_float_exact_count", "Exact arithmetic, loop mitigation off. C50_float_exact_count: in binary32/binary64 the count is the larger of two numbers rounded up, which are the number of sampling periods and the angle (as computed by AbsoluteAngleTo, see C53) divided by the limit, each up to rounding; stylus data unknown, all results so far finite.")
claim("C51", "proved", "C51_next_input_accepted C51_down_accepted C51_too_far_rejected C51_whole_stroke_accepted C51_float_next_input_accepted C51_float_down_accepted C51_float_whole_stroke_accepted C51_float_any_input_accepted C51_float_any_stroke_accepted", "C51_next_input_accepted, C51_down_accepted, C51_too_far_rejected, C51_whole_stroke_accepted: exact arithmetic, all inputs. The C51_float theorems: binary32/binary64, for moderate inputs and steady parameters (see C49) and strokes of up to 2^20 results, with a relative margin of 2^-22 on the number of results; smoothing, projection, loop mitigation and the angle limit may be on. The C51_float_any theorems: strokes of any length (up to INT_MAX calls), under the conditions of C52_float_any (smoothing and the angle limit off); the results are also finite and near the box.")

claim("C29", "proved", "C31_closest_point_move C31_closest_point_up C31_closest_point_predict C32_normal_projection_move C32_normal_projection_up C32_normal_projection_predict C31_float_closest_point_move C31_float_closest_point_up C31_float_closest_point_predict C29_float_stylus_data_update C29_float_stylus_data_predict", "Exact arithmetic; the orientation clause is turned in taken_from. In binary32/binary64 (closest-point projection) it is nearly_turned in nearly_taken. C29_float_stylus_data_update and _predict: in binary32/binary64, with either projection and with smoothing and mitigation on or off, the pressure, tilt and orientation of every result at a finite position are, up to a few millionths, those of one and the same point of the path of the inputs in memory.")
claim("C31", "proved", "C31_closest_point_move C31_closest_point_up C31_closest_point_predict C31_float_closest_point_move C31_float_closest_point_up C31_float_closest_point_predict", "Exact arithmetic, loop mitigation off (closest-point projection cannot be combined with it). The _float_ theorems say the same of binary32/binary64 up to rounding: smoothing off, coordinates up to N (2^-40 <= N <= 2^58), consecutive recent inputs equal or 2^-50 apart; the distance is the smallest one up to 16 millionths of N, pressure and tilt are interpolated up to a millionth, orientation up to 16 millionths.")
claim("C36", "proved", "C36_smoothing C36_in_convex_hull C36_raw_when_fast C36_average_when_slow", "Exact arithmetic. Times of all inputs offered to the smoother must not decrease: a Move rejected for being too far away already advances its clock.")
claim("C32", "proved", "C32_normal_projection_move C32_normal_projection_up C32_normal_projection_predict", "Exact arithmetic, loop mitigation off. Finding, recorded in the Move theorem: the direction of the first result of a Move is taken with a time step measured from the time of the Move itself, not from that of the previous result.")
claim("C34", "proved", "C34_strength C34_mitigation_move C34_mitigation_up C34_mitigation_predict C34_mitigation_prediction C34_only_geometry C34_same_status_and_count C34_float_mitigation_update C34_float_mitigation_predict C34_float_strength", "Exact arithmetic, and with rounding: C34_same_status_and_count in any arithmetic, when both histories return; C34_float_* with smoothing off and inputs at most N from the axes (2^-40 <= N <= 2^58), up to 4 millionths of N and a millionth of the strength, for results at finite positions in range: the strength is the binary32 one at the binary32 mean of the most recent speeds (which ones the time window takes is in exact arithmetic only), and C34_float_strength says it never grows with the speed and what it is at the two bounds. The hidden spring states are the results of the same history with mitigation off, so C24, C25, C32, C36, C38 and C50 apply to them. C34_only_geometry: mitigation changes nothing but positions, velocities and accelerations. When the two speed bounds are equal the documented strengths contradict each other; the code uses the lower-bound one. The documented averaging window (smallest number of samples spanning at least the window) is not the coded one (samples within the window, at least the minimum number); speed_window states the coded one.")
claim("C40", "proved", "C40_kalman_prediction", "Exact arithmetic, loop mitigation off (C34 for the rest). The estimate is that of the textbook Kalman filter (kalman) of the smoothed positions; the prediction is a catch-up along a cubic that leaves the last result with its position and velocity and arrives at the estimate with the estimated ones, followed by the constant-jerk motion from there.")
claim("C41", "partial", "C41_confidence_limits_extension C41_extension_is_limited C41_duration_refuted", "Exact arithmetic. The number of extending results is the confidence's share of interval * rate, rounded up, so the documented bound (never longer than prediction_interval) is missed by less than one sampling period; C41_duration_refuted is a witness. C41_extension_is_limited is the strongest bound that holds.")
claim("C42", "proved", "C42_well_conditioned", "Exact arithmetic, about the textbook filter; C40_kalman_prediction relates the code to it.")

claim("C37", "partial", "C37_resting_results C37_resting_update C37_resting_prediction",
      "Exact arithmetic: complete, for every setting of smoothing, loop mitigation and projection. Missing: the floating-point statement with smoothing off. Case meeting the hypotheses: C37_example (everything switched on).")
claim("C43", "proved", "C43_estimate_of_resting_pen C43_resting_kalman_prediction C43_float_resting_kalman_prediction",
      "The estimate of the textbook filter (which C40/C42 identify with the code's), and the predictions of the API: exactly one result, at the pen and at rest. Hypothesis: the times that give the filter its unit of time are not all the same; otherwise the code divides 0 by 0. C43_float_resting_kalman_prediction states the predictions in binary32/binary64, smoothing off, for moderate inputs, rates from 1 to 16384 Hz and noise values in the range `moderate_kalman` (which contains the defaults): exactly the position, no rounding allowance. Cases meeting the hypotheses: C43_example, C43_float_example.")

claim("C02", "proved", "C02_reset_history_independent C02_reset_status C02_documented_accepted C02_accepted_iff_documented C02_nan_refuted",
      "C02_accepted_iff_documented: for all parameters whose loop-mitigation fields and baseline confidence (where in use) are not NaN; C02_nan_refuted shows that those NaN are accepted, against the documentation. Case meeting the hypotheses: C02_example.")
claim("C48", "proved", "C48_placeholder_rejected C48_default_rejected", "Every parameter struct that keeps a placeholder in use is rejected, whatever the other fields (unless NaN loop bounds switch the checks off). Case: C48_example.")
claim("C45", "proved", "C45_no_undefined_behaviour C45_only_kalman_conversion C45_kalman_predict_defined C45_kalman_refuted", "C45_no_undefined_behaviour: binary32/binary64, for every acosf that maps [-1,1] to non-negative numbers. C45_only_kalman_conversion: with Kalman prediction, the same except that a Predict may convert its number of points to int out of range, and nothing else can go wrong. C45_kalman_predict_defined: when it does not, in exact arithmetic. C45_kalman_refuted: without a limit on the size, a Kalman prediction converts an unrepresentable double to int.")
claim("C49", "partial", "C49_finite_refuted C49_predict_refuted", "False of the code, for Update and for Predict (Kalman prediction straight after a Down with min_stable_iteration 1 gives NaN); the Down case is C11.")
claim("C06", "proved", "C11_down_echo C06_up_at_least_one C06_move_at_least_one C06_move_same_time_refuted",
      "Down and Up: always. Move: whenever it is at least 2^-149 s later than the previous input and the output rate is at least 2^-900 (binary32/binary64). A Move at the timestamp of the previous input succeeds with no result (C06_move_same_time_refuted), so the unconditional reading is false. Case: C06_example.")
claim("C08", "proved", "C08_stale_input_rejected C08_accepted_not_earlier C08_times_never_decrease", "Case: C23_float_example.")
claim("C09", "proved", "C09_invalid_input_rejected C09_malformed_rejected", "C09_malformed_rejected: NaN or infinite coordinates or time, or an unknown event type. Case: C09_example.")
claim("C23", "partial", "C23_times_never_decrease C23_up_times_never_decrease C23_predict_times_never_decrease C23_float_times_never_decrease C23_float_move_ends_at_input C23_float_up_times_never_decrease C23_float_predict_times_never_decrease C23_ordinary_times_never_decrease C23_ordinary_up_times_never_decrease C23_ordinary_predict_times_never_decrease C23_ordinary_kalman_times_never_decrease C23_rounding_refuted",
      "Exact arithmetic: always. binary64: whenever the differences of consecutive input times are exact (e.g. each time is at most twice the one before) and mitigation is off, or on and no time is NaN, for the stroke, its Up and both predictors; the C23_ordinary theorems show that no time is NaN for the strokes of C49, mitigation on or off. C23_rounding_refuted shows that without exact differences the times can go backwards by an ulp. Cases: C23_example, C23_float_example, C23_ordinary_example, C49_kalman_example.")

claim("C44","proved","C44_similarity C44_mirror_refuted",
  "Exact arithmetic, every history including rejected calls, Save/Restore and both predictors: the answers to the transformed calls are the transformed answers (same statuses, same undefined behaviour, same divergence). Pressure, tilt and orientation are kept as they are. movable spells out the two absolute constants of the code: the 10000 s window, and the FLT_MAX cap of the Kalman predictor's distance, which forbids scaling distances with a Kalman predictor. Reflections are covered for projection to the closest point; with projection along the normal the code prefers the left side in a tie, so that a mirrored stroke can get other pressures (C44_mirror_refuted, binary32 with y negated). Satisfied by C44_example, C44_kalman_example and C44_mirror_example.")

claim("C37","proved","C37_resting_results C37_resting_update C37_resting_prediction C37_float_resting_results C37_float_resting_update C37_float_resting_prediction C37_float_tiny_step_refuted",
  "Exact arithmetic: every setting of smoothing, loop mitigation and projection. binary32/binary64, smoothing off (mitigation and projection on or off): positions equal to the input's and zero velocities and accelerations in the sense of ==, and a stroke-end prediction that adds nothing. The floating-point theorems assume times of ordinary size (resting_inputs, ordinary_params); C37_float_tiny_step_refuted shows why: two inputs 2^-200 s apart make a later velocity NaN even with every optional feature off. Cases meeting the hypotheses: C37_example (exact, everything on), C37_float_example (mitigation and projection on).")

claim("C13","proved","C13_predict_fails_exactly C13_predict_succeeds_exactly C13_offer_follows_params C13_predict_needs_stroke C13_predict_disabled_partial C13_predict_succeeds C13_predict_replaces C13_disabled_refuted",
  "Every arithmetic. Availability is computed from the calls and replies alone (offers). The documented claim that disabled prediction stays disabled is false of the code (C13_disabled_refuted) and true for histories without Restore (C13_offer_follows_params). Cases: C13_offer_example.")
claim("C14","partial","C14_restore_undoes C14_stale_predictor_changes C14_restore_undoes_partial C14_across_strokes_refuted",
  "C14_restore_undoes: whenever no stroke was begun between Save and Restore (or none was in progress at the Save), and a predictor was available at the Save or none was kept from earlier. The second condition is exact (C14_stale_predictor_changes); without the first the claim is false of the code (C14_across_strokes_refuted). Cases: C14_example, C13_offer_example.")
claim("C17","partial","C17_restore_repeatable C17_restore_repeatable_partial","Same exclusions as C14, with the same exact condition on the predictor. Case: C17_example.")
claim("C18","partial","C18_reset_as_new C18_reset_as_new_partial C18_stale_predictor_refuted","Missing exactly the stale saved predictor, for which the claim is false of the code: a predictor has been kept, prediction is disabled now or later, and a Restore follows (nothing_stale). Case: C18_example.")
claim("C19","partial","C19_reset_keep_succeeds C19_reset_keep_equals_reset C19_reset_keep_equals_reset_partial","Same exclusion as C18.")
claim("C20","partial","C20_strokes_independent C20_strokes_independent_partial","Same exclusion as C18. Case: C20_example.")

claim("C49","partial","C49_float_finite_results C49_float_finite_update C49_float_finite_prediction C49_float_finite_ticking_update C49_float_finite_ticking_prediction C49_finite_refuted C49_predict_refuted",
  "binary32/binary64, smoothing off, mitigation and projection on or off: results of every stroke within the stated sizes, and stroke-end predictions, are finite (energy of the spring plus rounding errors). The ticking versions replace the conditions on the times by one that can be read off the inputs: multiples of 2^-20 s. Missing: smoothing on, and Kalman predictions. False of the code without limits on the times (C49_finite_refuted) and for a Kalman prediction straight after a Down with min_stable_iteration 1 (C49_predict_refuted). Case: C49_float_example (recommended parameters, mitigation on).")
claim("C27","partial","C27_pressure_in_range_update C27_pressure_in_range_predict C27_ordinary_pressure_in_range_update C27_ordinary_pressure_in_range_predict C27_ordinary_pressure_in_range_kalman C27_pressure_in_range_update_partial C27_pressure_in_range_predict_partial C27_mitigation_refuted",
  "Loop mitigation off: proved. On: proved up to NaN for every history, and without NaN under the conditions of C49; NaN is reachable otherwise (refuted). Cases: C27_example, C49_float_example.")
claim("C28","partial","C28_orientation_in_range_update C28_orientation_in_range_predict C28_ordinary_orientation_in_range_update C28_ordinary_orientation_in_range_predict C28_ordinary_orientation_in_range_kalman C28_orientation_in_range_update_partial C28_orientation_in_range_predict_partial C28_mitigation_refuted",
  "Loop mitigation off: proved. On: proved up to NaN for every history, and without NaN under the conditions of C49; NaN is reachable otherwise (refuted). Cases: C27_example, C49_float_example.")
claim("C22","proved","C22_stroke_rate C22_move_evenly_spaced C22_move_exact_count C22_up_spacing C22_predict_spacing C22_float_stroke_rate C22_float_move_exact_count C22_float_move_evenly_spaced C22_float_up_evenly_spaced C22_float_up_spacing C22_float_predict_spacing C22_ordinary_stroke_rate",
  "Exact arithmetic: every setting, and the prediction. binary32/binary64, mitigation off, or on as long as no time is NaN (never for the strokes of C49: C22_ordinary_stroke_rate): the same up to rounding, for the stroke, the Up and both predictors, with explicit bounds (nearly_even, float_period): the position of a result within its segment is computed as a float, so with n results per call the spacing can exceed 1/min_output_rate by a factor of 1 + (n+2)/2^22, and by the rounding of the times themselves. Cases: C22_example, C22_float_example, C22_float_mitigated_example.")
claim("C10", "partial", "C10_rejected_update_no_trace_partial C10_rejected_move_refuted C10_rejected_move_displaces_refuted",
      "Missing: a Move rejected as too far / non-finite, for which the claim is false of the code: ProcessMoveEvent updates the smoother and the stylus state before it checks the number of steps. C10_rejected_move_displaces_refuted shows how much it can matter: after one rejected Move with a wrong time stamp, with every input (rejected or not) within 1/50 of the origin, an accepted Move two calls later produces a result more than 60 away from it, with the recommended parameters.")
claim("C36", "proved", "C36_smoothing C36_in_convex_hull C36_raw_when_fast C36_average_when_slow C36_float_pause_refuted", "Exact arithmetic. Times of all inputs offered to the smoother must not decrease: a Move rejected for being too far away already advances its clock (C10_rejected_move_displaces_refuted shows what happens otherwise). In binary32 the smoothed position can leave the recent path: C36_float_pause_refuted has a pen that rests at one point, a pause of ten seconds between two reports, and results more than 1/5 away from that point (the rounding errors made while the pause is in the running sums stay in them for the rest of the stroke). Case: C36_example.")
claim("C49","proved","C49_float_finite_results C49_float_finite_update C49_float_finite_prediction C49_float_finite_ticking_update C49_float_finite_ticking_prediction C49_float_finite_kalman_prediction C49_float_finite_kalman_default C49_finite_refuted C49_predict_refuted C49_predict_same_time_refuted",
  "binary32/binary64, with smoothing, mitigation and projection on or off: results of every stroke within the stated sizes, and stroke-end predictions, are finite (energy of the spring plus rounding errors; for the smoother, the accumulated rounding errors of its running sums against the time they span). With smoothing on, also: coordinates up to 2^26, a timeout between 2^-10 and 2^20 s, at most 2^18 * timeout / (timeout + longest pause) inputs, and no Move rejected for needing too many results. The ticking versions replace the conditions on the times by one that can be read off the inputs: multiples of 2^-20 s. C49_float_finite_kalman_prediction: Kalman predictions, for noise parameters for which a certificate exists that filter_certified accepts (it follows the computed binary64 gains until the covariance repeats and checks that a polyhedral norm of the state stays small; default_certified does this for the noise of kalman_predictor_test.cc, and C49_float_finite_kalman_default is the theorem for it), and when the timestamps kept are on average 2^-11 s apart. False of the code without limits on the times (C49_finite_refuted) and for a Kalman prediction straight after a Down with min_stable_iteration 1 (C49_predict_refuted). Case: C49_float_example (recommended parameters; smoothing, mitigation and projection on), C49_kalman_example (the same with a Kalman predictor). With smoothing off, strokes of any length: the C52_float and C51_float_any theorems.")
claim("C37","proved","C37_resting_results C37_resting_update C37_resting_prediction C37_float_resting_results C37_float_resting_update C37_float_resting_prediction C37_float_tiny_step_refuted C36_float_pause_refuted",
  "Exact arithmetic: every setting of smoothing, loop mitigation and projection. binary32/binary64, smoothing off (mitigation and projection on or off): positions equal to the input's and zero velocities and accelerations in the sense of ==, and a stroke-end prediction that adds nothing. With smoothing on the floating-point statement is false: C36_float_pause_refuted. The floating-point theorems assume times of ordinary size (resting_inputs, ordinary_params); C37_float_tiny_step_refuted shows why: two inputs 2^-200 s apart make a later velocity NaN even with every optional feature off. Cases meeting the hypotheses: C37_example (exact, everything on), C37_float_example (mitigation and projection on).")
claim("C52","proved","C52_results_stay_near C52_update_stays_near C52_prediction_stays_near C52_results_in_strip C52_update_in_strip C52_prediction_in_strip C52_float_results_in_box C52_float_update_in_box C52_float_prediction_in_box C52_float_any_stroke_in_box C52_float_any_update_in_box C52_float_any_prediction_in_box C52_slow_rate_refuted",
  "C52_results..., C52_update..., C52_prediction...: exact arithmetic. With smoothing on, the times of the inputs offered to the smoother must not decrease (as in C36). The C52_float theorems: binary32/binary64, strokes of any length, all results finite and in a box of half-width 4.25 b if the inputs are in the box of half-width b (2^-60 <= b <= 2^30) and accepted inputs are simultaneous or 2^-16 s apart; damped_params: as in exact arithmetic with 4.25 for 4, drag at least 16, at most 2^17 results per call, angle limit off (the default), smoothing off, mitigation and projection on or off. The C52_float_any theorems ask only that every input offered has a time that is a multiple of 2^-16 s. C52_slow_rate_refuted: the restriction on the output rate is needed; with 32 results per second and the recommended spring and drag, two inputs one unit apart give a result more than 10^9 away (binary32). Missing: Kalman predictions; smoothing in binary32/binary64 (its running sums accumulate rounding errors). Cases: C52_example, C52_example_next (a zigzag of any length with the recommended parameters, everything on), C52_float_example.")
claim("C53","proved","C53_angle_exact C53_angle_error_iff C53_angle_symmetric C53_angle_range C53_angle_accuracy C53_huge_vector_refuted",
  "C53_angle_exact: exact arithmetic; the others binary32, for every acosf. C53_huge_vector_refuted: (1.5 * 2^127, 1.5 * 2^127) is at a right angle to itself, because its magnitude overflows.")
claim("C54","proved","C54_square_symmetry C54_signs_of_zero C44_mirror_refuted",
  "binary32/binary64, every history, every valid or invalid parameter, no bounds on sizes (overflow and NaN included), all three predictors; assumes only that acosf gives the same value at 0.0f and -0.0f. Numbers returned are equal up to the sign of zeros; times, counts, statuses and undefined behaviour are identical (the message of a rejected position may name the other coordinate when the axes are exchanged). Reflections require projection along the normal to be off; C44_mirror_refuted (a binary32 computation) shows why. Turns by other angles are only exact without rounding: C44.")
claim("C55","proved","C55_limit_only_rejects",
  "Every arithmetic. The limits given must be positive, as a Reset with another one fails.")
claim("C56","proved","C56_longer_end_only_adds C56_float_ends_sooner",
  "Every arithmetic; both calls must return. C56_float_ends_sooner: in binary32 the hypothesis holds for finite distances with the usual order. Histories with neither an Up nor a Predict before the call compared (Predict calls can be left out by C12; later strokes start afresh by C20).")
claim("C57","proved","C57_predictor_no_influence",
  "Every arithmetic, whenever both histories return (with Kalman prediction an Update can fail to only at the 2^31st input of a stroke, where a counter overflows; see C45 for Predict).")
claim("C58","proved","C58_channels_independent",
  "Every arithmetic, whenever both histories return (see C45, C46). As in C47, which readings are unknown is the same in both histories, and inputs are equal in one exactly if they are in the other.")

# Concrete cases for the claims whose notes do not name one.
case("C01", "C01_example")
case("C03", "C03_example")
case("C04", "C04_example")
case("C05", "C05_example")
case("C07", "C07_example_in, C07_example_out, C07_example_valid")
case("C10", "C10_example")
case("C11", "C11_example")
case("C12", "C12_example")
case("C15", "C15_example")
case("C16", "C16_example")
case("C19", "C19_example")
case("C21", "C21_example, C21_rejected_example, C40_example")
case("C24", "C24_example, C24_float_example")
case("C25", "C25_example, C25_float_example")
case("C26", "C26_example")
case("C29", "C31_example, C32_example, C31_float_example, C29_float_example")
case("C30", "C30_example, C31_example, C32_example, C31_float_example, C29_float_example")
case("C31", "C31_example, C31_float_example")
case("C32", "C32_example")
case("C33", "C33_example, C38_example")
case("C34", "C34_example, C34_predict_example, C34_float_example, C34_float_strength_example")
case("C35", "C35_example")
case("C38", "C38_example, C36_example, C38_float_example")
case("C39", "C39_example")
case("C40", "C40_example")
case("C41", "C40_example")
case("C42", "C42_example")
case("C45", "C45_example, C45_kalman_example, C40_example")
case("C46", "C45_example, C51_example")
case("C47", "C47_example, C47_unknown_example")
case("C50", "C50_example, C50_float_example")
case("C51", "C51_example, C52_example_next, C51_float_example, C51_float_any_example, C51_float_any_figures")
case("C53", "C53_example, C53_range_example")
case("C55", "C55_example")
case("C56", "C56_example")
case("C57", "C57_example")
case("C58", "touched_restyling, C58_example")
case("C54", "C54_turn_example, C54_reflection_example, C54_zero_example")
