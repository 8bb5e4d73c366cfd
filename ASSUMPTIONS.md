# Print Assumptions of every theorem in MANIFEST.json

Generated by `tools/gen_assumptions.py`.  All axioms are the standard library's.

* (a) `ClassicalDedekindReals.sig_forall_dec`
* (b) `ClassicalDedekindReals.sig_not_dec`
* (c) `Classical_Prop.classic`
* (d) `FunctionalExtensionality.functional_extensionality_dep`

| property | theorem | file | axioms |
|---|---|---|---|
| C01 | `C01_unconfigured_replies` | `Props_API.v` | none |
| C01 | `C01_unconfigured_no_trace` | `Props_API.v` | none |
| C02 | `C02_reset_history_independent` | `Props_API.v` | none |
| C02 | `C02_reset_status` | `Props_API.v` | none |
| C02 | `C02_documented_accepted` | `Props_Valid.v` | a, b, c, d |
| C02 | `C02_accepted_iff_documented` | `Props_Valid.v` | a, b, c, d |
| C02 | `C02_nan_refuted` | `Examples_V.v` | a, b, c, d |
| C03 | `C03_failed_reset_no_effect` | `Props_API.v` | none |
| C03 | `C03_failed_reset_keep_no_effect` | `Props_API.v` | none |
| C04 | `C04_failed_update_keeps_vector` | `Props_API.v` | none |
| C05 | `C05_update_appends` | `Props_API.v` | none |
| C05 | `C05_update_oblivious` | `Props_API.v` | none |
| C06 | `C11_down_echo` | `Props_API.v` | none |
| C06 | `C06_up_at_least_one` | `Props_API.v` | none |
| C06 | `C06_move_at_least_one` | `Props_Float.v` | a, b, c, d |
| C06 | `C06_move_same_time_refuted` | `Examples_API.v` | a, b, c, d |
| C07 | `C07_wrong_phase_rejected` | `Props_API.v` | none |
| C07 | `C07_accepted_events_well_formed` | `Props_API.v` | none |
| C07 | `C07_reset_ends_stroke` | `Props_API.v` | none |
| C07 | `C07_down_accepted` | `Props_API.v` | none |
| C08 | `C08_stale_input_rejected` | `Props_API.v` | none |
| C08 | `C08_accepted_not_earlier` | `Props_API.v` | none |
| C08 | `C08_times_never_decrease` | `Props_Float.v` | a, b, c, d |
| C09 | `C09_invalid_input_rejected` | `Props_API.v` | none |
| C09 | `C09_malformed_rejected` | `Props_Float.v` | a, b, c, d |
| C10 | `C10_rejected_update_no_trace_partial` | `Props_API.v` | none |
| C10 | `C10_rejected_move_refuted` | `Examples_API.v` | a, b, c, d |
| C10 | `C10_rejected_move_displaces_refuted` | `Examples_P.v` | a, b, c, d |
| C11 | `C11_down_echo` | `Props_API.v` | none |
| C12 | `C12_predict_no_trace` | `Props_API.v` | none |
| C12 | `C12_predicts_removable` | `Props_API.v` | none |
| C13 | `C13_predict_fails_exactly` | `Props_Offer.v` | none |
| C13 | `C13_predict_succeeds_exactly` | `Props_Offer.v` | none |
| C13 | `C13_offer_follows_params` | `Props_Offer.v` | none |
| C13 | `C13_predict_needs_stroke` | `Props_API.v` | none |
| C13 | `C13_predict_disabled_partial` | `Props_API.v` | none |
| C13 | `C13_predict_succeeds` | `Props_API.v` | none |
| C13 | `C13_predict_replaces` | `Props_API.v` | none |
| C13 | `C13_disabled_refuted` | `Examples_API.v` | a, b, c, d |
| C14 | `C14_restore_undoes` | `Props_Offer.v` | none |
| C14 | `C14_stale_predictor_changes` | `Props_Offer.v` | none |
| C14 | `C14_restore_undoes_partial` | `Props_API.v` | none |
| C14 | `C14_across_strokes_refuted` | `Examples_API.v` | a, b, c, d |
| C15 | `C15_save_invisible` | `Props_API.v` | none |
| C16 | `C16_restore_without_save` | `Props_API.v` | none |
| C17 | `C17_restore_repeatable` | `Props_Offer.v` | none |
| C17 | `C17_restore_repeatable_partial` | `Props_API.v` | none |
| C18 | `C18_reset_as_new` | `Props_Offer.v` | none |
| C18 | `C18_reset_as_new_partial` | `Props_API.v` | none |
| C18 | `C18_stale_predictor_refuted` | `Examples_API.v` | a, b, c, d |
| C19 | `C19_reset_keep_succeeds` | `Props_API.v` | none |
| C19 | `C19_reset_keep_equals_reset` | `Props_Offer.v` | none |
| C19 | `C19_reset_keep_equals_reset_partial` | `Props_API.v` | none |
| C20 | `C20_strokes_independent` | `Props_Offer.v` | none |
| C20 | `C20_strokes_independent_partial` | `Props_API.v` | none |
| C21 | `C21_move_bound` | `Props_Count.v` | none |
| C21 | `C21_up_bound_partial` | `Props_Count.v` | none |
| C21 | `C21_stroke_end_prediction_bound` | `Props_Count.v` | none |
| C21 | `C21_kalman_prediction_count` | `Props_KCount.v` | a, b, c, d |
| C21 | `C21_up_refuted` | `Examples_A.v` | a, b, c, d |
| C21 | `C21_predict_refuted` | `Examples_A.v` | a, b, c, d |
| C22 | `C22_stroke_rate` | `Props_Time.v` | a, b, c, d |
| C22 | `C22_move_evenly_spaced` | `Props_Time.v` | a, b, c, d |
| C22 | `C22_move_exact_count` | `Props_End.v` | a, b, c, d |
| C22 | `C22_up_spacing` | `Props_Time.v` | a, b, c, d |
| C22 | `C22_predict_spacing` | `Props_Predict.v` | a, b, c, d |
| C22 | `C22_float_stroke_rate` | `Props_FRate.v` | a, b, c, d |
| C22 | `C22_float_move_exact_count` | `Props_FCount.v` | a, b, c, d |
| C22 | `C22_float_move_evenly_spaced` | `Props_FRate.v` | a, b, c, d |
| C22 | `C22_float_up_evenly_spaced` | `Props_FRate.v` | a, b, c, d |
| C22 | `C22_float_up_spacing` | `Props_FPred.v` | a, b, c, d |
| C22 | `C22_float_predict_spacing` | `Props_FPred.v` | a, b, c, d |
| C22 | `C22_ordinary_stroke_rate` | `Props_FPred.v` | a, b, c, d |
| C23 | `C23_times_never_decrease` | `Props_Time.v` | a, b, c, d |
| C23 | `C23_up_times_never_decrease` | `Props_Time.v` | a, b, c, d |
| C23 | `C23_predict_times_never_decrease` | `Props_Predict.v` | a, b, c, d |
| C23 | `C23_float_times_never_decrease` | `Props_FTime.v` | a, b, c, d |
| C23 | `C23_float_move_ends_at_input` | `Props_FTime.v` | a, b, c, d |
| C23 | `C23_float_up_times_never_decrease` | `Props_FTime.v` | a, b, c, d |
| C23 | `C23_float_predict_times_never_decrease` | `Props_FPred.v` | a, b, c, d |
| C23 | `C23_ordinary_times_never_decrease` | `Props_FPred.v` | a, b, c, d |
| C23 | `C23_ordinary_up_times_never_decrease` | `Props_FPred.v` | a, b, c, d |
| C23 | `C23_ordinary_predict_times_never_decrease` | `Props_FPred.v` | a, b, c, d |
| C23 | `C23_ordinary_kalman_times_never_decrease` | `Props_FPred.v` | a, b, c, d |
| C23 | `C23_rounding_refuted` | `Examples_T.v` | a, b, c, d |
| C24 | `C24_end_of_stroke` | `Props_Spring.v` | a, b, c, d |
| C24 | `C24_float_end_of_stroke` | `Props_FEnd.v` | a, b, c, d |
| C25 | `C25_prediction_is_lifting_the_pen` | `Props_End.v` | a, b, c, d |
| C25 | `C25_float_prediction_is_lifting_the_pen` | `Props_FLift.v` | a, b, c, d |
| C25 | `C25_angle_limit_refuted` | `Examples_D.v` | a, b, c, d |
| C26 | `C26_unknown_stays_unknown_update` | `Props_Stylus.v` | a, b, c, d |
| C26 | `C26_unknown_stays_unknown_predict` | `Props_Stylus.v` | a, b, c, d |
| C26 | `C26_unknown_stays_unknown_update_exact` | `Props_Stylus.v` | a, b, c, d |
| C26 | `C26_unknown_stays_unknown_predict_exact` | `Props_Stylus.v` | a, b, c, d |
| C27 | `C27_pressure_in_range_update` | `Props_Range.v` | a, b, c, d |
| C27 | `C27_pressure_in_range_predict` | `Props_Range.v` | a, b, c, d |
| C27 | `C27_ordinary_pressure_in_range_update` | `Props_Finite.v` | a, b, c, d |
| C27 | `C27_ordinary_pressure_in_range_predict` | `Props_Finite.v` | a, b, c, d |
| C27 | `C27_ordinary_pressure_in_range_kalman` | `Props_FKalman.v` | a, b, c, d |
| C27 | `C27_pressure_in_range_update_partial` | `Props_Range.v` | a, b, c, d |
| C27 | `C27_pressure_in_range_predict_partial` | `Props_Range.v` | a, b, c, d |
| C27 | `C27_mitigation_refuted` | `Examples_F.v` | a, b, c, d |
| C28 | `C28_orientation_in_range_update` | `Props_Range.v` | a, b, c, d |
| C28 | `C28_orientation_in_range_predict` | `Props_Range.v` | a, b, c, d |
| C28 | `C28_ordinary_orientation_in_range_update` | `Props_Finite.v` | a, b, c, d |
| C28 | `C28_ordinary_orientation_in_range_predict` | `Props_Finite.v` | a, b, c, d |
| C28 | `C28_ordinary_orientation_in_range_kalman` | `Props_FKalman.v` | a, b, c, d |
| C28 | `C28_orientation_in_range_update_partial` | `Props_Range.v` | a, b, c, d |
| C28 | `C28_orientation_in_range_predict_partial` | `Props_Range.v` | a, b, c, d |
| C28 | `C28_mitigation_refuted` | `Examples_F.v` | a, b, c, d |
| C29 | `C31_closest_point_move` | `Props_Proj.v` | a, b, c, d |
| C29 | `C31_closest_point_up` | `Props_Proj.v` | a, b, c, d |
| C29 | `C31_closest_point_predict` | `Props_Proj.v` | a, b, c, d |
| C29 | `C32_normal_projection_move` | `Props_Normal.v` | a, b, c, d |
| C29 | `C32_normal_projection_up` | `Props_Normal.v` | a, b, c, d |
| C29 | `C32_normal_projection_predict` | `Props_Normal.v` | a, b, c, d |
| C29 | `C31_float_closest_point_move` | `Props_FProj.v` | a, b, c, d |
| C29 | `C31_float_closest_point_up` | `Props_FProj.v` | a, b, c, d |
| C29 | `C31_float_closest_point_predict` | `Props_FProj.v` | a, b, c, d |
| C29 | `C29_float_stylus_data_update` | `Props_FCarry.v` | a, b, c, d |
| C29 | `C29_float_stylus_data_predict` | `Props_FCarry.v` | a, b, c, d |
| C30 | `C30_other_mode_params_irrelevant` | `Props_Params.v` | none |
| C30 | `C31_closest_point_move` | `Props_Proj.v` | a, b, c, d |
| C30 | `C31_closest_point_up` | `Props_Proj.v` | a, b, c, d |
| C30 | `C31_closest_point_predict` | `Props_Proj.v` | a, b, c, d |
| C30 | `C32_normal_projection_move` | `Props_Normal.v` | a, b, c, d |
| C30 | `C32_normal_projection_up` | `Props_Normal.v` | a, b, c, d |
| C30 | `C32_normal_projection_predict` | `Props_Normal.v` | a, b, c, d |
| C30 | `C31_float_closest_point_move` | `Props_FProj.v` | a, b, c, d |
| C30 | `C31_float_closest_point_up` | `Props_FProj.v` | a, b, c, d |
| C30 | `C31_float_closest_point_predict` | `Props_FProj.v` | a, b, c, d |
| C30 | `C29_float_stylus_data_update` | `Props_FCarry.v` | a, b, c, d |
| C30 | `C29_float_stylus_data_predict` | `Props_FCarry.v` | a, b, c, d |
| C31 | `C31_closest_point_move` | `Props_Proj.v` | a, b, c, d |
| C31 | `C31_closest_point_up` | `Props_Proj.v` | a, b, c, d |
| C31 | `C31_closest_point_predict` | `Props_Proj.v` | a, b, c, d |
| C31 | `C31_float_closest_point_move` | `Props_FProj.v` | a, b, c, d |
| C31 | `C31_float_closest_point_up` | `Props_FProj.v` | a, b, c, d |
| C31 | `C31_float_closest_point_predict` | `Props_FProj.v` | a, b, c, d |
| C32 | `C32_normal_projection_move` | `Props_Normal.v` | a, b, c, d |
| C32 | `C32_normal_projection_up` | `Props_Normal.v` | a, b, c, d |
| C32 | `C32_normal_projection_predict` | `Props_Normal.v` | a, b, c, d |
| C33 | `C33_disabled_mitigation_irrelevant` | `Props_Params.v` | none |
| C33 | `C33_projection_has_no_influence` | `Props_Spring.v` | a, b, c, d |
| C33 | `C38_spring_law` | `Props_Spring.v` | a, b, c, d |
| C33 | `C33_float_projection_refuted` | `Examples_D.v` | a, b, c, d |
| C34 | `C34_strength` | `Props_Loop.v` | a, b, c, d |
| C34 | `C34_mitigation_move` | `Props_Loop.v` | a, b, c, d |
| C34 | `C34_mitigation_up` | `Props_Loop.v` | a, b, c, d |
| C34 | `C34_mitigation_predict` | `Props_Loop.v` | a, b, c, d |
| C34 | `C34_mitigation_prediction` | `Props_Predict.v` | a, b, c, d |
| C34 | `C34_only_geometry` | `Calm.v` | a, b, c, d |
| C34 | `C34_same_status_and_count` | `Quiet.v` | none |
| C34 | `C34_float_mitigation_update` | `Props_FLoop.v` | a, b, c, d |
| C34 | `C34_float_mitigation_predict` | `Props_FLoop.v` | a, b, c, d |
| C34 | `C34_float_strength` | `Props_FLoop.v` | a, b, c, d |
| C35 | `C35_disabled_smoothing_irrelevant` | `Props_Params.v` | none |
| C36 | `C36_smoothing` | `Props_Smooth.v` | a, b, c, d |
| C36 | `C36_in_convex_hull` | `Props_Smooth.v` | a, b, c, d |
| C36 | `C36_raw_when_fast` | `Props_Smooth.v` | a, b, c, d |
| C36 | `C36_average_when_slow` | `Props_Smooth.v` | a, b, c, d |
| C36 | `C36_float_pause_refuted` | `Examples_P.v` | a, b, c, d |
| C37 | `C37_resting_results` | `Props_Rest.v` | a, b, c, d |
| C37 | `C37_resting_update` | `Props_Rest.v` | a, b, c, d |
| C37 | `C37_resting_prediction` | `Props_Rest.v` | a, b, c, d |
| C37 | `C37_float_resting_results` | `Props_FRest.v` | a, b, c, d |
| C37 | `C37_float_resting_update` | `Props_FRest.v` | a, b, c, d |
| C37 | `C37_float_resting_prediction` | `Props_FRest.v` | a, b, c, d |
| C37 | `C37_float_tiny_step_refuted` | `Examples_N.v` | a, b, c, d |
| C37 | `C36_float_pause_refuted` | `Examples_P.v` | a, b, c, d |
| C38 | `C38_spring_law` | `Props_Spring.v` | a, b, c, d |
| C38 | `C38_spring_law_smoothed` | `Props_Smooth.v` | a, b, c, d |
| C38 | `C38_float_spring_law` | `Props_FSpring.v` | a, b, c, d |
| C39 | `C39_predict_empty_until_stable` | `Props_Kalman.v` | none |
| C39 | `C39_predict_nonempty_from_stable` | `Props_Stylus.v` | a, b, c, d |
| C39 | `C39_predict_nonempty_from_stable_exact` | `Props_Stylus.v` | a, b, c, d |
| C40 | `C40_kalman_prediction` | `Props_Predict.v` | a, b, c, d |
| C41 | `C41_confidence_limits_extension` | `Props_Predict.v` | a, b, c, d |
| C41 | `C41_extension_is_limited` | `Props_Predict.v` | a, b, c, d |
| C41 | `C41_duration_refuted` | `Examples_R.v` | a, b, c, d |
| C42 | `C42_well_conditioned` | `Props_Predict.v` | a, b, c, d |
| C43 | `C43_estimate_of_resting_pen` | `Props_Rest.v` | a, b, c, d |
| C43 | `C43_resting_kalman_prediction` | `Props_Rest.v` | a, b, c, d |
| C43 | `C43_float_resting_kalman_prediction` | `Props_FKRest.v` | a, b, c, d |
| C44 | `C44_similarity` | `Symmetry.v` | a, b, c, d |
| C44 | `C44_mirror_refuted` | `Examples_P.v` | a, b, c, d |
| C45 | `C45_no_undefined_behaviour` | `Props_Safe.v` | a, b, c, d |
| C45 | `C45_only_kalman_conversion` | `Props_Safe.v` | a, b, c, d |
| C45 | `C45_kalman_predict_defined` | `Props_Whole.v` | a, b, c, d |
| C45 | `C45_kalman_refuted` | `Examples_V.v` | a, b, c, d |
| C46 | `C46_terminates` | `Props_Range.v` | a, b, c, d |
| C46 | `C46_every_call_returns` | `Props_Total.v` | a, b, c, d |
| C46 | `C46_huge_orientation_refuted` | `Examples_F.v` | a, b, c, d |
| C47 | `C47_stylus_data_no_influence` | `Props_Geom.v` | none |
| C47 | `C47_unknown_no_influence` | `Unknowns.v` | none |
| C47 | `C47_unknown_refuted` | `Examples_Z.v` | a, b, c, d |
| C48 | `C48_placeholder_rejected` | `Props_Valid.v` | a, b, c, d |
| C48 | `C48_default_rejected` | `Props_Valid.v` | a, b, c, d |
| C49 | `C49_float_finite_results` | `Props_Finite.v` | a, b, c, d |
| C49 | `C49_float_finite_update` | `Props_Finite.v` | a, b, c, d |
| C49 | `C49_float_finite_prediction` | `Props_Finite.v` | a, b, c, d |
| C49 | `C49_float_finite_ticking_update` | `Props_Finite.v` | a, b, c, d |
| C49 | `C49_float_finite_ticking_prediction` | `Props_Finite.v` | a, b, c, d |
| C49 | `C49_float_finite_kalman_prediction` | `Props_FKalman.v` | a, b, c, d |
| C49 | `C49_float_finite_kalman_default` | `Props_FKalman.v` | a, b, c, d |
| C49 | `C49_finite_refuted` | `Examples_F.v` | a, b, c, d |
| C49 | `C49_predict_refuted` | `Examples_V.v` | a, b, c, d |
| C49 | `C49_predict_same_time_refuted` | `Examples_D.v` | a, b, c, d |
| C50 | `C50_angle_limit` | `Props_End.v` | a, b, c, d |
| C50 | `C50_exact_count` | `Props_End.v` | a, b, c, d |
| C50 | `C50_float_exact_count` | `Props_FCount.v` | a, b, c, d |
| C51 | `C51_next_input_accepted` | `Props_Total.v` | a, b, c, d |
| C51 | `C51_down_accepted` | `Props_Total.v` | a, b, c, d |
| C51 | `C51_too_far_rejected` | `Props_Total.v` | a, b, c, d |
| C51 | `C51_whole_stroke_accepted` | `Props_Whole.v` | a, b, c, d |
| C51 | `C51_float_next_input_accepted` | `Props_FAccept.v` | a, b, c, d |
| C51 | `C51_float_down_accepted` | `Props_FAccept.v` | a, b, c, d |
| C51 | `C51_float_whole_stroke_accepted` | `Props_FAccept.v` | a, b, c, d |
| C51 | `C51_float_any_input_accepted` | `Props_FAny.v` | a, b, c, d |
| C51 | `C51_float_any_stroke_accepted` | `Props_FAny.v` | a, b, c, d |
| C52 | `C52_results_stay_near` | `Props_Bounded.v` | a, b, c, d |
| C52 | `C52_update_stays_near` | `Props_Bounded.v` | a, b, c, d |
| C52 | `C52_prediction_stays_near` | `Props_Bounded.v` | a, b, c, d |
| C52 | `C52_results_in_strip` | `Props_Bounded.v` | a, b, c, d |
| C52 | `C52_update_in_strip` | `Props_Bounded.v` | a, b, c, d |
| C52 | `C52_prediction_in_strip` | `Props_Bounded.v` | a, b, c, d |
| C52 | `C52_float_results_in_box` | `Props_FBounded.v` | a, b, c, d |
| C52 | `C52_float_update_in_box` | `Props_FBounded.v` | a, b, c, d |
| C52 | `C52_float_prediction_in_box` | `Props_FBounded.v` | a, b, c, d |
| C52 | `C52_float_any_stroke_in_box` | `Props_FBounded.v` | a, b, c, d |
| C52 | `C52_float_any_update_in_box` | `Props_FBounded.v` | a, b, c, d |
| C52 | `C52_float_any_prediction_in_box` | `Props_FBounded.v` | a, b, c, d |
| C52 | `C52_slow_rate_refuted` | `Examples_P.v` | a, b, c, d |
| C53 | `C53_angle_exact` | `Props_Vec.v` | a, b, c, d |
| C53 | `C53_angle_error_iff` | `Props_Vec.v` | a, b, c, d |
| C53 | `C53_angle_symmetric` | `Props_Vec.v` | a, b, c, d |
| C53 | `C53_angle_range` | `Props_Vec.v` | a, b, c, d |
| C53 | `C53_angle_accuracy` | `Props_Vec.v` | a, b, c, d |
| C53 | `C53_huge_vector_refuted` | `Examples_L.v` | a, b, c, d |
| C54 | `C54_square_symmetry` | `Props_Mirror.v` | a, b, c, d |
| C54 | `C54_signs_of_zero` | `Props_Mirror.v` | a, b, c, d |
| C54 | `C44_mirror_refuted` | `Examples_P.v` | a, b, c, d |
| C55 | `C55_limit_only_rejects` | `Limits.v` | none |
| C56 | `C56_longer_end_only_adds` | `Longer.v` | none |
| C56 | `C56_float_ends_sooner` | `Longer.v` | a, b, c, d |
| C57 | `C57_predictor_no_influence` | `Unpredicted.v` | none |
| C58 | `C58_channels_independent` | `Channels.v` | none |
