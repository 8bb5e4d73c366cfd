{"id": "C01", "title": "An unconfigured modeler does nothing", "statement": "Until a call to Reset(params) has succeeded, Update, Predict and the parameterless Reset all return FailedPrecondition, Update leaves the caller's vector exactly as it was, Predict leaves it empty, and Save/Restore have no observable effect; this stays so however often those calls are made and even if Reset(params) is called with invalid parameters any number of times.", "quantifier": "every history of API calls in which no Reset(params) succeeds", "why_tests_cant": "Histories are unbounded and include failed Resets and Save/Restore in any order; a test tries one or two first calls.", "anchors": ["ink_stroke_modeler/stroke_modeler.cc:StrokeModeler::Update", "ink_stroke_modeler/stroke_modeler.cc:StrokeModeler::Predict", "ink_stroke_modeler/stroke_modeler.cc:StrokeModeler::Reset"]}
{"id": "C02", "title": "Reset accepts exactly the documented parameters", "statement": "Reset(params) returns OK exactly when the parameters satisfy the constraints documented in params.h (positive finite constants, output rate, stopping distance; 1..1000 end iterations; angle limit -1 or in (0, pi); sample-count and duration constraints of the selected projection mode; ordered speed bounds and ordered strengths within [0,1] when loop mitigation is on, which also needs normal projection; ...), and otherwise returns InvalidArgument. Caveat found: NaN loop-mitigation values and a NaN baseline linearity confidence are accepted.", "quantifier": "every parameter struct, all float and double values including NaN, infinities, zeros and subnormals", "why_tests_cant": "The parameter space has some 30 numeric fields with NaN/infinity corner cases; unit tests poke one field at a time.", "anchors": ["ink_stroke_modeler/params.cc:ValidateStrokeModelParams", "ink_stroke_modeler/params.h", "ink_stroke_modeler/internal/validation.h"]}
{"id": "C03", "title": "A failed Reset changes nothing", "statement": "If Reset(params) returns an error, the modeler afterwards answers every later call exactly as if that Reset had never been made.", "quantifier": "every modeler history, every invalid parameter struct, every continuation of calls", "why_tests_cant": "Needs equality of all futures, not of one follow-up call.", "anchors": ["ink_stroke_modeler/stroke_modeler.cc:StrokeModeler::Reset"]}
{"id": "C04", "title": "A failed Update leaves results unmodified", "statement": "Whenever Update returns an error the caller's results vector has exactly its previous contents, whatever the error.", "quantifier": "every modeler history, every input, every prior vector contents", "why_tests_cant": "There are a dozen error exits, several data dependent (e.g. non-finite velocity).", "anchors": ["ink_stroke_modeler/stroke_modeler.cc:StrokeModeler::Update", "ink_stroke_modeler/stroke_modeler.h"]}
{"id": "C05", "title": "Update only appends, and never looks at what is there", "statement": "A successful Update leaves the previous contents of the vector as a prefix, and the results appended, the status and the modeler's future behaviour do not depend on what the vector contained.", "quantifier": "every history, every input, every pair of prior vectors", "why_tests_cant": "Two-run (hyper) property over all vectors.", "anchors": ["ink_stroke_modeler/stroke_modeler.cc:StrokeModeler::Update", "ink_stroke_modeler/stroke_modeler.h"]}
{"id": "C06", "title": "Every successful Update yields at least one result", "statement": "If Update does not return an error it appends at least one Result: exactly one for Down, at least one for Up, and for Move the number of upsampled steps. Documented for every event; refuted for a Move carrying the same timestamp as the previous input, which succeeds with zero results; proved for Down, Up and every Move at a strictly later time whose float time difference is not zero.", "quantifier": "every history, every accepted input", "why_tests_cant": "The failing case needs equal timestamps with a differing position; no test has a Move like that.", "anchors": ["ink_stroke_modeler/stroke_modeler.h", "ink_stroke_modeler/stroke_modeler.cc:ProcessDownEvent", "ink_stroke_modeler/stroke_modeler.cc:ProcessUpEvent", "ink_stroke_modeler/stroke_modeler.cc:ProcessMoveEvent"]}
{"id": "C07", "title": "Only well-formed strokes are accepted", "statement": "In any history the accepted Update events between two Resets (with no Restore) form a prefix of (Down Move* Up)*; a Down during a stroke and a Move or Up outside one are always rejected with FailedPrecondition or InvalidArgument, and whether a stroke is in progress is determined by the accepted events alone.", "quantifier": "every history of API calls", "why_tests_cant": "Language inclusion over unbounded event sequences with rejected events interleaved.", "anchors": ["ink_stroke_modeler/stroke_modeler.cc:StrokeModeler::Update"]}
{"id": "C08", "title": "Accepted time never runs backwards and duplicates are rejected", "statement": "Within a stroke an input earlier than the last accepted input is rejected with InvalidArgument, as is an input equal to it in every field, and neither changes anything; consequently the times of the accepted inputs of a stroke never decrease.", "quantifier": "every history, every input", "why_tests_cant": "All orders and ties of floating-point timestamps, over unbounded strokes.", "anchors": ["ink_stroke_modeler/stroke_modeler.cc:StrokeModeler::Update", "ink_stroke_modeler/types.h:operator=="]}
{"id": "C09", "title": "Malformed inputs are rejected without effect", "statement": "An input with a NaN or infinite position coordinate or time, or with an event type that is not Down, Move or Up, is always rejected with InvalidArgument and has no effect on any later call.", "quantifier": "every configured modeler, every such input, every continuation", "why_tests_cant": "All NaN/infinity placements in all modeler states, and all futures.", "anchors": ["ink_stroke_modeler/types.cc:ValidateInput", "ink_stroke_modeler/stroke_modeler.cc:StrokeModeler::Update"]}
{"id": "C10", "title": "A rejected Update leaves no trace", "statement": "If Update returns an error, every later call behaves as if it had not been made. Refuted for a Move rejected because it is too far (in time) from its predecessor or its velocity estimate is not finite: by then the smoother and the stylus history have been modified, and later results change. Proved for every other error, including the same errors on Up.", "quantifier": "every history, every rejected input, every continuation", "why_tests_cant": "The trace is internal state that only shows up in later outputs.", "anchors": ["ink_stroke_modeler/stroke_modeler.cc:ProcessMoveEvent", "ink_stroke_modeler/stroke_modeler.cc:StrokeModeler::Update"]}
{"id": "C11", "title": "Down echoes the input", "statement": "A successful Down appends exactly one Result: the input's position, time, pressure, tilt and orientation, with zero velocity and acceleration, whatever happened before.", "quantifier": "every history, every accepted Down", "why_tests_cant": "All prior histories (including Restores) and all values.", "anchors": ["ink_stroke_modeler/stroke_modeler.cc:ProcessDownEvent"]}
{"id": "C12", "title": "Predict never changes the modeler", "statement": "Inserting or removing any number of Predict calls anywhere in a history does not change the reply to any other call; in particular two consecutive Predicts give the same answer.", "quantifier": "every history, every insertion of Predict calls", "why_tests_cant": "Quantifies over all futures; the tip buffer and the loop-mitigation history are really touched by Predict.", "anchors": ["ink_stroke_modeler/stroke_modeler.cc:StrokeModeler::Predict", "ink_stroke_modeler/stroke_modeler.h"]}
{"id": "C13", "title": "Predict replaces the vector and fails exactly when it should", "statement": "Predict returns FailedPrecondition exactly when the modeler is unconfigured, no predictor is available, or no stroke is in progress, and then leaves the vector empty; otherwise it succeeds and the vector holds exactly the prediction, independent of its previous contents. A predictor is available exactly when the last successful Reset enabled prediction, or a Restore since then brought back one that was saved, even under older parameters (against the documentation, by which disabled prediction stays disabled).", "quantifier": "every history, every prior vector", "why_tests_cant": "All modeler states, and a two-run property over vectors.", "anchors": ["ink_stroke_modeler/stroke_modeler.cc:StrokeModeler::Predict"]}
{"id": "C14", "title": "Restore undoes everything since Save", "statement": "After Save, then any calls other than Reset or another Save, then Restore, every later call gets the reply it would have got had the calls in between (and Restore) not been made. Proved when no new stroke was started in between (or none was in progress at Save) and prediction did not come back from an older configuration; refuted when a stroke ends and a new one begins between Save and Restore.", "quantifier": "every history before Save, every sequence of calls in between, every continuation after Restore", "why_tests_cant": "Observational equivalence over three unbounded histories.", "anchors": ["ink_stroke_modeler/stroke_modeler.cc:StrokeModeler::Save", "ink_stroke_modeler/stroke_modeler.cc:StrokeModeler::Restore", "ink_stroke_modeler/stroke_modeler.h"]}
{"id": "C15", "title": "Save is invisible until Restore", "statement": "Inserting a Save anywhere in a history changes no reply to any call up to the next Restore.", "quantifier": "every history, every insertion point", "why_tests_cant": "All futures.", "anchors": ["ink_stroke_modeler/stroke_modeler.cc:StrokeModeler::Save"]}
{"id": "C16", "title": "Restore without an active Save does nothing", "statement": "Restore has no effect on any later call if Save has never been called or a successful Reset (either form) happened since the last Save.", "quantifier": "every history, every continuation", "why_tests_cant": "All futures, and stale per-component save flags that only a later call could expose.", "anchors": ["ink_stroke_modeler/stroke_modeler.cc:StrokeModeler::Restore", "ink_stroke_modeler/stroke_modeler.cc:ResetInternal"]}
{"id": "C17", "title": "Restore keeps the saved state", "statement": "Restoring again later, after any further calls that do not Save, Reset or start a new stroke, brings back exactly the same behaviour: the saved state can be restored any number of times.", "quantifier": "every history, every interleaving, every continuation", "why_tests_cant": "All futures.", "anchors": ["ink_stroke_modeler/stroke_modeler.cc:StrokeModeler::Restore"]}
{"id": "C18", "title": "Reset(params) makes the modeler as good as new", "statement": "After a successful Reset(params) every later call is answered exactly as by a newly constructed modeler after the same Reset. Refuted in one corner: a predictor saved under an older configuration survives, so Reset with prediction disabled, Save, Restore brings prediction back; proved when prediction is enabled or no predictor was ever saved, or no Restore follows.", "quantifier": "every earlier history, every valid parameter struct, every continuation", "why_tests_cant": "Requires that no component leaks state in any future.", "anchors": ["ink_stroke_modeler/stroke_modeler.cc:StrokeModeler::Reset"]}
{"id": "C19", "title": "Reset() equals Reset with the same parameters", "statement": "On a configured modeler the parameterless Reset always succeeds and every later call is answered as if Reset had been called with the current parameters again.", "quantifier": "every history, every continuation", "why_tests_cant": "Reset() leaves all components un-reset; that this is invisible is a statement about all futures.", "anchors": ["ink_stroke_modeler/stroke_modeler.cc:StrokeModeler::Reset"]}
{"id": "C20", "title": "Strokes are independent", "statement": "Once a stroke has ended with a successful Up, what the modeler answers to the following strokes does not depend on any earlier stroke: it is what a newly constructed modeler reset with the same parameters answers.", "quantifier": "every history ending in an accepted Up with no active Save, every continuation", "why_tests_cant": "All pairs of histories and all continuations.", "anchors": ["ink_stroke_modeler/stroke_modeler.cc:ProcessUpEvent", "ink_stroke_modeler/stroke_modeler.cc:ProcessDownEvent"]}
{"id": "C21", "title": "Output per call is bounded by max_outputs_per_call", "statement": "No Update or Predict produces more than max_outputs_per_call results; an input that would need more is rejected. Proved for Down and Move; refuted for Up (which adds up to end_of_stroke_max_iterations) and for Predict (never checked); proved bounds for those: max_outputs_per_call + end_of_stroke_max_iterations for Up, end_of_stroke_max_iterations for stroke-end prediction, and for Kalman prediction (exact arithmetic) max(1, ceil(catch-up distance * min_output_rate / min_catchup_velocity)) + ceil(prediction_interval * min_output_rate).", "quantifier": "every history, every input", "why_tests_cant": "All time gaps and all parameter combinations.", "anchors": ["ink_stroke_modeler/internal/position_modeler.cc:NumberOfStepsBetweenInputs", "ink_stroke_modeler/stroke_modeler.cc:ProcessUpEvent", "ink_stroke_modeler/params.h"]}
{"id": "C22", "title": "Output rate is at least min_output_rate", "statement": "A successful Move or Up covers the time since the previous input with evenly spaced results no further apart than 1/min_output_rate, the first at most one spacing after the previous input and the last of them at the time of the input.", "quantifier": "every stroke, every accepted Move/Up, every rate (exact arithmetic)", "why_tests_cant": "All time differences and rates; ceil boundary cases.", "anchors": ["ink_stroke_modeler/internal/position_modeler.cc:NumberOfStepsBetweenInputs", "ink_stroke_modeler/internal/position_modeler.h:UpdateAlongLinearPath", "ink_stroke_modeler/params.h"]}
{"id": "C23", "title": "Result times never go backwards", "statement": "Within a stroke the times of all results, over all Updates, never decrease, lie between the times of the inputs (except in the modeled end of the stroke), and Move results end exactly at the input time. True in exact arithmetic; in floating point the last result of a Move can differ from the input time and exceed the first result of the next by rounding.", "quantifier": "every stroke of any length", "why_tests_cant": "Monotonicity over unbounded strokes.", "anchors": ["ink_stroke_modeler/internal/position_modeler.h:UpdateAlongLinearPath", "ink_stroke_modeler/internal/position_modeler.h:ModelEndOfStroke"]}
{"id": "C24", "title": "The end of the stroke approaches the pen-up point", "statement": "The results an Up adds beyond its own time get strictly closer to the pen-up position, each step of at least the stopping distance, at most end_of_stroke_max_iterations of them, at times separated by at most 1/min_output_rate; they stop only when within the stopping distance, when the next step would be shorter than the stopping distance, or when iterations run out.", "quantifier": "every stroke, every Up (exact arithmetic for distances)", "why_tests_cant": "All spring constants, velocities and positions; the loop halves its step data-dependently.", "anchors": ["ink_stroke_modeler/internal/position_modeler.h:ModelEndOfStroke"]}
{"id": "C25", "title": "Stroke-end prediction is what lifting the pen would give", "statement": "With stroke-end prediction, the prediction has the same positions, velocities, accelerations and times as the results an Up at the last input's position and time would produce (before its stylus state is added), when wobble smoothing is off. With smoothing on it is anchored at the smoothed position instead. This is up to rounding: in binary32/binary64 it is exact for a stroke without known stylus data and with the angle limit off; with the limit on, rounding can give the Up one result more.", "quantifier": "every stroke, every point in it", "why_tests_cant": "Equality of two code paths in all states.", "anchors": ["ink_stroke_modeler/internal/prediction/stroke_end_predictor.cc:ConstructPrediction", "ink_stroke_modeler/stroke_modeler.cc:ProcessUpEvent", "ink_stroke_modeler/params.h"]}
{"id": "C26", "title": "An unknown stylus field stays unknown", "statement": "Once an accepted input of a stroke has a negative (or NaN) pressure, every later Update or Predict result of that stroke reports pressure exactly -1; likewise tilt and orientation, each independently of the others.", "quantifier": "every stroke, every point in it, each field", "why_tests_cant": "Must hold for all later inputs of the stroke and all interpolation paths.", "anchors": ["ink_stroke_modeler/internal/stylus_state_modeler.cc:StylusStateModeler::Update", "ink_stroke_modeler/internal/stylus_state_modeler.cc:StylusStateModeler::Query", "ink_stroke_modeler/internal/utils.cc:InterpResult"]}
{"id": "C27", "title": "Known pressure stays within [0, 1]", "statement": "If every input of a stroke has pressure in [0, 1] then every result of the stroke, predictions included, has pressure in [0, 1] - in floating point, with no rounding slack. More generally in exact arithmetic every known field lies between the smallest and largest input value.", "quantifier": "every stroke, every binary32 pressure in [0,1]", "why_tests_cant": "Rounding could exceed the bound by one ulp for some of 2^60 value pairs.", "anchors": ["ink_stroke_modeler/internal/utils.h:Interp", "ink_stroke_modeler/internal/utils.cc:InterpResult", "ink_stroke_modeler/internal/stylus_state_modeler.cc:Query"]}
{"id": "C28", "title": "Reported orientation is in [0, 2pi)", "statement": "Every orientation reported by Update for a Move or Up, or by Predict, is either exactly -1 or in [0, 2pi) - in floating point.", "quantifier": "every stroke, all binary32 orientations for which the call returns", "why_tests_cant": "Depends on where 2pi falls between binary32 numbers; the code only removes values > 2pi.", "anchors": ["ink_stroke_modeler/internal/utils.h:InterpAngle"]}
{"id": "C29", "title": "Angles are interpolated the short way round", "statement": "The orientation reported between two inputs is reached from the first by turning through at most half a turn, the fraction of the turn given by the interpolation ratio; pressure and tilt are interpolated linearly with the same ratio between the same two inputs. Exactly so in exact arithmetic, up to a few millionths in floating point.", "quantifier": "every pair of orientations and ratio", "why_tests_cant": "All angle pairs across the wraparound.", "anchors": ["ink_stroke_modeler/internal/utils.h:InterpAngle"]}
{"id": "C30", "title": "Stylus memory is bounded by its parameters", "statement": "With closest-point projection at most max_input_samples inputs are retained. With normal projection at least min_input_samples are retained once received, the retained inputs are always the most recent ones, and dropping the oldest would leave less than min_sample_duration or fewer than min_input_samples.", "quantifier": "every stroke of any length, every parameter value", "why_tests_cant": "Unbounded strokes.", "anchors": ["ink_stroke_modeler/internal/stylus_state_modeler.cc:ShouldDropOldestInput", "ink_stroke_modeler/params.h"]}
{"id": "C31", "title": "The closest-point projection is closest", "statement": "With closest-point projection the reported pressure, tilt and orientation are those of the point of the polyline of retained inputs that is nearest to the modeled position, among all points of all segments (exact arithmetic); with a single retained input they are that input's.", "quantifier": "every polyline and every modeled position", "why_tests_cant": "Optimality over a continuum of points.", "anchors": ["ink_stroke_modeler/internal/stylus_state_modeler.cc:ProjectToClosestPoint", "ink_stroke_modeler/internal/utils.h:NearestPointOnSegment"]}
{"id": "C32", "title": "The normal projection lies on the normal", "statement": "With normal projection, when a projection is found the projected point lies both on the retained input polyline and on the line through the modeled position along the stroke normal, and it is the nearest such crossing on its side of the stroke (exact arithmetic); otherwise the nearer end of the polyline is used.", "quantifier": "every polyline, position and normal", "why_tests_cant": "Geometric optimality over all configurations.", "anchors": ["ink_stroke_modeler/internal/stylus_state_modeler.cc:ProjectAlongStrokeNormal", "ink_stroke_modeler/internal/utils.cc:ProjectToSegmentAlongNormal"]}
{"id": "C33", "title": "Without loop mitigation the results are the spring model", "statement": "When loop contraction mitigation is disabled, positions, velocities and accelerations of all results are those of the spring model alone: they do not depend on the projection mode or on the stylus data (exact arithmetic), and the other mitigation parameters have no influence at all.", "quantifier": "every stroke; every setting of the unused parameters", "why_tests_cant": "Two-run property over all strokes and settings.", "anchors": ["ink_stroke_modeler/stroke_modeler.cc:ModelStylus", "ink_stroke_modeler/internal/loop_contraction_mitigation_modeler.cc"]}
{"id": "C34", "title": "Loop mitigation strength is in range and falls with speed", "statement": "The weight given to the spring model always lies between the two configured strengths (so in [0,1]); it is the lower-bound strength at or below the lower speed bound, the upper-bound strength at or above the upper bound, never increases with average speed, and with mitigation on every reported position lies on the segment between the projected and the spring position (exact arithmetic).", "quantifier": "every speed history and all valid parameters", "why_tests_cant": "A continuum of speeds and settings.", "anchors": ["ink_stroke_modeler/internal/loop_contraction_mitigation_modeler.cc:GetInterpolationValue", "ink_stroke_modeler/internal/loop_contraction_mitigation_modeler.cc:Update"]}
{"id": "C35", "title": "Disabled wobble smoothing is the identity", "statement": "With wobble smoothing disabled, the other smoothing parameters have no influence on any reply.", "quantifier": "every stroke, every setting of the unused parameters", "why_tests_cant": "Two-run property.", "anchors": ["ink_stroke_modeler/internal/wobble_smoother.cc:WobbleSmoother::Update"]}
{"id": "C36", "title": "Wobble smoothing never leaves the recent path", "statement": "In exact arithmetic the smoothed position is between the raw position and the duration-weighted average of the raw positions in the timeout window: inside the bounding box of the recent raw inputs, equal to the raw input when the average speed is at or above speed_ceiling, and equal to the moving average when at or below speed_floor.", "quantifier": "every stroke, all valid smoothing parameters, strictly increasing times", "why_tests_cant": "All input sequences; running sums must equal the sums over the window at all times.", "anchors": ["ink_stroke_modeler/internal/wobble_smoother.cc:WobbleSmoother::Update", "ink_stroke_modeler/params.h"]}
{"id": "C37", "title": "A resting pen stays put", "statement": "If all inputs of a stroke have the same position, every result (Update and stroke-end Predict) has exactly that position and zero velocity and acceleration: in exact arithmetic always; in floating point to the last bit with smoothing off, times of at most 2^100 s that are equal or at least 2^-149 s apart, an output rate of at least 2^-100 and finite mitigation bounds. (Times closer than that make the code divide 0 by 0.)", "quantifier": "every stroke at a fixed position, any timing", "why_tests_cant": "All times and all finite positions, with rounding.", "anchors": ["ink_stroke_modeler/internal/position_modeler.cc:PositionModeler::Update", "ink_stroke_modeler/stroke_modeler.cc:ModelStylus"]}
{"id": "C38", "title": "The tip follows the documented spring-drag law", "statement": "Every modeled state is obtained from the previous one by acceleration = (anchor - position)/spring_mass_constant - drag_constant*velocity, velocity += dt*acceleration, position += dt*velocity, where the anchors interpolate linearly from the previous input to the current one.", "quantifier": "every stroke (exact arithmetic)", "why_tests_cant": "Recurrence over unbounded strokes.", "anchors": ["ink_stroke_modeler/internal/position_modeler.cc:PositionModeler::Update", "ink_stroke_modeler/internal/position_modeler.h:UpdateAlongLinearPath", "README.md"]}
{"id": "C39", "title": "Kalman prediction waits for enough inputs", "statement": "With Kalman prediction, Predict succeeds with an empty vector until min_stable_iteration inputs of the stroke have been accepted and returns at least one result from then on.", "quantifier": "every stroke, every min_stable_iteration", "why_tests_cant": "Unbounded strokes, with Save/Restore.", "anchors": ["ink_stroke_modeler/internal/prediction/kalman_predictor.cc:GetEstimatedState", "ink_stroke_modeler/internal/prediction/kalman_predictor.cc:ConstructPrediction"]}
{"id": "C40", "title": "The prediction connects smoothly", "statement": "The first part of a Kalman prediction is a curve that starts at the current tip position and velocity and whose last point has exactly the estimated position and velocity; the second part continues from there (exact arithmetic); its times step by 1/min_output_rate from the time of the last result.", "quantifier": "every Kalman state and parameters", "why_tests_cant": "Continuum of states.", "anchors": ["ink_stroke_modeler/internal/prediction/kalman_predictor.cc:ConstructCubicConnector", "ink_stroke_modeler/internal/prediction/kalman_predictor.cc:ConstructCubicPrediction"]}
{"id": "C41", "title": "Prediction confidence is in [0,1] and limits the extension", "statement": "The part of a Kalman prediction beyond the catch-up has at most ceil(prediction_interval * min_output_rate) results, because the confidence is always in [0, 1]; its duration is below prediction_interval + 1/min_output_rate. The documentation claims the duration is never greater than prediction_interval, which is refuted (the count is rounded up).", "quantifier": "every Kalman state and valid parameters (exact arithmetic)", "why_tests_cant": "All states; products of four heuristics.", "anchors": ["ink_stroke_modeler/internal/prediction/kalman_predictor.cc:NumberOfPointsToPredict", "ink_stroke_modeler/params.h"]}
{"id": "C42", "title": "The Kalman filter is well conditioned", "statement": "In exact arithmetic, for any observations, the error covariance stays symmetric positive semidefinite and the innovation variance stays at least the measurement noise, so the filter never divides by zero.", "quantifier": "every sequence of observations of any length, all positive noise values", "why_tests_cant": "Invariant of an unbounded recursion.", "anchors": ["ink_stroke_modeler/internal/prediction/kalman_filter/kalman_filter.cc:KalmanFilter::Update", "ink_stroke_modeler/internal/prediction/kalman_filter/axis_predictor.cc"]}
{"id": "C43", "title": "The Kalman filter trusts a resting pen", "statement": "If all inputs of a stroke are at the same position, the Kalman estimate is exactly that position with zero velocity, acceleration and jerk, and Predict offers at most one result, at that position and at rest. Without smoothing this holds exactly in floating point too.", "quantifier": "every number of inputs and all noise values", "why_tests_cant": "Unbounded recursion.", "anchors": ["ink_stroke_modeler/internal/prediction/kalman_filter/kalman_filter.cc:KalmanFilter::Update"]}
{"id": "C44", "title": "The modeler is unit- and coordinate-agnostic", "statement": "Scaling, rotating or translating all input positions (with distance-valued parameters scaled accordingly), or shifting and rescaling time (with time-valued parameters rescaled), transforms every result the same way (exact arithmetic). The code has two absolute constants that limit this: the loop-mitigation window may be at most 10000 time units, and a Kalman prediction caps a distance at the largest float, so with a Kalman predictor distances are rotated, translated but not scaled. The variances of the Kalman filter are kept as they are. Mirroring is included when stylus values are projected to the closest point; projection along the stroke normal distinguishes left from right.", "quantifier": "every history, every similarity transform", "why_tests_cant": "Two-run property over all transforms and histories.", "anchors": ["ink_stroke_modeler/stroke_modeler.h", "ink_stroke_modeler/params.h"]}
{"id": "C45", "title": "Update never runs into undefined behaviour", "statement": "With valid parameters and max_outputs_per_call below INT_MAX, no history of calls makes Update, Reset, Save or Restore, or Predict with stroke-end prediction, convert an unrepresentable float to int, access an empty queue or overflow a counter. For Kalman Predict this is refuted: a huge estimate makes a float-to-int conversion undefined.", "quantifier": "every history, all floating-point inputs", "why_tests_cant": "All of the floating-point input space; needs invariants on queues and reasoning about NaN.", "anchors": ["ink_stroke_modeler/internal/position_modeler.cc", "ink_stroke_modeler/internal/stylus_state_modeler.cc", "ink_stroke_modeler/internal/wobble_smoother.cc", "ink_stroke_modeler/internal/prediction/kalman_predictor.cc"]}
{"id": "C46", "title": "Update terminates for orientations in range", "statement": "If all orientations given are in [0, 2pi] or unknown, no call loops more than a bounded number of times: the angle normalisation loops run at most once. Refuted outside the documented range: an orientation of 1e30 makes Update loop forever.", "quantifier": "every history, all binary32 orientations", "why_tests_cant": "Non-termination for some inputs is invisible to finite tests; absence of it needs a ranking argument with rounding.", "anchors": ["ink_stroke_modeler/internal/utils.h:InterpAngle"]}
{"id": "C47", "title": "Stylus data never influences the geometry", "statement": "Two strokes whose inputs differ only in the values of known pressure, tilt and orientation produce the same statuses and the same positions, velocities, accelerations and times in all results and predictions. With use_stroke_normal_projection the readings may also be known in one and unknown in the other; without it that changes the geometry by rounding errors.", "quantifier": "every pair of histories differing only in those values", "why_tests_cant": "Non-interference is a two-run property.", "anchors": ["ink_stroke_modeler/stroke_modeler.cc:ModelStylus", "ink_stroke_modeler/internal/stylus_state_modeler.cc"]}
{"id": "C48", "title": "Default parameters are rejected", "statement": "A default-constructed StrokeModelParams is always rejected by Reset, also after setting any subset of the fields that leaves one of the -1 placeholders (rate, stopping distance, or the enabled smoother's) in place.", "quantifier": "every completion of the parameters that keeps a placeholder", "why_tests_cant": "All completions.", "anchors": ["ink_stroke_modeler/params.cc", "ink_stroke_modeler/params.h"]}
{"id": "C49", "title": "Finite inputs give finite results", "statement": "If Update or Predict succeeds, all numbers in the results are finite (no overflow, no NaN). False without restrictions: two inputs whose times differ by less than the smallest float make the stylus-state velocity infinite, and the result is NaN. Holds for strokes of up to 2^20 results whose inputs have coordinates up to 2^30, times up to 2^31 s that are equal or at least 2^-20 s apart with exact differences, with a spring and drag that the output rate can follow (2*drag <= rate, 2 <= rate*spring*drag; the recommended values do) and, if smoothing is on, coordinates up to 2^26, a timeout between 2^-10 and 2^20 s, at most 2^18*timeout/(timeout+longest pause) inputs and no Move rejected for needing too many results; for Kalman predictions, also: process and measurement noise for which the computed sequence of filter gains passes a stated check (the ones of kalman_predictor_test.cc do), weights up to 1, a prediction interval up to 1 s, up to 2^20 predicted results, and kept timestamps that are on average at least 2^-11 s apart.", "quantifier": "every history with such a stroke in progress, every binary32/binary64 value in these ranges", "why_tests_cant": "A stroke is a long feedback loop of rounded operations; that no sequence of inputs makes it blow up needs an energy argument, and the counterexamples need extreme but valid time stamps.", "anchors": ["ink_stroke_modeler/internal/stylus_state_modeler.cc:StylusStateModeler::Update", "ink_stroke_modeler/stroke_modeler.cc:ModelStylus", "ink_stroke_modeler/internal/prediction/kalman_predictor.cc:KalmanPredictor::ConstructPrediction"]}
{"id": "C50", "title": "Angle-based upsampling keeps each step below the limit", "statement": "With max_estimated_angle_to_traverse_per_input set, the number of results of a Move is at least the estimated turning angle divided by the limit, where the estimated angle is the angle in [0, pi] between the current tip velocity and its estimate after the input (exact arithmetic).", "quantifier": "every stroke and limit", "why_tests_cant": "All velocities and angles.", "anchors": ["ink_stroke_modeler/internal/position_modeler.cc:NumberOfStepsBetweenInputs", "ink_stroke_modeler/types.cc:AbsoluteAngleTo"]}
{"id": "C51", "title": "A valid next input is accepted", "statement": "On a configured modeler (exact arithmetic, orientations at most 2pi, no Kalman prediction) a Down with no stroke in progress is accepted; during a stroke a Move or Up that is not earlier than and not identical to the last accepted input is accepted whenever the time gap and the turning angle need fewer than max_outputs_per_call results, and an input whose time gap alone needs more than max_outputs_per_call results is rejected with InvalidArgument.", "quantifier": "every history and every next input", "why_tests_cant": "Acceptance must be shown for every state a history can lead to.", "anchors": ["ink_stroke_modeler/stroke_modeler.cc:StrokeModeler::Update", "ink_stroke_modeler/internal/position_modeler.cc:NumberOfStepsBetweenInputs"]}
{"id": "C52", "title": "Results do not run away from the inputs", "statement": "If no input of a stroke is farther than r from some point q (or: outside a strip of half-width w in some direction), then no result of the stroke, of the next Update, or of a stroke-end prediction is farther than 3.5 r from q (outside the strip of half-width 3.5 w), however long the stroke is and with smoothing, loop mitigation and projection on or off. Exact arithmetic, for parameters with 1 <= spring*drag^2 <= 3 and rate*spring*drag >= 4 (the recommended ones have 1.76 and 4.4). In single/double precision, with smoothing off, every result of a stroke of any length stays finite and within 4.25 b in each coordinate when the inputs are within b of the origin in each coordinate. False for valid parameters with too low an output rate.", "quantifier": "every history, every stroke of any length, every input position and timing", "why_tests_cant": "The spring model is a feedback loop; a bound that does not grow with the number of inputs needs an energy (Lyapunov) argument.", "anchors": ["ink_stroke_modeler/internal/position_modeler.cc:PositionModeler::Update", "ink_stroke_modeler/internal/position_modeler.cc:ModelEndOfStroke", "ink_stroke_modeler/internal/wobble_smoother.cc:WobbleSmoother::Update", "ink_stroke_modeler/params.h:SamplingParams"]}
{"id": "C53", "title": "AbsoluteAngleTo is the angle between two vectors", "statement": "Vec2::AbsoluteAngleTo fails exactly when a coordinate is not finite; otherwise its value is the same both ways round and lies between 0 and the largest value of acosf. In exact arithmetic it is the angle in [0, pi] between the vectors, 0 if one is zero. In single precision, for vectors of length 2^-60 to 2^100, it is the arc cosine of a number in [-1, 1] that is within 2^-19 of the cosine of that angle. False for finite vectors whose length overflows: they are at a right angle to themselves.", "quantifier": "every pair of vectors, all binary32 values", "why_tests_cant": "All pairs of vectors; the failure needs lengths that overflow.", "anchors": ["ink_stroke_modeler/types.cc:AbsoluteAngleTo", "ink_stroke_modeler/types.h:Vec2"]}
{"id": "C54", "title": "The four quarter turns and four reflections commute with modeling, to the last bit", "statement": "In single/double precision: if every position given is turned by a multiple of 90 degrees about the origin, or reflected in an axis or a diagonal, then every call has the same status, returns as many results, at the same times, with the same pressure, tilt and orientation, and with positions, velocities and accelerations that are exactly the turned or reflected ones (up to the sign of zeros). This includes predictions, Save/Restore and inputs that overflow. Reflections require projection along the stroke normal to be off. Also, 0.0f and -0.0f as coordinates of positions lead to the same results up to the sign of zeros.", "quantifier": "every history, every parameter, every binary32/binary64 value", "why_tests_cant": "One coordinate treated differently from the other anywhere in the pipeline, in some corner of the state space, would break it; tests compare a few strokes up to a tolerance.", "anchors": ["ink_stroke_modeler/types.h:Vec2", "ink_stroke_modeler/internal/position_modeler.cc:PositionModeler::Update", "ink_stroke_modeler/internal/wobble_smoother.cc:WobbleSmoother::Update", "ink_stroke_modeler/internal/stylus_state_modeler.cc:StylusStateModeler::Query", "ink_stroke_modeler/internal/prediction/kalman_predictor.cc:KalmanPredictor::Update"]}
{"id": "C55", "title": "max_outputs_per_call decides only which calls are rejected", "statement": "If no call of a history was rejected for asking for more samples than max_outputs_per_call, then the same history with that parameter raised to any value gets exactly the same answers, bit by bit, predictions and Save/Restore included; and the same history with the parameter lowered to K does too, as long as no Update added more than K results.", "quantifier": "every history, every parameter, every new limit", "why_tests_cant": "Compares two runs of the whole modeler over arbitrary histories; a limit that also trimmed, resampled or leaked into prediction would show only for particular strokes.", "anchors": ["ink_stroke_modeler/internal/position_modeler.cc:NumberOfStepsBetweenInputs", "ink_stroke_modeler/stroke_modeler.cc:StrokeModeler::ProcessMoveEvent", "ink_stroke_modeler/stroke_modeler.cc:StrokeModeler::ProcessUpEvent", "ink_stroke_modeler/params.h:SamplingParams"]}
{"id": "C56", "title": "A more patient end of stroke only adds results", "statement": "Raising end_of_stroke_max_iterations and lowering end_of_stroke_stopping_distance changes no answer before the Up; the results of the Up, and of a stroke-end prediction, are then the same ones followed by zero or more others. (Exception: an Up that yields just one result may yield others in its place.)", "quantifier": "every history up to the end of the first stroke, every parameter, both parameters changed at will", "why_tests_cant": "Compares two runs of the whole modeler; the end-of-stroke loop also halves its time step when it overshoots, so that the common part is not obvious.", "anchors": ["ink_stroke_modeler/internal/position_modeler.h:PositionModeler::ModelEndOfStroke", "ink_stroke_modeler/stroke_modeler.cc:StrokeModeler::ProcessUpEvent", "ink_stroke_modeler/internal/prediction/stroke_end_predictor.cc:StrokeEndPredictor::ConstructPrediction", "ink_stroke_modeler/params.h:SamplingParams"]}
{"id": "C57", "title": "The predictor never influences the results of Update", "statement": "Two clients that make the same calls, but with different prediction parameters (none, stroke-end, or Kalman with any settings), get exactly the same answers to every call but Predict: the same statuses and the same results, bit by bit, Save/Restore and several strokes included.", "quantifier": "every history, every pair of prediction parameters of equal validity", "why_tests_cant": "Compares two runs of the whole modeler over arbitrary histories; the predictor is updated inside Update and saved and restored with the rest.", "anchors": ["ink_stroke_modeler/stroke_modeler.cc:StrokeModeler::ProcessDownEvent", "ink_stroke_modeler/stroke_modeler.cc:StrokeModeler::ProcessMoveEvent", "ink_stroke_modeler/stroke_modeler.cc:StrokeModeler::Predict", "ink_stroke_modeler/stroke_modeler.cc:StrokeModeler::Save", "ink_stroke_modeler/stroke_modeler.cc:StrokeModeler::Restore"]}
{"id": "C58", "title": "Pressure, tilt and orientation are modeled independently", "statement": "Two clients that make the same calls, but whose inputs differ in the values of known readings of one or two of pressure, tilt and orientation, get the same statuses, the same geometry and exactly the same values of the remaining readings, in Update and Predict alike, Save/Restore and several strokes included. (A change of readings that makes an input a duplicate of its predecessor, or no longer one, is not considered.)", "quantifier": "every history, every parameter, every change of the other known readings", "why_tests_cant": "Compares two runs of the whole modeler over arbitrary histories; the three readings share one queue, one projection and one interpolation, where a mixed-up field shows only for readings that differ.", "anchors": ["ink_stroke_modeler/internal/stylus_state_modeler.cc:StylusStateModeler::Update", "ink_stroke_modeler/internal/stylus_state_modeler.cc:StylusStateModeler::Query", "ink_stroke_modeler/internal/utils.cc:InterpResult", "ink_stroke_modeler/stroke_modeler.cc:ModelStylus"]}
