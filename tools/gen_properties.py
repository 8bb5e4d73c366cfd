#!/usr/bin/env python3
"""Writes properties.jsonl."""
import json
M='ink_stroke_modeler/'
SM=M+'stroke_modeler.cc'; SH=M+'stroke_modeler.h'; PH=M+'params.h'; PC=M+'params.cc'; TC=M+'types.cc'; TH=M+'types.h'
I=M+'internal/'
WS=I+'wobble_smoother.cc'; PO=I+'position_modeler.cc'; POH=I+'position_modeler.h'; LO=I+'loop_contraction_mitigation_modeler.cc'
ST=I+'stylus_state_modeler.cc'; UH=I+'utils.h'; UC=I+'utils.cc'; KP=I+'prediction/kalman_predictor.cc'; KF=I+'prediction/kalman_filter/kalman_filter.cc'; SE=I+'prediction/stroke_end_predictor.cc'; AX=I+'prediction/kalman_filter/axis_predictor.cc'; VA=I+'validation.h'
P=[]
def p(title, statement, quantifier, why, *anchors):
    P.append(dict(id=f'C{len(P)+1:02d}', title=title, statement=statement, quantifier=quantifier, why_tests_cant=why, anchors=list(anchors)))

p('An unconfigured modeler does nothing',
  'Until a call to Reset(params) has succeeded, Update, Predict and the parameterless Reset all return FailedPrecondition, Update leaves the caller\'s vector exactly as it was, Predict leaves it empty, and Save/Restore have no observable effect; this stays so however often those calls are made and even if Reset(params) is called with invalid parameters any number of times.',
  'every history of API calls in which no Reset(params) succeeds',
  'Histories are unbounded and include failed Resets and Save/Restore in any order; a test tries one or two first calls.',
  SM+':StrokeModeler::Update', SM+':StrokeModeler::Predict', SM+':StrokeModeler::Reset')
p('Reset accepts exactly the documented parameters',
  'Reset(params) returns OK exactly when the parameters satisfy the constraints documented in params.h (positive finite constants, output rate, stopping distance; 1..1000 end iterations; angle limit -1 or in (0, pi); sample-count and duration constraints of the selected projection mode; ordered speed bounds and ordered strengths within [0,1] when loop mitigation is on, which also needs normal projection; ...), and otherwise returns InvalidArgument. Caveat found: NaN loop-mitigation values and a NaN baseline linearity confidence are accepted.',
  'every parameter struct, all float and double values including NaN, infinities, zeros and subnormals',
  'The parameter space has some 30 numeric fields with NaN/infinity corner cases; unit tests poke one field at a time.',
  PC+':ValidateStrokeModelParams', PH, VA)
p('A failed Reset changes nothing',
  'If Reset(params) returns an error, the modeler afterwards answers every later call exactly as if that Reset had never been made.',
  'every modeler history, every invalid parameter struct, every continuation of calls',
  'Needs equality of all futures, not of one follow-up call.',
  SM+':StrokeModeler::Reset')
p('A failed Update leaves results unmodified',
  'Whenever Update returns an error the caller\'s results vector has exactly its previous contents, whatever the error.',
  'every modeler history, every input, every prior vector contents',
  'There are a dozen error exits, several data dependent (e.g. non-finite velocity).',
  SM+':StrokeModeler::Update', SH)
p('Update only appends, and never looks at what is there',
  'A successful Update leaves the previous contents of the vector as a prefix, and the results appended, the status and the modeler\'s future behaviour do not depend on what the vector contained.',
  'every history, every input, every pair of prior vectors',
  'Two-run (hyper) property over all vectors.',
  SM+':StrokeModeler::Update', SH)
p('Every successful Update yields at least one result',
  'If Update does not return an error it appends at least one Result: exactly one for Down, at least one for Up, and for Move the number of upsampled steps. Documented for every event; refuted for a Move carrying the same timestamp as the previous input, which succeeds with zero results; proved for Down, Up and every Move at a strictly later time whose float time difference is not zero.',
  'every history, every accepted input',
  'The failing case needs equal timestamps with a differing position; no test has a Move like that.',
  SH, SM+':ProcessDownEvent', SM+':ProcessUpEvent', SM+':ProcessMoveEvent')
p('Only well-formed strokes are accepted',
  'In any history the accepted Update events between two Resets (with no Restore) form a prefix of (Down Move* Up)*; a Down during a stroke and a Move or Up outside one are always rejected with FailedPrecondition or InvalidArgument, and whether a stroke is in progress is determined by the accepted events alone.',
  'every history of API calls',
  'Language inclusion over unbounded event sequences with rejected events interleaved.',
  SM+':StrokeModeler::Update')
p('Accepted time never runs backwards and duplicates are rejected',
  'Within a stroke an input earlier than the last accepted input is rejected with InvalidArgument, as is an input equal to it in every field, and neither changes anything; consequently the times of the accepted inputs of a stroke never decrease.',
  'every history, every input',
  'All orders and ties of floating-point timestamps, over unbounded strokes.',
  SM+':StrokeModeler::Update', TH+':operator==')
p('Malformed inputs are rejected without effect',
  'An input with a NaN or infinite position coordinate or time, or with an event type that is not Down, Move or Up, is always rejected with InvalidArgument and has no effect on any later call.',
  'every configured modeler, every such input, every continuation',
  'All NaN/infinity placements in all modeler states, and all futures.',
  TC+':ValidateInput', SM+':StrokeModeler::Update')
p('A rejected Update leaves no trace',
  'If Update returns an error, every later call behaves as if it had not been made. Refuted for a Move rejected because it is too far (in time) from its predecessor or its velocity estimate is not finite: by then the smoother and the stylus history have been modified, and later results change. Proved for every other error, including the same errors on Up.',
  'every history, every rejected input, every continuation',
  'The trace is internal state that only shows up in later outputs.',
  SM+':ProcessMoveEvent', SM+':StrokeModeler::Update')
p('Down echoes the input',
  'A successful Down appends exactly one Result: the input\'s position, time, pressure, tilt and orientation, with zero velocity and acceleration, whatever happened before.',
  'every history, every accepted Down',
  'All prior histories (including Restores) and all values.',
  SM+':ProcessDownEvent')
p('Predict never changes the modeler',
  'Inserting or removing any number of Predict calls anywhere in a history does not change the reply to any other call; in particular two consecutive Predicts give the same answer.',
  'every history, every insertion of Predict calls',
  'Quantifies over all futures; the tip buffer and the loop-mitigation history are really touched by Predict.',
  SM+':StrokeModeler::Predict', SH)
p('Predict replaces the vector and fails exactly when it should',
  'Predict returns FailedPrecondition exactly when the modeler is unconfigured, no predictor is available, or no stroke is in progress, and then leaves the vector empty; otherwise it succeeds and the vector holds exactly the prediction, independent of its previous contents. A predictor is available exactly when the last successful Reset enabled prediction, or a Restore since then brought back one that was saved, even under older parameters (against the documentation, by which disabled prediction stays disabled).',
  'every history, every prior vector',
  'All modeler states, and a two-run property over vectors.',
  SM+':StrokeModeler::Predict')
p('Restore undoes everything since Save',
  'After Save, then any calls other than Reset or another Save, then Restore, every later call gets the reply it would have got had the calls in between (and Restore) not been made. Proved when no new stroke was started in between (or none was in progress at Save) and prediction did not come back from an older configuration; refuted when a stroke ends and a new one begins between Save and Restore.',
  'every history before Save, every sequence of calls in between, every continuation after Restore',
  'Observational equivalence over three unbounded histories.',
  SM+':StrokeModeler::Save', SM+':StrokeModeler::Restore', SH)
p('Save is invisible until Restore',
  'Inserting a Save anywhere in a history changes no reply to any call up to the next Restore.',
  'every history, every insertion point',
  'All futures.', SM+':StrokeModeler::Save')
p('Restore without an active Save does nothing',
  'Restore has no effect on any later call if Save has never been called or a successful Reset (either form) happened since the last Save.',
  'every history, every continuation',
  'All futures, and stale per-component save flags that only a later call could expose.',
  SM+':StrokeModeler::Restore', SM+':ResetInternal')
p('Restore keeps the saved state',
  'Restoring again later, after any further calls that do not Save, Reset or start a new stroke, brings back exactly the same behaviour: the saved state can be restored any number of times.',
  'every history, every interleaving, every continuation',
  'All futures.', SM+':StrokeModeler::Restore')
p('Reset(params) makes the modeler as good as new',
  'After a successful Reset(params) every later call is answered exactly as by a newly constructed modeler after the same Reset. Refuted in one corner: a predictor saved under an older configuration survives, so Reset with prediction disabled, Save, Restore brings prediction back; proved when prediction is enabled or no predictor was ever saved, or no Restore follows.',
  'every earlier history, every valid parameter struct, every continuation',
  'Requires that no component leaks state in any future.',
  SM+':StrokeModeler::Reset')
p('Reset() equals Reset with the same parameters',
  'On a configured modeler the parameterless Reset always succeeds and every later call is answered as if Reset had been called with the current parameters again.',
  'every history, every continuation',
  'Reset() leaves all components un-reset; that this is invisible is a statement about all futures.',
  SM+':StrokeModeler::Reset')
p('Strokes are independent',
  'Once a stroke has ended with a successful Up, what the modeler answers to the following strokes does not depend on any earlier stroke: it is what a newly constructed modeler reset with the same parameters answers.',
  'every history ending in an accepted Up with no active Save, every continuation',
  'All pairs of histories and all continuations.',
  SM+':ProcessUpEvent', SM+':ProcessDownEvent')
p('Output per call is bounded by max_outputs_per_call',
  'No Update or Predict produces more than max_outputs_per_call results; an input that would need more is rejected. Proved for Down and Move; refuted for Up (which adds up to end_of_stroke_max_iterations) and for Predict (never checked); proved bounds for those: max_outputs_per_call + end_of_stroke_max_iterations for Up, end_of_stroke_max_iterations for stroke-end prediction, and for Kalman prediction (exact arithmetic) max(1, ceil(catch-up distance * min_output_rate / min_catchup_velocity)) + ceil(prediction_interval * min_output_rate).',
  'every history, every input',
  'All time gaps and all parameter combinations.',
  PO+':NumberOfStepsBetweenInputs', SM+':ProcessUpEvent', PH)
p('Output rate is at least min_output_rate',
  'A successful Move or Up covers the time since the previous input with evenly spaced results no further apart than 1/min_output_rate, the first at most one spacing after the previous input and the last of them at the time of the input.',
  'every stroke, every accepted Move/Up, every rate (exact arithmetic)',
  'All time differences and rates; ceil boundary cases.',
  PO+':NumberOfStepsBetweenInputs', POH+':UpdateAlongLinearPath', PH)
p('Result times never go backwards',
  'Within a stroke the times of all results, over all Updates, never decrease, lie between the times of the inputs (except in the modeled end of the stroke), and Move results end exactly at the input time. True in exact arithmetic; in floating point the last result of a Move can differ from the input time and exceed the first result of the next by rounding.',
  'every stroke of any length',
  'Monotonicity over unbounded strokes.',
  POH+':UpdateAlongLinearPath', POH+':ModelEndOfStroke')
p('The end of the stroke approaches the pen-up point',
  'The results an Up adds beyond its own time get strictly closer to the pen-up position, each step of at least the stopping distance, at most end_of_stroke_max_iterations of them, at times separated by at most 1/min_output_rate; they stop only when within the stopping distance, when the next step would be shorter than the stopping distance, or when iterations run out.',
  'every stroke, every Up (exact arithmetic for distances)',
  'All spring constants, velocities and positions; the loop halves its step data-dependently.',
  POH+':ModelEndOfStroke')
p('Stroke-end prediction is what lifting the pen would give',
  'With stroke-end prediction, the prediction has the same positions, velocities, accelerations and times as the results an Up at the last input\'s position and time would produce (before its stylus state is added), when wobble smoothing is off. With smoothing on it is anchored at the smoothed position instead. This is up to rounding: in binary32/binary64 it is exact for a stroke without known stylus data and with the angle limit off; with the limit on, rounding can give the Up one result more.',
  'every stroke, every point in it',
  'Equality of two code paths in all states.',
  SE+':ConstructPrediction', SM+':ProcessUpEvent', PH)
p('An unknown stylus field stays unknown',
  'Once an accepted input of a stroke has a negative (or NaN) pressure, every later Update or Predict result of that stroke reports pressure exactly -1; likewise tilt and orientation, each independently of the others.',
  'every stroke, every point in it, each field',
  'Must hold for all later inputs of the stroke and all interpolation paths.',
  ST+':StylusStateModeler::Update', ST+':StylusStateModeler::Query', UC+':InterpResult')
p('Known pressure stays within [0, 1]',
  'If every input of a stroke has pressure in [0, 1] then every result of the stroke, predictions included, has pressure in [0, 1] - in floating point, with no rounding slack. More generally in exact arithmetic every known field lies between the smallest and largest input value.',
  'every stroke, every binary32 pressure in [0,1]',
  'Rounding could exceed the bound by one ulp for some of 2^60 value pairs.',
  UH+':Interp', UC+':InterpResult', ST+':Query')
p('Reported orientation is in [0, 2pi)',
  'Every orientation reported by Update for a Move or Up, or by Predict, is either exactly -1 or in [0, 2pi) - in floating point.',
  'every stroke, all binary32 orientations for which the call returns',
  'Depends on where 2pi falls between binary32 numbers; the code only removes values > 2pi.',
  UH+':InterpAngle')
p('Angles are interpolated the short way round',
  'The orientation reported between two inputs is reached from the first by turning through at most half a turn, the fraction of the turn given by the interpolation ratio; pressure and tilt are interpolated linearly with the same ratio between the same two inputs. Exactly so in exact arithmetic, up to a few millionths in floating point.',
  'every pair of orientations and ratio',
  'All angle pairs across the wraparound.',
  UH+':InterpAngle')
p('Stylus memory is bounded by its parameters',
  'With closest-point projection at most max_input_samples inputs are retained. With normal projection at least min_input_samples are retained once received, the retained inputs are always the most recent ones, and dropping the oldest would leave less than min_sample_duration or fewer than min_input_samples.',
  'every stroke of any length, every parameter value',
  'Unbounded strokes.',
  ST+':ShouldDropOldestInput', PH)
p('The closest-point projection is closest',
  'With closest-point projection the reported pressure, tilt and orientation are those of the point of the polyline of retained inputs that is nearest to the modeled position, among all points of all segments (exact arithmetic); with a single retained input they are that input\'s.',
  'every polyline and every modeled position',
  'Optimality over a continuum of points.',
  ST+':ProjectToClosestPoint', UH+':NearestPointOnSegment')
p('The normal projection lies on the normal',
  'With normal projection, when a projection is found the projected point lies both on the retained input polyline and on the line through the modeled position along the stroke normal, and it is the nearest such crossing on its side of the stroke (exact arithmetic); otherwise the nearer end of the polyline is used.',
  'every polyline, position and normal',
  'Geometric optimality over all configurations.',
  ST+':ProjectAlongStrokeNormal', UC+':ProjectToSegmentAlongNormal')
p('Without loop mitigation the results are the spring model',
  'When loop contraction mitigation is disabled, positions, velocities and accelerations of all results are those of the spring model alone: they do not depend on the projection mode or on the stylus data (exact arithmetic), and the other mitigation parameters have no influence at all.',
  'every stroke; every setting of the unused parameters',
  'Two-run property over all strokes and settings.',
  SM+':ModelStylus', LO)
p('Loop mitigation strength is in range and falls with speed',
  'The weight given to the spring model always lies between the two configured strengths (so in [0,1]); it is the lower-bound strength at or below the lower speed bound, the upper-bound strength at or above the upper bound, never increases with average speed, and with mitigation on every reported position lies on the segment between the projected and the spring position (exact arithmetic).',
  'every speed history and all valid parameters',
  'A continuum of speeds and settings.',
  LO+':GetInterpolationValue', LO+':Update')
p('Disabled wobble smoothing is the identity',
  'With wobble smoothing disabled, the other smoothing parameters have no influence on any reply.',
  'every stroke, every setting of the unused parameters',
  'Two-run property.',
  WS+':WobbleSmoother::Update')
p('Wobble smoothing never leaves the recent path',
  'In exact arithmetic the smoothed position is between the raw position and the duration-weighted average of the raw positions in the timeout window: inside the bounding box of the recent raw inputs, equal to the raw input when the average speed is at or above speed_ceiling, and equal to the moving average when at or below speed_floor.',
  'every stroke, all valid smoothing parameters, strictly increasing times',
  'All input sequences; running sums must equal the sums over the window at all times.',
  WS+':WobbleSmoother::Update', PH)
p('A resting pen stays put',
  'If all inputs of a stroke have the same position, every result (Update and stroke-end Predict) has exactly that position and zero velocity and acceleration: in exact arithmetic always; in floating point to the last bit with smoothing off, times of at most 2^100 s that are equal or at least 2^-149 s apart, an output rate of at least 2^-100 and finite mitigation bounds. (Times closer than that make the code divide 0 by 0.)',
  'every stroke at a fixed position, any timing',
  'All times and all finite positions, with rounding.',
  PO+':PositionModeler::Update', SM+':ModelStylus')
p('The tip follows the documented spring-drag law',
  'Every modeled state is obtained from the previous one by acceleration = (anchor - position)/spring_mass_constant - drag_constant*velocity, velocity += dt*acceleration, position += dt*velocity, where the anchors interpolate linearly from the previous input to the current one.',
  'every stroke (exact arithmetic)',
  'Recurrence over unbounded strokes.',
  PO+':PositionModeler::Update', POH+':UpdateAlongLinearPath', 'README.md')
p('Kalman prediction waits for enough inputs',
  'With Kalman prediction, Predict succeeds with an empty vector until min_stable_iteration inputs of the stroke have been accepted and returns at least one result from then on.',
  'every stroke, every min_stable_iteration',
  'Unbounded strokes, with Save/Restore.',
  KP+':GetEstimatedState', KP+':ConstructPrediction')
p('The prediction connects smoothly',
  'The first part of a Kalman prediction is a curve that starts at the current tip position and velocity and whose last point has exactly the estimated position and velocity; the second part continues from there (exact arithmetic); its times step by 1/min_output_rate from the time of the last result.',
  'every Kalman state and parameters',
  'Continuum of states.',
  KP+':ConstructCubicConnector', KP+':ConstructCubicPrediction')
p('Prediction confidence is in [0,1] and limits the extension',
  'The part of a Kalman prediction beyond the catch-up has at most ceil(prediction_interval * min_output_rate) results, because the confidence is always in [0, 1]; its duration is below prediction_interval + 1/min_output_rate. The documentation claims the duration is never greater than prediction_interval, which is refuted (the count is rounded up).',
  'every Kalman state and valid parameters (exact arithmetic)',
  'All states; products of four heuristics.',
  KP+':NumberOfPointsToPredict', PH)
p('The Kalman filter is well conditioned',
  'In exact arithmetic, for any observations, the error covariance stays symmetric positive semidefinite and the innovation variance stays at least the measurement noise, so the filter never divides by zero.',
  'every sequence of observations of any length, all positive noise values',
  'Invariant of an unbounded recursion.',
  KF+':KalmanFilter::Update', AX)
p('The Kalman filter trusts a resting pen',
  'If all inputs of a stroke are at the same position, the Kalman estimate is exactly that position with zero velocity, acceleration and jerk, and Predict offers at most one result, at that position and at rest. Without smoothing this holds exactly in floating point too.',
  'every number of inputs and all noise values',
  'Unbounded recursion.',
  KF+':KalmanFilter::Update')
p('The modeler is unit- and coordinate-agnostic',
  'Scaling, rotating or translating all input positions (with distance-valued parameters scaled accordingly), or shifting and rescaling time (with time-valued parameters rescaled), transforms every result the same way (exact arithmetic). The code has two absolute constants that limit this: the loop-mitigation window may be at most 10000 time units, and a Kalman prediction caps a distance at the largest float, so with a Kalman predictor distances are rotated, translated but not scaled. The variances of the Kalman filter are kept as they are. Mirroring is included when stylus values are projected to the closest point; projection along the stroke normal distinguishes left from right.',
  'every history, every similarity transform',
  'Two-run property over all transforms and histories.',
  SH, PH)
p('Update never runs into undefined behaviour',
  'With valid parameters and max_outputs_per_call below INT_MAX, no history of calls makes Update, Reset, Save or Restore, or Predict with stroke-end prediction, convert an unrepresentable float to int, access an empty queue or overflow a counter. For Kalman Predict this is refuted: a huge estimate makes a float-to-int conversion undefined.',
  'every history, all floating-point inputs',
  'All of the floating-point input space; needs invariants on queues and reasoning about NaN.',
  PO, ST, WS, KP)
p('Update terminates for orientations in range',
  'If all orientations given are in [0, 2pi] or unknown, no call loops more than a bounded number of times: the angle normalisation loops run at most once. Refuted outside the documented range: an orientation of 1e30 makes Update loop forever.',
  'every history, all binary32 orientations',
  'Non-termination for some inputs is invisible to finite tests; absence of it needs a ranking argument with rounding.',
  UH+':InterpAngle')
p('Stylus data never influences the geometry',
  'Two strokes whose inputs differ only in the values of known pressure, tilt and orientation produce the same statuses and the same positions, velocities, accelerations and times in all results and predictions. With use_stroke_normal_projection the readings may also be known in one and unknown in the other; without it that changes the geometry by rounding errors.',
  'every pair of histories differing only in those values',
  'Non-interference is a two-run property.',
  SM+':ModelStylus', ST)
p('Default parameters are rejected',
  'A default-constructed StrokeModelParams is always rejected by Reset, also after setting any subset of the fields that leaves one of the -1 placeholders (rate, stopping distance, or the enabled smoother\'s) in place.',
  'every completion of the parameters that keeps a placeholder',
  'All completions.',
  PC, PH)
p('Finite inputs give finite results',
  'If Update or Predict succeeds, all numbers in the results are finite (no overflow, no NaN). False without restrictions: two inputs whose times differ by less than the smallest float make the stylus-state velocity infinite, and the result is NaN. Holds for strokes of up to 2^20 results whose inputs have coordinates up to 2^30, times up to 2^31 s that are equal or at least 2^-20 s apart with exact differences, with a spring and drag that the output rate can follow (2*drag <= rate, 2 <= rate*spring*drag; the recommended values do) and, if smoothing is on, coordinates up to 2^26, a timeout between 2^-10 and 2^20 s, at most 2^18*timeout/(timeout+longest pause) inputs and no Move rejected for needing too many results; for Kalman predictions, also: process and measurement noise for which the computed sequence of filter gains passes a stated check (the ones of kalman_predictor_test.cc do), weights up to 1, a prediction interval up to 1 s, up to 2^20 predicted results, and kept timestamps that are on average at least 2^-11 s apart.',
  'every history with such a stroke in progress, every binary32/binary64 value in these ranges',
  'A stroke is a long feedback loop of rounded operations; that no sequence of inputs makes it blow up needs an energy argument, and the counterexamples need extreme but valid time stamps.',
  ST+':StylusStateModeler::Update', SM+':ModelStylus', 'ink_stroke_modeler/internal/prediction/kalman_predictor.cc:KalmanPredictor::ConstructPrediction')
p('Angle-based upsampling keeps each step below the limit',
  'With max_estimated_angle_to_traverse_per_input set, the number of results of a Move is at least the estimated turning angle divided by the limit, where the estimated angle is the angle in [0, pi] between the current tip velocity and its estimate after the input (exact arithmetic).',
  'every stroke and limit',
  'All velocities and angles.',
  PO+':NumberOfStepsBetweenInputs', TC+':AbsoluteAngleTo')
p('A valid next input is accepted',
  'On a configured modeler (exact arithmetic, orientations at most 2pi, no Kalman prediction) a Down with no stroke in progress is accepted; during a stroke a Move or Up that is not earlier than and not identical to the last accepted input is accepted whenever the time gap and the turning angle need fewer than max_outputs_per_call results, and an input whose time gap alone needs more than max_outputs_per_call results is rejected with InvalidArgument.',
  'every history and every next input',
  'Acceptance must be shown for every state a history can lead to.',
  SM+':StrokeModeler::Update', PO+':NumberOfStepsBetweenInputs')
p('Results do not run away from the inputs',
  'If no input of a stroke is farther than r from some point q (or: outside a strip of half-width w in some direction), then no result of the stroke, of the next Update, or of a stroke-end prediction is farther than 3.5 r from q (outside the strip of half-width 3.5 w), however long the stroke is and with smoothing, loop mitigation and projection on or off. Exact arithmetic, for parameters with 1 <= spring*drag^2 <= 3 and rate*spring*drag >= 4 (the recommended ones have 1.76 and 4.4). In single/double precision, with smoothing off, every result of a stroke of any length stays finite and within 4.25 b in each coordinate when the inputs are within b of the origin in each coordinate. False for valid parameters with too low an output rate.',
  'every history, every stroke of any length, every input position and timing',
  'The spring model is a feedback loop; a bound that does not grow with the number of inputs needs an energy (Lyapunov) argument.',
  PO+':PositionModeler::Update', PO+':ModelEndOfStroke', WS+':WobbleSmoother::Update', PH+':SamplingParams')
p('AbsoluteAngleTo is the angle between two vectors',
  'Vec2::AbsoluteAngleTo fails exactly when a coordinate is not finite; otherwise its value is the same both ways round and lies between 0 and the largest value of acosf. In exact arithmetic it is the angle in [0, pi] between the vectors, 0 if one is zero. In single precision, for vectors of length 2^-60 to 2^100, it is the arc cosine of a number in [-1, 1] that is within 2^-19 of the cosine of that angle. False for finite vectors whose length overflows: they are at a right angle to themselves.',
  'every pair of vectors, all binary32 values',
  'All pairs of vectors; the failure needs lengths that overflow.',
  TC+':AbsoluteAngleTo', 'ink_stroke_modeler/types.h:Vec2')
p('The four quarter turns and four reflections commute with modeling, to the last bit',
  'In single/double precision: if every position given is turned by a multiple of 90 degrees about the origin, or reflected in an axis or a diagonal, then every call has the same status, returns as many results, at the same times, with the same pressure, tilt and orientation, and with positions, velocities and accelerations that are exactly the turned or reflected ones (up to the sign of zeros). This includes predictions, Save/Restore and inputs that overflow. Reflections require projection along the stroke normal to be off. Also, 0.0f and -0.0f as coordinates of positions lead to the same results up to the sign of zeros.',
  'every history, every parameter, every binary32/binary64 value',
  'One coordinate treated differently from the other anywhere in the pipeline, in some corner of the state space, would break it; tests compare a few strokes up to a tolerance.',
  'ink_stroke_modeler/types.h:Vec2', PO+':PositionModeler::Update', WS+':WobbleSmoother::Update', ST+':StylusStateModeler::Query', 'ink_stroke_modeler/internal/prediction/kalman_predictor.cc:KalmanPredictor::Update')
p('max_outputs_per_call decides only which calls are rejected',
  'If no call of a history was rejected for asking for more samples than max_outputs_per_call, then the same history with that parameter raised to any value gets exactly the same answers, bit by bit, predictions and Save/Restore included; and the same history with the parameter lowered to K does too, as long as no Update added more than K results.',
  'every history, every parameter, every new limit',
  'Compares two runs of the whole modeler over arbitrary histories; a limit that also trimmed, resampled or leaked into prediction would show only for particular strokes.',
  PO+':NumberOfStepsBetweenInputs', SM+':StrokeModeler::ProcessMoveEvent', SM+':StrokeModeler::ProcessUpEvent', PH+':SamplingParams')
p('A more patient end of stroke only adds results',
  'Raising end_of_stroke_max_iterations and lowering end_of_stroke_stopping_distance changes no answer before the Up; the results of the Up, and of a stroke-end prediction, are then the same ones followed by zero or more others. (Exception: an Up that yields just one result may yield others in its place.)',
  'every history up to the end of the first stroke, every parameter, both parameters changed at will',
  'Compares two runs of the whole modeler; the end-of-stroke loop also halves its time step when it overshoots, so that the common part is not obvious.',
  POH+':PositionModeler::ModelEndOfStroke', SM+':StrokeModeler::ProcessUpEvent', SE+':StrokeEndPredictor::ConstructPrediction', PH+':SamplingParams')
p('The predictor never influences the results of Update',
  'Two clients that make the same calls, but with different prediction parameters (none, stroke-end, or Kalman with any settings), get exactly the same answers to every call but Predict: the same statuses and the same results, bit by bit, Save/Restore and several strokes included.',
  'every history, every pair of prediction parameters of equal validity',
  'Compares two runs of the whole modeler over arbitrary histories; the predictor is updated inside Update and saved and restored with the rest.',
  SM+':StrokeModeler::ProcessDownEvent', SM+':StrokeModeler::ProcessMoveEvent', SM+':StrokeModeler::Predict', SM+':StrokeModeler::Save', SM+':StrokeModeler::Restore')
p('Pressure, tilt and orientation are modeled independently',
  'Two clients that make the same calls, but whose inputs differ in the values of known readings of one or two of pressure, tilt and orientation, get the same statuses, the same geometry and exactly the same values of the remaining readings, in Update and Predict alike, Save/Restore and several strokes included. (A change of readings that makes an input a duplicate of its predecessor, or no longer one, is not considered.)',
  'every history, every parameter, every change of the other known readings',
  'Compares two runs of the whole modeler over arbitrary histories; the three readings share one queue, one projection and one interpolation, where a mixed-up field shows only for readings that differ.',
  ST+':StylusStateModeler::Update', ST+':StylusStateModeler::Query', 'ink_stroke_modeler/internal/utils.cc:InterpResult', SM+':ModelStylus')
with open('/verif/properties.jsonl','w') as f:
    for q in P: f.write(json.dumps(q)+'\n')
print(len(P))
