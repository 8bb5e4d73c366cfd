# A formal model of ink-stroke-modeler in Rocq

## 1. What is modelled

Everything the public class `StrokeModeler` does, function by function:

| Rocq file (`rocq/theories/`) | C++ |
|---|---|
| `Arith.v` | the arithmetic the code uses (`float`, `double`, conversions, `<cmath>`), as a record; outcomes of a call |
| `Types.v` | `types.h`, `types.cc`, `internal_types.h`: `Vec2`, `Input`, `Result`, `TipState`, `absl::Status`, `ValidateInput` |
| `Params.v` | `params.h`, `params.cc`, `validation.h`: all parameter structs, their defaults and validation |
| `Utils.v` | `internal/utils.h`, `utils.cc` |
| `Wobble.v` | `internal/wobble_smoother.cc` |
| `Position.v` | `internal/position_modeler.{h,cc}` |
| `Loop.v` | `internal/loop_contraction_mitigation_modeler.cc` |
| `Stylus.v` | `internal/stylus_state_modeler.cc` |
| `Kalman.v` | `internal/prediction/kalman_filter/*`, `kalman_predictor.cc` |
| `Modeler.v` | `stroke_modeler.{h,cc}`, `stroke_end_predictor.cc`; a history of API calls is a list of `call`, executed by `run` |
| `Ieee.v` | arithmetic instance: IEEE binary32/binary64, round to nearest even (Flocq) |
| `RealA.v` | arithmetic instance: the real numbers |
| `Fidelity.v` | conformance tests: the repository's unit tests replayed on the IEEE instance |

Every definition carries a comment with the file and lines it models.

### One model, several arithmetics
The model is written once, over a record `Arith` of arithmetic operations
(`float` type `F`, `double` type `D`, every operator and library function the
code uses). Three kinds of theorem follow.

* **[A]** for every `Arith` whatsoever: facts about control flow and data flow
  (which call fails, what is appended, what Save/Restore does). They hold for
  IEEE arithmetic in particular, including NaN, infinities and rounding.
* **[F]** for `ieee acosf`: bit-exact binary32/binary64 arithmetic as
  formalised by Flocq. `acosf` is an arbitrary function parameter, because
  the C standard does not specify its rounding; where a theorem needs it, the
  hypothesis that `acosf` returns a finite value in [0, pi-ish] on [-1, 1] is
  in the statement.
* **[R]** for `real_arith`: the algorithm in exact arithmetic. Used for
  geometric and physical statements, which are false bit for bit in floating
  point; where we know a floating point counterexample it is proved as a
  separate `_refuted` theorem.

### Outcomes
A call has outcome `Ret x`, `UB k` (undefined behaviour in C++: conversion of an
out-of-range float to `int`, signed overflow of a loop counter, `front()`/
`back()`/index on a deque that is too short) or `Diverge`
(a `while` loop ran out of the fuel argument; only the two angle-normalisation
loops have fuel, all others are structurally recursive on the number of
iterations computed by the code or on a deque).

### Simplifications (also in the comments of the definitions)
* No fused multiply-add contraction and no excess precision
  (`FLT_EVAL_METHOD == 0`); these are implementation-defined in C++. A
  `double`-to-`float` conversion that overflows gives an infinity.
* NaN payloads and signs are not distinguished (Flocq's `BinarySingleNaN`).
* `std::hypot(float,float)` is modelled as glibc's `hypotf`: computed in
  `double` and rounded once. In [A] theorems it is arbitrary.
* Exceptions (`bad_alloc`), allocator behaviour and `reserve` are not modelled;
  `size_t` sizes are unbounded integers; `std::deque` and `std::vector` are lists.
* Error messages lose the substituted field names and numbers.
* The experimental/testing hooks (`SetFrozenForTesting`-like friends, fuzz
  targets, `AbslStringify`, `operator<<`) are not modelled. 
* In the real instance every operation is total: there is no NaN or infinity,
  every value counts as finite, and `x / 0` is `0` in Coq's `Rdiv`. Theorems of
  kind [R] whose code divides by something that can be zero carry a hypothesis
  excluding it, or the code itself tests for zero first.

### Conformance of the model
`Fidelity.v` (generated by `tools/gen_fidelity.py` from the numbers in
`stroke_modeler_test.cc` and `kalman_predictor_test.cc`) runs whole unit tests
of the repository through the IEEE instance by `vm_compute` and
compares against the expected values with the tests' tolerances. It found
one transcription error in the model (a sample count off by one in the Kalman
time step) before any proof was started.

## 2. Trusted base
* Coq 8.16.1's kernel including `vm_compute` (the `coqchk` run of `vcheck` rechecks the compiled files).
* What `Print Assumptions` lists. `ASSUMPTIONS.md` (generated by `tools/gen_assumptions.py`) gives the list for
  every theorem named in `MANIFEST.json`. Only four axioms occur, all of the standard library:
  `ClassicalDedekindReals.sig_forall_dec`, `ClassicalDedekindReals.sig_not_dec`, `Classical_Prop.classic` and
  `FunctionalExtensionality.functional_extensionality_dep` (the real numbers; Flocq and Coquelicot are built on
  them). [A] theorems are closed under the global context. No axiom is added here.
* The definitions in the model files being a faithful reading of the C++, the specification definitions beside the
  theorems, and Flocq's definition of IEEE 754.
* Not modelled: see *Simplifications* above. In particular the compiler is assumed to evaluate `float`/`double`
  expressions as written, and memory allocation to succeed.

## 3. The vocabulary of the statements
All in terms of API calls and their replies; nothing looks inside the modeler.

* `call`: Update (input, vector), Predict (vector), Reset(params), Reset(), Save, Restore. `reply`: a status, or a
  status and the caller's vector. `answers fuel hist cs`: the replies to the calls `cs` made after the calls `hist`
  to a new modeler, or `UB`, or `Diverge` (`Spec.v`).
* *Observational equivalence*: `indistinguishable_by P fuel h1 h2`: every continuation `cs` satisfying `P` gets the
  same answers after `h1` and after `h2`. Proved by bisimulation on the internal states (`Sim.v`), but stated without it.
* `after hist s`: what a client who records calls and replies knows: parameters in force, last accepted input of the
  stroke in progress, and the same for the Save (`pstate`, `Spec.v`).
* `after_stroke hist s es`, `after_seen hist s es seen`: also the accepted inputs of the stroke with the results each
  produced (`es`), and the inputs that reached the smoother (`seen`; these are the accepted ones and the Moves
  rejected for needing too many results, see finding 1). Both exclude histories in which a Restore brings back a stroke
  into a modeler that has begun another (finding 2) (`Stroke.v`).
* `offers hist o`: whether prediction is available now and whether a predictor has been kept by Save, computed from
  calls and replies (`Props_Offer.v`, finding 3).
* Geometry and physics: written from the documentation and textbooks beside the theorems: `kalman` (matrix form),
  `polyline` and nearest points, `spring_step`, `window`, `confidence`, `cubic`, `strength`, `covariance`, ...

## 4. The files

| files | content |
|---|---|
| `Spec`, `Struct`, `Inv`, `Sim`, `Hist`, `Cons`, `Stroke`, `Made`, `NoUB`, `Memory` | [A] vocabulary, inversion of Update and Predict, bisimulation, invariants over all histories |
| `Props_API`, `Props_Offer` | [A] C01-C20 |
| `Props_Count`, `Props_Params`, `Props_Geom`, `Props_Kalman`, `Props_Stylus`, `Limits`, `Longer`, `Unpredicted`, `Channels`, `Unknowns` | [A] C21, C30/C33/C35, C47, C39, C26, C55, C56, C57, C58 |
| `RFacts`, `Calm`, `Quiet` | [R] facts; the same history with loop mitigation off (`Quiet` is [A]) |
| `Props_Time`, `Props_Spring`, `Props_End`, `Props_Smooth`, `Props_Proj`, `Props_Normal`, `Props_Loop`, `Props_Predict`, `Props_KCount`, `Props_Rest`, `Props_Total`, `Props_Whole`, `Props_Bounded`, `Symmetry` | [R] C22/C23, C24/C33/C38, C25/C50, C36, C29-C31, C32, C34, C40-C42, C21, C37/C43, C45/C46/C51, C51, C52, C44 |
| `FloatFacts`, `Flt`, `FltAngle`, `Stable`, `Filter`, `Noise` | [F] facts about rounding, angles, the energy of the spring and the stability of the Kalman filter |
| `Props_Range`, `Props_Safe`, `Props_Valid`, `Props_Float`, `Props_FTime`, `Props_FRate`, `Props_FRest`, `Props_Finite`, `Props_FAccept`, `Props_FKalman`, `Props_FPred`, `Props_FBounded`, `Props_FAny`, `Props_Vec`, `Mirror`, `Mirrored`, `Props_Mirror`, `Props_FLift`, `Props_FSpring`, `Props_FEnd`, `Props_FProj`, `Props_FCount`, `Props_FKRest`, `Props_FCarry`, `Props_FLoop` | [F] C27/C28/C46, C45, C02/C48, C06/C08/C09, C23, C22, C37, C49, C51, C49, C22/C23, C52, C51, C53 (also [R]), C54 (`Mirrored` is [A]), C25, C38, C24, C31, C22/C50, C43, C29/C30, C34 |
| `Demo`, `Examples_*` | concrete cases meeting the hypotheses (computed in IEEE arithmetic by `vm_compute`, or in the reals), and the `_refuted` witnesses |

`MANIFEST.json` is generated from `tools/claims.py`, `properties.jsonl` from `tools/gen_properties.py`.

## 5. Properties, and how each is proved
For the full statements see `properties.jsonl`; for the theorems and what is missing, `MANIFEST.json`.

* C01 [A] invariant "never configured": all replies of `run` from a new modeler over histories in which no Reset(params) succeeds are errors.
* C02 [F] `reset_params` succeeds iff an independently written predicate (`documented`) holds; case analysis on comparisons. NaN acceptance refuted by witnesses.
* C03 [A] the state is literally unchanged.
* C04, C05 [A] case analysis over `update`, with the vector a parameter that is only ever appended to.
* C06 [A] for Down/Up; Move count = number of steps; [F] number of steps >= 1 if the float time difference is non-zero; witness for the refutation.
* C07 [A] refinement to a 2-state protocol automaton over `run`.
* C08, C09 [A]/[F] case analysis, plus an invariant over `run` for the times.
* C10 [A] literal state equality for all other errors; [F] witnesses for the refuted case, one of which shows how far it displaces later results.
* C11 [A] direct.
* C12 [A] Predict changes only the tip buffer, which is scratch: bisimulation "equal up to buffer".
* C13 [A] `offers` mirrors the presence of the predictor objects; so Predict fails exactly when predicted by it.
* C14-C20 [A] bisimulation relations (equality up to buffer, up to components that the next Down overwrites, up to saved state when no save is active), with the exact condition on the stale predictor in terms of `offers`; witnesses by `vm_compute` [F] for the refuted parts.
* C21 [A] bounds from `number_of_steps`; witnesses [F]; [R] Kalman prediction from C40 and C41 (`Props_KCount`).
* C22, C23 [R] explicit formula for the times of the results; ceil bounds. [F] the same with the rounding errors of every operation bounded explicitly; exactness of time differences (Sterbenz) for C23; with mitigation on the times pass through the interpolation, so there the theorems ask that none is NaN (`sound_times`), which C49 provides for ordinary strokes. Predictions: the tips of both predictors lie behind the last tip and are spaced by the rounded period.
* C24 [R] induction over the iteration count of the end-of-stroke loop. [F] the same loop; what each of its three comparisons says about the exact distances, from relative error bounds of the differences, hypot and the dot product; halving is exact but for underflow.
* C25 [R] equality of the two computations when smoothing is disabled. [F] the same, bit by bit, when nothing is
  projected (`Props_FLift`): a span of no time has no samples, since t - t = +0 and 0 * rate = 0.
* C26 [A] invariant of the stylus state, InterpResult on -1; [F] and [R] for the arithmetic of unknown.
* C27 [F] rounding lemma for `a + (b-a)*r` with 0<=a,b,r<=1 in binary32; invariant on raw samples.
* C28 [F] result range of the normalisation; no binary32 number lies in [2pi_double, ...).
* C29 [R] case analysis on the normalised difference (`turned`). [F] in every configuration: a finite position shows that the ratios are numbers, then the error of each operation is bounded (`Props_FCarry`).
* C30 [A] parameter irrelevance; [R] and [F] invariant of the trimming loop.
* C31 [R] nearest point on a segment by completion of squares; induction over segments. [F] rounding error of the projection parameter and of the squared distances (relative to the coordinates), of the interpolations and of the angle normalisation; the minimum over segments is kept up to the accumulated error.
* C32 [R] linear algebra and induction over segments.
* C33 [R] simulation; [A] parameter-irrelevance.
* C34 [R] simulation with mitigation off gives the hidden spring states; convex combination; monotonicity of the clamped interpolation. [A] the same simulation
  when both runs return (`Quiet.v`). [F] rounding errors of projection and interpolation; the strength stays between its two bounds up to rounding, and never
  grows with the speed because every rounded operation in it is monotone; one result after
  that of the Down is enough for the strength to apply, as the sample deque never becomes empty again.
* C35 [A] bisimulation.
* C36 [R] invariant running sum = sum over window; convexity. [F] witness that it fails with rounding after a pause.
* C37 [R] and [F] (smoothing off) invariant "tip at P with zero velocity".
* C38 [R] recurrence over the path. [F] finiteness of a result goes back through every operation of the step, so each rounding error is bounded relative to its operands.
* C39 [A] counting invariant.
* C40 [R] the code's filter equals the textbook one, then algebra on cubics.
* C41 [R] range of each heuristic; witness.
* C42 [R] 4x4 positive semidefinite invariant via quadratic forms.
* C43 [R] induction. [F] the innovation of an axis at rest is an exact zero at every update, whatever the (finite) gains, so the state stays put; zero speeds give a confidence of 0 and a prediction of one connecting point.
* C44 [R] two-run simulation through the whole model (`Symmetry.v`): the answers to the transformed
  calls are the transformed answers. `movable` names the two absolute constants of the code. Reflections
  are covered for projection to the closest point; witness for projection along the normal.
* C45 [F] invariants (deques non-empty, conversions in range); with Kalman prediction the first undefined call is a Predict and
  the only kind is the conversion of its number of points; [R] when that is in range; witness.
* C46 [F] one loop iteration suffices; [R] every call returns; witness.
* C47 [A] two-run simulation.
* C48 [F] from C02.
* C49 [F] energy of the spring-mass step (it cannot grow when the rate can follow spring and drag) with a rounding
  error term per operation, summed over at most 2^20 steps (`Stable.v`, `Props_Finite.v`); for the smoother, a bound on
  the rounding errors accumulated in its running sums against a lower bound on the time they span; intervals for the
  stylus state and mitigation; witnesses for the refuted cases. Kalman predictions (`Filter.v`, `Noise.v`,
  `Props_FKalman.v`): the covariances and gains do not depend on the inputs, so for given noise parameters they are one
  sequence of doubles, which repeats after some steps; `filter_certified` runs it inside Coq and checks that each step
  keeps a polyhedral norm of the state (rows given by a certificate, computed outside by `tools/gen_noise.py`) within
  given bounds, rounding included. So the state stays below 2^55 for strokes of any length; the estimate divides it by
  powers of the mean time step, which `spread_out` bounds from below, and the prediction is then a finite number of
  operations on numbers of known size.
* C50 [R] ceil bound. [F] the same with the rounding errors of the velocity estimate, the product and the quotient.
* C51 [R] no call of a `tame` history gets stuck, then case analysis of the checks; induction over the stroke.
  [F] the same, with C45/C46 for "no call gets stuck" and C49's bounds for "the velocities are finite"
  (C52's invariant instead for strokes of any length).
* C52 [R] a strip of half-width w around the inputs' convex hull: the tip's distance and velocity are kept in an
  invariant region of the damped spring (a linear map whose second-order response is monotone when
  `1 <= k d^2 <= 3` and the rate is at least `4/(k d)`); discs are intersections of strips.
  [F] the same quadratic form bounds the tip; a step of at least 10 microseconds contracts it by more than the
  rounding errors of the step add, so the ball of radius 4 is invariant for strokes of any length; the at most 1000
  steps at the end of the stroke may each add 2^-16; the mitigation average stays finite because the sum of the
  speeds saturates.
* C53 [R] directly from the law of cosines; [F] the rounding errors of the two magnitudes, four quotients, two products and
  the sum are added up; witness for the overflow.
* C54 [F] a simulation between the original and the turned or reflected run (`Mirrored`), stated over any arithmetic with a
  relation "equal up to a given change of sign and the sign of zeros" that satisfies 28 laws (compatible with the
  operations; sums commute; squares, magnitudes and comparisons do not change); scalars are kept identical, vectors
  related, the two Kalman filters exchanged when the axes are. `Mirror` proves the laws for binary32 and binary64
  (rounding to nearest even is symmetric), `Props_Mirror` combines them.
* C55 [A] the state with the other limit put in is reached by the same calls; the number of steps is at most the number of results.
* C56 [A] as C55 up to the last call; the list of tip states with the smaller limits is a prefix by induction on the iterations, and results are made from tip states one by one.
* C57 [A] simulation relating modelers that agree on all but the predictor and its parameters.
* C58 [A] simulation as for C47, in which stored and reported results also agree in the reading considered.

## 6. Findings
What the proofs turned up; each is a `_refuted` theorem, or a remark at the theorem named.

1. A Move rejected because it needs too many results still updates the smoother, the stylus state and the predictor
   (C10_rejected_move_refuted). With the recommended parameters, one such Move, nowhere near as far away, displaces
   a later result by 60 units (C10_rejected_move_displaces_refuted).
2. Restore after a new Down brings back the saved smoother and stylus state but mixes strokes
   (C14_across_strokes_refuted).
3. A Save keeps a predictor which survives Reset(params) with prediction disabled and comes back with Restore: Predict
   then succeeds though prediction is disabled (C13_disabled_refuted, C18_stale_predictor_refuted).
4. A Move at the time of the previous input gives no results (C06_move_same_time_refuted).
5. Up and Predict can exceed `max_outputs_per_call` (C21_up_refuted, C21_predict_refuted).
6. `max_outputs_per_call = INT_MAX` makes `n_steps` overflow; hence the hypothesis of C45.
7. A Kalman prediction can convert an unrepresentable double to int (C45_kalman_refuted), and gives NaN straight after
   a Down if `min_stable_iteration` is 1 (C49_predict_refuted), or as long as all inputs carry the same time
   (C49_predict_same_time_refuted: recommended parameters, four inputs).
8. An orientation of 1e30 makes Update loop forever (C46_huge_orientation_refuted).
9. NaN parameters of the loop mitigation and of the prediction confidence pass validation (C02_nan_refuted).
10. Tiny time steps give NaN velocities (C49_finite_refuted, C37_float_tiny_step_refuted), and NaN pressure and
    orientation with mitigation on (C27_mitigation_refuted, C28_mitigation_refuted).
11. Rounding lets result times go backwards by an ulp between updates (C23_rounding_refuted).
12. A long pause leaves rounding errors in the smoother's running sums for the rest of the stroke: a resting pen
    drifts by 1/5 of a unit (C36_float_pause_refuted).
13. An output rate that is valid but too low for the spring makes results run away exponentially
    (C52_slow_rate_refuted).
14. The Kalman prediction may exceed `prediction_interval` by less than one sampling period (C41_duration_refuted).
    Its time step divides the span of the buffered times by their number, not by one less (comment in `Kalman.v`).
15. `ProcessMoveEvent` passes the current input's time as the previous time to the stylus modeler; it shows in the
    direction of the first result of a Move (C32_normal_projection_move).
16. The averaging window of the loop mitigation is not the documented one; and with equal speed bounds the code uses the
    lower-bound strength (C34).
17. Stroke-end prediction is not what lifting the pen gives when smoothing is on, because the prediction is anchored
    at the smoothed position and Up at the raw one (hypothesis of C25). With the angle limit on, rounding can give the
    Up one result more (C25_angle_limit_refuted).
18. The magnitude of the vector returned by `GetStrokeNormal` is not confined to (0, 2] as documented (it is that of the
    velocity or the acceleration in three of the four cases); harmless, since only its direction is used. The upper
    bound of tilt can be exceeded by an ulp by the interpolation `a + (b - a) * r`.
19. Projection along the normal is not mirror-symmetric: with raw input on both sides and neither on the outside of a
    turn, the left one is taken, so a stroke drawn with y negated can get different pressures (C44_mirror_refuted).
20. `AbsoluteAngleTo` of a finite vector with itself is pi/2 if its length overflows (C53_huge_vector_refuted).
21. With loop mitigation off a result is still computed as projection + (tip - projection) * 1, which rounds: the number
    of stylus samples kept can change the last bits of positions (C33_float_projection_refuted).
22. With the projection to the closest point, the same stroke has other velocities (by rounding errors) when the device
    reports no pressure, tilt and orientation, even with loop mitigation and smoothing off (C47_unknown_refuted).

## 7. Testing the theorems
`tools/mutate.py` applies the edits in `seeded/mutants.py` to a scratch copy of the model, rebuilds it and records in
`seeded/LOG.jsonl` which theorems of the manifest fail. The build stops in the files where a proof breaks and in those that
depend on them, so `theorems_failed` lists the theorems in the files in which a proof script failed; a broken lemma hides
the theorems after it, so the list is an upper bound of the theorems that are false of the edited program. Edits
nothing failed for led to the tightenings recorded in the log.
