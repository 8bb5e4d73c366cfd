(** * internal/prediction/kalman_filter/{matrix.h, kalman_filter.*, axis_predictor.*}
      and internal/prediction/kalman_predictor.* *)
From Verif Require Export Stylus.

Section Kalman.
Context {A : Arith}.

(** matrix.h:35-46 Vec4. *)
Record Vec4 : Type := mkVec4 { q0 : D; q1 : D; q2 : D; q3 : D }.
(** matrix.h:49-93 Matrix4: four rows. *)
Record Mat4 : Type := mkMat4 { row0 : Vec4; row1 : Vec4; row2 : Vec4; row3 : Vec4 }.

Definition vec4_map (f : D -> D) (v : Vec4) : Vec4 :=
  mkVec4 (f (q0 v)) (f (q1 v)) (f (q2 v)) (f (q3 v)).
Definition vec4_map2 (f : D -> D -> D) (a b : Vec4) : Vec4 :=
  mkVec4 (f (q0 a) (q0 b)) (f (q1 a) (q1 b)) (f (q2 a) (q2 b)) (f (q3 a) (q3 b)).

Definition vec4_zero : Vec4 := mkVec4 d0 d0 d0 d0.                       (* matrix.h:37 *)
Definition mat4_id : Mat4 :=                                             (* matrix.h:52-56 *)
  mkMat4 (mkVec4 d1 d0 d0 d0) (mkVec4 d0 d1 d0 d0) (mkVec4 d0 d0 d1 d0) (mkVec4 d0 d0 d0 d1).

(** matrix.h:78-86 Transpose. *)
Definition mat4_transpose (m : Mat4) : Mat4 :=
  mkMat4 (mkVec4 (q0 (row0 m)) (q0 (row1 m)) (q0 (row2 m)) (q0 (row3 m)))
         (mkVec4 (q1 (row0 m)) (q1 (row1 m)) (q1 (row2 m)) (q1 (row3 m)))
         (mkVec4 (q2 (row0 m)) (q2 (row1 m)) (q2 (row2 m)) (q2 (row3 m)))
         (mkVec4 (q3 (row0 m)) (q3 (row1 m)) (q3 (row2 m)) (q3 (row3 m))).

(** matrix.h:134-138 DotProduct: accumulates left to right from 0. *)
Definition dot4 (a b : Vec4) : D :=
  dadd (dadd (dadd (dadd d0 (dmul (q0 a) (q0 b))) (dmul (q1 a) (q1 b)))
          (dmul (q2 a) (q2 b))) (dmul (q3 a) (q3 b)).

(** matrix.h:140-148 OuterProduct. *)
Definition outer4 (a b : Vec4) : Mat4 :=
  mkMat4 (vec4_map (dmul (q0 a)) b) (vec4_map (dmul (q1 a)) b)
         (vec4_map (dmul (q2 a)) b) (vec4_map (dmul (q3 a)) b).

(** matrix.h:160-164, 166-170, 172-176. *)
Definition vec4_add (a b : Vec4) : Vec4 := vec4_map2 dadd a b.
Definition vec4_scale (v : Vec4) (k : D) : Vec4 := vec4_map (fun x => dmul x k) v.
Definition vec4_div (v : Vec4) (k : D) : Vec4 := vec4_map (fun x => ddiv x k) v.

(** matrix.h:203-211, 213-221, 223-231. *)
Definition mat4_map2 (f : Vec4 -> Vec4 -> Vec4) (a b : Mat4) : Mat4 :=
  mkMat4 (f (row0 a) (row0 b)) (f (row1 a) (row1 b)) (f (row2 a) (row2 b)) (f (row3 a) (row3 b)).
Definition mat4_add (a b : Mat4) : Mat4 := mat4_map2 (vec4_map2 dadd) a b.
Definition mat4_sub (a b : Mat4) : Mat4 := mat4_map2 (vec4_map2 dsub) a b.
Definition mat4_scale (m : Mat4) (k : D) : Mat4 :=
  mkMat4 (vec4_scale (row0 m) k) (vec4_scale (row1 m) k) (vec4_scale (row2 m) k) (vec4_scale (row3 m) k).

(** matrix.h:191-201: entry (i,j) accumulates lhs(i,k) * rhs(k,j), k = 0..3, from
    0: the dot product of row i of lhs and row j of the transpose of rhs. *)
Definition mat4_mul (a b : Mat4) : Mat4 :=
  let bt := mat4_transpose b in
  let mulrow r := mkVec4 (dot4 r (row0 bt)) (dot4 r (row1 bt)) (dot4 r (row2 bt)) (dot4 r (row3 bt)) in
  mkMat4 (mulrow (row0 a)) (mulrow (row1 a)) (mulrow (row2 a)) (mulrow (row3 a)).

(** matrix.h:233-241 Matrix4 * Vec4 (products are v[j] * m(i,j)). *)
Definition mat4_vec (m : Mat4) (v : Vec4) : Vec4 :=
  mkVec4 (dot4 v (row0 m)) (dot4 v (row1 m)) (dot4 v (row2 m)) (dot4 v (row3 m)).
(** matrix.h:243-251 Vec4 * Matrix4 (products are v[j] * m(j,i)). *)
Definition vec4_mat (v : Vec4) (m : Mat4) : Vec4 := mat4_vec (mat4_transpose m) v.

(** axis_predictor.cc:29-31, 40-43: state transition, with kDt = 1. *)
Definition dhalf : D := ddiv (dofZ 1) (dofZ 2).
Definition dsixth : D := ddiv (dofZ 1) (dofZ 6).
Definition kf_transition : Mat4 :=
  mkMat4 (mkVec4 d1 d1 dhalf dsixth) (mkVec4 d0 d1 d1 dhalf) (mkVec4 d0 d0 d1 d1) (mkVec4 d0 d0 d0 d1).
(** axis_predictor.cc:46-48. *)
Definition kf_noise_vector : Vec4 := mkVec4 dsixth dhalf d1 d1.
Definition kf_noise (process_noise : D) : Mat4 :=
  mat4_scale (outer4 kf_noise_vector kf_noise_vector) process_noise.
(** axis_predictor.cc:51. *)
Definition kf_measure : Vec4 := mkVec4 d1 d0 d0 d0.

(** The mutable part of a KalmanFilter (kalman_filter.h:56,61,90); the matrices
    are the constants above and the two noise parameters. *)
Record KFilter : Type := mkKF {
  kf_state : Vec4;       (* state_estimation_ *)
  kf_cov : Mat4;         (* error_covariance_matrix_ *)
  kf_iter : Z            (* iter_num_ *)
}.

(** kalman_filter.cc:72-76 Reset, also the freshly constructed state
    (kalman_filter.cc:22-32, matrix.h:37,52). *)
Definition kf_reset : KFilter := mkKF vec4_zero mat4_id 0.

(** kalman_filter.cc:34-42 Predict. *)
Definition kf_predict (process_noise : D) (k : KFilter) : KFilter :=
  mkKF (mat4_vec kf_transition (kf_state k))
       (mat4_add (mat4_mul (mat4_mul kf_transition (kf_cov k)) (mat4_transpose kf_transition))
                 (kf_noise process_noise))
       (kf_iter k).

(** kalman_filter.cc:54-56: the innovation variance S. *)
Definition kf_innovation_var (measure_noise : D) (cov : Mat4) : D :=
  dadd (dot4 (vec4_mat kf_measure cov) kf_measure) measure_noise.

(** kalman_filter.cc:51-69, the correction step after Predict. *)
Definition kf_correct (measure_noise : D) (k : KFilter) (observation : D) : KFilter :=
  let y := dsub observation (dot4 kf_measure (kf_state k)) in
  let s := kf_innovation_var measure_noise (kf_cov k) in
  let gain := vec4_div (vec4_mat kf_measure (kf_cov k)) s in
  let state := vec4_add (kf_state k) (vec4_scale gain y) in
  let i_kh := mat4_sub mat4_id (outer4 gain kf_measure) in
  mkKF state
       (mat4_add (mat4_mul (mat4_mul i_kh (kf_cov k)) (mat4_transpose i_kh))
                 (mat4_scale (outer4 gain gain) measure_noise))
       (kf_iter k).

(** kalman_filter.cc:44-70 Update.  [iter_num_++] at INT_MAX is undefined. *)
Definition kf_update (process_noise measure_noise : D) (k : KFilter) (observation : D) : outcome KFilter :=
  if Z.leb INT_MAX (kf_iter k) then UB UB_signed_overflow
  else
    let k1 := mkKF (kf_state k) (kf_cov k) (kf_iter k + 1) in
    if Z.eqb (kf_iter k) 0 then
      let s := kf_state k in
      Ret (mkKF (mkVec4 observation (q1 s) (q2 s) (q3 s)) (kf_cov k) (kf_iter k + 1))
    else
      Ret (kf_correct measure_noise (kf_predict process_noise k1) observation).

(** kalman_predictor.h:64-69 KalmanPredictor::State. *)
Record KEst : Type := mkKEst { ke_pos : Vec2; ke_vel : Vec2; ke_acc : Vec2; ke_jerk : Vec2 }.

(** kalman_predictor.h:95-103 (members). *)
Record KPredictor : Type := mkKPred {
  k_params : KalmanParams;
  k_sampling : SamplingParams;
  k_last : option Vec2;      (* last_position_received_ *)
  k_times : list D;          (* sample_times_ *)
  k_x : KFilter;
  k_y : KFilter
}.

(** kalman_predictor.h:45-54 (constructor). *)
Definition kpred_new (p : KalmanParams) (sp : SamplingParams) : KPredictor :=
  mkKPred p sp None [] kf_reset kf_reset.

(** kalman_predictor.cc:53-58 Reset. *)
Definition kpred_reset (k : KPredictor) : KPredictor :=
  mkKPred (k_params k) (k_sampling k) None [] kf_reset kf_reset.

(** kalman_predictor.cc:60-71 Update. *)
Definition kpred_update (k : KPredictor) (position : Vec2) (time : D) : outcome KPredictor :=
  let times := k_times k ++ [time] in
  let mt := kp_max_times (k_params k) in
  let times := if Z.ltb mt 0 || size_gt times mt then tl times else times in
  let pn := kp_process (k_params k) in
  let mn := kp_measure (k_params k) in
  let* x := kf_update pn mn (k_x k) (f2d (vx position)) in
  let* y := kf_update pn mn (k_y k) (f2d (vy position)) in
  Ret (mkKPred (k_params k) (k_sampling k) (Some position) times x y).

(** kalman_filter.h:39 Stable; kalman_predictor.h:77-79 IsStable. *)
Definition kpred_stable (k : KPredictor) : bool :=
  Z.leb (kp_min_stable (k_params k)) (kf_iter (k_x k)) &&
  Z.leb (kp_min_stable (k_params k)) (kf_iter (k_y k)).

(** kalman_predictor.cc:73-107 GetEstimatedState. *)
Definition kpred_estimate (k : KPredictor) : option KEst :=
  match (if kpred_stable k then k_times k else []) with
  | [] => None
  | (front :: _) as times =>
      let sx := kf_state (k_x k) in
      let sy := kf_state (k_y k) in
      let bk := last times front in
      let dt := fdiv (d2f (dsub bk front)) (fofZ (Z.of_nat (List.length times))) in
      let dt2 := fmul dt dt in
      let dt3 := fmul dt2 dt in
      let at_ c := mkVec2 (d2f (c sx)) (d2f (c sy)) in
      Some (mkKEst (at_ q0) (vdiv (at_ q1) dt)
              (vscale_assign (vdiv (at_ q2) dt2) (kp_acc_weight (k_params k)))
              (vscale_assign (vdiv (at_ q3) dt3) (kp_jerk_weight (k_params k))))
  end.

(** kalman_predictor.cc:33-49 EvaluateCubic. *)
Definition evaluate_cubic (s : KEst) (delta : D) : KEst :=
  let dt := d2f delta in
  let dt2 := fmul dt dt in
  let dt3 := fmul dt2 dt in
  mkKEst
    (vadd (vadd (vadd (ke_pos s) (vscale dt (ke_vel s)))
             (vdiv (vscale dt2 (ke_acc s)) f2))
          (vdiv (vscale dt3 (ke_jerk s)) (fofZ 6)))
    (vadd (vadd (ke_vel s) (vscale dt (ke_acc s))) (vdiv (vscale dt2 (ke_jerk s)) f2))
    (vadd (ke_acc s) (vscale dt (ke_jerk s)))
    (ke_jerk s).

(** kalman_predictor.cc:128-145 ConstructCubicPrediction ([n] iterations). *)
Fixpoint cubic_prediction (s : KEst) (time dt : D) (n : nat) : list TipState :=
  match n with
  | O => []
  | S k =>
      let s' := evaluate_cubic s dt in
      let time' := dadd time dt in
      mkTip (ke_pos s') (ke_vel s') (ke_acc s') time' :: cubic_prediction s' time' dt k
  end.

(** kalman_predictor.cc:154-168: number of points of the connector. *)
Definition connector_points (last_tip : TipState) (est : KEst) (p : KalmanParams) (sample_dt : D)
  : option Z :=
  let dist := std_fmin (distance (t_pos last_tip) (ke_pos est)) fmaxval in
  let maxv := std_fmaxs (magnitude (t_vel last_tip)) (magnitude (ke_vel est)) in
  let target := f2d (fdiv dist (std_fmaxs maxv (kp_catchup p))) in
  ftoint (std_fmax (fceil (d2f (ddiv target sample_dt))) f1).

(** kalman_predictor.cc:203-210: the coefficients a, b (c and d are inlined below). *)
Definition connector_a (p0 v0 p1 v1 : Vec2) (fd : F) : Vec2 :=
  vadd (vsub (vscale f2 p0) (vscale f2 p1)) (vscale fd (vadd v0 v1)).
Definition connector_b (p0 v0 p1 v1 : Vec2) (fd : F) : Vec2 :=
  vsub (vadd (vscale (fofZ (-3)) p0) (vscale (fofZ 3) p1))
       (vscale fd (vadd (vscale f2 v0) v1)).

(** kalman_predictor.cc:213-227, loop body for index i. *)
Definition connector_tip (last_tip : TipState) (est : KEst) (duration : D) (n i : Z) : TipState :=
  let fd := d2f duration in
  let a := connector_a (t_pos last_tip) (t_vel last_tip) (ke_pos est) (ke_vel est) fd in
  let b := connector_b (t_pos last_tip) (t_vel last_tip) (ke_pos est) (ke_vel est) fd in
  let c := vscale fd (t_vel last_tip) in
  let d := t_pos last_tip in
  let t := fdiv (fofZ i) (fofZ n) in
  let t2 := fmul t t in
  let t3 := fmul t2 t in
  mkTip
    (vadd (vadd (vadd (vscale t3 a) (vscale t2 b)) (vscale t c)) d)
    (vdiv (vadd (vadd (vscale t2 (vscale (fofZ 3) a)) (vscale t (vscale f2 b))) c) fd)
    (vdiv (vadd (vscale t (vscale (fofZ 6) a)) (vscale f2 b)) (fmul fd fd))
    (dadd (t_time last_tip) (dmul duration (f2d t))).

(** kalman_predictor.cc:147-228 ConstructCubicConnector. *)
Definition cubic_connector (last_tip : TipState) (est : KEst) (p : KalmanParams) (sample_dt : D)
  : outcome (list TipState) :=
  to_int (connector_points last_tip est p sample_dt) (fun n =>
    let duration := dmul (dofZ n) sample_dt in
    Ret (map (fun i => connector_tip last_tip est duration n (Z.of_nat i)) (seq 1 (Z.to_nat n)))).

(** kalman_predictor.cc:239-281: the confidence. *)
Definition kpred_confidence (k : KPredictor) (last_position : Vec2) (est : KEst) : F :=
  let c := kp_conf (k_params k) in
  let sample_ratio := std_fmin f1 (fdiv (fofZ (kf_iter (k_x k))) (fofZ (cp_samples c))) in
  let normalized_error :=
    fsub f1 (normalize01 f0 (cp_max_dist c) (distance last_position (ke_pos est))) in
  let interval := d2f (kp_interval (k_params k)) in
  let end_state := evaluate_cubic est (kp_interval (k_params k)) in
  let travel_speed := fdiv (distance (ke_pos est) (ke_pos end_state)) interval in
  let normalized_distance := normalize01 (cp_min_speed c) (cp_max_speed c) travel_speed in
  let deviation :=
    distance (ke_pos end_state) (vadd (ke_pos est) (vscale interval (ke_vel est))) in
  let linearity :=
    interp_f (cp_baseline c) f1 (fsub f1 (normalize01 f0 (cp_max_dev c) deviation)) in
  fmul (fmul (fmul sample_ratio normalized_error) normalized_distance) linearity.

(** kalman_predictor.cc:230-283 NumberOfPointsToPredict; [None] = undefined
    float-to-int conversion. *)
Definition kpred_number_of_points (k : KPredictor) (last_position : Vec2) (est : KEst) : option Z :=
  let target := d2f (dmul (kp_interval (k_params k)) (sp_rate (k_sampling k))) in
  ftoint (std_fmax f0 (fceil (fmul target (kpred_confidence k last_position est)))).

(** kalman_predictor.cc:109-126 ConstructPrediction. *)
Definition kpred_predict (k : KPredictor) (last_tip : TipState) : outcome (list TipState) :=
  match kpred_estimate k, k_last k with
  | Some est, Some last_position =>
      let sample_dt := ddiv (dofZ 1) (sp_rate (k_sampling k)) in
      let* connector := cubic_connector last_tip est (k_params k) sample_dt in
      let start_time := match back connector with Some t => t_time t | None => t_time last_tip end in
      to_int (kpred_number_of_points k last_position est) (fun n =>
        Ret (connector ++ cubic_prediction est start_time sample_dt (Z.to_nat n)))
  | _, _ => Ret []
  end.

End Kalman.
