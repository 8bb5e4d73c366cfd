(** * C34 in binary32/binary64: loop contraction mitigation moves a result toward a point
    of the inputs in memory, and by how much. *)
From Coq Require Import ZArith Bool List Reals Lra Lia Psatz.
From Flocq Require Import Core BinarySingleNaN Plus_error.
From Verif Require Import Calm Quiet.
From Verif Require Import Props_FProj Props_FCarry.
From Verif Require Props_Proj.
From Verif Require Import Props_Finite Props_FEnd Props_FSpring Props_FRest Props_FRate Props_FLift Stable Filter Props_Stylus Memory Props_Params.
From Verif Require Import Props_FProj Props_FCarry.
Import ListNotations.
Open Scope R_scope.

(** ** Specification *)
(** [r] is a fraction [w] of the way from the point [t] of the way from [x] to [y], to
    [h], up to 4 millionths of [N]. *)
Definition partway (N x y t h w r : R) : Prop :=
  Rabs (r - (x + (y - x) * t + (h - (x + (y - x) * t)) * w)) <= 4 * ppm * N.
(** Without mitigation the result [r] would be [h].  [ok w] says which fractions are
    possible. *)
Definition float_blended {acosf : float32 -> float32} (N : R) (l pts : list (Input (A := ieee acosf))) (ok : R -> Prop)
    (h r : Result (A := ieee acosf)) : Prop :=
  within N (r_pos h) -> within N (r_pos r) ->
  exists x y t w, on_path pts x y t /\ ok w /\ nearly_taken l x y t r /\
    partway N (real32 (vx (i_pos x))) (real32 (vx (i_pos y))) t (real32 (vx (r_pos h))) w (real32 (vx (r_pos r))) /\
    partway N (real32 (vy (i_pos x))) (real32 (vy (i_pos y))) t (real32 (vy (r_pos h))) w (real32 (vy (r_pos r))).
(** The speed of a result and the mean of several, as computed in binary32. *)
Definition speed32 {acosf : float32 -> float32} (r : Result (A := ieee acosf)) : float32 := fhypot (Arith := ieee acosf) (vx (r_vel r)) (vy (r_vel r)).
Definition mean32 {acosf : float32 -> float32} (w : list (Result (A := ieee acosf))) : float32 :=
  fdiv (Arith := ieee acosf) (fold_left (fun sum r => fadd (Arith := ieee acosf) sum (speed32 r)) w f0) (fofZ (Arith := ieee acosf) (Z.of_nat (List.length w))).
(** The strength at a speed, as computed in binary32: from the one at the lower speed
    bound to the one at the upper speed bound. *)
Definition strength32 {acosf : float32 -> float32} (lp : LoopParams (A := ieee acosf)) (v : float32) : float32 :=
  let width := fsub (Arith := ieee acosf) (lp_speed_upper lp) (lp_speed_lower lp) in
  let c := if feqb (Arith := ieee acosf) width f0 then f0 else fdiv (Arith := ieee acosf) (fsub (Arith := ieee acosf) v (lp_speed_lower lp)) width in
  let cut := if fltb (Arith := ieee acosf) c f0 then f0 else if fltb (Arith := ieee acosf) f1 c then f1 else c in
  fadd (Arith := ieee acosf) (lp_strength_lower lp) (fmul (Arith := ieee acosf) (fsub (Arith := ieee acosf) (lp_strength_upper lp) (lp_strength_lower lp)) cut).
(** The strengths at the two speed bounds limit the fraction. *)
Definition strength_limits {acosf : float32 -> float32} (lp : LoopParams (A := ieee acosf)) (w : R) : Prop :=
  0 <= w <= 1 /\ real32 (lp_strength_upper lp) - ppm <= w <= real32 (lp_strength_lower lp) + ppm.
(** The results of the stroke after that of its Down. *)
Definition after_down {acosf : float32 -> float32} (es : list (entry (A := ieee acosf))) : list (Result (A := ieee acosf)) := tl (List.concat (map snd es)).
(** The fraction after the results [past]: one if there are none, otherwise the strength
    at the mean speed of the most recent ones, at least [min_discrete_speed_samples]
    of them if there are as many. *)
Definition weighed {acosf : float32 -> float32} (lp : LoopParams (A := ieee acosf)) (past : list (Result (A := ieee acosf))) (w : R) : Prop :=
  past = [] /\ w = 1 \/
  exists old recent, past = old ++ recent /\ recent <> [] /\ (old = [] \/ (lp_min_samples lp <= Z.of_nat (List.length recent))%Z) /\
    strength_limits lp w /\ w = real32 (strength32 lp (mean32 recent)).
(** The results [out] after the results [past]. *)
Inductive float_mitigated {acosf : float32 -> float32} (N : R) (l pts : list (Input (A := ieee acosf))) (lp : LoopParams (A := ieee acosf)) :
    list (Result (A := ieee acosf)) -> list (Result (A := ieee acosf)) -> list (Result (A := ieee acosf)) -> Prop :=
| mitigated_none past : float_mitigated N l pts lp past [] []
| mitigated_more past h hs r out : float_blended N l pts (weighed lp past) h r -> float_mitigated N l pts lp (past ++ [r]) hs out ->
    float_mitigated N l pts lp past (h :: hs) (r :: out).

Section FLoop.
Variable acosf : float32 -> float32.
Let A := ieee acosf.
Local Existing Instance A.

(** ** The fraction *)
Lemma plus_number : forall x y : float32, is_nan (Bplus mode_NE x y) = false -> is_nan x = false /\ is_nan y = false.
Proof. intros x y H. destruct x, y; cbn in *; auto; discriminate. Qed.
Lemma mult_number : forall x y : float32, is_nan (Bmult mode_NE x y) = false -> is_nan x = false /\ is_nan y = false.
Proof. intros x y H. destruct x, y; cbn in *; auto; discriminate. Qed.
Lemma minus_number : forall x y : float32, is_nan (Bminus mode_NE x y) = false -> is_nan x = false /\ is_nan y = false.
Proof. intros x y H. destruct x, y; cbn in *; auto; discriminate. Qed.
Lemma strengths_finite : forall lo up o z : float32, is_finite o = true -> is_finite z = true -> is_nan lo = false -> is_nan up = false ->
  Bltb lo up = false -> Bltb o lo = false -> Bltb up z = false -> is_finite lo = true /\ is_finite up = true.
Proof.
  intros lo up o z FO FZ NL NU H1 H2 H3.
  destruct lo as [|[]| |]; try discriminate NL; destruct up as [|[]| |]; try discriminate NU; try (split; reflexivity); exfalso;
    destruct o; try discriminate FO; destruct z; try discriminate FZ;
    first [discriminate H1|discriminate H2|discriminate H3].
Qed.

Lemma strength_value : forall (p : StrokeModelParams (A := ieee acosf)) samples, validate_params p = OkStatus -> lp_enabled (pp_loop (p_position p)) = true -> samples <> [] ->
  is_nan (loop_value (pp_loop (p_position p)) samples : float32) = false ->
  unit32 (loop_value (pp_loop (p_position p)) samples) /\ strength_limits (pp_loop (p_position p)) (B2R (loop_value (pp_loop (p_position p)) samples : float32)).
Proof.
  intros p samples V EN NE NN. destruct (validate_params_parts p V) as (_ & VP & _). unfold validate_position in VP. apply and_then_ok in VP. destruct VP as [VL _].
  unfold validate_loop in VL. rewrite EN in VL. cbn [negb] in VL. destruct (_ || _) eqn:Q0 in VL; [discriminate VL|].
  destruct (fltb _ _ || _ || _) eqn:Q in VL; [discriminate VL|]. clear VL. apply orb_false_elim in Q. destruct Q as [Q Q3]. apply orb_false_elim in Q. destruct Q as [Q1 Q2].
  unfold loop_value in *. destruct samples as [|s0 ss]; [congruence|]. rewrite EN in NN |- *. cbn [negb] in *.
  unfold strength_limits. set (c := clamp01 (inverse_lerp _ _ _)) in *. clearbody c. set (lo := lp_strength_lower _) in *. set (up := lp_strength_upper _) in *. clearbody lo up.
  unfold A in *. cbn [fltb ieee] in *. destruct (f1_fin acosf) as [G1 G2]. destruct (f0_fin acosf) as [G3 G4].
  assert (NB : is_nan (lo : float32) = false /\ is_nan (up : float32) = false /\ is_nan (c : float32) = false).
  { unfold interp_f in NN. cbn [fadd fmul fsub ieee] in NN. destruct (plus_number _ _ NN) as [N1 N2]. destruct (mult_number _ _ N2) as [N3 N4]. destruct (minus_number _ _ N4) as [N5 _] || destruct (minus_number _ _ N3) as [N5 _].
    split; [exact N1|]. split; [exact N5|]. destruct (is_nan (c : float32)) eqn:NC; [|reflexivity]. pose proof (clamp_nan acosf c NC) as K. congruence. }
  destruct NB as (N1 & N2 & N3).
  destruct (strengths_finite _ _ _ _ G1 G3 N1 N2 Q1 Q2 Q3) as [FL FU].
  apply (ltb_false_R 24 128) in Q1; [|assumption|assumption]. apply (ltb_false_R 24 128) in Q2; [|assumption|assumption]. apply (ltb_false_R 24 128) in Q3; [|assumption|assumption].
  rewrite G2 in Q2. rewrite G4 in Q3.
  assert (UL : unit32 lo) by (split; [exact FL|split; [exact (Rle_trans _ _ _ Q3 Q1)|exact Q2]]).
  assert (UU : unit32 up) by (split; [exact FU|split; [exact Q3|exact (Rle_trans _ _ _ Q1 Q2)]]).
  pose proof (interp_unit acosf lo up c UL UU N3) as UV. split; [exact UV|]. split; [apply UV|].
  destruct (interp_fin acosf lo up c 1 FL FU N3) as [_ E]; [destruct UL as (_ & U1 & U2); rewrite Rabs_pos_eq; lra|destruct UU as (_ & U1 & U2); rewrite Rabs_pos_eq; lra|apply IZR_le; lia|].
  rewrite E. destruct (clamp_unit acosf c N3) as (_ & C1 & C2). destruct UL as (_ & L1 & L2). destruct UU as (_ & U1 & U2). unfold real32.
  set (k := B2R (clamp01 c : float32)) in *. set (a := B2R (lo : float32)) in *. set (b := B2R (up : float32)) in *. clearbody k a b. clear -C1 C2 L1 L2 U1 U2 Q1.
  pose proof (r32_error (b - a)) as E1. set (d := r32 (b - a)) in *. pose proof (r32_error (d * k)) as E2. set (e := r32 (d * k)) in *. pose proof (r32_error (a + e)) as E3. set (f := r32 (a + e)) in *. clearbody d e f.
  assert (ET : 0 <= eta <= / 1073741824).
  { split; [apply bpow_ge_0|]. change (/ 1073741824) with (bpow radix2 (-30)). apply bpow_le. lia. }
  unfold u24, ppm in *.
  assert (A1 : Rabs (b - a) <= 1) by (apply Rabs_le; lra).
  assert (D1 : -2 <= d <= 2) by (apply Rabs_le_inv in E1; lra).
  assert (P1 : -2 <= d * k <= 2) by nra. assert (A2 : Rabs (d * k) <= 2) by (apply Rabs_le; lra).
  assert (P2 : Rabs (d * k - (b - a) * k) <= / 16777216 + eta).
  { replace (d * k - (b - a) * k) with ((d - (b - a)) * k) by ring. rewrite Rabs_mult, (Rabs_pos_eq k) by lra. pose proof (Rabs_pos (d - (b - a))). nra. }
  assert (D2 : -3 <= e <= 3) by (apply Rabs_le_inv in E2; lra). assert (A3 : Rabs (a + e) <= 4) by (apply Rabs_le; lra).
  apply Rabs_le_inv in E2, E3, P2. assert (P3 : b - a <= (b - a) * k <= 0) by nra. split; lra.
Qed.

Lemma trim_some : forall lp bt (l : list SpeedSample), (1 <= lp_min_samples lp)%Z -> l <> [] -> loop_trim lp bt l <> [].
Proof.
  intros lp bt l M. induction l as [|s l IH]; [congruence|]. intros _. cbn [loop_trim]. destruct (dltb _ _ && (_ <? _)%Z) eqn:E; [|discriminate].
  apply IH. intros ->. apply andb_prop in E. destruct E as [_ E]. apply Z.ltb_lt in E. cbn in E. lia.
Qed.
Lemma trim_suffix : forall lp bt (l : list SpeedSample), exists dropped, l = dropped ++ loop_trim lp bt l /\
  (dropped = [] \/ (lp_min_samples lp <= Z.of_nat (List.length (loop_trim lp bt l)))%Z).
Proof.
  intros lp bt l. induction l as [|s l (d & E & K)]; [exists []; split; [reflexivity|left; reflexivity]|]. cbn [loop_trim].
  destruct (dltb _ _ && (_ <? _)%Z) eqn:T; [|exists []; split; [reflexivity|left; reflexivity]].
  exists (s :: d). split; [cbn [app]; rewrite <- E; reflexivity|]. right. destruct K as [K|K]; [|exact K]. rewrite K in E. cbn [app] in E. rewrite <- E.
  apply andb_prop in T. destruct T as [_ T]. apply Z.ltb_lt in T. cbn [List.length] in T. lia.
Qed.

(** The speeds in memory are those of the most recent results. *)
Definition speeds (lp : LoopParams (A := ieee acosf)) (past : list (Result (A := ieee acosf))) (samples : list SpeedSample) : Prop :=
  exists old recent, past = old ++ recent /\ map ss_speed samples = map speed32 recent /\ (old = [] \/ (lp_min_samples lp <= Z.of_nat (List.length recent))%Z).
Lemma min_one : forall p : StrokeModelParams (A := ieee acosf), validate_params p = OkStatus -> lp_enabled (pp_loop (p_position p)) = true -> (1 <= lp_min_samples (pp_loop (p_position p)))%Z.
Proof.
  intros p V EN. destruct (validate_params_parts p V) as (_ & VP & _). unfold validate_position in VP. apply and_then_ok in VP. destruct VP as [VL _].
  unfold validate_loop in VL. rewrite EN in VL. cbn [negb] in VL. destruct (_ || _) in VL; [discriminate VL|]. destruct (fltb _ _ || _ || _) in VL; [discriminate VL|].
  destruct (Z.ltb_spec (lp_min_samples (pp_loop (p_position p))) 1); [discriminate VL|assumption].
Qed.
Lemma speeds_more : forall lp past samples r t, speeds lp past samples ->
  speeds lp (past ++ [r]) (loop_trim lp t (samples ++ [mkSpeed (magnitude (r_vel r)) t])).
Proof.
  intros lp past samples r t (old & recent & -> & SS & OL).
  destruct (trim_suffix lp t (samples ++ [mkSpeed (magnitude (r_vel r)) t])) as (d & E & K). set (tr := loop_trim _ _ _) in *. clearbody tr.
  assert (SE : map ss_speed d ++ map ss_speed tr = map speed32 (recent ++ [r])).
  { rewrite <- map_app, <- E, map_app, map_app, SS. reflexivity. }
  set (j := List.length d). exists (old ++ firstn j (recent ++ [r])), (skipn j (recent ++ [r])). split; [rewrite <- !app_assoc, firstn_skipn; reflexivity|].
  assert (SK : map ss_speed tr = map speed32 (skipn j (recent ++ [r]))).
  { rewrite <- skipn_map, <- SE, skipn_app. rewrite skipn_all2 by (rewrite map_length; unfold j; lia). rewrite map_length. fold j. replace (j - j)%nat with 0%nat by lia. reflexivity. }
  split; [exact SK|]. assert (LN : List.length tr = List.length (skipn j (recent ++ [r]))) by (rewrite <- (map_length ss_speed), SK, map_length; reflexivity).
  rewrite <- LN. destruct K as [K|K]; [|right; exact K]. unfold j in *. rewrite K in *. cbn [List.length firstn skipn] in *. rewrite app_nil_r.
  destruct OL as [OL|OL]; [left; exact OL|right]. rewrite LN, app_length. lia.
Qed.
Lemma clamp_twice : forall v : float32, clamp01 (A := ieee acosf) (clamp01 (A := ieee acosf) v) = clamp01 (A := ieee acosf) v.
Proof.
  intros v. destruct (is_nan v) eqn:NN; [destruct v; try discriminate NN; reflexivity|]. apply clamp_id. apply clamp_unit. exact NN.
Qed.
Lemma mean_fold : forall (recent : list (Result (A := ieee acosf))) samples (z : float32), map ss_speed samples = map speed32 recent ->
  fold_left (fun sum s => fadd (Arith := ieee acosf) sum (ss_speed s)) samples z = fold_left (fun sum r => fadd (Arith := ieee acosf) sum (speed32 r)) recent z.
Proof.
  unfold A. intros recent. induction recent as [|r recent IH]; intros [|s samples] z H; cbn [map] in H; try discriminate H; [reflexivity|]. injection H as H1 H2. cbn [fold_left]. rewrite H1. apply IH. exact H2.
Qed.
Lemma value_strength : forall lp recent samples, lp_enabled lp = true -> map ss_speed samples = map (speed32 (acosf := acosf)) recent -> recent <> [] ->
  loop_value lp samples = strength32 lp (mean32 recent).
Proof.
  intros lp recent samples EN SS NE. unfold loop_value. destruct samples as [|s0 ss]; [destruct recent; [congruence|discriminate SS]|].
  set (samples := s0 :: ss) in *. rewrite EN. cbn [negb]. unfold interp_f. unfold A in *. rewrite clamp_twice.
  assert (AV : average_speed samples = mean32 recent).
  { unfold average_speed, mean32. unfold A in *. rewrite (mean_fold recent samples _ SS). f_equal. f_equal. f_equal. rewrite <- (map_length ss_speed), SS, map_length. reflexivity. }
  rewrite AV. reflexivity.
Qed.
Lemma value_weighed : forall (p : StrokeModelParams (A := ieee acosf)) past samples, validate_params p = OkStatus -> lp_enabled (pp_loop (p_position p)) = true ->
  speeds (pp_loop (p_position p)) past samples -> is_nan (loop_value (pp_loop (p_position p)) samples : float32) = false ->
  unit32 (loop_value (pp_loop (p_position p)) samples) /\ weighed (pp_loop (p_position p)) past (B2R (loop_value (pp_loop (p_position p)) samples : float32)).
Proof.
  intros p past samples V EN (old & recent & E & SS & OL) NN. pose proof (min_one p V EN) as M1. destruct recent as [|r rest] eqn:RE.
  - assert (OE : old = []) by (destruct OL as [OL|OL]; [exact OL|cbn in OL; lia]). destruct samples; [|discriminate SS]. cbn [loop_value].
    destruct (f1_fin acosf) as [O1 O2]. split; [split; [exact O1|unfold A in *; rewrite O2; lra]|]. left. rewrite E, OE. split; [reflexivity|exact O2].
  - rewrite <- RE in *. assert (NE : recent <> []) by (rewrite RE; discriminate).
    assert (NS : samples <> []) by (intros ->; rewrite RE in SS; discriminate SS).
    destruct (strength_value p samples V EN NS NN) as [U L]. split; [exact U|]. right. exists old, recent. split; [exact E|]. split; [exact NE|]. split; [exact OL|]. split; [exact L|].
    exact (f_equal (fun x : float32 => B2R x) (value_strength _ recent samples EN SS NE)).
Qed.

(** ** The point of the path *)
Record pmem (N : R) (l pts : list (Input (A := ieee acosf))) (sm : Stylus (A := ieee acosf)) : Prop := mkPmem {
  pm_cmem : cmem acosf l pts sm;
  pm_raw : Forall2 (as_input acosf) pts (s_raw (sm_state sm));
  pm_within : forall x, In x pts -> within N (i_pos x)
}.

Lemma cut_point : forall (a b : Vec2 (A := ieee acosf)) (v : float32), is_nan v = false -> interp_v a b v = interp_v a b (clamp01 v).
Proof. intros a b v H. unfold interp_v. unfold A in *. rewrite (clamp_id acosf (clamp01 (A := ieee acosf) v)); [reflexivity|]. apply clamp_unit. exact H. Qed.

Definition at_point (N : R) (x y : Input (A := ieee acosf)) (t : R) (u : Vec2 (A := ieee acosf)) : Prop :=
  Rabs (real32 (vx u) - (real32 (vx (i_pos x)) + (real32 (vx (i_pos y)) - real32 (vx (i_pos x))) * t)) <= 17 * u24 * N /\
  Rabs (real32 (vy u) - (real32 (vy (i_pos x)) + (real32 (vy (i_pos y)) - real32 (vy (i_pos x))) * t)) <= 17 * u24 * N.
Lemma query_point : forall fuel N l pts sm (tip : TipState (A := ieee acosf)) n q, pmem N l pts sm -> bpow radix2 (-40) <= N <= bpow radix2 59 ->
  stylus_query fuel sm tip n = Ret q -> is_finite (vx (r_pos q) : float32) = true ->
  within (1001 / 1000 * N) (r_pos q) /\ exists x y t, on_path pts x y t /\ raw_near acosf l x y t q /\ at_point N x y t (r_pos q).
Proof.
  intros fuel N l pts sm tip n q [[M1 M2 M3 M4 M5 _] M7 M8] NB H FQ. unfold stylus_query in H.
  assert (N0 : 0 < N) by (pose proof (bpow_gt_0 radix2 (-40)); lra).
  assert (U0 : 0 <= 17 * u24 * N) by (unfold u24; lra).
  destruct (s_raw (sm_state sm)) as [|fr rest] eqn:RAW; [exfalso; apply M4; inversion M7; reflexivity|].
  cbv zeta in H. rewrite <- RAW in H.
  match type of H with (let* _ := match ?pr with _ => _ end in _) = _ => destruct pr as [c|] eqn:PR end.
  + apply projection_struct in PR. rewrite RAW in PR. bind_inv H. rename E into IR. apply ret_inj in H. subst q. cbn [r_pos] in *.
    destruct (rel_right _ _ _ _ (segments_rel _ _ _ M7) PR) as ((x' & y') & I2 & MX & MY). cbn [fst snd] in MX, MY.
    destruct (segments_in _ _ _ I2) as [IX IY]. destruct MX as (XP & XT & X1 & X2 & X3). destruct MY as (YP & YT & Y1 & Y2 & Y3). cbn [fst snd] in *.
    unfold A in *. unfold interp_result in IR. rewrite XP, YP, X1, X2, X3, Y1, Y2, Y3 in IR. bind_inv IR. rename E into IA. apply ret_inj in IR. subst x. cbn [r_pos] in *.
    destruct (amount_number acosf _ _ _ FQ) as [_ NR]. set (rho := pj_ratio c : float32) in *. pose proof (clamp_unit acosf rho NR) as UR.
    rewrite (cut_point _ _ rho NR) in *. destruct (seg_point _ _ _ _ N (M8 _ IX) (M8 _ IY) UR NB) as (W & S1 & S2). split; [exact W|].
    exists x', y', (B2R (clamp01 (A := ieee acosf) rho : float32)). split; [left; split; [exact I2|apply UR]|].
    split; [|split; [exact S1|exact S2]].
    split; [|split]; intros K; cbn [r_pressure r_tilt r_orient].
    * rewrite (M1 K). rewrite (amount_cut _ _ _ rho NR). apply value_good; [apply K, M5; exact IX|apply K, M5; exact IY|exact UR].
    * rewrite (M2 K). rewrite (amount_cut _ _ _ rho NR). apply value_good; [apply K, M5; exact IX|apply K, M5; exact IY|exact UR].
    * rewrite (M3 K). pose proof (K _ (M5 _ IX)) as OX. pose proof (K _ (M5 _ IY)) as OY.
      assert (LT : forall o : float32, in_turn_closed o -> fltb (Arith := ieee acosf) o f0 = false).
      { intros o [FO RO]. destruct (f0_fin acosf) as [Z1 Z2]. cbn [fltb ieee]. apply (ltb_false_R 24 128); [exact FO|exact Z1|]. change float32 with (binary_float 24 128) in *. rewrite Z2. apply RO. }
      rewrite (LT _ OX), (LT _ OY) in IA. cbn [orb] in IA. rewrite (angle_cut _ _ _ _ rho NR) in IA. apply angle_off in IA; [|exact OX|exact OY|exact UR]. destruct IA as [[FI RI] IA].
      split; [|exact IA]. split; [exact FI|]. pose proof turn_order. lra.
  + assert (ONE : forall r, In r (fr :: rest) -> q = mkResult (r_pos r) (r_vel r) (r_acc r) (t_time tip) (if s_unk_pressure (sm_state sm) then fm1 else r_pressure r)
       (if s_unk_tilt (sm_state sm) then fm1 else r_tilt r) (if s_unk_orient (sm_state sm) then fm1 else r_orient r) ->
       within (1001 / 1000 * N) (r_pos q) /\ exists x y t, on_path pts x y t /\ raw_near acosf l x y t q /\ at_point N x y t (r_pos q)).
    { intros r I1 ->. destruct (rel_right _ _ _ _ M7 I1) as (x & IX & XP & XT & X1 & X2 & X3). cbn [fst snd] in *. cbn [r_pos].
      split; [rewrite XP; eapply near_within; [apply M8; exact IX|lra]|].
      exists x, x, 0. split; [right; auto|]. split.
      - unfold A in *. split; [|split]; intros K; cbn [r_pressure r_tilt r_orient];
        pose proof (K _ (M5 _ IX)) as KX; (rewrite (M1 K), X1 || rewrite (M2 K), X2 || rewrite (M3 K), X3); (apply single_ok || apply single_angle); exact KX.
      - rewrite XP. unfold at_point. split; (match goal with |- Rabs ?e <= _ => replace e with 0 by ring end; rewrite Rabs_R0; exact U0). }
    rewrite RAW in H. destruct (back (fr :: rest)) as [bk|] eqn:BK; [|discriminate H].
    assert (IB : In bk (fr :: rest)) by (eapply back_in; exact BK).
    match type of H with context [if ?b then Ret _ else Ret _] => destruct b end; cbn [obind] in H; apply ret_inj in H; [apply (ONE fr); [left; reflexivity|symmetry; exact H]|apply (ONE bk); [exact IB|symmetry; exact H]].
Qed.

(** ** The results *)
Lemma partway_sum : forall N x y t h w r q tip, 0 < N -> 0 <= w <= 1 ->
  Rabs (q - (x + (y - x) * t)) <= 17 * u24 * N -> Rabs (h - tip) <= 4 * u24 * N -> Rabs (r - (q + (tip - q) * w)) <= 17 * u24 * (1001 / 1000 * N) ->
  partway N x y t h w r.
Proof.
  intros N x y t h w r q tip N0 W E1 E2 E3. unfold partway. set (P := x + (y - x) * t) in *. clearbody P.
  assert (E4 : Rabs ((q - P) * (1 - w)) <= 17 * u24 * N).
  { rewrite Rabs_mult, (Rabs_pos_eq (1 - w)) by lra. pose proof (Rabs_pos (q - P)). nra. }
  assert (E5 : Rabs ((h - tip) * w) <= 4 * u24 * N).
  { rewrite Rabs_mult, (Rabs_pos_eq w) by lra. pose proof (Rabs_pos (h - tip)). nra. }
  replace (r - (P + (h - P) * w)) with (r - (q + (tip - q) * w) + (q - P) * (1 - w) - (h - tip) * w) by ring.
  apply Rabs_le_inv in E3, E4, E5. unfold u24, ppm in *. apply Rabs_le. lra.
Qed.

Lemma one_blended : forall fuel N l pts sm (tip : TipState (A := ieee acosf)) n q h r (v : float32), pmem N l pts sm -> bpow radix2 (-40) <= N <= bpow radix2 58 ->
  stylus_query fuel sm tip n = Ret q -> interp_result fuel q (make_result tip q) f1 = Ret h -> interp_result fuel q (make_result tip q) v = Ret r ->
  float_blended N l pts (fun w => is_nan v = false /\ w = B2R (clamp01 (A := ieee acosf) v : float32)) h r.
Proof.
  intros fuel N l pts sm tip n q h r v M NB Q IH IR WH WR.
  assert (N0 : 0 < N) by (pose proof (bpow_gt_0 radix2 (-40)); lra).
  assert (NB2 : bpow radix2 (-40) <= N <= bpow radix2 59) by (split; [apply NB|eapply Rle_trans; [apply NB|apply bpow_le; lia]]).
  assert (NB3 : bpow radix2 (-40) <= 1001 / 1000 * N <= bpow radix2 59).
  { split; [lra|]. replace (bpow radix2 59) with (2 * bpow radix2 58) by (change 2 with (bpow radix2 1); rewrite <- bpow_plus; reflexivity). lra. }
  assert (PH : r_pos h = interp_v (r_pos q) (t_pos tip) f1).
  { unfold interp_result in IH. bind_inv IH. apply ret_inj in IH. subst h. reflexivity. }
  assert (PR : r_pos r = interp_v (r_pos q) (t_pos tip) v).
  { clear IH. unfold interp_result in IR. bind_inv IR. apply ret_inj in IR. subst r. reflexivity. }
  rewrite PH in WH. assert (FR : is_finite (vx (interp_v (r_pos q) (t_pos tip) v) : float32) = true) by (rewrite <- PR; apply WR).
  destruct (amount_number acosf _ _ _ FR) as [FQ NV].
  destruct (query_point _ _ _ _ _ _ _ _ M NB2 Q FQ) as (WQ & x & y & t & ON & RN & A1 & A2).
  destruct (final_point _ _ _ N (proj1 NB) WH (fun _ _ => WQ)) as (WT & T1 & T2).
  pose proof (clamp_unit acosf v NV) as UV.
  destruct (seg_point _ _ _ _ _ WQ WT UV NB3) as (_ & S1 & S2).
  exists x, y, t, (B2R (clamp01 (A := ieee acosf) v : float32)). split; [exact ON|]. split; [auto|]. split; [eapply still_near; [exact RN|exact NV|exact IR]|].
  clear ON RN IR IH Q. rewrite (cut_point _ _ v NV) in PR. rewrite PR, PH.
  split; [exact (partway_sum _ _ _ _ _ _ _ _ _ N0 (proj2 UV) A1 T1 S1)|exact (partway_sum _ _ _ _ _ _ _ _ _ N0 (proj2 UV) A2 T2 S2)].
Qed.
Lemma blended_more : forall N l pts (ok ok' : R -> Prop) h r, (forall w, ok w -> ok' w) -> float_blended (acosf := acosf) N l pts ok h r -> float_blended N l pts ok' h r.
Proof.
  intros N l pts ok ok' h r K H W1 W2. destruct (H W1 W2) as (x & y & t & w & H1 & H2 & H3). exists x, y, t, w. split; [exact H1|]. split; [apply K; exact H2|exact H3].
Qed.

Lemma all_blended : forall fuel N l pts sm (p : StrokeModelParams (A := ieee acosf)), pmem N l pts sm -> bpow radix2 (-40) <= N <= bpow radix2 58 ->
  validate_params p = OkStatus -> lp_enabled (pp_loop (p_position p)) = true ->
  forall tips lm ln pt lm' ln' past hs out, l_params lm = pp_loop (p_position p) -> lp_enabled (l_params ln) = false -> speeds (pp_loop (p_position p)) past (l_samples lm) ->
  model_stylus fuel tips sm ln pt = Ret (ln', hs) -> model_stylus fuel tips sm lm pt = Ret (lm', out) ->
  float_mitigated N l pts (pp_loop (p_position p)) past hs out.
Proof.
  intros fuel N l pts sm p M NB V EN. unfold model_stylus.
  induction tips as [|tip rest IH]; intros lm ln pt lm' ln' past hs out LP LN SP HN HM; cbn [model_stylus_loop] in HN, HM.
  - apply ret_inj in HN, HM. injection HN as _ <-. injection HM as _ <-. constructor.
  - assert (GN : loop_get ln = f1) by (unfold loop_get; apply loop_value_off; exact LN). rewrite GN in HN.
    bind_inv HN. rename E into Q. bind_inv HN. rename E into IH1. cbn [obind] in HM. bind_inv HM. rename E into IR.
    assert (LU : loop_update ln (r_vel x0) (t_time tip) = (ln, f1)) by (unfold loop_update; rewrite LN; reflexivity). rewrite LU in HN. rewrite <- GN in HN.
    destruct (loop_update lm (r_vel x1) (t_time tip)) as [l1 v1] eqn:LM.
    bind_inv HN. rename E into HN2. destruct x2 as [l2 o2]. apply ret_inj in HN. injection HN as <- <-.
    bind_inv HM. rename E into HM2. destruct x2 as [l3 o3]. apply ret_inj in HM. injection HM as <- <-.
    unfold loop_update in LM. rewrite LP, EN in LM. cbn [negb] in LM. injection LM as E1 E2. rewrite E1 in E2. subst v1.
    constructor; [|eapply (IH l1 ln); [rewrite <- E1; reflexivity|exact LN| |exact HN2|exact HM2]].
    + eapply blended_more; [|eapply one_blended; [exact M|exact NB|exact Q|exact IH1|exact IR]].
      intros w [NV ->]. unfold loop_get in *. rewrite LP in *. destruct (value_weighed p past _ V EN SP NV) as [UV W]. unfold A in *. rewrite (clamp_id acosf _ UV). exact W.
    + rewrite <- E1. cbn [l_samples]. apply speeds_more. exact SP.
Qed.

(** ** The memory *)
Lemma memory_points : forall sm (l : list (Input (A := ieee acosf))), validate_stylus (sm_params sm) = OkStatus -> sy_normal (sm_params sm) = true ->
  remembering (sm_params sm) (map (with_pos acosf) l) (sm_state sm) -> l <> [] ->
  exists pts, float_kept (sm_params sm) l pts /\ cmem acosf l pts sm /\ Forall2 (as_input acosf) pts (s_raw (sm_state sm)).
Proof.
  intros sm l V NR RM NE. destruct (remembering_raw _ _ _ V RM) as ((F1 & F2 & F3) & K). unfold A in *.
  assert (LN : List.length l <> 0%nat) by (destruct l; cbn; congruence).
  destruct K as [[K1 [K2|[K2 K3]]]|(k & RT & K1)].
  - exfalso. destruct l; [congruence|discriminate K2].
  - congruence.
  - destruct RT as [R1 R2 R3 R4]. rewrite map_length in R1. set (pts := skipn k l).
    assert (SN : pts <> []).
    { intros E. apply (f_equal (@List.length _)) in E. unfold pts in E. rewrite skipn_length in E. cbn in E. lia. }
    assert (FI : Forall2 (as_input acosf) pts (s_raw (sm_state sm))).
    { unfold pts. rewrite skipn_map in K1. clear -K1. revert K1. set (l1 := skipn k l). set (raw := s_raw (sm_state sm)). clearbody l1 raw. intros K1. revert raw K1.
      induction l1 as [|x l1 IH]; intros raw K1; inversion K1; subst; constructor; [assumption|apply IH; assumption]. }
    assert (NM : forall j f, nth_error (map (with_pos acosf) l) j = Some f -> nth_error l j = Some (fst f)).
    { intros j f H. rewrite nth_error_map in H. destruct (nth_error l j) as [x|]; [|discriminate H]. cbn in H. injection H as <-. reflexivity. }
    exists pts. split; [|split; [|exact FI]].
    + split; [exact SN|]. split; [congruence|]. intros _. exists (firstn k l). split; [symmetry; apply firstn_skipn|].
      assert (LP : List.length pts = (List.length l - k)%nat) by (unfold pts; apply skipn_length). rewrite LP. rewrite map_length in *. split.
      * destruct (R3 NR) as [->|(Q1 & f & x & Q2 & Q3 & Q4)]; [left; reflexivity|]. right. split; [exact Q1|].
        exists (fst f), (fst x). unfold pts. rewrite nth_hd. split; [apply NM; exact Q2|]. split; [|exact Q4].
        rewrite skipn_map in Q3. apply in_map_iff in Q3. destruct Q3 as (y & <- & Q3). exact Q3.
      * destruct (R4 NR) as [Q|(s & b & Q1 & Q2 & Q3)]; [left; exact Q|]. right. exists (fst s), (fst b). unfold pts.
        split; [rewrite nth_skip; apply NM; exact Q1|]. split; [|exact Q3]. rewrite back_skip by exact R1.
        rewrite back_map in Q2. destruct (back l) as [y|]; [|discriminate Q2]. cbn in Q2. injection Q2 as <-. reflexivity.
    + constructor; [| | |exact SN| |].
      * intros H. transitivity (existsb (fun ic => unknown_value (A := ieee acosf) (i_pressure (fst ic))) (map (with_pos acosf) l)); [exact F1|]. apply (all_known acosf i_pressure). intros i I1. destruct (H i I1) as [X1 X2]. split; [exact X1|apply X2].
      * intros H. transitivity (existsb (fun ic => unknown_value (A := ieee acosf) (i_tilt (fst ic))) (map (with_pos acosf) l)); [exact F2|]. apply (all_known acosf i_tilt). intros i I1. destruct (H i I1) as [X1 X2]. split; [exact X1|apply X2].
      * intros H. transitivity (existsb (fun ic => unknown_value (A := ieee acosf) (i_orient (fst ic))) (map (with_pos acosf) l)); [exact F3|]. apply (all_known acosf i_orient). intros i I1. destruct (H i I1) as [X1 X2]. split; [exact X1|apply X2].
      * intros x H. unfold pts in H. rewrite <- (firstn_skipn k l). apply in_or_app. right. exact H.
      * left. clear -FI. induction FI as [|x r l1 l2 (_ & _ & H) _ IH]; constructor; [exact H|exact IH].
Qed.
Lemma needs_normal : forall p : StrokeModelParams (A := ieee acosf), validate_params p = OkStatus -> lp_enabled (pp_loop (p_position p)) = true -> sy_normal (p_stylus p) = true.
Proof.
  intros p V E. unfold validate_params in V. rewrite E in V. destruct (sy_normal (p_stylus p)); [reflexivity|]. cbn in V. discriminate V.
Qed.

(** ** The speeds in memory *)
Definition has_speeds (p : StrokeModelParams (A := ieee acosf)) (es : list (entry (A := ieee acosf))) (c : core) : Prop :=
  List.concat (map snd es) <> [] /\ (lp_enabled (pp_loop (p_position p)) = true -> speeds (pp_loop (p_position p)) (after_down es) (co_l c)).
Lemma speeds_model : forall fuel (p : StrokeModelParams (A := ieee acosf)) sm, lp_enabled (pp_loop (p_position p)) = true ->
  forall tips lm v pt lm' out past, l_params lm = pp_loop (p_position p) -> speeds (pp_loop (p_position p)) past (l_samples lm) ->
  model_stylus_loop fuel tips sm lm v pt = Ret (lm', out) -> speeds (pp_loop (p_position p)) (past ++ out) (l_samples lm').
Proof.
  intros fuel p sm EN. induction tips as [|tip rest IH]; intros lm v pt lm' out past LP SP H; cbn [model_stylus_loop] in H.
  - apply ret_inj in H. injection H as <- <-. rewrite app_nil_r. exact SP.
  - bind_inv H. bind_inv H. destruct (loop_update lm (r_vel x0) (t_time tip)) as [l1 v1] eqn:LU. bind_inv H. rename E1 into H2. destruct x1 as [l2 o2].
    apply ret_inj in H. injection H as <- <-. unfold loop_update in LU. rewrite LP, EN in LU. cbn [negb] in LU. injection LU as E1 E2.
    replace (past ++ x0 :: o2) with ((past ++ [x0]) ++ o2) by (rewrite <- app_assoc; reflexivity).
    eapply (IH l1); [rewrite <- E1; reflexivity| |exact H2]. rewrite <- E1. cbn [l_samples]. apply speeds_more. exact SP.
Qed.
Lemma speeds_state : forall fuel hist s (es : list (entry (A := ieee acosf))), after_stroke fuel hist s es ->
  exists m rs, run fuel modeler0 hist = Ret (m, rs) /\ tracks s m /\ good m /\ cons m /\
    (forall p last, m_params m = Some p -> m_last m = Some last -> lp_enabled (pp_loop (p_position p)) = true -> speeds (pp_loop (p_position p)) (after_down es) (l_samples (m_loop m))).
Proof.
  intros fuel hist s es AS. assert (K : exists m rs, run fuel modeler0 hist = Ret (m, rs) /\ tracks s m /\ good m /\ cons m /\
    (forall p last, m_params m = Some p -> m_last m = Some last -> has_speeds p es (core_of p m last))).
  2:{ destruct K as (m & rs & K1 & K2 & K3 & K4 & K5). exists m, rs. repeat (split; [assumption|]). intros p last MP ML. apply (K5 p last MP ML). }
  eapply (after_stroke_state fuel (fun _ => True) has_speeds); [| | |exact AS|apply call_in_true].
  - intros p m i m' out _ MP V G U EV.
    destruct (upd_down fuel m i m' out U EV) as (q & sm & pred & _ & _ & _ & _ & _ & -> & ->). split; [discriminate|]. intros _. exists [], []. split; [reflexivity|]. split; [reflexivity|left; reflexivity].
  - intros p m i m' out es0 lst last' _ MP V G CP ML [SN SP] U EV ML'.
    assert (CC : List.concat (map snd (es0 ++ [(i, out)])) = List.concat (map snd es0) ++ out).
    { rewrite map_app, concat_app. cbn [map List.concat snd]. rewrite app_nil_r. reflexivity. }
    split; [rewrite CC; intros E; apply app_eq_nil in E; destruct E; contradiction|]. intros EN. specialize (SP EN).
    destruct (upd_move fuel m i m' out U EV) as (q & last0 & w & c & sm & n & tip & tips & pred & lm & MQ & _ & ML0 & _ & _ & SU & _ & _ & _ & MS & ->).
    destruct CP as (_ & _ & P3 & P4). cbn [core_of co_l m_loop] in *.
    unfold after_down in *. rewrite CC. destruct (List.concat (map snd es0)) as [|r rest]; [congruence|]. cbn [app tl] in *.
    exact (speeds_model fuel p sm EN tips (m_loop m) _ _ _ _ _ P4 SP MS).
  - intros p m i m' out is lst e _ MP V G CP ML J U NE. inversion U; subst; try congruence; exact J.
Qed.

Lemma both_run : forall fuel hist m rs0 n rs1, run fuel modeler0 hist = Ret (m, rs0) -> run fuel modeler0 (map (unmitigated (A := ieee acosf)) hist) = Ret (n, rs1) ->
  Quiet.quiet m n /\ cons n.
Proof.
  intros fuel hist m rs0 n rs1 R1 R2. pose proof (run_quiet fuel hist modeler0 modeler0 quiet0 cons0 cons0) as K. unfold A in *. rewrite R1, R2 in K.
  cbn [both fst snd] in K. split; apply K.
Qed.

Lemma call_mitigated : forall fuel (p : StrokeModelParams (A := ieee acosf)) l N sm lm ln lm' ln' tips pt past hs out, validate_params p = OkStatus -> lp_enabled (pp_loop (p_position p)) = true ->
  sm_params sm = p_stylus p -> l <> [] -> (forall x, In x l -> within N (i_pos x)) -> bpow radix2 (-40) <= N <= bpow radix2 58 ->
  remembering (p_stylus p) (map (with_pos acosf) l) (sm_state sm) -> l_params lm = pp_loop (p_position p) -> lp_enabled (l_params ln) = false -> speeds (pp_loop (p_position p)) past (l_samples lm) ->
  model_stylus fuel tips sm ln pt = Ret (ln', hs) -> model_stylus fuel tips sm lm pt = Ret (lm', out) ->
  exists recent, float_kept (p_stylus p) l recent /\ float_mitigated N l recent (pp_loop (p_position p)) past hs out.
Proof.
  intros fuel p l N sm lm ln lm' ln' tips pt past hs out V EN SP NE WI NB RM LP LN PA HN HM. rewrite <- SP in *.
  destruct (memory_points sm l) as (pts & K & M & FI); [rewrite SP; apply (validate_params_parts p V)|rewrite SP; apply needs_normal; assumption|exact RM|exact NE|].
  exists pts. split; [exact K|]. eapply all_blended; [|exact NB|exact V|exact EN|exact LP|exact LN|exact PA|exact HN|exact HM].
  constructor; [exact M|exact FI|]. intros x I1. apply WI. apply (cm_in _ _ _ _ M). exact I1.
Qed.

Lemma update_mitigated : forall fuel hist s (p : StrokeModelParams (A := ieee acosf)) es (seen : list (Input (A := ieee acosf))) (i : Input (A := ieee acosf)) rs out hs N,
  after_seen fuel hist s es seen -> ps_params s = Some p -> lp_enabled (pp_loop (p_position p)) = true -> wp_enabled (p_wobble p) = false ->
  (i_event i = EMove \/ i_event i = EUp) -> (forall x, In x (seen ++ [i]) -> within N (i_pos x)) -> bpow radix2 (-40) <= N <= bpow radix2 58 ->
  answers fuel hist [CUpdate i rs] = Ret [RResults OkStatus (rs ++ out)] ->
  answers fuel (map unmitigated hist) [CUpdate i rs] = Ret [RResults OkStatus (rs ++ hs)] ->
  exists recent, float_kept (p_stylus p) (seen ++ [i]) recent /\ float_mitigated N (seen ++ [i]) recent (pp_loop (p_position p)) (after_down es) hs out.
Proof.
  intros fuel hist s p es seen i rs out hs N AS P EN WO EV WI NB AN AH.
  assert (NE : seen ++ [i] <> []) by (intros E; apply app_eq_nil in E; destruct E; discriminate).
  destruct (remembered_state _ _ _ _ _ AS) as (m0 & rs0 & R0 & _ & _ & _ & RM).
  assert (ST : after_stroke fuel hist s es) by (destruct AS as (ma & rsa & B1 & B2 & B3 & _ & B4); exists ma, rsa; auto).
  destruct (speeds_state _ _ _ _ ST) as (m1 & rs1 & R1 & _ & _ & _ & PS). rewrite R0 in R1. injection R1 as <- <-.
  assert (AF : after fuel hist s) by (destruct AS as (ma & rsa & Ra & Pa & _); exists ma, rsa; auto).
  destruct (accepted_update _ _ _ _ _ _ _ AF AN) as (m & r0 & m' & o & R & (T1 & T2 & _) & G & C & K & U & _).
  rewrite R0 in R. injection R as -> ->. apply app_inv_head in K. subst o.
  assert (AF2 : exists s2, after fuel (map unmitigated hist) s2).
  { unfold answers in AH. destruct (run fuel modeler0 (map unmitigated hist)) as [[n qs]| |] eqn:RN; try discriminate AH. exists (prun pstate0 (map unmitigated hist) qs), n, qs. auto. }
  destruct AF2 as [s2 AF2].
  destruct (accepted_update _ _ _ _ _ _ _ AF2 AH) as (n & r1 & n' & o & RN & _ & _ & _ & K & UN & _). apply app_inv_head in K. subst o.
  destruct (both_run _ _ _ _ _ _ R0 RN) as [CA CN].
  pose proof CA as [E1 E2 E3 E4 E5 E6 E7 E8 E9 E10].
  destruct EV as [EI|EI].
  - destruct (upd_move fuel m i m' out U EI) as (q & last0 & w & c & sm & k & tip & tips & pred & lm & MQ & _ & ML & _ & WU & SU & NS & UA & _ & MS & _).
    destruct (upd_move fuel n i n' hs UN EI) as (q' & last' & w' & c' & sm' & k' & tip' & tips' & pred' & ln & MQ' & _ & ML' & _ & WU' & SU' & NS' & UA' & _ & MS' & _).
    assert (q = p) by congruence. subst q. pose proof (g_valid _ G p MQ) as V.
    destruct (C p MQ ltac:(left; congruence)) as (C1 & C2 & C3 & C4).
    destruct (in_stroke_quiet _ _ _ _ CA CN MQ ML) as [F1 F2].
    rewrite E7, ML in ML'. injection ML' as <-. rewrite E3, WU in WU'. injection WU' as <- <-. rewrite E6, SU in SU'. injection SU' as <-.
    rewrite E2, MQ in MQ'. injection MQ' as <-. rewrite E4 in NS', UA'. cbn [without_mitigation p_sampling p_position] in NS'. rewrite steps_quiet, NS in NS'. injection NS' as <-.
    rewrite F1, along_path_quiet, <- C2, UA in UA'. injection UA' as <- <-.
    destruct (RM p last0 MQ ML) as (cs & ws & [H1 H2 _ _ _ _]). cbn [core_of co_w co_s] in *.
    assert (SP : sm_params sm = p_stylus p) by (rewrite <- C3; eapply stylus_update_params; exact SU).
    eapply (call_mitigated fuel p (seen ++ [i]) N); [exact V|exact EN|exact SP|exact NE|exact WI|exact NB| |exact C4|exact F2|exact (PS p last0 MQ ML EN)|exact MS'|exact MS].
    rewrite (smoothing_off _ _ _ _ _ H1 WO), combine_pos in H2. rewrite map_app. eapply Re_more; [exact H2|]. rewrite <- C3.
    assert (CE : c = i_pos i) by (eapply Props_FLift.wobble_off; [exact WU|rewrite C1; exact WO]). rewrite CE in SU.
    apply stylus_mstep. exact SU.
  - destruct (upd_up fuel m i m' out U EI) as (q & last0 & k & tip1 & tips1 & tip2 & tips2 & sm & lm & MQ & _ & ML & _ & NS & UA & ES & SU & MS & _).
    destruct (upd_up fuel n i n' hs UN EI) as (q' & last' & k' & tip1' & tips1' & tip2' & tips2' & sm' & ln & MQ' & _ & ML' & _ & NS' & UA' & ES' & SU' & MS' & _).
    assert (q = p) by congruence. subst q. pose proof (g_valid _ G p MQ) as V.
    destruct (C p MQ ltac:(left; congruence)) as (C1 & C2 & C3 & C4).
    destruct (in_stroke_quiet _ _ _ _ CA CN MQ ML) as [F1 F2].
    rewrite E7, ML in ML'. injection ML' as <-. rewrite E6, SU in SU'. injection SU' as <-.
    rewrite E2, MQ in MQ'. injection MQ' as <-. rewrite E4 in NS', UA'. cbn [without_mitigation p_sampling p_position] in NS', ES'. rewrite steps_quiet, NS in NS'. injection NS' as <-.
    rewrite F1, along_path_quiet, <- C2, UA in UA'. injection UA' as <- <-. rewrite F1, end_of_stroke_quiet, <- C2, ES in ES'. injection ES' as <- <-.
    destruct (RM p last0 MQ ML) as (cs & ws & [H1 H2 _ _ _ _]). cbn [core_of co_w co_s] in *.
    assert (SP : sm_params sm = p_stylus p) by (rewrite <- C3; eapply stylus_update_params; exact SU).
    eapply (call_mitigated fuel p (seen ++ [i]) N); [exact V|exact EN|exact SP|exact NE|exact WI|exact NB| |exact C4|exact F2|exact (PS p last0 MQ ML EN)|exact MS'|exact MS].
    rewrite (smoothing_off _ _ _ _ _ H1 WO), combine_pos in H2. rewrite map_app. eapply Re_more; [exact H2|]. rewrite <- C3.
    apply stylus_mstep. exact SU.
Qed.

Lemma predict_mitigated : forall fuel hist s (p : StrokeModelParams (A := ieee acosf)) es (seen : list (Input (A := ieee acosf))) rs out hs N,
  after_seen fuel hist s es seen -> ps_params s = Some p -> lp_enabled (pp_loop (p_position p)) = true -> wp_enabled (p_wobble p) = false ->
  (forall x, In x seen -> within N (i_pos x)) -> bpow radix2 (-40) <= N <= bpow radix2 58 ->
  answers fuel hist [CPredict rs] = Ret [RResults OkStatus out] ->
  answers fuel (map unmitigated hist) [CPredict rs] = Ret [RResults OkStatus hs] ->
  exists recent, float_kept (p_stylus p) seen recent /\ float_mitigated N seen recent (pp_loop (p_position p)) (after_down es) hs out.
Proof.
  intros fuel hist s p es seen rs out hs N AS P EN WO WI NB AN AH.
  destruct (remembered_state _ _ _ _ _ AS) as (m0 & rs0 & R0 & _ & _ & _ & RM).
  assert (ST : after_stroke fuel hist s es) by (destruct AS as (ma & rsa & B1 & B2 & B3 & _ & B4); exists ma, rsa; auto).
  destruct (speeds_state _ _ _ _ ST) as (m1 & rs1 & R1 & _ & _ & _ & PS). rewrite R0 in R1. injection R1 as <- <-.
  assert (AF : after fuel hist s) by (destruct AS as (ma & rsa & Ra & Pa & _); exists ma, rsa; auto).
  destruct (accepted_predict _ _ _ _ _ _ AF AN) as (m & r0 & m' & R & (T1 & T2 & _) & G & C & U).
  rewrite R0 in R. injection R as -> ->.
  assert (AF2 : exists s2, after fuel (map unmitigated hist) s2).
  { unfold answers in AH. destruct (run fuel modeler0 (map unmitigated hist)) as [[n qs]| |] eqn:RN; try discriminate AH. exists (prun pstate0 (map unmitigated hist) qs), n, qs. auto. }
  destruct AF2 as [s2 AF2].
  destruct (accepted_predict _ _ _ _ _ _ AF2 AH) as (n & r1 & n' & RN & _ & _ & _ & UN).
  destruct (both_run _ _ _ _ _ _ R0 RN) as [CA CN].
  pose proof CA as [E1 E2 E3 E4 E5 E6 E7 E8 E9 E10].
  destruct (prd_ok fuel m m' out U) as (q & pr & last0 & tips & lm & MQ & MP & ML & PC & MS & _).
  destruct (prd_ok fuel n n' hs UN) as (q' & pr' & last' & tips' & ln & MQ' & MP' & ML' & PC' & MS' & _).
  assert (q = p) by congruence. subst q. pose proof (g_valid _ G p MQ) as V.
  destruct (C p MQ ltac:(left; congruence)) as (C1 & C2 & C3 & C4).
  destruct (in_stroke_quiet _ _ _ _ CA CN MQ ML) as [F1 F2].
  rewrite E7, ML in ML'. injection ML' as <-. rewrite E1, MP in MP'. cbn [option_map] in MP'. injection MP' as <-.
  rewrite pred_construct_quiet, E4, PC in PC'. apply ret_inj in PC'. subst tips'. rewrite E6 in MS'.
  destruct (RM p last0 MQ ML) as (cs & ws & [H1 H2 _ _ _ _]). cbn [core_of co_w co_s] in *.
  assert (NE : seen <> []).
  { intros ->. clear - H1. remember [] as l eqn:E in H1. destruct H1 as [d|l cs st j c st' H W]; [discriminate E|]. destruct l; discriminate E. }
  eapply (call_mitigated fuel p seen N); [exact V|exact EN|exact C3|exact NE|exact WI|exact NB| |exact C4|exact F2|exact (PS p last0 MQ ML EN)|exact MS'|exact MS].
  rewrite (smoothing_off _ _ _ _ _ H1 WO), combine_pos in H2. exact H2.
Qed.
End FLoop.

(** ** C34 *)
(** Each result of a Move or an Up lies, up to rounding, between a point of the inputs
    in memory and where it would be without mitigation.  [hs] are the results of the same call after the same history with mitigation
    switched off. *)
Theorem C34_float_mitigation_update : forall acosf (A := ieee acosf) fuel hist s (p : StrokeModelParams (A := ieee acosf)) es seen (i : Input (A := ieee acosf)) rs out hs N,
  after_seen fuel hist s es seen -> ps_params s = Some p -> lp_enabled (pp_loop (p_position p)) = true -> wp_enabled (p_wobble p) = false ->
  (i_event i = EMove \/ i_event i = EUp) -> (forall x, In x (seen ++ [i]) -> within N (i_pos x)) -> bpow radix2 (-40) <= N <= bpow radix2 58 ->
  answers fuel hist [CUpdate i rs] = Ret [RResults OkStatus (rs ++ out)] ->
  answers fuel (map unmitigated hist) [CUpdate i rs] = Ret [RResults OkStatus (rs ++ hs)] ->
  exists recent, float_kept (p_stylus p) (seen ++ [i]) recent /\ float_mitigated N (seen ++ [i]) recent (pp_loop (p_position p)) (after_down es) hs out.
Proof. intros acosf A. exact (update_mitigated acosf). Qed.

(** Of a prediction. *)
Theorem C34_float_mitigation_predict : forall acosf (A := ieee acosf) fuel hist s (p : StrokeModelParams (A := ieee acosf)) es seen rs out hs N,
  after_seen fuel hist s es seen -> ps_params s = Some p -> lp_enabled (pp_loop (p_position p)) = true -> wp_enabled (p_wobble p) = false ->
  (forall x, In x seen -> within N (i_pos x)) -> bpow radix2 (-40) <= N <= bpow radix2 58 ->
  answers fuel hist [CPredict rs] = Ret [RResults OkStatus out] ->
  answers fuel (map unmitigated hist) [CPredict rs] = Ret [RResults OkStatus hs] ->
  exists recent, float_kept (p_stylus p) seen recent /\ float_mitigated N seen recent (pp_loop (p_position p)) (after_down es) hs out.
Proof. intros acosf A. exact (predict_mitigated acosf). Qed.

(** ** The strength *)
Section FStrength.
Variable acosf : float32 -> float32.
Lemma clamp_div : forall x y : float32, is_finite x = true -> is_finite y = true -> 0 < B2R y ->
  is_nan (Bdiv mode_NE x y) = false /\ B2R (clamp01 (A := ieee acosf) (Bdiv mode_NE x y : float32) : float32) = unit_cut (r32 (B2R x / B2R y)).
Proof.
  intros x y FX FY PY. pose proof (Bdiv_correct 24 128 _ _ mode_NE x y ltac:(lra)) as H. change (SpecFloat.fexp 24 128) with (FLT_exp (-149) 24) in H.
  assert (RE : round radix2 (FLT_exp (-149) 24) (round_mode mode_NE) (B2R x / B2R y) = r32 (B2R x / B2R y)) by reflexivity.
  rewrite RE in H. destruct (f0_fin acosf) as [G3 G4]. destruct (f1_fin acosf) as [G1 G2].
  destruct (Rlt_bool_spec (Rabs (r32 (B2R x / B2R y))) (bpow radix2 128)) as [L|L].
  - destruct H as (H1 & H2 & _). rewrite FX in H2. destruct (clamp_value acosf _ H2) as [_ C]. split; [destruct (Bdiv mode_NE x y); try discriminate H2; reflexivity|].
    rewrite C, H1. reflexivity.
  - set (z := Bdiv mode_NE x y) in *. clearbody z.
    assert (SY : Bsign y = false) by (destruct y as [| | |[] ? ? ?]; cbn in *; try discriminate; try lra; try reflexivity; exfalso; assert (F2R (Float radix2 (Z.neg m) e) < 0) by (apply F2R_lt_0; reflexivity); lra).
    rewrite SY, xorb_false_r in H. change (binary_overflow 24 128 mode_NE (Bsign x)) with (SpecFloat.S754_infinity (Bsign x)) in H.
    destruct z as [|s| |]; try discriminate H. cbn in H. injection H as ->. split; [reflexivity|].
    assert (INF : forall o : float32, is_finite o = true -> Bltb (B754_infinity true) o = true /\ Bltb o (B754_infinity true) = false /\ Bltb (B754_infinity false) o = false /\ Bltb o (B754_infinity false) = true).
    { intros o FO. destruct o as [[]| | |[] ? ? ?]; try discriminate FO; repeat split. }
    assert (BP : 1 <= bpow radix2 128) by (change 1 with (bpow radix2 0); apply bpow_le; lia).
    unfold clamp01, std_clamp. cbn [fltb ieee]. destruct (INF _ G3) as (I1 & _ & I3 & _). destruct (INF _ G1) as (_ & _ & _ & I4).
    pose proof (Rinv_0_lt_compat _ PY) as IY.
    destruct (Bsign x) eqn:SX.
    + rewrite I1, G4. assert (NX : B2R x <= 0).
      { destruct x as [| | |[] ? ? ?]; cbn in *; try discriminate; try lra. apply F2R_le_0. discriminate. }
      assert (R0 : r32 (B2R x / B2R y) <= 0) by (apply rnd_le_fmt; [reflexivity|apply generic_format_0|unfold Rdiv; nra]).
      destruct (unit_cut_cases (r32 (B2R x / B2R y))) as [[_ ->]|[[K ->]|[K _]]]; [reflexivity|lra|lra].
    + rewrite I3, I4, G2. assert (NX : 0 <= B2R x).
      { destruct x as [| | |[] ? ? ?]; cbn in *; try discriminate; try lra. apply F2R_ge_0. discriminate. }
      assert (R0 : 0 <= r32 (B2R x / B2R y)) by (apply rnd_ge0; [reflexivity|unfold Rdiv; nra]). rewrite Rabs_pos_eq in L by exact R0.
      destruct (unit_cut_cases (r32 (B2R x / B2R y))) as [[K _]|[[K ->]|[_ ->]]]; [lra|lra|reflexivity].
Qed.
Lemma diff_small : forall x y : float32, is_finite x = true -> is_finite y = true -> 0 <= B2R x -> 0 <= B2R y ->
  is_finite (Bminus mode_NE x y) = true /\ B2R (Bminus mode_NE x y) = r32 (B2R x - B2R y).
Proof.
  intros x y FX FY PX PY. apply (minus_fin 24 128 _ _ x y FX FY). unfold small.
  apply Rle_lt_trans with (Rmax (B2R x) (B2R y)).
  - apply (rnd_abs_le 24 128); [reflexivity|unfold Rmax; destruct (Rle_dec _ _); apply fmt_B2R|]. apply Rabs_le. pose proof (Rmax_l (B2R x) (B2R y)). pose proof (Rmax_r (B2R x) (B2R y)). lra.
  - pose proof (abs_B2R_lt_emax 24 128 x). pose proof (abs_B2R_lt_emax 24 128 y). pose proof (Rle_abs (B2R x)). pose proof (Rle_abs (B2R y)). apply Rmax_lub_lt; lra.
Qed.
Lemma eta_tiny : 0 <= eta <= / 1073741824.
Proof. split; [apply bpow_ge_0|]. change (/ 1073741824) with (bpow radix2 (-30)). apply bpow_le. lia. Qed.
Lemma limits_near : forall k a b, 0 <= k <= 1 -> 0 <= a <= 1 -> 0 <= b <= 1 -> b <= a -> b - ppm <= r32 (a + r32 (r32 (b - a) * k)) <= a + ppm.
Proof.
  intros k a b [C1 C2] [L1 L2] [U1 U2] Q1.
  pose proof (r32_error (b - a)) as E1. set (d := r32 (b - a)) in *. pose proof (r32_error (d * k)) as E2. set (e := r32 (d * k)) in *. pose proof (r32_error (a + e)) as E3. set (f := r32 (a + e)) in *. clearbody d e f.
  pose proof eta_tiny as ET. unfold u24, ppm in *.
  assert (A1 : Rabs (b - a) <= 1) by (apply Rabs_le; lra).
  assert (D1 : -2 <= d <= 2) by (apply Rabs_le_inv in E1; lra).
  assert (P1 : -2 <= d * k <= 2) by nra. assert (A2 : Rabs (d * k) <= 2) by (apply Rabs_le; lra).
  assert (P2 : Rabs (d * k - (b - a) * k) <= / 16777216 + eta).
  { replace (d * k - (b - a) * k) with ((d - (b - a)) * k) by ring. rewrite Rabs_mult, (Rabs_pos_eq k) by lra. pose proof (Rabs_pos (d - (b - a))). nra. }
  assert (D2 : -3 <= e <= 3) by (apply Rabs_le_inv in E2; lra). assert (A3 : Rabs (a + e) <= 4) by (apply Rabs_le; lra).
  apply Rabs_le_inv in E2, E3, P2. assert (P3 : b - a <= (b - a) * k <= 0) by nra. split; lra.
Qed.
Lemma upper_near : forall a b, 0 <= a <= 1 -> 0 <= b <= 1 -> Rabs (r32 (a + r32 (r32 (b - a))) - b) <= ppm.
Proof.
  intros a b [L1 L2] [U1 U2].
  pose proof (r32_error (b - a)) as E1. set (d := r32 (b - a)) in *. pose proof (r32_error d) as E2. set (e := r32 d) in *. pose proof (r32_error (a + e)) as E3. set (f := r32 (a + e)) in *. clearbody d e f.
  pose proof eta_tiny as ET. unfold u24, ppm in *.
  assert (A1 : Rabs (b - a) <= 1) by (apply Rabs_le; lra). assert (D1 : -2 <= d <= 2) by (apply Rabs_le_inv in E1; lra). assert (A2 : Rabs d <= 2) by (apply Rabs_le; lra).
  assert (D2 : -3 <= e <= 3) by (apply Rabs_le_inv in E2; lra). assert (A3 : Rabs (a + e) <= 4) by (apply Rabs_le; lra).
  apply Rabs_le_inv in E1, E2, E3. apply Rabs_le. split; lra.
Qed.
Definition ramp32 (sl su v : R) : R := if Req_EM_T su sl then 0 else unit_cut (r32 (r32 (v - sl) / r32 (su - sl))).
Lemma strength_real : forall (lp : LoopParams (A := ieee acosf)) (v : float32), is_finite (lp_speed_lower lp : float32) = true -> is_finite (lp_speed_upper lp : float32) = true ->
  unit32 (lp_strength_lower lp) -> unit32 (lp_strength_upper lp) -> 0 <= real32 (lp_speed_lower lp) <= real32 (lp_speed_upper lp) -> is_finite v = true -> 0 <= B2R v ->
  unit32 (strength32 lp v) /\
  real32 (strength32 lp v) = r32 (real32 (lp_strength_lower lp) + r32 (r32 (real32 (lp_strength_upper lp) - real32 (lp_strength_lower lp)) * ramp32 (real32 (lp_speed_lower lp)) (real32 (lp_speed_upper lp)) (B2R v))).
Proof.
  intros lp v FL FU (F1 & L1 & L2) (F2 & U1 & U2) [S1 S2] FV PV. unfold real32 in *.
  change (strength32 lp v) with (interp_f (A := ieee acosf) (lp_strength_lower lp) (lp_strength_upper lp) (inverse_lerp (A := ieee acosf) (lp_speed_lower lp) (lp_speed_upper lp) v)).
  set (lo := lp_strength_lower lp : float32) in *. set (up := lp_strength_upper lp : float32) in *. set (sl := lp_speed_lower lp : float32) in *. set (su := lp_speed_upper lp : float32) in *. clearbody lo up sl su.
  destruct (diff_small su sl FU FL ltac:(lra) S1) as [W1 W2]. destruct (diff_small v sl FV FL PV S1) as [V1 V2]. destruct (f0_fin acosf) as [G3 G4].
  assert (C : is_nan (inverse_lerp (A := ieee acosf) sl su v : float32) = false /\ B2R (clamp01 (A := ieee acosf) (inverse_lerp (A := ieee acosf) sl su v) : float32) = ramp32 (B2R sl) (B2R su) (B2R v)).
  { unfold inverse_lerp, ramp32. cbn [feqb fdiv fsub ieee]. destruct (Beqb (Bminus mode_NE su sl) (f0 (A := ieee acosf))) eqn:Q.
    - apply (eqb_R 24 128) in Q; [|exact W1|exact G3]. rewrite W2, G4 in Q. destruct (Req_EM_T (B2R su) (B2R sl)) as [E|E].
      + split; [destruct (f0 (A := ieee acosf) : float32); try discriminate G3; reflexivity|]. rewrite (clamp_id acosf); [exact G4|]. split; [exact G3|rewrite G4; lra].
      + exfalso. revert Q. apply (round_plus_neq_0 radix2 (FLT_exp (-149) 24) ZnearestE (B2R su) (- B2R sl)); [apply fmt_B2R|apply generic_format_opp, fmt_B2R|lra].
    - apply (eqb_false_R 24 128) in Q; [|exact W1|exact G3]. rewrite W2, G4 in Q. destruct (Req_EM_T (B2R su) (B2R sl)) as [E|E].
      + exfalso. apply Q. replace (B2R su - B2R sl) with 0 by lra. apply rnd_0. 
      + assert (WP : 0 < B2R (Bminus mode_NE su sl)).
        { rewrite W2. assert (0 <= r32 (B2R su - B2R sl)) by (apply rnd_ge0; [reflexivity|lra]). lra. }
        destruct (clamp_div _ _ V1 W1 WP) as [K1 K2]. split; [exact K1|]. rewrite K2, V2, W2. reflexivity. }
  destruct C as [C1 C2]. split; [apply (interp_unit acosf lo up _); [repeat split; assumption|repeat split; assumption|exact C1]|].
  destruct (interp_fin acosf lo up _ 1 F1 F2 C1) as [_ E]; [rewrite Rabs_pos_eq; lra|rewrite Rabs_pos_eq; lra|apply IZR_le; lia|].
  etransitivity; [exact E|]. rewrite C2. reflexivity.
Qed.
End FStrength.

(** The strength never increases with the speed.  It is the one at the lower bound for
    speeds up to the lower bound, and (but for rounding) the one at the upper bound for
    speeds from the upper bound. *)
Theorem C34_float_strength : forall acosf (A := ieee acosf) (p : StrokeModelParams (A := ieee acosf)), validate_params p = OkStatus ->
  let lp := pp_loop (p_position p) in lp_enabled lp = true ->
  is_finite (lp_speed_lower lp : float32) = true -> is_finite (lp_speed_upper lp : float32) = true ->
  is_finite (lp_strength_lower lp : float32) = true -> is_finite (lp_strength_upper lp : float32) = true ->
  forall v : float32, is_finite v = true -> 0 <= real32 v ->
  strength_limits lp (real32 (strength32 lp v)) /\
  (real32 v <= real32 (lp_speed_lower lp) -> real32 (strength32 lp v) = real32 (lp_strength_lower lp)) /\
  (real32 (lp_speed_lower lp) < real32 (lp_speed_upper lp) -> real32 (lp_speed_upper lp) <= real32 v ->
     Rabs (real32 (strength32 lp v) - real32 (lp_strength_upper lp)) <= ppm) /\
  (forall v' : float32, is_finite v' = true -> real32 v <= real32 v' -> real32 (strength32 lp v') <= real32 (strength32 lp v)).
Proof.
  intros acosf A p V lp EN FSL FSU FL FU v FV PV. destruct (validate_params_parts p V) as (_ & VP & _). unfold validate_position in VP. apply and_then_ok in VP. destruct VP as [VL _].
  fold lp in VL. unfold validate_loop in VL. rewrite EN in VL. cbn [negb] in VL. destruct (_ || _) eqn:Q0 in VL; [discriminate VL|].
  destruct (fltb _ _ || _ || _) eqn:Q in VL; [discriminate VL|]. clear VL. apply orb_false_elim in Q, Q0. destruct Q as [Q Q3], Q0 as [Q4 Q5]. apply orb_false_elim in Q. destruct Q as [Q1 Q2].
  unfold A in *. cbn [fltb ieee] in *. destruct (f1_fin acosf) as [G1 G2]. destruct (f0_fin acosf) as [G3 G4].
  apply (ltb_false_R 24 128) in Q1; [|assumption|assumption]. apply (ltb_false_R 24 128) in Q2; [|assumption|assumption]. apply (ltb_false_R 24 128) in Q3; [|assumption|assumption].
  apply (ltb_false_R 24 128) in Q4; [|assumption|assumption]. apply (ltb_false_R 24 128) in Q5; [|assumption|assumption].
  rewrite G2 in Q2. rewrite G4 in Q3, Q5.
  assert (UL : unit32 (lp_strength_lower lp)) by (split; [exact FL|split; [exact (Rle_trans _ _ _ Q3 Q1)|exact Q2]]).
  assert (UU : unit32 (lp_strength_upper lp)) by (split; [exact FU|split; [exact Q3|exact (Rle_trans _ _ _ Q1 Q2)]]).
  assert (SR : forall w : float32, is_finite w = true -> 0 <= B2R w -> unit32 (strength32 lp w) /\ real32 (strength32 lp w) = r32 (real32 (lp_strength_lower lp) + r32 (r32 (real32 (lp_strength_upper lp) - real32 (lp_strength_lower lp)) * ramp32 (real32 (lp_speed_lower lp)) (real32 (lp_speed_upper lp)) (B2R w)))).
  { intros w FW PW. apply strength_real; try assumption. split; assumption. }
  assert (WP : real32 (lp_speed_upper lp) <> real32 (lp_speed_lower lp) -> 0 < r32 (real32 (lp_speed_upper lp) - real32 (lp_speed_lower lp))).
  { intros E. assert (0 <= r32 (real32 (lp_speed_upper lp) - real32 (lp_speed_lower lp))) by (apply rnd_ge0; [reflexivity|unfold real32; lra]).
    assert (r32 (real32 (lp_speed_upper lp) - real32 (lp_speed_lower lp)) <> 0); [|lra].
    apply (round_plus_neq_0 radix2 (FLT_exp (-149) 24) ZnearestE (real32 (lp_speed_upper lp)) (- real32 (lp_speed_lower lp))); [apply fmt_B2R|apply generic_format_opp, fmt_B2R|lra]. }
  assert (RM : forall a b, a <= b -> 0 <= ramp32 (real32 (lp_speed_lower lp)) (real32 (lp_speed_upper lp)) a <= 1 /\
     ramp32 (real32 (lp_speed_lower lp)) (real32 (lp_speed_upper lp)) a <= ramp32 (real32 (lp_speed_lower lp)) (real32 (lp_speed_upper lp)) b).
  { intros a b AB. unfold ramp32. destruct (Req_EM_T _ _) as [E|E]; [lra|]. specialize (WP E). split; [apply unit_cut_range|].
    unfold unit_cut. apply Rle_max_compat_l. apply Rle_min_compat_l. apply rnd_le; [reflexivity|]. apply Rmult_le_compat_r; [|apply rnd_le; [reflexivity|lra]].
    apply Rlt_le, Rinv_0_lt_compat. exact WP. }
  assert (DN : r32 (real32 (lp_strength_upper lp) - real32 (lp_strength_lower lp)) <= 0).
  { rewrite <- (rnd_0 24 128). apply rnd_le; [reflexivity|]. unfold real32. lra. }
  split; [|split; [|split]].
  - destruct (SR v FV PV) as [U E]. destruct (RM (B2R v) (B2R v) (Rle_refl _)) as [C _]. split; [apply U|]. rewrite E.
    apply limits_near; [exact C|exact (proj2 UL)|exact (proj2 UU)|exact Q1].
  - intros LV. destruct (SR v FV PV) as [_ E]. rewrite E. assert (Z : ramp32 (real32 (lp_speed_lower lp)) (real32 (lp_speed_upper lp)) (B2R v) = 0).
    { unfold ramp32. destruct (Req_EM_T _ _) as [EQ|EQ]; [reflexivity|]. specialize (WP EQ).
      assert (K : r32 (r32 (B2R v - real32 (lp_speed_lower lp)) / r32 (real32 (lp_speed_upper lp) - real32 (lp_speed_lower lp))) <= 0).
      { rewrite <- (rnd_0 24 128) at 1. apply rnd_le; [reflexivity|]. assert (r32 (B2R v - real32 (lp_speed_lower lp)) <= 0) by (rewrite <- (rnd_0 24 128); apply rnd_le; [reflexivity|unfold real32 in *; lra]).
        pose proof (Rinv_0_lt_compat _ WP). unfold Rdiv. nra. }
      destruct (unit_cut_cases (r32 (r32 (B2R v - real32 (lp_speed_lower lp)) / r32 (real32 (lp_speed_upper lp) - real32 (lp_speed_lower lp))))) as [[_ ->]|[[K1 ->]|[K1 _]]]; lra. }
    rewrite Z, Rmult_0_r, (rnd_0 24 128), Rplus_0_r. apply rnd_id, fmt_B2R.
  - intros SL LV. destruct (SR v FV PV) as [_ E]. rewrite E. assert (Z : ramp32 (real32 (lp_speed_lower lp)) (real32 (lp_speed_upper lp)) (B2R v) = 1).
    { unfold ramp32. destruct (Req_EM_T _ _) as [EQ|EQ]; [lra|]. specialize (WP EQ).
      assert (K : 1 <= r32 (r32 (B2R v - real32 (lp_speed_lower lp)) / r32 (real32 (lp_speed_upper lp) - real32 (lp_speed_lower lp)))).
      { apply rnd_ge_fmt; [reflexivity|apply (fmt_IZR 24 128 1); [lia|reflexivity]|].
        assert (r32 (real32 (lp_speed_upper lp) - real32 (lp_speed_lower lp)) <= r32 (B2R v - real32 (lp_speed_lower lp))) by (apply rnd_le; [reflexivity|unfold real32 in *; lra]).
        apply Rmult_le_reg_r with (r32 (real32 (lp_speed_upper lp) - real32 (lp_speed_lower lp))); [exact WP|]. unfold Rdiv. rewrite Rmult_assoc, Rinv_l by lra. lra. }
      destruct (unit_cut_cases (r32 (r32 (B2R v - real32 (lp_speed_lower lp)) / r32 (real32 (lp_speed_upper lp) - real32 (lp_speed_lower lp))))) as [[K1 _]|[[K1 ->]|[_ ->]]]; lra. }
    rewrite Z, Rmult_1_r. apply upper_near; [exact (proj2 UL)|exact (proj2 UU)].
  - intros v' FV' LV. unfold real32 in LV, PV. rewrite (proj2 (SR v FV PV)), (proj2 (SR v' FV' ltac:(lra))). destruct (RM _ _ LV) as [_ K]. 
    apply rnd_le; [reflexivity|]. apply Rplus_le_compat_l. apply rnd_le; [reflexivity|]. apply Rmult_le_compat_neg_l; assumption.
Qed.
