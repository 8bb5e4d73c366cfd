(** * C29, C30 in binary32/binary64, in every configuration: the pressure, tilt and
    orientation of a result are those of one point of the inputs in memory. *)
From Coq Require Import ZArith Bool List Reals Lra Lia Psatz.
From Flocq Require Import Core BinarySingleNaN.
From Verif Require Import Props_FProj.
From Verif Require Props_Proj.
From Verif Require Import Props_Finite Props_FEnd Props_FSpring Props_FRest Props_FRate Props_FLift Stable Filter Props_Stylus Memory Props_Params.
Import ListNotations.
Open Scope R_scope.

(** ** Specification *)
(** A fraction [t] of the way between consecutive inputs, or one of the inputs. *)
Definition on_path {acosf : float32 -> float32} (pts : list (Input (A := ieee acosf))) (x y : Input (A := ieee acosf)) (t : R) : Prop :=
  In (x, y) (Props_Proj.segments pts) /\ 0 <= t <= 1 \/ In x pts /\ y = x /\ t = 0.
(** Which of the inputs [l] are the [pts] in memory.  With projection to the closest
    point, the most recent [max_input_samples].  With projection along the normal, the
    most recent ones, at least [min_input_samples] and (if any were dropped) lasting
    longer than [min_sample_duration], but not so after dropping one more; the
    differences of times are those of binary64. *)
Definition float_kept {acosf : float32 -> float32} (sy : StylusParams (A := ieee acosf)) (l pts : list (Input (A := ieee acosf))) : Prop :=
  pts <> [] /\
  (sy_normal sy = false -> pts = Props_Proj.most_recent (sy_max_samples sy) l) /\
  (sy_normal sy = true -> exists dropped, l = dropped ++ pts /\
    (dropped = [] \/
       (sy_min_samples sy <= Z.of_nat (List.length pts))%Z /\
       exists f x, hd_error pts = Some f /\ In x pts /\ dltb (Arith := ieee acosf) (sy_min_duration sy) (dsub (i_time x) (i_time f)) = true) /\
    ((Z.of_nat (List.length pts) <= sy_min_samples sy)%Z \/
       exists s b, nth_error pts 1 = Some s /\ back pts = Some b /\ dltb (Arith := ieee acosf) (sy_min_duration sy) (dsub (i_time b) (i_time s)) = false)).
(** A result at a finite position carries what a point of the path has. *)
Definition carried {acosf : float32 -> float32} (l pts : list (Input (A := ieee acosf))) (r : Result (A := ieee acosf)) : Prop :=
  is_finite (vx (r_pos r) : float32) = true -> exists x y t, on_path pts x y t /\ nearly_taken l x y t r.

Section FCarry.
Variable acosf : float32 -> float32.
Let A := ieee acosf.
Local Existing Instance A.

Lemma amount_cut : forall a b v : float32, is_nan v = false -> interp_f a b v = interp_f a b (clamp01 v).
Proof.
  intros a b v N. unfold interp_f. assert (E : clamp01 (clamp01 v) = clamp01 v) by exact (clamp_id acosf _ (clamp_unit acosf v N)).
  unfold A in *. rewrite E. reflexivity.
Qed.
Lemma angle_cut : forall fuel (a b v : float32), is_nan v = false -> interp_angle fuel a b v = interp_angle fuel a b (clamp01 v).
Proof.
  intros fuel a b v N. unfold interp_angle. destruct (@normalize_angle A fuel a) as [s| |]; [|reflexivity|reflexivity]. cbn [obind].
  destruct (@normalize_angle A fuel b) as [e| |]; [|reflexivity|reflexivity]. cbn [obind]. f_equal. apply amount_cut. exact N.
Qed.

(** The last interpolation, between two results that differ in geometry only. *)
Lemma still_angle : forall fuel (o v r : float32), in_turn_closed o -> is_nan v = false -> interp_angle fuel o o v = Ret r ->
  in_turn r /\ off (38 * u24) (B2R o) (B2R r).
Proof.
  intros fuel o v r [FO RO] NO H. pose proof turn_order as TO. unfold interp_angle in H.
  destruct (@normalize_angle A fuel o) as [s| |] eqn:NS; try discriminate H. cbn [obind] in H.
  apply normalize_off in NS; [|exact FO|lra]. destruct NS as [IS OS]. pose proof IS as [FS RS].
  destruct (minus_fin 24 128 _ _ s s FS FS) as [FD ED].
  { apply small_le32. rewrite Rminus_eq_0, Rabs_R0. apply IZR_le. lia. }
  rewrite Rminus_eq_0, rnd_0 in ED. destruct (f2d_fin _ FD) as [FD2 ED2]. destruct pi_fin as [FP EP]. rewrite ED in ED2.
  match type of H with normalize_angle _ (interp_f _ ?x _) = _ => assert (SX : x = s) end.
  { unfold A in *. cbn [dltb f2d dneg kPi fsub ieee].
    destruct (Bltb (b32_to_b64 (Bminus mode_NE s s)) (Bopp b_pi)) eqn:L1.
    { apply ltb_R in L1; [|exact FD2|rewrite is_finite_Bopp; exact FP]. rewrite B2R_Bopp, EP, ED2 in L1. lra. }
    destruct (Bltb b_pi (b32_to_b64 (Bminus mode_NE s s))) eqn:L2; [|reflexivity].
    apply ltb_R in L2; [|exact FP|exact FD2]. rewrite EP, ED2 in L2. lra. }
  rewrite SX in H. clear SX.
  destruct (interp_fin acosf s s v 10 FS FS NO) as [FI EI].
  { apply Rabs_le; lra. } { apply Rabs_le; lra. } { apply IZR_le. lia. }
  rewrite Rminus_eq_0, rnd_0, Rmult_0_l, rnd_0, Rplus_0_r in EI. rewrite rnd_id in EI by apply fmt_B2R.
  unfold A in *. match type of H with normalize_angle _ ?x = _ => set (w := x) in * end. clearbody w.
  unfold normalize_angle in H. rewrite (norm_up_stop acosf) in H by (right; apply nonneg_fin; [exact FI|rewrite EI; lra]). cbn [obind] in H.
  rewrite (norm_down_stop acosf) in H by (right; split; [exact FI|rewrite EI; lra]). injection H as <-.
  split; [split; [exact FI|rewrite EI; exact RS]|]. rewrite EI. exact OS.
Qed.
Lemma still_value : forall x u : float32, is_finite x = true -> 0 <= B2R x <= bpow radix2 62 -> is_nan u = false ->
  let v := (if fltb x f0 || fltb x f0 then fm1 else interp_f x x u) : float32 in is_finite v = true /\ B2R v = B2R x.
Proof.
  intros x u FX RX NO v. destruct (f0_fin acosf) as [Z1 Z2].
  assert (V : v = (interp_f x x u : float32)).
  { unfold v. replace (fltb (x : F (Arith := A)) f0) with false; [reflexivity|]. symmetry. unfold A in *. cbn [fltb ieee]. apply (ltb_false_R 24 128); [exact FX|exact Z1|]. rewrite Z2. apply RX. }
  rewrite V. clear V v.
  assert (B60 : bpow radix2 62 <= IZR (2 ^ 124)) by (change (2 ^ 124)%Z with (radix2 ^ 124)%Z; rewrite (IZR_Zpower radix2) by lia; apply bpow_le; lia).
  destruct (interp_fin acosf x x u (bpow radix2 62) FX FX NO) as [FI EI]; [rewrite Rabs_pos_eq; apply RX|rewrite Rabs_pos_eq; apply RX|exact B60|].
  split; [exact FI|]. unfold A in *. rewrite EI. rewrite Rminus_eq_0, rnd_0, Rmult_0_l, rnd_0, Rplus_0_r. apply rnd_id. apply fmt_B2R.
Qed.
Lemma still_near : forall fuel l a b t q tip v r, raw_near acosf l a b t q -> is_nan (v : float32) = false ->
  interp_result fuel q (make_result tip q) v = Ret r -> nearly_taken l a b t r.
Proof.
  intros fuel l a b t q tip u r (H1 & H2 & H3) NU H. unfold interp_result in H. cbn [make_result r_pos r_vel r_acc r_time r_pressure r_tilt r_orient] in H.
  bind_inv H. rename E into IA. apply ret_inj in H. subst r.
  assert (V : forall x y v : float32, value_ok x y t v -> nearly_between x y t (if fltb (v : F (Arith := A)) f0 || fltb (v : F (Arith := A)) f0 then fm1 else interp_f v v u)).
  { intros a1 b1 v (AB & F & R & E). destruct (still_value v u F R NU) as [F1 E1]. split; [exact F1|]. unfold real32. eapply Rle_trans; [|eapply Rle_trans; [exact E|]].
    - apply Req_le. f_equal. f_equal. exact E1.
    - unfold ppm, tiny. pose proof eta_0 as E0. replace (bpow radix2 (-146)) with (16 * eta) by (change (-146)%Z with (4 + -150)%Z; rewrite (bpow_plus radix2 4 (-150)); reflexivity).
      unfold u24; lra. }
  split; [|split]; intros K; cbn [r_pressure r_tilt r_orient].
  - apply V. apply H1. exact K.
  - apply V. apply H2. exact K.
  - destruct (H3 K) as [OC (d & D1 & D2 & D3)].
    assert (LT : fltb (r_orient q) f0 = false).
    { destruct OC as [FO RO]. destruct (f0_fin acosf) as [Z1 Z2]. unfold A in *. cbn [fltb ieee]. apply (ltb_false_R 24 128); [exact FO|exact Z1|]. change float32 with (binary_float 24 128) in *. rewrite Z2. apply RO. }
    rewrite LT in IA. cbn [orb] in IA. apply still_angle in IA; [|exact OC|exact NU]. destruct IA as [[FI RI] OI]. split; [exact FI|].
    exists d. split; [unfold ppm; unfold u24 in D1; lra|]. split; [apply near_off; eapply off_le; [exact D2|unfold u24; lra]|].
    split; [|unfold real32; pose proof turn_order; lra]. apply near_off. eapply off_le; [eapply off_trans; [exact D3|exact OI]|unfold u24; lra].
Qed.

(** A finite coordinate was made with a ratio that is a number. *)
Lemma amount_number : forall (a b : Vec2 (A := ieee acosf)) (v : float32), is_finite (vx (interp_v a b v) : float32) = true ->
  is_finite (vx a : float32) = true /\ is_nan v = false.
Proof.
  intros a b v F. unfold interp_v in F. unfold A in *. cbn [vadd vx vscale fadd fmul ieee] in F.
  destruct (Props_FSpring.plus_inv _ _ F) as (F2 & F3 & _). destruct (Props_FSpring.mult_inv _ _ F3) as (F4 & _). split; [exact F2|].
  destruct (is_nan (v : float32)) eqn:NN; [|reflexivity]. exfalso. pose proof (clamp_nan acosf _ NN) as CN. destruct (clamp01 (A := ieee acosf) v); discriminate.
Qed.

(** ** What is in memory, whatever the positions *)
Definition stands_for (i : Input (A := ieee acosf)) (r : Result (A := ieee acosf)) : Prop :=
  r_pressure r = i_pressure i /\ r_tilt r = i_tilt i /\ r_orient r = i_orient i.
Record cmem (l pts : list (Input (A := ieee acosf))) (sm : Stylus (A := ieee acosf)) : Prop := mkCmem {
  cm_pressure : (forall i, In i l -> plain_value (i_pressure i)) -> s_unk_pressure (sm_state sm) = false;
  cm_tilt : (forall i, In i l -> plain_value (i_tilt i)) -> s_unk_tilt (sm_state sm) = false;
  cm_orient : (forall i, In i l -> in_turn_closed (i_orient i)) -> s_unk_orient (sm_state sm) = false;
  cm_some : pts <> [];
  cm_in : forall x, In x pts -> In x l;
  cm_raw : Forall2 stands_for pts (s_raw (sm_state sm)) \/
    s_raw (sm_state sm) = [] /\ s_unk_pressure (sm_state sm) = true /\ s_unk_tilt (sm_state sm) = true /\ s_unk_orient (sm_state sm) = true
}.

Lemma normal_struct : forall (q n : Vec2 (A := ieee acosf)) raw b1 b2 c1 c2, project_normal_loop q n raw b1 b2 = (c1, c2) ->
  (forall c d, c1 = Some (c, d) -> b1 = Some (c, d) \/ In (pj_a c, pj_b c) (Props_Proj.segments raw)) /\
  (forall c d, c2 = Some (c, d) -> b2 = Some (c, d) \/ In (pj_a c, pj_b c) (Props_Proj.segments raw)).
Proof.
  intros q n raw. induction raw as [|x [|y l] IH]; intros b1 b2 c1 c2 H; cbn [project_normal_loop] in H.
  - injection H as <- <-. split; intros; left; assumption.
  - injection H as <- <-. split; intros; left; assumption.
  - rewrite segments_cons.
    assert (M : forall c0 d0 b c d, pj_a c0 = x -> pj_b c0 = y -> maybe_update c0 d0 b = Some (c, d) -> b = Some (c, d) \/ (x, y) = (pj_a c, pj_b c)).
    { intros c0 d0 b c d E1 E2 U. unfold maybe_update in U. destruct b as [[c' d']|].
      - match type of U with (if ?t then _ else _) = _ => destruct t end; [injection U as <- <-; right; congruence|left; exact U].
      - match type of U with (if ?t then _ else _) = _ => destruct t end; [injection U as <- <-; right; congruence|discriminate U]. }
    destruct (project_to_segment_along_normal (r_pos x) (r_pos y) q n) as [ratio|].
    + match type of H with (if ?t then _ else _) = _ => destruct t end; apply IH in H; destruct H as [I1 I2]; split; intros c d E.
      * destruct (I1 _ _ E) as [K|K]; [left; exact K|right; right; exact K].
      * destruct (I2 _ _ E) as [K|K]; [|right; right; exact K]. apply M in K; [|reflexivity|reflexivity]. destruct K as [K|K]; [left; exact K|right; left; exact K].
      * destruct (I1 _ _ E) as [K|K]; [|right; right; exact K]. apply M in K; [|reflexivity|reflexivity]. destruct K as [K|K]; [left; exact K|right; left; exact K].
      * destruct (I2 _ _ E) as [K|K]; [left; exact K|right; right; exact K].
    + apply IH in H. destruct H as [I1 I2]. split; intros c d E.
      * destruct (I1 _ _ E) as [K|K]; [left; exact K|right; right; exact K].
      * destruct (I2 _ _ E) as [K|K]; [left; exact K|right; right; exact K].
Qed.

Lemma projection_struct : forall sm (tip : TipState (A := ieee acosf)) n c,
  match (if sy_normal (sm_params sm) then n else None) with
  | Some n => project_along_normal (t_pos tip) (t_acc tip) n (s_raw (sm_state sm))
  | None => project_to_closest (t_pos tip) (s_raw (sm_state sm))
  end = Some c -> In (pj_a c, pj_b c) (Props_Proj.segments (s_raw (sm_state sm))).
Proof.
  intros sm tip n c H. destruct (if sy_normal (sm_params sm) then n else None) as [v|].
  - unfold project_along_normal in H. destruct (project_normal_loop (t_pos tip) v (s_raw (sm_state sm)) None None) as [b1 b2] eqn:L.
    apply normal_struct in L. destruct L as [L1 L2].
    assert (K1 : forall c d, b1 = Some (c, d) -> In (pj_a c, pj_b c) (Props_Proj.segments (s_raw (sm_state sm)))) by (intros c' d E; destruct (L1 _ _ E) as [K|K]; [discriminate K|exact K]).
    assert (K2 : forall c d, b2 = Some (c, d) -> In (pj_a c, pj_b c) (Props_Proj.segments (s_raw (sm_state sm)))) by (intros c' d E; destruct (L2 _ _ E) as [K|K]; [discriminate K|exact K]).
    destruct b1 as [[x1 d1]|], b2 as [[x2 d2]|]; cbv beta iota zeta in H.
    + match type of H with (if ?t then _ else _) = _ => destruct t end; injection H as <-; [exact (K2 _ _ eq_refl)|exact (K1 _ _ eq_refl)].
    + injection H as <-. exact (K1 _ _ eq_refl).
    + injection H as <-. exact (K2 _ _ eq_refl).
    + discriminate H.
  - unfold project_to_closest in H. destruct (project_closest_loop (t_pos tip) (s_raw (sm_state sm)) None) as [[c' d]|] eqn:PL; [|discriminate H].
    cbn [option_map fst] in H. injection H as <-. apply loop_struct in PL. destruct PL as [PL|(u & v & I1 & E)]; [discriminate PL|]. rewrite E. exact I1.
Qed.

Lemma query_carried : forall fuel l pts sm (tip : TipState (A := ieee acosf)) n q, cmem l pts sm -> stylus_query fuel sm tip n = Ret q ->
  is_finite (vx (r_pos q) : float32) = true -> exists x y t, on_path pts x y t /\ raw_near acosf l x y t q.
Proof.
  intros fuel l pts sm tip n q [M1 M2 M3 M4 M5 M7] H FQ. unfold stylus_query in H.
  destruct M7 as [M7|(M7 & M8 & M9 & M10)].
  - destruct (s_raw (sm_state sm)) as [|fr rest] eqn:RAW; [exfalso; apply M4; inversion M7; reflexivity|].
    cbv zeta in H. rewrite <- RAW in H.
    match type of H with (let* _ := match ?pr with _ => _ end in _) = _ => destruct pr as [c|] eqn:PR end.
    + apply projection_struct in PR. rewrite RAW in PR. bind_inv H. rename E into IR. apply ret_inj in H. subst q. cbn [r_pos] in FQ.
      destruct (rel_right _ _ _ _ (segments_rel _ _ _ M7) PR) as ((x' & y') & I2 & MX & MY). cbn [fst snd] in MX, MY.
      destruct (segments_in _ _ _ I2) as [IX IY]. destruct MX as (X1 & X2 & X3). destruct MY as (Y1 & Y2 & Y3).
      unfold A in *. unfold interp_result in IR. rewrite X1, X2, X3, Y1, Y2, Y3 in IR. bind_inv IR. rename E into IA. apply ret_inj in IR. subst x. cbn [r_pos] in FQ.
      destruct (amount_number _ _ _ FQ) as [_ NR]. set (rho := pj_ratio c : float32) in *. pose proof (clamp_unit acosf rho NR) as UR.
      exists x', y', (B2R (clamp01 (A := ieee acosf) rho : float32)). split; [left; split; [exact I2|apply UR]|].
      split; [|split]; intros K; cbn [r_pressure r_tilt r_orient].
      * rewrite (M1 K). rewrite (amount_cut _ _ rho NR). apply value_good; [apply K, M5; exact IX|apply K, M5; exact IY|exact UR].
      * rewrite (M2 K). rewrite (amount_cut _ _ rho NR). apply value_good; [apply K, M5; exact IX|apply K, M5; exact IY|exact UR].
      * rewrite (M3 K). pose proof (K _ (M5 _ IX)) as OX. pose proof (K _ (M5 _ IY)) as OY.
        assert (LT : forall o : float32, in_turn_closed o -> fltb (Arith := ieee acosf) o f0 = false).
        { intros o [FO RO]. destruct (f0_fin acosf) as [Z1 Z2]. cbn [fltb ieee]. apply (ltb_false_R 24 128); [exact FO|exact Z1|]. change float32 with (binary_float 24 128) in *. rewrite Z2. apply RO. }
        rewrite (LT _ OX), (LT _ OY) in IA. cbn [orb] in IA. rewrite (angle_cut _ _ _ rho NR) in IA. apply angle_off in IA; [|exact OX|exact OY|exact UR]. destruct IA as [[FI RI] IA].
        split; [|exact IA]. split; [exact FI|]. pose proof turn_order. lra.
    + assert (ONE : forall r, In r (fr :: rest) -> q = mkResult (r_pos r) (r_vel r) (r_acc r) (t_time tip) (if s_unk_pressure (sm_state sm) then fm1 else r_pressure r)
         (if s_unk_tilt (sm_state sm) then fm1 else r_tilt r) (if s_unk_orient (sm_state sm) then fm1 else r_orient r) -> exists x y t, on_path pts x y t /\ raw_near acosf l x y t q).
      { intros r I1 ->. destruct (rel_right _ _ _ _ M7 I1) as (x & IX & X1 & X2 & X3). exists x, x, 0. split; [right; auto|].
        unfold A in *. split; [|split]; intros K; cbn [r_pressure r_tilt r_orient];
        pose proof (K _ (M5 _ IX)) as KX; (rewrite (M1 K), X1 || rewrite (M2 K), X2 || rewrite (M3 K), X3); (apply single_ok || apply single_angle); exact KX. }
      rewrite RAW in H. destruct (back (fr :: rest)) as [bk|] eqn:BK; [|discriminate H].
      assert (IB : In bk (fr :: rest)) by (eapply back_in; exact BK).
      match type of H with context [if ?b then Ret _ else Ret _] => destruct b end; cbn [obind] in H; apply ret_inj in H; [apply (ONE fr); [left; reflexivity|symmetry; exact H]|apply (ONE bk); [exact IB|symmetry; exact H]].
  - destruct pts as [|x pl]; [congruence|]. exists x, x, 0. split; [right; split; [left; reflexivity|auto]|].
    split; [|split]; intros K; exfalso; [rewrite (M1 K) in M8; discriminate M8|rewrite (M2 K) in M9; discriminate M9|rewrite (M3 K) in M10; discriminate M10].
Qed.

Lemma results_carried : forall fuel l pts sm, cmem l pts sm -> forall tips lm v pt lm' out,
  model_stylus_loop fuel tips sm lm v pt = Ret (lm', out) -> Forall (carried l pts) out.
Proof.
  intros fuel l pts sm M. induction tips as [|tip rest IH]; intros lm v pt lm' out H; cbn [model_stylus_loop] in H.
  - inversion H; subst. constructor.
  - bind_inv H. rename E into Q. bind_inv H. rename E into IR.
    destruct (loop_update lm (r_vel x0) (t_time tip)) as [l1 v1] eqn:LU.
    bind_inv H. destruct x1 as [l2 o2]. apply ret_inj in H. injection H as <- <-. constructor; [|eapply IH; eassumption].
    intros W.
    assert (PE : r_pos x0 = interp_v (r_pos x) (t_pos tip) v).
    { unfold interp_result in IR. bind_inv IR. apply ret_inj in IR. subst x0. reflexivity. }
    rewrite PE in W. destruct (amount_number _ _ _ W) as [FQ NV].
    destruct (query_carried _ _ _ _ _ _ _ M Q FQ) as (x1 & y1 & t & ON & RN).
    exists x1, y1, t. split; [exact ON|]. eapply still_near; [exact RN|exact NV|exact IR].
Qed.

(** ** The memory of the stylus component when a call models its results *)
Lemma combine_fst : forall {X Y : Type} (l : list X) (m : list Y), List.length m = List.length l -> map fst (combine l m) = l.
Proof.
  intros X Y l. induction l as [|x l IH]; intros [|y m] H; cbn in *; try reflexivity; try discriminate H. f_equal. apply IH. congruence.
Qed.
Lemma known_all : forall (f : Input -> float32) (L : list (Input * Vec2)), (forall i, In i (map fst L) -> is_finite (f i) = true /\ 0 <= B2R (f i)) ->
  existsb (fun ic => unknown_value (f (fst ic))) L = false.
Proof.
  intros f L H. induction L as [|x l IH]; [reflexivity|]. cbn [existsb map]. rewrite IH by (intros i I1; apply H; right; exact I1).
  rewrite orb_false_r. destruct (H (fst x) (or_introl eq_refl)) as [FX RX]. destruct (f0_fin acosf) as [Z1 Z2]. unfold unknown_value.
  apply orb_false_intro.
  - unfold A in *. cbn [fltb ieee]. apply (ltb_false_R 24 128); [exact FX|exact Z1|]. change float32 with (binary_float 24 128) in *. rewrite Z2. exact RX.
  - unfold A in *. cbn [fisnan ieee]. destruct (f (fst x)); try reflexivity; discriminate FX.
Qed.
Lemma nth_hd : forall {X : Type} k (l : list X), hd_error (skipn k l) = nth_error l k.
Proof. intros X k. induction k as [|k IH]; intros [|x l]; try reflexivity. exact (IH l). Qed.
Lemma nth_skip : forall {X : Type} k (l : list X), nth_error (skipn k l) 1 = nth_error l (S k).
Proof. intros X k. induction k as [|k IH]; intros [|x l]; try reflexivity. exact (IH l). Qed.
Lemma back_skip : forall {X : Type} k (l : list X), (k < List.length l)%nat -> back (skipn k l) = back l.
Proof.
  intros X k l H. rewrite <- (firstn_skipn k l) at 2. destruct (skipn k l) as [|x q] eqn:E using rev_ind.
  - apply (f_equal (@List.length _)) in E. rewrite skipn_length in E. cbn in E. lia.
  - rewrite app_assoc, !back_snoc. reflexivity.
Qed.
Lemma back_map : forall {X Y : Type} (f : X -> Y) l, back (map f l) = option_map f (back l).
Proof. intros X Y f l. destruct l as [|x l] using rev_ind; [reflexivity|]. rewrite map_app. change (map f [x]) with [f x]. rewrite !back_snoc. reflexivity. Qed.

Lemma memory_carried : forall sm (L : list (Input * Vec2)), validate_stylus (sm_params sm) = OkStatus ->
  remembering (sm_params sm) L (sm_state sm) -> L <> [] ->
  exists pts, float_kept (sm_params sm) (map fst L) pts /\ cmem (map fst L) pts sm.
Proof.
  intros sm L V RM NE. destruct (remembering_raw _ _ _ V RM) as ((F1 & F2 & F3) & K). unfold A in *.
  assert (LN : List.length L <> 0%nat) by (destruct L; cbn; congruence).
  assert (VM : (sy_normal (sm_params sm) = false -> 0 < sy_max_samples (sm_params sm))%Z).
  { intros NR. unfold validate_stylus in V. rewrite NR in V. unfold validate_gt0_i in V. destruct (Z.leb_spec (sy_max_samples (sm_params sm)) 0); [discriminate V|lia]. }
  assert (B : forall pts, pts <> [] -> (forall x, In x pts -> In x (map fst L)) -> (Forall2 stands_for pts (s_raw (sm_state sm)) \/
    s_raw (sm_state sm) = [] /\ s_unk_pressure (sm_state sm) = true /\ s_unk_tilt (sm_state sm) = true /\ s_unk_orient (sm_state sm) = true) -> cmem (map fst L) pts sm).
  { intros pts P1 P2 P3. constructor; [| | |exact P1|exact P2|exact P3].
    - intros H. transitivity (existsb (fun ic => unknown_value (A := ieee acosf) (i_pressure (fst ic))) L); [exact F1|]. apply (known_all i_pressure). intros i I1. destruct (H i I1) as [X1 X2]. split; [exact X1|apply X2].
    - intros H. transitivity (existsb (fun ic => unknown_value (A := ieee acosf) (i_tilt (fst ic))) L); [exact F2|]. apply (known_all i_tilt). intros i I1. destruct (H i I1) as [X1 X2]. split; [exact X1|apply X2].
    - intros H. transitivity (existsb (fun ic => unknown_value (A := ieee acosf) (i_orient (fst ic))) L); [exact F3|]. apply (known_all i_orient). intros i I1. destruct (H i I1) as [X1 X2]. split; [exact X1|apply X2]. }
  assert (SK : forall k x, In x (skipn k (map fst L)) -> In x (map fst L)).
  { intros k x H. rewrite <- (firstn_skipn k (map fst L)). apply in_or_app. right. exact H. }
  assert (SN : forall k, (k < List.length L)%nat -> skipn k (map fst L) <> []).
  { intros k H E. apply (f_equal (@List.length _)) in E. rewrite skipn_length, map_length in E. cbn in E. lia. }
  destruct K as [[K1 [K2|[K2 K3]]]|(k & RT & K1)].
  - congruence.
  - specialize (VM K2). exists (Props_Proj.most_recent (sy_max_samples (sm_params sm)) (map fst L)).
    assert (N1 : Props_Proj.most_recent (sy_max_samples (sm_params sm)) (map fst L) <> []) by (unfold Props_Proj.most_recent; rewrite map_length; apply SN; lia).
    split; [split; [exact N1|split; [reflexivity|congruence]]|]. apply B; [exact N1|intros x; apply SK|].
    right. unfold Memory.all_unknown in K3. apply andb_prop in K3. destruct K3 as [K3 K4]. apply andb_prop in K3. destruct K3 as [K3 K5]. auto.
  - exists (skipn k (map fst L)). destruct RT as [R1 R2 R3 R4]. split.
    + split; [apply SN; exact R1|]. split.
      * intros NR. unfold Props_Proj.most_recent. rewrite map_length, <- (R2 NR). reflexivity.
      * intros NR. exists (firstn k (map fst L)). split; [symmetry; apply firstn_skipn|]. rewrite skipn_length, map_length. split.
        -- destruct (R3 NR) as [->|(Q1 & f & x & Q2 & Q3 & Q4)]; [left; reflexivity|]. right. split; [exact Q1|].
           exists (fst f), (fst x). rewrite nth_hd. split; [exact (map_nth_error fst k L Q2)|]. split; [rewrite skipn_map; apply in_map; exact Q3|exact Q4].
        -- destruct (R4 NR) as [Q|(s & b & Q1 & Q2 & Q3)]; [left; exact Q|]. right. exists (fst s), (fst b).
           split; [rewrite nth_skip; exact (map_nth_error fst (S k) L Q1)|]. split; [|exact Q3].
           rewrite back_skip by (rewrite map_length; exact R1). rewrite back_map, Q2. reflexivity.
    + apply B; [apply SN; exact R1|intros x; apply SK|]. left. rewrite skipn_map. clear -K1. revert K1. set (l1 := skipn k L). set (raw := s_raw (sm_state sm)). clearbody l1 raw. intros K1. revert raw K1.
      induction l1 as [|x l1 IH]; intros raw K1; inversion K1; subst; constructor; [|apply IH; assumption].
      destruct H1 as (_ & _ & H1). exact H1.
Qed.

Lemma call_carried : forall fuel (p : StrokeModelParams (A := ieee acosf)) (l : list (Input (A := ieee acosf))) (L : list (Input * Vec2)) sm lm lm' tips pt out, validate_params p = OkStatus -> sm_params sm = p_stylus p ->
  map fst L = l -> l <> [] -> remembering (p_stylus p) L (sm_state sm) -> model_stylus fuel tips sm lm pt = Ret (lm', out) ->
  exists pts, float_kept (p_stylus p) l pts /\ Forall (carried l pts) out.
Proof.
  intros fuel p l L sm lm lm' tips pt out V SP <- NE RM MS. rewrite <- SP in *.
  destruct (memory_carried sm L) as (pts & K & M); [rewrite SP; apply (validate_params_parts p V)|exact RM|intros ->; apply NE; reflexivity|].
  exists pts. split; [exact K|]. eapply results_carried; [exact M|exact MS].
Qed.

Lemma update_carried : forall fuel hist s (p : StrokeModelParams (A := ieee acosf)) es (seen : list (Input (A := ieee acosf))) (i : Input (A := ieee acosf)) rs out,
  after_seen fuel hist s es seen -> ps_params s = Some p -> (i_event i = EMove \/ i_event i = EUp) ->
  answers fuel hist [CUpdate i rs] = Ret [RResults OkStatus (rs ++ out)] ->
  exists pts, float_kept (p_stylus p) (seen ++ [i]) pts /\ Forall (carried (seen ++ [i]) pts) out.
Proof.
  intros fuel hist s p es seen i rs out AS P EV AN.
  assert (NE : seen ++ [i] <> []) by (intros E; apply app_eq_nil in E; destruct E; discriminate).
  destruct (remembered_state _ _ _ _ _ AS) as (m0 & rs0 & R0 & _ & _ & _ & RM).
  assert (AF : after fuel hist s) by (destruct AS as (ma & rsa & Ra & Pa & _); exists ma, rsa; auto).
  destruct (accepted_update _ _ _ _ _ _ _ AF AN) as (m & r0 & m' & o & R & (T1 & T2 & _) & G & C & K & U & _).
  rewrite R0 in R. injection R as -> ->. apply app_inv_head in K. subst o.
  destruct EV as [EI|EI].
  - destruct (upd_move fuel m i m' out U EI) as (q & last0 & w & c & sm & n & tip & tips & pred & lm & MQ & _ & ML & _ & WU & SU & _ & _ & _ & MS & _).
    assert (q = p) by congruence. subst q. pose proof (g_valid _ G p MQ) as V.
    destruct (C p MQ ltac:(left; congruence)) as (C1 & C2 & C3 & C4).
    destruct (RM p last0 MQ ML) as (cs & ws & [H1 H2 _ _ _ _]). cbn [core_of co_w co_s] in *.
    eapply (call_carried fuel p (seen ++ [i]) (combine seen cs ++ [(i, c)])); [exact V|rewrite <- C3; eapply stylus_update_params; exact SU| |exact NE| |exact MS].
    + rewrite map_app, combine_fst by (eapply smoothing_length; exact H1). reflexivity.
    + eapply Re_more; [exact H2|]. rewrite <- C3. apply stylus_mstep. exact SU.
  - destruct (upd_up fuel m i m' out U EI) as (q & last0 & n & tip1 & tips1 & tip2 & tips2 & sm & lm & MQ & _ & ML & _ & _ & _ & _ & SU & MS & _).
    assert (q = p) by congruence. subst q. pose proof (g_valid _ G p MQ) as V.
    destruct (C p MQ ltac:(left; congruence)) as (C1 & C2 & C3 & C4).
    destruct (RM p last0 MQ ML) as (cs & ws & [H1 H2 _ _ _ _]). cbn [core_of co_w co_s] in *.
    eapply (call_carried fuel p (seen ++ [i]) (combine seen cs ++ [(i, i_pos i)])); [exact V|rewrite <- C3; eapply stylus_update_params; exact SU| |exact NE| |exact MS].
    + rewrite map_app, combine_fst by (eapply smoothing_length; exact H1). reflexivity.
    + eapply Re_more; [exact H2|]. rewrite <- C3. apply stylus_mstep. exact SU.
Qed.

Lemma predict_carried : forall fuel hist s (p : StrokeModelParams (A := ieee acosf)) es (seen : list (Input (A := ieee acosf))) rs out,
  after_seen fuel hist s es seen -> ps_params s = Some p ->
  answers fuel hist [CPredict rs] = Ret [RResults OkStatus out] ->
  exists pts, float_kept (p_stylus p) seen pts /\ Forall (carried seen pts) out.
Proof.
  intros fuel hist s p es seen rs out AS P AN.
  destruct (remembered_state _ _ _ _ _ AS) as (m0 & rs0 & R0 & _ & _ & _ & RM).
  assert (AF : after fuel hist s) by (destruct AS as (ma & rsa & Ra & Pa & _); exists ma, rsa; auto).
  destruct (accepted_predict _ _ _ _ _ _ AF AN) as (m & r0 & m' & R & (T1 & T2 & _) & G & C & U).
  rewrite R0 in R. injection R as -> ->.
  destruct (prd_ok fuel m m' out U) as (q & pr & last0 & tips & lm & MQ & _ & ML & _ & MS & _).
  assert (q = p) by congruence. subst q. pose proof (g_valid _ G p MQ) as V.
  destruct (C p MQ ltac:(left; congruence)) as (C1 & C2 & C3 & C4).
  destruct (RM p last0 MQ ML) as (cs & ws & [H1 H2 _ _ _ _]). cbn [core_of co_w co_s] in *.
  assert (NE : seen <> []).
  { intros ->. clear - H1. remember [] as l eqn:E in H1. destruct H1 as [d|l cs st j c st' H W]; [discriminate E|]. destruct l; discriminate E. }
  eapply (call_carried fuel p seen (combine seen cs)); [exact V|exact C3| |exact NE|exact H2|exact MS].
  apply combine_fst. eapply smoothing_length; exact H1.
Qed.
End FCarry.

(** ** C29, C30 *)
(** The pressure, tilt and orientation of every result of a Move or an Up are those
    of one point of the path of the inputs in memory, up to rounding, whichever
    options are on. *)
Theorem C29_float_stylus_data_update : forall acosf (A := ieee acosf) fuel hist s (p : StrokeModelParams (A := ieee acosf)) es seen (i : Input (A := ieee acosf)) rs out,
  after_seen fuel hist s es seen -> ps_params s = Some p -> (i_event i = EMove \/ i_event i = EUp) ->
  answers fuel hist [CUpdate i rs] = Ret [RResults OkStatus (rs ++ out)] ->
  exists recent, float_kept (p_stylus p) (seen ++ [i]) recent /\ Forall (carried (seen ++ [i]) recent) out.
Proof. intros acosf A. exact (update_carried acosf). Qed.

(** Of a prediction. *)
Theorem C29_float_stylus_data_predict : forall acosf (A := ieee acosf) fuel hist s (p : StrokeModelParams (A := ieee acosf)) es seen rs out,
  after_seen fuel hist s es seen -> ps_params s = Some p ->
  answers fuel hist [CPredict rs] = Ret [RResults OkStatus out] ->
  exists recent, float_kept (p_stylus p) seen recent /\ Forall (carried seen recent) out.
Proof. intros acosf A. exact (predict_carried acosf). Qed.
