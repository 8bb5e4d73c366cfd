(** * C32: projection along the stroke normal (exact arithmetic). *)
From Coq Require Import ZArith Bool List Sorted Reals Lra Lia Psatz.
From Flocq Require Import Core.Raux.
From Verif Require Export Props_Proj Props_End.
Import ListNotations.
Open Scope R_scope.

(** ** Specification *)
Definition dot (a b : Vec2) : R := vx a * vx b + vy a * vy b.
Definition unit (v : Vec2) : Vec2 := mkVec2 (vx v / norm v) (vy v / norm v).

(** The direction of the stroke at a point with velocity [v] and acceleration [a],
    a time [dt] after the previous point: none at rest, that of the one that is not
    zero, that of the velocity if they are within half a degree of parallel,
    otherwise halfway between the directions of the velocity now and a step later. *)
Definition direction (v a : Vec2) (dt : R) : option Vec2 :=
  if Req_EM_T (norm v) 0 then
    if Req_EM_T (norm a) 0 then None else Some a
  else if Req_EM_T (norm a) 0 then Some v
  else if Rlt_dec (99996192 / 100000000 * norm v * norm a) (Rabs (dot v a)) then Some v
  else
    let u1 := unit v in
    let u2 := unit (mkVec2 (vx v + dt * vx a) (vy v + dt * vy a)) in
    Some (mkVec2 (vx u1 + vx u2) (vy u1 + vy u2)).
(** A quarter turn to the left. *)
Definition left_of (u : Vec2) : Vec2 := mkVec2 (- vy u) (vx u).

(** The line through [q] along [n] crosses the polyline at the point a fraction
    [t] of the way from [x] to [y], without running along that segment. *)
Definition crosses (q n : Vec2) (pts : list point) (x y : point) (t : R) : Prop :=
  In (x, y) (segments pts) /\ 0 <= t <= 1 /\
  vx n * (vy (snd y) - vy (snd x)) - vy n * (vx (snd y) - vx (snd x)) <> 0 /\
  exists k, vx (point_at x y t) = vx q + k * vx n /\ vy (point_at x y t) = vy q + k * vy n.
(** [z] is on the other side of [q] than [n] points to. *)
Definition behind (q n z : Vec2) : Prop := (vx z - vx q) * vx n + (vy z - vy q) * vy n < 0.

(** The crossing is the nearest to [q] on its side; with crossings on both sides
    it is on the right (behind the normal) if the stroke accelerates to the left,
    otherwise on the left. *)
Definition best_crossing (q a n : Vec2) (pts : list point) (x y : point) (t : R) : Prop :=
  crosses q n pts x y t /\
  forall x' y' t', crosses q n pts x' y' t' ->
    ((behind q n (point_at x y t) <-> behind q n (point_at x' y' t')) ->
       dist q (point_at x y t) <= dist q (point_at x' y' t')) /\
    (~ (behind q n (point_at x y t) <-> behind q n (point_at x' y' t')) ->
       (behind q n (point_at x y t) <-> 0 < dot n a)).

(** One of the two ends of the polyline, the nearer one. *)
Definition nearer_end (q : Vec2) (pts : list point) (x y : point) (t : R) : Prop :=
  y = x /\ t = 0 /\ exists f b, hd_error pts = Some f /\ back pts = Some b /\
    (x = f /\ dist q (snd f) < dist q (snd b) \/ x = b /\ dist q (snd b) <= dist q (snd f)).

(** Where on the polyline the stylus data for the state [h] come from; [dt] is the
    time since the state before it. *)
Definition normal_projection (pts : list point) (h : Result) (dt : R) (x y : point) (t : R) : Prop :=
  match direction (r_vel h) (r_acc h) dt with
  | None => nearest (r_pos h) pts x y t
  | Some u =>
      best_crossing (r_pos h) (r_acc h) (left_of u) pts x y t \/
      (forall x' y' t', ~ crosses (r_pos h) (left_of u) pts x' y' t') /\ nearer_end (r_pos h) pts x y t
  end.

(** Which of the inputs [L] are the [pts] in memory: the most recent ones, at least
    [min_input_samples] and (if any were dropped) lasting longer than
    [min_sample_duration], but not so after dropping one more. *)
Definition held (sy : StylusParams) (L pts : list point) : Prop :=
  pts <> [] /\ exists dropped, L = dropped ++ pts /\
  (dropped = [] \/
     (sy_min_samples sy <= Z.of_nat (List.length pts))%Z /\
     exists f x, hd_error pts = Some f /\ In x pts /\ sy_min_duration sy < i_time (fst x) - i_time (fst f)) /\
  ((Z.of_nat (List.length pts) <= sy_min_samples sy)%Z \/
     exists s b, nth_error pts 1 = Some s /\ back pts = Some b /\ i_time (fst b) - i_time (fst s) <= sy_min_duration sy).

(** The results [out]; the state before them was at time [tp]. *)
Fixpoint reported_normal (l : list Input) (pts : list point) (tp : R) (out : list Result) : Prop :=
  match out with
  | [] => True
  | r :: out' =>
      (exists x y t, normal_projection pts r (r_time r - tp) x y t /\ taken_from l (fst x) (fst y) t r) /\
      reported_normal l pts (r_time r) out'
  end.

(** ** The normal *)
Lemma get_normal_R : forall tip pt,
  get_stroke_normal tip pt = option_map left_of (direction (t_vel tip) (t_acc tip) (t_time tip - pt)).
Proof.
  intros tip pt. unfold get_stroke_normal, direction, kCosineHalfDegree, unit_vec, magnitude, vdot.
  rsimp. unfold dot, unit, norm.
  set (vm := sqrt (vx (t_vel tip) * vx (t_vel tip) + vy (t_vel tip) * vy (t_vel tip))).
  set (am := sqrt (vx (t_acc tip) * vx (t_acc tip) + vy (t_acc tip) * vy (t_acc tip))).
  destruct (Req_EM_T vm 0) as [V0|V0]; destruct (Req_EM_T am 0) as [A0|A0];
    rewrite ?(proj2 (Reqb_true _ _) V0), ?(proj2 (Reqb_true _ _) A0), ?(proj2 (Reqb_false _ _) V0), ?(proj2 (Reqb_false _ _) A0); cbn [andb];
    try reflexivity.
  destruct (Rlt_dec _ _) as [L|L].
  - rewrite (proj2 (Rltb_true _ _) L). reflexivity.
  - rewrite (proj2 (Rltb_false _ _) (Rnot_lt_le _ _ L)). reflexivity.
Qed.

(** ** Crossing one segment *)
Definition raw_crosses (q n : Vec2) (a b : Result) (t : R) : Prop :=
  0 <= t <= 1 /\
  vx n * (vy (r_pos b) - vy (r_pos a)) - vy n * (vx (r_pos b) - vx (r_pos a)) <> 0 /\
  exists k, vx (along (r_pos a) (r_pos b) t) = vx q + k * vx n /\ vy (along (r_pos a) (r_pos b) t) = vy q + k * vy n.

Lemma segment_crossing : forall a b q n,
  match project_to_segment_along_normal (r_pos a) (r_pos b) q n with
  | Some t => raw_crosses q n a b t /\ forall t', raw_crosses q n a b t' -> t' = t
  | None => forall t, ~ raw_crosses q n a b t
  end.
Proof.
  intros a b q n. unfold project_to_segment_along_normal, cross, vsub. rsimp. unfold raw_crosses, along. cbn [vx vy].
  destruct (r_pos a) as [ax ay], (r_pos b) as [bx by_], q as [qx qy], n as [nx ny]. cbn [vx vy]. rsimp.
  set (det := nx * (by_ - ay) - ny * (bx - ax)).
  destruct (Reqb det 0) eqn:Z.
  - apply Reqb_true in Z. intros t (_ & NZ & _). apply NZ. exact Z.
  - apply Reqb_false in Z.
    assert (UN : forall t k, ax + (bx - ax) * t = qx + k * nx -> ay + (by_ - ay) * t = qy + k * ny ->
      t = ((ax - qx) * ny - (ay - qy) * nx) / det).
    { intros t k E1 E2. apply (Rmult_eq_reg_r det); [|exact Z]. unfold Rdiv. rewrite Rmult_assoc, Rinv_l, Rmult_1_r by exact Z.
      unfold det. assert (ny * (ax + (bx - ax) * t) = ny * (qx + k * nx)) by (rewrite E1; reflexivity).
      assert (nx * (ay + (by_ - ay) * t) = nx * (qy + k * ny)) by (rewrite E2; reflexivity). lra. }
    set (s := ((ax - qx) * ny - (ay - qy) * nx) / det) in *.
    destruct (Rltb s 0 || Rltb 1 s) eqn:OUT.
    + intros t (T & _ & k & E1 & E2). rewrite (UN t k E1 E2) in T. apply orb_prop in OUT.
      destruct OUT as [OUT|OUT]; apply Rltb_true in OUT; lra.
    + apply orb_false_elim in OUT. destruct OUT as [O1 O2]. apply Rltb_false in O1. apply Rltb_false in O2.
      split; [|intros t' (_ & _ & k & E1 & E2); apply (UN t' k E1 E2)].
      split; [split; assumption|]. split; [exact Z|].
      assert (N2 : 0 < nx * nx + ny * ny).
      { destruct (Req_dec nx 0) as [E|E]; [destruct (Req_dec ny 0) as [E'|E']|].
        - exfalso. apply Z. unfold det. rewrite E, E'. ring.
        - assert (0 < ny * ny) by (apply Rsqr_pos_lt; exact E'). pose proof (Rle_0_sqr nx). unfold Rsqr in *. lra.
        - assert (0 < nx * nx) by (apply Rsqr_pos_lt; exact E). pose proof (Rle_0_sqr ny). unfold Rsqr in *. lra. }
      assert (SD : s * det = (ax - qx) * ny - (ay - qy) * nx) by (unfold s; field; exact Z).
      (* cross (a + s v - q, n) = 0 *)
      assert (C0 : (ax + (bx - ax) * s - qx) * ny - (ay + (by_ - ay) * s - qy) * nx = 0).
      { unfold det in SD. lra. }
      set (dx := ax + (bx - ax) * s - qx) in *. set (dy := ay + (by_ - ay) * s - qy) in *.
      exists ((dx * nx + dy * ny) / (nx * nx + ny * ny)). split.
      * assert (dx = (dx * nx + dy * ny) / (nx * nx + ny * ny) * nx); [|unfold dx in *; lra].
        apply (Rmult_eq_reg_r (nx * nx + ny * ny)); [|lra]. unfold Rdiv.
        replace ((dx * nx + dy * ny) * / (nx * nx + ny * ny) * nx * (nx * nx + ny * ny)) with ((dx * nx + dy * ny) * nx) by (field; lra).
        assert (K : ny * (dx * ny - dy * nx) = 0) by (rewrite C0; ring). lra.
      * assert (dy = (dx * nx + dy * ny) / (nx * nx + ny * ny) * ny); [|unfold dy in *; lra].
        apply (Rmult_eq_reg_r (nx * nx + ny * ny)); [|lra]. unfold Rdiv.
        replace ((dx * nx + dy * ny) * / (nx * nx + ny * ny) * ny * (nx * nx + ny * ny)) with ((dx * nx + dy * ny) * ny) by (field; lra).
        assert (K : nx * (dx * ny - dy * nx) = 0) by (rewrite C0; ring). lra.
Qed.

(** ** All segments *)
Definition best_spec (P : Result -> Result -> R -> Prop) (q : Vec2) (raw : list Result) (b0 b : best) : Prop :=
  match b with
  | None => b0 = None /\ forall x y t, In (x, y) (segments raw) -> ~ P x y t
  | Some (c, d) => candidate q c d /\ (b0 = Some (c, d) \/ In (pj_a c, pj_b c) (segments raw) /\ P (pj_a c) (pj_b c) (pj_ratio c)) /\
      (match b0 with None => True | Some (_, d0) => d <= d0 end) /\
      forall x y t, In (x, y) (segments raw) -> P x y t -> d <= dist q (along (r_pos x) (r_pos y) t)
  end.

Lemma best_spec_nil : forall P q raw b, segments raw = [] -> match b with None => True | Some (c, d) => candidate q c d end ->
  best_spec P q raw b b.
Proof.
  intros P q raw b E B. unfold best_spec. rewrite E. destruct b as [[c d]|].
  - split; [exact B|]. split; [auto|]. split; [lra|]. intros x y t [].
  - split; [reflexivity|]. intros x y t [].
Qed.
(** A segment without a candidate. *)
Lemma best_spec_skip : forall P q s1 s2 raw b0 b, (forall t, ~ P s1 s2 t) ->
  best_spec P q (s2 :: raw) b0 b -> best_spec P q (s1 :: s2 :: raw) b0 b.
Proof.
  intros P q s1 s2 raw b0 b N H. unfold best_spec in *. rewrite segments_cons2. destruct b as [[c d]|].
  - destruct H as (H1 & H2 & H3 & H4). split; [exact H1|]. split; [destruct H2 as [H2|[H2 H2']]; [left; exact H2|right; split; [right; exact H2|exact H2']]|].
    split; [exact H3|]. intros x y t [I1|I1] K; [injection I1 as <- <-; destruct (N _ K)|apply H4; assumption].
  - destruct H as [H1 H2]. split; [exact H1|]. intros x y t [I1|I1]; [injection I1 as <- <-; apply N|apply H2; exact I1].
Qed.
(** A segment with one. *)
Lemma best_spec_take : forall (P : Result -> Result -> R -> Prop) q s1 s2 raw b0 b t d,
  0 <= t <= 1 -> P s1 s2 t -> (forall t', P s1 s2 t' -> t' = t) ->
  d = dist q (along (r_pos s1) (r_pos s2) t) ->
  match b0 with None => True | Some (c, d) => candidate q c d end ->
  best_spec P q (s2 :: raw) (maybe_update (mkProj s1 s2 t) d b0) b ->
  best_spec P q (s1 :: s2 :: raw) b0 b.
Proof.
  intros P q s1 s2 raw b0 b t d T PT UN D B0 H.
  assert (MU : exists c1 d1, maybe_update (mkProj s1 s2 t) d b0 = Some (c1, d1) /\ d1 <= d /\
    (match b0 with None => True | Some (_, d0) => d1 <= d0 end) /\
    (b0 = Some (c1, d1) \/ c1 = mkProj s1 s2 t /\ d1 = d)).
  { unfold maybe_update. destruct b0 as [[c0 d0]|].
    - rsimp. destruct (Rltb d d0) eqn:L.
      + apply Rltb_true in L. exists (mkProj s1 s2 t), d. repeat split; auto; lra.
      + apply Rltb_false in L. exists c0, d0. repeat split; auto; lra.
    - cbn. exists (mkProj s1 s2 t), d. repeat split; auto; lra. }
  destruct MU as (c1 & d1 & E & D1 & D2 & D3). rewrite E in H. unfold best_spec in *. rewrite segments_cons2.
  destruct b as [[c dd]|]; [|destruct H as [H _]; discriminate H].
  destruct H as (H1 & H2 & H3 & H4). split; [exact H1|]. split; [|split].
  - destruct H2 as [H2|[H2 H2']].
    + injection H2 as -> ->. destruct D3 as [D3|[-> ->]]; [left; exact D3|]. right. cbn [pj_a pj_b pj_ratio]. split; [left; reflexivity|exact PT].
    + right. split; [right; exact H2|exact H2'].
  - destruct b0 as [[c0 d0]|]; [lra|exact I].
  - intros x y t' [I1|I1] K; [injection I1 as <- <-; rewrite (UN _ K), <- D; lra|apply H4; assumption].
Qed.

Definition on_left (q n : Vec2) (x y : Result) (t : R) : Prop :=
  raw_crosses q n x y t /\ ~ behind q n (along (r_pos x) (r_pos y) t).
Definition on_right (q n : Vec2) (x y : Result) (t : R) : Prop :=
  raw_crosses q n x y t /\ behind q n (along (r_pos x) (r_pos y) t).

Lemma maybe_update_cand : forall q c d (b : best), candidate q c d -> match b with None => True | Some (c, d) => candidate q c d end ->
  match maybe_update c d b with None => True | Some (c, d) => candidate q c d end.
Proof. intros q c d [[c0 d0]|] C B; cbn; [destruct (Rltb d d0); assumption|exact C]. Qed.

Lemma normal_loop : forall q n raw (l r : best),
  match l with None => True | Some (c, d) => candidate q c d end ->
  match r with None => True | Some (c, d) => candidate q c d end ->
  let '(l', r') := project_normal_loop q n raw l r in
  best_spec (on_left q n) q raw l l' /\ best_spec (on_right q n) q raw r r'.
Proof.
  intros q n. induction raw as [|s1 raw IH]; intros l r CL CR.
  - cbn. split; apply best_spec_nil; auto.
  - destruct raw as [|s2 raw].
    + cbn. split; apply best_spec_nil; auto.
    + change (project_normal_loop q n (s1 :: s2 :: raw) l r) with
        (match project_to_segment_along_normal (r_pos s1) (r_pos s2) q n with
         | None => project_normal_loop q n (s2 :: raw) l r
         | Some ratio =>
          let projection := interp_v (r_pos s1) (r_pos s2) ratio in
          let d := distance q projection in
          let c := mkProj s1 s2 ratio in
          if fltb (vdot (vsub projection q) n) f0 then
            project_normal_loop q n (s2 :: raw) l (maybe_update c d r)
          else
            project_normal_loop q n (s2 :: raw) (maybe_update c d l) r
        end). cbv zeta.
      pose proof (segment_crossing s1 s2 q n) as SC.
      destruct (project_to_segment_along_normal (r_pos s1) (r_pos s2) q n) as [t|].
      * destruct SC as [SC UN]. pose proof SC as (T & _). rewrite (interp_v_R _ _ t T), dist_distance.
        change (vlerp (r_pos s1) (r_pos s2) t) with (along (r_pos s1) (r_pos s2) t).
        set (d := dist q (along (r_pos s1) (r_pos s2) t)).
        assert (CD : candidate q (mkProj s1 s2 t) d) by (split; [exact T|reflexivity]).
        destruct (fltb _ f0) eqn:SIDE.
        -- assert (BH : behind q n (along (r_pos s1) (r_pos s2) t)).
           { unfold behind. unfold vdot, vsub in SIDE. rsimp. apply Rltb_true in SIDE. exact SIDE. }
           specialize (IH l (maybe_update (mkProj s1 s2 t) d r) CL (maybe_update_cand _ _ _ _ CD CR)).
           destruct (project_normal_loop q n (s2 :: raw) l _) as [l' r']. destruct IH as [I1 I2]. split.
           ++ apply best_spec_skip; [|exact I1]. intros t' [K1 K2]. apply K2. rewrite (UN _ K1). exact BH.
           ++ eapply best_spec_take; [exact T| | |reflexivity|exact CR|exact I2].
              ** split; [exact SC|exact BH].
              ** intros t' [K _]. apply UN. exact K.
        -- assert (BH : ~ behind q n (along (r_pos s1) (r_pos s2) t)).
           { unfold behind. unfold vdot, vsub in SIDE. rsimp. apply Rltb_false in SIDE. lra. }
           specialize (IH (maybe_update (mkProj s1 s2 t) d l) r (maybe_update_cand _ _ _ _ CD CL) CR).
           destruct (project_normal_loop q n (s2 :: raw) _ r) as [l' r']. destruct IH as [I1 I2]. split.
           ++ eapply best_spec_take; [exact T| | |reflexivity|exact CL|exact I1].
              ** split; [exact SC|exact BH].
              ** intros t' [K _]. apply UN. exact K.
           ++ apply best_spec_skip; [|exact I2]. intros t' [K1 K2]. apply BH. rewrite <- (UN _ K1). exact K2.
      * specialize (IH l r CL CR). destruct (project_normal_loop q n (s2 :: raw) l r) as [l' r']. destruct IH as [I1 I2].
        split; apply best_spec_skip; try assumption; intros t [K _]; apply (SC t K).
Qed.

(** ** The projection *)
Lemma crosses_raw : forall q n pts raw, Forall2 mem_of pts raw -> forall x y t, crosses q n pts x y t ->
  exists ra rb, In (ra, rb) (segments raw) /\ raw_crosses q n ra rb t /\ point_at x y t = along (r_pos ra) (r_pos rb) t.
Proof.
  intros q n pts raw H x y t (C1 & C2 & C3 & k & C4 & C5).
  destruct (Forall2_in_l _ _ _ _ (segments_raw _ _ H) C1) as ([ra rb] & J1 & (J2 & _) & (J3 & _)). cbn [fst snd] in *.
  exists ra, rb. unfold point_at in *. rewrite <- J2, <- J3 in *. split; [exact J1|]. split; [|reflexivity].
  split; [exact C2|]. split; [exact C3|]. exists k. auto.
Qed.
Lemma raw_crosses_in : forall q n pts raw, Forall2 mem_of pts raw -> forall ra rb t, In (ra, rb) (segments raw) -> raw_crosses q n ra rb t ->
  exists x y, mem_of x ra /\ mem_of y rb /\ crosses q n pts x y t /\ point_at x y t = along (r_pos ra) (r_pos rb) t.
Proof.
  intros q n pts raw H ra rb t J (C2 & C3 & k & C4 & C5).
  destruct (Forall2_in_r _ _ _ _ (segments_raw _ _ H) J) as ([x y] & I1 & I2 & I3). cbn [fst snd] in *.
  exists x, y. do 2 (split; [assumption|]). unfold crosses, point_at. destruct I2 as (I2 & _), I3 as (I3 & _). rewrite <- I2, <- I3.
  split; [|reflexivity]. split; [exact I1|]. split; [exact C2|]. split; [exact C3|]. exists k. auto.
Qed.

Lemma behind_dec : forall q n z, behind q n z \/ ~ behind q n z.
Proof. intros q n z. unfold behind. destruct (Rlt_dec ((vx z - vx q) * vx n + (vy z - vy q) * vy n) 0); auto. Qed.

Lemma normal_found : forall q a n pts raw, Forall2 mem_of pts raw ->
  match project_along_normal q a n raw with
  | Some c => exists x y, mem_of x (pj_a c) /\ mem_of y (pj_b c) /\ best_crossing q a n pts x y (pj_ratio c)
  | None => forall x y t, ~ crosses q n pts x y t
  end.
Proof.
  intros q a n pts raw H. unfold project_along_normal.
  pose proof (normal_loop q n raw None None I I) as K. destruct (project_normal_loop q n raw None None) as [l r].
  destruct K as [KL KR]. unfold best_spec in KL, KR.
  assert (FND : forall c d (P : Result -> Result -> R -> Prop),
    (forall ra rb t, P ra rb t -> raw_crosses q n ra rb t) ->
    candidate q c d -> In (pj_a c, pj_b c) (segments raw) /\ P (pj_a c) (pj_b c) (pj_ratio c) ->
    (forall x y t, In (x, y) (segments raw) -> P x y t -> d <= dist q (along (r_pos x) (r_pos y) t)) ->
    exists x y, mem_of x (pj_a c) /\ mem_of y (pj_b c) /\ crosses q n pts x y (pj_ratio c) /\
      P (pj_a c) (pj_b c) (pj_ratio c) /\ point_at x y (pj_ratio c) = along (r_pos (pj_a c)) (r_pos (pj_b c)) (pj_ratio c) /\
      forall x' y' t', crosses q n pts x' y' t' -> forall ra rb, In (ra, rb) (segments raw) -> point_at x' y' t' = along (r_pos ra) (r_pos rb) t' ->
        P ra rb t' -> dist q (point_at x y (pj_ratio c)) <= dist q (point_at x' y' t')).
  { intros c d P PC (_ & C2) [C3 C4] C5. destruct (raw_crosses_in _ _ _ _ H _ _ _ C3 (PC _ _ _ C4)) as (x & y & X1 & X2 & X3 & X4).
    exists x, y. do 5 (split; [assumption|]). intros x' y' t' _ ra rb IN E PP. rewrite X4, E, <- C2. apply C5; assumption. }
  assert (VD : Rltb 0 (vdot n a) = true <-> 0 < dot n a) by (unfold vdot, dot; rsimp; apply Rltb_true).
  destruct l as [[cl dl]|]; destruct r as [[cr dr]|].
  - destruct KL as (L1 & [L2|L2] & _ & L3); [discriminate L2|]. destruct KR as (R1 & [R2|R2] & _ & R3); [discriminate R2|].
    destruct (FND cl dl (on_left q n) ltac:(intros ? ? ? [? _]; assumption) L1 L2 L3) as (lx & ly & LX1 & LX2 & LX3 & [LX4 LX5] & LX6 & LX7).
    destruct (FND cr dr (on_right q n) ltac:(intros ? ? ? [? _]; assumption) R1 R2 R3) as (rx & ry & RX1 & RX2 & RX3 & [RX4 RX5] & RX6 & RX7).
    rewrite <- LX6 in LX5. rewrite <- RX6 in RX5.
    change (fltb f0 (vdot n a)) with (Rltb 0 (vdot n a)).
    destruct (Rltb 0 (vdot n a)) eqn:SD; cbv iota.
    + exists rx, ry. do 2 (split; [assumption|]). split; [assumption|]. intros x' y' t' C'.
      destruct (crosses_raw _ _ _ _ H _ _ _ C') as (ra & rb & J1 & J2 & J3). split.
      * intros IFF. eapply (RX7 x' y' t' C' ra rb J1 J3). split; [exact J2|]. rewrite <- J3. apply IFF. exact RX5.
      * intros _. split; [intros _; apply VD; reflexivity|intros _; exact RX5].
    + exists lx, ly. do 2 (split; [assumption|]). split; [assumption|]. intros x' y' t' C'.
      destruct (crosses_raw _ _ _ _ H _ _ _ C') as (ra & rb & J1 & J2 & J3). split.
      * intros IFF. eapply (LX7 x' y' t' C' ra rb J1 J3). split; [exact J2|]. rewrite <- J3. intros K. apply LX5. apply IFF. exact K.
      * intros _. split; [intros K; contradiction|]. intros K. apply VD in K. discriminate K.
  - destruct KL as (L1 & [L2|L2] & _ & L3); [discriminate L2|]. destruct KR as [_ R2].
    destruct (FND cl dl (on_left q n) ltac:(intros ? ? ? [? _]; assumption) L1 L2 L3) as (lx & ly & LX1 & LX2 & LX3 & [LX4 LX5] & LX6 & LX7).
    rewrite <- LX6 in LX5. exists lx, ly. do 2 (split; [assumption|]). split; [assumption|]. intros x' y' t' C'.
    destruct (crosses_raw _ _ _ _ H _ _ _ C') as (ra & rb & J1 & J2 & J3).
    assert (NB : ~ behind q n (point_at x' y' t')) by (intros K; apply (R2 ra rb t' J1); split; [exact J2|rewrite <- J3; exact K]). split.
    * intros _. eapply (LX7 x' y' t' C' ra rb J1 J3). split; [exact J2|rewrite <- J3; exact NB].
    * intros NI. exfalso. apply NI. tauto.
  - destruct KL as [_ L2]. destruct KR as (R1 & [R2|R2] & _ & R3); [discriminate R2|].
    destruct (FND cr dr (on_right q n) ltac:(intros ? ? ? [? _]; assumption) R1 R2 R3) as (rx & ry & RX1 & RX2 & RX3 & [RX4 RX5] & RX6 & RX7).
    rewrite <- RX6 in RX5. exists rx, ry. do 2 (split; [assumption|]). split; [assumption|]. intros x' y' t' C'.
    destruct (crosses_raw _ _ _ _ H _ _ _ C') as (ra & rb & J1 & J2 & J3).
    assert (NB : behind q n (point_at x' y' t')).
    { destruct (behind_dec q n (point_at x' y' t')) as [K|K]; [exact K|]. exfalso. apply (L2 ra rb t' J1). split; [exact J2|rewrite <- J3; exact K]. }
    split.
    * intros _. eapply (RX7 x' y' t' C' ra rb J1 J3). split; [exact J2|rewrite <- J3; exact NB].
    * intros NI. exfalso. apply NI. tauto.
  - destruct KL as [_ L2], KR as [_ R2]. intros x y t C. destruct (crosses_raw _ _ _ _ H _ _ _ C) as (ra & rb & J1 & J2 & J3).
    destruct (behind_dec q n (along (r_pos ra) (r_pos rb) t)) as [K|K]; [apply (R2 ra rb t J1)|apply (L2 ra rb t J1)]; split; assumption.
Qed.

Lemma along_0 : forall a b, along a b 0 = a.
Proof. intros a b. apply vec_eq; cbn; ring. Qed.
Lemma along_1 : forall a b, along a b 1 = b.
Proof. intros a b. apply vec_eq; cbn; ring. Qed.

Lemma Forall2_back : forall {X Y} (P : X -> Y -> Prop) l1 l2 y, Forall2 P l1 l2 -> back l2 = Some y -> exists x, back l1 = Some x /\ P x y.
Proof.
  intros X Y P l1 l2 y H B. unfold back in *. rewrite <- (Forall2_len _ _ _ H) in B. eapply Forall2_nth; eassumption.
Qed.

(** What a query answers, for the state [h]. *)
Lemma query_normal : forall fuel l pts sm h pt r0, memory l pts sm -> sy_normal (sm_params sm) = true ->
  stylus_query fuel sm (tip_of h) (get_stroke_normal (tip_of h) pt) = Ret r0 ->
  exists x y t, normal_projection pts h (r_time h - pt) x y t /\ raw_taken l (fst x) (fst y) t r0 /\
    r_pos r0 = point_at x y t /\ r_time r0 = r_time h /\ In x pts /\ In y pts /\ 0 <= t <= 1.
Proof.
  intros fuel l pts sm h pt r0 [M1 M2 M3 M4 M5 M6] N H. rewrite get_normal_R in H. cbn [tip_of t_vel t_acc t_time] in H.
  destruct M6 as [M6|(_ & _ & M6)]; [|congruence].
  unfold stylus_query in H. rewrite N in H. cbn [tip_of t_pos t_acc t_time] in H.
  destruct (s_raw (sm_state sm)) as [|fr rest] eqn:RAW; [exfalso; apply M4; inversion M6; reflexivity|]. rewrite <- RAW in *.
  unfold normal_projection.
  assert (FOUND : forall c (P : point -> point -> R -> Prop),
    (exists x y, mem_of x (pj_a c) /\ mem_of y (pj_b c) /\ P x y (pj_ratio c) /\ In (x, y) (segments pts) /\ 0 <= pj_ratio c <= 1) ->
    (let* res := interp_result fuel (pj_a c) (pj_b c) (pj_ratio c) in
     Ret (mkResult (r_pos res) (r_vel res) (r_acc res) (r_time h)
       (if s_unk_pressure (sm_state sm) then fm1 else r_pressure res)
       (if s_unk_tilt (sm_state sm) then fm1 else r_tilt res)
       (if s_unk_orient (sm_state sm) then fm1 else r_orient res))) = Ret r0 ->
    exists x y t, P x y t /\ raw_taken l (fst x) (fst y) t r0 /\
      r_pos r0 = point_at x y t /\ r_time r0 = r_time h /\ In x pts /\ In y pts /\ 0 <= t <= 1).
  { intros c P (x & y & KX & KY & KP & KS & T) Q. bind_inv Q. rename x0 into res. apply ret_inj in Q. subst r0.
    destruct (segments_in _ _ _ KS) as [IX IY].
    exists x, y, (pj_ratio c). split; [exact KP|]. split; [eapply interp_taken; eauto|]. cbn [r_pos r_time].
    split; [|auto]. apply interp_result_geom in E. apply (f_equal t_pos) in E. cbn [tip_of t_pos] in E. rewrite E, interp_v_R by exact T.
    destruct KX as (-> & _), KY as (-> & _). reflexivity. }
  assert (END : (let* res :=
         match back (s_raw (sm_state sm)) with
         | Some b => if fltb (distance (r_pos fr) (r_pos h)) (distance (r_pos b) (r_pos h)) then Ret fr else Ret b
         | None => UB UB_empty_deque
         end in
     Ret (mkResult (r_pos res) (r_vel res) (r_acc res) (r_time h)
       (if s_unk_pressure (sm_state sm) then fm1 else r_pressure res)
       (if s_unk_tilt (sm_state sm) then fm1 else r_tilt res)
       (if s_unk_orient (sm_state sm) then fm1 else r_orient res))) = Ret r0 ->
    exists x, nearer_end (r_pos h) pts x x 0 /\ raw_taken l (fst x) (fst x) 0 r0 /\
      r_pos r0 = point_at x x 0 /\ r_time r0 = r_time h /\ In x pts).
  { intros Q. destruct (back (s_raw (sm_state sm))) as [b|] eqn:B; [|discriminate Q].
    destruct (Forall2_back _ _ _ _ M6 B) as (xb & XB & MB). rewrite RAW in M6. 
    destruct pts as [|xf pts]; [exfalso; apply M4; reflexivity|].
    assert (MF : mem_of xf fr) by (inversion M6; assumption).
    change (fltb (distance (r_pos fr) (r_pos h)) (distance (r_pos b) (r_pos h))) with
      (Rltb (dist (r_pos fr) (r_pos h)) (dist (r_pos b) (r_pos h))) in Q.
    assert (IB : In xb (xf :: pts)) by (unfold back in XB; eapply nth_error_In; exact XB).
    assert (NE : forall x, (x = xf /\ dist (r_pos h) (snd xf) < dist (r_pos h) (snd xb) \/ x = xb /\ dist (r_pos h) (snd xb) <= dist (r_pos h) (snd xf)) ->
      nearer_end (r_pos h) (xf :: pts) x x 0).
    { intros x X. split; [reflexivity|]. split; [reflexivity|]. exists xf, xb. split; [reflexivity|]. split; [exact XB|exact X]. }
    pose proof MF as (MFP & _). pose proof MB as (MBP & _).
    rewrite MFP, MBP, (dist_sym (snd xf)), (dist_sym (snd xb)) in Q.
    destruct (Rltb _ _) eqn:L in Q; cbn [obind] in Q; apply ret_inj in Q; subst r0.
    - apply Rltb_true in L. exists xf. split; [apply NE; left; auto|]. split; [apply single_taken; auto|]. cbn [r_pos r_time].
      split; [unfold point_at; rewrite along_0; exact MFP|]. split; [reflexivity|left; reflexivity].
    - apply Rltb_false in L. exists xb. split; [apply NE; right; auto|]. split; [apply single_taken; auto|]. cbn [r_pos r_time].
      split; [unfold point_at; rewrite along_0; exact MBP|]. split; [reflexivity|exact IB]. }
  destruct (direction (r_vel h) (r_acc h) (r_time h - pt)) as [u|]; cbn [option_map] in H.
  - pose proof (normal_found (r_pos h) (r_acc h) (left_of u) pts _ M6) as NF.
    destruct (project_along_normal _ _ _ _) as [c|].
    + apply (FOUND c (best_crossing (r_pos h) (r_acc h) (left_of u) pts)) in H.
      * destruct H as (x & y & t & P & H). exists x, y, t. split; [left; exact P|exact H].
      * destruct NF as (x & y & X1 & X2 & X3). exists x, y. do 3 (split; [assumption|]). destruct X3 as ((X4 & X5 & _) & _). auto.
    + apply END in H. destruct H as (x & P & H1 & H2 & H3 & H4). exists x, x, 0. split; [right; auto|].
      do 3 (split; [assumption|]). repeat split; try assumption; lra.
  - pose proof (closest_nearest (r_pos h) pts _ M6 M4) as NF.
    destruct (project_to_closest _ _) as [c|].
    + apply (FOUND c (nearest (r_pos h) pts)) in H; [exact H|].
      destruct NF as (x & y & X1 & X2 & X3 & X4). exists x, y. do 4 (split; [assumption|]).
      destruct X3 as [X3 _]. apply on_polyline_in in X3. apply X3.
    + destruct NF as (x & r & -> & X2 & X3 & X4). apply END in H. destruct H as (z & ((_ & _ & f & b & F & B & P) & H1 & H2 & H3 & H4)).
      destruct H4 as [<-|[]]. exists x, x, 0. split; [exact X4|]. do 3 (split; [assumption|]). cbn. repeat split; auto; lra.
Qed.

(** ** What is in memory *)
Lemma memory_normal : forall sm L, validate_stylus (sm_params sm) = OkStatus -> sy_normal (sm_params sm) = true ->
  remembering (sm_params sm) L (sm_state sm) -> L <> [] ->
  exists pts, held (sm_params sm) L pts /\ memory (map fst L) pts sm.
Proof.
  intros sm L V N RM NE. destruct (remembering_raw _ _ _ V RM) as ((F1 & F2 & F3) & K).
  destruct K as [[K1 [K2|[K2 K3]]]|(k & [R1 _ R3 R4] & K1)]; [contradiction|congruence|].
  specialize (R3 N). specialize (R4 N).
  assert (SPLIT : L = firstn k L ++ skipn k L) by (symmetry; apply firstn_skipn).
  assert (NES : skipn k L <> []) by (intros E; apply (f_equal (@List.length _)) in E; rewrite skipn_length in E; cbn in E; lia).
  exists (skipn k L). split.
  - split; [exact NES|]. exists (firstn k L). split; [exact SPLIT|]. rewrite skipn_length. split.
    + destruct R3 as [->|(R3 & f & ic & I1 & I2 & I3)]; [left; reflexivity|right]. split; [exact R3|].
      exists f, ic. split; [|split; [exact I2|rsimp; apply Rltb_true in I3; exact I3]].
      pose proof (nth_skipn L k 0) as E. rewrite Nat.add_0_r, I1 in E. destruct (skipn k L); exact E.
    + destruct R4 as [R4|(s & b & I1 & I2 & I3)]; [left; exact R4|right]. exists s, b.
      split; [rewrite nth_skipn, Nat.add_1_r; exact I1|]. split; [rewrite back_skipn by exact R1; exact I2|].
      rsimp. apply Rltb_false in I3. exact I3.
  - constructor.
    + intros H. rewrite F1. apply (known_not_unknown i_pressure); exact H.
    + intros H. rewrite F2. apply (known_not_unknown i_tilt); exact H.
    + intros H. rewrite F3. apply (known_not_unknown i_orient); exact H.
    + exact NES.
    + intros x H. apply in_map. rewrite SPLIT. apply in_or_app. right. exact H.
    + left. exact K1.
Qed.

Lemma model_normal_off : forall fuel l pts sm, memory l pts sm -> sy_normal (sm_params sm) = true ->
  forall tips lm pt lm' out, lp_enabled (l_params lm) = false ->
  model_stylus_loop fuel tips sm lm f1 pt = Ret (lm', out) -> reported_normal l pts pt out.
Proof.
  intros fuel l pts sm M N. induction tips as [|tip rest IH]; intros lm pt lm' out E H; cbn [model_stylus_loop] in H.
  - inversion H; subst. exact I.
  - bind_inv H. rename E0 into Q. bind_inv H. rename E0 into IR.
    destruct (loop_update lm (r_vel x0) (t_time tip)) as [l1 v1] eqn:LU.
    destruct (loop_update_off _ _ _ _ _ E LU) as [-> ->].
    bind_inv H. destruct x1 as [l2 o2]. inversion H; subst. pose proof (result_off _ _ _ _ IR) as RO. rewrite <- RO in Q.
    destruct (query_normal _ _ _ _ _ _ _ M N Q) as (x1 & y1 & t & NN & RT & _ & _ & IX & IY & T). cbn [reported_normal]. split.
    + exists x1, y1, t. split; [exact NN|]. eapply final_taken; [| | |exact RT|exact IR]; try assumption; apply (mem_in _ _ _ M); assumption.
    + rewrite <- RO in E0. cbn [tip_of t_time] in E0. eapply IH; eassumption.
Qed.

Lemma normal_results : forall fuel p L sm lm lm' tips pt out, validate_params p = OkStatus ->
  sy_normal (p_stylus p) = true -> lp_enabled (pp_loop (p_position p)) = false -> L <> [] -> sm_params sm = p_stylus p ->
  remembering (p_stylus p) L (sm_state sm) -> l_params lm = pp_loop (p_position p) ->
  model_stylus fuel tips sm lm pt = Ret (lm', out) ->
  exists pts, held (p_stylus p) L pts /\ reported_normal (map fst L) pts pt out.
Proof.
  intros fuel p L sm lm lm' tips pt out V N OFF NE SP RM LP MS. rewrite <- LP in OFF.
  unfold model_stylus, loop_get in MS. rewrite loop_value_off in MS by exact OFF.
  rewrite <- SP in *. destruct (memory_normal sm L) as (pts & K1 & K2); try assumption.
  { rewrite SP. apply (validate_params_parts p V). }
  exists pts. split; [exact K1|]. eapply model_normal_off; eassumption.
Qed.

(** ** C32 (with C29, C30) *)
(** The results of a Move.  The first of them is treated as if the state before it
    had been at the time of the Move itself. *)
Theorem C32_normal_projection_move : forall (A := real_arith) fuel hist s p es seen i rs out,
  after_seen fuel hist s es seen -> ps_params s = Some p -> sy_normal (p_stylus p) = true ->
  lp_enabled (pp_loop (p_position p)) = false -> i_event i = EMove ->
  answers fuel hist [CUpdate i rs] = Ret [RResults OkStatus (rs ++ out)] ->
  sorted_if_smoothing (p_wobble p) (seen ++ [i]) ->
  exists pts, held (p_stylus p) (smooth_points (p_wobble p) (seen ++ [i])) pts /\
    reported_normal (seen ++ [i]) pts (i_time i) out.
Proof.
  intros A fuel hist s p es seen i rs out AS P N OFF EV AN SO. subst A.
  destruct (move_memory _ _ _ _ _ _ _ _ _ AS P EV AN SO) as (V & sm & lm & lm' & tips & SP & RM & LP & MS).
  assert (NE : smooth_points (p_wobble p) (seen ++ [i]) <> []).
  { rewrite smooth_points_snoc. intros E. apply app_eq_nil in E. destruct E; discriminate. }
  destruct (normal_results _ _ _ _ _ _ _ _ _ V N OFF NE SP RM LP MS) as (pts & K1 & K2).
  rewrite smooth_points_fst in K2. exists pts. auto.
Qed.

(** Of an Up: the state before was at the time of the input before it. *)
Theorem C32_normal_projection_up : forall (A := real_arith) fuel hist s p i0 es seen i rs out,
  after_seen fuel hist s es seen -> ps_params s = Some p -> ps_last s = Some i0 -> sy_normal (p_stylus p) = true ->
  lp_enabled (pp_loop (p_position p)) = false -> i_event i = EUp ->
  answers fuel hist [CUpdate i rs] = Ret [RResults OkStatus (rs ++ out)] ->
  sorted_if_smoothing (p_wobble p) seen ->
  exists pts, held (p_stylus p) (smooth_points (p_wobble p) seen ++ [(i, i_pos i)]) pts /\
    reported_normal (seen ++ [i]) pts (i_time i0) out.
Proof.
  intros A fuel hist s p i0 es seen i rs out AS P L0 N OFF EV AN SO. subst A.
  destruct (up_memory _ _ _ _ _ _ _ _ _ AS P EV AN SO) as (V & j & sm & lm & lm' & tips & L1 & SP & RM & LP & MS).
  rewrite L0 in L1. injection L1 as <-.
  assert (E : seen ++ [i] = map fst (smooth_points (p_wobble p) seen ++ [(i, i_pos i)]))
    by (rewrite map_app, smooth_points_fst; reflexivity).
  rewrite E. eapply normal_results; try eassumption. intros E'. apply app_eq_nil in E'. destruct E'; discriminate.
Qed.

(** Of a prediction. *)
Theorem C32_normal_projection_predict : forall (A := real_arith) fuel hist s p i0 es seen rs out,
  after_seen fuel hist s es seen -> ps_params s = Some p -> ps_last s = Some i0 -> sy_normal (p_stylus p) = true ->
  lp_enabled (pp_loop (p_position p)) = false ->
  answers fuel hist [CPredict rs] = Ret [RResults OkStatus out] ->
  sorted_if_smoothing (p_wobble p) seen ->
  exists pts, held (p_stylus p) (smooth_points (p_wobble p) seen) pts /\
    reported_normal seen pts (i_time i0) out.
Proof.
  intros A fuel hist s p i0 es seen rs out AS P L0 N OFF AN SO. subst A.
  destruct (predict_memory _ _ _ _ _ _ _ _ AS P AN SO) as (V & NE & j & sm & lm & lm' & tips & L1 & SP & RM & LP & MS).
  rewrite L0 in L1. injection L1 as <-.
  assert (NE2 : smooth_points (p_wobble p) seen <> []).
  { intros E. apply (f_equal (map fst)) in E. rewrite smooth_points_fst in E. contradiction. }
  destruct (normal_results _ _ _ _ _ _ _ _ _ V N OFF NE2 SP RM LP MS) as (pts & K1 & K2).
  rewrite smooth_points_fst in K2. exists pts. auto.
Qed.
