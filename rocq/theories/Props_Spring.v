(** * C38, C33, C24, C25, C50: the spring model, the end of the stroke, stroke-end
      prediction and angle-based upsampling (exact arithmetic). *)
From Coq Require Import ZArith Bool List Sorted Reals Lra Lia Psatz.
From Flocq Require Import Core.Raux.
From Verif Require Export Props_Time.
Import ListNotations.
Open Scope R_scope.

(** ** Specification *)
(** The result [b] follows the result [a] by the spring-drag law: a mass is drawn
    towards the anchor, with drag, for the time between the two. *)
Definition spring_law (pp : PositionParams) (a b : Result) (anchor : Vec2) : Prop :=
  let dt := r_time b - r_time a in
  vx (r_acc b) = (vx anchor - vx (r_pos a)) / pp_spring pp - pp_drag pp * vx (r_vel a) /\
  vy (r_acc b) = (vy anchor - vy (r_pos a)) / pp_spring pp - pp_drag pp * vy (r_vel a) /\
  vx (r_vel b) = vx (r_vel a) + dt * vx (r_acc b) /\
  vy (r_vel b) = vy (r_vel a) + dt * vy (r_acc b) /\
  vx (r_pos b) = vx (r_pos a) + dt * vx (r_vel b) /\
  vy (r_pos b) = vy (r_pos a) + dt * vy (r_vel b).

(** The point a fraction [r] of the way from [a] to [b]. *)
Definition along (a b : Vec2) (r : R) : Vec2 :=
  mkVec2 (vx a + (vx b - vx a) * r) (vy a + (vy b - vy a) * r).

(** The results [out], which come after [prev], follow the law one after the
    other with anchors that go from [a] to [b] in equal steps. *)
Definition drawn_along (pp : PositionParams) (prev : Result) (a b : Vec2) (out : list Result) : Prop :=
  forall j r, nth_error out j = Some r -> exists q, nth_error (prev :: out) j = Some q /\
    spring_law pp q r (along a b (INR (S j) / INR (List.length out))).

(** All results after [prev]: a list of target points, each with the results
    produced on the way there. *)
Fixpoint drawn (pp : PositionParams) (prev : Result) (a : Vec2) (l : list (Vec2 * list Result)) : Prop :=
  match l with
  | [] => True
  | (b, out) :: l' => drawn_along pp prev a b out /\ drawn pp (last out prev) b l'
  end.

(** ** Proofs *)
Lemma tip_update_law : forall p q r a t, tip_of r = tip_update p (tip_of q) a t -> spring_law p q r a.
Proof.
  intros p q r a t E. unfold tip_update, tip_of in E. injection E as E1 E2 E3 E4.
  unfold spring_law. cbv zeta. unfold vadd, vscale, vsub, vdiv in *. rsimp.
  rewrite E4, E1, E2, E3. cbn [vx vy]. rewrite ?E2, ?E3. cbn [vx vy]. repeat split; reflexivity.
Qed.

Lemma nth_map_inv : forall {X Y} (f : X -> Y) l j y, nth_error (map f l) j = Some y ->
  exists x, nth_error l j = Some x /\ f x = y.
Proof.
  intros X Y f l j y H. rewrite nth_error_map in H. destruct (nth_error l j) as [x|]; [|discriminate H].
  inversion H. eauto.
Qed.

Lemma scan_drawn : forall p prev a ta b tb n out, (0 <= n)%Z ->
  map tip_of out = scan p (tip_of prev) (map (waypoint a ta b tb n) (seq 0 (Z.to_nat n))) ->
  drawn_along p prev a b out.
Proof.
  intros p prev a ta b tb n out N H j r NJ.
  assert (LEN : List.length out = Z.to_nat n)
    by (rewrite <- (map_length tip_of), H, scan_length, map_length, seq_length; reflexivity).
  assert (NT : nth_error (map tip_of out) j = Some (tip_of r)) by (rewrite nth_error_map, NJ; reflexivity).
  rewrite H in NT. apply scan_nth in NT. destruct NT as (w & t & y & W & Y & E).
  rewrite <- H in Y. change (tip_of prev :: map tip_of out) with (map tip_of (prev :: out)) in Y.
  apply nth_map_inv in Y. destruct Y as (q & Q & <-). exists q. split; [exact Q|].
  apply nth_map_inv in W. destruct W as (k & K & W).
  assert (LJ : (j < Z.to_nat n)%nat) by (rewrite <- LEN; apply nth_error_Some; congruence).
  rewrite (nth_error_nth' _ 0%nat), seq_nth in K by (try rewrite seq_length; exact LJ).
  injection K as <-. unfold waypoint in W. injection W as <- <-. cbn [plus] in E.
  assert (IN : INR (List.length out) = IZR n) by (rewrite LEN, INR_IZR_INZ; f_equal; lia).
  rewrite IN. eapply tip_update_law. exact E.
Qed.

Lemma drawn_app : forall pp l1 l2 prev a,
  drawn pp prev a l1 -> drawn pp (last (List.concat (map snd l1)) prev) (last (map fst l1) a) l2 ->
  drawn pp prev a (l1 ++ l2).
Proof.
  intros pp. induction l1 as [|[b out] l1 IH]; intros l2 prev a H1 H2; [exact H2|].
  cbn [drawn app] in *. destruct H1 as [H1 H3]. split; [exact H1|]. apply IH; [exact H3|].
  cbn [map fst snd List.concat] in H2. rewrite last_cons in H2.
  assert (E : forall (x y : list Result) d, last (x ++ y) d = last y (last x d)).
  { intros x. induction x as [|u x IHx]; intros y d; [reflexivity|]. cbn [app]. rewrite !last_cons. apply IHx. }
  rewrite E in H2. exact H2.
Qed.

Lemma wobble_off : forall w pos t w' c, wp_enabled (w_params w) = false ->
  wobble_update w pos t = Ret (w', c) -> w' = w /\ c = pos.
Proof. intros w pos t w' c E H. unfold wobble_update in H. rewrite E in H. cbn in H. inversion H; auto. Qed.

Definition on_spring (p : StrokeModelParams) (es : list entry) (c : core) : Prop :=
  exists d es' ws, es = (d, [down_result d]) :: es' /\ List.length ws = List.length es' /\
    li_corrected (co_last c) = last ws (i_pos d) /\
    (wp_enabled (p_wobble p) = false -> ws = map (fun e => i_pos (fst e)) es' /\
       li_corrected (co_last c) = i_pos (li_input (co_last c))) /\
    (lp_enabled (pp_loop (p_position p)) = false ->
       drawn (p_position p) (down_result d) (i_pos d) (combine ws (map snd es')) /\
       co_tip c = tip_of (last (List.concat (map snd es')) (down_result d))).

Lemma combine_snd : forall {X Y} (l : list X) (l2 : list Y), List.length l = List.length l2 -> map snd (combine l l2) = l2.
Proof. intros X Y l. induction l as [|x l IH]; intros [|y l2] H; try discriminate; [reflexivity|]. cbn in *. f_equal. apply IH. lia. Qed.
Lemma combine_fst : forall {X Y} (l : list X) (l2 : list Y), List.length l = List.length l2 -> map fst (combine l l2) = l.
Proof. intros X Y l. induction l as [|x l IH]; intros [|y l2] H; try discriminate; [reflexivity|]. cbn in *. f_equal. apply IH. lia. Qed.
Lemma combine_snoc : forall {X Y} (l : list X) (l2 : list Y) x y, List.length l = List.length l2 ->
  combine (l ++ [x]) (l2 ++ [y]) = combine l l2 ++ [(x, y)].
Proof. intros X Y l. induction l as [|a l IH]; intros [|b l2] x y H; try discriminate; [reflexivity|]. cbn in *. f_equal. apply IH. lia. Qed.

Lemma last_app' : forall {X} (x y : list X) d, last (x ++ y) d = last y (last x d).
Proof. intros X x. induction x as [|u x IHx]; intros y d; [reflexivity|]. cbn [app]. rewrite !last_cons. apply IHx. Qed.

Lemma on_spring_state : forall fuel hist s es, after_stroke fuel hist s es ->
  exists m rs, run fuel modeler0 hist = Ret (m, rs) /\ tracks s m /\ good m /\ cons m /\
    (forall p last, m_params m = Some p -> m_last m = Some last -> on_spring p es (core_of p m last)).
Proof.
  intros fuel hist s es AS. eapply (after_stroke_state fuel (fun _ => True) on_spring); [| | |exact AS|apply call_in_true].
  - intros p m i m' out _ MP V G U EV. destruct (upd_down fuel m i m' out U EV) as (q & sm & pred & _ & _ & _ & _ & _ & -> & ->).
    exists i, [], []. do 3 (split; [reflexivity|]). split; [split; reflexivity|]. intros _. split; [exact I|reflexivity].
  - intros p m i m' out is lst last' _ MP V G CP ML (d & es' & ws & J1 & J2 & J3 & J4 & J5) U EV ML'.
    destruct (move_R fuel p m i m' out V MP CP U EV) as (last0 & w & c & n & tips & ML0 & ML2 & MW & _ & DL & _ & N & NB & ET & EP & ER & EO & _).
    rewrite ML in ML0. injection ML0 as <-. rewrite ML' in ML2. injection ML2 as ->.
    exists d, (es' ++ [(i, out)]), (ws ++ [c]). split; [rewrite J1; reflexivity|].
    split; [rewrite !app_length; cbn; lia|]. split; [rewrite last_last; reflexivity|].
    split.
    + intros W. destruct (J4 W) as [J8 J9].
      assert (EC : c = i_pos i) by (eapply wobble_off; [|exact MW]; destruct CP as (-> & _); exact W).
      rewrite map_app, J8, EC. split; reflexivity.
    + intros L. destruct (J5 L) as [J6 J7]. cbn [core_of co_tip co_last] in *.
      assert (DR : drawn_along (p_position p) (last (List.concat (map snd es')) (down_result d)) (last ws (i_pos d)) c out).
      { eapply scan_drawn with (n := n); [lia|]. rewrite (EO L), ET, J7, <- J3. reflexivity. }
      rewrite map_app. change (map snd [(i, out)]) with [out]. rewrite combine_snoc by (rewrite map_length; exact J2). split.
      * apply drawn_app; [exact J6|]. rewrite combine_snd, combine_fst by (rewrite map_length; exact J2).
        cbn [drawn]. split; [exact DR|exact I].
      * rewrite EP, <- (EO L), J7, concat_app. cbn [map List.concat snd]. rewrite app_nil_r, last_app'. symmetry.
        symmetry. apply last_map.
  - intros p m i m' out is lst e _ MP V G CP ML J U NE. inversion U; subst; try congruence; exact J.
Qed.

(** ** C38 *)
(** Smoothing and loop mitigation off: from the Down on, every result follows the
    previous one by the law, the anchors going from input to input. *)
Theorem C38_spring_law : forall (A := real_arith) fuel hist s p es,
  after_stroke fuel hist s es -> ps_params s = Some p -> in_stroke s = true ->
  wp_enabled (p_wobble p) = false -> lp_enabled (pp_loop (p_position p)) = false ->
  exists d r es', es = (d, [r]) :: es' /\
    r_pos r = i_pos d /\ r_vel r = mkVec2 0 0 /\ r_acc r = mkVec2 0 0 /\ r_time r = i_time d /\
    drawn (p_position p) r (i_pos d) (map (fun e => (i_pos (fst e), snd e)) es').
Proof.
  intros A fuel hist s p es AS P IS W L. subst A.
  destruct (on_spring_state _ _ _ _ AS) as (m & rs & _ & (T1 & T2 & _) & _ & _ & K).
  unfold in_stroke in IS. rewrite T2 in IS. destruct (m_last m) as [lst|]; [|discriminate IS].
  destruct (K p lst (eq_trans (eq_sym T1) P) eq_refl) as (d & es' & ws & -> & LW & _ & KW & KD).
  destruct (KD L) as [KD1 _]. exists d, (down_result d), es'. do 5 (split; [reflexivity|]).
  destruct (KW W) as [KW1 _]. rewrite KW1 in KD1.
  replace (map (fun e => (i_pos (fst e), snd e)) es') with (combine (map (fun e => i_pos (fst e)) es') (map snd es')); [exact KD1|].
  clear. induction es' as [|e es' IH]; [reflexivity|]. cbn. rewrite IH. reflexivity.
Qed.

(** With smoothing on the same holds with smoothed positions in place of the
    positions of the Moves. *)
Theorem C38_spring_law_smoothed_partial : forall (A := real_arith) fuel hist s p es,
  after_stroke fuel hist s es -> ps_params s = Some p -> in_stroke s = true ->
  lp_enabled (pp_loop (p_position p)) = false ->
  exists d r es' ws, es = (d, [r]) :: es' /\ List.length ws = List.length es' /\
    drawn (p_position p) r (i_pos d) (combine ws (map snd es')).
Proof.
  intros A fuel hist s p es AS P IS L. subst A.
  destruct (on_spring_state _ _ _ _ AS) as (m & rs & _ & (T1 & T2 & _) & _ & _ & K).
  unfold in_stroke in IS. rewrite T2 in IS. destruct (m_last m) as [lst|]; [|discriminate IS].
  destruct (K p lst (eq_trans (eq_sym T1) P) eq_refl) as (d & es' & ws & -> & LW & _ & KW & KD).
  destruct (KD L) as [KD1 _]. exists d, (down_result d), es', ws. auto.
Qed.

(** ** C24: the end of the stroke *)
Definition dist (a b : Vec2) : R := sqrt ((vx b - vx a) * (vx b - vx a) + (vy b - vy a) * (vy b - vy a)).

Lemma distance_R : forall a b, distance a b = dist a b.
Proof. intros a b. unfold distance, dist, magnitude, vsub. rsimp. reflexivity. Qed.
Lemma dist_sq : forall a b, dist a b * dist a b = (vx b - vx a) * (vx b - vx a) + (vy b - vy a) * (vy b - vy a).
Proof. intros a b. unfold dist. apply sqrt_sqrt. apply Rplus_le_le_0_compat; apply Rle_0_sqr. Qed.
Lemma dist_pos : forall a b, 0 <= dist a b.
Proof. intros. apply sqrt_pos. Qed.

(** A candidate that does not overshoot is closer. *)
Lemma nearest_end : forall s c a : Vec2, 0 < dist s c -> Rltb (nearest_point_on_segment s c a) 1 = false ->
  dist c a < dist s a.
Proof.
  intros s c a D H. apply Rltb_false in H. unfold nearest_point_on_segment in H.
  destruct (veqb s c) eqn:V.
  - exfalso. rsimp. lra.
  - unfold clamp01, std_clamp, vdot, vsub in H. rsimp.
    pose proof (dist_sq s c) as D2. pose proof (dist_sq c a) as D3. pose proof (dist_sq s a) as D4.
    pose proof (dist_pos c a). pose proof (dist_pos s a).
    set (len := (vx c - vx s) * (vx c - vx s) + (vy c - vy s) * (vy c - vy s)) in *.
    set (dot := (vx a - vx s) * (vx c - vx s) + (vy a - vy s) * (vy c - vy s)) in *.
    assert (L0 : 0 < len) by nra.
    assert (DL : len <= dot).
    { destruct (Rltb (dot / len) 0) eqn:E1; [lra|]. destruct (Rltb 1 (dot / len)) eqn:E2.
      - apply Rltb_true in E2. apply Rmult_lt_compat_r with (r := len) in E2; [|exact L0].
        unfold Rdiv in E2. rewrite Rmult_assoc, Rinv_l in E2 by lra. lra.
      - apply Rmult_le_compat_r with (r := len) in H; [|lra].
        unfold Rdiv in H. rewrite Rmult_assoc, Rinv_l in H by lra. lra. }
    assert (K : dist c a * dist c a <= dist s a * dist s a - len).
    { rewrite D3, D4. unfold len, dot in *. nra. }
    nra.
Qed.

Definition halved (g : R) (h : nat) : R := g / 2 ^ h.
Lemma halved_S : forall g h, halved (g * (1 / 2)) h = halved g (S h).
Proof. intros g h. unfold halved. cbn. field. apply pow_nonzero. lra. Qed.
Lemma halved_0 : forall g, halved g 0 = g.
Proof. intros g. unfold halved. cbn. field. Qed.
Lemma halved_bounds : forall g h, 0 < g -> 0 < halved g h <= g.
Proof.
  intros g h G. unfold halved. pose proof (pow_R1_Rle 2 h ltac:(lra)). split; [apply Rdiv_lt_0_compat; lra|].
  apply Rmult_le_reg_r with (2 ^ h); [lra|]. unfold Rdiv. rewrite Rmult_assoc, Rinv_l by lra. nra.
Qed.

Lemma end_R : forall p anchor stop, 0 < stop -> forall k s delta sf out, 0 < delta ->
  model_end_of_stroke p s anchor delta k stop = (sf, out) ->
  exists h, (List.length out + h <= k)%nat /\
    (forall j x, nth_error out j = Some x -> exists y hj, nth_error (s :: out) j = Some y /\
       x = tip_update p y anchor (t_time y + halved delta hj) /\
       stop <= dist (t_pos y) (t_pos x) /\ dist (t_pos x) anchor < dist (t_pos y) anchor) /\
    ((out <> [] /\ dist (t_pos (last out s)) anchor < stop) \/
     (List.length out + h = k)%nat \/
     (dist (t_pos (last out s))
       (t_pos (tip_update p (last out s) anchor (t_time (last out s) + halved delta h))) < stop)) /\
    (out = [] -> sf = s \/ exists h', sf = tip_update p s anchor (t_time s + halved delta h') /\ dist (t_pos s) (t_pos sf) < stop).
Proof.
  intros p anchor stop ST. induction k as [|k IH]; intros s delta sf out D0 H; cbn [model_end_of_stroke] in H.
  - injection H as <- <-. exists 0%nat. split; [cbn; lia|]. split; [intros j x NJ; destruct j; discriminate NJ|].
    split; [right; left; reflexivity|]. auto.
  - rewrite !distance_R in H. change (fltb ?a ?b) with (Rltb a b) in H. change (dadd ?a ?b) with (a + b) in H.
    set (c := tip_update p s anchor (t_time s + delta)) in *.
    change (@fltb real_arith) with Rltb in H.
    destruct (Rltb (dist (t_pos s) (t_pos c)) stop) eqn:E1.
    + injection H as <- <-. apply Rltb_true in E1. exists 0%nat. split; [cbn; lia|].
      split; [intros j x NJ; destruct j; discriminate NJ|]. split.
      * right. right. cbn [last]. rewrite halved_0. exact E1.
      * intros _. right. exists 0%nat. rewrite halved_0. split; [reflexivity|exact E1].
    + apply Rltb_false in E1. rewrite ?distance_R in H. match type of H with (if ?b then _ else _) = _ => destruct b eqn:E2 end.
      * assert (D1 : 0 < delta * (1 / 2)) by lra. destruct (IH s (delta * (1 / 2)) _ _ D1 H) as (h & H1 & H2 & H3 & H4). exists (S h). split; [lia|].
        split; [|split].
        -- intros j x NJ. destruct (H2 j x NJ) as (y & hj & Y1 & Y2 & Y3). exists y, (S hj). split; [exact Y1|].
           rewrite <- halved_S. split; [exact Y2|exact Y3].
        -- destruct H3 as [H3|[H3|H3]]; [left; exact H3|right; left; lia|right; right]. rewrite <- halved_S. exact H3.
        -- intros E. destruct (H4 E) as [H5|(h' & H5 & H6)]; [left; exact H5|right]. exists (S h'). rewrite <- halved_S. auto.
      * assert (CL : dist (t_pos c) anchor < dist (t_pos s) anchor) by (apply nearest_end; [lra|exact E2]).
        assert (FIRST : forall j x l, j = 0%nat -> nth_error (c :: l) j = Some x -> exists y hj, nth_error (s :: c :: l) j = Some y /\
           x = tip_update p y anchor (t_time y + halved delta hj) /\
           stop <= dist (t_pos y) (t_pos x) /\ dist (t_pos x) anchor < dist (t_pos y) anchor).
        { intros j x l -> NJ. injection NJ as <-. exists s, 0%nat. rewrite halved_0. split; [reflexivity|]. auto. }
        destruct (Rltb (dist (t_pos c) anchor) stop) eqn:E3.
        -- injection H as <- <-. apply Rltb_true in E3. exists 0%nat. split; [cbn; lia|].
           split; [intros [|j] x NJ; [apply FIRST; auto|destruct j; discriminate NJ]|].
           split; [left; split; [discriminate|exact E3]|discriminate].
        -- destruct (model_end_of_stroke p c anchor delta k stop) as [sf' o] eqn:E. injection H as <- <-.
           destruct (IH _ _ _ _ D0 E) as (h & H1 & H2 & H3 & H4). exists h. cbn [List.length]. split; [lia|].
           split; [|split].
           ++ intros [|j] x NJ; [apply FIRST; auto|]. cbn [nth_error] in NJ. destruct (H2 j x NJ) as (y & hj & Y1 & Y2). exists y, hj.
              split; [exact Y1|exact Y2].
           ++ rewrite last_cons. destruct H3 as [[_ H3]|[H3|H3]]; [left; split; [discriminate|exact H3]|right; left; lia|right; right; exact H3].
           ++ discriminate.
Qed.

(** *** Specification of the end of a stroke *)
(** Each of the results [tail], which come after [prev], follows the law for a time
    of at most [g], moves by at least [stop] and gets closer to the anchor. *)
Definition approaches (pp : PositionParams) (anchor : Vec2) (stop g : R) (prev : Result) (tail : list Result) : Prop :=
  forall j r, nth_error tail j = Some r -> exists q, nth_error (prev :: tail) j = Some q /\
    spring_law pp q r anchor /\ r_time q < r_time r <= r_time q + g /\
    stop <= dist (r_pos q) (r_pos r) /\ dist (r_pos r) anchor < dist (r_pos q) anchor.
(** A step of duration [dt] after [q] would move by less than [stop]. *)
Definition short_step (pp : PositionParams) (anchor : Vec2) (stop dt : R) (q : Result) : Prop :=
  forall r, spring_law pp q r anchor -> r_time r = r_time q + dt -> dist (r_pos q) (r_pos r) < stop.

Lemma law_tip : forall pp q r a, spring_law pp q r a ->
  tip_of r = tip_update pp (tip_of q) a (r_time r).
Proof.
  intros pp q r a (H1 & H2 & H3 & H4 & H5 & H6). unfold tip_update, tip_of.
  cbn [t_pos t_vel t_acc t_time]. unfold vadd, vscale, vsub, vdiv. rsimp.
  assert (EA : r_acc r = mkVec2 (vx (r_acc r)) (vy (r_acc r))) by (destruct (r_acc r); reflexivity).
  assert (EV : r_vel r = mkVec2 (vx (r_vel r)) (vy (r_vel r))) by (destruct (r_vel r); reflexivity).
  assert (EP : r_pos r = mkVec2 (vx (r_pos r)) (vy (r_pos r))) by (destruct (r_pos r); reflexivity).
  rewrite EP, H5, H6, EV, H3, H4, EA, H1, H2. reflexivity.
Qed.

(** ** C24, C38 for Up *)
(** With loop mitigation off, an Up first draws the tip along to the pen-up point
    over the time since the last input, then models the end of the stroke; if that
    produces nothing at all it reports one state. [w] is the position of the last
    input (smoothed if smoothing is on). *)
Theorem C24_end_of_stroke : forall (A := real_arith) fuel hist s p i0 i rs out es prev,
  after_stroke fuel hist s es -> ps_params s = Some p -> ps_last s = Some i0 -> i_event i = EUp ->
  lp_enabled (pp_loop (p_position p)) = false ->
  back (List.concat (map snd es)) = Some prev ->
  answers fuel hist [CUpdate i rs] = Ret [RResults OkStatus (rs ++ out)] ->
  let pp := p_position p in let g := 1 / sp_rate (p_sampling p) in let stop := sp_stop (p_sampling p) in
  let max_iter := Z.to_nat (sp_max_iter (p_sampling p)) in
  exists w path tail h,
    (wp_enabled (p_wobble p) = false -> w = i_pos i0) /\
    (out = path ++ tail \/
     path = [] /\ tail = [] /\ exists f, out = [f] /\
       (tip_of f = tip_of prev \/ spring_law pp prev f (i_pos i) /\ dist (r_pos prev) (r_pos f) < stop)) /\
    evenly_spaced (i_time i0) (i_time i) path /\
    drawn_along pp prev w (i_pos i) path /\
    approaches pp (i_pos i) stop g (last path prev) tail /\
    (List.length tail + h <= max_iter)%nat /\
    (tail <> [] /\ dist (r_pos (last tail prev)) (i_pos i) < stop \/
     (List.length tail + h = max_iter)%nat \/
     short_step pp (i_pos i) stop (g / 2 ^ h) (last tail (last path prev))).
Proof.
  intros A fuel hist s p i0 i rs out es prev AS P L EV LP BK AN pp g stop max_iter. subst A.
  destruct (on_spring_state _ _ _ _ AS) as (m0 & rs0 & R0 & _ & _ & _ & OS).
  assert (AF : after fuel hist s) by (destruct AS as (ma & rsa & Ra & Pa & _); exists ma, rsa; auto).
  destruct (accepted_update _ _ _ _ _ _ _ AF AN) as (m & r0 & m' & o & R & (T1 & T2 & _) & G & C & K & U & _).
  rewrite R0 in R. injection R as -> ->.
  apply app_inv_head in K. subst o. rewrite P in T1. rewrite L in T2. symmetry in T1.
  destruct (m_last m) as [lst|] eqn:ML; [|discriminate T2]. injection T2 as ->.
  pose proof (g_valid _ G p T1) as V.
  destruct (OS p lst T1 eq_refl) as (d & es' & ws & EE & LW & KC & KW & KD). destruct (KD LP) as [_ KT].
  cbn [core_of co_tip co_last] in KT, KC. clear KD OS.
  assert (PV : prev = last (List.concat (map snd es')) (down_result d)).
  { rewrite EE in BK. cbn [map snd List.concat app] in BK. unfold back in BK.
    revert BK. generalize (down_result d) (List.concat (map snd es')). clear. intros x l. revert x.
    induction l as [|y l IH]; intros x BK; [cbn in BK |- *; congruence|]. rewrite last_cons. apply IH. exact BK. }
  rewrite <- PV in KT.
  destruct (up_R fuel p m i m' out V T1 (C p T1 ltac:(left; congruence)) U EV) as (last0 & n & tips1 & tip1 & tip2 & tips2 & tips & ML0 & DL & _ & N & NB & ET & EP & ME & ETS & _ & EO).
  rewrite ML in ML0. injection ML0 as <-. specialize (EO LP). destruct (valid_R p V) as (_ & _ & V3 & V4).
  assert (D0 : 0 < g) by (apply Rdiv_lt_0_compat; lra).
  destruct (end_R _ _ _ V4 _ _ _ _ _ D0 ME) as (h & H1 & H2 & H3 & H4).
  rewrite KT in ET, EP.
  assert (LEN : List.length tips1 = Z.to_nat n) by (rewrite ET, scan_length, map_length, seq_length; reflexivity).
  assert (SPLIT : exists path tail, map tip_of path = tips1 /\ map tip_of tail = tips2 /\
     (out = path ++ tail \/ path = [] /\ tail = [] /\ map tip_of out = [tip2])).
  { destruct (tips1 ++ tips2) as [|x l] eqn:E12.
    - apply app_eq_nil in E12. destruct E12 as [-> ->]. exists [], []. do 2 (split; [reflexivity|]). right. rewrite ETS in EO. auto.
    - assert (EO2 : map tip_of out = tips1 ++ tips2) by (rewrite EO, ETS, E12; reflexivity).
      exists (firstn (List.length tips1) out), (skipn (List.length tips1) out).
      rewrite <- firstn_map, <- skipn_map, EO2, firstn_app, skipn_app, firstn_all, skipn_all, Nat.sub_diag. cbn.
      rewrite app_nil_r. do 2 (split; [reflexivity|]). left. symmetry. apply firstn_skipn. }
  destruct SPLIT as (path & tail & SP & STL & SO).
  assert (LP1 : List.length path = List.length tips1) by (rewrite <- SP, map_length; reflexivity).
  assert (LT1 : List.length tail = List.length tips2) by (rewrite <- STL, map_length; reflexivity).
  assert (E1 : tip1 = tip_of (last path prev)) by (rewrite EP, <- SP; apply last_map).
  assert (EL : last tips2 tip1 = tip_of (last tail (last path prev))) by (rewrite E1, <- STL; apply last_map).
  exists (li_corrected lst), path, tail, h.
  split; [intros W; apply (KW W)|]. split.
  { destruct SO as [SO|(-> & -> & SO)]; [left; exact SO|right]. do 2 (split; [reflexivity|]).
    destruct out as [|f [|? ?]]; try discriminate SO. injection SO as SO. exists f. split; [reflexivity|].
    destruct (H4 (eq_sym STL)) as [H5|(h' & H5 & H6)].
    - left. rewrite SO, H5, E1. reflexivity.
    - right. rewrite E1 in H5, H6. rewrite <- SO in H5, H6. split; [eapply tip_update_law; exact H5|exact H6]. }
  split.
  { intros j r NJ. assert (NT : nth_error (map tip_of path) j = Some (tip_of r)) by (rewrite nth_error_map, NJ; reflexivity).
    apply (f_equal (option_map t_time)) in NT. rewrite SP, ET, <- nth_error_map, scan_time in NT. cbn [option_map tip_of t_time] in NT.
    assert (IN : INR (List.length path) = IZR n) by (rewrite LP1, LEN, INR_IZR_INZ; f_equal; lia). rewrite IN.
    assert (LJ : (j < Z.to_nat n)%nat) by (rewrite <- LEN, <- LP1; apply nth_error_Some; congruence).
    rewrite map_map, nth_error_map, (nth_error_nth' _ 0%nat), seq_nth in NT by (try rewrite seq_length; exact LJ).
    cbn [option_map waypoint snd plus] in NT. injection NT as <-. reflexivity. }
  split; [eapply scan_drawn with (n := n); [lia|rewrite SP; exact ET]|].
  split.
  { intros j r NJ. assert (NT : nth_error tips2 j = Some (tip_of r)) by (rewrite <- STL, nth_error_map, NJ; reflexivity).
    destruct (H2 j _ NT) as (y & hj & Y1 & Y2 & Y3 & Y4). rewrite E1, <- STL in Y1.
    change (tip_of (last path prev) :: map tip_of tail) with (map tip_of (last path prev :: tail)) in Y1.
    apply nth_map_inv in Y1. destruct Y1 as (q & Q & <-). exists q. split; [exact Q|].
    split; [eapply tip_update_law; exact Y2|]. split.
    - apply (f_equal t_time) in Y2. cbn [tip_of tip_update t_time] in Y2. rewrite Y2. pose proof (halved_bounds g hj D0).
      fold g. lra.
    - split; [exact Y3|exact Y4]. }
  split; [rewrite LT1; exact H1|].
  destruct H3 as [[H3 H5]|[H3|H3]].
  - left. destruct tail as [|x tail]; [exfalso; apply H3; symmetry; exact STL|]. split; [discriminate|].
    rewrite EL in H5. rewrite !last_cons in H5 |- *. exact H5.
  - right. left. rewrite LT1. exact H3.
  - right. right. intros r SL RT. apply law_tip in SL. rewrite EL in H3. rewrite RT in SL.
    cbn [tip_of t_pos t_time] in H3. apply (f_equal t_pos) in SL. cbn [tip_of t_pos] in SL.
    rewrite SL. exact H3.
Qed.

(** ** C33: the projection has no influence on the geometry *)
(** *** Specification *)
(** The same parameters except for the stylus-state modeler's, loop mitigation
    off. *)
Definition same_but_stylus (p q : StrokeModelParams) : Prop :=
  p_wobble p = p_wobble q /\ p_position p = p_position q /\ p_sampling p = p_sampling q /\
  p_prediction p = p_prediction q /\ lp_enabled (pp_loop (p_position p)) = false /\
  validate_params p = validate_params q.
(** Vectors with the same positions, velocities, accelerations and times. *)
Definition same_geometry (a b : list Result) : Prop := map tip_of a = map tip_of b.
Inductive call_but_stylus : call -> call -> Prop :=
| CBReset p q : same_but_stylus p q -> call_but_stylus (CReset p) (CReset q)
| CBKeep : call_but_stylus CResetKeep CResetKeep
| CBUpdate i a b : same_geometry a b -> call_but_stylus (CUpdate i a) (CUpdate i b)
| CBPredict a b : call_but_stylus (CPredict a) (CPredict b)
| CBSave : call_but_stylus CSave CSave
| CBRestore : call_but_stylus CRestore CRestore.
Inductive reply_geometry : reply -> reply -> Prop :=
| RGStatus s : reply_geometry (RStatus s) (RStatus s)
| RGResults s a b : same_geometry a b -> reply_geometry (RResults s a) (RResults s b)
| RGVoid : reply_geometry RVoid RVoid.

(** *** Proof *)
Record but_stylus (m n : Modeler) : Prop := mkBS {
  bs_pred : m_predictor m = m_predictor n;
  bs_par : match m_params m, m_params n with
           | Some p, Some q => same_but_stylus p q /\ l_params (m_loop m) = pp_loop (p_position p)
           | None, None => True
           | _, _ => False
           end;
  bs_wob : m_wobble m = m_wobble n;
  bs_pos : m_pos m = m_pos n;
  bs_loop : m_loop m = m_loop n;
  bs_last : m_last m = m_last n;
  bs_sp : m_saved_predictor m = m_saved_predictor n;
  bs_sl : m_saved_last m = m_saved_last n;
  bs_sa : m_save_active m = m_save_active n
}.

Lemma same_geometry_app : forall a b c d, same_geometry a b -> same_geometry c d -> same_geometry (a ++ c) (b ++ d).
Proof. intros a b c d H1 H2. unfold same_geometry in *. rewrite !map_app, H1, H2. reflexivity. Qed.

Lemma loop_restore_params : forall lm, l_params (loop_restore lm) = l_params lm.
Proof. intros lm. unfold loop_restore. destruct (l_save_active lm); reflexivity. Qed.

Ltac bs := constructor; cbn [m_predictor m_params m_wobble m_pos m_stylus m_loop m_buffer m_last m_saved_predictor m_saved_last m_save_active]; auto.

Lemma update_but_stylus : forall fuel m n i a b m' s ra n' t rb, but_stylus m n -> same_geometry a b ->
  update fuel m i a = Ret (m', s, ra) -> update fuel n i b = Ret (n', t, rb) ->
  but_stylus m' n' /\ s = t /\ same_geometry ra rb.
Proof.
  intros fuel m n i a b m' s ra n' t rb B SG U1 U2. destruct B as [B1 B2 B3 B4 B5 B6 B7 B8 B9].
  unfold update in U1, U2.
  assert (KEEP : forall e, Ret (m, e, a) = Ret (m', s, ra) -> Ret (n, e, b) = Ret (n', t, rb) ->
    but_stylus m' n' /\ s = t /\ same_geometry ra rb).
  { intros e H1 H2. injection H1 as <- <- <-. injection H2 as <- <- <-. split; [constructor; assumption|auto]. }
  destruct (m_params m) as [p|] eqn:MP; destruct (m_params n) as [q|] eqn:NP; try contradiction.
  2:{ eapply KEEP; eassumption. }
  destruct B2 as [(Q1 & Q2 & Q3 & Q4 & Q5 & Q6) LP].
  destruct (validate_input i); try (eapply KEEP; eassumption).
  rewrite <- B6 in U2.
  assert (DOWN : process_down m p i a = Ret (m', s, ra) -> process_down n q i b = Ret (n', t, rb) ->
    but_stylus m' n' /\ s = t /\ same_geometry ra rb).
  { clear U1 U2. intros U1 U2. unfold process_down in U1, U2. rewrite <- B6 in U2.
    destruct (m_last m) as [lst|] eqn:ML.
    - injection U1 as <- <- <-. injection U2 as <- <- <-. split; [|auto]. constructor; auto; try congruence. rewrite MP, NP. split; auto. repeat split; auto.
    - rewrite <- B1 in U2. bind_inv U1. bind_inv U2.
      destruct (match m_predictor m with None => Ret None | Some _ => _ end) as [pr| |]; cbn [obind] in U1, U2; try discriminate U1.
      injection U1 as <- <- <-. injection U2 as <- <- <-. split; [|split; [reflexivity|apply same_geometry_app; [exact SG|reflexivity]]].
      rewrite MP, NP, <- B3, <- B5, <- Q1, <- Q2. bs. split; [repeat split; auto|reflexivity]. }
  assert (MOVE : process_move fuel m p i a = Ret (m', s, ra) -> process_move fuel n q i b = Ret (n', t, rb) ->
    but_stylus m' n' /\ s = t /\ same_geometry ra rb).
  { clear U1 U2. intros U1 U2. unfold process_move in U1, U2. rewrite <- B6 in U2.
    destruct (m_last m) as [lst|] eqn:ML.
    2:{ injection U1 as <- <- <-. injection U2 as <- <- <-. split; [|auto]. constructor; auto; try congruence. rewrite MP, NP. split; auto. repeat split; auto. }
    rewrite <- B3 in U2. bind_inv U1. destruct x as [w c]. cbn [obind] in U2. clear E.
    bind_inv U1. bind_inv U2. clear E E0. rewrite <- B4, <- Q2, <- Q3 in U2.
    bind_inv U1. destruct x1 as [k|e]; cbn [obind] in U2.
    - clear E. bind_inv U1. destruct x1 as [tip tips]. cbn [obind] in U2. clear E.
      rewrite <- B1 in U2. bind_inv U1. cbn [obind] in U2. clear E.
      bind_inv U1. rename E into M1. bind_inv U2. rename E into M2. destruct x2 as [l1 o1]. destruct x3 as [l2 o2].
      injection U1 as <- <- <-. injection U2 as <- <- <-. rewrite <- B5 in M2.
      assert (LO : lp_enabled (l_params (m_loop m)) = false) by (rewrite LP; exact Q5).
      destruct (model_stylus_off _ _ _ _ _ _ _ LO M1) as [G1 ->]. destruct (model_stylus_off _ _ _ _ _ _ _ LO M2) as [G2 ->].
      split; [|split; [reflexivity|apply same_geometry_app; [exact SG|unfold same_geometry; congruence]]].
      rewrite MP, NP. bs. split; [repeat split; auto|exact LP].
    - injection U1 as <- <- <-. injection U2 as <- <- <-. split; [|auto]. rewrite MP, NP. bs; try congruence. split; [repeat split; auto|exact LP]. }
  assert (UP : process_up fuel m p i a = Ret (m', s, ra) -> process_up fuel n q i b = Ret (n', t, rb) ->
    but_stylus m' n' /\ s = t /\ same_geometry ra rb).
  { clear U1 U2. intros U1 U2. unfold process_up in U1, U2. rewrite <- B6 in U2.
    destruct (m_last m) as [lst|] eqn:ML.
    2:{ injection U1 as <- <- <-. injection U2 as <- <- <-. split; [|auto]. constructor; auto; try congruence. rewrite MP, NP. split; auto. repeat split; auto. }
    rewrite <- B4, <- Q2, <- Q3 in U2.
    bind_inv U1. destruct x as [k|e]; cbn [obind] in U2.
    - clear E. bind_inv U1. destruct x as [tip tips]. cbn [obind] in U2. clear E.
      destruct (model_end_of_stroke _ _ _ _ _ _) as [tip2 tips2].
      bind_inv U1. bind_inv U2. clear E E0.
      bind_inv U1. rename E into M1. bind_inv U2. rename E into M2. destruct x1 as [l1 o1]. destruct x2 as [l2 o2].
      injection U1 as <- <- <-. injection U2 as <- <- <-. rewrite <- B5 in M2.
      assert (LO : lp_enabled (l_params (m_loop m)) = false) by (rewrite LP; exact Q5).
      destruct (model_stylus_off _ _ _ _ _ _ _ LO M1) as [G1 ->]. destruct (model_stylus_off _ _ _ _ _ _ _ LO M2) as [G2 ->].
      split; [|split; [reflexivity|apply same_geometry_app; [exact SG|unfold same_geometry; congruence]]].
      rewrite MP, NP. bs. split; [repeat split; auto|exact LP].
    - injection U1 as <- <- <-. injection U2 as <- <- <-. split; [|auto]. constructor; auto; try congruence. rewrite MP, NP. split; auto. repeat split; auto. }
  assert (DISP : match i_event i with EDown => process_down m p i a | EMove => process_move fuel m p i a
      | EUp => process_up fuel m p i a | EOther _ => Ret (m, InvalidArgument msg_event, a) end = Ret (m', s, ra) ->
    match i_event i with EDown => process_down n q i b | EMove => process_move fuel n q i b
      | EUp => process_up fuel n q i b | EOther _ => Ret (n, InvalidArgument msg_event, b) end = Ret (n', t, rb) ->
    but_stylus m' n' /\ s = t /\ same_geometry ra rb).
  { destruct (i_event i); [exact DOWN|exact MOVE|exact UP|apply KEEP]. }
  destruct (m_last m) as [lst|]; [|exact (DISP U1 U2)].
  destruct (input_eqb (li_input lst) i); [eapply KEEP; eassumption|].
  destruct (dltb (i_time i) (i_time (li_input lst))); [eapply KEEP; eassumption|]. exact (DISP U1 U2).
Qed.

Lemma step_but_stylus : forall fuel m n c d m' r n' t, but_stylus m n -> call_but_stylus c d ->
  step fuel m c = Ret (m', r) -> step fuel n d = Ret (n', t) -> but_stylus m' n' /\ reply_geometry r t.
Proof.
  intros fuel m n c d m' r n' t B CB S1 S2. destruct CB; cbn [step] in S1, S2.
  - destruct H as (Q1 & Q2 & Q3 & Q4 & Q5 & Q6). unfold reset_params in S1, S2. rewrite <- Q6 in S2.
    destruct (validate_params p) eqn:VP; injection S1 as <- <-; injection S2 as <- <-; (split; [|constructor]); try exact B.
    destruct B as [B1 B2 B3 B4 B5 B6 B7 B8 B9]. unfold make_predictor. rewrite <- B5, <- Q2, <- Q3, <- Q4. bs.
    split; [repeat split; auto; congruence|reflexivity].
  - unfold reset_keep in S1, S2. destruct B as [B1 B2 B3 B4 B5 B6 B7 B8 B9].
    destruct (m_params m) as [p|] eqn:MP; destruct (m_params n) as [q|] eqn:NP; try contradiction;
      injection S1 as <- <-; injection S2 as <- <-; (split; [|constructor]); bs.
    rewrite MP, NP. exact I.
  - destruct (update fuel m i a) as [[[m1 s1] r1]| |] eqn:U1; try discriminate S1.
    destruct (update fuel n i b) as [[[n1 s2] r2]| |] eqn:U2; try discriminate S2.
    cbn [obind] in S1, S2. injection S1 as <- <-. injection S2 as <- <-.
    destruct (update_but_stylus _ _ _ _ _ _ _ _ _ _ _ _ B H U1 U2) as (B' & -> & SG). split; [exact B'|constructor; exact SG].
  - destruct (predict fuel m a) as [[[m1 s1] r1]| |] eqn:U1; try discriminate S1.
    destruct (predict fuel n b) as [[[n1 s2] r2]| |] eqn:U2; try discriminate S2.
    cbn [obind] in S1, S2. injection S1 as <- <-. injection S2 as <- <-.
    unfold predict in U1, U2. destruct B as [B1 B2 B3 B4 B5 B6 B7 B8 B9].
    rewrite <- B1, <- B6, <- B4 in U2.
    assert (KEEP : forall e, Ret (m, e, []) = Ret (m1, s1, r1) -> Ret (n, e, []) = Ret (n1, s2, r2) ->
      but_stylus m1 n1 /\ reply_geometry (RResults s1 r1) (RResults s2 r2)).
    { intros e H1 H2. injection H1 as <- <- <-. injection H2 as <- <- <-. split; [constructor; assumption|constructor; reflexivity]. }
    destruct (m_params m) as [p|] eqn:MP; destruct (m_params n) as [q|] eqn:NP; try contradiction; [|eapply KEEP; eassumption].
    destruct (m_predictor m) as [pr|] eqn:PR; [|eapply KEEP; eassumption].
    destruct (m_last m) as [lst|] eqn:ML; [|eapply KEEP; eassumption]. clear KEEP.
    bind_inv U1. cbn [obind] in U2. bind_inv U1. rename E0 into M1. bind_inv U2. rename E0 into M2.
    destruct x0 as [l1 o1]. destruct x1 as [l2 o2]. injection U1 as <- <- <-. injection U2 as <- <- <-.
    destruct B2 as [(Q1 & Q2 & Q3 & Q4 & Q5 & Q6) LP]. rewrite <- B5 in M2.
    assert (LO : lp_enabled (l_params (m_loop m)) = false) by (rewrite LP; exact Q5).
    destruct (model_stylus_off _ _ _ _ _ _ _ LO M1) as [G1 ->]. destruct (model_stylus_off _ _ _ _ _ _ _ LO M2) as [G2 ->].
    split; [|constructor; unfold same_geometry; congruence]. bs. split; [repeat split; auto|exact LP].
  - injection S1 as <- <-. injection S2 as <- <-. split; [|constructor]. destruct B as [B1 B2 B3 B4 B5 B6 B7 B8 B9].
    unfold save. bs; try (f_equal; assumption). rewrite B1, B7. reflexivity.
  - injection S1 as <- <-. injection S2 as <- <-. split; [|constructor]. destruct B as [B1 B2 B3 B4 B5 B6 B7 B8 B9].
    unfold restore. rewrite <- B9. destruct (m_save_active m) eqn:SA; [|constructor; auto; congruence].
    rewrite B1, B3, B4, B5, B7, B8. bs.
    destruct (m_params m) as [p|]; destruct (m_params n) as [q|]; try contradiction; auto.
    destruct B2 as [B2 LP]. split; [exact B2|]. rewrite loop_restore_params, <- B5. exact LP.
Qed.

(** Two histories that differ only in the parameters of the stylus-state modeler
    (projection mode, sample counts and durations), loop mitigation off: all
    statuses and all positions, velocities, accelerations and times are equal. *)
Theorem C33_projection_has_no_influence : forall (A := real_arith) fuel hist1 hist2 rs1 rs2,
  Forall2 call_but_stylus hist1 hist2 ->
  answers fuel [] hist1 = Ret rs1 -> answers fuel [] hist2 = Ret rs2 -> Forall2 reply_geometry rs1 rs2.
Proof.
  intros A fuel hist1 hist2 rs1 rs2 F. subst A. unfold answers. cbn [run obind].
  assert (B0 : but_stylus modeler0 modeler0) by (constructor; try reflexivity; exact I).
  revert B0. generalize (@modeler0 real_arith) at 1 3. generalize (@modeler0 real_arith).
  revert rs1 rs2. induction F as [|c d l1 l2 CB F IH]; intros rs1 rs2 n m B A1 A2; cbn [run obind] in A1, A2.
  - injection A1 as <-. injection A2 as <-. constructor.
  - destruct (step fuel m c) as [[m1 r1]| |] eqn:S1; try discriminate A1.
    destruct (step fuel n d) as [[n1 r2]| |] eqn:S2; try discriminate A2. cbn [obind] in A1, A2.
    destruct (step_but_stylus _ _ _ _ _ _ _ _ _ B CB S1 S2) as [B' RG].
    destruct (run fuel m1 l1) as [[m2 q1]| |] eqn:R1; try discriminate A1.
    destruct (run fuel n1 l2) as [[n2 q2]| |] eqn:R2; try discriminate A2. cbn [obind] in A1, A2.
    injection A1 as <-. injection A2 as <-. constructor; [exact RG|].
    eapply (IH q1 q2 n1 m1 B'); [rewrite R1|rewrite R2]; reflexivity.
Qed.
