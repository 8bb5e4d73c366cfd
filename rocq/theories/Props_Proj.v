(** * C29, C30, C31: where pressure, tilt and orientation come from, with
      closest-point projection (exact arithmetic). *)
From Coq Require Import ZArith Bool List Sorted Reals Lra Lia Psatz.
From Flocq Require Import Core.Raux.
From Verif Require Export Props_Smooth.
Import ListNotations.
Open Scope R_scope.

(** ** Specification *)
(** Two angles that differ by whole turns. *)
Definition same_angle (a b : R) : Prop := exists k : Z, b = a + 2 * PI * IZR k.
(** [o], between 0 and a full turn, is reached from [o1] by a fraction [t] of a
    turn that leads to [o2] and is at most half a turn either way. *)
Definition turned (o1 o2 t o : R) : Prop :=
  exists d, - PI <= d <= PI /\ same_angle (o1 + d) o2 /\ same_angle (o1 + t * d) o /\ 0 <= o <= 2 * PI.

(** The pieces of the polyline through [l]. *)
Definition segments {X : Type} (l : list X) : list (X * X) := combine l (tl l).

(** A polyline of inputs with their positions.  Its points: a fraction [t] of the
    way along a segment; a single input is a polyline of one point. *)
Definition point : Type := (Input * Vec2)%type.
Definition on_polyline (pts : list point) (x y : point) (t : R) : Prop :=
  In (x, y) (segments pts) /\ 0 <= t <= 1 \/ pts = [x] /\ y = x /\ t = 0.
Definition point_at (x y : point) (t : R) : Vec2 := along (snd x) (snd y) t.
Definition nearest (q : Vec2) (pts : list point) (x y : point) (t : R) : Prop :=
  on_polyline pts x y t /\
  forall x' y' t', on_polyline pts x' y' t' -> dist q (point_at x y t) <= dist q (point_at x' y' t').

(** The stylus data of [r] are those a fraction [t] of the way from the input [a] to
    the input [b], as far as all inputs of the stroke, [l], had them. *)
Definition taken_from (l : list Input) (a b : Input) (t : R) (r : Result) : Prop :=
  ((forall i, In i l -> 0 <= i_pressure i) -> r_pressure r = i_pressure a + (i_pressure b - i_pressure a) * t) /\
  ((forall i, In i l -> 0 <= i_tilt i) -> r_tilt r = i_tilt a + (i_tilt b - i_tilt a) * t) /\
  ((forall i, In i l -> 0 <= i_orient i) -> turned (i_orient a) (i_orient b) t (r_orient r)).

(** The inputs with their smoothed positions. *)
Definition smooth_points (wp : WobbleParams) (l : list Input) : list point := combine l (smoothed wp l).
Definition most_recent {X : Type} (n : Z) (l : list X) : list X := skipn (List.length l - Z.to_nat n) l.

Definition reported_nearest (l : list Input) (pts : list point) (r : Result) : Prop :=
  exists x y t, nearest (r_pos r) pts x y t /\ taken_from l (fst x) (fst y) t r.

(** ** Angles *)
Lemma same_angle_refl : forall a, same_angle a a.
Proof. intros a. exists 0%Z. ring. Qed.
Lemma same_angle_trans : forall a b c, same_angle a b -> same_angle b c -> same_angle a c.
Proof. intros a b c (k & ->) (l & ->). exists (k + l)%Z. rewrite plus_IZR. ring. Qed.
Lemma same_angle_sym : forall a b, same_angle a b -> same_angle b a.
Proof. intros a b (k & ->). exists (- k)%Z. rewrite opp_IZR. ring. Qed.
Lemma same_angle_plus : forall a b c, same_angle a b -> same_angle (a + c) (b + c).
Proof. intros a b c (k & ->). exists k. ring. Qed.

Lemma norm_up_R : forall fuel (a x : R), norm_up (A := real_arith) fuel a = Ret x ->
  same_angle a x /\ 0 <= x /\ (0 <= a -> x = a).
Proof.
  induction fuel as [|n IH]; intros a x H; cbn [norm_up] in H; rsimp; destruct (Rltb a 0) eqn:L; try discriminate H.
  - injection H as <-. apply Rltb_false in L. split; [apply same_angle_refl|auto].
  - apply Rltb_true in L. destruct (IH _ _ H) as (S1 & S2 & _). split; [|split; [exact S2|lra]].
    eapply same_angle_trans; [|exact S1]. exists 1%Z. unfold twoPi. rsimp. ring.
  - injection H as <-. apply Rltb_false in L. split; [apply same_angle_refl|auto].
Qed.
Lemma norm_down_R : forall fuel (a x : R), norm_down (A := real_arith) fuel a = Ret x -> 0 <= a ->
  same_angle a x /\ 0 <= x <= 2 * PI /\ (a <= 2 * PI -> x = a).
Proof.
  induction fuel as [|n IH]; intros a x H A0; cbn [norm_down] in H; unfold twoPi in H; rsimp; destruct (Rltb (2 * PI) a) eqn:L; try discriminate H.
  - injection H as <-. apply Rltb_false in L. split; [apply same_angle_refl|]. split; [lra|auto].
  - apply Rltb_true in L. destruct (IH _ _ H) as (S1 & S2 & _); [lra|]. split; [|split; [exact S2|lra]].
    eapply same_angle_trans; [|exact S1]. exists (-1)%Z. ring.
  - injection H as <-. apply Rltb_false in L. split; [apply same_angle_refl|]. split; [lra|auto].
Qed.
Lemma normalize_R : forall fuel (a x : R), normalize_angle (A := real_arith) fuel a = Ret x ->
  same_angle a x /\ 0 <= x <= 2 * PI /\ (0 <= a <= 2 * PI -> x = a).
Proof.
  intros fuel a x H. unfold normalize_angle in H. bind_inv H.
  destruct (norm_up_R _ _ _ E) as (U1 & U2 & U3). destruct (norm_down_R _ _ _ H U2) as (D1 & D2 & D3).
  split; [eapply same_angle_trans; eassumption|]. split; [exact D2|]. intros [A0 A1].
  rewrite (U3 A0) in D3. auto.
Qed.

Lemma interp_angle_R : forall fuel (o1 o2 t o : R), 0 <= t <= 1 ->
  interp_angle (A := real_arith) fuel o1 o2 t = Ret o -> turned o1 o2 t o.
Proof.
  intros fuel o1 o2 t o T H. unfold interp_angle in H. bind_inv H. rename x into a. bind_inv H. rename x into b.
  destruct (normalize_R _ _ _ E) as (A1 & A2 & _). destruct (normalize_R _ _ _ E0) as (B1 & B2 & _).
  apply normalize_R in H. destruct H as (H1 & H2 & _). unfold twoPi in *. rsimp.
  set (b' := if Rltb (b - a) (- PI) then b + 2 * PI else if Rltb PI (b - a) then b - 2 * PI else b) in *.
  assert (BB : same_angle b b' /\ - PI <= b' - a <= PI).
  { unfold b'. destruct (Rltb (b - a) (- PI)) eqn:L1.
    - apply Rltb_true in L1. split; [exists 1%Z; ring|lra].
    - apply Rltb_false in L1. destruct (Rltb PI (b - a)) eqn:L2.
      + apply Rltb_true in L2. split; [exists (-1)%Z; ring|lra].
      + apply Rltb_false in L2. split; [apply same_angle_refl|lra]. }
  destruct BB as [BB1 BB2]. exists (b' - a). split; [exact BB2|]. split; [|split; [|exact H2]].
  - eapply same_angle_trans; [apply same_angle_plus; exact A1|]. replace (a + (b' - a)) with b' by ring.
    eapply same_angle_trans; [apply same_angle_sym; exact BB1|apply same_angle_sym; exact B1].
  - eapply same_angle_trans; [apply same_angle_plus; exact A1|]. rewrite interp_f_R in H1 by exact T.
    replace (a + t * (b' - a)) with (a + (b' - a) * t) by ring. exact H1.
Qed.

Lemma interp_angle_same : forall fuel (o t o' : R), interp_angle (A := real_arith) fuel o o t = Ret o' ->
  same_angle o o' /\ 0 <= o' <= 2 * PI /\ (0 <= o <= 2 * PI -> o' = o).
Proof.
  intros fuel o t o' H. unfold interp_angle in H. bind_inv H. rename x into a.
  destruct (normalize_R _ _ _ E) as (A1 & A2 & A3). cbn [obind] in H. unfold twoPi in *. rsimp.
  replace (a - a) with 0 in H by ring. rewrite (proj2 (Rltb_false 0 (- PI))) in H by (pose proof PI_RGT_0; lra).
  rewrite (proj2 (Rltb_false PI 0)) in H by (pose proof PI_RGT_0; lra).
  assert (K : interp_f (A := real_arith) a a t = a) by (unfold interp_f; rsimp; ring). rewrite K in H.
  apply normalize_R in H. destruct H as (H1 & H2 & H3). rewrite (H3 A2).
  split; [exact A1|]. split; [exact A2|]. exact A3.
Qed.

(** ** The nearest point of a segment *)
Lemma dist_along_sq : forall q a b t, dist q (along a b t) * dist q (along a b t) =
  (vx a - vx q) * (vx a - vx q) + (vy a - vy q) * (vy a - vy q)
  - 2 * t * ((vx q - vx a) * (vx b - vx a) + (vy q - vy a) * (vy b - vy a))
  + t * t * ((vx b - vx a) * (vx b - vx a) + (vy b - vy a) * (vy b - vy a)).
Proof. intros q a b t. rewrite dist_sq. unfold along. cbn [vx vy]. ring. Qed.

Lemma nearest_segment : forall a b q t', 0 <= t' <= 1 ->
  0 <= nearest_point_on_segment a b q <= 1 /\
  dist q (along a b (nearest_point_on_segment a b q)) <= dist q (along a b t').
Proof.
  intros a b q t' T'. unfold nearest_point_on_segment. destruct (veqb a b) eqn:V.
  - unfold veqb in V. apply andb_prop in V. destruct V as [V1 V2]. rsimp. apply Reqb_true in V1. apply Reqb_true in V2.
    split; [lra|]. assert (E : forall t, along a b t = a) by (intros t; apply vec_eq; unfold along; cbn [vx vy]; rewrite ?V1, ?V2; rring).
    rewrite !E. lra.
  - set (t := clamp01 _). pose proof (clamp01_range (fdiv (vdot (vsub q a) (vsub b a)) (vdot (vsub b a) (vsub b a)))) as CR.
    fold t in CR. split; [exact CR|].
    apply Rsqr_incr_0; [|apply dist_pos|apply dist_pos]. unfold Rsqr. rewrite !dist_along_sq.
    assert (S0 : 0 < (vx b - vx a) * (vx b - vx a) + (vy b - vy a) * (vy b - vy a)).
    { destruct (Req_dec (vx a) (vx b)) as [E1|E1].
      - assert (vy a <> vy b). { intros E2. unfold veqb in V. rsimp. rewrite (proj2 (Reqb_true _ _) E1), (proj2 (Reqb_true _ _) E2) in V. discriminate V. }
        assert (0 < (vy b - vy a) * (vy b - vy a)) by (apply Rsqr_pos_lt; lra). pose proof (Rle_0_sqr (vx b - vx a)). unfold Rsqr in *. lra.
      - assert (0 < (vx b - vx a) * (vx b - vx a)) by (apply Rsqr_pos_lt; lra). pose proof (Rle_0_sqr (vy b - vy a)). unfold Rsqr in *. lra. }
    unfold t, clamp01, std_clamp, vdot, vsub in *. clear t. rsimp.
    set (s := (vx b - vx a) * (vx b - vx a) + (vy b - vy a) * (vy b - vy a)) in *.
    set (d := (vx q - vx a) * (vx b - vx a) + (vy q - vy a) * (vy b - vy a)) in *.
    assert (D : d = d / s * s) by (field; lra). set (tau := d / s) in *. rewrite D.
    destruct (Rltb tau 0) eqn:L1; [apply Rltb_true in L1|apply Rltb_false in L1; destruct (Rltb 1 tau) eqn:L2; [apply Rltb_true in L2|apply Rltb_false in L2]];
      rsimp.
    + assert (0 <= t' * (t' - 2 * tau) * s) by (apply Rmult_le_pos; [apply Rmult_le_pos; lra|lra]). lra.
    + assert (0 <= (1 - t') * (2 * tau - 1 - t') * s) by (apply Rmult_le_pos; [apply Rmult_le_pos; lra|lra]). lra.
    + assert (0 <= (t' - tau) * (t' - tau) * s) by (apply Rmult_le_pos; [apply Rle_0_sqr|lra]). lra.
Qed.

(** ** The nearest point of the polyline *)
Definition candidate (q : Vec2) (c : Projection) (d : R) : Prop :=
  0 <= pj_ratio c <= 1 /\ d = dist q (along (r_pos (pj_a c)) (r_pos (pj_b c)) (pj_ratio c)).

Lemma closest_loop : forall q raw (b : best), match b with None => True | Some (c, d) => candidate q c d end ->
  match project_closest_loop q raw b with
  | None => b = None /\ segments raw = []
  | Some (c, d) => candidate q c d /\ (b = Some (c, d) \/ In (pj_a c, pj_b c) (segments raw)) /\
      (match b with None => True | Some (_, d0) => d <= d0 end) /\
      forall x y t, In (x, y) (segments raw) -> 0 <= t <= 1 -> d <= dist q (along (r_pos x) (r_pos y) t)
  end.
Proof.
  intros q. induction raw as [|s1 raw IH]; intros b B.
  - cbn. destruct b as [[c d]|]; [|auto]. split; [exact B|]. split; [auto|]. split; [lra|]. intros x y t [].
  - destruct raw as [|s2 raw].
    + cbn. destruct b as [[c d]|]; [|auto]. split; [exact B|]. split; [auto|]. split; [lra|]. intros x y t [].
    + change (project_closest_loop q (s1 :: s2 :: raw) b) with
        (let ratio := nearest_point_on_segment (r_pos s1) (r_pos s2) q in
         let d := distance q (interp_v (r_pos s1) (r_pos s2) ratio) in
         let take := match b with None => true | Some (_, bd) => Rleb d bd end in
         project_closest_loop q (s2 :: raw) (if take then Some (mkProj s1 s2 ratio, d) else b)). cbv zeta.
      set (ratio := nearest_point_on_segment (r_pos s1) (r_pos s2) q).
      assert (RR : 0 <= ratio <= 1) by (apply (nearest_segment (r_pos s1) (r_pos s2) q 0); lra).
      rewrite (interp_v_R _ _ ratio RR), dist_distance. change (vlerp (r_pos s1) (r_pos s2) ratio) with (along (r_pos s1) (r_pos s2) ratio).
      set (d := dist q (along (r_pos s1) (r_pos s2) ratio)).
      set (take := match b with None => true | Some (_, bd) => Rleb d bd end).
      assert (CD : candidate q (mkProj s1 s2 ratio) d) by (split; [exact RR|reflexivity]).
      assert (OPT : forall t, 0 <= t <= 1 -> d <= dist q (along (r_pos s1) (r_pos s2) t)).
      { intros t T. apply (nearest_segment (r_pos s1) (r_pos s2) q t T). }
      assert (SEG : segments (s1 :: s2 :: raw) = (s1, s2) :: segments (s2 :: raw)) by reflexivity.
      specialize (IH (if take then Some (mkProj s1 s2 ratio, d) else b)).
      destruct take eqn:TK.
      * specialize (IH CD). destruct (project_closest_loop q (s2 :: raw) _) as [[c d']|]; [|destruct IH as [IH _]; discriminate IH].
        destruct IH as (I1 & I2 & I3 & I4). split; [exact I1|]. split.
        { right. rewrite SEG. destruct I2 as [I2|I2]; [injection I2 as <- <-; left; reflexivity|right; exact I2]. }
        split.
        { destruct b as [[c0 d0]|]; [|exact I]. unfold take in TK. rsimp. apply Rleb_true in TK. lra. }
        intros x y t IN T. rewrite SEG in IN. destruct IN as [IN|IN]; [injection IN as <- <-; specialize (OPT t T); lra|apply I4; assumption].
      * destruct b as [[c0 d0]|]; [|unfold take in TK; cbn in TK; discriminate TK]. specialize (IH B).
        unfold take in TK. rsimp. apply Rleb_false in TK.
        destruct (project_closest_loop q (s2 :: raw) _) as [[c d']|]; [|destruct IH as [IH _]; discriminate IH].
        destruct IH as (I1 & I2 & I3 & I4). split; [exact I1|]. split.
        { destruct I2 as [I2|I2]; [left; exact I2|right; rewrite SEG; right; exact I2]. }
        split; [exact I3|].
        intros x y t IN T. rewrite SEG in IN. destruct IN as [IN|IN]; [injection IN as <- <-; specialize (OPT t T); lra|apply I4; assumption].
Qed.

Lemma segments_cons2 : forall {X} (a b : X) l, segments (a :: b :: l) = (a, b) :: segments (b :: l).
Proof. reflexivity. Qed.
Lemma segments_in : forall {X} (l : list X) x y, In (x, y) (segments l) -> In x l /\ In y l.
Proof.
  intros X. induction l as [|a l IH]; intros x y H; [destruct H|]. destruct l as [|b l]; [destruct H|].
  rewrite segments_cons2 in H. destruct H as [H|H]; [injection H as <- <-; cbn; auto|].
  destruct (IH _ _ H). cbn in *. auto.
Qed.
Lemma on_polyline_in : forall pts x y t, on_polyline pts x y t -> In x pts /\ In y pts /\ 0 <= t <= 1.
Proof.
  intros pts x y t [[H T]|(-> & -> & ->)].
  - destruct (segments_in _ _ _ H). auto.
  - cbn. repeat split; auto; lra.
Qed.
Lemma segments_raw : forall pts raw, Forall2 mem_of pts raw ->
  Forall2 (fun s r => mem_of (fst s) (fst r) /\ mem_of (snd s) (snd r)) (segments pts) (segments raw).
Proof.
  intros pts raw H. induction H as [|x r pts raw H1 H2 IH]; [constructor|].
  destruct H2 as [|x2 r2 pts raw H3 H4]; [constructor|]. rewrite !segments_cons2. constructor; [split; assumption|exact IH].
Qed.
Lemma Forall2_in_r : forall {X Y} (P : X -> Y -> Prop) l1 l2 y, Forall2 P l1 l2 -> In y l2 -> exists x, In x l1 /\ P x y.
Proof.
  intros X Y P l1 l2 y H. induction H; intros I1; [destruct I1|]. destruct I1 as [<-|I1]; [exists x; cbn; auto|].
  destruct (IHForall2 I1) as (x0 & ? & ?). exists x0. cbn. auto.
Qed.
Lemma Forall2_in_l : forall {X Y} (P : X -> Y -> Prop) l1 l2 x, Forall2 P l1 l2 -> In x l1 -> exists y, In y l2 /\ P x y.
Proof.
  intros X Y P l1 l2 x H. induction H; intros I1; [destruct I1|]. destruct I1 as [<-|I1]; [exists y; cbn; auto|].
  destruct (IHForall2 I1) as (y0 & ? & ?). exists y0. cbn. auto.
Qed.

Lemma closest_nearest : forall q pts raw, Forall2 mem_of pts raw -> pts <> [] ->
  match project_to_closest q raw with
  | Some c => exists x y, mem_of x (pj_a c) /\ mem_of y (pj_b c) /\ nearest q pts x y (pj_ratio c) /\ In (x, y) (segments pts)
  | None => exists x r, pts = [x] /\ raw = [r] /\ mem_of x r /\ nearest q pts x x 0
  end.
Proof.
  intros q pts raw H NE. unfold project_to_closest. pose proof (closest_loop q raw None I) as K.
  pose proof (segments_raw _ _ H) as S. destruct (project_closest_loop q raw None) as [[c d]|]; cbn [option_map fst].
  - destruct K as ((K1 & K2) & [K3|K3] & _ & K4); [discriminate K3|].
    destruct (Forall2_in_r _ _ _ _ S K3) as ([x y] & I1 & I2 & I3). cbn [fst snd] in I2, I3.
    exists x, y. split; [exact I2|]. split; [exact I3|]. split; [|exact I1]. split; [left; auto|].
    intros x' y' t' O. unfold point_at. destruct I2 as (<- & _), I3 as (<- & _). rewrite <- K2.
    destruct O as [[O T]|(E & _)]; [|rewrite E in I1; destruct I1].
    destruct (Forall2_in_l _ _ _ _ S O) as ([ra rb] & J1 & (J2 & _) & (J3 & _)). cbn [fst snd] in *.
    rewrite <- J2, <- J3. apply K4; assumption.
  - destruct K as [_ K]. destruct H as [|x r pts raw H1 H2]; [congruence|].
    destruct H2 as [|x2 r2 pts raw H3 H4]; [|rewrite segments_cons2 in K; discriminate K].
    exists x, r. do 2 (split; [reflexivity|]). split; [exact H1|]. split; [right; auto|].
    intros x' y' t' [[O _]|(E & -> & ->)]; [cbn in O; destruct O|]. injection E as <-. lra.
Qed.

(** There is always a nearest point. *)
Lemma nearest_exists : forall q pts, pts <> [] -> exists x y t, nearest q pts x y t.
Proof.
  intros q pts NE.
  set (raw := map (fun ic : point => mkResult (snd ic) vzero vzero (i_time (fst ic)) (i_pressure (fst ic)) (i_tilt (fst ic)) (i_orient (fst ic))) pts).
  assert (H : Forall2 mem_of pts raw).
  { unfold raw. clear. induction pts as [|x pts IH]; constructor; [|exact IH]. unfold mem_of. cbn. auto. }
  pose proof (closest_nearest q pts raw H NE) as K. destruct (project_to_closest q raw) as [c|].
  - destruct K as (x & y & _ & _ & K & _). eauto.
  - destruct K as (x & r & _ & _ & _ & K). eauto.
Qed.

(** ** From the projection to the result *)
(** As [taken_from], but a single input's orientation is not brought into range. *)
Definition raw_taken (l : list Input) (a b : Input) (t : R) (r : Result) : Prop :=
  ((forall i, In i l -> 0 <= i_pressure i) -> r_pressure r = i_pressure a + (i_pressure b - i_pressure a) * t) /\
  ((forall i, In i l -> 0 <= i_tilt i) -> r_tilt r = i_tilt a + (i_tilt b - i_tilt a) * t) /\
  ((forall i, In i l -> 0 <= i_orient i) -> turned (i_orient a) (i_orient b) t (r_orient r) \/
      r_orient r = i_orient a /\ b = a /\ t = 0).

Lemma lerp_ge0 : forall a b t, 0 <= a -> 0 <= b -> 0 <= t <= 1 -> 0 <= a + (b - a) * t.
Proof. intros a b t A B T. replace (a + (b - a) * t) with (a * (1 - t) + b * t) by ring. apply Rplus_le_le_0_compat; apply Rmult_le_pos; lra. Qed.

Lemma final_taken : forall fuel l a b t r0 tip v r, In a l -> In b l -> 0 <= t <= 1 -> raw_taken l a b t r0 ->
  interp_result fuel r0 (make_result tip r0) v = Ret r -> taken_from l a b t r.
Proof.
  intros fuel l a b t r0 tip v r IA IB T (H1 & H2 & H3) H. unfold interp_result in H. cbn [make_result r_pressure r_tilt r_orient] in H.
  bind_inv H. apply ret_inj in H. subst r. unfold taken_from. cbn [r_pressure r_tilt r_orient].
  assert (SAME : forall z w : R, interp_f (A := real_arith) z z w = z) by (intros z w; unfold interp_f; rsimp; ring).
  split; [|split].
  - intros K. specialize (H1 K). rewrite orb_diag, SAME. destruct (fltb (r_pressure r0) f0) eqn:L; [|exact H1]. exfalso. rsimp. apply Rltb_true in L. rewrite H1 in L.
    pose proof (lerp_ge0 _ _ _ (K a IA) (K b IB) T). lra.
  - intros K. specialize (H2 K). rewrite orb_diag, SAME. destruct (fltb (r_tilt r0) f0) eqn:L; [|exact H2]. exfalso. rsimp. apply Rltb_true in L. rewrite H2 in L.
    pose proof (lerp_ge0 _ _ _ (K a IA) (K b IB) T). lra.
  - intros K. specialize (H3 K). rewrite orb_diag in E.
    assert (O0 : 0 <= r_orient r0) by (destruct H3 as [(d & _ & _ & _ & O)|(-> & _)]; [apply O|apply K; exact IA]).
    destruct (fltb (r_orient r0) f0) eqn:L; [rsimp; apply Rltb_true in L; lra|].
    apply interp_angle_same in E. destruct E as (E1 & E2 & E3).
    destruct H3 as [(d & D1 & D2 & D3 & D4)|(D1 & -> & ->)].
    + rewrite (E3 D4). exists d. auto.
    + exists 0. pose proof PI_RGT_0. split; [lra|]. split; [rewrite Rplus_0_r; apply same_angle_refl|].
      split; [|exact E2]. rewrite Rmult_0_l, Rplus_0_r, <- D1. exact E1.
Qed.

(** What the stylus component has in memory. *)
Record memory (l : list Input) (pts : list point) (sm : Stylus) : Prop := mkMem {
  mem_pressure : (forall i, In i l -> 0 <= i_pressure i) -> s_unk_pressure (sm_state sm) = false;
  mem_tilt : (forall i, In i l -> 0 <= i_tilt i) -> s_unk_tilt (sm_state sm) = false;
  mem_orient : (forall i, In i l -> 0 <= i_orient i) -> s_unk_orient (sm_state sm) = false;
  mem_some : pts <> [];
  mem_in : forall x, In x pts -> In (fst x) l;
  mem_raw : Forall2 mem_of pts (s_raw (sm_state sm)) \/
     s_raw (sm_state sm) = [] /\ all_unknown (sm_state sm) = true /\ sy_normal (sm_params sm) = false
}.

Lemma interp_taken : forall fuel l x y ra rb t res up ut uo, mem_of x ra -> mem_of y rb -> 0 <= t <= 1 ->
  In (fst x) l -> In (fst y) l ->
  interp_result fuel ra rb t = Ret res ->
  ((forall i, In i l -> 0 <= i_pressure i) -> up = false) ->
  ((forall i, In i l -> 0 <= i_tilt i) -> ut = false) ->
  ((forall i, In i l -> 0 <= i_orient i) -> uo = false) -> forall tt,
  raw_taken l (fst x) (fst y) t (mkResult (r_pos res) (r_vel res) (r_acc res) tt
    (if up then fm1 else r_pressure res) (if ut then fm1 else r_tilt res) (if uo then fm1 else r_orient res)).
Proof.
  intros fuel l x y ra rb t res up ut uo (_ & _ & X1 & X2 & X3) (_ & _ & Y1 & Y2 & Y3) T IX IY H U1 U2 U3 tt.
  unfold interp_result in H. rewrite X1, X2, X3, Y1, Y2, Y3 in H. bind_inv H. apply ret_inj in H. subst res.
  unfold raw_taken. cbn [r_pressure r_tilt r_orient]. split; [|split].
  - intros K. rewrite (U1 K). pose proof (K _ IX). pose proof (K _ IY). rsimp.
    rewrite (proj2 (Rltb_false _ _) H), (proj2 (Rltb_false _ _) H0). cbn [orb]. apply interp_f_R. exact T.
  - intros K. rewrite (U2 K). pose proof (K _ IX). pose proof (K _ IY). rsimp.
    rewrite (proj2 (Rltb_false _ _) H), (proj2 (Rltb_false _ _) H0). cbn [orb]. apply interp_f_R. exact T.
  - intros K. rewrite (U3 K). left. pose proof (K _ IX). pose proof (K _ IY). rsimp.
    rewrite (proj2 (Rltb_false _ _) H), (proj2 (Rltb_false _ _) H0) in E. cbn [orb] in E. eapply interp_angle_R; eassumption.
Qed.

Lemma single_taken : forall l x r up ut uo, mem_of x r ->
  ((forall i, In i l -> 0 <= i_pressure i) -> up = false) ->
  ((forall i, In i l -> 0 <= i_tilt i) -> ut = false) ->
  ((forall i, In i l -> 0 <= i_orient i) -> uo = false) -> forall tt,
  raw_taken l (fst x) (fst x) 0 (mkResult (r_pos r) (r_vel r) (r_acc r) tt
    (if up then fm1 else r_pressure r) (if ut then fm1 else r_tilt r) (if uo then fm1 else r_orient r)).
Proof.
  intros l x r up ut uo (_ & _ & X1 & X2 & X3) U1 U2 U3 tt.
  unfold raw_taken. cbn [r_pressure r_tilt r_orient]. split; [|split]; intros K; [rewrite (U1 K), X1; rsimp; lra|rewrite (U2 K), X2; rsimp; lra|].
  right. rewrite (U3 K), X3. auto.
Qed.

Lemma query_closest : forall fuel l pts sm tip n r0, memory l pts sm -> sy_normal (sm_params sm) = false ->
  stylus_query fuel sm tip n = Ret r0 ->
  exists x y t, nearest (t_pos tip) pts x y t /\ raw_taken l (fst x) (fst y) t r0.
Proof.
  intros fuel l pts sm tip n r0 [M1 M2 M3 M4 M5 M6] N H. unfold stylus_query in H. rewrite N in H.
  destruct M6 as [M6|(M6 & M7 & _)].
  - pose proof (closest_nearest (t_pos tip) pts _ M6 M4) as K.
    destruct (s_raw (sm_state sm)) as [|fr rest] eqn:RAW; [exfalso; apply M4; inversion M6; reflexivity|]. rewrite <- RAW in *.
    destruct (project_to_closest (t_pos tip) (s_raw (sm_state sm))) as [c|].
    + destruct K as (x & y & KX & KY & KN & KS). bind_inv H. apply ret_inj in H. subst r0.
      exists x, y, (pj_ratio c). split; [exact KN|]. destruct KN as [KN _].
      destruct (on_polyline_in _ _ _ _ KN) as (IX & IY & T).
      eapply interp_taken; eauto.
    + destruct K as (x & r & KP & KR & KM & KN). rewrite KR in RAW. injection RAW as <- <-. rewrite KR in H. change (back [r]) with (Some r) in H. cbv iota in H.
      match type of H with context [if ?b then _ else _] => destruct b end; cbn [obind] in H; apply ret_inj in H; subst r0; exists x, x, 0; (split; [exact KN|]); apply single_taken; assumption.
  - rewrite M6 in H. apply ret_inj in H. subst r0. unfold all_unknown in M7.
    apply andb_prop in M7. destruct M7 as [M7 M9]. apply andb_prop in M7. destruct M7 as [M7 M8].
    destruct (nearest_exists (t_pos tip) pts M4) as (x & y & t & NN). exists x, y, t. split; [exact NN|].
    unfold raw_taken. split; [|split]; intros K; exfalso; [rewrite (M1 K) in M7; discriminate M7|rewrite (M2 K) in M8; discriminate M8|rewrite (M3 K) in M9; discriminate M9].
Qed.

Lemma model_closest : forall fuel l pts sm, memory l pts sm -> sy_normal (sm_params sm) = false ->
  forall tips lm pt lm' out, lp_enabled (l_params lm) = false ->
  model_stylus_loop fuel tips sm lm f1 pt = Ret (lm', out) -> Forall (reported_nearest l pts) out.
Proof.
  intros fuel l pts sm M N. induction tips as [|tip rest IH]; intros lm pt lm' out E H; cbn [model_stylus_loop] in H.
  - inversion H; subst. constructor.
  - bind_inv H. rename E0 into Q. bind_inv H. rename E0 into IR.
    destruct (loop_update lm (r_vel x0) (t_time tip)) as [l1 v1] eqn:LU.
    destruct (loop_update_off _ _ _ _ _ E LU) as [-> ->].
    bind_inv H. destruct x1 as [l2 o2]. inversion H; subst. constructor; [|eapply IH; eassumption].
    destruct (query_closest _ _ _ _ _ _ _ M N Q) as (x1 & y1 & t & NN & RT).
    exists x1, y1, t. pose proof (result_off _ _ _ _ IR) as RO. apply (f_equal t_pos) in RO. cbn [tip_of t_pos] in RO.
    rewrite RO. split; [exact NN|]. destruct NN as [NN _]. destruct (on_polyline_in _ _ _ _ NN) as (IX & IY & T).
    eapply final_taken; [| | |exact RT|exact IR]; try assumption; apply (mem_in _ _ _ M); assumption.
Qed.

(** ** What the stylus component remembers when a call models its results *)
Lemma smoothed_length : forall wp l, List.length (smoothed wp l) = List.length l.
Proof. intros wp l. unfold smoothed. rewrite map_length, seq_length. reflexivity. Qed.
Lemma smooth_points_fst : forall wp l, map fst (smooth_points wp l) = l.
Proof. intros wp l. apply combine_fst. rewrite smoothed_length. reflexivity. Qed.
Lemma smooth_points_snoc : forall wp l i, smooth_points wp (l ++ [i]) = smooth_points wp l ++ [(i, smooth_at wp (l ++ [i]))].
Proof. intros wp l i. unfold smooth_points. rewrite smoothed_snoc. apply combine_snoc. rewrite smoothed_length. reflexivity. Qed.

Definition sorted_if_smoothing (wp : WobbleParams) (l : list Input) : Prop :=
  wp_enabled wp = true -> Sorted Rle (map i_time l).

Lemma move_memory : forall fuel hist s p es seen i rs out,
  after_seen fuel hist s es seen -> ps_params s = Some p -> i_event i = EMove ->
  answers fuel hist [CUpdate i rs] = Ret [RResults OkStatus (rs ++ out)] ->
  sorted_if_smoothing (p_wobble p) (seen ++ [i]) ->
  validate_params p = OkStatus /\ exists sm lm lm' tips,
    sm_params sm = p_stylus p /\ remembering (p_stylus p) (smooth_points (p_wobble p) (seen ++ [i])) (sm_state sm) /\
    l_params lm = pp_loop (p_position p) /\ model_stylus fuel tips sm lm (i_time i) = Ret (lm', out).
Proof.
  intros fuel hist s p es seen i rs out AS P EV AN SO.
  destruct (remembered_state _ _ _ _ _ AS) as (m0 & rs0 & R0 & _ & _ & _ & RM).
  assert (AF : after fuel hist s) by (destruct AS as (ma & rsa & Ra & Pa & _); exists ma, rsa; auto).
  destruct (accepted_update _ _ _ _ _ _ _ AF AN) as (m & r0 & m' & o & R & (T1 & T2 & _) & G & C & K & U & _).
  rewrite R0 in R. injection R as -> ->. apply app_inv_head in K. subst o.
  destruct (upd_move fuel m i m' out U EV) as (q & last0 & w & c & sm & n & tip & tips & pred & lm & MQ & _ & ML & _ & WU & SU & _ & _ & _ & MS & _).
  assert (q = p) by congruence. subst q. pose proof (g_valid _ G p MQ) as V. split; [exact V|].
  destruct (C p MQ ltac:(left; congruence)) as (C1 & C2 & C3 & C4).
  destruct (RM p last0 MQ ML) as (cs & ws & [H1 H2 _ _ _ _]). cbn [core_of co_w co_s] in *.
  exists sm, (m_loop m), lm, tips. split; [|split; [|split; [exact C4|exact MS]]].
  - rewrite <- C3. eapply stylus_update_params. exact SU.
  - assert (SM : smoothing (p_wobble p) (seen ++ [i]) (cs ++ [c]) (w_state w)).
    { eapply Sm_move; [exact H1|]. rewrite <- C1. apply wobble_wstep. exact WU. }
    pose proof (smoothing_spec p _ _ _ V SM SO) as E. rewrite smoothed_snoc in E. apply app_inj_tail in E. destruct E as [E1 E2].
    rewrite smooth_points_snoc. unfold smooth_points. rewrite <- E1, <- E2. eapply Re_more; [exact H2|]. rewrite <- C3.
    apply stylus_mstep. exact SU.
Qed.

Lemma up_memory : forall fuel hist s p es seen i rs out,
  after_seen fuel hist s es seen -> ps_params s = Some p -> i_event i = EUp ->
  answers fuel hist [CUpdate i rs] = Ret [RResults OkStatus (rs ++ out)] ->
  sorted_if_smoothing (p_wobble p) seen ->
  validate_params p = OkStatus /\ exists i0 sm lm lm' tips, ps_last s = Some i0 /\
    sm_params sm = p_stylus p /\ remembering (p_stylus p) (smooth_points (p_wobble p) seen ++ [(i, i_pos i)]) (sm_state sm) /\
    l_params lm = pp_loop (p_position p) /\ model_stylus fuel tips sm lm (i_time i0) = Ret (lm', out).
Proof.
  intros fuel hist s p es seen i rs out AS P EV AN SO.
  destruct (remembered_state _ _ _ _ _ AS) as (m0 & rs0 & R0 & _ & _ & _ & RM).
  assert (AF : after fuel hist s) by (destruct AS as (ma & rsa & Ra & Pa & _); exists ma, rsa; auto).
  destruct (accepted_update _ _ _ _ _ _ _ AF AN) as (m & r0 & m' & o & R & (T1 & T2 & _) & G & C & K & U & _).
  rewrite R0 in R. injection R as -> ->. apply app_inv_head in K. subst o.
  destruct (upd_up fuel m i m' out U EV) as (q & last0 & n & tip1 & tips1 & tip2 & tips2 & sm & lm & MQ & _ & ML & _ & _ & _ & _ & SU & MS & _).
  assert (q = p) by congruence. subst q. pose proof (g_valid _ G p MQ) as V. split; [exact V|].
  destruct (C p MQ ltac:(left; congruence)) as (C1 & C2 & C3 & C4).
  destruct (RM p last0 MQ ML) as (cs & ws & [H1 H2 _ _ _ _]). cbn [core_of co_w co_s] in *.
  eexists _, sm, (m_loop m), lm, _. split; [rewrite T2, ML; reflexivity|]. split; [|split; [|split; [exact C4|exact MS]]].
  - rewrite <- C3. eapply stylus_update_params. exact SU.
  - pose proof (smoothing_spec p _ _ _ V H1 SO) as E. unfold smooth_points. rewrite <- E. eapply Re_more; [exact H2|]. rewrite <- C3.
    apply stylus_mstep. exact SU.
Qed.

Lemma predict_memory : forall fuel hist s p es seen rs out,
  after_seen fuel hist s es seen -> ps_params s = Some p ->
  answers fuel hist [CPredict rs] = Ret [RResults OkStatus out] ->
  sorted_if_smoothing (p_wobble p) seen ->
  validate_params p = OkStatus /\ seen <> [] /\ exists i0 sm lm lm' tips, ps_last s = Some i0 /\
    sm_params sm = p_stylus p /\ remembering (p_stylus p) (smooth_points (p_wobble p) seen) (sm_state sm) /\
    l_params lm = pp_loop (p_position p) /\ model_stylus fuel tips sm lm (i_time i0) = Ret (lm', out).
Proof.
  intros fuel hist s p es seen rs out AS P AN SO.
  destruct (remembered_state _ _ _ _ _ AS) as (m0 & rs0 & R0 & _ & _ & _ & RM).
  assert (AF : after fuel hist s) by (destruct AS as (ma & rsa & Ra & Pa & _); exists ma, rsa; auto).
  destruct (accepted_predict _ _ _ _ _ _ AF AN) as (m & r0 & m' & R & (T1 & T2 & _) & G & C & U).
  rewrite R0 in R. injection R as -> ->.
  destruct (prd_ok fuel m m' out U) as (q & pr & last0 & tips & lm & MQ & _ & ML & _ & MS & _).
  assert (q = p) by congruence. subst q. pose proof (g_valid _ G p MQ) as V. split; [exact V|].
  destruct (C p MQ ltac:(left; congruence)) as (C1 & C2 & C3 & C4).
  destruct (RM p last0 MQ ML) as (cs & ws & [H1 H2 _ _ _ _]). cbn [core_of co_w co_s] in *.
  split.
  { intros ->. clear - H1. remember [] as l eqn:E in H1. destruct H1 as [d|l cs st j c st' H W]; [discriminate E|]. destruct l; discriminate E. }
  eexists _, (m_stylus m), (m_loop m), lm, _. split; [rewrite T2, ML; reflexivity|]. split; [exact C3|split; [|split; [exact C4|exact MS]]].
  pose proof (smoothing_spec p _ _ _ V H1 SO) as E. unfold smooth_points. rewrite <- E. exact H2.
Qed.

Lemma known_not_unknown : forall (f : Input -> R) (L : list point),
  (forall i, In i (map fst L) -> 0 <= f i) -> existsb (fun ic => unknown_value (A := real_arith) (f (fst ic))) L = false.
Proof.
  intros f L H. induction L as [|x L IH]; [reflexivity|]. cbn [existsb map] in *. rewrite IH by (intros i I1; apply H; right; exact I1).
  rewrite orb_false_r. unfold unknown_value. rsimp. rewrite orb_false_r. apply Rltb_false. apply H. left. reflexivity.
Qed.

Lemma memory_closest : forall sm L, validate_stylus (sm_params sm) = OkStatus -> sy_normal (sm_params sm) = false ->
  remembering (sm_params sm) L (sm_state sm) -> L <> [] ->
  memory (map fst L) (most_recent (sy_max_samples (sm_params sm)) L) sm.
Proof.
  intros sm L V N RM NE. destruct (remembering_raw _ _ _ V RM) as ((F1 & F2 & F3) & K).
  assert (MX : (0 < sy_max_samples (sm_params sm))%Z).
  { unfold validate_stylus in V. rewrite N in V. unfold validate_gt0_i in V. destruct (Z.leb_spec (sy_max_samples (sm_params sm)) 0); [discriminate V|lia]. }
  assert (LN : List.length L <> 0%nat) by (destruct L; cbn; congruence).
  constructor.
  - intros H. rewrite F1. apply (known_not_unknown i_pressure); exact H.
  - intros H. rewrite F2. apply (known_not_unknown i_tilt); exact H.
  - intros H. rewrite F3. apply (known_not_unknown i_orient); exact H.
  - intros H. apply (f_equal (@List.length _)) in H. unfold most_recent in H. rewrite skipn_length in H. cbn in H. lia.
  - intros x H. apply in_map. unfold most_recent in H. rewrite <- (firstn_skipn (List.length L - Z.to_nat (sy_max_samples (sm_params sm))) L).
    apply in_or_app. right. exact H.
  - destruct K as [[K1 [K2|[K2 K3]]]|(k & RT & K1)].
    + contradiction.
    + right. auto.
    + left. unfold most_recent. rewrite <- (ret_closest _ _ _ RT N). exact K1.
Qed.

Lemma closest_mitigation_off : forall p : StrokeModelParams, validate_params p = OkStatus -> sy_normal (p_stylus p) = false ->
  lp_enabled (pp_loop (p_position p)) = false.
Proof.
  intros p V N. destruct (lp_enabled (pp_loop (p_position p))) eqn:E; [|reflexivity].
  rewrite (mitigation_normal p V E) in N. discriminate N.
Qed.

Lemma closest_results : forall fuel p L sm lm lm' tips pt out, validate_params p = OkStatus ->
  sy_normal (p_stylus p) = false -> L <> [] -> sm_params sm = p_stylus p ->
  remembering (p_stylus p) L (sm_state sm) -> l_params lm = pp_loop (p_position p) ->
  model_stylus fuel tips sm lm pt = Ret (lm', out) ->
  Forall (reported_nearest (map fst L) (most_recent (sy_max_samples (p_stylus p)) L)) out.
Proof.
  intros fuel p L sm lm lm' tips pt out V N NE SP RM LP MS.
  pose proof (closest_mitigation_off p V N) as OFF. rewrite <- LP in OFF.
  unfold model_stylus, loop_get in MS. rewrite loop_value_off in MS by exact OFF.
  rewrite <- SP in *. eapply model_closest; [|exact N|exact OFF|exact MS].
  apply memory_closest; try assumption. rewrite SP. apply (validate_params_parts p V).
Qed.

(** ** C31 (with C29, C30) *)
(** The results of a Move: pressure, tilt and orientation at the point nearest to
    the result's position, of the polyline of the most recent inputs. *)
Theorem C31_closest_point_move : forall (A := real_arith) fuel hist s p es seen i rs out,
  after_seen fuel hist s es seen -> ps_params s = Some p -> sy_normal (p_stylus p) = false -> i_event i = EMove ->
  answers fuel hist [CUpdate i rs] = Ret [RResults OkStatus (rs ++ out)] ->
  sorted_if_smoothing (p_wobble p) (seen ++ [i]) ->
  Forall (reported_nearest (seen ++ [i])
    (most_recent (sy_max_samples (p_stylus p)) (smooth_points (p_wobble p) (seen ++ [i])))) out.
Proof.
  intros A fuel hist s p es seen i rs out AS P N EV AN SO. subst A.
  destruct (move_memory _ _ _ _ _ _ _ _ _ AS P EV AN SO) as (V & sm & lm & lm' & tips & SP & RM & LP & MS).
  rewrite <- (smooth_points_fst (p_wobble p) (seen ++ [i])) at 1.
  eapply closest_results; try eassumption. rewrite smooth_points_snoc. intros E. apply app_eq_nil in E. destruct E; discriminate.
Qed.

(** Of an Up: its position is not smoothed. *)
Theorem C31_closest_point_up : forall (A := real_arith) fuel hist s p es seen i rs out,
  after_seen fuel hist s es seen -> ps_params s = Some p -> sy_normal (p_stylus p) = false -> i_event i = EUp ->
  answers fuel hist [CUpdate i rs] = Ret [RResults OkStatus (rs ++ out)] ->
  sorted_if_smoothing (p_wobble p) seen ->
  Forall (reported_nearest (seen ++ [i])
    (most_recent (sy_max_samples (p_stylus p)) (smooth_points (p_wobble p) seen ++ [(i, i_pos i)]))) out.
Proof.
  intros A fuel hist s p es seen i rs out AS P N EV AN SO. subst A.
  destruct (up_memory _ _ _ _ _ _ _ _ _ AS P EV AN SO) as (V & i0 & sm & lm & lm' & tips & _ & SP & RM & LP & MS).
  assert (E : seen ++ [i] = map fst (smooth_points (p_wobble p) seen ++ [(i, i_pos i)]))
    by (rewrite map_app, smooth_points_fst; reflexivity).
  rewrite E. eapply closest_results; try eassumption. intros E'. apply app_eq_nil in E'. destruct E'; discriminate.
Qed.

(** Of a prediction. *)
Theorem C31_closest_point_predict : forall (A := real_arith) fuel hist s p es seen rs out,
  after_seen fuel hist s es seen -> ps_params s = Some p -> sy_normal (p_stylus p) = false ->
  answers fuel hist [CPredict rs] = Ret [RResults OkStatus out] ->
  sorted_if_smoothing (p_wobble p) seen ->
  Forall (reported_nearest seen
    (most_recent (sy_max_samples (p_stylus p)) (smooth_points (p_wobble p) seen))) out.
Proof.
  intros A fuel hist s p es seen rs out AS P N AN SO. subst A.
  destruct (predict_memory _ _ _ _ _ _ _ _ AS P AN SO) as (V & NE & i0 & sm & lm & lm' & tips & _ & SP & RM & LP & MS).
  rewrite <- (smooth_points_fst (p_wobble p) seen) at 1.
  eapply closest_results; try eassumption. intros E. apply (f_equal (map fst)) in E. rewrite smooth_points_fst in E. contradiction.
Qed.
