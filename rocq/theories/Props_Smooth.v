(** * C36 (and C38 with smoothing): wobble smoothing, in exact arithmetic. *)
From Coq Require Import ZArith Bool List Sorted Reals Lra Lia Psatz.
From Flocq Require Import Core.Raux.
From Verif Require Export Props_Spring Memory.
Import ListNotations.
Open Scope R_scope.

(** ** Specification *)
Definition sum (l : list R) : R := fold_right Rplus 0 l.

(** Each input of a stroke but the first, with its predecessor. *)
Definition steps (l : list Input) : list (Input * Input) := combine l (tl l).
Definition lasted (s : Input * Input) : R := i_time (snd s) - i_time (fst s).
Definition moved (s : Input * Input) : R := dist (i_pos (fst s)) (i_pos (snd s)).
(** The steps that ended no more than the timeout before the time [t]. *)
Definition recent (wp : WobbleParams) (t : R) (l : list Input) : list (Input * Input) :=
  filter (fun s => Rleb (t - wp_timeout wp) (i_time (snd s))) (steps l).

Definition total_time (w : list (Input * Input)) : R := sum (map lasted w).
(** The average of the positions, each weighted with the duration of its step. *)
Definition average_position (w : list (Input * Input)) : Vec2 :=
  mkVec2 (sum (map (fun s => lasted s * vx (i_pos (snd s))) w) / total_time w)
         (sum (map (fun s => lasted s * vy (i_pos (snd s))) w) / total_time w).
Definition average_speed_of (w : list (Input * Input)) : R := sum (map moved w) / total_time w.

(** 0 up to [lo], 1 from [hi] on, linear between them (a step if they are equal). *)
Definition ramp (lo hi x : R) : R :=
  if Rle_dec x lo then 0 else if Rle_dec hi x then 1 else (x - lo) / (hi - lo).

(** The smoothed position of the last of the inputs [l]. *)
Definition smooth_at (wp : WobbleParams) (l : list Input) : Vec2 :=
  match back l with
  | None => mkVec2 0 0
  | Some i =>
      let w := recent wp (i_time i) l in
      if wp_enabled wp then
        if Req_EM_T (total_time w) 0 then i_pos i
        else along (average_position w) (i_pos i) (ramp (wp_floor wp) (wp_ceiling wp) (average_speed_of w))
      else i_pos i
  end.

(** The smoothed positions of all inputs. *)
Definition smoothed (wp : WobbleParams) (l : list Input) : list Vec2 :=
  map (fun k => smooth_at wp (firstn (S k) l)) (seq 0 (List.length l)).

(** ** Proof *)
Lemma dist_distance : forall a b, distance a b = dist a b.
Proof. reflexivity. Qed.
Lemma dist_sym : forall a b, dist a b = dist b a.
Proof. intros a b. unfold dist. f_equal. ring. Qed.
Lemma dist_refl : forall a, dist a a = 0.
Proof. intros a. unfold dist. rewrite !Rminus_eq_0, Rmult_0_l, Rplus_0_l. apply sqrt_0. Qed.

Lemma sum_app : forall l1 l2, sum (l1 ++ l2) = sum l1 + sum l2.
Proof. intros l1 l2. unfold sum. induction l1 as [|x l1 IH]; cbn; [ring|]. rewrite IH. ring. Qed.

Lemma ramp_normalize : forall lo hi x : R, lo <= hi -> normalize01 (A := real_arith) lo hi x = ramp lo hi x.
Proof.
  intros lo hi x H. unfold normalize01, ramp, clamp01, std_clamp. rsimp.
  destruct (Reqb lo hi) eqn:E.
  - apply Reqb_true in E. subst hi. destruct (Rltb lo x) eqn:L.
    + apply Rltb_true in L. destruct (Rle_dec x lo); [lra|]. destruct (Rle_dec lo x); lra.
    + apply Rltb_false in L. destruct (Rle_dec x lo); lra.
  - apply Reqb_false in E. destruct (Rle_dec x lo) as [L|L].
    + destruct (Rltb _ 0) eqn:K; [reflexivity|]. apply Rltb_false in K.
      assert ((x - lo) / (hi - lo) <= 0). { apply Rmult_le_reg_r with (hi - lo); [lra|]. unfold Rdiv. rewrite Rmult_assoc, Rinv_l by lra. lra. }
      destruct (Rltb 1 _) eqn:K2; [apply Rltb_true in K2; lra|]. lra.
    + assert (0 < (x - lo) / (hi - lo)) by (apply Rdiv_lt_0_compat; lra).
      destruct (Rltb _ 0) eqn:K; [apply Rltb_true in K; lra|].
      destruct (Rle_dec hi x) as [L2|L2].
      * assert (1 <= (x - lo) / (hi - lo)). { apply Rmult_le_reg_r with (hi - lo); [lra|]. unfold Rdiv. rewrite Rmult_assoc, Rinv_l by lra. lra. }
        destruct (Rltb 1 _) eqn:K2; [reflexivity|]. apply Rltb_false in K2. lra.
      * assert ((x - lo) / (hi - lo) < 1). { apply Rmult_lt_reg_r with (hi - lo); [lra|]. unfold Rdiv. rewrite Rmult_assoc, Rinv_l by lra. lra. }
        destruct (Rltb 1 _) eqn:K2; [apply Rltb_true in K2; lra|]. reflexivity.
Qed.
Lemma ramp_range : forall lo hi x, 0 <= ramp lo hi x <= 1.
Proof.
  intros lo hi x. unfold ramp. destruct (Rle_dec x lo); [lra|]. destruct (Rle_dec hi x); [lra|].
  split; [apply Rlt_le, Rdiv_lt_0_compat; lra|]. apply Rmult_le_reg_r with (hi - lo); [lra|].
  unfold Rdiv. rewrite Rmult_assoc, Rinv_l by lra. lra.
Qed.

(** The sample of a step; the Down counts as a step from itself. *)
Definition sample_of (s : Input * Input) : WSample :=
  mkWSample (i_pos (snd s)) (vscale (lasted s) (i_pos (snd s))) (moved s) (lasted s) (i_time (snd s)).
Definition all_steps (l : list Input) : list (Input * Input) :=
  match l with [] => [] | d :: _ => (d, d) :: steps l end.
Definition kept_steps (wp : WobbleParams) (t : R) (l : list Input) : list (Input * Input) :=
  filter (fun s => Rleb (t - wp_timeout wp) (i_time (snd s))) (all_steps l).

Definition wsums (w : list (Input * Input)) (st : WState) : Prop :=
  w_samples st = map sample_of w /\
  vx (w_wsum st) = sum (map (fun s => lasted s * vx (i_pos (snd s))) w) /\
  vy (w_wsum st) = sum (map (fun s => lasted s * vy (i_pos (snd s))) w) /\
  w_dsum st = sum (map moved w) /\ w_tsum st = total_time w.

Lemma steps_snoc : forall l i0 i, back l = Some i0 -> steps (l ++ [i]) = steps l ++ [(i0, i)].
Proof.
  intros l. induction l as [|a l IH]; intros i0 i B; [discriminate B|].
  destruct l as [|b l]; [injection B as <-; reflexivity|]. rewrite back_cons in B.
  change (((a, b) :: steps ((b :: l) ++ [i])) = ((a, b) :: steps (b :: l)) ++ [(i0, i)]).
  rewrite (IH i0 i B). reflexivity.
Qed.
Lemma all_steps_snoc : forall l i0 i, back l = Some i0 -> all_steps (l ++ [i]) = all_steps l ++ [(i0, i)].
Proof.
  intros l i0 i B. destruct l as [|d l]; [discriminate B|]. cbn [app all_steps]. f_equal.
  change (steps ((d :: l) ++ [i]) = steps (d :: l) ++ [(i0, i)]). apply steps_snoc. exact B.
Qed.

(** Trimming: all samples before the limit go, and no others, if the times are sorted. *)
Lemma trim_R : forall w wx wy ds ts limit st',
  wobble_trim (map sample_of w) (mkVec2 wx wy) ds ts limit = Ret st' ->
  wx = sum (map (fun s => lasted s * vx (i_pos (snd s))) w) ->
  wy = sum (map (fun s => lasted s * vy (i_pos (snd s))) w) ->
  ds = sum (map moved w) -> ts = total_time w ->
  Sorted Rle (map (fun s => i_time (snd s)) w) ->
  wsums (filter (fun s => Rleb limit (i_time (snd s))) w) st'.
Proof.
  induction w as [|s w IH]; intros wx wy ds ts limit st' H HX HY HD HT SO; [discriminate H|].
  cbn [map wobble_trim] in H. cbn [ws_time sample_of] in H. rsimp.
  cbn [map] in SO. pose proof (Sorted_StronglySorted Rle_trans SO) as SS. inversion SS as [|? ? SS1 SS2]; subst.
  destruct (Rltb (i_time (snd s)) limit) eqn:L.
  - apply Rltb_true in L. cbn [filter]. destruct (Rleb limit (i_time (snd s))) eqn:E; [apply Rleb_true in E; lra|].
    eapply (IH _ _ _ _ limit st'); [exact H| | | | |inversion SO; assumption]; unfold sample_of, vsub, vscale, total_time;
      cbn [ws_wpos ws_dist ws_dur vx vy map]; rsimp; unfold sum; cbn [map fold_right]; rring.
  - apply Rltb_false in L. injection H as <-.
    assert (F : filter (fun s => Rleb limit (i_time (snd s))) (s :: w) = s :: w).
    { cbn [filter]. rewrite (proj2 (Rleb_true _ _) L). f_equal. clear - SS2 L. induction w as [|a w IHw]; [reflexivity|].
      cbn [map] in SS2. inversion SS2; subst. cbn [filter]. rewrite (proj2 (Rleb_true limit (i_time (snd a)))) by lra. f_equal. apply IHw. assumption. }
    rewrite F. repeat split.
Qed.

Lemma sorted_app_inv : forall l1 l2, Sorted Rle (l1 ++ l2) -> Sorted Rle l1.
Proof.
  induction l1 as [|x l1 IH]; intros l2 H; [constructor|]. cbn in H. inversion H; subst. constructor; [eapply IH; eassumption|].
  destruct l1; [constructor|]. inversion H3; subst. constructor. assumption.
Qed.
Lemma kept_sorted : forall (limit : R) (w : list (Input * Input)), Sorted Rle (map (fun s => i_time (snd s)) w) ->
  Sorted Rle (map (fun s => i_time (snd s)) (filter (fun s => Rleb limit (i_time (snd s))) w)).
Proof.
  intros limit w H. apply (Sorted_StronglySorted Rle_trans) in H. apply StronglySorted_Sorted.
  induction w as [|x w IH]; [constructor|]. cbn [map] in H. inversion H as [|? ? H1 H2]; subst. cbn [filter].
  destruct (Rleb limit (i_time (snd x))); [|apply IH; exact H1]. cbn [map]. constructor; [apply IH; exact H1|].
  apply Forall_forall. intros y Y. apply in_map_iff in Y. destruct Y as (z & <- & Z). apply filter_In in Z.
  rewrite Forall_forall in H2. apply H2. apply in_map_iff. exists z. split; [reflexivity|]. apply Z.
Qed.
Lemma filter_snoc : forall {X} (f : X -> bool) l x, f x = true -> filter f l ++ [x] = filter f (l ++ [x]).
Proof. intros X f l x H. rewrite filter_app. cbn [filter]. rewrite H. reflexivity. Qed.

Lemma all_steps_times : forall l, map (fun s => i_time (snd s)) (all_steps l) = map i_time l.
Proof.
  intros [|d l]; [reflexivity|]. cbn [all_steps map snd]. f_equal. unfold steps. cbn [tl]. revert d.
  induction l as [|a l IH]; intros d; [reflexivity|]. cbn. f_equal. apply IH.
Qed.
Lemma back_sorted : forall l i, Sorted Rle (map i_time (l ++ [i])) -> forall i0, back l = Some i0 -> i_time i0 <= i_time i.
Proof.
  intros l i H i0 B. destruct (exists_last (l := l)) as (l0 & x & ->); [intros ->; discriminate B|].
  rewrite back_snoc in B. injection B as ->. rewrite !map_app in H. apply (Sorted_StronglySorted Rle_trans) in H.
  clear - H. induction l0 as [|a l0 IH]; cbn in H; inversion H; subst; [|auto]. inversion H3; subst. assumption.
Qed.

Lemma kept_recent : forall wp l, match back l with None => True | Some i =>
  sum (map (fun s => lasted s * vx (i_pos (snd s))) (kept_steps wp (i_time i) l)) = sum (map (fun s => lasted s * vx (i_pos (snd s))) (recent wp (i_time i) l)) /\
  sum (map (fun s => lasted s * vy (i_pos (snd s))) (kept_steps wp (i_time i) l)) = sum (map (fun s => lasted s * vy (i_pos (snd s))) (recent wp (i_time i) l)) /\
  sum (map moved (kept_steps wp (i_time i) l)) = sum (map moved (recent wp (i_time i) l)) /\
  total_time (kept_steps wp (i_time i) l) = total_time (recent wp (i_time i) l) end.
Proof.
  intros wp l. destruct (back l) as [i|] eqn:B; [|exact I]. destruct l as [|d l]; [discriminate B|].
  unfold kept_steps, recent, all_steps. cbn [filter snd]. destruct (Rleb _ (i_time d)); [|auto].
  assert (L0 : lasted (d, d) = 0) by (unfold lasted; cbn [fst snd]; ring).
  assert (M0 : moved (d, d) = 0) by (unfold moved; cbn [fst snd]; apply dist_refl).
  unfold total_time. cbn [map]. rewrite L0, M0. unfold sum. cbn [fold_right]. repeat split; ring.
Qed.

Lemma smoothed_snoc : forall wp l i, smoothed wp (l ++ [i]) = smoothed wp l ++ [smooth_at wp (l ++ [i])].
Proof.
  intros wp l i. unfold smoothed. rewrite app_length. cbn [List.length]. rewrite Nat.add_1_r, seq_S, map_app. cbn [map plus].
  rewrite firstn_all2 by (rewrite app_length; cbn; lia). f_equal.
  apply map_ext_in. intros k K. apply in_seq in K. f_equal. rewrite firstn_app.
  replace (S k - List.length l)%nat with O by lia. cbn. apply app_nil_r.
Qed.

Lemma smoothing_R : forall wp l cs st, 0 <= wp_timeout wp -> wp_floor wp <= wp_ceiling wp -> wp_enabled wp = true ->
  smoothing wp l cs st -> Sorted Rle (map i_time l) ->
  cs = smoothed wp l /\ exists i, back l = Some i /\ wsums (kept_steps wp (i_time i) l) st.
Proof.
  intros wp l cs st T0 FC EN H. induction H as [d|l cs st i c st' H IH W]; intros SO.
  - split.
    + unfold smoothed, smooth_at. cbn. rewrite EN. destruct (Req_EM_T _ 0) as [E|E]; [reflexivity|]. exfalso. apply E. reflexivity.
    + exists d. split; [reflexivity|]. unfold kept_steps. cbn [all_steps steps tl combine filter snd].
      rewrite (proj2 (Rleb_true _ _)) by lra. unfold wsums, wstart, sample_of, total_time, vzero, vscale. cbn [w_samples w_wsum w_dsum w_tsum map vx vy].
      unfold sum. cbn [fold_right]. unfold lasted, moved. cbn [fst snd]. rewrite dist_refl. rsimp.
      split; [|repeat split; rring]. f_equal. f_equal; [apply vec_eq; cbn [vx vy]; rring|rring].
  - rewrite map_app in SO. destruct (IH (sorted_app_inv _ _ SO)) as (IH1 & i0 & B0 & (S1 & S2 & S3 & S4 & S5)).
    rewrite <- map_app in SO.
    unfold wstep, wobble_update in W. cbn [w_params w_state] in W. rewrite EN in W. cbn [negb] in W.
    (* the last sample is that of the last input *)
    assert (LAST : exists prev, back (kept_steps wp (i_time i0) l) = Some (prev, i0)).
    { destruct (exists_last (l := l)) as (l0 & x & E); [intros ->; discriminate B0|]. rewrite E in B0 |- *. rewrite back_snoc in B0. injection B0 as ->.
      destruct (back l0) as [y|] eqn:BY.
      - unfold kept_steps. rewrite (all_steps_snoc _ _ _ BY), filter_app. cbn [filter snd].
        rewrite (proj2 (Rleb_true _ _)) by lra. rewrite back_snoc. eauto.
      - destruct l0 as [|z l0]; [|destruct (exists_last (l := z :: l0)) as (l1 & y & E1); [discriminate|]; rewrite E1, back_snoc in BY; discriminate BY].
        unfold kept_steps. cbn [app all_steps steps tl combine filter snd]. rewrite (proj2 (Rleb_true _ _)) by lra. cbn. eauto. }
    destruct LAST as (prev & LAST).
    assert (BS : back (w_samples st) = Some (sample_of (prev, i0))).
    { rewrite S1. unfold back in *. rewrite map_length, nth_error_map, LAST. reflexivity. }
    rewrite BS in W. cbv zeta in W.
    pose proof (back_sorted _ _ SO _ B0) as T1.
    set (kept := kept_steps wp (i_time i0) l) in *.
    assert (SAMP : mkWSample (i_pos i) (vscale (d2f (dsub (i_time i) (ws_time (sample_of (prev, i0))))) (i_pos i))
        (distance (i_pos i) (ws_pos (sample_of (prev, i0)))) (dsub (i_time i) (ws_time (sample_of (prev, i0)))) (i_time i)
        = sample_of (i0, i)).
    { unfold sample_of. cbn [ws_time ws_pos fst snd]. unfold lasted, moved. cbn [fst snd]. rewrite dist_distance, dist_sym. reflexivity. }
    rewrite SAMP in W. rewrite S1 in W. change (map sample_of kept ++ [sample_of (i0, i)]) with (map sample_of kept ++ map sample_of [(i0, i)]) in W.
    rewrite <- map_app in W.
    destruct (wobble_trim _ _ _ _ _) as [st1| |] eqn:TR in W; cbn [obind] in W; try discriminate W.
    destruct (vadd (w_wsum st) (ws_wpos (sample_of (i0, i)))) as [ax ay] eqn:VA.
    unfold vadd in VA. injection VA as VX VY.
    assert (WS : wsums (kept_steps wp (i_time i) (l ++ [i])) st1).
    { assert (KE : kept_steps wp (i_time i) (l ++ [i]) = filter (fun s => Rleb (i_time i - wp_timeout wp) (i_time (snd s))) (kept ++ [(i0, i)])).
      { unfold kept_steps. rewrite (all_steps_snoc _ _ _ B0), !filter_app. f_equal. unfold kept, kept_steps.
        clear - T1. induction (all_steps l) as [|s w IHw]; [reflexivity|]. cbn [filter].
        destruct (Rleb (i_time i - wp_timeout wp) (i_time (snd s))) eqn:E.
        - apply Rleb_true in E. rewrite (proj2 (Rleb_true _ _)) by lra. cbn [filter]. rewrite (proj2 (Rleb_true _ _)) by lra. f_equal. exact IHw.
        - destruct (Rleb (i_time i0 - wp_timeout wp) (i_time (snd s))); [cbn [filter]; rewrite E|]; exact IHw. }
      rewrite KE. eapply trim_R; [exact TR| | | | |].
      - rewrite <- VX, S2, map_app, sum_app. unfold sample_of, vscale, sum. cbn [map fold_right ws_wpos vx snd]. rsimp. rring.
      - rewrite <- VY, S3, map_app, sum_app. unfold sample_of, vscale, sum. cbn [map fold_right ws_wpos vy snd]. rsimp. rring.
      - rewrite S4, map_app, sum_app. unfold sample_of, sum. cbn [map fold_right ws_dist]. rsimp. rring.
      - rewrite S5. unfold total_time. rewrite map_app, sum_app. unfold sample_of, sum. cbn [map fold_right ws_dur]. rsimp. rring.
      - assert (SK : Sorted Rle (map (fun s => i_time (snd s)) (all_steps l ++ [(i0, i)])))
          by (rewrite <- (all_steps_snoc _ _ _ B0), all_steps_times; exact SO).
        unfold kept, kept_steps. rewrite filter_snoc by (apply Rleb_true; cbn [snd]; lra). apply kept_sorted. exact SK. }
    assert (ST : st' = st1 /\ c = smooth_at wp (l ++ [i])).
    { destruct WS as (_ & W2 & W3 & W4 & W5). pose proof (kept_recent wp (l ++ [i])) as KR. rewrite back_snoc in KR.
      destruct KR as (K1 & K2 & K3 & K4). unfold smooth_at. rewrite back_snoc. cbv zeta. rewrite EN.
      rewrite K1 in W2. rewrite K2 in W3. rewrite K3 in W4. rewrite K4 in W5.
      destruct (feqb (w_tsum st1) f0) eqn:Z in W; cbn [obind] in W; injection W as <- <-; (split; [reflexivity|]); rsimp.
      - apply Reqb_true in Z. rewrite W5 in Z. destruct (Req_EM_T _ 0); [reflexivity|contradiction].
      - apply Reqb_false in Z. rewrite W5 in Z. destruct (Req_EM_T _ 0) as [E|_]; [contradiction|].
        cbn [w_params]. rewrite ramp_normalize by exact FC. rewrite interp_v_R by apply ramp_range.
        unfold vlerp, along, vdiv, average_position, average_speed_of. cbn [vx vy fdiv]. rsimp. rewrite W2, W3, W4, W5. reflexivity. }
    destruct ST as [-> ->]. split; [rewrite smoothed_snoc, IH1; reflexivity|].
    exists i. split; [apply back_snoc|exact WS].
Qed.

(** ** The stroke with smoothing *)
Lemma smoothing_spec : forall p l cs st, validate_params p = OkStatus ->
  smoothing (p_wobble p) l cs st -> (wp_enabled (p_wobble p) = true -> Sorted Rle (map i_time l)) ->
  cs = smoothed (p_wobble p) l.
Proof.
  intros p l cs st V H SO. destruct (wp_enabled (p_wobble p)) eqn:EN.
  - destruct (validate_params_parts p V) as (VW & _). unfold validate_wobble in VW. rewrite EN in VW. cbn [negb] in VW.
    apply and_then_ok in VW. destruct VW as [V1 VW]. apply and_then_ok in VW. destruct VW as [V2 VW].
    apply and_then_ok in VW. destruct VW as [_ VW].
    apply (smoothing_R (p_wobble p) l cs st); try assumption; auto.
    + apply ge0_d_R in V1. exact V1.
    + destruct (fltb _ _) eqn:E in VW; [discriminate VW|]. rsimp. apply Rltb_false in E. exact E.
  - clear SO. induction H as [d|l cs st i c st' H IH W].
    + unfold smoothed, smooth_at. cbn. rewrite EN. reflexivity.
    + rewrite smoothed_snoc, IH. f_equal. unfold smooth_at. rewrite back_snoc, EN.
      unfold wstep, wobble_update in W. cbn [w_params] in W. rewrite EN in W. cbn in W. injection W as _ <-. reflexivity.
Qed.

(** What the whole stroke looks like: [cs] the smoothed positions of the inputs
    taken into account, [ws] those of the accepted ones. *)
Definition smoothly (p : StrokeModelParams) (es : list entry) (seen : list Input) (c : core) : Prop :=
  exists cs ws, remembered p es seen c cs ws /\ Sorted Rle (map i_time (map fst es)) /\
    exists d es' ws', es = (d, [down_result d]) :: es' /\ ws = i_pos d :: ws' /\
    (lp_enabled (pp_loop (p_position p)) = false ->
       drawn (p_position p) (down_result d) (i_pos d) (combine ws' (map snd es')) /\
       co_tip c = tip_of (last (List.concat (map snd es')) (down_result d))).

Lemma sorted_snoc2 : forall l x y, Sorted Rle (l ++ [x]) -> x <= y -> Sorted Rle ((l ++ [x]) ++ [y]).
Proof.
  induction l as [|a l IH]; intros x y H L; cbn in *.
  - constructor; [repeat constructor|]. constructor. exact L.
  - inversion H; subst. constructor; [apply IH; assumption|]. destruct l; cbn in *; inversion H3; subst; constructor; assumption.
Qed.
Lemma smoothly_state : forall fuel hist s es seen, after_seen fuel hist s es seen ->
  exists m rs, run fuel modeler0 hist = Ret (m, rs) /\ tracks s m /\ good m /\ cons m /\
    (forall p last, m_params m = Some p -> m_last m = Some last -> smoothly p es seen (core_of p m last)).
Proof.
  intros fuel hist s es seen AS. eapply (after_seen_state fuel (fun _ => True) smoothly); [| | |exact AS|apply call_in_true].
  - intros p m i m' out _ MP V G U EV. destruct (rem_step_down fuel p m i m' out MP G U EV) as [-> RM].
    exists [i_pos i], [i_pos i]. split; [exact RM|]. split; [repeat constructor|].
    exists i, [], []. do 2 (split; [reflexivity|]).
    intros _. split; [exact I|]. destruct (upd_down fuel m i m' _ U EV) as (q & sm & pred & _ & _ & _ & _ & _ & _ & ->). reflexivity.
  - intros p m i m' out es0 seen0 lst last' _ MP V G CP ML (cs & ws & RM & SO & d & es' & ws' & J1 & J2 & J3) U EV ML'.
    destruct (move_R fuel p m i m' out V MP CP U EV) as (last0 & w & c & n & tips & ML0 & ML2 & MW & _ & DL & _ & N & NB & ET & EP & ER & EO & _).
    rewrite ML in ML0. injection ML0 as <-. rewrite ML' in ML2. injection ML2 as ->. cbn [li_corrected].
    exists (cs ++ [c]), (ws ++ [c]).
    split; [exact (rem_step_move fuel p m i m' out es0 seen0 lst _ cs ws CP MP ML RM U EV ML')|].
    split.
    { destruct (rem_last _ _ _ _ _ _ RM) as (e0 & w0 & o0 & K & _). cbn [core_of co_last] in K.
      rewrite K in SO |- *. rewrite !map_app in *. cbn [map fst] in *. apply sorted_snoc2; assumption. }
    exists d, (es' ++ [(i, out)]), (ws' ++ [c]). rewrite J1, J2. do 2 (split; [reflexivity|]).
    intros L. destruct (J3 L) as [J4 J5].
    assert (LW : List.length ws' = List.length es').
    { pose proof (rem_len _ _ _ _ _ _ RM) as K. rewrite J1, J2 in K. injection K as K. exact K. }
    assert (LC : li_corrected lst = last ws' (i_pos d)).
    { destruct (rem_last _ _ _ _ _ _ RM) as (e0 & w0 & o0 & _ & K). cbn [core_of co_last] in K. rewrite J2 in K.
      apply (f_equal (fun l => last l (i_pos d))) in K. rewrite last_last, last_cons in K. congruence. }
    cbn [core_of co_tip co_last li_corrected] in *.
    assert (DR : drawn_along (p_position p) (last (List.concat (map snd es')) (down_result d)) (last ws' (i_pos d)) c out).
    { eapply scan_drawn with (n := n); [lia|]. rewrite (EO L), ET, J5, <- LC. reflexivity. }
    rewrite map_app. change (map snd [(i, out)]) with [out]. rewrite combine_snoc by (rewrite map_length; exact LW). split.
    + apply drawn_app; [exact J4|]. rewrite combine_snd, combine_fst by (rewrite map_length; exact LW).
      cbn [drawn]. split; [exact DR|exact I].
    + rewrite EP, <- (EO L), J5, concat_app. cbn [map List.concat snd]. rewrite app_nil_r, last_app'. apply last_map.
  - intros p m i m' out es0 seen0 lst e _ MP V G CP ML (cs & ws & RM & SO & d & es' & ws' & J1 & J2 & J3) U NE.
    destruct (rem_step_reject fuel p m i m' e out es0 seen0 lst cs ws CP MP ML RM U NE) as (cs' & R').
    exists cs', ws. split; [exact R'|]. split; [exact SO|]. exists d, es', ws'. do 2 (split; [assumption|]).
    inversion U; subst; try congruence; exact J3.
Qed.

(** ** C36, C38 *)
(** Loop mitigation off: the results of the stroke are drawn along the smoothed
    positions of the accepted inputs.  [seen] lists the inputs the modeler took
    into account; if there were no rejected Moves among them, it is the list of the
    accepted inputs. *)
Theorem C36_smoothing : forall (A := real_arith) fuel hist s p es seen,
  after_seen fuel hist s es seen -> ps_params s = Some p -> in_stroke s = true ->
  lp_enabled (pp_loop (p_position p)) = false -> Sorted Rle (map i_time seen) ->
  exists d r es' ws, es = (d, [r]) :: es' /\ List.length ws = List.length es' /\
    subseq (combine (map fst es) (i_pos d :: ws)) (combine seen (smoothed (p_wobble p) seen)) /\
    r_pos r = i_pos d /\ r_vel r = mkVec2 0 0 /\ r_acc r = mkVec2 0 0 /\ r_time r = i_time d /\
    drawn (p_position p) r (i_pos d) (combine ws (map snd es')).
Proof.
  intros A fuel hist s p es seen AS P IS L SO. subst A.
  destruct (smoothly_state _ _ _ _ _ AS) as (m & rs & _ & (T1 & T2 & _) & G & _ & K).
  unfold in_stroke in IS. rewrite T2 in IS. destruct (m_last m) as [lst|] eqn:ML; [|discriminate IS].
  assert (MP : m_params m = Some p) by congruence.
  destruct (K p lst MP eq_refl) as (cs & ws & RM & _ & d & es' & ws' & E1 & E2 & E3).
  destruct (E3 L) as [E4 _]. exists d, (down_result d), es', ws'.
  split; [exact E1|]. split; [pose proof (rem_len _ _ _ _ _ _ RM) as H; rewrite E1, E2 in H; injection H as H; exact H|].
  split; [|do 4 (split; [reflexivity|]); exact E4].
  rewrite <- E2. rewrite <- (smoothing_spec p seen cs (co_w (core_of p m lst)) (g_valid _ G _ MP) (rem_smooth _ _ _ _ _ _ RM) (fun _ => SO)).
  apply (rem_sub _ _ _ _ _ _ RM).
Qed.

(** All Moves of the stroke accepted. *)
Theorem C38_spring_law_smoothed : forall (A := real_arith) fuel hist s p es,
  after_seen fuel hist s es (map fst es) -> ps_params s = Some p -> in_stroke s = true ->
  lp_enabled (pp_loop (p_position p)) = false ->
  exists d r es', es = (d, [r]) :: es' /\
    r_pos r = i_pos d /\ r_vel r = mkVec2 0 0 /\ r_acc r = mkVec2 0 0 /\ r_time r = i_time d /\
    drawn (p_position p) r (i_pos d)
      (combine (tl (smoothed (p_wobble p) (map fst es))) (map snd es')).
Proof.
  intros A fuel hist s p es AS P IS L. subst A.
  assert (SO : Sorted Rle (map i_time (map fst es))).
  { destruct (smoothly_state _ _ _ _ _ AS) as (m & rs & _ & (T1 & T2 & _) & G & _ & K).
    unfold in_stroke in IS. rewrite T2 in IS. destruct (m_last m) as [lst|] eqn:ML; [|discriminate IS].
    assert (MP : m_params m = Some p) by congruence.
    destruct (K p lst MP eq_refl) as (cs & ws & _ & SO & _). exact SO. }
  destruct (C36_smoothing fuel hist s p es (map fst es) AS P IS L SO) as (d & r & es' & ws & E & LW & SB & Q1 & Q2 & Q3 & Q4 & DR).
  exists d, r, es'. split; [exact E|]. do 4 (split; [assumption|]).
  assert (LS : List.length (smoothed (p_wobble p) (map fst es)) = List.length es) by (unfold smoothed; rewrite map_length, seq_length, map_length; reflexivity).
  apply subseq_all in SB; [|rewrite !combine_length, LS, map_length, E; cbn [List.length]; rewrite LW; reflexivity].
  apply (f_equal (map snd)) in SB.
  rewrite (combine_snd (map fst es) (i_pos d :: ws)) in SB by (rewrite map_length, E; cbn [List.length]; rewrite LW; reflexivity).
  rewrite (combine_snd (map fst es) (smoothed (p_wobble p) (map fst es))) in SB by (rewrite map_length; symmetry; exact LS).
  rewrite <- SB. exact DR.
Qed.

(** ** What the smoothed position is *)
Lemma lasted_ge0 : forall l, Sorted Rle (map i_time l) -> Forall (fun s => 0 <= lasted s) (steps l).
Proof.
  intros l H. unfold steps. induction l as [|a l IH]; [constructor|]. cbn [map] in H. inversion H as [|? ? H1 H2]; subst.
  destruct l as [|b l]; [constructor|]. cbn [tl combine]. constructor; [|apply IH; exact H1].
  inversion H2; subst. unfold lasted. cbn [fst snd]. lra.
Qed.
Lemma sum_ge0 : forall {X} (f : X -> R) l, Forall (fun x => 0 <= f x) l -> 0 <= sum (map f l).
Proof. intros X f l H. induction H; unfold sum in *; cbn; [lra|lra]. Qed.
Lemma sum_halfplane : forall {X} (w f : X -> R) c l, Forall (fun x => 0 <= w x) l -> Forall (fun x => f x <= c) l ->
  sum (map (fun x => w x * f x) l) <= c * sum (map w l).
Proof.
  intros X w f c l H1 H2. induction l as [|x l IH]; unfold sum in *; cbn; [lra|].
  inversion H1; inversion H2; subst. specialize (IH H4 H8). nra.
Qed.
Lemma sum_linear : forall {X} (f g : X -> R) a b l,
  sum (map (fun x => a * f x + b * g x) l) = a * sum (map f l) + b * sum (map g l).
Proof. intros X f g a b l. induction l as [|x l IH]; unfold sum in *; cbn; [ring|]. rewrite IH. ring. Qed.

(** The inputs in the window of the last input of [l]. *)
Definition recent_inputs (wp : WobbleParams) (l : list Input) : list Input :=
  match back l with
  | None => []
  | Some i => i :: map snd (recent wp (i_time i) l)
  end.

(** The smoothed position is in the convex hull of the recent raw positions: in
    every half-plane that holds them all. *)
Theorem C36_in_convex_hull : forall (A := real_arith) (wp : WobbleParams) (l : list Input) a b c,
  l <> [] -> Sorted Rle (map i_time l) ->
  (forall i, In i (recent_inputs wp l) -> a * vx (i_pos i) + b * vy (i_pos i) <= c) ->
  a * vx (smooth_at wp l) + b * vy (smooth_at wp l) <= c.
Proof.
  intros A wp l a b c NE SO H. subst A. unfold smooth_at, recent_inputs in *.
  destruct (back l) as [i|] eqn:B.
  2:{ exfalso. destruct (exists_last NE) as (l0 & x & ->). rewrite back_snoc in B. discriminate B. }
  pose proof (H i (or_introl eq_refl)) as HI. destruct (wp_enabled wp); [|exact HI]. cbv zeta.
  destruct (Req_EM_T _ 0) as [_|NZ]; [exact HI|].
  set (w := recent wp (i_time i) l) in *.
  assert (W : Forall (fun s => 0 <= lasted s) w).
  { pose proof (lasted_ge0 l SO) as K. rewrite Forall_forall in K |- *. intros x X. apply K. unfold w, recent in X. apply filter_In in X. apply X. }
  pose proof (sum_ge0 lasted w W) as T0. fold (total_time w) in T0.
  assert (M : a * vx (average_position w) + b * vy (average_position w) <= c).
  { unfold average_position. cbn [vx vy].
    assert (K : sum (map (fun s => lasted s * (a * vx (i_pos (snd s)) + b * vy (i_pos (snd s)))) w) <= c * total_time w).
    { apply sum_halfplane; [exact W|]. apply Forall_forall. intros x X. apply H. right. apply in_map. exact X. }
    assert (K2 : sum (map (fun s => lasted s * (a * vx (i_pos (snd s)) + b * vy (i_pos (snd s)))) w) =
      a * sum (map (fun s => lasted s * vx (i_pos (snd s))) w) + b * sum (map (fun s => lasted s * vy (i_pos (snd s))) w)).
    { rewrite <- sum_linear. f_equal. apply map_ext. intros x. rring. }
    rewrite K2 in K. apply Rmult_le_reg_r with (total_time w); [lra|]. eapply Rle_trans; [|exact K].
    apply Req_le. field. exact NZ. }
  unfold along. cbn [vx vy]. pose proof (ramp_range (wp_floor wp) (wp_ceiling wp) (average_speed_of w)) as RR.
  set (k := ramp _ _ _) in *. nra.
Qed.

(** At least as fast as the ceiling: the raw position. *)
Theorem C36_raw_when_fast : forall (A := real_arith) (wp : WobbleParams) (l : list Input) i,
  back l = Some i -> wp_floor wp < average_speed_of (recent wp (i_time i) l) ->
  wp_ceiling wp <= average_speed_of (recent wp (i_time i) l) -> smooth_at wp l = i_pos i.
Proof.
  intros A wp l i B F C. subst A. unfold smooth_at. rewrite B. destruct (wp_enabled wp); [|reflexivity]. cbv zeta.
  destruct (Req_EM_T _ 0); [reflexivity|]. unfold ramp. destruct (Rle_dec _ (wp_floor wp)); [lra|].
  destruct (Rle_dec (wp_ceiling wp) _); [|lra]. apply vec_eq; unfold along; cbn [vx vy]; rring.
Qed.

(** At most as fast as the floor: the moving average. *)
Theorem C36_average_when_slow : forall (A := real_arith) (wp : WobbleParams) (l : list Input) i,
  back l = Some i -> wp_enabled wp = true -> total_time (recent wp (i_time i) l) <> 0 ->
  average_speed_of (recent wp (i_time i) l) <= wp_floor wp ->
  smooth_at wp l = average_position (recent wp (i_time i) l).
Proof.
  intros A wp l i B E T F. subst A. unfold smooth_at. rewrite B, E. cbv zeta.
  destruct (Req_EM_T _ 0); [contradiction|]. unfold ramp. destruct (Rle_dec _ (wp_floor wp)); [|contradiction].
  apply vec_eq; unfold along; cbn [vx vy]; rring.
Qed.
