(** * C10, C36, C37: what a clock glitch and a pause do to the smoothing. *)
From Coq Require Import ZArith Bool List Lia String.
From Flocq Require Import IEEE754.BinarySingleNaN.
From Verif Require Export Examples_N.
Import ListNotations.
Open Scope Z_scope.

(** Both coordinates are at most [b] in absolute value. *)
Definition in_box (b : F (Arith := demo_arith)) (v : Vec2) : bool :=
  fleb (fsub (fofZ 0) b) (vx v) && fleb (vx v) b && fleb (fsub (fofZ 0) b) (vy v) && fleb (vy v) b.
Definition call_in_box (b : F (Arith := demo_arith)) (c : call) : bool :=
  match c with CUpdate i _ => in_box b (i_pos i) | _ => true end.
(** The replies to successful Updates, and the positions in them. *)
Definition fine (r : reply) : bool := match r with RResults OkStatus _ => true | _ => false end.
Definition positions (rs : list reply) : list Vec2 :=
  List.concat (map (fun r => match r with RResults _ l => map r_pos l | _ => [] end) rs).

Lemma forallb_Forall : forall X (f : X -> bool) l, forallb f l = true -> Forall (fun x => f x = true) l.
Proof. intros X f l H. apply Forall_forall. rewrite forallb_forall in H. exact H. Qed.
Lemma existsb_Exists : forall X (f : X -> bool) l, existsb f l = true -> Exists (fun x => f x = true) l.
Proof. intros X f l H. apply Exists_exists. apply existsb_exists in H. exact H. Qed.

(** C10: a Move with a wrong time stamp (1000 s) is rejected.  Every input, the rejected
    one included, is within 1/50 of the origin.  The next two Moves are accepted.  With
    the rejected one before them a result is more than 60 away from the origin,
    without it all results are within 1/50: the rejected position stays in the
    smoother's sum with the weight 1000 s, the next one with the weight -1000 s. *)
Definition H_glitch : list call :=
  CReset P_end :: map (fun i => CUpdate i []) [inp EDown 0 0 0 50; inp EMove 1 0 10 50].
Definition glitch := inp EMove 2 0 1000000 50.
Definition next_moves : list call := map (fun i => CUpdate i []) [inp EMove 1 0 20 50; inp EMove 1 0 30 50].
Theorem C10_rejected_move_displaces_refuted :
  exists hist i e cs rs1 rs2, answers 5 hist [CUpdate i []] = Ret [RResults e []] /\ is_error e /\
    Forall (fun c => call_in_box (fl 1 50) c = true) (hist ++ [CUpdate i []] ++ cs) /\
    answers 5 (hist ++ [CUpdate i []]) cs = Ret rs1 /\ answers 5 hist cs = Ret rs2 /\
    Forall (fun r => fine r = true) (rs1 ++ rs2) /\
    Exists (fun v => fltb (fl 60 1) (vx v) = true) (positions rs1) /\
    Forall (fun v => in_box (fl 1 50) v = true) (positions rs2).
Proof.
  exists H_glitch, glitch.
  destruct (update_reply 5 H_glitch glitch [] 2 ltac:(compute_true)) as (s & l & R & C). exists s.
  assert (E : is_error s) by (eapply code_error; [exact C|lia]).
  pose proof (C04_failed_update_keeps_vector _ _ _ _ _ _ R E) as L. subst l.
  destruct (replies_ok_ex (fun rs => forallb fine rs && existsb (fun v => fltb (fl 60 1) (vx v)) (positions rs))
    (answers 5 (H_glitch ++ [CUpdate glitch []]) next_moves) ltac:(compute_true)) as (rs1 & A1 & B1).
  destruct (replies_ok_ex (fun rs => forallb fine rs && forallb (in_box (fl 1 50)) (positions rs))
    (answers 5 H_glitch next_moves) ltac:(compute_true)) as (rs2 & A2 & B2).
  apply andb_prop in B1, B2. destruct B1 as [B1 C1], B2 as [B2 C2].
  exists next_moves, rs1, rs2. split; [exact R|]. split; [exact E|]. split; [apply forallb_Forall; compute_true|].
  split; [exact A1|]. split; [exact A2|]. split; [apply Forall_app; split; apply forallb_Forall; assumption|].
  split; [apply existsb_Exists; exact C1|apply forallb_Forall; exact C2].
Qed.

(** C36, C37: a pen resting at one point, reported after a pause of ten seconds and every
    5 ms from then on (60 results per second): the result ends up more than 1/5 away
    from the only position there ever was.  The weight of the pause leaves the running
    sums with its rounding errors behind. *)
Definition P_pause : StrokeModelParams :=
  mkParams demo_wobble demo_position (mkSamplingParams (db 60 1) (fl 1 1000) 20 1000 (db (-1) 1)) demo_stylus PredStrokeEnd.
Definition spot : Vec2 := mkVec2 (fl 159276 100) (fl 0 1).
Definition reported (e : event_type) (t : Z) : Input := mkInput e spot (db t 1000) (fl 1 2) (fl 1 2) (fl 1 1).
Definition H_pause : list call :=
  CReset P_pause :: map (fun i => CUpdate i []) (reported EDown 0 :: map (fun k => reported EMove (10441 + 5 * Z.of_nat k)) (seq 0 20)).
Theorem C36_float_pause_refuted :
  exists (hist : list call) (i : Input) l, Forall (fun c => match c with CUpdate j _ => i_pos j = i_pos i | _ => True end) hist /\
    answers 5 hist [CUpdate i []] = Ret [RResults OkStatus l] /\
    Exists (fun r => fltb (fl 1 5) (fsub (vx (i_pos i)) (vx (r_pos r))) = true) l.
Proof.
  exists H_pause, (reported EMove 10541).
  destruct (replies_ok_ex (fun rs => match rs with [RResults OkStatus l] => existsb (fun r => fltb (fl 1 5) (fsub (vx spot) (vx (r_pos r)))) l | _ => false end)
    (answers 5 H_pause [CUpdate (reported EMove 10541) []]) ltac:(compute_true)) as (rs & A1 & B1).
  destruct rs as [|[st|st l|] [|]]; try discriminate B1; destruct st; try discriminate B1.
  exists l. split; [|split; [exact A1|apply existsb_Exists; exact B1]].
  constructor; [exact I|]. apply Forall_forall. intros c IN. apply in_map_iff in IN. destruct IN as (j & <- & [<-|J]); [reflexivity|].
  apply in_map_iff in J. destruct J as (k & <- & _). reflexivity.
Qed.

(** C52: with valid parameters, but an output rate too low for the spring, results run
    away: two inputs one unit and one second apart, at 32 results per second, and a
    result more than a billion units away. *)
Definition P_slow : StrokeModelParams :=
  mkParams demo_no_wobble demo_position (mkSamplingParams (db 32 1) (fl 1 1000) 20 1000 (db (-1) 1)) demo_stylus PredStrokeEnd.
Definition H_slow : list call := CReset P_slow :: map (fun i => CUpdate i []) [inp EDown 0 0 0 50].
Theorem C52_slow_rate_refuted :
  exists (p : StrokeModelParams) d i l, validate_params p = OkStatus /\ in_box (fl 1 1) (i_pos d) = true /\ in_box (fl 1 1) (i_pos i) = true /\
    answers 5 [CReset p; CUpdate d []] [CUpdate i []] = Ret [RResults OkStatus l] /\
    Exists (fun r => in_box (fl 1000000000 1) (r_pos r) = false) l.
Proof.
  exists P_slow, (inp EDown 0 0 0 50), (inp EMove 100 0 1000 50).
  destruct (replies_ok_ex (fun rs => match rs with [RResults OkStatus l] => existsb (fun r => negb (in_box (fl 1000000000 1) (r_pos r))) l | _ => false end)
    (answers 5 H_slow [CUpdate (inp EMove 100 0 1000 50) []]) ltac:(compute_true)) as (rs & A1 & B1).
  destruct rs as [|[st|st l|] [|]]; try discriminate B1; destruct st; try discriminate B1.
  exists l. split; [vm_compute; reflexivity|]. split; [compute_true|]. split; [compute_true|]. split; [exact A1|].
  apply existsb_Exists in B1. revert B1. apply Exists_impl. intros r H. apply negb_true_iff. exact H.
Qed.

(** C44: the projection along the normal treats left and right differently.  A stroke
    whose raw inputs pass by on both sides of the x axis, along which the pen then
    goes: with neither side on the outside of a turn the code takes the left
    one, so that the stroke drawn with y negated gets another pressure. *)
Definition P_normal : StrokeModelParams :=
  mkParams demo_no_wobble demo_position (demo_sampling 100) demo_stylus_normal PredStrokeEnd.
Definition upside_down (i : Input) : Input :=
  mkInput (i_event i) (mkVec2 (vx (i_pos i)) (fsub (fofZ 0) (vy (i_pos i)))) (i_time i) (i_pressure i) (i_tilt i) (i_orient i).
Definition bends : list Input :=
  [inp EDown 0 0 0 50; inp EMove (-10) 10 0 90; inp EMove (-20) 0 0 50; inp EMove 0 (-10) 0 10; inp EMove (-10) 0 0 50].
Definition onward : Input := inp EMove (-20) 0 10 50.
(** The same positions, all on the x axis. *)
Fixpoint same_axis_positions (l1 l2 : list Result) : bool :=
  match l1, l2 with
  | [], [] => true
  | r1 :: l1', r2 :: l2' => veqb (r_pos r1) (r_pos r2) && feqb (vy (r_pos r1)) (fofZ 0) && same_axis_positions l1' l2'
  | _, _ => false
  end.
Definition pressures_differ (l1 l2 : list Result) : bool :=
  match l1, l2 with r1 :: _, r2 :: _ => fltb (r_pressure r1) (fl 1 5) && fltb (fl 1 2) (r_pressure r2) | _, _ => false end.
Theorem C44_mirror_refuted : exists p is i r1 out1 r2 out2, validate_params p = OkStatus /\
  answers 5 (CReset p :: map (fun j => CUpdate j []) is) [CUpdate i []] = Ret [RResults OkStatus (r1 :: out1)] /\
  answers 5 (CReset p :: map (fun j => CUpdate (upside_down j) []) is) [CUpdate (upside_down i) []] = Ret [RResults OkStatus (r2 :: out2)] /\
  same_axis_positions (r1 :: out1) (r2 :: out2) = true /\ fltb (r_pressure r1) (fl 1 5) = true /\ fltb (fl 1 2) (r_pressure r2) = true.
Proof.
  assert (G : forall o1 o2 : outcome (list reply), replies_ok (fun rs1 => replies_ok (fun rs2 =>
      match rs1, rs2 with [RResults OkStatus l1], [RResults OkStatus l2] => same_axis_positions l1 l2 && pressures_differ l1 l2 | _, _ => false end) o2) o1 = true ->
    exists r1 out1 r2 out2, o1 = Ret [RResults OkStatus (r1 :: out1)] /\ o2 = Ret [RResults OkStatus (r2 :: out2)] /\
      same_axis_positions (r1 :: out1) (r2 :: out2) = true /\ fltb (r_pressure r1) (fl 1 5) = true /\ fltb (fl 1 2) (r_pressure r2) = true).
  { intros [rs1| |] o2 H; try discriminate H. cbn [replies_ok] in H. destruct o2 as [rs2| |]; try discriminate H. cbn [replies_ok] in H.
    destruct rs1 as [|[|[| |] l1|] [|]]; try discriminate H. destruct rs2 as [|[|[| |] l2|] [|]]; try discriminate H.
    apply andb_prop in H. destruct H as [H1 H2]. destruct l1 as [|r1 l1], l2 as [|r2 l2]; try discriminate H2.
    cbn [pressures_differ] in H2. apply andb_prop in H2. destruct H2 as [H2 H3]. exists r1, l1, r2, l2. auto. }
  destruct (G (answers 5 (CReset P_normal :: map (fun j => CUpdate j []) bends) [CUpdate onward []])
              (answers 5 (CReset P_normal :: map (fun j => CUpdate (upside_down j) []) bends) [CUpdate (upside_down onward) []])
              ltac:(compute_true)) as (r1 & l1 & r2 & l2 & K).
  exists P_normal, bends, onward, r1, l1, r2, l2. split; [vm_compute; reflexivity|exact K].
Qed.
