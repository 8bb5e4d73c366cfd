(** * Concrete parameters, inputs and histories in IEEE arithmetic, used in the
      [Example]s that show hypotheses to be satisfiable and in the [_refuted]
      theorems.  [acosf] plays no role in them (angle-based upsampling is off
      unless said otherwise), so it is instantiated with the identity. *)
From Coq Require Import ZArith Bool List Lia.
From Flocq Require Import IEEE754.BinarySingleNaN.
From Verif Require Export Props_API Ieee.
Import ListNotations.
Open Scope Z_scope.

#[global] Instance demo_arith : Arith := ieee (fun x => x).

(** Literals: [fl p q] is the float p/q, [db p q] the double p/q. *)
Definition fl (p q : Z) : F (Arith := demo_arith) := flit p q.
Definition db (p q : Z) : D (Arith := demo_arith) := dlit p q.

Definition demo_wobble : WobbleParams := mkWobbleParams true (db 4 100) (fl 131 100) (fl 144 100).
Definition demo_no_wobble : WobbleParams := mkWobbleParams false (db 0 1) (fl 0 1) (fl 0 1).
Definition demo_position : PositionParams := mkPositionParams (fl 11 32400) (fl 72 1) default_loop.
Definition demo_loop : LoopParams :=
  mkLoopParams true (fl 0 1) (fl 100 1) (fl 1 1) (fl 1 2) (db 4 100) 3.
Definition demo_position_loop : PositionParams := mkPositionParams (fl 11 32400) (fl 72 1) demo_loop.
Definition demo_sampling (max_out : Z) : SamplingParams :=
  mkSamplingParams (db 180 1) (fl 1 1000) 20 max_out (db (-1) 1).
Definition demo_stylus : StylusParams := mkStylusParams 10 false (-1) (db (-1) 1).
Definition demo_stylus_normal : StylusParams := mkStylusParams 10 true 10 (db 5 100).
Definition demo_kalman (min_stable : Z) : KalmanParams :=
  mkKalmanParams (db 1 100) (db 1 10) min_stable 20 (fl 1 100) (fl 1 2) (fl 1 10) (db 2 100)
    (mkConfidenceParams 20 (fl 4 1) (fl 6 1) (fl 20 1) (fl 2 1) (fl 1 2)).

(** Smoothing on, stroke-end prediction. *)
Definition P_end : StrokeModelParams :=
  mkParams demo_wobble demo_position (demo_sampling 100) demo_stylus PredStrokeEnd.
(** The same with smoothing off. *)
Definition P_raw : StrokeModelParams :=
  mkParams demo_no_wobble demo_position (demo_sampling 100) demo_stylus PredStrokeEnd.
(** The same with prediction disabled. *)
Definition P_off : StrokeModelParams :=
  mkParams demo_wobble demo_position (demo_sampling 100) demo_stylus PredDisabled.
(** The same with Kalman prediction. *)
Definition P_kal : StrokeModelParams :=
  mkParams demo_wobble demo_position (demo_sampling 100) demo_stylus (PredKalman (demo_kalman 4)).
(** Loop mitigation, with normal projection. *)
Definition P_loop : StrokeModelParams :=
  mkParams demo_wobble demo_position_loop (demo_sampling 100) demo_stylus_normal PredStrokeEnd.
(** At most one output per call. *)
Definition P_one : StrokeModelParams :=
  mkParams demo_no_wobble demo_position (demo_sampling 1) demo_stylus PredStrokeEnd.
(** Invalid: default-constructed. *)
Definition P_bad : StrokeModelParams := default_params.

(** An input at (x, y)/100 at time t ms with the given pressure (in percent). *)
Definition inp (e : event_type) (x y t pr : Z) : Input :=
  mkInput e (mkVec2 (fl x 100) (fl y 100)) (db t 1000) (fl pr 100) (fl 1 2) (fl 1 1).

Definition down := inp EDown 0 0 0 50.
Definition move1 := inp EMove 10 0 10 60.
Definition move2 := inp EMove 20 5 20 70.
Definition move3 := inp EMove 20 20 30 80.
Definition up := inp EUp 20 30 40 90.
Definition down2 := inp EDown 500 500 100 10.
Definition move22 := inp EMove 510 510 110 10.
Definition up2 := inp EUp 520 520 120 10.

Definition stroke : list call := [CUpdate down []; CUpdate move1 []; CUpdate move2 []; CUpdate move3 []].

(** ** Decidable observations of replies *)
Definition status_code (s : status) : Z :=
  match s with OkStatus => 0 | FailedPrecondition _ => 1 | InvalidArgument _ => 2 end.
(** Comparison of replies; NaNs equal nothing. *)
Definition result_eqb (a b : Result) : bool :=
  veqb (r_pos a) (r_pos b) && veqb (r_vel a) (r_vel b) && veqb (r_acc a) (r_acc b) &&
  deqb (r_time a) (r_time b) && feqb (r_pressure a) (r_pressure b) &&
  feqb (r_tilt a) (r_tilt b) && feqb (r_orient a) (r_orient b).
Fixpoint results_eqb (a b : list Result) : bool :=
  match a, b with
  | [], [] => true
  | x :: a', y :: b' => result_eqb x y && results_eqb a' b'
  | _, _ => false
  end.
Definition reply_eqb (a b : reply) : bool :=
  match a, b with
  | RStatus s, RStatus t => Z.eqb (status_code s) (status_code t)
  | RResults s x, RResults t y => Z.eqb (status_code s) (status_code t) && results_eqb x y
  | RVoid, RVoid => true
  | _, _ => false
  end.

(** Something holds of the replies (and the calls return). *)
Definition replies_ok (f : list reply -> bool) (o : outcome (list reply)) : bool :=
  match o with Ret rs => f rs | _ => false end.

Lemma replies_ok_ex : forall f o, replies_ok f o = true -> exists rs, o = Ret rs /\ f rs = true.
Proof. intros f [rs| |] H; try discriminate. eauto. Qed.

(** The status codes of the replies (-1 for Save/Restore). *)
Definition code (r : reply) : Z :=
  match r with RStatus s | RResults s _ => status_code s | RVoid => -1 end.
Definition count (r : reply) : Z :=
  match r with RResults _ l => Z.of_nat (List.length l) | _ => -1 end.
Definition codes (l : list Z) (rs : list reply) : bool :=
  match list_eq_dec Z.eq_dec (map code rs) l with left _ => true | right _ => false end.
Definition counts (l : list Z) (rs : list reply) : bool :=
  match list_eq_dec Z.eq_dec (map count rs) l with left _ => true | right _ => false end.

Lemma run_answers : forall (AR : Arith) fuel hist m rs,
  run fuel modeler0 hist = Ret (m, rs) -> answers fuel [] hist = Ret rs.
Proof. intros. unfold answers. cbn. rewrite H. reflexivity. Qed.

(** [after], decided by computation. *)
Definition after_check (fuel : nat) (hist : list call) (f : pstate -> bool) : bool :=
  match run fuel modeler0 hist with
  | Ret (_, rs) => f (prun pstate0 hist rs)
  | _ => false
  end.
Lemma after_check_ex : forall fuel hist f,
  after_check fuel hist f = true -> exists s, after fuel hist s /\ f s = true.
Proof.
  intros fuel hist f H. unfold after_check in H.
  destruct (run fuel modeler0 hist) as [[m rs]| |] eqn:R; try discriminate.
  exists (prun pstate0 hist rs). split; [|assumption]. exists m, rs. auto.
Qed.

Definition idle (s : pstate) : bool := negb (in_stroke s).
Definition configured (s : pstate) : bool := match ps_params s with Some _ => true | None => false end.
Definition predicting (s : pstate) : bool :=
  match ps_params s with Some p => prediction_on p | None => false end.
Definition has_save (s : pstate) : bool := match ps_saved s with Some _ => true | None => false end.

(** Two histories told apart by the boolean comparison of the replies. *)
Definition differ (o1 o2 : outcome (list reply)) (f : list reply -> bool) : bool :=
  match o1, o2 with
  | Ret r1, Ret r2 => f r1 && negb (f r2)
  | _, _ => false
  end.
Lemma differ_neq : forall o1 o2 f, differ o1 o2 f = true -> o1 <> o2.
Proof. intros [a| |] [b| |] f H E; try discriminate. inversion E; subst. cbn in H. destruct (f b); discriminate. Qed.

(** Replies to single calls. *)
Lemma codes_one : forall k rs, codes [k] rs = true -> exists r, rs = [r] /\ code r = k.
Proof.
  intros k rs H. unfold codes in H. destruct (list_eq_dec _ _ _) as [E|]; [|discriminate].
  destruct rs as [|r [|]]; try discriminate E. exists r. split; [reflexivity|]. cbn in E. congruence.
Qed.
Lemma update_reply : forall fuel h i rs k,
  replies_ok (codes [k]) (answers fuel h [CUpdate i rs]) = true ->
  exists s l, answers fuel h [CUpdate i rs] = Ret [RResults s l] /\ status_code s = k.
Proof.
  intros fuel h i rs k H. apply replies_ok_ex in H. destruct H as (r & R & C).
  apply codes_one in C. destruct C as (r1 & -> & C). rewrite R.
  apply answers1 in R. destruct R as (m & r0 & m' & r2 & _ & S & Q & _). inversion Q; subst r2.
  cbn [step] in S. destruct (update fuel m i rs) as [[[? s] l]| |]; cbn [obind] in S; try discriminate S.
  inversion S; subst. eauto.
Qed.
Lemma predict_reply : forall fuel h rs k,
  replies_ok (codes [k]) (answers fuel h [CPredict rs]) = true ->
  exists s l, answers fuel h [CPredict rs] = Ret [RResults s l] /\ status_code s = k.
Proof.
  intros fuel h rs k H. apply replies_ok_ex in H. destruct H as (r & R & C).
  apply codes_one in C. destruct C as (r1 & -> & C). rewrite R.
  apply answers1 in R. destruct R as (m & r0 & m' & r2 & _ & S & Q & _). inversion Q; subst r2.
  cbn [step] in S. destruct (predict fuel m rs) as [[[? s] l]| |]; cbn [obind] in S; try discriminate S.
  inversion S; subst. eauto.
Qed.
Lemma reset_reply : forall fuel h p k,
  replies_ok (codes [k]) (answers fuel h [CReset p]) = true ->
  exists s, answers fuel h [CReset p] = Ret [RStatus s] /\ status_code s = k.
Proof.
  intros fuel h p k H. apply replies_ok_ex in H. destruct H as (r & R & C).
  apply codes_one in C. destruct C as (r1 & -> & C). rewrite R.
  apply answers1 in R. destruct R as (m & r0 & m' & r2 & _ & S & Q & _). inversion Q; subst r2.
  cbn [step] in S. destruct (reset_params m p) as [? s]. cbn [obind] in S. inversion S; subst. eauto.
Qed.
Lemma code_error : forall s k, status_code s = k -> k <> 0 -> is_error s.
Proof. intros s k H K E. subst s. cbn in H. congruence. Qed.
Lemma code_ok : forall s, status_code s = 0 -> s = OkStatus.
Proof. intros [] H; try discriminate H; reflexivity. Qed.

(** The parameters in force after [Reset p] and calls other than Reset. *)
Lemma after_params : forall fuel p cs s,
  replies_ok (codes [0]) (answers fuel [] [CReset p]) = true ->
  no_call is_reset cs -> after fuel (CReset p :: cs) s -> ps_params s = Some p.
Proof.
  intros fuel p cs s H N (m & rs & R & PR). apply reset_reply in H. destruct H as (st & H & C).
  apply code_ok in C. subst st. apply answers1 in H. destruct H as (m0 & r0 & m1 & r1 & R0 & S & Q & _).
  cbn [run] in R0. inversion R0; subst m0 r0. inversion Q; subst r1. cbn [run] in R. rewrite S in R. cbn [obind] in R.
  destruct (run fuel m1 cs) as [[m2 rs2]| |]; cbn [obind] in R; inversion R; subst. cbn [prun pstep].
  assert (G : forall cs rs s0, no_call is_reset cs -> ps_params s0 = Some p -> ps_params (prun s0 cs rs) = Some p).
  { clear. induction cs as [|c cs IH]; intros rs s0 N E; [destruct rs; exact E|].
    destruct rs as [|r rs]; [exact E|]. unfold no_call in *. cbn in N. apply andb_prop in N. destruct N as [N1 N2].
    cbn [prun]. apply IH; [exact N2|]. apply negb_true_iff in N1.
    destruct c; try discriminate N1; cbn; try exact E; destruct r as [?|[] ?|]; try exact E; destruct (ps_saved s0); exact E. }
  apply G; [exact N|reflexivity].
Qed.

(** Only [vm_compute] may evaluate the literals. *)
#[global] Opaque flit dlit b32 b64.
