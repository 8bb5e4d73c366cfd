(** * C26, C27, C28, C39, C46: concrete cases and counterexamples. *)
From Coq Require Import ZArith Bool List Lia String.
From Flocq Require Import IEEE754.BinarySingleNaN.
From Coq Require Import Floats.SpecFloat.
From Verif Require Export Examples_A Props_Range.
Import ListNotations.
Open Scope Z_scope.

(** [after_clean] and the inputs of the stroke, by computation. *)
Lemma after_clean_check : forall fuel hist f k,
  no_call is_restore hist ->
  (match run fuel modeler0 hist with
   | Ret (_, rs) => f (prun pstate0 hist rs) && Nat.eqb (List.length (si_cur (srun sinputs0 hist rs))) k
   | _ => false end) = true ->
  exists s is, after_clean fuel hist s is /\ f s = true /\ List.length is = k.
Proof.
  intros fuel hist f k N H. destruct (run fuel modeler0 hist) as [[m rs]| |] eqn:R; try discriminate H.
  apply andb_prop in H. destruct H as [H1 H2]. apply Nat.eqb_eq in H2.
  exists (prun pstate0 hist rs), (map fst (si_cur (srun sinputs0 hist rs))). rewrite map_length. split; [|auto].
  exists m, rs. repeat (split; [assumption || reflexivity|]). apply clean_no_restore. exact N.
Qed.

(** C26: a stroke whose second input has a negative pressure and NaN tilt. *)
Definition move_unknown : Input :=
  mkInput EMove (mkVec2 (fl 10 100) (fl 0 1)) (db 10 1000) (fl (-1) 2) B754_nan (fl 1 1).
Definition H_unknown : list call := [CReset P_end; CUpdate down []; CUpdate move_unknown []].
Example C26_example :
  (exists s is, after_clean 5 H_unknown s is /\ in_stroke s = true /\ List.length is = 2%nat) /\
  replies_ok (fun rs => match rs with
    | [RResults OkStatus l] => negb (Nat.eqb (List.length l) 0) &&
        forallb (fun r => feqb (r_pressure r) fm1 && feqb (r_tilt r) fm1 && negb (feqb (r_orient r) fm1)) l
    | _ => false end) (answers 5 H_unknown [CUpdate move2 []]) = true /\
  replies_ok (fun rs => match rs with
    | [RResults OkStatus l] => negb (Nat.eqb (List.length l) 0) &&
        forallb (fun r => feqb (r_pressure r) fm1 && feqb (r_tilt r) fm1 && negb (feqb (r_orient r) fm1)) l
    | _ => false end) (answers 5 H_unknown [CPredict []]) = true.
Proof.
  split; [apply after_clean_check; [reflexivity|compute_true]|]. split; compute_true.
Qed.

(** C39: Kalman prediction with min_stable_iteration 4, after 3 and 4 inputs. *)
Definition H_kal3 : list call := CReset P_kal :: firstn 3 stroke.
Definition H_kal4 : list call := CReset P_kal :: stroke.
Example C39_example :
  (exists s is, after_clean 5 H_kal3 s is /\ in_stroke s = true /\ List.length is = 3%nat) /\
  (exists s is, after_clean 5 H_kal4 s is /\ in_stroke s = true /\ List.length is = 4%nat) /\
  replies_ok (fun rs => codes [0] rs && counts [0] rs) (answers 5 H_kal3 [CPredict []]) = true /\
  replies_ok (fun rs => codes [0] rs && negb (counts [0] rs)) (answers 5 H_kal4 [CPredict []]) = true.
Proof.
  split; [apply after_clean_check; [reflexivity|compute_true]|].
  split; [apply after_clean_check; [reflexivity|compute_true]|]. split; compute_true.
Qed.

(** C27, C28: an ordinary stroke meets the hypotheses (mitigation off), and has
    results with pressures and orientations that are not constant. *)
Example C27_example :
  replies_ok (codes [0]) (answers 5 [CReset P_end] [CUpdate down []]) = true /\
  (fleb f0 (i_pressure down) && fleb (i_pressure down) f1 && fleb f0 (i_pressure move1) && fleb (i_pressure move1) f1 &&
   fleb f0 (i_pressure move2) && fleb (i_pressure move2) f1) = true /\
  lp_enabled (pp_loop (p_position P_end)) = false /\
  replies_ok (fun rs => codes [0] rs && negb (counts [0] rs))
    (answers 5 ([CReset P_end] ++ CUpdate down [] :: [CUpdate move1 []]) [CUpdate move2 []]) = true /\
  replies_ok (fun rs => codes [0] rs && negb (counts [0] rs))
    (answers 5 ([CReset P_end] ++ CUpdate down [] :: [CUpdate move1 []]) [CPredict []]) = true.
Proof. split; [compute_true|]. split; [compute_true|]. split; [reflexivity|]. split; compute_true. Qed.

(** With loop mitigation on, an input 2^-200 s after the Down makes a later
    pressure (and orientation) NaN, although every input is in range. *)
Definition move_tiny : Input :=
  mkInput EMove (mkVec2 (fl 10 100) (fl 5 100)) (b64 1 (-200)) (fl 1 2) (fl 1 2) (fl 1 1).
Definition H_tiny : list call := [CReset P_loop] ++ CUpdate down [] :: [CUpdate move_tiny []; CUpdate move1 []].
Definition tiny_ok (i : Input) : bool :=
  fleb f0 (i_pressure i) && fleb (i_pressure i) f1 && fleb f0 (i_orient i) && fleb (i_orient i) f1.

Definition has_nan (f : Result -> F) (l : list Result) : bool := existsb (fun r => fisnan (f r)) l.

Lemma nan_update : forall f h i k,
  replies_ok (fun rs => match rs with [RResults OkStatus l] => has_nan f l | _ => false end) (answers k h [CUpdate i []]) = true ->
  exists out, answers k h [CUpdate i []] = Ret [RResults OkStatus out] /\ Exists (fun r => fisnan (f r) = true) out.
Proof.
  intros f h i k H. apply replies_ok_ex in H. destruct H as (rs & R & H).
  destruct rs as [|[|s l|] [|]]; try discriminate H; destruct s; try discriminate H.
  exists l. split; [exact R|]. unfold has_nan in H. apply existsb_exists in H. destruct H as (x & I1 & I2).
  apply Exists_exists. eauto.
Qed.

Theorem C27_mitigation_refuted : exists h0 d mid i out,
  i_event d = EDown /\ Forall (fun i => tiny_ok i = true) [d; i] /\
  Forall (call_ok (fun i => tiny_ok i = true)) mid /\ i_event i = EMove /\
  answers 5 (h0 ++ CUpdate d [] :: mid) [CUpdate i []] = Ret [RResults OkStatus out] /\
  Exists (fun r => fisnan (r_pressure r) = true) out.
Proof.
  destruct (nan_update r_pressure ([CReset P_loop] ++ CUpdate down [] :: [CUpdate move_tiny []; CUpdate move1 []]) move2 5 ltac:(compute_true)) as (out & R & E).
  exists [CReset P_loop], down, [CUpdate move_tiny []; CUpdate move1 []], move2, out.
  split; [reflexivity|]. split; [repeat constructor; compute_true|]. split; [repeat constructor; cbn [call_ok]; compute_true|].
  split; [reflexivity|]. split; [exact R|exact E].
Qed.
Theorem C28_mitigation_refuted : exists h0 d mid i out,
  i_event d = EDown /\ Forall (fun i => tiny_ok i = true) [d; i] /\
  Forall (call_ok (fun i => tiny_ok i = true)) mid /\ i_event i = EMove /\
  answers 5 (h0 ++ CUpdate d [] :: mid) [CUpdate i []] = Ret [RResults OkStatus out] /\
  Exists (fun r => fisnan (r_orient r) = true) out.
Proof.
  destruct (nan_update r_orient ([CReset P_loop] ++ CUpdate down [] :: [CUpdate move_tiny []; CUpdate move1 []]) move2 5 ltac:(compute_true)) as (out & R & E).
  exists [CReset P_loop], down, [CUpdate move_tiny []; CUpdate move1 []], move2, out.
  split; [reflexivity|]. split; [repeat constructor; compute_true|]. split; [repeat constructor; cbn [call_ok]; compute_true|].
  split; [reflexivity|]. split; [exact R|exact E].
Qed.

(** ** C46: a huge orientation makes the angle normalisation loop forever *)
Section Huge.
Context {A : Arith}.
Variable X : F.
Variable fuel : nat.
Hypothesis X_pos : fltb X f0 = false.
Hypothesis X_div : norm_down fuel X = Diverge.

Lemma huge_interp : forall a b v, r_orient a = X -> r_orient b = X -> interp_result fuel a b v = Diverge.
Proof.
  intros a b v EA EB. unfold interp_result. rewrite EA, EB, X_pos. cbn [orb].
  unfold interp_angle, normalize_angle.
  assert (U : norm_up fuel X = Ret X) by (destruct fuel; cbn [norm_up]; rewrite X_pos; reflexivity).
  rewrite U. cbn [obind]. rewrite X_div. reflexivity.
Qed.

Lemma huge_model : forall sm tips lm t, tips <> [] -> s_raw (sm_state sm) <> [] ->
  s_unk_orient (sm_state sm) = false -> Forall (fun r => r_orient r = X) (s_raw (sm_state sm)) ->
  model_stylus fuel tips sm lm t = Diverge.
Proof.
  intros sm [|tip tips] lm t NT NR UO FA; [congruence|]. unfold model_stylus. cbn [model_stylus_loop].
  rewrite Forall_forall in FA.
  destruct (query_eq fuel sm tip (get_stroke_normal tip t)) as [[E _]|(_ & o & Q & C)]; [congruence|].
  rewrite Q. destruct C as [(p & EP & ->)|(EP & r & IR & ->)].
  - pose proof (query_projection_in sm tip _ p EP) as [I1 I2].
    rewrite (huge_interp _ _ _ (FA _ I1) (FA _ I2)). reflexivity.
  - cbn [obind]. rewrite huge_interp; [reflexivity| |]; unfold with_flags, make_result; cbn [r_orient]; rewrite UO; apply FA, IR.
Qed.

(** The state in which a Move makes [model_stylus] run on such inputs. *)
Definition huge_ready (eqX : F -> bool) (m : Modeler) (i : Input) : bool :=
  match m_params m, m_last m with
  | Some p, Some last =>
      match validate_input i, i_event i with
      | OkStatus, EMove =>
          negb (input_eqb (li_input last) i) && negb (dltb (i_time i) (i_time (li_input last))) &&
          match wobble_update (m_wobble m) (i_pos i) (i_time i) with
          | Ret (w, cc) =>
              match stylus_update (m_stylus m) cc (i_time i) (i_pressure i) (i_tilt i) (i_orient i),
                    number_of_steps (pm_state (m_pos m)) (li_input last) i (p_sampling p) (p_position p) with
              | Ret sm, Ret (IOk n) =>
                  match update_along_path (pm_params (m_pos m)) (pm_state (m_pos m))
                          (li_corrected last) (i_time (li_input last)) cc (i_time i) n,
                        match m_predictor m with
                        | None => Ret None
                        | Some pr => let* pr' := pred_update pr cc (i_time i) in Ret (Some pr')
                        end with
                  | Ret (tip, t0 :: tips), Ret _ =>
                      negb (s_unk_orient (sm_state sm)) && forallb (fun r => eqX (r_orient r)) (s_raw (sm_state sm)) &&
                      match s_raw (sm_state sm) with [] => false | _ => true end
                  | _, _ => false
                  end
              | _, _ => false
              end
          | _ => false
          end
      | _, _ => false
      end
  | _, _ => false
  end.

Lemma huge_update : forall eqX m i rs, (forall y, eqX y = true -> y = X) -> huge_ready eqX m i = true ->
  update fuel m i rs = Diverge.
Proof.
  intros eqX m i rs EX H. unfold huge_ready in H. unfold update.
  destruct (m_params m) as [p|]; [|discriminate H]. destruct (m_last m) as [last|] eqn:ML; [|discriminate H].
  destruct (validate_input i); try discriminate H. destruct (i_event i); try discriminate H.
  apply andb_prop in H. destruct H as [H H2]. apply andb_prop in H. destruct H as [H H1].
  apply negb_true_iff in H, H1. rewrite H, H1. unfold process_move. rewrite ML.
  destruct (wobble_update (m_wobble m) (i_pos i) (i_time i)) as [[w cc]| |]; try discriminate H2. cbn [obind].
  destruct (stylus_update _ _ _ _ _ _) as [sm| |]; try discriminate H2. cbn [obind].
  destruct (number_of_steps _ _ _ _ _) as [[n|]| |]; try discriminate H2. cbn [obind].
  destruct (update_along_path _ _ _ _ _ _ _) as [[tip [|t0 tips]]| |]; try discriminate H2. cbn [obind].
  match type of H2 with match ?x with _ => _ end = _ => destruct x end; try discriminate H2. cbn [obind].
  apply andb_prop in H2. destruct H2 as [H2 H3]. apply andb_prop in H2. destruct H2 as [H2 H4].
  apply negb_true_iff in H2. rewrite forallb_forall in H4.
  rewrite huge_model; [reflexivity|discriminate| |exact H2|].
  - intros E. rewrite E in H3. discriminate H3.
  - apply Forall_forall. intros y I. apply EX, H4, I.
Qed.
End Huge.

Definition huge_orient : F := fl (10 ^ 30) 1.
Definition down_huge : Input := mkInput EDown (mkVec2 (fl 0 1) (fl 0 1)) (db 0 1) (fl 1 2) (fl 1 2) huge_orient.
Definition move_huge : Input := mkInput EMove (mkVec2 (fl 10 100) (fl 0 1)) (db 10 1000) (fl 1 2) (fl 1 2) huge_orient.

Lemma huge_fix : d2f (dsub (f2d huge_orient) twoPi) = huge_orient.
Proof. apply B2SF_inj. vm_compute. reflexivity. Qed.
Lemma huge_norm : forall fuel, norm_down fuel huge_orient = Diverge.
Proof.
  assert (G : dltb twoPi (f2d huge_orient) = true) by (vm_compute; reflexivity).
  induction fuel as [|n IH]; cbn [norm_down]; rewrite G; [reflexivity|]. rewrite huge_fix. exact IH.
Qed.
Definition sf_eqb (a b : spec_float) : bool :=
  match a, b with
  | S754_finite s m e, S754_finite s' m' e' => Bool.eqb s s' && Pos.eqb m m' && Z.eqb e e'
  | _, _ => false
  end.
Lemma sf_eqb_eq : forall a b, sf_eqb a b = true -> a = b.
Proof.
  intros [| | |s m e] [| | |s' m' e'] H; try discriminate H. cbn [sf_eqb] in H.
  apply andb_prop in H. destruct H as [H H3]. apply andb_prop in H. destruct H as [H H2].
  apply Bool.eqb_prop in H. apply Pos.eqb_eq in H2. apply Z.eqb_eq in H3. subst. reflexivity.
Qed.
Definition is_huge (y : F) : bool := sf_eqb (B2SF y) (B2SF huge_orient).
Lemma is_huge_eq : forall y, is_huge y = true -> y = huge_orient.
Proof. intros y H. apply B2SF_inj, sf_eqb_eq, H. Qed.

Definition H_huge : list call := [CReset P_raw; CUpdate down_huge []; CUpdate move_huge []].
Lemma huge_start : forall fuel,
  match run fuel modeler0 [CReset P_raw; CUpdate down_huge []] with
  | Ret (m, _) => huge_ready is_huge m move_huge
  | _ => false
  end = true.
Proof. intros fuel. vm_compute. reflexivity. Qed.

(** However many iterations are allowed, the third call does not return. *)
Theorem C46_huge_orientation_refuted : exists p d i, i_event d = EDown /\ i_event i = EMove /\
  is_finite (i_orient d) = true /\ is_finite (i_orient i) = true /\
  forall fuel, returns (answers fuel [] [CReset p; CUpdate d []]) /\
               answers fuel [] [CReset p; CUpdate d []; CUpdate i []] = Diverge.
Proof.
  exists P_raw, down_huge, move_huge. do 4 (split; [compute_true|]). intros fuel.
  pose proof (huge_start fuel) as H.
  destruct (run fuel modeler0 [CReset P_raw; CUpdate down_huge []]) as [[m rs]| |] eqn:R; try discriminate H.
  split; [exists rs|].
  - eapply run_answers. exact R.
  - change [CReset P_raw; CUpdate down_huge []; CUpdate move_huge []] with ([CReset P_raw; CUpdate down_huge []] ++ [CUpdate move_huge []]).
    unfold answers. cbn [run obind]. rewrite run_app, R. cbn [obind run step].
    rewrite (huge_update huge_orient fuel ltac:(vm_compute; reflexivity) (huge_norm fuel) is_huge m move_huge [] is_huge_eq H). reflexivity.
Qed.

(** C49: finite inputs, NaN velocity in a result (loop mitigation off). *)
Definition finite_input (i : Input) : bool :=
  is_finite (vx (i_pos i)) && is_finite (vy (i_pos i)) && is_finite (i_time i) &&
  is_finite (i_pressure i) && is_finite (i_tilt i) && is_finite (i_orient i).
Theorem C49_finite_refuted : exists p d i1 i2 out,
  Forall (fun i => finite_input i = true) [d; i1; i2] /\
  answers 5 [CReset p; CUpdate d []; CUpdate i1 []] [CUpdate i2 []] = Ret [RResults OkStatus out] /\
  Exists (fun r => fisnan (vx (r_vel r)) = true) out.
Proof.
  destruct (nan_update (fun r => vx (r_vel r)) [CReset P_raw; CUpdate down []; CUpdate move_tiny []] move1 5 ltac:(compute_true)) as (out & R & E).
  exists P_raw, down, move_tiny, move1, out. split; [repeat constructor; compute_true|]. split; [exact R|exact E].
Qed.
