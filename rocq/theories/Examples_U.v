(** * C22 and C50 in binary32/binary64, the number of results: concrete cases. *)
From Coq Require Import ZArith Bool List Lia String Reals Lra.
From Flocq Require Import Core.Core IEEE754.BinarySingleNaN.
From Verif Require Export Examples_G Props_FCount.
Import ListNotations.
Open Scope Z_scope.
#[local] Existing Instance demo_arith.

(** C22: a Move 20 ms after the last one, at 180 Hz: four results. *)
Definition next_drawn : Input := plain EMove 4 6 40.
Example C22_float_count_example : exists (i0 : Input) (out : list Result) x, List.length out = 4%nat /\
  nearly_periods (real64 (sp_rate (p_sampling P_raw))) (real64 (i_time i0)) (real64 (i_time next_drawn)) x /\ 4 = Zceil x.
Proof.
  destruct (after_stroke_check 5 H_drawn (fun s es => match ps_last s with Some _ => true | None => false end)) as (s & es & AS & C); [reflexivity|compute_true|].
  destruct (ps_last s) as [i0|] eqn:L; [|discriminate C].
  destruct (some_results (answers 5 H_drawn [CUpdate next_drawn []]) (fun l => Nat.eqb (List.length l) 4)) as (out & AN & O); [compute_true|]. apply Nat.eqb_eq in O.
  assert (AF : after 5 H_drawn s) by (destruct AS as (ma & rsa & Ra & Pa & _); exists ma, rsa; auto).
  pose proof (after_params 5 P_raw _ s ltac:(compute_true) (eq_refl : no_call is_reset (tl H_drawn)) AF) as PP.
  assert (MA : real64 (sp_max_angle (p_sampling P_raw)) = (-1)%R).
  { transitivity (B2R (@B754_finite 53 1024 true 4503599627370496 (-52) eq_refl)); [unfold real64; apply (f_equal (@B2R 53 1024)); apply (@B2SF_inj 53 1024); vm_compute; reflexivity|]. unfold B2R, F2R. cbn. lra. }
  destruct (C22_float_move_exact_count (fun x => x) 5 H_drawn s P_raw i0 next_drawn [] out AF PP L eq_refl MA ltac:(reflexivity) AN) as (x & NP & LE).
  exists i0, out, x. split; [exact O|]. split; [exact NP|]. transitivity (Z.of_nat (List.length out)); [rewrite O; reflexivity|exact LE].
Qed.

(** C50: the same with an angle limit: more results than sampling periods. *)
Definition P_angle : StrokeModelParams :=
  mkParams demo_no_wobble demo_position (mkSamplingParams (db 180 1) (fl 1 1000) 20 100 (db 1 10)) demo_stylus PredStrokeEnd.
Definition H_angle : list call := CReset P_angle :: map (fun i => CUpdate i []) [plain EDown 0 0 0; plain EMove 1 7 10; plain EMove 3 5 20].
Example C50_float_example : exists (i0 : Input) prev (out : list Result) u v th x y, List.length out = 10%nat /\
  same_numbers u (r_vel prev) /\ float_estimated (p_position P_angle) prev i0 next_drawn v /\ absolute_angle_to u v = Some th /\
  nearly_periods (real64 (sp_rate (p_sampling P_angle))) (real64 (i_time i0)) (real64 (i_time next_drawn)) x /\
  nearly_turns (real64 (sp_max_angle (p_sampling P_angle))) (real32 th) y /\ 10 = Z.max (Zceil x) (Zceil y).
Proof.
  destruct (after_stroke_check 5 H_angle (fun s es => plain_first es && forallb motion_finite (List.concat (map snd es)) &&
    match back (List.concat (map snd es)) with Some _ => true | None => false end && match ps_last s with Some _ => true | None => false end))
    as (s & es & AS & C); [reflexivity|compute_true|].
  apply andb_prop in C. destruct C as [C C4]. apply andb_prop in C. destruct C as [C C3]. apply andb_prop in C. destruct C as [C1 C2].
  destruct (ps_last s) as [i0|] eqn:L; [|discriminate C4]. destruct (back (List.concat (map snd es))) as [prev|] eqn:BK; [|discriminate C3].
  destruct (some_results (answers 5 H_angle [CUpdate next_drawn []]) (fun l => Nat.eqb (List.length l) 10)) as (out & AN & O); [compute_true|]. apply Nat.eqb_eq in O.
  assert (AF : after 5 H_angle s) by (destruct AS as (ma & rsa & Ra & Pa & _); exists ma, rsa; auto).
  pose proof (after_params 5 P_angle _ s ltac:(compute_true) (eq_refl : no_call is_reset (tl H_angle)) AF) as PP.
  assert (MA : (0 < real64 (sp_max_angle (p_sampling P_angle)))%R).
  { apply (ltb_R 53 1024 (B754_zero false)); [reflexivity|compute_true|compute_true]. }
  destruct (C50_float_exact_count (fun x => x) 5 H_angle s P_angle i0 next_drawn [] out es prev AS PP L eq_refl eq_refl eq_refl (plain_first_true _ C1) BK (motion_finite_true _ C2) MA ltac:(reflexivity) AN)
    as (u & v & th & x & y & K1 & K2 & K3 & K4 & K5 & K6).
  exists i0, prev, out, u, v, th, x, y. split; [exact O|]. do 5 (split; [assumption|]). transitivity (Z.of_nat (List.length out)); [rewrite O; reflexivity|exact K6].
Qed.
