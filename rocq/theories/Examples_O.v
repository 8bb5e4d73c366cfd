(** * Concrete cases of the theorems about the limits on the output. *)
From Coq Require Import ZArith Bool List Lia String.
From Flocq Require Import Core.Core IEEE754.BinarySingleNaN.
From Verif Require Import Limits Longer Unpredicted Flt FloatFacts.
From Verif Require Export Examples_E.
Import ListNotations.
Open Scope Z_scope.
#[local] Existing Instance demo_arith.

(** ** C55 *)
Definition L_hist : list call := E_hist ++ [CSave; CPredict []; CUpdate E_next []; CRestore; CUpdate E_up []].
Definition too_far_check (r : reply) : bool :=
  match r with RResults (InvalidArgument m) _ => String.eqb m msg_too_far | _ => false end.
Definition adds_check (K : Z) (c : call) (r : reply) : bool :=
  match c, r with
  | CUpdate _ before, RResults _ after => Z.leb (Z.of_nat (List.length after)) (Z.of_nat (List.length before) + K)
  | _, _ => true
  end.
Fixpoint all_adds (K : Z) (cs : list call) (rs : list reply) : bool :=
  match cs, rs with
  | [], [] => true
  | c :: cs', r :: rs' => adds_check K c r && all_adds K cs' rs'
  | _, _ => false
  end.
Lemma too_far_checked : forall r, too_far_check r = false -> ~ too_far r.
Proof. intros [s|[|m|m] out|] H T; cbn in *; try contradiction. subst. rewrite String.eqb_refl in H. discriminate H. Qed.
Lemma adds_checked : forall K cs rs, all_adds K cs rs = true -> Forall2 (adds_at_most K) cs rs.
Proof.
  intros K. induction cs as [|c cs IH]; intros [|r rs] H; cbn in H; try discriminate H; constructor; apply andb_prop in H; destruct H as [H1 H2]; [|apply IH; exact H2].
  unfold adds_at_most. destruct c; try exact I. destruct r; try exact I. cbn in H1. apply Z.leb_le. exact H1.
Qed.
Definition L_check (K : Z) : bool :=
  match answers 5 [] L_hist with Ret rs => forallb (fun r => negb (too_far_check r)) rs && all_adds K L_hist rs | _ => false end.
(** The limit of 100 may be lowered to 60 (no Update adds more) or raised, but not
    lowered to 2. *)
Example C55_example : exists rs, answers 5 [] L_hist = Ret rs /\ (forall r, In r rs -> ~ too_far r) /\ Forall2 (adds_at_most 60) L_hist rs /\
  (forall p, In (CReset p) L_hist -> sp_max_outputs (p_sampling p) = 100) /\
  match answers 5 [] (map (allowing 2) L_hist) with Ret rs2 => existsb too_far_check rs2 | _ => false end = true.
Proof.
  assert (C : L_check 60 = true) by compute_true. unfold L_check in C.
  destruct (answers 5 [] L_hist) as [rs| |]; try discriminate C. apply andb_prop in C. destruct C as [C1 C2]. exists rs.
  split; [reflexivity|]. split; [intros r I1; apply too_far_checked; rewrite forallb_forall in C1; specialize (C1 r I1); destruct (too_far_check r); [discriminate C1|reflexivity]|].
  split; [apply adds_checked; exact C2|]. split; [|compute_true].
  intros p I1. cbn in I1. repeat (destruct I1 as [E|I1]; [try discriminate E; injection E as <-; reflexivity|]). contradiction.
Qed.

(** ** C56 *)
Definition O_hist : list call := map (ending_with 3 (fl 1 100)) (E_hist ++ [CSave; CUpdate E_next []; CRestore]).
Definition O_check (c : call) : bool :=
  match answers 5 O_hist [c], answers 5 (map (ending_with 20 (fl 1 1000)) O_hist) [c] with
  | Ret [RResults OkStatus out], Ret [RResults OkStatus out'] => Nat.ltb 2 (List.length out) && Nat.ltb (List.length out) (List.length out')
  | _, _ => false
  end.
(** With 20 iterations and a distance of 1/1000 instead of 3 and 1/100 the Up and the
    prediction are longer. *)
Example C56_example : Forall goes_on O_hist /\
  (forall p, In (CReset p) O_hist -> ends_sooner 20 (fl 1 1000) (p_sampling p) /\ validate_params (with_end 20 (fl 1 1000) p) = validate_params p) /\
  O_check (CUpdate E_up []) = true /\ O_check (CPredict []) = true.
Proof.
  split; [repeat constructor; discriminate|]. split; [|split; compute_true].
  intros p I1. cbn in I1. repeat (destruct I1 as [E|I1]; [try discriminate E; injection E as <-|]); [|contradiction].
  split; [|vm_compute; reflexivity]. apply C56_float_ends_sooner; [cbn; lia|reflexivity|reflexivity|].
  assert (H : Bleb (fl 1 1000 : float32) (fl 1 100 : float32) = true) by (vm_compute; reflexivity).
  apply (leb_R 24 128) in H; [exact H|reflexivity|reflexivity].
Qed.

(** ** C57 *)
Definition with_kalman (c : call) : call :=
  match c with CReset p => CReset (mkParams (p_wobble p) (p_position p) (p_sampling p) (p_stylus p) (PredKalman (demo_kalman 3))) | _ => c end.
Definition K_check : bool :=
  match answers 5 [] L_hist, answers 5 [] (map with_kalman L_hist) with
  | Ret [_; _; _; _; _; RResults OkStatus out; _; _; _], Ret [_; _; _; _; _; RResults OkStatus out'; _; _; _] => negb (Nat.eqb (List.length out) (List.length out'))
  | _, _ => false
  end.
(** Stroke-end and Kalman prediction: the predictions differ. *)
Example C57_example : Forall2 call_but_prediction L_hist (map with_kalman L_hist) /\ K_check = true.
Proof.
  split; [|compute_true]. unfold L_hist, E_hist. cbn [app map with_kalman].
  repeat constructor.
Qed.
