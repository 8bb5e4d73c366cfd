(** * Concrete cases of the C34 theorems in binary32/binary64. *)
From Coq Require Import ZArith Bool List Reals Lra Lia.
From Flocq Require Import Core.Core IEEE754.BinarySingleNaN.
From Verif Require Import Props_FProj Props_FCarry Props_FLoop Calm.
From Verif Require Export Examples_N Examples_K.
Import ListNotations.
Open Scope Z_scope.
#[local] Existing Instance demo_arith.
Transparent b32 b64.

(** ** C34 *)
Definition E_params : StrokeModelParams := mkParams demo_no_wobble demo_position_loop (demo_sampling 100) demo_stylus_normal PredStrokeEnd.
Definition E_hist : list call := [CReset E_params; CUpdate down []; CUpdate move1 []; CUpdate move2 []].
Definition E_next : Input := inp EMove 20 25 40 60.
Definition E_up : Input := inp EUp 20 25 40 60.
Definition box_check (u : Vec2) : bool :=
  is_finite (vx u : float32) && is_finite (vy u : float32) && Bleb (vx u : float32) (b32 1 2) && Bleb (b32 (-1) 2) (vx u : float32) && Bleb (vy u : float32) (b32 1 2) && Bleb (b32 (-1) 2) (vy u : float32).
Lemma box_ok : forall u, box_check u = true -> Props_FProj.within (acosf := fun x => x) 4 u.
Proof.
  intros u H. unfold box_check in H. repeat (apply andb_prop in H; destruct H as [H ?]).
  assert (E1 : B2R (b32 1 2) = 4%R) by (vm_compute; lra). assert (E2 : B2R (b32 (-1) 2) = (-4)%R) by (vm_compute; lra).
  apply (leb_R 24 128) in H0; [|reflexivity|assumption]. apply (leb_R 24 128) in H1; [|assumption|reflexivity].
  apply (leb_R 24 128) in H2; [|reflexivity|assumption]. apply (leb_R 24 128) in H3; [|assumption|reflexivity].
  rewrite E1 in *. rewrite E2 in *. unfold Props_FProj.within, Props_FSpring.real32. split; [exact H|]. split; [assumption|]. split; apply Rabs_le; split; assumption.
Qed.
(** The results with and without mitigation, all in the box; the positions differ
    somewhere. *)
Definition E_check (a b : outcome (list reply)) : bool :=
  match a, b with
  | Ret [RResults OkStatus out], Ret [RResults OkStatus hs] =>
      Nat.leb 2 (List.length out) && (forallb (fun r => box_check (r_pos r)) (out ++ hs) &&
      existsb (fun hr => negb (Beqb (vx (r_pos (fst hr)) : float32) (vx (r_pos (snd hr)) : float32))) (combine hs out))
  | _, _ => false end.
Example C34_float_example : exists s es seen, after_seen 5 E_hist s es seen /\ ps_params s = Some E_params /\
  wp_enabled (p_wobble E_params) = false /\ lp_enabled (pp_loop (p_position E_params)) = true /\ after_down es <> [] /\
  (forall i, In i (seen ++ [E_next; E_up]) -> Props_FProj.within (acosf := fun x => x) 4 (i_pos i)) /\
  E_check (answers 5 E_hist [CUpdate E_next []]) (answers 5 (map unmitigated E_hist) [CUpdate E_next []]) = true /\
  E_check (answers 5 E_hist [CUpdate E_up []]) (answers 5 (map unmitigated E_hist) [CUpdate E_up []]) = true /\
  E_check (answers 5 E_hist [CPredict []]) (answers 5 (map unmitigated E_hist) [CPredict []]) = true.
Proof.
  destruct (after_seen_check 5 E_hist (fun s es seen => forallb (fun i => box_check (i_pos i)) (seen ++ [E_next; E_up]) && negb (Nat.eqb (List.length (after_down (acosf := fun x => x) es)) 0))) as (s & es & seen & AS & H); [reflexivity|compute_true|].
  apply andb_prop in H. destruct H as [H H2]. exists s, es, seen. split; [exact AS|]. split.
  { assert (AF : after 5 E_hist s) by (destruct AS as (m & rs & R & P & _); exists m, rs; auto). revert AF. apply after_params; [compute_true|reflexivity]. }
  split; [reflexivity|]. split; [reflexivity|]. split; [intros E; rewrite E in H2; discriminate H2|]. split.
  { intros i I1. apply box_ok. rewrite forallb_forall in H. exact (H i I1). }
  split; [compute_true|]. split; compute_true.
Qed.

(** C34_float_strength: the parameters above meet its hypotheses, and a slow and a fast
    speed have different strengths. *)
Example C34_float_strength_example : validate_params E_params = OkStatus /\
  (let lp := pp_loop (p_position E_params) in lp_enabled lp = true /\
   is_finite (lp_speed_lower lp : float32) && is_finite (lp_speed_upper lp : float32) && is_finite (lp_strength_lower lp : float32) && is_finite (lp_strength_upper lp : float32) = true /\
   Bltb (lp_speed_lower lp : float32) (lp_speed_upper lp : float32) = true /\
   Bltb (strength32 (acosf := fun x => x) lp (lp_speed_upper lp)) (strength32 (acosf := fun x => x) lp (lp_speed_lower lp)) = true).
Proof. repeat split; compute_true. Qed.
