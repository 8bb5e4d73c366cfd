(** * internal/loop_contraction_mitigation_modeler.h/.cc *)
From Verif Require Export Position.

Section Loop.
Context {A : Arith}.

(** loop_contraction_mitigation_modeler.h:35-38. *)
Record SpeedSample : Type := mkSpeed { ss_speed : F; ss_time : D }.

(** loop_contraction_mitigation_modeler.h:39-48. *)
Record LoopModeler : Type := mkLoop {
  l_samples : list SpeedSample;
  l_saved : list SpeedSample;
  l_save_active : bool;
  l_params : LoopParams
}.
Definition loop0 : LoopModeler := mkLoop [] [] false default_loop.

(** loop_contraction_mitigation_modeler.cc:10-17 Reset. *)
Definition loop_reset (m : LoopModeler) (params : LoopParams) : LoopModeler :=
  mkLoop [] (l_saved m) false params.

(** loop_contraction_mitigation_modeler.cc:22-26, the average of the stored speeds. *)
Definition average_speed (samples : list SpeedSample) : F :=
  fdiv (fold_left (fun sum s => fadd sum (ss_speed s)) samples f0)
       (fofZ (Z.of_nat (List.length samples))).

(** loop_contraction_mitigation_modeler.cc:19-33 GetInterpolationValue. *)
Definition loop_value (p : LoopParams) (samples : list SpeedSample) : F :=
  match samples with
  | [] => f1
  | _ =>
      if negb (lp_enabled p) then f1
      else
        interp_f (lp_strength_lower p) (lp_strength_upper p)
          (clamp01 (inverse_lerp (lp_speed_lower p) (lp_speed_upper p) (average_speed samples)))
  end.
Definition loop_get (m : LoopModeler) : F := loop_value (l_params m) (l_samples m).

(** loop_contraction_mitigation_modeler.cc:40-46, the while loop; [bt] is the
    time of the back of the deque, which popping the front does not change. *)
Fixpoint loop_trim (p : LoopParams) (bt : D) (samples : list SpeedSample) : list SpeedSample :=
  match samples with
  | [] => []
  | s :: rest =>
      if dltb (lp_window p) (dsub bt (ss_time s)) &&
         Z.ltb (lp_min_samples p) (Z.of_nat (List.length samples))
      then loop_trim p bt rest
      else samples
  end.

(** loop_contraction_mitigation_modeler.cc:35-48 Update. *)
Definition loop_update (m : LoopModeler) (velocity : Vec2) (time : D) : LoopModeler * F :=
  if negb (lp_enabled (l_params m)) then (m, f1)
  else
    let samples := loop_trim (l_params m) time
                     (l_samples m ++ [mkSpeed (magnitude velocity) time]) in
    let m' := mkLoop samples (l_saved m) (l_save_active m) (l_params m) in
    (m', loop_get m').

(** loop_contraction_mitigation_modeler.cc:50-53 Save, 55-57 Restore. *)
Definition loop_save (m : LoopModeler) : LoopModeler :=
  mkLoop (l_samples m) (l_samples m) true (l_params m).
Definition loop_restore (m : LoopModeler) : LoopModeler :=
  if l_save_active m then mkLoop (l_saved m) (l_saved m) (l_save_active m) (l_params m) else m.

End Loop.
