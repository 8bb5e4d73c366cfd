(** * internal/wobble_smoother.h, internal/wobble_smoother.cc *)
From Verif Require Export Utils.

Section Wobble.
Context {A : Arith}.

(** wobble_smoother.h:50-56 WobbleSmoother::Sample. *)
Record WSample : Type := mkWSample {
  ws_pos : Vec2;
  ws_wpos : Vec2;        (* weighted_position *)
  ws_dist : F;
  ws_dur : D;
  ws_time : D
}.

(** wobble_smoother.h:58-63 WobbleSmoother::State; the deque is a list, front first. *)
Record WState : Type := mkWState {
  w_samples : list WSample;
  w_wsum : Vec2;         (* weighted_position_sum *)
  w_dsum : F;            (* distance_sum *)
  w_tsum : F             (* duration_sum (a float) *)
}.

(** wobble_smoother.h:65-74. *)
Record Wobble : Type := mkWobble {
  w_state : WState;
  w_saved : WState;
  w_save_active : bool;
  w_params : WobbleParams
}.

Definition wstate0 : WState := mkWState [] vzero f0 f0.
Definition wobble0 : Wobble := mkWobble wstate0 wstate0 false default_wobble.

(** wobble_smoother.cc:24-35 WobbleSmoother::Reset. *)
Definition wobble_reset (w : Wobble) (params : WobbleParams) (position : Vec2) (time : D) : Wobble :=
  mkWobble
    (mkWState [mkWSample position vzero f0 d0 time] vzero f0 f0)
    (w_saved w) false params.

(** deque::back() on a list. *)
Definition back {X : Type} (l : list X) : option X := nth_error l (Nat.pred (List.length l)).

(** wobble_smoother.cc:55-60, the while loop; structural on the deque: every
    iteration pops the front. *)
Fixpoint wobble_trim (samples : list WSample) (wsum : Vec2) (dsum tsum : F) (limit : D)
  : outcome WState :=
  match samples with
  | [] => UB UB_empty_deque
  | s :: rest =>
      if dltb (ws_time s) limit then
        wobble_trim rest (vsub wsum (ws_wpos s)) (fsub dsum (ws_dist s))
          (d2f (dsub (f2d tsum) (ws_dur s))) limit
      else Ret (mkWState samples wsum dsum tsum)
  end.

(** wobble_smoother.cc:37-77 WobbleSmoother::Update. *)
Definition wobble_update (w : Wobble) (position : Vec2) (time : D) : outcome (Wobble * Vec2) :=
  if negb (wp_enabled (w_params w)) then Ret (w, position)
  else
    match back (w_samples (w_state w)) with
    | None => UB UB_empty_deque
    | Some last =>
        let delta := dsub time (ws_time last) in
        let s := mkWSample position (vscale (d2f delta) position)
                   (distance position (ws_pos last)) delta time in
        let st := w_state w in
        let* st' :=
          wobble_trim (w_samples st ++ [s]) (vadd (w_wsum st) (ws_wpos s))
            (fadd (w_dsum st) (ws_dist s))
            (d2f (dadd (f2d (w_tsum st)) (ws_dur s)))
            (dsub time (wp_timeout (w_params w))) in
        let w' := mkWobble st' (w_saved w) (w_save_active w) (w_params w) in
        if feqb (w_tsum st') f0 then Ret (w', position)
        else
          let avg_position := vdiv (w_wsum st') (w_tsum st') in
          let avg_speed := fdiv (w_dsum st') (w_tsum st') in
          Ret (w', interp_v avg_position position
                     (normalize01 (wp_floor (w_params w)) (wp_ceiling (w_params w)) avg_speed))
    end.

(** wobble_smoother.cc:79-82 Save, 84-86 Restore. *)
Definition wobble_save (w : Wobble) : Wobble :=
  mkWobble (w_state w) (w_state w) true (w_params w).
Definition wobble_restore (w : Wobble) : Wobble :=
  if w_save_active w then mkWobble (w_saved w) (w_saved w) (w_save_active w) (w_params w) else w.

End Wobble.
