(** * internal/stylus_state_modeler.h/.cc *)
From Verif Require Export Loop.

Section Stylus.
Context {A : Arith}.

(** stylus_state_modeler.h:90-98 ModelerState. *)
Record SState : Type := mkSState {
  s_unk_pressure : bool;
  s_unk_tilt : bool;
  s_unk_orient : bool;
  s_raw : list Result          (* raw_input_and_stylus_states, front first *)
}.

(** stylus_state_modeler.h:100-110. *)
Record Stylus : Type := mkStylus {
  sm_state : SState;
  sm_saved : SState;
  sm_save_active : bool;
  sm_params : StylusParams
}.

Definition sstate0 : SState := mkSState false false false [].
Definition stylus0 : Stylus := mkStylus sstate0 sstate0 false default_stylus.

(** [deque.size() > int]: the int is converted to size_t (a negative value
    becomes at least 2^63, never exceeded by a size). *)
Definition size_gt {X : Type} (l : list X) (k : Z) : bool :=
  if Z.ltb k 0 then false else Z.ltb k (Z.of_nat (List.length l)).

(** stylus_state_modeler.cc:31-47 ShouldDropOldestInput. *)
Definition should_drop (p : StylusParams) (raw : list Result) : outcome bool :=
  if sy_normal p then
    if size_gt raw (sy_min_samples p) then
      match back raw, nth_error raw 1 with
      | Some b, Some s1 => Ret (dltb (sy_min_duration p) (dsub (r_time b) (r_time s1)))
      | None, _ => UB UB_empty_deque
      | _, None => UB UB_index
      end
    else Ret false
  else Ret (size_gt raw (sy_max_samples p)).

(** stylus_state_modeler.cc:94-96, the while loop: each iteration pops the front. *)
Fixpoint stylus_trim (p : StylusParams) (raw : list Result) : outcome (list Result) :=
  let* drop := should_drop p raw in
  if drop : bool then
    match raw with
    | [] => UB UB_empty_deque
    | _ :: rest => stylus_trim p rest
    end
  else Ret raw.

(** "negative or NaN" (stylus_state_modeler.cc:55, 58, 61). *)
Definition unknown_value (x : F) : bool := fltb x f0 || fisnan x.

(** stylus_state_modeler.cc:51-97 StylusStateModeler::Update. *)
Definition stylus_update (m : Stylus) (position : Vec2) (time : D) (pressure tilt orient : F)
  : outcome Stylus :=
  let st := sm_state m in
  let up := s_unk_pressure st || unknown_value pressure in
  let ut := s_unk_tilt st || unknown_value tilt in
  let uo := s_unk_orient st || unknown_value orient in
  if negb (sy_normal (sm_params m)) && up && ut && uo then
    Ret (mkStylus (mkSState up ut uo []) (sm_saved m) (sm_save_active m) (sm_params m))
  else
    let '(vel, acc) :=
      match back (s_raw st) with
      | Some b =>
          if negb (deqb time (r_time b)) then
            let dt := d2f (dsub time (r_time b)) in
            let v := vdiv (vsub position (r_pos b)) dt in
            (v, vdiv (vsub v (r_vel b)) dt)
          else (vzero, vzero)
      | None => (vzero, vzero)
      end in
    let* raw := stylus_trim (sm_params m)
                  (s_raw st ++ [mkResult position vel acc time pressure tilt orient]) in
    Ret (mkStylus (mkSState up ut uo raw) (sm_saved m) (sm_save_active m) (sm_params m)).

(** stylus_state_modeler.cc:99-106 Reset. *)
Definition stylus_reset (m : Stylus) (params : StylusParams) : Stylus :=
  mkStylus sstate0 (sm_saved m) false params.

(** stylus_state_modeler.cc:111-114 RawInputProjection, with the two segment
    endpoints instead of the index (the index is only used to fetch them,
    stylus_state_modeler.cc:228-231; it is always in range). *)
Record Projection : Type := mkProj { pj_a : Result; pj_b : Result; pj_ratio : F }.

(** The pair (best_projection, best_distance); [None] is (nullopt, +infinity). *)
Definition best : Type := option (Projection * F).

(** stylus_state_modeler.cc:127-135 maybe_update_projection: [distance < best_distance]. *)
Definition maybe_update (c : Projection) (d : F) (b : best) : best :=
  match b with
  | None => if fltinf d then Some (c, d) else None
  | Some (_, bd) => if fltb d bd then Some (c, d) else b
  end.

(** stylus_state_modeler.cc:137-162, one iteration per polyline segment;
    accumulators are the best left and best right candidates. *)
Fixpoint project_normal_loop (position normal : Vec2) (raw : list Result) (l r : best) : best * best :=
  match raw with
  | a :: ((b :: _) as rest) =>
      match project_to_segment_along_normal (r_pos a) (r_pos b) position normal with
      | None => project_normal_loop position normal rest l r
      | Some ratio =>
          let projection := interp_v (r_pos a) (r_pos b) ratio in
          let d := distance position projection in
          let c := mkProj a b ratio in
          if fltb (vdot (vsub projection position) normal) f0 then
            project_normal_loop position normal rest l (maybe_update c d r)
          else
            project_normal_loop position normal rest (maybe_update c d l) r
      end
  | _ => (l, r)
  end.

(** stylus_state_modeler.cc:116-179 ProjectAlongStrokeNormal. *)
Definition project_along_normal (position acceleration normal : Vec2) (raw : list Result)
  : option Projection :=
  match project_normal_loop position normal raw None None with
  | (Some (l, _), Some (r, _)) => if fltb f0 (vdot normal acceleration) then Some r else Some l
  | (None, Some (r, _)) => Some r
  | (Some (l, _), None) => Some l
  | (None, None) => None
  end.

(** stylus_state_modeler.cc:185-199: [distance <= min_distance], so that a later
    segment wins a tie. *)
Fixpoint project_closest_loop (position : Vec2) (raw : list Result) (b : best) : best :=
  match raw with
  | s1 :: ((s2 :: _) as rest) =>
      let ratio := nearest_point_on_segment (r_pos s1) (r_pos s2) position in
      let d := distance position (interp_v (r_pos s1) (r_pos s2) ratio) in
      let take := match b with None => fleinf d | Some (_, bd) => fleb d bd end in
      project_closest_loop position rest (if take then Some (mkProj s1 s2 ratio, d) else b)
  | _ => b
  end.

(** stylus_state_modeler.cc:181-201 ProjectToClosestPoint. *)
Definition project_to_closest (position : Vec2) (raw : list Result) : option Projection :=
  option_map fst (project_closest_loop position raw None).

Definition result_no_info : Result := mkResult vzero vzero vzero d0 fm1 fm1 fm1.

(** stylus_state_modeler.cc:205-257 Query. *)
Definition stylus_query (fuel : nat) (m : Stylus) (tip : TipState) (normal : option Vec2)
  : outcome Result :=
  let st := sm_state m in
  match s_raw st with
  | [] => Ret result_no_info
  | front :: _ =>
      let projection :=
        match (if sy_normal (sm_params m) then normal else None) with
        | Some n => project_along_normal (t_pos tip) (t_acc tip) n (s_raw st)
        | None => project_to_closest (t_pos tip) (s_raw st)
        end in
      let* res :=
        match projection with
        | Some p => interp_result fuel (pj_a p) (pj_b p) (pj_ratio p)
        | None =>
            match back (s_raw st) with
            | None => UB UB_empty_deque
            | Some b =>
                if fltb (distance (r_pos front) (t_pos tip)) (distance (r_pos b) (t_pos tip))
                then Ret front else Ret b
            end
        end in
      Ret (mkResult (r_pos res) (r_vel res) (r_acc res) (t_time tip)
             (if s_unk_pressure st then fm1 else r_pressure res)
             (if s_unk_tilt st then fm1 else r_tilt res)
             (if s_unk_orient st then fm1 else r_orient res))
  end.

(** stylus_state_modeler.cc:259-262 Save, 264-268 Restore. *)
Definition stylus_save (m : Stylus) : Stylus :=
  mkStylus (sm_state m) (sm_state m) true (sm_params m).
Definition stylus_restore (m : Stylus) : Stylus :=
  if sm_save_active m then mkStylus (sm_saved m) (sm_saved m) (sm_save_active m) (sm_params m) else m.

End Stylus.
