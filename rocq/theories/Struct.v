(** * Control- and data-flow facts about the model, for every arithmetic. *)
From Verif Require Export Spec.
From Coq Require Import Lia.

Lemma obind_ret : forall {X Y} (m : outcome X) (f : X -> outcome Y) y,
  obind m f = Ret y -> exists x, m = Ret x /\ f x = Ret y.
Proof. intros X Y [x| |] f y H; simpl in H; try discriminate. eauto. Qed.

Lemma obind_assoc : forall {X Y Z} (m : outcome X) (f : X -> outcome Y) (g : Y -> outcome Z),
  obind (obind m f) g = obind m (fun x => obind (f x) g).
Proof. intros. destruct m; reflexivity. Qed.

Lemma obind_ext : forall {X Y} (m : outcome X) (f g : X -> outcome Y),
  (forall x, f x = g x) -> obind m f = obind m g.
Proof. intros. destruct m; simpl; auto. Qed.

Section Struct.
Context {A : Arith}.

(** ** Components ignore their saved copies *)

(** The modeler with the same live state, an empty buffer and nothing saved. *)
Definition inject_w (w : Wobble) : Wobble := mkWobble (w_state w) wstate0 false (w_params w).
Definition inject_s (s : Stylus) : Stylus := mkStylus (sm_state s) sstate0 false (sm_params s).
Definition inject_l (l : LoopModeler) : LoopModeler := mkLoop (l_samples l) [] false (l_params l).
Definition inject_p (p : PosModeler) : PosModeler := mkPos (pm_params p) (pm_state p) None.
Definition inject (m : Modeler) : Modeler :=
  mkModeler (m_predictor m) (m_params m) (inject_w (m_wobble m)) (inject_p (m_pos m))
    (inject_s (m_stylus m)) (inject_l (m_loop m)) [] (m_last m) None None false.

Definition graft_w (w w' : Wobble) : Wobble := mkWobble (w_state w') (w_saved w) (w_save_active w) (w_params w').
Definition graft_s (s s' : Stylus) : Stylus := mkStylus (sm_state s') (sm_saved s) (sm_save_active s) (sm_params s').
Definition graft_l (l l' : LoopModeler) : LoopModeler := mkLoop (l_samples l') (l_saved l) (l_save_active l) (l_params l').
Definition graft_p (p p' : PosModeler) : PosModeler := mkPos (pm_params p') (pm_state p') (pm_saved p).

Lemma wobble_update_inject : forall w pos t,
  wobble_update w pos t =
  let* '(w', c) := wobble_update (inject_w w) pos t in Ret (graft_w w w', c).
Proof.
  intros [st sv ac p] pos t. unfold wobble_update, inject_w, graft_w; cbn [w_params w_state w_saved w_save_active].
  destruct (wp_enabled p); cbn [negb]; [| reflexivity].
  destruct (back (w_samples st)); [| reflexivity].
  destruct (wobble_trim _ _ _ _ _) as [st'| |]; cbn [obind]; try reflexivity.
  destruct (feqb (w_tsum st') f0); reflexivity.
Qed.

Lemma stylus_update_inject : forall s pos t pr ti o,
  stylus_update s pos t pr ti o =
  let* s' := stylus_update (inject_s s) pos t pr ti o in Ret (graft_s s s').
Proof.
  intros [st sv ac p] pos t pr ti o. unfold stylus_update, inject_s, graft_s; cbn [sm_params sm_state sm_saved sm_save_active].
  destruct (negb (sy_normal p) && _ && _ && _); [reflexivity|].
  destruct (match back (s_raw st) with Some _ => _ | None => _ end) as [v a].
  destruct (stylus_trim _ _); reflexivity.
Qed.

Lemma stylus_query_inject : forall fuel s tip n,
  stylus_query fuel s tip n = stylus_query fuel (inject_s s) tip n.
Proof. reflexivity. Qed.

Lemma loop_update_inject : forall l v t,
  loop_update l v t = (let '(l', x) := loop_update (inject_l l) v t in (graft_l l l', x)).
Proof.
  intros [sa sv ac p] v t. unfold loop_update, inject_l, graft_l, loop_get; cbn [l_params l_samples l_saved l_save_active].
  destruct (lp_enabled p); reflexivity.
Qed.

Lemma graft_l_inject : forall l l', graft_l l (inject_l l') = graft_l l l'.
Proof. reflexivity. Qed.

Lemma inject_l_graft : forall l l', inject_l (graft_l l l') = inject_l l'.
Proof. reflexivity. Qed.

Lemma graft_l_graft : forall a b c, graft_l (graft_l a b) c = graft_l a c.
Proof. reflexivity. Qed.

Lemma model_stylus_loop_inject : forall fuel tips sm lm x pt,
  model_stylus_loop fuel tips sm lm x pt =
  let* '(lm', out) := model_stylus_loop fuel tips (inject_s sm) (inject_l lm) x pt in
  Ret (graft_l lm lm', out).
Proof.
  intros fuel tips. induction tips as [|tip rest IH]; intros sm lm x pt.
  - destruct lm; reflexivity.
  - cbn [model_stylus_loop]. rewrite <- stylus_query_inject.
    destruct (stylus_query _ _ _ _) as [pj| |]; cbn [obind]; try reflexivity.
    destruct (interp_result _ _ _ _) as [res| |]; cbn [obind]; try reflexivity.
    rewrite loop_update_inject.
    destruct (loop_update (inject_l lm) (r_vel res) (t_time tip)) as [lm1 v1] eqn:E1.
    rewrite (IH sm (graft_l lm lm1)), (IH (inject_s sm) lm1).
    change (inject_s (inject_s sm)) with (inject_s sm).
    rewrite inject_l_graft.
    destruct (model_stylus_loop fuel rest (inject_s sm) (inject_l lm1) v1 (t_time tip)) as [[lm2 out]| |];
      cbn [obind]; reflexivity.
Qed.

Lemma model_stylus_inject : forall fuel tips sm lm pt,
  model_stylus fuel tips sm lm pt =
  let* '(lm', out) := model_stylus fuel tips (inject_s sm) (inject_l lm) pt in
  Ret (graft_l lm lm', out).
Proof. intros. unfold model_stylus. rewrite model_stylus_loop_inject. reflexivity. Qed.

(** Putting the live state of [m'] into [m]. [down]: a Down event was accepted,
    which deactivates the components' saved copies; [buf]: the buffer was used. *)
Definition graft (down buf : bool) (m m' : Modeler) : Modeler :=
  mkModeler (m_predictor m') (m_params m')
    (if down then mkWobble (w_state (m_wobble m')) (w_saved (m_wobble m)) false (w_params (m_wobble m'))
     else graft_w (m_wobble m) (m_wobble m'))
    (if down then mkPos (pm_params (m_pos m')) (pm_state (m_pos m')) None
     else graft_p (m_pos m) (m_pos m'))
    (if down then mkStylus (sm_state (m_stylus m')) (sm_saved (m_stylus m)) false (sm_params (m_stylus m'))
     else graft_s (m_stylus m) (m_stylus m'))
    (if down then mkLoop (l_samples (m_loop m')) (l_saved (m_loop m)) false (l_params (m_loop m'))
     else graft_l (m_loop m) (m_loop m'))
    (if buf then m_buffer m' else m_buffer m)
    (m_last m') (m_saved_predictor m) (m_saved_last m) (m_save_active m).

Definition ev_is_down (i : Input) : bool := match i_event i with EDown => true | _ => false end.
Definition down_of (i : Input) (s : status) : bool := status_ok s && ev_is_down i.
Definition buf_of (i : Input) (s : status) : bool := status_ok s && negb (ev_is_down i).

Lemma graft_self : forall m, graft false false m m = m.
Proof.
  intros [a b [c1 c2 c3 c4] [d1 d2 d3] [e1 e2 e3 e4] [f1 f2 f3 f4] g h i j k]. reflexivity.
Qed.
Lemma graft_inject : forall m, graft false false m (inject m) = m.
Proof.
  intros [a b [c1 c2 c3 c4] [d1 d2 d3] [e1 e2 e3 e4] [f1 f2 f3 f4] g h i j k]. reflexivity.
Qed.
Lemma graft_inject_r : forall d m m', graft d false m (inject m') = graft d false m m'.
Proof. intros [] m m'; reflexivity. Qed.

Lemma validate_event : forall i e, validate_input i = OkStatus -> i_event i = EOther e -> False.
Proof. intros i e H E. unfold validate_input in H. rewrite E in H. discriminate. Qed.

(** Everything an Update does, as a function of the live state alone. *)
Theorem update_inject : forall fuel m i rs,
  update fuel m i rs =
  let* '(m', s, out) := update fuel (inject m) i [] in
  Ret (graft (down_of i s) (buf_of i s) m m', s, rs ++ out).
Proof.
  intros fuel m i rs. unfold update.
  change (m_params (inject m)) with (m_params m). change (m_last (inject m)) with (m_last m).
  destruct (m_params m) as [p|]; [| cbn; rewrite app_nil_r, graft_inject; reflexivity].
  destruct (validate_input i) eqn:V; try (cbn; rewrite app_nil_r, graft_inject; reflexivity).
  assert (D :
    match i_event i with
    | EDown => process_down m p i rs
    | EMove => process_move fuel m p i rs
    | EUp => process_up fuel m p i rs
    | EOther _ => Ret (m, InvalidArgument msg_event, rs)
    end =
    (let* '(m', s, out) :=
      match i_event i with
      | EDown => process_down (inject m) p i []
      | EMove => process_move fuel (inject m) p i []
      | EUp => process_up fuel (inject m) p i []
      | EOther _ => Ret (inject m, InvalidArgument msg_event, [])
      end in
    Ret (graft (down_of i s) (buf_of i s) m m', s, rs ++ out))).
  { unfold down_of, buf_of, ev_is_down. destruct (i_event i) eqn:EV.
    - (* Down *)
      unfold process_down. change (m_last (inject m)) with (m_last m).
      destruct (m_last m) as [l|]; [ cbn; rewrite app_nil_r, graft_inject; reflexivity |].
      change (m_predictor (inject m)) with (m_predictor m).
      rewrite stylus_update_inject.
      rewrite (stylus_update_inject (stylus_reset (m_stylus (inject m)) (p_stylus p))).
      change (inject_s (stylus_reset (m_stylus (inject m)) (p_stylus p)))
        with (inject_s (stylus_reset (m_stylus m) (p_stylus p))).
      destruct (stylus_update _ _ _ _ _ _) as [s'| |]; cbn [obind]; try reflexivity.
      destruct (match m_predictor m with None => _ | Some _ => _ end) as [pr| |]; reflexivity.
    - (* Move *)
      unfold process_move. change (m_last (inject m)) with (m_last m).
      destruct (m_last m) as [l|]; [| cbn; rewrite app_nil_r, graft_inject; reflexivity].
      change (m_predictor (inject m)) with (m_predictor m).
      change (m_wobble (inject m)) with (inject_w (m_wobble m)).
      change (m_stylus (inject m)) with (inject_s (m_stylus m)).
      change (m_loop (inject m)) with (inject_l (m_loop m)).
      change (pm_state (m_pos (inject m))) with (pm_state (m_pos m)).
      change (pm_params (m_pos (inject m))) with (pm_params (m_pos m)).
      rewrite wobble_update_inject.
      destruct (wobble_update (inject_w (m_wobble m)) (i_pos i) (i_time i)) as [[w' c]| |]; cbn [obind]; try reflexivity.
      rewrite stylus_update_inject.
      destruct (stylus_update (inject_s (m_stylus m)) _ _ _ _ _) as [s'| |]; cbn [obind]; try reflexivity.
      destruct (number_of_steps _ _ _ _ _) as [[n|e]| |] eqn:NS; cbn [obind]; try reflexivity.
      + destruct (update_along_path _ _ _ _ _ _ _) as [[tip tips]| |]; cbn [obind]; try reflexivity.
        destruct (match m_predictor m with None => _ | Some _ => _ end) as [pr| |]; cbn [obind]; try reflexivity.
        rewrite (model_stylus_inject fuel tips (graft_s (m_stylus m) s') (m_loop m)).
        change (inject_s (graft_s (m_stylus m) s')) with (inject_s s').
        rewrite (model_stylus_inject fuel tips s' (inject_l (m_loop m))).
        change (inject_l (inject_l (m_loop m))) with (inject_l (m_loop m)).
        destruct (model_stylus fuel tips (inject_s s') (inject_l (m_loop m)) (i_time i)) as [[lm out]| |];
          reflexivity.
      + assert (status_ok e = false).
        { unfold number_of_steps, to_int in NS.
          repeat match type of NS with
          | match ?x with _ => _ end = _ => destruct x
          | (if ?x then _ else _) = _ => destruct x
          | _ => discriminate
          | Ret _ = Ret _ => inversion NS; subst; reflexivity
          end. }
        rewrite H. cbn. rewrite app_nil_r. unfold graft. cbn.
        destruct (m_pos m), (m_loop m). reflexivity.
    - (* Up *)
      unfold process_up. change (m_last (inject m)) with (m_last m).
      destruct (m_last m) as [l|]; [| cbn; rewrite app_nil_r, graft_inject; reflexivity].
      change (m_predictor (inject m)) with (m_predictor m).
      change (m_wobble (inject m)) with (inject_w (m_wobble m)).
      change (m_stylus (inject m)) with (inject_s (m_stylus m)).
      change (m_loop (inject m)) with (inject_l (m_loop m)).
      change (pm_state (m_pos (inject m))) with (pm_state (m_pos m)).
      change (pm_params (m_pos (inject m))) with (pm_params (m_pos m)).
      destruct (number_of_steps _ _ _ _ _) as [[n|e]| |] eqn:NS; cbn [obind]; try reflexivity.
      + destruct (update_along_path _ _ _ _ _ _ _) as [[tip tips]| |]; cbn [obind]; try reflexivity.
        destruct (model_end_of_stroke _ _ _ _ _ _) as [tip2 tips2].
        rewrite stylus_update_inject.
        destruct (stylus_update (inject_s (m_stylus m)) _ _ _ _ _) as [s'| |]; cbn [obind]; try reflexivity.
        rewrite (model_stylus_inject fuel _ (graft_s (m_stylus m) s') (m_loop m)).
        change (inject_s (graft_s (m_stylus m) s')) with (inject_s s').
        rewrite (model_stylus_inject fuel _ s' (inject_l (m_loop m))).
        change (inject_l (inject_l (m_loop m))) with (inject_l (m_loop m)).
        destruct (model_stylus fuel _ (inject_s s') (inject_l (m_loop m)) _) as [[lm out]| |];
          cbn; try reflexivity.
        unfold graft, graft_w. cbn. destruct (m_wobble m). reflexivity.
      + assert (status_ok e = false).
        { unfold number_of_steps, to_int in NS.
          repeat match type of NS with
          | match ?x with _ => _ end = _ => destruct x
          | (if ?x then _ else _) = _ => destruct x
          | _ => discriminate
          | Ret _ = Ret _ => inversion NS; subst; reflexivity
          end. }
        rewrite H. cbn. rewrite app_nil_r, graft_inject. reflexivity.
    - exfalso. eapply validate_event; eauto. }
  destruct (m_last m) as [l|]; [| exact D].
  destruct (input_eqb _ _); [cbn; rewrite app_nil_r, graft_inject; reflexivity|].
  destruct (dltb _ _); [cbn; rewrite app_nil_r, graft_inject; reflexivity|].
  exact D.
Qed.

End Struct.
