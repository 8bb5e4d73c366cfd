(** * What the modeler remembers of a stroke: the states of the smoother, of the
      stylus history, of the speed history and of the predictor, as functions of the
      inputs and results of the stroke; for every arithmetic. *)
From Verif Require Export Stroke.
From Coq Require Import Lia.

Section Memory.
Context {A : Arith}.
Variable fuel : nat.

(** ** The components, without their saved states *)
Definition wstep (wp : WobbleParams) (st : WState) (pos : Vec2) (t : D) : outcome (WState * Vec2) :=
  let* '(w, c) := wobble_update (mkWobble st wstate0 false wp) pos t in Ret (w_state w, c).
Lemma wobble_wstep : forall w pos t w' c, wobble_update w pos t = Ret (w', c) ->
  wstep (w_params w) (w_state w) pos t = Ret (w_state w', c).
Proof.
  intros w pos t w' c H. unfold wstep, wobble_update in *. cbn [w_params w_state].
  destruct (negb (wp_enabled (w_params w))); [inversion H; reflexivity|].
  destruct (back (w_samples (w_state w))) as [lst|]; [|discriminate H]. cbv zeta in *. bind_inv H. cbn [obind w_save_active w_saved].
  destruct (feqb (w_tsum x) f0); inversion H; reflexivity.
Qed.
Definition wstart (pos : Vec2) (t : D) : WState := mkWState [mkWSample pos vzero f0 d0 t] vzero f0 f0.

Definition mstep (sy : StylusParams) (st : SState) (i : Input) (c : Vec2) : outcome SState :=
  let* s := stylus_update (mkStylus st sstate0 false sy) c (i_time i) (i_pressure i) (i_tilt i) (i_orient i) in
  Ret (sm_state s).
Lemma stylus_mstep : forall sm c i sm',
  stylus_update sm c (i_time i) (i_pressure i) (i_tilt i) (i_orient i) = Ret sm' ->
  mstep (sm_params sm) (sm_state sm) i c = Ret (sm_state sm').
Proof.
  intros sm c i sm' H. unfold mstep, stylus_update in *. cbn [sm_params sm_state].
  destruct (negb (sy_normal (sm_params sm)) && _ && _ && _); [inversion H; reflexivity|].
  destruct (match back (s_raw (sm_state sm)) with Some _ => _ | None => _ end) as [v a].
  bind_inv H. inversion H; reflexivity.
Qed.

(** ** Histories of the components *)
(** Smoothed positions [cs] of the inputs seen, first the Down. *)
Inductive smoothing (wp : WobbleParams) : list Input -> list Vec2 -> WState -> Prop :=
| Sm_down d : smoothing wp [d] [i_pos d] (wstart (i_pos d) (i_time d))
| Sm_move l cs st i c st' : smoothing wp l cs st -> wstep wp st (i_pos i) (i_time i) = Ret (st', c) ->
    smoothing wp (l ++ [i]) (cs ++ [c]) st'.
Lemma smoothing_length : forall wp l cs st, smoothing wp l cs st -> List.length cs = List.length l.
Proof. intros wp l cs st H. induction H; [reflexivity|]. rewrite !app_length. cbn. lia. Qed.

Inductive remembering (sy : StylusParams) : list (Input * Vec2) -> SState -> Prop :=
| Re_nil : remembering sy [] sstate0
| Re_more l st i c st' : remembering sy l st -> mstep sy st i c = Ret st' -> remembering sy (l ++ [(i, c)]) st'.

Inductive predicting (p : StrokeModelParams) : list (Input * Vec2) -> option Predictor -> Prop :=
| Pr_nil : predicting p [] (make_predictor p)
| Pr_more l pr i c pr' : predicting p l pr -> upd_pred pr c (i_time i) = Ret pr' -> predicting p (l ++ [(i, c)]) pr'.

Inductive subseq {X : Type} : list X -> list X -> Prop :=
| sub_nil : subseq [] []
| sub_skip l1 l2 x : subseq l1 l2 -> subseq l1 (l2 ++ [x])
| sub_take l1 l2 x : subseq l1 l2 -> subseq (l1 ++ [x]) (l2 ++ [x]).
Lemma subseq_length : forall {X} (l1 l2 : list X), subseq l1 l2 -> (List.length l1 <= List.length l2)%nat.
Proof. intros X l1 l2 H. induction H; rewrite ?app_length; cbn; lia. Qed.
Lemma subseq_all : forall {X} (l1 l2 : list X), subseq l1 l2 -> List.length l1 = List.length l2 -> l1 = l2.
Proof.
  intros X l1 l2 H. induction H; intros L; rewrite ?app_length in L; cbn in L; [reflexivity| |].
  - apply subseq_length in H. lia.
  - f_equal. apply IHsubseq. lia.
Qed.
Lemma subseq_in : forall {X} (l1 l2 : list X) x, subseq l1 l2 -> In x l1 -> In x l2.
Proof.
  intros X l1 l2 x H. induction H; intros I1; [exact I1| |].
  - apply in_or_app. left. auto.
  - apply in_app_or in I1. apply in_or_app. destruct I1 as [I1|I1]; auto.
Qed.

Lemma combine_snoc : forall {X Y} (l : list X) (l2 : list Y) x y, List.length l = List.length l2 ->
  combine (l ++ [x]) (l2 ++ [y]) = combine l l2 ++ [(x, y)].
Proof. intros X Y l. induction l as [|a l IH]; intros [|b l2] x y H; try discriminate; [reflexivity|]. cbn in *. f_equal. apply IH. lia. Qed.

Definition results_of (es : list (entry (A := A))) : list Result := List.concat (map snd es).

(** [cs]: the smoothed positions of the inputs seen; [ws]: those of the accepted
    inputs. *)
Record remembered (p : StrokeModelParams) (es : list entry) (seen : list Input) (c : core)
    (cs ws : list Vec2) : Prop := mkRem {
  rem_smooth : smoothing (p_wobble p) seen cs (co_w c);
  rem_stylus : remembering (p_stylus p) (combine seen cs) (co_s c);
  rem_len : List.length ws = List.length es;
  rem_sub : subseq (combine (map fst es) ws) (combine seen cs);
  rem_last : exists es0 ws0 out, es = es0 ++ [(li_input (co_last c), out)] /\ ws = ws0 ++ [li_corrected (co_last c)];
  rem_pred : prediction_on p = true -> predicting p (combine (map fst es) ws) (co_pred c)
}.


Lemma rem_step_down : forall p m i m' out, m_params m = Some p -> good m ->
  upd fuel m i m' OkStatus out -> i_event i = EDown ->
  out = [down_result i] /\ remembered p [(i, out)] [i] (core_of p m' (mkLast i (i_pos i))) [i_pos i] [i_pos i].
Proof.
  intros p m i m' out MP G U EV. destruct (upd_down fuel m i m' out U EV) as (q & sm & pred & MQ & _ & _ & SU & UP & -> & ->).
  rewrite MP in MQ. injection MQ as <-. split; [reflexivity|].
  constructor; cbn [core_of co_w co_s co_last co_pred m_wobble m_stylus m_predictor].
  + apply Sm_down.
  + apply (Re_more _ [] sstate0 i (i_pos i) _ (Re_nil _)). apply (stylus_mstep _ _ _ _ SU).
  + reflexivity.
  + apply (sub_take [] [] (i, i_pos i) sub_nil).
  + exists [], [], [down_result i]. split; reflexivity.
  + intros O. rewrite O. apply (Pr_more p [] (make_predictor p) i (i_pos i) pred (Pr_nil p)).
    destruct (g_on _ G p MP O) as [K _]. rewrite <- K. exact UP.
Qed.

Lemma rem_step_move : forall p m i m' out es seen lst last' cs ws,
  comp_params p m -> m_params m = Some p -> m_last m = Some lst -> remembered p es seen (core_of p m lst) cs ws ->
  upd fuel m i m' OkStatus out -> i_event i = EMove -> m_last m' = Some last' ->
  remembered p (es ++ [(i, out)]) (seen ++ [i]) (core_of p m' last')
    (cs ++ [li_corrected last']) (ws ++ [li_corrected last']).
Proof.
  intros p m i m' out es0 seen0 lst last' cs ws CP MP ML [H1 H2 H3 H4 (e0 & w0 & o0 & H5 & H6) H7] U EV ML'.
  destruct (upd_move fuel m i m' out U EV) as (q & last0 & w & c & sm & n & tip & tips & pred & lm & MQ & _ & ML0 & DL & WU & SU & NS & UA & UP & MS & ->).
  cbn in ML'. injection ML' as <-. pose proof (smoothing_length _ _ _ _ H1) as LC.
  destruct CP as (CP1 & _ & CP3 & _). cbn [core_of co_w co_s co_last co_pred m_wobble m_stylus m_predictor li_input li_corrected] in *.
  constructor; cbn [core_of co_w co_s co_last co_pred m_wobble m_stylus m_predictor li_input li_corrected].
  + eapply Sm_move; [exact H1|]. rewrite <- CP1. apply wobble_wstep. exact WU.
  + rewrite combine_snoc by congruence. eapply Re_more; [exact H2|]. rewrite <- CP3. apply stylus_mstep. exact SU.
  + rewrite !app_length. cbn. lia.
  + rewrite map_app. cbn [map fst]. rewrite !combine_snoc by (rewrite ?map_length; congruence). apply sub_take. exact H4.
  + exists es0, ws, out. split; reflexivity.
  + intros O. specialize (H7 O). rewrite O in *. rewrite map_app. cbn [map fst].
    rewrite combine_snoc by (rewrite ?map_length; congruence). eapply Pr_more; [exact H7|exact UP].
Qed.

(** A rejected input leaves everything alone, or is a Move that was only smoothed
    and remembered. *)
Lemma rem_step_reject : forall p m i m' st out es seen lst cs ws,
  comp_params p m -> m_params m = Some p -> m_last m = Some lst -> remembered p es seen (core_of p m lst) cs ws ->
  upd fuel m i m' st out -> st <> OkStatus ->
  exists cs', remembered p es (if traced i st then seen ++ [i] else seen) (core_of p m' lst) cs' ws.
Proof.
  intros p m i m' out st es0 seen0 lst cs ws CP MP ML [H1 H2 H3 H4 H5 H7] U NE.
  inversion U; subst; try congruence.
  + rewrite H0. exists cs. constructor; assumption.
  + pose proof (smoothing_length _ _ _ _ H1) as LC. destruct CP as (CP1 & _ & CP3 & _).
    rewrite ML in H8. injection H8 as <-.
    rewrite (number_of_steps_traced _ _ _ _ _ _ i H6 H13).
    cbn [core_of co_w co_s co_last co_pred m_wobble m_stylus m_predictor li_input li_corrected] in *.
    exists (cs ++ [c]). constructor; cbn [core_of co_w co_s co_last co_pred m_wobble m_stylus m_predictor li_input li_corrected]; try assumption.
    * eapply Sm_move; [exact H1|]. rewrite <- CP1. apply wobble_wstep. assumption.
    * rewrite combine_snoc by congruence. eapply Re_more; [exact H2|]. rewrite <- CP3. apply stylus_mstep. assumption.
    * rewrite combine_snoc by congruence. apply sub_skip. assumption.
Qed.

Lemma remembered_state : forall hist s es seen, after_seen fuel hist s es seen ->
  exists m rs, run fuel modeler0 hist = Ret (m, rs) /\ tracks s m /\ good m /\ cons m /\
    (forall p last, m_params m = Some p -> m_last m = Some last ->
       exists cs ws, remembered p es seen (core_of p m last) cs ws).
Proof.
  intros hist s es seen AS.
  refine (after_seen_state fuel (fun _ => True) (fun p es seen c => exists cs ws, remembered p es seen c cs ws) _ _ _ hist s es seen AS (call_in_true _)).
  - intros p m i m' out _ MP V G U EV. exists [i_pos i], [i_pos i]. apply (rem_step_down p m i m' out MP G U EV).
  - intros p m i m' out es0 seen0 lst last' _ MP V G CP ML (cs & ws & RM) U EV ML'.
    eexists _, _. eapply rem_step_move; eassumption.
  - intros p m i m' out es0 seen0 lst e _ MP V G CP ML (cs & ws & RM) U NE.
    destruct (rem_step_reject p m i m' e out es0 seen0 lst cs ws CP MP ML RM U NE) as (cs' & R'). exists cs', ws. exact R'.
Qed.

(** ** C30: which inputs the stylus history holds *)
Definition mem_of (ic : Input * Vec2) (r : Result) : Prop :=
  r_pos r = snd ic /\ r_time r = i_time (fst ic) /\ r_pressure r = i_pressure (fst ic) /\
  r_tilt r = i_tilt (fst ic) /\ r_orient r = i_orient (fst ic).

(** The inputs retained are [skipn k l]. *)
Record retained (sy : StylusParams) (l : list (Input * Vec2)) (k : nat) : Prop := mkRet {
  ret_le : (k < List.length l)%nat;
  ret_closest : sy_normal sy = false -> k = (List.length l - Z.to_nat (sy_max_samples sy))%nat;
  ret_dropped : sy_normal sy = true -> k = O \/
    (sy_min_samples sy <= Z.of_nat (List.length l - k))%Z /\
    exists f ic, nth_error l k = Some f /\ In ic (skipn k l) /\
      dltb (sy_min_duration sy) (dsub (i_time (fst ic)) (i_time (fst f))) = true;
  ret_kept : sy_normal sy = true ->
    (Z.of_nat (List.length l - k) <= sy_min_samples sy)%Z \/
    exists s b, nth_error l (S k) = Some s /\ back l = Some b /\
      dltb (sy_min_duration sy) (dsub (i_time (fst b)) (i_time (fst s))) = false
}.

Lemma back_cons : forall {X} (x y : X) l, back (x :: y :: l) = back (y :: l).
Proof. reflexivity. Qed.
Lemma back_snoc : forall {X} (l : list X) x, back (l ++ [x]) = Some x.
Proof.
  intros X l x. unfold back. rewrite app_length, Nat.add_1_r. cbn [Nat.pred].
  rewrite nth_error_app2, Nat.sub_diag by lia. reflexivity.
Qed.
Lemma back_app : forall {X} (l1 l2 : list X), l2 <> [] -> back (l1 ++ l2) = back l2.
Proof.
  intros X l1 l2 NE. destruct (exists_last NE) as (l & x & ->). rewrite app_assoc, !back_snoc. reflexivity.
Qed.

Lemma trim_closest : forall sy raw raw', sy_normal sy = false -> (0 <= sy_max_samples sy)%Z ->
  stylus_trim sy raw = Ret raw' -> raw' = skipn (List.length raw - Z.to_nat (sy_max_samples sy)) raw.
Proof.
  intros sy raw raw' N M. induction raw as [|a rest IH]; intros H; cbn [stylus_trim] in H; bind_inv H;
    unfold should_drop in E; rewrite N in E; unfold size_gt in E; destruct (Z.ltb_spec (sy_max_samples sy) 0); try lia;
    injection E as E; cbn [List.length] in *.
  - destruct x; [discriminate H|]. injection H as <-. reflexivity.
  - destruct x.
    + apply Z.ltb_lt in E. rewrite (IH H). replace (S (List.length rest) - Z.to_nat (sy_max_samples sy))%nat
        with (S (List.length rest - Z.to_nat (sy_max_samples sy))) by lia. reflexivity.
    + apply Z.ltb_ge in E. injection H as <-. replace (S (List.length rest) - Z.to_nat (sy_max_samples sy))%nat with O by lia. reflexivity.
Qed.

Lemma trim_normal : forall sy raw raw', sy_normal sy = true -> (0 < sy_min_samples sy)%Z ->
  stylus_trim sy raw = Ret raw' -> exists pre, raw = pre ++ raw' /\ should_drop sy raw' = Ret false /\
    (pre = [] \/ (sy_min_samples sy <= Z.of_nat (List.length raw'))%Z /\
       exists f rest b, raw' = f :: rest /\ back raw' = Some b /\
         dltb (sy_min_duration sy) (dsub (r_time b) (r_time f)) = true).
Proof.
  intros sy raw raw' N M. induction raw as [|a rest IH]; intros H; cbn [stylus_trim] in H; bind_inv H.
  - destruct x; [discriminate H|]. injection H as <-. exists []. auto.
  - destruct x.
    + destruct (IH H) as (pre & P1 & P2 & P3). exists (a :: pre). split; [rewrite P1; reflexivity|]. split; [exact P2|]. right.
      destruct P3 as [->|P3]; [|exact P3]. cbn [app] in P1. subst rest.
      unfold should_drop, size_gt in E. rewrite N in E. destruct (Z.ltb_spec (sy_min_samples sy) 0); [lia|].
      destruct (Z.ltb_spec (sy_min_samples sy) (Z.of_nat (List.length (a :: raw')))) as [L|L]; [|discriminate E].
      cbn [List.length] in L. split; [lia|]. destruct raw' as [|f r']; [destruct (back _); discriminate E|].
      rewrite back_cons in E. destruct (back (f :: r')) as [b|] eqn:B; [|discriminate E].
      cbn [nth_error] in E. injection E as E. exists f, r', b. auto.
    + injection H as <-. exists []. auto.
Qed.

Lemma skipn_add : forall {X} (l : list X) a b, skipn a (skipn b l) = skipn (a + b) l.
Proof. intros X l a b. revert l. induction b as [|b IH]; intros l; [rewrite Nat.add_0_r; reflexivity|]. rewrite Nat.add_succ_r. destruct l; cbn; [destruct a; reflexivity|apply IH]. Qed.
Lemma Forall2_len : forall {X Y} (R : X -> Y -> Prop) l1 l2, Forall2 R l1 l2 -> List.length l1 = List.length l2.
Proof. intros X Y R l1 l2 H. induction H; cbn; congruence. Qed.
Lemma Forall2_skipn : forall {X Y} (R : X -> Y -> Prop) l1 l2 n, Forall2 R l1 l2 -> Forall2 R (skipn n l1) (skipn n l2).
Proof. intros X Y R l1 l2 n H. revert n. induction H; intros [|n]; cbn; auto. Qed.
Lemma Forall2_nth : forall {X Y} (R : X -> Y -> Prop) l1 l2 n y, Forall2 R l1 l2 -> nth_error l2 n = Some y ->
  exists x, nth_error l1 n = Some x /\ R x y.
Proof.
  intros X Y R l1 l2 n y H. revert n. induction H; intros [|n] E; cbn in *; try discriminate; [|auto].
  injection E as <-. eauto.
Qed.
Lemma nth_skipn : forall {X} (l : list X) k n, nth_error (skipn k l) n = nth_error l (k + n).
Proof. intros X l k. revert l. induction k as [|k IH]; intros [|x l] n; cbn; auto. destruct n; reflexivity. Qed.
Lemma back_skipn : forall {X} (l : list X) k, (k < List.length l)%nat -> back (skipn k l) = back l.
Proof.
  intros X l k H. unfold back. rewrite nth_skipn, skipn_length. f_equal. lia.
Qed.
Lemma skipn_snoc : forall {X} (l : list X) x k, (k <= List.length l)%nat -> skipn k (l ++ [x]) = skipn k l ++ [x].
Proof. intros X l x k H. rewrite skipn_app. replace (k - List.length l)%nat with O by lia. reflexivity. Qed.

Definition all_unknown (st : SState) : bool := s_unk_pressure st && s_unk_tilt st && s_unk_orient st.

Lemma remembering_raw : forall sy l st, validate_stylus sy = OkStatus -> remembering sy l st ->
  (s_unk_pressure st = existsb (fun ic => unknown_value (i_pressure (fst ic))) l /\
   s_unk_tilt st = existsb (fun ic => unknown_value (i_tilt (fst ic))) l /\
   s_unk_orient st = existsb (fun ic => unknown_value (i_orient (fst ic))) l) /\
  ((s_raw st = [] /\ (l = [] \/ sy_normal sy = false /\ all_unknown st = true)) \/
   exists k, retained sy l k /\ Forall2 mem_of (skipn k l) (s_raw st)).
Proof.
  intros sy l st V R. induction R as [|l st i c st' R IH M].
  - split; [repeat split; reflexivity|]. left. auto.
  - destruct IH as ((F1 & F2 & F3) & IH). unfold mstep in M. bind_inv M. injection M as <-. rename x into sm, E into U.
    rewrite !existsb_app. cbn [existsb fst]. rewrite !orb_false_r.
    assert (VM : (sy_normal sy = false -> 0 < sy_max_samples sy)%Z /\ (sy_normal sy = true -> 0 < sy_min_samples sy)%Z).
    { unfold validate_stylus in V. destruct (sy_normal sy); unfold validate_gt0_i in V; split; intros Q; try discriminate Q.
      - destruct (Z.leb_spec (sy_min_samples sy) 0); [discriminate V|lia].
      - destruct (Z.leb_spec (sy_max_samples sy) 0); [discriminate V|lia]. }
    destruct VM as [VM1 VM2].
    unfold stylus_update in U. cbn [sm_state sm_params] in U.
    destruct (negb (sy_normal sy) && _ && _ && _) eqn:Q.
    + injection U as <-. cbn [sm_state s_unk_pressure s_unk_tilt s_unk_orient s_raw].
      split; [rewrite F1, F2, F3; auto|]. left. split; [reflexivity|]. right.
      apply andb_prop in Q. destruct Q as [Q Q3]. apply andb_prop in Q. destruct Q as [Q Q2].
      apply andb_prop in Q. destruct Q as [Q Q1]. split; [destruct (sy_normal sy); [discriminate Q|reflexivity]|].
      unfold all_unknown. cbn [s_unk_pressure s_unk_tilt s_unk_orient]. rewrite Q1, Q2, Q3. reflexivity.
    + destruct (match back (s_raw st) with Some _ => _ | None => _ end) as [v a].
      bind_inv U. injection U as <-. rename x into raw'. cbn [sm_state s_unk_pressure s_unk_tilt s_unk_orient s_raw].
      split; [rewrite F1, F2, F3; auto|]. right.
      set (x := mkResult c v a (i_time i) (i_pressure i) (i_tilt i) (i_orient i)) in *.
      (* the state before *)
      assert (K : exists k, (k <= List.length l)%nat /\ Forall2 mem_of (skipn k l) (s_raw st) /\
        (sy_normal sy = false -> k = (List.length l - Z.to_nat (sy_max_samples sy))%nat) /\
        (sy_normal sy = true -> k = O \/ (sy_min_samples sy <= Z.of_nat (List.length l - k))%Z /\
           exists f ic, nth_error l k = Some f /\ In ic (skipn k l) /\
           dltb (sy_min_duration sy) (dsub (i_time (fst ic)) (i_time (fst f))) = true)).
      { destruct IH as [[E1 [->|[E2 E3]]]|(k & [K1 K2 K3 K4] & K5)].
        - exists O. rewrite E1. cbn. split; [lia|]. split; [constructor|]. split; [reflexivity|auto].
        - exfalso. unfold all_unknown in E3. apply andb_prop in E3. destruct E3 as [E3 E6]. apply andb_prop in E3.
          destruct E3 as [E4 E5]. rewrite E2, E4, E5, E6 in Q. discriminate Q.
        - exists k. split; [lia|]. auto. }
      destruct K as (k & K1 & K2 & K3 & K4).
      assert (FA : Forall2 mem_of (skipn k (l ++ [(i, c)])) (s_raw st ++ [x])).
      { rewrite skipn_snoc by exact K1. apply Forall2_app; [exact K2|]. constructor; [|constructor]. unfold mem_of; cbn; auto. }
      pose proof (Forall2_len _ _ _ FA) as LF. rewrite skipn_length, !app_length in LF.  cbn [List.length] in LF.
      destruct (sy_normal sy) eqn:N.
      * destruct (trim_normal sy _ _ N (VM2 eq_refl) E) as (pre & P1 & P2 & P3).
        assert (NE : raw' <> []). { intros ->. unfold should_drop in P2. destruct P3 as [->|(_ & f & r & b & D & _)]; [|discriminate D].
          apply (f_equal (@List.length _)) in P1. rewrite app_length in P1. cbn in P1. lia. }
        exists (List.length pre + k)%nat.
        assert (F2' : Forall2 mem_of (skipn (List.length pre + k) (l ++ [(i, c)])) raw').
        { rewrite <- skipn_add. replace raw' with (skipn (List.length pre) (s_raw st ++ [x])); [apply Forall2_skipn; exact FA|].
          rewrite P1, skipn_app, skipn_all, Nat.sub_diag. reflexivity. }
        pose proof (Forall2_len _ _ _ F2') as L2. rewrite skipn_length, app_length in L2. cbn [List.length] in L2.
        assert (LR : (0 < List.length raw')%nat) by (destruct raw'; [congruence|cbn; lia]).
        split; [|exact F2'].
        assert (NTH : forall n r, nth_error raw' n = Some r -> exists ic, nth_error (l ++ [(i, c)]) (List.length pre + k + n) = Some ic /\ mem_of ic r).
        { intros n r NE1. destruct (Forall2_nth _ _ _ _ _ F2' NE1) as (ic & I1 & I2). rewrite nth_skipn in I1. eauto. }
        constructor.
        -- rewrite app_length. cbn. lia.
        -- intros D. congruence.
        -- intros _. rewrite app_length. cbn [List.length].
           destruct P3 as [->|(P3 & f & rest & b & -> & P5 & P6)].
           ++ cbn [List.length plus]. destruct (K4 eq_refl) as [->|(K5 & f & ic & K6 & K7 & K8)]; [left; reflexivity|right].
              split; [lia|]. exists f, ic. split; [rewrite nth_error_app1; [exact K6|apply nth_error_Some; congruence]|]. split; [|exact K8].
              rewrite skipn_snoc by exact K1. apply in_or_app. left. exact K7.
           ++ right. split; [lia|]. destruct (NTH O f eq_refl) as (fc & I1 & I2). rewrite Nat.add_0_r in I1.
              exists fc. unfold back in P5. destruct (NTH _ _ P5) as (bc & J1 & J2).
              exists bc. split; [exact I1|]. split.
              ** apply (nth_error_In _ (Nat.pred (List.length (f :: rest)))). rewrite nth_skipn. exact J1.
              ** destruct I2 as (_ & <- & _), J2 as (_ & <- & _). exact P6.
        -- intros _. rewrite app_length. cbn [List.length].
           unfold should_drop, size_gt in P2. rewrite N in P2. specialize (VM2 eq_refl).
           destruct (Z.ltb_spec (sy_min_samples sy) 0); [lia|].
           destruct (Z.ltb_spec (sy_min_samples sy) (Z.of_nat (List.length raw'))) as [L3|L3]; [|left; lia].
           right. destruct (back raw') as [b|] eqn:B; [|discriminate P2]. destruct (nth_error raw' 1) as [s1|] eqn:S1; [|discriminate P2].
           injection P2 as P2. destruct (NTH 1%nat s1 S1) as (sc & I1 & I2). unfold back in B. destruct (NTH _ _ B) as (bc & J1 & J2).
           exists sc, bc. split; [rewrite <- I1; f_equal; lia|]. split.
           ++ unfold back. rewrite app_length. cbn [List.length]. rewrite <- J1. f_equal. lia.
           ++ destruct I2 as (_ & <- & _), J2 as (_ & <- & _). exact P2.
      * specialize (VM1 eq_refl). apply (trim_closest sy _ _ N) in E; [|lia]. specialize (K3 eq_refl). subst raw'.
        rewrite app_length. cbn [List.length].
        exists (List.length (s_raw st) + 1 - Z.to_nat (sy_max_samples sy) + k)%nat. split.
        -- constructor; rewrite ?app_length; cbn [List.length]; try (intros D; congruence); [lia|]. intros _. lia.
        -- rewrite <- skipn_add. apply Forall2_skipn. exact FA.
Qed.

End Memory.
