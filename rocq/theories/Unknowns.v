(** * C47: whether stylus data is known does not influence the geometry either, if the
    stylus state is projected along the stroke normal; for every arithmetic. *)
From Verif Require Export Props_Geom.
From Coq Require Import Lia.

Section Unknowns.
Context {A : Arith}.
Variable fuel : nat.

(** ** Specification *)
(** A correspondence between inputs that changes stylus data at will, known or
    unknown, and does not make different inputs equal or conversely. *)
Definition redressing (P : Input -> Input -> Prop) : Prop :=
  (forall i j, P i j -> i_event i = i_event j /\ i_pos i = i_pos j /\ i_time i = i_time j) /\
  (forall i j i' j', P i j -> P i' j' -> input_eqb i i' = input_eqb j j').
(** The projection chosen by the parameters of a Reset. *)
Definition along_normal (c : call) : Prop :=
  match c with CReset p => sy_normal (p_stylus p) = true | _ => True end.

(** ** Proof *)
Variable P : Input -> Input -> Prop.
Hypothesis HP : redressing P.

Definition uq (a b : SState) : Prop := Forall2 same_geometry (s_raw a) (s_raw b).
Definition us (a b : Stylus) : Prop :=
  uq (sm_state a) (sm_state b) /\ uq (sm_saved a) (sm_saved b) /\
  sm_save_active a = sm_save_active b /\ sm_params a = sm_params b.
Definition ul (a b : option LastInput) : Prop :=
  match a, b with
  | Some x, Some y => P (li_input x) (li_input y) /\ li_corrected x = li_corrected y
  | None, None => True
  | _, _ => False
  end.
Record um (a b : Modeler) : Prop := mkUm {
  um_pred : m_predictor a = m_predictor b;
  um_par : m_params a = m_params b;
  um_wob : m_wobble a = m_wobble b;
  um_pos : m_pos a = m_pos b;
  um_sty : us (m_stylus a) (m_stylus b);
  um_loop : m_loop a = m_loop b;
  um_last : ul (m_last a) (m_last b);
  um_spred : m_saved_predictor a = m_saved_predictor b;
  um_slast : ul (m_saved_last a) (m_saved_last b);
  um_act : m_save_active a = m_save_active b;
  um_all : forall p, m_params a = Some p -> sy_normal (p_stylus p) = true;
  um_now : m_last a <> None \/ m_saved_last a <> None -> sy_normal (sm_params (m_stylus a)) = true }.

Lemma stylus_update_unk : forall a b i j pos, us a b -> sy_normal (sm_params a) = true -> P i j ->
  both (fun x y => us x y /\ sm_params x = sm_params a)
    (stylus_update a pos (i_time i) (i_pressure i) (i_tilt i) (i_orient i))
    (stylus_update b pos (i_time j) (i_pressure j) (i_tilt j) (i_orient j)).
Proof.
  intros [st sv ac p] [st' sv' ac' p'] i j pos (RW & SV & AC & PA) N PI.
  unfold uq in *. cbn in *. subst. destruct (proj1 HP i j PI) as (_ & _ & T).
  unfold stylus_update. cbn [sm_params sm_state sm_saved sm_save_active].
  rewrite <- T, N. cbn [negb andb].
  pose proof (back_geom _ _ RW) as B.
  assert (FIN : forall v a x1 x2 x3 y1 y2 y3,
    both (fun x y => us x y /\ sm_params x = p')
      (let* raw := stylus_trim p' (s_raw st ++ [mkResult pos v a (i_time i) (i_pressure i) (i_tilt i) (i_orient i)]) in
       Ret (mkStylus (mkSState x1 x2 x3 raw) sv ac' p'))
      (let* raw := stylus_trim p' (s_raw st' ++ [mkResult pos v a (i_time i) (i_pressure j) (i_tilt j) (i_orient j)]) in
       Ret (mkStylus (mkSState y1 y2 y3 raw) sv' ac' p'))).
  { intros v a x1 x2 x3 y1 y2 y3.
    eapply both_bind; [apply stylus_trim_geom; apply Forall2_app; [exact RW|constructor; [repeat split|constructor]]|].
    intros x y XY. apply both_ret. repeat split; cbn; auto. }
  destruct (back (s_raw st)), (back (s_raw st')); try contradiction; [|apply FIN].
  destruct B as (-> & -> & _ & ->). destruct (negb (deqb (i_time i) (r_time r0))); apply FIN.
Qed.

Lemma stylus_query_unk : forall a b tip n, us a b ->
  both same_geometry (stylus_query fuel a tip n) (stylus_query fuel b tip n).
Proof.
  intros [st sv ac p] [st' sv' ac' p'] tip n (RW & SV & AC & PA).
  unfold uq in *. cbn in *. subst. unfold stylus_query. cbn [sm_state sm_params].
  pose proof (back_geom _ _ RW) as BG.
  destruct (s_raw st) as [|f l] eqn:R1, (s_raw st') as [|f' l'] eqn:R2; inversion RW; subst.
  - apply both_ret. repeat split.
  - assert (K : gopt
      (match (if sy_normal p' then n else None) with
       | Some n => project_along_normal (t_pos tip) (t_acc tip) n (f :: l)
       | None => project_to_closest (t_pos tip) (f :: l) end)
      (match (if sy_normal p' then n else None) with
       | Some n => project_along_normal (t_pos tip) (t_acc tip) n (f' :: l')
       | None => project_to_closest (t_pos tip) (f' :: l') end)).
    { destruct (if sy_normal p' then n else None); [apply project_along_normal_geom; exact RW|].
      unfold project_to_closest. pose proof (project_closest_geom _ _ (t_pos tip) None None RW I) as K.
      destruct (project_closest_loop _ (f :: l) _) as [[x d]|], (project_closest_loop _ (f' :: l') _) as [[y e]|];
        cbn in *; tauto. }
    eapply (both_bind same_geometry).
    + destruct (match (if sy_normal p' then n else None) with Some _ => project_along_normal _ _ _ (f :: l) | None => _ end) as [x|],
        (match (if sy_normal p' then n else None) with Some _ => project_along_normal _ _ _ (f' :: l') | None => _ end) as [y|]; try contradiction.
      * destruct K as (K1 & K2 & ->). apply interp_result_geom; assumption.
      * destruct (back (f :: l)) as [r|], (back (f' :: l')) as [r'|]; try contradiction; [|intros ? ? E; discriminate E].
        pose proof BG as (E & _). rewrite E. pose proof H2 as (E' & _). rewrite E'.
        destruct (fltb _ _); apply both_ret; assumption.
    + intros x y XY. apply both_ret. repeat split; cbn; apply XY.
Qed.

Lemma model_stylus_loop_unk : forall tips sm sm' lm x pt, us sm sm' ->
  both (fun a b => fst a = fst b /\ Forall2 same_geometry (snd a) (snd b))
    (model_stylus_loop fuel tips sm lm x pt) (model_stylus_loop fuel tips sm' lm x pt).
Proof.
  induction tips as [|tip rest IH]; intros sm sm' lm x pt HS; cbn [model_stylus_loop].
  - apply both_ret. cbn. auto.
  - eapply both_bind; [apply stylus_query_unk; exact HS|]. intros q q' Q.
    eapply both_bind; [apply interp_result_geom; [exact Q|repeat split]|]. intros r r' RR.
    pose proof RR as (_ & E & _). rewrite E. destruct (loop_update lm (r_vel r') (t_time tip)) as [l1 v1].
    eapply both_bind; [apply IH; exact HS|]. intros [l2 o] [l2' o'] [K1 K2]. cbn in K1, K2. subst.
    apply both_ret. cbn. auto.
Qed.

Definition ur (x y : upd_result) : Prop :=
  let '(m, s, r) := x in let '(m', s', r') := y in um m m' /\ s = s' /\ Forall2 same_geometry r r'.

Lemma number_of_steps_unk : forall tip a b a' b' sp pp,
  P a a' -> P b b' -> number_of_steps tip a b sp pp = number_of_steps tip a' b' sp pp.
Proof.
  intros tip a b a' b' sp pp H1 H2. destruct (proj1 HP _ _ H1) as (_ & P1 & T1), (proj1 HP _ _ H2) as (_ & P2 & T2).
  unfold number_of_steps. rewrite P2, T1, T2. reflexivity.
Qed.

Lemma process_down_unk : forall a b p i j rs, um a b -> sy_normal (p_stylus p) = true -> P i j ->
  both ur (process_down a p i rs) (process_down b p j rs).
Proof.
  intros a b p i j rs M NP PI. pose proof M as M0. destruct M. unfold process_down. destruct (proj1 HP _ _ PI) as (EV & PO & T).
  unfold ul in um_last0. destruct (m_last a) eqn:L, (m_last b) eqn:L'; try contradiction.
  - apply both_ret. split; [exact M0|split; [reflexivity|apply geom_refl]].
  - rewrite <- PO. eapply both_bind.
    { apply (stylus_update_unk _ _ i j); [|apply NP|assumption].
      destruct um_sty0 as (S1 & S2 & S3 & S4). repeat split; cbn; auto; constructor. }
    intros s1 s2 [S12 SN]. cbn in SN. rewrite <- T, <- um_pred0.
    eapply (both_bind eq); [apply both_refl|]. intros pr pr' <-. apply both_ret.
    split; [constructor; cbn; auto; try congruence; intros _; rewrite SN; first [exact NP | apply um_now0; left; rewrite ?L; discriminate]|split; [reflexivity|]].
    apply Forall2_app; [apply geom_refl|]. constructor; [repeat split|constructor].
Qed.

Lemma process_move_unk : forall a b p i j rs, um a b -> P i j ->
  both ur (process_move fuel a p i rs) (process_move fuel b p j rs).
Proof.
  intros a b p i j rs M PI. pose proof M as M0. destruct M. unfold process_move. destruct (proj1 HP _ _ PI) as (EV & PO & T).
  unfold ul in um_last0. destruct (m_last a) eqn:L, (m_last b) eqn:L'; try contradiction.
  2: { apply both_ret. split; [exact M0|split; [reflexivity|apply geom_refl]]. }
  destruct um_last0 as [PL CL].
  rewrite <- PO, <- T, <- um_wob0. eapply (both_bind eq); [apply both_refl|]. intros [w c] ? <-.
  eapply both_bind; [rewrite T at 2; apply stylus_update_unk; [assumption|apply um_now0; left; rewrite ?L; discriminate|assumption]|]. intros s1 s2 [S12 SN].
  rewrite <- um_pos0, (number_of_steps_unk _ _ _ _ _ _ _ PL PI).
  eapply (both_bind eq); [apply both_refl|]. intros [n|e] ? <-.
  - rewrite CL. destruct (proj1 HP _ _ PL) as (_ & _ & TL). rewrite TL.
    eapply (both_bind eq); [apply both_refl|]. intros [tip tips] ? <-. rewrite <- um_pred0.
    eapply (both_bind eq); [apply both_refl|]. intros pr ? <-. rewrite <- um_loop0.
    eapply both_bind; [apply model_stylus_loop_unk; exact S12|].
    intros [l1 o1] [l2 o2] [K1 K2]. cbn in K1, K2. subst. apply both_ret.
    split; [constructor; cbn; auto; try congruence; intros _; rewrite SN; first [exact NP | apply um_now0; left; rewrite ?L; discriminate]|split; [reflexivity|]].
    apply Forall2_app; [apply geom_refl|assumption].
  - apply both_ret. split; [constructor; cbn; auto; intros H; rewrite SN; apply um_now0; left; rewrite ?L; discriminate|split; [reflexivity|apply geom_refl]].
Qed.

Lemma process_up_unk : forall a b p i j rs, um a b -> P i j ->
  both ur (process_up fuel a p i rs) (process_up fuel b p j rs).
Proof.
  intros a b p i j rs M PI. pose proof M as M0. destruct M. unfold process_up. destruct (proj1 HP _ _ PI) as (EV & PO & T).
  unfold ul in um_last0. destruct (m_last a) eqn:L, (m_last b) eqn:L'; try contradiction.
  2: { apply both_ret. split; [exact M0|split; [reflexivity|apply geom_refl]]. }
  destruct um_last0 as [PL CL].
  rewrite <- um_pos0, (number_of_steps_unk _ _ _ _ _ _ _ PL PI).
  eapply (both_bind eq); [apply both_refl|]. intros [n|e] ? <-.
  - rewrite CL. destruct (proj1 HP _ _ PL) as (_ & _ & TL). rewrite TL, <- PO, <- T.
    eapply (both_bind eq); [apply both_refl|]. intros [tip tips] ? <-.
    destruct (model_end_of_stroke _ _ _ _ _ _) as [tip2 tips2].
    eapply both_bind; [rewrite T at 2; apply stylus_update_unk; [assumption|apply um_now0; left; rewrite ?L; discriminate|assumption]|]. intros s1 s2 [S12 SN].
    rewrite <- um_loop0. eapply both_bind; [apply model_stylus_loop_unk; exact S12|].
    intros [l1 o1] [l2 o2] [K1 K2]. cbn in K1, K2. subst. apply both_ret.
    split; [constructor; cbn; auto; try congruence; intros _; rewrite SN; first [exact NP | apply um_now0; left; rewrite ?L; discriminate]|split; [reflexivity|]].
    apply Forall2_app; [apply geom_refl|assumption].
  - apply both_ret. split; [exact M0|split; [reflexivity|apply geom_refl]].
Qed.

Lemma validate_input_unk : forall i j, P i j -> validate_input i = validate_input j.
Proof.
  intros i j PI. destruct (proj1 HP _ _ PI) as (EV & PO & T). unfold validate_input. rewrite EV, PO, T. reflexivity.
Qed.

Lemma update_unk : forall a b i j rs, um a b -> P i j -> both ur (update fuel a i rs) (update fuel b j rs).
Proof.
  intros a b i j rs M PI. unfold update. rewrite <- (um_par _ _ M), (validate_input_unk _ _ PI).
  assert (RJ : forall e, both ur (Ret (a, e, rs)) (Ret (b, e, rs))).
  { intros e. apply both_ret. split; [exact M|]. split; [reflexivity|apply geom_refl]. }
  pose proof (um_all _ _ M) as NP. destruct (m_params a) as [p|]; [|apply RJ]. specialize (NP p eq_refl). destruct (validate_input j); try apply RJ.
  destruct (proj1 HP _ _ PI) as (EV & _ & T).
  assert (K : both ur
    match i_event i with
    | EDown => process_down a p i rs | EMove => process_move fuel a p i rs
    | EUp => process_up fuel a p i rs | EOther _ => Ret (a, InvalidArgument msg_event, rs) end
    match i_event j with
    | EDown => process_down b p j rs | EMove => process_move fuel b p j rs
    | EUp => process_up fuel b p j rs | EOther _ => Ret (b, InvalidArgument msg_event, rs) end).
  { rewrite <- EV. destruct (i_event i); [apply process_down_unk|apply process_move_unk|apply process_up_unk|apply RJ]; auto. }
  pose proof (um_last _ _ M) as LL. unfold ul in LL. destruct (m_last a), (m_last b); try contradiction; [|exact K].
  destruct LL as [PL _]. rewrite (proj2 HP _ _ _ _ PL PI), T. destruct (proj1 HP _ _ PL) as (_ & _ & ->).
  destruct (input_eqb _ _); [apply RJ|]. destruct (dltb _ _); [apply RJ|]. exact K.
Qed.

Lemma step_unk : forall a b c d, um a b -> along_normal c -> restyled P c d ->
  both (fun x y => um (fst x) (fst y) /\ same_reply_geometry (snd x) (snd y)) (step fuel a c) (step fuel b d).
Proof.
  intros a b c d M NC SC. destruct c, d; cbn in SC; try discriminate SC.
  - inversion SC; subst. cbn [step]. unfold reset_params. destruct (validate_params p0); apply both_ret; cbn; split; auto.
    destruct M. constructor; cbn; auto; try congruence; try (intros [K|K]; auto; contradiction K; reflexivity).
  - cbn [step]. unfold reset_keep. rewrite <- (um_par _ _ M). destruct (m_params a) eqn:PA; apply both_ret; cbn; split; auto.
    destruct M. constructor; cbn; auto; try congruence; try (intros [K|K]; auto; contradiction K; reflexivity).
    intros q E. apply um_all0. congruence.
  - destruct SC as [PI ->]. cbn [step]. eapply both_bind; [apply update_unk; eassumption|].
    intros [[m1 s1] r1] [[m2 s2] r2] (K1 & K2 & K3). apply both_ret. cbn. auto.
  - inversion SC; subst. cbn [step]. unfold predict. rewrite <- (um_par _ _ M), <- (um_pred _ _ M).
    destruct (m_params a) as [p|] eqn:PA; [|apply both_ret; cbn; auto].
    destruct (m_predictor a) as [pr|] eqn:QA; [|apply both_ret; cbn; auto].
    pose proof (um_last _ _ M) as LL. unfold ul in LL. destruct (m_last a) eqn:L, (m_last b) eqn:L'; try contradiction; [|apply both_ret; cbn; auto].
    destruct LL as [PL _]. rewrite !obind_assoc, <- (um_pos _ _ M). eapply (both_bind eq); [apply both_refl|]. intros tips ? <-.
    rewrite !obind_assoc, <- (um_loop _ _ M). eapply both_bind.
    { destruct (proj1 HP _ _ PL) as (_ & _ & ->). apply model_stylus_loop_unk. apply (um_sty _ _ M). }
    intros [l1 o1] [l2 o2] [K1 K2]. cbn in K2. apply both_ret. cbn. split; [|split; [reflexivity|assumption]].
    destruct M. rewrite L, L' in *. constructor; cbn; auto; try congruence.
    intros q E. apply um_all0. congruence.
  - apply both_ret. cbn. split; auto. destruct M. constructor; cbn; auto;
      try (rewrite ?um_pred0, ?um_spred0, ?um_wob0, ?um_pos0, ?um_loop0; reflexivity); try congruence;
      try (intros [K|K]; auto; fail).
    destruct um_sty0 as (S1 & S2 & S3 & S4). split; [exact S1|]. split; [exact S1|]. split; [reflexivity|exact S4].
  - apply both_ret. cbn. split; auto. unfold restore. rewrite <- (um_act _ _ M). destruct (m_save_active a) eqn:SA; [|exact M].
    destruct M. constructor; cbn; auto;
      try (rewrite ?um_pred0, ?um_spred0, ?um_wob0, ?um_pos0, ?um_loop0; reflexivity); try congruence.
    2: { unfold stylus_restore. destruct (sm_save_active (m_stylus a)); cbn; intros [K|K]; auto. }
    destruct um_sty0 as (S1 & S2 & S3 & S4). unfold stylus_restore. rewrite <- S3. destruct (sm_save_active (m_stylus a)) eqn:X.
    + split; [exact S2|]. split; [exact S2|]. split; [reflexivity|exact S4].
    + split; [exact S1|]. split; [exact S2|]. split; [congruence|exact S4].
Qed.

Lemma run_unk : forall cs ds a b, Forall along_normal cs -> Forall2 (restyled P) cs ds -> um a b ->
  both (fun x y => Forall2 same_reply_geometry (snd x) (snd y)) (run fuel a cs) (run fuel b ds).
Proof.
  intros cs ds a b N F. revert a b N. induction F as [|c d cs ds SC F IH]; intros a b N M; cbn [run].
  - apply both_ret. cbn. constructor.
  - inversion N; subst. eapply both_bind; [apply step_unk; eassumption|]. intros [m1 r1] [m2 r2] [K1 K2]. cbn in K1, K2.
    eapply both_bind; [apply IH; [assumption|exact K1]|]. intros [m3 r3] [m4 r4] K3. cbn in K3. apply both_ret. cbn. constructor; assumption.
Qed.

End Unknowns.

(** Two histories that use the projection along the stroke normal and whose inputs
    differ only in stylus data, which may be known in one and unknown in the other, get
    replies with the same statuses and the same geometry. *)
Theorem C47_unknown_no_influence : forall {A : Arith} fuel (P : Input -> Input -> Prop) cs ds rs rs',
  redressing P -> Forall along_normal cs -> Forall2 (restyled P) cs ds ->
  answers fuel [] cs = Ret rs -> answers fuel [] ds = Ret rs' ->
  Forall2 same_reply_geometry rs rs'.
Proof.
  intros A fuel P cs ds rs rs' HP N F H1 H2. unfold answers in H1, H2. cbn [run obind] in H1, H2.
  bind_inv H1. destruct x as [m1 r1]. inversion H1; subst. bind_inv H2. destruct x as [m2 r2]. inversion H2; subst.
  refine (run_unk fuel P HP cs ds modeler0 modeler0 N F _ _ _ E E0).
  constructor; cbn; try reflexivity; try exact I.
  - repeat split; constructor.
  - discriminate.
  - intros [K|K]; contradiction K; reflexivity.
Qed.
