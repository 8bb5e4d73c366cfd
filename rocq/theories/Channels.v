(** * C58: pressure, tilt and orientation are modelled independently, for every arithmetic. *)
From Verif Require Export Props_Geom.
From Coq Require Import Lia.

Section Channels.
Context {A : Arith}.
Variable fuel : nat.

(** ** Specification *)
(** The three stylus readings of an input, and the same three in a result. *)
Inductive channel : Type := Pressure | Tilt | Orientation.
Definition reading (c : channel) (i : Input) : F :=
  match c with Pressure => i_pressure i | Tilt => i_tilt i | Orientation => i_orient i end.
Definition reported (c : channel) (r : Result) : F :=
  match c with Pressure => r_pressure r | Tilt => r_tilt r | Orientation => r_orient r end.
(** Two results agree in the geometry and in channel [c]. *)
Definition same_seen (c : channel) (a b : Result) : Prop :=
  same_geometry a b /\ reported c a = reported c b.
Definition same_reply_channel (c : channel) (a b : reply) : Prop :=
  match a, b with
  | RResults s x, RResults t y => s = t /\ Forall2 (same_seen c) x y
  | _, _ => a = b
  end.
(** A correspondence between inputs that changes known stylus data only (C47), and
    only in the channels other than [c]. *)
Definition restyling_others (c : channel) (P : Input -> Input -> Prop) : Prop :=
  restyling P /\ forall i j, P i j -> reading c i = reading c j.

(** ** Proof *)
Variable ch : channel.
Variable P : Input -> Input -> Prop.
Hypothesis HP : restyling_others ch P.
Notation seen := (same_seen ch).
Notation same_reply_seen := (same_reply_channel ch).

Definition same_state (a b : SState) : Prop :=
  s_unk_pressure a = s_unk_pressure b /\ s_unk_tilt a = s_unk_tilt b /\ s_unk_orient a = s_unk_orient b /\
  Forall2 seen (s_raw a) (s_raw b).
Definition gs (a b : Stylus) : Prop :=
  same_state (sm_state a) (sm_state b) /\ same_state (sm_saved a) (sm_saved b) /\
  sm_save_active a = sm_save_active b /\ sm_params a = sm_params b.
Definition gl (a b : option LastInput) : Prop :=
  match a, b with
  | Some x, Some y => P (li_input x) (li_input y) /\ li_corrected x = li_corrected y
  | None, None => True
  | _, _ => False
  end.
Record gm (a b : Modeler) : Prop := mkGm {
  gm_pred : m_predictor a = m_predictor b;
  gm_par : m_params a = m_params b;
  gm_wob : m_wobble a = m_wobble b;
  gm_pos : m_pos a = m_pos b;
  gm_sty : gs (m_stylus a) (m_stylus b);
  gm_loop : m_loop a = m_loop b;
  gm_last : gl (m_last a) (m_last b);
  gm_spred : m_saved_predictor a = m_saved_predictor b;
  gm_slast : gl (m_saved_last a) (m_saved_last b);
  gm_act : m_save_active a = m_save_active b }.

Lemma nth_chan : forall l l' n, Forall2 seen l l' ->
  match nth_error l n, nth_error l' n with Some a, Some b => seen a b | None, None => True | _, _ => False end.
Proof. intros l l' n H. revert n. induction H; intros [|n]; cbn; auto; apply IHForall2. Qed.
Lemma back_chan : forall l l', Forall2 seen l l' ->
  match back l, back l' with Some a, Some b => seen a b | None, None => True | _, _ => False end.
Proof. intros l l' H. unfold back. rewrite (F2_length _ _ _ H). apply nth_chan. exact H. Qed.

Lemma should_drop_chan : forall p l l', Forall2 seen l l' -> should_drop p l = should_drop p l'.
Proof.
  intros p l l' H. unfold should_drop, size_gt. rewrite (F2_length _ _ _ H).
  pose proof (back_chan _ _ H) as B. pose proof (nth_chan _ _ 1 H) as N.
  destruct (back l), (back l'); try contradiction; destruct (nth_error l 1), (nth_error l' 1); try contradiction; try reflexivity.
  destruct B as ((_ & _ & _ & ->) & _), N as ((_ & _ & _ & ->) & _). reflexivity.
Qed.

Lemma stylus_trim_chan : forall p l l', Forall2 seen l l' ->
  both (Forall2 seen) (stylus_trim p l) (stylus_trim p l').
Proof.
  intros p l l' H. induction H as [|a b l l' Hab H IH]; cbn [stylus_trim].
  - eapply both_bind; [apply both_refl|]. intros x y ->. destruct y; [intros ? ? E; discriminate E|apply both_ret; constructor].
  - rewrite (should_drop_chan p (a :: l) (b :: l')) by (constructor; assumption).
    eapply both_bind; [apply both_refl|]. intros x y ->. destruct y; [exact IH|apply both_ret; constructor; assumption].
Qed.

Lemma stylus_update_chan : forall a b i j pos, gs a b -> P i j ->
  both gs (stylus_update a pos (i_time i) (i_pressure i) (i_tilt i) (i_orient i))
          (stylus_update b pos (i_time j) (i_pressure j) (i_tilt j) (i_orient j)).
Proof.
  intros [st sv ac p] [st' sv' ac' p'] i j pos ((U1 & U2 & U3 & RW) & SV & AC & PA) PI.
  cbn in *. subst. destruct (proj1 (proj1 HP) i j PI) as (_ & _ & T & N1 & N2 & N3).
  unfold unknown in *. unfold stylus_update, unknown_value. cbn [sm_params sm_state sm_saved sm_save_active].
  rewrite <- T, N1, N2, N3, U1, U2, U3.
  destruct (negb (sy_normal p') && _ && _ && _).
  - apply both_ret. repeat split; cbn; auto; apply SV.
  - pose proof (back_chan _ _ RW) as B.
    assert (FIN : forall v a,
      both gs
        (let* raw := stylus_trim p' (s_raw st ++ [mkResult pos v a (i_time i) (i_pressure i) (i_tilt i) (i_orient i)]) in
         Ret (mkStylus (mkSState (s_unk_pressure st' || unknown_value (i_pressure j))
               (s_unk_tilt st' || unknown_value (i_tilt j)) (s_unk_orient st' || unknown_value (i_orient j)) raw) sv ac' p'))
        (let* raw := stylus_trim p' (s_raw st' ++ [mkResult pos v a (i_time i) (i_pressure j) (i_tilt j) (i_orient j)]) in
         Ret (mkStylus (mkSState (s_unk_pressure st' || unknown_value (i_pressure j))
               (s_unk_tilt st' || unknown_value (i_tilt j)) (s_unk_orient st' || unknown_value (i_orient j)) raw) sv' ac' p'))).
    { intros v a.
      eapply both_bind; [apply stylus_trim_chan; apply Forall2_app; [exact RW|constructor; [split; [repeat split|pose proof (proj2 HP _ _ PI) as RD; destruct ch; exact RD]|constructor]]|].
      intros x y XY. apply both_ret. repeat split; cbn; auto; apply SV. }
    unfold unknown_value in FIN.
    destruct (back (s_raw st)), (back (s_raw st')); try contradiction; [|apply FIN].
    destruct B as ((-> & -> & _ & ->) & _). destruct (negb (deqb (i_time i) (r_time r0))); apply FIN.
Qed.

Lemma interp_result_chan : forall a b a' b' x, seen a a' -> seen b b' ->
  both seen (interp_result fuel a b x) (interp_result fuel a' b' x).
Proof.
  intros a b a' b' x ((E1 & E2 & E3 & E4) & E5) ((F1 & F2 & F3 & F4) & F5). unfold interp_result.
  eapply (both_bind (fun o o' => ch = Orientation -> o = o')).
  - intros o o' K K' C. rewrite C in E5, F5. cbn in E5, F5. rewrite E5, F5 in K. congruence.
  - intros o o' O. apply both_ret. split; [repeat split; cbn; congruence|].
    destruct ch; cbn in E5, F5 |- *; [rewrite E5, F5; reflexivity|rewrite E5, F5; reflexivity|apply O; reflexivity].
Qed.

Definition gproj (a b : Projection) : Prop :=
  seen (pj_a a) (pj_a b) /\ seen (pj_b a) (pj_b b) /\ pj_ratio a = pj_ratio b.
Definition gbest (a b : best) : Prop :=
  match a, b with
  | Some (x, d), Some (y, e) => gproj x y /\ d = e
  | None, None => True
  | _, _ => False
  end.

Lemma maybe_update_chan : forall c c' d b b', gproj c c' -> gbest b b' -> gbest (maybe_update c d b) (maybe_update c' d b').
Proof.
  intros c c' d [[x e]|] [[y e']|] C B; cbn in B; try contradiction; unfold maybe_update.
  - destruct B as [B ->]. destruct (fltb d e'); cbn; auto.
  - destruct (fltinf d); cbn; auto.
Qed.

Lemma project_normal_chan : forall l l' pos n bl bl' br br', Forall2 seen l l' ->
  gbest bl bl' -> gbest br br' ->
  gbest (fst (project_normal_loop pos n l bl br)) (fst (project_normal_loop pos n l' bl' br')) /\
  gbest (snd (project_normal_loop pos n l bl br)) (snd (project_normal_loop pos n l' bl' br')).
Proof.
  intros l l' pos n bl bl' br br' H. revert bl bl' br br'. induction H as [|a b l l' Hab H IH]; intros bl bl' br br' B1 B2.
  - cbn. auto.
  - destruct H as [|a2 b2 l l' Hab2 H]; [cbn; auto|]. rewrite !project_normal_cons. cbv zeta.
    pose proof Hab as ((E1 & _) & _). pose proof Hab2 as ((E2 & _) & _). rewrite E1, E2.
    destruct (project_to_segment_along_normal _ _ _ _) as [ratio|]; [|apply IH; assumption].
    destruct (fltb _ f0); apply IH; auto; apply maybe_update_chan; auto; repeat split; cbn; try apply Hab; try apply Hab2.
Qed.

Definition gopt (a b : option Projection) : Prop :=
  match a, b with Some x, Some y => gproj x y | None, None => True | _, _ => False end.

Lemma project_along_normal_chan : forall l l' pos acc n, Forall2 seen l l' ->
  gopt (project_along_normal pos acc n l) (project_along_normal pos acc n l').
Proof.
  intros l l' pos acc n H. unfold project_along_normal.
  destruct (project_normal_chan l l' pos n None None None None H I I) as [K1 K2].
  destruct (project_normal_loop pos n l None None) as [[[x d]|] [[y e]|]],
    (project_normal_loop pos n l' None None) as [[[x' d']|] [[y' e']|]]; cbn in K1, K2; try contradiction; cbn; auto.
  - destruct (fltb f0 _); cbn; tauto.
  - tauto.
  - tauto.
Qed.

Lemma project_closest_chan : forall l l' pos b b', Forall2 seen l l' -> gbest b b' ->
  gbest (project_closest_loop pos l b) (project_closest_loop pos l' b').
Proof.
  intros l l' pos b b' H. revert b b'. induction H as [|a1 b1 l l' Hab H IH]; intros b b' B.
  - exact B.
  - destruct H as [|a2 b2 l l' Hab2 H]; [exact B|]. rewrite !project_closest_cons. cbv zeta.
    pose proof Hab as ((E1 & _) & _). pose proof Hab2 as ((E2 & _) & _). rewrite E1, E2. apply IH.
    unfold gbest in B. destruct b as [[x d]|], b' as [[y e]|]; try contradiction.
    + destruct B as [B ->]. destruct (fleb _ e); cbn; repeat split; auto; try apply Hab; try apply Hab2; try apply B.
    + destruct (fleinf _); cbn; repeat split; auto; try apply Hab; try apply Hab2.
Qed.

Lemma stylus_query_chan : forall a b tip n, gs a b ->
  both seen (stylus_query fuel a tip n) (stylus_query fuel b tip n).
Proof.
  intros [st sv ac p] [st' sv' ac' p'] tip n ((U1 & U2 & U3 & RW) & SV & AC & PA).
  cbn in *. subst. unfold stylus_query. cbn [sm_state sm_params].
  pose proof (back_chan _ _ RW) as BG.
  destruct (s_raw st) as [|f l] eqn:R1, (s_raw st') as [|f' l'] eqn:R2; inversion RW; subst.
  - apply both_ret. repeat split.
  - assert (K : gopt
      (match (if sy_normal p' then n else None) with
       | Some n => project_along_normal (t_pos tip) (t_acc tip) n (f :: l)
       | None => project_to_closest (t_pos tip) (f :: l) end)
      (match (if sy_normal p' then n else None) with
       | Some n => project_along_normal (t_pos tip) (t_acc tip) n (f' :: l')
       | None => project_to_closest (t_pos tip) (f' :: l') end)).
    { destruct (if sy_normal p' then n else None); [apply project_along_normal_chan; exact RW|].
      unfold project_to_closest. pose proof (project_closest_chan _ _ (t_pos tip) None None RW I) as K.
      destruct (project_closest_loop _ (f :: l) _) as [[x d]|], (project_closest_loop _ (f' :: l') _) as [[y e]|];
        cbn in *; tauto. }
    eapply (both_bind seen).
    + destruct (match (if sy_normal p' then n else None) with Some _ => project_along_normal _ _ _ (f :: l) | None => _ end) as [x|],
        (match (if sy_normal p' then n else None) with Some _ => project_along_normal _ _ _ (f' :: l') | None => _ end) as [y|]; try contradiction.
      * destruct K as (K1 & K2 & ->). apply interp_result_chan; assumption.
      * destruct (back (f :: l)) as [r|], (back (f' :: l')) as [r'|]; try contradiction; [|intros ? ? E; discriminate E].
        pose proof BG as ((E & _) & _). rewrite E. pose proof H2 as ((E' & _) & _). rewrite E'.
        destruct (fltb _ _); apply both_ret; assumption.
    + intros x y [XY XC]. apply both_ret. split; [repeat split; cbn; apply XY|].
      destruct ch; cbn in XC |- *; rewrite ?U1, ?U2, ?U3, XC; reflexivity.
Qed.

Lemma model_stylus_loop_chan : forall tips sm sm' lm x pt, gs sm sm' ->
  both (fun a b => fst a = fst b /\ Forall2 seen (snd a) (snd b))
    (model_stylus_loop fuel tips sm lm x pt) (model_stylus_loop fuel tips sm' lm x pt).
Proof.
  induction tips as [|tip rest IH]; intros sm sm' lm x pt HS; cbn [model_stylus_loop].
  - apply both_ret. cbn. auto.
  - eapply both_bind; [apply stylus_query_chan; exact HS|]. intros q q' Q.
    eapply both_bind; [apply interp_result_chan; [exact Q|split; [repeat split|destruct ch; apply (proj2 Q)]]|]. intros r r' RR.
    pose proof RR as ((_ & E & _) & _). rewrite E. destruct (loop_update lm (r_vel r') (t_time tip)) as [l1 v1].
    eapply both_bind; [apply IH; exact HS|]. intros [l2 o] [l2' o'] [K1 K2]. cbn in K1, K2. subst.
    apply both_ret. cbn. auto.
Qed.

Definition gr (x y : upd_result) : Prop :=
  let '(m, s, r) := x in let '(m', s', r') := y in gm m m' /\ s = s' /\ Forall2 seen r r'.

Lemma seen_refl : forall l, Forall2 seen l l.
Proof. induction l; constructor; auto. repeat split. Qed.

Lemma number_of_steps_chan : forall tip a b a' b' sp pp,
  P a a' -> P b b' -> number_of_steps tip a b sp pp = number_of_steps tip a' b' sp pp.
Proof.
  intros tip a b a' b' sp pp H1 H2. destruct (proj1 (proj1 HP) _ _ H1) as (_ & P1 & T1 & _), (proj1 (proj1 HP) _ _ H2) as (_ & P2 & T2 & _).
  unfold number_of_steps. rewrite P2, T1, T2. reflexivity.
Qed.

Lemma process_down_chan : forall a b p i j rs, gm a b -> P i j ->
  both gr (process_down a p i rs) (process_down b p j rs).
Proof.
  intros a b p i j rs M PI. pose proof M as M0. destruct M. unfold process_down. destruct (proj1 (proj1 HP) _ _ PI) as (EV & PO & T & _).
  unfold gl in gm_last0. destruct (m_last a) eqn:L, (m_last b) eqn:L'; try contradiction.
  - apply both_ret. split; [exact M0|split; [reflexivity|apply seen_refl]].
  - rewrite <- PO. eapply (both_bind gs).
    { replace (i_time i) with (i_time i) by reflexivity. apply stylus_update_chan; [|assumption].
      destruct gm_sty0 as (S1 & S2 & S3 & S4). repeat split; cbn; auto; try apply S2. }
    intros s1 s2 S12. rewrite <- T, <- gm_pred0.
    eapply (both_bind eq); [apply both_refl|]. intros pr pr' <-. apply both_ret.
    split; [constructor; cbn; auto; congruence|split; [reflexivity|]].
    apply Forall2_app; [apply seen_refl|]. constructor; [split; [repeat split|pose proof (proj2 HP _ _ PI) as RD; destruct ch; exact RD]|constructor].
Qed.

Lemma process_move_chan : forall a b p i j rs, gm a b -> P i j ->
  both gr (process_move fuel a p i rs) (process_move fuel b p j rs).
Proof.
  intros a b p i j rs M PI. pose proof M as M0. destruct M. unfold process_move. destruct (proj1 (proj1 HP) _ _ PI) as (EV & PO & T & _).
  unfold gl in gm_last0. destruct (m_last a) eqn:L, (m_last b) eqn:L'; try contradiction.
  2: { apply both_ret. split; [exact M0|split; [reflexivity|apply seen_refl]]. }
  destruct gm_last0 as [PL CL].
  rewrite <- PO, <- T, <- gm_wob0. eapply (both_bind eq); [apply both_refl|]. intros [w c] ? <-.
  eapply (both_bind gs); [rewrite T at 2; apply stylus_update_chan; assumption|]. intros s1 s2 S12.
  rewrite <- gm_pos0, (number_of_steps_chan _ _ _ _ _ _ _ PL PI).
  eapply (both_bind eq); [apply both_refl|]. intros [n|e] ? <-.
  - rewrite CL. destruct (proj1 (proj1 HP) _ _ PL) as (_ & _ & TL & _). rewrite TL.
    eapply (both_bind eq); [apply both_refl|]. intros [tip tips] ? <-. rewrite <- gm_pred0.
    eapply (both_bind eq); [apply both_refl|]. intros pr ? <-. rewrite <- gm_loop0.
    eapply both_bind; [apply model_stylus_loop_chan; exact S12|].
    intros [l1 o1] [l2 o2] [K1 K2]. cbn in K1, K2. subst. apply both_ret.
    split; [constructor; cbn; auto; congruence|split; [reflexivity|]].
    apply Forall2_app; [apply seen_refl|assumption].
  - apply both_ret. split; [constructor; cbn; auto; rewrite L, L'; split; assumption|split; [reflexivity|apply seen_refl]].
Qed.

Lemma process_up_chan : forall a b p i j rs, gm a b -> P i j ->
  both gr (process_up fuel a p i rs) (process_up fuel b p j rs).
Proof.
  intros a b p i j rs M PI. pose proof M as M0. destruct M. unfold process_up. destruct (proj1 (proj1 HP) _ _ PI) as (EV & PO & T & _).
  unfold gl in gm_last0. destruct (m_last a) eqn:L, (m_last b) eqn:L'; try contradiction.
  2: { apply both_ret. split; [exact M0|split; [reflexivity|apply seen_refl]]. }
  destruct gm_last0 as [PL CL].
  rewrite <- gm_pos0, (number_of_steps_chan _ _ _ _ _ _ _ PL PI).
  eapply (both_bind eq); [apply both_refl|]. intros [n|e] ? <-.
  - rewrite CL. destruct (proj1 (proj1 HP) _ _ PL) as (_ & _ & TL & _). rewrite TL, <- PO, <- T.
    eapply (both_bind eq); [apply both_refl|]. intros [tip tips] ? <-.
    destruct (model_end_of_stroke _ _ _ _ _ _) as [tip2 tips2].
    eapply (both_bind gs); [rewrite T at 2; apply stylus_update_chan; assumption|]. intros s1 s2 S12.
    rewrite <- gm_loop0. eapply both_bind; [apply model_stylus_loop_chan; exact S12|].
    intros [l1 o1] [l2 o2] [K1 K2]. cbn in K1, K2. subst. apply both_ret.
    split; [constructor; cbn; auto; congruence|split; [reflexivity|]].
    apply Forall2_app; [apply seen_refl|assumption].
  - apply both_ret. split; [exact M0|split; [reflexivity|apply seen_refl]].
Qed.

Lemma validate_input_chan : forall i j, P i j -> validate_input i = validate_input j.
Proof.
  intros i j PI. destruct (proj1 (proj1 HP) _ _ PI) as (EV & PO & T & _). unfold validate_input. rewrite EV, PO, T. reflexivity.
Qed.

Lemma update_chan : forall a b i j rs, gm a b -> P i j -> both gr (update fuel a i rs) (update fuel b j rs).
Proof.
  intros a b i j rs M PI. unfold update. rewrite <- (gm_par _ _ M), (validate_input_chan _ _ PI).
  assert (RJ : forall e, both gr (Ret (a, e, rs)) (Ret (b, e, rs))).
  { intros e. apply both_ret. split; [exact M|]. split; [reflexivity|apply seen_refl]. }
  destruct (m_params a) as [p|]; [|apply RJ]. destruct (validate_input j); try apply RJ.
  destruct (proj1 (proj1 HP) _ _ PI) as (EV & _ & T & _).
  assert (K : both gr
    match i_event i with
    | EDown => process_down a p i rs | EMove => process_move fuel a p i rs
    | EUp => process_up fuel a p i rs | EOther _ => Ret (a, InvalidArgument msg_event, rs) end
    match i_event j with
    | EDown => process_down b p j rs | EMove => process_move fuel b p j rs
    | EUp => process_up fuel b p j rs | EOther _ => Ret (b, InvalidArgument msg_event, rs) end).
  { rewrite <- EV. destruct (i_event i); [apply process_down_chan|apply process_move_chan|apply process_up_chan|apply RJ]; auto. }
  pose proof (gm_last _ _ M) as LL. unfold gl in LL. destruct (m_last a), (m_last b); try contradiction; [|exact K].
  destruct LL as [PL _]. rewrite (proj2 (proj1 HP) _ _ _ _ PL PI), T. destruct (proj1 (proj1 HP) _ _ PL) as (_ & _ & -> & _).
  destruct (input_eqb _ _); [apply RJ|]. destruct (dltb _ _); [apply RJ|]. exact K.
Qed.

Lemma step_chan : forall a b c d, gm a b -> restyled P c d ->
  both (fun x y => gm (fst x) (fst y) /\ same_reply_seen (snd x) (snd y)) (step fuel a c) (step fuel b d).
Proof.
  intros a b c d M SC. destruct c, d; cbn in SC; try discriminate SC.
  - inversion SC; subst. cbn [step]. unfold reset_params. destruct (validate_params p0); apply both_ret; cbn; split; auto.
    destruct M. constructor; cbn; auto. congruence.
  - cbn [step]. unfold reset_keep. rewrite <- (gm_par _ _ M). destruct (m_params a) eqn:PA; apply both_ret; cbn; split; auto.
    destruct M. constructor; cbn; auto.
  - destruct SC as [PI ->]. cbn [step]. eapply both_bind; [apply update_chan; eassumption|].
    intros [[m1 s1] r1] [[m2 s2] r2] (K1 & K2 & K3). apply both_ret. cbn. auto.
  - inversion SC; subst. cbn [step]. unfold predict. rewrite <- (gm_par _ _ M), <- (gm_pred _ _ M).
    destruct (m_params a) as [p|] eqn:PA; [|apply both_ret; cbn; auto].
    destruct (m_predictor a) as [pr|] eqn:QA; [|apply both_ret; cbn; auto].
    pose proof (gm_last _ _ M) as LL. unfold gl in LL. destruct (m_last a) eqn:L, (m_last b) eqn:L'; try contradiction; [|apply both_ret; cbn; auto].
    destruct LL as [PL _]. rewrite !obind_assoc, <- (gm_pos _ _ M). eapply (both_bind eq); [apply both_refl|]. intros tips ? <-.
    rewrite !obind_assoc, <- (gm_loop _ _ M). eapply both_bind.
    { destruct (proj1 (proj1 HP) _ _ PL) as (_ & _ & -> & _). apply model_stylus_loop_chan. apply (gm_sty _ _ M). }
    intros [l1 o1] [l2 o2] [K1 K2]. cbn in K2. apply both_ret. cbn. split; [|split; [reflexivity|assumption]].
    destruct M. rewrite L, L' in *. constructor; cbn; auto; try congruence.
  - apply both_ret. cbn. split; auto. destruct M. constructor; cbn; auto;
      try (rewrite ?gm_pred0, ?gm_spred0, ?gm_wob0, ?gm_pos0, ?gm_loop0; reflexivity); try congruence.
    destruct gm_sty0 as (S1 & S2 & S3 & S4). split; [exact S1|]. split; [exact S1|]. split; [reflexivity|exact S4].
  - apply both_ret. cbn. split; auto. unfold restore. rewrite <- (gm_act _ _ M). destruct (m_save_active a) eqn:SA; [|exact M].
    destruct M. constructor; cbn; auto;
      try (rewrite ?gm_pred0, ?gm_spred0, ?gm_wob0, ?gm_pos0, ?gm_loop0; reflexivity); try congruence.
    destruct gm_sty0 as (S1 & S2 & S3 & S4). unfold stylus_restore. rewrite <- S3. destruct (sm_save_active (m_stylus a)) eqn:X.
    + split; [exact S2|]. split; [exact S2|]. split; [reflexivity|exact S4].
    + split; [exact S1|]. split; [exact S2|]. split; [congruence|exact S4].
Qed.

Lemma run_chan : forall cs ds a b, Forall2 (restyled P) cs ds -> gm a b ->
  both (fun x y => Forall2 same_reply_seen (snd x) (snd y)) (run fuel a cs) (run fuel b ds).
Proof.
  intros cs ds a b F. revert a b. induction F as [|c d cs ds SC F IH]; intros a b M; cbn [run].
  - apply both_ret. cbn. constructor.
  - eapply both_bind; [apply step_chan; eassumption|]. intros [m1 r1] [m2 r2] [K1 K2]. cbn in K1, K2.
    eapply both_bind; [apply IH; exact K1|]. intros [m3 r3] [m4 r4] K3. cbn in K3. apply both_ret. cbn. constructor; assumption.
Qed.

End Channels.

(** Two histories whose inputs differ only in the values of known stylus data, and
    not in channel [c], get replies with the same statuses, the same geometry and the
    same values in channel [c]. *)
Theorem C58_channels_independent : forall {A : Arith} fuel c (P : Input -> Input -> Prop) cs ds rs rs',
  restyling_others c P -> Forall2 (restyled P) cs ds ->
  answers fuel [] cs = Ret rs -> answers fuel [] ds = Ret rs' ->
  Forall2 (same_reply_channel c) rs rs'.
Proof.
  intros A fuel c P cs ds rs rs' HP F H1 H2. unfold answers in H1, H2. cbn [run obind] in H1, H2.
  bind_inv H1. destruct x as [m1 r1]. inversion H1; subst. bind_inv H2. destruct x as [m2 r2]. inversion H2; subst.
  refine (run_chan fuel c P HP cs ds modeler0 modeler0 F _ _ _ E E0).
  repeat split; constructor.
Qed.
