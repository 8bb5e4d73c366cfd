(** * C55: max_outputs_per_call only decides when a call is rejected, in any arithmetic. *)
From Coq Require Import ZArith Bool List Lia.
From Verif Require Import Calm Props_Params Quiet Props_Count.
Import ListNotations.

(** ** Specification *)
(** The same parameters with max_outputs_per_call = [K]. *)
Definition with_max_outputs {A : Arith} (K : Z) (p : StrokeModelParams) : StrokeModelParams :=
  mkParams (p_wobble p) (p_position p)
    (mkSamplingParams (sp_rate (p_sampling p)) (sp_stop (p_sampling p)) (sp_max_iter (p_sampling p)) K (sp_max_angle (p_sampling p)))
    (p_stylus p) (p_prediction p).
Definition allowing {A : Arith} (K : Z) (c : call) : call :=
  match c with CReset p => CReset (with_max_outputs K p) | _ => c end.
(** The call was rejected because of the limit. *)
Definition too_far {A : Arith} (r : reply) : Prop :=
  match r with RResults (InvalidArgument m) _ => m = msg_too_far | _ => False end.
(** An Update that added no more than [K] results. *)
Definition adds_at_most {A : Arith} (K : Z) (c : call) (r : reply) : Prop :=
  match c, r with
  | CUpdate _ before, RResults _ after => (Z.of_nat (List.length after) <= Z.of_nat (List.length before) + K)%Z
  | _, _ => True
  end.

Section Limits.
Context {A : Arith}.
Variable K : Z.
Definition lsp (sp : SamplingParams) : SamplingParams := mkSamplingParams (sp_rate sp) (sp_stop sp) (sp_max_iter sp) K (sp_max_angle sp).
Definition lpred (a : Predictor) : Predictor :=
  match a with
  | PStrokeEnd pp sp l => PStrokeEnd pp (lsp sp) l
  | PKal k => PKal (mkKPred (k_params k) (lsp (k_sampling k)) (k_last k) (k_times k) (k_x k) (k_y k))
  end.
Definition lmod (m : Modeler) : Modeler :=
  mkModeler (option_map lpred (m_predictor m)) (option_map (with_max_outputs K) (m_params m)) (m_wobble m) (m_pos m) (m_stylus m) (m_loop m)
    (m_buffer m) (m_last m) (option_map lpred (m_saved_predictor m)) (m_saved_last m) (m_save_active m).

Lemma steps_limit : forall tip a b sp pp x, number_of_steps tip a b sp pp = Ret x ->
  match x with IErr e => e <> InvalidArgument msg_too_far | IOk n => (n <= K)%Z end -> number_of_steps tip a b (lsp sp) pp = Ret x.
Proof.
  intros tip a b sp pp x H KX. unfold number_of_steps in *. cbn [lsp sp_rate sp_max_outputs sp_max_angle].
  unfold to_int in *. destruct (dtoint _) as [n0|]; [|discriminate H]. destruct (absolute_angle_to _ _) as [ang|]; [|exact H].
  assert (FIN : forall n, (if Z.ltb (sp_max_outputs sp) n then Ret (IErr (InvalidArgument msg_too_far)) else Ret (IOk n)) = Ret x ->
    (if Z.ltb K n then Ret (IErr (InvalidArgument msg_too_far)) else Ret (IOk n)) = Ret x).
  { intros n E. destruct (Z.ltb _ n); injection E as <-; [congruence|]. destruct (Z.ltb_spec K n); [lia|reflexivity]. }
  destruct (dltb d0 (sp_max_angle sp)); [|apply FIN; exact H].
  destruct (dtoint _) as [n1|]; [|discriminate H]. apply FIN. exact H.
Qed.
Lemma lpred_update : forall a pos t, pred_update (lpred a) pos t = (let* x := pred_update a pos t in Ret (lpred x)).
Proof.
  intros [pp sp l|k] pos t; cbn [lpred pred_update obind]; [reflexivity|]. unfold kpred_update. cbn [k_params k_sampling k_last k_times k_x k_y].
  destruct (kf_update _ _ (k_x k) _) as [x| |]; cbn [obind]; try reflexivity. destruct (kf_update _ _ (k_y k) _) as [y| |]; cbn [obind]; reflexivity.
Qed.
Lemma lpred_reset : forall a, pred_reset (lpred a) = lpred (pred_reset a).
Proof. intros [pp sp l|k]; reflexivity. Qed.
Lemma lpred_construct : forall a tip, pred_construct (lpred a) tip = pred_construct a tip.
Proof. intros [pp sp [l|]|k] tip; reflexivity. Qed.
Lemma lpred_any : forall o pos t,
  match option_map lpred o with None => Ret None | Some pr => let* pr' := pred_update pr pos t in Ret (Some pr') end =
  (let* x := match o with None => Ret None | Some pr => let* pr' := pred_update pr pos t in Ret (Some pr') end in Ret (option_map lpred x)).
Proof.
  intros [a|] pos t; cbn [option_map obind]; [|reflexivity]. rewrite lpred_update.
  destruct (pred_update a pos t); reflexivity.
Qed.
Lemma lvalid : forall p, (0 < sp_max_outputs (p_sampling p))%Z -> (0 < K)%Z -> validate_params (with_max_outputs K p) = validate_params p.
Proof.
  intros p H1 H2. unfold validate_params, with_max_outputs. cbn [p_wobble p_position p_sampling p_stylus p_prediction].
  assert (E : validate_sampling (mkSamplingParams (sp_rate (p_sampling p)) (sp_stop (p_sampling p)) (sp_max_iter (p_sampling p)) K (sp_max_angle (p_sampling p))) = validate_sampling (p_sampling p)).
  { unfold validate_sampling. cbn [sp_rate sp_stop sp_max_iter sp_max_outputs sp_max_angle]. unfold validate_gt0_i.
    replace (Z.leb K 0) with false by (symmetry; apply Z.leb_gt; exact H2). replace (Z.leb (sp_max_outputs (p_sampling p)) 0) with false by (symmetry; apply Z.leb_gt; exact H1). reflexivity. }
  rewrite E. reflexivity.
Qed.

Lemma steps_lmod : forall tip a b p x, number_of_steps tip a b (p_sampling p) (p_position p) = Ret x ->
  match x with IErr e => e <> InvalidArgument msg_too_far | IOk n => (n <= K)%Z end ->
  number_of_steps tip a b (p_sampling (with_max_outputs K p)) (p_position (with_max_outputs K p)) = Ret x.
Proof. intros. apply steps_limit; assumption. Qed.
Lemma count_limit : forall (P : Prop) tip a b p n j, number_of_steps tip a b (p_sampling p) (p_position p) = Ret (IOk n) ->
  (sp_max_outputs (p_sampling p) <= K)%Z \/ P -> (P -> (Z.of_nat j <= K)%Z) -> (0 < K)%Z -> (Z.to_nat n <= j)%nat -> (n <= K)%Z.
Proof. intros P tip a b p n j NS [L|L] PK K0 J; [apply number_of_steps_le in NS; lia|]. specialize (PK L). lia. Qed.

Lemma update_limit : forall fuel m i rs m' s rs', (0 < K)%Z -> update fuel m i rs = Ret (m', s, rs') -> s <> InvalidArgument msg_too_far ->
  (forall p, m_params m = Some p -> (sp_max_outputs (p_sampling p) <= K)%Z \/ (Z.of_nat (List.length rs') <= Z.of_nat (List.length rs) + K)%Z) ->
  update fuel (lmod m) i rs = Ret (lmod m', s, rs').
Proof.
  intros fuel m i rs m' s rs' K0 H NF OK. unfold update in *. cbn [lmod m_params m_last]. destruct (m_params m) as [p|] eqn:MP; cbn [option_map].
  2:{ injection H as <- <- <-. unfold lmod. rewrite MP. reflexivity. }
  specialize (OK p eq_refl).
  assert (KEEP : forall e, Ret (m, e, rs) = Ret (m', s, rs') -> Ret (lmod m, e, rs) = Ret (lmod m', s, rs')) by (intros e E; injection E as <- <- <-; reflexivity).
  destruct (validate_input i); try (apply KEEP; exact H).
  assert (DIS : match i_event i with
    | EDown => process_down m p i rs | EMove => process_move fuel m p i rs
    | EUp => process_up fuel m p i rs | EOther _ => Ret (m, InvalidArgument msg_event, rs) end = Ret (m', s, rs') ->
    match i_event i with
    | EDown => process_down (lmod m) (with_max_outputs K p) i rs | EMove => process_move fuel (lmod m) (with_max_outputs K p) i rs
    | EUp => process_up fuel (lmod m) (with_max_outputs K p) i rs | EOther _ => Ret (lmod m, InvalidArgument msg_event, rs) end = Ret (lmod m', s, rs')).
  { clear H. intros H. destruct (i_event i); [| | |apply KEEP; exact H].
    - unfold process_down in *. cbn [lmod m_last m_wobble m_loop m_stylus m_predictor with_max_outputs p_wobble p_position p_stylus] in *.
      destruct (m_last m) as [l|] eqn:ML; [apply KEEP; exact H|].
      destruct (stylus_update _ _ _ _ _ _) as [sm| |]; cbn [obind] in *; try discriminate H.
      destruct (m_predictor m) as [a|] eqn:MPR; cbn [option_map] in *.
      + rewrite lpred_reset, lpred_update. destruct (pred_update (pred_reset a) _ _) as [x| |]; cbn [obind] in *; try discriminate H.
        injection H as <- <- <-. unfold lmod. cbn. rewrite MP. reflexivity.
      + cbn [obind] in *. injection H as <- <- <-. unfold lmod. cbn. rewrite MP. reflexivity.
    - unfold process_move in *. cbn [lmod m_last m_wobble m_pos m_loop m_stylus m_predictor m_buffer m_saved_predictor m_saved_last m_save_active] in *.
      destruct (m_last m) as [l|] eqn:ML; [|apply KEEP; exact H].
      destruct (wobble_update _ _ _) as [[w c]| |]; cbn [obind] in *; try discriminate H.
      destruct (stylus_update _ _ _ _ _ _) as [sm| |] eqn:SU; cbn [obind] in *; try discriminate H.
      destruct (number_of_steps _ _ _ _ (p_position p)) as [[k|e]| |] eqn:NS; cbn [obind] in *; try discriminate H.
      2:{ injection H as <- <- <-. rewrite (steps_lmod _ _ _ _ _ NS NF). cbn [obind]. unfold lmod. cbn. rewrite MP. reflexivity. }
      destruct (update_along_path _ _ _ _ _ _ _) as [[tip tips]| |] eqn:UA; cbn [obind] in *; try discriminate H.
      destruct (match m_predictor m with None => _ | Some _ => _ end) as [pr| |] eqn:PR; cbn [obind] in *; try discriminate H.
      destruct (model_stylus _ _ _ _ _) as [[lm out]| |] eqn:MS; cbn [obind] in *; try discriminate H. injection H as <- <- <-.
      assert (KN : (k <= K)%Z).
      { eapply (count_limit _ _ _ _ _ _ (List.length out) NS OK); [intros Q; rewrite app_length in Q; lia|exact K0|].
        apply update_along_path_length in UA. unfold model_stylus in MS. apply stylus_loop_length in MS. lia. }
      rewrite (steps_lmod _ _ _ _ _ NS KN). cbn [obind]. rewrite UA. cbn [obind]. rewrite lpred_any, PR. cbn [obind]. rewrite MS. cbn [obind].
      unfold lmod. cbn. rewrite MP. reflexivity.
    - unfold process_up in *. cbn [lmod m_last m_wobble m_pos m_loop m_stylus m_predictor m_buffer m_saved_predictor m_saved_last m_save_active] in *.
      destruct (m_last m) as [l|] eqn:ML; [|apply KEEP; exact H].
      destruct (number_of_steps _ _ _ _ (p_position p)) as [[k|e]| |] eqn:NS; cbn [obind] in *; try discriminate H.
      2:{ rewrite (steps_lmod _ _ _ _ (IErr e) NS); [cbn [obind]; apply KEEP; exact H|]. injection H as <- <- <-. exact NF. }
      destruct (update_along_path _ _ _ _ _ _ _) as [[tip tips]| |] eqn:UA; cbn [obind] in *; try discriminate H.
      destruct (model_end_of_stroke _ _ _ _ _ _) as [tip2 tips2] eqn:ME.
      destruct (stylus_update _ _ _ _ _ _) as [sm| |] eqn:SU; cbn [obind] in *; try discriminate H.
      destruct (model_stylus _ _ _ _ _) as [[lm out]| |] eqn:MS; cbn [obind] in *; try discriminate H. injection H as <- <- <-.
      assert (KN : (k <= K)%Z).
      { eapply (count_limit _ _ _ _ _ _ (List.length out) NS OK); [intros Q; rewrite app_length in Q; lia|exact K0|].
        apply update_along_path_length in UA. unfold model_stylus in MS. apply stylus_loop_length in MS. rewrite <- UA, MS.
        destruct tips; cbn [app List.length]; [lia|]. rewrite app_length. lia. }
      rewrite (steps_lmod _ _ _ _ _ NS KN). cbn [obind]. rewrite UA. cbn [obind with_max_outputs p_sampling sp_rate sp_max_iter sp_stop]. rewrite ME.
      rewrite ?SU. cbn [obind]. rewrite MS. cbn [obind]. unfold lmod. cbn. rewrite MP. reflexivity. }
  destruct (m_last m); [|apply DIS; exact H]. destruct (input_eqb _ _); [apply KEEP; exact H|]. destruct (dltb _ _); [apply KEEP; exact H|]. apply DIS. exact H.
Qed.

Lemma step_limit : forall fuel m c m' r, (0 < K)%Z -> step fuel m c = Ret (m', r) -> ~ too_far r ->
  (forall p, m_params m = Some p -> (sp_max_outputs (p_sampling p) <= K)%Z \/ adds_at_most K c r) ->
  (forall p, c = CReset p -> (0 < sp_max_outputs (p_sampling p))%Z) ->
  step fuel (lmod m) (allowing K c) = Ret (lmod m', r).
Proof.
  intros fuel m c m' r K0 H NF OK RP. destruct c as [p| |i rs|rs| |]; cbn [allowing step] in *.
  - unfold reset_params in *. rewrite lvalid by (try assumption; apply (RP p eq_refl)). destruct (validate_params p); injection H as <- <-; try reflexivity.
    unfold lmod. cbn. f_equal. f_equal. f_equal. unfold make_predictor. cbn [with_max_outputs p_prediction p_sampling p_position]. destruct (p_prediction p); reflexivity.
  - unfold reset_keep in *. cbn [lmod m_params]. destruct (m_params m) as [p|] eqn:MP; cbn [option_map]; injection H as <- <-; unfold lmod; cbn; rewrite ?MP; reflexivity.
  - destruct (update fuel m i rs) as [[[m1 s1] r1]| |] eqn:U; cbn [obind] in H; try discriminate H. injection H as <- <-.
    rewrite (update_limit fuel m i rs m1 s1 r1 K0 U); [reflexivity| |exact OK]. intros ->. apply NF. reflexivity.
  - unfold predict in *. cbn [lmod m_params m_predictor m_last m_pos m_stylus m_loop m_wobble]. destruct (m_params m) as [p|] eqn:MP; cbn [option_map].
    2:{ injection H as <- <-. unfold lmod. rewrite MP. reflexivity. }
    destruct (m_predictor m) as [pr|] eqn:PR; cbn [option_map].
    2:{ injection H as <- <-. unfold lmod. rewrite ?MP, ?PR. reflexivity. }
    destruct (m_last m) as [lst|] eqn:ML.
    2:{ injection H as <- <-. unfold lmod. rewrite ?MP, ?PR, ?ML. reflexivity. }
    rewrite lpred_construct. destruct (pred_construct _ _) as [tips| |]; cbn [obind] in *; try discriminate H.
    destruct (model_stylus _ _ _ _ _) as [[lm out]| |]; cbn [obind] in *; try discriminate H. injection H as <- <-. reflexivity.
  - injection H as <- <-. unfold save, lmod. cbn. destruct (m_predictor m); reflexivity.
  - injection H as <- <-. unfold restore. cbn [lmod m_save_active]. destruct (m_save_active m) eqn:SA; [|unfold lmod; rewrite SA; reflexivity].
    unfold lmod. cbn. destruct (m_saved_predictor m); rewrite ?SA; reflexivity.
Qed.

Lemma params_limit : forall fuel m c m' r (P : StrokeModelParams -> Prop), step fuel m c = Ret (m', r) ->
  (forall p, m_params m = Some p -> P p) -> (forall p, c = CReset p -> P p) -> forall p, m_params m' = Some p -> P p.
Proof.
  intros fuel m c m' r P H HM HC p MP. destruct c as [p0| |i rs|rs| |]; cbn [step] in H.
  - unfold reset_params in H. destruct (validate_params p0); injection H as <- <-; try (apply HM; exact MP). cbn [m_params] in MP. injection MP as <-. apply HC. reflexivity.
  - unfold reset_keep in H. destruct (m_params m) as [q|] eqn:MQ; injection H as <- <-; apply HM; [exact MP|congruence].
  - destruct (update fuel m i rs) as [[[m1 s1] r1]| |] eqn:U; cbn [obind] in H; try discriminate H. injection H as <- <-.
    apply update_params_same in U. apply HM. congruence.
  - unfold predict in H. destruct (m_params m) as [q|] eqn:MQ; [|injection H as <- <-; congruence]. destruct (m_predictor m); [|injection H as <- <-; apply HM; congruence].
    destruct (m_last m); [|injection H as <- <-; apply HM; congruence]. destruct (pred_construct _ _); cbn [obind] in H; try discriminate H.
    destruct (model_stylus _ _ _ _ _) as [[lm out]| |]; cbn [obind] in H; try discriminate H. injection H as <- <-. apply HM. exact MP.
  - injection H as <- <-. apply HM. exact MP.
  - injection H as <- <-. unfold restore in MP. destruct (m_save_active m); apply HM; exact MP.
Qed.

Lemma run_limit : forall fuel cs m m' rs, (0 < K)%Z -> run fuel m cs = Ret (m', rs) -> (forall r, In r rs -> ~ too_far r) ->
  (forall p, In (CReset p) cs -> (0 < sp_max_outputs (p_sampling p))%Z) ->
  ((forall p, m_params m = Some p -> (sp_max_outputs (p_sampling p) <= K)%Z) /\ (forall p, In (CReset p) cs -> (sp_max_outputs (p_sampling p) <= K)%Z) \/ Forall2 (adds_at_most K) cs rs) ->
  run fuel (lmod m) (map (allowing K) cs) = Ret (lmod m', rs).
Proof.
  intros fuel. induction cs as [|c cs IH]; intros m m' rs K0 H NF RP OK; cbn [run map] in *; [injection H as <- <-; reflexivity|].
  destruct (step fuel m c) as [[m1 r1]| |] eqn:S1; cbn [obind] in H; try discriminate H.
  destruct (run fuel m1 cs) as [[m2 q]| |] eqn:R1; cbn [obind] in H; try discriminate H. injection H as <- <-.
  rewrite (step_limit fuel m c m1 r1 K0 S1); [| |  |].
  - cbn [obind]. rewrite (IH m1 m2 q K0 R1); [reflexivity|intros r I1; apply NF; right; exact I1|intros p I1; apply RP; right; exact I1|].
    destruct OK as [[O1 O2]|O]; [left|right; inversion O; assumption]. split; [|intros p I1; apply O2; right; exact I1].
    apply (params_limit fuel m c m1 r1 _ S1 O1). intros p ->. apply O2. left. reflexivity.
  - apply NF. left. reflexivity.
  - intros p MP. destruct OK as [[O1 _]|O]; [left; apply O1; exact MP|right; inversion O; assumption].
  - intros p ->. apply RP. left. reflexivity.
Qed.
End Limits.

(** ** C55 *)
(** Changing max_outputs_per_call to [K] changes no answer, if no call was rejected
    because of the limit, and either [K] is no smaller than before, or no Update added
    more than [K] results. *)
Theorem C55_limit_only_rejects : forall (A : Arith) fuel K hist rs, (0 < K)%Z ->
  (forall p, In (CReset p) hist -> (0 < sp_max_outputs (p_sampling p))%Z) ->
  answers fuel [] hist = Ret rs -> (forall r, In r rs -> ~ too_far r) ->
  (forall p, In (CReset p) hist -> (sp_max_outputs (p_sampling p) <= K)%Z) \/ Forall2 (adds_at_most K) hist rs ->
  answers fuel [] (map (allowing K) hist) = Ret rs.
Proof.
  intros A fuel K hist rs K0 RP H NF OK. unfold answers in *. cbn [run obind fst snd] in *.
  destruct (run fuel modeler0 hist) as [[m q]| |] eqn:R; try discriminate H. cbn [obind fst snd] in H. injection H as <-.
  pose proof (run_limit K fuel hist modeler0 m q K0 R NF RP) as L. change (lmod K modeler0) with modeler0 in L. rewrite L; [reflexivity|].
  destruct OK as [O|O]; [left; split; [discriminate|exact O]|right; exact O].
Qed.

