(** * Mirror images of a drawing: what follows for the model from a few laws of the arithmetic. *)
From Coq Require Import ZArith Bool List Lia.
From Verif Require Import Spec Props_Params.
Import ListNotations.

(** A symmetry of the square: exchange the axes if [fl_swap] is set; change the
    sign of what was x if [fl_nx], of what was y if [fl_ny]. *)
Record flip : Type := mkFlip { fl_swap : bool; fl_nx : bool; fl_ny : bool }.
(** Turns by 0, 90, 180 or 270 degrees; the others are reflections. *)
Definition turn (g : flip) : bool := negb (xorb (fl_swap g) (xorb (fl_nx g) (fl_ny g))).

Definition oprel {X} (R : X -> X -> Prop) (a b : option X) : Prop :=
  match a, b with Some x, Some y => R x y | None, None => True | _, _ => False end.
Lemma orel_bind : forall {X Y} (R : X -> X -> Prop) (Q : Y -> Y -> Prop) m n f h,
  orel R m n -> (forall x y, R x y -> orel Q (f x) (h y)) -> orel Q (obind m f) (obind n h).
Proof. intros X Y R Q [x|k|] [y|k'|] f h H K; cbn in *; try contradiction; auto. Qed.
Lemma orel_weaken : forall {X} (R Q : X -> X -> Prop) m n, orel R m n -> (forall x y, R x y -> Q x y) -> orel Q m n.
Proof. intros X R Q [x|k|] [y|k'|] H K; cbn in *; try contradiction; auto. Qed.
Lemma orel_eq : forall {X} (R : X -> X -> Prop) m n, m = n -> (forall x, R x x) -> orel R m n.
Proof. intros X R m n -> H. destruct n; cbn; auto. Qed.
Lemma nth_rel : forall {X} (R : X -> X -> Prop) l l' k, Forall2 R l l' -> oprel R (nth_error l k) (nth_error l' k).
Proof. intros X R l l' k H. revert k. induction H; intros [|k]; cbn; auto. Qed.
Lemma length_rel : forall {X} (R : X -> X -> Prop) l l', Forall2 R l l' -> List.length l = List.length l'.
Proof. intros X R l l' H. induction H; cbn; auto. Qed.
Lemma back_rel : forall {X} (R : X -> X -> Prop) l l', Forall2 R l l' -> oprel R (back l) (back l').
Proof. intros X R l l' H. unfold back. rewrite (length_rel _ _ _ H). apply nth_rel. exact H. Qed.
Lemma app_rel : forall {X} (R : X -> X -> Prop) l l' k k', Forall2 R l l' -> Forall2 R k k' -> Forall2 R (l ++ k) (l' ++ k').
Proof. intros X R l l' k k' H. induction H; cbn; auto. Qed.
Lemma one_rel : forall {X} (R : X -> X -> Prop) x y, R x y -> Forall2 R [x] [y].
Proof. auto. Qed.
Lemma eq_rel : forall {X} (l l' : list X), Forall2 eq l l' <-> l = l'.
Proof.
  intros X l l'. split; [intros H; induction H; congruence|]. intros ->. induction l'; auto.
Qed.
Lemma size_rel : forall {X} (R : X -> X -> Prop) l l' k, Forall2 R l l' -> size_gt l k = size_gt l' k.
Proof. intros X R l l' k H. unfold size_gt. rewrite (length_rel _ _ _ H). reflexivity. Qed.

Section Mirror.
Context {A : Arith}.
(** [sg b x y]: [y] is [x] with its sign changed if [b], up to the sign of zero;
    [sd] is the same for doubles. *)
Variable sg : bool -> F -> F -> Prop.
Variable sd : bool -> D -> D -> Prop.
Record sign_laws : Prop := mkLaws {
  s_refl : forall x, sg false x x;
  s_0 : forall b, sg b f0 f0;
  s_add : forall b x y x' y', sg b x x' -> sg b y y' -> sg b (fadd x y) (fadd x' y');
  s_sub : forall b x y x' y', sg b x x' -> sg b y y' -> sg b (fsub x y) (fsub x' y');
  s_swap : forall b x y x' y', sg b x x' -> sg b y y' -> sg (negb b) (fsub x y) (fsub y' x');
  s_mul : forall b c x y x' y', sg b x x' -> sg c y y' -> sg (xorb b c) (fmul x y) (fmul x' y');
  s_div : forall b x x' k, sg b x x' -> sg b (fdiv x k) (fdiv x' k);
  s_neg : forall b x x', sg b x x' -> sg (negb b) (fneg x) x';
  s_neg' : forall b x x', sg b x x' -> sg (negb b) x (fneg x');
  s_comm : forall x y, fadd x y = fadd y x;
  s_square : forall b x x', sg b x x' -> fmul x x = fmul x' x';
  s_hypot : forall b c x y x' y', sg b x x' -> sg c y y' -> fhypot x y = fhypot x' y';
  s_hypotc : forall x y, fhypot x y = fhypot y x;
  s_ltb : forall x y x' y', sg false x x' -> sg false y y' -> fltb x y = fltb x' y';
  s_eqb : forall b x y x' y', sg b x x' -> sg b y y' -> feqb x y = feqb x' y';
  s_nan : forall b x x', sg b x x' -> fisnan x = fisnan x';
  s_inf : forall b x x', sg b x x' -> fisinf x = fisinf x';
  s_abs : forall x x', sg false x x' -> fabs x = fabs x';
  s_acos : forall x x', sg false x x' -> facos x = facos x';
  s_nz : forall x x', sg false x x' -> feqb x f0 = false -> x = x';
  d_refl : forall x, sd false x x;
  d_0 : forall b, sd b d0 d0;
  d_add : forall b x y x' y', sd b x x' -> sd b y y' -> sd b (dadd x y) (dadd x' y');
  d_sub : forall b x y x' y', sd b x x' -> sd b y y' -> sd b (dsub x y) (dsub x' y');
  d_mul : forall b c x y x' y', sd b x x' -> sd c y y' -> sd (xorb b c) (dmul x y) (dmul x' y');
  d_ltb : forall x y x' y', sd false x x' -> sd false y y' -> dltb x y = dltb x' y';
  s_f2d : forall b x x', sg b x x' -> sd b (f2d x) (f2d x');
  s_d2f : forall b x x', sd b x x' -> sg b (d2f x) (d2f x')
}.
Hypothesis L : sign_laws.
Variable g : flip.
Notation nx := (fl_nx g).
Notation ny := (fl_ny g).

Lemma s_mull : forall b k x x', sg b x x' -> sg b (fmul k x) (fmul k x').
Proof. intros b k x x' H. pose proof (s_mul L false b k x k x' (s_refl L k) H) as K. rewrite xorb_false_l in K. exact K. Qed.
Lemma s_mulr : forall b k x x', sg b x x' -> sg b (fmul x k) (fmul x' k).
Proof. intros b k x x' H. pose proof (s_mul L b false x k x' k H (s_refl L k)) as K. rewrite xorb_false_r in K. exact K. Qed.
Lemma d_mulr : forall b k x x', sd b x x' -> sd b (dmul x k) (dmul x' k).
Proof. intros b k x x' H. pose proof (d_mul L b false x k x' k H (d_refl L k)) as K. rewrite xorb_false_r in K. exact K. Qed.
Lemma d_mull : forall b k x x', sd b x x' -> sd b (dmul k x) (dmul k x').
Proof. intros b k x x' H. pose proof (d_mul L false b k x k x' (d_refl L k) H) as K. rewrite xorb_false_l in K. exact K. Qed.
Lemma s_add_comm : forall b x y x' y', sg b x x' -> sg b y y' -> sg b (fadd x y) (fadd y' x').
Proof. intros. rewrite (s_comm L y' x'). apply (s_add L); assumption. Qed.

(** ** Vectors *)
Definition VR (a b : Vec2) : Prop :=
  if fl_swap g then sg nx (vx a) (vy b) /\ sg ny (vy a) (vx b) else sg nx (vx a) (vx b) /\ sg ny (vy a) (vy b).
Ltac vr := unfold VR; destruct (fl_swap g); repeat (intros [? ?]); split.
Lemma V0 : VR vzero vzero.
Proof. vr; apply (s_0 L). Qed.
Lemma V_add : forall a b a' b', VR a a' -> VR b b' -> VR (vadd a b) (vadd a' b').
Proof. intros a b a' b'. vr; apply (s_add L); assumption. Qed.
Lemma V_sub : forall a b a' b', VR a a' -> VR b b' -> VR (vsub a b) (vsub a' b').
Proof. intros a b a' b'. vr; apply (s_sub L); assumption. Qed.
Lemma V_scale : forall k a a', VR a a' -> VR (vscale k a) (vscale k a').
Proof. intros k a a'. vr; apply s_mull; assumption. Qed.
Lemma V_scale_s : forall k k' a a', sg false k k' -> VR a a' -> VR (vscale k a) (vscale k' a').
Proof. intros k k' a a' K. vr; cbn; match goal with |- sg ?b _ _ => rewrite <- (xorb_false_l b) end; apply (s_mul L); assumption. Qed.
Lemma V_scaler : forall k a a', VR a a' -> VR (vscale_assign a k) (vscale_assign a' k).
Proof. intros k a a'. vr; apply s_mulr; assumption. Qed.
Lemma V_div : forall k a a', VR a a' -> VR (vdiv a k) (vdiv a' k).
Proof. intros k a a'. vr; apply (s_div L); assumption. Qed.
Lemma V_mag : forall a a', VR a a' -> magnitude a = magnitude a'.
Proof.
  intros a a'. unfold VR, magnitude. destruct (fl_swap g); intros [H K].
  - rewrite (s_hypotc L (vx a')). exact (s_hypot L _ _ _ _ _ _ H K).
  - exact (s_hypot L _ _ _ _ _ _ H K).
Qed.
Lemma V_dist : forall a b a' b', VR a a' -> VR b b' -> distance a b = distance a' b'.
Proof. intros. apply V_mag. apply V_sub; assumption. Qed.
Lemma V_dot : forall a b a' b', VR a a' -> VR b b' -> sg false (vdot a b) (vdot a' b').
Proof.
  intros a b a' b'. unfold VR, vdot. destruct (fl_swap g); intros [H K] [M N]; [apply s_add_comm|apply (s_add L)];
    match goal with H : sg ?b ?x ?x', M : sg ?b ?y ?y' |- sg false (fmul ?x ?y) _ => rewrite <- (xorb_nilpotent b); apply (s_mul L); assumption end.
Qed.
Lemma V_norm2 : forall a a', VR a a' -> vdot a a = vdot a' a'.
Proof.
  intros a a'. unfold VR, vdot. destruct (fl_swap g); intros [H K]; rewrite (s_square L _ _ _ H), (s_square L _ _ _ K); [apply (s_comm L)|reflexivity].
Qed.
Lemma V_eqb : forall a b a' b', VR a a' -> VR b b' -> veqb a b = veqb a' b'.
Proof.
  intros a b a' b'. unfold VR, veqb. destruct (fl_swap g); intros [H K] [M N];
    rewrite (s_eqb L _ _ _ _ _ H M), (s_eqb L _ _ _ _ _ K N); [apply andb_comm|reflexivity].
Qed.
Lemma s_fin : forall b x y, sg b x y -> fisfinite x = fisfinite y.
Proof. intros b x y H. unfold fisfinite. rewrite (s_nan L _ _ _ H), (s_inf L _ _ _ H). reflexivity. Qed.
Lemma V_fin : forall a a', VR a a' -> vfinite a = vfinite a'.
Proof.
  intros a a'. unfold VR, vfinite. destruct (fl_swap g); intros [H K]; rewrite (s_fin _ _ _ H), (s_fin _ _ _ K); [apply andb_comm|reflexivity].
Qed.

(** ** Numbers *)
Notation same := (sg false).
Lemma c_clamp : forall x x', same x x' -> same (clamp01 x) (clamp01 x').
Proof.
  intros x x' H. unfold clamp01, std_clamp. rewrite (s_ltb L x f0 x' f0 H (s_refl L _)), (s_ltb L f1 x f1 x' (s_refl L _) H).
  destruct (fltb x' f0), (fltb f1 x'); auto using (s_refl L).
Qed.
Lemma c_clamp1 : forall x x', same x x' -> same (std_clamp x fm1 f1) (std_clamp x' fm1 f1).
Proof.
  intros x x' H. unfold std_clamp. rewrite (s_ltb L x fm1 x' fm1 H (s_refl L _)), (s_ltb L f1 x f1 x' (s_refl L _) H).
  destruct (fltb x' fm1), (fltb f1 x'); auto using (s_refl L).
Qed.
Lemma c_interp : forall a b x a' b' x', same a a' -> same b b' -> same x x' -> same (interp_f a b x) (interp_f a' b' x').
Proof.
  intros. unfold interp_f. apply (s_add L); [assumption|]. apply (s_mul L false false); [apply (s_sub L); assumption|apply c_clamp; assumption].
Qed.
Lemma V_interp : forall a b x a' b' x', VR a a' -> VR b b' -> same x x' -> VR (interp_v a b x) (interp_v a' b' x').
Proof. intros. unfold interp_v. apply V_add; [assumption|]. apply V_scale_s; [apply c_clamp; assumption|apply V_sub; assumption]. Qed.
Lemma d_const : forall b k x x', sd false x x' -> b = false -> sd b (dadd x k) (dadd x' k) /\ sd b (dsub x k) (dsub x' k).
Proof. intros b k x x' H ->. split; [apply (d_add L)|apply (d_sub L)]; try assumption; apply (d_refl L). Qed.
Lemma c_up : forall fuel x x', same x x' -> orel same (norm_up fuel x) (norm_up fuel x').
Proof.
  induction fuel as [|fuel IH]; intros x x' H; cbn [norm_up]; rewrite (s_ltb L x f0 x' f0 H (s_refl L _)); destruct (fltb x' f0); cbn [orel]; auto.
  apply IH. apply (s_d2f L). apply (d_add L); [apply (s_f2d L); exact H|apply (d_refl L)].
Qed.
Lemma c_down : forall fuel x x', same x x' -> orel same (norm_down fuel x) (norm_down fuel x').
Proof.
  induction fuel as [|fuel IH]; intros x x' H; cbn [norm_down];
    rewrite (d_ltb L twoPi (f2d x) twoPi (f2d x') (d_refl L _) (s_f2d L _ _ _ H)); destruct (dltb twoPi (f2d x')); cbn [orel]; auto.
  apply IH. apply (s_d2f L). apply (d_sub L); [apply (s_f2d L); exact H|apply (d_refl L)].
Qed.
Lemma c_angle : forall fuel x x', same x x' -> orel same (normalize_angle fuel x) (normalize_angle fuel x').
Proof. intros fuel x x' H. unfold normalize_angle. eapply orel_bind; [apply c_up; exact H|]. intros. apply c_down. assumption. Qed.
Lemma c_interp_angle : forall fuel a b x a' b' x', same a a' -> same b b' -> same x x' ->
  orel same (interp_angle fuel a b x) (interp_angle fuel a' b' x').
Proof.
  intros fuel a b x a' b' x' Ha Hb Hx. unfold interp_angle. eapply orel_bind; [apply c_angle; exact Ha|]. intros s s' Hs.
  eapply orel_bind; [apply c_angle; exact Hb|]. intros e e' He. cbv zeta. apply c_angle. apply c_interp; [exact Hs| |exact Hx].
  pose proof (s_f2d L _ _ _ (s_sub L _ _ _ _ _ He Hs)) as Hd. pose proof (s_f2d L _ _ _ He) as Hed.
  rewrite (d_ltb L _ _ _ _ Hd (d_refl L (dneg kPi))), (d_ltb L _ _ _ _ (d_refl L kPi) Hd).
  destruct (dltb _ _); [apply (s_d2f L); apply (d_add L); [exact Hed|apply (d_refl L)]|].
  destruct (dltb _ _); [apply (s_d2f L); apply (d_sub L); [exact Hed|apply (d_refl L)]|exact He].
Qed.

(** ** Results *)
Record RW (r q : Result) : Prop := mkRW {
  rw_pos : VR (r_pos r) (r_pos q); rw_vel : VR (r_vel r) (r_vel q); rw_acc : VR (r_acc r) (r_acc q);
  rw_pressure : same (r_pressure r) (r_pressure q); rw_tilt : same (r_tilt r) (r_tilt q); rw_orient : same (r_orient r) (r_orient q) }.
Definition RR (r q : Result) : Prop := RW r q /\ r_time r = r_time q.
Lemma neg_test : forall a b a' b', same a a' -> same b b' -> fltb a f0 || fltb b f0 = fltb a' f0 || fltb b' f0.
Proof. intros. f_equal; apply (s_ltb L); try assumption; apply (s_refl L). Qed.
Lemma c_interp_result : forall fuel a b x a' b' x', RW a a' -> RW b b' -> same x x' ->
  orel (fun r q => RW r q /\ r_time r = interp_t (r_time a) (r_time b) x /\ r_time q = interp_t (r_time a') (r_time b') x')
    (interp_result fuel a b x) (interp_result fuel a' b' x').
Proof.
  intros fuel a b x a' b' x' [A1 A2 A3 A4 A5 A6] [B1 B2 B3 B4 B5 B6] Hx. unfold interp_result.
  rewrite (neg_test _ _ _ _ A6 B6). eapply (orel_bind same).
  - destruct (_ || _); [apply (s_refl L)|apply c_interp_angle; assumption].
  - intros o o' Ho. cbn [orel]. split; [|split; reflexivity].
    constructor; cbn [r_pos r_vel r_acc r_time r_pressure r_tilt r_orient]; try (apply V_interp; assumption).
    + rewrite (neg_test _ _ _ _ A4 B4). destruct (_ || _); [apply (s_refl L)|apply c_interp; assumption].
    + rewrite (neg_test _ _ _ _ A5 B5). destruct (_ || _); [apply (s_refl L)|apply c_interp; assumption].
    + exact Ho.
Qed.
Lemma c_interp_RR : forall fuel a b x a' b', RR a a' -> RR b b' -> orel RR (interp_result fuel a b x) (interp_result fuel a' b' x).
Proof.
  intros fuel a b x a' b' [A1 A2] [B1 B2]. eapply orel_weaken; [apply c_interp_result; [exact A1|exact B1|apply (s_refl L)]|].
  cbv beta. intros r q (H & K & M). split; [exact H|]. rewrite K, M, A2, B2. reflexivity.
Qed.

Lemma c_nearest : forall a b p a' b' p', VR a a' -> VR b b' -> VR p p' ->
  same (nearest_point_on_segment a b p) (nearest_point_on_segment a' b' p').
Proof.
  intros a b p a' b' p' Ha Hb Hp. unfold nearest_point_on_segment. rewrite (V_eqb _ _ _ _ Ha Hb). destruct (veqb a' b'); [apply (s_refl L)|].
  cbv zeta. apply c_clamp. rewrite (V_norm2 _ _ (V_sub _ _ _ _ Hb Ha)). apply (s_div L). apply V_dot; apply V_sub; assumption.
Qed.
Lemma c_angle_to : forall a b a' b', VR a a' -> VR b b' -> absolute_angle_to a b = absolute_angle_to a' b'.
Proof.
  intros a b a' b' Ha Hb. unfold absolute_angle_to. rewrite (V_fin _ _ Ha), (V_fin _ _ Hb). destruct (_ || _); [reflexivity|]. cbv zeta.
  rewrite (V_mag _ _ Ha), (V_mag _ _ Hb). destruct (_ || _); [reflexivity|]. f_equal. apply (s_acos L). apply c_clamp1.
  apply V_dot; apply V_div; assumption.
Qed.

(** ** The position modeler *)
Record TR (t u : TipState) : Prop := mkTR {
  tr_pos : VR (t_pos t) (t_pos u); tr_vel : VR (t_vel t) (t_vel u); tr_acc : VR (t_acc t) (t_acc u); tr_time : t_time t = t_time u }.
Record IR (i j : Input) : Prop := mkIR {
  ir_event : i_event i = i_event j; ir_pos : VR (i_pos i) (i_pos j); ir_time : i_time i = i_time j;
  ir_pressure : i_pressure i = i_pressure j; ir_tilt : i_tilt i = i_tilt j; ir_orient : i_orient i = i_orient j }.
Lemma c_steps : forall t a b t' a' b' sp pp, TR t t' -> IR a a' -> IR b b' ->
  number_of_steps t a b sp pp = number_of_steps t' a' b' sp pp.
Proof.
  intros t a b t' a' b' sp pp [T1 T2 T3 T4] [A1 A2 A3 _ _ _] [B1 B2 B3 _ _ _]. unfold number_of_steps. rewrite A3, B3. cbv zeta.
  rewrite (c_angle_to (t_vel t) (vadd (t_vel t) (vscale (d2f (dsub (i_time b') (i_time a'))) (vdiv (vsub (i_pos b) (t_pos t)) (pp_spring pp))))
    (t_vel t') (vadd (t_vel t') (vscale (d2f (dsub (i_time b') (i_time a'))) (vdiv (vsub (i_pos b') (t_pos t')) (pp_spring pp))))).
  - reflexivity.
  - exact T2.
  - apply V_add; [exact T2|]. apply V_scale. apply V_div. apply V_sub; assumption.
Qed.
Lemma c_tip : forall pp t t' a a' x, TR t t' -> VR a a' -> TR (tip_update pp t a x) (tip_update pp t' a' x).
Proof.
  intros pp t t' a a' x [T1 T2 T3 T4] Ha. unfold tip_update. rewrite T4. cbv zeta.
  assert (AC : VR (vsub (vdiv (vsub a (t_pos t)) (pp_spring pp)) (vscale (pp_drag pp) (t_vel t))) (vsub (vdiv (vsub a' (t_pos t')) (pp_spring pp)) (vscale (pp_drag pp) (t_vel t')))).
  { apply V_sub; [apply V_div; apply V_sub; assumption|apply V_scale; assumption]. }
  assert (VE := V_add _ _ _ _ T2 (V_scale (d2f (dsub x (t_time t'))) _ _ AC)).
  constructor; cbn [t_pos t_vel t_acc t_time]; try assumption; try reflexivity.
  apply V_add; [exact T1|]. apply V_scale. exact VE.
Qed.
Definition PR (x y : TipState * list TipState) : Prop := TR (fst x) (fst y) /\ Forall2 TR (snd x) (snd y).
Lemma c_path : forall pp k t t' a a' st b b' et n i, TR t t' -> VR a a' -> VR b b' ->
  PR (path_loop pp t a st b et n i k) (path_loop pp t' a' st b' et n i k).
Proof.
  intros pp k. induction k as [|k IH]; intros t t' a a' st b b' et n i T Ha Hb; cbn [path_loop]; [split; [exact T|constructor]|]. cbv zeta.
  set (r := fdiv (fofZ i) (fofZ n)).
  pose proof (c_tip pp t t' _ _ (interp_t st et r) T (V_interp _ _ _ _ _ _ Ha Hb (s_refl L r))) as T1.
  specialize (IH _ _ a a' st b b' et n (i + 1)%Z T1 Ha Hb).
  destruct (path_loop pp _ a st b et n (i + 1) k) as [sf out], (path_loop pp _ a' st b' et n (i + 1) k) as [sf' out'].
  destruct IH as [I1 I2]. split; [exact I1|]. constructor; [exact T1|exact I2].
Qed.
Lemma c_along : forall pp t t' a a' st b b' et n, TR t t' -> VR a a' -> VR b b' ->
  orel PR (update_along_path pp t a st b et n) (update_along_path pp t' a' st b' et n).
Proof. intros. unfold update_along_path. destruct (Z.leb _ _); cbn [orel]; [reflexivity|]. apply c_path; assumption. Qed.
Lemma c_end : forall pp k t t' a a' d stop, TR t t' -> VR a a' ->
  PR (model_end_of_stroke pp t a d k stop) (model_end_of_stroke pp t' a' d k stop).
Proof.
  intros pp k. induction k as [|k IH]; intros t t' a a' d stop T Ha; cbn [model_end_of_stroke]; [split; [exact T|constructor]|]. cbv zeta.
  rewrite (tr_time _ _ T). pose proof (c_tip pp t t' a a' (dadd (t_time t') d) T Ha) as C.
  set (c := tip_update pp t a (dadd (t_time t') d)) in *. set (c' := tip_update pp t' a' (dadd (t_time t') d)) in *. clearbody c c'.
  rewrite (V_dist _ _ _ _ (tr_pos _ _ T) (tr_pos _ _ C)). destruct (fltb _ stop); [split; [exact C|constructor]|].
  rewrite (s_ltb L _ f1 _ f1 (c_nearest _ _ _ _ _ _ (tr_pos _ _ T) (tr_pos _ _ C) Ha) (s_refl L f1)). destruct (fltb _ f1); [apply IH; assumption|].
  rewrite (V_dist _ _ _ _ (tr_pos _ _ C) Ha). destruct (fltb _ stop); [split; [exact C|apply one_rel; exact C]|].
  specialize (IH c c' a a' d stop C Ha). destruct (model_end_of_stroke pp c a d k stop), (model_end_of_stroke pp c' a' d k stop).
  destruct IH as [I1 I2]. split; [exact I1|constructor; [exact C|exact I2]].
Qed.
Record POR (m n : PosModeler) : Prop := mkPOR {
  por_params : pm_params m = pm_params n; por_state : TR (pm_state m) (pm_state n); por_saved : oprel TR (pm_saved m) (pm_saved n) }.
Lemma TR0 : TR tip_default tip_default.
Proof. constructor; try apply V0; reflexivity. Qed.

(** ** The wobble smoother *)
Record WSR (a b : WSample) : Prop := mkWSR {
  wsr_pos : VR (ws_pos a) (ws_pos b); wsr_wpos : VR (ws_wpos a) (ws_wpos b); wsr_dist : ws_dist a = ws_dist b;
  wsr_dur : ws_dur a = ws_dur b; wsr_time : ws_time a = ws_time b }.
Record WTR (a b : WState) : Prop := mkWTR {
  wtr_samples : Forall2 WSR (w_samples a) (w_samples b); wtr_wsum : VR (w_wsum a) (w_wsum b);
  wtr_dsum : w_dsum a = w_dsum b; wtr_tsum : w_tsum a = w_tsum b }.
Record WR (a b : Wobble) : Prop := mkWR {
  wr_state : WTR (w_state a) (w_state b); wr_saved : WTR (w_saved a) (w_saved b);
  wr_active : w_save_active a = w_save_active b; wr_params : w_params a = w_params b }.
Lemma WTR0 : WTR wstate0 wstate0.
Proof. constructor; cbn; auto. apply V0. Qed.
Lemma c_wtrim : forall l l' w w' ds ts lim, Forall2 WSR l l' -> VR w w' ->
  orel WTR (wobble_trim l w ds ts lim) (wobble_trim l' w' ds ts lim).
Proof.
  intros l l' w w' ds ts lim H. revert w w' ds ts. induction H as [|s s' l l' HS HL IH]; intros w w' ds ts Hw; cbn [wobble_trim]; [reflexivity|].
  rewrite (wsr_time _ _ HS), (wsr_dist _ _ HS), (wsr_dur _ _ HS). destruct (dltb _ lim).
  - apply IH. apply V_sub; [exact Hw|exact (wsr_wpos _ _ HS)].
  - cbn [orel]. constructor; cbn; auto.
Qed.
Lemma c_wobble : forall w w' p p' t, WR w w' -> VR p p' ->
  orel (fun x y => WR (fst x) (fst y) /\ VR (snd x) (snd y)) (wobble_update w p t) (wobble_update w' p' t).
Proof.
  intros w w' p p' t HW Hp. pose proof HW as [[W1 W2 W3 W4] W5 W6 W7]. unfold wobble_update. rewrite W7. destruct (negb _); [cbn; auto|].
  pose proof (back_rel _ _ _ W1) as BK. destruct (back (w_samples (w_state w))) as [s|], (back (w_samples (w_state w'))) as [s'|]; cbn [oprel] in BK; try contradiction; [|reflexivity].
  cbv zeta. destruct BK as [S1 S2 S3 S4 S5]. cbn [ws_wpos ws_dist ws_dur]. rewrite S5, W3, W4, (V_dist _ _ _ _ Hp S1).
  set (k := d2f (dsub t (ws_time s'))).
  eapply (orel_bind WTR).
  - apply c_wtrim.
    + apply app_rel; [exact W1|]. apply one_rel. constructor; cbn; auto. apply V_scale. exact Hp.
    + apply V_add; [exact W2|]. apply V_scale. exact Hp.
  - intros st st' HS. pose proof HS as [T1 T2 T3 T4]. rewrite T4, T3. destruct (feqb _ f0); cbn [orel fst snd].
    + split; [|exact Hp]. constructor; cbn; auto.
    + split; [constructor; cbn; auto|]. apply V_interp; [apply V_div; exact T2|exact Hp|apply (s_refl L)].
Qed.
Lemma c_wreset : forall w w' p v v' t, WR w w' -> VR v v' -> WR (wobble_reset w p v t) (wobble_reset w' p v' t).
Proof.
  intros w w' p v v' t [W1 W2 W3 W4] Hv. constructor; cbn; auto. constructor; cbn; auto using V0.
  apply one_rel. constructor; cbn; auto using V0.
Qed.
Lemma c_wsave : forall w w', WR w w' -> WR (wobble_save w) (wobble_save w').
Proof. intros w w' [W1 W2 W3 W4]. constructor; cbn; auto. Qed.
Lemma c_wrestore : forall w w', WR w w' -> WR (wobble_restore w) (wobble_restore w').
Proof.
  intros w w' H. pose proof H as [W1 W2 W3 W4]. unfold wobble_restore. rewrite W3. destruct (w_save_active w') eqn:E; [|exact H].
  constructor; cbn; auto; congruence.
Qed.

(** ** Loop mitigation: the same on both sides *)
Lemma c_loop : forall m v v' t, VR v v' -> loop_update m v t = loop_update m v' t.
Proof. intros m v v' t H. unfold loop_update. rewrite (V_mag _ _ H). reflexivity. Qed.

(** ** The stylus state modeler *)
Record SSR (a b : SState) : Prop := mkSSR {
  ssr_p : s_unk_pressure a = s_unk_pressure b; ssr_t : s_unk_tilt a = s_unk_tilt b; ssr_o : s_unk_orient a = s_unk_orient b;
  ssr_raw : Forall2 RR (s_raw a) (s_raw b) }.
Record SR (a b : Stylus) : Prop := mkSR {
  sr_state : SSR (sm_state a) (sm_state b); sr_saved : SSR (sm_saved a) (sm_saved b);
  sr_active : sm_save_active a = sm_save_active b; sr_params : sm_params a = sm_params b }.
Lemma SSR0 : SSR sstate0 sstate0.
Proof. constructor; cbn; auto. Qed.
Lemma c_drop : forall p l l', Forall2 RR l l' -> should_drop p l = should_drop p l'.
Proof.
  intros p l l' H. unfold should_drop. rewrite (size_rel _ _ _ (sy_min_samples p) H), (size_rel _ _ _ (sy_max_samples p) H).
  destruct (sy_normal p); [|reflexivity]. destruct (size_gt l' _); [|reflexivity].
  pose proof (back_rel _ _ _ H) as B. pose proof (nth_rel _ _ _ 1%nat H) as N.
  destruct (back l) as [x|], (back l') as [x'|]; cbn [oprel] in B; try contradiction; [|reflexivity].
  destruct (nth_error l 1) as [y|], (nth_error l' 1) as [y'|]; cbn [oprel] in N; try contradiction; [|reflexivity].
  rewrite (proj2 B), (proj2 N). reflexivity.
Qed.
Lemma c_strim : forall p l l', Forall2 RR l l' -> orel (Forall2 RR) (stylus_trim p l) (stylus_trim p l').
Proof.
  intros p l l' H. induction H as [|r r' l l' HR HL IH].
  - cbn [stylus_trim]. destruct (should_drop p []) as [[|]| |]; cbn; auto.
  - cbn [stylus_trim]. rewrite (c_drop p (r :: l) (r' :: l') (Forall2_cons _ _ HR HL)). destruct (should_drop p (r' :: l')) as [[|]| |]; cbn [obind orel]; auto.
Qed.
Lemma c_supdate : forall m m' v v' t pr ti o, SR m m' -> VR v v' ->
  orel (fun x y => SR x y /\ sm_params x = sm_params m) (stylus_update m v t pr ti o) (stylus_update m' v' t pr ti o).
Proof.
  intros m m' v v' t pr ti o [[S1 S2 S3 S4] M2 M3 M4] Hv. unfold stylus_update. rewrite S1, S2, S3, M3, M4. cbv zeta.
  destruct (_ && _).
  - cbn [orel]. split; [constructor; cbn; auto|reflexivity]. constructor; cbn; auto.
  - assert (HVA : let f := (fun (b : option Result) (v : Vec2) => match b with
        | Some b => if negb (deqb t (r_time b)) then let dt := d2f (dsub t (r_time b)) in let w := vdiv (vsub v (r_pos b)) dt in (w, vdiv (vsub w (r_vel b)) dt) else (vzero, vzero)
        | None => (vzero, vzero) end) in
        VR (fst (f (back (s_raw (sm_state m))) v)) (fst (f (back (s_raw (sm_state m'))) v')) /\ VR (snd (f (back (s_raw (sm_state m))) v)) (snd (f (back (s_raw (sm_state m'))) v'))).
    { cbv zeta. pose proof (back_rel _ _ _ S4) as B. destruct (back (s_raw (sm_state m))) as [b|], (back (s_raw (sm_state m'))) as [b'|]; cbn [oprel] in B; try contradiction; [|split; apply V0].
      destruct B as [[B1 B2 B3 _ _ _] BT]. rewrite BT. destruct (negb _); cbn [fst snd]; [|split; apply V0].
      assert (VE := V_div (d2f (dsub t (r_time b'))) _ _ (V_sub _ _ _ _ Hv B1)). split; [exact VE|]. apply V_div. apply V_sub; assumption. }
    cbv beta zeta in HVA.
    destruct (match back (s_raw (sm_state m)) with Some _ => _ | None => _ end) as [ve ac] eqn:E1.
    destruct (match back (s_raw (sm_state m')) with Some _ => _ | None => _ end) as [ve' ac'] eqn:E2.
    cbn [fst snd] in HVA. destruct HVA as [HV HA].
    eapply (orel_bind (Forall2 RR)).
    + apply c_strim. apply app_rel; [exact S4|]. apply one_rel. split; [|reflexivity]. constructor; cbn; auto using (s_refl L).
    + intros raw raw' HR. cbn [orel]. split; [constructor; cbn; auto|reflexivity]. constructor; cbn; auto.
Qed.
Lemma c_sreset : forall m m' p, SR m m' -> SR (stylus_reset m p) (stylus_reset m' p).
Proof. intros m m' p [S1 S2 S3 S4]. constructor; cbn; auto using SSR0. Qed.
Lemma c_ssave : forall m m', SR m m' -> SR (stylus_save m) (stylus_save m').
Proof. intros m m' [S1 S2 S3 S4]. constructor; cbn; auto. Qed.
Lemma c_srestore : forall m m', SR m m' -> SR (stylus_restore m) (stylus_restore m').
Proof.
  intros m m' H. pose proof H as [S1 S2 S3 S4]. unfold stylus_restore. rewrite S3. destruct (sm_save_active m') eqn:E; [|exact H].
  constructor; cbn; auto; congruence.
Qed.

Record PJR (a b : Projection) : Prop := mkPJR { pjr_a : RW (pj_a a) (pj_a b); pjr_b : RW (pj_b a) (pj_b b); pjr_r : same (pj_ratio a) (pj_ratio b) }.
Definition BR (a b : best) : Prop := oprel (fun x y => PJR (fst x) (fst y) /\ snd x = snd y) a b.
Lemma c_closest : forall p p' raw raw' b b', VR p p' -> Forall2 RR raw raw' -> BR b b' ->
  BR (project_closest_loop p raw b) (project_closest_loop p' raw' b').
Proof.
  intros p p' raw raw' b b' Hp HR. revert b b'. induction HR as [|x x' raw raw' HX HR IH]; intros b b' Hb; cbn [project_closest_loop]; [exact Hb|].
  destruct HR as [|y y' raw raw' HY HR']; [exact Hb|]. cbv zeta.
  pose proof (c_nearest _ _ _ _ _ _ (rw_pos _ _ (proj1 HX)) (rw_pos _ _ (proj1 HY)) Hp) as N.
  rewrite (V_dist _ _ _ _ Hp (V_interp _ _ _ _ _ _ (rw_pos _ _ (proj1 HX)) (rw_pos _ _ (proj1 HY)) N)).
  set (d := distance p' _). clearbody d.
  assert (E : match b with Some (_, bd) => fleb d bd | None => fleinf d end = match b' with Some (_, bd) => fleb d bd | None => fleinf d end).
  { destruct b as [[? bd]|], b' as [[? bd']|]; cbn in Hb; try contradiction; [|reflexivity]. destruct Hb as [_ ->]. reflexivity. }
  rewrite E. apply IH. destruct (match b' with Some _ => _ | None => _ end); [|exact Hb].
  cbn. split; [|reflexivity]. constructor; cbn; [exact (proj1 HX)|exact (proj1 HY)|exact N].
Qed.
Lemma c_to_closest : forall p p' raw raw', VR p p' -> Forall2 RR raw raw' -> oprel PJR (project_to_closest p raw) (project_to_closest p' raw').
Proof.
  intros p p' raw raw' Hp HR. unfold project_to_closest. pose proof (c_closest p p' raw raw' None None Hp HR I) as K. unfold best in *.
  destruct (project_closest_loop p raw None) as [[? ?]|], (project_closest_loop p' raw' None) as [[? ?]|]; cbn in *; try contradiction; tauto.
Qed.

(** Projection along the normal: only for turns. *)
Section Turn.
Hypothesis T : turn g = true.
Lemma turn_cases : if fl_swap g then nx = negb ny else nx = ny.
Proof. unfold turn in T. destruct (fl_swap g), nx, ny; cbn in *; congruence. Qed.
Lemma V_orth : forall a a', VR a a' -> VR (orthogonal a) (orthogonal a').
Proof.
  intros a a'. pose proof turn_cases as C. unfold VR, orthogonal. cbn [vx vy]. destruct (fl_swap g); intros [H K]; split.
  - rewrite C. apply (s_neg L). exact K.
  - assert (E : ny = negb nx) by (rewrite C; destruct ny; reflexivity). rewrite E. apply (s_neg' L). exact H.
  - rewrite C. pose proof (s_neg L _ _ _ K) as Q. apply (s_neg' L) in Q. rewrite negb_involutive in Q. exact Q.
  - rewrite <- C. exact H.
Qed.
Lemma V_cross : forall a b a' b', VR a a' -> VR b b' -> same (cross a b) (cross a' b').
Proof.
  intros a b a' b'. pose proof turn_cases as C. unfold VR, cross. destruct (fl_swap g); intros [H K] [M N].
  - assert (H1 := s_mul L _ _ _ _ _ _ H N). assert (H2 := s_mul L _ _ _ _ _ _ K M).
    assert (E1 : xorb nx ny = true) by (rewrite C; destruct ny; reflexivity).
    assert (E2 : xorb ny nx = true) by (rewrite C; destruct ny; reflexivity).
    rewrite E1 in H1. rewrite E2 in H2. pose proof (s_swap L _ _ _ _ _ H1 H2) as Q. cbn [negb] in Q.
    exact Q.
  - assert (H1 := s_mul L _ _ _ _ _ _ H N). assert (H2 := s_mul L _ _ _ _ _ _ K M). rewrite C, xorb_nilpotent in H1, H2. apply (s_sub L); assumption.
Qed.
Lemma c_normal : forall t t' x, TR t t' -> oprel VR (get_stroke_normal t x) (get_stroke_normal t' x).
Proof.
  intros t t' x [T1 T2 T3 T4]. unfold get_stroke_normal. cbv zeta. rewrite (V_mag _ _ T2), (V_mag _ _ T3).
  destruct (_ && _); [exact I|]. destruct (feqb _ f0); [apply V_orth; exact T3|]. destruct (feqb _ f0); [apply V_orth; exact T2|].
  rewrite (s_abs L _ _ (V_dot _ _ _ _ T2 T3)). destruct (fltb _ _); [apply V_orth; exact T2|]. rewrite T4. cbn [oprel]. apply V_orth.
  set (k := d2f (dsub (t_time t') x)).
  assert (W := V_add _ _ _ _ T2 (V_scale k _ _ T3)). unfold unit_vec. rewrite (V_mag _ _ T2), (V_mag _ _ W).
  apply V_add; apply V_div; assumption.
Qed.
Lemma c_segment : forall a b p n a' b' p' n', VR a a' -> VR b b' -> VR p p' -> VR n n' ->
  oprel same (project_to_segment_along_normal a b p n) (project_to_segment_along_normal a' b' p' n').
Proof.
  intros a b p n a' b' p' n' Ha Hb Hp Hn. unfold project_to_segment_along_normal. cbv zeta.
  pose proof (V_cross _ _ _ _ Hn (V_sub _ _ _ _ Hb Ha)) as DT. pose proof (V_cross _ _ _ _ (V_sub _ _ _ _ Ha Hp) Hn) as NU.
  pose proof (s_eqb L _ _ _ _ _ DT (s_refl L f0)) as E. rewrite E. destruct (feqb (cross n' (vsub b' a')) f0) eqn:Z; [exact I|].
  rewrite (s_nz L _ _ DT E). pose proof (s_div L _ _ _ (cross n' (vsub b' a')) NU) as Q.
  rewrite (s_ltb L _ _ _ _ Q (s_refl L f0)), (s_ltb L _ _ _ _ (s_refl L f1) Q). destruct (_ || _); [exact I|exact Q].
Qed.
Lemma c_maybe : forall c c' d b b', PJR c c' -> BR b b' -> BR (maybe_update c d b) (maybe_update c' d b').
Proof.
  intros c c' d b b' HC HB. unfold maybe_update. destruct b as [[? bd]|], b' as [[? bd']|]; cbn in HB; try contradiction.
  - destruct HB as [H1 H2]. cbn in H2. subst bd'. destruct (fltb d bd); cbn; auto.
  - destruct (fltinf d); cbn; auto.
Qed.
Lemma c_normal_loop : forall p p' n n' raw raw' l l' r r', VR p p' -> VR n n' -> Forall2 RR raw raw' -> BR l l' -> BR r r' ->
  BR (fst (project_normal_loop p n raw l r)) (fst (project_normal_loop p' n' raw' l' r')) /\
  BR (snd (project_normal_loop p n raw l r)) (snd (project_normal_loop p' n' raw' l' r')).
Proof.
  intros p p' n n' raw raw' l l' r r' Hp Hn HR. revert l l' r r'. induction HR as [|x x' raw raw' HX HR IH]; intros l l' r r' Hl Hr; cbn [project_normal_loop]; [cbn; auto|].
  destruct HR as [|y y' raw raw' HY HR']; [cbn; auto|].
  pose proof (rw_pos _ _ (proj1 HX)) as PX. pose proof (rw_pos _ _ (proj1 HY)) as PY.
  pose proof (c_segment _ _ _ _ _ _ _ _ PX PY Hp Hn) as SG.
  destruct (project_to_segment_along_normal (r_pos x) (r_pos y) p n) as [q|], (project_to_segment_along_normal (r_pos x') (r_pos y') p' n') as [q'|]; cbn [oprel] in SG; try contradiction; [|apply IH; assumption].
  cbv zeta. assert (PI := V_interp _ _ _ _ _ _ PX PY SG). rewrite (V_dist _ _ _ _ Hp PI).
  rewrite (s_ltb L _ f0 _ f0 (V_dot _ _ _ _ (V_sub _ _ _ _ PI Hp) Hn) (s_refl L f0)).
  assert (PJ : PJR (mkProj x y q) (mkProj x' y' q')) by (constructor; cbn; [exact (proj1 HX)|exact (proj1 HY)|exact SG]).
  destruct (fltb _ f0); apply IH; try assumption; apply c_maybe; assumption.
Qed.
Lemma c_along_normal : forall p p' a a' n n' raw raw', VR p p' -> VR a a' -> VR n n' -> Forall2 RR raw raw' ->
  oprel PJR (project_along_normal p a n raw) (project_along_normal p' a' n' raw').
Proof.
  intros p p' a a' n n' raw raw' Hp Ha Hn HR. unfold project_along_normal.
  destruct (c_normal_loop p p' n n' raw raw' None None None None Hp Hn HR I I) as [K1 K2]. unfold best in *.
  rewrite (s_ltb L f0 _ f0 _ (s_refl L f0) (V_dot _ _ _ _ Hn Ha)).
  destruct (project_normal_loop p n raw None None) as [[[? ?]|] [[? ?]|]], (project_normal_loop p' n' raw' None None) as [[[? ?]|] [[? ?]|]]; cbn in K1, K2; try contradiction.
  - destruct (fltb _ _); cbn; tauto.
  - cbn. tauto.
  - cbn. tauto.
  - exact I.
Qed.
End Turn.

Lemma c_query : forall fuel m m' t t' x, SR m m' -> TR t t' -> (sy_normal (sm_params m) = true -> turn g = true) ->
  orel RR (stylus_query fuel m t (get_stroke_normal t x)) (stylus_query fuel m' t' (get_stroke_normal t' x)).
Proof.
  intros fuel m m' t t' x [[S1 S2 S3 S4] _ _ M4] HT FL. unfold stylus_query. rewrite M4 in *. cbv zeta.
  assert (PJ : oprel PJR
    match (if sy_normal (sm_params m') then get_stroke_normal t x else None) with
    | Some n => project_along_normal (t_pos t) (t_acc t) n (s_raw (sm_state m))
    | None => project_to_closest (t_pos t) (s_raw (sm_state m)) end
    match (if sy_normal (sm_params m') then get_stroke_normal t' x else None) with
    | Some n => project_along_normal (t_pos t') (t_acc t') n (s_raw (sm_state m'))
    | None => project_to_closest (t_pos t') (s_raw (sm_state m')) end).
  { destruct (sy_normal (sm_params m')); [|apply c_to_closest; [exact (tr_pos _ _ HT)|exact S4]].
    pose proof (c_normal (FL eq_refl) t t' x HT) as N. destruct (get_stroke_normal t x), (get_stroke_normal t' x); cbn [oprel] in N; try contradiction.
    - apply c_along_normal; auto; [exact (tr_pos _ _ HT)|exact (tr_acc _ _ HT)].
    - apply c_to_closest; [exact (tr_pos _ _ HT)|exact S4]. }
  revert PJ S4. generalize (s_raw (sm_state m)) (s_raw (sm_state m')). intros raw raw' PJ HR.
  pose proof (back_rel _ _ _ HR) as B. revert PJ B. generalize (back raw) (back raw'). intros bk bk' PJ B.
  set (o := match (if sy_normal (sm_params m') then get_stroke_normal t x else None) with Some _ => _ | None => _ end) in *.
  set (o' := match (if sy_normal (sm_params m') then get_stroke_normal t' x else None) with Some _ => _ | None => _ end) in *.
  destruct HR as [|r r' raw raw' HX HR].
  - cbn [orel]. split; [|reflexivity]. constructor; cbn; auto using V0, (s_refl L).
  - clearbody o o'. eapply (orel_bind RW).
    + destruct o as [q|], o' as [q'|]; cbn [oprel] in PJ; try contradiction.
      * destruct PJ as [P1 P2 P3]. eapply orel_weaken; [apply c_interp_result; assumption|]. cbv beta. tauto.
      * destruct bk as [b|], bk' as [b'|]; cbn [oprel] in B; try contradiction; [|reflexivity].
        rewrite (V_dist _ _ _ _ (rw_pos _ _ (proj1 HX)) (tr_pos _ _ HT)), (V_dist _ _ _ _ (rw_pos _ _ (proj1 B)) (tr_pos _ _ HT)).
        destruct (fltb _ _); [exact (proj1 HX)|exact (proj1 B)].
    + intros a a' [A1 A2 A3 A4 A5 A6]. cbn [orel]. rewrite (tr_time _ _ HT). split; [|reflexivity].
      constructor; cbn [r_pos r_vel r_acc r_time r_pressure r_tilt r_orient]; try assumption.
      * rewrite S1. destruct (s_unk_pressure (sm_state m')); [apply (s_refl L)|assumption].
      * rewrite S2. destruct (s_unk_tilt (sm_state m')); [apply (s_refl L)|assumption].
      * rewrite S3. destruct (s_unk_orient (sm_state m')); [apply (s_refl L)|assumption].
Qed.
Definition LR (x y : LoopModeler * list Result) : Prop := fst x = fst y /\ Forall2 RR (snd x) (snd y).
Lemma c_stylus_loop : forall fuel m m' tips tips' lm v x, SR m m' -> Forall2 TR tips tips' -> (sy_normal (sm_params m) = true -> turn g = true) ->
  orel LR (model_stylus_loop fuel tips m lm v x) (model_stylus_loop fuel tips' m' lm v x).
Proof.
  intros fuel m m' tips tips' lm v x HS HT FL. revert lm v x. induction HT as [|t t' tips tips' T1 HT IH]; intros lm v x; cbn [model_stylus_loop]; [split; cbn; auto|].
  eapply (orel_bind RR); [apply c_query; assumption|]. intros r r' HR. eapply (orel_bind RR).
  - apply c_interp_RR; [exact HR|]. destruct HR as [[R1 R2 R3 R4 R5 R6] R7], T1 as [T1 T2 T3 T4]. split; [|exact T4]. constructor; assumption.
  - intros q q' HQ. rewrite (tr_time _ _ T1). rewrite (c_loop lm _ _ (t_time t') (rw_vel _ _ (proj1 HQ))). destruct (loop_update lm (r_vel q') (t_time t')) as [l1 v1].
    eapply (orel_bind LR); [apply IH|]. intros [l2 o2] [l2' o2'] [E1 E2]. cbn [fst snd] in *. subst l2'. cbn [orel]. split; cbn; auto.
Qed.

(** ** The Kalman predictor *)
Definition V4 (b : bool) (u v : Vec4) : Prop := sd b (q0 u) (q0 v) /\ sd b (q1 u) (q1 v) /\ sd b (q2 u) (q2 v) /\ sd b (q3 u) (q3 v).
Record KF (b : bool) (x y : KFilter) : Prop := mkKR { kr_state : V4 b (kf_state x) (kf_state y); kr_cov : kf_cov x = kf_cov y; kr_iter : kf_iter x = kf_iter y }.
Lemma d_dot_r : forall b u v k, V4 b u v -> sd b (dot4 u k) (dot4 v k).
Proof.
  intros b u v k (H0 & H1 & H2 & H3). unfold dot4. repeat apply (d_add L); try (apply d_mulr; assumption). apply (d_0 L).
Qed.
Lemma d_dot_l : forall b u v k, V4 b u v -> sd b (dot4 k u) (dot4 k v).
Proof.
  intros b u v k (H0 & H1 & H2 & H3). unfold dot4. repeat apply (d_add L); try (apply d_mull; assumption). apply (d_0 L).
Qed.
Lemma c_mat : forall b m u v, V4 b u v -> V4 b (mat4_vec m u) (mat4_vec m v).
Proof. intros b m u v H. unfold mat4_vec. repeat split; cbn; apply d_dot_r; exact H. Qed.
Lemma c_kpredict : forall b pn x y, KF b x y -> KF b (kf_predict pn x) (kf_predict pn y).
Proof. intros b pn x y [K1 K2 K3]. constructor; cbn; [apply c_mat; exact K1|rewrite K2; reflexivity|exact K3]. Qed.
Lemma c_kcorrect : forall b mn x y o o', KF b x y -> sd b o o' -> KF b (kf_correct mn x o) (kf_correct mn y o').
Proof.
  intros b mn x y o o' [K1 K2 K3] Ho. unfold kf_correct. rewrite K2. cbv zeta. constructor; cbn [kf_state kf_cov kf_iter]; [|reflexivity|exact K3].
  set (gain := vec4_div _ _). clearbody gain.
  assert (Y : sd b (dsub o (dot4 kf_measure (kf_state x))) (dsub o' (dot4 kf_measure (kf_state y)))) by (apply (d_sub L); [exact Ho|apply d_dot_l; exact K1]).
  destruct K1 as (H0 & H1 & H2 & H3). repeat split; cbn; apply (d_add L); try assumption; apply d_mull; exact Y.
Qed.
Lemma c_kupdate : forall b pn mn x y o o', KF b x y -> sd b o o' -> orel (KF b) (kf_update pn mn x o) (kf_update pn mn y o').
Proof.
  intros b pn mn x y o o' H Ho. pose proof H as [K1 K2 K3]. unfold kf_update. rewrite K3. destruct (Z.leb _ _); [reflexivity|]. cbv zeta. destruct (Z.eqb _ _); cbn [orel].
  - constructor; cbn; [|exact K2|reflexivity]. destruct K1 as (H0 & H1 & H2 & H3). repeat split; assumption.
  - apply c_kcorrect; [|exact Ho]. apply c_kpredict. constructor; cbn; [exact K1|exact K2|reflexivity].
Qed.
Lemma KF0 : forall b, KF b kf_reset kf_reset.
Proof. intros b. constructor; try reflexivity. repeat split; apply (d_0 L). Qed.

Record KR (m n : KPredictor) : Prop := mkKPR {
  kpr_params : k_params m = k_params n; kpr_sampling : k_sampling m = k_sampling n; kpr_last : oprel VR (k_last m) (k_last n);
  kpr_times : k_times m = k_times n;
  kpr_axes : if fl_swap g then KF nx (k_x m) (k_y n) /\ KF ny (k_y m) (k_x n) else KF nx (k_x m) (k_x n) /\ KF ny (k_y m) (k_y n);
  kpr_iter : kf_iter (k_x m) = kf_iter (k_y m) }.
Lemma kpr_it : forall m n, KR m n -> kf_iter (k_x n) = kf_iter (k_x m) /\ kf_iter (k_y n) = kf_iter (k_y m).
Proof.
  intros m n [_ _ _ _ K I]. destruct (fl_swap g), K as [[_ _ K1] [_ _ K2]]; split; congruence.
Qed.
Lemma c_knew : forall p sp, KR (kpred_new p sp) (kpred_new p sp).
Proof. intros. constructor; cbn; auto. destruct (fl_swap g); split; apply KF0. Qed.
Lemma c_kreset : forall m n, KR m n -> KR (kpred_reset m) (kpred_reset n).
Proof. intros m n [K1 K2 K3 K4 K5 K6]. constructor; cbn; auto. destruct (fl_swap g); split; apply KF0. Qed.
Lemma kf_update_iter : forall pn mn x o y, kf_update pn mn x o = Ret y -> kf_iter y = (kf_iter x + 1)%Z.
Proof.
  intros pn mn x o y H. unfold kf_update in H. destruct (Z.leb _ _); [discriminate H|]. cbv zeta in H. destruct (Z.eqb _ _); injection H as <-; reflexivity.
Qed.
Lemma kf_update_fail : forall pn mn x o, kf_update pn mn x o = (if Z.leb INT_MAX (kf_iter x) then UB UB_signed_overflow else kf_update pn mn x o).
Proof. intros. unfold kf_update. destruct (Z.leb _ _); reflexivity. Qed.
Lemma orel_ret : forall {X} (R : X -> X -> Prop) a o, orel R (Ret a) o -> exists b, o = Ret b /\ R a b.
Proof. intros X R a [b|k|] H; cbn in H; try contradiction. exists b. auto. Qed.
Lemma c_kpupdate : forall m n v v' t, KR m n -> VR v v' -> orel KR (kpred_update m v t) (kpred_update n v' t).
Proof.
  intros m n v v' t H Hv. pose proof (kpr_it _ _ H) as [I1 I2]. destruct H as [K1 K2 K3 K4 K5 K6]. unfold kpred_update. rewrite K1, K2, K4. cbv zeta.
  set (pn := kp_process (k_params n)). set (mn := kp_measure (k_params n)).
  set (times := if _ || _ then _ else _). clearbody times.
  destruct (Z.leb INT_MAX (kf_iter (k_x m))) eqn:OV.
  - rewrite (kf_update_fail pn mn (k_x m)), (kf_update_fail pn mn (k_x n)), I1, OV. reflexivity.
  - destruct (kf_update pn mn (k_x m) (f2d (vx v))) as [x|k|] eqn:EX; try (unfold kf_update in EX; rewrite OV in EX; cbv zeta in EX; destruct (Z.eqb _ _); discriminate EX).
    destruct (kf_update pn mn (k_y m) (f2d (vy v))) as [y|k|] eqn:EY; try (unfold kf_update in EY; rewrite <- K6, OV in EY; cbv zeta in EY; destruct (Z.eqb _ _); discriminate EY).
    cbn [obind].
    assert (IT : kf_iter x = kf_iter y) by (rewrite (kf_update_iter _ _ _ _ _ EX), (kf_update_iter _ _ _ _ _ EY), K6; reflexivity).
    assert (Hv' := Hv). unfold VR in Hv. destruct (fl_swap g) eqn:SW; destruct K5 as [KX KY], Hv as [HX HY].
    + pose proof (c_kupdate _ pn mn _ _ _ _ KX (s_f2d L _ _ _ HX)) as UX. pose proof (c_kupdate _ pn mn _ _ _ _ KY (s_f2d L _ _ _ HY)) as UY.
      rewrite EX in UX. rewrite EY in UY. destruct (orel_ret _ _ _ UX) as (x' & EX' & RX). destruct (orel_ret _ _ _ UY) as (y' & EY' & RY).
      rewrite EX', EY'. cbn [obind orel]. constructor; cbn; auto. rewrite SW. auto.
    + pose proof (c_kupdate _ pn mn _ _ _ _ KX (s_f2d L _ _ _ HX)) as UX. pose proof (c_kupdate _ pn mn _ _ _ _ KY (s_f2d L _ _ _ HY)) as UY.
      rewrite EX in UX. rewrite EY in UY. destruct (orel_ret _ _ _ UX) as (x' & EX' & RX). destruct (orel_ret _ _ _ UY) as (y' & EY' & RY).
      rewrite EX', EY'. cbn [obind orel]. constructor; cbn; auto. rewrite SW. auto.
Qed.
Record ER (a b : KEst) : Prop := mkER { er_pos : VR (ke_pos a) (ke_pos b); er_vel : VR (ke_vel a) (ke_vel b); er_acc : VR (ke_acc a) (ke_acc b); er_jerk : VR (ke_jerk a) (ke_jerk b) }.
Lemma c_at : forall m n (c : Vec4 -> D), KR m n -> (forall b u v, V4 b u v -> sd b (c u) (c v)) ->
  VR (mkVec2 (d2f (c (kf_state (k_x m)))) (d2f (c (kf_state (k_y m))))) (mkVec2 (d2f (c (kf_state (k_x n)))) (d2f (c (kf_state (k_y n))))).
Proof.
  intros m n c [_ _ _ _ K _] HC. unfold VR. cbn [vx vy]. destruct (fl_swap g), K as [[K1 _ _] [K2 _ _]]; split; apply (s_d2f L); apply HC; assumption.
Qed.
Lemma c_estimate : forall m n, KR m n -> oprel ER (kpred_estimate m) (kpred_estimate n).
Proof.
  intros m n H. pose proof (kpr_it _ _ H) as [I1 I2]. unfold kpred_estimate, kpred_stable. rewrite I1, I2, (kpr_params _ _ H), (kpr_times _ _ H).
  destruct (if _ : bool then k_times n else []) as [|f l]; [exact I|]. cbv zeta. cbn [oprel].
  constructor; cbn [ke_pos ke_vel ke_acc ke_jerk].
  - apply (c_at m n q0 H). intros b u v K. apply K.
  - apply V_div. apply (c_at m n q1 H). intros b u v K. apply K.
  - apply V_scaler. apply V_div. apply (c_at m n q2 H). intros b u v K. apply K.
  - apply V_scaler. apply V_div. apply (c_at m n q3 H). intros b u v K. apply K.
Qed.
Lemma c_cubic : forall a b d, ER a b -> ER (evaluate_cubic a d) (evaluate_cubic b d).
Proof.
  intros a b d [E1 E2 E3 E4]. unfold evaluate_cubic. cbv zeta. constructor; cbn [ke_pos ke_vel ke_acc ke_jerk]; repeat first [assumption|apply V_add|apply V_div|apply V_scale].
Qed.
Lemma c_cubic_prediction : forall k a b t d, ER a b -> Forall2 TR (cubic_prediction a t d k) (cubic_prediction b t d k).
Proof.
  induction k as [|k IH]; intros a b t d H; cbn [cubic_prediction]; [constructor|]. cbv zeta. pose proof (c_cubic a b d H) as C.
  constructor; [|apply IH; exact C]. destruct C. constructor; cbn; auto.
Qed.
Lemma c_points : forall t t' a b p d, TR t t' -> ER a b -> connector_points t a p d = connector_points t' b p d.
Proof.
  intros t t' a b p d [T1 T2 T3 T4] [E1 E2 E3 E4]. unfold connector_points. rewrite (V_dist _ _ _ _ T1 E1), (V_mag _ _ T2), (V_mag _ _ E2). reflexivity.
Qed.
Lemma c_connector_tip : forall t t' a b d n i, TR t t' -> ER a b -> TR (connector_tip t a d n i) (connector_tip t' b d n i).
Proof.
  intros t t' a b d n i [T1 T2 T3 T4] [E1 E2 E3 E4]. unfold connector_tip. cbv zeta.
  assert (CA : VR (connector_a (t_pos t) (t_vel t) (ke_pos a) (ke_vel a) (d2f d)) (connector_a (t_pos t') (t_vel t') (ke_pos b) (ke_vel b) (d2f d))).
  { unfold connector_a. repeat first [assumption|apply V_add|apply V_sub|apply V_scale]. }
  assert (CB : VR (connector_b (t_pos t) (t_vel t) (ke_pos a) (ke_vel a) (d2f d)) (connector_b (t_pos t') (t_vel t') (ke_pos b) (ke_vel b) (d2f d))).
  { unfold connector_b. repeat first [assumption|apply V_add|apply V_sub|apply V_scale]. }
  constructor; cbn [t_pos t_vel t_acc t_time]; try (repeat first [assumption|apply V_add|apply V_div|apply V_scale]). rewrite T4. reflexivity.
Qed.
Lemma map_rel : forall {X Y} (R : Y -> Y -> Prop) (f h : X -> Y) l, (forall x, R (f x) (h x)) -> Forall2 R (map f l) (map h l).
Proof. intros X Y R f h l H. induction l; cbn; auto. Qed.
Lemma c_connector : forall t t' a b p d, TR t t' -> ER a b -> orel (Forall2 TR) (cubic_connector t a p d) (cubic_connector t' b p d).
Proof.
  intros t t' a b p d HT HE. unfold cubic_connector. rewrite (c_points _ _ _ _ _ _ HT HE). destruct (connector_points _ _ _ _); cbn [to_int orel]; [|reflexivity].
  apply map_rel. intros i. apply c_connector_tip; assumption.
Qed.
Lemma c_confidence : forall m n v v' a b, KR m n -> VR v v' -> ER a b -> kpred_confidence m v a = kpred_confidence n v' b.
Proof.
  intros m n v v' a b H Hv HE. pose proof (kpr_it _ _ H) as [I1 _]. unfold kpred_confidence. rewrite (kpr_params _ _ H), I1. cbv zeta.
  set (d := kp_interval _). pose proof (c_cubic a b d HE) as HC. destruct HE as [E1 E2 E3 E4]. destruct HC as [C1 C2 C3 C4].
  rewrite (V_dist _ _ _ _ Hv E1), (V_dist _ _ _ _ E1 C1), (V_dist _ _ _ _ C1 (V_add _ _ _ _ E1 (V_scale (d2f d) _ _ E2))). reflexivity.
Qed.
Lemma c_number : forall m n v v' a b, KR m n -> VR v v' -> ER a b -> kpred_number_of_points m v a = kpred_number_of_points n v' b.
Proof.
  intros m n v v' a b H Hv HE. unfold kpred_number_of_points. rewrite (c_confidence _ _ _ _ _ _ H Hv HE), (kpr_params _ _ H), (kpr_sampling _ _ H). reflexivity.
Qed.
Lemma c_kpred : forall m n t t', KR m n -> TR t t' -> orel (Forall2 TR) (kpred_predict m t) (kpred_predict n t').
Proof.
  intros m n t t' H HT. unfold kpred_predict. pose proof (c_estimate m n H) as E. pose proof (kpr_last _ _ H) as K.
  destruct (kpred_estimate m) as [a|], (kpred_estimate n) as [b|]; cbn [oprel] in E; try contradiction; [|constructor].
  destruct (k_last m) as [v|], (k_last n) as [v'|]; cbn [oprel] in K; try contradiction; [|constructor]. cbv zeta.
  rewrite (kpr_sampling _ _ H), (kpr_params _ _ H). set (d := ddiv _ _). eapply (orel_bind (Forall2 TR)); [apply c_connector; assumption|].
  intros l l' HL. rewrite (c_number _ _ _ _ _ _ H K E). destruct (kpred_number_of_points n v' b); cbn [to_int orel]; [|reflexivity].
  apply app_rel; [exact HL|].
  assert (ET : match back l with Some t => t_time t | None => t_time t end = match back l' with Some t => t_time t | None => t_time t' end).
  { pose proof (back_rel _ _ _ HL) as B. destruct (back l), (back l'); cbn [oprel] in B; try contradiction; [exact (tr_time _ _ B)|exact (tr_time _ _ HT)]. }
  rewrite ET. apply c_cubic_prediction. exact E.
Qed.

(** ** Predictors *)
Inductive PDR : Predictor -> Predictor -> Prop :=
| PDEnd pp sp l l' : oprel VR l l' -> PDR (PStrokeEnd pp sp l) (PStrokeEnd pp sp l')
| PDKal m n : KR m n -> PDR (PKal m) (PKal n).
Lemma c_preset : forall a b, PDR a b -> PDR (pred_reset a) (pred_reset b).
Proof. intros a b [pp sp l l' H|m n H]; cbn; constructor; [exact I|apply c_kreset; exact H]. Qed.
Lemma c_pupdate : forall a b v v' t, PDR a b -> VR v v' -> orel PDR (pred_update a v t) (pred_update b v' t).
Proof.
  intros a b v v' t [pp sp l l' H|m n H] Hv; cbn [pred_update]; [constructor; exact Hv|].
  eapply orel_bind; [apply c_kpupdate; eassumption|]. intros x y K. constructor. exact K.
Qed.
Lemma c_construct : forall a b t t', PDR a b -> TR t t' -> orel (Forall2 TR) (pred_construct a t) (pred_construct b t').
Proof.
  intros a b t t' [pp sp l l' H|m n H] HT; cbn [pred_construct]; [|apply c_kpred; assumption].
  destruct l as [v|], l' as [v'|]; cbn [oprel] in H; try contradiction; [|constructor].
  cbn [orel]. apply c_end; assumption.
Qed.
Lemma c_make : forall p, oprel PDR (make_predictor p) (make_predictor p).
Proof. intros p. unfold make_predictor. destruct (p_prediction p); cbn [oprel]; try constructor; try exact I. apply c_knew. Qed.

(** ** Modelers *)
Record LIR (a b : LastInput) : Prop := mkLIR { lir_input : IR (li_input a) (li_input b); lir_corr : VR (li_corrected a) (li_corrected b) }.
Definition flat (p : StylusParams) : Prop := sy_normal p = true -> turn g = true.
Record MR (m n : Modeler) : Prop := mkMR {
  mr_pred : oprel PDR (m_predictor m) (m_predictor n);
  mr_params : m_params m = m_params n;
  mr_wobble : WR (m_wobble m) (m_wobble n);
  mr_pos : POR (m_pos m) (m_pos n);
  mr_stylus : SR (m_stylus m) (m_stylus n);
  mr_loop : m_loop m = m_loop n;
  mr_last : oprel LIR (m_last m) (m_last n);
  mr_spred : oprel PDR (m_saved_predictor m) (m_saved_predictor n);
  mr_slast : oprel LIR (m_saved_last m) (m_saved_last n);
  mr_active : m_save_active m = m_save_active n;
  mr_flat : flat (sm_params (m_stylus m));
  mr_pflat : forall p, m_params m = Some p -> flat (p_stylus p)
}.
Lemma MR0 : MR modeler0 modeler0.
Proof.
  constructor; cbn; auto; try discriminate.
  - constructor; cbn; auto using WTR0.
  - constructor; cbn; auto using TR0.
  - constructor; cbn; auto using SSR0.
Qed.
(** Statuses: exchanging the axes can exchange the labels of a rejected position. *)
Definition SL (a b : status) : Prop := a = b \/ fl_swap g = true /\ exists s t, a = InvalidArgument s /\ b = InvalidArgument t.
Definition UR (x y : upd_result) : Prop := MR (fst (fst x)) (fst (fst y)) /\ SL (snd (fst x)) (snd (fst y)) /\ Forall2 RR (snd x) (snd y).
Lemma c_keep : forall m n st rs rs', MR m n -> Forall2 RR rs rs' -> orel UR (Ret (m, st, rs)) (Ret (n, st, rs')).
Proof. intros. cbn. split; [assumption|]. split; [left; reflexivity|assumption]. Qed.
Lemma c_opt : forall a b v v' t, oprel PDR a b -> VR v v' -> orel (oprel PDR)
  match a with None => Ret None | Some pr => let* pr' := pred_update pr v t in Ret (Some pr') end
  match b with None => Ret None | Some pr => let* pr' := pred_update pr v' t in Ret (Some pr') end.
Proof.
  intros [a|] [b|] v v' t H Hv; cbn [oprel] in H; try contradiction; [|exact I].
  eapply orel_bind; [apply c_pupdate; eassumption|]. intros x y K. exact K.
Qed.
Ltac flds := cbn [m_predictor m_params m_wobble m_pos m_stylus m_loop m_buffer m_last m_saved_predictor m_saved_last m_save_active].
Lemma c_down_event : forall m n p i j rs rs', MR m n -> m_params m = Some p -> IR i j -> Forall2 RR rs rs' ->
  orel UR (process_down m p i rs) (process_down n p j rs').
Proof.
  intros m n p i j rs rs' H MP HI HR. pose proof H as [H1 H2 H3 H4 H5 H6 H7 H8 H9 H10 H11 H12]. unfold process_down.
  destruct (m_last m) as [l|], (m_last n) as [l'|]; cbn [oprel] in H7; try contradiction; [apply c_keep; assumption|].
  destruct HI as [I1 I2 I3 I4 I5 I6]. rewrite <- I3, <- I4, <- I5, <- I6, H6. cbv zeta.
  eapply orel_bind; [apply (c_supdate _ _ _ _ (i_time i) (i_pressure i) (i_tilt i) (i_orient i) (c_sreset _ _ (p_stylus p) H5) I2)|]. cbv beta. intros sm sm' [HS SP].
  eapply (orel_bind (oprel PDR)).
  { assert (OP : oprel PDR (option_map pred_reset (m_predictor m)) (option_map pred_reset (m_predictor n))).
    { destruct (m_predictor m), (m_predictor n); cbn [oprel option_map] in *; try contradiction; auto. apply c_preset. exact H1. }
    pose proof (c_opt _ _ _ _ (i_time i) OP I2) as U. destruct (m_predictor m), (m_predictor n); exact U. }
  intros pr pr' HP. cbn [orel]. split; [|split; [left; reflexivity|]].
  - cbn [fst]. constructor; flds; auto.
    + apply c_wreset; assumption.
    + constructor; cbn; auto. constructor; cbn; auto using V0.
    + cbn. constructor; cbn; [|exact I2]. constructor; assumption.
    + rewrite SP. exact (H12 p MP).
  - cbn [snd]. apply app_rel; [exact HR|]. apply one_rel. split; [|reflexivity]. constructor; cbn; auto using V0, (s_refl L).
Qed.
Lemma c_move_event : forall fuel m n p i j rs rs', MR m n -> m_params m = Some p -> IR i j -> Forall2 RR rs rs' ->
  orel UR (process_move fuel m p i rs) (process_move fuel n p j rs').
Proof.
  intros fuel m n p i j rs rs' H MP HI HR. pose proof H as [H1 H2 H3 H4 H5 H6 H7 H8 H9 H10 H11 H12]. unfold process_move.
  destruct (m_last m) as [l|] eqn:ML, (m_last n) as [l'|] eqn:NL; cbn [oprel] in H7; try contradiction; [|apply c_keep; assumption].
  destruct H7 as [LI LC]. pose proof HI as [I1 I2 I3 I4 I5 I6]. rewrite <- I3, <- I4, <- I5, <- I6, <- H6. rewrite <- (ir_time _ _ LI).
  eapply orel_bind; [apply (c_wobble _ _ _ _ (i_time i) H3 I2)|]. cbv beta. intros [w c] [w' c'] [HW HC]. cbn [fst snd] in HW, HC.
  eapply orel_bind; [apply (c_supdate _ _ _ _ (i_time i) (i_pressure i) (i_tilt i) (i_orient i) H5 HC)|]. cbv beta. intros sm sm' [HS SP].
  rewrite (c_steps _ _ _ _ _ _ (p_sampling p) (p_position p) (por_state _ _ H4) LI HI).
  destruct (number_of_steps _ _ _ _ _) as [[q|e]| |]; cbn [obind orel]; auto.
  - rewrite (por_params _ _ H4).
    eapply orel_bind; [apply (c_along _ _ _ _ _ (i_time (li_input l)) _ _ (i_time i) q (por_state _ _ H4) LC HC)|]. intros [tip tips] [tip' tips'] [T1 T2]. cbn [fst snd] in T1, T2.
    eapply (orel_bind (oprel PDR)); [apply c_opt; assumption|]. intros pr pr' HP.
    eapply (orel_bind LR); [unfold model_stylus; apply c_stylus_loop; [exact HS|exact T2|rewrite SP; exact H11]|]. intros [lm out] [lm' out'] [E1 E2]. cbn [fst snd] in E1, E2. subst lm'.
    cbn [orel]. split; [|split; [left; reflexivity|]].
    + cbn [fst]. constructor; flds; auto.
      * destruct H4 as [P1 P2 P3]. constructor; cbn; auto.
      * cbn. constructor; cbn; assumption.
      * rewrite SP. exact H11.
    + cbn [snd]. apply app_rel; assumption.
  - split; [|split; [left; reflexivity|exact HR]]. cbn [fst]. constructor; flds; auto.
    + cbn. constructor; assumption.
    + rewrite SP. exact H11.
Qed.
Lemma c_up_event : forall fuel m n p i j rs rs', MR m n -> m_params m = Some p -> IR i j -> Forall2 RR rs rs' ->
  orel UR (process_up fuel m p i rs) (process_up fuel n p j rs').
Proof.
  intros fuel m n p i j rs rs' H MP HI HR. pose proof H as [H1 H2 H3 H4 H5 H6 H7 H8 H9 H10 H11 H12]. unfold process_up.
  destruct (m_last m) as [l|] eqn:ML, (m_last n) as [l'|] eqn:NL; cbn [oprel] in H7; try contradiction; [|apply c_keep; assumption].
  destruct H7 as [LI LC]. pose proof HI as [I1 I2 I3 I4 I5 I6]. rewrite <- I3, <- I4, <- I5, <- I6, <- H6, <- (ir_time _ _ LI).
  rewrite (c_steps _ _ _ _ _ _ (p_sampling p) (p_position p) (por_state _ _ H4) LI HI).
  destruct (number_of_steps _ _ _ _ _) as [[q|e]| |]; cbn [obind orel]; auto; [|exact (c_keep m n e rs rs' H HR)].
  rewrite (por_params _ _ H4).
  eapply orel_bind; [apply (c_along _ _ _ _ _ (i_time (li_input l)) _ _ (i_time i) q (por_state _ _ H4) LC I2)|]. intros [tip tips] [tip' tips'] [T1 T2]. cbn [fst snd] in T1, T2.
  pose proof (c_end (pm_params (m_pos n)) (Z.to_nat (sp_max_iter (p_sampling p))) tip tip' _ _ (ddiv (dofZ 1) (sp_rate (p_sampling p))) (sp_stop (p_sampling p)) T1 I2) as [E1 E2].
  destruct (model_end_of_stroke _ tip _ _ _ _) as [tip2 tips2], (model_end_of_stroke _ tip' _ _ _ _) as [tip2' tips2']. cbn [fst snd] in E1, E2. cbv zeta.
  eapply orel_bind; [apply (c_supdate _ _ _ _ (i_time i) (i_pressure i) (i_tilt i) (i_orient i) H5 I2)|]. cbv beta. intros sm sm' [HS SP].
  assert (TT : Forall2 TR (match tips ++ tips2 with [] => [tip2] | t :: l0 => t :: l0 end) (match tips' ++ tips2' with [] => [tip2'] | t :: l0 => t :: l0 end)).
  { pose proof (app_rel _ _ _ _ _ T2 E2) as K. destruct K; [apply one_rel; exact E1|constructor; assumption]. }
  revert TT. generalize (match tips ++ tips2 with [] => [tip2] | t :: l0 => t :: l0 end) (match tips' ++ tips2' with [] => [tip2'] | t :: l0 => t :: l0 end). intros ts ts' TT.
  eapply (orel_bind LR); [unfold model_stylus; apply c_stylus_loop; [exact HS|exact TT|rewrite SP; exact H11]|]. intros [lm out] [lm' out'] [F1 F2]. cbn [fst snd] in F1, F2. subst lm'.
  cbn [orel]. split; [|split; [left; reflexivity|]].
  - cbn [fst]. constructor; flds; auto.
    + destruct H4 as [P1 P2 P3]. constructor; cbn; auto.
    + exact I.
    + rewrite SP. exact H11.
  - cbn [snd]. apply app_rel; assumption.
Qed.
Lemma c_valid_f : forall b x y s t, sg b x y ->
  (validate_finite_f x s = OkStatus /\ validate_finite_f y t = OkStatus) \/ exists u v, validate_finite_f x s = InvalidArgument u /\ validate_finite_f y t = InvalidArgument v.
Proof.
  intros b x y s t H. unfold validate_finite_f. rewrite (s_nan L _ _ _ H), (s_inf L _ _ _ H).
  destruct (fisnan y); [right; eauto|]. destruct (fisinf y); [right; eauto|left; auto].
Qed.
Lemma c_valid : forall i j, IR i j -> SL (validate_input i) (validate_input j).
Proof.
  intros i j [I1 I2 I3 _ _ _]. unfold validate_input. rewrite I1, I3. unfold SL, VR in *.
  destruct (i_event j); try (left; reflexivity); destruct (fl_swap g);
    try (left; unfold validate_finite_f; rewrite (s_nan L _ _ _ (proj1 I2)), (s_inf L _ _ _ (proj1 I2)), (s_nan L _ _ _ (proj2 I2)), (s_inf L _ _ _ (proj2 I2)); reflexivity);
    destruct I2 as [H K];
    destruct (c_valid_f _ _ _ "Input.position.x" "Input.position.y" H) as [[E1 E2]|(u & v & E1 & E2)],
             (c_valid_f _ _ _ "Input.position.y" "Input.position.x" K) as [[E3 E4]|(u' & v' & E3 & E4)];
    rewrite E1, E2, E3, E4; cbn [and_then]; eauto 8.
Qed.
Lemma c_input_eqb : forall i j i' j', IR i i' -> IR j j' -> input_eqb i j = input_eqb i' j'.
Proof.
  intros i j i' j' [I1 I2 I3 I4 I5 I6] [J1 J2 J3 J4 J5 J6]. unfold input_eqb. rewrite I1, I3, I4, I5, I6, J1, J3, J4, J5, J6, (V_eqb _ _ _ _ I2 J2). reflexivity.
Qed.
Lemma c_update : forall fuel m n i j rs rs', MR m n -> IR i j -> Forall2 RR rs rs' -> orel UR (update fuel m i rs) (update fuel n j rs').
Proof.
  intros fuel m n i j rs rs' H HI HR. unfold update. rewrite <- (mr_params _ _ H). destruct (m_params m) as [p|] eqn:MP; [|apply c_keep; assumption].
  assert (K : orel UR
    match i_event i with
    | EDown => process_down m p i rs | EMove => process_move fuel m p i rs
    | EUp => process_up fuel m p i rs | EOther _ => Ret (m, InvalidArgument msg_event, rs) end
    match i_event j with
    | EDown => process_down n p j rs' | EMove => process_move fuel n p j rs'
    | EUp => process_up fuel n p j rs' | EOther _ => Ret (n, InvalidArgument msg_event, rs') end).
  { rewrite <- (ir_event _ _ HI). destruct (i_event i); [apply c_down_event|apply c_move_event|apply c_up_event|apply c_keep]; assumption. }
  destruct (c_valid i j HI) as [E|(SW & s & t & E1 & E2)].
  - rewrite E. destruct (validate_input j); try (apply c_keep; assumption). pose proof (mr_last _ _ H) as LL.
    destruct (m_last m) as [l|], (m_last n) as [l'|]; cbn [oprel] in LL; try contradiction; [|exact K].
    rewrite (c_input_eqb _ _ _ _ (lir_input _ _ LL) HI). destruct (input_eqb _ _); [apply c_keep; assumption|].
    rewrite (ir_time _ _ HI), (ir_time _ _ (lir_input _ _ LL)). destruct (dltb _ _); [apply c_keep; assumption|exact K].
  - rewrite E1, E2. cbn [orel]. split; [exact H|]. split; [|exact HR]. right. split; [exact SW|]. cbn. eauto.
Qed.
Lemma c_predict : forall fuel m n rs rs', MR m n -> orel UR (predict fuel m rs) (predict fuel n rs').
Proof.
  intros fuel m n rs rs' H. pose proof H as [H1 H2 H3 H4 H5 H6 H7 H8 H9 H10 H11 H12]. unfold predict. rewrite <- H2.
  assert (N0 : Forall2 RR [] []) by constructor.
  destruct (m_params m) as [p|] eqn:MP; [|apply c_keep; assumption].
  destruct (m_predictor m) as [pr|] eqn:EP, (m_predictor n) as [pr'|] eqn:EP'; cbn [oprel] in H1; try contradiction; [|apply c_keep; assumption].
  destruct (m_last m) as [l|] eqn:ML, (m_last n) as [l'|] eqn:NL; cbn [oprel] in H7; try contradiction; [|apply c_keep; assumption].
  eapply (orel_bind (Forall2 TR)); [apply c_construct; [exact H1|exact (por_state _ _ H4)]|]. intros ts ts' HT.
  rewrite <- H6, <- (ir_time _ _ (lir_input _ _ H7)).
  eapply (orel_bind LR); [unfold model_stylus; apply c_stylus_loop; assumption|]. intros [lm out] [lm' out'] [E1 E2]. cbn [fst snd] in E1, E2.
  cbn [orel]. split; [|split; [left; reflexivity|exact E2]]. cbn [fst]. constructor; flds; auto.
Qed.

(** ** Calls *)
Inductive CR : call -> call -> Prop :=
| CRReset p : flat (p_stylus p) -> CR (CReset p) (CReset p)
| CRKeep : CR CResetKeep CResetKeep
| CRUpdate i j rs rs' : IR i j -> Forall2 RR rs rs' -> CR (CUpdate i rs) (CUpdate j rs')
| CRPredict rs rs' : CR (CPredict rs) (CPredict rs')
| CRSave : CR CSave CSave
| CRRestore : CR CRestore CRestore.
Inductive YR : reply -> reply -> Prop :=
| YRStatus s : YR (RStatus s) (RStatus s)
| YRResults s t rs rs' : SL s t -> Forall2 RR rs rs' -> YR (RResults s rs) (RResults t rs')
| YRVoid : YR RVoid RVoid.
Lemma c_step : forall fuel m n c c', MR m n -> CR c c' ->
  orel (fun x y => MR (fst x) (fst y) /\ YR (snd x) (snd y)) (step fuel m c) (step fuel n c').
Proof.
  intros fuel m n c c' H HC. pose proof H as [H1 H2 H3 H4 H5 H6 H7 H8 H9 H10 H11 H12]. destruct HC as [p FP| |i j rs rs' HI HR|rs rs'| |]; cbn [step].
  - unfold reset_params. destruct (validate_params p); cbn [orel fst snd]; (split; [|constructor]); try exact H.
    constructor; flds; auto; try exact I.
    + apply c_make.
    + rewrite H6. reflexivity.
    + intros q E. injection E as <-. exact FP.
  - unfold reset_keep. rewrite <- H2. destruct (m_params m) as [p|] eqn:MP; cbn [orel fst snd]; (split; [|constructor]); [|exact H].
    constructor; flds; auto; try exact I.
  - eapply orel_bind; [apply c_update; eassumption|]. intros [[m1 s1] r1] [[n1 s2] r2] (K1 & K2 & K3). cbn in *. split; [exact K1|]. constructor; assumption.
  - eapply orel_bind; [apply (c_predict fuel m n rs rs' H)|]. intros [[m1 s1] r1] [[n1 s2] r2] (K1 & K2 & K3). cbn in *. split; [exact K1|]. constructor; assumption.
  - cbn [orel fst snd]. split; [|constructor]. unfold save. constructor; flds; auto.
    + apply c_wsave. exact H3.
    + destruct H4 as [P1 P2 P3]. constructor; cbn; auto.
    + apply c_ssave. exact H5.
    + rewrite H6. reflexivity.
    + destruct (m_predictor m), (m_predictor n); cbn [oprel] in H1 |- *; try contradiction; auto.
  - cbn [orel fst snd]. split; [|constructor]. unfold restore. rewrite <- H10. destruct (m_save_active m) eqn:SA; [|exact H]. constructor; flds; auto.
    + destruct (m_saved_predictor m), (m_saved_predictor n); cbn [oprel] in H8 |- *; try contradiction; auto.
    + apply c_wrestore. exact H3.
    + destruct H4 as [P1 P2 P3]. unfold pos_restore. destruct (pm_saved (m_pos m)) eqn:E1, (pm_saved (m_pos n)) eqn:E2; cbn [oprel] in P3; try contradiction.
      * constructor; cbn; auto.
      * constructor; auto. rewrite E1, E2. exact I.
    + apply c_srestore. exact H5.
    + rewrite H6. reflexivity.
    + unfold stylus_restore. destruct (sm_save_active _); exact H11.
Qed.
Lemma c_run : forall fuel cs cs' m n, MR m n -> Forall2 CR cs cs' ->
  orel (fun x y => MR (fst x) (fst y) /\ Forall2 YR (snd x) (snd y)) (run fuel m cs) (run fuel n cs').
Proof.
  intros fuel cs cs' m n H HC. revert m n H. induction HC as [|c c' cs cs' C1 HC IH]; intros m n H; cbn [run]; [cbn; auto|].
  eapply orel_bind; [apply c_step; eassumption|]. intros [m1 r1] [n1 q1] [K1 K2]. cbn [fst snd] in K1, K2.
  eapply orel_bind; [apply IH; exact K1|]. intros [m2 r2] [n2 q2] [K3 K4]. cbn [fst snd] in K3, K4. cbn. auto.
Qed.
Lemma c_answers : forall fuel hist hist' cs cs', Forall2 CR hist hist' -> Forall2 CR cs cs' ->
  orel (Forall2 YR) (answers fuel hist cs) (answers fuel hist' cs').
Proof.
  intros fuel hist hist' cs cs' H1 H2. unfold answers. eapply orel_bind; [apply (c_run fuel _ _ _ _ MR0 H1)|].
  intros [m r] [n q] [K _]. cbn [fst] in K. eapply orel_bind; [apply (c_run fuel _ _ _ _ K H2)|]. intros [m2 r2] [n2 q2] [_ K2]. exact K2.
Qed.
End Mirror.
