(** * Concrete cases of C58 and C47. *)
From Coq Require Import ZArith Bool List Lia String.
From Flocq Require Import IEEE754.BinarySingleNaN.
From Verif Require Import Channels Unknowns.
From Verif Require Export Examples_A.
Import ListNotations.
Open Scope Z_scope.

(** The strokes of C47 with another pressure and tilt, but the same orientation. *)
Definition retouch (i : Input) : Input :=
  mkInput (i_event i) (i_pos i) (i_time i) (fl 1 3) (fl 3 4) (i_orient i).
Definition touched : list (Input * Input) :=
  map (fun i => (i, retouch i)) [down; move1; move2; move3; up].
Lemma touched_restyling : restyling_others Orientation (fun i j => In (i, j) touched).
Proof.
  assert (K : forallb (fun a => same_but_stylusb (fst a) (snd a) &&
    forallb (fun b => Bool.eqb (input_eqb (fst a) (fst b)) (input_eqb (snd a) (snd b))) touched) touched = true) by compute_true.
  rewrite forallb_forall in K. split; [split|].
  - intros i j H. assert (L := H). apply K in H. apply andb_prop in H. destruct H as [H _].
    unfold same_but_stylusb in H. cbn [fst snd] in H. apply andb_prop in H. destruct H as [H H3].
    apply andb_prop in H. destruct H as [H H2]. apply andb_prop in H. destruct H as [H0 H1].
    apply eqb_prop in H1, H2, H3. unfold touched in L. apply in_map_iff in L. destruct L as (x & L & _).
    injection L as <- <-. repeat split; assumption.
  - intros i j i' j' H H'. apply K in H. apply andb_prop in H. destruct H as [_ H]. rewrite forallb_forall in H.
    apply H in H'. apply eqb_prop in H'. exact H'.
  - intros i j H. unfold touched in H. apply in_map_iff in H. destruct H as (x & H & _). injection H as <- <-. reflexivity.
Qed.
Definition retouch_call (c : call) : call := match c with CUpdate i rs => CUpdate (retouch i) rs | _ => c end.
(** Every result of the Updates has a known orientation, and a pressure of about [p]. *)
Definition results_of (r : reply) : list Result := match r with RResults _ l => l | _ => [] end.
Definition shows (p q : F) (rs : list reply) : bool :=
  forallb (fun r => fleb f0 (r_orient r) && fleb p (r_pressure r) && fleb (r_pressure r) q) (flat_map results_of rs).
Example C58_example :
  Forall2 (restyled (fun i j => In (i, j) touched)) S_raw (map retouch_call S_raw) /\
  replies_ok (codes [0; 0; 0; 0; 0; 0; 0]) (answers 5 [] S_raw) = true /\
  replies_ok (codes [0; 0; 0; 0; 0; 0; 0]) (answers 5 [] (map retouch_call S_raw)) = true /\
  replies_ok (shows (fl 32 100) (fl 34 100)) (answers 5 [] (map retouch_call S_raw)) = true /\
  replies_ok (shows (fl 32 100) (fl 34 100)) (answers 5 [] S_raw) = false.
Proof.
  split; [|repeat split; compute_true]. unfold S_raw, stroke. cbn [map app retouch_call].
  assert (K : forall i, In i [down; move1; move2; move3; up] -> restyled (fun i j => In (i, j) touched) (CUpdate i []) (CUpdate (retouch i) [])).
  { intros i H. split; [|reflexivity]. unfold touched. apply in_map_iff. exists i. split; [reflexivity|exact H]. }
  repeat (apply Forall2_cons; [first [reflexivity | apply K; cbn [In]; tauto]|]). apply Forall2_nil.
Qed.

(** ** C47: the same stroke from a device that reports no stylus data. *)
Definition S_loop : list call := CReset P_loop :: stroke ++ [CSave; CPredict []; CUpdate up []; CRestore; CUpdate up []].
Definition strip (i : Input) : Input := mkInput (i_event i) (i_pos i) (i_time i) fm1 fm1 fm1.
Definition strip_call (c : call) : call := match c with CUpdate i rs => CUpdate (strip i) rs | _ => c end.
Definition stripped : list (Input * Input) :=
  map (fun i => (i, strip i)) [down; move1; move2; move3; up].
Lemma stripped_redressing : redressing (fun i j => In (i, j) stripped).
Proof.
  assert (K : forallb (fun a =>
    forallb (fun b => Bool.eqb (input_eqb (fst a) (fst b)) (input_eqb (snd a) (snd b))) stripped) stripped = true) by compute_true.
  rewrite forallb_forall in K. split.
  - intros i j H. unfold stripped in H. apply in_map_iff in H. destruct H as (x & H & _). injection H as <- <-. repeat split.
  - intros i j i' j' H H'. apply K in H. rewrite forallb_forall in H. apply H in H'. apply eqb_prop in H'. exact H'.
Qed.
Example C47_unknown_example :
  Forall along_normal S_loop /\
  Forall2 (restyled (fun i j => In (i, j) stripped)) S_loop (map strip_call S_loop) /\
  replies_ok (shows f0 f1) (answers 5 [] S_loop) = true /\
  replies_ok (shows f0 f1) (answers 5 [] (map strip_call S_loop)) = false.
Proof.
  split; [repeat constructor|]. split; [|split; compute_true].
  unfold S_loop, stroke. cbn [map app strip_call].
  assert (K : forall i, In i [down; move1; move2; move3; up] -> restyled (fun i j => In (i, j) stripped) (CUpdate i []) (CUpdate (strip i) [])).
  { intros i H. split; [|reflexivity]. unfold stripped. apply in_map_iff. exists i. split; [reflexivity|exact H]. }
  repeat (apply Forall2_cons; [first [reflexivity | apply K; cbn [In]; tauto]|]). apply Forall2_nil.
Qed.
(** Some pair of corresponding results has different positions or velocities. *)
Definition vapart (a b : Vec2) : bool :=
  fltb (vx a) (vx b) || fltb (vx b) (vx a) || fltb (vy a) (vy b) || fltb (vy b) (vy a).
Definition apart (a b : Result) : bool := vapart (r_pos a) (r_pos b) || vapart (r_vel a) (r_vel b).
Definition differ (x y : list reply) : bool :=
  existsb (fun p => apart (fst p) (snd p)) (combine (flat_map results_of x) (flat_map results_of y)).
Lemma ltb_irrefl : forall x : F, fltb x x = false.
Proof.
  intros x. change (Bltb x x = false). unfold Bltb, SpecFloat.SFltb.
  destruct x as [s|s| |s m e B]; try reflexivity; try (destruct s; reflexivity).
  cbn. rewrite Z.compare_refl. unfold Pos.compare. rewrite Pos.compare_cont_refl. destruct s; reflexivity.
Qed.
Lemma apart_not_same : forall a b, same_geometry a b -> apart a b = false.
Proof. intros a b (E & E' & _). unfold apart, vapart. rewrite E, E', !ltb_irrefl. reflexivity. Qed.
Lemma differ_not_same : forall x y, differ x y = true -> ~ Forall2 same_reply_geometry x y.
Proof.
  intros x y D F. assert (G : Forall2 same_geometry (flat_map results_of x) (flat_map results_of y)).
  { clear D. induction F as [|a b x y H F IH]; [constructor|]. cbn [flat_map]. apply Forall2_app; [|exact IH].
    destruct a, b; cbn in H |- *; try discriminate H; try constructor. apply H. }
  unfold differ in D. clear F. induction G as [|a b l l' H G IH]; [discriminate D|].
  cbn [combine existsb fst snd] in D. rewrite (apart_not_same _ _ H) in D. auto.
Qed.
Definition differ_replies (o o' : outcome (list reply)) : bool :=
  match o, o' with Ret x, Ret y => differ x y | _, _ => false end.
Lemma differ_returns : forall o o', differ_replies o o' = true ->
  exists x y, o = Ret x /\ o' = Ret y /\ ~ Forall2 same_reply_geometry x y.
Proof.
  intros [x| |] [y| |] D; try discriminate D. exists x, y. repeat split. apply differ_not_same. exact D.
Qed.
(** With the projection to the closest point this is false: without stylus data the same
    stroke, loop mitigation and smoothing off, has other velocities (by rounding errors:
    a result is an interpolation that starts from the projected input). *)
Theorem C47_unknown_refuted : exists P cs ds rs rs',
  redressing P /\ Forall2 (restyled P) cs ds /\
  answers 5 [] cs = Ret rs /\ answers 5 [] ds = Ret rs' /\ ~ Forall2 same_reply_geometry rs rs'.
Proof.
  assert (D : differ_replies (answers 5 [] S_raw) (answers 5 [] (map strip_call S_raw)) = true) by compute_true.
  destruct (differ_returns _ _ D) as (x & y & E1 & E2 & N). clear D.
  exists (fun i j => In (i, j) stripped), S_raw, (map strip_call S_raw), x, y.
  split; [apply stripped_redressing|]. split; [|split; [exact E1|split; [exact E2|exact N]]].
  unfold S_raw, stroke. cbn [map app strip_call].
  assert (K : forall i, In i [down; move1; move2; move3; up] -> restyled (fun i j => In (i, j) stripped) (CUpdate i []) (CUpdate (strip i) [])).
  { intros i H. split; [|reflexivity]. unfold stripped. apply in_map_iff. exists i. split; [reflexivity|exact H]. }
  repeat (apply Forall2_cons; [first [reflexivity | apply K; cbn [In]; tauto]|]). apply Forall2_nil.
Qed.
