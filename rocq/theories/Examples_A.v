(** * C21, C30, C33, C35, C47: concrete cases and counterexamples. *)
From Coq Require Import ZArith Bool List Lia String.
From Verif Require Export Examples_API Props_Count Props_Params Props_Geom.
Import ListNotations.
Open Scope Z_scope.

(** C21: Moves and Ups that produce several results. *)
Example C21_example :
  replies_ok (fun rs => codes [0] rs && counts [2] rs) (answers 5 H_stroke [CUpdate move3 []]) = true /\
  replies_ok (fun rs => codes [0] rs && negb (counts [2] rs)) (answers 5 H_stroke [CUpdate up []]) = true.
Proof. split; compute_true. Qed.

(** A Move that needs more than max_outputs_per_call results is rejected. *)
Example C21_rejected_example :
  replies_ok (codes [2]) (answers 5 [CReset P_one; CUpdate down []] [CUpdate move1 []]) = true.
Proof. compute_true. Qed.

(** With max_outputs_per_call = 1, Up 1 ms after Down returns many results. *)
Definition up_soon := inp EUp 10 0 1 50.
Definition move_soon := inp EMove 10 0 1 50.
Theorem C21_up_refuted : exists hist s p i out,
  after 5 hist s /\ ps_params s = Some p /\ i_event i = EUp /\
  answers 5 hist [CUpdate i []] = Ret [RResults OkStatus out] /\
  sp_max_outputs (p_sampling p) < Z.of_nat (List.length out).
Proof.
  set (h := [CReset P_one; CUpdate down []]).
  destruct (after_check_ex 5 h in_stroke ltac:(compute_true)) as (s & A1 & A2).
  destruct (update_reply 5 h up_soon [] 0 ltac:(compute_true)) as (st & l & R & C).
  exists h, s, P_one, up_soon, l. apply code_ok in C. subst st.
  split; [exact A1|]. split; [revert A1; apply after_params; [compute_true|reflexivity]|].
  split; [reflexivity|]. split; [exact R|].
  assert (K : replies_ok (fun rs => match rs with [r] => Z.ltb 1 (count r) | _ => false end)
    (answers 5 h [CUpdate up_soon []]) = true) by compute_true.
  rewrite R in K. cbn [replies_ok count] in K. apply Z.ltb_lt in K. exact K.
Qed.
(** The same for Predict. *)
Theorem C21_predict_refuted : exists hist s p out,
  after 5 hist s /\ ps_params s = Some p /\
  answers 5 hist [CPredict []] = Ret [RResults OkStatus out] /\
  sp_max_outputs (p_sampling p) < Z.of_nat (List.length out).
Proof.
  set (h := [CReset P_one; CUpdate down []; CUpdate move_soon []]).
  destruct (after_check_ex 5 h in_stroke ltac:(compute_true)) as (s & A1 & A2).
  destruct (predict_reply 5 h [] 0 ltac:(compute_true)) as (st & l & R & C).
  exists h, s, P_one, l. apply code_ok in C. subst st.
  split; [exact A1|]. split; [revert A1; apply after_params; [compute_true|reflexivity]|].
  split; [exact R|].
  assert (K : replies_ok (fun rs => match rs with [r] => Z.ltb 1 (count r) | _ => false end)
    (answers 5 h [CPredict []]) = true) by compute_true.
  rewrite R in K. cbn [replies_ok count] in K. apply Z.ltb_lt in K. exact K.
Qed.

(** C35, C33, C30: strokes with the feature off, that succeed. *)
Definition S_raw : list call := CReset P_raw :: stroke ++ [CPredict []; CUpdate up []].
Example C35_example :
  (forall p, In (CReset p) S_raw -> wp_enabled (p_wobble p) = false) /\
  (forall p, In (CReset p) S_raw -> lp_enabled (pp_loop (p_position p)) = false) /\
  replies_ok (codes [0; 0; 0; 0; 0; 0; 0]) (answers 5 [] S_raw) = true.
Proof.
  split; [|split; [|compute_true]]; intros p H; unfold S_raw, stroke in H; cbn [app] in H;
    repeat (destruct H as [H|H]; [try discriminate H; injection H as <-; reflexivity|]); contradiction H.
Qed.

(** C47: the same strokes with other pressure, tilt and orientation. *)
Definition restyle (i : Input) : Input :=
  mkInput (i_event i) (i_pos i) (i_time i) (fl 1 3) (fl 3 4) (fl 5 2).
Definition pairs : list (Input * Input) :=
  map (fun i => (i, restyle i)) [down; move1; move2; move3; up].
Definition same_but_stylusb (i j : Input) : bool :=
  event_eqb (i_event i) (i_event j) &&
  Bool.eqb (unknown (i_pressure i)) (unknown (i_pressure j)) &&
  Bool.eqb (unknown (i_tilt i)) (unknown (i_tilt j)) &&
  Bool.eqb (unknown (i_orient i)) (unknown (i_orient j)).
Lemma pairs_restyling : restyling (fun i j => In (i, j) pairs).
Proof.
  assert (K : forallb (fun a => same_but_stylusb (fst a) (snd a) &&
    forallb (fun b => Bool.eqb (input_eqb (fst a) (fst b)) (input_eqb (snd a) (snd b))) pairs) pairs = true) by compute_true.
  rewrite forallb_forall in K. split.
  - intros i j H. assert (L := H). apply K in H. apply andb_prop in H. destruct H as [H _].
    unfold same_but_stylusb in H. cbn [fst snd] in H. apply andb_prop in H. destruct H as [H H3].
    apply andb_prop in H. destruct H as [H H2]. apply andb_prop in H. destruct H as [H0 H1].
    apply eqb_prop in H1, H2, H3. unfold pairs in L. apply in_map_iff in L. destruct L as (x & L & _).
    injection L as <- <-. repeat split; assumption.
  - intros i j i' j' H H'. apply K in H. apply andb_prop in H. destruct H as [_ H]. rewrite forallb_forall in H.
    apply H in H'. apply eqb_prop in H'. exact H'.
Qed.
Definition restyle_call (c : call) : call := match c with CUpdate i rs => CUpdate (restyle i) rs | _ => c end.
Example C47_example :
  Forall2 (restyled (fun i j => In (i, j) pairs)) S_raw (map restyle_call S_raw) /\
  replies_ok (codes [0; 0; 0; 0; 0; 0; 0]) (answers 5 [] (map restyle_call S_raw)) = true.
Proof.
  split; [|compute_true]. unfold S_raw, stroke. cbn [map app restyle_call].
  assert (K : forall i, In i [down; move1; move2; move3; up] -> restyled (fun i j => In (i, j) pairs) (CUpdate i []) (CUpdate (restyle i) [])).
  { intros i H. split; [|reflexivity]. unfold pairs. apply in_map_iff. exists i. split; [reflexivity|exact H]. }
  repeat (apply Forall2_cons; [first [reflexivity | apply K; cbn [In]; tauto]|]). apply Forall2_nil.
Qed.
