(** * C57: which predictor is chosen, and how it is tuned, never influences the
      results of Update, in any arithmetic. *)
From Coq Require Import ZArith Bool List Lia.
From Verif Require Import Calm Props_Params Quiet Limits.
Import ListNotations.

(** ** Specification *)
(** The same parameters but for those of the prediction. *)
Definition same_but_prediction {A : Arith} (p q : StrokeModelParams) : Prop :=
  p_wobble q = p_wobble p /\ p_position q = p_position p /\ p_sampling q = p_sampling p /\ p_stylus q = p_stylus p.
(** The same call, with such parameters, of the same validity. *)
Definition call_but_prediction {A : Arith} (c d : call) : Prop :=
  match c, d with
  | CReset p, CReset q => same_but_prediction p q /\ validate_params q = validate_params p
  | _, _ => d = c
  end.
(** The same answer, unless to a Predict. *)
Definition answer_but_prediction {A : Arith} (c : call) (r s : reply) : Prop :=
  match c with CPredict _ => True | _ => s = r end.
Inductive answers_but_prediction {A : Arith} : list call -> list reply -> list reply -> Prop :=
| abp_nil : answers_but_prediction [] [] []
| abp_cons c cs r rs s ss : answer_but_prediction c r s -> answers_but_prediction cs rs ss -> answers_but_prediction (c :: cs) (r :: rs) (s :: ss).

Section Unpredicted.
Context {A : Arith}.
Record apart (m n : Modeler) : Prop := mkApart {
  ap_par : match m_params m, m_params n with None, None => True | Some p, Some q => same_but_prediction p q | _, _ => False end;
  ap_wob : m_wobble n = m_wobble m;
  ap_pos : m_pos n = m_pos m;
  ap_sty : m_stylus n = m_stylus m;
  ap_loop : m_loop n = m_loop m;
  ap_last : m_last n = m_last m;
  ap_sl : m_saved_last n = m_saved_last m;
  ap_sa : m_save_active n = m_save_active m
}.
Definition ar (x y : upd_result) : Prop :=
  let '(m, s, r) := x in let '(n, t, q) := y in apart m n /\ t = s /\ q = r.

Lemma update_apart : forall fuel m n i rs, apart m n -> both ar (update fuel m i rs) (update fuel n i rs).
Proof.
  intros fuel m n i rs AP. pose proof AP as [C1 C2 C3 C4 C5 C6 C7 C8].
  assert (KEEP : forall e, both ar (Ret (m, e, rs)) (Ret (n, e, rs))) by (intros e; cbn; split; [exact AP|split; reflexivity]).
  unfold update. destruct (m_params m) as [p|] eqn:MP, (m_params n) as [q|] eqn:NP; try contradiction; [|apply KEEP].
  destruct C1 as (Q1 & Q2 & Q3 & Q4).
  destruct (validate_input i); try apply KEEP. rewrite C6.
  assert (K : both ar
    match i_event i with
    | EDown => process_down m p i rs | EMove => process_move fuel m p i rs
    | EUp => process_up fuel m p i rs | EOther _ => Ret (m, InvalidArgument msg_event, rs) end
    match i_event i with
    | EDown => process_down n q i rs | EMove => process_move fuel n q i rs
    | EUp => process_up fuel n q i rs | EOther _ => Ret (n, InvalidArgument msg_event, rs) end).
  { assert (PQ : same_but_prediction p q) by (split; [|split; [|split]]; assumption).
    destruct (i_event i); [| | |apply KEEP].
    - unfold process_down. rewrite C2, C4, C5, C6, Q1, Q2, Q4. destruct (m_last m); [apply KEEP|].
      destruct (stylus_update _ _ _ _ _ _) as [sm| |]; cbn [obind]; try exact I.
      destruct (match m_predictor m with None => _ | Some _ => _ end) as [x| |]; cbn [obind]; try exact I;
      destruct (match m_predictor n with None => _ | Some _ => _ end) as [y| |]; cbn [obind both ar]; try exact I.
      split; [|split; reflexivity]. constructor; cbn; try assumption; try reflexivity. rewrite MP, NP. exact PQ.
    - unfold process_move. rewrite C2, C3, C4, C5, C6, Q2, Q3. destruct (m_last m) as [l|]; [|apply KEEP].
      destruct (wobble_update _ _ _) as [[w c]| |]; cbn [obind]; try exact I.
      destruct (stylus_update _ _ _ _ _ _) as [sm| |]; cbn [obind]; try exact I.
      destruct (number_of_steps _ _ _ _ _) as [[k|e]| |]; cbn [obind]; try exact I.
      2:{ cbn [both ar]. split; [|split; reflexivity]. constructor; cbn; try assumption; try reflexivity. rewrite MP, NP. exact PQ. }
      destruct (update_along_path _ _ _ _ _ _ _) as [[tip tips]| |]; cbn [obind]; try exact I.
      destruct (match m_predictor m with None => _ | Some _ => _ end) as [x| |]; cbn [obind]; try exact I;
      destruct (match m_predictor n with None => _ | Some _ => _ end) as [y| |]; cbn [obind]; try exact I;
      try (destruct (model_stylus _ _ _ _ _) as [[lm out]| |]; exact I).
      destruct (model_stylus _ _ _ _ _) as [[lm out]| |]; cbn [obind both ar]; try exact I.
      split; [|split; reflexivity]. constructor; cbn; try assumption; try reflexivity. rewrite MP, NP. exact PQ.
    - unfold process_up. rewrite C3, C4, C5, C6, Q2, Q3. destruct (m_last m) as [l|]; [|apply KEEP].
      destruct (number_of_steps _ _ _ _ _) as [[k|e]| |]; cbn [obind]; try exact I; [|apply KEEP].
      destruct (update_along_path _ _ _ _ _ _ _) as [[tip tips]| |]; cbn [obind]; try exact I.
      destruct (model_end_of_stroke _ _ _ _ _ _) as [tip2 tips2].
      destruct (stylus_update _ _ _ _ _ _) as [sm| |]; cbn [obind]; try exact I.
      destruct (model_stylus _ _ _ _ _) as [[lm out]| |]; cbn [obind both ar]; try exact I.
      split; [|split; reflexivity]. constructor; cbn; try assumption; try reflexivity. rewrite MP, NP. exact PQ. }
  destruct (m_last m); [|exact K]. destruct (input_eqb _ _); [apply KEEP|]. destruct (dltb _ _); [apply KEEP|]. exact K.
Qed.

Lemma predict_apart : forall fuel m n rs, apart m n -> both (fun x y => apart (fst x) (fst y)) (step fuel m (CPredict rs)) (step fuel n (CPredict rs)).
Proof.
  assert (SELF : forall fuel m rs m' r, step fuel m (CPredict rs) = Ret (m', r) -> m_params m' = m_params m /\ m_wobble m' = m_wobble m /\ m_pos m' = m_pos m /\ m_stylus m' = m_stylus m /\
    m_loop m' = m_loop m /\ m_last m' = m_last m /\ m_saved_last m' = m_saved_last m /\ m_save_active m' = m_save_active m).
  { intros fuel m rs m' r H. cbn [step] in H. unfold predict in H. destruct (m_params m) as [p|] eqn:MP; [|injection H as <- <-; auto 10].
    destruct (m_predictor m); [|injection H as <- <-; auto 10]. destruct (m_last m) as [l|] eqn:ML; [|injection H as <- <-; auto 10].
    destruct (pred_construct _ _); cbn [obind] in H; try discriminate H. destruct (model_stylus _ _ _ _ _) as [[lm out]| |]; cbn [obind] in H; try discriminate H.
    injection H as <- <-. cbn. auto 10. }
  intros fuel m n rs [C1 C2 C3 C4 C5 C6 C7 C8].
  destruct (step fuel m (CPredict rs)) as [[m1 r1]| |] eqn:S1; try exact I. destruct (step fuel n (CPredict rs)) as [[n1 r2]| |] eqn:S2; try exact I. cbn [both fst].
  destruct (SELF _ _ _ _ _ S1) as (E1 & E2 & E3 & E4 & E5 & E6 & E7 & E8). destruct (SELF _ _ _ _ _ S2) as (D1 & D2 & D3 & D4 & D5 & D6 & D7 & D8).
  constructor; try congruence. rewrite E1, D1. exact C1.
Qed.

Lemma step_apart : forall fuel m n c d, apart m n -> call_but_prediction c d ->
  both (fun x y => apart (fst x) (fst y) /\ answer_but_prediction c (snd x) (snd y)) (step fuel m c) (step fuel n d).
Proof.
  intros fuel m n c d AP CD. pose proof AP as [C1 C2 C3 C4 C5 C6 C7 C8]. destruct c as [p| |i rs|rs| |]; cbn [call_but_prediction] in CD.
  - destruct d as [q| | | | |]; try discriminate CD. destruct CD as [PQ V]. cbn [step]. unfold reset_params. rewrite V.
    destruct (validate_params p); cbn [both fst snd answer_but_prediction]; (split; [|reflexivity]); try exact AP.
    destruct PQ as (Q1 & Q2 & Q3 & Q4). constructor; cbn; auto; [repeat split; assumption|]. rewrite C5, Q2. reflexivity.
  - subst d. cbn [step]. unfold reset_keep. destruct (m_params m) as [p|] eqn:MP, (m_params n) as [q|] eqn:NP; try contradiction; cbn [both fst snd answer_but_prediction]; (split; [|reflexivity]); [|exact AP].
    constructor; cbn; auto. 
  - subst d. cbn [step]. pose proof (update_apart fuel m n i rs AP) as U.
    destruct (update fuel m i rs) as [[[m1 s1] r1]| |], (update fuel n i rs) as [[[n1 s2] r2]| |]; try exact I.
    cbn [both ar obind fst snd answer_but_prediction] in *. destruct U as (U1 & -> & ->). split; [exact U1|reflexivity].
  - subst d. pose proof (predict_apart fuel m n rs AP) as P. destruct (step fuel m (CPredict rs)) as [[m1 r1]| |], (step fuel n (CPredict rs)) as [[n1 r2]| |]; try exact I.
    cbn [both fst snd] in *. split; [exact P|exact I].
  - subst d. cbn [step both fst snd answer_but_prediction]. split; [|reflexivity]. unfold save. constructor; cbn; auto; congruence.
  - subst d. cbn [step both fst snd answer_but_prediction]. split; [|reflexivity]. unfold restore. rewrite C8. destruct (m_save_active m) eqn:SA; [|exact AP].
    constructor; cbn; auto; congruence.
Qed.
Lemma run_apart : forall fuel cs ds m n, apart m n -> Forall2 call_but_prediction cs ds ->
  both (fun x y => answers_but_prediction cs (snd x) (snd y)) (run fuel m cs) (run fuel n ds).
Proof.
  intros fuel. induction cs as [|c cs IH]; intros ds m n AP CD; inversion CD as [|? d ? ds' CC CR]; subst; cbn [run]; [cbn; constructor|].
  pose proof (step_apart fuel m n c d AP CC) as ST.
  destruct (step fuel m c) as [[m1 r1]| |]; cbn [obind]; try exact I;
  destruct (step fuel n d) as [[n1 r2]| |]; cbn [obind]; try (destruct (run fuel m1 cs) as [[m2 q1]| |]; exact I); try exact I.
  cbn [both fst snd] in ST. destruct ST as [AP1 AN]. specialize (IH ds' m1 n1 AP1 CR).
  destruct (run fuel m1 cs) as [[m2 q1]| |], (run fuel n1 ds') as [[n2 q2]| |]; cbn [both obind fst snd] in *; try exact I. constructor; assumption.
Qed.
End Unpredicted.

(** ** C57 *)
(** Two histories that differ only in the prediction parameters get the same answers
    to everything but Predict, whenever both return. *)
Theorem C57_predictor_no_influence : forall (A : Arith) fuel hist hist' rs rs', Forall2 call_but_prediction hist hist' ->
  answers fuel [] hist = Ret rs -> answers fuel [] hist' = Ret rs' -> answers_but_prediction hist rs rs'.
Proof.
  intros A fuel hist hist' rs rs' CD H1 H2. unfold answers in *. cbn [run obind fst snd] in *.
  assert (AP : apart modeler0 modeler0) by (constructor; reflexivity || exact I).
  pose proof (run_apart fuel hist hist' modeler0 modeler0 AP CD) as L.
  destruct (run fuel modeler0 hist) as [[m q]| |]; try discriminate H1. destruct (run fuel modeler0 hist') as [[n q']| |]; try discriminate H2.
  cbn [both obind fst snd] in *. injection H1 as <-. injection H2 as <-. exact L.
Qed.
