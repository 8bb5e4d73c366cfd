(** * C49, C27, C28, C22: concrete strokes with the recommended parameters that meet the
      hypotheses of the theorems about binary32 and binary64. *)
From Coq Require Import ZArith Bool List Lia String Reals Lra Sorted.
From Flocq Require Import Core.Core IEEE754.BinarySingleNaN.
From Verif Require Export Props_FRate Examples_N.
Import ListNotations.
Open Scope Z_scope.

#[local] Existing Instance demo_arith.
Transparent b32 b64.
(** m * 2^e with a short m. *)
Lemma norm_R : forall p x (Hp : Prec_gt_0 p) (Hx : Prec_lt_emax p x) m e, (Z.abs m < 2 ^ p)%Z -> (3 - x - p <= e)%Z -> (p + e <= x)%Z ->
  is_finite (binary_normalize p x Hp Hx mode_NE m e false) = true /\
  B2R (binary_normalize p x Hp Hx mode_NE m e false) = F2R (Float radix2 m e).
Proof.
  intros p x Hp Hx m e M E1 E2. pose proof (binary_normalize_correct p x Hp Hx mode_NE m e false) as H.
  assert (RB : (Rabs (F2R (Float radix2 m e)) < bpow radix2 (p + e))%R).
  { apply F2R_lt_bpow. cbn [Fnum Fexp]. replace (p + e - e) with p by ring. exact M. }
  cbn [round_mode] in H. rewrite round_generic in H; [|apply valid_rnd_N|].
  - rewrite Rlt_bool_true in H; [destruct H as (H1 & H2 & _); split; [exact H2|exact H1]|].
    eapply Rlt_le_trans; [exact RB|]. apply bpow_le. exact E2.
  - apply generic_format_F2R. intros NZ. unfold cexp.
    assert (MG : (mag radix2 (F2R (Float radix2 m e)) <= p + e)%Z) by (apply mag_le_bpow; [apply F2R_neq_0; exact NZ|exact RB]).
    unfold SpecFloat.fexp, SpecFloat.emin. lia.
Qed.
Definition within (v : float32) (m e : Z) : bool := is_finite v && Bleb v (b32 m e) && Bleb (b32 (- m) e) v.
Lemma within_le : forall v m e, within v m e = true -> (0 <= m < 2 ^ 24)%Z -> (-100 <= e <= 100)%Z -> fin_le (F2R (Float radix2 m e)) v.
Proof.
  intros v m e H M E. apply andb_prop in H. destruct H as [H H3]. apply andb_prop in H. destruct H as [H1 H2].
  destruct (norm_R 24 128 prec_gt_0_32 prec_lt_emax_32 m e) as [FA EA]; [lia|lia|lia|].
  destruct (norm_R 24 128 prec_gt_0_32 prec_lt_emax_32 (- m) e) as [FB EB]; [lia|lia|lia|].
  apply (leb_R 24 128) in H2; [|exact H1|exact FA]. apply (leb_R 24 128) in H3; [|exact FB|exact H1].
  unfold b32 in H2, H3. rewrite EA in H2. rewrite EB in H3.
  split; [exact H1|]. apply Rabs_le. split; [|exact H2]. rewrite F2R_Zopp in H3. exact H3.
Qed.

(** Times in units of 1/1024 s. *)
Definition tick (e : event_type) (x y k pr : Z) : Input :=
  mkInput e (mkVec2 (fl x 100) (fl y 100)) (b64 k (-10)) (fl pr 100) (fl 1 2) (fl 1 1).
Definition tick_check (i : Input) : bool :=
  within (vx (i_pos i)) 1 30 && within (vy (i_pos i)) 1 30 && within (i_pressure i) 1 100 && within (i_tilt i) 1 100 && within (i_orient i) 1 100.
Lemma tick_ok : forall e x y k pr, (Z.abs k < 2 ^ 40)%Z -> tick_check (tick e x y k pr) = true ->
  @ticking_input (fun x => x) (tick e x y k pr).
Proof.
  intros e x y k pr K H. apply andb_prop in H. destruct H as [H H5]. apply andb_prop in H. destruct H as [H H4].
  apply andb_prop in H. destruct H as [H H3]. apply andb_prop in H. destruct H as [H1 H2].
  assert (B : forall n, F2R (Float radix2 1 n) = bpow radix2 n) by (intros n; unfold F2R; cbn [Fnum Fexp]; ring).
  apply within_le in H1; [|lia|lia]. apply within_le in H2; [|lia|lia]. apply within_le in H3; [|lia|lia].
  apply within_le in H4; [|lia|lia]. apply within_le in H5; [|lia|lia]. rewrite B in H1, H2, H3, H4, H5.
  destruct (norm_R 53 1024 prec_gt_0_64 prec_lt_emax_64 k (-10)) as [F E]; [lia|lia|lia|].
  assert (E2 : B2R (b64 k (-10)) = (IZR k / 1024)%R).
  { unfold b64. rewrite E. unfold F2R. cbn [Fnum Fexp]. cbn. lra. }
  split; [split; [split; [exact H1|exact H2]|split; [split; [exact F|]|split; [exact H3|split; [exact H4|exact H5]]]]|].
  - cbn [i_time tick]. rewrite E2. unfold Rdiv. rewrite Rabs_mult, (Rabs_pos_eq (/ 1024)) by lra. rewrite <- abs_IZR.
    assert (IZR (Z.abs k) <= IZR (2 ^ 40))%R by (apply IZR_le; lia).
    assert (EV : IZR (2 ^ 40) = 1099511627776%R) by (vm_compute; reflexivity). lra.
  - exists (1024 * k)%Z. cbn [i_time tick]. rewrite E2, mult_IZR. field.
Qed.

(** The recommended spring and drag, at 180 Hz; smoothing, mitigation and projection on. *)
Example steady_example : @steady_params (fun x => x) P_loop.
Proof.
  split; [|split; [vm_compute; discriminate|]].
  - assert (ER : B2R (sp_rate (p_sampling P_loop) : float64) = 180%R) by (apply literal_R; vm_compute; reflexivity).
    set (r := sp_rate (p_sampling P_loop) : float64) in *. set (k := pp_spring (p_position P_loop) : float32). set (d := pp_drag (p_position P_loop) : float32).
    assert (K1 : Bleb (b32 1 (-12)) k = true) by (vm_compute; reflexivity). assert (K2 : Bleb k (b32 1 0) = true) by (vm_compute; reflexivity).
    assert (D1 : Bleb (b32 72 0) d = true) by (vm_compute; reflexivity). assert (D2 : Bleb d (b32 72 0) = true) by (vm_compute; reflexivity).
    assert (FK : is_finite k = true) by (vm_compute; reflexivity). assert (FD : is_finite d = true) by (vm_compute; reflexivity).
    destruct (norm_R 24 128 prec_gt_0_32 prec_lt_emax_32 1 (-12)) as [F1 E1]; [lia|lia|lia|].
    destruct (norm_R 24 128 prec_gt_0_32 prec_lt_emax_32 1 0) as [F2 E2]; [lia|lia|lia|].
    destruct (norm_R 24 128 prec_gt_0_32 prec_lt_emax_32 72 0) as [F3 E3]; [lia|lia|lia|].
    apply (leb_R 24 128) in K1; [|exact F1|exact FK]. apply (leb_R 24 128) in K2; [|exact FK|exact F2].
    apply (leb_R 24 128) in D1; [|exact F3|exact FD]. apply (leb_R 24 128) in D2; [|exact FD|exact F3].
    unfold b32 in *. rewrite E1 in K1. rewrite E2 in K2. rewrite E3 in D1, D2.
    assert (V1 : F2R (Float radix2 1 (-12)) = (/ 4096)%R) by (unfold F2R; cbn; lra).
    assert (V2 : F2R (Float radix2 1 0) = 1%R) by (unfold F2R; cbn; lra).
    assert (V3 : F2R (Float radix2 72 0) = 72%R) by (unfold F2R; cbn; lra).
    rewrite V1 in K1. rewrite V2 in K2. rewrite V3 in D1, D2. assert (DE : B2R d = 72%R) by (apply Rle_antisym; assumption).
    constructor.
    + split; [exact FK|]. change (/ 1048576 <= B2R k <= 1048576)%R. lra.
    + split; [exact FD|]. change (0 < B2R d)%R. lra.
    + change (1 <= B2R r <= 16384)%R. rewrite ER. lra.
    + change (2 * B2R d <= B2R r)%R. rewrite ER. lra.
    + change (2 <= B2R r * (B2R k * B2R d))%R. rewrite ER, DE. lra.
  - intros l _. repeat split; compute_true.
Qed.

(** Without rejected Updates, the inputs seen are the accepted ones. *)
Definition granted (r : reply) : bool := match r with RResults OkStatus _ => true | RResults _ _ => false | _ => true end.
Definition in_step (s : sinputs) : Prop :=
  si_seen s = map fst (si_cur s) /\ si_saved_seen s = map fst (match si_saved s with Some l => l | None => [] end).
Lemma in_step_run : forall cs rs s, forallb granted rs = true -> in_step s -> in_step (srun s cs rs).
Proof.
  induction cs as [|c cs IH]; intros rs s F K; [exact K|]. destruct rs as [|r rs]; [exact K|]. cbn [forallb] in F. apply andb_prop in F. destruct F as [F1 F2].
  cbn [srun]. apply IH; [exact F2|]. clear IH F2. pose proof K as [K1 K2].
  destruct c as [q| |i l|l| |]; destruct r as [st|st l'|]; try (destruct st as [|e|e]); try discriminate F1; try exact K; try (split; [exact K1|exact K1]); try (split; reflexivity).
  1: { unfold sstep. destruct (i_event i); split; cbn; rewrite ?map_app, ?K1, ?K2; reflexivity. }
  all: unfold sstep; destruct (si_saved s) as [l|] eqn:SV; [|exact K]; rewrite ?SV in K2; split; cbn; rewrite ?SV; exact K2.
Qed.
Lemma seen_granted : forall fuel hist s es seen, after_seen fuel hist s es seen -> replies_ok (forallb granted) (answers fuel [] hist) = true -> seen = map fst es.
Proof.
  intros fuel hist s es seen (m & rs & R & _ & E1 & E2 & _) H. subst es seen. unfold answers in H. cbn [run obind] in H. rewrite R in H. cbn [obind replies_ok] in H.
  apply (in_step_run hist rs sinputs0 H). split; reflexivity.
Qed.
(** Smoothing, with inputs of this kind within one second. *)
Definition near_check (i : Input) : bool := within (vx (i_pos i)) 1 26 && within (vy (i_pos i)) 1 26 && dleb (b64 1 0) (i_time i) && dleb (i_time i) (b64 2 0).
Definition near_input (i : Input) : Prop :=
  (fin_le (bpow radix2 26) (vx (i_pos i)) /\ fin_le (bpow radix2 26) (vy (i_pos i))) /\ (1 <= B2R (i_time i : float64) <= 2)%R.
Lemma near_ok : forall i, is_finite (i_time i : float64) = true -> near_check i = true -> near_input i.
Proof.
  intros i F H. apply andb_prop in H. destruct H as [H H4]. apply andb_prop in H. destruct H as [H H3]. apply andb_prop in H. destruct H as [H1 H2].
  assert (B : F2R (Float radix2 1 26) = bpow radix2 26) by (unfold F2R; cbn [Fnum Fexp]; ring).
  apply within_le in H1; [|lia|lia]. apply within_le in H2; [|lia|lia]. rewrite B in H1, H2. split; [split; assumption|].
  destruct (norm_R 53 1024 prec_gt_0_64 prec_lt_emax_64 1 0) as [F1 E1]; [lia|lia|lia|]. destruct (norm_R 53 1024 prec_gt_0_64 prec_lt_emax_64 2 0) as [F2 E2]; [lia|lia|lia|].
  unfold demo_arith in H3, H4. cbn [dleb ieee] in H3, H4. apply (leb_R 53 1024) in H3; [|exact F1|exact F]. apply (leb_R 53 1024) in H4; [|exact F|exact F2].
  unfold b64 in H3, H4. rewrite E1 in H3. rewrite E2 in H4. unfold F2R in H3, H4. cbn in H3, H4. split; [eapply Rle_trans; [|exact H3]; lra|eapply Rle_trans; [exact H4|]; lra].
Qed.
Lemma near_smoothable : forall l : list Input, Forall near_input l -> (List.length l <= 1000)%nat -> @smoothable (fun x => x) P_loop l l.
Proof.
  intros l F N _. split; [reflexivity|]. exists 1%R.
  set (t := wp_timeout (p_wobble P_loop) : float64).
  assert (FT : is_finite t = true) by (vm_compute; reflexivity).
  assert (T1 : Bleb (b64 1 (-5)) t = true) by (vm_compute; reflexivity). assert (T2 : Bleb t (b64 1 0) = true) by (vm_compute; reflexivity).
  destruct (norm_R 53 1024 prec_gt_0_64 prec_lt_emax_64 1 (-5)) as [F1 E1]; [lia|lia|lia|]. destruct (norm_R 53 1024 prec_gt_0_64 prec_lt_emax_64 1 0) as [F2 E2]; [lia|lia|lia|].
  apply (leb_R 53 1024) in T1; [|exact F1|exact FT]. apply (leb_R 53 1024) in T2; [|exact FT|exact F2]. unfold b64 in T1, T2. rewrite E1 in T1. rewrite E2 in T2.
  assert (V1 : F2R (Float radix2 1 (-5)) = (/ 32)%R) by (unfold F2R; cbn; lra). assert (V2 : F2R (Float radix2 1 0) = 1%R) by (unfold F2R; cbn; lra). rewrite V1 in T1. rewrite V2 in T2.
  unfold smoothing_within. change (wp_timeout (p_wobble P_loop) : float64) with t.
  split; [lra|]. split; [lra|]. split; [eapply Forall_impl; [|exact F]; intros i [H _]; exact H|]. split.
  - clear N. induction F as [|a l H F IH]; [constructor|]. constructor; [exact IH|]. destruct F as [|b l Hb F]; constructor.
    destruct H as [_ H], Hb as [_ Hb]. unfold demo_arith in *. clear - H Hb. apply Rle_trans with (2 - 1)%R; [|lra]. unfold Rminus. apply Rplus_le_compat; [apply Hb|]. apply Ropp_le_contravar. apply H.
  - assert (NN : (INR (List.length l) <= 1000)%R) by (rewrite INR_IZR_INZ; apply IZR_le; lia).
    apply Rle_trans with (1000 * (B2R t + 1))%R; [apply Rmult_le_compat_r; [lra|exact NN]|lra].
Qed.

Definition kdown := tick EDown 0 0 1024 50.
Definition kmoves := [tick EMove 10 0 1034 60; tick EMove 20 5 1044 70; tick EMove 20 20 1054 80].
Definition kup := tick EUp 20 30 1064 90.
Definition H_ticks : list call := CReset P_loop :: CUpdate kdown [] :: map (fun i => CUpdate i []) kmoves.
Example C49_float_example : exists s es seen, after_seen 5 H_ticks s es seen /\ in_stroke s = true /\ ps_params s = Some P_loop /\
  @steady_params (fun x => x) P_loop /\ Forall (call_input_ok (@ticking_input (fun x => x))) H_ticks /\ @ticking_input (fun x => x) kup /\
  @smoothable (fun x => x) P_loop (map fst es) seen /\ @smoothable (fun x => x) P_loop (map fst es ++ [kup]) (seen ++ [kup]) /\
  (5 <= List.length (List.concat (map snd es)) <= 100)%nat /\
  replies_ok nonempty (answers 5 H_ticks [CUpdate kup []]) = true /\
  replies_ok nonempty (answers 5 H_ticks [CPredict []]) = true.
Proof.
  destruct (after_seen_check 5 H_ticks (fun s es seen => in_stroke s && (Nat.leb 5 (List.length (List.concat (map snd es))) && (Nat.leb (List.length (List.concat (map snd es))) 100 && Nat.leb (List.length (map fst es)) 10))))
    as (s & es & seen & AS & H); [reflexivity|compute_true|].
  apply andb_prop in H. destruct H as [H1 H]. apply andb_prop in H. destruct H as [H2 H3].
  exists s, es, seen. split; [exact AS|]. split; [exact H1|]. split.
  { assert (AF : after 5 H_ticks s) by (destruct AS as (m & rs & R & P & _); exists m, rs; auto). revert AF. apply after_params; [compute_true|reflexivity]. }
  split; [exact steady_example|].
  assert (NE : Forall near_input (map fst es)).
  { apply (seen_in near_input 5 H_ticks s es seen AS). constructor; [exact I|]. constructor; [apply near_ok; compute_true|]. cbn [map kmoves].
    repeat (constructor; [apply near_ok; compute_true|]). constructor. }
  assert (SE : seen = map fst es) by (apply (seen_granted 5 H_ticks s es seen AS); compute_true).
  apply andb_prop in H3. destruct H3 as [H3 H4]. apply Nat.leb_le in H4.
  split; [|split; [|split; [|split; [|split; [|split]]]]].
  - constructor; [exact I|]. constructor; [apply tick_ok; [lia|compute_true]|]. cbn [map kmoves].
    repeat (constructor; [apply tick_ok; [lia|compute_true]|]). constructor.
  - apply tick_ok; [lia|compute_true].
  - rewrite SE. apply near_smoothable; [exact NE|]. lia.
  - rewrite SE. apply near_smoothable; [|rewrite app_length; cbn [List.length]; lia]. apply Forall_app. split; [exact NE|].
    constructor; [apply near_ok; compute_true|constructor].
  - split; apply Nat.leb_le; assumption.
  - compute_true.
  - compute_true.
Qed.

(** C22: the same inputs with smoothing on and mitigation off. *)
Definition H_rate : list call := CReset P_end :: CUpdate kdown [] :: map (fun i => CUpdate i []) kmoves.
Example C22_float_example : exists s es (i0 : Input), after_stroke 5 H_rate s es /\ ps_params s = Some P_end /\ ps_last s = Some i0 /\
  lp_enabled (pp_loop (p_position P_end)) = false /\ Sorted (@tick_gap (fun x => x)) (map fst es ++ [kup]) /\
  Forall (fun i => Rabs (@time_R (fun x => x) i) <= 2147483648)%R (map fst es) /\
  rate_moderate (B2R (sp_rate (p_sampling P_end) : float64)) /\ (sp_max_outputs (p_sampling P_end) <= 16777216)%Z /\
  (5 <= List.length (List.concat (map snd es)))%nat /\
  replies_ok nonempty (answers 5 H_rate [CUpdate kup []]) = true.
Proof.
  destruct (after_stroke_check 5 H_rate (fun s es => match ps_last s with Some _ => Nat.leb 5 (List.length (List.concat (map snd es))) | None => false end))
    as (s & es & AS & H); [reflexivity|compute_true|]. destruct (ps_last s) as [i0|] eqn:L; [|discriminate H].
  exists s, es, i0. split; [exact AS|].
  assert (TK : Forall (call_input_ok (@ticking_input (fun x => x))) H_rate).
  { constructor; [exact I|]. constructor; [apply tick_ok; [lia|compute_true]|]. cbn [map kmoves].
    repeat (constructor; [apply tick_ok; [lia|compute_true]|]). constructor. }
  assert (TF : Forall (@ticking_input (fun x => x)) (map fst es)).
  { apply after_seen_stroke in AS. destruct AS as (seen & AS). exact (proj1 (seen_in _ _ _ _ _ _ AS TK)). }
  split.
  { assert (AF : after 5 H_rate s) by (destruct AS as (m & rs & R & P & _); exists m, rs; auto). revert AF. apply after_params; [compute_true|reflexivity]. }
  split; [exact L|]. split; [reflexivity|]. split.
  { apply ticking_sorted. apply Forall_app. split; [exact TF|]. constructor; [|constructor]. apply tick_ok; [lia|compute_true]. }
  split; [eapply Forall_impl; [|exact TF]; intros i ((_ & (_ & B) & _) & _); exact B|].
  split.
  { assert (E1 : B2R (sp_rate (p_sampling P_end) : float64) = 180%R) by (apply literal_R; vm_compute; reflexivity).
    assert (K := bpow_le radix2 8 100 ltac:(lia)). assert (K2 : bpow radix2 8 = 256%R) by (cbn; lra). rewrite K2 in K. unfold rate_moderate. rewrite E1. lra. }
  split; [vm_compute; discriminate|]. split; [apply Nat.leb_le; exact H|]. compute_true.
Qed.
