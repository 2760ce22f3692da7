(** Proofs about the physical systems of the registered environments: no call raises. *)
From Verif Require Import PyBaseFacts PyDictFacts Conv_Model Conv_Spec Conv_Proofs Conv_Proofs2 Solver_Model Supply_Model Transform_Model Transform_Proofs
  Motor_Model Motor_Proofs Loads_Model PhysSys_Model PhysSys_Spec PhysSys_Proofs PhysSys_Proofs2 Scipy_Model Scipy_Spec Scipy_Proofs2 Wrap_Model Preset_Model Full_Model Full_Spec.

(** ** Converters *)
Lemma adapt_total {C A} (read : action -> option A) (cv : conv_if C A) P0 P valid m : conv_total cv P0 P valid m ->
  conv_total (adapt read cv) P0 P (fun a => exists x, read a = Some x /\ valid x) m.
Proof.
  intros (H1 & H2 & H3 & H4 & H5). split; [exact H1|]. split; [exact H2|]. split; [exact H3|]. split; [|exact H5].
  intros c a t Hc (x & E & Hx). cbn [adapt cv_set_action]. rewrite E. now apply H4.
Qed.
(** A property of the converter that its methods keep. *)
Definition keeps_conv {C A} (cv : conv_if C A) (F : C -> Prop) : Prop :=
  (forall c a t, F c -> F (fst (cv_set_action cv c a t))) /\ (forall c i t, F c -> F (fst (cv_convert cv c i t))) /\ (forall c, F c -> F (fst (cv_reset cv c))).
Lemma conv_total_and {C A} (cv : conv_if C A) P0 P valid m F : conv_total cv P0 P valid m -> keeps_conv cv F ->
  conv_total cv (fun c => P0 c /\ F c) (fun c => P c /\ F c) valid m.
Proof.
  intros (H1 & H2 & H3 & H4 & H5) (K1 & K2 & K3). split; [intros c [A1 A2]; auto|]. split; [intros c i [A1 A2]; auto|]. split; [|split].
  - intros c i t [A1 A2] Hi. destruct (H3 c i t A1 Hi) as (c' & u & E & B1 & B2). exists c', u. split; [exact E|]. split; [split; [exact B1|]|exact B2].
    pose proof (K2 c i t A2) as K. now rewrite E in K.
  - intros c a t [A1 A2] Ha. destruct (H4 c a t A1 Ha) as (c' & ts & E & B1). exists c', ts. split; [exact E|]. split; [exact B1|].
    pose proof (K1 c a t A2) as K. now rewrite E in K.
  - intros c [A1 A2]. destruct (H5 c A1) as (c' & u & E & B1 & B2). exists c', u. split; [exact E|]. split; [split; [exact B1|]|exact B2].
    pose proof (K3 c A2) as K. now rewrite E in K.
Qed.
Lemma adapt_keeps {C A} (read : action -> option A) (cv : conv_if C A) F : keeps_conv cv F -> keeps_conv (adapt read cv) F.
Proof. intros (K1 & K2 & K3). split; [|split; assumption]. intros c a t Hc. cbn [adapt cv_set_action]. destruct (read a); [now apply K1|exact Hc]. Qed.

(** Continuous multi converters; [ds]: the dimensions of the parts. *)
Definition cmP (ds : list nat) (cs : list con) : Prop := Forall2 (fun d c => con_dim c = d) ds cs.
Lemma cm_convert_total ds : forall cs i t, cmP ds cs -> length i = list_sum ds -> exists u, cm_convert cs i t = Ok u /\ length u = list_sum ds.
Proof.
  induction ds as [|d ds IH]; intros cs i t H Hi; inversion H as [|? c ? cs0 Hc Hcs]; subst; cbn [cm_convert]; [eauto|].
  cbn [list_sum fold_right] in *. fold (list_sum ds) in *. pose proof (con_total (con_dim c)) as (_ & _ & T & _).
  destruct (T c (firstn (con_dim c) i) t eq_refl) as (c' & u & E & _ & Hu); [rewrite firstn_length; lia|].
  cbn [con_if cv_convert] in E. injection E as _ E. rewrite E. cbn [bind].
  destruct (IH cs0 (skipn (con_dim c) i) t Hcs) as (us & -> & Hus); [rewrite skipn_length; lia|]. cbn [bind]. eexists. split; [reflexivity|]. rewrite app_length. lia.
Qed.
Lemma cm_isup_total ds : forall cs i, cmP ds cs -> length i = list_sum ds -> exists r, cm_i_sup cs i = Ok r.
Proof.
  induction ds as [|d ds IH]; intros cs i H Hi; inversion H as [|? c ? cs0 Hc Hcs]; subst; cbn [cm_i_sup]; [eauto|].
  cbn [list_sum fold_right] in *. fold (list_sum ds) in *. pose proof (con_total (con_dim c)) as (_ & T & _).
  destruct (T c (firstn (con_dim c) i) eq_refl) as (r & E); [rewrite firstn_length; lia|]. cbn [con_if cv_i_sup] in E. rewrite E. cbn [bind].
  destruct (IH cs0 (skipn (con_dim c) i) Hcs) as (r' & ->); [rewrite skipn_length; lia|]. cbn [bind]. eauto.
Qed.
Lemma cm_set_total ds cs a t : cmP ds cs -> length a = list_sum ds -> exists cs' ts, cm_set_action cs a t = (cs', Ok ts) /\ cmP ds cs'.
Proof.
  assert (H : forall ds cs a t, cmP ds cs -> length a = list_sum ds -> exists cs' ts, cm_set_all cs a t = (cs', Ok ts) /\ cmP ds cs').
  { clear. induction ds as [|d ds IH]; intros cs a t H Ha; inversion H as [|? c ? cs0 Hc Hcs]; subst; cbn [cm_set_all].
    - eexists _, _. split; [reflexivity|constructor].
    - cbn [list_sum fold_right] in *. fold (list_sum ds) in *. pose proof (con_total (con_dim c)) as (_ & _ & _ & T & _).
      destruct (T c (firstn (con_dim c) a) t eq_refl) as (c' & ts & E & Hc'); [rewrite firstn_length; lia|]. cbn [con_if cv_set_action] in E. rewrite E.
      destruct (IH cs0 (skipn (con_dim c) a) t Hcs) as (cs' & ts' & -> & Hcs'); [rewrite skipn_length; lia|]. cbn [bind]. eexists _, _. split; [reflexivity|].
      constructor; assumption. }
  intros H1 H2. unfold cm_set_action. destruct (H ds cs a t H1 H2) as (cs' & ts & -> & H'). cbn [bind]. eauto.
Qed.
Lemma cm_reset_total ds : forall cs, cmP ds cs -> exists cs' u, cm_reset cs = (cs', Ok u) /\ cmP ds cs' /\ length u = list_sum ds.
Proof.
  induction ds as [|d ds IH]; intros cs H; inversion H as [|? c ? cs0 Hc Hcs]; subst; cbn [cm_reset].
  - exists [], []. split; [reflexivity|]. split; [constructor|reflexivity].
  - pose proof (con_total (con_dim c)) as (_ & _ & _ & _ & T). destruct (T c eq_refl) as (c' & u & E & Hc' & Hu). cbn [con_if cv_reset] in E. rewrite E.
    destruct (IH cs0 Hcs) as (cs' & us & -> & Hcs' & Hus). cbn [bind]. eexists _, _. split; [reflexivity|]. split; [constructor; assumption|].
    rewrite app_length. cbn [list_sum fold_right]. fold (list_sum ds). lia.
Qed.
Lemma cm_total ds : conv_total cmulti_if (cmP ds) (cmP ds) (fun a => length a = list_sum ds) (list_sum ds).
Proof.
  split; [auto|]. split; [intros c i; apply cm_isup_total|]. split; [|split].
  - intros c i t Hc Hi. cbn [cmulti_if cv_convert]. destruct (cm_convert_total ds c i t Hc Hi) as (u & -> & Hu). eauto.
  - intros c a t Hc Ha. now apply cm_set_total.
  - intros c. apply cm_reset_total.
Qed.

(** ** Converters that switch only at the end of a period *)
Definition same_time (x : R) (ts : list R) : Prop := Forall (fun t => t = x) ts.
Lemma same_time_sorted x ts : same_time x ts -> removelast (sort_set ts) = [].
Proof.
  intros H. pose proof (sort_set_sorted ts) as Hs. assert (Hx : Forall (fun t => t = x) (sort_set ts)).
  { apply Forall_forall. intros t Ht. apply (proj1 (sort_set_in _ _)) in Ht. exact (proj1 (Forall_forall _ _) H t Ht). }
  destruct (sort_set ts) as [|a [|b l]]; [reflexivity|reflexivity|]. exfalso. inversion Hs as [|? ? _ Hf]; subst. inversion Hf; subst. inversion Hx as [|? ? A1 A2]; subst. inversion A2; subst. lra.
Qed.
Lemma same_time_sort x ts : same_time x ts -> same_time x (sort_set ts).
Proof. intros H. apply Forall_forall. intros t Ht. apply (proj1 (sort_set_in _ _)) in Ht. exact (proj1 (Forall_forall _ _) H t Ht). Qed.
Lemma same_time_app x a b : same_time x a -> same_time x b -> same_time x (a ++ b).
Proof. intros. now apply Forall_app. Qed.
Lemma f2_same_time T c a t ts : leg_times T 0 c -> snd (f2_set_action c a t) = Ok ts -> same_time (t + T) ts.
Proof.
  intros [H1 H2] E. unfold f2_set_action in E. destruct (discrete_contains 3 a); [|discriminate]. unfold f2_pattern in E. cbn [f2_il f2_start f2_tau f2_sw] in E.
  rewrite H1, H2 in E. destruct (reqP 0 0) as [_|N]; [|lra]. rewrite !orb_true_r in E. cbn [snd] in E. injection E as <-. constructor; [reflexivity|constructor].
Qed.
Lemma fin_same_time T c a t ts : times_par T 0 c -> snd (fin_set_action c a t) = Ok ts -> same_time (t + T) ts.
Proof.
  intros H E. destruct c as [c|c|c|c]; cbn [fin_set_action lift snd times_par legs] in *.
  - unfold f1_set_action in E. destruct (discrete_contains 2 a); [|discriminate]. injection E as <-. rewrite H. constructor; [reflexivity|constructor].
  - inversion H; subst. eapply f2_same_time; eauto.
  - unfold f4_set_action in E. destruct (discrete_contains 4 a); [|discriminate]. inversion H as [|? ? H1 H2]; subst. inversion H2 as [|? ? H3 _]; subst.
    pose proof (f2_same_time T (f4_a c) (f4_action0 a) t) as K1. destruct (f2_set_action (f4_a c) (f4_action0 a) t) as [x [tx|]]; [|discriminate].
    pose proof (f2_same_time T (f4_b c) (f4_action1 a) t) as K2. destruct (f2_set_action (f4_b c) (f4_action1 a) t) as [y [ty|]]; [|discriminate].
    cbn [bind snd] in *. injection E as <-. apply same_time_sort, same_time_app; auto.
  - unfold f6_set_action in E. destruct (discrete_contains 8 a); [|discriminate]. inversion H as [|? ? H1 H2]; subst. inversion H2 as [|? ? H3 H4]; subst. inversion H4 as [|? ? H5 _]; subst.
    pose proof (f2_same_time T (f6_a c) (f6_sub a 0) t) as K1. destruct (f2_set_action (f6_a c) (f6_sub a 0) t) as [x [tx|]]; [|discriminate E || (destruct (f2_set_action (f6_b c) (f6_sub a 1) t), (f2_set_action (f6_c c) (f6_sub a 2) t); discriminate E)].
    pose proof (f2_same_time T (f6_b c) (f6_sub a 1) t) as K2. destruct (f2_set_action (f6_b c) (f6_sub a 1) t) as [y [ty|]]; [|destruct (f2_set_action (f6_c c) (f6_sub a 2) t); discriminate E].
    pose proof (f2_same_time T (f6_c c) (f6_sub a 2) t) as K3. destruct (f2_set_action (f6_c c) (f6_sub a 2) t) as [z [tz|]]; [|discriminate E].
    cbn [bind snd] in *. injection E as <-. apply same_time_sort. repeat apply same_time_app; auto.
Qed.
Definition fm_fast (T : R) (cs : list fin) : Prop := Forall (times_par T 0) cs.
Lemma fm_same_time T cs : forall a t ts, fm_fast T cs -> snd (fm_set_all cs a t) = Ok ts -> same_time (t + T) ts.
Proof.
  induction cs as [|c cs IH]; intros a t ts H E; [cbn in E; injection E as <-; constructor|]. cbn [fm_set_all] in E.
  inversion H as [|? ? Hc Hcs]; subst. destruct a as [|a0 a]; [cbn in E; injection E as <-; constructor|].
  pose proof (fin_same_time T c a0 t) as K. destruct (fin_set_action c a0 t) as [c' [t0|]]; [|discriminate].
  specialize (IH a t). destruct (fm_set_all cs a t) as [cs' [r|]]; cbn [bind snd] in *; [|discriminate]. injection E as <-. apply same_time_app; auto.
Qed.
(** The returned list of switching times has no inner element. *)
Definition quick {C A} (cv : conv_if C A) (F : C -> Prop) : Prop :=
  forall c a t c' ts, F c -> cv_set_action cv c a t = (c', Ok ts) -> removelast ts = [].
Lemma fm_quick T : quick multi_if (fm_fast T).
Proof.
  intros c a t c' ts H E. cbn [multi_if cv_set_action] in E. unfold fm_set_action in E. pose proof (fm_same_time T c a t) as K.
  destruct (fm_set_all c a t) as [cs [r|]]; cbn [bind snd] in *; injection E as _ E; [|discriminate]. subst ts. eapply same_time_sorted. apply K; auto.
Qed.
Lemma fm_keeps T : keeps_conv multi_if (fm_fast T).
Proof.
  split; [|split]; cbn [multi_if cv_set_action cv_convert cv_reset].
  - intros cs a t H. unfold fm_set_action. assert (K : fm_fast T (fst (fm_set_all cs a t))).
    { revert a. induction cs as [|c cs IH]; intros a; [exact H|]. cbn [fm_set_all]. inversion H as [|? ? Hc Hcs]; subst. destruct a as [|a0 a]; [exact H|].
      pose proof (fin_step_times T 0 c (OpSet a0 t) I Hc) as K. cbn [fin_step] in K. destruct (fin_set_action c a0 t) as [c' [t0|]]; cbn [fst] in K; [|constructor; assumption].
      specialize (IH Hcs a). destruct (fm_set_all cs a t) as [cs' r]. cbn [fst] in *. constructor; assumption. }
    destruct (fm_set_all cs a t). exact K.
  - intros cs i t. revert i. induction cs as [|c cs IH]; intros i H; [exact H|]. cbn [fm_convert]. inversion H as [|? ? Hc Hcs]; subst.
    pose proof (fin_step_times T 0 c (OpConvert (firstn (fin_dim c) i) t) I Hc) as K. cbn [fin_step] in K.
    destruct (fin_convert c (firstn (fin_dim c) i) t) as [c' [u|]]; cbn [fst] in K; [|constructor; assumption].
    specialize (IH (skipn (fin_dim c) i) Hcs). destruct (fm_convert cs (skipn (fin_dim c) i) t). constructor; assumption.
  - intros cs. induction cs as [|c cs IH]; intros H; [exact H|]. cbn [fm_reset]. inversion H as [|? ? Hc Hcs]; subst.
    pose proof (fin_step_times T 0 c OpReset I Hc) as K. cbn [fin_step] in K. destruct (fin_reset c). specialize (IH Hcs). destruct (fm_reset cs). constructor; assumption.
Qed.
Definition con_time (T : R) (c : con) : Prop :=
  match c with
  | C1 q | C2 q => cq_tau q = T
  | C4 q => cq_tau (c4_a q) = T /\ cq_tau (c4_b q) = T
  | C6 q => cq_tau (c6_a q) = T /\ cq_tau (c6_b q) = T /\ cq_tau (c6_c q) = T
  end.
Lemma con_set_time T c a t : con_time T c -> con_time T (fst (con_set_action c a t)) /\ forall ts, snd (con_set_action c a t) = Ok ts -> same_time (t + T) ts.
Proof.
  intros H. destruct c as [q|q|q|q]; cbn [con_set_action con_time] in *.
  - unfold cq_set_action, lift. destruct a as [|x [|]]; cbn; (split; [exact H|]); intros ts E; try discriminate. injection E as <-. rewrite H. repeat constructor.
  - unfold cq_set_action, lift. destruct a as [|x [|]]; cbn; (split; [exact H|]); intros ts E; try discriminate. injection E as <-. rewrite H. repeat constructor.
  - destruct a as [|x [|]]; cbn [cq_set_action fst snd bind]; (split; [exact H|]); intros ts E; try discriminate. destruct H as [H1 H2]. injection E as <-. rewrite H1, H2.
    apply (same_time_sort (t + T) [t + T; t + T]). repeat constructor.
  - destruct a as [|x [|y [|z l]]]; cbn [cq_set_action fst snd bind]; (split; [exact H|]); intros ts E; try discriminate. destruct H as (H1 & H2 & H3). injection E as <-. rewrite H1, H2, H3.
    apply (same_time_sort (t + T) [t + T; t + T; t + T]). repeat constructor.
Qed.
Definition cm_fast (T : R) (cs : list con) : Prop := Forall (con_time T) cs.
Lemma cm_quick T : quick cmulti_if (cm_fast T).
Proof.
  assert (K : forall cs a t ts, cm_fast T cs -> snd (cm_set_all cs a t) = Ok ts -> same_time (t + T) ts).
  { induction cs as [|c cs IH]; intros a t ts H E; [cbn in E; injection E as <-; constructor|]. cbn [cm_set_all] in E. inversion H as [|? ? Hc Hcs]; subst.
    destruct (con_set_time T c (firstn (con_dim c) a) t Hc) as [_ K]. destruct (con_set_action c (firstn (con_dim c) a) t) as [c' [t0|]]; [|discriminate].
    specialize (IH (skipn (con_dim c) a) t). destruct (cm_set_all cs (skipn (con_dim c) a) t) as [cs' [r|]]; cbn [bind snd] in *; [|discriminate]. injection E as <-.
    apply same_time_app; auto. }
  intros c a t c' ts H E. cbn [cmulti_if cv_set_action] in E. unfold cm_set_action in E. specialize (K c a t).
  destruct (cm_set_all c a t) as [cs [r|]]; cbn [bind snd] in *; injection E as _ E; [|discriminate]. subst ts. eapply same_time_sorted. apply K; auto.
Qed.
Lemma cm_keeps T : keeps_conv cmulti_if (cm_fast T).
Proof.
  split; [|split]; cbn [cmulti_if cv_set_action cv_convert cv_reset fst]; [|auto|].
  - intros cs a t H. unfold cm_set_action. assert (K : cm_fast T (fst (cm_set_all cs a t))).
    { revert a. induction cs as [|c cs IH]; intros a; [exact H|]. cbn [cm_set_all]. inversion H as [|? ? Hc Hcs]; subst.
      destruct (con_set_time T c (firstn (con_dim c) a) t Hc) as [K _]. destruct (con_set_action c (firstn (con_dim c) a) t) as [c' [t0|]]; cbn [fst] in K; [|constructor; assumption].
      specialize (IH Hcs (skipn (con_dim c) a)). destruct (cm_set_all cs (skipn (con_dim c) a) t). constructor; assumption. }
    destruct (cm_set_all cs a t). exact K.
  - intros cs. induction cs as [|c cs IH]; intros H; [exact H|]. cbn [cm_reset]. inversion H as [|? ? Hc Hcs]; subst. specialize (IH Hcs).
    destruct (cm_reset cs). destruct c; cbn in *; constructor; assumption.
Qed.
Lemma adapt_quick {C A} (read : action -> option A) (cv : conv_if C A) F : quick cv F -> quick (adapt read cv) F.
Proof. intros Q c a t c' ts H E. cbn [adapt cv_set_action] in E. destruct (read a) as [x|]; [|discriminate]. eapply Q; eauto. Qed.

(** ** The externally excited synchronous motor *)
Lemma eesm_motor_total m : motor_total (fun u : list R => length u = 3%nat) 3 (eesm_motor m).
Proof.
  (split; [|split; [|split; [|split; [|split]]]]); cbn [eesm_motor mo_n mo_nc mo_cidx mo_ode mo_torque mo_i_in];
    try lia; try reflexivity; try (repeat constructor; lia).
  all: try (intros x u w Hx Hu; des_list x; try discriminate; des_list u; try discriminate; cbn; eauto).
  all: intros x Hx; des_list x; try discriminate; cbn; eauto.
Qed.

Lemma g_simulate_quick {C A E J} (cv : conv_if C A) (so : solver_if E (list R) J) F tau ml mo (limits : list lim) a (x : gsys C ideal E) : quick cv F -> F (gs_c x) ->
  g_simulate cv ideal_if so tau (eesm_view ml mo) snd eesm_volt eesm_volt_last act_id (eesm_out ml mo) limits a x =
  g_simulate cv ideal_if so tau (eesm_view ml mo) snd eesm_volt_last eesm_volt_last act_id (eesm_out ml mo) limits a x.
Proof.
  intros Hq HF. unfold g_simulate. destruct (so_y so (gs_e x)) as [y|]; [|reflexivity]. cbn [bind]. destruct (eesm_view ml mo y) as [v|]; [|reflexivity]. cbn [bind act_id].
  destruct (cv_set_action cv (gs_c x) a (gs_t x)) as [c' [ts|]] eqn:E1; [|reflexivity]. rewrite (Hq _ _ _ _ _ HF E1). reflexivity.
Qed.

Lemma eesm_drive_any {C A E J} (cv : conv_if C A) (so : solver_if E (list R) J) P0 P B Qe valid F tau ml mo (limits : list lim) :
  solver_total so (fun u : list R => length u = 3%nat) (ml_n ml + mo_n mo) B Qe ->
  conv_total cv P0 P valid 4 -> quick cv F -> keeps_conv cv F -> load_total ml ->
  motor_total (fun u : list R => length u = 3%nat) 3 mo -> mo_n mo = 4%nat -> mo_nc mo = 3%nat -> length limits = (ml_n ml + 15)%nat ->
  forall ops mech ms x, g_ready0 limits (fun c => P0 c /\ F c) B (fun _ => True) x -> length mech = ml_n ml -> length ms = mo_n mo ->
  Forall (op_valid valid (ml_n ml) (mo_n mo)) ops ->
  exists x', run_ok (g_reset cv ideal_if so limits (eesm_obs ml mo))
    (g_simulate cv ideal_if so tau (eesm_view ml mo) snd eesm_volt eesm_volt_last act_id (eesm_out ml mo) limits)
    (OReset (Ok (mech, ms)) :: ops) x = Some x'.
Proof.
  intros Hso Hcv0 Hq HF Hml Hmo Hn Hnc Hlim. pose proof (conv_total_and cv P0 P valid 4 F Hcv0 HF) as (C1 & C2 & C3 & C4 & C5).
  destruct ideal_total as (S1 & S2 & S3). pose proof Hmo as (M1 & M2 & M3 & M4 & M5 & M6).
  set (P0' := fun c => P0 c /\ F c) in *. set (P' := fun c => P c /\ F c) in *.
  assert (X1 : forall y, length y = (ml_n ml + mo_n mo)%nat -> exists v, eesm_view ml mo y = Ok v /\ length (snd v) = 4%nat).
  { intros y Hy. unfold eesm_view, cur_idx, eps_idx. destruct (item_total y (ml_n ml + mo_n mo - 1)) as (e & ->); [lia|]. cbn [bind].
    seqt y. destruct (M3 l Hl) as (r & -> & Hr). cbn [bind]. destruct (dq_to_abc_total (firstn 2 r) e) as (abc & -> & Habc); [rewrite firstn_length; lia|].
    cbn [bind]. eexists. split; [reflexivity|]. cbn [snd]. rewrite app_length, skipn_length. lia. }
  assert (X2 : forall (y : list R) (v : R * list R) u, length y = (ml_n ml + mo_n mo)%nat -> eesm_view ml mo y = Ok v -> length u = (4 * 1)%nat ->
    exists p, eesm_volt_last v u = Ok p /\ length p = 3%nat).
  { intros y v u _ _ Hu. unfold eesm_volt_last. destruct (abc_to_dq_total (firstn 3 u) (fst v)) as (dq & -> & Hdq); [rewrite firstn_length; lia|].
    cbn [bind]. eexists. split; [reflexivity|]. rewrite app_length, skipn_length. lia. }
  assert (X4 : forall (y : list R) (v : R * list R) a c t, length y = (ml_n ml + mo_n mo)%nat -> eesm_view ml mo y = Ok v -> valid a -> P0' c ->
    exists a' c' ts, act_id v a = Ok a' /\ cv_set_action cv c a' t = (c', Ok ts) /\ P' c').
  { intros y v a c t _ _ Ha Hc. destruct (C4 c a t Hc Ha) as (c' & ts & Et & H). exists a, c', ts. auto. }
  assert (X5 : forall (y : list R) (v : R * list R) (iv : interval (list R)) st, length y = (ml_n ml + mo_n mo)%nat -> eesm_view ml mo y = Ok v ->
    length (iv_y iv) = (ml_n ml + mo_n mo)%nat -> length (iv_u iv) = (4 * 1)%nat -> length (iv_sup iv) = 1%nat -> length (iv_par iv) = 3%nat ->
    length st = length limits -> exists o, eesm_out ml mo v iv st = Ok o /\ length o = length limits).
  { intros y v iv st _ _ Hy Hu Hsup Hp Hst. unfold eesm_out, motor_idx, load_idx, cur_idx, eps_idx. seqt (iv_y iv). destruct (M2 l Hl) as (tq & ->). cbn [bind].
    seqt (iv_y iv). seqt (iv_y iv). destruct (dq_to_abc_total (firstn 2 l1) (fst v)) as (abc & -> & Habc); [rewrite firstn_length; lia|]. cbn [bind].
    destruct (item_total (iv_y iv) (ml_n ml + mo_n mo - 1)) as (e & ->); [lia|]. cbn [bind]. eexists. split; [reflexivity|].
    rewrite !app_length, firstn_length. cbn [length]. lia. }
  assert (X6 : forall mech ms u us, length mech = ml_n ml -> length ms = mo_n mo -> length u = (4 * 1)%nat -> length us = 1%nat ->
    exists st, eesm_obs ml mo mech ms u us = Ok st /\ length st = length limits).
  { intros mech ms u us H1 H2 Hu Hus. unfold eesm_obs, cur_idx, eps_idx. destruct (item_total (mech ++ ms) (ml_n ml + mo_n mo - 1)) as (e & ->); [rewrite app_length; lia|].
    cbn [bind]. destruct (abc_to_dq_total (firstn 3 u) (wrap e)) as (udq & -> & Hudq); [rewrite firstn_length; lia|]. cbn [bind].
    destruct (select_seq (mech ++ ms) (mo_nc mo) (ml_n ml)) as (l & -> & Hl); [rewrite app_length; lia|]. cbn [bind].
    destruct (dq_to_abc_total (firstn 2 l) (wrap e)) as (abc & -> & Habc); [rewrite firstn_length; lia|]. cbn [bind]. destruct (M2 ms H2) as (tq & ->). cbn [bind].
    eexists. split; [reflexivity|]. rewrite !app_length. cbn [length]. lia. }
  assert (Hstep : forall a (x : gsys C ideal E), g_ready limits P0' Qe (fun _ => True) x -> valid a ->
    exists x' o, g_simulate cv ideal_if so tau (eesm_view ml mo) snd eesm_volt eesm_volt_last act_id (eesm_out ml mo) limits a x = (x', Ok o) /\
      g_ready limits P0' Qe (fun _ => True) x').
  { intros a x Hx Ha. rewrite (g_simulate_quick cv so F); [|exact Hq|apply Hx].
    apply (g_simulate_total cv ideal_if so tau (eesm_view ml mo) snd eesm_volt_last eesm_volt_last act_id (eesm_out ml mo) limits
      P0' P' B Qe (fun _ => True) (fun u : list R => length u = 3%nat) valid (ml_n ml) (mo_n mo) 4 4 1); assumption. }
  assert (Hreset : forall mech ms (x : gsys C ideal E), g_ready0 limits P0' B (fun _ => True) x -> length mech = ml_n ml -> length ms = mo_n mo ->
    exists x' o, g_reset cv ideal_if so limits (eesm_obs ml mo) (Ok (mech, ms)) x = (x', Ok o) /\ g_ready limits P0' Qe (fun _ => True) x').
  { apply (g_reset_total cv ideal_if so limits (eesm_obs ml mo) P0' B Qe (fun _ => True) (fun _ => True) (fun u : list R => length u = 3%nat) (ml_n ml) (mo_n mo) 4 1); assumption. }
  assert (Hrun : forall ops (x : gsys C ideal E), g_ready limits P0' Qe (fun _ => True) x -> Forall (op_valid valid (ml_n ml) (mo_n mo)) ops ->
    exists x', run_ok (g_reset cv ideal_if so limits (eesm_obs ml mo))
    (g_simulate cv ideal_if so tau (eesm_view ml mo) snd eesm_volt eesm_volt_last act_id (eesm_out ml mo) limits) ops x = Some x').
  { induction ops as [|o ops IH]; intros x Hx Hv; cbn [run_ok]; [eauto|]. inversion Hv as [|? ? Ho Hv']; subst.
    destruct o as [[[mech ms]|]|a]; cbn in Ho; [|contradiction|].
    - assert (Hx0 : g_ready0 limits P0' B (fun _ => True) x). { destruct Hx as (K1 & K2 & K3 & K4). split; [exact K1|]. split; [exact K2|]. split; [apply (st_weak _ _ _ _ _ Hso), K3|exact K4]. }
      destruct (Hreset mech ms x Hx0 (proj1 Ho) (proj2 Ho)) as (x1 & o & -> & H1). now apply IH.
    - destruct (Hstep a x Hx Ho) as (x1 & o & -> & H1). now apply IH. }
  intros ops mech ms x Hx H1 H2 Hv. cbn [run_ok]. destruct (Hreset mech ms x Hx H1 H2) as (x1 & o & -> & G1). now apply Hrun.
Qed.

(** ** Machines whose calls return *)
(** [n]: length of the returned arrays; [I0]: any time, [I]: after a reset. *)
Definition machine_total {S} (m : machine S) (seed : option Z -> S -> S) (valid : action -> Prop) (n : nat) (I0 I : S -> Prop) : Prop :=
  (forall s, I s -> I0 s) /\ (forall z s, I0 s -> I0 (seed z s)) /\
  (forall s, I0 s -> exists s' o, m_reset m s = (s', Ok o) /\ I s' /\ length o = n) /\
  (forall a s, I s -> valid a -> exists s' o, m_sim m a s = (s', Ok o) /\ I s' /\ length o = n).
Definition info_sized (i : info) (n : nat) : Prop :=
  length (i_names i) = n /\ length (i_limits i) = n /\ length (i_nominal i) = n /\ length (i_low i) = n /\ length (i_high i) = n.
(** The calls of a run, the last one last. *)
Lemma run_ok_app {X A} (rst : res (list R * list R) -> X -> call X (list R)) (sim : A -> X -> call X (list R)) a b : forall x,
  run_ok rst sim (a ++ b) x = match run_ok rst sim a x with Some x' => run_ok rst sim b x' | None => None end.
Proof. induction a as [|o a IH]; intros x; cbn [app run_ok]; [reflexivity|]. destruct o as [r|u]; [destruct (rst r x) as [x' [|]]|destruct (sim u x) as [x' [|]]]; auto. Qed.

Section Machine.
Context (p : preset) (d : data) {C U : Type} (f : rhs U) (rst : res (list R * list R) -> psystem (C:=C) d U -> call (psystem (C:=C) d U) (list R))
  (sim : action -> psystem (C:=C) d U -> call (psystem (C:=C) d U) (list R)) (c0 : C) (R0 : psystem (C:=C) d U -> Prop) (valid : action -> Prop) (n : nat).
Hypothesis Hd : data_fits p d.
Hypothesis Hrun : forall ops mech ms x, R0 x -> length mech = 1%nat -> length ms = ode_states (pr_motor p) ->
  Forall (op_valid valid 1 (ode_states (pr_motor p))) ops -> exists x', run_ok rst sim (OReset (Ok (mech, ms)) :: ops) x = Some x'.
Hypothesis Hrlen : forall r x x' o, rst r x = (x', Ok o) -> length o = n.
Hypothesis Hslen : forall a x x' o, sim a x = (x', Ok o) -> length o = n.
Definition after_reset (x : psystem (C:=C) d U) : Prop := exists x0 mech ms ops, R0 x0 /\ length mech = 1%nat /\ length ms = ode_states (pr_motor p) /\
  Forall (op_valid valid 1 (ode_states (pr_motor p))) ops /\ run_ok rst sim (OReset (Ok (mech, ms)) :: ops) x0 = Some x.
Lemma after_reset_next o x : after_reset x -> op_valid valid 1 (ode_states (pr_motor p)) o -> exists x', run_ok rst sim [o] x = Some x' /\ after_reset x'.
Proof.
  intros (x0 & mech & ms & ops & H1 & H2 & H3 & H4 & H5) Ho.
  assert (Hv : Forall (op_valid valid 1 (ode_states (pr_motor p))) (ops ++ [o])) by (apply Forall_app; auto).
  destruct (Hrun (ops ++ [o]) mech ms x0 H1 H2 H3 Hv) as (x' & E). pose proof E as E'.
  change (OReset (Ok (mech, ms)) :: ops ++ [o]) with ((OReset (Ok (mech, ms)) :: ops) ++ [o]) in E. rewrite run_ok_app, H5 in E.
  exists x'. split; [exact E|]. exists x0, mech, ms, (ops ++ [o]). auto.
Qed.
Lemma make_plant_total : R0 (new_sys p d c0 f) ->
  exists I0 I, I0 (pl_init (make_plant p d c0 f rst sim)) /\
    machine_total (pl_machine (make_plant p d c0 f rst sim)) (pl_seed (make_plant p d c0 f rst sim)) valid n I0 I.
Proof.
  intros H0. destruct Hd as (_ & Hi & _). exists (fun x => R0 (fst x) \/ after_reset (fst x)), (fun x => after_reset (fst x)).
  split; [left; exact H0|]. split; [auto|]. split; [auto|]. split.
  - intros [x k] Hx. cbn [make_plant pl_machine m_reset fst snd] in *. specialize (Hi k). destruct (d_inits d k) as [mech ms]. cbn [fst snd] in Hi. destruct Hi as [Hm1 Hm2].
    assert (H : exists x', run_ok rst sim [OReset (Ok (mech, ms))] x = Some x' /\ after_reset x').
    { destruct Hx as [Hx|Hx].
      - destruct (Hrun [] mech ms x Hx Hm1 Hm2 (Forall_nil _)) as (x' & E). exists x'. split; [exact E|]. exists x, mech, ms, []. auto.
      - apply after_reset_next; [exact Hx|]. split; assumption. }
    destruct H as (x' & E & Ha). cbn [run_ok] in E. destruct (rst (Ok (mech, ms)) x) as [x1 [o|]] eqn:Er; [|discriminate]. injection E as ->.
    exists (x', S k), o. split; [reflexivity|]. split; [exact Ha|]. eapply Hrlen, Er.
  - intros a [x k] Hx Ha. cbn [make_plant pl_machine m_sim fst snd] in *. destruct (after_reset_next (OStep a) x Hx Ha) as (x' & E & Hx').
    cbn [run_ok] in E. destruct (sim a x) as [x1 [o|]] eqn:Er; [|discriminate]. injection E as ->. exists (x', k), o. split; [reflexivity|]. split; [exact Hx'|]. eapply Hslen, Er.
Qed.
End Machine.

(** ** The five systems *)
Lemma g_simulate_length {C S A U V E J} (cv : conv_if C A) (sp : supply_if S) (so : solver_if E U J) tau (view : list R -> res V) cur volt volt_last act out limits a (x x' : gsys C S E) o :
  g_simulate cv sp so tau view cur volt volt_last act out limits a x = (x', Ok o) -> length o = length limits.
Proof.
  unfold g_simulate. destruct (do y0 <- so_y so (gs_e x); do v <- view y0; do a' <- act v a; Ok (v, a')) as [[v a']|e]; [|discriminate].
  destruct (cv_set_action cv (gs_c x) a' (gs_t x)) as [c' [ts|e]]; [|discriminate].
  destruct (g_intervals cv sp so view cur volt v (g_with_c c' x) (removelast ts)) as [x2 [v2|e]]; [|discriminate].
  destruct (g_interval cv sp so (volt_last v2) (cur v2) x2 (gs_t x2 + tau)) as [x3 [iv|e]]; cbn [bind]; [|discriminate].
  destruct (so_t so (gs_e x3)) as [now|e]; cbn [bind gs_state]; [|discriminate].
  destruct (out v2 iv (gs_state x3)) as [st|e]; [|discriminate]. intros H. injection H as _ H.
  unfold np_div in H. destruct (Nat.eqb_spec (length st) (length limits)) as [Hl|]; [|discriminate]. injection H as <-. rewrite map2_length. lia.
Qed.
Lemma g_reset_length {C S A U E J} (cv : conv_if C A) (sp : supply_if S) (so : solver_if E U J) limits obs r (x x' : gsys C S E) o :
  g_reset cv sp so limits obs r x = (x', Ok o) -> length o = length limits.
Proof.
  unfold g_reset. destruct r as [[mech ms]|e]; [|discriminate]. destruct (sp_reset sp (gs_s x)) as [s' [us|e]]; [|discriminate].
  destruct (cv_reset cv (gs_c (g_with_s s' x))) as [c' u]. destruct (do u <- u; obs mech ms (scale_voltages u us) us) as [st|e]; [|discriminate].
  destruct (so_initial so (mech ++ ms) 0 (gs_e (g_with_c c' (g_with_s s' x)))) as [e' [w|e]]; [|discriminate]. intros H. injection H as _ H.
  unfold np_div in H. destruct (Nat.eqb_spec (length st) (length limits)) as [Hl|]; [|discriminate]. injection H as <-. rewrite map2_length. lia.
Qed.

Section Drive.
Context (p : preset) (d : data) {C : Type} (cv : conv_if C action) (c0 : C) (P0 P F : C -> Prop) (valid : action -> Prop).
Hypothesis Hd : data_fits p d.
Hypothesis Hcv : conv_total cv P0 P valid (phases (pr_motor p)).
Hypothesis HF : pr_motor p = Eesm -> quick cv F /\ keeps_conv cv F /\ F c0.
Hypothesis HP : P0 c0.
Hypothesis Hsys : system_of (pr_motor p) = pr_sys p.

Lemma load_fits : load_total (load p d) /\ ml_n (load p d) = 1%nat.
Proof. unfold load. destruct (pr_load p); (split; [|reflexivity]); [apply const_load_total|apply poly_load_total]. Qed.
Lemma limits_fit : length (limits d) = length (motor_states (pr_motor p)).
Proof. unfold limits. rewrite map_length. apply Hd. Qed.
Lemma ready_new (Q : C -> Prop) {U} (f : rhs U) (B : an_state (d_solver d) U -> Prop) : Q c0 -> B (so_equation (an_if (d_solver d) U) f (an_jacobian (d_solver d) U) (an_new (d_solver d) U)) ->
  g_ready0 (limits d) Q B (fun _ => True) (new_sys p d c0 f).
Proof. intros HQ HB. split; [exact HQ|]. split; [exact I|]. split; [exact HB|]. cbn [new_sys gs_state]. rewrite repeat_length. symmetry. apply limits_fit. Qed.
Lemma act_id_total {V} : forall (v : V) a, valid a -> exists a', act_id v a = Ok a' /\ valid a'.
Proof. intros v a Ha. exists a. split; [reflexivity|exact Ha]. Qed.

Lemma solver_fits {U} (PP : U -> Prop) m mo : motor_total PP m mo ->
  exists B Q, solver_total (an_if (d_solver d) U) PP (ml_n (load p d) + mo_n mo) B Q /\
    B (so_equation (an_if (d_solver d) U) (system_equation (load p d) mo) (an_jacobian (d_solver d) U) (an_new (d_solver d) U)).
Proof. intros Hm. apply (proj1 Hd). intros q t y Hq Hy. now apply (system_equation_total PP m); [apply load_fits| | |]. Qed.

Lemma drive_total : exists pl, drive p d cv c0 = Some pl /\ m_info (pl_machine pl) = plant_info p d /\
  exists I0 I, I0 (pl_init pl) /\ machine_total (pl_machine pl) (pl_seed pl) valid (length (motor_states (pr_motor p))) I0 I.
Proof.
  destruct load_fits as [Hl1 Hl2]. pose proof limits_fit as Hlim. pose proof ideal_total as Hsup.
  unfold drive. rewrite <- Hsys. destruct (pr_motor p) eqn:Em; cbn [system_of].
  - destruct (solver_fits (fun u : list R => length u = 1%nat) 1 (perm_motor (d_perm d)) (perm_motor_total _)) as (B & Qe & Hso & HB). eexists. split; [reflexivity|]. split; [reflexivity|].
    apply (make_plant_total p d _ _ _ c0 (g_ready0 (limits d) P0 B (fun _ => True)) valid); [exact Hd| | | |exact (ready_new P0 _ B HP HB)].
    + rewrite Em. pose proof (dc_drive_any cv ideal_if (pr_tau p) (load p d) (limits d) P0 P B Qe valid 1 (fun _ => True) (fun _ => True) Hcv Hsup (perm_motor (d_perm d)) _ Hso (perm_motor_total _) eq_refl ltac:(rewrite Hlim, Hl2; reflexivity)) as K. rewrite Hl2 in K. exact K.
    + intros r x x' o E. rewrite <- Hlim. eapply g_reset_length, E.
    + intros a x x' o E. rewrite <- Hlim. eapply g_simulate_length, E.
  - destruct (solver_fits (fun u : list R => length u = 2%nat) 2 (extex_motor (d_dc d)) (proj1 (dc_motors_total _))) as (B & Qe & Hso & HB). eexists. split; [reflexivity|]. split; [reflexivity|].
    apply (make_plant_total p d _ _ _ c0 (g_ready0 (limits d) P0 B (fun _ => True)) valid); [exact Hd| | | |exact (ready_new P0 _ B HP HB)].
    + rewrite Em. pose proof (dc_drive_any cv ideal_if (pr_tau p) (load p d) (limits d) P0 P B Qe valid 2 (fun _ => True) (fun _ => True) Hcv Hsup (extex_motor (d_dc d)) _ Hso (proj1 (dc_motors_total _)) eq_refl ltac:(rewrite Hlim, Hl2; reflexivity)) as K. rewrite Hl2 in K. exact K.
    + intros r x x' o E. rewrite <- Hlim. eapply g_reset_length, E.
    + intros a x x' o E. rewrite <- Hlim. eapply g_simulate_length, E.
  - destruct (solver_fits (fun u : list R => length u = 1%nat) 1 (series_motor (d_dc d)) (proj2 (proj2 (dc_motors_total _)))) as (B & Qe & Hso & HB). eexists. split; [reflexivity|]. split; [reflexivity|].
    apply (make_plant_total p d _ _ _ c0 (g_ready0 (limits d) P0 B (fun _ => True)) valid); [exact Hd| | | |exact (ready_new P0 _ B HP HB)].
    + rewrite Em. pose proof (dc_drive_any cv ideal_if (pr_tau p) (load p d) (limits d) P0 P B Qe valid 1 (fun _ => True) (fun _ => True) Hcv Hsup (series_motor (d_dc d)) _ Hso (proj2 (proj2 (dc_motors_total _))) eq_refl ltac:(rewrite Hlim, Hl2; reflexivity)) as K. rewrite Hl2 in K. exact K.
    + intros r x x' o E. rewrite <- Hlim. eapply g_reset_length, E.
    + intros a x x' o E. rewrite <- Hlim. eapply g_simulate_length, E.
  - destruct (solver_fits (fun u : list R => length u = 1%nat) 1 (shunt_motor (d_dc d)) (proj1 (proj2 (dc_motors_total _)))) as (B & Qe & Hso & HB). eexists. split; [reflexivity|]. split; [reflexivity|].
    apply (make_plant_total p d _ _ _ c0 (g_ready0 (limits d) P0 B (fun _ => True)) valid); [exact Hd| | | |exact (ready_new P0 _ B HP HB)].
    + rewrite Em. pose proof (dc_drive_any cv ideal_if (pr_tau p) (load p d) (limits d) P0 P B Qe valid 1 (fun _ => True) (fun _ => True) Hcv Hsup (shunt_motor (d_dc d)) _ Hso (proj1 (proj2 (dc_motors_total _))) eq_refl ltac:(rewrite Hlim, Hl2; reflexivity)) as K. rewrite Hl2 in K. exact K.
    + intros r x x' o E. rewrite <- Hlim. eapply g_reset_length, E.
    + intros a x x' o E. rewrite <- Hlim. eapply g_simulate_length, E.
  - destruct (solver_fits (fun u : list R => length u = 2%nat) 2 (pmsm_motor (d_pmsm d)) (pmsm_motor_total _)) as (B & Qe & Hso & HB). eexists. split; [reflexivity|]. split; [reflexivity|].
    apply (make_plant_total p d _ _ _ c0 (g_ready0 (limits d) P0 B (fun _ => True)) valid); [exact Hd| | | |exact (ready_new P0 _ B HP HB)].
    + rewrite Em. pose proof (sync_drive_any cv ideal_if (pr_tau p) (load p d) (limits d) P0 P B Qe valid 3 (fun _ => True) (fun _ => True) Hcv Hsup act_id valid act_id_total (pmsm_motor (d_pmsm d)) _ Hso eq_refl (pmsm_motor_total _) eq_refl eq_refl ltac:(rewrite Hlim, Hl2; reflexivity)) as K. rewrite Hl2 in K. exact K.
    + intros r x x' o E. rewrite <- Hlim. eapply g_reset_length, E.
    + intros a x x' o E. rewrite <- Hlim. eapply g_simulate_length, E.
  - destruct (solver_fits (fun u : list R => length u = 2%nat) 2 (synrm_motor (d_synrm d)) (synrm_motor_total _)) as (B & Qe & Hso & HB). eexists. split; [reflexivity|]. split; [reflexivity|].
    apply (make_plant_total p d _ _ _ c0 (g_ready0 (limits d) P0 B (fun _ => True)) valid); [exact Hd| | | |exact (ready_new P0 _ B HP HB)].
    + rewrite Em. pose proof (sync_drive_any cv ideal_if (pr_tau p) (load p d) (limits d) P0 P B Qe valid 3 (fun _ => True) (fun _ => True) Hcv Hsup act_id valid act_id_total (synrm_motor (d_synrm d)) _ Hso eq_refl (synrm_motor_total _) eq_refl eq_refl ltac:(rewrite Hlim, Hl2; reflexivity)) as K. rewrite Hl2 in K. exact K.
    + intros r x x' o E. rewrite <- Hlim. eapply g_reset_length, E.
    + intros a x x' o E. rewrite <- Hlim. eapply g_simulate_length, E.
  - destruct (solver_fits (fun u : list R => length u = 3%nat) 3 (eesm_motor (d_eesm d)) (eesm_motor_total _)) as (B & Qe & Hso & HB). destruct (HF eq_refl) as (Hquick & Hkeeps & Hf0). eexists. split; [reflexivity|]. split; [reflexivity|].
    apply (make_plant_total p d _ _ _ c0 (g_ready0 (limits d) (fun c => P0 c /\ F c) B (fun _ => True)) valid); [exact Hd| | | |exact (ready_new (fun c => P0 c /\ F c) _ B (conj HP Hf0) HB)].
    + rewrite Em. pose proof (eesm_drive_any cv (an_if (d_solver d) (list R)) P0 P B Qe valid F (pr_tau p) (load p d) (eesm_motor (d_eesm d)) (limits d) Hso Hcv Hquick Hkeeps Hl1 (eesm_motor_total _) eq_refl eq_refl ltac:(rewrite Hlim, Hl2; reflexivity)) as K. rewrite Hl2 in K. exact K.
    + intros r x x' o E. rewrite <- Hlim. eapply g_reset_length, E.
    + intros a x x' o E. rewrite <- Hlim. eapply g_simulate_length, E.
  - destruct (solver_fits (fun u : list R => length u = 2%nat) 2 (scim_motor (d_im d)) (scim_motor_total _)) as (B & Qe & Hso & HB). eexists. split; [reflexivity|]. split; [reflexivity|].
    apply (make_plant_total p d _ _ _ c0 (g_ready0 (limits d) P0 B (fun _ => True)) valid); [exact Hd| | | |exact (ready_new P0 _ B HP HB)].
    + rewrite Em. pose proof (scim_drive_any cv ideal_if (pr_tau p) (load p d) (limits d) P0 P B Qe valid 3 (fun _ => True) (fun _ => True) Hcv Hsup act_id valid act_id_total (scim_motor (d_im d)) _ Hso eq_refl (scim_motor_total _) eq_refl eq_refl ltac:(rewrite Hlim, Hl2; reflexivity)) as K. rewrite Hl2 in K. exact K.
    + intros r x x' o E. rewrite <- Hlim. eapply g_reset_length, E.
    + intros a x x' o E. rewrite <- Hlim. eapply g_simulate_length, E.
  - destruct (solver_fits Motor_Spec.is_2x2 2 (dfim_motor (d_im d)) (dfim_motor_total _)) as (B & Qe & Hso & HB). eexists. split; [reflexivity|]. split; [reflexivity|].
    apply (make_plant_total p d _ _ _ c0 (g_ready0 (limits d) P0 B (fun _ => True)) valid); [exact Hd| | | |exact (ready_new P0 _ B HP HB)].
    + rewrite Em. pose proof (dfim_drive_any cv ideal_if (pr_tau p) (load p d) (limits d) P0 P B Qe valid 6 (fun _ => True) (fun _ => True) Hcv Hsup (dfim_motor (d_im d)) (d_im d) _ Hso eq_refl (dfim_motor_total _) eq_refl eq_refl ltac:(rewrite Hlim, Hl2; reflexivity)) as K. rewrite Hl2 in K. exact K.
    + intros r x x' o E. rewrite <- Hlim. eapply g_reset_length, E.
    + intros a x x' o E. rewrite <- Hlim. eapply g_simulate_length, E.
Qed.
End Drive.

(** ** The physical systems of the table *)
Lemma as_disc_valid n a : act_valid (SDisc n) a -> exists x, as_disc a = Some x /\ (0 <= x < n)%Z.
Proof. destruct a; cbn; intros H; try contradiction. eauto. Qed.
Lemma as_box_valid n a : act_valid (SBox n) a -> exists x, as_box a = Some x /\ length x = n.
Proof. destruct a; cbn; intros H; try contradiction. eauto. Qed.
Lemma conv_total_weaken {C A} (cv : conv_if C A) P0 P (valid valid' : A -> Prop) m : conv_total cv P0 P valid m -> (forall a, valid' a -> valid a) -> conv_total cv P0 P valid' m.
Proof. intros (H1 & H2 & H3 & H4 & H5) H. split; [exact H1|]. split; [exact H2|]. split; [exact H3|]. split; [|exact H5]. auto. Qed.
Definition fin_key (e : elementary) : Z * nat := match e with FinB6 => (8%Z, 3%nat) | _ => (4%Z, 1%nat) end.
Lemma multi_fin l tau : forallb (fun e => Bool.eqb (is_fin e) true) l = true ->
  exists cs, all_some (map new_fin l) = Some cs /\ mulP0 (map fin_key l) (fm_set_tau tau cs) /\ fm_fast (1 / 100000) (fm_set_tau tau cs).
Proof.
  induction l as [|e l IH]; intros H; [exists []; split; [reflexivity|]; split; constructor|]. cbn [forallb] in H. apply andb_true_iff in H. destruct H as [H1 H2].
  destruct (IH H2) as (cs & E & G1 & G2). destruct e; try discriminate H1; cbn [map new_fin fin_kind_of all_some]; rewrite E; (eexists; split; [reflexivity|]);
    (split; [constructor; [|exact G1]|constructor; [|exact G2]]).
  all: try (split; [|split; reflexivity]; cbn; repeat constructor; cbn; auto).
  all: cbn; repeat constructor; cbn; reflexivity.
Qed.
Definition con_key (e : elementary) : nat := match e with ContB6 => 3 | _ => 1 end%nat.
Lemma multi_con l tau : forallb (fun e => Bool.eqb (is_fin e) false) l = true ->
  exists cs, all_some (map con_of l) = Some cs /\ cmP (map con_key l) (cm_set_tau tau cs) /\ exists T, cm_fast T (cm_set_tau tau cs).
Proof.
  intros H. assert (G : exists cs, all_some (map con_of l) = Some cs /\ cmP (map con_key l) (cm_set_tau tau cs) /\ cm_fast (1 / 10000) (cm_set_tau tau cs)).
  2: { destruct G as (cs & G1 & G2 & G3). exists cs. eauto. }
  induction l as [|e l IH]; [exists []; split; [reflexivity|]; split; constructor|]. cbn [forallb] in H. apply andb_true_iff in H. destruct H as [H1 H2].
  destruct (IH H2) as (cs & E & G1 & G2). destruct e; try discriminate H1; cbn [map con_of all_some]; rewrite E; (eexists; split; [reflexivity|]);
    (split; [constructor; [reflexivity|exact G1]|constructor; [|exact G2]]); cbn; auto.
Qed.

Lemma physical_system_total p d : plant_check p = true -> data_fits p d ->
  exists pl, physical_system p d = Some pl /\ m_info (pl_machine pl) = plant_info p d /\
  exists I0 I, I0 (pl_init pl) /\ machine_total (pl_machine pl) (pl_seed pl) (act_valid (action_space (pr_conv p))) (length (motor_states (pr_motor p))) I0 I.
Proof.
  intros Hc Hd. unfold plant_check in Hc. apply andb_true_iff in Hc. destruct Hc as [Hc H3]. apply andb_true_iff in Hc. destruct Hc as [H1 H2].
  assert (Hs : system_of (pr_motor p) = pr_sys p) by (destruct (system_of (pr_motor p)), (pr_sys p); cbn in H1; congruence). apply Nat.eqb_eq in H2.
  unfold physical_system. destruct (pr_conv p) as [e|[|] l] eqn:Ec.
  - destruct e; cbn [conv_phases new_fin con_of fin_kind_of] in *.
    + apply (drive_total p d _ _ (conP 1) (conP 1) (fun _ => True)); auto.
      * rewrite <- H2. eapply conv_total_weaken; [apply adapt_total, con_total|]. intros a Ha. apply as_box_valid, Ha.
      * intros E. rewrite E in H2. discriminate.
      * reflexivity.
    + apply (drive_total p d _ _ (conP 3) (conP 3) (fun _ => True)); auto.
      * rewrite <- H2. eapply conv_total_weaken; [apply adapt_total, con_total|]. intros a Ha. apply as_box_valid, Ha.
      * intros E. rewrite E in H2. discriminate.
      * reflexivity.
    + apply (drive_total p d _ _ (finP0 4 1) (finP 4 1) (fun _ => True)); auto.
      * rewrite <- H2. eapply conv_total_weaken; [apply adapt_total, fin_total|]. intros a Ha. apply as_disc_valid, Ha.
      * intros E. rewrite E in H2. discriminate.
      * split; [|split; reflexivity]. cbn. repeat constructor; cbn; auto.
    + apply (drive_total p d _ _ (finP0 8 3) (finP 8 3) (fun _ => True)); auto.
      * rewrite <- H2. eapply conv_total_weaken; [apply adapt_total, fin_total|]. intros a Ha. apply as_disc_valid, Ha.
      * intros E. rewrite E in H2. discriminate.
      * split; [|split; reflexivity]. cbn. repeat constructor; cbn; auto.
  - destruct (multi_fin l (pr_tau p) H3) as (cs & -> & G1 & G2).
    assert (Hdim : phases (pr_motor p) = mul_dim (map fin_key l)).
    { rewrite <- H2. unfold mul_dim, conv_phases. rewrite map_map. f_equal. apply map_ext_in. intros e He. rewrite forallb_forall in H3. specialize (H3 e He). destruct e; try discriminate; reflexivity. }
    apply (drive_total p d _ _ (mulP0 (map fin_key l)) (mulP (map fin_key l)) (fm_fast (1 / 100000))); auto.
    + rewrite Hdim. eapply conv_total_weaken; [apply adapt_total, mul_total|]. intros a Ha. cbn [action_space] in Ha. destruct a as [|xs| |]; try contradiction. exists xs. split; [reflexivity|].
      cbn [act_valid] in Ha. unfold mul_valid. clear - Ha H3. revert xs Ha. induction l as [|e l IH]; intros xs Ha; inversion Ha; subst; [constructor|].
      cbn [forallb] in H3. apply andb_true_iff in H3. destruct H3 as [K1 K2]. constructor; [|auto]. destruct e; try discriminate K1; assumption.
    + intros _. split; [apply adapt_quick, fm_quick|]. split; [apply adapt_keeps, fm_keeps|exact G2].
  - destruct (multi_con l (pr_tau p) H3) as (cs & -> & G1 & T & G2).
    assert (Hdim : phases (pr_motor p) = list_sum (map con_key l)).
    { rewrite <- H2. unfold conv_phases. f_equal. apply map_ext_in. intros e He. rewrite forallb_forall in H3. specialize (H3 e He). destruct e; try discriminate; reflexivity. }
    apply (drive_total p d _ _ (cmP (map con_key l)) (cmP (map con_key l)) (cm_fast T)); auto.
    + rewrite Hdim. eapply conv_total_weaken; [apply adapt_total, cm_total|]. intros a Ha. apply as_box_valid, Ha.
    + intros _. split; [apply adapt_quick, cm_quick|]. split; [apply adapt_keeps, cm_keeps|exact G2].
Qed.
Lemma presets_checked : forallb plant_check presets = true.
Proof. vm_compute. reflexivity. Qed.
