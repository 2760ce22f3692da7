(** The torque controller of the example cascade of synchronous motors: which torques it answers,
    and its flux limit.  Properties C187, C188.  Source: examples/classic_controllers/controllers/
    torque_to_current_conversion.py. *)
From Coq Require Import ZArith Lra Lia.
From Verif Require Import PyBaseFacts PyDictFacts Transform_Model Transform_Proofs Motor_Model Conv_Model Wrap_Model Ctl_Model Ctl_Model2 Ctl_Spec Ctl_Proofs Ctl_Proofs2 Ctl_Props Emf_Props Ops_Model Ops_Proofs Ops_Props Ops_Props2 Ops_Props3 Ops_Props4 Ops_Model2 Ops_Proofs2 Ops_Props6 Ops_Props7 Ops_Props8 Ex_Model4 Ex_Props4.
Local Open Scope string_scope.
Local Open Scope list_scope.
Local Open Scope R_scope.

(** ** C187: the torques that are answered *)
(** tables as the constructor leaves them: 250 rows for the torque, more than 250 for the flux,
    stored tables of 250 x 250 entries over ranges that are not empty *)
Definition ttc_tables (tab : option lut) (o : pmsm_ops) : Prop :=
  length (q_mtpc o) = 250%nat /\ (251 <= length (q_mtpf o))%nat /\ 0 < q_maxt o /\
  match tab with Some l => shape (lu_d l) /\ shape (lu_q l) /\ lu_tmin l < lu_tmax l /\ lu_pmin l < lu_pmax l | None => True end.
Lemma par_items e nom f : ttc_par e nom = Ok f -> fp_lim f = ce_limits e /\ fp_low f = - fp_high f /\ (fp_om f < length (ce_names e))%nat /\ (fp_usd f < length (ce_names e))%nat /\ (fp_usq f < length (ce_names e))%nat /\ (fp_isd f < length (ce_names e))%nat /\ (fp_isq f < length (ce_names e))%nat /\ exists nd nq, item (fp_nom f) (fp_isd f) = Ok nd /\ item (fp_nom f) (fp_isq f) = Ok nq.
Proof.
  intros H. unfold ttc_par in H. apply bind_ok in H. destruct H as (ld & _ & H). apply bind_ok in H. destruct H as (lq & _ & H). apply bind_ok in H. destruct H as (p & _ & H). cbn zeta in H. apply bind_ok in H. destruct H as (om & I1 & H). apply bind_ok in H. destruct H as (isd & I2 & H). apply bind_ok in H. destruct H as (isq & I3 & H). apply bind_ok in H. destruct H as (usd & I4 & H). apply bind_ok in H. destruct H as (usq & I5 & H). apply bind_ok in H. destruct H as (tq & _ & H). apply bind_ok in H. destruct H as (ep & _ & H). apply bind_ok in H. destruct H as (rs & _ & H). apply bind_ok in H. destruct H as (ua & _ & H). apply bind_ok in H. destruct H as (lu & _ & H). apply bind_ok in H. destruct H as (nd & N1 & H). apply bind_ok in H. destruct H as (nq & N2 & H). apply ok_inj in H. subst f. cbn [fp_lim fp_om fp_usd fp_usq fp_isd fp_isq fp_nom fp_low fp_high].
  assert (L : forall s i, str_index s (ce_names e) = Ok i -> (i < length (ce_names e))%nat) by (intros s i X; apply str_index_ok in X; apply nth_error_Some; rewrite X; discriminate).
  split; [reflexivity|]. split; [reflexivity|]. do 5 (split; [eapply L; eassumption|]). exists nd, nq. split; assumption.
Qed.
Lemma item_lt (l : list R) k : (k < length l)%nat -> exists v, item l k = Ok v.
Proof. intros H. unfold item. destruct (nth_error l k) as [v|] eqn:E; [eauto|]. apply nth_error_None in E. lia. Qed.
Lemma row_in_range o t : length (q_mtpc o) = 250%nat -> 0 < q_maxt o -> Rabs t <= q_maxt o -> exists row, np_at (q_mtpc o) (t_idx_mtpc o t) = Ok row.
Proof.
  intros L HM Ht. assert (Z : (0 <= t_idx_mtpc o t < Z.of_nat (length (q_mtpc o)))%Z); [|destruct (np_at_ok _ _ Z) as (row & E & _); exists row; exact E]. rewrite L. assert (Hr' : - q_maxt o <= t <= q_maxt o) by (unfold Rabs in Ht; destruct (Rcase_abs t) in Ht; lra). unfold t_idx_mtpc, z_clip. set (y := (t + q_maxt o) / (2 * q_maxt o) * INR (pm_t_count - 1)).
  assert (Y : 0 <= y <= INR 249). { unfold y. replace (INR (pm_t_count - 1)) with 249 by (rewrite INR_IZR_INZ; reflexivity). replace (INR 249) with 249 by (rewrite INR_IZR_INZ; reflexivity). assert (I : 0 < / (2 * q_maxt o)) by (apply Rinv_0_lt_compat; lra). assert (Q : 0 <= (t + q_maxt o) / (2 * q_maxt o) <= 1). { split; [apply Rmult_le_pos; lra|]. unfold Rdiv. rewrite <- (Rinv_r (2 * q_maxt o)) by lra. apply Rmult_le_compat_r; lra. } lra. }
  pose proof (py_round_range y 249 Y). unfold pm_t_count. lia.
Qed.
Lemma last_root (l : list R) : l <> [] -> exists d, np_at l (-1) = Ok d.
Proof.
  destruct l as [|a l]; [contradiction|]. intros _. unfold np_at. replace (-1 <? 0)%Z with true by reflexivity. match goal with |- context [nth_error ?l ?k] => destruct (nth_error l k) as [d|] eqn:E end; [|apply nth_error_None in E; cbn [length] in E; lia]. match goal with |- context [if ?b then _ else _] => destruct b eqn:B end; [|eexists; reflexivity]. exfalso. apply Z.ltb_lt in B. cbn [length] in B. lia.
Qed.
Lemma ttc_control_ok e nom roots tab o m x t i : length (ce_names e) = length (ce_limits e) -> ttc_par e nom = Ok (q_f o) -> ttc_tables tab o -> (forall c, roots c <> []) -> length x = length (ce_limits e) -> Rabs t <= q_maxt o -> fm_int m = Some i ->
  exists m' v i', ttc_control roots tab o m x t = (m', Ok v) /\ fm_int m' = Some i'.
Proof.
  intros LE HF (T1 & T2 & HM & T3) HR HX HT HI. destruct (par_items _ _ _ HF) as (L0 & _ & L1 & L2 & L3 & L4 & L5 & nd & nq & N1 & N2). rewrite LE in *. assert (RD : exists usd usq w, reads (q_f o) (denorm (fp_lim (q_f o)) x) usd usq w).
  { assert (LD : length (denorm (fp_lim (q_f o)) x) = length (ce_limits e)) by (unfold denorm; rewrite L0, Ctl_Proofs.map2_len by exact HX; exact HX). destruct (item_lt (denorm (fp_lim (q_f o)) x) (fp_usd (q_f o)) ltac:(lia)) as (a & A). destruct (item_lt (denorm (fp_lim (q_f o)) x) (fp_usq (q_f o)) ltac:(lia)) as (b & B). destruct (item_lt (denorm (fp_lim (q_f o)) x) (fp_om (q_f o)) ltac:(lia)) as (c & C). exists a, b, c. unfold reads. repeat split; assumption. }
  destruct RD as (usd & usq & w & RD). destruct (modulation_some _ _ _ _ _ _ _ RD HI) as (m1 & v & i' & EM & HI'). destruct (row_in_range o t T1 HM HT) as (row & ER).
  assert (RF : forall z, exists rf, np_at (q_mtpf o) (psi_idx_mtpf o z) = Ok rf). { intros z. assert (Z : (0 <= psi_idx_mtpf o z < Z.of_nat (length (q_mtpf o)))%Z) by (unfold psi_idx_mtpf, z_clip, pm_psi_count; lia). destruct (np_at_ok _ _ Z) as (rf & E & _). exists rf. exact E. }
  assert (CU : exists d q, ttc_currents roots tab o m x t = (m1, Ok [d; q])).
  { unfold ttc_currents. destruct tab as [l|].
    - unfold pmsm_select_lut. cbn [item nth_error bind]. rewrite ER. cbn [bind]. rewrite EM. cbn [bind]. cbn zeta. destruct (RF (Rmin (pr_psi row) v)) as (rf & ->). cbn [bind]. destruct T3 as (S1 & S2 & B1 & B2). match goal with |- context [lut_point l row rf ?a ?b] => destruct (lut_point_ok l row rf a b S1 S2 B1 B2) as (d & q & ->) end. cbn [bind fst snd]. do 2 eexists. reflexivity.
    - unfold pmsm_select. cbn [item nth_error bind]. rewrite ER. cbn [bind]. rewrite EM. cbn [bind]. cbn zeta. destruct (RF (Rmin (pr_psi row) v)) as (rf & ->). cbn [bind]. unfold get_i_d_q, solve_analytical. match goal with |- context [np_at (roots ?p) (-1)] => destruct (last_root (roots p) (HR p)) as (d & ->) end. cbn [bind map]. do 2 eexists. reflexivity. }
  destruct CU as (d & q & CU). unfold ttc_control. rewrite CU. cbn [bind]. destruct (item_lt (fp_lim (q_f o)) (fp_isq (q_f o)) ltac:(rewrite L0; lia)) as (lq & Q). destruct (item_lt (fp_lim (q_f o)) (fp_isd (q_f o)) ltac:(rewrite L0; lia)) as (ld & D). rewrite N1, N2, Q, D. cbn [bind]. do 3 eexists. split; [reflexivity|exact HI'].
Qed.
(** A new controller, or one that was reset after any history, answers every torque of its table
    in every state, for ever: no exception in any of the modes. *)
Theorem ttc_answers :
  forall e nom roots tab o m0 h0 m h, length (ce_names e) = length (ce_limits e) -> ttc_par e nom = Ok (q_f o) -> ttc_tables tab o -> (forall c, roots c <> []) ->
  (m = ttc_new \/ m = ttc_reset (q_f o) (ttc_after roots tab o m0 h0)) -> (forall x t, In (x, t) h -> length x = length (ce_limits e) /\ Rabs t <= q_maxt o) ->
  length (ttc_runs roots tab o m h) = length h /\ forall out, In out (ttc_runs roots tab o m h) -> exists iq id, out = Ok (iq, id).
Proof.
  intros e nom roots tab o m0 h0 m h LE HF HT HR HM. assert (HI : exists i, fm_int m = Some i) by (destruct HM as [-> | ->]; eexists; reflexivity). clear HM. revert m HI. induction h as [|[x t] h IH]; intros m (i & HI) Hh; [split; [reflexivity|intros out []]|].
  destruct (Hh x t (or_introl eq_refl)) as [HX Ht]. destruct (ttc_control_ok e nom roots tab o m x t i LE HF HT HR HX Ht HI) as (m' & [iq id] & i' & E & HI'). cbn [ttc_runs]. rewrite E. destruct (IH m' (ex_intro _ i' HI') (fun y s Hy => Hh y s (or_intror Hy))) as [L A]. split; [cbn [length]; rewrite L; reflexivity|]. intros out [<-|Ho]; [eauto|exact (A out Ho)].
Qed.
Print Assumptions ttc_answers.
(** Half a grid step above the table, which the clipping of the index was meant to catch, every
    mode raises IndexError: the index is clipped to 250, the table has 250 rows. *)
Theorem ttc_torque_above_table_refuted :
  forall roots tab o m x t, ttc_tables tab o -> q_maxt o * (1 + 1 / 249) < t -> ttc_control roots tab o m x t = (m, Err IndexError).
Proof.
  intros roots tab o m x t (T1 & _ & HM & _) Hr. assert (X : np_at (q_mtpc o) (t_idx_mtpc o t) = Err IndexError).
  { assert (Z : t_idx_mtpc o t = 250%Z). { unfold t_idx_mtpc, z_clip. pose proof (py_round_near ((t + q_maxt o) / (2 * q_maxt o) * INR (pm_t_count - 1))) as N. set (y := (t + q_maxt o) / (2 * q_maxt o) * INR (pm_t_count - 1)) in *.
      assert (Y : 499 / 2 < y). { unfold y, pm_t_count. replace (INR (250 - 1)) with 249 by (rewrite INR_IZR_INZ; reflexivity). assert (I : 0 < / (2 * q_maxt o)) by (apply Rinv_0_lt_compat; lra). assert (W : 2 * q_maxt o * (499 / 498) < t + q_maxt o) by lra. pose proof (Rmult_lt_compat_r _ _ _ I W) as V. replace (2 * q_maxt o * (499 / 498) * / (2 * q_maxt o)) with (499 / 498) in V by (field; lra). fold (Rdiv (t + q_maxt o) (2 * q_maxt o)) in V. set (v := (t + q_maxt o) / (2 * q_maxt o)) in *. lra. }
      assert (IZR 249 < IZR (py_round y)) as V by (unfold Rabs in N; destruct (Rcase_abs _) in N; lra). apply lt_IZR in V. unfold pm_t_count. lia. }
    rewrite Z. unfold np_at. rewrite T1. cbn [Z.ltb Z.compare]. assert (NE : nth_error (q_mtpc o) (Z.to_nat 250) = None) by (apply nth_error_None; rewrite T1; lia). rewrite NE. reflexivity. }
  unfold ttc_control, ttc_currents, pmsm_select_lut, pmsm_select. cbn [item nth_error bind]. rewrite X. destruct tab; reflexivity.
Qed.
Print Assumptions ttc_torque_above_table_refuted.

(** ** C188: the flux limit stays near the voltage limit *)
(** The flux limit of the modulation controller differs from the flux at which the voltage limit is
    reached at the actual speed by at most a fifth of the flux at nominal currents. *)
Theorem ttc_flux_band :
  forall e nom f m s m' psi ld lq isd isq nd nq om w lw p ua lu, ttc_par e nom = Ok f -> length s = length (ce_limits e) -> length (ce_names e) = length (ce_limits e) -> modulation f m (denorm (fp_lim f) s) = (m', Ok psi) ->
  par "l_d" (ce_par e) = Ok ld -> par "l_q" (ce_par e) = Ok lq -> par "p" (ce_par e) = Ok p -> str_index "i_sd" (ce_names e) = Ok isd -> str_index "i_sq" (ce_names e) = Ok isq -> item nom isd = Ok nd -> item nom isq = Ok nq ->
  str_index "omega" (ce_names e) = Ok om -> item s om = Ok w -> item (ce_limits e) om = Ok lw -> str_index "u_a" (ce_names e) = Ok ua -> item (ce_limits e) ua = Ok lu ->
  let psi_p := match dict_get "psi_p" (ce_par e) with Some x => x | None => 0 end in
  Rabs (psi - lu / (Rmax (Rabs (w * lw)) (1 / 10000) * p)) <= 1 / 5 * sqrt ((psi_p + ld * nd) * (psi_p + ld * nd) + lq * nq * (lq * nq)).
Proof.
  intros e nom f m s m' psi ld lq isd isq nd nq om w lw p ua lu HF LS LE HM P1 P2 P3 I1 I2 N1 N2 I3 W LW IU LU psi_p. destruct (par_items _ _ _ HF) as (L0 & LO & L1 & L2 & L3 & _). rewrite LE in L1, L2, L3.
  assert (LD : length (denorm (fp_lim f) s) = length (ce_limits e)) by (unfold denorm; rewrite L0, Ctl_Proofs.map2_len by exact LS; exact LS). destruct (item_lt (denorm (fp_lim f) s) (fp_usd f) ltac:(lia)) as (a & A). destruct (item_lt (denorm (fp_lim f) s) (fp_usq f) ltac:(lia)) as (b & B).
  unfold ttc_par in HF. rewrite P1, P2, P3, I1, I2, I3 in HF. cbn [bind] in HF. cbn zeta in HF. fold psi_p in HF. apply bind_ok in HF. destruct HF as (usd & _ & HF). apply bind_ok in HF. destruct HF as (usq & _ & HF). apply bind_ok in HF. destruct HF as (tq & _ & HF). apply bind_ok in HF. destruct HF as (ep & _ & HF). apply bind_ok in HF. destruct HF as (rs & _ & HF). rewrite IU in HF. cbn [bind] in HF. rewrite LU, N1, N2 in HF. cbn [bind] in HF. apply ok_inj in HF.
  assert (F : fp_om f = om /\ fp_udc f = sqrt 3 * lu /\ fp_p f = p /\ fp_high f = 2 / 10 * sqrt ((psi_p + ld * nd) * (psi_p + ld * nd) + lq * nq * (lq * nq))) by (subst f; repeat split). clear HF. destruct F as (F1 & F2 & F3 & F4).
  assert (C : item (denorm (fp_lim f) s) (fp_om f) = Ok (w * lw)). { rewrite L0, F1. unfold item in W, LW |- *. destruct (nth_error s om) as [w'|] eqn:EW; [apply ok_inj in W; subst w'|discriminate]. destruct (nth_error (ce_limits e) om) as [l'|] eqn:EL; [apply ok_inj in LW; subst l'|discriminate]. assert (K : (om < length s)%nat) by (apply nth_error_Some; congruence). unfold denorm. rewrite (nth_error_nth' (map2 Rmult s (ce_limits e)) 0) by (rewrite Ctl_Proofs.map2_len by exact LS; exact K). f_equal. rewrite map2_nth by assumption. rewrite (nth_error_nth _ _ 0 EW), (nth_error_nth _ _ 0 EL). reflexivity. }
  assert (HH : 0 <= fp_high f) by (rewrite F4; apply Rmult_le_pos; [lra|apply sqrt_pos]). pose proof (modulation_bounds f m (denorm (fp_lim f) s) a b (w * lw) m' psi ltac:(unfold reads; repeat split; assumption) ltac:(rewrite LO; lra) HM) as BD. rewrite LO in BD. unfold speed_flux in BD. rewrite F2, F3 in BD.
  assert (S3 : 0 < sqrt 3) by (apply sqrt_lt_R0; lra). assert (X : sqrt 3 * lu / (sqrt 3 * Rmax (Rabs (w * lw)) (1 / 10000) * p) = lu / (Rmax (Rabs (w * lw)) (1 / 10000) * p)). { unfold Rdiv. destruct (Req_dec p 0) as [->|NP]; [rewrite !Rmult_0_r, Rinv_0; ring|]. assert (0 < Rmax (Rabs (w * lw)) (1 * / 10000)) by (eapply Rlt_le_trans; [|apply Rmax_r]; lra). field. repeat split; lra. }
  rewrite X in BD. rewrite F4 in BD. unfold Rabs at 1. destruct (Rcase_abs _); lra.
Qed.
Print Assumptions ttc_flux_band.
(** ** The hypotheses are met *)
Example ttc_tables_example : forall f, ttc_par pmsm_env ttc_nom = Ok f -> exists o, q_f o = f /\ ttc_tables None o /\ length ttc_state = length (ce_limits pmsm_env) /\ length (ce_names pmsm_env) = length (ce_limits pmsm_env) /\ Rabs 1 <= q_maxt o /\
  exists m' psi, modulation f ttc_new (denorm (fp_lim f) ttc_state) = (m', Ok psi).
Proof.
  intros f HF. exists {| q_f := f; q_c := {| pc_ld := 3 / 10000; pc_lq := 1 / 1000; pc_psi := 1 / 15; pc_p := 3 |}; q_inv := 1; q_maxt := 1; q_mtpc := repeat flat_row 250; q_mtpf := repeat flat_row 499; q_psimax := 1 |}. split; [reflexivity|]. split; [repeat split; cbn [q_mtpc q_mtpf q_maxt]; rewrite ?repeat_length; try lia; lra|]. split; [reflexivity|]. split; [reflexivity|]. split; [cbn [q_maxt]; rewrite Rabs_pos_eq; lra|].
  assert (FF := HF). unfold ttc_par in FF. cbn [pmsm_env ce_par ce_names ce_limits ce_tau] in FF. apply ok_inj in FF. assert (RD : reads f (denorm (fp_lim f) ttc_state) (0 * 60) (0 * 60) (100 * 400)) by (rewrite <- FF; repeat split).
  destruct (modulation_some f ttc_new (denorm (fp_lim f) ttc_state) 0 (0 * 60) (0 * 60) (100 * 400) RD eq_refl) as (m1 & v & i' & EM & _). eauto.
Qed.
