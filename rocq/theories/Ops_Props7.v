(** The operation point selection of the externally excited synchronous motor: what the
    selection returns.  Properties C177, C178.  Source: gem_controllers/stages/
    operation_point_selection/eesm_ops.py and foc_operation_point_selection.py. *)
From Coq Require Import ZArith Lra Lia.
From Verif Require Import PyBaseFacts PyDictFacts Transform_Model Transform_Proofs Motor_Model Conv_Model Wrap_Model Ctl_Model Ctl_Model2 Ctl_Spec Ctl_Proofs Ctl_Proofs2 Ctl_Props Emf_Props Ops_Model Ops_Proofs Ops_Props Ops_Props2 Ops_Props3 Ops_Props4 Ops_Model2 Ops_Proofs2 Ops_Props6.
Local Open Scope string_scope.
Local Open Scope list_scope.
Local Open Scope R_scope.

(** ** Tables read at the same place *)
Lemma rows_psi_ok roots c lim elim pmax tlim scan rs re r : ee_scan roots c lim elim pmax tlim = Ok scan -> In r (ee_rows_psi rs re scan) -> sqrt (er_d r * er_d r + er_q r * er_q r) < lim /\ exists i, (i < 150)%nat /\ er_e r = INR i * (elim / 149).
Proof.
  intros H Hr. unfold ee_rows_psi in Hr. apply in_flat_map in Hr. destruct Hr as (y & Hy & Hr). apply in_flat_map in Hr. destruct Hr as (l & Hl & Hr). apply ee_best_spec in Hr. destruct Hr as [Hr _]. destruct (scan_sound _ _ _ _ _ _ _ _ _ _ H Hy Hl Hr) as (_ & (_ & _ & G) & (_ & A & _)). split; assumption.
Qed.
(** ** C177 The current references *)
(** What the selection returns is nan in all three components (outside the triangulated
    region), or a triple inside the limits: the stator current inside the circle, the
    excitation current between 0 and its limit. *)
Theorem eesm_references_in_limits :
  forall cplx tri roots cubic amax damping old e nom margin o m0 m x ref m' out ql il ie, tri_ok tri -> eesm_tune cplx tri roots cubic amax damping old e nom margin = Ok (o, m0) ->
  item (ce_limits e) (fp_isq (ee_f o)) = Ok ql -> str_index "i_e" (ce_names e) = Ok il -> item (ce_limits e) il = Ok ie -> 0 <= ie * (1 - margin) -> 0 < ql * (1 - margin) ->
  eesm_select o m x ref = (m', Ok out) ->
  out = [None; None; None] \/
  exists d q ee r, out = [Some d; Some q; Some ee] /\ item ref 0 = Ok r /\ sqrt (d * d + q * q) < ql * (1 - margin) /\ 0 <= ee <= ie * (1 - margin) /\ (r = 0 -> q = 0).
Proof.
  intros cplx tri roots cubic amax damping old e nom margin o m0 m x ref m' out ql il ie HT H Hql Hil Hie H0 HL HS.
  destruct (eesm_tune_inv _ _ _ _ _ _ _ _ _ _ _ _ H) as (f0 & ld & lq & lm & rs & re & il' & ie' & ql' & tl & scan & po & E0 & _ & _ & _ & _ & _ & E7 & E8 & E9 & _ & X). cbn zeta in X. destruct X as (_ & FO & _ & _ & ES & _ & _ & _ & _ & GD & GQ & GE).
  assert (FI : fp_isq (ee_f o) = fp_isq f0) by (rewrite FO; reflexivity). rewrite FI, E9 in Hql. rewrite E7 in Hil. apply ok_inj in Hql, Hil. subst ql' il'. rewrite E8 in Hie. apply ok_inj in Hie. subst ie'.
  unfold eesm_select in HS. destruct (modulation (ee_f o) m x) as [m1 pm]. apply pair_equal_spec in HS. destruct HS as [_ HS]. apply bind_ok in HS. destruct HS as (pmx & _ & HS). apply bind_ok in HS. destruct HS as (r & Hr & HS). apply bind_ok in HS. destruct HS as (z & _ & HS). apply bind_ok in HS. destruct HS as (ti & _ & HS). apply bind_ok in HS. destruct HS as (pi & _ & HS).
  apply bind_ok in HS. destruct HS as (d & Ed & HS). apply bind_ok in HS. destruct HS as (q & Eq & HS). apply bind_ok in HS. destruct HS as (ee & Ee & HS). apply ok_inj in HS. subst out.
  destruct (griddata_at _ _ _ _ _ _ _ _ _ GD Ed) as (w & a & b & W & A & B & ->). destruct (griddata_at _ _ _ _ _ _ _ _ _ GQ Eq) as (w1 & a1 & b1 & W1 & A1 & B1 & ->). destruct (griddata_at _ _ _ _ _ _ _ _ _ GE Ee) as (w2 & a2 & b2 & W2 & A2 & B2 & ->).
  rewrite W in W1, W2. apply ok_inj in W1, W2. subst w1 w2. rewrite A in A1, A2. rewrite B in B1, B2. apply ok_inj in A1, A2, B1, B2. subst a1 a2 b1 b2. destruct (w a b) as [ws|] eqn:EW; [right|left; reflexivity].
  set (bp := ee_rows_psi rs re scan) in *. destruct (HT _ _ _ _ _ W EW) as (LW & FW & SW). rewrite map_length in LW.
  cbn [nan_scale]. do 4 eexists. split; [reflexivity|]. split; [exact Hr|].
  assert (N : sqrt (dot ws (map er_d bp) * dot ws (map er_d bp) + dot ws (map er_q bp) * dot ws (map er_q bp)) < ql * (1 - margin)).
  { apply Rle_lt_trans with (dot ws (map (fun r => sqrt (er_d r * er_d r + er_q r * er_q r)) bp)); [apply norm_dot; assumption|]. replace (ql * (1 - margin)) with (ql * (1 - margin) * fold_right Rplus 0 ws) by (rewrite SW; ring). apply dot_lt; [rewrite map_length; exact LW|exact FW| |lra]. intros v Hv. apply in_map_iff in Hv. destruct Hv as (y & <- & Hy). apply (rows_psi_ok _ _ _ _ _ _ _ _ _ _ ES Hy). }
  assert (RG : forall i, (i < 150)%nat -> 0 <= INR i * (ie * (1 - margin) / 149) <= ie * (1 - margin)). { intros i Hi. assert (0 <= INR i) by apply pos_INR. assert (INR i <= 149) by (replace 149 with (INR 149) by (rewrite INR_IZR_INZ; reflexivity); apply le_INR; lia). split; [apply Rmult_le_pos; lra|]. assert (INR i * (ie * (1 - margin) / 149) <= 149 * (ie * (1 - margin) / 149)) by (apply Rmult_le_compat_r; lra). lra. }
  split; [|split; [split|]].
  - apply Rle_lt_trans with (2 := N). apply sqrt_le_1_alt. apply Rplus_le_compat_l. set (q := dot ws (map er_q bp)). assert (S : np_sign r * np_sign r <= 1) by (unfold np_sign; destruct (rltP r 0); [lra|]; destruct (rltP 0 r); lra). replace (np_sign r * q * (np_sign r * q)) with (np_sign r * np_sign r * (q * q)) by ring. pose proof (Rle_0_sqr q) as Q. unfold Rsqr in Q. pose proof (Rmult_le_compat_r _ _ _ Q S). lra.
  - rewrite <- (Rmult_0_l (fold_right Rplus 0 ws)). apply dot_ge; [rewrite map_length; exact LW|exact FW|]. intros v Hv. apply in_map_iff in Hv. destruct Hv as (y & <- & Hy). destruct (rows_psi_ok _ _ _ _ _ _ _ _ _ _ ES Hy) as [_ (i & Hi & ->)]. apply RG, Hi.
  - replace (ie * (1 - margin)) with (ie * (1 - margin) * fold_right Rplus 0 ws) by (rewrite SW; ring). apply dot_le; [rewrite map_length; exact LW|exact FW|]. intros v Hv. apply in_map_iff in Hv. destruct Hv as (y & <- & Hy). destruct (rows_psi_ok _ _ _ _ _ _ _ _ _ _ ES Hy) as [_ (i & Hi & ->)]. apply RG, Hi.
  - intros ->. unfold np_sign. destruct (rltP 0 0) as [Z|_]; [lra|ring].
Qed.
Print Assumptions eesm_references_in_limits.

(** Linear interpolation between rising abscissae answers inside of them and raises outside. *)
Lemma interp_lin_in a b n (ys : list R) : (1 < n)%nat -> a < b -> length ys = n -> forall x, a <= x <= b -> exists y, interp_lin (combine (linspace a b n) ys) x = Ok y.
Proof.
  intros Hn Hab HL. set (s := (b - a) / INR (n - 1)). assert (NN : 0 < INR (n - 1)) by (apply lt_0_INR; lia). assert (Hs : 0 < s) by (apply Rdiv_lt_0_compat; lra).
  assert (G : forall k i ys, (1 <= k)%nat -> length ys = S k -> forall x, a + INR i * s <= x <= a + INR (i + k) * s -> exists y, interp_lin (combine (map (fun j => a + INR j * s) (seq i (S k))) ys) x = Ok y).
  { induction k as [|k IH]; intros i ys' Hk L x Hx; [lia|]. destruct ys' as [|y0 [|y1 ys']]; try discriminate L. cbn [seq map combine interp_lin]. destruct (rltP x (a + INR i * s)) as [Z|_]; [lra|]. destruct (rleP x (a + INR (S i) * s)) as [_|Z]; [eexists; reflexivity|]. destruct k as [|k]; [exfalso; replace (i + 1)%nat with (S i) in Hx by lia; lra|].
    apply (IH (S i) (y1 :: ys')); [lia|cbn in *; lia|]. replace (S i + S k)%nat with (i + S (S k))%nat by lia. lra. }
  intros x Hx. unfold linspace. fold s. destruct n as [|[|n]]; [lia|lia|]. apply (G (S n) 0%nat ys); [lia|exact HL|]. change (INR 0) with 0. cbn [plus]. replace (INR (S n) * s) with (b - a); [lra|]. unfold s. replace (S (S n) - 1)%nat with (S n) by lia. replace (S (S n) - 1)%nat with (S n) in NN by lia. field. lra.
Qed.
Lemma interp_lin_below pts x : (forall p, In p pts -> x < fst p) -> interp_lin pts x = Err ValueError.
Proof. intros H. destruct pts as [|[x0 y0] [|[x1 y1] r]]; try reflexivity. cbn [interp_lin]. destruct (rltP x x0) as [_|N]; [reflexivity|]. exfalso. apply N. apply (H (x0, y0)). left. reflexivity. Qed.
Lemma interp_lin_above pts x : (forall p, In p pts -> fst p < x) -> interp_lin pts x = Err ValueError.
Proof.
  induction pts as [|[x0 y0] pts IH]; intros H; [reflexivity|]. destruct pts as [|[x1 y1] r]; [reflexivity|]. cbn [interp_lin]. destruct (rltP x x0) as [_|_]; [reflexivity|]. destruct (rleP x x1) as [L|_].
  - exfalso. pose proof (H (x1, y1) (or_intror (or_introl eq_refl))) as X. cbn in X. lra.
  - apply IH. intros p Hp. apply H. right. exact Hp.
Qed.
Lemma idx_ok x hi n : 0 < hi -> (0 <= py_round (np_clip x 0 hi / hi * INR n) < Z.of_nat (S n))%Z.
Proof.
  intros H. assert (B := np_clip_both x 0 hi ltac:(lra)). pose proof (py_round_range (np_clip x 0 hi / hi * INR n) n) as R. assert (0 <= np_clip x 0 hi / hi * INR n <= INR n); [|specialize (R H0); lia]. assert (0 <= np_clip x 0 hi / hi <= 1). { assert (I : 0 < / hi) by (apply Rinv_0_lt_compat; exact H). split; [apply Rmult_le_pos; lra|]. rewrite <- (Rinv_r hi) by lra. apply Rmult_le_compat_r; lra. } pose proof (pos_INR n). split; [apply Rmult_le_pos; lra|]. rewrite <- (Rmult_1_l (INR n)) at 2. apply Rmult_le_compat_r; lra.
Qed.
(** Tuned and reset, the selection answers for every state, every reference and every history
    as long as the spline of the optimal flux stays between 0 and the largest flux; where the
    spline leaves this range (a cubic spline can), it raises ValueError. *)
Theorem eesm_selection_raises_iff :
  forall cplx tri roots cubic amax damping old e nom margin o m0, eesm_tune cplx tri roots cubic amax damping old e nom margin = Ok (o, m0) -> 0 < ee_tmax o -> 0 < ee_pmax o ->
  forall m x r rest i usd usq w po, reads (ee_f o) x usd usq w -> fm_int m = Some i -> ee_popt o (Rabs (np_clip r (- ee_tmax o) (ee_tmax o))) = Ok po ->
  (0 <= po <= ee_pmax o -> exists m' i' d q ee, eesm_select o m x (r :: rest) = (m', Ok [d; q; ee]) /\ fm_int m' = Some i') /\
  (po < 0 \/ ee_pmax o < po -> snd (eesm_select o m x (r :: rest)) = Err ValueError).
Proof.
  intros cplx tri roots cubic amax damping old e nom margin o m0 H HT HP m x r rest i usd usq w po Hx Hi Hpo.
  destruct (eesm_tune_inv _ _ _ _ _ _ _ _ _ _ _ _ H) as (f0 & ld & lq & lm & rs & re & il' & ie' & ql' & tl & scan & po' & E0 & _ & _ & _ & _ & _ & E7 & E8 & E9 & _ & X). cbn zeta in X. destruct X as (_ & FO & _ & _ & ES & _ & _ & _ & TP & GD & GQ & GE).
  destruct (modulation_some _ _ _ _ _ _ _ Hx Hi) as (m1 & v & i' & EM & Hi'). unfold eesm_select. rewrite EM. cbn [bind item nth_error]. unfold ee_limit. cbn zeta. rewrite Hpo. cbn [bind]. split.
  - intros R. destruct (interp_lin_in 0 (ee_pmax o) ee_psi_count (map (fun j => 99 / 100 * ee_tmax_at scan j) (seq 0 ee_psi_count)) ltac:(unfold ee_psi_count; lia) HP ltac:(rewrite map_length, seq_length; reflexivity) po R) as (tm & EI). rewrite <- TP in EI. rewrite EI. cbn [bind fst snd].
    unfold ee_t_idx, ee_psi_idx. destruct (reqP (ee_tmax o) 0) as [Z|_]; [lra|]. destruct (reqP (ee_pmax o) 0) as [Z|_]; [lra|]. cbn [bind].
    match goal with |- context [tab_at (ee_d o) ?a ?b] => set (ti := a); set (pi := b) end.
    assert (TI : (0 <= ti < Z.of_nat ee_grid)%Z) by (apply (idx_ok _ _ (ee_grid - 1) HT)). assert (PI : (0 <= pi < Z.of_nat ee_grid)%Z) by (apply (idx_ok _ _ (ee_grid - 1) HP)).
    assert (TA : forall vals tab, griddata tri (map (fun r => (er_t r, er_psi r)) (ee_rows_psi rs re scan)) vals (linspace 0 (ee_tmax o) ee_grid) (linspace 0 (ee_pmax o) ee_grid) = Ok tab -> exists z, tab_at tab ti pi = Ok z). { intros vals tab G. destruct (griddata_shape _ _ _ _ _ _ G) as [L1 L2]. apply (tab_at_ok tab ee_grid ee_grid); [rewrite L1; apply linspace_length|intros y Hy; rewrite (L2 y Hy); apply linspace_length|exact TI|exact PI]. }
    destruct (TA _ _ GD) as (d & ->). destruct (TA _ _ GQ) as (q & ->). destruct (TA _ _ GE) as (ee & ->). cbn [bind]. do 5 eexists. split; [reflexivity|exact Hi'].
  - intros R. assert (EI : interp_lin (ee_tpsi o) po = Err ValueError); [|rewrite EI; reflexivity]. assert (RG : forall p, In p (ee_tpsi o) -> 0 <= fst p <= ee_pmax o).
    { intros [a b] Hp. rewrite TP in Hp. apply in_combine_l in Hp. apply linspace_in in Hp; [|unfold ee_psi_count; lia]. destruct Hp as (k & Hk & ->). rewrite N99. cbn [fst]. assert (0 <= INR k) by apply pos_INR. assert (INR k <= 99) by (replace 99 with (INR 99) by (rewrite INR_IZR_INZ; reflexivity); apply le_INR; unfold ee_psi_count in Hk; lia). split; [apply Rmult_le_pos; lra|]. assert (INR k * (ee_pmax o / 99) <= 99 * (ee_pmax o / 99)) by (apply Rmult_le_compat_r; lra). lra. }
    destruct R as [R|R]; [apply interp_lin_below|apply interp_lin_above]; intros p Hp; specialize (RG p Hp); lra.
Qed.
Print Assumptions eesm_selection_raises_iff.
(** The torque at which the tables are read does not depend on the flux the modulation
    controller allows: where that flux is below the optimum, the torque is not reduced to
    what it permits. *)
Theorem eesm_torque_not_limited_refuted :
  forall o r pm pm' t psi, ee_limit o r pm = Ok (t, psi) -> exists po tm, ee_popt o (Rabs (np_clip r (- ee_tmax o) (ee_tmax o))) = Ok po /\ interp_lin (ee_tpsi o) po = Ok tm /\
  ee_limit o r pm' = Ok (t, np_clip po 0 pm') /\
  (forall tm', interp_lin (ee_tpsi o) (np_clip po 0 pm') = Ok tm' -> 0 <= tm' -> tm' < Rabs (np_clip r (- ee_tmax o) (ee_tmax o)) -> tm' < tm -> tm' < t).
Proof.
  intros o r pm pm' t psi H. unfold ee_limit in *. cbn zeta in *. apply bind_ok in H. destruct H as (po & E & H). rewrite E. cbn [bind]. apply bind_ok in H. destruct H as (tm & E1 & H). apply ok_inj in H. apply pair_equal_spec in H. destruct H as [<- _]. exists po, tm. split; [reflexivity|]. split; [exact E1|]. rewrite E1. split; [reflexivity|].
  intros tm' _ H0 H1 H2. unfold np_clip at 1. apply Rmin_glb_lt; [|exact H2]. apply Rlt_le_trans with (1 := H1). apply Rmax_l.
Qed.
Print Assumptions eesm_torque_not_limited_refuted.
Example eesm_not_limited_example :
  let o := {| ee_f := foc_fill {| fp_om := 0; fp_usd := 0; fp_usq := 0; fp_tq := 0; fp_isd := 0; fp_isq := 0; fp_p := 1; fp_tau := 1; fp_udc := 1; fp_amax := 1; fp_k := 1; fp_gain := 1; fp_low := 0; fp_high := 0; fp_reset := 0; fp_dlim := 1; fp_qlim := 1; fp_lim := []; fp_nom := [] |} 1 1 0 0 0;
              ee_c := {| ec_ld := 1; ec_lq := 1; ec_lm := 1; ec_p := 1 |}; ee_tmax := 10; ee_pmax := 1; ee_popt := fun t => Ok (t / 10); ee_tpsi := [(0, 0); (1, 10)]; ee_d := []; ee_q := []; ee_e := [] |} in
  ee_limit o 5 (1 / 10) = Ok (5, 1 / 10) /\ interp_lin (ee_tpsi o) (1 / 10) = Ok 1.
Proof.
  unfold ee_limit. cbn zeta. cbn [ee_popt ee_tpsi ee_tmax]. rewrite (np_clip_id 5) by lra. rewrite (Rabs_right 5) by lra. cbn [bind interp_lin]. destruct (rltP (5 / 10) 0) as [Z|_]; [lra|]. destruct (rleP (5 / 10) 1) as [_|Z]; [|lra]. cbn [bind]. split.
  - f_equal. f_equal; unfold np_clip; [rewrite Rmax_left, Rmin_left by lra; lra|rewrite Rmax_left, Rmin_right by lra; lra].
  - destruct (rltP (1 / 10) 0) as [Z|_]; [lra|]. destruct (rleP (1 / 10) 1) as [_|Z]; [|lra]. f_equal. lra.
Qed.

(** ** C178 The band of the modulation controller *)
(** The flux limit deviates from the flux the speed allows by at most a fifth of the safety
    margin's share of the largest flux: without a margin the modulation controller has no effect. *)
Theorem eesm_modulation_band_refuted :
  forall cplx tri roots cubic amax damping old e nom margin o m0 m s usd usq w m' psi il ie ql ld lm, eesm_tune cplx tri roots cubic amax damping old e nom margin = Ok (o, m0) ->
  str_index "i_e" (ce_names e) = Ok il -> item (ce_limits e) il = Ok ie -> item (ce_limits e) (fp_isq (ee_f o)) = Ok ql -> par "l_d" (ce_par e) = Ok ld -> par "l_m" (ce_par e) = Ok lm ->
  reads (ee_f o) s usd usq w -> modulation (ee_f o) m s = (m', Ok psi) ->
  Rabs (psi - speed_flux (ee_f o) w) <= Rabs (margin * (1 - margin) * (lm * ie + ld * ql)) / 5 /\ (margin = 0 -> psi = speed_flux (ee_f o) w).
Proof.
  intros cplx tri roots cubic amax damping old e nom margin o m0 m s usd usq w m' psi il ie ql ld lm H Hil Hie Hql Hld Hlm Hr Hm.
  destruct (eesm_tune_inv _ _ _ _ _ _ _ _ _ _ _ _ H) as (f0 & ld' & lq & lm' & rs & re & il' & ie' & ql' & tl & scan & po & E0 & E1 & _ & E3 & _ & _ & E7 & E8 & E9 & _ & X). cbn zeta in X. destruct X as (_ & FO & _).
  assert (FI : fp_isq (ee_f o) = fp_isq f0) by (rewrite FO; reflexivity). rewrite FI, E9 in Hql. rewrite E7 in Hil. apply ok_inj in Hql, Hil. subst ql' il'. rewrite E8 in Hie. rewrite E1 in Hld. rewrite E3 in Hlm. apply ok_inj in Hie, Hld, Hlm. subst ie' ld' lm'.
  assert (Q : fp_qlim f0 = ql * (1 - margin)). { unfold foc_tune in E0. do 7 (apply bind_ok in E0; destruct E0 as (? & ? & E0)). do 2 (apply bind_ok in E0; destruct E0 as (? & _ & E0)). apply bind_ok in E0. destruct E0 as (? & _ & E0). apply bind_ok in E0. destruct E0 as (q & EQ & E0). apply bind_ok in E0. destruct E0 as (? & _ & E0). apply ok_inj in E0. apply pair_equal_spec in E0. destruct E0 as [F _]. rewrite <- F in E9 |- *. cbn [fp_isq fp_qlim] in *. rewrite E9 in EQ. apply ok_inj in EQ. subst q. reflexivity. }
  set (hi := 2 / 10 * sqrt ((lm * (ie * (1 - margin)) * margin + ld * fp_qlim f0 * margin) * (lm * (ie * (1 - margin)) * margin + ld * fp_qlim f0 * margin))) in FO.
  assert (HI : hi = Rabs (margin * (1 - margin) * (lm * ie + ld * ql)) / 5). { unfold hi. fold (Rsqr (lm * (ie * (1 - margin)) * margin + ld * fp_qlim f0 * margin)). rewrite sqrt_Rsqr_abs, Q. replace (lm * (ie * (1 - margin)) * margin + ld * (ql * (1 - margin)) * margin) with (margin * (1 - margin) * (lm * ie + ld * ql)) by ring. field. }
  assert (P : 0 <= hi) by (unfold hi; apply Rmult_le_pos; [lra|apply sqrt_pos]). assert (LO : fp_low (ee_f o) = - hi) by (rewrite FO; reflexivity). assert (HH : fp_high (ee_f o) = hi) by (rewrite FO; reflexivity).
  destruct (modulation_bounds (ee_f o) m s usd usq w m' psi Hr ltac:(lra) Hm) as [B1 B2]. rewrite LO in B1. rewrite HH in B2. rewrite <- HI. split; [apply Rabs_le; lra|].
  intros M. rewrite M in HI. rewrite !Rmult_0_l, Rabs_R0 in HI. lra.
Qed.
Print Assumptions eesm_modulation_band_refuted.

(** ** The hypotheses are met *)
(** A triangulation that always answers the first point. *)
Definition first_tri : triang := fun pts => Ok (fun _ _ => match pts with [] => None | _ :: r => Some (1 :: map (fun _ => 0) r) end).
Lemma first_tri_ok : tri_ok first_tri.
Proof.
  intros pts w x y ws H W. unfold first_tri in H. apply ok_inj in H. subst w. destruct pts as [|p r]; [discriminate|]. apply some_inj in W. subst ws. split; [cbn; rewrite map_length; reflexivity|]. split.
  - constructor; [lra|]. apply Forall_forall. intros z Hz. apply in_map_iff in Hz. destruct Hz as (? & <- & _). lra.
  - cbn [fold_right]. assert (Z : fold_right Rplus 0 (map (fun _ : R * R => 0) r) = 0) by (induction r as [|a r IH]; cbn; [reflexivity|rewrite IH; ring]). rewrite Z. ring.
Qed.
Example eesm_select_example : exists o m0 m' d q ee, eesm_tune true first_tri one_root flat_cubic 1 (12 / 10) None eesm_ctl_env [] (2 / 10) = Ok (o, m0) /\ 0 < ee_tmax o /\ 0 < ee_pmax o /\
  reads (ee_f o) (repeat 1 13) 1 1 1 /\ eesm_select o (foc_reset (ee_f o) m0) (repeat 1 13) [50] = (m', Ok [Some d; Some q; Some ee]).
Proof.
  destruct (eesm_tune_refuted first_tri one_root flat_cubic 1 (12 / 10) None eesm_ctl_env [] (2 / 10) eesm_ready_example ltac:(lra) ltac:(discriminate) ltac:(intros l; eexists; reflexivity) ltac:(intros l; eexists; reflexivity)) as [(o & m & E) _].
  destruct (eesm_tuned_example) as (o1 & m1 & T1 & Q1 & T2 & P1 & x & G & A & T).
  destruct (eesm_tune_inv _ _ _ _ _ _ _ _ _ _ _ _ E) as (f0 & ld & lq & lm & rs & re & il & ie & ql & tl & scan & po & E0 & E1 & E2 & E3 & E5 & E6 & E7 & E8 & E9 & E10 & X). cbn zeta in X. destruct X as (_ & FO & EC & EPM & ES & ET & EP & EO & _ & GD & GQ & GE).
  destruct (eesm_tune_inv _ _ _ _ _ _ _ _ _ _ _ _ T1) as (f1 & ld1 & lq1 & lm1 & rs1 & re1 & il1 & ie1 & ql1 & tl1 & scan1 & po1 & D0 & D1 & D2 & D3 & _ & _ & D7 & D8 & D9 & D10 & Y). cbn zeta in Y. destruct Y as (_ & FO1 & EC1 & EPM1 & _).
  rewrite E0 in D0. apply ok_inj in D0. apply pair_equal_spec in D0. destruct D0 as [-> _]. rewrite E1 in D1. rewrite E2 in D2. rewrite E3 in D3. rewrite E7 in D7. apply ok_inj in D1, D2, D3, D7. subst ld1 lq1 lm1 il1. rewrite E8 in D8. rewrite E9 in D9. rewrite E10 in D10. apply ok_inj in D8, D9, D10. subst ie1 ql1 tl1.
  assert (CC : ee_c o1 = ee_c o) by (rewrite EC, EC1; reflexivity). assert (PP : ee_pmax o1 = ee_pmax o) by (rewrite EPM, EPM1; reflexivity). assert (F1 : fp_isq (ee_f o1) = fp_isq f1) by (rewrite FO1; reflexivity). assert (F2 : fp_tq (ee_f o1) = fp_tq f1) by (rewrite FO1; reflexivity). rewrite F1, E9 in Q1. rewrite F2, E10 in T2. apply ok_inj in Q1, T2. subst ql tl. rewrite CC in A. rewrite PP in G, P1.
  assert (IE : ie = 150). { assert (il = 4%nat) by (apply ok_inj in E7; symmetry; exact E7). subst il. apply ok_inj in E8. symmetry. exact E8. } rewrite IE in *.
  destruct (eesm_largest_torques _ _ _ _ _ _ _ _ _ _ _ _ 150 il 150 100 E ltac:(rewrite FO; exact E9) E7 E8 ltac:(rewrite FO; exact E10) ltac:(lra)) as (_ & _ & UB & _). pose proof (UB x (conj G A)) as TM. assert (HT : 0 < ee_tmax o) by lra.
  assert (RD : reads (ee_f o) (repeat 1 13) 1 1 1). { assert (K : f1 = fst (match foc_tune 1 None eesm_ctl_env [] (2 / 10) with Ok p => p | Err _ => (f1, m) end)) by (rewrite E0; reflexivity). cbn in K. rewrite FO, K. repeat split. }
  destruct (eesm_selection_raises_iff _ _ _ _ _ _ _ _ _ _ _ _ E HT P1 (foc_reset (ee_f o) m) (repeat 1 13) 50 [] (fp_reset (ee_f o)) 1 1 1 0 RD eq_refl) as [S _]. { rewrite EO. unfold flat_cubic in EP. apply ok_inj in EP. rewrite <- EP. reflexivity. }
  destruct (S ltac:(lra)) as (m' & _ & d & q & ee & HS & _). destruct (eesm_references_in_limits _ _ _ _ _ _ _ _ _ _ _ _ _ _ _ _ _ 150 il 150 first_tri_ok E ltac:(rewrite FO; exact E9) E7 E8 ltac:(lra) ltac:(lra) HS) as [Z|(d' & q' & e' & r & Z & _)].
  - exfalso. unfold eesm_select in HS. destruct (modulation (ee_f o) (foc_reset (ee_f o) m) (repeat 1 13)) as [m2 pm]. apply pair_equal_spec in HS. destruct HS as [_ HS]. apply bind_ok in HS. destruct HS as (pmx & _ & HS). apply bind_ok in HS. destruct HS as (r & _ & HS). apply bind_ok in HS. destruct HS as (z & _ & HS). apply bind_ok in HS. destruct HS as (ti & _ & HS). apply bind_ok in HS. destruct HS as (pi & _ & HS).
    apply bind_ok in HS. destruct HS as (d1 & Ed & HS). apply bind_ok in HS. destruct HS as (q1 & _ & HS). apply bind_ok in HS. destruct HS as (ee1 & _ & HS). apply ok_inj in HS. rewrite Z in HS. destruct (griddata_at _ _ _ _ _ _ _ _ _ GD Ed) as (w & a & b & W & _ & _ & V). unfold first_tri in W. apply ok_inj in W. subst w. assert (V2 : d1 = None) by congruence. rewrite V2 in V.
    destruct (eesm_rows_best _ _ _ _ _ _ _ rs re ES) as (_ & _ & CP). { rewrite EC. cbn [ec_p]. assert (K : f1 = fst (match foc_tune 1 None eesm_ctl_env [] (2 / 10) with Ok p => p | Err _ => (f1, m) end)) by (rewrite E0; reflexivity). cbn in K. rewrite K. cbn [fp_p]. lra. }
    destruct (CP x G A) as (_ & r0 & I0 & _). destruct (ee_rows_psi rs re scan) as [|b0 bl]; [destruct I0|]. discriminate V.
  - exists o, m, m', d', q', e'. split; [exact E|]. split; [exact HT|]. split; [exact P1|]. split; [exact RD|]. rewrite HS, Z. reflexivity.
Qed.
