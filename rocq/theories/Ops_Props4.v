(** Operating point selection of the synchronous motors, continued: the flux look-up of a
    motor with a permanent magnet, and that a tuned and reset selection never raises.
    Properties C115, C116.  Source: gem_controllers/stages/operation_point_selection/
    pmsm_ops.py and foc_operation_point_selection.py. *)
From Verif Require Import PyBaseFacts PyDictFacts Transform_Model Transform_Proofs Motor_Model Conv_Model Wrap_Model Ctl_Model Ctl_Model2 Ctl_Spec Ctl_Proofs Ctl_Proofs2 Ctl_Props Emf_Props Ops_Model Ops_Proofs Ops_Props Ops_Props2 Ops_Props3.
From Coq Require Import ZArith Lra Lia.
Local Open Scope string_scope.
Local Open Scope list_scope.
Local Open Scope R_scope.

(** ** The maximum torque per flux table with equal current limits *)
Definition in_circle (L : R) (st : R * R * R) : Prop := let '(_, d, q) := st in sqrt (d * d + q * q) <= L.
Lemma circle_scale L d q : 0 < L -> sqrt (q / L * (q / L) + d / L * (d / L)) <= 1 -> sqrt (d * d + q * q) <= L.
Proof.
  intros HL H. replace (d * d + q * q) with ((q / L * (q / L) + d / L * (d / L)) * (L * L)) by (field; lra). rewrite sqrt_mult_alt.
  - rewrite sqrt_square by lra. pose proof (Rmult_le_compat_r L _ _ ltac:(lra) H). lra.
  - pose proof (Rle_0_sqr (q / L)). pose proof (Rle_0_sqr (d / L)). unfold Rsqr in *. lra.
Qed.
Lemma mtpf_step_circle c L psi st : pc_psi c <> 0 -> 0 < L -> in_circle L st ->
  in_circle L (fst (mtpf_step c L L psi st)) /\ exists y, snd (mtpf_step c L L psi st) = Some y /\ pr_psi y = psi.
Proof.
  intros Hpsi HL G. destruct st as [[t bd] bq]. unfold mtpf_step. destruct (reqP psi 0) as [Z|_]; [split; [exact G|eexists; split; reflexivity]|]. destruct (reqP (pc_psi c) 0) as [Z|_]; [contradiction|]. cbn zeta.
  match goal with |- context [argmin (map ?g ?l)] => set (cur := l); set (gg := g) end.
  assert (R : forall st', in_circle L st' -> in_circle L (fst (let '(t', bd', bq') := st' in (st', if rle (sqrt (bd' * bd' + bq' * bq')) L then Some {| pr_t := t'; pr_d := bd'; pr_q := bq'; pr_psi := psi |} else None))) /\
    exists y, snd (let '(t', bd', bq') := st' in (st', if rle (sqrt (bd' * bd' + bq' * bq')) L then Some {| pr_t := t'; pr_d := bd'; pr_q := bq'; pr_psi := psi |} else None)) = Some y /\ pr_psi y = psi).
  { intros [[t' d'] q'] G'. cbn [fst snd]. split; [exact G'|]. unfold in_circle in G'. destruct (rleP (sqrt (d' * d' + q' * q')) L) as [_|N]; [eexists; split; reflexivity|lra]. }
  apply R. destruct (argmin (map gg cur)) as [k|x]; [|exact G]. destruct (nth_error cur k) as [x|] eqn:E; [|exact G]. unfold in_circle. apply circle_scale; [exact HL|]. apply nth_error_In in E. unfold cur in E. apply filter_In in E. destruct E as [_ E]. destruct (rleP (sqrt (snd x / L * (snd x / L) + fst x / L * (fst x / L))) 1) as [A|A]; [exact A|discriminate].
Qed.
Lemma mtpf_loop_all c L psis : pc_psi c <> 0 -> 0 < L -> forall st, in_circle L st -> map pr_psi (mtpf_loop c L L psis st) = psis.
Proof.
  intros Hpsi HL. induction psis as [|x l IH]; intros st G; [reflexivity|]. destruct (mtpf_step_circle c L x st Hpsi HL G) as [G' (y & Ey & Py)]. cbn [mtpf_loop]. destruct (mtpf_step c L L x st) as [st' row]. cbn [fst snd] in G', Ey. subst row. cbn [map]. rewrite Py, (IH st' G'). reflexivity.
Qed.
Definition top_flux (c : pconst) (L : R) : R := sqrt ((pc_psi c + pc_ld c * L) * (pc_psi c + pc_ld c * L) + pc_lq c * L * (pc_lq c * L)).
Lemma mtpf_half_psi c L : pc_psi c <> 0 -> 0 < L -> map pr_psi (mtpf_half c L L) = linspace 0 (top_flux c L) pm_psi_count.
Proof. intros Hpsi HL. rewrite mtpf_half_unfold. apply mtpf_loop_all; [exact Hpsi|exact HL|]. unfold in_circle. rewrite Rmult_0_l, Rplus_0_l, sqrt_0. lra. Qed.
Lemma mtpf_half_length c L : pc_psi c <> 0 -> 0 < L -> length (mtpf_half c L L) = 250%nat.
Proof. intros Hpsi HL. rewrite <- (map_length pr_psi), (mtpf_half_psi c L Hpsi HL), linspace_length. reflexivity. Qed.
Lemma top_flux_pos c L : 0 < pc_lq c -> 0 < L -> 0 < top_flux c L.
Proof. intros Hl HL. unfold top_flux. apply sqrt_lt_R0. assert (0 < pc_lq c * L) by (apply Rmult_lt_0_compat; assumption). assert (0 < pc_lq c * L * (pc_lq c * L)) by (apply Rmult_lt_0_compat; assumption). pose proof (Rle_0_sqr (pc_psi c + pc_ld c * L)) as X. unfold Rsqr in X. lra. Qed.
Lemma pmsm_psimax amax damping old e nom margin o m L : pmsm_tune amax damping old e nom margin = Ok (o, m) -> pc_psi (q_c o) <> 0 -> 0 < pc_lq (q_c o) -> fp_dlim (q_f o) = L -> fp_qlim (q_f o) = L -> 0 < L -> q_psimax o = top_flux (q_c o) L.
Proof.
  intros H Hp Hd H1 H2 HL. destruct (pmsm_tune_inv _ _ _ _ _ _ _ _ H) as (f0 & dl & ql & _ & _ & _ & _ & _ & F1 & F2 & _ & _ & _ & _ & _ & _ & PM & _). rewrite <- F1, <- F2, H1, H2 in PM. rewrite (mtpf_half_psi _ _ Hp HL) in PM. destruct (np_max_spec _ _ PM) as [A B]. pose proof (top_flux_pos (q_c o) L Hd HL) as T. set (top := top_flux (q_c o) L) in *. clearbody top.
  assert (N249 : INR (pm_psi_count - 1) = 249) by (rewrite INR_IZR_INZ; reflexivity). apply Rle_antisym.
  - apply In_nth_error in A. destruct A as (k & Hk). assert (Kk : (k < 250)%nat) by (change 250%nat with pm_psi_count; rewrite <- (linspace_length 0 top pm_psi_count); apply nth_error_Some; rewrite Hk; discriminate). rewrite (linspace_nth 0 top pm_psi_count k Kk) in Hk. assert (Z : q_psimax o = 0 + INR k * ((top - 0) / INR (pm_psi_count - 1))) by congruence. rewrite Z, N249. assert (K : INR k <= 249) by (replace 249 with (INR 249) by (rewrite INR_IZR_INZ; reflexivity); apply le_INR; lia). pose proof (Rmult_le_compat_r (top / 249) _ _ ltac:(lra) K) as X. unfold Rdiv in *. rewrite Rminus_0_r. lra.
  - apply B. pose proof (linspace_nth 0 top pm_psi_count 249 ltac:(unfold pm_psi_count; lia)) as X. apply nth_error_In in X. assert (Y : 0 + INR 249 * ((top - 0) / INR (pm_psi_count - 1)) = top) by (rewrite N249; replace (INR 249) with 249 by (rewrite INR_IZR_INZ; reflexivity); field). rewrite Y in X. exact X.
Qed.
(** With a permanent magnet the look-up finds the row whose flux is nearest. *)
Theorem pmsm_flux_lookup :
  forall amax damping old e nom margin o m L psi, pmsm_tune amax damping old e nom margin = Ok (o, m) -> pc_psi (q_c o) <> 0 -> 0 < pc_lq (q_c o) -> fp_dlim (q_f o) = L -> fp_qlim (q_f o) = L -> 0 < L -> 0 <= psi <= q_psimax o ->
  exists rf, np_at (q_mtpf o) (psi_idx_mtpf o psi) = Ok rf /\ Rabs (pr_psi rf - psi) <= q_psimax o / 498.
Proof.
  intros amax damping old e nom margin o m L psi H Hp Hd H1 H2 HL Hpsi. pose proof (pmsm_psimax _ _ _ _ _ _ _ _ L H Hp Hd H1 H2 HL) as PE. pose proof (top_flux_pos (q_c o) L Hd HL) as PP.
  destruct (pmsm_tune_inv _ _ _ _ _ _ _ _ H) as (f0 & dl & ql & _ & _ & _ & _ & _ & F1 & F2 & _ & _ & _ & _ & _ & TF & _). rewrite <- F1, <- F2, H1, H2 in TF. rewrite <- PE in PP.
  set (y := psi / q_psimax o * INR (pm_psi_count - 1)). assert (N249 : INR (pm_psi_count - 1) = 249) by (rewrite INR_IZR_INZ; reflexivity).
  assert (Y : 0 <= y <= INR 249). { unfold y. rewrite N249. replace (INR 249) with 249 by (rewrite INR_IZR_INZ; reflexivity). assert (I : 0 < / q_psimax o) by (apply Rinv_0_lt_compat; exact PP). assert (Q : 0 <= psi / q_psimax o <= 1). { split; [apply Rmult_le_pos; lra|]. unfold Rdiv. rewrite <- (Rinv_r (q_psimax o)) by lra. apply Rmult_le_compat_r; lra. } lra. }
  pose proof (py_round_range y 249 Y) as RR. pose proof (py_round_near y) as NN. set (z := py_round y) in *. assert (Zi : psi_idx_mtpf o psi = Z.of_nat (249 - Z.to_nat z)) by (unfold psi_idx_mtpf, z_clip; fold y; fold z; unfold pm_psi_count; lia).
  assert (LH := mtpf_half_length (q_c o) L Hp HL). assert (PH := mtpf_half_psi (q_c o) L Hp HL). rewrite <- PE in PH. rewrite TF, mtpf_table_unfold. set (h := mtpf_half (q_c o) L L) in *. clearbody h.
  assert (NZ : (Z.to_nat z < length h)%nat) by lia. destruct (nth_error h (Z.to_nat z)) as [x|] eqn:Ex; [|apply nth_error_None in Ex; lia].
  assert (PX : pr_psi x = 0 + INR (Z.to_nat z) * ((q_psimax o - 0) / INR (pm_psi_count - 1))). { pose proof (map_nth_error pr_psi _ _ Ex) as X. rewrite PH, (linspace_nth 0 (q_psimax o) pm_psi_count (Z.to_nat z) ltac:(unfold pm_psi_count; lia)) in X. congruence. }
  exists (mtpf_neg x). split.
  - rewrite Zi. apply np_at_nat. rewrite nth_error_app1 by (rewrite map_length, rev_length, LH; lia). apply map_nth_error. rewrite nth_error_rev by lia. rewrite LH. replace (250 - 1 - (249 - Z.to_nat z))%nat with (Z.to_nat z) by lia. exact Ex.
  - unfold mtpf_neg. cbn [pr_psi]. rewrite PX, N249, INR_IZR_INZ, Z2Nat.id by lia. replace (0 + IZR z * ((q_psimax o - 0) / 249) - psi) with (q_psimax o / 249 * (IZR z - y)) by (unfold y; rewrite N249; field; lra). rewrite Rabs_mult, (Rabs_pos_eq (q_psimax o / 249)) by lra. eapply Rle_trans; [apply Rmult_le_compat_l; [lra|exact NN]|]. lra.
Qed.
Print Assumptions pmsm_flux_lookup.

(** ** Tuning and selection do not raise *)
(** What [tune] needs of the environment. *)
Definition sync_ready (e : cenv) : Prop :=
  (forall n, In n ["omega"; "u_sd"; "u_sq"; "torque"; "epsilon"; "i_sd"; "i_sq"; "u_a"] -> In n (ce_names e)) /\ length (ce_limits e) = length (ce_names e) /\
  (exists p, par "p" (ce_par e) = Ok p) /\ (exists v, par "l_d" (ce_par e) = Ok v) /\ (exists v, par "l_q" (ce_par e) = Ok v) /\ (exists v, par "r_s" (ce_par e) = Ok v) /\
  ((exists psi, dict_get "psi_p" (ce_par e) = Some psi /\ psi <> 0) \/ par "l_d" (ce_par e) <> par "l_q" (ce_par e)).
Lemma index_ok n l : In n l -> exists k, str_index n l = Ok k /\ (k < length l)%nat.
Proof.
  intros H. induction l as [|x l IH]; [destruct H|]. cbn [str_index]. destruct (String.eqb x n) eqn:E; [exists O; split; [reflexivity|cbn; lia]|]. destruct H as [->|H]; [rewrite String.eqb_refl in E; discriminate|]. destruct (IH H) as (k & Ek & Hk). rewrite Ek. cbn [bind]. exists (Datatypes.S k). split; [reflexivity|cbn; lia].
Qed.
Lemma mtpc_table_ok c dl ql mt : pc_ld c <> pc_lq c \/ pc_psi c <> 0 -> exists tab, mtpc_table c dl ql mt = Ok tab.
Proof.
  intros H. unfold mtpc_table. generalize (linspace (- mt) mt pm_t_count). induction l as [|t l IH]; [exists []; reflexivity|]. cbn [mapm]. assert (R : exists row, mtpc_row c dl ql t = Ok row).
  { destruct (Req_dec (pc_ld c) (pc_lq c)) as [E|E]; [|destruct (mtpc_row_pick c dl ql t E) as (d & q & _ & X); eexists; exact X]. destruct H as [H|H]; [contradiction|]. unfold mtpc_row. destruct (reqP (pc_ld c) (pc_lq c)); [|contradiction]. destruct (reqP (pc_psi c) 0); [contradiction|]. eexists. reflexivity. }
  destruct R as (row & ->). destruct IH as (tab & ->). cbn [bind]. eexists. reflexivity.
Qed.
Lemma foc_tune_ok amax old e nom margin : sync_ready e -> exists f m, foc_tune amax old e nom margin = Ok (f, m) /\ (fp_tq f < length (ce_limits e))%nat /\ (fp_isd f < length (ce_limits e))%nat /\ (fp_isq f < length (ce_limits e))%nat.
Proof.
  intros (N & LL & (p & Hp) & _). assert (X : forall n, In n ["omega"; "u_sd"; "u_sq"; "torque"; "epsilon"; "i_sd"; "i_sq"; "u_a"] -> exists k v, str_index n (ce_names e) = Ok k /\ (k < length (ce_limits e))%nat /\ item (ce_limits e) k = Ok v).
  { intros n Hn. destruct (index_ok n _ (N n Hn)) as (k & Ek & Hk). rewrite <- LL in Hk. destruct (nth_error (ce_limits e) k) as [v|] eqn:E; [|apply nth_error_None in E; lia]. exists k, v. split; [exact Ek|]. split; [exact Hk|]. unfold item. rewrite E. reflexivity. }
  unfold foc_tune. destruct (X "omega" ltac:(cbn; tauto)) as (k1 & v1 & -> & _ & _). destruct (X "u_sd" ltac:(cbn; tauto)) as (k2 & v2 & -> & _ & _). destruct (X "u_sq" ltac:(cbn; tauto)) as (k3 & v3 & -> & _ & _). destruct (X "torque" ltac:(cbn; tauto)) as (k4 & v4 & -> & L4 & _). destruct (X "epsilon" ltac:(cbn; tauto)) as (k5 & v5 & -> & _ & _). destruct (X "i_sd" ltac:(cbn; tauto)) as (k6 & v6 & -> & L6 & E6). destruct (X "i_sq" ltac:(cbn; tauto)) as (k7 & v7 & -> & L7 & E7).
  assert (UA : str_in "u_a" (ce_names e) = true) by (apply str_in_true; apply N; cbn; tauto). rewrite UA. destruct (X "u_a" ltac:(cbn; tauto)) as (k8 & v8 & -> & _ & E8). cbn [bind]. rewrite Hp. cbn [bind]. rewrite E6, E7, E8. cbn [bind]. do 2 eexists. split; [reflexivity|]. cbn [fp_tq fp_isd fp_isq]. auto.
Qed.
Lemma mtpf_half_nonempty c isd isq : mtpf_half c isd isq <> [].
Proof.
  rewrite mtpf_half_unfold. set (top := sqrt _). clearbody top. assert (X : exists l, linspace 0 top pm_psi_count = 0 :: l). { assert (LL : length (linspace 0 top pm_psi_count) = pm_psi_count) by apply linspace_length. assert (NT := linspace_nth 0 top pm_psi_count 0 ltac:(unfold pm_psi_count; lia)). destruct (linspace 0 top pm_psi_count) as [|z l]; [discriminate LL|]. exists l. f_equal. assert (Y : z = 0 + INR 0 * ((top - 0) / INR (pm_psi_count - 1))) by (cbn [nth_error] in NT; congruence). rewrite Y. change (INR 0) with 0. ring. }
  destruct X as (l & ->). cbn [mtpf_loop]. unfold mtpf_step at 1. destruct (reqP 0 0) as [_|N]; [|contradiction]. discriminate.
Qed.
(** [tune] succeeds in every environment with the names and parameters of the motor. *)
Theorem sync_tune_succeeds : forall amax damping old e nom margin, sync_ready e -> exists o m, pmsm_tune amax damping old e nom margin = Ok (o, m).
Proof.
  intros amax damping old e nom margin H. destruct (foc_tune_ok amax old e nom margin H) as (f & m & Ef & L1 & L2 & L3). destruct H as (_ & LL & _ & (ld & Hld) & (lq & Hlq) & (rs & Hrs) & NZ).
  assert (IT : forall k, (k < length (ce_limits e))%nat -> exists v, item (ce_limits e) k = Ok v) by (intros k Hk; unfold item; destruct (nth_error (ce_limits e) k) as [v|] eqn:E; [eexists; reflexivity|apply nth_error_None in E; lia]).
  unfold pmsm_tune. rewrite Ef. cbn [bind fst snd]. rewrite Hld, Hlq, Hrs. cbn [bind]. destruct (IT _ L1) as (tl & ->). destruct (IT _ L2) as (dl & ->). destruct (IT _ L3) as (ql & ->). cbn [bind].
  match goal with |- context [mtpc_table ?c ?a ?b ?d] => destruct (mtpc_table_ok c a b d) as (tab & Et) end.
  { cbn [pc_ld pc_lq pc_psi]. destruct NZ as [(psi & -> & NZ)|NZ]; [right; exact NZ|left]. rewrite Hld, Hlq in NZ. congruence. }
  rewrite Et. cbn [bind]. match goal with |- context [np_max (map pr_psi (mtpf_half ?c ?a ?b))] => pose proof (mtpf_half_nonempty c a b) as NE; destruct (mtpf_half c a b) as [|y h]; [contradiction|] end.
  cbn [map np_max bind]. do 2 eexists. reflexivity.
Qed.
Print Assumptions sync_tune_succeeds.
(** ** Selection over any history *)
Lemma modulation_some f m x i usd usq w : reads f x usd usq w -> fm_int m = Some i -> exists m' v i', modulation f m x = (m', Ok v) /\ fm_int m' = Some i'.
Proof.
  intros Hr Hi. rewrite (modulation_eq f m x usd usq w Hr). cbn zeta. rewrite Hi. match goal with |- context [match (if ?b then ?u else ?v) with _ => _ end] => assert (S : exists j, (if b then u else v) = Some j) by (destruct b; eexists; reflexivity); destruct S as (j & ->) end.
  match goal with |- context [if ?b then _ else _] => destruct b end; do 3 eexists; split; reflexivity.
Qed.
Lemma mtpf_length amax damping old e nom margin o m L : pmsm_tune amax damping old e nom margin = Ok (o, m) -> (pc_psi (q_c o) <> 0 \/ 0 < pc_ld (q_c o)) -> fp_dlim (q_f o) = L -> fp_qlim (q_f o) = L -> 0 < L -> (251 <= length (q_mtpf o))%nat.
Proof.
  intros H C H1 H2 HL. destruct (pmsm_tune_inv _ _ _ _ _ _ _ _ H) as (f0 & dl & ql & _ & _ & _ & _ & _ & F1 & F2 & _ & _ & _ & _ & _ & TF & _). rewrite <- F1, <- F2, H1, H2 in TF. rewrite TF, mtpf_table_unfold, app_length, map_length, rev_length.
  assert (X : (177 <= length (mtpf_half (q_c o) L L))%nat); [|lia]. destruct (Req_dec (pc_psi (q_c o)) 0) as [Z|N].
  - destruct C as [C|C]; [contradiction|]. rewrite (mtpf_half_synrm _ _ Z HL C), map_length, seq_length. lia.
  - rewrite (mtpf_half_length _ _ N HL). lia.
Qed.
Lemma sync_select_ok amax damping old e nom margin o m0 L : pmsm_tune amax damping old e nom margin = Ok (o, m0) -> (pc_psi (q_c o) <> 0 \/ 0 < pc_ld (q_c o)) -> fp_dlim (q_f o) = L -> fp_qlim (q_f o) = L -> 0 < L -> 0 < q_maxt o ->
  forall roots m x r rest i usd usq w, (forall c, roots c <> []) -> reads (q_f o) x usd usq w -> fm_int m = Some i -> Rabs r <= q_maxt o ->
  exists m' d q i', pmsm_select roots o m x (r :: rest) = (m', Ok [d; q]) /\ fm_int m' = Some i'.
Proof.
  intros H C H1 H2 HL HM roots m x r rest i usd usq w HR Hx Hi Hr. unfold pmsm_select. cbn [item nth_error bind].
  assert (ROW : exists row, np_at (q_mtpc o) (t_idx_mtpc o r) = Ok row).
  { assert (Z : (0 <= t_idx_mtpc o r < Z.of_nat (length (q_mtpc o)))%Z); [|destruct (np_at_ok _ _ Z) as (row & E & _); exists row; exact E]. rewrite (mtpc_length _ _ _ _ _ _ _ _ H). assert (Hr' : - q_maxt o <= r <= q_maxt o) by (unfold Rabs in Hr; destruct (Rcase_abs r) in Hr; lra). unfold t_idx_mtpc, z_clip. set (y := (r + q_maxt o) / (2 * q_maxt o) * INR (pm_t_count - 1)).
    assert (Y : 0 <= y <= INR 249). { unfold y. replace (INR (pm_t_count - 1)) with 249 by (rewrite INR_IZR_INZ; reflexivity). replace (INR 249) with 249 by (rewrite INR_IZR_INZ; reflexivity). assert (I : 0 < / (2 * q_maxt o)) by (apply Rinv_0_lt_compat; lra). assert (Q : 0 <= (r + q_maxt o) / (2 * q_maxt o) <= 1). { split; [apply Rmult_le_pos; lra|]. unfold Rdiv. rewrite <- (Rinv_r (2 * q_maxt o)) by lra. apply Rmult_le_compat_r; lra. } lra. }
    pose proof (py_round_range y 249 Y). unfold pm_t_count. lia. }
  destruct ROW as (row & ->). cbn [bind]. destruct (modulation_some _ _ _ _ _ _ _ Hx Hi) as (m1 & v & i' & -> & Hi'). cbn [bind].
  match goal with |- context [np_at (q_mtpf o) (psi_idx_mtpf o ?z)] => set (pm1 := z) end.
  assert (RF : exists rf, np_at (q_mtpf o) (psi_idx_mtpf o pm1) = Ok rf). { pose proof (mtpf_length _ _ _ _ _ _ _ _ L H C H1 H2 HL) as LL. assert (Z : (0 <= psi_idx_mtpf o pm1 < Z.of_nat (length (q_mtpf o)))%Z) by (unfold psi_idx_mtpf, z_clip, pm_psi_count; lia). destruct (np_at_ok _ _ Z) as (rf & E & _). exists rf. exact E. }
  destruct RF as (rf & ->). cbn [bind]. unfold get_i_d_q, solve_analytical.
  match goal with |- context [np_at (roots ?p) (-1)] => assert (RT : exists d, np_at (roots p) (-1) = Ok d) end.
  { match goal with |- context [roots ?p] => pose proof (HR p) as NE; destruct (roots p) as [|a l]; [contradiction|] end. unfold np_at. replace (-1 <? 0)%Z with true by reflexivity.
    match goal with |- context [nth_error ?l ?k] => destruct (nth_error l k) as [d|] eqn:E end; [|apply nth_error_None in E; cbn [length] in E; lia]. match goal with |- context [if ?b then _ else _] => destruct b eqn:B end; [|eexists; reflexivity]. exfalso. apply Z.ltb_lt in B. cbn [length] in B. lia. }
  destruct RT as (d & ->). cbn [bind]. do 4 eexists. split; [reflexivity|exact Hi'].
Qed.
Fixpoint sync_runs (roots : list R -> list R) (o : pmsm_ops) (m : fmod) (l : list (list R * list R)) : list (res (list R)) :=
  match l with [] => [] | (x, r) :: rest => let (m', out) := pmsm_select roots o m x r in out :: sync_runs roots o m' rest end.
(** After [tune] and [reset], no sequence of calls with references in the table's range raises. *)
Theorem sync_selection_never_raises :
  forall amax damping old e nom margin o m0 L roots l, pmsm_tune amax damping old e nom margin = Ok (o, m0) -> (pc_psi (q_c o) <> 0 \/ 0 < pc_ld (q_c o)) -> fp_dlim (q_f o) = L -> fp_qlim (q_f o) = L -> 0 < L -> 0 < q_maxt o ->
  (forall c, roots c <> []) -> (forall x r, In (x, r) l -> (exists usd usq w, reads (q_f o) x usd usq w) /\ exists t rest, r = t :: rest /\ Rabs t <= q_maxt o) ->
  forall out, In out (sync_runs roots o (foc_reset (q_f o) m0) l) -> exists d q, out = Ok [d; q].
Proof.
  intros amax damping old e nom margin o m0 L roots l H C H1 H2 HL HM HR. assert (HI : exists i, fm_int (foc_reset (q_f o) m0) = Some i) by (eexists; reflexivity). revert HI. generalize (foc_reset (q_f o) m0). induction l as [|[x r] l IH]; intros m (i & Hi) Hl out Ho; [destruct Ho|].
  destruct (Hl x r (or_introl eq_refl)) as [(usd & usq & w & Hx) (t & rest & -> & Ht)]. destruct (sync_select_ok _ _ _ _ _ _ _ _ L H C H1 H2 HL HM roots m x t rest i usd usq w HR Hx Hi Ht) as (m' & d & q & i' & E & Hi'). cbn [sync_runs] in Ho. rewrite E in Ho. destruct Ho as [<-|Ho]; [exists d, q; reflexivity|]. apply (IH m' (ex_intro _ i' Hi') (fun y s Hy => Hl y s (or_intror Hy)) out Ho).
Qed.
Print Assumptions sync_selection_never_raises.
(** ** The hypotheses are met *)
Lemma pmsm_tune_fields amax damping old e nom margin o m f0 m1 : pmsm_tune amax damping old e nom margin = Ok (o, m) -> foc_tune amax old e nom margin = Ok (f0, m1) ->
  m = m1 /\ (exists tl, item (ce_limits e) (fp_tq f0) = Ok tl /\ tl <= q_maxt o) /\ fp_usd (q_f o) = fp_usd f0 /\ fp_usq (q_f o) = fp_usq f0 /\ fp_om (q_f o) = fp_om f0 /\ fp_isd (q_f o) = fp_isd f0 /\ fp_isq (q_f o) = fp_isq f0 /\ fp_dlim (q_f o) = fp_dlim f0 /\ fp_qlim (q_f o) = fp_qlim f0.
Proof.
  intros H E. unfold pmsm_tune in H. rewrite E in H. cbn [bind fst snd] in H. apply bind_ok in H. destruct H as (ld & _ & H). apply bind_ok in H. destruct H as (lq & _ & H). apply bind_ok in H. destruct H as (rs & _ & H). cbn zeta in H. apply bind_ok in H. destruct H as (tl & Etl & H). apply bind_ok in H. destruct H as (dl & _ & H). apply bind_ok in H. destruct H as (ql & _ & H). apply bind_ok in H. destruct H as (tab & _ & H). apply bind_ok in H. destruct H as (pm & _ & H).
  apply ok_inj in H. apply pair_equal_spec in H. destruct H as [<- <-]. split; [reflexivity|]. split; [exists tl; split; [exact Etl|apply Rmax_r]|]. repeat split; reflexivity.
Qed.
Definition sync_state : list R := [100; 0; 20; 30; 0; 0; 0; 5; 6; 1; 60].
Example sync_tuned_example : forall e, e = pmsm_env \/ e = synrm_ctl_env -> sync_ready e /\
  exists o m, pmsm_tune (11 / 10) (12 / 10) None e sync_state (2 / 10) = Ok (o, m) /\ (pc_psi (q_c o) = if str_in "psi_p" (dict_keys (ce_par e)) then 1 / 15 else 0) /\ fp_dlim (q_f o) = 100 * (1 - 2 / 10) /\ fp_qlim (q_f o) = 100 * (1 - 2 / 10) /\ 40 <= q_maxt o /\
  item (ce_limits e) (fp_isq (q_f o)) = Ok 100 /\ item (ce_limits e) (fp_isd (q_f o)) = Ok 100 /\ reads (q_f o) sync_state 5 6 100 /\ par "p" (ce_par e) = Ok (pc_p (q_c o)) /\ par "l_d" (ce_par e) = Ok (pc_ld (q_c o)) /\ par "l_q" (ce_par e) = Ok (pc_lq (q_c o)).
Proof.
  intros e He. assert (R : sync_ready e). { destruct He as [-> | ->]; (split; [intros n Hn; apply str_in_true; repeat (destruct Hn as [<-|Hn]; [reflexivity|]); destruct Hn|]); (split; [reflexivity|]); do 4 (split; [eexists; reflexivity|]); [left; exists (1 / 15); split; [reflexivity|lra]|right; cbn; intros N; apply ok_inj in N; lra]. }
  split; [exact R|]. destruct (sync_tune_succeeds (11 / 10) (12 / 10) None e sync_state (2 / 10) R) as (o & m & H). exists o, m. split; [exact H|].
  assert (FT : exists f0 m1, foc_tune (11 / 10) None e sync_state (2 / 10) = Ok (f0, m1) /\ fp_usd f0 = 7%nat /\ fp_usq f0 = 8%nat /\ fp_om f0 = 0%nat /\ fp_isd f0 = 2%nat /\ fp_isq f0 = 3%nat /\ fp_tq f0 = 1%nat /\ fp_dlim f0 = 100 * (1 - 2 / 10) /\ fp_qlim f0 = 100 * (1 - 2 / 10) /\ par "p" (ce_par e) = Ok (fp_p f0)) by (destruct He as [-> | ->]; do 2 eexists; (split; [reflexivity|]); repeat split; reflexivity).
  destruct FT as (f0 & m1 & E & A1 & A2 & A3 & A4 & A5 & A6 & A7 & A8 & A9). destruct (pmsm_tune_fields _ _ _ _ _ _ _ _ _ _ H E) as (_ & (tl & Et & HT) & B1 & B2 & B3 & B4 & B5 & B6 & B7).
  destruct (pmsm_tune_inv _ _ _ _ _ _ _ _ H) as (f0' & dl & ql & E' & _ & _ & _ & _ & _ & _ & P & PSI & LD & LQ & _). rewrite E in E'. apply ok_inj in E'. apply pair_equal_spec in E'. destruct E' as [<- _].
  rewrite B6, B7, A7, A8, B5, A5, B4, A4, PSI, LD, LQ, P, A9. unfold reads. rewrite B1, B2, B3, A1, A2, A3. rewrite A6 in Et. assert (TL : tl = 40) by (destruct He as [-> | ->]; apply ok_inj in Et; symmetry; exact Et). subst tl.
  split; [destruct He as [-> | ->]; reflexivity|]. split; [reflexivity|]. split; [reflexivity|]. split; [exact HT|]. destruct He as [-> | ->]; repeat split; reflexivity.
Qed.
