(** The torque controller of the example cascade of synchronous motors: bounded references and
    the meaning of a reset.  Properties C184-C186.  Source: examples/classic_controllers/
    controllers/torque_to_current_conversion.py. *)
From Coq Require Import ZArith Lra Lia.
From Verif Require Import PyBaseFacts PyDictFacts Transform_Model Transform_Proofs Motor_Model Conv_Model Wrap_Model Ctl_Model Ctl_Model2 Ctl_Spec Ctl_Proofs Ctl_Proofs2 Ctl_Props Emf_Props Ops_Model Ops_Proofs Ops_Props Ops_Props2 Ops_Props3 Ops_Props4 Ops_Model2 Ops_Proofs2 Ops_Props6 Ops_Props7 Ops_Props8 Ex_Model4.
Local Open Scope string_scope.
Local Open Scope list_scope.
Local Open Scope R_scope.

(** ** C184: the references are bounded by the nominal currents *)
Definition within (x : nan) (b : R) : Prop := match x with None => True | Some v => Rabs v <= b end.
Lemma ttc_norm_within x nom lim : 0 <= nom -> 0 < lim -> within (ttc_norm x nom lim) (nom / lim).
Proof.
  intros Hn Hl. destruct x as [v|]; cbn [ttc_norm within]; [|exact Logic.I]. pose proof (np_clip_both v (- nom) nom ltac:(lra)) as B. unfold Rdiv. rewrite Rabs_mult, (Rabs_pos_eq (/ lim)) by (apply Rlt_le, Rinv_0_lt_compat; exact Hl). apply Rmult_le_compat_r; [apply Rlt_le, Rinv_0_lt_compat; exact Hl|]. unfold Rabs. destruct (Rcase_abs _); lra.
Qed.
(** Whatever the tables, the root finder, the state of the modulation controller and the torque:
    the references never ask for more than the nominal currents. *)
Theorem ttc_references_nominal :
  forall roots tab o m h nd nq ld lq, item (fp_nom (q_f o)) (fp_isd (q_f o)) = Ok nd -> item (fp_nom (q_f o)) (fp_isq (q_f o)) = Ok nq -> item (fp_lim (q_f o)) (fp_isd (q_f o)) = Ok ld -> item (fp_lim (q_f o)) (fp_isq (q_f o)) = Ok lq ->
  0 <= nd <= ld -> 0 <= nq <= lq -> 0 < ld -> 0 < lq ->
  forall iq id, In (Ok (iq, id)) (ttc_runs roots tab o m h) -> within iq (nq / lq) /\ within id (nd / ld) /\ within iq 1 /\ within id 1.
Proof.
  intros roots tab o m h nd nq ld lq E1 E2 E3 E4 Hd Hq Pd Pq. assert (S : forall b, forall c, b <= c -> forall x, within x b -> within x c) by (intros b c H x; destruct x as [v|]; cbn [within]; [lra|auto]).
  assert (D1 : nd / ld <= 1) by (rewrite <- (Rinv_r ld) by lra; apply Rmult_le_compat_r; [apply Rlt_le, Rinv_0_lt_compat; exact Pd|lra]). assert (D2 : nq / lq <= 1) by (rewrite <- (Rinv_r lq) by lra; apply Rmult_le_compat_r; [apply Rlt_le, Rinv_0_lt_compat; exact Pq|lra]).
  revert m. induction h as [|[x t] h IH]; intros m iq id H; [destruct H|]. cbn [ttc_runs] in H. destruct (ttc_control roots tab o m x t) as [m' out] eqn:E. destruct H as [->|H]; [|exact (IH m' iq id H)].
  unfold ttc_control in E. destruct (ttc_currents roots tab o m x t) as [m1 y]. apply pair_equal_spec in E. destruct E as [_ E]. apply bind_ok in E. destruct E as (z & _ & E). apply bind_ok in E. destruct E as (dq & _ & E). rewrite E2, E4, E1, E3 in E. cbn [bind] in E. apply ok_inj in E. apply pair_equal_spec in E. destruct E as [<- <-].
  pose proof (ttc_norm_within (snd dq) nq lq ltac:(lra) Pq) as W1. pose proof (ttc_norm_within (fst dq) nd ld ltac:(lra) Pd) as W2. repeat split; try assumption; [apply (S _ _ D2 _ W1)|apply (S _ _ D1 _ W2)].
Qed.
Print Assumptions ttc_references_nominal.

(** ** C185: what a reset does *)
(** Two states that a caller cannot tell apart: only [limited] may differ, and only while
    [integrated] has its reset value. *)
Definition alike (f : fpar) (m1 m2 : fmod) : Prop := m1 = m2 \/ (fm_int m1 = Some (fp_reset f) /\ fm_int m2 = Some (fp_reset f)).
Lemma modulation_alike f m1 m2 s : alike f m1 m2 -> alike f (fst (modulation f m1 s)) (fst (modulation f m2 s)) /\ snd (modulation f m1 s) = snd (modulation f m2 s).
Proof.
  intros [->|[H1 H2]]; [split; [left; reflexivity|reflexivity]|]. unfold modulation. destruct (do usd <- item s (fp_usd f); do usq <- item s (fp_usq f); do w <- item s (fp_om f); Ok (usd, usq, w)) as [[[usd usq] w]|er]; [|split; [right; split; assumption|reflexivity]]. cbn zeta. rewrite H1, H2. set (b := rlt _ _). assert (X : (if b then Some (fp_reset f) else Some (fp_reset f)) = Some (fp_reset f)) by (destruct b; reflexivity). rewrite X. clear X b.
  match goal with |- context [if ?b then _ else _] => match b with (_ && _)%bool => destruct b end end; cbn [fst snd].
  - split; [|reflexivity]. left. destruct (fm_limited m1), (fm_limited m2); reflexivity.
  - split; [left; reflexivity|reflexivity].
Qed.
Lemma control_alike roots tab o m1 m2 x t : alike (q_f o) m1 m2 -> alike (q_f o) (fst (ttc_control roots tab o m1 x t)) (fst (ttc_control roots tab o m2 x t)) /\ snd (ttc_control roots tab o m1 x t) = snd (ttc_control roots tab o m2 x t).
Proof.
  intros H. assert (C : alike (q_f o) (fst (ttc_currents roots tab o m1 x t)) (fst (ttc_currents roots tab o m2 x t)) /\ snd (ttc_currents roots tab o m1 x t) = snd (ttc_currents roots tab o m2 x t)).
  { unfold ttc_currents. destruct (modulation_alike (q_f o) m1 m2 (denorm (fp_lim (q_f o)) x) H) as [A B]. destruct tab as [l|]; [unfold pmsm_select_lut|unfold pmsm_select]; cbn [item nth_error bind]; (destruct (np_at (q_mtpc o) (t_idx_mtpc o t)) as [row|er]; cbn [bind]; [|split; [exact H|reflexivity]]); destruct (modulation (q_f o) m1 (denorm (fp_lim (q_f o)) x)) as [m1' p1]; destruct (modulation (q_f o) m2 (denorm (fp_lim (q_f o)) x)) as [m2' p2]; cbn [fst snd] in *; subst p2; split; try exact A; reflexivity. }
  unfold ttc_control. destruct (ttc_currents roots tab o m1 x t) as [m1' o1]. destruct (ttc_currents roots tab o m2 x t) as [m2' o2]. cbn [fst snd] in *. destruct C as [A B]. subst o2. split; [exact A|reflexivity].
Qed.
(** After a reset nothing of the past is visible: although [limited] is kept, any two
    controllers give the same answers to all further calls. *)
Theorem ttc_reset_forgets_history :
  forall roots tab o m1 m2 h1 h2 h, ttc_runs roots tab o (ttc_reset (q_f o) (ttc_after roots tab o m1 h1)) h = ttc_runs roots tab o (ttc_reset (q_f o) (ttc_after roots tab o m2 h2)) h.
Proof.
  intros roots tab o m1 m2 h1 h2 h. assert (A : alike (q_f o) (ttc_reset (q_f o) (ttc_after roots tab o m1 h1)) (ttc_reset (q_f o) (ttc_after roots tab o m2 h2))) by (right; split; reflexivity). revert A. generalize (ttc_reset (q_f o) (ttc_after roots tab o m1 h1)) (ttc_reset (q_f o) (ttc_after roots tab o m2 h2)). induction h as [|[x t] h IH]; intros a b A; [reflexivity|]. cbn [ttc_runs]. destruct (control_alike roots tab o a b x t A) as [A' B]. destruct (ttc_control roots tab o a x t) as [a' oa]. destruct (ttc_control roots tab o b x t) as [b' ob]. cbn [fst snd] in *. subst ob. rewrite (IH a' b' A'). reflexivity.
Qed.
Print Assumptions ttc_reset_forgets_history.
(** But a reset controller is not a new one: [integrated] starts at 0 and is reset to a hundredth
    of the lower flux limit.  Unless the flux correction is limited or the modulation is too
    high, the flux limits of the first call differ by the gain times that value. *)
Definition correction (f : fpar) (usd usq w i : R) : R := fp_gain f / (2 * Rmax (Rabs w) (1 / 10000) * fp_p f / fp_udc f) * ((fp_k f * fp_amax f - 2 * sqrt (usd * usd + usq * usq) / fp_udc f) * fp_tau f + i).
Theorem ttc_reset_is_new_refuted :
  forall e nom f s usd usq w, ttc_par e nom = Ok f -> reads f s usd usq w -> 2 * sqrt (usd * usd + usq * usq) / fp_udc f <= 11 / 10 * fp_amax f ->
  fp_low f <= correction f usd usq w 0 <= fp_high f -> fp_low f <= correction f usd usq w (fp_reset f) <= fp_high f -> 0 < fp_high f -> 0 < fp_p f -> 0 < fp_udc f -> fp_gain f <> 0 ->
  exists m1 m2 p1 p2, modulation f ttc_new s = (m1, Ok p1) /\ modulation f (ttc_reset f ttc_new) s = (m2, Ok p2) /\ p1 <> p2 /\ fm_int m1 <> fm_int m2.
Proof.
  intros e nom f s usd usq w HF HR HA H1 H2 HH HP HU HG. assert (FR : fp_reset f = 1 / 100 * - fp_high f). { unfold ttc_par in HF. repeat (apply bind_ok in HF; destruct HF as (? & _ & HF)). apply ok_inj in HF. subst f. reflexivity. }
  rewrite (modulation_eq f ttc_new s usd usq w HR), (modulation_eq f (ttc_reset f ttc_new) s usd usq w HR). cbn zeta. unfold modulation_at. destruct (rltP (11 / 10 * fp_amax f) (2 * sqrt (usd * usd + usq * usq) / fp_udc f)) as [N|_]; [lra|]. cbn [ttc_new ttc_reset fm_int fm_limited]. fold (correction f usd usq w 0). fold (correction f usd usq w (fp_reset f)).
  destruct (rleP (fp_low f) (correction f usd usq w 0)) as [_|N]; [|lra]. destruct (rleP (correction f usd usq w 0) (fp_high f)) as [_|N]; [|lra]. destruct (rleP (fp_low f) (correction f usd usq w (fp_reset f))) as [_|N]; [|lra]. destruct (rleP (correction f usd usq w (fp_reset f)) (fp_high f)) as [_|N]; [|lra]. cbn [andb]. do 4 eexists. split; [reflexivity|]. split; [reflexivity|]. cbn [fm_int]. split.
  - intros X. assert (Y : correction f usd usq w 0 - correction f usd usq w (fp_reset f) = 0) by lra. unfold correction in Y. set (g := fp_gain f / _) in Y. assert (Z : g * fp_reset f = 0) by lra. apply Rmult_integral in Z. destruct Z as [Z|Z]; [|rewrite FR in Z; lra]. unfold g, Rdiv in Z. assert (W : 0 < Rmax (Rabs w) (1 * / 10000)) by (eapply Rlt_le_trans; [|apply Rmax_r]; lra). assert (K : 0 < 2 * Rmax (Rabs w) (1 * / 10000) * fp_p f * / fp_udc f) by (repeat apply Rmult_lt_0_compat; try lra; apply Rinv_0_lt_compat; exact HU). apply Rmult_integral in Z. destruct Z as [Z|Z]; [contradiction|]. pose proof (Rinv_0_lt_compat _ K). lra.
  - intros X. apply some_inj in X. rewrite FR in X. lra.
Qed.
Print Assumptions ttc_reset_is_new_refuted.
(** ** The hypotheses are met *)
Definition ttc_nom : list R := [300; 30; 80; 80; 60; 60; 60; 60; 60; 4; 60].
Definition ttc_state : list R := [100; 0; 0; 0; 0; 0; 0; 0; 0; 0; 60].
Lemma alpha_gain : 0 < (foc_alpha (12 / 10) - 1) / (foc_alpha (12 / 10) * foc_alpha (12 / 10)) <= 1 / 4.
Proof.
  assert (A : 1 < foc_alpha (12 / 10)). { unfold foc_alpha. match goal with |- context [sqrt ?z] => assert (Q0 : 0 < sqrt z) by (apply sqrt_lt_R0; lra); assert (Q1 : sqrt z < sqrt (12 / 10 * (12 / 10))) by (apply sqrt_lt_1; lra); rewrite sqrt_square in Q1 by lra; set (q := sqrt z) in * end. clearbody q. apply Rmult_lt_reg_r with (12 / 10 - q); [lra|]. match goal with |- _ < ?u / ?v * ?w => replace (u / v * w) with u by (field; lra) end. lra. }
  set (a := foc_alpha (12 / 10)) in *. assert (P : 0 < a * a) by (apply Rmult_lt_0_compat; lra). split; [apply Rdiv_lt_0_compat; lra|]. apply Rmult_le_reg_r with (a * a); [exact P|]. unfold Rdiv at 1. rewrite Rmult_assoc, Rinv_l by lra. pose proof (Rle_0_sqr (a - 2)) as X. unfold Rsqr in X. lra.
Qed.
Example ttc_reset_example : exists f, ttc_par pmsm_env ttc_nom = Ok f /\ reads f ttc_state 0 0 100 /\ 2 * sqrt (0 * 0 + 0 * 0) / fp_udc f <= 11 / 10 * fp_amax f /\
  fp_low f <= correction f 0 0 100 0 <= fp_high f /\ fp_low f <= correction f 0 0 100 (fp_reset f) <= fp_high f /\ 0 < fp_high f /\ 0 < fp_p f /\ 0 < fp_udc f /\ fp_gain f <> 0.
Proof.
  eexists. split; [reflexivity|]. unfold correction. cbn [fp_om fp_usd fp_usq fp_p fp_tau fp_udc fp_amax fp_k fp_gain fp_low fp_high fp_reset]. cbn [pmsm_env ce_tau]. match goal with |- context [match ?d with Some x => x | None => 0 end] => change (match d with Some x => x | None => 0 end) with (1 / 15) end. split; [repeat split|]. pose proof alpha_gain as G. set (al := foc_alpha (12 / 10)) in *. set (k := (al - 1) / (al * al)) in *.
  assert (S3 : 1 < sqrt 3 < 2). { split; [rewrite <- sqrt_1 at 1; apply sqrt_lt_1; lra|]. replace 2 with (sqrt (2 * 2)) at 1 by (apply sqrt_square; lra). apply sqrt_lt_1; lra. }
  set (s3 := sqrt 3) in *. replace (0 * 0 + 0 * 0) with 0 by ring. rewrite sqrt_0. rewrite (Rabs_pos_eq 100) by lra. rewrite Rmax_left by lra.
  match goal with |- context [2 / 10 * sqrt ?z] => set (h := 2 / 10 * sqrt z); assert (H : 16 / 1000 <= h <= 4 / 100) end.
  { unfold h. match goal with |- context [sqrt ?z] => assert (A : sqrt (8 / 100 * (8 / 100)) <= sqrt z) by (apply sqrt_le_1; lra); assert (B : sqrt z <= sqrt (2 / 10 * (2 / 10))) by (apply sqrt_le_1; lra) end. rewrite sqrt_square in A by lra. rewrite sqrt_square in B by lra. lra. }
  clearbody h. replace (1 / (1 / 1000 / (125 / 100 * (1 / 50))) * (al - 1) / (al * al)) with (25 * k) by (unfold k, Rdiv; field; intros Z; unfold k in G; rewrite Z in G; unfold Rdiv in G; rewrite Rmult_0_l, Rinv_0, Rmult_0_r in G; lra). clearbody k.
  assert (I3 : 0 < / s3 <= 1) by (split; [apply Rinv_0_lt_compat; lra|rewrite <- Rinv_1; apply Rinv_le_contravar; lra]). 
  replace (25 * k / (2 * 100 * 3 / (s3 * 60))) with (25 * k * s3 / 10) by (field; lra). replace (2 * 0 / (s3 * 60)) with 0 by (field; lra). unfold Rdiv. set (i3 := / s3) in *. clearbody i3.
  set (g := 25 * k * s3 * / 10). assert (KS : 0 < k * s3 <= 1 / 2) by (split; [apply Rmult_lt_0_compat; lra|replace (1 / 2) with (1 / 4 * 2) by lra; apply Rmult_le_compat; lra]). assert (GB : 0 < g <= 125 / 100) by (unfold g; lra). clearbody g.
  set (x := (95 * / 100 * (2 * i3) - 0) * (1 * / 10000)). assert (X : 0 < x <= 2 / 10000) by (unfold x; lra). clearbody x.
  assert (M : forall y, - (5 / 10000) <= y <= 5 / 10000 -> - h <= g * y <= h). { intros y Y. assert (B : Rabs (g * y) <= 125 / 100 * (5 / 10000)). { rewrite Rabs_mult. apply Rmult_le_compat; try apply Rabs_pos; [rewrite Rabs_pos_eq; lra|unfold Rabs; destruct (Rcase_abs y); lra]. } unfold Rabs in B. destruct (Rcase_abs (g * y)); lra. }
  split; [lra|]. split; [apply M; lra|]. split; [apply M; lra|]. repeat split; lra.
Qed.
(** A controller with these parameters and flat tables answers. *)
Definition flat_row : prow := {| pr_t := 50; pr_d := -10; pr_q := 20; pr_psi := 1 / 10 |}.
Example ttc_control_example : forall f, ttc_par pmsm_env ttc_nom = Ok f -> exists o, q_f o = f /\ item (fp_nom f) (fp_isd f) = Ok 80 /\ item (fp_nom f) (fp_isq f) = Ok 80 /\ item (fp_lim f) (fp_isd f) = Ok 100 /\ item (fp_lim f) (fp_isq f) = Ok 100 /\
  exists d q, In (Ok (Some q, Some d)) (ttc_runs (fun _ => [0]) None o ttc_new [(ttc_state, 1)]).
Proof.
  intros f HF. set (o := {| q_f := f; q_c := {| pc_ld := 3 / 10000; pc_lq := 1 / 1000; pc_psi := 1 / 15; pc_p := 3 |}; q_inv := 1; q_maxt := 1; q_mtpc := repeat flat_row 250; q_mtpf := repeat flat_row 499; q_psimax := 1 |}). exists o. split; [reflexivity|].
  assert (FF := HF). unfold ttc_par in FF. cbn [pmsm_env ce_par ce_names ce_limits ce_tau] in FF. apply ok_inj in FF. assert (LS : fp_nom f = ttc_nom /\ fp_lim f = ce_limits pmsm_env /\ fp_isd f = 2%nat /\ fp_isq f = 3%nat /\ fp_usd f = 7%nat /\ fp_usq f = 8%nat /\ fp_om f = 0%nat) by (rewrite <- FF; repeat split). destruct LS as (L1 & L2 & L3 & L4 & L5 & L6 & L7). clear FF. rewrite L1, L2, L3, L4. repeat (split; [reflexivity|]).
  assert (AT : forall n z, (0 <= z < Z.of_nat n)%Z -> np_at (repeat flat_row n) z = Ok flat_row). { intros n z Hz. destruct (np_at_ok (repeat flat_row n) z) as (row & E & N); [rewrite repeat_length; exact Hz|]. rewrite E. f_equal. apply nth_error_In in N. apply repeat_spec in N. exact N. }
  assert (RD : reads f (denorm (fp_lim f) ttc_state) (0 * 60) (0 * 60) (100 * 400)) by (unfold reads; rewrite L2, L5, L6, L7; repeat split).
  destruct (modulation_some f ttc_new (denorm (fp_lim f) ttc_state) 0 (0 * 60) (0 * 60) (100 * 400) RD eq_refl) as (m1 & v & i' & EM & _).
  cbn [ttc_runs]. unfold ttc_control, ttc_currents, pmsm_select. change (q_f o) with f. change (q_mtpc o) with (repeat flat_row 250). change (q_mtpf o) with (repeat flat_row 499). cbn [item nth_error bind].
  rewrite (AT 250%nat (t_idx_mtpc o 1)); [|unfold t_idx_mtpc, z_clip; change (q_maxt o) with 1; pose proof (py_round_range ((1 + 1) / (2 * 1) * INR (pm_t_count - 1)) 249) as PR; replace (INR 249) with (INR (pm_t_count - 1)) in PR by reflexivity; assert (0 <= INR (pm_t_count - 1)) by apply pos_INR; specialize (PR ltac:(lra)); unfold pm_t_count in *; lia]. cbn [bind]. rewrite EM. cbn [bind]. cbn zeta. rewrite AT by (unfold psi_idx_mtpf, z_clip, pm_psi_count; lia). cbn [bind].
  unfold get_i_d_q, solve_analytical. cbn [np_at bind]. change (np_at [0] (-1)) with (@Ok R 0). cbn [bind fst snd]. rewrite L1, L2, L3, L4. cbn [ttc_nom pmsm_env ce_limits].
  match goal with |- context [q_inv o * snd ?y] => generalize (fst y) (q_inv o * snd y) end. intros d q. cbn. do 2 eexists. left. reflexivity.
Qed.

(** ** C186: the controller of the example is the selection of the library *)
(** the physical state [p] of the normalised state [s] *)
Definition physical (lim s p : list R) : Prop := length s = length lim /\ length p = length lim /\ forall k, (k < length lim)%nat -> nth k p 0 = nth k s 0 * nth k lim 0.
(** [v] is [x] moved into the band of the nominal value, over the limit *)
Definition banded (nom lim : R) (x v : nan) : Prop :=
  match x, v with
  | None, None => True
  | Some a, Some b => exists c, b = c / lim /\ (- nom <= a <= nom -> c = a) /\ (nom < a -> c = nom) /\ (a < - nom -> c = - nom)
  | _, _ => False
  end.
Definition same_answer (nd nq ld lq : R) (a : res (list nan)) (b : res (nan * nan)) : Prop :=
  match a with
  | Err e => b = Err e
  | Ok y => exists d q vd vq, y = [d; q] /\ b = Ok (vq, vd) /\ banded nd ld d vd /\ banded nq lq q vq
  end.
Lemma physical_denorm lim s p : physical lim s p -> denorm lim s = p.
Proof.
  intros (L1 & L2 & H). unfold denorm. apply nth_ext with (d := 0) (d' := 0); [rewrite Ctl_Proofs.map2_len by exact L1; congruence|]. intros k Hk. rewrite Ctl_Proofs.map2_len in Hk by exact L1. rewrite map2_nth by assumption. rewrite H by congruence. reflexivity.
Qed.
Lemma ttc_norm_banded nom lim x : 0 <= nom -> banded nom lim x (ttc_norm x nom lim).
Proof.
  intros N. destruct x as [a|]; cbn [ttc_norm banded]; [|exact Logic.I]. exists (np_clip a (- nom) nom). split; [reflexivity|]. unfold np_clip. repeat split; intros H.
  - rewrite Rmax_left, Rmin_left by lra. reflexivity.
  - rewrite Rmax_left, Rmin_right by lra. reflexivity.
  - rewrite Rmax_right, Rmin_left by lra. reflexivity.
Qed.
Lemma select_two roots o m x r m' y : pmsm_select roots o m x r = (m', Ok y) -> exists d q, y = [d; q].
Proof.
  unfold pmsm_select. destruct (do r0 <- item r 0; do row <- np_at (q_mtpc o) (t_idx_mtpc o r0); Ok (r0, row)) as [[r0 row]|e]; [|intros H; apply pair_equal_spec in H; destruct H; discriminate]. destruct (modulation (q_f o) m x) as [m1 pm]. intros H. apply pair_equal_spec in H. destruct H as [_ H]. apply bind_ok in H. destruct H as (pmx & _ & H). apply bind_ok in H. destruct H as (rf & _ & H). apply bind_ok in H. destruct H as (z & _ & H). apply ok_inj in H. subst y. eauto.
Qed.
Lemma select_lut_two l o m x r m' y : pmsm_select_lut l o m x r = (m', Ok y) -> exists d q, y = [d; q].
Proof.
  unfold pmsm_select_lut. destruct (do r0 <- item r 0; do row <- np_at (q_mtpc o) (t_idx_mtpc o r0); Ok (r0, row)) as [[r0 row]|e]; [|intros H; apply pair_equal_spec in H; destruct H; discriminate]. destruct (modulation (q_f o) m x) as [m1 pm]. intros H. apply pair_equal_spec in H. destruct H as [_ H]. apply bind_ok in H. destruct H as (pmx & _ & H). apply bind_ok in H. destruct H as (rf & _ & H). apply bind_ok in H. destruct H as (z & _ & H). apply ok_inj in H. subst y. eauto.
Qed.
(** Driven with normalised states, the controller of the example answers what the operating point
    selection of the library, driven with the physical states, answers: moved into the band of the
    nominal currents and normalised.  It raises the same exceptions.  In all three modes and over
    whole histories. *)
Theorem ttc_refines_selection :
  forall roots tab o nd nq ld lq, item (fp_nom (q_f o)) (fp_isd (q_f o)) = Ok nd -> item (fp_nom (q_f o)) (fp_isq (q_f o)) = Ok nq -> item (fp_lim (q_f o)) (fp_isd (q_f o)) = Ok ld -> item (fp_lim (q_f o)) (fp_isq (q_f o)) = Ok lq ->
  0 <= nd -> 0 <= nq -> forall h hp m, Forall2 (fun x p => physical (fp_lim (q_f o)) (fst x) (fst p) /\ snd p = [snd x]) h hp ->
  Forall2 (same_answer nd nq ld lq)
    match tab with Some l => lut_runs l o m hp | None => map (fun a => do y <- a; Ok (map Some y)) (sync_runs roots o m hp) end
    (ttc_runs roots tab o m h).
Proof.
  intros roots tab o nd nq ld lq E1 E2 E3 E4 Hd Hq h hp m H. revert m. induction H as [|[x t] [p r] h hp [HP HR] H IH]; intros m; [destruct tab; constructor|]. cbn [fst snd] in HP, HR. subst r. apply physical_denorm in HP. cbn [ttc_runs]. unfold ttc_control, ttc_currents. rewrite HP.
  destruct tab as [l|].
  - cbn [lut_runs]. destruct (pmsm_select_lut l o m p [t]) as [m' [y|e]] eqn:E; constructor; try apply IH; cbn [same_answer bind]; [|reflexivity]. destruct (select_lut_two _ _ _ _ _ _ _ E) as (d & q & ->). rewrite E1, E2, E3, E4. cbn [bind fst snd]. exists d, q. do 2 eexists. split; [reflexivity|]. split; [reflexivity|]. split; apply ttc_norm_banded; assumption.
  - cbn [sync_runs]. destruct (pmsm_select roots o m p [t]) as [m' [y|e]] eqn:E; cbn [map]; constructor; try apply IH; cbn [same_answer bind]; [|reflexivity]. destruct (select_two _ _ _ _ _ _ _ E) as (d & q & ->). cbn [map]. rewrite E1, E2, E3, E4. cbn [bind fst snd]. exists (Some d), (Some q). do 2 eexists. split; [reflexivity|]. split; [reflexivity|]. split; apply ttc_norm_banded; assumption.
Qed.
Print Assumptions ttc_refines_selection.
Example physical_example : physical (ce_limits pmsm_env) ttc_state [40000; 0; 0; 0; 0; 0; 0; 0; 0; 0; 3600].
Proof. split; [reflexivity|]. split; [reflexivity|]. cbn. intros k Hk. do 11 (destruct k as [|k]; [cbn; lra|]). lia. Qed.
