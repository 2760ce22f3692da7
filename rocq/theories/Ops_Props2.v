(** C74: operation point selection of the induction motor. *)
From Verif Require Import PyBaseFacts PyDictFacts Transform_Model Transform_Proofs Motor_Model Conv_Model Wrap_Model Ctl_Model Ctl_Model2 Ctl_Spec Ctl_Proofs Ctl_Proofs2 Ctl_Props Emf_Props Ops_Model Ops_Proofs Ops_Props.
From Coq Require Import ZArith Lra Lia.
Local Open Scope string_scope. Local Open Scope list_scope. Local Open Scope R_scope.

Lemma ok_inj {A} (a b : A) : Ok a = Ok b -> a = b.
Proof. intros H. congruence. Qed.
(** A tuned flux controller, reset at least once. *)
Definition fctl_ok (fc : fctl) : Prop := exists p i v t, b_p (fc_b fc) = [p] /\ b_i (fc_b fc) = [i] /\ b_int (fc_b fc) = [v] /\ b_tau (fc_b fc) = Some t /\ b_idx (fc_b fc) = Some [0%nat] /\ fc_ready fc = true.
(** A tuned stage: table sizes and a positive torque and flux range. *)
Definition scim_ok (s : scim) : Prop :=
  length (s_opt s) = 1001%nat /\ length (s_tab s) = 2000%nat /\ s_tmin s < s_tmax s /\ 0 < s_psimax s /\ 0 <= fp_dlim (s_f s) /\ 0 <= fp_qlim (s_f s).
(** What the stage reads of a state. *)
Definition scim_state (s : scim) (x : list R) : Prop := (exists usd usq w, reads (s_f s) x usd usq w) /\ exists psi, item x (s_abs s) = Ok psi.

Lemma fctl_pi fc psi r : fctl_ok fc -> exists u, pi_control (fc_b fc) [psi] [r] = Ok [u].
Proof. intros (p & i & v & t & A & B & C & D & E & F). unfold pi_control, base_states. rewrite E. cbn [select nth_error bind]. unfold p_part, i_part. rewrite A, B, C. eexists. reflexivity. Qed.
Lemma fctl_int fc psi r : fctl_ok fc -> exists fc', fctl_integrate fc [psi] [r] = (fc', Ok tt) /\ fctl_ok fc'.
Proof.
  intros (p & i & v & t & A & B & C & D & E & F). unfold fctl_integrate. rewrite D, F, C. cbn. eexists. split; [reflexivity|]. exists p, i, (v + (r - psi) * t), t. cbn. repeat split; assumption || reflexivity.
Qed.
Lemma get_psi_opt_ok s r : scim_ok s -> exists k, get_psi_opt s r = Ok k /\ (0 <= k < 1001)%Z.
Proof.
  intros (_ & _ & Ht & _). unfold get_psi_opt. destruct (reqP (s_tmax s - s_tmin s) 0) as [Z|_]; [lra|]. eexists. split; [reflexivity|].
  pose proof (np_clip_both r (s_tmin s) (s_tmax s) ltac:(lra)) as C. set (c := np_clip _ _ _) in *. assert (X : (0 <= py_round ((c - s_tmin s) / (s_tmax s - s_tmin s) * INR (scim_t_count - 1)) <= Z.of_nat (scim_t_count - 1))%Z).
  { apply py_round_range. assert (Hn : 0 <= INR (scim_t_count - 1)) by apply pos_INR. assert (Hq : 0 <= (c - s_tmin s) / (s_tmax s - s_tmin s) <= 1). { assert (I : 0 < / (s_tmax s - s_tmin s)) by (apply Rinv_0_lt_compat; lra). split; [apply Rmult_le_pos; lra|]. unfold Rdiv. rewrite <- (Rinv_r (s_tmax s - s_tmin s)) by lra. apply Rmult_le_compat_r; lra. }
    split; [apply Rmult_le_pos; lra|]. rewrite <- (Rmult_1_l (INR (scim_t_count - 1))) at 2. apply Rmult_le_compat_r; lra. }
  unfold scim_t_count in *. lia.
Qed.
Lemma get_t_max_ok s psi : scim_ok s -> exists g, get_t_max s psi = Ok (Z.of_nat g) /\ (g <= 999)%nat.
Proof.
  intros (_ & _ & _ & Hp & _). unfold get_t_max. destruct (reqP (s_psimax s) 0) as [Z|_]; [lra|].
  pose proof (np_clip_both psi 0 (s_psimax s) ltac:(lra)) as C. set (c := np_clip _ _ _) in *. assert (X : (0 <= py_round (c / s_psimax s * INR (scim_psi_count - 1)) <= Z.of_nat (scim_psi_count - 1))%Z).
  { apply py_round_range. assert (Hn : 0 <= INR (scim_psi_count - 1)) by apply pos_INR. assert (Hq : 0 <= c / s_psimax s <= 1). { assert (I : 0 < / s_psimax s) by (apply Rinv_0_lt_compat; lra). split; [apply Rmult_le_pos; lra|]. unfold Rdiv. rewrite <- (Rinv_r (s_psimax s)) by lra. apply Rmult_le_compat_r; lra. }
    split; [apply Rmult_le_pos; lra|]. rewrite <- (Rmult_1_l (INR (scim_psi_count - 1))) at 2. apply Rmult_le_compat_r; lra. }
  exists (Z.to_nat (py_round (c / s_psimax s * INR (scim_psi_count - 1)))). split; [rewrite Z2Nat.id by lia; reflexivity|]. unfold scim_psi_count in *. lia.
Qed.
Lemma modulation_ok f m x i : (exists usd usq w, reads f x usd usq w) -> fm_int m = Some i -> exists psi j, snd (modulation f m x) = Ok psi /\ fm_int (fst (modulation f m x)) = Some j.
Proof.
  intros (usd & usq & w & Hr) Hi. rewrite (modulation_eq f m x usd usq w Hr). cbn zeta. rewrite Hi. destruct (rlt _ _); match goal with |- context [if ?c then _ else _] => destruct c end; do 2 eexists; split; reflexivity.
Qed.

(** One call: it returns two references, keeps the invariant, and d stays in its limit. *)
Lemma scim_select_step s m fc x r rest i : scim_ok s -> fctl_ok fc -> fm_int m = Some i -> scim_state s x ->
  exists m' fc' j d tm psi, scim_select s m fc x (r :: rest) = ((m', fc'), Ok [Some d; scim_currents s (match tm with None => None | Some t => Some (np_clip r (- Rabs t) (Rabs t)) end) psi d]) /\
  fm_int m' = Some j /\ fctl_ok fc' /\ - fp_dlim (s_f s) <= d <= fp_dlim (s_f s) /\ (exists g k row pm, (g <= 999)%nat /\ np_at (s_tab s) (Z.of_nat scim_psi_count - Z.of_nat g) = Ok tm /\ get_psi_opt s r = Ok k /\ np_at (s_opt s) k = Ok row /\ snd (modulation (s_f s) m x) = Ok pm /\ get_t_max s (Rmin (sr_psi row) pm) = Ok (Z.of_nat g)) /\ item x (s_abs s) = Ok psi.
Proof.
  intros Hs Hf Hi (Hm & psi & Hp). destruct Hs as (L1 & L2 & Ht & Hpm & Hd & Hq). assert (Hs : scim_ok s) by (repeat split; assumption).
  unfold scim_select. rewrite Hp. cbn [bind item nth_error]. destruct (get_psi_opt_ok s r Hs) as (k & Ek & Hk). rewrite Ek. cbn [bind]. destruct (np_at_ok (s_opt s) k ltac:(rewrite L1; lia)) as (row & Er & _). rewrite Er. cbn [bind].
  destruct (modulation_ok (s_f s) m x i Hm Hi) as (pm & j & E1 & E2). destruct (modulation (s_f s) m x) as [m1 rm]. cbn [fst snd] in E1, E2. subst rm. cbn [bind].
  destruct (get_t_max_ok s (Rmin (sr_psi row) pm) Hs) as (g & Eg & Hg). rewrite Eg. cbn [bind]. destruct (np_at_ok (s_tab s) (Z.of_nat scim_psi_count - Z.of_nat g) ltac:(rewrite L2; unfold scim_psi_count; lia)) as (tm & Et & _). rewrite Et. cbn [bind].
  destruct (fctl_pi fc psi (Rmin (sr_psi row) pm) Hf) as (u & Eu). rewrite Eu. cbn [bind].
  pose proof (np_clip_both u (- fp_dlim (s_f s)) (fp_dlim (s_f s)) ltac:(lra)) as HD.
  destruct (req u (np_clip u (- fp_dlim (s_f s)) (fp_dlim (s_f s)))).
  - destruct (fctl_int fc psi (Rmin (sr_psi row) pm) Hf) as (fc' & Ei & Hf'). rewrite Ei. cbn [bind]. exists m1, fc', j, (np_clip u (- fp_dlim (s_f s)) (fp_dlim (s_f s))), tm, psi. repeat (split; [first [reflexivity|assumption]|]). split; [exists g, k, row, pm; repeat (split; [first [reflexivity|assumption]|]); first [reflexivity|assumption]|first [reflexivity|assumption]].
  - cbn [bind]. exists m1, fc, j, (np_clip u (- fp_dlim (s_f s)) (fp_dlim (s_f s))), tm, psi. repeat (split; [first [reflexivity|assumption]|]). split; [exists g, k, row, pm; repeat (split; [first [reflexivity|assumption]|]); first [reflexivity|assumption]|first [reflexivity|assumption]].
Qed.

(** The current references of every call of every history stay in the current circle (and q
    in its own limit); a reset and tuned stage never raises. *)
Fixpoint scim_runs (s : scim) (m : fmod) (fc : fctl) (l : list (list R * list R)) : list (res (list nan)) :=
  match l with [] => [] | (x, r) :: rest => let (st, o) := scim_select s m fc x r in o :: scim_runs s (fst st) (snd st) rest end.
Theorem scim_current_circle :
  forall s m fc l i, scim_ok s -> fctl_ok fc -> fm_int m = Some i -> (forall x r, In (x, r) l -> scim_state s x /\ r <> []) ->
  forall o, In o (scim_runs s m fc l) -> exists d q, o = Ok [Some d; q] /\ Rabs d <= fp_dlim (s_f s) /\
  (forall v, q = Some v -> d * d + v * v <= fp_dlim (s_f s) * fp_dlim (s_f s) /\ Rabs v <= fp_qlim (s_f s)).
Proof.
  intros s m fc l i Hs Hf Hi Hl. revert m fc i Hf Hi. induction l as [|[x r] l IH]; intros m fc i Hf Hi o Ho; [destruct Ho|].
  destruct (Hl x r (or_introl eq_refl)) as [Hx Hr]. destruct r as [|r0 rest]; [congruence|].
  destruct (scim_select_step s m fc x r0 rest i Hs Hf Hi Hx) as (m' & fc' & j & d & tm & psi & E & Hj & Hf' & HD & _ & _). cbn [scim_runs] in Ho. rewrite E in Ho. destruct Ho as [<-|Ho].
  - eexists. eexists. split; [reflexivity|]. split; [unfold Rabs; destruct (Rcase_abs d); lra|]. intros v Hv. destruct Hs as (_ & _ & _ & _ & Hd & Hq). exact (scim_currents_circle s _ psi d Hd Hq HD v Hv).
  - cbn [fst snd] in Ho. apply (IH ltac:(intros y z Hy; apply Hl; right; exact Hy) m' fc' j Hf' Hj o Ho).
Qed.
Print Assumptions scim_current_circle.

(** What tuning establishes. *)
Lemma scim_tune_inv amax damping old fc e nom id margin s m fc' : scim_tune amax damping old fc e nom id margin = Ok (s, m, fc') ->
  exists f0 un wn il, foc_tune amax old e nom margin = Ok (f0, m) /\ item (ce_limits e) (fp_isd f0) = Ok il /\ item nom (fp_usd f0) = Ok un /\ item nom (fp_om f0) = Ok wn /\
  psi_opt_table (s_c s) il (s_tmin s) (s_tmax s) = Ok (s_opt s) /\ s_tmin s = - s_tmax s /\ np_max (map sr_psi (s_opt s)) = Ok (s_psimax s) /\ s_tab s = t_max_table (s_c s) un wn (s_psimax s) /\
  pi_tune (fc_b fc) e id 4 (Some (sc_ls (s_c s) / sc_rs (s_c s))) = Ok (fc_b fc') /\ fc_ready fc' = fc_ready fc /\
  fp_dlim (s_f s) = fp_dlim f0 /\ fp_qlim (s_f s) = fp_qlim f0 /\ fp_low (s_f s) = - s_psimax s /\ fp_reset (s_f s) = 1 / 2 * - s_psimax s /\ fp_high (s_f s) = 1 / 10 * s_psimax s /\ fp_k (s_f s) = 8 / 10 /\ sc_p (s_c s) = fp_p f0 /\
  s_f s = foc_fill f0 (8 / 10) (1 / (sc_ls (s_c s) / (125 / 100 * sc_rs (s_c s))) * (foc_alpha damping - 1) / (foc_alpha damping * foc_alpha damping)) (- s_psimax s) (1 / 10 * s_psimax s) (1 / 2 * - s_psimax s).
Proof.
  intros H. unfold scim_tune in H. apply bind_ok in H. destruct H as ([f0 m0] & E0 & H). cbn [fst snd] in H. apply bind_ok in H. destruct H as (ab & _ & H). apply bind_ok in H. destruct H as (tl & _ & H). do 5 (apply bind_ok in H; destruct H as (? & _ & H)). cbn zeta in H. apply bind_ok in H. destruct H as (b & Eb & H). apply bind_ok in H. destruct H as (il & Eil & H). apply bind_ok in H. destruct H as (tab & Etab & H). apply bind_ok in H. destruct H as (pm & Epm & H). apply bind_ok in H. destruct H as (un & Eun & H). apply bind_ok in H. destruct H as (wn & Ewn & H).
  injection H as <- <- <-. cbn [s_f s_c s_abs s_tmin s_tmax s_opt s_psimax s_tab sc_ls sc_rs fc_b fc_ready foc_fill fp_dlim fp_qlim fp_low fp_high fp_reset fp_k sc_p]. exists f0, un, wn, il. repeat (split; [first [exact E0|exact Eil|exact Eun|exact Ewn|exact Etab|exact Epm|exact Eb|reflexivity]|]). reflexivity.
Qed.
Lemma scim_tune_sizes amax damping old fc e nom id margin s m fc' : scim_tune amax damping old fc e nom id margin = Ok (s, m, fc') -> length (s_opt s) = 1001%nat /\ length (s_tab s) = 2000%nat.
Proof.
  intros H. destruct (scim_tune_inv _ _ _ _ _ _ _ _ _ _ _ H) as (f0 & un & wn & il & _ & _ & _ & _ & T & _ & _ & TT & _). split.
  - unfold psi_opt_table in T. destruct (mapm_spec _ _ _ T) as [L _]. rewrite L, linspace_length. reflexivity.
  - rewrite TT, t_max_table_length. reflexivity.
Qed.
Lemma scim_tune_fctl amax damping old fc e nom id margin s m fc' : scim_tune amax damping old fc e nom id margin = Ok (s, m, fc') -> b_kind (fc_b fc) = KPI -> b_task (fc_b fc) = FC -> fctl_ok (fctl_reset fc').
Proof.
  intros H K T. destruct (scim_tune_inv _ _ _ _ _ _ _ _ _ _ _ H) as (f0 & un & wn & il & _ & _ & _ & _ & _ & _ & _ & _ & B & _). unfold pi_tune in B. rewrite K, T in B. unfold pi_tune_flux in B. apply (f_equal (fun o => match o with Ok z => z | Err _ => fc_b fc end)) in B. destruct fc' as [b' rd]. cbn [fc_b] in B. subst b'. unfold fctl_ok, fctl_reset, base_reset, has_integrator. cbn [fc_b fc_ready base_gains b_kind]. rewrite K. do 4 eexists. cbn. repeat split; reflexivity.
Qed.
(** Every stage tuned with a positive torque limit and a safety margin of at most 1, and then reset, is covered. *)
Theorem scim_tuned_ready :
  forall amax damping old fc e nom id margin s m fc', scim_tune amax damping old fc e nom id margin = Ok (s, m, fc') -> b_kind (fc_b fc) = KPI -> b_task (fc_b fc) = FC ->
  margin <= 1 -> (forall l, In l (ce_limits e) -> 0 <= l) -> 0 < s_tmax s -> 0 < s_psimax s ->
  scim_ok s /\ fctl_ok (fctl_reset fc') /\ exists i, fm_int (foc_reset (s_f s) m) = Some i.
Proof.
  intros amax damping old fc e nom id margin s m fc' H K T Hm Hl Ht Hp. split; [|split; [exact (scim_tune_fctl _ _ _ _ _ _ _ _ _ _ _ H K T)|eexists; reflexivity]].
  destruct (scim_tune_sizes _ _ _ _ _ _ _ _ _ _ _ H) as [L1 L2]. destruct (scim_tune_inv _ _ _ _ _ _ _ _ _ _ _ H) as (f0 & un & wn & il & E0 & _ & _ & _ & _ & N & _ & _ & _ & _ & D & Q & _).
  split; [exact L1|]. split; [exact L2|]. split; [lra|]. split; [exact Hp|]. unfold foc_tune in E0. do 9 (apply bind_ok in E0; destruct E0 as (? & _ & E0)). apply bind_ok in E0. destruct E0 as (ld & Eld & E0). apply bind_ok in E0. destruct E0 as (lq & Elq & E0). apply bind_ok in E0. destruct E0 as (lu & _ & E0). injection E0 as <- _. cbn [fp_dlim fp_qlim] in D, Q.
  rewrite D, Q. split; apply Rmult_le_pos; try lra; apply Hl; eapply nth_error_In; apply item_nth; eassumption.
Qed.
Print Assumptions scim_tuned_ready.

(** ** Stored optimum one grid step too low *)
(** The table stores, for every torque, a flux one grid step below the one with the least
    losses on the grid, and the stored pair of currents has k/(k+1) of the torque. *)
Theorem flux_table_one_step_low_refuted :
  forall c ilim t, t <> 0 -> 0 < ilim -> 0 < sc_p c -> 0 < sc_lm c -> 0 < sc_lr c ->
  exists row k, psi_opt_row c ilim t = Ok row /\ (k < 499)%nat /\
  let best := INR (S k) * (ilim / 499) in
  (forall j, (1 <= j < 500)%nat -> scim_loss c best (scim_isq c t best) <= scim_loss c (INR j * (ilim / 499)) (scim_isq c t (INR j * (ilim / 499)))) /\
  sr_psi row = sc_lm c * (best - ilim / 499) /\
  3 / 2 * sc_p c * sc_lm c / sc_lr c * (sc_lm c * sr_d row) * sr_q row = t * (INR k / INR (S k)).
Proof.
  intros c ilim t Ht Hi Hp Hm Hr. destruct (psi_opt_row_spec c ilim t Ht) as (row & k & E & Hk & Et & Ed & Ep & Eq & Min). exists row, k. split; [exact E|]. split; [exact Hk|]. cbn zeta. split; [exact Min|]. split.
  - rewrite Ep, S_INR. ring.
  - rewrite Ed, Eq. unfold scim_isq. assert (P : 0 < INR (S k)) by (apply lt_0_INR; lia). field. repeat split; lra.
Qed.
Print Assumptions flux_table_one_step_low_refuted.
(** ** Torque limit looked up at a lower flux *)
(** For a flux with table index g the stage takes the torque limit of the flux (g-1)/999 of the maximum. *)
Theorem torque_limit_one_step_low_refuted :
  forall amax damping old fc e nom id margin s m fc' psi g tm, scim_tune amax damping old fc e nom id margin = Ok (s, m, fc') ->
  get_t_max s psi = Ok (Z.of_nat g) -> (1 <= g <= 999)%nat -> np_at (s_tab s) (Z.of_nat scim_psi_count - Z.of_nat g) = Ok tm ->
  exists un wn, item nom (fp_usd (s_f s)) = Ok un /\ item nom (fp_om (s_f s)) = Ok wn /\ let low := s_psimax s * (INR (g - 1) / 999) in
  tm = match np_sqrt (un * un / (wn * wn * (sc_ls (s_c s) * sc_ls (s_c s))) - low / sc_lm (s_c s) * (low / sc_lm (s_c s))) with None => None | Some q => Some (3 / 2 * sc_p (s_c s) * sc_lm (s_c s) / sc_lr (s_c s) * low * q) end /\
  Rabs (INR g - np_clip psi 0 (s_psimax s) / s_psimax s * 999) <= 1 / 2.
Proof.
  intros amax damping old fc e nom id margin s m fc' psi g tm H Eg Hg Et. destruct (scim_tune_inv _ _ _ _ _ _ _ _ _ _ _ H) as (f0 & un & wn & il & _ & _ & Eu & Ew & _ & _ & _ & TT & _ & _ & _ & _ & _ & _ & _ & _ & _ & FF). rewrite TT in Et. exists un, wn. split; [rewrite FF; exact Eu|]. split; [rewrite FF; exact Ew|]. cbn zeta. split.
  - destruct (t_max_lookup _ _ _ _ g ltac:(lia) tm Et) as [[Z _]|[_ N]]; [lia|]. unfold t_max_half in N.
    assert (X : nth_error (linspace (s_psimax s) 0 scim_psi_count) (1000 - g) = Some (s_psimax s * (INR (g - 1) / 999))).
    { rewrite linspace_nth by (unfold scim_psi_count; lia). f_equal. unfold scim_psi_count. replace (INR (1000 - 1)) with 999 by (cbn [Nat.sub]; rewrite INR_IZR_INZ; reflexivity). rewrite !minus_INR by lia. replace (INR 1000) with 1000 by (rewrite INR_IZR_INZ; reflexivity). replace (INR 1) with 1 by reflexivity. field. }
    rewrite (map_nth_error _ _ _ X) in N. injection N as <-. reflexivity.
  - unfold get_t_max in Eg. destruct (req _ 0); [discriminate|]. apply ok_inj in Eg. pose proof (py_round_near (np_clip psi 0 (s_psimax s) / s_psimax s * INR (scim_psi_count - 1))) as N. rewrite Eg in N. rewrite <- INR_IZR_INZ in N. unfold scim_psi_count in N. replace (INR (1000 - 1)) with 999 in N by (cbn [Nat.sub]; rewrite INR_IZR_INZ; reflexivity). exact N.
Qed.
Print Assumptions torque_limit_one_step_low_refuted.

(** ** When a current reference is nan *)
Lemma np_sqrt_some x : 0 <= x -> np_sqrt x = Some (sqrt x).
Proof. intros H. unfold np_sqrt. destruct (rltP x 0) as [A|A]; [lra|reflexivity]. Qed.
Lemma np_sqrt_none x : x < 0 -> np_sqrt x = None.
Proof. intros H. unfold np_sqrt. destruct (rltP x 0) as [A|A]; [reflexivity|contradiction]. Qed.
Lemma np_at_in {A} (l : list A) z x : np_at l z = Ok x -> In x l.
Proof. unfold np_at. destruct (_ <? 0)%Z; [discriminate|]. destruct (nth_error l _) as [y|] eqn:E; [|discriminate]. intros H. injection H as <-. eapply nth_error_In; exact E. Qed.
(** The current the nominal voltage and speed allow; the voltage is the one of u_sd. *)
Lemma t_max_half_some c un wn pm : 0 < sc_lm c -> 0 <= pm -> pm / sc_lm c * (pm / sc_lm c) <= un * un / (wn * wn * (sc_ls c * sc_ls c)) -> forall x, In x (t_max_half c un wn pm) -> exists v, x = Some v.
Proof.
  intros Hl Hp H x Hx. unfold t_max_half in Hx. apply in_map_iff in Hx. destruct Hx as (psi & <- & Hx). apply In_nth_error in Hx. destruct Hx as (k & Hk). assert (Kk : (k < scim_psi_count)%nat). { rewrite <- (linspace_length pm 0 scim_psi_count). apply nth_error_Some. rewrite Hk. discriminate. }
  rewrite linspace_nth in Hk by exact Kk. assert (E : psi = pm + INR k * ((0 - pm) / INR (scim_psi_count - 1))) by congruence. clear Hk.
  assert (N : 0 < INR (scim_psi_count - 1)) by (apply lt_0_INR; unfold scim_psi_count; lia). assert (K : 0 <= INR k <= INR (scim_psi_count - 1)) by (split; [apply pos_INR|apply le_INR; lia]).
  set (n := INR (scim_psi_count - 1)) in *. set (i := INR k) in *. clearbody n i.
  assert (I : 0 < / n) by (apply Rinv_0_lt_compat; exact N). assert (Q : 0 <= i * / n <= 1). { split; [apply Rmult_le_pos; lra|]. rewrite <- (Rinv_r n) by lra. apply Rmult_le_compat_r; lra. }
  assert (B : 0 <= psi <= pm). { rewrite E. replace (pm + i * ((0 - pm) / n)) with (pm * (1 - i * / n)) by (unfold Rdiv; ring). split; [apply Rmult_le_pos; lra|]. rewrite <- (Rmult_1_r pm) at 2. apply Rmult_le_compat_l; lra. }
  assert (J : 0 < / sc_lm c) by (apply Rinv_0_lt_compat; exact Hl). assert (C : 0 <= psi / sc_lm c <= pm / sc_lm c) by (unfold Rdiv; split; [apply Rmult_le_pos; lra|apply Rmult_le_compat_r; lra]).
  assert (D : psi / sc_lm c * (psi / sc_lm c) <= pm / sc_lm c * (pm / sc_lm c)) by (apply Rmult_le_compat; lra).
  rewrite np_sqrt_some by lra. eexists. reflexivity.
Qed.
Lemma t_max_some c un wn pm : 0 < sc_lm c -> 0 <= pm -> pm / sc_lm c * (pm / sc_lm c) <= un * un / (wn * wn * (sc_ls c * sc_ls c)) -> forall x, In x (t_max_table c un wn pm) -> exists v, x = Some v.
Proof.
  intros Hl Hp H x Hx. unfold t_max_table in Hx. apply in_app_iff in Hx. destruct Hx as [Hx|Hx]; [exact (t_max_half_some c un wn pm Hl Hp H x Hx)|]. apply in_map_iff in Hx. destruct Hx as (y & <- & Hy). apply in_rev in Hy. destruct (t_max_half_some c un wn pm Hl Hp H y Hy) as (v & ->). eexists. reflexivity.
Qed.
(** If the nominal point reaches the largest flux of the table, no reference is ever nan ... *)
Theorem scim_never_nan :
  forall amax damping old fc0 e nom id margin s m0 fc1 un wn, scim_tune amax damping old fc0 e nom id margin = Ok (s, m0, fc1) ->
  item nom (fp_usd (s_f s)) = Ok un -> item nom (fp_om (s_f s)) = Ok wn -> 0 < sc_lm (s_c s) -> s_psimax s / sc_lm (s_c s) * (s_psimax s / sc_lm (s_c s)) <= un * un / (wn * wn * (sc_ls (s_c s) * sc_ls (s_c s))) ->
  forall m fc l i, scim_ok s -> fctl_ok fc -> fm_int m = Some i -> (forall x r, In (x, r) l -> scim_state s x /\ r <> []) ->
  forall o, In o (scim_runs s m fc l) -> exists d q, o = Ok [Some d; Some q].
Proof.
  intros amax damping old fc0 e nom id margin s m0 fc1 un wn HT Hu Hw Hlm Hn m fc l i Hs Hf Hi Hl.
  assert (Ht : forall x, In x (s_tab s) -> exists v, x = Some v).
  { destruct (scim_tune_inv _ _ _ _ _ _ _ _ _ _ _ HT) as (f0 & un' & wn' & il & _ & _ & Eu & Ew & _ & _ & _ & TT & _ & _ & _ & _ & _ & _ & _ & _ & _ & FF). rewrite TT.
    assert (F : fp_usd (s_f s) = fp_usd f0 /\ fp_om (s_f s) = fp_om f0) by (rewrite FF; split; reflexivity). destruct F as [F1 F2]. rewrite F1, Eu in Hu. rewrite F2, Ew in Hw. apply ok_inj in Hu, Hw. subst un' wn'. destruct Hs as (_ & _ & _ & Hp & _). apply t_max_some; [exact Hlm|lra|exact Hn]. }
  revert m fc i Hf Hi. induction l as [|[x r] l IH]; intros m fc i Hf Hi o Ho; [destruct Ho|].
  destruct (Hl x r (or_introl eq_refl)) as [Hx Hr]. destruct r as [|r0 rest]; [congruence|].
  destruct (scim_select_step s m fc x r0 rest i Hs Hf Hi Hx) as (m' & fc' & j & d & tm & psi & E & Hj & Hf' & HD & (g & k & row & pm & _ & Tm & _) & _). cbn [scim_runs] in Ho. rewrite E in Ho. destruct Ho as [<-|Ho].
  - destruct (Ht tm (np_at_in _ _ _ Tm)) as (v & ->). destruct (scim_currents_some s (np_clip r0 (- Rabs v) (Rabs v)) psi d HD) as (q & ->). exists d, q. reflexivity.
  - cbn [fst snd] in Ho. apply (IH ltac:(intros y z Hy; apply Hl; right; exact Hy) m' fc' j Hf' Hj o Ho).
Qed.
Print Assumptions scim_never_nan.
(** Tuning succeeds whenever the names, limits and parameters it reads exist. *)
Lemma scim_tune_ok amax damping old fc e nom id margin f0 m ab tl lm lsr lss rr rs il un wn : foc_tune amax old e nom margin = Ok (f0, m) -> str_index "psi_abs" (ce_names e) = Ok ab -> item (ce_limits e) (fp_tq f0) = Ok tl ->
  par "l_m" (ce_par e) = Ok lm -> par "l_sigr" (ce_par e) = Ok lsr -> par "l_sigs" (ce_par e) = Ok lss -> par "r_r" (ce_par e) = Ok rr -> par "r_s" (ce_par e) = Ok rs ->
  b_task (fc_b fc) = FC -> item (ce_limits e) (fp_isd f0) = Ok il -> item nom (fp_usd f0) = Ok un -> item nom (fp_om f0) = Ok wn ->
  exists s fc', scim_tune amax damping old fc e nom id margin = Ok (s, m, fc') /\ s_c s = {| sc_p := fp_p f0; sc_lm := lm; sc_lr := lm + lsr; sc_ls := lm + lss; sc_rr := rr; sc_rs := rs |} /\ s_tmax s = tl /\ s_tmin s = - tl /\ s_abs s = ab.
Proof.
  intros H0 H1 H2 H3 H4 H5 H6 H7 HT H8 H9 H10. unfold scim_tune. rewrite H0. cbn [bind fst snd]. rewrite H1, H2. cbn [bind]. rewrite H3, H4, H5, H6, H7. cbn [bind]. unfold pi_tune. rewrite HT. unfold pi_tune_flux. cbn [bind]. rewrite H8. cbn [bind]. set (c := {| sc_p := _ |}).
  destruct (psi_opt_table_ok c il (- tl) tl) as (tab & Et & Lt). rewrite Et. cbn [bind]. destruct tab as [|row tab]; [discriminate|]. cbn [map np_max bind]. rewrite H9, H10. cbn [bind]. do 2 eexists. split; [reflexivity|]. cbn [s_c s_tmax s_tmin s_abs]. repeat split; reflexivity.
Qed.
(** For torques that need more than the current limit the loss optimum is the last grid point. *)
Lemma psi_opt_row_end c il t : 0 < il -> 0 < sc_p c -> 0 < sc_lm c -> 0 < sc_lr c -> t <> 0 -> let M := 3 / 2 * sc_p c * (sc_lm c * sc_lm c) / sc_lr c in let R := sc_rs c + sc_rr c * (sc_lm c * sc_lm c) / (sc_lr c * sc_lr c) in
  0 < sc_rs c -> sc_rs c * (M * M) * (il * il * (il * il)) < R * (t * t) -> exists row, psi_opt_row c il t = Ok row /\ sr_psi row = sc_lm c * (498 / 499 * il).
Proof.
  intros Hi Hp Hm Hr Ht M R Hs H. destruct (psi_opt_row_spec c il t Ht) as (row & k & E & Hk & _ & _ & Ep & _ & Min). exists row. split; [exact E|]. cbn zeta in *. rewrite Ep. assert (K : k = 498%nat).
  { destruct (Nat.eq_dec k 498) as [K|K]; [exact K|]. exfalso. specialize (Min 499%nat ltac:(lia)). set (g := il / 499) in *. assert (HM : 0 < M) by (unfold M, Rdiv; apply Rmult_lt_0_compat; [apply Rmult_lt_0_compat; [lra|apply Rmult_lt_0_compat; lra]|apply Rinv_0_lt_compat; lra]).
    assert (Gp : 0 < g) by (unfold g; lra). set (x := INR (S k) * g) in *. assert (Y : INR 499 * g = il) by (rewrite INR_IZR_INZ; cbn [Z.of_nat Pos.of_succ_nat Pos.succ]; unfold g; field). rewrite Y in Min.
    assert (X0 : 0 < x) by (unfold x; apply Rmult_lt_0_compat; [apply lt_0_INR; lia|exact Gp]). assert (X1 : x < il) by (rewrite <- Y; unfold x; apply Rmult_lt_compat_r; [exact Gp|apply lt_INR; lia]).
    unfold scim_loss, scim_isq in Min. fold M R in Min. assert (F : forall d, 0 < d -> 3 / 2 * (sc_rs c * (d * d) + R * (t / (M * d) * (t / (M * d)))) * (2 / 3) * (x * x * (il * il) * (M * M)) = sc_rs c * (d * d) * (x * x * (il * il) * (M * M)) + R * (t * t) * ((x * x * (il * il)) / (d * d))) by (intros d Hd; field; split; lra).
    pose proof (F x X0) as Fx. pose proof (F il Hi) as Fi. replace (x * x * (il * il) / (x * x)) with (il * il) in Fx by (field; lra). replace (x * x * (il * il) / (il * il)) with (x * x) in Fi by (field; lra).
    clearbody x M R. assert (Q : 0 < x * x * (il * il) * (M * M)) by (repeat apply Rmult_lt_0_compat; assumption). pose proof (Rmult_le_compat_r (2 / 3 * (x * x * (il * il) * (M * M))) _ _ ltac:(lra) Min) as Z. set (Lx := 3 / 2 * (sc_rs c * (x * x) + R * (t / (M * x) * (t / (M * x))))) in *. set (Li := 3 / 2 * (sc_rs c * (il * il) + R * (t / (M * il) * (t / (M * il))))) in *. clearbody Lx Li.
    assert (D : 0 < il * il - x * x) by (replace (il * il - x * x) with ((il - x) * (il + x)) by ring; apply Rmult_lt_0_compat; lra).
    assert (Z2 : R * (t * t) * (il * il - x * x) <= sc_rs c * (M * M) * (x * x * (il * il)) * (il * il - x * x)) by lra.
    assert (B : sc_rs c * (M * M) * (x * x * (il * il)) <= sc_rs c * (M * M) * (il * il * (il * il))). { apply Rmult_le_compat_l; [apply Rmult_le_pos; [lra|apply Rmult_le_pos; lra]|]. apply Rmult_le_compat_r; [apply Rmult_le_pos; lra|lra]. }
    pose proof (Rmult_lt_compat_r _ _ _ D (Rle_lt_trans _ _ _ B H)). lra. }
  rewrite K. rewrite INR_IZR_INZ. cbn [Z.of_nat Pos.of_succ_nat Pos.succ]. field.
Qed.
Lemma psi_opt_row_le c il t row : 0 < il -> 0 < sc_lm c -> psi_opt_row c il t = Ok row -> 0 <= sr_psi row <= sc_lm c * (498 / 499 * il).
Proof.
  intros Hi Hm E. assert (P : 0 <= sc_lm c * (498 / 499 * il)) by (apply Rmult_le_pos; lra). destruct (Req_dec t 0) as [Z|Z].
  - unfold psi_opt_row in E. rewrite Z in E. destruct (reqP 0 0) as [_|N]; [|contradiction]. apply ok_inj in E. subst row. cbn [sr_psi]. lra.
  - destruct (psi_opt_row_spec c il t Z) as (row' & k & E' & Hk & _ & _ & Ep & _). rewrite E in E'. apply ok_inj in E'. subst row'. cbn zeta in Ep. rewrite Ep. assert (K : 0 <= INR k <= 498). { split; [apply pos_INR|]. replace 498 with (INR 498) by (rewrite INR_IZR_INZ; reflexivity). apply le_INR. lia. }
    split; [apply Rmult_le_pos; [lra|apply Rmult_le_pos; lra]|]. apply Rmult_le_compat_l; [lra|]. replace (498 / 499 * il) with (498 * (il / 499)) by field. apply Rmult_le_compat_r; lra.
Qed.
(** If the largest torque needs more than the current limit, the largest flux is known. *)
Lemma scim_psimax amax damping old fc e nom id margin s m fc' f0 il : scim_tune amax damping old fc e nom id margin = Ok (s, m, fc') -> foc_tune amax old e nom margin = Ok (f0, m) -> item (ce_limits e) (fp_isd f0) = Ok il -> 0 < il ->
  let c := s_c s in 0 < sc_p c -> 0 < sc_lm c -> 0 < sc_lr c -> 0 < sc_rs c -> 0 < s_tmax s -> let M := 3 / 2 * sc_p c * (sc_lm c * sc_lm c) / sc_lr c in let R := sc_rs c + sc_rr c * (sc_lm c * sc_lm c) / (sc_lr c * sc_lr c) in
  sc_rs c * (M * M) * (il * il * (il * il)) < R * (s_tmax s * s_tmax s) -> s_psimax s = sc_lm c * (498 / 499 * il) /\ exists row, np_at (s_opt s) 1000 = Ok row /\ sr_psi row = s_psimax s.
Proof.
  intros H H0 Hil Hi c Hp Hm Hr Hs Ht M R HM. destruct (scim_tune_inv _ _ _ _ _ _ _ _ _ _ _ H) as (f1 & un & wn & il1 & E1 & E2 & _ & _ & T & N & P & _). rewrite H0 in E1. apply ok_inj in E1. assert (F : f1 = f0) by congruence. subst f1. rewrite Hil in E2. apply ok_inj in E2. subst il1.
  unfold psi_opt_table in T. destruct (mapm_spec _ _ _ T) as [L S]. rewrite linspace_length in L.
  assert (X : nth_error (linspace (s_tmin s) (s_tmax s) scim_t_count) 1000 = Some (s_tmax s)). { rewrite linspace_nth by (unfold scim_t_count; lia). f_equal. rewrite N. unfold scim_t_count. replace (INR (1001 - 1)) with (INR 1000) by reflexivity. replace (INR 1000) with 1000 by (rewrite INR_IZR_INZ; reflexivity). field. }
  destruct (S 1000%nat (s_tmax s) X) as (row & Er & Nr). destruct (psi_opt_row_end (s_c s) il (s_tmax s) Hi Hp Hm Hr ltac:(lra) Hs HM) as (row' & Er' & Pr). rewrite Er in Er'. apply ok_inj in Er'. subst row'.
  assert (PM : s_psimax s = sc_lm c * (498 / 499 * il)).
  { destruct (np_max_spec _ _ P) as [A B]. apply Rle_antisym.
    - apply in_map_iff in A. destruct A as (r1 & <- & Hr1). apply In_nth_error in Hr1. destruct Hr1 as (k & Hk). destruct (nth_error (linspace (s_tmin s) (s_tmax s) scim_t_count) k) as [t1|] eqn:Et.
      + destruct (S k t1 Et) as (r2 & Er2 & Nr2). rewrite Hk in Nr2. injection Nr2 as <-. apply (psi_opt_row_le (s_c s) il t1 r1 Hi Hm Er2).
      + apply nth_error_None in Et. rewrite linspace_length, <- L in Et. apply nth_error_None in Et. congruence.
    - change (sc_lm (s_c s) * (498 / 499 * il) <= s_psimax s). rewrite <- Pr. apply B. apply in_map. eapply nth_error_In. exact Nr. }
  split; [exact PM|]. exists row. split; [exact (np_at_nat _ 1000 row Nr)|]. rewrite Pr, PM. reflexivity.
Qed.

(** A motor with 10 A current limit and the nominal point 230 V, 157 rad/s. *)
Definition scim_nom : list R := [157; 30; 8; 8; 2; 4; 8; 8; 8; 230; 230; 230; 230; 230; 4; 600].
Definition scim_nom2 : list R := [100; 30; 8; 8; 2; 4; 8; 8; 8; 230; 230; 230; 230; 230; 4; 600].
Lemma scim_example nom un wn amax damping margin : item nom 12 = Ok un -> item nom 0 = Ok wn -> exists s m fc', scim_tune amax damping None fctl_new scim_ctl_env nom "Cont-TC-SCIM-v0" margin = Ok (s, m, fc') /\
  s_c s = {| sc_p := 2; sc_lm := 14375 / 100000; sc_lr := 14375 / 100000 + 587 / 100000; sc_ls := 14375 / 100000 + 587 / 100000; sc_rr := 1355 / 1000; sc_rs := 29338 / 10000 |} /\ s_tmax s = 40 /\ s_tmin s = -40 /\ s_abs s = 4%nat /\
  s_psimax s = 14375 / 100000 * (498 / 499 * 10) /\ (exists row, np_at (s_opt s) 1000 = Ok row /\ sr_psi row = s_psimax s) /\ fp_usd (s_f s) = 12%nat /\ fp_usq (s_f s) = 13%nat /\ fp_om (s_f s) = 0%nat /\ fp_udc (s_f s) = sqrt 3 * 300 /\ fp_p (s_f s) = 2 /\
  fp_tau (s_f s) = 1 / 10000 /\ fp_dlim (s_f s) = 10 * (1 - margin) /\ fp_qlim (s_f s) = 10 * (1 - margin) /\ fp_amax (s_f s) = amax.
Proof.
  intros Hu Hw. destruct (foc_tune amax None scim_ctl_env nom margin) as [[f0 m]|] eqn:E0; [|discriminate]. pose proof E0 as E1. apply ok_inj in E1. apply pair_equal_spec in E1. destruct E1 as [F0 _].
  assert (I1 : item (ce_limits scim_ctl_env) (fp_tq f0) = Ok 40) by (rewrite <- F0; reflexivity). assert (I2 : item (ce_limits scim_ctl_env) (fp_isd f0) = Ok 10) by (rewrite <- F0; reflexivity).
  assert (I3 : item nom (fp_usd f0) = Ok un) by (rewrite <- F0; exact Hu). assert (I4 : item nom (fp_om f0) = Ok wn) by (rewrite <- F0; exact Hw).
  destruct (scim_tune_ok amax damping None fctl_new scim_ctl_env nom "Cont-TC-SCIM-v0" margin f0 m 4 40 (14375 / 100000) (587 / 100000) (587 / 100000) (1355 / 1000) (29338 / 10000) 10 un wn E0 eq_refl I1 eq_refl eq_refl eq_refl eq_refl eq_refl eq_refl I2 I3 I4) as (s & fc' & H & C & T1 & T2 & AB).
  assert (P0 : fp_p f0 = 2) by (rewrite <- F0; reflexivity). rewrite P0 in C.
  destruct (scim_psimax _ _ _ _ _ _ _ _ _ _ _ f0 10 H E0 I2 ltac:(lra)) as [PM RW]; try (rewrite ?C, ?T1; cbn [sc_p sc_lm sc_lr sc_rs sc_rr]; lra).
  exists s, m, fc'. split; [exact H|]. split; [exact C|]. split; [exact T1|]. split; [rewrite T2; lra|]. split; [exact AB|]. split; [rewrite PM, C; reflexivity|]. split; [exact RW|].
  destruct (scim_tune_inv _ _ _ _ _ _ _ _ _ _ _ H) as (f1 & ? & ? & ? & E1 & _ & _ & _ & _ & _ & _ & _ & _ & _ & _ & _ & _ & _ & _ & _ & _ & FF). rewrite E0 in E1. assert (f1 = f0) by congruence. subst f1. rewrite FF. rewrite <- F0. repeat split; reflexivity.
Qed.
(** ... otherwise it is: the largest torque at standstill gives i_sq = nan for every controller state. *)
Theorem scim_nan_refuted :
  forall amax damping margin, 0 <= margin <= 1 -> exists s m fc', scim_tune amax damping None fctl_new scim_ctl_env scim_nom "Cont-TC-SCIM-v0" margin = Ok (s, m, fc') /\
  forall m1 fc i psi, fm_int m1 = Some i -> fctl_ok fc -> exists d, snd (scim_select s m1 fc [0; 0; 0; 0; psi; 0; 0; 0; 0; 0; 0; 0; 0; 0; 0; 600] [40]) = Ok [Some d; None].
Proof.
  intros amax damping margin Hma. destruct (scim_example scim_nom 230 157 amax damping margin eq_refl eq_refl) as (s & m & fc' & H & C & T1 & T2 & AB & PM & (row & Er & Pr) & F1 & F2 & F3 & F4 & F5 & F6 & F7 & F8 & F9). exists s, m, fc'. split; [exact H|]. intros m1 fc i psi Hi Hf.
  destruct (scim_tune_sizes _ _ _ _ _ _ _ _ _ _ _ H) as [L1 L2]. assert (Hs : scim_ok s). { repeat split; try assumption; rewrite ?T1, ?T2, ?PM, ?F7, ?F8; lra. }
  set (x := [0; 0; 0; 0; psi; 0; 0; 0; 0; 0; 0; 0; 0; 0; 0; 600]). assert (Rd : reads (s_f s) x 0 0 0) by (unfold reads; rewrite F1, F2, F3; repeat split; reflexivity).
  assert (Hx : scim_state s x). { split; [exists 0, 0, 0; exact Rd|]. exists psi. rewrite AB. reflexivity. }
  destruct (scim_select_step s m1 fc x 40 [] i Hs Hf Hi Hx) as (m' & fc1 & j & d & tm & psi1 & E & _ & _ & _ & (g & k & row1 & pm & Hg & Tm & Gk & Rk & Mo & Gt) & _). exists d. rewrite E. cbn [snd].
  assert (K : k = 1000%Z). { unfold get_psi_opt in Gk. rewrite T1, T2 in Gk. destruct (reqP (40 - -40) 0) as [Z|_]; [lra|]. apply ok_inj in Gk. rewrite <- Gk. rewrite np_clip_id by lra. unfold scim_t_count. replace ((40 - -40) / (40 - -40) * INR (1001 - 1)) with (INR 1000) by (replace (1001 - 1)%nat with 1000%nat by reflexivity; field). apply (py_round_INR 1000). }
  rewrite K in Rk. rewrite Er in Rk. apply ok_inj in Rk. subst row1. rewrite Pr in Gt.
  assert (PB : s_psimax s <= pm). { destruct (modulation (s_f s) m1 x) as [m2 om] eqn:Em. cbn [snd] in Mo. subst om. destruct (scim_tune_inv _ _ _ _ _ _ _ _ _ _ _ H) as (f0 & un & wn & il & _ & _ & _ & _ & _ & _ & _ & _ & _ & _ & _ & _ & LO & _ & HI & _).
    pose proof (modulation_bounds (s_f s) m1 x 0 0 0 m2 pm Rd ltac:(rewrite LO, HI, PM; lra) Em) as [B _]. rewrite LO in B. unfold speed_flux in B. rewrite F4, F5 in B. rewrite Rabs_R0, Rmax_right in B by lra. assert (S3 : 0 < sqrt 3) by (apply sqrt_lt_R0; lra). replace (sqrt 3 * 300 / (sqrt 3 * (1 / 10000) * 2)) with 1500000 in B by (field; lra). rewrite PM in *. lra. }
  rewrite Rmin_left in Gt by exact PB. assert (G : g = 999%nat). { unfold get_t_max in Gt. destruct (req (s_psimax s) 0); [discriminate|]. apply ok_inj in Gt. rewrite np_clip_id in Gt by (rewrite PM; lra). unfold scim_psi_count in Gt. replace (s_psimax s / s_psimax s * INR (1000 - 1)) with (INR 999) in Gt by (replace (1000 - 1)%nat with 999%nat by reflexivity; rewrite PM; field). rewrite py_round_INR in Gt. lia. }
  subst g. assert (Gt' : get_t_max s (s_psimax s) = Ok (Z.of_nat 999)) by exact Gt.
  assert (TN : tm = None). { destruct (torque_limit_one_step_low_refuted _ _ _ _ _ _ _ _ _ _ _ _ 999 tm H Gt' ltac:(lia) Tm) as (un & wn & Eu & Ew & TT & _). rewrite F1 in Eu. rewrite F3 in Ew. apply ok_inj in Eu, Ew. subst un wn. rewrite TT, C, PM. cbn [sc_p sc_lm sc_lr sc_ls sc_rr sc_rs]. replace (999 - 1)%nat with 998%nat by reflexivity. replace (INR 998) with 998 by (rewrite INR_IZR_INZ; reflexivity). rewrite np_sqrt_none by lra. reflexivity. }
  rewrite TN. reflexivity.
Qed.
Print Assumptions scim_nan_refuted.
Example scim_tuned_example : exists s m fc', scim_tune (11 / 10) (12 / 10) None fctl_new scim_ctl_env scim_nom2 "Cont-TC-SCIM-v0" (2 / 10) = Ok (s, m, fc') /\
  scim_ok s /\ fctl_ok (fctl_reset fc') /\ (exists i, fm_int (foc_reset (s_f s) m) = Some i) /\ scim_state s scim_nom2 /\
  s_psimax s / sc_lm (s_c s) * (s_psimax s / sc_lm (s_c s)) <= 230 * 230 / (100 * 100 * (sc_ls (s_c s) * sc_ls (s_c s))) /\
  (exists d q, In (Ok [Some d; Some q]) (scim_runs s (foc_reset (s_f s) m) (fctl_reset fc') [(scim_nom2, [20]); (scim_nom2, [-30])])).
Proof.
  destruct (scim_example scim_nom2 230 100 (11 / 10) (12 / 10) (2 / 10) eq_refl eq_refl) as (s & m & fc' & H & C & T1 & T2 & AB & PM & RW & F1 & F2 & F3 & F4 & F5 & F6 & F7 & F8 & F9). exists s, m, fc'. split; [exact H|].
  destruct (scim_tuned_ready _ _ _ _ _ _ _ _ _ _ _ H eq_refl eq_refl) as (A1 & A2 & i & A3); [lra| |rewrite T1; lra|rewrite PM; lra|].
  { intros l Hl. cbn in Hl. repeat (destruct Hl as [<-|Hl]; [lra|]). destruct Hl. }
  assert (ST : scim_state s scim_nom2). { split; [exists 230, 230, 100; unfold reads; rewrite F1, F2, F3; repeat split; reflexivity|]. rewrite AB. eexists. reflexivity. }
  assert (CO : s_psimax s / sc_lm (s_c s) * (s_psimax s / sc_lm (s_c s)) <= 230 * 230 / (100 * 100 * (sc_ls (s_c s) * sc_ls (s_c s)))) by (rewrite C, PM; cbn [sc_p sc_lm sc_lr sc_ls sc_rr sc_rs]; lra).
  split; [exact A1|]. split; [exact A2|]. split; [exists i; exact A3|]. split; [exact ST|]. split; [exact CO|].
  pose proof (scim_never_nan _ _ _ _ _ _ _ _ _ _ _ 230 100 H ltac:(rewrite F1; reflexivity) ltac:(rewrite F3; reflexivity) ltac:(rewrite C; cbn [sc_lm]; lra) CO (foc_reset (s_f s) m) (fctl_reset fc') [(scim_nom2, [20]); (scim_nom2, [-30])] i A1 A2 A3) as NN.
  destruct (scim_runs s (foc_reset (s_f s) m) (fctl_reset fc') [(scim_nom2, [20]); (scim_nom2, [-30])]) as [|o rest] eqn:ER.
  { cbn [scim_runs] in ER. destruct (scim_select s (foc_reset (s_f s) m) (fctl_reset fc') scim_nom2 [20]). discriminate. }
  destruct (NN ltac:(intros x r [Q|[Q|[]]]; injection Q as <- <-; split; [exact ST|discriminate|exact ST|discriminate]) o (or_introl eq_refl)) as (d & q & ->). exists d, q. left. reflexivity.
Qed.
Example flux_table_example : let c := {| sc_p := 2; sc_lm := 14375 / 100000; sc_lr := 14962 / 100000; sc_ls := 14962 / 100000; sc_rr := 1355 / 1000; sc_rs := 29338 / 10000 |} in 40 <> 0 /\ 0 < sc_p c /\ 0 < sc_lm c /\ 0 < sc_lr c.
Proof. cbn. repeat split; lra. Qed.

(** ** The torque of the demanded currents *)
(** If neither limit acts, the q reference gives exactly the limited torque at the present flux. *)
Theorem scim_torque_exact :
  forall s m t psi d eps, sc_p (s_c s) = im_p m -> sc_lm (s_c s) = im_lm m -> sc_lr (s_c s) = im_lr m -> 0 < im_p m -> 0 < im_lm m -> 0 < im_lr m -> 1 / 1000 <= psi ->
  let q := t / psi * 2 / 3 / im_p m * im_lr m / im_lm m in Rabs q <= fp_qlim (s_f s) -> d * d + q * q <= fp_dlim (s_f s) * fp_dlim (s_f s) -> 0 <= fp_dlim (s_f s) ->
  scim_currents s (Some t) psi d = Some q /\ im_torque m [d; q; psi; 0; eps] = Ok t.
Proof.
  intros s m t psi d eps H1 H2 H3 Hp Hm Hr Hpsi q Hq Hd HL. split.
  - unfold scim_currents. rewrite H1, H2, H3. rewrite Rmax_left by lra. fold q. rewrite np_clip_id by (unfold Rabs in Hq; destruct (Rcase_abs q) in Hq; lra). destruct (rltP (fp_dlim (s_f s)) (sqrt (q * q + d * d))) as [A|A]; [|reflexivity]. exfalso. assert (B : sqrt (q * q + d * d) <= sqrt (fp_dlim (s_f s) * fp_dlim (s_f s))) by (apply sqrt_le_1_alt; lra). rewrite sqrt_square in B by exact HL. lra.
  - unfold im_torque. cbn [item nth_error bind]. f_equal. unfold q. fold (im_lr m). change (im_lm m + im_lsigr m) with (im_lr m). field. repeat split; lra.
Qed.
Print Assumptions scim_torque_exact.
Example scim_torque_exact_example : exists s m fc', scim_tune (11 / 10) (12 / 10) None fctl_new scim_ctl_env scim_nom2 "Cont-TC-SCIM-v0" (2 / 10) = Ok (s, m, fc') /\ sc_lr (s_c s) = im_lr scim_par /\
  (let q := 3 / 1 * 2 / 3 / im_p scim_par * im_lr scim_par / im_lm scim_par in Rabs q <= fp_qlim (s_f s) /\ 2 * 2 + q * q <= fp_dlim (s_f s) * fp_dlim (s_f s)).
Proof.
  destruct (scim_example scim_nom2 230 100 (11 / 10) (12 / 10) (2 / 10) eq_refl eq_refl) as (s & m & fc' & H & C & _ & _ & _ & _ & _ & _ & _ & _ & _ & _ & _ & F7 & F8 & _). exists s, m, fc'. split; [exact H|]. rewrite C, F7, F8. unfold im_lr. cbn [sc_lr scim_par im_p im_lm im_lsigr]. split; [lra|]. cbn zeta. split; [rewrite Rabs_pos_eq; lra|lra].
Qed.

(** ** No torque after a reset at speed *)
(** Above 105 rad/s (the limit is 400) the first call after a reset demands i_sq = 0 for every
    torque reference and flux: the modulation controller starts with half of the lower bound,
    which is multiplied by the gain again, and the allowed flux is negative. *)
Theorem scim_no_torque_after_reset_refuted :
  forall margin amax, 0 <= margin <= 1 -> 0 <= amax <= 2 -> exists s m fc', scim_tune amax (12 / 10) None fctl_new scim_ctl_env scim_nom2 "Cont-TC-SCIM-v0" margin = Ok (s, m, fc') /\
  forall w psi r, 105 <= w -> exists d, snd (scim_select s (foc_reset (s_f s) m) (fctl_reset fc') [w; 0; 0; 0; psi; 0; 0; 0; 0; 0; 0; 0; 0; 0; 0; 600] [r]) = Ok [Some d; Some 0].
Proof.
  intros margin amax Hma Ham. destruct (scim_example scim_nom2 230 100 amax (12 / 10) margin eq_refl eq_refl) as (s & m & fc' & H & C & T1 & T2 & AB & PM & RW & F1 & F2 & F3 & F4 & F5 & F6 & F7 & F8 & F9). exists s, m, fc'. split; [exact H|]. intros w psi r Hw.
  destruct (scim_tuned_ready _ _ _ _ _ _ _ _ _ _ _ H eq_refl eq_refl) as (Hs & A2 & i & A3); [lra| |rewrite T1; lra|rewrite PM; lra|].
  { intros l Hl. cbn in Hl. repeat (destruct Hl as [<-|Hl]; [lra|]). destruct Hl. }
  set (x := [w; 0; 0; 0; psi; 0; 0; 0; 0; 0; 0; 0; 0; 0; 0; 600]). assert (Rd : reads (s_f s) x 0 0 w) by (unfold reads; rewrite F1, F2, F3; repeat split; reflexivity).
  assert (Hx : scim_state s x). { split; [exists 0, 0, w; exact Rd|]. exists psi. rewrite AB. reflexivity. }
  destruct (scim_select_step s (foc_reset (s_f s) m) (fctl_reset fc') x r [] i Hs A2 A3 Hx) as (m' & fc1 & j & d & tm & psi1 & E & _ & _ & HD & (g & k & row1 & pm & Hg & Tm & Gk & Rk & Mo & Gt) & _). exists d. rewrite E. cbn [snd].
  destruct (scim_tune_inv _ _ _ _ _ _ _ _ _ _ _ H) as (f0 & un & wn & il & _ & _ & Eu & Ew & _ & _ & _ & TT & _ & _ & _ & _ & LO & RE & HI & KK & _ & FF).
  assert (GA : 5 <= fp_gain (s_f s)). { rewrite FF. cbn [foc_fill fp_gain]. rewrite C. cbn [sc_ls sc_rs]. assert (Q1 : 66 / 100 < sqrt (12 / 10 * (12 / 10) - 1) < 67 / 100). { split; [rewrite <- (sqrt_square (66 / 100)) by lra|rewrite <- (sqrt_square (67 / 100)) by lra]; apply sqrt_lt_1_alt; lra. }
    unfold foc_alpha. set (q := sqrt (12 / 10 * (12 / 10) - 1)) in *. clearbody q. replace ((12 / 10 / (12 / 10 - q) - 1) / (12 / 10 / (12 / 10 - q) * (12 / 10 / (12 / 10 - q)))) with (q * (12 / 10 - q) / (144 / 100)) by (field; lra).
    assert (Q2 : 66 / 100 * (53 / 100) <= q * (12 / 10 - q)) by (apply Rmult_le_compat; lra). unfold Rdiv at 1. rewrite Rmult_assoc. fold (Rdiv (12 / 10 / (12 / 10 - q) - 1) (12 / 10 / (12 / 10 - q) * (12 / 10 / (12 / 10 - q)))). replace ((12 / 10 / (12 / 10 - q) - 1) / (12 / 10 / (12 / 10 - q) * (12 / 10 / (12 / 10 - q)))) with (q * (12 / 10 - q) / (144 / 100)) by (field; lra). lra. }
  assert (PN : pm < 0).
  { rewrite (modulation_eq (s_f s) _ x 0 0 w Rd) in Mo. cbn zeta in Mo. cbn [foc_reset fm_int fm_limited] in Mo. assert (MA : modulation_at (s_f s) 0 0 = 0) by (unfold modulation_at; rewrite Rmult_0_l, Rplus_0_l, sqrt_0; unfold Rdiv; ring). rewrite MA in Mo. destruct (rltP (11 / 10 * fp_amax (s_f s)) 0) as [N|_]; [rewrite F9 in N; lra|].
    rewrite Rabs_pos_eq, Rmax_left in Mo by lra. unfold speed_flux in Mo. rewrite Rabs_pos_eq, Rmax_left in Mo by lra. rewrite LO, RE, HI, KK, F4, F5, F6, F9 in Mo. set (G := fp_gain (s_f s)) in *. clearbody G. set (P := s_psimax s) in *. assert (S3 : 1 < sqrt 3) by (rewrite <- sqrt_1; apply sqrt_lt_1_alt; lra).
    replace (sqrt 3 * 300 / (sqrt 3 * w * 2)) with (150 / w) in Mo by (field; lra).
    set (D := G / (2 * w * 2 / (sqrt 3 * 300)) * ((8 / 10 * amax - 0) * (1 / 10000) + 1 / 2 * - P)) in *. assert (W : 0 < / w) by (apply Rinv_0_lt_compat; lra).
    assert (DD : D <= - (375 / 2) / w). { unfold D. replace (G / (2 * w * 2 / (sqrt 3 * 300)) * ((8 / 10 * amax - 0) * (1 / 10000) + 1 / 2 * - P)) with (- (G * sqrt 3 * (75 * (P / 2 - 8 / 10 * amax * (1 / 10000)))) / w) by (field; lra). unfold Rdiv at 1. unfold Rdiv at 5. apply Rmult_le_compat_r; [lra|]. apply Ropp_le_contravar. assert (GS : 5 <= G * sqrt 3) by (rewrite <- (Rmult_1_r 5); apply Rmult_le_compat; lra). assert (PP : 1 / 2 <= P / 2 - 8 / 10 * amax * (1 / 10000)) by (rewrite PM; lra). pose proof (Rmult_le_compat 5 (G * sqrt 3) (75 * (1 / 2)) (75 * (P / 2 - 8 / 10 * amax * (1 / 10000))) ltac:(lra) ltac:(lra) GS ltac:(lra)). lra. }
    assert (D0 : D < 150 / w * -1) by (unfold Rdiv in *; lra). assert (W2 : 150 / w <= 150 / 105) by (unfold Rdiv; apply Rmult_le_compat_l; [lra|]; apply Rinv_le_contravar; lra).
    destruct (rleP (- P) D) as [A|A]; cbn [andb] in Mo.
    - destruct (rleP D (1 / 10 * P)) as [B|B]; cbn [snd] in Mo; apply ok_inj in Mo; [lra|]. exfalso. apply B. assert (0 < 150 / w) by (unfold Rdiv; lra). rewrite PM. lra.
    - cbn [snd] in Mo. apply ok_inj in Mo. assert (NC : np_clip D (- P) (1 / 10 * P) = - P). { unfold np_clip. rewrite Rmax_right by lra. rewrite Rmin_left by (rewrite PM; lra). reflexivity. } rewrite NC in Mo. rewrite PM in *. lra. }
  assert (G0 : g = 0%nat). { unfold get_t_max in Gt. destruct (req (s_psimax s) 0); [discriminate|]. apply ok_inj in Gt. assert (MN : Rmin (sr_psi row1) pm <= 0) by (pose proof (Rmin_r (sr_psi row1) pm); lra). assert (NC : np_clip (Rmin (sr_psi row1) pm) 0 (s_psimax s) = 0) by (unfold np_clip; rewrite Rmax_right by lra; rewrite Rmin_left by (rewrite PM; lra); reflexivity). rewrite NC in Gt. replace (0 / s_psimax s * INR (scim_psi_count - 1)) with (INR 0) in Gt by (unfold Rdiv; change (INR 0) with 0; ring). rewrite py_round_INR in Gt. lia. }
  subst g. assert (TZ : tm = Some 0).
  { rewrite TT in Tm. destruct (t_max_lookup _ _ _ _ 0 ltac:(lia) tm Tm) as [[_ N]|[Z _]]; [|lia]. unfold t_max_half in N. assert (X : nth_error (linspace (s_psimax s) 0 scim_psi_count) 999 = Some 0). { rewrite linspace_nth by (unfold scim_psi_count; lia). f_equal. unfold scim_psi_count. replace (1000 - 1)%nat with 999%nat by reflexivity. field. apply not_0_INR. lia. }
    rewrite (map_nth_error _ _ _ X) in N. rewrite np_sqrt_some in N. - injection N as N. destruct tm as [v|]; [|discriminate]. cbn [nan_opp] in N. injection N as N. f_equal. lra.
    - unfold Rdiv at 2 3. rewrite !Rmult_0_l, Rminus_0_r. replace (un * un / (wn * wn * (sc_ls (s_c s) * sc_ls (s_c s)))) with ((un * / (wn * sc_ls (s_c s))) * (un * / (wn * sc_ls (s_c s)))). + apply Rle_0_sqr. + rewrite FF in F1, F3. cbn [foc_fill fp_usd fp_om] in F1, F3. rewrite F1 in Eu. rewrite F3 in Ew. apply ok_inj in Eu, Ew. subst un wn. rewrite C. cbn [sc_ls]. field. }
  rewrite TZ. rewrite Rabs_R0, Ropp_0. assert (CL : np_clip r 0 0 = 0) by (pose proof (np_clip_both r 0 0 ltac:(lra)); lra). rewrite CL. f_equal. f_equal. unfold scim_currents. assert (Q0 : np_clip (0 / Rmax psi1 (1 / 1000) * 2 / 3 / sc_p (s_c s) * sc_lr (s_c s) / sc_lm (s_c s)) (- fp_qlim (s_f s)) (fp_qlim (s_f s)) = 0). { replace (0 / Rmax psi1 (1 / 1000) * 2 / 3 / sc_p (s_c s) * sc_lr (s_c s) / sc_lm (s_c s)) with 0 by (unfold Rdiv; ring). apply np_clip_id; rewrite ?F8; lra. }
  rewrite Q0. rewrite Rmult_0_l, Rplus_0_l. destruct (rltP (fp_dlim (s_f s)) (sqrt (d * d))) as [A|A]; [|reflexivity]. exfalso. change (d * d) with (Rsqr d) in A. rewrite sqrt_Rsqr_abs in A. unfold Rabs in A. destruct (Rcase_abs d) in A; lra.
Qed.
Print Assumptions scim_no_torque_after_reset_refuted.

(** ** The shared default flux controller *)
(** All stages made with the default argument use one flux controller.  Two environments with
    the same motor, both reset: the d reference of the first depends on whether the second
    was called in between (with the same state and reference). *)
Lemma scim_select_d s m fc x r i p ig v t k row psi pm : scim_ok s -> fctl_ok fc -> fm_int m = Some i -> scim_state s x ->
  b_p (fc_b fc) = [p] -> b_i (fc_b fc) = [ig] -> b_int (fc_b fc) = [v] -> b_tau (fc_b fc) = Some t ->
  get_psi_opt s r = Ok k -> np_at (s_opt s) k = Ok row -> item x (s_abs s) = Ok psi -> snd (modulation (s_f s) m x) = Ok pm ->
  let po := Rmin (sr_psi row) pm in let u := p * (po - psi) + ig * v in Rabs u <= fp_dlim (s_f s) ->
  exists q m' fc', scim_select s m fc x [r] = ((m', fc'), Ok [Some u; q]) /\ b_p (fc_b fc') = [p] /\ b_i (fc_b fc') = [ig] /\ b_int (fc_b fc') = [v + (po - psi) * t] /\ b_tau (fc_b fc') = Some t.
Proof.
  intros Hs Hf Hi Hx Ep Ei Ev Et Ek Er Epsi Em po u Hu. destruct Hs as (L1 & L2 & Ht & Hpm & Hd & Hq). assert (Hs : scim_ok s) by (repeat split; assumption).
  unfold scim_select. rewrite Epsi. cbn [bind item nth_error]. rewrite Ek. cbn [bind]. rewrite Er. cbn [bind]. destruct (modulation (s_f s) m x) as [m1 rm]. cbn [snd] in Em. subst rm. cbn [bind]. fold po.
  destruct (get_t_max_ok s po Hs) as (g & Eg & Hg). rewrite Eg. cbn [bind]. destruct (np_at_ok (s_tab s) (Z.of_nat scim_psi_count - Z.of_nat g) ltac:(rewrite L2; unfold scim_psi_count; lia)) as (tm & Etm & _). rewrite Etm. cbn [bind].
  destruct Hf as (p' & ig' & v' & t' & B1 & B2 & B3 & B4 & B5 & B6). assert (Eu : pi_control (fc_b fc) [psi] [po] = Ok [u]). { unfold pi_control, base_states. rewrite B5. cbn [select nth_error bind]. unfold p_part, i_part. rewrite Ep, Ei, Ev. reflexivity. }
  rewrite Eu. cbn [bind]. rewrite np_clip_id by (unfold Rabs in Hu; destruct (Rcase_abs u) in Hu; lra). destruct (reqP u u) as [_|N]; [|contradiction].
  unfold fctl_integrate. rewrite B6, Ev, Et. cbn [bind map np_bin]. do 3 eexists. split; [reflexivity|]. cbn. repeat split; assumption || reflexivity.
Qed.
Theorem scim_flux_controller_shared_refuted :
  exists s m fc' x d1 q1 d2 q2, scim_tune 1 (12 / 10) None fctl_new scim_ctl_env scim_nom2 "Cont-TC-SCIM-v0" (2 / 10) = Ok (s, m, fc') /\
  let ready := fctl_reset fc' in let mine := foc_reset (s_f s) m in let other := foc_reset (s_f s) m in
  snd (scim_select s mine ready x [40]) = Ok [Some d1; q1] /\
  snd (scim_select s mine (snd (fst (scim_select s other ready x [40]))) x [40]) = Ok [Some d2; q2] /\ d1 < d2.
Proof.
  destruct (scim_example scim_nom2 230 100 1 (12 / 10) (2 / 10) eq_refl eq_refl) as (s & m & fc' & H & C & T1 & T2 & AB & PM & (row & Er & Pr) & F1 & F2 & F3 & F4 & F5 & F6 & F7 & F8 & F9).
  destruct (scim_tuned_ready _ _ _ _ _ _ _ _ _ _ _ H eq_refl eq_refl) as (Hs & A2 & i & A3); [lra| |rewrite T1; lra|rewrite PM; lra|].
  { intros l Hl. cbn in Hl. repeat (destruct Hl as [<-|Hl]; [lra|]). destruct Hl. }
  set (x := [0; 0; 0; 0; 0; 0; 0; 0; 0; 0; 0; 0; 0; 0; 0; 600]). assert (Rd : reads (s_f s) x 0 0 0) by (unfold reads; rewrite F1, F2, F3; repeat split; reflexivity).
  assert (Hx : scim_state s x). { split; [exists 0, 0, 0; exact Rd|]. exists 0. rewrite AB. reflexivity. }
  destruct (scim_select_step s (foc_reset (s_f s) m) (fctl_reset fc') x 40 [] i Hs A2 A3 Hx) as (m' & fc1 & j & d & tm & psi1 & E & _ & OK1 & HD & (g & k & row1 & pm & Hg & Tm & Gk & Rk & Mo & Gt) & _).
  assert (K : k = 1000%Z). { unfold get_psi_opt in Gk. rewrite T1, T2 in Gk. destruct (reqP (40 - -40) 0) as [Z|_]; [lra|]. apply ok_inj in Gk. rewrite <- Gk. rewrite np_clip_id by lra. unfold scim_t_count. replace ((40 - -40) / (40 - -40) * INR (1001 - 1)) with (INR 1000) by (replace (1001 - 1)%nat with 1000%nat by reflexivity; field). apply (py_round_INR 1000). }
  rewrite K in Rk, Gk. rewrite Er in Rk. apply ok_inj in Rk. subst row1.
  destruct (scim_tune_inv _ _ _ _ _ _ _ _ _ _ _ H) as (f0 & un & wn & il & _ & _ & _ & _ & _ & _ & _ & _ & B & RDY & _ & _ & LO & _ & HI & _).
  assert (PB : s_psimax s <= pm). { destruct (modulation (s_f s) (foc_reset (s_f s) m) x) as [m2 om] eqn:Em. cbn [snd] in Mo. subst om.
    pose proof (modulation_bounds (s_f s) (foc_reset (s_f s) m) x 0 0 0 m2 pm Rd ltac:(rewrite LO, HI, PM; lra) Em) as [B1 _]. rewrite LO in B1. unfold speed_flux in B1. rewrite F4, F5 in B1. rewrite Rabs_R0, Rmax_right in B1 by lra. assert (S3 : 0 < sqrt 3) by (apply sqrt_lt_R0; lra). replace (sqrt 3 * 300 / (sqrt 3 * (1 / 10000) * 2)) with 1500000 in B1 by (field; lra). rewrite PM in *. lra. }
  unfold pi_tune in B. cbn [fctl_new fc_b base_new b_kind b_task] in B. unfold pi_tune_flux in B. apply ok_inj in B. set (P := 4 * (sc_ls (s_c s) / sc_rs (s_c s) * (sc_ls (s_c s) / sc_rs (s_c s)))) in *.
  assert (BP : b_p (fc_b (fctl_reset fc')) = [P] /\ b_i (fc_b (fctl_reset fc')) = [Rmax (P / (1 / 10000)) 0] /\ b_int (fc_b (fctl_reset fc')) = [0] /\ b_tau (fc_b (fctl_reset fc')) = Some (1 / 10000)). { unfold fctl_reset. cbn [fc_b]. rewrite <- B. unfold base_reset, has_integrator, base_gains, base_new, base_set_int, i_gain_set. cbn [b_kind b_i map length repeat b_p b_int b_tau ce_tau scim_ctl_env]. repeat split; reflexivity. }
  assert (PV : 1 / 100 < P < 2 / 100) by (unfold P; rewrite C; cbn [sc_ls sc_rs]; lra). clearbody P. rewrite Rmax_left in BP by lra. destruct BP as (P1 & P2 & P3 & P4).
  assert (PO : Rmin (sr_psi row) pm = s_psimax s) by (rewrite Pr; apply Rmin_left; exact PB).
  destruct (scim_select_d s (foc_reset (s_f s) m) (fctl_reset fc') x 40 i P (P / (1 / 10000)) 0 (1 / 10000) 1000%Z row 0 pm Hs A2 A3 Hx P1 P2 P3 P4 Gk Er ltac:(rewrite AB; reflexivity) Mo) as (q1 & m1 & fc2 & E1 & R1 & R2 & R3 & R4).
  { cbn zeta. rewrite PO, PM, F7. rewrite Rabs_pos_eq; lra. }
  assert (OK2 : fctl_ok fc2). { rewrite E in E1. injection E1 as _ <- _ _. exact OK1. }
  destruct (scim_select_d s (foc_reset (s_f s) m) fc2 x 40 i P (P / (1 / 10000)) _ (1 / 10000) 1000%Z row 0 pm Hs OK2 A3 Hx R1 R2 R3 R4 Gk Er ltac:(rewrite AB; reflexivity) Mo) as (q2 & m3 & fc3 & E2 & _).
  { cbn zeta. rewrite PO, PM, F7. rewrite Rabs_pos_eq; lra. }
  exists s, m, fc', x. do 4 eexists. split; [exact H|]. cbn zeta. split; [rewrite E1; reflexivity|]. split; [rewrite E1; cbn [fst snd]; rewrite E2; reflexivity|]. cbn zeta. rewrite PO, PM. lra.
Qed.
Print Assumptions scim_flux_controller_shared_refuted.
