(** Properties of the controllers of gem_controllers: C65 - C69. *)
From Verif Require Import PyBaseFacts PyDictFacts Transform_Model Transform_Proofs Conv_Model Wrap_Model Ctl_Model Ctl_Model2 Ctl_Spec Ctl_Proofs Ctl_Proofs2.
Local Open Scope string_scope. Local Open Scope list_scope. Local Open Scope R_scope.

(** Two environments for the examples: a permanently excited DC motor with a four quadrant
    converter and a PMSM with a three phase bridge. *)
Definition dc_env : cenv :=
  {| ce_names := ["omega"; "torque"; "i"; "u"; "u_sup"]; ce_limits := [400; 40; 100; 60; 60]; ce_low := [-1; -1; -1; -1; 0]; ce_high := [1; 1; 1; 1; 1]; ce_refs := ["i"];
     ce_tau := 1 / 10000; ce_par := [("r_a", 1 / 50); ("l_a", 1 / 200); ("psi_e", 1 / 5)]; ce_j := 1 / 40; ce_act := SBox 1; ce_b6 := false; ce_dead := Some false |}.
Definition pmsm_env : cenv :=
  {| ce_names := ["omega"; "torque"; "i_sd"; "i_sq"; "u_a"; "u_b"; "u_c"; "u_sd"; "u_sq"; "epsilon"; "u_sup"]; ce_limits := [400; 40; 100; 100; 60; 60; 60; 60; 60; 4; 60];
     ce_low := [-1; -1; -1; -1; -1; -1; -1; -1; -1; -1; 0]; ce_high := repeat 1 11; ce_refs := ["i_sd"; "i_sq"];
     ce_tau := 1 / 10000; ce_par := [("p", 3); ("l_d", 3 / 10000); ("l_q", 1 / 1000); ("r_s", 1 / 50); ("psi_p", 1 / 15)]; ce_j := 1 / 40; ce_act := SBox 3; ce_b6 := false; ce_dead := Some false |}.
Lemma nth_repeat_lt {A} (x d : A) n k : (k < n)%nat -> nth k (repeat x n) d = x.
Proof. revert k. induction n as [|n IH]; intros k Hk; [lia|]. destruct k as [|k]; [reflexivity|]. cbn. apply IH. lia. Qed.
Lemma dc_env_proper : env_proper dc_env.
Proof. split; [reflexivity|]. split; [reflexivity|]. intros k Hk. cbn in Hk. do 5 (destruct k as [|k]; [cbn; lra|]). lia. Qed.
Lemma pmsm_env_proper : env_proper pmsm_env.
Proof. split; [reflexivity|]. split; [reflexivity|]. intros k Hk. cbn in Hk. do 11 (destruct k as [|k]; [cbn; lra|]). lia. Qed.

Lemma command_plain c s r u y : cc_dec c = false -> snd (base_call (cc_base c) s r) = Ok u -> command c s r = Ok y -> y = u.
Proof. intros D Hu Hy. unfold command in Hy. rewrite Hu, D in Hy. injection Hy as ->. reflexivity. Qed.

(** ** C65 Anti-windup *)
(** One control step: an output that is not clipped adds [tau] times the control error to its
    integrator, a clipped one adds nothing. *)
Theorem anti_windup_step :
  forall n c s r c' out, shaped n c -> length r = n -> current_control c s r = (c', Ok out) ->
  exists y v, command c s r = Ok y /\ clipped (cs_clip (cc_clip c)) y = Ok v /\ cc_volt c' = v /\
  forall k, (k < n)%nat ->
    (comp k v = comp k y -> comp k (b_int (cc_base c')) = comp k (b_int (cc_base c)) + aw_tau (cc_aw c) * (comp k r - comp (nth k (aw_idx (cc_aw c)) O) s)) /\
    (comp k v <> comp k y -> comp k (b_int (cc_base c')) = comp k (b_int (cc_base c))).
Proof.
  intros n c s r c' out Hsh Hr H. destruct (current_step n c s r c' out Hsh Hr H) as (_ & y & v & x & S1 & S2 & _ & _ & S5 & S6 & _ & S7 & _). exists y, v. repeat (split; [assumption|]). intros k Hk. rewrite S7 by exact Hk.
  rewrite (select_comp _ _ _ k S5) by (rewrite (proj2 (proj2 (proj2 Hsh))); exact Hk). split; intros E; destruct (reqP (comp k y) (comp k v)) as [E1|E1]; try reflexivity; try (exfalso; apply E1; symmetry; exact E); [exfalso; apply E; symmetry; exact E1|ring].
Qed.
Print Assumptions anti_windup_step.

(** A whole history. *)
Theorem anti_windup_history :
  forall n k ins c c', (k < n)%nat -> shaped n c -> Forall (fun i => length (snd i) = n) ins -> cc_run c ins = Ok c' ->
  shaped n c' /\ comp k (b_int (cc_base c')) = comp k (b_int (cc_base c)) + gained k c ins.
Proof.
  intros n k ins. induction ins as [|[s r] ins IH]; intros c c' Hk Hsh Hl H; cbn [cc_run gained] in *; [injection H as <-; split; [exact Hsh|ring]|].
  destruct (current_control c s r) as [c1 o] eqn:E. apply bind_ok in H. destruct H as (u & -> & H). apply Forall_cons_iff in Hl. destruct Hl as [Hr Hl].
  destruct (current_step n c s r c1 u Hsh Hr E) as (Hsh1 & y & v & x & S1 & S2 & _ & _ & S5 & _ & _ & S7 & _). destruct (IH c1 c' Hk Hsh1 Hl H) as [A B]. split; [exact A|]. rewrite B, S7, S1, S2 by exact Hk. cbn [fst].
  rewrite (select_comp _ _ _ k S5) by (rewrite (proj2 (proj2 (proj2 Hsh))); exact Hk). destruct (reqP (comp k y) (comp k v)) as [E1|E1], (reqP (comp k v) (comp k y)) as [E2|E2]; try ring; exfalso; [apply E2|apply E1]; congruence.
Qed.
Print Assumptions anti_windup_history.

(** While an output saturates its integrator stands still. *)
Theorem saturated_integrator_frozen :
  forall n k ins c c', (k < n)%nat -> shaped n c -> Forall (fun i => length (snd i) = n) ins -> saturated k c ins -> cc_run c ins = Ok c' ->
  comp k (b_int (cc_base c')) = comp k (b_int (cc_base c)).
Proof.
  intros n k ins c c' Hk Hsh Hl Hs H. destruct (anti_windup_history n k ins c c' Hk Hsh Hl H) as [_ ->]. replace (gained k c ins) with 0; [ring|]. clear H Hl Hsh. revert c Hs. induction ins as [|[s r] ins IH]; intros c Hs; cbn [gained saturated] in *; [reflexivity|].
  destruct Hs as [H1 H2]. rewrite <- (IH _ H2), Rplus_0_r. destruct (command c s r) as [y|]; [|reflexivity]. destruct (clipped (cs_clip (cc_clip c)) y) as [v|] eqn:Ev; [|reflexivity]. destruct (reqP (comp k v) (comp k y)) as [E|]; [|reflexivity]. exfalso. exact (H1 y v eq_refl Ev E).
Qed.
Print Assumptions saturated_integrator_frozen.

(** The integrators of a PI controller built by [cc_new], tuned and reset stay bounded, however
    long and however hard it saturates: the bound follows from the voltage limit, a bound of the
    errors and a bound of what the decoupling adds. *)
Theorem integrators_bounded :
  forall id m dec e a c0 c E F ins c', cc_new id "PI" dec = Ok c0 -> cc_tune c0 e id a = Ok c -> motor_type id = Ok m -> env_proper e -> 0 < ce_tau e -> 0 < a ->
  exists l us ui lim, read l_reader m e = Ok l /\ dict_item m voltages = Ok us /\ indices e us = Ok ui /\ select ui (ce_limits e) = Ok lim /\
  forall k, (k < axes m)%nat -> 0 < comp k l -> 0 <= E -> 0 <= F -> Forall (fun i => length (snd i) = axes m) ins -> mild k E F (cc_reset c) ins -> cc_run (cc_reset c) ins = Ok c' ->
  Rabs (comp k (b_int (cc_base c'))) <= (comp k lim + F) * (ce_tau e * ce_tau e * (a * a * a)) / comp k l + ce_tau e * (1 + a * a) * E.
Proof.
  intros id m dec e a c0 c E F ins c' H0 H Hm He Ht Ha. destruct (cc_tuned id "PI" dec e a c0 c m H0 (or_introl eq_refl) H Hm He) as (Sh & K & X & T & Pr & Z & Dc & l & us & ui & lim & El & Eus & Eui & Elim & C).
  exists l, us, ui, lim. repeat (split; [assumption|]). intros k Hk Hl HE HF Hlen Hmild Hrun. destruct (C k Hk) as (C1 & C2 & C3).
  assert (Hd : 0 < ce_tau e * a) by (apply Rmult_lt_0_compat; assumption). assert (Hd2 : 0 < ce_tau e * (a * a)) by (repeat apply Rmult_lt_0_compat; assumption).
  assert (Hpos : 0 < comp k l / (ce_tau e * a) / (ce_tau e * (a * a))) by (repeat apply Rdiv_lt_0_compat; assumption).
  rewrite Rmax_left in C3 by lra. assert (Hkp : 0 < comp k l / (ce_tau e * a)) by (apply Rdiv_lt_0_compat; assumption).
  cbn [String.eqb] in K. destruct c as [b dc ef rq ab cl w v lp]. unfold cc_reset in *. cbn [cc_base cc_clip cc_aw cc_upd cc_dec] in *. cbn in K.
  assert (HI : has_integrator b = true) by (unfold has_integrator; rewrite K; reflexivity). unfold base_reset in *. rewrite HI in *. cbn [base_set_int b_int] in Z.
  assert (HC : cs_clip (clip_reset cl) = cs_clip cl) by reflexivity.
  assert (Ht' : 0 <= aw_tau w) by (rewrite T; lra). assert (Hpos' : 0 < comp k (b_i b)) by (rewrite C3; exact Hpos).
  match type of Sh with shaped _ ?x => pose proof (integrator_run (axes m) k E F x Hk Ht' Hpos' Pr ins x c' Sh K X eq_refl eq_refl eq_refl eq_refl Hlen Hmild Hrun) as HR end.
  cbn zeta in HR. cbn [cc_base base_set_int b_i b_p b_int cc_upd cc_clip cc_aw] in HR. rewrite HC in HR. rewrite Z, C2, C3, T in HR. replace (comp k (repeat 0 (axes m))) with 0 in HR by (symmetry; apply nth_repeat). rewrite Rabs_R0 in HR.
  eapply Rle_trans; [exact HR|]. apply Rmax_lub.
  - apply Rplus_le_le_0_compat; [|apply Rmult_le_pos; [apply Rmult_le_pos; nra|exact HE]]. apply Rmult_le_pos; [|apply Rlt_le, Rinv_0_lt_compat, Hl]. apply Rmult_le_pos; [|repeat apply Rmult_le_pos; lra].
    assert (0 < comp k lim). { pose proof (select_bound _ _ _ Elim) as Hb. rewrite Forall_forall in Hb. pose proof (indices_length _ _ _ Eui) as Lu. rewrite (voltages_axes _ _ Eus) in Lu. rewrite (select_comp _ _ _ k Elim) by lia. apply env_proper_at; [exact He|]. apply Hb, nth_In. lia. } lra.
  - rewrite (Rabs_pos_eq (_ / (ce_tau e * a))) by lra. set (U := clip_bound k (cs_clip cl)) in *. set (L := comp k l) in *. set (t := ce_tau e) in *.
    assert (Hq : 0 < t * t * (a * a * a) / L). { apply Rdiv_lt_0_compat; [repeat apply Rmult_lt_0_compat; assumption|exact Hl]. }
    replace ((U + F + L / (t * a) * E) / (L / (t * a) / (t * (a * a))) + t * E) with ((U + F) * (t * t * (a * a * a) / L) + t * (1 + a * a) * E) by (field; repeat split; lra).
    unfold Rdiv. rewrite (Rmult_assoc (comp k lim + F)). fold (t * t * (a * a * a) / L). assert ((U + F) * (t * t * (a * a * a) / L) <= (comp k lim + F) * (t * t * (a * a * a) / L)) by (apply Rmult_le_compat_r; lra). lra.
Qed.
Print Assumptions integrators_bounded.
Example integrators_bounded_example : exists c0 c c', cc_new "Cont-CC-PermExDc-v0" "PI" false = Ok c0 /\ cc_tune c0 dc_env "Cont-CC-PermExDc-v0" 4 = Ok c /\ motor_type "Cont-CC-PermExDc-v0" = Ok "PermExDc" /\
  axes "PermExDc" = 1%nat /\ read l_reader "PermExDc" dc_env = Ok [1 / 200] /\
  mild 0 200 0 (cc_reset c) [([0; 0; 0; 0; 60], [90])] /\ cc_run (cc_reset c) [([0; 0; 0; 0; 60], [90])] = Ok c'.
Proof.
  do 3 eexists. split; [reflexivity|]. split; [reflexivity|]. split; [reflexivity|]. split; [reflexivity|]. split; [reflexivity|]. split; [|reflexivity]. cbn [mild]. split; [|split; [|exact I]].
  - cbn. apply Rabs_le. lra.
  - intros u y H1 H2. assert (Ey : y = u) by (eapply command_plain; [|exact H1|exact H2]; reflexivity). rewrite Ey, Rminus_diag_eq, Rabs_R0 by reflexivity. lra.
Qed.

(** A vector clipped as a whole: a zero component is not changed by the scaling, so its
    integrator goes on although the vector is clipped. *)
Theorem zero_component_keeps_integrating :
  forall n c s r c' out y k, shaped n c -> length r = n -> current_control c s r = (c', Ok out) -> (exists lim, cs_clip (cc_clip c) = CSq lim 0) ->
  command c s r = Ok y -> (k < n)%nat -> comp k y = 0 ->
  comp k (b_int (cc_base c')) = comp k (b_int (cc_base c)) + aw_tau (cc_aw c) * (comp k r - comp (nth k (aw_idx (cc_aw c)) O) s).
Proof.
  intros n c s r c' out y k Hsh Hr H [lim Hlim] Hy Hk Hz. destruct (anti_windup_step n c s r c' out Hsh Hr H) as (y' & v & E1 & E2 & _ & HS). assert (y' = y) by congruence. subst y'. apply (HS k Hk).
  destruct (current_step n c s r c' out Hsh Hr H) as (_ & y' & v' & x & S1 & _ & L & _). assert (y' = y) by congruence. subst y'. rewrite Hlim in E2. cbn [clipped] in E2. destruct Hsh as (_ & _ & Hc & _). rewrite Hlim in Hc. cbn [clip_shape] in Hc. rewrite sq_clip_val in E2 by congruence. injection E2 as <-.
  rewrite (comp_map (fun x => sq_factor lim 0 y * x)) by lia. rewrite Hz. ring.
Qed.
Print Assumptions zero_component_keeps_integrating.

(** Before the first reset the integrator has one entry; with two or more currents the first
    control step then raises. *)
Theorem control_before_reset_raises :
  forall id dec e a c0 c m s r, cc_new id "PI" dec = Ok c0 -> cc_tune c0 e id a = Ok c -> motor_type id = Ok m -> env_proper e -> (2 <= axes m)%nat -> length r = axes m ->
  forall out, snd (current_control c s r) <> Ok out.
Proof.
  intros id dec e a c0 c m s r H0 H Hm He Hax Hr out Hout. destruct (cc_tuned id "PI" dec e a c0 c m H0 (or_introl eq_refl) H Hm He) as (Sh & K & X & T & Pr & Z & Dc & _).
  assert (Hint : b_int (cc_base c) = [0]).
  { unfold cc_new in H0. apply bind_ok in H0. destruct H0 as (m' & _ & H0). apply bind_ok in H0. destruct H0 as (kd & Ek & H0). injection Ek as <-. injection H0 as <-. unfold cc_tune in H. repeat (apply bind_ok in H; destruct H as (? & ? & H)).
    injection H as <-. cbn [cc_base] in *.
    match goal with E : base_tune_pos _ _ _ _ = Ok _ |- _ => cbn [base_tune_pos base_new b_kind] in E; unfold pi_tune in E; cbn [base_new b_kind b_task] in E; apply bind_ok in E; destruct E as (b1 & E1 & E); injection E as <-; unfold pi_tune_current in E1; apply bind_ok in E1; destruct E1 as (b0 & E0 & E1); injection E1 as <-; unfold p_tune_current in E0; repeat (apply bind_ok in E0; destruct E0 as (? & ? & E0)); injection E0 as <- end. reflexivity. }
  destruct (current_control c s r) as [c' o] eqn:E. cbn [snd] in Hout. rewrite Hout in E. apply current_control_inv in E. destruct E as (b & u & y & cl & v & E1 & _ & _ & _ & E5). pose proof (base_call_static _ _ _ _ _ E1) as (K' & _ & _ & _ & Z' & _).
  assert (HI : has_integrator b = true) by (unfold has_integrator; rewrite K', K; reflexivity). rewrite HI in E5. destruct E5 as (d & z & W & A & _). rewrite Z', Hint in A.
  unfold windup_call in W. apply bind_ok in W. destruct W as (x & Ex & W). apply bind_ok in W. destruct W as (er & Eer & W). destruct Sh as (_ & _ & _ & Hw). pose proof (select_length _ _ _ Ex) as Lx. change (aw_idx (cc_aw (cc_reset c))) with (aw_idx (cc_aw c)) in Hw. rewrite Hw in Lx.
  destruct (np_bin_inv _ _ _ _ (axes m) Eer Hr Lx) as [L1 _]. assert (Ld : length d = axes m) by (apply (np_bin_wide _ _ _ _ _ W); [rewrite map_length; exact L1|exact Hax]).
  destruct d as [|d0 [|d1 d]]; cbn in Ld; [lia|lia|]. discriminate A.
Qed.
Print Assumptions control_before_reset_raises.
Example control_before_reset_raises_example : exists c0 c, cc_new "Cont-CC-PMSM-v0" "PI" true = Ok c0 /\ cc_tune c0 pmsm_env "Cont-CC-PMSM-v0" 4 = Ok c /\ motor_type "Cont-CC-PMSM-v0" = Ok "PMSM" /\ axes "PMSM" = 2%nat.
Proof. do 2 eexists. split; [reflexivity|]. split; [reflexivity|]. split; reflexivity. Qed.

(** ** C66 Squared clipping *)
(** What the stage really does: the direction is kept, but the length of a clipped vector is
    (1 - margin) divided by its length. *)
Theorem squared_clipping_length :
  forall lim m ref, 0 <= m < 1 -> length ref = length lim ->
  exists s v, sq_clip lim m ref = Ok v /\ 0 < s /\ v = map (fun x => s * x) ref /\
  rel_length lim v = (if rlt (rel_length lim ref) (1 - m) then rel_length lim ref else (1 - m) / rel_length lim ref).
Proof.
  intros lim m ref Hm Hl. destruct (sq_clip_length lim m ref Hm Hl) as (v & A & _ & B & _). pose proof A as A'. rewrite sq_clip_val in A' by exact Hl. injection A' as A'. exists (sq_factor lim m ref), v. split; [exact A|]. split; [|split; [symmetry; exact A'|exact B]].
  unfold sq_factor. destruct (rltP (len2 lim ref) ((1 - m) * (1 - m))) as [H|H]; [lra|]. assert (0 < (1 - m) * (1 - m)) by (apply Rmult_lt_0_compat; lra). apply Rdiv_lt_0_compat; lra.
Qed.
Print Assumptions squared_clipping_length.
Example squared_clipping_length_example : exists v, sq_clip [1; 1] (1 / 5) [3; 4] = Ok v /\ rel_length [1; 1] v = 4 / 25.
Proof.
  destruct (squared_clipping_length [1; 1] (1 / 5) [3; 4] ltac:(lra) eq_refl) as (s & v & A & _ & _ & B). exists v. split; [exact A|]. rewrite B.
  assert (E : rel_length [1; 1] [3; 4] = 5). { unfold rel_length. cbn. replace (3 / 1 * (3 / 1) + (4 / 1 * (4 / 1) + 0)) with (5 * 5) by field. apply sqrt_square. lra. } rewrite E. destruct (rltP 5 (1 - 1 / 5)); lra.
Qed.

(** With a margin, no vector between the reduced and the full limit is brought to the reduced
    limit: all of them stay above it. *)
Theorem squared_clipping_respects_margin_refuted :
  forall lim m ref v, 0 < m < 1 -> length ref = length lim -> 1 - m <= rel_length lim ref < 1 -> sq_clip lim m ref = Ok v -> 1 - m < rel_length lim v.
Proof.
  intros lim m ref v Hm Hl Hr H. destruct (squared_clipping_length lim m ref ltac:(lra) Hl) as (s & v' & A & _ & _ & B). assert (v' = v) by congruence. subst v'. rewrite B. destruct (rltP (rel_length lim ref) (1 - m)) as [|_]; [lra|].
  apply (Rmult_lt_reg_r (rel_length lim ref)); [lra|]. unfold Rdiv. rewrite Rmult_assoc, Rinv_l by lra. nra.
Qed.
Print Assumptions squared_clipping_respects_margin_refuted.
Example squared_clipping_respects_margin_refuted_example : exists v, sq_clip [10; 10] (1 / 5) [9; 0] = Ok v /\ 4 / 5 <= rel_length [10; 10] [9; 0] < 1 /\ rel_length [10; 10] v = 8 / 9.
Proof.
  destruct (squared_clipping_length [10; 10] (1 / 5) [9; 0] ltac:(lra) eq_refl) as (s & v & A & _ & _ & B). exists v. split; [exact A|].
  assert (E : rel_length [10; 10] [9; 0] = 9 / 10). { unfold rel_length. cbn. replace (9 / 10 * (9 / 10) + (0 / 10 * (0 / 10) + 0)) with (9 / 10 * (9 / 10)) by field. apply sqrt_square. lra. } rewrite B, E. split; [lra|]. destruct (rltP (9 / 10) (1 - 1 / 5)); lra.
Qed.

(** Without a margin the limit is kept ... *)
Theorem squared_clipping_within_limit :
  forall lim ref v, length ref = length lim -> sq_clip lim 0 ref = Ok v -> rel_length lim v <= 1.
Proof.
  intros lim ref v Hl H. destruct (squared_clipping_length lim 0 ref ltac:(lra) Hl) as (s & v' & A & _ & _ & B). assert (v' = v) by congruence. subst v'. rewrite B. rewrite Rminus_0_r. destruct (rltP (rel_length lim ref) 1) as [H1|H1]; [lra|].
  apply (Rmult_le_reg_r (rel_length lim ref)); [lra|]. unfold Rdiv. rewrite Rmult_assoc, Rinv_l by lra. lra.
Qed.
Print Assumptions squared_clipping_within_limit.

(** ... but a reference beyond it is not mapped to the limit: the further away it is, the
    shorter the result, down to nothing. *)
Theorem squared_clipping_to_limit_refuted :
  forall lim m ref eps, 0 <= m < 1 -> length ref = length lim -> 0 < rel_length lim ref -> 0 < eps ->
  exists f, 0 < f /\ forall g v, f <= g -> sq_clip lim m (map (fun x => g * x) ref) = Ok v -> rel_length lim v < eps.
Proof.
  intros lim m ref eps Hm Hl Hr He. set (rho := rel_length lim ref) in *. exists ((1 + 1 / eps) / rho). assert (H1 : 0 < 1 / eps) by (apply Rdiv_lt_0_compat; lra). split; [apply Rdiv_lt_0_compat; lra|]. intros g v Hg H.
  assert (Hg0 : 0 < g) by (apply Rlt_le_trans with (2 := Hg); apply Rdiv_lt_0_compat; lra).
  destruct (squared_clipping_length lim m (map (fun x => g * x) ref) Hm ltac:(rewrite map_length; exact Hl)) as (s & v' & A & _ & _ & B). assert (v' = v) by congruence. subst v'. rewrite B. rewrite rel_length_scale by lra. fold rho.
  assert (H2 : 1 + 1 / eps <= g * rho). { apply (Rmult_le_compat_r rho) in Hg; [|lra]. unfold Rdiv in Hg at 1. rewrite Rmult_assoc, Rinv_l in Hg by lra. lra. }
  destruct (rltP (g * rho) (1 - m)) as [H3|H3]; [lra|]. apply (Rmult_lt_reg_r (g * rho)); [lra|]. unfold Rdiv at 1. rewrite Rmult_assoc, Rinv_l by lra. assert (eps * (1 / eps) = 1) by (field; lra). nra.
Qed.
Print Assumptions squared_clipping_to_limit_refuted.
Example squared_clipping_to_limit_refuted_example : 0 < rel_length [1; 1] [1; 0].
Proof. unfold rel_length. cbn. apply sqrt_lt_R0. lra. Qed.

(** Tuning a squared clipping stage drops the margin: any margin gives the same stage with margin 0. *)
Theorem squared_clipping_margin_dropped :
  forall t e id margin c, clip_tune (sq_new t) e id margin = Ok c -> clip_tune (sq_new t) e id 0 = Ok c /\ exists lim, cs_clip c = CSq lim 0.
Proof.
  intros t e id margin c H. unfold clip_tune in *. apply bind_ok in H. destruct H as (m & E1 & H). apply bind_ok in H. destruct H as (us & E2 & H). apply bind_ok in H. destruct H as (idx & E3 & H). rewrite E1. cbn [bind]. rewrite E2. cbn [bind]. rewrite E3. cbn [bind]. cbn [sq_new cs_clip] in *.
  split; [exact H|]. apply bind_ok in H. destruct H as (l & E & H). injection H as <-. exists l. reflexivity.
Qed.
Print Assumptions squared_clipping_margin_dropped.
Example squared_clipping_margin_dropped_example : exists c, clip_tune (sq_new TC) pmsm_env "Cont-TC-PMSM-v0" (1 / 10) = Ok c /\ cs_clip c = CSq [100; 100] 0.
Proof. eexists. split; reflexivity. Qed.

(** The combined stage of the EESM without margin: stator part within the limits, excitation within its range. *)
Theorem combined_clipping :
  forall lim lo hi ref v, length lim = 2%nat -> length lo = 1%nat -> length hi = 1%nat -> length ref = 3%nat -> comp 0 lo <= comp 0 hi -> clipped (CComb lim lo hi 0) ref = Ok v ->
  rel_length lim (firstn 2 v) <= 1 /\ comp 0 lo <= comp 2 v <= comp 0 hi /\ (rel_length lim (firstn 2 ref) < 1 -> comp 0 lo <= comp 2 ref <= comp 0 hi -> v = ref).
Proof.
  intros lim lo hi ref v L1 L2 L3 L4 Hle H. destruct ref as [|r0 [|r1 [|r2 [|]]]]; try discriminate L4. cbn [clipped select nth_error bind firstn] in H |- *. apply bind_ok in H. destruct H as (s & E1 & H). apply bind_ok in H. destruct H as (a & E2 & H). injection H as <-.
  destruct (squared_clipping_length lim 0 [r0; r1] ltac:(lra) (eq_sym L1)) as (f & s' & A & F & B & C). assert (s' = s) by congruence. subst s'. destruct (np_clips_inv _ _ _ _ 1%nat E2 eq_refl L2 L3) as [La Ca]. specialize (Ca O ltac:(lia)).
  destruct a as [|a0 [|]]; try discriminate La. cbn [comp nth] in Ca |- *. subst s. cbn [map app firstn comp nth]. unfold comp in Hle. cbn [map] in *. split; [apply (squared_clipping_within_limit lim [r0; r1] _ (eq_sym L1) E1)|].
  split; [rewrite Ca; split; [apply np_clip_lb; exact Hle|apply np_clip_ub]|]. intros Hs [H1 H2]. rewrite Ca. unfold comp in H1, H2. rewrite np_clip_id by (split; assumption).
  rewrite sq_clip_val in E1 by (symmetry; exact L1). unfold sq_factor in E1. cbn [map] in E1. rewrite rlt_len in E1 by lra. replace (rlt (rel_length lim [r0; r1]) (1 - 0)) with true in E1 by (symmetry; apply rlt_true; lra). injection E1 as E1 E3. unfold comp. rewrite <- E1, <- E3, !Rmult_1_l. reflexivity.
Qed.
Print Assumptions combined_clipping.

(** ** C67 Absolute clipping *)
Theorem absolute_clipping :
  forall n lo hi ref c c' v, cs_clip c = CAbs lo hi -> length lo = n -> length hi = n -> length ref = n -> (forall k, (k < n)%nat -> comp k lo <= comp k hi) -> clip_call c ref = (c', Ok v) ->
  length v = n /\ forall k, (k < n)%nat ->
    comp k lo <= comp k v <= comp k hi /\
    (comp k lo <= comp k ref <= comp k hi -> comp k v = comp k ref) /\
    (forall x, comp k lo <= x <= comp k hi -> Rabs (comp k v - comp k ref) <= Rabs (x - comp k ref)) /\
    (comp k (cs_diff c') = 0 <-> comp k lo <= comp k ref <= comp k hi).
Proof.
  intros n lo hi ref c c' v Hc L1 L2 L3 Hle H. destruct (clip_call_inv _ _ _ _ H) as (C1 & _ & _ & C4). rewrite Hc in C1. cbn [clipped] in C1. destruct (np_clips_inv _ _ _ _ n C1 L3 L1 L2) as [Lv Cv]. destruct (np_bin_inv _ _ _ _ n C4 L3 Lv) as [_ Cd].
  split; [exact Lv|]. intros k Hk. rewrite Cd, Cv by exact Hk. specialize (Hle k Hk). set (x := comp k ref). set (a := comp k lo) in *. set (b := comp k hi) in *. pose proof (np_clip_lb x a b Hle) as B1. pose proof (np_clip_ub x a b) as B2.
  split; [lra|]. split; [intros H1; apply np_clip_id; exact H1|]. split.
  - intros z Hz. unfold np_clip. unfold Rmin, Rmax, Rabs. repeat destruct (Rle_dec _ _); repeat destruct (Rcase_abs _); lra.
  - split; [intros E; assert (E' : x = np_clip x a b) by lra; rewrite E'; lra|intros H1; rewrite np_clip_id by exact H1; lra].
Qed.
Print Assumptions absolute_clipping.
(** The range of a tuned stage: bounds of the observations times limits, reduced by the margin. *)
Theorem absolute_clipping_range :
  forall t e id m margin c names idx, clip_tune (abs_new t) e id margin = Ok c -> motor_type id = Ok m -> clip_names (abs_new t) m = Ok names -> indices e names = Ok idx ->
  exists lo hi, cs_clip c = CAbs lo hi /\ action_range c = Ok [lo; hi] /\ length lo = length names /\ length hi = length names /\
  forall k, (k < length names)%nat -> let i := nth k idx O in comp k lo = comp i (ce_low e) * comp i (ce_limits e) * (1 - margin) /\ comp k hi = comp i (ce_high e) * comp i (ce_limits e) * (1 - margin).
Proof.
  intros t e id m margin c names idx H Hm Hn Hi. unfold clip_tune in H. rewrite Hm in H. cbn [bind] in H. rewrite Hn in H. cbn [bind] in H. rewrite Hi in H. cbn [bind abs_new cs_clip] in H. apply bind_ok in H. destruct H as (r & Er & H). injection H as <-. pose proof (indices_length _ _ _ Hi) as Li.
  destruct (ranges_inv _ _ _ _ _ Li Er) as (l & lo & hi & E1 & E2 & E3 & L1 & L2 & C). exists (fst r), (snd r). split; [reflexivity|]. split; [reflexivity|]. split; [exact L1|]. split; [exact L2|]. intros k Hk i. destruct (C k Hk) as [-> ->].
  rewrite (select_comp _ _ _ k E1), (select_comp _ _ _ k E2), (select_comp _ _ _ k E3) by lia. unfold i. split; ring.
Qed.
Print Assumptions absolute_clipping_range.
Example absolute_clipping_range_example : exists c, clip_tune (abs_new TC) dc_env "Cont-TC-PermExDc-v0" (1 / 10) = Ok c /\ motor_type "Cont-TC-PermExDc-v0" = Ok "PermExDc" /\ clip_names (abs_new TC) "PermExDc" = Ok ["i"] /\ indices dc_env ["i"] = Ok [2%nat] /\
  exists c' v, clip_call c [123] = (c', Ok v).
Proof. eexists. split; [reflexivity|]. split; [reflexivity|]. split; [reflexivity|]. split; [reflexivity|]. do 2 eexists. reflexivity. Qed.

(** ** C68 The returned voltage *)
(** The voltage that leaves the current controller is the one before clipping; the clipped one
    is only stored and used for the anti-windup. *)
Theorem returned_voltage_is_unclipped :
  forall n c s r c' out, shaped n c -> length r = n -> current_control c s r = (c', Ok out) ->
  exists y, command c s r = Ok y /\ (if cc_req c then abc_call (cc_abc c) s y else Ok y) = Ok out /\ clipped (cs_clip (cc_clip c)) y = Ok (cc_volt c').
Proof.
  intros n c s r c' out Hsh Hr H. destruct (current_step n c s r c' out Hsh Hr H) as (_ & y & v & x & S1 & S2 & _ & _ & _ & S6 & S7 & _). exists y. split; [exact S1|]. split; [exact S7|]. rewrite S6. exact S2.
Qed.
Print Assumptions returned_voltage_is_unclipped.

(** So it leaves every bound: for each state there is a reference with a larger voltage. *)
Theorem returned_voltage_within_limits_refuted :
  forall n k c s x B, (k < n)%nat -> shaped n c -> b_kind (cc_base c) = KPI -> cc_dec c = false -> cc_req c = false -> b_idx (cc_base c) = Some (aw_idx (cc_aw c)) -> select (aw_idx (cc_aw c)) s = Ok x -> 0 < comp k (b_p (cc_base c)) ->
  exists r c' out, length r = n /\ current_control c s r = (c', Ok out) /\ B < comp k out.
Proof.
  intros n k c s x B Hk Hsh HK HD HQ Hidx Hx Hp. destruct Hsh as ((P1 & P2 & P3 & _ & _) & _ & Hcl & Hw). pose proof (select_length _ _ _ Hx) as Lx. rewrite Hw in Lx.
  set (p := comp k (b_p (cc_base c))) in *. set (i := comp k (b_i (cc_base c)) * comp k (b_int (cc_base c))). set (rk := comp k x + (Rabs (B - i) + 1) / p).
  exists (repeat rk n). assert (Lr : length (repeat rk n) = n) by apply repeat_length.
  unfold current_control, base_call. rewrite HK, HD, HQ. unfold pi_control, base_states. rewrite Hidx, Hx. cbn [bind]. unfold p_part, i_part.
  destruct (np_bin_ok Rminus (repeat rk n) x n Lr Lx) as (er & -> & L1 & C1). cbn [bind]. destruct (np_bin_ok Rmult (b_p (cc_base c)) er n P1 L1) as (pp & -> & L2 & C2). cbn [bind]. destruct (np_bin_ok Rmult (b_i (cc_base c)) (b_int (cc_base c)) n P2 P3) as (ii & -> & L3 & C3). cbn [bind].
  destruct (np_bin_ok Rplus pp ii n L2 L3) as (u & -> & L4 & C4). cbn [bind]. unfold clip_call. assert (exists v, clipped (cs_clip (cc_clip c)) u = Ok v) as [v Ev].
  { destruct (cs_clip (cc_clip c)) as [lo hi|lim mg|lim lo hi mg]; cbn [clip_shape clipped] in *; [destruct Hcl; apply (np_clips_ok u lo hi n); auto|eexists; apply sq_clip_val; congruence|].
    destruct Hcl as (-> & Q1 & Q2 & Q3). destruct u as [|u0 [|u1 [|u2 [|]]]]; try discriminate L4. cbn [select nth_error bind]. rewrite sq_clip_val by (symmetry; exact Q1). cbn [bind]. destruct (np_clips_ok [u2] lo hi 1 eq_refl Q2 Q3) as [w ->]. eexists. reflexivity. }
  rewrite Ev. pose proof (clipped_length _ _ _ n Hcl L4 Ev) as Lv. destruct (np_bin_ok Rminus u v n L4 Lv) as (d & -> & L5 & _). cbn [cs_diff]. replace (has_integrator (cc_base c)) with true by (unfold has_integrator; rewrite HK; reflexivity).
  unfold windup_call. rewrite Hx. cbn [bind]. destruct (np_bin_ok Rminus (repeat rk n) x n Lr Lx) as (er' & -> & L1' & _). cbn [bind].
  destruct (np_bin_ok Rmult (map (fun z => aw_tau (cc_aw c) * z) er') (map (fun z => if req z 0 then 1 else 0) d) n ltac:(rewrite map_length; exact L1') ltac:(rewrite map_length; exact L5)) as (g & -> & L6 & _). cbn [bind]. unfold np_iadd. rewrite P3, L6, Nat.eqb_refl. cbn [bind].
  do 2 eexists. split; [exact Lr|]. split; [reflexivity|]. rewrite C4, C2, C3, C1 by exact Hk. fold p i. replace (comp k (repeat rk n)) with rk by (unfold comp; symmetry; rewrite nth_repeat_lt by exact Hk; reflexivity).
  unfold rk. replace (comp k x + (Rabs (B - i) + 1) / p - comp k x) with ((Rabs (B - i) + 1) / p) by ring. replace (p * ((Rabs (B - i) + 1) / p)) with (Rabs (B - i) + 1) by (field; lra). pose proof (Rle_abs (B - i)). fold i. lra.
Qed.
Print Assumptions returned_voltage_within_limits_refuted.
