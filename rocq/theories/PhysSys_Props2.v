(** Further theorems about the physical systems: angles, currents, the system equation,
    supplies. *)
From Verif Require Import PyBaseFacts PyDictFacts Conv_Model Conv_Spec Conv_Proofs Conv_Proofs2 Conv_Props Solver_Model Solver_Spec Solver_Proofs Supply_Model
  Transform_Model Transform_Proofs Transform_Props Motor_Model Motor_Spec Motor_Proofs Motor_Props Loads_Model Loads_Props
  PhysSys_Model PhysSys_Spec PhysSys_Proofs PhysSys_Proofs2 PhysSys_Proofs3 PhysSys_Props.

Lemma nth_mid {A} (pre post : list A) e k : k = length pre -> nth_error (pre ++ e :: post) k = Some e.
Proof. intros ->. rewrite nth_error_app2, Nat.sub_diag by lia. reflexivity. Qed.
Lemma Ok_inj {A} (a b : A) : Ok a = Ok b -> a = b.
Proof. congruence. Qed.
Ltac bindh H :=
  match type of H with
  | bind ?r _ = Ok _ => let E := fresh "E" in let v := fresh "v" in destruct r as [v|] eqn:E; cbn [bind] in H; [|discriminate H]
  end.
Lemma obs_entry (st : list R) limits (o : list R) k e l : np_div st limits = Ok o -> nth_error st k = Some e -> nth_error limits k = Some l -> nth_error o k = Some (ldiv e l).
Proof.
  unfold np_div. destruct (Nat.eqb (length st) (length limits)); [|discriminate]. intros H He Hl. injection H as <-. rewrite map2_nth_error. now rewrite He, Hl.
Qed.

(** ** C46 The reported angle is the angle of the state, wrapped into (-pi, pi] *)
(** [k]: position of epsilon in the state vector. *)
Definition angle_reported {C S U} (ml : mload) (mo : motor U) (k : nat) (limits : list lim) (x' : sys C S U) (o : list R) : Prop :=
  exists y eps e, eu_y (sy_e x') = Some y /\ nth_error y (eps_idx ml mo) = Some eps /\ nth_error (sy_state x') k = Some e /\
    - PI < e <= PI /\ same_angle e eps /\
    (nth_error limits k = Some (Fin PI) -> exists n, nth_error o k = Some n /\ -1 < n <= 1 /\ n * PI = e).
Lemma angle_reported_intro {C S U} ml (mo : motor U) k limits (x' : sys C S U) o y eps : eu_y (sy_e x') = Some y -> nth_error y (eps_idx ml mo) = Some eps ->
  nth_error (sy_state x') k = Some (wrap_angle eps) -> np_div (sy_state x') limits = Ok o -> angle_reported ml mo k limits x' o.
Proof.
  intros H1 H2 H3 H4. destruct (wrap_angle_spec eps) as [Hr Hs]. exists y, eps, (wrap_angle eps). split; [exact H1|]. split; [exact H2|]. split; [exact H3|]. split; [exact Hr|]. split; [exact Hs|].
  intros Hl. exists (wrap_angle eps / PI). pose proof PI_RGT_0 as Hpi. split; [exact (obs_entry _ _ _ _ _ _ H4 H3 Hl)|].
  assert (E : wrap_angle eps / PI * PI = wrap_angle eps) by (field; lra). split; [|exact E].
  set (n := wrap_angle eps / PI) in *. rewrite <- E in Hr. split; nra.
Qed.

Theorem reported_angle_in_range :
  forall C S A (cv : conv_if C A) (sp : supply_if S) tau ml limits act,
  (forall f mo a x x' o, mo_nc mo = 2%nat ->
     simulate cv sp f tau (sync_view ml mo) snd sync_volt sync_volt act (sync_out ml mo) limits a x = (x', Ok o) ->
     angle_reported ml mo (ml_n ml + 11) limits x' o) /\
  (forall f mo a x x' o, mo_nc mo = 3%nat ->
     simulate cv sp f tau (eesm_view ml mo) snd eesm_volt eesm_volt_last act (eesm_out ml mo) limits a x = (x', Ok o) -> 
     (forall s, segment_ok cv sp f (eu_n (sy_e x)) (sy_t x) (eesm_view ml mo) snd eesm_volt_last s -> length (sg_conv s) = 4%nat /\ length (sg_sup s) = 1%nat) ->
     angle_reported ml mo (ml_n ml + 13) limits x' o) /\
  (forall f mo a x x' o, mo_nc mo = 2%nat ->
     simulate cv sp f tau (scim_view ml mo) snd scim_volt scim_volt act (scim_out ml mo) limits a x = (x', Ok o) ->
     angle_reported ml mo (ml_n ml + 11) limits x' o) /\
  (forall f mo im sd rd a x x' o act', mo_nc mo = 2%nat ->
     simulate cv sp f tau (dfim_view ml mo im) dfim_cur (dfim_volt sd rd) (dfim_volt sd rd) act' (dfim_out ml mo im sd rd) limits a x = (x', Ok o) ->
     angle_reported ml mo (ml_n ml + 21) limits x' o).
Proof.
  intros C S A cv sp tau ml limits act. split; [|split; [|split]].
  - intros f mo a x x' o Hn H. destruct (sync_simulate_inv _ _ _ _ _ _ _ _ _ _ _ _ H)
      as (segs & sl & y & mech & tq & iabc & idq & u & udq & us & eo & eps & _ & _ & _ & _ & _ & _ & _ & H1 & _ & H2 & _ & _ & _ & _ & _ & L1 & L2 & L3 & L4 & L5 & H3 & H4).
    apply (angle_reported_intro _ _ _ _ _ _ y eps H1 H2); [|exact H4]. rewrite H3, !app_assoc. rewrite <- app_assoc. apply nth_mid. rewrite !app_length. cbn [length]. lia.
  - intros f mo a x x' o Hn H Hw.
    destruct (simulate_inv _ _ _ _ _ _ _ _ _ _ _ _ _ _ _ H)
      as (y0 & v0 & a' & c' & ts & vl & iv & y1 & y2 & segs & sl & st & H1 & H2 & H3 & H4 & H5 & H6 & H7 & H8 & H9 & H10 & H11 & H12 & H13 & H14 & H15 & H16 & _ & _ & _ & _ & H21 & _ & _ & _ & _).
    destruct (Hw _ H11) as [W1 W2]. destruct H11 as (v & isup & K1 & K2 & K3 & K4 & K5 & K6).
    assert (Lu : length (scale_voltages (sg_conv sl) (sg_sup sl)) = 4%nat) by (rewrite scale_length; lia).
    unfold eesm_volt_last in K5. change (flat_map (fun a0 => map (fun b => a0 * b) (sg_sup sl)) (sg_conv sl)) with (scale_voltages (sg_conv sl) (sg_sup sl)) in K5. bindh K5. apply Ok_inj in K5.
    destruct (abc_to_dq_len _ _ _ E) as [_ L5].
    unfold eesm_out in H14. rewrite H13 in H14. cbn [iv_u iv_sup iv_par iv_y] in H14. repeat bindh H14. apply Ok_inj in H14.
    assert (Lp : length (sg_par sl) = 3%nat) by (rewrite <- K5, app_length, skipn_length; lia).
    apply (angle_reported_intro _ _ _ _ _ _ y2 v7 H16); [now apply item_nth| |now rewrite H21].
    rewrite H21, <- H14, !app_assoc. rewrite <- app_assoc. apply nth_mid. rewrite !app_length, firstn_length.
    rewrite (select_len _ _ _ E2), (dq_to_abc_len _ _ _ E4), (select_len _ _ _ E3). unfold load_idx, cur_idx. rewrite !seq_length. cbn [length]. lia.
  - intros f mo a x x' o Hn H.
    destruct (simulate_inv _ _ _ _ _ _ _ _ _ _ _ _ _ _ _ H)
      as (y0 & v0 & a' & c' & ts & vl & iv & y1 & y2 & segs & sl & st & H1 & H2 & H3 & H4 & H5 & H6 & H7 & H8 & H9 & H10 & H11 & H12 & H13 & H14 & H15 & H16 & _ & _ & _ & _ & H21 & _ & _ & _ & _).
    unfold scim_out in H14. rewrite H13 in H14. cbn [iv_u iv_sup iv_par iv_y] in H14. repeat bindh H14. apply Ok_inj in H14.
    destruct (abc_to_dq_len _ _ _ E) as [L4 L5].
    apply (angle_reported_intro _ _ _ _ _ _ y2 v7 H16); [now apply item_nth| |now rewrite H21].
    rewrite H21, <- H14, !app_assoc. rewrite <- app_assoc. apply nth_mid. rewrite !app_length.
    rewrite (select_len _ _ _ E2), (dq_to_abc_len _ _ _ E5), (q_len _ _ _ E4). unfold load_idx. rewrite !seq_length. cbn [length]. lia.
  - intros f mo im sd rd a x x' o act' Hn H.
    destruct (simulate_inv _ _ _ _ _ _ _ _ _ _ _ _ _ _ _ H)
      as (y0 & v0 & a' & c' & ts & vl & iv & y1 & y2 & segs & sl & st & H1 & H2 & H3 & H4 & H5 & H6 & H7 & H8 & H9 & H10 & H11 & H12 & H13 & H14 & H15 & H16 & _ & _ & _ & _ & H21 & _ & _ & _ & _).
    unfold dfim_out in H14. rewrite H13 in H14. cbn [iv_u iv_sup iv_par iv_y] in H14. destruct vl as [[[ef eel] is] ir]. repeat bindh H14. apply Ok_inj in H14.
    destruct (abc_to_dq_len _ _ _ E) as [L4 L5]. destruct (abc_to_dq_len _ _ _ E0) as [L6 L7].
    apply (angle_reported_intro _ _ _ _ _ _ y2 v11 H16); [now apply item_nth| |now rewrite H21].
    rewrite H21, <- H14, !app_assoc. rewrite <- app_assoc. apply nth_mid. rewrite !app_length.
    rewrite (select_len _ _ _ E3), (q_len _ _ _ E5), (dq_to_abc_len _ _ _ E6), (q_len _ _ _ E8), (dq_to_abc_len _ _ _ E9). unfold load_idx. rewrite !seq_length. cbn [length]. lia.
Qed.
Print Assumptions reported_angle_in_range.

(** After a reset the angle is only shifted once: it is in range exactly when the
    initial angle lies in (-pi, 3 pi]. *)
Theorem reset_angle_range :
  forall ml mo mech ms u us o eps, length mech = ml_n ml -> mo_nc mo = 2%nat ->
  nth_error (mech ++ ms) (eps_idx ml mo) = Some eps ->
  sync_obs ml mo mech ms u us = Ok o ->
  exists e, nth_error o (ml_n ml + 11) = Some e /\ same_angle e eps /\ (- PI < e <= PI <-> - PI < eps <= 3 * PI).
Proof.
  intros ml mo mech ms u us o eps Hm Hn He H. unfold sync_obs in H. rewrite (nth_item _ _ _ He) in H. cbn [bind] in H. repeat bindh H. apply Ok_inj in H. subst o.
  destruct (abc_to_dq_len _ _ _ E) as [L1 L2]. pose proof PI_RGT_0 as Hpi.
  exists (wrap eps). split; [|split].
  - rewrite !app_assoc. rewrite <- app_assoc. apply nth_mid. rewrite !app_length, (dq_to_abc_len _ _ _ E1), (select_len _ _ _ E0). unfold cur_idx. rewrite seq_length. cbn [length]. lia.
  - unfold wrap. destruct (rltP PI eps); [exists (-1)%Z|exists 0%Z]; lra.
  - unfold wrap. destruct (rltP PI eps); lra.
Qed.
Print Assumptions reset_angle_range.
Example reset_angle_out_of_range : exists o, sync_obs const_load (pmsm_motor {| pm_p := 1; pm_ld := 1; pm_lq := 1; pm_rs := 1; pm_psi := 1 |}) [0] [0; 0; 4 * PI] [0; 0; 0] [1] = Ok o /\ nth_error o 12 = Some (2 * PI).
Proof.
  unfold sync_obs. cbn [item nth_error app eps_idx ml_n mo_n const_load pmsm_motor Nat.add Nat.sub bind]. pose proof PI_RGT_0 as Hpi.
  unfold wrap. destruct (rltP PI (4 * PI)); [|lra]. cbn [abc_to_dq]. unfold abc_to_dq. rewrite t_23_val. cbn [bind]. rewrite q_inv_val. cbn [bind].
  cbn [cur_idx const_load pmsm_motor ml_n mo_nc seq select nth_error app bind]. unfold dq_to_abc. rewrite q_val. cbn [bind]. rewrite t_32_val. cbn [bind mo_torque pmsm_motor pmsm_torque item nth_error].
  eexists. split; [reflexivity|]. cbn [app nth_error]. f_equal. lra.
Qed.

(** ** C102 An action in dq coordinates is applied as dq voltage *)
Lemma sort_set_same x : sort_set [x; x; x] = [x].
Proof. unfold sort_set. cbn [fold_right set_insert]. destruct (rltP x x); [lra|]. destruct (reqP x x); [|lra]. cbn [set_insert]. destruct (rltP x x); [lra|]. destruct (reqP x x); [reflexivity|lra]. Qed.
Definition b6_tau (T : R) (c : con) : Prop :=
  match c with C6 p => cq_tau (c6_a p) = T /\ cq_tau (c6_b p) = T /\ cq_tau (c6_c p) = T | _ => False end.
Lemma b6_tau_step T c o : b6_tau T c -> b6_tau T (con_step c o).
Proof.
  destruct c as [p|p|p|p]; cbn [b6_tau]; try tauto. intros H. destruct o as [a t| |v]; cbn [con_step con_set_action con_reset con_set_tau fst].
  - destruct a as [|a1 [|a2 [|a3 a]]]; try exact H.
  - cbn. exact H.
  - exact H.
Qed.
Definition b6_reach (T : R) (c : con) : Prop := (exists cops, c = con_run (con_new KC6 T 0) cops) /\ b6_tau T c.
Lemma b6_reach_step T c o : b6_reach T c -> b6_reach T (con_step c o).
Proof. intros [[cops ->] H]. split; [|now apply b6_tau_step]. exists (cops ++ [o]). unfold con_run. now rewrite fold_left_app. Qed.
Lemma b6_kept T : conv_kept con_if (b6_reach T).
Proof.
  split; [|split]; cbn [con_if cv_set_action cv_convert cv_reset fst].
  - intros c a t H. exact (b6_reach_step T c (CopSet a t) H).
  - auto.
  - intros c H. exact (b6_reach_step T c CopReset H).
Qed.
Lemma b6_dim T c : b6_tau T c -> con_dim c = 3%nat.
Proof. destruct c; cbn; tauto. Qed.
Lemma clipped_id x lo hi : lo <= x <= hi -> clipped x lo hi = x.
Proof. intros H. unfold clipped. destruct (rltP x lo), (rltP hi x); lra. Qed.
Lemma unit_bound a b : a * a + b * b <= 1 -> -1 <= a <= 1.
Proof. intros H. split; nra. Qed.
(** Sampling the B6 bridge with the transformed action. *)
Lemma dq_action_voltage T c d x eps t i t' : b6_reach T c -> d * d + x * x <= 1 -> length i = 3%nat ->
  exists a c', dq_to_abc [d; x] eps false = Ok a /\ con_set_action c a t = (c', Ok [t + T]) /\
  exists u, con_convert c' i t' = Ok u /\ forall us, abc_to_dq (map (fun z => z * us) u) eps false = Ok [us / 2 * d; us / 2 * x].
Proof.
  intros [[cops Hc] HT] Hdx Hi. pose proof (b6_dim T c HT) as Hdim.
  destruct (dq_to_abc_total [d; x] eps eq_refl) as (a & Ea & La). exists a.
  destruct (con_set_action c a t) as [c' ts] eqn:Es. exists c'. split; [exact Ea|].
  assert (Hts : ts = Ok [t + T]).
  { clear -HT Es La. destruct c as [p|p|p|p]; cbn [b6_tau] in HT; try tauto. destruct (len3 a La) as (a1 & a2 & a3 & ->). cbn in Es. injection Es as _ <-.
    destruct HT as (-> & -> & ->). f_equal. apply sort_set_same. }
  subst ts. split; [reflexivity|].
  pose proof (continuous_output_is_clipped_action KC6 T cops a t i t') as Hout. cbv zeta in Hout. rewrite <- Hc in Hout. rewrite Es in Hout. cbn [fst] in Hout.
  exists (map (fun z => clipped z (-1) 1 / 2) a). split; [apply Hout; [congruence|congruence|discriminate]|].
  intros us. unfold dq_to_abc, el_angle in Ea. rewrite q_val in Ea. cbn [bind] in Ea. rewrite t_32_val in Ea. injection Ea as <-.
  set (al := cos eps * d - sin eps * x) in *. set (be := sin eps * d + cos eps * x) in *.
  pose proof (sincos eps) as Hsc.
  assert (Hn : al * al + be * be <= 1).
  { replace (al * al + be * be) with ((sin eps * sin eps + cos eps * cos eps) * (d * d + x * x)) by (unfold al, be; ring). rewrite Hsc. lra. }
  pose proof sqrt3 as H3.
  assert (B1 : -1 <= al <= 1) by (apply (unit_bound al be); exact Hn).
  assert (B2 : -1 <= - al / 2 + sqrt 3 / 2 * be <= 1).
  { apply (unit_bound _ (sqrt 3 / 2 * al + be / 2)). replace (_ + _) with ((1 + 3) / 4 * (al * al + be * be)) by (rewrite <- H3 at 1; field). lra. }
  assert (B3 : -1 <= - al / 2 - sqrt 3 / 2 * be <= 1).
  { apply (unit_bound _ (sqrt 3 / 2 * al - be / 2)). replace (_ + _) with ((1 + 3) / 4 * (al * al + be * be)) by (rewrite <- H3 at 1; field). lra. }
  cbn [map]. rewrite !clipped_id by assumption. unfold abc_to_dq, el_angle. rewrite t_23_val. cbn [bind]. rewrite q_inv_val. f_equal.
  assert (G1 : 2 / 3 * (al / 2 * us - (- al / 2 + sqrt 3 / 2 * be) / 2 * us / 2 - (- al / 2 - sqrt 3 / 2 * be) / 2 * us / 2) = us / 2 * al) by field.
  assert (G2 : sqrt 3 / 3 * ((- al / 2 + sqrt 3 / 2 * be) / 2 * us - (- al / 2 - sqrt 3 / 2 * be) / 2 * us) = us / 2 * be).
  { replace (_ * _) with (sqrt 3 * sqrt 3 / 3 * (us / 2 * be)) by field. rewrite H3. field. }
  rewrite G1, G2. f_equal; [|f_equal]; unfold al, be.
  - replace (_ + _) with (us / 2 * ((sin eps * sin eps + cos eps * cos eps) * d)) by ring. rewrite Hsc. ring.
  - replace (_ - _) with (us / 2 * ((sin eps * sin eps + cos eps * cos eps) * x)) by ring. rewrite Hsc. ring.
Qed.

(** In every history of a synchronous machine with continuous B6 bridge (no
    interlocking) and ideal supply, an action of length at most one in dq coordinates
    is one single interval, and half the supply voltage times the action is applied. *)
Theorem dq_action_is_applied :
  forall tau u f N ml mo limits obs ops x x' d q0 x'' o,
  (forall i r, mo_i_in mo i = Ok r -> length r = 2%nat) ->
  fresh (con_new KC6 tau 0) (ideal_new u) N limits x ->
  let sim := simulate con_if ideal_if f tau (sync_view ml mo) snd sync_volt sync_volt sync_act_dq (sync_out ml mo) limits in
  run_ok (reset con_if ideal_if limits obs) sim ops x = Some x' ->
  d * d + q0 * q0 <= 1 -> sim [d; q0] x' = (x'', Ok o) ->
  exists y y', eu_y (sy_e x') = Some y /\ eu_y (sy_e x'') = Some y' /\
    snd (integrate f {| eu_n := eu_n (sy_e x'); eu_t := sy_t x'; eu_y := Some y; eu_p := Some [u / 2 * d; u / 2 * q0] |} (sy_t x' + tau)) = Ok y'.
Proof.
  intros tau u f N ml mo limits obs ops x x' d q0 x'' o Hin (F1 & F2 & F3 & F4 & F5 & F6) sim Hr Hdq Hs.
  destruct (run_time con_if ideal_if f tau (sync_view ml mo) snd sync_volt sync_volt sync_act_dq (sync_out ml mo) limits obs ops x x' 0) as (G1 & G2 & G3 & _ & G4);
    [rewrite F4; cbn; ring|rewrite F3, F4; reflexivity|exact F5|exact Hr|].
  pose proof (G4 _ (b6_kept tau) ltac:(rewrite F1; split; [exists []; reflexivity|cbn; auto])) as Hc.
  assert (Hsup : sy_s x' = ideal_new u).
  { revert F2 Hr. clear. revert x. induction ops as [|op ops IH]; intros x F2 Hr; cbn [run_ok] in Hr; [injection Hr as <-; exact F2|].
    destruct op as [i|a].
    - destruct (reset con_if ideal_if limits obs i x) as [x1 [o1|]] eqn:E; [|discriminate]. apply (IH x1); [|exact Hr].
      unfold reset in E. destruct i as [[m1 m2]|]; [|discriminate]. cbn in E.
      destruct (con_reset (sy_c x)) as [c1 u1]. cbn in E. destruct u1 as [u1|]; cbn in E; [|discriminate].
      destruct (obs m1 m2 _ _) eqn:Eo in E; [|discriminate]. injection E as <- _. exact F2.
    - destruct (sim a x) as [x1 [o1|]] eqn:E; [|discriminate]. apply (IH x1); [|exact Hr].
      destruct (simulate_inv _ _ _ _ _ _ _ _ _ _ _ _ _ _ _ E)
        as (y0 & v0 & a' & c' & ts & vl & iv & y1 & y2 & segs & sl & st & _ & _ & _ & _ & H5 & _ & H7 & _ & _ & _ & H11 & _ & _ & _ & _ & _ & _ & _ & _ & _ & _ & _ & H23 & _ & _).
      rewrite H23. destruct H11 as (v & isup & _ & _ & K3 & _). cbn in K3. injection K3 as <- _.
      clear -H5 H7 F2. set (t0 := eu_t (sy_e x)) in *. clearbody t0. revert H5 F2. generalize (sy_s x). revert t0 y0 c'. induction segs as [|s segs IH]; intros t0 y0 c' s0 H5 F2; cbn [tiles] in H5.
      + destruct H5 as (_ & _ & _ & <-). exact F2.
      + destruct H5 as (_ & _ & _ & E0 & H5). inversion H7 as [|? ? B1 B2]; subst. apply (IH B2 _ _ _ _ H5). destruct B1 as (v & isup & _ & _ & K3 & _). cbn in K3. injection K3 as <- _. exact F2. }
  destruct (simulate_covers_the_period _ _ _ _ _ _ _ _ _ _ _ _ _ _ _ _ _ _ _ _ Hs G3) as (y0 & y1 & v0 & a' & c' & ts & segs & sl & K1 & K2 & K3 & K4 & K5 & K6 & K7 & _ & K9 & _).
  assert (Hv : length (snd v0) = 3%nat).
  { unfold sync_view in K3. repeat bindh K3. injection K3 as <-. apply (dq_to_abc_len _ _ _ E2). }
  destruct (dq_action_voltage tau (sy_c x') d q0 (fst v0) (sy_t x') (snd v0) (sy_t x') Hc Hdq Hv) as (a & c2 & A1 & A2 & uu & A3 & A4).
  unfold sync_act_dq in K4. rewrite A1 in K4. injection K4 as <-. cbn [con_if cv_set_action] in K5. rewrite A2 in K5. injection K5 as <- <-.
  cbn [removelast] in K7. destruct segs as [|s1 segs]; [|discriminate]. cbn [app tiles] in K6. destruct K6 as (T1 & T2 & T3 & T4 & T5 & T6 & T7 & T8).
  destruct K9 as (v & isup & M1 & M2 & M3 & M4 & M5 & M6). rewrite T2, K3 in M1. injection M1 as <-. rewrite T3, T1 in M4. cbn [con_if cv_convert] in M4. rewrite A3 in M4. injection M4 as _ Hconv.
  rewrite T4, Hsup in M3. cbn in M3. injection M3 as _ Hsp.
  unfold sync_volt in M5. rewrite <- Hconv, <- Hsp in M5.
  assert (Efm : forall l : list R, flat_map (fun z => map (fun b => z * b) [u]) l = map (fun z => z * u) l) by (intros l; induction l as [|z l IHl]; [reflexivity|cbn in *; now rewrite IHl]).
  rewrite Efm, A4 in M5. injection M5 as Hp. exists y0, y1. split; [exact K1|]. split; [exact K2|]. rewrite T1, T2, T5, T6, <- Hp in M6. exact M6.
Qed.
Print Assumptions dq_action_is_applied.
