(** Further theorems about the physical systems: reported currents, the system
    equation, supplies and the induction machines. *)
From Verif Require Import PyBaseFacts PyDictFacts Conv_Model Conv_Spec Conv_Proofs Conv_Proofs2 Conv_Props Solver_Model Solver_Spec Solver_Proofs Supply_Model
  Transform_Model Transform_Proofs Transform_Props Motor_Model Motor_Spec Motor_Proofs Motor_Props Loads_Model Loads_Props
  PhysSys_Model PhysSys_Spec PhysSys_Proofs PhysSys_Proofs2 PhysSys_Proofs3 PhysSys_Props PhysSys_Props2.

(** ** C47 The reported abc currents belong to the reported dq currents and angle *)
(** They are computed with the angle before the last integration, so they fit only if
    the angle did not change (mod 2 pi) or no current flows. *)
Theorem reported_abc_currents_fit_iff :
  forall C S A (cv : conv_if C A) (sp : supply_if S) f tau ml mo act limits a x x' o, mo_nc mo = 2%nat ->
  simulate cv sp f tau (sync_view ml mo) snd sync_volt sync_volt act (sync_out ml mo) limits a x = (x', Ok o) ->
  exists (segs : list (segment C S (list R))) (sl : segment C S (list R)) y0 v0 a' c' ts eps_old eps iabc d q0,
    eu_y (sy_e x) = Some y0 /\ sync_view ml mo y0 = Ok v0 /\ act v0 a = Ok a' /\ cv_set_action cv (sy_c x) a' (sy_t x) = (c', Ok ts) /\
    map sg_to segs = removelast ts /\ tiles (eu_t (sy_e x)) y0 c' (sy_s x) segs (sg_from sl) (sg_y0 sl) (sg_c0 sl) (sg_s0 sl) /\
    segment_ok cv sp f (eu_n (sy_e x)) (sy_t x) (sync_view ml mo) snd sync_volt sl /\ sg_to sl = sy_t x + tau /\
    nth_error (sg_y0 sl) (eps_idx ml mo) = Some eps_old /\ eu_y (sy_e x') = Some (sg_y1 sl) /\ nth_error (sg_y1 sl) (eps_idx ml mo) = Some eps /\ select (cur_idx ml mo) (sg_y1 sl) = Ok [d; q0] /\
    firstn 3 (skipn (ml_n ml + 1) (sy_state x')) = iabc /\ firstn 2 (skipn (ml_n ml + 4) (sy_state x')) = [d; q0] /\
    (dq_to_abc [d; q0] eps false = Ok iabc <-> same_angle eps eps_old \/ (d = 0 /\ q0 = 0)).
Proof.
  intros C S A cv sp f tau ml mo act limits a x x' o Hn H. destruct (sync_simulate_inv _ _ _ _ _ _ _ _ _ _ _ _ H)
      as (segs & sl & y & mech & tq & iabc & idq & u & udq & us & eo & eps & (y0 & c' & v0 & a' & ts & T1 & T2 & T3 & T4 & T5 & T6 & _) & G2 & G3 & _ & _ & G6 & _ & H1 & H1' & H2 & _ & Hsel & Hi & _ & _ & L1 & L2 & L3 & L4 & L5 & H3 & H4).
  rewrite Hn in L3. destruct (len2 idq L3) as (d & q0 & ->). destruct (len3 iabc L2) as (i1 & i2 & i3 & ->).
  exists segs, sl, y0, v0, a', c', ts, eo, eps, [i1; i2; i3], d, q0. subst y. do 6 (split; [assumption|]). split; [exact G2|]. split; [exact G3|]. split; [exact H1'|]. split; [exact H1|]. split; [exact H2|]. split; [exact Hsel|].
  assert (Hsk : forall k l, skipn (ml_n ml + k) (mech ++ l) = skipn k l).
  { intros k l. rewrite skipn_app, skipn_all2 by lia. cbn [app]. f_equal. lia. }
  rewrite H3, !Hsk. split; [reflexivity|]. split; [reflexivity|]. split.
  - intros E. rewrite <- Hi in E. destruct (dq_to_abc_inj d q0 eps eo E) as [Hs|Hz]; auto.
  - intros [Hs|[-> ->]].
    + rewrite (dq_to_abc_angle _ _ _ Hs). exact Hi.
    + rewrite <- Hi. unfold dq_to_abc, el_angle. rewrite !q_val. cbn [bind]. rewrite !t_32_val. f_equal. f_equal; [ring|f_equal; [field|f_equal; field]].
Qed.
Print Assumptions reported_abc_currents_fit_iff.

(** A reachable step whose observation contradicts itself: a permanent magnet machine
    with speed 1 and current (1, 0), dq action (0, 0), one second. *)
Definition demo_pmsm : motor (list R) := pmsm_motor {| pm_p := 1; pm_ld := 1; pm_lq := 1; pm_rs := 1; pm_psi := 0 |}.
Definition demo_limits : list lim := repeat (Fin 1) 14.
Definition demo_reset := reset (U := list R) con_if ideal_if demo_limits (sync_obs const_load demo_pmsm).
Definition demo_sim := simulate con_if ideal_if (system_equation const_load demo_pmsm) 1 (sync_view const_load demo_pmsm) snd sync_volt sync_volt sync_act_dq (sync_out const_load demo_pmsm) demo_limits.
Definition demo_start : sys con ideal (list R) :=
  {| sy_c := con_new KC6 1 0; sy_s := ideal_new 60; sy_e := euler_new 1; sy_t := 0; sy_k := 0; sy_state := repeat 0 14 |}.
Lemma one_not_period : ~ same_angle 1 0.
Proof.
  intros [k Hk]. pose proof PI_RGT_0 as Hpi. pose proof PI2_1 as H2. rewrite Rplus_0_l in Hk.
  destruct (Z_le_gt_dec k 0) as [Hle|Hgt].
  - apply IZR_le in Hle. nra.
  - assert (1 <= IZR k) by (apply IZR_le; lia). nra.
Qed.
Theorem reported_abc_currents_refuted :
  exists x x' o, run_ok demo_reset demo_sim [OReset (Ok ([1], [1; 0; 0]))] demo_start = Some x /\ demo_sim [0; 0] x = (x', Ok o) /\
  exists y eps i_abc i_dq, eu_y (sy_e x') = Some y /\ nth_error y 3 = Some eps /\
    firstn 3 (skipn 2 (sy_state x')) = i_abc /\ firstn 2 (skipn 5 (sy_state x')) = i_dq /\ dq_to_abc i_dq eps false <> Ok i_abc.
Proof.
  destruct (dq_controlled_drives_never_raise 1 0 60 1 demo_limits const_load [OStep [0; 0]] [1] [1; 0; 0] demo_start) as [Hd _];
    [lia|left; reflexivity|reflexivity|repeat split|reflexivity|].
  destruct (Hd demo_pmsm) as (x' & Hx'); [left; eexists; reflexivity|reflexivity|repeat constructor|].
  change (run_ok demo_reset demo_sim ([OReset (Ok ([1], [1; 0; 0]))] ++ [OStep [0; 0]]) demo_start = Some x') in Hx'.
  assert (Happ : forall X A (r : res (list R * list R) -> X -> call X (list R)) (s : A -> X -> call X (list R)) l1 l2 z z', run_ok r s (l1 ++ l2) z = Some z' -> exists z1, run_ok r s l1 z = Some z1 /\ run_ok r s l2 z1 = Some z').
  { clear. intros X A r s l1. induction l1 as [|o l1 IH]; intros l2 z z' H; [exists z; auto|]. cbn [app run_ok] in *.
    destruct (match o with OReset i => r i z | OStep a => s a z end) as [z1 [w|]]; [|discriminate]. exact (IH _ _ _ H). }
  destruct (Happ _ _ _ _ _ _ _ _ Hx') as (x & Hx & Hx2). cbn [run_ok] in Hx2.
  destruct (demo_sim [0; 0] x) as [x1 [o|]] eqn:Es; [|discriminate]. injection Hx2 as ->.
  exists x, x', o. split; [exact Hx|]. split; [exact Es|].
  destruct (dq_action_is_applied 1 60 (system_equation const_load demo_pmsm) 1 const_load demo_pmsm demo_limits (sync_obs const_load demo_pmsm) [OReset (Ok ([1], [1; 0; 0]))] demo_start x 0 0 x' o)
    as (y & y' & Hy & Hy' & Hint); [|repeat split|exact Hx|lra|exact Es|].
  { intros i r. cbn. unfold sync_i_in. intros E. revert E. cbn. destruct i as [|i1 [|i2 i]]; cbn; try discriminate; intros E; injection E as <-; reflexivity. }
  assert (Hx0 : eu_y (sy_e x) = Some [1; 1; 0; 0] /\ eu_n (sy_e x) = 1%nat /\ sy_t x = 0).
  { cbn [run_ok] in Hx. destruct (demo_reset (Ok ([1], [1; 0; 0])) demo_start) as [z [w|]] eqn:Er; [|discriminate]. injection Hx as ->.
    destruct (reset_inv _ _ _ _ _ _ _ _ Er) as (? & ? & ? & ? & ? & Ei & _ & _ & _ & _ & R6 & R1 & R2 & R3 & R4 & _). injection Ei as <- <-.
    split; [exact R6|]. split; [rewrite R4; reflexivity|exact R2]. }
  destruct Hx0 as (Hy0 & Hn0 & Ht0). rewrite Hy in Hy0. injection Hy0 as ->. rewrite Hn0, Ht0 in Hint.
  assert (Hyv : exists z w, y' = [z; w; -1; 1] ).
  { cbn in Hint. apply Ok_inj in Hint. subst y'. do 2 eexists. f_equal. f_equal. f_equal; [|f_equal]; field. }
  destruct Hyv as (z & w & ->).
  destruct (reported_abc_currents_fit_iff _ _ _ _ _ _ _ _ demo_pmsm _ _ _ _ _ _ eq_refl Es)
    as (segs & sl & y0 & v0 & a' & c' & ts & eo & eps & iabc & d & q0 & T1 & T2 & T3 & T4 & T5 & T6 & G1 & G2 & G3 & G4 & G5 & Gs & G6 & G7 & G8).
  exists [z; w; -1; 1], eps, iabc, [d; q0]. rewrite Hy' in G4. injection G4 as G4. rewrite <- G4 in G5, Gs. cbn in G5, Gs. injection G5 as <-. injection Gs as <- <-.
  split; [exact Hy'|]. split; [reflexivity|]. split; [exact G6|]. split; [exact G7|]. intros E. apply G8 in E.
  assert (Hr : b6_reach 1 (sy_c x)).
  { destruct (run_time con_if ideal_if (system_equation const_load demo_pmsm) 1 (sync_view const_load demo_pmsm) snd sync_volt sync_volt sync_act_dq (sync_out const_load demo_pmsm) demo_limits
      (sync_obs const_load demo_pmsm) [OReset (Ok ([1], [1; 0; 0]))] demo_start x 0) as (_ & _ & _ & _ & Hk); [cbn; lra|reflexivity|reflexivity|exact Hx|].
    apply (Hk _ (b6_kept 1)). split; [exists []; reflexivity|cbn; auto]. }
  destruct (dq_action_voltage 1 (sy_c x) 0 0 (fst v0) (sy_t x) [0; 0; 0] 0 Hr) as (a & c2 & A1 & A2 & _); [lra|reflexivity|].
  unfold sync_act_dq in T3. rewrite A1 in T3. injection T3 as <-. cbn [con_if cv_set_action] in T4. rewrite A2 in T4. injection T4 as <- <-.
  cbn [removelast] in T5. destruct segs; [|discriminate]. cbn [tiles] in T6. destruct T6 as (_ & T6 & _). rewrite <- T6, Hy in *. injection T1 as <-. cbn in G3. injection G3 as <-.
  destruct E as [E|[_ E]]; [exact (one_not_period E)|lra].
Qed.
Print Assumptions reported_abc_currents_refuted.
