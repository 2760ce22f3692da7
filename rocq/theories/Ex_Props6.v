(** The cascaded controller of synchronous motors together with its torque controller.
    Property C189.  Source: examples/classic_controllers/controllers/cascaded_foc_controller.py
    166-271 and torque_to_current_conversion.py. *)
From Coq Require Import ZArith Lra Lia.
From Verif Require Import PyBaseFacts PyDictFacts Transform_Model Transform_Proofs Motor_Model Conv_Model Wrap_Model Ctl_Model Ctl_Model2 Ctl_Spec Ctl_Proofs Ctl_Proofs2 Ctl_Props Emf_Props Ops_Model Ops_Proofs Ops_Props Ops_Props2 Ops_Props3 Ops_Props4 Ops_Model2 Ops_Proofs2 Ops_Props6 Ops_Props7 Ops_Props8 Ex_Model4 Ex_Props4 Ex_Props5.
From Verif Require Import PyBase PyDict PhysSys_Model Ex_Model Ex_Model2 Ex_Spec Ex_Proofs Ex_Proofs2 Ex_Proofs3 Ex_Proofs5 Ex_Props2 Ex_Model3 Ex_Spec2 Ex_Proofs6 Ex_Proofs7 Ex_Props3.
Local Open Scope string_scope.
Local Open Scope list_scope.
Local Open Scope R_scope.

(** the torque controller in mode "online" as the cascade calls it; that mode never answers nan *)
Definition ttc_conv (roots : list R -> list R) (o : pmsm_ops) (m : fmod) (state : list R) (torque : R) : res (fmod * (R * R)) :=
  match ttc_control roots None o m state torque with
  | (m', Ok (Some iq, Some id)) => Ok (m', (iq, id))
  | (_, Ok _) => Err ValueError
  | (_, Err x) => Err x
  end.
Lemma online_numbers roots o m x t m' iq id : ttc_control roots None o m x t = (m', Ok (iq, id)) -> exists a b, iq = Some a /\ id = Some b.
Proof.
  unfold ttc_control, ttc_currents. destruct (pmsm_select roots o m (denorm (fp_lim (q_f o)) x) [t]) as [m1 out] eqn:E. intros H. apply pair_equal_spec in H. destruct H as [_ H]. apply bind_ok in H. destruct H as (y & Y & H). apply bind_ok in Y. destruct Y as (z & -> & Y). apply ok_inj in Y. subst y. destruct (select_two _ _ _ _ _ _ _ E) as (d & q & ->). cbn [map bind fst snd] in H. apply bind_ok in H. destruct H as (nq & _ & H). apply bind_ok in H. destruct H as (lq & _ & H). apply bind_ok in H. destruct H as (nd & _ & H). apply bind_ok in H. destruct H as (ld & _ & H). apply ok_inj in H. apply pair_equal_spec in H. destruct H as [<- <-]. cbn [ttc_norm]. eauto.
Qed.
(** In torque mode every reference of the unit interval is converted: whatever the state and the
    history, the cascade hands references within the nominal currents to the current controllers,
    and the torque controller can be called again.  Only the current controllers may fail. *)
Theorem cascade_torque_references :
  forall e nom roots o nd nq ld lq lim l tq rd_idx f ts i cs over a b c state r0 rest,
  length (ce_names e) = length (ce_limits e) -> ttc_par e nom = Ok (q_f o) -> ttc_tables None o -> (forall p, roots p <> []) ->
  item (fp_nom (q_f o)) (fp_isd (q_f o)) = Ok nd -> item (fp_nom (q_f o)) (fp_isq (q_f o)) = Ok nq -> item (fp_lim (q_f o)) (fp_isd (q_f o)) = Ok ld -> item (fp_lim (q_f o)) (fp_isq (q_f o)) = Ok lq ->
  0 <= nd <= ld -> 0 <= nq <= lq -> 0 < ld -> 0 < lq -> item (fo_limit f) tq = Ok lim -> 0 <= lim <= q_maxt o -> length state = length (ce_limits e) -> fm_int ts = Some i -> Rabs r0 <= 1 ->
  exists ts' i' iq id, fm_int ts' = Some i' /\ Rabs iq <= nq / lq /\ Rabs id <= nd / ld /\
    cfoc_control (ttc_conv roots o) l true false tq rd_idx f ts cs (over, [a; b; c]) state (r0 :: rest) =
    (do v <- cfoc_cont f cs state id iq; Ok (ts', fst v, (over, [iq; id; r0]), snd v)).
Proof.
  intros e nom roots o nd nq ld lq lim l tq rd_idx f ts i cs over a b c state r0 rest LE HF HT HR E1 E2 E3 E4 Hd Hq Pd Pq EL HL HS HI H0.
  assert (TB : Rabs (r0 * lim) <= q_maxt o). { rewrite Rabs_mult, (Rabs_pos_eq lim) by lra. apply Rle_trans with (1 * lim); [apply Rmult_le_compat_r; lra|lra]. }
  destruct (ttc_control_ok e nom roots None o ts state (r0 * lim) i LE HF HT HR HS TB HI) as (ts' & [iq id] & i' & E & HI'). destruct (online_numbers _ _ _ _ _ _ _ _ E) as (x & y & -> & ->). exists ts', i', x, y. split; [exact HI'|].
  destruct (ttc_references_nominal roots None o ts [(state, r0 * lim)] nd nq ld lq E1 E2 E3 E4 Hd Hq Pd Pq (Some x) (Some y) ltac:(cbn [ttc_runs]; rewrite E; left; reflexivity)) as (B1 & B2 & _). cbn [within] in B1, B2. split; [exact B1|]. split; [exact B2|].
  unfold cfoc_control, sl_refs. cbn [item nth_error bind snd fst list_set set_back length Nat.ltb Nat.leb Nat.sub]. rewrite EL. cbn [bind]. unfold ttc_conv. rewrite E. cbn [bind fst snd list_set item nth_error]. reflexivity.
Qed.
Print Assumptions cascade_torque_references.
(** The hypotheses are met: a PMSM whose torque limit is the end of the table. *)
Definition pm_foc : foc_par :=
  {| fo_refd := 0; fo_refq := 1; fo_isd := 2; fo_isq := 3; fo_usd := 7; fo_usq := 8; fo_omega := 0; fo_eps := 9;
     fo_limit := ce_limits pmsm_env; fo_p := 3; fo_ld := 3 / 10000; fo_lq := 1 / 1000; fo_psi := 1 / 15; fo_dead := 1 / 2; fo_tau := 1 / 10000; fo_lo := -1; fo_hi := 1; fo_dec := true |}.
Example cascade_torque_example : forall f l cs, ttc_par pmsm_env ttc_nom = Ok f -> exists o ts' iq id, q_f o = f /\ ttc_tables None o /\ Rabs iq <= 80 / 100 /\ Rabs id <= 80 / 100 /\
  cfoc_control (ttc_conv (fun _ => [0]) o) l true false 1 0 pm_foc ttc_new cs ([], [0; 0; 0]) ttc_state [1 / 2] = (do v <- cfoc_cont pm_foc cs ttc_state id iq; Ok (ts', fst v, ([], [iq; id; 1 / 2]), snd v)).
Proof.
  intros f l cs HF. set (o := {| q_f := f; q_c := {| pc_ld := 3 / 10000; pc_lq := 1 / 1000; pc_psi := 1 / 15; pc_p := 3 |}; q_inv := 1; q_maxt := 40; q_mtpc := repeat flat_row 250; q_mtpf := repeat flat_row 499; q_psimax := 1 |}).
  assert (FF := HF). unfold ttc_par in FF. cbn [pmsm_env ce_par ce_names ce_limits ce_tau] in FF. apply ok_inj in FF. assert (L : item (fp_nom f) (fp_isd f) = Ok 80 /\ item (fp_nom f) (fp_isq f) = Ok 80 /\ item (fp_lim f) (fp_isd f) = Ok 100 /\ item (fp_lim f) (fp_isq f) = Ok 100) by (rewrite <- FF; repeat split). clear FF. destruct L as (L1 & L2 & L3 & L4).
  assert (T : ttc_tables None o) by (repeat split; cbn [o q_mtpc q_mtpf q_maxt]; rewrite ?repeat_length; try lia; lra).
  destruct (cascade_torque_references pmsm_env ttc_nom (fun _ => [0]) o 80 80 100 100 40 l 1 0 pm_foc ttc_new 0 cs [] 0 0 0 ttc_state (1 / 2) [] eq_refl HF T ltac:(discriminate) L1 L2 L3 L4 ltac:(lra) ltac:(lra) ltac:(lra) ltac:(lra) eq_refl ltac:(cbn [o q_maxt]; lra) eq_refl eq_refl ltac:(rewrite Rabs_pos_eq; lra)) as (ts' & i' & iq & id & _ & A & B & C).
  exists o, ts', iq, id. split; [reflexivity|]. split; [exact T|]. split; [exact A|]. split; [exact B|]. exact C.
Qed.
