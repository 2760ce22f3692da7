(** C114 for the tuned stages: the band of the modulation controller in motor quantities. *)
From Verif Require Import PyBaseFacts PyDictFacts Transform_Model Transform_Proofs Motor_Model Conv_Model Wrap_Model Ctl_Model Ctl_Model2 Ctl_Spec Ctl_Proofs Ctl_Proofs2 Ctl_Props Emf_Props Ops_Model Ops_Proofs Ops_Props Ops_Props2 Ops_Props3 Ops_Props4.
From Coq Require Import ZArith Lra Lia.
Local Open Scope string_scope. Local Open Scope list_scope. Local Open Scope R_scope.

(** The flux limit of a tuned selection of a synchronous motor differs from the speed dependent
    maximum by at most a fifth of the flux at the current limits. *)
Theorem sync_modulation_band :
  forall amax damping old e nom margin o m0 m s usd usq w m' psi ld lq,
  pmsm_tune amax damping old e nom margin = Ok (o, m0) -> par "l_d" (ce_par e) = Ok ld -> par "l_q" (ce_par e) = Ok lq ->
  reads (q_f o) s usd usq w -> modulation (q_f o) m s = (m', Ok psi) ->
  let psi_p := match dict_get "psi_p" (ce_par e) with Some x => x | None => 0 end in
  Rabs (psi - speed_flux (q_f o) w) <= sqrt (Rsqr (psi_p + ld * fp_dlim (q_f o)) + Rsqr (lq * fp_qlim (q_f o))) / 5.
Proof.
  intros amax damping old e nom margin o m0 m s usd usq w m' psi ld lq H Hld Hlq Hr Hm psi_p.
  unfold pmsm_tune in H. rewrite Hld, Hlq in H. apply bind_ok in H. destruct H as ([f0 m1] & E0 & H). cbn [fst snd bind] in H.
  apply bind_ok in H. destruct H as (rs & _ & H). cbn zeta in H. apply bind_ok in H. destruct H as (tl & _ & H). apply bind_ok in H. destruct H as (dl & _ & H). apply bind_ok in H. destruct H as (ql & _ & H). apply bind_ok in H. destruct H as (tab & _ & H). apply bind_ok in H. destruct H as (pm & _ & H).
  apply ok_inj in H. apply pair_equal_spec in H. destruct H as [<- _]. cbn [q_f] in *. fold psi_p in Hr, Hm |- *.
  match type of Hm with context [foc_fill f0 ?k ?g ?lo ?hi ?r] => set (f := foc_fill f0 k g lo hi r) in *; set (b := hi) in f end.
  assert (Hb : 0 <= b). { unfold b. apply Rmult_le_pos; [lra|apply sqrt_pos]. }
  destruct (modulation_bounds f m s usd usq w m' psi Hr ltac:(cbn; lra) Hm) as [B1 B2]. cbn [f foc_fill fp_low fp_high] in B1, B2.
  apply Rle_trans with b; [apply Rabs_le; lra|]. unfold b, f, Rsqr. cbn [foc_fill fp_dlim fp_qlim]. apply Req_le. field.
Qed.
Print Assumptions sync_modulation_band.

(** The induction motor: at most the largest flux of its table below and a tenth of it above. *)
Theorem scim_modulation_band :
  forall amax damping old fc e nom id margin s m0 fc' m x usd usq w m' psi,
  scim_tune amax damping old fc e nom id margin = Ok (s, m0, fc') -> 0 <= s_psimax s -> reads (s_f s) x usd usq w -> modulation (s_f s) m x = (m', Ok psi) ->
  - s_psimax s <= psi - speed_flux (s_f s) w <= s_psimax s / 10.
Proof.
  intros amax damping old fc e nom id margin s m0 fc' m x usd usq w m' psi H Hp Hr Hm.
  unfold scim_tune in H. apply bind_ok in H. destruct H as ([f0 m1] & E0 & H). cbn [fst snd] in H.
  do 7 (apply bind_ok in H; destruct H as (? & _ & H)). cbn zeta in H. do 6 (apply bind_ok in H; destruct H as (? & _ & H)).
  apply ok_inj in H. apply pair_equal_spec in H. destruct H as [H _]. apply pair_equal_spec in H. destruct H as [<- _]. cbn [s_f s_psimax] in *.
  match type of Hm with context [foc_fill f0 ?k ?g ?lo ?hi ?r] => set (f := foc_fill f0 k g lo hi r) in * end.
  destruct (modulation_bounds f m x usd usq w m' psi Hr ltac:(cbn; lra) Hm) as [B1 B2]. cbn [f foc_fill fp_low fp_high] in B1, B2. lra.
Qed.
Print Assumptions scim_modulation_band.

(** Non-vacuity: the tuned PMSM and SynRM of [sync_tuned_example] read the state and return a flux after reset. *)
Example sync_modulation_example : forall e, e = pmsm_env \/ e = synrm_ctl_env -> exists o m0 m' psi ld lq,
  pmsm_tune (11 / 10) (12 / 10) None e sync_state (2 / 10) = Ok (o, m0) /\ par "l_d" (ce_par e) = Ok ld /\ par "l_q" (ce_par e) = Ok lq /\
  reads (q_f o) sync_state 5 6 100 /\ modulation (q_f o) (foc_reset (q_f o) m0) sync_state = (m', Ok psi).
Proof.
  intros e He. destruct (sync_tuned_example e He) as (_ & o & m & H & _ & _ & _ & _ & _ & _ & Hr & _ & LD & LQ).
  destruct (modulation_some (q_f o) (foc_reset (q_f o) m) sync_state (fp_reset (q_f o)) 5 6 100 Hr eq_refl) as (m' & v & i' & E & _).
  exists o, m, m', v, (pc_ld (q_c o)), (pc_lq (q_c o)). auto.
Qed.
