(** C138: the tuned current loop of a synchronous motor. *)
From Verif Require Import PyBaseFacts PyDictFacts Transform_Model Transform_Proofs Motor_Model Conv_Model Wrap_Model Ctl_Model Ctl_Model2 Ctl_Spec Ctl_Proofs Ctl_Proofs2 Ctl_Props Emf_Props Out_Props Loop_Spec Loop_Proofs Loop_Props Dq_Spec Dq_Proofs Dq_Proofs2.
Local Open Scope string_scope. Local Open Scope list_scope. Local Open Scope R_scope.

Lemma sync_abc e id m t s eps w yd yq u th : abc_tune abc_new e id = Ok t -> motor_type id = Ok m -> sync_motor m -> observed e s "epsilon" eps -> observed e s "omega" w -> abc_call t s [yd; yq] = Ok u ->
  abc_to_dq u th false = Ok (turn (eps + advance e w - th) [yd; yq]).
Proof.
  intros Ht Hm Hk He Hw Hu. assert (EA : str_in m ac_motors = true) by (destruct Hk as [-> | ->]; reflexivity). assert (EI : str_in m induction_motors = false) by (destruct Hk as [-> | ->]; reflexivity). assert (EE : String.eqb m "EESM" = false) by (destruct Hk as [-> | ->]; reflexivity).
  destruct (abc_voltage_angle e id m t s eps w yd yq [] u th Ht Hm EA) as [E1 E2]; [rewrite EE; reflexivity|rewrite EI; exact He|exact Hw|exact Hu|]. rewrite <- (firstn_skipn 3 u). rewrite E1, app_nil_r. exact E2.
Qed.
Lemma abc_ok e id m t s eps w yd yq : abc_tune abc_new e id = Ok t -> motor_type id = Ok m -> sync_motor m -> observed e s "epsilon" eps -> observed e s "omega" w -> exists u, abc_call t s [yd; yq] = Ok u.
Proof.
  intros Ht Hm Hk (i & Ei & He) (j & Ej & Hw). unfold abc_tune in Ht. rewrite Hm in Ht. cbn [bind] in Ht. assert (EI : str_in m induction_motors = false) by (destruct Hk as [-> | ->]; reflexivity). rewrite EI, Ei in Ht. cbn [bind] in Ht. rewrite Ej in Ht. cbn [bind] in Ht. rewrite (id_parts _ _ Hm) in Ht. cbn [bind] in Ht.
  assert (Eo : get_output_voltages m = Ok ["u_a"; "u_b"; "u_c"]) by (destruct Hk as [-> | ->]; reflexivity). rewrite Eo in Ht. cbn [bind] in Ht. injection Ht as <-.
  unfold abc_call. cbn [ab_angle ab_om ab_adv ab_tau ab_len abc_new]. rewrite He. cbn [bind]. rewrite Hw. cbn [bind firstn skipn]. rewrite q_val. cbn [bind]. rewrite t_32_val. eexists. reflexivity.
Qed.
Lemma turn0 yd yq : turn 0 [yd; yq] = [yd; yq].
Proof. unfold turn, comp. cbn [nth]. rewrite cos_0, sin_0. f_equal; [ring|f_equal; ring]. Qed.

Section Linear.
Variables (e : cenv) (id0 : string) (a : R) (m : string) (p ld lq rs psi rd rq w : R) (c : cctl).
(** The demanded voltages, from currents and integrators. *)
Definition vd (i_d i_q zd : R) : R := ld / (ce_tau e * a) * (rd - i_d) + ld / (ce_tau e * a) / (ce_tau e * (a * a)) * zd + (- lq * i_q + 0) * (w * p).
Definition vq (i_d i_q zq : R) : R := lq / (ce_tau e * a) * (rq - i_q) + lq / (ce_tau e * a) / (ce_tau e * (a * a)) * zq + (ld * i_d + psi) * (w * p).
Definition dstep (i_d i_q zd zq : R) : R := i_d + ce_tau e * ((cos (advance e w) * vd i_d i_q zd - sin (advance e w) * vq i_d i_q zq - rs * i_d + w * p * lq * i_q) / ld).
Definition qstep (i_d i_q zd zq : R) : R := i_q + ce_tau e * ((sin (advance e w) * vd i_d i_q zd + cos (advance e w) * vq i_d i_q zq - rs * i_q - w * p * (ld * i_d + psi)) / lq).
Hypothesis Hc : tuned_pi e id0 a c.
Hypothesis Hm : motor_type id0 = Ok m.
Hypothesis Hk : sync_motor m.
Hypothesis Hat : action_type id0 = Ok "Cont".
Hypothesis Pd : par_is e "l_d" ld.
Hypothesis Pq : par_is e "l_q" lq.
Hypothesis Pp : par_is e "p" p.
Hypothesis Ppsi : m = "PMSM" -> par_is e "psi_p" psi.
Hypothesis Ppsi0 : m = "SynRM" -> psi = 0.
Hypothesis Hld : 0 < ld.
Hypothesis Hlq : 0 < lq.
Hypothesis Ht : 0 < ce_tau e.
Hypothesis Ha : 0 < a.
Variable ode : list R -> list R -> R -> res (list R).
Hypothesis Hode : sync_eq ode p ld lq rs psi.

Lemma dq_linear n cs s id iq eps u : dq_until n e rd rq w ode c cs s id iq eps u ->
  forall k, (k < n)%nat -> let zd := zsum (ce_tau e) rd id k in let zq := zsum (ce_tau e) rq iq k in id (Datatypes.S k) = dstep (id k) (iq k) zd zq /\ iq (Datatypes.S k) = qstep (id k) (iq k) zd zq.
Proof.
  intros [C1 C2 C3 C4 C5]. destruct (tuned_double e id0 a c m ld lq Hc Hm Hk Hat Pd Pq Hld Hlq Ht Ha) as (jd & jq & kd & kq & Ud & Uq & Db & Lk & Ejd & Ejq & Ekd & Ekq & EUd & EUq & Ef & Eab).
  assert (Hobs : forall k, (k < n)%nat -> item (s k) jd = Ok (id k) /\ item (s k) jq = Ok (iq k)).
  { intros k Hkn. destruct (C4 k Hkn) as ((j1 & E1 & E2) & (j2 & E3 & E4) & _). rewrite Ejd in E1. rewrite Ejq in E3. injection E1 as <-. injection E3 as <-. split; assumption. }
  assert (Hemf : forall k zd zq, (k < n)%nat -> emf_call (cc_emf c) (s k) [ld / (ce_tau e * a) * (rd - id k) + ld / (ce_tau e * a) / (ce_tau e * (a * a)) * zd; lq / (ce_tau e * a) * (rq - iq k) + lq / (ce_tau e * a) / (ce_tau e * (a * a)) * zq] = Ok [vd (id k) (iq k) zd; vq (id k) (iq k) zq]).
  { intros k zd zq Hkn. destruct (C4 k Hkn) as (O1 & O2 & O3 & O4). exact (emf_sync m e id0 (cc_emf c) (s k) w (id k) (iq k) ld lq p psi _ _ Hk Ef Hm O4 O1 O2 Pd Pq Pp Ppsi Ppsi0). }
  assert (Hout : forall k zd zq, (k < n)%nat -> like2 c zd zq (cs k) -> abc_call (cc_abc c) (s k) [vd (id k) (iq k) zd; vq (id k) (iq k) zq] = Ok (u k)).
  { intros k zd zq Hkn Hl. destruct (Hobs k Hkn) as [I1 I2]. exact (double_out _ _ _ _ _ _ _ _ _ _ _ _ _ _ _ _ _ _ _ _ _ _ Db Hl I1 I2 (Hemf k zd zq Hkn) (C2 k Hkn)). }
  assert (A : forall k, (k <= n)%nat -> like2 c (zsum (ce_tau e) rd id k) (zsum (ce_tau e) rq iq k) (cs k)).
  { induction k as [|k IH]; intros Hkn; [rewrite C1; exact Lk|]. specialize (IH (Nat.lt_le_incl _ _ Hkn)). pose proof (Hout k _ _ Hkn IH) as Ho. destruct (Hobs k Hkn) as [I1 I2]. destruct (C4 k Hkn) as (_ & _ & O3 & O4).
    pose proof (C3 k Hkn kd kq (eps k + advance e w) _ Ekd Ekq (sync_abc e id0 m _ _ _ _ _ _ _ _ Eab Hm Hk O3 O4 Ho)) as Hr. rewrite Rminus_diag_eq in Hr by reflexivity. rewrite turn0, <- EUd, <- EUq in Hr. cbn [comp nth] in Hr. unfold comp in Hr. cbn [nth] in Hr.
    destruct (double_step _ _ _ _ _ _ _ _ _ _ _ _ _ _ _ _ _ _ _ _ _ Db IH I1 I2 (Hemf k _ _ Hkn) Hr Ho) as (c2 & E2 & L2). rewrite (C2 k Hkn) in E2. injection E2 as E2. rewrite E2. exact L2. }
  intros k Hkn zd zq. pose proof (Hout k _ _ Hkn (A k (Nat.lt_le_incl _ _ Hkn))) as Ho. fold zd zq in Ho. destruct (C4 k Hkn) as (_ & _ & O3 & O4). destruct (C5 k Hkn) as (v & dd & dq & de & Ev & Eo & E1 & E2).
  rewrite (sync_abc e id0 m _ _ _ _ _ _ _ (eps k) Eab Hm Hk O3 O4 Ho) in Ev. injection Ev as Ev. replace (eps k + advance e w - eps k) with (advance e w) in Ev by ring. unfold turn, comp in Ev. cbn [nth] in Ev. rewrite <- Ev in Eo.
  match type of Eo with ode _ [?x; ?y] _ = _ => destruct (Hode (id k) (iq k) (eps k) x y w) as (de' & Eo') end. rewrite Eo' in Eo. injection Eo as Ed Eq _. rewrite E1, E2, <- Ed, <- Eq. split; reflexivity.
Qed.
End Linear.

(** With equal inductances the error is a complex sequence with a second order recurrence. *)
Lemma dq_recurrence e a p L rs psi rd rq w id iq : 0 < L -> 0 < ce_tau e -> 0 < a ->
  let c := cos (advance e w) in let s := sin (advance e w) in let x := w * p * ce_tau e in let rho := ce_tau e * rs / L in
  let gr := c / a + rho + x * s in let gi := s / a + x * (1 - c) in
  let tr := 2 - gr in let ti := - gi in let dr := 1 - gr + c / (a * a * a) in let di := - gi + s / (a * a * a) in
  forall n, (forall k, (k < n)%nat -> let zd := zsum (ce_tau e) rd id k in let zq := zsum (ce_tau e) rq iq k in id (Datatypes.S k) = dstep e a p L L rs psi rd rq w (id k) (iq k) zd zq /\ iq (Datatypes.S k) = qstep e a p L L rs psi rd rq w (id k) (iq k) zd zq) ->
  forall k, (Datatypes.S k < n)%nat ->
  id (Datatypes.S (Datatypes.S k)) - rd = tr * (id (Datatypes.S k) - rd) - ti * (iq (Datatypes.S k) - rq) - (dr * (id k - rd) - di * (iq k - rq)) /\
  iq (Datatypes.S (Datatypes.S k)) - rq = tr * (iq (Datatypes.S k) - rq) + ti * (id (Datatypes.S k) - rd) - (dr * (iq k - rq) + di * (id k - rd)).
Proof.
  intros HL Ht Ha c s x rho gr gi tr ti dr di n H k Hk. destruct (H k (Nat.lt_succ_l _ _ Hk)) as [D1 Q1]. destruct (H (Datatypes.S k) Hk) as [D2 Q2]. cbn [zsum] in D2, Q2.
  unfold dstep in D1, D2. unfold qstep in Q1, Q2. unfold vd, vq in *. fold c s in D1, D2, Q1, Q2. unfold di, dr, ti, tr, gi, gr, x, rho. clearbody c s.
  set (tau := ce_tau e) in *. clearbody tau. set (d0 := id k) in *. set (d1 := id (Datatypes.S k)) in *. set (d2 := id (Datatypes.S (Datatypes.S k))) in *. set (q0 := iq k) in *. set (q1 := iq (Datatypes.S k)) in *. set (q2 := iq (Datatypes.S (Datatypes.S k))) in *. set (zd := zsum tau rd id k) in *. set (zq := zsum tau rq iq k) in *. clearbody d0 d1 d2 q0 q1 q2 zd zq.
  match type of D1 with d1 = d0 + ?b => set (BD := b) in * end. match type of D2 with d2 = d1 + ?b => set (AD := b) in * end. match type of Q1 with q1 = q0 + ?b => set (BQ := b) in * end. match type of Q2 with q2 = q1 + ?b => set (AQ := b) in * end.
  assert (ED : d2 - d1 - (d1 - d0) = AD - BD) by lra. assert (EQ : q2 - q1 - (q1 - q0) = AQ - BQ) by lra. clear D1 D2 Q1 Q2.
  split.
  - apply Rplus_eq_reg_r with (- (d1 - rd) - (d1 - d0)). transitivity (AD - BD); [rewrite <- ED; ring|]. unfold AD, BD. field. repeat split; lra.
  - apply Rplus_eq_reg_r with (- (q1 - rq) - (q1 - q0)). transitivity (AQ - BQ); [rewrite <- EQ; ring|]. unfold AQ, BQ. field. repeat split; lra.
Qed.
Lemma advance0 e : advance e 0 = 0.
Proof. unfold advance. rewrite Rmult_0_r. unfold Rdiv. apply Rmult_0_l. Qed.
(** At standstill the axes are two independent loops. *)
Lemma standstill_axes e a p ld lq rs psi rd rq id iq k : 0 < ld -> 0 < lq -> 0 < ce_tau e -> 0 < a -> let tau := ce_tau e in let zd := zsum tau rd id k in let zq := zsum tau rq iq k in
  dstep e a p ld lq rs psi rd rq 0 (id k) (iq k) zd zq = id k + tau / ld * (ld / (tau * a) * (rd - id k) + ld / (tau * a) / (tau * (a * a)) * zd - rs * id k - 0) /\
  qstep e a p ld lq rs psi rd rq 0 (id k) (iq k) zd zq = iq k + tau / lq * (lq / (tau * a) * (rq - iq k) + lq / (tau * a) / (tau * (a * a)) * zq - rs * iq k - 0).
Proof. intros Hd Hq Ht Ha tau zd zq. unfold dstep, qstep, vd, vq. rewrite advance0, cos_0, sin_0. fold tau. clearbody zd zq. split; field; repeat split; unfold tau; lra. Qed.
Lemma standstill_converges e id0 a c m p ld lq rs psi rd rq ode cs s id iq eps u : tuned_pi e id0 a c -> motor_type id0 = Ok m -> sync_motor m -> action_type id0 = Ok "Cont" -> par_is e "l_d" ld -> par_is e "l_q" lq -> par_is e "p" p ->
  (m = "PMSM" -> par_is e "psi_p" psi) -> (m = "SynRM" -> psi = 0) -> 0 < ld -> 0 < lq -> 0 < ce_tau e -> 0 < a -> sync_eq ode p ld lq rs psi ->
  loop_stable a (ce_tau e * rs / ld) -> loop_stable a (ce_tau e * rs / lq) -> dq_loop e rd rq 0 ode c cs s id iq eps u -> Un_cv id rd /\ Un_cv iq rq.
Proof.
  intros Hc Hm Hk Hat Pd Pq Pp P1 P2 Hd Hq Ht Ha Ho Sd Sq Cl.
  assert (H : forall k, id (Datatypes.S k) = dstep e a p ld lq rs psi rd rq 0 (id k) (iq k) (zsum (ce_tau e) rd id k) (zsum (ce_tau e) rq iq k) /\ iq (Datatypes.S k) = qstep e a p ld lq rs psi rd rq 0 (id k) (iq k) (zsum (ce_tau e) rd id k) (zsum (ce_tau e) rq iq k)).
  { intros k. exact (dq_linear e id0 a m p ld lq rs psi rd rq 0 c Hc Hm Hk Hat Pd Pq Pp P1 P2 Hd Hq Ht Ha ode Ho (Datatypes.S k) cs s id iq eps u (Cl _) k (Nat.lt_succ_diag_r _)). }
  split; [apply (loop_converges a (ce_tau e) ld rs 0 rd id Ha Ht Hd Sd)|apply (loop_converges a (ce_tau e) lq rs 0 rq iq Ha Ht Hq Sq)]; intros k; destruct (standstill_axes e a p ld lq rs psi rd rq id iq k Hd Hq Ht Ha) as [E1 E2]; [rewrite (proj1 (H k)); exact E1|rewrite (proj2 (H k)); exact E2].
Qed.
(** At standstill both currents of a PMSM follow constant references, whatever the inductances of the axes, as long as
    the voltages stay inside the limits. *)
Theorem pmsm_standstill_loop_converges :
  forall e id0 a c m rd rq cs s id iq eps u, tuned_pi e id0 a c -> motor_type id0 = Ok "PMSM" -> action_type id0 = Ok "Cont" ->
  par_is e "l_d" (pm_ld m) -> par_is e "l_q" (pm_lq m) -> par_is e "p" (pm_p m) -> par_is e "psi_p" (pm_psi m) -> 0 < pm_ld m -> 0 < pm_lq m -> 0 < ce_tau e -> 0 < a ->
  loop_stable a (ce_tau e * pm_rs m / pm_ld m) -> loop_stable a (ce_tau e * pm_rs m / pm_lq m) ->
  dq_loop e rd rq 0 (pmsm_ode m) c cs s id iq eps u -> Un_cv id rd /\ Un_cv iq rq.
Proof.
  intros e id0 a c m rd rq cs s id iq eps u Hc Hm Hat Pd Pq Pp Pf Hd Hq Ht Ha Sd Sq Cl.
  apply (standstill_converges e id0 a c "PMSM" (pm_p m) (pm_ld m) (pm_lq m) (pm_rs m) (pm_psi m) rd rq (pmsm_ode m) cs s id iq eps u); auto; [left; reflexivity|discriminate|apply pmsm_eq; assumption].
Qed.
Print Assumptions pmsm_standstill_loop_converges.
Theorem synrm_standstill_loop_converges :
  forall e id0 a c m rd rq cs s id iq eps u, tuned_pi e id0 a c -> motor_type id0 = Ok "SynRM" -> action_type id0 = Ok "Cont" ->
  par_is e "l_d" (sr_ld m) -> par_is e "l_q" (sr_lq m) -> par_is e "p" (sr_p m) -> 0 < sr_ld m -> 0 < sr_lq m -> 0 < ce_tau e -> 0 < a ->
  loop_stable a (ce_tau e * sr_rs m / sr_ld m) -> loop_stable a (ce_tau e * sr_rs m / sr_lq m) ->
  dq_loop e rd rq 0 (synrm_ode m) c cs s id iq eps u -> Un_cv id rd /\ Un_cv iq rq.
Proof.
  intros e id0 a c m rd rq cs s id iq eps u Hc Hm Hat Pd Pq Pp Hd Hq Ht Ha Sd Sq Cl.
  apply (standstill_converges e id0 a c "SynRM" (sr_p m) (sr_ld m) (sr_lq m) (sr_rs m) 0 rd rq (synrm_ode m) cs s id iq eps u); auto; [right; reflexivity|discriminate|apply synrm_eq; assumption].
Qed.
Print Assumptions synrm_standstill_loop_converges.
(** A PMSM with equal inductances at a constant speed: the output transformation turns the demanded voltage by the
    advance of the angle, so that neither the decoupling nor the separation of the axes is exact; under [dq_stable] both
    currents follow their references all the same. *)
Theorem pmsm_speed_loop_converges :
  forall e id0 a c m rd rq w cs s id iq eps u, tuned_pi e id0 a c -> motor_type id0 = Ok "PMSM" -> action_type id0 = Ok "Cont" ->
  par_is e "l_d" (pm_ld m) -> par_is e "l_q" (pm_lq m) -> par_is e "p" (pm_p m) -> par_is e "psi_p" (pm_psi m) -> 0 < pm_ld m -> pm_lq m = pm_ld m -> 0 < ce_tau e -> 0 < a ->
  dq_stable a (ce_tau e * pm_rs m / pm_ld m) (w * pm_p m * ce_tau e) (advance e w) ->
  dq_loop e rd rq w (pmsm_ode m) c cs s id iq eps u -> Un_cv id rd /\ Un_cv iq rq.
Proof.
  intros e id0 a c m rd rq w cs s id iq eps u Hc Hm Hat Pd Pq Pp Pf Hd Eq Ht Ha [S1 S2] Cl. assert (Hq : 0 < pm_lq m) by (rewrite Eq; exact Hd).
  assert (H : forall k, let zd := zsum (ce_tau e) rd id k in let zq := zsum (ce_tau e) rq iq k in id (Datatypes.S k) = dstep e a (pm_p m) (pm_ld m) (pm_ld m) (pm_rs m) (pm_psi m) rd rq w (id k) (iq k) zd zq /\ iq (Datatypes.S k) = qstep e a (pm_p m) (pm_ld m) (pm_ld m) (pm_rs m) (pm_psi m) rd rq w (id k) (iq k) zd zq).
  { intros k. pose proof (pmsm_eq m Hd Hq) as Ho. rewrite Eq in Ho, Pq. exact (dq_linear e id0 a "PMSM" (pm_p m) (pm_ld m) (pm_ld m) (pm_rs m) (pm_psi m) rd rq w c Hc Hm (or_introl eq_refl) Hat Pd Pq Pp (fun _ => Pf) ltac:(discriminate) Hd Hd Ht Ha (pmsm_ode m) Ho (Datatypes.S k) cs s id iq eps u (Cl _) k (Nat.lt_succ_diag_r _)). }
  pose proof (fun k => dq_recurrence e a (pm_p m) (pm_ld m) (pm_rs m) (pm_psi m) rd rq w id iq Hd Ht Ha (Datatypes.S (Datatypes.S k)) (fun j _ => H j) k (Nat.lt_succ_diag_r _)) as Rc. cbv zeta in Rc.
  cbv zeta in S1, S2. destruct (schur_converges _ _ _ _ S1 S2 (fun k => id k - rd) (fun k => iq k - rq) (fun k => proj1 (Rc k)) (fun k => proj2 (Rc k))) as [V1 V2]. split; apply Un_cv_shift; assumption.
Qed.
Print Assumptions pmsm_speed_loop_converges.

(** ** Such loops exist *)
Definition with_limits (e : cenv) (lim : list R) : cenv :=
  {| ce_names := ce_names e; ce_limits := lim; ce_low := ce_low e; ce_high := ce_high e; ce_refs := ce_refs e; ce_tau := ce_tau e; ce_par := ce_par e; ce_j := ce_j e; ce_act := ce_act e; ce_b6 := ce_b6 e; ce_dead := ce_dead e |}.
(** Limits of more than [U] for both components of the voltage. *)
Definition strong (e : cenv) (U : R) : Prop := forall j, str_index "u_sd" (ce_names e) = Ok j \/ str_index "u_sq" (ce_names e) = Ok j -> U < comp j (ce_limits e).
Lemma turn_bound d x y U : Rabs x + Rabs y <= U / 2 -> Rabs (comp 0 (turn d [x; y])) <= U / 2 /\ Rabs (comp 1 (turn d [x; y])) <= U / 2.
Proof.
  intros H. unfold turn, comp. cbn [nth]. pose proof (COS_bound d) as C. pose proof (SIN_bound d) as S. assert (C' : Rabs (cos d) <= 1) by (apply Rabs_le; lra). assert (S' : Rabs (sin d) <= 1) by (apply Rabs_le; lra).
  assert (M : forall k z, Rabs k <= 1 -> Rabs (k * z) <= Rabs z) by (intros k z Hk; rewrite Rabs_mult; rewrite <- (Rmult_1_l (Rabs z)) at 2; apply Rmult_le_compat_r; [apply Rabs_pos|exact Hk]).
  split; [unfold Rminus|]; (apply Rle_trans with (1 := Rabs_triang _ _)); rewrite ?Rabs_Ropp; [pose proof (M _ x C'); pose proof (M _ y S')|pose proof (M _ x S'); pose proof (M _ y C')]; lra.
Qed.
Lemma strong_range e id0 m t s eps w x y u U : abc_tune abc_new e id0 = Ok t -> motor_type id0 = Ok m -> sync_motor m -> observed e s "epsilon" eps -> observed e s "omega" w -> abc_call t s [x; y] = Ok u -> 0 < U -> strong e U -> Rabs x + Rabs y <= U / 2 -> in_dq_range e u.
Proof.
  intros Ht Hm Hk He Hw Hu HU Hs Hb jd jq th v Ed Eq Ev. rewrite (sync_abc e id0 m t s eps w x y u th Ht Hm Hk He Hw Hu) in Ev. injection Ev as <-. set (d := eps + advance e w - th). destruct (turn_bound d x y U Hb) as [B1 B2].
  assert (Q : forall z l, U < l -> Rabs z <= U / 2 -> Rsqr (z / l) <= 1 / 4).
  { intros z l Hl Hz. replace (1 / 4) with (Rsqr (1 / 2)) by (unfold Rsqr; lra). apply Rsqr_le_abs_1. unfold Rdiv at 1. rewrite Rabs_mult, Rabs_inv, (Rabs_pos_eq l), (Rabs_pos_eq (1 / 2)) by lra. apply Rmult_le_reg_r with l; [lra|]. rewrite Rmult_assoc, Rinv_l by lra. lra. }
  pose proof (Q _ _ (Hs jd (or_introl Ed)) B1). pose proof (Q _ _ (Hs jq (or_intror Eq)) B2). lra.
Qed.
Fixpoint ctl_run2 (c : cctl) (s : nat -> list R) (rd rq : R) (k : nat) : cctl := match k with O => c | Datatypes.S j => fst (current_control (ctl_run2 c s rd rq j) (s j) [rd; rq]) end.
Section Course2.
Variables (e : cenv) (a p ld lq rs psi rd rq w d0 q0 : R).
(** Currents and integrators. *)
Fixpoint course2 (k : nat) : (R * R) * (R * R) :=
  match k with
  | O => ((d0, q0), (0, 0))
  | Datatypes.S j => let '((i_d, i_q), (zd, zq)) := course2 j in
      ((dstep e a p ld lq rs psi rd rq w i_d i_q zd zq, qstep e a p ld lq rs psi rd rq w i_d i_q zd zq), (zd + ce_tau e * (rd - i_d), zq + ce_tau e * (rq - i_q)))
  end.
Definition cid k := fst (fst (course2 k)).
Definition ciq k := snd (fst (course2 k)).
Lemma course2_z k : snd (course2 k) = (zsum (ce_tau e) rd cid k, zsum (ce_tau e) rq ciq k).
Proof. induction k as [|k IH]; [reflexivity|]. cbn [course2 zsum]. unfold cid, ciq in *. destruct (course2 k) as [[x y] [z1 z2]]. cbn [fst snd] in *. injection IH as -> ->. reflexivity. Qed.
Lemma course2_step k : let zd := zsum (ce_tau e) rd cid k in let zq := zsum (ce_tau e) rq ciq k in cid (Datatypes.S k) = dstep e a p ld lq rs psi rd rq w (cid k) (ciq k) zd zq /\ ciq (Datatypes.S k) = qstep e a p ld lq rs psi rd rq w (cid k) (ciq k) zd zq.
Proof. intros zd zq. pose proof (course2_z k) as Z. fold zd zq in Z. unfold cid at 1, ciq at 2. cbn [course2]. unfold cid, ciq. destruct (course2 k) as [[x y] [z1 z2]]. cbn [fst snd] in *. injection Z as -> ->. split; reflexivity. Qed.
(** The demanded voltage in terms of the currents. *)
Lemma voltage_bound B : 0 < ld -> 0 < lq -> 0 < ce_tau e -> (forall k, Rabs (cid k) <= B) -> (forall k, Rabs (ciq k) <= B) ->
  exists U, 0 < U /\ forall k, let zd := zsum (ce_tau e) rd cid k in let zq := zsum (ce_tau e) rq ciq k in Rabs (vd e a p ld lq rd w (cid k) (ciq k) zd) + Rabs (vq e a p ld lq psi rq w (cid k) (ciq k) zq) <= U / 2.
Proof.
  intros Hd Hq Ht B1 B2. set (tau := ce_tau e) in *. assert (B0 : 0 <= B) by (pose proof (B1 O); pose proof (Rabs_pos (cid O)); lra).
  set (M := ld / tau * (2 * B) + Rabs rs * B + Rabs (w * p * lq) * B + (lq / tau * (2 * B) + Rabs rs * B + Rabs (w * p * ld) * B + Rabs (w * p * psi))).
  assert (K : forall k x y, x = ld / tau * (cid (Datatypes.S k) - cid k) + rs * cid k - w * p * lq * ciq k -> y = lq / tau * (ciq (Datatypes.S k) - ciq k) + rs * ciq k + w * p * ld * cid k + w * p * psi -> Rabs x + Rabs y <= M).
  { intros k x y -> ->. assert (T3 : forall l f, 0 < l -> (forall k, Rabs (f k) <= B) -> Rabs (l / tau * (f (Datatypes.S k) - f k)) <= l / tau * (2 * B)).
    { intros l f Hl Hf. rewrite Rabs_mult, (Rabs_pos_eq (l / tau)) by (apply Rlt_le, Rdiv_lt_0_compat; lra). apply Rmult_le_compat_l; [apply Rlt_le, Rdiv_lt_0_compat; lra|]. unfold Rminus. apply Rle_trans with (1 := Rabs_triang _ _). rewrite Rabs_Ropp. pose proof (Hf k). pose proof (Hf (Datatypes.S k)). lra. }
    assert (T4 : forall l z, Rabs z <= B -> Rabs (l * z) <= Rabs l * B) by (intros l z Hz; rewrite Rabs_mult; apply Rmult_le_compat_l; [apply Rabs_pos|exact Hz]).
    pose proof (T3 ld cid Hd B1) as U1. pose proof (T3 lq ciq Hq B2) as U2. pose proof (T4 rs _ (B1 k)) as U3. pose proof (T4 rs _ (B2 k)) as U4. pose proof (T4 (w * p * lq) _ (B2 k)) as U5. pose proof (T4 (w * p * ld) _ (B1 k)) as U6.
    unfold M. unfold Rminus at 1. pose proof (Rabs_triang (ld / tau * (cid (Datatypes.S k) - cid k) + rs * cid k) (- (w * p * lq * ciq k))) as V1. rewrite Rabs_Ropp in V1. pose proof (Rabs_triang (ld / tau * (cid (Datatypes.S k) - cid k)) (rs * cid k)) as V2.
    pose proof (Rabs_triang (lq / tau * (ciq (Datatypes.S k) - ciq k) + rs * ciq k + w * p * ld * cid k) (w * p * psi)) as V3. pose proof (Rabs_triang (lq / tau * (ciq (Datatypes.S k) - ciq k) + rs * ciq k) (w * p * ld * cid k)) as V4. pose proof (Rabs_triang (lq / tau * (ciq (Datatypes.S k) - ciq k)) (rs * ciq k)) as V5. lra. }
  exists (4 * M + 2). assert (M0 : 0 <= M) by (pose proof (K O _ _ eq_refl eq_refl) as K0; match type of K0 with Rabs ?x + Rabs ?y <= _ => pose proof (Rabs_pos x); pose proof (Rabs_pos y) end; lra). split; [lra|].
  intros k zd zq. destruct (course2_step k) as [E1 E2]. unfold dstep in E1. unfold qstep in E2. fold tau in E1, E2. fold zd zq in E1, E2. set (x := vd e a p ld lq rd w (cid k) (ciq k) zd) in *. set (y := vq e a p ld lq psi rq w (cid k) (ciq k) zq) in *. fold tau in E1, E2. set (ph := advance e w) in *.
  pose proof (K k (cos ph * x - sin ph * y) (sin ph * x + cos ph * y)) as Kk. assert (Kk' : Rabs (cos ph * x - sin ph * y) + Rabs (sin ph * x + cos ph * y) <= M). { apply Kk; [rewrite E1|rewrite E2]; clearbody x y ph tau; field; repeat split; lra. }
  assert (X : Rabs (cos ph * x - sin ph * y) + Rabs (sin ph * x + cos ph * y) <= (2 * M) / 2) by lra. apply (turn_bound (- ph)) in X. unfold turn, comp in X. cbn [nth] in X. rewrite cos_neg, sin_neg in X. pose proof (sin2_cos2 ph) as SC. unfold Rsqr in SC.
  replace (cos ph * (cos ph * x - sin ph * y) - - sin ph * (sin ph * x + cos ph * y)) with ((sin ph * sin ph + cos ph * cos ph) * x) in X by ring. replace (- sin ph * (cos ph * x - sin ph * y) + cos ph * (sin ph * x + cos ph * y)) with ((sin ph * sin ph + cos ph * cos ph) * y) in X by ring. rewrite SC, !Rmult_1_l in X. lra.
Qed.
End Course2.
Lemma dq_build e id0 a m p ld lq rs psi rd rq w d0 q0 c ode U eps obs : tuned_pi e id0 a c -> motor_type id0 = Ok m -> sync_motor m -> action_type id0 = Ok "Cont" -> par_is e "l_d" ld -> par_is e "l_q" lq -> par_is e "p" p ->
  (m = "PMSM" -> par_is e "psi_p" psi) -> (m = "SynRM" -> psi = 0) -> 0 < ld -> 0 < lq -> 0 < ce_tau e -> 0 < a -> sync_eq ode p ld lq rs psi ->
  let id := cid e a p ld lq rs psi rd rq w d0 q0 in let iq := ciq e a p ld lq rs psi rd rq w d0 q0 in
  0 < U -> strong e U -> (forall k, Rabs (vd e a p ld lq rd w (id k) (iq k) (zsum (ce_tau e) rd id k)) + Rabs (vq e a p ld lq psi rq w (id k) (iq k) (zsum (ce_tau e) rq iq k)) <= U / 2) ->
  (forall k x y, observed e (obs k x y) "i_sd" x /\ observed e (obs k x y) "i_sq" y /\ observed e (obs k x y) "epsilon" (eps k) /\ observed e (obs k x y) "omega" w) ->
  exists cs u, dq_loop e rd rq w ode c cs (fun k => obs k (id k) (iq k)) id iq eps u.
Proof.
  intros Hc Hm Hk Hat Pd Pq Pp P1 P2 Hd Hq Ht Ha Ho id iq HU Hs Hb Hobs. destruct (tuned_double e id0 a c m ld lq Hc Hm Hk Hat Pd Pq Hd Hq Ht Ha) as (jd & jq & kd & kq & Ud & Uq & Db & Lk & Ejd & Ejq & Ekd & Ekq & EUd & EUq & Ef & Eab).
  set (s := fun k => obs k (id k) (iq k)). set (zd := zsum (ce_tau e) rd id) in *. set (zq := zsum (ce_tau e) rq iq) in *. set (x := fun k => vd e a p ld lq rd w (id k) (iq k) (zd k)) in *. set (y := fun k => vq e a p ld lq psi rq w (id k) (iq k) (zq k)) in *.
  set (u := fun k => match abc_call (cc_abc c) (s k) [x k; y k] with Ok v => v | Err _ => [] end). set (cs := ctl_run2 c s rd rq).
  assert (Hob : forall k, observed e (s k) "i_sd" (id k) /\ observed e (s k) "i_sq" (iq k) /\ observed e (s k) "epsilon" (eps k) /\ observed e (s k) "omega" w) by (intros k; apply Hobs).
  assert (Hu : forall k, abc_call (cc_abc c) (s k) [x k; y k] = Ok (u k)). { intros k. destruct (Hob k) as (_ & _ & O3 & O4). destruct (abc_ok e id0 m (cc_abc c) (s k) (eps k) w (x k) (y k) Eab Hm Hk O3 O4) as (v & Ev). unfold u. rewrite Ev. reflexivity. }
  assert (Hr : forall k, in_dq_range e (u k)). { intros k. destruct (Hob k) as (_ & _ & O3 & O4). exact (strong_range e id0 m (cc_abc c) (s k) (eps k) w (x k) (y k) (u k) U Eab Hm Hk O3 O4 (Hu k) HU Hs (Hb k)). }
  assert (Hi : forall k, item (s k) jd = Ok (id k) /\ item (s k) jq = Ok (iq k)). { intros k. destruct (Hob k) as ((j1 & E1 & E2) & (j2 & E3 & E4) & _). rewrite Ejd in E1. rewrite Ejq in E3. injection E1 as <-. injection E3 as <-. split; assumption. }
  assert (Hstep : forall k, like2 c (zd k) (zq k) (cs k) -> exists c2, current_control (cs k) (s k) [rd; rq] = (c2, Ok (u k)) /\ like2 c (zd (Datatypes.S k)) (zq (Datatypes.S k)) c2).
  { intros k IH. destruct (Hi k) as [I1 I2]. destruct (Hob k) as (O1 & O2 & O3 & O4). refine (double_step _ _ _ _ _ _ _ _ _ _ _ _ _ _ _ _ _ _ (x k) (y k) _ Db IH I1 I2 _ _ (Hu k)).
    - exact (emf_sync m e id0 (cc_emf c) (s k) w (id k) (iq k) ld lq p psi _ _ Hk Ef Hm O4 O1 O2 Pd Pq Pp P1 P2).
    - pose proof (Hr k kd kq (eps k + advance e w) _ Ekd Ekq (sync_abc e id0 m _ _ _ _ _ _ _ _ Eab Hm Hk O3 O4 (Hu k))) as Z. rewrite Rminus_diag_eq in Z by reflexivity. rewrite turn0, <- EUd, <- EUq in Z. exact Z. }
  assert (A : forall k, like2 c (zd k) (zq k) (cs k)). { induction k as [|k IH]; [exact Lk|]. destruct (Hstep k IH) as (c2 & E2 & L2). unfold cs. cbn [ctl_run2]. fold cs. rewrite E2. exact L2. }
  exists cs, u. intros n. split; [reflexivity| |intros k _; apply Hr|intros k _; apply Hob|].
  - intros k _. destruct (Hstep k (A k)) as (c2 & E2 & L2). unfold cs at 2. cbn [ctl_run2]. fold cs. rewrite E2. reflexivity.
  - intros k _. destruct (Hob k) as (_ & _ & O3 & O4). pose proof (sync_abc e id0 m _ _ _ _ _ _ _ (eps k) Eab Hm Hk O3 O4 (Hu k)) as Ev. replace (eps k + advance e w - eps k) with (advance e w) in Ev by ring. unfold turn, comp in Ev. cbn [nth] in Ev.
    match type of Ev with _ = Ok [?v0; ?v1] => destruct (Ho (id k) (iq k) (eps k) v0 v1 w) as (de & Eo) end. do 4 eexists. split; [exact Ev|]. split; [exact Eo|]. destruct (course2_step e a p ld lq rs psi rd rq w d0 q0 k) as [E1 E2]. fold id iq in E1, E2. split; [exact E1|exact E2].
Qed.
(** The loop of [pmsm_speed_loop_converges] runs for ever if the voltage limits are high enough. *)
Theorem pmsm_speed_loop_exists :
  forall e id0 a m rd rq w d0 q0, motor_type id0 = Ok "PMSM" -> action_type id0 = Ok "Cont" ->
  par_is e "l_d" (pm_ld m) -> par_is e "l_q" (pm_lq m) -> par_is e "p" (pm_p m) -> par_is e "psi_p" (pm_psi m) -> 0 < pm_ld m -> pm_lq m = pm_ld m -> 0 < ce_tau e -> 0 < a ->
  dq_stable a (ce_tau e * pm_rs m / pm_ld m) (w * pm_p m * ce_tau e) (advance e w) ->
  exists U, forall lim c eps obs, tuned_pi (with_limits e lim) id0 a c -> strong (with_limits e lim) U ->
  (forall k x y, observed e (obs k x y) "i_sd" x /\ observed e (obs k x y) "i_sq" y /\ observed e (obs k x y) "epsilon" (eps k) /\ observed e (obs k x y) "omega" w) ->
  exists cs id iq u, id O = d0 /\ iq O = q0 /\ dq_loop (with_limits e lim) rd rq w (pmsm_ode m) c cs (fun k => obs k (id k) (iq k)) id iq eps u.
Proof.
  intros e id0 a m rd rq w d0 q0 Hm Hat Pd Pq Pp Pf Hd Eq Ht Ha [S1 S2]. assert (Hq : 0 < pm_lq m) by (rewrite Eq; exact Hd). pose proof (pmsm_eq m Hd Hq) as Ho. rewrite Eq in Ho, Pq.
  set (id := cid e a (pm_p m) (pm_ld m) (pm_ld m) (pm_rs m) (pm_psi m) rd rq w d0 q0). set (iq := ciq e a (pm_p m) (pm_ld m) (pm_ld m) (pm_rs m) (pm_psi m) rd rq w d0 q0).
  pose proof (fun k => dq_recurrence e a (pm_p m) (pm_ld m) (pm_rs m) (pm_psi m) rd rq w id iq Hd Ht Ha (Datatypes.S (Datatypes.S k)) (fun j _ => course2_step e a (pm_p m) (pm_ld m) (pm_ld m) (pm_rs m) (pm_psi m) rd rq w d0 q0 j) k (Nat.lt_succ_diag_r _)) as Rc. cbv zeta in Rc, S1, S2.
  pose proof (schur_bound _ _ _ _ S1 S2 (fun k => id k - rd) (fun k => iq k - rq) (fun k => proj1 (Rc k)) (fun k => proj2 (Rc k))) as Bd. match type of Bd with forall n, _ <= ?x => set (V := x) in * end. clearbody V.
  assert (V0 : 0 <= V) by (pose proof (Bd O) as B0; cbv beta in B0; pose proof (sq0 (id O - rd)); pose proof (sq0 (iq O - rq)); lra).
  assert (Bi : forall k, Rabs (id k) <= Rabs rd + Rabs rq + sqrt V /\ Rabs (iq k) <= Rabs rd + Rabs rq + sqrt V).
  { intros k. pose proof (Bd k) as B. cbv beta in B. pose proof (sq0 (id k - rd)) as Z1. pose proof (sq0 (iq k - rq)) as Z2. assert (Y1 : Rabs (id k - rd) <= sqrt V) by (apply sq_abs_le; lra). assert (Y2 : Rabs (iq k - rq) <= sqrt V) by (apply sq_abs_le; lra).
    pose proof (Rabs_triang (id k - rd) rd) as T1. pose proof (Rabs_triang (iq k - rq) rq) as T2. replace (id k - rd + rd) with (id k) in T1 by ring. replace (iq k - rq + rq) with (iq k) in T2 by ring. pose proof (Rabs_pos rd). pose proof (Rabs_pos rq). lra. }
  destruct (voltage_bound e a (pm_p m) (pm_ld m) (pm_ld m) (pm_rs m) (pm_psi m) rd rq w d0 q0 _ Hd Hd Ht (fun k => proj1 (Bi k)) (fun k => proj2 (Bi k))) as (U & HU & HV). exists U. intros lim c eps obs Hc Hs Hobs.
  destruct (dq_build (with_limits e lim) id0 a "PMSM" (pm_p m) (pm_ld m) (pm_ld m) (pm_rs m) (pm_psi m) rd rq w d0 q0 c (pmsm_ode m) U eps obs Hc Hm (or_introl eq_refl) Hat Pd Pq Pp (fun _ => Pf) ltac:(discriminate) Hd Hd Ht Ha Ho HU Hs HV Hobs) as (cs & u & H).
  exists cs, id, iq, u. split; [reflexivity|]. split; [reflexivity|]. exact H.
Qed.
Print Assumptions pmsm_speed_loop_exists.
Lemma standstill_exists e id0 a m p ld lq rs psi rd rq d0 q0 ode : motor_type id0 = Ok m -> sync_motor m -> action_type id0 = Ok "Cont" -> par_is e "l_d" ld -> par_is e "l_q" lq -> par_is e "p" p ->
  (m = "PMSM" -> par_is e "psi_p" psi) -> (m = "SynRM" -> psi = 0) -> 0 < ld -> 0 < lq -> 0 < ce_tau e -> 0 < a -> sync_eq ode p ld lq rs psi ->
  loop_stable a (ce_tau e * rs / ld) -> loop_stable a (ce_tau e * rs / lq) ->
  exists U, forall lim c eps obs, tuned_pi (with_limits e lim) id0 a c -> strong (with_limits e lim) U ->
  (forall k x y, observed e (obs k x y) "i_sd" x /\ observed e (obs k x y) "i_sq" y /\ observed e (obs k x y) "epsilon" (eps k) /\ observed e (obs k x y) "omega" 0) ->
  exists cs id iq u, id O = d0 /\ iq O = q0 /\ dq_loop (with_limits e lim) rd rq 0 ode c cs (fun k => obs k (id k) (iq k)) id iq eps u.
Proof.
  intros Hm Hk Hat Pd Pq Pp P1 P2 Hd Hq Ht Ha Ho Sd Sq.
  set (id := cid e a p ld lq rs psi rd rq 0 d0 q0). set (iq := ciq e a p ld lq rs psi rd rq 0 d0 q0).
  assert (Bx : forall L r i, 0 < L -> loop_stable a (ce_tau e * rs / L) -> (forall k, i (Datatypes.S k) = i k + ce_tau e / L * (L / (ce_tau e * a) * (r - i k) + L / (ce_tau e * a) / (ce_tau e * (a * a)) * zsum (ce_tau e) r i k - rs * i k - 0)) -> exists B, forall k, Rabs (i k) <= B).
  { intros L r i HL [S1 S2] Hi. assert (A3 : 0 < 1 / (a * a * a)) by (apply Rdiv_lt_0_compat; [lra|repeat apply Rmult_lt_0_compat; lra]). replace (2 / a) with (2 * (1 / a)) in S2 by (field; lra). set (t := 2 - ce_tau e * rs / L - 1 / a). set (d := 1 - ce_tau e * rs / L - 1 / a + 1 / (a * a * a)).
    assert (D1 : d < 1) by (unfold d; lra). assert (T1 : - (1 + d) < t < 1 + d) by (unfold t, d; split; lra).
    pose proof (recurrence_bound t d D1 T1 (fun k => i k - r) (fun k => loop_recurrence (Datatypes.S (Datatypes.S k)) a (ce_tau e) L rs 0 r i Ha Ht HL (fun j _ => Hi j) k (Nat.lt_succ_diag_r _))) as Rb. match type of Rb with forall n, _ <= ?z => set (V := z) in * end. clearbody V. cbv beta in Rb.
    exists (Rabs r + sqrt V). intros k. pose proof (sq0 (i O - r)) as Z. pose proof (Rb O) as Z2. assert (Y : Rabs (i k - r) <= sqrt V) by (apply sq_abs_le; [lra|apply Rb]). pose proof (Rabs_triang (i k - r) r) as T. replace (i k - r + r) with (i k) in T by ring. lra. }
  pose proof (course2_step e a p ld lq rs psi rd rq 0 d0 q0) as Cs. fold id iq in Cs. cbv zeta in Cs.
  destruct (Bx ld rd id Hd Sd) as (B1 & HB1). { intros k. rewrite (proj1 (Cs k)). exact (proj1 (standstill_axes e a p ld lq rs psi rd rq id iq k Hd Hq Ht Ha)). }
  destruct (Bx lq rq iq Hq Sq) as (B2 & HB2). { intros k. rewrite (proj2 (Cs k)). exact (proj2 (standstill_axes e a p ld lq rs psi rd rq id iq k Hd Hq Ht Ha)). }
  destruct (voltage_bound e a p ld lq rs psi rd rq 0 d0 q0 (Rmax B1 B2) Hd Hq Ht) as (U & HU & HV); [intros k; apply Rle_trans with (1 := HB1 k), Rmax_l|intros k; apply Rle_trans with (1 := HB2 k), Rmax_r|].
  exists U. intros lim c eps obs Hc Hs Hobs. destruct (dq_build (with_limits e lim) id0 a m p ld lq rs psi rd rq 0 d0 q0 c ode U eps obs Hc Hm Hk Hat Pd Pq Pp P1 P2 Hd Hq Ht Ha Ho HU Hs HV Hobs) as (cs & u & H).
  exists cs, id, iq, u. split; [reflexivity|]. split; [reflexivity|]. exact H.
Qed.
Theorem sync_standstill_loop_exists :
  forall e id0 a rd rq d0 q0, action_type id0 = Ok "Cont" -> 0 < ce_tau e -> 0 < a ->
  (forall m, motor_type id0 = Ok "PMSM" -> par_is e "l_d" (pm_ld m) -> par_is e "l_q" (pm_lq m) -> par_is e "p" (pm_p m) -> par_is e "psi_p" (pm_psi m) -> 0 < pm_ld m -> 0 < pm_lq m -> loop_stable a (ce_tau e * pm_rs m / pm_ld m) -> loop_stable a (ce_tau e * pm_rs m / pm_lq m) ->
    exists U, forall lim c eps obs, tuned_pi (with_limits e lim) id0 a c -> strong (with_limits e lim) U ->
    (forall k x y, observed e (obs k x y) "i_sd" x /\ observed e (obs k x y) "i_sq" y /\ observed e (obs k x y) "epsilon" (eps k) /\ observed e (obs k x y) "omega" 0) ->
    exists cs id iq u, id O = d0 /\ iq O = q0 /\ dq_loop (with_limits e lim) rd rq 0 (pmsm_ode m) c cs (fun k => obs k (id k) (iq k)) id iq eps u) /\
  (forall m, motor_type id0 = Ok "SynRM" -> par_is e "l_d" (sr_ld m) -> par_is e "l_q" (sr_lq m) -> par_is e "p" (sr_p m) -> 0 < sr_ld m -> 0 < sr_lq m -> loop_stable a (ce_tau e * sr_rs m / sr_ld m) -> loop_stable a (ce_tau e * sr_rs m / sr_lq m) ->
    exists U, forall lim c eps obs, tuned_pi (with_limits e lim) id0 a c -> strong (with_limits e lim) U ->
    (forall k x y, observed e (obs k x y) "i_sd" x /\ observed e (obs k x y) "i_sq" y /\ observed e (obs k x y) "epsilon" (eps k) /\ observed e (obs k x y) "omega" 0) ->
    exists cs id iq u, id O = d0 /\ iq O = q0 /\ dq_loop (with_limits e lim) rd rq 0 (synrm_ode m) c cs (fun k => obs k (id k) (iq k)) id iq eps u).
Proof.
  intros e id0 a rd rq d0 q0 Hat Ht Ha. split.
  - intros m Hm Pd Pq Pp Pf Hd Hq Sd Sq. apply (standstill_exists e id0 a "PMSM" (pm_p m) (pm_ld m) (pm_lq m) (pm_rs m) (pm_psi m)); auto; [left; reflexivity|discriminate|apply pmsm_eq; assumption].
  - intros m Hm Pd Pq Pp Hd Hq Sd Sq. apply (standstill_exists e id0 a "SynRM" (sr_p m) (sr_ld m) (sr_lq m) (sr_rs m) 0); auto; [right; reflexivity|discriminate|apply synrm_eq; assumption].
Qed.
Print Assumptions sync_standstill_loop_exists.
(** Environments with voltage limits of [U + 1] volts: the default PMSM (as in [sync_env]), the default SynRM and a PMSM
    with equal inductances at 100 rad/s. *)
Definition ac_env (par : dict R) : cenv :=
  {| ce_names := sync_names; ce_limits := repeat 1 14; ce_low := repeat (-1) 13 ++ [0]; ce_high := repeat 1 14; ce_refs := ["i_sd"; "i_sq"];
     ce_tau := 1 / 10000; ce_par := par; ce_j := 1 / 1000; ce_act := SBox 3; ce_b6 := false; ce_dead := None |}.
Definition ac_limits (U : R) : list R := [419; 50; 400; 400; 400; 400; 400; U + 1; U + 1; U + 1; U + 1; U + 1; PI; U + 1].
Definition ac_obs (w : R) (k : nat) (x y : R) : list R := [w; 0; 0; 0; 0; x; y; 0; 0; 0; 0; 0; INR k; 0].
Lemma ac_observed par w k x y : let e := ac_env par in observed e (ac_obs w k x y) "i_sd" x /\ observed e (ac_obs w k x y) "i_sq" y /\ observed e (ac_obs w k x y) "epsilon" (INR k) /\ observed e (ac_obs w k x y) "omega" w.
Proof. repeat split; eexists; split; reflexivity. Qed.
Lemma ac_strong par U : strong (with_limits (ac_env par) (ac_limits U)) U.
Proof. intros j [H|H]; cbn in H; injection H as <-; cbn; lra. Qed.
Definition pmsm_pars (p ld lq rs psi : R) : dict R := [("p", p); ("l_d", ld); ("l_q", lq); ("r_s", rs); ("psi_p", psi)].
Example pmsm_standstill_example : exists e c cs s id iq eps u, tuned_pi e "Cont-CC-PMSM-v0" 4 c /\ id O = 0 /\ iq O = 0 /\ dq_loop e (-20) 50 0 (pmsm_ode {| pm_p := 3; pm_ld := 37 / 100000; pm_lq := 12 / 10000; pm_rs := 18 / 1000; pm_psi := 66 / 1000 |}) c cs s id iq eps u /\ Un_cv id (-20) /\ Un_cv iq 50.
Proof.
  set (m := {| pm_p := 3; pm_ld := 37 / 100000; pm_lq := 12 / 10000; pm_rs := 18 / 1000; pm_psi := 66 / 1000 |}). set (e := ac_env (pmsm_pars 3 (37 / 100000) (12 / 10000) (18 / 1000) (66 / 1000))).
  assert (T0 : 0 < ce_tau e) by (cbn; lra). assert (A0 : 0 < 4) by lra. assert (D0 : 0 < pm_ld m) by (cbn; lra). assert (Q0 : 0 < pm_lq m) by (cbn; lra). assert (S1 : loop_stable 4 (ce_tau e * pm_rs m / pm_ld m)) by (split; cbn; lra). assert (S2 : loop_stable 4 (ce_tau e * pm_rs m / pm_lq m)) by (split; cbn; lra).
  destruct (proj1 (sync_standstill_loop_exists e "Cont-CC-PMSM-v0" 4 (-20) 50 0 0 eq_refl T0 A0) m eq_refl eq_refl eq_refl eq_refl eq_refl D0 Q0 S1 S2) as (U & H).
  assert (Hc : exists c, tuned_pi (with_limits e (ac_limits U)) "Cont-CC-PMSM-v0" 4 c) by (eexists; do 2 eexists; split; [reflexivity|split; reflexivity]). destruct Hc as (c & Hc).
  destruct (H (ac_limits U) c INR (ac_obs 0) Hc (ac_strong _ U) (ac_observed _ 0)) as (cs & id & iq & u & I0 & I1 & Cl). exists (with_limits e (ac_limits U)), c, cs, (fun k => ac_obs 0 k (id k) (iq k)), id, iq, INR, u. split; [exact Hc|]. split; [exact I0|]. split; [exact I1|]. split; [exact Cl|].
  exact (pmsm_standstill_loop_converges (with_limits e (ac_limits U)) "Cont-CC-PMSM-v0" 4 c m (-20) 50 cs _ id iq INR u Hc eq_refl eq_refl eq_refl eq_refl eq_refl eq_refl D0 Q0 T0 A0 S1 S2 Cl).
Qed.
Example synrm_standstill_example : exists e c cs s id iq eps u, tuned_pi e "Cont-CC-SynRM-v0" 4 c /\ id O = 0 /\ iq O = 0 /\ dq_loop e 10 20 0 (synrm_ode {| sr_p := 4; sr_ld := 101 / 10000; sr_lq := 41 / 10000; sr_rs := 57 / 100 |}) c cs s id iq eps u /\ Un_cv id 10 /\ Un_cv iq 20.
Proof.
  set (m := {| sr_p := 4; sr_ld := 101 / 10000; sr_lq := 41 / 10000; sr_rs := 57 / 100 |}). set (e := ac_env [("p", 4); ("l_d", 101 / 10000); ("l_q", 41 / 10000); ("r_s", 57 / 100)]).
  assert (T0 : 0 < ce_tau e) by (cbn; lra). assert (A0 : 0 < 4) by lra. assert (D0 : 0 < sr_ld m) by (cbn; lra). assert (Q0 : 0 < sr_lq m) by (cbn; lra). assert (S1 : loop_stable 4 (ce_tau e * sr_rs m / sr_ld m)) by (split; cbn; lra). assert (S2 : loop_stable 4 (ce_tau e * sr_rs m / sr_lq m)) by (split; cbn; lra).
  destruct (proj2 (sync_standstill_loop_exists e "Cont-CC-SynRM-v0" 4 10 20 0 0 eq_refl T0 A0) m eq_refl eq_refl eq_refl eq_refl D0 Q0 S1 S2) as (U & H).
  assert (Hc : exists c, tuned_pi (with_limits e (ac_limits U)) "Cont-CC-SynRM-v0" 4 c) by (eexists; do 2 eexists; split; [reflexivity|split; reflexivity]). destruct Hc as (c & Hc).
  destruct (H (ac_limits U) c INR (ac_obs 0) Hc (ac_strong _ U) (ac_observed _ 0)) as (cs & id & iq & u & I0 & I1 & Cl). exists (with_limits e (ac_limits U)), c, cs, (fun k => ac_obs 0 k (id k) (iq k)), id, iq, INR, u. split; [exact Hc|]. split; [exact I0|]. split; [exact I1|]. split; [exact Cl|].
  exact (synrm_standstill_loop_converges (with_limits e (ac_limits U)) "Cont-CC-SynRM-v0" 4 c m 10 20 cs _ id iq INR u Hc eq_refl eq_refl eq_refl eq_refl eq_refl D0 Q0 T0 A0 S1 S2 Cl).
Qed.
(** The stability condition at 100 rad/s: sampling time 1e-4 s, a = 4, three pole pairs, L = 1 mH, R = 18 mOhm. *)
Lemma speed_stable : dq_stable 4 (18 / 10000) (3 / 100) (1 / 200).
Proof.
  unfold dq_stable. set (s := sin (1 / 200)). set (c := cos (1 / 200)).
  assert (S1 : 0 <= s <= 1 / 200). { unfold s. pose proof PI2_3_2 as P. split; [apply sin_ge_0; lra|]. apply Rlt_le, sin_lt_x. lra. }
  assert (C1 : 1 - 2 / 100000 <= c <= 1). { unfold c. split; [|apply COS_bound]. replace (1 / 200) with (2 * (1 / 400)) by lra. rewrite cos_2a_sin. assert (X : 0 <= sin (1 / 400) <= 1 / 400) by (pose proof PI2_3_2 as P; split; [apply sin_ge_0; lra|apply Rlt_le, sin_lt_x; lra]). assert (sin (1 / 400) * sin (1 / 400) <= 1 / 400 * (1 / 400)) by (apply Rmult_le_compat; lra). lra. }
  clearbody s c. cbv zeta.
  set (gr := c / 4 + 18 / 10000 + 3 / 100 * s). set (gi := s / 4 + 3 / 100 * (1 - c)). assert (Gr : 25179 / 100000 <= gr <= 25196 / 100000) by (unfold gr; lra). assert (Gi : 0 <= gi <= 126 / 100000) by (unfold gi; lra).
  set (dr := 1 - gr + c / (4 * 4 * 4)). set (di := - gi + s / (4 * 4 * 4)). assert (Dr : 76366 / 100000 <= dr <= 76384 / 100000) by (unfold dr; lra). assert (Di : - (126 / 100000) <= di <= 1 / 10000) by (unfold di; lra).
  assert (Q1 : dr * dr <= 58346 / 100000) by nra. assert (Q2 : di * di <= 1 / 100000) by nra. assert (Q0 : 0 <= dr * dr + di * di) by nra.
  split; [lra|]. unfold Rsqr.
  assert (M1 : 41 / 100 <= 2 - gr - (dr * (2 - gr) + di * - gi) <= 4135 / 10000). { assert (X1 : 0 <= (1 - dr) * (2 - gr)) by nra. assert (X2 : 4129 / 10000 - 1 / 1000 <= (1 - dr) * (2 - gr) <= 4133 / 10000) by (split; nra). assert (X3 : - (1 / 100000) <= di * gi <= 1 / 100000) by (split; nra). lra. }
  assert (M2 : - (5 / 1000) <= - gi - (di * (2 - gr) - dr * - gi) <= 5 / 1000). { assert (X1 : 0 <= gi * dr <= 126 / 100000) by (split; nra). assert (X2 : - (25 / 10000) <= di * (2 - gr) <= 2 / 10000) by (split; nra). lra. }
  set (mr := 2 - gr - _) in *. set (mi := - gi - _) in *. clearbody mr mi. assert (mr * mr <= 4135 / 10000 * (4135 / 10000)) by nra. assert (mi * mi <= 25 / 1000000) by nra.
  assert (Z : 41653 / 100000 <= 1 - (dr * dr + di * di)) by lra. set (z := 1 - (dr * dr + di * di)) in *. clearbody z. nra.
Qed.
Example pmsm_speed_example : exists e c cs s id iq eps u, tuned_pi e "Cont-CC-PMSM-v0" 4 c /\ id O = 0 /\ iq O = 0 /\ dq_loop e (-20) 50 100 (pmsm_ode {| pm_p := 3; pm_ld := 1 / 1000; pm_lq := 1 / 1000; pm_rs := 18 / 1000; pm_psi := 66 / 1000 |}) c cs s id iq eps u /\ Un_cv id (-20) /\ Un_cv iq 50.
Proof.
  set (m := {| pm_p := 3; pm_ld := 1 / 1000; pm_lq := 1 / 1000; pm_rs := 18 / 1000; pm_psi := 66 / 1000 |}). set (e := ac_env (pmsm_pars 3 (1 / 1000) (1 / 1000) (18 / 1000) (66 / 1000))).
  assert (T0 : 0 < ce_tau e) by (cbn; lra). assert (A0 : 0 < 4) by lra. assert (D0 : 0 < pm_ld m) by (cbn; lra). assert (S1 : dq_stable 4 (ce_tau e * pm_rs m / pm_ld m) (100 * pm_p m * ce_tau e) (advance e 100)).
  { replace (ce_tau e * pm_rs m / pm_ld m) with (18 / 10000) by (cbn; lra). replace (100 * pm_p m * ce_tau e) with (3 / 100) by (cbn; lra). replace (advance e 100) with (1 / 200) by (unfold advance; cbn; lra). exact speed_stable. }
  destruct (pmsm_speed_loop_exists e "Cont-CC-PMSM-v0" 4 m (-20) 50 100 0 0 eq_refl eq_refl eq_refl eq_refl eq_refl eq_refl D0 eq_refl T0 A0 S1) as (U & H).
  assert (Hc : exists c, tuned_pi (with_limits e (ac_limits U)) "Cont-CC-PMSM-v0" 4 c) by (eexists; do 2 eexists; split; [reflexivity|split; reflexivity]). destruct Hc as (c & Hc).
  destruct (H (ac_limits U) c INR (ac_obs 100) Hc (ac_strong _ U) (ac_observed _ 100)) as (cs & id & iq & u & I0 & I1 & Cl). exists (with_limits e (ac_limits U)), c, cs, (fun k => ac_obs 100 k (id k) (iq k)), id, iq, INR, u. split; [exact Hc|]. split; [exact I0|]. split; [exact I1|]. split; [exact Cl|].
  exact (pmsm_speed_loop_converges (with_limits e (ac_limits U)) "Cont-CC-PMSM-v0" 4 c m (-20) 50 100 cs _ id iq INR u Hc eq_refl eq_refl eq_refl eq_refl eq_refl eq_refl D0 eq_refl T0 A0 S1 Cl).
Qed.
