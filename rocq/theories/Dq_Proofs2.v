(** The tuned current controllers of PMSM and SynRM as pairs of PI controllers with decoupling. *)
From Verif Require Import PyBaseFacts PyDictFacts Transform_Model Transform_Proofs Motor_Model Conv_Model Wrap_Model Ctl_Model Ctl_Model2 Ctl_Spec Ctl_Proofs Ctl_Proofs2 Ctl_Props Emf_Props Out_Props Loop_Spec Loop_Props Dq_Spec Dq_Proofs.
Local Open Scope string_scope. Local Open Scope list_scope. Local Open Scope R_scope.

Definition like2 (c : cctl) (zd zq : R) (c' : cctl) : Prop :=
  b_kind (cc_base c') = KPI /\ b_p (cc_base c') = b_p (cc_base c) /\ b_i (cc_base c') = b_i (cc_base c) /\ b_idx (cc_base c') = b_idx (cc_base c) /\ b_int (cc_base c') = [zd; zq] /\
  cc_aw c' = cc_aw c /\ cs_clip (cc_clip c') = cs_clip (cc_clip c) /\ cc_dec c' = cc_dec c /\ cc_emf c' = cc_emf c /\ cc_req c' = cc_req c /\ cc_abc c' = cc_abc c.
Record double (c : cctl) (pd pq gd gq : R) (jd jq : nat) (tau Ud Uq : R) : Prop := {
  db_p : b_p (cc_base c) = [pd; pq]; db_i : b_i (cc_base c) = [gd; gq]; db_idx : b_idx (cc_base c) = Some [jd; jq]; db_aw : aw_idx (cc_aw c) = [jd; jq]; db_tau : aw_tau (cc_aw c) = tau;
  db_clip : cs_clip (cc_clip c) = CSq [Ud; Uq] 0; db_req : cc_req c = true; db_dec : cc_dec c = true }.
Lemma double_base c pd pq gd gq jd jq tau Ud Uq c' zd zq s rd rq i_d i_q : double c pd pq gd gq jd jq tau Ud Uq -> like2 c zd zq c' -> item s jd = Ok i_d -> item s jq = Ok i_q ->
  base_call (cc_base c') s [rd; rq] = (cc_base c', Ok [pd * (rd - i_d) + gd * zd; pq * (rq - i_q) + gq * zq]).
Proof.
  intros [S1 S2 S3 S4 S5 S6 S7 S8] (L1 & L2 & L3 & L4 & L5 & L6 & L7 & L8 & L9 & L10 & L11) Hd Hq. unfold base_call. rewrite L1. f_equal. unfold pi_control, base_states, p_part, i_part. rewrite L4, S3, (select2 _ _ _ _ _ Hd Hq). cbn [bind]. rewrite L2, L3, L5, S1, S2. reflexivity.
Qed.
Lemma double_step c pd pq gd gq jd jq tau Ud Uq c' zd zq s rd rq i_d i_q yd yq out : double c pd pq gd gq jd jq tau Ud Uq -> like2 c zd zq c' -> item s jd = Ok i_d -> item s jq = Ok i_q ->
  emf_call (cc_emf c) s [pd * (rd - i_d) + gd * zd; pq * (rq - i_q) + gq * zq] = Ok [yd; yq] -> Rsqr (yd / Ud) + Rsqr (yq / Uq) < 1 -> abc_call (cc_abc c) s [yd; yq] = Ok out ->
  exists c2, current_control c' s [rd; rq] = (c2, Ok out) /\ like2 c (zd + tau * (rd - i_d)) (zq + tau * (rq - i_q)) c2.
Proof.
  intros Db Lk Hd Hq Hy Hr Ho. pose proof (double_base _ _ _ _ _ _ _ _ _ _ _ _ _ _ rd rq _ _ Db Lk Hd Hq) as EB. destruct Db as [S1 S2 S3 S4 S5 S6 S7 S8]. destruct Lk as (L1 & L2 & L3 & L4 & L5 & L6 & L7 & L8 & L9 & L10 & L11).
  assert (EC : clip_call (cc_clip c') [yd; yq] = ({| cs_task := cs_task (cc_clip c'); cs_clip := cs_clip (cc_clip c'); cs_diff := [yd - yd; yq - yq] |}, Ok [yd; yq])).
  { unfold clip_call. rewrite L7, S6. cbn [clipped]. unfold sq_clip, np_bin. cbn [length Nat.eqb map2 bind map rsum fold_right].
    match goal with |- context [rlt ?a ?b] => assert (El : rlt a b = true) end.
    { apply rlt_true. unfold Rsqr in Hr. unfold rsum. cbn [fold_right]. lra. }
    rewrite El. reflexivity. }
  eexists. split.
  - unfold current_control. rewrite EB. cbn [bind]. rewrite L8, S8, L9, Hy. rewrite EC. rewrite L10, S7, L11, Ho. unfold has_integrator. rewrite L1. unfold windup_call. rewrite L6, S4, (select2 _ _ _ _ _ Hd Hq). cbn [bind cs_diff]. unfold np_bin. cbn [length Nat.eqb map2 bind map]. rewrite L5. unfold np_iadd. cbn [length Nat.eqb map2]. reflexivity.
  - repeat split; cbn [cc_upd cc_base base_set_int b_kind b_p b_i b_idx b_int cc_aw cc_clip cs_clip cc_dec cc_emf cc_req cc_abc]; try assumption. rewrite S5. destruct (reqP (yd - yd) 0) as [_|N]; [|exfalso; apply N; ring]. destruct (reqP (yq - yq) 0) as [_|N]; [|exfalso; apply N; ring]. f_equal; [ring|f_equal; ring].
Qed.
Lemma double_out c pd pq gd gq jd jq tau Ud Uq c' zd zq s rd rq i_d i_q yd yq c2 out : double c pd pq gd gq jd jq tau Ud Uq -> like2 c zd zq c' -> item s jd = Ok i_d -> item s jq = Ok i_q ->
  emf_call (cc_emf c) s [pd * (rd - i_d) + gd * zd; pq * (rq - i_q) + gq * zq] = Ok [yd; yq] -> current_control c' s [rd; rq] = (c2, Ok out) -> abc_call (cc_abc c) s [yd; yq] = Ok out.
Proof.
  intros Db Lk Hd Hq Hy H. pose proof (double_base _ _ _ _ _ _ _ _ _ _ _ _ _ _ rd rq _ _ Db Lk Hd Hq) as EB. destruct Db as [S1 S2 S3 S4 S5 S6 S7 S8]. destruct Lk as (L1 & L2 & L3 & L4 & L5 & L6 & L7 & L8 & L9 & L10 & L11).
  apply current_control_inv in H. destruct H as (b & u & y' & cl & v & E1 & E2 & _ & E4 & _). rewrite EB in E1. injection E1 as _ E1. rewrite <- E1, L8, S8, L9, Hy in E2. injection E2 as <-. rewrite L10, S7, L11 in E4. exact E4.
Qed.

Definition sync_motor (m : string) : Prop := m = "PMSM" \/ m = "SynRM".
Lemma tuned_double e id a c m Ld Lq : tuned_pi e id a c -> motor_type id = Ok m -> sync_motor m -> action_type id = Ok "Cont" -> par_is e "l_d" Ld -> par_is e "l_q" Lq -> 0 < Ld -> 0 < Lq -> 0 < ce_tau e -> 0 < a ->
  exists jd jq kd kq Ud Uq, double c (Ld / (ce_tau e * a)) (Lq / (ce_tau e * a)) (Ld / (ce_tau e * a) / (ce_tau e * (a * a))) (Lq / (ce_tau e * a) / (ce_tau e * (a * a))) jd jq (ce_tau e) Ud Uq /\ like2 c 0 0 c /\
    str_index "i_sd" (ce_names e) = Ok jd /\ str_index "i_sq" (ce_names e) = Ok jq /\ str_index "u_sd" (ce_names e) = Ok kd /\ str_index "u_sq" (ce_names e) = Ok kq /\ Ud = comp kd (ce_limits e) /\ Uq = comp kq (ce_limits e) /\
    emf_tune (emf_new EPlain) e id = Ok (cc_emf c) /\ abc_tune abc_new e id = Ok (cc_abc c).
Proof.
  intros (c0 & c1 & H0 & H & ->) Hm Hd Hat PL PQ L0 Q0 Ht Ha.
  assert (EA : str_in m ac_motors = true) by (destruct Hd as [-> | ->]; reflexivity). assert (EI : str_in m induction_motors = false) by (destruct Hd as [-> | ->]; reflexivity). assert (EE : String.eqb m "EESM" = false) by (destruct Hd as [-> | ->]; reflexivity).
  assert (HL : read l_reader m e = Ok [Ld; Lq]) by (unfold par_is in PL, PQ; destruct Hd as [-> | ->]; unfold read; cbn; unfold two, par; rewrite PL, PQ; reflexivity).
  unfold cc_new in H0. rewrite Hm in H0. cbn [bind] in H0. rewrite EA, EI, EE in H0. apply bind_ok in H0. destruct H0 as (k0 & Ek & H0). injection Ek as <-. injection H0 as <-.
  unfold cc_tune in H. rewrite Hat, Hm in H. cbn [bind cc_req cc_abc cc_emf cc_base cc_aw cc_clip cc_dec] in H. rewrite EA in H. change (false || (str_in "Cont" ["Finite"; "Cont"] && true)) with true in H. cbv iota in H.
  apply bind_ok in H. destruct H as (ab & Eab & H). apply bind_ok in H. destruct H as (ef & Eef & H). apply bind_ok in H. destruct H as (b & Eb & H). apply bind_ok in H. destruct H as (w & Ew & H). apply bind_ok in H. destruct H as (cl & Ecl & H). apply bind_ok in H. destruct H as (us' & Eus & H). apply bind_ok in H. destruct H as (loop & _ & H). injection H as <-.
  destruct (base_tuned _ _ _ _ _ _ _ (or_introl eq_refl) eq_refl Eb Hm) as (l & cs & idx & El & Ecs & Eidx & B1 & B2 & B3 & B4 & B5 & B6). rewrite HL in El. injection El as <-.
  assert (Ecs' : cs = ["i_sd"; "i_sq"]) by (destruct Hd as [-> | ->]; injection Ecs as <-; reflexivity). rewrite Ecs' in *.
  cbn [indices] in Eidx. apply bind_ok in Eidx. destruct Eidx as (jd & Ejd & Eidx). apply bind_ok in Eidx. destruct Eidx as (r1 & Er1 & Eidx). apply bind_ok in Er1. destruct Er1 as (jq & Ejq & Er1). injection Er1 as <-. injection Eidx as <-.
  unfold windup_tune in Ew. rewrite Hm in Ew. cbn [bind windup_new aw_task] in Ew. rewrite Ecs in Ew. cbn [bind] in Ew. rewrite (indices2 _ _ _ _ _ Ejd Ejq) in Ew. cbn [bind] in Ew. injection Ew as <-.
  assert (Eus' : us' = ["u_sd"; "u_sq"]) by (destruct Hd as [-> | ->]; injection Eus as <-; reflexivity). rewrite Eus' in *.
  unfold clip_tune in Ecl. rewrite Hm in Ecl. cbn [bind] in Ecl. unfold clip_names in Ecl. cbn [sq_new cs_task] in Ecl. rewrite Eus in Ecl. cbn [bind sq_new cs_clip] in Ecl.
  apply bind_ok in Ecl. destruct Ecl as (ui & Eui & Ecl). apply bind_ok in Ecl. destruct Ecl as (lim & Elim & Ecl). injection Ecl as <-. cbn [indices] in Eui. apply bind_ok in Eui. destruct Eui as (kd & Ekd & Eui). apply bind_ok in Eui. destruct Eui as (r2 & Er2 & Eui). apply bind_ok in Er2. destruct Er2 as (kq & Ekq & Er2). injection Er2 as <-. injection Eui as <-.
  assert (Llim : exists Ud Uq, lim = [Ud; Uq]). { cbn [select] in Elim. destruct (nth_error (ce_limits e) kd); [|discriminate Elim]. destruct (nth_error (ce_limits e) kq); [|discriminate Elim]. cbn in Elim. injection Elim as <-. eauto. }
  destruct Llim as (Ud & Uq & ->). pose proof (select_comp _ _ _ O Elim) as C1. pose proof (select_comp _ _ _ 1%nat Elim) as C2. cbn [nth length] in C1, C2. specialize (C1 ltac:(lia)). specialize (C2 ltac:(lia)).
  assert (HI : has_integrator b = true) by (unfold has_integrator; rewrite B2; reflexivity).
  assert (KP : forall x, 0 < x -> 0 < x / (ce_tau e * a)) by (intros x Hx; apply Rdiv_lt_0_compat; [lra|apply Rmult_lt_0_compat; lra]).
  assert (P1 : b_p b = [Ld / (ce_tau e * a); Lq / (ce_tau e * a)]) by (rewrite B4; reflexivity).
  assert (P2 : b_i b = [Ld / (ce_tau e * a) / (ce_tau e * (a * a)); Lq / (ce_tau e * a) / (ce_tau e * (a * a))]). { rewrite B5, P1. unfold i_gain_set. cbn [map]. rewrite !Rmax_left; [reflexivity| |]; apply Rlt_le, Rdiv_lt_0_compat; try (apply KP; assumption); repeat apply Rmult_lt_0_compat; lra. }
  exists jd, jq, kd, kq, Ud, Uq. unfold cc_reset, base_reset. cbn [cc_base cc_upd]. rewrite HI. split; [|split; [|repeat (split; [first [assumption|symmetry; assumption|exact C1|exact C2]|]); exact Eab]].
  - split; cbn [cc_upd cc_base base_set_int b_p b_i b_idx cc_aw aw_idx aw_tau cc_clip clip_reset cs_clip cc_req cc_dec]; try assumption; reflexivity.
  - repeat split; cbn [cc_upd cc_base base_set_int b_kind b_int]; [exact B2|]. rewrite P2. reflexivity.
Qed.
(** A motor equation in dq coordinates with pole pairs [p], inductances [ld], [lq], resistance [rs] and magnet flux [psi]. *)
Definition sync_eq (ode : list R -> list R -> R -> res (list R)) (p ld lq rs psi : R) : Prop :=
  forall i_d i_q eps ud uq w, exists de, ode [i_d; i_q; eps] [ud; uq] w = Ok [(ud - rs * i_d + w * p * lq * i_q) / ld; (uq - rs * i_q - w * p * (ld * i_d + psi)) / lq; de].
Lemma pmsm_eq m : 0 < pm_ld m -> 0 < pm_lq m -> sync_eq (pmsm_ode m) (pm_p m) (pm_ld m) (pm_lq m) (pm_rs m) (pm_psi m).
Proof. intros Hd Hq i_d i_q eps ud uq w. eexists. unfold pmsm_ode, sync_ode, pmsm_constants, row_div. cbn [item nth_error bind map matvec]. unfold matvec. cbn. do 2 f_equal; [field; lra|f_equal; field; lra]. Qed.
Lemma synrm_eq m : 0 < sr_ld m -> 0 < sr_lq m -> sync_eq (synrm_ode m) (sr_p m) (sr_ld m) (sr_lq m) (sr_rs m) 0.
Proof. intros Hd Hq i_d i_q eps ud uq w. eexists. unfold synrm_ode, sync_ode, synrm_constants, row_div. cbn [item nth_error bind map matvec]. unfold matvec. cbn. do 2 f_equal; [field; lra|f_equal; field; lra]. Qed.
