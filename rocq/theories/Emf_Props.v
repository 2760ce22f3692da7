(** C73: the EMF feed-forward of gem_controllers against the motor equations. *)
From Verif Require Import PyBaseFacts PyDictFacts Transform_Model Transform_Proofs Motor_Model Conv_Model Wrap_Model Ctl_Model Ctl_Model2 Ctl_Spec Ctl_Proofs Ctl_Proofs2 Ctl_Props.
Local Open Scope string_scope. Local Open Scope list_scope. Local Open Scope R_scope.

(** The value of a named state. *)
Definition state_is (e : cenv) (s : list R) (name : string) (v : R) : Prop := exists i, str_index name (ce_names e) = Ok i /\ item s i = Ok v.
Definition par_is (e : cenv) (name : string) (v : R) : Prop := dict_item name (ce_par e) = Ok v.

Lemma emf_tune_base_inv f e id g m : emf_tune_base f e id = Ok g -> motor_type id = Ok m ->
  exists om names cur l psi pr p, str_index "omega" (ce_names e) = Ok om /\ dict_item m emf_currents = Ok names /\ indices e names = Ok cur /\ read l_emf_reader m e = Ok l /\ read psi_reader m e = Ok psi /\ dict_item m p_reader = Ok pr /\ pr (ce_par e) = Ok p /\
  g = {| ef_kind := ef_kind f; ef_p := p; ef_l := l; ef_psi := psi; ef_cur := cur; ef_om := om; ef_lm := ef_lm f; ef_ie := ef_ie f; ef_dec := ef_dec f; ef_act := ef_act f; ef_cidx := ef_cidx f; ef_rr := ef_rr f; ef_lr := ef_lr f; ef_isq := ef_isq f; ef_abs := ef_abs f |}.
Proof.
  intros H Hm. unfold emf_tune_base in H. rewrite Hm in H. cbn [bind] in H. apply bind_ok in H. destruct H as (om & E1 & H). apply bind_ok in H. destruct H as (names & E2 & H). apply bind_ok in H. destruct H as (cur & E3 & H). apply bind_ok in H. destruct H as (l & E4 & H). apply bind_ok in H. destruct H as (psi & E5 & H). apply bind_ok in H. destruct H as (pr & E6 & H). apply bind_ok in H. destruct H as (p & E7 & H).
  apply bind_ok in H. destruct H as (us & _ & H). apply bind_ok in H. destruct H as (ui & _ & H). apply bind_ok in H. destruct H as (rg & _ & H). injection H as <-. exists om, names, cur, l, psi, pr, p. repeat (split; [assumption|]). reflexivity.
Qed.
Lemma item_nth l i v : item l i = Ok v -> nth_error l i = Some v.
Proof. unfold item. destruct (nth_error l i); [|discriminate]. intros H. injection H as ->. reflexivity. Qed.
Lemma select1 s i v : item s i = Ok v -> select [i] s = Ok [v].
Proof. intros H. cbn [select]. rewrite (item_nth _ _ _ H). reflexivity. Qed.
Lemma select2 s i j v w : item s i = Ok v -> item s j = Ok w -> select [i; j] s = Ok [v; w].
Proof. intros H1 H2. cbn [select]. rewrite (item_nth _ _ _ H1), (item_nth _ _ _ H2). reflexivity. Qed.
Lemma select3 s i j k v w x : item s i = Ok v -> item s j = Ok w -> item s k = Ok x -> select [i; j; k] s = Ok [v; w; x].
Proof. intros H1 H2 H3. cbn [select]. rewrite (item_nth _ _ _ H1), (item_nth _ _ _ H2), (item_nth _ _ _ H3). reflexivity. Qed.
Lemma indices1 e a i : str_index a (ce_names e) = Ok i -> indices e [a] = Ok [i].
Proof. intros H. cbn [indices]. rewrite H. reflexivity. Qed.
Lemma indices2 e a b i j : str_index a (ce_names e) = Ok i -> str_index b (ce_names e) = Ok j -> indices e [a; b] = Ok [i; j].
Proof. intros H1 H2. cbn [indices]. rewrite H1, H2. reflexivity. Qed.
Lemma indices3 e a b c i j k : str_index a (ce_names e) = Ok i -> str_index b (ce_names e) = Ok j -> str_index c (ce_names e) = Ok k -> indices e [a; b; c] = Ok [i; j; k].
Proof. intros H1 H2 H3. cbn [indices]. rewrite H1, H2, H3. reflexivity. Qed.

Lemma emf_sync m e id f s w i_d i_q l_d l_q p psi rd rq : m = "PMSM" \/ m = "SynRM" -> emf_tune (emf_new EPlain) e id = Ok f -> motor_type id = Ok m -> state_is e s "omega" w -> state_is e s "i_sd" i_d -> state_is e s "i_sq" i_q ->
  par_is e "l_d" l_d -> par_is e "l_q" l_q -> par_is e "p" p -> (m = "PMSM" -> par_is e "psi_p" psi) -> (m = "SynRM" -> psi = 0) ->
  emf_call f s [rd; rq] = Ok [rd + (- l_q * i_q + 0) * (w * p); rq + (l_d * i_d + psi) * (w * p)].
Proof.
  intros Hk H Hm (om & Eo & So) (jd & Ed & Sd) (jq & Eq & Sq) Pd Pq Pp Hpsi Hpsi2. unfold emf_tune in H. apply bind_ok in H. destruct H as (g & Eg & H). cbn [emf_new ef_kind] in H. injection H as ->.
  destruct (emf_tune_base_inv _ _ _ _ _ Eg Hm) as (om' & names & cur & l & psi' & pr & p' & E1 & E2 & E3 & E4 & E5 & E6 & E7 & ->). rewrite Eo in E1. injection E1 as <-.
  assert (F : names = ["i_sq"; "i_sd"] /\ l = [- l_q; l_d] /\ psi' = [0; psi] /\ p' = p).
  { unfold read in E4, E5. unfold par_is in *. destruct Hk as [-> | ->]; injection E2 as <-; injection E6 as <-; unfold par in E7; rewrite Pp in E7; injection E7 as <-; cbn [dict_item dict_get l_emf_reader psi_reader String.eqb] in E4, E5; cbn in E4, E5; unfold two, op1, num, par in E4, E5; rewrite Pd, Pq in E4; cbn [bind] in E4; injection E4 as <-.
    - specialize (Hpsi eq_refl). rewrite Hpsi in E5. cbn [bind] in E5. injection E5 as <-. auto.
    - rewrite (Hpsi2 eq_refl). cbn [bind] in E5. injection E5 as <-. auto. }
  destruct F as (-> & -> & -> & ->). rewrite (indices2 e _ _ _ _ Eq Ed) in E3. injection E3 as <-. unfold emf_call. cbn [ef_kind emf_new]. unfold emf_plain. cbn [ef_cur ef_om ef_l ef_p ef_psi]. rewrite (select2 _ _ _ _ _ Sq Sd), So. reflexivity.
Qed.

(** ** PMSM and SynRM *)
(** With the feed-forward each current only follows its own controller output. *)
Theorem pmsm_decoupled :
  forall m e id f s w i_d i_q eps rd rq, emf_tune (emf_new EPlain) e id = Ok f -> motor_type id = Ok "PMSM" -> state_is e s "omega" w -> state_is e s "i_sd" i_d -> state_is e s "i_sq" i_q ->
  par_is e "l_d" (pm_ld m) -> par_is e "l_q" (pm_lq m) -> par_is e "p" (pm_p m) -> par_is e "psi_p" (pm_psi m) -> 0 < pm_ld m -> 0 < pm_lq m ->
  exists u, emf_call f s [rd; rq] = Ok u /\ exists dd dq de, pmsm_ode m [i_d; i_q; eps] u w = Ok [dd; dq; de] /\ pm_ld m * dd = rd - pm_rs m * i_d /\ pm_lq m * dq = rq - pm_rs m * i_q.
Proof.
  intros m e id f s w i_d i_q eps rd rq H Hm Sw Sd Sq Pd Pq Pp Ppsi Hd Hq. eexists. split; [apply (emf_sync "PMSM" e id f s w i_d i_q (pm_ld m) (pm_lq m) (pm_p m) (pm_psi m)); auto; intros; discriminate|].
  do 3 eexists. split; [reflexivity|]. split; cbn; field; lra.
Qed.
Print Assumptions pmsm_decoupled.
Example pmsm_decoupled_example : exists f, emf_tune (emf_new EPlain) pmsm_env "Cont-CC-PMSM-v0" = Ok f /\ state_is pmsm_env [100; 0; 20; 30; 0; 0; 0; 0; 0; 1; 60] "omega" 100 /\ state_is pmsm_env [100; 0; 20; 30; 0; 0; 0; 0; 0; 1; 60] "i_sq" 30 /\ par_is pmsm_env "psi_p" (1 / 15).
Proof. eexists. split; [reflexivity|]. split; [eexists; split; reflexivity|]. split; [eexists; split; reflexivity|reflexivity]. Qed.
Theorem synrm_decoupled :
  forall m e id f s w i_d i_q eps rd rq, emf_tune (emf_new EPlain) e id = Ok f -> motor_type id = Ok "SynRM" -> state_is e s "omega" w -> state_is e s "i_sd" i_d -> state_is e s "i_sq" i_q ->
  par_is e "l_d" (sr_ld m) -> par_is e "l_q" (sr_lq m) -> par_is e "p" (sr_p m) -> 0 < sr_ld m -> 0 < sr_lq m ->
  exists u, emf_call f s [rd; rq] = Ok u /\ exists dd dq de, synrm_ode m [i_d; i_q; eps] u w = Ok [dd; dq; de] /\ sr_ld m * dd = rd - sr_rs m * i_d /\ sr_lq m * dq = rq - sr_rs m * i_q.
Proof.
  intros m e id f s w i_d i_q eps rd rq H Hm Sw Sd Sq Pd Pq Pp Hd Hq. eexists. split; [apply (emf_sync "SynRM" e id f s w i_d i_q (sr_ld m) (sr_lq m) (sr_p m) 0); auto; intros; discriminate|].
  do 3 eexists. split; [reflexivity|]. split; cbn; field; lra.
Qed.
Print Assumptions synrm_decoupled.

(** ** DC motors *)
Lemma emf_single m cname lname e id f s w i lep r : (m = "SeriesDc" /\ cname = "i" \/ m = "ShuntDc" /\ cname = "i_e") -> lname = "l_e_prime" -> emf_tune (emf_new EPlain) e id = Ok f -> motor_type id = Ok m -> state_is e s "omega" w -> state_is e s cname i -> par_is e lname lep ->
  emf_call f s [r] = Ok [r + (lep * i + 0) * (w * 1)].
Proof.
  intros Hk -> H Hm (om & Eo & So) (ji & Ei & Si) Pl. unfold emf_tune in H. apply bind_ok in H. destruct H as (g & Eg & H). cbn [emf_new ef_kind] in H. injection H as ->.
  destruct (emf_tune_base_inv _ _ _ _ _ Eg Hm) as (om' & names & cur & l & psi' & pr & p' & E1 & E2 & E3 & E4 & E5 & E6 & E7 & ->). rewrite Eo in E1. injection E1 as <-.
  assert (F : names = [cname] /\ l = [lep] /\ psi' = [0] /\ p' = 1).
  { unfold read in E4, E5. unfold par_is in *. destruct Hk as [[-> ->] | [-> ->]]; injection E2 as <-; injection E6 as <-; injection E7 as <-; cbn in E4, E5; unfold one, num, par in E4, E5; rewrite Pl in E4; cbn [bind] in E4, E5; injection E4 as <-; injection E5 as <-; auto. }
  destruct F as (-> & -> & -> & ->). rewrite (indices1 e _ _ Ei) in E3. injection E3 as <-. unfold emf_call. cbn [ef_kind emf_new]. unfold emf_plain. cbn [ef_cur ef_om ef_l ef_p ef_psi]. rewrite (select1 _ _ _ Si), So. reflexivity.
Qed.
Theorem series_decoupled :
  forall m e id f s w i r, emf_tune (emf_new EPlain) e id = Ok f -> motor_type id = Ok "SeriesDc" -> state_is e s "omega" w -> state_is e s "i" i -> par_is e "l_e_prime" (dc_lep m) -> 0 < dc_la m + dc_le m ->
  exists u, emf_call f s [r] = Ok u /\ exists d, series_ode m [i] u w = Ok [d] /\ (dc_la m + dc_le m) * d = r - (dc_ra m + dc_re m) * i.
Proof.
  intros m e id f s w i r H Hm Sw Si Pl HL. eexists. split; [apply (emf_single "SeriesDc" "i" "l_e_prime" e id f s w i (dc_lep m)); auto|]. eexists. split; [reflexivity|]. cbn. field. lra.
Qed.
Print Assumptions series_decoupled.
Theorem shunt_decoupled :
  forall m e id f s w ia ie r, emf_tune (emf_new EPlain) e id = Ok f -> motor_type id = Ok "ShuntDc" -> state_is e s "omega" w -> state_is e s "i_e" ie -> par_is e "l_e_prime" (dc_lep m) -> 0 < dc_la m ->
  exists u, emf_call f s [r] = Ok u /\ exists da de, shunt_ode m [ia; ie] u w = Ok [da; de] /\ dc_la m * da = r - dc_ra m * ia.
Proof.
  intros m e id f s w ia ie r H Hm Sw Si Pl HL. eexists. split; [apply (emf_single "ShuntDc" "i_e" "l_e_prime" e id f s w ie (dc_lep m)); auto|]. do 2 eexists. split; [reflexivity|]. cbn. field. lra.
Qed.
Print Assumptions shunt_decoupled.

(** Permanently and externally excited DC motors: the table of pole pairs says 0, so the
    feed-forward adds nothing and the back-EMF stays in the current equation. *)
Theorem permex_decoupling_refuted :
  forall m e id f s w i r, emf_tune (emf_new EPlain) e id = Ok f -> motor_type id = Ok "PermExDc" -> state_is e s "omega" w -> state_is e s "i" i -> par_is e "psi_e" (pe_psi m) -> 0 < pe_la m ->
  exists u, emf_call f s [r] = Ok u /\ u = [r] /\ exists d, perm_ode m [i] u w = Ok [d] /\ pe_la m * d = r - pe_ra m * i - pe_psi m * w.
Proof.
  intros m e id f s w i r H Hm (om & Eo & So) (ji & Ei & Si) Pl HL. unfold emf_tune in H. apply bind_ok in H. destruct H as (g & Eg & H). cbn [emf_new ef_kind] in H. injection H as ->.
  destruct (emf_tune_base_inv _ _ _ _ _ Eg Hm) as (om' & names & cur & l & psi' & pr & p' & E1 & E2 & E3 & E4 & E5 & E6 & E7 & ->). rewrite Eo in E1. injection E1 as <-. injection E2 as <-. injection E6 as <-. injection E7 as <-.
  unfold read in E4, E5. cbn in E4, E5. unfold one, num, par in E4, E5. unfold par_is in Pl. rewrite Pl in E5. cbn [bind] in E4, E5. injection E4 as <-. injection E5 as <-. rewrite (indices1 e _ _ Ei) in E3. injection E3 as <-.
  assert (Hu : emf_call {| ef_kind := ef_kind (emf_new EPlain); ef_p := 0; ef_l := [0]; ef_psi := [pe_psi m]; ef_cur := [ji]; ef_om := om; ef_lm := ef_lm (emf_new EPlain); ef_ie := ef_ie (emf_new EPlain); ef_dec := ef_dec (emf_new EPlain); ef_act := ef_act (emf_new EPlain); ef_cidx := ef_cidx (emf_new EPlain); ef_rr := ef_rr (emf_new EPlain); ef_lr := ef_lr (emf_new EPlain); ef_isq := ef_isq (emf_new EPlain); ef_abs := ef_abs (emf_new EPlain) |} s [r] = Ok [r]).
  { unfold emf_call. cbn [ef_kind emf_new]. unfold emf_plain. cbn [ef_cur ef_om ef_l ef_p ef_psi]. rewrite (select1 _ _ _ Si), So. cbn. f_equal. f_equal. ring. }
  eexists. split; [exact Hu|]. split; [reflexivity|]. eexists. split; [reflexivity|]. cbn. field. lra.
Qed.
Print Assumptions permex_decoupling_refuted.
Example permex_decoupling_example : exists f, emf_tune (emf_new EPlain) dc_env "Cont-CC-PermExDc-v0" = Ok f /\ state_is dc_env [100; 0; 10; 0; 60] "omega" 100 /\ state_is dc_env [100; 0; 10; 0; 60] "i" 10 /\ par_is dc_env "psi_e" (1 / 5).
Proof. eexists. split; [reflexivity|]. split; [eexists; split; reflexivity|]. split; [eexists; split; reflexivity|reflexivity]. Qed.
Theorem extex_decoupling_refuted :
  forall m e id f s w ia ie ra re, emf_tune (emf_new EPlain) e id = Ok f -> motor_type id = Ok "ExtExDc" -> state_is e s "omega" w -> state_is e s "i_a" ia -> state_is e s "i_e" ie -> par_is e "l_e_prime" (dc_lep m) -> 0 < dc_la m -> 0 < dc_le m ->
  exists u, emf_call f s [ra; re] = Ok u /\ u = [ra; re] /\ exists da de, dc_ode m [ia; ie] u w = Ok [da; de] /\ dc_la m * da = ra - dc_ra m * ia - dc_lep m * ie * w.
Proof.
  intros m e id f s w ia ie r0 r1 H Hm (om & Eo & So) (ja & Ea & Sa) (je & Ee & Se) Pl HL HE. unfold emf_tune in H. apply bind_ok in H. destruct H as (g & Eg & H). cbn [emf_new ef_kind] in H. injection H as ->.
  destruct (emf_tune_base_inv _ _ _ _ _ Eg Hm) as (om' & names & cur & l & psi' & pr & p' & E1 & E2 & E3 & E4 & E5 & E6 & E7 & ->). rewrite Eo in E1. injection E1 as <-. injection E2 as <-. injection E6 as <-. injection E7 as <-.
  unfold read in E4, E5. cbn in E4, E5. unfold two, num, par in E4, E5. unfold par_is in Pl. rewrite Pl in E4. cbn [bind] in E4, E5. injection E4 as <-. injection E5 as <-. rewrite (indices2 e _ _ _ _ Ee Ea) in E3. injection E3 as <-.
  match goal with |- exists u, emf_call ?f _ _ = _ /\ _ => assert (Hu : emf_call f s [r0; r1] = Ok [r0; r1]) end.
  { unfold emf_call. cbn [ef_kind emf_new]. unfold emf_plain. cbn [ef_cur ef_om ef_l ef_p ef_psi]. rewrite (select2 _ _ _ _ _ Se Sa), So. cbn. f_equal. f_equal; [ring|f_equal; ring]. }
  eexists. split; [exact Hu|]. split; [reflexivity|]. do 2 eexists. split; [reflexivity|]. cbn. field. lra.
Qed.
Print Assumptions extex_decoupling_refuted.

(** ** Induction motor *)
(** In the frame of the rotor flux (its angle taken as 0 at this instant, turning with
    [wf]) the stator currents follow their controller outputs except for terms with
    (p - 1) w: the stage uses the mechanical speed where the motor has the electrical one. *)
Theorem scim_decoupling_residual :
  forall m e id f s w i_d i_q psi rd rq eps, emf_tune (emf_new EInd) e id = Ok f -> motor_type id = Ok "SCIM" -> state_is e s "omega" w -> state_is e s "i_sd" i_d -> state_is e s "i_sq" i_q -> state_is e s "psi_abs" psi -> 1 / 10000 < psi ->
  par_is e "r_r" (im_rr m) -> par_is e "l_m" (im_lm m) -> par_is e "l_sigr" (im_lsigr m) -> par_is e "l_sigs" (im_lsigs m) -> 0 < im_rr m -> 0 < im_rs m -> 0 < im_lm m -> 0 < im_lsigr m -> 0 < im_lsigs m ->
  exists u, emf_call f s [rd; rq] = Ok u /\ exists da db dpa dpb de, scim_ode m [i_d; i_q; psi; 0; eps] u w = Ok [da; db; dpa; dpb; de] /\
  let wf := dpb / psi in let lsig := im_sigma m * im_ls m in let rt := im_rs m + im_rr m * (im_lm m * im_lm m) / (im_lr m * im_lr m) in
  lsig * (da + wf * i_q) = rd - rt * i_d + lsig * ((im_p m - 1) * w) * i_q /\
  lsig * (db - wf * i_d) = rq - rt * i_q - lsig * ((im_p m - 1) * w) * i_d - (im_p m - 1) * w * im_lm m / im_lr m * psi.
Proof.
  intros m e id f s w i_d i_q psi rd rq eps H Hm (om & Eo & So) (jd & Ed & Sd) (jq & Eq & Sq) (jp & Ep & Sp) Hpsi Prr Plm Plr Pls Hrr Hrs Hlm Hlr Hls. unfold emf_tune in H. apply bind_ok in H. destruct H as (g & Eg & H). cbn [emf_new ef_kind] in H.
  destruct (emf_tune_base_inv _ _ _ _ _ Eg Hm) as (om' & names & cur & l & psi' & pr & p' & E1 & E2 & E3 & E4 & E5 & E6 & E7 & ->). rewrite Eo in E1. injection E1 as <-. injection E2 as <-. rewrite (indices2 e _ _ _ _ Eq Ed) in E3. injection E3 as <-.
  unfold read in E4. cbn in E4. unfold two, op1, l_sigma, op2, par in E4. unfold par_is in *. rewrite Plm, Plr, Pls in E4. cbn [bind] in E4. injection E4 as <-. unfold par in H. rewrite Prr in H. cbn [bind] in H. rewrite Plm in H. cbn [bind] in H. rewrite Plr in H. cbn [bind] in H. rewrite Eq in H. cbn [bind] in H. rewrite Ep in H. cbn [bind] in H.
  cbn [ef_kind ef_p ef_l ef_psi ef_cur ef_om ef_lm ef_ie ef_dec ef_act ef_cidx emf_new] in H. injection H as <-.
  eexists. split.
  { unfold emf_call. cbn [ef_kind ef_p ef_l ef_psi ef_cur ef_om ef_lm ef_ie ef_dec ef_act ef_cidx ef_isq ef_abs ef_rr ef_lr]. rewrite So, Sq, Sp. cbn [bind]. rewrite (select2 _ _ _ _ _ Sq Sd). rewrite (Rabs_pos_eq psi) by lra. rewrite Rmax_left by lra. replace (np_sign psi) with 1 by (unfold np_sign; destruct (rltP psi 0) as [Hn|Hn]; [lra|]; destruct (rltP 0 psi) as [|Hn2]; [reflexivity|lra]). reflexivity. }
  do 5 eexists. split; [reflexivity|]. cbn zeta. cbn.
  unfold im_tausig, im_taur, im_sigma, im_ls, im_lr. destruct m as [p lm lsigs lsigr rs rr]. cbn [im_p im_lm im_lsigs im_lsigr im_rs im_rr] in *.
  assert (Q1 : (lm + lsigs) * (lm + lsigr) - lm * lm <> 0) by nra. assert (Q2 : rs * ((lm + lsigr) * (lm + lsigr)) + rr * (lm * lm) <> 0) by (pose proof (Rmult_lt_0_compat rs ((lm + lsigr) * (lm + lsigr)) Hrs ltac:(nra)); pose proof (Rmult_lt_0_compat rr (lm * lm) Hrr ltac:(nra)); lra).
  split; field; repeat split; try lra; auto; try (intros Z; apply Q1; nra); try (intros Z; apply Q2; nra).
Qed.
Print Assumptions scim_decoupling_residual.
Definition scim_ctl_env : cenv :=
  {| ce_names := ["omega"; "torque"; "i_sd"; "i_sq"; "psi_abs"; "psi_angle"; "i_sa"; "i_sb"; "i_sc"; "u_sa"; "u_sb"; "u_sc"; "u_sd"; "u_sq"; "epsilon"; "u_sup"]; ce_limits := [400; 40; 10; 10; 2; 4; 10; 10; 10; 300; 300; 300; 300; 300; 4; 600];
     ce_low := repeat (-1) 15 ++ [0]; ce_high := repeat 1 16; ce_refs := ["i_sd"; "i_sq"]; ce_tau := 1 / 10000;
     ce_par := [("p", 2); ("l_m", 14375 / 100000); ("l_sigs", 587 / 100000); ("l_sigr", 587 / 100000); ("r_s", 29338 / 10000); ("r_r", 1355 / 1000)]; ce_j := 1 / 1000; ce_act := SBox 3; ce_b6 := false; ce_dead := Some false |}.
(** The default SCIM parameters (squirrel_cage_induction_motor.py). *)
Definition scim_par : im_par := {| im_p := 2; im_lm := 14375 / 100000; im_lsigs := 587 / 100000; im_lsigr := 587 / 100000; im_rs := 29338 / 10000; im_rr := 1355 / 1000 |}.
(** For one pole pair the axes are decoupled ... *)
Theorem scim_decoupled_one_pole_pair :
  forall m e id f s w i_d i_q psi rd rq eps, im_p m = 1 -> emf_tune (emf_new EInd) e id = Ok f -> motor_type id = Ok "SCIM" -> state_is e s "omega" w -> state_is e s "i_sd" i_d -> state_is e s "i_sq" i_q -> state_is e s "psi_abs" psi -> 1 / 10000 < psi ->
  par_is e "r_r" (im_rr m) -> par_is e "l_m" (im_lm m) -> par_is e "l_sigr" (im_lsigr m) -> par_is e "l_sigs" (im_lsigs m) -> 0 < im_rr m -> 0 < im_rs m -> 0 < im_lm m -> 0 < im_lsigr m -> 0 < im_lsigs m ->
  exists u, emf_call f s [rd; rq] = Ok u /\ exists da db dpa dpb de, scim_ode m [i_d; i_q; psi; 0; eps] u w = Ok [da; db; dpa; dpb; de] /\
  let wf := dpb / psi in let lsig := im_sigma m * im_ls m in let rt := im_rs m + im_rr m * (im_lm m * im_lm m) / (im_lr m * im_lr m) in
  lsig * (da + wf * i_q) = rd - rt * i_d /\ lsig * (db - wf * i_d) = rq - rt * i_q.
Proof.
  intros m e id f s w i_d i_q psi rd rq eps Hp H Hm So Sd Sq Sp Hpsi P1 P2 P3 P4 Q1 Q2 Q3 Q4 Q5.
  destruct (scim_decoupling_residual m e id f s w i_d i_q psi rd rq eps H Hm So Sd Sq Sp Hpsi P1 P2 P3 P4 Q1 Q2 Q3 Q4 Q5) as (u & Hu & da & db & dpa & dpb & de & Ho & A & B).
  exists u. split; [exact Hu|]. exists da, db, dpa, dpb, de. split; [exact Ho|]. cbn zeta in *. rewrite Hp in A, B. split; [rewrite A; ring|rewrite B]. assert (0 < im_lr m) by (unfold im_lr; lra). field. lra.
Qed.
Print Assumptions scim_decoupled_one_pole_pair.
(** ... and with the default motor (two pole pairs) they are not: at zero controller output
    and zero current the back-EMF still drives the q current. *)
Theorem scim_decoupling_refuted :
  exists f, emf_tune (emf_new EInd) scim_ctl_env "Cont-CC-SCIM-v0" = Ok f /\
  forall w psi eps rest, 0 < w -> 1 / 10000 < psi ->
  exists u, emf_call f ([w; 0; 0; 0; psi] ++ rest) [0; 0] = Ok u /\ exists da db dpa dpb de, scim_ode scim_par [0; 0; psi; 0; eps] u w = Ok [da; db; dpa; dpb; de] /\
  im_sigma scim_par * im_ls scim_par * (db - dpb / psi * 0) < - (9 / 10) * (w * psi).
Proof.
  assert (X : exists f, emf_tune (emf_new EInd) scim_ctl_env "Cont-CC-SCIM-v0" = Ok f) by (eexists; reflexivity). destruct X as (f & H). exists f. split; [exact H|]. intros w psi eps rest Hw Hp.
  destruct (scim_decoupling_residual scim_par scim_ctl_env "Cont-CC-SCIM-v0" f ([w; 0; 0; 0; psi] ++ rest) w 0 0 psi 0 0 eps) as (u & Hu & da & db & dpa & dpb & de & Ho & A & B); try exact H; try reflexivity; try (eexists; split; reflexivity); try exact Hp; try (cbn; lra).
  exists u. split; [exact Hu|]. exists da, db, dpa, dpb, de. split; [exact Ho|]. cbn zeta in B. rewrite B. assert (0 < w * psi) by (apply Rmult_lt_0_compat; lra). unfold im_lr. cbn [scim_par im_p im_lm im_lsigr im_rs im_rr im_lsigs]. lra.
Qed.
Print Assumptions scim_decoupling_refuted.

(** ** Externally excited synchronous motor *)
(** The exact current equations under the feed-forward; [kap] = l_m^2 / (l_d l_e). *)
Theorem eesm_decoupling_residual :
  forall m e id f s w s0 i_d i_q i_e eps rd rq ru, emf_tune (emf_new EEesm) e id = Ok f -> motor_type id = Ok "EESM" -> state_is e s "omega" w -> state_is e s "i_sd" i_d -> state_is e s "i_sq" i_q -> state_is e s "i_e" i_e -> item s 0 = Ok s0 ->
  par_is e "p" (ee_p m) -> par_is e "l_d" (ee_ld m) -> par_is e "l_q" (ee_lq m) -> par_is e "l_m" (ee_lm m) -> par_is e "l_e" (ee_le m) -> par_is e "r_s" (ee_rs m) -> par_is e "r_e" (ee_re m) ->
  0 < ee_ld m -> 0 < ee_lq m -> 0 < ee_le m -> 0 < ee_k m -> ee_sigma m <> 0 ->
  exists u, emf_call f s [rd; rq; ru] = Ok u /\ exists dd dq de dx, eesm_ode m [i_d; i_q; i_e; eps] u w = Ok [dd; dq; de; dx] /\
  let kap := ee_lm m * ee_lm m / (ee_ld m * ee_le m) in
  ee_lq m * dq = rq - ee_rs m * i_q /\
  ee_sigma m * ee_ld m * dd = (1 - kap) * rd - ee_rs m * i_d + kap * (ee_lq m * ee_p m * w * i_q + ee_lm m * ee_re m / ee_le m * i_e) /\
  ee_sigma m * ee_le m * de = ee_sigma m * ru - ee_re m * i_e - ee_lm m / (2 * ee_ld m) * rd + ee_lm m / (2 * ee_ld m) * (1 + 3 * kap) * ee_rs m * i_d + kap * ee_re m / 2 * i_e - 3 / 2 * kap * (ee_lm m * ee_lq m / ee_ld m) * ee_p m * w * i_q.
Proof.
  intros m e id f s w s0 i_d i_q i_e eps rd rq ru H Hm (om & Eo & So) (jd & Ed & Sd) (jq & Eq & Sq) (je & Ee & Se) S0 Pp Pd Pq Pm Pe Ps Pr Hd Hq He Hk Hs. unfold emf_tune in H. apply bind_ok in H. destruct H as (g & Eg & H). cbn [emf_new ef_kind] in H.
  destruct (emf_tune_base_inv _ _ _ _ _ Eg Hm) as (om' & names & cur & l & psi' & pr & p' & E1 & E2 & E3 & E4 & E5 & E6 & E7 & ->). rewrite Eo in E1. injection E1 as <-. injection E2 as <-. rewrite (indices3 e _ _ _ _ _ _ Eq Ed Eq) in E3. injection E3 as <-. injection E6 as <-.
  unfold read in E4. cbn in E4. unfold three, op1, op2, par in E4. unfold par in E7. unfold par_is in *. rewrite Pp in E7. injection E7 as <-. rewrite Pd, Pq, Pm in E4. cbn [bind] in E4. injection E4 as <-. unfold par in H. rewrite Pm, Pd, Pe, Ps, Pr, Ee, Ed in H. cbn [bind] in H.
  cbn [ef_kind ef_p ef_l ef_psi ef_cur ef_om ef_lm ef_ie ef_rr ef_lr ef_isq ef_abs emf_new] in H. injection H as <-.
  eexists. split.
  { unfold emf_call. cbn [ef_kind ef_p ef_l ef_psi ef_cur ef_om ef_lm ef_ie ef_dec ef_act ef_cidx]. rewrite Se. cbn [bind]. unfold emf_plain. cbn [ef_cur ef_om ef_l ef_p]. rewrite (select3 _ _ _ _ _ _ _ Sq Sd Sq), So, (select3 _ _ _ _ _ _ _ Se S0 Sd). reflexivity. }
  do 4 eexists. split; [reflexivity|]. cbn zeta. cbn.
  assert (Hs' : 2 * ee_ld m * ee_le m - 3 * ee_lm m * ee_lm m <> 0).
  { intros Z. apply Hs. unfold ee_sigma, ee_lM, ee_lE. assert (Z' : 3 * (ee_lm m * ee_lm m) = 2 * ee_ld m * ee_le m) by lra. replace (1 - ee_k m * 3 / 2 * ee_lm m * (ee_k m * 3 / 2 * ee_lm m) / (ee_ld m * (ee_k m * ee_k m * 3 / 2 * ee_le m))) with (1 - 3 * (ee_lm m * ee_lm m) / (2 * ee_ld m * ee_le m)) by (field; lra). rewrite Z'. field. lra. }
  unfold ee_sigma, ee_lM, ee_lE, ee_rE, ee_rs_ratio. split; [field; lra|]. split; field; repeat split; try lra; intros Z; apply Hs'; nra.
Qed.
Print Assumptions eesm_decoupling_residual.
Definition eesm_ctl_env : cenv :=
  {| ce_names := ["omega"; "torque"; "i_sd"; "i_sq"; "i_e"; "u_a"; "u_b"; "u_c"; "u_sd"; "u_sq"; "u_e"; "epsilon"; "u_sup"]; ce_limits := [1000; 100; 150; 150; 150; 160; 160; 160; 160; 160; 320; 4; 320];
     ce_low := repeat (-1) 12 ++ [0]; ce_high := repeat 1 13; ce_refs := ["i_sd"; "i_sq"; "i_e"]; ce_tau := 1 / 10000;
     ce_par := [("p", 3); ("l_d", 166 / 100000); ("l_q", 35 / 100000); ("l_m", 1589 / 1000000); ("l_e", 174 / 100000); ("r_s", 1555 / 100000); ("r_e", 72 / 10000); ("k", 6521 / 100)]; ce_j := 3883 / 10000; ce_act := SBox 4; ce_b6 := false; ce_dead := Some false |}.
Lemma eesm_tuned : exists f, emf_tune (emf_new EEesm) eesm_ctl_env "Cont-CC-EESM-v0" = Ok f.
Proof. eexists. reflexivity. Qed.
(** With the default motor, at zero controller outputs and zero d current, the q current
    still drives the d current: the two axes stay coupled whenever the rotor turns. *)
Theorem eesm_decoupling_refuted :
  exists f, emf_tune (emf_new EEesm) eesm_ctl_env "Cont-CC-EESM-v0" = Ok f /\
  forall w i_q eps rest, w * i_q <> 0 ->
  exists u, emf_call f ([w; 0; 0; i_q; 0] ++ rest) [0; 0; 0] = Ok u /\ exists dd dq de dx, eesm_ode eesm_default [0; i_q; 0; eps] u w = Ok [dd; dq; de; dx] /\ dd <> 0 /\ de <> 0.
Proof.
  destruct eesm_tuned as (f & H). exists f. split; [exact H|]. intros w i_q eps rest Hw.
  assert (Hs : ee_sigma eesm_default <> 0) by (unfold ee_sigma, ee_lM, ee_lE; cbn [eesm_default ee_k ee_lm ee_ld ee_le]; lra).
  destruct (eesm_decoupling_residual eesm_default eesm_ctl_env "Cont-CC-EESM-v0" f ([w; 0; 0; i_q; 0] ++ rest) w w 0 i_q 0 eps 0 0 0) as (u & Hu & dd & dq & de & dx & Ho & A & B & C); try exact H; try reflexivity; try (eexists; split; reflexivity); try exact Hs; try (cbn; lra).
  exists u. split; [exact Hu|]. exists dd, dq, de, dx. split; [exact Ho|]. cbn zeta in *. split; intros Z; rewrite Z in *; apply Hw; cbn [eesm_default ee_p ee_ld ee_lq ee_lm ee_le ee_rs ee_re] in *; [clear C|clear B]; rewrite !Rmult_0_r in *; lra.
Qed.
Print Assumptions eesm_decoupling_refuted.

(** ** Further environments that meet the hypotheses above *)
Definition series_ctl_env : cenv :=
  {| ce_names := ["omega"; "torque"; "i"; "u"; "u_sup"]; ce_limits := [400; 40; 100; 60; 60]; ce_low := [0; 0; 0; 0; 0]; ce_high := repeat 1 5; ce_refs := ["i"];
     ce_tau := 1 / 10000; ce_par := [("r_a", 3 / 100); ("r_e", 1 / 100); ("l_a", 1 / 200); ("l_e", 1 / 100); ("l_e_prime", 1 / 50)]; ce_j := 1 / 1000; ce_act := SBox 1; ce_b6 := false; ce_dead := Some false |}.
Example series_decoupled_example : exists f, emf_tune (emf_new EPlain) series_ctl_env "Cont-CC-SeriesDc-v0" = Ok f /\ state_is series_ctl_env [100; 0; 10; 0; 60] "i" 10 /\ par_is series_ctl_env "l_e_prime" (1 / 50).
Proof. eexists. split; [reflexivity|]. split; [eexists; split; reflexivity|reflexivity]. Qed.
Definition shunt_ctl_env : cenv :=
  {| ce_names := ["omega"; "torque"; "i_a"; "i_e"; "u"; "u_sup"]; ce_limits := [400; 40; 100; 10; 60; 60]; ce_low := [0; 0; 0; 0; 0; 0]; ce_high := repeat 1 6; ce_refs := ["i_a"];
     ce_tau := 1 / 10000; ce_par := [("r_a", 3 / 100); ("r_e", 1 / 100); ("l_a", 1 / 200); ("l_e", 1 / 100); ("l_e_prime", 1 / 50)]; ce_j := 1 / 1000; ce_act := SBox 1; ce_b6 := false; ce_dead := Some false |}.
Example shunt_decoupled_example : exists f, emf_tune (emf_new EPlain) shunt_ctl_env "Cont-CC-ShuntDc-v0" = Ok f /\ state_is shunt_ctl_env [100; 0; 10; 1; 0; 60] "i_e" 1 /\ par_is shunt_ctl_env "l_e_prime" (1 / 50).
Proof. eexists. split; [reflexivity|]. split; [eexists; split; reflexivity|reflexivity]. Qed.
Definition synrm_ctl_env : cenv :=
  {| ce_names := ce_names pmsm_env; ce_limits := ce_limits pmsm_env; ce_low := ce_low pmsm_env; ce_high := ce_high pmsm_env; ce_refs := ["i_sd"; "i_sq"];
     ce_tau := 1 / 10000; ce_par := [("p", 4); ("l_d", 101 / 10000); ("l_q", 41 / 10000); ("r_s", 57 / 100)]; ce_j := 1 / 1000; ce_act := SBox 3; ce_b6 := false; ce_dead := Some false |}.
Example synrm_decoupled_example : exists f, emf_tune (emf_new EPlain) synrm_ctl_env "Cont-CC-SynRM-v0" = Ok f /\ state_is synrm_ctl_env [100; 0; 20; 30; 0; 0; 0; 0; 0; 1; 60] "i_sd" 20 /\ par_is synrm_ctl_env "p" 4.
Proof. eexists. split; [reflexivity|]. split; [eexists; split; reflexivity|reflexivity]. Qed.
Definition extex_ctl_env : cenv :=
  {| ce_names := ["omega"; "torque"; "i_a"; "i_e"; "u_a"; "u_e"; "u_sup"]; ce_limits := [400; 40; 100; 10; 60; 60; 60]; ce_low := [0; 0; 0; 0; 0; 0; 0]; ce_high := repeat 1 7; ce_refs := ["i_a"; "i_e"];
     ce_tau := 1 / 10000; ce_par := ce_par shunt_ctl_env; ce_j := 1 / 1000; ce_act := SBox 2; ce_b6 := false; ce_dead := Some false |}.
Example extex_decoupling_example : exists f, emf_tune (emf_new EPlain) extex_ctl_env "Cont-CC-ExtExDc-v0" = Ok f /\ state_is extex_ctl_env [100; 0; 10; 1; 0; 0; 60] "i_a" 10 /\ par_is extex_ctl_env "l_e_prime" (1 / 50).
Proof. eexists. split; [reflexivity|]. split; [eexists; split; reflexivity|reflexivity]. Qed.
