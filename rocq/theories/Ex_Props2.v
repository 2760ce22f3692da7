(** Properties of the cascaded and field oriented example controllers
    (examples/classic_controllers): theorems and examples showing that their hypotheses can be
    met. *)
From Verif Require Import PyBase PyBaseFacts PyDict PyDictFacts Conv_Model Transform_Model PhysSys_Model Motor_Model Wrap_Model Ex_Model Ex_Model2 Ex_Spec Ex_Proofs Ex_Proofs2 Ex_Proofs3 Ex_Proofs4 Ex_Proofs5 Ex_Props.
Local Open Scope string_scope.
Local Open Scope list_scope.
Local Open Scope R_scope.

(** ** C151: the outer stage of a cascade *)
(** After any history, in two states that show the same armature current the cascade demands
    the same current, whatever the controlled quantity (for example the speed) is. *)
Theorem cascade_ignores_controlled_quantity_refuted :
  forall e s0 s1 refs c0 h c acts s s' r x x', en_extex e = false -> cc_new e (SList [s0; s1]) refs = Ok c0 -> cc_run c0 h = Ok (c, acts) ->
  item s (cc_ia c0) = item s' (cc_ia c0) -> cc_control c s r = Ok x -> cc_control c s' r = Ok x' ->
  cc_ref (fst x) = cc_ref (fst x').
Proof.
  intros e s0 s1 refs c0 h c acts s s' r x x' X Nw Rn Is H H'. destruct (cc_new_two _ _ _ _ _ X Nw) as (rn & rs & _ & _ & T & _).
  destruct (cc_run_two _ _ _ _ T Rn) as [T' Ia]. cbn [fst] in T', Ia. pose proof T' as (_ & _ & Xn & _). destruct (cc_control_refs _ _ _ _ Xn H) as (y & Y1 & Y2 & _). destruct (cc_control_refs _ _ _ _ Xn H') as (y' & Y1' & Y2' & _). rewrite Y2, Y2'.
  destruct (cc_refs_two _ _ _ _ _ T' Y1) as (a0 & a1 & rv & sa & lo & hi & Q1 & Q2 & Q3 & Q4 & Q5 & Q6 & _). destruct (cc_refs_two _ _ _ _ _ T' Y1') as (a0' & a1' & rv' & sa' & lo' & hi' & Q1' & Q2' & Q3' & Q4' & Q5' & Q6' & _). rewrite Ia, Is in Q3. rewrite Ia in Q3'.
  assert (a1' = a1) by congruence. assert (rv' = rv) by congruence. assert (sa' = sa) by congruence. assert (lo' = lo) by congruence. assert (hi' = hi) by congruence. subst. rewrite Q6, Q6'. reflexivity.
Qed.
Print Assumptions cascade_ignores_controlled_quantity_refuted.
(** What a PI outer stage does: its output is its PI law on the difference between the
    reference and the armature current, clipped; its integrator adds the true control error
    unless the output is clipped, and then stays. *)
Theorem cascade_outer_stage :
  forall e s0 s1 refs c0 h c acts s r x b p, en_extex e = false -> cc_new e (SList [s0; s1]) refs = Ok c0 -> cc_run c0 h = Ok (c, acts) ->
  cc_stages c = [b; BPi p] -> cc_control c s r = Ok x ->
  exists rn rs rv sa lo hi, refs = [rn] /\ str_index rn (en_names e) = Ok rs /\ item r 0 = Ok rv /\ item s (cc_ia c0) = Ok sa /\ item (cc_lolim c0) (cc_ia c0) = Ok lo /\ item (cc_hilim c0) (cc_ia c0) = Ok hi /\
    cc_ref (fst x) = [np_clip (pi_control p sa rv) lo hi; rv] /\
    exists b' p', cc_stages (fst x) = [b'; BPi p'] /\
      ((between lo hi (pi_control p sa rv) /\ exists sw, item s rs = Ok sw /\ p' = pi_integrate p sw rv) \/ (~ between lo hi (pi_control p sa rv) /\ p' = p)).
Proof.
  intros e s0 s1 refs c0 h c acts s r x b p X Nw Rn St H. destruct (cc_new_two _ _ _ _ _ X Nw) as (rn & rs & P1 & P2 & T & P3).
  destruct (cc_run_two _ _ _ _ T Rn) as [T' Ia]. destruct (cc_run_params _ _ _ _ T Rn) as (I1 & I2 & I3). cbn [fst] in T', Ia, I1, I2, I3. rewrite P3 in I1. pose proof T' as (_ & _ & Xn & _). destruct (cc_control_two _ _ _ _ _ T' H) as ((_ & _ & _ & L2 & _) & _). destruct (cc_control_refs _ _ _ _ Xn H) as (y & Y1 & Y2 & Y3).
  destruct (cc_refs_two _ _ _ _ _ T' Y1) as (a0 & a1 & rv & sa & lo & hi & Q1 & Q2 & Q3 & Q4 & Q5 & Q6 & b1' & Q7 & Q8 & Q9 & Q10). rewrite Q1 in St. injection St as -> ->. rewrite Ia in Q3, Q4, Q5. rewrite I1 in Q2. rewrite I2 in Q4. rewrite I3 in Q5.
  exists rn, rs, rv, sa, lo, hi. do 6 (split; [assumption|]). cbn [b_control snd fst demand is_cont] in Q6, Q9, Q10. split; [rewrite Y2; exact Q6|].
  destruct (cc_stages (fst x)) as [|b' [|b'' [|]]]; try discriminate L2. rewrite Q7 in Y3. cbn in Y3. injection Y3 as ->. exists b'.
  destruct (Rle_dec lo (pi_control p sa rv)) as [A|A]; [destruct (Rle_dec (pi_control p sa rv) hi) as [B|B]|].
  - destruct (Q9 eq_refl (conj A B)) as (sw & r0 & K1 & K2 & K3). rewrite Q2 in K2. injection K2 as <-. cbn in K3. injection K3 as <-. exists (pi_integrate p sw rv). split; [reflexivity|]. left. split; [split; assumption|]. exists sw. auto.
  - rewrite Q10 by (intros [_ [_ K]]; contradiction). exists p. split; [reflexivity|]. right. split; [intros [_ K]; contradiction|reflexivity].
  - rewrite Q10 by (intros [_ [K _]]; contradiction). exists p. split; [reflexivity|]. right. split; [intros [K _]; contradiction|reflexivity].
Qed.
Print Assumptions cascade_outer_stage.
(** A cascade for the speed in two states with different speeds: same current demand, although
    the control error is positive in the first and negative in the second. *)
Example cascade_example : exists c x x', cc_new ex_env (SList [pi_stage; pi_stage]) ["omega"] = Ok c /\ cc_control c [0; 0; 0; 0; 0] [1 / 10] = Ok x /\ cc_control c [1; 0; 0; 0; 0] [1 / 10] = Ok x' /\
  cc_ref (fst x) = [5 * (1 / 10) + 5 * (1 / 10 * (1 / 1000)); 1 / 10] /\ cc_ref (fst x') = cc_ref (fst x).
Proof.
  assert (L1 : forall y, -1 <= y -> y <= 1 -> (rle (-1 * 100 / 100) y && rle y (1 * 100 / 100))%bool = true).
  { intros y A B. replace (-1 * 100 / 100) with (-1) by field. replace (1 * 100 / 100) with 1 by field. destruct (rleP (-1) y); [|lra]. destruct (rleP y 1); [reflexivity|lra]. }
  assert (K : forall c w, cc_new ex_env (SList [pi_stage; pi_stage]) ["omega"] = Ok c -> exists x, cc_control c [w; 0; 0; 0; 0] [1 / 10] = Ok x /\ cc_ref (fst x) = [5 * (1 / 10) + 5 * (1 / 10 * (1 / 1000)); 1 / 10]).
  { intros c w H. cbn in H. injection H as <-. unfold cc_control, cc_refs. cbn. rewrite andb_true_r, L1 by (unfold pi_control; cbn; lra). cbn. unfold cc_feedforward. cbn. destruct (reqP 0 0) as [_|Q]; [|contradiction]. cbn.
    assert (P : forall k : R * list R, pi_control {| pi_p := 5; pi_i := 5; pi_tau := 1 / 1000; pi_int := 0 |} 0 (1 / 10) = 5 * (1 / 10) + 5 * (1 / 10 * (1 / 1000))) by (intros _; unfold pi_control; cbn; field).
    unfold limited. match goal with |- context [if ?t then _ else _] => destruct t end; cbn; eexists; (split; [reflexivity|]); cbn; rewrite (P (0, [])); reflexivity. }
  assert (Nw : exists c, cc_new ex_env (SList [pi_stage; pi_stage]) ["omega"] = Ok c) by (eexists; reflexivity). destruct Nw as (c & Nw). destruct (K c 0 Nw) as (x & X1 & X2). destruct (K c 1 Nw) as (x' & X1' & X2'). exists c, x, x'. split; [exact Nw|]. split; [exact X1|]. split; [exact X1'|]. split; [exact X2|]. rewrite X2, X2'. reflexivity.
Qed.

(** With an externally excited motor both entries of the action are clipped with the limits of
    the excitation voltage: if the excitation converter has one quadrant, the armature voltage
    is never negative. *)
Theorem cascade_armature_clipped_refuted :
  forall e sa sb refs c h x low high hi, en_extex e = true -> en_space e = SBox low high -> item low 1 = Ok 0 -> item high 1 = Ok hi -> 0 <= hi ->
  (forall j n l, str_index "u_e" (en_names e) = Ok j -> item (en_nominal e) j = Ok n -> item (en_limits e) j = Ok l -> 0 <= n /\ 0 < l) ->
  cc_new e (SPair sa sb) refs = Ok c -> cc_run c h = Ok x ->
  Forall (fun a => exists ua ue, a = [ua; ue] /\ 0 <= ua) (snd x).
Proof.
  intros e sa sb refs c h x low high hi X Sp L1 H1 Hp Pos Nw Rn. destruct (cc_new_exc _ _ _ _ _ _ _ X Sp Nw) as (l1 & h1 & j & n & l & lo & hi' & A1 & A2 & A3 & A4 & A5 & -> & -> & V). rewrite L1 in A1. injection A1 as <-. rewrite H1 in A2. injection A2 as <-. destruct (Pos _ _ _ A3 A4 A5) as [Pn Pl].
  assert (Z : 0 * n / l = 0) by (field; lra). rewrite Z in V. assert (Q : 0 <= hi * n / l) by (apply Rmult_le_pos; [apply Rmult_le_pos; lra|left; apply Rinv_0_lt_compat; exact Pl]).
  eapply Forall_impl; [|exact (cc_run_exc _ _ _ Q _ _ V Rn)]. intros a (u & v & -> & [B _] & _). exists u, v. auto.
Qed.
Print Assumptions cascade_armature_clipped_refuted.
Definition ext_env : env :=
  {| en_names := ["omega"; "torque"; "i_a"; "i_e"; "u_a"; "u_e"; "u_sup"]; en_low := [-1; -1; -1; -1; -1; 0; 0]; en_high := [1; 1; 1; 1; 1; 1; 1];
     en_limits := [100; 1; 10; 10; 100; 100; 100]; en_nominal := [100; 1; 10; 10; 100; 100; 100]; en_cur := [2%nat; 3%nat]; en_volt := [4%nat; 5%nat];
     en_space := SBox [-1; 0] [1; 1]; en_mp := [("l_e_prime", 1); ("r_a", 1); ("r_e", 1)]; en_extex := true; en_tau := 1 / 1000 |}.
(** A negative torque at standstill: the armature controller asks for -50 V and gets 0 V. *)
Example cascade_armature_example : exists c c' v, cc_new ext_env (SPair [pi_stage; pi_stage] [pi_stage]) ["torque"] = Ok c /\
  cc_control c [0; 0; 0; 0; 0; 0; 1] [-1] = Ok (c', [0; v]) /\ hd 0 (cc_ref c') = -1 / 10.
Proof.
  assert (Nw : exists c, cc_new ext_env (SPair [pi_stage; pi_stage] [pi_stage]) ["torque"] = Ok c) by (eexists; reflexivity). destruct Nw as (c & Nw).
  exists c. cut (exists c' v, cc_control c [0; 0; 0; 0; 0; 0; 1] [-1] = Ok (c', [0; v]) /\ hd 0 (cc_ref c') = -1 / 10); [intros (c' & v & K); exists c', v; split; [exact Nw|exact K]|].
  cbn in Nw. injection Nw as <-. unfold cc_control, cc_refs. cbn. unfold cc_feedforward. cbn. destruct (reqP 0 0) as [_|Q]; [|contradiction]. cbn.
  replace (sqrt (sqrt (1 * (-1 * 1 * (-1 * 1)) / (1 * (1 * 1))))) with 1 by (replace (1 * (-1 * 1 * (-1 * 1)) / (1 * (1 * 1))) with 1 by field; rewrite !sqrt_1; reflexivity).
  rewrite (clip_id 1 (-1 * 10) (1 * 10)) by lra. replace (-1 * 1 / (1 * 1)) with (-1) by field. rewrite (clip_id (-1) (-1 * 10) (1 * 10)) by lra.
  set (u := pi_control _ 0 (-1 / 10) + _). assert (U : u = - 5005 / 10000) by (unfold u, pi_control; cbn; field). assert (CL : np_clip u (0 * 100 / 100) (1 * 100 / 100) = 0) by (unfold np_clip; rewrite Rmax_right by lra; rewrite Rmin_left by lra; lra). unfold limited.
  destruct (rleP (-1 * 100 / 100) u) as [_|Q]; [|lra]. destruct (rleP u (1 * 100 / 100)) as [_|Q]; [|lra]. cbn.
  match goal with |- context [if ?t then _ else _] => destruct t end; cbn; rewrite CL; do 2 eexists; split; reflexivity.
Qed.

(** ** C152: from dq voltages to the action *)
(** The action of the field oriented controllers is always within the limits.  If it is not
    clipped it has exactly the wanted dq voltages, and it is clipped only if no admissible
    action has them: shifting the reference potential uses the whole voltage range. *)
Theorem foc_action_optimal :
  forall f m ud uq eps act ok, fo_lo f = - m -> fo_hi f = m -> 0 <= m -> foc_action f ud uq eps = Ok (act, ok) ->
  length act = 3%nat /\ Forall (between (- m) m) act /\
  (ok = true <-> exists act', length act' = 3%nat /\ Forall (between (- m) m) act' /\ abc_to_dq act' eps false = Ok [ud; uq]) /\
  (ok = true -> abc_to_dq act eps false = Ok [ud; uq]).
Proof. exact foc_action_spec. Qed.
Print Assumptions foc_action_optimal.
(** The two current controllers integrate if and only if the wanted voltages are applied;
    otherwise both integrators stay. *)
Theorem foc_anti_windup :
  forall k f m pd pq state rd rq cd cq act, fo_lo f = - m -> fo_hi f = m -> 0 <= m -> foc_cont k f (BPi pd, BPi pq) state rd rq = Ok (cd, cq, act) ->
  exists eps u0 id iq, foc_angle f state = Ok eps /\ foc_decouple k f state = Ok u0 /\ item state (fo_isd f) = Ok id /\ item state (fo_isq f) = Ok iq /\
    Forall (between (- m) m) act /\
    ((abc_to_dq act eps false = Ok [pi_control pd id rd + fst u0; pi_control pq iq rq + snd u0] /\ cd = BPi (pi_integrate pd id rd) /\ cq = BPi (pi_integrate pq iq rq)) \/
     ((forall act', length act' = 3%nat -> Forall (between (- m) m) act' -> abc_to_dq act' eps false <> Ok [pi_control pd id rd + fst u0; pi_control pq iq rq + snd u0]) /\ cd = BPi pd /\ cq = BPi pq)).
Proof.
  intros k f m pd pq state rd rq cd cq act L H P E. destruct (foc_cont_pi _ _ _ _ _ _ _ _ _ _ E) as (eps & u0 & id & iq & ok & E1 & E2 & E3 & E4 & A & T & F). exists eps, u0, id, iq. do 4 (split; [assumption|]). destruct (foc_action_spec _ _ _ _ _ _ _ L H P A) as (_ & B & S1 & S2). split; [exact B|]. destruct ok.
  - left. split; [exact (S2 eq_refl)|exact (T eq_refl)].
  - right. split; [|exact (F eq_refl)]. intros act' L' F' D. destruct S1 as [_ S1]. discriminate S1. exists act'. auto.
Qed.
Print Assumptions foc_anti_windup.
Definition ex_pi : pi := {| pi_p := 1; pi_i := 1; pi_tau := 1 / 1000; pi_int := 0 |}.
Definition ex_foc : foc_par :=
  {| fo_refd := 0; fo_refq := 1; fo_isd := 2; fo_isq := 3; fo_usd := 4; fo_usq := 5; fo_omega := 0; fo_eps := 1;
     fo_limit := [100; PI; 10; 10; 200; 200]; fo_p := 2; fo_ld := 1 / 100; fo_lq := 2 / 100; fo_psi := 1 / 10; fo_dead := 1 / 2; fo_tau := 1 / 1000; fo_lo := -1; fo_hi := 1; fo_dec := true |}.
(** A direct voltage of 1.1 is realised without clipping although the first phase voltage of
    the plain transformation exceeds the limit; 2 is clipped. *)
Example foc_action_example : (exists act, foc_action ex_foc (11 / 10) 0 0 = Ok (act, true)) /\ (exists act, foc_action ex_foc 2 0 0 = Ok (act, false)) /\ exists x, foc_control ex_foc (BPi ex_pi, BPi ex_pi) [1 / 10; 0; 0; 1 / 10; 0; 0] [0; 1 / 5] = Ok x.
Proof.
  assert (B : forall v, 0 < v -> exists t, backward v 0 0 = Ok t /\ shifted t = Ok [3 / 4 * v; - (3 / 4 * v); - (3 / 4 * v)]).
  { intros v V. unfold backward, q. cbn. eexists. split; [reflexivity|]. rewrite cos_0, sin_0. unfold shifted. cbn.
    match goal with |- context [Rmax (Rmax ?a ?b) ?c] => replace a with v by field; replace b with (- v / 2) by field; replace c with (- v / 2) by field end.
    rewrite (Rmax_left v) by lra. rewrite (Rmax_left v) by lra. rewrite (Rmin_right v) by lra. rewrite (Rmin_left (- v / 2)) by lra. f_equal. f_equal; [field|f_equal; [field|f_equal; field]]. }
  split; [|split].
  - destruct (B (11 / 10) ltac:(lra)) as (t & T1 & T2). unfold foc_action. rewrite T1. cbn [bind]. rewrite T2. cbn [bind]. eexists. f_equal. f_equal. apply unclipped_iff; [cbn; lra|]. repeat constructor; cbn; lra.
  - destruct (B 2 ltac:(lra)) as (t & T1 & T2). unfold foc_action. rewrite T1. cbn [bind]. rewrite T2. cbn [bind]. eexists. f_equal. f_equal. apply not_true_is_false. intros K. apply unclipped_iff in K; [|cbn; lra]. inversion K as [|? ? [_ K1] _]. cbn in K1. lra.
  - assert (A : forall u v w, exists a ok, foc_action ex_foc u v w = Ok (a, ok)).
    { intros u v w. unfold foc_action. destruct (backward_ok u v w) as (t & T). rewrite T. pose proof (backward_length _ _ _ _ T) as L. destruct t as [|x t]; [discriminate|]. cbn [bind shifted list_max list_min]. do 2 eexists. reflexivity. }
    unfold foc_control, foc_cont. cbn -[foc_action]. match goal with |- context [foc_action ex_foc ?u ?v ?w] => destruct (A u v w) as (a & ok & E); rewrite E end. destruct ok; eexists; reflexivity.
Qed.

Local Ltac fld := field; repeat split; assumption.
(** ** C153: decoupling of the currents of a synchronous motor *)
(** The decoupling voltages of the FieldOrientedController are exact: each current of the
    motor follows its own voltage like a resistance with an inductance. *)
Theorem foc_decoupling_exact :
  forall f m state id iq w eps li lu lq lw luq vd vq u0, fo_p f = pm_p m -> fo_ld f = pm_ld m -> fo_lq f = pm_lq m -> fo_psi f = pm_psi m -> fo_dec f = true -> pm_ld m <> 0 -> pm_lq m <> 0 ->
  item (fo_limit f) (fo_isd f) = Ok li -> item (fo_limit f) (fo_isq f) = Ok lq -> item (fo_limit f) (fo_omega f) = Ok lw -> item (fo_limit f) (fo_usd f) = Ok lu -> item (fo_limit f) (fo_usq f) = Ok luq ->
  li <> 0 -> lq <> 0 -> lw <> 0 -> lu <> 0 -> luq <> 0 ->
  item state (fo_isd f) = Ok (id / li) -> item state (fo_isq f) = Ok (iq / lq) -> item state (fo_omega f) = Ok (w / lw) ->
  foc_decouple (fo_isd f) f state = Ok u0 ->
  pmsm_ode m [id; iq; eps] [vd + fst u0 * lu; vq + snd u0 * luq] w = Ok [(vd - pm_rs m * id) / pm_ld m; (vq - pm_rs m * iq) / pm_lq m; pm_p m * w].
Proof.
  intros f m state id iq w eps li lu lq lw luq vd vq u0 E1 E2 E3 E4 E5 N1 N2 L1 L2 L3 L4 L5 Z1 Z2 Z3 Z4 Z5 S1 S2 S3. unfold foc_decouple, foc_usd0, foc_usq0. rewrite E5, S1, S2, S3, L1, L2, L3, L4, L5, E1, E2, E3, E4. cbn [bind]. intros H. injection H as <-. cbn [fst snd].
  unfold pmsm_ode, sync_ode, pmsm_constants, row_div. cbn [item nth_error bind map]. unfold matvec. cbn [forallb length Nat.eqb andb map dot]. f_equal. f_equal; [fld|f_equal; [fld|f_equal; fld]].
Qed.
Print Assumptions foc_decoupling_exact.
(** The CascadedFieldOrientedController multiplies the direct current with the limit of the
    voltage instead of the current: its decoupling is exact only at standstill, without direct
    current, or if the two limits are the same number. *)
Theorem cascaded_foc_decoupling_refuted :
  forall f m state id iq w eps li lu lq lw luq vd vq u0, fo_p f = pm_p m -> fo_ld f = pm_ld m -> fo_lq f = pm_lq m -> fo_psi f = pm_psi m -> fo_dec f = true -> pm_ld m <> 0 -> pm_lq m <> 0 -> pm_p m <> 0 ->
  item (fo_limit f) (fo_isd f) = Ok li -> item (fo_limit f) (fo_isq f) = Ok lq -> item (fo_limit f) (fo_omega f) = Ok lw -> item (fo_limit f) (fo_usd f) = Ok lu -> item (fo_limit f) (fo_usq f) = Ok luq ->
  li <> 0 -> lq <> 0 -> lw <> 0 -> lu <> 0 -> luq <> 0 ->
  item state (fo_isd f) = Ok (id / li) -> item state (fo_isq f) = Ok (iq / lq) -> item state (fo_omega f) = Ok (w / lw) ->
  foc_decouple (fo_usd f) f state = Ok u0 ->
  (pmsm_ode m [id; iq; eps] [vd + fst u0 * lu; vq + snd u0 * luq] w = Ok [(vd - pm_rs m * id) / pm_ld m; (vq - pm_rs m * iq) / pm_lq m; pm_p m * w] <-> w = 0 \/ id = 0 \/ lu = li).
Proof.
  intros f m state id iq w eps li lu lq lw luq vd vq u0 E1 E2 E3 E4 E5 N1 N2 N3 L1 L2 L3 L4 L5 Z1 Z2 Z3 Z4 Z5 S1 S2 S3. unfold foc_decouple, foc_usd0, foc_usq0. rewrite E5, S1, S2, S3, L2, L3, L4, L5, E1, E2, E3, E4. cbn [bind]. intros H. injection H as <-. cbn [fst snd].
  unfold pmsm_ode, sync_ode, pmsm_constants, row_div. cbn [item nth_error bind map]. unfold matvec. cbn [forallb length Nat.eqb andb map dot].
  match goal with |- Ok [?a; ?b; ?c] = _ <-> _ => replace a with ((vd - pm_rs m * id) / pm_ld m) by fld; replace b with ((vq - pm_rs m * iq) / pm_lq m + w * id * (lu - li) * (pm_p m * pm_ld m / (pm_lq m * li))) by fld; replace c with (pm_p m * w) by fld end.
  assert (NZ : pm_p m * pm_ld m / (pm_lq m * li) <> 0). { unfold Rdiv. repeat apply Rmult_integral_contrapositive_currified; auto. apply Rinv_neq_0_compat. apply Rmult_integral_contrapositive_currified; auto. }
  set (z := pm_p m * pm_ld m / (pm_lq m * li)) in *. clearbody z. split.
  - intros K. injection K as K. assert (Q : w * id * (lu - li) * z = 0) by lra. apply Rmult_integral in Q. destruct Q as [Q|Q]; [|contradiction]. apply Rmult_integral in Q. destruct Q as [Q|Q]; [apply Rmult_integral in Q; tauto|]. right. right. lra.
  - intros K. assert (Q : w * id * (lu - li) = 0) by (destruct K as [K|[K|K]]; rewrite K; ring). rewrite Q. f_equal. f_equal. f_equal. ring.
Qed.
Print Assumptions cascaded_foc_decoupling_refuted.
Definition ex_pmsm : pmsm_par := {| pm_p := 2; pm_ld := 1 / 100; pm_lq := 2 / 100; pm_rs := 1; pm_psi := 1 / 10 |}.
Definition ex_foc_state : list R := [50 / 100; 0; 5 / 10; 3 / 10; 0; 0].
Example foc_decoupling_example : exists u0 u1, foc_decouple (fo_isd ex_foc) ex_foc ex_foc_state = Ok u0 /\ foc_decouple (fo_usd ex_foc) ex_foc ex_foc_state = Ok u1 /\
  pmsm_ode ex_pmsm [5; 3; 0] [0 + fst u0 * 200; 0 + snd u0 * 200] 50 = Ok [(0 - 1 * 5) / (1 / 100); (0 - 1 * 3) / (2 / 100); 2 * 50] /\
  pmsm_ode ex_pmsm [5; 3; 0] [0 + fst u1 * 200; 0 + snd u1 * 200] 50 <> Ok [(0 - 1 * 5) / (1 / 100); (0 - 1 * 3) / (2 / 100); 2 * 50].
Proof.
  do 2 eexists. split; [reflexivity|]. split; [reflexivity|]. split.
  - eapply (foc_decoupling_exact ex_foc ex_pmsm ex_foc_state 5 3 50 0 10 200 10 100 200 0 0); try reflexivity; cbn; try lra; repeat f_equal; lra.
  - intros K. eapply (cascaded_foc_decoupling_refuted ex_foc ex_pmsm ex_foc_state 5 3 50 0 10 200 10 100 200 0 0) in K; try reflexivity; cbn; try lra; try (repeat f_equal; lra).
Qed.

(** ** C154: decoupling of the currents of an induction motor *)
(** The InductionMotorFieldOrientedController uses the mechanical speed where the electrical
    speed is meant: what remains of the coupling is proportional to [p - 1]. *)
Theorem im_foc_decoupling_residual :
  forall f m theta isd isq psi vd vq w d, if_lm f = im_lm m -> if_lr f = im_lr m -> if_ls f = im_ls m -> if_sigma f = im_sigma m -> if_rr f = im_rr m ->
  im_rr m <> 0 -> im_lr m <> 0 -> im_ls m <> 0 -> im_sigma m <> 0 -> im_rs m + im_rr m * (im_lm m * im_lm m) / (im_lr m * im_lr m) <> 0 -> 1 / 10000 <= psi ->
  let ws := if_omega_s f w isq psi in
  scim_ode m (im_state theta isd isq psi) (im_voltage theta (vd + if_usd0 f ws isq psi) (vq + if_usq0 f ws w isd psi)) w = Ok d ->
  exists thetadot did diq, im_axes theta isd isq psi d = Some (thetadot, did, diq) /\
    let r := im_rs m + im_rr m * (im_lm m * im_lm m) / (im_lr m * im_lr m) in let sl := im_sigma m * im_ls m in
    thetadot = ws + (im_p m - 1) * w /\
    sl * did = vd - r * isd + (im_p m - 1) * w * sl * isq /\
    sl * diq = vq - r * isq - (im_p m - 1) * w * (sl * isd + im_lm m / im_lr m * psi).
Proof.
  intros f m theta isd isq psi vd vq w d E1 E2 E3 E4 E5 N1 N2 N3 N4 N5 P ws H. assert (P0 : psi <> 0) by lra. destruct (im_dq_axes _ _ _ _ _ _ _ _ _ N1 N2 N3 N4 N5 P0 H) as (dia & dib & dpa & dpb & de & -> & T & D & Q). cbv zeta in T, D, Q. do 3 eexists. split; [reflexivity|]. cbv zeta.
  assert (Ws : ws = w + im_rr m * im_lm m / im_lr m * isq / psi). { unfold ws, if_omega_s, np_sign. rewrite E1, E2, E5, Rabs_pos_eq, Rmax_left by lra. destruct (rltP psi 0); [lra|]. destruct (rltP 0 psi); [|lra]. ring. }
  rewrite T in D, Q |- *. split; [rewrite Ws; ring|]. rewrite D, Q. unfold if_usd0, if_usq0. rewrite E1, E2, E3, E4, E5, Ws. split; [ring|field; auto].
Qed.
Print Assumptions im_foc_decoupling_residual.
Theorem im_foc_decoupling_refuted :
  forall f m theta isd isq psi vd vq w d, if_lm f = im_lm m -> if_lr f = im_lr m -> if_ls f = im_ls m -> if_sigma f = im_sigma m -> if_rr f = im_rr m ->
  im_rr m <> 0 -> im_lr m <> 0 -> im_ls m <> 0 -> im_sigma m <> 0 -> im_rs m + im_rr m * (im_lm m * im_lm m) / (im_lr m * im_lr m) <> 0 -> 1 / 10000 <= psi -> isq <> 0 ->
  let ws := if_omega_s f w isq psi in
  scim_ode m (im_state theta isd isq psi) (im_voltage theta (vd + if_usd0 f ws isq psi) (vq + if_usq0 f ws w isd psi)) w = Ok d ->
  exists thetadot did diq, im_axes theta isd isq psi d = Some (thetadot, did, diq) /\
    ((im_sigma m * im_ls m * did = vd - (im_rs m + im_rr m * (im_lm m * im_lm m) / (im_lr m * im_lr m)) * isd /\
      im_sigma m * im_ls m * diq = vq - (im_rs m + im_rr m * (im_lm m * im_lm m) / (im_lr m * im_lr m)) * isq) <-> im_p m = 1 \/ w = 0).
Proof.
  intros f m theta isd isq psi vd vq w d E1 E2 E3 E4 E5 N1 N2 N3 N4 N5 P Q0 ws H. destruct (im_foc_decoupling_residual f m theta isd isq psi vd vq w d E1 E2 E3 E4 E5 N1 N2 N3 N4 N5 P H) as (td & did & diq & A & R1 & R2 & R3). cbv zeta in R1, R2, R3. exists td, did, diq. split; [exact A|]. rewrite R2, R3. split.
  - intros [K _]. assert (Z : (im_p m - 1) * w * (im_sigma m * im_ls m) * isq = 0) by lra. apply Rmult_integral in Z. destruct Z as [Z|Z]; [|contradiction]. apply Rmult_integral in Z. destruct Z as [Z|Z]; [apply Rmult_integral in Z; destruct Z as [Z|Z]; [left; lra|right; exact Z]|]. apply Rmult_integral in Z. tauto.
  - intros [K|K]; rewrite K; split; ring.
Qed.
Print Assumptions im_foc_decoupling_refuted.
Definition ex_im : im_par := {| im_p := 2; im_lm := 1 / 10; im_lsigs := 1 / 100; im_lsigr := 1 / 100; im_rs := 1; im_rr := 1 |}.
Definition ex_imf : imf := {| if_lm := im_lm ex_im; if_lr := im_lr ex_im; if_ls := im_ls ex_im; if_sigma := im_sigma ex_im; if_rr := im_rr ex_im |}.
Example im_foc_decoupling_example : exists d, scim_ode ex_im (im_state 0 2 3 (1 / 2)) (im_voltage 0 (10 + if_usd0 ex_imf (if_omega_s ex_imf 50 3 (1 / 2)) 3 (1 / 2)) (10 + if_usq0 ex_imf (if_omega_s ex_imf 50 3 (1 / 2)) 50 2 (1 / 2))) 50 = Ok d /\
  im_rr ex_im <> 0 /\ im_lr ex_im <> 0 /\ im_ls ex_im <> 0 /\ im_sigma ex_im <> 0 /\ im_rs ex_im + im_rr ex_im * (im_lm ex_im * im_lm ex_im) / (im_lr ex_im * im_lr ex_im) <> 0.
Proof.
  eexists. split; [unfold scim_ode, im_ode, im_state, im_voltage, item2; cbn [item nth_error bind map]; unfold matvec, im_constants; cbn [forallb length Nat.eqb andb map dot]; reflexivity|]. unfold im_lr, im_ls, im_sigma, im_lr, im_ls. cbn. repeat split; try lra.
Qed.
(** The flux observer of the examples does one step of the library's FluxObserver. *)
Theorem example_flux_observer_agrees :
  forall (S : Type) (m : machine S) p f a x x' out, fb_lm f = fp_lm p -> fb_lr f = fp_lr p -> fb_rr f = fp_rr p -> fb_p f = fp_p p -> fb_tau f = i_tau (m_info m) -> fb_i f = fp_idx p -> fb_omega f = fp_omega p ->
  flux_sim p m a x = (x', Ok out) ->
  exists sn st est, snd (m_sim m a (fl_in x)) = Ok sn /\ np_mul sn (i_limits (m_info m)) = Ok st /\ fb_estimate f (fl_psi x) st = Ok (fl_psi x', est) /\ np_quot (st ++ [fst est; snd est]) (fp_limits p) = Ok out.
Proof.
  intros S m p f a x x' out E1 E2 E3 E4 E5 E6 E7. unfold flux_sim. destruct (m_sim m a (fl_in x)) as [s r]. cbn [snd]. destruct r as [sn|]; [|discriminate]. cbn [bind]. destruct (np_mul sn (i_limits (m_info m))) as [st|] eqn:M; [|discriminate]. cbn [bind]. destruct (select (fp_idx p) st) as [i|] eqn:I; [|discriminate]. destruct (item st (fp_omega p)) as [w|] eqn:W; [|discriminate]. cbn [bind]. destruct (t_23 i) as [ab|] eqn:T; [|discriminate]. cbn [bind]. destruct (item ab 0) as [ia|] eqn:A0; [|discriminate]. destruct (item ab 1) as [ib|] eqn:A1; [|discriminate]. cbn [bind].
  intros H. inversion H as [[H1 H2]]. exists sn, st. eexists. split; [reflexivity|]. split; [exact M|]. unfold fb_estimate. rewrite E1, E2, E3, E4, E5, E6, E7, I, W. cbn [bind]. rewrite T. cbn [bind]. rewrite A0, A1. cbn [bind]. split; [reflexivity|]. reflexivity.
Qed.
Print Assumptions example_flux_observer_agrees.

(** ** C155: discrete actions *)
(** The actions of a DiscreteActionController are always members of the action space. *)
Theorem discrete_action_valid :
  forall e s l refs c h x n, en_extex e = false -> stage_class (st_type s) = Ok false -> action_count (en_space e) = Ok n -> (2 <= n)%Z ->
  da_new e (SList (s :: l)) refs = Ok c -> da_run c h = Ok x -> forall a, In a (snd x) -> exists v, a = [v] /\ valid_action n v.
Proof.
  intros e s l refs c h x n X C A N Nw Rn. unfold da_new in Nw. rewrite X in Nw. destruct (en_space e) eqn:Sp; try discriminate Nw; ub Nw; repeat match goal with [ K : at_ (s :: l) 0 = Ok _ |- _ ] => cbn in K; injection K as <- end; injection Nw as <-; eapply da_run_valid; try exact Rn; try reflexivity; cbn [da_ctl]; eapply make_discrete; eauto; rewrite Sp; exact A.
Qed.
Print Assumptions discrete_action_valid.
(** For an externally excited motor the controller can never be built. *)
Theorem discrete_action_extex_refuted : forall e ss refs c, en_extex e = true -> da_new e ss refs <> Ok c.
Proof.
  intros e ss refs c X H. unfold da_new in H. rewrite X in H. destruct (en_space e); try discriminate H; ub H; destruct ss; ub H; discriminate H.
Qed.
Print Assumptions discrete_action_extex_refuted.
(** Field oriented control of a B6 bridge converter (eight actions) with on-off controllers
    always returns one of the eight actions. *)
Theorem foc_on_off_valid :
  forall e s0 s1 s2 c0 c1 c2 f iabc h l, en_space e = SDisc 8 -> st_type s0 = "on_off" -> st_type s1 = "on_off" -> st_type s2 = "on_off" ->
  base_make e s0 false false = Ok c0 -> base_make e s1 false false = Ok c1 -> base_make e s2 false false = Ok c2 ->
  fd_run f iabc [c0; c1; c2] h = Ok l -> Forall (valid_action 8) l.
Proof.
  intros e s0 s1 s2 c0 c1 c2 f iabc h l Sp T0 T1 T2 M0 M1 M2 Rn. apply (fd_run_bits f iabc h c0 c1 c2 l (on_off_levels _ _ _ T0 Sp M0) (on_off_levels _ _ _ T1 Sp M1) (on_off_levels _ _ _ T2 Sp M2) Rn).
Qed.
Print Assumptions foc_on_off_valid.
(** With three-point controllers it can return 13, even for currents that sum to zero: there
    is no such action. *)
Theorem foc_three_point_valid_refuted :
  ~ (forall e s c f iabc h l, en_space e = SDisc 8 -> st_type s = "three_point" -> base_make e s false false = Ok c -> fd_run f iabc [c; c; c] h = Ok l -> Forall (valid_action 8) l).
Proof.
  intros H. set (e := {| en_names := []; en_low := []; en_high := []; en_limits := []; en_nominal := []; en_cur := []; en_volt := []; en_space := SDisc 8; en_mp := []; en_extex := false; en_tau := 1 |}).
  set (s := {| st_type := "three_point"; st_par := [] |}).
  specialize (H e s _ ex_foc [2; 3; 4]%nat [([0; 0; 1 / 2; 1 / 2; -1; 0], 0, 0)] [13] eq_refl eq_refl eq_refl).
  assert (K : Forall (valid_action 8) [13]).
  { apply H. assert (B : forall u, backward 0 0 u = Ok [0; 0; 0]) by (intros u; unfold backward, q; cbn; f_equal; f_equal; [ring|f_equal; [ring|f_equal; ring]]).
    assert (An : exists u, foc_angle ex_foc [0; 0; 1 / 2; 1 / 2; -1; 0] = Ok u) by (eexists; reflexivity). destruct An as (u & An).
    cbn [fd_run]. unfold foc_disc. rewrite An. cbn [bind]. rewrite B. cbn [bind at_ item nth_error].
    assert (T1 : forall c, tp_pos c = 2 / 100 -> tp_nfp c = 1 / 100 -> tp_neg c = 2 / 100 -> tp_negative c = 2%Z -> b_control (BThree c) (1 / 2) 0 = (BThree (tp_with c 2 2), 2)).
    { intros c0 P1 P2 P3 P4. cbn [b_control]. unfold tp_control. cbv zeta. rewrite P1, P2, P3, P4. destruct (rltP (2 / 100) (0 - 1 / 2)); [lra|]. destruct (rltP (1 / 100) (0 - 1 / 2)); [lra|]. destruct (rltP (0 - 1 / 2) (- (2 / 100))); [|lra]. reflexivity. }
    assert (T2 : forall c, tp_pos c = 2 / 100 -> tp_positive c = 1%Z -> b_control (BThree c) (-1) 0 = (BThree (tp_with c 1 1), 1)).
    { intros c0 P1 P2. cbn [b_control]. unfold tp_control. cbv zeta. rewrite P1, P2. destruct (rltP (2 / 100) (0 - -1)); [|lra]. reflexivity. }
    rewrite T1 by reflexivity. rewrite T2 by reflexivity. cbn [bind fst snd]. f_equal. f_equal. ring. }
  inversion K as [|? ? (k & E & B) _]. apply eq_IZR in E. lia.
Qed.
Print Assumptions foc_three_point_valid_refuted.
Example discrete_action_example :
  let e := {| en_names := ["omega"; "i"]; en_low := [0; 0]; en_high := [1; 1]; en_limits := [100; 10]; en_nominal := [100; 10]; en_cur := [1%nat]; en_volt := [1%nat]; en_space := SDisc 4; en_mp := []; en_extex := false; en_tau := 1 |} in
  let s := {| st_type := "three_point"; st_par := [] |} in
  exists c x, da_new e (SList [s]) ["i"] = Ok c /\ da_run c [Control [0; 1 / 2] [0]; Control [0; 1 / 2] [1]] = Ok x /\ snd x = [[2]; [1]].
Proof.
  intros e s. set (c := fun a r => {| da_ref := 0; da_ref_state := 1; da_i := 1; da_exc := None;
    da_ctl := BThree {| tp_pos := 2 / 100; tp_neg := 2 / 100; tp_nfp := 1 / 100; tp_nfn := 1 / 100; tp_negative := 2; tp_positive := 1; tp_neutral := 0; tp_action := a; tp_recent := r |} |}).
  exists (c 0%Z 0%Z), (c 1%Z 1%Z, [[2]; [1]]). split; [reflexivity|]. split; [|reflexivity].
  assert (S1 : da_control (c 0%Z 0%Z) [0; 1 / 2] [0] = Ok (c 2%Z 2%Z, [2])).
  { unfold da_control, c. cbn [item nth_error bind da_ref_state da_ref da_ctl b_control]. unfold tp_control. cbn [tp_pos tp_neg tp_nfp tp_nfn]. cbv zeta. destruct (rltP (2 / 100) (0 - 1 / 2)); [lra|]. destruct (rltP (1 / 100) (0 - 1 / 2)); [lra|]. destruct (rltP (0 - 1 / 2) (- (2 / 100))); [|lra]. reflexivity. }
  assert (S2 : da_control (c 2%Z 2%Z) [0; 1 / 2] [1] = Ok (c 1%Z 1%Z, [1])).
  { unfold da_control, c. cbn [item nth_error bind da_ref_state da_ref da_ctl b_control]. unfold tp_control. cbn [tp_pos tp_neg tp_nfp tp_nfn]. cbv zeta. destruct (rltP (2 / 100) (1 - 1 / 2)); [|lra]. reflexivity. }
  cbn [da_run]. rewrite S1. cbn [bind fst snd]. rewrite S2. reflexivity.
Qed.
(** C149 on the concrete motor (flux 1 Vs) at 50 rad/s: the ContinuousActionController
    compensates 50 V, the CascadedController 50 microvolts. *)
Example emf_compensation_example : exists c f g, cc_new ex_env (SList [pi_stage; pi_stage]) ["omega"] = Ok c /\ cc_feedforward c [1 / 2; 0; 0; 0; 0] = Ok f /\ f * 1000 = 50 / 1000000 /\
  ca_new ex_env (SList [ex_stage]) ["i"] = Ok (ctl 0 0) /\ ca_feedforward (ctl 0 0) [1 / 2; 0; 0; 0; 0] = Ok g /\ g * 1000 = 50.
Proof.
  assert (Nw : exists c, cc_new ex_env (SList [pi_stage; pi_stage]) ["omega"] = Ok c) by (eexists; reflexivity). destruct Nw as (c & Nw). exists c. cut (exists f g, cc_feedforward c [1 / 2; 0; 0; 0; 0] = Ok f /\ f * 1000 = 50 / 1000000 /\ ca_feedforward (ctl 0 0) [1 / 2; 0; 0; 0; 0] = Ok g /\ g * 1000 = 50).
  { intros (f & g & K1 & K2 & K3 & K4). exists f, g. split; [exact Nw|]. split; [exact K1|]. split; [exact K2|]. split; [exact ex_new|]. split; [exact K3|exact K4]. }
  cbn in Nw. injection Nw as <-. unfold cc_feedforward, ca_feedforward, py_or. cbn. destruct (reqP 0 0) as [_|Q]; [|contradiction]. destruct (reqP 1 0) as [Q|_]; [lra|]. cbn. do 2 eexists. split; [reflexivity|]. rewrite Rmult_0_l, Rmult_0_l, Rmax_right by lra. split; [field|]. split; [reflexivity|field].
Qed.
