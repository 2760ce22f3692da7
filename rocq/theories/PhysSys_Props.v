(** Theorems about the physical systems. *)
From Verif Require Import PyBaseFacts PyDictFacts Conv_Model Conv_Spec Conv_Proofs Conv_Proofs2 Solver_Model Solver_Spec Solver_Proofs Supply_Model
  Transform_Model Transform_Proofs Transform_Props Motor_Model Motor_Spec Motor_Proofs Motor_Props Loads_Model Loads_Props
  PhysSys_Model PhysSys_Spec PhysSys_Proofs PhysSys_Proofs2 PhysSys_Proofs3.

(** ** A step covers exactly one sampling period (C45) *)
Theorem simulate_covers_the_period :
  forall C S A U V (cv : conv_if C A) (sp : supply_if S) (f : rhs U) tau (view : list R -> res V) cur volt volt_last act out limits a x x' o,
  simulate cv sp f tau view cur volt volt_last act out limits a x = (x', Ok o) -> eu_t (sy_e x) = sy_t x ->
  exists y0 y1 v0 a' c' ts segs sl,
    eu_y (sy_e x) = Some y0 /\ eu_y (sy_e x') = Some y1 /\ view y0 = Ok v0 /\ act v0 a = Ok a' /\
    cv_set_action cv (sy_c x) a' (sy_t x) = (c', Ok ts) /\
    tiles (sy_t x) y0 c' (sy_s x) (segs ++ [sl]) (sy_t x + tau) y1 (sy_c x') (sy_s x') /\
    map sg_to segs = removelast ts /\
    Forall (segment_ok cv sp f (eu_n (sy_e x)) (sy_t x) view cur volt) segs /\
    segment_ok cv sp f (eu_n (sy_e x)) (sy_t x) view cur volt_last sl /\
    (schedule (sy_t x) tau ts -> Forall (fun s => sg_from s < sg_to s) (segs ++ [sl])) /\
    sy_t x' = sy_t x + tau /\ eu_t (sy_e x') = sy_t x' /\ sy_k x' = Datatypes.S (sy_k x) /\
    length o = length limits /\ forall i, nth_error o i =
      match nth_error (sy_state x') i, nth_error limits i with Some s, Some l => Some (ldiv s l) | _, _ => None end.
Proof.
  intros C S A U V cv sp f tau view cur volt volt_last act out limits a x x' o H Ht.
  destruct (simulate_inv _ _ _ _ _ _ _ _ _ _ _ _ _ _ _ H)
    as (y0 & v0 & a' & c' & ts & vl & iv & y1 & y2 & segs & sl & st & H1 & H2 & H3 & H4 & H5 & H6 & H7 & H8 & H9 & H10 & H11 & H12 & H13 & H14 & H15 & H16 & H17 & H18 & H19 & H20 & H21 & H22 & H23 & H24 & H25).
  rewrite Ht in H5, H24.
  assert (Htiles : tiles (sy_t x) y0 c' (sy_s x) (segs ++ [sl]) (sy_t x + tau) y2 (sy_c x') (sy_s x')).
  { apply tiles_app; [rewrite H8; exact H5|exact H10|exact H9|now rewrite H22|now rewrite H23]. }
  exists y0, y2, v0, a', c', ts, segs, sl. split; [exact H1|]. split; [exact H16|]. split; [exact H2|]. split; [exact H3|]. split; [exact H4|]. split; [exact Htiles|].
  split; [exact H6|]. split; [exact H7|]. split; [exact H11|]. split.
  { intros (Hs & Hr & pre & Epre). apply (sorted_tiles _ _ _ _ _ _ _ _ _ Htiles).
    - rewrite map_app, H6, Epre, removelast_last. cbn [map]. rewrite H10, <- Epre. exact Hs.
    - rewrite map_app, H6, Epre, removelast_last. cbn [map]. rewrite H10, <- Epre. eapply Forall_impl; [|exact Hr]. cbn. tauto. }
  split; [exact H19|]. split; [congruence|]. split; [exact H20|]. subst st. unfold np_div in H15.
  destruct (Nat.eqb_spec (length (sy_state x')) (length limits)) as [El|]; [|discriminate]. injection H15 as <-.
  split; [rewrite map2_length, El; lia|]. intros i. apply map2_nth_error.
Qed.
Print Assumptions simulate_covers_the_period.

(** Over any history of successful resets and steps the time is the number of steps
    since the last reset times tau, and the solver agrees. *)
Theorem time_after_history :
  forall C S A U V (cv : conv_if C A) (sp : supply_if S) (f : rhs U) tau (view : list R -> res V) cur volt volt_last act out limits obs ops x x',
  sy_t x = 0 -> eu_t (sy_e x) = 0 -> sy_k x = 0%nat ->
  run_ok (reset cv sp limits obs) (simulate cv sp f tau view cur volt volt_last act out limits) ops x = Some x' ->
  sy_k x' = steps_since ops 0 /\ sy_t x' = INR (steps_since ops 0) * tau /\ eu_t (sy_e x') = sy_t x'.
Proof.
  intros C S A U V cv sp f tau view cur volt volt_last act out limits obs ops x x' H1 H2 H3 H.
  destruct (run_time cv sp f tau view cur volt volt_last act out limits obs ops x x' 0) as (G1 & G2 & G3 & _).
  - rewrite H1. cbn. ring.
  - congruence.
  - exact H3.
  - exact H.
  - auto.
Qed.
Print Assumptions time_after_history.

Lemma fin_times_kept tau il : conv_kept fin_if (times_par tau il).
Proof.
  split; [|split]; intros c; intros; [exact (fin_step_times tau il c (OpSet a t) I H)|exact (fin_step_times tau il c (OpConvert i t) I H)|exact (fin_step_times tau il c OpReset I H)].
Qed.
(** With a finite converter every sub-interval of every step in any history has
    positive length, if 0 <= interlocking time < tau. *)
Theorem finite_drive_subintervals :
  forall S U V k il (sp : supply_if S) (f : rhs U) tau (view : list R -> res V) cur volt volt_last act out limits obs ops x x' a x'' o,
  0 <= il < tau -> (forall v b b', act v b = Ok b' -> b' = b) ->
  sy_c x = fin_new k tau il -> sy_t x = 0 -> eu_t (sy_e x) = 0 -> sy_k x = 0%nat ->
  run_ok (reset fin_if sp limits obs) (simulate fin_if sp f tau view cur volt volt_last act out limits) ops x = Some x' ->
  simulate fin_if sp f tau view cur volt volt_last act out limits a x' = (x'', Ok o) ->
  exists y0 y1 c' (segs : list (segment fin S U)),
    eu_y (sy_e x') = Some y0 /\ eu_y (sy_e x'') = Some y1 /\ segs <> [] /\ (length segs <= 2)%nat /\
    tiles (sy_t x') y0 c' (sy_s x') segs (sy_t x' + tau) y1 (sy_c x'') (sy_s x'') /\ Forall (fun s => sg_from s < sg_to s) segs.
Proof.
  intros S U V k il sp f tau view cur volt volt_last act out limits obs ops x x' a x'' o Hil Hact Hc H1 H2 H3 Hr Hs.
  destruct (run_time fin_if sp f tau view cur volt volt_last act out limits obs ops x x' 0) as (G1 & G2 & G3 & _ & G4);
    [rewrite H1; cbn; ring|congruence|exact H3|exact Hr|].
  pose proof (G4 _ (fin_times_kept tau il) ltac:(rewrite Hc; apply fin_new_times)) as Ht.
  destruct (simulate_covers_the_period _ _ _ _ _ _ _ _ _ _ _ _ _ _ _ _ _ _ _ _ Hs G3) as (y0 & y1 & v0 & a' & c' & ts & segs & sl & K1 & K2 & K3 & K4 & K5 & K6 & K7 & _ & _ & K8 & _).
  apply Hact in K4. subst a'. cbn [fin_if cv_set_action] in K5.
  assert (Ha : (0 <= a < fin_n (sy_c x'))%Z).
  { destruct (Z_le_gt_dec 0 a); [destruct (Z_lt_ge_dec a (fin_n (sy_c x'))); [lia|]|];
      rewrite fin_set_invalid in K5 by lia; discriminate. }
  destruct (fin_times_good (sy_c x') a (sy_t x') tau il Ht Hil Ha) as (ts' & E & Hsch). rewrite K5 in E. cbn [snd] in E. injection E as <-.
  exists y0, y1, c', (segs ++ [sl]). split; [exact K1|]. split; [exact K2|]. split; [now destruct segs|]. split; [|split; [exact K6|exact (K8 Hsch)]].
  rewrite app_length. cbn [length].
  assert (Hlen : (length ts <= 2)%nat).
  { clear -K5 Ht Hil Hsch. assert (Hin : forall z, In z ts -> z = sy_t x' + il \/ z = sy_t x' + tau).
    { intros z Hz. assert (Hleg : forall l b c2 ts2, leg_times tau il l -> f2_set_action l b (sy_t x') = (c2, Ok ts2) -> In z ts2 -> z = sy_t x' + il \/ z = sy_t x' + tau).
      { intros l b c2 ts2 [Ht1 Hi1] E Hz2. assert (E' : snd (f2_set_action l b (sy_t x')) = Ok ts2) by now rewrite E.
        destruct (f2_times _ _ _ _ E') as [-> | [-> _]]; cbn in Hz2; rewrite ?Ht1, ?Hi1 in Hz2; intuition. }
      destruct (sy_c x') as [q|q|q|q]; cbn [fin_set_action] in K5; cbn [times_par legs] in Ht.
      - unfold lift, f1_set_action in K5. destruct (discrete_contains 2 a); cbn in K5; [|discriminate]. injection K5 as _ <-. cbn in Hz. rewrite Ht in Hz. intuition.
      - apply Forall_cons_iff in Ht; destruct Ht as [T1 _]. destruct (f2_set_action q a (sy_t x')) as [c2 r] eqn:E. cbv [lift fst snd] in K5. injection K5 as _ ->. eapply Hleg; eauto.
      - apply Forall_cons_iff in Ht; destruct Ht as [T1 T2]. apply Forall_cons_iff in T2; destruct T2 as [T2 _]. unfold lift, f4_set_action in K5. destruct (discrete_contains 4 a); [|discriminate].
        destruct (f2_set_action (f4_a q) (f4_action0 a) (sy_t x')) as [c2 [r|]] eqn:E;
        destruct (f2_set_action (f4_b q) (f4_action1 a) (sy_t x')) as [c3 [r2|]] eqn:E2; cbn in K5; try discriminate.
        assert (Ets : ts = sort_set (r ++ r2)) by congruence. rewrite Ets in Hz. apply sort_set_in, in_app_or in Hz. destruct Hz as [Hz|Hz]; [exact (Hleg _ _ _ _ T1 E Hz)|exact (Hleg _ _ _ _ T2 E2 Hz)].
      - apply Forall_cons_iff in Ht; destruct Ht as [T1 T2]. apply Forall_cons_iff in T2; destruct T2 as [T2 T3]. apply Forall_cons_iff in T3; destruct T3 as [T3 _]. unfold lift, f6_set_action in K5. destruct (discrete_contains 8 a); [|discriminate].
        destruct (f2_set_action (f6_a q) (f6_sub a 0) (sy_t x')) as [c2 [r|]] eqn:E;
        destruct (f2_set_action (f6_b q) (f6_sub a 1) (sy_t x')) as [c3 [r2|]] eqn:E2;
        destruct (f2_set_action (f6_c q) (f6_sub a 2) (sy_t x')) as [c4 [r3|]] eqn:E3; cbn in K5; try discriminate.
        assert (Ets : ts = sort_set (r ++ r2 ++ r3)) by congruence. rewrite Ets in Hz. apply sort_set_in, in_app_or in Hz. destruct Hz as [Hz|Hz]; [exact (Hleg _ _ _ _ T1 E Hz)|]. apply in_app_or in Hz. destruct Hz as [Hz|Hz]; [exact (Hleg _ _ _ _ T2 E2 Hz)|exact (Hleg _ _ _ _ T3 E3 Hz)]. }
    destruct Hsch as [Hs _]. destruct ts as [|z1 [|z2 [|z3 ts]]]; cbn [length]; try lia. exfalso.
    apply StronglySorted_inv in Hs. destruct Hs as [Hs F1]. apply StronglySorted_inv in Hs. destruct Hs as [_ F2].
    inversion F1 as [|? ? L1 F3]; subst. inversion F3 as [|? ? L2 _]; subst. inversion F2 as [|? ? L3 _]; subst.
    destruct (Hin z1 ltac:(cbn; auto)), (Hin z2 ltac:(cbn; auto)), (Hin z3 ltac:(cbn; auto)); lra. }
  assert (length segs = length (removelast ts)) by (rewrite <- K7; symmetry; apply map_length).
  destruct Hsch as (_ & _ & pre & ->). rewrite removelast_last in H. rewrite app_length in Hlen. cbn in Hlen. lia.
Qed.
Print Assumptions finite_drive_subintervals.

(** ** Supported drives never raise (C100) *)
(** A system after construction: the array of states has one entry per name. *)
Definition fresh {C S U} (c : C) (s : S) (N : nat) (limits : list lim) (x : sys C S U) : Prop :=
  sy_c x = c /\ sy_s x = s /\ sy_e x = euler_new N /\ sy_t x = 0 /\ sy_k x = 0%nat /\ sy_state x = repeat 0 (length limits).
Definition ok_op {A} (valid : A -> Prop) (nl nm : nat) (o : op A) : Prop :=
  match o with OReset (Ok (mech, ms)) => length mech = nl /\ length ms = nm | OReset _ => False | OStep a => valid a end.

Lemma finP0_new k tau il : finP0 (fin_n (fin_new k tau il)) (fin_dim (fin_new k tau il)) (fin_new k tau il).
Proof. split; [apply fin_new_ok|auto]. Qed.
Lemma fresh_ready {C S U} (c : C) (s : S) N limits (x : sys C S U) (P0 : C -> Prop) (Q0 : S -> Prop) : fresh c s N limits x -> (1 <= N)%nat -> P0 c -> Q0 s ->
  ready0 limits P0 Q0 x.
Proof. intros (H1 & H2 & H3 & _ & _ & H4) HN Hc Hs. unfold ready0. rewrite H1, H2, H3, H4. cbn. rewrite repeat_length. auto. Qed.

Theorem dc_drives_never_raise :
  forall k tau il u N p limits mo ml ops mech ms x,
  (1 <= N)%nat -> k <> K6 ->
  (mo = series_motor p \/ mo = shunt_motor p \/ exists q, mo = perm_motor q) ->
  (ml = const_load \/ exists l, ml = poly_load l) ->
  length limits = (1 + 1 + mo_nc mo + 1 + 1)%nat ->
  fresh (fin_new k tau il) (ideal_new u) N limits x -> length mech = 1%nat -> length ms = mo_n mo ->
  Forall (ok_op (fun a => 0 <= a < fin_n (fin_new k tau il))%Z 1 (mo_n mo)) ops ->
  exists x', run_ok (reset fin_if ideal_if limits (dc_obs ml mo))
    (simulate fin_if ideal_if (system_equation ml mo) tau (dc_view ml mo) dc_cur dc_volt dc_volt act_id (dc_out ml mo 1 1) limits)
    (OReset (Ok (mech, ms)) :: ops) x = Some x'.
Proof.
  intros k tau il u N p limits mo ml ops mech ms x HN Hk Hmo Hml Hlim Hx Hmech Hms Hops.
  assert (Hd : fin_dim (fin_new k tau il) = 1%nat) by (destruct k; [| | |contradiction]; reflexivity).
  assert (Hmot : motor_total (fun u : list R => length u = 1%nat) 1 mo /\ mo_n mo = mo_nc mo \/ mo = shunt_motor p).
  { destruct Hmo as [-> | [-> | [qq ->]]]; [left|right; reflexivity|left]; (split; [|reflexivity]); [apply dc_motors_total|apply perm_motor_total]. }
  assert (Hmot' : motor_total (fun u : list R => length u = 1%nat) 1 mo /\ mo_n mo = mo_nc mo).
  { destruct Hmot as [H | ->]; [exact H|]. split; [apply dc_motors_total|reflexivity]. }
  assert (Hload : load_total ml /\ ml_n ml = 1%nat).
  { destruct Hml as [-> | [l ->]]; (split; [|reflexivity]); [apply const_load_total|apply poly_load_total]. }
  destruct Hmot' as [Hm1 Hm2], Hload as [Hl1 Hl2].
  apply (dc_drive_total fin_if ideal_if tau ml limits (finP0 (fin_n (fin_new k tau il)) 1) (finP (fin_n (fin_new k tau il)) 1)
    (fun a => 0 <= a < fin_n (fin_new k tau il))%Z 1 (fun _ => True) (fun _ => True)).
  - apply fin_total.
  - apply ideal_total.
  - exact Hl1.
  - exact Hm1.
  - exact Hm2.
  - rewrite Hlim, Hl2. lia.
  - eapply fresh_ready; [exact Hx|exact HN| |exact I]. rewrite <- Hd. apply finP0_new.
  - congruence.
  - exact Hms.
  - rewrite Hl2. exact Hops.
Qed.
Print Assumptions dc_drives_never_raise.

(** Externally excited motor with two converters. *)
Theorem extex_drive_never_raises :
  forall k1 k2 tau il u N p limits ml ops mech ms x,
  (1 <= N)%nat -> k1 <> K6 -> k2 <> K6 -> (ml = const_load \/ exists l, ml = poly_load l) ->
  length limits = (1 + 1 + 2 + 2 + 1)%nat ->
  let cs := [fin_new k1 tau il; fin_new k2 tau il] in
  fresh cs (ideal_new u) N limits x -> length mech = 1%nat -> length ms = 2%nat ->
  Forall (ok_op (fm_contains cs) 1 2) ops ->
  exists x', run_ok (reset multi_if ideal_if limits (dc_obs ml (extex_motor p)))
    (simulate multi_if ideal_if (system_equation ml (extex_motor p)) tau (dc_view ml (extex_motor p)) dc_cur dc_volt dc_volt act_id (dc_out ml (extex_motor p) 2 1) limits)
    (OReset (Ok (mech, ms)) :: ops) x = Some x'.
Proof.
  intros k1 k2 tau il u N p limits ml ops mech ms x HN Hk1 Hk2 Hml Hlim cs Hx Hmech Hms Hops.
  set (ks := [(fin_n (fin_new k1 tau il), 1%nat); (fin_n (fin_new k2 tau il), 1%nat)]).
  assert (Hd1 : fin_dim (fin_new k1 tau il) = 1%nat) by (destruct k1; [| | |contradiction]; reflexivity).
  assert (Hd2 : fin_dim (fin_new k2 tau il) = 1%nat) by (destruct k2; [| | |contradiction]; reflexivity).
  assert (Hload : load_total ml /\ ml_n ml = 1%nat).
  { destruct Hml as [-> | [l ->]]; (split; [|reflexivity]); [apply const_load_total|apply poly_load_total]. }
  destruct Hload as [Hl1 Hl2].
  apply (dc_drive_total multi_if ideal_if tau ml limits (mulP0 ks) (mulP ks) (mul_valid ks) 2 (fun _ => True) (fun _ => True)).
  - apply (mul_total ks).
  - apply ideal_total.
  - exact Hl1.
  - apply dc_motors_total.
  - reflexivity.
  - rewrite Hlim, Hl2. reflexivity.
  - eapply fresh_ready; [exact Hx|exact HN| |exact I]. constructor; [|constructor; [|constructor]]; cbn [fst snd]; [rewrite <- Hd1|rewrite <- Hd2]; apply finP0_new.
  - congruence.
  - exact Hms.
  - rewrite Hl2. eapply Forall_impl; [|exact Hops]. intros [[[m1 m2]|]|a]; cbn; auto. intros H. unfold cs in H.
    inversion H as [|? ? ? ? B1 B2]; subst. inversion B2 as [|? ? ? ? B3 B4]; subst. inversion B4; subst. constructor; [exact B1|]. constructor; [exact B3|constructor].
Qed.
Print Assumptions extex_drive_never_raises.

(** Three phase drives with a B6 bridge: abc actions (finite) or dq actions (continuous). *)
Theorem three_phase_drives_never_raise :
  forall tau il u N limits ml ops mech ms x,
  (1 <= N)%nat -> (ml = const_load \/ exists l, ml = poly_load l) -> length limits = 14%nat ->
  fresh (fin_new K6 tau il) (ideal_new u) N limits x -> length mech = 1%nat ->
  (forall mo, ((exists m, mo = pmsm_motor m) \/ (exists m, mo = synrm_motor m)) -> length ms = 3%nat ->
    Forall (ok_op (fun a => 0 <= a < 8)%Z 1 3) ops ->
    exists x', run_ok (reset fin_if ideal_if limits (sync_obs ml mo))
      (simulate fin_if ideal_if (system_equation ml mo) tau (sync_view ml mo) snd sync_volt sync_volt act_id (sync_out ml mo) limits)
      (OReset (Ok (mech, ms)) :: ops) x = Some x') /\
  (forall m, length ms = 5%nat -> Forall (ok_op (fun a => 0 <= a < 8)%Z 1 5) ops ->
    exists x', run_ok (reset fin_if ideal_if limits (scim_obs ml (scim_motor m)))
      (simulate fin_if ideal_if (system_equation ml (scim_motor m)) tau (scim_view ml (scim_motor m)) snd scim_volt scim_volt act_id (scim_out ml (scim_motor m)) limits)
      (OReset (Ok (mech, ms)) :: ops) x = Some x').
Proof.
  intros tau il u N limits ml ops mech ms x HN Hml Hlim Hx Hmech.
  assert (Hload : load_total ml /\ ml_n ml = 1%nat).
  { destruct Hml as [-> | [l ->]]; (split; [|reflexivity]); [apply const_load_total|apply poly_load_total]. }
  destruct Hload as [Hl1 Hl2].
  assert (Hr : ready0 limits (finP0 8 3) (fun _ : ideal => True) x) by (eapply fresh_ready; [exact Hx|exact HN| |exact I]; apply (finP0_new K6)).
  split.
  - intros mo Hmo Hms Hops.
    assert (Hm : motor_total (fun u : list R => length u = 2%nat) 2 mo /\ mo_n mo = 3%nat /\ mo_nc mo = 2%nat).
    { destruct Hmo as [[m ->]|[m ->]]; (split; [|split; reflexivity]); [apply pmsm_motor_total|apply synrm_motor_total]. }
    destruct Hm as (Hm1 & Hm2 & Hm3).
    apply (sync_drive_total fin_if ideal_if tau ml limits (finP0 8 3) (finP 8 3) (fun a => 0 <= a < 8)%Z 3 (fun _ => True) (fun _ => True)
      (fin_total 8 3) ideal_total Hl1 act_id (fun a => 0 <= a < 8)%Z); try assumption; try reflexivity; try congruence.
    + intros v a Ha. exists a. auto.
    + rewrite Hlim, Hl2. reflexivity.
    + rewrite Hl2, Hm2. exact Hops.
  - intros m Hms Hops.
    apply (scim_drive_total fin_if ideal_if tau ml limits (finP0 8 3) (finP 8 3) (fun a => 0 <= a < 8)%Z 3 (fun _ => True) (fun _ => True)
      (fin_total 8 3) ideal_total Hl1 act_id (fun a => 0 <= a < 8)%Z); try assumption; try reflexivity; try congruence.
    + intros v a Ha. exists a. auto.
    + apply scim_motor_total.
    + rewrite Hlim, Hl2. reflexivity.
    + rewrite Hl2. exact Hops.
Qed.
Print Assumptions three_phase_drives_never_raise.

Theorem dq_controlled_drives_never_raise :
  forall tau il u N limits ml ops mech ms x,
  (1 <= N)%nat -> (ml = const_load \/ exists l, ml = poly_load l) -> length limits = 14%nat ->
  fresh (con_new KC6 tau il) (ideal_new u) N limits x -> length mech = 1%nat ->
  (forall mo, ((exists m, mo = pmsm_motor m) \/ (exists m, mo = synrm_motor m)) -> length ms = 3%nat ->
    Forall (ok_op (fun a => length a = 2%nat) 1 3) ops ->
    exists x', run_ok (reset con_if ideal_if limits (sync_obs ml mo))
      (simulate con_if ideal_if (system_equation ml mo) tau (sync_view ml mo) snd sync_volt sync_volt sync_act_dq (sync_out ml mo) limits)
      (OReset (Ok (mech, ms)) :: ops) x = Some x') /\
  (forall m, length ms = 5%nat -> Forall (ok_op (fun a => length a = 2%nat) 1 5) ops ->
    exists x', run_ok (reset con_if ideal_if limits (scim_obs ml (scim_motor m)))
      (simulate con_if ideal_if (system_equation ml (scim_motor m)) tau (scim_view ml (scim_motor m)) snd scim_volt scim_volt scim_act_dq (scim_out ml (scim_motor m)) limits)
      (OReset (Ok (mech, ms)) :: ops) x = Some x').
Proof.
  intros tau il u N limits ml ops mech ms x HN Hml Hlim Hx Hmech.
  assert (Hload : load_total ml /\ ml_n ml = 1%nat).
  { destruct Hml as [-> | [l ->]]; (split; [|reflexivity]); [apply const_load_total|apply poly_load_total]. }
  destruct Hload as [Hl1 Hl2].
  assert (Hr : ready0 limits (conP 3) (fun _ : ideal => True) x) by (eapply fresh_ready; [exact Hx|exact HN|reflexivity|exact I]).
  split.
  - intros mo Hmo Hms Hops.
    assert (Hm : motor_total (fun u : list R => length u = 2%nat) 2 mo /\ mo_n mo = 3%nat /\ mo_nc mo = 2%nat).
    { destruct Hmo as [[m ->]|[m ->]]; (split; [|split; reflexivity]); [apply pmsm_motor_total|apply synrm_motor_total]. }
    destruct Hm as (Hm1 & Hm2 & Hm3).
    apply (sync_drive_total con_if ideal_if tau ml limits (conP 3) (conP 3) (fun a => length a = 3%nat) 3 (fun _ => True) (fun _ => True)
      (con_total 3) ideal_total Hl1 sync_act_dq (fun a => length a = 2%nat)); try assumption; try reflexivity; try congruence.
    + intros v a Ha. apply dq_to_abc_total. exact Ha.
    + rewrite Hlim, Hl2. reflexivity.
    + rewrite Hl2, Hm2. exact Hops.
  - intros m Hms Hops.
    apply (scim_drive_total con_if ideal_if tau ml limits (conP 3) (conP 3) (fun a => length a = 3%nat) 3 (fun _ => True) (fun _ => True)
      (con_total 3) ideal_total Hl1 scim_act_dq (fun a => length a = 2%nat)); try assumption; try reflexivity; try congruence.
    + intros v a Ha. apply dq_to_abc_total. exact Ha.
    + apply scim_motor_total.
    + rewrite Hlim, Hl2. reflexivity.
    + rewrite Hl2. exact Hops.
Qed.
Print Assumptions dq_controlled_drives_never_raise.

Theorem dfim_drive_never_raises :
  forall tau il u N limits ml m ops mech ms x,
  (1 <= N)%nat -> (ml = const_load \/ exists l, ml = poly_load l) -> length limits = 24%nat ->
  let cs := [fin_new K6 tau il; fin_new K6 tau il] in
  fresh cs (ideal_new u) N limits x -> length mech = 1%nat -> length ms = 5%nat ->
  Forall (ok_op (fm_contains cs) 1 5) ops ->
  exists x', run_ok (reset multi_if ideal_if limits (dfim_obs ml (dfim_motor m) m 3 3))
    (simulate multi_if ideal_if (system_equation ml (dfim_motor m)) tau (dfim_view ml (dfim_motor m) m) dfim_cur (dfim_volt 3 3) (dfim_volt 3 3) act_id
       (dfim_out ml (dfim_motor m) m 3 3) limits)
    (OReset (Ok (mech, ms)) :: ops) x = Some x'.
Proof.
  intros tau il u N limits ml m ops mech ms x HN Hml Hlim cs Hx Hmech Hms Hops.
  set (ks := [(8%Z, 3%nat); (8%Z, 3%nat)]).
  assert (Hload : load_total ml /\ ml_n ml = 1%nat).
  { destruct Hml as [-> | [l ->]]; (split; [|reflexivity]); [apply const_load_total|apply poly_load_total]. }
  destruct Hload as [Hl1 Hl2].
  apply (dfim_drive_total multi_if ideal_if tau ml limits (mulP0 ks) (mulP ks) (mul_valid ks) 6 (fun _ => True) (fun _ => True)
    (mul_total ks) ideal_total Hl1); try assumption; try reflexivity; try congruence.
  - apply dfim_motor_total.
  - rewrite Hlim, Hl2. reflexivity.
  - eapply fresh_ready; [exact Hx|exact HN| |exact I]. constructor; [|constructor; [|constructor]]; apply (finP0_new K6).
  - rewrite Hl2. eapply Forall_impl; [|exact Hops]. intros [[[m1 m2]|]|a]; cbn; auto. intros H. unfold cs in H.
    inversion H as [|? ? ? ? B1 B2]; subst. inversion B2 as [|? ? ? ? B3 B4]; subst. inversion B4; subst. constructor; [exact B1|]. constructor; [exact B3|constructor].
Qed.
Print Assumptions dfim_drive_never_raises.
(** Non-vacuity: a permanently excited motor with a 4QC is driven for two steps and
    simulates; by [time_after_history] the clock is then at 2 tau. *)
Example dc_drive_example : forall tau il, exists x',
  let limits := repeat (Fin 1) 5 in
  let mo := perm_motor {| pe_ra := 1; pe_la := 1; pe_psi := 1 |} in
  run_ok (reset fin_if ideal_if limits (dc_obs const_load mo))
    (simulate fin_if ideal_if (system_equation const_load mo) tau (dc_view const_load mo) dc_cur dc_volt dc_volt act_id (dc_out const_load mo 1 1) limits)
    [OReset (Ok ([3], [5])); OStep 1%Z; OStep 2%Z]
    {| sy_c := fin_new K4 tau il; sy_s := ideal_new 60; sy_e := euler_new 2; sy_t := 0; sy_k := 0; sy_state := repeat 0 5 |} = Some x' /\
  sy_k x' = 2%nat /\ sy_t x' = 2 * tau.
Proof.
  intros tau il.
  pose (mo := perm_motor {| pe_ra := 1; pe_la := 1; pe_psi := 1 |}).
  pose (x := {| sy_c := fin_new K4 tau il; sy_s := ideal_new 60; sy_e := euler_new (P := list R) 2; sy_t := 0; sy_k := 0; sy_state := repeat 0 5 |}).
  destruct (dc_drives_never_raise K4 tau il 60 2 {| dc_ra := 1; dc_re := 1; dc_la := 1; dc_lep := 1; dc_le := 1 |} (repeat (Fin 1) 5) mo const_load [OStep 1%Z; OStep 2%Z] [3] [5] x)
    as (x' & Hx'); try reflexivity; try discriminate.
  - lia.
  - right; right; eexists; reflexivity.
  - left; reflexivity.
  - repeat split.
  - repeat constructor; cbn; lia.
  - exists x'. cbn zeta. split; [exact Hx'|].
    destruct (time_after_history _ _ _ _ _ _ _ _ _ _ _ _ _ _ _ _ _ _ x x' eq_refl eq_refl eq_refl Hx') as (H1 & H2 & _).
    split; [exact H1|]. rewrite H2. cbn. lra.
Qed.
