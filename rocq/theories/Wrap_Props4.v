(** Theorems about the dq action wrapper (dq_to_abc_action_processor.py). *)
From Verif Require Import PyBase PyBaseFacts PyDict PyDictFacts Conv_Model Transform_Model Transform_Proofs Transform_Props PhysSys_Model Wrap_Model Wrap_Spec Wrap_Proofs Wrap_Proofs2 Wrap_Proofs4 Wrap_Props Wrap_Props2.
Local Open Scope string_scope. Local Open Scope list_scope. Local Open Scope R_scope.

(** ** C61 dq actions *)
(** Physical values of an observation. *)
Definition physical (i : info) (o : list R) : list R := map2 Rmult o (i_limits i).
Definition periods_ahead (i : info) : R := 1 / 2 + match i_dead i with Some d => INR d | None => 0 end.
(** [u] is the action for [a] after the observation [o]: it is [a] seen at the observed
    angle advanced by half a period and the dead time at the observed speed. *)
Definition turned_after (k : dqkind) (i : info) (p : R) (o : list R) (a u : action) : Prop :=
  exists v abc e w fx, a = ABox v /\ u = ABox abc /\ shown (i_names i) (physical i o) (dq_angle_name k) = Some e /\ shown (i_names i) (physical i o) "omega" = Some w /\
    (match k with DqDfim _ => shown (i_names i) (physical i o) "psi_angle" = Some fx | _ => True end) /\ turned k (e + periods_ahead i * i_tau i * w * p) fx v abc.

(** An episode with dq actions is an episode of the inner system with the transformed
    actions; the j-th is transformed with the j-th observation (0: the reset). *)
Theorem dq_episode :
  forall S n k (m : machine S) D p x acts, aligned n (m_info m) -> sized n m -> dq_machine k m = Ok D -> k <> DqDfim true -> dict_get "p" (mi_par (i_motor (m_info m))) = Some p ->
  (forall a, In a acts -> exists v, a = ABox v /\ length v = action_size k) ->
  exists us, length us = length acts /\ snd (episode D acts x) = snd (episode m us (dq_in x)) /\ dq_in (fst (episode D acts x)) = fst (episode m us (dq_in x)) /\
    forall j o a u, nth_error (fst (snd (episode D acts x))) j = Some o -> nth_error acts j = Some a -> nth_error us j = Some u -> turned_after k (m_info m) p o a u.
Proof.
  intros S n k m D p x acts Ha Hs HD Hk Hp Hacts. unfold dq_machine in HD. destruct (dq_info k (m_info m)) as [[pr i']|] eqn:E; [|discriminate]. cbn [bind fst snd] in HD. apply Ok_inj in HD. subst D.
  destruct (dq_info_inv k m pr i' E) as (_ & _ & _ & Hp' & Hadv & _). rewrite Hp in Hp'. injection Hp' as ->.
  unfold episode. cbn [m_reset]. unfold dq_reset. destruct (m_reset m (dq_in x)) as [s [o|er]] eqn:Er; cbn [bind].
  - destruct (np_mul_ok n m o Ha (proj1 Hs _ _ _ Er)) as [Emul Lo]. rewrite Emul. cbn [bind].
    destruct (sims_dq n k m Ha Hs pr i' E Hk acts o {| dq_state := Some (phys m o); dq_in := s |} (proj1 Hs _ _ _ Er) eq_refl Hacts) as (us & Lu & I1 & I2 & I3). cbn zeta in *. cbn [dq_in] in I1, I2. exists us. split; [exact Lu|].
    destruct (sims _ acts _) as [y out]. destruct (sims m us s) as [y' out']. cbn [fst snd] in *. subst out'. split; [reflexivity|]. split; [exact I2|]. intros j o1 a u H1 H2 H3. cbn [see fst] in H1. destruct (I3 j o1 a u H1 H2 H3) as (v & abc & e & w & fx & E1 & E2 & E3 & E4 & E5 & E6).
    exists v, abc, e, w, fx. unfold periods_ahead. rewrite <- Hadv. auto 10.
  - exists acts. split; [reflexivity|]. cbn [fst snd]. split; [reflexivity|]. split; [reflexivity|]. intros [|j] o a u H1; discriminate.
Qed.
Print Assumptions dq_episode.
Definition rotating (o : list R) (dt : option nat) : machine unit := still ["omega"; "epsilon"; "psi_angle"] [100; PI; PI] o (SBox 3) dt.
Example dq_episode_example : aligned 3 (m_info (rotating [1/2; 1/3; 0] None)) /\ sized 3 (rotating [1/2; 1/3; 0] None) /\ (exists D, dq_machine (DqClassic "epsilon") (rotating [1/2; 1/3; 0] None) = Ok D) /\
  (exists D, dq_machine (DqDfim false) (rotating [1/2; 1/3; 0] None) = Ok D) /\ (exists D, dq_machine DqEesm (rotating [1/2; 1/3; 0] None) = Ok D) /\ dict_get "p" (mi_par (i_motor (m_info (rotating [1/2; 1/3; 0] None)))) = Some 2.
Proof.
  split; [apply (still_aligned ["omega"; "epsilon"; "psi_angle"]); [nodup|reflexivity]|]. split; [apply (still_sized ["omega"; "epsilon"; "psi_angle"]); reflexivity|].
  split; [eexists; reflexivity|]. split; [eexists; reflexivity|]. split; [eexists; reflexivity|reflexivity].
Qed.

(** With the dead time wrapper inside: the voltages of the d first steps are the default
    ones, the later ones are the submitted dq actions at the angle of the middle of the period
    in which they are applied, provided the angle moves with constant speed. *)
Lemma cos_sin_turns x (c : Z) : cos (x + 2 * IZR c * PI) = cos x /\ sin (x + 2 * IZR c * PI) = sin x.
Proof.
  destruct (Z.le_gt_cases 0 c) as [Hc|Hc].
  - rewrite <- (Z2Nat.id c Hc), <- INR_IZR_INZ. split; [apply cos_period|apply sin_period].
  - set (k := Z.to_nat (- c)). assert (Hk : IZR c = - INR k) by (unfold k; rewrite INR_IZR_INZ, Z2Nat.id by lia; rewrite opp_IZR; ring). rewrite Hk.
    pose proof (cos_period (x + 2 * - INR k * PI) k) as H1. pose proof (sin_period (x + 2 * - INR k * PI) k) as H2. replace (x + 2 * - INR k * PI + 2 * INR k * PI) with x in H1, H2 by ring. auto.
Qed.
Lemma abc_to_dq_turns abc x c : length abc = 3%nat -> abc_to_dq abc (x + 2 * IZR c * PI) false = abc_to_dq abc x false.
Proof.
  intros L. destruct abc as [|a [|b [|d [|f abc]]]]; try discriminate L. unfold abc_to_dq, el_angle. rewrite t_23_val. cbn [bind]. rewrite !q_inv_val. destruct (cos_sin_turns x c) as [-> ->]. reflexivity.
Qed.
Theorem dq_applied_mid_period :
  forall S n k d a0 (m : machine S) M D p x acts e0 w, aligned n (m_info m) -> sized n m -> dead_default d m = Ok M -> default_action (i_act (m_info m)) = Ok a0 -> dq_machine k M = Ok D -> (forall c, k <> DqDfim c) ->
  dict_get "p" (mi_par (i_motor (m_info m))) = Some p -> (forall a, In a acts -> exists v, a = ABox v /\ length v = action_size k) ->
  (forall j o, nth_error (fst (snd (episode D acts x))) j = Some o -> exists c : Z,
     shown (i_names (m_info m)) (physical (m_info m) o) (dq_angle_name k) = Some (e0 + INR j * (i_tau (m_info m) * w * p) + 2 * IZR c * PI) /\ shown (i_names (m_info m)) (physical (m_info m) o) "omega" = Some w) ->
  exists us, length us = length acts /\ snd (episode D acts x) = snd (episode m us (dd_in (dq_in x))) /\
    forall j u, (j < length (fst (snd (episode D acts x))))%nat -> nth_error us j = Some u ->
      (Z.of_nat j < d -> u = a0)%Z /\ (d <= Z.of_nat j -> exists v abc, nth_error acts (j - Z.to_nat d) = Some (ABox v) /\ u = ABox abc /\ turned k (e0 + (INR j + 1 / 2) * (i_tau (m_info m) * w * p)) 0 v abc)%Z.
Proof.
  intros S n k d a0 m M D p x acts e0 w Ha Hs HM Ha0 HD Hk Hp Hacts Hobs. destruct (dead_default_inv _ _ _ HM) as (Hd & a1 & Ha1 & EM).
  assert (HaM : aligned n (m_info M)). { subst M. destruct Ha as (L1 & L2 & L3 & L4 & L5 & Hn & _). unfold aligned. cbn. do 6 (split; [assumption|]). intros k' j. apply positions_spec, Hn. }
  assert (HsM : sized n M).
  { subst M. split; cbn.
    - intros s s' o E. unfold dead_reset in E. destruct (m_reset m (dd_in s)) as [s1 [o1|e1]] eqn:Em; [|discriminate]. injection E as _ <-. exact (proj1 Hs _ _ _ Em).
    - intros a s s' o E. unfold dead_sim in E. destruct (pop_right (dd_deque s)) as [[q act]|]; [|discriminate]. destruct (m_sim m act (dd_in s)) as [s1 r] eqn:Em. apply pair_equal_spec in E. destruct E as [_ ->]. exact (proj2 Hs _ _ _ _ Em). }
  assert (HpM : dict_get "p" (mi_par (i_motor (m_info M))) = Some p) by (subst M; exact Hp).
  destruct (dq_episode _ n k M D p x acts HaM HsM HD ltac:(apply Hk) HpM Hacts) as (us1 & Lu & E1 & E2 & E3).
  destruct (dead_default_episode d m M a0 us1 (dq_in x) HM Ha0) as [F1 F2]. exists (after (repeat a0 (Z.to_nat d)) us1). split; [rewrite after_length; exact Lu|]. split; [rewrite E1; exact F2|].
  intros j u Hj Hu. assert (Hjl : (j < length us1)%nat) by (rewrite <- (after_length (repeat a0 (Z.to_nat d)) us1); apply nth_error_Some; congruence).
  rewrite after_nth in Hu by exact Hjl. destruct (Nat.ltb_spec j (Z.to_nat d)) as [Hlt|Hge]; split; intros Hdj; try lia; [congruence|].
  set (i := (j - Z.to_nat d)%nat) in *. destruct (nth_error (fst (snd (episode D acts x))) i) as [o|] eqn:Eo; [|apply nth_error_None in Eo; lia]. destruct (nth_error acts i) as [a|] eqn:Eacts; [|apply nth_error_None in Eacts; lia].
  destruct (E3 i o a u Eo Eacts Hu) as (v & abc & e & w' & fx & -> & -> & Se & Sw & _ & T). destruct (Hobs i o Eo) as (c & So & Sow).
  assert (Ein : i_names (m_info M) = i_names (m_info m) /\ physical (m_info M) o = physical (m_info m) o /\ i_tau (m_info M) = i_tau (m_info m) /\ periods_ahead (m_info M) = 1 / 2 + INR (Z.to_nat d)) by (subst M; repeat split).
  destruct Ein as (I1 & I2 & I3 & I4). rewrite I1, I2 in Se, Sw. rewrite I3, I4 in T. rewrite So in Se. rewrite Sow in Sw. injection Se as <-. injection Sw as <-.
  exists v, abc. split; [reflexivity|]. split; [reflexivity|].
  replace (e0 + INR i * (i_tau (m_info m) * w * p) + 2 * IZR c * PI + (1 / 2 + INR (Z.to_nat d)) * i_tau (m_info m) * w * p) with ((e0 + (INR j + 1 / 2) * (i_tau (m_info m) * w * p)) + 2 * IZR c * PI) in T
    by (unfold i; rewrite minus_INR by lia; ring).
  unfold turned in T |- *. destruct T as [T1 T2]. assert (L3 : length (firstn 3 abc) = 3%nat). { destruct k as [ang|ctor|]; [rewrite firstn_length; lia|exfalso; eapply Hk; reflexivity|rewrite firstn_length; lia]. }
  rewrite abc_to_dq_turns in T1 by exact L3. split; [exact T1|]. destruct k as [ang|ctor|]; [exact T2|exfalso; eapply Hk; reflexivity|exact T2].
Qed.
Print Assumptions dq_applied_mid_period.
(** A rotor that turns with 50 rad/s: 10 electrical rad per period. *)
Definition spinning : machine nat :=
  {| m_info := m_info (rotating [] None); m_reset := fun _ => (O, Ok [1/2; 0; 0]); m_sim := fun _ s => (Datatypes.S s, Ok [1/2; INR (Datatypes.S s) * (10 / PI); 0]) |}.
Example dq_applied_mid_period_example :
  aligned 3 (m_info spinning) /\ sized 3 spinning /\ exists M D, dead_default 1 spinning = Ok M /\ dq_machine (DqClassic "epsilon") M = Ok D /\
  let x := {| dq_state := None; dq_in := {| dd_deque := []; dd_src := tt; dd_in := O |} |} in
  forall j o, nth_error (fst (snd (episode D [ABox [1; 0]; ABox [0; 1]] x))) j = Some o -> exists c : Z,
     shown (i_names (m_info spinning)) (physical (m_info spinning) o) "epsilon" = Some (0 + INR j * (i_tau (m_info spinning) * 50 * 2) + 2 * IZR c * PI) /\ shown (i_names (m_info spinning)) (physical (m_info spinning) o) "omega" = Some 50.
Proof.
  split; [apply (still_aligned ["omega"; "epsilon"; "psi_angle"]); [nodup|reflexivity]|]. split; [split; cbn; [intros s s' o E|intros a s s' o E]; injection E as _ <-; reflexivity|]. do 2 eexists. split; [reflexivity|]. split; [reflexivity|].
  pose proof PI_RGT_0 as Hpi. intros x [|[|[|j]]] o E; [injection E as <-|injection E as <-|injection E as <-|destruct j; discriminate]; exists 0%Z; cbn [shown str_index physical map2 m_info spinning rotating still i_names i_limits i_tau String.eqb Ascii.eqb Bool.eqb bind nth_error INR]; split; f_equal; field; lra.
Qed.

(** Stacked dead times: the delay is their sum, but only the outer one is advanced for. *)
Theorem dq_stacked_dead_times_refuted :
  forall S k d1 d2 (m : machine S) M2 M1 p i', dead_default d2 m = Ok M2 -> dead_default d1 M2 = Ok M1 -> dq_info k (m_info M1) = Ok (p, i') ->
  dp_adv p = 1 / 2 + INR (Z.to_nat d1) /\ dp_adv p <> 1 / 2 + INR (Z.to_nat (d1 + d2)).
Proof.
  intros S k d1 d2 m M2 M1 p i' H2 H1 H. destruct (dq_info_inv k M1 p i' H) as (_ & _ & _ & _ & -> & _). destruct (dead_default_inv _ _ _ H2) as (P2 & _). destruct (dead_default_inv _ _ _ H1) as (P1 & a1 & _ & ->). cbn. split; [reflexivity|].
  intros E. assert (E' : INR (Z.to_nat d1) = INR (Z.to_nat (d1 + d2))) by lra. apply INR_eq in E'. lia.
Qed.
Print Assumptions dq_stacked_dead_times_refuted.
Example dq_stacked_dead_times_example : exists M2 M1 r, dead_default 2 spinning = Ok M2 /\ dead_default 1 M2 = Ok M1 /\ dq_info (DqClassic "epsilon") (m_info M1) = Ok r.
Proof. do 3 eexists. split; [reflexivity|]. split; reflexivity. Qed.

(** Doubly fed motors: the stator pair is turned with the rotor angle, while the system shows
    and applies stator voltages in the frame of the rotor flux; seen there, the action is
    rotated by the difference of the two angles. *)
Theorem dfim_stator_frame_refuted :
  (forall e fx v u ef, turned (DqDfim false) e fx v u -> length v = 4%nat -> abc_to_dq (firstn 3 u) ef false = q (firstn 2 v) (e - ef)) /\
  exists e ef v u, turned (DqDfim false) e 0 v u /\ abc_to_dq (firstn 3 u) ef false <> Ok (firstn 2 v).
Proof.
  assert (K : forall e fx v u ef, turned (DqDfim false) e fx v u -> length v = 4%nat -> abc_to_dq (firstn 3 u) ef false = q (firstn 2 v) (e - ef)).
  { intros e fx v u ef [T [L _]] Lv. destruct u as [|u1 [|u2 [|u3 u]]]; try discriminate L. destruct v as [|v1 [|v2 v]]; try discriminate Lv. cbn [firstn] in *. unfold abc_to_dq, el_angle in *. rewrite t_23_val in *. cbn [bind] in *. rewrite q_inv_val in *. rewrite q_val.
    set (x := 2 / 3 * (u1 - u2 / 2 - u3 / 2)) in *. set (y := sqrt 3 / 3 * (u2 - u3)) in *. apply Ok_inj in T. injection T as T1 T2. subst v1 v2. rewrite cos_minus, sin_minus.
    pose proof (sin2_cos2 e) as Hsc. unfold Rsqr in Hsc. do 2 f_equal; [|f_equal].
    - replace (cos ef * x + sin ef * y) with ((sin e * sin e + cos e * cos e) * (cos ef * x + sin ef * y)) by (rewrite Hsc; ring). ring.
    - replace (cos ef * y - sin ef * x) with ((sin e * sin e + cos e * cos e) * (cos ef * y - sin ef * x)) by (rewrite Hsc; ring). ring. }
  split; [exact K|]. destruct (transformation_spec [1; 0] 0 eq_refl) as (u & _ & L & E). destruct (transformation_spec [0; 0] (0 - 0) eq_refl) as (u' & _ & L' & E').
  exists 0, (PI / 2), [1; 0; 0; 0], (u ++ u'). assert (T : turned (DqDfim false) 0 0 [1; 0; 0; 0] (u ++ u')).
  { split; [rewrite <- L, firstn_app, Nat.sub_diag, firstn_all, app_nil_r; exact E|]. split; [rewrite app_length; lia|]. rewrite <- L, skipn_app, Nat.sub_diag, skipn_all. exact E'. }
  split; [exact T|]. rewrite (K _ _ _ _ _ T eq_refl). cbn [firstn]. rewrite q_val. replace (0 - PI / 2) with (- (PI / 2)) by ring. rewrite cos_neg, sin_neg, cos_PI2, sin_PI2. intros H. apply Ok_inj in H. injection H as H1 H2. lra.
Qed.
Print Assumptions dfim_stator_frame_refuted.

(** A doubly fed wrapper that got its system in the constructor forgets the index of the
    flux angle: no dq action can be simulated. *)
Theorem dfim_constructor_refuted :
  forall S n (m : machine S) D x y v, aligned n (m_info m) -> dq_machine (DqDfim true) m = Ok D -> dq_state x = Some y -> length y = n -> length v = 4%nat ->
  m_sim D (ABox v) x = (x, Err ValueError).
Proof.
  intros S n m D x y v Ha HD Hx Ly Lv. unfold dq_machine in HD. destruct (dq_info (DqDfim true) (m_info m)) as [[pr i']|] eqn:E; [|discriminate]. cbn [bind fst snd] in HD. apply Ok_inj in HD. subst D.
  destruct (dq_info_inv _ m pr i' E) as (_ & Ho & Hang & _ & _ & Hf). destruct Ha as (L1 & _ & _ & _ & _ & Hn & _). cbn [m_sim]. unfold dq_sim. rewrite Hx. cbn [bind]. unfold abc_action, advance_angle.
  destruct (item_ok y (dp_angle pr)) as [e ->]; [rewrite Ly, <- L1; apply nth_error_Some; congruence|]. destruct (item_ok y (dp_omega pr)) as [w ->]; [rewrite Ly, <- L1; apply nth_error_Some; congruence|]. cbn [bind].
  destruct (transformation_spec (firstn 2 v) (e + dp_adv pr * i_tau (m_info m) * w * dp_p pr)) as (u & -> & _); [rewrite firstn_length; lia|]. cbn [bind]. rewrite Hf. reflexivity.
Qed.
Print Assumptions dfim_constructor_refuted.
Example dfim_constructor_example : exists D, dq_machine (DqDfim true) (rotating [1/2; 1/3; 0] None) = Ok D.
Proof. eexists. reflexivity. Qed.

(** Which angle each motor type uses, and that there is a wrapper for no other type. *)
Theorem dq_angle_by_motor :
  forall t, match dq_make t with
  | Ok k => (t = "PMSM" /\ k = DqClassic "epsilon") \/ (t = "SCIM" /\ k = DqClassic "psi_angle") \/ (t = "DFIM" /\ k = DqDfim false) \/ (t = "EESM" /\ k = DqEesm)
  | Err e => e = AssertionError /\ ~ In t ["PMSM"; "SCIM"; "DFIM"; "EESM"]
  end.
Proof.
  intros t. unfold dq_make. destruct (String.eqb_spec t "PMSM") as [->|N1]; [auto|]. destruct (String.eqb_spec t "SCIM") as [->|N2]; [auto|]. destruct (String.eqb_spec t "DFIM") as [->|N3]; [auto|]. destruct (String.eqb_spec t "EESM") as [->|N4]; [auto 6|]. split; [reflexivity|]. cbn. intuition congruence.
Qed.
Print Assumptions dq_angle_by_motor.
Example dq_angle_by_motor_example : dq_make "SCIM" = Ok (DqClassic "psi_angle") /\ dq_angle_name (DqClassic "psi_angle") = "psi_angle".
Proof. split; reflexivity. Qed.

(** Wrong use: no three phase motor, no such angle, a step before the first reset; and there
    is no wrapper for a synchronous reluctance motor. *)
Theorem dq_refuses :
  (forall S k (m : machine S), mi_three (i_motor (m_info m)) = false -> dq_machine k m = Err AssertionError) /\
  (forall S k (m : machine S), mi_three (i_motor (m_info m)) = true -> In "omega" (i_names (m_info m)) -> ~ In (dq_angle_name k) (i_names (m_info m)) -> dq_machine k m = Err ValueError) /\
  (forall S k (m : machine S) D a x, dq_machine k m = Ok D -> dq_state x = None -> m_sim D a x = (x, Err TypeError)) /\
  dq_make "SynRM" = Err AssertionError.
Proof.
  split; [|split; [|split]].
  - intros S k m H. unfold dq_machine, dq_info. rewrite H. reflexivity.
  - intros S k m H Ho Hi. unfold dq_machine, dq_info. rewrite H. cbn [py_assert bind]. destruct (str_index_in _ _ Ho) as [i ->]. cbn [bind]. destruct (str_index (dq_angle_name k) (i_names (m_info m))) as [j|e] eqn:E; [exfalso; apply Hi; eapply nth_error_In, str_index_ok, E|]. cbn [bind]. destruct (str_index_err _ _ _ E) as [-> _]. reflexivity.
  - intros S k m D a x H Hx. unfold dq_machine in H. destruct (dq_info k (m_info m)) as [pi|]; [|discriminate]. apply Ok_inj in H. subst D. cbn [m_sim]. unfold dq_sim. rewrite Hx. reflexivity.
  - reflexivity.
Qed.
Print Assumptions dq_refuses.
