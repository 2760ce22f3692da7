(** Energy conservation of whole drives. *)
From Verif Require Import PyBase PyBaseFacts Conv_Model Conv_Spec Conv_Proofs Conv_Proofs2 Conv_Props Solver_Model Transform_Model Transform_Proofs Transform_Props Motor_Model Motor_Spec Motor_Proofs Motor_Props
  Loads_Model PhysSys_Model Power_Spec Power_Proofs.

(** ** C163 The currents shown to the converter carry the power of the drive *)
Theorem dc_drive_balance : forall p m, po_jtotal p <> 0 -> dc_la m <> 0 -> dc_le m <> 0 -> dc_la m + dc_le m <> 0 ->
  let ml := poly_load p in
  drive_balance p (extex_motor m) 2 (dc_view ml (extex_motor m)) dc_cur dc_volt (dc_energy m) (dc_loss m) /\
  drive_balance p (shunt_motor m) 1 (dc_view ml (shunt_motor m)) dc_cur dc_volt (dc_energy m) (dc_loss m) /\
  drive_balance p (series_motor m) 1 (dc_view ml (series_motor m)) dc_cur dc_volt (series_energy m) (series_loss m) /\
  (forall k, pe_la k <> 0 ->
   drive_balance p (perm_motor k) 1 (dc_view ml (perm_motor k)) dc_cur dc_volt (perm_energy k) (perm_loss k)).
Proof.
  intros p m Hj Ha He Hae ml. split; [|split; [|split]].
  - eapply drive_of_motor; [exact Hj|apply extex_power_balance; assumption|].
    intros w ms u v q Hms Hu Hv Hq. destruct ms as [|a [|b [|? ?]]]; try discriminate. destruct u as [|u0 [|u1 [|? ?]]]; try discriminate.
    injection Hv as <-. injection Hq as <-. split; [reflexivity|]. split; [reflexivity|]. unfold dc_input, power, dc_cur, ix. cbn. ring.
  - eapply drive_of_motor; [exact Hj|apply shunt_power_balance; assumption|].
    intros w ms u v q Hms Hu Hv Hq. destruct ms as [|a [|b [|? ?]]]; try discriminate. destruct u as [|u0 [|? ?]]; try discriminate.
    injection Hv as <-. injection Hq as <-. split; [reflexivity|]. split; [reflexivity|]. unfold shunt_input, power, dc_cur, ix. cbn. ring.
  - eapply drive_of_motor; [exact Hj|apply series_power_balance; assumption|].
    intros w ms u v q Hms Hu Hv Hq. destruct ms as [|a [|? ?]]; try discriminate. destruct u as [|u0 [|? ?]]; try discriminate.
    injection Hv as <-. injection Hq as <-. split; [reflexivity|]. split; [reflexivity|]. unfold series_input, power, dc_cur, ix. cbn. ring.
  - intros k Hk. eapply drive_of_motor; [exact Hj|apply perm_power_balance; assumption|].
    intros w ms u v q Hms Hu Hv Hq. destruct ms as [|a [|? ?]]; try discriminate. destruct u as [|u0 [|? ?]]; try discriminate.
    injection Hv as <-. injection Hq as <-. split; [reflexivity|]. split; [reflexivity|]. unfold series_input, power, dc_cur, ix. cbn. ring.
Qed.
Print Assumptions dc_drive_balance.

Lemma sync_drive_power p (mo : motor (list R)) w a b e u v q :
  mo_n mo = 3%nat -> mo_nc mo = 2%nat -> mo_i_in mo = sync_i_in -> length u = 3%nat ->
  sync_view (poly_load p) mo [w; a; b; e] = Ok v -> sync_volt v u = Ok q ->
  len_is 2 q /\ length (snd v) = 3%nat /\ sync_input [a; b; e] q = power u (snd v).
Proof.
  intros Hn Hc Hi Hu Hv Hq. unfold sync_view, eps_idx, cur_idx in Hv. rewrite Hn, Hc, Hi in Hv. cbn -[dq_to_abc] in Hv.
  destruct (dq_to_abc [a; b] e false) as [abc|] eqn:E; [|discriminate]. injection Hv as <-. unfold sync_volt in Hq. cbn [fst snd] in *.
  destruct (dq_power u a b e abc q Hu E Hq) as (L1 & L2 & P). split; [exact L2|]. split; [exact L1|]. rewrite P. reflexivity.
Qed.

Theorem ac_drive_balance : forall p, po_jtotal p <> 0 ->
  let ml := poly_load p in
  (forall m, pm_ld m <> 0 -> pm_lq m <> 0 ->
   drive_balance p (pmsm_motor m) 3 (sync_view ml (pmsm_motor m)) snd sync_volt (sync_energy (pm_ld m) (pm_lq m)) (sync_loss (pm_rs m))) /\
  (forall m, sr_ld m <> 0 -> sr_lq m <> 0 ->
   drive_balance p (synrm_motor m) 3 (sync_view ml (synrm_motor m)) snd sync_volt (sync_energy (sr_ld m) (sr_lq m)) (sync_loss (sr_rs m))) /\
  (forall m, ee_ld m <> 0 -> ee_lq m <> 0 -> ee_le m <> 0 -> ee_k m <> 0 -> ee_sigma m <> 0 ->
   drive_balance p (eesm_motor m) 4 (eesm_view ml (eesm_motor m)) snd eesm_volt_last (eesm_energy m) (eesm_loss m)) /\
  (forall m, im_ok m ->
   drive_balance p (scim_motor m) 3 (scim_view ml (scim_motor m)) snd scim_volt (im_energy m) (im_loss m)).
Proof.
  intros p Hj ml. split; [|split; [|split]].
  - intros m Hd Hq. eapply drive_of_motor; [exact Hj|apply pmsm_power_balance; assumption|].
    intros w ms u v q Hms Hu Hv Hqq. destruct ms as [|a [|b [|e [|? ?]]]]; try discriminate. eapply sync_drive_power; try eassumption; reflexivity.
  - intros m Hd Hq. eapply drive_of_motor; [exact Hj|apply synrm_power_balance; assumption|].
    intros w ms u v q Hms Hu Hv Hqq. destruct ms as [|a [|b [|e [|? ?]]]]; try discriminate. eapply sync_drive_power; try eassumption; reflexivity.
  - intros m H1 H2 H3 H4 H5. eapply drive_of_motor; [exact Hj|apply eesm_power_balance; assumption|].
    intros w ms u v q Hms Hu Hv Hqq. destruct ms as [|a [|b [|c [|e [|? ?]]]]]; try discriminate.
    destruct u as [|u0 [|u1 [|u2 [|u3 [|? ?]]]]]; try discriminate. unfold eesm_view in Hv. cbn -[dq_to_abc] in Hv.
    destruct (dq_to_abc [a; b] e false) as [abc|] eqn:E; [|discriminate]. injection Hv as <-. unfold eesm_volt_last in Hqq. cbn [fst snd firstn skipn] in *.
    destruct (abc_to_dq [u0; u1; u2] e false) as [d|] eqn:E2; [|discriminate]. injection Hqq as <-.
    destruct (dq_power [u0; u1; u2] a b e abc d eq_refl E E2) as (L1 & L2 & P). destruct d as [|ud [|uq [|? ?]]]; try discriminate.
    destruct abc as [|i0 [|i1 [|i2 [|? ?]]]]; try discriminate. split; [reflexivity|]. split; [reflexivity|].
    unfold eesm_input, ix in *. cbn [nth app] in *. rewrite power3 in P. unfold power. cbn. lra.
  - intros m Hm. eapply drive_of_motor with (adm := len_is 2) (input := fun x u => im_input m x [u; [0; 0]]); [exact Hj| |].
    + intros x u w t Hx Hu Hf. unfold len_is in Hu. destruct u as [|ua [|ub [|? ?]]]; try discriminate.
      apply (im_power_balance m Hm x [[ua; ub]; [0; 0]] w t Hx); [repeat eexists|exact Hf].
    + intros w ms u v q Hms Hu Hv Hqq. destruct ms as [|a [|b [|pa [|pb [|e [|? ?]]]]]]; try discriminate.
      unfold scim_view, field_angle in Hv. cbn -[alphabeta_to_abc np_arctan2] in Hv.
      destruct (alphabeta_to_abc [a; b]) as [abc|] eqn:E; [|discriminate]. injection Hv as <-. unfold scim_volt in Hqq.
      destruct (ab_power u a b abc q Hu E Hqq) as (L1 & L2 & P). split; [exact L2|]. split; [exact L1|]. cbn [snd]. rewrite P.
      unfold im_input, ix. cbn [nth]. ring.
Qed.
Print Assumptions ac_drive_balance.

(** The doubly fed machine: a rotor turned by pi, no stator voltage and a rotor
    current: the machine feeds back 3/2 (u_r, i_r) while the currents shown to the
    converter pretend that it takes the same power. *)
Theorem dfim_drive_balance_refuted : forall p m, im_ok m ->
  let ml := poly_load p in let mo := dfim_motor m in
  exists y u v q, length y = S (mo_n mo) /\ length u = 6%nat /\ dfim_view ml mo m y = Ok v /\ dfim_volt 3 3 v u = Ok q /\
    power u (dfim_cur v) = 3 / 2 /\ im_input m (tl y) q = - (3 / 2).
Proof.
  intros p m Hm ml mo. destruct (im_den m Hm) as (Hr & _). 
  exists [0; 0; 0; im_lr m; 0; PI], [0; 0; 0; 1; - (1 / 2); - (1 / 2)].
  assert (Hlr : 0 < im_lr m) by (unfold im_lr; destruct Hm as (? & ? & ? & _); lra).
  unfold dfim_view, field_angle. cbn -[alphabeta_to_abc np_arctan2 im_lr power].
  assert (E0 : np_arctan2 0 (im_lr m) = 0).
  { unfold np_arctan2. destruct (rltP 0 (im_lr m)); [|lra]. replace (0 / im_lr m) with 0 by (field; lra). apply atan_0. }
  rewrite E0. unfold alphabeta_to_abc. rewrite !t_32_val. cbn [bind].
  eexists. eexists. split; [reflexivity|]. split; [reflexivity|]. split; [reflexivity|].
  unfold dfim_volt, rotor_part, stator_part. cbn [firstn skipn]. unfold abc_to_dq, abc_to_alphabeta. rewrite !t_23_val. cbn [bind]. rewrite q_inv_val. cbn [bind].
  unfold dq_to_alphabeta. rewrite q_val. cbn [bind]. split; [reflexivity|].
  unfold el_angle. replace (0 - PI) with (- PI) by ring. rewrite cos_neg, sin_neg, cos_PI, sin_PI, cos_0, sin_0. split.
  - unfold power, dfim_cur. cbn -[im_lr]. field. lra.
  - unfold im_input, rotor_current, ix. cbn [nth tl]. unfold ix. cbn [nth Nat.add]. field. lra.
Qed.
Print Assumptions dfim_drive_balance_refuted.

(** A PMSM at 100 rad/s with currents and voltages meets the hypotheses: a straight
    line through the state obeys the equation at [t = 0]. *)
Example drive_balance_example : forall p m u, po_jtotal p <> 0 -> pm_ld m <> 0 -> pm_lq m <> 0 -> length u = 3%nat ->
  exists y v q, (forall s, length (y s) = 4%nat) /\ sync_view (poly_load p) (pmsm_motor m) (y 0) = Ok v /\
    sync_volt v u = Ok q /\ obeys 4 (system_equation (poly_load p) (pmsm_motor m)) q y 0 /\ ix (y 0) 0 = 100.
Proof.
  intros p m u Hj Hd Hq Hu.
  set (x := [100; 1; 2; 3]).
  assert (Hv : exists v, sync_view (poly_load p) (pmsm_motor m) x = Ok v) by (eexists; reflexivity). destruct Hv as [v Hv].
  destruct (abc_dq_roundtrip u (fst v) false Hu) as (q & Eq & Lq & _). destruct q as [|qd [|qq [|? ?]]]; try discriminate.
  assert (Hf : exists d, system_equation (poly_load p) (pmsm_motor m) [qd; qq] 0 x = Ok d /\ length d = 4%nat) by (eexists; split; reflexivity).
  destruct Hf as (d & Ed & Ld). exists (fun s => map2 (fun a b => a + s * b) x d), v, [qd; qq].
  assert (Hx : map2 (fun a b => a + 0 * b) x d = x).
  { unfold x. destruct d as [|d0 [|d1 [|d2 [|d3 [|? ?]]]]]; try discriminate. cbn. rewrite !Rmult_0_l, !Rplus_0_r. reflexivity. }
  split. { intros s. unfold x. destruct d as [|d0 [|d1 [|d2 [|d3 [|? ?]]]]]; try discriminate. reflexivity. }
  rewrite Hx. split; [exact Hv|]. split; [exact Eq|]. split; [|reflexivity].
  exists d. rewrite Hx. split; [exact Ed|]. split; [exact Ld|]. intros k Hk. unfold x.
  destruct d as [|d0 [|d1 [|d2 [|d3 [|? ?]]]]]; try discriminate.
  destruct k as [|[|[|[|k]]]]; [..|lia]; cbn; apply deriv_affine; intros s; ring.
Qed.

(** ** C164 From the supply to the shaft *)
(** The phase currents of the machines without neutral wire sum to zero. *)
Theorem phase_currents_sum_to_zero : forall p,
  (forall m y v, length y = 4%nat -> sync_view (poly_load p) (pmsm_motor m) y = Ok v -> rsum (snd v) = 0) /\
  (forall m y v, length y = 4%nat -> sync_view (poly_load p) (synrm_motor m) y = Ok v -> rsum (snd v) = 0) /\
  (forall m y v, length y = 6%nat -> scim_view (poly_load p) (scim_motor m) y = Ok v -> rsum (snd v) = 0).
Proof.
  intros p. split; [|split]; intros m y v Hy Hv.
  1,2: destruct y as [|w [|a [|b [|e [|? ?]]]]]; try discriminate; unfold sync_view in Hv; cbn -[dq_to_abc] in Hv;
    destruct (dq_abc_roundtrip [a; b] e false eq_refl) as (abc & E1 & L & Z & _); rewrite E1 in Hv; injection Hv as <-; exact Z.
  destruct y as [|w [|a [|b [|pa [|pb [|e [|? ?]]]]]]]; try discriminate. unfold scim_view, field_angle in Hv. cbn -[alphabeta_to_abc np_arctan2] in Hv.
  unfold alphabeta_to_abc in Hv. rewrite t_32_val in Hv. injection Hv as <-. cbn. field.
Qed.
Print Assumptions phase_currents_sum_to_zero.

Lemma scale_power us u i : us * power u i = power (scale_voltages u [us]) i.
Proof.
  unfold power, scale_voltages. revert i. induction u as [|x u IH]; intros [|y i]; cbn; try ring. rewrite <- IH. cbn. ring.
Qed.
Lemma scale_length us u : length (scale_voltages u [us]) = length u.
Proof. unfold scale_voltages. induction u as [|x u IH]; [reflexivity|]. cbn in *. now rewrite IH. Qed.

(** Continuous converters without interlocking, after any history; the supply voltage
    is [us].  The balance is the one of the drive with the supply's power in the place
    of the power of the phases. *)
Theorem supply_to_shaft_continuous :
  forall U V p (mo : motor U) nu (view : list R -> res V) cur volt energy loss k tau ops us y t t' v q conv,
  drive_balance p mo nu view cur volt energy loss ->
  let c := con_run (con_new k tau 0) ops in
  con_dim c = nu -> (forall s, length (y s) = S (mo_n mo)) -> view (y t) = Ok v ->
  (k = KC1 -> forall x, In x (cur v) -> 0 <= x) -> (k = KC6 -> rsum (cur v) = 0) ->
  con_convert c (cur v) t' = Ok conv -> length conv = nu -> volt v (scale_voltages conv [us]) = Ok q ->
  obeys (S (mo_n mo)) (system_equation (poly_load p) mo) q y t ->
  exists isup, con_i_sup c (cur v) = Ok isup /\
  derivable_pt_lim (fun s => energy (tl (y s)) + po_jtotal p / 2 * (ix (y s) 0 * ix (y s) 0)) t
    (us * isup - loss (tl (y t)) - static_load p (ix (y t) 0) * ix (y t) 0).
Proof.
  intros U V p mo nu view cur volt energy loss k tau ops us y t t' v q conv HD c Hn Hy Hv H1 H6 Hc Hl Hq Ho.
  destruct (HD y (scale_voltages conv [us]) t v q Hy) as [Lc HE]; [rewrite scale_length; exact Hl|exact Hv|exact Hq|exact Ho|].
  exists (power conv (cur v)). split; [|rewrite scale_power; exact HE].
  apply (power_balance_continuous k tau ops (cur v) t' conv Hc); [fold c; congruence|exact H1|exact H6].
Qed.
Print Assumptions supply_to_shaft_continuous.

(** Finite converters, after any history that contains a valid action. *)
Theorem supply_to_shaft_finite :
  forall U V p (mo : motor U) nu (view : list R -> res V) cur volt energy loss k tau il before a t0 after us y t t' v,
  drive_balance p mo nu view cur volt energy loss ->
  let c0 := fin_run (fin_new k tau il) before in
  let c := fin_run (fst (fin_set_action c0 a t0)) after in
  (0 <= a < fin_n c0)%Z -> fin_dim c0 = nu -> (forall s, length (y s) = S (mo_n mo)) -> view (y t) = Ok v -> length (cur v) = nu ->
  (k = K1 -> forall x, In x (cur v) -> 0 <= x) -> (k = K6 -> rsum (cur v) = 0) ->
  exists conv isup, snd (fin_convert c (cur v) t') = Ok conv /\ fin_i_sup (fst (fin_convert c (cur v) t')) (cur v) = Ok isup /\
  forall q, length conv = nu -> volt v (scale_voltages conv [us]) = Ok q -> obeys (S (mo_n mo)) (system_equation (poly_load p) mo) q y t ->
  derivable_pt_lim (fun s => energy (tl (y s)) + po_jtotal p / 2 * (ix (y s) 0 * ix (y s) 0)) t
    (us * isup - loss (tl (y t)) - static_load p (ix (y t) 0) * ix (y t) 0).
Proof.
  intros U V p mo nu view cur volt energy loss k tau il before a t0 after us y t t' v HD c0 c Ha Hn Hy Hv Hlc H1 H6.
  destruct (power_balance_finite k tau il before a t0 after (cur v) t' Ha ltac:(fold c0; congruence) H1 H6) as (u & E1 & E2).
  fold c0 in E1, E2. fold c in E1, E2. exists u, (power u (cur v)). split; [exact E1|]. split; [exact E2|].
  intros q Hl Hq Ho. destruct (HD y (scale_voltages u [us]) t v q Hy) as [_ HE]; [rewrite scale_length; exact Hl|exact Hv|exact Hq|exact Ho|].
  rewrite scale_power. exact HE.
Qed.
Print Assumptions supply_to_shaft_finite.

(** A continuous B6 bridge with duty cycles 1, 1/2 and 0 on a supply of 400 V. *)
Example supply_to_shaft_example : forall p m i, po_jtotal p <> 0 -> pm_ld m <> 0 -> pm_lq m <> 0 -> length i = 3%nat ->
  let c := con_run (con_new KC6 1 0) [CopSet [1; 1 / 2; 0] 0] in
  con_dim c = 3%nat /\ exists conv, con_convert c i 0 = Ok conv /\ length conv = 3%nat /\
  exists y v q, (forall s, length (y s) = 4%nat) /\ sync_view (poly_load p) (pmsm_motor m) (y 0) = Ok v /\
    sync_volt v (scale_voltages conv [400]) = Ok q /\ obeys 4 (system_equation (poly_load p) (pmsm_motor m)) q y 0 /\ ix (y 0) 0 = 100.
Proof.
  intros p m i Hj Hd Hq Hi c. split; [reflexivity|]. destruct i as [|i0 [|i1 [|i2 [|? ?]]]]; try discriminate.
  eexists. split; [reflexivity|]. split; [reflexivity|]. now apply drive_balance_example.
Qed.

(** Multi converters (externally excited motors): the same for several continuous
    converters side by side, each with its own history. *)
Fixpoint parts_ok (ks : list (con_kind * R * list cop)) (i : list R) : Prop :=
  match ks with
  | [] => i = []
  | (k, tau, ops) :: ks' =>
      let d := con_dim (con_new k tau 0) in let i0 := firstn d i in
      (d <= length i)%nat /\ (k = KC1 -> forall x, In x i0 -> 0 <= x) /\ (k = KC6 -> rsum i0 = 0) /\ parts_ok ks' (skipn d i)
  end.
Definition parts (ks : list (con_kind * R * list cop)) : list con := map (fun x => let '(k, tau, ops) := x in con_run (con_new k tau 0) ops) ks.

Lemma power_app u u' i i' : length u = length i -> power (u ++ u') (i ++ i') = power u i + power u' i'.
Proof.
  unfold power. revert i. induction u as [|x u IH]; intros [|y i] H; try discriminate; cbn; [ring|]. injection H as H. rewrite (IH i H). ring.
Qed.
Lemma con_convert_length c i t u : con_convert c i t = Ok u -> length i = con_dim c -> length u = con_dim c.
Proof.
  destruct c; cbn; intros E H; [destruct i as [|? [|? ?]]..|]; try discriminate; cbn in E; try (injection E as <-; reflexivity).
  destruct i as [|? [|? [|? [|? ?]]]]; try discriminate. injection E as <-. reflexivity.
Qed.
Lemma con_dim_run k tau ops : con_dim (con_run (con_new k tau 0) ops) = con_dim (con_new k tau 0).
Proof. pose proof (con_run_kind ops (con_new k tau 0)) as Hk. destruct k, (con_run _ ops); cbn in *; tauto || reflexivity. Qed.

Theorem supply_to_shaft_multi :
  forall U V p (mo : motor U) nu (view : list R -> res V) cur volt energy loss ks us y t t' v q conv,
  drive_balance p mo nu view cur volt energy loss ->
  (forall s, length (y s) = S (mo_n mo)) -> view (y t) = Ok v -> parts_ok ks (cur v) ->
  cm_convert (parts ks) (cur v) t' = Ok conv -> length conv = nu -> volt v (scale_voltages conv [us]) = Ok q ->
  obeys (S (mo_n mo)) (system_equation (poly_load p) mo) q y t ->
  exists isup, cm_i_sup (parts ks) (cur v) = Ok isup /\
  derivable_pt_lim (fun s => energy (tl (y s)) + po_jtotal p / 2 * (ix (y s) 0 * ix (y s) 0)) t
    (us * isup - loss (tl (y t)) - static_load p (ix (y t) 0) * ix (y t) 0).
Proof.
  intros U V p mo nu view cur volt energy loss ks us y t t' v q conv HD Hy Hv HP Hc Hl Hq Ho.
  destruct (HD y (scale_voltages conv [us]) t v q Hy) as [Lc HE]; [rewrite scale_length; exact Hl|exact Hv|exact Hq|exact Ho|].
  exists (power conv (cur v)). split; [|rewrite scale_power; exact HE]. clear - HP Hc.
  revert conv Hc HP. generalize (cur v). clear. induction ks as [|[[k tau] ops] ks IH]; intros i conv Hc HP.
  - cbn in HP. subst i. injection Hc as <-. reflexivity.
  - cbn [parts_ok] in HP. destruct HP as (Hd & H1 & H6 & HP). cbn [parts map] in Hc |- *. cbn [cm_convert cm_i_sup] in Hc |- *.
    rewrite con_dim_run in Hc |- *. set (d := con_dim (con_new k tau 0)) in *.
    destruct (con_convert _ (firstn d i) t') as [u|] eqn:Eu; cbn [bind] in Hc; [|discriminate].
    destruct (cm_convert _ (skipn d i) t') as [u'|] eqn:Eu'; cbn [bind] in Hc; [|discriminate]. injection Hc as <-.
    assert (Ld : length (firstn d i) = d) by (rewrite firstn_length; lia).
    rewrite (power_balance_continuous k tau ops (firstn d i) t' u Eu); [|rewrite con_dim_run; exact Ld|exact H1|exact H6]. cbn [bind].
    fold (parts ks) in *. rewrite (IH _ _ Eu' HP). cbn [bind]. f_equal.
    rewrite <- power_app, firstn_skipn; [reflexivity|]. rewrite Ld. apply con_convert_length in Eu; [|rewrite con_dim_run; exact Ld]. rewrite Eu, con_dim_run. reflexivity.
Qed.
Print Assumptions supply_to_shaft_multi.

(** B6 bridge and four-quadrant converter of an EESM. *)
Example supply_to_shaft_multi_example :
  let ks := [(KC6, 1, [CopSet [1; 1 / 2; 0] 0]); (KC4, 1, [CopSet [1 / 2] 0])] in
  parts_ok ks [1; 2; -3; 5] /\ exists conv, cm_convert (parts ks) [1; 2; -3; 5] 0 = Ok conv /\ length conv = 4%nat.
Proof.
  cbn [parts_ok]. split.
  - split; [cbn; lia|]. split; [discriminate|]. split; [intros _; cbn; lra|]. split; [cbn; lia|]. split; [discriminate|]. split; [discriminate|]. reflexivity.
  - eexists. split; reflexivity.
Qed.
