(** Properties C34, C35, C82, C83: motor equations. *)
From Verif Require Import PyBase PyBaseFacts Transform_Model Transform_Proofs Motor_Model Motor_Spec Motor_Proofs.

(** ** C34 *)
Ltac solve_jac F :=
  do 5 eexists;
  split; [reflexivity|]; split; [reflexivity|]; split; [reflexivity|]; split; [reflexivity|]; split; [reflexivity|];
  split; [let i := fresh in let Hi := fresh in intros i Hi; nat_cases i Hi; reflexivity|];
  split; [reflexivity|]; split; [reflexivity|]; split; [|split];
  [ let i := fresh in let j := fresh in let Hi := fresh in let Hj := fresh in
    intros i j Hi Hj; nat_cases i Hi; nat_cases j Hj; unf; apply deriv_affine; intros; F
  | let i := fresh in let Hi := fresh in intros i Hi; nat_cases i Hi; unf; apply deriv_affine; intros; F
  | let j := fresh in let Hj := fresh in intros j Hj; nat_cases j Hj; unf;
    apply deriv_affine; intros; F ].

Theorem extex_jacobian_correct :
  forall m, dc_la m <> 0 -> dc_le m <> 0 -> is_jacobian 2 (len_is 2) (dc_ode m) (dc_torque m) (extex_jacobian m).
Proof.
  intros m Ha He x u w Hx Hu. unfold len_is in Hu. des_list x. des_list u.
  unfold dc_ode, dc_torque, extex_jacobian, dc_constants. unf. solve_jac ltac:(field; auto).
Qed.
Print Assumptions extex_jacobian_correct.

Theorem shunt_jacobian_correct :
  forall m, dc_la m <> 0 -> dc_le m <> 0 -> is_jacobian 2 (len_is 1) (shunt_ode m) (dc_torque m) (shunt_jacobian m).
Proof.
  intros m Ha He x u w Hx Hu. unfold len_is in Hu. des_list x. des_list u.
  unfold shunt_ode, dc_ode, dc_torque, shunt_jacobian, dc_constants. unf. solve_jac ltac:(field; auto).
Qed.
Print Assumptions shunt_jacobian_correct.

Theorem perm_jacobian_correct :
  forall m, pe_la m <> 0 -> is_jacobian 1 (len_is 1) (perm_ode m) (perm_torque m) (perm_jacobian m).
Proof.
  intros m Ha x u w Hx Hu. unfold len_is in Hu. des_list x. des_list u.
  unfold perm_ode, perm_torque, perm_jacobian, perm_constants. unf. solve_jac ltac:(field; auto).
Qed.
Print Assumptions perm_jacobian_correct.

Theorem pmsm_jacobian_correct :
  forall m, pm_ld m <> 0 -> pm_lq m <> 0 -> is_jacobian 3 (len_is 2) (pmsm_ode m) (pmsm_torque m) (pmsm_jacobian m).
Proof.
  intros m Hd Hq x u w Hx Hu. unfold len_is in Hu. des_list x. des_list u.
  unfold pmsm_ode, sync_ode, pmsm_torque, pmsm_jacobian, pmsm_constants. unf. solve_jac ltac:(field; auto).
Qed.
Print Assumptions pmsm_jacobian_correct.

Theorem synrm_jacobian_correct :
  forall m, sr_ld m <> 0 -> sr_lq m <> 0 -> is_jacobian 3 (len_is 2) (synrm_ode m) (synrm_torque m) (synrm_jacobian m).
Proof.
  intros m Hd Hq x u w Hx Hu. unfold len_is in Hu. des_list x. des_list u.
  unfold synrm_ode, sync_ode, synrm_torque, synrm_jacobian, synrm_constants. unf. solve_jac ltac:(field; auto).
Qed.
Print Assumptions synrm_jacobian_correct.

Theorem eesm_jacobian_correct :
  forall m, ee_ld m <> 0 -> ee_lq m <> 0 -> ee_le m <> 0 -> ee_k m <> 0 -> ee_sigma m <> 0 ->
  is_jacobian 4 (len_is 3) (eesm_ode m) (eesm_torque m) (eesm_jacobian m).
Proof.
  intros m Hd Hq He Hk Hs x u w Hx Hu. destruct (eesm_den m He Hk) as [HE Hr]. unfold len_is in Hu. des_list x. des_list u.
  unfold eesm_ode, eesm_torque, eesm_jacobian, eesm_constants. unf. solve_jac ltac:(field; repeat split; assumption).
Qed.
Print Assumptions eesm_jacobian_correct.

Theorem im_jacobian_correct :
  forall m, im_ok m -> is_jacobian 5 is_2x2 (im_ode m) (im_torque m) (im_jacobian m).
Proof.
  intros m Hm x u w Hx Hu. destruct (im_den2 m Hm) as (Hs & Hr & Hg & Ht & Htg). destruct Hu as [u1 [u2 [u3 [u4 ->]]]]. des_list x.
  unfold im_ode, im_torque, im_jacobian, im_constants, item2. change (im_lm m + im_lsigr m) with (im_lr m). unf. solve_jac ltac:(field; repeat split; assumption).
Qed.
Print Assumptions im_jacobian_correct.

Theorem scim_jacobian_correct :
  forall m, im_ok m -> is_jacobian 5 (len_is 2) (scim_ode m) (im_torque m) (im_jacobian m).
Proof.
  intros m Hm x u w Hx Hu. destruct (im_den2 m Hm) as (Hs & Hr & Hg & Ht & Htg). unfold len_is in Hu. des_list x. des_list u.
  unfold scim_ode, im_ode, im_torque, im_jacobian, im_constants, item2. change (im_lm m + im_lsigr m) with (im_lr m). unf. solve_jac ltac:(field; repeat split; assumption).
Qed.
Print Assumptions scim_jacobian_correct.

Theorem series_jacobian_correct :
  forall m, dc_la m + dc_le m <> 0 -> is_jacobian 1 (len_is 1) (series_ode m) (series_torque m) (series_jacobian m).
Proof.
  intros m Ha x u w Hx Hu. unfold len_is in Hu. des_list x. des_list u.
  unfold series_ode, series_torque, dc_torque, series_jacobian, series_constants. unf. do 5 eexists.
  split; [reflexivity|]. split; [reflexivity|]. split; [reflexivity|]. split; [reflexivity|]. split; [reflexivity|].
  split; [intros i Hi; nat_cases i Hi; reflexivity|]. split; [reflexivity|]. split; [reflexivity|].
  split; [|split].
  - intros i j Hi Hj. nat_cases i Hi; nat_cases j Hj; unf; apply deriv_affine; intros s; field; auto.
  - intros i Hi. nat_cases i Hi; unf; apply deriv_affine; intros s; field; auto.
  - intros j Hj. nat_cases j Hj; unf. apply deriv_quad with (c := dc_lep m). intros s. ring.
Qed.
Print Assumptions series_jacobian_correct.

(** ** C35: power balance *)
Ltac dl_auto := repeat first [apply dl_plus | apply dl_div | apply dl_scal | apply dl_mult | eassumption | apply dl_const].

Theorem extex_power_balance :
  forall m, dc_la m <> 0 -> dc_le m <> 0 ->
  energy_balance 2 (len_is 2) (dc_ode m) (dc_torque m) (dc_energy m) dc_input (dc_loss m).
Proof.
  intros m Ha He x u w t Hx Hu [d [E [Ld D]]]. pose proof (D 0%nat ltac:(lia)) as D0. pose proof (D 1%nat ltac:(lia)) as D1.
  specialize (Hx t). unfold len_is in Hu. des_list u.
  destruct (x t) as [|x0 [|x1 [|? ?]]] eqn:Ex; try discriminate.
  unfold dc_ode, dc_constants in E. revert E. unf. intros E. injection E. intros <-. clear E. cbn [nth] in *.
  eexists. split; [reflexivity|]. unfold dc_energy, dc_input, dc_loss, ix. eapply dl_eq; [dl_auto|].
  cbn [nth]. rewrite ?Ex. cbn [nth]. field; auto.
Qed.
Print Assumptions extex_power_balance.

Theorem shunt_power_balance :
  forall m, dc_la m <> 0 -> dc_le m <> 0 ->
  energy_balance 2 (len_is 1) (shunt_ode m) (dc_torque m) (dc_energy m) shunt_input (dc_loss m).
Proof.
  intros m Ha He x u w t Hx Hu [d [E [Ld D]]]. pose proof (D 0%nat ltac:(lia)) as D0. pose proof (D 1%nat ltac:(lia)) as D1.
  specialize (Hx t). unfold len_is in Hu. des_list u.
  destruct (x t) as [|x0 [|x1 [|? ?]]] eqn:Ex; try discriminate.
  unfold shunt_ode, dc_ode, dc_constants in E. revert E. unf. intros E. injection E. intros <-. clear E. cbn [nth] in *.
  eexists. split; [reflexivity|]. unfold dc_energy, shunt_input, dc_loss, ix. eapply dl_eq; [dl_auto|].
  cbn [nth]. rewrite ?Ex. cbn [nth]. field; auto.
Qed.
Print Assumptions shunt_power_balance.

Theorem series_power_balance :
  forall m, dc_la m + dc_le m <> 0 ->
  energy_balance 1 (len_is 1) (series_ode m) (series_torque m) (series_energy m) series_input (series_loss m).
Proof.
  intros m Ha x u w t Hx Hu [d [E [Ld D]]]. pose proof (D 0%nat ltac:(lia)) as D0.
  specialize (Hx t). unfold len_is in Hu. des_list u.
  destruct (x t) as [|x0 [|? ?]] eqn:Ex; try discriminate.
  unfold series_ode, series_constants in E. revert E. unf. intros E. injection E. intros <-. clear E. cbn [nth] in *.
  eexists. split; [reflexivity|]. unfold series_energy, series_input, series_loss, ix. eapply dl_eq; [dl_auto|].
  cbn [nth]. rewrite ?Ex. cbn [nth]. field; auto.
Qed.
Print Assumptions series_power_balance.

Theorem perm_power_balance :
  forall m, pe_la m <> 0 ->
  energy_balance 1 (len_is 1) (perm_ode m) (perm_torque m) (perm_energy m) series_input (perm_loss m).
Proof.
  intros m Ha x u w t Hx Hu [d [E [Ld D]]]. pose proof (D 0%nat ltac:(lia)) as D0.
  specialize (Hx t). unfold len_is in Hu. des_list u.
  destruct (x t) as [|x0 [|? ?]] eqn:Ex; try discriminate.
  unfold perm_ode, perm_constants in E. revert E. unf. intros E. injection E. intros <-. clear E. cbn [nth] in *.
  eexists. split; [reflexivity|]. unfold perm_energy, series_input, perm_loss, ix. eapply dl_eq; [dl_auto|].
  cbn [nth]. rewrite ?Ex. cbn [nth]. field; auto.
Qed.
Print Assumptions perm_power_balance.

Theorem pmsm_power_balance :
  forall m, pm_ld m <> 0 -> pm_lq m <> 0 ->
  energy_balance 3 (len_is 2) (pmsm_ode m) (pmsm_torque m) (sync_energy (pm_ld m) (pm_lq m)) sync_input (sync_loss (pm_rs m)).
Proof.
  intros m Hd Hq x u w t Hx Hu [d [E [Ld D]]]. pose proof (D 0%nat ltac:(lia)) as D0. pose proof (D 1%nat ltac:(lia)) as D1. pose proof (D 2%nat ltac:(lia)) as D2.
  specialize (Hx t). unfold len_is in Hu. des_list u.
  destruct (x t) as [|x0 [|x1 [|x2 [|? ?]]]] eqn:Ex; try discriminate.
  unfold pmsm_ode, sync_ode, pmsm_constants in E. revert E. unf. intros E. injection E. intros <-. clear E. cbn [nth] in *.
  eexists. split; [reflexivity|]. unfold sync_energy, sync_input, sync_loss, ix. eapply dl_eq; [dl_auto|].
  cbn [nth]. rewrite ?Ex. cbn [nth]. field; auto.
Qed.
Print Assumptions pmsm_power_balance.

Theorem synrm_power_balance :
  forall m, sr_ld m <> 0 -> sr_lq m <> 0 ->
  energy_balance 3 (len_is 2) (synrm_ode m) (synrm_torque m) (sync_energy (sr_ld m) (sr_lq m)) sync_input (sync_loss (sr_rs m)).
Proof.
  intros m Hd Hq x u w t Hx Hu [d [E [Ld D]]]. pose proof (D 0%nat ltac:(lia)) as D0. pose proof (D 1%nat ltac:(lia)) as D1. pose proof (D 2%nat ltac:(lia)) as D2.
  specialize (Hx t). unfold len_is in Hu. des_list u.
  destruct (x t) as [|x0 [|x1 [|x2 [|? ?]]]] eqn:Ex; try discriminate.
  unfold synrm_ode, sync_ode, synrm_constants in E. revert E. unf. intros E. injection E. intros <-. clear E. cbn [nth] in *.
  eexists. split; [reflexivity|]. unfold sync_energy, sync_input, sync_loss, ix. eapply dl_eq; [dl_auto|].
  cbn [nth]. rewrite ?Ex. cbn [nth]. field; auto.
Qed.
Print Assumptions synrm_power_balance.

Theorem eesm_power_balance :
  forall m, ee_ld m <> 0 -> ee_lq m <> 0 -> ee_le m <> 0 -> ee_k m <> 0 -> ee_sigma m <> 0 ->
  energy_balance 4 (len_is 3) (eesm_ode m) (eesm_torque m) (eesm_energy m) eesm_input (eesm_loss m).
Proof.
  intros m Hd Hq He Hk Hs x u w t Hx Hu [d [E [Ld D]]]. pose proof (D 0%nat ltac:(lia)) as D0. pose proof (D 1%nat ltac:(lia)) as D1. pose proof (D 2%nat ltac:(lia)) as D2. pose proof (D 3%nat ltac:(lia)) as D3.
  specialize (Hx t). pose proof (eesm_sigma_val m Hd He Hk) as Hsv. unfold len_is in Hu. des_list u.
  destruct (x t) as [|x0 [|x1 [|x2 [|x3 [|? ?]]]]] eqn:Ex; try discriminate.
  unfold eesm_ode, eesm_constants in E. revert E. unf. intros E. injection E. intros <-. clear E. cbn [nth] in *.
  eexists. split; [reflexivity|]. unfold eesm_energy, eesm_input, eesm_loss, ix. eapply dl_eq; [dl_auto|].
  cbn [nth]. rewrite ?Ex. cbn [nth]. unfold ee_lE, ee_lM, ee_rE, ee_rs_ratio. rewrite Hsv in *. apply eesm_sigma_num in Hs; [|assumption|assumption]. field; repeat split; assumption.
Qed.
Print Assumptions eesm_power_balance.

Theorem im_power_balance :
  forall m, im_ok m ->
  energy_balance 5 is_2x2 (im_ode m) (im_torque m) (im_energy m) (im_input m) (im_loss m).
Proof.
  intros m Hm x u w t Hx Hu [d [E [Ld D]]]. pose proof (D 0%nat ltac:(lia)) as D0. pose proof (D 1%nat ltac:(lia)) as D1. pose proof (D 2%nat ltac:(lia)) as D2. pose proof (D 3%nat ltac:(lia)) as D3. pose proof (D 4%nat ltac:(lia)) as D4.
  specialize (Hx t). destruct (im_den m Hm) as (Hr & Hs & Hg & Hr0 & Hs0 & _). destruct Hu as [u1 [u2 [u3 [u4 ->]]]].
  destruct (x t) as [|x0 [|x1 [|x2 [|x3 [|x4 [|? ?]]]]]] eqn:Ex; try discriminate.
  unfold im_ode, im_constants, item2 in E. revert E. unf. intros E. injection E. intros <-. clear E. cbn [nth] in *.
  eexists. split; [reflexivity|]. unfold im_energy, im_input, im_loss, rotor_current, ix. eapply dl_eq; [dl_auto|].
  cbn [nth]. rewrite ?Ex. cbn [nth]. unfold ix. cbn [nth Nat.add]. change (im_lm m + im_lsigr m) with (im_lr m). unfold im_tausig, im_taur, im_sigma. destruct Hm as (K1 & K2 & K3 & K4 & K5).
  assert (0 < im_rr m * (im_lm m * im_lm m)) by (apply Rmult_lt_0_compat; [lra|nra]).
  assert (0 <= im_rs m * (im_lr m * im_lr m)) by (apply Rmult_le_pos; [lra|nra]).
  assert (im_rs m * (im_lr m * im_lr m) + im_rr m * (im_lm m * im_lm m) <> 0) by lra. field; repeat split; try assumption; lra.
Qed.
Print Assumptions im_power_balance.

(** The squirrel cage motor is the doubly fed motor with short-circuited rotor. *)
Theorem scim_is_dfim_with_shorted_rotor :
  forall m x ua ub w, scim_ode m x [ua; ub] w = dfim_ode m x [[ua; ub]; [0; 0]] w.
Proof. reflexivity. Qed.
Print Assumptions scim_is_dfim_with_shorted_rotor.

(** ** C82: a motor with locked rotor and short-circuited terminals is passive *)
(** Over every interval the stored energy does not grow, for every initial state;
    for the DC and synchronous motors this bounds the currents directly. *)
Theorem extex_short_circuit_bounded :
  forall m x a b, dc_ok m -> locked 2 (dc_ode m) [0; 0] x a b ->
  dc_la m * (ix (x b) 0 * ix (x b) 0) + dc_le m * (ix (x b) 1 * ix (x b) 1) <=
  dc_la m * (ix (x a) 0 * ix (x a) 0) + dc_le m * (ix (x a) 1 * ix (x a) 1).
Proof.
  intros m x a b (H1 & H2 & H3 & H4) Hx.
  assert (E : dc_energy m (x b) <= dc_energy m (x a)).
  { eapply locked_energy; [apply extex_power_balance; lra| |exact Hx| |]; [reflexivity| |].
    - intros y. unfold dc_input, ix. cbn. ring.
    - intros y. unfold dc_loss. pose proof (sq_nonneg (ix y 0)). pose proof (sq_nonneg (ix y 1)).
      apply Rplus_le_le_0_compat; now apply Rmult_le_pos. }
  unfold dc_energy in E. lra.
Qed.
Print Assumptions extex_short_circuit_bounded.

Theorem shunt_short_circuit_bounded :
  forall m x a b, dc_ok m -> locked 2 (shunt_ode m) [0] x a b ->
  dc_la m * (ix (x b) 0 * ix (x b) 0) + dc_le m * (ix (x b) 1 * ix (x b) 1) <=
  dc_la m * (ix (x a) 0 * ix (x a) 0) + dc_le m * (ix (x a) 1 * ix (x a) 1).
Proof.
  intros m x a b (H1 & H2 & H3 & H4) Hx.
  assert (E : dc_energy m (x b) <= dc_energy m (x a)).
  { eapply locked_energy; [apply shunt_power_balance; lra| |exact Hx| |]; [reflexivity| |].
    - intros y. unfold shunt_input, ix. cbn. ring.
    - intros y. unfold dc_loss. pose proof (sq_nonneg (ix y 0)). pose proof (sq_nonneg (ix y 1)).
      apply Rplus_le_le_0_compat; now apply Rmult_le_pos. }
  unfold dc_energy in E. lra.
Qed.
Print Assumptions shunt_short_circuit_bounded.

Theorem series_short_circuit_bounded :
  forall m x a b, dc_ok m -> locked 1 (series_ode m) [0] x a b -> ix (x b) 0 * ix (x b) 0 <= ix (x a) 0 * ix (x a) 0.
Proof.
  intros m x a b (H1 & H2 & H3 & H4) Hx.
  assert (E : series_energy m (x b) <= series_energy m (x a)).
  { eapply locked_energy; [apply series_power_balance; lra| |exact Hx| |]; [reflexivity| |].
    - intros y. unfold series_input, ix. cbn. ring.
    - intros y. unfold series_loss. apply Rmult_le_pos; [lra|apply sq_nonneg]. }
  unfold series_energy in E. apply Rmult_le_reg_l in E; [exact E|lra].
Qed.
Print Assumptions series_short_circuit_bounded.

Theorem perm_short_circuit_bounded :
  forall m x a b, 0 < pe_la m -> 0 <= pe_ra m -> locked 1 (perm_ode m) [0] x a b ->
  ix (x b) 0 * ix (x b) 0 <= ix (x a) 0 * ix (x a) 0.
Proof.
  intros m x a b H1 H2 Hx.
  assert (E : perm_energy m (x b) <= perm_energy m (x a)).
  { eapply locked_energy; [apply perm_power_balance; lra| |exact Hx| |]; [reflexivity| |].
    - intros y. unfold series_input, ix. cbn. ring.
    - intros y. unfold perm_loss. apply Rmult_le_pos; [lra|apply sq_nonneg]. }
  unfold perm_energy in E. apply Rmult_le_reg_l in E; [exact E|lra].
Qed.
Print Assumptions perm_short_circuit_bounded.

Theorem pmsm_short_circuit_bounded :
  forall m x a b, 0 < pm_ld m -> 0 < pm_lq m -> 0 <= pm_rs m -> locked 3 (pmsm_ode m) [0; 0] x a b ->
  pm_ld m * (ix (x b) 0 * ix (x b) 0) + pm_lq m * (ix (x b) 1 * ix (x b) 1) <=
  pm_ld m * (ix (x a) 0 * ix (x a) 0) + pm_lq m * (ix (x a) 1 * ix (x a) 1).
Proof.
  intros m x a b H1 H2 H3 Hx.
  assert (E : sync_energy (pm_ld m) (pm_lq m) (x b) <= sync_energy (pm_ld m) (pm_lq m) (x a)).
  { eapply locked_energy; [apply pmsm_power_balance; lra| |exact Hx| |]; [reflexivity| |].
    - intros y. unfold sync_input, ix. cbn. ring.
    - intros y. unfold sync_loss. pose proof (sq_nonneg (ix y 0)). pose proof (sq_nonneg (ix y 1)). apply Rmult_le_pos; lra. }
  unfold sync_energy in E. lra.
Qed.
Print Assumptions pmsm_short_circuit_bounded.

Theorem synrm_short_circuit_bounded :
  forall m x a b, 0 < sr_ld m -> 0 < sr_lq m -> 0 <= sr_rs m -> locked 3 (synrm_ode m) [0; 0] x a b ->
  sr_ld m * (ix (x b) 0 * ix (x b) 0) + sr_lq m * (ix (x b) 1 * ix (x b) 1) <=
  sr_ld m * (ix (x a) 0 * ix (x a) 0) + sr_lq m * (ix (x a) 1 * ix (x a) 1).
Proof.
  intros m x a b H1 H2 H3 Hx.
  assert (E : sync_energy (sr_ld m) (sr_lq m) (x b) <= sync_energy (sr_ld m) (sr_lq m) (x a)).
  { eapply locked_energy; [apply synrm_power_balance; lra| |exact Hx| |]; [reflexivity| |].
    - intros y. unfold sync_input, ix. cbn. ring.
    - intros y. unfold sync_loss. pose proof (sq_nonneg (ix y 0)). pose proof (sq_nonneg (ix y 1)). apply Rmult_le_pos; lra. }
  unfold sync_energy in E. lra.
Qed.
Print Assumptions synrm_short_circuit_bounded.

Theorem im_short_circuit_bounded :
  forall m x a b, im_ok m -> locked 5 (scim_ode m) [0; 0] x a b ->
  im_energy m (x b) <= im_energy m (x a) /\
  (forall y, 3 / 4 * (im_sigma m * im_ls m * (ix y 0 * ix y 0)) <= im_energy m y /\
             3 / 4 * (im_sigma m * im_ls m * (ix y 1 * ix y 1)) <= im_energy m y /\ 0 < im_sigma m * im_ls m).
Proof.
  intros m x a b Hm Hx. split.
  - eapply locked_energy; [apply im_power_balance; exact Hm| |exact Hx| |].
    + exists 0, 0, 0, 0. reflexivity.
    + intros y. unfold im_input, ix. cbn. ring.
    + intros y. unfold im_loss. destruct Hm as (K1 & K2 & K3 & K4 & K5).
      pose proof (sq_nonneg (ix y 0)). pose proof (sq_nonneg (ix y 1)).
      pose proof (sq_nonneg (rotor_current m y 0)). pose proof (sq_nonneg (rotor_current m y 1)).
      apply Rmult_le_pos; [lra|]. apply Rplus_le_le_0_compat; apply Rmult_le_pos; lra.
  - intros y. destruct (im_den m Hm) as (_ & _ & _ & Hr & Hs & _). pose proof (im_sigma_pos m Hm) as Hg.
    assert (P : 0 < im_sigma m * im_ls m) by now apply Rmult_lt_0_compat.
    unfold im_energy. pose proof (sq_nonneg (ix y 0)) as S0. pose proof (sq_nonneg (ix y 1)) as S1.
    pose proof (sq_nonneg (ix y 2)) as S2. pose proof (sq_nonneg (ix y 3)) as S3.
    assert (Q : 0 <= (ix y 2 * ix y 2 + ix y 3 * ix y 3) / im_lr m).
    { apply Rmult_le_pos; [lra|]. left. now apply Rinv_0_lt_compat. }
    set (g := im_sigma m * im_ls m) in *.
    assert (0 <= g * (ix y 0 * ix y 0)) by (apply Rmult_le_pos; lra).
    assert (0 <= g * (ix y 1 * ix y 1)) by (apply Rmult_le_pos; lra).
    repeat split; lra.
Qed.
Print Assumptions im_short_circuit_bounded.

(** EESM: passive, with positive definite energy, as long as the leakage factor
    sigma is positive ... *)
Theorem eesm_short_circuit_bounded :
  forall m x a b, 0 < ee_ld m -> 0 < ee_lq m -> 0 < ee_le m -> ee_k m <> 0 -> 0 <= ee_rs m -> 0 <= ee_re m ->
  0 < ee_sigma m -> locked 4 (eesm_ode m) [0; 0; 0] x a b ->
  eesm_energy m (x b) <= eesm_energy m (x a) /\
  (forall y, 3 / 4 * ee_sigma m * ee_ld m * (ix y 0 * ix y 0) <= eesm_energy m y /\
             3 / 4 * ee_lq m * (ix y 1 * ix y 1) <= eesm_energy m y /\
             1 / 2 * ee_sigma m * ee_le m * (ix y 2 * ix y 2) <= eesm_energy m y).
Proof.
  intros m x a b H1 H2 H3 H4 H5 H6 Hs Hx. split.
  - eapply locked_energy; [apply eesm_power_balance; lra| |exact Hx| |]; [reflexivity| |].
    + intros y. unfold eesm_input, ix. cbn. ring.
    + intros y. unfold eesm_loss. pose proof (sq_nonneg (ix y 0)). pose proof (sq_nonneg (ix y 1)). pose proof (sq_nonneg (ix y 2)).
      apply Rplus_le_le_0_compat; apply Rmult_le_pos; lra.
  - intros y. unfold eesm_energy. assert (L1 : ee_ld m <> 0) by lra. assert (L3 : ee_le m <> 0) by lra.
    set (D := ix y 0). set (Q := ix y 1). set (X := ix y 2).
    rewrite (eesm_sigma_val m L1 L3 H4) in *.
    assert (N : 0 < 2 * ee_ld m * ee_le m - 3 * ee_lm m * ee_lm m).
    { destruct (Rlt_or_le 0 (2 * ee_ld m * ee_le m - 3 * ee_lm m * ee_lm m)) as [N|N]; [exact N|].
      assert (P : 0 < 2 * ee_ld m * ee_le m) by (apply Rmult_lt_0_compat; lra).
      assert (0 < / (2 * ee_ld m * ee_le m)) by now apply Rinv_0_lt_compat. unfold Rdiv in Hs. nra. }
    assert (SQ : 0 <= 3 / 4 * ee_lq m * (Q * Q)) by (apply Rmult_le_pos; [lra|apply sq_nonneg]).
    assert (A1 : 3 / 4 * (ee_ld m * (D * D)) + 3 / 2 * ee_lm m * (D * X) + 1 / 2 * ee_le m * (X * X) =
                 3 / 4 * ((2 * ee_ld m * ee_le m - 3 * ee_lm m * ee_lm m) / (2 * ee_ld m * ee_le m)) * ee_ld m * (D * D) +
                 1 / (8 * ee_le m) * ((2 * ee_le m * X + 3 * ee_lm m * D) * (2 * ee_le m * X + 3 * ee_lm m * D))) by (field; lra).
    assert (A2 : 3 / 4 * (ee_ld m * (D * D)) + 3 / 2 * ee_lm m * (D * X) + 1 / 2 * ee_le m * (X * X) =
                 1 / 2 * ((2 * ee_ld m * ee_le m - 3 * ee_lm m * ee_lm m) / (2 * ee_ld m * ee_le m)) * ee_le m * (X * X) +
                 3 / (4 * ee_ld m) * ((ee_ld m * D + ee_lm m * X) * (ee_ld m * D + ee_lm m * X))) by (field; lra).
    assert (B1 : 0 <= 1 / (8 * ee_le m) * ((2 * ee_le m * X + 3 * ee_lm m * D) * (2 * ee_le m * X + 3 * ee_lm m * D))).
    { apply Rmult_le_pos; [|apply sq_nonneg]. left. apply Rdiv_lt_0_compat; lra. }
    assert (B2 : 0 <= 3 / (4 * ee_ld m) * ((ee_ld m * D + ee_lm m * X) * (ee_ld m * D + ee_lm m * X))).
    { apply Rmult_le_pos; [|apply sq_nonneg]. left. apply Rdiv_lt_0_compat; lra. }
    assert (SD : 0 <= 3 / 4 * ((2 * ee_ld m * ee_le m - 3 * ee_lm m * ee_lm m) / (2 * ee_ld m * ee_le m)) * ee_ld m * (D * D)).
    { apply Rmult_le_pos; [|apply sq_nonneg]. apply Rmult_le_pos; lra. }
    repeat split; lra.
Qed.
Print Assumptions eesm_short_circuit_bounded.

(** ... but the class defaults (externally_excited_synchronous_motor.py 101-111) have
    a negative one, and whenever sigma is negative there are currents that grow
    exponentially in the short-circuited machine at standstill. *)
Theorem eesm_negative_sigma_diverges :
  forall m, 0 < ee_ld m -> 0 < ee_lq m -> 0 < ee_le m -> 0 < ee_lm m -> ee_k m <> 0 -> 0 < ee_rs m -> 0 < ee_re m ->
  ee_sigma m < 0 ->
  exists lam a c, 0 < lam /\ a <> 0 /\
    forall t, follows 4 (eesm_ode m) (fun s => [a * exp (lam * s); 0; c * exp (lam * s); 0]) [0; 0; 0] 0 t.
Proof.
  intros m H1 H2 H3 H4 H5 H6 H7 Hs. assert (L1 : ee_ld m <> 0) by lra. assert (L3 : ee_le m <> 0) by lra.
  destruct (eesm_den m L3 H5) as [HE HK]. assert (HEp : 0 < ee_lE m).
  { unfold ee_lE. apply Rmult_lt_0_compat; [|exact H3]. assert (0 < ee_k m * ee_k m) by (apply Rsqr_pos_lt; exact H5). lra. }
  assert (HRp : 0 < ee_rE m).
  { unfold ee_rE. apply Rmult_lt_0_compat; [|exact H7]. assert (0 < ee_k m * ee_k m) by (apply Rsqr_pos_lt; exact H5). lra. }
  assert (HMn : ee_lM m <> 0).
  { unfold ee_lM. assert (ee_k m * 3 / 2 <> 0) by (unfold Rdiv; apply Rmult_integral_contrapositive_currified; lra). nra. }
  assert (Hsn : ee_sigma m <> 0) by lra.
  assert (Hid : ee_sigma m * (ee_ld m * ee_lE m) = ee_ld m * ee_lE m - ee_lM m * ee_lM m) by (unfold ee_sigma; field; auto).
  set (s := ee_sigma m) in *. set (lM := ee_lM m) in *. set (lE := ee_lE m) in *. set (rE := ee_rE m) in *.
  set (kr := ee_rs_ratio m) in *. set (ld := ee_ld m) in *. set (rs := ee_rs m) in *.
  destruct (unstable2 (- rs / (s * ld)) (lM * rE * kr / (s * lE * ld)) (lM * rs / (s * ld * lE * kr)) (- rE / (s * lE)))
    as [lam [v [Hl [E1 E2]]]].
  - replace (- rs / (s * ld) * (- rE / (s * lE)) - lM * rE * kr / (s * lE * ld) * (lM * rs / (s * ld * lE * kr)))
      with (rs * rE * (ld * lE - lM * lM) / (s * s * (ld * lE) * (ld * lE))) by (field; auto).
    rewrite <- Hid. replace (rs * rE * (s * (ld * lE)) / (s * s * (ld * lE) * (ld * lE))) with (rs * rE / (ld * lE) * / s) by (field; auto).
    assert (0 < rs * rE / (ld * lE)) by (apply Rdiv_lt_0_compat; now apply Rmult_lt_0_compat).
    assert (/ s < 0) by now apply Rinv_lt_0_compat. nra.
  - unfold Rdiv. apply Rmult_integral_contrapositive_currified.
    + apply Rmult_integral_contrapositive_currified; [|exact HK]. apply Rmult_integral_contrapositive_currified; [exact HMn|lra].
    + apply Rinv_neq_0_compat. apply Rmult_integral_contrapositive_currified; [|exact L1]. now apply Rmult_integral_contrapositive_currified.
  - exists lam, (lM * rE * kr / (s * lE * ld)), v. split; [exact Hl|]. split.
    + unfold Rdiv. apply Rmult_integral_contrapositive_currified.
      * apply Rmult_integral_contrapositive_currified; [|exact HK]. apply Rmult_integral_contrapositive_currified; [exact HMn|lra].
      * apply Rinv_neq_0_compat. apply Rmult_integral_contrapositive_currified; [|exact L1]. now apply Rmult_integral_contrapositive_currified.
    + intros t. set (b := lM * rE * kr / (s * lE * ld)) in *. eexists. split.
      { unfold eesm_ode, eesm_constants. unf. reflexivity. }
      split; [reflexivity|]. intros k Hk. fold s lM lE rE kr ld rs.
      nat_cases k Hk; cbn [nth].
      * eapply dl_eq; [apply dl_exp|].
        transitivity ((- rs / (s * ld) * b + b * v) * exp (lam * t)); [rewrite E1; ring|].
        unfold b. field. auto.
      * eapply dl_eq; [apply dl_const|]. field. lra.
      * eapply dl_eq; [apply dl_exp|].
        transitivity ((lM * rs / (s * ld * lE * kr) * b + - rE / (s * lE) * v) * exp (lam * t)); [rewrite E2; ring|].
        unfold b. field. auto.
      * eapply dl_eq; [apply dl_const|]. ring.
Qed.
Print Assumptions eesm_negative_sigma_diverges.

Theorem eesm_defaults_diverge_refuted :
  ee_sigma eesm_default < 0 /\
  exists lam a c, 0 < lam /\ a <> 0 /\
    forall t, follows 4 (eesm_ode eesm_default) (fun s => [a * exp (lam * s); 0; c * exp (lam * s); 0]) [0; 0; 0] 0 t.
Proof.
  assert (S : ee_sigma eesm_default < 0).
  { rewrite eesm_sigma_val; cbn; lra. }
  split; [exact S|]. apply eesm_negative_sigma_diverges; try exact S; cbn; lra.
Qed.
Print Assumptions eesm_defaults_diverge_refuted.

(** ** C83: the induction motor has no preferred direction *)
(** Rotating currents, fluxes and voltages by any angle rotates the derivatives by
    the same angle and keeps the torque. *)
Theorem im_rotation_invariant :
  forall m x u w e, length x = 5%nat -> is_2x2 u ->
  exists d T, im_ode m x u w = Ok d /\ im_ode m (rot_state e x) (rot_input e u) w = Ok (rot_state e d) /\
    im_torque m x = Ok T /\ im_torque m (rot_state e x) = Ok T.
Proof.
  intros m x u w e Hx [u1 [u2 [u3 [u4 ->]]]]. des_list x. unfold rot_state, rot_input, rot, ix.
  unfold im_ode, im_torque, im_constants, item2. cbn [app map nth]. unf. eexists. eexists. split; [reflexivity|].
  split; [cbn [nth app]; unfold Rdiv; f_equal; do 4 (f_equal; [ring|]); f_equal; ring|]. split; [reflexivity|]. f_equal. f_equal.
  pose proof (sincos e) as S.
  match goal with |- ?L = ?a * ?d - ?b * ?c => transitivity ((sin e * sin e + cos e * cos e) * (a * d - b * c)); [ring|rewrite S; ring] end.
Qed.
Print Assumptions im_rotation_invariant.

(** ** Concrete cases *)
Definition im_default : im_par :=
  {| im_p := 2; im_lm := 14375 / 100000; im_lsigs := 587 / 100000; im_lsigr := 587 / 100000;
     im_rs := 29338 / 10000; im_rr := 1355 / 1000 |}.
Example im_default_ok : im_ok im_default.
Proof. unfold im_ok. cbn. lra. Qed.
Example eesm_positive_sigma : 0 < ee_sigma {| ee_p := 3; ee_ld := 2; ee_lq := 1; ee_lm := 1; ee_le := 1; ee_rs := 1; ee_re := 1; ee_k := 2 |}.
Proof. rewrite eesm_sigma_val; cbn; lra. Qed.
(** a decaying current of a short-circuited motor follows the equation *)
Example perm_trajectory :
  let m := {| pe_ra := 2; pe_la := 4; pe_psi := 1 |} in
  locked 1 (perm_ode m) [0] (fun s => [3 * exp (- (1 / 2) * s)]) 0 7.
Proof.
  cbv zeta. split; [lra|]. split; [reflexivity|]. intros t _. eexists. split.
  - unfold perm_ode, perm_constants. unf. reflexivity.
  - split; [reflexivity|]. intros k Hk. nat_cases k Hk. cbn [nth pe_ra pe_la pe_psi]. eapply dl_eq; [apply dl_exp|]. field.
Qed.
