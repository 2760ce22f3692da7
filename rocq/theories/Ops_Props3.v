(** C115, C116: operation point selection of the synchronous motors. *)
From Verif Require Import PyBaseFacts PyDictFacts Transform_Model Transform_Proofs Motor_Model Conv_Model Wrap_Model Ctl_Model Ctl_Model2 Ctl_Spec Ctl_Proofs Ctl_Proofs2 Ctl_Props Emf_Props Ops_Model Ops_Proofs Ops_Props Ops_Props2.
From Coq Require Import ZArith Lra Lia.
Local Open Scope string_scope. Local Open Scope list_scope. Local Open Scope R_scope.

(** Value of a polynomial, highest degree first. *)
Definition peval (l : list R) (x : R) : R := fold_left (fun a c => a * x + c) l 0.
(** Squared stator flux of a synchronous motor with the excitation flux f. *)
Definition flux2 (ld lq f d q : R) : R := (f + ld * d) * (f + ld * d) + lq * q * (lq * q).
Definition torque_of (p ld lq f d q : R) : R := 3 / 2 * p * (f + (ld - lq) * d) * q.

(** ** The analytical solution *)
Lemma quartic_residual ld lq f p t psi d q k : p <> 0 -> f + (ld - lq) * d <> 0 -> q = 2 * t / (3 * p * (f + (ld - lq) * d)) ->
  peval [ld * ld * ((ld - lq) * (ld - lq)); 2 * (ld * ld) * (ld - lq) * f + 2 * ld * f * ((ld - lq) * (ld - lq)); ld * ld * (f * f) + 4 * ld * (f * f) * (ld - lq) + (f * f - psi * psi) * ((ld - lq) * (ld - lq));
         2 * lq * (f * f * f) + 2 * (f * f - psi * psi) * f * (ld - lq); (f * f - psi * psi) * (f * f) + k] d = 0 ->
  flux2 ld lq f d q - psi * psi = (2 * (ld - lq) * (f * f * f) * d + (lq * 2 * t / (3 * p) * (lq * 2 * t / (3 * p)) - k)) / ((f + (ld - lq) * d) * (f + (ld - lq) * d)).
Proof.
  intros Hp Hd Hq H. unfold peval in H. cbn [fold_left] in H. set (e := f + (ld - lq) * d) in *. unfold flux2.
  assert (X : (flux2 ld lq f d q - psi * psi) * (e * e) = 2 * (ld - lq) * (f * f * f) * d + (lq * 2 * t / (3 * p) * (lq * 2 * t / (3 * p)) - k)).
  { unfold flux2. rewrite Hq. replace (((f + ld * d) * (f + ld * d) + lq * (2 * t / (3 * p * e)) * (lq * (2 * t / (3 * p * e))) - psi * psi) * (e * e)) with (((f + ld * d) * (f + ld * d) - psi * psi) * (e * e) + lq * 2 * t / (3 * p) * (lq * 2 * t / (3 * p))) by (field; split; assumption).
    assert (Y : ((f + ld * d) * (f + ld * d) - psi * psi) * (e * e) + k = 2 * (ld - lq) * (f * f * f) * d). { unfold e in *. rewrite <- (Rplus_0_r (2 * (ld - lq) * (f * f * f) * d)). rewrite <- H. ring. }
    lra. }
  unfold flux2 in X. rewrite <- X. field. exact Hd.
Qed.
(** PMSM: the currents of a real root give exactly the demanded torque.  The flux is not the
    demanded one: the linear coefficient uses l_q for l_d. *)
Theorem pmsm_analytical_flux_refuted :
  forall roots c m t psi d q, solve_analytical roots c t psi = Ok (d, q) -> peval (pmsm_poly c t psi) d = 0 -> pc_p c = pm_p m -> pc_ld c = pm_ld m -> pc_lq c = pm_lq m -> pc_psi c = pm_psi m -> pm_p m <> 0 -> pm_psi m + (pm_ld m - pm_lq m) * d <> 0 ->
  pmsm_torque m [d; q] = Ok t /\
  flux2 (pm_ld m) (pm_lq m) (pm_psi m) d q - psi * psi = 2 * (pm_ld m - pm_lq m) * (pm_psi m * pm_psi m * pm_psi m) * d / ((pm_psi m + (pm_ld m - pm_lq m) * d) * (pm_psi m + (pm_ld m - pm_lq m) * d)) /\
  (flux2 (pm_ld m) (pm_lq m) (pm_psi m) d q = psi * psi <-> pm_ld m = pm_lq m \/ pm_psi m = 0 \/ d = 0).
Proof.
  intros roots c m t psi d q H Hr H1 H2 H3 H4 Hp Hd. unfold solve_analytical in H. apply bind_ok in H. destruct H as (d0 & _ & H). apply ok_inj in H. apply pair_equal_spec in H. destruct H as [<- Hq]. rewrite H1, H2, H3, H4 in Hq.
  assert (X : flux2 (pm_ld m) (pm_lq m) (pm_psi m) d0 q - psi * psi = 2 * (pm_ld m - pm_lq m) * (pm_psi m * pm_psi m * pm_psi m) * d0 / ((pm_psi m + (pm_ld m - pm_lq m) * d0) * (pm_psi m + (pm_ld m - pm_lq m) * d0))).
  { rewrite (quartic_residual (pm_ld m) (pm_lq m) (pm_psi m) (pm_p m) t psi d0 q (pm_lq m * 2 * t / (3 * pm_p m) * (pm_lq m * 2 * t / (3 * pm_p m))) Hp Hd (eq_sym Hq)).
    - match goal with |- ?a / ?b = ?c / ?b => replace a with c by ring end. reflexivity.
    - unfold pmsm_poly in Hr. cbn zeta in Hr. rewrite H1, H2, H3, H4 in Hr. exact Hr. }
  split; [|split; [exact X|]].
  - unfold pmsm_torque. cbn [item nth_error bind]. f_equal. rewrite <- Hq. field. split; assumption.
  - set (e := pm_psi m + (pm_ld m - pm_lq m) * d0) in *. assert (E2 : e * e <> 0) by (apply Rmult_integral_contrapositive_currified; exact Hd). split.
    + intros F. rewrite F in X. assert (Y : 2 * (pm_ld m - pm_lq m) * (pm_psi m * pm_psi m * pm_psi m) * d0 = 0). { apply (Rmult_eq_reg_r (/ (e * e))); [|apply Rinv_neq_0_compat; exact E2]. unfold Rdiv in X. rewrite <- X. ring. }
      apply Rmult_integral in Y. destruct Y as [Y|Y]; [|right; right; exact Y]. apply Rmult_integral in Y. destruct Y as [Y|Y]; [left; lra|]. right. left. apply Rmult_integral in Y. destruct Y as [Y|Y]; [apply Rmult_integral in Y; tauto|exact Y].
    + intros F. assert (Y : 2 * (pm_ld m - pm_lq m) * (pm_psi m * pm_psi m * pm_psi m) * d0 = 0) by (destruct F as [F|[F|F]]; rewrite F; ring). rewrite Y in X. unfold Rdiv in X. rewrite Rmult_0_l in X. lra.
Qed.
Print Assumptions pmsm_analytical_flux_refuted.
Definition pmsm_toy : pmsm_par := {| pm_p := 1; pm_ld := 1; pm_lq := 2; pm_rs := 1; pm_psi := 1 |}.
Example pmsm_analytical_example : let c := {| pc_ld := 1; pc_lq := 2; pc_psi := 1; pc_p := 1 |} in (exists q, solve_analytical (fun _ => [-1]) c 3 (sqrt (7 / 2)) = Ok (-1, q)) /\ peval (pmsm_poly c 3 (sqrt (7 / 2))) (-1) = 0 /\ pm_psi pmsm_toy + (pm_ld pmsm_toy - pm_lq pmsm_toy) * -1 <> 0.
Proof.
  cbn zeta. split; [eexists; reflexivity|]. unfold pmsm_poly, peval. cbn [fold_left pc_ld pc_lq pc_psi pc_p pmsm_toy pm_psi pm_ld pm_lq]. assert (S : sqrt (7 / 2) * sqrt (7 / 2) = 7 / 2) by (apply sqrt_sqrt; lra). rewrite S. split; lra.
Qed.
(** EESM: in addition the torque term lacks a factor of 4. *)
Theorem eesm_analytical_flux_refuted :
  forall roots c t psi ie d q, eesm_solve roots c t psi ie = Ok (d, q) -> t <> 0 -> let f := ec_lm c * ie in peval (eesm_poly c ie psi t) d = 0 -> ec_p c <> 0 -> f + (ec_ld c - ec_lq c) * d <> 0 ->
  torque_of (ec_p c) (ec_ld c) (ec_lq c) f d q = t /\
  flux2 (ec_ld c) (ec_lq c) f d q - psi * psi = (2 * (ec_ld c - ec_lq c) * (f * f * f) * d + 3 * (ec_lq c * t / (3 * ec_p c) * (ec_lq c * t / (3 * ec_p c)))) / ((f + (ec_ld c - ec_lq c) * d) * (f + (ec_ld c - ec_lq c) * d)).
Proof.
  intros roots c t psi ie d q H Ht f Hr Hp Hd. unfold eesm_solve in H. destruct (reqP t 0) as [Z|_]; [contradiction|]. cbn [andb] in H. apply bind_ok in H. destruct H as (d0 & _ & H). apply ok_inj in H. apply pair_equal_spec in H. destruct H as [<- Hq]. fold f in Hq. split.
  - unfold torque_of. rewrite <- Hq. field. split; assumption.
  - rewrite (quartic_residual (ec_ld c) (ec_lq c) f (ec_p c) t psi d0 q (ec_lq c * t / (3 * ec_p c) * (ec_lq c * t / (3 * ec_p c))) Hp Hd (eq_sym Hq)).
    + match goal with |- ?a / ?b = ?c / ?b => replace a with c by (field; exact Hp) end. reflexivity.
    + exact Hr.
Qed.
Print Assumptions eesm_analytical_flux_refuted.
(** Without saliency (l_d = l_q) the flux is still too large, by a known amount. *)
Corollary eesm_round_rotor_flux_refuted :
  forall roots c t psi ie d q, eesm_solve roots c t psi ie = Ok (d, q) -> t <> 0 -> ec_ld c = ec_lq c -> 0 < ec_lq c -> 0 < ec_p c -> peval (eesm_poly c ie psi t) d = 0 -> ec_lm c * ie <> 0 -> psi * psi < flux2 (ec_ld c) (ec_lq c) (ec_lm c * ie) d q.
Proof.
  intros roots c t psi ie d q H Ht He Hl Hp Hr Hf. destruct (eesm_analytical_flux_refuted roots c t psi ie d q H Ht Hr ltac:(lra)) as [_ X]; [rewrite He; replace (ec_lm c * ie + (ec_lq c - ec_lq c) * d) with (ec_lm c * ie) by ring; exact Hf|].
  rewrite He in X. replace (ec_lm c * ie + (ec_lq c - ec_lq c) * d) with (ec_lm c * ie) in X by ring. rewrite He. set (f := ec_lm c * ie) in *. set (a := ec_lq c * t / (3 * ec_p c)) in *.
  assert (A : a <> 0). { unfold a, Rdiv. apply Rmult_integral_contrapositive_currified; [apply Rmult_integral_contrapositive_currified; lra|apply Rinv_neq_0_compat; lra]. }
  assert (AA : 0 < a * a) by (apply (Rsqr_pos_lt a); exact A). assert (FF : 0 < f * f) by (apply (Rsqr_pos_lt f); exact Hf).
  assert (P : 0 < (2 * (ec_lq c - ec_lq c) * (f * f * f) * d + 3 * (a * a)) / (f * f)) by (apply Rmult_lt_0_compat; [lra|apply Rinv_0_lt_compat; exact FF]). lra.
Qed.
Print Assumptions eesm_round_rotor_flux_refuted.
(** l_d = l_q = 1, f = 2, p = 1, t = 3: the polynomial is 4 d^2 + 16 d + 4 (4 - psi^2) + 1. *)
Example eesm_round_rotor_example : let c := {| ec_ld := 1; ec_lq := 1; ec_lm := 1; ec_p := 1 |} in peval (eesm_poly c 2 (sqrt (5 / 4)) 3) (-1) = 0 /\ exists q, eesm_solve (fun _ => [-1]) c 3 (sqrt (5 / 4)) 2 = Ok (-1, q).
Proof.
  cbn zeta. split.
  - unfold eesm_poly, peval. cbn [fold_left ec_ld ec_lq ec_lm ec_p]. assert (S : sqrt (5 / 4) * sqrt (5 / 4) = 5 / 4) by (apply sqrt_sqrt; lra). rewrite S. lra.
  - unfold eesm_solve. destruct (reqP 3 0) as [Z|_]; [lra|]. eexists. reflexivity.
Qed.

(** ** Tables of the permanent magnet and the reluctance motor *)
Lemma sign_abs x : np_sign x * Rabs x = x.
Proof. unfold np_sign, Rabs. destruct (rltP x 0) as [A|A]; destruct (Rcase_abs x) as [B|B]; try lra. destruct (rltP 0 x) as [C|C]; lra. Qed.
Lemma sign_pos_mul a x : 0 < a -> np_sign (a * x) = np_sign x.
Proof.
  intros Ha. unfold np_sign. destruct (rltP (a * x) 0) as [A|A]; destruct (rltP x 0) as [B|B]; try reflexivity.
  - exfalso. assert (0 <= a * x) by (apply Rmult_le_pos; lra). lra.
  - exfalso. assert (0 < a * - x) by (apply Rmult_lt_0_compat; lra). lra.
  - destruct (rltP 0 (a * x)) as [C|C]; destruct (rltP 0 x) as [D|D]; try reflexivity.
    + exfalso. assert (x = 0) by lra. subst x. lra.
    + exfalso. assert (0 < a * x) by (apply Rmult_lt_0_compat; lra). lra.
Qed.
Lemma sign_opp x : np_sign (- x) = - np_sign x.
Proof. unfold np_sign. destruct (rltP (- x) 0); destruct (rltP x 0); destruct (rltP 0 (- x)); destruct (rltP 0 x); lra. Qed.
Lemma sign_neg_mul a x : a < 0 -> np_sign (a * x) = - np_sign x.
Proof. intros Ha. replace (a * x) with (- (- a * x)) by ring. rewrite sign_opp, sign_pos_mul by lra. reflexivity. Qed.
Lemma mtpc_row_pick c dlim qlim t : pc_ld c <> pc_lq c -> exists d q,
  (if req (pc_psi c) 0 then d = - Rabs (t / (15 / 10 * pc_p c * (pc_ld c - pc_lq c) * q)) /\ In q (linspace (- (25 / 10) * qlim) (25 / 10 * qlim) pm_i_count)
   else q = t / (d * (pc_ld c - pc_lq c) + pc_psi c) / (15 / 10 * pc_p c) /\ In d (linspace (- (25 / 10) * dlim) 0 pm_i_count)) /\
  mtpc_row c dlim qlim t = Ok {| pr_t := t; pr_d := d; pr_q := np_sign ((pc_lq c - pc_ld c) * t) * Rabs q; pr_psi := pm_flux c d (np_sign ((pc_lq c - pc_ld c) * t) * Rabs q) |}.
Proof.
  intros Hne. unfold mtpc_row. destruct (reqP (pc_ld c) (pc_lq c)) as [Z|_]; [contradiction|]. cbn zeta.
  match goal with |- context [argmin (map ?g ?l)] => set (cur := l); set (gg := g) end.
  assert (L : map gg cur <> []). { unfold cur. destruct (req (pc_psi c) 0); intros N; apply (f_equal (@length R)) in N; rewrite !map_length, linspace_length in N; discriminate. }
  destruct (argmin_spec _ L) as (k & v & Ek & Nk & _). rewrite Ek. cbn [bind]. destruct (nth_error cur k) as [[d q]|] eqn:E.
  - exists d, q. split; [|reflexivity]. apply nth_error_In in E. unfold cur in E. destruct (req (pc_psi c) 0); apply in_map_iff in E; destruct E as (x & Ex & Hx); apply pair_equal_spec in Ex; destruct Ex as [<- <-]; split; (reflexivity || exact Hx).
  - exfalso. apply nth_error_None in E. assert (nth_error (map gg cur) k <> None) as X by congruence. apply nth_error_Some in X. rewrite map_length in X. lia.
Qed.
Lemma even_grid_nonzero a k : a <> 0 -> (k < 500)%nat -> - (25 / 10) * a + INR k * ((25 / 10 * a - - (25 / 10) * a) / INR (500 - 1)) <> 0.
Proof.
  intros Ha Hk H. replace (500 - 1)%nat with 499%nat in H by reflexivity. replace (INR 499) with 499 in H by (rewrite INR_IZR_INZ; reflexivity). assert (X : a * (2 * INR k - 499) = 0) by lra. apply Rmult_integral in X. destruct X as [X|X]; [contradiction|]. rewrite INR_IZR_INZ in X. assert (Y : IZR (2 * Z.of_nat k) = IZR 499) by (rewrite mult_IZR; lra). apply eq_IZR in Y. lia.
Qed.
(** A row of the reluctance motor's table gives the torque of the row, with d <= 0. *)
Lemma mtpc_row_synrm c dlim qlim t row : pc_ld c <> pc_lq c -> pc_psi c = 0 -> 0 < pc_p c -> qlim <> 0 -> mtpc_row c dlim qlim t = Ok row -> pr_t row = t /\ pr_d row <= 0 /\ torque_of (pc_p c) (pc_ld c) (pc_lq c) 0 (pr_d row) (pr_q row) = t.
Proof.
  intros Hne Hpsi Hp Hl H. destruct (mtpc_row_pick c dlim qlim t Hne) as (d & q & X & E). rewrite H in E. apply ok_inj in E. subst row. cbn [pr_t pr_d pr_q]. destruct (reqP (pc_psi c) 0) as [_|N]; [|contradiction]. destruct X as [Hd Hq].
  assert (Q : q <> 0). { apply In_nth_error in Hq. destruct Hq as (k & Hk). assert (Kk : (k < pm_i_count)%nat) by (rewrite <- (linspace_length (- (25 / 10) * qlim) (25 / 10 * qlim) pm_i_count); apply nth_error_Some; rewrite Hk; discriminate). rewrite linspace_nth in Hk by exact Kk. assert (Z : q = - (25 / 10) * qlim + INR k * ((25 / 10 * qlim - - (25 / 10) * qlim) / INR (pm_i_count - 1))) by congruence. rewrite Z. apply even_grid_nonzero; [exact Hl|exact Kk]. }
  split; [reflexivity|]. split; [rewrite Hd; pose proof (Rabs_pos (t / (15 / 10 * pc_p c * (pc_ld c - pc_lq c) * q))); lra|].
  unfold torque_of. rewrite Rplus_0_l. rewrite Hd. set (D := pc_ld c - pc_lq c). replace ((pc_lq c - pc_ld c) * t) with (- (D * t)) by (unfold D; ring). rewrite sign_opp. assert (HD : D <> 0) by (unfold D; lra).
  assert (AB : Rabs (t / (15 / 10 * pc_p c * D * q)) = Rabs t / (15 / 10 * pc_p c * Rabs D * Rabs q)) by (unfold Rdiv at 1; rewrite Rabs_mult, Rabs_inv, (Rabs_mult _ q), (Rabs_mult _ D), (Rabs_pos_eq (15 / 10 * pc_p c)) by lra; reflexivity). rewrite AB.
  assert (QA : Rabs q <> 0) by (apply Rabs_no_R0; exact Q). assert (DA : Rabs D <> 0) by (apply Rabs_no_R0; exact HD).
  replace (3 / 2 * pc_p c * (D * - (Rabs t / (15 / 10 * pc_p c * Rabs D * Rabs q))) * (- np_sign (D * t) * Rabs q)) with (D / Rabs D * (np_sign (D * t) * Rabs t)) by (field; repeat split; lra).
  assert (F : D / Rabs D * np_sign (D * t) = np_sign t). { destruct (Rlt_dec D 0) as [N|N]; [rewrite sign_neg_mul by exact N; rewrite Rabs_left by exact N; field; lra|rewrite sign_pos_mul by lra; rewrite Rabs_pos_eq by lra; field; lra]. }
  rewrite <- Rmult_assoc, F. apply sign_abs.
Qed.
(** A row of the permanent magnet motor's table: right for l_d < l_q, reversed for l_d > l_q. *)
Theorem pmsm_mtpc_sign_refuted :
  forall c dlim qlim t row, pc_ld c <> pc_lq c -> pc_psi c <> 0 -> 0 < pc_p c -> mtpc_row c dlim qlim t = Ok row -> 0 < pc_psi c + (pc_ld c - pc_lq c) * pr_d row ->
  pr_t row = t /\ torque_of (pc_p c) (pc_ld c) (pc_lq c) (pc_psi c) (pr_d row) (pr_q row) = (if rlt (pc_ld c) (pc_lq c) then t else - t).
Proof.
  intros c dlim qlim t row Hne Hpsi Hp H Hf. destruct (mtpc_row_pick c dlim qlim t Hne) as (d & q & X & E). rewrite H in E. apply ok_inj in E. subst row. cbn [pr_t pr_d pr_q] in *. split; [reflexivity|]. destruct (reqP (pc_psi c) 0) as [N|_]; [contradiction|]. destruct X as [Hq Hd].
  set (e := pc_psi c + (pc_ld c - pc_lq c) * d) in *. assert (EE : d * (pc_ld c - pc_lq c) + pc_psi c = e) by (unfold e; ring). rewrite EE in Hq. unfold torque_of. fold e. rewrite Hq. assert (AB : Rabs (t / e / (15 / 10 * pc_p c)) = Rabs t / e / (15 / 10 * pc_p c)) by (unfold Rdiv at 1; rewrite Rabs_mult, Rabs_inv, (Rabs_pos_eq (15 / 10 * pc_p c)) by lra; unfold Rdiv at 1; rewrite Rabs_mult, Rabs_inv, (Rabs_pos_eq e) by lra; reflexivity). rewrite AB.
  replace (3 / 2 * pc_p c * e * (np_sign ((pc_lq c - pc_ld c) * t) * (Rabs t / e / (15 / 10 * pc_p c)))) with (np_sign ((pc_lq c - pc_ld c) * t) * Rabs t) by (field; repeat split; lra).
  destruct (rltP (pc_ld c) (pc_lq c)) as [A|A]; [rewrite sign_pos_mul by lra; apply sign_abs|rewrite sign_neg_mul by lra; rewrite Ropp_mult_distr_l_reverse, sign_abs; reflexivity].
Qed.
Print Assumptions pmsm_mtpc_sign_refuted.
(** For l_d > l_q and a weak saliency every row is reversed. *)
Corollary pmsm_mtpc_all_reversed_refuted :
  forall c dlim qlim t row, pc_lq c < pc_ld c -> 0 <= dlim -> 25 / 10 * dlim * (pc_ld c - pc_lq c) < pc_psi c -> 0 < pc_p c -> mtpc_row c dlim qlim t = Ok row -> torque_of (pc_p c) (pc_ld c) (pc_lq c) (pc_psi c) (pr_d row) (pr_q row) = - t.
Proof.
  intros c dlim qlim t row Hl Hd Hs Hp H. assert (P0 : 0 < pc_psi c). { eapply Rle_lt_trans; [|exact Hs]. apply Rmult_le_pos; lra. }
  destruct (mtpc_row_pick c dlim qlim t ltac:(lra)) as (d & q & X & E). pose proof E as E1. rewrite H in E1. apply ok_inj in E1. destruct (reqP (pc_psi c) 0) as [N|_]; [lra|]. destruct X as [_ Hd1].
  assert (DD : - (25 / 10) * dlim <= d). { apply In_nth_error in Hd1. destruct Hd1 as (k & Hk). assert (Kk : (k < pm_i_count)%nat) by (rewrite <- (linspace_length (- (25 / 10) * dlim) 0 pm_i_count); apply nth_error_Some; rewrite Hk; discriminate). rewrite linspace_nth in Hk by exact Kk. assert (Z : d = - (25 / 10) * dlim + INR k * ((0 - - (25 / 10) * dlim) / INR (pm_i_count - 1))) by congruence. rewrite Z. assert (0 <= INR k * ((0 - - (25 / 10) * dlim) / INR (pm_i_count - 1))); [|lra]. apply Rmult_le_pos; [apply pos_INR|]. apply Rmult_le_pos; [lra|]. left. apply Rinv_0_lt_compat. apply lt_0_INR. unfold pm_i_count. lia. }
  destruct (pmsm_mtpc_sign_refuted c dlim qlim t row ltac:(lra) ltac:(lra) Hp H) as [_ T].
  - rewrite E1. cbn [pr_d]. pose proof (Rmult_le_compat_r (pc_ld c - pc_lq c) _ _ ltac:(lra) DD). lra.
  - rewrite T. destruct (rltP (pc_ld c) (pc_lq c)) as [A|A]; [lra|reflexivity].
Qed.
Print Assumptions pmsm_mtpc_all_reversed_refuted.
Example pmsm_mtpc_example : exists row, mtpc_row {| pc_ld := 2 / 1000; pc_lq := 1 / 1000; pc_psi := 1; pc_p := 3 |} 100 100 20 = Ok row /\ 25 / 10 * 100 * (2 / 1000 - 1 / 1000) < 1 /\ exists row2, mtpc_row {| pc_ld := 1 / 1000; pc_lq := 2 / 1000; pc_psi := 1; pc_p := 3 |} 100 100 20 = Ok row2.
Proof.
  destruct (mtpc_row_pick {| pc_ld := 2 / 1000; pc_lq := 1 / 1000; pc_psi := 1; pc_p := 3 |} 100 100 20 ltac:(cbn; lra)) as (d & q & _ & E). destruct (mtpc_row_pick {| pc_ld := 1 / 1000; pc_lq := 2 / 1000; pc_psi := 1; pc_p := 3 |} 100 100 20 ltac:(cbn; lra)) as (d2 & q2 & _ & E2). eexists. split; [exact E|]. split; [lra|]. eexists. exact E2.
Qed.

(** ** The selection *)
Lemma pmsm_tune_inv amax damping old e nom margin o m : pmsm_tune amax damping old e nom margin = Ok (o, m) ->
  exists f0 dl ql, foc_tune amax old e nom margin = Ok (f0, m) /\ item (ce_limits e) (fp_isd f0) = Ok dl /\ item (ce_limits e) (fp_isq f0) = Ok ql /\ fp_dlim f0 = dl * (1 - margin) /\ fp_qlim f0 = ql * (1 - margin) /\ fp_dlim (q_f o) = fp_dlim f0 /\ fp_qlim (q_f o) = fp_qlim f0 /\
  pc_p (q_c o) = fp_p f0 /\ (pc_psi (q_c o) = match dict_get "psi_p" (ce_par e) with Some x => x | None => 0 end) /\ par "l_d" (ce_par e) = Ok (pc_ld (q_c o)) /\ par "l_q" (ce_par e) = Ok (pc_lq (q_c o)) /\
  mtpc_table (q_c o) dl ql (q_maxt o) = Ok (q_mtpc o) /\ q_mtpf o = mtpf_table (q_c o) (fp_dlim f0) (fp_qlim f0) /\ np_max (map pr_psi (mtpf_half (q_c o) (fp_dlim f0) (fp_qlim f0))) = Ok (q_psimax o) /\
  q_inv o = (if req (pc_psi (q_c o)) 0 && rlt (pc_lq (q_c o)) (pc_ld (q_c o)) then -1 else 1).
Proof.
  intros H. unfold pmsm_tune in H. apply bind_ok in H. destruct H as ([f0 m0] & E0 & H). cbn [fst snd] in H. apply bind_ok in H. destruct H as (ld & Eld & H). apply bind_ok in H. destruct H as (lq & Elq & H). apply bind_ok in H. destruct H as (rs & _ & H). cbn zeta in H. apply bind_ok in H. destruct H as (tl & _ & H). apply bind_ok in H. destruct H as (dl & Edl & H). apply bind_ok in H. destruct H as (ql & Eql & H). apply bind_ok in H. destruct H as (tab & Etab & H). apply bind_ok in H. destruct H as (pm & Epm & H).
  apply ok_inj in H. apply pair_equal_spec in H. destruct H as [<- <-]. cbn [q_f q_c q_inv q_maxt q_mtpc q_mtpf q_psimax pc_ld pc_lq pc_psi pc_p foc_fill fp_dlim fp_qlim].
  exists f0, dl, ql. split; [exact E0|]. split; [exact Edl|]. split; [exact Eql|]. pose proof E0 as E1. unfold foc_tune in E1. do 7 (apply bind_ok in E1; destruct E1 as (? & ? & E1)). do 2 (apply bind_ok in E1; destruct E1 as (? & _ & E1)). apply bind_ok in E1. destruct E1 as (ld' & Eld' & E1). apply bind_ok in E1. destruct E1 as (lq' & Elq' & E1). apply bind_ok in E1. destruct E1 as (? & _ & E1). apply ok_inj in E1. apply pair_equal_spec in E1. destruct E1 as [F _]. rewrite <- F in Edl, Eql. cbn [fp_isd fp_isq] in Edl, Eql. rewrite Edl in Eld'. rewrite Eql in Elq'. apply ok_inj in Eld', Elq'. subst ld' lq'.
  split; [rewrite <- F; reflexivity|]. split; [rewrite <- F; reflexivity|]. repeat (split; [first [reflexivity|exact Eld|exact Elq|exact Etab|exact Epm]|]). reflexivity.
Qed.
(** A call that returns: the limited reference [t], the row of the maximum torque per current
    and of the maximum torque per flux, and which of the three operating points is taken. *)
Lemma pmsm_select_cases roots o m x r rest m' d q : pmsm_select roots o m x (r :: rest) = (m', Ok [d; q]) ->
  exists row rf t psi, np_at (q_mtpc o) (t_idx_mtpc o r) = Ok row /\ np_at (q_mtpf o) (psi_idx_mtpf o psi) = Ok rf /\ psi <= pr_psi row /\
  t = (if rlt (Rabs (pr_t rf)) (Rabs r) then np_sign r * Rabs (pr_t rf) else r) /\
  ((d = pr_d rf /\ q = q_inv o * (np_sign t * Rabs (pr_q rf))) \/ (pr_d rf <= d /\ d = pr_d row /\ q = q_inv o * pr_q row) \/
   (pr_d rf <= d /\ d <= pr_d row /\ q = q_inv o * (2 * t / (3 * pc_p (q_c o) * (pc_psi (q_c o) + (pc_ld (q_c o) - pc_lq (q_c o)) * d))))).
Proof.
  intros H. unfold pmsm_select in H. cbn [item nth_error bind] in H. destruct (np_at (q_mtpc o) (t_idx_mtpc o r)) as [row|] eqn:Er; [|discriminate]. cbn [bind] in H. destruct (modulation (q_f o) m x) as [m1 pm]. apply pair_equal_spec in H. destruct H as [_ H]. apply bind_ok in H. destruct H as (pmx & _ & H). cbn zeta in H. apply bind_ok in H. destruct H as (rf & Erf & H).
  apply bind_ok in H. destruct H as (y & Ey & H). unfold get_i_d_q in Ey. apply bind_ok in Ey. destruct Ey as (z & Ez & Ey). unfold solve_analytical in Ez. apply bind_ok in Ez. destruct Ez as (d0 & _ & Ez). apply ok_inj in Ez, Ey, H.
  match type of Ez with (_, 2 * ?tt / _) = _ => set (t := tt) in * end. exists row, rf, t, (Rmin (pr_psi row) pmx). split; [reflexivity|]. split; [exact Erf|]. split; [apply Rmin_l|]. split; [reflexivity|].
  assert (HQ : forall a b : R, [a; b] = [d; q] -> a = d /\ b = q) by (intros a b X; split; congruence).
  destruct (rltP (fst y) (pr_d rf)) as [A|A]; apply HQ in H; destruct H as [H1 H2]; cbn [fst snd] in H1, H2; [left; split; symmetry; assumption|right].
  rewrite <- H1. destruct (rltP (pr_d row) (fst z)) as [B|B]; subst y; cbn [fst snd] in *; [left|right].
  - split; [lra|]. split; [reflexivity|symmetry; exact H2].
  - split; [lra|]. split; [lra|]. rewrite <- Ez in *. cbn [fst snd] in *. symmetry. exact H2.
Qed.
(** A torque reference one grid step above the table raises IndexError. *)
Lemma mtpc_length amax damping old e nom margin o m : pmsm_tune amax damping old e nom margin = Ok (o, m) -> length (q_mtpc o) = 250%nat.
Proof. intros H. destruct (pmsm_tune_inv _ _ _ _ _ _ _ _ H) as (f0 & dl & ql & _ & _ & _ & _ & _ & _ & _ & _ & _ & _ & _ & T & _). unfold mtpc_table in T. destruct (mapm_spec _ _ _ T) as [L _]. rewrite L, linspace_length. reflexivity. Qed.
Theorem pmsm_reference_above_table_refuted :
  forall amax damping old e nom margin o m0 roots m x r rest, pmsm_tune amax damping old e nom margin = Ok (o, m0) -> 0 < q_maxt o -> q_maxt o * (1 + 1 / 249) < r ->
  pmsm_select roots o m x (r :: rest) = (m, Err IndexError).
Proof.
  intros amax damping old e nom margin o m0 roots m x r rest H HM Hr. unfold pmsm_select. cbn [item nth_error bind]. assert (X : np_at (q_mtpc o) (t_idx_mtpc o r) = Err IndexError); [|rewrite X; reflexivity].
  assert (Z : t_idx_mtpc o r = 250%Z). { unfold t_idx_mtpc, z_clip. pose proof (py_round_near ((r + q_maxt o) / (2 * q_maxt o) * INR (pm_t_count - 1))) as N. set (y := (r + q_maxt o) / (2 * q_maxt o) * INR (pm_t_count - 1)) in *.
    assert (Y : 499 / 2 < y). { unfold y, pm_t_count. replace (INR (250 - 1)) with 249 by (rewrite INR_IZR_INZ; reflexivity). assert (I : 0 < / (2 * q_maxt o)) by (apply Rinv_0_lt_compat; lra). assert (W : 2 * q_maxt o * (499 / 498) < r + q_maxt o) by lra. pose proof (Rmult_lt_compat_r _ _ _ I W) as V. replace (2 * q_maxt o * (499 / 498) * / (2 * q_maxt o)) with (499 / 498) in V by (field; lra). fold (Rdiv (r + q_maxt o) (2 * q_maxt o)) in V. set (v := (r + q_maxt o) / (2 * q_maxt o)) in *. lra. }
    assert (IZR 249 < IZR (py_round y)) as V by (unfold Rabs in N; destruct (Rcase_abs _) in N; lra). apply lt_IZR in V. unfold pm_t_count. lia. }
  rewrite Z. unfold np_at. rewrite (mtpc_length _ _ _ _ _ _ _ _ H). cbn [Z.ltb Z.compare]. assert (NE : nth_error (q_mtpc o) (Z.to_nat 250) = None) by (apply nth_error_None; rewrite (mtpc_length _ _ _ _ _ _ _ _ H); lia). rewrite NE. reflexivity.
Qed.
Print Assumptions pmsm_reference_above_table_refuted.
(** A reference in the table's range finds the row whose torque is nearest. *)
Lemma mtpc_nearest amax damping old e nom margin o m0 r row : pmsm_tune amax damping old e nom margin = Ok (o, m0) -> 0 < q_maxt o -> Rabs r <= q_maxt o -> np_at (q_mtpc o) (t_idx_mtpc o r) = Ok row ->
  exists t dl ql, mtpc_row (q_c o) dl ql t = Ok row /\ item (ce_limits e) (fp_isq (q_f o)) = Ok ql /\ item (ce_limits e) (fp_isd (q_f o)) = Ok dl /\ t <> 0 /\ Rabs (t - r) <= q_maxt o / 249.
Proof.
  intros H HM Hr Er. destruct (pmsm_tune_inv _ _ _ _ _ _ _ _ H) as (f0 & dl & ql & E0 & Edl & Eql & _ & _ & _ & _ & _ & _ & _ & _ & T & _). unfold mtpc_table in T. destruct (mapm_spec _ _ _ T) as [L S]. rewrite linspace_length in L.
  assert (Hr' : - q_maxt o <= r <= q_maxt o) by (unfold Rabs in Hr; destruct (Rcase_abs r) in Hr; lra). set (y := (r + q_maxt o) / (2 * q_maxt o) * INR (pm_t_count - 1)) in *. assert (N249 : INR (pm_t_count - 1) = 249) by (rewrite INR_IZR_INZ; reflexivity).
  assert (Y : 0 <= y <= INR 249). { unfold y. rewrite N249. replace (INR 249) with 249 by (rewrite INR_IZR_INZ; reflexivity). assert (I : 0 < / (2 * q_maxt o)) by (apply Rinv_0_lt_compat; lra). assert (Q : 0 <= (r + q_maxt o) / (2 * q_maxt o) <= 1). { split; [apply Rmult_le_pos; lra|]. unfold Rdiv. rewrite <- (Rinv_r (2 * q_maxt o)) by lra. apply Rmult_le_compat_r; lra. } lra. }
  pose proof (py_round_range y 249 Y) as RR. pose proof (py_round_near y) as NN. assert (Zi : t_idx_mtpc o r = Z.of_nat (Z.to_nat (py_round y))) by (unfold t_idx_mtpc, z_clip; fold y; unfold pm_t_count; lia). set (k := Z.to_nat (py_round y)) in *. assert (Hk : (k < 250)%nat) by (unfold k; lia).
  rewrite Zi in Er. assert (NE : nth_error (q_mtpc o) k = Some row). { destruct (np_at_ok (q_mtpc o) (Z.of_nat k) ltac:(rewrite L; unfold pm_t_count; lia)) as (row' & E1 & E2). rewrite Er in E1. apply ok_inj in E1. subst row'. rewrite Nat2Z.id in E2. exact E2. }
  pose proof (linspace_nth (- q_maxt o) (q_maxt o) pm_t_count k Hk) as X. destruct (S k _ X) as (row' & Erow & N2). rewrite NE in N2. injection N2 as <-. rewrite N249 in *. eexists. exists dl, ql. split; [exact Erow|].
  assert (FI : fp_isq (q_f o) = fp_isq f0 /\ fp_isd (q_f o) = fp_isd f0). { unfold pmsm_tune in H. rewrite E0 in H. cbn [bind fst snd] in H. do 8 (apply bind_ok in H; destruct H as (? & _ & H)). apply ok_inj in H. apply pair_equal_spec in H. destruct H as [<- _]. split; reflexivity. }
  destruct FI as [FI1 FI2]. rewrite FI1, FI2. split; [exact Eql|]. split; [exact Edl|]. split.
  { intros Z. assert (W : q_maxt o * (2 * INR k - 249) = 0) by lra. apply Rmult_integral in W. destruct W as [W|W]; [lra|]. rewrite INR_IZR_INZ in W. assert (V : IZR (2 * Z.of_nat k) = IZR 249) by (rewrite mult_IZR; lra). apply eq_IZR in V. lia. }
  assert (KY : Rabs (INR k - y) <= 1 / 2) by (unfold k; rewrite INR_IZR_INZ, Z2Nat.id by lia; exact NN). unfold y in KY. rewrite N249 in KY. replace (- q_maxt o + INR k * ((q_maxt o - - q_maxt o) / 249) - r) with (2 * q_maxt o / 249 * (INR k - (r + q_maxt o) / (2 * q_maxt o) * 249)) by (field; lra). rewrite Rabs_mult, (Rabs_pos_eq (2 * q_maxt o / 249)) by lra. eapply Rle_trans; [apply Rmult_le_compat_l; [lra|exact KY]|]. lra.
Qed.

(** ** The maximum torque per flux table of the reluctance motor *)
(** Row number k: both currents are k/249 of the limit. *)
Definition synrm_row (c : pconst) (L : R) (k : nat) : prow :=
  let a := INR k * (L / 249) in {| pr_t := 15 / 10 * pc_p c * ((pc_ld c - pc_lq c) * - a) * a; pr_d := - a; pr_q := a; pr_psi := a * sqrt (pc_ld c * pc_ld c + pc_lq c * pc_lq c) |}.
Lemma prow_eq a b c d a' b' c' d' : a = a' -> b = b' -> c = c' -> d = d' -> {| pr_t := a; pr_d := b; pr_q := c; pr_psi := d |} = {| pr_t := a'; pr_d := b'; pr_q := c'; pr_psi := d' |}.
Proof. intros -> -> -> ->. reflexivity. Qed.
Lemma mtpf_step_synrm c L k st : pc_psi c = 0 -> 0 < L -> 0 < pc_ld c -> snd (mtpf_step c L L (0 + INR k * ((sqrt ((pc_psi c + pc_ld c * L) * (pc_psi c + pc_ld c * L) + pc_lq c * L * (pc_lq c * L)) - 0) / INR (pm_psi_count - 1))) st) = if (k <=? 176)%nat then Some (synrm_row c L k) else None.
Proof.
  intros Hpsi HL Hld. set (S := sqrt (pc_ld c * pc_ld c + pc_lq c * pc_lq c)). assert (HS : 0 < S). { apply sqrt_lt_R0. pose proof (Rmult_lt_0_compat _ _ Hld Hld). pose proof (Rle_0_sqr (pc_lq c)) as Q. unfold Rsqr in Q. lra. }
  assert (T : sqrt ((pc_psi c + pc_ld c * L) * (pc_psi c + pc_ld c * L) + pc_lq c * L * (pc_lq c * L)) = L * S). { rewrite Hpsi. replace ((0 + pc_ld c * L) * (0 + pc_ld c * L) + pc_lq c * L * (pc_lq c * L)) with (L * L * (pc_ld c * pc_ld c + pc_lq c * pc_lq c)) by ring. rewrite sqrt_mult_alt by (apply Rmult_le_pos; lra). rewrite sqrt_square by lra. reflexivity. }
  rewrite T. replace (INR (pm_psi_count - 1)) with 249 by (rewrite INR_IZR_INZ; reflexivity). set (a := INR k * (L / 249)). replace (0 + INR k * ((L * S - 0) / 249)) with (a * S) by (unfold a; field).
  unfold mtpf_step. destruct st as [[t bd] bq]. destruct k as [|k].
  - assert (A0 : a = 0) by (unfold a; change (INR 0) with 0; ring). rewrite A0, Rmult_0_l. destruct (reqP 0 0) as [_|N]; [|contradiction]. cbn [snd Nat.leb]. f_equal. unfold synrm_row. fold S. cbn zeta. change (INR 0) with 0. rewrite Hpsi. apply prow_eq; unfold Rdiv; ring.
  - assert (KP : 0 < INR (Datatypes.S k)) by (apply lt_0_INR; lia). assert (AP : 0 < a) by (unfold a; apply Rmult_lt_0_compat; lra). destruct (reqP (a * S) 0) as [N|_]; [pose proof (Rmult_lt_0_compat _ _ AP HS); lra|].
    destruct (reqP (pc_psi c) 0) as [_|N]; [|contradiction]. fold S. replace (a * S / S) with a by (field; lra). cbn [snd]. assert (B : rle (sqrt (- a * - a + a * a)) L = (Datatypes.S k <=? 176)%nat).
    { assert (Q : - a * - a + a * a = 2 * INR (Datatypes.S k * Datatypes.S k) * (L / 249 * (L / 249))) by (rewrite mult_INR; unfold a; ring). rewrite Q. set (n := Datatypes.S k) in *. destruct (Nat.leb_spec n 176) as [H1|H1].
      - apply rle_true. apply (Rle_trans _ (sqrt (L * L))); [|rewrite sqrt_square; lra]. apply sqrt_le_1_alt. assert (M : INR (n * n) <= 30976). { replace 30976 with (INR 176 * INR 176) by (rewrite !INR_IZR_INZ; cbn; lra). rewrite mult_INR. apply Rmult_le_compat; try apply pos_INR; apply le_INR; lia. } pose proof (Rmult_le_compat_r (L / 249 * (L / 249)) _ _ ltac:(apply Rmult_le_pos; lra) M). pose proof (Rmult_lt_0_compat _ _ HL HL). lra.
      - destruct (rleP (sqrt (2 * INR (n * n) * (L / 249 * (L / 249)))) L) as [C|C]; [|reflexivity]. exfalso. assert (M : 31329 <= INR (n * n)). { replace 31329 with (INR 177 * INR 177) by (rewrite !INR_IZR_INZ; cbn; lra). rewrite mult_INR. apply Rmult_le_compat; try apply pos_INR; apply le_INR; lia. }
        assert (P : 0 < L / 249 * (L / 249)) by (apply Rmult_lt_0_compat; lra). assert (P2 : L * L < 2 * INR (n * n) * (L / 249 * (L / 249))). { replace (L * L) with (62001 * (L / 249 * (L / 249))) by field. apply Rmult_lt_compat_r; lra. }
        assert (P3 : sqrt (L * L) < sqrt (2 * INR (n * n) * (L / 249 * (L / 249)))) by (apply sqrt_lt_1_alt; split; [apply Rmult_le_pos; lra|exact P2]). rewrite sqrt_square in P3 by lra. lra. }
    rewrite B. destruct (Datatypes.S k <=? 176)%nat; [|reflexivity]. f_equal. unfold synrm_row. fold S. cbn zeta. fold a. rewrite Hpsi. apply prow_eq; ring.
Qed.
Lemma mtpf_loop_flat c isd isq (g : R -> option prow) l : (forall x st, In x l -> snd (mtpf_step c isd isq x st) = g x) -> forall st, mtpf_loop c isd isq l st = flat_map (fun x => match g x with Some y => [y] | None => [] end) l.
Proof.
  induction l as [|x l IH]; intros H st; [reflexivity|]. cbn [mtpf_loop flat_map]. pose proof (H x st (or_introl eq_refl)) as E. destruct (mtpf_step c isd isq x st) as [st' row]. cbn [snd] in E. subst row. rewrite (IH ltac:(intros y s Hy; apply H; right; exact Hy) st'). destruct (g x); reflexivity.
Qed.
Lemma mtpf_loop_seq c isd isq (f : nat -> R) (g : nat -> option prow) l : (forall k st, In k l -> snd (mtpf_step c isd isq (f k) st) = g k) -> forall st, mtpf_loop c isd isq (map f l) st = flat_map (fun k => match g k with Some y => [y] | None => [] end) l.
Proof.
  induction l as [|x l IH]; intros H st; [reflexivity|]. cbn [map mtpf_loop flat_map]. pose proof (H x st (or_introl eq_refl)) as E. destruct (mtpf_step c isd isq (f x) st) as [st' row]. cbn [snd] in E. subst row. rewrite (IH ltac:(intros y s Hy; apply H; right; exact Hy) st'). destruct (g x); reflexivity.
Qed.
Lemma flat_some {B} (f : nat -> option B) (g : nat -> B) l : (forall k, In k l -> f k = Some (g k)) -> flat_map (fun k => match f k with Some y => [y] | None => [] end) l = map g l.
Proof. induction l as [|x l IH]; intros H; [reflexivity|]. cbn. rewrite (H x (or_introl eq_refl)), IH by (intros k Hk; apply H; right; exact Hk). reflexivity. Qed.
Lemma flat_none {B} (f : nat -> option B) l : (forall k, In k l -> f k = None) -> flat_map (fun k => match f k with Some y => [y] | None => [] end) l = [].
Proof. induction l as [|x l IH]; intros H; [reflexivity|]. cbn. rewrite (H x (or_introl eq_refl)), IH by (intros k Hk; apply H; right; exact Hk). reflexivity. Qed.
(** 73 of the 250 flux values are left out of the table. *)
Lemma mtpf_half_synrm c L : pc_psi c = 0 -> 0 < L -> 0 < pc_ld c -> mtpf_half c L L = map (synrm_row c L) (seq 0 177).
Proof.
  intros Hp HL Hd. unfold mtpf_half, linspace. rewrite (mtpf_loop_seq c L L _ (fun k => if (k <=? 176)%nat then Some (synrm_row c L k) else None)).
  - replace (seq 0 pm_psi_count) with (seq 0 177 ++ seq 177 73) by reflexivity. rewrite flat_map_app. rewrite (flat_some _ (synrm_row c L)), flat_none; [apply app_nil_r| |].
    + intros k Hk. apply in_seq in Hk. destruct (Nat.leb_spec k 176) as [X|X]; [lia|reflexivity].
    + intros k Hk. apply in_seq in Hk. destruct (Nat.leb_spec k 176) as [X|X]; [reflexivity|lia].
  - intros k st _. apply mtpf_step_synrm; assumption.
Qed.
Lemma nth_error_rev {A} (l : list A) k : (k < length l)%nat -> nth_error (rev l) k = nth_error l (length l - 1 - k).
Proof.
  intros H. destruct (nth_error (rev l) k) as [a|] eqn:E; [|apply nth_error_None in E; rewrite rev_length in E; lia]. destruct (nth_error l (length l - 1 - k)) as [b|] eqn:F; [|apply nth_error_None in F; lia].
  pose proof (nth_error_nth (rev l) k a E) as X. pose proof (nth_error_nth l (length l - 1 - k) a F) as Y. rewrite rev_nth in X by exact H. rewrite <- X, <- Y. do 2 f_equal. lia.
Qed.
Lemma mtpf_table_synrm c L : pc_psi c = 0 -> 0 < L -> 0 < pc_ld c -> forall j, (j < 354)%nat -> nth_error (mtpf_table c L L) j = Some (if (j <=? 176)%nat then mtpf_neg (synrm_row c L (176 - j)) else synrm_row c L (j - 177)).
Proof.
  intros Hp HL Hd j Hj. unfold mtpf_table. rewrite (mtpf_half_synrm c L Hp HL Hd). cbn zeta. set (h := map (synrm_row c L) (seq 0 177)). assert (LH : length h = 177%nat) by (unfold h; rewrite map_length, seq_length; reflexivity).
  assert (NH : forall k, (k < 177)%nat -> nth_error h k = Some (synrm_row c L k)) by (intros k Hk; unfold h; apply (map_nth_error (synrm_row c L)); rewrite (nth_error_seq 177 0 k Hk); reflexivity).
  destruct (Nat.leb_spec j 176) as [A|A].
  - rewrite nth_error_app1 by (rewrite map_length, rev_length, LH; lia). apply (map_nth_error mtpf_neg). rewrite nth_error_rev by lia. rewrite LH. replace (177 - 1 - j)%nat with (176 - j)%nat by lia. apply NH. lia.
  - rewrite nth_error_app2 by (rewrite map_length, rev_length, LH; lia). rewrite map_length, rev_length, LH. apply NH. lia.
Qed.
(** The look-up counts on 250 rows: for a flux the row of another flux is found, unless the
    flux is the largest.  [j] is the position; (249 - j) / 249 of the largest flux was meant. *)
Lemma synrm_psimax amax damping old e nom margin o m L : pmsm_tune amax damping old e nom margin = Ok (o, m) -> pc_psi (q_c o) = 0 -> 0 < pc_ld (q_c o) -> fp_dlim (q_f o) = L -> fp_qlim (q_f o) = L -> 0 < L ->
  q_psimax o = pr_psi (synrm_row (q_c o) L 176) /\ 0 < q_psimax o.
Proof.
  intros H Hp Hd H1 H2 HL. destruct (pmsm_tune_inv _ _ _ _ _ _ _ _ H) as (f0 & dl & ql & _ & _ & _ & _ & _ & F1 & F2 & _ & _ & _ & _ & _ & _ & PM & _). rewrite <- F1, <- F2, H1, H2 in PM. rewrite (mtpf_half_synrm _ _ Hp HL Hd), map_map in PM. destruct (np_max_spec _ _ PM) as [A B].
  assert (S : 0 < sqrt (pc_ld (q_c o) * pc_ld (q_c o) + pc_lq (q_c o) * pc_lq (q_c o))). { apply sqrt_lt_R0. pose proof (Rmult_lt_0_compat _ _ Hd Hd). pose proof (Rle_0_sqr (pc_lq (q_c o))) as Q. unfold Rsqr in Q. lra. }
  assert (E : q_psimax o = pr_psi (synrm_row (q_c o) L 176)).
  { apply Rle_antisym; [|apply B; apply (in_map (fun x => pr_psi (synrm_row (q_c o) L x))); apply in_seq; lia]. apply in_map_iff in A. destruct A as (k & <- & Hk). apply in_seq in Hk. unfold synrm_row. cbn [pr_psi]. apply Rmult_le_compat_r; [lra|]. apply Rmult_le_compat_r; [lra|]. apply le_INR. lia. }
  split; [exact E|]. rewrite E. unfold synrm_row. cbn [pr_psi]. apply Rmult_lt_0_compat; [|exact S]. apply Rmult_lt_0_compat; [apply lt_0_INR; lia|lra].
Qed.
Theorem synrm_flux_lookup_refuted :
  forall amax damping old e nom margin o m L psi, pmsm_tune amax damping old e nom margin = Ok (o, m) -> pc_psi (q_c o) = 0 -> 0 < pc_ld (q_c o) -> fp_dlim (q_f o) = L -> fp_qlim (q_f o) = L -> 0 < L -> 0 <= psi <= q_psimax o ->
  exists j rf, (j <= 249)%nat /\ Rabs (INR (249 - j) - psi / q_psimax o * 249) <= 1 / 2 /\ np_at (q_mtpf o) (psi_idx_mtpf o psi) = Ok rf /\
  pr_psi rf = q_psimax o * (INR (if (j <=? 176)%nat then 176 - j else j - 177) / 176) /\ Rabs (pr_q rf) = L / 249 * INR (if (j <=? 176)%nat then 176 - j else j - 177) /\
  pr_d rf = - Rabs (pr_q rf) /\ Rabs (pr_t rf) = Rabs (15 / 10 * pc_p (q_c o) * (pc_ld (q_c o) - pc_lq (q_c o))) * (pr_q rf * pr_q rf).
Proof.
  intros amax damping old e nom margin o m L psi H Hp Hd H1 H2 HL Hpsi. destruct (synrm_psimax _ _ _ _ _ _ _ _ L H Hp Hd H1 H2 HL) as [PE PP].
  destruct (pmsm_tune_inv _ _ _ _ _ _ _ _ H) as (f0 & dl & ql & _ & _ & _ & _ & _ & F1 & F2 & _ & _ & _ & _ & _ & TF & _). rewrite <- F1, <- F2, H1, H2 in TF.
  set (y := psi / q_psimax o * INR (pm_psi_count - 1)). assert (N249 : INR (pm_psi_count - 1) = 249) by (rewrite INR_IZR_INZ; reflexivity).
  assert (Y : 0 <= y <= INR 249). { unfold y. rewrite N249. replace (INR 249) with 249 by (rewrite INR_IZR_INZ; reflexivity). assert (I : 0 < / q_psimax o) by (apply Rinv_0_lt_compat; exact PP). assert (Q : 0 <= psi / q_psimax o <= 1). { split; [apply Rmult_le_pos; lra|]. unfold Rdiv. rewrite <- (Rinv_r (q_psimax o)) by lra. apply Rmult_le_compat_r; lra. } lra. }
  pose proof (py_round_range y 249 Y) as RR. pose proof (py_round_near y) as NN. set (z := py_round y) in *. assert (Zi : psi_idx_mtpf o psi = Z.of_nat (249 - Z.to_nat z)) by (unfold psi_idx_mtpf, z_clip; fold y; fold z; unfold pm_psi_count; lia).
  set (j := (249 - Z.to_nat z)%nat) in *. exists j. pose proof (mtpf_table_synrm (q_c o) L Hp HL Hd j ltac:(unfold j; lia)) as NJ. rewrite <- TF in NJ. eexists. split; [unfold j; lia|]. split; [|split; [rewrite Zi; apply np_at_nat; exact NJ|]].
  - replace (249 - j)%nat with (Z.to_nat z) by (unfold j; lia). rewrite INR_IZR_INZ, Z2Nat.id by lia. unfold y in NN. rewrite N249 in NN. exact NN.
  - set (n := if (j <=? 176)%nat then (176 - j)%nat else (j - 177)%nat). assert (X : exists sg, (sg = 1 \/ sg = -1) /\ (if (j <=? 176)%nat then mtpf_neg (synrm_row (q_c o) L (176 - j)) else synrm_row (q_c o) L (j - 177)) = {| pr_t := sg * pr_t (synrm_row (q_c o) L n); pr_d := pr_d (synrm_row (q_c o) L n); pr_q := sg * pr_q (synrm_row (q_c o) L n); pr_psi := pr_psi (synrm_row (q_c o) L n) |}).
    { unfold n. destruct (j <=? 176)%nat; [exists (-1)|exists 1]; (split; [auto|]); [unfold mtpf_neg|unfold synrm_row; cbn [pr_t pr_d pr_q pr_psi]]; apply prow_eq; ring. }
    destruct X as (sg & Hsg & ->). cbn [pr_t pr_d pr_q pr_psi]. rewrite PE. unfold synrm_row. cbn [pr_t pr_d pr_q pr_psi]. assert (NP : 0 <= INR n) by apply pos_INR. assert (A : 0 <= INR n * (L / 249)) by (apply Rmult_le_pos; lra). assert (SQ : sg * sg = 1) by (destruct Hsg as [-> | ->]; ring).
    assert (SA : forall v, 0 <= v -> Rabs (sg * v) = v) by (intros v Hv; rewrite Rabs_mult, (Rabs_pos_eq v Hv); destruct Hsg as [-> | ->]; unfold Rabs; destruct (Rcase_abs _); lra).
    split; [replace (INR 176) with 176 by (rewrite INR_IZR_INZ; reflexivity); field|]. split; [rewrite SA by exact A; ring|]. split; [rewrite SA by exact A; reflexivity|].
    set (a := INR n * (L / 249)) in *. set (K := 15 / 10 * pc_p (q_c o) * (pc_ld (q_c o) - pc_lq (q_c o))). replace (sg * (15 / 10 * pc_p (q_c o) * ((pc_ld (q_c o) - pc_lq (q_c o)) * - a) * a)) with (- (sg * K) * (a * a)) by (unfold K; ring). replace (sg * a * (sg * a)) with (a * a) by (replace (sg * a * (sg * a)) with (sg * sg * (a * a)) by ring; rewrite SQ; ring). rewrite Rabs_mult, Rabs_Ropp, (Rabs_pos_eq (a * a)) by (apply Rmult_le_pos; exact A). apply (f_equal (fun v => v * (a * a))). rewrite Rabs_mult. destruct Hsg as [-> | ->]; unfold Rabs at 1; destruct (Rcase_abs _); lra.
Qed.
Print Assumptions synrm_flux_lookup_refuted.
(** At zero flux the stage allows the torque of 72/176 of the largest flux. *)
Corollary synrm_zero_flux_torque_refuted :
  forall amax damping old e nom margin o m L, pmsm_tune amax damping old e nom margin = Ok (o, m) -> pc_psi (q_c o) = 0 -> 0 < pc_ld (q_c o) -> fp_dlim (q_f o) = L -> fp_qlim (q_f o) = L -> 0 < L ->
  exists rf, np_at (q_mtpf o) (psi_idx_mtpf o 0) = Ok rf /\ pr_psi rf = q_psimax o * (72 / 176) /\ Rabs (pr_t rf) = Rabs (15 / 10 * pc_p (q_c o) * (pc_ld (q_c o) - pc_lq (q_c o))) * (72 / 249 * L * (72 / 249 * L)).
Proof.
  intros amax damping old e nom margin o m L H Hp Hd H1 H2 HL. destruct (synrm_psimax _ _ _ _ _ _ _ _ L H Hp Hd H1 H2 HL) as [PE PP]. destruct (synrm_flux_lookup_refuted _ _ _ _ _ _ _ _ L 0 H Hp Hd H1 H2 HL ltac:(lra)) as (j & rf & Hj & N & E & P & Q & _ & T). exists rf. split; [exact E|].
  assert (J : j = 249%nat). { replace (0 / q_psimax o * 249) with 0 in N by (field; lra). rewrite Rminus_0_r, Rabs_pos_eq in N by apply pos_INR. destruct (Nat.eq_dec j 249) as [X|X]; [exact X|]. exfalso. assert (1 <= INR (249 - j)) by (change 1 with (INR 1); apply le_INR; lia). lra. }
  rewrite J in P, Q. change (if (249 <=? 176)%nat then (176 - 249)%nat else (249 - 177)%nat) with 72%nat in P, Q. replace (INR 72) with 72 in P, Q by (rewrite INR_IZR_INZ; reflexivity). split; [exact P|]. rewrite T. f_equal. assert (QQ : pr_q rf * pr_q rf = Rabs (pr_q rf) * Rabs (pr_q rf)) by (unfold Rabs; destruct (Rcase_abs (pr_q rf)); ring). rewrite QQ, Q. field.
Qed.
Print Assumptions synrm_zero_flux_torque_refuted.

(** every row of the table: d = −a and |q| = a for some a *)
Lemma mtpf_synrm_row_abs c L n : 0 < L -> 0 < pc_p c -> pc_lq c < pc_ld c ->
  exists a, 0 <= a /\ pr_d (synrm_row c L n) = - a /\ Rabs (pr_q (synrm_row c L n)) = a /\ Rabs (pr_t (synrm_row c L n)) = 15 / 10 * pc_p c * (pc_ld c - pc_lq c) * (a * a).
Proof.
  intros HL Hp Hl. exists (INR n * (L / 249)). assert (A : 0 <= INR n * (L / 249)) by (apply Rmult_le_pos; [apply pos_INR|lra]). unfold synrm_row. cbn [pr_t pr_d pr_q]. set (a := INR n * (L / 249)) in *. clearbody a.
  split; [exact A|]. split; [reflexivity|]. split; [apply Rabs_pos_eq, A|]. replace (15 / 10 * pc_p c * ((pc_ld c - pc_lq c) * - a) * a) with (- (15 / 10 * pc_p c * (pc_ld c - pc_lq c) * (a * a))) by ring. rewrite Rabs_Ropp. apply Rabs_pos_eq. apply Rmult_le_pos; [apply Rmult_le_pos; lra|apply Rmult_le_pos; exact A].
Qed.
Lemma mtpf_table_synrm_list c L : pc_psi c = 0 -> 0 < L -> 0 < pc_ld c -> exists l, mtpf_table c L L = map mtpf_neg (rev (map (synrm_row c L) l)) ++ map (synrm_row c L) l.
Proof. intros Hpsi HL Hd. exists (seq 0 177). unfold mtpf_table. rewrite (mtpf_half_synrm c L Hpsi HL Hd). cbn zeta. reflexivity. Qed.
Lemma mtpf_synrm_in c L rf : pc_psi c = 0 -> 0 < L -> 0 < pc_ld c -> 0 < pc_p c -> pc_lq c < pc_ld c -> In rf (mtpf_table c L L) ->
  exists a, 0 <= a /\ pr_d rf = - a /\ Rabs (pr_q rf) = a /\ Rabs (pr_t rf) = 15 / 10 * pc_p c * (pc_ld c - pc_lq c) * (a * a).
Proof.
  intros Hpsi HL Hd Hp Hl IN. destruct (mtpf_table_synrm_list c L Hpsi HL Hd) as (l & E). rewrite E in IN. clear E. apply in_app_or in IN. destruct IN as [IN|IN].
  - apply in_map_iff in IN. destruct IN as (y & <- & Y). apply in_rev in Y. apply in_map_iff in Y. destruct Y as (n & <- & _). unfold mtpf_neg. cbn [pr_t pr_d pr_q]. rewrite !Rabs_Ropp. apply mtpf_synrm_row_abs; assumption.
  - apply in_map_iff in IN. destruct IN as (n & <- & _). apply mtpf_synrm_row_abs; assumption.
Qed.
(** ** Direction of the torque *)
(** Reluctance motor with l_q < l_d (the default): every operating point that is not taken
    from the maximum torque per flux table gives the demanded torque with the wrong sign. *)
Theorem synrm_torque_reversed_refuted :
  forall amax damping old e nom margin o m0 roots m x r rest m' d q sm L ql, pmsm_tune amax damping old e nom margin = Ok (o, m0) -> pc_psi (q_c o) = 0 ->
  pc_p (q_c o) = sr_p sm -> pc_ld (q_c o) = sr_ld sm -> pc_lq (q_c o) = sr_lq sm -> 0 < sr_p sm -> 0 < sr_lq sm < sr_ld sm -> fp_dlim (q_f o) = L -> fp_qlim (q_f o) = L -> 0 < L -> item (ce_limits e) (fp_isq (q_f o)) = Ok ql -> ql <> 0 ->
  0 < q_maxt o -> Rabs r <= q_maxt o -> pmsm_select roots o m x (r :: rest) = (m', Ok [d; q]) ->
  exists t T, (t = r \/ Rabs t < Rabs r /\ t = np_sign r * Rabs t) /\ synrm_torque sm [d; q] = Ok T /\
  (T = - t \/ Rabs (T + r) <= q_maxt o / 249 \/ exists rf, In rf (q_mtpf o) /\ d = pr_d rf /\ T = np_sign t * Rabs (pr_t rf)).
Proof.
  intros amax damping old e nom margin o m0 roots m x r rest m' d q sm L ql H Hpsi H1 H2 H3 Hp Hl HD HQ HL Hql Hqn HM Hr HS.
  destruct (pmsm_select_cases _ _ _ _ _ _ _ _ _ HS) as (row & rf & t & psi & Erow & Erf & _ & Et & C). destruct (mtpc_nearest _ _ _ _ _ _ _ _ _ _ H HM Hr Erow) as (t0 & dl & ql' & Rrow & Eql & _ & Ht0 & Hnear). rewrite Hql in Eql. apply ok_inj in Eql. subst ql'.
  destruct (pmsm_tune_inv _ _ _ _ _ _ _ _ H) as (f0 & dl1 & ql1 & _ & _ & _ & _ & _ & F1 & F2 & _ & _ & _ & _ & _ & TF & _ & INV). rewrite <- F1, <- F2, HD, HQ in TF.
  assert (I : q_inv o = -1). { rewrite INV. rewrite H2, H3. destruct (reqP (pc_psi (q_c o)) 0) as [_|N]; [|contradiction]. destruct (rltP (sr_lq sm) (sr_ld sm)) as [_|N]; [reflexivity|lra]. }
  destruct (mtpc_row_synrm (q_c o) dl ql t0 row ltac:(rewrite H2, H3; lra) Hpsi ltac:(rewrite H1; exact Hp) Hqn Rrow) as (Rt & Rd & RT). unfold torque_of in RT. rewrite H1, H2, H3, Rplus_0_l in RT.
  assert (DN : pr_d row < 0). { destruct (Rlt_dec (pr_d row) 0) as [X|X]; [exact X|]. exfalso. assert (Z : pr_d row = 0) by lra. rewrite Z in RT. apply Ht0. rewrite <- RT. ring. }
  exists t. unfold synrm_torque. cbn [item nth_error bind]. eexists. split; [|split; [reflexivity|]].
  { rewrite Et. destruct (rltP (Rabs (pr_t rf)) (Rabs r)) as [A|A]; [right|left; reflexivity]. assert (X : Rabs (np_sign r * Rabs (pr_t rf)) = Rabs (pr_t rf)). { assert (r <> 0) by (intros Z; rewrite Z, Rabs_R0 in A; pose proof (Rabs_pos (pr_t rf)); lra). rewrite Rabs_mult, Rabs_Rabsolu. unfold np_sign. destruct (rltP r 0) as [B|B]; [rewrite Rabs_left by lra; ring|]. destruct (rltP 0 r) as [C'|C']; [rewrite Rabs_R1; ring|lra]. } rewrite X. split; [exact A|reflexivity]. }
  destruct C as [[Cd Cq]|[(_ & Cd & Cq)|(_ & Cd & Cq)]].
  - right. right. exists rf. pose proof (np_at_in _ _ _ Erf) as IN. split; [exact IN|]. split; [exact Cd|]. rewrite TF in IN. destruct (mtpf_synrm_in _ _ _ Hpsi HL ltac:(rewrite H2; lra) ltac:(rewrite H1; exact Hp) ltac:(rewrite H2, H3; lra) IN) as (a & A0 & A1 & A2 & A3). rewrite H1, H2, H3 in A3.
    rewrite Cd, Cq, I, A1, A2, A3. ring.
  - right. left. rewrite Cd, Cq, I. replace (15 / 10 * sr_p sm * ((sr_ld sm - sr_lq sm) * pr_d row) * (-1 * pr_q row) + r) with (- (3 / 2 * sr_p sm * ((sr_ld sm - sr_lq sm) * pr_d row) * pr_q row - r)) by lra. rewrite RT, Rabs_Ropp. exact Hnear.
  - left. rewrite Cq, I, Hpsi, H1, H2, H3, Rplus_0_l. assert (d <> 0) by lra. assert (sr_ld sm - sr_lq sm <> 0) by lra. field. repeat split; lra.
Qed.
Print Assumptions synrm_torque_reversed_refuted.

(** ** Permanent magnet motor: direction and size of the torque *)
Definition row_good (c : pconst) (x : prow) : Prop := pr_d x <= 0 /\ pr_t x = torque_of (pc_p c) (pc_ld c) (pc_lq c) (pc_psi c) (pr_d x) (pr_q x).
Lemma linspace_nonpos a n d : 0 <= a -> (1 < n)%nat -> In d (linspace (- a) 0 n) -> d <= 0.
Proof.
  intros Ha Hn H. apply In_nth_error in H. destruct H as (k & Hk). assert (Kk : (k < n)%nat) by (rewrite <- (linspace_length (- a) 0 n); apply nth_error_Some; rewrite Hk; discriminate). rewrite linspace_nth in Hk by exact Kk. assert (Z : d = - a + INR k * ((0 - - a) / INR (n - 1))) by congruence.
  assert (N : 0 < INR (n - 1)) by (apply lt_0_INR; lia). assert (K : INR k <= INR (n - 1)) by (apply le_INR; lia). rewrite Z. replace (- a + INR k * ((0 - - a) / INR (n - 1))) with (- (a * ((INR (n - 1) - INR k) / INR (n - 1)))) by (field; lra).
  assert (0 <= a * ((INR (n - 1) - INR k) / INR (n - 1))); [|lra]. apply Rmult_le_pos; [exact Ha|]. apply Rmult_le_pos; [lra|]. left. apply Rinv_0_lt_compat. exact N.
Qed.
(** A row of the maximum torque per current table of a motor with l_d <= l_q gives its torque. *)
Lemma mtpc_row_pmsm c dlim qlim t row : 0 < pc_psi c -> pc_ld c <= pc_lq c -> 0 < pc_p c -> 0 <= dlim -> mtpc_row c dlim qlim t = Ok row -> pr_t row = t /\ row_good c row.
Proof.
  intros Hpsi Hl Hp Hdl H. destruct (Req_dec (pc_ld c) (pc_lq c)) as [E|Hne].
  - unfold mtpc_row in H. destruct (reqP (pc_ld c) (pc_lq c)) as [_|N]; [|contradiction]. destruct (reqP (pc_psi c) 0) as [N|_]; [lra|]. apply ok_inj in H. subst row. unfold row_good, torque_of. cbn [pr_t pr_d pr_q]. split; [reflexivity|]. split; [lra|]. rewrite E. field. lra.
  - destruct (mtpc_row_pick c dlim qlim t Hne) as (d & q & X & E). rewrite H in E. apply ok_inj in E. subst row. unfold row_good, torque_of. cbn [pr_t pr_d pr_q]. destruct (reqP (pc_psi c) 0) as [N|_]; [lra|]. destruct X as [Hq Hd]. replace (- (25 / 10) * dlim) with (- (25 / 10 * dlim)) in Hd by ring. apply linspace_nonpos in Hd; [|lra|unfold pm_i_count; lia]. split; [reflexivity|]. split; [exact Hd|].
    assert (D : 0 < pc_psi c + (pc_ld c - pc_lq c) * d). { assert (0 <= (pc_lq c - pc_ld c) * - d) by (apply Rmult_le_pos; lra). lra. } set (f := pc_psi c + (pc_ld c - pc_lq c) * d) in *. assert (Eq : q = t * / (f * (15 / 10 * pc_p c))). { rewrite Hq. replace (d * (pc_ld c - pc_lq c) + pc_psi c) with f by (unfold f; ring). field. lra. }
    rewrite sign_pos_mul by lra. assert (A : np_sign t * Rabs q = q). { assert (P : 0 < / (f * (15 / 10 * pc_p c))) by (apply Rinv_0_lt_compat, Rmult_lt_0_compat; lra). rewrite Eq, Rabs_mult, (Rabs_pos_eq (/ _)) by lra. rewrite <- Rmult_assoc, (Rmult_comm (np_sign t)). rewrite (Rmult_comm (Rabs t)), sign_abs. reflexivity. } rewrite A, Eq. field. lra.
Qed.
Definition st_good (c : pconst) (st : R * R * R) : Prop := let '(t, bd, bq) := st in bd <= 0 /\ t = torque_of (pc_p c) (pc_ld c) (pc_lq c) (pc_psi c) bd bq.
Lemma mtpf_step_good c isd isq psi st : pc_psi c <> 0 -> 0 <= isd -> psi <> 0 -> st_good c st ->
  st_good c (fst (mtpf_step c isd isq psi st)) /\ forall y, snd (mtpf_step c isd isq psi st) = Some y -> row_good c y.
Proof.
  intros Hpsi Hd Hn G. destruct st as [[t bd] bq]. unfold mtpf_step. destruct (reqP psi 0) as [Z|_]; [contradiction|]. destruct (reqP (pc_psi c) 0) as [Z|_]; [contradiction|]. cbn zeta.
  match goal with |- context [argmin (map ?g ?l)] => set (cur := l); set (gg := g) end.
  assert (CD : forall x, In x cur -> fst x <= 0). { intros x Hx. unfold cur in Hx. apply filter_In in Hx. destruct Hx as [Hx _]. apply in_map_iff in Hx. destruct Hx as (d & <- & Hx). cbn [fst]. apply filter_In in Hx. destruct Hx as [Hx _]. revert Hx. apply linspace_nonpos; [exact Hd|unfold pm_i_count; lia]. }
  match goal with |- context [let '(_, _) := (let '(_, _) := ?m in _) in _] => idtac | |- _ => idtac end.
  assert (R : forall st', st_good c st' -> st_good c (fst (let '(t', bd', bq') := st' in (st', if rle (sqrt (bd' * bd' + bq' * bq')) isq then Some {| pr_t := t'; pr_d := bd'; pr_q := bq'; pr_psi := psi |} else None))) /\
    forall y, snd (let '(t', bd', bq') := st' in (st', if rle (sqrt (bd' * bd' + bq' * bq')) isq then Some {| pr_t := t'; pr_d := bd'; pr_q := bq'; pr_psi := psi |} else None)) = Some y -> row_good c y).
  { intros [[t' d'] q'] G'. cbn [fst snd]. split; [exact G'|]. intros y Hy. destruct (rle (sqrt (d' * d' + q' * q')) isq); [|discriminate Hy]. assert (Y : {| pr_t := t'; pr_d := d'; pr_q := q'; pr_psi := psi |} = y) by congruence. subst y. exact G'. }
  apply R. destruct (argmin (map gg cur)) as [k|x]; [|exact G]. destruct (nth_error cur k) as [x|] eqn:E; [|exact G]. unfold st_good. split; [apply CD; eapply nth_error_In; exact E|]. unfold torque_of. field.
Qed.
Lemma mtpf_loop_good c isd isq psis st : pc_psi c <> 0 -> 0 <= isd -> (forall x, In x psis -> x <> 0) -> st_good c st -> forall y, In y (mtpf_loop c isd isq psis st) -> row_good c y.
Proof.
  intros Hpsi Hd. revert st. induction psis as [|x l IH]; intros st Hn G y H; [destruct H|]. destruct (mtpf_step_good c isd isq x st Hpsi Hd (Hn x (or_introl eq_refl)) G) as [G' R]. cbn [mtpf_loop] in H. destruct (mtpf_step c isd isq x st) as [st' row]. cbn [fst snd] in G', R. assert (IH' := IH st' (fun z Hz => Hn z (or_intror Hz)) G' y). destruct row as [y'|]; [|apply IH'; exact H]. destruct H as [<-|H]; [apply R; reflexivity|apply IH'; exact H].
Qed.
Lemma linspace_0_cons b n : (1 < n)%nat -> 0 < b -> exists l, linspace 0 b n = 0 :: l /\ forall x, In x l -> x <> 0.
Proof.
  intros Hn Hb. assert (LL : length (linspace 0 b n) = n) by apply linspace_length. assert (NT : forall k, (k < n)%nat -> nth_error (linspace 0 b n) k = Some (0 + INR k * ((b - 0) / INR (n - 1)))) by (intros k Hk; apply linspace_nth; exact Hk).
  destruct (linspace 0 b n) as [|z l]; [cbn in LL; lia|]. exists l. split.
  - assert (X := NT O ltac:(lia)). cbn [nth_error] in X. assert (Y : z = 0 + INR 0 * ((b - 0) / INR (n - 1))) by congruence. rewrite Y. change (INR 0) with 0. f_equal. ring.
  - intros x Hx. apply In_nth_error in Hx. destruct Hx as (k & Hk). assert (Kl : (k < length l)%nat) by (apply nth_error_Some; rewrite Hk; discriminate). cbn [length] in LL. assert (X := NT (Datatypes.S k) ltac:(lia)). change (nth_error (z :: l) (Datatypes.S k)) with (nth_error l k) in X. assert (Y : x = 0 + INR (Datatypes.S k) * ((b - 0) / INR (n - 1))) by congruence. rewrite Y.
    assert (0 < INR (Datatypes.S k)) by (apply lt_0_INR; lia). assert (0 < (b - 0) / INR (n - 1)) by (apply Rdiv_lt_0_compat; [lra|apply lt_0_INR; lia]). assert (0 < INR (Datatypes.S k) * ((b - 0) / INR (n - 1))) by (apply Rmult_lt_0_compat; assumption). lra.
Qed.
Lemma mtpf_table_unfold c a b : mtpf_table c a b = map mtpf_neg (rev (mtpf_half c a b)) ++ mtpf_half c a b.
Proof. reflexivity. Qed.
Lemma mtpf_half_unfold c isd isq : mtpf_half c isd isq = mtpf_loop c isd isq (linspace 0 (sqrt ((pc_psi c + pc_ld c * isd) * (pc_psi c + pc_ld c * isd) + pc_lq c * isq * (pc_lq c * isq))) pm_psi_count) (0, 0, 0).
Proof. reflexivity. Qed.
Lemma mtpf_table_good c isd isq : 0 < pc_psi c -> 0 < pc_ld c -> 0 < pc_lq c -> 0 < pc_p c -> 0 <= isd -> 0 < isq -> forall y, In y (mtpf_table c isd isq) -> row_good c y.
Proof.
  intros Hpsi Hld Hlq Hp Hd Hq. assert (HH : forall y, In y (mtpf_half c isd isq) -> row_good c y).
  { intros y H. rewrite mtpf_half_unfold in H. set (top := sqrt _) in H. assert (T : 0 < top). { unfold top. apply sqrt_lt_R0. assert (0 < pc_lq c * isq) by (apply Rmult_lt_0_compat; assumption). assert (0 < pc_lq c * isq * (pc_lq c * isq)) by (apply Rmult_lt_0_compat; assumption). pose proof (Rle_0_sqr (pc_psi c + pc_ld c * isd)) as X. unfold Rsqr in X. lra. } clearbody top.
    destruct (linspace_0_cons top pm_psi_count ltac:(unfold pm_psi_count; lia) T) as (l & E & Hl). rewrite E in H. clear E. cbn [mtpf_loop] in H. unfold mtpf_step in H at 1. destruct (reqP 0 0) as [_|N]; [|contradiction]. destruct H as [<-|H].
    - unfold row_good, torque_of. cbn [pr_t pr_d pr_q]. split; [|ring]. assert (0 < pc_psi c / pc_ld c) by (apply Rdiv_lt_0_compat; assumption). unfold Rdiv in *. lra.
    - revert y H. apply mtpf_loop_good; [lra|exact Hd|exact Hl|]. unfold st_good, torque_of. split; [lra|ring]. }
  intros y H. rewrite mtpf_table_unfold in H. apply in_app_or in H. destruct H as [H|H]; [|apply HH; exact H]. apply in_map_iff in H. destruct H as (z & <- & H). apply in_rev in H. destruct (HH z H) as [A B]. unfold row_good, mtpf_neg, torque_of in *. cbn [pr_t pr_d pr_q]. split; [exact A|]. rewrite B. ring.
Qed.
(** The torque of the selected operating point: the demanded torque up to half a grid step of
    the table, or at most the flux allows, never in the wrong direction. *)
Theorem pmsm_selected_torque :
  forall amax damping old e nom margin o m0 roots m x r rest m' d q pm dl, pmsm_tune amax damping old e nom margin = Ok (o, m0) ->
  pc_p (q_c o) = pm_p pm -> pc_ld (q_c o) = pm_ld pm -> pc_lq (q_c o) = pm_lq pm -> pc_psi (q_c o) = pm_psi pm -> 0 < pm_p pm -> 0 < pm_psi pm -> 0 < pm_ld pm <= pm_lq pm -> 0 <= fp_dlim (q_f o) -> 0 < fp_qlim (q_f o) -> item (ce_limits e) (fp_isd (q_f o)) = Ok dl -> 0 <= dl ->
  0 < q_maxt o -> Rabs r <= q_maxt o -> pmsm_select roots o m x (r :: rest) = (m', Ok [d; q]) ->
  exists T, pmsm_torque pm [d; q] = Ok T /\ (Rabs (T - r) <= q_maxt o / 249 \/ exists rf, In rf (q_mtpf o) /\ T = np_sign r * Rabs (pr_t rf)).
Proof.
  intros amax damping old e nom margin o m0 roots m x r rest m' d q pm dl H H1 H2 H3 H4 Hp Hpsi Hl HD HQ Hdl Hdl0 HM Hr HS.
  destruct (pmsm_select_cases _ _ _ _ _ _ _ _ _ HS) as (row & rf & t & psi & Erow & Erf & _ & Et & C). destruct (mtpc_nearest _ _ _ _ _ _ _ _ _ _ H HM Hr Erow) as (t0 & dl' & ql & Rrow & _ & Edl & _ & Hnear). rewrite Hdl in Edl. apply ok_inj in Edl. subst dl'.
  destruct (pmsm_tune_inv _ _ _ _ _ _ _ _ H) as (f0 & dl1 & ql1 & _ & _ & _ & _ & _ & F1 & F2 & _ & _ & _ & _ & _ & TF & _ & INV). rewrite <- F1, <- F2 in TF.
  assert (I : q_inv o = 1). { rewrite INV, H4. destruct (reqP (pm_psi pm) 0) as [N|_]; [lra|reflexivity]. }
  rewrite <- H1 in Hp. rewrite <- H2, <- H3 in Hl. rewrite <- H4 in Hpsi. unfold pmsm_torque. cbn [item nth_error bind]. rewrite <- H1, <- H2, <- H3, <- H4. eexists. split; [reflexivity|].
  assert (DEN : forall a, a <= 0 -> 0 < pc_psi (q_c o) + (pc_ld (q_c o) - pc_lq (q_c o)) * a) by (intros a A; assert (0 <= (pc_lq (q_c o) - pc_ld (q_c o)) * - a) by (apply Rmult_le_pos; lra); lra).
  pose proof (np_at_in _ _ _ Erf) as IN. assert (GF := IN). rewrite TF in GF. apply (mtpf_table_good (q_c o) _ _ Hpsi ltac:(lra) ltac:(lra) Hp HD HQ) in GF. destruct GF as [GD GT]. unfold torque_of in GT.
  destruct (mtpc_row_pmsm (q_c o) dl ql t0 row Hpsi ltac:(lra) Hp Hdl0 Rrow) as [Rt [RD RT]]. unfold torque_of in RT. rewrite Rt in RT.
  assert (ST : r <> 0 -> t <> 0 -> np_sign t = np_sign r).
  { intros Hr0 Ht0. rewrite Et in *. destruct (rltP (Rabs (pr_t rf)) (Rabs r)) as [A|A]; [|reflexivity]. assert (P : 0 < Rabs (pr_t rf)). { destruct (Rabs_pos (pr_t rf)) as [P|P]; [exact P|]. exfalso. apply Ht0. rewrite <- P. ring. } rewrite Rmult_comm, sign_pos_mul by exact P. unfold np_sign at 2. unfold np_sign. destruct (rltP r 0) as [B|B]; [destruct (rltP (-1) 0); lra|]. destruct (rltP 0 r) as [D|D]; [destruct (rltP 1 0); destruct (rltP 0 1); lra|lra]. }
  assert (T0 : t = 0 -> r <> 0 -> pr_t rf = 0). { intros Z Hr0. rewrite Et in Z. destruct (rltP (Rabs (pr_t rf)) (Rabs r)) as [A|A]; [|contradiction]. apply Rmult_integral in Z. destruct Z as [Z|Z]; [|destruct (Req_dec (pr_t rf) 0) as [Y|Y]; [exact Y|apply Rabs_no_R0 in Y; contradiction]]. exfalso. unfold np_sign in Z. destruct (rltP r 0); [lra|]. destruct (rltP 0 r); lra. }
  destruct C as [[Cd Cq]|[(_ & Cd & Cq)|(_ & Cd & Cq)]].
  - rewrite Cd, Cq, I. right. exists rf. split; [exact IN|]. assert (AQ : Rabs (pr_t rf) = 15 / 10 * pc_p (q_c o) * (pc_psi (q_c o) + (pc_ld (q_c o) - pc_lq (q_c o)) * pr_d rf) * Rabs (pr_q rf)). { pose proof (DEN _ GD) as DD. rewrite GT, Rabs_mult. f_equal. rewrite Rabs_pos_eq; [lra|]. apply Rmult_le_pos; lra. }
    rewrite AQ. destruct (Req_dec r 0) as [Z|Hr0].
    + assert (t = 0). { rewrite Et, Z, Rabs_R0. destruct (rltP (Rabs (pr_t rf)) 0) as [A|A]; [pose proof (Rabs_pos (pr_t rf)); lra|reflexivity]. } rewrite Z. replace t with 0. ring.
    + destruct (Req_dec t 0) as [Z|Ht0].
      * rewrite (T0 Z Hr0), Rabs_R0 in AQ. rewrite <- AQ, Z, Rmult_0_r. unfold np_sign. destruct (rltP 0 0); [lra|]. ring.
      * rewrite (ST Hr0 Ht0). ring.
  - left. rewrite Cd, Cq, I. replace (15 / 10 * pc_p (q_c o) * (pc_psi (q_c o) + (pc_ld (q_c o) - pc_lq (q_c o)) * pr_d row) * (1 * pr_q row)) with t0 by (rewrite RT; lra). exact Hnear.
  - assert (DD : 0 < pc_psi (q_c o) + (pc_ld (q_c o) - pc_lq (q_c o)) * d) by (apply DEN; lra). assert (E : 15 / 10 * pc_p (q_c o) * (pc_psi (q_c o) + (pc_ld (q_c o) - pc_lq (q_c o)) * d) * q = t) by (rewrite Cq, I; field; split; lra). rewrite E. rewrite Et. destruct (rltP (Rabs (pr_t rf)) (Rabs r)) as [A|A].
    + right. exists rf. split; [exact IN|reflexivity].
    + left. replace (r - r) with 0 by ring. rewrite Rabs_R0. apply Rmult_le_pos; lra.
Qed.
Print Assumptions pmsm_selected_torque.
