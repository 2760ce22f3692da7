From Verif Require Import PyBase PyBaseFacts PyDict Solver_Model Solver_Spec Solver_Proofs Supply_Model Supply_Spec.
From Coq Require Import Rtrigo_facts.

(** A voltage request of an RC supply that has been reset. *)
Lemma rc_get_val s t i u : eu_n (rc_solver s) = 1%nat -> eu_y (rc_solver s) = Some [u] -> rc_r s * rc_c s <> 0 ->
  exists s', rc_get s t i = (s', Ok [u + (t - eu_t (rc_solver s)) * ((rc_u0 s - u - rc_r s * i) / (rc_r s * rc_c s))]) /\
    rc_u0 s' = rc_u0 s /\ rc_r s' = rc_r s /\ rc_c s' = rc_c s /\ eu_n (rc_solver s') = 1%nat /\
    eu_t (rc_solver s') = t /\
    eu_y (rc_solver s') = Some [u + (t - eu_t (rc_solver s)) * ((rc_u0 s - u - rc_r s * i) / (rc_r s * rc_c s))].
Proof.
  intros Hn Hy Hrc. unfold rc_get, integrate, set_f_params. cbn [eu_n eu_t eu_y eu_p]. rewrite Hy, Hn.
  unfold rc_rhs. cbn [p_u0 p_i p_r p_c]. rewrite (proj2 (req_false _ _) Hrc). cbn [bind].
  rewrite np_add_ok by reflexivity. cbn [map2].
  eexists. split; [reflexivity|]. cbn. repeat split.
Qed.
Definition rc_inv (u0 r c : R) (s : rc) : Prop :=
  rc_u0 s = u0 /\ rc_r s = r /\ rc_c s = c /\ eu_n (rc_solver s) = 1%nat /\
  exists u, eu_y (rc_solver s) = Some [u] /\ 0 <= u <= u0.
Lemma rc_new_val u par s : rc_new u par = Ok s -> rc_u0 s = u /\ eu_n (rc_solver s) = 1%nat.
Proof. unfold rc_new. destruct (dict_get _ _); [|discriminate]. destruct (dict_get _ _); [|discriminate]. intros E; injection E as <-. auto. Qed.
Lemma rc_step_bound u dt r c u0 i : 0 < r -> 0 < c -> 0 <= u <= u0 -> 0 <= i <= u0 / r -> 0 <= dt <= r * c ->
  0 <= u + dt * ((u0 - u - r * i) / (r * c)) <= u0.
Proof.
  intros Hr Hc Hu Hi Hdt. assert (Hrc : 0 < r * c) by now apply Rmult_lt_0_compat.
  set (k := dt / (r * c)).
  assert (Hk : 0 <= k <= 1).
  { unfold k. split; [apply Rmult_le_pos; [lra|left; now apply Rinv_0_lt_compat]|].
    apply (Rmult_le_reg_r (r * c)); [exact Hrc|]. unfold Rdiv. rewrite Rmult_assoc, Rinv_l by lra. lra. }
  replace (dt * ((u0 - u - r * i) / (r * c))) with (k * (u0 - u - r * i)) by (unfold k; field; lra).
  assert (Hri : 0 <= r * i <= u0).
  { split; [apply Rmult_le_pos; lra|]. replace u0 with (r * (u0 / r)) by (field; lra).
    apply Rmult_le_compat_l; lra. }
  replace (u + k * (u0 - u - r * i)) with ((1 - k) * u + k * (u0 - r * i)) by ring.
  assert (0 <= (1 - k) * u) by (apply Rmult_le_pos; lra).
  assert (0 <= k * (u0 - r * i)) by (apply Rmult_le_pos; lra).
  assert ((1 - k) * u <= (1 - k) * u0) by (apply Rmult_le_compat_l; lra).
  assert (k * (u0 - r * i) <= k * u0) by (apply Rmult_le_compat_l; lra).
  lra.
Qed.
Lemma rc_run_inv u0 r c dt : 0 < r -> 0 < c -> 0 <= dt <= r * c -> forall ops s,
  rc_inv u0 r c s -> admissible (u0 / r) dt (eu_t (rc_solver s)) ops -> rc_inv u0 r c (rc_run s ops).
Proof.
  intros Hr Hc Hdt. induction ops as [|o ops IH]; intros s Hs Ha; [exact Hs|].
  change (rc_run s (o :: ops)) with (rc_run (rc_step s o) ops).
  destruct Hs as (H1 & H2 & H3 & H4 & u & Hy & Hu). destruct o as [|t i]; cbn [admissible] in Ha.
  - apply IH; [|exact Ha]. cbn. repeat split; auto. exists (rc_u0 s). split; [reflexivity|]. rewrite H1. lra.
  - destruct Ha as (Ht & Hi & Ha). cbn [rc_step].
    assert (Hrc : 0 < r * c) by now apply Rmult_lt_0_compat.
    destruct (rc_get_val s t i u H4 Hy ltac:(rewrite H2, H3; lra)) as (s' & E & E1 & E2 & E3 & E4 & E5 & E6).
    rewrite E. cbn [fst]. apply IH; [|rewrite E5; exact Ha].
    split; [congruence|]. split; [congruence|]. split; [congruence|]. split; [exact E4|].
    eexists. split; [exact E6|]. rewrite H1, H2, H3. apply rc_step_bound; auto; lra.
Qed.

Lemma ac3_sum_zero x : sin x + sin (x + 2 / 3 * PI * 1) + sin (x + 2 / 3 * PI * 2) = 0.
Proof.
  replace (x + 2 / 3 * PI * 1) with (x + (PI - PI / 3)) by field.
  replace (x + 2 / 3 * PI * 2) with (x + (PI + PI / 3)) by field.
  rewrite !sin_plus, cos_minus, sin_minus, cos_plus, cos_PI, sin_PI, cos_PI3, sin_PI3. field.
Qed.
