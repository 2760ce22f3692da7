(** Second order linear recurrences: the Jury criterion. *)
From Coq Require Import Reals Lra Lia.
Local Open Scope R_scope.

(** A quadratic form that decreases along x, y -> y, t y - d x. *)
Section Jury.
Variables t d : R.
Definition jq : R := - t * d / (1 + d).
Definition jp : R := (d * d + (1 - t * t * (1 - d) / (1 + d))) / 2.
Definition jv (x y : R) : R := (y + jq * x) * (y + jq * x) + (jp - jq * jq) * (x * x).
Hypothesis Hd : d < 1.
Hypothesis Ht : - (1 + d) < t < 1 + d.
Lemma j1d : 0 < 1 + d. Proof. lra. Qed.
Lemma jt2 : t * t < (1 + d) * (1 + d).
Proof. destruct Ht as [H1 H2]. nra. Qed.
Definition jg : R := ((1 + d) * (1 + d) - t * t) * (1 - d) / (1 + d) / 2.
Lemma jg_pos : 0 < jg.
Proof.
  unfold jg. pose proof j1d as H1. pose proof jt2 as H2. apply Rmult_lt_0_compat; [|lra]. unfold Rdiv. apply Rmult_lt_0_compat; [apply Rmult_lt_0_compat; lra|apply Rinv_0_lt_compat; lra].
Qed.
Lemma jp_low : jp - d * d = jg.
Proof. unfold jp, jg. pose proof j1d. field. lra. Qed.
Lemma jp_high : 1 - t * t * (1 - d) / (1 + d) - jp = jg.
Proof. unfold jp, jg. pose proof j1d. field. lra. Qed.
Lemma jq_small : jq * jq <= d * d.
Proof.
  unfold jq. pose proof j1d as H1. pose proof jt2 as H2. replace (- t * d / (1 + d) * (- t * d / (1 + d))) with (d * d * (t * t / ((1 + d) * (1 + d)))) by (field; lra).
  rewrite <- (Rmult_1_r (d * d)) at 2. apply Rmult_le_compat_l; [apply Rle_0_sqr|]. apply Rmult_le_reg_r with ((1 + d) * (1 + d)); [apply Rmult_lt_0_compat; lra|].
  unfold Rdiv. rewrite Rmult_assoc, Rinv_l, Rmult_1_r by (apply Rgt_not_eq, Rmult_lt_0_compat; lra). lra.
Qed.
Lemma jpq_pos : jg <= jp - jq * jq.
Proof. pose proof jp_low. pose proof jq_small. lra. Qed.
Lemma jv_step x y : jv y (t * y - d * x) - jv x y = - jg * (x * x + y * y).
Proof.
  pose proof j1d as H1. pose proof jp_low as L. pose proof jp_high as U.
  assert (E : jv y (t * y - d * x) - jv x y = (t * t + jp + 2 * jq * t - 1) * (y * y) - (jp - d * d) * (x * x)).
  { unfold jv. replace jq with (- t * d / (1 + d)) by reflexivity. field. lra. }
  rewrite E, L. replace (t * t + jp + 2 * jq * t - 1) with (- (1 - t * t * (1 - d) / (1 + d) - jp)) by (unfold jq; field; lra). rewrite U. ring.
Qed.
Lemma jv_nonneg x y : jg * (x * x) <= jv x y.
Proof. unfold jv. pose proof jpq_pos as H. pose proof (Rle_0_sqr (y + jq * x)) as H1. unfold Rsqr in H1. pose proof (Rle_0_sqr x) as H2. unfold Rsqr in H2. nra. Qed.
(** an upper bound: [jv x y <= jm (x^2 + y^2)] *)
Definition jm : R := 2 + 2 * (jq * jq) + (jp - jq * jq).
Lemma jm_big : jg < jm.
Proof. unfold jm. pose proof jpq_pos. pose proof (Rle_0_sqr jq) as H1. unfold Rsqr in H1. lra. Qed.
Lemma jv_upper x y : jv x y <= jm * (x * x + y * y).
Proof.
  unfold jv, jm. pose proof jpq_pos as H. pose proof jg_pos as G. pose proof (Rle_0_sqr (y - jq * x)) as H1. unfold Rsqr in H1. pose proof (Rle_0_sqr x) as H2. unfold Rsqr in H2. pose proof (Rle_0_sqr y) as H3. unfold Rsqr in H3.
  pose proof (Rle_0_sqr jq) as H4. unfold Rsqr in H4. nra.
Qed.
Definition jr : R := 1 - jg / jm.
Lemma jr_range : 0 <= jr < 1.
Proof.
  unfold jr. pose proof jg_pos as G. pose proof jm_big as B. assert (0 < jg / jm) by (apply Rdiv_lt_0_compat; lra). assert (jg / jm < 1). { apply Rmult_lt_reg_r with jm; [lra|]. unfold Rdiv. rewrite Rmult_assoc, Rinv_l by lra. lra. } lra.
Qed.
Lemma jv_contracts x y : jv y (t * y - d * x) <= jr * jv x y.
Proof.
  pose proof (jv_step x y) as S. pose proof (jv_upper x y) as U. pose proof jg_pos as G. pose proof jm_big as B. unfold jr.
  assert (jg / jm * jv x y <= jg * (x * x + y * y)). { apply Rle_trans with (jg / jm * (jm * (x * x + y * y))); [apply Rmult_le_compat_l; [apply Rlt_le, Rdiv_lt_0_compat; lra|exact U]|]. apply Req_le. field. lra. }
  lra.
Qed.

Variable e : nat -> R.
Hypothesis He : forall n, e (S (S n)) = t * e (S n) - d * e n.
Lemma jv_decays n : jv (e n) (e (S n)) <= jr ^ n * jv (e O) (e 1%nat).
Proof.
  induction n as [|n IH]; [cbn; lra|]. rewrite He. cbn [pow]. pose proof jr_range as R0. pose proof (jv_contracts (e n) (e (S n))) as C. rewrite Rmult_assoc. apply Rle_trans with (1 := C). apply Rmult_le_compat_l; [lra|exact IH].
Qed.
Lemma recurrence_sq n : e n * e n <= jr ^ n * (jv (e O) (e 1%nat) / jg).
Proof.
  pose proof (jv_decays n) as D. pose proof (jv_nonneg (e n) (e (S n))) as N. pose proof jg_pos as G. apply Rmult_le_reg_l with jg; [exact G|]. apply Rle_trans with (1 := N). apply Rle_trans with (1 := D). apply Req_le. field. lra.
Qed.
Lemma recurrence_bound n : e n * e n <= jm / jg * (e O * e O + e 1%nat * e 1%nat).
Proof.
  pose proof (recurrence_sq n) as S. pose proof jg_pos as G. pose proof (jv_upper (e O) (e 1%nat)) as U. pose proof (jv_nonneg (e O) (e 1%nat)) as N. pose proof (Rle_0_sqr (e O)) as N0. unfold Rsqr in N0.
  assert (P : jr ^ n <= 1). { pose proof jr_range as R0. clear -R0. induction n as [|n IH]; cbn; [lra|]. assert (0 <= jr ^ n) by (apply pow_le; lra). nra. }
  assert (V0 : 0 <= jv (e O) (e 1%nat)) by nra.
  apply Rle_trans with (1 := S). apply Rle_trans with (1 * (jv (e O) (e 1%nat) / jg)); [apply Rmult_le_compat_r; [|exact P]; unfold Rdiv; apply Rmult_le_pos; [exact V0|apply Rlt_le, Rinv_0_lt_compat, G]|].
  apply Rmult_le_reg_r with jg; [exact G|]. replace (1 * (jv (e O) (e 1%nat) / jg) * jg) with (jv (e O) (e 1%nat)) by (field; lra). replace (jm / jg * (e O * e O + e 1%nat * e 1%nat) * jg) with (jm * (e O * e O + e 1%nat * e 1%nat)) by (field; lra). exact U.
Qed.
Lemma recurrence_converges : Un_cv e 0.
Proof.
  intros eps Heps. pose proof jr_range as R0. pose proof jg_pos as G. set (K := jv (e O) (e 1%nat) / jg).
  assert (K0 : 0 <= K). { unfold K. pose proof (jv_nonneg (e O) (e 1%nat)) as N. pose proof (Rle_0_sqr (e O)) as N0. unfold Rsqr in N0. unfold Rdiv. apply Rmult_le_pos; [nra|apply Rlt_le, Rinv_0_lt_compat, G]. }
  destruct (pow_lt_1_zero jr) with (y := eps * eps / (K + 1)) as [N HN]; [rewrite Rabs_pos_eq; lra|apply Rdiv_lt_0_compat; nra|].
  exists N. intros n Hn. specialize (HN n Hn). rewrite Rabs_pos_eq in HN by (apply pow_le; lra). unfold R_dist. rewrite Rminus_0_r.
  pose proof (recurrence_sq n) as S. fold K in S. assert (P0 : 0 <= jr ^ n) by (apply pow_le; lra).
  assert (L : e n * e n < eps * eps). { apply Rle_lt_trans with (1 := S). apply Rle_lt_trans with (jr ^ n * (K + 1)); [apply Rmult_le_compat_l; lra|]. apply Rmult_lt_reg_r with (/ (K + 1)); [apply Rinv_0_lt_compat; lra|]. rewrite Rmult_assoc, Rinv_r by lra. fold (eps * eps / (K + 1)). lra. }
  assert (L' : Rsqr (e n) < Rsqr eps) by exact L. apply Rsqr_lt_abs_0 in L'. rewrite (Rabs_pos_eq eps) in L' by lra. exact L'.
Qed.
End Jury.
