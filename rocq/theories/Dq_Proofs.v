(** Second order linear recurrences with complex coefficients: the criterion of Schur and Cohn.  Complex numbers are
    pairs of reals. *)
From Coq Require Import Reals Lra Lia.
Local Open Scope R_scope.

(** x, y -> y, t y - d x *)
Section Schur.
Variables tr ti dr di : R.
Definition kd : R := dr * dr + di * di.
Definition kmr : R := tr - (dr * tr + di * ti).
Definition kmi : R := ti - (di * tr - dr * ti).
Definition km2 : R := kmr * kmr + kmi * kmi.
Hypothesis Hd : kd < 1.
Hypothesis Ht : km2 < (1 - kd) * (1 - kd).
Definition kqr : R := - (dr * kmr + di * kmi) / (1 - kd).
Definition kqi : R := - (dr * kmi - di * kmr) / (1 - kd).
Definition kq2 : R := kqr * kqr + kqi * kqi.
Definition kg : R := ((1 - kd) - km2 / (1 - kd)) / 2.
Definition kp : R := kd + kg.
Definition kv (x1 x2 y1 y2 : R) : R := y1 * y1 + y2 * y2 + 2 * (kqr * (x1 * y1 + x2 * y2) - kqi * (x1 * y2 - x2 * y1)) + kp * (x1 * x1 + x2 * x2).
Lemma sq0 x : 0 <= x * x. Proof. exact (Rle_0_sqr x). Qed.
Lemma kg_pos : 0 < kg.
Proof.
  unfold kg. assert (km2 / (1 - kd) < 1 - kd) by (apply Rmult_lt_reg_r with (1 - kd); [lra|]; unfold Rdiv; rewrite Rmult_assoc, Rinv_l by lra; lra). lra.
Qed.
Lemma kq_small : kq2 <= kd.
Proof.
  assert (E : kq2 = kd * (km2 / ((1 - kd) * (1 - kd)))) by (unfold kq2, kqr, kqi, km2; assert (N : 1 - kd <> 0) by lra; set (s := 1 - kd) in *; clearbody s; unfold kd; field; exact N).
  rewrite E. apply Rle_trans with (kd * 1); [|lra]. apply Rmult_le_compat_l; [unfold kd; pose proof (sq0 dr); pose proof (sq0 di); lra|].
  apply Rmult_le_reg_r with ((1 - kd) * (1 - kd)); [apply Rmult_lt_0_compat; lra|]. unfold Rdiv. rewrite Rmult_assoc, Rinv_l, Rmult_1_r by (apply Rgt_not_eq, Rmult_lt_0_compat; lra). lra.
Qed.
Lemma kv_step x1 x2 y1 y2 : kv y1 y2 (tr * y1 - ti * y2 - (dr * x1 - di * x2)) (tr * y2 + ti * y1 - (dr * x2 + di * x1)) - kv x1 x2 y1 y2 = - kg * (x1 * x1 + x2 * x2 + (y1 * y1 + y2 * y2)).
Proof. unfold kv, kp, kg, kqr, kqi, km2, kmr, kmi, kd. field. change (1 - kd <> 0). lra. Qed.
Lemma kv_square x1 x2 y1 y2 : kv x1 x2 y1 y2 = (y1 + (kqr * x1 + kqi * x2)) * (y1 + (kqr * x1 + kqi * x2)) + (y2 + (kqr * x2 - kqi * x1)) * (y2 + (kqr * x2 - kqi * x1)) + (kp - kq2) * (x1 * x1 + x2 * x2).
Proof. unfold kv, kq2. ring. Qed.
Lemma kv_low x1 x2 y1 y2 : kg * (x1 * x1 + x2 * x2) <= kv x1 x2 y1 y2.
Proof.
  rewrite kv_square. pose proof (sq0 (y1 + (kqr * x1 + kqi * x2))) as A. pose proof (sq0 (y2 + (kqr * x2 - kqi * x1))) as B. pose proof kq_small as C. pose proof (sq0 x1) as D. pose proof (sq0 x2) as E.
  assert (kg * (x1 * x1 + x2 * x2) <= (kp - kq2) * (x1 * x1 + x2 * x2)) by (apply Rmult_le_compat_r; [lra|unfold kp; lra]). lra.
Qed.
Definition kb : R := 2 + 2 * kq2 + (kp - kq2).
Lemma kv_high x1 x2 y1 y2 : kv x1 x2 y1 y2 <= kb * (x1 * x1 + x2 * x2 + (y1 * y1 + y2 * y2)).
Proof.
  rewrite kv_square. pose proof kq_small as C. pose proof kg_pos as G. assert (Q : 0 <= kq2) by (unfold kq2; pose proof (sq0 kqr); pose proof (sq0 kqi); lra).
  assert (T : forall a b, (a + b) * (a + b) <= 2 * (a * a) + 2 * (b * b)) by (intros a b; pose proof (sq0 (a - b)); lra).
  pose proof (T y1 (kqr * x1 + kqi * x2)) as T1. pose proof (T y2 (kqr * x2 - kqi * x1)) as T2.
  assert (E : (kqr * x1 + kqi * x2) * (kqr * x1 + kqi * x2) + (kqr * x2 - kqi * x1) * (kqr * x2 - kqi * x1) = kq2 * (x1 * x1 + x2 * x2)) by (unfold kq2; ring).
  set (X := x1 * x1 + x2 * x2) in *. set (Y := y1 * y1 + y2 * y2) in *. assert (X0 : 0 <= X) by (unfold X; pose proof (sq0 x1); pose proof (sq0 x2); lra). assert (Y0 : 0 <= Y) by (unfold Y; pose proof (sq0 y1); pose proof (sq0 y2); lra).
  assert (B1 : 2 * Y + 2 * (kq2 * X) + (kp - kq2) * X <= kb * (X + Y)). { unfold kb. assert (0 <= kp - kq2) by (unfold kp; lra). assert (0 <= kq2 * Y) by (apply Rmult_le_pos; assumption). assert (0 <= (kp - kq2) * Y) by (apply Rmult_le_pos; assumption). lra. }
  apply Rle_trans with (2 := B1). set (a1 := (y1 + (kqr * x1 + kqi * x2)) * (y1 + (kqr * x1 + kqi * x2))) in *. set (a2 := (y2 + (kqr * x2 - kqi * x1)) * (y2 + (kqr * x2 - kqi * x1))) in *.
  set (b1 := (kqr * x1 + kqi * x2) * (kqr * x1 + kqi * x2)) in *. set (b2 := (kqr * x2 - kqi * x1) * (kqr * x2 - kqi * x1)) in *. rewrite <- E. unfold Y. clearbody a1 a2 b1 b2 X. lra.
Qed.
Lemma kb_big : kg < kb.
Proof. unfold kb, kp. pose proof kq_small as C. assert (Q : 0 <= kq2) by (unfold kq2; pose proof (sq0 kqr); pose proof (sq0 kqi); lra). lra. Qed.
Definition kr : R := 1 - kg / kb.
Lemma kr_range : 0 <= kr < 1.
Proof.
  unfold kr. pose proof kg_pos as G. pose proof kb_big as B. assert (0 < kg / kb) by (apply Rdiv_lt_0_compat; lra). assert (kg / kb < 1). { apply Rmult_lt_reg_r with kb; [lra|]. unfold Rdiv. rewrite Rmult_assoc, Rinv_l by lra. lra. } lra.
Qed.

Variables e f : nat -> R.
Hypothesis He : forall n, e (S (S n)) = tr * e (S n) - ti * f (S n) - (dr * e n - di * f n).
Hypothesis Hf : forall n, f (S (S n)) = tr * f (S n) + ti * e (S n) - (dr * f n + di * e n).
Definition kV n : R := kv (e n) (f n) (e (S n)) (f (S n)).
Lemma kV_step n : kV (S n) <= kr * kV n.
Proof.
  unfold kV. rewrite He, Hf. pose proof (kv_step (e n) (f n) (e (S n)) (f (S n))) as S. pose proof (kv_high (e n) (f n) (e (Datatypes.S n)) (f (Datatypes.S n))) as U. pose proof kg_pos as G. pose proof kb_big as B. unfold kr.
  set (v := kv (e n) (f n) (e (Datatypes.S n)) (f (Datatypes.S n))) in *. set (q := e n * e n + f n * f n + _) in *.
  assert (kg / kb * v <= kg * q). { apply Rle_trans with (kg / kb * (kb * q)); [apply Rmult_le_compat_l; [apply Rlt_le, Rdiv_lt_0_compat; lra|exact U]|]. apply Req_le. field. lra. }
  lra.
Qed.
Lemma kV_decays n : kV n <= kr ^ n * kV O.
Proof. induction n as [|n IH]; [cbn; lra|]. cbn [pow]. pose proof kr_range. rewrite Rmult_assoc. apply Rle_trans with (1 := kV_step n). apply Rmult_le_compat_l; lra. Qed.
Lemma schur_sq n : e n * e n + f n * f n <= kr ^ n * (kV O / kg).
Proof.
  pose proof (kV_decays n) as D. pose proof (kv_low (e n) (f n) (e (S n)) (f (S n))) as N. fold (kV n) in N. pose proof kg_pos as G. apply Rmult_le_reg_l with kg; [exact G|]. apply Rle_trans with (1 := N). apply Rle_trans with (1 := D). apply Req_le. field. lra.
Qed.
Lemma kV0 : 0 <= kV O / kg.
Proof.
  pose proof (kv_low (e O) (f O) (e 1%nat) (f 1%nat)) as N. fold (kV O) in N. pose proof kg_pos as G. pose proof (sq0 (e O)) as A. pose proof (sq0 (f O)) as B. unfold Rdiv. apply Rmult_le_pos; [|apply Rlt_le, Rinv_0_lt_compat, G]. apply Rle_trans with (2 := N). apply Rmult_le_pos; lra.
Qed.
Lemma schur_bound n : e n * e n + f n * f n <= kV O / kg.
Proof.
  pose proof (schur_sq n) as S. pose proof kV0 as V. assert (P : 0 <= kr ^ n <= 1). { pose proof kr_range as R0. split; [apply pow_le; lra|]. induction n as [|n IH]; cbn; [lra|]. assert (0 <= kr ^ n) by (apply pow_le; lra). assert (IH' : kr ^ n <= 1). { apply IH. apply schur_sq. } nra. }
  apply Rle_trans with (1 := S). rewrite <- (Rmult_1_l (kV O / kg)) at 2. apply Rmult_le_compat_r; lra.
Qed.
Lemma schur_one (g : nat -> R) : (forall n, g n * g n <= kr ^ n * (kV O / kg)) -> Un_cv g 0.
Proof.
  intros Hg eps Heps. pose proof kr_range as R0. pose proof kV0 as K0. set (K := kV O / kg) in *.
  destruct (pow_lt_1_zero kr) with (y := eps * eps / (K + 1)) as [N HN]; [rewrite Rabs_pos_eq; lra|apply Rdiv_lt_0_compat; nra|].
  exists N. intros n Hn. specialize (HN n Hn). rewrite Rabs_pos_eq in HN by (apply pow_le; lra). unfold R_dist. rewrite Rminus_0_r.
  pose proof (Hg n) as S. assert (P0 : 0 <= kr ^ n) by (apply pow_le; lra).
  assert (L : g n * g n < eps * eps). { apply Rle_lt_trans with (1 := S). apply Rle_lt_trans with (kr ^ n * (K + 1)); [apply Rmult_le_compat_l; lra|]. apply Rmult_lt_reg_r with (/ (K + 1)); [apply Rinv_0_lt_compat; lra|]. rewrite Rmult_assoc, Rinv_r by lra. fold (eps * eps / (K + 1)). lra. }
  assert (L' : Rsqr (g n) < Rsqr eps) by exact L. apply Rsqr_lt_abs_0 in L'. rewrite (Rabs_pos_eq eps) in L' by lra. exact L'.
Qed.
Lemma schur_converges : Un_cv e 0 /\ Un_cv f 0.
Proof.
  split; apply schur_one; intros n; pose proof (schur_sq n) as S; [pose proof (sq0 (f n))|pose proof (sq0 (e n))]; lra.
Qed.
End Schur.
