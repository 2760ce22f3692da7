From Verif Require Import PyBase PyBaseFacts Solver_Model Solver_Spec.
From Coq Require Import Rtrigo_def Rpower Ranalysis.

Lemma np_add_ok x d h : length d = length x -> np_add x (vscale h d) = Ok (map2 (fun a b => a + h * b) x d).
Proof.
  intros H. unfold np_add, vscale. rewrite map_length, H, Nat.eqb_refl. f_equal.
  clear H. revert d; induction x as [|a x IH]; intros [|b d]; cbn; auto. rewrite IH. f_equal. ring.
Qed.
Lemma map2_len {A B C} (f : A -> B -> C) x y : length y = length x -> length (map2 f x y) = length x.
Proof. intros H. rewrite map2_length, H. apply Nat.min_id. Qed.

(** Autonomous system. *)
Lemma loop_autonomous g h k : (forall y, length (g y) = length y) ->
  forall ct y, nsteps_loop (fun _ y => Ok (g y)) h k ct y = Ok (iterate k (euler_step g h) y).
Proof.
  intros Hg. induction k as [|k IH]; intros ct y; cbn [nsteps_loop iterate]; [reflexivity|]. cbn [bind].
  rewrite np_add_ok by apply Hg. cbn [bind]. apply IH.
Qed.
Lemma loop_ext f g h k : forall ct y, 0 < h -> (forall s z, ct < s -> f s z = g s z) ->
  nsteps_loop f h k ct y = nsteps_loop g h k ct y.
Proof.
  induction k as [|k IH]; intros ct y Hh H; cbn [nsteps_loop]; [reflexivity|].
  rewrite H by lra. destruct (g (ct + h) y) as [d|e]; cbn [bind]; [|reflexivity].
  destruct (np_add y (vscale h d)) as [y'|e]; cbn [bind]; [|reflexivity].
  apply IH; [exact Hh|]. intros s z Hs. apply H. lra.
Qed.
Lemma loop_scalar g h k : forall ct y,
  nsteps_loop (fun t y => match y with [a] => Ok [g t a] | _ => Err ValueError end) h k ct [y]
  = Ok [euler_scalar g h k (ct + h) y].
Proof.
  induction k as [|k IH]; intros ct y; cbn [nsteps_loop euler_scalar]; [reflexivity|]. cbn [bind].
  rewrite (np_add_ok [y] [g (ct + h) y] h eq_refl). cbn [map2 bind]. apply IH.
Qed.
(** Sum over sample times for a right hand side that depends on time only. *)
Lemma euler_scalar_shift c h k : forall s y,
  euler_scalar (fun t _ => t) h k (s + c) y = euler_scalar (fun t _ => t) h k s y + INR k * (h * c).
Proof.
  induction k as [|k IH]; intros s y; cbn [euler_scalar]; [cbn; ring|].
  replace (s + c + h) with (s + h + c) by ring. rewrite IH.
  replace (y + h * (s + c)) with (y + h * s + h * c) by ring.
  assert (Hy : forall n u a b, euler_scalar (fun t _ => t) h n u (a + b) = euler_scalar (fun t _ => t) h n u a + b).
  { clear. induction n as [|n IHn]; intros u a b; cbn [euler_scalar]; [reflexivity|].
    replace (a + b + h * u) with (a + h * u + b) by ring. apply IHn. }
  rewrite Hy. rewrite S_INR. ring.
Qed.

Lemma iterate_S {A} n (F : A -> A) x : iterate (S n) F x = F (iterate n F x).
Proof. revert x; induction n as [|n IH]; intros x; [reflexivity|]. cbn [iterate] in *. now rewrite <- IH. Qed.
Lemma iterate_len g h n y : (forall y, length (g y) = length y) -> length (iterate n (euler_step g h) y) = length y.
Proof.
  intros Hg. induction n as [|n IH]; [reflexivity|]. rewrite iterate_S. unfold euler_step at 1.
  rewrite map2_len; auto.
Qed.

(** ** Convergence *)
Section Conv.
Context (g y : R -> R) (L M t0 T : R) (HL : 0 <= L) (HM : 0 <= M)
  (Hlip : forall a b, Rabs (g a - g b) <= L * Rabs (a - b))
  (Hsol : forall s, t0 <= s <= T -> derivable_pt_lim y s (g (y s)))
  (Hsm : forall s u, t0 <= s <= T -> t0 <= u <= T -> Rabs (g (y s) - g (y u)) <= M * Rabs (s - u)).

(** Local error of one step. *)
Lemma local_error s h : t0 <= s -> 0 <= h -> s + h <= T ->
  Rabs (y (s + h) - (y s + h * g (y s))) <= M * h * h.
Proof.
  intros Hs Hh HT. destruct (Req_dec h 0) as [->|Hne].
  - rewrite Rplus_0_r. replace (y s - (y s + 0 * g (y s))) with 0 by ring. rewrite Rabs_R0. lra.
  - assert (Hpr : forall x, s < x < s + h -> derivable_pt y x).
    { intros x Hx. exists (g (y x)). apply Hsol. lra. }
    assert (Hpr' : forall x, s < x < s + h -> derivable_pt id x) by (intros x Hx; apply derivable_pt_id).
    destruct (MVT id y s (s + h) Hpr' Hpr ltac:(lra)) as (x & Hx & E).
    + intros z _. apply derivable_continuous_pt, derivable_pt_id.
    + intros z Hz. apply derivable_continuous_pt. exists (g (y z)). apply Hsol. lra.
    + assert (E1 : derive_pt y x (Hpr x Hx) = g (y x)).
      { apply (derive_pt_eq_0 y x (g (y x))). apply Hsol. lra. }
      assert (E2 : derive_pt id x (Hpr' x Hx) = 1).
      { apply (derive_pt_eq_0 id x 1). apply derivable_pt_lim_id. }
      rewrite E1, E2 in E. unfold id in E.
      replace (y (s + h) - (y s + h * g (y s))) with (h * (g (y x) - g (y s))) by lra.
      rewrite Rabs_mult, (Rabs_right h) by lra.
      pose proof (Hsm x s ltac:(lra) ltac:(lra)) as H. rewrite (Rabs_right (x - s)) in H by lra.
      assert (M * (x - s) <= M * h) by (apply Rmult_le_compat_l; lra).
      replace (M * h * h) with (h * (M * h)) by ring. apply Rmult_le_compat_l; lra.
Qed.

Lemma global_error h n : 0 <= h -> forall s z, t0 <= s -> s + INR n * h <= T ->
  Rabs (y (s + INR n * h) - iterate n (fun a => a + h * g a) z) <=
  (1 + h * L) ^ n * (Rabs (y s - z) + INR n * (M * h * h)).
Proof.
  intros Hh. induction n as [|n IH]; intros s z Hs HT.
  - cbn. rewrite Rmult_0_l, Rplus_0_r, Rmult_0_l. lra.
  - cbn [iterate]. rewrite S_INR in *. pose proof (pos_INR n) as Hn.
    assert (Hnh : 0 <= INR n * h) by (apply Rmult_le_pos; lra).
    replace (s + (INR n + 1) * h) with (s + h + INR n * h) by ring.
    eapply Rle_trans; [apply IH; lra|].
    set (q := (1 + h * L) ^ n).
    assert (Hq : 0 <= q) by (apply pow_le; assert (0 <= h * L) by (apply Rmult_le_pos; lra); lra).
    cbn [pow]. fold q.
    assert (HhL : 0 <= h * L) by (apply Rmult_le_pos; lra).
    assert (E1 : Rabs (y (s + h) - (z + h * g z)) <= (1 + h * L) * Rabs (y s - z) + M * h * h).
    { replace (y (s + h) - (z + h * g z)) with
        ((y (s + h) - (y s + h * g (y s))) + ((y s - z) + h * (g (y s) - g z))) by ring.
      eapply Rle_trans; [apply Rabs_triang|].
      pose proof (local_error s h Hs Hh ltac:(lra)).
      assert (Rabs ((y s - z) + h * (g (y s) - g z)) <= Rabs (y s - z) + h * (L * Rabs (y s - z))).
      { eapply Rle_trans; [apply Rabs_triang|]. rewrite (Rabs_mult h), (Rabs_right h) by lra.
        apply Rplus_le_compat_l, Rmult_le_compat_l; [exact Hh|apply Hlip]. }
      lra. }
    set (e := M * h * h) in *.
    assert (He : 0 <= e) by (unfold e; apply Rmult_le_pos; [apply Rmult_le_pos|]; lra).
    rewrite (Rmult_comm (1 + h * L) q), Rmult_assoc. apply Rmult_le_compat_l; [exact Hq|].
    pose proof (Rabs_pos (y s - z)). 
    assert (0 <= h * L * (INR n * e)) by (apply Rmult_le_pos; [|apply Rmult_le_pos]; lra).
    assert (0 <= h * L * e) by (apply Rmult_le_pos; lra).
    lra.
Qed.
End Conv.

Lemma iterate_scalar g h n : forall z, iterate n (euler_step (map g) h) [z] = [iterate n (fun a => a + h * g a) z].
Proof. induction n as [|n IH]; intros z; [reflexivity|]. cbn [iterate euler_step map map2]. apply IH. Qed.
Lemma pow_exp x n : 0 <= x -> (1 + x) ^ n <= exp (INR n * x).
Proof.
  intros Hx. induction n as [|n IH].
  - cbn. rewrite Rmult_0_l, exp_0. lra.
  - rewrite S_INR, Rmult_plus_distr_r, exp_plus, Rmult_1_l. cbn [pow]. rewrite Rmult_comm.
    apply Rmult_le_compat; [apply pow_le; lra|lra|exact IH|].
    destruct Hx as [Hx|<-]; [left; apply exp_ineq1; lra|rewrite exp_0; lra].
Qed.
