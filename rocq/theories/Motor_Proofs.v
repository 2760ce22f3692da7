From Verif Require Import PyBase PyBaseFacts Transform_Model Motor_Model Motor_Spec.

(** A polynomial of degree two around [x]. *)
Lemma deriv_quad f x d c : (forall s, f s = f x + d * (s - x) + c * (s - x) * (s - x)) -> derivable_pt_lim f x d.
Proof.
  intros H eps Heps. assert (D : 0 < eps / (Rabs c + 1)).
  { apply Rdiv_lt_0_compat; [exact Heps|]. pose proof (Rabs_pos c). lra. }
  exists (mkposreal _ D). intros h Hh Hlt. cbn in Hlt. rewrite (H (x + h)).
  replace ((f x + d * (x + h - x) + c * (x + h - x) * (x + h - x) - f x) / h - d) with (c * h) by (field; exact Hh).
  rewrite Rabs_mult. pose proof (Rabs_pos c) as Hc. pose proof (Rabs_pos h) as Hh'.
  apply Rle_lt_trans with ((Rabs c + 1) * Rabs h); [nra|].
  apply Rmult_lt_compat_l with (r := Rabs c + 1) in Hlt; [|lra].
  replace ((Rabs c + 1) * (eps / (Rabs c + 1))) with eps in Hlt by (field; lra). exact Hlt.
Qed.
Lemma deriv_affine f x d : (forall s, f s = f x + d * (s - x)) -> derivable_pt_lim f x d.
Proof. intros H. apply deriv_quad with (c := 0). intros s. rewrite (H s). ring. Qed.

Lemma dl_eq f x d d' : derivable_pt_lim f x d' -> d' = d -> derivable_pt_lim f x d.
Proof. intros H <-. exact H. Qed.
Lemma dl_plus f g x a b : derivable_pt_lim f x a -> derivable_pt_lim g x b -> derivable_pt_lim (fun s => f s + g s) x (a + b).
Proof. exact (derivable_pt_lim_plus f g x a b). Qed.
Lemma dl_minus f g x a b : derivable_pt_lim f x a -> derivable_pt_lim g x b -> derivable_pt_lim (fun s => f s - g s) x (a - b).
Proof. exact (derivable_pt_lim_minus f g x a b). Qed.
Lemma dl_mult f g x a b : derivable_pt_lim f x a -> derivable_pt_lim g x b ->
  derivable_pt_lim (fun s => f s * g s) x (a * g x + f x * b).
Proof. exact (derivable_pt_lim_mult f g x a b). Qed.
Lemma dl_const c x : derivable_pt_lim (fun _ => c) x 0.
Proof. exact (derivable_pt_lim_const c x). Qed.
Lemma dl_scal c f x a : derivable_pt_lim f x a -> derivable_pt_lim (fun s => c * f s) x (c * a).
Proof. intros H. eapply dl_eq; [apply dl_mult; [apply dl_const|exact H]|cbv beta; ring]. Qed.
Lemma dl_div f c x a : derivable_pt_lim f x a -> derivable_pt_lim (fun s => f s / c) x (a / c).
Proof. intros H. unfold Rdiv. eapply dl_eq; [apply dl_mult; [exact H|apply dl_const]|cbv beta; ring]. Qed.
Lemma dl_exp lam a t : derivable_pt_lim (fun s => a * exp (lam * s)) t (a * exp (lam * t) * lam).
Proof.
  eapply dl_eq; [apply dl_scal|].
  { pose proof (derivable_pt_lim_comp (fun s => lam * s) exp t lam (exp (lam * t))) as H. unfold comp in H.
    apply H; [|apply derivable_pt_lim_exp]. eapply dl_eq; [apply dl_scal, derivable_pt_lim_id|ring]. }
  cbn. ring.
Qed.

(** Non-increasing along an interval. *)
Lemma deriv_nonpos_le f f' a b : a <= b -> (forall c, a <= c <= b -> derivable_pt_lim f c (f' c)) ->
  (forall c, a <= c <= b -> f' c <= 0) -> f b <= f a.
Proof.
  intros Hab Hd Hn. destruct (Rle_lt_or_eq_dec a b Hab) as [H|H]; [|rewrite H; lra].
  destruct (MVT_cor2 f f' a b H) as [c [E Hc]].
  - intros c Hc. apply Hd. exact Hc.
  - assert (f' c <= 0) by (apply Hn; lra). assert (0 < b - a) by lra. nra.
Qed.

Ltac des_list x := repeat (destruct x as [|? x]; try discriminate).
Ltac nat_cases i H := repeat (destruct i as [|i]; [|try (exfalso; lia)]).

Ltac unf := unfold comp, val; cbn [list_set nth item nth_error bind matvec forallb length Nat.eqb andb map dot row_div].

Lemma im_den m : im_ok m -> im_lr m <> 0 /\ im_ls m <> 0 /\ im_ls m * im_lr m - im_lm m * im_lm m <> 0 /\
  0 < im_lr m /\ 0 < im_ls m /\ 0 < im_ls m * im_lr m - im_lm m * im_lm m.
Proof. intros (H1 & H2 & H3 & H4 & H5). unfold im_lr, im_ls. assert (0 < (im_lm m + im_lsigs m) * (im_lm m + im_lsigr m) - im_lm m * im_lm m) by nra. lra. Qed.
Lemma im_sigma_pos m : im_ok m -> 0 < im_sigma m.
Proof.
  intros H. destruct (im_den m H) as (_ & _ & _ & H1 & H2 & H3). unfold im_sigma. apply Rdiv_lt_0_compat; [exact H3|].
  now apply Rmult_lt_0_compat.
Qed.
Lemma im_den2 m : im_ok m -> im_ls m <> 0 /\ im_lr m <> 0 /\ im_sigma m <> 0 /\ im_taur m <> 0 /\ im_tausig m <> 0.
Proof.
  intros H. destruct (im_den m H) as (_ & _ & _ & H1 & H2 & H3). pose proof (im_sigma_pos m H) as H4.
  destruct H as (K1 & K2 & K3 & K4 & K5).
  assert (0 < im_taur m) by (unfold im_taur; now apply Rdiv_lt_0_compat).
  assert (0 < im_rr m * (im_lm m * im_lm m) / (im_lr m * im_lr m)).
  { apply Rdiv_lt_0_compat; [|now apply Rmult_lt_0_compat]. apply Rmult_lt_0_compat; [assumption|now apply Rmult_lt_0_compat]. }
  assert (0 < im_tausig m).
  { unfold im_tausig. apply Rdiv_lt_0_compat; [now apply Rmult_lt_0_compat|lra]. }
  repeat split; lra.
Qed.
Lemma eesm_den m : ee_le m <> 0 -> ee_k m <> 0 -> ee_lE m <> 0 /\ ee_rs_ratio m <> 0.
Proof.
  intros H K. unfold ee_lE, ee_rs_ratio. split.
  - apply Rmult_integral_contrapositive_currified; [|exact H]. unfold Rdiv.
    apply Rmult_integral_contrapositive_currified; [|lra]. apply Rmult_integral_contrapositive_currified; [|lra].
    now apply Rmult_integral_contrapositive_currified.
  - unfold Rdiv. apply Rmult_integral_contrapositive_currified; [lra|]. now apply Rinv_neq_0_compat.
Qed.
Lemma eesm_sigma_val m : ee_ld m <> 0 -> ee_le m <> 0 -> ee_k m <> 0 ->
  ee_sigma m = (2 * ee_ld m * ee_le m - 3 * ee_lm m * ee_lm m) / (2 * ee_ld m * ee_le m).
Proof. intros H1 H2 H3. unfold ee_sigma, ee_lM, ee_lE. field. auto. Qed.
Lemma eesm_sigma_num a b c : a <> 0 -> b <> 0 -> c / (2 * a * b) <> 0 -> c <> 0.
Proof. intros H1 H2 H3 ->. apply H3. field. auto. Qed.

Lemma locked_energy {U} n (adm : U -> Prop) ode torque (W : list R -> R) inp loss u x a b :
  energy_balance n adm ode torque W inp loss -> adm u -> locked n ode u x a b ->
  (forall y, inp y u = 0) -> (forall y, 0 <= loss y) -> W (x b) <= W (x a).
Proof.
  intros Hb Hu (Hab & Hl & Hf) Hi Hloss.
  apply (deriv_nonpos_le (fun s => W (x s)) (fun c => - loss (x c)) a b Hab).
  - intros c Hc. destruct (Hb x u 0 c Hl Hu (Hf c Hc)) as [T [_ D]]. eapply dl_eq; [exact D|]. rewrite Hi. ring.
  - intros c Hc. specialize (Hloss (x c)). lra.
Qed.
Lemma sq_nonneg a : 0 <= a * a.
Proof. nra. Qed.

(** Growing solution of a 2x2 linear system with negative determinant. *)
Lemma unstable2 a b c d : a * d - b * c < 0 -> b <> 0 ->
  exists lam v, 0 < lam /\ a * b + b * v = lam * b /\ c * b + d * v = lam * v.
Proof.
  intros Hdet Hb. set (D := (a + d) * (a + d) - 4 * (a * d - b * c)).
  assert (HD : (a + d) * (a + d) < D) by (unfold D; lra).
  assert (HD0 : 0 <= D) by (pose proof (sq_nonneg (a + d)); lra).
  pose proof (sqrt_sqrt D HD0) as HS. pose proof (sqrt_pos D) as HP.
  set (lam := (a + d + sqrt D) / 2). exists lam, (lam - a).
  assert (- (a + d) < sqrt D).
  { destruct (Rlt_or_le (- (a + d)) (sqrt D)) as [L|L]; [exact L|].
    assert (sqrt D * sqrt D <= (a + d) * (a + d)) by nra. lra. }
  split; [unfold lam; lra|]. split; [ring|].
  assert (Q : lam * lam - (a + d) * lam + (a * d - b * c) = 0).
  { unfold lam. replace ((a + d + sqrt D) / 2 * ((a + d + sqrt D) / 2) - (a + d) * ((a + d + sqrt D) / 2) + (a * d - b * c))
      with ((sqrt D * sqrt D - (a + d) * (a + d)) / 4 + (a * d - b * c)) by field.
    rewrite HS. unfold D. field. }
  nra.
Qed.
