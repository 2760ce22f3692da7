From Verif Require Import PyBase PyBaseFacts PyDict PyDictFacts Utils_Model Transform_Model Solver_Model Init_Model Loads_Model Loads_Spec.

Lemma cell_eqb_spec a b : reflect (a = b) (cell_eqb a b).
Proof.
  destruct a as [| |n], b as [| |m]; cbn; try (constructor; congruence).
  destruct (Nat.eqb_spec n m) as [->|]; constructor; congruence.
Qed.
Lemma heap_set_same h c d : heap_set h c d c = d.
Proof. unfold heap_set. destruct (cell_eqb_spec c c); congruence. Qed.
Lemma heap_set_other h c d c' : c' <> c -> heap_set h c d c' = h c'.
Proof. intros H. unfold heap_set. destruct (cell_eqb_spec c' c); congruence. Qed.

Lemma step_frame w op c : op_cell (snd w) op <> Some c -> fst (fst (load_step w op)) c = fst w c.
Proof.
  destruct w as [h ls]. cbn [snd fst]. intros H. destruct op as [wf user o|user o|i e tn pool us]; cbn [load_step].
  - unfold new_const. set (c0 := pick ConstClass user). assert (Hc : c <> c0). { intros ->. apply H. reflexivity. }
    destruct (if req wf 0 then dict_item "omega"%string (h c0) else Ok wf) as [v|er]; cbn [bind]; [|reflexivity].
    cbn [fst]. destruct (req wf 0); [reflexivity|]. now apply heap_set_other.
  - reflexivity.
  - cbn in H. destruct (nth_error ls i) as [l|]; [|reflexivity]. unfold load_reset.
    destruct (load_initialize _ _ _ _ _ _) as [d|er]; cbn [bind]; [|reflexivity]. cbn [fst]. apply heap_set_other. congruence.
Qed.
Lemma step_loads w op i l : nth_error (snd w) i = Some l -> nth_error (snd (fst (load_step w op))) i = Some l.
Proof.
  destruct w as [h ls]. cbn [snd]. intros H. assert (A : forall x, nth_error (ls ++ [x]) i = Some l).
  { intros x. rewrite nth_error_app1; [exact H|]. apply nth_error_Some. congruence. }
  destruct op as [wf user o|user o|j e tn pool us]; cbn [load_step].
  - destruct (new_const h wf user o) as [[h' x]|er]; cbn [fst snd]; auto.
  - cbn [fst snd]. auto.
  - destruct (nth_error ls j) as [x|]; [|exact H]. destruct (load_reset h x e tn pool us) as [[h' v]|er]; exact H.
Qed.
Lemma run_cons w op ops : load_run w (op :: ops) = load_run (fst (load_step w op)) ops.
Proof. reflexivity. Qed.
Lemma run_frame ops w c : avoids c w ops -> fst (load_run w ops) c = fst w c.
Proof.
  revert w. induction ops as [|op ops IH]; intros w H; [reflexivity|]. destruct H as [H1 H2].
  rewrite run_cons, (IH _ H2). now apply step_frame.
Qed.
Lemma run_loads ops w i l : nth_error (snd w) i = Some l -> nth_error (snd (load_run w ops)) i = Some l.
Proof. revert w. induction ops as [|op ops IH]; intros w H; [exact H|]. rewrite run_cons. apply IH. now apply step_loads. Qed.

Lemma load_init_none o e tn pool us st d : lo_random o = None -> load_initialize o e tn pool us st = Ok d -> d = st.
Proof.
  unfold load_initialize. intros E H. rewrite E in H. destruct (load_bounds _ _ _) as [[lo up]|]; cbn [bind] in H; [|discriminate].
  destruct (_ && _); [|discriminate]. now injection H.
Qed.

(** Polynomial load *)
Definition poly_wf (p : poly) : Prop :=
  0 < po_jtotal p /\ po_lim p = po_a p / po_jtotal p * tau_decay /\ po_lin p = po_jtotal p / tau_decay.
Lemma tau_pos : 0 < tau_decay. Proof. unfold tau_decay. lra. Qed.
Lemma sgn_pos x : 0 < x -> sgn x = 1. Proof. intros H. unfold sgn. destruct (rltP 0 x); [reflexivity|contradiction]. Qed.
Lemma sgn_neg x : x < 0 -> sgn x = -1.
Proof. intros H. unfold sgn. destruct (rltP 0 x); [lra|]. destruct (rltP x 0); [reflexivity|contradiction]. Qed.
Lemma sgn_0 : sgn 0 = 0. Proof. unfold sgn. destruct (rltP 0 0); [lra|]. destruct (rltP 0 0); [lra|reflexivity]. Qed.
Lemma sgn_sq x : sgn x * (x * x) = x * Rabs x.
Proof.
  destruct (Rtotal_order x 0) as [H|[->|H]].
  - rewrite sgn_neg, Rabs_left by exact H. ring.
  - rewrite Rabs_R0. ring.
  - rewrite sgn_pos, Rabs_right by lra. ring.
Qed.
Lemma static_load_friction p w : poly_wf p -> 0 <= po_a p ->
  static_load p w = friction (po_a p) (po_b p) (po_c p) (po_jtotal p / tau_decay) w.
Proof.
  intros (HJ & HL & HK) Ha. unfold static_load, friction. rewrite HL, HK. set (J := po_jtotal p) in *. set (a := po_a p) in *.
  replace (sgn w * po_c p * (w * w)) with (po_c p * (sgn w * (w * w))) by ring. rewrite sgn_sq. f_equal.
  pose proof tau_pos as HT. set (T := tau_decay) in *. clearbody T.
  set (k := J / T). assert (Hk : 0 < k) by (unfold k; apply Rdiv_lt_0_compat; assumption).
  assert (E : a / J * T = a / k) by (unfold k; field; lra). rewrite E.
  assert (Eak : k * (a / k) = a) by (field; lra).
  destruct (rltP (a / k) (Rabs w)) as [H|H].
  - assert (Hw : a < k * Rabs w). { rewrite <- Eak. now apply Rmult_lt_compat_l. }
    destruct (Rtotal_order w 0) as [Hn|[->|Hp]].
    + rewrite sgn_neg by exact Hn. rewrite Rabs_left in Hw by exact Hn.
      rewrite Rmin_right by nra. rewrite Rmax_left by nra. ring.
    + rewrite Rabs_R0, Rmult_0_r in Hw. lra.
    + rewrite sgn_pos by exact Hp. rewrite Rabs_right in Hw by lra. rewrite Rmin_left by lra. rewrite Rmax_right by lra. ring.
  - apply Rnot_lt_le in H. assert (Hw : k * Rabs w <= a). { rewrite <- Eak. apply Rmult_le_compat_l; lra. }
    assert (Hb : - a <= k * w <= a). { pose proof (Rle_abs w) as A1. pose proof (Rle_abs (- w)) as A2. rewrite Rabs_Ropp in A2. nra. }
    rewrite Rmin_right by lra. rewrite Rmax_right by lra. reflexivity.
Qed.

Lemma clip_mono a x y : x <= y -> Rmax (- a) (Rmin a x) <= Rmax (- a) (Rmin a y).
Proof. intros H. apply Rle_max_compat_l. now apply Rle_min_compat_l. Qed.
Lemma sq_abs_mono x y : x <= y -> x * Rabs x <= y * Rabs y.
Proof. intros H. unfold Rabs. destruct (Rcase_abs x), (Rcase_abs y); nra. Qed.
Lemma friction_mono a b c k x y : 0 <= b -> 0 <= c -> 0 <= k -> x <= y -> friction a b c k x <= friction a b c k y.
Proof.
  intros Hb Hc Hk H. unfold friction. apply Rplus_le_compat; [apply Rplus_le_compat|].
  - apply Rmult_le_compat_l; [exact Hc|]. now apply sq_abs_mono.
  - now apply Rmult_le_compat_l.
  - apply clip_mono. now apply Rmult_le_compat_l.
Qed.
Lemma friction_odd a b c k x : 0 <= a -> friction a b c k (- x) = - friction a b c k x.
Proof.
  intros Ha. unfold friction. rewrite Rabs_Ropp. replace (k * - x) with (- (k * x)) by ring. set (z := k * x).
  assert (E : Rmax (- a) (Rmin a (- z)) = - Rmax (- a) (Rmin a z)).
  { unfold Rmax, Rmin. repeat destruct (Rle_dec _ _); lra. }
  rewrite E. ring.
Qed.
Lemma friction_0 a b c k : 0 <= a -> friction a b c k 0 = 0.
Proof. intros Ha. unfold friction. rewrite Rmult_0_r, Rmin_right, Rmax_right by lra. ring. Qed.
Lemma friction_continuous a b c k : continuity (friction a b c k).
Proof.
  assert (E : forall w, (c * (w * Rabs w) + b * w + ((- a + (a + k * w - Rabs (a - k * w)) / 2) + Rabs (- a - (a + k * w - Rabs (a - k * w)) / 2)) / 2) = friction a b c k w).
  { intros w. unfold friction. f_equal. set (z := k * w).
    assert (M : Rmin a z = (a + z - Rabs (a - z)) / 2). { unfold Rmin, Rabs. destruct (Rle_dec a z), (Rcase_abs (a - z)); lra. }
    rewrite <- M. set (y := Rmin a z). unfold Rmax, Rabs. destruct (Rle_dec (- a) y), (Rcase_abs (- a - y)); lra. }
  intros w. apply (continuity_pt_locally_ext _ _ 1 w Rlt_0_1 (fun y _ => E y)).
  pose proof Rcontinuity_abs as CA. unfold Rdiv.
  assert (CI : continuity (fun w : R => w)) by (intros x; apply derivable_continuous_pt, derivable_pt_id).
  assert (CC : forall v, continuity (fun _ : R => v)) by (intros v x; apply derivable_continuous_pt, derivable_pt_const).
  assert (CM : forall f g, continuity f -> continuity g -> continuity (fun w => f w * g w)) by (intros f g A B x; apply (continuity_pt_mult f g); auto).
  assert (CP : forall f g, continuity f -> continuity g -> continuity (fun w => f w + g w)) by (intros f g A B x; apply (continuity_pt_plus f g); auto).
  assert (CS : forall f g, continuity f -> continuity g -> continuity (fun w => f w - g w)) by (intros f g A B x; apply (continuity_pt_minus f g); auto).
  assert (CB : forall f, continuity f -> continuity (fun w => Rabs (f w))) by (intros f A x; apply (continuity_pt_comp f Rabs); auto).
  revert w. change (continuity (fun w => c * (w * Rabs w) + b * w + (- a + (a + k * w - Rabs (a - k * w)) * / 2 + Rabs (- a - (a + k * w - Rabs (a - k * w)) * / 2)) * / 2)).
  auto 30.
Qed.

Lemma deriv_lin m x : derivable_pt_lim (fun w => m * w) x m.
Proof. apply (derivable_pt_lim_ext (mult_real_fct m id)); [reflexivity|]. rewrite <- (Rmult_1_r m) at 2. apply derivable_pt_lim_scal, derivable_pt_lim_id. Qed.
Lemma deriv_sq_abs x : derivable_pt_lim (fun w => w * Rabs w) x (2 * Rabs x).
Proof.
  destruct (Rtotal_order x 0) as [H|[->|H]].
  - apply (derivable_pt_lim_locally_ext (fun w => - (w * w)) _ x (x - 1) 0); [lra| |].
    + intros z Hz. rewrite Rabs_left by lra. ring.
    + rewrite Rabs_left by exact H. replace (2 * - x) with (- (1 * x + x * 1)) by ring.
      apply (derivable_pt_lim_opp (id * id)%F). apply (derivable_pt_lim_mult id id); apply derivable_pt_lim_id.
  - rewrite Rabs_R0, Rmult_0_r. intros eps He. exists (mkposreal eps He). intros h Hh Hl. cbn in Hl.
    rewrite Rplus_0_l, Rmult_0_l, !Rminus_0_r. unfold Rdiv. rewrite (Rmult_comm h), Rmult_assoc, Rinv_r, Rmult_1_r, Rabs_Rabsolu by exact Hh. exact Hl.
  - apply (derivable_pt_lim_locally_ext (fun w => w * w) _ x 0 (x + 1)); [lra| |].
    + intros z Hz. now rewrite Rabs_right by lra.
    + rewrite Rabs_right by lra. replace (2 * x) with (1 * x + x * 1) by ring.
      apply (derivable_pt_lim_mult id id); apply derivable_pt_lim_id.
Qed.
(** Derivative of the smoothed Coulomb term away from its corners. *)
Lemma deriv_clip a k x : 0 <= a -> 0 < k -> Rabs x <> a / k ->
  derivable_pt_lim (fun w => Rmax (- a) (Rmin a (k * w))) x (if rlt (a / k) (Rabs x) then 0 else k).
Proof.
  intros Ha Hk Hx. set (L := a / k) in *. assert (E : k * L = a) by (unfold L; field; lra).
  assert (HL : 0 <= L). { unfold L. apply Rmult_le_pos; [lra|]. left. now apply Rinv_0_lt_compat. }
  destruct (rltP L (Rabs x)) as [H|H].
  - destruct (Rle_dec 0 x) as [H0|H0].
    + rewrite Rabs_pos_eq in H by exact H0. apply (derivable_pt_lim_locally_ext (fun _ => a) _ x L (x + 1)); [lra| |apply derivable_pt_lim_const].
      intros z Hz. assert (a < k * z) by (rewrite <- E; apply Rmult_lt_compat_l; lra). rewrite Rmin_left, Rmax_right by lra. reflexivity.
    + rewrite Rabs_left in H by lra. apply (derivable_pt_lim_locally_ext (fun _ => - a) _ x (x - 1) (- L)); [lra| |apply derivable_pt_lim_const].
      intros z Hz. assert (k * z < k * - L) by (apply Rmult_lt_compat_l; lra). assert (k * - L = - a) by lra.
      rewrite Rmin_right, Rmax_left by lra. reflexivity.
  - assert (H' : Rabs x < L) by lra. apply Rabs_def2 in H'.
    apply (derivable_pt_lim_locally_ext (fun w => k * w) _ x (- L) L); [lra| |apply deriv_lin].
    intros z Hz. assert (k * z < k * L) by (apply Rmult_lt_compat_l; lra). assert (k * - L < k * z) by (apply Rmult_lt_compat_l; lra).
    assert (k * - L = - a) by lra. rewrite Rmin_right, Rmax_right by lra. reflexivity.
Qed.
Lemma deriv_friction a b c k x : 0 <= a -> 0 < k -> Rabs x <> a / k ->
  derivable_pt_lim (friction a b c k) x (c * (2 * Rabs x) + b + (if rlt (a / k) (Rabs x) then 0 else k)).
Proof.
  intros Ha Hk Hx. unfold friction.
  apply (derivable_pt_lim_plus (fun w => c * (w * Rabs w) + b * w) (fun w => Rmax (- a) (Rmin a (k * w)))); [|now apply deriv_clip].
  apply (derivable_pt_lim_plus (fun w => c * (w * Rabs w)) (fun w => b * w)); [|apply deriv_lin].
  apply (derivable_pt_lim_scal (fun w => w * Rabs w)). apply deriv_sq_abs.
Qed.

Lemma poly_attach_snoc p js j : poly_attach p (js ++ [j]) = do q <- poly_attach p js; poly_set_j_rotor j q.
Proof. unfold poly_attach. now rewrite fold_left_app. Qed.
Lemma rsum_snoc js j : rsum (js ++ [j]) = rsum js + j.
Proof. induction js as [|x js IH]; cbn; [lra|]. rewrite IH. lra. Qed.
Lemma attach_spec a b c j js : 0 < j -> (forall x, In x js -> 0 <= x) ->
  exists p0 p, poly_new a b c j = Ok p0 /\ poly_attach p0 js = Ok p /\ poly_wf p /\ po_jtotal p = j + rsum js /\ po_a p = a /\ po_b p = b /\ po_c p = c /\ po_jload p = j.
Proof.
  intros Hj. unfold poly_new. destruct (reqP j 0) as [|_]; [lra|]. set (p0 := {| po_a := a; po_b := b; po_c := c; po_jload := j; po_jtotal := j; po_lim := _; po_lin := _ |}).
  induction js as [|x js IH] using rev_ind; intros Hjs.
  - exists p0, p0. split; [reflexivity|]. split; [reflexivity|]. cbn. split; [split; [exact Hj|split; reflexivity]|]. split; [lra|auto].
  - destruct IH as (p0' & p & E0 & E & W & J & A & B & C & D). { intros y Hy. apply Hjs, in_or_app. now left. }
    injection E0 as <-. exists p0. rewrite poly_attach_snoc, E. cbn [bind]. unfold poly_set_j_rotor.
    assert (Hx : 0 <= x) by (apply Hjs, in_or_app; right; now left). destruct W as (W1 & _). destruct (reqP (po_jtotal p + x) 0) as [|_]; [lra|].
    eexists. split; [reflexivity|]. split; [reflexivity|]. unfold poly_wf. cbn [po_a po_b po_c po_jload po_jtotal po_lim po_lin].
    rewrite rsum_snoc. split; [split; [lra|split; reflexivity]|]. split; [lra|auto].
Qed.
