(** C117: the tuned current loop of a DC motor. *)
From Verif Require Import PyBaseFacts PyDictFacts Transform_Model Transform_Proofs Motor_Model Conv_Model Wrap_Model Ctl_Model Ctl_Model2 Ctl_Spec Ctl_Proofs Ctl_Proofs2 Ctl_Props Emf_Props Loop_Spec Loop_Proofs Loop_Proofs2.
Local Open Scope string_scope. Local Open Scope list_scope. Local Open Scope R_scope.

Fixpoint zsum (tau r : R) (i : nat -> R) (k : nat) : R := match k with O => 0 | Datatypes.S j => zsum tau r i j + tau * (r - i j) end.
Lemma single_out c kp ki ji tau lo hi c' z s r i y c2 out : single c kp ki ji tau lo hi -> like c z c' -> item s ji = Ok i ->
  (if cc_dec c then emf_call (cc_emf c) s [kp * (r - i) + ki * z] else Ok [kp * (r - i) + ki * z]) = Ok [y] -> current_control c' s [r] = (c2, Ok out) -> out = [y].
Proof.
  intros [S1 S2 S3 S4 S5 S6 S7] (L1 & L2 & L3 & L4 & L5 & L6 & L7 & L8 & L9 & L10) Hi Hy H. apply current_control_inv in H. destruct H as (b & u & y' & cl & v & E1 & E2 & _ & E4 & _).
  unfold base_call in E1. rewrite L1 in E1. unfold pi_control, base_states, p_part, i_part in E1. rewrite L4, S3, (select1 _ _ _ Hi) in E1. cbn [bind] in E1. rewrite L2, L3, L5, S1, S2 in E1. assert (Eu : u = [kp * (r - i) + ki * z]) by (cbn in E1; congruence). rewrite Eu, L8, L9, Hy in E2. rewrite L10, S7 in E4. congruence.
Qed.

(** The decoupling and the motor together: with controller output [v] the winding sees [v] and a constant disturbance. *)
Definition winding (f : emf) (s : list R) (ode : R -> list R -> res R) (i L Rs D : R) : Prop :=
  forall v, exists y, emf_call f s [v] = Ok [y] /\ exists d, ode i [y] = Ok d /\ L * d = v - Rs * i - D.
Lemma loop_linear n e cur r ode c cs s i u kp ki ji lo hi L Rs D : loop_until n e cur r ode c cs s i u -> single c kp ki ji (ce_tau e) lo hi -> like c 0 c -> str_index cur (ce_names e) = Ok ji -> cc_dec c = true -> (forall y, in_voltage_range e y <-> lo <= y <= hi) ->
  0 < L -> (forall k, (k < n)%nat -> winding (cc_emf c) (s k) (ode k) (i k) L Rs D) ->
  forall k, (k < n)%nat -> i (Datatypes.S k) = i k + ce_tau e / L * (kp * (r - i k) + ki * zsum (ce_tau e) r i k - Rs * i k - D).
Proof.
  intros [C1 C2 C3 C4 C5] Sg Lk Hji Hdec Hrg L0 W.
  assert (Hobs : forall k, (k < n)%nat -> item (s k) ji = Ok (i k)). { intros k Hk. destruct (C4 k Hk) as (j & E1 & E2). rewrite Hji in E1. injection E1 as <-. exact E2. }
  assert (A : forall k, (k <= n)%nat -> like c (zsum (ce_tau e) r i k) (cs k)).
  { induction k as [|k IH]; intros Hk; [rewrite C1; exact Lk|]. specialize (IH (Nat.lt_le_incl _ _ Hk)). destruct (W k Hk (kp * (r - i k) + ki * zsum (ce_tau e) r i k)) as (y & Ey & _). assert (Ey' : (if cc_dec c then emf_call (cc_emf c) (s k) [kp * (r - i k) + ki * zsum (ce_tau e) r i k] else Ok [kp * (r - i k) + ki * zsum (ce_tau e) r i k]) = Ok [y]) by (rewrite Hdec; exact Ey).
    pose proof (single_out _ _ _ _ _ _ _ _ _ _ _ _ _ _ _ Sg IH (Hobs k Hk) Ey' (C2 k Hk)) as Eo. injection Eo as Eo. pose proof (proj1 (Hrg (u k)) (C3 k Hk)) as Hr. rewrite Eo in Hr.
    destruct (single_step _ _ _ _ _ _ _ _ _ _ _ _ _ Sg IH (Hobs k Hk) Ey' Hr) as (c2 & E2 & L2). rewrite (C2 k Hk) in E2. injection E2 as E2 _. rewrite E2. exact L2. }
  intros k Hk. destruct (W k Hk (kp * (r - i k) + ki * zsum (ce_tau e) r i k)) as (y & Ey & d & Ed & Hd). assert (Ey' : (if cc_dec c then emf_call (cc_emf c) (s k) [kp * (r - i k) + ki * zsum (ce_tau e) r i k] else Ok [kp * (r - i k) + ki * zsum (ce_tau e) r i k]) = Ok [y]) by (rewrite Hdec; exact Ey).
  pose proof (single_out _ _ _ _ _ _ _ _ _ _ _ _ _ _ _ Sg (A k (Nat.lt_le_incl _ _ Hk)) (Hobs k Hk) Ey' (C2 k Hk)) as Eo. injection Eo as Eo. destruct (C5 k Hk) as (d' & Ed' & ->). rewrite Eo, Ed in Ed'. injection Ed' as <-.
  replace d with (/ L * (L * d)) by (field; lra). rewrite Hd. field. lra.
Qed.
(** The error obeys a second order recurrence. *)
Lemma loop_recurrence n a tau L Rs D r i : 0 < a -> 0 < tau -> 0 < L ->
  (forall k, (k < n)%nat -> i (Datatypes.S k) = i k + tau / L * (L / (tau * a) * (r - i k) + L / (tau * a) / (tau * (a * a)) * zsum tau r i k - Rs * i k - D)) ->
  forall k, (Datatypes.S k < n)%nat -> i (Datatypes.S (Datatypes.S k)) - r = (2 - tau * Rs / L - 1 / a) * (i (Datatypes.S k) - r) - (1 - tau * Rs / L - 1 / a + 1 / (a * a * a)) * (i k - r).
Proof.
  intros Ha Ht HL H k Hk. pose proof (H k (Nat.lt_succ_l _ _ Hk)) as H1. pose proof (H (Datatypes.S k) Hk) as H2. cbn [zsum] in H2.
  set (x := i (Datatypes.S k)) in *. set (x2 := i (Datatypes.S (Datatypes.S k))) in *. set (x0 := i k) in *. set (z := zsum tau r i k) in *. clearbody x x2 x0 z.
  match type of H1 with x = x0 + ?b => set (B := b) in * end. match type of H2 with x2 = x + ?b => set (A := b) in * end.
  assert (E : A - B = tau / L * (L / (tau * a) * (x0 - x) + L / (tau * a) / (tau * (a * a)) * (tau * (r - x0)) - Rs * (x - x0))) by (unfold A, B; ring). clearbody A B.
  replace x2 with (x + (x - x0) + (A - B)) by lra. rewrite E. field. repeat split; lra.
Qed.
Lemma Un_cv_shift i r : Un_cv (fun k => i k - r) 0 -> Un_cv i r.
Proof. intros H eps He. destruct (H eps He) as [N HN]. exists N. intros n Hn. specialize (HN n Hn). unfold R_dist in *. rewrite Rminus_0_r in HN. exact HN. Qed.
Lemma loop_converges a tau L Rs D r i : 0 < a -> 0 < tau -> 0 < L -> loop_stable a (tau * Rs / L) ->
  (forall k, i (Datatypes.S k) = i k + tau / L * (L / (tau * a) * (r - i k) + L / (tau * a) / (tau * (a * a)) * zsum tau r i k - Rs * i k - D)) -> Un_cv i r.
Proof.
  intros Ha Ht HL [S1 S2] H. apply Un_cv_shift. assert (A3 : 0 < 1 / (a * a * a)) by (apply Rdiv_lt_0_compat; [lra|repeat apply Rmult_lt_0_compat; lra]). replace (2 / a) with (2 * (1 / a)) in S2 by (field; lra).
  apply (recurrence_converges (2 - tau * Rs / L - 1 / a) (1 - tau * Rs / L - 1 / a + 1 / (a * a * a))); [lra|split; lra|]. intros k. exact (loop_recurrence (Datatypes.S (Datatypes.S k)) a tau L Rs D r i Ha Ht HL (fun j _ => H j) k (Nat.lt_succ_diag_r _)).
Qed.
(** Without stability the error has a component that grows, unless it is zero at the start. *)
Definition unstable_root (a rho : R) : R := let t := 2 - rho - 1 / a in let d := 1 - rho - 1 / a + 1 / (a * a * a) in (t - sqrt (t * t - 4 * d)) / 2.
Lemma loop_diverges a tau L Rs D r i0 B : 0 < a -> 0 < tau -> 0 < L -> 4 - 2 / a + 1 / (a * a * a) < 2 * (tau * Rs / L) ->
  i0 <> r + (Rs * r + D) * tau / L / (unstable_root a (tau * Rs / L) - 1) ->
  exists n, forall i, i O = i0 ->
  (forall k, (k < n)%nat -> i (Datatypes.S k) = i k + tau / L * (L / (tau * a) * (r - i k) + L / (tau * a) / (tau * (a * a)) * zsum tau r i k - Rs * i k - D)) ->
  exists k, (k <= n)%nat /\ B < Rabs (i k).
Proof.
  intros Ha Ht HL S H0. assert (A3 : 0 < 1 / (a * a * a)) by (apply Rdiv_lt_0_compat; [lra|repeat apply Rmult_lt_0_compat; lra]). replace (2 / a) with (2 * (1 / a)) in S by (field; lra).
  unfold unstable_root in H0. set (t := 2 - tau * Rs / L - 1 / a) in *. set (d := 1 - tau * Rs / L - 1 / a + 1 / (a * a * a)) in *.
  assert (P1 : 1 + t + d < 0) by (unfold t, d; lra). assert (P2 : 1 - t + d = 1 / (a * a * a)) by (unfold t, d; ring).
  assert (Q1 : (t + 2) * (t + 2) < t * t - 4 * d) by (replace ((t + 2) * (t + 2)) with (t * t + 4 * t + 4) by ring; lra). assert (Q : 0 <= t * t - 4 * d) by (pose proof (Rle_0_sqr (t + 2)) as Z; unfold Rsqr in Z; lra).
  cbv zeta in H0. set (q := sqrt (t * t - 4 * d)) in *. assert (Hq : q * q = t * t - 4 * d) by (apply sqrt_sqrt; exact Q). assert (Hq0 : 0 <= q) by apply sqrt_pos.
  set (lam := (t - q) / 2) in *. assert (Hl : lam * lam - t * lam + d = 0) by (unfold lam; replace ((t - q) / 2 * ((t - q) / 2) - t * ((t - q) / 2) + d) with ((q * q - (t * t - 4 * d)) / 4) by field; rewrite Hq; field). assert (Hl1 : lam < -1). { unfold lam. assert (Z : t + 2 < q \/ q <= t + 2) by lra. destruct Z as [Z|Z]; [lra|]. exfalso. nra. }
  set (e1 := (1 - tau * Rs / L - 1 / a) * (i0 - r) - tau / L * (Rs * r + D)). set (f0 := lam * e1 - d * (i0 - r)).
  assert (Hf0 : f0 <> 0).
  { unfold f0. intros E. apply H0. unfold e1 in E.
    assert (Y : (lam * (1 - tau * Rs / L - 1 / a) - d) * (i0 - r) = lam * (tau / L * (Rs * r + D))) by lra.
    replace (1 - tau * Rs / L - 1 / a) with (t - 1) in Y by (unfold t; ring). replace (lam * (t - 1) - d) with (lam * (lam - 1)) in Y by lra. rewrite Rmult_assoc in Y. apply Rmult_eq_reg_l in Y; [|lra].
    assert (Z : i0 - r = tau / L * (Rs * r + D) / (lam - 1)) by (apply Rmult_eq_reg_l with (lam - 1); [|lra]; rewrite Y; field; split; lra). replace i0 with (r + (i0 - r)) by ring. rewrite Z. field. split; lra. }
  assert (HM : exists N, forall n, (n >= N)%nat -> (Rabs lam + Rabs d) * (Rabs B + Rabs r + 1) / Rabs f0 <= Rabs lam ^ n) by (apply Pow_x_infinity_abs || (destruct (Pow_x_infinity lam) with (b := (Rabs lam + Rabs d) * (Rabs B + Rabs r + 1) / Rabs f0) as [N HN]; [rewrite Rabs_left; lra|exists N; intros n Hn; specialize (HN n Hn); rewrite <- RPow_abs in HN; lra])).
  destruct HM as [N HN]. specialize (HN N (le_n _)). exists (Datatypes.S N). intros i Hi H.
  pose proof (loop_recurrence (Datatypes.S N) a tau L Rs D r i Ha Ht HL H) as Rc. fold t d in Rc.
  set (f := fun k => lam * (i (Datatypes.S k) - r) - d * (i k - r)).
  assert (Hf : forall k, (k < N)%nat -> f (Datatypes.S k) = lam * f k). { intros k Hk. unfold f. rewrite (Rc k (proj1 (Nat.succ_lt_mono _ _) Hk)). replace d with (t * lam - lam * lam) by lra. ring. }
  assert (Ef0 : f O = f0). { unfold f, f0. rewrite (H O (Nat.lt_0_succ _)), Hi. cbn [zsum]. unfold e1. field. split; lra. }
  assert (Hg : forall k, (k <= N)%nat -> Rabs (f k) = Rabs lam ^ k * Rabs f0). { induction k as [|k IH]; intros Hk; [rewrite Ef0; cbn; ring|]. rewrite (Hf k Hk), Rabs_mult, (IH (Nat.lt_le_incl _ _ Hk)). cbn. ring. }
  pose proof (Hg N (le_n _)) as G. pose proof (Rabs_pos_lt _ Hf0) as Fp.
  assert (G2 : (Rabs lam + Rabs d) * (Rabs B + Rabs r + 1) <= Rabs (f N)). { rewrite G. replace ((Rabs lam + Rabs d) * (Rabs B + Rabs r + 1)) with ((Rabs lam + Rabs d) * (Rabs B + Rabs r + 1) / Rabs f0 * Rabs f0) by (field; lra). apply Rmult_le_compat_r; [lra|]. exact HN. }
  unfold f in G2. pose proof (Rabs_triang (lam * (i (Datatypes.S N) - r)) (- (d * (i N - r)))) as T. rewrite Rabs_Ropp, !Rabs_mult in T. replace (lam * (i (Datatypes.S N) - r) + - (d * (i N - r))) with (lam * (i (Datatypes.S N) - r) - d * (i N - r)) in T by ring.
  destruct (Rlt_le_dec B (Rabs (i (Datatypes.S N)))) as [Z1|Z1]; [exists (Datatypes.S N); split; [apply le_n|exact Z1]|]. destruct (Rlt_le_dec B (Rabs (i N))) as [Z2|Z2]; [exists N; split; [apply Nat.le_succ_diag_r|exact Z2]|].
  exfalso. pose proof (Rabs_pos lam) as Pl. pose proof (Rabs_pos d) as Pd. assert (Bp : 0 <= B) by (pose proof (Rabs_pos (i N)); lra). rewrite (Rabs_pos_eq B Bp) in G2.
  pose proof (Rabs_triang (i (Datatypes.S N)) (- r)) as T1. pose proof (Rabs_triang (i N) (- r)) as T2. rewrite Rabs_Ropp in T1, T2. fold (i (Datatypes.S N) - r) in T1. fold (i N - r) in T2.
  assert (V1 : Rabs lam * Rabs (i (Datatypes.S N) - r) <= Rabs lam * (B + Rabs r)) by (apply Rmult_le_compat_l; lra). assert (V2 : Rabs d * Rabs (i N - r) <= Rabs d * (B + Rabs r)) by (apply Rmult_le_compat_l; lra).
  assert (V3 : 1 < Rabs lam) by (rewrite Rabs_left; lra). lra.
Qed.

(** ** The three motors *)
Lemma series_winding e id f m s w i : emf_tune (emf_new EPlain) e id = Ok f -> motor_type id = Ok "SeriesDc" -> observed e s "omega" w -> observed e s "i" i -> par_is e "l_e_prime" (dc_lep m) -> 0 < dc_la m + dc_le m ->
  winding f s (fun i u => do d <- series_ode m [i] u w; item d 0) i (dc_la m + dc_le m) (dc_ra m + dc_re m) 0.
Proof.
  intros Ef Hm Ow Oi Pl HL v. pose proof (emf_single "SeriesDc" "i" "l_e_prime" e id f s w i (dc_lep m) v (or_introl (conj eq_refl eq_refl)) eq_refl Ef Hm Ow Oi Pl) as Ee. eexists. split; [exact Ee|]. eexists. split; [reflexivity|]. cbn. field. lra.
Qed.
Lemma shunt_winding e id f m s w ie ia : emf_tune (emf_new EPlain) e id = Ok f -> motor_type id = Ok "ShuntDc" -> observed e s "omega" w -> observed e s "i_e" ie -> par_is e "l_e_prime" (dc_lep m) -> 0 < dc_la m ->
  winding f s (fun i u => do d <- shunt_ode m [i; ie] u w; item d 0) ia (dc_la m) (dc_ra m) 0.
Proof.
  intros Ef Hm Ow Oi Pl HL v. pose proof (emf_single "ShuntDc" "i_e" "l_e_prime" e id f s w ie (dc_lep m) v (or_intror (conj eq_refl eq_refl)) eq_refl Ef Hm Ow Oi Pl) as Ee. eexists. split; [exact Ee|]. eexists. split; [reflexivity|]. cbn. field. lra.
Qed.
Lemma permex_winding e id f m s w i : emf_tune (emf_new EPlain) e id = Ok f -> motor_type id = Ok "PermExDc" -> observed e s "omega" w -> observed e s "i" i -> par_is e "psi_e" (pe_psi m) -> 0 < pe_la m ->
  winding f s (fun i u => do d <- perm_ode m [i] u w; item d 0) i (pe_la m) (pe_ra m) (pe_psi m * w).
Proof.
  intros Ef Hm Ow Oi Pl HL v. destruct (permex_decoupling_refuted m e id f s w i v Ef Hm Ow Oi Pl HL) as (u & Eu & -> & d & Ed & Hd). exists v. split; [exact Eu|]. exists d. rewrite Ed. split; [reflexivity|]. rewrite Hd. ring.
Qed.

Lemma series_l e m : par_is e "l_a" (dc_la m) -> par_is e "l_e" (dc_le m) -> read l_reader "SeriesDc" e = Ok [dc_la m + dc_le m].
Proof. intros H1 H2. unfold read. cbn. unfold one, op2, par. unfold par_is in *. rewrite H1, H2. reflexivity. Qed.
Lemma la_l e id l : id = "ShuntDc" \/ id = "PermExDc" -> par_is e "l_a" l -> read l_reader id e = Ok [l].
Proof. intros H H1. unfold par_is in H1. destruct H as [-> | ->]; unfold read; cbn; unfold one, par; rewrite H1; reflexivity. Qed.

(** The current of a series motor follows a constant reference from every start and for every course of the speed,
    as long as the demanded voltage stays in the range of the converter. *)
Theorem series_current_loop_converges :
  forall e id a c m r w cs s i u, tuned_pi e id a c -> motor_type id = Ok "SeriesDc" ->
  par_is e "l_a" (dc_la m) -> par_is e "l_e" (dc_le m) -> par_is e "l_e_prime" (dc_lep m) -> 0 < dc_la m + dc_le m -> 0 < ce_tau e -> 0 < a ->
  loop_stable a (ce_tau e * (dc_ra m + dc_re m) / (dc_la m + dc_le m)) ->
  (forall k, observed e (s k) "omega" (w k)) -> closed_loop e "i" r (series_current m w) c cs s i u -> Un_cv i r.
Proof.
  intros e id a c m r w cs s i u Hc Hm P1 P2 P3 HL Ht Ha St Hw Cl.
  destruct (tuned_single e id a c "SeriesDc" _ Hc Hm (or_introl eq_refl) (series_l e m P1 P2) HL Ht Ha) as (ji & lo & hi & Sg & Lk & Ej & Dc & Ef & Rg). apply (loop_converges a (ce_tau e) (dc_la m + dc_le m) (dc_ra m + dc_re m) 0 r i Ha Ht HL St).
  intros k. apply (loop_linear (Datatypes.S k) e "i" r (series_current m w) c cs s i u _ _ ji lo hi (dc_la m + dc_le m) (dc_ra m + dc_re m) 0 (Cl _) Sg Lk Ej Dc Rg HL); [|apply Nat.lt_succ_diag_r]. intros j Hj. apply (series_winding e id); auto. exact (cl_current _ _ _ _ _ _ _ _ _ _ (Cl _) j Hj).
Qed.
Print Assumptions series_current_loop_converges.
(** The armature current of a shunt motor, for every course of speed and excitation current. *)
Theorem shunt_current_loop_converges :
  forall e id a c m r w x cs s i u, tuned_pi e id a c -> motor_type id = Ok "ShuntDc" ->
  par_is e "l_a" (dc_la m) -> par_is e "l_e_prime" (dc_lep m) -> 0 < dc_la m -> 0 < ce_tau e -> 0 < a ->
  loop_stable a (ce_tau e * dc_ra m / dc_la m) ->
  (forall k, observed e (s k) "omega" (w k)) -> (forall k, observed e (s k) "i_e" (x k)) -> closed_loop e "i_a" r (shunt_current m w x) c cs s i u -> Un_cv i r.
Proof.
  intros e id a c m r w x cs s i u Hc Hm P1 P3 HL Ht Ha St Hw Hx Cl.
  destruct (tuned_single e id a c "ShuntDc" _ Hc Hm (or_intror (or_introl eq_refl)) (la_l e _ _ (or_introl eq_refl) P1) HL Ht Ha) as (ji & lo & hi & Sg & Lk & Ej & Dc & Ef & Rg). apply (loop_converges a (ce_tau e) (dc_la m) (dc_ra m) 0 r i Ha Ht HL St).
  intros k. apply (loop_linear (Datatypes.S k) e "i_a" r (shunt_current m w x) c cs s i u _ _ ji lo hi (dc_la m) (dc_ra m) 0 (Cl _) Sg Lk Ej Dc Rg HL); [|apply Nat.lt_succ_diag_r]. intros j Hj. apply (shunt_winding e id); auto.
Qed.
Print Assumptions shunt_current_loop_converges.
(** The permanently excited motor has no decoupling (see [permex_decoupling_refuted]); at constant speed the
    integrator makes up for the back-EMF. *)
Theorem permex_current_loop_converges :
  forall e id a c m r w cs s i u, tuned_pi e id a c -> motor_type id = Ok "PermExDc" ->
  par_is e "l_a" (pe_la m) -> par_is e "psi_e" (pe_psi m) -> 0 < pe_la m -> 0 < ce_tau e -> 0 < a ->
  loop_stable a (ce_tau e * pe_ra m / pe_la m) ->
  (forall k, observed e (s k) "omega" w) -> closed_loop e "i" r (permex_current m (fun _ => w)) c cs s i u -> Un_cv i r.
Proof.
  intros e id a c m r w cs s i u Hc Hm P1 P3 HL Ht Ha St Hw Cl.
  destruct (tuned_single e id a c "PermExDc" _ Hc Hm (or_intror (or_intror eq_refl)) (la_l e _ _ (or_intror eq_refl) P1) HL Ht Ha) as (ji & lo & hi & Sg & Lk & Ej & Dc & Ef & Rg). apply (loop_converges a (ce_tau e) (pe_la m) (pe_ra m) (pe_psi m * w) r i Ha Ht HL St).
  intros k. apply (loop_linear (Datatypes.S k) e "i" r (permex_current m (fun _ => w)) c cs s i u _ _ ji lo hi (pe_la m) (pe_ra m) (pe_psi m * w) (Cl _) Sg Lk Ej Dc Rg HL); [|apply Nat.lt_succ_diag_r]. intros j Hj. apply (permex_winding e id); auto. exact (cl_current _ _ _ _ _ _ _ _ _ _ (Cl _) j Hj).
Qed.
Print Assumptions permex_current_loop_converges.
(** The bound is sharp: with a sampling time that is too long for the winding, after a number of periods that only
    depends on the parameters either the voltage has left the range of the converter or the current has passed any
    given bound, from all initial currents but one. *)
Theorem series_current_loop_unstable :
  forall m a tau r i0 B, 0 < dc_la m + dc_le m -> 0 < tau -> 0 < a -> 4 - 2 / a + 1 / (a * a * a) < 2 * (tau * (dc_ra m + dc_re m) / (dc_la m + dc_le m)) ->
  i0 <> r + (dc_ra m + dc_re m) * r * tau / (dc_la m + dc_le m) / (unstable_root a (tau * (dc_ra m + dc_re m) / (dc_la m + dc_le m)) - 1) ->
  exists n, forall e id c w cs s i u, tuned_pi e id a c -> motor_type id = Ok "SeriesDc" -> ce_tau e = tau -> i O = i0 ->
  par_is e "l_a" (dc_la m) -> par_is e "l_e" (dc_le m) -> par_is e "l_e_prime" (dc_lep m) ->
  (forall k, observed e (s k) "omega" (w k)) -> loop_until n e "i" r (series_current m w) c cs s i u ->
  exists k, (k <= n)%nat /\ B < Rabs (i k).
Proof.
  intros m a tau r i0 B HL Ht Ha St H0. rewrite <- (Rplus_0_r ((dc_ra m + dc_re m) * r)) in H0.
  destruct (loop_diverges a tau (dc_la m + dc_le m) (dc_ra m + dc_re m) 0 r i0 B Ha Ht HL St H0) as (n & H). exists n. intros e id c w cs s i u Hc Hm <- Hi P1 P2 P3 Hw Cl. apply (H i Hi).
  destruct (tuned_single e id a c "SeriesDc" _ Hc Hm (or_introl eq_refl) (series_l e m P1 P2) HL Ht Ha) as (ji & lo & hi & Sg & Lk & Ej & Dc & Ef & Rg).
  apply (loop_linear n e "i" r (series_current m w) c cs s i u _ _ ji lo hi (dc_la m + dc_le m) (dc_ra m + dc_re m) 0 Cl Sg Lk Ej Dc Rg HL). intros j Hj. apply (series_winding e id); auto. exact (cl_current _ _ _ _ _ _ _ _ _ _ Cl j Hj).
Qed.
Print Assumptions series_current_loop_unstable.

(** ** Such loops exist *)
Section Course.
Variables tau L kp ki Rs D r i0 : R.
(** Current and integrator. *)
Fixpoint course (k : nat) : R * R :=
  match k with
  | O => (i0, 0)
  | Datatypes.S j => let (i, z) := course j in (i + tau / L * (kp * (r - i) + ki * z - Rs * i - D), z + tau * (r - i))
  end.
Lemma course_z k : snd (course k) = zsum tau r (fun j => fst (course j)) k.
Proof. induction k as [|k IH]; [reflexivity|]. cbn [course zsum]. rewrite <- IH. destruct (course k) as [i z]. reflexivity. Qed.
Lemma course_i k : fst (course (Datatypes.S k)) = fst (course k) + tau / L * (kp * (r - fst (course k)) + ki * zsum tau r (fun j => fst (course j)) k - Rs * fst (course k) - D).
Proof. rewrite <- course_z. cbn [course]. destruct (course k) as [i z]. reflexivity. Qed.
End Course.
Lemma sq_abs_le x B : 0 <= B -> x * x <= B -> Rabs x <= sqrt B.
Proof. intros HB H. apply Rsqr_incr_0_var; [|apply sqrt_pos]. unfold Rsqr. rewrite sqrt_sqrt by exact HB. rewrite <- Rabs_mult. rewrite Rabs_pos_eq; [exact H|]. pose proof (Rle_0_sqr x) as Z. exact Z. Qed.
(** The controller states along a course of states. *)
Fixpoint ctl_run (c : cctl) (s : nat -> list R) (r : R) (k : nat) : cctl := match k with O => c | Datatypes.S j => fst (current_control (ctl_run c s r j) (s j) [r]) end.
(** The voltage along a course of the series motor. *)
Definition series_u (m : dc_par) (kp ki tau r : R) (w i : nat -> R) (k : nat) : R := kp * (r - i k) + ki * zsum tau r i k + (dc_lep m * i k + 0) * (w k * 1).
Lemma series_build n m a r i0 e id c w obs : let L := dc_la m + dc_le m in let Rs := dc_ra m + dc_re m in let kp := L / (ce_tau e * a) in let ki := kp / (ce_tau e * (a * a)) in
  let i := fun k => fst (course (ce_tau e) L kp ki Rs 0 r i0 k) in
  0 < L -> 0 < ce_tau e -> 0 < a -> tuned_pi e id a c -> motor_type id = Ok "SeriesDc" -> par_is e "l_a" (dc_la m) -> par_is e "l_e" (dc_le m) -> par_is e "l_e_prime" (dc_lep m) ->
  (forall k, (k < n)%nat -> in_voltage_range e (series_u m kp ki (ce_tau e) r w i k)) -> (forall k x, observed e (obs k x) "i" x /\ observed e (obs k x) "omega" (w k)) ->
  loop_until n e "i" r (series_current m w) c (ctl_run c (fun k => obs k (i k)) r) (fun k => obs k (i k)) i (series_u m kp ki (ce_tau e) r w i).
Proof.
  intros L Rs kp ki i HL Ht Ha Hc Hm P1 P2 P3 HB Hobs. set (y := series_u m kp ki (ce_tau e) r w i) in *.
  assert (Hi : forall k, i (Datatypes.S k) = i k + ce_tau e / L * (kp * (r - i k) + ki * zsum (ce_tau e) r i k - Rs * i k - 0)) by (intros k; apply course_i).
  destruct (tuned_single e id a c "SeriesDc" _ Hc Hm (or_introl eq_refl) (series_l e m P1 P2) HL Ht Ha) as (ji & lo & hi & Sg & Lk & Ej & Dc & Ef & Rg). fold L in Sg. change (L / (ce_tau e * a)) with kp in Sg. change (kp / (ce_tau e * (a * a))) with ki in Sg. change (cur_name "SeriesDc") with "i" in Ej.
  assert (Hy : forall k, emf_call (cc_emf c) (obs k (i k)) [kp * (r - i k) + ki * zsum (ce_tau e) r i k] = Ok [y k]). { intros k. destruct (Hobs k (i k)) as [O1 O2]. exact (emf_single "SeriesDc" "i" "l_e_prime" e id (cc_emf c) (obs k (i k)) (w k) (i k) (dc_lep m) _ (or_introl (conj eq_refl eq_refl)) eq_refl Ef Hm O2 O1 P3). }
  assert (Hoi : forall k, item (obs k (i k)) ji = Ok (i k)). { intros k. destruct (Hobs k (i k)) as [(j & E1 & E2) _]. rewrite Ej in E1. injection E1 as <-. exact E2. }
  set (cs := ctl_run c (fun k => obs k (i k)) r).
  assert (Hstep : forall k, (k < n)%nat -> like c (zsum (ce_tau e) r i k) (cs k) -> exists c2, current_control (cs k) (obs k (i k)) [r] = (c2, Ok [y k]) /\ like c (zsum (ce_tau e) r i (Datatypes.S k)) c2).
  { intros k Hk IH. apply (single_step _ _ _ _ _ _ _ _ _ _ _ _ _ Sg IH (Hoi k)); [rewrite Dc; apply Hy|apply Rg, HB, Hk]. }
  assert (A : forall k, (k <= n)%nat -> like c (zsum (ce_tau e) r i k) (cs k)). { induction k as [|k IH]; intros Hk; [exact Lk|]. destruct (Hstep k Hk (IH (Nat.lt_le_incl _ _ Hk))) as (c2 & E2 & L2). unfold cs. cbn [ctl_run]. fold cs. rewrite E2. exact L2. }
  split; [reflexivity| |exact HB| |].
  - intros k Hk. destruct (Hstep k Hk (A k (Nat.lt_le_incl _ _ Hk))) as (c2 & E2 & L2). unfold cs at 2. cbn [ctl_run]. fold cs. rewrite E2. reflexivity.
  - intros k _. apply Hobs.
  - intros k _. eexists. split; [reflexivity|]. rewrite (Hi k). unfold y, series_u. cbn. unfold L, Rs. field. fold L. lra.
Qed.
(** A loop under the stability condition runs for ever below a voltage that depends on the bound of the speed. *)
Theorem series_current_loop_exists :
  forall m a tau r i0 W, 0 < dc_la m + dc_le m -> 0 < tau -> 0 < a -> loop_stable a (tau * (dc_ra m + dc_re m) / (dc_la m + dc_le m)) ->
  exists U, forall e id c w obs, tuned_pi e id a c -> motor_type id = Ok "SeriesDc" -> ce_tau e = tau ->
  par_is e "l_a" (dc_la m) -> par_is e "l_e" (dc_le m) -> par_is e "l_e_prime" (dc_lep m) ->
  (forall y, Rabs y <= U -> in_voltage_range e y) -> (forall k, Rabs (w k) <= W) -> (forall k x, observed e (obs k x) "i" x /\ observed e (obs k x) "omega" (w k)) ->
  exists cs i u, i O = i0 /\ closed_loop e "i" r (series_current m w) c cs (fun k => obs k (i k)) i u.
Proof.
  intros m a tau r i0 W HL Ht Ha St. set (L := dc_la m + dc_le m) in *. set (Rs := dc_ra m + dc_re m) in *. set (kp := L / (tau * a)). set (ki := L / (tau * a) / (tau * (a * a))).
  set (t := 2 - tau * Rs / L - 1 / a). set (d := 1 - tau * Rs / L - 1 / a + 1 / (a * a * a)).
  assert (A3 : 0 < 1 / (a * a * a)) by (apply Rdiv_lt_0_compat; [lra|repeat apply Rmult_lt_0_compat; lra]). destruct St as [S1 S2]. replace (2 / a) with (2 * (1 / a)) in S2 by (field; lra).
  assert (Hd : d < 1) by (unfold d; lra). assert (Htr : - (1 + d) < t < 1 + d) by (unfold t, d; split; lra).
  set (i := fun k => fst (course tau L kp ki Rs 0 r i0 k)). set (en := fun k => i k - r).
  assert (Hi : forall k, i (Datatypes.S k) = i k + tau / L * (kp * (r - i k) + ki * zsum tau r i k - Rs * i k - 0)) by (intros k; apply course_i).
  assert (He : forall k, en (Datatypes.S (Datatypes.S k)) = t * en (Datatypes.S k) - d * en k) by (intros k; exact (loop_recurrence (Datatypes.S (Datatypes.S k)) a tau L Rs 0 r i Ha Ht HL (fun j _ => Hi j) k (Nat.lt_succ_diag_r _))).
  set (K := sqrt (jm t d / jg t d * (en O * en O + en 1%nat * en 1%nat))).
  assert (HK : forall k, Rabs (en k) <= K). { intros k. pose proof (recurrence_bound t d Hd Htr en He k) as B. apply sq_abs_le; [|exact B]. pose proof (Rle_0_sqr (en k)) as Z. unfold Rsqr in Z. lra. }
  assert (K0 : 0 <= K) by apply sqrt_pos.
  exists (L / tau * (2 * K) + Rabs Rs * (Rabs r + K) + Rabs (dc_lep m) * (Rabs r + K) * W).
  intros e id c w obs Hc Hm Et P1 P2 P3 HU HW Hobs. subst tau.
  assert (HB : forall k, in_voltage_range e (series_u m kp ki (ce_tau e) r w i k)).
  { intros k. apply HU. assert (Ev : kp * (r - i k) + ki * zsum (ce_tau e) r i k = L / ce_tau e * (en (Datatypes.S k) - en k) + Rs * i k) by (unfold en; rewrite (Hi k); field; split; lra).
    unfold series_u. rewrite Ev. assert (Bi : Rabs (i k) <= Rabs r + K) by (replace (i k) with (r + en k) by (unfold en; ring); apply Rle_trans with (1 := Rabs_triang _ _); pose proof (HK k); lra).
    apply Rle_trans with (1 := Rabs_triang _ _). apply Rplus_le_compat.
    - apply Rle_trans with (1 := Rabs_triang _ _). rewrite !Rabs_mult. apply Rplus_le_compat; [|apply Rmult_le_compat_l; [apply Rabs_pos|exact Bi]]. rewrite (Rabs_pos_eq (L / ce_tau e)) by (apply Rlt_le, Rdiv_lt_0_compat; lra). apply Rmult_le_compat_l; [apply Rlt_le, Rdiv_lt_0_compat; lra|].
      unfold Rminus. apply Rle_trans with (1 := Rabs_triang _ _). rewrite Rabs_Ropp. pose proof (HK k). pose proof (HK (Datatypes.S k)). lra.
    - replace ((dc_lep m * i k + 0) * (w k * 1)) with (dc_lep m * i k * w k) by ring. rewrite !Rabs_mult. pose proof (Rabs_pos (dc_lep m)) as Q1. pose proof (Rabs_pos (i k)) as Q2. pose proof (Rabs_pos (w k)) as Q3. pose proof (HW k) as Q4. apply Rmult_le_compat; [apply Rmult_le_pos; assumption|assumption|apply Rmult_le_compat_l; assumption|exact Q4]. }
  exists (ctl_run c (fun k => obs k (i k)) r), i, (series_u m kp ki (ce_tau e) r w i). split; [reflexivity|]. intros n. apply (series_build n m a r i0 e id c w obs); auto.
Qed.
Print Assumptions series_current_loop_exists.
(** Every loop, stable or not, runs for any number of periods if the supply is strong enough. *)
Lemma finite_bound (f : nat -> R) n : exists U, forall k, (k < n)%nat -> Rabs (f k) <= U.
Proof.
  induction n as [|n (U & H)]; [exists 0; intros k Hk; inversion Hk|]. exists (Rmax U (Rabs (f n))). intros k Hk. apply Nat.lt_eq_cases in Hk. destruct Hk as [Hk|Hk]; [apply Rle_trans with U; [apply H; apply Nat.succ_lt_mono; exact Hk|apply Rmax_l]|]. injection Hk as ->. apply Rmax_r.
Qed.
Theorem series_current_loop_runs :
  forall n m a tau r i0 w, 0 < dc_la m + dc_le m -> 0 < tau -> 0 < a ->
  exists U, forall e id c obs, tuned_pi e id a c -> motor_type id = Ok "SeriesDc" -> ce_tau e = tau ->
  par_is e "l_a" (dc_la m) -> par_is e "l_e" (dc_le m) -> par_is e "l_e_prime" (dc_lep m) ->
  (forall y, Rabs y <= U -> in_voltage_range e y) -> (forall k x, observed e (obs k x) "i" x /\ observed e (obs k x) "omega" (w k)) ->
  exists cs i u, i O = i0 /\ loop_until n e "i" r (series_current m w) c cs (fun k => obs k (i k)) i u.
Proof.
  intros n m a tau r i0 w HL Ht Ha. set (L := dc_la m + dc_le m) in *. set (kp := L / (tau * a)). set (ki := kp / (tau * (a * a))). set (i := fun k => fst (course tau L kp ki (dc_ra m + dc_re m) 0 r i0 k)).
  destruct (finite_bound (series_u m kp ki tau r w i) n) as (U & HU). exists U. intros e id c obs Hc Hm Et P1 P2 P3 Hr Hobs. subst tau.
  exists (ctl_run c (fun k => obs k (i k)) r), i, (series_u m kp ki (ce_tau e) r w i). split; [reflexivity|]. apply (series_build n m a r i0 e id c w obs); auto.
Qed.
Print Assumptions series_current_loop_runs.
(** The default series motor at 1e-4 s and a = 4 with a supply of [v] volts, and a loop from standstill current to 10 A. *)
Definition series_default : dc_par := {| dc_ra := 16 / 1000; dc_la := 19 / 1000000; dc_re := 48 / 1000; dc_le := 54 / 10000; dc_lep := 17 / 10000 |}.
Definition series_env (v : R) : cenv :=
  {| ce_names := ["omega"; "torque"; "i"; "u"; "u_sup"]; ce_limits := [400; 40; 100; v; v]; ce_low := [-1; -1; -1; -1; 0]; ce_high := [1; 1; 1; 1; 1]; ce_refs := ["i"];
     ce_tau := 1 / 10000; ce_par := [("r_a", 16 / 1000); ("r_e", 48 / 1000); ("l_a", 19 / 1000000); ("l_e", 54 / 10000); ("l_e_prime", 17 / 10000)]; ce_j := 1 / 40; ce_act := SBox 1; ce_b6 := false; ce_dead := Some false |}.
Example series_loop_example : exists v c cs s i u, tuned_pi (series_env v) "Cont-CC-SeriesDc-v0" 4 c /\ i O = 0 /\ closed_loop (series_env v) "i" 10 (series_current series_default (fun k => INR k / (1 + INR k) * 100)) c cs s i u /\ Un_cv i 10.
Proof.
  assert (HL : 0 < dc_la series_default + dc_le series_default) by (cbn; lra). assert (HS : loop_stable 4 (1 / 10000 * (dc_ra series_default + dc_re series_default) / (dc_la series_default + dc_le series_default))) by (split; cbn; lra).
  assert (T0 : 0 < 1 / 10000) by lra. assert (A0 : 0 < 4) by lra. destruct (series_current_loop_exists series_default 4 (1 / 10000) 10 0 100 HL T0 A0 HS) as (U & H). set (w := fun k => INR k / (1 + INR k) * 100).
  assert (Hc : exists c, tuned_pi (series_env U) "Cont-CC-SeriesDc-v0" 4 c) by (eexists; do 2 eexists; split; [reflexivity|split; reflexivity]). destruct Hc as (c & Hc).
  destruct (H (series_env U) "Cont-CC-SeriesDc-v0" c w (fun k x => [w k; 0; x; 0; U]) Hc eq_refl eq_refl eq_refl eq_refl eq_refl) as (cs & i & u & Hi & Cl).
  - intros y Hy j Hj. injection Hj as <-. cbn. unfold Rabs in Hy. destruct (Rcase_abs y); lra.
  - intros k. unfold w. pose proof (pos_INR k) as P. assert (Q : 0 <= INR k / (1 + INR k) <= 1). { split; [apply Rmult_le_pos; [exact P|apply Rlt_le, Rinv_0_lt_compat; lra]|]. apply Rmult_le_reg_r with (1 + INR k); [lra|]. unfold Rdiv. rewrite Rmult_assoc, Rinv_l by lra. lra. } rewrite Rabs_pos_eq; lra.
  - intros k x. split; [exists 2%nat|exists O]; split; reflexivity.
  - exists U, c, cs, (fun k => [w k; 0; i k; 0; U]), i, u. split; [exact Hc|]. split; [exact Hi|]. split; [exact Cl|].
    apply (series_current_loop_converges (series_env U) "Cont-CC-SeriesDc-v0" 4 c series_default 10 w cs (fun k => [w k; 0; i k; 0; U]) i u); try assumption; try reflexivity. intros k. exists O. split; reflexivity.
Qed.
(** A hypothetical winding with a time constant below half the sampling time: 0.05 mH + 0.05 mH and 1 Ohm + 1 Ohm. The
    loop from 1 A to 0 A passes 1000 A. *)
Definition series_fast : dc_par := {| dc_ra := 1; dc_la := 1 / 20000; dc_re := 1; dc_le := 1 / 20000; dc_lep := 0 |}.
Definition fast_env (v : R) : cenv :=
  {| ce_names := ["omega"; "torque"; "i"; "u"; "u_sup"]; ce_limits := [400; 40; 100; v; v]; ce_low := [-1; -1; -1; -1; 0]; ce_high := [1; 1; 1; 1; 1]; ce_refs := ["i"];
     ce_tau := 1 / 10000; ce_par := [("r_a", 1); ("r_e", 1); ("l_a", 1 / 20000); ("l_e", 1 / 20000); ("l_e_prime", 0)]; ce_j := 1 / 40; ce_act := SBox 1; ce_b6 := false; ce_dead := Some false |}.
Example unstable_example : exists n v c cs s i u, tuned_pi (fast_env v) "Cont-CC-SeriesDc-v0" 4 c /\ i O = 1 /\ loop_until n (fast_env v) "i" 0 (series_current series_fast (fun _ => 0)) c cs s i u /\ exists k, (k <= n)%nat /\ 1000 < Rabs (i k).
Proof.
  assert (HL : 0 < dc_la series_fast + dc_le series_fast) by (cbn; lra). assert (T0 : 0 < 1 / 10000) by lra. assert (A0 : 0 < 4) by lra.
  assert (HS : 4 - 2 / 4 + 1 / (4 * 4 * 4) < 2 * (1 / 10000 * (dc_ra series_fast + dc_re series_fast) / (dc_la series_fast + dc_le series_fast))) by (cbn; lra).
  destruct (series_current_loop_unstable series_fast 4 (1 / 10000) 0 1 1000 HL T0 A0 HS) as (n & H). { rewrite Rmult_0_r, Rmult_0_l. unfold Rdiv. rewrite !Rmult_0_l. lra. }
  destruct (series_current_loop_runs n series_fast 4 (1 / 10000) 0 1 (fun _ => 0) HL T0 A0) as (U & H2).
  assert (Hc : exists c, tuned_pi (fast_env U) "Cont-CC-SeriesDc-v0" 4 c) by (eexists; do 2 eexists; split; [reflexivity|split; reflexivity]). destruct Hc as (c & Hc).
  destruct (H2 (fast_env U) "Cont-CC-SeriesDc-v0" c (fun k x => [0; 0; x; 0; U]) Hc eq_refl eq_refl eq_refl eq_refl eq_refl) as (cs & i & u & Hi & Cl).
  - intros y Hy j Hj. injection Hj as <-. cbn. unfold Rabs in Hy. destruct (Rcase_abs y); lra.
  - intros k x. split; [exists 2%nat|exists O]; split; reflexivity.
  - exists n, U, c, cs, (fun k => [0; 0; i k; 0; U]), i, u. split; [exact Hc|]. split; [exact Hi|]. split; [exact Cl|].
    apply (H (fast_env U) "Cont-CC-SeriesDc-v0" c (fun _ => 0) cs (fun k => [0; 0; i k; 0; U]) i u); try assumption; try reflexivity. intros k. exists O. split; reflexivity.
Qed.
