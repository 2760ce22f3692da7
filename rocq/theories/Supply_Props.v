(** Properties C31, C32, C80, C81: voltage supplies. *)
From Verif Require Import PyBase PyBaseFacts PyDict PyDictFacts Solver_Model Solver_Spec Solver_Proofs
  Supply_Model Supply_Spec Supply_Proofs.

(** ** C31 *)
Theorem ideal_supply_constant :
  forall u t i, ideal_get (ideal_new u) t i = [u] /\ ideal_reset (ideal_new u) = [u] /\
    within (ideal_range (ideal_new u)) u.
Proof. intros. repeat split; cbn; lra. Qed.
Print Assumptions ideal_supply_constant.

(** RC supply: over every admissible history of requests and resets (currents
    between 0 and the short circuit current u0/R, time steps of at most R C) the
    voltage is in the declared range [0, u0]. *)
Theorem rc_supply_in_range :
  forall u0 par s dt ops t i,
  rc_new u0 par = Ok s -> 0 <= u0 -> 0 < rc_r s -> 0 < rc_c s -> 0 <= dt <= rc_r s * rc_c s ->
  let s0 := fst (rc_reset s) in
  admissible (u0 / rc_r s) dt 0 (ops ++ [RcGet t i]) ->
  exists u, snd (rc_get (rc_run s0 ops) t i) = Ok [u] /\ within (rc_range s) u.
Proof.
  intros u0 par s dt ops t i E Hu0 Hr Hc Hdt s0 Ha. destruct (rc_new_val _ _ _ E) as [Hu Hn].
  assert (Hi : rc_inv u0 (rc_r s) (rc_c s) s0).
  { unfold s0. cbn. repeat split; auto. exists (rc_u0 s). split; [reflexivity|]. rewrite Hu. lra. }
  assert (H : rc_inv u0 (rc_r s) (rc_c s) (rc_run s0 (ops ++ [RcGet t i]))).
  { apply (rc_run_inv u0 _ _ dt); auto. }
  assert (H' : rc_inv u0 (rc_r s) (rc_c s) (rc_run s0 ops)).
  { apply (rc_run_inv u0 _ _ dt); auto. clear - Ha. change (eu_t (rc_solver s0)) with 0. revert Ha. generalize 0%R as x.
    induction ops as [|[|t' i'] ops IH]; intros x Ha; cbn in *; auto. intuition auto. }
  destruct H' as (H1 & H2 & H3 & H4 & u & Hy & Hub).
  assert (Hrc : 0 < rc_r s * rc_c s) by now apply Rmult_lt_0_compat.
  destruct (rc_get_val _ t i u H4 Hy ltac:(rewrite H2, H3; lra)) as (s' & Eg & _ & _ & _ & _ & _ & E6).
  rewrite Eg. cbn [snd]. eexists. split; [reflexivity|].
  unfold rc_run in H. rewrite fold_left_app in H. cbn [fold_left rc_step] in H. fold (rc_run s0 ops) in H.
  rewrite Eg in H. cbn [fst] in H. destruct H as (_ & _ & _ & _ & u' & Hy' & Hub'). rewrite E6 in Hy'. injection Hy' as <-.
  unfold within, rc_range. cbn [fst snd]. rewrite Hu. exact Hub'.
Qed.
Print Assumptions rc_supply_in_range.
Example rc_supply_example :
  exists s, rc_new 600 [] = Ok s /\ rc_r s * rc_c s = 4 / 1000 /\
    admissible (600 / rc_r s) (1/1000) 0 [RcGet (1/1000) 100; RcGet (2/1000) 0; RcReset; RcGet 0 5].
Proof. eexists. split; [reflexivity|]. cbn. repeat split; lra. Qed.

(** Reset loads the capacitor again, from every state. *)
Theorem rc_supply_reset :
  forall s, snd (rc_reset s) = Ok [rc_u0 s] /\ eu_y (rc_solver (fst (rc_reset s))) = Some [rc_u0 s] /\
    eu_t (rc_solver (fst (rc_reset s))) = 0.
Proof. intros s. repeat split. Qed.
Print Assumptions rc_supply_reset.

(** With a constant current the distance to the stationary voltage u0 - R i is
    multiplied by (1 - dt / RC) in each request, for any number of requests. *)
Theorem rc_supply_settles :
  forall u0 par s dt i n,
  rc_new u0 par = Ok s -> rc_r s * rc_c s <> 0 ->
  eu_y (rc_solver (rc_run (fst (rc_reset s)) (map (fun k => RcGet (INR k * dt) i) (seq 1 n)))) =
  Some [u0 - rc_r s * i + (1 - dt / (rc_r s * rc_c s)) ^ n * (rc_r s * i)].
Proof.
  intros u0 par s dt i n E Hrc. destruct (rc_new_val _ _ _ E) as [Hu Hn].
  assert (H : forall m k s1 u, rc_u0 s1 = u0 -> rc_r s1 = rc_r s -> rc_c s1 = rc_c s -> eu_n (rc_solver s1) = 1%nat ->
     eu_y (rc_solver s1) = Some [u] -> eu_t (rc_solver s1) = INR k * dt ->
     eu_y (rc_solver (rc_run s1 (map (fun k => RcGet (INR k * dt) i) (seq (S k) m)))) =
     Some [u0 - rc_r s * i + (1 - dt / (rc_r s * rc_c s)) ^ m * (u - (u0 - rc_r s * i))]).
  { induction m as [|m IH]; intros k s1 u H1 H2 H3 H4 H5 H6.
    - cbn. rewrite H5. do 2 f_equal. ring.
    - cbn [seq map]. change (rc_run s1 (RcGet (INR (S k) * dt) i :: ?l)) with (rc_run (rc_step s1 (RcGet (INR (S k) * dt) i)) l).
      unfold rc_run in *. cbn [fold_left rc_step].
      destruct (rc_get_val s1 (INR (S k) * dt) i u H4 H5 ltac:(rewrite H2, H3; exact Hrc)) as (s' & Eg & E1 & E2 & E3 & E4 & E5 & E6).
      rewrite Eg. cbn [fst]. rewrite (IH (S k) s' _ ltac:(congruence) ltac:(congruence) ltac:(congruence) E4 E6 E5).
      do 2 f_equal. cbn [pow]. rewrite H1, H2, H3, H6, S_INR. f_equal.
      rewrite (Rmult_comm (1 - dt / (rc_r s * rc_c s)) (_ ^ m)), Rmult_assoc. f_equal. field. split; intros Hz; apply Hrc; rewrite Hz; ring. }
  rewrite (H n O (fst (rc_reset s)) u0); auto.
  - do 2 f_equal. ring.
  - cbn. now rewrite Hu.
  - cbn. ring.
Qed.
Print Assumptions rc_supply_settles.

(** Refuted: the declared range does not cover regeneration (negative supply
    current) ... *)
Theorem rc_supply_regeneration_refuted :
  forall u0 par s t i, rc_new u0 par = Ok s -> 0 < rc_r s -> 0 < rc_c s -> 0 < t -> i < 0 ->
  exists u, snd (rc_get (fst (rc_reset s)) t i) = Ok [u] /\ ~ within (rc_range s) u.
Proof.
  intros u0 par s t i E Hr Hc Ht Hi. destruct (rc_new_val _ _ _ E) as [Hu Hn].
  assert (Hrc : 0 < rc_r s * rc_c s) by now apply Rmult_lt_0_compat.
  destruct (rc_get_val (fst (rc_reset s)) t i (rc_u0 s) Hn eq_refl ltac:(cbn; lra)) as (s' & Eg & _).
  rewrite Eg. eexists. split; [reflexivity|]. unfold within. cbn. intros [_ H].
  assert (0 < (t - 0) * ((rc_u0 s - rc_u0 s - rc_r s * i) / (rc_r s * rc_c s))); [|lra].
  apply Rmult_lt_0_compat; [lra|]. apply Rdiv_lt_0_compat; [|exact Hrc].
  assert (rc_r s * i < 0) by nra. lra.
Qed.
Print Assumptions rc_supply_regeneration_refuted.
(** ... nor currents above the short circuit current, if drawn long enough. *)
Theorem rc_supply_overload_refuted :
  forall u0 par s i, rc_new u0 par = Ok s -> 0 < rc_r s -> 0 < rc_c s -> u0 / rc_r s < i ->
  exists u, snd (rc_get (fst (rc_reset s)) (rc_r s * rc_c s) i) = Ok [u] /\ ~ within (rc_range s) u.
Proof.
  intros u0 par s i E Hr Hc Hi. destruct (rc_new_val _ _ _ E) as [Hu Hn].
  assert (Hrc : 0 < rc_r s * rc_c s) by now apply Rmult_lt_0_compat.
  destruct (rc_get_val (fst (rc_reset s)) (rc_r s * rc_c s) i (rc_u0 s) Hn eq_refl ltac:(cbn; lra)) as (s' & Eg & _).
  rewrite Eg. eexists. split; [reflexivity|]. unfold within. cbn [rc_range fst snd rc_reset rc_solver set_initial_value eu_t rc_u0 rc_r rc_c].
  rewrite Hu. replace (u0 + (rc_r s * rc_c s - 0) * ((u0 - u0 - rc_r s * i) / (rc_r s * rc_c s))) with (u0 - rc_r s * i) by (field; lra).
  assert (u0 < rc_r s * i); [|lra]. replace u0 with (rc_r s * (u0 / rc_r s)) by (field; lra). apply Rmult_lt_compat_l; lra.
Qed.
Print Assumptions rc_supply_overload_refuted.

(** AC supplies: bounded by the declared range at every time; the three phase
    voltages sum to zero at every time and are shifted by a third of a period. *)
Theorem ac_supply_in_range :
  forall phases u par draw s t, snd (ac_new phases u par draw) = Ok s -> 0 <= u ->
  Forall (within (ac_range s)) (ac_get s t).
Proof.
  intros phases u par draw s t E Hu.
  assert (Hamp : 0 <= ac_amp s).
  { assert (Ea : ac_amp s = ac_amplitude phases u).
    { unfold ac_new in E. destruct par as [dd|]; [|cbn in E; injection E as <-; reflexivity].
      destruct (dict_get _ dd); [|discriminate]. destruct (dict_get _ dd) as [phi|]; cbn [snd] in E.
      - destruct (_ && _); [injection E as <-; reflexivity|discriminate].
      - injection E as <-; reflexivity. }
    rewrite Ea. unfold ac_amplitude. pose proof (sqrt_pos 2).
    assert (0 < sqrt 3) by (apply sqrt_lt_R0; lra).
    assert (0 <= u / sqrt 3) by (apply Rmult_le_pos; [exact Hu|left; now apply Rinv_0_lt_compat]).
    destruct phases as [|[|]]; apply Rmult_le_pos; assumption. }
  assert (H : forall x, within (ac_range s) (ac_amp s * sin x)).
  { intros x. unfold within. cbn. pose proof (SIN_bound x) as [H1 H2]. split; nra. }
  unfold ac_get. destruct (ac_phases s) as [|[|]]; cbn [map]; repeat (constructor; [apply H|]); constructor.
Qed.
Print Assumptions ac_supply_in_range.

Theorem ac3_supply_balanced :
  forall s t, ac_phases s = 3%nat -> rsum (ac_get s t) = 0.
Proof.
  intros s t E. unfold ac_get. rewrite E. cbn [map rsum].
  pose proof (ac3_sum_zero (2 * PI * ac_f s * t + ac_phi s)) as H. set (x := 2 * PI * ac_f s * t + ac_phi s) in *.
  replace (x + 2 / 3 * PI * 0) with x by ring.
  replace (ac_amp s * sin x + (ac_amp s * sin (x + 2 / 3 * PI * 1) + (ac_amp s * sin (x + 2 / 3 * PI * 2) + 0)))
    with (ac_amp s * (sin x + sin (x + 2 / 3 * PI * 1) + sin (x + 2 / 3 * PI * 2))) by ring.
  rewrite H. ring.
Qed.
Print Assumptions ac3_supply_balanced.

Theorem ac_supply_periodic :
  forall s t, ac_f s <> 0 -> ac_get s (t + / ac_f s) = ac_get s t.
Proof.
  intros s t Hf.
  assert (H : forall x, sin (x + 2 * PI) = sin x) by (intros x; rewrite sin_plus, cos_2PI, sin_2PI; ring).
  assert (E : 2 * PI * ac_f s * (t + / ac_f s) = 2 * PI * ac_f s * t + 2 * PI) by (field; exact Hf).
  assert (H0 : forall x y, sin (x + 2 * PI + y) = sin (x + y)).
  { intros x y. replace (x + 2 * PI + y) with (x + y + 2 * PI) by ring. apply H. }
  assert (H1 : forall x y z, sin (x + 2 * PI + y + z) = sin (x + y + z)).
  { intros x y z. replace (x + 2 * PI + y + z) with (x + y + z + 2 * PI) by ring. apply H. }
  unfold ac_get. rewrite E. destruct (ac_phases s) as [|[|]]; cbn [map]; rewrite ?H0, ?H1; reflexivity.
Qed.
Print Assumptions ac_supply_periodic.

(** ** C32: the voltage limit *)
(** Refuted: the drive limits all voltages to the supply's [u_nominal]
    (physical_systems.py 105-113), but the one phase supply reaches sqrt 2 times
    that value in every period. *)
Theorem ac1_supply_exceeds_nominal_refuted :
  forall s t0, ac_phases s = 1%nat -> 0 < ac_u s -> ac_amp s = ac_amplitude 1 (ac_u s) -> 0 < ac_f s ->
  exists t, t0 <= t <= t0 + / ac_f s /\ ac_get s t = [ac_u s * sqrt 2] /\ ac_u s < ac_u s * sqrt 2.
Proof.
  intros s t0 Hp Hu Ha Hf.
  assert (Hpi : 0 < PI) by exact PI_RGT_0.
  set (w := 2 * PI * ac_f s). assert (Hw : 0 < w) by (unfold w; apply Rmult_lt_0_compat; lra).
  (* the next time at which the argument of the sine is pi/2 modulo 2 pi *)
  set (x := (w * t0 + ac_phi s - PI / 2) / (2 * PI)).
  set (k := up x). pose proof (archimed x) as [Hk1 Hk2]. fold k in Hk1, Hk2.
  set (t := (PI / 2 + 2 * PI * IZR k - ac_phi s) / w).
  assert (Hx : 2 * PI * x = w * t0 + ac_phi s - PI / 2) by (unfold x; field; lra).
  assert (Ht : w * t = PI / 2 + 2 * PI * IZR k - ac_phi s) by (unfold t; field; lra).
  exists t.
  assert (Hb : 2 * PI * x < 2 * PI * IZR k <= 2 * PI * x + 2 * PI) by (split; nra).
  assert (Hper : w * / ac_f s = 2 * PI) by (unfold w; field; lra).
  split; [|split].
  - split; apply (Rmult_le_reg_l w); lra.
  - unfold ac_get. rewrite Hp, Ha. cbn [ac_amplitude].
    replace (2 * PI * ac_f s * t + ac_phi s) with (PI / 2 + 2 * IZR k * PI) by (fold w; lra).
    replace (sin (PI / 2 + 2 * IZR k * PI)) with 1; [f_equal; ring|]. symmetry.
    rewrite sin_plus, sin_PI2, cos_PI2. 
    assert (Hc : cos (2 * IZR k * PI) = 1).
    { clear. assert (Hn : forall n, cos (2 * INR n * PI) = 1) by (intros n; replace (2 * INR n * PI) with (0 + 2 * INR n * PI) by ring; rewrite cos_period; apply cos_0).
      destruct (Z_le_dec 0 k) as [H|H].
      - rewrite <- (Z2Nat.id k H), <- INR_IZR_INZ. apply Hn.
      - replace k with (- - k)%Z by lia. rewrite opp_IZR, <- (Z2Nat.id (- k)) by lia. rewrite <- INR_IZR_INZ.
        replace (2 * - INR (Z.to_nat (- k)) * PI) with (- (2 * INR (Z.to_nat (- k)) * PI)) by ring. rewrite cos_neg. apply Hn. }
    rewrite Hc. ring.
  - assert (1 < sqrt 2) by (rewrite <- sqrt_1; apply sqrt_lt_1; lra). nra.
Qed.
Print Assumptions ac1_supply_exceeds_nominal_refuted.
Example ac1_example :
  snd (ac_new 1 230 (Some [("frequency"%string, 50); ("phase"%string, 0)]) 0) =
  Ok {| ac_phases := 1; ac_u := 230; ac_f := 50; ac_phi := 0; ac_fixed := true; ac_amp := 230 * sqrt 2 |}.
Proof.
  cbn. pose proof PI_RGT_0. destruct (rleP 0 0); [|lra]. destruct (rltP 0 (2 * PI)); [|lra]. reflexivity.
Qed.

(** ** C80: the phase of a supply *)
(** A given phase is kept over all resets; a phase that is not given is new after
    each reset and comes from the global generator, whatever the seed. *)
Theorem ac_fixed_phase_kept :
  forall s draws, ac_fixed s = true -> fold_left (fun s d => fst (ac_reset s d)) draws s = s.
Proof.
  intros s draws H. induction draws as [|d draws IH]; [reflexivity|]. cbn [fold_left]. unfold ac_reset at 2. rewrite H. exact IH.
Qed.
Print Assumptions ac_fixed_phase_kept.
Theorem ac_phase_from_global_generator_refuted :
  forall s d1 d2, ac_fixed s = false -> d1 <> d2 -> ac_phi (fst (ac_reset s d1)) <> ac_phi (fst (ac_reset s d2)).
Proof.
  intros s d1 d2 H Hd. unfold ac_reset. rewrite H. cbn. pose proof PI_RGT_0. intros E. apply Hd.
  apply (Rmult_eq_reg_r (2 * PI)); lra.
Qed.
Print Assumptions ac_phase_from_global_generator_refuted.

(** ** C81: the user's dictionary *)
(** Refuted: without a phase the constructor writes one into the user's dictionary,
    so a second supply built from the same dictionary has a fixed phase, that of
    the first. *)
Theorem ac_dictionary_reuse_refuted :
  forall phases u d f draw1 draw2, dict_get "frequency"%string d = Some f -> dict_get "phase"%string d = None ->
  0 <= draw1 < 1 ->
  exists d' s1 s2,
    ac_new phases u (Some d) draw1 = (Some d', Ok s1) /\ ac_fixed s1 = false /\ d' <> d /\
    snd (ac_new phases u (Some d') draw2) = Ok s2 /\ ac_fixed s2 = true /\ ac_phi s2 = ac_phi s1.
Proof.
  intros phases u d f draw1 draw2 Hf Hp Hd. unfold ac_new. rewrite Hf, Hp.
  assert (Hg : dict_get "phase"%string (dict_set "phase"%string (draw1 * 2 * PI) d) = Some (draw1 * 2 * PI)).
  { rewrite dict_get_set. reflexivity. }
  assert (Hg' : dict_get "frequency"%string (dict_set "phase"%string (draw1 * 2 * PI) d) = Some f).
  { rewrite dict_get_set. cbn. exact Hf. }
  pose proof PI_RGT_0.
  do 3 eexists. split; [reflexivity|]. split; [reflexivity|]. split; [intros E; rewrite E in Hg; congruence|].
  rewrite Hg, Hg'. destruct (rleP 0 (draw1 * 2 * PI)) as [_|Hn]; [|exfalso; apply Hn; nra].
  destruct (rltP (draw1 * 2 * PI) (2 * PI)) as [_|Hn]; [|exfalso; apply Hn; nra].
  cbn [snd]. split; [reflexivity|]. split; reflexivity.
Qed.
Print Assumptions ac_dictionary_reuse_refuted.
Example ac_dictionary_example :
  dict_get "frequency"%string [("frequency"%string, 50)] = Some 50 /\ dict_get "phase"%string [("frequency"%string, 50)] = None.
Proof. split; reflexivity. Qed.

(** ** C109: effective values *)
(** [u_nominal] is the effective value of the one phase voltage, respectively of the
    line-to-line voltages of the three phase supply. *)
Theorem ac_effective_values :
  forall phases u par draw s t, snd (ac_new phases u par draw) = Ok s ->
  (phases = 1%nat -> ac_f s <> 0 -> nth 0 (ac_get s t) 0 ^ 2 + nth 0 (ac_get s (t + / (4 * ac_f s))) 0 ^ 2 = 2 * u ^ 2) /\
  (phases = 3%nat -> exists a b c, ac_get s t = [a; b; c] /\ (a - b) ^ 2 + (b - c) ^ 2 + (c - a) ^ 2 = 3 * u ^ 2).
Proof.
  intros phases u par draw s t E.
  assert (Ea : ac_amp s = ac_amplitude phases u /\ ac_phases s = phases).
  { unfold ac_new in E. destruct par as [dd|]; [|cbn in E; injection E as <-; split; reflexivity].
    destruct (dict_get _ dd); [|discriminate]. destruct (dict_get _ dd) as [phi|]; cbn [snd] in E.
    - destruct (_ && _); [injection E as <-; split; reflexivity|discriminate].
    - injection E as <-; split; reflexivity. }
  destruct Ea as [Ea Ep]. assert (S2 : sqrt 2 * sqrt 2 = 2) by (apply sqrt_sqrt; lra). assert (S3 : sqrt 3 * sqrt 3 = 3) by (apply sqrt_sqrt; lra).
  assert (S3n : sqrt 3 <> 0) by (intros H; rewrite H in S3; lra).
  split; intros ->; unfold ac_get; rewrite Ep, Ea.
  - intros Hf. cbn [ac_amplitude nth]. replace (2 * PI * ac_f s * (t + / (4 * ac_f s)) + ac_phi s) with (2 * PI * ac_f s * t + ac_phi s + PI / 2) by (field; exact Hf).
    set (x := 2 * PI * ac_f s * t + ac_phi s). rewrite sin_plus, cos_PI2, sin_PI2. pose proof (sin2_cos2 x) as Hx. unfold Rsqr in Hx.
    replace ((u * sqrt 2 * sin x) ^ 2 + (u * sqrt 2 * (sin x * 0 + cos x * 1)) ^ 2) with (u ^ 2 * (sqrt 2 * sqrt 2) * (sin x * sin x + cos x * cos x)) by ring. rewrite S2, Hx. ring.
  - cbn [map ac_amplitude]. do 3 eexists. split; [reflexivity|]. set (x := 2 * PI * ac_f s * t + ac_phi s).
    replace (x + 2 / 3 * PI * 0) with x by ring. replace (2 / 3 * PI * 1) with (2 * (PI / 3)) by field. replace (2 / 3 * PI * 2) with (2 * (2 * (PI / 3))) by field.
    rewrite !sin_plus, !sin_2a, !cos_2a, ?sin_2a, ?cos_2a, sin_PI3, cos_PI3. pose proof (sin2_cos2 x) as Hx. unfold Rsqr in Hx.
    set (S := sin x) in *. set (C := cos x) in *. set (q := sqrt 3) in *.
    assert (Hq : q ^ 2 = 3) by (rewrite <- S3; ring).
    assert (A1 : u / q * sqrt 2 * (S * (1 / 2 * (1 / 2) - q / 2 * (q / 2)) + C * (2 * (q / 2) * (1 / 2))) = u / q * sqrt 2 * (- S / 2 + C * q / 2)).
    { replace (q / 2 * (q / 2)) with (q ^ 2 / 4) by field. rewrite Hq. field. exact S3n. }
    rewrite A1. clear A1.
    assert (A2 : forall a b : R, a = 1 / 2 * (1 / 2) - q / 2 * (q / 2) -> b = 2 * (q / 2) * (1 / 2) -> S * (a * a - b * b) + C * (2 * b * a) = - S / 2 - C * q / 2).
    { intros a b -> ->. replace (q / 2 * (q / 2)) with (q ^ 2 / 4) by field. rewrite Hq. replace (2 * (q / 2) * (1 / 2) * (2 * (q / 2) * (1 / 2))) with (q ^ 2 / 4) by field. rewrite Hq. field. }
    rewrite (A2 _ _ eq_refl eq_refl). clear A2.
    replace ((u / q * sqrt 2 * S - u / q * sqrt 2 * (- S / 2 + C * q / 2)) ^ 2 + (u / q * sqrt 2 * (- S / 2 + C * q / 2) - u / q * sqrt 2 * (- S / 2 - C * q / 2)) ^ 2 + (u / q * sqrt 2 * (- S / 2 - C * q / 2) - u / q * sqrt 2 * S) ^ 2)
      with (u ^ 2 / q ^ 2 * (sqrt 2 * sqrt 2) * (9 / 2 * (S * S) + 3 / 2 * q ^ 2 * (C * C))) by (field; exact S3n).
    rewrite Hq, S2. replace (9 / 2 * (S * S) + 3 / 2 * 3 * (C * C)) with (9 / 2 * (S * S + C * C)) by field. rewrite Hx. field.
Qed.
Print Assumptions ac_effective_values.
Example ac_effective_example : exists s, snd (ac_new 3 400 None (1 / 2)) = Ok s /\ ac_u s = 400.
Proof. eexists. split; reflexivity. Qed.
