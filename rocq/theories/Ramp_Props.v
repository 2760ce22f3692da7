(** Theorems about the ramping limit margin (callbacks.py, RampingLimitMargin). *)
From Verif Require Import PyBaseFacts PyDictFacts RefGen_Model RefGen_Spec RefGen_Proofs RefGen_Proofs2 RefGen_Proofs3 RefGen_Props RefGen_Props3 Ramp_Model Ramp_Spec Ramp_Proofs.
Local Open Scope string_scope. Local Open Scope list_scope. Local Open Scope R_scope.

(** ** An environment for the examples *)
Definition toy_steep : sub toy :=
  {| s_state := "omega"; s_lens := VNum 2; s_margin := LmNone; s_kind := Wiener (VPair 10 10) None; s_value := 0; s_len := py_int 2; s_k := 0; s_ref := None;
     s_mask := []; s_space := (-1, 1); s_tau := 0; s_seq := (1%nat : np_seq toy); s_gen := (0%nat : np_gen toy) |}.
Definition toy_steep1 : sub toy :=
  {| s_state := "omega"; s_lens := VNum 2; s_margin := LmPair (- (1 / 2)) (1 / 2); s_kind := Wiener (VPair 10 10) (Some (- (1 / 2), 1 / 2)); s_value := 0; s_len := py_int 2; s_k := 0; s_ref := None;
     s_mask := [true; false; false]; s_space := (- (1 / 2), 1 / 2); s_tau := 1 / 10; s_seq := (1%nat : np_seq toy); s_gen := (0%nat : np_gen toy) |}.
Lemma toy_steep_built : built (GSub toy_steep).
Proof. apply (built_sub "omega" (VNum 2) LmNone (Wiener (VPair 10 10) None) (0%nat : np_seq toy)); [exact I|reflexivity]. Qed.
Lemma toy_steep_announced : set_modules toy_ps (GSub toy_steep) = Ok (GSub toy_steep1).
Proof.
  cbn [set_modules]. unfold sub_modules. change (s_state toy_steep) with "omega"%string. rewrite toy_mask_omega. cbn -[Rdiv]. unfold toy_steep1. do 2 f_equal.
  replace (1 / 2 * -1) with (- (1 / 2)) by lra. replace (1 / 2 * 1) with (1 / 2) by lra. reflexivity.
Qed.
(** A ramp from 9/10 to 1 in steps of 1/20, one per two episodes. *)
Definition toy_ramp : ramp := {| ra_margin := (- (9 / 10), 9 / 10); ra_max := (-1, 1); ra_step := 1 / 20; ra_by_step := false; ra_count := 0; ra_freq := 2 |}.
Lemma toy_ramp_new : ramp_new (- (9 / 10), 9 / 10) (-1, 1) (1 / 20) "episode" 2 = Ok toy_ramp.
Proof. unfold ramp_new. cbn [fst snd]. repeat match goal with |- context [rlt ?a ?b] => destruct (rltP a b); [|lra] | |- context [rle ?a ?b] => destruct (rleP a b); [|lra] end. reflexivity. Qed.
Definition toy_steep2 : gen toy := GSub (set_margin (- (9 / 10), 9 / 10) toy_steep1).
Lemma toy_set_env : ramp_set_env toy_ramp (GSub toy_steep1) = Ok toy_steep2.
Proof. reflexivity. Qed.
Lemma log_ten x : (log10 10 - log10 10) * x + log10 10 = 1.
Proof. unfold log10. replace (ln 10 / ln 10) with 1; [ring|]. field. assert (H : ln 1 < ln 10) by (apply ln_increasing; lra). rewrite ln_1 in H. lra. Qed.

Lemma toy_steep_reset m (s : sub toy) : s_kind s = s_kind toy_steep1 -> s_lens s = VNum 2 -> s_mask s = [true; false; false] -> s_margin s = LmPair (fst m) (snd m) ->
  -1 <= fst m -> fst m <= snd m -> snd m <= 1 -> exists s' rf, sub_reset None s = Ok (s', (rf, [snd m])) /\ same_config s s'.
Proof.
  intros Ek El Em Emg H1 H2 H3. unfold sub_reset. rewrite Ek, Em. cbn [s_kind toy_steep1].
  set (u := np_uniform toy (s_gen s)). assert (Hu : 0 <= fst u <= 1) by (unfold u; cbn; destruct (Nat.even (s_gen s)); cbn; lra). destruct u as [u g]. cbn [fst] in Hu.
  cbn [bind fst put_masked map pick masked]. cbn [np_spawn toy]. set (v := - (1 / 2) + (1 / 2 - - (1 / 2)) * u). assert (Hv : - (1 / 2) <= v) by (unfold v; lra). clearbody v.
  unfold sub_obs. cbn [s_len sub_with s_k s_lens s_margin s_kind s_value s_tau s_gen]. destruct (Z.leb_spec (-1) (Z.of_nat (s_k s))) as [_|]; [|lia]. rewrite El, Emg, Ek. cbn [bind current_value fst snd bounds].
  assert (Ep : py_int 2 = 2%Z). { destruct (py_int_spec 2 ltac:(lra)) as [A B]. assert (P1 : IZR (py_int 2) < IZR 3) by lra. assert (P2 : IZR 1 < IZR (py_int 2)) by lra. apply lt_IZR in P1, P2. lia. }
  rewrite Ep. unfold new_reference. cbn [Z.ltb Z.compare s_kind toy_steep1]. unfold draw_sigma, current_value. destruct (np_uniform toy (s_seq s)) as [u2 g2]. cbn [bind fst snd]. rewrite log_ten, Rpower_1 by lra.
  cbn [np_normal toy]. change (Z.to_nat 2) with 2%nat. cbn [repeat walk]. destruct (rltP (snd m) (v + 10)) as [_|]; [|lra]. destruct (rltP (snd m) (fst m)) as [|_]; [lra|].
  cbn [bind fst snd s_ref sub_with s_k nth_error]. do 2 eexists. split; [reflexivity|]. repeat split; cbn; congruence.
Qed.
(** Two episodes. *)
Lemma toy_episodes : exists r' g', env_run [EReset; EReset] (toy_ramp, toy_steep2) = Ok ((r', g'), [[9 / 10]; [9 / 10]]) /\ env_run [EReset] (toy_ramp, toy_steep2) <> Err TypeError.
Proof.
  cbn [env_run]. unfold env_op_run at 1. cbn [fst snd]. unfold toy_steep2 at 1. cbn [reset].
  destruct (toy_steep_reset (- (9 / 10), 9 / 10) (set_margin (- (9 / 10), 9 / 10) toy_steep1)) as (s1 & rf1 & E1 & C1); try reflexivity; try (cbn; lra). rewrite E1. cbn [bind fst snd].
  unfold on_reset_end at 1. change (count_event toy_ramp (GSub s1)) with (Ok (with_count 1 toy_ramp, GSub s1)). cbn [ra_by_step toy_ramp bind fst snd].
  pose proof C1 as (F1 & F2 & F3 & F4 & F5 & F6 & F7).
  unfold env_op_run. cbn [reset fst snd].
  destruct (toy_steep_reset (- (9 / 10), 9 / 10) s1) as (s2 & rf2 & E2 & C2); [rewrite F4; reflexivity|rewrite F2; reflexivity|rewrite F5; reflexivity|rewrite F3; reflexivity|cbn; lra|cbn; lra|cbn; lra|].
  rewrite E2. cbn [bind fst snd]. unfold on_reset_end. cbn [ra_by_step with_count toy_ramp].
  change (count_event _ (GSub s2)) with (Ok (update_margin (with_count 0 toy_ramp) (GSub s2))). cbn [bind fst snd]. destruct (update_margin _ _) as [r' g'].
  do 2 eexists. split; [reflexivity|]. unfold toy_steep2. cbn [reset]. rewrite E1. discriminate.
Qed.

(** ** C54 The margin in closed form *)
(** After any history with [n] counted events the margin of the callback and of every
    generator is the initial one widened [n / |freq|] times and cut at the maximum. *)
Theorem ramp_closed_form :
  forall N initial maximum step time freq r (g g0 : gen N) ops r' g' obs,
  ramp_new initial maximum step time freq = Ok r -> 0 <= step -> freq <> 0%Z -> ramp_set_env r g = Ok g0 -> env_run ops (r, g0) = Ok ((r', g'), obs) ->
  let m := ramped initial maximum step (Z.to_nat (Z.of_nat (events time ops) / Z.abs freq)) in
  ra_margin r' = m /\ all_subs (has_margin m) g'.
Proof.
  intros N initial maximum step time freq r g g0 ops r' g' obs Hn Hs Hf He Hr m. destruct (ramp_new_inv _ _ _ _ _ _ Hn) as (Ht & _ & _ & _ & _ & _ & _ & ->).
  set (SI := fun (m : R * R) (s : sub N) => has_margin m s).
  assert (I0 : inv SI initial maximum step (String.eqb time "step") freq 0 (({| ra_margin := initial; ra_max := maximum; ra_step := step; ra_by_step := String.eqb time "step"; ra_count := 0; ra_freq := freq |}, g0))).
  { unfold inv. cbn [fst snd ra_margin ra_max ra_step ra_by_step ra_count ra_freq]. do 4 (split; [reflexivity|]). split; [now rewrite Zdiv_0_l|]. split; [now rewrite Zmod_0_l|].
    apply (set_env_all _ _ _ (fun _ => True) (SI initial)) in He; auto. intros s _. reflexivity. }
  unshelve epose proof (run_inv SI (fun _ => True) initial maximum step _ freq Hs Hf _ _ ops 0 _ _ _ I0 Hr) as [I1 _].
  - intros a b s _. reflexivity.
  - intros k. split.
    + intros s s' o H1 H2. destruct (sub_obs_static _ _ _ H2) as [_ (_ & _ & E & _)]. split; [|exact Logic.I]. unfold SI, has_margin in *. congruence.
    + intros i s s' rf o H1 H2. destruct (sub_reset_static _ _ _ _ _ H2) as [_ (_ & _ & E & _)]. split; [|exact Logic.I]. unfold SI, has_margin in *. congruence.
  - destruct I1 as (_ & _ & _ & _ & E5 & _ & E7). cbn [fst snd plus] in *. rewrite (evs_events time ops Ht) in E5. fold m in E5. rewrite E5 in E7. split; [exact E5|exact E7].
Qed.
Print Assumptions ramp_closed_form.
Example ramp_closed_form_example : exists r' g' obs,
  ramp_new (- (9 / 10), 9 / 10) (-1, 1) (1 / 20) "episode" 2 = Ok toy_ramp /\ ramp_set_env toy_ramp (GSub toy_steep1) = Ok toy_steep2 /\ env_run [EReset; EReset] (toy_ramp, toy_steep2) = Ok ((r', g'), obs) /\
  ramped (- (9 / 10), 9 / 10) (-1, 1) (1 / 20) (Z.to_nat (Z.of_nat (events "episode" [EReset; EReset]) / Z.abs 2)) = (- (19 / 20), 19 / 20).
Proof.
  destruct toy_episodes as (r' & g' & E & _). exists r', g', [[9 / 10]; [9 / 10]]. split; [exact toy_ramp_new|]. split; [exact toy_set_env|]. split; [exact E|].
  change (Z.to_nat (Z.of_nat (events "episode" [EReset; EReset]) / Z.abs 2)) with 1%nat. cbn [ramped fst snd INR]. f_equal; [rewrite Rmax_left|rewrite Rmin_left]; lra.
Qed.

(** The sequence of margins grows towards the maximum and does not leave it; from the
    first widening on it is inside the maximum even if the initial margin is not. *)
Theorem ramp_monotone :
  forall initial maximum step, 0 <= step ->
  (forall k, within (ramped initial maximum step (S k)) maximum) /\
  (within initial maximum -> forall j k, (j <= k)%nat -> within (ramped initial maximum step j) (ramped initial maximum step k)) /\
  (0 < step -> exists k0, forall k, (k0 <= k)%nat -> ramped initial maximum step k = maximum).
Proof.
  intros i m s Hs. split; [intros k; apply ramped_in_max|]. split; [intros W j k Hjk; now apply ramped_grows|].
  intros Hp. set (d := Rmax (fst i - fst m) (snd m - snd i)). assert (Hn0 : exists n, d / s < INR n) by (exists (Z.to_nat (up (d / s))); pose proof (archimed (d / s)) as [Ha _]; destruct (Z.le_gt_cases 0 (up (d / s))) as [Hz|Hz]; [rewrite INR_IZR_INZ, Z2Nat.id by lia; lra|apply IZR_lt in Hz; pose proof (pos_INR (Z.to_nat (up (d / s)))); lra]). destruct Hn0 as [n Hn]. exists (S n). intros k Hk. destruct k as [|k]; [lia|]. rewrite ramped_S.
  assert (Hd : d <= INR (S k) * s).
  { apply Rle_trans with (INR n * s).
    - apply Rmult_le_reg_r with (/ s); [now apply Rinv_0_lt_compat|]. rewrite Rmult_assoc, Rinv_r by lra. unfold Rdiv in Hn. lra.
    - apply Rmult_le_compat_r; [lra|]. apply le_INR. lia. }
  pose proof (Rmax_l (fst i - fst m) (snd m - snd i)) as A. pose proof (Rmax_r (fst i - fst m) (snd m - snd i)) as B. fold d in A, B.
  rewrite Rmax_right, Rmin_right by lra. destruct m; reflexivity.
Qed.
Print Assumptions ramp_monotone.
Example ramp_monotone_example : within (- (9 / 10), 9 / 10) (-1, 1) /\ ramped (- (9 / 10), 9 / 10) (-1, 1) (1 / 20) 1 <> ramped (- (9 / 10), 9 / 10) (-1, 1) (1 / 20) 2.
Proof.
  split; [split; cbn; lra|]. cbn [ramped fst snd INR]. rewrite !Rmax_left, !Rmin_left by lra. intros E. injection E as E _. lra.
Qed.

(** An update frequency of zero is accepted but the first counted event raises. *)
Theorem ramp_zero_frequency_raises :
  forall N initial maximum step time r (g : gen N), ramp_new initial maximum step time 0 = Ok r ->
  (time = "step" -> on_step_end r g = Err ZeroDivisionError) /\ (time = "episode" -> on_reset_end r g = Err ZeroDivisionError).
Proof.
  intros N i m s t r g H. destruct (ramp_new_inv _ _ _ _ _ _ H) as (_ & _ & _ & _ & _ & _ & _ & ->). split; intros ->; reflexivity.
Qed.
Print Assumptions ramp_zero_frequency_raises.
Example ramp_zero_frequency_example : exists r, ramp_new (- (9 / 10), 9 / 10) (-1, 1) (1 / 20) "step" 0 = Ok r.
Proof.
  unfold ramp_new. cbn [fst snd]. repeat match goal with |- context [rlt ?a ?b] => destruct (rltP a b); [|lra] | |- context [rle ?a ?b] => destruct (rleP a b); [|lra] end. eexists. reflexivity.
Qed.

(** ** C55 Ramped references and the announced space *)
(** References stay in the maximum margin when the ramp starts inside it ... *)
Theorem ramped_references_in_maximum :
  forall N ps initial maximum step time freq r (g g1 g0 : gen N) ops y obs, built g -> set_modules ps g = Ok g1 ->
  ramp_new initial maximum step time freq = Ok r -> 0 <= step -> freq <> 0%Z -> within initial maximum -> ramp_set_env r g1 = Ok g0 -> env_run ops (r, g0) = Ok (y, obs) ->
  Forall (fun o => exists v, o = [v] /\ fst maximum <= v <= snd maximum) obs.
Proof.
  intros N ps initial maximum step time freq r g g1 g0 ops y obs Hb Hm Hn Hs Hf W He Hr. destruct (ramp_new_inv _ _ _ _ _ _ Hn) as (Ht & Hi & Hmx & _ & _ & _ & _ & ->).
  set (SI := fun (m : R * R) (s : sub N) => sub_inv m maximum s). pose proof W as [W1 W2].
  assert (I0 : inv SI initial maximum step (String.eqb time "step") freq 0 (({| ra_margin := initial; ra_max := maximum; ra_step := step; ra_by_step := String.eqb time "step"; ra_count := 0; ra_freq := freq |}, g0))).
  { unfold inv. cbn [fst snd ra_margin ra_max ra_step ra_by_step ra_count ra_freq]. do 4 (split; [reflexivity|]). split; [now rewrite Zdiv_0_l|]. split; [now rewrite Zmod_0_l|].
    apply (set_env_all _ _ _ (@fresh_sub N) (SI initial)) in He; [exact He| |exact (set_modules_fresh _ _ _ Hb Hm)].
    intros s Hfr. split; [reflexivity|]. cbn. intros l Hl. unfold fresh_sub in Hfr. congruence. }
  unshelve epose proof (run_inv SI (fun v => fst maximum <= v <= snd maximum) initial maximum step _ freq Hs Hf _ _ ops 0 _ _ _ I0 Hr) as [_ Ho].
  - intros a b s [_ Hl]. split; [reflexivity|exact Hl].
  - intros k. apply sub_kept; [|apply ramped_within; [exact Hs|exact W|split; lra]]. apply ramped_ordered; try assumption; lra.
  - exact Ho.
Qed.
Print Assumptions ramped_references_in_maximum.
Example ramped_references_in_maximum_example : exists y obs, built (GSub toy_steep) /\ set_modules toy_ps (GSub toy_steep) = Ok (GSub toy_steep1) /\
  ramp_new (- (9 / 10), 9 / 10) (-1, 1) (1 / 20) "episode" 2 = Ok toy_ramp /\ within (- (9 / 10), 9 / 10) (-1, 1) /\ ramp_set_env toy_ramp (GSub toy_steep1) = Ok toy_steep2 /\
  env_run [EReset; EReset] (toy_ramp, toy_steep2) = Ok (y, obs) /\ obs <> [].
Proof.
  destruct toy_episodes as (r' & g' & E & _). do 2 eexists. split; [exact toy_steep_built|]. split; [exact toy_steep_announced|]. split; [exact toy_ramp_new|]. split; [split; cbn; lra|].
  split; [exact toy_set_env|]. split; [exact E|discriminate].
Qed.

(** ... the callback never changes the announced space ... *)
Theorem ramp_keeps_announced_space :
  forall N r (g g0 : gen N) ops r' g' obs, ramp_set_env r g = Ok g0 -> env_run ops (r, g0) = Ok ((r', g'), obs) -> g_space g' = g_space g.
Proof. intros N r g g0 ops r' g' obs He Hr. apply env_space in Hr. cbn [snd] in Hr. rewrite Hr. exact (set_env_space _ _ _ He). Qed.
Print Assumptions ramp_keeps_announced_space.
Example ramp_keeps_announced_space_example : exists y obs, ramp_set_env toy_ramp (GSub toy_steep1) = Ok toy_steep2 /\ env_run [EReset; EReset] (toy_ramp, toy_steep2) = Ok (y, obs) /\ g_space (GSub toy_steep1) = ([- (1 / 2)], [1 / 2]).
Proof. destruct toy_episodes as (r' & g' & E & _). do 2 eexists. split; [exact toy_set_env|]. split; [exact E|reflexivity]. Qed.

(** ... so references can leave it.  Without the callback that is impossible
    (Theorem [references_inside] of the reference generators). *)
Theorem ramped_references_in_announced_space_refuted :
  exists N ps (g g1 g0 : gen N) initial maximum step time freq r ops y obs v,
  numpy_ok N /\ psys_ok ps /\ built g /\ set_modules ps g = Ok g1 /\ margins_ordered g1 /\ ramp_new initial maximum step time freq = Ok r /\ within initial maximum /\ ramp_set_env r g1 = Ok g0 /\
  env_run ops (r, g0) = Ok (y, obs) /\ In [v] obs /\ ~ inside (g_space g1) [v].
Proof.
  destruct toy_episodes as (r' & g' & E & _). exists toy, toy_ps, (GSub toy_steep), (GSub toy_steep1), toy_steep2, (- (9 / 10), 9 / 10), (-1, 1), (1 / 20), "episode", 2%Z, toy_ramp, [EReset; EReset], (r', g'), [[9 / 10]; [9 / 10]], (9 / 10).
  split; [exact toy_ok|]. split; [exact toy_ps_ok|]. split; [exact toy_steep_built|]. split; [exact toy_steep_announced|]. split; [constructor; cbn; lra|]. split; [exact toy_ramp_new|]. split; [split; cbn; lra|].
  split; [exact toy_set_env|]. split; [exact E|]. split; [now left|]. intros (_ & _ & H). specialize (H 0%nat (- (1 / 2)) (1 / 2) (9 / 10) eq_refl eq_refl eq_refl). lra.
Qed.
Print Assumptions ramped_references_in_announced_space_refuted.

(** A margin that is announced wide enough is sufficient. *)
Theorem ramped_references_inside_if_announced :
  forall N ps initial maximum step time freq r (g g1 g0 : gen N) ops y obs, built g -> set_modules ps g = Ok g1 ->
  ramp_new initial maximum step time freq = Ok r -> 0 <= step -> freq <> 0%Z -> within initial maximum -> (forall v, fst maximum <= v <= snd maximum -> inside (g_space g1) [v]) ->
  ramp_set_env r g1 = Ok g0 -> env_run ops (r, g0) = Ok (y, obs) -> Forall (inside (g_space g1)) obs.
Proof.
  intros N ps initial maximum step time freq r g g1 g0 ops y obs Hb Hm Hn Hs Hf W Hsp He Hr.
  eapply Forall_impl; [|exact (ramped_references_in_maximum _ _ _ _ _ _ _ _ _ _ _ _ _ _ Hb Hm Hn Hs Hf W He Hr)]. intros o (v & -> & Hv). auto.
Qed.
Print Assumptions ramped_references_inside_if_announced.
Example ramped_references_inside_if_announced_example : forall v, fst (- (1 / 2), 1 / 4) <= v <= snd (- (1 / 2), 1 / 4) -> inside (g_space (GSub toy_steep1)) [v].
Proof. cbn [fst snd]. intros v Hv. apply inside_single. cbn. lra. Qed.
