(** Properties C20-C28, C77, C78: power electronic converters. *)
From Verif Require Import PyBase PyBaseFacts Conv_Model Conv_Spec Conv_Proofs Conv_Proofs2.

(** ** C20: voltages stay in the declared space *)
Theorem finite_voltage_in_space :
  forall k tau il ops i t u,
  let c := fin_run (fin_new k tau il) ops in
  snd (fin_convert c i t) = Ok u ->
  in_box (fin_u_low (fin_new k tau il)) (fin_u_high (fin_new k tau il)) u.
Proof.
  intros k tau il ops i t u c E.
  destruct (fin_run_kind ops (fin_new k tau il)) as (_ & _ & <- & <-).
  eapply fin_convert_box; [|exact E]. apply fin_run_ok, fin_new_ok.
Qed.
Print Assumptions finite_voltage_in_space.

(** Once a valid action has been set, every later conversion with the right
    number of currents returns such a voltage (no exception). *)
Theorem finite_convert_defined :
  forall k tau il before a t0 after i t,
  let c0 := fin_run (fin_new k tau il) before in
  (0 <= a < fin_n c0)%Z -> length i = fin_dim c0 ->
  exists u, snd (fin_convert (fin_run (fst (fin_set_action c0 a t0)) after) i t) = Ok u /\ length u = fin_dim c0.
Proof.
  intros k tau il before a t0 after i t c0 Ha Hi.
  pose proof (fin_run_ok before _ (fin_new_ok k tau il)) as Hok. fold c0 in Hok.
  pose proof (fin_run_pat after _ (fin_set_valid_pat c0 a t0 Ha)) as Hp.
  pose proof (fin_run_ok after _ (fin_step_ok c0 (OpSet a t0) Hok)) as Hok'. cbn [fin_step] in Hok'.
  destruct (fin_run_kind after (fst (fin_set_action c0 a t0))) as (_ & Hd & _).
  destruct (fin_step_kind c0 (OpSet a t0)) as (_ & Hd0 & _). cbn [fin_step] in Hd0. rewrite Hd0 in Hd.
  set (c := fin_run (fst (fin_set_action c0 a t0)) after) in *.
  destruct (fin_convert_def c i t Hok' Hp ltac:(congruence)) as (c' & E & _ & _ & Hd' & _).
  rewrite E. eexists. split; [reflexivity|]. rewrite <- Hd, <- Hd'.
  rewrite <- Hd, <- Hd' in Hi. clear -Hi.
  destruct c'; cbn [fin_dim] in *.
  1-3: destruct i as [|i0 [|]]; try discriminate; reflexivity.
  destruct i as [|i0 [|i1 [|i2 [|]]]]; try discriminate; reflexivity.
Qed.
Print Assumptions finite_convert_defined.

Theorem multi_voltage_in_space :
  forall spec ops i t u,
  snd (fm_convert (fm_run (fm_new spec) ops) i t) = Ok u ->
  in_box (concat (map fin_u_low (fm_new spec))) (concat (map fin_u_high (fm_new spec))) u.
Proof.
  intros spec ops i t u E.
  assert (H : Forall fin_ok (fm_new spec)).
  { unfold fm_new. rewrite Forall_map. apply Forall_forall. intros [[k tau] il] _. apply fin_new_ok. }
  destruct (fm_run_ok ops _ H) as (H1 & <- & <-). eapply fm_convert_box; eauto.
Qed.
Print Assumptions multi_voltage_in_space.

(** A 1QC and a 2QC in one converter, after one valid action. *)
Example multi_voltage_example :
  snd (fm_convert (fm_run (fm_new [(K1, 1, 0); (K2, 1, 0)]) [MopSet [1; 2]%Z 0]) [-1; 2] 0) = Ok [1; 0].
Proof.
  unfold fm_run. cbn [fold_left fm_step fm_new map fin_new].
  assert (E : fm_set_action [F1 (f1_new 1 0); F2 (f2_new 1 0)] [1; 2]%Z 0 =
    ([F1 {| f1_tau := 1; f1_il := 0; f1_start := 0; f1_cur := 1 |};
      F2 {| f2_tau := 1; f2_il := 0; f2_start := 0; f2_sw := 0; f2_pat := [2%Z] |}],
     snd (fm_set_action [F1 (f1_new 1 0); F2 (f2_new 1 0)] [1; 2]%Z 0))) by reflexivity.
  rewrite E. cbn [fst fm_convert fin_convert lift fin_dim].
  unfold f1_convert, f2_convert, f2_next_sw. cbn.
  destruct (rltP (0 + 0) (0 - 1/1000)); [lra|]. cbn.
  destruct (rleP 0 (-1)); [lra|]. reflexivity.
Qed.

(** ** C21: invalid actions *)
Theorem finite_action_valid_iff :
  forall c a t,
  ((0 <= a < fin_n c)%Z <-> exists ts, snd (fin_set_action c a t) = Ok ts) /\
  (~ (0 <= a < fin_n c)%Z -> fin_set_action c a t = (c, Err AssertionError)).
Proof.
  intros c a t. split; [|apply fin_set_invalid]. split.
  - intros H. destruct (fin_set_valid c a t H) as (c' & ts & E & _). rewrite E. now exists ts.
  - intros [ts E]. destruct (Z_le_dec 0 a); [destruct (Z_lt_dec a (fin_n c)); [lia|]|];
      rewrite fin_set_invalid in E by lia; discriminate.
Qed.
Print Assumptions finite_action_valid_iff.

(** The multi converter does not check its action as a whole: an invalid action
    may change the first parts before it is refused ... *)
Theorem multi_invalid_action_has_effect_refuted :
  forall tau il a b t, (0 <= a < 2)%Z -> a <> 0%Z -> ~ (0 <= b < 2)%Z ->
  let m := fm_new [(K1, tau, il); (K1, tau, il)] in
  ~ fm_contains m [a; b] /\
  snd (fm_set_action m [a; b] t) = Err AssertionError /\ fst (fm_set_action m [a; b] t) <> m.
Proof.
  intros tau il a b t Ha Hne Hb m.
  assert (E : fm_set_action m [a; b] t =
    ([F1 {| f1_tau := tau; f1_il := il; f1_start := t; f1_cur := a |}; F1 (f1_new tau il)], Err AssertionError)).
  { unfold fm_set_action, m. cbn [fm_new map fin_new fm_set_all fin_set_action lift].
    unfold f1_set_action. rewrite (proj2 (contains_iff 2 a) Ha), (proj2 (contains_false 2 b) Hb). reflexivity. }
  rewrite E. split; [|split].
  - intros H. inversion H as [|? ? ? ? _ H']; subst. inversion H' as [|? ? ? ? H'' _]; subst. cbn in H''. lia.
  - reflexivity.
  - cbn. unfold m. cbn. intros H. injection H. intros. congruence.
Qed.
Print Assumptions multi_invalid_action_has_effect_refuted.

(** ... and actions of a wrong length are accepted: missing entries keep the old
    action of the remaining parts. *)
Theorem multi_short_action_accepted_refuted :
  forall tau il a t, (0 <= a < 2)%Z ->
  let m := fm_new [(K1, tau, il); (K1, tau, il)] in
  ~ fm_contains m [a] /\ exists ts, snd (fm_set_action m [a] t) = Ok ts.
Proof.
  intros tau il a t Ha m. split.
  - intros H. inversion H as [|? ? ? ? _ H']; subst. inversion H'.
  - unfold fm_set_action, m. cbn [fm_new map fin_new fm_set_all fin_set_action lift].
    unfold f1_set_action. rewrite (proj2 (contains_iff 2 a) Ha). cbn. eauto.
Qed.
Print Assumptions multi_short_action_accepted_refuted.

(** ** C22: no shoot-through *)
Theorem no_shoot_through :
  forall k tau il us, 0 < il -> 0 <= tau ->
  let c := fin_new k tau il in
  Forall (use_ok (fin_dim c)) us ->
  chain (fun x y => Forall2 safe_change (leg_states x) (leg_states y)) c (states_over c us).
Proof.
  intros k tau il us Hil Htau c H. apply uses_safe; [apply fin_new_ok|now apply fin_new_par|exact H].
Qed.
Print Assumptions no_shoot_through.

(** Upper, then lower commanded: the bridge passes through "both off". *)
Example no_shoot_through_example :
  map leg_states (states_over (fin_new K2 1 (1/10))
    [Period 1 0 [1] []; Period 2 1 [1] [([1], 3/2)]]) = [[1]; [0]; [2]]%Z.
Proof.
  cbn [fin_new states_over]. unfold use_states, fin_set_action, lift, f2_set_action, f2_pattern. cbn.
  unfold f2_convert, f2_next_sw. cbn.
  destruct (rltP (0 + 1/10) (0 - 1/1000)); [lra|]. cbn.
  unfold f2_set_action, f2_pattern. cbn. destruct (reqP (1/10) 0); [lra|]. cbn.
  unfold f2_convert, f2_next_sw. cbn.
  destruct (rltP (1 + 1/10) (1 - 1/1000)); [lra|]. cbn.
  destruct (rltP (1 + 1/10) (3/2 - 1/1000)); [|lra]. reflexivity.
Qed.

(** ** C23: when the commanded state is applied *)
(** During the interlocking time both transistors are off; well after it (tau/1000
    is the code's tolerance) the commanded state is applied. *)
Theorem interlocking_interval :
  forall (c : f2) a t t' i0,
  f2_ok c -> (a = 1 \/ a = 2)%Z -> f2_sw c <> 0%Z -> f2_sw c <> a -> 0 < f2_il c -> 0 < f2_tau c ->
  let c1 := fst (f2_set_action c a t) in
  (t' <= t + f2_il c + f2_tau c / 1000 -> snd (f2_convert c1 [i0] t') = Ok [ideal_half_bridge 0 i0]) /\
  (t + f2_il c + f2_tau c / 1000 < t' -> snd (f2_convert c1 [i0] t') = Ok [ideal_half_bridge a i0]).
Proof.
  intros c a t t' i0 Hok Ha Hsw Hne Hil Htau c1.
  assert (Ha3 : (0 <= a < 3)%Z) by lia.
  destruct (f2_set_valid c a t Ha3) as (c' & ts & E & Hp & _ & Hs & Hst & Ht & Hi).
  assert (Ec : c1 = c') by (unfold c1; now rewrite E). rewrite Ec. clear c1 Ec.
  assert (Hpat : f2_pat c' = [0%Z; a]).
  { rewrite Hp. unfold f2_pattern. cbn [f2_sw f2_il f2_start f2_tau].
    rewrite (proj2 (Z.eqb_neq a 0)) by lia. rewrite (proj2 (Z.eqb_neq (f2_sw c) 0)) by exact Hsw.
    rewrite (proj2 (Z.eqb_neq a (f2_sw c))) by congruence.
    rewrite (proj2 (req_false (f2_il c) 0)) by lra. reflexivity. }
  unfold f2_convert, f2_next_sw. rewrite Hpat, Hst, Ht, Hi.
  destruct (rltP (t + f2_il c) (t' - f2_tau c / 1000)); cbn [snd last]; split; intros H; try lra.
  - apply f2_out_val. destruct Ha as [-> | ->]; unfold sw_ok; auto.
  - apply f2_out_val. left; reflexivity.
Qed.
Print Assumptions interlocking_interval.

(** Refuted: the drive asks for the voltage at [t] and at [t + interlocking time]
    (the only inner switching time it is given), so a changed command has no
    effect in its whole sampling period: the bridge is off throughout.  The
    command is applied one period later, if it is repeated. *)
Theorem command_applied_in_its_period_refuted :
  forall (c : f2) a t i0 i1 i2,
  f2_ok c -> (a = 1 \/ a = 2)%Z -> f2_sw c <> 0%Z -> f2_sw c <> a -> 0 < f2_il c -> 0 < f2_tau c ->
  let c1 := fst (f2_set_action c a t) in
  let c2 := fst (f2_convert c1 [i0] t) in
  let c3 := fst (f2_convert c2 [i1] (t + f2_il c)) in
  let c4 := fst (f2_set_action c3 a (t + f2_tau c)) in
  snd (f2_set_action c a t) = Ok [t + f2_il c; t + f2_tau c] /\
  snd (f2_convert c1 [i0] t) = Ok [ideal_half_bridge 0 i0] /\
  snd (f2_convert c2 [i1] (t + f2_il c)) = Ok [ideal_half_bridge 0 i1] /\
  snd (f2_set_action c3 a (t + f2_tau c)) = Ok [t + f2_tau c + f2_tau c] /\
  snd (f2_convert c4 [i2] (t + f2_tau c)) = Ok [ideal_half_bridge a i2].
Proof.
  intros c a t i0 i1 i2 Hok Ha Hsw Hne Hil Htau c1 c2 c3 c4.
  assert (Ha3 : (0 <= a < 3)%Z) by lia.
  destruct (f2_set_valid c a t Ha3) as (c' & ts & E & Hp & Hts & Hs & Hst & Ht & Hi).
  assert (Hf : f2_pattern {| f2_tau := f2_tau c; f2_il := f2_il c; f2_start := t; f2_sw := f2_sw c; f2_pat := f2_pat c |} a
               = ([0%Z; a], [t + f2_il c; t + f2_tau c])).
  { unfold f2_pattern. cbn [f2_sw f2_il f2_start f2_tau].
    rewrite (proj2 (Z.eqb_neq a 0)) by lia. rewrite (proj2 (Z.eqb_neq (f2_sw c) 0)) by exact Hsw.
    rewrite (proj2 (Z.eqb_neq a (f2_sw c))) by congruence.
    rewrite (proj2 (req_false (f2_il c) 0)) by lra. reflexivity. }
  rewrite Hf in Hp, Hts. cbn [fst snd] in Hp, Hts.
  split; [rewrite E; cbn [snd]; now rewrite Hts|].
  assert (Ec : c1 = c') by (unfold c1; now rewrite E).
  assert (E1 : f2_convert c1 [i0] t =
    ({| f2_tau := f2_tau c; f2_il := f2_il c; f2_start := t; f2_sw := 0; f2_pat := [0%Z; a] |}, Ok [ideal_half_bridge 0 i0])).
  { rewrite Ec. unfold f2_convert, f2_next_sw. rewrite Hp, Hst, Ht, Hi.
    destruct (rltP (t + f2_il c) (t - f2_tau c / 1000)); [lra|]. reflexivity. }
  split; [rewrite E1; reflexivity|].
  assert (E2 : f2_convert c2 [i1] (t + f2_il c) = (c2, Ok [ideal_half_bridge 0 i1])).
  { unfold c2. rewrite E1. cbn [fst]. unfold f2_convert, f2_next_sw. cbn [f2_pat f2_start f2_il f2_tau].
    destruct (rltP (t + f2_il c) (t + f2_il c - f2_tau c / 1000)); [lra|]. reflexivity. }
  split; [rewrite E2; reflexivity|].
  assert (Ec3 : c3 = {| f2_tau := f2_tau c; f2_il := f2_il c; f2_start := t; f2_sw := 0; f2_pat := [0%Z; a] |}).
  { unfold c3. rewrite E2. unfold c2. rewrite E1. reflexivity. }
  assert (E4 : f2_set_action c3 a (t + f2_tau c) =
    ({| f2_tau := f2_tau c; f2_il := f2_il c; f2_start := t + f2_tau c; f2_sw := 0; f2_pat := [a] |},
     Ok [t + f2_tau c + f2_tau c])).
  { rewrite Ec3. unfold f2_set_action. rewrite (proj2 (contains_iff 3 a) Ha3). unfold f2_pattern.
    cbn [f2_sw f2_start f2_tau f2_il f2_pat]. rewrite Z.eqb_refl, orb_true_r. reflexivity. }
  split; [rewrite E4; reflexivity|]. unfold c4. rewrite E4. cbn [fst]. unfold f2_convert, f2_next_sw.
  cbn [f2_pat f2_start f2_il f2_tau last]. destruct (rlt _ _); cbn [snd]; apply f2_out_val;
    destruct Ha as [-> | ->]; unfold sw_ok; auto.
Qed.
Print Assumptions command_applied_in_its_period_refuted.

(** The hypotheses are met after one period with the upper transistor on; the
    commanded 0 V of action 2 do not appear for a negative current. *)
Example command_delayed_example :
  let c0 := f2_new 1 (1/10) in
  let c := fst (f2_convert (fst (f2_set_action c0 1 0)) [1] 0) in
  f2_ok c /\ f2_sw c = 1%Z /\ f2_il c = 1/10 /\ f2_tau c = 1 /\
  ideal_half_bridge 0 (-1) <> ideal_half_bridge 2 (-1).
Proof.
  intros c0 c.
  assert (E : f2_sw c = 1%Z /\ f2_il c = 1/10 /\ f2_tau c = 1 /\ f2_pat c = [1%Z]).
  { unfold c, c0, f2_set_action, f2_pattern. cbn. unfold f2_convert, f2_next_sw. cbn.
    destruct (rlt _ _); cbn; auto. }
  destruct E as (E1 & E2 & E3 & E4). split; [|split; [exact E1|split; [exact E2|split; [exact E3|]]]].
  - split; [rewrite E1; unfold sw_ok; auto|]. rewrite E4. constructor; [unfold sw_ok; auto|constructor].
  - unfold ideal_half_bridge. cbn. destruct (rltP (-1) 0); lra.
Qed.

(** ** C24: switching times *)
Theorem switching_times_schedule :
  forall k tau il ops a t, 0 <= il < tau -> Forall not_tau ops ->
  let c := fin_run (fin_new k tau il) ops in
  (0 <= a < fin_n c)%Z ->
  exists ts, snd (fin_set_action c a t) = Ok ts /\ schedule t tau ts.
Proof.
  intros k tau il ops a t Hil Hops c Ha. eapply fin_times_good; [|exact Hil|exact Ha].
  apply fin_run_times; [exact Hops|apply fin_new_times].
Qed.
Print Assumptions switching_times_schedule.

(** Refuted for an interlocking time of at least one sampling period: the half
    bridge then announces times that are not increasing. *)
Theorem switching_times_long_interlock_refuted :
  forall tau il t i, 0 < tau <= il ->
  let c := fst (f2_convert (fst (f2_set_action (f2_new tau il) 1 t)) [i] t) in
  exists ts, snd (f2_set_action c 2 (t + tau)) = Ok ts /\ ~ schedule (t + tau) tau ts.
Proof.
  intros tau il t i H c.
  assert (E : f2_sw c = 1%Z /\ f2_il c = il /\ f2_tau c = tau).
  { unfold c, f2_set_action, f2_pattern. cbn. unfold f2_convert, f2_next_sw. cbn.
    destruct (rlt _ _); cbn; auto. }
  destruct E as (E1 & E2 & E3). eexists. split.
  - unfold f2_set_action. cbn [discrete_contains]. change (discrete_contains 3 2) with true. cbv iota.
    unfold f2_pattern. cbn [f2_sw f2_il f2_start f2_tau]. rewrite E1, E2, E3.
    change (2 =? 0)%Z with false. change (1 =? 0)%Z with false. change (2 =? 1)%Z with false. cbn [orb].
    rewrite (proj2 (req_false il 0)) by lra. reflexivity.
  - intros (Hs & _). apply StronglySorted_inv in Hs. destruct Hs as [_ Hf]. apply Forall_inv in Hf. lra.
Qed.
Print Assumptions switching_times_long_interlock_refuted.

Example switching_times_example : 0 <= 1/10 < 1 /\
  (0 <= 5 < fin_n (fin_run (fin_new K6 1 (1/10)) [OpSet 2 0; OpConvert [1%R; 1%R; 1%R] 0]))%Z.
Proof.
  split; [lra|].
  destruct (fin_run_kind [OpSet 2 0; OpConvert [1%R; 1%R; 1%R] 0] (fin_new K6 1 (1/10))) as (-> & _). cbn. lia.
Qed.

(** ** C25: power balance *)
(** Half bridge and four-quadrant converter: output power equals the power taken
    from the supply (per unit of supply voltage), in every state. *)
Theorem power_balance_finite :
  forall k tau il before a t0 after i t,
  let c0 := fin_run (fin_new k tau il) before in
  (0 <= a < fin_n c0)%Z -> length i = fin_dim c0 ->
  (k = K1 -> forall x, In x i -> 0 <= x) ->
  (k = K6 -> rsum i = 0) ->
  let c := fin_run (fst (fin_set_action c0 a t0)) after in
  exists u, snd (fin_convert c i t) = Ok u /\ fin_i_sup (fst (fin_convert c i t)) i = Ok (power u i).
Proof.
  intros k tau il before a t0 after i t c0 Ha Hi H1 H6 c.
  pose proof (fin_run_ok before _ (fin_new_ok k tau il)) as Hok. fold c0 in Hok.
  pose proof (fin_run_pat after _ (fin_set_valid_pat c0 a t0 Ha)) as Hp. fold c in Hp.
  pose proof (fin_run_ok after _ (fin_step_ok c0 (OpSet a t0) Hok)) as Hok'. cbn [fin_step] in Hok'. fold c in Hok'.
  assert (Hkind : match k, c with K1, F1 _ | K2, F2 _ | K4, F4 _ | K6, F6 _ => True | _, _ => False end).
  { assert (Hn : fin_n c = fin_n (fin_new k tau il)).
    { unfold c. rewrite (proj1 (fin_run_kind after _)).
      pose proof (proj1 (fin_step_kind c0 (OpSet a t0))) as Ek. cbn [fin_step] in Ek. rewrite Ek.
      apply (proj1 (fin_run_kind before _)). }
    destruct k, c; cbn in Hn; try discriminate; exact I. }
  assert (Hd : fin_dim c = fin_dim c0).
  { unfold c. rewrite (proj1 (proj2 (fin_run_kind after _))). apply (proj1 (proj2 (fin_step_kind c0 (OpSet a t0)))). }
  destruct (fin_convert_def c i t Hok' Hp ltac:(congruence)) as (c' & E & Hl & Hn' & Hd' & Hf1).
  pose proof (fin_step_ok c (OpConvert i t) Hok') as Hok2. cbn [fin_step] in Hok2.
  rewrite E in *. cbn [fst snd] in *. exists (ideal_out c' i). split; [reflexivity|].
  assert (Hi' : length i = fin_dim c') by congruence. clear - Hkind Hn' Hi' Hok2 H1 H6.
  destruct k, c; try contradiction; destruct c' as [q|q|q|q]; cbn in Hn'; try discriminate; cbn [fin_dim] in Hi'.
  - destruct i as [|i0 [|]]; try discriminate. specialize (H1 eq_refl i0 (or_introl eq_refl)).
    cbn in *. unfold f1_i_sup, power. cbn. destruct (rleP 0 i0); [|lra].
    destruct Hok2 as [-> | ->]; cbn; f_equal; ring.
  - destruct i as [|i0 [|]]; try discriminate. cbn [fin_ok legs] in Hok2. split_fa.
    cbn [fin_i_sup]. rewrite f2_i_sup_val by (match goal with X : f2_ok _ |- _ => apply X end).
    unfold power. cbn. f_equal. ring.
  - destruct i as [|i0 [|]]; try discriminate. cbn [fin_ok legs] in Hok2. split_fa.
    cbn [fin_i_sup]. unfold f4_i_sup. rewrite f2_i_sup_val by (match goal with X : f2_ok (f4_a _) |- _ => apply X end).
    cbn [bind head_r]. rewrite f2_i_sup_val by (match goal with X : f2_ok (f4_b _) |- _ => apply X end).
    unfold power. cbn. f_equal. ring.
  - destruct i as [|i0 [|i1 [|i2 [|]]]]; try discriminate. specialize (H6 eq_refl). cbn in H6.
    cbn [fin_ok legs] in Hok2. split_fa. cbn [fin_i_sup]. unfold f6_i_sup.
    rewrite f2_i_sup_val by (match goal with X : f2_ok (f6_a _) |- _ => apply X end). cbn [bind].
    rewrite f2_i_sup_val by (match goal with X : f2_ok (f6_b _) |- _ => apply X end). cbn [bind].
    rewrite f2_i_sup_val by (match goal with X : f2_ok (f6_c _) |- _ => apply X end). cbn [bind].
    unfold power. cbn [map2 rsum ideal_out]. f_equal.
    assert (Hi2 : i2 = - i0 - i1) by lra. rewrite Hi2. field.
Qed.
Print Assumptions power_balance_finite.

(** A reachable B6 state and zero-sum currents. *)
Example power_balance_example :
  (0 <= 3 < fin_n (fin_run (fin_new K6 1 0) [OpReset]))%Z /\ rsum [1; 2; -3] = 0.
Proof. split; [cbn; lia|cbn; lra]. Qed.

(** The one-quadrant converter with a negative current: with action 0 it puts out
    full voltage (the diode conducts) but takes no supply current. *)
Theorem one_quadrant_power_refuted :
  forall tau il t i0, i0 < 0 ->
  let c := fst (f1_set_action (f1_new tau il) 0 t) in
  snd (f1_convert c [i0] t) = Ok [1] /\ f1_i_sup c [i0] = Ok 0 /\ power [1] [i0] <> 0.
Proof.
  intros tau il t i0 H c. unfold c, f1_convert, f1_i_sup, power. cbn. destruct (rleP 0 i0); [lra|].
  repeat split. lra.
Qed.
Print Assumptions one_quadrant_power_refuted.

(** Continuous converters without interlocking (1QC for non-negative currents,
    B6 for currents that sum to zero). *)
Theorem power_balance_continuous :
  forall k tau ops i t u,
  let c := con_run (con_new k tau 0) ops in
  con_convert c i t = Ok u -> length i = con_dim c ->
  (k = KC1 -> forall x, In x i -> 0 <= x) -> (k = KC6 -> rsum i = 0) ->
  con_i_sup c i = Ok (power u i).
Proof.
  intros k tau ops i t u c E Hl H1 H6.
  pose proof (con_run_ok ops _ (con_new_ok k tau 0)) as Hok. fold c in Hok.
  pose proof (con_run_il 0 ops _ (con_new_il k tau 0)) as Hil. fold c in Hil.
  assert (Hkind : match k, c with KC1, C1 _ | KC2, C2 _ | KC4, C4 _ | KC6, C6 _ => True | _, _ => False end).
  { pose proof (con_run_kind ops (con_new k tau 0)) as Hk. fold c in Hk. destruct k, c; cbn in Hk; tauto. }
  clearbody c. destruct k, c as [q|q|q|q]; try contradiction; cbn [con_dim con_ok con_il con_convert con_i_sup] in *.
  - destruct i as [|i0 [|]]; try discriminate. specialize (H1 eq_refl i0 (or_introl eq_refl)).
    cbn in E. injection E as <-. cbn. unfold c1_i_sup, c1_convert, power. cbn. destruct (rleP 0 i0); [|lra].
    rewrite Rmax_left by (unfold cq_ok in Hok; lra). rewrite Rmin_left by (unfold cq_ok in Hok; lra). f_equal. ring.
  - destruct i as [|i0 [|]]; try discriminate. cbn in E. injection E as <-. cbn.
    rewrite c2_no_interlock, c2_i_sup_no_interlock by assumption. unfold power. cbn. f_equal. ring.
  - destruct i as [|i0 [|]]; try discriminate. cbn in E. injection E as <-. cbn.
    destruct Hok, Hil. rewrite !c2_no_interlock, !c2_i_sup_no_interlock by assumption. unfold power. cbn. f_equal. ring.
  - destruct i as [|i0 [|i1 [|i2 [|]]]]; try discriminate. cbn in E. injection E as <-. cbn [map2 rsum].
    destruct Hok as (? & ? & ?), Hil as (? & ? & ?).
    rewrite !c2_no_interlock, !c2_i_sup_no_interlock by assumption. unfold power. cbn [map2 rsum].
    specialize (H6 eq_refl). cbn in H6. assert (Hi2 : i2 = - i0 - i1) by lra. rewrite Hi2. f_equal. field.
Qed.
Print Assumptions power_balance_continuous.

Example power_balance_continuous_example :
  con_convert (con_run (con_new KC4 1 0) [CopSet [1/2] 0]) [3] 0 = Ok [1/2] /\
  con_i_sup (con_run (con_new KC4 1 0) [CopSet [1/2] 0]) [3] = Ok (3/2).
Proof.
  assert (H : forall x, 0 <= x <= 1 -> Rmin (Rmax x 0) 1 = x).
  { intros x Hx. rewrite Rmax_left by lra. now apply Rmin_left. }
  cbn. unfold c2_i_sup, c2_convert, interlock. cbn.
  rewrite (H (/2 * (1/2 + 1))) by lra. rewrite (H (- /2 * (1/2 - 1))) by lra.
  split; f_equal.
  - f_equal. rewrite !H by (unfold Rdiv; lra). lra.
  - destruct (rltP 3 0), (rltP (-3) 0); lra.
Qed.

(** With interlocking the balance fails already for the half bridge. *)
Theorem power_balance_interlocking_refuted :
  forall tau il a i0, 0 < tau -> 0 < il < tau -> il / tau < a < 1 -> 0 < i0 ->
  let c := {| cq_tau := tau; cq_il := il; cq_act := a |} in
  c2_convert c i0 * i0 <> c2_i_sup c i0.
Proof.
  intros tau il a i0 Htau Hil Ha Hi c. unfold c2_convert, interlock, c2_i_sup, c. cbn.
  rewrite np_sign_pos by exact Hi.
  assert (Hd : 1 / tau * il = il / tau) by (field; lra). rewrite Hd.
  assert (H0 : 0 < il / tau) by (apply Rdiv_lt_0_compat; lra).
  rewrite Rmax_left by lra. rewrite Rmin_left by lra.
  destruct (rltP i0 0); [lra|]. intros E.
  assert (E' : a - il / tau = a + il / tau * (0 - a)) by (apply (Rmult_eq_reg_r i0); [exact E|lra]).
  nra.
Qed.
Print Assumptions power_balance_interlocking_refuted.
(** The 1QC with negative current again. *)
Theorem cont_one_quadrant_power_refuted :
  forall tau il a i0, 0 <= a < 1 -> i0 < 0 ->
  let c := {| cq_tau := tau; cq_il := il; cq_act := a |} in
  c1_convert c i0 = 1 /\ c1_convert c i0 * i0 <> c1_i_sup c i0.
Proof.
  intros tau il a i0 Ha Hi c. unfold c1_convert, c1_i_sup, c. cbn. destruct (rleP 0 i0); [lra|].
  rewrite Rmax_left by lra. rewrite Rmin_left by lra. split; [lra|nra].
Qed.
Print Assumptions cont_one_quadrant_power_refuted.

(** ** C26: continuous converters *)
Theorem continuous_voltage_in_space :
  forall k tau il ops i t u,
  con_convert (con_run (con_new k tau il) ops) i t = Ok u ->
  in_box (con_u_low (con_new k tau il)) (con_u_high (con_new k tau il)) u.
Proof.
  intros k tau il ops i t u E.
  pose proof (con_run_kind ops (con_new k tau il)) as Hk.
  apply con_convert_box in E. destruct k, (con_run (con_new _ tau il) ops); cbn in *; tauto.
Qed.
Print Assumptions continuous_voltage_in_space.

(** Without interlocking the output is the clipped action (1QC, 2QC: [0, 1];
    4QC: [-1, 1]), for the B6 half of it in each phase.  For a negative current
    the 1QC puts out 1. *)
Theorem continuous_output_is_clipped_action :
  forall k tau ops a t i t',
  let c0 := con_run (con_new k tau 0) ops in
  length a = con_dim c0 -> length i = con_dim c0 ->
  (k = KC1 -> forall x, In x i -> 0 <= x) ->
  let c := fst (con_set_action c0 a t) in
  con_convert c i t' = Ok (match k with
    | KC1 | KC2 => map (fun x => clipped x 0 1) a
    | KC4 => map (fun x => clipped x (-1) 1) a
    | KC6 => map (fun x => clipped x (-1) 1 / 2) a end).
Proof.
  intros k tau ops a t i t' c0 Ha Hi H1 c.
  pose proof (con_run_il 0 ops _ (con_new_il k tau 0)) as Hil. fold c0 in Hil.
  assert (Hkind : match k, c0 with KC1, C1 _ | KC2, C2 _ | KC4, C4 _ | KC6, C6 _ => True | _, _ => False end).
  { pose proof (con_run_kind ops (con_new k tau 0)) as Hk. fold c0 in Hk. destruct k, c0; cbn in Hk; tauto. }
  unfold c. clearbody c0. clear c.
  assert (H2 : forall q x j, cq_il q = 0 -> c2_convert {| cq_tau := cq_tau q; cq_il := cq_il q; cq_act := Rmin (Rmax x 0) 1 |} j
                             = Rmin (Rmax x 0) 1).
  { intros q x j Hq. rewrite c2_no_interlock; [reflexivity|exact Hq|apply clip01]. }
  assert (Hh : forall x, Rmin (Rmax (/2 * (x + 1)) 0) 1 = (clipped x (-1) 1 + 1) / 2).
  { intros x. rewrite clipped_eq by lra. unfold clipped.
    destruct (rltP (/2 * (x + 1)) 0), (rltP 1 (/2 * (x + 1))), (rltP x (-1)), (rltP 1 x); lra. }
  destruct k, c0 as [q|q|q|q]; try contradiction; cbn [con_dim con_il con_set_action lift fst con_convert] in *.
  - destruct i as [|i0 [|]]; try discriminate. destruct a as [|x [|]]; try discriminate.
    specialize (H1 eq_refl i0 (or_introl eq_refl)). cbn. unfold c1_convert. cbn. destruct (rleP 0 i0); [|lra].
    rewrite <- clipped_eq by lra. pose proof (clip01 x). rewrite Rminus_0_r.
    rewrite (Rmax_left (Rmin _ _)) by lra. now rewrite (Rmin_left (Rmin _ _)) by lra.
  - destruct i as [|i0 [|]]; try discriminate. destruct a as [|x [|]]; try discriminate. cbn.
    rewrite H2 by exact Hil. now rewrite clipped_eq by lra.
  - destruct i as [|i0 [|]]; try discriminate. destruct a as [|x [|]]; try discriminate. destruct Hil as [Hp Hn].
    cbn. rewrite !H2 by assumption. do 2 f_equal. rewrite Hh.
    rewrite clipped_eq by lra. unfold clipped.
    destruct (rltP (- / 2 * (x - 1)) 0), (rltP 1 (- / 2 * (x - 1))), (rltP x (-1)), (rltP 1 x); lra.
  - destruct i as [|i0 [|i1 [|i2 [|]]]]; try discriminate. destruct a as [|x [|y [|z [|]]]]; try discriminate.
    destruct Hil as (Hp & Hn & Hm). cbn. rewrite !H2 by assumption. rewrite !Hh. do 2 f_equal; [field|]. f_equal; [field|]. f_equal. field.
Qed.
Print Assumptions continuous_output_is_clipped_action.

Example continuous_action_example : clipped (3/2) (-1) 1 = 1 /\ clipped (-1/4) (-1) 1 = -1/4.
Proof. unfold clipped. destruct (rltP (3/2) (-1)), (rltP 1 (3/2)), (rltP (-1/4) (-1)), (rltP 1 (-1/4)); split; lra. Qed.

(** A larger action never lowers an output voltage (with any interlocking time,
    for the same state before and the same currents). *)
Theorem continuous_output_monotone :
  forall c a b i t t' u v,
  Forall2 Rle a b ->
  con_convert (fst (con_set_action c a t)) i t' = Ok u ->
  con_convert (fst (con_set_action c b t)) i t' = Ok v ->
  length a = con_dim c -> Forall2 Rle u v.
Proof.
  assert (Hm : forall x y, x <= y -> Rmin (Rmax x 0) 1 <= Rmin (Rmax y 0) 1).
  { intros x y H. unfold Rmin, Rmax. repeat destruct (Rle_dec _ _); lra. }
  assert (H2 : forall q x y j, x <= y ->
    c2_convert {| cq_tau := cq_tau q; cq_il := cq_il q; cq_act := Rmin (Rmax x 0) 1 |} j <=
    c2_convert {| cq_tau := cq_tau q; cq_il := cq_il q; cq_act := Rmin (Rmax y 0) 1 |} j).
  { intros q x y j H. unfold c2_convert, interlock. cbn. apply Hm. pose proof (Hm x y H). lra. }
  intros c a b i t t' u v Hab Eu Ev Hl. destruct c as [q|q|q|q]; cbn [con_dim] in Hl.
  - destruct a as [|x [|]]; try discriminate. inversion Hab as [|? y ? b' Hxy Hb]; subst. inversion Hb; subst.
    destruct i as [|i0 i]; [discriminate|]. cbn in Eu, Ev. injection Eu as <-. injection Ev as <-. f2a.
    unfold c1_convert. cbn. apply Hm. destruct (rle 0 i0); [|lra]. pose proof (Hm x y Hxy). lra.
  - destruct a as [|x [|]]; try discriminate. inversion Hab as [|? y ? b' Hxy Hb]; subst. inversion Hb; subst.
    destruct i as [|i0 i]; [discriminate|]. cbn in Eu, Ev. injection Eu as <-. injection Ev as <-. f2a. now apply H2.
  - destruct a as [|x [|]]; try discriminate. inversion Hab as [|? y ? b' Hxy Hb]; subst. inversion Hb; subst.
    destruct i as [|i0 i]; [discriminate|]. cbn in Eu, Ev. injection Eu as <-. injection Ev as <-. f2a.
    pose proof (H2 (c4_a q) (/2 * (x + 1)) (/2 * (y + 1)) i0 ltac:(lra)).
    pose proof (H2 (c4_b q) (- /2 * (y - 1)) (- /2 * (x - 1)) i0 ltac:(lra)). lra.
  - destruct a as [|x0 [|x1 [|x2 [|]]]]; try discriminate.
    inversion Hab as [|? y0 ? b' H0 Hb]; subst. inversion Hb as [|? y1 ? b'' H1 Hb']; subst.
    inversion Hb' as [|? y2 ? b3 H3 Hb'']; subst. inversion Hb''; subst.
    destruct i as [|i0 [|i1 [|i2 i]]]; try discriminate. cbn in Eu, Ev. injection Eu as <-. injection Ev as <-.
    pose proof (H2 (c6_a q) (/2 * (x0 + 1)) (/2 * (y0 + 1)) i0 ltac:(lra)).
    pose proof (H2 (c6_b q) (/2 * (x1 + 1)) (/2 * (y1 + 1)) i1 ltac:(lra)).
    pose proof (H2 (c6_c q) (/2 * (x2 + 1)) (/2 * (y2 + 1)) i2 ltac:(lra)).
    f2a; lra.
Qed.
Print Assumptions continuous_output_monotone.

(** ** C27: action tables *)
Local Ltac eval_subs :=
  repeat match goal with
  | |- context [f4_action0 ?z] => let x := eval vm_compute in (f4_action0 z) in change (f4_action0 z) with x
  | |- context [f4_action1 ?z] => let x := eval vm_compute in (f4_action1 z) in change (f4_action1 z) with x
  | |- context [f6_sub ?z ?k] => let x := eval vm_compute in (f6_sub z k) in change (f6_sub z k) with x
  end.
Theorem finite_action_table :
  forall k tau ops a t i t',
  let c := fin_run (fin_new k tau 0) ops in
  (0 <= a < fin_n c)%Z -> length i = fin_dim c ->
  snd (fin_convert (fst (fin_set_action c a t)) i t') = Ok (table_output k a i).
Proof.
  intros k tau ops a t i t' c Ha Hi.
  pose proof (fin_run_ok ops _ (fin_new_ok k tau 0)) as Hok. fold c in Hok.
  assert (Hil : Forall (fun l => f2_il l = 0) (legs c)).
  { unfold c. apply fin_run_legs.
    - intros l b s H. unfold f2_set_action. destruct (discrete_contains 3 b); [|exact H].
      destruct (f2_pattern _ b). exact H.
    - intros l j s H. unfold f2_convert. destruct (f2_next_sw l s); exact H.
    - intros l H. exact H.
    - intros l v H. exact H.
    - destruct k; cbn; fa; reflexivity. }
  assert (Hkind : match k, c with K1, F1 _ | K2, F2 _ | K4, F4 _ | K6, F6 _ => True | _, _ => False end).
  { assert (Hn : fin_n c = fin_n (fin_new k tau 0)) by apply (proj1 (fin_run_kind ops _)).
    destruct k, c; cbn in Hn; try discriminate; exact I. }
  clearbody c.
  assert (Hleg : forall l b j, f2_ok l -> f2_il l = 0 -> (0 <= b < 3)%Z ->
    snd (f2_convert (leg_set t l b) (j :: []) t') = Ok [ideal_half_bridge b j] /\ f2_sw (leg_conv t' (leg_set t l b)) = b).
  { intros l b j Hl Hl0 Hb. unfold leg_set. destruct (f2_set_valid l b t Hb) as (l' & ts & E & Hp & _ & _ & _ & _ & _).
    rewrite E. cbn [fst]. rewrite Hl0 in Hp. unfold f2_pattern in Hp. cbn [f2_il f2_sw f2_start f2_tau] in Hp.
    rewrite (proj2 (req_true 0 0) eq_refl), orb_true_r in Hp. cbn [fst] in Hp.
    assert (Hb' : sw_ok b) by (unfold sw_ok; lia).
    assert (Hn : f2_next_sw l' t' = Ok b).
    { unfold f2_next_sw. rewrite Hp. cbn [last]. destruct (rlt _ _); reflexivity. }
    unfold leg_conv, f2_convert. rewrite Hn. cbn [snd fst f2_sw]. split; [now apply f2_out_val|reflexivity]. }
  pose proof (fin_set_valid_pat c a t Ha) as Hp.
  pose proof (fin_step_ok c (OpSet a t) Hok) as Hok'. cbn [fin_step] in Hok'.
  destruct (fin_set_valid c a t Ha) as (c' & ts & E & Hl & Hn & Hd & Hf). rewrite E in *. cbn [fst] in *.
  destruct (fin_convert_def c' i t' Hok' Hp ltac:(congruence)) as (c2 & E2 & Hl2 & Hn2 & Hd2 & HF1).
  rewrite E2. cbn [snd]. f_equal. rewrite Hl in Hl2.
  destruct k, c as [q|q|q|q]; try contradiction; cbn [fin_n fin_dim legs sub_action map2 fin_ok] in *.
  - destruct Hf as [Hf _]. rewrite (HF1 _ Hf) in *. rewrite Hf. destruct i as [|i0 [|]]; try discriminate. cbn.
    destruct (rle 0 i0); [|reflexivity]. assert (Ha' : a = 0%Z \/ a = 1%Z) by lia. destruct Ha' as [-> | ->]; reflexivity.
  - destruct c2 as [q2|q2|q2|q2]; cbn in Hn2; try congruence. destruct i as [|i0 [|]]; try discriminate.
    cbn [legs map] in Hl2. injection Hl2 as Hq. split_fa. cbn [ideal_out table_output].
    rewrite Hq. rewrite (proj2 (Hleg q a 0 ltac:(assumption) ltac:(assumption) ltac:(lia))). reflexivity.
  - destruct c2 as [q2|q2|q2|q2]; cbn in Hn2; try congruence. destruct i as [|i0 [|]]; try discriminate.
    cbn [legs map] in Hl2. injection Hl2 as Hqa Hqb. split_fa. cbn [ideal_out table_output].
    destruct (f4_sub_ok a Ha) as [Hs0 Hs1].
    rewrite Hqa, Hqb.
    rewrite (proj2 (Hleg (f4_a q) (f4_action0 a) 0 ltac:(assumption) ltac:(assumption) ltac:(lia))).
    rewrite (proj2 (Hleg (f4_b q) (f4_action1 a) 0 ltac:(assumption) ltac:(assumption) ltac:(lia))).
    assert (Ha' : (a = 0 \/ a = 1 \/ a = 2 \/ a = 3)%Z) by lia.
    destruct Ha' as [-> | [-> | [-> | ->]]]; eval_subs; unfold ideal_half_bridge; cbn; f_equal; lra.
  - destruct c2 as [q2|q2|q2|q2]; cbn in Hn2; try congruence. destruct i as [|i0 [|i1 [|i2 [|]]]]; try discriminate.
    cbn [legs map] in Hl2. injection Hl2 as Hqa Hqb Hqc. split_fa. cbn [ideal_out table_output].
    pose proof (f6_sub_ok a 0 Ha ltac:(lia)). pose proof (f6_sub_ok a 1 Ha ltac:(lia)). pose proof (f6_sub_ok a 2 Ha ltac:(lia)).
    rewrite Hqa, Hqb, Hqc.
    rewrite (proj2 (Hleg (f6_a q) (f6_sub a 0) 0 ltac:(assumption) ltac:(assumption) ltac:(lia))).
    rewrite (proj2 (Hleg (f6_b q) (f6_sub a 1) 0 ltac:(assumption) ltac:(assumption) ltac:(lia))).
    rewrite (proj2 (Hleg (f6_c q) (f6_sub a 2) 0 ltac:(assumption) ltac:(assumption) ltac:(lia))).
    assert (Ha' : (a = 0 \/ a = 1 \/ a = 2 \/ a = 3 \/ a = 4 \/ a = 5 \/ a = 6 \/ a = 7)%Z) by lia.
    destruct Ha' as [-> | [-> | [-> | [-> | [-> | [-> | [-> | ->]]]]]]]; eval_subs; unfold ideal_half_bridge; cbn;
      f_equal; try lra; f_equal; try lra; f_equal; lra.
Qed.
Print Assumptions finite_action_table.

Example finite_action_table_example :
  table_output K6 5 [1; 1; 1] = [/2; -/2; /2] /\ table_output K4 2 [1] = [-1].
Proof. split; reflexivity. Qed.

(** The docstring of the 4QC (317-321) has action 0 switch both lower and action 3
    both upper transistors; the code does the opposite (same output voltage). *)
Theorem four_quadrant_zero_states_swapped_refuted :
  forall tau t i0,
  let on a := leg_states (fst (fin_convert (fst (fin_set_action (fin_new K4 tau 0) a t)) [i0] t)) in
  on 0%Z = [1; 1]%Z /\ on 3%Z = [2; 2]%Z.
Proof.
  intros tau t i0 on. unfold on, leg_states, fin_convert, fin_set_action, lift, fin_new, f4_new, f4_set_action, f2_set_action, f2_pattern.
  change (discrete_contains 4 0) with true. change (discrete_contains 4 3) with true. cbv iota.
  change (discrete_contains 3 (f4_action0 0)) with true. change (discrete_contains 3 (f4_action1 0)) with true.
  change (discrete_contains 3 (f4_action0 3)) with true. change (discrete_contains 3 (f4_action1 3)) with true.
  cbv iota. change (f4_action0 0) with 1%Z. change (f4_action1 0) with 1%Z.
  change (f4_action0 3) with 2%Z. change (f4_action1 3) with 2%Z.
  cbn. unfold f4_convert, f2_convert, f2_next_sw. cbn. destruct (rlt _ _); cbn; auto.
Qed.
Print Assumptions four_quadrant_zero_states_swapped_refuted.

(** ** C28: multi converters act like their parts *)
Theorem multi_convert_pointwise :
  forall cs i t us,
  Forall2 (fun ci u => snd (fin_convert (fst ci) (snd ci) t) = Ok u) (combine cs (slices (map fin_dim cs) i)) us ->
  fm_convert cs i t = (map (fun ci => fst (fin_convert (fst ci) (snd ci) t)) (combine cs (slices (map fin_dim cs) i)),
                       Ok (concat us)).
Proof. apply fm_convert_pointwise. Qed.
Print Assumptions multi_convert_pointwise.

Theorem multi_set_action_pointwise :
  forall cs a t, fm_contains cs a ->
  exists tss ts, Forall2 (fun ca ts => snd (fin_set_action (fst ca) (snd ca) t) = Ok ts) (combine cs a) tss /\
    fm_set_action cs a t = (map (fun ca => fst (fin_set_action (fst ca) (snd ca) t)) (combine cs a), Ok ts) /\
    StronglySorted Rlt ts /\ forall x, In x ts <-> In x (concat tss).
Proof.
  intros cs a t H.
  assert (Ht : exists tss, Forall2 (fun ca ts => snd (fin_set_action (fst ca) (snd ca) t) = Ok ts) (combine cs a) tss).
  { induction H as [|c x cs a Hx _ [tss IH]]; [exists []; constructor|].
    destruct (fin_set_valid c x t Hx) as (c' & ts & E & _). exists (ts :: tss). constructor; [|exact IH].
    cbn [fst snd]. now rewrite E. }
  destruct Ht as [tss Ht]. exists tss, (sort_set (concat tss)). split; [exact Ht|].
  split; [|split; [apply sort_set_sorted|intros x; apply sort_set_in]].
  unfold fm_set_action. rewrite (fm_set_pointwise cs a t tss); [reflexivity| |exact Ht].
  clear - H. induction H as [|? ? ? ? _ _ IH]; [reflexivity|]. cbn. now rewrite IH.
Qed.
Print Assumptions multi_set_action_pointwise.

Theorem multi_supply_current_is_sum :
  forall cs i xs,
  Forall2 (fun ci x => fin_i_sup (fst ci) (snd ci) = Ok x) (combine cs (slices (map fin_dim cs) i)) xs ->
  fm_i_sup cs i = Ok (rsum xs).
Proof. apply fm_i_sup_pointwise. Qed.
Print Assumptions multi_supply_current_is_sum.

Theorem multi_continuous_pointwise :
  forall cs i t us xs,
  Forall2 (fun ci u => con_convert (fst ci) (snd ci) t = Ok u) (combine cs (slices (map con_dim cs) i)) us ->
  Forall2 (fun ci x => con_i_sup (fst ci) (snd ci) = Ok x) (combine cs (slices (map con_dim cs) i)) xs ->
  cm_convert cs i t = Ok (concat us) /\ cm_i_sup cs i = Ok (rsum xs).
Proof.
  induction cs as [|c cs IH]; intros i t us xs Hu Hx; cbn [map slices combine] in Hu, Hx;
    inversion Hu as [|? u ? us' Hu0 Hus]; subst; inversion Hx as [|? x ? xs' Hx0 Hxs]; subst; [split; reflexivity|].
  destruct (IH _ _ _ _ Hus Hxs) as [E1 E2]. cbn [fst snd] in Hu0, Hx0. cbn [cm_convert cm_i_sup].
  rewrite Hu0, Hx0. cbn [bind]. rewrite E1, E2. split; reflexivity.
Qed.
Print Assumptions multi_continuous_pointwise.
Theorem multi_continuous_set_pointwise :
  forall cs a t tss,
  Forall2 (fun ca ts => snd (con_set_action (fst ca) (snd ca) t) = Ok ts) (combine cs (slices (map con_dim cs) a)) tss ->
  cm_set_action cs a t =
    (map (fun ca => fst (con_set_action (fst ca) (snd ca) t)) (combine cs (slices (map con_dim cs) a)),
     Ok (sort_set (concat tss))).
Proof.
  intros cs a t tss H. unfold cm_set_action.
  assert (E : cm_set_all cs a t =
    (map (fun ca => fst (con_set_action (fst ca) (snd ca) t)) (combine cs (slices (map con_dim cs) a)), Ok (concat tss))).
  { revert a tss H. induction cs as [|c cs IH]; intros a tss H; cbn [map slices combine] in H;
      inversion H as [|? ts ? tss' Ht Hts]; subst; [reflexivity|]. cbn [fst snd] in Ht.
    cbn [cm_set_all map slices combine fst snd]. destruct (con_set_action c (firstn (con_dim c) a) t) as [c' r].
    cbn [snd] in Ht. subst r. rewrite (IH _ _ Hts). reflexivity. }
  rewrite E. reflexivity.
Qed.
Print Assumptions multi_continuous_set_pointwise.

Example multi_contains_example : fm_contains (fm_new [(K1, 1, 0); (K6, 1, 0)]) [1; 7]%Z.
Proof. unfold fm_contains, fm_new. cbn [map fin_new]. constructor; [cbn; lia|]. constructor; [cbn; lia|constructor]. Qed.

(** ** C77: interlocking in the continuous 4QC *)
(** Two half bridges that see opposite currents put out [x - 2 d] where
    [d = sign i * il / tau]; the code gives both the same current, so the effect
    cancels and the converter puts out [x] for every interlocking time. *)
Theorem cont_4qc_interlocking_cancels_refuted :
  forall tau il x i0 t t', 0 < tau -> 0 < il -> i0 <> 0 -> Rabs x + 2 * (il / tau) <= 1 ->
  let c := fst (con_set_action (con_new KC4 tau il) [x] t) in
  con_convert c [i0] t' = Ok [x] /\
  forall q, c = C4 q -> c2_convert (c4_a q) i0 - c2_convert (c4_b q) (- i0) = x - 2 * (np_sign i0 * (il / tau)).
Proof.
  intros tau il x i0 t t' Htau Hil Hi Hx c.
  assert (H0 : 0 < il / tau) by (apply Rdiv_lt_0_compat; lra).
  assert (Hx' : -1 <= x <= 1 /\ - (1 - 2 * (il / tau)) <= x <= 1 - 2 * (il / tau)).
  { revert Hx. unfold Rabs. destruct (Rcase_abs x); lra. }
  assert (Hsgn : np_sign i0 = 1 /\ np_sign (- i0) = -1 \/ np_sign i0 = -1 /\ np_sign (- i0) = 1).
  { destruct (Rlt_dec 0 i0); [left|right]; split.
    - now apply np_sign_pos. - apply np_sign_neg; lra. - apply np_sign_neg; lra. - apply np_sign_pos; lra. }
  assert (Hd1 : 1 / tau * il = il / tau) by (field; lra).
  assert (Hd2 : -1 / tau * il = - (il / tau)) by (field; lra).
  assert (Hc : forall y, 0 <= y <= 1 -> Rmin (Rmax y 0) 1 = y).
  { intros y Hy. rewrite Rmax_left by lra. now apply Rmin_left. }
  assert (E : c = C4 {| c4_tau := tau; c4_a := {| cq_tau := tau; cq_il := il; cq_act := /2 * (x + 1) |};
                        c4_b := {| cq_tau := tau; cq_il := il; cq_act := - /2 * (x - 1) |} |}).
  { unfold c. cbn. rewrite !Hc by lra. reflexivity. }
  rewrite E. split.
  - cbn. unfold c2_convert, interlock. cbn. do 2 f_equal.
    destruct Hsgn as [[-> _] | [-> _]]; rewrite ?Hd1, ?Hd2; rewrite !Hc by lra; lra.
  - intros q Hq. injection Hq as <-. cbn. unfold c2_convert, interlock. cbn.
    destruct Hsgn as [[-> ->] | [-> ->]]; rewrite ?Hd1, ?Hd2; rewrite !Hc by lra; lra.
Qed.
Print Assumptions cont_4qc_interlocking_cancels_refuted.
Example cont_4qc_interlocking_example : Rabs (1/2) + 2 * (1/10 / 1) <= 1.
Proof. rewrite Rabs_right by lra. lra. Qed.

(** ** C78: the drive's sampling time does not reach the half bridges *)
(** The drive sets [converter.tau] (physical_systems.py 103).  4QC and B6 bridges
    do not pass it on: the interlocking voltage of the continuous B6 is computed
    with the sampling time the converter was constructed with. *)
Theorem half_bridges_keep_their_tau_refuted :
  forall tau v il, 
  (forall q, fin_set_tau v (fin_new K4 tau il) = F4 q -> f4_tau q = v /\ f2_tau (f4_a q) = tau /\ f2_tau (f4_b q) = tau) /\
  (forall q, fin_set_tau v (fin_new K6 tau il) = F6 q ->
     f6_tau q = v /\ f2_tau (f6_a q) = tau /\ f2_tau (f6_b q) = tau /\ f2_tau (f6_c q) = tau) /\
  (forall c i t, con_convert (con_set_tau v (C6 c)) i t = con_convert (C6 c) i t) /\
  (forall c i t, con_convert (con_set_tau v (C4 c)) i t = con_convert (C4 c) i t).
Proof.
  intros tau v il. repeat split; intros; try reflexivity;
    match goal with H : _ = _ |- _ => injection H as <- end; reflexivity.
Qed.
Print Assumptions half_bridges_keep_their_tau_refuted.

(** With the default construction value 1e-4 and a drive at 1e-5 the discount is
    a tenth of the right one. *)
Example b6_interlock_discount :
  let c := {| cq_tau := 1 / 10000; cq_il := 1 / 1000000; cq_act := 1/2 |} in
  interlock c 1 = 1 / 100 /\ interlock (cq_set_tau (1 / 100000) c) 1 = 1 / 10.
Proof. cbn. unfold interlock. cbn. rewrite np_sign_pos by lra. split; lra. Qed.

(** ** C108: resets *)
(** The voltage reported at a reset: for finite converters the voltage of action 0 at
    zero current, for continuous ones what the reset converter puts out at zero current. *)
Theorem reset_voltage_is_passive :
  (forall k tau il ops, snd (fin_reset (fin_run (fin_new k tau il) ops)) = Ok (table_output k 0 (repeat 0 (fin_dim (fin_new k tau il))))) /\
  (forall c t, snd (con_reset c) = con_convert (fst (con_reset c)) (repeat 0 (con_dim c)) t).
Proof.
  split.
  - intros k tau il ops. assert (Hk : match k, fin_run (fin_new k tau il) ops with K1, F1 _ | K2, F2 _ | K4, F4 _ | K6, F6 _ => True | _, _ => False end).
    { pose proof (proj1 (fin_run_kind ops (fin_new k tau il))) as Hn. destruct k, (fin_run _ ops); cbn in Hn; try discriminate; exact I. }
    assert (E0 : rle 0 0 = true) by (apply rle_true; lra). assert (E1 : rlt 0 0 = false) by (apply rlt_false; lra).
    destruct k, (fin_run _ ops); try contradiction; cbn; rewrite ?E0, ?E1; try reflexivity. f_equal. f_equal; [lra|f_equal; [lra|f_equal; lra]].
  - intros c t. assert (Es : np_sign 0 = 0) by (unfold np_sign; destruct (rltP 0 0); [lra|reflexivity]).
    assert (E0 : rle 0 0 = true) by (apply rle_true; lra).
    assert (Hc : forall il tau, c2_convert {| cq_tau := tau; cq_il := il; cq_act := 0 |} 0 = 0).
    { intros il tau. unfold c2_convert, interlock. cbn [cq_act cq_tau cq_il]. rewrite Es. unfold Rdiv. rewrite !Rmult_0_l, Rminus_0_r, Rmax_left by lra. apply Rmin_left. lra. }
    destruct c as [q|q|q|q]; cbn; unfold cq_reset; rewrite ?Hc.
    + unfold c1_convert. cbn [cq_act]. rewrite E0, Rminus_0_r, Rmax_left by lra. rewrite Rmin_left by lra. reflexivity.
    + reflexivity.
    + f_equal. f_equal. lra.
    + reflexivity.
Qed.
Print Assumptions reset_voltage_is_passive.
Example reset_voltage_example : table_output K6 0 [0; 0; 0] = [-/2; -/2; -/2].
Proof. reflexivity. Qed.

(** Refuted: an episode starts from a defined converter state.  [reset] restores neither
    the switching state nor the switching pattern of the half bridges: after a reset the
    first action still waits for the interlocking time or not, depending on the last
    switching state of the previous episode. *)
Theorem reset_forgets_switching_refuted :
  forall tau il t, 0 < il -> 0 < tau ->
  let c0 := fin_new K2 tau il in
  let episode a := [OpSet a 0; OpConvert [1] 0; OpReset] in
  snd (fin_set_action (fin_run c0 (episode 1%Z)) 1 t) = Ok [t + tau] /\ snd (fin_set_action (fin_run c0 (episode 2%Z)) 1 t) = Ok [t + il; t + tau] /\
  snd (fin_convert (fst (fin_set_action (fin_run c0 (episode 1%Z)) 1 t)) [1] t) = Ok [1] /\
  snd (fin_convert (fst (fin_set_action (fin_run c0 (episode 2%Z)) 1 t)) [1] t) = Ok [0].
Proof.
  intros tau il t Hil Htau c0 episode.
  assert (E1 : forall x, rlt (x + il) (x - tau / 1000) = false) by (intros x; apply rlt_false; lra).
  assert (E2 : req il 0 = false) by (destruct (reqP il 0); [lra|reflexivity]). assert (E3 : rlt 1 0 = false) by (apply rlt_false; lra).
  assert (Hn : forall l z, f2_pat l = [z] -> forall x, f2_next_sw l x = Ok z) by (intros l z H x; unfold f2_next_sw; rewrite H; cbn [last]; destruct (rlt (f2_start l + f2_il l) _); reflexivity).
  assert (Hc : forall a, a = 1%Z \/ a = 2%Z -> fin_run c0 (episode a) = F2 {| f2_tau := tau; f2_il := il; f2_start := 0; f2_sw := a; f2_pat := [a] |}).
  { intros a Ha. set (l := {| f2_tau := tau; f2_il := il; f2_start := 0; f2_sw := 0; f2_pat := [a] |}).
    assert (H1 : fin_step c0 (OpSet a 0) = F2 l) by (destruct Ha as [-> | ->]; reflexivity).
    assert (H2 : fin_step (F2 l) (OpConvert [1] 0) = F2 {| f2_tau := tau; f2_il := il; f2_start := 0; f2_sw := a; f2_pat := [a] |}).
    { cbn [fin_step fin_convert]. unfold f2_convert. rewrite (Hn l a eq_refl). reflexivity. }
    unfold fin_run, episode. cbn [fold_left]. rewrite H1, H2. reflexivity. }
  rewrite !Hc by auto. cbn [fin_set_action]. unfold f2_set_action, f2_pattern. cbn [discrete_contains Z.leb Z.ltb Z.compare Pos.compare Pos.compare_cont andb f2_tau f2_il f2_start f2_sw f2_pat Z.eqb Pos.eqb orb]. rewrite E2.
  cbn [lift fst snd]. split; [reflexivity|]. split; [reflexivity|]. cbn [fin_convert]. unfold f2_convert. rewrite (Hn {| f2_tau := tau; f2_il := il; f2_start := t; f2_sw := 1; f2_pat := [1%Z] |} 1%Z eq_refl).
  split; [reflexivity|]. unfold f2_next_sw. cbn [f2_pat f2_start f2_il f2_tau]. rewrite E1. unfold f2_out. cbn -[rlt]. rewrite E3. reflexivity.
Qed.
Print Assumptions reset_forgets_switching_refuted.
