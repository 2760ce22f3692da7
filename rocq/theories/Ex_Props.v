(** Properties of the example controllers (examples/classic_controllers): theorems and
    examples showing that their hypotheses can be met. *)
From Verif Require Import PyBase PyBaseFacts PyDict PyDictFacts Transform_Model PhysSys_Model Motor_Model Ex_Model Ex_Model2 Ex_Spec Ex_Proofs Ex_Proofs2 Ex_Proofs3 Ex_Proofs4.
Local Open Scope string_scope.
Local Open Scope list_scope.
Local Open Scope R_scope.

(** ** C145: two-point controller *)
(** Whatever happened before, the output depends on the present error only (unless the error
    is exactly the hysteresis), ... *)
Theorem on_off_memoryless :
  forall c h1 h2 s r, r - s <> oo_h c ->
  snd (oo_control (oo_run c h1) s r) = snd (oo_control (oo_run c h2) s r) /\
  snd (oo_control (oo_run c h1) s r) = if Rlt_dec (oo_h c) (r - s) then oo_on c else oo_off c.
Proof.
  intros c h1 h2 s r H. destruct (oo_run_par c h1) as (A1 & A2 & A3). destruct (oo_run_par c h2) as (B1 & B2 & B3).
  rewrite (oo_memoryless (oo_run c h1)) by (rewrite A1; exact H). rewrite (oo_memoryless (oo_run c h2)) by (rewrite B1; exact H). rewrite A1, A2, A3, B1, B2, B3. auto.
Qed.
Print Assumptions on_off_memoryless.
(** ... so there is no band in which the switching state is kept: after a call that switched
    on, every error inside (-h, h) switches off. *)
Theorem on_off_hysteresis_refuted :
  forall c s r s' r', 0 < oo_h c -> oo_on c <> oo_off c -> oo_h c < r - s -> Rabs (r' - s') < oo_h c ->
  let (c1, a1) := oo_control c s r in let (c2, a2) := oo_control c1 s' r' in a1 = oo_on c /\ a2 = oo_off c /\ a2 <> a1.
Proof.
  intros c s r s' r' H N A B. apply Rabs_def2 in B. pose proof (oo_memoryless c s r ltac:(lra)) as E1. destruct (oo_control c s r) as [c1 a1] eqn:Q1. cbn [snd] in E1.
  assert (P : oo_h c1 = oo_h c /\ oo_on c1 = oo_on c /\ oo_off c1 = oo_off c) by (unfold oo_control in Q1; injection Q1 as <- _; auto). destruct P as (P1 & P2 & P3).
  pose proof (oo_memoryless c1 s' r' ltac:(rewrite P1; lra)) as E2. destruct (oo_control c1 s' r') as [c2 a2]. cbn [snd] in E2. rewrite P1, P2, P3 in E2.
  destruct (Rlt_dec (oo_h c) (r - s)); [|lra]. destruct (Rlt_dec (oo_h c) (r' - s')); [lra|]. subst. split; [reflexivity|]. split; [reflexivity|]. congruence.
Qed.
Print Assumptions on_off_hysteresis_refuted.
Example on_off_example : exists c, 0 < oo_h c /\ oo_on c <> oo_off c /\ oo_h c < 1 - 0 /\ Rabs (0 - 0) < oo_h c.
Proof. exists {| oo_h := 2 / 100; oo_on := 1; oo_off := 0; oo_action := 1 |}. cbn. rewrite (Rminus_0_r 0), Rabs_R0. repeat split; try lra. discriminate. Qed.

(** ** C146: three-point controller *)
Theorem three_point_hysteresis :
  forall c l s r, 0 <= tp_pos c -> 0 <= tp_neg c -> 0 <= tp_nfp c -> 0 <= tp_nfn c -> tp_neutral c = 0%Z ->
  let out := snd (tp_control (tp_run (tp_reset c) (controls l)) s r) in
  let errors := map err l ++ [r - s] in
  (above_since (tp_pos c) (tp_nfp c) errors -> out = tp_positive c) /\
  (below_since (tp_neg c) (tp_nfn c) errors -> out = tp_negative c) /\
  (~ above_since (tp_pos c) (tp_nfp c) errors -> ~ below_since (tp_neg c) (tp_nfn c) errors -> out = tp_neutral c).
Proof.
  intros c l s r P1 P2 P3 P4 N. cbv zeta. pose proof (tp_recent_is c P1 P2 P3 P4 (l ++ [(s, r)]) N) as K. cbv zeta in K. unfold controls in K. rewrite !map_app, tp_run_app in K. fold (controls l) in K.
  change (map err [(s, r)]) with [r - s] in K. cbn [map tp_run fst snd] in K. set (c0 := tp_run (tp_reset c) (controls l)) in *.
  pose proof (tp_run_same (tp_reset c) (controls l)) as Sm. fold c0 in Sm. destruct Sm as (_ & _ & _ & _ & S5 & S6 & S7). cbn in S5, S6, S7.
  pose proof (tp_output c0 s r) as O. destruct (tp_control c0 s r) as [c1 a]. cbn [fst snd] in *. destruct O as [_ O]. rewrite S5, S6, S7 in O. destruct K as [K1 K2]. subst a.
  pose proof (since_disjoint c (map err l ++ [r - s]) P1 P2 P3 P4) as D.
  destruct (Z.eqb_spec (tp_recent c1) 1) as [E1|E1]; [|destruct (Z.eqb_spec (tp_recent c1) 2) as [E2|E2]]; tauto.
Qed.
Print Assumptions three_point_hysteresis.
(** With a neutral level below the switching level there is a band where the output is kept: the
    same error gives three outputs, depending on the past. *)
Example three_point_example : exists c, 0 < tp_nfp c < tp_pos c /\
  snd (tp_control (tp_run (tp_reset c) (controls [(0, 1)])) 0 (15 / 1000)) = tp_positive c /\
  snd (tp_control (tp_run (tp_reset c) (controls [(0, 0)])) 0 (15 / 1000)) = tp_neutral c /\ tp_positive c <> tp_neutral c.
Proof.
  exists {| tp_pos := 2 / 100; tp_neg := 2 / 100; tp_nfp := 1 / 100; tp_nfn := 1 / 100; tp_negative := 2; tp_positive := 1; tp_neutral := 0; tp_action := 0; tp_recent := 0 |}.
  split; [cbn; lra|]. set (c := {| tp_pos := 2 / 100 |}).
  assert (A : forall x, above_since (2 / 100) (1 / 100) [x; 15 / 1000] <-> 2 / 100 < x).
  { intros x. change [x; 15 / 1000] with ([x] ++ [15 / 1000]). rewrite above_snoc. change [x] with ([] ++ [x]). rewrite above_snoc. split; [intros [B|[_ [B|[_ B]]]]; [lra|exact B|destruct (above_nil _ _ B)]|intros B; right; split; [lra|left; exact B]]. }
  assert (B : forall x, 0 <= x -> ~ below_since (2 / 100) (1 / 100) [x; 15 / 1000]).
  { intros x X. unfold below_since. cbn [map]. change [- x; - (15 / 1000)] with ([- x] ++ [- (15 / 1000)]). rewrite above_snoc. intros [C|[C _]]; lra. }
  destruct (three_point_hysteresis c [(0, 1)] 0 (15 / 1000)) as (T1 & _); try (cbn; lra); [reflexivity|]. destruct (three_point_hysteresis c [(0, 0)] 0 (15 / 1000)) as (_ & _ & T2); try (cbn; lra); [reflexivity|].
  unfold err in T1, T2. cbn [map app fst snd c tp_pos tp_nfp tp_neg tp_nfn] in T1, T2. rewrite !Rminus_0_r in T1, T2. split; [apply T1, A; lra|]. split; [apply T2; [rewrite A; lra|apply B; lra]|discriminate].
Qed.

(** ** C147: continuous action controller *)
Theorem continuous_action_bounded :
  forall c h x, ca_low c <= ca_high c -> (forall e, ca_exc c = Some e -> ex_low e <= ex_high e) -> ca_run c h = Ok x ->
  forall a, In a (snd x) -> (exists v, nth_error a 0 = Some v /\ between (ca_low c) (ca_high c) v) /\
    forall e, ca_exc c = Some e -> exists v, nth_error a 1 = Some v /\ between (ex_low e) (ex_high e) v.
Proof. exact ca_run_bounded. Qed.
Print Assumptions continuous_action_bounded.
(** The integrator cannot wind up: over histories of any length in which the errors are at
    most [E] and the compensation voltages at most [F], its contribution to the action stays
    below a bound that does not depend on the history. *)
Theorem continuous_action_anti_windup :
  forall c h p x E F, ca_ctl c = BPi p -> pi_int p = 0 -> 0 <= E -> 0 <= F -> Forall (moderate c E F) h -> ca_run c h = Ok x ->
  exists p', ca_ctl (fst x) = BPi p' /\ Rabs (pi_i p' * pi_int p') <= Rmax (Rabs (ca_low c)) (Rabs (ca_high c)) + Rabs (pi_p p) * E + F.
Proof.
  intros c h p x E F Hc Z HE HF M H. destruct (ca_run_windup c h p x E F Hc HE HF M) as (p' & C1 & _ & _ & C4); [|exact H|exists p'; split; assumption].
  unfold windup. rewrite Z, Rmult_0_r, Rabs_R0. unfold wbound. pose proof (Rabs_pos (ca_low c)). pose proof (Rmax_l (Rabs (ca_low c)) (Rabs (ca_high c))). pose proof (Rabs_pos (pi_p p)). assert (0 <= Rabs (pi_p p) * E) by (apply Rmult_le_pos; assumption). lra.
Qed.
Print Assumptions continuous_action_anti_windup.

(** ** C148: the action array is shared *)
(** Behind a dead time processor of [n] steps that was reset with the actions [l] (oldest
    first), the first [n] steps use the reset actions, but from then on every step uses the
    action that was computed in the same step: there is no dead time. *)
Theorem shared_action_has_no_dead_time_refuted :
  forall c l h c' d out, (0 < length l)%nat -> dead_run c (map Own (rev l)) h = Ok (c', d, out) ->
  exists acts, ca_run c (controls h) = Ok (c', acts) /\ length acts = length h /\ out = firstn (length h) l ++ skipn (length l) acts /\
    forall k, (length l <= k)%nat -> nth_error out k = nth_error acts k.
Proof.
  intros c l h c' d out L H. destruct (dead_run_alias c 0 l h c' d out ltac:(lia) H) as (acts & E1 & E2 & E3). exists acts. split; [exact E1|]. split; [exact E3|]. split; [exact E2|]. intros k K. rewrite E2.
  destruct (Nat.le_gt_cases (length l) (length h)) as [G|G].
  - rewrite firstn_all2 by exact G. rewrite nth_error_app2 by exact K. rewrite <- (firstn_skipn (length l) acts) at 2. rewrite nth_error_app2; rewrite firstn_length, Nat.min_l by lia; [reflexivity|exact K].
  - transitivity (@None (list R)); [|symmetry]; apply nth_error_None; [rewrite app_length, firstn_length, skipn_length|]; lia.
Qed.
Print Assumptions shared_action_has_no_dead_time_refuted.

(** The concrete environment of the examples: permanently excited motor *)
Definition ex_env : env :=
  {| en_names := ["omega"; "torque"; "i"; "u"; "u_sup"]; en_low := [-1; -1; -1; -1; 0]; en_high := [1; 1; 1; 1; 1];
     en_limits := [100; 100; 100; 1000; 1000]; en_nominal := [100; 100; 100; 1000; 1000]; en_cur := [2%nat]; en_volt := [3%nat];
     en_space := SBox [-1] [1]; en_mp := [("psi_e", 1); ("l_a", 1 / 125); ("r_a", 1)]; en_extex := false; en_tau := 1 / 1000 |}.
Definition ex_motor : perm_par := {| pe_ra := 1; pe_la := 1 / 125; pe_psi := 1 |}.
Definition pi_stage : stage := {| st_type := "pi_controller"; st_par := [] |}.
Example ex_env_ok : perm_env ex_env ex_motor 100 1000.
Proof.
  split; [reflexivity|]. split; [reflexivity|]. split; [reflexivity|]. split; [cbn; lra|]. exists 2%nat, 3%nat, 0%nat, 100, 100, 1000. repeat split; try reflexivity; lra.
Qed.

(** ** C149: compensation of the induced voltage *)
(** The compensation voltage of the continuous action controller equals the induced voltage
    exactly if the nominal values of speed and voltage are the same multiples of the limits
    (the armature flux is [psi_e]). *)
Theorem emf_compensation_exact_iff :
  forall e ss refs c psi state w f lw lu nw nu, ca_new e ss refs = Ok c -> dict_get "psi_e" (en_mp e) = Some psi -> psi <> 0 ->
  item state (ca_omega c) = Ok w -> ca_feedforward c state = Ok f ->
  item (en_limits e) (ca_omega c) = Ok lw -> item (en_limits e) (ca_u c) = Ok lu -> item (en_nominal e) (ca_omega c) = Ok nw -> item (en_nominal e) (ca_u c) = Ok nu ->
  lu <> 0 -> nu <> 0 ->
  (f * lu = emf psi (w * lw) <-> w = 0 \/ nw * lu = lw * nu).
Proof.
  intros e ss refs c psi state w f lw lu nw nu Nw Ps P0 Hw Hf L1 L2 N1 N2 Z1 Z2. destruct (ca_new_inv _ _ _ _ Nw) as (E1 & E2 & _). unfold ca_feedforward in Hf. rewrite E1, E2, Ps in Hf. unfold py_or in Hf. destruct (reqP psi 0) as [Q|Q]; [contradiction|]. cbn [bind] in Hf. rewrite Hw, N1, N2 in Hf. cbn [bind] in Hf. injection Hf as <-.
  unfold emf. apply ratio_iff; assumption.
Qed.
Print Assumptions emf_compensation_exact_iff.
(** With the motor equation: the compensated armature behaves like a resistance and an
    inductance. *)
Theorem emf_compensation_decouples :
  forall e m li lu s c state w f i v, perm_env e m li lu -> ca_new e (SList [s]) ["i"] = Ok c -> pe_la m <> 0 -> shows e state "omega" w -> ca_feedforward c state = Ok f ->
  perm_ode m [i] [v + f * lu] w = Ok [(v - pe_ra m * i) / pe_la m].
Proof.
  intros e m li lu s c state w f i v Pe Nw La Sw F. destruct (ca_new_inv _ _ _ _ Nw) as (N1 & N2 & _ & N4 & _ & N6). destruct (perm_feedforward e m li lu c state w Pe N1 N2 N4 N6 Sw) as (f' & F1 & F2). assert (f' = f) by congruence. subst f'. rewrite F2. unfold perm_ode. cbn. f_equal. f_equal. field. exact La.
Qed.
Print Assumptions emf_compensation_decouples.
(** The cascaded controller looks the flux up under the key "psie_e": a motor whose parameters
    have [psi_e] (and no [l_e_prime]) is compensated with a flux of 1e-6 Vs whatever its flux is. *)
Theorem cascaded_emf_compensation_refuted :
  forall e ss refs c psi state w f lw lu, cc_new e ss refs = Ok c -> dict_get "psi_e" (en_mp e) = Some psi ->
  dict_get "psie_e" (en_mp e) = None -> dict_get "l_e_prime" (en_mp e) = None ->
  item state (cc_omega c) = Ok w -> cc_feedforward c state = Ok f ->
  item (en_limits e) (cc_omega c) = Ok lw -> item (en_limits e) (cc_u c) = Ok lu -> item (en_nominal e) (cc_omega c) = Ok lw -> item (en_nominal e) (cc_u c) = Ok lu -> lu <> 0 ->
  f * lu = emf (1 / 1000000) (w * lw) /\ (w * lw <> 0 -> psi <> 1 / 1000000 -> f * lu <> emf psi (w * lw)).
Proof.
  intros e ss refs c psi state w f lw lu Nw Ps K1 K2 Hw Hf L1 L2 N1 N2 Z. destruct (cc_new_inv _ _ _ _ Nw) as (E1 & E2 & E3 & _). unfold get_or_0 in E2, E3. rewrite K1 in E2. rewrite K2 in E3. unfold cc_feedforward in Hf. rewrite E1, E2, E3 in Hf. destruct (reqP 0 0) as [_|Q]; [|contradiction].
  destruct (item state (cc_ie c)) as [ie|]; [|discriminate]. destruct (item (en_nominal e) (cc_ie c)) as [ne|]; [|discriminate]. cbn [bind] in Hf. rewrite Hw, N1, N2 in Hf. cbn [bind] in Hf. injection Hf as <-.
  rewrite !Rmult_0_l, Rmax_right by lra. assert (F : w * lw * (1 / 1000000) / lu * lu = emf (1 / 1000000) (w * lw)) by (unfold emf; field; exact Z). split; [exact F|]. intros W P E. rewrite F in E. unfold emf in E. apply Rmult_eq_reg_l in E; auto.
Qed.
Print Assumptions cascaded_emf_compensation_refuted.

(** ** C150: the automatically tuned current loop *)
Theorem tuned_current_loop_converges :
  forall e m li lu a ref s s' c cs st i w act, perm_env e m li lu -> st_type s = "pi_controller" -> st_par s = [] -> auto_current e false a s = Ok s' ->
  ca_new e (SList [s']) ["i"] = Ok c -> perm_loop e m lu ref c cs st i w act -> 0 < a -> 0 < en_tau e -> 0 < pe_la m ->
  2 * (en_tau e * pe_ra m / pe_la m) + 2 / a + 1 / (a * a * a) < 4 -> 0 < 1 / a + en_tau e * pe_ra m / pe_la m ->
  Un_cv i (ref * li).
Proof. exact perm_loop_converges. Qed.
Print Assumptions tuned_current_loop_converges.

(** The concrete tuned controller with integrator [z] and last action [v] *)
Definition ctl (z v : R) : cac :=
  {| ca_ref := 0; ca_ref_state := 2; ca_i := 2; ca_u := 3; ca_omega := 0; ca_nominal := [100; 100; 100; 1000; 1000]; ca_psi := Some 1; ca_l := None;
     ca_low := -1 * 1000 / 1000; ca_high := 1 * 1000 / 1000;
     ca_ctl := BPi {| pi_p := 1 / 125 / (1 / 1000 * 2) / 1000 * 100; pi_i := 1 / 125 / (1 / 1000 * 2) / 1000 * 100 / (1 / 1000 * (2 * 2)); pi_tau := 1 / 1000; pi_int := z |};
     ca_exc := None; ca_action := [v] |}.
Definition ex_stage : stage :=
  {| st_type := "pi_controller"; st_par := [("p_gain", 1 / 125 / (1 / 1000 * 2) / 1000 * 100); ("i_gain", 1 / 125 / (1 / 1000 * 2) / 1000 * 100 / (1 / 1000 * (2 * 2)))] |}.
Lemma ex_auto : auto_current ex_env false 2 pi_stage = Ok ex_stage.
Proof. reflexivity. Qed.
Lemma ex_new : ca_new ex_env (SList [ex_stage]) ["i"] = Ok (ctl 0 0).
Proof. reflexivity. Qed.
Lemma ctl_step z v w i ref : let u := 4 / 10 * (ref - i) + 100 * (z + (ref - i) * (1 / 1000)) + w * 100 * 1 / 1000 in
  ca_control (ctl z v) [w; 0; i; 0; 0] [ref] = if Rle_dec (-1) u then if Rle_dec u 1 then Ok (ctl (z + (ref - i) * (1 / 1000)) u, [u]) else Ok (ctl z 1, [1]) else Ok (ctl z (-1), [-1]).
Proof.
  intros u. unfold ca_control. cbn [ctl ca_ref_state ca_ref ca_ctl ca_low ca_high ca_action ca_exc item nth_error bind b_control fst snd].
  assert (Ff : ca_feedforward (ctl z v) [w; 0; i; 0; 0] = Ok (w * 100 * 1 / 1000)). { unfold ca_feedforward, py_or. cbn [ctl ca_psi]. destruct (reqP 1 0); [lra|]. reflexivity. }
  rewrite Ff. cbn [bind]. unfold limited. unfold pi_control. cbn [pi_p pi_i pi_tau pi_int].
  replace (1 / 125 / (1 / 1000 * 2) / 1000 * 100 * (ref - i) + 1 / 125 / (1 / 1000 * 2) / 1000 * 100 / (1 / 1000 * (2 * 2)) * (z + (ref - i) * (1 / 1000)) + w * 100 * 1 / 1000) with u by (unfold u; field).
  replace (-1 * 1000 / 1000) with (-1) by field. replace (1 * 1000 / 1000) with 1 by field. clearbody u.
  assert (K : forall z' v', Ok (ctl z' v', [v']) = Ok ({| ca_ref := 0; ca_ref_state := 2; ca_i := 2; ca_u := 3; ca_omega := 0; ca_nominal := [100; 100; 100; 1000; 1000]; ca_psi := Some 1; ca_l := None; ca_low := -1; ca_high := 1;
     ca_ctl := BPi {| pi_p := 1 / 125 / (1 / 1000 * 2) / 1000 * 100; pi_i := 1 / 125 / (1 / 1000 * 2) / 1000 * 100 / (1 / 1000 * (2 * 2)); pi_tau := 1 / 1000; pi_int := z' |}; ca_exc := None; ca_action := [v'] |}, [v'])).
  { intros z' v'. unfold ctl. replace (-1 * 1000 / 1000) with (-1) by field. replace (1 * 1000 / 1000) with 1 by field. reflexivity. }
  destruct (rleP (-1) u) as [A|A], (Rle_dec (-1) u) as [A'|A']; try lra; cbn [andb].
  - destruct (rleP u 1) as [B|B], (Rle_dec u 1) as [B'|B']; try lra.
    + rewrite K. reflexivity.
    + rewrite K. assert (C : np_clip u (-1) 1 = 1) by (unfold np_clip; rewrite Rmax_left by lra; apply Rmin_right; lra). rewrite C. reflexivity.
  - rewrite K. assert (C : np_clip u (-1) 1 = -1) by (unfold np_clip; rewrite Rmax_right by lra; apply Rmin_left; lra). rewrite C. reflexivity.
Qed.
Example tuned_current_loop_example : exists cs st i w act, perm_loop ex_env ex_motor 1000 (2 / 10) (ctl 0 0) cs st i w act /\ i O = 0 /\ (forall k, w k = 50) /\ Un_cv i (2 / 10 * 100).
Proof.
  set (x := fun k : nat => (3 / 4) ^ k). set (y := fun k : nat => (1 / 2) ^ k).
  set (i := fun k => 20 * (1 + 1 / 2 * x k - 3 / 2 * y k)). set (z := fun k => 1 / 1000 * (1 / 5) * (1 + 2 * x k - 3 * y k)).
  set (act := fun k => 4 / 10 * (2 / 10 - i k / 100) + 100 * (z k + (2 / 10 - i k / 100) * (1 / 1000)) + 50 / 100 * 100 * 1 / 1000).
  set (cs := fun k => match k with O => ctl 0 0 | S k' => ctl (z (S k')) (act k') end). set (st := fun k => [50 / 100; 0; i k / 100; 0; 0]).
  assert (X : forall k, 0 < x k <= 1). { intros k. unfold x. split; [apply pow_lt; lra|]. apply Rle_trans with (1 ^ k); [apply pow_incr; lra|rewrite pow1; lra]. }
  assert (Y : forall k, 0 < y k <= 1). { intros k. unfold y. split; [apply pow_lt; lra|]. apply Rle_trans with (1 ^ k); [apply pow_incr; lra|rewrite pow1; lra]. }
  assert (Xs : forall k, x (S k) = 3 / 4 * x k) by reflexivity. assert (Ys : forall k, y (S k) = 1 / 2 * y k) by reflexivity.
  assert (Z0 : z 0%nat = 0) by (unfold z, x, y; cbn; field).
  assert (Bd : forall k, -1 < act k < 1). { intros k. pose proof (X k). pose proof (Y k). unfold act, z, i. lra. }
  assert (Cs : forall k, exists v, cs k = ctl (z k) v). { intros [|k]; [exists 0; unfold cs; rewrite Z0; reflexivity|exists (act k); reflexivity]. }
  assert (L : perm_loop ex_env ex_motor 1000 (2 / 10) (ctl 0 0) cs st i (fun _ => 50) act).
  { split; [reflexivity|]. intros k. destruct (Cs k) as (v & Ck). specialize (Bd k). split; [|split; [|split; [|split]]].
    - rewrite Ck. unfold st. rewrite ctl_step. cbv zeta. fold (act k). destruct (Rle_dec (-1) (act k)); [|lra]. destruct (Rle_dec (act k) 1); [|lra].
      assert (Zs : z (S k) = z k + (2 / 10 - i k / 100) * (1 / 1000)) by (unfold z, i; rewrite Xs, Ys; field). change (cs (S k)) with (ctl (z (S k)) (act k)). rewrite Zs. reflexivity.
    - cbn [ctl ca_low ca_high]. lra.
    - exists 2%nat, 100. repeat split; try reflexivity. lra.
    - exists 0%nat, 100. repeat split; try reflexivity. lra.
    - eexists. split; [reflexivity|]. cbn. unfold act, z, i. rewrite Xs, Ys. field. }
  exists cs, st, i, (fun _ => 50), act. split; [exact L|]. split; [unfold i, x, y; cbn; field|]. split; [reflexivity|].
  apply (tuned_current_loop_converges ex_env ex_motor 100 1000 2 (2 / 10) pi_stage ex_stage (ctl 0 0) cs st i (fun _ => 50) act ex_env_ok eq_refl eq_refl ex_auto ex_new L); cbn; lra.
Qed.
(** A history of the concrete controller: one saturated and one unsaturated step, both within
    the limits, and a dead time processor with one step. *)
Example continuous_action_example :
  ca_run (ctl 0 0) [Control [0; 0; 0; 0; 0] [10]; Control [0; 0; 0; 0; 0] [1]; ResetIt; Control [0; 0; 0; 0; 0] [2]] = Ok (ctl (2 * (1 / 1000)) 1, [[1]; [5 / 10]; [1]]) /\
  Forall (moderate (ctl 0 0) 10 1) [Control [0; 0; 0; 0; 0] [10]; Control [0; 0; 0; 0; 0] [1]; ResetIt; Control [0; 0; 0; 0; 0] [2]] /\
  exists c d, dead_run (ctl 0 0) (map Own (rev [[0]])) [([0; 0; 0; 0; 0], [10]); ([0; 0; 0; 0; 0], [1])] = Ok (c, d, [[0]; [5 / 10]]).
Proof.
  assert (S1 : ca_control (ctl 0 0) [0; 0; 0; 0; 0] [10] = Ok (ctl 0 1, [1])). { rewrite ctl_step. cbv zeta. destruct (Rle_dec _ _); [|lra]. destruct (Rle_dec _ _); [lra|reflexivity]. }
  assert (S2 : ca_control (ctl 0 1) [0; 0; 0; 0; 0] [1] = Ok (ctl (1 * (1 / 1000)) (5 / 10), [5 / 10])).
  { rewrite ctl_step. cbv zeta. replace (4 / 10 * (1 - 0) + 100 * (0 + (1 - 0) * (1 / 1000)) + 0 * 100 * 1 / 1000) with (5 / 10) by field. destruct (Rle_dec _ _); [|lra]. destruct (Rle_dec _ _); [|lra]. replace (0 + (1 - 0) * (1 / 1000)) with (1 * (1 / 1000)) by field. reflexivity. }
  assert (S3 : ca_control (ctl 0 (5 / 10)) [0; 0; 0; 0; 0] [2] = Ok (ctl (2 * (1 / 1000)) 1, [1])).
  { rewrite ctl_step. cbv zeta. replace (4 / 10 * (2 - 0) + 100 * (0 + (2 - 0) * (1 / 1000)) + 0 * 100 * 1 / 1000) with 1 by field. destruct (Rle_dec _ _); [|lra]. destruct (Rle_dec _ _); [|lra]. replace (0 + (2 - 0) * (1 / 1000)) with (2 * (1 / 1000)) by field. reflexivity. }
  split; [|split].
  - cbn [ca_run]. rewrite S1. cbn [bind fst snd]. rewrite S2. cbn [bind fst snd]. change (ca_reset (ctl (1 * (1 / 1000)) (5 / 10))) with (ctl 0 (5 / 10)). rewrite S3. reflexivity.
  - assert (F0 : forall s f, s = [0; 0; 0; 0; 0] -> ca_feedforward (ctl 0 0) s = Ok f -> Rabs f <= 1). { intros s f -> H. unfold ca_feedforward, py_or in H. cbn [ctl ca_psi] in H. destruct (reqP 1 0); [lra|]. cbn in H. injection H as <-. replace (0 * 100 * 1 / 1000) with 0 by field. rewrite Rabs_R0. lra. }
    assert (M : forall x, Rabs (x - 0) <= 10 -> moderate (ctl 0 0) 10 1 (Control [0; 0; 0; 0; 0] [x])). { intros x Hx. split; [|intros f; apply F0; reflexivity]. cbn. intros u v Hu Hv. injection Hu as <-. injection Hv as <-. exact Hx. }
    apply Forall_cons; [apply M; rewrite Rminus_0_r, Rabs_pos_eq; lra|]. apply Forall_cons; [apply M; rewrite Rminus_0_r, Rabs_pos_eq; lra|]. apply Forall_cons; [exact I|]. apply Forall_cons; [apply M; rewrite Rminus_0_r, Rabs_pos_eq; lra|]. apply Forall_nil.
  - do 2 eexists. cbn [dead_run rev map app]. unfold dead_cycle. rewrite S1. cbn [bind fst snd rev app]. rewrite S2. reflexivity.
Qed.
