(** Properties of the visualization: C128-C137. *)
From Coq Require Import Lia Lra.
From Verif Require Import PyBase PyBaseFacts PyDict PyDictFacts Vis_Model Vis_Spec Vis_Proofs Vis_Proofs2 Vis_Proofs3 Vis_Proofs4 Vis_Proofs5 Vis_Proofs6.
Local Open Scope string_scope. Local Open Scope list_scope. Local Open Scope R_scope.

Definition is_ok {A} (r : res A) : bool := match r with Ok _ => true | Err _ => false end.
Definition step_event (k : nat) (v r rw : R) (tm : bool) : list pop := [PTell (StepBegin (ANum 1)); PTell (StepEnd k [v] [r] rw tm)].
Definition history : list pop := [PTell ResetBegin; PTell ResetEnd] ++ step_event 1 1 2 10 false ++ [PInit] ++ step_event 2 3 4 20 false ++ step_event 3 5 6 30 true ++ [PRender; PTell ResetBegin; PTell ResetEnd] ++ step_event 1 7 8 40 false ++ [PTell ResetBegin].
Definition run_from {P} (op : pop -> P -> call P) (c : call P) (ops : list pop) : call P := andthen c (p_run op ops).
Definition lines_of (c : call tplot) : list (list R * list num) := b_lines (t_b (fst c)).

(** ** C128 *)
(** After initialize and render, a state plot shows exactly the last [w] steps, the n-th step at
    time n * tau, in physical units, whatever was called before; nothing else is shown. *)
Theorem state_plot_shows_last_steps : forall w i limit nd rf tau scale p0 ops1 ops2 p,
  t_set_env (state_plot w i limit nd rf) tau scale = (p0, Ok tt) -> Forall running ops2 -> p_run t_op (ops1 ++ PInit :: ops2 ++ [PRender]) p0 = (p, Ok tt) ->
  let H := steps (ops1 ++ PInit :: ops2) in
  exists x y z, b_lines (t_b p) = (x, y) :: (if rf then [(x, z)] else [])
  /\ ring 1 w (grid w tau) (times 1 tau (length H)) x
  /\ ring 1 w (empty w) (map (fun s => Some (physical limit nd (state_at i (sa_state s)))) H) y
  /\ ring 1 w (empty w) (if rf then map (fun s => Some (physical limit nd (state_at i (sa_ref s)))) H else []) z.
Proof.
  intros w i limit nd rf tau scale p0 ops1 ops2 p H0 F Hr. cbv zeta.
  destruct (state_drawn _ _ _ _ _ _ _ _ _ _ _ H0 F Hr) as [sd [rd [Hk Hl]]].
  pose proof (state_window _ _ _ _ _ _ _ _ _ _ H0 Hr) as [_ [sd' [rd' [Hk' [_ [_ [_ [Rx [Rs [Rr _]]]]]]]]]].
  rewrite Hk in Hk'. injection Hk' as <- <-.
  assert (E : steps (ops1 ++ PInit :: ops2 ++ [PRender]) = steps (ops1 ++ PInit :: ops2)).
  { replace (ops1 ++ PInit :: ops2 ++ [PRender]) with ((ops1 ++ PInit :: ops2) ++ [PRender]) by (rewrite <- app_assoc; reflexivity). unfold steps, steps_from. rewrite fold_left_app. reflexivity. }
  rewrite E in Rx, Rs, Rr. exists (b_x (t_b p)), (deref (t_b p) sd), (deref (t_b p) rd). auto.
Qed.
Print Assumptions state_plot_shows_last_steps.
Example state_plot_example : is_ok (snd (run_from t_op (t_set_env (state_plot 2 0 10 true true) (1/2) false) (history ++ [PRender]))) = true
  /\ lines_of (run_from t_op (t_set_env (state_plot 2 0 10 true true) (1/2) false) (history ++ [PRender]))
     = [([0 + 1/2 + 1/2 + 1/2 + 1/2; 0 + 1/2 + 1/2 + 1/2], [Some (7 * 10); Some (5 * 10)]); ([0 + 1/2 + 1/2 + 1/2 + 1/2; 0 + 1/2 + 1/2 + 1/2], [Some (8 * 10); Some (6 * 10)])].
Proof. split; reflexivity. Qed.
(** The last value is where the window says: no value is lost. *)
Example ring_example : ring 1 2 [0; 0] [1; 2; 3] [2; 3] /\ ~ ring 1 2 [0; 0] [1; 2; 3] [3; 2].
Proof.
  split.
  - split; [reflexivity|]. split.
    + intros i v Hi Hl. destruct i as [|[|[|i]]]; cbn in *; try lia; try exact Hi. destruct i; discriminate.
    + intros j Hj Hn. exfalso. destruct j as [|[|j]]; [apply (Hn 1%nat); cbn; lia|apply (Hn 2%nat); cbn; lia|lia].
  - intros [_ [H _]]. specialize (H 2%nat 3 eq_refl ltac:(cbn; lia)). cbn in H. injection H. lra.
Qed.

(** ** C129 *)
(** Reward and action plots show exactly the last [w] steps too, but the n-th step at time
    (n - 1) * tau: one step earlier than the state plot shows the state of the same step. *)
Theorem reward_plot_shows_last_steps : forall w tau scale p0 ops1 ops2 p, t_set_env (reward_plot w) tau scale = (p0, Ok tt) -> Forall kept (ops1 ++ PInit :: ops2) -> p_run t_op (ops1 ++ PInit :: ops2 ++ [PRender]) p0 = (p, Ok tt) ->
  let H := steps (ops1 ++ PInit :: ops2) in
  exists x y, b_lines (t_b p) = [(x, y)] /\ ring 0 w (grid w tau) (times 0 tau (length H)) x /\ ring 0 w (empty w) (map (fun s => Some (sa_reward s)) H) y.
Proof. exact reward_drawn. Qed.
Print Assumptions reward_plot_shows_last_steps.
Theorem action_plot_shows_last_steps : forall w i disc tau scale p0 l1 l2 p, Forall a_fits (l1 ++ AOther PInit :: l2) -> t_set_env (action_plot w i disc) tau scale = (p0, Ok tt) ->
  p_run t_op (a_ops (l1 ++ AOther PInit :: l2) ++ [PRender]) p0 = (p, Ok tt) ->
  let H := actions (l1 ++ AOther PInit :: l2) in
  exists x y, b_lines (t_b p) = [(x, y)] /\ ring 0 w (grid w tau) (times 0 tau (length H)) x /\ ring 0 w (empty w) (map (shown_action i) H) y.
Proof. exact action_drawn. Qed.
Print Assumptions action_plot_shows_last_steps.
Example reward_plot_example : is_ok (snd (run_from t_op (t_set_env (reward_plot 2) (1/2) false) (history ++ [PRender]))) = true
  /\ lines_of (run_from t_op (t_set_env (reward_plot 2) (1/2) false) (history ++ [PRender])) = [([0 + 1/2 + 1/2; 0 + 1/2 + 1/2 + 1/2], [Some 30; Some 40])]
  /\ lines_of (run_from t_op (t_set_env (action_plot 2 0 true) (1/2) false) (history ++ [PRender])) = [([0 + 1/2 + 1/2; 0 + 1/2 + 1/2 + 1/2], [Some 1; Some 1])].
Proof. repeat split; reflexivity. Qed.
(** The same step has two times. *)
Theorem same_step_same_time_refuted : forall w i limit nd rf tau p0 q0, (0 < w)%nat -> tau <> 0 -> t_set_env (state_plot w i limit nd rf) tau false = (p0, Ok tt) -> t_set_env (reward_plot w) tau false = (q0, Ok tt) ->
  forall k st rv rw tm p q, p_run t_op [PTell (StepEnd k st rv rw tm)] p0 = (p, Ok tt) -> p_run t_op [PTell (StepEnd k st rv rw tm)] q0 = (q, Ok tt) ->
  nth_error (b_x (t_b p)) (1 mod w) = Some (1 * tau) /\ nth_error (b_x (t_b q)) 0 = Some (0 * tau) /\ 1 * tau <> 0 * tau.
Proof.
  intros w i limit nd rf tau p0 q0 Hw Ht H0 H1 k st rv rw tm p q Hp Hq.
  pose proof (state_window _ _ _ _ _ _ _ _ _ _ H0 Hp) as [_ [sd [rd [_ [_ [_ [_ [[_ [Rx _]] _]]]]]]]].
  pose proof (reward_window _ _ _ _ _ _ H1 Hq) as [_ [rd' [_ [_ [[_ [Ry _]] _]]]]].
  split; [|split; [|lra]].
  - apply (Rx 0%nat); [reflexivity|cbn; lia].
  - replace 0%nat with ((0 + 0) mod w)%nat by (cbn; apply Nat.mod_0_l; lia). apply (Ry 0%nat); [reflexivity|cbn; lia].
Qed.
Print Assumptions same_step_same_time_refuted.
Example two_times_example : exists p0 q0 p q, t_set_env (state_plot 3 0 10 true true) 1 false = (p0, Ok tt) /\ t_set_env (reward_plot 3) 1 false = (q0, Ok tt)
  /\ p_run t_op [PTell (StepEnd 1 [1] [2] 3 false)] p0 = (p, Ok tt) /\ p_run t_op [PTell (StepEnd 1 [1] [2] 3 false)] q0 = (q, Ok tt).
Proof. eexists _, _, _, _. split; [reflexivity|]. split; [reflexivity|]. split; reflexivity. Qed.

(** ** C130 *)
(** Vertical lines: exactly one for each reset but the first, red after a violation and blue
    otherwise, at the time of the interruption, in order, however often render is called. *)
Theorem interruptions_marked : forall b tau p0 ops p, t_tau p0 = tau -> t_t p0 = INR (t_k p0) * tau -> t_resets p0 = [] -> t_viols p0 = [] -> Forall running ops ->
  p_run t_op (PInit :: ops ++ [PRender]) p0 = (p, Ok tt) -> of_kind b (t_marks p) = of_kind b (interruptions tau (t_k p0) (t_done p0) ops).
Proof. exact marks_complete. Qed.
Print Assumptions interruptions_marked.
Definition running_history : list pop := [PTell ResetBegin] ++ step_event 1 1 2 10 false ++ [PTell ResetBegin; PRender] ++ step_event 1 5 6 30 true ++ [PTell ResetBegin; PRender; PTell ResetBegin].
Example marks_example : Forall running running_history /\ is_ok (snd (run_from t_op (t_set_env (state_plot 2 0 10 true true) (1/2) false) (PInit :: running_history ++ [PRender]))) = true
  /\ interruptions (1/2) 0 None running_history = [(false, 1 * (1/2)); (true, (1 + 1) * (1/2)); (false, (1 + 1) * (1/2))].
Proof. split; [repeat constructor|]. split; reflexivity. Qed.

(** ** C131 *)
(** A dashboard whose interval and width are at least one, with any of the time plots, the
    episode length plot and the violation plot, never raises, whatever events of the
    environment, renders and (without violation plot) resets of the figures come in any order. *)
Theorem dashboard_never_raises : forall n disc m rs ui tw tau time ep step d0, 1 <= ui -> 1 <= tw -> Forall (wanted n disc m) time -> Forall (eq length_plot) ep -> Forall (eq violation_plot) step -> (rs = true -> step = []) ->
  d_new ui tw time ep step = Ok d0 -> exists d1, d_set_env tau false d0 = (d1, Ok tt) /\ forall ops, Forall (op_fits n disc m rs) ops -> exists d, d_run ops d1 = (d, Ok tt).
Proof. exact dash_total. Qed.
Print Assumptions dashboard_never_raises.
(** The plots are updated by a render iff a multiple of the interval was reached since the last
    render. *)
Theorem updates_when_due : forall ui tw tau scale time ep step d0 d1 ops d, 1 <= ui -> d_new ui tw time ep step = Ok d0 -> d_set_env tau scale d0 = (d1, Ok tt) -> d_run ops d1 = (d, Ok tt) ->
  d_update d = true <-> exists j, (snd (d_steps ops) < j <= fst (d_steps ops))%nat /\ (Z.of_nat j mod Int_part ui = 0)%Z.
Proof.
  intros ui tw tau scale time ep step d0 d1 ops d Hu H0 H1 Hr.
  unfold d_new in H0. destruct (py_assert (rlt 0 ui)); [|discriminate]. destruct (py_assert (rlt 0 tw)); [|discriminate]. cbn [bind] in H0. injection H0 as <-.
  apply all_frame in H1. destruct H1 as [t [e [s ->]]]. pose proof (int_part_ge1 _ Hu) as Iu.
  match type of Hr with d_run _ ?q = _ => assert (Hu0 : d_update q = true <-> due (Int_part ui) (0%nat, 0%nat)) end.
  { cbn [d_with d_update]. split; [discriminate|]. intros [j [Hj _]]. cbn in Hj. lia. }
  match type of Hr with d_run _ ?q = _ => exact (proj2 (updates_run (Int_part ui) ops (0%nat, 0%nat) q d ltac:(lia) (le_n _) ltac:(reflexivity) ltac:(reflexivity) Hu0 Hr)) end.
Qed.
Print Assumptions updates_when_due.
Definition three_plots : list (nat -> tplot) := [(fun w => state_plot w 0 10 true true); (fun w => action_plot w 0 true); reward_plot].
Example dashboard_example : Forall (wanted 1 true 0) three_plots /\ Forall (op_fits 1 true 0 false) (map Tell [ResetBegin; StepBegin (ANum 3); StepEnd 1 [5] [6] 7 true; ResetBegin] ++ [Render; Force])
  /\ (exists d0, d_new 2 3 three_plots [length_plot] [violation_plot] = Ok d0).
Proof.
  split; [|split].
  - repeat constructor.
  - repeat constructor.
  - unfold d_new, py_assert. destruct (rltP 0 2) as [H|H]; [|exfalso; apply H; lra]. destruct (rltP 0 3) as [H'|H']; [|exfalso; apply H'; lra]. eexists. reflexivity.
Qed.

(** ** C132 *)
(** The constructor accepts intervals and widths between 0 and 1, which it truncates to 0: the
    first step, or the construction of the environment, raises. *)
Theorem dashboard_arguments_checked_refuted :
  (forall ui tw tau scale time ep step d0 d1 k st rf rw tm, 0 < ui < 1 -> d_new ui tw time ep step = Ok d0 -> d_set_env tau scale d0 = (d1, Ok tt) -> snd (d_event (StepEnd k st rf rw tm) d1) <> Ok tt)
  /\ (forall ui tw tau scale mk time ep step d0, 0 < tw < 1 -> (forall w, t_width (mk w) = w) -> d_new ui tw (mk :: time) ep step = Ok d0 -> snd (d_set_env tau scale d0) = Err IndexError)
  /\ (forall time ep step, is_ok (d_new (1/2) 1 time ep step) = true) /\ (forall time ep step, is_ok (d_new 1 (1/2) time ep step) = true).
Proof.
  split; [|split; [|split]].
  - intros ui tw tau scale time ep step d0 d1 k st rf rw tm Hu H0 H1. exact (proj1 (zero_interval _ _ _ _ _ _ _ _ _ k st rf rw tm Hu H0 H1 d1)).
  - exact zero_width.
  - intros. unfold d_new, py_assert. destruct (rltP 0 (1/2)) as [H|H]; [|exfalso; apply H; lra]. destruct (rltP 0 1) as [H'|H']; [|exfalso; apply H'; lra]. reflexivity.
  - intros. unfold d_new, py_assert. destruct (rltP 0 (1/2)) as [H|H]; [|exfalso; apply H; lra]. destruct (rltP 0 1) as [H'|H']; [|exfalso; apply H'; lra]. reflexivity.
Qed.
Print Assumptions dashboard_arguments_checked_refuted.

(** ** C133 *)
(** The episode length plot shows the length of every finished episode at its number. *)
Theorem episode_lengths_shown : forall ops1 ops2 p, Forall no_reset (ops1 ++ PInit :: ops2) -> counted None (ops1 ++ PInit :: ops2) -> p_run e_op (ops1 ++ PInit :: ops2 ++ [PRender]) length_plot = (p, Ok tt) ->
  let f := fst (episodes (ops1 ++ PInit :: ops2)) in b_lines (e_b p) = [(map INR (seq 0 (length f)), map (fun l => Some (INR (length l))) f)].
Proof. exact lengths_drawn. Qed.
Print Assumptions episode_lengths_shown.
(** The mean reward plot shows the mean reward of the finished episodes, except those finished
    before the first render, whose numbers it keeps: with [m] of them the two arrays have
    different lengths. *)
Theorem mean_rewards_shown : forall ops1 ops2 p, Forall no_init ops1 -> Forall no_init ops2 -> counted None (ops1 ++ PInit :: ops2) ->
  p_run e_op (ops1 ++ PInit :: ops2 ++ [PRender]) mean_plot = (p, Ok tt) ->
  let m := length (fst (episodes ops1)) in let f := fst (episodes (ops1 ++ PInit :: ops2)) in
  b_lines (e_b p) = [(map INR (seq 0 (length f)), map (fun l => Some (mean l)) (skipn m f))] /\ (m <= length f)%nat.
Proof. exact means_drawn. Qed.
Print Assumptions mean_rewards_shown.
Definition ep_history : list pop := [PTell ResetBegin] ++ step_event 1 1 2 10 false ++ step_event 2 1 2 20 false ++ [PTell ResetBegin] ++ step_event 1 1 2 30 true ++ [PTell ResetBegin].
Example episodes_example : counted None (PInit :: ep_history) /\ episodes (PInit :: ep_history) = ([[10; 20]; [30]], Some [])
  /\ is_ok (snd (p_run e_op ([] ++ PInit :: ep_history ++ [PRender]) mean_plot)) = true /\ is_ok (snd (p_run e_op ([] ++ PInit :: ep_history ++ [PRender]) length_plot)) = true.
Proof. split; [cbn; auto|]. split; [reflexivity|]. split; reflexivity. Qed.
(** If the first render comes after [m] finished episodes, the line cannot be drawn once two
    more are finished. *)
Theorem late_first_render_refuted : forall ops1 ops2 p, Forall no_init ops1 -> Forall no_init ops2 -> counted None (ops1 ++ PInit :: ops2) ->
  p_run e_op (ops1 ++ PInit :: ops2 ++ [PRender]) mean_plot = (p, Ok tt) -> (0 < length (fst (episodes ops1)))%nat -> (length (fst (episodes ops1)) + 2 <= length (fst (episodes (ops1 ++ PInit :: ops2))))%nat ->
  forallb drawable (b_lines (e_b p)) = false.
Proof.
  intros ops1 ops2 p F1 F2 Hc Hr Hm Hl. destruct (means_drawn ops1 ops2 p F1 F2 Hc Hr) as [E _]. rewrite E. cbn [forallb]. rewrite Bool.andb_true_r. unfold drawable, xs. cbn [fst snd].
  rewrite !map_length, seq_length, skipn_length. rewrite !Bool.orb_false_iff, !Nat.eqb_neq. lia.
Qed.
Print Assumptions late_first_render_refuted.
Example late_example : is_ok (snd (p_run e_op (ep_history ++ PInit :: step_event 1 1 2 3 false ++ [PTell ResetBegin] ++ step_event 1 1 2 3 false ++ [PTell ResetBegin] ++ [PRender]) mean_plot)) = true
  /\ length (fst (episodes ep_history)) = 2%nat /\ length (fst (episodes (ep_history ++ PInit :: step_event 1 1 2 3 false ++ [PTell ResetBegin] ++ step_event 1 1 2 3 false ++ [PTell ResetBegin]))) = 4%nat.
Proof. repeat split; reflexivity. Qed.
(** Two resets in a row raise with a mean reward plot. *)
Theorem mean_plot_allows_two_resets_refuted : forall ops, Forall no_init ops -> counted None ops -> forall p, p_run e_op ops mean_plot = (p, Ok tt) ->
  snd (p_run e_op [PTell ResetBegin; PTell ResetBegin] p) = Err ZeroDivisionError \/ exists p', e_op (PTell ResetBegin) p = (p', Err ZeroDivisionError).
Proof. exact means_two_resets. Qed.
Print Assumptions mean_plot_allows_two_resets_refuted.
Example two_resets_example : is_ok (snd (p_run e_op ep_history mean_plot)) = true /\ snd (p_run e_op [PTell ResetBegin; PTell ResetBegin] mean_plot) = Err ZeroDivisionError.
Proof. split; reflexivity. Qed.

(** ** C134 *)
(** The violation plot shows a step at each violating step, up by one each. *)
Theorem violations_shown : forall ops1 ops2 p, Forall no_init ops1 -> Forall no_reset ops2 -> p_run s_op (ops1 ++ PInit :: ops2 ++ [PRender]) violation_plot = (p, Ok tt) ->
  let V := violations (ops1 ++ PInit :: ops2) in b_lines (s_b p) = [(0 :: stairs_x V, Some 0 :: stairs_y 0 V)].
Proof. exact violations_drawn. Qed.
Print Assumptions violations_shown.
Example violations_example : is_ok (snd (p_run s_op (ep_history ++ PInit :: step_event 1 1 2 3 true ++ [PRender]) violation_plot)) = true
  /\ violations (ep_history ++ PInit :: step_event 1 1 2 3 true) = [3%nat; 4%nat].
Proof. split; reflexivity. Qed.
(** After reset_figures, the next render raises, and so does every later one. *)
Theorem reset_figures_keeps_violation_plot_refuted :
  (forall d d1, d_step d <> [] -> d_reset_figures d = (d1, Ok tt) -> snd (d_op Render d1) = Err ValueError)
  /\ (forall p ops p1, Forall no_init ops -> p_run s_op (PReset :: ops) p = (p1, Ok tt) -> snd (s_op PInit p1) = Err ValueError).
Proof. split; [exact reset_figures_breaks|exact violations_after_reset]. Qed.
Print Assumptions reset_figures_keeps_violation_plot_refuted.
Example reset_figures_example : exists d1, d_reset_figures {| d_time := []; d_ep := []; d_step := [violation_plot]; d_interval := 5; d_k := 0; d_update := false; d_ep_fig := false; d_step_fig := false; d_time_fig := false |} = (d1, Ok tt).
Proof. eexists. reflexivity. Qed.
(** ** C135 *)
(** After reset_figures a reward plot stays empty for ever. *)
Theorem reset_figures_keeps_reward_plot_refuted : forall w tau scale p0 ops1 ops2 p1 p, t_set_env (reward_plot w) tau scale = (p0, Ok tt) -> Forall running ops2 ->
  p_run t_op (ops1 ++ [PReset; PInit]) p0 = (p1, Ok tt) -> p_run t_op ops2 p1 = (p, Ok tt) -> b_lines (t_b p) = [(grid w tau, empty w)].
Proof. exact reward_plot_frozen. Qed.
Print Assumptions reset_figures_keeps_reward_plot_refuted.
Example frozen_example : is_ok (snd (run_from t_op (t_set_env (reward_plot 2) 1 false) ((history ++ [PReset; PInit]) ++ running_history ++ [PRender]))) = true /\ Forall running (running_history ++ [PRender]).
Proof. split; [reflexivity|]. repeat constructor. Qed.
(** With scale_plots, rendering a reward or action plot that has a value raises. *)
Theorem scaled_plots_render_refuted :
  (forall w tau p0 ops p, t_set_env (reward_plot w) tau true = (p0, Ok tt) -> Forall (fun o => running o \/ o = PInit) ops -> p_run t_op ops p0 = (p, Ok tt) ->
    steps ops <> [] -> b_axis (t_b p) = true -> snd (t_op PRender p) = Err IndexError)
  /\ (forall w i disc tau p0 l p, t_set_env (action_plot w i disc) tau true = (p0, Ok tt) -> Forall a_fits l -> p_run t_op (a_ops l) p0 = (p, Ok tt) ->
    actions l <> [] -> Forall (fun a => a <> ANone) (actions l) -> b_axis (t_b p) = true -> snd (t_op PRender p) = Err IndexError).
Proof. split; [exact scaled_reward_raises|exact scaled_action_raises]. Qed.
Print Assumptions scaled_plots_render_refuted.
Example scaled_example : (let c := run_from t_op (t_set_env (reward_plot 2) 1 true) (PInit :: PTell ResetBegin :: step_event 1 2 3 4 false) in is_ok (snd c) = true /\ b_axis (t_b (fst c)) = true)
  /\ (let c := run_from t_op (t_set_env (action_plot 2 0 true) 1 true) (a_ops [AOther PInit; AStep (ANum 3) 1 [2] [3] 4 false]) in is_ok (snd c) = true /\ b_axis (t_b (fst c)) = true)
  /\ is_ok (snd (run_from t_op (t_set_env (state_plot 2 0 1 true true) 1 true) (PInit :: PTell ResetBegin :: step_event 1 2 3 4 false ++ [PRender]))) = true.
Proof. repeat split; reflexivity. Qed.

(** ** C136 *)
(** If the user renders right after every reset, the console printer reports every episode
    with its length, reward and end, after a report of an episode that never was. *)
Theorem episodes_reported : forall f eps, Forall (fun e => e <> []) eps ->
  exists p, c_run (session eps) (printer_new 1 f) = (p, Ok tt) /\ c_out p = EpisodeEnd 0 false 0 0 :: map (fun x => report (fst x) (snd x)) (combine (seq 1 (length eps)) eps).
Proof. exact reports_right. Qed.
Print Assumptions episodes_reported.
Example reported_example : Forall (fun e => e <> []) [[(1, false); (2, true)]; [(3, false)]] /\ report 1 [(1, false); (2, true)] = EpisodeEnd 1 true 2 (1 + (2 + 0)).
Proof. split; [repeat constructor; discriminate|reflexivity]. Qed.
(** Rendering only after steps, as all examples do, reports the old episode with the data of
    the new one: one step, the reward of both, the end of the new one. *)
Theorem episodes_reported_from_steps_refuted : forall f e r t, exists p,
  c_run ([CReset; CRender] ++ ep_ops e ++ [CReset] ++ ep_ops [(r, t)] ++ [CRender]) (printer_new 1 f) = (p, Ok tt) /\ c_out p = [EpisodeEnd 0 false 0 0; EpisodeEnd 1 t 1 (rsum (map fst e) + r)].
Proof. exact reports_wrong. Qed.
Print Assumptions episodes_reported_from_steps_refuted.

(** ** C137 *)
(** The reference plotter puts the references of the controller for the current state at the
    time of that state. *)
Theorem controller_reference_aligned : forall w i limit nd tau scale p0 ops p v p', t_set_env (state_plot w i limit nd true) tau scale = (p0, Ok tt) -> p_run t_op ops p0 = (p, Ok tt) -> t_update_ref v p = (p', Ok tt) ->
  steps ops <> [] -> let n := length (steps ops) in exists j sd rd, t_kind p' = KState i limit nd true sd rd /\ (j < w)%nat
  /\ nth_error (b_x (t_b p')) j = Some (INR n * tau) /\ nth_error (deref (t_b p') sd) j = Some (Some (physical limit nd (state_at i (sa_state (last (steps ops) zero_sample)))))
  /\ nth_error (deref (t_b p') rd) j = Some (Some v).
Proof. exact plotter_aligned. Qed.
Print Assumptions controller_reference_aligned.
Example aligned_example : is_ok (snd (andthen (run_from t_op (t_set_env (state_plot 2 0 10 true true) (1/2) false) history) (t_update_ref 77))) = true /\ steps history <> [].
Proof. split; [reflexivity|discriminate]. Qed.
(** Tuning raises if one of the visualizations is not a dashboard. *)
Theorem plotter_accepts_visualizations_refuted : forall vs1 vs2 names, plotter_tune (vs1 ++ VOther :: vs2) names = Err AttributeError.
Proof.
  intros vs1 vs2 names. induction vs1 as [|[d l|] vs1 IH]; cbn [app plotter_tune]; [reflexivity| |reflexivity]. rewrite IH. reflexivity.
Qed.
Print Assumptions plotter_accepts_visualizations_refuted.
(** Dashboards are accepted and exactly the referenced state plots are chosen. *)
Theorem plotter_chooses_referenced : forall ds names, exists r, plotter_tune (map (fun x => VDash (fst x) (snd x)) ds) names = Ok r /\ length r = length ds
  /\ forall k d l ks, nth_error ds k = Some (d, l) -> nth_error r k = Some ks -> forall i, In i ks <-> exists s, nth_error l i = Some (Some s) /\ In s names.
Proof.
  intros ds names. induction ds as [|[d l] ds [r [E [L H]]]]; cbn [map plotter_tune fst snd].
  - exists []. split; [reflexivity|]. split; [reflexivity|]. intros [|k] d l ks Hk; discriminate.
  - rewrite E. cbn [bind]. eexists. split; [reflexivity|]. split; [cbn; lia|]. intros [|k] d' l' ks Hk Hks; cbn [nth_error] in *; [|eapply H; eauto].
    injection Hk as <- <-. injection Hks as <-. clear.
    assert (G : forall l a i, In i (map fst (List.filter (fun x : nat * option string => match snd x with Some s => str_in s names | None => false end) (combine (seq a (length l)) l)))
                <-> exists s, (a <= i)%nat /\ nth_error l (i - a) = Some (Some s) /\ In s names).
    { clear. induction l as [|o l IH]; intros a i.
      - cbn. split; [contradiction|]. intros [s [_ [Hc _]]]. destruct (i - a)%nat; discriminate.
      - cbn [length seq combine List.filter snd].
        assert (T : (exists s, (a <= i)%nat /\ nth_error (o :: l) (i - a) = Some (Some s) /\ In s names) <-> (a = i /\ exists s, o = Some s /\ In s names) \/ (exists s, (S a <= i)%nat /\ nth_error l (i - S a) = Some (Some s) /\ In s names)).
        { split.
          - intros [s [H1 [H2 H3]]]. destruct (Nat.eq_dec a i) as [->|Hne].
            + left. rewrite Nat.sub_diag in H2. injection H2 as ->. eauto.
            + right. exists s. replace (i - a)%nat with (S (i - S a)) in H2 by lia. split; [lia|auto].
          - intros [[-> [s [-> H3]]]|[s [H1 [H2 H3]]]].
            + exists s. rewrite Nat.sub_diag. auto.
            + exists s. replace (i - a)%nat with (S (i - S a)) by lia. split; [lia|auto]. }
        rewrite T, <- IH. destruct o as [s|].
        + destruct (str_in s names) eqn:Es; cbn [map In fst].
          * apply str_in_true in Es. split; [intros [Ha|Hb]; [left; eauto|right; exact Hb]|intros [[Ha _]|Hb]; [left; exact Ha|right; exact Hb]].
          * apply str_in_false in Es. split; [intros Hb; right; exact Hb|]. intros [[_ [s' [Hs Hi]]]|Hb]; [injection Hs as <-; contradiction|exact Hb].
        + split; [intros Hb; right; exact Hb|]. intros [[_ [s' [Hs _]]]|Hb]; [discriminate|exact Hb]. }
    intros i. rewrite (G l 0%nat i). rewrite Nat.sub_0_r. split; [intros [s [_ X]]; eauto|intros [s X]; exists s; split; [lia|exact X]].
Qed.
Print Assumptions plotter_chooses_referenced.

(** ** The plots of a dashboard *)
(** Every plot of a dashboard gets the same calls: each event when it happens, initialize at the
    first render of new figures, and render when it is due.  So the theorems on single plots
    hold of the plots of a dashboard. *)
Theorem dashboard_delivers : forall ops d d', (d_time d <> [] \/ d_ep d <> [] \/ d_step d <> []) -> d_run ops d = (d', Ok tt) ->
  let cs := plot_calls (d_interval d) (d_k d) (d_update d) (open_figures d) ops in
  Forall2 (fun p p' => p_run t_op cs p = (p', Ok tt)) (d_time d) (d_time d')
  /\ Forall2 (fun p p' => p_run e_op cs p = (p', Ok tt)) (d_ep d) (d_ep d')
  /\ Forall2 (fun p p' => p_run s_op cs p = (p', Ok tt)) (d_step d) (d_step d').
Proof.
  intros ops d d' Hn H. apply (run_delivers ops d d'); [|exact H]. unfold plots_no.
  destruct (d_time d), (d_ep d), (d_step d); cbn; try lia. destruct Hn as [Hn|[Hn|Hn]]; contradiction Hn; reflexivity.
Qed.
Print Assumptions dashboard_delivers.

Lemma f2_nth {P} (Q : P -> P -> Prop) l l' : Forall2 Q l l' -> forall i p, nth_error l i = Some p -> exists p', nth_error l' i = Some p' /\ Q p p'.
Proof. intros H. induction H as [|p p' l l' Hp _ IH]; intros [|i] q Hq; cbn in *; try discriminate; [injection Hq as <-; eauto|eauto]. Qed.
Lemma no_init_no_reset l : Forall no_init l -> Forall no_reset l.
Proof. intros H. induction H as [|o l Ho _ IH]; constructor; [|exact IH]. destruct o; cbn in *; auto. Qed.

(** A violation plot anywhere in a dashboard without open figures shows, after force_render, all
    violating steps that the environment reported, wherever renders happened in between. *)
Theorem dashboard_shows_violations : forall ops d d' i, open_figures d = false -> ~ In ResetFigures ops -> d_run (ops ++ [Force]) d = (d', Ok tt) ->
  nth_error (d_step d) i = Some violation_plot ->
  exists p, nth_error (d_step d') i = Some p /\ let V := violations (events ops) in b_lines (s_b p) = [(0 :: stairs_x V, Some 0 :: stairs_y 0 V)].
Proof.
  intros ops d d' i Ho Hf H Hi. destruct (dashboard_delivers (ops ++ [Force]) d d') as (_ & _ & H3); [right; right; intros C; rewrite C in Hi; destruct i; discriminate|exact H|].
  destruct (f2_nth _ _ _ H3 i _ Hi) as (p & Hp & Hr). exists p. split; [exact Hp|]. rewrite Ho in Hr.
  destruct (calls_closed (d_interval d) ops (d_k d) (d_update d)) as (a & b & Ec & F1 & F2 & V & _); [apply Forall_forall; intros o Hin ->; contradiction|].
  rewrite Ec in Hr. pose proof (violations_shown a b p F1 (no_init_no_reset _ F2) Hr) as G. cbv zeta in *. unfold violations in *. rewrite V in G. exact G.
Qed.
Print Assumptions dashboard_shows_violations.

(** The same for the lengths of the finished episodes. *)
Theorem dashboard_shows_lengths : forall ops d d' i, open_figures d = false -> ~ In ResetFigures ops -> counted None (events ops) -> d_run (ops ++ [Force]) d = (d', Ok tt) ->
  nth_error (d_ep d) i = Some length_plot ->
  exists p, nth_error (d_ep d') i = Some p /\ let f := fst (episodes (events ops)) in b_lines (e_b p) = [(map INR (seq 0 (length f)), map (fun l => Some (INR (length l))) f)].
Proof.
  intros ops d d' i Ho Hf Hc H Hi. destruct (dashboard_delivers (ops ++ [Force]) d d') as (_ & H3 & _); [right; left; intros C; rewrite C in Hi; destruct i; discriminate|exact H|].
  destruct (f2_nth _ _ _ H3 i _ Hi) as (p & Hp & Hr). exists p. split; [exact Hp|]. rewrite Ho in Hr.
  destruct (calls_closed (d_interval d) ops (d_k d) (d_update d)) as (a & b & Ec & F1 & F2 & _ & _ & E & C); [apply Forall_forall; intros o Hin ->; contradiction|].
  rewrite Ec in Hr. assert (F : Forall no_reset (a ++ PInit :: b)) by (apply Forall_app; split; [now apply no_init_no_reset|constructor; [exact I|now apply no_init_no_reset]]).
  pose proof (episode_lengths_shown a b p F (C None Hc) Hr) as G. cbv zeta in *. unfold episodes in *. rewrite E in G. exact G.
Qed.
Print Assumptions dashboard_shows_lengths.

(** And a state plot shows the last steps: the theorem of C128, for a plot of a dashboard. *)
Theorem dashboard_shows_states : forall w i limit nd rf tau scale p0 ops d d' j, t_set_env (state_plot w i limit nd rf) tau scale = (p0, Ok tt) ->
  open_figures d = false -> ~ In ResetFigures ops -> d_run (ops ++ [Force]) d = (d', Ok tt) -> nth_error (d_time d) j = Some p0 ->
  let H := steps (events ops) in
  exists p x y z, nth_error (d_time d') j = Some p /\ b_lines (t_b p) = (x, y) :: (if rf then [(x, z)] else [])
  /\ ring 1 w (grid w tau) (times 1 tau (length H)) x
  /\ ring 1 w (empty w) (map (fun s => Some (physical limit nd (state_at i (sa_state s)))) H) y
  /\ ring 1 w (empty w) (if rf then map (fun s => Some (physical limit nd (state_at i (sa_ref s)))) H else []) z.
Proof.
  intros w i limit nd rf tau scale p0 ops d d' j Hp0 Ho Hf H Hi. destruct (dashboard_delivers (ops ++ [Force]) d d') as (H3 & _ & _); [left; intros C; rewrite C in Hi; destruct j; discriminate|exact H|].
  destruct (f2_nth _ _ _ H3 j _ Hi) as (p & Hp & Hr). exists p. rewrite Ho in Hr.
  destruct (calls_closed (d_interval d) ops (d_k d) (d_update d)) as (a & b & Ec & F1 & F2 & _ & S & _); [apply Forall_forall; intros o Hin ->; contradiction|].
  rewrite Ec in Hr. assert (F : Forall running b) by (eapply Forall_impl; [|exact F2]; intros []; cbn; auto).
  pose proof (state_plot_shows_last_steps w i limit nd rf tau scale p0 a b p Hp0 F Hr) as G. cbv zeta in *. unfold steps in *. rewrite S in G.
  destruct G as (x & y & z & G). exists x, y, z. split; [exact Hp|exact G].
Qed.
Print Assumptions dashboard_shows_states.

(** A dashboard with all three kinds, rendered before, during and after an episode. *)
Definition vstep (k : nat) (tm : bool) : list vop := [Tell (StepBegin (ANum 1)); Tell (StepEnd k [1] [2] 10 tm)].
Definition vhistory : list vop := [Tell ResetBegin; Tell ResetEnd; Render] ++ vstep 1 false ++ [Render] ++ vstep 2 true ++ [Force; Tell ResetBegin; Tell ResetEnd] ++ vstep 1 false.
Definition vdash (p0 : tplot) : dash := {| d_time := [p0]; d_ep := [length_plot]; d_step := [violation_plot]; d_interval := 2; d_k := 0; d_update := false; d_ep_fig := false; d_step_fig := false; d_time_fig := false |}.
Example dashboard_delivers_example : is_ok (snd (d_run (vhistory ++ [Force]) (vdash (fst (t_set_env (state_plot 3 0 1 false true) (1/2) false))))) = true
  /\ counted None (events vhistory) /\ violations (events vhistory) = [2%nat] /\ map (@length R) (fst (episodes (events vhistory))) = [2%nat] /\ length (steps (events vhistory)) = 3%nat
  /\ ~ In ResetFigures vhistory.
Proof. split; [lazy; reflexivity|]. split; [cbn; auto|]. repeat split. cbn. intros H. repeat (destruct H as [H|H]; [discriminate|]). exact H. Qed.
