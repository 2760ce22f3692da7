(** Properties C01, C02, C03, C05, C06: life cycle of the environment. *)
From Verif Require Import PyBaseFacts Env_Model Env_Spec Env_Proofs.

(** *** C01: step is refused exactly when a reset is required *)
Theorem env_step_refused_iff :
  forall (Act Ref Obs P G W : Type) (sys : system Act Ref Obs P G W)
         p g r filt n ops a w0 w h,
  never_fails sys -> states_have_length sys n -> (forall i, In i filt -> (i < n)%nat) ->
  env_init sys p g r filt = (w0, Ok tt) -> run sys ops w0 = (w, h) ->
  (snd (run_op sys (Step a) w) = Raised AssertionError <-> reset_required h = true).
Proof. intros; eapply refused_iff; eauto. Qed.
Print Assumptions env_step_refused_iff.

Theorem env_step_succeeds_otherwise :
  forall (Act Ref Obs P G W : Type) (sys : system Act Ref Obs P G W)
         p g r filt n ops a w0 w h,
  never_fails sys -> states_have_length sys n -> (forall i, In i filt -> (i < n)%nat) ->
  env_init sys p g r filt = (w0, Ok tt) -> run sys ops w0 = (w, h) ->
  reset_required h = false -> exists o, snd (run_op sys (Step a) w) = DidStep o.
Proof. intros; eapply succeeds_otherwise; eauto. Qed.
Print Assumptions env_step_succeeds_otherwise.

(** With modules and callbacks that may raise at any call: a locked environment
    refuses the step and nothing changes, in particular no callback runs. *)
Theorem env_locked_step_no_effect :
  forall (Act Ref Obs P G W : Type) (sys : system Act Ref Obs P G W)
         p g r filt ops a w0 w h,
  env_init sys p g r filt = (w0, Ok tt) -> run sys ops w0 = (w, h) ->
  locked h = true -> run_op sys (Step a) w = (w, Raised AssertionError).
Proof. intros; eapply locked_refused; eauto. Qed.
Print Assumptions env_locked_step_no_effect.

(** The flag is cleared before the modules are reset: a reset that raises
    nevertheless unlocks step, on a drive that was not reset. *)
Theorem env_failed_reset_unlocks_refuted :
  forall (Act Ref Obs P G W : Type) (sys : system Act Ref Obs P G W)
         s (w : world Act Ref P G W) p0 g0 x0 p' e,
  (forall tr i ev, cb_raises sys tr i ev = None) ->
  seed_all sys (e_ps (w_env w), e_rg (w_env w), e_rw (w_env w)) s = (p0, g0, x0) ->
  ps_reset sys p0 = (p', Err e) ->
  snd (run_op sys (Reset s) w) = Raised e /\
  e_terminated (w_env (fst (run_op sys (Reset s) w))) = false.
Proof. intros; eapply failed_reset_unlocks; eauto. Qed.
Print Assumptions env_failed_reset_unlocks_refuted.

(** *** C02: terminated iff full violation, truncated never *)
Theorem env_terminated_iff_violation :
  forall (Act Ref Obs P G W : Type) (sys : system Act Ref Obs P G W)
         p g r filt ops w0 w h a w' o,
  env_init sys p g r filt = (w0, Ok tt) -> run sys ops w0 = (w, h) ->
  run_op sys (Step a) w = (w', DidStep o) ->
  exists p' state degree,
    ps_simulate sys (e_ps (w_env w)) a = (p', Ok state) /\
    cm_check sys state = Ok degree /\
    (so_terminated o = true <-> 1 <= degree) /\
    so_truncated o = false /\
    select filt state = Ok (so_state o).
Proof. intros; eapply terminated_iff; eauto. Qed.
Print Assumptions env_terminated_iff_violation.

(** *** C03: callback protocol *)
Theorem env_callback_protocol :
  forall (Act Ref Obs P G W : Type) (sys : system Act Ref Obs P G W)
         p g r filt n ops w0 w h,
  never_fails sys -> states_have_length sys n -> counts_steps sys ->
  (forall i, In i filt -> (i < n)%nat) ->
  env_init sys p g r filt = (w0, Ok tt) -> run sys ops w0 = (w, h) ->
  exists t, w_trace w = to_all (n_callbacks sys) OnSetEnv ++ t /\
            protocol (n_callbacks sys) filt 0 h t.
Proof. intros; eapply init_protocol; eauto. Qed.
Print Assumptions env_callback_protocol.

Theorem env_failing_simulation_trace :
  forall (Act Ref Obs P G W : Type) (sys : system Act Ref Obs P G W)
         a (w : world Act Ref P G W) p' e,
  (forall tr i ev, cb_raises sys tr i ev = None) ->
  e_terminated (w_env w) = false ->
  ps_simulate sys (e_ps (w_env w)) a = (p', Err e) ->
  run_op sys (Step a) w =
    ({| w_env := with_ps p' (w_env w);
        w_trace := w_trace w ++ to_all (n_callbacks sys) (OnStepBegin (ps_k sys (e_ps (w_env w))) a) |},
     Raised e).
Proof. intros; eapply failing_simulate; eauto. Qed.
Print Assumptions env_failing_simulation_trace.

(** Whatever fails (module or callback), a step delivers an initial part of one
    begin/end group and nothing else. *)
Theorem env_step_trace_prefix :
  forall (Act Ref Obs P G W : Type) (sys : system Act Ref Obs P G W)
         a (w : world Act Ref P G W),
  exists t finish, w_trace (fst (env_step sys a w)) = w_trace w ++ t /\
    is_prefix t
      (to_all (n_callbacks sys) (OnStepBegin (ps_k sys (e_ps (w_env w))) a) ++
       match finish with
       | Some (st, rf, rw, tm, k') => to_all (n_callbacks sys) (OnStepEnd k' st rf rw tm)
       | None => []
       end).
Proof. intros; apply step_trace_prefix. Qed.
Print Assumptions env_step_trace_prefix.

(** *** C05: state filter *)
(** Position [k] of any filtered vector (observation, limits, nominal state,
    bounds of the space) is the entry of the state that is called
    [state_names[k]]. *)
Theorem env_filter_consistent :
  forall (names : list string) (f : option (list string)) idx (v : list R),
  init_filter names f = Ok idx -> length v = length names ->
  exists sel nm, select idx v = Ok sel /\ env_state_names idx names = Ok nm /\
    length sel = length nm /\
    forall k name, nth_error nm k = Some name ->
      exists i, nth_error names i = Some name /\ nth_error idx k = Some i /\
                nth_error sel k = nth_error v i.
Proof. exact filter_consistent. Qed.
Print Assumptions env_filter_consistent.

(** A non-empty filter is reproduced by [state_names]. *)
Theorem env_filter_names :
  forall names f idx, f <> [] -> init_filter names (Some f) = Ok idx ->
  env_state_names idx names = Ok f.
Proof. intros names [|s f] idx Hf H; [congruence|]. exact (select_names_of_filter _ _ _ H). Qed.
Print Assumptions env_filter_names.

Theorem env_filter_unknown_refused :
  forall names f, f <> [] ->
  (init_filter names (Some f) = Err ValueError <-> exists s, In s f /\ ~ In s names).
Proof.
  intros names [|s f] Hf; [congruence|]. split; intros H.
  - exact (proj2 (filter_indices_err _ _ _ H)).
  - destruct (init_filter names (Some (s :: f))) as [idx|e] eqn:E.
    + exfalso. destruct H as (x & Hx & Hnx). apply Hnx.
      apply In_nth_error in Hx as [k Hk].
      pose proof (select_names_of_filter _ _ _ E) as Hs.
      destruct (filter_indices_spec _ _ _ E) as [Hl Hn].
      destruct (nth_error idx k) as [i|] eqn:Ei.
      * apply nth_error_In with i. rewrite (Hn _ _ Ei). exact Hk.
      * apply nth_error_None in Ei. assert (k < length (s :: f))%nat by (apply nth_error_Some; congruence). lia.
    + apply filter_indices_err in E as [-> _]. reflexivity.
Qed.
Print Assumptions env_filter_unknown_refused.

(** No filter, or an empty one, shows everything. *)
Theorem env_filter_empty_is_all :
  forall names v, NoDup names -> length v = length names ->
  exists idx, init_filter names None = Ok idx /\ init_filter names (Some []) = Ok idx /\
    env_observation idx v = Ok v /\ env_state_names idx names = Ok names.
Proof.
  intros names v Hnd Hl. exists (seq 0 (length names)). unfold init_filter.
  rewrite filter_indices_all by auto. repeat split.
  - unfold env_observation. rewrite <- Hl. apply select_seq.
  - apply select_seq.
Qed.
Print Assumptions env_filter_empty_is_all.

(** *** C06: simulation settings are shared *)
(** After any sequence of constructions every environment reports the sampling
    time of the one constructed last ... *)
Theorem env_sim_tau_is_last :
  forall taus tau c, env_sim_tau (fold_left construct_env (taus ++ [tau]) c) = tau.
Proof. exact construct_all_tau. Qed.
Print Assumptions env_sim_tau_is_last.

(** ... so a second construction changes what the first one reports. *)
Theorem env_sim_shared_refuted :
  exists tau1 tau2 c, env_sim_tau (construct_env c tau1) = tau1 /\
    env_sim_tau (construct_env (construct_env c tau1) tau2) <> tau1.
Proof. exists 1, 2, sim_class_init. simpl. unfold env_sim_tau; simpl; split; lra. Qed.
Print Assumptions env_sim_shared_refuted.

(** The advertised simulation time [sim.t] stays 0 forever. *)
Theorem env_sim_t_zero_refuted :
  forall taus, env_sim_t (fold_left construct_env taus sim_class_init) = 0.
Proof. exact construct_all_t. Qed.
Print Assumptions env_sim_t_zero_refuted.

(** *** Non-vacuity: a small drive with one state; action [true] overloads it. *)
Definition toy : system bool unit unit nat unit unit :=
  {| ps_reset := fun _ => (O, Ok [0]);
     ps_simulate := fun k (a : bool) => (S k, Ok [if a then 2 else 0]);
     ps_k := fun k => k;
     rg_reset := fun g _ => (g, Ok (tt, tt));
     rg_get := fun g _ => (g, Ok tt);
     rg_obs := fun g _ => (g, Ok tt);
     rw_reset := fun x _ (_ : unit) => (x, Ok tt);
     rw_reward := fun x _ (_ : unit) _ (_ : bool) d => (x, Ok (-d));
     cm_check := fun st => Ok (hd 0 st / 2);
     seed_all := fun x _ => x;
     n_callbacks := 2;
     cb_raises := fun _ _ (_ : event bool unit) => None |}.

Example toy_never_fails : never_fails toy.
Proof. constructor; simpl; eauto. Qed.
Example toy_lengths : states_have_length toy 1.
Proof. split; simpl; intros; injection H; intros; subst; reflexivity. Qed.
Example toy_counts : counts_steps toy.
Proof. split; simpl; intros; injection H; intros; subst; reflexivity. Qed.
Definition toy_world k b t : world bool unit nat unit unit :=
  {| w_env := {| e_ps := k; e_rg := tt; e_rw := tt; e_terminated := b; e_truncated := false;
                 e_filter := [O] |}; w_trace := t |}.
Lemma toy_step k a t : exists t' o,
  run_op toy (Step a) (toy_world k false t) = (toy_world (S k) a t', DidStep o) /\
  so_terminated o = a /\ length t' = (length t + 4)%nat.
Proof.
  assert (rle 1 (hd 0 [if a then 2 else 0] / 2) = a) as Ha
    by (destruct a; simpl; [apply rle_true|apply rle_false]; lra).
  simpl in Ha. eexists _, _. split; [|split].
  - unfold run_op, env_step, mbind, get_env, lift, put_env, toy_world. simpl.
    rewrite Ha. reflexivity.
  - reflexivity.
  - rewrite !app_length. simpl. lia.
Qed.
Example toy_history :
  exists w0 w h, env_init toy O tt tt [O] = (w0, Ok tt) /\
    run toy [Reset None; Step false; Step true; Step false] w0 = (w, h) /\
    reset_required h = true /\ locked h = true /\ steps_since_reset h = 2%nat /\
    length (w_trace w) = 14%nat.
Proof.
  set (t0 := to_all 2 OnSetEnv : list (delivery bool unit)).
  assert (exists t1 o, run_op toy (Reset None) (toy_world 0 true t0) = (toy_world 0 false t1, DidReset o)
            /\ length t1 = 6%nat) as (t1 & o1 & E1 & L1)
    by (do 2 eexists; split; reflexivity).
  destruct (toy_step 0 false t1) as (t2 & o2 & E2 & T2 & L2).
  destruct (toy_step 1 true t2) as (t3 & o3 & E3 & T3 & L3).
  exists (toy_world 0 true t0). do 2 eexists. split; [reflexivity|].
  unfold run. rewrite E1, E2, E3. split; [reflexivity|].
  unfold reset_required, locked, steps_since_reset. cbn -[Rdiv]. rewrite T3. repeat split.
  rewrite L3, L2, L1. reflexivity.
Qed.
Example toy_failing_reset :
  exists sys : system bool unit unit nat unit unit, forall p,
    (forall tr i ev, cb_raises sys tr i ev = None) /\ snd (ps_reset sys p) = Err ValueError.
Proof.
  exists {| ps_reset := fun p => (p, Err ValueError);
     ps_simulate := ps_simulate toy; ps_k := ps_k toy; rg_reset := rg_reset toy;
     rg_get := rg_get toy; rg_obs := rg_obs toy; rw_reset := rw_reset toy;
     rw_reward := rw_reward toy; cm_check := cm_check toy; seed_all := seed_all toy;
     n_callbacks := 2; cb_raises := cb_raises toy |}. simpl. auto.
Qed.
Example filter_example :
  exists idx, init_filter ["omega"; "torque"; "i"]%string (Some ["i"; "omega"]%string) = Ok idx /\
    env_observation idx [1; 2; 3] = Ok [3; 1].
Proof. exists [2; 0]%nat. split; reflexivity. Qed.
