(** The voltages that an environment shows are the commanded ones. *)
From Verif Require Import PyBaseFacts Conv_Model Conv_Spec Scipy_Spec Wrap_Model RefGen_Model RefGen_Spec RefGen_Props Constraint_Model Reward_Model Preset_Model Env_Model Env_Proofs
  Full_Model Full_Spec Full_Proofs3 Full_Props Repro_Spec Repro_Proofs2 Repro_Proofs3 Cmd_Spec Cmd_Proofs Cmd_Proofs2.
Local Open Scope string_scope. Local Open Scope list_scope. Local Open Scope R_scope.

(** ** C166 In every environment, for every history and every valid action: the terminal voltage
    that a step reports is the one its action commands, times the supply voltage and divided by
    the limit of that voltage.  It does not depend on the currents (no interlocking time), on
    earlier actions, on the solver or on the position of the step in the history. *)
Theorem observed_voltages_are_commanded (N : numpy) (p : preset) (d : data) (seqs : nat -> np_seq N) (filter : option (list string))
    (seeds : option Z -> list nat -> np_seq N * np_gen N) (callbacks : nat) pl a w1 (ops : list (op action (gen N) wse)) :
  numpy_ok N -> fits_together p -> data_fits p d -> filter_known p filter ->
  physical_system p d = Some pl -> assemble p seqs filter (pl_machine pl) = Ok a ->
  let sys := modules (pl_k pl) (pl_seed pl) seeds callbacks a in
  env_init sys (pl_init pl) (as_gen a) (as_reward a) (as_filter a) = (w1, Ok tt) ->
  Forall (allowed (act_valid (action_space (pr_conv p)))) ops ->
  forall x o, In (Step x, DidStep o) (outcomes sys ops w1) ->
  forall k j name, nth_error (terminals (pr_motor p)) k = Some name -> nth_error (observed_names p filter) j = Some name ->
  exists u pos lim, nth_error (commanded (pr_conv p) x) k = Some u /\ nth_error (motor_states (pr_motor p)) pos = Some name /\ nth_error (d_limits d) pos = Some lim /\
    nth_error (so_state o) j = Some (u * pr_supply p / lim).
Proof.
  intros HN HF HD Hfil Epl Ea sys Ei Ho x o Hin k j name Hk Hj. destruct (environment_never_breaks N p d seqs filter seeds callbacks HN HF HD Hfil) as (pl' & a' & Epl' & Ea' & _ & w1' & Ei' & HP).
  rewrite Epl in Epl'. injection Epl' as <-. rewrite Ea in Ea'. injection Ea' as <-. fold sys in Ei', HP. rewrite Ei in Ei'. injection Ei' as <-.
  destruct (physical_system_obeys p d pl (ft_plant _ HF) Epl) as (Inv & PO).
  assert (Ga : glike (as_gen a) (as_gen a) /\ wrap_all (pr_wrappers p) (pl_machine pl) = Ok (as_machine a) /\ init_filter (i_names (m_info (as_machine a))) filter = Ok (as_filter a)).
  { unfold assemble in Ea. destruct (wrap_all (pr_wrappers p) (pl_machine pl)) as [m|]; cbn [bind] in Ea; [|discriminate Ea].
    destruct (new_generator (pr_refs p) seqs) as [g|] eqn:G1; cbn [bind] in Ea; [|discriminate Ea]. destruct (set_modules _ g) as [g1|] eqn:G2; cbn [bind] in Ea; [|discriminate Ea].
    destruct (announce _ _); cbn [bind] in Ea; [|discriminate Ea]. destruct (env_monitor _ _); cbn [bind] in Ea; [|discriminate Ea]. destruct (wse_set_modules _ _); cbn [bind] in Ea; [|discriminate Ea].
    destruct (init_filter _ filter) as [f|] eqn:G3; cbn [bind] in Ea; [|discriminate Ea].
    repeat match type of Ea with bind ?x _ = _ => destruct x; cbn [bind] in Ea; [|discriminate Ea] end. injection Ea as <-. cbn [as_gen as_machine as_filter]. split; [eapply new_like; eassumption|]. auto. }
  destruct Ga as (Ga & Ew & Ef). destruct (wrap_keeps _ _ _ Ew) as [Wn Ws]. pose proof (wrap_forgets _ _ _ _ _ _ _ Ew (po_forgets _ _ _ _ _ _ PO)) as HM. rewrite (po_info _ _ _ _ _ _ PO) in Wn. fold (all_names p) in Wn.
  assert (W1 : e_terminated (w_env w1) = true /\ EInv a Inv w1).
  { unfold env_init in Ei. edestruct (callbacks_silent sys) as (tr & C); [reflexivity|]. rewrite C in Ei. injection Ei as <-. split; [reflexivity|]. unfold EInv. cbn [w_env e_ps e_rg e_rw e_filter e_truncated].
    split; [exact (po_init _ _ _ _ _ _ PO)|]. auto. }
  destruct W1 as [T1 I1]. unfold outcomes in Hin. apply outcome_of in Hin. destruct Hin as (h & rest & E & Eo). pose proof (HP _ Ho) as Q. rewrite E in Q, Ho. rewrite <- T1 in Q.
  assert (Hh : Forall (allowed (act_valid (action_space (pr_conv p)))) h) by (apply Forall_app in Ho; apply Ho).
  assert (Hx : act_valid (action_space (pr_conv p)) x) by (apply Forall_app in Ho; destruct Ho as [_ Ho]; exact (Forall_inv Ho)).
  pose proof (ops_keep (pl_k pl) (pl_seed pl) seeds callbacks a _ Inv (fun _ _ => False) (fun _ _ => False) HM (po_seed _ _ _ _ _ _ PO) _ _ h Hh (Step x :: rest) w1 I1 Q) as I2.
  change (the_sys (pl_k pl) (pl_seed pl) seeds callbacks a) with sys in I2. cbn [run_op] in Eo. destruct (env_step sys x (fst (Env_Model.run sys h w1))) as [w2 [y|e]] eqn:Es; cbn [snd] in Eo; [|discriminate Eo].
  injection Eo as <-. apply (step_parts sys (fun _ _ _ => eq_refl)) in Es. destruct Es as (p1 & st & g1 & ref & dg & r1 & g2 & ob & _ & E2 & _ & _ & _ & _ & Esel & _). destruct I2 as (I2 & _ & _ & I3 & _).
  cbn [sys modules ps_simulate] in E2. destruct (Ws _ _ _ _ E2) as (o0 & F1 & F2). destruct (terminal_pos _ _ _ Hk) as (pos & K1 & K2).
  destruct (po_sim _ _ _ _ _ _ PO _ _ _ _ I2 Hx F1 k pos K1) as (u & lim & L1 & L2 & L3). exists u, pos, lim. repeat (split; [assumption|]).
  rewrite I3 in Esel. destruct (ft_names _ HF) as [Hnd _].
  assert (FI : filter_indices (all_names p) (observed_names p filter) = Ok (as_filter a)) by (rewrite Wn in Ef; unfold observed_names; destruct filter as [[|s f]|]; exact Ef).
  destruct (filter_indices_spec _ _ _ FI) as [Lf Sf]. destruct (nth_error (as_filter a) j) as [i|] eqn:Hi; [|apply nth_error_None in Hi; assert (j < length (observed_names p filter))%nat by (apply nth_error_Some; congruence); lia].
  rewrite (select_at _ _ _ _ _ Esel Hi). assert (i = pos) as ->; [|apply F2, L3].
  specialize (Sf j i Hi). rewrite Hj in Sf. assert (K3 : nth_error (all_names p) pos = Some name) by (unfold all_names; rewrite nth_error_app1; [exact K2|apply nth_error_Some; congruence]).
  apply (proj1 (NoDup_nth_error (all_names p)) Hnd); [apply nth_error_Some; congruence|congruence].
Qed.
Print Assumptions observed_voltages_are_commanded.

(** Non-vacuity: the speed controlled shunt motor of C127 with its limits of 60 V; the second step of an
    episode asks for half the voltage, the third for more than there is. *)
Example commanded_example :
  let p := pr_Cont_SC_ShuntDc_v0 in
  In p presets /\ nth_error (terminals (pr_motor p)) 0 = Some "u" /\ nth_error (observed_names p (Some ["omega"; "u"])) 1 = Some "u" /\
  commanded (pr_conv p) (ABox [1 / 2]) = [1 / 2] /\ commanded (pr_conv p) (ABox [-3]) = [-1] /\ pr_supply p = 60 /\
  nth_error (motor_states (pr_motor p)) 4 = Some "u" /\ nth_error (d_limits shunt_data) 4 = Some 60 /\
  forall o1 o2 o3 o4 l, protocol (Act := action) (G := gen toy) (W := wse) 2 (fun o : list R => length o = 1%nat) true
    ((Reset None, o1) :: (Env_Model.Step (ABox [1]), o2) :: (Env_Model.Step (ABox [1 / 2]), o3) :: (Env_Model.Step (ABox [-3]), o4) :: l) ->
  exists o, o2 = DidStep o.
Proof.
  assert (C : forall x, clipped x (-1) 1 = Rmin (Rmax x (-1)) 1) by (intros x; symmetry; apply Conv_Proofs2.clipped_eq; lra).
  split; [unfold presets; cbn; tauto|]. split; [reflexivity|]. split; [reflexivity|]. split; [|split; [|split; [reflexivity|split; [reflexivity|split; [reflexivity|]]]]].
  - cbn. f_equal. rewrite C. unfold Rmax, Rmin. repeat destruct (Rle_dec _ _); lra.
  - cbn. f_equal. rewrite C. unfold Rmax, Rmin. repeat destruct (Rle_dec _ _); lra.
  - intros o1 o2 o3 o4 l H. inversion H as [|b z st ob l2 K1 K2 K3| | |]; subst. inversion K3; subst. eauto.
Qed.
(** The other kinds of converters: a switched four-quadrant converter, a switched bridge (phase c
    high), two converters of an externally excited synchronous motor. *)
Example commanded_kinds :
  commanded (Single Fin4) (ADisc 2) = [-1] /\ commanded (Single FinB6) (ADisc 1) = [-/2; -/2; /2] /\
  commanded (Multi true [FinB6; Fin4]) (AMulti [6; 1]%Z) = [/2; /2; -/2; 1] /\
  length (commanded (Multi false [ContB6; Cont4]) (ABox [1; 0; -1; 1 / 2])) = 4%nat.
Proof. repeat split. Qed.
