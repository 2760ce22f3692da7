(** Reproducibility of whole environments. *)
From Verif Require Import PyBaseFacts Conv_Model Solver_Model Scipy_Model Scipy_Spec Wrap_Model RefGen_Model RefGen_Spec RefGen_Props Constraint_Model Reward_Model Preset_Model Env_Model
  Full_Model Full_Spec Full_Proofs3 Full_Props Repro_Spec Repro_Proofs Repro_Proofs2 Repro_Proofs3 Repro_Proofs4.
Local Open Scope string_scope. Local Open Scope list_scope. Local Open Scope R_scope.

(** ** C165 An episode depends on the seed and the actions only: whatever an environment was
    used for before, after [reset(seed)] the same calls have the same outcomes (observations,
    rewards, terminations), also across later resets.  No state of the converter, the solver,
    the supply, the reference generators or the system survives. *)
Theorem seeded_episode_reproducible (N : numpy) (p : preset) (d : data) (seqs : nat -> np_seq N) (filter : option (list string))
    (seeds : option Z -> list nat -> np_seq N * np_gen N) (callbacks : nat) pl a w1 (z : option Z) (h h' ops : list (op action (gen N) wse)) :
  numpy_ok N -> fits_together p -> data_fits p d -> filter_known p filter -> solver_forgets (d_solver d) -> seed_decides d z ->
  physical_system p d = Some pl -> assemble p seqs filter (pl_machine pl) = Ok a ->
  let sys := modules (pl_k pl) (pl_seed pl) seeds callbacks a in
  env_init sys (pl_init pl) (as_gen a) (as_reward a) (as_filter a) = (w1, Ok tt) ->
  let valid := Forall (allowed (act_valid (action_space (pr_conv p)))) in
  valid h -> valid h' -> valid ops ->
  outcomes sys (Reset z :: ops) (fst (Env_Model.run sys h w1)) = outcomes sys (Reset z :: ops) (fst (Env_Model.run sys h' w1)).
Proof.
  intros HN HF HD Hfil HS Hz Epl Ea sys Ei valid Hh Hh' Ho. destruct (environment_never_breaks N p d seqs filter seeds callbacks HN HF HD Hfil) as (pl' & a' & Epl' & Ea' & _ & w1' & Ei' & HP).
  rewrite Epl in Epl'. injection Epl' as <-. rewrite Ea in Ea'. injection Ea' as <-. fold sys in Ei', HP. rewrite Ei in Ei'. injection Ei' as <-.
  destruct (physical_system_forgets p d pl HS Epl) as (Inv & Pre & Rel & PF).
  assert (Ga : glike (as_gen a) (as_gen a) /\ exists m, as_machine a = m /\ wrap_all (pr_wrappers p) (pl_machine pl) = Ok m).
  { unfold assemble in Ea. destruct (wrap_all (pr_wrappers p) (pl_machine pl)) as [m|]; cbn [bind] in Ea; [|discriminate Ea].
    destruct (new_generator (pr_refs p) seqs) as [g|] eqn:G1; cbn [bind] in Ea; [|discriminate Ea]. destruct (set_modules _ g) as [g1|] eqn:G2; cbn [bind] in Ea; [|discriminate Ea].
    repeat match type of Ea with bind ?x _ = _ => destruct x; cbn [bind] in Ea; [|discriminate Ea] end. injection Ea as <-. cbn [as_gen as_machine]. split; [eapply new_like; eassumption|]. eauto. }
  destruct Ga as (Ga & m & Em & Ew). pose proof (wrap_forgets _ _ _ _ _ _ _ Ew (pf_machine _ _ _ _ _ _ PF)) as HM. rewrite <- Em in HM.
  assert (W1 : e_terminated (w_env w1) = true /\ EInv a Inv w1).
  { unfold env_init in Ei. edestruct (callbacks_silent sys) as (tr & C); [reflexivity|]. rewrite C in Ei. injection Ei as <-. split; [reflexivity|]. unfold EInv. cbn [w_env e_ps e_rg e_rw e_filter e_truncated].
    split; [exact (pf_init _ _ _ _ _ _ PF)|]. auto. }
  destruct W1 as [T1 I1]. assert (P1 : forall l, valid l -> protocol (filter_size p filter) (fun o => length o = length (ref_list (pr_refs p))) (e_terminated (w_env w1)) (snd (Env_Model.run sys l w1))) by (intros l Hl; rewrite T1; apply HP, Hl).
  assert (V : forall g, valid g -> valid (g ++ Reset z :: ops)) by (intros g Hg; apply Forall_app; split; [exact Hg|]; constructor; [exact I|exact Ho]).
  pose proof (P1 _ (V h Hh)) as Q. pose proof (P1 _ (V h' Hh')) as Q'.
  unfold outcomes. eapply (restart_same (pl_k pl) (pl_seed pl) seeds callbacks a _ Inv Pre Rel HM (pf_seed_pre _ _ _ _ _ _ PF)).
  - intros s s' Hs Hs'. exact (pf_seed _ _ _ _ _ _ PF z s s' Hz Hs Hs').
  - exact Ho.
  - eapply (ops_keep (pl_k pl) (pl_seed pl) seeds callbacks a _ Inv Pre Rel HM (pf_seed_inv _ _ _ _ _ _ PF)); [exact Hh|exact I1|exact Q].
  - eapply (ops_keep (pl_k pl) (pl_seed pl) seeds callbacks a _ Inv Pre Rel HM (pf_seed_inv _ _ _ _ _ _ PF)); [exact Hh'|exact I1|exact Q'].
  - apply (protocol_skip sys (no_raise _ _ _ _ a)); exact Q.
  - apply (protocol_skip sys (no_raise _ _ _ _ a)); exact Q'.
Qed.
Print Assumptions seeded_episode_reproducible.

(** The solvers of the library forget: the theorem applies to each of them, for any scipy whose
    results depend on what it is handed. *)
Theorem library_solvers_forget :
  (forall n, solver_forgets (any_euler n)) /\
  (forall K M Jac (X : forall U, scipy U (Jac U) K M) j k,
     solver_forgets (any_ode X j k) /\ (forall method kjac, solver_forgets (any_ivp X j k method kjac)) /\ solver_forgets (any_oint X j k)).
Proof. split; [apply euler_forgets|]. intros K M Jac X j k. split; [apply ode_forgets|]. split; [intros method kjac; apply ivp_forgets|apply oint_forgets]. Qed.
Print Assumptions library_solvers_forget.
(** Non-vacuity: the shunt motor of C127 whose initial states are drawn from a stream that the
    seed selects; its first history is broken off in the middle of an episode. *)
Definition seeded_shunt : data :=
  {| d_dc := d_dc shunt_data; d_perm := d_perm shunt_data; d_pmsm := d_pmsm shunt_data; d_synrm := d_synrm shunt_data; d_eesm := d_eesm shunt_data; d_im := d_im shunt_data;
     d_poly := d_poly shunt_data; d_solver := d_solver shunt_data; d_inits := fun k => ([INR k / 10], [0; INR k / 20]); d_reseed := fun z k => match z with Some z => Z.to_nat z | None => k end;
     d_limits := d_limits shunt_data; d_nominal := d_nominal shunt_data; d_low := d_low shunt_data; d_high := d_high shunt_data; d_motor := d_motor shunt_data |}.
Example repro_example :
  let p := pr_Cont_SC_ShuntDc_v0 in
  In p presets /\ data_fits p seeded_shunt /\ filter_known p None /\ solver_forgets (d_solver seeded_shunt) /\ seed_decides seeded_shunt (Some 7%Z) /\ ~ seed_decides seeded_shunt None /\
  Forall (allowed (G:=gen toy) (W:=wse) (act_valid (action_space (pr_conv p)))) [Reset None; Env_Model.Step (ABox [1 / 2]); Env_Model.Step (ABox [-1])] /\
  d_inits seeded_shunt 1 <> d_inits seeded_shunt 2.
Proof.
  split; [unfold presets; cbn; tauto|]. split; [|split; [|split; [|split; [|split; [|split]]]]].
  - split; [exact (proj1 (proj2 library_solvers_sound _ _ _ lazy_scipy _ _ lazy_scipy_works))|]. split; [intros k; split; reflexivity|]. repeat split.
  - intros l s H. discriminate H.
  - exact (proj1 (proj2 library_solvers_forget _ _ _ lazy_scipy _ _)).
  - intros k k'. reflexivity.
  - intros H. discriminate (H 0%nat 1%nat).
  - constructor; [exact I|]. constructor; [reflexivity|]. constructor; [reflexivity|constructor].
  - cbn [seeded_shunt d_inits]. intros H. injection H as H _. cbn in H. lra.
Qed.
(** A solver that counts its calls across resets does not meet the hypothesis. *)
Definition sticky : any_solver :=
  {| an_state := fun _ => nat; an_jac := fun _ => unit;
     an_if := fun U => {| so_equation := fun _ _ n => n; so_initial := fun _ _ n => (n, Ok tt); so_params := fun _ n => (n, Ok tt); so_integrate := fun _ n => (S n, Ok [INR n]);
                          so_t := fun n => Ok 0; so_y := fun n => Ok [INR n] |};
     an_new := fun _ => O; an_jacobian := fun _ => None |}.
Example sticky_remembers : ~ solver_forgets sticky.
Proof.
  intros H. destruct (H unit (fun _ _ y => Ok y) [] [SInt 0] [0] 0 [] (Forall_nil _) (Forall_cons (SInt 0) I (Forall_nil _))) as (_ & K & _). cbn in K. injection K as K. lra.
Qed.
