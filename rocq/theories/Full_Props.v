(** Properties of whole environments: every module of the table put together. *)
From Verif Require Import PyBaseFacts PyDictFacts Solver_Model Solver_Proofs Motor_Model Loads_Model Scipy_Model Scipy_Spec Scipy_Proofs3 Wrap_Model RefGen_Model RefGen_Spec RefGen_Props Preset_Model Env_Model Full_Model Full_Spec Full_Proofs3.
Local Open Scope string_scope. Local Open Scope list_scope. Local Open Scope R_scope.

(** ** C127 No history of calls breaks an environment whose modules fit together: it can be
    constructed, every reset returns, every step with an action of the action space returns
    until one reports termination, a step is refused exactly from then on (and before the
    first reset), and all observations have the announced sizes. *)
Theorem environment_never_breaks (N : numpy) (p : preset) (d : data) (seqs : nat -> np_seq N) (filter : option (list string))
    (seeds : option Z -> list nat -> np_seq N * np_gen N) (callbacks : nat) :
  numpy_ok N -> fits_together p -> data_fits p d -> filter_known p filter ->
  exists pl a, physical_system p d = Some pl /\ assemble p seqs filter (pl_machine pl) = Ok a /\ length (as_filter a) = filter_size p filter /\
  exists w1, env_init (modules (pl_k pl) (pl_seed pl) seeds callbacks a) (pl_init pl) (as_gen a) (as_reward a) (as_filter a) = (w1, Ok tt) /\
  forall ops, Forall (allowed (act_valid (action_space (pr_conv p)))) ops ->
    protocol (filter_size p filter) (fun o => length o = length (ref_list (pr_refs p))) true
      (snd (Env_Model.run (modules (pl_k pl) (pl_seed pl) seeds callbacks a) ops w1)).
Proof. intros HN HF HD Hfil. exact (whole_protocol HN p d HF HD seqs filter seeds callbacks Hfil). Qed.
Print Assumptions environment_never_breaks.

(** All 54 registered environments fit together. *)
Theorem registered_environments_fit (p : preset) : In p presets -> fits_together p.
Proof.
  intros Hp. apply check_fits; [exact (proj1 (forallb_forall _ _) presets_check p Hp)|]. pose proof presets_sigma as H. rewrite Forall_forall in H. exact (H p Hp).
Qed.
Print Assumptions registered_environments_fit.

(** The solvers of the library are sound: EulerSolver with at least one sub-step and each of
    the wrappers as long as scipy keeps working on equations that are defined everywhere. *)
Theorem library_solvers_sound :
  (forall n, (1 <= n)%nat -> solver_sound (any_euler n)) /\
  (forall K M Jac (X : forall U, scipy U (Jac U) K M) j k, (forall U (f : rhs U) PP n, defined_on f PP n -> keeps_working (X U) f PP n) ->
     solver_sound (any_ode X j k) /\ (forall method kjac, solver_sound (any_ivp X j k method kjac)) /\ solver_sound (any_oint X j k)).
Proof.
  split.
  - intros n Hn U f PP m Hf. exists (euler_B f), (euler_Q f m). split; [now apply euler_works|]. split; [reflexivity|exact Hn].
  - intros K M Jac X j k HX. split; [|split].
    + intros U f PP m Hf. exists (ode_B f), (ode_Q f m). split; [now apply ode_works, HX|]. cbn. eexists. split; reflexivity.
    + intros method kjac U f PP m Hf. exists (ivp_B f), (ivp_Q f m). split; [now apply ivp_works, HX|]. reflexivity.
    + intros U f PP m Hf. exists (oint_B f), (oint_Q f m). split; [now apply oint_works, HX|]. reflexivity.
Qed.
Print Assumptions library_solvers_sound.
(** A scipy that keeps working: one step of Euler's method. *)
Definition euler_step {U} (f : rhs U) (p : U) (t0 t1 : R) (y : list R) : res (list R) := do d <- f p t0 y; np_add y (vscale (t1 - t0) d).
Definition lazy_scipy U : scipy U unit unit unit :=
  {| x_prepare := fun _ _ _ => tt;
     x_run := fun _ f _ y t0 t1 p _ => (tt, match p with Some p => do y' <- euler_step f p t0 t1 y; Ok (y', t1) | None => Err TypeError end);
     x_ivp := fun _ _ _ f t0 t1 y p => match f, y, p with Some f, Some y, Some p => do y' <- euler_step f p t0 t1 y; Ok (Some [y']) | _, _, _ => Err TypeError end;
     x_odeint := fun _ f _ y t0 t1 p => match f, y, p with Some f, Some y, Some p => do y' <- euler_step f p t0 t1 y; Ok [y; y'] | _, _, _ => Err TypeError end |}.
Example lazy_scipy_works : forall U (f : rhs U) PP n, defined_on f PP n -> keeps_working (lazy_scipy U) f PP n.
Proof.
  intros U f PP n Hf.
  assert (H : forall p t0 t1 y, PP p -> length y = n -> exists y', euler_step f p t0 t1 y = Ok y' /\ length y' = n).
  { intros p t0 t1 y Hp Hy. unfold euler_step. destruct (Hf p t0 y Hp Hy) as (dy & -> & Hl). cbn [bind]. unfold np_add, vscale. rewrite map_length, Hl, Hy, Nat.eqb_refl.
    eexists. split; [reflexivity|]. rewrite map2_length, map_length. lia. }
  split; [|split].
  - intros m j y t0 t1 p Hy Hp. destruct (H p t0 t1 y Hp Hy) as (y' & E & L). cbn. rewrite E. cbn. eauto.
  - intros k me j y t0 t1 p Hy Hp. destruct (H p t0 t1 y Hp Hy) as (y' & E & L). cbn. rewrite E. cbn. exists [], y'. auto.
  - intros k j y t0 t1 p Hy Hp. destruct (H p t0 t1 y Hp Hy) as (y' & E & L). cbn. rewrite E. cbn. exists [y], y'. auto.
Qed.

(** Non-vacuity: the shunt motor with speed control, six states and the current sum. *)
Definition shunt_data : data :=
  {| d_dc := {| dc_ra := 1; dc_re := 1; dc_la := 1; dc_lep := 1; dc_le := 1 |}; d_perm := {| pe_ra := 1; pe_la := 1; pe_psi := 1 |};
     d_pmsm := {| pm_p := 1; pm_ld := 1; pm_lq := 1; pm_rs := 1; pm_psi := 1 |}; d_synrm := {| sr_p := 1; sr_ld := 1; sr_lq := 1; sr_rs := 1 |};
     d_eesm := {| ee_p := 1; ee_ld := 1; ee_lq := 1; ee_lm := 1; ee_le := 1; ee_rs := 1; ee_re := 1; ee_k := 1 |};
     d_im := {| im_p := 1; im_lm := 1; im_lsigs := 1; im_lsigr := 1; im_rs := 1; im_rr := 1 |};
     d_poly := {| po_a := 1; po_b := 1; po_c := 1; po_jload := 1; po_jtotal := 2; po_lim := 1; po_lin := 1 |};
     d_solver := any_ode lazy_scipy (fun _ => None) tt; d_inits := fun k => ([0], [0; 0]); d_reseed := fun _ k => k;
     d_limits := [400; 38; 210; 7; 60; 60]; d_nominal := [368; 16; 97; 1; 60; 60]; d_low := [0; 0; -1; -1; 0; 0]; d_high := [1; 1; 1; 1; 1; 1];
     d_motor := {| mi_three := false; mi_induction := false; mi_par := [] |} |}.
Example environment_example :
  In pr_Cont_SC_ShuntDc_v0 presets /\ data_fits pr_Cont_SC_ShuntDc_v0 shunt_data /\ filter_known pr_Cont_SC_ShuntDc_v0 (Some ["omega"; "i_sum"]) /\
  act_valid (action_space (pr_conv pr_Cont_SC_ShuntDc_v0)) (ABox [1 / 2]) /\
  (** an outcome list as the theorem describes it *)
  forall (l : list (op action (gen toy) Reward_Model.wse * outcome (list R))) o1 o2 o3,
    protocol 2 (fun o : list R => length o = 1%nat) true ((Env_Model.Step (ABox [1 / 2]), o1) :: (Reset None, o2) :: (Env_Model.Step (ABox [1 / 2]), o3) :: l) ->
    o1 = Raised AssertionError /\ (exists st ob, o2 = DidReset (st, ob) /\ length st = 2%nat) /\ exists o, o3 = DidStep o /\ so_truncated o = false.
Proof.
  split; [unfold presets; cbn; tauto|]. split; [|split; [|split; [reflexivity|]]].
  - split; [exact (proj1 (proj2 library_solvers_sound _ _ _ lazy_scipy _ _ lazy_scipy_works))|]. split; [intros k; split; reflexivity|]. repeat split.
  - intros l s H Hs. injection H as <-. cbn in Hs. vm_compute. intuition (subst; auto 10).
  - intros l o1 o2 o3 H. inversion H as [| | |a l1 H1|]; subst. split; [reflexivity|]. inversion H1 as [|b z st ob l2 K1 K2 K3| | |]; subst. split; [eauto|]. inversion K3; subst. eauto.
Qed.
(** A table entry with a misspelt reference does not fit, nothing is claimed of it. *)
Example misfit_example :
  let p := {| pr_id := ""; pr_class := ""; pr_sys := DcSys; pr_supply := 60; pr_conv := Single Cont4; pr_motor := PermExDc; pr_load := LPoly; pr_tau := 1;
              pr_refs := One {| rf_state := "speed"; rf_margin := None; rf_sigma := (1, 1) |}; pr_weights := []; pr_constraints := []; pr_wrappers := []; pr_plots := [] |} in
  ~ fits_together p.
Proof.
  intros p [_ _ _ (_ & _ & H) _ _]. inversion H as [|? ? (K & _) _]; subst. cbn in K. intuition discriminate.
Qed.
