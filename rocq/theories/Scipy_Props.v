(** Theorems about the solver wrappers and about systems with any solver (C139 - C143). *)
From Verif Require Import PyBaseFacts Conv_Model Conv_Spec Conv_Proofs Solver_Model Solver_Spec Solver_Proofs Supply_Model Motor_Model Loads_Model
  PhysSys_Model PhysSys_Spec PhysSys_Proofs PhysSys_Proofs2 PhysSys_Props Scipy_Model Scipy_Spec Scipy_Proofs Scipy_Proofs2 Scipy_Proofs3.
Local Open Scope string_scope. Local Open Scope list_scope. Local Open Scope R_scope.

(** ** C139 Solvers can be exchanged *)
(** A system with EulerSolver behind the interface returns and raises exactly what the system
    of [PhysSys_Model] does, for every sequence of calls. *)
Theorem euler_behind_interface :
  forall C S A U V J (cv : conv_if C A) (sp : supply_if S) (f : rhs U) (j : option J) tau (view : list R -> res V) cur volt volt_last act out limits obs ops x,
  outcomes (g_reset cv sp (euler_if (J:=J)) limits obs) (g_simulate cv sp (euler_if (J:=J)) tau view cur volt volt_last act out limits) ops (embed f j x) =
  outcomes (reset cv sp limits obs) (simulate cv sp f tau view cur volt volt_last act out limits) ops x.
Proof. intros. apply euler_outcomes. Qed.
Print Assumptions euler_behind_interface.

(** If scipy's three entries solve the equation of the system, it does not matter which of
    the three wrappers a system has, which method, jacobian or options they were given and what
    the solver objects were used for before: for every sequence of calls that starts with a
    successful reset the three systems return and raise the same. *)
Theorem scipy_solvers_interchangeable :
  forall C S A U V J K M (X : scipy U J K M) (f : rhs U) flow (cv : conv_if C A) (sp : supply_if S) tau (view : list R -> res V) cur volt volt_last act out limits obs
    c s n j1 j2 j3 e1 e2 e3 i o ops,
  solves X f flow ->
  let x1 := new_gsys (ode_if X) f j1 c s e1 n in
  let x2 := new_gsys (ivp_if X) f j2 c s e2 n in
  let x3 := new_gsys (oint_if X) f j3 c s e3 n in
  let out1 := outcomes (g_reset cv sp (ode_if X) limits obs) (g_simulate cv sp (ode_if X) tau view cur volt volt_last act out limits) (OReset i :: ops) x1 in
  let out2 := outcomes (g_reset cv sp (ivp_if X) limits obs) (g_simulate cv sp (ivp_if X) tau view cur volt volt_last act out limits) (OReset i :: ops) x2 in
  let out3 := outcomes (g_reset cv sp (oint_if X) limits obs) (g_simulate cv sp (oint_if X) tau view cur volt volt_last act out limits) (OReset i :: ops) x3 in
  hd_error out1 = Some (Ok o) -> out2 = out1 /\ out3 = out1.
Proof.
  intros C S A U V J K M X f flow cv sp tau view cur volt volt_last act out limits obs c s n j1 j2 j3 e1 e2 e3 i o ops HX x1 x2 x3 out1 out2 out3 Ho.
  assert (Ho' : snd (g_reset cv sp (ode_if X) limits obs i x1) = Ok o).
  { unfold out1 in Ho. cbn [outcomes] in Ho. destruct (g_reset cv sp (ode_if X) limits obs i x1) as [x' r]. cbn in *. congruence. }
  assert (Hode : ode_has f (od_set_equation X f j1 e1)) by (eexists; cbn; auto).
  split; symmetry.
  - apply (alike_from_new cv sp (ode_if X) (ivp_if X) tau _ _ (ode_ivp_alike X f flow HX)) with (o := o); [|exact Ho'].
    unfold same_rest. cbn. repeat split. exact Hode.
  - apply (alike_from_new cv sp (ode_if X) (oint_if X) tau _ _ (ode_oint_alike X f flow HX)) with (o := o); [|exact Ho'].
    unfold same_rest. cbn. repeat split. exact Hode.
Qed.
Print Assumptions scipy_solvers_interchangeable.

(** Non-vacuity: y' = p for one state, solved exactly. *)
Definition ramp : rhs (list R) := fun p _ y => match p, y with [a], [_] => Ok [a] | _, _ => Err ValueError end.
Definition ramp_flow (p : list R) (t0 t1 : R) (y : list R) : res (list R) :=
  match p, y with [a], [b] => Ok [b + a * (t1 - t0)] | _, _ => Err ValueError end.
Definition ramp_scipy : scipy (list R) unit unit unit :=
  {| x_prepare := fun _ _ _ => tt;
     x_run := fun _ _ _ y t0 t1 fp _ => (tt, match fp with Some p => do y' <- ramp_flow p t0 t1 y; Ok (y', t1) | None => Err TypeError end);
     x_ivp := fun _ _ _ _ t0 t1 y p => match p, y with Some p, Some y => do y' <- ramp_flow p t0 t1 y; Ok (Some [y']) | _, _ => Err TypeError end;
     x_odeint := fun _ _ _ y t0 t1 p => match p, y with Some p, Some y => do y' <- ramp_flow p t0 t1 y; Ok [y; y'] | _, _ => Err TypeError end |}.
Lemma ramp_solves : solves ramp_scipy ramp ramp_flow.
Proof.
  split; [|split].
  - intros m j y t0 t1 p. exists tt. reflexivity.
  - intros k me j y t0 t1 p. cbn. destruct (ramp_flow p t0 t1 y) as [y'|e]; cbn; [|reflexivity]. exists [y']. split; [reflexivity|]. exists []. reflexivity.
  - intros k j y t0 t1 p. cbn. destruct (ramp_flow p t0 t1 y) as [y'|e]; cbn; [|reflexivity]. exists [y; y']. split; [reflexivity|]. exists [y]. reflexivity.
Qed.
(** A converter that passes its action on, with one state that is also the observation. *)
Definition wire : conv_if R R :=
  {| cv_set_action := fun _ a t => (a, Ok [t + 1]); cv_convert := fun c _ _ => (c, Ok [c]); cv_i_sup := fun _ _ => Ok 0; cv_reset := fun c => (0, Ok [0]) |}.
Definition battery : supply_if unit := {| sp_get := fun s _ _ => (s, Ok [1]); sp_reset := fun s => (s, Ok [1]) |}.
Definition tank_step {E J} (so : solver_if E (list R) J) := g_simulate wire battery so 1 (fun y => Ok y) (fun v => v) (fun _ u => Ok u) (fun _ u => Ok u) act_id (fun _ iv _ => Ok (iv_y iv)) [Fin 1].
Definition tank_reset {E J} (so : solver_if E (list R) J) := g_reset wire battery so [Fin 1] (fun mech ms _ _ => Ok (mech ++ ms)).
Example interchangeable_example :
  outcomes (tank_reset (ode_if ramp_scipy)) (tank_step (ode_if ramp_scipy)) [OReset (Ok ([2], [])); OStep 3] (new_gsys (ode_if ramp_scipy) ramp None 0 tt (ode_solver_new tt) 1) =
  [Ok [2 / 1]; Ok [(2 + (3 * 1) * (0 + 1 - 0)) / 1]].
Proof. reflexivity. Qed.

(** ** C140 The clock *)
(** With a solver that stops where it was asked to, the time of the system is the number of
    steps since the last reset times tau and the solver agrees, whatever the histories. *)
Theorem any_punctual_solver_keeps_time :
  forall C S A U V E J (cv : conv_if C A) (sp : supply_if S) (so : solver_if E U J) tau (view : list R -> res V) cur volt volt_last act out limits obs i ops x x',
  punctual so ->
  run_ok (g_reset cv sp so limits obs) (g_simulate cv sp so tau view cur volt volt_last act out limits) (OReset i :: ops) x = Some x' ->
  gs_k x' = steps_since ops 0 /\ gs_t x' = INR (steps_since ops 0) * tau /\ so_t so (gs_e x') = Ok (gs_t x').
Proof.
  intros C S A U V E J cv sp so tau view cur volt volt_last act out limits obs i ops x x' HP. cbn [run_ok].
  destruct (g_reset cv sp so limits obs i x) as [x1 [o|e]] eqn:E1; [|discriminate]. apply (g_reset_inv cv sp so HP) in E1. destruct E1 as (T & K & Z).
  apply (g_run_time cv sp so tau HP); [rewrite T; cbn; ring|exact K|congruence].
Qed.
Print Assumptions any_punctual_solver_keeps_time.
(** EulerSolver and the wrappers of solve_ivp and odeint are such solvers, whatever scipy does. *)
Theorem punctual_solvers :
  forall U J K M (X : scipy U J K M), punctual (euler_if (U:=U) (J:=J)) /\ punctual (ivp_if X) /\ punctual (oint_if X) /\ (reaches_end X -> punctual (ode_if X)).
Proof. intros. split; [apply euler_punctual|]. split; [apply ivp_punctual|]. split; [apply oint_punctual|apply ode_punctual]. Qed.
Print Assumptions punctual_solvers.
(** Refuted for ScipyOdeSolver, the default: an integrator that gives up halfway (for scipy a
    warning and [successful() = False]) is not noticed: the step succeeds, the counter says one
    step, and the clock of the system stands at half a period. *)
Definition tired_scipy : scipy (list R) unit unit unit :=
  {| x_prepare := fun _ _ _ => tt; x_run := fun _ _ _ y t0 t1 _ _ => (tt, Ok (y, (t0 + t1) / 2));
     x_ivp := fun _ _ _ _ _ _ _ _ => Ok None; x_odeint := fun _ _ _ y t0 t1 _ => match y with Some y => Ok [y; map (fun _ => 0) y] | None => Err TypeError end |}.
Theorem early_stop_unnoticed_refuted :
  exists x' : gsys R unit (ode_solver (list R) unit unit unit),
  run_ok (tank_reset (ode_if tired_scipy)) (tank_step (ode_if tired_scipy)) [OReset (Ok ([2], [])); OStep 3]
    (new_gsys (ode_if tired_scipy) ramp None 0 tt (ode_solver_new tt) 1) = Some x' /\
  gs_k x' = 1%nat /\ gs_t x' = 1 / 2.
Proof. eexists. split; [reflexivity|]. split; [reflexivity|]. cbn. lra. Qed.
Print Assumptions early_stop_unnoticed_refuted.
(** odeint reports failure only by a warning as well; its wrapper takes the last row for the
    state: here the state becomes 0 and the step succeeds. *)
Theorem odeint_failure_unnoticed_refuted :
  exists x' : gsys R unit (oint_solver (list R) unit unit),
  run_ok (tank_reset (oint_if tired_scipy)) (tank_step (oint_if tired_scipy)) [OReset (Ok ([2], [])); OStep 3]
    (new_gsys (oint_if tired_scipy) ramp None 0 tt (oint_solver_new tt) 1) = Some x' /\
  gs_t x' = 1 /\ so_y (oint_if tired_scipy) (gs_e x') = Ok [0].
Proof. eexists. split; [reflexivity|]. split; [cbn; lra|reflexivity]. Qed.
Print Assumptions odeint_failure_unnoticed_refuted.

(** ** C141 A failing integration *)
(** If [integrate] raises, EulerSolver and ScipyOdeSolver are where they were (time and state
    of the wrapper; scipy's memory may differ), so the step can be repeated. *)
Theorem failed_integration_keeps_state :
  forall U J K M (X : scipy U J K M) t er,
  (forall e : euler_solver U J, snd (so_integrate euler_if t e) = Err er ->
     so_t euler_if (fst (so_integrate euler_if t e)) = so_t euler_if e /\ so_y euler_if (fst (so_integrate euler_if t e)) = so_y euler_if e) /\
  (forall e, snd (so_integrate (ode_if X) t e) = Err er ->
     so_t (ode_if X) (fst (so_integrate (ode_if X) t e)) = so_t (ode_if X) e /\ so_y (ode_if X) (fst (so_integrate (ode_if X) t e)) = so_y (ode_if X) e).
Proof.
  intros U J K M X t er. split.
  - intros e. cbn. destruct (es_eq e) as [f|]; [|auto]. destruct (integrate f (es_e e) t) as [e' r] eqn:E. cbn. intros ->.
    pose proof (f_equal fst E) as E1. cbn [fst] in E1. unfold integrate in E. destruct (eu_p (es_e e)) as [p|]; [|injection E as <- _; auto]. destruct (eu_y (es_e e)) as [y|] eqn:Ey; [|injection E as <- _; cbn; rewrite Ey; auto].
    match type of E with (match ?r with Ok _ => _ | Err _ => _ end) = _ => destruct r end; [discriminate|]. injection E as <- _. rewrite Ey. auto.
  - intros e. cbn. unfold od_integrate. destruct (od_ode e) as [o|] eqn:Eo; [|cbn; rewrite Eo; auto].
    destruct (x_run X (oo_mem o) (oo_f o) (oo_jac o) (oo_y o) (oo_t o) t (oo_fp o) (oo_jp o)) as [m [[y' t']|e1]]; cbn; [discriminate|auto].
Qed.
Print Assumptions failed_integration_keeps_state.
(** Refuted for ScipySolveIvpSolver: when solve_ivp stops before the end, reading the result
    raises AttributeError after the time has been moved; the state has not. *)
Theorem ivp_failure_moves_time_refuted :
  forall U J K M (X : scipy U J K M) t (e : ivp_solver U J K),
  x_ivp X (vp_k e) (vp_method e) (vp_kjac e) (vp_eq e) (vp_t e) t (vp_y e) (vp_par e) = Ok None ->
  snd (so_integrate (ivp_if X) t e) = Err AttributeError /\
  so_t (ivp_if X) (fst (so_integrate (ivp_if X) t e)) = Ok t /\ so_y (ivp_if X) (fst (so_integrate (ivp_if X) t e)) = so_y (ivp_if X) e.
Proof. intros U J K M X t e H. cbn. unfold vp_integrate. rewrite H. cbn. auto. Qed.
Print Assumptions ivp_failure_moves_time_refuted.
(** So a step repeated after such a failure integrates over an empty interval: it succeeds, the
    clock shows one period, and the state has not moved although its derivative is 3. *)
Definition hiccup_scipy : scipy (list R) unit unit unit :=
  {| x_prepare := fun _ _ _ => tt; x_run := x_run ramp_scipy;
     x_ivp := fun _ _ _ _ t0 t1 y p => if rlt t0 (1 / 2) then Ok None else match p, y with Some p, Some y => do y' <- ramp_flow p t0 t1 y; Ok (Some [y']) | _, _ => Err TypeError end;
     x_odeint := x_odeint ramp_scipy |}.
Theorem repeated_step_skips_the_interval_refuted :
  let x0 := new_gsys (ivp_if hiccup_scipy) ramp None 0 tt (ivp_solver_new tt None None) 1 in
  let x1 := fst (tank_reset (ivp_if hiccup_scipy) (Ok ([2], [])) x0) in
  let x2 := fst (tank_step (ivp_if hiccup_scipy) 3 x1) in
  let x3 := fst (tank_step (ivp_if hiccup_scipy) 3 x2) in
  snd (tank_step (ivp_if hiccup_scipy) 3 x1) = Err AttributeError /\ gs_t x2 = 0 /\
  snd (tank_step (ivp_if hiccup_scipy) 3 x2) = Ok [2] /\ gs_t x3 = 1 /\ gs_k x3 = 1%nat.
Proof.
  intros x0 x1 x2 x3.
  assert (E1 : x1 = {| gs_c := 0; gs_s := tt; gs_e := vp_with None 0 (Some [2]) (vp_set_equation ramp None (ivp_solver_new tt None None)); gs_t := 0; gs_k := 0; gs_state := [0] |}) by reflexivity.
  assert (S1 : tank_step (ivp_if hiccup_scipy) 3 x1 =
    ({| gs_c := 3; gs_s := tt; gs_e := vp_with (Some [3 * 1]) (0 + 1) (Some [2]) (vp_set_equation ramp None (ivp_solver_new tt None None)); gs_t := 0; gs_k := 0; gs_state := [0] |}, Err AttributeError)).
  { rewrite E1. cbn. unfold vp_integrate. cbn. unfold rlt. destruct (Rlt_dec 0 (1 / 2)); [|lra]. reflexivity. }
  assert (E2 : x2 = fst (tank_step (ivp_if hiccup_scipy) 3 x1)) by reflexivity. rewrite S1 in E2. cbn [fst] in E2.
  assert (S2 : tank_step (ivp_if hiccup_scipy) 3 x2 =
    ({| gs_c := 3; gs_s := tt; gs_e := vp_with (Some [3 * 1]) (0 + 1) (Some [2 + 3 * 1 * (0 + 1 - (0 + 1))]) (vp_set_equation ramp None (ivp_solver_new tt None None));
        gs_t := 0 + 1; gs_k := 1; gs_state := [2 + 3 * 1 * (0 + 1 - (0 + 1))] |}, Ok [(2 + 3 * 1 * (0 + 1 - (0 + 1))) / 1])).
  { rewrite E2. cbn. unfold vp_integrate. cbn. unfold rlt. destruct (Rlt_dec (0 + 1) (1 / 2)); [lra|]. reflexivity. }
  unfold x3. rewrite S1, S2. cbn [snd fst gs_t gs_k]. split; [reflexivity|]. split; [rewrite E2; reflexivity|]. split; [f_equal; f_equal; field|]. split; [lra|reflexivity].
Qed.
Print Assumptions repeated_step_skips_the_interval_refuted.

(** ** C142 Equation, jacobian and inputs belong together *)
(** After any sequence of calls, ScipyOdeSolver integrates the equation set last with the
    jacobian set with it, and both get the same inputs: those set last, if any were set since. *)
Theorem ode_solver_consistent :
  forall U J K M (X : scipy U J K M) k ops,
  let s := s_run (ode_if X) ops (ode_solver_new k) in
  match last_eq ops, od_ode s with
  | Some (f, j), Some o => oo_f o = f /\ oo_jac o = j /\ oo_fp o = oo_jp o /\ (oo_fp o = None \/ oo_fp o = od_par s)
  | None, None => True
  | _, _ => False
  end.
Proof.
  intros U J K M X k ops s. pose proof (consistent_run X ops None (ode_solver_new k) eq_refl) as H. fold s in H. unfold last_eq, consistent in *.
  destruct (fold_left _ ops None) as [[f j]|], (od_ode s) as [o|]; try tauto. 
Qed.
Print Assumptions ode_solver_consistent.
(** Without an equation every other call of ScipyOdeSolver raises AttributeError; the other
    solvers accept initial value and parameters in any order. *)
Theorem ode_solver_needs_equation_first :
  forall U J K M (X : scipy U J K M) k y t p,
  snd (so_initial (ode_if X) y t (ode_solver_new k)) = Err AttributeError /\ snd (so_params (ode_if X) p (ode_solver_new k)) = Err AttributeError /\
  snd (so_integrate (ode_if X) t (ode_solver_new k)) = Err AttributeError /\ so_t (ode_if X) (ode_solver_new k) = Err AttributeError.
Proof. intros. repeat split. Qed.
Print Assumptions ode_solver_needs_equation_first.
(** solve_ivp: with one of scipy's three implicit methods the jacobian handed over is the one set
    with the current equation; with any other method the keyword arguments are as the user gave
    them. *)
Definition scipy_implicit : list (option string) := [Some "Radau"; Some "BDF"; Some "LSODA"].
Theorem ivp_solver_consistent :
  forall U J K M (X : scipy U J K M) k method kjac ops,
  let s := s_run (ivp_if X) ops (ivp_solver_new k method kjac) in
  (forall f j, last_eq ops = Some (f, j) -> vp_eq s = Some f /\ (In method scipy_implicit -> vp_kjac s = Some j)) /\
  (~ In method scipy_implicit -> vp_kjac s = kjac).
Proof.
  intros U J K M X k method kjac ops s. destruct (vp_method_run X ops (ivp_solver_new k method kjac)) as [H1 H2]. fold s in H1, H2. cbn in H1, H2.
  assert (HI : In method scipy_implicit <-> implicit_method method = true).
  { split; [intros [<-|[<-|[<-|[]]]]; reflexivity|]. destruct method as [m|]; [|discriminate]. cbn [implicit_method existsb]. intros HI. unfold scipy_implicit.
    destruct (String.eqb_spec m "Radau") as [->|_]; [cbn; auto|]. destruct (String.eqb_spec m "BDF") as [->|_]; [cbn; auto|]. destruct (String.eqb_spec m "LSODA") as [->|_]; [cbn; auto|]. discriminate HI. }
  split; [|intros Hn; apply H2; destruct (implicit_method method); [exfalso; apply Hn, HI; reflexivity|reflexivity]].
  intros f j Hl. pose proof (vp_consistent_run X ops None (ivp_solver_new k method kjac) I) as H. fold s in H. unfold last_eq in Hl. rewrite Hl in H. destruct H as (A1 & A2 & A3).
  split; [exact A1|]. rewrite H1 in A3. intros Hi. apply A3, HI, Hi.
Qed.
Print Assumptions ivp_solver_consistent.
Example ivp_consistent_example : implicit_method (Some "BDF") = true /\ implicit_method (Some "RK45") = false /\ implicit_method None = false.
Proof. repeat split. Qed.
(** Refuted: exchanging the equation of a running solver (a second system is built with the same
    solver object) has the same effect for all solvers.  ScipyOdeSolver forgets time and state, the
    others keep them. *)
Theorem equation_change_differs_refuted :
  forall U J K M (X : scipy U J K M) f j t y (a : ode_solver U J K M) (b : ivp_solver U J K) (c : oint_solver U J K) (d : euler_solver U J),
  vp_t b = t -> vp_y b = Some y -> ot_t c = t -> ot_y c = Some y -> eu_t (es_e d) = t -> eu_y (es_e d) = Some y ->
  so_t (ode_if X) (so_equation (ode_if X) f j a) = Ok 0 /\ so_y (ode_if X) (so_equation (ode_if X) f j a) = Ok [0] /\
  so_t (ivp_if X) (so_equation (ivp_if X) f j b) = Ok t /\ so_y (ivp_if X) (so_equation (ivp_if X) f j b) = Ok y /\
  so_t (oint_if X) (so_equation (oint_if X) f j c) = Ok t /\ so_y (oint_if X) (so_equation (oint_if X) f j c) = Ok y /\
  so_t euler_if (so_equation euler_if f j d) = Ok t /\ so_y euler_if (so_equation euler_if f j d) = Ok y.
Proof. intros U J K M X f j t y a b c d H1 H2 H3 H4 H5 H6. cbn. rewrite H1, H2, H3, H4, H5, H6. auto 10. Qed.
Print Assumptions equation_change_differs_refuted.

(** ** C143 Cutting an interval *)
(** Advance through a list of times with the same input. *)
Fixpoint through {E U J} (so : solver_if E U J) (p : U) (ts : list R) (e : E) : call E (list R) :=
  match ts with
  | [] => (e, so_y so e)
  | t :: ts' => let (e', r) := advance_solver so p t e in match r with Err er => (e', Err er) | Ok _ => through so p ts' e' end
  end.
(** If the flow of the equation can be cut at any time, the wrappers do not notice switching
    times at which the input does not change: any list of intermediate times gives the state of
    one single integration. *)
Theorem cutting_is_invisible :
  forall U J K M (X : scipy U J K M) f (flow : U -> R -> R -> list R -> list R),
  solves X f (fun p t0 t1 y => Ok (flow p t0 t1 y)) ->
  (forall p t0 t1 t2 y, flow p t1 t2 (flow p t0 t1 y) = flow p t0 t2 y) ->
  forall p t0 y ts t,
  (forall e, ode_at f e t0 y -> snd (through (ode_if X) p (ts ++ [t]) e) = Ok (flow p t0 t y)) /\
  (forall e, ivp_has f e -> vp_t e = t0 -> vp_y e = Some y -> snd (through (ivp_if X) p (ts ++ [t]) e) = Ok (flow p t0 t y)) /\
  (forall e, oint_has f e -> ot_t e = t0 -> ot_y e = Some y -> snd (through (oint_if X) p (ts ++ [t]) e) = Ok (flow p t0 t y)).
Proof.
  intros U J K M X f flow HX Hcut p t0 y ts t. split; [|split]; revert t0 y; induction ts as [|u ts IH]; intros t0 y e.
  - intros He. cbn [app through]. destruct (ode_advance X f _ HX e t0 y p t He) as [G1 (o & G2 & G3 & G4 & G5)]. destruct (advance_solver (ode_if X) p t e) as [e' r]. cbn [fst snd] in *. subst r. cbn. now rewrite G2, G5.
  - intros He. cbn [app through]. destruct (ode_advance X f _ HX e t0 y p u He) as [G1 G2]. destruct (advance_solver (ode_if X) p u e) as [e' r]. cbn [fst snd] in *. subst r. rewrite (IH _ _ _ G2). now rewrite Hcut.
  - intros H1 H2 H3. cbn [app through]. destruct (ivp_advance X f _ HX e t0 y p t H1 H2 H3) as (G1 & G2 & G3 & G4). destruct (advance_solver (ivp_if X) p t e) as [e' r]. cbn [fst snd] in *. subst r. cbn. now rewrite G4.
  - intros H1 H2 H3. cbn [app through]. destruct (ivp_advance X f _ HX e t0 y p u H1 H2 H3) as (G1 & G2 & G3 & G4). destruct (advance_solver (ivp_if X) p u e) as [e' r]. cbn [fst snd] in *. subst r. rewrite (IH _ _ _ G2 G3 G4). now rewrite Hcut.
  - intros H1 H2 H3. cbn [app through]. destruct (oint_advance X f _ HX e t0 y p t H1 H2 H3) as (G1 & G2 & G3 & G4). destruct (advance_solver (oint_if X) p t e) as [e' r]. cbn [fst snd] in *. subst r. cbn. now rewrite G4.
  - intros H1 H2 H3. cbn [app through]. destruct (oint_advance X f _ HX e t0 y p u H1 H2 H3) as (G1 & G2 & G3 & G4). destruct (advance_solver (oint_if X) p u e) as [e' r]. cbn [fst snd] in *. subst r. rewrite (IH _ _ _ G2 G3 G4). now rewrite Hcut.
Qed.
Print Assumptions cutting_is_invisible.
(** Refuted for EulerSolver: for y' = - y every cut inside the interval changes the result. *)
Definition decay : rhs unit := fun _ _ y => Ok (map Ropp y).
Theorem cutting_euler_visible_refuted :
  forall (e : euler_solver unit unit) t0 y u t, es_eq e = Some decay -> eu_n (es_e e) = 1%nat -> eu_t (es_e e) = t0 -> eu_y (es_e e) = Some [y] ->
  y <> 0 -> t0 < u < t ->
  exists a b, snd (through euler_if tt [t] e) = Ok [a] /\ snd (through euler_if tt [u; t] e) = Ok [b] /\ a <> b.
Proof.
  intros [eq jac [n t0' y' p']] t0 y u t H1 H2 H3 H4 Hy Hu. cbn in H1, H2, H3, H4. subst eq n t0' y'.
  exists (y + - y * (t - t0)), (y + - y * (u - t0) + - (y + - y * (u - t0)) * (t - u)). split; [reflexivity|]. split; [reflexivity|].
  intros H. assert (E : y * ((u - t0) * (t - u)) = 0) by lra. assert (P : 0 < (u - t0) * (t - u)) by (apply Rmult_lt_0_compat; lra).
  destruct (Rmult_integral _ _ E); [contradiction|lra].
Qed.
Print Assumptions cutting_euler_visible_refuted.
Example cutting_example : forall p t0 t1 t2 y, (fun (p : R) t0 t1 (y : list R) => map (fun a => a + p * (t1 - t0)) y) p t1 t2 ((fun (p : R) t0 t1 (y : list R) => map (fun a => a + p * (t1 - t0)) y) p t0 t1 y) =
  (fun (p : R) t0 t1 (y : list R) => map (fun a => a + p * (t1 - t0)) y) p t0 t2 y.
Proof. intros p t0 t1 t2 y. cbv beta. rewrite map_map. apply map_ext. intros a. ring. Qed.
