(** The registered environments as complete programs: the physical system of an entry of the
    table in [Preset_Model] with its converter, supply, load and motor, the wrappers, the
    reference generator, the reward function and the constraint monitor, put together as in
    the constructor of ElectricMotorEnvironment (src/gym_electric_motor/core.py 234-289) and
    driven by [Env_Model].

    Simplifications: the parameters of motors and loads, the announced limits, nominal values
    and bounds of the state space and the drawn initial states are arbitrary data; the
    solver is any object with the interface of OdeSolver (the registered environments use
    ScipyOdeSolver, the wrappers are in [Scipy_Model]); callbacks (the dashboard) do not raise. *)
From Verif Require Import PyBase PyDict Utils_Model Conv_Model Solver_Model Supply_Model Motor_Model Loads_Model PhysSys_Model Scipy_Model Wrap_Model
  RefGen_Model Constraint_Model Reward_Model Preset_Model Env_Model.
Local Open Scope string_scope. Local Open Scope list_scope. Local Open Scope R_scope.

(** ** Converters *)
(** [ContMultiConverter.reset], physical_systems/converters.py 710-715 *)
Fixpoint cm_reset (cs : list con) : call (list con) (list R) :=
  match cs with
  | [] => ([], Ok [])
  | c :: cs' => let (c', u) := con_reset c in
                let (cs'', us) := cm_reset cs' in
                (c' :: cs'', do u <- u; do us <- us; Ok (u ++ us))
  end.
(** [tau] setter, 639-643 *)
Definition cm_set_tau (v : R) (cs : list con) : list con := map (con_set_tau v) cs.
Definition cmulti_if : conv_if (list con) (list R) :=
  {| cv_set_action := cm_set_action; cv_convert := fun c i t => (c, cm_convert c i t); cv_i_sup := cm_i_sup; cv_reset := cm_reset |}.

(** Environments hand any action to [simulate].  An action of a kind the converter has no
    model for is a TypeError here (what Python does with such values depends on them). *)
Definition as_disc (a : action) : option Z := match a with ADisc n => Some n | _ => None end.
Definition as_multi (a : action) : option (list Z) := match a with AMulti l => Some l | _ => None end.
Definition as_box (a : action) : option (list R) := match a with ABox l => Some l | _ => None end.
Definition adapt {C A} (read : action -> option A) (cv : conv_if C A) : conv_if C action :=
  {| cv_set_action := fun c a t => match read a with Some x => cv_set_action cv c x t | None => (c, Err TypeError) end;
     cv_convert := cv_convert cv; cv_i_sup := cv_i_sup cv; cv_reset := cv_reset cv |}.

(** Converters with default arguments (sampling time 1e-5 for finite and 1e-4 for continuous
    ones, no interlocking time: 35, 140, 199, 799, 871), then [self._converter.tau = self.tau]
    (physical_systems.py 103). *)
Definition fin_kind_of (e : elementary) : option fin_kind := match e with Fin4 => Some K4 | FinB6 => Some K6 | _ => None end.
Definition con_of (e : elementary) : option con :=
  match e with Cont4 => Some (C4 (c4_new (1 / 10000) 0)) | ContB6 => Some (C6 (c6_new (1 / 10000) 0)) | _ => None end.
Fixpoint all_some {A} (l : list (option A)) : option (list A) :=
  match l with [] => Some [] | None :: _ => None | Some x :: l' => match all_some l' with Some r => Some (x :: r) | None => None end end.
Definition new_fin (e : elementary) : option fin := match fin_kind_of e with Some k => Some (fin_new k (1 / 100000) 0) | None => None end.

(** Action spaces: 334, 461, 576, 696, 782, 863 *)
Definition fin_space (e : elementary) : Z := match e with Fin4 => 4 | FinB6 => 8 | _ => 0 end%Z.
Definition con_space (e : elementary) : nat := match e with ContB6 => 3 | _ => 1 end.
Definition action_space (c : conv_class) : aspace :=
  match c with
  | Single (Fin4 as e) | Single (FinB6 as e) => SDisc (fin_space e)
  | Single e => SBox (con_space e)
  | Multi true l => SMulti (map fin_space l)
  | Multi false l => SBox (list_sum (map con_space l))
  end.

(** ** Data that the table leaves open *)
(** A solver object handed to the environment ([ode_solver], e.g. envs/gym_dcm/cont_cc_series_dc_motor_env.py)
    for any type of motor input: interface, state of the object and the jacobian that the
    constructor of the physical system passes with the equation (physical_systems.py 79-82). *)
Record any_solver := {
  an_state : Type -> Type; an_jac : Type -> Type; an_if : forall U, solver_if (an_state U) U (an_jac U);
  an_new : forall U, an_state U; an_jacobian : forall U, option (an_jac U) }.
(** The four solvers of the library (solvers.py 79-249) in this form: EulerSolver(nsteps), and
    the wrappers with keyword arguments [k] over any scipy [X] and with any jacobian. *)
Section Solvers.
Context {K M : Type} {Jac : Type -> Type} (X : forall U, scipy U (Jac U) K M) (j : forall U, option (Jac U)) (k : K).
Definition any_euler (n : nat) : any_solver :=
  {| an_state := fun U => euler_solver U unit; an_jac := fun _ => unit; an_if := fun U => euler_if; an_new := fun U => euler_solver_new n; an_jacobian := fun _ => None |}.
Definition any_ode : any_solver :=
  {| an_state := fun U => ode_solver U (Jac U) K M; an_jac := Jac; an_if := fun U => ode_if (X U); an_new := fun U => ode_solver_new k; an_jacobian := j |}.
Definition any_ivp (method : option string) (kjac : forall U, option (option (Jac U))) : any_solver :=
  {| an_state := fun U => ivp_solver U (Jac U) K; an_jac := Jac; an_if := fun U => ivp_if (X U); an_new := fun U => ivp_solver_new k method (kjac U); an_jacobian := j |}.
Definition any_oint : any_solver :=
  {| an_state := fun U => oint_solver U (Jac U) K; an_jac := Jac; an_if := fun U => oint_if (X U); an_new := fun U => oint_solver_new k; an_jacobian := j |}.
End Solvers.
Record data := {
  d_dc : dc_par; d_perm : perm_par; d_pmsm : pmsm_par; d_synrm : synrm_par; d_eesm : eesm_par; d_im : im_par;   (* motor parameters *)
  d_poly : poly;                                        (* load parameters *)
  d_solver : any_solver;                                (* the solver *)
  d_inits : nat -> list R * list R;                     (* mechanical and motor state drawn in each reset *)
  d_reseed : option Z -> nat -> nat;                    (* position in these draws after seeding *)
  d_limits : list R; d_nominal : list R; d_low : list R; d_high : list R;   (* announced arrays *)
  d_motor : minfo }.

(** ** Physical systems *)
(** A physical system with the type of its state, [k] (core.py 606-612), the effect of
    seeding and the state after construction. *)
Record plant := {
  pl_state : Type; pl_machine : machine pl_state; pl_k : pl_state -> nat; pl_seed : option Z -> pl_state -> pl_state; pl_init : pl_state }.

Section Plants.
Context (p : preset) (d : data).
(** Announced data: state names and positions, physical_systems.py 87-101 *)
Definition plant_info : info :=
  {| i_names := motor_states (pr_motor p); i_pos := positions (motor_states (pr_motor p)); i_limits := d_limits d; i_nominal := d_nominal d;
     i_low := d_low d; i_high := d_high d; i_tau := pr_tau p; i_act := action_space (pr_conv p); i_dead := None; i_motor := d_motor d |}.
Definition limits : list lim := map Fin (d_limits d).
Definition load : mload := match pr_load p with LConst _ => const_load | LPoly => poly_load (d_poly d) end.

Section Converter.
Context {C : Type} (cv : conv_if C action) (c0 : C).
(** The type of the object; the object after the constructor, 54-103: [_system_state] is an
    array of zeros, time and step counter are 0, the solver has the equation but no state yet. *)
Definition psystem (U : Type) : Type := gsys C ideal (an_state (d_solver d) U).
Definition new_sys {U} (f : rhs U) : psystem U :=
  {| gs_c := c0; gs_s := ideal_new (pr_supply p);
     gs_e := so_equation (an_if (d_solver d) U) f (an_jacobian (d_solver d) U) (an_new (d_solver d) U); gs_t := 0; gs_k := 0;
     gs_state := repeat 0 (length (motor_states (pr_motor p))) |}.
Definition make_plant {U} (f : rhs U) (rst : res (list R * list R) -> psystem U -> call (psystem U) (list R))
    (sim : action -> psystem U -> call (psystem U) (list R)) : plant :=
  {| pl_state := psystem U * nat;
     pl_machine := {| m_info := plant_info;
                      m_reset := fun x => let (s, r) := rst (Ok (d_inits d (snd x))) (fst x) in ((s, S (snd x)), r);
                      m_sim := fun a x => let (s, r) := sim a (fst x) in ((s, snd x), r) |};
     pl_k := fun x => gs_k (fst x);
     pl_seed := fun z x => (fst x, d_reseed d z (snd x));
     pl_init := (new_sys f, O) |}.
(** The five system classes; [nv]: number of motor voltages. *)
Definition dc_plant (mo : motor (list R)) (nv : nat) : plant :=
  make_plant (system_equation load mo) (g_reset cv ideal_if (an_if (d_solver d) _) limits (dc_obs load mo))
    (g_simulate cv ideal_if (an_if (d_solver d) _) (pr_tau p) (dc_view load mo) dc_cur dc_volt dc_volt act_id (dc_out load mo nv 1) limits).
Definition sync_plant (mo : motor (list R)) : plant :=
  make_plant (system_equation load mo) (g_reset cv ideal_if (an_if (d_solver d) _) limits (sync_obs load mo))
    (g_simulate cv ideal_if (an_if (d_solver d) _) (pr_tau p) (sync_view load mo) snd sync_volt sync_volt act_id (sync_out load mo) limits).
Definition eesm_plant (mo : motor (list R)) : plant :=
  make_plant (system_equation load mo) (g_reset cv ideal_if (an_if (d_solver d) _) limits (eesm_obs load mo))
    (g_simulate cv ideal_if (an_if (d_solver d) _) (pr_tau p) (eesm_view load mo) snd eesm_volt eesm_volt_last act_id (eesm_out load mo) limits).
Definition scim_plant (mo : motor (list R)) : plant :=
  make_plant (system_equation load mo) (g_reset cv ideal_if (an_if (d_solver d) _) limits (scim_obs load mo))
    (g_simulate cv ideal_if (an_if (d_solver d) _) (pr_tau p) (scim_view load mo) snd scim_volt scim_volt act_id (scim_out load mo) limits).
Definition dfim_plant (mo : motor (list (list R))) (im : im_par) : plant :=
  make_plant (system_equation load mo) (g_reset cv ideal_if (an_if (d_solver d) _) limits (dfim_obs load mo im 3 3))
    (g_simulate cv ideal_if (an_if (d_solver d) _) (pr_tau p) (dfim_view load mo im) dfim_cur (dfim_volt 3 3) (dfim_volt 3 3) act_id (dfim_out load mo im 3 3) limits).
(** Combinations of system and motor that no entry of the table uses are left out. *)
Definition drive : option plant :=
  match pr_sys p, pr_motor p with
  | DcSys, PermExDc => Some (dc_plant (perm_motor (d_perm d)) 1)
  | DcSys, ExtExDc => Some (dc_plant (extex_motor (d_dc d)) 2)
  | DcSys, SeriesDc => Some (dc_plant (series_motor (d_dc d)) 1)
  | DcSys, ShuntDc => Some (dc_plant (shunt_motor (d_dc d)) 1)
  | SyncSys, Pmsm => Some (sync_plant (pmsm_motor (d_pmsm d)))
  | SyncSys, Synrm => Some (sync_plant (synrm_motor (d_synrm d)))
  | EesmSys, Eesm => Some (eesm_plant (eesm_motor (d_eesm d)))
  | ScimSys, Scim => Some (scim_plant (scim_motor (d_im d)))
  | DfimSys, Dfim => Some (dfim_plant (dfim_motor (d_im d)) (d_im d))
  | _, _ => None
  end.
End Converter.

Definition physical_system : option plant :=
  match pr_conv p with
  | Single (Fin4 as e) | Single (FinB6 as e) =>
      match new_fin e with Some c => drive (adapt as_disc fin_if) (fin_set_tau (pr_tau p) c) | None => None end
  | Single e =>
      match con_of e with Some c => drive (adapt as_box con_if) (con_set_tau (pr_tau p) c) | None => None end
  | Multi true l =>
      match all_some (map new_fin l) with Some cs => drive (adapt as_multi multi_if) (fm_set_tau (pr_tau p) cs) | None => None end
  | Multi false l =>
      match all_some (map con_of l) with Some cs => drive (adapt as_box cmulti_if) (cm_set_tau (pr_tau p) cs) | None => None end
  end.
End Plants.

(** ** The modules around the physical system *)
(** The loop over the wrappers, core.py 265-266: CurrentSumProcessor(currents) with the
    default [limit="max"] (current_sum_processor.py 10-22) *)
Fixpoint wrap_all {S} (ws : list (list string)) (m : machine S) : res (machine S) :=
  match ws with [] => Ok m | w :: ws' => do m' <- cu_machine {| cu_currents := w; cu_max := true |} m; wrap_all ws' m' end.
(** What the other modules read of the physical system. *)
Definition psys_of (i : info) : psys :=
  {| p_names := i_names i; p_nominal := i_nominal i; p_limits := i_limits i; p_low := i_low i; p_high := i_high i; p_tau := i_tau i |}.
Definition constraint_view (i : info) : ps_info := {| pi_names := i_names i; pi_limits := i_limits i; pi_high := i_high i |}.

Section Modules.
Context {N : numpy}.
(** WienerProcessReferenceGenerator with the default episode lengths
    (subepisoded_reference_generator.py 16); [seqs]: fresh seed sequences. *)
Definition new_wiener (r : wiener_ref) (seq : np_seq N) : res (gen N) :=
  do s <- sub_new (rf_state r) (RefGen_Model.VPair 500 2000) (match rf_margin r with Some (a, b) => LmPair a b | None => LmNone end)
            (Wiener (RefGen_Model.VPair (fst (rf_sigma r)) (snd (rf_sigma r))) None) seq;
  Ok (GSub s).
Fixpoint new_wieners (l : list wiener_ref) (seqs : nat -> np_seq N) : res (list (gen N)) :=
  match l with [] => Ok [] | r :: l' => do g <- new_wiener r (seqs O); do gs <- new_wieners l' (fun i => seqs (S i)); Ok (g :: gs) end.
Definition new_generator (r : ref_class) (seqs : nat -> np_seq N) : res (gen N) :=
  match r with One r => new_wiener r (seqs O) | Several l => do gs <- new_wieners l seqs; Ok (multiple_new gs) end.
(** The constraints as the monitor announces them (core.py 257-262, 804-832). *)
Fixpoint announce (l : list dconstraint) (ps : ps_info) : res (list env_constraint) :=
  match l with
  | [] => Ok []
  | DName s :: l' => do r <- announce l' ps; Ok (ECName s :: r)
  | DSquared ss :: l' => do c <- sc_set_modules (sc_new ss) ps; do r <- announce l' ps; Ok (ECConstraint (sc_call c) :: r)
  | DLimit ss :: l' => do c <- lc_set_modules (lc_new (ObsList ss)) ps; do r <- announce l' ps; Ok (ECConstraint (lc_call c) :: r)
  end.
(** WeightedSumOfErrors(reward_weights) with default arguments (weighted_sum_of_errors.py 48-56) *)
Definition new_reward (weights : dict R) : wse := wse_new (Some (InDict weights)) false None (9 / 10) (InNum 1) (BiasNum 0).

(** Seeding gives every random component of the generator its own new seed sequence and
    generator (random_component.py 64-83; which ones is in [Seed_Model], here any). *)
Definition sub_reseed (h : np_seq N * np_gen N) (s : sub N) : sub N :=
  sub_with s (s_value s) (s_len s) (s_k s) (s_ref s) (fst h) (snd h).
Fixpoint g_reseed (h : list nat -> np_seq N * np_gen N) (path : list nat) (g : gen N) : gen N :=
  let go := fix go (i : nat) (l : list (gen N)) : list (gen N) :=
              match l with [] => [] | x :: l' => g_reseed h (i :: path) x :: go (S i) l' end in
  match g with
  | GConst _ _ _ | GZero _ => g
  | GSub s => GSub (sub_reseed (h path) s)
  | GSwitched w subs => GSwitched (sw_with w (sw_len w) (sw_k w) (sw_cur w) (sw_ref w) (fst (h path)) (snd (h path))) (go O subs)
  | GMultiple m subs => GMultiple m (go O subs)
  end.

(** ** The assembled environment *)
Record assembly (S : Type) := { as_machine : machine S; as_gen : gen N; as_monitor : monitor; as_reward : wse; as_filter : list nat }.
Arguments as_machine {S}. Arguments as_gen {S}. Arguments as_monitor {S}. Arguments as_reward {S}. Arguments as_filter {S}.
(** core.py 265-277 *)
Definition assemble {S} (p : preset) (seqs : nat -> np_seq N) (filter : option (list string)) (m : machine S) : res (assembly S) :=
  do m <- wrap_all (pr_wrappers p) m;
  let i := m_info m in
  do g <- new_generator (pr_refs p) seqs;
  do g <- set_modules (psys_of i) g;
  do cs <- announce (pr_constraints p) (constraint_view i);
  do mon <- env_monitor cs (constraint_view i);
  do w <- wse_set_modules (new_reward (pr_weights p)) {| we_names := i_names i; we_low := i_low i; we_high := i_high i; we_referenced := g_mask g |};
  do f <- init_filter (i_names i) filter;
  do _ <- env_space_low f (i_low i);
  do _ <- env_space_high f (i_high i);
  Ok {| as_machine := m; as_gen := g; as_monitor := mon; as_reward := w; as_filter := f |}.

(** A generator call: on an exception its state is not tracked. *)
Definition on_gen {A} (f : gen N -> res (gen N * A)) (g : gen N) : gen N * res A :=
  match f g with Ok r => (fst r, Ok (snd r)) | Err e => (g, Err e) end.
(** The modules as the environment calls them, core.py 300-371; [seeds]: what seeding gives
    to the random components. *)
Definition modules {S} (k : S -> nat) (seed : option Z -> S -> S) (seeds : option Z -> list nat -> np_seq N * np_gen N) (callbacks : nat) (a : assembly S)
  : Env_Model.system action (list R) (list R) S (gen N) wse :=
  {| ps_reset := m_reset (as_machine a);
     ps_simulate := fun s x => m_sim (as_machine a) x s;
     ps_k := k;
     rg_reset := fun g _ => on_gen (RefGen_Model.reset None) g;
     rg_get := fun g _ => on_gen get_reference g;
     rg_obs := fun g _ => on_gen get_obs g;
     rw_reset := fun w _ _ => (w, Ok tt);
     rw_reward := fun w st ref _ _ degree => (w, wse_reward w st ref degree);
     cm_check := check_constraints (as_monitor a);
     seed_all := fun x z => let '(s, g, w) := x in (seed z s, g_reseed (seeds z) [] g, w);
     n_callbacks := callbacks;
     cb_raises := fun _ _ _ => None |}.
End Modules.
Arguments assembly : clear implicits.
Arguments as_machine {N S}. Arguments as_gen {N S}. Arguments as_monitor {N S}. Arguments as_reward {N S}. Arguments as_filter {N S}.
