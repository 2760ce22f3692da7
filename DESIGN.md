# Formal model of gym-electric-motor in Rocq

This directory holds a machine-checked model of `upb-lea/gym-electric-motor`
(source in `/repo`, Python) and theorems about it.

| file | content |
|---|---|
| `properties.jsonl` | the properties, one JSON object per line |
| `MANIFEST.json` | which theorems settle which property |
| `rocq/theories/` | the development (Coq 8.16.1, standard library only) |
| `ASSUMPTIONS.md` | what `Print Assumptions` lists for each theorem |
| `seeded/LOG.jsonl` | the log of mutation experiments on the model |

Build: `cd rocq && coq_makefile -f _CoqProject -o Makefile && make -j4`.

## 1. Trusted base

* The Coq 8.16.1 kernel (and `coqchk`).  No `Admitted`, no axiom, `Variable` or
  `Parameter` of our own, no plugin, no kernel check switched off, no
  `native_compute`.
* Axioms of the standard library.  `Print Assumptions` stands beneath every
  theorem, and `ASSUMPTIONS.md` lists the result for each of them.  Only four
  names ever appear, all pulled in by `Coq.Reals`:
  * `ClassicalDedekindReals.sig_forall_dec`
  * `ClassicalDedekindReals.sig_not_dec`
  * `FunctionalExtensionality.functional_extensionality_dep`
  * `Classical_Prop.classic` (only where derivatives, `cos`/`sin`/`PI` or
    limits are used)
* The reading of the Python text.  The code was read, not run.  The model is a
  transcription by hand; each definition cites file and lines so that it can be
  compared with the source.
* The meaning given to numpy and the Python runtime in `PyBase.v`, `PyDict.v`
  and the model files: elementwise operations with length check, fancy indexing,
  dictionary order, `str.index`, exception classes, class attributes.

## 2. How the model is built

* **Shallow, function by function.**  Each Python function becomes one Gallina
  function that mirrors its branches.  Every definition has a comment citing
  file and lines.  Objects become records, methods become functions
  `state -> args -> state * result`.
* **Exceptions are values.**  `res A := Ok a | Err e` with the Python exception
  class in `e` (`AssertionError`, `KeyError`, `IndexError`, ...).  A call that
  fails midway keeps the changes it made before, as in Python.
* **Numbers.**  Continuous quantities (Python floats) are Coq reals `R`.
  Counters, indices and switching states are `nat`/`Z`/enumerations.
* **Random numbers.**  A generator is either an explicit list or stream of draws
  over which the theorem quantifies (every possible draw), or, for the seeding
  properties, the *identity* of the stream (entropy and spawn key).
* **External calls** (scipy solvers, user callbacks, user functions, the
  physical system as seen by the environment) are universally quantified
  functions that may raise.
* **Shared mutable objects** (class attributes, default dictionaries, shared
  arrays) are modelled by an explicit heap or class state wherever a property is
  about them.
* **Histories.**  Properties about a run quantify over arbitrary lists of calls
  and are proved by induction with an invariant.  Nothing is bounded.

File layout per topic `X`: `X_Model.v` (definitions only), `X_Spec.v` (an
independent specification where one is needed), `X_Proofs.v` (lemmas),
`X_Props.v` (theorems, `Print Assumptions`, and an `Example` per theorem that
shows that a concrete case meets the hypotheses).

Names: `..._refuted` proves that the code violates the expectation, mostly by a
general statement plus a concrete witness.  `..._partial` would mark a theorem
that covers part of its property only.

## 3. What is modelled

Paths are relative to `/repo/src`.

| model file | code |
|---|---|
| `Env_Model` | `gym_electric_motor/core.py`: `ElectricMotorEnvironment` (construction, reset, step, close, setters, state filter, simulation settings), callbacks as observers |
| `Constraint_Model` | `constraints.py`, `constraint_monitor` part of `core.py` |
| `Reward_Model` | `reward_functions/weighted_sum_of_errors.py`, `core.py` `RewardFunction` |
| `Seed_Model` | `random_component.py`, seeding in `core.py`, `physical_systems.py`, generators and wrappers |
| `RefGen_Model` | all of `reference_generators/` |
| `Ramp_Model` | `callbacks.py` `RampingLimitMargin` |
| `Conv_Model` | `physical_systems/converters.py` |
| `Supply_Model` | `physical_systems/voltage_supplies.py` |
| `Solver_Model` | `physical_systems/solvers.py` `EulerSolver` |
| `Transform_Model` | Clarke/Park transforms of `three_phase_motor.py` and `physical_systems.py` |
| `Motor_Model` | ODEs, jacobians and torque of all nine motors in `electric_motors/` |
| `MotorLimit_Model` | limits, nominal values, torque limits of the motors |
| `Init_Model` | `electric_motor.py` `initialize`, `reset` and the motor specific overrides |
| `MotorClass_Model` | class level name lists of the induction motors |
| `Loads_Model` | all of `mechanical_loads/` |
| `PhysSys_Model` | `physical_systems/physical_systems.py`: all six systems |
| `Wrap_Model` | all of `physical_system_wrappers/` and `observers/` |
| `Utils_Model` | `utils.py` |
| `Ctl_Model`, `Ctl_Model2` | `gem_controllers`: stages, base controllers, parameter readers, current, torque and speed controllers, adapter, `control_environment` |
| `Ops_Model` | `gem_controllers/stages/operation_point_selection` |
| `Ops_Model2` | the same: the stored tables of `PMSMOperationPointSelection` (modes "analytical" and "interpolate") and all of `EESMOperationPointSelection`, over an arbitrary root finder, triangulation and spline |
| `Loop_Spec` | composition of `Ctl_Model` with the motor equations and the Euler solver to a sampled closed loop |
| `Speed_Spec` | the same for the speed controller with an ideal torque loop and the polynomial load |
| `Preset_Model` | `__init__.py` (registry), `envs/*`: what the 54 environment classes assemble by default |
| `Full_Model` | the composition: `core.py` 257-289 and the constructors of the environment classes put the modules of the other models together to one environment |
| `Vis_Model` | `visualization/`: dashboard, its six plots and the console printer; `gem_controllers/reference_plotter.py` |
| `Dq_Spec` | the closed current loop of a synchronous motor: controller, output transformation and motor equation in dq coordinates (`SynchronousMotorSystem.simulate`, `physical_systems.py` 487-525) |
| `Scipy_Model` | `physical_systems/solvers.py` 139-249: the three wrappers of scipy over an arbitrary scipy; `physical_systems.py`: the physical system over any solver |
| `Alias_Model` | programs that evaluate `SCMLSystem._system_equation` (`physical_systems.py` 205-236) and read its shared result array; `EulerSolver` as such a program |
| `Ex_Model` | `examples/classic_controllers/controllers/`: PI, PID, on-off and three-point controllers, their construction, `ContinuousActionController` (also in front of a `DeadTimeProcessor`, with its shared action array), `DiscreteActionController` |
| `Ex_Model2` | `examples/classic_controllers/controllers/`: `CascadedController`, the voltage path of the field oriented controllers (continuous and discrete), `FluxObserver`, the decoupling of the induction motor controller; `classic_controllers.py` 344-391: automatic gains of the current stage |
| `Motors_Model` | `envs/motors.py`: descriptions of environments, their ids and the shared lists of states |
| `Design_Model` | `examples/classic_controllers/classic_controllers.py`: `Controller.make` with `find_controller_type`, `automated_controller_design` and `automated_gain`, for DC motors |
| `Ex_Model3` | `examples/classic_controllers/controllers/`: torque to current conversion and cascaded field oriented controller of induction motors, the speed loop and the references of the cascaded controller of synchronous motors |
| `Ex_Model4` | `torque_to_current_conversion.py` of the same examples: torque control of synchronous motors, over arbitrary tables and an arbitrary root finder |
| `Design_Model2` | `examples/classic_controllers/classic_controllers.py`: `Controller.make` with `automated_controller_design` and `automated_gain` for three-phase motors, the constructors and the discrete case of the field oriented controllers in `controllers/` |

## 4. What is not modelled

* IEEE rounding, overflow, `nan` and `inf`, except where a comment says so
  (`inf` limits in `PhysSys_Model`, `nan` from `sqrt` in `Ops_Model`).  A
  statement about equality of floats in the code is a statement about reals
  here.
* scipy's integrators (the wrappers `ScipyOdeSolver`, `ScipySolveIvpSolver` and
  `ScipyOdeIntSolver` are modelled over an arbitrary scipy), `scipy.stats.truncnorm`, `scipy.interpolate.griddata`, `np.roots`: they appear
  as arbitrary functions or not at all.
* numpy's bit generators: a stream is its identity or any sequence of draws.
* matplotlib itself: a line is the pair of arrays it was given last
  (`Vis_Model`); axis limits, labels, colours and legends are left out, and so
  are the block diagrams (`block_diagrams/`).
* Of `examples/classic_controllers`: the construction of the tables
  in the torque to current conversion of synchronous motors (arbitrary lists in
  `Ex_Model4`; `Ex_Model3` takes the whole conversion as an arbitrary
  function), the plots, stages
  given by the user for three-phase motors, and what is never reached of
  `FieldOrientedController.__init__`.  Observations made while reading, not
  stated as theorems: `reset` of the discrete field oriented controllers does
  nothing; the modulation controller of the induction motor example multiplies
  the gain by the speed where that of gem_controllers divides.
* Type annotations, documentation strings, logging.
* Concurrency: the code has none.
* Broadcasting of arrays of length one, unless a comment says so.
* The environment model treats the info dictionary as empty, which it is.

## 5. Findings

Each row is an expectation of the documentation or of common sense that the code
does not meet.  The theorems prove the deviation on the model; the positive
theorems of the same property give the condition under which it does hold.

| property | expectation and deviation | theorems |
|---|---|---|
| C01 | env.step(a) raises AssertionError iff no reset has happened since construction, or the last executed step returned terminated=True, or reference_generator / reward_function was replaced, and no reset came after. A refused step calls no callback and changes nothing. A successful reset always re-enables step. | `env_failed_reset_unlocks_refuted` |
| C06 | Creating a second environment must not change env.sim.tau of the first one. The code keeps sim on the class, so it does. | `env_sim_shared_refuted`, `env_sim_t_zero_refuted` |
| C08 | Gymnasium: reset(seed=s) followed by reset() must be reproducible. The environment re-seeds from fresh entropy on every reset without seed, so the second episode depends on OS entropy. | `reset_without_seed_refuted` |
| C09 | After reset(seed=s) the stream used by a StateNoiseProcessor should be a function of s. PhysicalSystemWrapper.seed forwards to the inner system only, so the wrapper keeps its construction-time entropy. | `wrapper_ignores_seed_refuted`, `wrapper_noise_entropy_refuted`, `wrapper_noise_not_repeated_refuted` |
| C11 | SquaredConstraint returns 1.0 iff the sum of squares of the observed states, each relative to its limit, exceeds 1, else 0.0, in normalised as well as in denormalised state spaces. | `squared_constraint_mixed_refuted` |
| C13 | merge_violations='product' should return 1-prod(1-v) and a callable should receive *violation_degrees. check_constraints passes a single list, so 'product' raises TypeError on every state and a callable receives one list. | `monitor_product_refuted`, `monitor_callable_gets_one_list_refuted` |
| C17 | reward = (1-d) r_wse + d r_viol; at d=1 exactly r_viol. The default r_viol is never above the smallest regular reward when bias<=0 and gamma in [0,1). The reward can therefore leave reward_range (refuted range claim). | `gamma_one_refuted`, `reward_leaves_range_refuted` |
| C19 | set_modules on a second environment should configure the reward function for that environment. Bias, weights, powers and violation reward of the first announcement are kept. | `reward_reuse_other_size_refuted`, `reward_reuse_keeps_first_refuted`, `reward_reuse_wrong_state_refuted` |
| C21 | set_action with an action outside the action space raises AssertionError and leaves the converter unchanged; with a valid action it never raises. | `multi_invalid_action_has_effect_refuted`, `multi_short_action_accepted_refuted` |
| C23 | After set_action(a) at t and the interlocking time T the output should correspond to a for the rest of the step. The comparison in convert excludes t+T itself, which is when the simulation calls it, so the bridge stays off during the whole step. | `command_applied_in_its_period_refuted` |
| C24 | The switching times returned by set_action are strictly increasing, lie in (t, t+tau] and end with t+tau whenever the interlocking time is at most tau. | `switching_times_long_interlock_refuted` |
| C25 | u_out*i_out (summed over outputs) equals i_sup for 2QC, 4QC and B6 in every switching state and for continuous converters without interlocking; it fails for the one-quadrant converter under negative current (refuted part). | `one_quadrant_power_refuted`, `cont_one_quadrant_power_refuted`, `power_balance_interlocking_refuted` |
| C27 | 4QC: action 1 gives +1, 2 gives -1, 0 and 3 give 0. B6: action k (0..7) applies the three bits of k as upper/lower switch of the phases; all eight actions are distinct and outputs are +-1/2. | `four_quadrant_zero_states_swapped_refuted` |
| C30 | For n>1 sub-steps the right hand side should be evaluated at t0 + k h. The code evaluates it after the end of the interval. | `euler_substeps_ignore_interval_refuted`, `euler_substeps_time_shift_refuted` |
| C31 | The ideal supply returns its nominal voltage for all t and i. Reset of the RC supply restores the nominal voltage; its voltage stays in [0,u0] for admissible currents and exceeds u0 under regeneration. Three phase supply voltages sum to 0 at every time and are bounded by the amplitude. | `rc_supply_regeneration_refuted`, `rc_supply_overload_refuted` |
| C32 | supply voltages stay within the voltage limit u_nominal. The AC supply oscillates with amplitude sqrt(2) u_nominal. | `ac1_supply_exceeds_nominal_refuted` |
| C36 | The default torque limit of a PMSM is the maximum torque over all currents inside the nominal current circle when l_d <= l_q; for l_d > l_q it is not (refuted). SynRM and DC formulas likewise. | `pmsm_torque_limit_inverse_saliency_refuted`, `pmsm_torque_limit_below_current_limit_refuted`, `synrm_torque_limit_inverse_saliency_refuted`, `eesm_torque_limit_not_maximal_refuted`, `dc_torque_limit_not_from_currents_refuted` |
| C38 | Passing {name: value} in a motor initializer must initialise the state called name. Values are delivered in dictionary order, so it holds exactly if the dictionary happens to be ordered like the state vector. | `init_sync_axis_swapped_refuted`, `init_dc_excitation_swapped_refuted` |
| C39 | Uniform random initial values lie between the declared lower and upper bound; constant values outside raise. | `init_uniform_disjoint_refuted` |
| C40 | Constructing or resetting one load must not change another one. ConstantSpeedLoad and PolynomialStaticLoad share the class level default dictionary. | `const_speed_shared_refuted`, `poly_random_leaks_refuted` |
| C42 | After building a drive, j_total = j_load + j_rotor. Reusing the load in another drive adds the rotor inertia again. | `inertia_reuse_refuted` |
| C43 | With one-step Euler and equal sampling times omega after k steps equals the profile at k tau. | `ext_speed_nsteps_refuted` |
| C44 | Every constructor call raises AttributeError. | `ou_constructor_fails_refuted`, `ou_drift_scaled_refuted` |
| C47 | The i_abc entries must be the transform of the i_dq entries with the epsilon entry of the same observation. The code uses the angle from before the integration. | `reported_abc_currents_refuted` |
| C50 | limit_margin=(a,b) must bound references by a and b (times the limits). The lower bound is multiplied by the lower end of the state space (-1) and changes sign; announcing a generator twice flips it again. | `symmetric_tuple_margin_refuted`, `announced_twice_refuted` |
| C53 | reference_names of every generator is a list of state names, one per reference observation entry. ConstReferenceGenerator stores a bare string. | `const_reference_names_refuted` |
| C55 | The callback overwrites the margin without touching reference_space, so references can leave the announced space. | `ramped_references_in_announced_space_refuted` |
| C57 | The first d applied actions should be the given list in order; they come in reverse order; a list of other length changes the delay. | `reset_actions_in_order_refuted` |
| C58 | The appended entries are the cosine and sine of the angle so their squares sum to one; simulate and reset return the same number of entries as the declared names (refuted for reset with remove_angle). | `cos_sin_reset_removed_angle_refuted` |
| C59 | Noise is added to the selected states only, the noise buffer is never read out of range and each noise sample is used exactly once. | `noise_all_refuted`, `noise_seeded_refuted`, `noise_in_announced_space_refuted` |
| C60 | entry i_sum times its limit equals the sum of the physical currents. The normalised currents are summed, so it holds only if all limits coincide with the new limit. | `current_sum_sum_mode_refuted`, `current_sum_unequal_limits_refuted`, `current_sum_in_announced_space_refuted`, `stacked_current_sums_refuted` |
| C61 | The abc voltages applied for a dq action yield that dq action at the rotor angle the converter will see half a period (plus dead time) ahead at constant speed; stacked dead times are not added (refuted). | `dq_stacked_dead_times_refuted`, `dfim_stator_frame_refuted`, `dfim_constructor_refuted` |
| C62 | One observer update equals one explicit Euler step of the motor's rotor flux ODE. | `flux_update_ignores_rotor_voltage_refuted`, `flux_in_announced_space_refuted` |
| C63 | pull returns the current value of each requested state; with state_filter it indexes the wrong vector and '_ref' names fail. | `observer_filtered_value_refuted`, `observer_references_refuted` |
| C64 | Constructing a DFIM must not change the voltage/current name lists of other induction motors. | `io_lists_unchanged_refuted`, `scim_limits_history_independent_refuted` |
| C66 | The clipped reference should have relative length at most 1-margin and keep its direction. The code divides by the squared length. | `squared_clipping_respects_margin_refuted`, `squared_clipping_to_limit_refuted` |
| C68 | The voltage set point leaving the current controller is within the voltage limits. The clipped value is computed but the unclipped one is returned. | `returned_voltage_within_limits_refuted` |
| C69 | adapter.control leaves the passed state and reference unchanged and passes state*limits, reference*limits to the stages. | `input_stage_keeps_state_refuted` |
| C70 | With max_episode_length=M no episode is longer than M steps. The first one may last M+1 steps, all later ones M. | `episode_length_respected_refuted` |
| C71 | make(base_speed_controller='P'/'PID'/'ThreePoint') and base_current_controller='ThreePoint' are documented; tuning raises for all of them. | `documented_speed_controllers_refuted`, `documented_current_controllers_refuted`, `ac_torque_control_refuted`, `dfim_controllers_refuted`, `permex_p_speed_control_refuted` |
| C72 | The selected action is high/low/idle exactly according to the hysteresis band; the discrete stage picks low/high/idle by thresholds; outputs are valid converter actions. | `b6_discrete_control_refuted`, `eesm_discrete_control_refuted` |
| C73 | With decoupling the current derivative of each axis depends only on its own current and the controller output (PMSM, SynRM); the DC variants with pole pair factor 0 cancel nothing (refuted for PermExDc and ExtExDc). | `permex_decoupling_refuted`, `extex_decoupling_refuted`, `scim_decoupling_refuted`, `eesm_decoupling_refuted` |
| C74 | i_sd^2+i_sq^2 of the selected operating point never exceeds the current limit squared. | `flux_table_one_step_low_refuted`, `torque_limit_one_step_low_refuted`, `scim_nan_refuted`, `scim_no_torque_after_reset_refuted`, `scim_flux_controller_shared_refuted` |
| C75 | Each element of the constraints argument (state names, Constraint objects, plain callables) contributes its violation degree to the constraint monitor. Plain callables are accepted and silently dropped, so they never end an episode. | `env_drops_callables_refuted`, `env_callable_never_terminates_refuted` |
| C76 | LimitConstraint('all_states') announced to a second physical system observes that system's states. The names of the first system are kept, so the second announcement fails or observes only the old names. | `limit_constraint_reuse_refuted`, `limit_constraint_reuse_unobserved_refuted` |
| C77 | With interlocking time il the two half bridges of a continuous 4QC see opposite currents, so its mean output is action - 2 sign(i) il/tau. The code hands the same current to both half bridges; the effect cancels and the output equals the action for every interlocking time. | `cont_4qc_interlocking_cancels_refuted` |
| C78 | Setting converter.tau (as the physical system does) sets the sampling time used in all its half bridges. 4QC and B6 bridges keep the one they were constructed with, so interlocking voltages and announced switching times use the default 1e-4 / 1e-5. | `half_bridges_keep_their_tau_refuted` |
| C80 | After seeding, the initial phase of an AC supply is a function of the seed. The phase is drawn from numpy's global generator; only a fixed user-given phase is reproducible. | `ac_phase_from_global_generator_refuted` |
| C81 | Building a supply from a user dictionary leaves that dictionary unchanged, so it can be reused for a second supply. AC supplies write defaults into it and the second supply inherits a fixed phase. | `ac_dictionary_reuse_refuted` |
| C82 | With zero terminal voltage and omega = 0 the magnetic energy of every motor never increases, so currents stay bounded for all time. The default EESM parameters have a negative leakage coefficient and its currents grow exponentially. | `eesm_defaults_diverge_refuted` |
| C84 | The class documentation lists i_a, i_sd, u_a, ... as limit dictionary entries; passing any of them raises KeyError. A general current limit of 0 ('infer from u and r_s') raises KeyError too. | `phase_limit_entries_refused_refuted`, `zero_current_limit_refused_refuted` |
| C85 | Documented: if not specified, nominal values equal their limits. The class default nominal values are used instead, so the nominal current exceeds a lower user limit. | `nominal_follows_limit_refuted` |
| C86 | Resets of a motor with gaussian initialisation should give varying values. The integer pool[0] of the seed sequence seeds scipy at every reset, so all resets of an object give one and the same value, also after next_generator. | `init_gaussian_never_varies_refuted` |
| C87 | random_params=(mue, sigma) are used when given. A mean of 0 counts as not given: the middle of the interval is used. | `init_gaussian_zero_mean_refuted` |
| C88 | The default initializer comments suggest that random_init alone selects random states. With states=None every reset gives zeros. | `init_none_ignores_random_refuted` |
| C89 | Whether a constant initial flux of an induction motor is accepted should depend on the motor and the value. The bound is projected on a field angle drawn from the global numpy generator, so the same flux is accepted or refused by chance; the projected limits lie on a circle of radius flux_d_max. | `init_scim_flux_depends_on_chance_refuted` |
| C90 | The jacobian of the polynomial load should be the derivative wherever the ODE is differentiable. Without static friction (a=0, the default) the ODE is differentiable at speed 0 but the jacobian there is off by -1/tau_decay = -1000 1/s. | `poly_jacobian_standstill_refuted` |
| C94 | The supply current of an interval should be that of the switching state applied in the interval. i_sup is asked before convert moves the converter, so the previous switching state is used. | `supply_current_of_previous_state_refuted` |
| C96 | Every legal action of the converter should be simulated. With more than one interval ExternallyExcitedSynchronousMotorSystem.simulate hands two of four voltages to the three phase transformation and raises. | `eesm_switching_inside_period_refuted` |
| C97 | The rotor voltage reaches the ODE turned by the rotor angle. The rotor currents given to the converter and those announced after a reset should be in the same frames as those announced after a step; they are not. | `dfim_converter_rotor_currents_refuted`, `dfim_reset_rotor_currents_refuted` |
| C101 | AC3PhaseSupply is offered as a supply. Three phase systems raise IndexError in the constructor and DC systems raise in reset. | `three_phase_supply_unusable_refuted` |
| C103 | The announced lower bound of u_sup is 0 for three phase systems. With the single phase AC supply the observation is the sine wave over the nominal voltage, negative half of the time and above one at the crest. | `ac_supply_observation_refuted` |
| C104 | The step generator emits only the two values offset+amplitude and offset-amplitude, both inside the interval; the sinusoidal generator on a symmetric interval emits the exact sampled sine a*sin(2 pi f k tau + phase)+o without any clipping. On an interval that is not symmetric to zero the offset is drawn from the wrong range (-hi+a instead of lo+a) and the wave is cut off. | `one_sided_sine_cut_refuted` |
| C106 | Two runs from the same seeded generator with the same number of resets yield the same next episode, whatever the lengths of the earlier episodes. The Wiener process without initial reference draws its initial value from the generator of the previous episode before spawning a new one, so it depends on how long the previous episode was. | `wiener_reset_depends_on_past_refuted` |
| C108 | The voltage a reset reports is the passive one: action 0 at zero current for finite converters, what the reset converter puts out at zero current for continuous ones. A reset restores a defined converter state: refuted, the switching state and pattern of finite half bridges survive, so the first interlocking delay of an episode depends on the previous episode. | `reset_forgets_switching_refuted` |
| C112 | Two flux estimates fed with the same currents and speeds approach each other: the squared distance is multiplied per step by (1-tau*r_r/l_r)^2+(tau*w)^2, which is below one iff tau((r_r/l_r)^2+w^2) < 2 r_r/l_r. Refuted for the default squirrel cage motor at nominal speed with the default period: errors grow without bound. | `flux_observer_default_converges_refuted` |
| C113 | For the series, shunt, permanently and externally excited DC motors the selected current gives the demanded torque up to the documented limitation: the torque of the motor model at the selected current equals the reference clipped to what the limits allow.  Refuted in one corner: the permanently excited stage does not look at the speed. | `permex_speed_limit_refuted` |
| C115 | The root of the quartic together with its q current gives the demanded torque, and its flux is the demanded flux.  The flux half is refuted: the quartic of the synchronous motor mixes l_d and l_q, that of the externally excited one misses a factor four, and the residual is given exactly. | `pmsm_analytical_flux_refuted`, `eesm_analytical_flux_refuted`, `eesm_round_rotor_flux_refuted` |
| C116 | tune succeeds in every complete environment; after reset no sequence of calls with references inside the table raises; the look-ups find the nearest row; the torque of the selected point is the demanded one up to half a grid step or what the flux allows.  Holds for motors with a magnet and l_d <= l_q.  Refuted for the reluctance motor with l_d > l_q (torque reversed, flux look-up in a shorter table), for l_d > l_q with a magnet (all rows reversed), and for references above the table (IndexError). | `pmsm_mtpc_sign_refuted`, `pmsm_mtpc_all_reversed_refuted`, `pmsm_reference_above_table_refuted`, `synrm_flux_lookup_refuted`, `synrm_zero_flux_torque_refuted`, `synrm_torque_reversed_refuted` |
| C119 | The output of the PID controller is gain times error plus integrated error plus derivative gain times the difference to the previous error over tau, over any history of calls and integrations. Expected: reset makes the controller forget its history. Refuted: reset keeps the last error, so the first derivative action of an episode uses the last error of the previous one. | `pid_reset_forgets_history_refuted` |
| C121 | The output stage divides every demanded voltage by the limit of the state with the same name, and behind the converter the motor sees us/(gain*limit) times the demanded voltage for any converter history. Expected: the voltage demanded in rotor coordinates is applied unchanged, turned by the angle of the mid of the period. Refuted: the advance angle uses 1e-4 s and the mechanical speed instead of the sampling time and the electrical speed, so it is right exactly if cos(w/2*(1e-4 - p*tau)) = 1; and the voltage is scaled by supply voltage over motor limit (7/5 for the default PMSM at 420 V). | `abc_advance_refuted`, `demanded_voltage_applied_refuted` |
| C125 | Expected: the nominal supply voltage of every shipped environment is at most the default voltage limit of its motor, so that normalised voltages stay in the announced space. It exceeds the limit in exactly eighteen environments: all SynRM, PMSM and EESM environments except continuous current control of PMSM and EESM, and the discrete torque and current control environments of the series motor (seven times the limit). | `supply_within_motor_limit_refuted` |
| C126 | For every task and motor the two variants have the same reference states and reward keys. Expected: also the same reference range. It is violated: Cont-CC-EESM restricts the excitation current reference to [0, 1], Finite-CC-EESM does not. | `variants_share_references_refuted` |
| C129 | Reward and action plots show exactly the last w steps. Expected: the same step is shown at the same time in all plots. It is violated: they show the n-th step at (n-1)*tau, the state plot shows it at n*tau. | `same_step_same_time_refuted` |
| C132 | Expected: interval and width that the constructor accepts can be used. It is violated: it asserts positivity before truncating to int, so an interval between 0 and 1 raises at the first step (ZeroDivisionError) and a width between 0 and 1 raises IndexError when the environment is set. | `dashboard_arguments_checked_refuted` |
| C133 | The episode length plot shows the length of every finished episode; the mean reward plot shows the mean reward of every finished episode if it was initialised before. Expected: always. It is violated: episodes finished before the first render keep their number but lose their mean, so from the second later episode on the line cannot be drawn (ValueError), and two resets in a row raise ZeroDivisionError. | `late_first_render_refuted`, `mean_plot_allows_two_resets_refuted` |
| C134 | The cumulative constraint violation plot is the staircase that rises by one at each violating step. Expected: it keeps working after reset_figures. It is violated: the next render raises ValueError. | `reset_figures_keeps_violation_plot_refuted` |
| C135 | Expected: after reset_figures plots go on, and scale_plots works for all time plots. It is violated: the reward plot keeps drawing an empty array that is no longer written, and with scale_plots rendering a reward or action plot that has a value raises IndexError. | `reset_figures_keeps_reward_plot_refuted`, `scaled_plots_render_refuted` |
| C136 | When the user renders right after every reset, the verbose console printer reports each episode with its number of steps, cumulative reward and end, after one report of an episode that never was. Expected: also when rendering after each step. It is violated: the report then has the length, the end of the new episode and the sum of both rewards. | `episodes_reported_from_steps_refuted` |
| C137 | The plotter selects exactly the state plots of the referenced states and writes the controller's reference beside the state of the same step. Expected: it works with any visualization of the environment. It is violated: tuning raises AttributeError if one of them is a console printer. | `plotter_accepts_visualizations_refuted` |
| C140 | With a solver that ends where it is asked to, the time of the system is the number of steps since the last reset times tau; EulerSolver and the wrappers of solve_ivp and odeint are such solvers whatever scipy does. Expected also for ScipyOdeSolver, the default. It is violated: an integrator that gives up early is not noticed, the step succeeds and the clock falls behind; odeint's failure is not noticed either, its last row becomes the state. | `early_stop_unnoticed_refuted`, `odeint_failure_unnoticed_refuted` |
| C141 | If integrate raises, EulerSolver and ScipyOdeSolver keep their time and state. Expected for all solvers. It is violated by ScipySolveIvpSolver: when solve_ivp stops before the end, the time is moved before the result is read, so AttributeError is raised with time and state apart, and the repeated step integrates over an empty interval. | `ivp_failure_moves_time_refuted`, `repeated_step_skips_the_interval_refuted` |
| C142 | After every sequence of calls ScipyOdeSolver integrates the equation set last with the jacobian set with it and both get the same inputs; ScipySolveIvpSolver passes the jacobian of the current equation for the implicit methods and leaves the keyword arguments alone otherwise; before the equation is set every call of ScipyOdeSolver raises AttributeError. Expected: changing the equation has the same effect for all solvers. It is violated: ScipyOdeSolver forgets time and state, the others keep them. | `equation_change_differs_refuted` |
| C143 | If scipy solves the equation exactly, integrating through any list of intermediate times with the same input ends in the state of one integration, for all three wrappers. Expected for EulerSolver. It is violated: for y' = -y every cut changes the result. | `cutting_euler_visible_refuted` |
| C144 | The system equation returns the same array in every call. Any program that evaluates it and reads only the newest result behaves as with arrays of its own; EulerSolver is such a program and equals its value model. Expected: any solver may keep a result. It is violated: a kept result changes with the next evaluation; a Runge-Kutta method that keeps the derivative at the initial point while it probes for a first step size (as scipy's solve_ivp does) uses the derivative at the trial point as its first stage and estimates zero curvature. | `kept_result_changes_refuted` |
| C145 | Expected: between the two switching levels the on-off controller keeps its last output. It is violated: both comparisons use the same level, so the output depends only on the present error (and on the past only if the error equals the level exactly); for two histories with the same last error the outputs agree. | `on_off_hysteresis_refuted` |
| C148 | Expected: behind a dead time processor of n steps the action computed in step k is used in step k+n. It is violated: the controller writes all actions into one array and returns it, the processor keeps references to it; after the first n steps every step uses the action computed in the same step, so there is no dead time at all. | `shared_action_has_no_dead_time_refuted` |
| C149 | The compensation of ContinuousActionController equals the induced voltage exactly if the speed is zero or the nominal values of speed and voltage are the same multiples of their limits; then the compensated armature is a resistance with an inductance. Expected: always, also in CascadedController. The latter looks the flux up under the key 'psie_e': a permanently excited motor is compensated with a flux of 1e-6 Vs. | `cascaded_emf_compensation_refuted` |
| C151 | Expected: the outer stage of CascadedController compares the reference with the measured controlled quantity. It is violated: it compares it with the armature current; two states with the same armature current give the same current demand whatever the speed is. Only its integrator adds the true control error, and only while the output is not clipped. With an externally excited motor both entries of the action are clipped with the limits of the excitation voltage, so a one-quadrant excitation converter forbids negative armature voltages. | `cascade_ignores_controlled_quantity_refuted`, `cascade_armature_clipped_refuted` |
| C153 | With the decoupling voltages of FieldOrientedController each current of a PMSM follows its own controller voltage like a resistance with an inductance. Expected: the same of CascadedFieldOrientedController. It is violated: the direct current is denormalised with the voltage limit, so the decoupling is exact only at standstill, without direct current or if both limits are the same number. | `cascaded_foc_decoupling_refuted` |
| C154 | Expected: with the decoupling voltages of InductionMotorFieldOrientedController the current components in the flux oriented frame of a squirrel cage induction motor are decoupled. It is violated: the mechanical speed is used as electrical speed; the remaining coupling is (p-1) omega sigma L_s i_sq on the d axis and -(p-1) omega (sigma L_s i_sd + L_m/L_r psi) on the q axis, zero only for p = 1 or at standstill. The flux observer of the examples equals one step of the library's FluxObserver. | `im_foc_decoupling_refuted` |
| C155 | The actions of a DiscreteActionController are members of the action space in every history; so are those of discrete field oriented control with on-off controllers. Expected: also with three-point controllers and for externally excited motors. It is violated: with three-point controllers the returned number can be 13 for eight actions, even for currents that sum to zero; for externally excited motors DiscreteActionController can never be constructed. | `discrete_action_extex_refuted`, `foc_three_point_valid_refuted` |
| C157 | Motor.states() lists, without repetition, exactly the states of the default environment except u_sup, epsilon (PMSM, SynRM and EESM) and i_sum (ShuntDc). Expected: the position of a name in the list is its position in the observation. It is violated for PMSM, SynRM, EESM and DFIM. | `listed_states_are_positions_refuted` |
| C158 | Expected: changing the list returned by states() of one description does not change that of another. It is violated: the list object belongs to the motor type, and every change through one description is seen by all other descriptions of the same motor type, and by no others. | `state_lists_are_private_refuted` |
| C159 | Expected: Controller.make(env) gives a controller for every DC environment. For each of the 24 DC environments, with any limits, nominal values, motor parameters, sampling time and kind of environment object (instance of the class, gymnasium wrapper that forwards attributes, wrapper that does not), the outcome is determined: for speed and torque control a controller is made that never raises in any history of control and reset calls and whose actions are always in the action space; for current control it is so for permanently excited and series motors if attributes are readable, but the shunt motor raises AssertionError, the finite externally excited motor raises TypeError, the wrapped continuous externally excited motor and every opaque wrapper raise AttributeError. | `automatic_dc_design_works_refuted` |
| C160 | Expected: current, speed and excitation controller get the gains computed for them. It holds only if the environment object is an instance of one of the six environment classes itself. For an object from gem.make the excitation controller gets the gains of the speed controller, and the speed controller keeps the default gains 5 and 5. | `extex_cascade_gains_refuted` |
| C161 | Passing the stages of the automatic design explicitly gives exactly the result of the automatic design, for all DC environments but those of the shunt motor. There the physical system is wrapped by a CurrentSumProcessor and every call of make with stages raises. | `shunt_user_stages_refuted` |
| C162 | The tuning keeps the structure of the stages, their types and every given parameter, and adds only p_gain, i_gain and d_gain. Refuted: in a cascade of more than two stages each stage gets gains of its own; all stages from the third on get the gains computed for the second. | `third_stage_gains_refuted` |
| C163 | Along every trajectory of the system equation with a polynomial static load, the power carried by the phase voltages and by the currents the system shows to the converter (motor.i_in, back transformed to phases) equals ohmic losses + friction power + growth of magnetic and kinetic energy. It is violated for the DFIM, whose rotor currents are shown in the wrong frame: a machine that feeds power back is seen as one that takes it. | `dfim_drive_balance_refuted` |
| C167 | Over every history of calls and resets, InductionMotorTorqueToCurrentConversion demands a flux current of at most 90 % of the nominal current, a flux between zero and a fixed maximum (at most the flux of the current limit), and the torque current of largest amount in the direction of the demand that makes, with the estimated flux, at most the demanded torque and at most the table torque and stays with the flux current in the nominal circle. The table torque is the nominal voltage point at a flux at most 1.5 grid steps below the demand. Expected: the references are numbers. They are if nominal voltage and speed leave room for the flux of the current limit; otherwise the reference is nan exactly where there is no room, for example for the largest torque at standstill with the parameters of the package's motor at 157 rad/s. | `im_torque_nan_refuted` |
| C168 | Expected: reset() makes the controller behave as when it was built. Proved: all actions after a reset, over every further history, are those of a new controller except for the integrator of the modulation controller, although the stored references are not reset either; in current control it is exactly new. Refuted: one over-modulated call leaves this integrator at minus half the largest flux or less, and reset keeps it, so the flux demanded in the next episode is never higher and, where the voltage limits the flux, strictly lower than that of a new controller. | `im_reset_flux_refuted` |
| C169 | After every history, with one overlaid stage: the torque reference is the stage's answer to the speed error, which is then integrated, if it lies within 85 % of the torque range and the stage is continuous; otherwise it is clipped to nominal torque over torque limit and nothing is integrated. So its amount never exceeds the larger of 0.85 and nominal over limit. Refuted: a configuration with two or more overlaid stages is accepted but every control call raises IndexError. | `speed_loop_two_stages_refuted` |
| C170 | Expected: with references for i_sd and i_sq only, the cascaded controllers control these currents. Refuted: in both cascades the torque current is always controlled to zero; the induction motor version moreover takes the first reference for the flux current, whichever quantity it belongs to, and ignores all others. | `imc_current_mode_refuted`, `cfoc_current_mode_refuted` |
| C171 | Every action lies in the action space. Either the action makes exactly the demanded dq voltages (decoupling plus PI answers) and both current controllers integrate, or it does not make them and neither integrates. Refuted: at every flux angle there are voltages, up to 4/3 of the limit, which an admissible action makes but the controller's action does not, because the zero potential is not shifted as it is in the field oriented controller of synchronous motors. | `imc_voltage_range_refuted` |
| C173 | For each of the 30 three-phase environments, Controller.make(env) without further arguments either raises a determined exception, or makes a controller that never returns an action of the action space in any history of calls, or makes a controller whose actions are always in the action space. The last happens only for torque and speed control of PMSM and SynRM with continuous actions, torque control of them with finite ones, and all tasks of the SCIM with continuous actions, and only if numpy still has np.complex. Refuted: that it works for every environment. | `automatic_ac_design_works_refuted` |
| C176 | Every row of the table [t, psi, i_d, i_q, i_e] that EESMOperationPointSelection computes lies on the grid, gives exactly its torque with a stator current inside the circle of the allowed current, and has the least weighted sum of currents among all admitted grid points of its torque (and flux); every torque with an admitted point has a row; the largest torque and the largest torque per flux are those of the admitted points. The stage can be tuned with a numpy that has np.complex and raises AttributeError with every other. The quantity minimised is not the copper loss. | `eesm_tune_refuted`, `eesm_loss_refuted` |
| C177 | Whatever the tuned selection returns is nan in all three components or a triple with the stator current inside the circle and the excitation current between zero and its limit; it answers for every state and reference while the spline of the optimal flux stays in its range and raises ValueError where it leaves it. The torque used to read the tables does not depend on the flux limit of the modulation controller. | `eesm_torque_not_limited_refuted` |
| C178 | The flux limit of the modulation controller deviates from the flux the speed allows by at most a fifth of margin * (1 - margin) * (l_m * i_e limit + l_d * i_q limit); with margin 0 it never deviates. | `eesm_modulation_band_refuted` |
| C180 | PMSMOperationPointSelection can be tuned with torque_control 'online', 'analytical' and 'interpolate', an unknown value is refused with NotImplementedError, and a stored table spans a range of torques on both sides of zero and a range of fluxes. Refuted: 'interpolate' raises AttributeError with every numpy that has no np.complex (1.24 and later). | `pmsm_table_modes_refuted` |
| C185 | After reset the controller behaves the same whatever happened before, although reset leaves the flag `limited` alone; and it behaves like a new controller. | `ttc_reset_is_new_refuted` |
| C187 | A new or reset TorqueToCurrentConversion with tables of the constructor's sizes answers every torque in every state, in every mode, for ever; torques beyond the table are answered like the largest one, which is what clipping the index is for. | `ttc_torque_above_table_refuted` |

## 6. Findings inside settled properties

* Shipped environments: the supply voltage exceeds the motor's voltage limit in 18
  of 54 environments (420 V against 60 V for the discrete series motor
  environments); the reference of the excitation current is restricted to [0, 1] in
  Cont-CC-EESM but not in Finite-CC-EESM.
* Environment: a reset that raises still unlocks `step`; the documented
  constraint name `'all'` is not recognised (only `'all_states'`); replacing the
  reference generator does not announce the modules to it; `reset()` without
  seed takes fresh entropy each time.
* Half bridges of the 4QC: the two zero states are swapped against the
  documentation.
* The reset observation of the externally excited synchronous machine orders the
  voltages a, b, c, e, d, q while `simulate` gives a, b, c, d, q, e.
* Synchronous and induction motors never call `next_generator` on reset, and the
  induction motors draw the flux angle from the global numpy generator.
* Dead time: the default action of a MultiDiscrete space is nested and is
  refused by the converter; stacked dead times are not added in the angle
  advance of the dq wrapper.
* Cos/sin wrapper with `remove_angle`: the reset observation is one entry too
  long, so a dq wrapper above it cannot be reset.
* Noise wrapper: the shortcut `'all'` raises `KeyError`; the noise can leave the
  announced space.
* Current sum wrapper: sums normalised currents; stacked instances announce the
  same name twice.
* The dq wrapper turns the stator action of the doubly fed motor with the rotor
  angle, its constructor loses the flux index, and the reluctance motor has no dq
  wrapper.
* Flux observer: ignores the rotor voltage of doubly fed motors, announces an
  unnormalised range, and diverges for the default squirrel cage motor at
  nominal speed and the default period.
* State observer: wrong with a state filter, `IndexError` for `_ref` names,
  `TypeError` before the first step.
* Operation point selection: see C74, C113-C116.  Torque and speed control of
  three phase motors cannot be built through `gem_make` (C71), so these stages
  are reachable only when assembled by hand.
* The angle advance of `AbcTransformation` uses the mechanical speed and a fixed
  1e-4 s (C121); the voltages are scaled by supply voltage over motor limit.
* Torque controllers of motors with squared clipping shrink large references
  towards zero (C66).

## 7. Mutation experiments

`seeded/LOG.jsonl` has one line per experiment: a realistic bug is put into a
copy of the model, the copy is rebuilt, every proof that breaks is recorded and
the theorems that depend on it are listed.  Mutants that no theorem noticed led
to a stronger theorem (field `tightened`), or are logged as equivalent.

## 8. Plan per property

| property | model | technique |
|---|---|---|
| C01-C03, C05, C06, C75 | Env: state machine over lists of calls with callback trace | induction over histories |
| C04, C48-C53, C104-C107 | RefGen: generators as state machines, episode driver | simulation invariants over streams |
| C07-C09, C80 | Seed: SeedSequence as spawn tree | induction over the component tree, path arithmetic |
| C10-C15, C76 | Constraint, Utils | case analysis, list induction |
| C16-C19 | Reward | real arithmetic, sums by list induction |
| C20-C28, C77, C78, C108 | Conv: converter state machines | invariants over histories |
| C29, C30, C79 | Solver | induction on sub-steps, Taylor estimate |
| C31, C32, C81, C109 | Supply | cos/sin, induction on histories |
| C33, C110 | Transform | ring, `sin2_cos2` |
| C34, C35, C82, C83, C98 | Motor | `derivable_pt_lim`, field, energy functions |
| C36, C37, C84, C85, C111 | MotorLimit | inequalities, dictionary model |
| C38, C39, C86-C89 | Init | dictionary model |
| C40-C44, C90 | Loads | heap model, real analysis |
| C45-C47, C91-C103 | PhysSys | induction, real arithmetic |
| C54, C55 | Ramp | invariants over histories |
| C56-C63, C112 | Wrap | queue invariants, list lemmas |
| C64 | MotorClass | class state |
| C65-C72 | Ctl | real arithmetic, induction on histories |
| C73 | Ctl and Motor together (Emf) | exact residuals |
| C74, C113-C116 | Ops | table invariants, induction on histories |
| C117 | Loop: Ctl and Motor closed in a loop (Loop_Spec) | Jury criterion by a Lyapunov function, real limits |
| C118 | Speed_Spec: speed controller, ideal torque loop, static load | Jury criterion, recurrence of order six |
| C119-C123 | Ctl | induction on histories |
| C124-C126 | Preset: table of the registered environments | case analysis over the table, computation |
| C127 | Full: all modules of a registered environment composed | assume/guarantee contracts of the modules, induction over histories |
| C128-C137 | Vis: plots with arrays on a heap, dashboard, console printer | induction over histories, ring buffer invariants |
| C138 | Ctl, Motor: synchronous motor in dq coordinates | complex second order recurrences (Schur-Cohn), Lyapunov function |
| C139-C143 | Scipy: solver wrappers over an arbitrary scipy, physical system over any solver | simulation relation between systems, induction over histories |
| C144 | Alias: client programs of the system equation | structural induction over programs, invariant of the shared array |
| C145-C155 | Ex, Ex2: example controllers with the motor equations of Motor | induction over histories, second order recurrence, optimality of the potential shift, dq algebra |
| C156-C158 | Motors: descriptions against the registered environments of Preset | case analysis over descriptions, list mutation |
| C159-C162 | Design: automatic design of controllers for DC motors, on top of Ex, Ex2 and Preset | case analysis over the environments, invariants over histories |
| C163-C164 | Power: energy of whole drives, on top of Conv, Motor, Loads, Transform and PhysSys | energy function along trajectories, composition of the component balances |
| C165 | Repro: seeded episodes of whole environments, on top of Full | relation between two runs, carried through converters, solvers, generators and environment |
| C166 | Cmd: commanded and observed voltages of whole environments, on top of Full and Repro | inversion of successful steps, invariant over histories |
| C167-C172 | Ex3: cascaded control of induction motors, on top of Ex2 and the tables of Ops | induction over histories, table look-up, simulation between a reset and a new controller, dq algebra |
| C173-C175 | Design2: automatic controller design for three-phase motors, on top of Design, Ex2, Ex3 and the tables of Ops | case analysis over environments, invariants of each controller over histories, field arithmetic of the gains |
| C176-C178 | Ops2: operating points of the externally excited motor, on top of Ops | the scan as an exact enumeration of the admitted grid points, convexity of the interpolated currents |
| C180-C183 | Ops2: stored tables of the permanent magnet motor, reversal of the externally excited motor, on top of Ops | index arithmetic of the tables, induction over histories, convexity |
| C184-C190 | Ex4: torque to current conversion of the synchronous example, on top of Ops2 | induction over histories, simulation between two resets, real arithmetic |
| C179 | Ex3: torque references of the synchronous cascade | inversion |
