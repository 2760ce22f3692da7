{
 "claims": [
  {
   "property": "C01",
   "status": "proved",
   "theorems": [
    "env_step_refused_iff",
    "env_step_succeeds_otherwise",
    "env_locked_step_no_effect",
    "env_failed_reset_unlocks_refuted"
   ],
   "note": "iff for drives whose modules do not raise, over every history of calls; with raising modules the locked direction holds. Finding: a reset that raises still unlocks step."
  },
  {
   "property": "C02",
   "status": "proved",
   "theorems": [
    "env_terminated_iff_violation"
   ],
   "note": "For every module behaviour and every history."
  },
  {
   "property": "C03",
   "status": "proved",
   "theorems": [
    "env_callback_protocol",
    "env_failing_simulation_trace",
    "env_step_trace_prefix"
   ],
   "note": "Exact trace for every history; with failures the trace is a prefix of the group."
  },
  {
   "property": "C04",
   "status": "proved",
   "theorems": [
    "reference_is_previous_observation"
   ],
   "note": "For every generator tree built from the classes, after any history."
  },
  {
   "property": "C05",
   "status": "proved",
   "theorems": [
    "env_filter_consistent",
    "env_filter_names",
    "env_filter_unknown_refused",
    "env_filter_empty_is_all"
   ],
   "note": ""
  },
  {
   "property": "C06",
   "status": "proved",
   "theorems": [
    "env_sim_tau_is_last",
    "env_sim_shared_refuted",
    "env_sim_t_zero_refuted"
   ],
   "note": "REFUTED: the sampling time is a class attribute; every environment reports the one of the last construction, and sim.t is always 0."
  },
  {
   "property": "C07",
   "status": "proved",
   "theorems": [
    "reset_seed_reproducible",
    "streams_never_shared",
    "episodes_never_repeat_streams",
    "seeds_separate_streams"
   ],
   "note": "For every component tree and every history. Streams are identified by (entropy, spawn key); components that draw from the global numpy generator or own no generator are outside (see C09 and DESIGN.md). Wrappers of the physical system are the exception of C09."
  },
  {
   "property": "C08",
   "status": "proved",
   "theorems": [
    "reset_without_seed_refuted"
   ],
   "note": "REFUTED: every reset() without seed takes fresh entropy."
  },
  {
   "property": "C09",
   "status": "proved",
   "theorems": [
    "wrapper_ignores_seed_refuted",
    "wrapper_noise_entropy_refuted",
    "wrapper_noise_not_repeated_refuted"
   ],
   "note": "REFUTED."
  },
  {
   "property": "C10",
   "status": "proved",
   "theorems": [
    "limit_constraint_semantics",
    "limit_constraint_unknown_refused",
    "limit_constraint_known_accepted"
   ],
   "note": ""
  },
  {
   "property": "C100",
   "status": "proved",
   "theorems": [
    "dc_drives_never_raise",
    "extex_drive_never_raises",
    "three_phase_drives_never_raise",
    "dq_controlled_drives_never_raise",
    "dfim_drive_never_raises"
   ],
   "note": ""
  },
  {
   "property": "C101",
   "status": "proved",
   "theorems": [
    "three_phase_supply_unusable_refuted"
   ],
   "note": "REFUTED."
  },
  {
   "property": "C102",
   "status": "proved",
   "theorems": [
    "dq_action_is_applied"
   ],
   "note": ""
  },
  {
   "property": "C103",
   "status": "proved",
   "theorems": [
    "ac_supply_observation_refuted"
   ],
   "note": "REFUTED."
  },
  {
   "property": "C104",
   "status": "proved",
   "theorems": [
    "step_values_fit",
    "sinus_is_sampled_sine",
    "triangle_is_sampled_triangle",
    "sawtooth_is_sampled_sawtooth",
    "one_sided_sine_cut_refuted"
   ],
   "note": "REFUTED for one sided intervals."
  },
  {
   "property": "C105",
   "status": "proved",
   "theorems": [
    "walk_continues_over_sub_episodes"
   ],
   "note": ""
  },
  {
   "property": "C106",
   "status": "proved",
   "theorems": [
    "episodes_reproducible",
    "wiener_reset_depends_on_past_refuted"
   ],
   "note": "REFUTED for the Wiener process without initial reference."
  },
  {
   "property": "C107",
   "status": "proved",
   "theorems": [
    "observation_before_reset_raises",
    "zero_length_raises",
    "scalar_ranges_raise"
   ],
   "note": ""
  },
  {
   "property": "C108",
   "status": "proved",
   "theorems": [
    "reset_voltage_is_passive",
    "reset_forgets_switching_refuted"
   ],
   "note": "REFUTED for the switching state."
  },
  {
   "property": "C109",
   "status": "proved",
   "theorems": [
    "ac_effective_values"
   ],
   "note": ""
  },
  {
   "property": "C11",
   "status": "proved",
   "theorems": [
    "squared_constraint_normalised",
    "squared_constraint_denormalised",
    "squared_constraint_mixed_refuted"
   ],
   "note": "Holds when all or none of the observed states are announced normalised; REFUTED for mixed state spaces (the code decides for the whole vector at once)."
  },
  {
   "property": "C110",
   "status": "proved",
   "theorems": [
    "normalised_angle"
   ],
   "note": ""
  },
  {
   "property": "C111",
   "status": "proved",
   "theorems": [
    "dc_cleared_current_limits"
   ],
   "note": ""
  },
  {
   "property": "C112",
   "status": "proved",
   "theorems": [
    "flux_error_factor",
    "flux_error_shrinks_iff",
    "flux_error_constant_speed",
    "flux_observer_default_converges_refuted"
   ],
   "note": "REFUTED for default parameters at nominal speed; the exact condition is proved"
  },
  {
   "property": "C113",
   "status": "proved",
   "theorems": [
    "permex_operating_point",
    "permex_torque",
    "permex_speed_limit_refuted",
    "series_operating_point",
    "shunt_operating_point",
    "extex_operating_point"
   ],
   "note": "Exact torque for all four; the permanently excited stage ignores the speed (REFUTED corner)."
  },
  {
   "property": "C114",
   "status": "proved",
   "theorems": [
    "modulation_bounds",
    "modulation_before_reset",
    "modulation_integrator_bounded",
    "sync_modulation_band",
    "scim_modulation_band"
   ],
   "note": ""
  },
  {
   "property": "C115",
   "status": "proved",
   "theorems": [
    "pmsm_analytical_flux_refuted",
    "eesm_analytical_flux_refuted",
    "eesm_round_rotor_flux_refuted"
   ],
   "note": "REFUTED: torque is exact, but the flux differs; the theorems give the exact residual and concrete motors where it is not zero."
  },
  {
   "property": "C116",
   "status": "proved",
   "theorems": [
    "sync_tune_succeeds",
    "sync_selection_never_raises",
    "pmsm_selected_torque",
    "pmsm_flux_lookup",
    "pmsm_mtpc_sign_refuted",
    "pmsm_mtpc_all_reversed_refuted",
    "pmsm_reference_above_table_refuted",
    "synrm_flux_lookup_refuted",
    "synrm_zero_flux_torque_refuted",
    "synrm_torque_reversed_refuted"
   ],
   "note": "Proved for permanent magnet motors with l_d <= l_q; REFUTED for the reluctance motor (default parameters), for l_d > l_q, and above the table."
  },
  {
   "property": "C117",
   "status": "proved",
   "theorems": [
    "series_current_loop_converges",
    "shunt_current_loop_converges",
    "permex_current_loop_converges",
    "series_current_loop_unstable",
    "series_current_loop_exists",
    "series_current_loop_runs"
   ],
   "note": "Convergence is proved for loops that stay in the voltage range; the existence theorems show that they do so below an explicit voltage bound. The sharpness half is proved for the series motor."
  },
  {
   "property": "C118",
   "status": "proved",
   "theorems": [
    "speed_loop_converges",
    "speed_loop_converges_iff",
    "speed_loop_exists"
   ],
   "note": "The current loop is taken as ideal (torque = demanded torque for the period)."
  },
  {
   "property": "C119",
   "status": "proved",
   "theorems": [
    "pid_action",
    "pid_after_reset",
    "pid_reset_forgets_history_refuted"
   ],
   "note": "REFUTED for the reset; the output law is proved."
  },
  {
   "property": "C12",
   "status": "proved",
   "theorems": [
    "monitor_max_no_constraints",
    "monitor_max_is_maximum",
    "monitor_max_bounds_and_termination"
   ],
   "note": ""
  },
  {
   "property": "C120",
   "status": "proved",
   "theorems": [
    "tuned_current_control_never_raises",
    "control_before_reset_raises"
   ],
   "note": ""
  },
  {
   "property": "C121",
   "status": "proved",
   "theorems": [
    "output_stage_divides",
    "applied_voltage",
    "abc_voltage_angle",
    "abc_advance_exact_iff",
    "abc_advance_refuted",
    "sync_motor_voltage",
    "demanded_voltage_applied_refuted"
   ],
   "note": "REFUTED: output law, converter gain and exact angle are proved; the advance angle ignores pole pairs and sampling time, and the voltage is scaled by supply voltage over motor limit."
  },
  {
   "property": "C122",
   "status": "proved",
   "theorems": [
    "cascade_reset_forgets_history",
    "modulation_reset_forgets_history"
   ],
   "note": ""
  },
  {
   "property": "C123",
   "status": "proved",
   "theorems": [
    "torque_demand_within_limits",
    "dc_current_demand_within_limits",
    "eesm_current_demand_within_limits"
   ],
   "note": ""
  },
  {
   "property": "C124",
   "status": "proved",
   "theorems": [
    "presets_fit_their_ids"
   ],
   "note": ""
  },
  {
   "property": "C125",
   "status": "proved",
   "theorems": [
    "supply_above_motor_limit_iff",
    "supply_within_motor_limit_refuted"
   ],
   "note": "REFUTED: the exact set of the eighteen environments is given."
  },
  {
   "property": "C126",
   "status": "proved",
   "theorems": [
    "variants_share_references_refuted",
    "reference_margins_exact"
   ],
   "note": "REFUTED for the margins; reference states and reward keys agree."
  },
  {
   "property": "C127",
   "status": "proved",
   "theorems": [
    "environment_never_breaks",
    "registered_environments_fit",
    "library_solvers_sound"
   ],
   "note": "Motor parameters, limits, drawn initial states and random numbers are arbitrary; callbacks are passive."
  },
  {
   "property": "C128",
   "status": "proved",
   "theorems": [
    "state_plot_shows_last_steps",
    "dashboard_shows_states"
   ],
   "note": ""
  },
  {
   "property": "C129",
   "status": "proved",
   "theorems": [
    "reward_plot_shows_last_steps",
    "action_plot_shows_last_steps",
    "same_step_same_time_refuted"
   ],
   "note": "REFUTED for the common time axis; the contents are proved."
  },
  {
   "property": "C13",
   "status": "proved",
   "theorems": [
    "monitor_product_refuted",
    "product_merge_as_documented",
    "monitor_callable_gets_one_list_refuted"
   ],
   "note": "REFUTED: 'product' raises TypeError on every state with at least one constraint; a callable gets one list."
  },
  {
   "property": "C130",
   "status": "proved",
   "theorems": [
    "interruptions_marked"
   ],
   "note": ""
  },
  {
   "property": "C131",
   "status": "proved",
   "theorems": [
    "dashboard_never_raises",
    "updates_when_due",
    "dashboard_delivers"
   ],
   "note": "Mean reward plots are left out here, see C133."
  },
  {
   "property": "C132",
   "status": "proved",
   "theorems": [
    "dashboard_arguments_checked_refuted"
   ],
   "note": "REFUTED"
  },
  {
   "property": "C133",
   "status": "proved",
   "theorems": [
    "episode_lengths_shown",
    "dashboard_shows_lengths",
    "mean_rewards_shown",
    "late_first_render_refuted",
    "mean_plot_allows_two_resets_refuted"
   ],
   "note": "REFUTED for late first renders and two resets in a row; the rest is proved."
  },
  {
   "property": "C134",
   "status": "proved",
   "theorems": [
    "violations_shown",
    "dashboard_shows_violations",
    "reset_figures_keeps_violation_plot_refuted"
   ],
   "note": "REFUTED after reset_figures; the staircase is proved."
  },
  {
   "property": "C135",
   "status": "proved",
   "theorems": [
    "reset_figures_keeps_reward_plot_refuted",
    "scaled_plots_render_refuted"
   ],
   "note": "REFUTED"
  },
  {
   "property": "C136",
   "status": "proved",
   "theorems": [
    "episodes_reported",
    "episodes_reported_from_steps_refuted"
   ],
   "note": "REFUTED when rendering from steps; proved when rendering after resets."
  },
  {
   "property": "C137",
   "status": "proved",
   "theorems": [
    "controller_reference_aligned",
    "plotter_chooses_referenced",
    "plotter_accepts_visualizations_refuted"
   ],
   "note": "REFUTED for console printers; alignment and selection are proved."
  },
  {
   "property": "C138",
   "status": "proved",
   "theorems": [
    "pmsm_standstill_loop_converges",
    "synrm_standstill_loop_converges",
    "pmsm_speed_loop_converges",
    "pmsm_speed_loop_exists",
    "sync_standstill_loop_exists"
   ],
   "note": ""
  },
  {
   "property": "C139",
   "status": "proved",
   "theorems": [
    "euler_behind_interface",
    "scipy_solvers_interchangeable"
   ],
   "note": ""
  },
  {
   "property": "C14",
   "status": "proved",
   "theorems": [
    "state_array_from_dict",
    "state_array_from_list",
    "state_array_from_scalar"
   ],
   "note": ""
  },
  {
   "property": "C140",
   "status": "proved",
   "theorems": [
    "any_punctual_solver_keeps_time",
    "punctual_solvers",
    "early_stop_unnoticed_refuted",
    "odeint_failure_unnoticed_refuted"
   ],
   "note": "REFUTED for integrators that stop early; the clock is proved for punctual solvers."
  },
  {
   "property": "C141",
   "status": "proved",
   "theorems": [
    "failed_integration_keeps_state",
    "ivp_failure_moves_time_refuted",
    "repeated_step_skips_the_interval_refuted"
   ],
   "note": "REFUTED for ScipySolveIvpSolver; proved for EulerSolver and ScipyOdeSolver."
  },
  {
   "property": "C142",
   "status": "proved",
   "theorems": [
    "ode_solver_consistent",
    "ode_solver_needs_equation_first",
    "ivp_solver_consistent",
    "equation_change_differs_refuted"
   ],
   "note": "REFUTED for a change of the equation of a running solver; consistency is proved."
  },
  {
   "property": "C143",
   "status": "proved",
   "theorems": [
    "cutting_is_invisible",
    "cutting_euler_visible_refuted"
   ],
   "note": "REFUTED for EulerSolver; proved for the scipy wrappers."
  },
  {
   "property": "C144",
   "status": "proved",
   "theorems": [
    "newest_only_safe",
    "euler_ignores_sharing",
    "kept_result_changes_refuted"
   ],
   "note": "REFUTED for clients that keep results (the description of scipy is from its documentation and source, which are not in the repository); proved for the others."
  },
  {
   "property": "C145",
   "status": "proved",
   "theorems": [
    "on_off_memoryless",
    "on_off_hysteresis_refuted"
   ],
   "note": "REFUTED: the two comparisons use the same level."
  },
  {
   "property": "C146",
   "status": "proved",
   "theorems": [
    "three_point_hysteresis"
   ],
   "note": "Exact characterisation of the output after any history."
  },
  {
   "property": "C147",
   "status": "proved",
   "theorems": [
    "continuous_action_bounded",
    "continuous_action_anti_windup"
   ],
   "note": "Any history of control and reset calls."
  },
  {
   "property": "C148",
   "status": "proved",
   "theorems": [
    "shared_action_has_no_dead_time_refuted"
   ],
   "note": "REFUTED: the controller returns its own array, which the deque of the processor shares."
  },
  {
   "property": "C149",
   "status": "proved",
   "theorems": [
    "emf_compensation_exact_iff",
    "emf_compensation_decouples",
    "cascaded_emf_compensation_refuted"
   ],
   "note": "REFUTED for CascadedController (key psie_e) and for unequal scaling; exact otherwise."
  },
  {
   "property": "C15",
   "status": "proved",
   "theorems": [
    "update_parameter_dict_all_or_nothing"
   ],
   "note": ""
  },
  {
   "property": "C150",
   "status": "proved",
   "theorems": [
    "tuned_current_loop_converges"
   ],
   "note": "One Euler step per cycle, unsaturated."
  },
  {
   "property": "C151",
   "status": "proved",
   "theorems": [
    "cascade_ignores_controlled_quantity_refuted",
    "cascade_outer_stage",
    "cascade_armature_clipped_refuted"
   ],
   "note": "REFUTED: the outer stage reads the armature current."
  },
  {
   "property": "C152",
   "status": "proved",
   "theorems": [
    "foc_action_optimal",
    "foc_anti_windup"
   ],
   "note": "Symmetric action limits."
  },
  {
   "property": "C153",
   "status": "proved",
   "theorems": [
    "foc_decoupling_exact",
    "cascaded_foc_decoupling_refuted"
   ],
   "note": "REFUTED for CascadedFieldOrientedController; exact for FieldOrientedController."
  },
  {
   "property": "C154",
   "status": "proved",
   "theorems": [
    "im_foc_decoupling_residual",
    "im_foc_decoupling_refuted",
    "example_flux_observer_agrees"
   ],
   "note": "REFUTED for p <> 1; the remaining coupling is given exactly."
  },
  {
   "property": "C155",
   "status": "proved",
   "theorems": [
    "discrete_action_valid",
    "discrete_action_extex_refuted",
    "foc_on_off_valid",
    "foc_three_point_valid_refuted"
   ],
   "note": "REFUTED for three-point controllers and externally excited motors; proved otherwise."
  },
  {
   "property": "C156",
   "status": "proved",
   "theorems": [
    "descriptions_name_their_environments"
   ],
   "note": "Bijection between descriptions and registered environments."
  },
  {
   "property": "C157",
   "status": "proved",
   "theorems": [
    "listed_states_are_states",
    "listed_states_are_positions_refuted"
   ],
   "note": "REFUTED for positions of PMSM, SynRM, EESM and DFIM; the listed names are proved to be states."
  },
  {
   "property": "C158",
   "status": "proved",
   "theorems": [
    "state_lists_are_private_refuted"
   ],
   "note": "REFUTED: the list is shared by all descriptions of a motor type."
  },
  {
   "property": "C159",
   "status": "proved",
   "theorems": [
    "automatic_dc_design_verdict",
    "automatic_dc_design_works_refuted"
   ],
   "note": "REFUTED for current control of shunt and finite externally excited motors and for some wrapped objects; the exact table is proved, with totality and action bounds for all other cases."
  },
  {
   "property": "C16",
   "status": "proved",
   "theorems": [
    "reward_in_range"
   ],
   "note": ""
  },
  {
   "property": "C160",
   "status": "proved",
   "theorems": [
    "extex_cascade_gains_refuted"
   ],
   "note": "REFUTED for environment objects from gem.make; the gains are computed as intended for bare instances."
  },
  {
   "property": "C161",
   "status": "proved",
   "theorems": [
    "explicit_design_equals_automatic",
    "shunt_user_stages_refuted"
   ],
   "note": "REFUTED for the shunt motor; proved for the other DC motors."
  },
  {
   "property": "C162",
   "status": "proved",
   "theorems": [
    "tuning_keeps_given",
    "third_stage_gains_refuted"
   ],
   "note": "Given parameters are kept. REFUTED that every stage has gains of its own."
  },
  {
   "property": "C163",
   "status": "proved",
   "theorems": [
    "dc_drive_balance",
    "ac_drive_balance",
    "dfim_drive_balance_refuted"
   ],
   "note": "REFUTED for the doubly fed machine; proved for all other motors with a polynomial static load."
  },
  {
   "property": "C164",
   "status": "proved",
   "theorems": [
    "supply_to_shaft_continuous",
    "supply_to_shaft_finite",
    "supply_to_shaft_multi",
    "phase_currents_sum_to_zero"
   ],
   "note": "1QC for non-negative currents and B6 for currents that sum to zero, as in C25; the EESM drive uses the voltages of the last interval."
  },
  {
   "property": "C165",
   "status": "proved",
   "theorems": [
    "seeded_episode_reproducible",
    "library_solvers_forget"
   ],
   "note": "For the solvers of the library and any other that forgets with set_initial_value; the generators of the registered environments are Wiener processes or several of them."
  },
  {
   "property": "C166",
   "status": "proved",
   "theorems": [
    "observed_voltages_are_commanded"
   ],
   "note": "For all entries that fit together (all registered ones do, C127), all data, all working solvers and all filters. The converters have their default interlocking time of 0."
  },
  {
   "property": "C167",
   "status": "proved",
   "theorems": [
    "im_torque_current_best",
    "im_torque_current_total",
    "im_torque_never_nan",
    "im_torque_nan_refuted"
   ],
   "note": "REFUTED as far as the references may be nan. The estimated flux counts as at least 0.001 Vs, as in the code."
  },
  {
   "property": "C168",
   "status": "proved",
   "theorems": [
    "im_reset_flux_refuted",
    "imc_reset_like_new",
    "imc_reset_current_mode"
   ],
   "note": "REFUTED: reset keeps the integrator of the modulation controller; everything else is reset."
  },
  {
   "property": "C169",
   "status": "proved",
   "theorems": [
    "imc_speed_loop",
    "imc_speed_loop_bounded",
    "speed_loop_two_stages_refuted"
   ],
   "note": "REFUTED for two or more overlaid stages; proved for one."
  },
  {
   "property": "C17",
   "status": "proved",
   "theorems": [
    "reward_convex_combination",
    "default_violation_reward_is_worst",
    "gamma_one_refuted",
    "reward_leaves_range_refuted"
   ],
   "note": "The convex combination holds for every input. REFUTED part: with violation the reward leaves reward_range, and gamma=1 raises ZeroDivisionError."
  },
  {
   "property": "C170",
   "status": "proved",
   "theorems": [
    "imc_current_mode_refuted",
    "cfoc_current_mode_refuted"
   ],
   "note": "REFUTED. The automatic design never chooses these controllers for current references; a user can."
  },
  {
   "property": "C171",
   "status": "proved",
   "theorems": [
    "imc_action_integrates",
    "imc_voltage_range_refuted"
   ],
   "note": "REFUTED as far as the whole voltage is concerned; proved for PI current controllers and the standard action space."
  },
  {
   "property": "C172",
   "status": "proved",
   "theorems": [
    "im_flux_controller",
    "imc_torque_demand"
   ],
   "note": "The flux controller of the torque conversion (gain, limit, anti-windup) and the current references of the whole controller in torque mode."
  },
  {
   "property": "C173",
   "status": "proved",
   "theorems": [
    "automatic_ac_design_verdict",
    "ac_design_usable_only_if",
    "no_ac_design_without_np_complex",
    "automatic_ac_design_works_refuted"
   ],
   "note": "REFUTED. The verdict for each of the 30 three-phase environments is proved: at most nine get a usable controller, none with numpy 1.24 or later (no np.complex); current control of synchronous motors raises at _dead_time, the controllers of the DFIM and of the EESM never return an admissible action. The torque conversion of synchronous motors is arbitrary."
  },
  {
   "property": "C174",
   "status": "proved",
   "theorems": [
    "sync_design_gains"
   ],
   "note": "Symmetric optimum for both current controllers and the speed controller of PMSM, SynRM and EESM with continuous actions."
  },
  {
   "property": "C175",
   "status": "proved",
   "theorems": [
    "im_design_gains"
   ],
   "note": "SCIM and DFIM with continuous actions: gains of the current controllers from the motor parameters only, resetting time and speed controller."
  },
  {
   "property": "C176",
   "status": "proved",
   "theorems": [
    "eesm_rows_best",
    "eesm_largest_torques",
    "eesm_tune_refuted",
    "eesm_loss_refuted"
   ],
   "note": "REFUTED in part: the rows are as described, but tune raises AttributeError with numpy 1.24 and later (np.complex) and the minimised sum of currents is not the copper loss."
  },
  {
   "property": "C177",
   "status": "proved",
   "theorems": [
    "eesm_references_in_limits",
    "eesm_selection_raises_iff",
    "eesm_torque_not_limited_refuted"
   ],
   "note": "REFUTED in part: the references respect the limits, but t_max_psi is evaluated at the optimal flux, not at the limited one. Assumes convex weights of the triangulation (tri_ok)."
  },
  {
   "property": "C178",
   "status": "proved",
   "theorems": [
    "eesm_modulation_band_refuted"
   ],
   "note": "REFUTED: psi_high is scaled with the margin itself, so that margin 0 switches the modulation controller off."
  },
  {
   "property": "C179",
   "status": "proved",
   "theorems": [
    "cfoc_torque_mode"
   ],
   "note": ""
  },
  {
   "property": "C18",
   "status": "proved",
   "theorems": [
    "default_weights_uniform",
    "normed_weights_sum_to_one",
    "positive_bias_range"
   ],
   "note": ""
  },
  {
   "property": "C180",
   "status": "proved",
   "theorems": [
    "pmsm_table_modes_refuted"
   ],
   "note": "REFUTED: torque_control \"interpolate\" uses np.complex, which numpy 1.24 removed."
  },
  {
   "property": "C181",
   "status": "proved",
   "theorems": [
    "pmsm_analytical_torque"
   ],
   "note": ""
  },
  {
   "property": "C182",
   "status": "proved",
   "theorems": [
    "pmsm_table_selection_never_raises",
    "pmsm_interpolated_references"
   ],
   "note": "Assumes convex weights of the triangulation (tri_ok) for the mode \"interpolate\"."
  },
  {
   "property": "C183",
   "status": "proved",
   "theorems": [
    "eesm_reversal",
    "eesm_reversed_history"
   ],
   "note": ""
  },
  {
   "property": "C184",
   "status": "proved",
   "theorems": [
    "ttc_references_nominal"
   ],
   "note": "The tables of the constructor are arbitrary lists."
  },
  {
   "property": "C185",
   "status": "proved",
   "theorems": [
    "ttc_reset_forgets_history",
    "ttc_reset_is_new_refuted"
   ],
   "note": "REFUTED in part: two resets agree whatever happened before, but a new controller starts with integrated 0 and a reset one with a hundredth of psi_low."
  },
  {
   "property": "C186",
   "status": "proved",
   "theorems": [
    "ttc_refines_selection"
   ],
   "note": "The tables of both are the same arbitrary lists."
  },
  {
   "property": "C187",
   "status": "proved",
   "theorems": [
    "ttc_answers",
    "ttc_torque_above_table_refuted"
   ],
   "note": "REFUTED in part: every torque of the table is answered, a torque half a grid step above it raises IndexError although the index is clipped."
  },
  {
   "property": "C188",
   "status": "proved",
   "theorems": [
    "ttc_flux_band"
   ],
   "note": ""
  },
  {
   "property": "C189",
   "status": "proved",
   "theorems": [
    "cascade_torque_references"
   ],
   "note": "For torque_control \"online\"; the tables are arbitrary lists of the sizes of the constructor."
  },
  {
   "property": "C19",
   "status": "proved",
   "theorems": [
    "reward_reuse_other_size_refuted",
    "reward_reuse_keeps_first_refuted",
    "reward_reuse_wrong_state_refuted"
   ],
   "note": "REFUTED: configuration of the first announcement is kept."
  },
  {
   "property": "C190",
   "status": "proved",
   "theorems": [
    "cascade_torque_history"
   ],
   "note": "For torque_control \"online\" and PI current controllers; the tables are arbitrary lists of the sizes of the constructor."
  },
  {
   "property": "C20",
   "status": "proved",
   "theorems": [
    "finite_voltage_in_space",
    "finite_convert_defined",
    "multi_voltage_in_space"
   ],
   "note": "Over every history of method calls, for all four converter types and any multi converter."
  },
  {
   "property": "C21",
   "status": "proved",
   "theorems": [
    "finite_action_valid_iff",
    "multi_invalid_action_has_effect_refuted",
    "multi_short_action_accepted_refuted"
   ],
   "note": "Holds for elementary converters. REFUTED for the multi converter: an invalid action may change the first parts, and too short actions are accepted."
  },
  {
   "property": "C22",
   "status": "proved",
   "theorems": [
    "no_shoot_through"
   ],
   "note": "Over every history in which each period asks for the voltage at its start (as simulate does), interlocking time > 0."
  },
  {
   "property": "C23",
   "status": "proved",
   "theorems": [
    "interlocking_interval",
    "command_applied_in_its_period_refuted"
   ],
   "note": "REFUTED: the switch-over is only seen by a conversion later than t + il + tau/1000, and simulate asks at t and t + il only, so the bridge stays off for the whole period."
  },
  {
   "property": "C24",
   "status": "proved",
   "theorems": [
    "switching_times_schedule",
    "switching_times_long_interlock_refuted"
   ],
   "note": "Holds for 0 <= il < tau; REFUTED for il >= tau."
  },
  {
   "property": "C25",
   "status": "proved",
   "theorems": [
    "power_balance_finite",
    "power_balance_continuous",
    "one_quadrant_power_refuted",
    "cont_one_quadrant_power_refuted",
    "power_balance_interlocking_refuted"
   ],
   "note": "Holds for 2QC, 4QC, B6 (zero-sum currents), 1QC (non-negative current); REFUTED for the 1QC with negative current and for continuous converters with interlocking."
  },
  {
   "property": "C26",
   "status": "proved",
   "theorems": [
    "continuous_voltage_in_space",
    "continuous_output_is_clipped_action",
    "continuous_output_monotone"
   ],
   "note": ""
  },
  {
   "property": "C27",
   "status": "proved",
   "theorems": [
    "finite_action_table",
    "four_quadrant_zero_states_swapped_refuted"
   ],
   "note": "Output voltages follow the tables; the two zero states of the 4QC are swapped against the docstring."
  },
  {
   "property": "C28",
   "status": "proved",
   "theorems": [
    "multi_convert_pointwise",
    "multi_set_action_pointwise",
    "multi_supply_current_is_sum",
    "multi_continuous_pointwise",
    "multi_continuous_set_pointwise"
   ],
   "note": ""
  },
  {
   "property": "C29",
   "status": "proved",
   "theorems": [
    "euler_one_step",
    "euler_substeps_autonomous",
    "euler_substeps_are_steps",
    "euler_failure_no_effect",
    "euler_exact_for_constant_rhs"
   ],
   "note": ""
  },
  {
   "property": "C30",
   "status": "proved",
   "theorems": [
    "euler_substeps_ignore_interval_refuted",
    "euler_substeps_time_shift_refuted"
   ],
   "note": "REFUTED."
  },
  {
   "property": "C31",
   "status": "proved",
   "theorems": [
    "ideal_supply_constant",
    "rc_supply_in_range",
    "rc_supply_reset",
    "rc_supply_settles",
    "rc_supply_regeneration_refuted",
    "rc_supply_overload_refuted",
    "ac_supply_in_range",
    "ac3_supply_balanced",
    "ac_supply_periodic"
   ],
   "note": "The range claim for the RC supply is refuted under regeneration and overload."
  },
  {
   "property": "C32",
   "status": "proved",
   "theorems": [
    "ac1_supply_exceeds_nominal_refuted"
   ],
   "note": "REFUTED: the AC supply exceeds u_nominal in every period."
  },
  {
   "property": "C33",
   "status": "proved",
   "theorems": [
    "clarke_left_inverse",
    "clarke_removes_common_mode",
    "clarke_refuses_other_lengths",
    "park_is_rotation",
    "park_mechanical_angle",
    "dq_abc_roundtrip",
    "abc_dq_roundtrip",
    "alphabeta_dq_roundtrip",
    "power_in_dq",
    "balanced_in_dq"
   ],
   "note": ""
  },
  {
   "property": "C34",
   "status": "proved",
   "theorems": [
    "extex_jacobian_correct",
    "shunt_jacobian_correct",
    "series_jacobian_correct",
    "perm_jacobian_correct",
    "pmsm_jacobian_correct",
    "synrm_jacobian_correct",
    "eesm_jacobian_correct",
    "im_jacobian_correct",
    "scim_jacobian_correct"
   ],
   "note": ""
  },
  {
   "property": "C35",
   "status": "proved",
   "theorems": [
    "extex_power_balance",
    "shunt_power_balance",
    "series_power_balance",
    "perm_power_balance",
    "pmsm_power_balance",
    "synrm_power_balance",
    "eesm_power_balance",
    "im_power_balance",
    "scim_is_dfim_with_shorted_rotor"
   ],
   "note": ""
  },
  {
   "property": "C36",
   "status": "proved",
   "theorems": [
    "pmsm_torque_limit_is_mtpa",
    "pmsm_torque_limit_round",
    "pmsm_torque_entry",
    "pmsm_torque_limit_inverse_saliency_refuted",
    "pmsm_torque_limit_below_current_limit_refuted",
    "synrm_torque_limit_is_max",
    "synrm_torque_limit_inverse_saliency_refuted",
    "im_torque_limit_is_max",
    "eesm_torque_limit_not_maximal_refuted",
    "dc_torque_limit_is_max",
    "extex_cleared_torque_filled",
    "dc_torque_limit_not_from_currents_refuted"
   ],
   "note": "Holds for PMSM with l_d <= l_q, SynRM with l_d >= l_q and induction motors; REFUTED for the other saliency, for the EESM defaults and for the DC defaults."
  },
  {
   "property": "C37",
   "status": "proved",
   "theorems": [
    "limits_completed",
    "three_phase_limits_completed",
    "three_phase_constructor_total"
   ],
   "note": ""
  },
  {
   "property": "C38",
   "status": "proved",
   "theorems": [
    "init_constant_in_order",
    "init_constant_repeatable",
    "init_delivered_if_ordered",
    "init_sync_axis_swapped_refuted",
    "init_dc_excitation_swapped_refuted"
   ],
   "note": "REFUTED: values are delivered in dictionary order (user names first, then defaults); init_constant_in_order gives the exact order from every reachable dictionary, init_sync_axis_swapped_refuted shows {i_sq: x} sets i_sd."
  },
  {
   "property": "C39",
   "status": "proved",
   "theorems": [
    "init_uniform_in_box",
    "init_uniform_covers_box",
    "init_constant_in_order",
    "init_uniform_disjoint_refuted"
   ],
   "note": "Uniform values lie in the half open box and every point of it is reachable; constants outside raise. An interval disjoint from the nominal box is not refused (init_uniform_disjoint_refuted)."
  },
  {
   "property": "C40",
   "status": "proved",
   "theorems": [
    "loads_independent_if_private",
    "const_speed_is_last_built",
    "const_speed_shared_refuted",
    "poly_random_leaks_refuted"
   ],
   "note": "REFUTED for default dictionaries: the class dictionary is shared. Exact law: every class-dictionary load starts with the last non-zero omega_fixed ever built; loads with private dictionaries are independent (frame theorem over all histories)."
  },
  {
   "property": "C41",
   "status": "proved",
   "theorems": [
    "poly_load_is_friction",
    "poly_jacobian_is_derivative"
   ],
   "note": "For every build history with non-negative inertias."
  },
  {
   "property": "C42",
   "status": "proved",
   "theorems": [
    "inertia_accumulates",
    "inertia_reuse_refuted"
   ],
   "note": "REFUTED on reuse: total inertia is j_load plus the sum over all drives the load was ever attached to."
  },
  {
   "property": "C43",
   "status": "proved",
   "theorems": [
    "ext_speed_followed",
    "ext_speed_other_tau",
    "ext_speed_nsteps_refuted"
   ],
   "note": "Holds for one-step Euler with equal sampling times, any electrical part and voltages; fails for nsteps > 1 and for different tau."
  },
  {
   "property": "C44",
   "status": "proved",
   "theorems": [
    "ou_constructor_fails_refuted",
    "ou_step_in_range",
    "ou_drift_scaled_refuted"
   ],
   "note": "REFUTED: AttributeError always."
  },
  {
   "property": "C45",
   "status": "proved",
   "theorems": [
    "simulate_covers_the_period",
    "time_after_history",
    "finite_drive_subintervals"
   ],
   "note": ""
  },
  {
   "property": "C46",
   "status": "proved",
   "theorems": [
    "reported_angle_in_range",
    "reset_angle_range"
   ],
   "note": "Holds after every step. After a reset the angle is wrapped by at most one turn; for initial angles outside [-3 pi, 3 pi) it leaves the range (Example reset_angle_out_of_range)."
  },
  {
   "property": "C47",
   "status": "proved",
   "theorems": [
    "reported_abc_currents_fit_iff",
    "reported_abc_currents_refuted"
   ],
   "note": "REFUTED: they fit exactly when the angle did not move (mod 2 pi) or the current is zero."
  },
  {
   "property": "C48",
   "status": "proved",
   "theorems": [
    "references_in_space",
    "plain_margins_are_ordered"
   ],
   "note": "Given lower <= upper, which plain_margins_are_ordered derives for numeric and default margins."
  },
  {
   "property": "C49",
   "status": "proved",
   "theorems": [
    "generators_never_raise",
    "sub_episodes_in_sequence"
   ],
   "note": ""
  },
  {
   "property": "C50",
   "status": "proved",
   "theorems": [
    "tuple_margin_interval",
    "symmetric_tuple_margin_refuted",
    "announced_twice_refuted"
   ],
   "note": "REFUTED: exact interval proved, (a,b) gives [-a, b] for a symmetric state."
  },
  {
   "property": "C51",
   "status": "proved",
   "theorems": [
    "multiple_refuses_overlap",
    "multiple_concatenates"
   ],
   "note": ""
  },
  {
   "property": "C52",
   "status": "proved",
   "theorems": [
    "super_episode_schedule",
    "switched_space_contains",
    "switch_continues_from_last_reference"
   ],
   "note": ""
  },
  {
   "property": "C53",
   "status": "proved",
   "theorems": [
    "reference_names_are_states",
    "const_reference_names_refuted",
    "switching_with_const_refused"
   ],
   "note": "REFUTED for constant references."
  },
  {
   "property": "C54",
   "status": "proved",
   "theorems": [
    "ramp_closed_form",
    "ramp_monotone",
    "ramp_zero_frequency_raises"
   ],
   "note": "Closed form for every history of resets and steps, for step >= 0 and freq <> 0 (negative frequencies count by absolute value); freq = 0 raises at the first event."
  },
  {
   "property": "C55",
   "status": "proved",
   "theorems": [
    "ramped_references_in_announced_space_refuted",
    "ramped_references_in_maximum",
    "ramp_keeps_announced_space",
    "ramped_references_inside_if_announced"
   ],
   "note": "REFUTED: a ramp starting at 0.9 drives a generator announced with +-0.5 to 0.9. Proved instead: references stay in the maximum margin; announced spaces never change; announced spaces that contain the maximum are sufficient."
  },
  {
   "property": "C56",
   "status": "proved",
   "theorems": [
    "dead_time_is_pure_delay",
    "dead_time_episodes",
    "dead_times_add",
    "dead_time_refuses",
    "multi_discrete_default_raises"
   ],
   "note": "every action sequence and number of episodes; exceptions included"
  },
  {
   "property": "C57",
   "status": "proved",
   "theorems": [
    "reset_actions_reversed",
    "reset_actions_in_order_refuted",
    "empty_reset_actions_raise"
   ],
   "note": "REFUTED: the given reset actions are applied from the end of the list; exact behaviour proved for every list"
  },
  {
   "property": "C58",
   "status": "proved",
   "theorems": [
    "cos_sin_step",
    "cos_sin_announced",
    "cos_sin_unit",
    "cos_sin_unknown_angle",
    "cos_sin_reset",
    "cos_sin_reset_removed_angle_refuted",
    "dq_over_removed_angle_reset_raises"
   ],
   "note": "steps and resets without removal proved; REFUTED for the reset with remove_angle"
  },
  {
   "property": "C59",
   "status": "proved",
   "theorems": [
    "noise_episode",
    "noise_all_refuted",
    "noise_seeded_refuted",
    "noise_in_announced_space_refuted",
    "noise_wrong_use"
   ],
   "note": "the shortcut all, the seeding and the announced range are refuted"
  },
  {
   "property": "C60",
   "status": "proved",
   "theorems": [
    "current_sum_observation",
    "current_sum_announced",
    "current_sum_physical",
    "current_sum_sum_mode_refuted",
    "current_sum_unequal_limits_refuted",
    "current_sum_in_announced_space_refuted",
    "stacked_current_sums_refuted"
   ],
   "note": "REFUTED: holds only with equal limits and limit mode max"
  },
  {
   "property": "C61",
   "status": "proved",
   "theorems": [
    "dq_episode",
    "dq_applied_mid_period",
    "dq_stacked_dead_times_refuted",
    "dfim_stator_frame_refuted",
    "dfim_constructor_refuted",
    "dq_angle_by_motor",
    "dq_refuses"
   ],
   "note": "stacked dead times, the stator frame of the doubly fed motor and its constructor are refuted"
  },
  {
   "property": "C62",
   "status": "proved",
   "theorems": [
    "flux_update_is_euler_step",
    "flux_update_ignores_rotor_voltage_refuted",
    "flux_observer_step",
    "flux_observer_reset",
    "flux_observer_announced",
    "flux_in_announced_space_refuted"
   ],
   "note": "proved for squirrel cage motors; refuted for doubly fed motors (rotor voltage) and for the announced range"
  },
  {
   "property": "C63",
   "status": "proved",
   "theorems": [
    "observer_unfiltered",
    "observer_filtered",
    "observer_filtered_value_refuted",
    "observer_references_refuted"
   ],
   "note": "REFUTED with a filter and for reference names; exact behaviour proved"
  },
  {
   "property": "C64",
   "status": "proved",
   "theorems": [
    "dfim_grows_shared_lists",
    "io_lists_unchanged_refuted",
    "dfim_limits_history_independent",
    "scim_limits_besides_rotor_names",
    "scim_limits_history_independent_refuted"
   ],
   "note": "REFUTED: every DoublyFedInductionMotor extends the class lists shared by all induction motors (7+5n entries after n constructions, successful or not), and a later SCIM gets rotor entries in its limits. All other limit values are proved history independent."
  },
  {
   "property": "C65",
   "status": "proved",
   "theorems": [
    "anti_windup_step",
    "anti_windup_history",
    "saturated_integrator_frozen",
    "integrators_bounded",
    "zero_component_keeps_integrating"
   ],
   "note": "Step rule, every history, frozen while saturated, and an explicit bound for tuned PI controllers of all eight motors. With squared clipping a component that is exactly zero keeps integrating although the vector is clipped."
  },
  {
   "property": "C66",
   "status": "proved",
   "theorems": [
    "squared_clipping_length",
    "squared_clipping_respects_margin_refuted",
    "squared_clipping_within_limit",
    "squared_clipping_to_limit_refuted",
    "squared_clipping_margin_dropped",
    "combined_clipping"
   ],
   "note": "REFUTED: the stage divides by the squared length, so the result has length (1-margin)/length: above 1-margin for every vector between reduced and full limit, and tending to 0 for large references. Direction is kept, and with margin 0 (which tuning always leaves) the full limit holds."
  },
  {
   "property": "C67",
   "status": "proved",
   "theorems": [
    "absolute_clipping",
    "absolute_clipping_range"
   ],
   "note": "Range, nearest point, identity in range, difference zero iff in range, tuned range."
  },
  {
   "property": "C68",
   "status": "proved",
   "theorems": [
    "returned_voltage_is_unclipped",
    "returned_voltage_within_limits_refuted"
   ],
   "note": "REFUTED: the unclipped voltage is returned; for every state and bound there is a reference exceeding it."
  },
  {
   "property": "C69",
   "status": "proved",
   "theorems": [
    "control_inputs",
    "input_stage_keeps_state_refuted"
   ],
   "note": "adapter.control leaves the caller's arrays alone; the input stage alone overwrites its state array."
  },
  {
   "property": "C70",
   "status": "proved",
   "theorems": [
    "episode_length_bound",
    "control_environment_steps",
    "episode_length_respected_refuted"
   ],
   "note": "REFUTED: for every M an environment exists whose first episode has M+1 steps; M+1 first and max(M,1) later is the exact bound."
  },
  {
   "property": "C71",
   "status": "proved",
   "theorems": [
    "documented_speed_controllers_refuted",
    "documented_current_controllers_refuted",
    "ac_torque_control_refuted",
    "dfim_controllers_refuted",
    "permex_p_speed_control_refuted"
   ],
   "note": "REFUTED: none of the documented alternatives can be built; moreover torque and speed control of PMSM, SynRM and SCIM, and any DFIM controller, always raise."
  },
  {
   "property": "C72",
   "status": "proved",
   "theorems": [
    "three_point_selection",
    "three_point_band_from_voltages",
    "discrete_selection",
    "discrete_stage_valid",
    "b6_discrete_control_refuted",
    "eesm_discrete_control_refuted"
   ],
   "note": "Selection exactly by band and thresholds, valid actions; finite B6 and finite EESM always raise."
  },
  {
   "property": "C73",
   "status": "proved",
   "theorems": [
    "pmsm_decoupled",
    "synrm_decoupled",
    "series_decoupled",
    "shunt_decoupled",
    "permex_decoupling_refuted",
    "extex_decoupling_refuted",
    "scim_decoupling_residual",
    "scim_decoupled_one_pole_pair",
    "scim_decoupling_refuted",
    "eesm_decoupling_residual",
    "eesm_decoupling_refuted"
   ],
   "note": "Exact cancellation for PMSM, SynRM, SeriesDc, ShuntDc and for the SCIM with one pole pair. REFUTED for PermExDc, ExtExDc (pole pair factor 0), SCIM with more than one pole pair (mechanical instead of electrical speed) and EESM (d and e axes keep coupling terms)."
  },
  {
   "property": "C74",
   "status": "proved",
   "theorems": [
    "scim_current_circle",
    "scim_tuned_ready",
    "flux_table_one_step_low_refuted",
    "torque_limit_one_step_low_refuted",
    "scim_never_nan",
    "scim_nan_refuted",
    "scim_torque_exact",
    "scim_no_torque_after_reset_refuted",
    "scim_flux_controller_shared_refuted"
   ],
   "note": "The circle holds over every history after tune and reset. REFUTED around it: both tables are read one step low, the q reference becomes nan when the nominal point cannot reach the largest flux, no torque right after reset at speed, and the default flux controller is shared between instances."
  },
  {
   "property": "C75",
   "status": "proved",
   "theorems": [
    "env_drops_callables_refuted",
    "env_callable_never_terminates_refuted",
    "env_monitor_counts_constraints"
   ],
   "note": "REFUTED: callables are dropped; state names and Constraint objects are kept."
  },
  {
   "property": "C76",
   "status": "proved",
   "theorems": [
    "limit_constraint_reuse_refuted",
    "limit_constraint_reuse_unobserved_refuted"
   ],
   "note": "REFUTED."
  },
  {
   "property": "C77",
   "status": "proved",
   "theorems": [
    "cont_4qc_interlocking_cancels_refuted"
   ],
   "note": "REFUTED."
  },
  {
   "property": "C78",
   "status": "proved",
   "theorems": [
    "half_bridges_keep_their_tau_refuted"
   ],
   "note": "REFUTED."
  },
  {
   "property": "C79",
   "status": "proved",
   "theorems": [
    "euler_converges"
   ],
   "note": ""
  },
  {
   "property": "C80",
   "status": "proved",
   "theorems": [
    "ac_fixed_phase_kept",
    "ac_phase_from_global_generator_refuted"
   ],
   "note": "REFUTED unless the phase is given: it is drawn from the global generator on every reset."
  },
  {
   "property": "C81",
   "status": "proved",
   "theorems": [
    "ac_dictionary_reuse_refuted"
   ],
   "note": "REFUTED."
  },
  {
   "property": "C82",
   "status": "proved",
   "theorems": [
    "extex_short_circuit_bounded",
    "shunt_short_circuit_bounded",
    "series_short_circuit_bounded",
    "perm_short_circuit_bounded",
    "pmsm_short_circuit_bounded",
    "synrm_short_circuit_bounded",
    "im_short_circuit_bounded",
    "eesm_short_circuit_bounded",
    "eesm_negative_sigma_diverges",
    "eesm_defaults_diverge_refuted"
   ],
   "note": "REFUTED for the EESM class defaults."
  },
  {
   "property": "C83",
   "status": "proved",
   "theorems": [
    "im_rotation_invariant"
   ],
   "note": ""
  },
  {
   "property": "C84",
   "status": "proved",
   "theorems": [
    "phase_limit_entries_refused_refuted",
    "zero_current_limit_refused_refuted"
   ],
   "note": "REFUTED: every documented per phase entry raises KeyError."
  },
  {
   "property": "C85",
   "status": "proved",
   "theorems": [
    "nominal_follows_limit_refuted"
   ],
   "note": "REFUTED."
  },
  {
   "property": "C86",
   "status": "proved",
   "theorems": [
    "init_gaussian_never_varies_refuted"
   ],
   "note": "REFUTED: every reset hands scipy the same seed; the values (or the error) of any two resets agree."
  },
  {
   "property": "C87",
   "status": "proved",
   "theorems": [
    "init_gaussian_parameters",
    "init_gaussian_zero_mean_refuted"
   ],
   "note": "REFUTED for 0: holds for every non-zero parameter."
  },
  {
   "property": "C88",
   "status": "proved",
   "theorems": [
    "init_none_ignores_random_refuted"
   ],
   "note": "REFUTED: zeros for every distribution."
  },
  {
   "property": "C89",
   "status": "proved",
   "theorems": [
    "flux_limit_on_circle",
    "init_scim_flux_depends_on_chance_refuted"
   ],
   "note": "REFUTED: same motor and flux, accepted for drawn angle pi/2 and refused for 0; the circle property is proved."
  },
  {
   "property": "C90",
   "status": "proved",
   "theorems": [
    "poly_jacobian_standstill_refuted"
   ],
   "note": "REFUTED: off by -1000 at standstill."
  },
  {
   "property": "C91",
   "status": "proved",
   "theorems": [
    "result_array_reuse_invisible"
   ],
   "note": ""
  },
  {
   "property": "C92",
   "status": "proved",
   "theorems": [
    "system_jacobian_is_derivative"
   ],
   "note": ""
  },
  {
   "property": "C93",
   "status": "proved",
   "theorems": [
    "system_limits_spec"
   ],
   "note": ""
  },
  {
   "property": "C94",
   "status": "proved",
   "theorems": [
    "supply_current_of_previous_state_refuted"
   ],
   "note": "REFUTED."
  },
  {
   "property": "C95",
   "status": "proved",
   "theorems": [
    "rc_supply_constant_in_period"
   ],
   "note": ""
  },
  {
   "property": "C96",
   "status": "proved",
   "theorems": [
    "eesm_switching_inside_period_refuted"
   ],
   "note": "REFUTED: always an exception."
  },
  {
   "property": "C97",
   "status": "proved",
   "theorems": [
    "dfim_rotor_voltage_frame",
    "dfim_converter_rotor_currents_refuted",
    "dfim_reset_rotor_currents_refuted",
    "dfim_rotor_current_flux",
    "dfim_rotor_current_entries"
   ],
   "note": "Voltages hold; REFUTED for the converter currents and for the dq currents after reset."
  },
  {
   "property": "C98",
   "status": "proved",
   "theorems": [
    "field_angle_orients_flux"
   ],
   "note": ""
  },
  {
   "property": "C99",
   "status": "proved",
   "theorems": [
    "scim_reported_currents"
   ],
   "note": ""
  }
 ]
}