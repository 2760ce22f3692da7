# Print Assumptions of every theorem

Generated from `Print Assumptions` of each `Theorem` in the `*_Props*.v` files (the command also stands beneath each theorem).
Every axiom below belongs to the Coq 8.16 standard library; none is declared in this development.

## Closed under the global context (no axioms)

30 theorems.

* `Alias_Props.v`: newest_only_safe
* `Ctl_Props2.v`: control_environment_steps, episode_length_bound, episode_length_respected_refuted
* `Env_Props.v`: env_filter_consistent, env_filter_empty_is_all, env_filter_names, env_filter_unknown_refused, env_sim_tau_is_last
* `Loads_Props.v`: ou_constructor_fails_refuted
* `Motors_Props.v`: state_lists_are_private_refuted
* `PhysSys_Props4.v`: result_array_reuse_invisible
* `Scipy_Props.v`: ivp_failure_moves_time_refuted
* `Seed_Props.v`: episodes_never_repeat_streams, reset_seed_reproducible, reset_without_seed_refuted, seeds_separate_streams, streams_never_shared, wrapper_ignores_seed_refuted, wrapper_noise_entropy_refuted, wrapper_noise_not_repeated_refuted
* `Utils_Props.v`: update_parameter_dict_all_or_nothing
* `Vis_Props.v`: plotter_accepts_visualizations_refuted, plotter_chooses_referenced
* `Wrap_Props.v`: empty_reset_actions_raise, reset_actions_reversed
* `Wrap_Props4.v`: dq_angle_by_motor
* `Wrap_Props5.v`: observer_filtered, observer_references_refuted, observer_unfiltered

## `ClassicalDedekindReals.sig_forall_dec`

19 theorems.

* `Constraint_Props.v`: product_merge_as_documented
* `Ctl_Props.v`: squared_clipping_margin_dropped
* `Scipy_Props.v`: cutting_is_invisible, ivp_solver_consistent, ode_solver_consistent, ode_solver_needs_equation_first
* `Supply_Props.v`: rc_supply_reset
* `Utils_Props.v`: state_array_from_dict, state_array_from_list, state_array_from_scalar
* `Vis_Props.v`: violations_shown
* `Wrap_Props.v`: dead_time_episodes, dead_time_is_pure_delay, dead_time_refuses, dead_times_add, multi_discrete_default_raises
* `Wrap_Props3.v`: noise_all_refuted, noise_episode, noise_wrong_use

## `ClassicalDedekindReals.sig_forall_dec`, `FunctionalExtensionality.functional_extensionality_dep`

262 theorems.

* `Alias_Props.v`: euler_ignores_sharing, kept_result_changes_refuted
* `Constraint_Props.v`: env_callable_never_terminates_refuted, env_drops_callables_refuted, env_monitor_counts_constraints, limit_constraint_known_accepted, limit_constraint_reuse_refuted, limit_constraint_reuse_unobserved_refuted, limit_constraint_semantics, limit_constraint_unknown_refused, monitor_callable_gets_one_list_refuted, monitor_max_bounds_and_termination, monitor_max_is_maximum, monitor_max_no_constraints, monitor_product_refuted, squared_constraint_denormalised, squared_constraint_mixed_refuted, squared_constraint_normalised
* `Conv_Props.v`: command_applied_in_its_period_refuted, cont_4qc_interlocking_cancels_refuted, cont_one_quadrant_power_refuted, continuous_output_is_clipped_action, continuous_output_monotone, continuous_voltage_in_space, finite_action_table, finite_action_valid_iff, finite_convert_defined, finite_voltage_in_space, four_quadrant_zero_states_swapped_refuted, half_bridges_keep_their_tau_refuted, interlocking_interval, multi_continuous_pointwise, multi_continuous_set_pointwise, multi_convert_pointwise, multi_invalid_action_has_effect_refuted, multi_set_action_pointwise, multi_short_action_accepted_refuted, multi_supply_current_is_sum, multi_voltage_in_space, no_shoot_through, one_quadrant_power_refuted, power_balance_continuous, power_balance_finite, power_balance_interlocking_refuted, reset_forgets_switching_refuted, reset_voltage_is_passive, switching_times_long_interlock_refuted, switching_times_schedule
* `Ctl_Props.v`: absolute_clipping, absolute_clipping_range
* `Ctl_Props2.v`: ac_torque_control_refuted, dfim_controllers_refuted, documented_current_controllers_refuted, documented_speed_controllers_refuted, input_stage_keeps_state_refuted, permex_p_speed_control_refuted
* `Ctl_Props3.v`: discrete_selection, discrete_stage_valid, eesm_discrete_control_refuted, three_point_band_from_voltages, three_point_selection
* `Design_Props.v`: explicit_design_equals_automatic, extex_cascade_gains_refuted, shunt_user_stages_refuted, third_stage_gains_refuted, tuning_keeps_given
* `Emf_Props.v`: eesm_decoupling_refuted, eesm_decoupling_residual, extex_decoupling_refuted, permex_decoupling_refuted, pmsm_decoupled, scim_decoupled_one_pole_pair, scim_decoupling_refuted, scim_decoupling_residual, series_decoupled, shunt_decoupled, synrm_decoupled
* `Env_Props.v`: env_callback_protocol, env_failed_reset_unlocks_refuted, env_failing_simulation_trace, env_locked_step_no_effect, env_sim_shared_refuted, env_sim_t_zero_refuted, env_step_refused_iff, env_step_succeeds_otherwise, env_step_trace_prefix, env_terminated_iff_violation
* `Ex_Props.v`: cascaded_emf_compensation_refuted, continuous_action_anti_windup, continuous_action_bounded, emf_compensation_decouples, emf_compensation_exact_iff, on_off_hysteresis_refuted, on_off_memoryless, shared_action_has_no_dead_time_refuted, three_point_hysteresis, tuned_current_loop_converges
* `Ex_Props2.v`: cascaded_foc_decoupling_refuted, discrete_action_extex_refuted, discrete_action_valid, foc_decoupling_exact
* `Full_Props.v`: library_solvers_sound, registered_environments_fit
* `Init_Props.v`: init_constant_in_order, init_dc_excitation_swapped_refuted, init_gaussian_never_varies_refuted, init_gaussian_parameters, init_gaussian_zero_mean_refuted, init_none_ignores_random_refuted, init_uniform_covers_box, init_uniform_disjoint_refuted, init_uniform_in_box
* `Loads_Props.v`: const_speed_is_last_built, const_speed_shared_refuted, ext_speed_followed, ext_speed_nsteps_refuted, ext_speed_other_tau, inertia_accumulates, inertia_reuse_refuted, loads_independent_if_private, poly_jacobian_is_derivative, poly_jacobian_standstill_refuted, poly_load_is_friction, poly_random_leaks_refuted
* `MotorLimit_Props.v`: dc_cleared_current_limits, dc_torque_limit_is_max, dc_torque_limit_not_from_currents_refuted, extex_cleared_torque_filled, limits_completed
* `Motor_Props.v`: eesm_jacobian_correct, eesm_power_balance, extex_jacobian_correct, extex_power_balance, im_jacobian_correct, im_power_balance, perm_jacobian_correct, perm_power_balance, pmsm_jacobian_correct, pmsm_power_balance, scim_is_dfim_with_shorted_rotor, scim_jacobian_correct, series_jacobian_correct, series_power_balance, shunt_jacobian_correct, shunt_power_balance, synrm_jacobian_correct, synrm_power_balance
* `Motors_Props.v`: descriptions_name_their_environments, listed_states_are_positions_refuted, listed_states_are_states
* `Ops_Props.v`: permex_operating_point, permex_speed_limit_refuted, permex_torque, shunt_operating_point
* `Ops_Props2.v`: flux_table_one_step_low_refuted
* `Ops_Props3.v`: eesm_analytical_flux_refuted, eesm_round_rotor_flux_refuted, pmsm_analytical_flux_refuted
* `Ops_Props6.v`: eesm_loss_refuted
* `Ops_Props7.v`: eesm_torque_not_limited_refuted
* `Out_Props.v`: applied_voltage, output_stage_divides
* `PhysSys_Props.v`: dc_drives_never_raise, extex_drive_never_raises, finite_drive_subintervals, simulate_covers_the_period, time_after_history
* `PhysSys_Props4.v`: dfim_rotor_current_flux, rc_supply_constant_in_period, supply_current_of_previous_state_refuted, system_jacobian_is_derivative, system_limits_spec
* `Power_Props.v`: dc_drive_balance, supply_to_shaft_continuous, supply_to_shaft_finite, supply_to_shaft_multi
* `Preset_Props.v`: presets_fit_their_ids, reference_margins_exact, supply_above_motor_limit_iff, supply_within_motor_limit_refuted, variants_share_references_refuted
* `Ramp_Props.v`: ramp_monotone, ramp_zero_frequency_raises
* `RefGen_Props.v`: plain_margins_are_ordered
* `RefGen_Props2.v`: announced_twice_refuted, const_reference_names_refuted, multiple_refuses_overlap, switched_space_contains, switching_with_const_refused, tuple_margin_interval
* `Repro_Props.v`: library_solvers_forget
* `Reward_Props.v`: default_violation_reward_is_worst, default_weights_uniform, gamma_one_refuted, normed_weights_sum_to_one, positive_bias_range, reward_reuse_keeps_first_refuted, reward_reuse_other_size_refuted, reward_reuse_wrong_state_refuted
* `Scipy_Props.v`: any_punctual_solver_keeps_time, cutting_euler_visible_refuted, early_stop_unnoticed_refuted, equation_change_differs_refuted, euler_behind_interface, failed_integration_keeps_state, odeint_failure_unnoticed_refuted, punctual_solvers, repeated_step_skips_the_interval_refuted, scipy_solvers_interchangeable
* `Solver_Props.v`: euler_exact_for_constant_rhs, euler_failure_no_effect, euler_one_step, euler_substeps_are_steps, euler_substeps_autonomous, euler_substeps_ignore_interval_refuted, euler_substeps_time_shift_refuted
* `Speed_Props.v`: speed_loop_converges, speed_loop_converges_iff
* `Supply_Props.v`: ideal_supply_constant, rc_supply_in_range, rc_supply_overload_refuted, rc_supply_regeneration_refuted, rc_supply_settles
* `Vis_Props.v`: action_plot_shows_last_steps, controller_reference_aligned, dashboard_arguments_checked_refuted, dashboard_delivers, dashboard_never_raises, dashboard_shows_lengths, dashboard_shows_states, dashboard_shows_violations, episode_lengths_shown, episodes_reported, episodes_reported_from_steps_refuted, interruptions_marked, late_first_render_refuted, mean_plot_allows_two_resets_refuted, mean_rewards_shown, reset_figures_keeps_reward_plot_refuted, reset_figures_keeps_violation_plot_refuted, reward_plot_shows_last_steps, same_step_same_time_refuted, scaled_plots_render_refuted, state_plot_shows_last_steps, updates_when_due
* `Wrap_Props.v`: reset_actions_in_order_refuted
* `Wrap_Props2.v`: current_sum_announced, current_sum_in_announced_space_refuted, current_sum_observation, current_sum_physical, current_sum_sum_mode_refuted, current_sum_unequal_limits_refuted, stacked_current_sums_refuted
* `Wrap_Props3.v`: noise_in_announced_space_refuted, noise_seeded_refuted
* `Wrap_Props4.v`: dq_stacked_dead_times_refuted
* `Wrap_Props5.v`: flux_error_constant_speed, flux_error_factor, flux_error_shrinks_iff, flux_update_ignores_rotor_voltage_refuted, flux_update_is_euler_step, observer_filtered_value_refuted

## `ClassicalDedekindReals.sig_forall_dec`, `ClassicalDedekindReals.sig_not_dec`, `FunctionalExtensionality.functional_extensionality_dep`

176 theorems.

* `Cascade_Props.v`: cascade_reset_forgets_history, dc_current_demand_within_limits, eesm_current_demand_within_limits, modulation_reset_forgets_history, torque_demand_within_limits
* `Ctl_Props.v`: anti_windup_history, anti_windup_step, combined_clipping, control_before_reset_raises, integrators_bounded, returned_voltage_is_unclipped, returned_voltage_within_limits_refuted, saturated_integrator_frozen, squared_clipping_length, squared_clipping_respects_margin_refuted, squared_clipping_to_limit_refuted, squared_clipping_within_limit, zero_component_keeps_integrating
* `Ctl_Props2.v`: control_inputs
* `Ctl_Props3.v`: b6_discrete_control_refuted
* `Design_Props.v`: automatic_dc_design_verdict, automatic_dc_design_works_refuted
* `Design_Props2.v`: im_design_gains, sync_design_gains
* `Dq_Props.v`: pmsm_speed_loop_converges, pmsm_speed_loop_exists, pmsm_standstill_loop_converges, sync_standstill_loop_exists, synrm_standstill_loop_converges
* `Ex_Props2.v`: cascade_armature_clipped_refuted, cascade_ignores_controlled_quantity_refuted, cascade_outer_stage, foc_action_optimal, foc_anti_windup, foc_on_off_valid, foc_three_point_valid_refuted, im_foc_decoupling_refuted, im_foc_decoupling_residual
* `Ex_Props3.v`: cfoc_current_mode_refuted, cfoc_torque_mode, im_flux_controller, im_reset_flux_refuted, im_torque_current_best, im_torque_current_total, im_torque_nan_refuted, im_torque_never_nan, imc_action_integrates, imc_voltage_range_refuted
* `Ex_Props4.v`: ttc_references_nominal, ttc_refines_selection, ttc_reset_forgets_history, ttc_reset_is_new_refuted
* `Ex_Props5.v`: ttc_answers, ttc_flux_band, ttc_torque_above_table_refuted
* `Ex_Props6.v`: cascade_torque_references
* `Ex_Props7.v`: cascade_torque_history
* `Init_Props.v`: flux_limit_on_circle, init_scim_flux_depends_on_chance_refuted, init_sync_axis_swapped_refuted
* `Loads_Props.v`: ou_drift_scaled_refuted, ou_step_in_range
* `Loop_Props.v`: permex_current_loop_converges, series_current_loop_converges, series_current_loop_exists, series_current_loop_runs, series_current_loop_unstable, shunt_current_loop_converges
* `MotorClass_Props.v`: dfim_grows_shared_lists, dfim_limits_history_independent, io_lists_unchanged_refuted, scim_limits_besides_rotor_names, scim_limits_history_independent_refuted
* `MotorLimit_Props.v`: eesm_torque_limit_not_maximal_refuted, im_torque_limit_is_max, nominal_follows_limit_refuted, phase_limit_entries_refused_refuted, pmsm_torque_entry, pmsm_torque_limit_below_current_limit_refuted, pmsm_torque_limit_inverse_saliency_refuted, pmsm_torque_limit_is_mtpa, pmsm_torque_limit_round, synrm_torque_limit_inverse_saliency_refuted, synrm_torque_limit_is_max, three_phase_constructor_total, three_phase_limits_completed, zero_current_limit_refused_refuted
* `Motor_Props.v`: eesm_defaults_diverge_refuted, eesm_negative_sigma_diverges, im_rotation_invariant
* `Ops_Props.v`: extex_operating_point, modulation_before_reset, modulation_bounds, modulation_integrator_bounded, series_operating_point
* `Ops_Props2.v`: scim_current_circle, scim_flux_controller_shared_refuted, scim_nan_refuted, scim_never_nan, scim_no_torque_after_reset_refuted, scim_torque_exact, scim_tuned_ready, torque_limit_one_step_low_refuted
* `Ops_Props3.v`: pmsm_mtpc_all_reversed_refuted, pmsm_mtpc_sign_refuted, pmsm_reference_above_table_refuted, pmsm_selected_torque, synrm_flux_lookup_refuted, synrm_torque_reversed_refuted, synrm_zero_flux_torque_refuted
* `Ops_Props4.v`: pmsm_flux_lookup, sync_selection_never_raises, sync_tune_succeeds
* `Ops_Props5.v`: scim_modulation_band, sync_modulation_band
* `Ops_Props6.v`: eesm_largest_torques, eesm_rows_best, eesm_tune_refuted
* `Ops_Props7.v`: eesm_modulation_band_refuted, eesm_references_in_limits, eesm_selection_raises_iff
* `Ops_Props8.v`: pmsm_analytical_torque, pmsm_interpolated_references, pmsm_table_modes_refuted, pmsm_table_selection_never_raises
* `Ops_Props9.v`: eesm_reversal, eesm_reversed_history
* `Out_Props.v`: abc_advance_exact_iff, abc_voltage_angle, demanded_voltage_applied_refuted, sync_motor_voltage
* `PhysSys_Props2.v`: dq_action_is_applied, reset_angle_range
* `PhysSys_Props3.v`: reported_abc_currents_fit_iff
* `PhysSys_Props4.v`: ac_supply_observation_refuted, dfim_reset_rotor_currents_refuted, dfim_rotor_voltage_frame, eesm_switching_inside_period_refuted, scim_reported_currents, three_phase_supply_unusable_refuted
* `Pid_Props.v`: pid_action, pid_after_reset, pid_reset_forgets_history_refuted
* `Speed_Props.v`: speed_loop_exists
* `Supply_Props.v`: ac1_supply_exceeds_nominal_refuted, ac3_supply_balanced, ac_dictionary_reuse_refuted, ac_effective_values, ac_fixed_phase_kept, ac_phase_from_global_generator_refuted, ac_supply_in_range, ac_supply_periodic
* `Total_Props.v`: tuned_current_control_never_raises
* `Transform_Props.v`: abc_dq_roundtrip, alphabeta_dq_roundtrip, balanced_in_dq, clarke_left_inverse, clarke_refuses_other_lengths, clarke_removes_common_mode, dq_abc_roundtrip, normalised_angle, park_is_rotation, park_mechanical_angle, power_in_dq
* `Wrap_Props2.v`: cos_sin_announced, cos_sin_reset, cos_sin_reset_removed_angle_refuted, cos_sin_step, cos_sin_unit, cos_sin_unknown_angle, dq_over_removed_angle_reset_raises
* `Wrap_Props4.v`: dfim_constructor_refuted, dfim_stator_frame_refuted, dq_applied_mid_period, dq_episode, dq_refuses

## `ClassicalDedekindReals.sig_forall_dec`, `Classical_Prop.classic`, `FunctionalExtensionality.functional_extensionality_dep`

2 theorems.

* `Init_Props.v`: init_constant_repeatable, init_delivered_if_ordered

## `ClassicalDedekindReals.sig_forall_dec`, `ClassicalDedekindReals.sig_not_dec`, `Classical_Prop.classic`, `FunctionalExtensionality.functional_extensionality_dep`

69 theorems.

* `Cmd_Props.v`: observed_voltages_are_commanded
* `Design_Props2.v`: ac_design_usable_only_if, automatic_ac_design_verdict, automatic_ac_design_works_refuted, no_ac_design_without_np_complex
* `Ex_Props2.v`: example_flux_observer_agrees
* `Ex_Props3.v`: imc_current_mode_refuted, imc_reset_current_mode, imc_reset_like_new, imc_speed_loop, imc_speed_loop_bounded, imc_torque_demand, speed_loop_two_stages_refuted
* `Full_Props.v`: environment_never_breaks
* `Motor_Props.v`: eesm_short_circuit_bounded, extex_short_circuit_bounded, im_short_circuit_bounded, perm_short_circuit_bounded, pmsm_short_circuit_bounded, series_short_circuit_bounded, shunt_short_circuit_bounded, synrm_short_circuit_bounded
* `Out_Props.v`: abc_advance_refuted
* `PhysSys_Props.v`: dfim_drive_never_raises, dq_controlled_drives_never_raise, three_phase_drives_never_raise
* `PhysSys_Props2.v`: reported_angle_in_range
* `PhysSys_Props3.v`: reported_abc_currents_refuted
* `PhysSys_Props4.v`: dfim_converter_rotor_currents_refuted, dfim_rotor_current_entries, field_angle_orients_flux
* `Power_Props.v`: ac_drive_balance, dfim_drive_balance_refuted, phase_currents_sum_to_zero
* `Ramp_Props.v`: ramp_closed_form, ramp_keeps_announced_space, ramped_references_in_announced_space_refuted, ramped_references_in_maximum, ramped_references_inside_if_announced
* `RefGen_Props.v`: generators_never_raise, reference_is_previous_observation, references_in_space, sub_episodes_in_sequence
* `RefGen_Props2.v`: multiple_concatenates, reference_names_are_states, super_episode_schedule, switch_continues_from_last_reference, symmetric_tuple_margin_refuted
* `RefGen_Props3.v`: episodes_reproducible, observation_before_reset_raises, one_sided_sine_cut_refuted, sawtooth_is_sampled_sawtooth, scalar_ranges_raise, sinus_is_sampled_sine, step_values_fit, triangle_is_sampled_triangle, walk_continues_over_sub_episodes, wiener_reset_depends_on_past_refuted, zero_length_raises
* `Repro_Props.v`: seeded_episode_reproducible
* `Reward_Props.v`: reward_convex_combination, reward_in_range, reward_leaves_range_refuted
* `Solver_Props.v`: euler_converges
* `Wrap_Props5.v`: flux_in_announced_space_refuted, flux_observer_announced, flux_observer_default_converges_refuted, flux_observer_reset, flux_observer_step
