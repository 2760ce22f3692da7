{"id": "C01", "title": "step is refused exactly when a reset is required", "statement": "env.step(a) raises AssertionError iff no reset has happened since construction, or the last executed step returned terminated=True, or reference_generator / reward_function was replaced, and no reset came after. A refused step calls no callback and changes nothing. A successful reset always re-enables step.", "quantifier": "every finite sequence of reset / step / set reference_generator / set reward_function / close calls, every physical system, reference generator, reward function and constraint monitor", "why_tests_cant": "A test drives one history; the claim is about every history of calls.", "anchors": ["/repo/src/gym_electric_motor/core.py: ElectricMotorEnvironment.step, reset, reference_generator.setter, reward_function.setter"]}
{"id": "C02", "title": "terminated flag equals full constraint violation, truncated is never set", "statement": "In every executed step the returned terminated flag is True iff the merged violation degree of the state returned by the physical system is >= 1.0; the returned truncated flag is always False.", "quantifier": "every history, every state, every violation degree", "why_tests_cant": "A test drives one history; the claim is about every history of calls.", "anchors": ["/repo/src/gym_electric_motor/core.py: ElectricMotorEnvironment.step"]}
{"id": "C03", "title": "callback protocol", "statement": "For every registered callback the sequence of notifications is set_env followed by reset groups (on_reset_begin,on_reset_end) and step groups (on_step_begin(k),on_step_end(k+1)), in registration order, each exactly once per successful call; k passed to on_step_begin equals the number of steps since the last reset. If simulation fails in a step, on_step_begin has been delivered and on_step_end has not.", "quantifier": "every number of callbacks, every history including failing simulations", "why_tests_cant": "A test drives one history; the claim is about every history of calls.", "anchors": ["/repo/src/gym_electric_motor/core.py: _call_callbacks, reset, step, close"]}
{"id": "C04", "title": "the reference shown after step n is the one the agent is rewarded for in step n+1", "statement": "For Const, all sub-episoded, Multiple and Switched reference generators the reference vector used for the reward of a step has, at the referenced states, exactly the reference observation returned by the preceding reset/step.", "quantifier": "every random stream, every episode length, every history", "why_tests_cant": "A test drives one history; the claim is about every history of calls.", "anchors": ["/repo/src/gym_electric_motor/reference_generators/*.py: get_reference, get_reference_observation, reset", "/repo/src/gym_electric_motor/core.py: step"]}
{"id": "C05", "title": "state filter consistency", "statement": "Observation, limits, nominal_state, state_names and observation space bounds are the same selection in the same order; position i of the observation always is the state named state_names[i] scaled by limits[i]. An unknown name in state_filter is refused at construction. An empty filter means all states.", "quantifier": "every state vector and every filter list", "why_tests_cant": "A test samples some inputs; the claim is about every real input vector of every dimension.", "anchors": ["/repo/src/gym_electric_motor/core.py: ElectricMotorEnvironment.__init__, limits, state_names, nominal_state, step, reset"]}
{"id": "C06", "title": "environments do not share simulation settings (refuted)", "statement": "Creating a second environment must not change env.sim.tau of the first one. The code keeps sim on the class, so it does.", "quantifier": "every pair of environments", "why_tests_cant": "Needs an interleaving of two constructions.", "anchors": ["/repo/src/gym_electric_motor/core.py: ElectricMotorEnvironment.sim, __init__"]}
{"id": "C07", "title": "reset(seed=s) fixes every random stream of the seeded components", "statement": "After reset(seed=s) the random streams used by physical system, converter, motor, load, supply, solver, reference generators (also nested in Multiple/Switched), reward function, constraint monitor and callbacks are a function of s and of the component tree only: independent of everything that happened before. Two components never share a stream.", "quantifier": "every seed, every component tree, every previous history of spawns", "why_tests_cant": "A test drives one history; the claim is about every history of calls.", "anchors": ["/repo/src/gym_electric_motor/core.py: _seed", "/repo/src/gym_electric_motor/random_component.py: RandomComponent.seed, next_generator", "/repo/src/gym_electric_motor/physical_systems/physical_systems.py: SCMLSystem.seed", "/repo/src/gym_electric_motor/reference_generators/multiple_reference_generator.py: seed", "/repo/src/gym_electric_motor/reference_generators/switched_reference_generator.py: seed"]}
{"id": "C08", "title": "reset() without a seed continues the seeded sequence (refuted)", "statement": "Gymnasium: reset(seed=s) followed by reset() must be reproducible. The environment re-seeds from fresh entropy on every reset without seed, so the second episode depends on OS entropy.", "quantifier": "every seed and every pair of entropy sources", "why_tests_cant": "Needs to compare two worlds differing only in OS entropy.", "anchors": ["/repo/src/gym_electric_motor/core.py: reset, _seed"]}
{"id": "C09", "title": "noise of a state noise wrapper is covered by the environment seed (refuted)", "statement": "After reset(seed=s) the stream used by a StateNoiseProcessor should be a function of s. PhysicalSystemWrapper.seed forwards to the inner system only, so the wrapper keeps its construction-time entropy.", "quantifier": "every seed, every wrapper stack", "why_tests_cant": "Needs to compare two worlds differing only in OS entropy.", "anchors": ["/repo/src/gym_electric_motor/physical_system_wrappers/physical_system_wrapper.py: seed", "/repo/src/gym_electric_motor/physical_system_wrappers/state_noise_processor.py"]}
{"id": "C10", "title": "limit constraint semantics", "statement": "LimitConstraint returns 1.0 iff some observed normalised state has absolute value strictly greater than 1, else 0.0; unobserved states never matter; observing 'all_states' observes every state; unknown names are refused.", "quantifier": "every state vector of every dimension, every list of observed names", "why_tests_cant": "A test samples some inputs; the claim is about every real input vector of every dimension.", "anchors": ["/repo/src/gym_electric_motor/constraints.py: LimitConstraint", "/repo/src/gym_electric_motor/utils.py: set_state_array"]}
{"id": "C11", "title": "squared constraint semantics", "statement": "SquaredConstraint returns 1.0 iff the sum of squares of the observed states, each relative to its limit, exceeds 1, else 0.0, in normalised as well as in denormalised state spaces.", "quantifier": "every state vector, every selection", "why_tests_cant": "A test samples some inputs; the claim is about every real input vector of every dimension.", "anchors": ["/repo/src/gym_electric_motor/constraints.py: SquaredConstraint"]}
{"id": "C12", "title": "merging violation degrees with 'max'", "statement": "With the default merge, check_constraints is 0 without constraints and otherwise the maximum of the single degrees: it lies in [0,1] when they do, and reaches 1 iff one of them does.", "quantifier": "every list of constraints and every state", "why_tests_cant": "A test samples some inputs; the claim is about every real input vector of every dimension.", "anchors": ["/repo/src/gym_electric_motor/core.py: ConstraintMonitor.__init__, check_constraints"]}
{"id": "C13", "title": "merging violation degrees with 'product' or a user function (refuted)", "statement": "merge_violations='product' should return 1-prod(1-v) and a callable should receive *violation_degrees. check_constraints passes a single list, so 'product' raises TypeError on every state and a callable receives one list.", "quantifier": "every non-empty constraint list and every state", "why_tests_cant": "A test samples some inputs; the claim is about every real input vector of every dimension.", "anchors": ["/repo/src/gym_electric_motor/core.py: ConstraintMonitor.check_constraints"]}
{"id": "C14", "title": "state arrays from dict, list, array, scalar", "statement": "set_state_array puts each dict entry at the position of its (lower-cased) name and 0 elsewhere, rejects unknown names, returns lists/arrays of the right length unchanged and rejects other lengths, and broadcasts scalars.", "quantifier": "every name list without duplicates, every dict", "why_tests_cant": "A test samples some inputs; the claim is about every real input vector of every dimension.", "anchors": ["/repo/src/gym_electric_motor/utils.py: set_state_array, state_dict_to_state_array"]}
{"id": "C15", "title": "parameter dictionaries are merged all-or-nothing", "statement": "update_parameter_dict raises KeyError iff the update has a key the source lacks and then leaves the source unchanged; otherwise the result has the source's keys, with the update's value where present and the source's elsewhere; the source itself is unchanged unless copy=False.", "quantifier": "every pair of dictionaries", "why_tests_cant": "A test samples some inputs; the claim is about every real input vector of every dimension.", "anchors": ["/repo/src/gym_electric_motor/utils.py: update_parameter_dict"]}
{"id": "C16", "title": "reward stays in reward_range without violation", "statement": "For non-negative weights, powers >= 1, a state and a reference inside the state space and violation degree 0 the reward lies in reward_range; the upper end is reached exactly for zero weighted error.", "quantifier": "every dimension, weights, powers, states, references", "why_tests_cant": "A test samples some inputs; the claim is about every real input vector of every dimension.", "anchors": ["/repo/src/gym_electric_motor/reward_functions/weighted_sum_of_errors.py: set_modules, reward, _wse_reward"]}
{"id": "C17", "title": "reward under violation is the documented convex combination; default violation reward", "statement": "reward = (1-d) r_wse + d r_viol; at d=1 exactly r_viol. The default r_viol is never above the smallest regular reward when bias<=0 and gamma in [0,1). The reward can therefore leave reward_range (refuted range claim).", "quantifier": "every degree d in [0,1], every configuration", "why_tests_cant": "A test samples some inputs; the claim is about every real input vector of every dimension.", "anchors": ["/repo/src/gym_electric_motor/reward_functions/weighted_sum_of_errors.py: reward, set_modules"]}
{"id": "C18", "title": "reward weights", "statement": "Default weights are 1/n on the n referenced states and 0 elsewhere (1/N on all N states when none is referenced); normed weights sum to one; 'positive' bias makes the lower end of reward_range 0.", "quantifier": "every set of referenced states, every weight vector", "why_tests_cant": "A test samples some inputs; the claim is about every real input vector of every dimension.", "anchors": ["/repo/src/gym_electric_motor/reward_functions/weighted_sum_of_errors.py: set_modules"]}
{"id": "C19", "title": "a reward function can be reused in a second environment (refuted)", "statement": "set_modules on a second environment should configure the reward function for that environment. Bias, weights, powers and violation reward of the first announcement are kept.", "quantifier": "every pair of environments", "why_tests_cant": "A test drives one history; the claim is about every history of calls.", "anchors": ["/repo/src/gym_electric_motor/reward_functions/weighted_sum_of_errors.py: set_modules"]}
{"id": "C20", "title": "finite converter voltages stay in the declared voltage space", "statement": "For each finite converter (1QC, 2QC, 4QC, B6, multi) every voltage returned by convert lies in the declared voltages box, for every action history and current.", "quantifier": "every history of set_action/convert/reset, every current, every interlocking time", "why_tests_cant": "A test drives one history; the claim is about every history of calls.", "anchors": ["/repo/src/gym_electric_motor/physical_systems/converters.py: Finite*Converter.convert"]}
{"id": "C21", "title": "invalid finite actions are refused without effect", "statement": "set_action with an action outside the action space raises AssertionError and leaves the converter unchanged; with a valid action it never raises.", "quantifier": "every action, every converter state", "why_tests_cant": "A test samples some inputs; the claim is about every real input vector of every dimension.", "anchors": ["/repo/src/gym_electric_motor/physical_systems/converters.py: FiniteConverter.set_action"]}
{"id": "C22", "title": "no shoot-through", "statement": "With a positive interlocking time the half bridge never goes from upper-on to lower-on or back without an intermediate both-off interval.", "quantifier": "every history of actions and conversion times", "why_tests_cant": "A test drives one history; the claim is about every history of calls.", "anchors": ["/repo/src/gym_electric_motor/physical_systems/converters.py: FiniteTwoQuadrantConverter"]}
{"id": "C23", "title": "the commanded switching state is applied after the interlocking time (refuted)", "statement": "After set_action(a) at t and the interlocking time T the output should correspond to a for the rest of the step. The comparison in convert excludes t+T itself, which is when the simulation calls it, so the bridge stays off during the whole step.", "quantifier": "every step of every drive with 0<T<tau", "why_tests_cant": "Needs the exact call times of the simulation loop for every tau, T.", "anchors": ["/repo/src/gym_electric_motor/physical_systems/converters.py: FiniteTwoQuadrantConverter.convert", "/repo/src/gym_electric_motor/physical_systems/physical_systems.py: SCMLSystem.simulate"]}
{"id": "C24", "title": "switching times of a step", "statement": "The switching times returned by set_action are strictly increasing, lie in (t, t+tau] and end with t+tau whenever the interlocking time is at most tau.", "quantifier": "every converter tree, every history", "why_tests_cant": "A test drives one history; the claim is about every history of calls.", "anchors": ["/repo/src/gym_electric_motor/physical_systems/converters.py: _set_switching_pattern (all finite converters)"]}
{"id": "C25", "title": "power balance of the converters", "statement": "u_out*i_out (summed over outputs) equals i_sup for 2QC, 4QC and B6 in every switching state and for continuous converters without interlocking; it fails for the one-quadrant converter under negative current (refuted part).", "quantifier": "every action, every current", "why_tests_cant": "A test samples some inputs; the claim is about every real input vector of every dimension.", "anchors": ["/repo/src/gym_electric_motor/physical_systems/converters.py: i_sup, convert"]}
{"id": "C26", "title": "continuous converters: clipping, range and mapping", "statement": "Continuous converter outputs lie in the declared voltages box for every action (also outside the action space), are monotone in the action, and equal the clipped action when there is no interlocking; B6 outputs are half the clipped action.", "quantifier": "every real action vector, every current", "why_tests_cant": "A test samples some inputs; the claim is about every real input vector of every dimension.", "anchors": ["/repo/src/gym_electric_motor/physical_systems/converters.py: ContDynamicallyAveragedConverter and subclasses"]}
{"id": "C27", "title": "action tables of 4QC and B6", "statement": "4QC: action 1 gives +1, 2 gives -1, 0 and 3 give 0. B6: action k (0..7) applies the three bits of k as upper/lower switch of the phases; all eight actions are distinct and outputs are +-1/2.", "quantifier": "every action and current", "why_tests_cant": "A test samples some inputs; the claim is about every real input vector of every dimension.", "anchors": ["/repo/src/gym_electric_motor/physical_systems/converters.py: FiniteFourQuadrantConverter, FiniteB6BridgeConverter"]}
{"id": "C28", "title": "multi converters act like their parts", "statement": "A multi converter returns the concatenation of what its sub-converters return on their own slices of action and current; sub-converters do not influence each other.", "quantifier": "every list of sub-converters, every history", "why_tests_cant": "A test drives one history; the claim is about every history of calls.", "anchors": ["/repo/src/gym_electric_motor/physical_systems/converters.py: FiniteMultiConverter, ContMultiConverter"]}
{"id": "C29", "title": "Euler solver is the explicit Euler method", "statement": "integrate(t) returns y + (t-t0) f(t0,y) for one step; for n sub-steps of an autonomous system it is n explicit Euler steps of length (t-t0)/n; afterwards solver.t = t.", "quantifier": "every right hand side, state, step count", "why_tests_cant": "A test samples some inputs; the claim is about every real input vector of every dimension.", "anchors": ["/repo/src/gym_electric_motor/physical_systems/solvers.py: EulerSolver"]}
{"id": "C30", "title": "Euler sub-steps sample the right hand side inside the integration interval (refuted)", "statement": "For n>1 sub-steps the right hand side should be evaluated at t0 + k h. The code evaluates it after the end of the interval.", "quantifier": "every n>=2 and interval", "why_tests_cant": "A test samples some inputs; the claim is about every real input vector of every dimension.", "anchors": ["/repo/src/gym_electric_motor/physical_systems/solvers.py: EulerSolver._integrate_nsteps"]}
{"id": "C31", "title": "voltage supplies", "statement": "The ideal supply returns its nominal voltage for all t and i. Reset of the RC supply restores the nominal voltage; its voltage stays in [0,u0] for admissible currents and exceeds u0 under regeneration. Three phase supply voltages sum to 0 at every time and are bounded by the amplitude.", "quantifier": "every time, current history", "why_tests_cant": "A test drives one history; the claim is about every history of calls.", "anchors": ["/repo/src/gym_electric_motor/physical_systems/voltage_supplies.py"]}
{"id": "C32", "title": "AC supply exceeds the limit it declares (refuted)", "statement": "supply voltages stay within the voltage limit u_nominal. The AC supply oscillates with amplitude sqrt(2) u_nominal.", "quantifier": "every phase and frequency", "why_tests_cant": "A test samples some inputs; the claim is about every real input vector of every dimension.", "anchors": ["/repo/src/gym_electric_motor/physical_systems/voltage_supplies.py: AC1PhaseSupply"]}
{"id": "C33", "title": "Park/Clarke transforms", "statement": "t_23 and t_32 are inverse on zero-sum phase quantities, t_32 outputs always sum to zero, q and q_inv are inverse rotations preserving length, rotations by two angles add, dq->abc->dq is the identity, instantaneous power is 3/2 of the dq power.", "quantifier": "every vector and every angle", "why_tests_cant": "A test samples some inputs; the claim is about every real input vector of every dimension.", "anchors": ["/repo/src/gym_electric_motor/physical_systems/electric_motors/three_phase_motor.py: t_23, t_32, q, q_inv"]}
{"id": "C34", "title": "electrical jacobians are the derivatives of the ODE", "statement": "For every motor the matrices of electrical_jacobian and torque gradients equal the partial derivatives of electrical_ode and torque with respect to every electrical state and omega.", "quantifier": "every parameter set with non-zero inductances, every state, every input", "why_tests_cant": "A test samples some inputs; the claim is about every real input vector of every dimension.", "anchors": ["/repo/src/gym_electric_motor/physical_systems/electric_motors/*.py: electrical_ode, electrical_jacobian, torque"]}
{"id": "C35", "title": "electromechanical power balance", "statement": "For every motor: electrical input power = copper losses + change of magnetic energy + torque*omega.", "quantifier": "every parameter set, state and input", "why_tests_cant": "A test samples some inputs; the claim is about every real input vector of every dimension.", "anchors": ["/repo/src/gym_electric_motor/physical_systems/electric_motors/*.py"]}
{"id": "C36", "title": "torque limit is the attainable maximum", "statement": "The default torque limit of a PMSM is the maximum torque over all currents inside the nominal current circle when l_d <= l_q; for l_d > l_q it is not (refuted). SynRM and DC formulas likewise.", "quantifier": "every parameter set and current vector", "why_tests_cant": "A test samples some inputs; the claim is about every real input vector of every dimension.", "anchors": ["/repo/src/gym_electric_motor/physical_systems/electric_motors/permanent_magnet_synchronous_motor.py: _torque_limit", "/repo/src/gym_electric_motor/physical_systems/electric_motors/synchronous_reluctance_motor.py"]}
{"id": "C37", "title": "limits and nominal values completion", "statement": "User-given limits and nominal values are kept; missing ones are filled from each other and from the motor defaults; after completion every current/voltage entry is present.", "quantifier": "every subset of user entries", "why_tests_cant": "A test samples some inputs; the claim is about every real input vector of every dimension.", "anchors": ["/repo/src/gym_electric_motor/physical_systems/electric_motors/electric_motor.py: _update_limits", "/repo/src/gym_electric_motor/physical_systems/electric_motors/*.py"]}
{"id": "C38", "title": "an initial value given for a state reaches that state (refuted)", "statement": "Passing {name: value} in a motor initializer must initialise the state called name. Values are delivered in dictionary order, so it holds exactly if the dictionary happens to be ordered like the state vector.", "quantifier": "every initializer dictionary", "why_tests_cant": "A test samples some inputs; the claim is about every real input vector of every dimension.", "anchors": ["/repo/src/gym_electric_motor/physical_systems/electric_motors/electric_motor.py: initialize, reset"]}
{"id": "C39", "title": "random initial values stay in their bounds", "statement": "Uniform random initial values lie between the declared lower and upper bound; constant values outside raise.", "quantifier": "every random draw, every interval", "why_tests_cant": "A test samples some inputs; the claim is about every real input vector of every dimension.", "anchors": ["/repo/src/gym_electric_motor/physical_systems/electric_motors/electric_motor.py: initialize"]}
{"id": "C40", "title": "mechanical load instances are independent (refuted)", "statement": "Constructing or resetting one load must not change another one. ConstantSpeedLoad and PolynomialStaticLoad share the class level default dictionary.", "quantifier": "every pair of instances and interleaving", "why_tests_cant": "A test drives one history; the claim is about every history of calls.", "anchors": ["/repo/src/gym_electric_motor/physical_systems/mechanical_loads/constant_speed_load.py", "/repo/src/gym_electric_motor/physical_systems/mechanical_loads/mechanical_load.py"]}
{"id": "C41", "title": "polynomial load is passive, odd, continuous and its jacobian is the derivative", "statement": "The static load torque opposes the rotation, is odd and continuous, and the mechanical jacobian is the derivative away from the break points.", "quantifier": "every non-negative parameter set, every speed", "why_tests_cant": "A test samples some inputs; the claim is about every real input vector of every dimension.", "anchors": ["/repo/src/gym_electric_motor/physical_systems/mechanical_loads/polynomial_static_load.py"]}
{"id": "C42", "title": "total inertia is load plus rotor inertia for every drive (refuted on reuse)", "statement": "After building a drive, j_total = j_load + j_rotor. Reusing the load in another drive adds the rotor inertia again.", "quantifier": "every number of drives", "why_tests_cant": "A test drives one history; the claim is about every history of calls.", "anchors": ["/repo/src/gym_electric_motor/physical_systems/mechanical_loads/mechanical_load.py: set_j_rotor"]}
{"id": "C43", "title": "external speed profile is followed exactly under Euler", "statement": "With one-step Euler and equal sampling times omega after k steps equals the profile at k tau.", "quantifier": "every profile, every number of steps", "why_tests_cant": "A test drives one history; the claim is about every history of calls.", "anchors": ["/repo/src/gym_electric_motor/physical_systems/mechanical_loads/external_speed_load.py"]}
{"id": "C44", "title": "Ornstein-Uhlenbeck load can be constructed (refuted)", "statement": "Every constructor call raises AttributeError.", "quantifier": "every parameter set", "why_tests_cant": "A test samples some inputs; the claim is about every real input vector of every dimension.", "anchors": ["/repo/src/gym_electric_motor/physical_systems/mechanical_loads/ornstein_uhlenbeck_load.py"]}
{"id": "C45", "title": "simulate advances exactly one sampling period", "statement": "Each simulate call integrates the drive through consecutive sub-intervals that tile [t,t+tau] without gaps or overlap, advances t by tau and k by one, and returns the state vector divided by the limits with one entry per state name.", "quantifier": "every history, every switching pattern", "why_tests_cant": "A test drives one history; the claim is about every history of calls.", "anchors": ["/repo/src/gym_electric_motor/physical_systems/physical_systems.py: SCMLSystem.simulate"]}
{"id": "C46", "title": "electrical angle is normalised to (-pi,pi]", "statement": "The epsilon entry is congruent to the true angle modulo 2 pi and its normalised value lies in (-1,1].", "quantifier": "every angle", "why_tests_cant": "A test samples some inputs; the claim is about every real input vector of every dimension.", "anchors": ["/repo/src/gym_electric_motor/physical_systems/physical_systems.py: SynchronousMotorSystem.simulate"]}
{"id": "C47", "title": "abc and dq currents of one observation describe the same current (refuted)", "statement": "The i_abc entries must be the transform of the i_dq entries with the epsilon entry of the same observation. The code uses the angle from before the integration.", "quantifier": "every step with non-zero speed and current", "why_tests_cant": "A test samples some inputs; the claim is about every real input vector of every dimension.", "anchors": ["/repo/src/gym_electric_motor/physical_systems/physical_systems.py: SynchronousMotorSystem.simulate"]}
{"id": "C48", "title": "episode references stay inside the limit margin", "statement": "Every value emitted by a sub-episoded generator (Wiener, Laplace, sinusoidal, step, triangular, sawtooth, const) lies inside the configured margin and therefore in the reference space, given lower<=upper.", "quantifier": "every random stream, every number of steps", "why_tests_cant": "A test drives one history; the claim is about every history of calls.", "anchors": ["/repo/src/gym_electric_motor/reference_generators/*.py"]}
{"id": "C49", "title": "sub-episode bookkeeping", "statement": "A new sub-episode starts exactly when the previous one is used up; its length lies in the configured range; no index is ever out of range if lengths are >= 1; a reset always starts a new sub-episode.", "quantifier": "every random stream, every history", "why_tests_cant": "A test drives one history; the claim is about every history of calls.", "anchors": ["/repo/src/gym_electric_motor/reference_generators/subepisoded_reference_generator.py"]}
{"id": "C50", "title": "tuple limit margin means [lower, upper] (refuted)", "statement": "limit_margin=(a,b) must bound references by a and b (times the limits). The lower bound is multiplied by the lower end of the state space (-1) and changes sign; announcing a generator twice flips it again.", "quantifier": "every tuple margin", "why_tests_cant": "A test samples some inputs; the claim is about every real input vector of every dimension.", "anchors": ["/repo/src/gym_electric_motor/reference_generators/subepisoded_reference_generator.py: set_modules"]}
{"id": "C51", "title": "multiple reference generator", "statement": "Overlapping referenced states are refused; otherwise each referenced state gets exactly its own generator's reference, observation is the concatenation in order.", "quantifier": "every list of sub generators", "why_tests_cant": "A test samples some inputs; the claim is about every real input vector of every dimension.", "anchors": ["/repo/src/gym_electric_motor/reference_generators/multiple_reference_generator.py"]}
{"id": "C52", "title": "switched reference generator", "statement": "Super episode lengths are in range, switching continues from the last reference; the reference space contains every sub generator's space; only the first super episode lasts one step longer than drawn.", "quantifier": "every random stream and history", "why_tests_cant": "A test drives one history; the claim is about every history of calls.", "anchors": ["/repo/src/gym_electric_motor/reference_generators/switched_reference_generator.py"]}
{"id": "C53", "title": "reference names are state names (refuted for constant references in Multiple)", "statement": "reference_names of every generator is a list of state names, one per reference observation entry. ConstReferenceGenerator stores a bare string.", "quantifier": "every generator tree", "why_tests_cant": "A test samples some inputs; the claim is about every real input vector of every dimension.", "anchors": ["/repo/src/gym_electric_motor/reference_generators/const_reference_generator.py", "/repo/src/gym_electric_motor/reference_generators/multiple_reference_generator.py"]}
{"id": "C54", "title": "ramping limit margin", "statement": "After n update events the margin is the initial one widened floor(n/freq) times, clipped at the maximum; margins are monotone and never exceed the maximum.", "quantifier": "every number of events, every parameter set", "why_tests_cant": "A test drives one history; the claim is about every history of calls.", "anchors": ["/repo/src/gym_electric_motor/callbacks.py: RampingLimitMargin"]}
{"id": "C55", "title": "ramped references stay in the declared reference space (refuted)", "statement": "The callback overwrites the margin without touching reference_space, so references can leave the announced space.", "quantifier": "every ramp", "why_tests_cant": "A test drives one history; the claim is about every history of calls.", "anchors": ["/repo/src/gym_electric_motor/callbacks.py: RampingLimitMargin.set_env", "/repo/src/gym_electric_motor/reference_generators/subepisoded_reference_generator.py"]}
{"id": "C56", "title": "dead time is a pure delay", "statement": "With dead time d the action applied at step n after reset is the one submitted at step n-d, and the first d steps use the reset actions.", "quantifier": "every d>=1, every action sequence, every number of resets", "why_tests_cant": "A test drives one history; the claim is about every history of calls.", "anchors": ["/repo/src/gym_electric_motor/physical_system_wrappers/dead_time_processor.py"]}
{"id": "C57", "title": "custom reset actions of the dead time wrapper (refuted order)", "statement": "The first d applied actions should be the given list in order; they come in reverse order; a list of other length changes the delay.", "quantifier": "every list of reset actions", "why_tests_cant": "A test samples some inputs; the claim is about every real input vector of every dimension.", "anchors": ["/repo/src/gym_electric_motor/physical_system_wrappers/dead_time_processor.py"]}
{"id": "C58", "title": "cos/sin wrapper", "statement": "The appended entries are the cosine and sine of the angle so their squares sum to one; simulate and reset return the same number of entries as the declared names (refuted for reset with remove_angle).", "quantifier": "every angle, state length", "why_tests_cant": "A test samples some inputs; the claim is about every real input vector of every dimension.", "anchors": ["/repo/src/gym_electric_motor/physical_system_wrappers/cos_sin_processor.py"]}
{"id": "C59", "title": "state noise wrapper", "statement": "Noise is added to the selected states only, the noise buffer is never read out of range and each noise sample is used exactly once.", "quantifier": "every noise length >= 1, every number of steps and resets", "why_tests_cant": "A test drives one history; the claim is about every history of calls.", "anchors": ["/repo/src/gym_electric_motor/physical_system_wrappers/state_noise_processor.py"]}
{"id": "C60", "title": "current sum wrapper (refuted scaling)", "statement": "entry i_sum times its limit equals the sum of the physical currents. The normalised currents are summed, so it holds only if all limits coincide with the new limit.", "quantifier": "every current vector and limits", "why_tests_cant": "A test samples some inputs; the claim is about every real input vector of every dimension.", "anchors": ["/repo/src/gym_electric_motor/physical_system_wrappers/current_sum_processor.py"]}
{"id": "C61", "title": "dq action wrapper inverts the motor's dq transform", "statement": "The abc voltages applied for a dq action yield that dq action at the rotor angle the converter will see half a period (plus dead time) ahead at constant speed; stacked dead times are not added (refuted).", "quantifier": "every dq action, angle, speed", "why_tests_cant": "A test samples some inputs; the claim is about every real input vector of every dimension.", "anchors": ["/repo/src/gym_electric_motor/physical_system_wrappers/dq_to_abc_action_processor.py"]}
{"id": "C62", "title": "flux observer is the discretised rotor flux equation of the induction motor", "statement": "One observer update equals one explicit Euler step of the motor's rotor flux ODE.", "quantifier": "every state, speed, parameter set", "why_tests_cant": "A test samples some inputs; the claim is about every real input vector of every dimension.", "anchors": ["/repo/src/gym_electric_motor/physical_system_wrappers/flux_observer.py"]}
{"id": "C63", "title": "state observer returns the value of the named state (refuted with filter / references)", "statement": "pull returns the current value of each requested state; with state_filter it indexes the wrong vector and '_ref' names fail.", "quantifier": "every filter and name", "why_tests_cant": "A test samples some inputs; the claim is about every real input vector of every dimension.", "anchors": ["/repo/src/gym_electric_motor/observers/observer.py"]}
{"id": "C64", "title": "doubly fed motors do not change other motor classes (refuted)", "statement": "Constructing a DFIM must not change the voltage/current name lists of other induction motors.", "quantifier": "every number of constructions", "why_tests_cant": "A test drives one history; the claim is about every history of calls.", "anchors": ["/repo/src/gym_electric_motor/physical_systems/electric_motors/doubly_fed_induction_motor.py"]}
{"id": "C65", "title": "anti-windup", "statement": "The integrator of a PI stage changes in a control step iff the corresponding output was not clipped, and then by tau times the error; it is bounded while outputs saturate.", "quantifier": "every state/reference sequence", "why_tests_cant": "A test drives one history; the claim is about every history of calls.", "anchors": ["/repo/src/gem_controllers/stages/anti_windup.py", "/repo/src/gem_controllers/pi_current_controller.py: current_control", "/repo/src/gem_controllers/pi_speed_controller.py: speed_control"]}
{"id": "C66", "title": "squared clipping limits the vector length (refuted)", "statement": "The clipped reference should have relative length at most 1-margin and keep its direction. The code divides by the squared length.", "quantifier": "every reference vector", "why_tests_cant": "A test samples some inputs; the claim is about every real input vector of every dimension.", "anchors": ["/repo/src/gem_controllers/stages/clipping_stages/squared_clipping_stage.py", "/repo/src/gem_controllers/stages/clipping_stages/combined_clipping_stage.py"]}
{"id": "C67", "title": "absolute clipping", "statement": "Outputs lie in the action range, in-range references are unchanged, the clipping difference is zero iff nothing was clipped.", "quantifier": "every reference vector", "why_tests_cant": "A test samples some inputs; the claim is about every real input vector of every dimension.", "anchors": ["/repo/src/gem_controllers/stages/clipping_stages/absolute_clipping_stage.py"]}
{"id": "C68", "title": "the current controller outputs clipped voltages (refuted)", "statement": "The voltage set point leaving the current controller is within the voltage limits. The clipped value is computed but the unclipped one is returned.", "quantifier": "every state and reference", "why_tests_cant": "A test samples some inputs; the claim is about every real input vector of every dimension.", "anchors": ["/repo/src/gem_controllers/pi_current_controller.py: current_control"]}
{"id": "C69", "title": "controller stages do not modify the caller's state; control is a function of denormalised inputs", "statement": "adapter.control leaves the passed state and reference unchanged and passes state*limits, reference*limits to the stages.", "quantifier": "every input", "why_tests_cant": "A test samples some inputs; the claim is about every real input vector of every dimension.", "anchors": ["/repo/src/gem_controllers/gem_adapter.py: control", "/repo/src/gem_controllers/stages/input_stage.py"]}
{"id": "C70", "title": "episode length bound of control_environment (off by one, refuted)", "statement": "With max_episode_length=M no episode is longer than M steps. The first one may last M+1 steps, all later ones M.", "quantifier": "every M, every number of steps, every environment", "why_tests_cant": "A test drives one history; the claim is about every history of calls.", "anchors": ["/repo/src/gem_controllers/gem_controller.py: control_environment"]}
{"id": "C71", "title": "documented base controllers can be used (refuted)", "statement": "make(base_speed_controller='P'/'PID'/'ThreePoint') and base_current_controller='ThreePoint' are documented; tuning raises for all of them.", "quantifier": "every environment", "why_tests_cant": "Requires all combinations of controller and task.", "anchors": ["/repo/src/gem_controllers/pi_speed_controller.py: tune", "/repo/src/gem_controllers/stages/base_controllers/*.py: tune"]}
{"id": "C72", "title": "three point controller and discrete output stage", "statement": "The selected action is high/low/idle exactly according to the hysteresis band; the discrete stage picks low/high/idle by thresholds; outputs are valid converter actions.", "quantifier": "every state, reference", "why_tests_cant": "A test samples some inputs; the claim is about every real input vector of every dimension.", "anchors": ["/repo/src/gem_controllers/stages/base_controllers/three_point_controller.py", "/repo/src/gem_controllers/stages/disc_output_stage.py"]}
{"id": "C73", "title": "EMF feed-forward cancels the coupling", "statement": "With decoupling the current derivative of each axis depends only on its own current and the controller output (PMSM, SynRM); the DC variants with pole pair factor 0 cancel nothing (refuted for PermExDc and ExtExDc).", "quantifier": "every state, speed and parameter set", "why_tests_cant": "A test samples some inputs; the claim is about every real input vector of every dimension.", "anchors": ["/repo/src/gem_controllers/stages/emf_feedforward.py", "/repo/src/gem_controllers/parameter_reader.py: p_reader, l_emf_reader, psi_reader"]}
{"id": "C74", "title": "induction motor operating point respects the current circle", "statement": "i_sd^2+i_sq^2 of the selected operating point never exceeds the current limit squared.", "quantifier": "every state and torque reference", "why_tests_cant": "A test samples some inputs; the claim is about every real input vector of every dimension.", "anchors": ["/repo/src/gem_controllers/stages/operation_point_selection/scim_ops.py: _select_operating_point"]}
{"id": "C75", "title": "every constraint passed to an environment is enforced (refuted for callables)", "statement": "Each element of the constraints argument (state names, Constraint objects, plain callables) contributes its violation degree to the constraint monitor. Plain callables are accepted and silently dropped, so they never end an episode.", "quantifier": "every constraint list and every state", "why_tests_cant": "A test samples some constraint lists; the claim ranges over all lists and all states.", "anchors": ["/repo/src/gym_electric_motor/core.py: ElectricMotorEnvironment.__init__", "/repo/src/gym_electric_motor/constraint_monitor.py: ConstraintMonitor.__init__"]}
{"id": "C76", "title": "a limit constraint can be reused in a second drive (refuted)", "statement": "LimitConstraint('all_states') announced to a second physical system observes that system's states. The names of the first system are kept, so the second announcement fails or observes only the old names.", "quantifier": "every pair of drives", "why_tests_cant": "Tests build one drive per constraint object; the claim is about every pair of drives.", "anchors": ["/repo/src/gym_electric_motor/constraints.py: LimitConstraint.set_modules"]}
{"id": "C77", "title": "interlocking lowers the voltage of the continuous 4QC (refuted)", "statement": "With interlocking time il the two half bridges of a continuous 4QC see opposite currents, so its mean output is action - 2 sign(i) il/tau. The code hands the same current to both half bridges; the effect cancels and the output equals the action for every interlocking time.", "quantifier": "every action, current, sampling and interlocking time below saturation", "why_tests_cant": "A test compares some outputs with recorded ones; the claim relates the output to the physical current direction for all real inputs.", "anchors": ["/repo/src/gym_electric_motor/physical_systems/converters.py: ContFourQuadrantConverter.convert"]}
{"id": "C78", "title": "the sampling time of the drive reaches every half bridge (refuted)", "statement": "Setting converter.tau (as the physical system does) sets the sampling time used in all its half bridges. 4QC and B6 bridges keep the one they were constructed with, so interlocking voltages and announced switching times use the default 1e-4 / 1e-5.", "quantifier": "every 4QC and B6 converter and every sampling time", "why_tests_cant": "Tests set one matching tau; the claim is about every pair of constructed and set value.", "anchors": ["/repo/src/gym_electric_motor/physical_systems/converters.py: PowerElectronicConverter.tau", "/repo/src/gym_electric_motor/physical_systems/physical_systems.py: SCMLSystem.__init__"]}
{"id": "C79", "title": "the Euler solver converges with order one", "statement": "For every scalar autonomous system with Lipschitz right hand side and differentiable exact solution the result of n sub-steps differs from the exact solution by at most exp(L T) T M h with h = T/n: it converges with order one.", "quantifier": "every number of sub-steps n, interval, Lipschitz right hand side and exact solution", "why_tests_cant": "A limit over all step counts and reals cannot be tested.", "anchors": ["/repo/src/gym_electric_motor/physical_systems/solvers.py: EulerSolver.integrate"]}
{"id": "C80", "title": "the phase of an AC supply is fixed by the seed (refuted)", "statement": "After seeding, the initial phase of an AC supply is a function of the seed. The phase is drawn from numpy's global generator; only a fixed user-given phase is reproducible.", "quantifier": "every seed and every state of the global generator", "why_tests_cant": "Tests compare single runs; the claim is a non-dependence over all states of the global generator.", "anchors": ["/repo/src/gym_electric_motor/physical_systems/voltage_supplies.py: AC1PhaseSupply.reset, AC3PhaseSupply.reset"]}
{"id": "C81", "title": "a supply does not change the user's parameter dictionary (refuted)", "statement": "Building a supply from a user dictionary leaves that dictionary unchanged, so it can be reused for a second supply. AC supplies write defaults into it and the second supply inherits a fixed phase.", "quantifier": "every user dictionary", "why_tests_cant": "Tests build one supply per dictionary.", "anchors": ["/repo/src/gym_electric_motor/physical_systems/voltage_supplies.py: AC1PhaseSupply.__init__"]}
{"id": "C82", "title": "a short-circuited motor at standstill is passive (refuted for the default EESM)", "statement": "With zero terminal voltage and omega = 0 the magnetic energy of every motor never increases, so currents stay bounded for all time. The default EESM parameters have a negative leakage coefficient and its currents grow exponentially.", "quantifier": "all parameters with positive resistances and inductances, all solution trajectories of the motor ODE, all times", "why_tests_cant": "Trajectories are uncountable and unbounded in time; a test simulates a few milliseconds.", "anchors": ["physical_systems/electric_motors/*.py electrical_ode", "externally_excited_synchronous_motor.py _update_model, _default_motor_parameter"]}
{"id": "C83", "title": "the induction motor equations do not depend on the chosen alpha axis", "statement": "Rotating all alpha/beta currents, fluxes and voltages of an induction motor by a common angle rotates the derivative by the same angle and leaves the torque unchanged.", "quantifier": "all parameters, states, voltages, speeds and angles", "why_tests_cant": "A symmetry over a continuum of angles and states.", "anchors": ["induction_motor.py electrical_ode, torque"]}
{"id": "C84", "title": "documented limit entries are accepted (refuted)", "statement": "The class documentation lists i_a, i_sd, u_a, ... as limit dictionary entries; passing any of them raises KeyError. A general current limit of 0 ('infer from u and r_s') raises KeyError too.", "quantifier": "all three phase motors, all parameters, all user dictionaries", "why_tests_cant": "Tests pass the general entries only.", "anchors": ["electric_motor.py ElectricMotor.__init__", "synchronous_motor.py _update_limits", "squirrel_cage_induction_motor.py _update_limits", "doubly_fed_induction_motor.py _update_limits"]}
{"id": "C85", "title": "unspecified nominal values equal the limits (refuted)", "statement": "Documented: if not specified, nominal values equal their limits. The class default nominal values are used instead, so the nominal current exceeds a lower user limit.", "quantifier": "all three phase motors and all current limits below the class nominal current", "why_tests_cant": "Tests use default or consistent values.", "anchors": ["electric_motor.py __init__, _update_limits", "permanent_magnet_synchronous_motor.py docstring"]}
{"id": "C86", "title": "a gaussian initialisation draws anew at every reset (refuted)", "statement": "Resets of a motor with gaussian initialisation should give varying values. The integer pool[0] of the seed sequence seeds scipy at every reset, so all resets of an object give one and the same value, also after next_generator.", "quantifier": "every motor, interval, mean, deviation, and pair of resets", "why_tests_cant": "Tests check that values are in bounds; that they never vary is a statement about all resets.", "anchors": ["/repo/src/gym_electric_motor/physical_systems/electric_motors/electric_motor.py: initialize"]}
{"id": "C87", "title": "the mean and deviation of a gaussian initialisation are used (refuted for 0)", "statement": "random_params=(mue, sigma) are used when given. A mean of 0 counts as not given: the middle of the interval is used.", "quantifier": "every mean, deviation and interval", "why_tests_cant": "The bundled tests never pass a zero mean with an asymmetric interval.", "anchors": ["/repo/src/gym_electric_motor/physical_systems/electric_motors/electric_motor.py: initialize"]}
{"id": "C88", "title": "states=None with random_init initialises randomly (refuted)", "statement": "The default initializer comments suggest that random_init alone selects random states. With states=None every reset gives zeros.", "quantifier": "every initializer with states None", "why_tests_cant": "The tests' mocks bypass reset.", "anchors": ["/repo/src/gym_electric_motor/physical_systems/electric_motors/electric_motor.py: reset"]}
{"id": "C89", "title": "acceptance of an initial rotor flux is deterministic (refuted)", "statement": "Whether a constant initial flux of an induction motor is accepted should depend on the motor and the value. The bound is projected on a field angle drawn from the global numpy generator, so the same flux is accepted or refused by chance; the projected limits lie on a circle of radius flux_d_max.", "quantifier": "every motor parameter, flux value and drawn angle", "why_tests_cant": "A test sees one draw.", "anchors": ["/repo/src/gym_electric_motor/physical_systems/electric_motors/squirrel_cage_induction_motor.py: _update_initial_limits", "/repo/src/gym_electric_motor/physical_systems/electric_motors/induction_motor.py: _flux_limit"]}
{"id": "C90", "title": "the load jacobian is right at standstill (refuted)", "statement": "The jacobian of the polynomial load should be the derivative wherever the ODE is differentiable. Without static friction (a=0, the default) the ODE is differentiable at speed 0 but the jacobian there is off by -1/tau_decay = -1000 1/s.", "quantifier": "every b, c, j and torque", "why_tests_cant": "The repository's test compares at speeds other than 0 with the same formula.", "anchors": ["/repo/src/gym_electric_motor/physical_systems/mechanical_loads/polynomial_static_load.py: mechanical_jacobian"]}
{"id": "C91", "title": "reusing the result array of the system equation is invisible", "statement": "The system writes its derivative into one array kept between calls. Every evaluation must return the derivative of its own arguments, whatever was evaluated before.", "quantifier": "every sequence of evaluations, every load and motor", "why_tests_cant": "A test evaluates one or two points; a stale entry shows only for particular earlier calls.", "anchors": ["/repo/src/gym_electric_motor/physical_systems/physical_systems.py: SCMLSystem._system_equation"]}
{"id": "C92", "title": "the system jacobian is the derivative of the system equation", "statement": "The matrix assembled by _system_jacobian (motor block, load block, torque coupling and speed column) is the Jacobian of _system_equation.", "quantifier": "every motor and load whose own jacobians are correct, every state and voltage", "why_tests_cant": "A test compares some entries at one point with the same formula.", "anchors": ["/repo/src/gym_electric_motor/physical_systems/physical_systems.py: SCMLSystem._system_jacobian"]}
{"id": "C93", "title": "system limits are the smaller of the motor and load limits", "statement": "Every limit entry is the smaller one of the limits the motor and the load give for that state name, inf if none gives one, and the nominal supply voltage for u_sup.", "quantifier": "every list of state names and every pair of dictionaries", "why_tests_cant": "Tests use one drive per class.", "anchors": ["/repo/src/gym_electric_motor/physical_systems/physical_systems.py: SCMLSystem._set_limits"]}
{"id": "C94", "title": "the supply is loaded with the current the converter draws (refuted)", "statement": "The supply current of an interval should be that of the switching state applied in the interval. i_sup is asked before convert moves the converter, so the previous switching state is used.", "quantifier": "every state with the upper switch on and a step to the lower switch", "why_tests_cant": "Tests mock the supply or use the ideal supply that ignores the current.", "anchors": ["/repo/src/gym_electric_motor/physical_systems/physical_systems.py: SCMLSystem.simulate"]}
{"id": "C95", "title": "an RC supply is advanced once per sampling period", "statement": "The supply voltage is the same in all sub-intervals of one period, because each is asked at the start time of the period: it is computed once from the current at the period start.", "quantifier": "every history, converter and switching pattern", "why_tests_cant": "It concerns every number of switching instants.", "anchors": ["/repo/src/gym_electric_motor/physical_systems/physical_systems.py: SCMLSystem.simulate", "/repo/src/gym_electric_motor/physical_systems/voltage_supplies.py: RCVoltageSupply.get_voltage"]}
{"id": "C96", "title": "an externally excited machine may switch inside the sampling period (refuted)", "statement": "Every legal action of the converter should be simulated. With more than one interval ExternallyExcitedSynchronousMotorSystem.simulate hands two of four voltages to the three phase transformation and raises.", "quantifier": "every system state and action with at least two switching instants", "why_tests_cant": "No test simulates this system with interlocking.", "anchors": ["/repo/src/gym_electric_motor/physical_systems/physical_systems.py: ExternallyExcitedSynchronousMotorSystem.simulate"]}
{"id": "C97", "title": "rotor quantities of the doubly fed machine are consistent (refuted in part)", "statement": "The rotor voltage reaches the ODE turned by the rotor angle. The rotor currents given to the converter and those announced after a reset should be in the same frames as those announced after a step; they are not.", "quantifier": "every angle and current", "why_tests_cant": "Tests use mocks for the transformations.", "anchors": ["/repo/src/gym_electric_motor/physical_systems/physical_systems.py: DoublyFedInductionMotorSystem.simulate", "/repo/src/gym_electric_motor/physical_systems/physical_systems.py: DoublyFedInductionMotorSystem.reset"]}
{"id": "C98", "title": "the field angle points along the rotor flux", "statement": "The angle of calculate_field_angle lies in [-pi, pi] and in its frame the flux has no q component and its length as d component.", "quantifier": "every flux vector, including zero", "why_tests_cant": "A test takes one vector.", "anchors": ["/repo/src/gym_electric_motor/physical_systems/physical_systems.py: InductionMotorSystem.calculate_field_angle"]}
{"id": "C99", "title": "abc and dq currents of the induction machine fit the state", "statement": "The reported stator abc currents are the Clarke transform of the alpha-beta currents of the new state, and the dq currents are these in the field frame used in the step.", "quantifier": "every step", "why_tests_cant": "A test drives one history.", "anchors": ["/repo/src/gym_electric_motor/physical_systems/physical_systems.py: SquirrelCageInductionMotorSystem.simulate"]}
{"id": "C100", "title": "supported drives never raise", "statement": "From a constructed system every reset and every step with a legal action returns an observation of the announced length.", "quantifier": "every history of legal actions, every parameter set of the supported class", "why_tests_cant": "A test runs a few histories.", "anchors": ["/repo/src/gym_electric_motor/physical_systems/physical_systems.py: SCMLSystem.simulate", "/repo/src/gym_electric_motor/physical_systems/physical_systems.py: DcMotorSystem", "/repo/src/gym_electric_motor/physical_systems/physical_systems.py: SynchronousMotorSystem", "/repo/src/gym_electric_motor/physical_systems/physical_systems.py: SquirrelCageInductionMotorSystem", "/repo/src/gym_electric_motor/physical_systems/physical_systems.py: DoublyFedInductionMotorSystem"]}
{"id": "C101", "title": "three phase supplies can be used (refuted)", "statement": "AC3PhaseSupply is offered as a supply. Three phase systems raise IndexError in the constructor and DC systems raise in reset.", "quantifier": "every system with a supply of three voltages", "why_tests_cant": "No test combines the supply with a system.", "anchors": ["/repo/src/gym_electric_motor/physical_systems/physical_systems.py: ThreePhaseMotorSystem._build_state_space", "/repo/src/gym_electric_motor/physical_systems/physical_systems.py: DcMotorSystem.reset", "/repo/src/gym_electric_motor/physical_systems/voltage_supplies.py: AC3PhaseSupply"]}
{"id": "C102", "title": "a dq action of length at most one is applied as dq voltage", "statement": "With control_space dq the voltages the motor sees are half the supply voltage times the action, in one interval.", "quantifier": "every history, every action in the unit disc, every angle", "why_tests_cant": "A test takes one angle.", "anchors": ["/repo/src/gym_electric_motor/physical_systems/physical_systems.py: SynchronousMotorSystem.simulate", "/repo/src/gym_electric_motor/physical_systems/physical_systems.py: ThreePhaseMotorSystem.dq_to_abc_space"]}
{"id": "C103", "title": "the observed supply voltage stays in the announced range (refuted)", "statement": "The announced lower bound of u_sup is 0 for three phase systems. With the single phase AC supply the observation is the sine wave over the nominal voltage, negative half of the time and above one at the crest.", "quantifier": "every step", "why_tests_cant": "Tests use DC supplies.", "anchors": ["/repo/src/gym_electric_motor/physical_systems/physical_systems.py: ThreePhaseMotorSystem._build_state_space"]}
{"id": "C104", "title": "generated waves are sampled waves (refuted for one sided intervals)", "statement": "The step generator emits only the two values offset+amplitude and offset-amplitude, both inside the interval; the sinusoidal generator on a symmetric interval emits the exact sampled sine a*sin(2 pi f k tau + phase)+o without any clipping. On an interval that is not symmetric to zero the offset is drawn from the wrong range (-hi+a instead of lo+a) and the wave is cut off.", "quantifier": "every random stream, every sub-episode length, every configured range", "why_tests_cant": "Tests look at one drawn wave.", "anchors": ["/repo/src/gym_electric_motor/reference_generators/sinusoidal_reference_generator.py", "/repo/src/gym_electric_motor/reference_generators/step_reference_generator.py"]}
{"id": "C105", "title": "random walks continue over sub-episode ends", "statement": "The values of any number of consecutive sub-episodes of a Wiener or Laplace reference are one single clipped random walk: the first value of a sub-episode continues from the last value of the one before.", "quantifier": "every random stream, every number of sub-episodes of every length", "why_tests_cant": "Tests look at one sub-episode.", "anchors": ["/repo/src/gym_electric_motor/reference_generators/wiener_process_reference_generator.py", "/repo/src/gym_electric_motor/reference_generators/laplace_process_reference_generator.py"]}
{"id": "C106", "title": "the references of an episode depend only on seed and episode number (refuted for the Wiener process)", "statement": "Two runs from the same seeded generator with the same number of resets yield the same next episode, whatever the lengths of the earlier episodes. The Wiener process without initial reference draws its initial value from the generator of the previous episode before spawning a new one, so it depends on how long the previous episode was.", "quantifier": "every pair of histories with equally many resets", "why_tests_cant": "Tests compare runs of equal length.", "anchors": ["/repo/src/gym_electric_motor/reference_generators/wiener_process_reference_generator.py: reset", "/repo/src/gym_electric_motor/reference_generators/subepisoded_reference_generator.py: reset", "/repo/src/gym_electric_motor/random_component.py"]}
{"id": "C107", "title": "wrong use of sub-episoded generators raises", "statement": "An observation before the first reset raises TypeError, a sub-episode length below one raises IndexError at the reset, and a plain number as amplitude or sigma range passes the constructor and the announcement and raises TypeError when the first sub-episode is drawn.", "quantifier": "every generator and configuration of that form, every random stream", "why_tests_cant": "Tests do not enumerate wrong configurations.", "anchors": ["/repo/src/gym_electric_motor/reference_generators/subepisoded_reference_generator.py"]}
{"id": "C108", "title": "converter resets (refuted for the switching state)", "statement": "The voltage a reset reports is the passive one: action 0 at zero current for finite converters, what the reset converter puts out at zero current for continuous ones. A reset restores a defined converter state: refuted, the switching state and pattern of finite half bridges survive, so the first interlocking delay of an episode depends on the previous episode.", "quantifier": "every converter, history, sampling and interlocking time", "why_tests_cant": "Tests compare single resets with zero.", "anchors": ["/repo/src/gym_electric_motor/physical_systems/converters.py: reset"]}
{"id": "C109", "title": "effective values of AC supplies", "statement": "u_nominal is the effective value: for the one phase supply u(t)^2+u(t+T/4)^2 = 2 u^2, for the three phase supply the squares of the line-to-line voltages sum to 3 u^2, at every time.", "quantifier": "every time, phase, frequency, nominal voltage", "why_tests_cant": "Tests sample times.", "anchors": ["/repo/src/gym_electric_motor/physical_systems/voltage_supplies.py: AC1PhaseSupply, AC3PhaseSupply"]}
{"id": "C110", "title": "normalised angles", "statement": "With normed_epsilon an angle is given in multiples of pi: e/pi normalised is e, and normalised angles that differ by two are the same.", "quantifier": "every vector, angle and number of turns", "why_tests_cant": "Tests sample angles.", "anchors": ["/repo/src/gym_electric_motor/physical_systems/physical_systems.py: abc_to_dq_space, dq_to_abc_space, alphabeta_to_dq_space, dq_to_alphabeta_space"]}
{"id": "C111", "title": "cleared current limits of DC motors are standstill currents", "statement": "If the user clears the current limits, every DC motor fills in the stationary current at standstill under the voltage limit: the electrical differential equation is at rest there.", "quantifier": "every voltage limit and motor parameter", "why_tests_cant": "Tests use default parameters.", "anchors": ["/repo/src/gym_electric_motor/physical_systems/electric_motors/dc_*.py: _update_limits"]}
{"id": "C112", "title": "forgetting of a wrong start of the flux observer (refuted convergence)", "statement": "Two flux estimates fed with the same currents and speeds approach each other: the squared distance is multiplied per step by (1-tau*r_r/l_r)^2+(tau*w)^2, which is below one iff tau((r_r/l_r)^2+w^2) < 2 r_r/l_r. Refuted for the default squirrel cage motor at nominal speed with the default period: errors grow without bound.", "quantifier": "every input sequence, parameters, period, speed", "why_tests_cant": "A test runs one drive cycle for finitely many steps; stability is a claim about every error and every number of steps.", "anchors": ["/repo/src/gym_electric_motor/physical_system_wrappers/flux_observer.py FluxObserver.simulate", "/repo/src/gym_electric_motor/physical_systems/electric_motors/squirrel_cage_induction_motor.py _default_motor_parameter"]}
{"id": "C113", "title": "direct current operating points give the demanded torque", "statement": "For the series, shunt, permanently and externally excited DC motors the selected current gives the demanded torque up to the documented limitation: the torque of the motor model at the selected current equals the reference clipped to what the limits allow.  Refuted in one corner: the permanently excited stage does not look at the speed.", "quantifier": "every torque reference, every state, every parameter set", "why_tests_cant": "A test samples a few references; the claim is an identity between two modules for every real reference.", "anchors": ["/repo/src/gem_controllers/stages/operation_point_selection/permex_dc_ops.py", "/repo/src/gem_controllers/stages/operation_point_selection/series_dc_ops.py", "/repo/src/gem_controllers/stages/operation_point_selection/shunt_dc_ops.py", "/repo/src/gem_controllers/stages/operation_point_selection/extex_dc_ttc.py"]}
{"id": "C114", "title": "the modulation controller keeps the flux limit in its band and cannot wind up", "statement": "The maximum flux of the field weakening stage differs from the flux the speed allows by at most the tuned bounds; before the first reset the stage raises; the integrator stays in an explicit bound whatever voltages it sees.", "quantifier": "every state sequence of every length, every tuning", "why_tests_cant": "An integrator bound is a statement about infinitely many steps.", "anchors": ["/repo/src/gem_controllers/stages/operation_point_selection/foc_operation_point_selection.py: modulation_control, reset, tune"]}
{"id": "C115", "title": "the analytical operating point has the demanded torque and flux (flux refuted)", "statement": "The root of the quartic together with its q current gives the demanded torque, and its flux is the demanded flux.  The flux half is refuted: the quartic of the synchronous motor mixes l_d and l_q, that of the externally excited one misses a factor four, and the residual is given exactly.", "quantifier": "every torque, flux, excitation and parameter set, every root of the polynomial", "why_tests_cant": "A test compares a few numbers with a tolerance; the residual is a polynomial identity.", "anchors": ["/repo/src/gem_controllers/stages/operation_point_selection/pmsm_ops.py: solve_analytical", "/repo/src/gem_controllers/stages/operation_point_selection/eesm_ops.py: solve_analytical, poly"]}
{"id": "C116", "title": "operating points of synchronous motors: tables, look-up and torque (refuted for reluctance motors)", "statement": "tune succeeds in every complete environment; after reset no sequence of calls with references inside the table raises; the look-ups find the nearest row; the torque of the selected point is the demanded one up to half a grid step or what the flux allows.  Holds for motors with a magnet and l_d <= l_q.  Refuted for the reluctance motor with l_d > l_q (torque reversed, flux look-up in a shorter table), for l_d > l_q with a magnet (all rows reversed), and for references above the table (IndexError).", "quantifier": "every parameter set, state history, torque reference, root finder", "why_tests_cant": "The tables have hundreds of rows for every parameter set, and the history is unbounded.", "anchors": ["/repo/src/gem_controllers/stages/operation_point_selection/pmsm_ops.py: tune, _get_mtpc_lookup_table, _get_mtpf_lookup_table, _select_operating_point"]}
{"id": "C117", "title": "tuned DC current loops converge, with a sharp bound on the sampling time", "statement": "A PI current controller tuned by gem_controllers and closed over the Euler-integrated series, shunt or permanently excited DC motor drives the current to every constant reference as long as the voltage stays in range, if a > 1 and tau*R/L < 2 - 1/a + 1/(2a^3); the speed may vary arbitrarily for series and shunt motors and must be constant for the permanently excited one.  Beyond the bound the voltage leaves the range or the current passes any given bound, from all initial values but one.  In-range loops exist.", "quantifier": "every environment, tuning parameter, motor parameters, initial current, reference and speed course; infinite horizon", "why_tests_cant": "Convergence is a statement about infinite runs, and the stability boundary is a curve in the parameters.", "anchors": ["/repo/src/gem_controllers/stages/base_controllers/pi_controller.py:PIController", "/repo/src/gem_controllers/pi_current_controller.py:PICurrentController", "/repo/src/gym_electric_motor/physical_systems/solvers.py:EulerSolver", "/repo/src/gym_electric_motor/physical_systems/electric_motors/dc_series_motor.py"]}
{"id": "C118", "title": "the tuned speed loop converges for a > 1, and only then without friction", "statement": "PI speed controller with the gains set by tune (symmetric optimum with parameter a), ideal torque loop, affine static load: for a > 1 the speed tends to the reference while the demanded torque stays inside its range, and such loops exist. Without friction it converges for a > 1, and for a <= 1 only if it starts at the steady state; for a = 1 the error has period six.", "quantifier": "every moment of inertia, sampling time, load parameters, tuning parameter a, reference, initial speed", "why_tests_cant": "Convergence is a statement about infinitely many steps and all parameters.", "anchors": ["/repo/src/gem_controllers/stages/base_controllers/pi_controller.py: _tune_speed_controller", "/repo/src/gem_controllers/pi_speed_controller.py", "/repo/src/gym_electric_motor/physical_systems/mechanical_loads/polynomial_static_load.py"]}
{"id": "C119", "title": "output law of the PID controller over any history (reset refuted)", "statement": "The output of the PID controller is gain times error plus integrated error plus derivative gain times the difference to the previous error over tau, over any history of calls and integrations. Expected: reset makes the controller forget its history. Refuted: reset keeps the last error, so the first derivative action of an episode uses the last error of the previous one.", "quantifier": "every gain, state history and reference", "why_tests_cant": "History dependence over unboundedly many calls.", "anchors": ["/repo/src/gem_controllers/stages/base_controllers/pid_controller.py: control, reset"]}
{"id": "C120", "title": "a tuned current controller never raises", "statement": "For every motor and base controller kind whose tuning succeeds, after reset every sequence of control calls returns a value with the right number of entries (no exception); before reset a PI based controller raises.", "quantifier": "every motor id, base controller, environment, history of states and references of the right size", "why_tests_cant": "All combinations of motor, controller and unbounded histories.", "anchors": ["/repo/src/gem_controllers/pi_current_controller.py: control", "/repo/src/gem_controllers/stages"]}
{"id": "C121", "title": "voltages demanded by a controller reach the motor (refuted)", "statement": "The output stage divides every demanded voltage by the limit of the state with the same name, and behind the converter the motor sees us/(gain*limit) times the demanded voltage for any converter history. Expected: the voltage demanded in rotor coordinates is applied unchanged, turned by the angle of the mid of the period. Refuted: the advance angle uses 1e-4 s and the mechanical speed instead of the sampling time and the electrical speed, so it is right exactly if cos(w/2*(1e-4 - p*tau)) = 1; and the voltage is scaled by supply voltage over motor limit (7/5 for the default PMSM at 420 V).", "quantifier": "every environment, motor, state, demanded voltage, converter history, pole pair number and sampling time", "why_tests_cant": "Holds for all voltages, angles and converter histories; the advance angle error is invisible unless exact angles are compared.", "anchors": ["/repo/src/gem_controllers/stages/abc_transformation.py: __call__, tune", "/repo/src/gem_controllers/stages/cont_output_stage.py", "/repo/src/gym_electric_motor/physical_systems/converters.py"]}
{"id": "C122", "title": "reset of a cascaded controller forgets the history", "statement": "Current, torque and speed controllers without PID stage: after reset, the results of an episode (values and exceptions) are the same whatever was controlled before, including calls that raised. The modulation controller of the flux oriented stages keeps a flag at its reset, but no result depends on it.", "quantifier": "every controller, operation point selection that restores its own state, history of control and reset calls, following episode", "why_tests_cant": "All histories, also those with exceptions in the middle of a call.", "anchors": ["/repo/src/gem_controllers/pi_speed_controller.py: reset, control", "/repo/src/gem_controllers/torque_controller.py: reset, control", "/repo/src/gem_controllers/pi_current_controller.py: reset", "/repo/src/gem_controllers/stages/operation_point_selection/foc_operation_point_selection.py: reset"]}
{"id": "C123", "title": "demands inside a cascade lie within the limits", "statement": "The torque a tuned speed controller demands lies in the announced torque range. The currents a tuned torque controller demands lie in the announced range reduced by the safety margin (DC motors: each current; EESM: stator currents inside the ellipse of the reduced limits and excitation current in its range), alone or inside a speed controller, over any history.", "quantifier": "every environment with proper limits, motor id, margin, operation point selection, history, state, reference", "why_tests_cant": "Ranges over all histories and all outputs of the operation point selection.", "anchors": ["/repo/src/gem_controllers/torque_controller.py: control", "/repo/src/gem_controllers/pi_speed_controller.py: speed_control", "/repo/src/gem_controllers/stages/clipping_stages"]}
{"id": "C124", "title": "every registered environment consists of the modules its id announces", "statement": "The registered ids are exactly the combinations of action type (Cont, Finite), task (CC, TC, SC) and motor (nine), without repetition. For every id the motor class, the physical system, the converter (one bridge per winding, discrete or continuous as named), the sampling time, the load (constant speed for CC and TC, polynomial for SC), the reference states and the reward keys (equal weights that sum to one) are those announced; reference, constraint, wrapper and plot names are states of the motor; a current control environment constrains every controlled current.", "quantifier": "all 54 registered environments, all combinations of action type, task and motor", "why_tests_cant": "The integration tests of the repository instantiate only some ids and check that the environment runs, not that the 54 hand-copied classes agree with their names.", "anchors": ["src/gym_electric_motor/__init__.py", "src/gym_electric_motor/envs"]}
{"id": "C125", "title": "the supply voltage of a shipped environment stays within the voltage limit of its motor (refuted)", "statement": "Expected: the nominal supply voltage of every shipped environment is at most the default voltage limit of its motor, so that normalised voltages stay in the announced space. It exceeds the limit in exactly eighteen environments: all SynRM, PMSM and EESM environments except continuous current control of PMSM and EESM, and the discrete torque and current control environments of the series motor (seven times the limit).", "quantifier": "all 54 registered environments", "why_tests_cant": "No test compares the supply with the motor limits; the observation space is not checked at run time.", "anchors": ["src/gym_electric_motor/envs", "electric_motors/*._default_limits"]}
{"id": "C126", "title": "the discrete and the continuous variant of a task use the same references (refuted for the margins)", "statement": "For every task and motor the two variants have the same reference states and reward keys. Expected: also the same reference range. It is violated: Cont-CC-EESM restricts the excitation current reference to [0, 1], Finite-CC-EESM does not.", "quantifier": "all pairs of variants", "why_tests_cant": "The classes are tested one by one.", "anchors": ["src/gym_electric_motor/envs/gym_eesm", "src/gym_electric_motor/envs/gym_dcm"]}
{"id": "C127", "title": "no history of calls breaks a registered environment", "statement": "For each of the 54 registered environments (and every other configuration whose parts fit together): the constructor succeeds, every reset and every close returns, every step with an action of the action space returns until a step reports termination, a step raises AssertionError exactly before the first reset and after a reported termination, truncated is always False, and observations and reference observations always have the announced lengths. No other exception can occur in any module.", "quantifier": "all registered environments, motor and load parameters, limits, initial states, random draws and seeds, state filters of known names, numbers of callbacks, and all finite sequences of reset, step and close", "why_tests_cant": "The composition of physical system, wrapper, generator, constraints and reward is only run for some environments and short episodes; the number of histories is unbounded.", "anchors": ["src/gym_electric_motor/core.py ElectricMotorEnvironment", "src/gym_electric_motor/envs", "src/gym_electric_motor/physical_systems/physical_systems.py", "src/gym_electric_motor/reference_generators"]}
{"id": "C128", "title": "a state plot shows exactly the last steps", "statement": "After initialize and render the state plot of width w shows exactly the last w steps of the environment: the n-th step at time n*tau with the physical state and, if referenced, the physical reference; unused positions hold the initial grid and nan; nothing else is drawn, whatever calls came before.", "quantifier": "all widths, states, limits, sampling times and all sequences of environment events, initialize, render and reset_data calls", "why_tests_cant": "The ring buffer wraps at arbitrary positions and shares arrays between attributes; tests check single writes with mocks.", "anchors": ["src/gym_electric_motor/visualization/motor_dashboard_plots/state_plot.py StatePlot", "src/gym_electric_motor/visualization/motor_dashboard_plots/base_plots.py TimePlot"]}
{"id": "C129", "title": "reward and action plots show exactly the last steps, one step earlier (refuted)", "statement": "Reward and action plots show exactly the last w steps. Expected: the same step is shown at the same time in all plots. It is violated: they show the n-th step at (n-1)*tau, the state plot shows it at n*tau.", "quantifier": "all widths, sampling times, action kinds and all sequences of calls without reset_data", "why_tests_cant": "The plots are tested one by one with mocks.", "anchors": ["src/gym_electric_motor/visualization/motor_dashboard_plots/reward_plot.py", "src/gym_electric_motor/visualization/motor_dashboard_plots/action_plot.py"]}
{"id": "C130", "title": "every interruption is marked once", "statement": "Each reset after a step or reset of a running session gives exactly one vertical line at the time of the interruption, in the colour of its cause (violation or not), in order, however renders are interleaved.", "quantifier": "all sequences of events and renders after initialize", "why_tests_cant": "Depends on the unbounded interleaving of events and renders.", "anchors": ["src/gym_electric_motor/visualization/motor_dashboard_plots/base_plots.py TimePlot.on_reset_begin", "src/gym_electric_motor/visualization/motor_dashboard_plots/base_plots.py TimePlot.render"]}
{"id": "C131", "title": "the dashboard never raises and updates when due", "statement": "A dashboard with interval and width of at least one, any number of state, action and reward plots, episode length plots and violation plots never raises, in no order of environment events, renders and (without violation plots) resets of the figures. A render updates the plots iff the step number passed a multiple of the interval since the last render.", "quantifier": "all such dashboards and all finite sequences of events and calls", "why_tests_cant": "Unbounded sequences of events over shared arrays.", "anchors": ["src/gym_electric_motor/visualization/motor_dashboard.py MotorDashboard"]}
{"id": "C132", "title": "accepted dashboard arguments work (refuted)", "statement": "Expected: interval and width that the constructor accepts can be used. It is violated: it asserts positivity before truncating to int, so an interval between 0 and 1 raises at the first step (ZeroDivisionError) and a width between 0 and 1 raises IndexError when the environment is set.", "quantifier": "all intervals and widths in (0, 1)", "why_tests_cant": "Tests use integers.", "anchors": ["src/gym_electric_motor/visualization/motor_dashboard.py MotorDashboard.__init__"]}
{"id": "C133", "title": "episode plots show every finished episode (refuted for late first renders and two resets)", "statement": "The episode length plot shows the length of every finished episode; the mean reward plot shows the mean reward of every finished episode if it was initialised before. Expected: always. It is violated: episodes finished before the first render keep their number but lose their mean, so from the second later episode on the line cannot be drawn (ValueError), and two resets in a row raise ZeroDivisionError.", "quantifier": "all sequences of events, initialisations and renders", "why_tests_cant": "Needs several episodes before and after the first render.", "anchors": ["src/gym_electric_motor/visualization/motor_dashboard_plots/mean_episode_reward_plot.py", "src/gym_electric_motor/visualization/motor_dashboard_plots/episode_length_plot.py", "src/gym_electric_motor/visualization/motor_dashboard_plots/base_plots.py EpisodePlot"]}
{"id": "C134", "title": "the violation plot counts violations (refuted after reset_figures)", "statement": "The cumulative constraint violation plot is the staircase that rises by one at each violating step. Expected: it keeps working after reset_figures. It is violated: the next render raises ValueError.", "quantifier": "all sequences of events, initialisations and renders; all dashboards with such a plot", "why_tests_cant": "reset_figures is tested with mocked plots.", "anchors": ["src/gym_electric_motor/visualization/motor_dashboard_plots/cumulative_constraint_violation_plot.py", "src/gym_electric_motor/visualization/motor_dashboard.py MotorDashboard.reset_figures"]}
{"id": "C135", "title": "reward and action plots survive reset_figures and scaling (refuted)", "statement": "Expected: after reset_figures plots go on, and scale_plots works for all time plots. It is violated: the reward plot keeps drawing an empty array that is no longer written, and with scale_plots rendering a reward or action plot that has a value raises IndexError.", "quantifier": "all widths, sampling times and sequences of events", "why_tests_cant": "Tests mock the axis and never render after reset_data.", "anchors": ["src/gym_electric_motor/visualization/motor_dashboard_plots/reward_plot.py", "src/gym_electric_motor/visualization/motor_dashboard_plots/base_plots.py TimePlot._scale_y_axis"]}
{"id": "C136", "title": "the console printer reports episodes (refuted when rendering from steps)", "statement": "When the user renders right after every reset, the verbose console printer reports each episode with its number of steps, cumulative reward and end, after one report of an episode that never was. Expected: also when rendering after each step. It is violated: the report then has the length, the end of the new episode and the sum of both rewards.", "quantifier": "all lists of non-empty episodes, all rewards", "why_tests_cant": "Tests compare single messages.", "anchors": ["src/gym_electric_motor/visualization/console_printer.py ConsolePrinter"]}
{"id": "C137", "title": "the reference plotter adds references at the right time (refuted for other visualizations)", "statement": "The plotter selects exactly the state plots of the referenced states and writes the controller's reference beside the state of the same step. Expected: it works with any visualization of the environment. It is violated: tuning raises AttributeError if one of them is a console printer.", "quantifier": "all dashboards, histories and reference values; all lists of visualizations", "why_tests_cant": "The plotter has no tests.", "anchors": ["src/gem_controllers/reference_plotter.py ReferencePlotter"]}
{"id": "C138", "title": "tuned current loops of synchronous motors converge at standstill and, with equal inductances, at constant speed", "statement": "A PI current controller with decoupling, tuned by gem_controllers and closed over the Euler-integrated PMSM or SynRM in dq coordinates, drives both currents to every pair of constant references as long as the voltage vector stays inside the limits: at standstill for all inductances under the condition of C117 on each axis, and at every constant speed for a PMSM with equal inductances under the Schur-Cohn condition of a complex second order recurrence, which contains the angle by which the output transformation turns the demanded voltage.  Loops that stay inside the limits exist.", "quantifier": "every environment, tuning parameter, motor parameters, speed, course of the angle, initial currents and references; infinite horizon", "why_tests_cant": "Convergence is a statement about infinite runs; the advance of the angle couples the axes, so that stability depends on speed, pole pairs and resistance together.", "anchors": ["src/gem_controllers/pi_current_controller.py PICurrentController", "src/gem_controllers/stages/abc_transformation.py", "src/gem_controllers/stages/emf_feedforward.py", "src/gym_electric_motor/physical_systems/electric_motors/permanent_magnet_synchronous_motor.py", "src/gym_electric_motor/physical_systems/physical_systems.py SynchronousMotorSystem.simulate"]}
{"id": "C139", "title": "solvers can be exchanged", "statement": "A physical system with EulerSolver behind the solver interface returns and raises exactly what the system model with a built-in Euler solver does; and if scipy's three entries solve the system equation, systems with ScipyOdeSolver, ScipySolveIvpSolver and ScipyOdeIntSolver return and raise the same for every sequence of calls that starts with a successful reset, whatever the options, jacobians and earlier use of the solver objects.", "quantifier": "all converters, supplies, system equations, sampling times, histories of resets and steps, solver options and earlier uses; every scipy that solves the equation", "why_tests_cant": "Tests run one solver with one configuration against a mock and never compare whole systems.", "anchors": ["src/gym_electric_motor/physical_systems/solvers.py", "src/gym_electric_motor/physical_systems/physical_systems.py SCMLSystem.simulate"]}
{"id": "C140", "title": "the clock of a system with any solver (refuted for integrators that stop early)", "statement": "With a solver that ends where it is asked to, the time of the system is the number of steps since the last reset times tau; EulerSolver and the wrappers of solve_ivp and odeint are such solvers whatever scipy does. Expected also for ScipyOdeSolver, the default. It is violated: an integrator that gives up early is not noticed, the step succeeds and the clock falls behind; odeint's failure is not noticed either, its last row becomes the state.", "quantifier": "all systems, histories and solvers; concrete witnesses for the violation", "why_tests_cant": "An integrator that gives up is a rare event at run time.", "anchors": ["src/gym_electric_motor/physical_systems/solvers.py ScipyOdeSolver.integrate", "src/gym_electric_motor/physical_systems/physical_systems.py SCMLSystem.simulate"]}
{"id": "C141", "title": "a failing integration can be repeated (refuted for solve_ivp)", "statement": "If integrate raises, EulerSolver and ScipyOdeSolver keep their time and state. Expected for all solvers. It is violated by ScipySolveIvpSolver: when solve_ivp stops before the end, the time is moved before the result is read, so AttributeError is raised with time and state apart, and the repeated step integrates over an empty interval.", "quantifier": "all solver states, end times and behaviours of scipy", "why_tests_cant": "Needs a failing external integrator and a caller that goes on.", "anchors": ["src/gym_electric_motor/physical_systems/solvers.py ScipySolveIvpSolver.integrate"]}
{"id": "C142", "title": "equation, jacobian and inputs of the wrappers belong together (refuted for changing the equation of a running solver)", "statement": "After every sequence of calls ScipyOdeSolver integrates the equation set last with the jacobian set with it and both get the same inputs; ScipySolveIvpSolver passes the jacobian of the current equation for the implicit methods and leaves the keyword arguments alone otherwise; before the equation is set every call of ScipyOdeSolver raises AttributeError. Expected: changing the equation has the same effect for all solvers. It is violated: ScipyOdeSolver forgets time and state, the others keep them.", "quantifier": "all sequences of calls of the interface, all options", "why_tests_cant": "Tests call the methods in one order.", "anchors": ["src/gym_electric_motor/physical_systems/solvers.py ScipyOdeSolver.set_system_equation", "src/gym_electric_motor/physical_systems/solvers.py ScipySolveIvpSolver.set_system_equation"]}
{"id": "C143", "title": "cutting an interval is invisible (refuted for EulerSolver)", "statement": "If scipy solves the equation exactly, integrating through any list of intermediate times with the same input ends in the state of one integration, for all three wrappers. Expected for EulerSolver. It is violated: for y' = -y every cut changes the result.", "quantifier": "all equations with a flow, all lists of intermediate times, all solver states", "why_tests_cant": "Ranges over all partitions and flows.", "anchors": ["src/gym_electric_motor/physical_systems/solvers.py", "src/gym_electric_motor/physical_systems/physical_systems.py SCMLSystem.simulate"]}
{"id": "C144", "title": "the shared result array of the system equation is invisible to clients that read only the newest result (refuted for clients that keep results)", "statement": "The system equation returns the same array in every call. Any program that evaluates it and reads only the newest result behaves as with arrays of its own; EulerSolver is such a program and equals its value model. Expected: any solver may keep a result. It is violated: a kept result changes with the next evaluation; a Runge-Kutta method that keeps the derivative at the initial point while it probes for a first step size (as scipy's solve_ivp does) uses the derivative at the trial point as its first stage and estimates zero curvature.", "quantifier": "all client programs, loads and motors with total equations; the violation for every system and trial step", "why_tests_cant": "Tests of the system equation evaluate it once; the solver tests use a plain function that allocates.", "anchors": ["src/gym_electric_motor/physical_systems/physical_systems.py SCMLSystem._system_equation", "src/gym_electric_motor/physical_systems/solvers.py ScipySolveIvpSolver.integrate"]}
{"id": "C145", "title": "the two-point controller of the examples has a hysteresis (refuted)", "statement": "Expected: between the two switching levels the on-off controller keeps its last output. It is violated: both comparisons use the same level, so the output depends only on the present error (and on the past only if the error equals the level exactly); for two histories with the same last error the outputs agree.", "quantifier": "all controllers, histories and errors", "why_tests_cant": "Ranges over all histories; the examples have no tests.", "anchors": ["examples/classic_controllers/controllers/on_off_controller.py OnOffController"]}
{"id": "C146", "title": "the three-point controller has a hysteresis", "statement": "After a reset and any sequence of control calls the three-point controller outputs its positive value exactly if some error was above the positive level and all errors since then were above the neutral-from-positive level, symmetrically for the negative value, and otherwise the neutral value.", "quantifier": "all controllers with non-negative levels, all sequences of states and references", "why_tests_cant": "A statement about all histories of calls.", "anchors": ["examples/classic_controllers/controllers/three_point_controller.py ThreePointController"]}
{"id": "C147", "title": "continuous action controllers respect the action limits and do not wind up", "statement": "Every action in every history lies within the scaled action limits; the integrator of a PI controller stays bounded by a bound that depends only on the limits, the largest error and the largest feedforward, whatever the length of the history.", "quantifier": "all environments, controllers and histories of control and reset calls", "why_tests_cant": "Ranges over histories of any length.", "anchors": ["examples/classic_controllers/controllers/continuous_action_controller.py ContinuousActionController", "examples/classic_controllers/controllers/pi_controller.py PIController"]}
{"id": "C148", "title": "a dead time processor delays the actions of a continuous action controller (refuted)", "statement": "Expected: behind a dead time processor of n steps the action computed in step k is used in step k+n. It is violated: the controller writes all actions into one array and returns it, the processor keeps references to it; after the first n steps every step uses the action computed in the same step, so there is no dead time at all.", "quantifier": "all controllers, dead times n > 0, histories", "why_tests_cant": "The effect appears only in the combination of controller and wrapper over more than n steps.", "anchors": ["examples/classic_controllers/controllers/continuous_action_controller.py ContinuousActionController.control", "src/gym_electric_motor/physical_system_wrappers/dead_time_processor.py DeadTimeProcessor.simulate"]}
{"id": "C149", "title": "the induced voltage is compensated exactly (refuted for unequal scaling and for the cascaded controller)", "statement": "The compensation of ContinuousActionController equals the induced voltage exactly if the speed is zero or the nominal values of speed and voltage are the same multiples of their limits; then the compensated armature is a resistance with an inductance. Expected: always, also in CascadedController. The latter looks the flux up under the key 'psie_e': a permanently excited motor is compensated with a flux of 1e-6 Vs.", "quantifier": "all environments, motors and states", "why_tests_cant": "Ranges over all parameters; the wrong key raises no error.", "anchors": ["examples/classic_controllers/controllers/continuous_action_controller.py ContinuousActionController.feedforward", "examples/classic_controllers/controllers/cascaded_controller.py CascadedController.feedforward"]}
{"id": "C150", "title": "the automatically tuned current loop of a permanently excited DC motor converges", "statement": "With the gains that automated_gain computes for a PI current controller, the current of a permanently excited DC motor (electrical equation, one Euler step per control cycle) converges to its reference whatever the speed does, as long as the action is not saturated and the stability condition 2 tau R / L + 2/a + 1/a^3 < 4 holds.", "quantifier": "all motors, sampling times, design parameters a, initial values, references and speed profiles", "why_tests_cant": "Convergence over infinite time for all parameters.", "anchors": ["examples/classic_controllers/classic_controllers.py automated_gain", "examples/classic_controllers/controllers/continuous_action_controller.py ContinuousActionController"]}
{"id": "C151", "title": "a cascade regulates its controlled quantity (refuted)", "statement": "Expected: the outer stage of CascadedController compares the reference with the measured controlled quantity. It is violated: it compares it with the armature current; two states with the same armature current give the same current demand whatever the speed is. Only its integrator adds the true control error, and only while the output is not clipped. With an externally excited motor both entries of the action are clipped with the limits of the excitation voltage, so a one-quadrant excitation converter forbids negative armature voltages.", "quantifier": "all environments, controllers, histories and states", "why_tests_cant": "Ranges over all histories and pairs of states.", "anchors": ["examples/classic_controllers/controllers/cascaded_controller.py CascadedController.control"]}
{"id": "C152", "title": "field oriented control uses the whole voltage range and does not wind up", "statement": "The action of the field oriented controllers is always within the limits; if it is not clipped it has exactly the wanted dq voltages; it is clipped only if no admissible action has these dq voltages. The two PI controllers integrate exactly if the wanted voltages are applied.", "quantifier": "all voltages, angles, symmetric limits, states and references", "why_tests_cant": "An optimality statement over all admissible actions.", "anchors": ["examples/classic_controllers/controllers/foc_controller.py FieldOrientedController.control", "examples/classic_controllers/controllers/cascaded_foc_controller.py CascadedFieldOrientedController.control"]}
{"id": "C153", "title": "decoupling of the currents of a synchronous motor is exact (refuted for the cascaded controller)", "statement": "With the decoupling voltages of FieldOrientedController each current of a PMSM follows its own controller voltage like a resistance with an inductance. Expected: the same of CascadedFieldOrientedController. It is violated: the direct current is denormalised with the voltage limit, so the decoupling is exact only at standstill, without direct current or if both limits are the same number.", "quantifier": "all motors, limits and states", "why_tests_cant": "Ranges over all parameters and operating points.", "anchors": ["examples/classic_controllers/controllers/foc_controller.py FieldOrientedController.control", "examples/classic_controllers/controllers/cascaded_foc_controller.py CascadedFieldOrientedController.control", "src/gym_electric_motor/physical_systems/electric_motors/permanent_magnet_synchronous_motor.py"]}
{"id": "C154", "title": "decoupling of the currents of an induction motor is exact (refuted for more than one pole pair)", "statement": "Expected: with the decoupling voltages of InductionMotorFieldOrientedController the current components in the flux oriented frame of a squirrel cage induction motor are decoupled. It is violated: the mechanical speed is used as electrical speed; the remaining coupling is (p-1) omega sigma L_s i_sq on the d axis and -(p-1) omega (sigma L_s i_sd + L_m/L_r psi) on the q axis, zero only for p = 1 or at standstill. The flux observer of the examples equals one step of the library's FluxObserver.", "quantifier": "all motors, angles, currents, fluxes of at least 1e-4 Vs, speeds", "why_tests_cant": "Ranges over all operating points; needs the motor equation in the flux frame.", "anchors": ["examples/classic_controllers/controllers/induction_motor_foc.py InductionMotorFieldOrientedController.control", "examples/classic_controllers/controllers/flux_observer.py FluxObserver.estimate", "src/gym_electric_motor/physical_systems/electric_motors/induction_motor.py"]}
{"id": "C155", "title": "discrete controllers return valid actions (refuted for three-point FOC and for externally excited motors)", "statement": "The actions of a DiscreteActionController are members of the action space in every history; so are those of discrete field oriented control with on-off controllers. Expected: also with three-point controllers and for externally excited motors. It is violated: with three-point controllers the returned number can be 13 for eight actions, even for currents that sum to zero; for externally excited motors DiscreteActionController can never be constructed.", "quantifier": "all environments with at least two actions, stages, histories", "why_tests_cant": "Ranges over all histories.", "anchors": ["examples/classic_controllers/controllers/dicrete_action_controller.py DiscreteActionController", "examples/classic_controllers/controllers/foc_controller.py FieldOrientedController.control"]}
{"id": "C156", "title": "environment descriptions and registered environments correspond one to one", "statement": "For every Motor(motor_type, control_type, action_type) the id built by env_id() is registered, the environment registered under it has that machine, task and action type, different descriptions have different ids, and every registered environment has a description.", "quantifier": "all descriptions, all registered environments", "why_tests_cant": "A test samples descriptions; the theorem covers all of them in both directions.", "anchors": ["src/gym_electric_motor/envs/motors.py Motor.env_id", "src/gym_electric_motor/envs/motors.py to_env_id", "src/gym_electric_motor/__init__.py register"]}
{"id": "C157", "title": "the states a description lists are states of its environment (positions refuted)", "statement": "Motor.states() lists, without repetition, exactly the states of the default environment except u_sup, epsilon (PMSM, SynRM and EESM) and i_sum (ShuntDc). Expected: the position of a name in the list is its position in the observation. It is violated for PMSM, SynRM, EESM and DFIM.", "quantifier": "all descriptions", "why_tests_cant": "Compares two lists that are written in different files for all motors.", "anchors": ["src/gym_electric_motor/envs/motors.py Motor.states"]}
{"id": "C158", "title": "state lists of descriptions are private (refuted)", "statement": "Expected: changing the list returned by states() of one description does not change that of another. It is violated: the list object belongs to the motor type, and every change through one description is seen by all other descriptions of the same motor type, and by no others.", "quantifier": "all descriptions, all sequences of list operations", "why_tests_cant": "Ranges over all sequences of mutations.", "anchors": ["src/gym_electric_motor/envs/motors.py MotorType", "src/gym_electric_motor/envs/motors.py Motor.states"]}
{"id": "C159", "title": "the automatic design gives usable controllers for DC motors (refuted for some current control environments)", "statement": "Expected: Controller.make(env) gives a controller for every DC environment. For each of the 24 DC environments, with any limits, nominal values, motor parameters, sampling time and kind of environment object (instance of the class, gymnasium wrapper that forwards attributes, wrapper that does not), the outcome is determined: for speed and torque control a controller is made that never raises in any history of control and reset calls and whose actions are always in the action space; for current control it is so for permanently excited and series motors if attributes are readable, but the shunt motor raises AssertionError, the finite externally excited motor raises TypeError, the wrapped continuous externally excited motor and every opaque wrapper raise AttributeError.", "quantifier": "all DC environments, all limits and parameters, all kinds of environment objects, all design parameters, all histories", "why_tests_cant": "Ranges over all parameters and all histories of states and references.", "anchors": ["examples/classic_controllers/classic_controllers.py make, automated_controller_design, automated_gain", "examples/classic_controllers/controllers"]}
{"id": "C160", "title": "every controller of the cascade for the externally excited motor gets its own gains (refuted for wrapped environments)", "statement": "Expected: current, speed and excitation controller get the gains computed for them. It holds only if the environment object is an instance of one of the six environment classes itself. For an object from gem.make the excitation controller gets the gains of the speed controller, and the speed controller keeps the default gains 5 and 5.", "quantifier": "all limits, parameters, design parameters, kinds of environment objects", "why_tests_cant": "The controller still runs; the values are wrong for all parameters.", "anchors": ["examples/classic_controllers/classic_controllers.py automated_gain"]}
{"id": "C161", "title": "stages given by the user are treated like those of the automatic design (refuted for the shunt motor)", "statement": "Passing the stages of the automatic design explicitly gives exactly the result of the automatic design, for all DC environments but those of the shunt motor. There the physical system is wrapped by a CurrentSumProcessor and every call of make with stages raises.", "quantifier": "all DC environments, all stages, all parameters", "why_tests_cant": "Ranges over all stages and parameters.", "anchors": ["examples/classic_controllers/classic_controllers.py find_controller_type, make"]}
{"id": "C162", "title": "automatic tuning keeps what the user gave", "statement": "The tuning keeps the structure of the stages, their types and every given parameter, and adds only p_gain, i_gain and d_gain. Refuted: in a cascade of more than two stages each stage gets gains of its own; all stages from the third on get the gains computed for the second.", "quantifier": "all stages, all numbers of stages, all parameters", "why_tests_cant": "Ranges over all dictionaries and all lengths of cascades.", "anchors": ["examples/classic_controllers/classic_controllers.py automated_gain"]}
{"id": "C163", "title": "energy is conserved in the whole drive (refuted for the doubly fed machine)", "statement": "Along every trajectory of the system equation with a polynomial static load, the power carried by the phase voltages and by the currents the system shows to the converter (motor.i_in, back transformed to phases) equals ohmic losses + friction power + growth of magnetic and kinetic energy. It is violated for the DFIM, whose rotor currents are shown in the wrong frame: a machine that feeds power back is seen as one that takes it.", "quantifier": "all motors, all parameters with non-zero inductances and inertia, every trajectory, all phase voltages", "why_tests_cant": "The claim couples four components along every continuous trajectory; a test only looks at values of single components.", "anchors": ["/repo/src/gym_electric_motor/physical_systems/physical_systems.py: _system_equation, simulate", "/repo/src/gym_electric_motor/physical_systems/electric_motors/: electrical_ode, torque, i_in", "/repo/src/gym_electric_motor/physical_systems/mechanical_loads/polynomial_static_load.py: mechanical_ode"]}
{"id": "C164", "title": "supply power goes into losses, friction and stored energy", "statement": "With an ideal (non-interlocked) converter the product of supply voltage and the converter's supply current i_sup equals losses + friction power + growth of the stored energy of the drive, after every history of converter calls; also for several continuous converters side by side (multi converter) and for finite converters in the switching state that made the voltage. The phase currents of PMSM, SynRM and SCIM sum to zero as the B6 bridge needs.", "quantifier": "every drive with an energy balance, every converter kind and history, every supply voltage, every trajectory", "why_tests_cant": "A test cannot follow all histories and trajectories.", "anchors": ["/repo/src/gym_electric_motor/physical_systems/converters.py: convert, i_sup", "/repo/src/gym_electric_motor/physical_systems/physical_systems.py: simulate"]}
{"id": "C165", "title": "A seeded episode is reproducible whatever the environment was used for before", "statement": "For every environment whose modules fit together (all registered ones) and every two histories of allowed calls (resets with any seed, valid steps, refused steps, close) before it: reset(seed) followed by the same calls gives the same outcomes - observations, reference observations, rewards, terminations and refusals - also across later resets. Converter, solver, supply, physical system, wrappers, reference generators and reward function keep nothing from before the seeded reset. The solver must forget with set_initial_value what it was used for; the four library solvers do, for any scipy whose results depend only on what it is handed.", "quantifier": "all fitting configurations and data, all numpy and scipy behaviours, all seeds, all pairs of earlier histories and all continuations of any length", "why_tests_cant": "a test compares a few seeded episodes after a few histories; leftovers from an unusual earlier history (an aborted episode, a refused step) would go unnoticed", "anchors": ["src/gym_electric_motor/core.py:ElectricMotorEnvironment.reset", "src/gym_electric_motor/random_component.py:RandomComponent.seed", "src/gym_electric_motor/reference_generators/subepisoded_reference_generator.py:SubepisodedReferenceGenerator.reset", "src/gym_electric_motor/physical_systems/physical_systems.py:SCMLSystem.reset", "src/gym_electric_motor/physical_systems/solvers.py:OdeSolver.set_initial_value"]}
{"id": "C166", "title": "The terminal voltages in each observation are those the action commands", "statement": "In every registered environment, for every history of resets and valid steps: each motor terminal voltage that a step reports (u; u_a/u_e; u_a,u_b,u_c; u_sa..u_rc) equals the voltage its own action commands - clipped duty cycle of a 4QC, half of it per phase of a B6 bridge, the switching table of the finite converters, parts of multi converters in order - times the supply voltage divided by the limit of that voltage. It depends neither on the currents nor on earlier actions nor on the solver.", "quantifier": "all registered environments, all motor/load parameters, all solvers that work, all state filters, all histories, all valid actions, all terminals", "why_tests_cant": "holds for every current, every history and every solver; tests look at single steps of single converters", "anchors": ["src/gym_electric_motor/physical_systems/converters.py:ContFourQuadrantConverter", "src/gym_electric_motor/physical_systems/converters.py:ContB6BridgeConverter", "src/gym_electric_motor/physical_systems/converters.py:FiniteB6BridgeConverter", "src/gym_electric_motor/physical_systems/converters.py:ContMultiConverter", "src/gym_electric_motor/physical_systems/physical_systems.py:simulate", "src/gym_electric_motor/core.py:ElectricMotorEnvironment.step"]}
{"id": "C167", "title": "Torque and flux references of the induction motor example controller are optimal within its limits (refuted: they can be nan)", "statement": "Over every history of calls and resets, InductionMotorTorqueToCurrentConversion demands a flux current of at most 90 % of the nominal current, a flux between zero and a fixed maximum (at most the flux of the current limit), and the torque current of largest amount in the direction of the demand that makes, with the estimated flux, at most the demanded torque and at most the table torque and stays with the flux current in the nominal circle. The table torque is the nominal voltage point at a flux at most 1.5 grid steps below the demand. Expected: the references are numbers. They are if nominal voltage and speed leave room for the flux of the current limit; otherwise the reference is nan exactly where there is no room, for example for the largest torque at standstill with the parameters of the package's motor at 157 rad/s.", "quantifier": "all motor parameters, limits, nominal values, gains, all histories of states, torques and flux estimates", "why_tests_cant": "1001 and 2000 table entries, rounding and saturation interact; optimality is over a continuum of currents", "anchors": ["examples/classic_controllers/controllers/induction_motor_torque_to_current_conversion.py:InductionMotorTorqueToCurrentConversion"]}
{"id": "C168", "title": "A reset of the induction motor example controller gives a new controller (refuted: the flux limitation is kept)", "statement": "Expected: reset() makes the controller behave as when it was built. Proved: all actions after a reset, over every further history, are those of a new controller except for the integrator of the modulation controller, although the stored references are not reset either; in current control it is exactly new. Refuted: one over-modulated call leaves this integrator at minus half the largest flux or less, and reset keeps it, so the flux demanded in the next episode is never higher and, where the voltage limits the flux, strictly lower than that of a new controller.", "quantifier": "all parameters, stages, reference modes, all histories before and after the reset", "why_tests_cant": "the difference depends on the history before the reset; a test resets a fresh controller", "anchors": ["examples/classic_controllers/controllers/induction_motor_cascaded_foc.py:reset", "examples/classic_controllers/controllers/induction_motor_torque_to_current_conversion.py:modulation_control", "examples/classic_controllers/controllers/induction_motor_torque_to_current_conversion.py:reset"]}
{"id": "C169", "title": "The speed loop of the cascaded field oriented example controllers limits the torque and does not wind up (refuted for two or more stages)", "statement": "After every history, with one overlaid stage: the torque reference is the stage's answer to the speed error, which is then integrated, if it lies within 85 % of the torque range and the stage is continuous; otherwise it is clipped to nominal torque over torque limit and nothing is integrated. So its amount never exceeds the larger of 0.85 and nominal over limit. Refuted: a configuration with two or more overlaid stages is accepted but every control call raises IndexError.", "quantifier": "all parameters, base controllers, histories; any number of stages", "why_tests_cant": "a statement about every history of integrator states and about every number of stages", "anchors": ["examples/classic_controllers/controllers/induction_motor_cascaded_foc.py:control", "examples/classic_controllers/controllers/cascaded_foc_controller.py:control"]}
{"id": "C170", "title": "Without torque or speed references the cascaded field oriented example controllers follow the current references (refuted)", "statement": "Expected: with references for i_sd and i_sq only, the cascaded controllers control these currents. Refuted: in both cascades the torque current is always controlled to zero; the induction motor version moreover takes the first reference for the flux current, whichever quantity it belongs to, and ignores all others.", "quantifier": "all configurations without torque and omega references, all histories, all states and references, any torque conversion", "why_tests_cant": "needs the whole set of references and all histories", "anchors": ["examples/classic_controllers/controllers/induction_motor_cascaded_foc.py:control", "examples/classic_controllers/controllers/cascaded_foc_controller.py:control"]}
{"id": "C171", "title": "The action of the induction motor example controller is admissible, does not wind up and uses the whole voltage (refuted: voltage is given away)", "statement": "Every action lies in the action space. Either the action makes exactly the demanded dq voltages (decoupling plus PI answers) and both current controllers integrate, or it does not make them and neither integrates. Refuted: at every flux angle there are voltages, up to 4/3 of the limit, which an admissible action makes but the controller's action does not, because the zero potential is not shifted as it is in the field oriented controller of synchronous motors.", "quantifier": "all states, references, controller states, flux estimates and angles, all voltage limits", "why_tests_cant": "a continuum of angles and voltages", "anchors": ["examples/classic_controllers/controllers/induction_motor_cascaded_foc.py:control"]}
{"id": "C172", "title": "In torque mode the induction motor example controller demands the best currents for the requested torque at the observed flux, and its flux controller integrates only while it is not limited", "statement": "The d current that the torque conversion demands is the answer of the flux controller clipped to 0.9 of the nominal current; its proportional gain is the gain of the q current controller times twice the square of the stator time constant, and its integrator changes exactly if the answer was not clipped. In a call of the whole controller in torque mode the internal references are the best torque current for the referenced torque at the flux of the observer, that d current, and the reference itself.", "quantifier": "all induction motor drives, all stages, all states, references and histories of calls", "why_tests_cant": "The claims relate real-valued inputs and integrators over arbitrary histories; tests only sample a few trajectories and tolerate small deviations.", "anchors": ["examples/classic_controllers/controllers/induction_motor_torque_to_current_conversion.py: control", "examples/classic_controllers/controllers/induction_motor_cascaded_foc.py: control"]}
{"id": "C173", "title": "Controller.make of the example controllers gives a usable controller for every three-phase environment (refuted: for at most 9 of 30, and for none with current numpy)", "statement": "For each of the 30 three-phase environments, Controller.make(env) without further arguments either raises a determined exception, or makes a controller that never returns an action of the action space in any history of calls, or makes a controller whose actions are always in the action space. The last happens only for torque and speed control of PMSM and SynRM with continuous actions, torque control of them with finite ones, and all tasks of the SCIM with continuous actions, and only if numpy still has np.complex. Refuted: that it works for every environment.", "quantifier": "all 30 three-phase environments, all limits, nominal values, motor parameters, kinds of environment objects, numpy versions, outcomes of the torque conversion, all histories of control and reset", "why_tests_cant": "The example suite makes controllers only for a few environments; admissibility of actions over all histories and all parameter sets cannot be enumerated", "anchors": ["examples/classic_controllers/classic_controllers.py: Controller.make, automated_controller_design, automated_gain", "examples/classic_controllers/controllers/foc_controller.py", "examples/classic_controllers/controllers/cascaded_foc_controller.py", "examples/classic_controllers/controllers/induction_motor_foc.py", "examples/classic_controllers/controllers/induction_motor_cascaded_foc.py", "examples/classic_controllers/controllers/flux_observer.py"]}
{"id": "C174", "title": "The automatic tuning for synchronous motors is the symmetric optimum", "statement": "With the delay 1.5 tau, both current controllers get the proportional gain L / (delay a) in normalised quantities and the resetting time delay a^2; the speed controller gets J / (resetting time a^2) and a times that resetting time.", "quantifier": "PMSM, SynRM and EESM with continuous actions, torque and speed control, all limits, inductances, inertias, sampling times and a > 0", "why_tests_cant": "An identity over all real parameters", "anchors": ["examples/classic_controllers/classic_controllers.py: automated_gain"]}
{"id": "C175", "title": "The automatic tuning for induction motors derives both current controllers from the motor parameters alone", "statement": "Both current controllers get the same gains: the resetting time is sigma l_s / (r_s + r_r l_m^2 / l_r^2) and the proportional gain is the rotor time constant divided by it; neither sampling time, limits nor a enter. The speed controller gets J / (resetting time a^2) in normalised quantities and a times that resetting time.", "quantifier": "SCIM and DFIM with continuous actions, all tasks, all limits, motor parameters, sampling times and a > 0", "why_tests_cant": "An identity over all real parameters", "anchors": ["examples/classic_controllers/classic_controllers.py: automated_gain"]}
{"id": "C176", "title": "Table of operating points of the externally excited motor; tune fails without np.complex (refuted), loss is not the copper loss (refuted)", "statement": "Every row of the table [t, psi, i_d, i_q, i_e] that EESMOperationPointSelection computes lies on the grid, gives exactly its torque with a stator current inside the circle of the allowed current, and has the least weighted sum of currents among all admitted grid points of its torque (and flux); every torque with an admitted point has a row; the largest torque and the largest torque per flux are those of the admitted points. The stage can be tuned with a numpy that has np.complex and raises AttributeError with every other. The quantity minimised is not the copper loss.", "quantifier": "all motor parameters, limits, safety margins and root finders, all grid points, every environment with the states and parameters the stage reads, every triangulation and spline", "why_tests_cant": "750000 root computations per motor; no motor but the default one is ever tuned, and no test checks any row of the table against the motor equation", "anchors": ["src/gem_controllers/stages/operation_point_selection/eesm_ops.py:EESMOperationPointSelection._calculate_luts", "src/gem_controllers/stages/operation_point_selection/eesm_ops.py:EESMOperationPointSelection.tune"]}
{"id": "C177", "title": "Current references of the externally excited motor stay within the limits; the torque is not limited by the allowed flux (refuted)", "statement": "Whatever the tuned selection returns is nan in all three components or a triple with the stator current inside the circle and the excitation current between zero and its limit; it answers for every state and reference while the spline of the optimal flux stays in its range and raises ValueError where it leaves it. The torque used to read the tables does not depend on the flux limit of the modulation controller.", "quantifier": "all tuned stages, states, references and histories of the modulation controller; every triangulation with convex weights and every spline", "why_tests_cant": "the property is about all references, all flux limits and all interpolants; tests run single references of one motor", "anchors": ["src/gem_controllers/stages/operation_point_selection/eesm_ops.py:EESMOperationPointSelection._select_operating_point"]}
{"id": "C178", "title": "Modulation controller of the externally excited motor loses its effect without a safety margin (refuted)", "statement": "The flux limit of the modulation controller deviates from the flux the speed allows by at most a fifth of margin * (1 - margin) * (l_m * i_e limit + l_d * i_q limit); with margin 0 it never deviates.", "quantifier": "all motor parameters, limits, margins, states and controller histories", "why_tests_cant": "the bound holds for all states and margins; tests use the default margin", "anchors": ["src/gem_controllers/stages/operation_point_selection/eesm_ops.py:EESMOperationPointSelection.tune", "src/gem_controllers/stages/operation_point_selection/foc_operation_point_selection.py:FieldOrientedControllerOperationPointSelection.modulation_control"]}
{"id": "C179", "title": "The cascade of synchronous motors controls the currents that its torque conversion demands", "statement": "With a torque reference the example cascade hands reference times torque limit to the torque conversion, stores the answered pair as q and d references and controls exactly these currents; the conversion's state is carried on.", "quantifier": "every conversion, controller pair, state, reference and stored reference list", "why_tests_cant": "there are no tests of the example controllers; the claim ranges over all conversions and controllers", "anchors": ["examples/classic_controllers/controllers/cascaded_foc_controller.py:CascadedFieldOrientedController.control"]}
{"id": "C180", "title": "Every documented way to build the current tables of the permanent magnet motor works (refuted)", "statement": "PMSMOperationPointSelection can be tuned with torque_control 'online', 'analytical' and 'interpolate', an unknown value is refused with NotImplementedError, and a stored table spans a range of torques on both sides of zero and a range of fluxes. Refuted: 'interpolate' raises AttributeError with every numpy that has no np.complex (1.24 and later).", "quantifier": "all motors with a positive magnet flux, limits, margins, nominal states, root finders and triangulations", "why_tests_cant": "needs all motors and both numpy generations; the tests run one numpy and never tune this stage with a table", "anchors": ["src/gem_controllers/stages/operation_point_selection/pmsm_ops.py:PMSMOperationPointSelection.tune"]}
{"id": "C181", "title": "Currents from the analytical table give the demanded torque", "statement": "With the analytical table the selected currents give a torque within maxtorque/249 of the reference, or the largest torque of a row of the maximum torque per flux curve in the direction of the reference, or a torque within half a grid step of the (flux-limited) reference clipped to the range of the table.", "quantifier": "all tuned stages of motors with magnet and l_d <= l_q, all states, modulation histories and references up to the largest torque, every root finder", "why_tests_cant": "a claim about 62500 table entries for every motor, flux limit and reference", "anchors": ["src/gem_controllers/stages/operation_point_selection/pmsm_ops.py:PMSMOperationPointSelection._select_operating_point", "src/gem_controllers/stages/operation_point_selection/pmsm_ops.py:PMSMOperationPointSelection.solve_analytical"]}
{"id": "C182", "title": "Table look-ups of the permanent magnet motor never raise and stay in the box of the current limits", "statement": "Tuned with a table and reset, no sequence of selections with references up to the largest torque raises. With the interpolated table the two references are a point of a stored curve, a point of the box spanned by the current limits, or nan, both together.", "quantifier": "all tuned stages, all sequences of states and references, every triangulation with convex weights", "why_tests_cant": "unbounded sequences and arbitrary motors and triangulations", "anchors": ["src/gem_controllers/stages/operation_point_selection/pmsm_ops.py:PMSMOperationPointSelection._select_operating_point", "src/gem_controllers/stages/operation_point_selection/pmsm_ops.py:PMSMOperationPointSelection._get_t_idx", "src/gem_controllers/stages/operation_point_selection/pmsm_ops.py:PMSMOperationPointSelection._get_psi_idx"]}
{"id": "C183", "title": "Motoring and braking of the externally excited motor are mirror images", "statement": "Driving the operating point selection with opposite torque references gives the same direct and excitation currents, opposite torque producing currents, the same exceptions and the same states of the modulation controller, over whole histories.", "quantifier": "all tuned stages, all sequences of states and references", "why_tests_cant": "unbounded sequences, arbitrary tables and references", "anchors": ["src/gem_controllers/stages/operation_point_selection/eesm_ops.py:EESMOperationPointSelection._select_operating_point"]}
{"id": "C184", "title": "The torque controller of the synchronous example never asks for more than the nominal currents", "statement": "Every answer of TorqueToCurrentConversion.control is a pair of normalised current references whose magnitudes are at most nominal value over limit, hence at most one, whatever the tables, the mode, the state and the torque are.", "quantifier": "all tables, root finders, modulation states, histories of states and torques", "why_tests_cant": "unbounded histories, arbitrary real tables and references", "anchors": ["examples/classic_controllers/controllers/torque_to_current_conversion.py:TorqueToCurrentConversion.control"]}
{"id": "C185", "title": "Reset of the torque controller of the synchronous example", "statement": "After reset the controller behaves the same whatever happened before, although reset leaves the flag `limited` alone; and it behaves like a new controller.", "quantifier": "all tables, root finders, pairs of earlier histories and later histories", "why_tests_cant": "pairs of unbounded histories; the second part is false and the first call already tells a new controller from a reset one", "anchors": ["examples/classic_controllers/controllers/torque_to_current_conversion.py:TorqueToCurrentConversion.reset", "examples/classic_controllers/controllers/torque_to_current_conversion.py:TorqueToCurrentConversion.modulation_control"]}
{"id": "C186", "title": "The torque controller of the synchronous example refines the operating point selection of the library", "statement": "Driven with normalised states, TorqueToCurrentConversion answers what PMSMOperationPointSelection with the same tables answers on the physical states, moved into the band of the nominal currents and divided by the limits; it raises the same exceptions, in every mode and over whole histories.", "quantifier": "all tables, root finders, modulation states, histories", "why_tests_cant": "equivalence of two implementations over unbounded histories and arbitrary tables", "anchors": ["examples/classic_controllers/controllers/torque_to_current_conversion.py:TorqueToCurrentConversion.control", "src/gem_controllers/stages/operation_point_selection/pmsm_ops.py:PMSMOperationPointSelection._select_operating_point"]}
{"id": "C187", "title": "The torque controller of the synchronous example answers every torque", "statement": "A new or reset TorqueToCurrentConversion with tables of the constructor's sizes answers every torque in every state, in every mode, for ever; torques beyond the table are answered like the largest one, which is what clipping the index is for.", "quantifier": "all environments, tables, root finders, histories, torques", "why_tests_cant": "unbounded histories and arbitrary tables; the second part is false at half a grid step above the table", "anchors": ["examples/classic_controllers/controllers/torque_to_current_conversion.py:TorqueToCurrentConversion.control", "examples/classic_controllers/controllers/torque_to_current_conversion.py:TorqueToCurrentConversion.get_t_idx_mtpc"]}
{"id": "C188", "title": "The flux limit of the synchronous example stays near the voltage limit", "statement": "The flux limit of TorqueToCurrentConversion.modulation_control differs from the flux at which the phase voltage limit is reached at the actual speed by at most a fifth of the flux at nominal currents.", "quantifier": "all environments, nominal values, states of the controller, normalised states", "why_tests_cant": "all real speeds, voltages and integrator values", "anchors": ["examples/classic_controllers/controllers/torque_to_current_conversion.py:TorqueToCurrentConversion.modulation_control", "examples/classic_controllers/controllers/torque_to_current_conversion.py:TorqueToCurrentConversion.__init__"]}
{"id": "C189", "title": "The synchronous cascade converts every torque reference", "statement": "In torque mode the cascaded controller of synchronous motors converts every normalised torque reference, in every state and after every history, into current references within the nominal currents; only the current controllers can fail.", "quantifier": "all environments, tables reaching the torque limit, root finders, controller states, measured states, references of the unit interval", "why_tests_cant": "composition of two stateful controllers over all real states and tables", "anchors": ["examples/classic_controllers/controllers/cascaded_foc_controller.py:CascadedFieldOrientedController.control", "examples/classic_controllers/controllers/torque_to_current_conversion.py:TorqueToCurrentConversion.control"]}
{"id": "C190", "title": "The synchronous cascade in torque mode answers for ever", "statement": "With PI current controllers and torque references of the unit interval, the cascaded controller of synchronous motors answers every call of every history with three phase voltages within the action space, while the current references it holds stay within the nominal currents.", "quantifier": "all environments, tables reaching the torque limit, root finders, controller states, histories of states and references", "why_tests_cant": "unbounded histories of three coupled stateful controllers over real states", "anchors": ["examples/classic_controllers/controllers/cascaded_foc_controller.py:CascadedFieldOrientedController.control", "examples/classic_controllers/controllers/torque_to_current_conversion.py:TorqueToCurrentConversion.control"]}
