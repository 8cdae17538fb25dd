{"claims": [
{"property": "C01", "status": "proved", "theorems": ["C01_alpha_errors", "C01_phase"], "note": ""},
{"property": "C02", "status": "proved", "theorems": ["C02_constructor_errors", "C02_fully_initialised", "C02_basis"], "note": ""},
{"property": "C03", "status": "proved", "theorems": ["C03_partition_of_unity", "C03_proportional"], "note": ""},
{"property": "C04", "status": "proved", "theorems": ["C04_linear", "C04_bounded", "C04_constant_weights", "C04_vanishes"], "note": ""},
{"property": "C05", "status": "partial", "theorems": ["C05_shifted_basis_refuted", "C05_division_by_zero_refuted", "C05_basis_independent_of_duration_partial"], "note": "refuted: for start_t <> 0 the centers are computed without subtracting the start time, so a shifted forcing term has a different basis, and for start_t/goal_t ratios that make two centers coincide the width divides by zero. Proved: for start_t = 0 centers and widths do not depend on the duration."},
{"property": "C06", "status": "proved", "theorems": ["C06_rk4_is_textbook_rk4", "C06_rk4_with_coupling"], "note": ""},
{"property": "C07", "status": "partial", "theorems": ["C07_evaluation_times_partial", "C07_forcing_sampled_after_the_step_refuted"], "note": "refuted: the forcing term is sampled at t, t+h/2, t+h, i.e. one step late. Proved: these are the only times that matter."},
{"property": "C08", "status": "proved", "theorems": ["C08_rk4_implementations_agree"], "note": ""},
{"property": "C09", "status": "partial", "theorems": ["C09_euler_implementations_agree_partial", "C09_before_start_refuted", "C09_coupling_velocity_refuted", "C09_precomputed_velocity_refuted"], "note": "refuted for t <= start_t, for coupling terms with a velocity contribution and for precomputed coupling velocities. Proved: agreement for every other input."},
{"property": "C10", "status": "proved", "theorems": ["C10_temporal_scaling", "C10_object"], "note": ""},
{"property": "C11", "status": "proved", "theorems": ["C11_linear", "C11_translation", "C11_scaling"], "note": ""},
{"property": "C12", "status": "proved", "theorems": ["C12_goal_is_equilibrium"], "note": ""},
{"property": "C13", "status": "proved", "theorems": ["C13_rk4_converges", "C13_euler_converges", "C13_runs_exist", "C13_final_velocity_converges"], "note": ""},
{"property": "C14", "status": "proved", "theorems": ["C14_forces_reproduce_acceleration", "C14_forces_unique", "C14_finite_differences"], "note": ""},
{"property": "C15", "status": "proved", "theorems": ["C15_minimiser", "C15_unique", "C15_interpolates"], "note": "exact real arithmetic; np.linalg.pinv is the Moore-Penrose pseudo-inverse (existence and uniqueness proved in P_Matrix.v, choice by constructive_definite_description)."},
{"property": "C16", "status": "proved", "theorems": ["C16_imitate", "C16_rejected"], "note": ""},
{"property": "C17", "status": "partial", "theorems": ["C17_forces_shift_invariant_partial", "C17_time_origin_refuted"], "note": "refuted: the basis functions are built for [T[0], T[-1]] but centers are computed without subtracting the start time (see C05), so weights learned from a shifted demonstration differ. Proved: the forces to be learned do not depend on the time origin."},
{"property": "C18", "status": "partial", "theorems": ["C18_open_loop_is_repeated_step_partial", "C18_start_velocity_refuted", "C18_final_velocity_open_loop_is_repeated_step"], "note": "refuted: open_loop ignores the configured start velocity. Proved: equality at every step for every object whose start velocity is zero, any step function, coupling term, weights and history."},
{"property": "C19", "status": "proved", "theorems": ["C19_time_grid", "C19_object", "C19_final_velocity", "C19_final_velocity_runs_exist"], "note": ""},
{"property": "C20", "status": "proved", "theorems": ["C20_substeps_tile_the_interval", "C20_substeps_uniform", "C20_diverges_for_nonpositive_int_dt"], "note": ""},
{"property": "C21", "status": "proved", "theorems": ["C21_feedback", "C21_gain", "C21_gain_final_velocity", "C21_gain_dual"], "note": ""},
{"property": "C22", "status": "partial", "theorems": ["C22_reset_forgets_partial", "C22_reset_then_configure_refuted"], "note": "refuted: reset does not clear the 'initialized' flag, so a start state configured after reset is ignored by an object that was stepped before. Proved: every history that does not assign the start state between reset and the next valid step gives the observations of a new object."},
{"property": "C23", "status": "proved", "theorems": ["C23_cartesian_shapes", "C23_configure_errors", "C23_shapes", "C23_dual_shapes", "C23_state_following", "C23_configure_stores"], "note": ""},
{"property": "C24", "status": "partial", "theorems": ["C24_failed_configure_partial", "C24_not_atomic_refuted"], "note": "refuted: arguments checked before the invalid one (and t) are already assigned. Proved: every attribute is the old one or the valid given one; nothing else changes."},
{"property": "C25", "status": "proved", "theorems": ["C25_ensure_1d_array"], "note": ""},
{"property": "C26", "status": "proved", "theorems": ["C26_set_get", "C26_get_set", "C26_dual"], "note": ""},
{"property": "C27", "status": "partial", "theorems": ["C27_round_trip", "C27_get_set", "C27_accepted_lengths_partial", "C27_short_vector_refuted", "C27_rejected_not_atomic_refuted"], "note": "refuted: vectors of length 4 n_weights_per_dim are accepted (the rotation part is broadcast), and a vector of length 3 n_weights_per_dim is rejected after the position weights were overwritten. Proved: round trip for the right length, and exactly 6n and 4n are accepted."},
{"property": "C28", "status": "partial", "theorems": ["C28_set_execution_time", "C28_rejected_partial", "C28_rejected_not_atomic_refuted", "C28_cartesian", "C28_cartesian_rejected_partial", "C28_dual"], "note": "refuted for invalid values: the execution time is assigned before it is checked, and the next Euler step raises. Proved: valid values."},
{"property": "C29", "status": "proved", "theorems": ["C29_goal_trajectory", "C29_equal_times"], "note": ""},
{"property": "C30", "status": "proved", "theorems": ["C30_forces_reproduce_acceleration", "C30_accepted", "C30_differences"], "note": ""},
{"property": "C31", "status": "partial", "theorems": ["C31_constructor_errors", "C31_basis_partial", "C31_width_uninitialised_refuted", "C31_activations", "C31_spring_damper_towards_attractor", "C31_equilibrium", "C31_open_loop", "C31_converges", "C31_goal_ignored"], "note": "refuted: with a single via-point the width is never assigned (np.empty). Proved: everything else, and all widths for two or more via-points."},
{"property": "C32", "status": "proved", "theorems": ["C32_group", "C32_arbitrary_norm", "C32_exponential", "C32_logarithm", "C32_log_exp", "C32_double_cover", "C32_implementations_agree", "C32_implementations_at_pi"], "note": ""},
{"property": "C33", "status": "proved", "theorems": ["C33_step", "C33_open_loop", "C33_cartesian_steps", "C33_cartesian_open_loop", "C33_spring_damper_steps", "C33_spring_damper_open_loop", "C33_dual_steps", "C33_dual_open_loop"], "note": ""},
{"property": "C34", "status": "partial", "theorems": ["C34_right_multiplication", "C34_right_multiplication_open_loop", "C34_left_multiplication_partial", "C34_left_multiplication_refuted", "C34_goal_double_cover", "C34_state_double_cover", "C34_left_multiplication_weights"], "note": "refuted for left multiplication with gains that differ between axes. Proved: right multiplication for all gains, weights, runs; left multiplication for isotropic gains, with weights that are turned along (C34_left_multiplication_weights; C34_left_multiplication_partial is the case without forcing term); invariance under q -> -q of goal or state away from relative rotations of exactly pi."},
{"property": "C35", "status": "partial", "theorems": ["C35_goal_is_equilibrium", "C35_cartesian", "C35_smooth_scaling_refuted", "C35_dual"], "note": "refuted with smooth scaling when the start differs from the goal. Proved: without smooth scaling, or when start = goal."},
{"property": "C36", "status": "proved", "theorems": ["C36_forces_reproduce_acceleration", "C36_forces_unique", "C36_finite_differences"], "note": ""},
{"property": "C37", "status": "proved", "theorems": ["C37_position_is_dmp", "C37_open_loop_position_is_dmp", "C37_orientation_independent", "C37_open_loop_orientation_independent", "C37_no_memory", "C37_runs_exist"], "note": ""},
{"property": "C38", "status": "proved", "theorems": ["C38_steps", "C38_open_loop"], "note": ""},
{"property": "C39", "status": "partial", "theorems": ["C39_arm_is_cartesian_dmp", "C39_imitate", "C39_right_arm_refuted"], "note": "Proved for the left arm and, if beta_y[7:10] = beta_y[6:9] or smooth scaling is off, for the right arm. Refuted in general: the smooth scaling term of the right arm reads beta_y at the index of the position entry (7..9) instead of the velocity entry (6..8)."},
{"property": "C40", "status": "partial", "theorems": ["C40_orientation_partial", "C40_dual_arm_partial", "C40_feedback_refuted"], "note": "Proved if no half turn, no tiny rotation (between the two thresholds of the logarithm), no rotation by more than pi within one integration step occurs and the tracking-error feedback is not applied in several integration steps without coupling term. Refuted otherwise: Python accumulates the feedback in cdd, Cython clears it."},
{"property": "C41", "status": "partial", "theorems": ["C41_coupling_refuted", "C41_repeatable_partial", "C41_repeatable_stateless_partial", "C41_feedback_refuted"], "note": "holds without feedback (p_gain = 0) for stateless coupling terms; C41_feedback_refuted (p_gain > 0) and C41_coupling_refuted (CouplingTermDualCartesianTrajectory keeps its time) are counterexamples."},
{"property": "C42", "status": "proved", "theorems": ["C42_pos1d_zero", "C42_pos1d_push", "C42_pos3d", "C42_dual_distance", "C42_leader_moves_freely", "C42_leader_moves_freely_3d"], "note": "1D, 3D and dual-arm distance terms; leader trajectories of open_loop equal those without coupling. Exact real arithmetic; coinciding arm positions (0/0 in the code) excluded for the dual-arm distance."},
{"property": "C43", "status": "proved", "theorems": ["C43_leader_moves_freely", "C43_silent_leaders", "C43_at_rest", "C43_leader_and_flags", "C43_equal_and_opposite", "C43_position_pull", "C43_orientation_pull", "C43_trajectory"], "note": "zero velocity and pure damping at the desired relative pose, leader and flags, action-reaction, direction of the pull (half turns excluded for orientations), demonstrated relative trajectories, leader arm of open_loop (p_gain = 0) moves as without coupling."},
{"property": "C44", "status": "partial", "theorems": ["C44_arccos_argument", "C44_3d", "C44_bound", "C44_zero_velocity", "C44_head_on_refuted", "C44_coupling_2d"], "note": "C44_3d (and C44_coupling_2d) need velocity and direction to the obstacle not parallel; C44_head_on_refuted shows that the claim is false head-on: the term accelerates towards the obstacle."},
{"property": "C45", "status": "proved", "theorems": ["C45_planar", "C45_agree"], "note": "full statement in exact real arithmetic."},
{"property": "C46", "status": "proved", "theorems": ["C46_orientation_equilibrium", "C46_dmp_without_forcing_term", "C46_converges", "C46_equilibrium", "C46_translation", "C46_open_loop_is_repeated_step", "C46_step_ignores_internal_state"], "note": ""},
{"property": "C47", "status": "proved", "theorems": ["C47_samples", "C47_minimum_jerk", "C47_segment", "C47_errors"], "note": ""},
{"property": "C48", "status": "partial", "theorems": ["C48_reaches_goal_partial", "C48_reaches_goal_refuted"], "note": "refuted: with dt=3/10 and execution_time=1 the last sample is short of the goal, and with execution_time=dt the trajectory never leaves the start. Proved: the goal is reached exactly when the execution time is a whole number N >= 2 of periods."},
{"property": "C49", "status": "proved", "theorems": ["C49_playback", "C49_beyond_the_end", "C49_rejected_first_step"], "note": ""},
{"property": "C50", "status": "proved", "theorems": ["C50_convex", "C50_bounds", "C50_linear", "C50_constant"], "note": "full statement in exact real arithmetic, times with a positive maximum."},
{"property": "C51", "status": "proved", "theorems": ["C51_covariance", "C51_prior"], "note": "full statement in exact real arithmetic."},
{"property": "C52", "status": "proved", "theorems": ["C52_shape", "C52_hits_target", "C52_covariance", "C52_accepted"], "note": "C52_hits_target and C52_covariance for a successful call; C52_accepted shows that the call succeeds whenever the prior covariance at t is invertible."},
{"property": "C53", "status": "proved", "theorems": ["C53_all_via_points", "C53_accepted", "C53_repeated_time_rejected"], "note": "C53_all_via_points for a successful call; C53_accepted: the call succeeds for a positive definite prior and at most n_weights_per_dim pairwise different times; C53_repeated_time_rejected: repeating a time raises LinAlgError."},
{"property": "C54", "status": "partial", "theorems": ["C54_relative_time_partial", "C54_unit_duration", "C54_duration_refuted"], "note": "The velocities are the derivative with respect to the relative time T / max(T) only (C54_relative_time_partial, C54_unit_duration); C54_duration_refuted: for any other duration the statement is false."},
{"property": "C55", "status": "partial", "theorems": ["C55_times_overwritten_refuted", "C55_changed_refuted", "C55_queries_repeatable_partial", "C55_imitate_refuted", "C55_samples"], "note": "refuted: every query and imitate divide the caller's array by its maximum in place (C55_times_overwritten_refuted, C55_changed_refuted, C55_imitate_refuted). C55_queries_repeatable_partial: repeating a query with the overwritten array gives the same result."},
{"property": "C56", "status": "proved", "theorems": ["C56_valid"], "note": "EM never fails and keeps the covariance symmetric positive semidefinite and the variance positive, for any number of iterations and any non-empty list of demonstrations."},
{"property": "C57", "status": "partial", "theorems": ["C57_round_trip", "C57_dmp", "C57_final_velocity", "C57_dual_cartesian", "C57_cartesian", "C57_state_following", "C57_promp", "C57_spring_damper", "C57_minimum_jerk", "C57_yaml_numpy_refuted", "C57_yaml_promp_refuted", "C57_yaml_execution_time_refuted", "C57_yaml_nested_tuple_refuted", "C57_forcing_term_refuted", "C57_stiffness_array_refuted", "C57_minimum_jerk_refuted", "C57_dmp_determined", "C57_cartesian_determined", "C57_state_following_determined", "C57_promp_determined", "C57_spring_damper_determined", "C57_minimum_jerk_determined", "C57_dmp_restored", "C57_promp_restored"], "note": "Proved for any class with storable attributes and for all primitives of the library; refuted for numpy scalars in YAML (imitated ProMP, execution_time=T[-1]), nested tuples in YAML, array stiffness, minimum jerk after a step and stand-alone forcing terms. Nested objects gain attributes 'module' and 'class' when read back."},
{"property": "C58", "status": "proved", "theorems": ["C58_clipped", "C58_nearest_exists", "C58_in_limits", "C58_chain_limits"], "note": "C58_clipped, C58_in_limits (values in effect after forward), C58_chain_limits; robot description is arbitrary."},
{"property": "C59", "status": "proved", "theorems": ["C59_rotations_compose", "C59_joint_motion", "C59_rigid", "C59_total", "C59_carries"], "note": "rigid result, existence, meaning as composition of the transformations along the path (graph search of pytransform3d is a parameter), composition of joint rotations."},
{"property": "C60", "status": "proved", "theorems": ["C60_best", "C60_guesses_in_limits", "C60_smallest_error", "C60_local_best"], "note": "for every behaviour of the solver and the random numbers; also for the local variant."},
{"property": "C61", "status": "partial", "theorems": ["C61_local_partial", "C61_complete", "C61_limits_partial", "C61_local_refuted", "C61_limits_refuted"], "note": "C61_local_partial (without random restarts) and C61_limits_partial (with random restarts, and first step); C61_local_refuted: with random restarts (default) the interval is not passed to the solver; C61_limits_refuted: without random restarts the joint limits are not passed."},
{"property": "C62", "status": "proved", "theorems": ["C62_argument_in_range", "C62_distance", "C62_meaning", "C62_objective"], "note": "full statement plus triangle inequality and meaning of the error; exact real arithmetic."},
{"property": "C63", "status": "partial", "theorems": ["C63_difference", "C63_equal_partial", "C63_grid", "C63_default_refuted", "C63_goal_velocity_refuted", "C63_obstacle_refuted"], "note": "The field equals the acceleration of one DMP step up to the explicit difference theorem; equality needs a goal at rest, and the default arguments, goal velocities and obstacles refute the general claim."},
{"property": "C64", "status": "partial", "theorems": ["C64_snapshots", "C64_step_result", "C64_reset_result", "C64_reset_spring", "C64_minimum_jerk", "C64_state_following_refuted", "C64_get_weights_refuted", "C64_get_weights_cartesian"], "note": "Heap model with array views; the numerical integrators are arbitrary functions of the array contents. Proved for DMP, DMPWithFinalVelocity, CartesianDMP, DualCartesianDMP, the spring-dampers and MinimumJerkTrajectory. False for StateFollowingDMP.step (returns its internal arrays) and for the view returned by get_weights. Coupling terms that keep references to the arrays they are given are not modelled."},
{"property": "C65", "status": "partial", "theorems": ["C65_accelerations", "C65_full_rank", "C65_positive_definite", "C65_generate", "C65_single_step_refuted"], "note": "D x is proved to be the vector of second differences of x for every length; full column rank and positive definiteness follow for two or more steps. Existence of the Cholesky factor is proved, so the sampling step does not raise. A single step raises ZeroDivisionError (C65_single_step_refuted)."},
{"property": "C66", "status": "proved", "theorems": ["C66_unpack", "C66_propagate", "C66_demonstration", "C66_demonstration_accepted", "C66_dataset", "C66_all_skipped"], "note": "The code fixes 14 pose and 12 velocity dimensions. MVN (package gmr) is not modelled: the estimate returns the rows passed to from_samples, the propagation takes any list of vectors as sigma points. C66_demonstration goes from a demonstration through packing, unpacking and the open loop."},
{"property": "C67", "status": "proved", "theorems": ["C67_convention", "C67_there_and_back", "C67_back_and_there"], "note": "Both directions, for every pose (positions of length 3, orientation parts of any length >= 1), plus the order of the entries."},
{"property": "C68", "status": "partial", "theorems": ["C68_substeps_terminate_partial", "C68_substeps_hang_refuted", "C68_grid_exact_partial", "C68_grid_bound_partial", "C68_grid_decimal_refuted", "C68_minimum_jerk_refuted"], "note": "Flocq binary64 model of the time computations. The loop ends for int_dt >= t * 2^-52 and hangs for int_dt < last_t * 2^-54; the grid is exact for exact multiples and exceeds run_t by one step for the decimals 1.1 and 0.1; generate_minimum_jerk misses the goal for 0.7/0.1 and 0.8/0.1. Powers are computed by repeated multiplication. Times are assumed non-negative."},
{"property": "C69", "status": "proved", "theorems": ["C69_open_loop_is_repeated_step", "C69_time_grid", "C69_runs_exist", "C69_dual_open_loop_is_repeated_step", "C69_dual_time_grid", "C69_dual_runs_exist"], "note": ""},
{"property": "C70", "status": "proved", "theorems": ["C70_steps", "C70_open_loop"], "note": ""},
{"property": "C71", "status": "partial", "theorems": ["C71_history_partial", "C71_same_chain_partial", "C71_trajectory_partial", "C71_other_chain_refuted"], "note": "holds for earlier calls on the same chain and on chains that move only joints of this chain or joints off its path; C71_other_chain_refuted otherwise: chains of one robot share the joint values."},
{"property": "C72", "status": "partial", "theorems": ["C72_solver_partial", "C72_restarts", "C72_ignored_refuted"], "note": "holds for inverse_with_random_restarts and for inverse_trajectory with initial joint angles and without random restarts; C72_ignored_refuted: otherwise inverse_trajectory drops the argument solver."},
{"property": "C73", "status": "partial", "theorems": ["C73_round_trip", "C73_base_at_origin_partial", "C73_robot_frame_refuted", "C73_velocity_refuted"], "note": "The composition order is wrong: X B and T B^-1 instead of B X and B^-1 T. Commanded and reported poses are consistent with each other for every base (C73_round_trip) and correct for a base at the origin (C73_base_at_origin_partial); both claims fail for a shifted base, where also the velocity of a robot at rest is reported as nonzero. PyBullet's transform functions enter as a contract."},
{"property": "C74", "status": "partial", "theorems": ["C74_mockup", "C74_mockup_dmp", "C74_ur5", "C74_ur5_completes", "C74_stopped_refuted"], "note": "PyBullet is an arbitrary state machine. The robot is stopped after a completed run; when step or inverse kinematics raises, the last velocity command stays in force (C74_stopped_refuted)."},
{"property": "C75", "status": "partial", "theorems": ["C75_indices", "C75_chain", "C75_base_link_refuted", "C75_repeated_names", "C75_arms"], "note": "All joints and moved links, for every well-formed robot; the base link is stored under a bytes object and cannot be found by its name (C75_base_link_refuted)."},
{"property": "C76", "status": "partial", "theorems": ["C76_frame", "C76_trajectory", "C76_line_width_refuted", "C76_boundaries"], "note": "For two or more key frames; with one key frame only the first pose is drawn. The line width is not passed to the frames (C76_line_width_refuted)."},
{"property": "C77", "status": "partial", "theorems": ["C77_arrays", "C77_ragged", "C77_times_partial", "C77_times_refuted", "C77_choice", "C77_choice_enumerates", "C77_choice_negative"], "note": "Arrays, time step and choice of the file are proved. The returned times are refuted: np.linspace(0, n, n) is spaced n/(n-1), not dt. scipy.io.loadmat is not modelled: the records it returns are the input."},
{"property": "C78", "status": "partial", "theorems": ["C78_recovers", "C78_never_incomplete", "C78_downloads_once", "C78_concurrent_refuted", "C78_concurrent_failure_refuted"], "note": "Proved for processes that run one after the other, with a crash at any step. Refuted for concurrent processes: a crash can leave a permanently damaged data set, and the second process fails at the rename."},
{"property": "C79", "status": "partial", "theorems": ["C79_others_independent_partial", "C79_configure_refuted", "C79_imitate_refuted"], "note": "configure and imitate store the caller's arrays (or rows of them) as start and goal, so later writes change the object; all other arrays are independent."},
{"property": "C80", "status": "proved", "theorems": ["C80_euler_cython", "C80_euler", "C80_final_velocity", "C80_state_following", "C80_spring_damper", "C80_orientation", "C80_spring_damper_orientation", "C80_dual", "C80_state_following_step", "C80_state_following_open_loop"], "note": "For one integration step; runs of several steps compose it. Coupling terms are functions of the state (C64 covers those with a state of their own; the dual arm step takes them here too)."},
{"property": "C81", "status": "partial", "theorems": ["C81_json_interrupted", "C81_json_completed", "C81_json_accepted", "C81_unconvertible", "C81_old_content_refuted", "C81_unencodable_refuted", "C81_yaml_header", "C81_yaml_interrupted_refuted"], "note": "Proved for write_json, character by character, with Python's number formats as a contract (numbers are written as words without brackets and quotes) and file contents limited to bytes. Refuted: the old content is lost as soon as the file is opened, also when the object turns out not to be encodable, and a YAML file cut between two entries can be read as another object without an error."},
{"property": "C82", "status": "partial", "theorems": ["C82_without_cache", "C82_first_call", "C82_repeated", "C82_stale_refuted", "C82_interrupted_refuted", "C82_features"], "note": "Proved without a file, for the first call and for repeated calls with the same arguments. Refuted after a call with another data set (the stale trajectories are used) and after an interrupted one (a truncated table is read as a complete one). gmr's sigma points and estimation are contracts."},
{"property": "C83", "status": "partial", "theorems": ["C83_panels", "C83_too_many", "C83_too_many_refuted", "C83_trajectory", "C83_given_axes", "C83_too_few_axes", "C83_wrong_times", "C83_bottom_refuted", "C83_distribution", "C83_distribution_given_axes", "C83_dashed_refuted"], "note": "Proved for data that fit the grid, for given axes and for the exceptions without transpose. Refuted: with transpose one dimension too many is drawn on top of dimension 1 without an error; grids that are not filled to the last row have no time axis at all; fill_between=False without a colour raises for every distribution (matplotlib rejects None as a format string)."},
{"property": "C84", "status": "partial", "theorems": ["C84_pointcloud", "C84_downsample", "C84_stroke", "C84_toggle_refuted", "C84_events", "C84_event_refuted"], "note": "Open3D's add, remove and down-sampling are contracts. Refuted: the callback does not toggle; strokes without a modifier only ever show the geometry, strokes with one only hide it, and a single event can have no effect. Proved instead: what a stroke does after any history."},
{"property": "C85", "status": "partial", "theorems": ["C85_rh5_independent", "C85_rh5_own_clients", "C85_rh5_new", "C85_ur5_first", "C85_ur5_second_refuted"], "note": "PyBullet clients are a map from ids to states of any engine. Proved for RH5Simulation and every schedule; refuted for a second UR5Simulation: its commands go to client 0 and its steps to its own client, so its robot never moves with its own steps."},
{"property": "C86", "status": "partial", "theorems": ["C86_ik_leaves_robot", "C86_left_arm", "C86_right_arm", "C86_goto_joint_state", "C86_joint_command", "C86_joint_command_refuted", "C86_pose_command", "C86_ee_state", "C86_velocity_refuted", "C86_run", "C86_velocities_refuted", "C86_stop", "C86_history_refuted", "C86_names", "C86_joint_state"], "note": "Refuted parts: a joint vector of the wrong length is refused only after the left arm got its command; velocities are not available and the recorded ones are the desired ones; inverse kinematics depends on the history of the chain (at most 50 steps towards the current angles)."},
{"property": "C87", "status": "proved", "theorems": ["C87_minimiser", "C87_unique", "C87_round_trip", "C87_dimensions"], "note": "Real arithmetic; pinv by its defining equations, without the rcond threshold."},
{"property": "C88", "status": "proved", "theorems": ["C88_expectation_maximization", "C88_order"], "note": "Real arithmetic; pinv by its defining equations. The divisor of the noise variance is the one of the code (lines 601-602), including the norm of the means that the code itself marks as questionable."},
{"property": "C89", "status": "partial", "theorems": ["C89_rk4_any_lengths", "C89_euler_lengths", "C89_dmp", "C89_cartesian", "C89_dual", "C89_euler_values", "C89_rk4_values", "C89_rk4_no_duration", "C89_quaternion_values", "C89_dual_values", "C89_obstacle", "C89_rotation_matrix_values", "C89_obstacle_values", "C89_obstacle_refuted", "C89_object_values"], "note": "Array-level model of dmp_fast.pyx (M_Cython.v) in which an unchecked access outside an array is a distinct outcome. Proved: memory safety of all objects for any run, exact length condition of the Euler step, refinement of the value-level models used by the other claims (including exceptions). Refuted in one case: the compiled 2D obstacle avoidance reads a second velocity entry of a one-dimensional DMP (C89_obstacle_refuted); C89_obstacle gives the condition under which it is safe."},
{"property": "C90", "status": "partial", "theorems": ["C90_order", "C90_via_points", "C90_best_estimate", "C90_bayes", "C90_row_noise_refuted"], "note": "C90_order and C90_via_points: every permutation gives the same ProMP or the same error, for any covariance as prior and noise (no invertibility assumed). C90_best_estimate: least variance among all linear estimates. C90_bayes: for invertible prior and noise the exponent of prior times likelihood is that of the returned normal distribution plus a constant. C90_row_noise_refuted: via_points with noise in two dimensions returns a covariance that is not symmetric."},
{"property": "C91", "status": "proved", "theorems": ["C91_coordinates", "C91_dimensions", "C91_speed"], "note": "Rectangular maps between objects of different dimension; maps may only connect dimensions with the same alpha_y and beta_y. Speed: demonstrations that start at time 0 (others: C17)."},
{"property": "C92", "status": "proved", "theorems": ["C92_goal_reached", "C92_goal_moved"], "note": "DMP.step without coupling term; the stability conditions are those of C13."},
{"property": "C93", "status": "proved", "theorems": ["C93_angle_between", "C93_orientation_converges", "C93_cartesian", "C93_cartesian_position", "C93_open_loop", "C93_spring_damper", "C93_dual_arm"], "note": "Without coupling terms; gains equal for the three axes; DualCartesianDMP with p_gain = 0 and gains for which the wrong beta_y index (C39) does not matter."},
{"property": "C94", "status": "proved", "theorems": ["C94_cartesian", "C94_cartesian_fading", "C94_dual", "C94_final_velocity", "C94_final_velocity_fading", "C94_bounded", "C94_fading", "C94_bounded_all_gains", "C94_fading_all_gains", "C94_spring", "C94_spring_fading"], "note": "The coupling term is bounded in the dimension concerned for all states it may be called with; during one call of step it is a function of position and velocity. Stability conditions as in C13 and C92. C94_bounded_all_gains and C94_fading_all_gains: all gains and step lengths that satisfy the exact condition of C100 (the Euler integrators divide steps into equal parts); the factor is not explicit. C94_cartesian and C94_cartesian_fading: positions of a CartesianDMP whose step is given measured positions and velocities, without coupling term, under the exact condition of C100; deviations of the orientation are not bounded here. C94_dual (Properties_DualSensed.v): p_gain = 0; the right arm needs equal beta_y entries with smooth scaling (C39). C94_final_velocity, C94_final_velocity_fading: DMPWithFinalVelocity without coupling term. C94_spring, C94_spring_fading: SpringDamper."},
{"property": "C95", "status": "proved", "theorems": ["C95_data", "C95_demonstrations", "C95_data_all_gains", "C95_demonstrations_all_gains", "C95_cartesian_demonstrations", "C95_dual", "C95_dual_demonstrations"], "note": "Real arithmetic. C95_data and C95_demonstrations: stability conditions as in C13, with an explicit factor. C95_data_all_gains and C95_demonstrations_all_gains: all gains and step lengths that satisfy the exact condition of C100 (the Euler integrators divide steps into equal parts). The factor for demonstrations depends on the times and the regularization coefficient through the pseudo-inverse of the design matrix. Dual: right hand under the condition of C39 on the gains; run_t >= 0."},
{"property": "C96", "status": "proved", "theorems": ["C96_solution", "C96_converges", "C96_integrators"], "note": "Real arithmetic. First order in the step length for all integrators; the higher order of Runge-Kutta is not claimed."},
{"property": "C97", "status": "proved", "theorems": ["C97_reproduces"], "note": "Real arithmetic. Euler integrators with one integration step per sample, which evaluate the forces exactly at the recorded times; the other integrators are related to it by C96. The two samples at each end have accelerations that are wrong by a constant, which is why the rate is sqrt(dt)."},
{"property": "C98", "status": "partial", "theorems": ["C98_arrays_of_floats", "C98_integer_goals", "C98_integer_start", "C98_integer_goal_compiled", "C98_integer_start_step", "C98_integer_array_step", "C98_reset_integer_start", "C98_learned_goal", "C98_slow_integer_demonstration", "C98_integer_velocities", "C98_integer_demonstration_refuted", "C98_learned_from_integers", "C98_same_results_refuted", "C98_spring_damper_floats", "C98_spring_damper_integer_start", "C98_orientation_floats", "C98_orientation_integer_start", "C98_orientation_lost"], "note": "False in general (C98_same_results_refuted, C98_integer_demonstration_refuted). Proved: the region in which dtypes make no difference, which exception every integrator raises outside of it, what is learned from integer demonstrations, and that integer orientations are lost."},
{"property": "C99", "status": "proved", "theorems": ["C99_rounding_errors_do_not_accumulate"], "note": "Both Runge-Kutta integrators, operation by operation in IEEE binary64, against the real-number model used in all other claims. Hypotheses: critically damped gains beta = alpha / 4 (the defaults), start time 0 (always so in DMP), no coupling term, tracking error or smooth scaling, magnitudes between 2^-100 and 2^100. The accuracy of the C library (exp in the forces, pow) is a parameter of the theorem, and fused multiply-add is not modelled."},
{"property": "C100", "status": "proved", "theorems": ["C100_reaches_goal", "C100_exact", "C100_euler_limit", "C100_rk4_limit", "C100_spring_damper", "C100_default_gains"], "note": "C100_reaches_goal (sufficient, all gains and weights), C100_exact (also necessary, zero weights and positive gains), C100_euler_limit and C100_rk4_limit (the conditions as inequalities; the latter for springs that do not oscillate), C100_default_gains (numbers for the default gains), C100_spring_damper (both directions). For the Euler integrators the step must be divided into equal parts (dt <= int_dt or a multiple of int_dt); C13 and C92 cover the rest for critically damped gains. Reals for floats."},
{"property": "C101", "status": "proved", "theorems": ["C101_solution", "C101_converges", "C101_final_velocity", "C101_reaches_goal", "C101_imitate", "C101_rejected", "C101_reproduces"], "note": "Real numbers for floats; the reproduction bound is for dt = tau / N <= int_dt. numpy broadcasting of a demonstration with two times and another number of rows is not modelled."},
{"property": "C102", "status": "partial", "theorems": ["C102_pos1d", "C102_pos3d", "C102_settles", "C102_between", "C102_positive_weights", "C102_limits", "C102_without_coupling", "C102_weighted_sum", "C102_leader", "C102_euler_cython_rest", "C102_exact", "C102_step_length_refuted", "C102_velocity_refuted"], "note": "The place of rest, the weighted sum, the leader and the limits of the step length are proved for all four integrators (the Euler integrators for steps that are divided into equal parts, except for the weighted sum, which needs no such condition). C102_exact shows that the limit is necessary for the compiled Euler integrator. C102_step_length_refuted: the velocity part of the coupling term is not multiplied by the step length, so the place of rest changes with int_dt. C102_velocity_refuted: the Runge-Kutta integrators (and the Python Euler integrator) add the velocity part after the position update, so the reported velocity does not tend to zero although the positions do not change."},
{"property": "C103", "status": "proved", "theorems": ["C103_dmp", "C103_final_velocity", "C103_dual", "C103_cartesian", "C103_state_following", "C103_spring_damper", "C103_minimum_jerk", "C103_history", "C103_last_assigned", "C103_new_dmp", "C103_new_final_velocity", "C103_new_dual", "C103_new_cartesian", "C103_new_state_following", "C103_new_others", "C103_fixed_for_life"], "note": "S_Attributes.v holds the table of attributes and calls. Frame theorems for every class, histories for DMP, constructors for all classes."},
{"property": "C104", "status": "proved", "theorems": ["C104_position_dmp", "C104_differential_equation", "C104_continuity", "C104_demonstrations", "C104_reproduces", "C104_continuity_all_gains", "C104_fourth_order_ahead", "C104_fourth_order_unforced"], "note": "Carries C95, C96 and C97 over to the positions of CartesianDMP. The position_part relation is the one of C37. The constants are existential; the order of the error is one for all step functions."},
{"property": "C105", "status": "partial", "theorems": ["C105_solution", "C105_fourth_order_ahead", "C105_fourth_order_unforced", "C105_first_order_refuted"], "note": "C105_fourth_order_ahead bounds the error with respect to the equation whose forcing term runs ahead by one step; C105_fourth_order_unforced is the full claim for DMPs without forcing; C105_first_order_refuted gives a lower bound proportional to the time step for the DMP's own equation, so the claim is false in general."},
{"property": "C106", "status": "proved", "theorems": ["C106_frames"], "note": "C106_frames is the full statement. S_Frames.v defines the changed poses and demonstrations."},
{"property": "C107", "status": "partial", "theorems": ["C107_learning", "C107_queries", "C107_new", "C107_conditioning", "C107_via_points", "C107_weights", "C107_shifted_queries", "C107_shift_refuted"], "note": "Proved for rotations, reflections and units of time (C107_learning, C107_new, C107_queries, C107_conditioning, C107_via_points, C107_weights) and for shifts of queries (C107_shifted_queries). Refuted for shifts of demonstrations (C107_shift_refuted)."},
{"property": "C108", "status": "partial", "theorems": ["C108_less_likely_refuted"], "note": "Refuted (C108_less_likely_refuted): the logarithm of the likelihood of each demonstration drops by more than 0.1 from n_iter=0 to n_iter=1. C88 states what an iteration computes for all demonstrations."},
{"property": "C109", "status": "proved", "theorems": ["C109_angular_velocity", "C109_orientations", "C109_poses"], "note": "C109_poses is the full statement, C109_orientations the part about orientations; C109_angular_velocity shows that the specification's rate of a quaternion is the velocity of the turned vectors. S_Turning.v defines turning motions and the required forcing term."},
{"property": "C110", "status": "proved", "theorems": ["C110_arm_learns_alone", "C110_poses", "C110_frames", "C110_always_learns"], "note": "C110_arm_learns_alone constructs the CartesianDMP of an arm through its own constructor, configure and set_weights and shows that learning and playback agree; C110_poses (with C109) and C110_frames (with C106) are the consequences; C110_always_learns: imitate never raises for a demonstration of the right shape."},
{"property": "C111", "status": "proved", "theorems": ["C111_reaches_goal", "C111_obstacle_3d", "C111_obstacle_2d", "C111_avoids_and_reaches_3d", "C111_avoids_and_reaches_2d", "C111_no_power", "C111_cartesian", "C111_cartesian_obstacle"], "note": "Energy argument over all integrators. The condition on gamma is needed because the term accelerates a movement that heads exactly at the obstacle (C44_head_on_refuted). C111_reaches_goal is for every coupling term that steers, C111_obstacle_2d and C111_obstacle_3d show that the terms of the library do, C111_no_power is for terms without power. C111_cartesian and C111_cartesian_obstacle are the same for the positions of a CartesianDMP, whatever the orientation part of the coupling term returns (the model takes the two calls of the coupling term, with positions and with orientations, as two functions)."},
{"property": "C112", "status": "partial", "theorems": ["C112_comes_to_rest", "C112_exact", "C112_near_last", "C112_last_viapoint_refuted"], "note": "C112_last_viapoint_refuted shows that the movement does not end at the last via-point (place of rest between 0.93 and 0.96 for via-points 0, 1); C112_near_last bounds the distance. No coupling term."},
{"property": "C113", "status": "proved", "theorems": ["C113_steps", "C113_open_loop", "C113_open_loop_is_repeated_step", "C113_memoryless", "C113_sensitivity"], "note": "No coupling term. The bound K exists for step lengths below the limit of C112."},
{"property": "C114", "status": "proved", "theorems": ["C114_limits", "C114_peak", "C114_symmetric", "C114_frames", "C114_histories", "C114_new", "C114_configured"], "note": "The duration is execution_time - dt (C47). The limits hold for all execution times, also for those that are no multiple of dt and for those below 2*dt, where nothing moves. The mirror symmetry is stated for execution times of N >= 2 whole periods. C114_histories compares two objects call by call: related results or the same exception."},
{"property": "C115", "status": "proved", "theorems": ["C115_dual", "C115_dmp", "C115_open_loop", "C115_cartesian_positions", "C115_spring_damper", "C115_long_step"], "note": "smooth_scaling must be off: with it the start pulls in the beginning of the movement. C115_long_step shows that the limit of the step length is needed. The default settings meet it (C115_satisfiable). Dual: right hand under the condition of C39 on the gains; run_t >= 0."},
{"property": "C116", "status": "proved", "theorems": ["C116_histories", "C116_new", "C116_configured"], "note": "All dimensions share stiffness and damping, so every affine map is allowed. A coupling term corresponds to another one if its velocity part transforms like a velocity and its acceleration part like an acceleration; the velocity part is added without the factor dt in the code, which fits this. A length-1 state that step would broadcast to another number of dimensions is not compared."},
{"property": "C117", "status": "proved", "theorems": ["C117_goto", "C117_refused", "C117_completes", "C117_disconnected"], "note": "Without the optional text. The inverse kinematics itself is PyBullet's and a parameter of the model."},
{"property": "C118", "status": "proved", "theorems": ["C118_trajectories", "C118_velocities", "C118_samples"], "note": "A distribution is any functional that gives linear combinations of the weights their mean and pairs of them their covariance. numpy's generator of random numbers is not modelled: the drawn weights are an argument."},
{"property": "C119", "status": "proved", "theorems": ["C119_orientations", "C119_unique", "C119_unforced"], "note": "The existence of the solution is assumed (C119_satisfiable gives a nontrivial one on every interval); uniqueness is proved. The term 1e-7 is the resolution of the quaternion logarithms of both implementations. Real arithmetic."},
{"property": "C120", "status": "partial", "theorems": ["C120_arrows_partial", "C120_exaggeration_refuted"], "note": "The last sentence is refuted: the scale of the arrows is computed from the accelerations after they were multiplied by exaggerate_arrows, so the factor cancels out and never changes the plot (C120_exaggeration_refuted). The rest holds when some acceleration on the grid is not zero (otherwise the scale is zero). That an arrow has the length u / scale is matplotlib's documented meaning of scale."},
{"property": "C121", "status": "proved", "theorems": ["C121_positions", "C121_open_loop", "C121_orientations", "C121_shortest_way"], "note": "Orientations: solutions that keep away from the orientation upside down to the goal, and c other than 0."},
{"property": "C122", "status": "proved", "theorems": ["C122_positions", "C122_orientations", "C122_unforced"], "note": "Without tracking error feedback, with the execution time at which the forcing term was made; the right hand needs equal beta_y entries with smooth scaling (C39); orientations: solutions that keep away from the orientation upside down to the goal."},
{"property": "C123", "status": "proved", "theorems": ["C123_solution", "C123_steps", "C123_open_loop"], "note": "Without coupling term. The error constant depends on the equation and the length of the interval, not on dt, int_dt, the object's other dimensions or its history."},
{"property": "C124", "status": "proved", "theorems": ["C124_positions", "C124_orientations", "C124_rejected", "C124_shapes"], "note": "Coupling terms are functions of position and velocity."},
{"property": "C125", "status": "proved", "theorems": ["C125_cartesian", "C125_cartesian_jump", "C125_dual", "C125_dual_jump", "C125_smooth", "C125_jump"], "note": "docstring of DMP: smooth_scaling 'Avoids jumps during the beginning of DMP execution when the goal is changed'. C125_cartesian and C125_cartesian_jump: positions of CartesianDMP, for runs that succeed (C69 says which do); the orientations of a CartesianDMP are not covered. Dual: right hand under the condition of C39 on the gains; run_t >= 0."},
{"property": "C126", "status": "partial", "theorems": ["C126_clock", "C126_in_time", "C126_dt_refuted", "C126_between", "C126_offset_position", "C126_offset_refuted", "C126_sign_refuted"], "note": "C126_clock, C126_in_time, C126_offset_position and C126_between hold; the dt of the movement, rotations in the offset and signs of quaternions are refuted."},
{"property": "C127", "status": "partial", "theorems": ["C127_dmp", "C127_final_velocity", "C127_cartesian", "C127_dual", "C127_state_following", "C127_attributes_refuted"], "note": "Exact equality of all results over the reals for the five classes (C127_dmp, C127_final_velocity, C127_cartesian, C127_dual, C127_state_following). C127_attributes_refuted: the width of a single via-point is never written; its value cancels in the normalised activation over the reals (with floating point an infinite or NaN content would not). Arrays that the code fills completely in one vectorised statement or loop over all rows are modelled by their final content."},
{"property": "C128", "status": "proved", "theorems": ["C128_order_of_parameters", "C128_order_of_demonstrations", "C128_linear", "C128_exact"], "note": "gmr's MVN is not in the repository; its contract (the sigma points, with weights that depend on the number of features, reproduce mean and covariance of the samples; estimate_from_sigma_points uses the same weights) is the hypothesis keeps_contract in S_StateSpace.v. Orientations are not covered: they depend on the parameters nonlinearly."},
{"property": "C129", "status": "proved", "theorems": ["C129_trade_off", "C129_cartesian", "C129_final_velocity", "C129_dual", "C129_unforced"], "note": "From C15_minimiser applied to one output at a time and from C95 for the movement."},
{"property": "C130", "status": "proved", "theorems": ["C130_defaults", "C130_required", "C130_reported"], "note": "The file is the tree that json.load or yaml.load returns. The table `documented` in Properties_IOFiles.v lists the defaults."},
{"property": "C131", "status": "proved", "theorems": ["C131_cartesian", "C131_cartesian_exponential", "C131_dual", "C131_dual_exponential", "C131_final_velocity", "C131_final_velocity_exponential", "C131_rate", "C131_steps", "C131_always_exponential", "C131_hundredth", "C131_settles", "C131_settles_default", "C131_spring", "C131_spring_exponential", "C131_spring_default", "C131_spring_open_loop", "C131_spring_settles"], "note": "K is not computed. Euler steps must be divided into equal parts (dt <= int_dt or a multiple), as in C100. Dual: right hand under the condition of C39 on the gains; run_t >= 0. SpringDamper: repeated steps without coupling term.  Properties_SpringSettle.v: open_loop and settling times of SpringDamper.  Properties_FinalVelocityRate.v: DMPWithFinalVelocity after its execution time.  Properties_Settle.v: settling times of DMPs."},
{"property": "C132", "status": "proved", "theorems": ["C132_dmp", "C132_final_velocity", "C132_cartesian", "C132_dual", "C132_state_following", "C132_spring_damper", "C132_spring_damper_orientation", "C132_double_precision"], "note": "The theorems for the single classes are in real arithmetic; C132_double_precision says the same bit for bit in double precision for times and rows of dmp_open_loop, for ordinary sizes of dt and run_t."},
{"property": "C133", "status": "proved", "theorems": ["C133_cartesian", "C133_cartesian_settling_goal", "C133_dual", "C133_bounded_lag", "C133_settling_goal", "C133_final_velocity", "C133_spring_damper"], "note": "Reals instead of floats. With smooth scaling the goals have to be bounded; Euler needs substeps of equal length (as in C100). C133_cartesian (Properties_CartesianMoving.v) is the statement for CartesianDMP. C133_dual (Properties_DualMoving.v): p_gain = 0; the right arm needs equal beta_y entries with smooth scaling (C39). C133_final_velocity: DMPWithFinalVelocity (fv_chase); after the execution time its steps are the Euler steps of a DMP without smooth scaling (late_step)."},
{"property": "C134", "status": "proved", "theorems": ["C134_parameters", "C134_demonstrations", "C134_cartesian", "C134_dual"], "note": "Reals instead of floats; open_loop without a coupling term. The positions of a CartesianDMP blend as well, whatever the orientations of the demonstrations are (C134_cartesian). Dual: right hand under the condition of C39 on the gains; run_t >= 0."},
{"property": "C135", "status": "proved", "theorems": ["C135_coupling", "C135_obstacle_3d", "C135_obstacle_2d", "C135_avoidance_3d", "C135_avoidance_2d"], "note": "Reals instead of floats."},
{"property": "C136", "status": "proved", "theorems": ["C136_positions_3d", "C136_positions_1d", "C136_positions_run", "C136_pose", "C136_trajectory", "C136_distance", "C136_runs", "C136_learned"], "note": "For two arms, gains must be equal in all 12 dimensions (the default) and p_gain = 0. The coupling terms for positions of a DMP have a desired displacement in world coordinates; for them it is mapped, too (any linear map)."},
{"property": "C137", "status": "proved", "theorems": ["C137_distance", "C137_runs", "C137_learned", "C137_positions_1d", "C137_positions_3d", "C137_positions_run"], "note": "Not stated for CouplingTermDualCartesianPose and CouplingTermDualCartesianTrajectory: they measure the error in the frame of the left arm, so they are not meant to be symmetric. Gains must be equal in all 12 dimensions (the default) and p_gain = 0."},
{"property": "C138", "status": "proved", "theorems": ["C138_conditions", "C138_precision", "C138_expected", "C138_blended"], "note": "Noise given as one row counts if the matrix numpy broadcasts it to is a covariance (see C90_row_noise_refuted)."},
{"property": "C139", "status": "proved", "theorems": ["C139_component", "C139_conditions", "C139_uncorrelated", "C139_others"], "note": "Properties_Separate.v. Errors given as a row (as via_points does for y_conditional_cov) are repeated by numpy for every component and are therefore correlated unless they are zero: C90_row_noise_refuted shows the consequence."},
{"property": "C140", "status": "proved", "theorems": ["C140_cartesian_pace", "C140_cartesian_limit", "C140_cartesian_euler_lag", "C140_dual_pace", "C140_dual_limit", "C140_final_velocity", "C140_pace", "C140_limit", "C140_euler_lag", "C140_spring_pace", "C140_spring_limit", "C140_spring_lag", "C140_spring_lag_default"], "note": "Euler integrators divide steps into equal parts (as in C100). With smooth_scaling the goals must stay bounded, hence D = 0. Coupling terms are not used. For CartesianDMP positions only. C140_dual_* (Properties_DualMoving.v): p_gain = 0. SpringDamper: C140_spring_* (Properties_PaceSpring.v). C140_final_velocity: DMPWithFinalVelocity."},
{"property": "C141", "status": "proved", "theorems": ["C141_together", "C141_forgets", "C141_periodic", "C141_cartesian", "C141_cartesian_periodic", "C141_dual", "C141_dual_periodic", "C141_final_velocity", "C141_final_velocity_periodic", "C141_springs", "C141_springs_periodic"], "note": "Euler integrators divide steps into equal parts (as in C100). With smooth_scaling the goals must stay bounded. Coupling terms are not used.  C141_final_velocity*: DMPWithFinalVelocity.  C141_springs*: SpringDamper, with the stability limit of the Euler steps (C46).  C141_cartesian*: positions of CartesianDMP.  C141_dual*: DualCartesianDMP, for hands that the wrong gain index of C39 does not disturb (as in C133_dual)."},
{"property": "C142", "status": "proved", "theorems": ["C142_superposition", "C142_linear", "C142_final_velocity", "C142_cartesian", "C142_dual", "C142_springs"], "note": "Euler integrators divide steps into equal parts (as in C100). With smooth_scaling the goals must stay bounded. Coupling terms are not used.  C142_final_velocity, C142_cartesian, C142_dual (hands that the wrong gain index of C39 does not disturb), C142_springs."}
]}
