{
 "C05": {
  "note": "refuted: for start_t <> 0 the centers are computed without subtracting the start time, so a shifted forcing term has a different basis, and for start_t/goal_t ratios that make two centers coincide the width divides by zero. Proved: for start_t = 0 centers and widths do not depend on the duration."
 },
 "C07": {
  "note": "refuted: the forcing term is sampled at t, t+h/2, t+h, i.e. one step late. Proved: these are the only times that matter."
 },
 "C09": {
  "note": "refuted for t <= start_t, for coupling terms with a velocity contribution and for precomputed coupling velocities. Proved: agreement for every other input."
 },
 "C15": {
  "note": "exact real arithmetic; np.linalg.pinv is the Moore-Penrose pseudo-inverse (existence and uniqueness proved in P_Matrix.v, choice by constructive_definite_description)."
 },
 "C17": {
  "note": "refuted: the basis functions are built for [T[0], T[-1]] but centers are computed without subtracting the start time (see C05), so weights learned from a shifted demonstration differ. Proved: the forces to be learned do not depend on the time origin."
 },
 "C18": {
  "note": "refuted: open_loop ignores the configured start velocity. Proved: equality at every step for every object whose start velocity is zero, any step function, coupling term, weights and history."
 },
 "C22": {
  "note": "refuted: reset does not clear the 'initialized' flag, so a start state configured after reset is ignored by an object that was stepped before. Proved: every history that does not assign the start state between reset and the next valid step gives the observations of a new object."
 },
 "C24": {
  "note": "refuted: arguments checked before the invalid one (and t) are already assigned. Proved: every attribute is the old one or the valid given one; nothing else changes."
 },
 "C27": {
  "note": "refuted: vectors of length 4 n_weights_per_dim are accepted (the rotation part is broadcast), and a vector of length 3 n_weights_per_dim is rejected after the position weights were overwritten. Proved: round trip for the right length, and exactly 6n and 4n are accepted."
 },
 "C28": {
  "note": "refuted for invalid values: the execution time is assigned before it is checked, and the next Euler step raises. Proved: valid values."
 },
 "C31": {
  "note": "refuted: with a single via-point the width is never assigned (np.empty). Proved: everything else, and all widths for two or more via-points."
 },
 "C34": {
  "note": "refuted for left multiplication with gains that differ between axes. Proved: right multiplication for all gains, weights, runs; left multiplication for isotropic gains, with weights that are turned along (C34_left_multiplication_weights; C34_left_multiplication_partial is the case without forcing term); invariance under q -> -q of goal or state away from relative rotations of exactly pi."
 },
 "C35": {
  "note": "refuted with smooth scaling when the start differs from the goal. Proved: without smooth scaling, or when start = goal."
 },
 "C39": {
  "note": "Proved for the left arm and, if beta_y[7:10] = beta_y[6:9] or smooth scaling is off, for the right arm. Refuted in general: the smooth scaling term of the right arm reads beta_y at the index of the position entry (7..9) instead of the velocity entry (6..8)."
 },
 "C40": {
  "note": "Proved if no half turn, no tiny rotation (between the two thresholds of the logarithm), no rotation by more than pi within one integration step occurs and the tracking-error feedback is not applied in several integration steps without coupling term. Refuted otherwise: Python accumulates the feedback in cdd, Cython clears it."
 },
 "C41": {
  "note": "holds without feedback (p_gain = 0) for stateless coupling terms; C41_feedback_refuted (p_gain > 0) and C41_coupling_refuted (CouplingTermDualCartesianTrajectory keeps its time) are counterexamples."
 },
 "C42": {
  "note": "1D, 3D and dual-arm distance terms; leader trajectories of open_loop equal those without coupling. Exact real arithmetic; coinciding arm positions (0/0 in the code) excluded for the dual-arm distance."
 },
 "C43": {
  "note": "zero velocity and pure damping at the desired relative pose, leader and flags, action-reaction, direction of the pull (half turns excluded for orientations), demonstrated relative trajectories, leader arm of open_loop (p_gain = 0) moves as without coupling."
 },
 "C44": {
  "note": "C44_3d (and C44_coupling_2d) need velocity and direction to the obstacle not parallel; C44_head_on_refuted shows that the claim is false head-on: the term accelerates towards the obstacle."
 },
 "C45": {
  "note": "full statement in exact real arithmetic."
 },
 "C48": {
  "note": "refuted: with dt=3/10 and execution_time=1 the last sample is short of the goal, and with execution_time=dt the trajectory never leaves the start. Proved: the goal is reached exactly when the execution time is a whole number N >= 2 of periods."
 },
 "C50": {
  "note": "full statement in exact real arithmetic, times with a positive maximum."
 },
 "C51": {
  "note": "full statement in exact real arithmetic."
 },
 "C52": {
  "note": "C52_hits_target and C52_covariance for a successful call; C52_accepted shows that the call succeeds whenever the prior covariance at t is invertible."
 },
 "C53": {
  "note": "C53_all_via_points for a successful call; C53_accepted: the call succeeds for a positive definite prior and at most n_weights_per_dim pairwise different times; C53_repeated_time_rejected: repeating a time raises LinAlgError."
 },
 "C54": {
  "note": "The velocities are the derivative with respect to the relative time T / max(T) only (C54_relative_time_partial, C54_unit_duration); C54_duration_refuted: for any other duration the statement is false."
 },
 "C55": {
  "note": "refuted: every query and imitate divide the caller's array by its maximum in place (C55_times_overwritten_refuted, C55_changed_refuted, C55_imitate_refuted). C55_queries_repeatable_partial: repeating a query with the overwritten array gives the same result."
 },
 "C56": {
  "note": "EM never fails and keeps the covariance symmetric positive semidefinite and the variance positive, for any number of iterations and any non-empty list of demonstrations."
 },
 "C57": {
  "note": "Proved for any class with storable attributes and for all primitives of the library; refuted for numpy scalars in YAML (imitated ProMP, execution_time=T[-1]), nested tuples in YAML, array stiffness, minimum jerk after a step and stand-alone forcing terms. Nested objects gain attributes 'module' and 'class' when read back."
 },
 "C58": {
  "note": "C58_clipped, C58_in_limits (values in effect after forward), C58_chain_limits; robot description is arbitrary."
 },
 "C59": {
  "note": "rigid result, existence, meaning as composition of the transformations along the path (graph search of pytransform3d is a parameter), composition of joint rotations."
 },
 "C60": {
  "note": "for every behaviour of the solver and the random numbers; also for the local variant."
 },
 "C61": {
  "note": "C61_local_partial (without random restarts) and C61_limits_partial (with random restarts, and first step); C61_local_refuted: with random restarts (default) the interval is not passed to the solver; C61_limits_refuted: without random restarts the joint limits are not passed."
 },
 "C62": {
  "note": "full statement plus triangle inequality and meaning of the error; exact real arithmetic."
 },
 "C63": {
  "note": "The field equals the acceleration of one DMP step up to the explicit difference theorem; equality needs a goal at rest, and the default arguments, goal velocities and obstacles refute the general claim."
 },
 "C71": {
  "note": "holds for earlier calls on the same chain and on chains that move only joints of this chain or joints off its path; C71_other_chain_refuted otherwise: chains of one robot share the joint values."
 },
 "C72": {
  "note": "holds for inverse_with_random_restarts and for inverse_trajectory with initial joint angles and without random restarts; C72_ignored_refuted: otherwise inverse_trajectory drops the argument solver."
 },
 "C65": {
  "note": "D x is proved to be the vector of second differences of x for every length; full column rank and positive definiteness follow for two or more steps. Existence of the Cholesky factor is proved, so the sampling step does not raise. A single step raises ZeroDivisionError (C65_single_step_refuted)."
 },
 "C66": {
  "note": "The code fixes 14 pose and 12 velocity dimensions. MVN (package gmr) is not modelled: the estimate returns the rows passed to from_samples, the propagation takes any list of vectors as sigma points. C66_demonstration goes from a demonstration through packing, unpacking and the open loop."
 },
 "C67": {
  "note": "Both directions, for every pose (positions of length 3, orientation parts of any length >= 1), plus the order of the entries."
 },
 "C73": {
  "note": "The composition order is wrong: X B and T B^-1 instead of B X and B^-1 T. Commanded and reported poses are consistent with each other for every base (C73_round_trip) and correct for a base at the origin (C73_base_at_origin_partial); both claims fail for a shifted base, where also the velocity of a robot at rest is reported as nonzero. PyBullet's transform functions enter as a contract."
 },
 "C74": {
  "note": "PyBullet is an arbitrary state machine. The robot is stopped after a completed run; when step or inverse kinematics raises, the last velocity command stays in force (C74_stopped_refuted)."
 },
 "C75": {
  "note": "All joints and moved links, for every well-formed robot; the base link is stored under a bytes object and cannot be found by its name (C75_base_link_refuted)."
 },
 "C76": {
  "note": "For two or more key frames; with one key frame only the first pose is drawn. The line width is not passed to the frames (C76_line_width_refuted)."
 },
 "C68": {
  "note": "Flocq binary64 model of the time computations. The loop ends for int_dt >= t * 2^-52 and hangs for int_dt < last_t * 2^-54; the grid is exact for exact multiples and exceeds run_t by one step for the decimals 1.1 and 0.1; generate_minimum_jerk misses the goal for 0.7/0.1 and 0.8/0.1. Powers are computed by repeated multiplication. Times are assumed non-negative."
 },
 "C64": {
  "note": "Heap model with array views; the numerical integrators are arbitrary functions of the array contents. Proved for DMP, DMPWithFinalVelocity, CartesianDMP, DualCartesianDMP, the spring-dampers and MinimumJerkTrajectory. False for StateFollowingDMP.step (returns its internal arrays) and for the view returned by get_weights. Coupling terms that keep references to the arrays they are given are not modelled."
 },
 "C79": {
  "note": "configure and imitate store the caller's arrays (or rows of them) as start and goal, so later writes change the object; all other arrays are independent."
 },
 "C77": {
  "note": "Arrays, time step and choice of the file are proved. The returned times are refuted: np.linspace(0, n, n) is spaced n/(n-1), not dt. scipy.io.loadmat is not modelled: the records it returns are the input."
 },
 "C78": {
  "note": "Proved for processes that run one after the other, with a crash at any step. Refuted for concurrent processes: a crash can leave a permanently damaged data set, and the second process fails at the rename."
 },
 "C80": {
  "note": "For one integration step; runs of several steps compose it. Coupling terms are functions of the state (C64 covers those with a state of their own; the dual arm step takes them here too)."
 },
 "C81": {
  "note": "Proved for write_json, character by character, with Python's number formats as a contract (numbers are written as words without brackets and quotes) and file contents limited to bytes. Refuted: the old content is lost as soon as the file is opened, also when the object turns out not to be encodable, and a YAML file cut between two entries can be read as another object without an error."
 },
 "C82": {
  "note": "Proved without a file, for the first call and for repeated calls with the same arguments. Refuted after a call with another data set (the stale trajectories are used) and after an interrupted one (a truncated table is read as a complete one). gmr's sigma points and estimation are contracts."
 },
 "C83": {
  "note": "Proved for data that fit the grid, for given axes and for the exceptions without transpose. Refuted: with transpose one dimension too many is drawn on top of dimension 1 without an error; grids that are not filled to the last row have no time axis at all; fill_between=False without a colour raises for every distribution (matplotlib rejects None as a format string)."
 },
 "C84": {
  "note": "Open3D's add, remove and down-sampling are contracts. Refuted: the callback does not toggle; strokes without a modifier only ever show the geometry, strokes with one only hide it, and a single event can have no effect. Proved instead: what a stroke does after any history."
 },
 "C85": {
  "note": "PyBullet clients are a map from ids to states of any engine. Proved for RH5Simulation and every schedule; refuted for a second UR5Simulation: its commands go to client 0 and its steps to its own client, so its robot never moves with its own steps."
 },
 "C86": {
  "note": "Refuted parts: a joint vector of the wrong length is refused only after the left arm got its command; velocities are not available and the recorded ones are the desired ones; inverse kinematics depends on the history of the chain (at most 50 steps towards the current angles)."
 },
 "C87": {
  "note": "Real arithmetic; pinv by its defining equations, without the rcond threshold."
 },
 "C88": {
  "note": "Real arithmetic; pinv by its defining equations. The divisor of the noise variance is the one of the code (lines 601-602), including the norm of the means that the code itself marks as questionable."
 },
 "C89": {
  "note": "Array-level model of dmp_fast.pyx (M_Cython.v) in which an unchecked access outside an array is a distinct outcome. Proved: memory safety of all objects for any run, exact length condition of the Euler step, refinement of the value-level models used by the other claims (including exceptions). Refuted in one case: the compiled 2D obstacle avoidance reads a second velocity entry of a one-dimensional DMP (C89_obstacle_refuted); C89_obstacle gives the condition under which it is safe."
 },
 "C90": {
  "note": "C90_order and C90_via_points: every permutation gives the same ProMP or the same error, for any covariance as prior and noise (no invertibility assumed). C90_best_estimate: least variance among all linear estimates. C90_bayes: for invertible prior and noise the exponent of prior times likelihood is that of the returned normal distribution plus a constant. C90_row_noise_refuted: via_points with noise in two dimensions returns a covariance that is not symmetric."
 },
 "C91": {
  "note": "Rectangular maps between objects of different dimension; maps may only connect dimensions with the same alpha_y and beta_y. Speed: demonstrations that start at time 0 (others: C17)."
 },
 "C92": {
  "note": "DMP.step without coupling term; the stability conditions are those of C13."
 },
 "C93": {
  "note": "Without coupling terms; gains equal for the three axes; DualCartesianDMP with p_gain = 0 and gains for which the wrong beta_y index (C39) does not matter."
 },
 "C94": {
  "note": "The coupling term is bounded in the dimension concerned for all states it may be called with; during one call of step it is a function of position and velocity. Stability conditions as in C13 and C92. C94_bounded_all_gains and C94_fading_all_gains: all gains and step lengths that satisfy the exact condition of C100 (the Euler integrators divide steps into equal parts); the factor is not explicit. C94_cartesian and C94_cartesian_fading: positions of a CartesianDMP whose step is given measured positions and velocities, without coupling term, under the exact condition of C100; deviations of the orientation are not bounded here. C94_dual (Properties_DualSensed.v): p_gain = 0; the right arm needs equal beta_y entries with smooth scaling (C39). C94_final_velocity, C94_final_velocity_fading: DMPWithFinalVelocity without coupling term. C94_spring, C94_spring_fading: SpringDamper."
 },
 "C95": {
  "note": "Real arithmetic. C95_data and C95_demonstrations: stability conditions as in C13, with an explicit factor. C95_data_all_gains and C95_demonstrations_all_gains: all gains and step lengths that satisfy the exact condition of C100 (the Euler integrators divide steps into equal parts). The factor for demonstrations depends on the times and the regularization coefficient through the pseudo-inverse of the design matrix. Dual: right hand under the condition of C39 on the gains; run_t >= 0."
 },
 "C96": {
  "note": "Real arithmetic. First order in the step length for all integrators; the higher order of Runge-Kutta is not claimed."
 },
 "C97": {
  "note": "Real arithmetic. Euler integrators with one integration step per sample, which evaluate the forces exactly at the recorded times; the other integrators are related to it by C96. The two samples at each end have accelerations that are wrong by a constant, which is why the rate is sqrt(dt)."
 },
 "C98": {
  "note": "False in general (C98_same_results_refuted, C98_integer_demonstration_refuted). Proved: the region in which dtypes make no difference, which exception every integrator raises outside of it, what is learned from integer demonstrations, and that integer orientations are lost."
 },
 "C99": {
  "note": "Both Runge-Kutta integrators, operation by operation in IEEE binary64, against the real-number model used in all other claims. Hypotheses: critically damped gains beta = alpha / 4 (the defaults), start time 0 (always so in DMP), no coupling term, tracking error or smooth scaling, magnitudes between 2^-100 and 2^100. The accuracy of the C library (exp in the forces, pow) is a parameter of the theorem, and fused multiply-add is not modelled."
 },
 "C100": {
  "note": "C100_reaches_goal (sufficient, all gains and weights), C100_exact (also necessary, zero weights and positive gains), C100_euler_limit and C100_rk4_limit (the conditions as inequalities; the latter for springs that do not oscillate), C100_default_gains (numbers for the default gains), C100_spring_damper (both directions). For the Euler integrators the step must be divided into equal parts (dt <= int_dt or a multiple of int_dt); C13 and C92 cover the rest for critically damped gains. Reals for floats."
 },
 "C101": {
  "note": "Real numbers for floats; the reproduction bound is for dt = tau / N <= int_dt. numpy broadcasting of a demonstration with two times and another number of rows is not modelled."
 },
 "C102": {
  "note": "The place of rest, the weighted sum, the leader and the limits of the step length are proved for all four integrators (the Euler integrators for steps that are divided into equal parts, except for the weighted sum, which needs no such condition). C102_exact shows that the limit is necessary for the compiled Euler integrator. C102_step_length_refuted: the velocity part of the coupling term is not multiplied by the step length, so the place of rest changes with int_dt. C102_velocity_refuted: the Runge-Kutta integrators (and the Python Euler integrator) add the velocity part after the position update, so the reported velocity does not tend to zero although the positions do not change."
 },
 "C103": {
  "note": "S_Attributes.v holds the table of attributes and calls. Frame theorems for every class, histories for DMP, constructors for all classes."
 },
 "C104": {
  "note": "Carries C95, C96 and C97 over to the positions of CartesianDMP. The position_part relation is the one of C37. The constants are existential; the order of the error is one for all step functions."
 },
 "C105": {
  "note": "C105_fourth_order_ahead bounds the error with respect to the equation whose forcing term runs ahead by one step; C105_fourth_order_unforced is the full claim for DMPs without forcing; C105_first_order_refuted gives a lower bound proportional to the time step for the DMP's own equation, so the claim is false in general."
 },
 "C106": {
  "note": "C106_frames is the full statement. S_Frames.v defines the changed poses and demonstrations."
 },
 "C107": {
  "note": "Proved for rotations, reflections and units of time (C107_learning, C107_new, C107_queries, C107_conditioning, C107_via_points, C107_weights) and for shifts of queries (C107_shifted_queries). Refuted for shifts of demonstrations (C107_shift_refuted)."
 },
 "C108": {
  "note": "Refuted (C108_less_likely_refuted): the logarithm of the likelihood of each demonstration drops by more than 0.1 from n_iter=0 to n_iter=1. C88 states what an iteration computes for all demonstrations."
 },
 "C109": {
  "note": "C109_poses is the full statement, C109_orientations the part about orientations; C109_angular_velocity shows that the specification's rate of a quaternion is the velocity of the turned vectors. S_Turning.v defines turning motions and the required forcing term."
 },
 "C110": {
  "note": "C110_arm_learns_alone constructs the CartesianDMP of an arm through its own constructor, configure and set_weights and shows that learning and playback agree; C110_poses (with C109) and C110_frames (with C106) are the consequences; C110_always_learns: imitate never raises for a demonstration of the right shape."
 },
 "C111": {
  "note": "Energy argument over all integrators. The condition on gamma is needed because the term accelerates a movement that heads exactly at the obstacle (C44_head_on_refuted). C111_reaches_goal is for every coupling term that steers, C111_obstacle_2d and C111_obstacle_3d show that the terms of the library do, C111_no_power is for terms without power. C111_cartesian and C111_cartesian_obstacle are the same for the positions of a CartesianDMP, whatever the orientation part of the coupling term returns (the model takes the two calls of the coupling term, with positions and with orientations, as two functions)."
 },
 "C112": {
  "note": "C112_last_viapoint_refuted shows that the movement does not end at the last via-point (place of rest between 0.93 and 0.96 for via-points 0, 1); C112_near_last bounds the distance. No coupling term."
 },
 "C113": {
  "note": "No coupling term. The bound K exists for step lengths below the limit of C112."
 },
 "C114": {
  "note": "The duration is execution_time - dt (C47). The limits hold for all execution times, also for those that are no multiple of dt and for those below 2*dt, where nothing moves. The mirror symmetry is stated for execution times of N >= 2 whole periods. C114_histories compares two objects call by call: related results or the same exception."
 },
 "C115": {
  "note": "smooth_scaling must be off: with it the start pulls in the beginning of the movement. C115_long_step shows that the limit of the step length is needed. The default settings meet it (C115_satisfiable). Dual: right hand under the condition of C39 on the gains; run_t >= 0."
 },
 "C116": {
  "note": "All dimensions share stiffness and damping, so every affine map is allowed. A coupling term corresponds to another one if its velocity part transforms like a velocity and its acceleration part like an acceleration; the velocity part is added without the factor dt in the code, which fits this. A length-1 state that step would broadcast to another number of dimensions is not compared."
 },
 "C117": {
  "note": "Without the optional text. The inverse kinematics itself is PyBullet's and a parameter of the model."
 },
 "C118": {
  "note": "A distribution is any functional that gives linear combinations of the weights their mean and pairs of them their covariance. numpy's generator of random numbers is not modelled: the drawn weights are an argument."
 },
 "C119": {
  "note": "The existence of the solution is assumed (C119_satisfiable gives a nontrivial one on every interval); uniqueness is proved. The term 1e-7 is the resolution of the quaternion logarithms of both implementations. Real arithmetic."
 },
 "C120": {
  "note": "The last sentence is refuted: the scale of the arrows is computed from the accelerations after they were multiplied by exaggerate_arrows, so the factor cancels out and never changes the plot (C120_exaggeration_refuted). The rest holds when some acceleration on the grid is not zero (otherwise the scale is zero). That an arrow has the length u / scale is matplotlib's documented meaning of scale."
 },
 "C121": {
  "note": "Orientations: solutions that keep away from the orientation upside down to the goal, and c other than 0."
 },
 "C122": {
  "note": "Without tracking error feedback, with the execution time at which the forcing term was made; the right hand needs equal beta_y entries with smooth scaling (C39); orientations: solutions that keep away from the orientation upside down to the goal."
 },
 "C123": {
  "note": "Without coupling term. The error constant depends on the equation and the length of the interval, not on dt, int_dt, the object's other dimensions or its history."
 },
 "C124": {
  "note": "Coupling terms are functions of position and velocity."
 },
 "C125": {
  "note": "docstring of DMP: smooth_scaling 'Avoids jumps during the beginning of DMP execution when the goal is changed'. C125_cartesian and C125_cartesian_jump: positions of CartesianDMP, for runs that succeed (C69 says which do); the orientations of a CartesianDMP are not covered. Dual: right hand under the condition of C39 on the gains; run_t >= 0."
 },
 "C126": {
  "note": "C126_clock, C126_in_time, C126_offset_position and C126_between hold; the dt of the movement, rotations in the offset and signs of quaternions are refuted."
 },
 "C127": {
  "note": "Exact equality of all results over the reals for the five classes (C127_dmp, C127_final_velocity, C127_cartesian, C127_dual, C127_state_following). C127_attributes_refuted: the width of a single via-point is never written; its value cancels in the normalised activation over the reals (with floating point an infinite or NaN content would not). Arrays that the code fills completely in one vectorised statement or loop over all rows are modelled by their final content."
 },
 "C128": {
  "note": "gmr's MVN is not in the repository; its contract (the sigma points, with weights that depend on the number of features, reproduce mean and covariance of the samples; estimate_from_sigma_points uses the same weights) is the hypothesis keeps_contract in S_StateSpace.v. Orientations are not covered: they depend on the parameters nonlinearly."
 },
 "C129": {
  "note": "From C15_minimiser applied to one output at a time and from C95 for the movement."
 },
 "C130": {
  "note": "The file is the tree that json.load or yaml.load returns. The table `documented` in Properties_IOFiles.v lists the defaults."
 },
 "C131": {
  "note": "K is not computed. Euler steps must be divided into equal parts (dt <= int_dt or a multiple), as in C100. Dual: right hand under the condition of C39 on the gains; run_t >= 0. SpringDamper: repeated steps without coupling term.  Properties_SpringSettle.v: open_loop and settling times of SpringDamper.  Properties_FinalVelocityRate.v: DMPWithFinalVelocity after its execution time.  Properties_Settle.v: settling times of DMPs."
 },
 "C132": {
  "note": "The theorems for the single classes are in real arithmetic; C132_double_precision says the same bit for bit in double precision for times and rows of dmp_open_loop, for ordinary sizes of dt and run_t."
 },
 "C133": {
  "note": "Reals instead of floats. With smooth scaling the goals have to be bounded; Euler needs substeps of equal length (as in C100). C133_cartesian (Properties_CartesianMoving.v) is the statement for CartesianDMP. C133_dual (Properties_DualMoving.v): p_gain = 0; the right arm needs equal beta_y entries with smooth scaling (C39). C133_final_velocity: DMPWithFinalVelocity (fv_chase); after the execution time its steps are the Euler steps of a DMP without smooth scaling (late_step)."
 },
 "C134": {
  "note": "Reals instead of floats; open_loop without a coupling term. The positions of a CartesianDMP blend as well, whatever the orientations of the demonstrations are (C134_cartesian). Dual: right hand under the condition of C39 on the gains; run_t >= 0."
 },
 "C135": {
  "note": "Reals instead of floats."
 },
 "C136": {
  "note": "For two arms, gains must be equal in all 12 dimensions (the default) and p_gain = 0. The coupling terms for positions of a DMP have a desired displacement in world coordinates; for them it is mapped, too (any linear map)."
 },
 "C137": {
  "note": "Not stated for CouplingTermDualCartesianPose and CouplingTermDualCartesianTrajectory: they measure the error in the frame of the left arm, so they are not meant to be symmetric. Gains must be equal in all 12 dimensions (the default) and p_gain = 0."
 },
 "C138": {
  "note": "Noise given as one row counts if the matrix numpy broadcasts it to is a covariance (see C90_row_noise_refuted)."
 },
 "C139": {
  "note": "Properties_Separate.v. Errors given as a row (as via_points does for y_conditional_cov) are repeated by numpy for every component and are therefore correlated unless they are zero: C90_row_noise_refuted shows the consequence."
 },
 "C140": {
  "note": "Euler integrators divide steps into equal parts (as in C100). With smooth_scaling the goals must stay bounded, hence D = 0. Coupling terms are not used. For CartesianDMP positions only. C140_dual_* (Properties_DualMoving.v): p_gain = 0. SpringDamper: C140_spring_* (Properties_PaceSpring.v). C140_final_velocity: DMPWithFinalVelocity."
 },
 "C141": {
  "note": "Euler integrators divide steps into equal parts (as in C100). With smooth_scaling the goals must stay bounded. Coupling terms are not used.  C141_final_velocity*: DMPWithFinalVelocity.  C141_springs*: SpringDamper, with the stability limit of the Euler steps (C46).  C141_cartesian*: positions of CartesianDMP.  C141_dual*: DualCartesianDMP, for hands that the wrong gain index of C39 does not disturb (as in C133_dual)."
 },
 "C142": {
  "note": "Euler integrators divide steps into equal parts (as in C100). With smooth_scaling the goals must stay bounded. Coupling terms are not used.  C142_final_velocity, C142_cartesian, C142_dual (hands that the wrong gain index of C39 does not disturb), C142_springs."
 }
}