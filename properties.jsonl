{"id": "C01", "title": "Phase of the canonical system", "statement": "With alpha = canonical_system_alpha(goal_z, goal_t, start_t), phase(t) is 1 at start_t, exactly goal_z at goal_t, always positive, strictly decreasing in t when goal_z < 1, solves tau*z' = -alpha*z, and tends to 0. canonical_system_alpha raises ValueError exactly when goal_z <= 0 or start_t >= goal_t.", "quantifier": "all real goal_z, start_t, goal_t, t", "why_tests_cant": "monotonicity and the limit range over a continuum of times and of parameters", "anchors": ["movement_primitives/dmp/_canonical_system.py:canonical_system_alpha", "movement_primitives/dmp/_canonical_system.py:phase"]}
{"id": "C02", "title": "Forcing-term basis functions are well formed", "statement": "ForcingTerm(...) raises ValueError exactly when n_weights_per_dim <= 1, start_t >= goal_t or overlap <= 0; otherwise every entry of centers and widths is initialised. For start_t = 0, 0 < overlap < 1 and alpha_z > 0 the centers decrease strictly from 1 to the phase at goal_t, every width is positive, and basis function i has the unnormalised value overlap at centre i+1.", "quantifier": "all numbers of weights, goal times, overlaps and alpha_z", "why_tests_cant": "the number of basis functions is unbounded and the parameters are real", "anchors": ["movement_primitives/dmp/_forcing_term.py:ForcingTerm.__init__", "movement_primitives/dmp/_forcing_term.py:ForcingTerm._init_rbfs"]}
{"id": "C03", "title": "Activations are a partition of unity", "statement": "For every phase value the normalised activations are strictly positive and sum to one, so no query of a forcing term divides by zero.", "quantifier": "all forcing terms (any centers and widths, at least one basis function) and all phase values", "why_tests_cant": "ranges over all real phases and all parameterisations", "anchors": ["movement_primitives/dmp/_forcing_term.py:ForcingTerm._activations", "movement_primitives/dmp/_state_following_dmp.py:StateFollowingForcingTerm._activations"]}
{"id": "C04", "title": "Forcing term is linear in the weights, bounded by the phase, and vanishes", "statement": "forcing_term(z) is linear in weights_, its magnitude in dimension d is at most |z| * max_i |w_di|, it is zero for zero weights, and forcing_term(phase(t)) tends to 0 as t grows.", "quantifier": "all weights, phases, and times", "why_tests_cant": "an inequality over a continuum and a limit", "anchors": ["movement_primitives/dmp/_forcing_term.py:ForcingTerm.forcing_term"]}
{"id": "C05", "title": "Basis of a shifted time interval", "statement": "A forcing term built for [s, s+tau] is the time-shifted copy of the one built for [0, tau]: same centers and widths.", "quantifier": "all start times s, durations tau, weights", "why_tests_cant": "tests build forcing terms at start time 0 only", "anchors": ["movement_primitives/dmp/_forcing_term.py:ForcingTerm._init_rbfs", "movement_primitives/dmp/_dmp.py:dmp_imitate"]}
{"id": "C06", "title": "RK4 step is the textbook RK4 step of the DMP equation", "statement": "dmp_step_rk4(last_t, t, y, yd, ...) applies the classical fourth-order Runge-Kutta formula with step t - last_t to the first-order form of tau^2 y'' = alpha(beta(g-y) - tau y' - smoothing) + f + c, for any forcing and any coupling acceleration.", "quantifier": "all states, gains, goals, weights, step lengths, coupling terms", "why_tests_cant": "a test can only compare a handful of steps within a tolerance", "anchors": ["movement_primitives/dmp/_dmp.py:dmp_step_rk4", "movement_primitives/dmp/_dmp.py:_dmp_acc"]}
{"id": "C07", "title": "RK4 samples the forcing term inside the step interval", "statement": "When a DMP is stepped from last_t to t with RK4, the forcing term is evaluated at times within [last_t, t].", "quantifier": "all steps", "why_tests_cant": "the shift is invisible within test tolerances for small dt", "anchors": ["movement_primitives/dmp/_dmp.py:dmp_step_rk4", "movement_primitives/dmp_fast.pyx:dmp_step_rk4"]}
{"id": "C08", "title": "Python and Cython RK4 steps agree", "statement": "For every input, including coupling terms, precomputed coupling and tracking error, dmp_step_rk4 and dmp_step_rk4_cython leave the same position and velocity.", "quantifier": "all inputs of the step function", "why_tests_cant": "equivalence for every state, gain, weight and coupling function", "anchors": ["movement_primitives/dmp/_dmp.py:dmp_step_rk4", "movement_primitives/dmp_fast.pyx:dmp_step_rk4"]}
{"id": "C09", "title": "Python and Cython Euler steps agree", "statement": "For every input, dmp_step_euler and its Cython counterpart leave the same position and velocity.", "quantifier": "all inputs of the step function", "why_tests_cant": "equivalence over all inputs; tests compare a few runs without coupling velocity", "anchors": ["movement_primitives/dmp/_dmp.py:dmp_step_euler", "movement_primitives/dmp_fast.pyx:dmp_step"]}
{"id": "C10", "title": "Temporal scaling", "statement": "Scaling execution_time, dt and int_dt of a DMP by the same factor s > 0 leaves the generated positions at every step unchanged and divides velocities by s; in particular changing execution_time_ keeps weights, centers and widths.", "quantifier": "all DMPs, all s > 0, every number of steps, both integrators", "why_tests_cant": "an exact invariance over all runs of unbounded length", "anchors": ["movement_primitives/dmp/_dmp.py:DMP.set_execution_time_", "movement_primitives/dmp/_dmp.py:dmp_open_loop"]}
{"id": "C11", "title": "Spatial equivariance", "statement": "Adding the same offset to start and goal adds it to every generated position and leaves velocities unchanged; scaling start, goal and weights by c scales every position by c; the generated trajectory is affine in (start, goal, weights).", "quantifier": "all DMPs, offsets, factors, numbers of steps, both integrators", "why_tests_cant": "an exact invariance over all runs of unbounded length", "anchors": ["movement_primitives/dmp/_dmp.py:dmp_open_loop", "movement_primitives/dmp/_dmp.py:dmp_step_rk4", "movement_primitives/dmp/_dmp.py:dmp_step_euler"]}
{"id": "C12", "title": "Goal is an equilibrium", "statement": "A DMP with zero weights that is at its goal with zero velocity stays there forever, with RK4 or Euler; with smooth scaling this holds when start and goal coincide.", "quantifier": "all gains, goals, step sizes, numbers of steps", "why_tests_cant": "must hold after any number of steps", "anchors": ["movement_primitives/dmp/_dmp.py:dmp_step_rk4", "movement_primitives/dmp/_dmp.py:dmp_step_euler"]}
{"id": "C13", "title": "Convergence to the goal", "statement": "For critically damped gains (alpha = 4 beta) and a step size inside the stability region of the integrator, the position generated by a DMP tends to the goal and the velocity to zero as time grows, for every weight matrix, start state and goal.", "quantifier": "all weights, starts, goals, dimensions, step sizes in the stated range; limit over the number of steps", "why_tests_cant": "a limit statement; tests only look at one finite run", "anchors": ["movement_primitives/dmp/_dmp.py:dmp_open_loop", "movement_primitives/dmp/_dmp.py:dmp_step_rk4", "movement_primitives/dmp/_dmp.py:dmp_step_euler"]}
{"id": "C14", "title": "Imitation inverts the transformation system", "statement": "If the forcing term produced exactly the forces computed by imitate, the DMP acceleration at every demonstrated state (position and velocity) would be exactly the demonstrated acceleration, with and without smooth scaling.", "quantifier": "all demonstrations, gains, numbers of steps", "why_tests_cant": "must hold for every demonstration of every length", "anchors": ["movement_primitives/dmp/_dmp.py:determine_forces", "movement_primitives/dmp/_dmp.py:_dmp_acc"]}
{"id": "C15", "title": "Ridge regression returns a minimiser", "statement": "ridge_regression(X, Y, lam) with lam >= 0 minimises ||Y - X^T W^T||^2 + lam ||W||^2 over all weight matrices, and it is the unique minimiser when lam > 0; when the targets are exactly representable and lam = 0 they are reproduced exactly.", "quantifier": "all feature matrices, targets, coefficients and competitor weights", "why_tests_cant": "optimality ranges over all competitors", "anchors": ["movement_primitives/dmp/_dmp.py:ridge_regression", "movement_primitives/promp.py:ProMP.weights"]}
{"id": "C16", "title": "Imitation endpoints and rejected arguments", "statement": "imitate(T, Y) sets start_y to Y[0] and goal_y to Y[-1], assumes zero final velocity unless allowed and zero final acceleration, and raises ValueError for a negative regularisation coefficient without changing the DMP.", "quantifier": "all demonstrations with at least two steps", "why_tests_cant": "all demonstrations and failure paths", "anchors": ["movement_primitives/dmp/_dmp.py:DMP.imitate", "movement_primitives/dmp/_dmp.py:dmp_imitate", "movement_primitives/dmp/_dmp.py:determine_forces"]}
{"id": "C17", "title": "Imitation does not depend on the time origin", "statement": "imitate(T + c, Y) learns the same weights as imitate(T, Y).", "quantifier": "all demonstrations and offsets c", "why_tests_cant": "tests use demonstrations that start at time 0", "anchors": ["movement_primitives/dmp/_dmp.py:dmp_imitate", "movement_primitives/dmp/_forcing_term.py:ForcingTerm"]}
{"id": "C18", "title": "open_loop equals repeated step", "statement": "Calling step repeatedly from a reset DMP, feeding back the returned state, produces the same positions as open_loop, at every step.", "quantifier": "all DMPs, numbers of steps and integrators", "why_tests_cant": "induction over runs of any length", "anchors": ["movement_primitives/dmp/_dmp.py:DMP.open_loop", "movement_primitives/dmp/_dmp.py:DMP.step", "movement_primitives/base.py:PointToPointMovement.n_steps_open_loop"]}
{"id": "C19", "title": "Time grid of open_loop", "statement": "open_loop(run_t) returns times 0, dt, 2dt, ..., whose last entry T[-1] satisfies run_t <= T[-1] < run_t + dt, together with one position per time, the first of which is start_y.", "quantifier": "all run times and step sizes", "why_tests_cant": "all real run times and step sizes", "anchors": ["movement_primitives/dmp/_dmp.py:dmp_open_loop", "movement_primitives/dmp/_cartesian_dmp.py:dmp_open_loop_quaternion", "movement_primitives/spring_damper.py:spring_damper_open_loop"]}
{"id": "C20", "title": "Integration sub-steps tile the step interval", "statement": "The internal Euler loop from last_t to t uses positive sub-steps of at most int_dt that add up to exactly t - last_t, and it terminates for every int_dt > 0.", "quantifier": "all last_t < t and int_dt > 0", "why_tests_cant": "termination and exact tiling for every real step", "anchors": ["movement_primitives/dmp/_dmp.py:dmp_step_euler", "movement_primitives/dmp/_cartesian_dmp.py:dmp_step_quaternion_python", "movement_primitives/dmp/_dual_cartesian_dmp.py:dmp_step_dual_cartesian_python", "movement_primitives/spring_damper.py:spring_damper_step"]}
{"id": "C21", "title": "Feedback only enters through the tracking-error gain", "statement": "With p_gain = 0 the result of DMP.step does not depend on the passed last_y and last_yd; with any gain it never depends on last_yd. With a gain, one integration step from a passed position other than the DMP's own one changes the velocity by p_gain * (own - passed) / execution_time^2 (DMP and DMPWithFinalVelocity), and for DualCartesianDMP the angular velocities by p_gain / execution_time^2 times the rotation vector from the passed to the own orientation.", "quantifier": "all DMP histories and all passed states", "why_tests_cant": "quantifies over all histories and inputs", "anchors": ["movement_primitives/dmp/_dmp.py:DMP.step", "movement_primitives/dmp/_dmp_with_final_velocity.py:DMPWithFinalVelocity.step", "movement_primitives/dmp/_dual_cartesian_dmp.py:DualCartesianDMP.step"]}
{"id": "C22", "title": "reset makes a DMP forget its history", "statement": "After reset, the results of later steps are those of a DMP that has just been configured with the current start, goal and weights, whatever was executed before.", "quantifier": "all histories of configure, step, open_loop, imitate, set_weights calls before and after the reset", "why_tests_cant": "quantifies over call histories of any length", "anchors": ["movement_primitives/dmp/_base.py:DMPBase.reset", "movement_primitives/dmp/_dmp.py:DMP.step"]}
{"id": "C23", "title": "configure validates lengths and keeps shapes consistent", "statement": "configure raises ValueError exactly when some given array has the wrong length; in every reachable state all start, goal and current arrays have the dimension announced at construction, even after a failed call.", "quantifier": "all histories of calls with arbitrary arguments", "why_tests_cant": "invariant over all call histories including failing calls", "anchors": ["movement_primitives/base.py:PointToPointMovement.configure", "movement_primitives/utils.py:check_1d_array_length"]}
{"id": "C24", "title": "configure is all or nothing", "statement": "If configure raises, the object is unchanged.", "quantifier": "all objects and arguments", "why_tests_cant": "needs every combination of valid and invalid arguments", "anchors": ["movement_primitives/base.py:PointToPointMovement.configure"]}
{"id": "C25", "title": "Gain arguments are broadcast or rejected", "statement": "ensure_1d_array(v, n) returns n copies of a scalar or one-element vector, returns a vector of length n unchanged, and raises ValueError for everything else.", "quantifier": "all nested array shapes and all n", "why_tests_cant": "ranges over all array shapes", "anchors": ["movement_primitives/utils.py:ensure_1d_array"]}
{"id": "C26", "title": "Weight vectors round-trip", "statement": "set_weights(get_weights()) changes nothing; after set_weights(w) with w of length n_weights, get_weights() returns w; a vector of any other length raises ValueError and changes nothing.", "quantifier": "all weight matrices and vectors", "why_tests_cant": "all shapes and values", "anchors": ["movement_primitives/dmp/_base.py:WeightParametersMixin"]}
{"id": "C27", "title": "Cartesian weight vectors round-trip and wrong lengths are rejected", "statement": "CartesianDMP.set_weights(w) followed by get_weights() returns w for every w of length n_weights and every other length raises ValueError.", "quantifier": "all weight vectors of all lengths", "why_tests_cant": "all lengths of vectors", "anchors": ["movement_primitives/dmp/_cartesian_dmp.py:CartesianDMP.set_weights", "movement_primitives/dmp/_cartesian_dmp.py:CartesianDMP.get_weights"]}
{"id": "C28", "title": "Changing the execution time", "statement": "Assigning execution_time_ keeps the weights and changes the goal time of the phase, and nothing else; an invalid value raises ValueError and leaves the DMP usable as before. The same for CartesianDMP (both forcing terms) and DualCartesianDMP.", "quantifier": "all DMPs and values", "why_tests_cant": "all values, including failing ones, in all states", "anchors": ["movement_primitives/dmp/_dmp.py:DMP.set_execution_time_", "movement_primitives/dmp/_dmp.py:DMP._init_forcing_term", "movement_primitives/dmp/_cartesian_dmp.py:CartesianDMP.set_execution_time_", "movement_primitives/dmp/_dual_cartesian_dmp.py:DualCartesianDMP.set_execution_time_"]}
{"id": "C29", "title": "Quintic boundary conditions of DMPWithFinalVelocity", "statement": "The goal trajectory used by DMPWithFinalVelocity takes the configured start position, velocity and acceleration at start_t and the configured goal position, velocity and acceleration at goal_t, for every start_t < goal_t; it is the only polynomial of degree five that does, its reported derivatives are its derivatives, after goal_t (plus one machine epsilon) the reference rests at goal_y, and start_t = goal_t is rejected.", "quantifier": "all boundary values and times", "why_tests_cant": "an identity over a continuum of boundary values and times", "anchors": ["movement_primitives/dmp/_dmp_with_final_velocity.py:solve_constraints", "movement_primitives/dmp/_dmp_with_final_velocity.py:apply_constraints"]}
{"id": "C30", "title": "Imitation with final velocity inverts the transformation system", "statement": "For DMPWithFinalVelocity, the forces computed by imitate produce exactly the demonstrated acceleration at every demonstrated state.", "quantifier": "all demonstrations, gains, numbers of steps", "why_tests_cant": "must hold for every demonstration", "anchors": ["movement_primitives/dmp/_dmp_with_final_velocity.py:determine_forces", "movement_primitives/dmp/_dmp_with_final_velocity.py:dmp_step_euler_with_constraints"]}
{"id": "C31", "title": "State-following DMP attractor", "statement": "StateFollowingDMP: activations are positive and sum to one, so the acceleration is that of a single spring-damper towards a convex combination of the via-points; if all via-points coincide, that point is an equilibrium; the constructor initialises every width.", "quantifier": "all via-points, spring constants, phases and numbers of via-points >= 1", "why_tests_cant": "all sizes and real parameters", "anchors": ["movement_primitives/dmp/_state_following_dmp.py:StateFollowingForcingTerm", "movement_primitives/dmp/_state_following_dmp.py:state_following_dmp_step"]}
{"id": "C32", "title": "Quaternion algebra", "statement": "Quaternion concatenation is associative, multiplies norms, has the conjugate as inverse of unit quaternions; the exponential of any rotation vector is a unit quaternion; the logarithm of a unit quaternion has length at most pi, exp(log q) is q or -q, log(exp a) = a for |a| < pi, and log(-q) = log(q) unless the rotation angle is pi. Rotations whose quaternion has a vector part below the implementation's threshold (1e-7 in Python, 1e-16 in Cython) have logarithm zero. The Python and Cython implementations agree away from these thresholds.", "quantifier": "all quaternions and rotation vectors", "why_tests_cant": "algebraic and transcendental identities over all unit quaternions", "anchors": ["movement_primitives/dmp_fast.pyx:concatenate_quaternions", "movement_primitives/dmp_fast.pyx:quaternion_from_compact_axis_angle", "movement_primitives/dmp_fast.pyx:compact_axis_angle_from_quaternion"]}
{"id": "C33", "title": "Orientations stay unit quaternions", "statement": "Every orientation produced by CartesianDMP, DualCartesianDMP and SpringDamperOrientation from a unit start orientation is a unit quaternion, after any number of steps, for any weights, gains, goals, and coupling terms.", "quantifier": "all runs of any length", "why_tests_cant": "invariant over unbounded runs", "anchors": ["movement_primitives/dmp/_cartesian_dmp.py:dmp_step_quaternion_python", "movement_primitives/dmp_fast.pyx:dmp_step_quaternion", "movement_primitives/spring_damper.py:spring_damper_step_quaternion"]}
{"id": "C34", "title": "Orientation DMP is equivariant and blind to the double cover", "statement": "Multiplying start, goal and current orientation from the right (a change of the body frame) or from the left (a change of the world frame) by a fixed rotation multiplies every generated orientation in the same way; replacing the goal q by -q does not change the generated motion unless a relative rotation of exactly pi is met.", "quantifier": "all runs, weights, gains, rotations", "why_tests_cant": "exact invariance over unbounded runs", "anchors": ["movement_primitives/dmp/_cartesian_dmp.py:dmp_open_loop_quaternion", "movement_primitives/dmp/_cartesian_dmp.py:dmp_step_quaternion_python"]}
{"id": "C35", "title": "Orientation goal is an equilibrium", "statement": "An orientation DMP with zero weights at its goal orientation with zero angular velocity stays there forever, with and without smooth scaling.", "quantifier": "all unit goals, gains, step sizes, numbers of steps", "why_tests_cant": "must hold after any number of steps", "anchors": ["movement_primitives/dmp/_cartesian_dmp.py:dmp_step_quaternion_python"]}
{"id": "C36", "title": "Orientation imitation inverts the transformation system", "statement": "The forces computed by CartesianDMP.imitate for the orientation produce exactly the demonstrated angular acceleration at every demonstrated orientation and angular velocity.", "quantifier": "all demonstrations", "why_tests_cant": "must hold for every demonstration", "anchors": ["movement_primitives/dmp/_cartesian_dmp.py:determine_forces_quaternion", "movement_primitives/dmp/_cartesian_dmp.py:dmp_step_quaternion_python"]}
{"id": "C37", "title": "Position and orientation of a CartesianDMP do not interact", "statement": "Without coupling, the position part of CartesianDMP.step and open_loop is exactly that of a three-dimensional DMP and does not depend on orientation weights or state, and vice versa; step depends on the object only through its time and parameters, not on earlier states.", "quantifier": "all runs, weights and histories", "why_tests_cant": "non-interference over all runs", "anchors": ["movement_primitives/dmp/_cartesian_dmp.py:CartesianDMP.step", "movement_primitives/dmp/_cartesian_dmp.py:CartesianDMP.open_loop"]}
{"id": "C38", "title": "Arms of a DualCartesianDMP do not interact without coupling", "statement": "Without coupling term the motion of one arm does not depend on start, goal, weights, gains or state of the other arm.", "quantifier": "all runs and parameters", "why_tests_cant": "non-interference over all runs", "anchors": ["movement_primitives/dmp/_dual_cartesian_dmp.py:dmp_step_dual_cartesian_python"]}
{"id": "C39", "title": "Each arm of a DualCartesianDMP is a CartesianDMP", "statement": "Without coupling and tracking-error feedback, each arm of a DualCartesianDMP moves exactly like a CartesianDMP with the gains, weights, start and goal of that arm (entries 0:7 / 7:14 of the pose, 0:6 / 6:12 of gains and weights), and imitate gives each arm the weights, start and goal that CartesianDMP.imitate computes from the columns of that arm.", "quantifier": "all gain vectors of length 12, weights, starts, goals, step sizes, numbers of steps, both arms, both implementations", "why_tests_cant": "tests use uniform gains and single trajectories", "anchors": ["movement_primitives/dmp/_dual_cartesian_dmp.py:dmp_step_dual_cartesian_python", "movement_primitives/dmp_fast.pyx:dmp_step_dual_cartesian"]}
{"id": "C40", "title": "Python and Cython orientation and dual-arm steps agree", "statement": "For every input the Python and the Cython implementation of the orientation step and of the dual-arm step give the same state.", "quantifier": "all inputs, including p_gain != 0 and coupling", "why_tests_cant": "equivalence over all inputs", "anchors": ["movement_primitives/dmp/_dual_cartesian_dmp.py:dmp_step_dual_cartesian_python", "movement_primitives/dmp_fast.pyx:dmp_step_dual_cartesian"]}
{"id": "C41", "title": "open_loop can be repeated", "statement": "Calling open_loop twice in a row on the same object returns the same trajectory.", "quantifier": "all objects, histories and run times", "why_tests_cant": "quantifies over all histories", "anchors": ["movement_primitives/dmp/_dual_cartesian_dmp.py:DualCartesianDMP.open_loop", "movement_primitives/dmp/_dmp.py:DMP.open_loop", "movement_primitives/dmp/_coupling_terms.py:CouplingTermDualCartesianTrajectory"]}
{"id": "C42", "title": "Distance coupling terms", "statement": "The position coupling terms of two one-dimensional or three-dimensional systems vanish exactly when the systems have the desired offset (for positive gains), are equal and opposite when both follow, leave a pure leader (lf = 0) untouched, and always push towards the desired offset.", "quantifier": "all states, gains, offsets, leader-follower flags", "why_tests_cant": "all real states and gains", "anchors": ["movement_primitives/dmp/_coupling_terms.py:CouplingTermPos1DToPos1D", "movement_primitives/dmp/_coupling_terms.py:CouplingTermPos3DToPos3D", "movement_primitives/dmp/_coupling_terms.py:CouplingTermDualCartesianDistance"]}
{"id": "C43", "title": "Dual-arm pose coupling", "statement": "CouplingTermDualCartesianPose contributes zero velocity when the relative pose of the arms is the desired one, contributes nothing to a pure leader, and contributes nothing to position (orientation) when couple_position (couple_orientation) is off.", "quantifier": "all poses, gains and flags", "why_tests_cant": "all rigid poses", "anchors": ["movement_primitives/dmp/_coupling_terms.py:CouplingTermDualCartesianPose", "movement_primitives/dmp/_coupling_terms.py:CouplingTermDualCartesianTrajectory"]}
{"id": "C44", "title": "Obstacle avoidance does no work and steers away", "statement": "The acceleration of the 2D and 3D obstacle avoidance terms is perpendicular to the velocity, never points towards the obstacle, is zero for zero velocity, and is at most gamma*|yd|/(e*beta); the arccos argument is always in (-1, 1).", "quantifier": "all positions, velocities, obstacle positions, gamma, beta > 0", "why_tests_cant": "all real states", "anchors": ["movement_primitives/dmp/_coupling_terms.py:obstacle_avoidance_acceleration_2d", "movement_primitives/dmp/_coupling_terms.py:obstacle_avoidance_acceleration_3d", "movement_primitives/dmp_fast.pyx:obstacle_avoidance_acceleration_2d"]}
{"id": "C45", "title": "2D obstacle avoidance is the planar case of 3D", "statement": "For states in the plane z = 0 the 3D obstacle avoidance acceleration equals the 2D one with zero third component, and the Cython and Python implementations agree.", "quantifier": "all planar states", "why_tests_cant": "all real states", "anchors": ["movement_primitives/dmp/_coupling_terms.py:obstacle_avoidance_acceleration_2d", "movement_primitives/dmp/_coupling_terms.py:obstacle_avoidance_acceleration_3d", "movement_primitives/dmp_fast.pyx:obstacle_avoidance_acceleration_2d"]}
{"id": "C46", "title": "Spring-damper converges to its goal", "statement": "SpringDamper with k > 0 and default damping converges to the goal with zero velocity from every start state when int_dt*sqrt(k) <= 1/2; the goal is an equilibrium and the motion is translation equivariant; SpringDamperOrientation keeps its goal as equilibrium.", "quantifier": "all k, goals, starts, step sizes in range, numbers of steps", "why_tests_cant": "a limit statement over unbounded runs", "anchors": ["movement_primitives/spring_damper.py:spring_damper_step", "movement_primitives/spring_damper.py:SpringDamper"]}
{"id": "C47", "title": "Minimum-jerk trajectory is the minimum-jerk quintic", "statement": "generate_minimum_jerk samples x0 + (g-x0)*(10u^3-15u^4+6u^5), u = t/(execution_time-dt), with matching velocities and accelerations, the curve of that duration with the least integral of squared jerk between the two rest states; hence every sample lies on the segment from start to goal and progress never decreases.", "quantifier": "all starts, goals, dimensions, execution times and step sizes", "why_tests_cant": "a closed form for sequences of any length", "anchors": ["movement_primitives/data/_minimum_jerk.py:generate_minimum_jerk"]}
{"id": "C48", "title": "Minimum-jerk trajectory reaches its goal", "statement": "The last sample of generate_minimum_jerk is the goal with zero velocity and zero acceleration.", "quantifier": "all starts, goals, execution times and step sizes", "why_tests_cant": "all real execution times and step sizes", "anchors": ["movement_primitives/data/_minimum_jerk.py:generate_minimum_jerk"]}
{"id": "C49", "title": "MinimumJerkTrajectory plays back its samples", "statement": "The k-th call of step after a reset returns sample k of the generated trajectory for the start and goal configured at the first step; calls beyond the last sample raise IndexError and leave the sample counter unchanged.", "quantifier": "all histories of step, configure and reset calls", "why_tests_cant": "quantifies over call histories", "anchors": ["movement_primitives/minimum_jerk_trajectory.py:MinimumJerkTrajectory.step"]}
{"id": "C50", "title": "ProMP trajectories are convex combinations of weights", "statement": "Each coordinate of trajectory_from_weights(T, w) at each time is a convex combination of the weights of that dimension only; the map is linear in w; a constant weight vector gives a constant trajectory.", "quantifier": "all weights, time vectors, dimensions, numbers of basis functions", "why_tests_cant": "all sizes and real values", "anchors": ["movement_primitives/promp.py:ProMP.trajectory_from_weights", "movement_primitives/promp.py:_nd_block_diagonal", "movement_primitives/promp.py:ProMP._rbfs_nd_sequence"]}
{"id": "C51", "title": "ProMP covariances are covariances", "statement": "cov_trajectory is symmetric positive semidefinite whenever weight_cov is, and var_trajectory is then exactly its diagonal.", "quantifier": "all weight covariances, time vectors and sizes", "why_tests_cant": "definiteness quantifies over all test vectors", "anchors": ["movement_primitives/promp.py:ProMP.cov_trajectory", "movement_primitives/promp.py:ProMP.var_trajectory"]}
{"id": "C52", "title": "Conditioning a ProMP hits the target", "statement": "condition_position(y_mean, t) with zero observation covariance returns a ProMP whose mean at t is y_mean and whose covariance at t is zero (when the prior covariance at t is invertible); the conditioned covariance is symmetric positive semidefinite and never larger than the prior; the original ProMP is unchanged.", "quantifier": "all ProMPs, targets and times", "why_tests_cant": "linear-algebra identities for matrices of every size", "anchors": ["movement_primitives/promp.py:ProMP.condition_position"]}
{"id": "C53", "title": "Conditioning on several via-points satisfies all of them", "statement": "via_points (with zero observation covariance) returns a ProMP whose mean passes through every via-point, not only the last one.", "quantifier": "all lists of via-points of any length", "why_tests_cant": "induction over the number of via-points", "anchors": ["movement_primitives/promp.py:via_points", "movement_primitives/promp.py:ProMP.condition_position"]}
{"id": "C54", "title": "ProMP velocities are derivatives", "statement": "mean_velocities(T) is the time derivative of mean_trajectory(T).", "quantifier": "all ProMPs and times", "why_tests_cant": "a derivative over a continuum of times", "anchors": ["movement_primitives/promp.py:ProMP.mean_velocities", "movement_primitives/promp.py:ProMP._rbfs_derivative_1d_sequence"]}
{"id": "C55", "title": "ProMP queries leave the caller's time array alone", "statement": "mean_trajectory(T), var_trajectory(T), sample_trajectories(T, ...) and imitate(Ts, Ys) do not modify T.", "quantifier": "all time arrays", "why_tests_cant": "aliasing is invisible to tests that use T[-1] = 1 or do not look at T again", "anchors": ["movement_primitives/promp.py:ProMP._rbfs_1d_sequence", "movement_primitives/promp.py:ProMP.imitate"]}
{"id": "C56", "title": "EM keeps ProMP parameters valid", "statement": "After imitate, weight_cov is symmetric positive semidefinite and the noise variance is non-negative, whatever the demonstrations and number of iterations.", "quantifier": "all demonstration sets and iteration counts", "why_tests_cant": "invariant over an unbounded number of EM iterations", "anchors": ["movement_primitives/promp.py:ProMP.imitate", "movement_primitives/promp.py:ProMP._maximization", "movement_primitives/promp.py:ProMP._expectation"]}
{"id": "C57", "title": "Serialisation round trip", "statement": "Reading back an object written with write_json or write_yaml gives an object with the same class and the same value of every public attribute, including nested forcing terms.", "quantifier": "all movement primitives in all reachable states", "why_tests_cant": "all attribute values and nesting depths", "anchors": ["movement_primitives/io.py:write_json", "movement_primitives/io.py:read_json", "movement_primitives/io.py:_recursive_to_dict", "movement_primitives/io.py:_recursive_from_dict", "movement_primitives/io.py:_dict_to_object"]}
{"id": "C58", "title": "Joint limits", "statement": "Chain.forward(q) equals Chain.forward of q clipped to the joint limits, and the joint values in effect are always inside the limits.", "quantifier": "all joint vectors and limits", "why_tests_cant": "all real vectors", "anchors": ["movement_primitives/kinematics.py:FastUrdfTransformManager.set_joint", "movement_primitives/kinematics.py:Chain.forward"]}
{"id": "C59", "title": "Forward kinematics returns rigid transformations", "statement": "If all fixed transformations of the chain are rigid and all joint axes have unit length, Chain.forward returns a rigid transformation for every joint vector; joint rotations compose: R(a)R(b) = R(a+b).", "quantifier": "all chains of any length and joint vectors", "why_tests_cant": "induction over chains of any length", "anchors": ["movement_primitives/kinematics.py:_fast_matrix_from_axis_angle", "movement_primitives/kinematics.py:Chain.forward"]}
{"id": "C60", "title": "Random-restart inverse kinematics keeps the best solution", "statement": "inverse_with_random_restarts returns the first candidate with the smallest pose error among those it tried, tries at most n_restarts candidates, and stops early only with an error of at most tolerance.", "quantifier": "all solver outcomes and numbers of restarts", "why_tests_cant": "quantifies over every sequence of solver results", "anchors": ["movement_primitives/kinematics.py:Chain.inverse_with_random_restarts"]}
{"id": "C61", "title": "Local inverse kinematics stays local and inside the joint limits", "statement": "Consecutive joint configurations returned by inverse_trajectory differ by at most interval per joint and respect the joint limits.", "quantifier": "all solver outcomes that respect the bounds they are given", "why_tests_cant": "quantifies over every behaviour of the numerical solver", "anchors": ["movement_primitives/kinematics.py:Chain.local_inverse_with_random_restarts", "movement_primitives/kinematics.py:Chain.inverse_trajectory", "movement_primitives/kinematics.py:Chain.inverse"]}
{"id": "C62", "title": "Pose error is a distance", "statement": "The pose error minimised by inverse kinematics is non-negative, zero exactly for the desired pose (positive weights), symmetric, and its arccos argument lies in [-1, 1] for all rotation matrices.", "quantifier": "all rigid poses", "why_tests_cant": "all rotation matrices", "anchors": ["movement_primitives/kinematics.py:pose_dist", "movement_primitives/kinematics.py:Chain.ee_pose_error"]}
{"id": "C63", "title": "Potential field shows the DMP's accelerations", "statement": "The total acceleration plotted by plot_potential_field_2d / potential_field_2d at (y, yd, t) equals the acceleration of the DMP's own step at that state.", "quantifier": "all two-dimensional DMPs, states and times", "why_tests_cant": "all real states", "anchors": ["movement_primitives/dmp_potential_field.py:potential_field_2d", "movement_primitives/dmp/_dmp.py:dmp_transformation_system"]}
{"id": "C64", "title": "Returned states are snapshots", "statement": "The arrays returned by step are not changed by later calls on the same object, and no method writes into arrays passed in by the caller.", "quantifier": "all call histories", "why_tests_cant": "aliasing over all histories", "anchors": ["movement_primitives/dmp/_dmp.py:DMP.step", "movement_primitives/dmp/_state_following_dmp.py:StateFollowingDMP.step", "movement_primitives/dmp/_base.py:WeightParametersMixin.get_weights"]}
{"id": "C65", "title": "Toy data covariance is well defined", "statement": "The finite-difference matrix used by generate_1d_trajectory_distribution has full column rank for every number of steps, so the matrix that is inverted is positive definite.", "quantifier": "all numbers of steps", "why_tests_cant": "all matrix sizes", "anchors": ["movement_primitives/data/_toy_1d.py:create_finite_differences_matrix_1d", "movement_primitives/data/_toy_1d.py:generate_1d_trajectory_distribution"]}
{"id": "C66", "title": "DMP parameter vectors are unpacked consistently", "statement": "The start, goal and weights recovered from a parameter vector built in estimate_state_distribution are the ones it was built from, for every number of dimensions and weights.", "quantifier": "all dimensions, weights, starts, goals", "why_tests_cant": "all sizes", "anchors": ["movement_primitives/dmp_to_state_space_distribution.py:propagate_to_state_space", "movement_primitives/dmp_to_state_space_distribution.py:estimate_dmp_parameter_distribution"]}
{"id": "C67", "title": "Pose conversion round trip", "statement": "Converting a pose between the pybullet and the pytransform3d convention and back returns the original pose.", "quantifier": "all poses", "why_tests_cant": "all poses", "anchors": ["movement_primitives/testing/simulation.py:_pybullet_pose", "movement_primitives/testing/simulation.py:_pytransform_pose"]}
{"id": "C68", "title": "Time loops in double precision", "statement": "In IEEE double arithmetic the sub-step loop of the Euler integrators terminates for every positive int_dt, the grid of open_loop has no time beyond run_t when run_t is a multiple of dt, and generate_minimum_jerk reaches its goal when execution_time is a decimal multiple of dt.", "quantifier": "all finite doubles", "why_tests_cant": "depends on rounding at particular magnitudes", "anchors": ["movement_primitives/dmp/_dmp.py:dmp_step_euler", "movement_primitives/dmp/_dmp.py:dmp_open_loop", "movement_primitives/data/_minimum_jerk.py:generate_minimum_jerk"]}
{"id": "C69", "title": "CartesianDMP.open_loop equals repeated step", "statement": "Calling CartesianDMP.step repeatedly from a reset object, starting at the start pose with zero velocity and feeding back the returned state, produces the times and poses of open_loop; open_loop(run_t) returns times 0, dt, 2dt, ... up to at least run_t and less than run_t + dt, and the start pose first.", "quantifier": "all objects in any state, step functions, weights, gains, lengths", "why_tests_cant": "equality of two implementations of a run of unbounded length", "anchors": ["movement_primitives/dmp/_cartesian_dmp.py:CartesianDMP.open_loop", "movement_primitives/dmp/_cartesian_dmp.py:CartesianDMP.step"]}
{"id": "C70", "title": "Dimensions of a DMP do not interact", "statement": "Component d of every state produced by an n-dimensional DMP is the state produced by a one-dimensional DMP with start, goal, gains and weights of component d; it does not depend on the other components.", "quantifier": "all DMP objects, step functions, dimensions, runs of any length", "why_tests_cant": "must hold for every dimension, weights and number of steps", "anchors": ["movement_primitives/dmp/_dmp.py:DMP.step", "movement_primitives/dmp/_dmp.py:DMP.open_loop"]}
{"id": "C71", "title": "Forward kinematics is a function of the joint angles", "statement": "Chain.forward(q) and forward_trajectory return the same poses for the same joint angles, whatever forward calls were made before on chains of the same robot.", "quantifier": "all robots, chains, joint vectors and call histories", "why_tests_cant": "hidden shared state over all histories and chains", "anchors": ["movement_primitives/kinematics.py:Chain.forward", "movement_primitives/kinematics.py:Chain.forward_trajectory", "movement_primitives/kinematics.py:FastUrdfTransformManager.set_joint"]}
{"id": "C72", "title": "The requested solver is used", "statement": "inverse_trajectory(..., solver=s) and the other inverse kinematics methods call the optimiser with solver s in every step: their result depends on the behaviour of no other solver.", "quantifier": "all chains, trajectories, options and solver behaviours", "why_tests_cant": "quantifies over the behaviour of all solvers", "anchors": ["movement_primitives/kinematics.py:Chain.inverse_trajectory", "movement_primitives/kinematics.py:Chain.local_inverse_with_random_restarts"]}
{"id": "C73", "title": "Simulated poses are in the robot's base frame", "statement": "UR5Simulation asks inverse kinematics for the world pose of the given pose in the robot's base frame; get_ee_state reports poses and velocities in that frame; a commanded pose that is reached is reported as commanded.", "quantifier": "all base poses, end-effector poses and simulation states", "why_tests_cant": "all base poses; only fails when the base is not at the origin", "anchors": ["movement_primitives/testing/simulation.py:UR5Simulation.inverse_kinematics", "movement_primitives/testing/simulation.py:UR5Simulation.get_ee_state"]}
{"id": "C74", "title": "step_through_cartesian records the run it commanded", "statement": "The result has one entry per control cycle that fits into the execution time plus the initial one; each desired state is what step returned for the previous desired (or measured) state; joints are commanded to the inverse kinematics solution within one time step; with SimulationMockup and a DMP it is n_steps_open_loop; and the robot is stopped when the run ends.", "quantifier": "all steppable objects, simulation behaviours, execution times", "why_tests_cant": "all objects, histories and failures of the simulator", "anchors": ["movement_primitives/testing/simulation.py:UR5Simulation.step_through_cartesian", "movement_primitives/testing/simulation.py:SimulationMockup.step_through_cartesian"]}
{"id": "C75", "title": "Joint and link indices of a robot", "statement": "analyze_robot maps every joint name to its index, every link name (also that of the base) to its index and every movable joint to its position in the inverse kinematics result, so a kinematic chain returns the angles of the joints it was asked for, and both arms get their own.", "quantifier": "all robots and joint selections", "why_tests_cant": "all kinematic trees", "anchors": ["movement_primitives/testing/simulation.py:analyze_robot", "movement_primitives/testing/simulation.py:KinematicsChain.inverse", "movement_primitives/testing/simulation.py:RH5Simulation.set_desired_joint_state"]}
{"id": "C76", "title": "draw_trajectory draws the whole trajectory", "statement": "draw_trajectory draws a line between each pair of consecutive positions and the requested number of frames, in order, including the first and the last pose, with the given scale and line width.", "quantifier": "all trajectories, numbers of key frames", "why_tests_cant": "all lengths", "anchors": ["movement_primitives/testing/simulation.py:draw_trajectory", "movement_primitives/testing/simulation.py:draw_transform", "movement_primitives/testing/simulation.py:draw_pose"]}
{"id": "C77", "title": "LASA demonstrations are loaded as documented", "statement": "load_lasa returns positions, velocities and accelerations indexed by demonstration, step and dimension, as recorded, the recorded time step, and times that are dt apart; the shape index enumerates the files of the data set in a fixed order, whatever order the operating system lists them in.", "quantifier": "all data files and directory listings", "why_tests_cant": "the test needs the downloaded data; listing orders and shapes are unbounded", "anchors": ["movement_primitives/data/_lasa.py:load_lasa", "movement_primitives/data/_lasa.py:_load_from_matlab_file", "movement_primitives/data/_lasa.py:_convert_demonstrations"]}
{"id": "C78", "title": "An interrupted download does not damage the data set", "statement": "Whenever a call of load_lasa was killed or failed during the first download, a later call with a working network returns the complete data set, and no call ever reads an incomplete one; this also holds when several processes load the data at the same time.", "quantifier": "all crash points, numbers of earlier calls and schedules of processes", "why_tests_cant": "crash points and interleavings cannot be enumerated by tests", "anchors": ["movement_primitives/data/_lasa.py:load_lasa"]}
{"id": "C79", "title": "Objects do not depend on the caller's arrays", "statement": "After configure, imitate, set_weights or step has returned, writing to an array that was passed in does not change the behaviour of the movement primitive.", "quantifier": "all call histories and all later writes by the caller", "why_tests_cant": "aliasing over all histories", "anchors": ["movement_primitives/base.py:PointToPointMovement.configure", "movement_primitives/dmp/_dmp.py:DMP.imitate", "movement_primitives/dmp/_base.py:WeightParametersMixin.set_weights"]}
{"id": "C80", "title": "What a coupling term adds to a step", "statement": "A coupling term that answers (cd, cdd) adds h * cdd / tau^2 + cd / tau to the velocity of an integration step of length h, where tau is the time constant of the movement (the duration; half of it for StateFollowingDMP; 1 for the spring-damper), and nothing else; for orientations the same holds for the angular velocity and the new orientation is the old one turned by the new angular velocity. It holds for the Cython and Python step functions of DMP, DMPWithFinalVelocity, StateFollowingDMP, SpringDamper, CartesianDMP, SpringDamperOrientation and DualCartesianDMP; the Python Euler step evaluates cd at the new state.", "quantifier": "all coupling terms, parameters, states and step lengths", "why_tests_cant": "all coupling functions and states", "anchors": ["movement_primitives/dmp/_dmp.py:dmp_step_euler", "movement_primitives/dmp_fast.pyx:dmp_step", "movement_primitives/dmp/_dmp_with_final_velocity.py:dmp_step_euler_with_constraints", "movement_primitives/dmp/_state_following_dmp.py:state_following_dmp_step", "movement_primitives/dmp/_cartesian_dmp.py:dmp_step_quaternion_python", "movement_primitives/dmp/_dual_cartesian_dmp.py:dmp_step_dual_cartesian_python", "movement_primitives/spring_damper.py:spring_damper_step"]}
{"id": "C81", "title": "An interrupted write is noticed when the file is read", "statement": "If write_json or write_yaml is interrupted at any point, the file is untouched, or reading it raises, or it has been written completely; a completed write leaves exactly one document whatever the file contained before; an object that cannot be written leaves the old file intact.", "quantifier": "all objects, all previous contents and all points of interruption", "why_tests_cant": "every crash point", "anchors": ["movement_primitives/io.py:write_json", "movement_primitives/io.py:write_yaml", "movement_primitives/io.py:read_json", "movement_primitives/io.py:read_yaml"]}
{"id": "C82", "title": "A cache file does not change the result", "statement": "propagate_weight_distribution_to_state_space returns the same distribution with and without a cache file: on the first call, on a repeated call, after a call with other arguments, and after a call that was interrupted.", "quantifier": "all data sets, parameters, histories of calls with the same file and points of interruption", "why_tests_cant": "histories and crash points", "anchors": ["movement_primitives/dmp_to_state_space_distribution.py:propagate_weight_distribution_to_state_space"]}
{"id": "C83", "title": "Every dimension is drawn in its own panel", "statement": "plot_trajectory_in_rows and plot_distribution_in_rows draw dimension i of the data, over the given times or the step numbers, in a panel of its own (along the rows, or along the columns with transpose), with its title and limits and the name of the time axis at the bottom of the figure; bands extend factor * standard deviation to both sides of the mean; axes that are passed in are only drawn on; data that do not fit the grid, the axes or the times raise.", "quantifier": "all data, numbers of dimensions, grid shapes, titles, factors and passed axes", "why_tests_cant": "all grid shapes and dimensions", "anchors": ["movement_primitives/plot.py:plot_trajectory_in_rows", "movement_primitives/plot.py:plot_distribution_in_rows", "movement_primitives/plot.py:create_axes", "movement_primitives/plot.py:layout_axes"]}
{"id": "C84", "title": "Geometries are shown and hidden as asked", "statement": "plot_pointcloud adds exactly the returned cloud, with one colour per point and every k-th point when downsampling; a ToggleGeometry callback toggles between showing and hiding its geometry on every key event sequence.", "quantifier": "all point clouds and factors; all histories of key events", "why_tests_cant": "histories of key events", "anchors": ["movement_primitives/visualization.py:plot_pointcloud", "movement_primitives/visualization.py:ToggleGeometry"]}
{"id": "C85", "title": "Simulations do not interfere with each other", "statement": "Each simulation object uses PyBullet clients of its own: in any interleaving of method calls on several simulations, every one of them gives the answers and ends in the state it would have had alone, and constructing another one leaves the existing ones unchanged.", "quantifier": "all numbers of simulations, schedules of calls, simulator behaviours", "why_tests_cant": "all interleavings of calls, also failing ones", "anchors": ["movement_primitives/testing/simulation.py:PybulletSimulation.__init__", "movement_primitives/testing/simulation.py:UR5Simulation.set_desired_joint_state", "movement_primitives/testing/simulation.py:RH5Simulation.__init__", "movement_primitives/testing/simulation.py:KinematicsChain.__init__"]}
{"id": "C86", "title": "RH5Simulation controls both arms as asked", "statement": "A pose of both arms is split into the left and the right one, and each arm's command depends only on its own; inverse kinematics does not move the robot and does not depend on earlier calls; commands are accepted completely or not at all; the reported state are the poses and velocities of the robot; a run records one entry per control cycle and ends with the robot stopped.", "quantifier": "all simulator behaviours, robots, poses, steppable objects, execution times", "why_tests_cant": "all behaviours of the simulator and all histories", "anchors": ["movement_primitives/testing/simulation.py:RH5Simulation.inverse_kinematics", "movement_primitives/testing/simulation.py:RH5Simulation.set_desired_joint_state", "movement_primitives/testing/simulation.py:RH5Simulation.get_ee_state", "movement_primitives/testing/simulation.py:RH5Simulation.step_through_cartesian", "movement_primitives/testing/simulation.py:RH5Simulation.stop", "movement_primitives/testing/simulation.py:KinematicsChain.goto_joint_state"]}
{"id": "C87", "title": "ProMP weights are the best fit to a demonstration", "statement": "weights(T, Y, lmbda) returns weights that minimise the squared distance between Y and trajectory_from_weights(T, w) plus lmbda times the squared length of w; with lmbda > 0 no others do, with lmbda = 0 a trajectory that has weights is reproduced exactly; the weights of a dimension depend on that column of Y only.", "quantifier": "all demonstrations, time arrays, dimensions, numbers of weights and regularization factors", "why_tests_cant": "optimality against all weight vectors and sizes", "anchors": ["movement_primitives/promp.py:ProMP.weights", "movement_primitives/promp.py:ProMP.trajectory_from_weights"]}
{"id": "C88", "title": "ProMP imitation is expectation-maximization", "statement": "Each iteration of imitate computes for every demonstration the posterior mean and covariance of the weights under the current distribution and noise, and replaces the distribution by mean and covariance of the mixture of these posteriors and the noise by the scaled expected squared error; it stops at the first iteration that changes the mean by less than min_delta, at the latest after n_iter iterations. The result does not depend on the order of the demonstrations.", "quantifier": "all sets of demonstrations of any lengths, initial distributions with invertible covariance, iteration counts and thresholds", "why_tests_cant": "unbounded number of iterations and demonstrations; optimality against all weight vectors", "anchors": ["movement_primitives/promp.py:ProMP.imitate", "movement_primitives/promp.py:ProMP._expectation", "movement_primitives/promp.py:ProMP._maximization"]}
{"id": "C89", "title": "The compiled step functions stay within their arrays and compute the documented step", "statement": "However a DMP, CartesianDMP or DualCartesianDMP object was created and used, no sequence of steps or open-loop runs with the compiled step functions reads or writes memory outside an array, for every coupling term that does not do so itself; and the arrays they leave hold exactly the state (or they raise exactly the exception) that the step is specified to produce. Called directly, the compiled RK4 step is safe for arrays of any lengths; the compiled Euler step is safe exactly if no argument is shorter than the state. The compiled 2D obstacle avoidance is safe for velocities of at least two entries (it is not for one-dimensional DMPs).", "quantifier": "all reachable objects, all states, times, step sizes, array lengths, forcing and coupling terms, any number of steps, any content of uninitialised memory", "why_tests_cant": "An access outside an array usually reads or overwrites some other live memory without failing, so a test passes or fails depending on the memory layout; and no finite set of tests covers all lengths and histories.", "anchors": ["movement_primitives/dmp_fast.pyx: dmp_step, dmp_step_rk4, _dmp_acc, dmp_step_quaternion, dmp_step_dual_cartesian, obstacle_avoidance_acceleration_2d", "movement_primitives/dmp/_dmp.py: DMP.step, DMP.open_loop", "movement_primitives/dmp/_cartesian_dmp.py: CartesianDMP.step", "movement_primitives/dmp/_dual_cartesian_dmp.py: DualCartesianDMP.step", "movement_primitives/dmp/_coupling_terms.py: CouplingTermObstacleAvoidance2D"]}
{"id": "C90", "title": "Conditioning a ProMP is Bayesian inference, in any order", "statement": "Conditioning a ProMP on a position at a time gives the weight distribution that Bayes' rule prescribes: prior density times likelihood of the observation is the density with the new mean and covariance, up to a constant, and the new mean is the best linear estimate of the weights. Hence conditions may be applied, and via-points listed, in any order with the same result (or the same error). (In more than one dimension the covariance argument of via_points is broadcast row by row and does not describe noise.)", "quantifier": "all ProMPs with a covariance matrix, all lists of conditions and via-points, times, positions and noise covariances, all permutations", "why_tests_cant": "The claim compares all orders of any number of conditions and all competing estimators; a test can only compare a few numbers.", "anchors": ["movement_primitives/promp.py: ProMP.condition_position, via_points"]}
{"id": "C91", "title": "Imitating a transformed demonstration gives the transformed movement", "statement": "If every sample of a demonstration is mapped by an affine map (another coordinate frame, another unit, a selection or combination of dimensions) before DMP.imitate, open_loop generates the mapped positions at the same times, as long as the map only combines dimensions with equal gains; in particular a dimension of the movement depends only on the same dimension of the demonstration. A demonstration that starts at time 0 and the same demonstration performed faster or slower are reproduced alike.", "quantifier": "every demonstration, affine map (also between different numbers of dimensions), regularisation, number of weights, gains, step function, run time and pair of DMP objects with the same settings and any histories; every factor of the speed", "why_tests_cant": "Tests imitate a few demonstrations in one frame; the statement compares two runs for every demonstration and every map.", "anchors": ["movement_primitives/dmp/_dmp.py:DMP.imitate", "movement_primitives/dmp/_dmp.py:dmp_imitate", "movement_primitives/dmp/_dmp.py:determine_forces", "movement_primitives/dmp/_dmp.py:ridge_regression", "movement_primitives/dmp/_dmp.py:DMP.open_loop"]}
{"id": "C92", "title": "Whatever happened before, a DMP reaches the goal that is configured now", "statement": "After any sequence of calls to a DMP object (configuring, stepping, failing calls, imitating, changing weights or execution time, resetting), repeatedly calling step with the returned state ends at the goal position that is configured now, at rest, in every critically damped dimension whose step length is stable for the integrator; the state passed to the first call may be any state. In particular the goal may be moved in the middle of a movement.", "quantifier": "every history of calls, number of dimensions, weights, gains with alpha_y = 4 beta_y, step function, state passed to the first call, accuracy, and goal set in between", "why_tests_cant": "Tests run a few DMPs from a fresh object to the end of a single movement; convergence is a statement about infinitely many steps and about every earlier history.", "anchors": ["movement_primitives/dmp/_dmp.py:DMP.step", "movement_primitives/dmp/_dmp.py:dmp_step_rk4", "movement_primitives/dmp/_dmp.py:dmp_step_euler", "movement_primitives/base.py:PointToPointMovement.configure", "movement_primitives/dmp_fast.pyx:dmp_step", "movement_primitives/dmp_fast.pyx:dmp_step_rk4"]}
{"id": "C93", "title": "Orientations reach the goal orientation from every orientation and angular velocity", "statement": "Repeatedly calling step of CartesianDMP (or of one arm of DualCartesianDMP without tracking-error feedback, or of SpringDamperOrientation) with the returned state turns the orientation to the configured goal orientation and brings it to rest, from every unit quaternion, including the ones half a turn away, and every angular velocity, whatever was done with the object before and whatever the weights are; the quaternion and its negative count as the same orientation. The remaining angle is below a small multiple of the rotation angle that the logarithm treats as zero. The trajectory of CartesianDMP.open_loop ends at the goal orientation in the same sense, and the positions of a CartesianDMP reach the goal position.", "quantifier": "every history of calls, weights, start, goal and first state, all positive gains that are the same for the three axes and suit the integration step (critical damping not required), both implementations, number of integration steps per call, duration", "why_tests_cant": "Convergence on the sphere of unit quaternions is a statement about infinitely many steps from a continuum of states; tests look at a few movements with moderate rotations.", "anchors": ["movement_primitives/dmp/_cartesian_dmp.py:CartesianDMP.step", "movement_primitives/dmp/_cartesian_dmp.py:dmp_step_quaternion_python", "movement_primitives/dmp/_cartesian_dmp.py:CartesianDMP.open_loop", "movement_primitives/dmp/_dual_cartesian_dmp.py:DualCartesianDMP.step", "movement_primitives/spring_damper.py:SpringDamperOrientation.step", "movement_primitives/dmp_fast.pyx:dmp_step_quaternion", "movement_primitives/dmp_fast.pyx:dmp_step_dual_cartesian"]}
{"id": "C94", "title": "Bounded disturbances cause bounded deviations", "statement": "If the positions reported to DMP.step differ from the positions it returned by at most B, and a coupling term adds at most B to velocity and acceleration, then the DMP ends up within K B of its goal, with a velocity below K B, where K depends only on the integrator, the gains, the duration and the step lengths, not on weights, start, goal, history or the way the disturbances vary. Disturbances that fade away do not keep it from reaching the goal. The positions of a CartesianDMP end up within K B of the goal position if the positions and velocities given to step differ by at most B from those returned before, whatever the measured orientations are. For both hands of a DualCartesianDMP (without tracking-error feedback and without coupling term) the positions that step returns end up in the same way within K * B of the goal if positions and velocities are measured with errors of at most B. For a DMPWithFinalVelocity (without coupling term) the same bound holds for wrong position measurements, including tracking-error feedback with any gain; errors that fade away do not keep it from reaching its goal. The same holds for a SpringDamper that is given wrong positions and velocities.", "quantifier": "every history, all weights, start, goal, every sequence of measured states and coupling terms (also ones that depend on the state and change from call to call) with a bound, all four step functions, stable gains and step lengths; for CartesianDMP every history, every sequence of measured poses and velocities with a bound, both implementations of the orientation step", "why_tests_cant": "The claim ranges over all disturbance sequences of unbounded length and over worst cases that simulated noise does not produce.", "anchors": ["movement_primitives/dmp/_dmp.py:DMP.step", "movement_primitives/dmp/_dmp.py:dmp_step_rk4", "movement_primitives/dmp/_dmp.py:dmp_step_euler", "movement_primitives/dmp_fast.pyx:dmp_step", "movement_primitives/dmp_fast.pyx:dmp_step_rk4", "movement_primitives/dmp/_cartesian_dmp.py:CartesianDMP.step", "movement_primitives/dmp/_dual_cartesian_dmp.py: DualCartesianDMP.step", "movement_primitives/dmp/_dmp_with_final_velocity.py: DMPWithFinalVelocity.step, dmp_step_euler_with_constraints", "movement_primitives/spring_damper.py: SpringDamper.step, spring_damper_step"]}
{"id": "C95", "title": "Movements depend continuously on start, goal, weights and demonstrations", "statement": "If start, goal and weights of two DMPs with the same settings differ by at most D in a dimension, then the trajectories that open_loop returns differ there by at most K D at every time, where K depends only on the integrator, the gain, the duration and the step length and not on the length of the movement. If two demonstrations at the same times differ by at most D, then the movements learned from them by imitate differ by at most K D, where K does not depend on the demonstrated positions. The same holds for the positions of a CartesianDMP (C104) and of each hand of a DualCartesianDMP that starts at rest and has p_gain = 0, whatever orientations and the other hand do.", "quantifier": "all pairs of DMP objects with arbitrary histories and equal settings, all starts, goals, weights, run times and demonstrations, all four step functions, stable gains and step lengths", "why_tests_cant": "A bound on the sensitivity is a statement about all pairs of inputs and all movement lengths; tests compare single trajectories.", "anchors": ["movement_primitives/dmp/_dmp.py:DMP.open_loop", "movement_primitives/dmp/_dmp.py:DMP.imitate", "movement_primitives/dmp/_dmp.py:determine_forces", "movement_primitives/dmp/_dmp.py:ridge_regression", "movement_primitives/dmp/_forcing_term.py:ForcingTerm", "movement_primitives/dmp_fast.pyx:dmp_step", "movement_primitives/dmp_fast.pyx:dmp_step_rk4", "movement_primitives/dmp/_dual_cartesian_dmp.py:DualCartesianDMP.open_loop", "movement_primitives/dmp/_dual_cartesian_dmp.py:DualCartesianDMP.imitate", "movement_primitives/dmp/_cartesian_dmp.py:CartesianDMP.open_loop"]}
{"id": "C96", "title": "Movements approximate the solution of the DMP's differential equation", "statement": "The second-order differential equation of a DMP (spring-damper towards the goal plus forcing term, with or without smooth scaling) has exactly one solution from the start at rest. Up to every time T, the positions returned by open_loop differ from that solution by at most C times the length of an integration step, where C depends neither on the integrator nor on dt and int_dt. Hence finer steps converge to the solution, and any two of the four integrators, at any two step lengths, agree up to C times the sum of their step lengths.", "quantifier": "all DMP objects with arbitrary histories and positive execution time, all gains (stable or not), starts, goals, weights, times T, all four step functions and all positive dt and int_dt", "why_tests_cant": "Convergence is a statement about all step lengths and about the solution of a differential equation that no test can evaluate; tests compare a few discretizations with tolerances.", "anchors": ["movement_primitives/dmp/_dmp.py:DMP.open_loop", "movement_primitives/dmp/_dmp.py:dmp_step_rk4", "movement_primitives/dmp/_dmp.py:dmp_step_euler", "movement_primitives/dmp/_dmp.py:dmp_open_loop", "movement_primitives/dmp_fast.pyx:dmp_step", "movement_primitives/dmp_fast.pyx:dmp_step_rk4", "movement_primitives/dmp/_forcing_term.py:ForcingTerm"]}
{"id": "C97", "title": "A learned movement reproduces the demonstration", "statement": "A smooth motion that starts at rest is recorded with N + 1 equidistant samples over the execution time and imitated. The positions of open_loop, integrated by the Euler method with the time step of the recording, then differ from the motion by at most C (sqrt(dt) + eps + sqrt(lam dt |w|^2)) at every time up to the end, where w is any choice of weights, eps is how far its forcing term is from the force that the motion requires, and C depends only on the motion and the gains. So a motion that the basis functions can represent is reproduced up to an error that vanishes as the recording becomes finer, and otherwise the error is proportional to the best uniform approximation by the basis functions.", "quantifier": "all smooth motions starting at rest with a Lipschitz continuous acceleration, all execution times, gains, DMP objects with arbitrary histories, numbers of weights and dimensions, sampling rates, regularisation coefficients, both values of allow_final_velocity (false only for motions that end at rest) and of smooth_scaling, and all weights of comparison", "why_tests_cant": "It relates finite differences, ridge regression and integration for every motion and every sampling rate; tests imitate a few trajectories and compare with a tolerance that happens to hold.", "anchors": ["movement_primitives/dmp/_dmp.py:DMP.imitate", "movement_primitives/dmp/_dmp.py:DMP.open_loop", "movement_primitives/dmp/_dmp.py:determine_forces", "movement_primitives/dmp/_dmp.py:dmp_imitate", "movement_primitives/dmp/_dmp.py:ridge_regression", "movement_primitives/dmp/_dmp.py:dmp_step_euler", "movement_primitives/dmp_fast.pyx:dmp_step", "movement_primitives/dmp/_forcing_term.py:ForcingTerm"]}
{"id": "C98", "title": "Integer arrays give the same results as float arrays with the same numbers", "statement": "It does not matter whether the arrays a user passes to a DMP, a SpringDamper or a SpringDamperOrientation hold floats or integers: the same numbers give the same trajectories, states, weights and exceptions. This is false in general. It holds for histories that pass only floats, and for integer goals and accelerations with the Python integrators. With an integer start, open_loop and the first step raise (TypeError from the Python integrators, ValueError from the compiled ones); an integer goal makes the compiled (default) integrators raise. Imitating an integer demonstration rounds all velocities and accelerations towards zero, so that a slow demonstration is learned as if it stood still, and afterwards the movement cannot be executed. A SpringDamperOrientation with an integer start silently returns zero quaternions.", "quantifier": "all histories of calls with any mixture of dtypes, all objects, integrators, demonstrations, gains, goals, coupling terms and run times", "why_tests_cant": "which call fails and what is silently rounded depends on the dtypes of all arrays passed in the whole history; tests with float arrays never see it", "anchors": ["movement_primitives/base.py: PointToPointMovement.configure", "movement_primitives/dmp/_dmp.py: dmp_step_rk4, dmp_step_euler, determine_forces, dmp_open_loop, DMP.step, DMP.imitate", "movement_primitives/dmp_fast.pyx: dmp_step, dmp_step_rk4", "movement_primitives/spring_damper.py: spring_damper_step, spring_damper_step_quaternion"]}
{"id": "C99", "title": "Rounding errors of the default integrators do not accumulate", "statement": "A trajectory that open_loop computes in double precision with a Runge-Kutta integrator stays within a fixed, explicit distance of the trajectory that exact arithmetic gives, however many steps it has; no operation overflows or produces nan. The distance is a multiple of the rounding unit, of the inverse of the shortest step and of the size of the movement, plus a multiple of the largest error of the computed forces. In particular the positions of a movement from 0 to 1 with the default gains, 128 steps per second and correctly rounded forces are accurate to 2e-10 after every step.", "quantifier": "all numbers of steps, all step lengths up to a sixth of the time constant, all gains, execution times, goals, starts, forces of ordinary magnitude, and all rounding errors that the operations make", "why_tests_cant": "every one of about seventy roundings per step depends on all bits of the state; tests see a few trajectories of a few hundred steps and compare them with tolerances", "anchors": ["movement_primitives/dmp/_dmp.py: dmp_step_rk4, _dmp_acc, dmp_open_loop", "movement_primitives/dmp_fast.pyx: dmp_step_rk4, _dmp_acc"]}
{"id": "C100", "title": "Exactly which step lengths let a movement reach its goal", "statement": "For a DMP with any gains, any weights and any history, repeated step calls end at rest at the configured goal if one integration step makes every motion exp(lambda t) of the transformation system's damped spring smaller: for the Runge-Kutta step functions |1 + z + z^2/2 + z^3/6 + z^4/24| < 1 with z = dt lambda for both rates lambda, for the Euler step functions h^2 k + 2 h c < 4 with damping c = alpha/tau, stiffness k = alpha beta / tau^2 and h the smaller of dt and int_dt. The condition cannot be weakened: a DMP with zero weights and positive gains that starts at rest away from its goal comes arbitrarily close to rest at the goal only if it holds. With the default gains the Runge-Kutta limit is dt/tau = 0.2228..., the Euler limit h/tau = 0.0663.... The Euler condition is also the exact one for SpringDamper with any positive k and c.", "quantifier": "all reachable DMP objects (any constructor arguments and sequence of calls), all gains, weights, first states, periods, dimensions and the four step functions; all SpringDamper objects with positive stiffness and damping", "why_tests_cant": "it is a statement about the limit of infinitely many steps for every real gain, weight and step length, and the converse quantifies over all step lengths that fail; a test sees finitely many steps of finitely many step lengths", "anchors": ["movement_primitives/dmp/_dmp.py:DMP.step", "movement_primitives/dmp/_dmp.py:dmp_step_rk4", "movement_primitives/dmp/_dmp.py:dmp_step_euler", "movement_primitives/dmp_fast.pyx:dmp_step", "movement_primitives/dmp_fast.pyx:dmp_step_rk4", "movement_primitives/spring_damper.py:SpringDamper.step", "movement_primitives/spring_damper.py:spring_damper_step"]}
{"id": "C101", "title": "DMPs with final velocity: imitation, histories, convergence, final velocity and reproduction", "statement": "For every DMPWithFinalVelocity and every history of calls (configure, reset, step, open_loop, imitate, get/set_weights, execution_time_, dt_, int_dt; including calls that raised): (1) imitate accepts a demonstration exactly if regularization_coefficient >= 0, the last time is after the first, and the shapes match; it then sets start and goal (position, velocity, acceleration) to the first and last sample and their backward differences, sets the weights to the regression result for the forces that make the equation of the system hold at the samples relative to the unique polynomial of degree 5 from start to goal, and changes nothing else; a rejected call changes nothing. (2) There is exactly one such polynomial r, the equation tau^2 y'' = alpha (beta (r - y) + tau (r' - y')) + f(t) + tau^2 r'' has a solution from the configured start, and positions and velocities of the steps differ from it by at most C * min(dt, int_dt) up to the goal time, with C independent of the step lengths. (3) With zero weights position and velocity at the goal time are the configured goal position and goal velocity up to C * min(dt, int_dt). (4) If the step length makes the motions of the spring smaller (see C100), repeated steps from any state end at the goal at rest. (5) A smooth motion that starts at rest, possibly with nonzero final velocity, recorded with N + 1 samples and imitated is reproduced, positions and velocities, up to C (sqrt(dt) + eps + sqrt(lambda dt |w|^2)), where eps is the error of representing the required force with any weights w.", "quantifier": "all constructor arguments, histories of calls, demonstrations, regression results (1), gains, weights, starts, goals, step lengths, smooth motions, numbers of samples, regularisations", "why_tests_cant": "Convergence as the step length goes to zero, uniqueness of the reference, arbitrary histories and arbitrary smooth motions are not finitely testable; a test compares one demonstration at one step length with a tolerance.", "anchors": ["movement_primitives/dmp/_dmp_with_final_velocity.py:DMPWithFinalVelocity.step", "movement_primitives/dmp/_dmp_with_final_velocity.py:DMPWithFinalVelocity.open_loop", "movement_primitives/dmp/_dmp_with_final_velocity.py:DMPWithFinalVelocity.imitate", "movement_primitives/dmp/_dmp_with_final_velocity.py:determine_forces", "movement_primitives/dmp/_dmp_with_final_velocity.py:solve_constraints", "movement_primitives/dmp/_dmp_with_final_velocity.py:dmp_step_euler_with_constraints", "movement_primitives/dmp/_dmp.py:dmp_imitate"]}
{"id": "C102", "title": "Two components coupled by a distance term come to rest between their goals and the desired distance", "statement": "Let a DMP be stepped repeatedly with CouplingTermPos1DToPos1D or CouplingTermPos3DToPos3D, with equal gains in the two coupled components. From every history and every first state, for all weights and for each of the four integrators: if the step length satisfies an explicit condition, both components come to rest, and the place is given by a formula. The displacement at rest is the mean of the displacement of the goals and the desired displacement, weighted with the pull of the goals and of the coupling; the components share the deviation from their goals in proportion to their leader-follower factors. In every step, the sum of the components weighted with the factors of the respective other one is the same as without coupling; in particular a component with factor 0 moves as if it were not coupled. With the compiled Euler integrator the step length condition is h^2 k + h p + 2 h c < 4 and is also necessary. One expects that the place of rest does not depend on the length of the integration steps and that the reported velocity tends to zero; both are false.", "quantifier": "all histories of calls, first states, weights, gains (equal in both components), leader-follower factors, spring constants, desired displacements, execution times, step lengths and the four integrators", "why_tests_cant": "Statements about limits of infinite runs, for all parameters of the coupling term and all histories; a test sees finitely many steps for some parameters.", "anchors": ["movement_primitives/dmp/_coupling_terms.py:CouplingTermPos1DToPos1D.coupling", "movement_primitives/dmp/_coupling_terms.py:CouplingTermPos3DToPos3D.coupling", "movement_primitives/dmp/_dmp.py:dmp_step_rk4", "movement_primitives/dmp/_dmp.py:dmp_step_euler", "movement_primitives/dmp_fast.pyx:dmp_step", "movement_primitives/dmp_fast.pyx:dmp_step_rk4", "movement_primitives/dmp/_dmp.py:DMP.step"]}
{"id": "C103", "title": "Constructors keep what they are given and every call changes only its own attributes", "statement": "The constructors accept exactly the documented arguments (positive execution time, at least two weights - for StateFollowingDMP one via-point -, gains given as a number, a one-element sequence or one number per dimension), raise ValueError for all others, and the new object has the execution time, step lengths, gains, tracking gain and scaling that were passed, zero weights, zero states and clock zero. Afterwards every call, also one that raises, changes only its own attributes: configure the clock, start and goal; reset the clock and the current state; step the clock, the current state and the initialized flag; imitate the weights, start and goal; set_weights the weights; the execution time setter the execution time and the basis functions; open_loop and get_weights nothing (except DualCartesianDMP.open_loop, which steps the object). So gains, tracking gain, scaling, number of weights and dimensions stay what the constructor got for the whole life of the object, and execution time and step lengths are always the ones assigned last.", "quantifier": "all constructor arguments, all reachable objects of seven classes, all calls with all arguments, all histories of calls on a DMP", "why_tests_cant": "Absence of side effects quantifies over all calls, arguments and exceptional paths; tests look at the attributes a call is meant to change.", "anchors": ["movement_primitives/dmp/_dmp.py: DMP", "movement_primitives/dmp/_dmp_with_final_velocity.py: DMPWithFinalVelocity", "movement_primitives/dmp/_cartesian_dmp.py: CartesianDMP", "movement_primitives/dmp/_dual_cartesian_dmp.py: DualCartesianDMP", "movement_primitives/dmp/_state_following_dmp.py: StateFollowingDMP", "movement_primitives/spring_damper.py: SpringDamper, SpringDamperOrientation", "movement_primitives/minimum_jerk_trajectory.py: MinimumJerkTrajectory", "movement_primitives/base.py: PointToPointMovement"]}
{"id": "C104", "title": "The positions of a CartesianDMP are those of a three-dimensional DMP after every history", "statement": "Whatever calls a CartesianDMP has received (configure, reset, step, imitate, set_weights, new execution time or step lengths, including calls that raised), there is a history of a DMP with three dimensions with the same clock, durations, gains, start, goal and position weights, and therefore the same positions. So the positions that CartesianDMP.open_loop computes approach the solution of the DMP differential equation in proportion to the step length with all four step functions, whatever the orientations and their gains and weights are; they depend continuously on the start, goal and weights with a constant that does not grow with the length of the movement; similar demonstrations give similar positions; and a smooth motion that is recorded and imitated is reproduced up to the step length, the quality of the basis functions and the regularisation. The Runge-Kutta step functions compute the positions with an error of fourth order in dt for the equation in which the forcing term runs ahead by one time step, and for the equation itself without forcing term.", "quantifier": "all histories of a CartesianDMP, all position components, all step functions and quaternion step functions, all step lengths, all demonstrations", "why_tests_cant": "The statement relates two classes over unbounded histories and gives error bounds with constants for all step lengths and demonstrations; tests compare single runs with a tolerance.", "anchors": ["movement_primitives/dmp/_cartesian_dmp.py: CartesianDMP.step, open_loop, imitate, set_weights, set_execution_time_", "movement_primitives/dmp/_dmp.py: DMP, dmp_open_loop, dmp_imitate", "movement_primitives/base.py: PointToPointMovement.configure"]}
{"id": "C105", "title": "The Runge-Kutta step functions are of fourth order", "statement": "When the time step of a DMP that is integrated with RK4 (Python or compiled) is made smaller, the error of the positions returned by open_loop with respect to the solution of the DMP's differential equation falls with the fourth power of the time step. (True for the equation in which the forcing term and the phase run ahead of the time by one time step, and hence for the DMP's own equation when it has no forcing; false otherwise: for every critically damped DMP with equal weights that are not cancelled by the smoothing, the error at every time is at least proportional to the time step, because the forcing term is read one time step too far ahead.)", "quantifier": "every object reached from the constructor by any history of calls, every dimension, weights, gains, start, goal and smooth scaling, every time step, both RK4 step functions, every time up to every horizon; the lower bound for all critically damped objects with equal weights in a dimension", "why_tests_cant": "An order of accuracy is a statement about all sufficiently small time steps at once; a test with two or three time steps cannot distinguish orders, and a lower bound on the error must hold for all of them.", "anchors": ["movement_primitives/dmp/_dmp.py: dmp_step_rk4", "movement_primitives/dmp_fast.pyx: dmp_step_rk4", "movement_primitives/dmp/_dmp.py: DMP.open_loop", "movement_primitives/dmp/_base.py"]}
{"id": "C106", "title": "A demonstration in another frame, for another tool orientation or at another speed gives the same Cartesian movement", "statement": "Let a CartesianDMP imitate a demonstration, and let another one imitate the demonstration that results from turning and shifting the world frame, turning the tool frame and slowing the demonstration down. Then both calls of imitate succeed, and open_loop of the second object returns the same times as open_loop of the first and the poses of the first turned and shifted in the same way (or fails with the same error). The gains of axes that the world rotation mixes must be equal, as they are by default, and a demonstration that is slowed down must start at time 0.", "quantifier": "every pair of objects made by the constructor with the same settings and then changed by any history of calls that configure them, every demonstration with unit orientations, every rotation and translation of the world, every rotation of the tool, every positive slow-down factor, every regularization coefficient >= 0, both step functions for orientations, every integration method for positions, every run time", "why_tests_cant": "The identity is exact, and couples the whole of learning (velocities by finite differences, logarithms of quaternions, ridge regression) with the whole of a run for infinitely many rotations and demonstrations; a test compares a few of them up to a tolerance.", "anchors": ["movement_primitives/dmp/_cartesian_dmp.py: CartesianDMP.imitate, CartesianDMP.open_loop", "movement_primitives/dmp/_cartesian_dmp.py: dmp_quaternion_imitation, determine_forces_quaternion, dmp_step_quaternion_python", "movement_primitives/dmp/_dmp.py: dmp_imitate, determine_forces", "movement_primitives/dmp_fast.pyx: dmp_step_quaternion"]}
{"id": "C107", "title": "A ProMP does not depend on the coordinate frame and on the unit of time", "statement": "Turning or mirroring the space of the demonstrations, shifting it, and changing the unit of time of each demonstration changes what a ProMP learns in the same way: imitate gives the turned and shifted distribution of trajectories and velocities with the same noise variance, weights gives the turned weights, and condition_position and via_points commute with the change of frame. (True for rotations and reflections about the origin and for units of time; false for shifts: imitate divides the noise variance by the norm of the means, so that the learned mean depends on the distance to the origin.)", "quantifier": "every number of dimensions and weights, every orthogonal matrix, every weight distribution, every list of demonstrations, every number of iterations and termination threshold, every via-point with or without a covariance matrix; the counterexample for every shift s > 0", "why_tests_cant": "The result of expectation-maximization is the outcome of an unbounded number of matrix inversions; that it commutes exactly with all rotations cannot be sampled.", "anchors": ["movement_primitives/promp.py: ProMP.imitate, ProMP._expectation, ProMP._maximization", "movement_primitives/promp.py: ProMP.weights, ProMP.condition_position, via_points", "movement_primitives/promp.py: ProMP.mean_trajectory, cov_trajectory, mean_velocities, cov_velocities"]}
{"id": "C108", "title": "Learning a ProMP never makes the demonstrations less likely", "statement": "Each iteration of ProMP.imitate increases the likelihood of the demonstrations under the distribution of trajectories and the noise variance of the ProMP, as expectation-maximization does. (False: four copies of one demonstration become less likely in the first iteration, because the noise variance is divided by the norm of the means times the number of demonstrations.)", "quantifier": "every list of demonstrations, every number of iterations", "why_tests_cant": "Monotonicity must hold for all demonstrations; tests check that the mean of the learned distribution is near the demonstrations, which does not involve the likelihood.", "anchors": ["movement_primitives/promp.py: ProMP.imitate, ProMP._maximization (lines 587-603)"]}
{"id": "C109", "title": "A learned Cartesian movement reproduces the demonstrated poses", "statement": "Let a movement of a hand (positions and orientations that start at rest, with accelerations that do not jump, and such that no orientation is 180 degrees or more away from the last one) be recorded with equidistant samples and imitated by a CartesianDMP. Then open_loop with the time step of the recording returns, at every time up to the end of the movement, a position close to the demonstrated position and a unit quaternion whose angle to the demonstrated orientation is small. The bound is a constant times: the square root of the time step, plus the error with which the basis functions can represent the required forcing term, plus the square root of the regularisation times the time step times the squared weights, plus 1e-7 divided by the squared time step (the resolution of the quaternion logarithm, whose threshold enters the computed accelerations). The constant depends on the movement and the gains only. Each recorded quaternion may be any of the two that represent the orientation.", "quantifier": "every such movement, every object made by the constructor and changed by any history of calls that configure it, every number of samples >= 2, every choice of the signs of the recorded quaternions, every regularization coefficient >= 0, every set of weights to compare with, both implementations of the orientation step, both Euler implementations for the positions, every time of the movement", "why_tests_cant": "It bounds the distance between two curves for every smooth movement and every sampling; a test compares a few demonstrations up to a hand-picked tolerance, and cannot see that the error goes to zero or how it depends on time step, regularisation and threshold.", "anchors": ["movement_primitives/dmp/_cartesian_dmp.py: CartesianDMP.imitate, CartesianDMP.open_loop", "movement_primitives/dmp/_cartesian_dmp.py: dmp_quaternion_imitation, determine_forces_quaternion, dmp_step_quaternion_python, dmp_open_loop_quaternion", "movement_primitives/dmp_fast.pyx: dmp_step_quaternion", "movement_primitives/dmp/_dmp.py: ridge_regression"]}
{"id": "C110", "title": "A two-armed movement is learned and played back as each arm would be alone", "statement": "For a DualCartesianDMP without tracking-error feedback, imitate followed by open_loop gives each arm the movement that a CartesianDMP with the gains and times of that arm learns from the seven columns of the arm, whatever the other arm does. Hence each arm reproduces the recorded poses of its hand up to the time step, how well the basis functions represent the required forcing term, the regularisation and the resolution of the quaternion logarithm; and it learns the same movement from a demonstration that describes its hand in another world frame, for another tool orientation or at another speed. imitate succeeds for every demonstration of the right shape.", "quantifier": "every DualCartesianDMP object reachable through the API (p_gain = 0, smooth scaling only with equal beta gains of the right arm or any gains of the left arm), either arm, every smooth movement of the hand, every sampling rate, every regularisation, every frame, tool and speed, both implementations", "why_tests_cant": "It ranges over all movements of both hands, all frames and all histories of the object; a test compares a few trajectories with hand-chosen tolerances.", "anchors": ["movement_primitives/dmp/_dual_cartesian_dmp.py: DualCartesianDMP.imitate, open_loop, step", "movement_primitives/dmp/_cartesian_dmp.py: CartesianDMP.imitate, open_loop, dmp_quaternion_imitation"]}
{"id": "C111", "title": "A movement that avoids obstacles still reaches its goal", "statement": "A DMP that is stepped with an obstacle avoidance coupling term comes to rest exactly at its goal, wherever the obstacle is, even on the way or at the goal, for all weights, starts, goals, first states and histories of the object, if gamma < e * beta * alpha_y * execution_time and the integration steps are short enough; how short depends on the gains, the duration and the strength of the term only. The same holds for every coupling term that adds no velocity and whose acceleration only steers: its power is at most kappa times the squared speed with kappa < alpha_y * execution_time, and its size is bounded by the speed. A term with no power may be arbitrarily strong.", "quantifier": "all numbers of dimensions, gains, durations, weights, starts, goals, first states, histories of calls, obstacles, coupling terms that steer, all four integrators and all short enough step lengths", "why_tests_cant": "It is about the limit of infinitely many steps of a nonlinear system that is not continuous at the line of sight to the obstacle, for every obstacle position and every weight vector; a run only shows one path.", "anchors": ["movement_primitives/dmp/_coupling_terms.py:CouplingTermObstacleAvoidance2D", "movement_primitives/dmp/_coupling_terms.py:CouplingTermObstacleAvoidance3D", "movement_primitives/dmp/_dmp.py:DMP.step", "movement_primitives/dmp/_dmp.py:dmp_step_rk4", "movement_primitives/dmp/_dmp.py:dmp_step_euler", "dmp_fast.pyx:dmp_step", "dmp_fast.pyx:dmp_step_rk4"]}
{"id": "C112", "title": "A state-following movement comes to rest at a known weighted mean of its via-points, not at the last one", "statement": "Whatever was done with a StateFollowingDMP before (configure, reset, steps, assigning dt_, int_dt or viapoints), if it is stepped on without a coupling term from any position and velocity, and its integration steps are shorter than a limit given by its gains and duration (h^2*stiffness + 2*h*damping < 4), then the returned position converges to a fixed place of rest and the returned velocity to zero. The place of rest is the mean of the via-points in which each via-point but the last counts 0.1^((1+q)/(1-q)) as much as the last, q = 0.01^(1/n). It differs from the last via-point by at most (n-1)*e^(-n) times the spread of the via-points; with two via-points 0 and 1 it is below 0.96. If all via-points are equal the step limit is also necessary.", "quantifier": "every StateFollowingDMP reachable by the public interface, every number of dimensions and via-points, all gains > 0, all durations and step lengths below the limit (int_dt at least dt or dividing it), all starting states, all later times", "why_tests_cant": "It is a limit over infinitely many steps from every state and every history of calls; a test looks at one trajectory up to one time and with a tolerance that hides that the end differs from the last via-point.", "anchors": ["movement_primitives/dmp/_state_following_dmp.py:StateFollowingDMP.step", "movement_primitives/dmp/_state_following_dmp.py:StateFollowingForcingTerm", "movement_primitives/dmp/_state_following_dmp.py:state_following_dmp_step"]}
{"id": "C113", "title": "A state-following movement does not depend on frame, unit of time, other dimensions and history", "statement": "If the via-points of a StateFollowingDMP are given in other coordinates (any affine map that mixes only dimensions with equal gains; selecting, repeating, scaling or rotating dimensions are examples) and its duration, dt_ and int_dt are multiplied by s > 0, then repeated steps from the transformed state and open_loop give the transformed states at times multiplied by s, with velocities divided by s. What step returns is determined by parameters, clock and the passed state: start, goal and earlier calls have no effect. open_loop is what repeated steps give after reset from the start position with velocity zero. If via-points, positions and velocities differ by at most D, all later states differ by at most K*D for ever, K depending only on gains, duration and step lengths.", "quantifier": "every pair of StateFollowingDMPs reachable by the public interface, all numbers of dimensions and via-points, all affine maps, all time factors, all numbers of steps, all run times, all states", "why_tests_cant": "It relates two runs for all coordinate changes, all histories of both objects and all later times; tests compare single trajectories.", "anchors": ["movement_primitives/dmp/_state_following_dmp.py:StateFollowingDMP.step", "movement_primitives/dmp/_state_following_dmp.py:StateFollowingDMP.open_loop", "movement_primitives/dmp/_state_following_dmp.py:state_following_dmp_step", "movement_primitives/dmp/_state_following_dmp.py:state_following_dmp_open_loop"]}
{"id": "C114", "title": "A minimum-jerk movement keeps its speed limits and does not depend on frame and unit of time", "statement": "Every sample of generate_minimum_jerk moves towards the goal or not at all, no faster than 15/8 of the distance per duration and accelerates by no more than 10/sqrt(3) of the distance per squared duration, consecutive samples are no further apart than these limits allow, and the speed limit is reached exactly half way; the way to the goal mirrors the way from the start. Start and goal in other coordinates (any affine map, also to another number of dimensions) and times in another unit give the same samples in these coordinates, and so does MinimumJerkTrajectory for every sequence of step, reset and configure calls, with the same exceptions.", "quantifier": "all starts, goals, execution times, step sizes, affine maps, time units and sequences of calls", "why_tests_cant": "bounds for every sample of trajectories of every length, and a statement about pairs of call histories", "anchors": ["movement_primitives/data/_minimum_jerk.py:generate_minimum_jerk", "movement_primitives/minimum_jerk_trajectory.py:MinimumJerkTrajectory.step", "movement_primitives/minimum_jerk_trajectory.py:MinimumJerkTrajectory.reset", "movement_primitives/base.py:PointToPointMovement.configure"]}
{"id": "C115", "title": "A damped movement without forcing term never overshoots its goal", "statement": "A DMP (or the positions of a CartesianDMP) whose weights are zero in a dimension, with alpha_y >= 4*beta_y > 0 there, and a SpringDamper with the default damping or a stronger one: when it starts at rest, or moves towards the goal no faster than sqrt(stiffness) times the distance, then every number of steps leaves it on the same side of the goal, not further away than any number of steps before, with a velocity that does not point away from the goal and keeps this speed limit, and the goal is never reached exactly from another position. This needs short steps: dt*(damping - sqrt(stiffness)) <= 1 with the Runge-Kutta step functions and int_dt*damping <= 1 with the Euler step functions and SpringDamper; a longer step can overshoot. The positions of both hands of a DualCartesianDMP that starts at rest and has p_gain = 0 never overshoot either, under the limit for Euler steps.", "quantifier": "all histories of the object, gains, goals, starts, step functions, step lengths within the limits and numbers of steps", "why_tests_cant": "overshooting is a statement about all pairs of times of runs of every length; a test samples one run with one set of gains", "anchors": ["movement_primitives/dmp/_dmp.py:DMP.step", "movement_primitives/dmp/_dmp.py:DMP.open_loop", "movement_primitives/dmp/_dmp.py:dmp_step_rk4", "movement_primitives/dmp/_dmp.py:dmp_step_euler", "movement_primitives/dmp/_cartesian_dmp.py:CartesianDMP.open_loop", "movement_primitives/spring_damper.py:SpringDamper.step", "movement_primitives/spring_damper.py:spring_damper_step", "movement_primitives/dmp/_dual_cartesian_dmp.py:DualCartesianDMP.open_loop"]}
{"id": "C116", "title": "Spring-damper systems do not depend on the frame, the number of dimensions and the unit of time", "statement": "Two SpringDamper objects, the second one built with times dt and int_dt multiplied by s, stiffness k divided by s^2 and damping c divided by s (a default damping stays the default), whose starts and goals are images of each other under an affine map, possibly to another number of dimensions: after every sequence of step, reset, configure and open_loop calls with corresponding arguments (also with corresponding coupling terms) each call returns the corresponding positions, velocities and times, or both raise the same exception.", "quantifier": "all affine maps, time units, stiffnesses, dampings, step sizes and sequences of calls", "why_tests_cant": "a statement about pairs of call histories and all coordinate systems; a test compares a few", "anchors": ["movement_primitives/spring_damper.py:SpringDamper.__init__", "movement_primitives/spring_damper.py:SpringDamper.step", "movement_primitives/spring_damper.py:SpringDamper.reset", "movement_primitives/spring_damper.py:SpringDamper.open_loop", "movement_primitives/spring_damper.py:spring_damper_step", "movement_primitives/base.py:PointToPointMovement.configure"]}
{"id": "C117", "title": "Going to a pose in the simulation sends one position target and then only simulation steps", "statement": "UR5Simulation.goto_ee_state sends the solution of the inverse kinematics for the pose as the target of position control and then performs the waiting time, rounded down to whole steps, in steps of the simulation, and nothing else; it ends early only when the connection is lost. A pose with fewer than four values or without a solution is refused with an exception before anything is sent, and every other pose is accepted. Without a connection step raises AssertionError and sends nothing, while goto_ee_state returns normally.", "quantifier": "all behaviours of the physics engine (also losing the connection after any step), poses, step lengths and waiting times", "why_tests_cant": "the loss of the connection can happen at every step, and the engine can answer anything", "anchors": ["movement_primitives/testing/simulation.py:UR5Simulation.goto_ee_state", "movement_primitives/testing/simulation.py:PybulletSimulation.sim_loop", "movement_primitives/testing/simulation.py:PybulletSimulation.step"]}
{"id": "C118", "title": "Mean and covariance of a ProMP are those of the trajectories it describes", "statement": "If the weights of a ProMP are random with the mean and the covariance of its weight distribution, the result of mean_trajectory is the mean of the trajectories that trajectory_from_weights computes for these weights, cov_trajectory is their covariance at every two steps and dimensions, and var_trajectory is the mean of the squared deviation; the same holds for mean_velocities, cov_velocities and var_velocities and the velocities of the random weights. Trajectories of sample_trajectories whose weights have the weighted mean and covariance of the ProMP have the mean trajectory as their weighted mean and its covariance and variance as theirs.", "quantifier": "all sizes, weight distributions, times, distributions of the weights with these two moments (not only normal ones), steps and dimensions", "why_tests_cant": "tests compare a finite number of samples with the covariance, within a tolerance and for one distribution", "anchors": ["movement_primitives/promp.py:ProMP.mean_trajectory", "movement_primitives/promp.py:ProMP.cov_trajectory", "movement_primitives/promp.py:ProMP.var_trajectory", "movement_primitives/promp.py:ProMP.mean_velocities", "movement_primitives/promp.py:ProMP.cov_velocities", "movement_primitives/promp.py:ProMP.var_velocities", "movement_primitives/promp.py:ProMP.sample_trajectories", "movement_primitives/promp.py:ProMP.trajectory_from_weights"]}
{"id": "C119", "title": "Orientations of a Cartesian movement approximate the solution of the equation of orientation", "statement": "A CartesianDMP stands for a differential equation of the orientation: the angular acceleration is that of a spring-damper along the shortest rotation vector to the goal, plus the forcing term. Whenever this equation has a solution on [0, T] that stays away from the orientation that is upside down with respect to the goal, the solution is unique, and the orientations returned by open_loop differ from it by at most a constant times min(dt, int_dt) + 1e-7, at all times up to T, for the Python and the Cython quaternion step and every run_t. The constant depends on the equation only, not on dt, int_dt or the implementation, so halving the integration step halves the error until the resolution of the quaternion logarithm is reached. Without forcing term and with critically damped gains (alpha = 4 beta, the default) the solution is known: the movement turns about a fixed axis on the shortest way, and after the time t the fraction (1 + l t) exp(-l t) of the initial angle remains, with l = alpha / (2 execution_time).", "quantifier": "for all CartesianDMPs reachable by any history with unit start and goal orientation, all gains, weights, smooth_scaling, all T and all solutions of the equation, all objects with the same equation and any dt and int_dt > 0, all run_t, both implementations, all returned time steps", "why_tests_cant": "The claim is about the limit of all step lengths and about all solutions of a nonlinear differential equation on the rotation group, most of which have no closed form to compare with.", "anchors": ["movement_primitives/dmp/_cartesian_dmp.py:CartesianDMP.open_loop", "movement_primitives/dmp/_cartesian_dmp.py:dmp_step_quaternion_python", "movement_primitives/dmp/_cartesian_dmp.py:dmp_open_loop_quaternion", "movement_primitives/dmp_fast.pyx:dmp_step_quaternion"]}
{"id": "C120", "title": "The plotted potential field shows accelerations to scale, and its arrows grow with exaggerate_arrows", "statement": "plot_potential_field_2d draws, at every point of the grid, the influence of the transformation system in green, of the forcing term in red, of the obstacle in yellow and their sum in black. All groups use the same scale, so that their lengths can be compared, the black arrow is the sum of the other three, and no black arrow exceeds the width of the plot divided by n_ticks in x or y. Arrow sizes are multiplied by exaggerate_arrows.", "quantifier": "for all two-dimensional DMPs, ranges, numbers of ticks, obstacles and positive factors, at all points of the grid", "why_tests_cant": "The function is excluded from coverage and only draws; whether a factor cancels out for all fields can only be seen by reasoning over all accelerations.", "anchors": ["movement_primitives/dmp_potential_field.py:plot_potential_field_2d", "movement_primitives/dmp_potential_field.py:potential_field_2d"]}
{"id": "C121", "title": "Spring-damper movements approximate the solution of the equation of a damped spring", "statement": "The positions and velocities that SpringDamper computes with repeated step calls, from every position and velocity, and the orientations and angular velocities of SpringDamperOrientation are those of the solution of y'' = k (goal - y) - c y', up to an error proportional to the length of an integration step (for orientations plus the resolution of the quaternion logarithm). With the default damping the fraction (1 + sqrt(k) t) exp(-sqrt(k) t) of the way remains at time t of open_loop, and an orientation turns about one fixed axis on the shortest way.", "quantifier": "all stiffnesses, dampings, starts, goals, velocities, durations, time steps and integration steps", "why_tests_cant": "a limit over all step lengths, for all parameters", "anchors": ["movement_primitives/spring_damper.py:SpringDamper", "movement_primitives/spring_damper.py:SpringDamperOrientation", "movement_primitives/spring_damper.py:spring_damper_step", "movement_primitives/spring_damper.py:spring_damper_step_quaternion"]}
{"id": "C122", "title": "Both hands of a DualCartesianDMP follow the differential equations of their movements", "statement": "The positions of each hand that DualCartesianDMP.open_loop returns are those of the unique solution of tau^2 y'' = alpha (beta (goal - y) - tau y' - smooth scaling) + f with the gains, start, goal and weights of that hand, up to an error proportional to the length of an integration step, and its orientations are those of the solution of the corresponding equation of orientation. What belongs to the other hand has no influence on either. Without weights, smooth scaling and with the default ratio of the gains an orientation turns about one fixed axis on the shortest way.", "quantifier": "all DualCartesianDMP objects after every sequence of calls, both hands, all weights, gains, starts, goals, durations, time steps and integration steps", "why_tests_cant": "a limit over all step lengths, for all parameters and histories", "anchors": ["movement_primitives/dmp/_dual_cartesian_dmp.py:DualCartesianDMP.open_loop", "movement_primitives/dmp/_dual_cartesian_dmp.py:DualCartesianDMP.step", "movement_primitives/dmp/_dual_cartesian_dmp.py:dmp_step_dual_cartesian_python"]}
{"id": "C123", "title": "State-following movements approximate the solution of their differential equation", "statement": "The positions that StateFollowingDMP.open_loop returns are those of the unique solution of tau^2 y'' = alpha (beta (m(t) - y) - tau y') from the start at rest, up to an error proportional to the length of an integration step, where tau is half the execution time and m(t) is the mean of the via-points with the weights that the forcing term returns at time t. Repeated calls of step do the same for positions and velocities, from any state and at any time of the clock. The other dimensions have no influence.", "quantifier": "all StateFollowingDMP objects after every sequence of calls, all via-points, gains, starts, durations, states, time steps and integration steps", "why_tests_cant": "a limit over all step lengths, for all parameters, states and histories", "anchors": ["movement_primitives/dmp/_state_following_dmp.py:StateFollowingDMP.open_loop", "movement_primitives/dmp/_state_following_dmp.py:StateFollowingDMP.step", "movement_primitives/dmp/_state_following_dmp.py:state_following_dmp_step"]}
{"id": "C124", "title": "Spring-dampers can be used after every sequence of calls", "statement": "After every sequence of configure, reset, step and attribute assignments, rejected calls included, SpringDamper.step accepts every state and velocity with n_dims entries and returns arrays with n_dims entries, and SpringDamperOrientation.step accepts a quaternion and an angular velocity and returns arrays with 4 and 3 entries. What they return depends on the history only through dt, k, c, int_dt, goal and clock. Other lengths (except 1, which is broadcast) raise ValueError; the clock moves although the step is rejected.", "quantifier": "all histories, dimensions, states, coupling terms and attributes with positive dt and int_dt", "why_tests_cant": "an invariant of all sequences of calls, including rejected ones", "anchors": ["movement_primitives/spring_damper.py:SpringDamper.step", "movement_primitives/spring_damper.py:SpringDamperOrientation.step", "movement_primitives/base.py:PointToPointMovement.configure"]}
{"id": "C125", "title": "Smooth scaling avoids the jump at the beginning when the goal is changed", "statement": "For two DMP objects that differ in a dimension only in their goal (same settings, gains, start and weights) and that use smooth_scaling, the two open-loop trajectories are at the same times and part like C * |goal' - goal| * t^3 in that dimension up to any chosen time, where C depends neither on the goals, the start, the weights, dt, int_dt, run_t nor on the step function. Without smooth_scaling there is no such C: for every factor, objects with small enough steps part by more than C * |goal' - goal| * dt^3 already in their first step, because the acceleration jumps by alpha * beta * (goal' - goal) / tau^2. The same holds for each component of the position of two CartesianDMP objects, whatever their orientations do. And for the position of each hand of a DualCartesianDMP that starts at rest and has p_gain = 0, whatever the other hand does.", "quantifier": "All pairs of objects that any sequence of calls produces, all goals, starts, weights, step sizes, run times, step functions, and all gains and execution times.", "why_tests_cant": "A test compares a few trajectories for one goal change and one dt; the claim is about the order with which movements part for every goal, every set of weights and every step size with one constant.", "anchors": ["movement_primitives/dmp/_dmp.py:DMP", "movement_primitives/dmp/_dmp.py:dmp_step_rk4", "movement_primitives/dmp/_dmp.py:dmp_step_euler", "movement_primitives/dmp/_dmp.py:dmp_open_loop", "movement_primitives/dmp/_cartesian_dmp.py:CartesianDMP.open_loop", "movement_primitives/dmp/_dual_cartesian_dmp.py:DualCartesianDMP.open_loop"]}
{"id": "C126", "title": "A coupling term learned from a demonstration asks for the demonstrated relative poses at the right times", "statement": "A CouplingTermDualCartesianTrajectory that has just imitated a demonstration is asked once per integration step of a DualCartesianDMP: at the times 0, dt, 2 dt, ... of its own clock, which shows k * m * dt after k steps of the movement with m integration steps each, so that it agrees with the movement if its dt is the length of the integration steps. At the times of the samples it asks for the demonstrated relative pose plus the position offset. Between two samples with relative orientations of less than a quarter turn it asks for the linearly interpolated relative position and for an orientation that is at least as close to each of the two demonstrated ones as they are to each other. Refuted: with the dt of the movement (as in the example of the repository) the clock runs m times too fast; with the offset pose that stands for no offset (position 0, quaternion of no rotation) the desired orientation can be a quarter turn away from the demonstrated one, because quaternions are added; between two demonstrated orientations that are 18 degrees apart, the desired orientation can be more than 168 degrees away from both, because the quaternions are interpolated without making their signs agree.", "quantifier": "All demonstrations with strictly increasing times, all objects, numbers of steps, step sizes, spring constants, offsets, states and step functions.", "why_tests_cant": "The clock is hidden state that is advanced inside the integration loop; tests run one demonstration with one dt, where neither the sign of the quaternions nor the ratio of the step sizes shows.", "anchors": ["movement_primitives/dmp/_coupling_terms.py:CouplingTermDualCartesianTrajectory", "movement_primitives/dmp/_dual_cartesian_dmp.py:DualCartesianDMP.step", "movement_primitives/dmp/_dual_cartesian_dmp.py:dmp_step_dual_cartesian_python"]}
{"id": "C127", "title": "Results do not depend on what uninitialised memory contained", "statement": "The library allocates the centres and widths of its basis functions with np.empty, so they start with whatever the memory contained. For DMP, DMPWithFinalVelocity, CartesianDMP, DualCartesianDMP and StateFollowingDMP two runs of the same program - the same constructor call followed by any list of the same calls and assignments, also calls that raise - give the same results, exceptions, weights and states call by call, whatever the memory contained in each run. Not true of attributes: two StateFollowingDMP objects made by the same constructor call with a single via-point can have different forcing_term.widths.", "quantifier": "all contents of uninitialised memory in both runs, all constructor arguments, all finite sequences of calls with all arguments, coupling terms and step functions", "why_tests_cant": "The contents of freshly allocated memory differ from run to run and are usually zero in a test; a missing initialisation shows up only sometimes.", "anchors": ["movement_primitives/dmp/_forcing_term.py:ForcingTerm._init_rbfs", "movement_primitives/dmp/_state_following_dmp.py:StateFollowingForcingTerm._init_rbfs", "movement_primitives/dmp/_dmp.py:DMP", "movement_primitives/dmp/_dmp_with_final_velocity.py:DMPWithFinalVelocity", "movement_primitives/dmp/_cartesian_dmp.py:CartesianDMP", "movement_primitives/dmp/_dual_cartesian_dmp.py:DualCartesianDMP", "movement_primitives/dmp/_state_following_dmp.py:StateFollowingDMP"]}
{"id": "C128", "title": "The distribution over trajectories is exact for positions", "statement": "propagate_weight_distribution_to_state_space learns a DMP from each demonstration, estimates a Gaussian over the parameters and propagates it with sigma points. Every position of a propagated trajectory is a fixed linear function of the parameters (one factor for the start, one for the goal and one per weight; the same for both hands, all axes and all parameter vectors). Therefore the mean of the returned distribution at a position entry is the sample mean, over the demonstrations, of the movements that the learned DMPs generate with the mean execution time, and the covariance of two position entries is their sample covariance, whatever alpha and kappa are. The order of the demonstrations does not matter (as long as the Gaussian fitted by gmr does not depend on the order of its samples).", "quantifier": "all data sets for which the parameters can be estimated, numbers of weights, time steps dt and int_dt, both step functions, all alpha and kappa and all implementations of MVN that keep gmr's contract, all pairs of position entries of all steps", "why_tests_cant": "a test can compare the distribution with Monte Carlo samples up to sampling error, for a few data sets and values of alpha and kappa", "anchors": ["movement_primitives/dmp_to_state_space_distribution.py:propagate_weight_distribution_to_state_space", "movement_primitives/dmp_to_state_space_distribution.py:propagate_to_state_space", "movement_primitives/dmp_to_state_space_distribution.py:estimate_state_distribution"]}
{"id": "C129", "title": "More regularization gives smaller weights and a worse fit", "statement": "imitate(T, Y, regularization_coefficient=c) of DMP, DMPWithFinalVelocity, CartesianDMP and DualCartesianDMP: whether a demonstration is accepted does not depend on c >= 0. In each dimension, as c grows the sum of squares of the weights never grows and the squared error between the forces the demonstration needs and the forces of the learned forcing term never shrinks. c times the sum of squares of the weights is at most the sum of squares of the needed forces, so the weights vanish as c grows; the squared error is at most that of any other weights plus c times their sum of squares, so the fit becomes the best possible one as c vanishes. The movement of a DMP learned with c differs from the movement without forces between the same start and goal by at most a constant (independent of c and of the length of the movement) times the square root of needed forces squared over c.", "quantifier": "all objects (for DMP: all that histories of calls reach), demonstrations that are accepted, pairs of coefficients 0 <= c1 <= c2, dimensions and competing weights; for the movement all step functions whose steps shrink (C100), gains and run times", "why_tests_cant": "tests can compare the weights for a few coefficients and demonstrations; the order must hold for every pair of coefficients, including rank deficient design matrices and c = 0", "anchors": ["movement_primitives/dmp/_dmp.py:ridge_regression", "movement_primitives/dmp/_dmp.py:DMP.imitate", "movement_primitives/dmp/_dmp.py:dmp_imitate", "movement_primitives/dmp/_cartesian_dmp.py:CartesianDMP.imitate", "movement_primitives/dmp/_dual_cartesian_dmp.py:DualCartesianDMP.imitate", "movement_primitives/dmp/_dmp_with_final_velocity.py:DMPWithFinalVelocity.imitate"]}
{"id": "C130", "title": "Incomplete files are completed with the documented defaults or reported", "statement": "read_json and read_yaml on a file from which parts are missing (an older version, edited by hand): a constructor argument that is not in the file takes the default value of the class's documentation, that is the result is the same as for the file with that default added; a missing argument without default makes the call raise; a missing module or class entry raises KeyError, an unknown module or class ImportError. For DMP, DMPWithFinalVelocity, CartesianDMP, DualCartesianDMP, StateFollowingDMP, ProMP, SpringDamper, MinimumJerkTrajectory and ForcingTerm.", "quantifier": "all files that name one of these classes with any other entries of any nesting, all arguments of its constructor", "why_tests_cant": "tests read files that the library wrote; the claim is about every file and every subset of missing arguments", "anchors": ["movement_primitives/io.py:_dict_to_object", "movement_primitives/io.py:read_json", "movement_primitives/io.py:read_yaml", "movement_primitives/dmp/_dmp.py:DMP.__init__", "movement_primitives/promp.py:ProMP.__init__"]}
{"id": "C131", "title": "Movements approach their goal exponentially fast, with a rate that is known", "statement": "For a DMP, an integrator and a dimension, let lam >= 0 be such that one step multiplies every motion of the unforced spring by less than exp(-lam dt) and lam times the execution time of the basis functions is at most ln 100. Then there is a factor K, which depends on the settings and gains only, such that open_loop returns positions with |y(t) - goal| <= K (|start - goal| + largest weight) exp(-lam t) at every returned time t, for all weights, starts, goals, run_t and earlier calls; the same holds for step after reset, from any start velocity, and for the velocity. Whenever movements reach the goal at all (the exact condition of C100) such a positive lam exists. With the default gains, Runge-Kutta steps of at most a tenth of the execution time allow lam = ln 100 / execution_time: every further execution time brings the movement 100 times closer. The positions of a CartesianDMP have the same rate. So have the positions of both hands of a DualCartesianDMP that starts at rest and has p_gain = 0. A SpringDamper approaches its goal from every state with such a bound for every lam with which the Euler sub-steps shrink, such a positive lam exists under the exact condition of C100, and with the default damping and sub-steps h < 1 / (2 sqrt(k)) the rate is at least sqrt(k) / 2.  open_loop of a SpringDamper returns positions with |y(t) - goal| <= K |start - goal| exp(-lam t) at every returned time, and step stays within any tolerance eps from the time ln(K D / eps) / lam on.  A DMPWithFinalVelocity approaches its goal with the same rate from the state it has after the execution time.  For every tolerance eps the positions of a DMP stay within eps of the goal at all returned times t with lam t >= ln(K D / eps); with the default gains m execution times are enough once K D <= 100^m eps.", "quantifier": "all step functions, gains, step lengths, weights, starts, goals, start velocities, run_t, numbers of steps and histories of calls", "why_tests_cant": "tests look at the distance at the end of a few trajectories; a rate is a claim about all later times and a factor that serves all weights, starts and goals", "anchors": ["movement_primitives/dmp/_dmp.py:DMP.open_loop", "movement_primitives/dmp/_dmp.py:DMP.step", "movement_primitives/dmp/_dmp.py:dmp_step_rk4", "movement_primitives/dmp/_dmp.py:dmp_step_euler", "movement_primitives/dmp/_canonical_system.py:phase", "movement_primitives/dmp/_cartesian_dmp.py:CartesianDMP.open_loop", "movement_primitives/dmp/_dual_cartesian_dmp.py:DualCartesianDMP.open_loop", "movement_primitives/spring_damper.py:SpringDamper.step", "movement_primitives/dmp/_dmp_with_final_velocity.py:DMPWithFinalVelocity.step"]}
{"id": "C132", "title": "A longer run begins with the shorter one", "statement": "If open_loop(run_t=b) returns, then open_loop(run_t=a) returns for every a with -dt < a <= b, its times and its rows are exactly the first times and rows of the longer run, and every further time of the longer run is at least a + dt. The length of a run therefore never changes what happens before its end. This holds with run_t=None (the execution time) on either side, for DMP, DMPWithFinalVelocity, CartesianDMP, DualCartesianDMP (also when its coupling term carries its own state), StateFollowingDMP, SpringDamper and SpringDamperOrientation, with every coupling term and step function", "quantifier": "all objects with dt > 0, all end times -dt < a <= b, all coupling terms, step functions and weights", "why_tests_cant": "Tests run one or two end times; the claim compares all pairs of end times, where the number of samples comes from a rounded-up quotient and a loop condition", "anchors": ["movement_primitives/dmp/_dmp.py:dmp_open_loop", "movement_primitives/dmp/_dmp_with_final_velocity.py:open_loop", "movement_primitives/dmp/_cartesian_dmp.py:dmp_open_loop_quaternion", "movement_primitives/dmp/_dual_cartesian_dmp.py:open_loop", "movement_primitives/dmp/_state_following_dmp.py:state_following_dmp_open_loop", "movement_primitives/spring_damper.py:open_loop"]}
{"id": "C133", "title": "A DMP follows a goal that keeps moving", "statement": "If configure(goal_y=...) gives a DMP a new goal before every step and each step continues from the state returned before, then no call raises and, as long as the goal moves by at most D per step from some step on, the returned position and the goal differ in the end by at most K*D (and the returned velocity is at most K*D), where K depends only on the integrator, the gains and the step lengths: not on the weights, the start, the clock, the path of the goal or the history of the object. If the movements of the goal fade away (even if the goal itself does not converge), the distance between DMP and goal fades away as well. The same holds for SpringDamper objects, for every stiffness and damping for which their steps shrink. The same holds for the position of a CartesianDMP whose goal pose is moved before every step, whatever the orientations are. The same holds for both hands of a DualCartesianDMP without tracking-error feedback and without coupling term. It also holds for a DMPWithFinalVelocity, for every goal sequence with eventually bounded increments.", "quantifier": "every integrator and all gains and step lengths for which the steps make free motions of the spring smaller, every DMP reached by any history of calls, every infinite sequence of goals whose increments are eventually bounded (with smooth scaling: a bounded sequence), every initial state", "why_tests_cant": "The claim ranges over all infinite sequences of goals and over the limit of infinitely many steps; a test sees one finite path of the goal.", "anchors": ["movement_primitives/base.py: PointToPointMovement.configure", "movement_primitives/dmp/_dmp.py: DMP.step, dmp_step_rk4, dmp_step_euler", "movement_primitives/dmp_fast.pyx: dmp_step, dmp_step_rk4", "movement_primitives/spring_damper.py: SpringDamper.step, spring_damper_step", "movement_primitives/dmp/_cartesian_dmp.py: CartesianDMP.step, CartesianDMP.configure", "movement_primitives/dmp/_dual_cartesian_dmp.py: DualCartesianDMP.step", "movement_primitives/dmp/_dmp_with_final_velocity.py: DMPWithFinalVelocity.step, dmp_step_euler_with_constraints"]}
{"id": "C134", "title": "Learning from a blend of demonstrations blends the movements", "statement": "A DMP that imitates p times one and q times another demonstration (sample by sample, both sampled at the same times) moves along p times the movement it would have learned from the first and q times the movement it would have learned from the second demonstration, at every sample of open_loop and for every choice of p and q: averaging demonstrations and then learning is the same as learning and then averaging. Likewise a DMP whose start, goal and weights are p times those of one and q times those of another DMP produces that combination of their movements, or all three runs raise the same exception. The positions of a CartesianDMP and of each hand of a DualCartesianDMP (at rest at the start, p_gain = 0) blend in the same way, whatever orientations and the other hand do.", "quantifier": "all coefficients p and q, all pairs of demonstrations with the same sample times, all regularization coefficients, both settings of allow_final_velocity, all integrators, run times and DMPs reached by any history of calls", "why_tests_cant": "Linearity in two demonstrations at once must hold for all pairs of demonstrations, coefficients and all sizes; tests compare a few literals with a tolerance.", "anchors": ["movement_primitives/dmp/_dmp.py: DMP.imitate, dmp_imitate, determine_forces, ridge_regression, DMP.open_loop, dmp_step_rk4, dmp_step_euler", "movement_primitives/dmp_fast.pyx: dmp_step, dmp_step_rk4", "movement_primitives/dmp/_dual_cartesian_dmp.py:DualCartesianDMP.open_loop", "movement_primitives/dmp/_dual_cartesian_dmp.py:DualCartesianDMP.imitate"]}
{"id": "C135", "title": "Avoiding obstacles does not depend on the coordinate frame", "statement": "If a demonstration and an obstacle are described in another coordinate frame (rotated, reflected and shifted), a DMP with equal gains in all dimensions that imitates the demonstration and is played back with the obstacle avoidance coupling term for the obstacle moves along the same path, described in the other frame, sample by sample, in two and in three dimensions and also when the obstacle is hit or headed for exactly. The same holds for every coupling term that is the same in both frames.", "quantifier": "all orthogonal matrices, translations, obstacles, parameters gamma and beta, demonstrations, integrators (Python and Cython), run times and DMPs reached by any history of calls", "why_tests_cant": "Equivariance must hold for all frames and all states including the degenerate ones where the rotation axis vanishes; tests check a few frames with a tolerance.", "anchors": ["movement_primitives/dmp/_coupling_terms.py: obstacle_avoidance_acceleration_2d, obstacle_avoidance_acceleration_3d, CouplingTermObstacleAvoidance2D, CouplingTermObstacleAvoidance3D", "movement_primitives/dmp/_dmp.py: DMP.imitate, DMP.open_loop, dmp_step_rk4, dmp_step_euler", "movement_primitives/dmp_fast.pyx: dmp_step, dmp_step_rk4, obstacle_avoidance_acceleration_2d"]}
{"id": "C136", "title": "A coupled pair of arms moves the same way in every world frame", "statement": "Turn and shift the world in which a DualCartesianDMP is used: start and goal poses of both arms, or the demonstration that imitate learns from, are given in the new frame. With the coupling terms for the distance, the relative pose or a trajectory of relative poses of the two arms (whose desired values need not be changed), open_loop then returns the same times and the poses of the original run in the new frame, or fails with the same error. The trajectory of a trajectory coupling may be recorded in yet another frame. For two positions in one DMP that are coupled by a desired displacement (CouplingTermPos3DToPos3D, CouplingTermPos1DToPos1D) the same holds if the displacement is mapped as a vector, for every linear map and shift.", "quantifier": "every unit quaternion and shift, every pair of reachable DualCartesianDMP objects with the same settings and equal gains (the default) without tracking-error feedback, every demonstration with unit quaternions, every spring, leader and follower setting and desired value of the coupling terms, every run time, both step functions, with and without smooth scaling", "why_tests_cant": "a test compares a few frames; a dependence on the axes of the world can cancel in those", "anchors": ["movement_primitives/dmp/_coupling_terms.py: CouplingTermDualCartesianDistance, CouplingTermDualCartesianPose, CouplingTermDualCartesianTrajectory, CouplingTermPos3DToPos3D, CouplingTermPos1DToPos1D", "movement_primitives/dmp/_dual_cartesian_dmp.py: DualCartesianDMP.imitate, DualCartesianDMP.open_loop"]}
{"id": "C137", "title": "Which arm is called left does not matter to the pair", "statement": "Exchange the two arms of a DualCartesianDMP: start, goal, start velocities and learned weights of the left arm become those of the right arm and the other way round (for instance by imitating the demonstration with the columns of the arms exchanged), and the leader and follower settings of the coupling term for their distance are exchanged too. Then open_loop returns the same times and the run with the two arms exchanged, or fails with the same error. The same holds for one DMP that moves two coupled positions, where the desired displacement changes its sign.", "quantifier": "every pair of reachable DualCartesianDMP objects with the same settings and equal gains without tracking-error feedback, every demonstration with unit quaternions, every spring, leader and follower setting and desired distance, every run time, both step functions; for positions every pair of reachable DMPs with equal gains, every integrator, demonstration and desired displacement", "why_tests_cant": "a test compares a few pairs of movements; an index that is right for one arm only can be invisible in symmetric examples", "anchors": ["movement_primitives/dmp/_coupling_terms.py: CouplingTermDualCartesianDistance, CouplingTermPos1DToPos1D, CouplingTermPos3DToPos3D", "movement_primitives/dmp/_dual_cartesian_dmp.py: DualCartesianDMP.imitate, DualCartesianDMP.open_loop"]}
{"id": "C138", "title": "A condition makes a ProMP more certain, and only as far as the observation is new and precise", "statement": "Conditioning a ProMP on positions, once or several times, does not increase the variance of any component of position or velocity at any time, nor of any linear combination of them. Of two observations at the same time, the more precise one leaves at most as much uncertainty. What is observed changes only the mean: the covariance is the same for all observed positions, the mean movement for a blend of two observations is the blend of the mean movements, and observing exactly the expected position changes no mean position at all.", "quantifier": "all ProMPs with a covariance (numbers of dimensions and weights, means), all lists of conditions with noise described by covariances, all query times, all observed positions and blend factors", "why_tests_cant": "a test evaluates a few times and conditions; variance can grow between them or in a combination of components", "anchors": ["movement_primitives/promp.py: ProMP.condition_position, ProMP.cov_trajectory, ProMP.var_trajectory, ProMP.cov_velocities, ProMP.var_velocities, ProMP.mean_trajectory"]}
{"id": "C139", "title": "Independent components of a ProMP are conditioned independently", "statement": "Let the weights of different components of a ProMP be uncorrelated. However often condition_position is then called with observations whose errors are uncorrelated, the components stay independent: their positions and velocities are uncorrelated at all times. Each component of the result is exactly the one-dimensional ProMP obtained by making a ProMP of its weights alone and conditioning it on its own observed coordinate with its own variance, and that ProMP reports the same mean, variance and covariance of positions and velocities. So what is observed of one component never changes another one.", "quantifier": "every number of components and weights, every mean and every covariance of the weights without correlations between components, every list of conditions with uncorrelated errors, every observed position and every sequence of times", "why_tests_cant": "The result is an identity between two computations that invert matrices of different sizes; examples check it for a few sizes, covariances and observations up to rounding.", "anchors": ["movement_primitives/promp.py: ProMP.condition_position, ProMP._nd_block_diagonal, ProMP.mean_trajectory, ProMP.cov_trajectory, ProMP.var_trajectory, ProMP.mean_velocities, ProMP.cov_velocities, ProMP.var_velocities, ProMP.from_weight_distribution"]}
{"id": "C140", "title": "Behind a goal that moves at a constant speed a DMP settles at one known distance and velocity", "statement": "If configure(goal_y=...) moves the goal of a DMP by D before every step (at least in the long run), the states returned by step end up, for every history, start, weights and every state of the beginning, at one distance from the goal and with one velocity in the dimension concerned. They are the unique pair for which one step of the integrator, applied to the damped spring without forcing term, gives the same pair again after the goal has jumped by D. If one Euler step is made per call, the velocity is the velocity D / dt of the goal and the DMP is tau / beta times this velocity behind the goal that has just jumped. The same holds for the positions of a CartesianDMP (distance, velocity and lag per component), whatever the orientations of goal and hand do. It also holds for the positions of both hands of a DualCartesianDMP without tracking-error feedback and without coupling term. A SpringDamper ends up in the same way at its unique distance and velocity, and with one Euler step per call it is c / k (with the default damping 2 / sqrt(k)) times the velocity of the goal behind. It holds for a DMPWithFinalVelocity as well, whatever final velocity is configured.", "quantifier": "every history, all weights, starts, goal sequences whose increments approach D, initial states, all four step functions, all gains and step lengths for which the steps of the integrator shrink (C100)", "why_tests_cant": "The claim is about a limit of unboundedly many steps and about its independence of weights, history and initial state.", "anchors": ["movement_primitives/dmp/_dmp.py:DMP.step", "movement_primitives/dmp/_dmp.py:dmp_step_rk4", "movement_primitives/dmp/_dmp.py:dmp_step_euler", "movement_primitives/base.py:PointToPointMovement.configure", "movement_primitives/dmp_fast.pyx:dmp_step", "movement_primitives/dmp_fast.pyx:dmp_step_rk4", "movement_primitives/dmp/_cartesian_dmp.py:CartesianDMP.step", "movement_primitives/dmp/_dual_cartesian_dmp.py:DualCartesianDMP.step", "movement_primitives/spring_damper.py:SpringDamper.step", "movement_primitives/dmp/_dmp_with_final_velocity.py:DMPWithFinalVelocity.step"]}
{"id": "C141", "title": "DMPs forget where they began: movements towards the same moving goal come together", "statement": "Let configure(goal_y=...) be called before every step of two DMPs whose gains, execution times and step lengths agree in the dimension concerned. If their goals are eventually at most D apart, the states returned by step are eventually at most K D apart (plus any margin), in position and velocity, where K depends on the integrator, the gains and the step lengths only: not on weights, starts, numbers of dimensions, histories or the first states. If the goals are the same or approach each other, the movements approach each other. If the goals of one DMP repeat themselves every p steps, its returned states end up repeating themselves every p steps.  The same holds for DMPWithFinalVelocity, for pairs and for goals that repeat themselves.  It holds for SpringDamper as well.  It holds for the positions of CartesianDMPs, whatever the orientations.  The same holds for both hands of a DualCartesianDMP.", "quantifier": "all pairs of reachable DMPs with the same gains and step lengths, all goal sequences, weights, starts, histories and initial states, all four step functions, all gains and step lengths for which the steps of the integrator shrink (C100)", "why_tests_cant": "The claim compares all pairs of movements over unboundedly many steps with one constant.", "anchors": ["movement_primitives/dmp/_dmp.py:DMP.step", "movement_primitives/dmp/_dmp.py:dmp_step_rk4", "movement_primitives/dmp/_dmp.py:dmp_step_euler", "movement_primitives/base.py:PointToPointMovement.configure", "movement_primitives/dmp_fast.pyx:dmp_step", "movement_primitives/dmp_fast.pyx:dmp_step_rk4", "movement_primitives/dmp/_dmp_with_final_velocity.py:DMPWithFinalVelocity.step", "movement_primitives/spring_damper.py:SpringDamper.step", "movement_primitives/dmp/_cartesian_dmp.py:CartesianDMP.step", "movement_primitives/dmp/_dual_cartesian_dmp.py:DualCartesianDMP.step"]}
{"id": "C142", "title": "In the long run the answer of a DMP to moving goals is linear", "statement": "Let configure(goal_y=...) be called before every step of three DMPs whose gains, execution times and step lengths agree in the dimension concerned. If the goals of the third are eventually x times the goals of the first plus z times the goals of the second, up to D, the states returned by the third are eventually x times the states of the first plus z times the states of the second, up to K D (and any margin), in position and velocity. K depends on the integrator, the gains and the step lengths only; weights, starts, histories and first states do not matter.  The same holds for DMPWithFinalVelocity, for the positions of CartesianDMPs and of both hands of DualCartesianDMPs, and for SpringDampers.", "quantifier": "all real x and z, all triples of reachable DMPs with the same gains and step lengths, all goal sequences, weights, starts, histories and initial states, all four step functions, all gains and step lengths for which the steps of the integrator shrink (C100)", "why_tests_cant": "The claim compares all triples of movements over unboundedly many steps with one constant.", "anchors": ["movement_primitives/dmp/_dmp.py:DMP.step", "movement_primitives/dmp/_dmp.py:dmp_step_rk4", "movement_primitives/dmp/_dmp.py:dmp_step_euler", "movement_primitives/base.py:PointToPointMovement.configure", "movement_primitives/dmp_fast.pyx:dmp_step", "movement_primitives/dmp_fast.pyx:dmp_step_rk4", "movement_primitives/dmp/_dmp_with_final_velocity.py:DMPWithFinalVelocity.step", "movement_primitives/dmp/_cartesian_dmp.py:CartesianDMP.step", "movement_primitives/dmp/_dual_cartesian_dmp.py:DualCartesianDMP.step", "movement_primitives/spring_damper.py:SpringDamper.step"]}
