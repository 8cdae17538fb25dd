# Formal model of dfki-ric/movement_primitives

Proof assistant: Coq 8.16.1 (kernel checked, no axioms of our own).
`properties.jsonl` lists the properties, `MANIFEST.json` maps each to theorems,
`seeded/LOG.jsonl` records which theorems notice deliberately wrong programs.

## 1. How the code is modelled

* **Numbers.** Python floats are modelled by Coq's real numbers `R`; `np.exp`,
  `np.log`, `np.sqrt`, `np.arccos`, `cos`, `sin` by the functions of the
  standard library. Rounding, overflow, NaN and infinities are *not* part of
  these models. The exceptions are `M_Float.v` (C68), which models the time loops
  and one-dimensional minimum-jerk trajectories, and `M_FloatDmp.v` (C99), which
  models the Runge-Kutta integrators, with IEEE binary64 numbers as formalised by
  Flocq (round to nearest even). C99 bounds the distance between the binary64 and
  the real-number model of the default integrators for all numbers of steps.
* **Arrays.** Numerical kernels use index functions `vec = nat -> R` (entry `i`
  of an array; only indices below the length are meaningful). Code whose
  behaviour depends on lengths (configure, set_weights, step's assertions,
  reshape, broadcasting) uses arrays with an explicit length or shape.
  Linear-algebra code (ridge regression, ProMP, toy data) uses matrices
  `nat -> nat -> R` that are zero outside their shape (`M_Matrix.v`).
  `np.empty` is an arbitrary argument, called `junk`.
* **Exceptions** are values: `res A := Ok a | Err e`. When the Python code
  mutates the object before raising, the model returns the mutated object too.
* **Loops** `while current_t < t` are modelled with fuel that returns a
  distinguished `OutOfFuel` outcome; theorems show the fuel suffices.
* **Mutation.** In-place updates become state passing. Where aliasing is the
  point (C64, C79) `M_Heap.v` models arrays as views of buffers; C55 threads
  the caller's array through the calls.
* **Python and Cython.** Where both versions exist, both are modelled (parameter
  `impl := Python | Cython`) and compared (C08, C09, C40).
* **External libraries** enter as contracts, see section 4.

Every model definition cites the file and lines it models.
Files `M_*.v` hold definitions, `S_*.v` small specifications that do not use the
model's helpers, `P_*.v` proofs, `Properties_*.v` the final statements together
with examples `Cxx_satisfiable` that meet their hypotheses.
Suffix `_partial`: part of the property; `_refuted`: the code violates the
property, proved with a concrete witness. `tools/manifest.py` writes MANIFEST.json,
`tools/mutate.py` runs the wrong programs, `tools/assumptions.py` writes section 5.

## 2. Plan per property

| id | modelled | proof idea |
|----|----------|-----------|
| C01 | canonical_system_alpha, phase | exp/ln algebra, derivative, limit of exp |
| C02 | ForcingTerm constructor with uninitialised arrays | induction over loop; monotone exp |
| C03 | _activations | positivity of sums |
| C04 | forcing_term | finite sums, squeeze |
| C05 | ForcingTerm with start_t <> 0 | refutation by witness; correct part for start_t = 0 |
| C06 | dmp_step_rk4, _dmp_acc | equality with generic RK4 on a product space |
| C07 | evaluation times of RK4 | refutation, plus exact statement of the times used |
| C08 | dmp_step_rk4 (pyx) | functional extensionality + field |
| C09 | dmp_step (pyx), dmp_step_euler | loop simulation; refutation with coupling velocity |
| C10 | open-loop runs | simulation relation, induction over steps |
| C11 | open-loop runs | simulation relation, induction over steps |
| C12 | open-loop runs | invariant |
| C13 | open-loop runs, RK4 and Euler, final velocity | linear recurrence with decaying input, spectral bound |
| C14 | determine_forces, np.gradient | field |
| C15 | ridge_regression | Moore-Penrose equations, completion of squares |
| C16 | DMP.imitate as a state transformer | case analysis |
| C17 | dmp_imitate | refutation via C05; invariance of the forces |
| C18 | DMP.step, DMP.open_loop | induction; refutation for start velocity |
| C19 | np.arange | ceiling arithmetic |
| C20 | while loop | fuel = number of sub-steps, up arithmetic |
| C21 | DMP.step | functional dependence |
| C22 | DMP object state machine | bisimulation; refutation for reset-then-configure |
| C23, C24 | configure | invariant over histories; refutation of atomicity |
| C25 | ensure_1d_array over nested arrays | case analysis |
| C26, C27 | reshape / ravel / broadcasting | index arithmetic; refutation for short vectors |
| C28 | execution_time_ setter | computation; refutation of atomicity |
| C29 | solve_constraints, apply_constraints | nonsingular matrix, derivative |
| C30 | determine_forces (final velocity) | field |
| C31 | StateFollowingForcingTerm, state_following_dmp_step | finite sums; refutation for one via-point |
| C32 | quaternion functions of dmp_fast.pyx and pytransform3d | ring, trigonometry |
| C33-C37 | dmp_step_quaternion*, CartesianDMP | invariants and simulations |
| C38-C41 | dual arm step, open_loop | non-interference, simulation; refutations |
| C42-C45 | coupling terms | vector algebra, Cauchy-Schwarz, calculus bound |
| C46 | spring dampers, position and orientation | linear recurrence, geodesic invariant |
| C47-C49 | minimum jerk | closed form by induction; state machine |
| C50-C56 | ProMP | finite matrices, PSD calculus, derivative |
| C57 | io.py over a model of Python objects, all stored classes | structural induction; refutations by computation |
| C58-C62 | kinematics | clipping, rigid transforms, argmin, oracle solver |
| C63 | potential_field_2d | field; refutation |
| C64, C79 | heap of buffers and views | invariant over call histories; refutations by computation |
| C65 | finite-difference matrix, covariance | induction on the kernel |
| C66 | parameter vector of the state space propagation | list algebra |
| C67 | pose conversion | computation |
| C68 | binary64 time loops | Flocq rounding lemmas; refutations by kernel computation |
| C69 | CartesianDMP.step, open_loop | induction |
| C70 | DMP.step, open_loop | non-interference |
| C71, C72 | Chain over shared transform manager | frame conditions; refutations |
| C73, C74 | UR5Simulation over an arbitrary simulator | group laws of poses; induction over the command log |
| C75 | analyze_robot, index maps | list induction |
| C76 | draw_trajectory | list induction |
| C77 | load_lasa after reading | list algebra, uniqueness of sorted lists |
| C78 | download as atomic steps with crashes and interleavings | invariant; refutation by a schedule |
| C80 | every step function, with and without a coupling term | algebra of one integration step |
| C81 | write_json, write_yaml as open, write, close with a crash at every point | prefixes of documents; refutation for YAML |
| C82 | cache file of the state space propagation | call histories with crashes; refutations |
| C83, C84 | plot functions as lists of draw calls, key callbacks | list induction, induction over events |
| C85, C86 | RH5Simulation and KinematicsChain over several simulator clients | frame conditions, induction over call histories |
| C87 | ProMP.weights | normal equations of the flattened system, completion of squares |
| C88 | ProMP.imitate, the EM loop | equality with an independent EM specification, induction over iterations |
| C89 | the functions of dmp_fast.pyx, array access by array access | indices within bounds for every call history; equality with the value-level step |
| C90 | ProMP.condition_position, via_points | completion of squares; equality of covariances in both orders |
| C91 | DMP.imitate followed by open_loop | simulation relation through forces, regression and integration |
| C92 | histories of DMP objects, then step | reachable states keep shapes and phase; C13 from the state reached |
| C93 | CartesianDMP, DualCartesianDMP arm, SpringDamperOrientation after any history | the energy v·v + stiffness·angle² above the rest energy shrinks by a constant factor per step: rotation vectors are at least as far apart as the rotations they stand for (P_Sphere), discrete Lyapunov argument per sub-step (P_Orient) |
| C94 | DMP.step in a closed loop with arbitrary reports and coupling terms | one step is a contraction plus a disturbance linear in B, for RK4 in triangular coordinates, for Euler in a weighted maximum norm per sub-step (P_Disturbed); limit of the resulting recursion; for all gains: forced part bounded, free part vanishing for a 2x2 recursion with complex eigenvalues inside the unit circle (P_DisturbedAll); CartesianDMP: the measured states form the same recursion, the measurement errors are its inputs, for Euler between the sub-steps (P_Sensed, Properties_CartesianSensed); DualCartesianDMP: each arm is a CartesianDMP (C39, Properties_DualSensed); DMPWithFinalVelocity: its steps after the execution time are Euler steps of a DMP (Properties_FinalVelocitySensed); SpringDamper: it moves as a DMP without forcing term (C46, Properties_SpringSensed) |
| C95 | pairs of reachable DMP objects, open_loop and imitate with ridge regression | the difference of two runs obeys the linear recursion of one run with the difference of the disturbances as input: contraction (P_Continuity), and for all gains boundedness of a 2x2 recursion with complex eigenvalues inside the unit circle (P_Bounded, Properties_ContinuityAll); demonstrations: composition of Lipschitz functions from positions to forces to weights; hands of DualCartesianDMP through C39 (Properties_DualContinuity.v) |
| C96 | DMP objects, open_loop with all four step functions; the differential equation in Properties_Ode.v with Coquelicot's is_derive | existence by variation of constants for all three damping regimes (P_OdeSolution); one-step consistency from Taylor bounds with a Lipschitz second derivative and a Gronwall invariant over the substeps (P_Ode); uniqueness from convergence |
| C97 | imitate and open_loop of DMP objects; the motion with Coquelicot's is_derive in Properties_Reproduction.v | Taylor bounds of the finite differences, optimality of the regression (C15) against the comparison weights, and a discrete Gronwall inequality for force errors that are small in the mean (P_Reproduction) |
| C98 | M_Dtype.v: dtypes of all arrays of a DMP through configure, reset, step, open_loop and imitate; spring-damper open loops | invariants on dtypes over histories; truncation of unit quaternions; first grid step |
| C99 | M_FloatDmp: binary64 transcription of both Runge-Kutta steps | error of each operation (Flocq), perturbed stages, contraction of a weighted norm, induction over the steps |
| C100 | M_Dmp, M_DmpObject and M_SpringDamper as before; specification S_Stability (rates of a damped spring, growth factor of one Runge-Kutta step, growth factors of one Euler step, over the complex numbers of Coquelicot) | One step is a 2x2 real matrix plus a vanishing disturbance; its two complex eigenvalues are the growth factors at the two rates. A matrix with both eigenvalues inside the unit circle is triangularised by the eigenvector relation, which turns the recursion into two scalar contractions; conversely a component along the second eigenvalue cannot vanish unless that eigenvalue is inside the unit circle. Jury's criterion gives the Euler inequality. |
| C101 | M_FinalVelocity (class, imitate, histories), M_Ridge, M_Linalg | invariant over histories; uniqueness of the quintic; consistency and Gronwall as in C96; mean-square force error of backward differences and ridge regression as in C97; spectral condition of C100 after the goal time |
| C102 | M_Coupling `pos1d_coupling`, `pos3d_coupling`; M_Dmp integrators; M_DmpObject `n_steps_open_loop` | both terms are instances of one `distance_spring`; displacement and weighted sum satisfy two-dimensional recurrences, whose roots lie inside the unit circle |
| C103 | the object models of all classes; table of attributes per call in S_Attributes.v | case analysis over all calls including exceptional paths; induction over histories |
| C104 | CartesianDMP and DMP as state machines (M_Cartesian.v, M_DmpObject.v) | simulation: every call on the CartesianDMP is matched by a call on a three-dimensional DMP, also when it raises half-way; then C37, C95, C96 and C97 |
| C105 | open_loop of reachable objects (M_DmpObject, M_Dmp); the inputs of the equation have all derivatives (P_Smooth) | Taylor's formula for the solution and the input, stability of one step, discrete Gronwall lemma, uniform bounds for all shifts of the input (P_Order); comparison principle for critically damped equations for the lower bound |
| C106 | imitate and open_loop of CartesianDMP objects (M_Cartesian) | each stage of learning and of a step commutes with the change of frame (P_Frames); the positions by the affine equivariance of DMPs (C97 machinery) with the rotation matrix of the quaternion; the weights by linearity of ridge regression |
| C107 | M_ProMP | Kronecker product of the orthogonal matrix with the identity commutes with block-diagonal matrices; Moore-Penrose inverses of conjugated matrices by uniqueness; induction over the iterations (P_ProMPFrames); closed form of two iterations with one weight for the counterexample (P_ProMPOne) |
| C108 | M_ProMP with one weight and demonstrations with two steps | closed form of one iteration for copies of a demonstration (P_ProMPOne); explicit density of the bivariate normal distribution |
| C109 | imitate and open_loop of CartesianDMP objects (M_Cartesian), movements as functions of time (S_Turning) | finite differences of quaternions against the angular acceleration (P_Turning, P_TurningDemo), optimality of ridge regression with the sampling error as noise (P_TurningLearn), a discrete Gronwall argument on the sphere with a Lipschitz bound of the logarithm (P_TurningRun); positions by C104 |
| C110 | M_Dual, M_Cartesian, M_Ridge, M_Quaternion | every reachable DualCartesianDMP has, per arm, a CartesianDMP made through the API that is related by arm_of (C39); imitate and open_loop preserve the relation, and C106 and C109 are transferred |
| C111 | DMP objects with call histories, all four step functions, coupling terms as functions of the state, obstacle terms of M_Coupling.v | energy with a cross term that decreases in each integration step up to the vanishing forcing term; work bound at every Runge-Kutta stage; contraction over the steps of the object |
| C112 | M_StateFollowing.v, M_StateObject.v: the object with configure, reset, step and assignments | attractor tends to the weighted mean as the phase variable tends to 0; perturbed contraction of the semi-implicit Euler matrix; necessity from the eigenvalues |
| C113 | M_StateFollowing.v, M_StateObject.v: the object with configure, reset, step, open_loop and assignments | one simulation relation (affine image, time scaled) through the loop body, the step and both loops; bounded-input bounded-output lemma for the semi-implicit Euler matrix (P_Bounded.v) |
| C114 | M_MinJerk | closed form of C47 for the limits; simulation of the loop and of the calls by linearity for frames and units |
| C115 | M_Dmp, M_DmpObject, M_SpringDamper, M_Cartesian | invariant cone of position error and velocity; the Runge-Kutta step is a sum of repeated Euler steps with positive factors; induction over sub-steps and steps; hands of DualCartesianDMP through C39 (Properties_DualBlend.v) |
| C116 | M_SpringDamper, M_Base | simulation of the sub-steps and of the calls; default damping by sqrt(k/s^2) = sqrt(k)/s |
| C117 | M_Simulation | induction over the loop for every engine |
| C118 | M_ProMP | linearity of the trajectory in the weights, for every expectation with the two moments |
| C119 | M_Cartesian q_step / q_body / cart_open_loop; the equation is stated with derivatives (turn_equation) | discrete Gronwall inequality for the gap of orientation and angular velocity (P_TurningOde); invariant over all substeps; uniqueness by comparing both solutions with the same Euler sequences |
| C120 | M_PotentialField plot_potential_field_2d as its list of quiver calls; arrow = u / scale | maximum over the grid is homogeneous; bounds and attainment of the maximum; counterexample with the default DMP |
| C121 | M_SpringDamper.v, M_Cartesian.v | consistency of the Euler step with the solution and a discrete Gronwall inequality (as for C96, C119); the critically damped solution is checked by differentiation |
| C122 | M_DmpObject.v, M_Dual.v.v | each hand makes the run of a CartesianDMP (C110), whose runs approximate the solutions (C104, C119) |
| C123 | M_StateFollowing.v, M_StateObject.v | the attractor is Lipschitz continuous in time; consistency, stability and a Gronwall argument as for C96; uniqueness from convergence of the same runs to two solutions |
| C124 | M_SpringDamper.v, M_Cartesian.v, M_Base.v | induction over histories: the lengths of all arrays are invariant; step overwrites the internal state before it uses it |
| C125 | existing model of both integrators with smooth scaling (M_Dmp.v, M_DmpObject.v) | difference of two movements: input alpha beta dg (1 - z), 1 - z <= L t; one-step bounds for Runge-Kutta stages and Euler sub-steps, induction with the envelope D exp(K t) t^3; first step in closed form for the converse; CartesianDMP through the three-dimensional DMP of C104; hands of DualCartesianDMP through C39 (Properties_DualRate.v) |
| C126 | existing model of the coupling term with its clock (M_Coupling.v) inside the step of DualCartesianDMP (M_Dual.v) | term that logs its clock, number of sub-steps from the tiling of the interval; normalised mix of quaternions in one half space |
| C127 | M_Forcing.v, M_StateFollowing.v (np.empty as argument junk), S_Memory.v | normal forms of objects (P_Memory.v): every call commutes with clearing the entries that no array has |
| C128 | M_StateSpace, M_StateCache (propagate), S_StateSpace (sample_mean, sample_cov, keeps_contract) | induction over integration steps and calls of step: positions are linear in start, goal and weights; then expansion of weighted means and covariances of linear functionals |
| C129 | M_DmpObject, M_Cartesian, M_Dual, M_FinalVelocity (imitate), M_Ridge | exchange argument with the minimality of ridge regression; the bound on the movement from the continuity in the weights (C95) |
| C130 | M_IO (dict_to_object, split_args), M_IOClasses (constructors) | induction over the constructor's arguments: the arguments found and the rest of the file are unchanged except for the added one; each constructor reads its arguments by name |
| C131 | M_Dmp (step functions), M_DmpObject (open_loop, step), M_Canonical (phase) | the recurrences of C100 divided by exp(-lam t) have eigenvalues inside the unit disc and bounded inputs; default gains: 1 - x + x^2/2 - x^3/6 + x^4/24 < 1 - 0.4 x and ln 100 <= 5; hands of DualCartesianDMP through C39 (Properties_DualRate.v); SpringDamper with the same recurrence (Properties_SpringRate.v), its open loops and settling times (Properties_SpringSettle.v); DMPWithFinalVelocity after the execution time, when its step is the Euler step without smoothing (Properties_FinalVelocityRate.v); settling times of DMPs (Properties_Settle.v) |
| C132 | all open_loop functions with their time grids (arange and accumulated clocks) | induction over the loops: the grid of the shorter run is a prefix of the longer grid; fuel is enough for the shorter run |
| C133 | the DMP object of C92/C94 with configure(goal_y) before each step (chase); CartesianDMP (cart_chase); DualCartesianDMP (dual_chase, each arm is a CartesianDMP by C39); DMPWithFinalVelocity (fv_chase) | the differences to the moving goal form the stable linear recurrence of C100 whose inputs are the increments of the goal plus the fading forcing term |
| C134 | the DMP object, imitate with ridge_regression and open_loop of C91 | both movements side by side are one movement in twice as many dimensions; the blend is a linear image of it, so the affine simulation of C91 applies to it and to both projections; hands of DualCartesianDMP through C39 (Properties_DualBlend.v) |
| C135 | obstacle_2d/3d of C44 as coupling terms of the DMP object of C91 | the terms are written with inner products only (both branches), so they commute with orthogonal maps; the affine simulation of C91 is extended to coupled steps |
| C136 | dual_open_loop and dual_imitate with stateful coupling terms | the relative pose is invariant, forces and velocities turn; one arm's step commutes with the frame change; induction over sub-steps and steps; ridge regression commutes with the rotation of the targets |
| C137 | dual_open_loop and dual_imitate with the arms exchanged; coupling terms with exchanged leader and follower | both arms make the same step with their own parameters; the distance force changes its sign; induction over sub-steps and steps; for positions the exchange is a linear map to which C135 applies |
| C138 | condition_position, cov_of, var_of, mean_trajectory | the conditioned variance is the minimum over linear estimators (C90_best_estimate), compared with the estimator 0 and with the estimator of the noisier observation; congruence carries the order of covariances to trajectories and velocities |
| C139 | condition_position and all queries of M_ProMP.v | the matrix that is inverted is diagonal; entries of the posterior for one component agree with those of the one-dimensional ProMP; induction over the conditions |
| C140 | configure(goal_y) before each step (chase of C133) | the difference to the pace is the stable recurrence of C100 with fading inputs; the fixed point exists and is unique because a linear map whose iterates vanish leaves only 0 where it is (P_Pace); CartesianDMP: its positions run as a DMP with 3 dimensions (C133); DualCartesianDMP: each arm is a CartesianDMP (C39); SpringDamper: it moves as a DMP without forcing term (C46); DMPWithFinalVelocity: after the execution time its step is the Euler step of a DMP |
| C141 | configure(goal_y) before each step (chase of C133, fv_chase, chase_spring, cart_chase, dual_chase), two objects side by side | the difference of the two states is the stable recurrence of C100; its inputs are the difference of the goals and the fading forcing terms (P_Together) |
| C142 | configure(goal_y) before each step (chase of C133, fv_chase, cart_chase, dual_chase, chase_spring), three objects side by side | the combination of the three states is the stable recurrence of C100; its inputs are the combination of the goals and the fading forcing terms (P_Superposition) |

No property of the list is inexpressible in the model. Real-number statements do not
cover rounding (except C68), and the contracts of section 4 bound what is said about
external libraries.

## 3. What is modelled and what is not

| file of /repo/movement_primitives | model | not modelled |
|---|---|---|
| utils.py, base.py, dmp/_base.py | M_Base | error message texts |
| dmp/_canonical_system.py | M_Canonical | |
| dmp/_forcing_term.py | M_Forcing | property `shape` |
| dmp/_dmp.py | M_Dmp, M_DmpObject, M_Ridge | |
| dmp/_dmp_with_final_velocity.py | M_FinalVelocity | |
| dmp/_state_following_dmp.py | M_StateFollowing | `imitate` (raises NotImplementedError) |
| dmp/_cartesian_dmp.py | M_Quaternion, M_Cartesian | |
| dmp/_dual_cartesian_dmp.py | M_Dual | |
| dmp/_coupling_terms.py | M_Coupling | verbose output |
| dmp_fast.pyx | the Cython variants in M_Canonical, M_Dmp, M_Cartesian, M_Dual, M_Quaternion, M_Coupling; array accesses with their bounds checks in M_Cython | memory layout, typing of the C level |
| spring_damper.py | M_SpringDamper, M_Cartesian | |
| minimum_jerk_trajectory.py, data/_minimum_jerk.py | M_MinJerk, M_Float | |
| promp.py | M_ProMP, M_Matrix | random sampling (samples are inputs), verbose output |
| dmp_potential_field.py | M_PotentialField | matplotlib's drawing of the arrows |
| dmp_to_state_space_distribution.py | M_StateSpace, M_StateCache | sigma points of `gmr.MVN` (external) |
| data/_toy_1d.py | M_Toy1d | the random generator (samples are inputs) |
| data/_lasa.py | M_Lasa | HTTP, zip and Matlab formats |
| io.py | M_IO, M_IOClasses, M_Files | pickle; JSON and YAML text formats |
| kinematics.py | M_Kinematics, M_Rigid | URDF parsing, numba compilation |
| testing/simulation.py | M_Simulation, M_Robot, M_RH5 | rendering, GUI text |
| plot.py, visualization.py | M_Plot | matplotlib, Open3D |

Array identity is modelled only in M_Heap (all classes with step/configure/reset);
the remaining files treat arrays as values.

## 4. Trusted base

1. Coq's kernel (including its conversion with `vm_compute`) and the compilation of
   the files by `coqc`.
2. The axioms of Coq's standard library that section 5 lists:
   `ClassicalDedekindReals.sig_forall_dec`, `ClassicalDedekindReals.sig_not_dec`
   (construction of the reals), `FunctionalExtensionality.functional_extensionality_dep`,
   `Classical_Prop.classic` and `Description.constructive_definite_description`
   (used to define the value of library functions that are only specified, such as
   the solution of a linear system). No other axioms. Coquelicot and Flocq are used
   as libraries; they add no axioms.
3. The correspondence between the Python text and the definitions in `M_*.v`.
4. The contracts of external libraries, as written in the model files:
   * numpy: `np.arange(a, b, h)` has `ceil((b - a) / h)` entries `a + i h` (M_Prelude; in
     binary64 `a + i (fl(a + h) - a)`, M_Float); `np.gradient`, `np.linspace`, `reshape`,
     `ravel`, broadcasting, slicing by their definitions; `np.linalg.solve`, `inv`: a solution
     if the matrix is nonsingular, LinAlgError otherwise (M_Linalg); `pinv`: the
     Moore-Penrose equations (M_Ridge); `cholesky`: a factor of a positive definite
     matrix (M_Toy1d); `np.linalg.norm`, `dot`, `cross`, `outer`, `clip`;
     dtypes: copies and `*_like` keep the dtype, storing floats into an integer array
     truncates, `+=` of floats to an integer array raises TypeError (M_Dtype; all other
     files treat arrays as arrays of floats).
   * Cython: an argument typed `np.ndarray[double]` rejects integer arrays with
     ValueError (M_Dtype).
   * C library: squares the execution time with an error of at most one unit in the last
     place, computes the forces with a stated error (parameters of C99).
   * scipy: `interp1d` is piecewise linear interpolation; `optimize.minimize` is an
     arbitrary oracle that returns a point within the bounds it is given.
   * pytransform3d: quaternion, axis-angle and transformation functions by their
     formulas (M_Quaternion, M_Rigid); the transform manager is a tree of frames.
   * PyBullet: an arbitrary state machine with a command log (M_Simulation);
     `multiplyTransforms` and `invertTransform` are composition and inverse.
   * files: writing and reading JSON or YAML text gives back the values that the format
     can represent (M_IO); file system operations of the download are atomic, a
     rename replaces only empty directories (M_Lasa).
   * `gmr.MVN`: not modelled; its outputs are inputs of M_StateSpace. C128 assumes
     its contract (`keeps_contract` in S_StateSpace.v) as a hypothesis.

## 5. Print Assumptions

Generated by `tools/assumptions.py` from the compiled theorems; every theorem of
`MANIFEST.json` appears in exactly one group.

**no axioms (closed under the global context)**

C23_configure_stores, C25_ensure_1d_array, C57_promp_determined, C57_spring_damper_determined, C65_single_step_refuted, C66_unpack, C67_convention, C67_there_and_back, C67_back_and_there, C75_indices, C75_chain, C75_base_link_refuted, C75_repeated_names, C75_arms, C77_choice, C77_choice_enumerates, C77_choice_negative, C78_recovers, C78_never_incomplete, C78_downloads_once, C78_concurrent_refuted, C78_concurrent_failure_refuted, C81_json_interrupted, C81_json_completed, C81_json_accepted, C81_unconvertible, C81_old_content_refuted, C81_unencodable_refuted, C82_features, C83_panels, C83_too_many, C83_too_many_refuted, C84_pointcloud, C84_downsample, C84_stroke, C84_toggle_refuted, C84_events, C84_event_refuted, C86_joint_command, C86_joint_command_refuted, C86_joint_state.

**`ClassicalDedekindReals.sig_forall_dec`**

C57_round_trip, C57_yaml_numpy_refuted, C57_yaml_promp_refuted, C57_yaml_nested_tuple_refuted, C57_minimum_jerk_determined, C64_reset_spring, C64_state_following_refuted, C76_trajectory, C76_boundaries, C81_yaml_header, C83_trajectory, C83_given_axes, C83_too_few_axes, C83_wrong_times, C83_bottom_refuted, C85_rh5_new, C85_ur5_first, C85_ur5_second_refuted, C86_names, C103_new_others, C130_reported.

**`ClassicalDedekindReals.sig_forall_dec`, `FunctionalExtensionality.functional_extensionality_dep`**

C19_time_grid, C20_substeps_tile_the_interval, C20_substeps_uniform, C20_diverges_for_nonpositive_int_dt, C42_pos1d_zero, C42_pos1d_push, C42_pos3d, C47_samples, C47_errors, C48_reaches_goal_partial, C48_reaches_goal_refuted, C49_playback, C49_beyond_the_end, C49_rejected_first_step, C57_promp, C57_spring_damper, C57_minimum_jerk, C57_stiffness_array_refuted, C57_minimum_jerk_refuted, C57_promp_restored, C58_nearest_exists, C60_best, C60_guesses_in_limits, C60_local_best, C61_local_partial, C61_complete, C61_limits_partial, C64_snapshots, C64_step_result, C64_reset_result, C64_minimum_jerk, C64_get_weights_refuted, C64_get_weights_cartesian, C65_accelerations, C65_full_rank, C65_positive_definite, C72_solver_partial, C72_restarts, C74_mockup, C76_frame, C76_line_width_refuted, C77_arrays, C77_ragged, C77_times_partial, C77_times_refuted, C79_others_independent_partial, C79_configure_refuted, C79_imitate_refuted, C81_yaml_interrupted_refuted, C83_distribution, C83_distribution_given_axes, C83_dashed_refuted, C89_rk4_any_lengths, C102_pos1d, C102_pos3d, C102_between, C102_positive_weights, C102_limits, C102_euler_cython_rest, C103_minimum_jerk, C114_peak, C114_symmetric, C114_frames, C114_histories, C114_new, C114_configured, C116_new, C116_configured, C136_positions_3d, C136_positions_1d, C137_positions_1d, C137_positions_3d, C140_cartesian_euler_lag, C140_euler_lag.

**`ClassicalDedekindReals.sig_forall_dec`, `ClassicalDedekindReals.sig_not_dec`, `FunctionalExtensionality.functional_extensionality_dep`**

C03_partition_of_unity, C03_proportional, C04_linear, C04_bounded, C04_constant_weights, C06_rk4_is_textbook_rk4, C06_rk4_with_coupling, C07_evaluation_times_partial, C08_rk4_implementations_agree, C09_euler_implementations_agree_partial, C09_before_start_refuted, C09_coupling_velocity_refuted, C09_precomputed_velocity_refuted, C11_linear, C11_translation, C11_scaling, C12_goal_is_equilibrium, C13_runs_exist, C14_forces_reproduce_acceleration, C14_forces_unique, C14_finite_differences, C17_forces_shift_invariant_partial, C19_object, C31_activations, C31_spring_damper_towards_attractor, C31_equilibrium, C31_open_loop, C31_goal_ignored, C32_group, C32_arbitrary_norm, C32_exponential, C42_dual_distance, C42_leader_moves_freely, C42_leader_moves_freely_3d, C44_arccos_argument, C46_dmp_without_forcing_term, C46_equilibrium, C46_translation, C46_open_loop_is_repeated_step, C46_step_ignores_internal_state, C58_clipped, C58_in_limits, C58_chain_limits, C59_rotations_compose, C59_joint_motion, C59_rigid, C59_total, C59_carries, C61_local_refuted, C61_limits_refuted, C62_argument_in_range, C70_steps, C70_open_loop, C71_history_partial, C71_same_chain_partial, C71_trajectory_partial, C71_other_chain_refuted, C72_ignored_refuted, C73_round_trip, C73_base_at_origin_partial, C73_robot_frame_refuted, C73_velocity_refuted, C74_mockup_dmp, C74_ur5, C74_ur5_completes, C74_stopped_refuted, C80_euler_cython, C80_euler, C80_state_following, C80_spring_damper, C80_state_following_open_loop, C86_ik_leaves_robot, C86_left_arm, C86_right_arm, C86_goto_joint_state, C86_pose_command, C86_ee_state, C86_velocity_refuted, C86_run, C86_velocities_refuted, C86_stop, C86_history_refuted, C89_euler_lengths, C89_euler_values, C89_rk4_values, C89_rk4_no_duration, C89_rotation_matrix_values, C98_integer_start, C98_integer_goal_compiled, C98_integer_start_step, C98_integer_array_step, C98_slow_integer_demonstration, C98_integer_velocities, C98_integer_demonstration_refuted, C98_spring_damper_floats, C98_spring_damper_integer_start, C100_euler_limit, C100_rk4_limit, C100_default_gains, C102_without_coupling, C103_state_following, C115_open_loop, C115_spring_damper, C115_long_step, C116_histories, C117_goto, C117_refused, C117_completes, C117_disconnected, C124_positions, C124_rejected, C131_spring, C131_spring_open_loop, C132_dmp, C132_state_following, C132_spring_damper, C136_distance, C137_distance, C140_pace, C140_spring_pace, C140_spring_lag, C140_spring_lag_default.

**`ClassicalDedekindReals.sig_forall_dec`, `Description.constructive_definite_description`, `FunctionalExtensionality.functional_extensionality_dep`**

C15_minimiser, C15_unique, C15_interpolates.

**`ClassicalDedekindReals.sig_forall_dec`, `ClassicalDedekindReals.sig_not_dec`, `Classical_Prop.classic`, `FunctionalExtensionality.functional_extensionality_dep`**

C01_alpha_errors, C01_phase, C02_constructor_errors, C02_fully_initialised, C02_basis, C04_vanishes, C05_shifted_basis_refuted, C05_division_by_zero_refuted, C05_basis_independent_of_duration_partial, C07_forcing_sampled_after_the_step_refuted, C10_temporal_scaling, C10_object, C13_rk4_converges, C13_euler_converges, C16_imitate, C16_rejected, C17_time_origin_refuted, C18_open_loop_is_repeated_step_partial, C18_start_velocity_refuted, C21_feedback, C21_gain, C21_gain_dual, C22_reset_forgets_partial, C22_reset_then_configure_refuted, C23_cartesian_shapes, C23_configure_errors, C23_shapes, C23_dual_shapes, C23_state_following, C24_failed_configure_partial, C24_not_atomic_refuted, C26_set_get, C26_get_set, C26_dual, C27_round_trip, C27_get_set, C27_accepted_lengths_partial, C27_short_vector_refuted, C27_rejected_not_atomic_refuted, C28_set_execution_time, C28_rejected_partial, C28_rejected_not_atomic_refuted, C28_cartesian, C28_cartesian_rejected_partial, C28_dual, C31_constructor_errors, C31_basis_partial, C31_width_uninitialised_refuted, C31_converges, C32_logarithm, C32_log_exp, C32_double_cover, C32_implementations_agree, C32_implementations_at_pi, C33_step, C33_open_loop, C33_cartesian_steps, C33_cartesian_open_loop, C33_spring_damper_steps, C33_spring_damper_open_loop, C33_dual_steps, C33_dual_open_loop, C34_right_multiplication, C34_right_multiplication_open_loop, C34_left_multiplication_partial, C34_left_multiplication_refuted, C34_goal_double_cover, C34_state_double_cover, C34_left_multiplication_weights, C35_goal_is_equilibrium, C35_cartesian, C35_smooth_scaling_refuted, C35_dual, C36_forces_reproduce_acceleration, C36_forces_unique, C36_finite_differences, C37_position_is_dmp, C37_open_loop_position_is_dmp, C37_orientation_independent, C37_open_loop_orientation_independent, C37_no_memory, C37_runs_exist, C38_steps, C38_open_loop, C39_arm_is_cartesian_dmp, C39_imitate, C39_right_arm_refuted, C40_orientation_partial, C40_dual_arm_partial, C40_feedback_refuted, C41_coupling_refuted, C41_repeatable_partial, C41_repeatable_stateless_partial, C41_feedback_refuted, C43_leader_moves_freely, C43_silent_leaders, C43_at_rest, C43_leader_and_flags, C43_equal_and_opposite, C43_position_pull, C43_orientation_pull, C43_trajectory, C44_3d, C44_bound, C44_zero_velocity, C44_head_on_refuted, C44_coupling_2d, C45_planar, C45_agree, C46_orientation_equilibrium, C46_converges, C47_minimum_jerk, C47_segment, C50_convex, C50_bounds, C50_linear, C50_constant, C51_covariance, C51_prior, C54_relative_time_partial, C54_unit_duration, C54_duration_refuted, C55_times_overwritten_refuted, C55_changed_refuted, C55_queries_repeatable_partial, C55_samples, C57_dmp, C57_final_velocity, C57_dual_cartesian, C57_cartesian, C57_state_following, C57_yaml_execution_time_refuted, C57_forcing_term_refuted, C57_dmp_determined, C57_cartesian_determined, C57_state_following_determined, C57_dmp_restored, C60_smallest_error, C62_distance, C62_meaning, C62_objective, C63_difference, C63_equal_partial, C63_grid, C63_default_refuted, C63_goal_velocity_refuted, C63_obstacle_refuted, C66_propagate, C66_demonstration, C66_demonstration_accepted, C66_dataset, C66_all_skipped, C68_substeps_terminate_partial, C68_substeps_hang_refuted, C68_grid_exact_partial, C68_grid_bound_partial, C68_grid_decimal_refuted, C68_minimum_jerk_refuted, C69_open_loop_is_repeated_step, C69_time_grid, C69_runs_exist, C69_dual_open_loop_is_repeated_step, C69_dual_time_grid, C69_dual_runs_exist, C80_orientation, C80_spring_damper_orientation, C80_dual, C80_state_following_step, C82_without_cache, C82_first_call, C82_repeated, C82_stale_refuted, C82_interrupted_refuted, C85_rh5_independent, C85_rh5_own_clients, C89_dmp, C89_cartesian, C89_dual, C89_quaternion_values, C89_dual_values, C89_obstacle, C89_obstacle_values, C89_obstacle_refuted, C89_object_values, C92_goal_reached, C92_goal_moved, C93_angle_between, C93_orientation_converges, C93_cartesian, C93_cartesian_position, C93_open_loop, C93_spring_damper, C93_dual_arm, C94_cartesian, C94_cartesian_fading, C94_dual, C94_bounded, C94_fading, C94_bounded_all_gains, C94_fading_all_gains, C94_spring, C94_spring_fading, C95_data, C95_data_all_gains, C95_dual, C96_solution, C96_converges, C96_integrators, C98_arrays_of_floats, C98_integer_goals, C98_reset_integer_start, C98_learned_goal, C98_learned_from_integers, C98_same_results_refuted, C98_orientation_floats, C98_orientation_integer_start, C98_orientation_lost, C99_rounding_errors_do_not_accumulate, C100_reaches_goal, C100_exact, C100_spring_damper, C102_settles, C102_weighted_sum, C102_leader, C102_exact, C102_step_length_refuted, C102_velocity_refuted, C103_dmp, C103_dual, C103_cartesian, C103_spring_damper, C103_history, C103_last_assigned, C103_new_dmp, C103_new_final_velocity, C103_new_dual, C103_new_cartesian, C103_new_state_following, C103_fixed_for_life, C104_position_dmp, C104_differential_equation, C104_continuity, C104_continuity_all_gains, C104_fourth_order_ahead, C104_fourth_order_unforced, C105_solution, C105_fourth_order_ahead, C105_fourth_order_unforced, C105_first_order_refuted, C107_queries, C107_shifted_queries, C109_angular_velocity, C110_arm_learns_alone, C110_always_learns, C111_reaches_goal, C111_obstacle_3d, C111_obstacle_2d, C111_avoids_and_reaches_3d, C111_avoids_and_reaches_2d, C111_no_power, C111_cartesian, C111_cartesian_obstacle, C112_comes_to_rest, C112_exact, C112_near_last, C112_last_viapoint_refuted, C113_steps, C113_open_loop, C113_open_loop_is_repeated_step, C113_memoryless, C113_sensitivity, C114_limits, C115_dual, C115_dmp, C115_cartesian_positions, C118_trajectories, C118_velocities, C118_samples, C119_orientations, C119_unique, C119_unforced, C120_arrows_partial, C120_exaggeration_refuted, C121_positions, C121_open_loop, C121_orientations, C121_shortest_way, C122_positions, C122_orientations, C122_unforced, C123_solution, C123_steps, C123_open_loop, C124_orientations, C124_shapes, C125_cartesian, C125_cartesian_jump, C125_dual, C125_dual_jump, C125_smooth, C125_jump, C126_clock, C126_in_time, C126_dt_refuted, C126_between, C126_offset_position, C126_offset_refuted, C126_sign_refuted, C127_dmp, C127_cartesian, C127_dual, C127_state_following, C127_attributes_refuted, C128_order_of_parameters, C128_order_of_demonstrations, C128_linear, C128_exact, C130_defaults, C130_required, C131_cartesian, C131_cartesian_exponential, C131_dual, C131_dual_exponential, C131_rate, C131_steps, C131_always_exponential, C131_hundredth, C131_settles, C131_settles_default, C131_spring_exponential, C131_spring_default, C131_spring_settles, C132_cartesian, C132_dual, C132_spring_damper_orientation, C132_double_precision, C133_cartesian, C133_cartesian_settling_goal, C133_dual, C133_bounded_lag, C133_settling_goal, C133_spring_damper, C134_parameters, C135_obstacle_3d, C135_obstacle_2d, C136_pose, C136_trajectory, C136_runs, C137_runs, C139_component, C139_uncorrelated, C140_cartesian_pace, C140_cartesian_limit, C140_dual_pace, C140_dual_limit, C140_limit, C140_spring_limit, C141_together, C141_forgets, C141_periodic, C141_cartesian, C141_cartesian_periodic, C141_dual, C141_dual_periodic, C141_springs, C141_springs_periodic, C142_superposition, C142_linear, C142_cartesian, C142_dual, C142_springs.

**`ClassicalDedekindReals.sig_forall_dec`, `Classical_Prop.classic`, `Description.constructive_definite_description`, `FunctionalExtensionality.functional_extensionality_dep`**

C29_equal_times, C30_forces_reproduce_acceleration, C30_accepted, C30_differences.

**`ClassicalDedekindReals.sig_forall_dec`, `ClassicalDedekindReals.sig_not_dec`, `Classical_Prop.classic`, `Description.constructive_definite_description`, `FunctionalExtensionality.functional_extensionality_dep`**

C13_final_velocity_converges, C18_final_velocity_open_loop_is_repeated_step, C19_final_velocity, C19_final_velocity_runs_exist, C21_gain_final_velocity, C29_goal_trajectory, C52_shape, C52_hits_target, C52_covariance, C52_accepted, C53_all_via_points, C53_accepted, C53_repeated_time_rejected, C55_imitate_refuted, C56_valid, C65_generate, C80_final_velocity, C87_minimiser, C87_unique, C87_round_trip, C87_dimensions, C88_expectation_maximization, C88_order, C90_order, C90_via_points, C90_best_estimate, C90_bayes, C90_row_noise_refuted, C91_coordinates, C91_dimensions, C91_speed, C94_final_velocity, C94_final_velocity_fading, C95_demonstrations, C95_demonstrations_all_gains, C95_cartesian_demonstrations, C95_dual_demonstrations, C97_reproduces, C101_solution, C101_converges, C101_final_velocity, C101_reaches_goal, C101_imitate, C101_rejected, C101_reproduces, C103_final_velocity, C104_demonstrations, C104_reproduces, C106_frames, C107_learning, C107_new, C107_conditioning, C107_via_points, C107_weights, C107_shift_refuted, C108_less_likely_refuted, C109_orientations, C109_poses, C110_poses, C110_frames, C127_final_velocity, C129_trade_off, C129_cartesian, C129_final_velocity, C129_dual, C129_unforced, C131_final_velocity, C131_final_velocity_exponential, C132_final_velocity, C133_final_velocity, C134_demonstrations, C134_cartesian, C134_dual, C135_coupling, C135_avoidance_3d, C135_avoidance_2d, C136_positions_run, C136_learned, C137_learned, C137_positions_run, C138_conditions, C138_precision, C138_expected, C138_blended, C139_conditions, C139_others, C140_final_velocity, C141_final_velocity, C141_final_velocity_periodic, C142_final_velocity.
