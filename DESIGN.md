# Formal model of facebookresearch/theseus in Rocq (Coq 8.16.1)

The claims are in `MANIFEST.json` (generated by `tools/claims.py`), the English properties in
`properties.jsonl`, the disagreements between code and property (F1, F2, ...) in `NOTES.md`, the
seeded-bug experiments in `seeded/LOG.jsonl` (run by `tools/mutate.py`), and what `Print Assumptions`
lists for every claimed theorem in `ASSUMPTIONS.md` (run by `tools/assumptions.py`).

## Layout

`rocq/theories/`, logical name `Verif`. Per topic `X`:
* `X_model.v`  — definitions only, each with a comment citing file and lines in /repo and naming simplifications;
* `X_spec.v`   — the small independent specification, where the statement needs vocabulary of its own;
* `X_proofs.v` — lemmas;
* `X_props.v`  — the property theorems and examples meeting their hypotheses.
For the geometry `Geo_spec.v`, `Geo3_spec.v`, `Geo4_spec.v` are the specifications (matrices, derivative
entry by entry, matrix exponential as the solution of X' = X A, velocity of a curve of group elements),
`SE2_model.v`, `SO3_model.v`, `SE3_model.v` the models and `SE2_*.v`, `SO3_*.v`, `SE3_*.v` the proofs.

A property that is false of the faithful model is stated as `..._refuted` with a concrete witness, next
to the strongest true version (`..._partial` where something is missing). Such a claim has status
"partial" in the manifest even if nothing true is left unproved.

## Trusted base

1. The Coq 8.16.1 kernel (proofs use neither `native_compute` nor plugins; no kernel check is switched off).
2. Axioms. No axiom is declared in this development. `Print Assumptions` lists, per theorem, a subset of:
   * `ClassicalDedekindReals.sig_forall_dec`, `ClassicalDedekindReals.sig_not_dec` — the axioms of the
     standard library's real numbers;
   * `FunctionalExtensionality.functional_extensionality_dep` — used by the standard library's reals;
   * `Classical_Prop.classic` — used by the standard library's analysis and through Coquelicot.
   The exact list for each theorem is in `ASSUMPTIONS.md`; about a hundred theorems are closed (no axioms).
   Coquelicot is used for automation of derivatives only and adds no axiom.
3. The correspondence between /repo and the `*_model.v` files, made by reading; every definition cites
   the lines it models. In particular:
   * floating point is replaced by exact arithmetic: real numbers `R`, or rationals with +inf and nan
     where special values decide a branch (`NL_model`, `LM_model`). A division by zero in the geometry is
     `None` (nan). The dtype-dependent thresholds are modelled as they are, per dtype. Rounding is not modelled.
   * torch primitives (indexing, broadcasting, cat, matmul, bmm, svd, cholesky, LU) are modelled by their
     mathematical meaning. For svd this is an explicit hypothesis of the theorem (`svd3`); for linear solvers
     "the returned x solves the system" is an explicit hypothesis.
   * autograd is not modelled; hand-written backward functions are, as functions on cotangents.
   * Python: object identity by ids, exceptions as results that keep the state reached, `threading.local`
     as a store indexed by thread; warnings, printing and garbage collection are not modelled.
   * one batch element stands for the batch where the code is elementwise over the batch; where batch
     elements interact (batch size resolution, `.all()`, `.max()`, means, masks, concatenation) the whole
     batch is modelled.

### What is modelled

| Part of /repo | Model | Not modelled |
|---|---|---|
| theseus/core/objective.py, variable.py, cost_function.py, cost_weight.py (registry) | `Obj_model`, `Upd_model`, `Copy_model` | retract_vars on user containers, `to()`'s device moves |
| theseus/core/vectorizer.py | `Vec_model`, `Ret_model`, `Stale_model` | |
| theseus/core/robust_cost_function.py, robust_loss.py | `Rob_model` | |
| theseus/optimizer/variable_ordering.py, dense_linearization.py, sparse_linearization.py | `Ord_model`, `Lin_model` | |
| theseus/optimizer/nonlinear/nonlinear_least_squares.py, nonlinear_optimizer.py | `NL_model` | callbacks, verbose output |
| levenberg_marquardt.py, trust_region.py, dogleg.py | `LM_model`, `Dog_model` | |
| theseus/optimizer/autograd/*, linear/* (damping, CSR products, solve backward, LU contexts) | `Csr_model`, `Damp_model`, `LU_model` | the factorizations inside CHOLMOD / cuSOLVER / BaSpaCho |
| theseus/extlib/*.cu kernels (mult_MtM, tmat_vec, apply_damping, ...) | `Csr_model` (every order of the atomic additions) | CUDA launch configuration |
| theseus/geometry/so2.py, se2.py, lie_group.py | `SE2_model` | rand/randn |
| theseus/geometry/so3.py, se3.py, torchlie/functional/so3_impl.py, se3_impl.py | `SO3_model`, `SE3_model` | rand/randn |
| theseus/geometry/lie_group_check.py, utils.py, manifold.py (construction), torchlie check_contexts.py, lie_tensor.py (contexts, in-place updates, operators) | `Ctx_model`, `Lgt_model` | `__torch_function__` dispatch |
| theseus/embodied: Between, Local, MovingFrameBetween, DoubleIntegrator | `Emb_model` (generic over the LieGroup interface, five instances) | |
| theseus/embodied: Reprojection, HingeCost, Nonholonomic, QuasiStaticPushingPlanar, SignedDistanceField2D, Collision2D, EffectorObjectContactPlanar, GPCostWeight; utils/utils.py gather_from_rows_cols | `Emb2_model` | occupancy-map conversion (scipy), use_huber_loss (refused by the constructor), torch.linalg.cholesky (a parameter that meets `factorizes`) |
| torchkin: robot.py, joint.py, forward_kinematics.py; theseus/embodied/kinematics/kinematics_model.py UrdfRobotModel | `Kin_model` | parsing of the XML (third_party), `_rotation_impl` of the X/Y/Z joints, joint limits |
| theseus_layer.py (forward's inputs, DLM), the differentiable steps of IMPLICIT and TRUNCATED | `Bwd_model` | autograd: a derivative is taken of the modelled step; compute_samples, verify_jacobians |
| theseus/core/cost_function.py AutoDiffCostFunction | `Ad_model`, `Ad_tmp` | autograd and functorch: represented by the derivative (Coquelicot's `Derive`) and by the map over rows |
| theseus/third_party/lml.py, theseus/optimizer/nonlinear/dcem.py | `Lml_model`, `Dcem_model` | the random number generator (samples are arbitrary), several rows in one LML call |
| theseus/optimizer/linear/linear_optimizer.py | `Desc_model` | warnings, timing |
| theseus/optimizer/linear/baspacho_sparse_solver.py, autograd/baspacho_sparse_autograd.py (forward), extlib/baspacho_solver.cpp, baspacho_solver_cuda.cu | `Bas_model` | the BaSpaCho library (a parameter), GPU memory limits, the checks of tensor types |
| torchlie/functional/so3_impl.py 124-135, 940-1118, se3_impl.py 876-1049 (lift, project, left_act, left_project), utils.py 27-44, lie_group.py 36-48 | `Act_model` | value checks; dtype and device |
| theseus/theseus_layer.py 99-135 (compute_samples) | `Samp_model` | the distribution of torch.normal beyond its first two moments |
| so3_impl.py 155-214, se3_impl.py 119-170, so2.py 49-93, se2.py 45-87, so3.py and se3.py 44-80 (rand, randn, identity) | `Rand_model` | the generator; Vector and Point rand (a bare torch.rand) |
| theseus/utils/utils.py 138-189, theseus_layer.py 151-161, cost_function.py 183-188 (verify_jacobians) | `Ver_model` | autograd (its result is the gradient of the error); the printing; inf |
| theseus_layer.py 40-96, 164-174; what persists in nonlinear_least_squares.py, levenberg_marquardt.py, trust_region.py, dense_linearization.py, sparse_linearization.py, lu_cuda_sparse_solver.py between calls | `Sess_model` | gradients, detach flags; the solution of a linear system and the dogleg combination are arbitrary functions; vectorization (C13) |
| theseus/embodied/collision/signed_distance_field.py 19-102 (field from an occupancy map) | `Occ_model` | scipy's algorithm (its documented result is modelled), dtypes, devices |
| theseus/utils/examples/pose_graph/dataset.py 14-203, 367-439 (g2o files, datasets, batches) | `G2o_model` | text of the numbers and of the variable names, dtypes, devices, the check of rotation matrices in the SO3/SE3 constructors |
| theseus/utils/examples/pose_graph/dataset.py 217-365 (synthetic graphs, histogram) | `Syn_model` | names, dtypes, the random generators, the bars of the histogram |
| theseus/utils/examples/bundle_adjustment/data.py, util.py | `Ba_model` | batches of more than one camera, names, text of numbers, random_s3 beyond C80 |
| theseus/geometry/vector.py, point_types.py, so2.py, se2.py, lie_group.py on batches | `Tb_model` | dtypes, devices, names; exp_map and log_map of SE2, project of SO2/SE2 on batches |
| theseus/utils/utils.py 75-134 (numeric_jacobian, numeric_grad) | `Nd_model` | round-off, devices, steps of size 0 |
| torchlie/torchlie/lie_tensor.py (objects, dispatch, memory) | `Ltt_model` | autograd, devices, warnings, tuple indices inside as_euclidean(), marks left by a failing product in addcdiv_/addcmul_; super().set_ is torch.Tensor.set_ on self |
| theseus/utils/examples/motion_planning/motion_planner.py, models.py (InitialTrajectoryModel) | `Mp_model` | devices, the optimizer run by forward, GPCostWeight's check of Qc_inv (a parameter), the networks; negative num_time_steps; the covariance solve of models.py 198-231 (its result is the parameter `sample`) |
| theseus/utils/utils.py (Timer) | `Tmr_model` | the cuda branch, the division by 1e9, threads |
| theseus/utils/sparse_matrix_utils.py 193-273 | `Rsm_model` | values (torch.rand), devices and dtypes, float rounding of fill*rows*cols; torch.multinomial and torch.randint by contract |
| theseus/global_params.py, torchlie/torchlie/global_params.py | `Gp_model` | attributes of every Python object (double underscore), callable user values, threads |
| torchlie/torchlie/functional/lie_group.py (factories, LieGroupFns), utils.py (check_jacobians_list) | `Fn_model` | autograd graphs (C51, C54, C78), vmap, torch < 2.0 calling convention |
| theseus/utils/examples/tactile_pose_estimation/pose_estimator.py, models.py, trainer.py (get_batch_data, use of measurements_model) | `Tac_model` | the network, values of sdf and weights, plotting, timing |
| theseus/utils/examples/tactile_pose_estimation/misc.py (TactilePushingDataset) | `Tds_model` | the sdf file, plotting, rounding of n * val_ratio |
| theseus/embodied (constructors, _copy_impl), theseus/core/cost_weight.py, theseus_function.py copy, theseus_layer.py _DLMPerturbation, motion_planner.py _XYDifference | `Cc_model` | dtypes, devices, SO2/SE2 tensor checks, AutoDiff and robust cost functions |
| torchlie/functional/so3_impl.py 669-811, se3_impl.py 531-538, 703-868; theseus/geometry/so3.py 247-303, se3.py 231-265 | `Grp_model` | group value checks, strides, dtypes, Point3 wrapping of the result |
| theseus/geometry/so2.py 148-164, 320-330; se2.py 374-397; so3.py 142-155, 238-245 (hat, vee and their checks) with torchlie/functional/so3_impl.py 68-80, 587-600, 633-642 | `Hv_model`, `Hvt_model` | rounding of the comparisons, nan and infinities, kinds of exceptions |
| theseus/_version.py 12-35 | `Vst_model` | non-ASCII digits, int's limit of 4300 digits |
| theseus/optimizer: nonlinear_optimizer.py 20-56, 90-107; nonlinear_least_squares.py 58-97, 118-160, 233-236; levenberg_marquardt.py 22-135; gauss_newton.py, dogleg.py, trust_region.py, linear_optimizer.py, linear_solver.py and the solvers (__init__); linearization.py 16-43; optimizer.py 27-35 | `Opt_model` | positional arguments, subclasses, devices, the compiled libraries (a flag says whether they load) |
| theseus/geometry/manifold.py 32-146; vector.py 18-86; point_types.py 15-40, 129-137; so2.py 20-94, 132-145; se2.py 22-91, 152-163, 231-236; so3.py 21-86, 113-122, 272-277; se3.py 21-77, 117-145, 193-208; core/variable.py 20-72 | `Ctor_model` | devices, vmap, message texts, the numeric functions (parameters), empty batches under checks |
| theseus/core/cost_function.py 161-255, 403-430; robust_cost_function.py 53-76, 134-223; theseus_function.py 21-170; objective.py 846-849 | `Acf_model` | shapes and devices of tensors, the values jacobians() computes (C08, C65), non-ASCII mode strings |
| theseus/optimizer/linear/dense_solver.py (solve with check_singular) | `Sing_model` | the LU factorization behind torch.lu |
| theseus/optimizer/manifold_gaussian.py | `Mg_model` (local_gaussian, retract_gaussian per batch element, over the five geometry classes), `Mg_obj` (the class, over heaps of tensors, variables and Gaussians) | torch.inverse: any routine that inverts invertible matrices and raises otherwise |

Not modelled at all: theseus/embodied's learned or dataset parts, theseus/utils, examples, the C++
implementations of third-party solvers.

## Per property

| Property | What is modelled | How it is proved |
|---|---|---|
| C01-C04, C41, C42 | `Objective` registry with heaps of variables, weights, cost functions; add/erase as state transformers that may raise | invariant by induction over histories; refinement to the set of cost functions present |
| C05-C07 | batch size resolution, `Variable.update`, `Objective.update`/`error` | case analysis over lists; refutation of C07 for aux vars and batch size changes |
| C08, C11-C14 | vectorizer grouping, sharing, expand/cat/slice; masks; update counters | list algebra, permutations; induction over histories |
| C09 | `Objective.copy` over heaps of variables, weights, cost functions and their attributes | simulation between original and copy; refutations for wrapped cost functions and shared weight variables |
| C10 | `VariableOrdering` | induction over histories; refutation with remove |
| C15-C20, C43, C44 | NLLS loop with an arbitrary step oracle, arbitrary accept/reject decisions, errors that may be nan | induction over the loop |
| C21-C24 | LM/TR/dogleg decisions | rational and real arithmetic |
| C25 | ring of factorization contexts with factor ids; optimize() with it | invariant over histories |
| C26-C30, C46 | dense/CSR assembly, damping, products, backward formulas, GPU kernels | finite sums over R, list induction, derivatives of A(t)x(t)=b(t) |
| C31-C33 | robust cost functions and losses | real analysis with explicit epsilon bounds |
| C34, C35, C38, C48, C49 | SO2, SE2 | ring/field, trigonometry, uniqueness of X' = X A |
| C36, C50-C52 | SO3: exp, log, quaternions, normalize, all Jacobians and backward functions | as above; Taylor bounds for the small-angle branches; von Neumann's trace inequality for normalize |
| C37, C53, C54 | SE3: the same | as above |
| C39 | small-step machine: with blocks, try/except, raise, several threads | simulation with a lexically scoped meaning; refutation for exceptions |
| C40, C56 | LieGroupTensor / LieTensor in-place updates and operators | fuel for the recursion; derivative of the loss along the update |
| C55 | construction with checks, per batch | case analysis on top of C38/C52 |
| C57, C58 | embodied cost functions over a record of LieGroup operations | laws of the operations proved for each class (`Emb_laws`), then generic proofs; refutations of MovingFrameBetween's Jacobians |
| C59 | pinhole camera with distortion on SE3 | closed form of the image, derivatives along curves (`Reproj_props`) |
| C60 | signed distance field, collision and contact costs; which variables the field reads | bilinear interpolation, Lipschitz bound by walking cells, derivatives; induction on histories; refutation of update_data with another shape (`Sdf_props`) |
| C61 | GPCostWeight over a Cholesky routine | existence, uniqueness and completeness of the factorization by induction (`Chol`), block algebra (`GP_props`) |
| C62, C63 | hinge, nonholonomic and pushing costs | distance to an interval; derivatives along curves; invariance (`Misc_props`) |
| C64 | URDF trees: creation, merging of fixed joints, breadth-first numbering, caches, the loop over related links | invariants of the loops over the live lists and the queue; every pose function compatible with the fixed joints stays so (`fits`); induction on depth (`Kin_tree`, `Kin_num`, `Kin_fk`, `Kin_props`) |
| C65 | columns, spatial and body Jacobians, backward | velocity of a pose by induction along the chain of ancestors, sums reindexed by joint ids (`Kin_jac`, `Kin_jac2`, `Kin_props2`) |
| C66 | UrdfRobotModel, constructors of the axis-aligned joints | case analysis |
| C67 | the last differentiable step(s) of each backward mode over an abstract smooth problem on a manifold, DLM's perturbed objective | implicit function argument on curves, limits as epsilon tends to 0 (`Bwd_props`, `Bwd_dlm`); refutations with one-dimensional problems (`Bwd_refute`) |
| C68 | LML: bracket, branching search, backward | specification as the minimizer of score plus entropy (KL inequality), invariant of the search, intermediate values, implicit differentiation (`Lml_props`, `Lml_fwd`, `Lml_rec`, `Lml_bwd`); batches by a simulation with the rows taken alone (`Lml_rows`) |
| C69 | one DCEM iteration on arbitrary samples | elite sets from a sorting permutation, convex hulls, spread of normalized scores (`Cem_props`) |
| C70 | DCEM's loop with an arbitrary sampler | invariant by induction; refutations by computation (`Dcem_props`) |
| C71 | the three autograd modes over lists of rows with broadcasting; temporary variables over histories of calls | all modes reduce to the same table of partial derivatives; chain rule through project() for the five geometry classes (`Ad_props`, `Ad_main`, `Ad_cases`); refutations by computation |
| C72 | local_gaussian / retract_gaussian over a record of LieGroup operations | laws of local, retract and the exp_map Jacobian for each class (`Mg_laws`, `Mg_laws2`, `Mg_laws3`), then generic linear algebra with an inverse built by elimination (`Mg_inv`, `Mg_props`); refutation below SE2's threshold (`Mg_ref`) |
| C73 | constructor, update, copy, to() of ManifoldGaussian as heap transformers that may raise, together with in-place writes and Variable.update | pointwise characterisation of the loop over the means; regions no outside object refers into; invariant over histories (`Mg_obj_props`, `Mg_obj_new`, `Mg_obj_hist`, `Mg_obj_main`); refutations by computation (`Mg_obj_ref`) |
| C74 | the update of Bwd_model (one linearized step with damping), Dogleg, LinearOptimizer on a batch | first-order expansion of the error metric along the retraction and the sign of the quadratic form of the (damped) normal matrix; exact expansion for affine errors; induction on iterations (`Desc`); refutation by an explicit 2-cycle (`Desc_ref`) |
| C75 | DenseSolver.solve with check_singular: mask, filtering, damping with broadcasting, assignment through the mask with its dtype and shape rules | rank of an element among the kept ones, elementwise characterisation (`Sing_props`); witnesses with an exact test and solver (`Sing_ex`) |
| C76 | block structure of A^T A, index arithmetic of the permuted block storage, additions of add_MtM / add_M as lists of (place, value) in any order, damping, permutation of the vectors, solve | places of different entries differ, so the sum of the additions to a place is the entry of A^T A (`Bas_adds`); the permuted system is the original one (`Bas_props`); composition with the CSR structure of an objective (`Bas_obj`); storages and libraries exist (`Bas_ex`) |
| C77 | reset of the BaSpaCho solver as a state machine | induction over histories without failures; witness with one failure (`Bas_ex`) |
| C78 | left_act and left_project of SO3 and SE3 with dim_out, the permutations of dimensions, broadcasting matmul, the hand-written backward functions and autograd's sum_to_size, on tensors of any shape | block lemmas for permute and matmul, sums over shapes, adjoint identity; the set of accepted shapes (`Act_core`, `Act_props`, `Act_raise`) |
| C79 | compute_samples: Cholesky, back substitution, the slices of the variables; noise as functions under a linear expectation | back substitution solves; moments from L^T dev = y by the kernel of L^T; witnesses (`Samp_props`, `Samp_ex`) |
| C80 | rand, randn, identity of SO2, SE2, SO3, SE3 as functions of the numbers the generator returns; requires_grad and is_leaf of the result | the quaternion is unit; every unit quaternion with (w,x) not 0 is hit; injectivity up to sign; the Gram matrix of the three velocities; index arithmetic on the numbers used (`Rand_props`, `Rand_unif`, `Rand_draws`) |
| C81 | verify_jacobians, check_jacobians, _rand_fill_, _tmp_tensors on a store of variables; a cost function is its variables and, per store, an exception or the pairs of compared entries | induction on rounds and cost functions; for each variable class the projected gradient is the only row that is the derivative along retract (`Ver_props`, `Ver_class`); witnesses (`Ver_ref`) |
| C82 | everything that survives a call (`Sess_model`: tensors, damping, radius, A and b, cached Atb and diagonal, LU contexts), calls composed of the update of C05/C06, the loop of C15-C23 and the contexts of C25, any history of events | simulation between the loop with memory and one without (`Sess_spec`), invariants of histories (`Sess_props`, `Sess_main`), witnesses (`Sess_ex`) |
| C83 | `_compute_sdf_data_from_map` on maps of any size, the distance transform as the minimum over the zero cells, composed with C60's interpolation | triangle inequality for the data, tangent of the square root for the mean distance to the corners of a square (`Occ_props`, `Occ_main`), 3x3 witness |
| C84 | the g2o readers and the writer on lists of tokens, the dataset constructor and `get_batch_dataset` with Python slices | invariant over the lines read (`G2o_props`), strictly sorted lists with the same elements are equal, C36_to_quaternion for the round trip (`G2o_batch`), ceiling division (`G2o_data`) |
| C85 | `generate_synthetic_3D` with the draws as inputs, `histogram` on the error norms | invariant over rounds and loop closures (`Syn_props`), group laws of C37 |
| C86 | `data.py` of the bundle adjustment example with the draws as inputs and files as token lists; `util.py` | logarithm and exponential of C36, projection of C59; induction over lines, cameras and observations |
| C87 | Tensors with shapes, torch broadcasting, in-place column assignment and shape errors; Vector, Point2/3, SO2, SE2 and lie_group.py on batches | each tensor operation characterised entry by entry, then composed; items compared with `SE2_model` |
| C88 | numeric_jacobian on batches of any LieGroup class with torch broadcasting of the column assignment; numeric_grad with numpy dtypes | entries by induction on the loops; limit from the derivative of log at the identity (`Emb_laws`); error bound by three uses of the mean value theorem |
| C89 | LieTensor programs: objects with class, ltype, mark and a window into a storage; 26 operations, as_euclidean and enable_checks flags | every operation is a sequence of allowed elementary changes (`step_reaches`); invariants and frame lemmas by induction on them; values by computation |
| C90 | MotionPlannerObjective by names (cost functions, variables, weights, dtypes, `add`), copy, straight line, trajectory conversions, HingeCost with infinite limits, InitialTrajectoryModel.forward after its networks | `add_all` characterised by induction over the list of cost functions with injectivity of the decimal names; columns by induction over optim_order; trajectories by induction over time; derivatives of the goal cost from C36 |
| C91 | Timer: one operation per method, every clock reading an argument | a program of sequential regions by induction over the list with the invariant that the temporary deactivation flag is clear; refutations by evaluation for all times and names |
| C92 | random_sparse_binary_matrix on a list-of-rows matrix, its CSR arrays, split_into_param_sizes; the random draws are arguments | invariants of sorted insertion, induction over the columns and over the draws; termination by a measure (free positions) |
| C93 | the two global parameter objects with class and instance attributes, get_eps, reset, set_global_params | state = fold of the assignments of the history, by induction over the history; the set of names is invariant |
| C94 | the operator factories over the attribute tables of so3_impl and se3_impl | case analysis over the operators of both modules; values by the agreement of the two implementations |
| C95 | the loops of TactilePoseEstimator over the objective of Mp_model, and the input dictionaries with torch.cat/reshape on rows | closed form of the loops with the threaded index; membership in the windows; row arithmetic; SE2 group laws of C34 |
| C96 | load, split and batches of TactilePushingDataset on lists of rows | loop invariant for the loading; permutations; list arithmetic of slices |
| C97 | the constructors and _copy_impl of thirteen cost functions and three weights as tables over a heap of variables | simulation between original and copied argument lists; invariants of prepared tensors under later updates |
| C98 | torchlie's compose/transform/untransform, their Jacobians and backward functions on tensors with any number of dimensions; theseus' methods that call them | blocks: each tensor operation is described at every position of the broadcast batch; gradient by a per-block adjoint identity and the adjoint property of autograd's reduction; Jacobians by the cofactor identities of rotations |
| C99 | constructors, copy() and to() of AutoDiffCostFunction, RobustCostFunction and GNCRobustCostFunction, on objects that are one attribute dictionary | the result of each constructor in closed form (induction over the variable lists), then the user's view read off it; copies by composing these; to() by an effect relation closed under composition |
| C100 | constructors of the seven geometric classes, the update_from methods, rand and randn, over a world of ids, memories, check settings and warnings; tensors with memory, dtype, shape, entries, requires_grad, is_leaf | closed forms of each constructor by case analysis on shapes, batches item by item; names by a monotonicity predicate on ids closed under bind and injectivity of the decimal names |
| C101 | construction of the four optimizers with solver and linearization, set_params on the parameter object, BackwardMode.resolve, the option checks of LevenbergMarquardt inside the loop's try statement | an independent acceptance predicate proved equivalent to success, closed form of the result; letters up to case by arithmetic on codes; induction over option lists |
| C102 | lt_version with the regular expression, split and int on strings, the check on import | numerals specified inductively; reading a version proved equivalent to the existence of a decomposition of the string; induction over the characters |
| C103 | SO2.hat/vee with the check under a context, SE2.hat/vee, SO3.hat/vee under the contexts of theseus and torchlie, batches of matrices with arbitrary sizes | acceptance proved equivalent to an independent description of near-hat matrices with its tolerances, entry by entry, by induction over the batch |

Every property in properties.jsonl is expressible in a model; none is declared not applicable.

## Seeded bugs

`tools/mutate.py` copies the development to a scratch directory, edits one definition, rebuilds, admits
(in the scratch copy only) every proof that breaks, and reports the claimed theorems that are broken or
rest on a broken proof. All edits, with the theorems that failed and those tightened afterwards, are in
`seeded/LOG.jsonl`.
