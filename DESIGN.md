# Formal model of mradaideh/neorl in Rocq (Coq 8.16.1)

Source: `/repo` (read as text, never run).  Model, specifications and proofs: `rocq/theories`.

## 1. Layout

For each area `X` of the code there are up to five kinds of files:

* `X_Model.v`   – Gallina functions transcribing the Python code; each definition cites file and lines and
  says where it simplifies.
* `X_Spec.v`    – the small independent specification used by the theorem statements.
* `X_Proofs.v` (and further files) – lemmas.
* `X_Demo.v`    – concrete, non-trivial cases that meet the hypotheses of the theorems, and the witnesses of
  the refutations.  In the older areas these examples stand in `X_Props.v` beside the theorems.
* `X_Props.v`   – the property theorems (`exact lemma.`), each with `Print Assumptions` beneath.

Shared files: `Base.v`, `BaseFacts.v` (outcomes, boolean order of rationals, folds with failure), `Opt_Model.v`
and `Opt_Facts*.v` (sorting, argmin, sampling, list surgery used by all optimizers), `Space_*.v` (parameter
spaces, bound repair, grid encoding), `Pop_*.v` (populations).

Theorem names start with the property id (`C04_...`).  Suffixes: `_partial` = only part of the English
property (what is missing is said beside it and in MANIFEST.json), `_refuted` = what a user would expect is
false of the faithful model; the theorem gives a concrete witness (a finding about the code, section 5).
Where the first wording of a property turned out to be false, properties.jsonl now states what is true and
names the exception, and both the positive theorem and the refutation are proved.

## 2. Modelling conventions

* **Numbers.** Python/NumPy floats are modelled by exact rationals `Q` (no rounding, no overflow).
  Where only ordering matters nothing else about them is used.  `float('inf')` used as "no best yet" is an
  explicit constructor, NaN appears only in definitions whose comment says so.
* **Randomness and user functions** (`random.*`, `np.random.*`, fitness functions, `exp`, `cos`, `sqrt`, `**`)
  are universally quantified functions/streams passed as arguments (section variables discharged at `End`),
  so a theorem holds for every outcome of the generator and every fitness function.  Where a property needs
  something of such a function (for instance that a uniform draw lies between its bounds) the theorem has it
  as a hypothesis, and a concrete function meeting it is exhibited.
* **Exceptions** are explicit results (`option`/`outcome`), never a default value.
* **NumPy aliasing / in-place mutation** is modelled where it changes the observable outcome (the frame stack
  uses a heap); otherwise state is passed functionally and the comment says so.
* **Unbounded loops** are modelled with an explicit fuel argument and the theorem quantifies over all fuels, or
  by structural recursion on the bound of the loop.
* **Concurrency.** joblib and multiprocessing maps are order-preserving maps, except where the schedule matters:
  the tuners (any completion order) and SubprocVecEnv (pipes as queues, any interleaving).

## 3. Plan per property

| id | what is modelled | proof |
|----|------------------|-------|
| C01-C03 | SegmentTree as an array of length 2*cap with the real update loop, the real recursive range helper (fuel), the real descent | invariant node = op(children) kept by every history; induction on levels; divergence by induction on fuel |
| C04-C07 | ReplayBuffer/PrioritizedReplayBuffer state machines over op lists | invariant by induction over the history; refinement to "last n of history" |
| C08-C10 | ExperienceReplay with in-place stable descending sort | invariants over histories; `_refuted` for eviction order |
| C11-C12, C47 | schedules over Q, legacy Scheduler | algebra, `_refuted` at the last end point |
| C13-C14 | discrete.py functions on mixed vectors | structural induction over the parameter list |
| C15-C17 | ensure_bounds, crossover, mutation with arbitrary draws | per-coordinate case analysis + induction |
| C18-C26, C48-C50 | one model per optimizer: the real evaluation order, acceptance tests, best updates, histories; position update formulas over Q with arbitrary draws | loop invariants over generations and individuals; `_refuted` with concrete runs |
| C27-C31, C51-C53 | multi/tools.py (both nondominated sorts, crowding distance, reference points, niching) and NSGA-II/III runs | order theory, induction over fronts, refinement of the divide-and-conquer sort to nondomination levels |
| C32-C34, C54-C55 | AEO migration, matrices and run; EDEV run and variation operators | multiset invariants, binomial identities, partition invariants |
| C35, C56 | RunningMeanStd, its MPI variant, VecNormalize | exact moments by algebra, induction over batches |
| C36-C38, C57-C59 | GAE, discounted returns, A2C/ACER targets and layouts, reward logging, explained variance | backward recursion = closed sums, by induction |
| C39-C40, C60 | Dataset/iterbatches, VecFrameStack, Dummy/SubprocVecEnv | refinement to list specifications; any schedule of pipe moves |
| C41 | hindsight replay on top of the replay buffer model | refinement to "episodes written in order" |
| C42-C43 | the optimization environment CreateEnvironment | coordinate-wise algebra, history invariants |
| C44, C61 | grid and random tuners | induction on products, any completion order |
| C45-C46 | knapsack and travelling salesman environments | invariant of a bag / tour under construction, over all histories |
| C62-C63 | EPSO: draws as arbitrary streams; gbest_pos modelled as either an own array or a view of a row of pbest_pos | invariant over generations for memories and log; counters of successes related to ghost events of the current learning period; totality by lengths |
| C64-C67 | RLLogger, ACKDE, PPOES and the RL-informed modes of DE and ES: the RL run is an arbitrary log, argsort/sort_values an arbitrary sorting function | invariant over the calls of the logger; permutation arguments for the filter; the DE invariant survives replacing individuals that are no better than a survivor; ES generations agree with the ordinary ones except for the replaced individuals |
| C68-C69 | PESA2: individuals as references into a heap (the replay memory and DE share lists and DE rounds in place); GWO and WOA through their own models; replay memory of C24-C25 | invariant over replay generations: every stored sample is an evaluated, offered point with its value; ring buffer lemma: nothing lost while the memory is not full; witnesses by computation |
| C70-C71 | PESA: its own ES, SA and PSO variants, the replay memory of C24-C25 with its sorting side effect, resampling and the two annealing schedules; worker processes by which state returns to the parent | invariant over generations (memory, populations, chains, swarm, log of evaluations); bounds and totality of each part; witnesses by computation |
| C72-C74 | Latin hypercube, NGA and NHHO: surrogates as arbitrary training functions with the conditions under which the libraries raise; scaling of labels modelled | permutation of strata for the samples; invariant over generations (thirds, pseudo-labels, selection by predicted value); witnesses by computation |
| C75 | Callbacks as a tree of objects with their counters; user callbacks and evaluations as arbitrary functions of how often they were called | induction on the tree and on the sequence of calls; arithmetic of periods for the regular case; witnesses by computation |
| C76-C77 | Training loops of A2C/ACKTR, PPO2 and ACER with their runners, callbacks, schedules, minibatch indices and replay memory; environment and policy as arbitrary functions | one loop lemma (induction on updates, inner induction on steps) for all three: the log equals an explicit transcript; ring buffer invariant; permutation lemma for minibatches |
| C78 | Training loop of DQN with the replay memory of C04-C06, the exploration schedule, callbacks and the frequencies of updates; environment and policy as arbitrary functions | induction on steps with the list of past transitions: the log equals an explicit transcript; ring buffer invariant |
| C79 | Evaluation of genomes by FNEAT/RNEAT in the environment of C42 (serial loop, parallel workers), tracked best, history, generations; NEAT library and networks as arbitrary functions | induction on steps, genomes and generations; counter invariant of the environment for the lengths; witnesses by computation |
| C80 | The 28 functions of benchmarks/classic.py over the real numbers, the tables of bounds and minima | sums of non-negative terms that vanish only at the listed point; elementary inequalities of exp, sin, cos, sqrt; polynomial division for St; for Schwefel the tangent of the sine at the maximum and bounds of pi |
| C81-C82 | F1-F6 of cec08.py; f1-f30 of cec17.py with all basic functions, rotations, shifts, partitions, weights (with infinity and not-a-number) over the real numbers; data files arbitrary | each basic function is non-negative and zero at the origin; case analysis over functions and dimensions for the partitions; invariants of the weights; the bound of x sin sqrt(x) of C80 for the modified Schwefel function |
| C83 | DTLZ2 (constructor, evaluate, pareto_front with its cache) over the real numbers | the objectives are spherical coordinates (induction on the list of angles), inverse with arcsine; domination contradicts the sum of squares |
| C84-C85 | PESAX: ES, DE (one generation), PSO, memory, replay, all populations as references into a heap of lists; draws universal | invariant of a generation: heap in the space, references valid, every sample has the value of its list and was evaluated; in-place rounding keeps values; findings by evaluation |
| C86-C88 | Monitor (state, dictionaries of keywords, rows), file names, load_results, evaluate_policy on a bare environment, a Monitor and a VecEnv; environment, policy and clock as arbitrary functions | induction on the calls with an invariant tying the Monitor's lists to the history of answers; simulation between Monitor and environment; sorting lemmas for load_results |
| C89-C90 | ESTUNE on the model of ES with the coding of grids; BAYESTUNE with calls by name, the search an arbitrary function | each generation of ES related to its row; decoding theorem of C13; permutation of argument names; witnesses by computation |
| C91-C93 | the four probability distributions over actions, over the reals | Gibbs inequality from ln x <= x - 1; the Gumbel race as comparisons of powers, its chance as an integral of a power; sums over tuples by induction; bits reduced to categoricals over two actions |
| C94-C95 | build_act, build_train, huber_loss, the losses of PPO2 and A2C, normalised advantages, clipping by norm, over the reals; networks as arbitrary functions | the first largest element from C91; contraction and fixed point by powers of the discount; slopes by gluing two derivatives; sorting by name commutes with prefixes |
| C96-C97 | predict of the actor-critic models and of DQN, dueling networks, action_probability, over the reals | cutting a concatenation into rows gives the rows back; inverse cumulative sampling by induction; normal densities as exponentials; 2s < exp(s) for the refuted density |
| C98-C100 | data_to_json, json_to_data, load_parameters, save and load of paths and hyperparameters, set_env, the rows PPO2 trains on | nested induction over Python and JSON values; whatever json reads is clean; dictionaries as assignments in order; permutations of row numbers |
| C101-C102 | InputParser (lines, comments, env_data, cards, blocks, log_dir) and InputChecker.check_input and setup_input with the tables of ParamList | strip is characterised by blank ends; splitting at the first = by induction; acceptance as an equivalence with a specification of readable values and rules; least multiples |
| C103 | the wrappers of atari_wrappers.py over environments as arbitrary state machines that may raise | equivalences with runs of the inner environment by induction on the loops; an invariant over disciplined histories |
| C104 | Buffer of ACER as a ring of rollouts, EpisodeStats, the conversion to bytes | place k holds the latest rollout with number k modulo the size; episodes of a concatenation of streams |
| C105 | conjugate_gradient over an arbitrary operator on lists of real numbers | residuals are orthogonal and directions conjugate, by induction on the iterations; n + 1 orthogonal nonzero vectors do not exist; least energy by conjugacy |
| C106 | traj_segment_generator with arbitrary environment, policy and callback | place i of each array holds the latest step that is i modulo the horizon; the state of the generator before step t is a function of t |
| C107 | Logger, ProfileKV, configure, reset and ScopedConfigure over arbitrary outputs | the state of a key depends only on the operations on it; induction on histories, dumps and nested scopes |
| C108 | CSVOutputFormat as characters with a position, HumanOutputFormat, JSONOutputFormat, TensorBoardOutputFormat | the file is the joined table after every dump; rewriting only lengthens it; splitting undoes joining; insertion sort |
| C109 | the template, str.replace on lists of characters, itertools.product, case_object and run_cases of GRIDTUNE and RANDTUNE | one replacement maps a list of text and holes to another; induction on the names; sorting of distinct numbers is unique |
| C110 | distributions, sampling, ESTUNE with free draws, the numbering of BAYESTUNE | ranges are kept by sampling, mutation, crossover and selection; induction on the generations |
| C111 | SAAgent with free draws: the card, the initial point, the moves, the temperature, the loop with counters and reports | inversion of one pass; invariants of the loop; the exponential is increasing |
| C112 | singleswap, dualswap, quadswap, fullswap, kbs with resampling as bounded search | each move as a relation between points, lifted along the chain; the rows left and used are a permutation of all rows |
| C113 | GAAgent with free draws: initial individuals, crossover, mutation, selection, rows of the dataset, reports | an invariant on individuals and strategies kept by every operator; induction on the generations; totality operator by operator |
| C114 | a file system as paths with contents; initfiles with rename, makedirs and removal; names of directories | what is at every path after each operation, by induction on the list of entries; disjointness of the two names |
| C115 | VecCheckNan around an arbitrary vectorised environment; check_env with its wrapper and automatic resets | lockstep of the wrapped and the bare run by induction on the calls; counting of resets and ends along the check |
| C116 | BitFlippingEnv in its three forms of observation; IdentityEnv with its variants | number of zeros changes by at most one per flip; explicit plans; induction on episodes |
| C117 | the loops of learn as lists of steps and trainings, SavePlotCallback with os._exit, the runners and the names they read from their cards | induction on the events; arithmetic of rollouts; the readings up to the exit with their first maximum; tables of names by computation, for all cards |
| C118 | main as a sequence of actions that may fail, TuneChecker, run_all; cards and their checks from C101 and C102 | case analysis; the check of TUNE cards by induction on its names against a relational specification; flags through the checked cards |
| C119 | VecEnvWrapper.__getattr__ with its search for hidden attributes on towers of wrappers, assignment, unwrap and sync, VecNormalize pickling and loading | induction on towers; owners of a name as the specification; counterexamples |
| C120 | the buffers of DummyVecEnv with numpy broadcasting, _flatten_obs of SubprocVecEnv | a round replaces every row, by induction on environments; both equal to one combined observation |
| C121 | tile_images | arithmetic of rows and columns of nested lists |
| C122 | VecVideoRecorder as a machine on resets and steps | induction on the history with the list of videos as a declarative specification, which is shown to leave no choice |
| C123 | statistics, update of a dense layer, clipping and the order of updates of KfacOptimizer; reads of counters in any order | mathcomp matrices: traces, diagonalisation; induction on runs |
| C124 | integrate, integrate_sq, interp1d, adj_coords, int_bounds and the evaluations of ReactivityModel over the reals | Riemann integrals and derivatives of Coquelicot; splitting of a sorted table at the bounds |
| C125 | mpi_mean, mpi_moments with its reshape, RunningMeanStd of mpi_running_mean_std; Allreduce as a sum over a list of processes | sums over columns of the concatenation, invariance under permutation, remainders of unsigned integers |
| C126 | MpiAdam on all processes at once | invariant: moments are the decayed sums of the joined gradients; induction on calls |
| C127 | OrnsteinUhlenbeckActionNoise with its arrays at addresses, AdaptiveParamNoiseSpec | induction on histories with the closed form as invariant; geometric sums; powers for the settling time |
| C128 | make_vec_env with the file names of Monitor on a disk, make_atari_env, make_mujoco_env, set_global_seeds, mpi_rank_or_zero | injectivity of decimal numerals and file names; induction on ranks; invariance under permutation |
| C129 | the LSTM with layer normalisation, batch_to_seq, seq_to_batch and the passes of LstmPolicy | simulation of the rows by functions of the textbook cell; induction on steps; index arithmetic of batches |
| C130 | observation_input for all spaces, bounds and batches | rows of nested lists; order and field arithmetic of rationals; arithmetic modulo powers of two |
| C131 | mlp_extractor and the constructors of FeedForwardPolicy and LstmPolicy as functions to networks as terms | equivalence of the loops with a description of net_arch, by induction |
| C132 | get_policy_from_name and register_policy over any class hierarchy | a lemma on one registration, then induction on the history |
| C133 | conv, conv_to_fc and nature_cnn on images as functions of row, column and channel | a locality lemma for one layer, composed three times; division with remainder for sizes |
| C134 | ortho_init and linear over matrices of a real closed field | the picked factor without casts; Pythagoras for the part of an input that is lost |
| C135 | fmt_item, fmt_row and colorize on lists of characters | lengths of joined texts by induction; a finite check that escape sequences differ |
| C136 | alpinen1, alpinen2 and ridge over the real numbers | sums of absolute values, intermediate value theorem for another zero, periods of the sine |
| C137 | F7 with an abstract generator whose state is passed along, and an optimizer drawing from the same generator | induction on rounds and coordinates; the state after an evaluation does not depend on the state before |
| C138 | QPowerModel.eval with any function as network, numpy divisions with infinities and nan, and the objective of the example | sums of scaled lists; cases of absolute values |
| C139 | two global generators, constructors and evolute of 20 optimizers with the places where they seed, programs as lists of events | invariant: what is built keeps its kind and seed through all other events |

## 4. Trusted base

* The Coq 8.16.1 kernel (and `coqchk`), standard library only.  No axioms of our own, no functors, no plugins,
  no disabled checks.
* `Print Assumptions` stands beneath every property theorem.  Its output is "Closed under the global context"
  for every theorem outside the files named in the table below, which are about real numbers.  These use the
  axioms on which the real numbers of the standard library rest, and no others:
  A1 `ClassicalDedekindReals.sig_forall_dec`, A2 `ClassicalDedekindReals.sig_not_dec`,
  A3 `FunctionalExtensionality.functional_extensionality_dep`, A4 `Classical_Prop.classic`.

| theorems of | axioms listed by `Print Assumptions` |
|---|---|
| `AP_Props.v`: `C96_dqn_draw`, `C96_dqn_chance`, `C97_whole`, `C97_whole_binary`, `C97_whole_box_refuted`, `C97_whole_multi_refuted`, `C97_batch`, `C97_batch_box` | A1, A2, A3 |
| `AP_Props.v`: `C96_likelihood`, `C96_likelihood_refuted`, `C97_discrete`, `C97_multi`, `C97_binary`, `C97_box`, `C97_box_refuted`, `C97_logp`, `C97_rowwise`, `C97_sizes_raises`, `C97_actions_refuted`, `C97_negative_refuted`, `C97_outside_raises`, `C97_recurrent_raises` | A1, A2, A3, A4 |
| `AP_Props.v`: `C96_single`, `C96_batch`, `C96_rowwise`, `C96_shape_raises`, `C96_recurrent_raises`, `C96_dqn`, `C96_dqn_batch`, `C96_dueling` | A1, A3 |
| `BM_Props.v`: `C80_minimum`, `C80_value`, `C80_unique`, `C80_inside`, `C80_one_coordinate_refuted`, `C80_quartic_refuted`, `C80_schwefel`, `C80_schwefel_refuted` | A1, A2, A3, A4 |
| `BM_Props.v`: `C80_quartic`, `C80_st`, `C80_st_refuted` | A1, A3 |
| `BX_Props.v`: `C136_alpine1`, `C136_alpine1_order`, `C136_alpine2`, `C136_alpine2_bound`, `C136_alpine2_parts`, `C136_ridge`, `C136_ridge_least`, `C136_ridge_scale`, `C136_ridge_minimum_refuted` | A1, A2, A3 |
| `BX_Props.v`: `C136_alpine1_unique_refuted`, `C136_alpine2_optimum_refuted` | A1, A2, A3, A4 |
| `CE_Props.v`: `C81_large` | A1, A2, A3 |
| `CE_Props.v`: `C81_minimum`, `C81_large_refuted`, `C82_lower_bound`, `C82_total`, `C82_other_dimensions_raises`, `C82_optimum`, `C82_schwefel_refuted`, `C82_levy_refuted`, `C82_composition_refuted`, `C82_argument_kept`, `C82_f8_rounds`, `C82_f8_bounds_refuted` | A1, A2, A3, A4 |
| `CG_Props.v`: `C105_solves`, `C105_best`, `C105_monotone`, `C105_zero_refuted`, `C105_tolerance_refuted`, `C105_no_iteration_raises` | A1, A3 |
| `CV_Props.v`: `C133_valid`, `C133_filters`, `C133_same`, `C133_centred` | A1 |
| `CV_Props.v`: `C133_bias_refuted`, `C133_accepts`, `C133_value`, `C133_window`, `C133_shift`, `C133_border_refuted` | A1, A3 |
| `DT_Props.v`: `C83_sphere`, `C83_pareto_set`, `C83_front_reachable`, `C83_second_front_refuted`, `C83_size_raises`, `C83_few_variables_refuted`, `C83_few_variables_raises` | A1, A2, A3 |
| `DT_Props.v`: `C83_pareto_front`, `C83_reported_front` | A1, A2, A3, A4 |
| `DT_Props.v`: `C83_k_refuted`, `C83_k_with_none` | none |
| `FF_Props.v`: `C137_same`, `C137_cases`, `C137_twist`, `C137_outside`, `C137_upper`, `C137_dips`, `C137_minimum_refuted`, `C137_seed_refuted`, `C137_stuck_refuted` | A1, A3 |
| `LM_Props.v`: `C129_policy`, `C129_counts`, `C129_episode`, `C129_own`, `C129_training`, `C129_bounds`, `C129_norm`, `C129_norm_constant`, `C129_accepts`, `C129_initial` | A1, A2, A3 |
| `LM_Props.v`: `C129_mask_refuted` | A1, A2, A3, A4 |
| `LS_Props.v`: `C95_surrogate`, `C95_pessimistic`, `C95_push`, `C95_first`, `C95_like_a2c`, `C95_fraction`, `C95_advantages`, `C95_single_refuted`, `C95_gradients`, `C95_entropy`, `C95_value_share` | A1, A2, A3 |
| `LS_Props.v`: `C94_greedy`, `C94_explore`, `C94_rate`, `C94_history`, `C94_new_rate_refuted`, `C94_error`, `C94_double`, `C94_terminal`, `C94_double_below`, `C94_contraction`, `C94_bounded`, `C94_unique`, `C94_outside_refuted`, `C94_huber`, `C94_slope`, `C94_batch`, `C95_value`, `C95_value_zero`, `C95_exact_value_refuted`, `C95_a2c_value`, `C95_divergence` | A1, A3 |
| `LS_Props.v`: `C94_copy` | none |
| `MP_Props.v`: `C125_moments`, `C125_split`, `C125_empty`, `C125_integers`, `C125_rows_raises`, `C125_running`, `C125_running_exact`, `C125_floor_refuted`, `C125_bias`, `C125_order`, `C126_together`, `C126_paper`, `C126_constant`, `C126_check`, `C126_unnoticed_refuted`, `C126_moments`, `C126_sync` | A1, A2, A3 |
| `MP_Props.v`: `C125_mean`, `C125_bytes_refuted`, `C126_order` | A1, A3 |
| `MP_Props.v`: `C125_axis`, `C125_last_axis_refuted` | none |
| `NZ_Props.v`: `C127_walk`, `C127_bounded`, `C127_unstable_refuted`, `C127_float_raises`, `C127_returned_refuted`, `C127_initial_refuted` | A1, A2, A3 |
| `NZ_Props.v`: `C127_adapt`, `C127_settles`, `C127_coefficient_refuted` | A1, A3 |
| `PD_Props.v`: `C92_sample`, `C92_sample_anywhere`, `C92_first`, `C93_bits_mode`, `C93_bits_sample` | A1, A2, A3 |
| `PD_Props.v`: `C91_likelihood`, `C91_total`, `C91_entropy`, `C91_kl`, `C91_mode`, `C91_sample_valid`, `C91_sample_iff`, `C91_sample_chance`, `C91_sample_reaches`, `C91_outside_refuted`, `C92_likelihood`, `C92_kl`, `C92_entropy_average`, `C92_kl_average`, `C92_mode`, `C92_odd_raises`, `C92_entropy_refuted`, `C93_likelihood`, `C93_entropy`, `C93_kl`, `C93_mode`, `C93_sample`, `C93_size_raises`, `C93_bits_likelihood`, `C93_bits_entropy`, `C93_bits_kl` | A1, A2, A3, A4 |
| `QP_Props.v`: `C138_sum`, `C138_shares`, `C138_number_refuted`, `C138_scale`, `C138_objective` | A1, A3 |
| `QP_Props.v`: `C138_angles` | none |
| `RM_Props.v`: `C124_angles`, `C124_drums`, `C124_turns`, `C124_far_refuted`, `C124_nominal_raises` | A1, A2, A3 |
| `RM_Props.v`: `C124_integrals`, `C124_knot_refuted`, `C124_eval`, `C124_derivative`, `C124_gradient` | A1, A2, A3, A4 |
| `RM_Props.v`: `C124_interpolant` | A1, A3 |
| `SR_Props.v`: `C111_chain`, `C111_best`, `C111_count`, `C111_reports`, `C111_rates`, `C111_cools`, `C111_fast`, `C111_slow`, `C111_total`, `C111_last_refuted`, `C111_below_refuted`, `C111_first_refuted`, `C111_start_raises`, `C111_unbounded_raises`, `C112_in_box`, `C112_single`, `C112_dual`, `C112_full`, `C112_full_refuted`, `C112_rows`, `C112_row_point`, `C112_quad_refuted`, `C112_quad_raises`, `C112_small_raises`, `C112_constant_refuted` | A1, A2, A3, A4 |

* (Some library files loaded by `lia`/`lra` declare axioms – Coq.ssr.ssrunder – that no
  theorem uses.)
* The reading of the Python code expressed by the `*_Model.v` files (see the comments there), including the
  semantics given to the NumPy calls they name.

### Modelled

| model | code |
|-------|------|
| `AB_Model.v` | `neorl/rl/baselines/acer/acer_simple.py`, `neorl/rl/baselines/acer/buffer.py` |
| `ACO_Model.v` | `neorl/evolu/aco.py` |
| `AEO_Model.v` | `neorl/hybrid/aeo.py` |
| `AP_Model.v` | `neorl/rl/baselines/deepq/dqn.py`, `neorl/rl/baselines/deepq/policies.py`, `neorl/rl/baselines/shared/base_class.py`, `neorl/rl/baselines/shared/policies.py` |
| `AW_Model.v` | `neorl/rl/baselines/shared/atari_wrappers.py` |
| `BAT_Model.v` | `neorl/evolu/bat.py` |
| `BF_Model.v` | `neorl/rl/baselines/shared/bit_flipping_env.py`, `neorl/rl/baselines/shared/identity_env.py` |
| `BM_Model.v` | `neorl/benchmarks/classic.py` |
| `BX_Model.v` | `neorl/benchmarks/classic.py` |
| `CB_Model.v` | `neorl/rl/baselines/shared/callbacks.py`, `neorl/rl/baselines/shared/evaluation.py` |
| `CE_Model.v` | `neorl/benchmarks/cec08.py`, `neorl/benchmarks/cec17.py`, `neorl/benchmarks/tools/basic.py`, `neorl/benchmarks/tools/transforms.py` |
| `CG_Model.v` | `neorl/rl/baselines/shared/cg.py` |
| `CS_Model.v` | `neorl/evolu/cs.py` |
| `CT_Model.v` | `neorl/rl/baselines/shared/console_util.py` |
| `CU_Model.v` | `neorl/rl/baselines/shared/cmd_util.py`, `neorl/rl/baselines/shared/misc_util.py`, `neorl/rl/baselines/shared/monitor.py`, `neorl/rl/baselines/shared/vec_env/dummy_vec_env.py`, `neorl/rl/baselines/shared/vec_env/subproc_vec_env.py` |
| `CV_Model.v` | `neorl/rl/baselines/shared/policies.py`, `neorl/rl/baselines/shared/tf_layers.py` |
| `DE_Model.v` | `neorl/evolu/de.py` |
| `DQ_Model.v` | `neorl/rl/baselines/deepq/dqn.py` |
| `DT_Model.v` | `neorl/benchmarks/dtlz.py` |
| `Data_Model.v` | `neorl/rl/baselines/shared/dataset.py` |
| `EDEV_Model.v` | `neorl/hybrid/edev.py`, `neorl/hybrid/edevcore/helpers.py` |
| `EPSO_Model.v` | `neorl/hybrid/epso.py` |
| `ER_Model.v` | `neorl/hybrid/pesacore/er.py` |
| `ES_Model.v` | `neorl/evolu/crossover.py`, `neorl/evolu/es.py` |
| `ET_Model.v` | `neorl/evolu/discrete.py`, `neorl/tune/bayestune.py`, `neorl/tune/estune.py` |
| `Env_Model.v` | `neorl/rl/make_env.py` |
| `FF_Model.v` | `neorl/benchmarks/cec08.py` |
| `GWO_Model.v` | `neorl/evolu/gwo.py` |
| `GX_Model.v` | `neorl/evolu/crossover.py`, `neorl/evolu/runners/ga.py`, `neorl/parsers/ParamList.py` |
| `HCLPSO_Model.v` | `neorl/evolu/hclpso.py` |
| `HER_Model.v` | `neorl/rl/baselines/deepq/replay_buffer.py` |
| `HHO_Model.v` | `neorl/evolu/hho.py` |
| `IP_Model.v` | `neorl/parsers/PARSER.py`, `neorl/parsers/ParamList.py` |
| `KF_Model.v` | `neorl/rl/baselines/acktr/acktr.py`, `neorl/rl/baselines/acktr/kfac.py`, `neorl/rl/baselines/acktr/kfac_utils.py` |
| `KP_Model.v` | `neorl/benchmarks/kp.py` |
| `LD_Model.v` | `neorl/parsers/PARSER.py`, `neorl/utils/initfiles.py` |
| `LG_Model.v` | `neorl/rl/baselines/shared/logger.py` |
| `LM_Model.v` | `neorl/rl/baselines/shared/tf_layers.py`, `neorl/rl/baselines/shared/tf_util.py` |
| `LN_Model.v` | `neorl/rl/baselines/a2c/a2c.py`, `neorl/rl/baselines/acer/acer_simple.py`, `neorl/rl/baselines/acer/buffer.py`, `neorl/rl/baselines/acktr/acktr.py`, `neorl/rl/baselines/ppo2/ppo2.py`, `neorl/rl/baselines/shared/base_class.py`, `neorl/rl/baselines/shared/runners.py` |
| `LS_Model.v` | `neorl/rl/baselines/a2c/a2c.py`, `neorl/rl/baselines/deepq/build_graph.py`, `neorl/rl/baselines/ppo2/ppo2.py`, `neorl/rl/baselines/shared/tf_util.py` |
| `MN_Model.v` | `neorl/parsers/TuneChecker.py`, `neorl/scripts.py`, `neorl/utils/multiproc.py` |
| `MO_Model.v` | `neorl/rl/baselines/shared/evaluation.py`, `neorl/rl/baselines/shared/monitor.py`, `neorl/rl/baselines/shared/vec_env/dummy_vec_env.py` |
| `MP_Model.v` | `neorl/rl/baselines/shared/mpi_adam.py`, `neorl/rl/baselines/shared/mpi_moments.py`, `neorl/rl/baselines/shared/mpi_running_mean_std.py` |
| `NA_Model.v` | `neorl/rl/baselines/shared/policies.py` |
| `NC_Model.v` | `neorl/rl/baselines/shared/env_checker.py`, `neorl/rl/baselines/shared/vec_env/dummy_vec_env.py`, `neorl/rl/baselines/shared/vec_env/vec_check_nan.py` |
| `NDL_Model.v` | `neorl/multi/tools.py` |
| `ND_Model.v` | `neorl/multi/nsgaII.py`, `neorl/multi/nsgaIII.py`, `neorl/multi/tools.py` |
| `NE_Model.v` | `neorl/hybrid/fneat.py`, `neorl/hybrid/rneat.py`, `neorl/rl/make_env.py` |
| `NSGA_Model.v` | `neorl/evolu/es.py`, `neorl/multi/nsgaII.py`, `neorl/multi/nsgaIII.py` |
| `NZ_Model.v` | `neorl/rl/baselines/shared/noise.py` |
| `OB_Model.v` | `neorl/rl/baselines/shared/vec_env/dummy_vec_env.py`, `neorl/rl/baselines/shared/vec_env/subproc_vec_env.py`, `neorl/rl/baselines/shared/vec_env/util.py` |
| `OI_Model.v` | `neorl/rl/baselines/deepq/policies.py`, `neorl/rl/baselines/shared/input.py`, `neorl/rl/baselines/shared/policies.py` |
| `OW_Model.v` | `neorl/rl/baselines/shared/tf_layers.py` |
| `Opt_Model.v` | `neorl/evolu/bat.py`, `neorl/evolu/es.py`, `neorl/evolu/gwo.py` |
| `P1_Model.v` | `neorl/evolu/crossover.py`, `neorl/evolu/es.py`, `neorl/evolu/sa.py`, `neorl/hybrid/pesa.py`, `neorl/hybrid/pesacore/er.py`, `neorl/hybrid/pesacore/es.py` |
| `P2_Model.v` | `neorl/evolu/gwo.py`, `neorl/evolu/woa.py`, `neorl/hybrid/pesa2.py`, `neorl/hybrid/pesacore/de.py`, `neorl/hybrid/pesacore/er.py`, `neorl/hybrid/pesacore/gwo.py`, `neorl/hybrid/pesacore/woa.py` |
| `PD_Model.v` | `neorl/rl/baselines/shared/distributions.py` |
| `PSO_Model.v` | `neorl/evolu/pso.py` |
| `PX_Model.v` | `neorl/hybrid/pesacore/de.py`, `neorl/hybrid/pesacore/er.py`, `neorl/hybrid/pesacore/es.py`, `neorl/hybrid/pesax.py` |
| `Pop_Model.v` | `neorl/evolu/jaya.py`, `neorl/evolu/mfo.py`, `neorl/evolu/ssa.py` |
| `QP_Model.v` | `neorl/benchmarks/qpower_model.py` |
| `RLI_Model.v` | `neorl/evolu/de.py`, `neorl/evolu/es.py`, `neorl/hybrid/ackde.py`, `neorl/hybrid/ppoes.py`, `neorl/rl/baselines/shared/callbacks.py`, `neorl/utils/neorlcalls.py` |
| `RMS_Model.v` | `neorl/rl/baselines/shared/mpi_running_mean_std.py`, `neorl/rl/baselines/shared/running_mean_std.py`, `neorl/rl/baselines/shared/vec_env/vec_normalize.py` |
| `RM_Model.v` | `neorl/benchmarks/reactivity_model.py` |
| `RN_Model.v` | `neorl/parsers/PARSER.py`, `neorl/rl/baselines/a2c/a2c.py`, `neorl/rl/baselines/acer/acer_simple.py`, `neorl/rl/baselines/deepq/dqn.py`, `neorl/rl/baselines/ppo2/ppo2.py`, `neorl/rl/runners/acer.py`, `neorl/rl/runners/dqn.py`, `neorl/utils/multiproc.py`, `neorl/utils/neorlcalls.py` |
| `Replay_Model.v` | `neorl/rl/baselines/shared/buffers.py` |
| `Ret_Model.v` | `neorl/rl/baselines/a2c/a2c.py`, `neorl/rl/baselines/acer/acer_simple.py`, `neorl/rl/baselines/ppo2/ppo2.py`, `neorl/rl/baselines/shared/math_util.py`, `neorl/rl/baselines/shared/tf_util.py` |
| `SA_Model.v` | `neorl/evolu/sa.py` |
| `SD_Model.v` | `neorl/evolu/aco.py`, `neorl/evolu/bat.py`, `neorl/evolu/cs.py`, `neorl/evolu/hclpso.py`, `neorl/evolu/jaya.py`, `neorl/evolu/mfo.py`, `neorl/evolu/ssa.py`, `neorl/evolu/ts.py`, `neorl/hybrid/epso.py`, `neorl/hybrid/nga.py`, `neorl/hybrid/nhho.py`, `neorl/multi/nsgaII.py`, `neorl/multi/nsgaIII.py`, `neorl/utils/seeding.py` |
| `SG_Model.v` | `neorl/hybrid/nga.py`, `neorl/hybrid/ngacore/GA.py`, `neorl/hybrid/ngacore/Latin.py`, `neorl/hybrid/ngacore/RBFN.py`, `neorl/hybrid/nhho.py`, `neorl/hybrid/nhhocore/Latin.py`, `neorl/hybrid/nhhocore/hho.py`, `neorl/hybrid/nhhocore/nnmodel.py` |
| `SR_Model.v` | `neorl/evolu/runners/sa.py`, `neorl/parsers/ParamList.py` |
| `SV_Model.v` | `neorl/rl/baselines/a2c/a2c.py`, `neorl/rl/baselines/acer/acer_simple.py`, `neorl/rl/baselines/acktr/acktr.py`, `neorl/rl/baselines/deepq/dqn.py`, `neorl/rl/baselines/ppo2/ppo2.py`, `neorl/rl/baselines/shared/base_class.py`, `neorl/rl/baselines/shared/save_util.py` |
| `Sched_Model.v` | `neorl/rl/baselines/shared/schedules.py` |
| `SegTree_Model.v` | `neorl/rl/baselines/shared/segment_tree.py` |
| `Space_Model.v` | `neorl/evolu/aco.py`, `neorl/evolu/bat.py`, `neorl/evolu/cs.py`, `neorl/evolu/discrete.py`, `neorl/evolu/es.py`, `neorl/evolu/hclpso.py`, `neorl/evolu/jaya.py`, `neorl/evolu/mfo.py`, `neorl/evolu/ssa.py`, `neorl/evolu/ts.py`, `neorl/hybrid/edev.py`, `neorl/hybrid/edevcore/helpers.py`, `neorl/hybrid/epso.py`, `neorl/hybrid/pesa2.py`, `neorl/rl/make_env.py`, `neorl/utils/tools.py` |
| `Stack_Model.v` | `neorl/rl/baselines/shared/vec_env/vec_frame_stack.py` |
| `Swarm_Model.v` | `neorl/evolu/jaya.py`, `neorl/evolu/mfo.py`, `neorl/evolu/ssa.py`, `neorl/evolu/woa.py` |
| `TG_Model.v` | `neorl/rl/baselines/shared/runners.py` |
| `TI_Model.v` | `neorl/rl/baselines/shared/tile_images.py`, `neorl/rl/baselines/shared/vec_env/base_vec_env.py` |
| `TSP_Model.v` | `neorl/benchmarks/tsp.py` |
| `TS_Model.v` | `neorl/evolu/ts.py` |
| `TU_Model.v` | `neorl/scripts.py`, `neorl/tune/runners/gridtune.py` |
| `Tune_Model.v` | `neorl/tune/gridtune.py`, `neorl/tune/randtune.py` |
| `VR_Model.v` | `neorl/rl/baselines/shared/vec_env/vec_video_recorder.py` |
| `Vec_Model.v` | `neorl/rl/baselines/shared/vec_env/dummy_vec_env.py`, `neorl/rl/baselines/shared/vec_env/subproc_vec_env.py`, `neorl/rl/baselines/shared/vec_env/{dummy_vec_env,subproc_vec_env}.py` |
| `WR_Model.v` | `neorl/rl/baselines/shared/vec_env/__init__.py`, `neorl/rl/baselines/shared/vec_env/base_vec_env.py`, `neorl/rl/baselines/shared/vec_env/vec_normalize.py` |
| `XNES_Model.v` | `neorl/evolu/xnes.py` |

### Not modelled

* TensorFlow graphs and sessions, gradients of networks, optimizers (of `acktr/kfac*` convolutional layers and the options ACKTR does not set); hence what a training step does to the parameters.
  Of the networks of policies the layers (C129, C131, C133), their inputs (C130) and initial weights (C134) are modelled. Of the learning algorithms the control flow of
  `learn` (C76-C78) and the numerical routines listed above are modelled.
* Printing, plotting, csv and log formats (other than the rows of the tuner tables and the progress.csv of the
  logger), the class GATUNE that no runner uses.
* Gradients in `benchmarks/dtlz.py`, the network file that `qpower_model.py` loads,
  the reading of the data files in `reactivity_model.py` (surrogates).
* Of FNEAT/RNEAT the NEAT library, config files and checkpoints.
* The search of skopt behind the Bayesian tuner (arbitrary in C90).
* Files nothing imports: `evolu/ga.py`, `evolu/mutation.py` (copies of the mutation of ES, C14-C16), `hybrid/pesacore/xnes.py`; and
  `utils/test_policy.py` (a copy of the evaluation of C88 that returns nothing).
* Floating point rounding, overflow, wall clock time, memory.

## 5. Findings

Behaviour of the code that contradicts what its documentation or its interface suggests, each proved of the
model (`_refuted`: a witness; `_raises`: for all inputs described).

| theorem | finding |
|---------|---------|
| `C03_capacity_one_search_refuted` | No search succeeds on a tree of capacity 1. |
| `C03_empty_range_refuted` | C03 is false: an empty range [sum(i, i)] never returns, whatever the recursion budget, and no query on a capacity-1 tree succeeds. |
| `C05_long_batch_refuted` | C05 for batches as long as the buffer (or a multiple) is false: the transitions are stored but no priority is written. |
| `C06_last_slot_refuted` | The last slot of the prioritized buffer is never drawn. |
| `C06_single_refuted` | With a single stored transition sampling does not return. |
| `C09_evicts_oldest_refuted` | C09, second half in general is false: after one greedy call the newest and best sample is evicted and the oldest, worst one stays. |
| `C100_plain_refuted` | the plain environment a model was made with is refused when it is set again, if the algorithm works on vectorized ones. |
| `C100_ppo_raises` | after set_env with fewer environments, its training raises. |
| `C100_ppo_refuted` | after set_env with more environments, PPO2 trains only on the rows of the first n of them. |
| `C100_steps_refuted` | after set_env with k times as many environments it makes k times as many steps, more than asked for. |
| `C101_dictionary_last_refuted` | without a # its last character is dropped, whatever it is: a file that ends with the closing brace of the dictionary and no new line loses the brace. |
| `C101_end_first_refuted` | a card whose END line comes first is read as empty. |
| `C101_equals_refuted` | a value with = in it is not kept: what follows its = is lost without a message, whatever it is. |
| `C101_log_dir_refuted` | so all paths that begin with a dot share one directory. |
| `C101_no_equals_raises` | a line of a card without = raises. |
| `C101_unclosed_refuted` | a card that is opened and never closed is skipped without a message. |
| `C102_flag_refuted` | an algorithm is switched on by its card unless the card says flag = False; then its cores still count. |
| `C102_mode_refuted` | any mode at all is accepted alone: test and continue without a model to load, train without a number of steps, and words that are no mode. |
| `C103_fire_refuted` | so if action 2 ends the game, the last observation of the finished game is answered, not the first of the new one that was started. |
| `C103_life_refuted` | if the no-op of a reset does end the game, this is forgotten: the observation of the finished game is answered, and the next step or reset is a step of the finished game. |
| `C103_skip_half_refuted` | if it ends one call early, the larger of the last observation and an old frame is answered. |
| `C103_skip_one_refuted` | with skip = 1 the larger of the observation and the initial frame of zeros is answered, so a negative observation is lost; with skip = 0 a step raises. |
| `C103_skip_stale_refuted` | if the episode ends two or more calls early, nothing of this step is answered, only old frames (zeros at first). |
| `C103_skip_zero_raises` |  |
| `C103_warp_refuted` | a frame warped has the declared shape only if it was an 84 x 84 frame without colours already. |
| `C104_atleast_refuted` | with n rollouts stored has_atleast answers yes for fewer than (n + 1) * n_steps frames: also for up to n_steps - 1 frames that are not there; and for as many as (size + 1) * n_steps frames never, so that replay never starts. |
| `C104_bytes_refuted` | an observation of two or more dimensions is stored as bytes: a value from 0 to below 256 is rounded down, so it is kept only if it is whole; images scaled to [0, 1] become 0 except where they are 1. |
| `C104_cut_refuted` | with two they do. |
| `C104_small_raises` | a buffer smaller than one rollout raises when it is first used. |
| `C105_no_iteration_raises` | without iterations the answer is 0, and with verbose the call raises. |
| `C105_tolerance_refuted` | without a positive tolerance and with more than n iterations the answer is not a number: the loop goes on after the exact solution. |
| `C105_zero_refuted` | for b = 0, whose solution is 0, the answer is not a number. |
| `C106_first_action_refuted` | "the actions of a segment are those of the policy learnt from the segments before it" is false: the first action of segment k + 1 depends only on the calls of the policy that were made before segment k was given, (k + 1) * horizon + k + 1 of them, so it is the action of the policy before the update. |
| `C106_last_row_refuted` | "every row with an observation of a segment has the reward of that step" is false: stopped at step 3 with segments of two steps, the reward beside the observation of step 3 is that of step 1. |
| `C106_raises` | without a callback, or with a horizon of 0, nothing is given: the generator raises. |
| `C107_configure_refuted` | "configure closes the logger it replaces" is false: its files stay open, also when a block ends in which configure was called. |
| `C107_failed_dump_refuted` | "a dump that fails writes nothing" is false: a text that is no number makes the TensorBoard output raise at every dump, the CSV output before it has written a row each time, and nothing is cleared. |
| `C107_none_raises` | the mean of a key whose value is None raises. |
| `C108_commas_refuted` | "values stand below their keys" is false for values with commas, such as lists: nothing is quoted. |
| `C108_empty_refuted` | "every dump is a row of the CSV file as wide as its header" is false if the first dumps are empty: of two, one is lost and the other has two cells below one key. |
| `C108_formats_refuted` | "the order of the formats does not matter" is false: a JSON output turns the arrays of the logger into lists before a CSV output after it sees them. |
| `C108_human_refuted` | "every key has a line" is false: of long keys with the same first 20 characters only the greatest is shown. |
| `C109_comment_refuted` | "only the card is removed" is false: if a line after the card mentions END TUNE, be it a comment, everything up to it is removed as well. |
| `C109_nested_refuted` | with braces inside braces that is false: the file depends on the order of the names in the card. |
| `C109_no_card_raises` | without a TUNE card an exception is raised. |
| `C109_unused_raises` | a tuned name that is no hole of the template raises. |
| `C110_bayes_one_parameter_raises` | with a single tuned parameter bayestune has no column to average, and raises. |
| `C110_constant_raises` | an integer parameter with low = high makes the second generation raise as soon as a mutation is drawn. |
| `C110_failed_raises` | after the first ten cases, a failed case beside a successful one of the same ten makes the run raise. |
| `C110_failed_refuted` | a run with a failed case among the first ten reports that none failed. |
| `C110_no_word_raises` | a parameter without a word for its distribution makes randtune raise. |
| `C110_one_parameter_raises` | with a single tuned parameter estune and gatune run their cases but never get to the summary. |
| `C110_summary_refuted` | "the summary has the mean of the mean rewards and the number of failed cases" is false: with two parameters the printed mean is of the greatest rewards, with four or more of the values of the fourth, and the failed cases are always 0. |
| `C111_below_refuted` | with fast cooling step [steps] is at Tmin and the move after it below Tmin. |
| `C111_first_refuted` | Boltzmann cooling starts above Tmax, Cauchy cooling at half of Tmax. |
| `C111_last_refuted` | the best point can be missing from every report: the move after the last one asked for is reported only if [check_freq] divides [steps + 1]. |
| `C111_start_raises` | an initial state of two or more numbers in the card raises, since an array is compared with None. |
| `C111_unbounded_raises` | a card without bounds, which are optional, raises; the shuffling moves are never reached. |
| `C112_constant_refuted` | with ranges of one number [singleswap] and [dualswap] draw for ever, whatever the random numbers. |
| `C112_full_refuted` | [fullswap] with one range for all coordinates draws every one of them again, whatever [indpb]. |
| `C112_quad_raises` | [quadswap] with one range for all coordinates never completes: it adds a number to a list. |
| `C112_quad_refuted` | [quadswap] with a range for each coordinate never moves: every point evaluated is the initial one. |
| `C112_small_raises` | [singleswap] and [dualswap] need two coordinates, [quadswap] four; with fewer no run completes. |
| `C113_best_refuted` | the best reward is not the best so far: it can fall from one generation to the next, with a fixed reward function. |
| `C113_pair_raises` | any crossover raises with lambda below two, with fewer than two survivors after the first generation, or for individuals of one number. |
| `C113_rows_raises` | a dataset of lambda rows or fewer raises. |
| `C113_share_raises` | a share of the dataset greater than the survivors always raises in the first generation. |
| `C113_strategies_refuted` | the strategies of the other numbers do not: mutation can take one above smax. |
| `C114_columns_refuted` | names of which the first is the default name are not counted: any number of them passes. |
| `C114_directory_raises` | a run whose log exists raises if the directory of the old name does not exist, and leaves all as it was. |
| `C114_dotted_refuted` | all input files given as ./name or ../name share the directory _log. |
| `C114_lost_refuted` | only one earlier log is kept: the log before it is nowhere any more. |
| `C114_second_refuted` | so an input file in a directory runs once: the second run raises. |
| `C114_shared_refuted` | so input files that differ after a first dot share it. |
| `C115_late_refuted` | check_env itself breaks the protocol it checks: an environment whose episodes have one step is stepped after the end without a reset. |
| `C115_raises` | with exceptions such a call raises and no other does; actions are refused before the environment gets them, but observations after it has moved. |
| `C115_stale_refuted` | with exceptions that the caller catches the message can name an older observation than the last one: an observation that was refused is not remembered. |
| `C115_symmetric_refuted` | which is not to say that the Box is symmetric. |
| `C115_terminal_refuted` | so a nan in every last observation of an episode is not noticed: five episodes end with one and the check passes without a warning. |
| `C116_outside_raises` | every other number raises. |
| `C116_solvable_refuted` | with one bit it cannot always be solved: from the goal no actions succeed. |
| `C116_space_refuted` | but the space declared for the numbers leaves out one of them, that of the goal, which is part of every observation. |
| `C117_dqn_raises` | DQN never trains: its runner asks for names that its card does not have and cannot be given. |
| `C117_ignored_refuted` | but some names are accepted in a card and change nothing. |
| `C117_past_refuted` | so it can step past the given number: to 27 with 20 given. |
| `C117_status_refuted` | every training run ends with exit status 1, also when all went well, and what the runner saves after the training is never written: no file _model_last.pkl exists. |
| `C117_trained_refuted` | so a run of exactly one rollout saves an untrained model. |
| `C117_zero_refuted` | with check_freq = 0 a run that reaches the given steps saves no model at all, and no error is raised. |
| `C118_check_refuted` | the option that checks an input file does nothing: any file may be given to it, or none. |
| `C118_mode_refuted` | but a mode that does not exist raises only after the log files of the run before have been moved, ... |
| `C118_off_refuted` | a card that is switched off has its log files made (and an earlier log moved) all the same. |
| `C118_test_refuted` | and the mode test, which only checks the input, moves them too. |
| `C118_tune_alone_refuted` | the other cards are not checked then: what is done depends on the TUNE card alone. |
| `C118_tune_flag_refuted` | a TUNE card cannot be switched off: its flag is true whatever is given. |
| `C119_hasattr_refuted` | C119, finding: hasattr says no although there is such an attribute, if two wrappers have it. |
| `C119_resave_raises` | C119, finding: an unpickled VecNormalize cannot be pickled again before set_venv. |
| `C119_retry_raises` | C119, finding: set_venv with an environment of another shape raises, but keeps that environment: a second call with the right one is refused. |
| `C119_set_raises` | C119, finding: after such an assignment the attribute cannot be read any more through a further wrapper. |
| `C119_set_refuted` | C119, finding: an attribute that can be read through a wrapper cannot be set through it: env.training = False on a wrapper around VecNormalize leaves VecNormalize training. |
| `C119_sync_refuted` | C119, finding: with the same wrappers in another order syncing raises nothing and the VecNormalize of the second keeps its own statistics. |
| `C119_unpickled_raises` | C119, finding: before set_venv, a lookup on it of a name it does not have recurses without end instead of raising AttributeError (so hasattr raises as well). |
| `C120_dtype_refuted` | with numbers that are not of the dtype of the space the two differ: one process converts them, several do not. |
| `C120_shape_refuted` | with arrays of another shape they differ too: one process repeats the numbers to fill its row, several give the array as it is, or raise if the shapes are different. |
| `C122_cut_refuted` | C122, finding: a video cut off by a reset keeps the name of a whole one. |
| `C122_every_refuted` | C122, finding: of a trigger for every L-th step, with videos of L steps, every second is ignored: it falls on the last step of a video. |
| `C122_lost_refuted` | C122, finding: a video can be lost, in no file. |
| `C122_trigger_refuted` | C122, finding: a reset begins a video although the trigger never says so. |
| `C122_zero_refuted` | C122, finding: with video_length 0 a video has two frames, like one of length 1. |
| `C123_both_refuted` | one update per run is false: run number cold_iter + 1 makes both, in whatever order the counters are read. |
| `C123_dropped_refuted` | it is not the solution for the statistics themselves: an eigenvalue of 1e-6 counts as zero. |
| `C123_race_refuted` | what runs number cold_iter and cold_iter + 1 do depends on that order: the former makes a second update just when the counter of cold runs is read late, and the latter preconditions its second update or not. |
| `C124_far_refuted` | for other angles it need not be: for the same angles with enough whole turns, evalg raises, and eval does not notice. |
| `C124_knot_refuted` | otherwise it may be wrong: from the knot at 1 to 3/2 in the table 0, 0, 2 at 0, 1, 2 the integral is 1/4, and integrate gives 0. |
| `C124_nominal_raises` | eval with 8 nominal angles raises, whether they are an array, a list or a tuple. |
| `C125_bytes_refuted` | otherwise they need not: sums are kept in the type of the array, so the mean of the bytes 200 and 100 is 22. |
| `C125_floor_refuted` | so the std of equal rows is 0.1, not 0. |
| `C125_last_axis_refuted` | axis -1 raises ValueError, unless the rest has one element; for vectors it gives a vector of one element and not a number. |
| `C125_rows_raises` | and mpi_moments of more rows than the type can count, such as 256 rows of bytes, gives nan or raises AssertionError. |
| `C126_unnoticed_refuted` | so processes that use different learning rates drift apart for 100 updates before the next raises. |
| `C127_coefficient_refuted` | a coefficient below 1 is accepted, and makes a stddev that is too great grow for ever. |
| `C127_float_raises` | a float as the mean, as documented, raises AttributeError at every call. |
| `C127_initial_refuted` | after a reset the state is initial_noise itself: a change of it in place changes where later resets go to. |
| `C127_returned_refuted` | the returned array is the state: changing it in place, such as scaling it, changes the next noise. |
| `C127_unstable_refuted` | if theta dt > 2, which is accepted, it does not revert to the mean, but leaves all bounds even without any draws. |
| `C128_again_refuted` | logs of earlier environments with the same directory and rank are lost: a second call empties all files of the first. |
| `C128_directory_raises` | an empty monitor_dir and one that is a file raise. |
| `C128_kwargs_refuted` | env_kwargs are ignored when the environment is given by its id: with any others the same environments are made, with one warning for each. |
| `C128_mujoco_raises` | it raises AttributeError if mpi4py is installed and nobody has imported mpi4py.MPI, and TypeError if the logger has no directory. |
| `C128_none_raises` | no environments raise IndexError. |
| `C128_processes_refuted` | make_mujoco_env in different processes of MPI gives the generators different seeds, but the environments the same seed and the same log file. |
| `C129_mask_refuted` | in a new episode without the flag, which predict leaves out by default, the answer depends on the episode before. |
| `C12_last_endpoint_refuted` | The documented "output [value] when [t == time]" fails at the last end point: the outside value (here: an assertion failure, or 7) is given instead of 1/10. |
| `C130_mixed_refuted` | if the bounds of some components coincide and those of another differ, an observation of the space becomes nan in the former. |
| `C130_outside_refuted` | a value outside of a Discrete space is not refused: it becomes all zeros, whatever it is. |
| `C130_wrap_refuted` | with wider bounds of a signed type every value above the lower bound becomes negative: for int8 from -128 to 127, the value 127 becomes -255. |
| `C131_cnn_refuted` | with CNN features both parameters, and unknown keywords, are accepted and have no effect on the layers. |
| `C131_none_refuted` | None among the sizes of a branch is accepted and skipped. |
| `C131_rest_refuted` | whatever follows the first dict is dropped without being looked at. |
| `C133_bias_refuted` | C133, finding: with one_dim_bias and NCHW the bias meets the width instead of the filters: the layer raises unless the width is the number of filters or one of both is 1, and if the width is the number of filters every column, not every filter, gets a bias of its own. |
| `C133_border_refuted` | C133, finding: the rows and columns beyond the last place are never seen: images that differ only there have the same features. |
| `C135_align_refuted` | C135, finding: behind an item that does not fit the columns shift. |
| `C136_alpine1_unique_refuted` | C136, finding: the origin is not its only minimum: in every dimension there is another one less than 1 away in every coordinate. |
| `C136_alpine2_optimum_refuted` | C136, finding: without bounds alpinen2 has neither a minimum nor a maximum. |
| `C136_ridge_minimum_refuted` | C136, finding: without bounds ridge has no minimum. |
| `C137_minimum_refuted` | C137, finding: without bounds there is no minimum: with all other coordinates 1 the value is the last coordinate, whatever it is. |
| `C137_seed_refuted` | C137, finding: an evaluation seeds the generator that optimizers draw from: what an optimizer draws after an evaluation depends only on the point just evaluated, not on its seed. |
| `C137_stuck_refuted` | C137, finding: with points of one coordinate all draws but the first are the same. |
| `C138_number_refuted` | C138, finding: if they add up to zero, nothing raises and no share is a number. |
| `C139_built_refuted` | C139, finding: if another optimizer is built before the run, all others (ES, PSO, GWO, ...) run with its seed and not with their own. |
| `C139_run_refuted` | C139, finding: and if DE, MFO, JAYA, HHO, NHHO or NGA runs before, they go on with what it left of its seed. |
| `C139_twice_refuted` | C139, finding: a second run of the same object need not repeat the first: of an algorithm that returns its first draw two runs agree exactly if the object is one of DE, MFO, JAYA, HHO, NHHO and NGA. |
| `C14_single_value_refuted` | on a range with a single integer the forced methods raise instead of returning it. |
| `C15_nan_shift_refuted` | so a later coordinate takes the place of the NaN, where it is out of range. |
| `C18_initial_ignored_refuted` | the initial population (which contains x0) was evaluated but is not considered: a run can return a value worse than that of an initial point. |
| `C19_sigmoid_refuted` | with the sigmoid transformation the targets themselves are perturbed and the returned value can be worse than an initial individual. |
| `C20_history_refuted` | the history leaves out the initial swarm: its last entry can be worse than the returned value. |
| `C20_mixed_refuted` | in a mixed space with a float bound, a run raises as soon as an integer coordinate is to be moved. |
| `C21_equilibrium_raises_refuted` | and when the acceptance rate is under the threshold in the first generation the call raises. |
| `C21_equilibrium_refuted` | when equilibrium cooling stops the run, the returned position need not have the returned value. |
| `C21_short_refuted` | with fewer generations than chains the call raises, whatever the rest. |
| `C23_aco_integers_refuted` | variables declared 'int' receive fractional values. |
| `C23_aco_single_refuted` | with an archive of one ant (accepted by the constructor) every sampled point is the empty vector: all its coordinates are NaN and the bound repair drops them. |
| `C23_jaya_worst_refuted` | so that row need not be the worst one any more. |
| `C23_woa_a_alone_refuted` | a schedule for [a] without one for [fac] always raises (the wrong keyword is checked). |
| `C23_xnes_history_refuted` | so on a second call in 'min' mode the reported history mixes signs (the first entry, 4, comes back as -4, "better" than the optimum found), and an integer variable is evaluated at 5/2. |
| `C24_bat_initial_refuted` | C24 fails for the initial population: it is evaluated, but its best bat (here the user's x0, the optimum, value 0) is not kept, and the run returns 3. |
| `C24_hclpso_initial_refuted` | C24 fails for the initial swarm: it is evaluated, holds the optimum (value 0), and the run returns 1.98. |
| `C24_hclpso_x0_refuted` | C24 fails for the user's start: any x0 of the right length gives the run without x0. |
| `C24_hho_last_dives_refuted` | C24 fails for the dives of the last generation: a point better than 5 is evaluated, 5 is returned. |
| `C24_hho_sigmoid_dives_refuted` | C24 fails for the dives of every generation under a randomised integer transformation: the optimum 0 is found by a dive of the first generation, 5 is returned. |
| `C24_ts_evaluated_refuted` | C24 fails over all evaluations: with the default settings the best evaluated neighbour (5) is passed over and 5.5 is returned. |
| `C25_cs_feasible_refuted` | the returned position itself can lie outside the bounds, and the returned value is then not its fitness. |
| `C25_cs_sigmoid_refuted` | and with a randomised integer transformation a Levy step beyond the bounds raises (the other optimizers do not under the same settings, cf. C22_total, C23_woa_total). |
| `C26_aspirated_refuted` | tenure fails for moves made by aspiration: with tenure 1 the same move is made in two consecutive steps, the second time from value 3 to value 9. |
| `C26_pair_refuted` | pairing fails when a penalised value exceeds 1e11: returned value 1, value of the returned solution 4. |
| `C26_swap_feasible_refuted` | Tabu search in swap mode: unless the start is a permutation in the space, points outside are evaluated. |
| `C26_swap_raises` | swap mode always raises with fewer than two variables, or when the start lacks one of the numbers 1..n. |
| `C27_nan_refuted` | with NaN values there are cycles, and then the sort never ends. |
| `C31_best_max_refuted` | so y_opt[f] need not be the best value of objective f: when maximising, the reported value is 0 and the front has a member with value 10 ... |
| `C31_best_min_refuted` | The same when minimising: reported 10, a member of the front has 0. |
| `C31_paired_refuted` | nor is y_opt[f] the value of x_opt[f]. |
| `C32_labels_refuted` | AEO: an individual whose label names no population is dropped silently. |
| `C33_one_cycle_refuted` | With one cycle a ramp for alpha always raises. |
| `C33_q_refuted` | The constructor accepts any number for q: with q = 3 an export probability is outside [0,1] and the run raises. |
| `C34_again_refuted` | EDEV with a perturbing transformation: the third sub-population is evaluated again and what it finds is not recorded. |
| `C37_boundaries_empty_refuted` | On an empty array it raises. |
| `C39_abandoned_refuted` | An iteration over a data set dropped half way makes the next one skip rows. |
| `C39_iterbatches_num_refuted` | With a number of batches and without the final partial one, nothing is delivered at all. |
| `C39_zero_refuted` | Iterating a data set with batch size 0 never ends. |
| `C40_alias_refuted` | VecFrameStack.reset overwrites the array returned by the previous call. |
| `C40_space_refuted` | With bounds that differ along the last axis stacked observations need not lie in the declared space. |
| `C41_final_refuted` | 'final' should take the goal achieved at the end of the episode; it takes that of the last state but one. |
| `C42_reset_refuted` | reset should return an observation; it returns a sample of the action space. |
| `C42_single_ignored_refuted` | Every action matters: false for single actions, one step in n+1 ignores its action. |
| `C42_single_reset_refuted` | The first action after a reset should set the first variable; the turn survives the reset. |
| `C43_early_refuted` | An episode after an early reset should have the declared length too; it is shorter by the steps of the abandoned one. |
| `C44_csv_refuted` | A hyperparameter called id: the rows of the csv file do not fit its header. |
| `C44_table_refuted` | A hyperparameter called score: its values are missing from the table. |
| `C45_all_fit_raises` | When all the objects fit together, every step of the list methods raises. |
| `C45_all_fit_refuted` | A knapsack in which everything fits: every step raises. |
| `C45_reset_refuted` | A reset in the middle of a bag breaks the one-object methods: repeated objects, capacity exceeded. |
| `C46_far_refuted` | Cities very far apart make step raise. |
| `C46_order_refuted` | The reward is not minus the length of the tour in the order of info['x']. |
| `C46_reset_refuted` | A reset in the middle of a tour leads to repeated cities. |
| `C46_single_raises` | With a single city every step raises. |
| `C47_double_middle_drop_refuted` | The curve double_middle_drop rises again in its third quarter. |
| `C47_linear_overrun_refuted` | Past its horizon the linear schedule yields negative rates. |
| `C52_complete_refuted` | otherwise a returned member can be dominated by a point evaluated earlier. |
| `C55_jrand_refuted` | JADE's crossover is documented to take at least one coordinate of the mutant: it does not, the forced positions are computed column-major and used row-major. |
| `C58_acer_refuted` | ACER passes flags that mark the last step instead; then the totals are wrong. |
| `C59_2d_refuted` | The two-dimensional variant mixes the columns: a column predicted exactly need not get 1. |
| `C60_mixed_refuted` | Between step_async and step_wait another call receives the answer of the step, and step_wait its. |
| `C60_short_refuted` | Too few actions: an exception with DummyVecEnv, a deadlock with SubprocVecEnv. |
| `C62_one_group_raises` | without a second group (g2 = 0) every run raises in its first generation. |
| `C62_two_refuted` | C62_total fails for two particles: a draw that names the fourth strategy raises. |
| `C63_cores_refuted` | C63 fails with several cores: the counter of evaluations stays at 0, so the second phase (all particles use the strategies) is never reached, in no generation of any run. |
| `C63_stagnation_refuted` | C63 fails for the count of generations without improvement: in the second group it grows at every evaluation, also at one that improves on the memory. |
| `C64_zero_raises` |  |
| `C65_grid_raises` | With a grid parameter whose choices are strings, evolute with init_pop_rl raises on every data: the kept rows are already encoded and the optimizer checks them against the original choices. |
| `C65_grid_refuted` | With numeric grid choices the rows are encoded a second time: the initial population holds individuals that the RL run never produced. |
| `C65_modes_raises` | An environment of the other mode is refused. |
| `C66_few_raises` | With fewer kept rows than npop_rl the run raises. |
| `C66_last_pop_refuted` | The final population (last_pop) shows RL individuals with the fitness of those they replaced. |
| `C67_all_replaced_refuted` | With npop_rl = mu, which the constructor accepts, the returned fitness is not the fitness of the returned individual. |
| `C67_alpha_refuted` | The hyperparameter alpha of PPOES has no effect. |
| `C67_too_many_raises` | With npop_rl > mu (mu is npop/2 by default), or fewer rows than npop_rl, every run raises. |
| `C69_default_refuted` | the default memory (memory_size=None), documented to accommodate all samples, can be too small for the warm-up samples alone: the best of them is lost. |
| `C69_lost_refuted` | the result is not the best evaluated point: points evaluated between two replays are not offered to the memory. |
| `C69_memory_refuted` | a memory that runs full overwrites its best sample: the returned value can be worse than a warm-up sample and worse than earlier entries of the history. |
| `C69_no_replay_raises` | with replay_every larger than ngen no replay takes place and the call raises. |
| `C69_second_refuted` | a second call of evolute inherits as memory size the number of samples the first one had stored; the same call on a fresh object finds the optimum, the second call loses it. |
| `C69_sharing_refuted` | without separate processes and with integer variables under 'minmax' (or 'sigmoid'), DE rounds lists in place that the replay memory also holds: the returned value need not be the fitness of the returned point. |
| `C71_default_refuted` | the default memory (memory_size=None), documented to accommodate all samples, can run full: the best warm-up sample is lost and the history gets worse. |
| `C71_globw_raises` | 'globw' divides by the fitness of the leader: when the best warm-up sample has fitness 0, the call raises whatever the draws. |
| `C71_memory_refuted` | with memory_size=1 the best warm-up sample never shows in the history. |
| `C71_one_parameter_raises` | in a space with one parameter the call raises as soon as an offspring of the first generation is to come from crossover. |
| `C71_second_refuted` | a second call of evolute inherits as memory size the number of samples the first one had stored; the same call on a fresh object finds the optimum, the second call loses it. |
| `C72_even_refuted` | integer variables are not sampled evenly: of four samples of an integer in 0..2, exactly one is 0, two are 1 and one is 2, whatever the draws. |
| `C73_hidden_raises` | nor does a hidden layer of one node, or of more nodes than a third of the samples. |
| `C73_integers_refuted` | integer variables are ignored: there is a run in which the user's function gets a fractional value for an integer variable and the individual reported has one, and the value reported is not the fitness of that individual. |
| `C73_single_raises` | a population of one raises in the first generation. |
| `C73_warmups_raises` | fewer than 12 warm-up samples with the default hidden_shape never work. |
| `C74_max_refuted` | maximising, the hawk reported is the one with the smallest prediction, not the largest, and the value reported is the negative of its prediction. |
| `C74_warmups_refuted` | num_warmups=None means as many samples as hawks, not the documented 20*len(bounds). |
| `C75_every_second_refuted` | that EveryNTimesteps works in every learn is refuted for the second one: its memory of the last call is not reset with num_timesteps, and a second learn that is not longer than the first never calls the child. |
| `C75_mask_refuted` | that one False in a list is enough is refuted when a later callback returns None: the list then answers None and the training goes on. |
| `C75_misplaced_raises` | StopTrainingOnRewardThreshold used on its own, in a list or under EveryNTimesteps raises at its first call. |
| `C75_overwrite_refuted` | that a second learn keeps the checkpoints of the first is refuted: num_timesteps starts again from zero and the file of the same number is overwritten. |
| `C75_threshold_second_refuted` | that the threshold also stops a second learn is refuted: the best mean reward is kept, the child is asked at a new best only, and a second learn whose evaluations all reach the threshold runs to its end. |
| `C76_stale_refuted` | that a learn of A2C always trains on the current observation is refuted after an early stop: the runner keeps the observation from before the last step, and the first action of the next learn is chosen for it although the environment is one step further. |
| `C77_rate_again_refuted` | ... and a second learn with reset_num_timesteps=False that is not longer than what was done before uses negative rates only. |
| `C77_rate_refuted` | that ACER learns with a positive rate is refuted for its default linear schedule: the rate of the last update of every learn that is not stopped is at most 0, and negative (gradient ascent) if the batch size does not divide total_timesteps. |
| `C78_short_raises` | it always raises (ZeroDivisionError) if exploration_fraction*total_timesteps is below 1: with the default 0.1, for any total_timesteps from 1 to 9. |
| `C79_discrete_raises` | in a space of integers and grids only, evolute raises KeyError unless the outputs of the networks are exactly integers. |
| `C79_parallel_refuted` | on several cores FNEAT and RNEAT need not return the best individual they evaluated, and local_fitness can be better than global_fitness, which suggests a best so far. |
| `C79_x0_refuted` | with x0 on one core not every genome is evaluated for episode_length individuals. |
| `C80_one_coordinate_refuted` | C80, what is not so: with one coordinate Rosenbrock, Bohachevsky, Schaffer and Brown are 0 at every point, so every point is a minimum, although the table lists one. |
| `C80_quartic_refuted` | C80, what is not so: the points listed for Quartic ("-1 or 2") are not minima: every evaluation at the origin is smaller than every evaluation there, whatever the noise. |
| `C80_schwefel_refuted` | C80, what is not so: outside its bounds Schwefel has no minimum at all: its values are below every number, so an optimiser that leaves the box can beat the listed point. |
| `C80_st_refuted` | C80, what is not so: ... but not exactly, because it is rounded to six decimals: eight decimals give a smaller value. |
| `C81_large_refuted` | C81, refuted beyond 1000 coordinates: return_global then gives a point with 1000 coordinates and a value that no point with the requested number of coordinates has. |
| `C82_composition_refuted` | f21 .. f30 give a number above 100 times their number at every vector that is not the shift of one of their components, and not-a-number at those shifts - so at the optimum; 100 times the number is not reached. |
| `C82_f8_bounds_refuted` | C82, refuted for f8: unless all coordinates of the shift are multiples of 1/2, there is a vector within [-100, 100] that f8 changes into one outside. |
| `C82_levy_refuted` | C82, refuted for f9: its shift vector is not the optimum, the value there is above 900.5. |
| `C82_other_dimensions_raises` | every other number of coordinates raises; for f11 .. f20, f29 and f30 also 2 and 20. |
| `C82_schwefel_refuted` | C82, refuted for the functions with a modified Schwefel component (f10, f12, f16, f17, f20): no vector at all reaches 100 times the number; the shift vector misses it by at most 2e-5 per coordinate. |
| `C83_few_variables_raises` | with still fewer variables every evaluation raises. |
| `C83_few_variables_refuted` | C83, refuted with fewer than n_obj - 1 variables, which the constructor accepts: two of the objectives always have the same value. |
| `C83_k_refuted` | C83, refuted for the parameter k of DTLZ2: it is ignored, the problem has 10 variables, unless n_var=None is given. |
| `C83_second_front_refuted` | C83, refuted for later calls of pareto_front: they return the front of the first call; for another number of directions it is not the front of the directions given. |
| `C83_size_raises` | a vector of another length raises. |
| `C85_default_refuted` | the default memory (memory_size=None), documented to accommodate all samples, can run full: the returned value is worse than that of a warm-up sample. |
| `C85_globw_raises` | 'globw' divides by the fitness of the leader: when the best warm-up sample has fitness 0, the call raises whatever the draws. |
| `C85_memory_refuted` | with memory_size=1 the best warm-up sample never shows in the history. |
| `C85_one_parameter_raises` | in a space with one parameter the call raises as soon as an offspring of the first generation is to come from crossover. |
| `C85_outside_refuted` | points of x0 are not compared with the bounds: one outside the space can be returned as the best individual. |
| `C85_second_refuted` | a second call of evolute inherits as memory size the number of samples the first one had stored; the same call on a fresh object finds the optimum, the second call loses it. |
| `C85_warmup_raises` | warmup=npop, allowed by the documentation ("must be equal or more than npop"), raises. |
| `C86_missing_info_refuted` | C86, refuted for an episode whose last info lacks a wanted key: the environment makes the step, the call raises, and neither the step nor the episode is counted or logged. |
| `C86_missing_keyword_refuted` | C86, refuted after a reset that lacks a keyword: it raises before the environment is reset, but the next step is accepted and goes to the environment that was not reset; and if early resets are not allowed, repeating the reset with the keyword is refused. |
| `C86_reserved_refuted` | C86, refuted for a reset keyword named r: every row shows the keyword in the place of the reward. |
| `C87_load_raises` |  |
| `C87_names_refuted` | C87, refuted for arguments in general: for each there is another that names the same file, which the second Monitor empties. |
| `C88_vec_raises` |  |
| `C88_vec_refuted` | C88, refuted if it does not allow them: two episodes or more never return, because the VecEnv has already reset the Monitor when evaluate_policy resets it; the second reset raises. |
| `C89_first_refuted` | C89, refuted for the best case tested: one of the first ten can be better than every row. |
| `C89_grid_refuted` | C89, refuted for grids: their column shows numbers of choices; for a grid of strings none of them appears. |
| `C89_one_raises` | with one hyperparameter it raises as soon as one of the draws asks for a crossover. |
| `C90_default_raises` | if the arguments are not exactly the hyperparameters - for example one more with a default value - tuning raises, after all cases have been tested. |
| `C90_failure_raises` | one failing case makes the whole tuning raise. |
| `C90_order_refuted` | C90, refuted for other orders: ... so the values stand under wrong names, outside their range, and the score of a row is not that of the case it shows. |
| `C91_outside_refuted` | C91, what is not so: a number that is not an action has a likelihood, and it is one. |
| `C92_entropy_refuted` | C92, what is not so: the entropy is not bounded below by 0, it can be any number. |
| `C92_odd_raises` | an odd number of parameters raises. |
| `C93_size_raises` | sizes that do not add up to the number of logits raise. |
| `C94_new_rate_refuted` | a rate of 1 given with a call need not be in force for that call: the graph does not order the comparison after the assignment, and the action may be the greedy one although the number is below 1. |
| `C94_outside_refuted` | an action outside the space raises nothing: its value is read as 0. |
| `C95_exact_value_refuted` | so exact values can still cost. |
| `C95_single_refuted` | a minibatch of one row always has the advantage 0, so its policy loss is 0 whatever the policy: such minibatches teach the policy nothing. |
| `C96_likelihood_refuted` | with deterministic=True it is not the likelihood of the answered action: the best action is answered, and the likelihood beside it is that of an action sampled in the background, which can be any action. |
| `C96_recurrent_raises` | a recurrent policy cannot be asked about a single observation. |
| `C96_shape_raises` | an observation whose shape is neither that of the space nor that with one more dimension in front is refused, and so is every observation of another kind of space. |
| `C97_actions_refuted` | in a Box, one observation with several actions is not refused: the answer is that for the first action, and the other actions are ignored. |
| `C97_box_refuted` | so for no policy with an action in a Box is it the density the policy samples from: at the mean it is always strictly smaller. |
| `C97_negative_refuted` | a negative action, which is no action, is not refused: it is given the probability of an action counted from the end. |
| `C97_outside_raises` | every other number is refused. |
| `C97_recurrent_raises` | a recurrent policy cannot be asked about a single observation. |
| `C97_sizes_raises` | unless the actions are a Box, another number of actions than of observations is refused. |
| `C97_whole_box_refuted` | in a Box it is answered by the means alone, whatever the standard deviations. |
| `C97_whole_multi_refuted` | and with several discrete actions by the probabilities of the first one alone. |
| `C98_attribute_refuted` | an object with an attribute :serialized: loses its pickle: what comes back is whatever the attribute unpickles to. |
| `C98_key_raises` | a dictionary with a key that is not basic, a tuple for instance, makes the whole save raise, although pickle could store it. |
| `C98_keys_refuted` | of a number and its text as keys of one dictionary, only the text comes back, with the later value. |
| `C98_marker_refuted` | a user's dictionary with the key :serialized: is unpickled: what comes back is whatever its text unpickles to. |
| `C98_tuple_refuted` | a tuple comes back as a list. |
| `C99_file_refuted` | otherwise load reads the other file, or tries to read a directory, instead of the one just saved. |
| `C99_list_refuted` | a longer list is accepted even for an exact match, its further values ignored; a shorter one raises even without an exact match. |
| `C99_lost_refuted` | these arguments, and the number of timesteps trained, come back as the defaults. |

Further observations made while reading, not stated as theorems: `mpi_running_mean_std.py` and `mpi_adam.py` import a
module that does not exist (`shared.tf_util`); `make_env` accepts the method `neat` but its constructor then always raises;
EDEV's parameter memories never adapt; in the one-city TSP methods `info['x']` of an unfinished tour is the
environment's own list, which later steps extend.
