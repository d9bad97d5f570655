{"id": "C01", "title": "Segment tree agrees with a plain array", "statement": "After any history of item assignments to a SumSegmentTree/MinSegmentTree (single index or index array, sorted or not, with repetitions), reading item i returns the value most recently written to i (the neutral element if none), and sum(a,b)/min(a,b) for 0<=a<b<=capacity equals the left-to-right reduction of the current items a..b-1.", "quantifier": "every capacity 2^k, every history of scalar and array writes, every index and every non-empty range", "why_tests_cant": "tests sample a few capacities and index patterns; the propagation of unsorted and repeated index arrays through the adjacent-duplicate filter must be right for every pattern", "anchors": ["neorl/rl/baselines/shared/segment_tree.py: SegmentTree.__setitem__, __getitem__, reduce, _reduce_helper, unique"]}
{"id": "C02", "title": "Prefix-sum search is exact inverse sampling", "statement": "For a sum tree with non-negative items and 0 <= p < total, find_prefixsum_idx(p) returns the unique index i with arr[0]+..+arr[i-1] <= p < arr[0]+..+arr[i]; hence arr[i] > 0. For p >= total it returns the last index.", "quantifier": "every capacity 2^k with k>=1, every non-negative content reachable by writes, every query", "why_tests_cant": "the descent subtracts partial sums level by level; all contents/queries (including ties with zero-priority leaves) must land in the right cell", "anchors": ["neorl/rl/baselines/shared/segment_tree.py: SumSegmentTree.find_prefixsum_idx"]}
{"id": "C03", "title": "Range reductions always return", "statement": "Calling sum/min on a non-empty range returns; on an empty range it exhausts any recursion budget, so it never returns a value; a capacity-1 tree cannot be searched.", "quantifier": "every range argument and every recursion budget", "why_tests_cant": "non-termination cannot be observed by a finite test; needs an argument for every recursion depth", "anchors": ["neorl/rl/baselines/shared/segment_tree.py: reduce, _reduce_helper, find_prefixsum_idx", "neorl/rl/baselines/shared/buffers.py: PrioritizedReplayBuffer._sample_proportional"]}
{"id": "C04", "title": "Replay buffer is a FIFO window", "statement": "After any sequence of add/extend calls totalling n transitions on a ReplayBuffer of size s>=1, the buffer holds exactly the last min(n,s) transitions, each exactly once, transition number t (counting from 0) sits in slot t mod s, len() is min(n,s), is_full() iff n>=s, can_sample(k) iff k<=min(n,s), and every sampled element is one of these stored transitions.", "quantifier": "every size, every interleaving of add and extend, every sampled index sequence", "why_tests_cant": "wrap-around arithmetic has to be right for every history length", "anchors": ["neorl/rl/baselines/shared/buffers.py: ReplayBuffer"]}
{"id": "C05", "title": "Prioritized buffer keeps one positive priority per stored transition", "statement": "After any history of add, extend and update_priorities on a PrioritizedReplayBuffer, slot i<len has the priority last assigned to it (max_priority^alpha when (over)written by add/extend, given priority^alpha when updated), slots >= len have priority 0 / inf, and max_priority is the maximum of 1 and all priorities ever given, provided every extend batch is shorter than the buffer; an extend batch whose length is a positive multiple of the buffer size breaks it.", "quantifier": "every size, every operation history", "why_tests_cant": "interaction of ring index, two trees and running maximum over unbounded histories", "anchors": ["neorl/rl/baselines/shared/buffers.py: PrioritizedReplayBuffer.add, extend, update_priorities"]}
{"id": "C06", "title": "Prioritized sampling only returns stored transitions, all of which are reachable", "statement": "Every index returned by prioritized sampling is < len(buffer) and has positive priority, the set of uniform draws returning i is an interval of length priority_i/total, and every stored transition except the last slot can be returned; the last stored slot is never returned and sampling from a buffer holding one transition does not return.", "quantifier": "every reachable buffer and every uniform draw in [0,1)", "why_tests_cant": "a probability-zero defect is invisible to sampling tests", "anchors": ["neorl/rl/baselines/shared/buffers.py: PrioritizedReplayBuffer._sample_proportional, sample"]}
{"id": "C07", "title": "Importance weights are normalised", "statement": "For every beta>0 all importance weights returned by prioritized sampling are in (0,1], and a transition of minimal priority has weight exactly 1.", "quantifier": "every reachable buffer, every sample and every decreasing positive power function", "why_tests_cant": "must hold for all priority distributions", "anchors": ["neorl/rl/baselines/shared/buffers.py: PrioritizedReplayBuffer.sample"]}
{"id": "C08", "title": "PESA replay memory: no duplicates, bounded, nothing invented or lost early", "statement": "After any history of add (single/batch) and sample calls on an ExperienceReplay memory of size s>=1: no two equal samples are stored, at most s samples are stored, every stored sample was added, and as long as fewer than s distinct samples have been added every added sample is still stored.", "quantifier": "every size and every operation history", "why_tests_cant": "histories mix insertion with in-place re-sorting by the samplers", "anchors": ["neorl/hybrid/pesacore/er.py: ExperienceReplay.add, sample, calc_priorities"]}
{"id": "C09", "title": "Greedy replay returns the best; full memory evicts the oldest", "statement": "sample(k,'greedy') returns min(k,len) stored samples sorted by decreasing objective none of which is worse than a sample left out; and when the memory is full the sample evicted is the oldest as long as no greedy or priority sampling happened; after such sampling (which sorts the ring in place) the best sample can be the one evicted.", "quantifier": "every memory content, every k, every interleaving of add and sample", "why_tests_cant": "the eviction order depends on the whole call history", "anchors": ["neorl/hybrid/pesacore/er.py: ExperienceReplay.sample, add"]}
{"id": "C10", "title": "Replay priorities form a decreasing probability vector", "statement": "calc_priorities returns one positive priority per stored sample, they sum to 1, and a sample with better objective never gets a smaller priority.", "quantifier": "every non-empty memory and every positive increasing power law", "why_tests_cant": "holds for all memory sizes and exponents", "anchors": ["neorl/hybrid/pesacore/er.py: ExperienceReplay.calc_priorities"]}
{"id": "C11", "title": "LinearSchedule anneals monotonically between its end points", "statement": "value(t) is initial_p at t=0, final_p for all t>=schedule_timesteps, always between the two, and monotone in t.", "quantifier": "all time steps and parameters with schedule_timesteps>0", "why_tests_cant": "universally quantified over time", "anchors": ["neorl/rl/baselines/shared/schedules.py: LinearSchedule.value"]}
{"id": "C12", "title": "PiecewiseSchedule interpolates its end points", "statement": "For end points with increasing times, value(t) at the time of any end point is that end point's value, and between two consecutive end points it lies between their values; outside it is outside_value; the one exception is the last end point, where the code returns outside_value or fails.", "quantifier": "all end-point lists and all times", "why_tests_cant": "off-by-one at segment borders for every list", "anchors": ["neorl/rl/baselines/shared/schedules.py: PiecewiseSchedule.value, linear_interpolation"]}
{"id": "C13", "title": "Categorical (grid) encoding is a faithful bijection", "statement": "For a parameter space with grid parameters without repeated choices, decoding the encoding of any valid individual gives it back, and encoding the decoding of any integer individual in bounds gives it back; decoded grid values are always among the user's choices, other coordinates are untouched. With a repeated choice encoding a valid individual fails although it passes validation.", "quantifier": "all parameter spaces and all individuals", "why_tests_cant": "mixed spaces of any dimension", "anchors": ["neorl/evolu/discrete.py: encode_grid_to_discrete, decode_discrete_to_grid, encode_grid_indv_to_discrete", "neorl/utils/tools.py: check_mixed_individual"]}
{"id": "C14", "title": "Continuous-to-discrete transformation yields in-range integers", "statement": "mutate_discrete returns an integer inside [lb,ub] for every real coordinate with int(x) in range and every method it implements; when the method forces a perturbation (it cannot normalise the coordinate, or the normalised value exceeds the draw) the integer differs from int(x), otherwise it is int(x). A range holding a single value raises when a perturbation is forced.", "quantifier": "all coordinates, ranges, random draws", "why_tests_cant": "random perturbations of all magnitudes", "anchors": ["neorl/evolu/discrete.py: mutate_discrete"]}
{"id": "C15", "title": "Bound repair is a projection", "statement": "The ensure_bounds routine used by the optimizers returns a vector with every coordinate inside its declared range, unchanged coordinates when already inside, idempotent and of the same length, whatever the input vector of numbers. A NaN coordinate is silently dropped, so the vector gets shorter and all later coordinates shift.", "quantifier": "all vectors and all spaces with lb<=ub", "why_tests_cant": "all vectors", "anchors": ["neorl/evolu/es.py: ensure_bounds", "neorl/evolu/gwo.py: ensure_bounds", "neorl/evolu/pso.py: ensure_bounds", "neorl/evolu/jaya.py: ensure_bounds"]}
{"id": "C16", "title": "ES recombination exchanges, never invents", "statement": "Two-point crossover returns two individuals of the parents' length where at each position the pair of (gene,strategy) values is the parents' pair, possibly swapped, position 0 never swapped; blend crossover preserves the sum of the two parents' values at each coordinate.", "quantifier": "all parents of equal length >= 2 and all random draws", "why_tests_cant": "all cut points", "anchors": ["neorl/evolu/crossover.py: cxES2point, cxESBlend"]}
{"id": "C17", "title": "ES mutation respects strategy and variable bounds", "statement": "After ES mutation every strategy value is in [smin,smax], every variable is in its bounds and integer variables are integers; the length is preserved; the same holds for every offspring of a reproduction round and for every point on which a whole run evaluates the fitness function, and such a run does not raise.", "quantifier": "all individuals, all Gaussian/uniform draws", "why_tests_cant": "unbounded Gaussian perturbations", "anchors": ["neorl/evolu/crossover.py: mutES", "neorl/evolu/es.py: mutES, GenOffspring"]}
{"id": "C18", "title": "ES reports the best of everything it evaluated", "statement": "The (x,y) returned by ES.evolute is the best over all offspring ever evaluated, and the running best it records never gets worse and ends with it. The initial population/x0, although evaluated, is not considered: a run may return a value worse than that of x0.", "quantifier": "all fitness functions, random streams, ngen, population sizes", "why_tests_cant": "all histories", "anchors": ["neorl/evolu/es.py: ES.evolute, select"]}
{"id": "C19", "title": "DE is greedy per slot and returns the best point", "statement": "In DE without RL mode, when the integer transformation does not perturb integer values (nearest_int, or no integer variable), the fitness of each slot never gets worse, the returned (x,y) is the best of all evaluations including the initial population, every evaluated point is in the space, the run never raises, and the three donors of every trial are distinct and differ from the target. With the sigmoid transformation the returned value can be worse than an initial individual.", "quantifier": "all fitness functions, random streams, ngen>=1, npop>4", "why_tests_cant": "all histories", "anchors": ["neorl/evolu/de.py: DE.evolute, select"]}
{"id": "C20", "title": "PSO personal and swarm best are exact", "statement": "In PSO.evolute each particle's local best is the best over its own evaluated positions, the returned (x,y) is the best over all positions evaluated (initial swarm included), all evaluated positions are in the space, and the run never raises when integer variables have integer bounds arrays. The reported history leaves out the initial swarm, so its last entry can be worse than the returned value; a mixed int/float space raises TypeError as soon as an integer coordinate is moved.", "quantifier": "all fitness functions and random streams, all ngen", "why_tests_cant": "all histories", "anchors": ["neorl/evolu/pso.py: PSO.evolute"]}
{"id": "C21", "title": "Simulated annealing bookkeeping", "statement": "In every SA chain accepts+rejects equals the number of moves and improves<=accepts; each move is accepted exactly when it improves the energy or the draw is at most exp(gain/temperature), and otherwise the chain stays; the chain's best energy is the best over the initial state and all evaluated moves and belongs to the chain's best state. SA.evolute returns the best value over all evaluations including the initial states, and the returned position has that value unless equilibrium cooling stopped the run (then it may not). With fewer generations than cores, or an equilibrium stop in the first generation, the call raises.", "quantifier": "all chains, temperatures, random draws", "why_tests_cant": "all histories", "anchors": ["neorl/evolu/sa.py: SA.chain_object", "neorl/hybrid/pesacore/sa.py: SAMod.chain_object"]}
{"id": "C22", "title": "GWO leaders are the three best tracked", "statement": "In GWO.evolute after every generation the alpha, beta and delta scores are the best, second best and third best distinct values over all evaluations so far, each remembered position has its score and is in the space; the returned (x,y) is the best of all evaluations, the fitness history is exactly the running best, and the run never raises when the schedule for a has ngen entries.", "quantifier": "all fitness functions, random streams, ngen>=1", "why_tests_cant": "all histories", "anchors": ["neorl/evolu/gwo.py: GWO.evolute"]}
{"id": "C23", "title": "WOA, SSA, JAYA, MFO, ACO, XNES, CS return the best of all evaluations", "statement": "WOA, SSA, JAYA, MFO, ACO (archive of at least two ants), CS and XNES return the best value (by mode) over all fitness evaluations, the initial population and x0 included where they are evaluated (XNES never evaluates x0); it is the fitness of the returned position (for CS of the point of the space nearest to it); the global histories are exact running bests and the returned last population carries its own fitness values. Exceptions settled by refutation: the local history of MFO lags one generation, JAYA keeps steering away from the initially worst row, WOA raises when a schedule for a is given without one for fac, ACO with narchive=1 evaluates empty vectors, ACO and XNES give fractional values to int variables, and a second XNES call in min mode returns a history with mixed signs.", "quantifier": "all fitness functions, random streams, ngen>=1", "why_tests_cant": "all histories", "anchors": ["neorl/evolu/woa.py", "neorl/evolu/ssa.py", "neorl/evolu/jaya.py", "neorl/evolu/mfo.py", "neorl/evolu/aco.py", "neorl/evolu/xnes.py", "neorl/evolu/cs.py"]}
{"id": "C24", "title": "What BAT, HHO, HCLPSO and TS return", "statement": "BAT, HHO and HCLPSO return the best of all evaluations made after the initial population (HHO: except those of its last rapid dives and of candidates it discards), with a consistent pair, exact histories and only feasible evaluations; TS returns the best of the solutions it stood on (the start and the target of every move made) as long as penalised values stay below 1e11, and the best of all evaluations when the penalty weight is 0. That the initial population (BAT, HCLPSO), the user's x0 (HCLPSO), the last dives (HHO) or every evaluated neighbour (TS) are covered is false, with counterexamples.", "quantifier": "all fitness functions, random streams, ngen>=1", "why_tests_cant": "all histories", "anchors": ["neorl/evolu/bat.py", "neorl/evolu/hho.py", "neorl/evolu/hclpso.py", "neorl/evolu/ts.py"]}
{"id": "C25", "title": "Cuckoo search: what the returned position means", "statement": "The value returned by CS is the fitness of the point of the space nearest to the returned position, whose integer coordinates are integral and in range, and every evaluated point is in the space; but the returned position itself can lie outside the bounds (the clipped Levy step is overwritten before it is stored), and with a randomised integer transformation an out-of-range step raises ValueError.", "quantifier": "all spaces and Levy steps", "why_tests_cant": "heavy-tailed steps", "anchors": ["neorl/evolu/cs.py: UpdateCuckoos, evolute"]}
{"id": "C26", "title": "Tabu search swap mode preserves permutations and honours tenure", "statement": "In TS swap mode every solution the search stands on, and the returned one, is a permutation of the start; each step applies its recorded move to the previous solution; a move made is not repeated within its tenure unless (aspiration) it leads to a solution strictly better than all before; the returned pair is consistent while penalised values stay below 1e11; perturb mode and swap mode with equal ranges stay in the space. Settled by counterexample: aspirated moves are not put on the tabu list, pairing fails above 1e11, swap mode with different ranges leaves the space; swap mode raises with one variable or when a number 1..n is missing from the start.", "quantifier": "all permutations, fitness functions, ngen", "why_tests_cant": "all move sequences", "anchors": ["neorl/evolu/ts.py: UpdateTabu, evolute"]}
{"id": "C27", "title": "Pareto dominance is a strict partial order", "statement": "isDominated is irreflexive, asymmetric and transitive on objective vectors of equal length (numbers), and equals 'componentwise <= with at least one <'. With NaN objectives there are dominance cycles on which sortNondominated never ends.", "quantifier": "all objective vectors", "why_tests_cant": "all vectors", "anchors": ["neorl/multi/tools.py: isDominated"]}
{"id": "C28", "title": "Non-dominated sorting computes the Pareto layers", "statement": "sortNondominated(pop,k) returns fronts that partition (a prefix of) the population; an individual is in front r iff the longest dominance chain above it has length r; members of one front do not dominate each other; every member of front r+1 is dominated by a member of front r; at least k individuals are returned and dropping the last front leaves fewer than k.", "quantifier": "all populations (with repeated fitness values) and all k<=n", "why_tests_cant": "all populations", "anchors": ["neorl/multi/tools.py: sortNondominated"]}
{"id": "C29", "title": "NSGA-II/III environmental selection is elitist and exact-size", "statement": "select(pop,k) returns exactly k distinct members of pop, whole fronts in order, so no selected individual is dominated by an unselected one.", "quantifier": "all populations and k<=|pop|", "why_tests_cant": "all populations", "anchors": ["neorl/multi/nsgaII.py: NSGAII.select", "neorl/multi/nsgaIII.py: NSGAIII.select", "neorl/multi/tools.py: assignCrowdingDist, niching"]}
{"id": "C30", "title": "Das-Dennis reference points", "statement": "uniform_reference_points(M,p) returns exactly C(M+p-1,p) distinct points whose coordinates are non-negative multiples of 1/p summing to 1, and every such point is returned.", "quantifier": "all M>=1,p>=1", "why_tests_cant": "combinatorial for all M,p", "anchors": ["neorl/multi/tools.py: uniform_reference_points"]}
{"id": "C31", "title": "What x_opt and y_opt of NSGA mean", "statement": "x_opt[f] returned by NSGA-II/III is the member of the final front that is worst in objective f, and y_opt[f] is the objective-f value of some evaluated point; that y_opt[f] is the best value of objective f in the front, or the value of x_opt[f], is false in both modes, with counterexamples.", "quantifier": "all populations", "why_tests_cant": "all runs", "anchors": ["neorl/multi/nsgaII.py: evolute", "neorl/multi/nsgaIII.py: evolute"]}
{"id": "C32", "title": "AEO migration conserves individuals", "statement": "In each migration phase of AEO the multiset of individuals over all populations is preserved; those who stay keep their fitness value and those who move arrive with an unknown one; in each population the fitness list has one entry for each member, the recorded size is the number of members, and every known fitness is that of the member at its place (also when sorting with unknown values); the total number of individuals never changes. Given individuals whose label names no population are dropped at the start.", "quantifier": "all population sets, all random routing decisions", "why_tests_cant": "random routing", "anchors": ["neorl/hybrid/aeo.py: Population.export, receive, AEO.evolute"]}
{"id": "C33", "title": "AEO migration probabilities are probabilities", "statement": "In every AEO cycle scaled strengths and destination probabilities are probability vectors, export probabilities are in [0,1], and the migration matrix is column stochastic; with at least two cycles, q a ramp or in [-1,1], an order when weights are not uniform, and sufficiently large starting populations a run never raises. The constructor also accepts q outside [-1,1], with which export probabilities leave [0,1] and the run raises; with one cycle the ramps divide by zero.", "quantifier": "all strengths, alpha, beta, sizes", "why_tests_cant": "all sizes", "anchors": ["neorl/hybrid/aeo.py: fill_M, eval_algo_popnumber, Population.strength, ncr"]}
{"id": "C34", "title": "EDEV: partition, monotone slots and returned best", "statement": "At every EDEV generation the three sub-populations partition the individuals (two of the configured size, one with the rest); the population always consists of points of the space with their own values and no slot ever gets worse; the returned pair is the best of the evaluations of the initial population and of all generations, the global history never gets worse and ends at it, and each sub-population history entry is the best value of that sub-population; with at least seven individuals in every sub-population a run never raises unless a donor search fails a thousand times. The repeated evaluation of the third sub-population at the start is covered when the integer transformation keeps integers; with the sigmoid transformation a better point found there is lost.", "quantifier": "all fitness functions, random streams, ngen", "why_tests_cant": "all histories", "anchors": ["neorl/hybrid/edev.py: EDEV.evolute", "neorl/hybrid/edevcore/helpers.py"]}
{"id": "C35", "title": "Running mean/variance is exact and partition independent", "statement": "RunningMeanStd after any sequence of batch updates equals the weighted mean and variance of all data seen (together with the prior pseudo-count), independent of how the data were split into batches; variance stays >=0.", "quantifier": "all batch sequences", "why_tests_cant": "all partitions of all data streams", "anchors": ["neorl/rl/baselines/shared/running_mean_std.py"]}
{"id": "C36", "title": "GAE computes truncated lambda-returns", "statement": "The PPO2 runner's advantages equal sum_k (gamma*lambda)^k delta_{t+k} truncated at the first episode boundary, returns are advantage+value, and for lambda=1 the return is the discounted reward sum bootstrapped only if the episode did not end.", "quantifier": "all rollouts (rewards, values, done patterns), gamma, lambda", "why_tests_cant": "all done patterns", "anchors": ["neorl/rl/baselines/ppo2/ppo2.py: Runner._run"]}
{"id": "C37", "title": "Discounted returns", "statement": "discount, discount_with_boundaries and discount_with_dones compute exactly the discounted sums restarted at episode boundaries, and the A2C runner's returns are those sums plus the discounted value of the state after the rollout if the episode goes on (equal to PPO2's with lambda=1). discount_with_boundaries raises on an empty array.", "quantifier": "all reward/done sequences, gamma", "why_tests_cant": "all sequences", "anchors": ["neorl/rl/baselines/shared/math_util.py: discount, discount_with_boundaries", "neorl/rl/baselines/a2c/a2c.py: discount_with_dones"]}
{"id": "C38", "title": "Action scaling is an exact bijection", "statement": "scale_action maps [low,high] onto [-1,1], unscale_action is its inverse, order preserving, in every coordinate.", "quantifier": "all boxes with low<high and all actions", "why_tests_cant": "all reals", "anchors": ["neorl/rl/baselines/shared/math_util.py: scale_action, unscale_action"]}
{"id": "C39", "title": "Mini-batches cover each epoch exactly once and keep columns aligned", "statement": "Dataset.next_batch goes through the rows epoch by epoch, each row exactly once per epoch whatever the shuffle and in the given order without it, all columns alike, a batch being shorter than asked only at the end of an epoch; complete passes of iterate_once give only full batches without repetition and leave out only the rows that do not fill one; iterbatches covers all rows (full batches only, dropping fewer than one batch, when asked). An iteration of iterate_once that is abandoned makes the next one skip rows, batch size 0 never ends, and iterbatches with num_batches and without the final partial batch delivers nothing.", "quantifier": "all datasets, batch sizes, permutations", "why_tests_cant": "all sizes", "anchors": ["neorl/rl/baselines/shared/dataset.py"]}
{"id": "C40", "title": "Frame stacking shows exactly the last frames of the current episode", "statement": "After any history of steps and resets the observation handed out by VecFrameStack is, for each environment, the last n frames of its current episode, zero padded on the old side, and the terminal observation of a finished episode stacks its true last frames; later steps do not change it, but a later reset overwrites the array handed out last. Stacked observations lie in the announced space if the bounds are constant along the last axis and allow 0, otherwise not necessarily.", "quantifier": "all step/done sequences", "why_tests_cant": "all histories", "anchors": ["neorl/rl/baselines/shared/vec_env/vec_frame_stack.py"]}
{"id": "C41", "title": "Hindsight replay stores exactly the documented transitions", "statement": "HindsightExperienceReplayWrapper stores nothing before the end of an episode; a finished episode contributes, in order, each of its transitions followed by n_sampled_goal relabelled copies (with 'future', none for the last), which differ from the original only in goal, reward (that of compute_reward for the new goal) and done=False, the new goals being goals achieved at states the strategy allows; the replay buffer holds the latest of these transitions. Goals are taken from the observations at the beginning of transitions, so 'final' never uses the goal achieved at the end of the episode.", "quantifier": "all episodes and sampled goals", "why_tests_cant": "all episodes", "anchors": ["neorl/rl/baselines/deepq/replay_buffer.py / her: add, _store_episode, _sample_achieved_goal"]}
{"id": "C42", "title": "Environment action mapping lands in the parameter space", "statement": "An environment made for ppo, a2c, acktr, rneat or fneat turns every action vector into a valid individual of the space (integer and grid variables included), scaling linearly from [-1,1] (with truncation for integers) in mixed spaces and by lower bound plus index in integer spaces; every individual is reached by some action, the observation encodes the individual and the reward is its (sign-adjusted) fitness. For acer and dqn the actions are the values of all variables without repetition, every state is a valid individual and one step sets one variable. Settled by counterexample or proof of the contrary: reset returns an action instead of an observation; an integer variable takes its upper bound only for the action 1 exactly; with acer/dqn the last of every n+1 actions is ignored and a reset does not restart the individual.", "quantifier": "all spaces and actions", "why_tests_cant": "all actions", "anchors": ["neorl/rl/make_env.py: BaseEnvironment.action_mapper, action_map, ensure_discrete, convert_*"]}
{"id": "C43", "title": "Environment episodes have the declared length", "statement": "A step reports done exactly when it or an earlier step since the last reset was number L, 2L, ... of all steps (L the episode length), so an environment reset exactly after done gives episodes of length L; after an early reset the next episode is shorter by the abandoned steps, and with L=0 done is never reported.", "quantifier": "all step/reset sequences", "why_tests_cant": "all histories", "anchors": ["neorl/rl/make_env.py: BaseEnvironment.step, reset"]}
{"id": "C44", "title": "Grid tuner enumerates the full product and isolates failures", "statement": "GRIDTUNE evaluates every combination of the given values exactly once, in lexicographic order of the positions; row i of the table holds case i and its score, a failing case is marked in its own row and affects no other; the table is the same whatever the number of cores and the order in which cases end, and the csv file has, in completion order, exactly the rows of the successful cases under the right headings. With a hyperparameter named 'id' csv rows do not fit the header, and with one named 'score' its column is overwritten by the scores.", "quantifier": "all grids, all fitness outcomes", "why_tests_cant": "all grids", "anchors": ["neorl/tune/gridtune.py: full_grid, worker, tune"]}
{"id": "C45", "title": "Knapsack environment never exceeds capacity", "statement": "In the KP environment the reward of a finished bag is the total value of distinct items, the longest prefix of the chosen ones within capacity (an action too large for the items left stands for any of them), info['x'] lists exactly these items, the best value so far is kept, and list-action methods report done every episode_length bags. If all items but the last chosen one fit, the step raises; so it always does when all items fit together. The observation of list-action methods is always the empty bag, and for the methods adding one item per step a reset in the middle of a bag leads to repeated items and an exceeded capacity.", "quantifier": "all item lists and action sequences", "why_tests_cant": "all actions", "anchors": ["neorl/benchmarks/kp.py: KP.step"]}
{"id": "C46", "title": "TSP environment builds tours visiting every city once", "statement": "Whatever the actions, a TSP tour visits every city exactly once; it is built from the chosen order by putting each city at the first of the cheapest positions of the closed tour so far, and its reward is minus the length of that closed tour (1000 times the length for an unfinished one). info['x'] is the order in which cities were chosen, not the tour rewarded; list-action methods report done every episode_length tours and always show the empty tour. With one city, or tours of length 10^6 or more, step can raise; for the methods adding one city per step a reset in the middle of a tour leads to repeated cities.", "quantifier": "all city lists and action sequences", "why_tests_cant": "all actions", "anchors": ["neorl/benchmarks/tsp.py: TSP.step, Compute_tour_cost"]}
{"id": "C47", "title": "Legacy learning-rate curves stay in [0,1] and never increase", "statement": "Each curve of the legacy Scheduler maps progress in [0,1] to a factor in [0,1], never increasing with progress, the k-th call of value() gives the value of step k, and rates stay non-negative. (False: double_middle_drop rises again from 0.075 to 0.125 at progress 0.75, and the linear curve turns negative past its horizon.)", "quantifier": "all progress values, all call numbers", "why_tests_cant": "a monotonicity claim over a continuum", "anchors": ["neorl/rl/baselines/shared/schedules.py: constant, linear_schedule, middle_drop, double_linear_con, double_middle_drop, Scheduler"]}
{"id": "C48", "title": "XNES rank utilities", "statement": "The utilities XNES gives to the sorted population sum to zero and never decrease with rank, for every population size >= 1.", "quantifier": "all population sizes, any strictly increasing logarithm", "why_tests_cant": "a statement about all sizes", "anchors": ["neorl/evolu/xnes.py: XNES.__init__"]}
{"id": "C49", "title": "Bat loudness and pulse rate", "statement": "During a BAT run the loudness never grows and stays between 0 and its start value, and the pulse emission rate stays between 0 and its maximum r0.", "quantifier": "all runs, generation counts, draws, 0 <= alpha <= 1, any exponential with values in [0,1] on the arguments used", "why_tests_cant": "an invariant over every generation of every run", "anchors": ["neorl/evolu/bat.py: BAT.evolute"]}
{"id": "C50", "title": "HCLPSO memories, velocities and learning probabilities", "statement": "At every generation of an HCLPSO run each particle's memory is the best point that particle has visited (initial swarm included) with its value, the shared attractor is the best point visited by any particle, every velocity component is within 20% of the range of its variable, every position is in the space, and the learning probabilities rise from 0 for the first particle to 1/4 for the last.", "quantifier": "all runs, generation counts, spaces, fitness functions, draws", "why_tests_cant": "an invariant over every generation of every run", "anchors": ["neorl/evolu/hclpso.py: HCLPSO.evolute, UpdateParticles"]}
{"id": "C51", "title": "Both nondominated sorts agree", "statement": "With at least two objectives the divide-and-conquer sort (sortLogNondominated) ends without error, returns the nondomination levels (as C28) and therefore the same fronts, up to order within a front, as sortNondominated.", "quantifier": "all populations (repeated values included), all numbers of objectives >= 2, all k >= 1", "why_tests_cant": "the recursion splits on medians and reduces objectives; a wrong tie rule shows only on rare value patterns", "anchors": ["neorl/multi/tools.py: sortLogNondominated, sortNDHelperA, sortNDHelperB, splitA, splitB, sweepA, sweepB"]}
{"id": "C52", "title": "What an NSGA run returns", "statement": "The front returned by NSGA-II/III is nonempty, consists of evaluated points of the space with their own objective values, no member better than another; if no generation had more nondominated members than mu, it is the Pareto front of everything evaluated in the run (no evaluated point is better than a member, every evaluated point has a member that is no worse). Otherwise a returned member can be dominated by a point evaluated earlier. With legal settings the run never raises.", "quantifier": "all runs: spaces, objective functions, initial populations, draws, generation counts, both sorts, both selections", "why_tests_cant": "an invariant over every generation of every run", "anchors": ["neorl/multi/nsgaII.py: NSGAII.evolute, GenOffspring, select", "neorl/multi/nsgaIII.py: NSGAIII.evolute, select"]}
{"id": "C53", "title": "Crowding distance", "statement": "When the values of each objective differ, the crowding distance of a member of a front is infinite if it is extreme in some objective and otherwise the sum over the objectives of the distance between its two neighbours divided by the number of objectives times the range; NSGA-II fills up from the last front with the least crowded members, and with two places per objective the best value of every objective in that front survives.", "quantifier": "all fronts, all numbers of objectives and places", "why_tests_cant": "all fronts", "anchors": ["neorl/multi/tools.py: assignCrowdingDist", "neorl/multi/nsgaII.py: NSGAII.select"]}
{"id": "C54", "title": "AEO returns the best point it ever evaluated", "statement": "The individual and value returned by AEO.evolute are a point evaluated by the ensemble with its own fitness value, and no point evaluated since the construction of the object has a smaller one.", "quantifier": "all ensembles, settings, fitness functions, draws, numbers of cycles, stop criteria, repeated calls", "why_tests_cant": "all evaluation histories", "anchors": ["neorl/hybrid/aeo.py: FitWrap, AEO.evolute"]}
{"id": "C55", "title": "EDEV variation operators", "statement": "The donors JADE and CoDE choose for an individual are always other individuals, mutually distinct (for JADE possibly archived ones), and never the first other individual of the sub-population; the archive never exceeds its capacity, never holds a position twice, holds only replaced individuals and loses none while there is room; EPSDE only uses strategies and parameters of the documented pools. That every JADE trial takes a coordinate of its mutant is false.", "quantifier": "all sub-population sizes, archives, draws, generations", "why_tests_cant": "index arithmetic over all sizes and draws", "anchors": ["neorl/hybrid/edev.py: EDEV.evolute", "neorl/hybrid/edevcore/helpers.py: gnR1R2, generator, ARCHIVE"]}
{"id": "C56", "title": "VecNormalize statistics and outputs", "statement": "While training, VecNormalize's observation statistics are those of all observations returned by step (not by reset) pooled with the prior pseudo-count, and its reward statistics those of the discounted returns of the running episodes (plus a zero per environment at each reset); outside training they never change. Every observation and reward returned is the raw one centred and/or scaled by statistics that already include it, moved into the clipping bounds; normalising preserves order; the raw observation and reward of the last call stay available; no call fails on answers of the right shape.", "quantifier": "all event histories (steps, resets, done patterns), all parameters, any positive square root", "why_tests_cant": "an invariant over arbitrary histories", "anchors": ["neorl/rl/baselines/shared/vec_env/vec_normalize.py: VecNormalize.step_wait, reset, normalize_obs, normalize_reward, _update_reward"]}
{"id": "C57", "title": "Retrace targets and batch layout of ACER", "statement": "The Q-retrace target of ACER for each environment and step is Q plus the sum over the rest of the episode inside the rollout of gamma^i times the product of the truncated importance weights min(1,rho) times the temporal difference errors, bootstrapped with the next value unless the step ended the episode; batch_to_seq and seq_to_batch are inverse to each other and strip removes exactly the last step of every environment.", "quantifier": "all rollouts, weights, values, done patterns, numbers of environments and steps", "why_tests_cant": "index arithmetic and a backward recursion over all sizes", "anchors": ["neorl/rl/baselines/acer/acer_simple.py: q_retrace, strip", "neorl/rl/baselines/shared/tf_util.py: batch_to_seq, seq_to_batch"]}
{"id": "C58", "title": "Logged episode rewards do not depend on how the rollout is cut", "statement": "When flags mark the first step of each episode (PPO2, A2C), total_episode_reward_logger logs, over any sequence of rollout segments, exactly the totals of the finished episodes of the whole reward stream, in order, and carries the total of the running one. ACER passes the flags of the last steps instead, and the logged totals are then wrong.", "quantifier": "all reward streams, flag patterns and cuts into segments", "why_tests_cant": "all cuts of all streams", "anchors": ["neorl/rl/baselines/shared/tf_util.py: total_episode_reward_logger", "neorl/rl/baselines/acer/acer_simple.py: ACER.learn"]}
{"id": "C59", "title": "Explained variance", "statement": "explained_variance is at most 1, equals 1 exactly when the predictions are right up to one common offset, is 0 for constant predictions and NaN exactly when the true values are all equal. explained_variance_2d mixes the columns: a column that is predicted exactly need not get 1.", "quantifier": "all prediction and target vectors of equal length", "why_tests_cant": "all vectors", "anchors": ["neorl/rl/baselines/shared/math_util.py: explained_variance, explained_variance_2d"]}
{"id": "C60", "title": "The multi-process vectorised environment behaves like the sequential one", "statement": "Under every interleaving of the main process and the workers, SubprocVecEnv returns for any sequence of reset, step and attribute/method calls exactly the answers of DummyVecEnv (up to the dtype conversion of its buffers) in the same order; it never deadlocks, finishes after a bounded number of moves, and every environment behaves as if it were alone, being reset in the step that ends its episode, with the true last observation kept as terminal_observation. Passing fewer actions than environments deadlocks it, and a call between step_async and step_wait receives the answer of the step.", "quantifier": "all environments, call sequences and schedules", "why_tests_cant": "schedules of processes cannot be enumerated", "anchors": ["neorl/rl/baselines/shared/vec_env/subproc_vec_env.py: _worker, SubprocVecEnv", "neorl/rl/baselines/shared/vec_env/dummy_vec_env.py: DummyVecEnv"]}
{"id": "C61", "title": "Random tuner: valid cases, scored in place", "statement": "RANDTUNE generates exactly ncases cases, each value inside the range (integral for int) or among the choices of its hyperparameter; row i of the table holds case i and its score, a failing case is marked in its own row only, and the table is the same for every number of cores and order of completion.", "quantifier": "every set of hyperparameters, every seed, every fitness function including failing ones, every order of completion", "why_tests_cant": "random cases and completion orders are unbounded", "anchors": ["neorl/tune/randtune.py:RANDTUNE.full_grid", "neorl/tune/randtune.py:RANDTUNE.worker", "neorl/tune/randtune.py:RANDTUNE.tune"]}
{"id": "C62", "title": "Ensemble particle swarm: the result is the best point evaluated", "statement": "EPSO.evolute evaluates (g1+g2)*(ngen+1) points, all inside the search space, and returns the best of them with its value; global_fitness and local_fitness are exact, last_pop is the last swarm evaluated with its values, and a feasible x0 is evaluated first. With g1+g2 >= 3 and g2 >= 1 a run never raises; with g2 = 0 every run raises, and with two particles a run may raise.", "quantifier": "every search space, fitness function, split of the swarm, learning period, number of generations and random stream", "why_tests_cant": "random streams and fitness functions are unbounded", "anchors": ["neorl/hybrid/epso.py:EPSO.evolute", "neorl/hybrid/epso.py:EPSO.init_sample", "neorl/hybrid/epso.py:EPSO.UpdateParticles"]}
{"id": "C63", "title": "Ensemble particle swarm: memories and self-adapting strategies", "statement": "In every generation each particle's memory is the best point it has visited and the attractor the best point any particle has visited; velocities stay within half the ranges. The five strategies have probabilities that add up to 1 and are at least 1/505: 1/5 each at first, and after each learning period the shares of the success rates over that period (generation 0 never counts). A particle uses the strategy whose interval holds its draw, and is a success exactly when it improves on everything it visited before. On one core the last tenth of the run moves all particles that way; with ncores > 1 this never happens, and the count of failures that should trigger new exemplars grows on successes too.", "quantifier": "every search space, fitness function, random stream and generation", "why_tests_cant": "the history of successes and the aliasing of arrays depend on unbounded random streams", "anchors": ["neorl/hybrid/epso.py:EPSO.evolute", "neorl/hybrid/epso.py:EPSO.UpdateParticles"]}
{"id": "C64", "title": "The RL logger records what the first environment produced", "statement": "RLLogger (the callback behind ACKDE, PPOES and user training runs) with check_freq = f keeps in r_hist and x_hist exactly the fitness and individual of the first environment at calls number f, 2f, 3f, ...; when the reward is the (negated) fitness, rbest is the best fitness of the history and xbest the first individual that reached it. It raises only for check_freq = 0. The plotted statistics are the mean, maximum and minimum of consecutive groups of n values.", "quantifier": "all training runs, numbers of environments, check frequencies and both modes", "why_tests_cant": "training runs are unbounded and random", "anchors": ["neorl/utils/neorlcalls.py:RLLogger._on_step", "neorl/utils/neorlcalls.py:RLLogger.calc_cumavg"]}
{"id": "C65", "title": "RL-informed hybrids: what the RL run hands to the optimizer", "statement": "ACKDE.learn and PPOES.learn keep the rl_filter best individuals of the RL run, best first, in encoded form that decodes to the individuals; a mode mismatch raises; evolute uses the data of the last learn that succeeded and raises if there is none. Without grid parameters the population initialized from the RL run lies inside the bounds and contains only kept individuals, and ACKDE.evolute never raises and returns the best evaluation, at least as good as every individual drawn from the RL run. With string grid choices evolute with init_pop_rl raises on every data, and with numeric grid choices the rows are silently encoded twice.", "quantifier": "all spaces, histories of calls, RL logs, filters and random streams", "why_tests_cant": "logs and random streams are unbounded", "anchors": ["neorl/hybrid/ackde.py:ACKDE.learn", "neorl/hybrid/ackde.py:ACKDE.evolute", "neorl/hybrid/ppoes.py:PPOES.learn", "neorl/evolu/de.py:DE.InitPopulation"]}
{"id": "C66", "title": "RL-informed differential evolution", "statement": "In RL-informed mode every generation of DE replaces npop_rl individuals that are no better than the others by npop_rl different RL individuals; evolute returns the best of all evaluations and of the initial population, with a history that never gets worse, and never raises when at least npop_rl RL individuals were kept; with fewer it always raises. The reported final population shows RL individuals with the fitness of the individuals they replaced.", "quantifier": "all spaces, fitness functions, RL data, population sizes, generations and random streams", "why_tests_cant": "random streams and fitness functions are unbounded", "anchors": ["neorl/evolu/de.py:DE.mix_population", "neorl/evolu/de.py:DE.evolute"]}
{"id": "C67", "title": "RL-informed evolution strategies", "statement": "In RL-informed mode ES replaces the individuals of the npop_rl worst selected members by different RL individuals and keeps their strategies and fitness. While npop_rl < mu, everything evaluated is feasible, evolute returns the best evaluation with its fitness, and PPOES.evolute after learn never raises. With npop_rl = mu the returned fitness is not that of the returned individual, and with npop_rl > mu (or fewer RL individuals than npop_rl) every run raises, although the constructor accepts any npop_rl < npop and mu is npop/2 by default. The hyperparameter alpha of PPOES has no effect.", "quantifier": "all spaces, fitness functions, RL data, population sizes, generations and random streams", "why_tests_cant": "random streams and fitness functions are unbounded", "anchors": ["neorl/evolu/es.py:ES.mix_population", "neorl/evolu/es.py:ES.evolute", "neorl/hybrid/ppoes.py:PPOES.evolute"]}
{"id": "C68", "title": "PESA2: report, history and replay exponent", "statement": "PESA2.evolute with documented parameters and feasible warm-up samples (at least as many as wolves, whales and NPOP) never raises and evaluates and returns only points of the space. When no list shared between the memory and DE changes its numbers (ncores > 3, or 'nearest_int', or no integer variables) the returned value is the fitness of the returned point, which was evaluated; the history has ngen/replay_every entries, the last being the returned value, each being the fitness of a warm-up sample or of a member of a population handed to the memory; those populations have nwolves + NPOP + nwhales members with their true fitness. The populations start from best warm-up samples, and DE never loses its best member while it passes on a survivor and rounding keeps integers. If every method passes on a survivor and the memory does not run full, each entry is the best of all samples offered so far and the history never gets worse. The replay exponent starts at alpha_init, never decreases, and stays below alpha_end.", "quantifier": "every space, fitness function, mode, memory size, survivor fraction, number of generations and random stream", "why_tests_cant": "random streams, fitness functions and run lengths are unbounded", "anchors": ["neorl/hybrid/pesa2.py:PESA2.evolute", "neorl/hybrid/pesa2.py:PESA2.resample", "neorl/hybrid/pesa2.py:PESA2.memory_update", "neorl/hybrid/pesa2.py:PESA2.linear_anneal", "neorl/hybrid/pesacore/de.py:DEmod.evolute"]}
{"id": "C69", "title": "PESA2: what its report does not guarantee", "statement": "The guarantees of PESA2 stop here: (1) in one process with 'minmax' or 'sigmoid' the returned value need not be the fitness of the returned point; (2) with more than NPOP/2 wolves and replay_every = 1 the wolves never contribute a point that was not offered to the memory before; (3) when the memory runs full the returned value can be worse than a warm-up sample; (4) the default memory size can be smaller than the warm-up set; (5) a second call of evolute uses as memory size the number of samples the first one stored; (6) points evaluated between replays can be better than the result; (7) replay_every > ngen raises.", "quantifier": "universal for (2) and (7); (1), (3)-(6) are counterexamples to universal claims", "why_tests_cant": "tests show single runs; the idle wolves are a statement about every run", "anchors": ["neorl/hybrid/pesa2.py:PESA2.evolute", "neorl/hybrid/pesacore/er.py:ExperienceReplay.add", "neorl/hybrid/pesacore/gwo.py:GWOmod.evolute", "neorl/hybrid/pesacore/de.py:DEmod.evolute"]}
{"id": "C70", "title": "PESA: report, history and schedules", "statement": "PESA.evolute with documented parameters (at least two variables and two individuals, mu < npop, npop a multiple of the number of chains, warm-up at least npop) and an inertia weight other than 'globw' never raises; it evaluates warm-up + 3*npop*ngen points, all in the space, the warm-up points first. The returned point was evaluated and the returned value is its fitness; the history has one entry per generation, each the fitness of a point evaluated so far, the last one the returned value. The ES population, the swarm and the chains start from best warm-up points. While the memory does not run full (by default 3*npop*ngen + 1 samples), the returned point is the best of all evaluated points and the history never gets worse. The replay exponent is alpha_init first and then on the line from alpha_init to alpha_end.", "quantifier": "every space, fitness function, mode, memory size, number of cores, number of generations and random stream", "why_tests_cant": "random streams, fitness functions and run lengths are unbounded", "anchors": ["neorl/hybrid/pesa.py:PESA.evolute", "neorl/hybrid/pesa.py:PESA.memory_update", "neorl/hybrid/pesa.py:PESA.resample", "neorl/hybrid/pesa.py:PESA.init_guess", "neorl/hybrid/pesa.py:PESA.linear_anneal", "neorl/hybrid/pesacore/es.py:ESMod.evolute", "neorl/hybrid/pesacore/sa.py:SAMod.anneal", "neorl/hybrid/pesacore/pso.py:PSOMod.evolute"]}
{"id": "C71", "title": "PESA: what its report does not guarantee", "statement": "The guarantees of PESA stop here: (1) 'globw' raises on every run whose best warm-up sample has fitness 0; (2) in a space with one variable every run in which an offspring of the first generation comes from crossover raises; (3) in a space with two variables its ES part never creates a new value of an integer variable; (4) the inertia weight 'timew' is updated only in serial runs, with more than three cores it stays at 0.9; (5) the default memory can run full, and then the best warm-up sample can be lost and the history get worse; (6) with memory_size = 1 the best sample may never show in the history; (7) a second call of evolute uses as memory size the number of samples the first one stored.", "quantifier": "universal for (1)-(4); (5)-(7) are counterexamples to universal claims", "why_tests_cant": "tests show single runs; (1)-(4) are statements about every run", "anchors": ["neorl/hybrid/pesa.py:PESA.evolute", "neorl/hybrid/pesacore/es.py:ESMod.mutES", "neorl/hybrid/pesacore/pso.py:PSOMod.UpdateParticle", "neorl/hybrid/pesacore/er.py:ExperienceReplay.add"]}
{"id": "C72", "title": "Latin hypercube samples", "statement": "A Latin hypercube sample of size N (used by NGA and NHHO for warm-up samples and first populations) has exactly N points inside the bounds, and each variable with a proper range has exactly one value in each of N strata of equal width, so the points are pairwise different; any combination of strata can occur; a sample is returned exactly when N is positive and no lower bound exceeds its upper bound. For NHHO the points are also integral in the integer variables and stratified in the float ones; integer values are not sampled evenly.", "quantifier": "every size, space, uniform draws and shuffles", "why_tests_cant": "sizes, bounds and random streams are unbounded", "anchors": ["neorl/hybrid/ngacore/Latin.py:latin", "neorl/hybrid/nhhocore/Latin.py:latin", "neorl/hybrid/nhhocore/hho.py:HHO.init_sample"]}
{"id": "C73", "title": "NGA: neural genetic algorithm", "statement": "NGA.evolute calls the fitness function on exactly num_warmups points, a Latin hypercube inside the bounds, however many generations it runs, and returns one individual and one value per generation. Each generation fits the three surrogates to disjoint thirds of these samples plus the individual on which the other two agree best, labelled with their mean; the candidates lie inside the bounds, are pairwise different and contain the population; the next population consists of the candidates with the best mean prediction, and the best of all candidates is reported with its mean prediction. A run with at least two individuals returns if 2 <= hidden_shape <= num_warmups//3 and always raises if not; with the default hidden_shape num_warmups >= 12 is necessary and sufficient, and the default num_warmups qualifies. Integer variables are treated as floats, and the values returned are predictions, not values of the fitness function.", "quantifier": "every space, fitness function, surrogate model, mode, parameters, number of generations and random stream", "why_tests_cant": "fitness functions, trained surrogates and random streams are unbounded", "anchors": ["neorl/hybrid/nga.py:NGA.evolute", "neorl/hybrid/nga.py:NGA.updatemodel", "neorl/hybrid/nga.py:NGA.resetmodel", "neorl/hybrid/ngacore/GA.py:GA", "neorl/hybrid/ngacore/RBFN.py:RBFN.fit"]}
{"id": "C74", "title": "NHHO: neural Harris hawks", "statement": "NHHO.evolute calls the fitness function on the warm-up samples and then on at most two points per hawk and generation, all of them points of the space (integers integral), and returns one hawk and one value per generation. Each generation fits the three networks to consecutive thirds of the warm-up samples plus the hawk on which the other two agree best; x0, if given, are the first hawks; the hawk with the least mean prediction is reported. A run returns exactly when a third of the warm-up samples can be split into training and test samples (6 samples for the default split). The guarantees stop there: when maximising it reports the hawk with the least prediction and the negative of that prediction; num_warmups=None means as many samples as hawks and not 20*len(bounds); and as the networks are fitted to scaled labels and their output is not scaled back, the values reported by a network that stays within its targets lie in [0,1] (or [-1,0]) whatever the fitness function.", "quantifier": "every space, fitness function, surrogate network, mode, parameters, number of generations and random stream", "why_tests_cant": "fitness functions, trained surrogates and random streams are unbounded", "anchors": ["neorl/hybrid/nhho.py:NHHO.evolute", "neorl/hybrid/nhhocore/hho.py:HHO", "neorl/hybrid/nhhocore/nnmodel.py:NNmodel.fit", "neorl/hybrid/nhhocore/Latin.py:latin"]}
{"id": "C75", "title": "Callbacks of the RL algorithms", "statement": "In a list of callbacks every member is called at every step exactly as if it were alone, and if all members answer True or False the training stops exactly when one of them says so. A checkpoint callback saves at exactly every save_freq-th call (with e environments: every e*save_freq timesteps); EveryNTimesteps calls its child exactly when num_timesteps has grown by n_steps since the last time; an EvalCallback evaluates at exactly every eval_freq-th call, calls its child and saves exactly at a new strict maximum of the mean reward, and with StopTrainingOnRewardThreshold stops at the first evaluation that reaches the threshold and nowhere else. Callbacks with positive save_freq and thresholds only directly under an EvalCallback never raise, however they are nested; a threshold anywhere else raises. The guarantees do not extend to a second learn (a second learn that is no longer than the first never triggers EveryNTimesteps; the threshold may not stop it; checkpoints are overwritten), and a member that returns None can hide a False of an earlier member.", "quantifier": "every nesting of callbacks, every sequence of calls, all answers of user callbacks and all evaluation results", "why_tests_cant": "callback trees, numbers of steps and evaluation results are unbounded", "anchors": ["neorl/rl/baselines/shared/callbacks.py:BaseCallback.on_step", "neorl/rl/baselines/shared/callbacks.py:CallbackList", "neorl/rl/baselines/shared/callbacks.py:CheckpointCallback", "neorl/rl/baselines/shared/callbacks.py:EveryNTimesteps", "neorl/rl/baselines/shared/callbacks.py:EvalCallback", "neorl/rl/baselines/shared/callbacks.py:StopTrainingOnRewardThreshold"]}
{"id": "C76", "title": "A2C, ACKTR and PPO2: what a learn does", "statement": "A learn of A2C, ACKTR or PPO2 makes exactly total_timesteps // (n_envs*n_steps) updates: on_training_start, then per update on_rollout_start, n_steps steps of the environment each followed by exactly one callback call (num_timesteps grown by n_envs), on_rollout_end and one update on exactly these steps, then on_training_end. If the callback answers False the run ends after that step without a further update, but with on_rollout_end and on_training_end. The steps of all updates, in order, form one path of the environment under the policy: nothing is used twice, skipped or stale. The learning rate of A2C/ACKTR is the schedule at the last sample of the update, for the linear schedule in (0, lr]; that of PPO2 is a function of the fraction of updates left, in (0,1]. Every epoch of PPO2 uses each sample exactly once in nminibatches minibatches of equal size (whole environments for recurrent policies); it raises if nminibatches does not divide the batch. total_timesteps below one batch silently trains nothing, and after an early stop A2C/ACKTR (not PPO2) start the next learn from an outdated observation.", "quantifier": "every environment, policy, callback, schedule, shuffle, numbers of environments, steps, epochs and minibatches, also for repeated learns", "why_tests_cant": "environments, policies, callbacks and numbers of steps are unbounded", "anchors": ["neorl/rl/baselines/a2c/a2c.py:A2C.learn", "neorl/rl/baselines/a2c/a2c.py:A2CRunner._run", "neorl/rl/baselines/acktr/acktr.py:ACKTR.learn", "neorl/rl/baselines/ppo2/ppo2.py:PPO2.learn", "neorl/rl/baselines/ppo2/ppo2.py:Runner._run", "neorl/rl/baselines/shared/runners.py:AbstractEnvRunner.run"]}
{"id": "C77", "title": "ACER: what a learn does", "statement": "A learn of ACER makes ceil(total_timesteps / (n_envs*n_steps)) rollouts unless the callback stops it, so at least total_timesteps steps and fewer than one batch more, with the same callback protocol and the same path property as A2C. After each rollout it makes one update with it and, once replay_start // n_steps rollouts are stored, Poisson-many updates, each taking for every environment that environment's part of one of the last buffer_size // n_steps rollouts of this learn; none ever if replay_start asks for more than the memory holds; and every learn with buffer_size < n_steps and a positive replay_ratio raises at its first update. The rate is the schedule at num_timesteps, so with the default linear schedule the last update has a rate of at most 0 (negative if the batch does not divide total_timesteps), and a second learn with reset_num_timesteps=False that is not longer than what was done before has negative rates only.", "quantifier": "every environment, policy, callback, schedule, random stream and all parameters", "why_tests_cant": "environments, policies, callbacks, draws and numbers of steps are unbounded", "anchors": ["neorl/rl/baselines/acer/acer_simple.py:ACER.learn", "neorl/rl/baselines/acer/acer_simple.py:_Runner._run", "neorl/rl/baselines/acer/buffer.py:Buffer"]}
{"id": "C78", "title": "DQN: what a learn does", "statement": "A learn of DQN makes exactly total_timesteps steps of the environment unless the callback stops it (then the run ends with that step), each followed by exactly one callback call and by a reset if the episode is over; the steps form one path of the environment under the policy with the scheduled epsilon. An update takes place after a step exactly when batch_size transitions are stored, num_timesteps exceeds learning_starts and is a multiple of train_freq; the target network is updated likewise with its own frequency. Every update uses batch_size transitions of this learn, each one of the last buffer_size before it. Epsilon stays between its final and initial value and is final from exploration_fraction*total_timesteps on. A learn never raises if the callback does not, the sizes are positive and exploration_fraction*total_timesteps is at least 1; below that it always raises (with the default, for fewer than ten timesteps). If the memory or the run is smaller than batch_size, or the run ends before learning_starts, there is no update at all, silently. A user callback sees one more on_rollout_start than on_rollout_end.", "quantifier": "every environment, policy, callback, random stream and all parameters, also for repeated learns", "why_tests_cant": "environments, policies, callbacks, draws and numbers of steps are unbounded", "anchors": ["neorl/rl/baselines/deepq/dqn.py:DQN.learn", "neorl/rl/baselines/shared/buffers.py:ReplayBuffer", "neorl/rl/baselines/shared/schedules.py:LinearSchedule"]}
{"id": "C79", "title": "FNEAT and RNEAT", "statement": "FNEAT.evolute and RNEAT.evolute on one core return the best individual and value of everything they evaluated; the history has one entry per genome, global_fitness the best so far and local_fitness the best of that genome's episode; the fitness handed to NEAT is the reward of the last individual of the episode. All individuals are points of the space (integers integral, grid values listed ones). Without x0 every genome is evaluated on exactly pop_size individuals. In a space with a float variable a run with at least one genome never raises. The guarantees stop there: on several cores the result is the best among the last individuals of the episodes only (a better one that was evaluated can be lost, and local_fitness can be better than global_fitness); with x0 on one core the environment is never reset, so every genome but the first is evaluated on exactly one individual, in a second evolute the first too; and in a space of integers and grids only evolute raises KeyError unless network outputs are exact integers.", "quantifier": "every space, fitness function, mode, network (recurrent or not), every behaviour of the NEAT library, x0 or not, any number of generations", "why_tests_cant": "networks, fitness functions and the histories of the NEAT library are unbounded", "anchors": ["neorl/hybrid/fneat.py:FNEAT.eval_genomes", "neorl/hybrid/fneat.py:FNEAT.evolute", "neorl/hybrid/fneat.py:NEATWorker.work", "neorl/hybrid/fneat.py:ParallelEvaluator.evaluate", "neorl/hybrid/rneat.py:RNEAT", "neorl/rl/make_env.py:BaseEnvironment.step"]}
{"id": "C80", "title": "Classic benchmark functions: the table of minima", "statement": "For every number of coordinates, each point that benchmarks.classic lists as the minimum of a function (all_minima_x) is a global minimum of it over all real points with as many coordinates, with value 0 (-1 for Expo, Yang3, Yang4), and lies within the listed bounds; for all of these functions but Yang, Qing and Dixonprice it is the only one (for those that compare neighbouring coordinates from two coordinates on). Exceptions: being rounded, St's entry is a minimum up to 10^-12 per coordinate and Schwefel's within its bounds up to 10^-5; with one coordinate Rosenbrock, Bohachevsky, Schaffer and Brown are 0 everywhere; the entries of Quartic are not minima (the origin is better whatever the noise); Schwefel has no minimum outside its bounds. Shubert is not settled.", "quantifier": "every function of the table, every number of coordinates and every real vector, all random numbers drawn by Yang and Quartic", "why_tests_cant": "a minimum over a continuum in every dimension cannot be tested", "anchors": ["neorl/benchmarks/classic.py:all_functions", "neorl/benchmarks/classic.py:all_minima_x", "neorl/benchmarks/classic.py:all_bounds"]}
{"id": "C81", "title": "CEC'2008 benchmark classes", "statement": "For F1 to F6 of benchmarks.cec08 and 1 to 1000 coordinates, return_global(nx) gives a point with nx coordinates and the bias of the function; fit of every point with nx coordinates is at least this value, and equal to it only at this point (F3: from two coordinates on). With more than 1000 coordinates fit returns 1 for every point, and return_global returns a point with 1000 coordinates and a value that no point of the requested size has.", "quantifier": "every function F1..F6, every number of coordinates, every real vector and any data of 1000 entries", "why_tests_cant": "a minimum over a continuum in every dimension cannot be tested", "anchors": ["neorl/benchmarks/cec08.py:F1", "neorl/benchmarks/cec08.py:F2", "neorl/benchmarks/cec08.py:F3", "neorl/benchmarks/cec08.py:F4", "neorl/benchmarks/cec08.py:F5", "neorl/benchmarks/cec08.py:F6"]}
{"id": "C82", "title": "CEC'2017 benchmark functions", "statement": "Whatever the data files contain, no value of f1..f30 of benchmarks.cec17 is below 100 times the number of the function. With data of the official shapes f1..f20 have a finite value for every vector with an accepted number of coordinates (2, 10, 20, 30, 50, 100; for f11..f20, f29, f30 only 10, 30, 50, 100), and every other number raises. f1..f8, f11, f13, f14, f15, f18, f19 take exactly 100 times their number at their shift vector. This does not hold for the others: no vector reaches it for f10, f12, f16, f17, f20 (the shift vector misses it by at most 2e-5 per coordinate), f9 is above 900.5 at its shift vector, and f21..f30 are not-a-number at the shifts of their components and above 100 times their number elsewhere. No function but f8 changes its argument; f8 moves every coordinate by at most 1/4, a second call returns the same value and changes nothing, but the vector can leave [-100,100].", "quantifier": "every function f1..f30, every real vector of every length, all data files (of the official shapes where said)", "why_tests_cant": "a lower bound over a continuum cannot be tested", "anchors": ["neorl/benchmarks/cec17.py:f1", "neorl/benchmarks/cec17.py:f8", "neorl/benchmarks/cec17.py:f11", "neorl/benchmarks/cec17.py:_shuffle_and_partition", "neorl/benchmarks/cec17.py:_calc_w", "neorl/benchmarks/cec17.py:f21", "neorl/benchmarks/cec17.py:f29", "neorl/benchmarks/tools/basic.py:bent_cigar", "neorl/benchmarks/tools/basic.py:non_cont_rastrigin", "neorl/benchmarks/tools/transforms.py:rotations"]}
{"id": "C83", "title": "DTLZ2: Pareto set and front", "statement": "For at least one objective and n_var >= n_obj-1, DTLZ2.evaluate of a vector of n_var entries gives n_obj objectives on a sphere of radius 1 plus the sum of the squared distances of the last n_var-n_obj+1 entries from 1/2, none negative within the bounds. The Pareto-optimal vectors of the search space are exactly those whose last n_var-n_obj+1 entries are 1/2, and their objectives exactly the points of the unit sphere without negative entries. The first call of pareto_front with non-negative non-zero directions returns only such points, and each of them for itself as direction; later calls return the front of the first call. A vector of another length raises. The parameter k is ignored (10 variables) unless n_var=None is given; with n_var < n_obj-1, which is accepted, two objectives always coincide, and evaluate raises if 2*n_var+1 < n_obj.", "quantifier": "every number of variables and objectives, every real vector, all directions", "why_tests_cant": "Pareto optimality over a continuum in every dimension cannot be tested", "anchors": ["neorl/benchmarks/dtlz.py:DTLZ.__init__", "neorl/benchmarks/dtlz.py:DTLZ.obj_func", "neorl/benchmarks/dtlz.py:DTLZ.g2", "neorl/benchmarks/dtlz.py:DTLZ2", "neorl/benchmarks/dtlz.py:Problem.evaluate", "neorl/benchmarks/dtlz.py:Problem.pareto_front", "neorl/benchmarks/dtlz.py:generic_sphere"]}
{"id": "C84", "title": "PESAX: result and history", "statement": "With at least two parameters and five individuals, mu below npop, probabilities of at most one in total, points of the space to start from (at least npop in x0 or more than npop random ones) and an inertia weight other than 'globw', PESAX.evolute always returns. The returned individual lies in the space and was evaluated, its value is its fitness; everything evaluated lies in the space; a run makes warm-up + 4*npop*ngen evaluations (DE evaluates its population again each generation). The history has one entry per generation, the last one is the returned value, each is the fitness of a point evaluated up to then. While the memory accommodates the warm-up samples and three times mu survivors per generation (by default it holds 3*npop*ngen+1 samples), the result is the best of all evaluations and the history never gets worse. The replay exponent goes linearly from alpha_init to alpha_end. All three populations start with the npop best warm-up samples, the swarm's leader is the best of them.", "quantifier": "every space, fitness function, mode, serial and parallel runs, all parameters and random draws", "why_tests_cant": "populations, generations, draws and fitness functions are unbounded; the three methods share and modify the same lists", "anchors": ["neorl/hybrid/pesax.py:PESAX.evolute", "neorl/hybrid/pesax.py:PESAX.memory_update", "neorl/hybrid/pesax.py:PESAX.resample", "neorl/hybrid/pesax.py:PESAX.init_guess", "neorl/hybrid/pesacore/de.py:DEmod.evolute", "neorl/hybrid/pesacore/es.py:ESMod", "neorl/hybrid/pesacore/pso.py:PSOMod"]}
{"id": "C85", "title": "PESAX: where the guarantees end", "statement": "PESAX raises for every run with warmup=npop (allowed by the documentation), for every run with 'globw' whose best warm-up sample has fitness 0, and in a space with one parameter as soon as the first generation makes a crossover. Points of x0 are not compared with the bounds, one outside the space can be returned. The default memory can run full, then the result is worse than a warm-up sample; so with a small memory_size; a second evolute inherits as memory size the number of samples of the first and loses the optimum which a fresh object finds. The inertia weight 'timew' decreases in serial runs only: with more than three cores it stays at 0.9.", "quantifier": "all inputs described (warm-up, globw, one parameter, weights); otherwise there is a run with this behaviour", "why_tests_cant": "raising for all draws cannot be tested; which samples a full memory loses depends on histories", "anchors": ["neorl/hybrid/pesax.py:PESAX.evolute", "neorl/hybrid/pesacore/er.py:ExperienceReplay", "neorl/hybrid/pesacore/pso.py:PSOMod.UpdateParticle"]}
{"id": "C86", "title": "Monitor: statistics, log and transparency", "statement": "Whatever sequence of reset and step calls is made on a Monitor, refused ones included, get_episode_rewards and get_episode_lengths are the sums of rewards and the numbers of steps of exactly the episodes that came to an end, get_total_steps is the number of steps made, and the log file has one row per finished episode, in order, with the rounded sum, the length and the values of the reset and info keywords. step raises exactly when no episode is going on, reset exactly when one is and allow_early_resets is False; a refused call changes nothing. The wrapped environment gets the accepted calls and no others; its answers are passed on unchanged. Episode times never decrease if the clock does not. This needs every reset to pass the reset_keywords and every last info to have the info_keywords: a reset without one raises but leaves the Monitor accepting steps of the environment that was not reset (and, without early resets, refusing a correct reset); an episode whose last info lacks a key is lost from all statistics although the step was made; and a reset keyword named r replaces the reward in the log.", "quantifier": "every environment, all sequences of calls, all keywords and clocks", "why_tests_cant": "histories of calls and environments are unbounded", "anchors": ["neorl/rl/baselines/shared/monitor.py:Monitor.reset", "neorl/rl/baselines/shared/monitor.py:Monitor.step", "neorl/rl/baselines/shared/monitor.py:Monitor.__init__"]}
{"id": "C87", "title": "Monitor: log files", "statement": "The log file of a Monitor always has a name ending in monitor.csv; two arguments that are not directories and do not end so give different files, but for every such argument there is another one (itself with the ending) that gives the same file. load_results raises exactly if there is no log; otherwise it returns every row of every log once, ordered by time, with times counted from the start of the earliest log; the rows of a single log come back unchanged and in order.", "quantifier": "all file names, all numbers and contents of logs", "why_tests_cant": "file names and logs are unbounded", "anchors": ["neorl/rl/baselines/shared/monitor.py:Monitor.__init__", "neorl/rl/baselines/shared/monitor.py:load_results", "neorl/rl/baselines/shared/monitor.py:get_monitor_files"]}
{"id": "C88", "title": "evaluate_policy", "statement": "evaluate_policy returns the sums of rewards and the lengths of exactly n_eval_episodes complete episodes of the policy, made one after the other, each after a reset and with a fresh policy state, and their mean; it returns whenever the policy ends that many episodes, except that with a reward_threshold it raises unless the mean is strictly above it (so also at equality, and for no episodes). On a Monitor without keywords the result is that on the bare environment, and the Monitor's statistics grow by exactly what is reported; so also for a vectorised environment around one Monitor that allows early resets. If that Monitor does not allow them, two or more episodes always raise, because the vectorised environment has reset it already.", "quantifier": "every environment, policy, number of episodes and threshold", "why_tests_cant": "environments, policies and episode lengths are unbounded", "anchors": ["neorl/rl/baselines/shared/evaluation.py:evaluate_policy", "neorl/rl/baselines/shared/monitor.py:Monitor", "neorl/rl/baselines/shared/vec_env/dummy_vec_env.py:DummyVecEnv.step_wait"]}
{"id": "C89", "title": "Evolutionary tuner: what the table means", "statement": "With at least two hyperparameters and one generation ESTUNE.tune always returns a table with one row per generation; the row belongs to one of the ten cases tested in that generation, shows its score, and no other case of that generation has a better one; all cases lie in the space. Without grid hyperparameters every row shows exactly the values of its case. For a grid (categorical) hyperparameter the column shows the internal number of the choice, not the choice: for a grid of strings none of its values ever appears. The ten cases tested first (a run tests 10*ngen+10) are in no row, one of them can be better than everything in the table. With a single hyperparameter tune raises as soon as a draw asks for a crossover.", "quantifier": "every space, fitness function, mode, number of generations and all random draws", "why_tests_cant": "draws, fitness functions and numbers of generations are unbounded", "anchors": ["neorl/tune/estune.py:ESTUNE.tune", "neorl/evolu/es.py:ES.evolute", "neorl/evolu/es.py:ES.fit_worker", "neorl/evolu/discrete.py:encode_grid_to_discrete"]}
{"id": "C90", "title": "Bayesian tuner: what the table means", "statement": "If BAYESTUNE.tune returns, its table has max(ncases, 11) rows per core, all of them allowed cases, and the score of each is what the fitness returned for that case, when minimizing and when maximizing. It returns if the arguments of the fitness are exactly the hyperparameters and the fitness never raises. If the arguments are in the order of param_grid, each row shows its case. Otherwise the column named after the j-th argument shows the values of the j-th hyperparameter, so values stand under wrong names and the row shows a case that has another score. A fitness with a further argument, even with a default value, makes tune raise after all cases have been tested; so does one failing case.", "quantifier": "every dictionary of hyperparameters, fitness function, mode, number of cases and cores, every behaviour of the search", "why_tests_cant": "the search and the fitness are arbitrary; the number of cases is unbounded", "anchors": ["neorl/tune/bayestune.py:BAYESTUNE.tune", "neorl/tune/bayestune.py:BAYESTUNE.worker", "neorl/tune/bayestune.py:BAYESTUNE.full_grid"]}
{"id": "C91", "title": "Policies over discrete actions: likelihood, entropy, divergence, sampling", "statement": "For every vector of logits: the negative log-likelihood of an action is that of its softmax probability and the likelihoods of all actions add up to one; the entropy is Shannon's, between 0 and log n, and log n exactly for equal logits; kl is the Kullback-Leibler divergence, never negative, and 0 exactly when the logits differ by a constant; the deterministic action is the first most likely one; a sampled action is always one of the space, every action can be sampled, and the chance of each one over independent uniform numbers is its probability. A number that is not an action has likelihood one instead of an error.", "quantifier": "every non-empty vector of real logits, all uniform numbers", "why_tests_cant": "logits and numbers of actions are unbounded, and the chance is an integral over all uniform numbers", "anchors": ["neorl/rl/baselines/shared/distributions.py:CategoricalProbabilityDistribution"]}
{"id": "C92", "title": "Policies over continuous actions: likelihood, entropy, divergence, sampling", "statement": "For all means and logarithms of standard deviations: the negative log-likelihood is that of the product of normal densities; kl is never negative, 0 exactly for equal parameters, and equals the mean difference of the negative log-likelihoods over any weighted points with the means and standard deviations of the policy, as the entropy equals the mean negative log-likelihood; the deterministic action is the mean and no other action is as likely; a sample is mean plus standard deviation times a normal number, so that every action, outside the bounds of the space too, can be sampled; a new policy has standard deviations 1. The entropy can be negative. An odd number of parameters raises.", "quantifier": "every number of coordinates, all parameters and actions, all normal numbers", "why_tests_cant": "parameters and dimensions are unbounded", "anchors": ["neorl/rl/baselines/shared/distributions.py:DiagGaussianProbabilityDistribution", "neorl/rl/baselines/shared/distributions.py:DiagGaussianProbabilityDistributionType.proba_distribution_from_latent"]}
{"id": "C93", "title": "Policies over tuples and bits: likelihood, entropy, divergence, sampling", "statement": "For a MultiDiscrete space the likelihood of a tuple is the product of the softmax probabilities of its entries and these products add up to one over all tuples; entropy and kl are the entropy and divergence of the probabilities of the tuples, kl is never negative and 0 exactly when they agree; the deterministic action is a most likely tuple; a sample is a tuple of the space, with independent entries. The same holds for the vectors of a MultiBinary space with logistic probabilities, where bit j of a sample is 1 exactly when its uniform number is below its probability. Sizes that do not add up to the number of logits raise.", "quantifier": "every list of sizes, all logits and uniform numbers", "why_tests_cant": "the number of parts and of tuples is unbounded", "anchors": ["neorl/rl/baselines/shared/distributions.py:MultiCategoricalProbabilityDistribution", "neorl/rl/baselines/shared/distributions.py:BernoulliProbabilityDistribution"]}
{"id": "C94", "title": "DQN: actions, targets and loss", "statement": "Without exploration DQN takes for every observation the first action of largest value; with exploration it takes the random action exactly when the uniform number is below the exploration rate, which after any history of calls is the last non-negative one given, 0 at first; a rate given with a call may or may not be in force for that call itself. The error of a transition is Q(s,a) minus the reward plus, unless the episode ended, the discount times the largest target value of the next state, or with double Q the target value of the action best for the online network. The target of double Q is never above the plain one; targets contract by the discount, stay within r/(1-gamma), and at most one table has no error on a deterministic environment. The loss of an error is between 0 and half its square and has as slope the error kept within -1 and 1; the loss of a batch is 0 only without errors. Copying to the target network pairs variables by name in whatever order they are listed. An action outside the space is read as value 0 instead of raising.", "quantifier": "all networks, observations, rates, random numbers, transitions, discounts, weights and lists of variables", "why_tests_cant": "networks, histories of calls and transitions are unbounded; contraction and slope are statements about all real values", "anchors": ["neorl/rl/baselines/deepq/build_graph.py:build_act", "neorl/rl/baselines/deepq/build_graph.py:build_train", "neorl/rl/baselines/shared/tf_util.py:huber_loss"]}
{"id": "C95", "title": "PPO2 and A2C: losses, advantages, gradient clipping", "statement": "For every batch: the policy loss of PPO2 counts the ratio of likelihoods up to 1+c for a positive advantage and from 1-c for a negative one, is never below the unclipped loss, is the unclipped one while all ratios are within the range, and stops pushing a row once its ratio left the range on the side of its advantage; on the first pass it is minus the mean advantage, with divergence and clipped fraction 0, and pushes each row as A2C does. The value loss is at least half the mean squared error, equal to it within the range, and 0 exactly when every value is the return and within the range of the old value, so exact values can still cost; that of A2C is twice the unclipped one. The advantages have mean 0 and mean square below 1, keep the order, and are all 0 exactly when all differences are equal, in particular always for a minibatch of one row. Clipping gives gradients the smaller of their norm and the limit and keeps their direction.", "quantifier": "all batches, likelihoods, values, returns, ranges and gradients", "why_tests_cant": "batches and real values are unbounded; slopes are limits", "anchors": ["neorl/rl/baselines/ppo2/ppo2.py:PPO2.setup_model", "neorl/rl/baselines/ppo2/ppo2.py:PPO2._train_step", "neorl/rl/baselines/a2c/a2c.py:A2C.setup_model", "neorl/rl/baselines/a2c/a2c.py:A2C._train_step"]}
{"id": "C96", "title": "predict: shapes, batches, bounds, the greedy action", "statement": "predict on one observation with the shape of the observation space answers one action, and on a batch one action for each observation in their order; for a Box every entry of an action is kept within its bounds, otherwise the network's action is answered unchanged. If the network treats observations alone, a batch is answered as one at a time. Every other shape or kind of space is refused, and so is a single observation with a recurrent policy. DQN answers the first action of largest value, or on request draws each action on an interval of uniform numbers as long as its softmax probability; a dueling network keeps the best action and all differences, with the value of the state as average. The likelihood given beside a sampled action is that of the action; beside a deterministic one it is that of another, sampled action.", "quantifier": "all networks, spaces, observations, batches and random numbers", "why_tests_cant": "networks, shapes and batches are unbounded", "anchors": ["neorl/rl/baselines/shared/base_class.py:ActorCriticRLModel.predict", "neorl/rl/baselines/shared/base_class.py:BaseRLModel._is_vectorized_observation", "neorl/rl/baselines/deepq/dqn.py:DQN.predict", "neorl/rl/baselines/deepq/policies.py:FeedForwardPolicy", "neorl/rl/baselines/shared/policies.py:FeedForwardPolicy.step"]}
{"id": "C97", "title": "action_probability", "statement": "With actions, action_probability gives the probability of the action under the policy for discrete actions, tuples of them and bits, and with logp its logarithm, row by row on a batch. For a Box it gives a normal density around the policy's mean whose standard deviation is exp(d/2) where the policy's is d, and so never the density the policy samples from: at the mean it is always smaller. Unequal numbers of actions and observations and numbers beyond the actions are refused, except that a negative number counts from the end, and that in a Box one observation with several actions is answered for the first of them. Without actions one observation is answered by all probabilities for discrete actions and bits, but by the means alone in a Box and by the first entry alone for tuples.", "quantifier": "all parameters of policies, spaces, actions and batches", "why_tests_cant": "parameters and batches are unbounded, and the statement about the Box holds for every policy", "anchors": ["neorl/rl/baselines/shared/base_class.py:ActorCriticRLModel.action_probability", "neorl/rl/baselines/shared/policies.py:ActorCriticPolicy._setup_init"]}
{"id": "C98", "title": "Saved data come back", "statement": "Data stored by save come back from load: every value that is free of tuples and whose dictionaries have texts as keys, each once, and every value json refuses that pickle can restore. A value that json accepts comes back as itself exactly if it is of the first kind: a tuple comes back as a list, and of a number and its text as keys only one survives. Custom objects replace the stored values of their names, even values that cannot be restored, and add no names. A dictionary with the key :serialized:, or an object with such an attribute, comes back as whatever that text unpickles to, and a dictionary with a tuple as key makes the whole save raise.", "quantifier": "all nested data, all ways to write numbers and objects as text, all picklers and all custom objects", "why_tests_cant": "data are nested without bound and picklers are arbitrary", "anchors": ["neorl/rl/baselines/shared/save_util.py:data_to_json", "neorl/rl/baselines/shared/save_util.py:json_to_data", "neorl/rl/baselines/shared/save_util.py:is_json_serializable"]}
{"id": "C99", "title": "Loading parameters, files and hyperparameters", "statement": "Parameters come back from an archive in their order. load_parameters accepts a dictionary exactly if all its names are parameters and, for an exact match, it has all of them, and then sets these and no others; a list sets them in order, a longer one is accepted even for an exact match and a shorter one always raises. load with the path given to save reads the file that was written, unless the path has no extension and something else has exactly this path, which is then read instead. A loaded A2C, PPO2 or ACKTR model has the constructor arguments of the saved one; DQN loses buffer_size and exploration_initial_eps, ACER loses buffer_size, and all lose the number of timesteps trained. Keyword arguments of load override single values, misspelt ones silently; other policy_kwargs than the saved ones raise.", "quantifier": "all parameters, dictionaries, lists, paths, file systems and argument values", "why_tests_cant": "parameter sets, paths and values are unbounded", "anchors": ["neorl/rl/baselines/shared/base_class.py:BaseRLModel.load_parameters", "neorl/rl/baselines/shared/base_class.py:BaseRLModel._save_to_file_zip", "neorl/rl/baselines/shared/base_class.py:BaseRLModel._load_from_file", "neorl/rl/baselines/shared/base_class.py:ActorCriticRLModel.load", "neorl/rl/baselines/deepq/dqn.py:DQN.save", "neorl/rl/baselines/acer/acer_simple.py:ACER.save"]}
{"id": "C100", "title": "Changing the environment of a model", "statement": "A constructor refuses only several environments for an algorithm that needs one. set_env accepts an environment exactly if it has the spaces of the model and, for an algorithm on vectorized environments, is vectorized, with the same number if the policy is recurrent, and otherwise holds one environment; the model then has its number of environments. None is accepted only if there was no environment. A plain environment that the constructor accepted is refused by set_env. PPO2 with the number of environments it was set up with trains on every row it collects and makes at most the requested steps, less than a batch fewer; after set_env with more environments it trains only on the rows of the first ones and makes proportionally more steps than requested, and with fewer it raises.", "quantifier": "all environments, models, numbers of environments and steps, and all shuffles", "why_tests_cant": "numbers of environments and steps, rows and shuffles are unbounded", "anchors": ["neorl/rl/baselines/shared/base_class.py:BaseRLModel.set_env", "neorl/rl/baselines/shared/base_class.py:BaseRLModel.__init__", "neorl/rl/baselines/ppo2/ppo2.py:PPO2.learn", "neorl/rl/baselines/ppo2/ppo2.py:PPO2.setup_model"]}
{"id": "C101", "title": "Reading input files", "statement": "For every input file that is read: a card between its READ and END lines, whose lines are blank, comments or name = value with any white space, gives each of its names the last value, and no other name a value. Blank lines and comments change nothing anywhere before an env_data dictionary. A line that begins with anything but a letter, # or a brace is refused, and a line of a card without = raises; text after a second = is lost silently. The algorithms of a file are exactly those with both a READ and an END line, so a card never closed is skipped silently, and one whose END comes first is empty. A TUNE card needs a method and exactly one algorithm. The lines of an env_data dictionary become one item, up to the first line after which braces are even, each cut at its last # or, without one, by its last character; if the braces never become even the reader does not end. The directory of results is the path up to its first dot, so all paths that begin with a dot share it.", "quantifier": "all lists of lines, cards, names and values, and all classifications of characters", "why_tests_cant": "files have any number of lines of any length", "anchors": ["neorl/parsers/PARSER.py:InputParser", "neorl/parsers/PARSER.py:InputParser.parse_card", "neorl/parsers/PARSER.py:InputParser.blocks"]}
{"id": "C102", "title": "Checking the parameters of an input file", "statement": "A block of DQN, PPO, A2C or ACER is accepted if and only if all its names are known, every value is read as its kind, the required names are there, and the rules of modes hold: nothing about loading or testing in training, nothing about testing when continuing, and only names about testing in tests. A block of GA or SA is accepted if and only if names are known, values are read and none is missing; in GENERAL xsize_plot is xsize if not given. An integer is any number, rounded towards 0. Any nonempty mode is accepted alone: test without a model, train without a number of steps, and unknown words. A parameter has the user's value, else its default. A file is accepted if and only if all blocks are and the cores asked for are within maxcores, if given; a maxcores that is not positive means all processors. flag = False in a card switches its algorithm off while its cores count. check_freq is raised to the next multiple of the number of cores.", "quantifier": "all blocks, values, defaults, numbers of processors and ways to read numbers", "why_tests_cant": "blocks and values are unbounded", "anchors": ["neorl/parsers/PARSER.py:InputChecker.check_input", "neorl/parsers/PARSER.py:InputChecker.setup_input", "neorl/parsers/ParamList.py:InputParam"]}
{"id": "C103", "title": "The Atari wrappers", "statement": "For every game: reset of NoopResetEnv with n > 0 no-ops drawn resets the game and plays n no-ops, each followed by a reset if it ended the game, answers the last observation, and leaves a game that is not over. FireResetEnv plays actions 1 and 2 in the same way and answers the observation of action 2, also if that ended the game. A step of EpisodicLifeEnv ends the episode exactly if the game ends or a life is lost with one left; its reset resets the game exactly if the last step ended it or there was none, and plays a no-op otherwise; if no-ops do not end games with a life left, a caller who resets exactly at ends never makes it step a finished game, and if one does, the next call does. A step of MaxAndSkipEnv repeats the action up to skip times and not beyond the end, sums the rewards, and answers the larger of the last two observations if all calls were made, but old frames if the episode ended two or more calls early. Clipped rewards are signs, FrameStack shows the last n observations of the episode filled with its first, a lazy stack is its concatenation, and WarpFrame yields its declared shape only from 84 x 84 frames.", "quantifier": "all games as state machines, histories of calls, numbers of no-ops, skips and frames", "why_tests_cant": "games, histories and numbers are unbounded", "anchors": ["neorl/rl/baselines/shared/atari_wrappers.py:NoopResetEnv", "neorl/rl/baselines/shared/atari_wrappers.py:FireResetEnv", "neorl/rl/baselines/shared/atari_wrappers.py:EpisodicLifeEnv", "neorl/rl/baselines/shared/atari_wrappers.py:MaxAndSkipEnv", "neorl/rl/baselines/shared/atari_wrappers.py:FrameStack", "neorl/rl/baselines/shared/atari_wrappers.py:WarpFrame"]}
{"id": "C104", "title": "Replay buffer and episode statistics of ACER", "statement": "After any rollouts a sample of the replay buffer of ACER has for each environment its own row of one of the last size // n_steps rollouts, with all fields from the same rollout, and every combination can be drawn; a buffer smaller than a rollout raises. has_atleast(frames) holds exactly if frames < (stored rollouts + 1) * n_steps, so up to n_steps - 1 frames too early, and never for (places + 1) * n_steps frames. The episode statistics are of the last 40 of a log of all finished episodes whose part of each environment is its finished episodes in order, however its steps are cut into rollouts; with one environment they do not depend on the cut at all, with two they can. Observations of two or more dimensions are stored rounded down to bytes.", "quantifier": "all rollouts, numbers of environments, steps and places, and all draws", "why_tests_cant": "histories are unbounded", "anchors": ["neorl/rl/baselines/acer/buffer.py:Buffer", "neorl/rl/baselines/acer/acer_simple.py:EpisodeStats", "neorl/rl/baselines/acer/acer_simple.py:_Runner"]}
{"id": "C105", "title": "Conjugate gradients of TRPO", "statement": "For every symmetric positive definite operator A on vectors of n numbers, every b other than 0 and every positive tolerance, conjugate_gradient with at least n iterations allowed uses at most n and answers x with |b - Ax|^2 below the tolerance. With fewer iterations the answer has, among all combinations of b, Ab, ..., A^(k-1) b, where k is the number of iterations made, the least value of x'Ax/2 - b'x, and it misses the tolerance only if all iterations were used; allowing more iterations never makes it worse. For b = 0 the answer is not a number instead of 0, and so it is for a tolerance that is not positive with more than n iterations. Without iterations the answer is 0, with verbose an exception.", "quantifier": "all dimensions, symmetric positive definite operators, vectors, tolerances and numbers of iterations, in exact arithmetic", "why_tests_cant": "operators and dimensions are unbounded", "anchors": ["neorl/rl/baselines/shared/cg.py:conjugate_gradient"]}
{"id": "C106", "title": "Segments of experience", "statement": "For every environment, policy and horizon > 0: after n steps at which the callback goes on, the generator has given (n - 1) // horizon segments. Segment k has the observations, actions, value predictions, rewards, true rewards, ends and first-step marks of steps k * horizon to (k + 1) * horizon - 1 of an agent that acts without segments, the value after its last step (0 if that ended an episode), and the returns and lengths of exactly the episodes that end in it, in order, counted from their beginning in earlier segments if need be. If the callback stops at step t, a last, marked segment has the rows and episodes of the steps before t, but beside the observation of step t the reward of step t - horizon, or 0. The first action of every segment but the first was chosen before the segment before it was given, so by the policy before the update. Without a callback, or with a horizon of 0, the generator raises.", "quantifier": "all environments and policies as functions of their calls, horizons, callbacks and numbers of steps", "why_tests_cant": "histories and horizons are unbounded", "anchors": ["neorl/rl/baselines/shared/runners.py:traj_segment_generator"]}
{"id": "C107", "title": "Logged values", "statement": "For every history of the logger: the value of a key is the one logged last; if only means were logged for it since the last dump, their mean; a number logged between means weighs as much as all means before it (so with none before, it is forgotten); profiled times add up; operations on other keys do not matter. If no output raises and logging is not disabled, each dump writes exactly what was logged since the dump before; while logging is disabled a dump neither writes nor clears. The mean of a key whose value is None raises. If a text that is no number is logged, each dump with a TensorBoard output raises after the outputs before it have written, and nothing is cleared, so rows are repeated. After a ScopedConfigure block the logger is the one before it, and nested blocks leave no files open, but configure leaves the files of the logger it replaces open; reset closes those of the current logger and goes back to the default one.", "quantifier": "all histories of logkv, logkv_mean, profile, dumpkvs and set_level, all outputs, all nestings of scopes", "why_tests_cant": "histories are unbounded", "anchors": ["neorl/rl/baselines/shared/logger.py:Logger", "neorl/rl/baselines/shared/logger.py:ProfileKV", "neorl/rl/baselines/shared/logger.py:ScopedConfigure", "neorl/rl/baselines/shared/logger.py:configure"]}
{"id": "C108", "title": "Log files", "statement": "After any dumps, the first not empty, with keys and values without commas and newlines, the CSV file is a table whose first line has every key once and whose other lines have, dump by dump, each value in the column of its key and nothing elsewhere; nothing of earlier contents is left behind it, and columns keep their places when more is dumped. If the first dumps are empty, one row is lost and the others are too wide; commas are not quoted, so lists shift the cells; and a JSON output turns arrays into lists for the outputs after it, which changes the CSV file. The human readable table has lines of equal length and, in increasing order, one for each key cut to 23 characters; of long keys with the same first 20 characters only the greatest is shown. A JSON file gets one dictionary per dump with the same keys, in which arrays are numbers or lists; TensorBoard gets the numbers of the dumps with steps 1, 2, 3 and so on.", "quantifier": "all sequences of dictionaries, all ways to print values, all orders in which a set of new keys is listed", "why_tests_cant": "files, keys and values are unbounded", "anchors": ["neorl/rl/baselines/shared/logger.py:CSVOutputFormat", "neorl/rl/baselines/shared/logger.py:HumanOutputFormat", "neorl/rl/baselines/shared/logger.py:JSONOutputFormat"]}
{"id": "C109", "title": "Case files of a grid search from an input file", "statement": "For every input file with one TUNE card whose end is mentioned only once: the template is the file without the card, and every case file is the template in which each hole {name} of a tuned name has the value of the case and every other character is unchanged, provided braces are not nested and values have none (with nested braces the file depends on the order of the names; a later line that mentions END TUNE, even a comment, takes everything before it along; no card raises). gridtune writes one file for each combination of the listed values, numbered from 1, none twice, the last parameter changing fastest; a tuned name that is no hole raises. In whatever order the cases finish, tune.csv has the rows of the successful ones by number, with the mean of the last n_last_episodes rewards and the greatest, every other case is counted as failed, and the first row of the summary has the greatest mean.", "quantifier": "all input files, cards, values, orders in which cases finish, and rewards", "why_tests_cant": "files, values and schedules are unbounded", "anchors": ["neorl/tune/runners/gridtune.py:GRIDTUNE", "neorl/tune/runners/randtune.py:RANDTUNE", "neorl/scripts.py:main"]}
{"id": "C110", "title": "Random, evolutionary and Bayesian search from an input file", "statement": "For every input file as in the property before and all draws: randtune writes exactly ncases files, each with a value of its own range for every parameter, and raises if a parameter has no word for its distribution. estune and gatune number their cases 1, 2, ... in whole tens, keep every value in its range, take as parents five of the last ten with the greatest rewards, and have run 10 * max(1, ncases // 10) cases when they get to the summary; they never get there with a single tuned parameter, raise after a failed case beside a successful one from the eleventh case on, and raise when an integer with low = high is mutated. The printed mean is of the mean rewards only with three parameters (of the greatest rewards with two, of the fourth parameter with more) and the number of failed cases is always 0. bayestune without failures numbers its cases 1, 2, ... over all processes; their number is ncases rounded down to a multiple of the processes, but at least 11 for each; with one parameter it raises.", "quantifier": "all input files, distributions, draws, numbers of cases and processes, and outcomes of the cases", "why_tests_cant": "runs, draws and parameters are unbounded", "anchors": ["neorl/tune/runners/randtune.py:RANDTUNE", "neorl/tune/runners/estune.py:ESTUNE", "neorl/tune/runners/bayestune.py:BAYESTUNE"]}
{"id": "C111", "title": "Annealing from an input file", "statement": "For every SA card with bounds and all random numbers: the run is a Metropolis chain, each step starting where the one before it ended and ending at the point it proposed exactly if that is no loss or the uniform number is at most exp(gain / temperature). Every report shows the best reward of all points evaluated so far with the first point that had it, and the rates of accepted and improving proposals since the report before it; the steps reported are the multiples of check_freq and step number steps. For 0 < Tmin < Tmax the temperature falls and stays positive; fast cooling is geometric and at Tmin in step number steps. But one move more than steps is made, below Tmin under fast cooling, and the best point is in no report if that move finds it and check_freq does not divide steps + 1; Boltzmann cooling starts above Tmax. An initstate of two or more numbers and a card without bounds raise. A card with sound bounds and enough coordinates is carried out to the end.", "quantifier": "all cards, environments (which may answer differently at every call), random numbers and numbers of steps", "why_tests_cant": "chains, points and random numbers are unbounded", "anchors": ["neorl/evolu/runners/sa.py:SAAgent"]}
{"id": "C112", "title": "Moves of annealing from an input file", "statement": "For every completed run of an SA card with sound bounds, every point evaluated has xsize coordinates, each in its range (for kbs if the rows of the dataset have). singleswap proposes points that differ in exactly one coordinate, dualswap in exactly two; fullswap with a range for each coordinate, and kbs when it uses no row, change only coordinates whose coin is below indpb. kbs uses every row of the dataset once before any row again. fullswap with one range for all coordinates draws all of them again whatever indpb; quadswap with a range for each coordinate never moves, and with one range it raises; singleswap and dualswap raise with fewer than two coordinates, quadswap with fewer than four; with ranges of one number singleswap and dualswap never return.", "quantifier": "all cards, datasets, random numbers and numbers of steps", "why_tests_cant": "points, datasets and random numbers are unbounded", "anchors": ["neorl/evolu/runners/sa.py:SAAgent.singleswap", "neorl/evolu/runners/sa.py:SAAgent.dualswap", "neorl/evolu/runners/sa.py:SAAgent.quadswap", "neorl/evolu/runners/sa.py:SAAgent.fullswap", "neorl/evolu/runners/sa.py:SAAgent.kbs"]}
{"id": "C113", "title": "The genetic algorithm from an input file", "statement": "For every completed run of a GA card with sound bounds, 0 < smin < smax <= 1 and a dataset (if any) of points of the space: every individual evaluated is a point of the space; lambda individuals are evaluated at first and in each of the ngen generations, and each carries the answer of its own evaluation; the strategies of whole numbers stay between smin and smax (those of other numbers need not); below cxpb a child is two different parents with one stretch exchanged, from cxpb+mutpb on a copy of a parent; the next parents are the pop best offspring, best first, with the last int(kbs_frac*lambda) places given to different rows of the dataset; a report appears every check_freq generations and after the last, and shows the greatest reward of that generation's offspring, which may be less than an earlier one. With two numbers or more, two survivors or more and enough rows no run raises; a share of the dataset greater than the survivors, lambda rows or fewer, and a crossover with one parent or with individuals of one number always raise.", "quantifier": "all cards, environments (which may answer differently at every call), random numbers and numbers of generations", "why_tests_cant": "individuals, generations and random numbers are unbounded", "anchors": ["neorl/evolu/runners/ga.py:GAAgent", "neorl/evolu/crossover.py:select", "neorl/evolu/crossover.py:cxES2point", "neorl/evolu/crossover.py:mutES"]}
{"id": "C114", "title": "The log directory of a run from an input file", "statement": "A run whose log directory exists moves it with everything in it to the name old_..., where it replaces what was there, and starts a directory that holds the header files of the algorithms only; nothing else changes. If there is no log directory one is made and the old one stays. Names whose number is not the declared one raise before anything is moved. For an input file of the working directory the run always gets its directory unless a file has that name; for an input file in another directory the second run raises if the directory of the old name does not exist, and leaves everything as it was. Only one earlier log is kept. The files have two columns more than there are numbers, but names of which the first is x (y) are not counted. Two input files have the same log directory exactly if they agree before their first dots, so all inputs given as ./name share one.", "quantifier": "all file systems, input file names, lists of algorithms and names", "why_tests_cant": "file systems, names and histories of runs are unbounded", "anchors": ["neorl/utils/initfiles.py:initfiles", "neorl/parsers/PARSER.py:InputParser.__init__"]}
{"id": "C115", "title": "Checking environments for nan", "statement": "Without exceptions the wrapper VecCheckNan changes nothing for any history of calls: the environment ends in the same state and the same answers are given. By default exactly the first call that passes or returns a nan or (if checked) an infinity warns, with warn_once=False every such call and no other; with raise_exception exactly such calls raise, actions before the environment gets them and observations after it has moved. A message names exactly the arrays concerned and the observation or action last seen; after a caught exception it may name an older one. check_env resets once, takes one step, and then one for each further action with a reset after every end, so it steps an episode that is over exactly if the first step ended it; it warns at most once, and a nan in the last observation of an episode is not noticed. The recommendation on a Box of actions is absent exactly if its bounds have the same size, at most 1, which does not make it symmetric.", "quantifier": "all environments, histories of calls, arrays and configurations", "why_tests_cant": "histories and environments are unbounded", "anchors": ["neorl/rl/baselines/shared/vec_env/vec_check_nan.py:VecCheckNan", "neorl/rl/baselines/shared/env_checker.py:check_env"]}
{"id": "C116", "title": "The bit flipping and identity environments", "statement": "For every number of bits: an action flips exactly the bit it names (a negative one counted from the end) and every number outside raises; in the continuous variant exactly the bits with a positive entry flip. A step gives 0 if all bits are ones and -1 otherwise, ends the episode on success and after max_steps, and compute_reward is 0 exactly for equal goals in every form of observation. No episode has more than max_steps steps, none succeeds with single flips in fewer steps than there are zeros, and with two bits or more every start can be solved in as many (in two from the goal); with one bit the goal itself cannot be. Different bits are different numbers, but the declared space of numbers leaves out the goal. In the identity environment repeating the observation earns a reward in each of the ep_length steps, no policy earns more, and with a Box the tolerance includes its bounds.", "quantifier": "all numbers of bits, starts, sequences of actions, policies and draws", "why_tests_cant": "bits, episodes and policies are unbounded", "anchors": ["neorl/rl/baselines/shared/bit_flipping_env.py:BitFlippingEnv", "neorl/rl/baselines/shared/identity_env.py:IdentityEnv"]}
{"id": "C117", "title": "Training runs from an input file", "statement": "For every card, every content of the log file at every check and every failure of a check: a training run of PPO, A2C or ACER ends with exit status 1, also when all went well, and what the runner itself saves after the training (_model_last.pkl of A2C and ACER) is never written. When the file can be read at the end, _lastmodel.pkl of A2C and PPO has been trained on every whole rollout within time_steps, except that the last one is left out if time_steps is a multiple of the rollout (so a run of one rollout saves an untrained model); ACER stops at time_steps without training on the rollout it is in if the environments divide time_steps, and otherwise trains on one more, past time_steps. _bestmodel.pkl is the model of the check with the greatest mean of the last avg_episodes rewards, the first of equal ones, whatever fails in between, and is absent exactly if no check could read a reward. check_freq is raised to the next multiple of the environments and every multiple of it within the whole rollouts is checked; with check_freq = 0 a run that reaches time_steps saves nothing. The DQN runner always raises before training. The other algorithms get every value they ask for, but cliprange_vf, momentum, epsilon, alpha (of ACER), rprop_alpha, rprop_epsilon, correction_term, trust_region and delta are accepted and change nothing.", "quantifier": "all cards, numbers of cores and steps, contents of log files and failures", "why_tests_cant": "runs, files and failures are unbounded", "anchors": ["neorl/utils/neorlcalls.py:SavePlotCallback", "neorl/rl/runners/a2c.py:A2CAgent", "neorl/rl/runners/ppo2.py:PPOAgent", "neorl/rl/runners/acer.py:ACERAgent", "neorl/rl/runners/dqn.py:DQNAgent", "neorl/utils/multiproc.py:MultiProc"]}
{"id": "C118", "title": "The command line", "statement": "For every input file and every failure of a step: without a TUNE card, once all cards are accepted and the log files are made, neorl_mode run starts exactly the cards that are not switched off with flag = False, each once and in the order DQN, PPO, A2C, ACER, GA, SA, and any other mode starts none; cards that are not accepted raise before anything is written. But a mode that does not exist raises only after the earlier log has been moved, the mode test moves it too, and a card that is switched off has its log files made. Without an input file nothing is read or written, and the option -c has no effect at all. A TUNE card is accepted exactly if its names are known or have a brace, its values can be read, a method is given and the external files exist; every name then has its value or default, and the card cannot be switched off. The cases are generated by the named method and then run, or only generated in the mode test; a method that does not exist raises before, a mode that does not exist after the cases are generated, and the other cards are not checked.", "quantifier": "all input files, cards, options and failures of steps", "why_tests_cant": "files, cards and failures are unbounded", "anchors": ["neorl/scripts.py:main", "neorl/parsers/TuneChecker.py:TuneChecker", "neorl/utils/multiproc.py:MultiProc.run_all"]}
{"id": "C119", "title": "Attributes and statistics of wrapped environments", "statement": "For every tower of wrappers around a vectorised environment and every attribute name: reading it through the outermost wrapper gives the value that wrapper has itself, otherwise the value of the only object inside that has it; it is refused as missing exactly if no object has it and as ambiguous exactly if the outermost does not have it and two others do, and a lookup always ends. So hasattr may say no to an attribute that exists. Setting an attribute changes the outermost object only: training = False set through a wrapper leaves VecNormalize training and makes the name ambiguous for further wrappers. unwrap_vec_normalize gives the outermost VecNormalize. Syncing two environments with the same kinds of wrappers gives every VecNormalize the statistics of its counterpart and changes nothing else; it raises exactly if the second has fewer wrappers, syncs nothing and says nothing for wrappers in another order, and nothing from an environment as DQN holds it. A saved VecNormalize can be loaded exactly around environments of its observation shape and then has that environment, zero returns and everything else as saved; after a refused shape it accepts no other environment, and before it has one it cannot be pickled and a lookup of an unknown name recurses without end.", "quantifier": "all towers of wrappers, attribute names and values, environments and saved statistics", "why_tests_cant": "towers, names and dictionaries are unbounded", "anchors": ["neorl/rl/baselines/shared/vec_env/base_vec_env.py:VecEnvWrapper.__getattr__", "neorl/rl/baselines/shared/vec_env/__init__.py:sync_envs_normalization", "neorl/rl/baselines/shared/vec_env/__init__.py:unwrap_vec_normalize", "neorl/rl/baselines/shared/vec_env/vec_normalize.py:VecNormalize"]}
{"id": "C120", "title": "The observations of several environments", "statement": "For every space that is a box, a dictionary or a tuple of boxes and all observations that fit it: whether the environments run in one process or in several, the same combined observation is made. It has exactly the keys of the space in its order, further keys of the environments are dropped, and row i of every array is what environment i gave; nothing of earlier observations remains in it. In several processes arrays of different shapes are never accepted; in one an array for a box is accepted exactly if it fills the shape of the box by the broadcasting rules of numpy. But the two differ on observations that do not fit: one process converts numbers to the dtype of the space and repeats the numbers of a narrower array to fill its row without complaint, several processes pass such arrays on as they are, or raise if the shapes are different.", "quantifier": "all spaces, observations, numbers of environments and earlier rounds", "why_tests_cant": "spaces, arrays and histories are unbounded", "anchors": ["neorl/rl/baselines/shared/vec_env/dummy_vec_env.py:DummyVecEnv", "neorl/rl/baselines/shared/vec_env/subproc_vec_env.py:_flatten_obs", "neorl/rl/baselines/shared/vec_env/util.py:obs_space_info", "neorl/rl/baselines/shared/vec_env/util.py:dict_to_obs"]}
{"id": "C121", "title": "One image of all environments", "statement": "For every list of images one image is made exactly if there is an image and all have the same shape. Image number k is at row k / W and column k mod W of a grid of H rows and W columns, every pixel of every image is shown unchanged, and places without an image are blank. The grid has room for all, is square or has one row more than columns, and no row is empty; a square number of images leaves no blank.", "quantifier": "all lists of images of any number and size", "why_tests_cant": "numbers and sizes of images are unbounded", "anchors": ["neorl/rl/baselines/shared/tile_images.py:tile_images"]}
{"id": "C122", "title": "Recording videos", "statement": "For every history of resets and steps, every trigger and every video_length: the environments go through the same states as without the recorder; after close the file named after step k holds the frames of the latest video that began after k steps, one frame after each call from its first on. A video begins with every reset and with every step at which the trigger says so unless one is being recorded, goes on with steps only, and ends with the step in its name unless a reset or the end of the run cuts it off. So a reset begins a video although the trigger says no, a trigger for every L-th step with videos of length L loses every second one, a video that is cut off keeps the name of a whole one, video_length 0 gives two frames, and a reset straight after a reset replaces the video of the first, which then has one frame; no longer video is ever replaced.", "quantifier": "all histories of calls, environments, triggers and lengths", "why_tests_cant": "histories are unbounded and the trigger is an arbitrary function", "anchors": ["neorl/rl/baselines/shared/vec_env/vec_video_recorder.py:VecVideoRecorder"]}
{"id": "C123", "title": "The optimizer of ACKTR", "statement": "For dense layers with a bias and the options ACKTR sets: after any batches the statistics of activations and derivatives are symmetric and nonnegative; they are the sum over the first runs divided by the number of runs to accumulate, later runs enter a decayed average. With orthogonal eigenvectors the update U of a layer solves A U B + damping U = G exactly, where A and B are the statistics without eigenvalues of at most 1e-6; its product with the gradient is positive unless the gradient is zero. All updates are scaled by one factor in (0, 1] that keeps the quadratic form within clip_kl and is 1 just when it was within. For every order in which TensorFlow reads the counters, exactly the first cold_iter + 1 runs make the update of the cold start, runs before number cold_iter make no other, and runs after number cold_iter + 1 make only the preconditioned one. Run number cold_iter + 1 makes both updates, and whether run number cold_iter does and whether run number cold_iter + 1 preconditions depends on that order.", "quantifier": "all layer sizes, batches, numbers of runs, decays, damping and orders of reads", "why_tests_cant": "sizes and histories are unbounded, and the order of reads is not under the control of a test", "anchors": ["neorl/rl/baselines/acktr/kfac.py:KfacOptimizer", "neorl/rl/baselines/acktr/kfac_utils.py:detect_min_val", "neorl/rl/baselines/acktr/kfac_utils.py:gmatmul"]}
{"id": "C124", "title": "The surrogate of the microreactor", "statement": "For every table with increasing centers: integrate and integrate_sq are the integrals of the piecewise linear function of the table and of its square between any bounds the table covers, if the lower bound is not a knot or a knot lies in between (otherwise the wrong line may be taken). adj_coords gives the angle in (-pi, pi] that differs by whole turns. For tables that reach around the drums and angles at which no end of an integral is a knot, eval is the sum over drums of zeta times the change of the integral of the squared flux over the coating, whatever the sign and size of the angle, whole turns change nothing, and evald(pert, k) is the derivative of that sum with respect to the angle of drum k; for angles in (-pi, pi] evalg is its gradient. With enough whole turns evalg raises although eval does not notice, and eval with 8 nominal angles always raises.", "quantifier": "all tables, bounds, coefficients and angles of the drums", "why_tests_cant": "integrals and derivatives are statements about all points of a continuum", "anchors": ["neorl/benchmarks/reactivity_model.py:integrate", "neorl/benchmarks/reactivity_model.py:integrate_sq", "neorl/benchmarks/reactivity_model.py:adj_coords", "neorl/benchmarks/reactivity_model.py:int_bounds", "neorl/benchmarks/reactivity_model.py:ReactivityModel"]}
{"id": "C125", "title": "Statistics over several processes", "statement": "For every split of rows over any number of processes: mpi_mean and mpi_moments give each process the mean, the population standard deviation and the number of all rows, column by column; the split and the order do not matter, and without rows there are no numbers. Arrays of unsigned integers give the same if the sums and the number fit in their type, otherwise they need not (the mean of the bytes 200 and 100 is 22, and mpi_moments of 256 rows of bytes gives nan or raises). The result has the shape without the axis for every axis but -1, for which it raises unless the rest has one element. RunningMeanStd gives, after any calls of update, the mean and deviation of all rows with epsilon added to the number and to the sum of squares and variances below 0.01 replaced by it, so with epsilon 0 the exact mean and the larger of the deviation and 0.1; how rows are spread over calls and processes does not matter, and epsilon draws the mean to zero by the fraction epsilon / (n + epsilon).", "quantifier": "all arrays, numbers of processes, splits, orders, calls, axes and integer types", "why_tests_cant": "splits over processes and histories of calls are unbounded", "anchors": ["neorl/rl/baselines/shared/mpi_moments.py:mpi_mean", "neorl/rl/baselines/shared/mpi_moments.py:mpi_moments", "neorl/rl/baselines/shared/mpi_running_mean_std.py:RunningMeanStd"]}
{"id": "C126", "title": "The optimizer over several processes", "statement": "For any number of processes and any gradients: processes that are constructed with the same weights and use the same learning rates never raise and keep equal weights. Each update moves each weight by the step of Adam (bias-corrected moments, with epsilon divided by the root of the correction) for the mean over the processes of the gradients, or the sum without scale_grad_by_procs; which process has which gradient does not matter. For constant gradients every step is downhill and shorter than the learning rate. update raises exactly if weights differ and the number of updates so far is a multiple of 100, so processes with different learning rates drift apart for 100 updates before one raises. Moments are equal on all processes all the same, and sync at any time gives all processes the weights of the first and makes them stay equal.", "quantifier": "all numbers of processes and weights, gradients, learning rates, parameters and histories", "why_tests_cant": "histories and numbers of processes are unbounded", "anchors": ["neorl/rl/baselines/shared/mpi_adam.py:MpiAdam"]}
{"id": "C127", "title": "Noise for actions and parameters", "statement": "For every history of calls and resets: OrnsteinUhlenbeckActionNoise returns the process of Ornstein and Uhlenbeck for the draws since the last reset, mean + r^k (start - mean) + sigma sqrt(dt) times the sum of r^i times the draw i calls ago, with r = 1 - theta dt, from initial_noise or zero, provided the caller changes neither the array returned last nor initial_noise in place; either change is taken up (the returned array is the state). With draws bounded by B and |r| < 1 it stays within r^k |start - mean| + sigma sqrt(dt) B / (1 - |r|) of the mean; theta dt > 2 is accepted and leaves all bounds. A float as the mean, as documented, raises at every call. AdaptiveParamNoiseSpec: the stddev is the initial one divided by the coefficient once for each distance above the desired one and multiplied once for each other; if the distance exceeds the desired one just when the stddev exceeds t, it gets within a factor of the coefficient of t and stays there; a coefficient below 1 is accepted and makes it grow for ever.", "quantifier": "all parameters, draws, distances and histories of calls, resets and changes in place", "why_tests_cant": "histories are unbounded and draws are arbitrary", "anchors": ["neorl/rl/baselines/shared/noise.py:OrnsteinUhlenbeckActionNoise", "neorl/rl/baselines/shared/noise.py:AdaptiveParamNoiseSpec"]}
{"id": "C128", "title": "Environments made by the command line helpers", "statement": "For every number n > 0, seed, start_index, directory and content of the disk: make_vec_env makes n environments; number i is made from the id or from the class with env_kwargs, it and its action space are seeded with seed + start_index + i (not at all without a seed), it is monitored in the file of that rank and then wrapped. Different ranks have different seeds and files; the files of these ranks are new and empty, the directory exists, and no other file changes, in whatever order processes make the environments. So a second call with the same directory and ranks empties the logs of the first. env_kwargs change nothing when an id is given, except for a warning for each environment; no environments, an empty directory name and a directory that is a file raise. make_atari_env uses processes exactly if asked to and the number is not 1, and does not seed action spaces. make_mujoco_env gives environments in different processes of MPI the same seed and the same log file, raises if mpi4py is installed but mpi4py.MPI was not imported, and raises if the logger has no directory.", "quantifier": "all numbers, seeds, ranks, directories, contents of the disk and orders of processes", "why_tests_cant": "contents of the disk, numbers of environments and orders of processes are unbounded", "anchors": ["neorl/rl/baselines/shared/cmd_util.py:make_vec_env", "neorl/rl/baselines/shared/cmd_util.py:make_atari_env", "neorl/rl/baselines/shared/cmd_util.py:make_mujoco_env", "neorl/rl/baselines/shared/misc_util.py:set_global_seeds", "neorl/rl/baselines/shared/misc_util.py:mpi_rank_or_zero"]}
{"id": "C129", "title": "Recurrent policies", "statement": "For every LstmPolicy, with or without layer normalisation, all weights and any number of environments and steps: the hidden row of an environment in a step is that of the textbook LSTM cell run over the observations of that environment alone, from its row of the state, which an episode flag empties; the new state is what the cell has after the last step. So what the policy computes in an episode depends on the observations of that episode only, wherever it starts in the rollout; minibatches of environments give the rows of the whole batch; and the pass over a rollout in training gives the rows, and the last state, that acting step by step gave. Hidden numbers stay between -1 and 1 and the cell state grows by at most 1 per step. Layer normalisation gives sum 0 and sum of squares below the number of units; equal numbers become the bias. A call with another number of observations, flags or states than steps times environments raises. Without the flag, which predict leaves out by default, a new episode depends on the one before.", "quantifier": "all networks, numbers of environments and steps, observations, episode flags and states", "why_tests_cant": "rollouts, episodes and networks are unbounded and weights are arbitrary reals", "anchors": ["neorl/rl/baselines/shared/tf_layers.py:lstm", "neorl/rl/baselines/shared/tf_layers.py:_ln", "neorl/rl/baselines/shared/tf_util.py:batch_to_seq", "neorl/rl/baselines/shared/tf_util.py:seq_to_batch", "neorl/rl/baselines/shared/policies.py:LstmPolicy"]}
{"id": "C130", "title": "Encoding of observations", "statement": "For every batch of observations: each row that enters a network is the encoding of that observation, in order; a batch is taken exactly if the space is Discrete, Box, MultiBinary or a MultiDiscrete with components, the batch has the given size and every row the shape of the space. An observation of a Discrete space becomes one at its own place and zeros elsewhere, one of MultiDiscrete the blocks of its components one after another, one of MultiBinary, and one of Box without scaling (always with MLP features), stays as it is. With scaling and finite bounds a component becomes (x - low) / (high - low): 0 and 1 at the bounds, in the same order, within [0,1] exactly if x is within the bounds; one infinite bound, or bounds that all coincide, leave all components as they are. Different observations of a space with proper bounds have different encodings. Values outside of a Discrete space become all zeros without an error; if bounds of only some components coincide these become nan; and integer bounds wider than a signed type can hold turn values negative (127 in int8 from -128 to 127 becomes -255).", "quantifier": "all spaces, bounds, integer types, batches and observations", "why_tests_cant": "spaces, bounds and batches are unbounded", "anchors": ["neorl/rl/baselines/shared/input.py:observation_input", "neorl/rl/baselines/shared/policies.py:BasePolicy", "neorl/rl/baselines/shared/policies.py:FeedForwardPolicy"]}
{"id": "C131", "title": "Layers of policy networks", "statement": "For every net_arch: mlp_extractor builds networks exactly if net_arch is sizes of shared layers, possibly followed by a dict with lists of sizes under 'pi' and 'vf' (none if a key is missing), and raises AssertionError otherwise; the networks are the shared layers in order with those of pi, or of vf, on top, one network if all layers are shared, and no two layers have the same variable scope. A FeedForwardPolicy with MLP features uses net_arch if given, otherwise separate networks with the given layers, 64 and 64 by default; unknown keywords raise. An LstmPolicy with net_arch is made exactly if 'lstm' occurs once among the shared layers, where the LSTM then is; twice or not at all raises ValueError and in a branch NotImplementedError; without net_arch it has one network of the layers and the LSTM. Entries after the dict are dropped unseen, None among the sizes of a branch is skipped, and with CNN features net_arch, layers and unknown keywords have no effect on the layers of a FeedForwardPolicy, while an LstmPolicy raises if net_arch is given.", "quantifier": "all net_arch, layers and feature extractions", "why_tests_cant": "net_arch is an arbitrary nested list", "anchors": ["neorl/rl/baselines/shared/policies.py:mlp_extractor", "neorl/rl/baselines/shared/policies.py:FeedForwardPolicy", "neorl/rl/baselines/shared/policies.py:LstmPolicy"]}
{"id": "C132", "title": "The registry of policies", "statement": "For every history of register_policy, calls that raised included: get_policy_from_name gives, for a base class and a name, the policy that was there before or else the first one registered with that name whose first fitting direct subclass of BasePolicy is that base, and raises if there is none. No registration changes what a name stands for. register_policy raises exactly if the policy belongs to no direct subclass of BasePolicy or the name is taken under that class, even by the same policy; the same name under different classes stands for different policies.", "quantifier": "all histories of registrations, class hierarchies and names", "why_tests_cant": "histories are unbounded", "anchors": ["neorl/rl/baselines/shared/policies.py:get_policy_from_name", "neorl/rl/baselines/shared/policies.py:register_policy"]}
{"id": "C133", "title": "Convolutional features of images", "statement": "For every image, filter and stride: a convolution without padding puts its filters at every stride-th row and column where they fit and gives there, for each filter, the sum of pixels times weights and the bias of that filter, raises if the filters fit nowhere or the filter size is a list of a length other than two; with padding the output has the size of the image divided by the stride, rounded up, and with stride 1 the filters are centred. The network for images (nature_cnn) accepts exactly images of at least 36 by 36 pixels, its last layer sees 64 numbers for each place, one place per 8 pixels beyond the first 36 in each direction, and its 512 features are not negative; what is found at a place depends only on the 36 by 36 pixels there, and an image moved by multiples of 8 pixels gives the same findings moved by as many places. Rows and columns beyond the last place have no effect on the features at all. With data_format NCHW and one_dim_bias the bias is added along the width and not per filter: the layer raises unless the width is the number of filters or one of both is 1.", "quantifier": "all images, filters, strides, weights and formats", "why_tests_cant": "sizes are unbounded and weights arbitrary", "anchors": ["neorl/rl/baselines/shared/tf_layers.py:conv", "neorl/rl/baselines/shared/tf_layers.py:conv_to_fc", "neorl/rl/baselines/shared/policies.py:nature_cnn"]}
{"id": "C134", "title": "Initial weights of layers", "statement": "For every noise, scale and shape: ortho_init makes weights exactly for shapes of two or four dimensions, the first three of four taken together with a row for every entry, and raises for others; provided the decomposition has orthonormal columns and rows, with no more outputs than inputs the columns of the weights are orthogonal and of length scale, with no fewer the rows are. Hence before training a layer never puts the outputs of two inputs further apart than scale times their distance, and exactly that far if it has at least as many outputs as inputs.", "quantifier": "all noises, scales, shapes, inputs and batches", "why_tests_cant": "sizes are unbounded and weights random", "anchors": ["neorl/rl/baselines/shared/tf_layers.py:ortho_init", "neorl/rl/baselines/shared/tf_layers.py:linear"]}
{"id": "C135", "title": "Text for consoles", "statement": "For every item, row, width and format of numbers: fmt_item gives the text of the item with blanks in front up to the width and never cuts it, writes floats with five decimals if they are zero or of a size between 0.0001 and 10000 and in scientific notation otherwise, and raises for arrays with dimensions; fmt_row puts item i at place i times (width + 3) if all items fit and never gives fewer characters, so that rows align, and a header has a line of as many dashes below it. Behind an item that does not fit the columns shift. colorize puts the text between the escape sequence of the colour and that of the reset, raises for unknown colours, and different colours, settings or texts give different results.", "quantifier": "all items, rows, widths, colours and texts", "why_tests_cant": "rows and texts are unbounded", "anchors": ["neorl/rl/baselines/shared/console_util.py:fmt_row", "neorl/rl/baselines/shared/console_util.py:fmt_item", "neorl/rl/baselines/shared/console_util.py:colorize"]}
{"id": "C136", "title": "The benchmarks alpinen1, alpinen2 and ridge", "statement": "For every list of coordinates: alpinen1 is never negative, zero exactly if every coordinate is zero or has the sine -0.1 (so the origin is a minimum but in every dimension not the only one), and does not depend on the order of the coordinates; alpinen2 is the product of sqrt(x) sin(x) over the coordinates, raises if one is negative, its square is at most the product of the coordinates, and without bounds it has neither a minimum nor a maximum; ridge is the first coordinate plus the norm of the others, at least the first coordinate with equality exactly if all others are zero, scales with the coordinates, raises without coordinates and has no minimum without bounds.", "quantifier": "all lists of real numbers", "why_tests_cant": "there are infinitely many points and dimensions", "anchors": ["neorl/benchmarks/classic.py:alpinen1", "neorl/benchmarks/classic.py:alpinen2", "neorl/benchmarks/classic.py:ridge"]}
{"id": "C137", "title": "The fractal benchmark of CEC 2008 and the random numbers of optimizers", "statement": "For every point and state of numpy's generator: the value of F7.fit and the state of the generator after it depend on the point only, because every evaluation seeds the generator that all optimizers share. So what an optimizer draws from it after an evaluation depends only on the point it evaluated last and not on its own seed, and with one coordinate all draws but the first are the same. The value is the last coordinate plus 4 (y (y-1))^2 of the first plus at most 8 dips for each pair of neighbours, at most 5/2 for each; for points without coordinates fit raises and for more than 1000 it gives 1. Without bounds there is no minimum: with all others 1 the value is the last coordinate.", "quantifier": "all points, generators, states of them, optimizers and numbers of steps", "why_tests_cant": "histories of draws and dimensions are unbounded", "anchors": ["neorl/benchmarks/cec08.py:F7"]}
{"id": "C138", "title": "Power shares of the quadrants of a microreactor", "statement": "For every network and angles: QPowerModel.eval gives, unless the outputs of the network add up to zero, finite shares that add up to 1, each the output divided by the sum of the outputs; they lie between 0 and 1 if no output is negative; outputs that differ by a common factor give the same shares; the angles given are not changed. With four such outputs the sum of the distances from 1/4 that examples minimise is between 0 and 3/2, and 0 exactly if all outputs are equal. If the outputs add up to zero, nothing raises and no share is a number.", "quantifier": "all networks (functions from angles to outputs) and angles", "why_tests_cant": "there are infinitely many angles and weights", "anchors": ["neorl/benchmarks/qpower_model.py:QPowerModel.eval", "examples/ex11_microreactor.py:hatfp"]}
{"id": "C139", "title": "Seeds and reproducible runs", "statement": "For every program that builds and runs optimizers and draws random numbers itself, and every algorithm: with a seed, set_neorl_seed puts both global generators into states that depend on the seed only, and with None it does nothing. With a seed the result of evolute of DE, MFO, JAYA, HHO, NHHO and NGA depends on the seed, the arguments and the memory of the object only, whatever else was built, run or drawn before or since its construction, because evolute seeds again. Of ES, PSO, GWO, WOA, SSA, BAT, CS, TS, ACO, XNES, HCLPSO, EPSO, NSGA-II and NSGA-III this is so only for a run directly after the construction: if another optimizer is built in between they run with its seed instead of their own, if one of the first group runs in between they go on from what it left, and a second run of the same object draws other numbers than the first. Without a seed a run goes on with the generators as they are.", "quantifier": "all programs (histories of constructions, runs and draws), seeds, generators and algorithms", "why_tests_cant": "histories are unbounded", "anchors": ["neorl/utils/seeding.py:set_neorl_seed", "neorl/evolu/de.py:DE", "neorl/evolu/mfo.py:MFO", "neorl/evolu/jaya.py:JAYA", "neorl/evolu/hho.py:HHO", "neorl/evolu/es.py:ES", "neorl/evolu/pso.py:PSO", "neorl/evolu/gwo.py:GWO", "neorl/hybrid/nga.py:NGA", "neorl/hybrid/nhho.py:NHHO", "neorl/multi/nsgaII.py:NSGAII"]}
