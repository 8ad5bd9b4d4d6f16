{"id": "C01", "title": "RandomAccessQueue is a bounded FIFO sequence", "statement": "A RandomAccessQueue(maxlen=m) answers len, indexing (positive and negative), index assignment, iteration, append, extend and popleft exactly like a plain Python sequence that, whenever it grows past m, drops its oldest items; out-of-range indices and popping an empty queue raise IndexError and leave the contents unchanged.", "quantifier": "every initial content, every maxlen (or None), every finite sequence of operations with every index", "why_tests_cant": "the two-stack representation reaches states that depend on the whole history of interleaved pushes and pops; tests only follow a few histories", "anchors": ["chainerrl/misc/collections.py:RandomAccessQueue"]}
{"id": "C02", "title": "sample_n_k draws k distinct valid indices", "statement": "sample_n_k(n, k) returns exactly k pairwise different integers of range(n) whenever 0 <= k <= n, and raises ValueError otherwise, whatever values the random generator yields.", "quantifier": "every n and k and every stream of outputs of the random generator on which the rejection loop ends", "why_tests_cant": "the rejection loop with refill is only exercised by rare generator outputs; a test sees one stream per seed", "anchors": ["chainerrl/misc/random.py:sample_n_k"]}
{"id": "C03", "title": "Priority queues keep the exact total and minimum", "statement": "After any sequence of append, popleft, index assignment and sampling calls, the sum reported by the sum tree equals the sum of the priorities currently stored (in order, as a FIFO list), the minimum reported by the min tree equals their minimum, and popleft returns the oldest stored priority.", "quantifier": "every finite history of operations, every priority values (exact arithmetic), queues of any length", "why_tests_cant": "the tree is rebuilt, grown and shifted as a function of the full history; boundary cases (power-of-two lengths combined with offsets) are unboundedly many", "anchors": ["chainerrl/misc/prioritized.py:TreeQueue", "chainerrl/misc/prioritized.py:SumTreeQueue", "chainerrl/misc/prioritized.py:MinTreeQueue"]}
{"id": "C04", "title": "Prioritized picks are exactly proportional", "statement": "For a draw u in [0, total), the index picked by the sum tree is the unique i with p_0+...+p_{i-1} <= u < p_0+...+p_i; hence each stored item is hit by a set of draws of length exactly its priority, and items of priority zero and positions outside the queue are never picked.", "quantifier": "every reachable tree and every draw u in [0, total) (exact arithmetic)", "why_tests_cant": "proportionality is a statement about all real draws; statistical tests only bound it loosely", "anchors": ["chainerrl/misc/prioritized.py:_find", "chainerrl/misc/prioritized.py:SumTreeQueue.prioritized_sample"]}
{"id": "C05", "title": "Sampling n items from the sum tree gives n distinct items and restores or zeroes their priorities", "statement": "prioritized_sample(n, remove) on a queue with at least n positive priorities returns n pairwise distinct positions of positive priority together with the priorities they had; with remove=False the stored priorities are unchanged afterwards, with remove=True exactly the returned positions have priority zero. uniform_sample behaves the same for arbitrary priorities.", "quantifier": "every queue content, n, and sequence of draws (exact arithmetic)", "why_tests_cant": "needs every combination of draws; with one seed collisions of picks practically never occur", "anchors": ["chainerrl/misc/prioritized.py:SumTreeQueue.prioritized_sample", "chainerrl/misc/prioritized.py:SumTreeQueue.uniform_sample"]}
{"id": "C06", "title": "PrioritizedBuffer keeps data and priorities in lockstep within its capacity", "statement": "At every moment a PrioritizedBuffer holds at most `capacity` items (the most recently appended ones, in order), each with exactly one priority; an item appended without priority gets the largest priority ever set so far (initially initial_max_priority), so no stored item has more.", "quantifier": "every history of append/popleft/sample/set_last_priority calls obeying the wait protocol, every capacity", "why_tests_cant": "the invariant relates three containers over arbitrary histories", "anchors": ["chainerrl/misc/prioritized.py:PrioritizedBuffer"]}
{"id": "C07", "title": "Priority updates reach exactly the sampled items", "statement": "set_last_priority(ps) gives the i-th sampled item the priority ps[i] and changes no other item's priority, also when items were appended (and old ones evicted) between sample and set_last_priority.", "quantifier": "every buffer content, sampled batch, list of new positive priorities and interleaved appends", "why_tests_cant": "the failing interleaving (sample, append at capacity, update) is not in the test-suite; positions shift silently without an error", "anchors": ["chainerrl/misc/prioritized.py:PrioritizedBuffer.set_last_priority", "chainerrl/misc/prioritized.py:PrioritizedBuffer.append"]}
{"id": "C08", "title": "Reported sampling probabilities are correct and bounded below by the reported minimum", "statement": "Every probability returned by PrioritizedBuffer.sample(n, uniform_ratio) equals uniform_ratio/len + (1-uniform_ratio)*priority/total of the sampled item at call time, the probabilities of all items sum to one, and the returned minimum probability is a lower bound attained by some item.", "quantifier": "every buffer with positive priorities, uniform_ratio in [0,1], draws", "why_tests_cant": "quantifies over all contents and draws", "anchors": ["chainerrl/misc/prioritized.py:PrioritizedBuffer._sample_indices_and_probabilities"]}
{"id": "C09", "title": "Floating-point picks stay inside the queue", "statement": "With IEEE double priorities, the index picked by the sum tree for a draw below the stored total is a stored position (and no exception is raised).", "quantifier": "all double-precision priorities and draws", "why_tests_cant": "failures need adversarial rounding in the cached sums, which random tests do not hit", "anchors": ["chainerrl/misc/prioritized.py:_find"]}
{"id": "C10", "title": "Importance weights are normalised and annealed", "statement": "PriorityWeightError: beta never decreases, never exceeds 1 and is 1 after betasteps calls; with batch or memory normalisation all weights are in (0,1] and the least probable item of the batch/memory has weight 1; priorities derived from errors are positive, clipped to [error_min, error_max] before eps and alpha are applied, and monotone in the error.", "quantifier": "every beta0 in [0,1], betasteps, alpha, eps, probabilities in (0,1], number of calls", "why_tests_cant": "all real parameter values and call counts", "anchors": ["chainerrl/replay_buffers/prioritized.py:PriorityWeightError"]}
{"id": "C11", "title": "N-step replay windows are exact and never cross episodes or environments", "statement": "After any interleaving of append and stop_current_episode over several env_ids, the stored entries are exactly: for every appended transition e of an environment's episode, one window starting at e containing the consecutive following transitions of the same environment and episode, up to num_steps of them, cut at the end of the episode; open episodes have contributed exactly their complete windows.", "quantifier": "every num_steps >= 1, every interleaving of appends and stops over any number of environments", "why_tests_cant": "interleavings across env ids and episode ends are unbounded", "anchors": ["chainerrl/replay_buffers/replay_buffer.py:ReplayBuffer.append", "chainerrl/replay_buffers/replay_buffer.py:ReplayBuffer.stop_current_episode"]}
{"id": "C12", "title": "Replay buffers never exceed their capacity and keep the newest entries", "statement": "len(ReplayBuffer) never exceeds capacity and the buffer holds the newest entries in insertion order - after any operations, including load of a file saved by another buffer.", "quantifier": "every capacity, history and saved file", "why_tests_cant": "load changes the bound silently; tests load into a buffer of the same capacity", "anchors": ["chainerrl/replay_buffers/replay_buffer.py:ReplayBuffer", "chainerrl/replay_buffers/replay_buffer.py:ReplayBuffer.load"]}
{"id": "C13", "title": "EpisodicReplayBuffer: flat view equals concatenated episodes within capacity", "statement": "After every operation the list of stored transitions equals the concatenation of the stored complete episodes, whole oldest episodes are evicted first, the number of transitions is at most capacity, and an ended episode of at most capacity transitions is never lost or split by its own insertion.", "quantifier": "every history of append/stop_current_episode over any env ids, every capacity", "why_tests_cant": "unbounded histories with arbitrary episode lengths", "anchors": ["chainerrl/replay_buffers/episodic.py:EpisodicReplayBuffer"]}
{"id": "C14", "title": "PrioritizedEpisodicReplayBuffer accounts its capacity correctly", "statement": "capacity_left always equals capacity minus the number of transitions in stored episodes, the number of stored transitions never exceeds capacity, and the flat transition view agrees with the stored episodes.", "quantifier": "every history, capacity and episode-length sequence, including save/load", "why_tests_cant": "depends on long histories of evictions", "anchors": ["chainerrl/replay_buffers/prioritized_episodic.py:PrioritizedEpisodicReplayBuffer"]}
{"id": "C15", "title": "random_subseq returns a contiguous subsequence of the right length", "statement": "random_subseq(seq, L) is seq itself if len(seq) <= L and otherwise a contiguous block of exactly L elements; every start position 0..len-L is possible and no other.", "quantifier": "every sequence, length and generator output", "why_tests_cant": "all sizes and draws", "anchors": ["chainerrl/replay_buffer.py:random_subseq"]}
{"id": "C16", "title": "batch_experiences builds the n-step discounted target ingredients", "statement": "For each sampled window, reward is the sum of gamma^i * r_i, discount is gamma^(window length), next_state is that of the last transition, state/action those of the first, and is_state_terminal is true iff some transition of the window is terminal.", "quantifier": "every batch of non-empty windows, every gamma", "why_tests_cant": "all window lengths and values", "anchors": ["chainerrl/replay_buffer.py:batch_experiences"]}
{"id": "C17", "title": "ReplayUpdater calls the update function exactly on schedule", "statement": "update_if_necessary(t) performs exactly n_times_update updates of batchsize transitions (or episodes) iff the buffer holds at least replay_start_size transitions, enough data for a batch and t is a multiple of update_interval; otherwise none. It never requests more than what is stored.", "quantifier": "every configuration accepted by the constructor, buffer size and t", "why_tests_cant": "configuration space unbounded", "anchors": ["chainerrl/replay_buffer.py:ReplayUpdater"]}
{"id": "C18", "title": "train_agent follows the agent/environment protocol", "statement": "In train_agent, exactly steps - step_offset environment steps are made (fewer only when stopped early by success), every step's action comes from the agent's act_and_train on the latest observation and reward, each episode that ended (done, env reset request or max_episode_len) gets exactly one stop_episode_and_train before the next reset and no further act before that reset, and the final agent is saved exactly once.", "quantifier": "every environment behaviour, agent behaviour, hook and evaluator outcome, steps, step_offset and max_episode_len", "why_tests_cant": "arbitrary environment/agent behaviours and lengths", "anchors": ["chainerrl/experiments/train_agent.py:train_agent"]}
{"id": "C19", "title": "train_agent checkpoints at the documented interval", "statement": "train_agent with checkpoint_freq=c saves a checkpoint at every positive multiple of c reached, including the last step.", "quantifier": "every steps, step_offset and c", "why_tests_cant": "boundary case of the last step is not tested", "anchors": ["chainerrl/experiments/train_agent.py:train_agent"]}
{"id": "C20", "title": "train_agent_batch drives vectorised training correctly", "statement": "train_agent_batch: the step counter grows by the number of envs per iteration and training stops at the first multiple reaching steps (overshoot < number of envs); an env is reset exactly when its episode ended (done, info needs_reset, or max_episode_len) and never otherwise; batch_observe_and_train always receives the observations, rewards and done flags of that step and, as reset flags, exactly the envs whose episode is cut off by needs_reset or max_episode_len; a successful evaluation stops the training.", "quantifier": "every vector environment behaviour, number of envs, steps, evaluator outcomes", "why_tests_cant": "arbitrary behaviours and interleavings of episode ends", "anchors": ["chainerrl/experiments/train_agent_batch.py:train_agent_batch"]}
{"id": "C21", "title": "Asynchronous training stops and saves exactly once under every schedule", "statement": "For every interleaving of the worker processes of train_agent_async, the shared step counter counts each environment step exactly once, each value of the counter is observed by at most one worker (which calls the global step hooks and the checkpoint test once for it), exactly one worker observes the final step and saves the finished agent, at most (steps + processes - 1) environment steps are made in a run, and with step_offset the counter starts at step_offset.", "quantifier": "every number of processes, every schedule of atomic actions, every environment behaviour", "why_tests_cant": "schedules cannot be enumerated by tests", "anchors": ["chainerrl/experiments/train_agent_async.py:train_loop", "chainerrl/experiments/train_agent_async.py:train_agent_async"]}
{"id": "C22", "title": "Evaluator runs on schedule and keeps the best score", "statement": "Evaluator.evaluate_if_necessary evaluates at most once per eval_interval of steps, at the first call whose t reaches the next multiple, never misses one that was reached, max_score is the running maximum of all scores and the best agent is saved exactly when a strictly better score appears.", "quantifier": "every non-decreasing sequence of step counts and evaluation scores", "why_tests_cant": "arbitrary call sequences", "anchors": ["chainerrl/experiments/evaluator.py:Evaluator"]}
{"id": "C23", "title": "AsyncEvaluator writes one header and one evaluation per interval under every schedule", "statement": "With several processes sharing an AsyncEvaluator, for every schedule, each evaluation interval is evaluated by at most one process, the header is written exactly once and before any record, the shared maximum score is the maximum of all recorded scores, and the best agent is saved exactly when a score is better than all before.", "quantifier": "every schedule of the processes' atomic actions", "why_tests_cant": "schedules cannot be enumerated", "anchors": ["chainerrl/experiments/evaluator.py:AsyncEvaluator"]}
{"id": "C24", "title": "Evaluation returns the returns of exactly the first n episodes", "statement": "run_evaluation_episodes(env, agent, n_steps=None, n_episodes=n) returns exactly n scores, the i-th being the sum of rewards of the i-th episode, each episode ending at done, reset request or max_episode_len. With n_steps it returns the scores of the episodes finished within n_steps plus the truncated one if none finished.", "quantifier": "every environment/agent behaviour, n, max_episode_len", "why_tests_cant": "arbitrary behaviours", "anchors": ["chainerrl/experiments/evaluator.py:run_evaluation_episodes"]}
{"id": "C25", "title": "Batched evaluation is not biased towards short episodes", "statement": "batch_run_evaluation_episodes returns exactly n scores which are the returns of the n episodes that started first (not those that finished first).", "quantifier": "every number of envs, n and environment behaviour", "why_tests_cant": "the bias shows only for particular relative episode lengths", "anchors": ["chainerrl/experiments/evaluator.py:batch_run_evaluation_episodes"]}
{"id": "C26", "title": "collect_demonstrations respects max_episode_len", "statement": "collect_demonstrations collects exactly the requested steps/episodes and no demonstrated episode is longer than max_episode_len; the recorded transitions reproduce the environment interaction.", "quantifier": "every environment and expert behaviour, steps, episodes, max_episode_len", "why_tests_cant": "arbitrary behaviours and limits", "anchors": ["chainerrl/experiments/collect_demos.py:collect_demonstrations"]}
{"id": "C27", "title": "Exploration schedules stay in range and reach their end", "statement": "LinearDecayEpsilonGreedy.compute_epsilon(t) lies between start and end epsilon, is monotone in t and equals the end value for t >= decay_steps; LinearInterpolationHook has the analogous property; epsilon-greedy returns the random action exactly for draws below epsilon.", "quantifier": "all parameters accepted by the constructors, all t >= 0", "why_tests_cant": "all parameter values, incl. boundary decay_steps", "anchors": ["chainerrl/explorers/epsilon_greedy.py", "chainerrl/experiments/hooks.py:LinearInterpolationHook"]}
{"id": "C28", "title": "Frame stacking always shows the last k frames", "statement": "FrameStack (and VectorFrameStack with masked resets) returns after every reset/step the last k observations of the current episode of that env, oldest first, padded on the left with the reset observation.", "quantifier": "every k, number of envs, sequence of resets (with masks) and steps", "why_tests_cant": "unbounded interaction sequences", "anchors": ["chainerrl/wrappers/atari_wrappers.py:FrameStack", "chainerrl/wrappers/vector_frame_stack.py:VectorFrameStack"]}
{"id": "C29", "title": "MultiprocessVectorEnv is observationally equal to SerialVectorEnv", "statement": "For every schedule of the worker processes, a MultiprocessVectorEnv returns for every sequence of step/reset(mask)/seed calls the same results as a SerialVectorEnv over the same envs, and never delivers a reply to the wrong request.", "quantifier": "every scheduling of workers, env behaviours, call sequences and masks", "why_tests_cant": "schedules cannot be enumerated", "anchors": ["chainerrl/envs/multiprocess_vector_env.py", "chainerrl/envs/serial_vector_env.py"]}
{"id": "C30", "title": "Atari wrappers preserve rewards and episode boundaries", "statement": "MaxAndSkipEnv returns the sum of the skipped rewards and stops at the first done; EpisodicLifeEnv reports done at each life loss but resets the real env only at real game over; NoopResetEnv returns a non-terminal observation; ClipRewardEnv maps to {-1,0,1}; the observation returned is the current frame (max of the last two frames of this call).", "quantifier": "every underlying environment behaviour and action sequence", "why_tests_cant": "arbitrary behaviours", "anchors": ["chainerrl/wrappers/atari_wrappers.py"]}
{"id": "C31", "title": "Time limits end episodes at exactly the limit and only then", "statement": "ContinuingTimeLimit / make_timestep_limited signal the end of an episode at exactly the limit-th step (or earlier iff the env is done), never change observations, rewards or done, and forbid stepping before reset.", "quantifier": "every limit, env behaviour and step/reset history", "why_tests_cant": "arbitrary histories", "anchors": ["chainerrl/wrappers/continuing_time_limit.py:ContinuingTimeLimit", "chainerrl/misc/env_modifiers.py"]}
{"id": "C32", "title": "Actions are mapped into the action space", "statement": "NormalizeActionSpace maps [-1,1]^d onto [low,high]^d affinely with endpoints to endpoints; bound_by_tanh and scale_by_tanh produce values strictly inside (low, high); clipped Gaussian exploration stays within the bounds.", "quantifier": "all real inputs and bounds low<=high", "why_tests_cant": "all reals", "anchors": ["chainerrl/wrappers/normalize_action_space.py", "chainerrl/functions/bound_by_tanh.py", "chainerrl/explorers/additive_gaussian.py"]}
{"id": "C33", "title": "The C51 projection conserves probability mass and mean", "statement": "_apply_categorical_projection returns non-negative weights of the same total mass as the input, and the same mean when all shifted atoms lie within [v_min, v_max] (otherwise the mean of the clipped atoms).", "quantifier": "every number of atoms >= 2, support, batch, shifted atoms and probabilities (exact arithmetic)", "why_tests_cant": "all reals; boundary cases where an atom is exactly on the grid", "anchors": ["chainerrl/agents/categorical_dqn.py:_apply_categorical_projection"]}
{"id": "C34", "title": "Target network synchronisation", "statement": "Hard sync makes target parameters equal to the source; n soft updates with fixed source give (1-tau)^n * target + (1-(1-tau)^n) * source, always between the old target and the source; and DQN syncs exactly at multiples of target_update_interval.", "quantifier": "every parameter structure, tau in [0,1], n and training history", "why_tests_cant": "all parameter values and histories", "anchors": ["chainerrl/misc/copy_param.py", "chainerrl/agents/dqn.py:DQN.sync_target_network", "chainerrl/agents/dqn.py:DQN.act_and_train"]}
{"id": "C35", "title": "EmpiricalNormalization tracks the exact population statistics", "statement": "After any sequence of batches, the stored mean and variance equal the mean and population variance of all rows seen so far, independently of how they were split into batches; nothing is updated after `until`; inverse(normalize(x)) = x.", "quantifier": "every sequence of non-empty batches and every `until`", "why_tests_cant": "all partitions of all data", "anchors": ["chainerrl/links/empirical_normalization.py:EmpiricalNormalization"]}
{"id": "C36", "title": "Advantage and return recursions equal their definitions", "statement": "PPO/TRPO advantages equal the generalized advantage estimate sum_k (gamma*lambda)^k delta_{t+k}, value targets are advantage + value; A2C/A3C/NSQ returns are discounted n-step sums with bootstrap, cut at episode ends (masks).", "quantifier": "every episode length, rewards, values, gamma, lambda, masks", "why_tests_cant": "all lengths and reals", "anchors": ["chainerrl/agents/ppo.py:_add_advantage_and_value_target_to_episode", "chainerrl/agents/a2c.py:A2C._compute_returns", "chainerrl/agents/a3c.py:A3C.update", "chainerrl/agents/nsq.py:NSQ.update"]}
{"id": "C37", "title": "Recurrent PPO minibatches partition the dataset", "statement": "_limit_sequence_length cuts sequences into consecutive pieces of at most max_len without losing or reordering transitions; _yield_subset_of_sequences_with_fixed_number_of_items yields subsets of exactly n_items transitions that together are the whole dataset in order - for every dataset size.", "quantifier": "every list of non-empty sequences, max_len and n_items", "why_tests_cant": "size arithmetic over arbitrary sequences", "anchors": ["chainerrl/agents/ppo.py:_limit_sequence_length", "chainerrl/agents/ppo.py:_yield_subset_of_sequences_with_fixed_number_of_items"]}
{"id": "C38", "title": "TRPO's line search never leaves the trust region", "statement": "After the line search the policy parameters either equal the old ones exactly or old + step/2^i for some i <= max_backtrack for which the measured KL is at most max_kl and the surrogate gain did not decrease; the first such i is chosen.", "quantifier": "every gain/KL behaviour of the model (oracle), step and parameter shapes", "why_tests_cant": "arbitrary numerical behaviour of the policy", "anchors": ["chainerrl/agents/trpo.py:TRPO._line_search"]}
{"id": "C39", "title": "ACER's trust-region projection is the optimal one", "statement": "compute_loss_with_kl_constraint's direction z satisfies k.z <= delta whenever k != 0 and is the closest vector to g with that property.", "quantifier": "all gradient vectors g, k of any dimension and delta", "why_tests_cant": "all reals", "anchors": ["chainerrl/agents/acer.py:compute_loss_with_kl_constraint"]}
{"id": "C40", "title": "ACER's truncated importance sampling with bias correction is unbiased", "statement": "For discrete actions, the expectation under the behaviour policy of the truncated term plus the correction term equals the on-policy policy gradient weight for every function of the action.", "quantifier": "every number of actions, distributions pi, mu>0 and truncation threshold", "why_tests_cant": "all reals", "anchors": ["chainerrl/agents/acer.py:compute_policy_gradient_full_correction", "chainerrl/agents/acer.py:compute_policy_gradient_loss"]}
{"id": "C41", "title": "Mellowmax is a non-expansion between mean and max", "statement": "mellowmax(x, omega>0) lies between the mean and the maximum of x, is monotone and a non-expansion in max norm; the maximum-entropy mellowmax policy uses the configured omega.", "quantifier": "all vectors and omega", "why_tests_cant": "all reals", "anchors": ["chainerrl/functions/mellowmax.py", "chainerrl/distribution.py:MellowmaxDistribution"]}
{"id": "C42", "title": "Quadratic (NAF) action values are maximal at the greedy action", "statement": "lower_triangular_matrix places the entries row by row below the diagonal, L L^T is positive definite for exp-diagonal, and QuadraticActionValue.max >= evaluate_actions(a) for every admissible a, with equality at greedy_actions.", "quantifier": "all dimensions, entries and actions (within the action bounds when given)", "why_tests_cant": "all reals and dimensions", "anchors": ["chainerrl/functions/lower_triangular_matrix.py", "chainerrl/action_value.py:QuadraticActionValue"]}
{"id": "C43", "title": "Distributions are proper and their divergences non-negative", "statement": "SoftmaxDistribution probabilities sum to one and are at least min_prob; entropy lies in [0, ln n]; KL of categorical and Gaussian distributions is non-negative and zero on equal parameters; the tanh log-determinant used by the squashed Gaussian equals log(1 - tanh^2).", "quantifier": "all logits, parameters and dimensions", "why_tests_cant": "all reals", "anchors": ["chainerrl/distribution.py"]}
{"id": "C44", "title": "Batched recurrent state handling round-trips", "statement": "For stateless recurrent models, get_recurrent_state_at / concatenate_recurrent_states / mask_recurrent_state_at / split and concat of sequences are mutually inverse: extracting state i from a concatenated batch returns the i-th state, masking resets exactly the given indices, and variable-length batched forward equals per-sequence forward.", "quantifier": "all batch sizes, indices, sequence lengths", "why_tests_cant": "all sizes", "anchors": ["chainerrl/links/stateless_recurrent.py"]}
{"id": "C45", "title": "state_kept / state_reset restore recurrent states", "statement": "After `with state_kept(link)` or `with state_reset(link)` the recurrent state of the link is what it was before, whatever happened inside (including exceptions and a fresh, not yet evaluated link).", "quantifier": "every nesting, link structure, and behaviour inside", "why_tests_cant": "arbitrary nestings and exceptional exits", "anchors": ["chainerrl/recurrent.py"]}
{"id": "C46", "title": "Agent save/load round-trips and rejects cycles", "statement": "Agent.load after Agent.save restores every saved attribute recursively, and an agent whose saved attributes form a cycle is rejected by save and by load instead of recursing forever.", "quantifier": "every attribute graph", "why_tests_cant": "all graphs", "anchors": ["chainerrl/agent.py:AttributeSavingMixin"]}
{"id": "C47", "title": "Off-policy agents store exactly the experienced transitions", "statement": "For DQN (and DDPG/TD3/SAC) in single and batch mode, the replay buffer receives exactly the transitions (s_t, a_t, r_{t+1}, s_{t+1}, terminal) of the interaction, none crossing an episode boundary, with terminal=True iff the environment reported done.", "quantifier": "every interaction history with any number of envs and end/reset flags", "why_tests_cant": "arbitrary histories", "anchors": ["chainerrl/agents/dqn.py:DQN.act_and_train", "chainerrl/agents/dqn.py:DQN.stop_episode_and_train", "chainerrl/agents/dqn.py:DQN.batch_observe_and_train"]}
{"id": "C48", "title": "Bootstrapped targets use gamma^n for n-step transitions", "statement": "DQN-family, TD3, SAC and DDPG critics bootstrap with discount gamma^n for an n-step window and with zero after a terminal transition.", "quantifier": "every window, gamma and next-state value", "why_tests_cant": "all n", "anchors": ["chainerrl/agents/dqn.py:DQN._compute_target_values", "chainerrl/agents/ddpg.py:DDPG.compute_critic_loss", "chainerrl/agents/td3.py:TD3.update_q_func"]}
{"id": "C49", "title": "The deprecated SumTree is an exact sparse sum", "statement": "SumTree behaves as a finite map from integer indices to values with default 0: reading returns the last value written, its total is the sum of all values, and _pick selects proportionally.", "quantifier": "every history of writes at arbitrary (also negative) integer indices", "why_tests_cant": "unbounded index ranges growing in both directions", "anchors": ["chainerrl/misc/prioritized.py:SumTree"]}
{"id": "C50", "title": "REINFORCE updates on complete batches of full-return episodes", "statement": "Each REINFORCE update uses exactly batchsize complete episodes, each log-probability being weighted by the sum of the rewards received after that action; discarded episodes contribute nothing.", "quantifier": "every interaction history, batchsize and mode", "why_tests_cant": "arbitrary histories", "anchors": ["chainerrl/agents/reinforce.py:REINFORCE"]}
{"id": "C51", "title": "NSQ synchronises its target once per interval under every schedule", "statement": "With any number of NSQ processes and any schedule, the shared step counter counts each act_and_train once and the target network is synchronised exactly once per multiple of i_target.", "quantifier": "every schedule", "why_tests_cant": "schedules cannot be enumerated", "anchors": ["chainerrl/agents/nsq.py:NSQ.act_and_train"]}
{"id": "C52", "title": "PCL replay applies each importance weight to its own episode", "statement": "In PCL's replay update the loss of each sampled episode is multiplied by the importance weight the replay buffer returned for that episode.", "quantifier": "every list of sampled episodes and weights", "why_tests_cant": "needs episodes of differing lengths with prioritized replay; untested", "anchors": ["chainerrl/agents/pcl.py:PCL.update_from_replay"]}
{"id": "C53", "title": "Conjugate gradient solves symmetric positive definite systems", "statement": "conjugate_gradient(A, b, max_iter=n) returns x with A x = b for every symmetric positive definite A of dimension n (exact arithmetic), and the residual it tracks is always b - A x.", "quantifier": "every dimension, SPD operator and right-hand side", "why_tests_cant": "all reals and dimensions", "anchors": ["chainerrl/misc/conjugate_gradient.py"]}
{"id": "C54", "title": "Replay sampling is without replacement", "statement": "ReplayBuffer.sample(k) returns k stored entries at pairwise different positions whenever k <= len(buffer), and fails with an AssertionError otherwise.", "quantifier": "every buffer content, k and generator output", "why_tests_cant": "random outputs; every k and length", "anchors": ["chainerrl/replay_buffers/replay_buffer.py:ReplayBuffer.sample", "chainerrl/misc/collections.py:RandomAccessQueue.sample"]}
{"id": "C55", "title": "PrioritizedReplayBuffer samples by priority and updates exactly the sampled windows", "statement": "In every state a PrioritizedReplayBuffer reaches by appending transitions, stopping episodes and rounds of sample followed by update_errors: sample(k) returns k different stored windows picked proportionally to their priorities together with the weights that weights_from_probabilities computes from exactly their selection probabilities and the current number of stored windows, and update_errors gives exactly the sampled windows the priorities computed from their errors, leaving all others unchanged.", "quantifier": "every history of appends, stops and sample/update rounds, every random draw, every priority and weight function", "why_tests_cant": "the state space of priorities and histories is infinite", "anchors": ["chainerrl/replay_buffers/prioritized.py:PrioritizedReplayBuffer"]}
{"id": "C56", "title": "Ornstein-Uhlenbeck exploration noise is the stationary process it claims to be", "statement": "AdditiveOU.select_action returns the greedy action plus a noise which after k calls equals mu plus a fixed linear combination of the normal draws (closed form); for 0 < theta < 2 and independent draws its variance is sigma^2/(2 theta - theta^2) at every call (when not started at mu) and its autocorrelation at lag m is (1-theta)^m.", "quantifier": "all parameters, dimensions, histories of calls and draws", "why_tests_cant": "A statement about every history length and about the distribution; a test can only estimate it.", "anchors": ["chainerrl/explorers/additive_ou.py:AdditiveOU"]}
{"id": "C57", "title": "TD3 delays its policy and target updates", "statement": "After n TD3 updates both critics have been updated n times, and the policy and all target networks exactly at the updates whose number is a multiple of policy_update_delay.", "quantifier": "every number of updates and every policy_update_delay >= 1", "why_tests_cant": "needs induction over unbounded histories of updates", "anchors": ["chainerrl/agents/td3.py:TD3.update"]}
{"id": "C58", "title": "PPO and TRPO train on every experienced transition exactly once", "statement": "However act_and_train and stop_episode_and_train (or the batched calls with n environments) are interleaved, PPO/TRPO update as soon as update_interval transitions have been collected, every experienced transition appears in exactly one dataset, and each stored sequence consists of consecutive steps of one environment within one episode, with the terminal flag set exactly when the episode ended with done.", "quantifier": "all sequences of single-mode calls in which a stop follows an action; all numbers of environments and all rounds of batched calls, all update intervals", "why_tests_cant": "Off-by-one errors in the flushing of unfinished episodes show only for particular alignments of episode ends, environments and update intervals.", "anchors": ["chainerrl/agents/ppo.py:PPO.act_and_train", "chainerrl/agents/ppo.py:PPO.stop_episode_and_train", "chainerrl/agents/ppo.py:PPO.batch_observe_and_train", "chainerrl/agents/ppo.py:PPO._update_if_dataset_is_ready", "chainerrl/agents/ppo.py:PPO._flush_last_episode", "chainerrl/agents/trpo.py:TRPO"]}
{"id": "C59", "title": "ACER learns the Retrace return", "statement": "The targets ACER's Q-function is trained on are the Retrace estimates Q_t + sum_j gamma^j c_{t+1}...c_{t+j} delta_{t+j} with c = min(1, rho) (its d-th root for d-dimensional continuous actions), bootstrapped with the value of the state after the last step, and the uncorrected estimate used for the policy is the same sum with all coefficients one.", "quantifier": "all history lengths, rewards, values, importance weights and discount factors", "why_tests_cant": "The recursion mixes four quantities of neighbouring steps; an off-by-one changes values only for histories of at least two off-policy steps.", "anchors": ["chainerrl/agents/acer.py:ACER.compute_loss"]}
{"id": "C60", "title": "Advantage learning and DPP targets", "statement": "The AL target is the Bellman target lowered by alpha times the action gap (unchanged for a greedy action), and the PAL target lies between the AL target and the Bellman target. The DPP target adds the action's value and subtracts an average of the values: the Boltzmann average (DPP), log-sum-exp over eta (DPPL) or the maximum (DPPGreedy), so it keeps the gaps between actions.", "quantifier": "all Q values, actions and alpha >= 0", "why_tests_cant": "all reals and action counts", "anchors": ["chainerrl/agents/al.py:AL._compute_y_and_t", "chainerrl/agents/pal.py:PAL._compute_y_and_t", "chainerrl/agents/dpp.py:AbstractDPP._compute_y_and_t"]}
{"id": "C61", "title": "Prioritized losses are weighted sums of individual losses", "statement": "The weighted value loss is the sum of weight times individual loss (divided by the batch size for mean); unit weights reproduce the unweighted loss; the clipped loss is non-negative, zero only on exact predictions and bounded by both the squared and the absolute error. The errors reported to a prioritized buffer are the distances of the predictions from their targets, one for each sample in order, and rank the samples as their losses do.", "quantifier": "all batches, weights and accumulators", "why_tests_cant": "all reals and batch sizes", "anchors": ["chainerrl/agents/dqn.py:compute_value_loss", "chainerrl/agents/dqn.py:compute_weighted_value_loss", "chainerrl/agents/dqn.py:DQN._compute_loss"]}
{"id": "C62", "title": "IQN trains the prediction at tau towards the tau-quantile", "statement": "The element-wise loss of IQN for a prediction at threshold tau is the quantile regression Huber loss at tau: under-predictions cost tau times and over-predictions 1 - tau times the Huber loss.", "quantifier": "all predictions, targets, thresholds", "why_tests_cant": "symmetric sampling of thresholds hides the difference in every test", "anchors": ["chainerrl/agents/iqn.py:compute_eltwise_huber_quantile_loss"]}
{"id": "C63", "title": "PCL's batched replay evaluates each episode as if it were alone", "statement": "A uniform replay update of PCL minimises the sum of the losses of the sampled episodes divided by the batch size, each loss depending only on the transitions of its own episode, whatever the lengths of the others; no internal assertion fails.", "quantifier": "every list of non-empty contiguous episodes, of any lengths, in any order", "why_tests_cant": "the batching of episodes of different lengths has unboundedly many shapes", "anchors": ["chainerrl/agents/pcl.py:PCL.update_from_replay"]}
{"id": "C64", "title": "PCL's loss is the squared path-consistency error", "statement": "The loss PCL computes for a sequence is a non-negative multiple of the sum of the squared d-step consistency errors, with shorter rollouts at the end of the sequence, and is zero exactly if the values, rewards and log-probabilities are path-consistent.", "quantifier": "every sequence, rollout length, discount and temperature", "why_tests_cant": "real-valued inputs, all sequence lengths", "anchors": ["chainerrl/agents/pcl.py:PCL.compute_loss"]}
{"id": "C65", "title": "Recurrent DQN keeps and stores the right recurrent states", "statement": "With a recurrent Q-function, every transition DQN stores carries the recurrent states before and after its observation, computed from the observations of the same environment's current episode only; the action values used to act come from the same states; they start afresh when an episode ends or is reset; evaluation and training never disturb each other's states; and an update evaluates each sampled piece of an episode from the state in which it began.", "quantifier": "every history of single-environment or batched calls with any number of environments, any placement of episode ends and resets, evaluation calls anywhere, arbitrary parameter updates between calls, and every recurrent architecture built from the stateless recurrent links", "why_tests_cant": "a test runs a few steps of one architecture; mixing up the states of two environments or two episodes shows up only for particular placements of episode ends", "anchors": ["chainerrl/agents/dqn.py:DQN.act_and_train", "chainerrl/agents/dqn.py:DQN.batch_act_and_train", "chainerrl/agents/dqn.py:DQN.batch_observe_and_train", "chainerrl/agents/dqn.py:DQN.stop_episode_and_train", "chainerrl/agents/dqn.py:_batch_reset_recurrent_states_when_episodes_end", "chainerrl/replay_buffer.py:batch_recurrent_experiences"]}
{"id": "C66", "title": "Recurrent PPO keeps and stores the right recurrent states", "statement": "With a recurrent model, every transition PPO collects carries the recurrent states before and after its observation, computed from the observations of the same environment's current episode only; actions are chosen from the same states; they start afresh when an episode ends or is reset; and evaluation and training never disturb each other's states.", "quantifier": "every history of single-environment or batched calls with any number of environments, any placement of episode ends and resets, evaluation calls anywhere, arbitrary parameter updates between calls, and every recurrent architecture built from the stateless recurrent links", "why_tests_cant": "a test runs a few steps of one architecture; mixed-up states show up only for particular placements of episode ends and evaluation calls", "anchors": ["chainerrl/agents/ppo.py:PPO.act_and_train", "chainerrl/agents/ppo.py:PPO.batch_act_and_train", "chainerrl/agents/ppo.py:PPO.batch_observe_and_train", "chainerrl/agents/ppo.py:PPO.stop_episode_and_train", "chainerrl/agents/ppo.py:PPO.act"]}
{"id": "C67", "title": "End to end, what an off-policy agent stores is what the environment did", "statement": "When train_agent trains DQN (or a subclass), DDPG, PGT, TD3 or SAC, the episodes given to the replay buffer are exactly the episodes of the environment: the same steps (observation, action, reward, next observation, terminal flag) in the same order, cut at the same places, nothing lost, repeated or joined across episodes. After training the n-step buffer holds the last `capacity` windows of those episodes. The agent never raises on the calls train_agent makes. Only if an exception ends training may the last step be missing.", "quantifier": "every environment, hook, evaluation schedule, exception point, step limit, agent kind, replay capacity and n", "why_tests_cant": "needs every interleaving of resets, steps, time limits, evaluations and exceptions, and the composition of three components", "anchors": ["chainerrl/experiments/train_agent.py: train_agent", "chainerrl/agents/dqn.py: DQN.act_and_train, stop_episode_and_train", "chainerrl/agents/ddpg.py: DDPG", "chainerrl/agents/td3.py: TD3", "chainerrl/agents/soft_actor_critic.py: SoftActorCritic", "chainerrl/replay_buffer.py: ReplayBuffer"]}
{"id": "C68", "title": "End to end, vectorised training stores every environment's own unbroken episodes", "statement": "When train_agent_batch trains an off-policy agent on a vector environment, the episodes stored for each environment are exactly that environment's episodes, and in each of them every step starts from the observation in which the previous one ended, also when evaluations take place during training.", "quantifier": "every vector environment, number of environments, evaluation schedule, exception point and agent kind", "why_tests_cant": "needs every pattern of episode ends across environments and every moment of evaluation", "anchors": ["chainerrl/experiments/train_agent_batch.py: train_agent_batch, train_agent_batch_with_evaluation", "chainerrl/experiments/evaluator.py: batch_run_evaluation_episodes", "chainerrl/envs/serial_vector_env.py: SerialVectorEnv", "chainerrl/agents/dqn.py: DQN.batch_observe_and_train"]}
{"id": "C69", "title": "A training resumed from a step offset behaves like the rest of the training", "statement": "When a training is started with step_offset, the agent never raises because of the offset, stores exactly the environment's episodes, and its update and target synchronisation schedule continues at the offset: every later step is handed to the updater once, and the target is synchronised at exactly the multiples of the interval.", "quantifier": "every environment, every offset, every agent kind (DQN family, DDPG, PGT, TD3, SAC; A2C; A3C and NSQ), every interval, single and vectorised training, every exception", "why_tests_cant": "Tests start every training at step 0 or resume one agent at one offset; whether every kind of agent survives every offset depends on state that the offset does not touch.", "anchors": ["chainerrl/experiments/train_agent.py: train_agent (step_offset)", "chainerrl/experiments/train_agent_batch.py: train_agent_batch (step_offset)", "chainerrl/agents/dqn.py: DQN.act_and_train", "chainerrl/agents/a2c.py: A2C.batch_act_and_train", "chainerrl/agents/a3c.py: A3C.update", "chainerrl/agents/nsq.py: NSQ.update"]}
{"id": "C70", "title": "ACER and PCL train on and store every step of the interaction exactly once", "statement": "For every interaction, ACER and PCL cut each episode into segments of t_max steps; each segment enters exactly one online loss, with the value of the following state unless it is terminal; every batchsize-th segment (every segment for ACER) makes one update followed by n_times_replay replay updates; every step is stored once, in order, with the distribution its action was drawn from; and the agent never raises.", "quantifier": "every sequence of act_and_train, stop_episode_and_train and stop_episode calls in which a stop follows an action, every answer of the networks, every t_max, batchsize and number of replays", "why_tests_cant": "The bookkeeping runs through dictionaries keyed by the step counter across episode and segment borders; tests train a few short episodes and look at returns only.", "anchors": ["chainerrl/agents/acer.py: ACER.act_and_train, ACER.stop_episode_and_train, ACER.update_on_policy", "chainerrl/agents/pcl.py: PCL.act_and_train, PCL.stop_episode_and_train, PCL.update_on_policy"]}
{"id": "C71", "title": "Discrete action values agree with each other and dueling heads are identifiable", "statement": "For every batch of Q values, greedy_actions is the first maximiser of each row, max is the value it attains and no entry of the row exceeds it; compute_advantage is never positive and zero exactly for maximising actions; compute_expectation is an average of the row between its mean and its maximum; slicing a batch slices all of these. A distributional action value is the expectation of the distribution it returns for the same action, within the range of the atoms, and a quantile value is the mean of the quantiles returned for the same action. A dueling head makes the value stream the mean of the Q values and the advantage stream their differences, whatever constant is added to the advantage stream.", "quantifier": "all batch sizes, numbers of actions, atoms and quantiles, all Q values and all action choices", "why_tests_cant": "Tests compare a few random batches; ties, every shape and every shift of the advantage stream need a general argument.", "anchors": ["chainerrl/action_value.py: DiscreteActionValue, DistributionalDiscreteActionValue, QuantileDiscreteActionValue", "chainerrl/q_functions/dueling_dqn.py: DuelingDQN, DistributionalDuelingDQN"]}
{"id": "C72", "title": "Hand-written gradients are the derivatives of their functions", "statement": "For arctanh, muladd, sum_arrays, weighted_sum_arrays and lower_triangular_matrix the backward pass returns, for every input, every incoming gradient and every direction, exactly the directional derivative of the forward pass, with gradients of the shapes of the inputs; scale_grad is the identity and scales gradients; invert_gradients is the identity, only shrinks gradients of values in range, pulls values out of range back, and after an update values are in the range.", "quantifier": "all array sizes, numbers of arrays, values, incoming gradients, directions, ranges and step sizes", "why_tests_cant": "Numerical gradient checks compare finite differences at a few random points with a tolerance; an exact derivative at every point and every size needs analysis.", "anchors": ["chainerrl/functions/arctanh.py", "chainerrl/functions/mul_add.py", "chainerrl/functions/sum_arrays.py", "chainerrl/functions/weighted_sum_arrays.py", "chainerrl/functions/lower_triangular_matrix.py: LowerTriangularMatrix", "chainerrl/functions/scale_grad.py", "chainerrl/functions/invert_gradients.py: InvertGradients"]}
{"id": "C73", "title": "PPO rewards no move beyond its clipping range and standardises advantages faithfully", "statement": "For every minibatch the PPO policy loss is minus the average of a gain that never exceeds the importance-weighted advantage nor its value at the edge of the clipping range, equals it while the ratios stay in range and gives no gradient to a sample that already moved beyond it in the favourable direction; value clipping only increases the squared error and leaves it unchanged within clip_eps_vf; standardised advantages have average zero, standard deviation below one and the same order; an update accepts every dataset; the explained variance is at most one and one exactly for errors that are all equal.", "quantifier": "all minibatches, advantages, log-probabilities, clipping parameters, value predictions and datasets", "why_tests_cant": "Tests train small networks and look at the returns; whether the clipped loss is a bound, flat in the right places and never raises is a statement about all reals.", "anchors": ["chainerrl/agents/ppo.py: PPO._lossfun", "chainerrl/agents/ppo.py: _elementwise_clip", "chainerrl/agents/ppo.py: PPO._update_once_recurrent", "chainerrl/agents/ppo.py: _compute_explained_variance", "chainerrl/agents/trpo.py: TRPO._compute_gain"]}
{"id": "C74", "title": "Every sample of a dataset is used by each pass of PPO and of the TRPO value function", "statement": "An update of PPO (feed-forward), or of the TRPO value function, on a non-empty dataset with a positive minibatch size performs as many optimizer steps as needed for the requested number of epochs; together the minibatches contain every sample at least epochs and at most epochs plus one times, are full when the dataset is at least one minibatch long, and the loop terminates, whatever random orders are drawn.", "quantifier": "all datasets, minibatch sizes, numbers of epochs and sequences of random orders", "why_tests_cant": "Tests run with one dataset size; whether the wrap-around with reshuffling skips or repeats samples depends on the sizes not dividing each other.", "anchors": ["chainerrl/agents/ppo.py: PPO._update", "chainerrl/agents/trpo.py: TRPO._update_vf"]}
{"id": "C75", "title": "The processes of asynchronous training share one model", "statement": "Sharing a model keeps every parameter and persistent value under its name; every process that attaches a model built by the same code sees, under every interleaving of writes by all processes, exactly the one common set of arrays, while private arrays are changed by no other process; attaching either shares all the parameters or fails; optimizer states are shared likewise; processes use different random seeds.", "quantifier": "all link trees, dtypes, sizes, numbers of processes, interleavings of writes and written values", "why_tests_cant": "Tests run two real processes for a few steps and compare some arrays; aliasing and interleavings of any number of processes are out of their reach.", "anchors": ["chainerrl/misc/async_.py", "chainerrl/misc/namedpersistent.py", "chainerrl/experiments/train_agent_async.py: extract_shared_objects_from_agent, set_shared_objects", "chainerrl/misc/random_seed.py"]}
{"id": "C76", "title": "The Atari environment repeats actions, sums rewards and ends episodes as documented", "statement": "For every emulator, a step repeats the action for frame_skip frames or until the first frame that ends the episode (game over, or a life lost if treat_life_lost_as_terminal), returns the total of the rewards of exactly those frames, and shows the last n_last_screens images, each the maximum of the last two screens of its step; done is true exactly if the episode ended; over an episode no frame and no reward is lost or counted twice; after reset an episode can be stepped until it is done, and a finished one refuses steps.", "quantifier": "all emulators, action sequences, frame_skip, n_last_screens, lives behaviours and numbers of null actions", "why_tests_cant": "Tests run a few games for a few steps with the real emulator; life losses and game overs inside a skipped frame sequence or inside the null actions are rare events.", "anchors": ["chainerrl/envs/ale.py: ALE.receive_action, initialize, current_screen, is_terminal, reset, step"]}
{"id": "C77", "title": "The toy problem ABC rewards exactly the correct action sequences", "statement": "For every size and every sequence of actions, an episode of the ABC environment goes on exactly while the actions are 0, 1, 2, ..., gives the reward 1 exactly for the last correct action, and ends at the first wrong action; without episodes it gives one reward per full round of correct actions and never ends; every observation is a one-hot vector of size + 2 entries for the current state, shifted as documented; continuous actions are drawn from the softmax of the logits or, if deterministic, are the most probable ones; no legal use fails.", "quantifier": "all sizes, configurations, action sequences, resets and random draws", "why_tests_cant": "The agents' own tests use this environment as their yardstick with size 2; other sizes, steps after the end and long runs are not tested.", "anchors": ["chainerrl/envs/abc.py: ABC.reset, ABC.step, ABC.observe"]}
{"id": "C78", "title": "Converting a network to a noisy network replaces exactly its linear layers", "statement": "For every network built of chains, chain lists and sequences without sharing, the conversion to a noisy network never fails, replaces every linear layer by a noisy layer of the same shape, keeps every other object and its place, and keeps the layers that a sequence applies in step with its registered children; it may be applied to any network, also twice, to policies and to networks with shared parts.  A noisy layer computes the linear layer of its means plus factorised noise, whose average is zero; the initial noise scales have the documented size.", "quantifier": "all link structures, sizes, parameter values, inputs and noise draws", "why_tests_cant": "The conversion is a recursive in-place edit of an object graph; the tests convert two small fixed networks once each.", "anchors": ["chainerrl/links/noisy_chain.py: to_factorized_noisy, _map_links, _replace_unique_item", "chainerrl/links/noisy_linear.py: FactorizedNoisyLinear", "chainerrl/initializers/constant.py: VarianceScalingConstant", "chainerrl/links/sequence.py: Sequence"]}
{"id": "C79", "title": "Output directories are exclusive, complete once returned, and overwrite nothing", "statement": "For any number of calls that prepare an output directory at the same time, under every interleaving of their file system operations and with crashes at any point: nothing that existed before is changed; two calls never return the same directory; a returned directory is new, is where the user asked for it, and contains every documented file with its full contents; nothing else is created; a call fails without any effect if its directory exists; it succeeds whenever the directory can be made; a failing call leaves nothing behind; the saved command determines the arguments.", "quantifier": "all initial file systems, numbers of calls, arguments, clock readings, interleavings and crash points", "why_tests_cant": "Races between the existence check and the creation, and crashes between two writes, need particular timings; the tests make one directory at a time.", "anchors": ["chainerrl/experiments/prepare_output_dir.py: prepare_output_dir, is_under_git_control", "chainerrl/misc/is_return_code_zero.py: is_return_code_zero"]}
{"id": "C80", "title": "Ready-made networks, policies and Q-functions have the layers asked for and compute what is documented", "statement": "For all sizes and weights: a multilayer perceptron has hidden layers of the given widths, computes their composition with the nonlinearity between them, and rejects inputs of another size; deterministic and Gaussian policies give actions or means of the right dimension inside the bounds, with variances above the minimum; they have the number of hidden layers asked for, so without hidden layers the mean is affine in the state; a distributional Q-function gives probability distributions over evenly spaced atoms; a Q-function with late actions gives one value and can distinguish states; the quadratic Q-function has a nonlinearity after each hidden layer; the bounded mean follows the documented formula; the convolutional heads accept 84x84 images.", "quantifier": "all layer sizes, numbers of layers, weights, nonlinearities, bounds and inputs", "why_tests_cant": "The tests build a few networks and check shapes; whether a network has the documented structure for every size, and stays inside the bounds for every input and weight, cannot be sampled.", "anchors": ["chainerrl/links/mlp.py: MLP", "chainerrl/links/mlp_bn.py: MLPBN", "chainerrl/links/dqn_head.py: NatureDQNHead, NIPSDQNHead", "chainerrl/policies/gaussian_policy.py: FCGaussianPolicy, FCGaussianPolicyWithStateIndependentCovariance, FCGaussianPolicyWithFixedCovariance", "chainerrl/policies/deterministic_policy.py: FCDeterministicPolicy", "chainerrl/q_functions/state_q_functions.py: DistributionalFCStateQFunctionWithDiscreteAction, FCBNQuadraticStateQFunction", "chainerrl/q_functions/state_action_q_functions.py: FCSAQFunction, FCLateActionSAQFunction"]}
{"id": "C81", "title": "Reward filters subtract a weighted average and normalise the scale", "statement": "After any history of rewards, the average filter gives the reward minus the exponentially weighted average of the rewards so far, which stays within the range of the rewards and 0; a constant reward fades geometrically.  The normalising filter works for all rewards, divides by the standard deviation with a floor given by eps, so that small rewards are not blown up and large rewards are brought to a bounded scale.", "quantifier": "all reward histories, averaging rates, scales and eps", "why_tests_cant": "The state of the filters depends on the whole history of rewards; there are no tests for them.", "anchors": ["chainerrl/misc/reward_filter.py: NormalizedRewardFilter, AverageRewardFilter"]}
{"id": "C82", "title": "The asynchronous RMSprop optimizer and weight decay update every parameter as documented", "statement": "Training any model for any number of steps moves every entry of every parameter as RMSprop of that entry alone; weight decay adds the gradient of half its rate times the squared value, to all parameters except those named \"b\"; a parameter without gradient is treated as having gradient 0; no step is larger than lr / sqrt(1 - alpha) and each goes against the gradient; eps is added outside the square root, as documented.", "quantifier": "all models, parameter names and shapes, sequences of gradients, present or missing, and hyperparameters", "why_tests_cant": "The mean squares depend on the whole history of gradients; the tests run a few steps on a toy problem and only check that it is learned.", "anchors": ["chainerrl/optimizers/rmsprop_async.py: RMSpropAsync, RMSpropAsyncRule", "chainerrl/optimizers/nonbias_weight_decay.py: NonbiasWeightDecay"]}
{"id": "C83", "title": "Boltzmann exploration follows the Boltzmann distribution", "statement": "For every temperature and all q-values the explorer draws each action with the probability exp(q/T) / sum exp(q/T): all are possible, better ones more likely, worse ones vanish as the temperature goes to 0, and all become equally likely as it grows; adding a constant to the q-values changes nothing.  Missing or non-discrete action values, batches of several observations, and temperatures that are not positive are rejected.", "quantifier": "all numbers of actions, q-values, temperatures and uniform random numbers", "why_tests_cant": "A test sees a few draws; the exact probabilities, for all q-values and temperatures, need the measure of the set of random numbers that lead to each action.", "anchors": ["chainerrl/explorers/boltzmann.py: Boltzmann"]}
{"id": "C84", "title": "Initializers give orthogonal systems, constants and ranges of the documented size", "statement": "For every shape and scale, and whatever is drawn: the orthogonal initializer fills an array so that its rows, or its columns if there are fewer, are orthogonal vectors of length scale, so that no input is stretched by more than the scale; each mode accepts exactly the documented shapes; the constant initializer gives every output weights of total length scale; torch-like initialisation keeps weights and biases within one over the root of the number of inputs and touches no other layer.", "quantifier": "all shapes, scales, modes, random draws and QR decompositions with orthonormal columns", "why_tests_cant": "The tests check a few shapes with random matrices up to a tolerance; the claim is for all shapes and draws.", "anchors": ["chainerrl/initializers/orthogonal.py: Orthogonal", "chainerrl/initializers/constant.py: VarianceScalingConstant", "chainerrl/misc/init_like_torch.py: init_like_torch"]}
{"id": "C85", "title": "A monitored environment records every episode exactly once, however episodes end", "statement": "For every history of resets, steps and closes of a monitored environment, including resets before the episode is done, resets without steps and calls on which the environment raises: the recorded statistics are the length and return of every episode with at least one step, in order and once each; before closing only the finished ones; a step is refused exactly when there was no reset or the episode is done, a reset never; after closing nothing changes.", "quantifier": "all call histories and all rewards, done flags and exceptions of the environment", "why_tests_cant": "Tests monitor a few steps of a few environments; double or missing records appear only for particular interleavings of resets, failures and closes.", "anchors": ["chainerrl/wrappers/monitor.py: Monitor, _StatsRecorder"]}
{"id": "C86", "title": "Environment modifiers and transparent wrappers change exactly what they say, in every combination", "statement": "For every environment and every history of calls: any number of action filters, reward filters and reward clippings in any order pass each action through all the action filters, the last added first, and each reward through all the reward filters, the first added first, and change nothing else; rendering adds render calls only where documented and never changes results; casting changes only observations and remembers the last original one; whether a time limit counts agent or environment steps and whether clipping bounds single or accumulated rewards depends on the order of the modifiers exactly as computed.", "quantifier": "all environments, call histories, filters, limits and orders of modifiers", "why_tests_cant": "Tests apply one modifier to one environment; the claim is about all compositions and histories.", "anchors": ["chainerrl/misc/env_modifiers.py: make_rendered, make_timestep_limited, make_action_filtered, make_reward_filtered, make_reward_clipped, make_action_repeated", "chainerrl/wrappers/render.py: Render", "chainerrl/wrappers/cast_observation.py: CastObservation"]}
{"id": "C87", "title": "Soft actor-critic and TD3 updates minimise the right losses, in the right order", "statement": "For all networks, optimizers, batches and random draws: both critics are trained towards the same targets, which use the smaller of the two target values, the policy (for TD3: the smoothed target policy) and the temperature before the update, and ignore what follows a terminal transition; the policy is trained against the updated critics, for TD3 at every delay-th update only; every target parameter is the exponential moving average of the trained one; the temperature rises under a downhill step exactly if the estimated entropy is below its target, stays positive, and is constant without a target; the loss of the policy is smallest exactly for the Boltzmann distribution of the critic; burn-in actions are used exactly until the first policy update; n_times_update updates are made each time.", "quantifier": "all critics, policies, optimizers with memory, batches, noises, numbers of updates, temperatures and delays", "why_tests_cant": "Tests train to a small reward; a target made from the wrong network, a temperature moving the wrong way or a late target update still learns something.", "anchors": ["chainerrl/agents/soft_actor_critic.py: SoftActorCritic.update_q_func, update_policy_and_temperature, update_temperature, sync_target_network", "chainerrl/agents/td3.py: TD3.update, update_q_func, update_policy, default_target_policy_smoothing_func"]}
{"id": "C88", "title": "The gradients of REINFORCE and A3C are unbiased", "statement": "For every Markov decision process, differentiable policy with positive probabilities, baseline, entropy weight and horizon: the gradient of the loss of an episode, averaged over the episodes with their probabilities, is minus the gradient of the expected return (plus the weighted entropies); a batch gives the average of its episodes; a small step along the average gradient raises the expected return; with a discount each visited state contributes the gradient of its own discounted return; the loss of the critic is smallest exactly at the expected return; coefficients and normalisations scale both losses by one positive factor. The gradient should also be that of the discounted return for discounts below 1 (refuted).", "quantifier": "all processes with finitely many outcomes, policies, baselines, entropy weights, horizons, discounts and batches", "why_tests_cant": "Tests sample a few episodes; a biased gradient still learns on small tasks, and its bias is an average over all episodes that no sample shows.", "anchors": ["chainerrl/agents/reinforce.py: REINFORCE.accumulate_grad, batch_update", "chainerrl/agents/a3c.py: A3C.update"]}
{"id": "C89", "title": "Downloading pretrained models is safe for concurrent and dying processes", "statement": "For any number of processes that call download_model at the same time, whose downloads fail and which die at any point: zip files in the cache are complete and of the right url, only one process at a time stores a model, every model is downloaded once plus at most once per interruption, temporary directories remain only after a death, nothing deadlocks, and a call that returns a path finds the complete model there (refuted: after an interruption while unpacking the broken model is reported as cached for ever; proved without such an interruption and for every first call). Unknown algorithms and types raise AssertionError before anything happens; the default type should exist for every algorithm (refuted for A3C and PPO).", "quantifier": "all interleavings of calls, steps, exceptions and deaths of any number of processes, all models, all urls with different hashes", "why_tests_cant": "A test downloads once in one process; the interleavings and the points at which a process can die are unbounded.", "anchors": ["chainerrl/misc/pretrained_models.py: cached_download, download_and_store_model, download_model, MODELS"]}
{"id": "C90", "title": "The surrogate objectives of PPO and TRPO follow the policy gradient", "statement": "Averaged over the episodes that the old policy collects, the gradient of the clipped PPO loss and of the TRPO gain at the old parameters, with generalised advantages, is that of the returns of the visited states with respect to the choices made there (without discount: of the expected return), plus the entropy bonus, if lambda is 1 or the values satisfy the Bellman equation; for other values and lambdas as well (refuted). Objectives of several episodes are weighted sums of those of the episodes. The KL divergence that limits TRPO is nonnegative, zero only if the policy is unchanged on the data, has gradient zero at the old parameters and the Fisher information as second derivative.", "quantifier": "all finite-outcome decision processes, differentiable policies, clipping ranges, entropy weights, discounts, lambdas and episode lengths", "why_tests_cant": "The statement is about an average over all episodes and about derivatives; a test sees one noisy sample.", "anchors": ["chainerrl/agents/ppo.py: _add_advantage_and_value_target_to_episode, _add_log_prob_and_value_to_episodes, _make_dataset, PPO._update, PPO._lossfun", "chainerrl/agents/trpo.py: TRPO._compute_gain, TRPO._update_policy, TRPO._compute_kl_constrained_step"]}
{"id": "C91", "title": "The targets of the value-learning agents have the right fixed points", "statement": "In every Markov decision process with finitely many outcomes per action, bounded rewards and discount below 1: fitting the targets of DQN, DPPL, DPPGreedy and SARSA exactly, again and again, converges geometrically to a unique table; for DQN that table gives the optimal values, no policy earns more, and the greedy policy of a table within eps of it loses at most 2 eps / (1 - gamma); for SARSA it is the expected return of the policy followed; advantage learning and persistent advantage learning with alpha in [0, 1) converge to the optimal values too and do not shrink the gaps of the other actions. The Boltzmann operator of DPP should not move more than the action values (refuted).", "quantifier": "all decision processes over any set of states, all discounts in [0, 1), all initial tables, all alphas in [0, 1), any number of iterations", "why_tests_cant": "The statement is about limits and about all policies; a test trains on one small problem and checks that the return is large enough.", "anchors": ["chainerrl/agents/dqn.py: DQN._compute_target_values, compute_value_loss", "chainerrl/agents/sarsa.py: SARSA._compute_target_values", "chainerrl/agents/al.py: AL._compute_y_and_t", "chainerrl/agents/pal.py: PAL._compute_y_and_t", "chainerrl/agents/dpp.py: DPP._l_operator, DPPL._l_operator, DPPGreedy._l_operator", "chainerrl/action_value.py: DiscreteActionValue"]}
{"id": "C92", "title": "The update of A2C is that of A3C, averaged over steps and environments", "statement": "For any number of environments and steps per update, the loss of A2C is the sum of the losses of A3C on the pieces between ends of episodes of each environment, divided by the number of transitions; with or without generalised advantages it is the average of the losses that the environments would give alone; generalised advantages with tau 1 change nothing. Asked to train with a single environment, A2C says that it does not support this (refuted for act_and_train, which fails with a TypeError).", "quantifier": "all numbers of environments and steps, all rewards, episode ends, models, coefficients and discounts", "why_tests_cant": "Flattening and cutting the arrays must keep states, actions, returns and values of each environment aligned for all shapes; a test on one environment, or with square shapes, does not notice a mix-up.", "anchors": ["chainerrl/agents/a2c.py: A2C.update, A2C._compute_returns, A2C.act_and_train, A2C.stop_episode_and_train", "chainerrl/agents/a3c.py: A3C.update"]}
{"id": "C93", "title": "The entropy-regularised agents aim at the right values and policies", "statement": "For a finite set of actions: repeated exact fitting to the targets of SAC converges to the action values of the current policy with entropy; a policy with a smaller loss in every state is worth at least as much everywhere; a policy that cannot be improved in its own loss is the optimal one, which exists and is unique. The loss of PCL is zero on all runs, for any rollout length, exactly for the optimal value and policy (proved where every action has one outcome; refuted in random environments, where no value and policy have zero loss).", "quantifier": "all decision processes with bounded rewards, any state space, all policies, discounts in [0,1), temperatures, starting Q-functions, rollout lengths and coefficients", "why_tests_cant": "Fixed points and limits of the targets over all policies and environments cannot be reached by running updates; a wrong sign of the entropy term also trains without errors.", "anchors": ["chainerrl/agents/soft_actor_critic.py: SoftActorCritic.update_q_func, update_policy_and_temperature", "chainerrl/agents/pcl.py: PCL.compute_loss"]}
{"id": "C94", "title": "Evaluating an agent does not change what it learns", "statement": "An evaluation (any number of episodes with act and stop_episode) between two training episodes leaves the parameters, recurrent states, replay buffer and counters of every agent as they were; if its actions are deterministic it also leaves the random generators alone, so that how often an agent is evaluated does not change the training at all; with act_deterministically the actions do not depend on random numbers. Refuted: agents other than DQN, IQN, PPO, TRPO and A2C are disturbed if evaluated within an episode; A3C, ACER, PCL, REINFORCE, NSQ and A2C act in training mode also when evaluated, which changes models with batch normalisation; batch_act of A2C ignores act_deterministically, and DDPG and TD3 always sample.", "quantifier": "all agents, all models and parameters, all evaluation histories, all interleavings of training and evaluations", "why_tests_cant": "A difference shows only in the later course of training and for particular layers and interleavings; tests of act look at its result, not at what it leaves behind.", "anchors": ["chainerrl/agents: act, batch_act and stop_episode of all agents", "chainerrl/experiments/evaluator.py: run_evaluation_episodes", "chainerrl/experiments/train_agent.py: train_agent"]}
{"id": "C95", "title": "ACER learns the values of its policy from episodes of any other policy", "statement": "With discrete actions and any behaviour policy and length of replayed episodes, the average of the targets of the action values of ACER has the action values of the current policy as a fixed point, is nearer to them than the action values before by the discount factor, and repeated exact fits converge to them, also if the behaviour changes between the fits. The targets without truncated weights (Q_opc) share the fixed point but do not contract.", "quantifier": "all Markov decision processes with bounded rewards, all policies and behaviours, all lengths of episodes, all action values and sequences of fits", "why_tests_cant": "The statement is about averages over infinitely many episodes and limits of repeated fits.", "anchors": ["chainerrl/agents/acer.py: ACER.compute_loss, ACER.update, ACER.update_from_replay, ACERSeparateModel.__call__"]}
{"id": "C96", "title": "DDPG learns from whole episodes with the right recurrent states", "statement": "With episodic_update, whatever the number and lengths of the sampled episodes, the Q-function of DDPG judges every transition after having seen exactly the earlier steps of its own episode, the target networks exactly the steps up to it, the actor is judged by the updated Q-function, and afterwards the model continues the running episode from the state it had. Without memory an update is one fit to the mean squared error followed by one ascent of the mean value. Refuted: with L.LSTM the Q-function that judges the actor sees the first observation twice; an update during burn-in leaves the states of the replayed episodes in the model; transitions of longer episodes weigh more; a Q-function that is not recurrent raises AttributeError; transitions stored by vectorised training raise KeyError.", "quantifier": "all recurrent networks, all parameters, all multisets of episodes, all states before the update", "why_tests_cant": "The states are hidden and a wrong one only changes numbers; it takes episodes of different lengths, first steps and unlucky moments to see it.", "anchors": ["chainerrl/agents/ddpg.py: DDPG.update_from_episodes, DDPG.update, DDPG.compute_critic_loss, DDPG.compute_actor_loss, DDPG.act", "chainerrl/recurrent.py: state_kept, state_reset, set_state"]}
{"id": "C97", "title": "Categorical DQN learns the optimal values in the mean", "statement": "Whatever the decision process and the distributions the target network starts with: the distribution that fits the targets of all outcomes exists and (up to the clipping of the logarithm at 1e-10) no other distribution has a smaller cross-entropy loss; if the support of the atoms is wide enough for the returns (it reaches max reward / (1 - gamma)), repeated fitting makes the means, on which the agent acts, converge to the optimal action values with rate gamma, and the loss of the greedy policy vanishes. Priorities are never negative. If the support only has the optimal values, but not the returns, that is false: the agent prefers 3/4 for sure to a bet worth 1.", "quantifier": "all decision processes with rational probabilities and rewards, all evenly spaced atoms, all initial distributions, all numbers of rounds", "why_tests_cant": "It is a limit over all processes; a projection that shifts the mean slightly still learns something in any one environment.", "anchors": ["chainerrl/agents/categorical_dqn.py: _apply_categorical_projection, compute_value_loss, compute_weighted_value_loss, CategoricalDQN._compute_target_values, CategoricalDQN._compute_loss", "chainerrl/action_value.py: DistributionalDiscreteActionValue"]}
{"id": "C98", "title": "Uniform samples are fair", "statement": "If the random generator gives independent uniform draws (and uniform draws without replacement when asked for these), then sample_n_k returns every sequence of k different elements of range(n) with the same, positive probability and nothing else. So for every quantity its average over the batches of a replay buffer is k/n times its sum over the whole contents: minibatch gradients are unbiased. The same holds for the transitions and for the whole episodes of an episodic replay buffer. If episodes are cut to a maximal length it is false for transitions: those near the start and the end of an episode are drawn less often (exact numbers given).", "quantifier": "all n and k, all limits on the number of redraws and refills, all samples, all buffers, all quantities", "why_tests_cant": "It is a statement about the probability of each of n!/(n-k)! results; a test can sample a few thousand runs for a small n and would not see a small bias, for example one in the handling of refills.", "anchors": ["chainerrl/misc/random.py: sample_n_k", "chainerrl/misc/collections.py: RandomAccessQueue.sample", "chainerrl/replay_buffers/replay_buffer.py: ReplayBuffer.sample", "chainerrl/replay_buffers/episodic.py: EpisodicReplayBuffer.sample, sample_episodes", "chainerrl/replay_buffer.py: random_subseq"]}
{"id": "C99", "title": "Importance weights make up for prioritized sampling", "statement": "For every prioritized buffer that is used as documented and every quantity of its items (such as the gradient of their loss): the average over the draws of the weighted quantity of a sampled item is, once beta is 1, the mean of the quantity over all stored items (weights not normalised), or proportional to it (weights normalised by the maximum in memory), whatever the priorities and the ratio of uniform samples. This is true of items that are drawn one at a time. It is false with the default normalisation by the maximum in the batch (a single item is not corrected at all) and for larger samples, which are drawn without replacement but weighted as if with replacement: if all items are drawn exactly once, those with a large priority count less.", "quantifier": "all histories of a buffer, all priorities, all quantities, all ratios of uniform samples, all exponents and normalisations, all fine enough grids of draws", "why_tests_cant": "It is a statement about averages over all draws; in a test the bias is hidden in the noise of training.", "anchors": ["chainerrl/replay_buffers/prioritized.py: PriorityWeightError.weights_from_probabilities, PrioritizedReplayBuffer.sample", "chainerrl/misc/prioritized.py: PrioritizedBuffer.sample, SumTreeQueue.prioritized_sample, uniform_sample"]}
{"id": "C100", "title": "What n-step targets learn, and where exploration biases them", "statement": "For every Markov decision process, every policy that collects the experience and every n: the targets that the Q-learning agents make of n-step windows are on average the value of taking the action, following that policy for n - 1 steps and then being worth what the target network says. Fitting them contracts with gamma^n to a unique table, the one-step fixed point of the process of which n steps are one. For DQN it lies between the action values of the policy and the optimal ones, within a distance that is given by what the policy loses per choice; it is optimal for n = 1 or an optimal policy, but not for every exploring policy: the learned policy can then be worse. For SARSA it is the value of the policy for every n.", "quantifier": "all Markov decision processes with bounded rewards, all policies, all discount factors below 1, all n, all summaries of action values that do not expand", "why_tests_cant": "It concerns averages over all possible windows and the limit of repeated fitting; a run shows one sample of them.", "anchors": ["chainerrl/replay_buffer.py: batch_experiences", "chainerrl/agents/dqn.py: DQN._compute_target_values", "chainerrl/agents/double_dqn.py: DoubleDQN", "chainerrl/agents/sarsa.py: SARSA", "chainerrl/replay_buffers/replay_buffer.py: ReplayBuffer(num_steps)"]}
{"id": "C101", "title": "What setting the random seed makes reproducible", "statement": "After set_random_seed(seed, gpus), for every seed in [0, 2^32) and every tuple of existing GPUs, any program that draws from Python, NumPy and these GPUs gives the same result whatever was drawn before. Other seeds raise ValueError, after Python's generator has been seeded. GPUs that are not listed are not covered. The workers of asynchronous training start with generators seeded by their index, so what they draw is reproducible but does not depend on the seed that the user has set.", "quantifier": "all programs as interaction trees of draws, all states of the generators before, all seeds and GPU lists, all numbers of workers", "why_tests_cant": "Reproducibility concerns every program and every history before the call; a test compares two runs of one program.", "anchors": ["chainerrl/misc/random_seed.py: set_random_seed", "chainerrl/misc/async_.py: run_async", "chainerrl/experiments/train_agent_async.py: train_agent_async"]}
{"id": "C102", "title": "The gradients of DQN and ResidualDQN, and what they minimise", "statement": "For every differentiable network, every batch and every scale c, the gradient that ResidualDQN follows is the derivative of its loss when the parameters in the targets move c times as much as those in the predictions, whether losses are clipped or not, weighted or not, summed or averaged; c = 0 is DQN. The squared loss is on average half the squared Bellman error plus half the variance of the targets, so small losses mean nearly optimal values, and in deterministic processes zero loss means optimal values. In random processes the optimal values do not minimise it and are no resting point for any c but 0. DQN with squared losses rests at the optimal values; with clipped losses, the default, it does if targets vary by at most 1, but rare large rewards bias it.", "quantifier": "all networks with derivatives, all batches, all scales, all Markov decision processes with bounded rewards", "why_tests_cant": "It concerns derivatives and averages over all transitions of a process, which no finite number of updates shows.", "anchors": ["chainerrl/agents/residual_dqn.py: ResidualDQN", "chainerrl/agents/dqn.py: compute_value_loss, compute_weighted_value_loss, DQN._compute_loss", "chainerrl/functions/scale_grad.py: scale_grad"]}
{"id": "C103", "title": "What the actor and the critic of PGT aim at", "statement": "For every policy over finitely many actions, every critic and every batch of states: averaged over the sampled actions, the actor of PGT follows the gradient of the value of its choice plus beta times its entropy, whatever action is used as the baseline. With free logits it rests exactly at probabilities proportional to exp(q/beta), the unique best policy; with beta = 0 it never rests unless actions tie. The critic's targets are on average the values of the policy without entropies. When both rest, the policy loses at most beta ln n / (1 - gamma), but it is not optimal.", "quantifier": "all differentiable policies over finitely many actions, all critics, all batches, all Markov decision processes with bounded rewards, all beta and all gamma below 1", "why_tests_cant": "It concerns averages over all sampled actions, derivatives and resting points; a training run shows one sample path.", "anchors": ["chainerrl/agents/pgt.py: PGT.update", "chainerrl/distribution.py: Distribution"]}
{"id": "C104", "title": "The life of a vector env: creating, closing and losing it", "statement": "For every schedule of the processes: closing a MultiprocessVectorEnv takes boundedly many steps whatever its workers are doing, never waits for ever, ends all workers and closes every env exactly once. Creating it yields the spaces of its first env, and its spec is that of its first env. After closing, every call raises AssertionError except a spec known already, and collecting it does nothing more. A failing env_fn should be reported by the constructor, killing the main process should end the workers, and SerialVectorEnv should behave the same.", "quantifier": "all envs, all numbers of workers, all pending messages, all failures of env_fns, all schedules, all histories of calls", "why_tests_cant": "It concerns all interleavings of several processes at any moment, including crashes; a test sees a few schedules of healthy processes.", "anchors": ["chainerrl/envs/multiprocess_vector_env.py: worker, MultiprocessVectorEnv", "chainerrl/envs/serial_vector_env.py: SerialVectorEnv"]}
{"id": "C105", "title": "TRPO takes the natural gradient step and its line search succeeds", "statement": "For every policy with two derivatives and any number of parameters: the Hessian-vector products that TRPO computes are those of the Fisher information; half its quadratic form is the divergence to second order; the full step gains most among all steps with no greater damped quadratic divergence, and with any number of iterations at least as much as the plain gradient; if the gradient of the gain is not zero, from some number of halvings on every trial is accepted and improves the gain, and for a small enough bound on the divergence the full step is accepted at once. The step should not depend on how the policy is parametrized.", "quantifier": "all twice differentiable policies over finitely many actions, all numbers of parameters, all sets of states, all gains with a non-zero gradient, all settings", "why_tests_cant": "It concerns second derivatives, optimality among all directions and limits of step sizes; tests try single directions of single networks.", "anchors": ["chainerrl/agents/trpo.py: TRPO._compute_kl_constrained_step, _hessian_vector_product, TRPO._line_search", "chainerrl/misc/conjugate_gradient.py: conjugate_gradient"]}
{"id": "C106", "title": "What the statistics that agents report mean", "statement": "For every history of calls, a moving average that an agent reports is the exponentially weighted average of its samples started at 0, is within the bounds of the samples and 0, is biased towards 0 by a known factor and forgets at a known rate; a recorded statistic is the mean of exactly the newest samples within its window and nan exactly if there are none; the divergences TRPO reports are within its bound and its step sizes are powers of one half or 0. The statistics should be those their names and documentation say, of training.", "quantifier": "all histories of acting, training and evaluating calls, all samples, decay rates and window sizes", "why_tests_cant": "It quantifies over whole histories of samples; tests check at most the names of the statistics.", "anchors": ["chainerrl/agents/dqn.py: DQN.get_statistics, DQN.act, DQN.batch_act", "chainerrl/agents/ddpg.py: DDPG.get_statistics", "chainerrl/agents/a2c.py: A2C.get_statistics, A2C.update", "chainerrl/agents/ppo.py: _mean_or_nan, PPO.get_statistics", "chainerrl/agents/trpo.py: TRPO.get_statistics"]}
{"id": "C107", "title": "The scores an evaluation reports", "statement": "For every list of returns, the reported mean, median, maximum, minimum and standard deviation are the statistics they are called, in the right order to each other; they do not depend on the order of the episodes, scale with the rewards, and do not get worse when every return gets better. Every evaluation that ends has statistics, and every row of scores.txt has each number in the column of its name.", "quantifier": "all lists of returns of any length, all evaluation settings with and without vector envs, all behaviours of env and agent, all agent statistics with fixed names", "why_tests_cant": "It quantifies over all lists of scores, permutations of them and behaviours of environments; tests use a few literal scores.", "anchors": ["chainerrl/experiments/evaluator.py: eval_performance, run_evaluation_episodes, batch_run_evaluation_episodes, Evaluator.evaluate_and_update_max_score, record_stats, _basic_columns"]}
{"id": "C108", "title": "The preprocessed Atari environment, end to end", "statement": "Around any game and with any options, every step of the environment that make_atari and wrap_deepmind build is one to four equal steps of the game with their rewards summed (or clipped to the sign of the sum), is done exactly when the game is over or, with episodic lives, a life was lost and another is left, and asks for a reset exactly when the game does or the frame limit is reached; a reset makes only resets, no-ops and the starting actions; the game is never stepped before its first reset nor beyond the frame limit.", "quantifier": "all games (arbitrary state machines with lives), all frame limits, all numbers of no-ops, all six options, all histories of calls by a user who resets first and steps only in an episode", "why_tests_cant": "It is about the interaction of up to nine wrappers over every history and every game; tests check wrappers one at a time on short random histories.", "anchors": ["chainerrl/wrappers/atari_wrappers.py: make_atari, wrap_deepmind, NoopResetEnv, MaxAndSkipEnv, EpisodicLifeEnv, FireResetEnv, ClipRewardEnv, FlickerFrame, FrameStack", "chainerrl/wrappers/continuing_time_limit.py: ContinuingTimeLimit"]}
{"id": "C109", "title": "PPO and TRPO learn from the numbers of the actions they took", "statement": "The data set of every PPO or TRPO update consists of exactly the actions taken since the update before, each with the log-probability and the value the network gave when the action was taken, also for recurrent networks, for several envs, and for episodes that go on through updates; next values within an episode are the values of the following steps; and without an observation normalizer the first minibatch of an update finds every probability ratio at exactly 1.", "quantifier": "all networks (recurrent or not), normalizers, update intervals, effects of updates, numbers of envs, and histories of acting, observing, ends and resets; all ways to cut and choose pieces of episodes", "why_tests_cant": "The numbers are recomputed at update time from stored recurrent states; whether they agree with acting depends on every interleaving of episodes, resets and updates over many envs.", "anchors": ["chainerrl/agents/ppo.py: PPO.act_and_train, PPO.batch_act_and_train, PPO.batch_observe_and_train, _make_dataset, _make_dataset_recurrent, PPO._update_once_recurrent", "chainerrl/agents/trpo.py: TRPO"]}
{"id": "C110", "title": "IQN evaluates and learns every sample and threshold on its own", "statement": "The implicit quantile network gives for each sample of a batch and each quantile threshold what it gives for that sample and threshold alone; the loss of a batch is the (weighted) sum or average of the losses of its samples, and the errors reported for priorities belong to their own samples; different thresholds are embedded differently; and deterministic acting values actions by the exact means of symmetric return distributions.", "quantifier": "all batch sizes, numbers of thresholds, basis functions and targets, all layers, features, predictions, targets and weights, all thresholds in [0, 1]", "why_tests_cant": "Broadcasts, transposes and reshapes that mix samples keep all shapes and finite numbers, so only a proof over all indices rules them out.", "anchors": ["chainerrl/agents/iqn.py: cosine_basis_functions, CosineBasisLinear, ImplicitQuantileQFunction, _evaluate_psi_x_with_quantile_thresholds, compute_eltwise_huber_quantile_loss, compute_value_loss, compute_weighted_value_loss, IQN.act", "chainerrl/action_value.py: QuantileDiscreteActionValue"]}
{"id": "C111", "title": "The average reward that A3C learns is the mean reward", "statement": "With use_average_reward, A3C learns from what is earned above a learned average: without discounting there is nothing left to learn exactly when the values solve the differential Bellman equation with that average, which then is the mean reward of every trajectory that returns to its start; and in a task that always pays the same, the average converges to that reward whatever the values of the states and the lengths of the updates.", "quantifier": "all rewards, values, averages, rates and lengths of updates, any number of updates", "why_tests_cant": "A running average that overshoots a little more with each update looks like noise in any run that is not long enough.", "anchors": ["chainerrl/agents/a3c.py: A3C.update, use_average_reward, average_reward_tau"]}
{"id": "C112", "title": "Episodes can be replayed by priority without reporting errors", "statement": "An agent that samples episodes from a PrioritizedEpisodicReplayBuffer and never reports errors, as PCL does, can go on sampling for ever: every sample gives as many different stored episodes as asked for, with their true probabilities, and leaves the buffer as it was.", "quantifier": "all histories of appended transitions, ended episodes and samples, all capacities, default priorities, ratios of uniform samples and random draws", "why_tests_cant": "Whether a later sample fails depends on a flag set by an earlier one, and duplicates need two independent draws to coincide, which tests with fixed seeds rarely show.", "anchors": ["chainerrl/replay_buffers/prioritized_episodic.py: PrioritizedEpisodicReplayBuffer", "chainerrl/misc/prioritized.py: PrioritizedBuffer", "chainerrl/agents/pcl.py: PCL.update_from_replay"]}
{"id": "C113", "title": "Replaying what ACER has just experienced repeats its on-policy update", "statement": "With unchanged parameters, an off-policy update of ACER on a stored segment has the same loss, as a function of the parameters, as the on-policy update on that segment: importance weights are one, truncation corrects nothing, and the stored transitions give back the same outputs and the same bootstrap value.", "quantifier": "all models with discrete actions, configurations with no truncation or a threshold of at least one, trust-region constraints, segment lengths, observations, actions of positive probability, rewards, and terminal or cut-off ends", "why_tests_cant": "Tests only check that losses go down; that two code paths compute the same function of the parameters needs all histories and all parameter values.", "anchors": ["chainerrl/agents/acer.py: ACER.compute_loss", "chainerrl/agents/acer.py: ACER.update_from_replay", "chainerrl/agents/acer.py: ACER.update_on_policy", "chainerrl/agents/acer.py: ACER.act_and_train"]}
