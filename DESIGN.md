# Formal model of chainerrl in Rocq: design

## 1. Approach

* The Python in `/repo/chainerrl` is transcribed by hand, function by function, into total computable Gallina
  functions (`theories/Model/*.v`, no proofs there).  Every definition has a comment with the file and lines it
  models and the simplifications made.
* Python exceptions are values: `res A := Ok a | Raise e`.  Mutated objects become state records and a method
  becomes `state -> args -> res (result * state)` (or a relation-free step function over an operation type).
* Random generators, environments, agents' networks, clocks and schedules are explicit arguments (oracles:
  streams of values or functions), universally quantified in the theorems.
* Numbers: Python ints are `Z`/`nat`.  Floats are idealised as exact numbers (`Q` where executable witnesses are
  useful, `R` where analysis is needed).  Where rounding matters (C09) the *same* model text, which is
  parametrised by a record of numeric operations, is instantiated at `PrimFloat` (IEEE double).
* Concurrency (async training, AsyncEvaluator, NSQ, vector envs) is modelled as small-step interleaving of
  atomic actions (one lock-protected region or one shared-memory access per step); theorems quantify over every
  schedule.
* Specifications live in `theories/Spec/*.v` and use only plain lists/finite sums/predicates, not the model's
  helpers.  `theories/Props/*.v` contain the final theorem of each property, one concrete non-vacuity `Example`
  next to it and `Print Assumptions`.
* A property that the code violates is proved as a theorem named `..._refuted` (an explicit concrete run of the
  model that breaks the English statement) together with the strongest true theorem under an explicit extra
  hypothesis.  Section 5 lists these findings.

## 2. Trusted base

* Coq 8.16.1's kernel (incl. `vm_compute`), and the standard library axioms listed per theorem in section 6
  (only those of the classical reals `ClassicalDedekindReals.sig_forall_dec`, `sig_not_dec`,
  `FunctionalExtensionality.functional_extensionality_dep`, and `PrimFloat`/`Int63` primitives for C09).
* The transcription Python -> Gallina (by hand, checked by reading; comments carry the line numbers).
* Idealisation of floats as exact numbers outside C09.
* Not modelled: chainer's autograd/neural-network numerics, GPU code, file formats and the file system
  (files are values), logging, gym/ALE/OpenCV internals, wall-clock time.

## 3. Plan per property

* **C01** RandomAccessQueue is a bounded FIFO sequence. Model of RandomAccessQueue as the two lists front/back with all methods; spec = list with `skipn`-style trimming. Refinement proved by induction over operation lists (abstraction front reversed ++ back).
* **C02** sample_n_k draws k distinct valid indices. Loop of sample_n_k with the generator as a stream of blocks; fuelled while loop. Invariant: `selected` = set of the fixed prefix, no duplicates.
* **C03** Priority queues keep the exact total and minimum. TreeQueue node tree with index bounds; representation predicate `tree represents partial map` ; refinement to a list queue over all op lists, sum up to Qeq, min exactly.
* **C04** Prioritized picks are exactly proportional. _find on the represented tree; theorem states the cumulative-interval characterisation both ways.
* **C05** Sampling n items from the sum tree gives n distinct items and restores or zeroes their priorities. prioritized_sample/uniform_sample loops over a list of draws; induction with the refinement of C03 and C04.
* **C06** PrioritizedBuffer keeps data and priorities in lockstep within its capacity. PrioritizedBuffer state machine over op lists; invariant = three containers represent the same list; spec = list of (item, priority) pairs.
* **C07** Priority updates reach exactly the sampled items. Positive theorem without interleaved eviction; refutation with an eviction between sample and update.
* **C08** Reported sampling probabilities are correct and bounded below by the reported minimum. Over the spec list of C06; sums over Q.
* **C09** Floating-point picks stay inside the queue. Instantiate the C03 model at PrimFloat; concrete witness by vm_compute.
* **C10** Importance weights are normalised and annealed. Reals model of PriorityWeightError (Rpower); induction over calls.
* **C11** N-step replay windows are exact and never cross episodes or environments. ReplayBuffer per-env `last_n_transitions` map; spec: windows of episode list computed by an independent function; induction over op lists, arbitrary env ids.
* **C12** Replay buffers never exceed their capacity and keep the newest entries. Capacity via C01; load modelled as replacing the queue; refutation for load.
* **C13** EpisodicReplayBuffer: flat view equals concatenated episodes within capacity. EpisodicReplayBuffer state machine; invariant flat = concat, length <= capacity.
* **C14** PrioritizedEpisodicReplayBuffer accounts its capacity correctly. State machine with capacity_left; invariant; refutation of the flat-view claim.
* **C15** random_subseq returns a contiguous subsequence of the right length. skipn/firstn model; both inclusion directions.
* **C16** batch_experiences builds the n-step discounted target ingredients. batch_experiences over R; closed form by induction on the window.
* **C17** ReplayUpdater calls the update function exactly on schedule. Decision function + effect count; all configurations.
* **C18** train_agent follows the agent/environment protocol. Loop with oracle environment/agent producing an event trace; the protocol is a trace automaton; induction over steps.
* **C19** train_agent checkpoints at the documented interval. Same loop; refutation at t = steps.
* **C20** train_agent_batch drives vectorised training correctly. Vector loop with oracle; trace predicates; refutation for zero score.
* **C21** Asynchronous training stops and saves exactly once under every schedule. Interleaving semantics, any number of processes; invariant over reachable states.
* **C22** Evaluator runs on schedule and keeps the best score. State machine; running max spec.
* **C23** AsyncEvaluator writes one header and one evaluation per interval under every schedule. Interleaving semantics; invariant.
* **C24** Evaluation returns the returns of exactly the first n episodes. Loop over env oracle; spec = cut the reward stream in episodes.
* **C25** Batched evaluation is not biased towards short episodes. Loop over vector env oracle; invariant on episode indices.
* **C26** collect_demonstrations respects max_episode_len. Loop; refutation of the length bound, positive theorem with +1.
* **C27** Exploration schedules stay in range and reach their end. Q/R closed forms.
* **C28** Frame stacking always shows the last k frames. Deque model; spec: last k of (padding ++ observations since reset).
* **C29** MultiprocessVectorEnv is observationally equal to SerialVectorEnv. Worker automata with request/reply FIFO pipes; simulation with the serial env for every schedule.
* **C30** Atari wrappers preserve rewards and episode boundaries. Wrappers as state transformers over an oracle env.
* **C31** Time limits end episodes at exactly the limit and only then. Step-counter wrappers; induction over histories.
* **C32** Actions are mapped into the action space. Reals; affine map, tanh bounds.
* **C33** The C51 projection conserves probability mass and mean. Projection over R with floor/ceil as in the code; mass and mean by finite sums.
* **C34** Target network synchronisation. Parameters as lists of reals; closed form by induction.
* **C35** EmpiricalNormalization tracks the exact population statistics. Running mean/var recursion over R; equality with batch statistics by induction over batches.
* **C36** Advantage and return recursions equal their definitions. Backward recursions vs explicit sums.
* **C37** Recurrent PPO minibatches partition the dataset. List functions; flattening theorem; refutation for non-multiples.
* **C38** TRPO's line search never leaves the trust region. Loop over oracle gains/KLs; postcondition.
* **C39** ACER's trust-region projection is the optimal one. Vectors as lists of reals; projection onto half-space.
* **C40** ACER's truncated importance sampling with bias correction is unbiased. Finite sums over R.
* **C41** Mellowmax is a non-expansion between mean and max. Reals, exp/ln over lists; refutation for omega.
* **C42** Quadratic (NAF) action values are maximal at the greedy action. Matrices as functions/lists; PSD; refutation for clipped non-diagonal case.
* **C43** Distributions are proper and their divergences non-negative. Finite sums over R; Gibbs inequality; Gaussian KL; tanh identity.
* **C44** Batched recurrent state handling round-trips. Lists of per-example states; round-trip lemmas.
* **C45** state_kept / state_reset restore recurrent states. State stack model; refutation from a fresh LSTM; positive theorem otherwise.
* **C46** Agent save/load round-trips and rejects cycles. Attribute graph with fuelled recursion; round trip on trees; cycle detection of length one; refutation for 2-cycles.
* **C47** Off-policy agents store exactly the experienced transitions. Agent step machine producing append/stop events; spec: transitions of the interaction trace.
* **C48** Bootstrapped targets use gamma^n for n-step transitions. Algebra of targets; refutation for DDPG.
* **C49** The deprecated SumTree is an exact sparse sum. Tree with growing bounds in both directions; finite-map refinement.
* **C50** REINFORCE updates on complete batches of full-return episodes. Accumulation state machine; returns by explicit suffix sums.
* **C51** NSQ synchronises its target once per interval under every schedule. Interleaving semantics.
* **C52** PCL replay applies each importance weight to its own episode. List model of sort and zip; refutation.
* **C53** Conjugate gradient solves symmetric positive definite systems. Residual invariant over abstract linear operator; n-step termination via A-orthogonality.
* **C54** Replay sampling is without replacement. Permutation/NoDup statement over every draw oracle of the rejection loop.
* **C55** PrioritizedReplayBuffer samples by priority and updates exactly the sampled windows. Refinement of sample/update rounds to a list of priorities.
* **C56** Ornstein-Uhlenbeck noise. Real-valued recursion; closed form by induction; second moment by algebra.
* **C57** TD3 delays its policy and target updates. Step machine over the update counter; schedule characterised by divisibility.
* **C58** PPO and TRPO train on every experienced transition exactly once. Memory/episode accumulators; permutation of the experienced transitions, single and batch mode.
* **C59** ACER learns the Retrace return. Backward loop against the forward definition of Retrace; trace coefficients stated separately.
* **C60** Advantage learning and DPP targets. Real algebra against the formulas of the papers.
* **C61** Prioritized losses. Weighted sums and batch accumulators over real lists.
* **C62** IQN quantile loss. Elementwise loss against the quantile regression loss; refutation and mirrored positive theorem.
* **C63** PCL's batched replay. Sorting by length, transposing and evaluating time step by time step, against evaluation of each episode alone.
* **C64** PCL's loss. Rollout sums against the path-consistency errors; zero exactly if consistent.
* **C65** Recurrent DQN states. Step machine over histories of single or batched calls; the state of an environment is specified as a fold of the model over the observations of its current episode; replay evaluated by the n-step forward of C44.
* **C66** Recurrent PPO states. Same specification with the PPO step machine; refutation of non-interference.
* **C67** compose the models of train_agent, the off-policy agents and the replay buffer: the trace of a training run gives both the environment's episodes and the agent's calls; induction over the protocol of the trace.
* **C68** the same for train_agent_batch, per environment; a world built from a vector environment (Model/BatchWorld.v) in which evaluations use the same or another environment.
* **C69** compose Model/TrainAgent.v and TrainAgentBatch.v with Model/OffPolicyAgent.v started at an arbitrary t (generalising C67/C68); A2C with optional arrays (Model/Resume.v); A3C/NSQ of Model/Returns.v with t set and t_start 0: counterexamples for all offsets.
* **C70** one model of the shared life cycle of ACER and PCL with its dictionaries (Model/SegmentAgent.v) against a specification that splits the call history into episodes and cuts them into segments (Spec/SegmentSpec.v); invariant over the dictionaries' exact contents, induction over the calls.
* **C71** Batches as lists of rows of reals; argmax as a left-to-right scan; row-wise specifications by Forall2; the Boltzmann bound from monotonicity of the exponential average; dueling heads by algebra over lists of arbitrary length.
* **C72** Arrays as lists of reals; the gradient specification is the directional derivative (derivable_pt_lim) of the scalar product with the incoming gradient; linear functions by their adjoint, arctanh by the chain rule entry by entry, invert_gradients by algebra.
* **C73** A minibatch as a list of samples of reals; case analysis for the clip, local derivatives (derivable_pt_lim) for the flat parts, sums over lists for the statistics.
* **C74** The while-loop over a model of chainer's SerialIterator with the orders as an oracle; invariant: the samples used so far are the orders drawn, up to the current position.
* **C75** Buffers, shared or private to a process; links as trees of named arrays; lookup-by-path characterisation of the two traversals; refinement of interleaved writes to one common state plus private states.
* **C76** The emulator as an oracle state machine; the frame loop by induction on the remaining frames; episodes by induction on the actions, against a frame-by-frame replay.
* **C77** The state machine, by induction on the action list from the right, against closed formulas (prefix of the correct sequence; count of correct actions).
* **C78** Links as objects in a heap; the recursive in-place conversion is related to a conversion of unshared trees by induction on the tree, with a frame condition for all other objects.  The layer itself in real arithmetic; averages by symmetry of the draws.
* **C79** Calls as state machines over one file system, one system call per turn; an ownership invariant over all schedules.  Single calls by induction on the path that has to be created.
* **C80** Constructors and forward passes over lists of layers with real weights; a chain invariant on the sizes, by induction on the list of widths; bounds from the theorems about bound_by_tanh and softmax.
* **C81** The filters as step functions over the reals; closed form of the averages by induction on the history; the weighted variance satisfies a recursion with non-negative terms, so it is 0 exactly for a history of zeros.
* **C82** Parameters with names, values, gradients and rule states; one update per step; refinement to RMSprop of a single number by induction on the steps and the parameters; bounds on a step from the recursion of the mean square.
* **C83** The explorer as a function of the uniform number that numpy draws; the set of numbers that give an action is an interval whose length is the probability; bounds by comparing exponentials.
* **C84** Matrices as functions of indices; the QR decomposition is an oracle of which only the orthonormality of Q is assumed; Bessel inequality and a trace argument give the rows of square matrices and the bound on lengths.
* **C85** The recorder as a state machine over calls and environment answers, with the inherited gym methods modelled from their documentation; an invariant relates its attributes to the list of events, from which the specification cuts episodes.
* **C86** Environment objects with a hidden state whose methods are replaced one after the other; behaviours are compared call by call by induction on the history, compositions by induction on the list of modifiers.
* **C87** Updates as functions from agent states to agent states over arbitrary real critics and policies; optimizers are arbitrary functions of the history of losses, so what is proved is which loss each gets. Closed forms by induction on the list of batches, the temperature by derivatives, the optimal policy by the Gibbs inequality.
* **C88** Losses as functions of a position in parameter space; processes, episodes with probabilities and the expected return in a separate specification. Derivatives with the standard library, averages by induction on the horizon; the baseline drops out because the probabilities of the actions sum to one.
* **C89** A transition system of disk, locks and program counters; invariants for the two locks, the contents of cache and store and the facts of each program counter, by induction on the list of events; a decreasing weight for deadlock freedom; concrete schedules for the refutations. Entries of a zip file are unpacked one at a time, each atomically; md5 is assumed injective on the urls in use.
* **C90** Advantages in real arithmetic, objectives as functions of one parameter; the ratio is 1 at the old parameters, where the clip is inactive; expectations by induction on the length as in C88, using that the advantages average to 0 under exact values; the divergence by Gibbs' inequality and derivatives. Without observation normalisation, advantage standardisation and minibatches.
* **C91** Average the target functions of Model/Targets.v over the outcomes of an action. Contraction in the maximum norm by non-expansion of the row summaries, existence by geometrically bounded sequences, optimality by comparing with the expected return of C88; for advantage learning, the values are almost increasing, so they converge, and the limit solves the optimality equation because the gaps cannot become negative. Function approximation, sampling of transitions and the intermediate optimizer steps are not modelled here: every round fits the targets exactly.
* **C92** Model the arrays as lists of rows with the element-wise operations and reshapes of the code, and show by induction over the rows that each column of the result depends on that column alone. Then compare a column with the loss of A3C (C88) on its pieces by induction over the steps. The model evaluates each row of a batch on its own; rounding is not modelled.
* **C93** Average the modelled SAC targets (C87) over outcomes and sampled actions, show that the result is a contraction in the value, and compare policies with the Gibbs inequality. For PCL use the zero-loss characterisation of C64 and telescope the one-step errors. Function approximation, sampling noise and continuous actions are not modelled.
* **C94** Model act and stop_episode of all agents over one record of the fields they touch, with the model as a function that may change persistent values and draw random numbers, depending on the mode. Induction over the operations of an evaluation and over the sessions of a training. Logging and computational graphs are left out.
* **C95** Average the returns of Model/Acer.v over the episodes of a behaviour policy and express them by one-step recursions; the weights min(1, rho) times the behaviour are at most the policy. Exact fits to averages replace the optimiser.
* **C96** Model a network as a function of one row and a state per row, with the batch rules of L.LSTM and the restoring rules of set_state; model the losses, the loops over time and the sorting; prove by induction over time that the row of each episode has seen a prefix of it. Optimizers are arbitrary functions of parameters and loss; policies are deterministic.
* **C97** Use the exact projection over the rationals (C33); model the losses over the reals; define a round of exact fitting as the average of the targets of a batch with every outcome; prove that means follow the Bellman operator of C91 and apply its convergence; the cross entropy by the inequality of Gibbs.
* **C98** Use the models of C02, C11, C12; enumerate all sequences of draws as a list and count; prove that the algorithm commutes with renamings of the indices and that the list of draws is closed under them.
* **C99** Use the models of C04-C08 over the rationals and of C10 over the reals; average over equally spaced draws of a grid that all priorities fit, and over all draws of C98 for uniform items; count the grid points of every item.
* **C100** Enumerate the windows that start with an action; compute their targets with the models of C16 and C48; show that they are one-step targets of another process with discount gamma^n and use C91 for it; compare the fixed points by contraction arguments.
* **C101** Model generators as states behind a seeding function, programs as interaction trees of draws, and set_random_seed as a state change that may raise; prove by induction on the tree that results depend on the covered generators only.
* **C102** Model the backward pass through prediction, maximum and scale_grad for one direction of the parameters; prove with the library of derivatives that it is the derivative of the modelled loss; average over the outcomes of C91 and use contraction.
* **C103** Model the actor loss with detached advantages; average it over independent samples, differentiate with the library; use Gibbs' inequality for the best policy and a contraction argument for the resting pair.
* **C104** Model workers as processes with pipes and a step function, the parent as phases of asking, closing and joining; prove invariants over schedules with a decreasing measure; orphaned workers by an invariant on who holds the ends of a pipe.
* **C105** Model parameters as a vector and gradients through directional derivatives; differentiate the divergence twice; use Cauchy-Schwarz in the damped inner product for optimality, Taylor's theorem for the acceptance of short steps.
* **C106** Fold the two update rules over arbitrary samples and relate them to a closed form; deques by induction over appends; TRPO records through the theorem on its line search.
* **C107** Model sorting by insertion and prove order statistics by counting in the sorted list; use the theorems C24 and C25 for the scores of every evaluation.
* **C108** Compose the wrappers of Model/Wrappers.v as the two functions do, and lift an invariant over the steps since the reset and the phase of the user through each wrapper.
* **C109** Model the agent as one slot for each env with its recurrent states over an abstract network, and carry an invariant that links each stored transition to the network call that chose its action.
* **C110** Model arrays as nested lists with explicit reshapes and prove, by induction over the batch, that the reshapes undo each other.
* **C111** Model the loop with its running average; closed form by induction from the last step; in a task with one state the error and the advantage form a linear oscillator, whose factor per update is bounded by induction and computed exactly for 31 steps.
* **C112** Reuse the models of the episodic and prioritized buffers; an invariant over histories without update_errors gives the priorities, the flag that makes the next sample fail is an invariant too.
* **C113** Model compute_loss as a function on a line through parameter space, with the trust region as an arbitrary transformation of the per-step loss, and the two ways of building the history; equality by induction over the segment.

## 4. File layout

See section 1; the up-to-date list of files is `rocq/_CoqProject`, the property/theorem map is `MANIFEST.json`.

## 5. Findings (places where the code does not satisfy the property)

Each is a theorem with a concrete witness in the model, beside the theorem for the part that holds.

* `C06_explicit_priority_not_in_max_refuted`: C06 fails for explicit priorities: an item appended with priority 5 is not taken into account, the next default priority is still 1.
* `C07_interleaved_append_refuted`: A push between sample and set_last_priority on a full buffer makes the new priorities land on the wrong items.
* `C09_pick_outside_queue_refuted`: In IEEE double arithmetic a random draw can select a position outside the queue.
* `C09_sample_raises_and_breaks_queue_refuted`: The sampling call then fails with a TypeError (None priority), and the queue is left damaged: the stray position now holds a value, so that the next append violates the queue's own assertion.
* `C100_exploration_refuted`: Refuted: DQN with n-step targets learns the optimal policy whatever policy collects the experience. With two steps and uniform exploration it prefers the worse of two actions, because the second choice after the better one is not its own.
* `C101_gpus_refuted`: Refuted for programs that draw from GPUs that are not listed.
* `C101_user_seed_refuted`: So they are reproducible, but (refuted: that the user's seed determines a run) what a worker draws does not depend on the seed that the user has set before at all: experiments with different seeds explore in the same way.
* `C102_stochastic_refuted`: Full statement: ResidualDQN has the optimal action values as a resting point. Refuted when transitions are random: for every scale of the gradients of targets but 0, the average gradient at the optimal values is not zero in some direction, and some other values have a smaller loss.
* `C102_clipped_refuted`: Full statement: it always does. Refuted by rare large rewards: at the true values the average gradient is 1/2, so the learned values are pulled down.
* `C103_optimal_refuted`: Full statement: the policy is then optimal. Refuted for every positive [beta]; this is also a case where both rest.
* `C104_constructor_refuted`: When the first env_fn raises, the constructor neither returns nor raises: no schedule gets past its first question, and every schedule comes to a stop.
* `C104_serial_spec_refuted`: The spec of a SerialVectorEnv is never that of its first env, unlike that of a MultiprocessVectorEnv: it is the observation space.
* `C104_orphans_refuted`: When the main process is killed, a worker that waits for a command waits for ever, whatever the schedule: it holds the other end of its pipe itself.
* `C104_serial_close_refuted`: A SerialVectorEnv has no such end: no call is refused, and its envs are closed as often as close is called.
* `C105_reparametrize_damped_refuted`: With damping it does depend on it, even with one parameter.
* `C106_average_q_of_training_refuted`: So the statistics do not describe training: the same training is reported differently with and without evaluations, and differently again when the evaluation uses a vector env.
* `C106_a2c_average_value_refuted`: So it is not the moving average of the mean values that its name says.
* `C108_limit_refuted`: When lives are episodes the limit itself is not kept: the no-op of the reset after a lost life can be the step that reaches the limit, and what it returned is thrown away. Here the game makes 7 steps since its reset, with a limit of 6.
* `C108_resets_refuted`: After a lost life, resetting again and again never resets the game: each reset makes one more step, without bound, whatever the limit.
* `C109_normalizer_refuted`: With a normalizer it need not: the normalizer experiences the states before the first minibatch, while the recorded log-probabilities are those of before.
* `C110_one_threshold_refuted`: With a single threshold it values them by their worst returns instead.
* `C111_diverges_refuted`: Refuted: the average converges however long the updates are. With the default tau of 0.01 and updates of 31 steps it leaves every bound in the same task, from every start but the right one.
* `C112_waiting_refuted`: Refuted: PCL can replay again and again from a PrioritizedEpisodicReplayBuffer as it is made by default, which waits for priorities. After a sample, for as long as no errors are reported and whatever is added, every further sample fails; PCL never reports any. This holds for every number type, default priority, ratio and draws.
* `C112_duplicates_refuted`: Refuted: "Sample n unique samples from this replay buffer" (prioritized_episodic.py:42). With uniform_ratio 1/2 and without waiting, possible draws give the second of the two stored episodes twice: once uniformly, once by priority.
* `C113_strict_truncation_refuted`: A threshold below one also truncates the weights of one's own experience, so the two losses differ.
* `C113_mid_episode_refuted`: Refuted for a recurrent model and a segment from within an episode: states are not stored, the segment is replayed from reset states, and the loss is another one.
* `C12_load_exceeds_capacity_refuted`: C12 fails for a file saved by a larger buffer: a buffer of capacity 2 that loads it holds 3 entries and keeps growing to the other buffer's bound.
* `C12_load_keeps_pending_window_refuted`: A load in the middle of an episode also keeps the transitions pending in the n-step window, so an entry mixing transitions from before the load is stored afterwards.
* `C13_load_v02_refuted`: C13 fails after loading a v0.2 file: entries of the flat view are bare transitions instead of one-element windows, and the transitions of a trailing unfinished episode are in the flat view but in no episode.
* `C14_flat_view_refuted`: The flat view (and so len()) disagrees with the stored episodes: two episodes of two transitions, capacity 3.
* `C14_long_episode_refuted`: An episode longer than the capacity empties the episode store while len() still reports a full buffer.
* `C14_load_accounting_refuted`: Accounting is lost by load: a new buffer of capacity 2 that loads a full one still believes it has 2 free places and then stores 4 transitions.
* `C19_last_step_refuted`: C19 fails at the last step: it is a multiple of the frequency but no checkpoint is written.
* `C20_zero_score_refuted`: C20 fails for a successful evaluation with score 0: the score 0.0 counts as "no evaluation", so training goes on although the best score (0) reaches the threshold (-1).
* `C21_step_offset_refuted`: step_offset is not taken into account: training that should start at step 2 of 2 still makes two and more steps (train_agent makes none).
* `C23_float_max_refuted`: Missing from C23: the maximum is not that of the scores themselves. It is kept in single precision, so it may be lower than a recorded score, and an equal score is then saved as a better one.
* `C26_max_episode_len_refuted`: The bound fails: with max_episode_len = 2 the episodes have three steps.
* `C27_zero_steps_refuted`: The schedule is not total: decay_steps = 0 is accepted by the constructor but the first call, at t = 0, divides by zero.
* `C27_float_end_refuted`: In IEEE doubles the end value is undershot at t = decay_steps: with start_epsilon = 1.0, end_epsilon = 0.1 the value is 0.09999999999999998.
* `C29_short_actions_refuted`: Not equal in general. 1: with fewer actions than envs SerialVectorEnv steps the first envs, MultiprocessVectorEnv waits forever.
* `C29_env_exception_refuted`: an exception in an env is raised by SerialVectorEnv, but leaves MultiprocessVectorEnv waiting forever.
* `C29_seed_refuted`: seed() and seed(0) are accepted by one and rejected by the other.
* `C30_stale_observation_refuted`: The missing part is false: when the inner env asks for a reset (a time limit: the episode is not over) before the frame skip is complete, the observation returned is the stale one of an earlier step.
* `C30_lost_game_over_refuted`: A game over in the no-op step of a life reset is lost.
* `C30_fire_reset_stale_refuted`: The fire reset can return a stale observation.
* `C32_normalize_float_refuted`: In IEEE doubles the box is left: low = -2.7, high = 0.1 and action 1 give 0.10000000000000009.
* `C34_single_batch_schedule_refuted`: "exactly at the multiples of the interval": the same two steps of DQN synchronise the target in single mode (at step 0) and not in batch mode.
* `C35_update_uses_one_statistics_refuted`: a normalising call that also updates (the default) uses neither the statistics from before nor those from after the update; it subtracts the new mean and divides by the old standard deviation.
* `C35_normalize_after_load_refuted`: after loading statistics the first normalisation uses them. An object that has normalised before keeps its cached standard deviation.
* `C37_any_dataset_size_refuted`: C37 fails for a recurrent model in batch mode: with three environments, an update interval of 2 and minibatches of 2, the dataset has three transitions and the epoch raises IndexError after the first minibatch.
* `C40_zero_behaviour_probability_refuted`: The weight of an action of behaviour probability zero, for instance by underflow, is not a large number but an exception.
* `C41_configured_omega_refuted`: MellowmaxDistribution(values, omega=8) does not have the expectation mellowmax(values, omega=8).
* `C42_maximum_clipped_refuted`: with a coefficient matrix the network can produce and mu outside the bounds, an admissible action has a larger value than max.
* `C44_tuple_sequences_refuted`: The documentation also allows sequences that are tuples of arrays. Then n_step_forward of StatelessRecurrentSequential splits at wrong positions, because the length of a tuple is not the number of steps: sequences of 3 steps and 1 step come out as 2 steps and 2 steps, mixing the first two sequences.
* `C45_fresh_refuted`: A fresh link is not restored: its state None is saved, but set_state ignores None, so the state left by the body stays.
* `C45_exception_refuted`: After an exception the state is not restored, and the saved state stays on the stack.
* `C45_stale_stack_refuted`: As the stack is shared by all models, a caught exception inside one context then makes an enclosing context restore the wrong state: here the model with LSTM 0 ends up in the state of the model with LSTM 1.
* `C46_load_cycle_refuted`: But it does not reject a cycle through two agents: it exhausts the recursion limit, whatever that is.
* `C46_fresh_state_refuted`: An optimizer saved before its first update has no state entries; loading that file after an update leaves the later entries in place.
* `C48_ddpg_n_step_refuted`: with n-step replay DDPG discounts the bootstrapped value once instead of n times.
* `C62_quantile_loss_refuted`: the loss of IQN for a prediction at threshold tau is not the quantile regression loss at tau.
* `C49_sumtree_default_refuted`: The default is not available outside the allocated range: after writing index 0 only, reading index 1 raises instead of returning 0.
* `C50_reinforce_empty_episode_refuted`: Without that, it can: an episode completed before any action.
* `C51_nsq_order_refuted`: The copies are not ordered: as the copy is made outside the lock, the copy for a later multiple can be overwritten by an older q-function.
* `C52_pcl_weights_refuted`: PCL multiplies the loss of an episode with the importance weight of another one: losses are sorted by episode length, weights are not.
* `C52_pcl_weights_lengths_refuted`: The same with two episodes of different lengths, sampled shortest first.
* `C53_zero_right_hand_side_refuted`: For [b = 0], which A x = b solves with x = 0, the first iteration divides zero by zero and the result is not a number.
* `C66_evaluation_undisturbed_refuted`: The converse fails: stop_episode_and_train clears the evaluation state, so the evaluation calls of a history can give other outputs than they would alone.
* `C68_shared_evaluation_refuted`: C68 fails when no [eval_env] is given: the evaluations then use the training environment in the middle of its episodes, and the training goes on from where the evaluation left it. Here the second step of the stored episode ends in (1, 2), the third starts in (2, 3), the end of the evaluation's episode; the environment is stepped on past its end.
* `C68_stop_episode_refuted`: C68 fails for DDPG, PGT, TD3 and SAC when the evaluations use an environment that is not a vector environment: the agent's stop_episode ends the running episode of environment 0 in the replay buffer.
* `C69_a2c_refuted`: C69 fails for A2C: a training resumed at any step but 0 raises in its first round, because the arrays are only allocated at step 0.
* `C69_a3c_refuted`: C69 fails for A3C and NSQ: resumed at any step but 0, the first episode, whatever it is, ends in a KeyError: the update looks for the steps since 0.
* `C70_pcl_default_refuted`: C70 fails for PCL with its default arguments, which leave [replay_buffer] at [None]: every first episode raises at its second call.
* `C69_acer_pcl_refuted`: C69 fails for ACER and PCL too: resumed at any step but 0 (with online updates), the first episode, whatever it is, ends in an exception.
* `C72_invert_large_step_refuted`: refuted without a bound on the step ("so that values would be in a given range after update"): every larger step leaves the range, from every interior value.
* `C73_recurrent_equal_advantages_refuted`: The recurrent path refuses exactly the datasets the other path maps to zeros: equal advantages, in particular a single transition, end training with AssertionError.
* `C75_unknown_parameter_refuted`: But not the other way round: a parameter that is not among the shared ones silently stays private to its process.
* `C75_optimizer_item_size_refuted`: Optimizer states of four-byte items are shared likewise; any other item size (a float64 or float16 model) ends in a ValueError.
* `C75_run_async_seeds_refuted`: The second half of this: children forked from one generator draw one seed.
* `C76_game_over_in_reset_refuted`: The null actions of reset may themselves end the game; the environment is then returned in a state in which every step fails.
* `C77_documented_shift_refuted`: Deterministic and partially observable: the documentation says that the n-th episode is not shifted if n is odd. In fact it is shifted if n is odd.
* `C78_bare_link_refuted`: A linear link by itself is left as it is.
* `C78_policy_refuted`: A policy whose forward pass reads plain attributes, as the Gaussian and the deterministic policies do, still uses the old linear links with their old weights: the conversion has no effect on what it computes.
* `C78_twice_refuted`: Converting a network a second time makes the means and scales themselves noisy: every noisy layer then fails when it is used.
* `C78_shared_refuted`: So does a single conversion of a network that contains the same chain at two places.
* `C78_repeated_refuted`: A [Sequence] that applies the same linear link twice makes the conversion fail.
* `C79_all_or_nothing_refuted`: A call that fails while writing leaves the new directory behind, with an empty file: the directory is not all or nothing.
* `C79_fresh_repository_refuted`: In a git repository without commits, [git rev-parse] succeeds and [git rev-parse HEAD] does not, so every call fails, although it could save everything else.
* `C79_command_refuted`: The saved command does not determine the arguments.
* `C80_independent_refuted`: REFUTED for the policy with a state-independent variance: with the default arguments (no hidden layers) it silently has a hidden layer as wide as the input, and its mean is not affine.
* `C80_late_one_layer_refuted`: REFUTED: that with one hidden layer, which the documentation allows, such a Q-function can prefer different actions in different states. The difference between the values of two actions is the same in all states.
* `C80_bn_quadratic_refuted`: REFUTED: that the quadratic Q-function with batch normalisation has a nonlinearity after every hidden layer. With one hidden layer, outside training, its value and its greedy action before scaling are affine in the state.
* `C80_documented_mean_refuted`: REFUTED: the documented formula of the bounded mean, [min + tanh(y) * (max - min) / 2].
* `C81_small_rewards_refuted`: REFUTED: that [eps] keeps small rewards small. However small the first reward is, it becomes [scale * sqrt ((1 - tau) / tau)], up to its sign.
* `C81_large_rewards_refuted`: REFUTED: that large rewards are normalised. The filtered rewards are unbounded.
* `C81_tau_one_refuted`: REFUTED: that it works for every [tau]: with [tau = 1] every call fails.
* `C82_documented_eps_refuted`: REFUTED: the documentation's "epsilon is outside the square root". The first step is smaller than that formula gives, for all small gradients.
* `C83_negative_refuted`: REFUTED: that a negative temperature is rejected too. It reverses the preferences.
* `C84_documented_shape_refuted`: REFUTED: the documentation's "the number of vectors must be equal to or smaller than the dimension". By default more vectors are accepted, and they are then not orthogonal.
* `C85_failed_reset_refuted`: REFUTED: that it holds too when the environment is stepped after a reset that raised. The steps before it are counted twice.
* `C85_types_refuted`: REFUTED: that there is one episode type for every recorded episode. Resets without a step before them add one too.
* `C87_n_times_update_refuted`: REFUTED: that TD3 makes n_times_update updates at each update time, as DQN and DDPG do. It makes one, whatever the argument.
* `C88_discount_refuted`: With a discount other than 1 that is not the gradient of the expected discounted return.
* `C89_crash_refuted`: Otherwise not: after one death, or one exception, while unpacking, the next call returns the path of a model that is not there, and no further calls will ever repair it.
* `C89_cached_download_refuted`: A direct call of cached_download may return a path from which the file has been moved away, without any failure.
* `C89_default_refuted`: The default type is not available for every algorithm that has a model.
* `C90_inexact_values_refuted`: With lambda other than 1 and values that do not satisfy the Bellman equation, the direction can be another.
* `C91_boltzmann_refuted`: the Boltzmann average of DPP can move more than the action values.
* `C92_single_refuted`: A2C says that it does not support training with a single environment when asked to: not for act_and_train, which lacks the parameter self.
* `C93_pcl_random_refuted`: In a random environment there may be no value and policy with zero loss, not even the optimal ones.
* `C94_inside_refuted`: The other agents cannot: their model keeps one recurrent state, or stop_episode closes the episode in the replay buffer.
* `C94_training_mode_refuted`: A3C, ACER, PCL, REINFORCE, NSQ and A2C call the model in training mode also when they are evaluated: with batch normalisation, which is quiet in test mode, an evaluation changes the model.
* `C94_deterministic_refuted`: but batch_act of A2C samples even if act_deterministically is set, and so do DDPG and TD3, which have no such option.
* `C95_untruncated_refuted`: The truncation of the weights is needed for this: the average of the targets without it, [Q_opc], can be further from the values than what it started from.
* `C96_actor_lstm_refuted`: which is another objective.
* `C96_burn_in_refuted`: If no network has been evaluated in the current episode, as during burn-in, an L.LSTM policy goes on from the state that the update left behind: its next action is that of an agent that has seen the replayed episode.
* `C96_weights_refuted`: but not otherwise.
* `C96_not_recurrent_refuted`: Episodic updates need a recurrent Q-function,
* `C96_vectorised_refuted`: and transitions that were not stored by vectorised training, which stores no next actions.
* `C97_narrow_refuted`: It is not enough that it has all optimal action values: a fair bet between 2 and 0 is worth 1, but with a support from 0 to 1 its learned mean is 1/2, and the agent takes 3/4 for sure.
* `C98_subsequences_refuted`: so the first transition and the last, with the final reward, are seen less often than others.
* `C99_batch_refuted`: of two items with priorities 1 and 3 the second counts three times as much.
* `C99_whole_refuted`: so that no correction is needed, but with beta 1 of two items with priorities 1 and 3 the first counts three times as much.

## 6. Assumptions per theorem

Output of `Print Assumptions` (all names are in the Coq standard library).

* Closed under the global context: C01_queue_refines_bounded_list, C02_sample_n_k_sound, C02_sample_n_k_terminates, C03_sum_queue_refines_list, C03_min_queue_refines_list, C04_find_is_proportional, C05_prioritized_sample, C05_uniform_sample, C06_buffer_refines_pair_list, C06_lockstep_any_history, C06_explicit_priority_not_in_max_refuted, C07_interleaved_append_refuted, C08_probabilities_sum_to_one, C08_minimum_probability, C101_reproducible, C101_succeeds, C101_raises, C101_gpus_refuted, C101_workers, C101_user_seed_refuted, C104_close, C104_workers, C104_constructor, C104_constructor_refuted, C104_spec, C104_serial_spec_refuted, C104_orphans_refuted, C104_orphans_without_inheritance, C104_after_close, C104_serial_close_refuted, C106_record, C107_table, C108_atari_stack_partial, C108_unlimited, C108_frames, C108_limit_refuted, C108_resets_refuted, C109_records, C109_never_raises, C109_batch_starts, C109_single_starts, C112_waiting_refuted, C112_not_waiting_partial, C112_uniform, C112_duplicates_refuted, C11_windows_exact, C11_windows_exact_prioritized, C12_capacity_with_loads_partial, C12_load_restores_entries, C12_load_exceeds_capacity_refuted, C12_load_keeps_pending_window_refuted, C54_sample_without_replacement, C13_episodic_buffer, C13_last_episode_kept, C13_load_v02_partial, C13_load_v02_refuted, C14_capacity_accounting_partial, C14_flat_view_refuted, C14_long_episode_refuted, C14_load_accounting_refuted, C15_random_subseq, C15_every_block_possible, C17_updater_schedule, C18_training_protocol, C19_checkpoints_partial, C19_last_step_refuted, C20_batch_training_protocol_partial, C20_zero_score_refuted, C21_async_training_partial, C21_no_deadlock, C21_step_offset_refuted, C22_evaluator, C23_async_evaluator_partial, C23_float_max_refuted, C24_evaluation_episodes, C25_batch_evaluation, C26_demonstrations_partial, C26_max_episode_len_refuted, C27_linear_decay, C27_epsilon_greedy_history, C27_constant_epsilon, C27_interpolation_hook, C27_zero_steps_refuted, C28_frame_stack, C28_vector_frame_stack, C31_continuing_time_limit, C31_timestep_limited, C29_multiprocess_is_serial_partial, C29_short_actions_refuted, C29_env_exception_refuted, C29_seed_refuted, C30_max_and_skip_partial, C30_stale_observation_refuted, C30_action_repeat, C30_episodic_life_partial, C30_lost_game_over_refuted, C30_noop_reset, C30_noop_observation, C30_fire_reset_partial, C30_fire_reset_stale_refuted, C30_clip_reward, C32_normalize_action, C32_normalized_env, C32_randomize_action, C33_projection, C33_categorical_target, C33_categorical_double_target, C34_hard_sync, C34_soft_sync, C34_sync_never_silent, C34_copy_grad, C47_single_mode, C47_single_mode_runs, C47_batch_mode, C47_buffer_after_interaction, C34_single_batch_schedule_refuted, C57_td3_delayed_updates, C36_gae, C36_gae_lambda_one, C36_gae_lambda_zero, C36_a2c_returns, C36_async_returns, C36_async_segments, C37_limit, C37_minibatches, C58_single_mode, C58_batch_mode, C37_any_dataset_size_refuted, C38_line_search, C38_candidates, C44_get_of_concatenate, C44_concatenate_of_get, C44_mask, C44_get_total, C44_split_of_concat, C44_forward, C44_forward_alone, C44_one_step, C44_resume, C44_tuple_sequences_refuted, C45_kept_partial, C45_reset_partial, C45_kept_state_partial, C45_reset_state_partial, C45_exceptions_propagate, C45_fresh_refuted, C45_exception_refuted, C45_stale_stack_refuted, C46_round_trip_partial, C46_files, C46_save_rejects_cycles, C46_load_fails_on_cycles_partial, C46_load_cycle_refuted, C46_fresh_state_refuted, C49_sumtree_total, C49_sumtree_reads, C49_sumtree_default_refuted, C49_sumtree_pick, C49_sumtree_sample, C50_reinforce_updates, C50_reinforce_no_raise, C50_reinforce_empty_episode_refuted, C51_nsq_counter, C51_nsq_sync_once, C51_nsq_quiescent, C51_nsq_order_refuted, C51_nsq_steps, C63_pcl_same_episodes, C55_prioritized_rounds, C65_states, C65_separate, C65_replay, C65_replay_targets, C65_replay_as_acted, C66_states_partial, C66_training_undisturbed, C66_evaluation_undisturbed_refuted, C67_stored_episodes, C67_never_fails, C67_buffer, C68_stored_episodes, C68_never_fails, C68_unbroken, C68_serial_vector_env, C68_shared_evaluation_refuted, C68_stop_episode_refuted, C69_stored_episodes, C69_schedule, C69_batch_stored_episodes, C69_a2c_refuted, C69_a2c_fresh, C69_a3c_refuted, C70_interaction, C70_segments, C70_pcl_default_refuted, C69_acer_pcl_refuted, C71_evaluate, C74_passes, C74_zero_minibatch, C74_empty, C75_share, C75_one_model, C75_attach, C75_unknown_parameter_refuted, C75_optimizer_item_size_refuted, C75_own_seeds, C75_run_async_seeds_refuted, C76_step, C76_step_after_end, C76_reset, C76_episode, C76_game_over_in_reset_refuted, C77_episodic, C77_episodic_return, C77_nonepisodic, C77_nonepisodic_best, C77_never_fails, C77_reset, C77_documented_shift_refuted, C78_convert, C78_parameters, C78_bare_link_refuted, C78_policy_refuted, C78_twice_refuted, C78_shared_refuted, C78_repeated_refuted, C79_nothing_overwritten, C79_exclusive, C79_complete, C79_nothing_else, C79_succeeds, C79_refuses, C79_all_or_nothing_refuted, C79_fresh_repository_refuted, C79_command_refuted, C80_heads, C86_filters, C86_rendered, C86_render_wrapper, C86_cast, C86_limit_orders, C86_clipped, C87_n_times_update_refuted, C89_safe, C89_first, C89_complete_partial, C89_crash_refuted, C89_once, C89_temporary, C89_no_deadlock, C89_cached_download_refuted, C89_supported, C89_same_model, C89_default_refuted, C92_single_refuted, C94_after_episode, C94_training_starts_fresh, C96_act, C97_fit, C97_support, C98_symmetric, C98_possible, C98_sound, C98_refills, C98_subsequences, C98_subsequences_refuted.
* `PrimFloat.add`, `PrimFloat.div`, `PrimFloat.eqb`, `PrimFloat.float`, `PrimFloat.ltb`, `PrimFloat.mul`, `PrimFloat.sub` (primitive floats of the kernel): C09_pick_outside_queue_refuted, C09_sample_raises_and_breaks_queue_refuted, C27_float_end_refuted, C32_normalize_float_refuted.
* `ClassicalDedekindReals.sig_forall_dec`, `FunctionalExtensionality.functional_extensionality_dep`: C100_windows, C100_average, C100_process, C100_between, C100_bias, C100_optimal, C100_exploration_refuted, C102_gradient, C102_objective, C102_bound, C102_deterministic, C102_stochastic_refuted, C102_semigradient, C102_clipped, C102_clipped_refuted, C103_critic, C103_return, C105_fisher_psd, C106_moving_average, C106_moving_average_range, C106_moving_average_bias, C106_forgetting, C106_average_q, C106_average_q_after_evaluation, C106_average_q_of_training_refuted, C106_a2c_average_value, C106_a2c_average_value_refuted, C106_record_mean, C106_trpo_records, C10_clip_identity_inside, C110_loss, C110_one_threshold_refuted, C111_returns, C111_rest, C111_mean, C111_converges_partial, C111_diverges_refuted, C113_same_loss, C113_strict_truncation_refuted, C113_same_update_partial, C113_mid_episode_refuted, C16_batch_experiences, C32_additive_gaussian, C39_trust_region, C40_unbiased, C40_untruncated, C40_sampled_correction, C40_weights_bounded, C40_zero_behaviour_probability_refuted, C59_discrete_coefficients, C43_most_probable, C42_maximum_mu_admissible, C42_maximum_diagonal_partial, C42_advantage_mu_admissible, C42_advantage_diagonal_partial, C42_greedy_admissible, C48_state_values, C48_ddpg_one_step_partial, C48_ddpg_n_step_refuted, C60_advantage_learning, C60_persistent_advantage_learning, C61_weighted_loss, C61_unit_weights, C61_huber, C61_reported_errors, C62_quantile_loss_refuted, C62_quantile_loss_mirrored_partial, C52_pcl_weights_refuted, C52_pcl_weights_lengths_refuted, C52_pcl_weights_sorted_partial, C52_pcl_weights_partial, C52_pcl_equal_weights_partial, C63_pcl_batched_replay, C64_pcl_loss, C64_pcl_zero_loss, C71_max, C71_advantage, C71_slices, C71_distributional, C71_distributional_range, C71_quantiles, C71_dueling, C72_muladd, C72_sum_arrays, C72_weighted_sum_arrays, C72_lower_triangular, C72_scale_grad, C72_invert_gradients, C72_invert_large_step_refuted, C73_value_loss, C73_value_flat, C73_explained_variance, C80_independent_refuted, C80_late_one_layer_refuted, C81_average, C81_average_bounded, C81_constant, C82_penalty, C84_orthogonal, C84_modes, C84_documented_shape_refuted, C85_closed, C85_open, C85_steps, C85_after_close, C87_critic_loss, C87_average_bounds, C87_td3_update, C87_td3_count, C87_smoothing, C88_batch, C88_closed, C88_scale, C90_advantages, C91_regression, C91_contraction, C91_unique, C91_converges, C91_upper, C91_greedy, C91_sarsa, C92_a3c, C92_environments, C92_gae_one, C95_episodes, C96_critic, C96_actor, C96_actor_lstm, C96_actor_lstm_refuted, C96_burn_in_refuted, C96_equal_lengths, C96_weights_refuted, C96_not_recurrent_refuted, C96_vectorised_refuted, C96_update, C97_means, C97_learns, C97_policy, C97_narrow_refuted, C98_uniform, C98_mean, C98_replay, C98_transitions, C98_episodes.
* `ClassicalDedekindReals.sig_forall_dec`, `ClassicalDedekindReals.sig_not_dec`, `FunctionalExtensionality.functional_extensionality_dep`: C100_contraction, C100_sarsa, C103_optimal_refuted, C105_best, C105_beats_gradient, C105_reparametrize, C105_reparametrize_damped_refuted, C107_statistics, C107_order, C107_monotone, C107_scale, C107_always, C109_first_ratio, C110_network, C110_thresholds, C110_deterministic, C56_ou_closed_form, C56_ou_stationary, C35_population_statistics, C35_split_independent, C35_until, C35_normalize, C35_inverse, C35_clip, C35_update_uses_one_statistics_refuted, C35_normalize_and_update, C35_normalize_after_load_refuted, C42_positive_definite, C42_positive_definite_1, C42_maximum_clipped_refuted, C53_conjugate_gradient, C53_exact_solution, C53_zero_right_hand_side_refuted, C38_step_within_quadratic_kl, C71_distributional_dueling, C73_policy_loss, C73_loss, C73_gain_bounds, C73_standardized, C73_minibatch_standardized, C73_recurrent_equal_advantages_refuted, C73_trpo_gain, C78_noise, C78_forward, C78_mean, C78_initial_scale, C80_deterministic, C80_independent_partial, C80_fixed, C80_distributional, C80_mlp_bn, C80_bn_quadratic_refuted, C80_documented_mean_refuted, C81_normalized_partial, C81_small_rewards_refuted, C81_large_rewards_refuted, C81_tau_one_refuted, C82_training, C82_steps, C82_documented_eps_refuted, C83_probability, C83_distribution, C83_cold, C83_rejects, C84_lengths, C84_constant, C84_torch, C87_sac_update, C87_target_networks, C91_exists, C91_dqn, C91_advantage_learning, C95_values.
* `ClassicalDedekindReals.sig_forall_dec`, `ClassicalDedekindReals.sig_not_dec`, `Classical_Prop.classic`, `FunctionalExtensionality.functional_extensionality_dep`: C103_actor, C103_rest, C103_best, C103_no_entropy, C103_near_optimal, C105_fisher, C105_quadratic, C105_search_succeeds, C105_first_accepted, C109_normalizer_refuted, C10_beta_schedule, C10_weights_normalised, C10_priorities, C113_loss_parts, C32_bound_by_tanh, C59_retrace, C59_continuous_coefficients, C41_between_mean_and_max, C41_monotone, C41_non_expansion, C41_root_bracketed, C41_maximum_entropy_partial, C41_configured_omega_refuted, C43_softmax_proper, C43_entropy, C43_categorical_kl, C43_gaussian_kl, C43_gaussian_mode, C43_gaussian_closed_forms, C43_tanh_log_det, C43_squashed_sample, C48_n_step_targets, C60_dpp_operators, C60_dpp_gaps, C60_dpp_greedy, C71_expectation, C72_arctanh, C73_gain_derivative, C77_continuous, C80_gaussian, C80_no_hidden_layers, C83_order, C83_hot, C83_negative_refuted, C87_temperature, C87_initial_temperature, C87_best_policy, C87_burnin, C88_reinforce, C88_a3c, C88_local, C88_discount_refuted, C88_ascent, C88_differentiable, C88_value, C90_ppo, C90_trpo, C90_episodes, C90_differentiable, C90_inexact_values_refuted, C90_importance, C90_divergence, C90_stationary, C90_fisher, C91_nonexpansive, C91_boltzmann_refuted, C93_value, C93_sac_evaluation, C93_sac_improvement, C93_sac_stationary, C93_optimal, C93_pcl, C93_pcl_random_refuted, C95_fixed_point, C95_contracts, C95_converges, C95_untruncated_refuted, C97_losses, C97_priorities, C97_best_fit, C99_expected, C99_unbiased, C99_batch, C99_batch_refuted, C99_whole, C99_whole_refuted.
* `ClassicalDedekindReals.sig_forall_dec`: C113_same_history, C42_lower_triangular, C71_double_advantage, C80_mlp, C80_state_action, C80_late, C85_resets, C85_failed_reset_refuted, C85_types_refuted, C92_pieces, C94_between_episodes, C94_same_training, C94_anytime, C94_inside_refuted, C94_training_mode_refuted, C94_deterministic, C94_actions, C94_deterministic_refuted.
