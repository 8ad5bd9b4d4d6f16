{
 "claims": [
  {
   "property": "C01",
   "status": "proved",
   "theorems": [
    "C01_queue_refines_bounded_list"
   ],
   "note": ""
  },
  {
   "property": "C02",
   "status": "proved",
   "theorems": [
    "C02_sample_n_k_sound",
    "C02_sample_n_k_terminates"
   ],
   "note": ""
  },
  {
   "property": "C03",
   "status": "proved",
   "theorems": [
    "C03_sum_queue_refines_list",
    "C03_min_queue_refines_list"
   ],
   "note": "exact rational arithmetic"
  },
  {
   "property": "C04",
   "status": "proved",
   "theorems": [
    "C04_find_is_proportional"
   ],
   "note": "exact rational arithmetic"
  },
  {
   "property": "C05",
   "status": "proved",
   "theorems": [
    "C05_prioritized_sample",
    "C05_uniform_sample"
   ],
   "note": "exact rational arithmetic"
  },
  {
   "property": "C06",
   "status": "partial",
   "theorems": [
    "C06_buffer_refines_pair_list",
    "C06_lockstep_any_history",
    "C06_explicit_priority_not_in_max_refuted"
   ],
   "note": "proved except that priorities passed explicitly to append do not count for the default priority (refuted by a witness)"
  },
  {
   "property": "C07",
   "status": "partial",
   "theorems": [
    "C06_buffer_refines_pair_list",
    "C07_interleaved_append_refuted"
   ],
   "note": "proved when nothing is appended between sample and set_last_priority; refuted with an interleaved append on a full buffer"
  },
  {
   "property": "C08",
   "status": "proved",
   "theorems": [
    "C06_buffer_refines_pair_list",
    "C08_probabilities_sum_to_one",
    "C08_minimum_probability"
   ],
   "note": "exact rational arithmetic"
  },
  {
   "property": "C09",
   "status": "partial",
   "theorems": [
    "C09_pick_outside_queue_refuted",
    "C09_sample_raises_and_breaks_queue_refuted"
   ],
   "note": "the property is false: refuted by a witness in IEEE double arithmetic"
  },
  {
   "property": "C10",
   "status": "proved",
   "theorems": [
    "C10_beta_schedule",
    "C10_weights_normalised",
    "C10_priorities",
    "C10_clip_identity_inside"
   ],
   "note": "real arithmetic; for priorities, 0 <= error_min and eps > 0"
  },
  {
   "property": "C11",
   "status": "proved",
   "theorems": [
    "C11_windows_exact",
    "C11_windows_exact_prioritized"
   ],
   "note": ""
  },
  {
   "property": "C12",
   "status": "partial",
   "theorems": [
    "C11_windows_exact",
    "C12_capacity_with_loads_partial",
    "C12_load_restores_entries",
    "C12_load_exceeds_capacity_refuted",
    "C12_load_keeps_pending_window_refuted"
   ],
   "note": "proved for histories without load and for loads of files written with the same capacity; false for other files (witness)"
  },
  {
   "property": "C13",
   "status": "partial",
   "theorems": [
    "C13_episodic_buffer",
    "C13_last_episode_kept",
    "C13_load_v02_partial",
    "C13_load_v02_refuted"
   ],
   "note": "proved for all histories of append/stop; false after loading a v0.2 file (witness)"
  },
  {
   "property": "C14",
   "status": "partial",
   "theorems": [
    "C14_capacity_accounting_partial",
    "C14_flat_view_refuted",
    "C14_long_episode_refuted",
    "C14_load_accounting_refuted"
   ],
   "note": "capacity accounting proved for all histories without load; the flat view claim and the claim across load are false (witnesses)"
  },
  {
   "property": "C15",
   "status": "proved",
   "theorems": [
    "C15_random_subseq",
    "C15_every_block_possible"
   ],
   "note": ""
  },
  {
   "property": "C16",
   "status": "proved",
   "theorems": [
    "C16_batch_experiences"
   ],
   "note": "real arithmetic"
  },
  {
   "property": "C17",
   "status": "proved",
   "theorems": [
    "C17_updater_schedule"
   ],
   "note": ""
  },
  {
   "property": "C18",
   "status": "proved",
   "theorems": [
    "C18_training_protocol"
   ],
   "note": ""
  },
  {
   "property": "C19",
   "status": "partial",
   "theorems": [
    "C19_checkpoints_partial",
    "C19_last_step_refuted"
   ],
   "note": "checkpoints proved for every step strictly before the last one; the last step gets none (witness)"
  },
  {
   "property": "C20",
   "status": "partial",
   "theorems": [
    "C20_batch_training_protocol_partial",
    "C20_zero_score_refuted"
   ],
   "note": "protocol, step count, checkpoints, reset flags and exception handling proved; a successful evaluation with score exactly 0 does not stop the training (witness), and one iteration is made even if steps <= step_offset"
  },
  {
   "property": "C21",
   "status": "partial",
   "theorems": [
    "C21_async_training_partial",
    "C21_no_deadlock",
    "C21_step_offset_refuted"
   ],
   "note": "everything except step_offset: the counter starts at 0 whatever step_offset is (witness)"
  },
  {
   "property": "C22",
   "status": "proved",
   "theorems": [
    "C22_evaluator"
   ],
   "note": ""
  },
  {
   "property": "C23",
   "status": "partial",
   "theorems": [
    "C23_async_evaluator_partial",
    "C23_float_max_refuted"
   ],
   "note": "everything with the maximum taken over the single precision values of the scores; the exact maximum is refuted (an equal score is saved again as better)"
  },
  {
   "property": "C24",
   "status": "proved",
   "theorems": [
    "C24_evaluation_episodes"
   ],
   "note": ""
  },
  {
   "property": "C25",
   "status": "proved",
   "theorems": [
    "C25_batch_evaluation"
   ],
   "note": ""
  },
  {
   "property": "C26",
   "status": "partial",
   "theorems": [
    "C26_demonstrations_partial",
    "C26_max_episode_len_refuted"
   ],
   "note": "everything except the length bound, which is max_episode_len + 1 (witness)"
  },
  {
   "property": "C27",
   "status": "partial",
   "theorems": [
    "C27_linear_decay",
    "C27_epsilon_greedy_history",
    "C27_constant_epsilon",
    "C27_interpolation_hook",
    "C27_zero_steps_refuted",
    "C27_float_end_refuted"
   ],
   "note": "proved in exact arithmetic; with decay_steps = 0 the explorer raises, and in double precision the value just before the end can lie beyond the end value (witnesses)"
  },
  {
   "property": "C28",
   "status": "proved",
   "theorems": [
    "C28_frame_stack",
    "C28_vector_frame_stack"
   ],
   "note": ""
  },
  {
   "property": "C29",
   "status": "partial",
   "theorems": [
    "C29_multiprocess_is_serial_partial",
    "C29_short_actions_refuted",
    "C29_env_exception_refuted",
    "C29_seed_refuted"
   ],
   "note": "equal for well-shaped calls whose envs raise nothing; ill-shaped calls, env exceptions and seed differ (witnesses); close, spec and get_spaces are in C104"
  },
  {
   "property": "C30",
   "status": "partial",
   "theorems": [
    "C30_max_and_skip_partial",
    "C30_stale_observation_refuted",
    "C30_action_repeat",
    "C30_episodic_life_partial",
    "C30_lost_game_over_refuted",
    "C30_noop_reset",
    "C30_noop_observation",
    "C30_fire_reset_partial",
    "C30_fire_reset_stale_refuted",
    "C30_clip_reward"
   ],
   "note": "the remaining parts are refuted: stale observation after an early stop, lost game over in the no-op step of a life reset, stale observation from the fire reset"
  },
  {
   "property": "C31",
   "status": "proved",
   "theorems": [
    "C31_continuing_time_limit",
    "C31_timestep_limited"
   ],
   "note": ""
  },
  {
   "property": "C32",
   "status": "partial",
   "theorems": [
    "C32_normalize_action",
    "C32_normalized_env",
    "C32_randomize_action",
    "C32_bound_by_tanh",
    "C32_additive_gaussian",
    "C32_normalize_float_refuted"
   ],
   "note": "proved in exact and real arithmetic; in double precision NormalizeActionSpace can leave the box by a rounding error (witness)"
  },
  {
   "property": "C33",
   "status": "proved",
   "theorems": [
    "C33_projection",
    "C33_categorical_target",
    "C33_categorical_double_target"
   ],
   "note": "exact rational arithmetic; evenly spaced atoms"
  },
  {
   "property": "C34",
   "status": "partial",
   "theorems": [
    "C34_hard_sync",
    "C34_soft_sync",
    "C34_sync_never_silent",
    "C34_copy_grad",
    "C47_single_mode",
    "C47_batch_mode",
    "C34_single_batch_schedule_refuted"
   ],
   "note": "synchronisation proved in exact arithmetic, schedules proved exactly; single mode counts steps from 0 and batch mode from 1, so the two modes synchronise at different steps (witness)"
  },
  {
   "property": "C35",
   "status": "proved",
   "theorems": [
    "C35_population_statistics",
    "C35_split_independent",
    "C35_until",
    "C35_normalize",
    "C35_inverse",
    "C35_clip",
    "C35_normalize_and_update",
    "C35_update_uses_one_statistics_refuted",
    "C35_normalize_after_load_refuted"
   ],
   "note": "real arithmetic; the two refuted theorems are extra findings about update=True and loading"
  },
  {
   "property": "C36",
   "status": "proved",
   "theorems": [
    "C36_gae",
    "C36_gae_lambda_one",
    "C36_gae_lambda_zero",
    "C36_a2c_returns",
    "C36_async_returns",
    "C36_async_segments"
   ],
   "note": "exact rational arithmetic; use_average_reward off"
  },
  {
   "property": "C37",
   "status": "partial",
   "theorems": [
    "C37_limit",
    "C37_minibatches",
    "C37_any_dataset_size_refuted"
   ],
   "note": "proved for every dataset, including the IndexError when the minibatch size does not divide the dataset size; that case is reachable in batch mode (witness), so the property does not hold there"
  },
  {
   "property": "C38",
   "status": "proved",
   "theorems": [
    "C38_line_search",
    "C38_candidates",
    "C38_step_within_quadratic_kl"
   ],
   "note": "gain and KL of each candidate are an oracle (may be nan or infinite); parameters exact rationals; the trust-region step in real arithmetic"
  },
  {
   "property": "C39",
   "status": "proved",
   "theorems": [
    "C39_trust_region"
   ],
   "note": "real arithmetic; gradients are given vectors"
  },
  {
   "property": "C40",
   "status": "proved",
   "theorems": [
    "C40_unbiased",
    "C40_untruncated",
    "C40_sampled_correction",
    "C40_weights_bounded",
    "C40_zero_behaviour_probability_refuted"
   ],
   "note": "real arithmetic; the refuted theorem is an extra finding outside the hypotheses (behaviour probability zero)"
  },
  {
   "property": "C41",
   "status": "partial",
   "theorems": [
    "C41_between_mean_and_max",
    "C41_monotone",
    "C41_non_expansion",
    "C41_root_bracketed",
    "C41_maximum_entropy_partial",
    "C41_configured_omega_refuted"
   ],
   "note": "real arithmetic; mellowmax itself is fully proved; the maximum-entropy policy is proved for omega = 1 only, because the code ignores the configured omega (refuted theorem)"
  },
  {
   "property": "C42",
   "status": "partial",
   "theorems": [
    "C42_lower_triangular",
    "C42_positive_definite",
    "C42_positive_definite_1",
    "C42_maximum_mu_admissible",
    "C42_maximum_diagonal_partial",
    "C42_advantage_mu_admissible",
    "C42_advantage_diagonal_partial",
    "C42_greedy_admissible",
    "C42_maximum_clipped_refuted"
   ],
   "note": "real arithmetic; layout, positive definiteness and the maximum are proved when mu is within the bounds or the matrix is diagonal; for a clipped mu and a non-diagonal matrix the property is false of the code (refuted theorem)"
  },
  {
   "property": "C43",
   "status": "proved",
   "theorems": [
    "C43_softmax_proper",
    "C43_entropy",
    "C43_categorical_kl",
    "C43_most_probable",
    "C43_gaussian_kl",
    "C43_gaussian_mode",
    "C43_gaussian_closed_forms",
    "C43_tanh_log_det",
    "C43_squashed_sample"
   ],
   "note": "real arithmetic, one row of a batch; that the Gaussian density integrates to one is not modelled"
  },
  {
   "property": "C44",
   "status": "partial",
   "theorems": [
    "C44_get_of_concatenate",
    "C44_concatenate_of_get",
    "C44_mask",
    "C44_get_total",
    "C44_split_of_concat",
    "C44_forward",
    "C44_forward_alone",
    "C44_one_step",
    "C44_resume",
    "C44_tuple_sequences_refuted"
   ],
   "note": "Proved for sequences given as arrays, every link structure, batch size and lengths. Refuted for sequences given as tuples of arrays: the split sections are computed from len() of the tuple."
  },
  {
   "property": "C45",
   "status": "partial",
   "theorems": [
    "C45_kept_partial",
    "C45_reset_partial",
    "C45_kept_state_partial",
    "C45_reset_state_partial",
    "C45_exceptions_propagate",
    "C45_fresh_refuted",
    "C45_exception_refuted",
    "C45_stale_stack_refuted"
   ],
   "note": "Proved for every link structure, nesting and body without exceptions, for evaluated LSTMs. Refuted for fresh LSTMs and for bodies that raise."
  },
  {
   "property": "C46",
   "status": "partial",
   "theorems": [
    "C46_round_trip_partial",
    "C46_files",
    "C46_save_rejects_cycles",
    "C46_load_fails_on_cycles_partial",
    "C46_load_cycle_refuted",
    "C46_fresh_state_refuted"
   ],
   "note": "Proved: round trip for every acyclic attribute graph for all entries in the files, and rejection of every cycle by save. Refuted: load recurses without end on a cycle through two agents; entries that did not exist when saving keep their later values."
  },
  {
   "property": "C47",
   "status": "proved",
   "theorems": [
    "C47_single_mode",
    "C47_single_mode_runs",
    "C47_batch_mode",
    "C47_buffer_after_interaction"
   ],
   "note": ""
  },
  {
   "property": "C48",
   "status": "partial",
   "theorems": [
    "C48_n_step_targets",
    "C48_state_values",
    "C48_ddpg_one_step_partial",
    "C48_ddpg_n_step_refuted"
   ],
   "note": "real arithmetic, feed-forward networks as functions; proved for DQN, double DQN, SARSA, DPP, TD3, SAC, PGT and IQN; DDPG is proved for one-step windows only, and refuted for longer ones"
  },
  {
   "property": "C49",
   "status": "partial",
   "theorems": [
    "C49_sumtree_total",
    "C49_sumtree_reads",
    "C49_sumtree_default_refuted",
    "C49_sumtree_pick",
    "C49_sumtree_sample"
   ],
   "note": "For every history at arbitrary integers: no call fails, the total is the sum, reads return the last value written, picks and samples are proportional. Refuted part: reading an index outside the range allocated so far raises AssertionError (TypeError on a fresh tree) instead of returning 0. Exact rationals, not floats."
  },
  {
   "property": "C50",
   "status": "proved",
   "theorems": [
    "C50_reinforce_updates",
    "C50_reinforce_no_raise",
    "C50_reinforce_empty_episode_refuted"
   ],
   "note": "Both modes; gradients are modelled as the list of loss terms back-propagated since the last cleargrads. An episode completed before any action raises (the refuted theorem records it)."
  },
  {
   "property": "C51",
   "status": "proved",
   "theorems": [
    "C51_nsq_counter",
    "C51_nsq_sync_once",
    "C51_nsq_quiescent",
    "C51_nsq_steps",
    "C51_nsq_order_refuted"
   ],
   "note": "Every schedule of any number of processes. The copies are made outside the lock, so their order is not that of the counter (the refuted theorem)."
  },
  {
   "property": "C52",
   "status": "partial",
   "theorems": [
    "C52_pcl_weights_refuted",
    "C52_pcl_weights_lengths_refuted",
    "C52_pcl_weights_sorted_partial",
    "C52_pcl_weights_partial",
    "C52_pcl_equal_weights_partial"
   ],
   "note": "Refuted: the losses are in the order of decreasing length and the weights in the order of sampling. Proved for equal weights and for strictly decreasing lengths."
  },
  {
   "property": "C53",
   "status": "partial",
   "theorems": [
    "C53_conjugate_gradient",
    "C53_exact_solution",
    "C53_zero_right_hand_side_refuted"
   ],
   "note": "real arithmetic; proved for every non-zero right-hand side; for b = 0 the code divides zero by zero"
  },
  {
   "property": "C54",
   "status": "proved",
   "theorems": [
    "C54_sample_without_replacement"
   ],
   "note": "up to termination of the rejection loop (C02)"
  },
  {
   "property": "C55",
   "status": "proved",
   "theorems": [
    "C55_prioritized_rounds"
   ],
   "note": "exact rational arithmetic; rounds of sample followed by update_errors"
  },
  {
   "property": "C56",
   "status": "proved",
   "theorems": [
    "C56_ou_closed_form",
    "C56_ou_stationary"
   ],
   "note": "real arithmetic; normal(loc, scale) modelled as loc + scale * standard draw"
  },
  {
   "property": "C57",
   "status": "proved",
   "theorems": [
    "C57_td3_delayed_updates"
   ],
   "note": ""
  },
  {
   "property": "C58",
   "status": "proved",
   "theorems": [
    "C58_single_mode",
    "C58_batch_mode"
   ],
   "note": "collection of transitions; losses and recurrent states not modelled"
  },
  {
   "property": "C59",
   "status": "proved",
   "theorems": [
    "C59_retrace",
    "C59_discrete_coefficients",
    "C59_continuous_coefficients"
   ],
   "note": "real arithmetic"
  },
  {
   "property": "C60",
   "status": "proved",
   "theorems": [
    "C60_advantage_learning",
    "C60_persistent_advantage_learning",
    "C60_dpp_operators",
    "C60_dpp_gaps",
    "C60_dpp_greedy"
   ],
   "note": "real arithmetic"
  },
  {
   "property": "C61",
   "status": "proved",
   "theorems": [
    "C61_weighted_loss",
    "C61_unit_weights",
    "C61_huber",
    "C61_reported_errors"
   ],
   "note": "real arithmetic"
  },
  {
   "property": "C62",
   "status": "partial",
   "theorems": [
    "C62_quantile_loss_mirrored_partial",
    "C62_quantile_loss_refuted"
   ],
   "note": "false as stated: the code weighs an under-prediction by 1 - tau; proved that the loss is the one for 1 - tau"
  },
  {
   "property": "C63",
   "status": "proved",
   "theorems": [
    "C63_pcl_batched_replay",
    "C63_pcl_same_episodes"
   ],
   "note": "Feed-forward models, real arithmetic, contiguous non-empty episodes."
  },
  {
   "property": "C64",
   "status": "proved",
   "theorems": [
    "C64_pcl_loss",
    "C64_pcl_zero_loss"
   ],
   "note": "Values only; which parts are back-propagated is not modelled."
  },
  {
   "property": "C65",
   "status": "proved",
   "theorems": [
    "C65_states",
    "C65_separate",
    "C65_replay",
    "C65_replay_targets",
    "C65_replay_as_acted"
   ],
   "note": "States up to None standing for zeros. Layers act row by row; rewards, actions and terminal flags are in the model of C47."
  },
  {
   "property": "C66",
   "status": "partial",
   "theorems": [
    "C66_states_partial",
    "C66_training_undisturbed",
    "C66_evaluation_undisturbed_refuted"
   ],
   "note": "Proved: stored and used states for every history, and evaluation never disturbs training. Refuted: stop_episode_and_train also clears the evaluation state, so training can disturb evaluation."
  },
  {
   "property": "C67",
   "status": "proved",
   "theorems": [
    "C67_stored_episodes",
    "C67_never_fails",
    "C67_buffer"
   ],
   "note": ""
  },
  {
   "property": "C68",
   "status": "partial",
   "theorems": [
    "C68_stored_episodes",
    "C68_never_fails",
    "C68_unbroken",
    "C68_serial_vector_env",
    "C68_shared_evaluation_refuted",
    "C68_stop_episode_refuted"
   ],
   "note": "Holds when evaluations use a vector environment of their own; by default they use the training environment in the middle of its episodes and stored episodes are broken there (refuted); with a non-vector evaluation environment stop_episode cuts the running episode of environment 0 for DDPG, PGT, TD3 and SAC (refuted)."
  },
  {
   "property": "C69",
   "status": "partial",
   "theorems": [
    "C69_stored_episodes",
    "C69_schedule",
    "C69_batch_stored_episodes",
    "C69_a2c_fresh",
    "C69_a2c_refuted",
    "C69_a3c_refuted",
    "C69_acer_pcl_refuted"
   ],
   "note": "Proved for the off-policy agents. Refuted for A2C (AttributeError in the first round for every positive offset) and for A3C, NSQ, ACER and PCL (an exception in the first episode for every positive offset)."
  },
  {
   "property": "C70",
   "status": "partial",
   "theorems": [
    "C70_interaction",
    "C70_segments",
    "C70_pcl_default_refuted"
   ],
   "note": "Proved for every configuration except PCL without a replay buffer, its default, where the second call of every first episode raises (refuted)."
  },
  {
   "property": "C71",
   "status": "proved",
   "theorems": [
    "C71_max",
    "C71_evaluate",
    "C71_advantage",
    "C71_double_advantage",
    "C71_expectation",
    "C71_slices",
    "C71_distributional",
    "C71_distributional_range",
    "C71_quantiles",
    "C71_dueling",
    "C71_distributional_dueling"
   ],
   "note": "Real arithmetic; the layers below the heads are arbitrary."
  },
  {
   "property": "C72",
   "status": "partial",
   "theorems": [
    "C72_arctanh",
    "C72_muladd",
    "C72_sum_arrays",
    "C72_weighted_sum_arrays",
    "C72_lower_triangular",
    "C72_scale_grad",
    "C72_invert_gradients",
    "C72_invert_large_step_refuted"
   ],
   "note": "Everything except the last clause: invert_gradients keeps values in range only for steps not larger than the range; every larger step leaves it (refuted). CPU paths."
  },
  {
   "property": "C73",
   "status": "partial",
   "theorems": [
    "C73_policy_loss",
    "C73_loss",
    "C73_minibatch_standardized",
    "C73_gain_bounds",
    "C73_gain_derivative",
    "C73_value_loss",
    "C73_value_flat",
    "C73_standardized",
    "C73_recurrent_equal_advantages_refuted",
    "C73_explained_variance",
    "C73_trpo_gain"
   ],
   "note": "Everything except that every dataset is accepted: the recurrent update raises AssertionError exactly for datasets with equal advantages (refuted). Exact real arithmetic; backpropagation through the network is not modelled."
  },
  {
   "property": "C74",
   "status": "proved",
   "theorems": [
    "C74_passes",
    "C74_zero_minibatch",
    "C74_empty"
   ],
   "note": "The iterator is chainer's, modelled after its documented behaviour; the loops are the repository's."
  },
  {
   "property": "C75",
   "status": "partial",
   "theorems": [
    "C75_share",
    "C75_one_model",
    "C75_attach",
    "C75_unknown_parameter_refuted",
    "C75_optimizer_item_size_refuted",
    "C75_own_seeds",
    "C75_run_async_seeds_refuted"
   ],
   "note": "Everything except three clauses refuted: a parameter missing from the shared collection silently stays private; optimizer states that are not four bytes wide raise ValueError; run_async alone seeds all forked processes alike. Writes to one array are atomic in the model."
  },
  {
   "property": "C76",
   "status": "partial",
   "theorems": [
    "C76_step",
    "C76_step_after_end",
    "C76_reset",
    "C76_episode",
    "C76_game_over_in_reset_refuted"
   ],
   "note": "Everything except that an episode can be stepped after reset: if the random null actions end the game, every step raises AssertionError (refuted). Image processing is opaque."
  },
  {
   "property": "C77",
   "status": "partial",
   "theorems": [
    "C77_episodic",
    "C77_episodic_return",
    "C77_nonepisodic",
    "C77_nonepisodic_best",
    "C77_never_fails",
    "C77_reset",
    "C77_continuous",
    "C77_documented_shift_refuted"
   ],
   "note": "Everything except the documented shift: deterministic partially observable episodes are shifted when n is odd, the opposite of the documentation (refuted)."
  },
  {
   "property": "C78",
   "status": "partial",
   "theorems": [
    "C78_convert",
    "C78_parameters",
    "C78_bare_link_refuted",
    "C78_policy_refuted",
    "C78_twice_refuted",
    "C78_shared_refuted",
    "C78_repeated_refuted",
    "C78_noise",
    "C78_forward",
    "C78_mean",
    "C78_initial_scale"
   ],
   "note": "Proved for networks without sharing that have no noisy layers yet.  Refuted for a bare linear link (nothing happens), for policies that read plain attributes (no effect), for a second conversion and for a chain used twice (the layers then fail), and for a sequence that repeats a linear link (assertion)."
  },
  {
   "property": "C79",
   "status": "partial",
   "theorems": [
    "C79_nothing_overwritten",
    "C79_exclusive",
    "C79_complete",
    "C79_nothing_else",
    "C79_succeeds",
    "C79_refuses",
    "C79_all_or_nothing_refuted",
    "C79_fresh_repository_refuted",
    "C79_command_refuted"
   ],
   "note": "Proved for all schedules and crashes, except: a failing call leaves an incomplete directory (refuted), every call fails in a git repository without commits (refuted), and the saved command does not determine the arguments (refuted)."
  },
  {
   "property": "C80",
   "status": "partial",
   "theorems": [
    "C80_mlp",
    "C80_deterministic",
    "C80_gaussian",
    "C80_independent_partial",
    "C80_fixed",
    "C80_no_hidden_layers",
    "C80_independent_refuted",
    "C80_distributional",
    "C80_mlp_bn",
    "C80_state_action",
    "C80_late",
    "C80_late_one_layer_refuted",
    "C80_bn_quadratic_refuted",
    "C80_documented_mean_refuted",
    "C80_heads"
   ],
   "note": "Proved for all sizes and weights, except: the policy with state-independent variance has a hidden layer when none is asked for (refuted, proved with at least one); a late-action Q-function with one hidden layer ranks actions the same way in all states (refuted); the quadratic Q-function with batch normalisation lacks the nonlinearity after its last hidden layer (refuted); the documented formula of the bounded mean is not the one computed (refuted)."
  },
  {
   "property": "C81",
   "status": "partial",
   "theorems": [
    "C81_average",
    "C81_average_bounded",
    "C81_constant",
    "C81_normalized_partial",
    "C81_small_rewards_refuted",
    "C81_large_rewards_refuted",
    "C81_tau_one_refuted"
   ],
   "note": "The average filter is proved.  For the normalising filter the exact output is proved; that it never fails is false while all rewards are 0 or with tau = 1, and since eps is used as a ceiling for the variance instead of a floor, small rewards are blown up and large ones are not normalised (refuted)."
  },
  {
   "property": "C82",
   "status": "partial",
   "theorems": [
    "C82_training",
    "C82_steps",
    "C82_penalty",
    "C82_documented_eps_refuted"
   ],
   "note": "Proved for all models and gradient sequences; only the documented position of eps is wrong: it is inside the square root (refuted)."
  },
  {
   "property": "C83",
   "status": "partial",
   "theorems": [
    "C83_probability",
    "C83_distribution",
    "C83_order",
    "C83_cold",
    "C83_hot",
    "C83_rejects",
    "C83_negative_refuted"
   ],
   "note": "Proved for all temperatures except 0 and all q-values; only that negative temperatures are rejected is false (refuted)."
  },
  {
   "property": "C84",
   "status": "partial",
   "theorems": [
    "C84_orthogonal",
    "C84_lengths",
    "C84_modes",
    "C84_documented_shape_refuted",
    "C84_constant",
    "C84_torch"
   ],
   "note": "Proved for all shapes and draws; only the documented restriction that there are at most as many vectors as dimensions is not enforced by default (refuted)."
  },
  {
   "property": "C85",
   "status": "partial",
   "theorems": [
    "C85_closed",
    "C85_open",
    "C85_steps",
    "C85_resets",
    "C85_after_close",
    "C85_failed_reset_refuted",
    "C85_types_refuted"
   ],
   "note": "Proved for all histories in which a reset that raised is repeated before the next step; without that the steps before it are counted twice, and episode types are added for resets without steps (both refuted)."
  },
  {
   "property": "C86",
   "status": "proved",
   "theorems": [
    "C86_filters",
    "C86_rendered",
    "C86_render_wrapper",
    "C86_cast",
    "C86_limit_orders",
    "C86_clipped"
   ],
   "note": "Proved for all environments, histories, filters and limits."
  },
  {
   "property": "C87",
   "status": "partial",
   "theorems": [
    "C87_sac_update",
    "C87_critic_loss",
    "C87_target_networks",
    "C87_average_bounds",
    "C87_temperature",
    "C87_initial_temperature",
    "C87_best_policy",
    "C87_burnin",
    "C87_td3_update",
    "C87_td3_count",
    "C87_smoothing",
    "C87_n_times_update_refuted"
   ],
   "note": "Proved for all networks, optimizers, batches and draws; only that TD3 honours n_times_update is false (refuted)."
  },
  {
   "property": "C88",
   "status": "partial",
   "theorems": [
    "C88_reinforce",
    "C88_batch",
    "C88_a3c",
    "C88_local",
    "C88_discount_refuted",
    "C88_ascent",
    "C88_differentiable",
    "C88_closed",
    "C88_value",
    "C88_scale"
   ],
   "note": "Proved for all processes, policies and horizons; with a discount below 1 the gradient of A3C is not that of the discounted return (refuted; what it is instead is proved). use_average_reward is not modelled."
  },
  {
   "property": "C89",
   "status": "partial",
   "theorems": [
    "C89_safe",
    "C89_first",
    "C89_complete_partial",
    "C89_crash_refuted",
    "C89_once",
    "C89_temporary",
    "C89_no_deadlock",
    "C89_cached_download_refuted",
    "C89_supported",
    "C89_same_model",
    "C89_default_refuted"
   ],
   "note": "Proved for all schedules; an interruption while unpacking breaks the model for ever (refuted), a direct call of cached_download may lose its file to another process (refuted), and the default type does not exist for A3C and PPO (refuted)."
  },
  {
   "property": "C90",
   "status": "partial",
   "theorems": [
    "C90_ppo",
    "C90_trpo",
    "C90_advantages",
    "C90_episodes",
    "C90_differentiable",
    "C90_inexact_values_refuted",
    "C90_importance",
    "C90_divergence",
    "C90_stationary",
    "C90_fisher"
   ],
   "note": "Proved for lambda 1 and any values, and for any lambda with values that satisfy the Bellman equation; refuted for other values, as is inherent in the method."
  },
  {
   "property": "C91",
   "status": "partial",
   "theorems": [
    "C91_regression",
    "C91_contraction",
    "C91_exists",
    "C91_unique",
    "C91_converges",
    "C91_nonexpansive",
    "C91_boltzmann_refuted",
    "C91_dqn",
    "C91_upper",
    "C91_greedy",
    "C91_sarsa",
    "C91_advantage_learning"
   ],
   "note": "Proved except that the Boltzmann operator of DPP is not a non-expansion (refuted)."
  },
  {
   "property": "C92",
   "status": "partial",
   "theorems": [
    "C92_a3c",
    "C92_environments",
    "C92_gae_one",
    "C92_pieces",
    "C92_single_refuted"
   ],
   "note": "Proved except that act_and_train raises TypeError instead of the intended error (refuted)."
  },
  {
   "property": "C93",
   "status": "partial",
   "theorems": [
    "C93_value",
    "C93_sac_evaluation",
    "C93_sac_improvement",
    "C93_sac_stationary",
    "C93_optimal",
    "C93_pcl",
    "C93_pcl_random_refuted"
   ],
   "note": "Proved for SAC, and for PCL in environments where every action has one outcome; refuted for PCL in random environments."
  },
  {
   "property": "C94",
   "status": "partial",
   "theorems": [
    "C94_between_episodes",
    "C94_after_episode",
    "C94_training_starts_fresh",
    "C94_same_training",
    "C94_anytime",
    "C94_inside_refuted",
    "C94_training_mode_refuted",
    "C94_deterministic",
    "C94_actions",
    "C94_deterministic_refuted"
   ],
   "note": "Proved between episodes for all agents with layers that are quiet in the mode used; the refuted parts are named in the statement."
  },
  {
   "property": "C95",
   "status": "proved",
   "theorems": [
    "C95_values",
    "C95_episodes",
    "C95_fixed_point",
    "C95_contracts",
    "C95_converges",
    "C95_untruncated_refuted"
   ],
   "note": "For exact fits to the average targets; continuous actions are not covered."
  },
  {
   "property": "C96",
   "status": "partial",
   "theorems": [
    "C96_critic",
    "C96_actor",
    "C96_actor_lstm",
    "C96_actor_lstm_refuted",
    "C96_burn_in_refuted",
    "C96_equal_lengths",
    "C96_weights_refuted",
    "C96_not_recurrent_refuted",
    "C96_vectorised_refuted",
    "C96_update",
    "C96_act"
   ],
   "note": "Proved except for the refuted parts named in the statement; stochastic policies are not covered."
  },
  {
   "property": "C97",
   "status": "proved",
   "theorems": [
    "C97_losses",
    "C97_priorities",
    "C97_fit",
    "C97_best_fit",
    "C97_means",
    "C97_learns",
    "C97_policy",
    "C97_support",
    "C97_narrow_refuted"
   ],
   "note": "Processes have rational probabilities and rewards, and exact arithmetic is assumed; fitting is exact."
  },
  {
   "property": "C98",
   "status": "partial",
   "theorems": [
    "C98_symmetric",
    "C98_uniform",
    "C98_possible",
    "C98_sound",
    "C98_refills",
    "C98_mean",
    "C98_replay",
    "C98_transitions",
    "C98_episodes",
    "C98_subsequences",
    "C98_subsequences_refuted"
   ],
   "note": "Probabilities are counts of equally likely draws, with a bound on the number of redraws; runs that need more have no result. Refuted for the transitions of subsequences of episodes."
  },
  {
   "property": "C99",
   "status": "partial",
   "theorems": [
    "C99_expected",
    "C99_unbiased",
    "C99_batch",
    "C99_batch_refuted",
    "C99_whole",
    "C99_whole_refuted"
   ],
   "note": "Averages over draws are over equally spaced values of np.random.uniform, on any multiple of a grid that fits the (rational) priorities. Refuted for the default normalisation and for samples of several items."
  },
  {
   "property": "C100",
   "status": "partial",
   "theorems": [
    "C100_windows",
    "C100_average",
    "C100_process",
    "C100_contraction",
    "C100_between",
    "C100_bias",
    "C100_optimal",
    "C100_sarsa",
    "C100_exploration_refuted"
   ],
   "note": "Windows that are cut because an episode is stopped without ending are not averaged over (C48 has their targets). Refuted: that the learned policy is optimal whatever policy explores."
  },
  {
   "property": "C101",
   "status": "partial",
   "theorems": [
    "C101_reproducible",
    "C101_succeeds",
    "C101_raises",
    "C101_gpus_refuted",
    "C101_workers",
    "C101_user_seed_refuted"
   ],
   "note": "Generators are abstract: a state per source that the seed determines. Refuted: that GPUs that are not listed are covered, and that the seed of the user determines what asynchronous workers draw."
  },
  {
   "property": "C102",
   "status": "partial",
   "theorems": [
    "C102_gradient",
    "C102_objective",
    "C102_bound",
    "C102_deterministic",
    "C102_stochastic_refuted",
    "C102_semigradient",
    "C102_clipped",
    "C102_clipped_refuted"
   ],
   "note": "Derivatives where two actions tie for the maximum and recurrent networks are not covered. Refuted: that ResidualDQN rests at the optimal values of random processes, and that DQN with clipped losses always does."
  },
  {
   "property": "C103",
   "status": "partial",
   "theorems": [
    "C103_actor",
    "C103_rest",
    "C103_best",
    "C103_no_entropy",
    "C103_critic",
    "C103_return",
    "C103_near_optimal",
    "C103_optimal_refuted"
   ],
   "note": "Sets of actions are finite. Refuted: that the resting policy is optimal for positive beta."
  },
  {
   "property": "C104",
   "status": "partial",
   "theorems": [
    "C104_close",
    "C104_workers",
    "C104_constructor",
    "C104_constructor_refuted",
    "C104_spec",
    "C104_serial_spec_refuted",
    "C104_orphans_refuted",
    "C104_orphans_without_inheritance",
    "C104_after_close",
    "C104_serial_close_refuted"
   ],
   "note": "Pipes hold any number of messages; processes are forked. Refuted: a first env_fn that raises leaves the constructor waiting for ever; killing the main process leaves idle workers behind; SerialVectorEnv.spec is the observation space and its close ends nothing."
  },
  {
   "property": "C105",
   "status": "partial",
   "theorems": [
    "C105_fisher",
    "C105_fisher_psd",
    "C105_quadratic",
    "C105_best",
    "C105_beats_gradient",
    "C105_search_succeeds",
    "C105_first_accepted",
    "C105_reparametrize",
    "C105_reparametrize_damped_refuted"
   ],
   "note": "Real arithmetic and finitely many actions. Refuted: that the step is independent of the parametrization when conjugate_gradient_damping is positive, as it is by default; proved without damping."
  },
  {
   "property": "C106",
   "status": "partial",
   "theorems": [
    "C106_moving_average",
    "C106_moving_average_range",
    "C106_moving_average_bias",
    "C106_forgetting",
    "C106_average_q",
    "C106_average_q_after_evaluation",
    "C106_average_q_of_training_refuted",
    "C106_a2c_average_value",
    "C106_a2c_average_value_refuted",
    "C106_record",
    "C106_record_mean",
    "C106_trpo_records"
   ],
   "note": "Real arithmetic. Refuted: that average_q of DQN describes training only (evaluation through act counts, evaluation through batch_act does not) and that average_value of A2C is an average of values (it averages squared errors)."
  },
  {
   "property": "C107",
   "status": "proved",
   "theorems": [
    "C107_statistics",
    "C107_order",
    "C107_monotone",
    "C107_scale",
    "C107_always",
    "C107_table"
   ],
   "note": "Real arithmetic; the functions of the module statistics and of numpy are modelled by their documented results."
  },
  {
   "property": "C108",
   "status": "partial",
   "theorems": [
    "C108_atari_stack_partial",
    "C108_unlimited",
    "C108_frames",
    "C108_limit_refuted",
    "C108_resets_refuted"
   ],
   "note": "The frame limit is exceeded by one step when lives are episodes, and without bound by repeated resets after a lost life; everything else is proved. Frames are opaque."
  },
  {
   "property": "C109",
   "status": "partial",
   "theorems": [
    "C109_records",
    "C109_first_ratio",
    "C109_never_raises",
    "C109_batch_starts",
    "C109_single_starts",
    "C109_normalizer_refuted"
   ],
   "note": "With an observation normalizer the first ratio need not be 1, because the normalizer experiences the data before the first minibatch; everything else is proved. Floating point is not modelled."
  },
  {
   "property": "C110",
   "status": "partial",
   "theorems": [
    "C110_network",
    "C110_loss",
    "C110_thresholds",
    "C110_deterministic",
    "C110_one_threshold_refuted"
   ],
   "note": "With a single threshold (quantile_thresholds_K = 1) deterministic acting uses the 0-quantile, not the mean; everything else is proved, in real arithmetic."
  },
  {
   "property": "C111",
   "status": "partial",
   "theorems": [
    "C111_returns",
    "C111_rest",
    "C111_mean",
    "C111_converges_partial",
    "C111_diverges_refuted"
   ],
   "note": "Convergence is proved for one state and short updates (tau n (n+1) <= 2) and refuted for longer ones: with the default tau and updates of 31 steps the average diverges.  Values are held fixed there; tasks with several states are not treated."
  },
  {
   "property": "C112",
   "status": "partial",
   "theorems": [
    "C112_waiting_refuted",
    "C112_not_waiting_partial",
    "C112_uniform",
    "C112_duplicates_refuted"
   ],
   "note": "Refuted for the default buffer (the second sample always fails) and, without waiting, for a mix with uniform samples (the same episode twice); everything else is proved in exact arithmetic for wait_priority_after_sampling=False."
  },
  {
   "property": "C113",
   "status": "partial",
   "theorems": [
    "C113_same_loss",
    "C113_strict_truncation_refuted",
    "C113_loss_parts",
    "C113_same_history",
    "C113_same_update_partial",
    "C113_mid_episode_refuted"
   ],
   "note": "In real arithmetic, for discrete actions. Refuted for truncation thresholds below one, and for recurrent models on segments from within an episode, which are replayed from reset states."
  }
 ]
}