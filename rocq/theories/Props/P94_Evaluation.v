(** C94: evaluating an agent does not change what it learns, and deterministic evaluation is
    deterministic. *)
From Coq Require Import Reals List Bool.
From Verif Require Import Base.PyBase Model.ActEval Spec.ActEvalSpec Proofs.ActEvalProofs.
Import ListNotations.

(** Every agent: an evaluation between two episodes of training leaves everything that training uses as it was, apart
    from the random generators if actions are sampled, provided that the layers of the model are quiet in the mode in which the agent calls
    it. *)
Theorem C94_between_episodes : forall Obs Act Out Par Hid Rng Rest Step
  (forward : bool -> Par -> Hid -> Obs -> Rng -> Out * Hid * Par * Rng) (critic : bool -> Par -> Hid -> Obs -> Act -> Rng -> R * Hid * Par * Rng)
  most_probable sample max_value greedy_random fresh (flush : list Step -> Rest -> Rest) decay,
  (forall r, flush [] r = r) -> forall k deterministic ops g, suited k forward critic -> between fresh k g ->
  let g' := snd (evaluation forward critic most_probable sample max_value greedy_random fresh flush decay k deterministic (ops ++ [EvStop]) g) in
  training_part g' = training_part g /\ (chooses k deterministic = true -> g_rng g' = g_rng g).
Proof. exact @undisturbed. Qed.
(** That is where an episode of training leaves the agent, *)
Theorem C94_after_episode : forall Obs Act Par Hid Rng Rest Step (fresh : Hid) (flush : list Step -> Rest -> Rest) k (g : agent Obs Act Par Hid Rng Rest Step),
  between fresh k (end_training_episode fresh flush k g).
Proof. exact @after_episode. Qed.
(** with a fresh recurrent state for its next episode, *)
Theorem C94_training_starts_fresh : forall Obs Act Par Hid Rng Rest Step (fresh : Hid) (flush : list Step -> Rest -> Rest) k (g : agent Obs Act Par Hid Rng Rest Step),
  never_recurrent k = false -> training_hid k (end_training_episode fresh flush k g) = fresh.
Proof. exact @starts_training_fresh. Qed.
(** so how often an agent is evaluated does not change the training, to the last random number. *)
Theorem C94_same_training : forall Obs Act Out Par Hid Rng Rest Step
  (forward : bool -> Par -> Hid -> Obs -> Rng -> Out * Hid * Par * Rng) (critic : bool -> Par -> Hid -> Obs -> Act -> Rng -> R * Hid * Par * Rng)
  most_probable sample max_value greedy_random fresh (flush : list Step -> Rest -> Rest) decay,
  (forall r, flush [] r = r) -> forall k deterministic l g g', suited k forward critic -> chooses k deterministic = true ->
  well_placed (between fresh k) l g -> training_state g' = training_state g ->
  let evaluate := fun ops g => snd (evaluation forward critic most_probable sample max_value greedy_random fresh flush decay k deterministic ops g) in
  training_state (sessions evaluate l g') = training_state (sessions evaluate (without_evaluations l) g).
Proof. exact @same_training. Qed.
(** DQN, IQN, PPO and TRPO can be evaluated at any time, also within an episode. *)
Theorem C94_anytime : forall Obs Act Out Par Hid Rng Rest Step
  (forward : bool -> Par -> Hid -> Obs -> Rng -> Out * Hid * Par * Rng) (critic : bool -> Par -> Hid -> Obs -> Act -> Rng -> R * Hid * Par * Rng)
  most_probable sample max_value greedy_random fresh (flush : list Step -> Rest -> Rest) decay,
  (forall r, flush [] r = r) -> forall k deterministic ops g, suited k forward critic -> own_test_state k = true ->
  let g' := snd (evaluation forward critic most_probable sample max_value greedy_random fresh flush decay k deterministic ops g) in
  training_part g' = training_part g /\ (chooses k deterministic = true -> g_rng g' = g_rng g).
Proof. exact @undisturbed_anytime. Qed.
(** The other agents cannot: their model keeps one recurrent state, or stop_episode closes the episode in the replay buffer. *)
Theorem C94_inside_refuted : forall k, own_test_state k = false -> match k with A2C | A2CBatch => False | _ => True end -> exists forward, quiet (forward true) /\ quiet (forward false) /\
  forall deterministic, exists g, training_part (snd (run_toy forward k deterministic [EvAct 0; EvStop] g)) <> training_part g.
Proof. exact disturbed_inside. Qed.
(** A3C, ACER, PCL, REINFORCE, NSQ and A2C call the model in training mode also when they are evaluated: with batch normalisation,
    which is quiet in test mode, an evaluation changes the model. *)
Theorem C94_training_mode_refuted : forall k, test_mode k = false -> exists forward, quiet (forward false) /\ forall deterministic, exists g, between 0 k g /\
  g_par (snd (run_toy forward k deterministic [EvAct 0; EvStop] g)) <> g_par g.
Proof. exact trains_while_tested. Qed.
(** The actions in a deterministic evaluation do not depend on the random generators, *)
Theorem C94_deterministic : forall Obs Act Out Par Hid Rng Rest Step
  (forward : bool -> Par -> Hid -> Obs -> Rng -> Out * Hid * Par * Rng) (critic : bool -> Par -> Hid -> Obs -> Act -> Rng -> R * Hid * Par * Rng)
  most_probable sample max_value greedy_random fresh (flush : list Step -> Rest -> Rest) decay k deterministic ops g r,
  suited k forward critic -> chooses k deterministic = true ->
  fst (evaluation forward critic most_probable sample max_value greedy_random fresh flush decay k deterministic ops (set_rng g r)) =
  fst (evaluation forward critic most_probable sample max_value greedy_random fresh flush decay k deterministic ops g).
Proof. exact @repeatable. Qed.
(** they are the most probable (greedy) actions of the model with the parameters of that time, which starts every episode from a fresh state whatever
    training is doing (PGT, whose critic shares the state, is left out), *)
Theorem C94_actions : forall Obs Act Out Par Hid Rng Rest Step
  (forward : bool -> Par -> Hid -> Obs -> Rng -> Out * Hid * Par * Rng) (critic : bool -> Par -> Hid -> Obs -> Act -> Rng -> R * Hid * Par * Rng)
  most_probable sample max_value greedy_random fresh (flush : list Step -> Rest -> Rest) decay k deterministic (out : Par -> Hid -> Obs -> Out) next,
  chooses k deterministic = true -> k <> PGT -> (forall p h o r, forward (negb (test_mode k)) p h o r = (out p h o, next p h o, p, r)) ->
  (never_recurrent k = true -> forall p h o, next p h o = h) -> forall eps g, starts_fresh fresh k g ->
  let z := evaluation forward critic most_probable sample max_value greedy_random fresh flush decay k deterministic (whole_episodes eps) g in
  fst z = flat_map (fun os => map most_probable (outputs out next (g_par g) fresh os)) eps /\ starts_fresh fresh k (snd z).
Proof. exact @evaluated_actions. Qed.
(** but batch_act of A2C samples even if act_deterministically is set, and so do DDPG and TD3, which have no such option. *)
Theorem C94_deterministic_refuted : forall k, k = A2CBatch \/ k = DDPG \/ k = TD3 -> exists forward, quiet (forward true) /\ quiet (forward false) /\
  exists g r, fst (run_toy forward k true [EvAct 0] (set_rng g r)) <> fst (run_toy forward k true [EvAct 0] g).
Proof. exact random_though_asked. Qed.
Print Assumptions C94_between_episodes.
Print Assumptions C94_after_episode.
Print Assumptions C94_training_starts_fresh.
Print Assumptions C94_same_training.
Print Assumptions C94_anytime.
Print Assumptions C94_inside_refuted.
Print Assumptions C94_training_mode_refuted.
Print Assumptions C94_deterministic.
Print Assumptions C94_actions.
Print Assumptions C94_deterministic_refuted.

(** A recurrent model that meets the hypotheses for all agents that may be recurrent, a training in which evaluations take
    place, and what such an evaluation does. *)
Definition sum_forward (train : bool) (p h o r : nat) : nat * nat * nat * nat := (p + h + o, h + o, p, r).
Definition step_toy (g : agent nat nat nat nat nat nat nat) : agent nat nat nat nat nat nat nat :=
  mk_agent (g_par g + 1) (g_hid g) (g_other g) (g_train_hid g) (g_test_hid g) (g_last g) (g_open g) (g_rest g + g_rng g) (g_rng g + 1) (g_average_q g).
Example C94_example :
  (forall k, never_recurrent k = false -> suited k sum_forward (fun (_ : bool) p h (_ _ : nat) r => (0%R, h, p, r))) /\
  well_placed (between 0 PCL) [Training step_toy; Evaluating [EvAct 3; EvAct 4; EvStop]; Training step_toy] (toy 1 0 [] 0) /\
  fst (run_toy sum_forward PCL true [EvAct 3; EvAct 4; EvStop] (toy 1 0 [] 0)) = [4; 8] /\
  training_state (snd (run_toy sum_forward PCL true [EvAct 3; EvAct 4; EvStop] (toy 1 0 [] 0))) = training_state (toy 1 0 [] 0).
Proof.
  repeat split.
  - exists (fun p h o => p + h + o), (fun _ h o => h + o). reflexivity.
  - exists (fun _ _ _ _ => 0%R), (fun _ h _ _ => h). reflexivity.
  - intros H'. congruence.
  - intros g g' E. unfold training_state, training_part in *. injection E as E1 E2 E3 E4 E5 E6 E7 E8. cbn. rewrite E1, E2, E3, E4, E5, E6, E7, E8. reflexivity.
  - exists [EvAct 3; EvAct 4]. reflexivity.
  - intros g g' E. unfold training_state, training_part in *. injection E as E1 E2 E3 E4 E5 E6 E7 E8. cbn. rewrite E1, E2, E3, E4, E5, E6, E7, E8. reflexivity.
Qed.
