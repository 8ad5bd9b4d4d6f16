(** C96: DDPG learns from whole episodes with the right recurrent states. *)
From Coq Require Import Reals List Arith Bool Lra.
From Verif Require Import Base.PyBase Model.RecurrentDDPG Spec.SumSpec Spec.RecurrentDDPGSpec Proofs.RecurrentDDPGProofs.
Import ListNotations.
Local Open Scope nat_scope.
Local Open Scope R_scope.

(** An update from episodes of any number and lengths raises nothing, whatever the states of the networks were.  The critic is
    fitted, for every transition, with a prediction by the Q-function that has seen exactly the earlier steps of its episode, to a target
    by target networks that have seen exactly the steps up to the transition; the target networks stay as they are; and
    a model that had been evaluated in the current episode continues it from the state it had. *)
Theorem C96_critic : forall O A Pq Hq Pp Hp gamma (q : net Pq Hq (O * A) R) (p : net Pp Hp O A) critic_opt actor_opt w eps, n_rec q = true -> playable eps ->
  exists w', update_from_episodes gamma q p critic_opt actor_opt w eps = Ok w' /\
  w_q w' = critic_opt (w_q w) (critic_objective gamma q p (w_tq w) (w_tp w) eps) /\ w_tq w' = w_tq w /\ w_tp w' = w_tp w /\
  (s_q w <> None -> s_q w' = s_q w) /\ (n_rec p = true -> s_p w <> None -> s_p w' = s_p w).
Proof.
  exact (fun O A Pq Hq Pp Hp gamma q p co ao w eps R P => match update_ok gamma q p co ao w eps R P with
    ex_intro _ w' (conj E (conj E1 (conj _ (conj E3 (conj E4 (conj E5 E6)))))) => ex_intro _ w' (conj E (conj E1 (conj E3 (conj E4 (conj (fun H => E5 (or_introl H)) (fun R' H => E6 R' (or_introl H))))))) end).
Qed.
(** The actor, for Q-functions whose initial state can be restored: its actions are judged by the new Q-function, which has seen exactly
    the earlier steps, and all states are restored. *)
Theorem C96_actor : forall O A Pq Hq Pp Hp gamma (q : net Pq Hq (O * A) R) (p : net Pp Hp O A) critic_opt actor_opt w eps, n_rec q = true -> n_lstm q = false -> playable eps ->
  exists w', update_from_episodes gamma q p critic_opt actor_opt w eps = Ok w' /\ w_p w' = actor_opt (w_p w) (actor_objective q p (w_q w') eps) /\
  s_q w' = s_q w /\ (n_rec p = true -> n_lstm p = false -> s_p w' = s_p w).
Proof.
  intros O A Pq Hq Pp Hp gamma q p co ao w eps R L P. destruct (update_ok gamma q p co ao w eps R P) as (w' & E & _ & E2 & _ & _ & E5 & E6). rewrite L in E2.
  exact (ex_intro _ w' (conj E (conj E2 (conj (E5 (or_intror L)) (fun R' L' => E6 R' (or_intror L')))))).
Qed.
(** For Q-functions with L.LSTM the actions after the first are judged by a Q-function that has seen the first observation twice,
    first with the action of the policy: *)
Theorem C96_actor_lstm : forall O A Pq Hq Pp Hp gamma (q : net Pq Hq (O * A) R) (p : net Pp Hp O A) critic_opt actor_opt w eps, n_rec q = true -> n_lstm q = true -> playable eps ->
  exists w', update_from_episodes gamma q p critic_opt actor_opt w eps = Ok w' /\ w_p w' = actor_opt (w_p w) (actor_objective_twice q p (w_q w') eps).
Proof.
  intros O A Pq Hq Pp Hp gamma q p co ao w eps R L P. destruct (update_ok gamma q p co ao w eps R P) as (w' & E & _ & E2 & _). rewrite L in E2.
  exact (ex_intro _ w' (conj E E2)).
Qed.
(** which is another objective. *)
Theorem C96_actor_lstm_refuted : exists (q : net unit R (R * R) R) (p : net R R R R) eps, n_rec q = true /\ n_lstm q = true /\ playable eps /\
  forall phi, phi <> 0 -> actor_objective_twice q p tt eps phi <> actor_objective q p tt eps phi.
Proof. exact (ex_intro _ sum_q (ex_intro _ sum_p (ex_intro _ [two_steps] (conj eq_refl (conj eq_refl (conj two_playable twice_differs)))))). Qed.
(** If no network has been evaluated in the current episode, as during burn-in, an L.LSTM policy goes on from the state that the update left
    behind: its next action is that of an agent that has seen the replayed episode. *)
Theorem C96_burn_in_refuted : exists (q : net unit R (R * R) R) (p : net R R R R) w w' eps, playable eps /\
  update_from_episodes 0 q p (fun theta _ => theta) (fun phi _ => phi) w eps = Ok w' /\ w_p w' = w_p w /\ s_p w = None /\
  (exists w1, act q p w 4 = Ok (4, w1)) /\ (exists a w1, act q p w' 4 = Ok (a, w1) /\ a <> 4).
Proof. exact (match burn_in with ex_intro _ w' H => ex_intro _ sum_q (ex_intro _ sum_p (ex_intro _ _ (ex_intro _ w' (ex_intro _ [two_steps] (conj two_playable H))))) end). Qed.
(** All transitions count equally if the episodes have the same length, *)
Theorem C96_equal_lengths : forall O A (f : list (dtrans O A) -> nat -> dtrans O A -> R) eps k, (forall e, In e eps -> length e = k) -> per_step f eps = per_transition f eps.
Proof. exact @equal_lengths. Qed.
(** but not otherwise. *)
Theorem C96_weights_refuted : exists (q : net unit R (R * R) R) (p : net R R R R) eps, playable eps /\
  critic_objective 0 q p tt 1 eps tt <> per_transition (squared_error 0 q p tt 1 tt) eps.
Proof. exact (ex_intro _ sum_q (ex_intro _ sum_p (ex_intro _ [two_steps; one_step] (conj mixed_playable weights_differ)))). Qed.
(** Episodic updates need a recurrent Q-function, *)
Theorem C96_not_recurrent_refuted : forall O A Pq Hq Pp Hp gamma (q : net Pq Hq (O * A) R) (p : net Pp Hp O A) critic_opt actor_opt w eps, n_rec q = false -> eps <> [] -> (forall e, In e eps -> e <> []) ->
  update_from_episodes gamma q p critic_opt actor_opt w eps = Raise AttributeError.
Proof. exact (fun O A Pq Hq Pp Hp gamma q p co ao w eps => not_recurrent gamma q p co ao w eps). Qed.
(** and transitions that were not stored by vectorised training, which stores no next actions. *)
Theorem C96_vectorised_refuted : forall O A Pq Hq Pp Hp gamma (q : net Pq Hq (O * A) R) (p : net Pp Hp O A) critic_opt actor_opt w eps, n_rec q = true -> eps <> [] ->
  (forall e, In e eps -> e <> [] /\ forall x, In x e -> d_na x = None) -> update_from_episodes gamma q p critic_opt actor_opt w eps = Raise KeyError.
Proof. exact (fun O A Pq Hq Pp Hp gamma q p co ao w eps => no_next_action gamma q p co ao w eps). Qed.
(** Without memory: the critic is fitted to the mean squared error of the batch, and then the actor maximises the mean value of its
    actions by the new Q-function. *)
Theorem C96_update : forall O A Pq Hq Pp Hp gamma (q : net Pq Hq (O * A) R) (p : net Pp Hp O A) critic_opt actor_opt w rows, n_rec q = false -> n_rec p = false ->
  let value theta s a := snd (n_step q theta (n_init q) (s, a)) in let action phi s := snd (n_step p phi (n_init p) s) in
  exists w', update gamma q p critic_opt actor_opt w rows = Ok w' /\
  w_q w' = critic_opt (w_q w) (fun theta => total_of (fun x => (d_r x + gamma * (if d_term x then 0 else value (w_tq w) (d_next x) (action (w_tp w) (d_next x))) - value theta (d_s x) (d_a x)) ^ 2) rows / INR (length rows)) /\
  w_p w' = actor_opt (w_p w) (fun phi => - (total_of (fun x => value (w_q w') (d_s x) (action phi (d_s x))) rows / INR (length rows))) /\
  w_tq w' = w_tq w /\ w_tp w' = w_tp w.
Proof. exact (fun O A Pq Hq Pp Hp gamma q p co ao w rows => update_flat gamma q p co ao w rows). Qed.
(** After the end of an episode the agent starts afresh: its actions are those of a policy that has seen exactly the earlier
    observations of the episode, and the Q-function has seen them with the actions taken. *)
Theorem C96_act : forall O A Pq Hq Pp Hp (q : net Pq Hq (O * A) R) (p : net Pp Hp O A) w os, os <> [] ->
  exists l w', act_all q p (stop_episode w) os = Ok (l, w') /\ length l = length os /\
  (forall i o a, nth_error os i = Some o -> nth_error l i = Some a -> a = answer p (w_p w) (firstn i os) o) /\
  w_q w' = w_q w /\ w_p w' = w_p w /\ w_tq w' = w_tq w /\ w_tp w' = w_tp w /\
  (n_rec p = true -> s_p w' = Some [remembers p (w_p w) os]) /\ (n_rec q = true -> s_q w' = Some [remembers q (w_q w) (combine os l)]).
Proof. exact @acting_fresh. Qed.

(** Not vacuous: episodes of different lengths and networks with memory. *)
Example C96_witness : playable [two_steps; one_step] /\ n_rec sum_q = true /\ critic_objective 0 sum_q sum_p tt 1 [two_steps; one_step] tt = 169 / 2.
Proof.
  split; [exact mixed_playable|]. split; [reflexivity|]. unfold critic_objective, per_step, squared_error, td_target, answer, remembers, at_step, total_of, longest, reaching. cbn. lra.
Qed.

Print Assumptions C96_critic.
Print Assumptions C96_actor.
Print Assumptions C96_actor_lstm.
Print Assumptions C96_actor_lstm_refuted.
Print Assumptions C96_burn_in_refuted.
Print Assumptions C96_equal_lengths.
Print Assumptions C96_weights_refuted.
Print Assumptions C96_not_recurrent_refuted.
Print Assumptions C96_vectorised_refuted.
Print Assumptions C96_update.
Print Assumptions C96_act.
