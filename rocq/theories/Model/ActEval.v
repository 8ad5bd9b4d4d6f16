(** Model of what the agents do when they are evaluated: their methods act, batch_act and stop_episode.
    Simplifications: a batch of observations is one observation; the debug logs, and building a graph for a
    backward pass that never happens, are left out. *)
From Coq Require Import Reals List Bool.
From Verif Require Import Base.PyBase.
Import ListNotations.
Local Open Scope R_scope.

Inductive agent_kind :=
  | DQN | IQN | PPO | TRPO                              (* recurrent states are arguments of the model *)
  | A3C | ACER | PCL | REINFORCE | NSQ | A2C | A2CBatch (* the model keeps its recurrent state; [A2CBatch] acts with batch_act *)
  | DDPG | PGT | SAC | TD3.

Section ActEval.
  (** Observations, actions, outputs of the model for one observation, its parameters and persistent
      values, recurrent states, states of the global random generators, the rest of the agent and
      the open part of an episode in its replay buffer. *)
  Context {Obs Act Out Par Hid Rng Rest Step : Type}.
  (** A call of the model with [chainer.config.train] as first argument: layers such as batch normalisation and
      dropout may update persistent values and draw random numbers. *)
  Variable forward : bool -> Par -> Hid -> Obs -> Rng -> Out * Hid * Par * Rng.
  (** The Q-function of DDPG and PGT, for an action. *)
  Variable critic : bool -> Par -> Hid -> Obs -> Act -> Rng -> R * Hid * Par * Rng.
  Variable most_probable : Out -> Act.                  (* greedy_actions, for action values *)
  Variable sample : Out -> Rng -> Act * Rng.
  Variable max_value : Out -> R.                        (* action_value.max *)
  (** IQN: the greedy action and its value for randomly drawn quantile thresholds (iqn.py:418-422); for the
      evenly spaced ones they are [most_probable] and [max_value]. *)
  Variable greedy_random : Out -> Rng -> Act * R * Rng.
  Variable fresh : Hid.                                 (* no recurrent state, after reset_state() *)
  Variable flush : list Step -> Rest -> Rest.           (* replay_buffer.stop_current_episode *)

  Record agent := mk_agent {
    g_par : Par;
    g_hid : Hid;                   (* kept by the model *)
    g_other : Hid;                 (* kept by the target, average or shared model *)
    g_train_hid : Hid;             (* train_recurrent_states *)
    g_test_hid : Hid;              (* test_recurrent_states *)
    g_last : option (Obs * Act);   (* last_state, last_action *)
    g_open : list Step;            (* the current episode in the replay buffer *)
    g_rest : Rest;                 (* replay buffer, optimizer, counters, past_* ... *)
    g_rng : Rng;
    g_average_q : R }.
  Variable decay : R.              (* average_q_decay *)

  (** A call of a model that keeps its state. *)
  Definition call_own (train : bool) (g : agent) (o : Obs) : Out * agent :=
    let '(out, h, p, r) := forward train (g_par g) (g_hid g) o (g_rng g) in
    (out, mk_agent p h (g_other g) (g_train_hid g) (g_test_hid g) (g_last g) (g_open g) (g_rest g) r (g_average_q g)).
  (** A call of a model with the state for tests. *)
  Definition call_test (train : bool) (g : agent) (o : Obs) : Out * agent :=
    let '(out, h, p, r) := forward train (g_par g) (g_test_hid g) o (g_rng g) in
    (out, mk_agent p (g_hid g) (g_other g) (g_train_hid g) h (g_last g) (g_open g) (g_rest g) r (g_average_q g)).
  Definition set_rng (g : agent) (r : Rng) : agent :=
    mk_agent (g_par g) (g_hid g) (g_other g) (g_train_hid g) (g_test_hid g) (g_last g) (g_open g) (g_rest g) r (g_average_q g).
  Definition set_average_q (g : agent) (q : R) : agent :=
    mk_agent (g_par g) (g_hid g) (g_other g) (g_train_hid g) (g_test_hid g) (g_last g) (g_open g) (g_rest g) (g_rng g) (g_average_q g * decay + (1 - decay) * q).
  Definition sampled (z : Out * agent) : Act * agent := let (a, r) := sample (fst z) (g_rng (snd z)) in (a, set_rng (snd z) r).
  Definition chosen (deterministic : bool) (z : Out * agent) : Act * agent :=
    if deterministic then (most_probable (fst z), snd z) else sampled z.
  (** ddpg.py:335-347 and pgt.py:234-249: the Q-value is only recorded. *)
  Definition record_q (o : Obs) (z : Act * agent) : Act * agent :=
    let g := snd z in
    let '(q, h, p, r) := critic false (g_par g) (g_hid g) o (fst z) (g_rng g) in
    (fst z, set_average_q (mk_agent p h (g_other g) (g_train_hid g) (g_test_hid g) (g_last g) (g_open g) (g_rest g) r (g_average_q g)) q).

  (** The methods act: dqn.py:361-374 and 430-441; iqn.py:397-422; ppo.py:640-660; trpo.py:699-721;
      a3c.py:269-278; acer.py:651-659; pcl.py:431-440; reinforce.py:95-103; nsq.py:159-163; a2c.py:280-288 and (batch_act) 246-251;
      ddpg.py:333-347; pgt.py:232-250; soft_actor_critic.py:332-334 and 289-301; td3.py:275-276 and 238-242.
      [deterministic] is act_deterministically. *)
  Definition act (k : agent_kind) (deterministic : bool) (g : agent) (o : Obs) : Act * agent :=
    match k with
    | DQN => let (out, g) := call_test false g o in (most_probable out, set_average_q g (max_value out))
    | IQN =>
        let (out, g) := call_test false g o in
        if deterministic then (most_probable out, set_average_q g (max_value out))
        else let '(a, q, r) := greedy_random out (g_rng g) in (a, set_average_q (set_rng g r) q)
    | PPO | TRPO => chosen deterministic (call_test false g o)
    | A3C | ACER | PCL | REINFORCE | A2C => chosen deterministic (call_own true g o)
    | NSQ => chosen true (call_own true g o)
    | A2CBatch => sampled (call_own true g o)
    | DDPG => record_q o (sampled (call_own false g o))
    | PGT => record_q o (chosen deterministic (call_own false g o))
    | SAC => chosen deterministic (call_own false g o)
    | TD3 => sampled (call_own false g o)
    end.
  Definition set_hids (g : agent) (h other test : Hid) : agent :=
    mk_agent (g_par g) h other (g_train_hid g) test (g_last g) (g_open g) (g_rest g) (g_rng g) (g_average_q g).
  Definition close (g : agent) : agent :=
    mk_agent (g_par g) (g_hid g) (g_other g) (g_train_hid g) (g_test_hid g) None [] (flush (g_open g) (g_rest g)) (g_rng g) (g_average_q g).
  (** The methods stop_episode: dqn.py:563-565; ppo.py:690-691; trpo.py:749-750; a3c.py:290-292; acer.py:694-697; pcl.py:474-476;
      reinforce.py:173-175; nsq.py:178-182; a2c.py:292-293; ddpg.py:457-462; pgt.py:267-272; soft_actor_critic.py:403-406; td3.py:355-358.
      The models of A2C, SAC and TD3 are not recurrent: they have no other state than [fresh]. *)
  Definition stop_episode (k : agent_kind) (g : agent) : agent :=
    match k with
    | DQN | IQN | PPO | TRPO => set_hids g (g_hid g) (g_other g) fresh
    | A3C | PCL | REINFORCE => set_hids g fresh (g_other g) (g_test_hid g)
    | ACER | NSQ => set_hids g fresh fresh (g_test_hid g)
    | A2C | A2CBatch => g
    | DDPG | PGT => close (set_hids g fresh (g_other g) (g_test_hid g))
    | SAC | TD3 => close g
    end.

  (** How stop_episode_and_train leaves these fields, whatever its updates did before: dqn.py:555-561; ppo.py:677-688; trpo.py:736-747;
      a3c.py:287-288; acer.py:673-692; pcl.py:456-472; reinforce.py:127-128; nsq.py:173-176; ddpg.py:455; pgt.py:265; soft_actor_critic.py:401;
      td3.py:353.  (A2C does not have it; the last transition of ACER and PCL is appended before [close].) *)
  Definition end_training_episode (k : agent_kind) (g : agent) : agent :=
    let clear (g : agent) := mk_agent (g_par g) (g_hid g) (g_other g) fresh (g_test_hid g) (g_last g) (g_open g) (g_rest g) (g_rng g) (g_average_q g) in
    match k with
    | DQN | IQN => close (clear g)
    | PPO | TRPO => clear (set_hids g (g_hid g) (g_other g) fresh)
    | A3C | REINFORCE => set_hids g fresh (g_other g) (g_test_hid g)
    | PCL => close (set_hids g fresh (g_other g) (g_test_hid g))
    | ACER => close (set_hids g fresh fresh (g_test_hid g))
    | NSQ => set_hids g fresh fresh (g_test_hid g)
    | A2C | A2CBatch => g
    | DDPG | PGT | SAC | TD3 => stop_episode k g
    end.

  (** An evaluation as the evaluator makes it: actions for observations, and ends of episodes. *)
  Inductive eval_op := EvAct (o : Obs) | EvStop.
  Definition eval_step (k : agent_kind) (deterministic : bool) (z : list Act * agent) (op : eval_op) : list Act * agent :=
    match op with
    | EvAct o => let (a, g) := act k deterministic (snd z) o in (fst z ++ [a], g)
    | EvStop => (fst z, stop_episode k (snd z))
    end.
  Definition evaluation (k : agent_kind) (deterministic : bool) (ops : list eval_op) (g : agent) : list Act * agent :=
    fold_left (eval_step k deterministic) ops ([], g).
End ActEval.
Arguments agent : clear implicits.
Arguments eval_op : clear implicits.
