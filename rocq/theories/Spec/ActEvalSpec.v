(** What training uses of an agent, and when evaluations happen. *)
From Coq Require Import Reals List Bool.
From Verif Require Import Base.PyBase Model.ActEval.
Import ListNotations.

Section Spec.
  Context {Obs Act Out Par Hid Rng Rest Step : Type}.
  Notation agent := (agent Obs Act Par Hid Rng Rest Step).
  Notation fwd := (bool -> Par -> Hid -> Obs -> Rng -> Out * Hid * Par * Rng).

  (** Everything but the state for tests and the average of Q-values that is reported. *)
  Definition training_part (g : agent) : Par * Hid * Hid * Hid * option (Obs * Act) * list Step * Rest :=
    (g_par g, g_hid g, g_other g, g_train_hid g, g_last g, g_open g, g_rest g).
  (** ... with the random generators. *)
  Definition training_state (g : agent) := (training_part g, g_rng g).

  (** No layer changes a persistent value or draws random numbers. *)
  Definition quiet (f : Par -> Hid -> Obs -> Rng -> Out * Hid * Par * Rng) : Prop :=
    exists out next, forall p h o r, f p h o r = (out p h o, next p h o, p, r).
  Definition quiet_critic (f : Par -> Hid -> Obs -> Act -> Rng -> R * Hid * Par * Rng) : Prop :=
    exists q next, forall p h o a r, f p h o a r = (q p h o a, next p h o a, p, r).
  Definition no_memory (f : Par -> Hid -> Obs -> Rng -> Out * Hid * Par * Rng) : Prop :=
    forall p h o r out h' p' r', f p h o r = (out, h', p', r') -> h' = h.

  Definition own_test_state (k : agent_kind) : bool := match k with DQN | IQN | PPO | TRPO => true | _ => false end.
  Definition test_mode (k : agent_kind) : bool := match k with DQN | IQN | PPO | TRPO | DDPG | PGT | SAC | TD3 => true | _ => false end.
  Definition never_recurrent (k : agent_kind) : bool := match k with A2C | A2CBatch | SAC | TD3 => true | _ => false end.
  (** Agents whose evaluation is deterministic, if asked for or always. *)
  Definition chooses (k : agent_kind) (deterministic : bool) : bool :=
    match k with DQN | NSQ => true | A2CBatch | DDPG | TD3 => false | _ => deterministic end.

  (** The model and the agent fit: layers are quiet in the mode in which the agent acts. *)
  Definition suited (k : agent_kind) (forward : fwd) (critic : bool -> Par -> Hid -> Obs -> Act -> Rng -> R * Hid * Par * Rng) : Prop :=
    quiet (forward (negb (test_mode k))) /\ quiet_critic (critic false) /\
    (never_recurrent k = true -> no_memory (forward (negb (test_mode k)))).
  (** Between two episodes of training, as stop_episode_and_train leaves the agent. *)
  Definition between (fresh : Hid) (k : agent_kind) (g : agent) : Prop :=
    match k with
    | DQN | IQN | PPO | TRPO | A2C | A2CBatch => True
    | A3C | PCL | REINFORCE => g_hid g = fresh
    | ACER | NSQ => g_hid g = fresh /\ g_other g = fresh
    | DDPG | PGT => g_hid g = fresh /\ g_last g = None /\ g_open g = []
    | SAC | TD3 => g_last g = None /\ g_open g = []
    end.

  (** What a network gives for the observations of an episode, from the state [h]. *)
  Fixpoint outputs (out : Par -> Hid -> Obs -> Out) (next : Par -> Hid -> Obs -> Hid) (p : Par) (h : Hid) (os : list Obs) : list Out :=
    match os with [] => [] | o :: os => out p h o :: outputs out next p (next p h o) os end.
  (** An evaluation of whole episodes, and what it starts from. *)
  Definition whole_episodes (eps : list (list Obs)) : list (eval_op Obs) := flat_map (fun os => map EvAct os ++ [EvStop]) eps.
  Definition starts_fresh (fresh : Hid) (k : agent_kind) (g : agent) : Prop := (if own_test_state k then g_test_hid g else g_hid g) = fresh.

  (** The recurrent state from which training acts. *)
  Definition training_hid (k : agent_kind) (g : agent) : Hid := if own_test_state k then g_train_hid g else g_hid g.

  (** Training interrupted by evaluations. *)
  Inductive session := Training (f : agent -> agent) | Evaluating (ops : list (eval_op Obs)).
  Variable evaluate : list (eval_op Obs) -> agent -> agent.
  Fixpoint sessions (l : list session) (g : agent) : agent :=
    match l with
    | [] => g
    | Training f :: l => sessions l (f g)
    | Evaluating ops :: l => sessions l (evaluate ops g)
    end.
  Fixpoint without_evaluations (l : list session) : list session :=
    match l with
    | [] => []
    | Training f :: l => Training f :: without_evaluations l
    | Evaluating _ :: l => without_evaluations l
    end.
  (** Training does not read what only evaluations use; evaluations end with stop_episode and happen where [calm]. *)
  Fixpoint well_placed (calm : agent -> Prop) (l : list session) (g : agent) : Prop :=
    match l with
    | [] => True
    | Training f :: l => (forall g g', training_state g = training_state g' -> training_state (f g) = training_state (f g')) /\ well_placed calm l (f g)
    | Evaluating ops :: l => calm g /\ (exists ops', ops = ops' ++ [EvStop]) /\ well_placed calm l g
    end.
End Spec.

(** For counterexamples: everything is a number, a sampled action is the state of the random generator. *)
Definition toy (par hid : nat) (open : list nat) (rng : nat) : agent nat nat nat nat nat nat nat := mk_agent par hid 0 0 0 None open 0 rng 0%R.
Definition run_toy (forward : bool -> nat -> nat -> nat -> nat -> nat * nat * nat * nat) :=
  evaluation forward (fun (_ : bool) p h (_ _ : nat) r => (0%R, h, p, r)) (fun o => o) (fun _ r : nat => (r, S r)) (fun _ => 0%R) (fun o r => (o, 0%R, r)) 0 (fun (l : list nat) x => length l + x) 0%R.
