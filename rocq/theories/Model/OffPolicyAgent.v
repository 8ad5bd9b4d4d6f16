(** Model of how the off-policy agents observe an interaction: agents/dqn.py
    (DQN and its subclasses), agents/ddpg.py, agents/pgt.py, agents/td3.py and
    agents/soft_actor_critic.py — the methods act_and_train,
    batch_act_and_train, batch_observe_and_train, stop_episode_and_train and
    stop_episode, and TD3/SAC's update.

    Simplifications: the choice of an action (networks, explorer, burn-in) is an
    oracle that sees all events so far; appending to the replay buffer, updating
    and synchronising are events (their own models are Model/ReplayBuffer.v,
    Model/ReplayUpdater.v and Model/CopyParam.v); statistics, logging and
    recurrent states are left out. *)
From Verif Require Import Base.PyBase Base.Effects Model.ReplayBuffer.
Set Implicit Arguments.

(** The experience dict passed to [replay_buffer.append]. *)
Record transition (Obs Act Rew : Type) := mk_tr {
  x_state : Obs; x_action : Act; x_reward : Rew; x_next_state : Obs;
  x_next_action : option Act;                 (* None: absent or None *)
  x_terminal : bool
}.
Arguments mk_tr {Obs Act Rew}.

(** Which agent: DQN and subclasses; DDPG and PGT; TD3 and SAC. *)
Inductive kind := KDQN | KDDPG | KTD3.

Section Agent.
  Context {Obs Act Rew : Type}.
  Notation tr := (transition Obs Act Rew).

  Inductive ev :=
  | EAppend (env : nat) (x : tr)               (* replay_buffer.append *)
  | EEnd (env : nat)                           (* replay_buffer.stop_current_episode *)
  | ESync                                      (* sync_target_network *)
  | EUpdate (t : nat)                          (* replay_updater.update_if_necessary *)
  | EAct (o : Obs) (a : Act).                  (* action selection *)

  (** Attributes: dqn.py:214-222, ddpg.py:129-133, td3.py:143-145.  The batch
      attributes do not exist before the first [batch_act_and_train]. *)
  Record agent := mk_ag {
    g_t : nat;
    g_last_state : option Obs; g_last_action : option Act;
    g_batch : option (list (option Obs) * list (option Act))
  }.
  Definition agent_init := mk_ag 0 None None None.
  (** A new agent after [agent.t = step_offset] (train_agent.py:36-37,
      train_agent_batch.py:52-53). *)
  Definition resumed (offset : nat) := mk_ag offset None None None.

  Variable k : kind.
  Variable interval : nat.                     (* target_update_interval *)
  Variable choose : list ev -> Obs -> res Act.

  Definition emit (e : ev) : eff ev unit := fun h => (Ok tt, h ++ [e]).
  Definition select (o : Obs) : eff ev Act := call (fun h => choose h o) (EAct o).

  (** [if self.t % self.target_update_interval == 0: self.sync_target_network()];
      TD3 and SAC have no such line. *)
  Definition sync_if (t : nat) : eff ev unit :=
    match k with
    | KTD3 => ret tt
    | _ => if interval =? 0 then raise ZeroDivisionError
           else if t mod interval =? 0 then emit ESync else ret tt
    end.

  (** [if self.last_state is not None: assert ...; self.replay_buffer.append(...)]. *)
  Definition record_last (g : agent) (r : Rew) (o : Obs) (next : option Act) : eff ev unit :=
    match g_last_state g with
    | None => ret tt
    | Some s => match g_last_action g with
                | None => raise AssertionError
                | Some a => emit (EAppend 0 (mk_tr s a r o next false))
                end
    end.

  (** dqn.py:376-428; ddpg.py:299-331 and pgt.py:202-230; td3.py:244-273 and
      soft_actor_critic.py:303-331 [act_and_train]. *)
  Definition act_and_train (g : agent) (o : Obs) (r : Rew) : eff ev (agent * Act) :=
    let t := g_t g in
    match k with
    | KDQN =>
      record_last g r o None;;;
      sync_if t;;;
      emit (EUpdate t);;;
      do a <- select o;;
      ret (mk_ag (t + 1) (Some o) (Some a) (g_batch g), a)
    | _ =>
      do a <- select o;;
      sync_if (t + 1);;;
      record_last g r o (Some a);;;
      emit (EUpdate (t + 1));;;
      ret (mk_ag (t + 1) (Some o) (Some a) (g_batch g), a)
    end.

  (** dqn.py:529-561; ddpg.py:441-455; pgt.py:251-265; td3.py:339-353;
      soft_actor_critic.py:387-401 [stop_episode_and_train]. *)
  Definition stop_episode_and_train (g : agent) (o : Obs) (r : Rew) (done : bool) : eff ev agent :=
    match g_last_state g, g_last_action g with
    | Some s, Some a =>
      emit (EAppend 0 (mk_tr s a r o (Some a) done));;;
      emit (EEnd 0);;;
      ret (mk_ag (g_t g) None None (g_batch g))
    | _, _ => raise AssertionError
    end.

  (** dqn.py:563-565 (nothing for a non-recurrent DQN); ddpg.py:457-462,
      pgt.py:267-272, td3.py:355-358, soft_actor_critic.py:403-406 [stop_episode]. *)
  Definition stop_episode (g : agent) : eff ev agent :=
    match k with
    | KDQN => ret g
    | _ => emit (EEnd 0);;; ret (mk_ag (g_t g) None None (g_batch g))
    end.

  Fixpoint select_all (os : list Obs) : eff ev (list Act) :=
    match os with
    | [] => ret []
    | o :: t => do a <- select o;; do l <- select_all t;; ret (a :: l)
    end.

  (** dqn.py:444-464; ddpg.py:373-397; td3.py:287-312;
      soft_actor_critic.py:340-360 [batch_act_and_train]. *)
  Definition batch_act_and_train (g : agent) (os : list Obs) : eff ev (agent * list Act) :=
    do acts <- select_all os;;
    ret (mk_ag (g_t g) (g_last_state g) (g_last_action g) (Some (map Some os, map Some acts)), acts).

  (** One row per environment: next observation, reward, done, reset (the four
      sequences passed to [batch_observe_and_train] zipped). *)
  Definition row := (Obs * Rew * bool * bool)%type.

  (** dqn.py:474-507; ddpg.py:416-437; td3.py:316-333;
      soft_actor_critic.py:364-381: the body of the loop over environments. *)
  Definition observe_one (g : agent) (i : nat) (x : row) : eff ev agent :=
    let '(o', r, done, reset) := x in
    let t := g_t g + 1 in
    sync_if t;;;
    match g_batch g with
    | None => raise TypeError
    | Some (obss, acts) =>
      match nth_error obss i with
      | None => raise IndexError
      | Some None => emit (EUpdate t);;; ret (mk_ag t (g_last_state g) (g_last_action g) (g_batch g))
      | Some (Some s) =>
        match nth_error acts i with
        | None => raise IndexError
        | Some None => raise AssertionError
        | Some (Some a) =>
          emit (EAppend i (mk_tr s a r o' None done));;;
          if reset || done then
            emit (EEnd i);;;
            emit (EUpdate t);;;
            ret (mk_ag t (g_last_state g) (g_last_action g)
                   (Some (upd obss i None, match k with KDQN => upd acts i None | _ => acts end)))
          else
            emit (EUpdate t);;; ret (mk_ag t (g_last_state g) (g_last_action g) (g_batch g))
        end
      end
    end.

  Fixpoint observe_from (g : agent) (i : nat) (xs : list row) : eff ev agent :=
    match xs with
    | [] => ret g
    | x :: t => do g' <- observe_one g i x;; observe_from g' (S i) t
    end.
  Definition batch_observe_and_train (g : agent) (xs : list row) : eff ev agent := observe_from g 0 xs.

  (** Calls and their results. *)
  Inductive op :=
  | OAct (o : Obs) (r : Rew)
  | OStop (o : Obs) (r : Rew) (done : bool)
  | OStopEp
  | OBAct (os : list Obs)
  | OBObs (xs : list row).
  Inductive out := RAct (a : Act) | RActs (l : list Act) | RNone.

  Definition do_op (g : agent) (o : op) : eff ev (agent * out) :=
    match o with
    | OAct o r => do (g', a) <- act_and_train g o r;; ret (g', RAct a)
    | OStop o r d => do g' <- stop_episode_and_train g o r d;; ret (g', RNone)
    | OStopEp => do g' <- stop_episode g;; ret (g', RNone)
    | OBAct os => do (g', l) <- batch_act_and_train g os;; ret (g', RActs l)
    | OBObs xs => do g' <- batch_observe_and_train g xs;; ret (g', RNone)
    end.

  (** The history of a client: every call with its result. *)
  Fixpoint run (g : agent) (ops : list op) : eff ev (agent * list (op * out)) :=
    match ops with
    | [] => ret (g, [])
    | o :: t =>
      do (g', r) <- do_op g o;;
      do (g'', l) <- run g' t;;
      ret (g'', (o, r) :: l)
    end.
End Agent.
Arguments ev : clear implicits.
Arguments EAppend {Obs Act Rew}.
Arguments EEnd {Obs Act Rew}.
Arguments ESync {Obs Act Rew}.
Arguments EUpdate {Obs Act Rew}.
Arguments EAct {Obs Act Rew}.
Arguments agent : clear implicits.
Arguments op : clear implicits.
Arguments out : clear implicits.
Arguments row : clear implicits.
Arguments OAct {Obs Rew}.
Arguments OStop {Obs Rew}.
Arguments OStopEp {Obs Rew}.
Arguments OBAct {Obs Rew}.
Arguments OBObs {Obs Rew}.
Arguments RAct {Act}.
Arguments RActs {Act}.
Arguments RNone {Act}.

(** td3.py:212-213, 227, 229-236 [TD3.update] and soft_actor_critic.py:282-288
    [SoftActorCritic.update], reduced to which networks are touched.
    [optimizer.t] counts the updates made by an optimizer. *)
Inductive uev := UQ | UPolicy | USoftSync.
Definition td3_update (delay : nat) (q_t : nat) : res (list uev * nat) :=
  let q_t := q_t + 1 in
  if delay =? 0 then Raise ZeroDivisionError
  else Ok ([UQ] ++ (if q_t mod delay =? 0 then [UPolicy; USoftSync] else []), q_t).
Fixpoint td3_updates (delay : nat) (n : nat) (q_t : nat) : res (list uev * nat) :=
  match n with
  | O => Ok ([], q_t)
  | S n =>
    let! (e, q_t) := td3_update delay q_t in
    let! (l, q_t) := td3_updates delay n q_t in
    Ok (e ++ l, q_t)
  end.
