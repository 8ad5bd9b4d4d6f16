(** The recurrent states of a recurrent DQN: chainerrl/agents/dqn.py.

    Only what concerns recurrent states is here: the rest of the life cycle
    (actions, rewards, terminal flags, stop_current_episode, counters) is in
    Model/OffPolicyAgent.v.  An observation is the row the model receives
    (phi and batch_states applied).  Target synchronization and replay updates
    change the parameters of [self.model] and nothing else that is visible
    here, so every operation carries the model that is in force when it
    evaluates it; [get_recurrent_state_at] and [mask_recurrent_state_at] are
    called on the same model. *)
From Verif Require Import Base.PyBase Model.Categorical Model.StatelessRecurrent.
Set Implicit Arguments.

Section RDqn.
Variables U V : Type.
Notation link := (link U V).
Notation rstate := (rstate V).
Notation sst := (sst V).

(** The attributes involved (dqn.py:189-203, all None at first; batch_last_obs is only set by batch_act_and_train):
    [train], [prev] and [test] are train_recurrent_states,
    train_prev_recurrent_states and test_recurrent_states; [last] is
    last_state; [blast] is batch_last_obs. *)
Record rdqn := { train : rstate; prev : rstate; test : rstate; last : option U; blast : option (list (option U)) }.
Definition rdqn_init : rdqn :=
  {| train := RNone; prev := RNone; test := RNone; last := None; blast := None |}.

(** A stored transition: environment, state, next state and the two recurrent
    states. *)
Record rtrans := { rt_env : nat; rt_state : U; rt_next : U; rt_rec : sst; rt_nrec : sst }.

(** What happens during a call: a transition is appended to the replay
    buffer, or the model is evaluated to choose actions. *)
Inductive revent := Stored (x : rtrans) | Evaluated (o : outp U).

(** Calls of the agent.  [ended] is, per environment, done or reset. *)
Inductive rop :=
| ActTrain (m : link) (o : U)
| StopTrain (m : link) (o : U)
| BatchActTrain (m : link) (os : list U)
| BatchObserveTrain (m : link) (rows : list (U * bool))
| Act (m : link) (os : list U)
| Observe (m : link) (ended : list bool)
| Stop.

(** dqn.py:430-442 [_evaluate_model_and_update_recurrent_states] with
    test=False. *)
Definition eval_train (m : link) (os : list U) (s : rdqn) : res (rdqn * outp U) :=
  let! vr := call_one_step m os (train s) in
  Ok ({| train := snd vr; prev := train s; test := test s; last := last s; blast := blast s |}, fst vr).

(** ... and with test=True. *)
Definition eval_test (m : link) (os : list U) (s : rdqn) : res (rdqn * outp U) :=
  let! vr := call_one_step m os (test s) in
  Ok ({| train := train s; prev := prev s; test := snd vr; last := last s; blast := blast s |}, fst vr).

(** dqn.py:380-398, :481-500 and :538-555: the transition of env [i] with the recurrent
    states of index [i]. *)
Definition store (m : link) (i : nat) (x o : U) (s : rdqn) : res rtrans :=
  let! r := get_at m (prev s) i in
  let! r' := get_at m (train s) i in
  Ok {| rt_env := i; rt_state := x; rt_next := o; rt_rec := r; rt_nrec := r' |}.

(** dqn.py:376-428 [act_and_train]. *)
Definition act_train (m : link) (o : U) (s : rdqn) : res (rdqn * list revent) :=
  let! sx := match last s with
             | Some x =>
                 let! t := store m 0 x o s in
                 Ok ({| train := train s; prev := RNone; test := test s; last := last s; blast := blast s |},
                     [Stored t])
             | None => Ok (s, [])
             end in
  let! sv := eval_train m [o] (fst sx) in
  let s' := fst sv in
  Ok ({| train := train s'; prev := prev s'; test := test s'; last := Some o; blast := blast s' |},
      snd sx ++ [Evaluated (snd sv)]).

(** dqn.py:529-561 [stop_episode_and_train]. *)
Definition stop_train (m : link) (o : U) (s : rdqn) : res (rdqn * list revent) :=
  match last s with
  | None => Raise AssertionError
  | Some x =>
      let! t := store m 0 x o s in
      Ok ({| train := RNone; prev := RNone; test := test s; last := None; blast := blast s |}, [Stored t])
  end.

(** dqn.py:444-463 [batch_act_and_train]. *)
Definition batch_act_train (m : link) (os : list U) (s : rdqn) : res (rdqn * list revent) :=
  let! sv := eval_train m os s in
  let s' := fst sv in
  Ok ({| train := train s'; prev := prev s'; test := test s'; last := last s'; blast := Some (map Some os) |},
      [Evaluated (snd sv)]).

(** dqn.py:474-504, the loop of [batch_observe_and_train]: [i] is the current
    index, [bl] the part of batch_last_obs from that index on.  Returns the
    new batch_last_obs from there and what was stored. *)
Fixpoint observe_loop (m : link) (s : rdqn) (i : nat) (rows : list (U * bool)) (bl : list (option U))
  : res (list (option U) * list revent) :=
  match rows with
  | [] => Ok (bl, [])
  | (o, e) :: rows =>
      match bl with
      | [] => Raise IndexError
      | None :: bl =>
          let! r := observe_loop m s (S i) rows bl in Ok (None :: fst r, snd r)
      | Some x :: bl =>
          let! t := store m i x o s in
          let! r := observe_loop m s (S i) rows bl in
          Ok ((if e then None else Some x) :: fst r, Stored t :: snd r)
      end
  end.

(** dqn.py:75-95 [_batch_reset_recurrent_states_when_episodes_end]. *)
Definition ended_indices (ended : list bool) : list nat :=
  map fst (filter (fun q => snd q) (combine (seq 0 (length ended)) ended)).
Definition reset_ended (m : link) (ended : list bool) (rs : rstate) : res rstate :=
  match ended_indices ended with
  | [] => Ok rs
  | idx => mask_at m rs idx
  end.

(** dqn.py:472-515 [batch_observe_and_train].  Before the first
    batch_act_and_train there is no attribute batch_last_obs:
    AttributeError. *)
Definition batch_observe_train (m : link) (rows : list (U * bool)) (s : rdqn) : res (rdqn * list revent) :=
  let! r := match blast s, rows with
            | None, [] => Ok (None, [])
            | None, _ => Raise AttributeError
            | Some bl, _ => let! r := observe_loop m s 0 rows bl in Ok (Some (fst r), snd r)
            end in
  let! rs := reset_ended m (map snd rows) (train s) in
  Ok ({| train := rs; prev := RNone; test := test s; last := last s; blast := fst r |}, snd r).

(** One call.  [Act] is batch_act (dqn.py:465-470) and act (:361-374, with one
    observation), [Observe] is batch_observe (:517-527), [Stop] is
    stop_episode (:563-565). *)
Definition rstep (op : rop) (s : rdqn) : res (rdqn * list revent) :=
  match op with
  | ActTrain m o => act_train m o s
  | StopTrain m o => stop_train m o s
  | BatchActTrain m os => batch_act_train m os s
  | BatchObserveTrain m rows => batch_observe_train m rows s
  | Act m os => let! sv := eval_test m os s in Ok (fst sv, [Evaluated (snd sv)])
  | Observe m ended =>
      let! rs := reset_ended m ended (test s) in
      Ok ({| train := train s; prev := prev s; test := rs; last := last s; blast := blast s |}, [])
  | Stop => Ok ({| train := train s; prev := prev s; test := RNone; last := last s; blast := blast s |}, [])
  end.

(** A history of calls; what happened in each. *)
Fixpoint rrun (ops : list rop) (s : rdqn) : res (rdqn * list (list revent)) :=
  match ops with
  | [] => Ok (s, [])
  | op :: ops =>
      let! se := rstep op s in
      let! r := rrun ops (fst se) in
      Ok (fst r, snd se :: snd r)
  end.

(** chainerrl/replay_buffer.py:179-228 [batch_recurrent_experiences] as far as
    recurrent states go: an experience is a list of transitions; the states of
    the first transitions, concatenated (:213-216).  [first_rec] is
    [ep[0]['recurrent_state']]. *)
Definition first_rec (ep : list rtrans) : res sst :=
  match ep with [] => Raise IndexError | t :: _ => Ok (rt_rec t) end.
Definition first_nrec (ep : list rtrans) : res sst :=
  match ep with [] => Raise IndexError | t :: _ => Ok (rt_nrec t) end.
(** ... and dqn.py:312-318 (recurrent part of _compute_y_and_t): the model over
    the states of the experiences, from those recurrent states. *)
Definition replay_values (m : link) (eps : list (list rtrans)) : res (outp U * rstate) :=
  let! ss := mapM first_rec eps in
  let! rs := concat_states m ss in
  n_step m false (map (fun ep => VArr (map rt_state ep)) eps) rs.
(** dqn.py:292-295 (recurrent part of _compute_target_values), [m] being the
    target model. *)
Definition replay_next_values (m : link) (eps : list (list rtrans)) : res (outp U * rstate) :=
  let! ss := mapM first_nrec eps in
  let! rs := concat_states m ss in
  n_step m false (map (fun ep => VArr (map rt_next ep)) eps) rs.
End RDqn.
