(** The recurrent states of a recurrent PPO: chainerrl/agents/ppo.py.  TRPO
    (trpo.py:620-880) has the same methods, except that its [act] runs the
    policy alone on a state of its own shape.

    As in Model/RecurrentDQN.v, whose state and calls are reused: [last] is
    last_state and [blast] is batch_last_state; observations are preprocessed
    and normalized rows; every call carries the model in force.  How
    transitions are collected into episodes is in Model/PPODataset.v. *)
From Verif Require Import Base.PyBase Model.Categorical Model.StatelessRecurrent Model.RecurrentDQN.
Set Implicit Arguments.

Section RPpo.
Variables U V : Type.
Notation link := (link U V).
Notation rstate := (rstate V).
Notation rdqn := (rdqn U V).
Notation revent := (revent U V).

(** ppo.py:624-628 and :730-734:
    [assert self.train_prev_recurrent_states is None], then the evaluation. *)
Definition ppo_eval_train (m : link) (os : list U) (s : rdqn) : res (rdqn * outp U) :=
  match prev s with
  | RNone => eval_train m os s
  | _ => Raise AssertionError
  end.

(** ppo.py:593-638 [act_and_train]. *)
Definition ppo_act_train (m : link) (o : U) (s : rdqn) : res (rdqn * list revent) :=
  let! sx := match last s with
             | Some x =>
                 let! t := store m 0 x o s in
                 Ok ({| train := train s; prev := RNone; test := test s; last := last s; blast := blast s |},
                     [Stored t])
             | None => Ok (s, [])
             end in
  let! sv := ppo_eval_train m [o] (fst sx) in
  let s' := fst sv in
  Ok ({| train := train s'; prev := prev s'; test := test s'; last := Some o; blast := blast s' |},
      snd sx ++ [Evaluated V (snd sv)]).

(** ppo.py:662-688 [stop_episode_and_train]; it ends with
    [self.stop_episode()], which also clears the evaluation state. *)
Definition ppo_stop_train (m : link) (o : U) (s : rdqn) : res (rdqn * list revent) :=
  match last s with
  | None => Raise AssertionError
  | Some x =>
      let! t := store m 0 x o s in
      Ok ({| train := RNone; prev := RNone; test := RNone; last := None; blast := blast s |}, [Stored t])
  end.

(** ppo.py:714-745 [batch_act_and_train]. *)
Definition ppo_batch_act_train (m : link) (os : list U) (s : rdqn) : res (rdqn * list revent) :=
  assert! match blast s with None => true | Some bl => length bl =? length os end in
  let! sv := ppo_eval_train m os s in
  let s' := fst sv in
  Ok ({| train := train s'; prev := prev s'; test := test s'; last := last s'; blast := Some (map Some os) |},
      [Evaluated V (snd sv)]).

(** ppo.py:761-795, the loop of [batch_observe_and_train] over the zip of
    batch_last_state and the arguments.  The assertion at :792 on
    batch_last_episode is left to Model/PPODataset.v. *)
Fixpoint ppo_observe_loop (m : link) (s : rdqn) (i : nat) (rows : list (U * bool)) (bl : list (option U))
  : res (list (option U) * list revent) :=
  match rows, bl with
  | (o, _) :: rows, x :: bl =>
      let! evs := match x with
                  | None => Ok []
                  | Some x => let! t := store m i x o s in Ok [Stored t]
                  end in
      let! r := ppo_observe_loop m s (S i) rows bl in
      Ok (None :: fst r, evs ++ snd r)
  | _, _ => Ok (bl, [])
  end.

(** ppo.py:758-807 [batch_observe_and_train].  Before the first
    batch_act_and_train batch_last_state is None and zip raises TypeError. *)
Definition ppo_batch_observe_train (m : link) (rows : list (U * bool)) (s : rdqn) : res (rdqn * list revent) :=
  match blast s with
  | None => Raise TypeError
  | Some bl =>
      let! r := ppo_observe_loop m s 0 rows bl in
      let! rs := reset_ended m (map snd rows) (train s) in
      Ok ({| train := rs; prev := RNone; test := test s; last := last s; blast := Some (fst r) |}, snd r)
  end.

(** One call; [Act] is act (:640-660) and batch_act (:693-712), [Observe] is
    batch_observe (:747-756), [Stop] is stop_episode (:690-691). *)
Definition ppo_rstep (op : rop U V) (s : rdqn) : res (rdqn * list revent) :=
  match op with
  | ActTrain m o => ppo_act_train m o s
  | StopTrain m o => ppo_stop_train m o s
  | BatchActTrain m os => ppo_batch_act_train m os s
  | BatchObserveTrain m rows => ppo_batch_observe_train m rows s
  | Act m os => let! sv := eval_test m os s in Ok (fst sv, [Evaluated V (snd sv)])
  | Observe m ended =>
      let! rs := reset_ended m ended (test s) in
      Ok ({| train := train s; prev := prev s; test := rs; last := last s; blast := blast s |}, [])
  | Stop _ _ => Ok ({| train := train s; prev := prev s; test := RNone; last := last s; blast := blast s |}, [])
  end.

Fixpoint ppo_rrun (ops : list (rop U V)) (s : rdqn) : res (rdqn * list (list revent)) :=
  match ops with
  | [] => Ok (s, [])
  | op :: ops =>
      let! se := ppo_rstep op s in
      let! r := ppo_rrun ops (fst se) in
      Ok (fst r, snd se :: snd r)
  end.
End RPpo.
