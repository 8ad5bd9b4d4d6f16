(** What recurrent DQN promises about recurrent states, in terms of the
    history of calls: the state belonging to a moment is obtained by running
    the model over the observations of that environment's episode so far,
    starting from nothing. *)
From Verif Require Import Base.PyBase Model.Categorical Model.StatelessRecurrent Spec.StatelessRecurrentSpec Model.RecurrentDQN.
Set Implicit Arguments.

Section Spec.
Variables U V : Type.
Notation link := (link U V).
Notation rstate := (rstate V).
Notation sst := (sst V).
Notation rop := (rop U V).

(** Two models with the same layers and the same sizes; the parameters may
    differ. *)
Definition all2 (P : link -> link -> Prop) :=
  fix go (ls ms : list link) : Prop :=
  match ls, ms with
  | [], [] => True
  | l :: ls, m :: ms => P l m /\ go ls ms
  | _, _ => False
  end.
Fixpoint same_layers (l m : link) {struct l} : Prop :=
  match l, m with
  | LLstm p, LLstm q => lstm_zero p = lstm_zero q
  | LGru p, LGru q => gru_zero p = gru_zero q
  | LFun _, LFun _ => True
  | LTup fs, LTup gs => length fs = length gs
  | LSeq ls, LSeq ms | LBranch ls, LBranch ms => all2 same_layers ls ms
  | _, _ => False
  end.

(** The observations of an episode so far, each with the model that processed
    it, and the recurrent state after them. *)
Definition episode := list (link * U).
Definition state_after (h : episode) : sst := fold_left (fun s q => snd (run1 (fst q) [snd q] s)) h SNone.

(** The current training episode of environment [i]. *)
Definition train_step (i : nat) (h : episode) (op : rop) : episode :=
  match op with
  | ActTrain m o => h ++ [(m, o)]
  | StopTrain _ _ => []
  | BatchActTrain m os => match nth_error os i with Some o => h ++ [(m, o)] | None => h end
  | BatchObserveTrain _ rows => match nth_error rows i with Some (_, true) => [] | _ => h end
  | _ => h
  end.
Definition train_episode (i : nat) (ops : list rop) : episode := fold_left (train_step i) ops [].

(** The current evaluation episode of environment [i]. *)
Definition test_step (i : nat) (h : episode) (op : rop) : episode :=
  match op with
  | Act m os => match nth_error os i with Some o => h ++ [(m, o)] | None => h end
  | Observe _ ended => match nth_error ended i with Some true => [] | _ => h end
  | Stop _ _ => []
  | _ => h
  end.
Definition test_episode (i : nat) (ops : list rop) : episode := fold_left (test_step i) ops [].

(** Histories in which the training calls are those of one environment:
    act_and_train, then stop_episode_and_train only inside an episode. *)
Fixpoint single_ok (inside : bool) (ops : list rop) : Prop :=
  match ops with
  | [] => True
  | ActTrain _ _ :: ops => single_ok true ops
  | StopTrain _ _ :: ops => inside = true /\ single_ok false ops
  | BatchActTrain _ _ :: _ | BatchObserveTrain _ _ :: _ => False
  | _ :: ops => single_ok inside ops
  end.
(** Histories in which the training calls are those of [n] environments:
    batch_act_and_train and batch_observe_and_train in turn. *)
Fixpoint batch_ok (n : nat) (acted : bool) (ops : list rop) : Prop :=
  match ops with
  | [] => True
  | BatchActTrain _ os :: ops => acted = false /\ length os = n /\ batch_ok n true ops
  | BatchObserveTrain _ rows :: ops => acted = true /\ length rows = n /\ batch_ok n false ops
  | ActTrain _ _ :: _ | StopTrain _ _ :: _ => False
  | _ :: ops => batch_ok n acted ops
  end.
(** Evaluation calls: the number of environments only changes after
    stop_episode. *)
Fixpoint tests_ok (k : option nat) (ops : list rop) : Prop :=
  match ops with
  | [] => True
  | Act _ os :: ops => os <> [] /\ match k with None => True | Some k => length os = k end /\ tests_ok (Some (length os)) ops
  | Observe _ ended :: ops => match k with None => True | Some k => length ended = k end /\ tests_ok k ops
  | Stop _ _ :: ops => tests_ok None ops
  | _ :: ops => tests_ok k ops
  end.
(** The model of every call is a usable recurrent link with the same layers. *)
Definition model_ok (m0 m : link) : Prop := is_recurrent m = true /\ out_ty m <> None /\ same_layers m0 m.
Definition models_ok (m0 : link) (ops : list rop) : Prop :=
  forall op, In op ops ->
    match op with
    | ActTrain m _ | StopTrain m _ | BatchActTrain m _ | BatchObserveTrain m _ | Act m _ | Observe m _ => model_ok m0 m
    | Stop _ _ => True
    end.

(** ... likewise for the models of an episode. *)
Definition episode_ok (m0 : link) (h : episode) : Prop := Forall (fun q => model_ok m0 (fst q)) h.

(** A recurrent state as stored (None stands for zeros) is the state [s]. *)
Definition stands (m0 : link) (stored s : sst) : Prop := shaped m0 stored /\ filled m0 stored = filled m0 s.

(** A transition of environment [i] whose episode so far is [h], followed by
    observation [o]: its state is the last observation of [h]; its recurrent
    states are those before and after that observation. *)
Definition good_trans (m0 : link) (i : nat) (h : episode) (o : U) (t : rtrans U V) : Prop :=
  exists h' m x, h = h' ++ [(m, x)] /\ rt_env t = i /\ rt_state t = x /\ rt_next t = o /\
    stands m0 (rt_rec t) (state_after h') /\ stands m0 (rt_nrec t) (state_after h).

(** The output of the model for the observations [os], environment [j] being
    in an episode [hs j]: what the model gives for that observation from the
    state of that episode, joined in order. *)
Definition good_eval (m : link) (os : list U) (hs : nat -> episode) (out : outp U) : Prop :=
  exists vs v, out = OConcat v /\ concat_seqs vs = Ok v /\ length vs = length os /\
    forall j o, nth_error os j = Some o -> nth_error vs j = Some (fst (run1 m [o] (state_after (hs j)))).

(** What a call does after the calls [before], environment [j] being in the
    evaluation episode [tests j]. *)
Definition happens (m0 : link) (tests : nat -> episode) (before : list rop) (op : rop) (evs : list (revent U V)) : Prop :=
  match op with
  | ActTrain m o =>
      exists out, good_eval m [o] (fun j => train_episode j before) out /\
      match train_episode 0 before with
      | [] => evs = [Evaluated V out]
      | h => exists t, evs = [Stored t; Evaluated V out] /\ good_trans m0 0 h o t
      end
  | StopTrain m o => exists t, evs = [Stored t] /\ good_trans m0 0 (train_episode 0 before) o t
  | BatchActTrain m os => exists out, evs = [Evaluated V out] /\ good_eval m os (fun j => train_episode j before) out
  | BatchObserveTrain m rows =>
      exists ts, evs = map (@Stored U V) ts /\ length ts = length rows /\
      forall i t row, nth_error ts i = Some t -> nth_error rows i = Some row ->
        good_trans m0 i (train_episode i before) (fst row) t
  | Act m os => exists out, evs = [Evaluated V out] /\ good_eval m os tests out
  | Observe _ _ | Stop _ _ => evs = []
  end.

(** For PPO, stop_episode_and_train also ends the evaluation episodes. *)
Definition ppo_test_step (i : nat) (h : episode) (op : rop) : episode :=
  match op with StopTrain _ _ => [] | _ => test_step i h op end.
Definition ppo_test_episode (i : nat) (ops : list rop) : episode := fold_left (ppo_test_step i) ops [].
Fixpoint ppo_tests_ok (k : option nat) (ops : list rop) : Prop :=
  match ops with
  | [] => True
  | Act _ os :: ops => os <> [] /\ match k with None => True | Some k => length os = k end /\ ppo_tests_ok (Some (length os)) ops
  | Observe _ ended :: ops => match k with None => True | Some k => length ended = k end /\ ppo_tests_ok k ops
  | Stop _ _ :: ops | StopTrain _ _ :: ops => ppo_tests_ok None ops
  | _ :: ops => ppo_tests_ok k ops
  end.

(** Training calls, and the calls of a history that satisfy [f] with what they
    did. *)
Definition is_training (op : rop) : bool :=
  match op with ActTrain _ _ | StopTrain _ _ | BatchActTrain _ _ | BatchObserveTrain _ _ => true | _ => false end.
Definition done_by (f : rop -> bool) (ops : list rop) (logs : list (list (revent U V))) : list (list (revent U V)) :=
  map snd (filter (fun q => f (fst q)) (combine ops logs)).
End Spec.

(** A history for the examples: two environments, the second one ending its
    episode after the first step, evaluation in between. *)
Definition ex_history : list (rop Z Z) :=
  [BatchActTrain ex_link [1; 10]%Z; Act ex_link [7]%Z; BatchObserveTrain ex_link [(2, false); (11, true)]%Z;
   Act ex_link [8]%Z; BatchActTrain ex_link [2; 20]%Z; Stop Z Z; Act ex_link [7; 7]%Z;
   BatchObserveTrain ex_link [(3, false); (21, false)]%Z].
