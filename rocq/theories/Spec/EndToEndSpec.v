(** What training stores, told from the environment's side: an environment is
    reset and stepped; its steps between two resets are an episode. *)
From Coq Require Import QArith.
From Verif Require Import Base.PyBase Model.TrainAgent Model.TrainAgentBatch Model.ReplayBuffer Model.OffPolicyAgent Spec.WindowSpec.
Set Implicit Arguments.
Local Open Scope nat_scope.

Section S.
  Context {Obs Act Rw : Type}.
  Notation tev := (@TrainAgent.ev Obs Act Rw).
  Notation bev := (@TrainAgentBatch.bev Obs Act Rw).

  (** One step of an environment: where it was, the action, the reward, where it
      went, and whether it said that this state is terminal. *)
  Definition env_step := (Obs * Act * Rw * Obs * bool)%type.
  Definition close (ep : list env_step) : list (list env_step) := match ep with [] => [] | _ => [ep] end.

  (** train_agent: the episodes of the environment, from its own events only.
      [cur] is the observation it is in. *)
  Fixpoint env_from (cur : option Obs) (ep : list env_step) (tr : list tev) : list (list env_step) :=
    match tr with
    | [] => close ep
    | EReset o :: tr => close ep ++ env_from (Some o) [] tr
    | EStep a o r d _ :: tr =>
        match cur with Some s => env_from (Some o) (ep ++ [(s, a, r, o, d)]) tr | None => env_from (Some o) ep tr end
    | _ :: tr => env_from cur ep tr
    end.
  Definition env_episodes (tr : list tev) : list (list env_step) := env_from None [] tr.

  (** The calls the agent received, with its answers.  An evaluation at step [t]
      also ends with [evals t] calls of stop_episode on the agent. *)
  Definition agent_call (evals : Z -> nat) (e : tev) : list (op Obs Rw * out Act) :=
    match e with
    | TrainAgent.EAct o r a => [(OAct o r, RAct a)]
    | EStop o r d => [(OStop o r d, RNone)]
    | EEval t _ _ => repeat (OStopEp, RNone) (evals t)
    | _ => []
    end.
  Definition agent_calls (evals : Z -> nat) (tr : list tev) : list (op Obs Rw * out Act) := flat_map (agent_call evals) tr.

  (** A stored transition as a step, and the episodes given to the replay buffer
      by environment [i]. *)
  Definition step_of (x : transition Obs Act Rw) : env_step :=
    (x_state x, x_action x, x_reward x, x_next_state x, x_terminal x).
  Definition appends (i : nat) (xs : list (transition Obs Act Rw)) : list (rb_op (transition Obs Act Rw)) :=
    map (fun x => RAppend i x (x_terminal x)) xs.
  Definition stored_episodes (i : nat) (ops : list (rb_op (transition Obs Act Rw))) : list (list env_step) :=
    let (eps, ep) := episodes i ops in flat_map close (map (map step_of) (eps ++ [ep])).

  (** train_agent_batch: the episodes of environment [i] of the vector. *)
  Fixpoint benv_from (i : nat) (cur : option Obs) (ep : list env_step) (tr : list bev) : list (list env_step) :=
    match tr with
    | [] => close ep
    | BReset not_end obss :: tr =>
        let restarted := match not_end with
                         | None => true
                         | Some l => match nth_error l i with Some keep => negb keep | None => false end
                         end in
        if restarted then close ep ++ benv_from i (nth_error obss i) [] tr
        else benv_from i (nth_error obss i) ep tr
    | BStep acts xs :: tr =>
        match cur, nth_error acts i, nth_error xs i with
        | Some s, Some a, Some (o, r, d, _) => benv_from i (Some o) (ep ++ [(s, a, r, o, d)]) tr
        | _, _, _ => benv_from i cur ep tr
        end
    | _ :: tr => benv_from i cur ep tr
    end.
  Definition benv_episodes (i : nat) (tr : list bev) : list (list env_step) := benv_from i None [] tr.

  (** The calls the agent received in batch mode.  As above, an evaluation at step
      [t] on an environment that is not a vector environment ends with [evals t]
      calls of stop_episode. *)
  Fixpoint rows (os : list Obs) (rs : list Rw) (ds resets : list bool) : list (row Obs Rw) :=
    match os, rs, ds, resets with
    | o :: os, r :: rs, d :: ds, e :: resets => (o, r, d, e) :: rows os rs ds resets
    | _, _, _, _ => []
    end.
  Definition bagent_call (evals : Z -> nat) (e : bev) : list (op Obs Rw * out Act) :=
    match e with
    | BAct obss acts => [(OBAct obss, RActs acts)]
    | BObserve os rs ds resets => [(OBObs (rows os rs ds resets), RNone)]
    | BEval t _ _ _ => repeat (OStopEp, RNone) (evals t)
    | _ => []
    end.
  Definition bagent_calls (evals : Z -> nat) (tr : list bev) : list (op Obs Rw * out Act) := flat_map (bagent_call evals) tr.

  (** An episode as it should be: every step starts where the last one ended. *)
  Definition chained (ep : list env_step) : Prop := forall j s a r o d s' a' r' o' d',
    nth_error ep j = Some (s, a, r, o, d) -> nth_error ep (S j) = Some (s', a', r', o', d') -> s' = o.
End S.
