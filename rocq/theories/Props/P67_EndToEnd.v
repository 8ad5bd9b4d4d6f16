From Coq Require Import QArith.
From Verif Require Import Base.PyBase Base.Effects Model.TrainAgent Model.RandomAccessQueue Model.ReplayBuffer Model.OffPolicyAgent
  Spec.BoundedList Spec.WindowSpec Spec.TransitionSpec Spec.EndToEndSpec Proofs.EndToEndProofs.
Set Implicit Arguments.
Local Open Scope nat_scope.

(** C67: let train_agent train an off-policy agent, with any environment, any
    hooks, any evaluations and any exceptions.  Then the episodes that the agent
    gives to its replay buffer are exactly the episodes of the environment, step
    for step; only if an exception ends the training may the last step be
    missing. *)
Theorem C67_stored_episodes : forall (Obs Act Rw : Type) (rzero : Rw) (w : @world Obs Act Rw) c k interval
    (choose : list (ev Obs Act Rw) -> Obs -> res Act) (evals : Z -> nat) out tr g evs,
  train_agent rzero w c [] = (out, tr) ->
  run k interval choose agent_init (map fst (agent_calls evals tr)) [] = (Ok (g, agent_calls evals tr), evs) ->
  exists last, length last <= 1 /\ match out with Ok _ => last = [] | Raise _ => True end /\
    env_episodes tr = stored_episodes 0 (buffer_ops evs ++ appends 0 last).
Proof. intros. eapply (@train_stores _ _ _ rzero w c k interval choose 0); eassumption. Qed.
Print Assumptions C67_stored_episodes.

(** An environment with episodes of three steps; the agent adds ten.  [cur] is
    the observation the agent sees. *)
Definition ex_cur (tr : list (@TrainAgent.ev nat nat nat)) : nat :=
  fold_left (fun o e => match e with EReset o => o | EStep _ o _ _ _ => o | _ => o end) tr 0.
Definition ex_world : @world nat nat nat :=
  mk_world (fun tr => Ok 0) (fun tr => Ok (ex_cur tr + 10)) (fun tr => Ok (ex_cur tr + 1, ex_cur tr, ex_cur tr =? 2, false))
    (fun _ => Ok tt) (fun _ => Ok tt) (fun _ => Ok false) (fun _ => Ok tt).
Definition ex_choose : list (ev nat nat nat) -> nat -> res nat := fun _ o => Ok (o + 10).
Definition ex_trace := snd (train_agent 0 ex_world (mk_config 5 0 None None 1 true) []).
Definition ex_evals : Z -> nat := fun _ => 2.
Example C67_stored_episodes_example : forall k, In k [KDQN; KDDPG; KTD3] ->
  fst (train_agent 0 ex_world (mk_config 5 0 None None 1 true) []) = Ok tt /\
  env_episodes ex_trace = [[(0, 10, 0, 1, false); (1, 11, 1, 2, false); (2, 12, 2, 3, true)]; [(0, 10, 0, 1, false); (1, 11, 1, 2, false)]] /\
  exists g evs, run k 2 ex_choose agent_init (map fst (agent_calls ex_evals ex_trace)) [] = (Ok (g, agent_calls ex_evals ex_trace), evs).
Proof.
  intros k Hk. split; [vm_compute; reflexivity|]. split; [vm_compute; reflexivity|].
  destruct Hk as [<-|[<-|[<-|[]]]];
    match goal with |- exists g evs, ?t = _ => let r := eval vm_compute in t in match r with (Ok (?g, _), ?l) => exists g, l end end; vm_compute; reflexivity.
Qed.

(** C67, the agent never raises: whatever the environment does, every call
    train_agent makes is one the agent can serve. *)
Theorem C67_never_fails : forall (Obs Act Rw : Type) (rzero : Rw) (w : @world Obs Act Rw) c k interval
    (choose : list (ev Obs Act Rw) -> Obs -> res Act) (evals : Z -> nat) out tr,
  0 < interval -> (forall h o, exists a, choose h o = Ok a) -> train_agent rzero w c [] = (out, tr) ->
  exists g hist evs, run k interval choose agent_init (map fst (agent_calls evals tr)) [] = (Ok (g, hist), evs).
Proof. intros. eapply (@train_never_fails _ _ _ rzero w c k interval choose 0); eassumption. Qed.
Print Assumptions C67_never_fails.
Example C67_never_fails_example : (forall h o, exists a, ex_choose h o = Ok a) /\
  map fst (agent_calls ex_evals ex_trace) =
    [OAct 0 0; OAct 1 0; OAct 2 1; OStop 3 2 true; OStopEp; OStopEp; OAct 0 0; OAct 1 0; OStop 2 1 false; OStopEp; OStopEp].
Proof. split; [intros h o; eexists; reflexivity | vm_compute; reflexivity]. Qed.

(** C67, the content of the replay buffer after training: for a buffer of
    capacity [cap] with [n]-step transitions, the last [cap] of the n-step
    windows of the environment's episodes; a window never leaves its episode. *)
Theorem C67_buffer : forall (Obs Act Rw : Type) (rzero : Rw) (w : @world Obs Act Rw) c k interval
    (choose : list (ev Obs Act Rw) -> Obs -> res Act) (evals : Z -> nat) u tr g evs cap n, 0 < n ->
  train_agent rzero w c [] = (Ok u, tr) ->
  run k interval choose agent_init (map fst (agent_calls evals tr)) [] = (Ok (g, agent_calls evals tr), evs) ->
  exists b0 b, rb_init cap n = Ok b0 /\ nrb_run (@raq_append _) b0 (buffer_ops evs) = Ok b /\
    map (map step_of) (raq_iter (nr_mem b)) = trim cap (concat (map (windows n) (env_episodes tr))).
Proof. intros. eapply (@train_buffer _ _ _ rzero w c k interval choose 0); eassumption. Qed.
Print Assumptions C67_buffer.
Example C67_buffer_example : trim (Some 4) (concat (map (windows 2) (env_episodes ex_trace))) =
  [[(1, 11, 1, 2, false); (2, 12, 2, 3, true)]; [(2, 12, 2, 3, true)];
   [(0, 10, 0, 1, false); (1, 11, 1, 2, false)]; [(1, 11, 1, 2, false)]].
Proof. vm_compute. reflexivity. Qed.
