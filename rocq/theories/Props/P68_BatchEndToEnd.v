From Coq Require Import QArith.
From Verif Require Import Base.PyBase Base.Effects Model.GymEnv Model.VectorEnv Model.TrainAgent Model.TrainAgentBatch Model.BatchWorld
  Model.RandomAccessQueue Model.ReplayBuffer Model.OffPolicyAgent
  Spec.TransitionSpec Spec.EndToEndSpec Spec.BatchWorldSpec Proofs.BatchEndToEndProofs Proofs.BatchWorldProofs.
Set Implicit Arguments.
Local Open Scope nat_scope.

(** C68: let train_agent_batch train an off-policy agent on any vector
    environment.  Then for every environment [i] the episodes stored for it are
    exactly its own episodes, step for step (only after an exception may its last
    step be missing) — provided that the evaluations do not call stop_episode
    (they use a vector environment) or the agent is a DQN, whose stop_episode does
    nothing. *)
Theorem C68_stored_episodes : forall (Obs Act Rw : Type) (w : @bworld Obs Act Rw) (c : bconfig) (evals : Z -> nat) k interval
    (choose : list (ev Obs Act Rw) -> Obs -> res Act), k = KDQN \/ (forall t, evals t = 0) -> forall i, i < b_envs c ->
  (forall tr os, bw_reset w tr = Ok os -> length os = b_envs c) -> (forall tr xs, bw_step w tr = Ok xs -> length xs = b_envs c) ->
  forall fuel out tr g evs,
  train_agent_batch w c fuel [] = (out, tr) ->
  run k interval choose agent_init (map fst (bagent_calls evals tr)) [] = (Ok (g, bagent_calls evals tr), evs) ->
  exists last, length last <= 1 /\ match out with Ok _ => last = [] | Raise _ => True end /\
    benv_episodes i tr = stored_episodes i (buffer_ops evs ++ appends i last).
Proof. intros. eapply (@batch_stores _ _ _ w c evals k interval choose) with (t0 := 0); eassumption. Qed.
Print Assumptions C68_stored_episodes.

(** C68, the agent never raises on the calls of train_agent_batch. *)
Theorem C68_never_fails : forall (Obs Act Rw : Type) (w : @bworld Obs Act Rw) (c : bconfig) (evals : Z -> nat) k interval
    (choose : list (ev Obs Act Rw) -> Obs -> res Act), k = KDQN \/ (forall t, evals t = 0) -> forall i, i < b_envs c ->
  (forall tr os, bw_reset w tr = Ok os -> length os = b_envs c) -> (forall tr xs, bw_step w tr = Ok xs -> length xs = b_envs c) ->
  forall fuel out tr, 0 < interval -> (forall h o, exists a, choose h o = Ok a) ->
  train_agent_batch w c fuel [] = (out, tr) -> (forall o a, In (BAct o a) tr -> length a = length o) ->
  exists g hist evs, run k interval choose agent_init (map fst (bagent_calls evals tr)) [] = (Ok (g, hist), evs).
Proof. intros. eapply (@batch_never_fails _ _ _ w c evals k interval choose) with (t0 := 0); eassumption. Qed.
Print Assumptions C68_never_fails.

(** Two environments: the first ends its episodes after two steps, the second
    never; the agent adds ten. *)
Definition ex_cur (tr : list (@bev nat nat nat)) : list nat :=
  fold_left (fun o e => match e with BReset _ o => o | BStep _ xs => map a_obs xs | _ => o end) tr [].
Definition ex_keep (tr : list (@bev nat nat nat)) : list bool :=
  fold_left (fun m e => match e with BObserve _ _ ds rs => map negb (map2 orb rs ds) | _ => m end) tr [false; false].
Definition ex_bworld : @bworld nat nat nat :=
  mk_bworld (fun tr => Ok (map2 (fun (k : bool) o => if k then o else 0) (ex_keep tr) (match tr with [] => [0; 0] | _ => ex_cur tr end)))
    (fun tr => Ok (map (fun o => o + 10) (ex_cur tr)))
    (fun tr => Ok (match ex_cur tr with [a; b] => [(a + 1, 1, a =? 1, false); (b + 1, 2, false, false)] | _ => [(0, 0, false, false); (0, 0, false, false)] end))
    (fun _ => Ok tt) (fun _ => Ok tt) (fun _ => Ok (Some 1%Q, 1%Q)) (fun _ => Ok tt) (fun _ => Ok tt).
Definition ex_choose : list (ev nat nat nat) -> nat -> res nat := fun _ o => Ok (o + 10).
Definition ex_run := train_agent_batch ex_bworld (mk_bconfig 2 6 0 None (Some 5%Z) 1 true None) 9 [].
Example C68_example : fst ex_run = Ok tt /\
  benv_episodes 0 (snd ex_run) = [[(0, 10, 1, 1, false); (1, 11, 1, 2, true)]; [(0, 10, 1, 1, false)]] /\
  benv_episodes 1 (snd ex_run) = [[(0, 10, 2, 1, false); (1, 11, 2, 2, false); (2, 12, 2, 3, false)]] /\
  (forall o a, In (BAct o a) (snd ex_run) -> length a = length o) /\
  exists g evs, run KTD3 3 ex_choose agent_init (map fst (bagent_calls (fun _ => 0) (snd ex_run))) [] = (Ok (g, bagent_calls (fun _ => 0) (snd ex_run)), evs).
Proof.
  split; [vm_compute; reflexivity|]. split; [vm_compute; reflexivity|]. split; [vm_compute; reflexivity|].
  split; [vm_compute; intros o a H; intuition (try discriminate); match goal with H : _ = _ |- _ => injection H as <- <- end; reflexivity|].
  match goal with |- exists g evs, ?t = _ => let r := eval vm_compute in t in match r with (Ok (?g, _), ?l) => exists g, l end end; vm_compute; reflexivity.
Qed.

(** C68, stored episodes are unbroken: if the evaluations use an environment of
    their own, and the vector environment answers an unfinished environment's
    reset with its last observation, then in every episode of every environment
    each step starts from the observation in which the previous one ended. *)
Theorem C68_unbroken : forall (A O X : Type) (V : venv A O X) (v0 : vst V) (eval_calls : Z -> list (vop A))
    (act : list (@bev O A Q) -> res (list A)) (observe hook : list (@bev O A Q) -> res unit)
    (eval : list (@bev O A Q) -> res (option Q * Q)) (save close_ : list (@bev O A Q) -> res unit) (c : bconfig),
  1 <= b_envs c -> sized V (b_envs c) -> keeps V -> forall i, i < b_envs c -> forall fuel out tr,
  train_agent_batch (env_world V v0 false eval_calls act observe hook eval save close_) c fuel [] = (out, tr) ->
  (forall o a, In (BAct o a) tr -> length a = length o) ->
  Forall (@chained O A Q) (benv_episodes i tr).
Proof. exact @world_chained. Qed.
Print Assumptions C68_unbroken.

(** SerialVectorEnv, of any environments, is such a vector environment. *)
Theorem C68_serial_vector_env : forall (A O X : Type) (E : env A O X) n, sized (serial_venv E n) n /\ keeps (serial_venv E n).
Proof. intros. split; [apply serial_sized | apply serial_keeps]. Qed.
Print Assumptions C68_serial_vector_env.

(** An environment that says in which of its episodes and where it is; an episode
    has three steps. *)
Definition count_env : env nat (nat * nat) unit :=
  mk_env (fun (s : nat * nat) (_ : nat) => let s' := (fst s, S (snd s)) in Ok (s', mk_sout s' 1%Q (snd s' =? 3) (mk_info false tt)))
    (fun s => Ok ((S (fst s), 0), (S (fst s), 0))) (fun _ => 0).
(** An evaluation of one episode, after every second step. *)
Definition one_episode : Z -> list (vop nat) := fun _ => [VReset None; VStep [7]; VStep [7]; VStep [7]].
Definition count_world (shared : bool) : @bworld (option (nat * nat)) nat Q :=
  env_world (serial_venv count_env 1) (ser_init count_env [(0, 0)]) shared one_episode
    (fun _ => Ok [5]) (fun _ => Ok tt) (fun _ => Ok tt)
    (fun tr => Ok (if Nat.even (length (filter (fun e => match e with BStep _ _ => true | _ => false end) tr)) then (Some 1%Q, 1%Q) else (None, 1%Q)))
    (fun _ => Ok tt) (fun _ => Ok tt).
Definition count_run (shared : bool) := train_agent_batch (count_world shared) (mk_bconfig 1 4 0 None None 0 true None) 9 [].
Example C68_unbroken_example : fst (count_run false) = Ok tt /\
  benv_episodes 0 (snd (count_run false)) =
  [[(Some (1, 0), 5, 1%Q, Some (1, 1), false); (Some (1, 1), 5, 1%Q, Some (1, 2), false); (Some (1, 2), 5, 1%Q, Some (1, 3), true)];
   [(Some (2, 0), 5, 1%Q, Some (2, 1), false)]].
Proof. vm_compute. auto. Qed.

(** C68 fails when no [eval_env] is given: the evaluations then use the training
    environment in the middle of its episodes, and the training goes on from
    where the evaluation left it.  Here the second step of the stored episode
    ends in (1, 2), the third starts in (2, 3), the end of the evaluation's
    episode; the environment is stepped on past its end. *)
Theorem C68_shared_evaluation_refuted : exists (E : env nat (nat * nat) unit) (v0 : sstate E) (eval_calls : Z -> list (vop nat)) act observe hook eval save close_ c,
  sized (serial_venv E (b_envs c)) (b_envs c) /\ keeps (serial_venv E (b_envs c)) /\
  exists tr, train_agent_batch (env_world (serial_venv E (b_envs c)) v0 true eval_calls act observe hook eval save close_) c 9 [] = (Ok tt, tr) /\
    (forall o a, In (BAct o a) tr -> length a = length o) /\
    benv_episodes 0 tr = [[(Some (1, 0), 5, 1%Q, Some (1, 1), false); (Some (1, 1), 5, 1%Q, Some (1, 2), false);
                           (Some (2, 3), 5, 1%Q, Some (2, 4), false); (Some (2, 4), 5, 1%Q, Some (2, 5), false)]] /\
    ~ Forall (@chained _ _ _) (benv_episodes 0 tr).
Proof.
  exists count_env, (ser_init count_env [(0, 0)]), one_episode.
  do 6 eexists. exists (mk_bconfig 1 4 0 None None 0 true None).
  split; [apply serial_sized|]. split; [apply serial_keeps|].
  exists (snd (count_run true)).
  assert (Ee : benv_episodes 0 (snd (count_run true)) = [[(Some (1, 0), 5, 1%Q, Some (1, 1), false); (Some (1, 1), 5, 1%Q, Some (1, 2), false);
                           (Some (2, 3), 5, 1%Q, Some (2, 4), false); (Some (2, 4), 5, 1%Q, Some (2, 5), false)]]) by (vm_compute; reflexivity).
  split; [|split; [|split; [exact Ee|]]].
  - transitivity (count_run true); [reflexivity|]. vm_compute. reflexivity.
  - vm_compute. intros o a H. intuition (try discriminate); match goal with H : _ = _ |- _ => injection H as <- <- end; reflexivity.
  - rewrite Ee. intros F. inversion F as [|? ? C _]; subst. specialize (C 1 _ _ _ _ _ _ _ _ _ _ eq_refl eq_refl). discriminate.
Qed.
Print Assumptions C68_shared_evaluation_refuted.

(** C68 fails for DDPG, PGT, TD3 and SAC when the evaluations use an environment
    that is not a vector environment: the agent's stop_episode ends the running
    episode of environment 0 in the replay buffer. *)
Theorem C68_stop_episode_refuted : forall k, k <> KDQN -> exists (w : @bworld nat nat nat) c evals choose tr g evs,
  (forall tr os, bw_reset w tr = Ok os -> length os = b_envs c) /\ (forall tr xs, bw_step w tr = Ok xs -> length xs = b_envs c) /\
  train_agent_batch w c 9 [] = (Ok tt, tr) /\
  run k 1 choose agent_init (map fst (bagent_calls evals tr)) [] = (Ok (g, bagent_calls evals tr), evs) /\
  benv_episodes 0 tr = [[(0, 1, 1, 0, false); (0, 1, 1, 0, false)]] /\
  stored_episodes 0 (buffer_ops evs) = [[(0, 1, 1, 0, false)]; [(0, 1, 1, 0, false)]].
Proof.
  intros k Hk.
  exists (mk_bworld (fun _ => Ok [0]) (fun _ => Ok [1]) (fun _ => Ok [(0, 1, false, false)]) (fun _ => Ok tt) (fun _ => Ok tt) (fun _ => Ok (Some 1%Q, 1%Q)) (fun _ => Ok tt) (fun _ => Ok tt)),
    (mk_bconfig 1 2 0 None None 0 true None), (fun _ => 1), (fun _ _ => Ok 1).
  match goal with |- exists tr g evs, _ /\ _ /\ ?t = _ /\ _ => let r := eval vm_compute in t in match r with (_, ?tr) => exists tr end end.
  destruct k; [congruence| |];
    (match goal with |- exists g evs, _ /\ _ /\ _ /\ ?t = _ /\ _ => let r := eval vm_compute in t in match r with (Ok (?g, _), ?l) => exists g, l end end;
     split; [intros ? ? [= <-]; reflexivity|]; split; [intros ? ? [= <-]; reflexivity|]; vm_compute; auto 10).
Qed.
Print Assumptions C68_stop_episode_refuted.
