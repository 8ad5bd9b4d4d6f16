From Coq Require Import QArith.
From Verif Require Import Base.PyBase Base.Effects Model.TrainAgent Model.TrainAgentBatch Model.RandomAccessQueue Model.ReplayBuffer Model.OffPolicyAgent
  Model.Returns Model.Resume Spec.BoundedList Spec.WindowSpec Spec.TransitionSpec Spec.TrainProtocol Spec.EndToEndSpec
  Proofs.EndToEndProofs Proofs.BatchEndToEndProofs Proofs.ResumeProofs.
Set Implicit Arguments.
Local Open Scope nat_scope.

(** C69, off-policy agents: a training resumed at any step offset never makes the
    agent raise, and the episodes stored during it are exactly those of the
    environment, as in a training from step 0. *)
Theorem C69_stored_episodes : forall (Obs Act Rw : Type) (rzero : Rw) (w : @world Obs Act Rw) c k interval
    (choose : list (ev Obs Act Rw) -> Obs -> res Act) (offset : nat) (evals : Z -> nat) out tr,
  0 < interval -> (forall h o, exists a, choose h o = Ok a) -> train_agent rzero w c [] = (out, tr) ->
  (exists g hist evs, run k interval choose (resumed offset) (map fst (agent_calls evals tr)) [] = (Ok (g, hist), evs)) /\
  forall g evs, run k interval choose (resumed offset) (map fst (agent_calls evals tr)) [] = (Ok (g, agent_calls evals tr), evs) ->
  exists last, length last <= 1 /\ match out with Ok _ => last = [] | Raise _ => True end /\
    env_episodes tr = stored_episodes 0 (buffer_ops evs ++ appends 0 last).
Proof.
  intros Obs Act Rw rzero w c k interval choose offset evals out tr Hi Hc H. split.
  - eapply (@train_never_fails _ _ _ rzero w c k interval choose offset); eassumption.
  - intros g evs. eapply (@train_stores _ _ _ rzero w c k interval choose offset); eassumption.
Qed.
Print Assumptions C69_stored_episodes.

(** C69, the schedule: the updates and target synchronisations of the resumed
    training are those of the steps after the offset, numbered on from it: step
    [t] is handed to the updater once, and synchronises iff [t] is a multiple of
    the interval.  A completed training leaves the agent at the step where
    train_agent ended. *)
Theorem C69_schedule : forall (Obs Act Rw : Type) (rzero : Rw) (w : @world Obs Act Rw) c k interval
    (choose : list (ev Obs Act Rw) -> Obs -> res Act) (offset : nat) (evals : Z -> nat) out tr g hist evs,
  train_agent rzero w c [] = (out, tr) ->
  run k interval choose (resumed offset) (map fst (agent_calls evals tr)) [] = (Ok (g, hist), evs) ->
  exists n, clock evs = flat_map (tick k interval) (seq (match k with KDQN => offset | _ => offset + 1 end) n) /\ g_t g = offset + n /\
    match out with Ok _ => Z.of_nat n = nsteps tr | Raise _ => (nsteps tr <= Z.of_nat n <= nsteps tr + 1)%Z end.
Proof. exact @resumed_clock. Qed.
Print Assumptions C69_schedule.

(** Episodes of three steps; a training to step 7 resumed at step 3. *)
Definition ex_cur (tr : list (@TrainAgent.ev nat nat nat)) : nat :=
  fold_left (fun o e => match e with EReset o => o | EStep _ o _ _ _ => o | _ => o end) tr 0.
Definition ex_world : @world nat nat nat :=
  mk_world (fun tr => Ok 0) (fun tr => Ok (ex_cur tr + 10)) (fun tr => Ok (ex_cur tr + 1, ex_cur tr, ex_cur tr =? 2, false))
    (fun _ => Ok tt) (fun _ => Ok tt) (fun _ => Ok false) (fun _ => Ok tt).
Definition ex_choose : list (ev nat nat nat) -> nat -> res nat := fun _ o => Ok (o + 10).
Definition ex_trace := snd (train_agent 0 ex_world (mk_config 7 3 None None 0 false) []).
Example C69_example :
  fst (train_agent 0 ex_world (mk_config 7 3 None None 0 false) []) = Ok tt /\
  env_episodes ex_trace = [[(0, 10, 0, 1, false); (1, 11, 1, 2, false); (2, 12, 2, 3, true)]; [(0, 10, 0, 1, false)]] /\
  exists g evs, run KDDPG 2 ex_choose (resumed 3) (map fst (agent_calls (fun _ => 0) ex_trace)) [] = (Ok (g, agent_calls (fun _ => 0) ex_trace), evs) /\
    g_t g = 7 /\ clock evs = [CSync; CUpdate 4; CUpdate 5; CSync; CUpdate 6; CUpdate 7].
Proof.
  split; [vm_compute; reflexivity|]. split; [vm_compute; reflexivity|].
  match goal with |- exists g evs, ?t = _ /\ _ => let r := eval vm_compute in t in match r with (Ok (?g, _), ?l) => exists g, l end end; vm_compute; auto.
Qed.

(** C69, vectorised training from an offset. *)
Theorem C69_batch_stored_episodes : forall (Obs Act Rw : Type) (w : @bworld Obs Act Rw) (c : bconfig) (evals : Z -> nat) k interval
    (choose : list (ev Obs Act Rw) -> Obs -> res Act), k = KDQN \/ (forall t, evals t = 0) -> forall i, i < b_envs c ->
  (forall tr os, bw_reset w tr = Ok os -> length os = b_envs c) -> (forall tr xs, bw_step w tr = Ok xs -> length xs = b_envs c) ->
  forall (offset : nat) fuel out tr g evs,
  train_agent_batch w c fuel [] = (out, tr) ->
  run k interval choose (resumed offset) (map fst (bagent_calls evals tr)) [] = (Ok (g, bagent_calls evals tr), evs) ->
  exists last, length last <= 1 /\ match out with Ok _ => last = [] | Raise _ => True end /\
    benv_episodes i tr = stored_episodes i (buffer_ops evs ++ appends i last).
Proof. exact @batch_stores. Qed.
Print Assumptions C69_batch_stored_episodes.

(** One environment whose episodes do not end, steps 4 to 6. *)
Definition ex_bworld : @bworld nat nat nat :=
  mk_bworld (fun tr => Ok [5]) (fun tr => Ok [6]) (fun tr => Ok [(5, 2, false, false)])
    (fun _ => Ok tt) (fun _ => Ok tt) (fun _ => Ok (None, 1%Q)) (fun _ => Ok tt) (fun _ => Ok tt).
Definition ex_btrace := train_agent_batch ex_bworld (mk_bconfig 1 6 4 None None 0 false None) 9 [].
Example C69_batch_example : fst ex_btrace = Ok tt /\ benv_episodes 0 (snd ex_btrace) = [[(5, 6, 2, 5, false); (5, 6, 2, 5, false)]] /\
  exists g evs, run KDQN 3 (fun _ _ => Ok 6) (resumed 4) (map fst (bagent_calls (fun _ => 0) (snd ex_btrace))) [] = (Ok (g, bagent_calls (fun _ => 0) (snd ex_btrace)), evs).
Proof.
  split; [vm_compute; reflexivity|]. split; [vm_compute; reflexivity|].
  match goal with |- exists g evs, ?t = _ => let r := eval vm_compute in t in match r with (Ok (?g, _), ?l) => exists g, l end end; vm_compute; reflexivity.
Qed.

(** C69 fails for A2C: a training resumed at any step but 0 raises in its first
    round, because the arrays are only allocated at step 0. *)
Theorem C69_a2c_refuted : forall (Obs A : Type) (value : nat -> Obs -> Q) use_gae gamma tau n offset x (xs : list (a2c_round (Obs:=Obs) (A:=A))),
  0 < offset -> a2c_rounds value use_gae gamma tau n (Fresh offset) (x :: xs) = Raise AttributeError.
Proof. exact @a2c_resume_raises. Qed.
Print Assumptions C69_a2c_refuted.

(** From step 0 the arrays are allocated once, so that training is the run C36
    speaks about. *)
Theorem C69_a2c_fresh : forall (Obs A : Type) (value : nat -> Obs -> Q) use_gae gamma tau n x (xs : list (a2c_round (Obs:=Obs) (A:=A))),
  a2c_rounds value use_gae gamma tau n (Fresh 0) (x :: xs) =
  (let! u := a2c_run value use_gae gamma tau n (a2c_init n) (x :: xs) in Ok (fst u, Running (snd u))).
Proof. exact @a2c_rounds_fresh. Qed.
Print Assumptions C69_a2c_fresh.
Example C69_a2c_fresh_example : exists s, a2c_rounds (fun _ o => inject_Z (Z.of_nat o)) false 1%Q 1%Q 1 (Fresh 0) [(3, 7, (4, 2%Q, false, false))] = Ok ([[(3, 7, 6%Q)]], s).
Proof.
  match goal with |- exists s, ?t = _ => let r := eval vm_compute in t in match r with Ok (_, ?s) => exists s end end. vm_compute. reflexivity.
Qed.

(** C69 fails for A3C and NSQ: resumed at any step but 0, the first episode,
    whatever it is, ends in a KeyError: the update looks for the steps since 0. *)
Theorem C69_a3c_refuted : forall (Obs A : Type) (value : nat -> Obs -> Q) gamma t_max offset (acts : list (Obs * Q * A)) last r done,
  0 < offset ->
  nstep_runs value gamma t_max (nagent_resumed offset) (map (fun '(o, r, a) => NAct o r a) acts ++ [NStop last r done]) = Raise KeyError.
Proof. intros. apply nstep_resume_raises; assumption. Qed.
Print Assumptions C69_a3c_refuted.
