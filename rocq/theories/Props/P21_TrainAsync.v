(** C21: train_agent_async. *)
From Coq Require Import QArith.
From Verif Require Import Base.PyBase Model.TrainAgent Model.TrainAsync Spec.AsyncProtocol Proofs.TrainAsyncProofs.
Local Open Scope nat_scope.

(** C21, partial: under every schedule of N processes, with exceptions anywhere, the
    processes follow the protocol [ystep] (each counter value is followed by
    exactly one call of every hook with it, by the process that got it); the
    counter takes the values 1, 2, 3, ... once each; at most
    [max steps 1 + N - 1] environment steps are made; the final and the successful
    agent are saved at most once each; every schedule is finite.  If all processes
    return, every step was counted, the step budget was reached or an evaluation
    was successful, the final agent was saved exactly once if the budget was
    reached, and the successful one exactly if some evaluation was successful.
    Missing: step_offset is not taken into account, see below. *)
Theorem C21_async_training_partial : forall (Obs Act Rw : Type) (rzero : Rw) (c : aconfig) (N : nat) (sched : list (nat * @aans Obs Act Rw))
  (s : @astate Obs Act Rw), arun rzero c (astate0 N) sched = Some s ->
  let log := as_log s in
  exists phs seen, ypath rzero c (repeat (YBetween 0) N, False) log (phs, seen) /\
  a_counts log = one_to (length (a_counts log)) /\
  a_episodes log = seq 1 (length (a_episodes log)) /\
  (1 <= N -> (Z.of_nat (number is_step log) <= Z.max (ac_steps c) 1 + Z.of_nat N - 1)%Z) /\
  number is_finish log <= 1 /\ number is_win log <= 1 /\
  length sched <= (13 + ac_hooks c) * (number is_step log + N) /\
  (1 <= N -> (1 <= ac_steps c)%Z -> all_closed phs ->
     number is_step log = length (a_counts log) /\
     ((ac_steps c <= Z.of_nat (length (a_counts log)))%Z \/ seen) /\
     number is_finish log = (if (ac_steps c <=? Z.of_nat (length (a_counts log)))%Z then 1 else 0) /\
     (number is_win log = 1 <-> seen)).
Proof. exact @async_ok. Qed.
Print Assumptions C21_async_training_partial.

(** A process that has neither returned nor failed can always make its next action. *)
Theorem C21_no_deadlock : forall (Obs Act Rw : Type) (rzero : Rw) (c : aconfig) (s : @astate Obs Act Rw) (i : nat) (w : @proc Obs Act Rw)
  (o : Obs) (a : Act) (rw : Rw), nth_error (as_procs s) i = Some w -> w_pc w <> PExit -> w_st w = Live ->
  exists r, r <> RExc /\ astep rzero c s (i, r) <> None.
Proof. exact @async_progress. Qed.
Print Assumptions C21_no_deadlock.

(** Two processes, two steps, one hook: process 1 gets the last step and saves. *)
Definition ex_sched : list (nat * @aans nat nat nat) :=
  let x := RStep (5, 1, false, false) in
  [(0, RObs 3); (1, RObs 4); (1, RAct 8); (0, RAct 7); (0, x); (1, x); (0, ROk); (1, ROk); (1, ROk); (0, ROk);
   (0, ROk); (1, ROk); (1, ROk); (1, ROk); (1, ROk); (1, ROk); (1, ROk); (1, ROk);
   (0, RAct 9); (0, x); (0, ROk); (0, ROk); (0, ROk); (0, ROk); (0, ROk); (0, ROk); (0, ROk); (0, ROk); (0, ROk)].
Definition ex_final (c : aconfig) : option (list (nat * @aev nat nat nat) * list bool) :=
  option_map (fun s => (as_log s, map (fun w => match w_pc w with PExit => true | _ => false end) (as_procs s)))
    (arun 0 c (astate0 2) ex_sched).
Example C21_example : ex_final (mk_aconfig 2 0 None 1 false None) =
  Some ([(0, AReset 3); (1, AReset 4); (1, AAct 4 0 8); (0, AAct 3 0 7); (0, AStep 7 (5, 1, false, false)); (1, AStep 8 (5, 1, false, false));
         (0, ACount 1); (1, ACount 2); (1, AHook 0 2); (0, AHook 0 1); (1, AStop 5 1 false); (1, AEpisode 1); (1, ASave AFinish 2);
         (1, AClose); (0, AAct 5 1 9); (0, AStep 9 (5, 1, false, false)); (0, ACount 3); (0, AHook 0 3); (0, AStop 5 1 false);
         (0, AEpisode 2); (0, AClose)], [true; true]).
Proof. vm_compute. reflexivity. Qed.

(** step_offset is not taken into account: training that should start at step 2 of
    2 still makes two and more steps (train_agent makes none). *)
Theorem C21_step_offset_refuted : exists (c : aconfig) (sched : list (nat * @aans nat nat nat)) s,
  ac_offset c = ac_steps c /\ arun 0 c (astate0 2) sched = Some s /\ a_counts (as_log s) = [1; 2; 3]%Z.
Proof.
  exists (mk_aconfig 2 2 None 1 false None), ex_sched. eexists. split; [reflexivity|]. split; vm_compute; reflexivity.
Qed.
Print Assumptions C21_step_offset_refuted.
