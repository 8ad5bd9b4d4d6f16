(** C29: MultiprocessVectorEnv against SerialVectorEnv. *)
From Coq Require Import QArith.
From Verif Require Import Base.PyBase Model.GymEnv Model.VectorEnv Spec.VectorSpec Proofs.MultiprocessProofs.
Local Open Scope nat_scope.

(** For every history of well-shaped calls that a SerialVectorEnv answers, and every
    schedule of the parent and the worker processes: the answers given so far are
    the serial ones (seed apart, which returns None there); the schedule is bounded;
    if it cannot be continued the whole history has been answered, all pipes are
    empty and the envs are in the serial states. *)
Theorem C29_multiprocess_is_serial_partial : forall (A O X SR : Type) (E : env A O X)
    (eseed : est E -> option Z -> res (est E * SR)) es calls s_fin outs,
  Forall (call_fits (length es)) calls -> ser_calls E eseed (ser_init E es) calls = Ok (s_fin, outs) ->
  forall sched s, mrun eseed (minit E es calls) sched = Some s ->
  length sched <= length calls * (3 * length es + 4) /\
  Forall2 same_answer (firstn (length (m_done s)) outs) (m_done s) /\
  (m_phase s = Ready -> m_todo s = [] ->
     length (m_done s) = length outs /\
     m_workers s = map (fun e => mk_worker E [] [] (Some e)) (fst s_fin) /\ m_last s = snd s_fin) /\
  (~ (m_phase s = Ready /\ m_todo s = []) -> exists p s', mstep eseed s p = Some s').
Proof. exact @multiprocess_serial. Qed.
Print Assumptions C29_multiprocess_is_serial_partial.

(** A counting environment whose step raises on action 9. *)
Definition counter : env nat nat unit :=
  mk_env (fun n a => if a =? 9 then Raise RuntimeError
                     else Ok (n + a, mk_sout (n + a) 1%Q false (mk_info false tt)))
         (fun _ => Ok (0, 0)) (fun _ => 0).
Definition cseed (n : nat) (z : option Z) : res (nat * nat) := Ok (match z with Some z => Z.to_nat z | None => n end, n).
Definition mruns := @mrun nat nat unit nat counter cseed.
Definition msteps := @mstep nat nat unit nat counter cseed.
Example C29_example : let calls := [KReset None; KStep [1; 2]; KReset (Some [true; false]); KSeed (SeedList [Some 3%Z; None])] in
  Forall (call_fits 2) calls /\
  exists s_fin outs, ser_calls counter cseed (ser_init counter [5; 6]) calls = Ok (s_fin, outs) /\
  map (fun a => match a with AReset l => l | AStep ss => map (fun x => Some (so_obs x)) ss | _ => [] end) outs =
  [[Some 0; Some 0]; [Some 1; Some 2]; [Some 1; Some 0]; []] /\
  exists s, mruns (minit (SR := nat) counter [5; 6] (firstn 2 calls))
    [Parent; Parent; Worker 0; Parent; Parent; Parent; Worker 1; Parent; Parent;
     Parent; Parent; Parent; Worker 1; Parent; Worker 0; Parent; Parent; Parent] = Some s /\
  m_phase s = Ready /\ m_done s = firstn 2 outs.
Proof.
  split; [repeat constructor|]. do 2 eexists. split; [vm_compute; reflexivity|]. split; [vm_compute; reflexivity|].
  eexists. split; [vm_compute; reflexivity|]. split; vm_compute; reflexivity.
Qed.

(** Not equal in general.  1: with fewer actions than envs SerialVectorEnv steps the
    first envs, MultiprocessVectorEnv waits forever. *)
Theorem C29_short_actions_refuted : exists sched s,
  is_ok (ser_calls counter cseed (ser_init counter [5; 6]) [KStep [1]]) = true /\
  mruns (minit (SR := nat) counter [5; 6] [KStep [1]]) sched = Some s /\ m_done s = [] /\
  forall p, msteps s p = None.
Proof.
  exists [Parent; Parent; Parent; Parent; Worker 0; Parent]. eexists. split; [vm_compute; reflexivity|]. split; [vm_compute; reflexivity|].
  split; [vm_compute; reflexivity|]. intros [|[|[|[|i]]]]; vm_compute; reflexivity.
Qed.
Print Assumptions C29_short_actions_refuted.

(** 2: an exception in an env is raised by SerialVectorEnv, but leaves
    MultiprocessVectorEnv waiting forever. *)
Theorem C29_env_exception_refuted : exists sched s,
  ser_calls counter cseed (ser_init counter [5; 6]) [KStep [9; 1]] = Raise RuntimeError /\
  mruns (minit (SR := nat) counter [5; 6] [KStep [9; 1]]) sched = Some s /\ m_done s = [] /\
  forall p, msteps s p = None.
Proof.
  exists [Parent; Parent; Parent; Parent; Worker 0; Worker 1]. eexists. split; [vm_compute; reflexivity|]. split; [vm_compute; reflexivity|].
  split; [vm_compute; reflexivity|]. intros [|[|[|[|i]]]]; vm_compute; reflexivity.
Qed.
Print Assumptions C29_env_exception_refuted.

(** 3: seed() and seed(0) are accepted by one and rejected by the other. *)
Theorem C29_seed_refuted : exists sched s,
  ser_calls counter cseed (ser_init counter [5; 6]) [KSeed (SeedInt 3)] = Raise TypeError /\
  mruns (minit (SR := nat) counter [5; 6] [KSeed (SeedInt 3)]) sched = Some s /\ m_phase s = Ready /\
  m_done s = [ASeed [5; 6]].
Proof.
  exists [Parent; Parent; Parent; Parent; Worker 0; Worker 1; Parent; Parent; Parent]. eexists.
  split; [vm_compute; reflexivity|]. split; [vm_compute; reflexivity|]. split; vm_compute; reflexivity.
Qed.
Print Assumptions C29_seed_refuted.
