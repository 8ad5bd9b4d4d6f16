(** C104: creating, asking, closing and orphaning vector envs. *)
From Coq Require Import QArith.
From Verif Require Import Base.PyBase Model.GymEnv Model.VectorEnv Model.VectorLifecycle Spec.LifecycleSpec Proofs.LifecycleProofs.
Local Open Scope nat_scope.

(** MultiprocessVectorEnv.close, from any moment: whatever is still in the pipes, whichever workers have not begun, have failed or have ended, and in every schedule,
    close takes a bounded number of steps, never waits for ever, and when it returns every worker has ended and every env that ever existed has been closed exactly once. *)
Theorem C104_close : forall (A O X SR SP SC : Type) (E : env A O X) (eseed : est E -> option Z -> res (est E * SR)) (espaces : est E -> SP * SP) (espec : est E -> SC)
    inherits (ws : list (@lworker A O X SR SP SC E)), Forall closed_in_time ws ->
  forall sched s, lrun eseed espaces espec inherits (mk_lstate ws (PClosing 0)) sched = Some s ->
  length sched <= pending ws + 3 * length ws + 2 /\
  (l_parent s = PClosed -> Forall2 ended_cleanly ws (l_workers s)) /\
  (l_parent s <> PClosed -> exists p s', lstep eseed espaces espec inherits s p = Some s').
Proof. exact @close_ok. Qed.
Print Assumptions C104_close.

(** Every env_fn gets a worker; without env_fns, and only then, the constructor raises ValueError before it starts anything. *)
Theorem C104_workers : forall (A O X SR SP SC : Type) (E : env A O X) (fns : list (res (est E))),
  match linit E fns : res (@lstate A O X SR SP SC E) with
  | Ok s => fns <> [] /\ length (l_workers s) = length fns
  | Raise x => fns = [] /\ x = ValueError
  end.
Proof. exact @workers_of_fns. Qed.
Print Assumptions C104_workers.

(** The constructor, when the first env_fn succeeds, whatever the others do: in every schedule it gets the spaces of the first env after boundedly many steps.  So it does
    not notice that another env_fn raised. *)
Theorem C104_constructor : forall (A O X SR SP SC : Type) (E : env A O X) (eseed : est E -> option Z -> res (est E * SR)) (espaces : est E -> SP * SP) (espec : est E -> SC)
    inherits e rest (s0 : @lstate A O X SR SP SC E), linit E (Ok e :: rest) = Ok s0 ->
  forall sched s, lrun eseed espaces espec inherits s0 sched = Some s ->
  length sched <= 2 * S (length rest) + 3 /\
  (forall r, l_parent s = PGot r -> r = LSpacesAre (espaces e) /\ (exists w ws, l_workers s = w :: ws /\ idle_with e w) /\ Forall closed_in_time (l_workers s)) /\
  ((forall r, l_parent s <> PGot r) -> exists p s', lstep eseed espaces espec inherits s p = Some s').
Proof. exact @constructor_ok. Qed.
Print Assumptions C104_constructor.

(** When the first env_fn raises, the constructor neither returns nor raises: no schedule gets past its first question, and every schedule comes to a stop. *)
Theorem C104_constructor_refuted : forall (A O X SR SP SC : Type) (E : env A O X) (eseed : est E -> option Z -> res (est E * SR)) (espaces : est E -> SP * SP) (espec : est E -> SC)
    inherits x rest (s0 : @lstate A O X SR SP SC E), linit E (Raise x :: rest) = Ok s0 ->
  forall sched s, lrun eseed espaces espec inherits s0 sched = Some s ->
  length sched <= 2 * S (length rest) + 3 /\ (l_parent s = PAsk QSpaces \/ l_parent s = PWait QSpaces).
Proof. exact @broken_forever. Qed.
Print Assumptions C104_constructor_refuted.

(** Asking the first env later, for its spaces or its spec: in every schedule the answer is right, comes after boundedly many steps, and leaves the worker idle. *)
Theorem C104_spec : forall (A O X SR SP SC : Type) (E : env A O X) (eseed : est E -> option Z -> res (est E * SR)) (espaces : est E -> SP * SP) (espec : est E -> SC)
    inherits q e (w : @lworker A O X SR SP SC E) ws, idle_with e w -> Forall closed_in_time (w :: ws) ->
  forall sched s, lrun eseed espaces espec inherits (mk_lstate (w :: ws) (PAsk q)) sched = Some s ->
  length sched <= pending (w :: ws) + 3 /\
  (forall r, l_parent s = PGot r -> r = right_answer espaces espec q e /\ (exists w' ws', l_workers s = w' :: ws' /\ idle_with e w') /\ Forall closed_in_time (l_workers s)) /\
  ((forall r, l_parent s <> PGot r) -> exists p s', lstep eseed espaces espec inherits s p = Some s').
Proof. exact @ask_ok. Qed.
Print Assumptions C104_spec.

(** The spec of a SerialVectorEnv is never that of its first env, unlike that of a MultiprocessVectorEnv: it is the observation space. *)
Theorem C104_serial_spec_refuted : forall (A O X SR SP SC : Type) (E : env A O X) (espaces : est E -> SP * SP) (espec : est E -> SC) e,
  ser_spec E (SC := SC) espaces e = IsSpace (snd (espaces e)) /\ Some (ser_spec E (SC := SC) espaces e) <> mp_spec (right_answer (SR := SR) espaces espec QSpec e).
Proof. intros. split; [reflexivity|discriminate]. Qed.
Print Assumptions C104_serial_spec_refuted.

(** When the main process is killed, a worker that waits for a command waits for ever, whatever the schedule: it holds the other end of its pipe itself. *)
Theorem C104_orphans_refuted : forall (A O X SR SP SC : Type) (E : env A O X) (eseed : est E -> option Z -> res (est E * SR)) (espaces : est E -> SP * SP) (espec : est E -> SC)
    i (w : @lworker A O X SR SP SC E), l_in w = [] -> (exists e, l_proc w = Running e) ->
  forall sched ws s, nth_error ws i = Some w -> lrun eseed espaces espec true (mk_lstate ws PDead) sched = Some s -> nth_error (l_workers s) i = Some w.
Proof. exact @orphan_stays. Qed.
Print Assumptions C104_orphans_refuted.

(** A program whose workers closed what they inherit would not have that fault: every schedule is bounded, and when it stops all workers have ended and all envs are closed once. *)
Theorem C104_orphans_without_inheritance : forall (A O X SR SP SC : Type) (E : env A O X) (eseed : est E -> option Z -> res (est E * SR)) (espaces : est E -> SP * SP) (espec : est E -> SC)
    (ws : list (@lworker A O X SR SP SC E)), Forall closed_in_time ws -> forall sched s, lrun eseed espaces espec false (mk_lstate ws PDead) sched = Some s ->
  length sched <= pending ws /\ ((forall p, lstep eseed espaces espec false s p = None) -> Forall2 ended_cleanly ws (l_workers s)).
Proof. exact @orphans_leave. Qed.
Print Assumptions C104_orphans_without_inheritance.

(** Every history of calls of a MultiprocessVectorEnv, its closing and its garbage collection included: the close messages are sent once at most, and a call raises
    AssertionError exactly when the env was closed before it, except that the garbage collector may close a closed env and that a spec asked for in time stays known. *)
Theorem C104_after_close : forall (A : Type) (us : list (@ucall A)) s xs, users (@mp_user A) mp_init us = (s, xs) ->
  length xs = length us /\ mp_closes s = (if existsb ends us then 1 else 0) /\ forall i u, nth_error us i = Some u -> nth_error xs i = Some (expected (firstn i us) u).
Proof. exact @users_ok. Qed.
Print Assumptions C104_after_close.

(** A SerialVectorEnv has no such end: no call is refused, and its envs are closed as often as close is called. *)
Theorem C104_serial_close_refuted : forall (A : Type) (us : list (@ucall A)) n, exists m, users (@ser_user A) n us = (m, repeat None (length us)) /\
  m = n + length (filter (fun u => match u with UClose => true | _ => false end) us).
Proof. exact @serial_users. Qed.
Print Assumptions C104_serial_close_refuted.

(** *** Cases that meet the hypotheses *)
Definition cnt : env nat nat unit :=
  mk_env (fun n a => if a =? 9 then Raise RuntimeError else Ok (n + a, mk_sout (n + a) 1%Q false (mk_info false tt))) (fun _ => Ok (0, 0)) (fun _ => 0).
Definition cntseed (n : nat) (z : option Z) : res (nat * nat) := Ok (n, n).
Definition lw := @lworker nat nat unit nat nat nat cnt.
Definition at_ (n : nat) : @lproc nat nat unit cnt := @Running nat nat unit cnt n.
Definition soon (n : nat) : @lproc nat nat unit cnt := @Starting nat nat unit cnt (Ok n).
Definition lruns := @lrun nat nat unit nat nat nat cnt cntseed (fun n => (n, S n)) (fun n => n + 100).
(** Closing with a call in a pipe that will raise, a worker that has not begun, one whose env_fn raises, and one that has ended. *)
Example C104_close_case : let ws : list lw := [mk_lworker [LCall (CStep 9)] [] (at_ 5) 0; mk_lworker [] [] (soon 6) 0; mk_lworker [] [] (Starting (Raise KeyError)) 0; mk_lworker [] [] (Ended true) 1] in
  Forall closed_in_time ws /\ exists s, lruns true (mk_lstate ws (PClosing 0))
    [Worker 0; Parent; Parent; Parent; Parent; Parent; Parent; Worker 2; Worker 1; Worker 1; Parent; Parent; Parent; Parent] = Some s /\
    l_parent s = PClosed /\ map (fun w => l_closes w) (l_workers s) = [1; 1; 0; 1].
Proof. split; [repeat constructor|]. eexists. split; [vm_compute; reflexivity|]. split; reflexivity. Qed.
Example C104_constructor_case : exists (s0 : @lstate nat nat unit nat nat nat cnt) s, linit cnt [Ok (5 : est cnt); Raise KeyError] = Ok s0 /\
  lruns true s0 [Parent; Worker 1; Worker 0; Worker 0; Parent] = Some s /\ l_parent s = PGot (LSpacesAre (5, 6)).
Proof. do 2 eexists. split; [reflexivity|]. split; [vm_compute; reflexivity|reflexivity]. Qed.
Example C104_constructor_refuted_case : exists (s0 : @lstate nat nat unit nat nat nat cnt) s, linit cnt [Raise KeyError; Ok (5 : est cnt)] = Ok s0 /\
  lruns true s0 [Parent; Worker 1; Worker 0] = Some s /\ l_parent s = PWait QSpaces /\ forall p, lruns true s [p] = None.
Proof. do 2 eexists. split; [reflexivity|]. split; [vm_compute; reflexivity|]. split; [reflexivity|]. intros [|[|[|i]]]; try reflexivity. vm_compute. destruct i; reflexivity. Qed.
Example C104_spec_case : let w : lw := mk_lworker [] [] (at_ 5) 0 in idle_with (E := cnt) (5 : est cnt) w /\ Forall closed_in_time [w; w] /\
  exists s, lruns true (mk_lstate [w; w] (PAsk QSpec)) [Parent; Worker 0; Parent] = Some s /\ l_parent s = PGot (LSpecIs 105).
Proof. split; [split; [reflexivity|split; [reflexivity|left; reflexivity]]|]. split; [repeat constructor|]. eexists. split; [vm_compute; reflexivity|reflexivity]. Qed.
(** An orphan finishes the command it had, then waits; with the ends closed it ends. *)
Example C104_orphans_case : let ws : list lw := [mk_lworker [] [] (at_ 5) 0; mk_lworker [LCall (CStep 1)] [] (at_ 6) 0] in
  (exists s, lruns true (mk_lstate ws PDead) [Worker 1] = Some s /\ forall p, lruns true s [p] = None) /\
  exists s, lruns false (mk_lstate ws PDead) [Worker 1; Worker 1; Worker 0] = Some s /\ map (fun w => l_closes w) (l_workers s) = [1; 1].
Proof.
  split; eexists; (split; [vm_compute; reflexivity|]); [|reflexivity]. intros [|[|[|i]]]; try reflexivity. vm_compute. destruct i; reflexivity.
Qed.
Example C104_after_close_case : snd (users (@mp_user nat) mp_init [USpec; UClose; USpec; UCall (KStep [1]); UClose; UDel]) = [None; None; None; Some AssertionError; Some AssertionError; None] /\
  snd (users (@mp_user nat) mp_init [UDel; USpec]) = [None; Some AssertionError].
Proof. split; reflexivity. Qed.
