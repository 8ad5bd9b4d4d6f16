(** The shared part of n-step Q-learning's [act_and_train],
    chainerrl/agents/nsq.py:120-152: any number of processes, each running
    [act_and_train] again and again, interleaved by an arbitrary schedule.

    One call is two atomic steps: the increment of the shared counter under its
    lock (nsq.py:141-143), and, if the value read there is a multiple of
    [i_target], the copy of the process's own q-function into the shared target
    network (nsq.py:145-148), which happens outside the lock.  What the process
    does before the lock (nsq.py:122-140) touches neither; it may change the
    process's own q-function, which is the step [NLearn].  A parameter set is an
    opaque value of type [P]; copying it is one step, a simplification. *)
From Verif Require Import Base.PyBase.
Set Implicit Arguments.

Section NSQ.
Variable P : Type.

(** A process is before its lock block, or past it with a copy to make for the
    counter value it read. *)
Inductive nphase := NIdle | NCopying (v : nat).
Record nproc := NProc { np_phase : nphase; np_q : P }.
Record nstate := NState { ns_t : nat; ns_target : P; ns_procs : list nproc;
  ns_seen : list nat;          (** the counter values read, oldest first *)
  ns_syncs : list nat }.       (** the counter values whose copy was made *)

(** A step of the schedule: process [p] makes its next shared step, or learns. *)
Inductive nact := NStep (p : nat) | NLearn (p : nat) (q : P).

Definition n_step (i_target : nat) (s : nstate) (a : nact) : option nstate :=
  match a with
  | NLearn p q =>
      match nth_error (ns_procs s) p with
      | Some (NProc NIdle _) => Some (NState (ns_t s) (ns_target s) (upd (ns_procs s) p (NProc NIdle q)) (ns_seen s) (ns_syncs s))
      | _ => None
      end
  | NStep p =>
      match nth_error (ns_procs s) p with
      | Some (NProc NIdle q) =>
          let v := ns_t s + 1 in
          let ph := if v mod i_target =? 0 then NCopying v else NIdle in
          Some (NState v (ns_target s) (upd (ns_procs s) p (NProc ph q)) (ns_seen s ++ [v]) (ns_syncs s))
      | Some (NProc (NCopying v) q) =>
          Some (NState (ns_t s) q (upd (ns_procs s) p (NProc NIdle q)) (ns_seen s) (ns_syncs s ++ [v]))
      | None => None
      end
  end.

Fixpoint n_run (i_target : nat) (s : nstate) (sch : list nact) : option nstate :=
  match sch with
  | [] => Some s
  | a :: rest => match n_step i_target s a with Some s' => n_run i_target s' rest | None => None end
  end.

(** [t_global = mp.Value('l', 0)], nsq.py:64; all processes before their first call. *)
Definition n_init (target : P) (qs : list P) : nstate := NState 0 target (map (NProc NIdle) qs) [] [].
End NSQ.
Arguments NStep {P} p.
