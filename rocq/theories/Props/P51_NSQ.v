(** C51: NSQ synchronises its target once per interval under every schedule. *)
From Coq Require Import Permutation.
From Verif Require Import Base.PyBase Model.NSQ Spec.NSQSpec Proofs.NSQProofs.

(** The counter counts every call once: the values read under the lock are
    1, 2, ..., t, each once, in this order. *)
Theorem C51_nsq_counter : forall P i (tg : P) qs sch s, n_run i (n_init tg qs) sch = Some s -> ns_seen s = seq 1 (ns_t s).
Proof. exact @counter_lemma. Qed.
Print Assumptions C51_nsq_counter.

(** At every point of every schedule, the copies made and those a process is
    still about to make are one for each multiple of [i_target] up to the
    counter, and no other. *)
Theorem C51_nsq_sync_once : forall P i (tg : P) qs sch s, 1 <= i -> n_run i (n_init tg qs) sch = Some s ->
  NoDup (ns_syncs s ++ pending s) /\ length (ns_syncs s ++ pending s) = ns_t s / i
  /\ (forall v, In v (ns_syncs s ++ pending s) <-> 1 <= v <= ns_t s /\ v mod i = 0).
Proof. exact @once_lemma. Qed.
Print Assumptions C51_nsq_sync_once.

(** When no process is between its lock and its copy, all have been made. *)
Theorem C51_nsq_quiescent : forall P i (tg : P) qs sch s, n_run i (n_init tg qs) sch = Some s -> quiescent s ->
  Permutation (ns_syncs s) (multiples i (ns_t s)).
Proof. exact @quiescent_lemma. Qed.
Print Assumptions C51_nsq_quiescent.

(** The copies are not ordered: as the copy is made outside the lock, the copy
    for a later multiple can be overwritten by an older q-function. *)
Theorem C51_nsq_order_refuted : exists sch s, n_run 1 (n_init 0 [10; 20]) sch = Some s /\ quiescent s
  /\ ns_syncs s = [2; 1] /\ ns_target s = 10.
Proof. exists [NStep 0; NStep 1; NStep 1; NStep 0]. eexists. split; [vm_compute; reflexivity|].
  split; [|split; vm_compute; reflexivity]. unfold quiescent. cbn [ns_procs]. repeat (apply Forall_cons; [reflexivity|]). apply Forall_nil. Qed.
Print Assumptions C51_nsq_order_refuted.

(** Non-vacuity: three processes, interval 2. *)
Example C51_ex : exists s, n_run 2 (n_init 0 [1; 2; 3]) [NStep 0; NStep 1; NLearn 2 7; NStep 2; NStep 0; NStep 1; NStep 1; NStep 0] = Some s
  /\ ns_t s = 5 /\ ns_syncs s = [2; 4] /\ pending s = [].
Proof. eexists. split; [vm_compute; reflexivity|]. split; [|split]; vm_compute; reflexivity. Qed.

(** Every scheduled shared step is either one passage through the lock or one copy. *)
Theorem C51_nsq_steps : forall P i sch (s s' : nstate P), n_run i s sch = Some s' ->
  length (ns_seen s') + length (ns_syncs s') = length (ns_seen s) + length (ns_syncs s)
    + length (filter (fun a => match a with NStep _ => true | NLearn _ _ => false end) sch).
Proof. exact @seen_steps. Qed.
Print Assumptions C51_nsq_steps.
