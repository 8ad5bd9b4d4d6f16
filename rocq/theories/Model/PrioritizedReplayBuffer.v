(** Model of chainerrl/replay_buffers/prioritized.py lines 71-120:
    PrioritizedReplayBuffer = the n-step bookkeeping of ReplayBuffer over a
    PrioritizedBuffer, with PriorityWeightError for priorities and weights. *)
From Coq Require Import Reals.
From Verif Require Import Base.PyBase Model.Num Model.Random Model.TreeQueue Model.PrioritizedBuffer
     Model.ReplayBuffer Model.PriorityWeight.
Set Implicit Arguments.

(** The [num] instance of the reals, used when PriorityWeightError is plugged in. *)
Definition RNum : num :=
  mk_num 0%R 1%R Rplus Rminus Rmult Rdiv (fun a b => if Rlt_dec a b then true else false)
         (fun x => if Req_EM_T x 0%R then true else false) INR.

Section PRB.
  Variable N : num.
  Context {T : Type}.
  (** State and methods of the PriorityWeightError part: current state,
      [priority_from_errors], [weights_from_probabilities]. *)
  Context {W : Type}.
  Variable pri_of : W -> list (nV N) -> list (nV N).
  Variable weights_of : W -> nat -> list (nV N) -> nV N -> res (list (nV N) * W).

  Record prb := mk_prb { pr_core : nrb T (pb N (list T)); pr_w : W }.

  (** [self.memory.append(x)]: PrioritizedBuffer.append with no priority. *)
  Definition prb_push (m : pb N (list T)) (w : list T) : res (pb N (list T)) := pb_append m w None.

  (** prioritized.py:89-103 [__init__]; [init_max] is PrioritizedBuffer's
      initial max_priority (1.0). *)
  Definition prb_init (cap : option nat) (n : nat) (w : W) : res prb :=
    let! c := nrb_init n (pb_init N cap true (none_ N)) in Ok (mk_prb c w).

  (** prioritized.py:105-114 [sample].  The weights, which the code stores in the
      first transition of each window, are returned next to the windows. *)
  Definition prb_sample (b : prb) (n : nat) (d : draws N) : res (list (list T) * list (nV N) * prb) :=
    let m := nr_mem (pr_core b) in
    assert! n <=? length (pb_data m) in
    let! (xs, probs, mp, m') := pb_sample m n (nzero N) d in
    let! (ws, w') := weights_of (pr_w b) (length (pb_data m')) probs mp in
    Ok (xs, ws, mk_prb (mk_nrb (nr_n (pr_core b)) m' (nr_last (pr_core b))) w').

  (** prioritized.py:116-117 [update_errors]. *)
  Definition prb_update (b : prb) (errors : list (nV N)) : res prb :=
    let! m := pb_set_last (nr_mem (pr_core b)) (pri_of (pr_w b) errors) in
    Ok (mk_prb (mk_nrb (nr_n (pr_core b)) m (nr_last (pr_core b))) (pr_w b)).

  Inductive prb_op := BOp (o : rb_op T) | BSample (n : nat) (d : draws N) | BUpdate (errors : list (nV N)).

  Definition prb_step (b : prb) (o : prb_op) : res prb :=
    match o with
    | BOp o => let! c := nrb_step prb_push (pr_core b) o in Ok (mk_prb c (pr_w b))
    | BSample n d => let! (_, _, b') := prb_sample b n d in Ok b'
    | BUpdate es => prb_update b es
    end.

  Fixpoint prb_run (b : prb) (os : list prb_op) : res prb :=
    match os with [] => Ok b | o :: t => let! b' := prb_step b o in prb_run b' t end.

  (** The append/stop calls of a history. *)
  Fixpoint core_ops (os : list prb_op) : list (rb_op T) :=
    match os with [] => [] | BOp o :: t => o :: core_ops t | _ :: t => core_ops t end.
End PRB.
Arguments prb : clear implicits.
Arguments prb_op : clear implicits.

(** The class as it exists: PriorityWeightError plugged in. *)
Definition prb_real_run {T} (cap : option nat) (n : nat) (w : pwe) (os : list (prb_op RNum T))
  : res (prb RNum T pwe) :=
  let! b := prb_init RNum cap n w in
  prb_run (N := RNum) priority_from_errors weights_from_probabilities b os.
