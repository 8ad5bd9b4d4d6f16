(** C03-C05: the priority queues. *)
From Coq Require Import QArith.
From Verif Require Import Base.PyBase Model.Num Model.TreeQueue Spec.PrioritySpec Spec.PriorityQueueSpec
     Spec.PrioritizedBufferSpec Proofs.PriorityQueueProofs.
Open Scope Q_scope.

(** C03: over every history, SumTreeQueue answers like the plain FIFO list (the
    total is the exact sum) and still holds exactly that list. *)
Theorem C03_sum_queue_refines_list : forall os, lq_safe is_sumQ [] os ->
  exists l, lq_steps is_sumQ [] os (fst (lq_run (op_sum QNum) tq_init os)) l /\
    drain (op_sum QNum) (length l) (snd (lq_run (op_sum QNum) tq_init os)) = map Some l /\
    tq_len (snd (lq_run (op_sum QNum) tq_init os)) = Z.of_nat (length l).
Proof. exact sum_queue_refines. Qed.
Print Assumptions C03_sum_queue_refines_list.

(** C03: the same for MinTreeQueue and the minimum. *)
Theorem C03_min_queue_refines_list : forall os, Forall no_sampling os ->
  exists l, lq_steps is_minQ [] os (fst (lq_run (op_min QNum) tq_init os)) l /\
    drain (op_min QNum) (length l) (snd (lq_run (op_min QNum) tq_init os)) = map Some l /\
    tq_len (snd (lq_run (op_min QNum) tq_init os)) = Z.of_nat (length l).
Proof. exact min_queue_refines. Qed.
Print Assumptions C03_min_queue_refines_list.

(** C04: in every reachable queue the position found for a draw [u] is the only
    one whose interval contains [u]; the interval's length is the priority. *)
Theorem C04_find_is_proportional : forall os, lq_safe is_sumQ [] os ->
  let q := snd (lq_run (op_sum QNum) tq_init os) in
  exists l, lq_steps is_sumQ [] os (fst (lq_run (op_sum QNum) tq_init os)) l /\ holds q l /\
    forall u, (forall x, In x l -> 0 <= x) -> 0 <= u < sumQ l ->
      exists il ir t i p, tq_body q = Some (il, ir, t) /\
        find QNum (width il ir) il ir t u = Ok (Z.of_nat i) /\
        nth_error l i = Some p /\ 0 < p /\
        sumQ (firstn i l) <= u < sumQ (firstn i l) + p /\
        (forall j r, nth_error l j = Some r -> sumQ (firstn j l) <= u < sumQ (firstn j l) + r -> j = i).
Proof. exact find_reachable. Qed.
Print Assumptions C04_find_is_proportional.

(** C05: n picks are n distinct positions of positive priority; priorities are
    restored, or exactly the picked ones become zero. *)
Theorem C05_prioritized_sample : forall os us remove, lq_safe is_sumQ [] os ->
  let q := snd (lq_run (op_sum QNum) tq_init os) in
  exists l, holds q l /\
    ((forall x, In x l -> 0 <= x) -> (length us <= positives l)%nat -> (forall u, In u us -> 0 <= u < 1) ->
     exists ixs vals q' l', lq_exec (op_sum QNum) q (LPick us remove) = (LSampled ixs vals, q') /\
       length ixs = length us /\ NoDup ixs /\
       Forall2 (fun i v => nth_error l i = Some v /\ 0 < v) ixs vals /\
       holds q' l' /\ length l' = length l /\
       forall j, nth_error l' j = (if remove then (if in_dec Nat.eq_dec j ixs then Some 0 else nth_error l j)
                                   else nth_error l j)).
Proof. exact pick_reachable. Qed.
Print Assumptions C05_prioritized_sample.

Theorem C05_uniform_sample : forall os ixs remove, lq_safe is_sumQ [] os ->
  let q := snd (lq_run (op_sum QNum) tq_init os) in
  exists l, holds q l /\
    (NoDup ixs -> (forall i, In i ixs -> (i < length l)%nat) ->
     exists vals q' l', lq_exec (op_sum QNum) q (LUniform ixs remove) = (LSampled ixs vals, q') /\
       Forall2 (fun i v => nth_error l i = Some v) ixs vals /\
       holds q' l' /\ length l' = length l /\
       forall j, nth_error l' j = (if remove then (if in_dec Nat.eq_dec j ixs then Some 0 else nth_error l j)
                                   else nth_error l j)).
Proof. exact uniform_reachable. Qed.
Print Assumptions C05_uniform_sample.

(** A concrete history meeting the hypotheses: append five, pop one, assign one,
    sample two without restoring, ask for the total. *)
Definition ex_hist : list lq_op :=
  [LAppend 1; LAppend 2; LAppend 3; LAppend 4; LAppend 5; LPopleft; LSet 1 7; LSet 9 1;
   LPick [1#2; 0] true; LTotal; LPopleft].
Example C03_example_safe : lq_safe is_sumQ [] ex_hist.
Proof.
  unfold ex_hist.
  repeat (constructor; [exact I|]; intros r l' Hs; inversion Hs; subst; clear Hs;
          try (exfalso; match goal with H : (0 <= 9 < ?n)%Z |- _ => let m := eval vm_compute in n in change n with m in H; lia end);
          try (exfalso; match goal with H : ~ (0 <= 1 < ?n)%Z |- _ => let m := eval vm_compute in n in change n with m in H; lia end)).
  constructor.
  - split; [|split; [vm_compute; lia|]].
    + intros x Hx. cbn in Hx. destruct Hx as [<-|[<-|[<-|[<-|[]]]]]; discriminate.
    + intros u Hu. cbn in Hu. destruct Hu as [<-|[<-|[]]]; (split; [discriminate|reflexivity]).
  - intros r l' Hs; inversion Hs; subst; clear Hs.
    apply lsafe_cons; [exact I|]. intros r1 l1 _. apply lsafe_cons; [exact I|]. intros r2 l2 _. apply lsafe_nil.
Qed.
Example C03_example_outputs :
  fst (lq_run (op_sum QNum) tq_init ex_hist) =
  [LUnit; LUnit; LUnit; LUnit; LUnit; LVal 1; LUnit; LErr AssertionError;
   LSampled [2; 0]%nat [4; 2]; LVal 12; LVal 0].
Proof. vm_compute. reflexivity. Qed.
