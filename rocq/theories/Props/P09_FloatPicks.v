(** C09: picks on IEEE double priorities. *)
From Coq Require Import Floats.
From Verif Require Import Base.PyBase Model.Num Model.Random Model.TreeQueue Model.PrioritizedBuffer
     Spec.PrioritizedBufferHistory.
Open Scope float_scope.

(** C09 is false.  With the three priorities 0.1, 0.5, 1.1 and the underlying
    draw u = 1 - 2^-53 (the largest double below 1, which numpy can return), the
    stored total is 1.7000000000000002, the draw is 1.7, strictly smaller, and
    the position found is 3: outside the queue of length 3. *)
Definition ex_prios : list (pb_op FNum nat) :=
  [PAppend FNum 0%nat (Some 0x1.999999999999ap-4); PAppend FNum 1%nat (Some 0.5); PAppend FNum 2%nat (Some 0x1.199999999999ap+0)].
Definition u_max : float := 0x1.fffffffffffffp-1.

Theorem C09_pick_outside_queue_refuted :
  exists (b : pb FNum nat) il ir t total,
    pb_execs (pb_init FNum None true 1) ex_prios = Ok b /\
    tq_len (pb_sums b) = 3%Z /\
    tq_body (pb_sums b) = Some (il, ir, t) /\
    stq_sum FNum (pb_sums b) = Ok total /\
    (uniform0 FNum total u_max <? total) = true /\
    find FNum (width il ir) il ir t (uniform0 FNum total u_max) = Ok 3%Z.
Proof. do 5 eexists. repeat (split; [vm_compute; reflexivity|]). vm_compute; reflexivity. Qed.
Print Assumptions C09_pick_outside_queue_refuted.

(** The sampling call then fails with a TypeError (None priority), and the queue
    is left damaged: the stray position now holds a value, so that the next
    append violates the queue's own assertion. *)
Theorem C09_sample_raises_and_breaks_queue_refuted :
  exists (b : pb FNum nat) q ixs vals,
    pb_execs (pb_init FNum None true 1) ex_prios = Ok b /\
    is_ok (pb_sample b 1 0 (mk_draws FNum 0 0 (mk_rng [] (fun _ => [])) (fun _ => u_max))) = false /\
    stq_prioritized_sample FNum (pb_sums b) [u_max] true = Ok (ixs, vals, q) /\
    vals = [None] /\ tq_append (op_sum FNum) q 1 = Raise AssertionError.
Proof. do 4 eexists. repeat (split; [vm_compute; reflexivity|]). vm_compute; reflexivity. Qed.
Print Assumptions C09_sample_raises_and_breaks_queue_refuted.
