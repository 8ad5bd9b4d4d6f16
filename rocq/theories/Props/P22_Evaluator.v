(** C22: Evaluator. *)
From Coq Require Import QArith.
From Verif Require Import Base.PyBase Model.Evaluator Spec.EvaluatorSpec Proofs.EvaluatorProofs.
Local Open Scope nat_scope.

(** C22: for non-decreasing step counts an evaluation happens at exactly the calls
    that reach a new multiple of the interval; every evaluation is recorded;
    max_score is the maximum of all scores; the best agent is saved exactly when a
    score is better than all before. *)
Theorem C22_evaluator : forall (m0 : Q) (save_best : bool) (interval offset : Z) (calls : list ecall),
  (0 < interval)%Z -> nondecreasing offset calls ->
  let '(e, outs) := ev_run interval save_best (evaluator_init m0 interval offset) calls in
  on_schedule interval offset calls outs /\
  ev_lines e = evaluated calls outs /\
  is_max m0 (map ec_score (evaluated calls outs)) (ev_max e) /\
  (if save_best then records m0 (map ec_score (evaluated calls outs)) (ev_best e) else ev_best e = []).
Proof. exact evaluator_ok. Qed.
Print Assumptions C22_evaluator.

Definition ex_calls : list ecall := [(7%Z, 1, 1%Q); (12%Z, 2, 3%Q); (19%Z, 3, 9%Q); (20%Z, 4, 2%Q); (45%Z, 5, 4%Q)].
Example C22_example : nondecreasing 5 ex_calls /\
  let '(e, outs) := ev_run 10 true (evaluator_init 0 10 5) ex_calls in
  outs = [None; Some 3%Q; None; Some 2%Q; Some 4%Q] /\ ev_max e = 4%Q /\ ev_best e = [3%Q; 4%Q].
Proof. split; [cbn; lia|]. vm_compute. auto. Qed.
