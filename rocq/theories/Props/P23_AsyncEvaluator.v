(** C23: AsyncEvaluator shared by several processes. *)
From Coq Require Import QArith Permutation.
From Verif Require Import Base.PyBase Model.AsyncEvaluator Spec.EvaluatorSpec Spec.AsyncEvalSpec Proofs.AsyncEvaluatorProofs.
Local Open Scope nat_scope.

(** C23: under every schedule, with exceptions anywhere: the n-th evaluation is
    started by the one call that first finds its due step reached, and every other
    call answers None; the file is one header followed by exactly the recorded lines
    (or still empty); the shared maximum is the maximum of the single precision
    values of the scores; the best agent is saved exactly when a score exceeds it.
    If no call failed and all have returned, the scores counted in the maximum are
    exactly the recorded ones. *)
Theorem C23_async_evaluator_partial : forall (rnd : Q -> Q) (interval : Z) (save_best : bool) (m0 : Q) (offset : Z),
  (forall x y, (x <= y)%Q -> (rnd x <= rnd y)%Q) -> (forall x, (rnd (rnd x) == rnd x)%Q) -> (rnd m0 == m0)%Q ->
  forall (n : nat) (schedule : list (nat * vchoice)) (s : vstate),
  vrun rnd interval save_best (vinit interval m0 offset n) schedule = Some s ->
  on_time (offset - offset mod interval) interval 0 (vs_log s) /\
  (vs_file s = [] /\ log_records (vs_log s) = [] \/ vs_file s = FHeader :: log_records (vs_log s)) /\
  is_max m0 (map rnd (scores_counted (vs_log s))) (vs_max s) /\
  (if save_best then rrecords rnd m0 (scores_counted (vs_log s)) (vs_best s) else vs_best s = []) /\
  (no_failure (vs_log s) -> all_idle s -> Permutation (scores_recorded (vs_log s)) (scores_counted (vs_log s))).
Proof. exact async_eval_ok. Qed.
Print Assumptions C23_async_evaluator_partial.

(** Two processes; the second fails while writing the header, then tries again. *)
Definition ex_sched : list (nat * vchoice) :=
  [(0, CCall 12 1); (1, CCall 25 2); (1, CGo); (0, CGo); (1, CGo); (1, CExc); (1, CCall 30 3); (1, CGo); (1, CGo); (1, CGo);
   (1, CScore (3 # 4)); (1, CGo); (1, CGo); (0, CCall 41 4); (0, CGo); (0, CGo); (0, CScore (1 # 2)); (0, CGo); (0, CGo)].
Example C23_example : match vrun round24 10 true (vinit 10 0 5 2) ex_sched with
  | Some s => vs_file s = [FHeader; FRec 30 3 (3 # 4); FRec 41 4 (1 # 2)] /\ vs_best s = [3 # 4] /\ all_idle s /\
              vs_log s = [LStart 1 25; LSkip 0 12; LFail 1; LStart 1 30; LRecord 1 30 3 (3 # 4); LUpdate 1 (3 # 4); LStart 0 41; LRecord 0 41 4 (1 # 2); LUpdate 0 (1 # 2)]
  | None => False end.
Proof.
  vm_compute. split; [reflexivity|]. split; [reflexivity|]. split; [|reflexivity]. intros pc [<-|[<-|[]]]; reflexivity.
Qed.

(** Missing from C23: the maximum is not that of the scores themselves.  It is kept in
    single precision, so it may be lower than a recorded score, and an equal score is
    then saved as a better one. *)
Theorem C23_float_max_refuted :
  (forall x y, (x <= y)%Q -> (round24 x <= round24 y)%Q) /\ (forall x, (round24 (round24 x) == round24 x)%Q) /\
  exists (schedule : list (nat * vchoice)) (s : vstate),
  vrun round24 10 true (vinit 10 0 0 1) schedule = Some s /\ no_failure (vs_log s) /\ all_idle s /\
  scores_recorded (vs_log s) = [7 # 10; 7 # 10] /\ (vs_max s < 7 # 10)%Q /\ vs_best s = [7 # 10; 7 # 10].
Proof.
  split; [exact round24_mono|]. split; [exact round24_idem|].
  exists [(0, CCall 10 1); (0, CGo); (0, CGo); (0, CGo); (0, CScore (7 # 10)); (0, CGo); (0, CGo);
          (0, CCall 20 2); (0, CGo); (0, CGo); (0, CScore (7 # 10)); (0, CGo); (0, CGo)].
  eexists. split; [vm_compute; reflexivity|].
  split; [intros i Hi; cbn in Hi; intuition discriminate|]. split; [intros pc [<-|[]]; reflexivity|].
  split; [reflexivity|]. split; [vm_compute; reflexivity|reflexivity].
Qed.
Print Assumptions C23_float_max_refuted.
