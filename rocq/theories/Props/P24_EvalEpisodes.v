(** C24, C25: run_evaluation_episodes and batch_run_evaluation_episodes. *)
From Verif Require Import Base.PyBase Base.Effects Model.TrainAgent Model.Evaluator Spec.EvalEpisodesSpec Spec.BatchEvalSpec
  Proofs.EvalEpisodesProofs Proofs.BatchEvalProofs.
Local Open Scope nat_scope.

(** C24: every evaluation follows the protocol [vpstep]; when it ends, the scores
    are the returns of its complete episodes in order - exactly n of them for
    n_episodes = n -, and for n_steps = n exactly n steps were made and the score
    of the cut off episode is given only if no episode was completed. *)
Theorem C24_evaluation_episodes : forall (Obs Act Rw : Type) (rzero : Rw) (radd : Rw -> Rw -> Rw)
  (w : @vworld Obs Act Rw) (b : budget) (maxlen : option Z) (fuel : nat), positive b ->
  let (out, tr) := run_evaluation_episodes rzero radd w b maxlen fuel [] in
  exists p, vpath maxlen QReset tr p /\
  match out with
  | Ok scores => (exists tr0, tr = tr0 ++ [VStop]) /\
      exists gs part, episodes tr = gs ++ part /\ Forall (complete maxlen) gs /\
        scores = map (return_of rzero radd) (match gs with [] => part | _ => gs end) /\
        match b with
        | ForSteps n => Z.of_nat (total_steps (gs ++ part)) = n
        | ForEpisodes n => Z.of_nat (length gs) = n /\ part = []
        end /\
        (part = [] \/ exists g, part = [g] /\ g <> [] /\ running maxlen g)
  | Raise e => from_vworld w e \/ (e = OutOfFuel /\ ~ enough maxlen b fuel)
  end.
Proof. exact @run_evaluation_ok. Qed.
Print Assumptions C24_evaluation_episodes.

Definition ex_vworld : @vworld nat nat nat :=
  mk_vworld (fun tr => Ok 0) (fun tr => Ok 7) (fun tr => Ok (length tr, length tr, Nat.eqb (length tr) 4, false)) (fun _ => Ok tt).
Example C24_example : fst (run_evaluation_episodes 0 Nat.add ex_vworld (ForEpisodes 2) (Some 3%Z) 10 []) = Ok [6; 30] /\
  fst (run_evaluation_episodes 0 Nat.add ex_vworld (ForSteps 4) (Some 3%Z) 10 []) = Ok [6].
Proof. vm_compute. auto. Qed.

(** C25: with [n] envs, the evaluation goes on until the budget is used up and no
    longer, and reports the returns of the first episodes in the order in which
    they were STARTED (see [started_after] and [reported]). *)
Theorem C25_batch_evaluation : forall (Obs Act Rw : Type) (rzero : Rw) (radd : Rw -> Rw -> Rw)
  (w : @wworld Obs Act Rw) (b : budget) (maxlen : option Z) (N : nat), 1 <= N ->
  match b with ForSteps n => (1 <= n)%Z | ForEpisodes n => (0 <= n)%Z end ->
  (forall tr xs, ww_step w tr = Ok xs -> length xs = N) -> forall fuel,
  let (out, tr) := batch_run_evaluation_episodes rzero radd w b maxlen N fuel [] in
  let eps k := started_after maxlen N (firstn k (answers tr)) in
  (forall k, 0 < k < length (answers tr) -> ~ used_up b (eps k)) /\
  match out with
  | Ok rs => used_up b (eps (length (answers tr))) /\ reported (return_of rzero radd) b (eps (length (answers tr))) rs /\
      last_observe N tr
  | Raise e => from_wworld w e \/ (e = OutOfFuel /\ ~ (1 <= fuel /\ enough maxlen b fuel))
  end.
Proof. intros Obs Act Rw rzero radd w b maxlen N HN Hpos Hw fuel. exact (batch_eval_ok rzero radd maxlen b HN Hpos w Hw fuel). Qed.
Print Assumptions C25_batch_evaluation.

(** Env 0 has one long episode (three steps), env 1 ends one at every step: the
    first two episodes are the long one and the first short one. *)
Definition ex_wworld : @wworld nat nat nat :=
  mk_wworld (fun tr => Ok [0; 0]) (fun tr => Ok [1; 1])
    (fun tr => let k := length (answers tr) in Ok [(0, 10, Nat.eqb k 2, false); (0, S k, true, false)]) (fun _ => Ok tt).
Example C25_example : fst (batch_run_evaluation_episodes 0 Nat.add ex_wworld (ForEpisodes 2) None 2 10 []) = Ok [30; 1].
Proof. vm_compute. reflexivity. Qed.
