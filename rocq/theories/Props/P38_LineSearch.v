(** C38: TRPO's line search. *)
From Coq Require Import QArith.
From Verif Require Import Base.PyBase Model.LineSearch Spec.LineSearchSpec Proofs.LineSearchProofs.
Local Open Scope nat_scope.

(** C38: whatever the gain and the KL divergence of the candidates are, the search
    ends with the parameters moved by the first acceptable [step / 2^i],
    [i <= max_backtrack], or, when there is none, with exactly the old parameters;
    the recorded step size and KL divergence are those of the result. *)
Theorem C38_line_search : forall evaluate gain max_kl params step, Forall well_formed params -> length step = length (flatten params) ->
  forall max_backtrack, exists out, line_search evaluate gain max_kl max_backtrack params step = Ok out /\
    ((exists i, i <= max_backtrack /\ moved params step (half i) (o_params out) /\ acceptable gain max_kl (evaluate (o_params out)) /\
        o_step_size out = half i /\ o_kl out = Some (snd (evaluate (o_params out))) /\
        forall j ps, j < i -> moved params step (half j) ps -> ~ acceptable gain max_kl (evaluate ps)) \/
     (o_params out = params /\ o_step_size out = 0%Q /\ o_kl out = None /\
        forall j ps, j <= max_backtrack -> moved params step (half j) ps -> ~ acceptable gain max_kl (evaluate ps))).
Proof. exact line_search_spec. Qed.
Print Assumptions C38_line_search.

(** The candidate of each step size exists and is unique. *)
Theorem C38_candidates : forall params step s, Forall well_formed params -> length step = length (flatten params) ->
  exists ps, moved params step s ps /\ forall ps', moved params step s ps' -> ps' = ps.
Proof.
  intros params step s W L. destruct (@moved_exists params step W L s) as [ps M]. exists ps. split; [exact M|].
  intros ps' M'. exact (@moved_unique _ _ _ _ _ W L M' M).
Qed.
Print Assumptions C38_candidates.

(** A model with a 2x1 matrix and a bias whose KL divergence is the square of the
    bias's change, and whose gain is not finite for large steps. *)
Definition ex_params : list param := [mk_param [2; 1] [1; 2]%Q; mk_param [1] [0]%Q].
Definition ex_eval (ps : list param) : fl * fl :=
  match ps with
  | [_; mk_param _ [b]] => (if Qle_bool 3 b then NaN else Fin b, Fin (b * b)%Q)
  | _ => (NaN, NaN)
  end.
Example C38_used : Forall well_formed ex_params /\ length [1; 0; 4]%Q = length (flatten ex_params) /\
  match line_search ex_eval (Fin 0) 2 10 ex_params [1; 0; 4]%Q with
  | Ok out => map (fun p => map Qred (entries p)) (o_params out) = [[5 # 4; 2]; [1]]%Q /\ Qred (o_step_size out) = (1 # 4)%Q
  | _ => False end /\
  match line_search ex_eval (Fin 0) 2 1 ex_params [1; 0; 4]%Q with Ok out => o_params out = ex_params | _ => False end.
Proof. split; [repeat constructor|]. vm_compute. repeat split. Qed.
