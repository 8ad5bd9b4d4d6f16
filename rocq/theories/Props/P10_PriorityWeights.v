(** C10: PriorityWeightError. *)
From Coq Require Import Reals Lra Lia.
From Verif Require Import Base.PyBase Model.PriorityWeight Proofs.PriorityWeightProofs.
Local Open Scope R_scope.

(** Annealing: after k calls beta is min(1, beta0 + k (1 - beta0) / betasteps);
    hence it never decreases, never exceeds 1, and is 1 from betasteps calls on. *)
Theorem C10_beta_schedule : forall alpha b0 bs eps nm emin emax w calls r w',
  pwe_init alpha b0 (Some bs) eps nm emin emax = Ok w -> 0 < bs ->
  weight_calls w calls = Ok (r, w') ->
  w_beta w' = Rmin 1 (b0 + INR (length calls) * ((1 - b0) / bs)) /\
  b0 <= w_beta w' <= 1 /\ (bs <= INR (length calls) -> w_beta w' = 1).
Proof. exact beta_schedule. Qed.
Print Assumptions C10_beta_schedule.

(** Weights: after any earlier calls, every weight lies in (0,1], equals
    (p / least) ^ -beta, and is 1 for the least probable item of the batch (or,
    in 'memory' mode, for items of the least probability in the memory). *)
Theorem C10_weights_normalised : forall alpha b0 bs eps nm emin emax w0 calls r w len probs mp ws w',
  pwe_init alpha b0 bs eps nm emin emax = Ok w0 -> match bs with Some s => 0 < s | None => True end ->
  nm <> NormFalse ->
  weight_calls w0 calls = Ok (r, w) ->
  (forall p, In p probs -> 0 < mp <= p) ->
  weights_from_probabilities w len probs mp = Ok (ws, w') ->
  let least := match nm with NormMemory => mp | _ => fold_left Rmin (tl probs) (hd 0 probs) end in
  Forall2 (fun p wt => 0 < wt <= 1 /\ (p = least -> wt = 1) /\
                       wt = Rpower (p / least) (- w_beta w)) probs ws.
Proof. exact weights_normalised. Qed.
Print Assumptions C10_weights_normalised.

(** Priorities: positive, computed from the clipped error, monotone. *)
Theorem C10_priorities : forall w errors lo, 0 <= w_alpha w -> 0 < w_eps w -> w_min w = Some lo -> 0 <= lo ->
  (forall hi, w_max w = Some hi -> lo <= hi) ->
  Forall2 (fun d p => p = Rpower (clip_error w d + w_eps w) (w_alpha w) /\ 0 < p /\
                      lo <= clip_error w d /\ (forall hi, w_max w = Some hi -> clip_error w d <= hi))
          errors (priority_from_errors w errors) /\
  (forall d1 d2 p1 p2, d1 <= d2 -> priority_from_errors w [d1; d2] = [p1; p2] -> p1 <= p2).
Proof. exact priorities_spec. Qed.
Print Assumptions C10_priorities.

(** Errors inside the bounds are used as they are. *)
Theorem C10_clip_identity_inside : forall w d lo, w_min w = Some lo -> (forall hi, w_max w = Some hi -> lo <= hi) ->
  lo <= clip_error w d /\ (forall hi, w_max w = Some hi -> clip_error w d <= hi) /\
  (lo <= d -> (forall hi, w_max w = Some hi -> d <= hi) -> clip_error w d = d).
Proof. exact clip_bounds. Qed.
Print Assumptions C10_clip_identity_inside.

(** A configuration meeting the hypotheses: alpha 0.6, beta0 0.4, 3 steps. *)
Definition ex_w : pwe := mk_pwe (6/10) (4/10) ((1 - 4/10) / 3) (1/100) NormBatch (Some 0) (Some 1).
Example C10_example_init : pwe_init (6/10) (4/10) (Some 3) (1/100) NormTrue (Some 0) (Some 1) = Ok ex_w.
Proof.
  unfold pwe_init, Rleb. destruct (Rle_dec 0 (6/10)); [|lra]. destruct (Rle_dec 0 (4/10)); [|lra].
  destruct (Rle_dec (4/10) 1); [|lra]. cbn [andb]. destruct (Req_EM_T 3 0); [lra|]. reflexivity.
Qed.
Example C10_example_calls : exists r w1 ws w2,
  weight_calls ex_w [(2%nat, [1/2; 1/4], 1/8)] = Ok (r, w1) /\
  weights_from_probabilities w1 2 [1/2; 1/4] (1/8) = Ok (ws, w2) /\ (forall p, In p [1/2; 1/4] -> 0 < 1/8 <= p).
Proof.
  do 4 eexists. split; [reflexivity|]. split; [reflexivity|]. intros p [<-|[<-|[]]]; lra.
Qed.
Example C10_example_pri : 0 <= w_alpha ex_w /\ 0 < w_eps ex_w /\ w_min ex_w = Some 0 /\
  (forall hi, w_max ex_w = Some hi -> 0 <= hi).
Proof. cbn. split; [lra|]. split; [lra|]. split; [auto|]. intros hi [= <-]. lra. Qed.
