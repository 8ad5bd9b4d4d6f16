(** C37 and C58: PPO's and TRPO's datasets and recurrent minibatches. *)
From Coq Require Import QArith Permutation.
From Verif Require Import Base.PyBase Model.Returns Model.PPODataset Spec.NStepSpec Spec.PPOSpec Proofs.PPOProofs.
Local Open Scope nat_scope.

(** C37: limiting the length of sequences cuts every sequence into consecutive
    pieces, all of the maximal length except possibly the last. *)
Theorem C37_limit : forall X (seqs : list (list X)) max_len, 0 < max_len -> (forall s, In s seqs -> s <> []) ->
  exists groups, limit_sequence_length seqs max_len = Ok (concat groups) /\ Forall2 (cut_of max_len) seqs groups.
Proof. exact @limit_spec. Qed.
Print Assumptions C37_limit.

(** C37: minibatches have exactly [n] items, their pieces are runs of consecutive
    items of the given sequences, and put together in order they give back the
    dataset, every item once; when [n] does not divide the number of items the
    generator ends with an IndexError before the remaining items are used. *)
Theorem C37_minibatches : forall X (seqs : list (list X)) n, 0 < n -> (forall s, In s seqs -> s <> []) ->
  exists out left, minibatches seqs n = (out, if Nat.eqb (length (concat seqs) mod n) 0 then Ok tt else Raise IndexError) /\
    concat (concat out) ++ left = concat seqs /\ length left = length (concat seqs) mod n /\
    forall subset, In subset out -> length (concat subset) = n /\ forall p, In p subset -> exists s, In s seqs /\ fragment p s.
Proof. exact @minibatches_spec. Qed.
Print Assumptions C37_minibatches.

Example C37_used :
  limit_sequence_length [[1; 2; 3; 4; 5]; [6]] 2 = Ok [[1; 2]; [3; 4]; [5]; [6]] /\
  minibatches [[1; 2; 3; 4; 5]; [6]; [7; 8; 9]] 3 = ([[[1; 2; 3]]; [[4; 5]; [6]]; [[7; 8; 9]]], Ok tt) /\
  minibatches [[1; 2]; [6; 7; 8]] 2 = ([[[1; 2]]; [[6; 7]]], Raise IndexError).
Proof. repeat split. Qed.

(** C58, single mode: if every [stop_episode] follows an action then nothing is
    raised, every update uses exactly [u] transitions, and the datasets followed by
    what is still in memory are the experienced steps, each once and in order, in
    pieces that stay within one episode. *)
Theorem C58_single_mode : forall Obs A u, 0 < u -> forall os : list (nstep_op Obs A), stops_follow_actions false os = true ->
  exists log s segs rest, ppo_run u ppo_init (map single_call os) = Ok (log, s) /\
    steps_of os = concat segs ++ rest /\
    concat log ++ memory s = map (map transition_of) segs /\ last_episode s = map transition_of rest /\
    (forall seg, In seg segs -> within_episode seg) /\
    (forall d, In d log -> length (concat d) = u) /\ length (concat (memory s)) + length rest < u.
Proof. exact @single_datasets. Qed.
Print Assumptions C58_single_mode.

(** C58, batch mode with [n] environments: the same for each environment's own
    stream of steps, whose pieces are spread over the datasets; a dataset has at
    least [u] and at most [u + n - 1] transitions. *)
Theorem C58_batch_mode : forall Obs A u, 0 < u -> forall n (rounds : list (list (@env_row Obs A))), (forall r, In r rounds -> length r = n) ->
  exists log s segs rest, ppo_run u ppo_init (flat_map round_calls rounds) = Ok (log, s) /\
    (forall i, i < n -> column i rounds = concat (segs i) ++ rest i) /\
    (forall i seg, In seg (segs i) -> within_episode seg) /\
    Permutation (concat log ++ memory s) (map (map transition_of) (flat_map segs (seq 0 n))) /\
    (forall d, In d log -> u <= length (concat d) <= u + n - 1) /\
    length (concat (memory s)) + list_sum (map (fun i => length (rest i)) (seq 0 n)) < u.
Proof. exact @batch_datasets. Qed.
Print Assumptions C58_batch_mode.

Definition ex_row (o a : nat) (done reset : bool) : @env_row nat nat := ((o, a), (S o, 1%Q, done, reset)).
Definition ex_rounds : list (list (@env_row nat nat)) :=
  [[ex_row 0 1 false false; ex_row 10 2 true false; ex_row 20 3 false false];
   [ex_row 1 4 false true; ex_row 30 5 false false; ex_row 21 6 false false]].
Definition ex_calls : list (nstep_op nat nat) :=
  [NAct 0 0 1; NAct 1 1 2; NStop 2 3 true; NAct 5 0 3; NAct 6 1 4; NAct 7 1 5].

Definition trs {Obs} (d : list (list (ptr Obs nat))) : list (list nat) := map (map (@p_action Obs nat)) d.
Example C58_used :
  stops_follow_actions false ex_calls = true /\
  match ppo_run 3 ppo_init (map single_call ex_calls) with Ok (log, s) => map trs log = [[[1; 2]; [3]]] /\ trs [last_episode s] = [[4]] | _ => False end /\
  match ppo_run 4 ppo_init (flat_map round_calls ex_rounds) with Ok (log, s) => map trs log = [[[2]; [1; 4]; [5]; [3; 6]]] /\ memory s = [] | _ => False end.
Proof. vm_compute. repeat split. Qed.

(** C37 fails for a recurrent model in batch mode: with three environments, an
    update interval of 2 and minibatches of 2, the dataset has three transitions and
    the epoch raises IndexError after the first minibatch. *)
Theorem C37_any_dataset_size_refuted : exists (rounds : list (list (@env_row nat nat))) log s d out,
  (forall r, In r rounds -> length r = 3) /\ ppo_run 2 ppo_init (flat_map round_calls rounds) = Ok (log, s) /\ In d log /\
  minibatches d 2 = (out, Raise IndexError) /\ length out = 1.
Proof.
  eexists [[ex_row 0 1 false false; ex_row 10 2 true false; ex_row 20 3 false false]], _, _, _, _.
  split; [intros r [<-|[]]; reflexivity|]. split; [vm_compute; reflexivity|]. split; [left; reflexivity|]. split; [vm_compute; reflexivity|]. reflexivity.
Qed.
Print Assumptions C37_any_dataset_size_refuted.
