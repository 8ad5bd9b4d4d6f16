(** C77: the toy problem ABC rewards exactly the correct sequences of actions, shows which
    state it is in, and never fails on actions of its space. *)
From Coq Require Import Reals List Arith ZArith Bool Lia.
From Verif Require Import Base.PyBase Model.Distributions Model.ABCEnv Spec.DistributionSpec Spec.ActionValueSpec Spec.ABCSpec Proofs.ABCProofs.
Import ListNotations.

(** Episodic: as long as the actions are 0, 1, 2, ... the state moves on; the last correct
    action gives the reward 1 and ends the episode; the first wrong action ends it with
    reward 0, and a finished episode stays finished. *)
Theorem C77_episodic : forall c off acts, a_episodic c = true -> off <= 1 -> 1 <= a_size c -> (forall a, In a acts -> in_space (a_size c) a) ->
  exists out s, abc_steps c acts (mk_abc_state 0 off) = Ok (out, s) /\ length out = length acts /\
  forall i, i < length acts -> nth_error out i = Some
    (if all_correct (firstn (S i) acts)
     then (one_hot (a_size c + 2) (S i + off), if S i =? a_size c then 1%Z else 0%Z, S i =? a_size c)
     else (one_hot (a_size c + 2) (a_size c + off), 0%Z, true)).
Proof. exact episodic_ok. Qed.
(** The return is 1 for the optimal policy and 0 for every other sequence of actions. *)
Theorem C77_episodic_return : forall c off acts out s, a_episodic c = true -> off <= 1 -> 1 <= a_size c -> (forall a, In a acts -> in_space (a_size c) a) ->
  abc_steps c acts (mk_abc_state 0 off) = Ok (out, s) ->
  total (map (fun x => snd (fst x)) out) = if list_eq_dec Z.eq_dec (firstn (a_size c) acts) (in_order (a_size c)) then 1%Z else 0%Z.
Proof. exact episodic_total. Qed.
Example C77_episodic_example :
  abc_steps (mk_abc 2 false true false) [0; 1]%Z (mk_abc_state 0 0) = Ok ([([0; 1; 0; 0], 0, false); ([0; 0; 1; 0], 1, true)]%Z, mk_abc_state 2 0) /\
  abc_steps (mk_abc 2 false true false) [1; 1]%Z (mk_abc_state 0 1) = Ok ([([0; 0; 0; 1], 0, true); ([0; 0; 0; 1], 0, true)]%Z, mk_abc_state 2 1).
Proof. split; reflexivity. Qed.

(** Non-episodic: after any actions the state is the number of correct actions modulo the
    size, a reward is given for every full round, and no episode ends. *)
Theorem C77_nonepisodic : forall c off acts, a_episodic c = false -> off <= 1 -> 1 <= a_size c ->
  exists out, abc_steps c acts (mk_abc_state 0 off) = Ok (out, mk_abc_state (hits (a_size c) acts mod a_size c) off) /\
    length out = length acts /\
    (forall i a, nth_error acts i = Some a ->
       let h := hits (a_size c) (firstn i acts) in let h' := hits (a_size c) (firstn i acts ++ [a]) in
       nth_error out i = Some (one_hot (a_size c + 2) (h' mod a_size c + off), Z.of_nat (h' / a_size c - h / a_size c), false)) /\
    total (map (fun x => snd (fst x)) out) = Z.of_nat (hits (a_size c) acts / a_size c).
Proof. exact nonepisodic_steps. Qed.
(** No behaviour earns more than one reward per [size] steps; the documented optimal policy
    earns that. *)
Theorem C77_nonepisodic_best : forall c off acts out s, a_episodic c = false -> off <= 1 -> 1 <= a_size c ->
  abc_steps c acts (mk_abc_state 0 off) = Ok (out, s) ->
  (total (map (fun x => snd (fst x)) out) <= Z.of_nat (length acts / a_size c))%Z /\
  ((forall i a, nth_error acts i = Some a -> a = Z.of_nat (i mod a_size c)) ->
   total (map (fun x => snd (fst x)) out) = Z.of_nat (length acts / a_size c)).
Proof. exact nonepisodic_best. Qed.
Example C77_nonepisodic_example :
  abc_steps (mk_abc 2 false false false) [0; 0; 1; 0]%Z (mk_abc_state 0 0) =
    Ok ([([0; 1; 0; 0], 0, false); ([0; 1; 0; 0], 0, false); ([1; 0; 0; 0], 1, false); ([0; 1; 0; 0], 0, false)]%Z, mk_abc_state 1 0) /\
  hits 2 [0; 0; 1; 0]%Z = 3.
Proof. split; reflexivity. Qed.

(** Any use of the environment that starts with a reset and takes actions of the space, even
    after the end of an episode, succeeds, and every observation is a one-hot vector of
    size + 2 entries. *)
Theorem C77_never_fails : forall c ops s, 1 <= a_size c -> (forall o, In o ops -> op_ok c o) ->
  (s = None -> match ops with AStep _ :: _ => False | _ => True end) ->
  (forall x, s = Some x -> a_state x <= a_size c /\ a_offset x <= 1) ->
  exists os s', abc_run c ops s = Ok (os, s') /\ length os = length ops /\ forall o, In o os -> exists k, k <= a_size c + 1 /\ o = one_hot (a_size c + 2) k.
Proof. exact run_inv. Qed.
(** Reset starts at state 0; the observation is shifted only if partially observable, by the
    random draw, or by alternating if deterministic. *)
Theorem C77_reset : forall c draw s, draw <= 1 -> (forall x, s = Some x -> a_offset x <= 1) ->
  exists off, abc_reset c draw s = Ok (one_hot (a_size c + 2) off, mk_abc_state 0 off) /\
    off = (if a_po c then if a_det c then (match s with Some x => 1 - a_offset x | None => 1 end) else draw else 0).
Proof. exact reset_ok. Qed.
Example C77_run_example : abc_run (mk_abc 2 true true true) [AReset 0; AStep 0%Z; AReset 0; AStep 1%Z; AStep 0%Z] None =
  Ok ([[0; 1; 0; 0]; [0; 0; 1; 0]; [1; 0; 0; 0]; [0; 0; 1; 0]; [0; 0; 1; 0]]%Z, Some (mk_abc_state 2 0)).
Proof. reflexivity. Qed.

(** Deterministic and partially observable: the documentation says that the n-th episode is
    not shifted if n is odd.  In fact it is shifted if n is odd. *)
Theorem C77_documented_shift_refuted : forall c ops os s draw, a_po c = true -> a_det c = true -> draw <= 1 -> abc_run c ops None = Ok (os, s) ->
  exists s', abc_reset c draw s = Ok (one_hot (a_size c + 2) ((resets ops + 1) mod 2), s').
Proof. exact shift_ok. Qed.

(** Continuous actions: the inner action is drawn with the probabilities of the softmax of
    the clipped logits, all positive; if deterministic it is the first most probable one,
    which for logits in [-1, 1] is the largest logit. *)
Theorem C77_continuous : forall v choice, v <> [] ->
  probability (inner_probs v) /\ (forall p, In p (inner_probs v) -> (0 < p)%R) /\ length (inner_probs v) = length v /\
  inner_action false choice v = Ok (Z.of_nat (choice (inner_probs v))) /\
  (exists a, inner_action true choice v = Ok (Z.of_nat a) /\ a < length v /\ first_greedy (inner_probs v) a /\
     ((forall x, In x v -> (-1 <= x <= 1)%R) -> first_greedy v a)).
Proof. exact continuous_ok. Qed.
Example C77_continuous_example : [0; 1]%R <> [] /\ (forall x, In x [0; 1]%R -> (-1 <= x <= 1)%R).
Proof. split; [discriminate|]. intros x [<-|[<-|[]]]; Lra.lra. Qed.

Print Assumptions C77_episodic.
Print Assumptions C77_episodic_return.
Print Assumptions C77_nonepisodic.
Print Assumptions C77_nonepisodic_best.
Print Assumptions C77_never_fails.
Print Assumptions C77_reset.
Print Assumptions C77_documented_shift_refuted.
Print Assumptions C77_continuous.
