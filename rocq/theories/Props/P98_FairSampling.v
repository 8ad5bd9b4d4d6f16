(** C98: uniform sampling is fair: all samples without replacement have the same probability. *)
From Coq Require Import Reals ZArith List Arith Lia Lra.
From Verif Require Import Base.PyBase Model.Random Model.RandomAccessQueue Model.ReplayBuffer Model.EpisodicReplayBuffer Spec.SumSpec Spec.RandomSpec Spec.FairSpec Proofs.RSumFacts Proofs.FairProofs.
Import ListNotations.
Local Open Scope nat_scope.

(** Renaming the drawn indices renames the result: the algorithm treats all indices alike. *)
Theorem C98_symmetric : forall f fuel r n k, (forall x y : Z, f x = f y -> x = y) ->
  sample_n_k fuel (mk_rng (map f (norep r)) (fun b => map f (block r b))) n k = match sample_n_k fuel r n k with Ok l => Ok (map f l) | Raise e => Raise e end.
Proof. exact (fun f fuel r n k INJ => sample_rename f INJ fuel r n k). Qed.
(** All results, in any order, come from the same number of the equally likely draws. *)
Theorem C98_uniform : forall fuel n k B a b, distinct_in_range (Z.of_nat n) (Z.of_nat k) a -> distinct_in_range (Z.of_nat n) (Z.of_nat k) b ->
  ways fuel n k B a = ways fuel n k B b.
Proof. exact uniform. Qed.
(** None is impossible, *)
Theorem C98_possible : forall fuel n k B a, distinct_in_range (Z.of_nat n) (Z.of_nat k) a -> 0 < ways fuel n k B a.
Proof. exact possible. Qed.
(** and there are no others. *)
Theorem C98_sound : forall fuel n k B r l, In r (ensemble n k B) -> drawn fuel n k r = Ok l -> distinct_in_range (Z.of_nat n) (Z.of_nat k) l.
Proof. exact drawn_distinct. Qed.
(** A run with at most [fuel] redraws for each index looks at no more than [fuel] refills. *)
Theorem C98_refills : forall fuel r r' n k, norep r = norep r' -> (forall b, b <= fuel -> block r b = block r' b) -> sample_n_k fuel r n k = sample_n_k fuel r' n k.
Proof. exact refills. Qed.
(** The mean of any quantity over samples is its mean over all indices. *)
Theorem C98_mean : forall fuel n k B f, (INR n * sum_drawn fuel n k B f = INR (results fuel n k B) * INR k * total_of f (zrange n))%R.
Proof. exact fair. Qed.
(** So the gradients of the batches of a replay buffer are on average k/n of the gradient for all of its contents, *)
Theorem C98_replay : forall T fuel B (b : rb T) k f,
  (INR (rb_len b) * sum_sampled fuel B b k f = INR (results fuel (rb_len b) k B) * INR k * total_of f (raq_iter (nr_mem b)))%R.
Proof. exact fair_replay. Qed.
(** as for the transitions of an episodic replay buffer, *)
Theorem C98_transitions : forall T fuel B (b : erb T) k f,
  (INR (erb_len b) * sum_transitions fuel B b k f = INR (results fuel (erb_len b) k B) * INR k * total_of f (raq_iter (er_mem b)))%R.
Proof. exact fair_transitions. Qed.
(** and for its episodes. *)
Theorem C98_episodes : forall T fuel B (b : erb T) k f,
  (INR (erb_n_episodes b) * sum_episodes fuel B b k f = INR (results fuel (erb_n_episodes b) k B) * INR k * total_of f (raq_iter (er_eps b)))%R.
Proof. exact fair_episodes. Qed.
(** The subsequences of an episode that are drawn with a maximal length are not fair for its transitions: number t is in
    min(t + 1, L - t, m, L - m + 1) of the L - m + 1 equally likely subsequences, *)
Theorem C98_subsequences : forall L m t, t < L ->
  starts_with L m t = if L <=? m then L - m + 1 else Nat.min (Nat.min (t + 1) (L - t)) (Nat.min m (L - m + 1)).
Proof. exact starts. Qed.
(** so the first transition and the last, with the final reward, are seen less often than others. *)
Theorem C98_subsequences_refuted : forall L m, 2 <= m -> m + 1 < L -> starts_with L m 0 < starts_with L m 1 /\ starts_with L m (L - 1) < starts_with L m 1.
Proof.
  exact (fun L m H2 HL => ltac:(rewrite !starts by lia; destruct (Nat.leb_spec L m); lia)).
Qed.

(** Non-vacuity: one of four (rejection) and one of three (permutation); a run with redraws and a refill. *)
Example C98_one_of_four : map (ways 2 4 1 0) [[0]; [1]; [2]; [3]]%Z = [16; 16; 16; 16] /\ results 2 4 1 0 = 64 /\ length (ensemble 4 1 0) = 64.
Proof. vm_compute. repeat split. Qed.
Example C98_one_of_three : map (ways 0 3 1 1) [[0]; [1]; [2]]%Z = [27; 27; 27] /\ results 0 3 1 1 = 81.
Proof. vm_compute. repeat split. Qed.
Example C98_redraws : drawn 3 7 2 (stream 2 1 [0; 1]%Z [3; 3; 3; 3; 5; 6]%Z) = Ok [3; 5]%Z /\ distinct_in_range 7 2 [3; 5]%Z.
Proof. split; [vm_compute; reflexivity|]. split; [reflexivity|]. split; [repeat constructor; cbn; intuition lia|]. intros x [<-|[<-|[]]]; lia. Qed.
Example C98_edges : map (starts_with 6 3) (seq 0 6) = [1; 2; 3; 3; 2; 1].
Proof. vm_compute. reflexivity. Qed.
(** A buffer of five transitions, batches of one. *)
Example C98_batches : exists b0 (b : rb nat), rb_init (Some 9) 1 = Ok b0 /\ nrb_run (@raq_append (list nat)) b0 (map (fun i => RAppend 0 i false) [1; 2; 3; 4; 5]) = Ok b /\
  raq_iter (nr_mem b) = [[1]; [2]; [3]; [4]; [5]] /\ results 3 5 1 0 = 125.
Proof. eexists. eexists. split; [reflexivity|]. vm_compute. repeat split. Qed.

Print Assumptions C98_symmetric.
Print Assumptions C98_uniform.
Print Assumptions C98_possible.
Print Assumptions C98_sound.
Print Assumptions C98_refills.
Print Assumptions C98_mean.
Print Assumptions C98_replay.
Print Assumptions C98_transitions.
Print Assumptions C98_episodes.
Print Assumptions C98_subsequences.
Print Assumptions C98_subsequences_refuted.
