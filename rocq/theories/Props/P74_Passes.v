(** C74: the passes PPO and TRPO's value function make over a dataset. *)
From Coq Require Import List Arith Lia Permutation.
From Verif Require Import Base.PyBase Model.DatasetPasses Proofs.DatasetPassesProofs.
Import ListNotations.

(** Whatever the random orders, the samples used by the updates are [epochs] copies of the
    dataset plus at most one more use of some samples; minibatches are full when the
    dataset is at least as large; the number of updates is the number of minibatches
    needed for [epochs] passes (rounded up), or [epochs] for a small dataset. *)
Theorem C74_passes : forall X (shuffle : nat -> list nat) (ds : list X) b epochs, 0 < b -> ds <> [] ->
  (forall k, Permutation (shuffle k) (seq 0 (length ds))) ->
  exists bs rest rest', update_batches shuffle (epochs * length ds) b epochs ds = Ok bs /\
    Permutation (concat bs) (concat (repeat ds epochs) ++ rest) /\ Permutation ds (rest ++ rest') /\
    Forall (fun m => 0 < length m <= b /\ (b <= length ds -> length m = b)) bs /\
    (b <= length ds -> epochs * length ds <= length bs * b < epochs * length ds + b) /\ (length ds <= b -> length bs = epochs).
Proof. exact update_passes. Qed.

(** The hypothesis on the minibatch size is needed: with size zero the loop never ends. *)
Theorem C74_zero_minibatch : forall X (shuffle : nat -> list nat) (ds : list X) epochs fuel, ds <> [] -> 0 < epochs ->
  update_batches shuffle fuel 0 epochs ds = Raise OutOfFuel.
Proof. exact zero_minibatch. Qed.

(** An update from an empty dataset fails instead of silently doing nothing. *)
Theorem C74_empty : forall X (shuffle : nat -> list nat) fuel b epochs, update_batches shuffle fuel b epochs (@nil X) = Raise IndexError.
Proof. exact empty_dataset. Qed.

(** Non-vacuity: three samples, minibatches of two, two epochs; and a minibatch larger
    than the dataset. *)
Definition C74_orders (k : nat) : list nat := match k with 0 => [2; 0; 1] | 1 => [1; 2; 0] | _ => [0; 1; 2] end.
Example C74_orders_ok : forall k, Permutation (C74_orders k) (seq 0 (length [10; 20; 30])).
Proof.
  assert (P : forall a c : nat, forall l, Permutation (a :: c :: l) (c :: a :: l)) by (intros; apply perm_swap).
  intros [|[|k]]; cbn.
  - eapply perm_trans; [apply perm_swap|]. apply perm_skip, perm_swap.
  - apply Permutation_sym. eapply perm_trans; [apply perm_swap|]. apply perm_skip, perm_swap.
  - apply Permutation_refl.
Qed.
Example C74_case : update_batches C74_orders 6 2 2 [10; 20; 30] = Ok [[30; 10]; [20; 20]; [30; 10]].
Proof. reflexivity. Qed.
Example C74_large_minibatch : update_batches C74_orders 6 4 2 [10; 20; 30] = Ok [[30; 10; 20; 20]; [30; 10; 10; 20]].
Proof. reflexivity. Qed.

Print Assumptions C74_passes.
Print Assumptions C74_zero_minibatch.
Print Assumptions C74_empty.
