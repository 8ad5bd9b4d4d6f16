(** Advantages of quadratic action values. *)
From Coq Require Import Reals Lra.
From Verif Require Import Base.PyBase Model.Quadratic Spec.SumSpec Spec.QuadraticSpec Proofs.QuadraticProofs.
Local Open Scope R_scope.

Theorem advantage_inside : forall q, positive_definite (q_dim q) (q_mat q) -> admissible (q_dim q) (q_min q) (q_max q) (q_mu q) ->
  forall u, compute_advantage q u <= 0 /\
  compute_advantage q u = compute_double_advantage q u (greedy_actions q) /\
  compute_advantage q u = - / 2 * quad_form (q_dim q) (q_mat q) (fun i => u i - q_mu q i) /\
  (compute_advantage q u = 0 <-> forall i, (i < q_dim q)%nat -> u i = greedy_actions q i).
Proof.
  intros q P A u. destruct (max_inside q P A) as (V & G & L & I). specialize (L u). specialize (I u).
  unfold compute_advantage, compute_double_advantage. split; [lra|]. split; [lra|]. split.
  - rewrite V, evaluate_form. lra.
  - rewrite <- I. lra.
Qed.
Theorem advantage_diagonal : forall q, positive_definite (q_dim q) (q_mat q) ->
  (forall i j, (i < q_dim q)%nat -> (j < q_dim q)%nat -> i <> j -> q_mat q i j = 0) ->
  (forall lo hi i, q_min q = Some lo -> q_max q = Some hi -> (i < q_dim q)%nat -> lo i <= hi i) ->
  compute_advantage q (greedy_actions q) = 0 /\
  forall u, compute_advantage q u = compute_double_advantage q u (greedy_actions q) /\
    (admissible (q_dim q) (q_min q) (q_max q) u -> compute_advantage q u <= 0).
Proof.
  intros q P D B. destruct (max_diagonal q P D B) as [G L]. unfold compute_advantage, compute_double_advantage.
  split; [lra|]. intros u. split; [lra|]. intros A. specialize (L u A). lra.
Qed.
