(** C42: quadratic (NAF) action values. *)
From Coq Require Import Reals List Arith Lia Lra.
From Verif Require Import Base.PyBase Model.Quadratic Spec.SumSpec Spec.QuadraticSpec Proofs.QuadraticProofs Proofs.QuadraticAdvantage.
Import ListNotations.
Local Open Scope R_scope.

(** C42: with n (n - 1) / 2 entries, lower_triangular_matrix succeeds; the diagonal is
    the given one, the entries below it are filled row by row, the rest is zero. *)
Theorem C42_lower_triangular : forall diag nd, length nd = (length diag * (length diag - 1) / 2)%nat ->
  exists y, lower_triangular_matrix diag nd = Ok y /\
  forall i j, (i < length diag)%nat -> (j < length diag)%nat ->
    y i j = if (i =? j)%nat then nth i diag 0 else if (j <? i)%nat then nth (i * (i - 1) / 2 + j) nd 0 else 0.
Proof. exact layout. Qed.
Print Assumptions C42_lower_triangular.

(** C42: the coefficient matrix built from any network outputs is symmetric and
    positive definite. *)
Theorem C42_positive_definite : forall diag_out nd, length nd = (length diag_out * (length diag_out - 1) / 2)%nat ->
  exists P, coefficient_matrix diag_out (Some nd) = Ok P /\ positive_definite (length diag_out) P /\ symmetric (length diag_out) P.
Proof. exact coefficient_positive. Qed.
Print Assumptions C42_positive_definite.

Theorem C42_positive_definite_1 : forall d, exists P, coefficient_matrix [d] None = Ok P /\ positive_definite 1 P /\ symmetric 1 P.
Proof. exact coefficient_positive_1. Qed.
Print Assumptions C42_positive_definite_1.

Example C42_shapes : length [5; 6; 7] = (length [1; 2; 3] * (length [1; 2; 3] - 1) / 2)%nat.
Proof. reflexivity. Qed.

(** C42: when mu is admissible (always so with scale_mu=True, or without bounds), max
    is the largest value of any action, attained by the greedy action alone. *)
Theorem C42_maximum_mu_admissible : forall q, positive_definite (q_dim q) (q_mat q) -> admissible (q_dim q) (q_min q) (q_max q) (q_mu q) ->
  q_max_value q = q_v q /\ q_max_value q = evaluate_actions q (greedy_actions q) /\ (forall u, evaluate_actions q u <= q_max_value q) /\
  forall u, evaluate_actions q u = q_max_value q <-> forall i, (i < q_dim q)%nat -> u i = greedy_actions q i.
Proof. exact max_inside. Qed.
Print Assumptions C42_maximum_mu_admissible.

(** C42, partial: for mu outside the bounds, max is the value of the greedy action and
    the largest value of an admissible action when the matrix is diagonal (in
    particular in dimension one).  Missing: other matrices, where it is false. *)
Theorem C42_maximum_diagonal_partial : forall q, positive_definite (q_dim q) (q_mat q) ->
  (forall i j, (i < q_dim q)%nat -> (j < q_dim q)%nat -> i <> j -> q_mat q i j = 0) ->
  (forall lo hi i, q_min q = Some lo -> q_max q = Some hi -> (i < q_dim q)%nat -> lo i <= hi i) ->
  q_max_value q = evaluate_actions q (greedy_actions q) /\
  forall u, admissible (q_dim q) (q_min q) (q_max q) u -> evaluate_actions q u <= q_max_value q.
Proof. exact max_diagonal. Qed.
Print Assumptions C42_maximum_diagonal_partial.

(** C42: when mu is admissible, the advantage of an action is minus half its squared
    distance to mu under the matrix, never positive, zero for the greedy action alone,
    and the double advantage over the greedy action. *)
Theorem C42_advantage_mu_admissible : forall q, positive_definite (q_dim q) (q_mat q) -> admissible (q_dim q) (q_min q) (q_max q) (q_mu q) ->
  forall u, compute_advantage q u <= 0 /\
  compute_advantage q u = compute_double_advantage q u (greedy_actions q) /\
  compute_advantage q u = - / 2 * quad_form (q_dim q) (q_mat q) (fun i => u i - q_mu q i) /\
  (compute_advantage q u = 0 <-> forall i, (i < q_dim q)%nat -> u i = greedy_actions q i).
Proof. exact advantage_inside. Qed.
Print Assumptions C42_advantage_mu_admissible.

(** C42, partial: for mu outside the bounds and a diagonal matrix, the greedy action has
    advantage zero and no admissible action has a positive one.  Missing: other
    matrices, where it is false. *)
Theorem C42_advantage_diagonal_partial : forall q, positive_definite (q_dim q) (q_mat q) ->
  (forall i j, (i < q_dim q)%nat -> (j < q_dim q)%nat -> i <> j -> q_mat q i j = 0) ->
  (forall lo hi i, q_min q = Some lo -> q_max q = Some hi -> (i < q_dim q)%nat -> lo i <= hi i) ->
  compute_advantage q (greedy_actions q) = 0 /\
  forall u, compute_advantage q u = compute_double_advantage q u (greedy_actions q) /\
    (admissible (q_dim q) (q_min q) (q_max q) u -> compute_advantage q u <= 0).
Proof. exact advantage_diagonal. Qed.
Print Assumptions C42_advantage_diagonal_partial.

(** C42: the greedy action is admissible when the bounds are consistent. *)
Theorem C42_greedy_admissible : forall q, (forall lo hi i, q_min q = Some lo -> q_max q = Some hi -> (i < q_dim q)%nat -> lo i <= hi i) ->
  admissible (q_dim q) (q_min q) (q_max q) (greedy_actions q).
Proof. exact greedy_admissible. Qed.
Print Assumptions C42_greedy_admissible.

Definition unit_lo : nat -> R := fun _ => -1.
Definition unit_hi : nat -> R := fun _ => 1.
Definition ex_q : quadratic := mk_quadratic 1 (fun _ => 3) (fun _ _ => 2) 5 (Some unit_lo) (Some unit_hi).
Example C42_diagonal_used : positive_definite (q_dim ex_q) (q_mat ex_q) /\ q_max_value ex_q = 1 /\ ~ admissible 1 (q_min ex_q) (q_max ex_q) (q_mu ex_q).
Proof.
  assert (E : forall x, quad_form 1 (q_mat ex_q) x = 2 * (x O) ^ 2) by (intros; unfold quad_form; cbn; ring).
  split; [split; intros x; cbn [q_dim ex_q]; rewrite E|].
  - pose proof (pow2_ge_0 (x O)). lra.
  - intros Z i Hi. assert (i = 0%nat) by lia. subst. destruct (Req_dec (x O) 0) as [|N]; [assumption|]. pose proof (pow_nonzero _ 2 N). lra.
  - split; [unfold q_max_value, evaluate_actions, greedy_actions; cbn; unfold unit_lo, unit_hi; rewrite Rmax_right by lra; rewrite Rmin_left by lra; field|].
    intros A. destruct (A O ltac:(lia)) as [_ B]. specialize (B unit_hi eq_refl). cbn in B. unfold unit_hi in B. lra.
Qed.
Example C42_inside_used : let q := mk_quadratic 1 (fun _ => / 2) (fun _ _ => 2) 5 (Some unit_lo) (Some unit_hi) in
  admissible (q_dim q) (q_min q) (q_max q) (q_mu q).
Proof. intros q i _. unfold q. cbn. split; intros b E; injection E as <-; unfold unit_lo, unit_hi; lra. Qed.

(** C42, refuted part: with a coefficient matrix the network can produce and mu outside
    the bounds, an admissible action has a larger value than max. *)
Theorem C42_maximum_clipped_refuted : exists P mu u,
  coefficient_matrix [0; 0] (Some [1]) = Ok P /\
  let q := mk_quadratic 2 mu P 0 (Some unit_lo) (Some unit_hi) in
  admissible 2 (q_min q) (q_max q) u /\ q_max_value q < evaluate_actions q u.
Proof.
  eexists. exists (fun i => if (i =? 0)%nat then 2 else 0), (fun i => if (i =? 0)%nat then 1 else / 2). split; [reflexivity|]. intros q. split.
  - intros i Hi. cbn. split; intros b E; injection E as <-; unfold unit_lo, unit_hi; destruct (i =? 0)%nat; lra.
  - unfold q, q_max_value, evaluate_actions, greedy_actions, matmul_transb. cbn. unfold set_entry, zeros2, unit_lo, unit_hi. cbn. rewrite !exp_0.
    rewrite (Rmax_right (-1) 2), (Rmax_right (-1) 0), (Rmin_left 1 2), (Rmin_right 1 0) by lra. lra.
Qed.
Print Assumptions C42_maximum_clipped_refuted.
