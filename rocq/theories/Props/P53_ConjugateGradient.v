(** C53 and C38: conjugate gradients and the trust-region step. *)
From Coq Require Import Reals List Lia Lra.
From Verif Require Import Model.ConjugateGradient Spec.LinearSpec Proofs.CGProofs.
Import ListNotations.
Local Open Scope R_scope.

(** C53: for a symmetric positive definite operator of dimension [n] and [b <> 0],
    whatever the number of iterations: no division by zero; the result has
    [b.x = x.Ax], which is positive after at least one iteration; and after [n]
    iterations at most the residual is below the tolerance. *)
Theorem C53_conjugate_gradient : forall n A, spd n A -> forall b, length b = n -> forall tol max_iter, 0 < tol -> nonzero b ->
  exists x, conjugate_gradient A b tol max_iter = Some x /\ length x = n /\
    dot b x = dot x (A x) /\ ((0 < max_iter)%nat -> 0 < dot b x) /\
    ((n <= max_iter)%nat -> norm (vsub b (A x)) < tol).
Proof. exact cg_runs. Qed.
Print Assumptions C53_conjugate_gradient.

(** C53: for every small enough tolerance the solution is exact. *)
Theorem C53_exact_solution : forall n A, spd n A -> forall b, length b = n -> nonzero b ->
  exists tol0, 0 < tol0 /\ forall tol max_iter, 0 < tol < tol0 -> (n <= max_iter)%nat ->
    exists x, conjugate_gradient A b tol max_iter = Some x /\ A x = b.
Proof. exact cg_solves. Qed.
Print Assumptions C53_exact_solution.

Definition ex_A (u : vec) : vec := match u with [x; y] => [2 * x + y; x + 2 * y] | _ => u end.
Lemma ex_A_spd : spd 2 ex_A.
Proof.
  constructor.
  - intros [|x [|y [|z u]]] H; try discriminate. reflexivity.
  - intros [|x [|y [|z u]]] [|x' [|y' [|z' v]]] H H'; try discriminate. cbn. f_equal; [ring|f_equal; ring].
  - intros c [|x [|y [|z u]]] H; try discriminate. cbn. f_equal; [ring|f_equal; ring].
  - intros [|x [|y [|z u]]] [|x' [|y' [|z' v]]] H H'; try discriminate. cbn. ring.
  - intros [|x [|y [|z u]]] H (w & I & N); try discriminate. cbn in *.
    destruct I as [<-|[<-|[]]]; [destruct (Rlt_dec 0 (x * x)); [nra|exfalso; apply N; nra]|destruct (Rlt_dec 0 (y * y)); [nra|exfalso; apply N; nra]].
Qed.
Example C53_used : spd 2 ex_A /\ nonzero [1; 0] /\ ex_A [2 / 3; - 1 / 3] = [1; 0].
Proof.
  split; [exact ex_A_spd|]. split; [exists 1; split; [left; reflexivity|lra]|]. cbn. f_equal; [field|f_equal; field].
Qed.

(** For [b = 0], which A x = b solves with x = 0, the first iteration divides zero by
    zero and the result is not a number. *)
Theorem C53_zero_right_hand_side_refuted : forall n A tol max_iter b, spd n A -> length b = n -> (forall x, In x b -> x = 0) -> (0 < max_iter)%nat ->
  conjugate_gradient A b tol max_iter = None.
Proof. exact cg_zero. Qed.
Print Assumptions C53_zero_right_hand_side_refuted.

(** C38: TRPO's full step: the quadratic approximation of the KL divergence is within
    the bound and the step increases the gain to first order. *)
Theorem C38_step_within_quadratic_kl : forall n fvp damping max_kl tol max_iter g,
  psd n fvp -> 0 < damping -> 0 < max_kl -> 0 < tol -> length g = n -> nonzero g ->
  exists s, kl_constrained_step fvp damping max_kl tol max_iter g = Some s /\ length s = n /\
    dot s (fvp s) / 2 <= max_kl /\ ((0 < max_iter)%nat -> 0 < dot g s).
Proof. exact step_in_region. Qed.
Print Assumptions C38_step_within_quadratic_kl.

Example C38_step_used : psd 2 ex_A.
Proof.
  destruct ex_A_spd as [a1 a2 a3 a4 a5]. constructor; auto. intros u H. destruct (nonzero_dec u) as [N|Z]; [apply Rlt_le, a5; assumption|].
  rewrite (zeros u Z). rewrite dot_zeros_l. lra.
Qed.
