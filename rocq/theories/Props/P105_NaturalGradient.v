(** C105: TRPO's step is the natural gradient step and its line search succeeds. *)
From Coq Require Import Reals List Lra Lia.
From Verif Require Import Model.ConjugateGradient Model.NaturalGradient Spec.LinearSpec Spec.NaturalSpec Proofs.CGProofs Proofs.NaturalProofs.
Import ListNotations.
Local Open Scope R_scope.

(** For every policy with two derivatives, any number of parameters and any states: what TRPO computes as the product of the Hessian of the divergence with a vector is the
    Fisher information times that vector. *)
Theorem C105_fisher : forall St n n_act (pi : vec -> St -> nat -> R) th0 d dd states, smooth n n_act pi th0 d dd -> forall v, length v = n ->
  is_hvp (policy_kl n_act pi th0 states) th0 v (fisher n n_act pi d th0 states v) /\
  forall h, is_hvp (policy_kl n_act pi th0 states) th0 v h -> h = fisher n n_act pi d th0 states v.
Proof. exact @fisher_hvp. Qed.
Print Assumptions C105_fisher.
(** It is symmetric and positive semidefinite, as conjugate gradients need. *)
Theorem C105_fisher_psd : forall St n n_act (pi : vec -> St -> nat -> R) th0 d dd states, smooth n n_act pi th0 d dd -> psd n (fisher n n_act pi d th0 states).
Proof. exact @fisher_psd. Qed.
Print Assumptions C105_fisher_psd.
(** Half its quadratic form is the divergence up to terms of higher order, in every direction. *)
Theorem C105_quadratic : forall St n n_act (pi : vec -> St -> nat -> R) th0 d dd states, smooth n n_act pi th0 d dd -> forall v, length v = n -> forall eps, 0 < eps ->
  exists del, 0 < del /\ forall t, 0 <= t < del ->
  Rabs (policy_kl n_act pi th0 states (vadd th0 (vscale t v)) - t ^ 2 * (dot v (fisher n n_act pi d th0 states v) / 2)) <= eps * t ^ 2.
Proof. exact @kl_quadratic. Qed.
Print Assumptions C105_quadratic.

(** With as many iterations as parameters and a small tolerance, the full step solves the damped system; among all steps with no greater damped quadratic divergence it
    gains most to first order, and it is the only one; and it gains all that is possible within [max_kl] up to the factor from the 1e-8 in the code. *)
Theorem C105_best : forall n F damping g, psd n F -> 0 < damping -> length g = n -> nonzero g ->
  exists tol0, 0 < tol0 /\ forall max_kl tol max_iter, 0 < max_kl -> 0 < tol < tol0 -> (n <= max_iter)%nat -> (0 < max_iter)%nat ->
  exists x s, vadd (F x) (vscale damping x) = g /\ length x = n /\ 0 < dot g x /\ kl_constrained_step F damping max_kl tol max_iter g = Some s /\
  (forall s', length s' = n -> damped_form F damping s' <= damped_form F damping s -> dot g s' <= dot g s /\ (dot g s' = dot g s -> s' = s)) /\
  forall s', length s' = n -> damped_form F damping s' / 2 <= max_kl -> dot g s' <= dot g s * sqrt (1 + / 100000000 / dot g x).
Proof. exact natural_best. Qed.
Print Assumptions C105_best.
(** With any positive number of iterations and any tolerance, it gains at least as much as a multiple of the plain gradient with no greater damped quadratic divergence. *)
Theorem C105_beats_gradient : forall n F damping max_kl tol max_iter g, psd n F -> 0 < damping -> 0 < max_kl -> 0 < tol -> length g = n -> nonzero g -> (0 < max_iter)%nat ->
  exists s, kl_constrained_step F damping max_kl tol max_iter g = Some s /\ forall c, damped_form F damping (vscale c g) <= damped_form F damping s -> dot g (vscale c g) <= dot g s.
Proof. exact beats_gradient. Qed.
Print Assumptions C105_beats_gradient.

(** The line search ends with an improved policy if it may backtrack often enough: from some trial on, every trial is accepted and improves the gain. *)
Theorem C105_search_succeeds : forall St n n_act (pi : vec -> St -> nat -> R) th0 d dd states, smooth n n_act pi th0 d dd -> forall gain g, is_gradient gain th0 g ->
  forall damping max_kl tol max_iter, nonzero g -> 0 < damping -> 0 < max_kl -> 0 < tol -> (0 < max_iter)%nat ->
  exists s K, kl_constrained_step (fisher n n_act pi d th0 states) damping max_kl tol max_iter g = Some s /\
  forall k, (K <= k)%nat -> accepted gain (policy_kl n_act pi th0 states) max_kl th0 (trial th0 s k) /\ gain th0 < gain (trial th0 s k).
Proof. exact @search_succeeds. Qed.
Print Assumptions C105_search_succeeds.
(** For every small enough [max_kl] the first trial, the full step, is accepted. *)
Theorem C105_first_accepted : forall St n n_act (pi : vec -> St -> nat -> R) th0 d dd states, smooth n n_act pi th0 d dd -> forall gain g, is_gradient gain th0 g ->
  forall damping tol max_iter, nonzero g -> 0 < damping -> 0 < tol -> (0 < max_iter)%nat ->
  exists bound, 0 < bound /\ forall max_kl, 0 < max_kl < bound -> exists s, kl_constrained_step (fisher n n_act pi d th0 states) damping max_kl tol max_iter g = Some s /\
  accepted gain (policy_kl n_act pi th0 states) max_kl th0 (trial th0 s 0) /\ gain th0 < gain (trial th0 s 0).
Proof. exact @first_accepted. Qed.
Print Assumptions C105_first_accepted.

(** Without damping, and solved exactly, the step does not depend on how the policy is parametrized: after a linear change of parameters it is the same step. *)
Theorem C105_reparametrize : forall n F M Mt g, spd n F -> change_of_parameters n M Mt -> spd n (fun v => Mt (F (M v))) -> length g = n -> nonzero g ->
  exists tol0, 0 < tol0 /\ forall max_kl tol max_iter, 0 < tol < tol0 -> (n <= max_iter)%nat ->
  exists s s', kl_constrained_step F 0 max_kl tol max_iter g = Some s /\ kl_constrained_step (fun v => Mt (F (M v))) 0 max_kl tol max_iter (Mt g) = Some s' /\ M s' = s.
Proof. exact reparametrize. Qed.
Print Assumptions C105_reparametrize.
(** With damping it does depend on it, even with one parameter. *)
Theorem C105_reparametrize_damped_refuted : forall max_kl tol max_iter, 0 < max_kl -> 0 < tol -> (0 < max_iter)%nat ->
  exists F M Mt g s s', spd 1 F /\ change_of_parameters 1 M Mt /\ spd 1 (fun v => Mt (F (M v))) /\ nonzero g /\
  kl_constrained_step F 1 max_kl tol max_iter g = Some s /\ kl_constrained_step (fun v => Mt (F (M v))) 1 max_kl tol max_iter (Mt g) = Some s' /\ M s' <> s.
Proof. exact reparametrize_damped. Qed.
Print Assumptions C105_reparametrize_damped_refuted.

(** *** Cases that meet the hypotheses *)
(** Logistic policies over any features are smooth; here with two parameters, and a gain. *)
Example C105_smooth_case : smooth 2 2 (logistic (fun s => [1; INR s])) [0; 0] (logistic_d (fun s => [1; INR s])) (logistic_dd (fun s => [1; INR s]) [0; 0]).
Proof. apply logistic_smooth; [reflexivity|]. intros s. reflexivity. Qed.
Example C105_gain_case : is_gradient (fun th => dot [1; 3] th) [0; 0] [1; 3] /\ nonzero [1; 3].
Proof.
  split; [|exists 1; split; [left; reflexivity|lra]]. split; [reflexivity|]. intros [|x [|y [|? ?]]] H; try discriminate. cbn.
  intros eps He. exists (mkposreal 1 ltac:(lra)). intros h N _. match goal with |- Rabs ?z < _ => replace z with 0 by (field; exact N) end. rewrite Rabs_R0. exact He.
Qed.
(** A change of parameters: swapping and doubling. *)
Example C105_change_case : change_of_parameters 2 (fun u => vscale 2 (rev u)) (fun u => vscale 2 (rev u)) /\ spd 2 (fun v => vscale 2 (rev (vscale 1 (vscale 2 (rev v))))).
Proof.
  split; constructor.
  - intros u H. rewrite vscale_len, rev_length. exact H.
  - intros u H. rewrite vscale_len, rev_length. exact H.
  - intros c [|x [|y [|? ?]]] H; try discriminate. cbn. f_equal; [ring|f_equal; ring].
  - intros [|x [|y [|? ?]]] [|x' [|y' [|? ?]]] H H'; try discriminate. cbn. ring.
  - intros [|x [|y [|? ?]]] [|x' [|y' [|? ?]]] H H' E; try discriminate. cbn in E. injection E as A B. f_equal; [lra|f_equal; lra].
  - intros u H. rewrite vscale_len, rev_length, !vscale_len, rev_length. exact H.
  - intros [|x [|y [|? ?]]] [|x' [|y' [|? ?]]] H H'; try discriminate. cbn. f_equal; [ring|f_equal; ring].
  - intros c [|x [|y [|? ?]]] H; try discriminate. cbn. f_equal; [ring|f_equal; ring].
  - intros [|x [|y [|? ?]]] [|x' [|y' [|? ?]]] H H'; try discriminate. cbn. ring.
  - intros [|x [|y [|? ?]]] H (z & I & N); try discriminate. cbn.
    assert (0 < z * z) by (destruct (Rtotal_order z 0) as [|[|]]; [nra|congruence|nra]). destruct I as [I|[I|[]]]; subst z; nra.
Qed.
