(** Model of how TRPO measures divergences when a policy has many parameters (chainerrl/agents/trpo.py:60-66 and 507-553) and of the test by which its line search
    accepts a trial (trpo.py:599-638).  The parameters are one flat vector, as after [_flatten_and_concat_ndarrays]; actions are the numbers below [n_act]; arithmetic is real.
    The step itself is [kl_constrained_step] of Model/ConjugateGradient.v. *)
From Coq Require Import Reals List.
From Verif Require Import Model.Distributions Model.PPOLoss Model.ConjugateGradient Model.Surrogate.
Import ListNotations.
Local Open Scope R_scope.

Section Natural.
Context {St : Type}.
Variable n_act : nat.
Variable pi : vec -> St -> nat -> R.
(** trpo.py:511 and 617: [F.mean(action_distrib_old.kl(action_distrib))]. *)
Definition policy_kl (th0 : vec) (states : list St) (th : vec) : R := fmean (fun s => categorical_kl n_act (pi th0 s) (pi th s)) states.
(** trpo.py:60-66: what [_hessian_vector_product] asks chainer to differentiate: [F.sum(flat_grads * vec)]. *)
Definition grads_times (flat_grads : vec -> vec) (v th : vec) : R := dot (flat_grads th) v.
(** trpo.py:601-602 and 638: the parameters of trial [k]; the step is halved after each trial. *)
Definition trial (th0 step : vec) (k : nat) : vec := vadd th0 (vscale ((/ 2) ^ k) step).
(** trpo.py:619-636: a trial is accepted unless the gain falls or the divergence exceeds [max_kl]; real numbers are always finite. *)
Definition accepted (gain kl : vec -> R) (max_kl : R) (th0 th : vec) : Prop := ~ gain th - gain th0 < 0 /\ ~ kl th > max_kl.
End Natural.
