(** Model of chainerrl/misc/conjugate_gradient.py and of the step of
    TRPO._compute_kl_constrained_step (chainerrl/agents/trpo.py:507-553).  Vectors
    are lists of reals of one length.  Dividing by zero gives nan or inf in numpy,
    which then spreads to the whole result: this is the result [None]. *)
From Coq Require Import Reals List.
Import ListNotations.
Local Open Scope R_scope.

Definition vec := list R.
Fixpoint zip_vec (f : R -> R -> R) (a b : vec) : vec :=
  match a, b with x :: a, y :: b => f x y :: zip_vec f a b | _, _ => [] end.
Definition vadd : vec -> vec -> vec := zip_vec Rplus.
Definition vsub : vec -> vec -> vec := zip_vec Rminus.
Definition vscale (c : R) (a : vec) : vec := map (Rmult c) a.
(** [xp.dot] of two vectors. *)
Fixpoint dot (a b : vec) : R := match a, b with x :: a, y :: b => x * y + dot a b | _, _ => 0 end.
(** [xp.linalg.norm]. *)
Definition norm (a : vec) : R := sqrt (dot a a).

Definition fdiv (x y : R) : option R := if Req_EM_T y 0 then None else Some (x / y).

(** conjugate_gradient.py:26-36: the loop, [max_iter] iterations left. *)
Fixpoint cg_loop (A : vec -> vec) (tol : R) (max_iter : nat) (x r0 p : vec) : option vec :=
  match max_iter with
  | O => Some x
  | S max_iter =>
    match fdiv (dot r0 r0) (dot (A p) p) with
    | None => None
    | Some a =>
      let x := vadd x (vscale a p) in
      let r1 := vsub r0 (vscale a (A p)) in
      if Rlt_dec (norm r1) tol then Some x
      else
        match fdiv (dot r1 r1) (dot r0 r0) with
        | None => None
        | Some b => cg_loop A tol max_iter x r1 (vadd r1 (vscale b p))
        end
    end
  end.

(** conjugate_gradient.py:4-36. *)
Definition conjugate_gradient (A : vec -> vec) (b : vec) (tol : R) (max_iter : nat) : option vec :=
  let x := map (fun _ => 0) b in
  let r0 := vsub b (A x) in
  cg_loop A tol max_iter x r0 r0.

(** trpo.py:528-553: [fvp] is the Fisher-vector product before damping and [g] the
    flat gradient of the gain. *)
Definition kl_constrained_step (fvp : vec -> vec) (damping max_kl tol : R) (max_iter : nat) (g : vec) : option vec :=
  let f := fun v => vadd (fvp v) (vscale damping v) in
  match conjugate_gradient f g tol max_iter with
  | None => None
  | Some d => Some (vscale (sqrt (2 * max_kl / (dot d (f d) + / 100000000))) d)
  end.
