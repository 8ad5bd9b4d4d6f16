(** The gym interface that the wrappers of chainerrl/wrappers and
    chainerrl/misc/env_modifiers.py are written against.  An environment is an
    arbitrary state machine; its hidden state includes its random generator.
    Rewards are rationals.  What an environment does after one of its calls
    raised is not modelled: a history stops there. *)
From Coq Require Import QArith.
From Verif Require Import Base.PyBase.
Set Implicit Arguments.
Local Open Scope nat_scope.

(** The info dict: [info.get('needs_reset', False)] and everything else. *)
Record info (X : Type) := mk_info { needs_reset : bool; other : X }.
Arguments mk_info {X}.

(** What env.step returns. *)
Record sout (O X : Type) := mk_sout { so_obs : O; so_rew : Q; so_done : bool; so_info : info X }.
Arguments mk_sout {O X}.

(** [lives] stands for [env.unwrapped.ale.lives()] (0 for other envs). *)
Record env (A O X : Type) := mk_env {
  est : Type;
  estep : est -> A -> res (est * sout O X);
  ereset : est -> res (est * O);
  elives : est -> nat }.
Arguments mk_env {A O X est}.

Inductive op (A : Type) := Reset | Step (a : A).
Arguments Reset {A}.
Arguments Step {A}.
Inductive out (O X : Type) := OReset (o : O) | OStep (s : sout O X).
Arguments OReset {O X}.
Arguments OStep {O X}.

Definition out_obs {O X} (x : out O X) : O := match x with OReset o => o | OStep s => so_obs s end.

(** One call, and a history of calls. *)
Definition exec {A O X} (E : env A O X) (e : est E) (o : op A) : res (est E * out O X) :=
  match o with
  | Reset => let! r := ereset E e in let '(e, ob) := r in Ok (e, OReset ob)
  | Step a => let! r := estep E e a in let '(e, s) := r in Ok (e, OStep s)
  end.

Fixpoint run {A O X} (E : env A O X) (e : est E) (ops : list (op A)) : res (est E * list (out O X)) :=
  match ops with
  | [] => Ok (e, [])
  | o :: rest =>
      let! r := exec E e o in
      let '(e, x) := r in
      let! rr := run E e rest in
      let '(e, xs) := rr in
      Ok (e, x :: xs)
  end.

(** [done or info.get('needs_reset', False)]. *)
Definition terminal {O X} (s : sout O X) : bool := so_done s || needs_reset (so_info s).
