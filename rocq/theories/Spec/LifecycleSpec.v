(** What creating, asking, closing and orphaning a vector env should do. *)
From Verif Require Import Base.PyBase Model.GymEnv Model.VectorEnv Model.VectorLifecycle.
Set Implicit Arguments.
Local Open Scope nat_scope.

Section LifecycleSpec.
Context {A O X SR SP SC : Type}.
Variable E : env A O X.
Notation lworker := (@lworker A O X SR SP SC E).
(** An env exists, or existed, in the worker, or will. *)
Definition has_env (w : lworker) : bool :=
  match l_proc w with Starting (Ok _) => true | Starting (Raise _) => false | Running _ => true | Ended b => b end.
(** Its env has been closed once if the worker has ended and not at all otherwise. *)
Definition closed_in_time (w : lworker) : Prop := l_closes w = if is_ended w then (if has_env w then 1 else 0) else 0.
(** The worker [w] became [w']: it has ended, and its env, if there was one, has been closed exactly once. *)
Definition ended_cleanly (w w' : lworker) : Prop := is_ended w' = true /\ l_closes w' = if has_env w then 1 else 0.
(** How much there is to do: two steps to begin and to end, and one for each pending message. *)
Fixpoint pending (ws : list lworker) : nat := match ws with [] => 0 | w :: ws => 2 + length (l_in w) + pending ws end.
(** A worker with nothing in its pipes whose env is, or will be, [e]. *)
Definition idle_with (e : est E) (w : lworker) : Prop := l_in w = [] /\ l_out w = [] /\ (l_proc w = Running e \/ l_proc w = Starting (Ok e)).
(** The right answer. *)
Definition right_answer (espaces : est E -> SP * SP) (espec : est E -> SC) (q : lquery) (e : est E) : @lreply O X SR SP SC :=
  match q with QSpaces => LSpacesAre (espaces e) | QSpec => LSpecIs (espec e) end.

(** The calls that end the life of a vector env. *)
Definition ends (u : @ucall A) : bool := match u with UClose | UDel => true | _ => false end.
Definition is_spec (u : @ucall A) : bool := match u with USpec => true | _ => false end.
(** [spec] was asked for before the env was closed. *)
Fixpoint spec_known (before : list (@ucall A)) : bool :=
  match before with [] => false | u :: us => if ends u then false else if is_spec u then true else spec_known us end.
(** The exception of a call, given the calls before it: none before closing; AssertionError after, except for [__del__] and for a spec known already. *)
Definition expected (before : list (@ucall A)) (u : @ucall A) : option exc :=
  if existsb ends before then
    match u with UDel => None | USpec => if spec_known before then None else Some AssertionError | _ => Some AssertionError end
  else None.
End LifecycleSpec.
Arguments closed_in_time {A O X SR SP SC E}.
Arguments ended_cleanly {A O X SR SP SC E}.
Arguments pending {A O X SR SP SC E}.
Arguments right_answer {A O X SR SP SC E}.
