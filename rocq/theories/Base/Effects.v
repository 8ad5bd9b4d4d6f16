(** Computations that call an unknown world (environment, agent, files) and may
    raise.  Every call is answered by an oracle that sees the whole history of
    calls so far, so a theorem about all oracles is a theorem about every
    behaviour of the world, including stateful and adversarial ones.  Models no
    file of its own. *)
From Verif Require Import Base.PyBase.
Set Implicit Arguments.

Section Eff.
  Context {Ev : Type}.

  (** Trace of completed calls, oldest first. *)
  Definition eff (A : Type) := list Ev -> res A * list Ev.

  Definition ret {A} (a : A) : eff A := fun tr => (Ok a, tr).
  Definition raise {A} (e : exc) : eff A := fun tr => (Raise e, tr).
  Definition ebind {A B} (m : eff A) (f : A -> eff B) : eff B :=
    fun tr => match m tr with
              | (Ok a, tr') => f a tr'
              | (Raise e, tr') => (Raise e, tr')
              end.

  (** A call: the oracle answers (or raises); the answer is logged as an event. *)
  Definition call {A} (oracle : list Ev -> res A) (log : A -> Ev) : eff A :=
    fun tr => match oracle tr with
              | Ok a => (Ok a, tr ++ [log a])
              | Raise e => (Raise e, tr)
              end.

  (** [try: m except (Exception, KeyboardInterrupt): h; raise]. *)
  Definition try_reraise {A} (m : eff A) (h : eff unit) : eff A :=
    fun tr => match m tr with
              | (Ok a, tr') => (Ok a, tr')
              | (Raise e, tr') => match h tr' with
                                  | (Ok _, tr'') => (Raise e, tr'')
                                  | (Raise e', tr'') => (Raise e', tr'')
                                  end
              end.
End Eff.
Arguments eff : clear implicits.
Notation "'do' x '<-' e ';;' k" := (ebind e (fun x => k))
  (at level 200, x pattern, e at level 100, k at level 200, right associativity) : py_scope.
Notation "e ';;;' k" := (ebind e (fun _ => k)) (at level 100, k at level 200, right associativity) : py_scope.
