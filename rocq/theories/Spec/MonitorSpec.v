(** What the statistics of a monitored environment should be, in terms of what the environment did. *)
From Coq Require Import Reals List.
From Verif Require Import Base.PyBase Model.Monitor Spec.SumSpec.
Import ListNotations.
Local Open Scope R_scope.

(** What happened to the environment: a reset, a failed reset, or a step. *)
Inductive event := Began | Failed | Got (reward : R) (done : bool).
(** The events of a history: what the environment was asked to do and how it answered.  Calls that
    never reached it, because the monitor refused them, are not events; neither are steps that
    raised. *)
Definition event_of (c : call) (o : res unit) : list event :=
  match c, o with
  | CReset true, Ok _ => [Began]
  | CReset false, Raise ValueError => [Failed]
  | CStep (Some (r, d)), Ok _ => [Got r d]
  | _, _ => []
  end.
Fixpoint events (cs : list call) (os : list (res unit)) : list event :=
  match cs, os with c :: cs, o :: os => event_of c o ++ events cs os | _, _ => [] end.

(** The rewards of each episode, an episode being the steps between two resets. *)
Fixpoint episodes_from (episode : list R) (l : list event) : list (list R) :=
  match l with
  | [] => [episode]
  | Began :: l => episode :: episodes_from [] l
  | Failed :: l => episodes_from episode l
  | Got r _ :: l => episodes_from (episode ++ [r]) l
  end.
Definition non_empty {T} (l : list T) : bool := match l with [] => false | _ => true end.
Definition all_episodes (l : list event) : list (list R) := filter non_empty (episodes_from [] l).
(** The last episode is still running. *)
Definition running (l : list event) : bool := match last l Began with Got _ false => true | _ => false end.
Definition finished_episodes (l : list event) : list (list R) := if running l then removelast (all_episodes l) else all_episodes l.
(** Length and return of an episode. *)
Definition summary (episode : list R) : nat * R := (length episode, total_of (fun r => r) episode).
(** The number of steps the environment made. *)
Definition steps_made (l : list event) : nat := length (filter (fun e => match e with Got _ _ => true | _ => false end) l).
(** The environment may be stepped: it was reset and the last step since did not end the episode. *)
Fixpoint may_step (ready : bool) (l : list event) : bool :=
  match l with
  | [] => ready
  | Began :: l => may_step true l
  | Failed :: l => may_step ready l
  | Got _ d :: l => may_step (negb d) l
  end.
(** After a reset that raised, the environment is reset again before it is stepped. *)
Fixpoint resets_repeated (bad : bool) (l : list event) : bool :=
  match l with
  | [] => true
  | Began :: l => resets_repeated false l
  | Failed :: l => resets_repeated true l
  | Got _ _ :: l => negb bad && resets_repeated bad l
  end.
