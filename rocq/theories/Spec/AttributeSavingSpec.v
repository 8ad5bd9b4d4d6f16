(** Specification of saving and loading: what is reachable, and by which path. *)
From Coq Require Import String.
From Verif Require Import Base.PyBase Model.AttributeSaving.
Set Implicit Arguments.
Local Open Scope nat_scope.

(** Agent [a] has agent [b] as a saved attribute. *)
Definition has_agent (g : graph) (a b : nat) : Prop := exists x, In x (saved g a) /\ getattr g a x = Agent b.

(** [b] is [a] or reachable from it. *)
Inductive reaches (g : graph) : nat -> nat -> Prop :=
| reaches_here : forall a, reaches g a a
| reaches_next : forall a b c, has_agent g a b -> reaches g b c -> reaches g a c.

(** A cycle is reachable from [a]. *)
Definition cyclic (g : graph) (a : nat) : Prop :=
  exists b c, reaches g a b /\ has_agent g b c /\ reaches g c b.

(** All saved attributes of all reachable agents exist. *)
Definition complete (g : graph) (a : nat) : Prop :=
  forall b x, reaches g a b -> In x (saved g b) -> getattr g b x <> Missing.

(** There are at most [n] reachable agents. *)
Definition at_most (g : graph) (a n : nat) : Prop :=
  exists l, length l = n /\ forall b, reaches g a b -> In b l.

(** The attribute path [p] leads from agent [a] to leaf [l]. *)
Inductive leads (g : graph) : nat -> path -> nat -> Prop :=
| leads_leaf : forall a x l, In x (saved g a) -> getattr g a x = Leaf l -> leads g a [x] l
| leads_agent : forall a x b p l, In x (saved g a) -> getattr g a x = Agent b -> leads g b p l -> leads g a (x :: p) l.
Definition owns (g : graph) (a l : nat) : Prop := exists p, leads g a p l.

(** Examples.  Agent 0 saves a model (leaf 0), an optimizer (leaf 1), an inner
    agent 1 that saves the same model and its own (leaf 2), and None. *)
Local Open Scope string_scope.
Definition ex_graph : graph :=
  {| saved := fun a => match a with 0 => ["model"; "opt"; "inner"; "nothing"] | 1 => ["m"; "shared"] | _ => [] end;
     getattr := fun a x =>
       match a with
       | 0 => if x =? "model" then Leaf 0 else if x =? "opt" then Leaf 1
              else if x =? "inner" then Agent 1 else if x =? "nothing" then VNone else Missing
       | 1 => if x =? "m" then Leaf 2 else if x =? "shared" then Leaf 0 else Missing
       | _ => Missing
       end |}.
(** Two agents that save each other. *)
Definition ex_two_cycle : graph :=
  {| saved := fun _ => ["other"]; getattr := fun a _ => match a with 0 => Agent 1 | _ => Agent 0 end |}.
