(** Trees of links without sharing, what converting one means, and averages over noise. *)
From Coq Require Import Reals List Arith String.
From Verif Require Import Model.NoisyNet.
Import ListNotations.
Set Implicit Arguments.

Section Trees.
  Variables P F : Type.
  (** What kind of link an object is; the children are listed separately.  The pattern of a
      [Sequence] says where its links stand among its functions. *)
  Inductive label :=
  | LLin (in_size : option nat) (out_size : nat) (nobias : bool) (w : P)
  | LNoisy (out_size : nat) (nobias : bool)
  | LChain (names : list string)
  | LList
  | LSeq (pattern : list (option F))
  | LPolicy (attrs : list id)
  | LLeaf.
  Inductive tree := T (i : id) (l : label) (kids : list tree).
  Definition root (t : tree) : id := match t with T i _ _ => i end.
  Definition label_of (t : tree) : label := match t with T _ l _ => l end.
  Definition kids (t : tree) : list tree := match t with T _ _ k => k end.
  Fixpoint ids (t : tree) : list id := match t with T i _ k => i :: flat_map ids k end.
  Fixpoint height (t : tree) : nat := match t with T _ _ k => S (fold_right (fun t m => Nat.max (height t) m) 0 k) end.
  Definition is_lin (t : tree) : bool := match label_of t with LLin _ _ _ _ => true | _ => false end.

  (** The layers of a [Sequence]: functions, and the links in order. *)
  Fixpoint fill (pattern : list (option F)) (roots : list id) : list (F + id) :=
    match pattern with
    | [] => []
    | Some f :: pattern => inl f :: fill pattern roots
    | None :: pattern => match roots with r :: roots => inr r :: fill pattern roots | [] => [] end
    end.
  (** The object that a label with these children stands for. *)
  Definition node_of (l : label) (roots : list id) : node P F :=
    match l with
    | LLin a b c w => NLinear a b c w
    | LNoisy o b => NNoisy o b (nth 0 roots 0) (nth 1 roots 0)
    | LChain names => NChain (combine names roots)
    | LList => NList roots
    | LSeq pattern => NSeq roots (fill pattern roots)
    | LPolicy attrs => NPolicy roots attrs
    | LLeaf => NLeaf
    end.
  Definition is_none {X} (o : option X) : bool := match o with None => true | Some _ => false end.
  Definition fits (l : label) (n : nat) : Prop :=
    match l with
    | LLin _ _ _ _ | LLeaf => n = 0
    | LNoisy _ _ => n = 2
    | LChain names => List.length names = n
    | LSeq pattern => List.length (filter is_none pattern) = n
    | LList | LPolicy _ => True
    end.
  (** The heap contains the tree: its children are registered and, in a [Sequence], the
      layers used by the forward pass are those children. *)
  Inductive rep (h : heap P F) : tree -> Prop :=
  | rep_T : forall i l k, nth_error h i = Some (node_of l (map root k)) -> fits l (List.length k) -> Forall (rep h) k -> rep h (T i l k).

  (** A linear link becomes a noisy one of the same sizes, with new parameters; every
      other object stays the same object, with its children converted. *)
  Variable fresh : nat -> P.
  Inductive conv : tree -> tree -> Prop :=
  | conv_lin : forall i a b c w z m s,
      conv (T i (LLin a b c w) []) (T z (LNoisy b c) [T m (LLin a b c (fresh m)) []; T s (LLin a b c (fresh s)) []])
  | conv_other : forall i l k k', is_lin (T i l k) = false -> Forall2 conv k k' -> conv (T i l k) (T i l k').

  (** The conversion of the tree [t] in the heap [h]: nothing outside the tree changes, and
      the new objects are unshared. *)
  Definition converted (h : heap P F) (t t' : tree) (h' : heap P F) : Prop :=
    conv t t' /\ rep h' t' /\ List.length h <= List.length h' /\ NoDup (ids t') /\
    (forall j, j < List.length h -> ~ In j (ids t) -> nth_error h' j = nth_error h j) /\
    (forall j, In j (ids t') -> In j (ids t) \/ List.length h <= j).

  (** The noisy layers of a tree, and trees that have none yet. *)
  Fixpoint noisy_layers (t : tree) : list id :=
    match t with T i l k => match l with LNoisy _ _ => [i] | _ => [] end ++ flat_map noisy_layers k end.
  Fixpoint subtrees (t : tree) : list tree := match t with T i l k => t :: flat_map subtrees k end.
  Fixpoint linear_layers (t : tree) : list id :=
    match t with T i l k => match l with LLin _ _ _ _ => [i] | _ => [] end ++ flat_map linear_layers k end.
End Trees.
Arguments LLin {P F} _ _ _ _. Arguments LNoisy {P F} _ _. Arguments LChain {P F} _. Arguments LList {P F}.
Arguments LSeq {P F} _. Arguments LPolicy {P F} _. Arguments LLeaf {P F}.

Local Open Scope R_scope.
(** An averaging operator over the random draws. *)
Definition averaging (E : ((nat -> R) -> R) -> R) : Prop :=
  (forall f g, (forall r, f r = g r) -> E f = E g) /\ (forall c, E (fun _ => c) = c) /\
  (forall f g, E (fun r => f r + g r) = E f + E g) /\ (forall c f, E (fun r => c * f r) = c * E f).
(** One draw with the opposite sign: the distribution of the draws is symmetric. *)
Definition flip (k : nat) (r : nat -> R) (j : nat) : R := if Nat.eqb j k then - r j else r j.
(** The means and the noise scales of a layer have biases, or neither has. *)
Definition same_bias (mu sigma : lin_params) : Prop := match lp_b mu, lp_b sigma with Some _, Some _ | None, None => True | _, _ => False end.
