(** Saving and loading agents: chainerrl/agent.py [AttributeSavingMixin].

    Objects with the mixin ("agents") and the objects they save with
    serializers.save_npz ("leaves": links, optimizers) are numbered.  The
    contents of a leaf are its serialized entries: a partial map from entry
    names to values (an optimizer has no per-parameter entries before its
    first update, an uninitialized parameter has no value). *)
From Coq Require Import String.
From Verif Require Import Base.PyBase.
Set Implicit Arguments.
Local Open Scope nat_scope.

Section Save.
Variable V : Type.

Definition name := string.
Definition entries := string -> option V.
Definition contents := nat -> entries.

(** Value of an attribute: no such attribute, None, an agent, a leaf. *)
Inductive value := Missing | VNone | Agent (a : nat) | Leaf (l : nat).

(** The attributes of every agent: its saved_attributes and getattr. *)
Record graph := { saved : nat -> list name; getattr : nat -> name -> value }.

(** Files: a directory or file is named by the list of its path components.
    ".npz" is not represented: a file [attr.npz] and a directory [attr] are
    never both written for one attribute, and attribute names contain no
    dot. *)
Definition path := list name.
Definition fsys := path -> option entries.
Definition write (f : fsys) (p : path) (e : entries) : fsys :=
  fun q => if list_eq_dec string_dec q p then Some e else f q.

Fixpoint for_each {T X : Type} (body : T -> X -> res T) (t : T) (xs : list X) : res T :=
  match xs with
  | [] => Ok t
  | x :: xs => let! t := body t x in for_each body t xs
  end.

(** chainerrl/agent.py:104-124 [__save].  [limit] is the depth of recursion
    that the interpreter allows; one level takes one unit.  [anc] are the
    ancestors.  Files that were written before an exception are not tracked. *)
Fixpoint save_rec (limit : nat) (g : graph) (c : contents) (d : path) (anc : list nat) (a : nat) (f : fsys) : res fsys :=
  match limit with
  | 0 => Raise RecursionError
  | S limit =>
      for_each (fun f x =>
        match getattr g a x with
        | Missing => Raise AssertionError
        | VNone => Ok f
        | Agent b => if existsb (Nat.eqb b) (anc ++ [a]) then Raise AssertionError
                     else save_rec limit g c (d ++ [x]) (anc ++ [a]) b f
        | Leaf l => Ok (write f (d ++ [x]) (c l))
        end) f (saved g a)
  end.

(** chainerrl/agent.py:100-102 [save]. *)
Definition save (limit : nat) (g : graph) (c : contents) (d : path) (a : nat) (f : fsys) : res fsys :=
  save_rec limit g c d [] a f.

(** chainerrl/agent.py:11-18 [load_npz_no_strict]: entries that the file does
    not have keep their values. *)
Definition load_npz (f : fsys) (p : path) (e : entries) : res entries :=
  match f p with
  | None => Raise FileNotFoundError
  | Some s => Ok (fun k => match s k with Some v => Some v | None => e k end)
  end.

Definition set_leaf (c : contents) (l : nat) (e : entries) : contents :=
  fun j => if j =? l then e else c j.

(** chainerrl/agent.py:126-150 [load] and [__load]: the inner agent's [load] is
    called, which starts with no ancestors. *)
Fixpoint load (limit : nat) (g : graph) (f : fsys) (d : path) (a : nat) (c : contents) : res contents :=
  match limit with
  | 0 => Raise RecursionError
  | S limit =>
      for_each (fun c x =>
        match getattr g a x with
        | Missing => Raise AssertionError
        | VNone => Ok c
        | Agent b => if existsb (Nat.eqb b) [a] then Raise AssertionError
                     else load limit g f (d ++ [x]) b c
        | Leaf l => let! e := load_npz f (d ++ [x]) (c l) in Ok (set_leaf c l e)
        end) c (saved g a)
  end.
End Save.
