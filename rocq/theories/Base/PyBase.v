(** Shared vocabulary for the transcription of Python code: exceptions as
    values, Python-style list indexing, list update.  Models no file of its
    own. *)
From Coq Require Export List Arith ZArith Lia Bool.
From Coq Require Export ZifyBool ZifyNat.
Export ListNotations.
Set Implicit Arguments.

(** Python exceptions that the modelled code can raise.  [OutOfFuel] is not a
    Python exception: it marks the exhaustion of the fuel that replaces an
    unbounded [while] loop, and theorems either exclude it or allow it
    explicitly. *)
Inductive exc :=
| IndexError | ValueError | AssertionError | TypeError | ZeroDivisionError
| KeyError | AttributeError | RuntimeError | RecursionError | OutOfFuel
| FileNotFoundError.

Inductive res (A : Type) :=
| Ok (a : A)
| Raise (e : exc).
Arguments Ok {A} a.
Arguments Raise {A} e.

Definition bind {A B} (x : res A) (f : A -> res B) : res B :=
  match x with Ok a => f a | Raise e => Raise e end.

Declare Scope py_scope.
Delimit Scope py_scope with py.
Notation "'let!' x ':=' e 'in' k" := (bind e (fun x => k))
  (at level 200, x pattern, e at level 100, k at level 200, right associativity) : py_scope.
Notation "'assert!' b 'in' k" := (if b then k else Raise AssertionError)
  (at level 200, b at level 100, k at level 200, right associativity) : py_scope.
Open Scope py_scope.

Definition is_ok {A} (x : res A) : bool := match x with Ok _ => true | Raise _ => false end.

(** [l[i] = x] for a position known to be valid; unchanged otherwise. *)
Fixpoint upd {A} (l : list A) (i : nat) (x : A) : list A :=
  match l, i with
  | [], _ => []
  | _ :: t, O => x :: t
  | h :: t, S j => h :: upd t j x
  end.

(** Python's index normalisation for a sequence of length [n]. *)
Definition py_index (n : nat) (i : Z) : option nat :=
  if (0 <=? i)%Z then if (i <? Z.of_nat n)%Z then Some (Z.to_nat i) else None
  else if (- Z.of_nat n <=? i)%Z then Some (Z.to_nat (Z.of_nat n + i)) else None.

(** [l[i]] on a Python list. *)
Definition py_get {A} (l : list A) (i : Z) : res A :=
  match py_index (length l) i with
  | Some k => match nth_error l k with Some x => Ok x | None => Raise IndexError end
  | None => Raise IndexError
  end.

(** [l[i] = x] on a Python list. *)
Definition py_set {A} (l : list A) (i : Z) (x : A) : res (list A) :=
  match py_index (length l) i with
  | Some k => Ok (upd l k x)
  | None => Raise IndexError
  end.

(** [l.pop()] on a Python list: the last element and the rest. *)
Definition py_pop {A} (l : list A) : res (A * list A) :=
  match rev l with
  | [] => Raise IndexError
  | x :: t => Ok (x, rev t)
  end.

(** Bitwise complement [~i] of a Python int. *)
Definition py_inv (i : Z) : Z := (- i - 1)%Z.
