(** Specification vocabulary for prioritized sampling, over plain lists of
    exact priorities (oldest first). *)
From Coq Require Import QArith.
From Verif Require Import Base.PyBase.
Set Implicit Arguments.
Open Scope Q_scope.

Fixpoint sumQ (l : list Q) : Q :=
  match l with [] => 0 | x :: t => x + sumQ t end.

Definition is_minQ (l : list Q) (m : Q) : Prop := In m l /\ forall x, In x l -> m <= x.

(** The draw [pos] falls in the interval of item [i]: intervals of lengths
    [w_0, w_1, ...] are laid end to end starting at 0. *)
Definition hit (w : list Q) (pos : Q) (i : nat) : Prop :=
  (i < length w)%nat /\ sumQ (firstn i w) <= pos /\ pos < sumQ (firstn (S i) w).

(** Successive picks without replacement: each pick zeroes its weight.  [us]
    are underlying uniform draws in [0,1). *)
Inductive picks : list Q -> list Q -> list nat -> list Q -> Prop :=
| picks_nil w : picks w [] [] w
| picks_cons w u us i ixs w' :
    hit w (u * sumQ w) i -> picks (upd w i 0) us ixs w' -> picks w (u :: us) (i :: ixs) w'.

(** List with the given positions set to zero. *)
Definition zero_at (w : list Q) (ixs : list nat) : list Q := fold_left (fun w i => upd w i 0) ixs w.

Definition positives (w : list Q) : nat := length (filter (fun x => negb (Qle_bool x 0)) w).
