(** Copies still to be made. *)
From Verif Require Import Base.PyBase Model.NSQ.
Set Implicit Arguments.

Definition pending {P} (s : nstate P) : list nat :=
  flat_map (fun p => match np_phase p with NCopying v => [v] | NIdle => [] end) (ns_procs s).
(** The multiples of [i] in 1..t. *)
Definition multiples (i t : nat) : list nat := filter (fun v => v mod i =? 0) (seq 1 t).
(** How many calls a schedule let through the lock. *)
Definition quiescent {P} (s : nstate P) : Prop := Forall (fun p => np_phase p = NIdle) (ns_procs s).
