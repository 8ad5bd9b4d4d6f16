(** Population statistics and which rows are learnt. *)
From Coq Require Import Reals.
From Verif Require Import Base.PyBase Model.EmpiricalNormalization.
Set Implicit Arguments.
Local Open Scope R_scope.

(** The average and the population variance of a list of numbers. *)
Fixpoint total (f : R -> R) (l : list R) : R :=
  match l with [] => 0 | x :: t => f x + total f t end.
Definition average (l : list R) : R := total (fun x => x) l / INR (length l).
Definition variance (l : list R) : R := total (fun x => (x - average l) ^ 2) l / INR (length l).

(** The values a history offers for learning, batch by batch. *)
Definition offered (o : nop) : list R :=
  match o with NExperience x => x | NCall x true => x | _ => [] end.

(** A batch is learnt as a whole unless [until] values have been learnt before. *)
Fixpoint learnt (until : option nat) (seen : list R) (bs : list (list R)) : list R :=
  match bs with
  | [] => seen
  | b :: t =>
    learnt until (if match until with Some u => (u <=? length seen)%nat | None => false end
                  then seen else seen ++ b) t
  end.

Definition has_statistics_of (s : norm) (l : list R) : Prop :=
  n_count s = length l /\
  match l with
  | [] => n_mean s = 0 /\ n_var s = 1
  | _ => n_mean s = average l /\ n_var s = variance l
  end.
