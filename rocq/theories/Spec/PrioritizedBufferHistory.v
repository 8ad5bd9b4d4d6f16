(** Arbitrary histories of successful calls on a PrioritizedBuffer, over any
    number type (exact rationals and IEEE doubles alike). *)
From Verif Require Import Base.PyBase Model.Num Model.TreeQueue Model.PrioritizedBuffer Spec.BoundedList.
Set Implicit Arguments.

Section H.
  Variable N : num.
  Context {X : Type}.

  Inductive pb_op :=
  | PAppend (x : X) (p : option (nV N)) | PPopleft
  | PSample (n : nat) (ur : nV N) (d : draws N) | PSetLast (ps : list (nV N)).

  (** One call of the model. *)
  Definition pb_exec (b : pb N X) (o : pb_op) : res (pb N X) :=
    match o with
    | PAppend x p => pb_append b x p
    | PPopleft => let! (_, b') := pb_popleft b in Ok b'
    | PSample n ur d => let! (_, _, _, b') := pb_sample b n ur d in Ok b'
    | PSetLast ps => pb_set_last b ps
    end.

  Fixpoint pb_execs (b : pb N X) (os : list pb_op) : res (pb N X) :=
    match os with
    | [] => Ok b
    | o :: t => let! b' := pb_exec b o in pb_execs b' t
    end.

  (** The items a bounded FIFO list holds after the same calls. *)
  Definition items_step (cap : option nat) (l : list X) (o : pb_op) : list X :=
    match o with
    | PAppend x _ => trim cap (l ++ [x])
    | PPopleft => tl l
    | _ => l
    end.

  (** The largest priority handed to [set_last_priority] so far (or the
      initial one); explicit priorities of [append] do not count. *)
  Definition largest_set (m : nV N) (o : pb_op) : nV N :=
    match o with
    | PSetLast ps => fold_left (fun m p => if nltb N m p then p else m) ps m
    | _ => m
    end.
End H.
Arguments pb_op : clear implicits.
