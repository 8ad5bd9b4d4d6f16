(** Specification of episodic buffers: the ended episodes of a history in the
    order in which they ended, and the newest of them that fit. *)
From Verif Require Import Base.PyBase Model.ReplayBuffer.
Set Implicit Arguments.

Section S.
  Context {T : Type}.

  (** Ended, non-empty episodes of all environments; [open e] are the
      transitions of the running episode of environment [e]. *)
  Fixpoint ended_from (open : nat -> list T) (os : list (rb_op T)) : list (list T) :=
    match os with
    | [] => []
    | RAppend e x terminal :: t =>
      let ep := open e ++ [x] in
      if terminal then ep :: ended_from (fun e' => if e' =? e then [] else open e') t
      else ended_from (fun e' => if e' =? e then ep else open e') t
    | RStop e :: t =>
      match open e with
      | [] => ended_from open t
      | ep => ep :: ended_from (fun e' => if e' =? e then [] else open e') t
      end
    end.
  Definition ended (os : list (rb_op T)) : list (list T) := ended_from (fun _ => []) os.

  (** Number of transitions. *)
  Definition total (eps : list (list T)) : nat := length (concat eps).

  (** [kept] are the newest episodes of [log], as many as fit into [cap]
      transitions. *)
  Definition newest_within (cap : option nat) (log kept : list (list T)) : Prop :=
    match cap with
    | None => kept = log
    | Some c => exists old, log = old ++ kept /\ total kept <= c /\
                  (old = [] \/ exists old' x, old = old' ++ [x] /\ c < total (x :: kept))
    end.

  (** [eps] are the episodes of the sequence [ts] of transitions that ended with a
      terminal one; [rest] is the unfinished rest. *)
  Definition splits (terminal : T -> bool) (ts : list T) (eps : list (list T)) (rest : list T) : Prop :=
    ts = concat eps ++ rest /\ (forall t, In t rest -> terminal t = false) /\
    forall ep, In ep eps -> exists body t, ep = body ++ [t] /\ terminal t = true /\ forall x, In x body -> terminal x = false.
End S.
