(** Model of chainerrl/experiments/evaluator.py lines 356-456 (AsyncEvaluator) used by
    several processes at once.

    A schedule is a list of (process, choice) pairs.  The atomic actions are the
    three blocks under a lock - the header block is split in two, writing the
    header (which truncates the file) and setting the flag, the lock being held in
    between -, the evaluation itself, and appending a line to the file.  An
    exception ([CExc]) ends the call and releases the lock; one inside the block of
    lines 428-435 is not modelled (it can come just before or after).  Scores are
    rationals; [rnd] is the rounding to the shared single precision value.  Left
    out: the columns other than steps, episodes and mean; logging. *)
From Coq Require Import QArith.
From Verif Require Import Base.PyBase.
Local Open Scope nat_scope.

Inductive fline := FHeader | FRec (t : Z) (episodes : nat) (mean : Q).

(** Where a call of evaluate_if_necessary is. *)
Inductive vpc :=
| VIdle
| VCheck (t : Z) (ep : nat)          (* 445-448 *)
| VHead (t : Z) (ep : nat)           (* 450-452 *)
| VFlag (t : Z) (ep : nat)           (* 453 *)
| VPerf (t : Z) (ep : nat)           (* 412-426 *)
| VRec (t : Z) (ep : nat) (m : Q)    (* 427 *)
| VMax (t : Z) (m : Q).              (* 428-435 *)

Inductive vchoice := CCall (t : Z) (ep : nat) | CGo | CScore (m : Q) | CExc.

(** What happened, in order. *)
Inductive vlog :=
| LStart (i : nat) (t : Z)           (* the call starts an evaluation *)
| LSkip (i : nat) (t : Z)            (* the call answers None *)
| LRecord (i : nat) (t : Z) (ep : nat) (m : Q)
| LUpdate (i : nat) (m : Q)          (* the maximum was updated; the call answers m *)
| LFail (i : nat).

Record vstate := mk_vstate {
  vs_prev : Z; vs_flag : bool; vs_lock : option nat; vs_file : list fline; vs_max : Q; vs_best : list Q;
  vs_procs : list vpc; vs_log : list vlog }.

Section V.
  Variable rnd : Q -> Q.
  Variable interval : Z.
  Variable save_best : bool.

  Definition vset (i : nat) (pc : vpc) (es : list vlog) (s : vstate) : vstate :=
    mk_vstate (vs_prev s) (vs_flag s) (vs_lock s) (vs_file s) (vs_max s) (vs_best s) (upd (vs_procs s) i pc) (vs_log s ++ es).

  Definition free (s : vstate) : bool := match vs_lock s with None => true | Some _ => false end.

  Definition vstep (s : vstate) (x : nat * vchoice) : option vstate :=
    let (i, ch) := x in
    match nth_error (vs_procs s) i, ch with
    | Some VIdle, CCall t ep => Some (vset i (VCheck t ep) [] s)
    | Some (VCheck t ep), CGo =>
        if (vs_prev s + interval <=? t)%Z
        then Some (vset i (VHead t ep) [LStart i t]
               (mk_vstate (vs_prev s + interval) (vs_flag s) (vs_lock s) (vs_file s) (vs_max s) (vs_best s) (vs_procs s) (vs_log s)))
        else Some (vset i VIdle [LSkip i t] s)
    | Some (VHead t ep), CGo =>
        if free s then
          if vs_flag s then Some (vset i (VPerf t ep) [] s)
          else Some (vset i (VFlag t ep) []
                 (mk_vstate (vs_prev s) (vs_flag s) (Some i) [FHeader] (vs_max s) (vs_best s) (vs_procs s) (vs_log s)))
        else None
    | Some (VFlag t ep), CGo =>
        Some (vset i (VPerf t ep) [] (mk_vstate (vs_prev s) true None (vs_file s) (vs_max s) (vs_best s) (vs_procs s) (vs_log s)))
    | Some (VPerf t ep), CScore m => Some (vset i (VRec t ep m) [] s)
    | Some (VRec t ep m), CGo =>
        Some (vset i (VMax t m) [LRecord i t ep m]
          (mk_vstate (vs_prev s) (vs_flag s) (vs_lock s) (vs_file s ++ [FRec t ep m]) (vs_max s) (vs_best s) (vs_procs s) (vs_log s)))
    | Some (VMax t m), CGo =>
        let s := if negb (Qle_bool m (vs_max s))
                 then mk_vstate (vs_prev s) (vs_flag s) (vs_lock s) (vs_file s) (rnd m)
                        (if save_best then vs_best s ++ [m] else vs_best s) (vs_procs s) (vs_log s)
                 else s in
        Some (vset i VIdle [LUpdate i m] s)
    | Some VIdle, _ => None
    | Some (VFlag _ _), CExc =>
        Some (vset i VIdle [LFail i]
          (mk_vstate (vs_prev s) (vs_flag s) None (vs_file s) (vs_max s) (vs_best s) (vs_procs s) (vs_log s)))
    | Some _, CExc => Some (vset i VIdle [LFail i] s)
    | _, _ => None
    end.

  Fixpoint vrun (s : vstate) (l : list (nat * vchoice)) : option vstate :=
    match l with [] => Some s | x :: l => match vstep s x with None => None | Some s => vrun s l end end.

  (** evaluator.py:371-403; the file is empty or was left by another run (a header
      will overwrite that). *)
  Definition vinit (m0 : Q) (offset : Z) (n : nat) : vstate :=
    mk_vstate (offset - offset mod interval) false None [] m0 [] (repeat VIdle n) [].
End V.
