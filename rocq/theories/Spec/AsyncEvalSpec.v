(** Evaluations by several processes: schedule, file and maximum. *)
From Coq Require Import QArith Qround.
From Verif Require Import Base.PyBase Model.AsyncEvaluator.
Local Open Scope nat_scope.

(** With [n] evaluations started so far and the next one due at
    [base + (n + 1) * interval]: a call starts an evaluation exactly when it is due. *)
Inductive on_time (base interval : Z) : nat -> list vlog -> Prop :=
| ot_nil n : on_time base interval n []
| ot_start n i t l : (base + (Z.of_nat n + 1) * interval <= t)%Z -> on_time base interval (S n) l -> on_time base interval n (LStart i t :: l)
| ot_skip n i t l : (t < base + (Z.of_nat n + 1) * interval)%Z -> on_time base interval n l -> on_time base interval n (LSkip i t :: l)
| ot_other n e l : (forall i t, e <> LStart i t /\ e <> LSkip i t) -> on_time base interval n l -> on_time base interval n (e :: l).

Fixpoint log_records (l : list vlog) : list fline :=
  match l with [] => [] | LRecord _ t ep m :: l => FRec t ep m :: log_records l | _ :: l => log_records l end.
Fixpoint scores_recorded (l : list vlog) : list Q :=
  match l with [] => [] | LRecord _ _ _ m :: l => m :: scores_recorded l | _ :: l => scores_recorded l end.
Fixpoint scores_counted (l : list vlog) : list Q :=
  match l with [] => [] | LUpdate _ m :: l => m :: scores_counted l | _ :: l => scores_counted l end.
Definition no_failure (l : list vlog) : Prop := forall i, ~ In (LFail i) l.
Definition all_idle (s : vstate) : Prop := forall pc, In pc (vs_procs s) -> pc = VIdle.

(** The scores better than the (rounded) best before, in order. *)
Inductive rrecords (rnd : Q -> Q) (m0 : Q) : list Q -> list Q -> Prop :=
| rr_nil : rrecords rnd m0 [] []
| rr_new l x rs : rrecords rnd m0 l rs -> (forall y, In y (m0 :: map rnd l) -> (y < x)%Q) -> rrecords rnd m0 (l ++ [x]) (rs ++ [x])
| rr_old l x rs : rrecords rnd m0 l rs -> (exists y, In y (m0 :: map rnd l) /\ (x <= y)%Q) -> rrecords rnd m0 (l ++ [x]) rs.

(** Rounding to the nearest multiple of 2^-24: what storing in single precision does
    to the numbers between 1/2 and 1. *)
Definition round24 (x : Q) : Q := inject_Z (Qfloor (x * inject_Z (2 ^ 24) + (1 # 2))) / inject_Z (2 ^ 24).
