(** Model of chainerrl/misc/reward_filter.py, in real arithmetic. *)
From Coq Require Import Reals List.
From Verif Require Import Base.PyBase.
Import ListNotations.
Local Open Scope R_scope.

(** reward_filter.py:2-9 [NormalizedRewardFilter.__init__]: [tau], [scale] and [eps] never change. *)
Record nstate := mk_nstate { average_reward : R; average_reward_squared : R }.
Definition ninit : nstate := mk_nstate 0 0.
(** reward_filter.py:11-18 [NormalizedRewardFilter.__call__].  Python's float division by zero
    raises; the square root of a negative number, a complex number in Python, is modelled as
    an error.  The averages are updated before an error. *)
Definition ncall (tau scale eps : R) (s : nstate) (reward : R) : nstate * res R :=
  let a := average_reward s * (1 - tau) + tau * reward in
  let a2 := average_reward_squared s * (1 - tau) + tau * (reward * reward) in
  let var := a2 - a * a in
  let m := Rmin var eps in
  (mk_nstate a a2,
   if Rlt_dec m 0 then Raise ValueError
   else if Req_EM_T (sqrt m) 0 then Raise ZeroDivisionError
   else Ok (scale * (reward - a) / sqrt m)).
(** A sequence of calls and what they give. *)
Fixpoint nrun (tau scale eps : R) (s : nstate) (rewards : list R) : list (res R) :=
  match rewards with [] => [] | r :: rs => let (s', y) := ncall tau scale eps s r in y :: nrun tau scale eps s' rs end.

(** reward_filter.py:21-30 [AverageRewardFilter]. *)
Definition acall (tau : R) (average : R) (reward : R) : R * R :=
  let a := average * (1 - tau) + tau * reward in (a, reward - a).
Fixpoint arun (tau : R) (average : R) (rewards : list R) : list R :=
  match rewards with [] => [] | r :: rs => let (a, y) := acall tau average r in y :: arun tau a rs end.
