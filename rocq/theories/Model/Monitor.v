(** Model of chainerrl/wrappers/monitor.py: the episode statistics that Monitor keeps.
    The class _StatsRecorder (lines 38-82) overrides four methods of gym's StatsRecorder; the
    inherited ones are modelled from gym's documented behaviour and cited as "gym" (gym is not part of
    the repository).  Left out: videos, the metadata files, timestamps, the episode type (always 't')
    and Monitor's own [enabled] flag: calls here are those that reach the recorder.  Rewards are
    reals. *)
From Coq Require Import Reals List Bool.
From Verif Require Import Base.PyBase.
Import ListNotations.
Local Open Scope R_scope.

(** The attributes of the recorder.  [cur] holds steps and rewards, both None before the first reset;
    [saved] is _save_completed (monitor.py:49); [records] pairs episode_lengths with
    episode_rewards; [types] is the length of episode_types; [file] is what flush last wrote. *)
Record recorder := mk_recorder {
  cur : option (nat * R); last_done : option bool; closed : bool; saved : bool;
  records : list (nat * R); types : nat; total_steps : nat; file : option (list (nat * R)) }.
(** gym's StatsRecorder.__init__ and monitor.py:45-50. *)
Definition fresh : recorder := mk_recorder None None false true [] 0 0 None.

(** gym's save_complete under monitor.py:70-73. *)
Definition save_complete (s : recorder) : recorder :=
  if saved s then s
  else mk_recorder (cur s) (last_done s) (closed s) true
         (match cur s with Some e => records s ++ [e] | None => records s end)
         (types s) (total_steps s) (file s).

(** monitor.py:52-63 before_reset. *)
Definition before_reset (s : recorder) : res recorder :=
  assert! negb (closed s) in
  let s := match last_done s, cur s with
           | Some false, Some (S _, _) => save_complete s
           | _, _ => s
           end in
  Ok (mk_recorder (cur s) (Some false) (closed s) (saved s) (records s) (types s) (total_steps s) (file s)).
(** gym's after_reset. *)
Definition after_reset (s : recorder) : recorder :=
  mk_recorder (Some (0%nat, 0)) (last_done s) (closed s) (saved s) (records s) (S (types s)) (total_steps s) (file s).
(** gym's before_step; gym.error.ResetNeeded is written [RuntimeError]. *)
Definition before_step (s : recorder) : res unit :=
  assert! negb (closed s) in
  match last_done s, cur s with
  | Some true, _ => Raise RuntimeError
  | _, None => Raise RuntimeError
  | _, Some _ => Ok tt
  end.
(** monitor.py:65-68 after_step and gym's after_step, with autoreset=False (monitor.py:34). *)
Definition after_step (s : recorder) (reward : R) (done : bool) : recorder :=
  let s := mk_recorder (match cur s with Some (n, r) => Some (S n, r + reward) | None => None end)
             (Some done) (closed s) false (records s) (types s) (S (total_steps s)) (file s) in
  if done then save_complete s else s.
(** monitor.py:75-77 close; gym's close is flush, which does nothing when closed. *)
Definition close (s : recorder) : recorder :=
  let s := save_complete s in
  if closed s then s
  else mk_recorder (cur s) (last_done s) true (saved s) (records s) (types s) (total_steps s) (Some (records s)).

(** What a user does with the monitored environment, with what the environment does when it is
    called: reset succeeds or raises, step gives a reward and done or raises. *)
Inductive call := CReset (succeeds : bool) | CStep (outcome : option (R * bool)) | CClose.
(** gym's Monitor.reset and Monitor.step: before_..., the environment, after_....  An exception
    of the environment is written [ValueError]; the state changes made before it stay. *)
Definition monitor_call (s : recorder) (c : call) : recorder * res unit :=
  match c with
  | CReset ok =>
      match before_reset s with
      | Raise e => (s, Raise e)
      | Ok s => if ok then (after_reset s, Ok tt) else (s, Raise ValueError)
      end
  | CStep out =>
      match before_step s with
      | Raise e => (s, Raise e)
      | Ok _ => match out with
                | None => (s, Raise ValueError)
                | Some (r, d) => (after_step s r d, Ok tt)
                end
      end
  | CClose => (close s, Ok tt)
  end.
Fixpoint monitor_run (s : recorder) (cs : list call) : recorder * list (res unit) :=
  match cs with
  | [] => (s, [])
  | c :: cs => let '(s, o) := monitor_call s c in let '(s, os) := monitor_run s cs in (s, o :: os)
  end.
