(** The REINFORCE agent, chainerrl/agents/reinforce.py:60-178.

    Rewards and loss coefficients are exact rationals.  A log-probability and
    an entropy are chainer variables; here they are opaque tokens of a type
    [V], and a loss, which is linear in them, is the list of its terms.  The
    model's and the optimizer's parameters appear only through the events
    [cleargrads], [backward] and [update]. *)
From Coq Require Import QArith.
From Verif Require Import Base.PyBase.
Set Implicit Arguments.

Section Reinforce.
Variable V : Type.

(** One loss term: [rt_clp * log_prob + rt_cent * entropy]. *)
Record rterm := RTerm { rt_clp : Q; rt_lp : V; rt_cent : Q; rt_ent : V }.

(** [model.cleargrads()], [loss.backward()], [optimizer.update()]. *)
Inductive revent := RClear | RBackward (loss : list rterm) | RUpdate.

(** The agent's configuration: reinforce.py:38-58. *)
Record rconf := RConf { rc_beta : Q; rc_batchsize : nat; rc_separately : bool }.

(** The agent's mutable attributes: reinforce.py:64-67, plus the trace. *)
Record rstate := RState {
  rs_rewards : list (list Q);
  rs_lps : list (list V);
  rs_ents : list (list V);
  rs_nback : nat;
  rs_trace : list revent }.

Definition r_init : rstate := RState [[]] [[]] [[]] 0 [].

(** [xs[-1] = f(xs[-1])]: the access raises on an empty list. *)
Fixpoint map_last {A} (f : A -> A) (l : list A) : res (list A) :=
  match l with
  | [] => Raise IndexError
  | [x] => Ok [f x]
  | x :: rest => let! rest' := map_last f rest in Ok (x :: rest')
  end.

(** [act_and_train], reinforce.py:69-93: the parts that save values.  [lp] and
    [ent] are what the model's distribution computed. *)
Definition r_act (s : rstate) (reward : Q) (lp ent : V) : res rstate :=
  let! rw := map_last (fun l => l ++ [reward]) (rs_rewards s) in
  let! lps := map_last (fun l => l ++ [lp]) (rs_lps s) in
  let! ents := map_last (fun l => l ++ [ent]) (rs_ents s) in
  Ok (RState rw lps ents (rs_nback s) (rs_trace s)).

(** [np.cumsum(xs)]. *)
Fixpoint cumsum_from (acc : Q) (l : list Q) : list Q :=
  match l with [] => [] | x :: rest => (acc + x)%Q :: cumsum_from (acc + x)%Q rest end.
Definition cumsum (l : list Q) : list Q := cumsum_from 0 l.

(** reinforce.py:142: [np.cumsum(list(reversed(r_seq[1:])))[::-1]]. *)
Definition returns_of (r_seq : list Q) : list Q := rev (cumsum (rev (tl r_seq))).

(** [zip] of three sequences. *)
Fixpoint zip3 {A B C} (a : list A) (b : list B) (c : list C) : list (A * B * C) :=
  match a, b, c with
  | x :: a', y :: b', z :: c' => (x, y, z) :: zip3 a' b' c'
  | _, _, _ => []
  end.

(** reinforce.py:143-145, the terms of one sequence. *)
Definition seq_losses (beta : Q) (r_seq : list Q) (lps ents : list V) : res (list rterm) :=
  assert! ((Z.of_nat (length r_seq) - 1 =? Z.of_nat (length lps))%Z && (length lps =? length ents)%nat)%bool in
  Ok (map (fun z => match z with (R, lp, ent) => RTerm (- R)%Q lp (- beta)%Q ent end) (zip3 (returns_of r_seq) lps ents)).

Fixpoint all_losses (beta : Q) (zs : list (list Q * list V * list V)) : res (list rterm) :=
  match zs with
  | [] => Ok []
  | (r, l, e) :: rest =>
      let! a := seq_losses beta r l e in
      let! b := all_losses beta rest in
      Ok (a ++ b)
  end.

(** [sum_arrays(losses)] with the division of reinforce.py:151.  On an empty
    list SumArrays.check_type_forward looks at [in_types[0]] and raises
    (sum_arrays.py:10-13). *)
Definition total_loss (batchsize : nat) (losses : list rterm) : res (list rterm) :=
  match losses with
  | [] => Raise IndexError
  | _ => let d := inject_Z (Z.of_nat batchsize) in
         if Nat.eqb batchsize 0 then Raise ZeroDivisionError
         else Ok (map (fun t => RTerm (rt_clp t / d)%Q (rt_lp t) (rt_cent t / d)%Q (rt_ent t)) losses)
  end.

(** [accumulate_grad], reinforce.py:130-156. *)
Definition r_accumulate (c : rconf) (s : rstate) : res rstate :=
  let tr := if Nat.eqb (rs_nback s) 0 then rs_trace s ++ [RClear] else rs_trace s in
  let! losses := all_losses (rc_beta c) (zip3 (rs_rewards s) (rs_lps s) (rs_ents s)) in
  let! loss := total_loss (rc_batchsize c) losses in
  Ok (RState [[]] [[]] [[]] (S (rs_nback s)) (tr ++ [RBackward loss])).

(** [update_with_accumulated_grad], reinforce.py:168-171. *)
Definition r_update_accumulated (c : rconf) (s : rstate) : res rstate :=
  assert! Nat.eqb (rs_nback s) (rc_batchsize c) in
  Ok (RState (rs_rewards s) (rs_lps s) (rs_ents s) 0 (rs_trace s ++ [RUpdate])).

(** [batch_update], reinforce.py:158-166. *)
Definition r_batch_update (c : rconf) (s : rstate) : res rstate :=
  assert! Nat.eqb (length (rs_rewards s)) (rc_batchsize c) in
  assert! Nat.eqb (length (rs_lps s)) (rc_batchsize c) in
  assert! Nat.eqb (length (rs_ents s)) (rc_batchsize c) in
  assert! Nat.eqb (rs_nback s) 0 in
  let! s1 := r_accumulate c s in
  Ok (RState (rs_rewards s1) (rs_lps s1) (rs_ents s1) 0 (rs_trace s1 ++ [RUpdate])).

(** [stop_episode_and_train], reinforce.py:104-128 (the recurrent state, lines
    127-128, is not modelled). *)
Definition r_stop (c : rconf) (s : rstate) (reward : Q) (done : bool) : res rstate :=
  if negb done then
    let! rw := map_last (fun _ => []) (rs_rewards s) in
    let! lps := map_last (fun _ => []) (rs_lps s) in
    let! ents := map_last (fun _ => []) (rs_ents s) in
    Ok (RState rw lps ents (rs_nback s) (rs_trace s))
  else
    let! rw := map_last (fun l => l ++ [reward]) (rs_rewards s) in
    let s1 := RState rw (rs_lps s) (rs_ents s) (rs_nback s) (rs_trace s) in
    if rc_separately c then
      let! s2 := r_accumulate c s1 in
      if Nat.eqb (rs_nback s2) (rc_batchsize c) then r_update_accumulated c s2 else Ok s2
    else
      if Nat.eqb (length (rs_rewards s1)) (rc_batchsize c) then r_batch_update c s1
      else Ok (RState (rs_rewards s1 ++ [[]]) (rs_lps s1 ++ [[]]) (rs_ents s1 ++ [[]]) (rs_nback s1) (rs_trace s1)).

(** A history of calls. *)
Inductive rop := RAct (reward : Q) (lp ent : V) | RStop (reward : Q) (done : bool).
Definition r_step (c : rconf) (s : rstate) (o : rop) : res rstate :=
  match o with RAct r l e => r_act s r l e | RStop r d => r_stop c s r d end.
Fixpoint r_run (c : rconf) (s : rstate) (os : list rop) : res rstate :=
  match os with [] => Ok s | o :: rest => let! s' := r_step c s o in r_run c s' rest end.
End Reinforce.
Arguments RClear {V}. Arguments RUpdate {V}. Arguments RStop {V} reward done. Arguments r_init {V}.
