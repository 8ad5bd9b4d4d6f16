(** What REINFORCE's updates must be, from the history of calls alone. *)
From Coq Require Import QArith.
From Verif Require Import Base.PyBase Spec.WrapperSpec Model.Reinforce.
Set Implicit Arguments.

Section ReinforceSpec.
Variable V : Type.

(** A completed episode: its actions, each with the reward that came with the
    observation acted on, and the final reward. *)
Definition episode : Type := list (Q * V * V) * Q.

(** The episodes a history completes: those stopped with [done = True].  An
    episode stopped otherwise is discarded. *)
Fixpoint completed (cur : list (Q * V * V)) (os : list (rop V)) : list episode :=
  match os with
  | [] => []
  | RAct r l e :: rest => completed (cur ++ [(r, l, e)]) rest
  | RStop r true :: rest => (cur, r) :: completed [] rest
  | RStop r false :: rest => completed [] rest
  end.

(** What one action contributes: its log-probability weighted by minus the sum
    of the rewards received after it, and its entropy by minus beta, both
    divided by the number of episodes of the update. *)
Definition rewards_after (later : list (Q * V * V)) (final : Q) : Q :=
  (qsum (map (fun z => fst (fst z)) later) + final)%Q.
Fixpoint contributions (beta : Q) (B : nat) (acts : list (Q * V * V)) (final : Q) : list (rterm V) :=
  match acts with
  | [] => []
  | (_, l, e) :: later =>
      RTerm (- rewards_after later final / inject_Z (Z.of_nat B))%Q l (- beta / inject_Z (Z.of_nat B))%Q e
      :: contributions beta B later final
  end.
Definition same_term (a b : rterm V) : Prop :=
  (rt_clp a == rt_clp b)%Q /\ rt_lp a = rt_lp b /\ (rt_cent a == rt_cent b)%Q /\ rt_ent a = rt_ent b.

(** The i-th batch of [B] consecutive completed episodes. *)
Definition batch_no {A} (B : nat) (l : list A) (i : nat) : list A := firstn B (skipn (i * B) l).

(** The gradients that each optimizer update sees: everything back-propagated
    since the gradients were last cleared. *)
Fixpoint updates (grad : list (rterm V)) (tr : list (revent V)) : list (list (rterm V)) :=
  match tr with
  | [] => []
  | RClear :: rest => updates [] rest
  | RBackward l :: rest => updates (grad ++ l) rest
  | RUpdate :: rest => grad :: updates grad rest
  end.

(** The updates a history must give: one for each complete batch of
    episodes, of the contributions of their actions. *)
Definition expected_updates (beta : Q) (B : nat) (os : list (rop V)) : list (list (rterm V)) :=
  map (fun i => flat_map (fun ep => contributions beta B (fst ep) (snd ep)) (batch_no B (completed [] os) i))
      (seq 0 (length (completed [] os) / B)).
End ReinforceSpec.
