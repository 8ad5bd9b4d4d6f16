(** Path consistency, and what a replay update of PCL must minimise. *)
From Coq Require Import Reals Permutation.
From Verif Require Import Base.PyBase Spec.SumSpec Model.PCL.
Set Implicit Arguments.
Local Open Scope R_scope.

Section PCLSpec.
Variables St Ac : Type.
Variable model : St -> pout Ac.

(** An episode of the buffer: not empty, each step starting where the one
    before ended. *)
Fixpoint contiguous (ep : list (ptrans St Ac)) : Prop :=
  match ep with
  | [] => True
  | x :: rest => match rest with [] => True | y :: _ => pt_next x = pt_state y end /\ contiguous rest
  end.
Definition good_episode (ep : list (ptrans St Ac)) : Prop := ep <> [] /\ contiguous ep.

(** What one episode's loss is computed from, looking at this episode alone. *)
Definition own_data (x : ptrans St Ac) : pdata :=
  PData (pt_reward x) (snd (model (pt_state x)))
        (if pt_terminal x then 0 else snd (model (pt_next x)))
        (fst (model (pt_state x)) (pt_action x)).

(** The d-step consistency error of step [t]:
    -V(s_t) + gamma^d V(s_{t+d}) + sum_{i<d} gamma^i (r_{t+i} - tau log pi(a_{t+i} | s_{t+i})),
    for d the rollout length or, nearer the end, what remains. *)
Definition nth_data (ds : list pdata) (t : nat) : pdata := nth t ds (PData 0 0 0 0).
Definition consistency_error (c : pconf) (ds : list pdata) (t : nat) : R :=
  let d := Nat.min (length ds - t) (pc_rollout c) in
  - pd_v (nth_data ds t) + pc_gamma c ^ d * pd_nv (nth_data ds (t + d - 1))
  + sum_below d (fun i => pc_gamma c ^ i * (pd_r (nth_data ds (t + i)) - pc_tau c * pd_lp (nth_data ds (t + i)))).
Definition consistency_loss (c : pconf) (ds : list pdata) : R :=
  (pc_pi_coef c / pc_tau c + pc_v_coef c) / 2
  * sum_below (length ds) (fun t => consistency_error c ds t ^ 2)
  / (if pc_normalize c then INR (length ds) else 1).
Definition episode_loss (c : pconf) (ep : list (ptrans St Ac)) : R := consistency_loss c (map own_data ep).

(** The loss a weighted replay update should minimise. *)
Fixpoint weighted_losses (c : pconf) (ws : list R) (eps : list (list (ptrans St Ac))) : R :=
  match ws, eps with
  | w :: ws', ep :: eps' => w * episode_loss c ep + weighted_losses c ws' eps'
  | _, _ => 0
  end.
Definition replay_target (c : pconf) (eps : list (list (ptrans St Ac))) (ws : list R) : R :=
  weighted_losses c ws eps / INR (pc_batchsize c).
End PCLSpec.

(** Episodes given in the order of strictly decreasing length. *)
Fixpoint strictly_descending {A} (l : list (list A)) : Prop :=
  match l with [] => True | x :: r => Forall (fun y => (length y < length x)%nat) r /\ strictly_descending r end.
