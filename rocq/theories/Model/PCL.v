(** Path consistency learning: the loss and the batched replay update of
    chainerrl/agents/pcl.py:172-341.

    Real arithmetic where the code has floats.  The model is a function from a
    preprocessed state to its two outputs, the log-probabilities of the actions
    and the state value; recurrent models, gradients and the float conversions
    are not modelled. *)
From Coq Require Import Reals.
From Verif Require Import Base.PyBase.
Set Implicit Arguments.
Local Open Scope R_scope.

Section PCL.
Variables St Ac : Type.

(** A transition as stored in the replay buffer (pcl.py:404-412), one step. *)
Record ptrans := PTrans { pt_state : St; pt_action : Ac; pt_reward : R; pt_next : St; pt_terminal : bool }.

(** The outputs of [self.model] for one state. *)
Definition pout : Type := (Ac -> R) * R.
Variable model : St -> pout.

(** Hyperparameters: pcl.py:88-110. *)
Record pconf := PConf { pc_gamma : R; pc_tau : R; pc_pi_coef : R; pc_v_coef : R; pc_rollout : nat;
  pc_normalize : bool; pc_batchsize : nat }.

(** What [compute_loss] gets for each time step: reward, value, next value and
    log-probability. *)
Record pdata := PData { pd_r : R; pd_v : R; pd_nv : R; pd_lp : R }.

(** [sum(w_i * x_i)], as [sum(...)] and [weighted_sum_arrays] compute it. *)
Fixpoint wsum (ws xs : list R) : R :=
  match ws, xs with w :: ws', x :: xs' => w * x + wsum ws' xs' | _, _ => 0 end.
Definition rsum (xs : list R) : R := fold_right Rplus 0 xs.

(** pcl.py:186-212: the consistency error of the step [t] of a sequence.  A
    rollout length of 0 makes [weighted_sum_arrays] fail on an empty list. *)
Definition p_error (c : pconf) (ds : list pdata) (t : nat) : res R :=
  let d := Nat.min (length ds - t) (pc_rollout c) in
  let window := firstn d (skipn t ds) in
  let powers := map (fun i => pc_gamma c ^ i) (seq 0 d) in
  let R_seq := wsum powers (map pd_r window) in
  match window with
  | [] => Raise IndexError
  | _ =>
      let G := wsum powers (map pd_lp window) in
      match nth_error ds (t + d - 1) with
      | None => Raise KeyError
      | Some last => Ok (- nth t (map pd_v ds) 0 + pc_gamma c ^ d * pd_nv last + R_seq - pc_tau c * G)
      end
  end.

(** [compute_loss], pcl.py:172-236, on the data of the steps
    [t_start .. t_stop - 1]. *)
Fixpoint mapR {A} (f : A -> res R) (l : list A) : res (list R) :=
  match l with [] => Ok [] | x :: l' => let! y := f x in let! ys := mapR f l' in Ok (y :: ys) end.
Definition p_loss (c : pconf) (ds : list pdata) : res R :=
  let! errs := mapR (p_error c ds) (seq 0 (length ds)) in
  match errs with
  | [] => Raise IndexError
  | _ =>
      let pi_loss := rsum (map (fun e => e ^ 2) errs) / 2 / pc_tau c * pc_pi_coef c in
      let v_loss := rsum (map (fun e => e ^ 2) errs) / 2 * pc_v_coef c in
      let n := INR (length ds) in
      Ok (if pc_normalize c then pi_loss / n + v_loss / n else pi_loss + v_loss)
  end.

(** [sorted(episodes, key=len)]: Python's sort is stable. *)
Fixpoint insert_len {A} (x : list A) (l : list (list A)) : list (list A) :=
  match l with
  | [] => [x]
  | y :: l' => if (length x <=? length y)%nat then x :: l else y :: insert_len x l'
  end.
Definition sort_len {A} (l : list (list A)) : list (list A) := fold_right insert_len [] l.
(** [list(reversed(sorted(episodes, key=len)))], pcl.py:282. *)
Definition sorted_episodes {A} (l : list (list A)) : list (list A) := rev (sort_len l).

(** pcl.py:295-299: the transitions at time [t], stopping at the first episode
    that is too short. *)
Fixpoint rows_at (t : nat) (eps : list (list ptrans)) : list ptrans :=
  match eps with
  | [] => []
  | ep :: rest => if (length ep <=? t)%nat then []
                  else match nth_error ep t with Some x => x :: rows_at t rest | None => [] end
  end.

(** pcl.py:300-317: one time step of the batched evaluation, given the model's
    outputs for the previous step's next states.  Element-wise operations on
    batches of different sizes do not occur ([zipw] truncates). *)
Fixpoint zipw {A B C} (f : A -> B -> C) (a : list A) (b : list B) : list C :=
  match a, b with x :: a', y :: b' => f x y :: zipw f a' b' | _, _ => [] end.
Definition p_step (prev : option (list pout)) (rows : list ptrans) : list pout * list pdata :=
  let cur := match prev with Some o => firstn (length rows) o | None => map (fun x => model (pt_state x)) rows end in
  let next := map (fun x => model (pt_next x)) rows in
  let nvs := zipw (fun (o : pout) x => snd o * (1 - if pt_terminal x then 1 else 0)) next rows in
  (next, zipw (fun nv_x_o d => match nv_x_o with (nv, x, o) => PData (pt_reward x) (snd (o : pout)) nv (fst o d) end)
           (zipw pair (zipw pair nvs rows) cur) (map pt_action rows)).

(** The loop of pcl.py:293-317 over [ts]; the data of every time step. *)
Fixpoint p_forward (eps : list (list ptrans)) (prev : option (list pout)) (ts : list nat) : list (list pdata) :=
  match ts with
  | [] => []
  | t :: rest => let (next, d) := p_step prev (rows_at t eps) in d :: p_forward eps (Some next) rest
  end.

(** pcl.py:321-333: the data of the episode at position [i]. *)
Fixpoint p_column (i : nat) (cols : list (list pdata)) (n : nat) : res (list pdata) :=
  match n, cols with
  | O, _ => Ok []
  | S n', col :: rest =>
      match nth_error col i with
      | Some d => let! ds := p_column i rest n' in Ok (d :: ds)
      | None => Raise AssertionError
      end
  | S _, [] => Raise KeyError
  end.

(** pcl.py:320-338: the losses, in the sorted order. *)
Fixpoint p_losses (c : pconf) (cols : list (list pdata)) (i : nat) (eps : list (list ptrans)) : res (list R) :=
  match eps with
  | [] => Ok []
  | ep :: rest =>
      let! ds := p_column i cols (length ep) in
      let! l := p_loss c ds in
      let! ls := p_losses c cols (S i) rest in
      Ok (l :: ls)
  end.

(** [update_from_replay], pcl.py:274-340, from the sampled episodes and
    weights to the loss passed to [update]. *)
Definition p_replay_losses (c : pconf) (episodes : list (list ptrans)) : res (list R) :=
  let eps := sorted_episodes episodes in
  match eps with
  | [] => Raise IndexError
  | ep :: _ => p_losses c (p_forward eps None (seq 0 (length ep))) 0 eps
  end.
Definition p_replay (c : pconf) (episodes : list (list ptrans)) (weights : list R) : res R :=
  let! losses := p_replay_losses c episodes in
  Ok (wsum weights losses / INR (pc_batchsize c)).
(** pcl.py:279-281: unweighted sampling. *)
Definition p_replay_uniform (c : pconf) (episodes : list (list ptrans)) : res R :=
  p_replay c episodes (repeat 1 (length episodes)).
End PCL.
