(** Model of the losses of chainerrl/agents/ppo.py (and of TRPO's gain,
    chainerrl/agents/trpo.py), in real arithmetic: a minibatch is a list of samples.  The
    network outputs are arbitrary numbers; automatic differentiation is not modelled. *)
From Coq Require Import Reals List.
From Verif Require Import Base.PyBase Model.Distributions.
Import ListNotations.
Local Open Scope R_scope.

(** One sample of a minibatch: the arguments of [_lossfun] at one position. *)
Record sample := mk_sample {
  s_entropy : R; s_v : R; s_logp : R; s_v_old : R; s_logp_old : R; s_adv : R; s_teacher : R }.
(** [F.mean]. *)
Definition fmean {X : Type} (f : X -> R) (l : list X) : R := fsum (map f l) / INR (length l).
(** [F.clip] and ppo.py:19-24 ([_elementwise_clip]). *)
Definition clip (x lo hi : R) : R := Rmin (Rmax x lo) hi.

(** ppo.py:564. *)
Definition prob_ratio (logp logp_old : R) : R := exp (logp - logp_old).
(** ppo.py:566-568, inside the mean. *)
Definition clipped_gain (eps adv logp logp_old : R) : R :=
  let r := prob_ratio logp logp_old in Rmin (r * adv) (clip r (1 - eps) (1 + eps) * adv).
Definition loss_policy (eps : R) (l : list sample) : R := - fmean (fun s => clipped_gain eps (s_adv s) (s_logp s) (s_logp_old s)) l.
(** ppo.py:570-579; the argument is [clip_eps_vf]. *)
Definition value_term (eps_vf : option R) (s : sample) : R :=
  match eps_vf with
  | None => (s_v s - s_teacher s) ^ 2
  | Some e => Rmax ((s_v s - s_teacher s) ^ 2) ((clip (s_v s) (s_v_old s - e) (s_v_old s + e) - s_teacher s) ^ 2)
  end.
Definition loss_value (eps_vf : option R) (l : list sample) : R := fmean (value_term eps_vf) l.
(** ppo.py:580. *)
Definition loss_entropy (l : list sample) : R := - fmean s_entropy l.
(** ppo.py:585-589. *)
Definition ppo_loss (eps : R) (eps_vf : option R) (c_v c_e : R) (l : list sample) : R :=
  loss_policy eps l + c_v * loss_value eps_vf l + c_e * loss_entropy l.

(** trpo.py:390-395. *)
Definition trpo_gain (c_e : R) (l : list sample) : R :=
  fmean (fun s => prob_ratio (s_logp s) (s_logp_old s) * s_adv s) l + c_e * fmean s_entropy l.

(** numpy's mean, var and std (the population ones). *)
Definition np_mean (l : list R) : R := fmean (fun x => x) l.
Definition np_var (l : list R) : R := fmean (fun x => (x - np_mean l) ^ 2) l.
Definition np_std (l : list R) : R := sqrt (np_var l).
(** ppo.py:441-444, 457-458 and trpo.py:415-418: statistics of the whole dataset [all],
    applied to a minibatch [advs].  The constant is 1e-8. *)
Definition std_eps : R := / 10 ^ 8.
Definition standardize (all advs : list R) : list R := map (fun a => (a - np_mean all) / (np_std all + std_eps)) advs.
(** ppo.py:481-484, 502-503, 540-546: the recurrent path first asserts a positive
    standard deviation. *)
Definition standardize_recurrent (all advs : list R) : res (list R) :=
  if Rlt_dec 0 (np_std all) then Ok (standardize all advs) else Raise AssertionError.

(** ppo.py:174-186; [None] is nan.  Each transition is (v_teacher, v_pred). *)
Definition explained_variance (trs : list (R * R)) : option R :=
  let t := map fst trs in
  if Req_EM_T (np_var t) 0 then None else Some (1 - np_var (map (fun p => fst p - snd p) trs) / np_var t).
