(** Model of the updates of SoftActorCritic (chainerrl/agents/soft_actor_critic.py) and TD3
    (chainerrl/agents/td3.py), in real arithmetic: which loss is given to which optimizer, in which
    order, and what becomes of the target networks.  Parameters are flattened to functions of an
    index.  A policy gives, for a state and a noise, an action and its log probability; the noises
    of a batch are arguments, numbered by row.  Optimizers are arbitrary: they see the losses of all
    their earlier updates, the parameters and the new loss.  Recurrent states, GPUs, statistics
    and train/test mode are left out. *)
From Coq Require Import Reals List Arith ZArith.
From Verif Require Import Base.PyBase Model.Distributions Model.ReplayUpdater.
Import ListNotations.
Local Open Scope R_scope.

Definition params := nat -> R.
Definition loss := params -> R.
Definition optimizer := list loss -> params -> loss -> params.
(** A transition of a batch made by batch_experiences (Model/ReplayUpdater.v). *)
Record row (St Ac : Type) := mk_row { r_state : St; r_action : Ac; r_reward : R; r_discount : R; r_terminal : bool; r_next : St }.
Arguments mk_row {St Ac}. Arguments r_state {St Ac}. Arguments r_action {St Ac}. Arguments r_reward {St Ac}.
Arguments r_discount {St Ac}. Arguments r_terminal {St Ac}. Arguments r_next {St Ac}.
(** F.mean over the rows of a batch, with their numbers. *)
Fixpoint sum_rows {X} (f : nat -> X -> R) (k : nat) (l : list X) : R := match l with [] => 0 | x :: l => f k x + sum_rows f (S k) l end.
Definition mean_rows {X} (f : nat -> X -> R) (l : list X) : R := sum_rows f 0 l / INR (length l).
(** copy_param.py:33-51 soft_copy_param (Model/CopyParam.v for the matching of names). *)
Definition soft_copy (tau : R) (dst src : params) : params := fun i => dst i * (1 - tau) + tau * src i.
Definition terminal_value (b : bool) : R := if b then 1 else 0.

Section Agents.
  Context {St Ac No : Type}.
  Notation row := (row St Ac).
  Variable q : params -> St -> Ac -> R.
  Variable policy : params -> St -> No -> Ac * R.

  (** ** Soft actor-critic *)
  Record sac_conf := mk_sac_conf {
    sc_tau : R; sc_initial : R; sc_entropy_target : option R;
    sc_opt1 : optimizer; sc_opt2 : optimizer; sc_optp : optimizer;
    sc_optt : list (R -> R) -> R -> (R -> R) -> R }.
  (** The last four fields are the losses given to the optimizers so far, the latest first;
      [length] of them is [optimizer.t]. *)
  Record sac := mk_sac {
    s_q1 : params; s_q2 : params; s_t1 : params; s_t2 : params; s_pol : params; s_log_temp : R;
    s_h1 : list loss; s_h2 : list loss; s_hp : list loss; s_ht : list (R -> R) }.
  (** soft_actor_critic.py:146-170: the target networks are copies; 31-34 and 147-149: the
      temperature is held by its logarithm. *)
  Definition sac_init (c : sac_conf) (q1 q2 pol : params) : sac :=
    mk_sac q1 q2 q1 q2 pol (ln (sc_initial c)) [] [] [] [].
  (** soft_actor_critic.py:182-188. *)
  Definition temperature (c : sac_conf) (s : sac) : R :=
    match sc_entropy_target c with None => sc_initial c | Some _ => exp (s_log_temp s) end.
  (** soft_actor_critic.py:215-228, row [k]. *)
  Definition sac_target (c : sac_conf) (s : sac) (noise : nat -> No) (k : nat) (x : row) : R :=
    let '(a, log_prob) := policy (s_pol s) (r_next x) (noise k) in
    let next_q := Rmin (q (s_t1 s) (r_next x) a) (q (s_t2 s) (r_next x) a) in
    let entropy_term := temperature c s * log_prob in
    r_reward x + r_discount x * (1 - terminal_value (r_terminal x)) * (next_q - entropy_term).
  (** soft_actor_critic.py:230-234: 0.5 * F.mean_squared_error. *)
  Definition sac_q_loss (target : nat -> row -> R) (batch : list row) : loss :=
    fun p => / 2 * mean_rows (fun k x => (target k x - q p (r_state x) (r_action x)) ^ 2) batch.
  (** soft_actor_critic.py:207-243 update_q_func. *)
  Definition sac_update_q (c : sac_conf) (noise : nat -> No) (batch : list row) (s : sac) : sac :=
    let target := sac_target c s noise in
    let loss1 := sac_q_loss target batch in
    let loss2 := sac_q_loss target batch in
    mk_sac (sc_opt1 c (s_h1 s) (s_q1 s) loss1) (sc_opt2 c (s_h2 s) (s_q2 s) loss2) (s_t1 s) (s_t2 s) (s_pol s) (s_log_temp s)
      (loss1 :: s_h1 s) (loss2 :: s_h2 s) (s_hp s) (s_ht s).
  (** soft_actor_critic.py:245-250 update_temperature. *)
  Definition temperature_loss (entropy_target : R) (log_probs : nat -> row -> R) (batch : list row) : R -> R :=
    fun log_temp => - mean_rows (fun k x => exp log_temp * (log_probs k x + entropy_target)) batch.
  (** soft_actor_critic.py:252-280 update_policy_and_temperature. *)
  Definition sac_policy_loss (c : sac_conf) (noise : nat -> No) (batch : list row) (s : sac) : loss :=
    fun p => mean_rows (fun k x =>
      let '(a, log_prob) := policy p (r_state x) (noise k) in
      temperature c s * log_prob - Rmin (q (s_q1 s) (r_state x) a) (q (s_q2 s) (r_state x) a)) batch.
  Definition sac_update_p (c : sac_conf) (noise : nat -> No) (batch : list row) (s : sac) : sac :=
    let l := sac_policy_loss c noise batch s in
    let log_probs := fun k x => snd (policy (s_pol s) (r_state x) (noise k)) in
    let pol := sc_optp c (s_hp s) (s_pol s) l in
    match sc_entropy_target c with
    | None => mk_sac (s_q1 s) (s_q2 s) (s_t1 s) (s_t2 s) pol (s_log_temp s) (s_h1 s) (s_h2 s) (l :: s_hp s) (s_ht s)
    | Some h =>
        let lt := temperature_loss h log_probs batch in
        mk_sac (s_q1 s) (s_q2 s) (s_t1 s) (s_t2 s) pol (sc_optt c (s_ht s) (s_log_temp s) lt) (s_h1 s) (s_h2 s) (l :: s_hp s) (lt :: s_ht s)
    end.
  (** soft_actor_critic.py:190-205 sync_target_network. *)
  Definition sac_sync (c : sac_conf) (s : sac) : sac :=
    mk_sac (s_q1 s) (s_q2 s) (soft_copy (sc_tau c) (s_t1 s) (s_q1 s)) (soft_copy (sc_tau c) (s_t2 s) (s_q2 s)) (s_pol s) (s_log_temp s)
      (s_h1 s) (s_h2 s) (s_hp s) (s_ht s).
  (** soft_actor_critic.py:282-288 update; the two noises are those of the two samplings. *)
  Record minibatch := mk_minibatch { b_rows : list row; b_next_noise : nat -> No; b_noise : nat -> No }.
  Definition sac_update (c : sac_conf) (s : sac) (b : minibatch) : sac :=
    sac_sync c (sac_update_p c (b_noise b) (b_rows b) (sac_update_q c (b_next_noise b) (b_rows b) s)).
  Definition sac_updates (c : sac_conf) (s : sac) (bs : list minibatch) : sac := fold_left (sac_update c) bs s.

  (** ** TD3 *)
  Record td3_conf := mk_td3_conf {
    tc_tau : R; tc_delay : nat; tc_smooth : (nat -> No) -> nat -> Ac -> Ac;
    tc_opt1 : optimizer; tc_opt2 : optimizer; tc_optp : optimizer }.
  Record td3 := mk_td3 {
    d_q1 : params; d_q2 : params; d_pol : params; d_t1 : params; d_t2 : params; d_tp : params;
    d_h1 : list loss; d_h2 : list loss; d_hp : list loss }.
  Definition td3_init (q1 q2 pol : params) : td3 := mk_td3 q1 q2 pol q1 q2 pol [] [] [].
  (** td3.py:190-198: the smoothed action of the target policy, row [k].  The policy's
      own noise and the smoothing noise are both taken from [noise]. *)
  Definition td3_target (c : td3_conf) (s : td3) (noise : nat -> No) (k : nat) (x : row) : R :=
    let a := tc_smooth c noise k (fst (policy (d_tp s) (r_next x) (noise k))) in
    r_reward x + r_discount x * (1 - terminal_value (r_terminal x)) * Rmin (q (d_t1 s) (r_next x) a) (q (d_t2 s) (r_next x) a).
  (** td3.py:203-204. *)
  Definition td3_q_loss (target : nat -> row -> R) (batch : list row) : loss :=
    fun p => mean_rows (fun k x => (target k x - q p (r_state x) (r_action x)) ^ 2) batch.
  (** td3.py:180-213 update_q_func. *)
  Definition td3_update_q (c : td3_conf) (noise : nat -> No) (batch : list row) (s : td3) : td3 :=
    let target := td3_target c s noise in
    let loss1 := td3_q_loss target batch in
    let loss2 := td3_q_loss target batch in
    mk_td3 (tc_opt1 c (d_h1 s) (d_q1 s) loss1) (tc_opt2 c (d_h2 s) (d_q2 s) loss2) (d_pol s) (d_t1 s) (d_t2 s) (d_tp s)
      (loss1 :: d_h1 s) (loss2 :: d_h2 s) (d_hp s).
  (** td3.py:215-227 update_policy. *)
  Definition td3_policy_loss (noise : nat -> No) (batch : list row) (s : td3) : loss :=
    fun p => - mean_rows (fun k x => q (d_q1 s) (r_state x) (fst (policy p (r_state x) (noise k)))) batch.
  Definition td3_update_p (c : td3_conf) (noise : nat -> No) (batch : list row) (s : td3) : td3 :=
    let l := td3_policy_loss noise batch s in
    mk_td3 (d_q1 s) (d_q2 s) (tc_optp c (d_hp s) (d_pol s) l) (d_t1 s) (d_t2 s) (d_tp s) (d_h1 s) (d_h2 s) (l :: d_hp s).
  (** td3.py:157-178 sync_target_network. *)
  Definition td3_sync (c : td3_conf) (s : td3) : td3 :=
    mk_td3 (d_q1 s) (d_q2 s) (d_pol s) (soft_copy (tc_tau c) (d_t1 s) (d_q1 s)) (soft_copy (tc_tau c) (d_t2 s) (d_q2 s)) (soft_copy (tc_tau c) (d_tp s) (d_pol s))
      (d_h1 s) (d_h2 s) (d_hp s).
  (** td3.py:229-236 update; a delay of 0 raises ZeroDivisionError after the Q update, here it
      never updates the policy. *)
  Definition td3_update_full (c : td3_conf) (s : td3) (b : minibatch) : td3 :=
    let s := td3_update_q c (b_next_noise b) (b_rows b) s in
    if Nat.eqb (length (d_h1 s) mod tc_delay c) 0 && negb (Nat.eqb (tc_delay c) 0)
    then td3_sync c (td3_update_p c (b_noise b) (b_rows b) s) else s.
  Definition td3_updates_full (c : td3_conf) (s : td3) (bs : list minibatch) : td3 := fold_left (td3_update_full c) bs s.
End Agents.
Arguments mk_sac_conf : clear implicits.

(** td3.py:23-30 default_target_policy_smoothing_func: one component, [z] is the normal draw. *)
Definition np_clip (x lo hi : R) : R := Rmin (Rmax x lo) hi.
Definition default_smoothing (a z : R) : R := np_clip (a + np_clip z (- (1 / 2)) (1 / 2)) (-1) 1.

(** soft_actor_critic.py:308-312, 335-340 and td3.py:250-256: who chooses the action in training,
    [n_updates] being policy_optimizer.t. *)
Inductive chooser := BurnIn | Policy.
Definition training_chooser (burnin : bool) (n_updates : nat) : chooser :=
  if andb burnin (Nat.eqb n_updates 0) then BurnIn else Policy.

(** td3.py:100, 129-137: the ReplayUpdater that the constructor makes, for its arguments
    minibatch_size, replay_start_size, n_times_update and update_interval. *)
Definition td3_updater (minibatch_size replay_start_size n_times_update : nat) (update_interval : Z) : res updater :=
  upd_init minibatch_size false 1 replay_start_size update_interval None.
