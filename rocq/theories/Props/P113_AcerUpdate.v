(** C113: what ACER learns from replaying what it has just experienced. *)
From Coq Require Import Reals List Lra.
From Verif Require Import Base.PyBase Model.Acer Model.AcerUpdate Spec.AcerSpec Spec.AcerUpdateSpec Proofs.AcerUpdateProofs.
Import ListNotations.
Local Open Scope R_scope.

(** If the recorded behaviour is the policy itself, the off-policy loss is the on-policy loss, as a function of the parameters and so with its gradients: with or without
    trust region, entropy bonus and Q^opc, for untruncated weights or a threshold of at least one. *)
Theorem C113_same_loss : forall huge constrain c, mild c -> forall last h theta, Forall (fun s => s_mu s = None /\ possible s) h ->
  acer_loss huge constrain c last (map recorded h) theta = acer_loss huge constrain c last h theta.
Proof. exact loss_recorded. Qed.
Print Assumptions C113_same_loss.

(** A threshold below one also truncates the weights of one's own experience, so the two losses differ. *)
Theorem C113_strict_truncation_refuted : forall huge constrain, possible fair_step /\
  acer_loss huge constrain strict_conf 0 [fair_step] 0 = Ok 1 /\ acer_loss huge constrain strict_conf 0 (map recorded [fair_step]) 0 = Ok (1 / 2).
Proof. exact strict_truncation. Qed.
Print Assumptions C113_strict_truncation_refuted.

(** What the loss is, on- or off-policy: for each step of the history, the policy loss for the advantage of its Retrace return (with all coefficients one, if that is asked
    for) over the state value, and half the squared distance of the action value from its Retrace return; summed with their coefficients, and averaged if that is asked for. *)
Theorem C113_loss_parts : forall huge constrain c last theta h hs loss, Forall2 numbers h hs -> acer_loss huge constrain c last h theta = Ok loss ->
  let ret := retrace (c_gamma c) last (Rmin 1) hs in
  let opc := retrace (c_gamma c) last (fun _ => 1) hs in
  exists ls qs, length ls = length h /\ length qs = length h /\
    (forall t s, nth_error h t = Some s ->
      (exists l, nth_error ls t = Some l /\ one_step_pi_loss huge constrain c s ((if c_use_opc c then opc t else ret t) - o_v (s_out s) 0) theta = Ok l) /\
      nth_error qs t = Some ((ret t - nth (s_action s) (o_q (s_out s) theta) 0) ^ 2 / 2)) /\
    loss = let n := if c_by_steps c then INR (length h) else 1 in (c_pi_coef c * total ls + c_q_coef c * total qs) / n.
Proof. exact loss_parts. Qed.
Print Assumptions C113_loss_parts.

(** What the agent stores is what it experienced: a segment replayed from the recurrent states it was acted from gives the bootstrap value and the history of the agent's
    own update, with the policy recorded as the behaviour. *)
Theorem C113_same_history : forall (X H : Type) (net avg : H -> X -> out * H) h ha steps last (terminal : bool), steps <> [] ->
  let '(b, own) := on_policy net avg h ha steps (if terminal then None else Some last) in
  from_replay net avg h ha (store net h steps last terminal) = Ok (b, map recorded own) /\ Forall (fun s => s_mu s = None) own.
Proof. exact (@replay_own). Qed.
Print Assumptions C113_same_history.

(** So, with unchanged parameters, replaying a segment that starts where recurrent states are reset (any segment, for a model without recurrent states) is the same update
    again.  Partial: not for a recurrent model and a segment from within an episode. *)
Theorem C113_same_update_partial : forall (X H : Type) (net avg : H -> X -> out * H) huge constrain c h ha steps last (terminal : bool),
  mild c -> steps <> [] ->
  let '(b, own) := on_policy net avg h ha steps (if terminal then None else Some last) in
  Forall possible own ->
  exists b' replayed, from_replay net avg h ha (store net h steps last terminal) = Ok (b', replayed) /\
    forall theta, acer_loss huge constrain c b' replayed theta = acer_loss huge constrain c b own theta.
Proof. exact replay_update. Qed.
Print Assumptions C113_same_update_partial.

(** Refuted for a recurrent model and a segment from within an episode: states are not stored, the segment is replayed from reset states, and the loss is another one. *)
Theorem C113_mid_episode_refuted : forall huge constrain, exists b b' own replayed,
  on_policy counter counter 1%nat 1%nat [(tt, 0%nat, 0)] None = (b, own) /\
  from_replay counter counter 0%nat 0%nat (store counter 1%nat [(tt, 0%nat, 0)] tt true) = Ok (b', replayed) /\
  acer_loss huge constrain plain_conf b own 0 = Ok (3 / 2) /\ acer_loss huge constrain plain_conf b' replayed 0 = Ok 0.
Proof. exact mid_episode. Qed.
Print Assumptions C113_mid_episode_refuted.

(** The hypotheses are met: two steps of the counting model, cut off and bootstrapped from the third observation, with the loss they give. *)
Example C113_two_steps : forall huge constrain, mild plain_conf /\ exists own,
  on_policy counter counter 0%nat 0%nat [(tt, 0%nat, 1); (tt, 0%nat, 1)] (Some tt) = (INR 2, own) /\ length own = 2%nat /\ Forall possible own /\
  acer_loss huge constrain plain_conf (INR 2) own 0 = Ok (15 / 2).
Proof. exact two_steps. Qed.
Example C113_numbers : Forall2 numbers (map recorded [fair_step]) [mk_hstep 1 0 0 1].
Proof.
  apply Forall2_cons; [|apply Forall2_nil]. split; [|split; [|split]]; try reflexivity. unfold rho_of. cbn [recorded fair_step s_mu s_out o_pi s_action nth h_rho].
  apply importance_one. lra.
Qed.
