(** C50: REINFORCE updates on complete batches of full-return episodes. *)
From Coq Require Import QArith.
From Verif Require Import Base.PyBase Model.Reinforce Spec.ReinforceSpec Proofs.ReinforceProofs.
Local Open Scope nat_scope.

(** In both modes, for every history of calls: the i-th optimizer update sees
    exactly the contributions of the i-th batch of [batchsize] completed
    episodes. *)
Theorem C50_reinforce_updates : forall V c (os : list (rop V)) s, 1 <= rc_batchsize c -> r_run c r_init os = Ok s ->
  Forall2 (Forall2 (@same_term V)) (updates [] (rs_trace s)) (expected_updates (rc_beta c) (rc_batchsize c) os).
Proof. exact @updates_lemma. Qed.
Print Assumptions C50_reinforce_updates.

(** No call raises when every completed episode has at least one action. *)
Theorem C50_reinforce_no_raise : forall V c (os : list (rop V)), 1 <= rc_batchsize c ->
  Forall (fun ep => fst ep <> []) (completed [] os) -> exists s, r_run c r_init os = Ok s.
Proof. exact @no_raise_lemma. Qed.
Print Assumptions C50_reinforce_no_raise.

(** Without that, it can: an episode completed before any action. *)
Theorem C50_reinforce_empty_episode_refuted : exists (c : rconf) (os : list (rop nat)) x,
  rc_batchsize c = 1 /\ r_run c r_init os = Raise x.
Proof. exists (RConf 0%Q 1 true), [RStop 1%Q true], IndexError. split; reflexivity. Qed.
Print Assumptions C50_reinforce_empty_episode_refuted.

(** Non-vacuity: two actions, a discarded episode, another episode, batches of two. *)
Definition ex50 : list (rop nat) :=
  [RAct 0%Q 1 11; RAct 2%Q 2 12; RStop 3%Q true; RAct 0%Q 3 13; RStop 9%Q false; RAct 0%Q 4 14; RStop 5%Q true].
Example C50_ex_separate : match r_run (RConf 1%Q 2 true) r_init ex50 with
  | Ok s => map (map (fun t => (Qred (rt_clp t), rt_lp t))) (updates [] (rs_trace s)) = [[((-5 # 2)%Q, 1); ((-3 # 2)%Q, 2); ((-5 # 2)%Q, 4)]]
  | Raise _ => False end.
Proof. vm_compute. reflexivity. Qed.
Example C50_ex_together : match r_run (RConf 1%Q 2 false) r_init ex50 with
  | Ok s => map (map (fun t => (Qred (rt_clp t), rt_lp t))) (updates [] (rs_trace s)) = [[((-5 # 2)%Q, 1); ((-3 # 2)%Q, 2); ((-5 # 2)%Q, 4)]]
  | Raise _ => False end.
Proof. vm_compute. reflexivity. Qed.
Example C50_ex_nonempty : Forall (fun ep => fst ep <> []) (completed [] ex50) /\ length (completed [] ex50) = 2.
Proof. split; [|reflexivity]. repeat constructor; discriminate. Qed.
