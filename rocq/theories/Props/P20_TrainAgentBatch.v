(** C20: train_agent_batch. *)
From Coq Require Import QArith.
From Verif Require Import Base.PyBase Base.Effects Model.TrainAgent Model.TrainAgentBatch Spec.TrainBatchProtocol Proofs.TrainBatchProofs.
Local Open Scope nat_scope.

(** C20, partial: with [n >= 1] envs, every run follows the protocol [bpstep] (in
    particular exactly the envs whose episode ended are reset, and the agent is
    told the right flags); a run that ends normally makes [n] steps per iteration,
    stops at the first count that reaches [steps] or at a stopping evaluation, has
    written checkpoints at exactly the due counts, and ends with its one final
    save; one that raises runs the handler with the current count.  Missing: a
    successful evaluation stops the training only if its score is not zero, see
    the refutation, and one iteration is made even when [steps <= step_offset]. *)
Theorem C20_batch_training_protocol_partial : forall (Obs Act Rw : Type) (w : @bworld Obs Act Rw) (c : bconfig),
  (forall tr xs, bw_step w tr = Ok xs -> length xs = b_envs c) -> 1 <= b_envs c -> forall fuel,
  let (out, tr) := train_agent_batch w c fuel [] in
  (exists p, bppath c BPInit (b_core tr) p) /\
  match out with
  | Ok _ => exists tr0 t, tr = tr0 ++ [BSave SFinish t] /\ b_no_final tr0 /\
      t = (b_offset c + Z.of_nat (b_envs c * b_nsteps tr))%Z /\ 1 <= b_nsteps tr /\
      b_checkpoints tr = filter (b_due c) (upto (b_offset c) (b_envs c * b_nsteps tr)) /\
      (b_nsteps tr = 1 \/ (t - Z.of_nat (b_envs c) < b_steps c)%Z) /\
      (((b_steps c <= t)%Z /\ no_stop c tr) \/
       exists tr1 k s best, tr0 = tr1 ++ [BEval t k (Some s) best] /\
         stops c (@BEval Obs Act Rw t k (Some s) best) /\ no_stop c tr1)
  | Raise e =>
      (from_bworld w e /\ exists tr0 tr1 t, tr = tr0 ++ tr1 /\ b_no_final tr0 /\
        (b_offset c + Z.of_nat (b_envs c * (b_nsteps tr - 1)) <= t <= b_offset c + Z.of_nat (b_envs c * b_nsteps tr))%Z /\
        (exists rest, handler_events c t = tr1 ++ rest) /\
        (tr1 = handler_events c t \/ bw_reset w [] = Raise e \/
         exists e' tr', bw_save w tr' = Raise e' \/ bw_close w tr' = Raise e')) \/
      (e = OutOfFuel /\ ~ b_enough c fuel)
  end.
Proof. exact @train_batch_ok. Qed.
Print Assumptions C20_batch_training_protocol_partial.

(** Two envs; the second one ends an episode every other iteration. *)
Definition ex_bworld (score : list (@bev nat nat nat) -> option Q * Q) : @bworld nat nat nat :=
  mk_bworld (fun tr => Ok [length tr; 0]) (fun tr => Ok [1; 2])
    (fun tr => Ok [(length tr, 1, false, false); (0, 2, Nat.even (b_nsteps tr), false)])
    (fun _ => Ok tt) (fun _ => Ok tt) (fun tr => Ok (score tr)) (fun _ => Ok tt) (fun _ => Ok tt).
Example C20_example :
  train_agent_batch (ex_bworld (fun _ => (None, 0%Q))) (mk_bconfig 2 3 0 (Some 2%Z) (Some 2%Z) 0 true None) 5 [] =
  (Ok tt, [BReset None [0; 0]; BAct [0; 0] [1; 2]; BStep [1; 2] [(2, 1, false, false); (0, 2, true, false)];
           BObserve [2; 0] [1; 2] [false; true] [false; false]; BSave SCheckpoint 2; BEval 2 1 None 0;
           BReset (Some [true; false]) [6; 0]; BAct [6; 0] [1; 2]; BStep [1; 2] [(8, 1, false, false); (0, 2, false, false)];
           BObserve [8; 0] [1; 2] [false; false] [true; false]; BSave SCheckpoint 4; BEval 4 2 None 0; BSave SFinish 4]).
Proof. vm_compute. reflexivity. Qed.

(** C20 fails for a successful evaluation with score 0: the score 0.0 counts as
    "no evaluation", so training goes on although the best score (0) reaches the
    threshold (-1). *)
Theorem C20_zero_score_refuted : exists (w : @bworld nat nat nat) (c : bconfig),
  (forall tr xs, bw_step w tr = Ok xs -> length xs = b_envs c) /\ b_success c = Some (-1 # 1)%Q /\
  let (out, tr) := train_agent_batch w c 5 [] in
  out = Ok tt /\ nth_error tr 4 = Some (BEval 2 1 (Some 0%Q) 0%Q) /\ b_nsteps tr = 3.
Proof.
  exists (ex_bworld (fun _ => (Some 0%Q, 0%Q))), (mk_bconfig 2 6 0 None None 0 true (Some (-1 # 1)%Q)).
  split; [intros tr xs [= <-]; reflexivity|]. split; [reflexivity|]. vm_compute. auto.
Qed.
Print Assumptions C20_zero_score_refuted.
