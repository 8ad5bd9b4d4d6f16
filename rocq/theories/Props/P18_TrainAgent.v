(** C18, C19: train_agent. *)
From Verif Require Import Base.PyBase Base.Effects Model.TrainAgent Spec.TrainProtocol Proofs.TrainAgentProofs.

(** C18: every run, whatever the environment, agent, hooks, evaluator and file
    system answer or raise, follows the protocol [pstep]; it ends with exactly
    one final save, after exactly [steps - step_offset] environment steps unless
    a successful evaluation stopped it; an exception that escapes was raised by
    one of the calls, and then a last save with the current step was made unless
    that save failed itself (or the very first reset did). *)
Theorem C18_training_protocol : forall (Obs Act Rw : Type) (rzero : Rw) (w : @world Obs Act Rw) (c : config),
  let (out, tr) := train_agent rzero w c [] in
  (exists p, ppath rzero c PInit (core tr) p) /\
  match out with
  | Ok _ => exists tr0 t, tr = tr0 ++ [ESave SFinish t] /\ no_final_save tr0 /\
      t = (c_offset c + nsteps tr0)%Z /\
      ((t = c_steps c /\ no_success tr0) \/ ((c_steps c <= c_offset c)%Z /\ nsteps tr0 = 0%Z) \/
       exists tr1 k, tr0 = tr1 ++ [EEval t k true] /\ no_success tr1)
  | Raise e => from_world w e /\
      ((tr = [] /\ w_reset w [] = Raise e) \/ exists tr0, no_final_save tr0 /\
        (tr = tr0 ++ [ESave SExcept (c_offset c + nsteps tr0)%Z] \/ (tr = tr0 /\ exists e', w_save w tr0 = Raise e')))
  end.
Proof. exact train_agent_protocol. Qed.
Print Assumptions C18_training_protocol.

(** A world where episodes end at every third step of the trace. *)
Definition ex_world : @world nat nat nat :=
  mk_world (fun tr => Ok (length tr)) (fun tr => Ok (2 * length tr)) 
    (fun tr => Ok (length tr, 1, Nat.eqb (length tr mod 3) 0, false))
    (fun _ => Ok tt) (fun _ => Ok tt) (fun _ => Ok false) (fun _ => Ok tt).
Example C18_example : 
  train_agent 0 ex_world (mk_config 3 1 None (Some 5%Z) 1 true) [] =
  (Ok tt, [EReset 0; EAct 0 0 2; EStep 2 2 1 false false; EHook 0 2; EAct 2 1 8; EStep 8 5 1 false false; EHook 0 3;
           EStop 5 1 false; EEval 3 1 false; ESave SFinish 3]).
Proof. vm_compute. reflexivity. Qed.

(** C19, partial: in a run that ends normally at step [t], checkpoints are
    written at exactly the multiples of the frequency strictly between the offset
    and [t], in order; in a run that raises, an initial part of those reached.
    Missing: the last step. *)
Theorem C19_checkpoints_partial : forall (Obs Act Rw : Type) (rzero : Rw) (w : @world Obs Act Rw) (c : config),
  let (out, tr) := train_agent rzero w c [] in
  match out with
  | Ok _ => checkpoints tr = due_between c (c_offset c) (c_offset c + nsteps tr)
  | Raise _ => exists rest, due_between c (c_offset c) (c_offset c + nsteps tr + 1) = checkpoints tr ++ rest
  end.
Proof. exact train_agent_checkpoints. Qed.
Print Assumptions C19_checkpoints_partial.
Example C19_example : checkpoints (snd (train_agent 0 ex_world (mk_config 10 1 (Some 3%Z) None 0 true) [])) = [3; 6; 9]%Z.
Proof. vm_compute. reflexivity. Qed.

(** C19 fails at the last step: it is a multiple of the frequency but no
    checkpoint is written. *)
Theorem C19_last_step_refuted : exists (w : @world nat nat nat) (c : config),
  fst (train_agent 0 w c []) = Ok tt /\ nsteps (snd (train_agent 0 w c [])) = 4%Z /\
  c_offset c = 0%Z /\ due c 4 = true /\ ~ In 4%Z (checkpoints (snd (train_agent 0 w c []))).
Proof.
  exists ex_world, (mk_config 4 0 (Some 2%Z) None 0 false). vm_compute. repeat split; intuition discriminate.
Qed.
Print Assumptions C19_last_step_refuted.
