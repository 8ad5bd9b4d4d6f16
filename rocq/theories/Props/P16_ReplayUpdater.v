(** C16, C17: batch_experiences and ReplayUpdater. *)
From Coq Require Import Reals Lra.
From Verif Require Import Base.PyBase Model.ReplayUpdater Spec.ReturnSpec Proofs.ReplayUpdaterProofs.
Local Open Scope nat_scope.

(** C16: for non-empty windows the batch never raises and contains the n-step
    ingredients ([d] is an arbitrary default for the partial functions hd/last,
    never used on non-empty windows). *)
Theorem C16_batch_experiences : forall (S A S' : Type) (phi : S -> S') (gamma : R)
    (exps : list (list (transition S A))) (d : transition S A),
  (forall e, In e exps -> e <> []) ->
  exists b, batch_experiences phi gamma exps = Ok b /\
    b_state b = map (fun e => phi (t_state (hd d e))) exps /\
    b_action b = map (fun e => t_action (hd d e)) exps /\
    b_next_state b = map (fun e => phi (t_next_state (last e d))) exps /\
    b_reward b = map (fun e => discounted gamma (map (@t_reward S A) e)) exps /\
    b_discount b = map (fun e => gamma ^ length e)%R exps /\
    Forall2 (fun e b => b = true <-> exists t, In t e /\ t_terminal t = true) exps (b_terminal b) /\
    match b_next_action b with
    | Some l => map (fun e => t_next_action (last e d)) exps = map Some l
    | None => exists e, In e exps /\ t_next_action (last e d) = None
    end.
Proof. exact @batch_ok. Qed.
Print Assumptions C16_batch_experiences.
Example C16_example : forall t1 t2 : transition nat nat, forall e, In e [[t1; t2]; [t2]] -> e <> [].
Proof. intros t1 t2 e [<-|[<-|[]]]; discriminate. Qed.

(** C17: the schedule of the updater and the sizes it asks for. *)
Theorem C17_updater_schedule : forall batch episodic times start interval len_opt u len n_eps it,
  upd_init batch episodic times start interval len_opt = Ok u -> interval <> 0%Z ->
  exists reqs, update_if_necessary u len n_eps it = Ok reqs /\
    (reqs <> [] -> (interval | it)%Z /\ start <= len /\ (episodic = true -> batch <= n_eps)) /\
    ((interval | it)%Z -> start <= len -> (episodic = true -> batch <= n_eps) -> length reqs = times) /\
    (forall r, In r reqs -> match r with
       | RqSample n => episodic = false /\ n = batch /\ n <= len
       | RqEpisodes n l => episodic = true /\ n = batch /\ l = len_opt /\ n <= n_eps
       end).
Proof. exact updater_schedule. Qed.
Print Assumptions C17_updater_schedule.
Example C17_example : exists u, upd_init 2 false 3 5 4 None = Ok u /\
  update_if_necessary u 7 0 8 = Ok [RqSample 2; RqSample 2; RqSample 2] /\ update_if_necessary u 7 0 9 = Ok [].
Proof. eexists. split; [reflexivity|]. split; reflexivity. Qed.
