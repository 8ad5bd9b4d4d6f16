(** C26: collect_demonstrations. *)
From Verif Require Import Base.PyBase Base.Effects Model.TrainAgent Model.Evaluator Model.CollectDemos Spec.EvalEpisodesSpec Spec.DemoSpec
  Proofs.CollectDemosProofs.
Local Open Scope nat_scope.

(** C26, partial: what is written is exactly the interaction; exactly the requested
    number of steps or complete episodes is collected; no episode is longer than
    max_episode_len + 1.  Missing: the bound max_episode_len itself, which fails. *)
Theorem C26_demonstrations_partial : forall (Obs Act Rw : Type) (w : @dworld Obs Act Rw) (b : budget) (maxlen : option Z) (fuel : nat),
  positive b ->
  let (out, tr) := collect_demonstrations w b maxlen fuel [] in
  exists p, dpath (demo_limit maxlen) RReset tr p /\
  match out with
  | Ok _ => (exists tr0, tr = tr0 ++ [DStop]) /\
      exists gs part, d_episodes tr = gs ++ part /\ Forall (d_complete (demo_limit maxlen)) gs /\ dataset tr = concat (gs ++ part) /\
        match b with
        | ForSteps n => Z.of_nat (length (dataset tr)) = n
        | ForEpisodes n => Z.of_nat (length gs) = n /\ part = []
        end /\
        (part = [] \/ exists g, part = [g] /\ g <> [] /\ d_running (demo_limit maxlen) g) /\
        (forall m g, maxlen = Some (Z.of_nat m) -> In g (gs ++ part) -> length g <= S m)
  | Raise e => from_dworld w e \/ (e = OutOfFuel /\ ~ enough (demo_limit maxlen) b fuel)
  end.
Proof. exact @collect_ok. Qed.
Print Assumptions C26_demonstrations_partial.

Definition ex_dworld : @dworld nat nat nat :=
  mk_dworld (fun tr => Ok 0) (fun tr => Ok 7) (fun tr => Ok (length tr, 1, false, false)) (fun _ => Ok tt) (fun _ => Ok tt).
Example C26_example : dataset (snd (collect_demonstrations ex_dworld (ForSteps 2) (Some 5%Z) 10 [])) =
  [(0, 7, 1, 2, false, false); (2, 7, 1, 5, false, false)].
Proof. vm_compute. reflexivity. Qed.

(** The bound fails: with max_episode_len = 2 the episodes have three steps. *)
Theorem C26_max_episode_len_refuted : exists (w : @dworld nat nat nat),
  let (out, tr) := collect_demonstrations w (ForEpisodes 1) (Some 2%Z) 10 [] in
  out = Ok tt /\ map (@length _) (d_episodes tr) = [3].
Proof. exists ex_dworld. vm_compute. auto. Qed.
Print Assumptions C26_max_episode_len_refuted.
