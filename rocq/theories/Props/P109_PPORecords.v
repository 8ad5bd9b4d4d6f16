(** C109: what PPO and TRPO record about their own actions. *)
From Coq Require Import Reals Permutation.
From Verif Require Import Base.PyBase Model.PPOLoss Model.PPORecords Spec.PPORecordsSpec Proofs.PPORecordsProofs.
Local Open Scope nat_scope.

(** For any network, recurrent or not, any normalizer, and any history of training with one env or with a batch of envs: the data set of every update consists of the actions
    taken since the update before, each once, with the log-probability and the value that the network gave when it was taken; within an episode each next observation and next
    value are the observation and value of the following record; the next value of every record is what the network, as it was while acting, gives for the next observation after the
    recurrent state that followed the action; and running the network that acted along any pieces of the episodes gives the recorded numbers again. *)
Theorem C109_records : forall (O A F H P N D : Type) (net : P -> H -> F -> (D * R) * H) (zero : H) (log_prob : D -> A -> R) (phi : O -> F) (normalize : N -> F -> F)
    (experience : N -> list F -> N) (recurrent : bool) (interval : nat) (train : P -> option N -> list (list (rec O A H)) -> P) p0 n0 k cs g es,
  (k = 1 /\ single cs \/ batch (repeat None k) true cs) ->
  runs net zero log_prob phi normalize experience recurrent interval train (mk_agent p0 n0 [] (repeat (@new_slot O A H) k)) cs = Ok (g, es) ->
  forall es1 p n n' data es2, es = es1 ++ EUpdate p n n' data :: es2 ->
  Permutation (map as_act (concat data)) (since [] es1) /\
  (forall ep before r1 r2 after, In ep data -> ep = before ++ r1 :: r2 :: after -> t_next (r_tr r1) = t_state (r_tr r2) /\ r_next_v r1 = r_v r2) /\
  (forall r, In r (concat data) -> r_next_v r = snd (fst (evaluate net zero phi normalize recurrent p n (t_next_rs (r_tr r)) (t_next (r_tr r))))) /\
  (forall pieces, Forall (piece_of data) pieces -> recompute net zero log_prob phi normalize recurrent p n pieces = Ok (map (fun r => (r_logp r, r_v r)) (concat pieces))).
Proof. exact records_true. Qed.

(** Without a normalizer of observations, the first minibatch of every update, however episodes are cut and chosen, finds every probability ratio at 1 and every value where it was. *)
Theorem C109_first_ratio : forall (O A F H P N D : Type) (net : P -> H -> F -> (D * R) * H) (zero : H) (log_prob : D -> A -> R) (phi : O -> F) (normalize : N -> F -> F)
    (experience : N -> list F -> N) (recurrent : bool) (interval : nat) (train : P -> option N -> list (list (rec O A H)) -> P) p0 k cs g es,
  (k = 1 /\ single cs \/ batch (repeat None k) true cs) ->
  runs net zero log_prob phi normalize experience recurrent interval train (mk_agent p0 None [] (repeat (@new_slot O A H) k)) cs = Ok (g, es) ->
  forall p n n' data, In (EUpdate p n n' data) es -> forall pieces, Forall (piece_of data) pieces ->
  exists new, recompute net zero log_prob phi normalize recurrent p n' pieces = Ok new /\ length new = length (concat pieces) /\
    Forall2 (fun r x => prob_ratio (fst x) (r_logp r) = 1%R /\ snd x = r_v r) (concat pieces) new.
Proof. exact first_ratio. Qed.

(** With a normalizer it need not: the normalizer experiences the states before the first minibatch, while the recorded log-probabilities are those of before. *)
Theorem C109_normalizer_refuted : exists g es1 data es2,
  shift_runs (mk_agent tt (Some 0) [] (repeat (@new_slot R unit unit) 1)) [CAct 0%R 0%R tt; CAct 0%R 0%R tt] = Ok (g, es1 ++ EUpdate tt (Some 0) (Some 1) data :: es2) /\
  Forall (piece_of data) data /\
  exists new, recompute shift_net tt (fun d (_ : unit) => d) (fun o : R => o) (fun n f => (f + INR n)%R) false tt (Some 1) data = Ok new /\
  ~ Forall2 (fun r x => prob_ratio (fst x) (r_logp r) = 1%R) (concat data) new.
Proof. exact normalizer_case. Qed.

(** Training never raises: with one env whose episodes are stopped only after an action, or with a batch of envs. *)
Theorem C109_never_raises : forall (O A F H P N D : Type) (net : P -> H -> F -> (D * R) * H) (zero : H) (log_prob : D -> A -> R) (phi : O -> F) (normalize : N -> F -> F)
    (experience : N -> list F -> N) (recurrent : bool) (interval : nat) (train : P -> option N -> list (list (rec O A H)) -> P) p0 n0 k cs,
  (k = 1 /\ proper false cs \/ batch (repeat None k) true cs) ->
  exists g es, runs net zero log_prob phi normalize experience recurrent interval train (mk_agent p0 n0 [] (repeat (@new_slot O A H) k)) cs = Ok (g, es).
Proof. exact never_raises. Qed.

(** The first action of every episode is chosen with the recurrent state zero, whatever came before: in a batch, in every env whose episode was over... *)
Theorem C109_batch_starts : forall (O A F H P N D : Type) (net : P -> H -> F -> (D * R) * H) (zero : H) (log_prob : D -> A -> R) (phi : O -> F) (normalize : N -> F -> F)
    (experience : N -> list F -> N) (recurrent : bool) (interval : nat) (train : P -> option N -> list (list (rec O A H)) -> P) p0 n0 k cs oas g es,
  batch (repeat None k) true (cs ++ [CBatchAct oas]) ->
  runs net zero log_prob phi normalize experience recurrent interval train (mk_agent p0 n0 [] (repeat (@new_slot O A H) k)) (cs ++ [CBatchAct oas]) = Ok (g, es) ->
  exists es' acts, es = es' ++ acts /\ length acts = length oas /\
    forall i o a, nth_error (expected (repeat None k) cs) i = Some None -> nth_error oas i = Some (o, a) ->
    nth_error acts i = Some (let '(d, v) := fst (net (g_params g) zero (feature phi normalize (g_norm g) o)) in EAct o a (log_prob d a) v).
Proof. exact batch_starts. Qed.

(** ...and with one env, at the beginning and after every stop. *)
Theorem C109_single_starts : forall (O A F H P N D : Type) (net : P -> H -> F -> (D * R) * H) (zero : H) (log_prob : D -> A -> R) (phi : O -> F) (normalize : N -> F -> F)
    (experience : N -> list F -> N) (recurrent : bool) (interval : nat) (train : P -> option N -> list (list (rec O A H)) -> P) p0 n0 cs o r a g es,
  single cs -> (cs = [] \/ exists cs' o' r' d, cs = cs' ++ [CStop o' r' d]) ->
  runs net zero log_prob phi normalize experience recurrent interval train (mk_agent p0 n0 [] (repeat (@new_slot O A H) 1)) (cs ++ [CAct o r a]) = Ok (g, es) ->
  exists es', es = es' ++ [let '(d, v) := fst (net (g_params g) zero (feature phi normalize (g_norm g) o)) in EAct o a (log_prob d a) v].
Proof. exact single_starts. Qed.

(** Two envs and a recurrent network: an episode that has ended and one that goes on are in the data set of the update. *)
Example C109_case : exists cs,
  batch (repeat None 2) true cs /\
  exists g es1 p n n' d1 d2 d3 d4 es2,
  runs (fun (p : nat) (h f : nat) => ((h, IZR 0), h + f)) 0 (fun d (a : nat) => IZR 0) (fun o : nat => o) (fun (n : unit) f => f) (fun n _ => n) true 4 (fun p _ _ => S p)
    (mk_agent 0 None [] (repeat (@new_slot nat nat nat) 2)) cs = Ok (g, es1 ++ EUpdate p n n' [[d1]; [d2]; [d3; d4]] :: es2) /\ es1 <> [] /\ es2 <> [] /\ p = 0.
Proof.
  exists [CBatchAct [(1, 5); (2, 6)]; CBatchObserve [(3, IZR 1, true, true); (4, IZR 1, false, false)]; CBatchAct [(0, 5); (4, 6)];
    CBatchObserve [(7, IZR 1, false, false); (8, IZR 1, false, false)]; CBatchAct [(7, 5); (8, 6)]]. split.
  - cbn [batch repeat map length]. split; [reflexivity|]. split; [constructor; [discriminate|constructor; [discriminate|constructor]]|].
    split; [reflexivity|]. split; [reflexivity|]. split; [reflexivity|]. split; [constructor; [discriminate|constructor; [intros o E; injection E as <-; reflexivity|constructor]]|].
    split; [reflexivity|]. split; [reflexivity|]. split; [reflexivity|]. split; [|exact I].
    constructor; [intros o E; injection E as <-; reflexivity|constructor; [intros o E; injection E as <-; reflexivity|constructor]].
  - lazymatch goal with |- exists g es1 p n n' d1 d2 d3 d4 es2, ?x = _ /\ _ =>
      let r := eval lazy -[IZR] in x in
      lazymatch r with Ok (?g, [?a; ?b; ?c; ?d; EUpdate ?p ?n ?n' [[?d1]; [?d2]; [?d3; ?d4]]; ?f; ?h]) =>
        exists g, [a; b; c; d], p, n, n', d1, d2, d3, d4, [f; h] end end.
    split; [lazy -[IZR]; reflexivity|].
    split; [discriminate|]. split; [discriminate|reflexivity].
Qed.

Print Assumptions C109_records.
Print Assumptions C109_first_ratio.
Print Assumptions C109_normalizer_refuted.
Print Assumptions C109_never_raises.
Print Assumptions C109_batch_starts.
Print Assumptions C109_single_starts.
