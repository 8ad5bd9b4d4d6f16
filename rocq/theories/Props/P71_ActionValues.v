(** C71: discrete action values agree with each other; dueling heads are identifiable. *)
From Coq Require Import Reals List Arith Lia Lra.
From Verif Require Import Base.PyBase Model.Distributions Model.Targets Model.ActionValue.
From Verif Require Import Spec.SumSpec Spec.TargetSpec Spec.DistributionSpec Spec.ActionValueSpec Proofs.ActionValueProofs.
Import ListNotations.
Local Open Scope R_scope.

(** C71: [greedy_actions] is the first maximiser of every row and [max] is the value it
    attains, the largest of the row. *)
Theorem C71_max : forall q, (forall row, In row q -> row <> []) -> exists g m,
  av_greedy q = Ok g /\ av_max q = Ok m /\ Forall2 first_greedy q g /\ selects q g m /\ Forall2 (fun row v => is_maximum v row) q m.
Proof. exact discrete_max. Qed.
Print Assumptions C71_max.
Example C71_max_met : forall row, In row [[1; 3; 3]; [2; 0; 1]] -> row <> [].
Proof. intros row [<-|[<-|[]]]; discriminate. Qed.

(** C71: [evaluate_actions] returns a value exactly for valid actions, namely the chosen
    entries. *)
Theorem C71_evaluate : forall q acts, ((exists e, av_evaluate q acts = Ok e) <-> valid_actions q acts) /\
  (valid_actions q acts -> exists e, av_evaluate q acts = Ok e /\ selects q acts e).
Proof. intros q acts. split; [exact (select_iff R q acts)|exact (select_ok R q acts)]. Qed.
Print Assumptions C71_evaluate.

(** C71: an advantage is the distance below the maximum: never positive, and zero exactly
    for maximising actions. *)
Theorem C71_advantage : forall q acts, (forall row, In row q -> row <> []) -> valid_actions q acts -> exists e adv,
  av_evaluate q acts = Ok e /\ selects q acts e /\ av_advantage q acts = Ok adv /\ length adv = length q /\
  forall i row a, nth_error q i = Some row -> nth_error acts i = Some a ->
    exists v qa mx, nth_error adv i = Some v /\ nth_error row a = Some qa /\ is_maximum mx row /\ v = qa - mx /\
    v <= 0 /\ (v = 0 <-> is_greedy a row).
Proof. exact discrete_advantage. Qed.
Print Assumptions C71_advantage.
Example C71_advantage_met : valid_actions [[1; 3; 3]; [2; 0; 1]] [2%nat; 1%nat].
Proof. repeat constructor. Qed.

(** C71: a double advantage is the difference of the two evaluations. *)
Theorem C71_double_advantage : forall q acts acts', valid_actions q acts -> valid_actions q acts' -> exists e e' d,
  selects q acts e /\ selects q acts' e' /\ av_double_advantage q acts acts' = Ok d /\ length d = length q /\
  forall i x y, nth_error e i = Some x -> nth_error e' i = Some y -> nth_error d i = Some (x - y).
Proof. exact double_advantage. Qed.
Print Assumptions C71_double_advantage.

(** C71: [compute_expectation] is an average of the Q values; with a non-negative inverse
    temperature it lies between their mean and their maximum. *)
Theorem C71_expectation : forall row beta, row <> [] ->
  (exists p, probability p /\ length p = length row /\ q_expectation row beta = expectation p row) /\
  (0 <= beta -> mean row <= q_expectation row beta) /\
  (forall m, is_maximum m row -> q_expectation row beta <= m).
Proof. exact boltzmann. Qed.
Print Assumptions C71_expectation.

(** C71: slicing a batch of action values slices everything derived from it. *)
Theorem C71_slices : forall q g m i j, av_greedy q = Ok g -> av_max q = Ok m ->
  (forall k, nth_error (av_getitem q i j) k = if (k <? j - i)%nat then nth_error q (i + k) else None) /\
  av_greedy (av_getitem q i j) = Ok (slice i j g) /\ av_max (av_getitem q i j) = Ok (slice i j m) /\
  forall acts e, av_evaluate q acts = Ok e -> av_evaluate (av_getitem q i j) (slice i j acts) = Ok (slice i j e).
Proof. exact slices. Qed.
Print Assumptions C71_slices.

(** C71: a distributional action value is the expectation of the return distribution it
    gives for the same action; [max_as_distribution] is the distribution of the greedy
    action. *)
Theorem C71_distributional : forall q_dist z q, dav_qvalues q_dist z = Ok q ->
  q = map (map (fun d => expectation d z)) q_dist /\
  (forall acts, valid_actions q acts -> exists ds, dav_evaluate_as_distribution q_dist acts = Ok ds /\ selects q_dist acts ds /\
     av_evaluate q acts = Ok (map (fun d => expectation d z) ds)) /\
  ((forall row, In row q -> row <> []) -> exists g ds, av_greedy q = Ok g /\ Forall2 first_greedy q g /\ selects q_dist g ds /\
     dav_max_as_distribution q_dist z = Ok ds /\ av_max q = Ok (map (fun d => expectation d z) ds)).
Proof. exact dav_values. Qed.
Print Assumptions C71_distributional.
(** C71: it is accepted exactly when every distribution has one probability per atom, and
    its Q values stay within the range of the atoms. *)
Theorem C71_distributional_range : forall q_dist z,
  ((exists q, dav_qvalues q_dist z = Ok q) <-> (forall rows d, In rows q_dist -> In d rows -> length d = length z)) /\
  forall q lo hi, dav_qvalues q_dist z = Ok q ->
  (forall rows d, In rows q_dist -> In d rows -> probability d) -> (forall x, In x z -> lo <= x <= hi) ->
  forall row v, In row q -> In v row -> lo <= v <= hi.
Proof. intros q_dist z. split; [exact (dav_shapes q_dist z)|intros q lo hi; exact (dav_range q_dist z q lo hi)]. Qed.
Print Assumptions C71_distributional_range.
Example C71_distributional_met : (exists q, dav_qvalues [[[1/2; 1/2]; [1; 0]]] [-1; 1] = Ok q) /\ probability [1/2; 1/2] /\ probability [1; 0].
Proof.
  split; [apply dav_shapes; intros rows d [<-|[]] [<-|[<-|[]]]; reflexivity|].
  split; (split; [intros x [<-|[<-|[]]]; lra|cbn; lra]).
Qed.

(** C71: a quantile action value is the mean of the quantiles it gives for the action. *)
Theorem C71_quantiles : forall n quantiles acts, (forall m, In m quantiles -> m <> [] /\ wide n m) ->
  valid_actions (quant_qvalues n quantiles) acts -> exists taus,
  quant_evaluate quantiles acts = Ok taus /\
  Forall2 (fun p ts => ts = map (fun row => nth (snd p) row 0) (fst p)) (combine quantiles acts) taus /\
  av_evaluate (quant_qvalues n quantiles) acts = Ok (map mean taus).
Proof. exact quantile_values. Qed.
Print Assumptions C71_quantiles.
Example C71_quantiles_met : let qs := [[[1; 2]; [3; 4]; [5; 9]]] in
  (forall m, In m qs -> m <> [] /\ wide 2 m) /\ valid_actions (quant_qvalues 2 qs) [1%nat].
Proof.
  cbv zeta. split; [|repeat constructor]. intros m [<-|[]]. split; [discriminate|]. intros row [<-|[<-|[<-|[]]]]; reflexivity.
Qed.

(** C71: the dueling head: the value stream is the mean of the Q values, the advantage
    stream gives their differences and the greedy action, and adding a constant to the
    advantage stream changes nothing. *)
Theorem C71_dueling : forall n ya ys, length ya = n -> (0 < n)%nat ->
  length (dueling_row n ya ys) = n /\ mean (dueling_row n ya ys) = ys /\
  (forall a b, (a < n)%nat -> (b < n)%nat -> nth a (dueling_row n ya ys) 0 - nth b (dueling_row n ya ys) 0 = nth a ya 0 - nth b ya 0) /\
  (forall a, first_greedy (dueling_row n ya ys) a <-> first_greedy ya a) /\
  (forall c, dueling_row n (map (fun x => x + c) ya) ys = dueling_row n ya ys).
Proof. exact dueling_head. Qed.
Print Assumptions C71_dueling.
Example C71_dueling_met : length [1; 4; 2] = 3%nat /\ (0 < 3)%nat /\ dueling_row 3 [1; 4; 1] 5 = [4; 7; 4].
Proof. split; [reflexivity|]. split; [lia|]. cbn. repeat f_equal; lra. Qed.

(** C71: the distributional dueling head gives a probability vector for every action, and
    adding the same row of atoms to every action's advantages changes nothing. *)
Theorem C71_distributional_dueling : forall n k ya ys, length ya = n -> (0 < n)%nat -> (0 < k)%nat -> wide k ya -> length ys = k ->
  length (dist_dueling_row n k ya ys) = n /\
  (forall d, In d (dist_dueling_row n k ya ys) -> length d = k /\ probability d /\ forall x, In x d -> 0 < x) /\
  (forall c, length c = k -> dist_dueling_row n k (map (fun a => zipr Rplus a c) ya) ys = dist_dueling_row n k ya ys).
Proof. exact dist_dueling_head. Qed.
Print Assumptions C71_distributional_dueling.
Example C71_distributional_dueling_met : wide 2 [[1; 2]; [3; 4]; [5; 6]].
Proof. intros row [<-|[<-|[<-|[]]]]; reflexivity. Qed.
