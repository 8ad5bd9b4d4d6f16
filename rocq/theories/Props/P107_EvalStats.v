(** C107: the scores an evaluation reports. *)
From Coq Require Import Reals List String Lia Lra Permutation.
From Verif Require Import Base.PyBase Base.Effects Model.Distributions Model.EvalStats Spec.EvalStatsSpec Model.Evaluator Spec.EvalEpisodesSpec Proofs.EvalStatsProofs.
Import ListNotations.
Local Open Scope R_scope.

(** For any scores, the reported numbers are their number, mean, a median, largest and smallest score, all in order, and the standard deviation of a sample, which is 0
    exactly if all scores are the same. *)
Theorem C107_statistics : forall xs, xs <> [] -> exists s, eval_stats xs = Ok s /\
  s_episodes s = length xs /\ s_mean s = fsum xs / INR (length xs) /\ is_median (s_median s) xs /\ is_max (s_max s) xs /\ is_min (s_min s) xs /\
  s_min s <= s_mean s <= s_max s /\ s_min s <= s_median s <= s_max s /\ 0 <= s_stdev s /\ (s_stdev s = 0 <-> all_same xs) /\
  ((2 <= length xs)%nat -> s_stdev s * s_stdev s = fsum (map (fun x => (x - s_mean s) * (x - s_mean s)) xs) / INR (length xs - 1)).
Proof. exact stats_spec. Qed.

(** The order of the episodes does not matter. *)
Theorem C107_order : forall xs ys, Permutation xs ys -> eval_stats xs = eval_stats ys.
Proof. exact stats_perm. Qed.

(** Better scores are never reported as worse. *)
Theorem C107_monotone : forall xs ys s t, Forall2 Rle xs ys -> eval_stats xs = Ok s -> eval_stats ys = Ok t ->
  s_mean s <= s_mean t /\ s_median s <= s_median t /\ s_max s <= s_max t /\ s_min s <= s_min t.
Proof. exact stats_mono. Qed.

(** Scores on another scale give the same statistics on that scale. *)
Theorem C107_scale : forall a b xs s, 0 < a -> eval_stats xs = Ok s ->
  eval_stats (map (fun x => a * x + b) xs) =
  Ok (mk_stats (s_episodes s) (a * s_mean s + b) (a * s_median s + b) (a * s_stdev s) (a * s_max s + b) (a * s_min s + b)).
Proof. exact stats_affine. Qed.

(** An evaluation that ends, with or without a vector env, for episodes or for steps, always has statistics. *)
Theorem C107_always : forall (Obs Act : Type) b maxlen fuel scores, positive b ->
  (forall (w : @vworld Obs Act R) tr, run_evaluation_episodes 0 Rplus w b maxlen fuel [] = (Ok scores, tr) -> exists s, eval_stats scores = Ok s) /\
  (forall (w : @wworld Obs Act R) N tr, (1 <= N)%nat -> (forall tr xs, ww_step w tr = Ok xs -> length xs = N) ->
     batch_run_evaluation_episodes 0 Rplus w b maxlen N fuel [] = (Ok scores, tr) -> exists s, eval_stats scores = Ok s).
Proof.
  intros Obs Act b maxlen fuel scores P. split.
  - intros w tr H. eexists. exact (stats_ok scores (single_scores Obs Act w b maxlen fuel scores tr P H)).
  - intros w N tr HN Hw H. eexists. exact (stats_ok scores (batch_scores Obs Act w b maxlen N fuel scores tr HN P Hw H)).
Qed.

(** If an agent's statistics keep their names, every row of scores.txt has as many columns as the header, and each number is below its own name. *)
Theorem C107_table : forall t e el s (st0 st1 : list (string * R)), map fst st0 = map fst st1 -> NoDup (header st0) ->
  length (row t e el s st1) = length (header st0) /\
  (forall name v, In (name, v) ([("steps", t); ("episodes", e); ("elapsed", el); ("mean", s_mean s); ("median", s_median s); ("stdev", s_stdev s); ("max", s_max s); ("min", s_min s)]%string ++ st1) ->
     cell name (header st0) (row t e el s st1) = Some v).
Proof. exact table. Qed.

(** Non-vacuity. *)
Example C107_case_stats : exists s, eval_stats [3; 1; 2; 10] = Ok s /\ s_mean s = 4 /\ s_median s = 5 / 2 /\ s_max s = 10 /\ s_min s = 1 /\ 0 < s_stdev s.
Proof.
  destruct (stats_spec [3; 1; 2; 10]) as (s & E & _ & M & _ & MX & MN & _ & _ & P & Z & _); [congruence|]. exists s. split; [exact E|].
  pose proof (stats_ok [3; 1; 2; 10] ltac:(congruence)) as E2. rewrite E in E2. assert (MD : s_median s = middle [3; 1; 2; 10]) by (assert (X : s = mk_stats (length [3; 1; 2; 10]) (mean_of [3; 1; 2; 10]) (middle [3; 1; 2; 10]) (dev [3; 1; 2; 10]) (top [3; 1; 2; 10]) (bottom [3; 1; 2; 10])) by congruence; rewrite X; reflexivity).
  split; [rewrite M; cbn; lra|]. split.
  - rewrite MD. unfold middle. cbn. repeat (destruct (Rle_dec _ _); try lra; cbn); lra.
  - split; [|split].
    + apply (max_unique [3; 1; 2; 10]); [exact MX|]. split; [cbn; auto|]. intros x [<-|[<-|[<-|[<-|[]]]]]; lra.
    + apply (min_unique [3; 1; 2; 10]); [exact MN|]. split; [cbn; auto|]. intros x [<-|[<-|[<-|[<-|[]]]]]; lra.
    + destruct P as [P|P]; [exact P|]. exfalso. pose proof (proj1 Z (eq_sym P) 3 1 (or_introl eq_refl) (or_intror (or_introl eq_refl))). lra.
Qed.
Example C107_case_table : NoDup (header [("average_q", 1); ("average_loss", 2)]%string).
Proof. unfold header. cbn. repeat constructor; cbn; intuition congruence. Qed.
Example C107_case_always : exists s, fst (run_evaluation_episodes (Obs := unit) (Act := unit) 0 Rplus
  (mk_vworld (fun _ => Ok tt) (fun _ => Ok tt) (fun _ => Ok (tt, 1, true, false)) (fun _ => Ok tt)) (ForEpisodes 1) None 3 []) = Ok s /\ s <> [].
Proof. exists [0 + 1]. split; [reflexivity|discriminate]. Qed.

Print Assumptions C107_statistics.
Print Assumptions C107_order.
Print Assumptions C107_monotone.
Print Assumptions C107_scale.
Print Assumptions C107_always.
Print Assumptions C107_table.
