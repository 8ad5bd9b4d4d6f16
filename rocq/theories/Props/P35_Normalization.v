(** C35: running normalisation of observations. *)
From Coq Require Import Reals Lra Lia.
From Verif Require Import Base.PyBase Model.EmpiricalNormalization Spec.NormalizationSpec Proofs.NormalizationProofs.
Local Open Scope R_scope.

(** C35: after any history, the stored mean and variance are the average and the
    population variance of all values learnt. *)
Theorem C35_population_statistics : forall eps until clip os,
  has_statistics_of (nrun (norm_init eps until clip) os) (learnt until [] (map offered os)).
Proof. exact population_statistics_init. Qed.
Print Assumptions C35_population_statistics.

Example C35_population_statistics_used :
  learnt (Some 3%nat) [] (map offered [NExperience [1; 2]; NCall [7] false; NCall [3; 6] true; NInverse [1]; NExperience [9]])
  = [1; 2; 3; 6] /\ average [1; 2; 3; 6] = 3 /\ variance [1; 2; 3; 6] = 7 / 2.
Proof. split; [reflexivity|]. unfold variance, average. cbn. split; lra. Qed.

(** C35: two histories offering the same values split into different batches end
    with the same statistics. *)
Theorem C35_split_independent : forall eps clip os os',
  concat (map offered os) = concat (map offered os') ->
  let s := nrun (norm_init eps None clip) os in
  let s' := nrun (norm_init eps None clip) os' in
  n_count s = n_count s' /\ n_mean s = n_mean s' /\ n_var s = n_var s'.
Proof. exact split_independent. Qed.
Print Assumptions C35_split_independent.

Example C35_split_independent_used :
  concat (map offered [NExperience [1; 2]; NExperience [3]]) =
  concat (map offered [NCall [1] true; NCall [8] false; NExperience []; NExperience [2; 3]]).
Proof. reflexivity. Qed.

(** C35: once [until] values have been learnt nothing changes the statistics. *)
Theorem C35_until : forall s u os, n_until s = Some u -> (u <= n_count s)%nat ->
  let s' := nrun s os in n_count s' = n_count s /\ n_mean s' = n_mean s /\ n_var s' = n_var s.
Proof. exact until_frozen. Qed.
Print Assumptions C35_until.

Example C35_until_used : let s := nrun (norm_init 1 (Some 2%nat) None) [NExperience [1; 2]] in
  n_until s = Some 2%nat /\ (2 <= n_count s)%nat.
Proof. cbn. split; [reflexivity|lia]. Qed.

(** C35: normalising subtracts the mean and divides by the standard deviation. *)
Theorem C35_normalize : forall eps until clip os x,
  let s := nrun (norm_init eps until clip) os in
  fst (normalize s x false) = map (fun v => clip_to clip ((v - n_mean s) / sqrt (n_var s + eps))) x /\
  n_mean (snd (normalize s x false)) = n_mean s /\ n_var (snd (normalize s x false)) = n_var s /\
  n_count (snd (normalize s x false)) = n_count s.
Proof. exact normalize_spec. Qed.
Print Assumptions C35_normalize.

(** C35: [inverse] undoes the normalisation, without a clipping threshold. *)
Theorem C35_inverse : forall eps until os x, 0 < eps ->
  let s := nrun (norm_init eps until None) os in
  inverse s (fst (normalize s x false)) = x.
Proof. exact inverse_normalize. Qed.
Print Assumptions C35_inverse.

Example C35_inverse_used : 0 < 1 / 100.
Proof. lra. Qed.

(** C35: with a threshold every output is within it, also when updating. *)
Theorem C35_clip : forall s x u c v, n_clip s = Some c -> 0 <= c ->
  In v (fst (normalize s x u)) -> - c <= v <= c.
Proof. exact clip_bound. Qed.
Print Assumptions C35_clip.

Example C35_clip_used : exists v, In v (fst (normalize (norm_init 3 None (Some 1)) [10] false)).
Proof. eexists. cbn. left. reflexivity. Qed.

(** C35, refuted: a normalising call that also updates (the default) uses neither
    the statistics from before nor those from after the update; it subtracts the
    new mean and divides by the old standard deviation. *)
Theorem C35_update_uses_one_statistics_refuted :
  ~ (forall eps until os x, 0 < eps ->
       let s := nrun (norm_init eps until None) os in
       let s' := nrun s [NExperience x] in
       fst (normalize s x true) = map (fun v => (v - n_mean s) / sqrt (n_var s + eps)) x \/
       fst (normalize s x true) = map (fun v => (v - n_mean s') / sqrt (n_var s' + eps)) x).
Proof. exact update_mixes. Qed.
Print Assumptions C35_update_uses_one_statistics_refuted.

(** What it does instead. *)
Theorem C35_normalize_and_update : forall eps until os x,
  let s := nrun (norm_init eps until None) os in
  let s' := nrun s [NExperience x] in
  fst (normalize s x true) = map (fun v => (v - n_mean s') / sqrt (n_var s + eps)) x.
Proof. exact normalize_update_spec. Qed.
Print Assumptions C35_normalize_and_update.

(** C35, refuted: after loading statistics the first normalisation uses them.  An
    object that has normalised before keeps its cached standard deviation. *)
Theorem C35_normalize_after_load_refuted :
  ~ (forall eps os mean var count x, 0 < eps -> 0 <= var ->
       let s := load_stats (nrun (norm_init eps None None) os) mean var count in
       fst (normalize s x false) = map (fun v => (v - mean) / sqrt (var + eps)) x).
Proof. exact stale_cache. Qed.
Print Assumptions C35_normalize_after_load_refuted.
