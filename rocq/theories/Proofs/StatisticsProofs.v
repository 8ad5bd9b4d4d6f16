From Coq Require Import QArith Qreals Reals List Lia Lqa Lra.
From Verif Require Import Base.PyBase Model.Distributions Model.PPOLoss Model.LineSearch Spec.LineSearchSpec Proofs.LineSearchProofs Model.Statistics Spec.StatisticsSpec.
Import ListNotations.
Local Open Scope R_scope.

Lemma averages_agree : forall d a x, moved_average d a x = scaled_average d a x.
Proof. intros. unfold moved_average, scaled_average. ring. Qed.

Lemma weighted_snoc : forall d xs x, exponential_average d (xs ++ [x]) = scaled_average d (exponential_average d xs) x.
Proof. intros d xs x. unfold exponential_average, scaled_average. rewrite rev_app_distr. cbn. ring. Qed.
Lemma average_is : forall d xs, fold_left (scaled_average d) xs 0 = exponential_average d xs.
Proof. intros d. induction xs as [|x xs IH] using rev_ind; [reflexivity|]. rewrite fold_left_app. cbn. rewrite IH, weighted_snoc. reflexivity. Qed.
Lemma average_is2 : forall d xs, fold_left (moved_average d) xs 0 = exponential_average d xs.
Proof. intros d. induction xs as [|x xs IH] using rev_ind; [reflexivity|]. rewrite fold_left_app. cbn. rewrite IH, averages_agree, weighted_snoc. reflexivity. Qed.

Lemma pow_unit : forall d n, 0 <= d <= 1 -> 0 <= d ^ n <= 1.
Proof. intros d n H. induction n; cbn; [lra|]. nra. Qed.
Lemma weighted_range : forall d l u ys, 0 <= d <= 1 -> all_within l u ys ->
  (1 - d ^ length ys) * l <= weighted_newest_first d ys <= (1 - d ^ length ys) * u.
Proof.
  intros d l u ys D. induction 1 as [|y ys Y H IH]; cbn [weighted_newest_first length pow]; [lra|].
  split.
  - assert ((1 - d) * l <= (1 - d) * y) by (apply Rmult_le_compat_l; lra).
    assert (d * ((1 - d ^ length ys) * l) <= d * weighted_newest_first d ys) by (apply Rmult_le_compat_l; lra). lra.
  - assert ((1 - d) * y <= (1 - d) * u) by (apply Rmult_le_compat_l; lra).
    assert (d * weighted_newest_first d ys <= d * ((1 - d ^ length ys) * u)) by (apply Rmult_le_compat_l; lra). lra.
Qed.
Lemma range : forall d l u xs, 0 <= d <= 1 -> all_within l u xs ->
  (1 - d ^ length xs) * l <= exponential_average d xs <= (1 - d ^ length xs) * u.
Proof. intros d l u xs D H. unfold exponential_average. rewrite <- (rev_length xs). apply weighted_range; [exact D|]. apply Forall_rev. exact H. Qed.

Lemma weighted_app : forall d a b, weighted_newest_first d (a ++ b) = weighted_newest_first d a + d ^ length a * weighted_newest_first d b.
Proof. intros d a b. induction a as [|x a IH]; cbn; [ring|]. rewrite IH. ring. Qed.
Lemma average_app : forall d a b, exponential_average d (a ++ b) = d ^ length b * exponential_average d a + exponential_average d b.
Proof. intros d a b. unfold exponential_average. rewrite rev_app_distr, weighted_app, rev_length. ring. Qed.

Lemma constant : forall d c n, exponential_average d (repeat c n) = c * (1 - d ^ n).
Proof.
  intros d c n. induction n as [|n IH]; [cbn; ring|].
  change (repeat c (S n)) with ([c] ++ repeat c n). rewrite average_app, IH, repeat_length. unfold exponential_average. cbn. ring.
Qed.
Lemma constant_limit : forall d c, 0 <= d < 1 -> forall eps, 0 < eps -> exists N, forall n, (N <= n)%nat -> Rabs (exponential_average d (repeat c n) - c) < eps.
Proof.
  intros d c D eps E. assert (P : 0 < Rabs c + 1) by (pose proof (Rabs_pos c); lra).
  assert (A : Rabs d < 1) by (rewrite Rabs_right; lra).
  destruct (pow_lt_1_zero d A (eps / (Rabs c + 1))) as [N H]; [apply Rdiv_lt_0_compat; lra|].
  exists N. intros n L. rewrite constant. replace (c * (1 - d ^ n) - c) with (- (c * d ^ n)) by ring. rewrite Rabs_Ropp, Rabs_mult.
  specialize (H n L). apply (Rmult_lt_compat_l (Rabs c + 1)) in H; [|exact P].
  replace ((Rabs c + 1) * (eps / (Rabs c + 1))) with eps in H by (field; lra).
  pose proof (Rabs_pos (d ^ n)). lra.
Qed.

(** Agents. *)
Lemma mean_is : forall qs, np_mean qs = fsum qs / INR (length qs).
Proof. intros. unfold np_mean, fmean. rewrite map_id. reflexivity. Qed.
Lemma dqn_is : forall d cs, average_after (dqn_average_q d) cs = exponential_average d (flat_map dqn_samples cs).
Proof.
  intros d cs. unfold average_after. induction cs as [|c cs IH] using rev_ind; [reflexivity|].
  rewrite fold_left_app, flat_map_concat_map, map_app, concat_app, <- flat_map_concat_map. cbn [fold_left map concat]. rewrite IH, app_nil_r.
  destruct c; cbn [dqn_average_q dqn_samples]; rewrite ?weighted_snoc, ?mean_is, ?app_nil_r; reflexivity.
Qed.
Lemma ddpg_is : forall d cs, average_after (ddpg_average_q d) cs = exponential_average d (flat_map ddpg_samples cs).
Proof.
  intros d cs. unfold average_after. induction cs as [|c cs IH] using rev_ind; [reflexivity|].
  rewrite fold_left_app, flat_map_concat_map, map_app, concat_app, <- flat_map_concat_map. cbn [fold_left map concat]. rewrite IH, app_nil_r.
  destruct c; cbn [ddpg_average_q ddpg_samples]; rewrite ?weighted_snoc, ?mean_is; reflexivity.
Qed.
Lemma nsq_is : forall d cs, average_after (nsq_average_q d) cs = exponential_average d (flat_map training_samples cs).
Proof.
  intros d cs. unfold average_after. induction cs as [|c cs IH] using rev_ind; [reflexivity|].
  rewrite fold_left_app, flat_map_concat_map, map_app, concat_app, <- flat_map_concat_map. cbn [fold_left map concat]. rewrite IH, app_nil_r.
  destruct c; cbn [nsq_average_q training_samples]; rewrite ?weighted_snoc, ?averages_agree, ?app_nil_r; reflexivity.
Qed.

(** An evaluation of [n] steps after training. *)
Lemma after_evaluation : forall d cs qs,
  average_after (dqn_average_q d) (cs ++ map Act qs) = d ^ length qs * average_after (dqn_average_q d) cs + exponential_average d qs.
Proof.
  intros d cs qs. rewrite !dqn_is, flat_map_concat_map, map_app, concat_app, <- !flat_map_concat_map, average_app.
  assert (E : flat_map dqn_samples (map Act qs) = qs) by (induction qs; cbn in *; congruence). rewrite E. reflexivity.
Qed.

Lemma sq_sum_nonneg : forall l, 0 <= fsum (map (fun rv : R * R => (fst rv - snd rv) * (fst rv - snd rv)) l).
Proof. induction l as [|[r v] l IH]; cbn; [lra|]. unfold fsum in IH. pose proof (Rle_0_sqr (r - v)) as S. unfold Rsqr in S. lra. Qed.
Lemma a2c_nonneg : forall d us, 0 <= d <= 1 -> 0 <= fold_left (a2c_average_value d) us 0.
Proof.
  intros d us D. induction us as [|u us IH] using rev_ind; [cbn; lra|]. rewrite fold_left_app. cbn [fold_left].
  set (a := fold_left (a2c_average_value d) us 0) in *. unfold a2c_average_value. rewrite averages_agree. unfold scaled_average.
  assert (0 <= np_mean (map (fun rv : R * R => (fst rv - snd rv) * (fst rv - snd rv)) (combine (a2_returns u) (a2_values u)))).
  { rewrite mean_is. pose proof (sq_sum_nonneg (combine (a2_returns u) (a2_values u))) as S. rewrite map_length.
    destruct (combine (a2_returns u) (a2_values u)) as [|p l]; [cbn; unfold Rdiv; rewrite Rmult_0_l; lra|].
    apply Rmult_le_pos; [exact S|]. left. apply Rinv_0_lt_compat. apply lt_0_INR. cbn. lia. }
  apply Rplus_le_le_0_compat; apply Rmult_le_pos; try assumption; lra.
Qed.
Lemma a2c_perfect : forall d us, Forall (fun u => a2_returns u = a2_values u) us -> fold_left (a2c_average_value d) us 0 = 0.
Proof.
  intros d us. induction us as [|u us IH] using rev_ind; intros F; [reflexivity|]. apply Forall_app in F. destruct F as [F1 F2].
  rewrite fold_left_app. cbn. rewrite (IH F1). inversion F2 as [|x y E F3]; subst. unfold a2c_average_value, moved_average. rewrite E, mean_is.
  assert (Z : fsum (map (fun rv : R * R => (fst rv - snd rv) * (fst rv - snd rv)) (combine (a2_values u) (a2_values u))) = 0).
  { clear. induction (a2_values u) as [|v l IHl]; cbn; [reflexivity|]. unfold fsum in IHl. rewrite IHl. ring_simplify. reflexivity. }
  rewrite Z. unfold Rdiv. ring.
Qed.

(** Records. *)
Lemma newest_nil : forall w, newest w [] = [].
Proof. intros [n|]; reflexivity. Qed.
Lemma skipn_S_tl : forall (A : Type) n (l : list A), skipn (S n) l = tl (skipn n l).
Proof. induction n as [|n IH]; intros [|a l]; try reflexivity. change (skipn (S n) l = tl (skipn n l)). apply IH. Qed.
Lemma newest_snoc : forall w xs x, dq_append w (newest w xs) x = newest w (xs ++ [x]).
Proof.
  intros [n|] xs x; [|reflexivity]. cbn [dq_append newest]. rewrite !app_length, skipn_length. cbn [length].
  destruct (Nat.ltb_spec n (length xs - (length xs - n) + 1)) as [L|L].
  - assert (G : (n <= length xs)%nat) by lia. replace (length xs + 1 - n)%nat with (S (length xs - n)) by lia.
    rewrite skipn_S_tl. f_equal. rewrite skipn_app. replace (length xs - n - length xs)%nat with 0%nat by lia. reflexivity.
  - replace (length xs - n)%nat with 0%nat by lia. replace (length xs + 1 - n)%nat with 0%nat by lia. reflexivity.
Qed.
Lemma extend_newest : forall w ys xs, dq_extend w (newest w xs) ys = newest w (xs ++ ys).
Proof.
  intros w ys. induction ys as [|y ys IH]; intros xs; [cbn; rewrite app_nil_r; reflexivity|].
  cbn. rewrite newest_snoc. unfold dq_extend in IH. rewrite IH, <- app_assoc. reflexivity.
Qed.
Lemma record_is : forall w calls, record_after w calls = newest w (concat calls).
Proof.
  intros w calls. unfold record_after. induction calls as [|c cs IH] using rev_ind; [cbn; rewrite newest_nil; reflexivity|].
  rewrite fold_left_app. cbn. rewrite IH, concat_app, extend_newest. cbn. rewrite app_nil_r. reflexivity.
Qed.
Lemma within_sum : forall l u xs, all_within l u xs -> INR (length xs) * l <= fsum xs <= INR (length xs) * u.
Proof.
  induction 1 as [|x xs X H IH]; [cbn; lra|]. cbn [length]. rewrite S_INR. unfold fsum in *. cbn [fold_right]. lra.
Qed.
Lemma mean_within : forall l u xs, xs <> [] -> all_within l u xs -> l <= np_mean xs <= u.
Proof.
  intros l u xs N H. rewrite mean_is. pose proof (within_sum _ _ _ H) as [A B].
  assert (P : 0 < INR (length xs)) by (destruct xs; [congruence|]; apply lt_0_INR; cbn; lia).
  split; (apply Rmult_le_reg_l with (INR (length xs)); [exact P|]); unfold Rdiv; rewrite <- !Rmult_assoc, (Rmult_comm (INR _) (fsum xs)), Rmult_assoc, Rinv_r; lra.
Qed.
Lemma skipn_forall : forall (P : R -> Prop) n l, Forall P l -> Forall P (skipn n l).
Proof. intros P n l H. rewrite <- (firstn_skipn n l) in H. apply Forall_app in H. apply H. Qed.
Lemma newest_forall : forall P w l, Forall P l -> Forall P (newest w l).
Proof. intros P [n|] l H; cbn; [apply skipn_forall|]; exact H. Qed.
Lemma mean_none : forall w xs, w <> Some 0%nat -> (mean_or_nan (newest w xs) = None <-> xs = []).
Proof.
  intros w xs W. split.
  - intros H. destruct w as [[|n]|]; [congruence| |].
    + cbn [newest] in H. destruct xs as [|x xs]; [reflexivity|]. exfalso.
      assert (L : length (skipn (length (x :: xs) - S n) (x :: xs)) <> 0%nat) by (rewrite skipn_length; cbn [length]; lia).
      destruct (skipn (length (x :: xs) - S n) (x :: xs)); [cbn in L; lia|discriminate].
    + cbn [newest] in H. destruct xs; [reflexivity|discriminate].
  - intros ->. rewrite newest_nil. reflexivity.
Qed.
Lemma mean_value : forall w xs l u m, mean_or_nan (newest w xs) = Some m -> all_within l u xs ->
  m = fsum (newest w xs) / INR (length (newest w xs)) /\ l <= m <= u.
Proof.
  intros w xs l u m H A. pose proof (newest_forall _ w _ A) as A2. destruct (newest w xs) as [|y ys] eqn:E; [discriminate|].
  cbn [mean_or_nan] in H. assert (m = np_mean (y :: ys)) as -> by congruence. split; [apply mean_is|]. apply mean_within; [congruence|exact A2].
Qed.

(** TRPO. *)
Lemma outcome_cases : forall max_kl mb o, is_search_outcome max_kl mb o ->
  (exists i kl, (i <= mb)%nat /\ o_step_size o = half i /\ o_kl o = Some (Fin kl) /\ (kl <= max_kl)%Q) \/ (o_step_size o = 0%Q /\ o_kl o = None).
Proof.
  intros max_kl mb o (ev & g & ps & st & W & L & H).
  destruct (line_search_spec ev g max_kl st W L mb) as (out & E & C).
  rewrite E in H. assert (o = out) as -> by congruence. destruct C as [(i & I & _ & (gg & k & M & K & _) & S & KL & _)|(_ & S & KL & _)]; [left|right; auto].
  exists i, k. rewrite KL, M. auto.
Qed.
Lemma trpo_step_is : forall w os, fold_left (trpo_step w) os [] = newest w (map (fun o => Q2R (o_step_size o)) os).
Proof.
  intros w os. induction os as [|o os IH] using rev_ind; [cbn; rewrite newest_nil; reflexivity|].
  rewrite fold_left_app, map_app. cbn. rewrite IH. apply newest_snoc.
Qed.
Lemma trpo_kl_is : forall w os, fold_left (trpo_kl w) os [] = newest w (accepted_kls os).
Proof.
  intros w os. induction os as [|o os IH] using rev_ind; [cbn; rewrite newest_nil; reflexivity|].
  unfold accepted_kls in *. rewrite fold_left_app, flat_map_concat_map, map_app, concat_app, <- flat_map_concat_map. cbn. rewrite IH, app_nil_r.
  unfold trpo_kl. destruct (o_kl o) as [[q| | |]|]; rewrite ?app_nil_r; try reflexivity. apply newest_snoc.
Qed.
Lemma trpo_bounds : forall max_kl mb wk ws os, Forall (is_search_outcome max_kl mb) os ->
  Forall (fun k => k <= Q2R max_kl) (fold_left (trpo_kl wk) os []) /\
  Forall (fun s => s = 0 \/ exists i, (i <= mb)%nat /\ s = (/ 2) ^ i) (fold_left (trpo_step ws) os []).
Proof.
  intros max_kl mb wk ws os F. rewrite trpo_kl_is, trpo_step_is. split; apply newest_forall.
  - unfold accepted_kls. induction F as [|o os O F IH]; [constructor|]. cbn. apply Forall_app. split; [|exact IH].
    destruct (outcome_cases _ _ _ O) as [(i & kl & _ & _ & -> & K)|[_ ->]]; constructor; [|constructor]. apply Qle_Rle. exact K.
  - induction F as [|o os O F IH]; [constructor|]. cbn. constructor; [|exact IH].
    destruct (outcome_cases _ _ _ O) as [(i & kl & I & -> & _)|[-> _]]; [right; exists i; split; [exact I|]|left; unfold Q2R; cbn; lra].
    clear. induction i as [|i IH]; cbn [half pow]; [unfold Q2R; cbn; field|]. rewrite Q2R_mult, IH. unfold Q2R. cbn. field.
Qed.
