From Coq Require Import Reals List Arith Bool Lia Lra.
From Verif Require Import Base.PyBase Model.Distributions Model.Targets Spec.SumSpec Spec.TargetSpec Spec.PolicyGradientSpec Spec.BellmanSpec Proofs.RSumFacts Proofs.DistributionProofs Proofs.TargetProofs Proofs.PolicyGradientProofs.
Import ListNotations.
Local Open Scope R_scope.

(** Sequences that fall by no more than a geometric amount converge. *)
Lemma geometric_cv : forall (u : nat -> R) c g U, 0 <= c -> 0 <= g < 1 -> (forall k, u k - c * g ^ k <= u (S k)) -> (forall k, u k <= U) -> { l | Un_cv u l }.
Proof.
  intros u c g U Hc Hg H B. set (e := fun k => c / (1 - g) * g ^ k).
  assert (E : Un_cv e 0).
  { replace 0 with (c / (1 - g) * 0) by ring. apply CV_mult; [intros x Hx; exists 0%nat; intros; rewrite R_dist_eq; assumption|].
    intros x Hx. destruct (pow_lt_1_zero g ltac:(rewrite Rabs_pos_eq; lra) x Hx) as [N HN]. exists N. intros k Hk. unfold R_dist. rewrite Rminus_0_r. apply HN. assumption. }
  assert (P : forall k, 0 <= g ^ k) by (intros; apply pow_le; lra).
  destruct (growing_cv (fun k => u k - e k)) as [l Hl].
  - intros k. cbv beta. specialize (H k). unfold e. cbn [pow]. apply (Rplus_le_reg_r (c / (1 - g) * (g * g ^ k))). replace (u (S k) - _ + _) with (u (S k)) by ring.
    replace (u k - c / (1 - g) * g ^ k + c / (1 - g) * (g * g ^ k)) with (u k - c * g ^ k) by (field; lra). assumption.
  - exists U. intros x [k ->]. specialize (B k). assert (0 <= e k); [|lra]. unfold e. apply Rmult_le_pos; [|apply P]. apply Rmult_le_pos; [lra|]. apply Rlt_le, Rinv_0_lt_compat. lra.
  - exists l. intros x Hx. destruct (CV_plus _ _ _ _ Hl E x Hx) as [N HN]. exists N. intros k Hk. specialize (HN k Hk). cbv beta in HN. unfold R_dist in *.
    replace (u k - l) with (u k - e k + e k - (l + 0)) by ring. assumption.
Qed.
Lemma cv_le : forall u v l l', Un_cv u l -> Un_cv v l' -> (forall k, u k <= v k) -> l <= l'.
Proof.
  intros u v l l' Hu Hv H. destruct (Rle_lt_dec l l') as [|L]; [assumption|exfalso].
  destruct (Hu ((l - l') / 2) ltac:(lra)) as [N1 H1]. destruct (Hv ((l - l') / 2) ltac:(lra)) as [N2 H2].
  specialize (H1 (N1 + N2)%nat ltac:(lia)). specialize (H2 (N1 + N2)%nat ltac:(lia)). specialize (H (N1 + N2)%nat). unfold R_dist in *.
  apply Rabs_def2 in H1. apply Rabs_def2 in H2. lra.
Qed.
Lemma cv_const : forall c, Un_cv (fun _ => c) c.
Proof. intros c e He. exists 0%nat. intros. rewrite R_dist_eq. assumption. Qed.
Lemma cv_shift : forall u l, Un_cv u l -> Un_cv (fun k => u (S k)) l.
Proof. intros u l H e He. destruct (H e He) as [N HN]. exists N. intros k Hk. apply HN. lia. Qed.
Lemma cv_geo : forall g c, 0 <= g < 1 -> Un_cv (fun k => g ^ k * c) 0.
Proof.
  intros g c Hg. replace 0 with (0 * c) by ring. apply (CV_mult (fun k => g ^ k) (fun _ => c)); [|apply cv_const].
  intros x Hx. destruct (pow_lt_1_zero g ltac:(rewrite Rabs_pos_eq; lra) x Hx) as [N HN]. exists N. intros k Hk. unfold R_dist. rewrite Rminus_0_r. apply HN. assumption.
Qed.
(** A non-negative number below every member of a geometric sequence is 0. *)
Lemma geo_zero : forall g c x, 0 <= g < 1 -> (forall k, x <= g ^ k * c) -> x <= 0.
Proof. intros g c x Hg H. apply (cv_le (fun _ => x) (fun k => g ^ k * c)); [apply cv_const|apply cv_geo; assumption|assumption]. Qed.
Lemma abs_le : forall x d, (x <= d /\ - d <= x) <-> Rabs x <= d.
Proof. intros x d. split; [intros [A B]; apply Rabs_le; lra|]. intros H. pose proof (Rle_abs x). pose proof (Rle_abs (- x)) as H'. rewrite Rabs_Ropp in H'. lra. Qed.
Lemma abs_in : forall x d, x <= d /\ - d <= x -> Rabs x <= d.
Proof. intros x d H. exact (proj1 (abs_le x d) H). Qed.
Lemma abs_out : forall x d, Rabs x <= d -> x <= d /\ - d <= x.
Proof. intros x d H. exact (proj2 (abs_le x d) H). Qed.

(** The greedy action of a row. *)
Lemma greedy_row : forall q, q <> [] -> (q_greedy q < length q)%nat /\ nth (q_greedy q) q 0 = q_maximum q /\ forall a, (a < length q)%nat -> nth a q 0 <= q_maximum q.
Proof.
  intros q NE. destruct (greedy_spec q NE) as (x & E & _). assert (L : (q_greedy q < length q)%nat) by (apply nth_error_Some; congruence).
  split; [assumption|]. split; [reflexivity|]. intros a Ha. apply (maximum_spec q NE). apply nth_In. assumption.
Qed.
Lemma nth_map_seq : forall (f : nat -> R) n a, (a < n)%nat -> nth a (map f (seq 0 n)) 0 = f a.
Proof. intros f n a Ha. rewrite (nth_indep _ 0 (f 0%nat)) by (rewrite map_length, seq_length; assumption). rewrite map_nth, seq_nth by assumption. reflexivity. Qed.

(** Summaries of rows. *)
Lemma max_nonexpansive : forall n, (0 < n)%nat -> nonexpansive n q_maximum.
Proof.
  intros n Hn q q' d L L' H. assert (q <> [] /\ q' <> []) as [N N'] by (split; intros ->; cbn in *; lia).
  destruct (greedy_row q N) as (G1 & G2 & G3). destruct (greedy_row q' N') as (G1' & G2' & G3'). rewrite L in *. rewrite L' in *. apply abs_in.
  pose proof (proj2 (abs_le _ _) (H _ G1)). pose proof (proj2 (abs_le _ _) (H _ G1')). pose proof (G3' _ G1). pose proof (G3 _ G1'). split; lra.
Qed.
Lemma lse_shift : forall w q q' d, 0 <= d -> length q = length q' -> (forall a, (a < length q)%nat -> w * nth a q 0 <= w * nth a q' 0 + d) -> total_of (fun x => exp (w * x)) q <= exp d * total_of (fun x => exp (w * x)) q'.
Proof.
  intros w q. induction q as [|x q IH]; intros [|x' q'] d Hd L H; try discriminate; [cbn; lra|]. rewrite !tot_cons, Rmult_plus_distr_l. apply Rplus_le_compat.
  - rewrite <- exp_plus. pose proof (H 0%nat ltac:(cbn; lia)) as H0. cbn in H0. destruct H0 as [H0|H0]; [apply Rlt_le, exp_increasing; lra|rewrite H0; right; f_equal; ring].
  - apply IH; [assumption|cbn in L; lia|]. intros a Ha. apply (H (S a)). cbn. lia.
Qed.
Lemma lse_nonexpansive : forall n eta, (0 < n)%nat -> eta <> 0 -> nonexpansive n (l_operator (DPPL eta)).
Proof.
  intros n eta Hn He q q' d L L' H. assert (q <> [] /\ q' <> []) as [N N'] by (split; intros ->; cbn in *; lia).
  assert (Hd : 0 <= d) by (pose proof (H 0%nat Hn); pose proof (Rabs_pos (nth 0 q 0 - nth 0 q' 0)); lra).
  assert (T : forall r, r <> [] -> 0 < total_of (fun x => exp (eta * x)) r) by (intros r Hr; apply tot_pos; [assumption|intros; apply exp_pos]).
  assert (ABS : forall x, Rabs x <= d -> Rabs (eta * x) <= Rabs eta * d) by (intros; rewrite Rabs_mult; apply Rmult_le_compat_l; [apply Rabs_pos|assumption]).
  assert (W : forall r r', r <> [] -> r' <> [] -> length r = n -> length r' = n -> (forall a, (a < n)%nat -> Rabs (nth a r 0 - nth a r' 0) <= d) ->
     ln (total_of (fun x => exp (eta * x)) r) <= ln (total_of (fun x => exp (eta * x)) r') + Rabs eta * d).
  { intros r r' Nr Nr' Lr Lr' Hr. pose proof (lse_shift eta r r' (Rabs eta * d) ltac:(apply Rmult_le_pos; [apply Rabs_pos|assumption]) ltac:(congruence)) as F.
    rewrite Lr in F. specialize (F ltac:(intros a Ha; pose proof (proj2 (abs_le _ _) (ABS _ (Hr a Ha))); lra)).
    rewrite <- (ln_exp (Rabs eta * d)). rewrite <- ln_mult; [|apply T; assumption|apply exp_pos]. rewrite Rmult_comm.
    destruct F as [F|F]; [apply Rlt_le, ln_increasing; [apply T; assumption|assumption]|rewrite F; lra]. }
  cbn [l_operator]. rewrite !lse_total.
  pose proof (W q q' N N' L L' H) as A. pose proof (W q' q N' N L' L ltac:(intros a Ha; rewrite Rabs_minus_sym; apply H; assumption)) as B.
  replace (ln (total_of (fun x => exp (eta * x)) q) / eta - ln (total_of (fun x => exp (eta * x)) q') / eta) with ((ln (total_of (fun x => exp (eta * x)) q) - ln (total_of (fun x => exp (eta * x)) q')) * / eta) by (unfold Rdiv; ring).
  rewrite Rabs_mult, Rabs_inv. apply (Rmult_le_reg_r (Rabs eta)); [apply Rabs_pos_lt; assumption|].
  rewrite Rmult_assoc, Rinv_l, Rmult_1_r by (apply Rabs_no_R0; assumption). apply abs_in. split; lra.
Qed.
Lemma average_nonexpansive : forall n (p : nat -> R), (forall a, 0 <= p a) -> sum_below n p = 1 -> nonexpansive n (policy_average p).
Proof.
  intros n p P1 P2 q q' d L L' H. unfold policy_average. rewrite L, L'. rewrite <- below_sub. rewrite <- (Rmult_1_r d), <- P2.
  assert (G : forall k, (k <= n)%nat -> Rabs (sum_below k (fun i => p i * nth i q 0 - p i * nth i q' 0)) <= d * sum_below k p).
  { induction k as [|k IH]; intros Hk; cbn [sum_below]; [rewrite Rabs_R0; lra|]. eapply Rle_trans; [apply Rabs_triang|]. rewrite Rmult_plus_distr_l. apply Rplus_le_compat; [apply IH; lia|].
    rewrite <- Rmult_minus_distr_l, Rabs_mult, (Rabs_pos_eq (p k)) by apply P1. rewrite Rmult_comm. apply Rmult_le_compat_r; [apply P1|apply H; lia]. }
  apply G. lia.
Qed.
Lemma boltzmann_expands : ~ nonexpansive 2 (l_operator (DPP 1)).
Proof.
  intros H. specialize (H [0; 3] [0; 2] 1 eq_refl eq_refl). assert (F : forall a : nat, (a < 2)%nat -> Rabs (nth a [0; 3] 0 - nth a [0; 2] 0) <= 1).
  { intros [|[|a]] Ha; cbn; [replace (0 - 0) with 0 by ring; rewrite Rabs_R0; lra|replace (3 - 2) with 1 by ring; rewrite Rabs_R1; lra|lia]. }
  specialize (H F). apply abs_out in H. destruct H as [H _]. revert H. cbn [l_operator]. unfold q_expectation, softmax, fsum. cbn. rewrite !Rmult_1_l, exp_0.
  assert (E : 2 < exp 1) by (pose proof (exp_ineq1 1 ltac:(lra)); lra).
  assert (E2 : exp 2 = exp 1 * exp 1) by (rewrite <- exp_plus; f_equal; lra). assert (E3 : exp 3 = exp 1 * exp 1 * exp 1) by (rewrite <- !exp_plus; f_equal; lra). rewrite E2, E3. set (e := exp 1) in *.
  assert (P2 : 4 < e * e) by nra. assert (P3 : 8 < e * e * e) by nra.
  intros H. apply (Rmult_le_compat_r ((1 + e * e * e) * (1 + e * e))) in H; [|apply Rmult_le_pos; lra].
  match type of H with ?x <= _ => replace x with (3 * (e * e * e) * (1 + e * e) - 2 * (e * e) * (1 + e * e * e)) in H by (field; split; lra) end. nra.
Qed.

Section B.
Context {St : Type}.
Variable m : mdp St.
Variable gamma : R.
Variable final : St.
Variable B : R.
Hypothesis G : 0 <= gamma < 1.
Hypothesis REG : regular m B.
Notation n := (n_actions m).
Notation L := (lookahead m gamma final).
Lemma n_pos : (0 < n)%nat. Proof. apply REG. Qed.
Lemma prob_one : forall s a, total_of o_prob (outcomes m s a) = 1. Proof. apply REG. Qed.
Lemma prob_nonneg : forall s a z, In z (outcomes m s a) -> 0 <= o_prob z. Proof. intros. eapply REG. eassumption. Qed.
Lemma reward_bound : forall s a z, In z (outcomes m s a) -> Rabs (o_reward z) <= B. Proof. intros. eapply REG. eassumption. Qed.
Lemma B_nonneg : forall s : St, 0 <= B.
Proof.
  intros s. destruct (outcomes m s 0) as [|z l] eqn:E; [pose proof (prob_one s 0) as P; rewrite E in P; cbn in P; lra|].
  pose proof (reward_bound s 0%nat z ltac:(rewrite E; left; reflexivity)). pose proof (Rabs_pos (o_reward z)). lra.
Qed.
(** An average of numbers below a bound is below it. *)
Lemma avg_le : forall s a f c, (forall z, In z (outcomes m s a) -> f z <= c) -> total_of (fun z => o_prob z * f z) (outcomes m s a) <= c.
Proof.
  intros s a f c H. rewrite <- (Rmult_1_r c), <- (prob_one s a), <- tot_scale. apply tot_le. intros z Hz. rewrite (Rmult_comm c). apply Rmult_le_compat_l; [eapply prob_nonneg; eassumption|auto].
Qed.
Lemma look_mono : forall v v' d s a, 0 <= d -> (forall s, v s <= v' s + d) -> L v s a <= L v' s a + gamma * d.
Proof.
  intros v v' d s a Hd H. unfold lookahead. rewrite <- (Rmult_1_r (gamma * d)), <- (prob_one s a), <- tot_scale, <- tot_add. apply tot_le. intros z Hz.
  rewrite (Rmult_comm (gamma * d)), <- Rmult_plus_distr_l. apply Rmult_le_compat_l; [eapply prob_nonneg; eassumption|]. unfold td_row. specialize (H (arrives final z)).
  destruct (ended z); cbn [terminal_flag]; nra.
Qed.
Lemma look_upper : forall v U s a, 0 <= U -> (forall s, v s <= U) -> L v s a <= B + gamma * U.
Proof.
  intros v U s a HU H. unfold lookahead. apply avg_le. intros z Hz. pose proof (reward_bound _ _ _ Hz) as Hr. apply abs_out in Hr. specialize (H (arrives final z)). unfold td_row. destruct (ended z); cbn [terminal_flag]; nra.
Qed.
Lemma look_bound : forall v U s a, 0 <= U -> (forall s, Rabs (v s) <= U) -> Rabs (L v s a) <= B + gamma * U.
Proof.
  intros v U s a HU H. apply abs_in. split; [apply look_upper; [assumption|intros; apply abs_out, H]|].
  unfold lookahead. apply Ropp_le_cancel. rewrite Ropp_involutive, <- tot_opp. rewrite (tot_ext _ (fun z => o_prob z * - td_row (o_reward z) gamma (ended z) (v (arrives final z)))) by (intros; ring).
  apply avg_le. intros z Hz. pose proof (reward_bound _ _ _ Hz) as Hr. apply abs_out in Hr. specialize (H (arrives final z)). apply abs_out in H. unfold td_row. destruct (ended z); cbn [terminal_flag]; nra.
Qed.
Lemma look_diff : forall v v' d s a, 0 <= d -> (forall s, Rabs (v s - v' s) <= d) -> Rabs (L v s a - L v' s a) <= gamma * d.
Proof.
  intros v v' d s a Hd H. apply abs_in. pose proof (look_mono v v' d s a Hd ltac:(intros s0; pose proof (proj2 (abs_le _ _) (H s0)); lra)).
  pose proof (look_mono v' v d s a Hd ltac:(intros s0; pose proof (proj2 (abs_le _ _) (H s0)); lra)). split; lra.
Qed.
Lemma look_cv : forall (v : nat -> St -> R) w s a, (forall s, Un_cv (fun k => v k s) (w s)) -> Un_cv (fun k => L (v k) s a) (L w s a).
Proof.
  intros v w s a H. unfold lookahead. induction (outcomes m s a) as [|z l IH]; [exact (cv_const 0)|].
  apply (CV_plus (fun k => o_prob z * td_row (o_reward z) gamma (ended z) (v k (arrives final z)))); [|exact IH].
  apply (CV_mult (fun _ => o_prob z)); [apply cv_const|]. unfold td_row. apply (CV_plus (fun _ => o_reward z)); [apply cv_const|]. apply (CV_mult (fun _ => gamma * (1 - terminal_flag (ended z)))); [apply cv_const|apply H].
Qed.

(** Contraction, uniqueness, existence and convergence for every non-expansive summary. *)
Lemma backup_table : forall value Q, table m (backup m gamma final value Q).
Proof. intros value Q s. unfold backup. rewrite map_length, seq_length. reflexivity. Qed.
Lemma backup_nth : forall value Q s a, (a < n)%nat -> nth a (backup m gamma final value Q s) 0 = L (fun s' => value s' (Q s')) s a.
Proof. intros. unfold backup. apply nth_map_seq. assumption. Qed.
Lemma within_nonneg : forall d Q Q', (exists s : St, True) -> within m d Q Q' -> 0 <= d.
Proof. intros d Q Q' [s _] H. pose proof (H s 0%nat n_pos). pose proof (Rabs_pos (nth 0 (Q s) 0 - nth 0 (Q' s) 0)). lra. Qed.
Lemma contraction : forall value Q Q' d, (forall s, nonexpansive n (value s)) -> table m Q -> table m Q' -> within m d Q Q' -> within m (gamma * d) (backup m gamma final value Q) (backup m gamma final value Q').
Proof.
  intros value Q Q' d NE TQ TQ' H s a Ha. rewrite !backup_nth by assumption. apply look_diff.
  - apply (within_nonneg d Q Q'); [exists s; trivial|assumption].
  - intros s'. apply NE; [apply TQ|apply TQ'|]. intros. apply H. assumption.
Qed.
Lemma iterate_table : forall value Q k, table m Q -> table m (iterate (backup m gamma final value) k Q).
Proof. intros value Q [|k] H; [assumption|apply backup_table]. Qed.
Lemma to_fixpoint : forall value Q Qs d k, (forall s, nonexpansive n (value s)) -> table m Q -> table m Qs -> (forall s, backup m gamma final value Qs s = Qs s) -> within m d Q Qs ->
  within m (gamma ^ k * d) (iterate (backup m gamma final value) k Q) Qs.
Proof.
  intros value Q Qs d k NE TQ TQs F H. induction k as [|k IH]; [cbn; rewrite Rmult_1_l; assumption|]. cbn [iterate pow]. rewrite Rmult_assoc.
  intros s a Ha. rewrite <- (F s). apply (contraction value _ Qs); try assumption. apply iterate_table. assumption.
Qed.
Lemma fixpoint_unique : forall value Q Q' b, (forall s, nonexpansive n (value s)) -> table m Q -> table m Q' -> (forall s, backup m gamma final value Q s = Q s) -> (forall s, backup m gamma final value Q' s = Q' s) ->
  within m b Q Q' -> forall s, Q s = Q' s.
Proof.
  intros value Q Q' b NE T T' F F' W.
  assert (I : forall k, within m (gamma ^ k * b) Q Q').
  { induction k as [|k IH]; [cbn; rewrite Rmult_1_l; assumption|]. intros s a Ha. rewrite <- (F s), <- (F' s). cbn [pow]. rewrite Rmult_assoc. apply (contraction value Q Q'); assumption. }
  intros s. apply (nth_ext _ _ 0 0); [rewrite T, T'; reflexivity|]. intros a Ha. rewrite T in Ha.
  pose proof (geo_zero gamma b (Rabs (nth a (Q s) 0 - nth a (Q' s) 0)) G ltac:(intros k; apply I; assumption)) as Z. pose proof (Rabs_pos (nth a (Q s) 0 - nth a (Q' s) 0)).
  pose proof (proj2 (abs_le _ _) Z). lra.
Qed.
Lemma fixpoint_exists : forall value c, (forall s, nonexpansive n (value s)) -> (forall s, Rabs (value s (repeat 0 n)) <= c) -> exists Q b, table m Q /\ bounded m b Q /\ forall s, backup m gamma final value Q s = Q s.
Proof.
  intros value c NE HC. set (z := repeat 0 n) in *. set (Q0 := fun _ : St => z). set (Qk := fun k => iterate (backup m gamma final value) k Q0).
  assert (T0 : table m Q0) by (intros s; apply repeat_length). assert (TK : forall k, table m (Qk k)) by (intros; apply iterate_table; assumption).
  set (d := Rabs B + gamma * Rabs c). assert (Hd : 0 <= d) by (unfold d; pose proof (Rabs_pos B); pose proof (Rabs_pos c); nra).
  assert (W0 : within m d (Qk 1%nat) (Qk 0%nat)).
  { intros s a Ha. unfold Qk. cbn [iterate]. rewrite backup_nth by assumption. change (nth a (Q0 s) 0) with (nth a (repeat 0 n) 0). rewrite nth_repeat, Rminus_0_r. unfold d. rewrite (Rabs_pos_eq B) by (apply B_nonneg; assumption).
    apply look_bound; [apply Rabs_pos|]. intros s'. unfold Q0. eapply Rle_trans; [apply HC|apply Rle_abs]. }
  assert (WK : forall k, within m (gamma ^ k * d) (Qk (S k)) (Qk k)).
  { induction k as [|k IH]; [cbn [pow]; rewrite Rmult_1_l; assumption|]. cbn [pow]. rewrite Rmult_assoc. apply (contraction value (Qk (S k)) (Qk k)); auto. }
  assert (P : forall k, 0 <= gamma ^ k) by (intros; apply pow_le; lra).
  assert (UB : forall k s a, (a < n)%nat -> Rabs (nth a (Qk k s) 0) <= d / (1 - gamma) * (1 - gamma ^ k)).
  { induction k as [|k IH]; intros s a Ha; [unfold Qk, Q0, z; cbn [iterate]; rewrite nth_repeat, Rabs_R0; cbn; lra|].
    replace (nth a (Qk (S k) s) 0) with (nth a (Qk k s) 0 + (nth a (Qk (S k) s) 0 - nth a (Qk k s) 0)) by ring. eapply Rle_trans; [apply Rabs_triang|].
    specialize (IH s a Ha). specialize (WK k s a Ha). cbn [pow]. replace (d / (1 - gamma) * (1 - gamma * gamma ^ k)) with (d / (1 - gamma) * (1 - gamma ^ k) + gamma ^ k * d) by (field; lra). lra. }
  set (b := d / (1 - gamma)). assert (Hb : 0 <= b) by (unfold b; apply Rmult_le_pos; [assumption|apply Rlt_le, Rinv_0_lt_compat; lra]).
  assert (UB' : forall k s a, (a < n)%nat -> Rabs (nth a (Qk k s) 0) <= b) by (intros k s a Ha; specialize (UB k s a Ha); fold b in UB; specialize (P k); nra).
  assert (CV : forall s a, { l | (a < n)%nat -> Un_cv (fun k => nth a (Qk k s) 0) l }).
  { intros s a. destruct (lt_dec a n) as [Ha|Ha]; [|exists 0; intros; lia].
    destruct (geometric_cv (fun k => nth a (Qk k s) 0) d gamma b Hd G) as [l Hl].
    - intros k. pose proof (proj2 (abs_le _ _) (WK k s a Ha)). lra.
    - intros k. apply abs_out, UB'. assumption.
    - exists l. intros _. assumption. }
  set (Q := fun s => map (fun a => proj1_sig (CV s a)) (seq 0 n)).
  assert (TQ : table m Q) by (intros s; unfold Q; rewrite map_length, seq_length; reflexivity).
  assert (CQ : forall s a, (a < n)%nat -> Un_cv (fun k => nth a (Qk k s) 0) (nth a (Q s) 0)).
  { intros s a Ha. unfold Q. rewrite nth_map_seq by assumption. exact (proj2_sig (CV s a) Ha). }
  (* the convergence is uniform *)
  assert (UN : forall k, within m (gamma ^ k * b) (Qk k) Q).
  { intros k s a Ha. assert (J : forall j, Rabs (nth a (Qk (k + j)%nat s) 0 - nth a (Qk k s) 0) <= gamma ^ k * (b * (1 - gamma ^ j))).
    { induction j as [|j IH]; [rewrite Nat.add_0_r, Rminus_diag_eq, Rabs_R0 by reflexivity; cbn; lra|].
      replace (nth a (Qk (k + S j)%nat s) 0 - nth a (Qk k s) 0) with ((nth a (Qk (S (k + j)) s) 0 - nth a (Qk (k + j)%nat s) 0) + (nth a (Qk (k + j)%nat s) 0 - nth a (Qk k s) 0)) by (rewrite <- plus_n_Sm; ring).
      eapply Rle_trans; [apply Rabs_triang|]. specialize (WK (k + j)%nat s a Ha). rewrite pow_add in WK. cbn [pow].
      replace (gamma ^ k * (b * (1 - gamma * gamma ^ j))) with (gamma ^ k * gamma ^ j * d + gamma ^ k * (b * (1 - gamma ^ j))) by (unfold b; field; lra). lra. }
    assert (LIM : Un_cv (fun j => nth a (Qk (k + j)%nat s) 0) (nth a (Q s) 0)).
    { intros e He. destruct (CQ s a Ha e He) as [N HN]. exists N. intros j Hj. apply HN. lia. }
    assert (BD : forall j, - (gamma ^ k * b) <= nth a (Qk (k + j)%nat s) 0 - nth a (Qk k s) 0 <= gamma ^ k * b).
    { intros j. specialize (J j). apply abs_out in J. pose proof (P k). pose proof (P j). assert (gamma ^ k * (b * (1 - gamma ^ j)) <= gamma ^ k * b) by (apply Rmult_le_compat_l; [assumption|nra]). lra. }
    apply abs_in. split.
    - assert (nth a (Qk k s) 0 - gamma ^ k * b <= nth a (Q s) 0); [|lra]. apply (cv_le (fun _ => nth a (Qk k s) 0 - gamma ^ k * b) (fun j => nth a (Qk (k + j)%nat s) 0)); [apply cv_const|assumption|]. intros j. specialize (BD j). lra.
    - assert (nth a (Q s) 0 <= nth a (Qk k s) 0 + gamma ^ k * b); [|lra]. apply (cv_le (fun j => nth a (Qk (k + j)%nat s) 0) (fun _ => nth a (Qk k s) 0 + gamma ^ k * b)); [assumption|apply cv_const|]. intros j. specialize (BD j). lra. }
  exists Q, b. split; [assumption|]. split.
  { intros s a Ha. apply abs_in. split.
    - apply (cv_le (fun k => nth a (Qk k s) 0) (fun _ => b)); [apply CQ; assumption|apply cv_const|]. intros k. apply abs_out, UB'. assumption.
    - apply (cv_le (fun _ => - b) (fun k => nth a (Qk k s) 0)); [apply cv_const|apply CQ; assumption|]. intros k. apply abs_out, UB'. assumption. }
  intros s. apply (nth_ext _ _ 0 0); [rewrite TQ; apply backup_table|]. intros a Ha. rewrite backup_table in Ha.
  assert (Z : forall k, Rabs (nth a (backup m gamma final value Q s) 0 - nth a (Q s) 0) <= gamma ^ k * (2 * b)).
  { intros k. pose proof (contraction value (Qk k) Q _ NE (TK k) TQ (UN k) s a Ha) as A. pose proof (UN (S k) s a Ha) as A'. change (backup m gamma final value (Qk k) s) with (Qk (S k) s) in A. cbn [pow] in A'.
    apply abs_out in A. apply abs_out in A'. specialize (P k). apply abs_in. assert (gamma * (gamma ^ k * b) <= gamma ^ k * b) by (assert (0 <= gamma ^ k * b) by (apply Rmult_le_pos; assumption); nra). split; lra. }
  pose proof (geo_zero gamma (2 * b) _ G Z) as Z'. apply abs_out in Z'. lra.
Qed.

(** The largest of finitely many numbers. *)
Fixpoint maxb (k : nat) (f : nat -> R) : R := match k with O => f O | S k => Rmax (maxb k f) (f (S k)) end.
Lemma maxb_ge : forall k f a, (a <= k)%nat -> f a <= maxb k f.
Proof.
  induction k as [|k IH]; intros f a Ha; cbn [maxb]; [assert (a = 0)%nat as -> by lia; lra|]. destruct (Nat.eq_dec a (S k)) as [->|]; [apply Rmax_r|].
  eapply Rle_trans; [apply IH; lia|apply Rmax_l].
Qed.
Lemma maxb_in : forall k f, exists a, (a <= k)%nat /\ maxb k f = f a.
Proof.
  induction k as [|k IH]; intros f; cbn [maxb]; [exists 0%nat; split; [lia|reflexivity]|]. destruct (IH f) as (a & Ha & E). unfold Rmax. destruct (Rle_dec _ _).
  - exists (S k). split; [lia|reflexivity].
  - exists a. split; [lia|assumption].
Qed.
Lemma max_cv : forall u v l l', Un_cv u l -> Un_cv v l' -> Un_cv (fun k => Rmax (u k) (v k)) (Rmax l l').
Proof.
  intros u v l l' Hu Hv e He. destruct (Hu e He) as [N1 H1]. destruct (Hv e He) as [N2 H2]. exists (N1 + N2)%nat. intros k Hk. specialize (H1 k ltac:(lia)). specialize (H2 k ltac:(lia)). unfold R_dist in *.
  apply Rabs_def2 in H1. apply Rabs_def2 in H2. unfold Rmax. destruct (Rle_dec (u k) (v k)), (Rle_dec l l'); apply Rabs_def1; lra.
Qed.
Lemma maxb_cv : forall k (f : nat -> nat -> R) g, (forall a, (a <= k)%nat -> Un_cv (fun i => f i a) (g a)) -> Un_cv (fun i => maxb k (f i)) (maxb k g).
Proof. induction k as [|k IH]; intros f g H; cbn [maxb]; [apply H; lia|]. apply max_cv; [apply IH; intros; apply H; lia|apply H; lia]. Qed.

(** Sequences of tables between advantage learning and Bellman's operator. *)
Section Seq.
Variable alpha : R.
Hypothesis AL : 0 <= alpha < 1.
Variable Q : nat -> St -> list R.
Hypothesis TQ : forall k, table m (Q k).
Variable b0 : R.
Hypothesis B0 : bounded m b0 (Q 0%nat).
Notation V k := (fun s => q_maximum (Q k s)).
Hypothesis UP : forall k s a, (a < n)%nat -> nth a (Q (S k) s) 0 <= L (V k) s a.
Hypothesis DOWN : forall k s a, (a < n)%nat -> L (V k) s a - alpha * (q_maximum (Q k s) - nth a (Q k s) 0) <= nth a (Q (S k) s) 0.
Lemma row : forall k s, exists a, (a < n)%nat /\ nth a (Q k s) 0 = q_maximum (Q k s) /\ forall a', (a' < n)%nat -> nth a' (Q k s) 0 <= q_maximum (Q k s).
Proof.
  intros k s. pose proof (TQ k s) as T. pose proof n_pos. assert (Q k s <> []) as NE by (intros E; rewrite E in T; cbn in T; lia). destruct (greedy_row _ NE) as (G1 & G2 & G3). rewrite T in *. eauto.
Qed.
Lemma V0 : forall s, Rabs (q_maximum (Q 0%nat s)) <= b0.
Proof. intros s. destruct (row 0 s) as (a & Ha & E & _). rewrite <- E. apply B0. assumption. Qed.
Lemma b0_nonneg : forall s : St, 0 <= b0.
Proof. intros s. pose proof (V0 s). pose proof (Rabs_pos (q_maximum (Q 0%nat s))). lra. Qed.
Definition top : R := b0 + B / (1 - gamma).
Lemma inv_pos : 0 < / (1 - gamma). Proof. apply Rinv_0_lt_compat. lra. Qed.
Lemma top_nonneg : forall s : St, 0 <= top.
Proof. intros s. unfold top. pose proof (b0_nonneg s). pose proof (B_nonneg s). pose proof inv_pos. unfold Rdiv. nra. Qed.
Lemma V_top : forall k s, q_maximum (Q k s) <= top.
Proof.
  induction k as [|k IH]; intros s; pose proof (b0_nonneg s); pose proof (B_nonneg s); pose proof inv_pos.
  - pose proof (V0 s) as H2. apply abs_out in H2. unfold top, Rdiv. nra.
  - destruct (row (S k) s) as (a & Ha & E & _). rewrite <- E. eapply Rle_trans; [apply UP; assumption|]. eapply Rle_trans; [apply (look_upper _ top); [apply (top_nonneg s)|intros; apply IH]|].
    unfold top. apply (Rplus_le_reg_r (- (gamma * b0))). replace (b0 + B / (1 - gamma) + - (gamma * b0)) with ((1 - gamma) * b0 + B / (1 - gamma)) by ring.
    replace (B + gamma * (b0 + B / (1 - gamma)) + - (gamma * b0)) with (B / (1 - gamma)) by (field; lra). nra.
Qed.
Definition fall : R := b0 + B + gamma * b0.
Lemma V_step : forall k s, q_maximum (Q k s) - fall * gamma ^ k <= q_maximum (Q (S k) s).
Proof.
  assert (ST : forall k s a, (a < n)%nat -> nth a (Q k s) 0 = q_maximum (Q k s) -> L (V k) s a <= q_maximum (Q (S k) s)).
  { intros k s a Ha E. destruct (row (S k) s) as (a' & _ & _ & M). eapply Rle_trans; [|apply (M a Ha)]. pose proof (DOWN k s a Ha) as D. rewrite E in D. lra. }
  induction k as [|k IH]; intros s.
  - destruct (row 0 s) as (a & Ha & E & _). specialize (ST 0%nat s a Ha E). pose proof (look_bound (V 0%nat) b0 s a (b0_nonneg s) V0) as LB. apply abs_out in LB. pose proof (V0 s) as HV. apply abs_out in HV. cbn [pow]. unfold fall. lra.
  - destruct (row (S k) s) as (a & Ha & E & _). specialize (ST (S k) s a Ha E). rewrite <- E at 1. pose proof (UP k s a Ha) as U.
    assert (F : 0 <= fall * gamma ^ k) by (apply Rmult_le_pos; [unfold fall; pose proof (b0_nonneg s); pose proof (B_nonneg s); nra|apply pow_le; lra]).
    pose proof (look_mono (V k) (V (S k)) (fall * gamma ^ k) s a F ltac:(intros s0; specialize (IH s0); cbv beta; lra)) as LM. cbn [pow].
    replace (fall * (gamma * gamma ^ k)) with (gamma * (fall * gamma ^ k)) by ring. lra.
Qed.
Lemma V_lower : forall k s, - (b0 + fall / (1 - gamma)) <= q_maximum (Q k s).
Proof.
  intros k s. assert (F : 0 <= fall) by (unfold fall; pose proof (b0_nonneg s); pose proof (B_nonneg s); nra). pose proof inv_pos.
  assert (H0 : forall k, q_maximum (Q 0%nat s) - fall / (1 - gamma) * (1 - gamma ^ k) <= q_maximum (Q k s)).
  { induction k0 as [|j IH]; [cbn; lra|]. pose proof (V_step j s). cbn [pow]. replace (fall / (1 - gamma) * (1 - gamma * gamma ^ j)) with (fall / (1 - gamma) * (1 - gamma ^ j) + fall * gamma ^ j) by (field; lra). lra. }
  specialize (H0 k). pose proof (V0 s) as H1. apply abs_out in H1. assert (0 <= gamma ^ k) by (apply pow_le; lra). assert (0 <= fall / (1 - gamma) * gamma ^ k) by (apply Rmult_le_pos; [unfold Rdiv; nra|assumption]). lra.
Qed.
Lemma V_cv : forall s, { l | Un_cv (fun k => q_maximum (Q k s)) l }.
Proof.
  intros s. apply (geometric_cv _ fall gamma top); [unfold fall; pose proof (b0_nonneg s); pose proof (B_nonneg s); nra|assumption|intros; apply V_step|intros; apply V_top].
Qed.
Definition limit (s : St) : R := proj1_sig (V_cv s).
Lemma limit_cv : forall s, Un_cv (fun k => q_maximum (Q k s)) (limit s).
Proof. intros s. exact (proj2_sig (V_cv s)). Qed.
Lemma limit_bound : forall s, - (b0 + fall / (1 - gamma)) <= limit s <= top.
Proof.
  intros s. split; [apply (cv_le (fun _ => - (b0 + fall / (1 - gamma))) (fun k => q_maximum (Q k s))); [apply cv_const|apply limit_cv|intros; apply V_lower]|
    apply (cv_le (fun k => q_maximum (Q k s)) (fun _ => top)); [apply limit_cv|apply cv_const|intros; apply V_top]].
Qed.
(** A sequence of non-negative numbers with a contracting upper bound. *)
Lemma contracting : forall (D x : nat -> R) l, (forall k, 0 <= D k) -> (forall k, D (S k) <= x k + alpha * D k) -> Un_cv x l -> 0 <= l.
Proof.
  intros D x l H0 H1 H2. destruct (Rle_lt_dec 0 l) as [|N]; [assumption|exfalso]. destruct (H2 (- l / 2) ltac:(lra)) as [K HK].
  assert (X : forall k, (k >= K)%nat -> x k <= l / 2) by (intros k Hk; specialize (HK k Hk); unfold R_dist in HK; apply Rabs_def2 in HK; lra).
  assert (Y : forall j, D (K + j)%nat <= D K + INR j * (l / 2)).
  { induction j as [|j IH]; [rewrite Nat.add_0_r; cbn; lra|]. rewrite <- plus_n_Sm, S_INR. specialize (H1 (K + j)%nat). specialize (X (K + j)%nat ltac:(lia)). pose proof (H0 (K + j)%nat). nra. }
  destruct (archimed_cor1 (- l / 2 / (D K + 1))) as [j [Hj Hj']]; [apply Rdiv_lt_0_compat; [lra|pose proof (H0 K); lra]|].
  pose proof (H0 K) as HK0. specialize (Y j). pose proof (H0 (K + j)%nat). assert (IJ : 0 < INR j) by (apply lt_0_INR; lia).
  apply (Rmult_lt_compat_r (INR j * (D K + 1))) in Hj; [|nra]. replace (/ INR j * (INR j * (D K + 1))) with (D K + 1) in Hj by (field; lra).
  replace (- l / 2 / (D K + 1) * (INR j * (D K + 1))) with (INR j * (- l / 2)) in Hj by (field; lra). lra.
Qed.
Lemma limit_optimal : optimal_value m gamma final limit.
Proof.
  split.
  - exists (Rmax (b0 + fall / (1 - gamma)) top). intros s. pose proof (limit_bound s) as [H1 H2]. apply abs_in. split; [eapply Rle_trans; [eassumption|apply Rmax_r]|]. pose proof (Rmax_l (b0 + fall / (1 - gamma)) top). lra.
  - intros s. split.
    + intros a Ha. assert (0 <= limit s - L limit s a); [|lra].
      apply (contracting (fun k => q_maximum (Q k s) - nth a (Q k s) 0) (fun k => q_maximum (Q (S k) s) - L (V k) s a)).
      * intros k. destruct (row k s) as (_ & _ & _ & M). specialize (M a Ha). lra.
      * intros k. pose proof (DOWN k s a Ha). lra.
      * apply CV_minus; [apply (cv_shift (fun k => q_maximum (Q k s))), limit_cv|apply look_cv, limit_cv].
    + pose proof n_pos as NP. destruct (maxb_in (n - 1) (L limit s)) as (a & Ha & E). exists a. split; [lia|]. apply Rle_antisym.
      * rewrite <- E. apply (cv_le (fun k => q_maximum (Q (S k) s)) (fun k => maxb (n - 1) (L (V k) s))).
        -- apply (cv_shift (fun k => q_maximum (Q k s))), limit_cv.
        -- apply maxb_cv. intros. apply look_cv, limit_cv.
        -- intros k. destruct (row (S k) s) as (a' & Ha' & E' & _). rewrite <- E'. eapply Rle_trans; [apply UP; assumption|]. apply maxb_ge. lia.
      * assert (0 <= limit s - L limit s a); [|lra].
        apply (contracting (fun k => q_maximum (Q k s) - nth a (Q k s) 0) (fun k => q_maximum (Q (S k) s) - L (V k) s a)).
        -- intros k. destruct (row k s) as (_ & _ & _ & M). specialize (M a ltac:(lia)). lra.
        -- intros k. pose proof (DOWN k s a ltac:(lia)). lra.
        -- apply CV_minus; [apply (cv_shift (fun k => q_maximum (Q k s))), limit_cv|apply look_cv, limit_cv].
Qed.
End Seq.

(** The optimal values. *)
Lemma optimal_unique : forall v v', optimal_value m gamma final v -> optimal_value m gamma final v' -> forall s, v s = v' s.
Proof.
  intros v v' [[b Hb] H] [[b' Hb'] H'].
  assert (I : forall k s, Rabs (v s - v' s) <= gamma ^ k * (b + b')).
  { induction k as [|k IH]; intros s.
    - cbn. rewrite Rmult_1_l. specialize (Hb s). specialize (Hb' s). apply abs_out in Hb. apply abs_out in Hb'. apply abs_in. split; lra.
    - cbn [pow]. rewrite Rmult_assoc. assert (P : 0 <= gamma ^ k * (b + b')) by (pose proof (IH s); pose proof (Rabs_pos (v s - v' s)); lra).
      destruct (H s) as [M (a & Ha & E)]. destruct (H' s) as [M' (a' & Ha' & E')].
      pose proof (look_diff v v' _ s a P IH) as D. pose proof (look_diff v v' _ s a' P IH) as D'. apply abs_out in D. apply abs_out in D'. specialize (M a' Ha'). specialize (M' a Ha). apply abs_in. split; lra. }
  intros s. pose proof (geo_zero gamma (b + b') (Rabs (v s - v' s)) G ltac:(intros k; apply I)) as Z. apply abs_out in Z. lra.
Qed.
Lemma between : forall v alpha Q b0, optimal_value m gamma final v -> 0 <= alpha < 1 -> (forall k, table m (Q k)) -> bounded m b0 (Q 0%nat) ->
  (forall k s a, (a < n)%nat -> nth a (Q (S k) s) 0 <= L (fun s => q_maximum (Q k s)) s a) ->
  (forall k s a, (a < n)%nat -> L (fun s => q_maximum (Q k s)) s a - alpha * (q_maximum (Q k s) - nth a (Q k s) 0) <= nth a (Q (S k) s) 0) ->
  (forall s, Un_cv (fun k => q_maximum (Q k s)) (v s)) /\
  (forall s a eps, (a < n)%nat -> 0 < eps -> exists K, forall k, (K <= k)%nat -> v s - L v s a - eps <= q_maximum (Q k s) - nth a (Q k s) 0).
Proof.
  intros v alpha Q b0 O AL TQ B0 UP DOWN.
  assert (C : forall s, Un_cv (fun k => q_maximum (Q k s)) (v s)).
  { intros s. rewrite (optimal_unique v (limit alpha Q TQ b0 B0 UP DOWN) O (limit_optimal alpha AL Q TQ b0 B0 UP DOWN) s). apply limit_cv. }
  split; [exact C|]. intros s a eps Ha He.
  pose proof (CV_minus _ _ _ _ (cv_shift _ _ (C s)) (look_cv (fun k s => q_maximum (Q k s)) v s a C)) as CV. destruct (CV eps He) as [K HK]. exists (S K). intros [|k] Hk; [lia|].
  specialize (HK k ltac:(lia)). unfold R_dist in HK. apply Rabs_def2 in HK. pose proof (UP k s a Ha). cbv beta in *. lra.
Qed.
Lemma adv_row : forall Q s a, table m Q -> (a < n)%nat -> q_advantage (Q s) a <= 0 /\ q_advantage (Q s) a = - (q_maximum (Q s) - nth a (Q s) 0).
Proof.
  intros Q s a T Ha. pose proof n_pos. specialize (T s). assert (Q s <> []) as NE by (intros E; rewrite E in T; cbn in T; lia). destruct (greedy_row _ NE) as (_ & _ & M). specialize (M a ltac:(lia)). unfold q_advantage, q_evaluate at 1. split; [lra|unfold q_evaluate; ring].
Qed.
Lemma al_table : forall alpha Q, table m (al_backup m gamma final alpha Q). Proof. intros alpha Q s. unfold al_backup. rewrite map_length, seq_length. reflexivity. Qed.
Lemma pal_table : forall alpha Q, table m (pal_backup m gamma final alpha Q). Proof. intros alpha Q s. unfold pal_backup. rewrite map_length, seq_length. reflexivity. Qed.
Lemma al_between : forall alpha Q s a, 0 <= alpha -> table m Q -> (a < n)%nat ->
  let T := L (fun s => q_maximum (Q s)) s a in
  nth a (al_backup m gamma final alpha Q s) 0 = T - alpha * (q_maximum (Q s) - nth a (Q s) 0) /\
  nth a (al_backup m gamma final alpha Q s) 0 <= nth a (pal_backup m gamma final alpha Q s) 0 <= T.
Proof.
  intros alpha Q s a Hal TQ Ha T. unfold al_backup, pal_backup. rewrite !nth_map_seq by assumption. destruct (adv_row Q s a TQ Ha) as [N E]. split; [|split].
  - unfold T, lookahead, al_target. rewrite E. transitivity (total_of (fun z => o_prob z * td_row (o_reward z) gamma (ended z) (q_maximum (Q (arrives final z))) + - (alpha * (q_maximum (Q s) - nth a (Q s) 0)) * o_prob z) (outcomes m s a)).
    + apply tot_ext. intros. ring.
    + rewrite tot_add, tot_scale, prob_one. ring.
  - apply tot_le. intros z Hz. apply Rmult_le_compat_l; [eapply prob_nonneg; eassumption|]. unfold al_target, pal_target. apply Rplus_le_compat_l, Rmult_le_compat_l; [assumption|apply Rmax_l].
  - unfold T, lookahead. apply tot_le. intros z Hz. apply Rmult_le_compat_l; [eapply prob_nonneg; eassumption|]. unfold pal_target. destruct (adv_row Q (arrives final z) a TQ Ha) as [N' _].
    assert (Rmax (q_advantage (Q s) a) (q_advantage (Q (arrives final z)) a) <= 0) by (apply Rmax_lub; assumption). nra.
Qed.
Lemma advantage_learning : forall v alpha Q b0, optimal_value m gamma final v -> 0 <= alpha < 1 -> table m Q -> bounded m b0 Q ->
  forall T, T = al_backup m gamma final alpha \/ T = pal_backup m gamma final alpha ->
  (forall s, Un_cv (fun k => q_maximum (iterate T k Q s)) (v s)) /\
  (forall s a eps, (a < n)%nat -> 0 < eps -> exists K, forall k, (K <= k)%nat -> v s - L v s a - eps <= q_maximum (iterate T k Q s) - nth a (iterate T k Q s) 0).
Proof.
  intros v alpha Q b0 O AL TQ B0 T HT. assert (TK : forall k, table m (iterate T k Q)) by (intros [|k]; [assumption|cbn [iterate]; destruct HT as [-> | ->]; [apply al_table|apply pal_table]]).
  apply (between v alpha (fun k => iterate T k Q) b0); try assumption.
  - intros k s a Ha. cbn [iterate]. destruct (al_between alpha (iterate T k Q) s a (proj1 AL) (TK k) Ha) as (A1 & A2 & A3). cbv zeta in *. set (Qk := iterate T k Q) in *. destruct HT as [-> | ->]; lra.
  - intros k s a Ha. cbn [iterate]. destruct (al_between alpha (iterate T k Q) s a (proj1 AL) (TK k) Ha) as (A1 & A2 & A3). cbv zeta in *. set (Qk := iterate T k Q) in *. destruct HT as [-> | ->]; lra.
Qed.

(** Existence, and the link between tables and values. *)
Lemma fixpoint_optimal : forall Q b, table m Q -> bounded m b Q -> (forall s, backup m gamma final (fun _ => q_maximum) Q s = Q s) ->
  optimal_value m gamma final (fun s => q_maximum (Q s)) /\ forall s a, (a < n)%nat -> nth a (Q s) 0 = L (fun s => q_maximum (Q s)) s a.
Proof.
  intros Q b TQ BQ F. assert (E : forall s a, (a < n)%nat -> nth a (Q s) 0 = L (fun s => q_maximum (Q s)) s a) by (intros s a Ha; rewrite <- (F s) at 1; apply backup_nth; assumption).
  split; [|exact E]. assert (RW : forall s, exists a, (a < n)%nat /\ nth a (Q s) 0 = q_maximum (Q s) /\ forall a', (a' < n)%nat -> nth a' (Q s) 0 <= q_maximum (Q s)).
  { intros s. pose proof (TQ s) as T. pose proof n_pos. assert (Q s <> []) as NE by (intros X; rewrite X in T; cbn in T; lia). destruct (greedy_row _ NE) as (G1 & G2 & G3). rewrite T in *. eauto. }
  split.
  - exists b. intros s. destruct (RW s) as (a & Ha & <- & _). apply BQ. assumption.
  - intros s. destruct (RW s) as (a & Ha & Ea & M). split; [intros a' Ha'; rewrite <- E by assumption; auto|]. exists a. split; [assumption|]. rewrite <- E by assumption. congruence.
Qed.
Lemma optimal_exists : exists v, optimal_value m gamma final v.
Proof.
  destruct (fixpoint_exists (fun _ => q_maximum) (Rabs (q_maximum (repeat 0 n))) (fun _ => max_nonexpansive n n_pos) ltac:(intros; lra)) as (Q & b & TQ & BQ & F). eexists. apply (fixpoint_optimal Q b); assumption.
Qed.

(** Policies. *)
Lemma return_look : forall v p k s, expected_return m gamma v p (S k) s = sum_below n (fun a => p s a * L (expected_return m gamma v p k) s a).
Proof.
  intros. cbn [expected_return]. apply below_ext. intros a _. f_equal. unfold lookahead. apply tot_ext. intros z _. f_equal. unfold td_row, ended, arrives. destruct (snd z); cbn [terminal_flag]; ring.
Qed.
Lemma policy_below : forall v w p d k s, optimal_value m gamma final v -> (forall s a, 0 <= p s a) -> (forall s, sum_below n (p s) = 1) -> (forall s, w s <= v s + d) -> 0 <= d ->
  expected_return m gamma w p k s <= v s + gamma ^ k * d.
Proof.
  intros v w p d k s O P1 P2 H Hd. revert s. induction k as [|k IH]; intros s; [cbn; rewrite Rmult_1_l; apply H|]. rewrite return_look. cbn [pow]. rewrite Rmult_assoc.
  rewrite <- (Rmult_1_r (v s + _)), <- (P2 s), <- below_scale. assert (LE : forall j, (j <= n)%nat -> sum_below j (fun a => p s a * L (expected_return m gamma w p k) s a) <= sum_below j (fun i => (v s + gamma * (gamma ^ k * d)) * p s i)).
  { induction j as [|j IHj]; intros Hj; cbn [sum_below]; [lra|]. apply Rplus_le_compat; [apply IHj; lia|]. rewrite (Rmult_comm (v s + _)). apply Rmult_le_compat_l; [apply P1|].
    eapply Rle_trans; [apply (look_mono _ v (gamma ^ k * d)); [apply Rmult_le_pos; [apply pow_le; lra|assumption]|apply IH]|]. apply Rplus_le_compat_r. apply (proj2 O s). lia. }
  apply LE. lia.
Qed.
Lemma greedy_return : forall Q w k s, table m Q -> expected_return m gamma w (greedy_policy Q) (S k) s = L (expected_return m gamma w (greedy_policy Q) k) s (q_greedy (Q s)).
Proof.
  intros Q w k s TQ. rewrite return_look. set (f := L (expected_return m gamma w (greedy_policy Q) k) s). unfold greedy_policy at 1.
  pose proof n_pos. pose proof (TQ s) as T. assert (Q s <> []) as NE by (intros E; rewrite E in T; cbn in T; lia). destruct (greedy_row _ NE) as (G1 & _ & _). rewrite T in G1. set (g := q_greedy (Q s)) in *.
  assert (Z : forall j, sum_below j (fun a => (if (a =? g)%nat then 1 else 0) * f a) = if (g <? j)%nat then f g else 0).
  { induction j as [|j IH]; [reflexivity|]. cbn [sum_below]. rewrite IH. destruct (Nat.ltb_spec g j), (Nat.ltb_spec g (S j)), (Nat.eqb_spec j g); try lia; subst; ring. }
  rewrite Z. destruct (Nat.ltb_spec g n); [reflexivity|lia].
Qed.
Lemma greedy_near : forall v Q eps w d k s, optimal_value m gamma final v -> table m Q -> 0 <= eps -> 0 <= d -> (forall s a, (a < n)%nat -> Rabs (nth a (Q s) 0 - L v s a) <= eps) -> (forall s, v s - d <= w s) ->
  v s - 2 * eps / (1 - gamma) - gamma ^ k * d <= expected_return m gamma w (greedy_policy Q) k s.
Proof.
  intros v Q eps w d k s O TQ He Hd HQ Hw. pose proof inv_pos as IP. assert (E0 : 0 <= 2 * eps / (1 - gamma)) by (unfold Rdiv; nra).
  revert s. induction k as [|k IH]; intros s; [cbn [pow expected_return]; specialize (Hw s); lra|].
  rewrite greedy_return by assumption. set (g := q_greedy (Q s)). pose proof n_pos. pose proof (TQ s) as T. assert (Q s <> []) as NE by (intros E; rewrite E in T; cbn in T; lia). destruct (greedy_row _ NE) as (G1 & G2 & G3). fold g in G1, G2. rewrite T in *.
  assert (P : 0 <= 2 * eps / (1 - gamma) + gamma ^ k * d) by (apply Rplus_le_le_0_compat; [assumption|apply Rmult_le_pos; [apply pow_le; lra|assumption]]).
  pose proof (look_mono v (expected_return m gamma w (greedy_policy Q) k) _ s g P ltac:(intros s0; specialize (IH s0); lra)) as LM.
  destruct (proj2 O s) as [M (a & Ha & E)]. pose proof (HQ s a Ha) as H1. pose proof (HQ s g G1) as H2. apply abs_out in H1. apply abs_out in H2. pose proof (G3 a Ha) as H3. rewrite <- G2 in H3.
  cbn [pow]. replace (2 * eps / (1 - gamma)) with (2 * eps + gamma * (2 * eps / (1 - gamma))) by (field; lra). rewrite Rmult_plus_distr_l in LM. replace (gamma * gamma ^ k * d) with (gamma * (gamma ^ k * d)) by ring. lra.
Qed.

(** SARSA evaluates the policy. *)
Lemma sarsa_value : forall Q b p w d k s, table m Q -> bounded m b Q -> (forall s a, 0 <= p s a) -> (forall s, sum_below n (p s) = 1) -> (forall s, backup m gamma final (fun s => policy_average (p s)) Q s = Q s) ->
  (forall s, Rabs (w s - policy_average (p s) (Q s)) <= d) -> Rabs (expected_return m gamma w p k s - policy_average (p s) (Q s)) <= gamma ^ k * d.
Proof.
  intros Q b p w d k s TQ BQ P1 P2 F H. revert s. induction k as [|k IH]; intros s; [cbn; rewrite Rmult_1_l; apply H|].
  assert (D0 : 0 <= gamma ^ k * d) by (apply Rmult_le_pos; [apply pow_le; lra|specialize (H s); pose proof (Rabs_pos (w s - policy_average (p s) (Q s))); lra]).
  rewrite return_look. unfold policy_average. rewrite (TQ s). cbn [pow]. rewrite Rmult_assoc.
  assert (E : forall a, (a < n)%nat -> nth a (Q s) 0 = L (fun s' => policy_average (p s') (Q s')) s a) by (intros a Ha; rewrite <- (F s) at 1; apply backup_nth; assumption).
  rewrite (below_ext _ (fun a => p s a * nth a (Q s) 0) (fun a => p s a * L (fun s' => policy_average (p s') (Q s')) s a)) by (intros a Ha; rewrite E by assumption; reflexivity).
  rewrite <- below_sub. rewrite <- (Rmult_1_r (gamma * _)), <- (P2 s).
  assert (G' : forall j, Rabs (sum_below j (fun i => p s i * L (expected_return m gamma w p k) s i - p s i * L (fun s' => policy_average (p s') (Q s')) s i)) <= gamma * (gamma ^ k * d) * sum_below j (p s)).
  { induction j as [|j IHj]; cbn [sum_below]; [rewrite Rabs_R0; lra|]. eapply Rle_trans; [apply Rabs_triang|]. rewrite Rmult_plus_distr_l. apply Rplus_le_compat; [exact IHj|].
    rewrite <- Rmult_minus_distr_l, Rabs_mult, (Rabs_pos_eq (p s j)) by apply P1. rewrite Rmult_comm. apply Rmult_le_compat_r; [apply P1|]. apply look_diff; [assumption|apply IH]. }
  apply G'.
Qed.
(** Fitting the targets gives the backup. *)
Lemma regression : forall v s a y, let loss := fun y => total_of (fun z => o_prob z * row_loss false y (td_row (o_reward z) gamma (ended z) (v (arrives final z)))) (outcomes m s a) in
  loss (L v s a) <= loss y /\ (loss y = loss (L v s a) <-> y = L v s a).
Proof.
  intros v s a y. cbv zeta. unfold row_loss. pose proof (mean_square _ o_prob (fun z => td_row (o_reward z) gamma (ended z) (v (arrives final z))) (outcomes m s a)) as M.
  rewrite !(M _ (prob_one s a)). fold (L v s a). replace ((L v s a - L v s a) ^ 2 / 2) with 0 by field. pose proof (pow2_ge_0 (y - L v s a)) as P. split; [lra|]. split.
  - intros E. assert (Z : (y - L v s a) ^ 2 = 0) by lra. apply Rsqr_0_uniq in Z || (cbn in Z; rewrite Rmult_1_r in Z; apply Rmult_integral in Z). lra.
  - intros ->. replace ((L v s a - L v s a) ^ 2 / 2) with 0 by field. reflexivity.
Qed.
End B.
