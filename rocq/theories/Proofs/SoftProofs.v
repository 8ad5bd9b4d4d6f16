From Coq Require Import Reals List Arith Bool Lia Lra.
From Verif Require Import Base.PyBase Model.Distributions Model.ReplayUpdater Model.Targets Model.PCL Spec.SumSpec Spec.PolicyGradientSpec Spec.BellmanSpec Spec.PCLSpec Spec.SoftSpec
  Proofs.RSumFacts Proofs.DistributionProofs Proofs.PolicyGradientProofs Proofs.SurrogateProofs Proofs.BellmanProofs Proofs.PCLProofs.
Import ListNotations.
Local Open Scope R_scope.

Lemma below_zero0 : forall k, sum_below k (fun _ => 0) = 0.
Proof. induction k as [|k IH]; cbn [sum_below]; [reflexivity|]. rewrite IH. ring. Qed.
Lemma below_one : forall k (p : nat -> R) a, (a < k)%nat -> (forall a, 0 <= p a) -> p a <= sum_below k p.
Proof.
  induction k as [|k IH]; intros p a Ha H; [lia|]. cbn [sum_below]. destruct (Nat.eq_dec a k) as [->|].
  - assert (0 <= sum_below k p) by (rewrite <- (below_zero0 k); apply below_le; auto). lra.
  - specialize (IH p a ltac:(lia) H). specialize (H k). lra.
Qed.
Lemma below_ones : forall k, sum_below k (fun _ => 1) = INR k.
Proof. induction k as [|k IH]; [reflexivity|]. cbn [sum_below]. rewrite IH, S_INR. reflexivity. Qed.
Section S.
Context {St : Type}.
Variable m : mdp St.
Variables gamma tau : R.
Variable final : St.
Variable B : R.
Hypothesis G : 0 <= gamma < 1.
Hypothesis TAU : 0 < tau.
Hypothesis REG : regular m B.
Notation n := (n_actions m).
Notation L := (lookahead m gamma final).
Notation avg := (soft_average m tau).

Lemma soft_ext : forall p q q', (forall a, (a < n)%nat -> q a = q' a) -> avg p q = avg p q'.
Proof. intros p q q' H. unfold soft_average. apply below_ext. intros a Ha. rewrite H by exact Ha. reflexivity. Qed.
Lemma soft_mono : forall p q q' d, (forall a, 0 <= p a) -> sum_below n p = 1 -> (forall a, (a < n)%nat -> q a <= q' a + d) -> avg p q <= avg p q' + d.
Proof.
  intros p q q' d P1 P2 H. unfold soft_average. replace d with (sum_below n (fun a => d * p a)) by (rewrite below_scale, P2; ring). rewrite <- below_add.
  apply below_le. intros a Ha. specialize (H a Ha). specialize (P1 a). nra.
Qed.
Lemma soft_diff : forall p q q' d, (forall a, 0 <= p a) -> sum_below n p = 1 -> (forall a, (a < n)%nat -> Rabs (q a - q' a) <= d) -> Rabs (avg p q - avg p q') <= d.
Proof.
  intros p q q' d P1 P2 H. apply abs_in. split.
  - pose proof (soft_mono p q q' d P1 P2 ltac:(intros a Ha; pose proof (abs_out _ _ (H a Ha)); lra)). lra.
  - pose proof (soft_mono p q' q d P1 P2 ltac:(intros a Ha; pose proof (abs_out _ _ (H a Ha)); lra)). lra.
Qed.
Lemma n_pos' : (0 < n)%nat. Proof. apply REG. Qed.
Lemma Z_pos : forall q : nat -> R, 0 < sum_below n (fun a => exp (q a)).
Proof.
  intros q. pose proof n_pos' as N. destruct n as [|k]; [lia|]. clear N. induction k as [|k IH]; cbn [sum_below] in *.
  - pose proof (exp_pos (q 0%nat)). lra.
  - pose proof (exp_pos (q (S k))). lra.
Qed.
Definition soft_max (q : nat -> R) : R := tau * ln (sum_below n (fun a => exp (q a / tau))).
(** The policy in proportion to the exponentials. *)
Definition boltz (q : nat -> R) (a : nat) : R := exp ((q a - soft_max q) / tau).
Lemma boltz_eq : forall q a, boltz q a = exp (q a / tau) / sum_below n (fun a => exp (q a / tau)).
Proof.
  intros q a. unfold boltz, soft_max. pose proof (Z_pos (fun a => q a / tau)) as Z. replace ((q a - tau * ln (sum_below n (fun a => exp (q a / tau)))) / tau) with (q a / tau + - ln (sum_below n (fun a => exp (q a / tau)))) by (field; lra).
  rewrite exp_plus, exp_Ropp, exp_ln by exact Z. reflexivity.
Qed.
Lemma boltz_sum : forall q, sum_below n (boltz q) = 1.
Proof.
  intros q. rewrite (below_ext n (boltz q) (fun a => / sum_below n (fun a => exp (q a / tau)) * exp (q a / tau))).
  - rewrite below_scale. pose proof (Z_pos (fun a => q a / tau)). field. lra.
  - intros a _. rewrite boltz_eq. unfold Rdiv. ring.
Qed.
Lemma gibbs_soft : forall p q, (forall a, 0 <= p a) -> sum_below n p = 1 -> avg p q <= soft_max q /\ (avg p q = soft_max q -> forall a, (a < n)%nat -> p a = boltz q a).
Proof.
  intros p q P1 P2.
  assert (E : avg p q = soft_max q - tau * sum_below n (fun a => p a * (ln (p a) - ln (boltz q a)))).
  { rewrite <- (Rmult_1_r (soft_max q)), <- P2, <- !below_scale, <- below_sub. unfold soft_average. apply below_ext. intros a _. unfold boltz. rewrite ln_exp. field. lra. }
  assert (GT : forall a, p a - boltz q a <= p a * (ln (p a) - ln (boltz q a))) by (intros a; apply gibbs_term; [apply P1|apply exp_pos]).
  assert (Z0 : sum_below n (fun a => p a - boltz q a) = 0) by (rewrite below_sub, P2, boltz_sum; ring).
  assert (Z1 : 0 <= sum_below n (fun a => p a * (ln (p a) - ln (boltz q a)))) by (rewrite <- Z0; apply below_le; auto).
  split; [rewrite E; nra|]. intros E' a Ha. apply gibbs_strict; [apply P1|apply exp_pos|]. symmetry.
  apply (below_le_eq n (fun a => p a - boltz q a) (fun a => p a * (ln (p a) - ln (boltz q a)))); [auto| |exact Ha]. rewrite Z0. rewrite E in E'. symmetry.
  assert (tau * sum_below n (fun a => p a * (ln (p a) - ln (boltz q a))) = 0) by lra. destruct (Rmult_integral _ _ H); lra.
Qed.
Lemma boltz_avg : forall q, avg (boltz q) q = soft_max q.
Proof.
  intros q. unfold soft_average. transitivity (sum_below n (fun a => soft_max q * boltz q a)); [|rewrite below_scale, boltz_sum; ring].
  apply below_ext. intros a _. unfold boltz. rewrite ln_exp. field. lra.
Qed.

(** Two bounded functions. *)
Lemma compare : forall v v' b b', (forall s : St, Rabs (v s) <= b) -> (forall s, Rabs (v' s) <= b') -> (forall d, 0 <= d -> (forall s, v s <= v' s + d) -> forall s, v s <= v' s + gamma * d) -> forall s, v s <= v' s.
Proof.
  intros v v' b b' Hb Hb' H.
  assert (C : forall s : St, 0 <= b + b') by (intros s; pose proof (Rabs_pos (v s)); pose proof (Rabs_pos (v' s)); specialize (Hb s); specialize (Hb' s); lra).
  assert (K : forall k s, v s <= v' s + gamma ^ k * (b + b')).
  { induction k as [|k IH]; intros s; [cbn [pow]; pose proof (abs_out _ _ (Hb s)); pose proof (abs_out _ _ (Hb' s)); lra|].
    cbn [pow]. rewrite Rmult_assoc. apply H; [|exact IH]. apply Rmult_le_pos; [apply pow_le; lra|apply (C s)]. }
  intros s. pose proof (geo_zero gamma (b + b') (v s - v' s) G ltac:(intros k; specialize (K k s); lra)). lra.
Qed.

(** ** Evaluating a policy *)
Lemma entropy_bound : forall p, (forall a, 0 <= p a) -> sum_below n p = 1 -> Rabs (avg p (fun _ => 0)) <= tau * ln (INR n).
Proof.
  intros p P1 P2. assert (N : 0 < INR n) by (apply lt_0_INR, n_pos').
  assert (SM : soft_max (fun _ => 0) = tau * ln (INR n)).
  { unfold soft_max. do 2 f_equal. rewrite (below_ext n _ (fun _ => 1)) by (intros; unfold Rdiv; rewrite Rmult_0_l; apply exp_0). apply below_ones. }
  assert (LN : 0 <= ln (INR n)) by (rewrite <- ln_1; apply ln_mono; [lra|]; apply (le_INR 1); exact n_pos').
  apply abs_in. split; [rewrite <- SM; apply gibbs_soft; assumption|].
  assert (0 <= avg p (fun _ => 0)); [|nra]. unfold soft_average. apply (Rle_trans _ (sum_below n (fun _ => 0))); [rewrite below_zero0; lra|]. apply below_le. intros a Ha.
  assert (PA : p a <= 1) by (rewrite <- P2; apply below_one; [exact Ha|auto]).
  destruct (P1 a) as [Hp|E0]; [|rewrite <- E0; lra]. assert (ln (p a) <= 0) by (rewrite <- ln_1; apply ln_mono; lra). replace (p a * (0 - tau * ln (p a))) with (p a * (tau * - ln (p a))) by ring. apply Rmult_le_pos; [lra|]. apply Rmult_le_pos; lra.
Qed.

Lemma target_average : forall p q1 q2, distribution m p -> forall s a, sac_backup m gamma tau final p q1 q2 s a = L (fun s' => avg (p s') (fun a' => Rmin (q1 s' a') (q2 s' a'))) s a.
Proof.
  intros p q1 q2 D s a. unfold sac_backup, lookahead. apply tot_ext. intros z _. f_equal. set (s' := arrives final z). destruct (D s') as [P1 P2].
  unfold sac_sample, sac_targets, td_targets. cbn [b_reward b_discount b_terminal b_next_state map td_rows hd fst snd]. fold s'.
  unfold td_row, soft_average. set (k := gamma * (1 - terminal_flag (ended z))).
  rewrite (below_ext n _ (fun a' => o_reward z * p s' a' + k * (p s' a' * (Rmin (q1 s' a') (q2 s' a') - tau * ln (p s' a'))))) by (intros; ring).
  rewrite below_add, !below_scale, P2. ring.
Qed.
Lemma value_exists : forall p, distribution m p -> exists v, soft_value m gamma tau final p v.
Proof.
  intros p D. set (val := fun s (q : list R) => avg (p s) (fun a => nth a q 0)).
  destruct (fixpoint_exists m gamma final B G REG val (tau * ln (INR n))) as (Q & b & TQ & BQ & F).
  - intros s q q' d H1 H2 H. destruct (D s). apply soft_diff; auto.
  - intros s. unfold val. destruct (D s). rewrite (soft_ext _ _ (fun _ => 0)) by (intros; apply nth_repeat). apply entropy_bound; assumption.
  - exists (fun s => val s (Q s)).
    assert (E : forall s a, (a < n)%nat -> nth a (Q s) 0 = L (fun s => val s (Q s)) s a) by (intros s a Ha; rewrite <- (F s) at 1; apply backup_nth; assumption).
    split.
    + exists (b + tau * ln (INR n)). intros s. unfold val. destruct (D s) as [P1 P2]. replace (avg (p s) (fun a => nth a (Q s) 0)) with ((avg (p s) (fun a => nth a (Q s) 0) - avg (p s) (fun _ => 0)) + avg (p s) (fun _ => 0)) by ring.
      eapply Rle_trans; [apply Rabs_triang|]. apply Rplus_le_compat; [|apply entropy_bound; assumption]. apply soft_diff; [assumption|assumption|]. intros a Ha. rewrite Rminus_0_r. apply BQ. exact Ha.
    + intros s. unfold val at 1. apply soft_ext. intros a Ha. apply E. exact Ha.
Qed.
Lemma improvement : forall p p' v v', distribution m p -> distribution m p' -> soft_value m gamma tau final p v -> soft_value m gamma tau final p' v' ->
  (forall s, sac_state_loss m tau (p' s) (L v s) <= sac_state_loss m tau (p s) (L v s)) -> forall s, v s <= v' s.
Proof.
  intros p p' v v' D D' [[b Hb] E] [[b' Hb'] E'] H.
  assert (NEG : forall r q, sac_state_loss m tau r q = - avg r q).
  { intros r q. unfold sac_state_loss, soft_average. replace (- sum_below n (fun a => r a * (q a - tau * ln (r a)))) with (-1 * sum_below n (fun a => r a * (q a - tau * ln (r a)))) by ring. rewrite <- below_scale. apply below_ext. intros. ring. }
  apply (compare v v' b b' Hb Hb'). intros d Hd HD s. rewrite (E s), (E' s). specialize (H s). rewrite !NEG in H. destruct (D' s) as [P1 P2].
  pose proof (soft_mono (p' s) (L v s) (L v' s) (gamma * d) P1 P2 ltac:(intros a _; apply (look_mono m gamma final B G REG); assumption)). lra.
Qed.
Lemma value_unique : forall p v v', distribution m p -> soft_value m gamma tau final p v -> soft_value m gamma tau final p v' -> forall s, v s = v' s.
Proof. intros p v v' D H H' s. apply Rle_antisym; [eapply (improvement p p v v')|eapply (improvement p p v' v)]; eauto; intros; apply Rle_refl. Qed.
Lemma evaluation : forall p v q1 q2 d, distribution m p -> soft_value m gamma tau final p v -> 0 <= d -> (forall s a, Rabs (q1 s a - L v s a) <= d) -> (forall s a, Rabs (q2 s a - L v s a) <= d) ->
  forall k s a, Rabs (fst (sac_iterate m gamma tau final p k q1 q2) s a - L v s a) <= gamma ^ k * d /\ Rabs (snd (sac_iterate m gamma tau final p k q1 q2) s a - L v s a) <= gamma ^ k * d.
Proof.
  intros p v q1 q2 d D [_ E] Hd H1 H2. induction k as [|k IH]; intros s a; [cbn [sac_iterate fst snd pow]; rewrite Rmult_1_l; auto|].
  cbn [sac_iterate fst snd pow]. set (qs := sac_iterate m gamma tau final p k q1 q2) in *. rewrite target_average by exact D. rewrite Rmult_assoc.
  assert (P : 0 <= gamma ^ k * d) by (apply Rmult_le_pos; [apply pow_le; lra|exact Hd]).
  assert (X : Rabs (L (fun s' => avg (p s') (fun a' => Rmin (fst qs s' a') (snd qs s' a'))) s a - L v s a) <= gamma * (gamma ^ k * d)).
  { apply (look_diff m gamma final B G REG); [exact P|]. intros s'. rewrite (E s'). destruct (D s') as [P1 P2]. apply soft_diff; [assumption|assumption|].
    intros a' _. destruct (IH s' a') as [A1 A2]. apply abs_out in A1. apply abs_out in A2. apply abs_in. unfold Rmin. destruct (Rle_dec _ _); lra. }
  split; exact X.
Qed.
Lemma return_converges : forall p v w c, distribution m p -> soft_value m gamma tau final p v -> 0 <= c -> (forall s, Rabs (w s - v s) <= c) -> forall k s, Rabs (soft_return m gamma tau final w p k s - v s) <= gamma ^ k * c.
Proof.
  intros p v w c D [_ E] Hc H. induction k as [|k IH]; intros s; [cbn [soft_return pow]; rewrite Rmult_1_l; auto|].
  cbn [soft_return pow]. rewrite (E s), Rmult_assoc. destruct (D s) as [P1 P2]. apply soft_diff; [assumption|assumption|]. intros a _.
  apply (look_diff m gamma final B G REG); [apply Rmult_le_pos; [apply pow_le; lra|exact Hc]|exact IH].
Qed.

(** ** The best policy *)
Lemma optimal_ex : exists v, soft_optimal m gamma tau final v.
Proof.
  pose proof n_pos' as N. assert (IT : / tau <> 0) by (apply Rinv_neq_0_compat; lra).
  destruct (fixpoint_exists m gamma final B G REG (fun _ => l_operator (DPPL (/ tau))) (Rabs (l_operator (DPPL (/ tau)) (repeat 0 n))) (fun _ => lse_nonexpansive n (/ tau) N IT) ltac:(intros; lra)) as (Q & b & TQ & BQ & F).
  exists (fun s => l_operator (DPPL (/ tau)) (Q s)). split.
  - exists (b + Rabs (l_operator (DPPL (/ tau)) (repeat 0 n))). intros s.
    replace (l_operator (DPPL (/ tau)) (Q s)) with ((l_operator (DPPL (/ tau)) (Q s) - l_operator (DPPL (/ tau)) (repeat 0 n)) + l_operator (DPPL (/ tau)) (repeat 0 n)) by ring.
    eapply Rle_trans; [apply Rabs_triang|]. apply Rplus_le_compat_r. apply (lse_nonexpansive n (/ tau) N IT); [apply TQ|apply repeat_length|]. intros a Ha. rewrite nth_repeat, Rminus_0_r. apply BQ. exact Ha.
  - intros s. rewrite <- (F s) at 1. unfold backup. cbn [l_operator]. rewrite lse_total, tot_map, tot_seq.
    rewrite (below_ext n _ (fun a => exp (L (fun s0 => logsumexp (map (Rmult (/ tau)) (Q s0)) / / tau) s a / tau))) by (intros; f_equal; unfold Rdiv; apply Rmult_comm).
    unfold Rdiv at 1. rewrite Rinv_inv. apply Rmult_comm.
Qed.
Lemma policy_of_optimal : forall v, soft_optimal m gamma tau final v -> distribution m (soft_policy m gamma tau final v) /\ soft_value m gamma tau final (soft_policy m gamma tau final v) v.
Proof.
  intros v [Hb E]. assert (P : forall s a, soft_policy m gamma tau final v s a = boltz (L v s) a) by (intros s a; unfold soft_policy, boltz, soft_max; rewrite <- E; reflexivity). split.
  - intros s. split; [intros a; apply Rlt_le, exp_pos|]. rewrite (below_ext n _ (boltz (L v s))) by (intros; apply P). apply boltz_sum.
  - split; [exact Hb|]. intros s. transitivity (avg (boltz (L v s)) (L v s)); [rewrite boltz_avg; apply E|]. unfold soft_average. apply below_ext. intros a _. rewrite P. reflexivity.
Qed.
Lemma optimal_best : forall v vo p, soft_optimal m gamma tau final vo -> distribution m p -> soft_value m gamma tau final p v -> forall s, v s <= vo s.
Proof.
  intros v vo p [[b' Hb'] E'] D [[b Hb] E]. apply (compare v vo b b' Hb Hb'). intros d Hd HD s. rewrite (E s), (E' s). destruct (D s) as [P1 P2].
  pose proof (soft_mono (p s) (L v s) (L vo s) (gamma * d) P1 P2 ltac:(intros a _; apply (look_mono m gamma final B G REG); assumption)).
  pose proof (proj1 (gibbs_soft (p s) (L vo s) P1 P2)). unfold soft_max in *. lra.
Qed.
Lemma optimal_one : forall v v', soft_optimal m gamma tau final v -> soft_optimal m gamma tau final v' -> forall s, v s = v' s.
Proof.
  intros v v' H H' s. destruct (policy_of_optimal v H) as [D V]. destruct (policy_of_optimal v' H') as [D' V'].
  apply Rle_antisym; [exact (optimal_best v v' _ H' D V s)|exact (optimal_best v' v _ H D' V' s)].
Qed.
Lemma stationary_optimal : forall p v, distribution m p -> soft_value m gamma tau final p v ->
  (forall s r, (forall a, 0 <= r a) -> sum_below n r = 1 -> sac_state_loss m tau (p s) (L v s) <= sac_state_loss m tau r (L v s)) ->
  soft_optimal m gamma tau final v /\ forall s a, (a < n)%nat -> p s a = soft_policy m gamma tau final v s a.
Proof.
  intros p v D [Hb E] H.
  assert (NEG : forall r q, sac_state_loss m tau r q = - avg r q).
  { intros r q. unfold sac_state_loss, soft_average. replace (- sum_below n (fun a => r a * (q a - tau * ln (r a)))) with (-1 * sum_below n (fun a => r a * (q a - tau * ln (r a)))) by ring. rewrite <- below_scale. apply below_ext. intros. ring. }
  assert (M : forall s, v s = soft_max (L v s)).
  { intros s. destruct (D s) as [P1 P2]. specialize (H s (boltz (L v s)) ltac:(intros; apply Rlt_le, exp_pos) (boltz_sum _)). rewrite !NEG, boltz_avg, <- (E s) in H.
    pose proof (proj1 (gibbs_soft (p s) (L v s) P1 P2)) as Up. rewrite <- (E s) in Up. lra. }
  split; [split; [exact Hb|exact M]|]. intros s a Ha. destruct (D s) as [P1 P2]. pose proof (proj2 (gibbs_soft (p s) (L v s) P1 P2) ltac:(rewrite <- (E s); apply M) a Ha) as X. rewrite X. unfold boltz, soft_policy. rewrite <- M. reflexivity.
Qed.

(** ** Path consistency *)
Variable c : pconf.
Hypothesis CG : pc_gamma c = gamma.
Hypothesis CT : pc_tau c = tau.
Hypothesis CR : (1 <= pc_rollout c)%nat.
Hypothesis CP : 0 <= pc_pi_coef c.
Hypothesis CV : 0 <= pc_v_coef c.
Hypothesis CS : 0 < pc_pi_coef c + pc_v_coef c.
Notation data p v := (own_data (pcl_model p v)).
Definition step_error (d : pdata) : R := - pd_v d + gamma * pd_nv d + pd_r d - tau * pd_lp d.
Lemma telescope : forall ds d t, (forall i, (i < length ds)%nat -> step_error (nth_data ds i) = 0) -> (forall i, (S i < length ds)%nat -> pd_v (nth_data ds (S i)) = pd_nv (nth_data ds i)) ->
  (t + S d <= length ds)%nat -> sum_below (S d) (fun i => gamma ^ i * (pd_r (nth_data ds (t + i)) - tau * pd_lp (nth_data ds (t + i)))) = pd_v (nth_data ds t) - gamma ^ S d * pd_nv (nth_data ds (t + d)).
Proof.
  intros ds d t H1 H2. induction d as [|d IH]; intros Hd.
  - cbn [sum_below pow]. rewrite Nat.add_0_r. pose proof (H1 t ltac:(lia)) as E. unfold step_error in E. lra.
  - cbn [sum_below] in IH |- *. rewrite IH by lia. pose proof (H1 (t + S d)%nat ltac:(lia)) as E. unfold step_error in E.
    pose proof (H2 (t + d)%nat ltac:(lia)) as C2. replace (S (t + d)) with (t + S d)%nat in C2 by lia. rewrite <- C2. cbn [pow].
    replace (pd_r (nth_data ds (t + S d)) - tau * pd_lp (nth_data ds (t + S d))) with (pd_v (nth_data ds (t + S d)) - gamma * pd_nv (nth_data ds (t + S d))) by lra. ring.
Qed.
Lemma run_chain : forall p v l, run_of m final l -> forall i, (S i < length (map (data p v) l))%nat -> pd_v (nth_data (map (data p v) l) (S i)) = pd_nv (nth_data (map (data p v) l) i).
Proof.
  intros p v. induction l as [|x l IH]; intros H i Hi; [cbn in Hi; lia|]. destruct H as (_ & _ & J & Hl). destruct l as [|y l]; [cbn in Hi; lia|]. destruct J as [JT JS].
  destruct i as [|i]; [|apply (IH Hl i); cbn in Hi |- *; lia]. unfold nth_data. cbn [map nth own_data pd_v pd_nv]. rewrite JT, JS. reflexivity.
Qed.
Lemma run_step : forall l i x, run_of m final l -> nth_error l i = Some x -> (pt_action x < n)%nat /\
  exists z, In z (outcomes m (pt_state x) (pt_action x)) /\ 0 < o_prob z /\ pt_reward x = o_reward z /\ pt_next x = arrives final z /\ pt_terminal x = ended z.
Proof. induction l as [|y l IH]; intros [|i] x H E; try discriminate E; destruct H as (A & Z & _ & Hl); [injection E as <-; split; assumption|exact (IH i x Hl E)]. Qed.
Lemma det_look : forall v s a r next, outcomes m s a = [(1, r, next)] -> L v s a = r + gamma * (if ended (1, r, next) then 0 else v (arrives final (1, r, next))).
Proof. intros v s a r next E. unfold lookahead. rewrite E. unfold total_of. cbn [fold_right]. unfold td_row, o_prob, o_reward. cbn [fst snd]. destruct (ended (1, r, next)); cbn [terminal_flag]; ring. Qed.
Lemma consistent_paths : forall p v, (forall s a, (a < n)%nat -> 0 < p s a) -> distribution m p -> deterministic m -> (exists b, forall s, Rabs (v s) <= b) ->
  ((forall l, l <> [] -> run_of m final l -> p_loss c (map (data p v) l) = Ok 0) <-> soft_optimal m gamma tau final v /\ forall s a, (a < n)%nat -> p s a = soft_policy m gamma tau final v s a).
Proof.
  intros p v PP D DET Hb.
  assert (ZL : forall l, l <> [] -> (p_loss c (map (data p v) l) = Ok 0 <-> forall t, (t < length l)%nat -> consistency_error c (map (data p v) l) t = 0)).
  { intros l Hl. destruct (@zero_loss_lemma c (map (data p v) l) CR) as (y & E & _ & I); [destruct l; [contradiction|discriminate]|rewrite CT; exact TAU|exact CP|exact CV|exact CS|].
    rewrite map_length in I. rewrite E. split; [intros H; injection H as ->; apply I; reflexivity|intros H; f_equal; apply I; exact H]. }
  split.
  - intros H.
    assert (ONE : forall s a, (a < n)%nat -> v s = L v s a - tau * ln (p s a)).
    { intros s a Ha. destruct (DET s a) as (r & next & E). set (x := PTrans s a r (arrives final (1, r, next)) (ended (1, r, next))).
      specialize (H [x] ltac:(discriminate)). assert (R1 : run_of m final [x]).
      { cbn [run_of x pt_action pt_state]. split; [exact Ha|]. split; [|split; exact I]. exists (1, r, next). rewrite E. repeat split; [left; reflexivity|cbn; lra]. }
      specialize (H R1). apply (proj1 (ZL [x] ltac:(discriminate))) with (t := 0%nat) in H; [|cbn; lia].
      unfold consistency_error in H. cbn [map length] in H. replace (Nat.min (1 - 0) (pc_rollout c)) with 1%nat in H by (destruct (pc_rollout c); cbn; lia).
      unfold nth_data in H. cbn [sum_below Nat.add Nat.sub nth pow own_data pd_v pd_nv pd_r pd_lp pcl_model fst snd] in H. rewrite CG, CT in H.
      rewrite (det_look v s a r next E). unfold x in H. cbn [pt_state pt_action pt_reward pt_next pt_terminal] in H. lra. }
    assert (EX : forall s a, (a < n)%nat -> p s a = soft_policy m gamma tau final v s a).
    { intros s a Ha. unfold soft_policy. rewrite (ONE s a Ha). replace ((L v s a - (L v s a - tau * ln (p s a))) / tau) with (ln (p s a)) by (field; lra). rewrite exp_ln by (apply PP; exact Ha). reflexivity. }
    split; [|exact EX]. split; [exact Hb|]. intros s. destruct (D s) as [_ P2].
    assert (Z : sum_below n (fun a => exp (L v s a / tau)) = exp (v s / tau)).
    { rewrite <- (Rmult_1_r (exp (v s / tau))), <- P2, <- below_scale. apply below_ext. intros a Ha. rewrite EX by exact Ha. unfold soft_policy. rewrite <- exp_plus. f_equal. field. lra. }
    rewrite Z, ln_exp. field. lra.
  - intros [[_ E] EX] l Hl Hr. apply ZL; [exact Hl|]. intros t Ht. unfold consistency_error. cbv zeta.
    assert (Len : length (map (data p v) l) = length l) by apply map_length.
    assert (S1 : forall i, (i < length (map (data p v) l))%nat -> step_error (nth_data (map (data p v) l) i) = 0).
    { intros i Hi. rewrite Len in Hi. destruct (nth_error l i) as [x|] eqn:En; [|apply nth_error_None in En; lia].
      unfold nth_data. rewrite (nth_indep _ _ (data p v x)) by lia. rewrite map_nth. rewrite (nth_error_nth l i x En).
      destruct (run_step l i x Hr En) as (Ha & z & Iz & _ & Z1 & Z2 & Z3). destruct (DET (pt_state x) (pt_action x)) as (r & next & Eo). rewrite Eo in Iz. destruct Iz as [<-|[]].
      unfold step_error. cbn [own_data pd_v pd_nv pd_r pd_lp pcl_model fst snd]. rewrite EX by exact Ha. unfold soft_policy. rewrite ln_exp, (det_look v _ _ r next Eo), Z1, Z2, Z3. unfold o_reward. cbn [fst snd]. field. lra. }
    rewrite CG, CT. set (ds := map (data p v) l) in *. set (d := Nat.min (length ds - t) (pc_rollout c)).
    assert (Hd : exists d', d = S d' /\ (t + S d' <= length ds)%nat) by (unfold d; destruct (pc_rollout c) as [|k]; [lia|]; destruct (length ds - t)%nat as [|j] eqn:Ej; [lia|]; exists (Nat.min j k); split; [reflexivity|lia]).
    destruct Hd as (d' & -> & Hd). rewrite (telescope ds d' t S1 (run_chain p v l Hr) Hd). replace (t + S d' - 1)%nat with (t + d')%nat by lia. ring.
Qed.
End S.

Lemma coin_refutes : forall c p v, (1 <= pc_rollout c)%nat -> 0 < pc_tau c -> 0 <= pc_pi_coef c -> 0 <= pc_v_coef c -> 0 < pc_pi_coef c + pc_v_coef c ->
  ~ forall l, l <> [] -> run_of coin_mdp tt l -> p_loss c (map (own_data (pcl_model p v)) l) = Ok 0.
Proof.
  intros c p v CR CT CP CV CS H.
  assert (K : forall r, (r = 1 \/ r = -1) -> - v tt + r - pc_tau c * ln (p tt 0%nat) = 0).
  { intros r Hr. set (x := PTrans tt 0%nat r tt true). specialize (H [x] ltac:(discriminate)).
    assert (R1 : run_of coin_mdp tt [x]).
    { cbn [run_of x pt_action pt_state pt_reward pt_next pt_terminal]. split; [cbn; lia|]. split; [|split; exact I]. exists (1 / 2, r, None). unfold o_prob. cbn. repeat split; [destruct Hr as [-> | ->]; auto|lra]. }
    specialize (H R1). destruct (@zero_loss_lemma c (map (own_data (pcl_model p v)) [x]) CR ltac:(discriminate) CT CP CV CS) as (y & E & _ & Iy).
    rewrite E in H. injection H as ->. pose proof (proj1 Iy eq_refl 0%nat ltac:(cbn; lia)) as Z. unfold consistency_error in Z. cbn [map length] in Z.
    replace (Nat.min (1 - 0) (pc_rollout c)) with 1%nat in Z by (destruct (pc_rollout c); cbn; lia). unfold nth_data, x in Z.
    cbn [sum_below Nat.add Nat.sub nth pow own_data pd_v pd_nv pd_r pd_lp pcl_model fst snd pt_state pt_action pt_reward pt_next pt_terminal] in Z. lra. }
  pose proof (K 1 ltac:(auto)). pose proof (K (-1) ltac:(auto)). lra.
Qed.
