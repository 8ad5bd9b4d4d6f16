(** Proofs about the gradients of DQN and ResidualDQN. *)
From Coq Require Import Reals List Arith Bool Lia Lra.
From Verif Require Import Base.PyBase Model.Distributions Model.ReplayUpdater Model.Targets Model.GradFunctions Model.Residual Spec.SumSpec Spec.TargetSpec Spec.PolicyGradientSpec Spec.BellmanSpec Spec.ResidualSpec.
From Verif Require Import Proofs.RSumFacts Proofs.PPOLossProofs Proofs.PolicyGradientProofs Proofs.BellmanProofs Proofs.NStepLearningProofs.
Import ListNotations.
Local Open Scope R_scope.

(** Losses of rows. *)
Definition hub (d : R) : R := if Rle_dec (Rabs d) 1 then / 2 * Rabs d ^ 2 else 1 * (Rabs d - / 2 * 1).
Definition hub_slope (d : R) : R := Rmax (-1) (Rmin 1 d).
Lemma hub_cases : forall d, (-1 <= d <= 1 /\ hub d = d * d / 2 /\ hub_slope d = d) \/ (1 < d /\ hub d = d - / 2 /\ hub_slope d = 1) \/ (d < -1 /\ hub d = - d - / 2 /\ hub_slope d = -1).
Proof.
  intros d. unfold hub, hub_slope, Rmax, Rmin, Rabs. destruct (Rcase_abs d); destruct (Rle_dec _ 1); destruct (Rle_dec 1 d); destruct (Rle_dec _ _); try lra.
Qed.
Lemma hub_deriv : forall d, derivable_pt_lim hub d (hub_slope d).
Proof.
  intros d eps He. assert (D : 0 < 2 * eps) by lra. exists (mkposreal _ D). intros h Hh Hs. cbn [pos] in Hs.
  assert (K : 0 <= hub (d + h) - hub d - h * hub_slope d <= h * h / 2).
  { destruct (hub_cases d) as [(A & -> & ->)|[(A & -> & ->)|(A & -> & ->)]]; destruct (hub_cases (d + h)) as [(B & -> & _)|[(B & -> & _)|(B & -> & _)]]; nra. }
  replace ((hub (d + h) - hub d) / h - hub_slope d) with ((hub (d + h) - hub d - h * hub_slope d) / h) by (field; assumption).
  unfold Rdiv. rewrite Rabs_mult, Rabs_inv, (Rabs_pos_eq (_ - _)) by lra. assert (P : 0 < Rabs h) by (apply Rabs_pos_lt; assumption).
  apply (Rmult_lt_reg_r (Rabs h)); [assumption|]. rewrite Rmult_assoc, Rinv_l, Rmult_1_r by lra. assert (S : h * h = Rabs h * Rabs h) by (unfold Rabs; destruct (Rcase_abs h); ring). nra.
Qed.
Lemma row_deriv : forall clip (y t : R -> R) x dy dt, derivable_pt_lim y x dy -> derivable_pt_lim t x dt ->
  derivable_pt_lim (fun th => row_loss clip (y th) (t th)) x (loss_slope clip (y x) (t x) * (dy - dt)).
Proof.
  intros clip y t x dy dt Hy Ht. pose proof (derivable_pt_lim_minus y t x dy dt Hy Ht) as HD. destruct clip; cbn [row_loss loss_slope].
  - exact (derivable_pt_lim_comp (y - t)%F hub x (dy - dt) (hub_slope (y x - t x)) HD (hub_deriv _)).
  - apply (deriv_local _ (fun th => / 2 * ((y - t)%F th * (y - t)%F th)) x _ 1); [lra|intros; unfold minus_fct; field|].
    replace ((y x - t x) * (dy - dt)) with (/ 2 * ((dy - dt) * (y - t)%F x + (y - t)%F x * (dy - dt))) by (unfold minus_fct; field).
    apply (derivable_pt_lim_scal (mult_fct (y - t)%F (y - t)%F)). apply derivable_pt_lim_mult; assumption.
Qed.

(** Maxima. *)
Lemma near_all : forall n (P : nat -> R -> Prop), (forall a, (a < n)%nat -> exists d, 0 < d /\ forall x, Rabs x < d -> P a x) -> exists d, 0 < d /\ forall a x, (a < n)%nat -> Rabs x < d -> P a x.
Proof.
  induction n as [|n IH]; intros P H; [exists 1; split; [lra|intros; lia]|]. destruct (IH P) as (d & D1 & D2); [intros; apply H; lia|]. destruct (H n ltac:(lia)) as (e & E1 & E2).
  exists (Rmin d e). split; [apply Rmin_pos; assumption|]. intros a x Ha Hx. pose proof (Rmin_l d e). pose proof (Rmin_r d e). destruct (Nat.eq_dec a n) as [->|]; [apply E2; lra|apply D2; [lia|lra]].
Qed.
Lemma positive_near : forall f x l, derivable_pt_lim f x l -> 0 < f x -> exists d, 0 < d /\ forall h, Rabs h < d -> 0 < f (x + h).
Proof.
  intros f x l D P. assert (C : continuity_pt f x) by (apply derivable_continuous_pt; exists l; exact D). destruct (C (f x) P) as (d & D1 & D2). exists d. split; [exact D1|]. intros h Hh.
  destruct (Req_dec h 0) as [->|N]; [rewrite Rplus_0_r; assumption|]. specialize (D2 (x + h)). cbn in D2. unfold R_dist in D2. replace (x + h - x) with h in D2 by ring.
  assert (Z : Rabs (f (x + h) - f x) < f x) by (apply D2; split; [split; [exact I|lra]|assumption]). apply Rabs_def2 in Z. lra.
Qed.
Lemma max_deriv : forall (f : R -> list R) (df : list R) x, (forall th, length (f th) = length df) -> (forall a, derivable_pt_lim (fun th => nth a (f th) 0) x (nth a df 0)) -> clear_choice (f x) ->
  derivable_pt_lim (fun th => q_maximum (f th)) x (nth (q_greedy (f x)) df 0).
Proof.
  intros f df x L D [NE C]. set (g := q_greedy (f x)). destruct (greedy_row (f x) NE) as (G1 & G2 & _). fold g in G1, G2. rewrite L in G1.
  destruct (near_all (length df) (fun a h => a <> g -> nth a (f (x + h)) 0 < nth g (f (x + h)) 0)) as (d & D1 & D2).
  - intros a Ha. destruct (Nat.eq_dec a g) as [->|N]; [exists 1; split; [lra|intros; congruence]|].
    destruct (positive_near (fun th => nth g (f th) 0 - nth a (f th) 0) x (nth g df 0 - nth a df 0)) as (d & D1 & D2).
    + apply derivable_pt_lim_minus; apply D.
    + rewrite G2. specialize (C a). rewrite L in C. specialize (C Ha N). lra.
    + exists d. split; [exact D1|]. intros h Hh _. specialize (D2 h Hh). lra.
  - apply (deriv_local _ (fun th => nth g (f th) 0) x _ d D1); [|apply D]. intros th Hth.
    assert (NE' : f th <> []) by (intros E; specialize (L th); rewrite E in L; cbn in L; lia). destruct (greedy_row (f th) NE') as (K1 & K2 & K3). rewrite L in K1, K3. rewrite <- K2.
    destruct (Nat.eq_dec (q_greedy (f th)) g) as [->|N]; [reflexivity|]. exfalso. specialize (D2 _ (th - x) K1 Hth N). replace (x + (th - x)) with th in D2 by ring. specialize (K3 g G1). lra.
Qed.
Lemma deriv_sum : forall X (l : list X) (f : R -> X -> R) (d : X -> R) x, (forall i, In i l -> derivable_pt_lim (fun t => f t i) x (d i)) -> derivable_pt_lim (fun t => total_of (f t) l) x (total_of d l).
Proof.
  intros X l f d x. induction l as [|i l IH]; intros H; [exact (derivable_pt_lim_const 0 x)|].
  apply (derivable_pt_lim_plus (fun t => f t i) (fun t => total_of (f t) l)); [apply H; left; reflexivity|apply IH; intros; apply H; right; assumption].
Qed.

(** Batches. *)
Section Batch.
Context {S' : Type}.
Lemma zip_map : forall X (h : R -> R -> R) (f g : X -> R) l, fsum (zipr h (map f l) (map g l)) = total_of (fun x => h (f x) (g x)) l.
Proof. induction l as [|x l IH]; [reflexivity|]. unfold fsum in *. cbn in *. rewrite IH. reflexivity. Qed.
Lemma zip_of_map : forall X (h : R -> R -> R) (f g : X -> R) l, zipr h (map f l) (map g l) = map (fun x => h (f x) (g x)) l.
Proof. induction l as [|x l IH]; [reflexivity|]. cbn in *. rewrite IH. reflexivity. Qed.
Lemma loss_total : forall clip weighted acc (q q' : S' -> list R) xs, xs <> [] -> batch_loss clip weighted acc q q' xs =
  total_of (fun x => (if weighted then rw_weight x else 1) * row_loss clip (predicted q x) (target q' x)) xs * (match acc with Mean => / INR (length xs) | Sum => 1 end).
Proof.
  intros clip weighted acc q q' xs NE. assert (N : INR (length xs) <> 0) by (apply not_0_INR; destruct xs; [contradiction|discriminate]). unfold batch_loss. destruct weighted.
  - unfold compute_weighted_value_loss. rewrite zip_of_map, zip_map, map_length. rewrite (tot_ext _ (fun x => rw_weight x * row_loss clip (predicted q x) (target q' x))) by (intros; ring). destruct acc; [reflexivity|ring].
  - unfold compute_value_loss. rewrite map_length. destruct clip.
    + rewrite zip_map. rewrite (tot_ext _ (fun x => 1 * row_loss true (predicted q x) (target q' x))) by (intros; cbn [row_loss]; ring). destruct acc; [reflexivity|ring].
    + rewrite zip_map. rewrite (tot_ext _ (fun x => 2 * (1 * row_loss false (predicted q x) (target q' x)))) by (intros; cbn [row_loss]; field). rewrite tot_scale. destruct acc; field; assumption.
Qed.
Variable q : R -> S' -> list R.
Variable dq : S' -> list R.
Variable theta0 : R.
Hypothesis D : network_derivative q theta0 dq.
Lemma target_deriv : forall c x, rw_discount x * (1 - terminal_flag (rw_terminal x)) = 0 \/ clear_choice (q theta0 (rw_next x)) ->
  derivable_pt_lim (fun th => target (q (theta0 + c * (th - theta0))) x) theta0 (rw_discount x * (1 - terminal_flag (rw_terminal x)) * (c * nth (q_greedy (q theta0 (rw_next x))) (dq (rw_next x)) 0)).
Proof.
  intros c x H. unfold target, td_row. set (k := rw_discount x * (1 - terminal_flag (rw_terminal x))) in *. destruct H as [H|H].
  - apply (deriv_local _ (fun _ => rw_reward x) theta0 _ 1); [lra|intros; rewrite H; ring|]. rewrite H, Rmult_0_l. apply derivable_pt_lim_const.
  - set (u := fun th => theta0 + c * (th - theta0)).
    assert (U : derivable_pt_lim u theta0 c).
    { apply (deriv_local _ (fun th => (theta0 - c * theta0) + c * th) theta0 _ 1); [lra|intros; unfold u; ring|]. assert (EC : c = 0 + c * 1) by ring. match goal with |- derivable_pt_lim ?f ?x _ => enough (W : derivable_pt_lim f x (0 + c * 1)) by (rewrite <- EC in W; exact W) end.
      apply (derivable_pt_lim_plus (fun _ => theta0 - c * theta0) (fun th => c * th)); [apply derivable_pt_lim_const|]. apply (derivable_pt_lim_scal (fun th => th)). apply derivable_pt_lim_id. }
    assert (U0 : u theta0 = theta0) by (unfold u; ring).
    assert (M : derivable_pt_lim (fun th => q_maximum (q (u th) (rw_next x))) theta0 (c * nth (q_greedy (q theta0 (rw_next x))) (dq (rw_next x)) 0)).
    { rewrite Rmult_comm. apply (derivable_pt_lim_comp u (fun th => q_maximum (q th (rw_next x)))); [exact U|]. rewrite U0. apply max_deriv; [apply D|apply D|exact H]. }
    replace (k * _) with (0 + k * (c * nth (q_greedy (q theta0 (rw_next x))) (dq (rw_next x)) 0)) by ring.
    apply (derivable_pt_lim_plus (fun _ => rw_reward x) (fun th => k * q_maximum (q (u th) (rw_next x)))); [apply derivable_pt_lim_const|]. apply (derivable_pt_lim_scal (fun th => q_maximum (q (u th) (rw_next x)))). exact M.
Qed.
Lemma row_gradient_deriv : forall clip c x, rw_discount x * (1 - terminal_flag (rw_terminal x)) = 0 \/ clear_choice (q theta0 (rw_next x)) ->
  derivable_pt_lim (fun th => row_loss clip (predicted (q th) x) (target (q (theta0 + c * (th - theta0))) x)) theta0 (row_gradient clip c (q theta0) dq x).
Proof.
  intros clip c x H. pose proof (target_deriv c x H) as T. assert (Y : derivable_pt_lim (fun th => predicted (q th) x) theta0 (nth (rw_action x) (dq (rw_state x)) 0)) by (unfold predicted, q_evaluate; apply D).
  pose proof (row_deriv clip _ _ _ _ _ Y T) as R0. cbv beta in R0. replace (theta0 + c * (theta0 - theta0)) with theta0 in R0 by ring.
  unfold row_gradient, target_backward. cbv zeta. cbn [scale_grad_backward map]. unfold fsum. cbn [fold_right].
  set (g := loss_slope clip _ _) in *. match type of R0 with derivable_pt_lim _ _ ?e => match goal with |- derivable_pt_lim _ _ ?e' => assert (EE : e' = e) end end; [|rewrite EE; exact R0]. ring.
Qed.
Lemma batch_gradient_deriv : forall clip c weighted acc xs, xs <> [] ->
  (forall x, In x xs -> rw_discount x * (1 - terminal_flag (rw_terminal x)) = 0 \/ clear_choice (q theta0 (rw_next x))) ->
  derivable_pt_lim (fun th => batch_loss clip weighted acc (q th) (q (theta0 + c * (th - theta0))) xs) theta0 (batch_gradient clip c weighted acc (q theta0) dq xs).
Proof.
  intros clip c weighted acc xs NE H. set (k := match acc with Mean => / INR (length xs) | Sum => 1 end).
  apply (deriv_local _ (fun th => k * total_of (fun x => (if weighted then rw_weight x else 1) * row_loss clip (predicted (q th) x) (target (q (theta0 + c * (th - theta0))) x)) xs) theta0 _ 1); [lra|intros; rewrite loss_total by assumption; fold k; ring|].
  assert (E : batch_gradient clip c weighted acc (q theta0) dq xs = k * total_of (fun x => (if weighted then rw_weight x else 1) * row_gradient clip c (q theta0) dq x) xs).
  { unfold batch_gradient, fsum. rewrite tot_fold. destruct acc; unfold k; [unfold Rdiv; ring|ring]. }
  rewrite E. apply (derivable_pt_lim_scal (fun th => total_of (fun x => (if weighted then rw_weight x else 1) * row_loss clip (predicted (q th) x) (target (q (theta0 + c * (th - theta0))) x)) xs)).
  apply (deriv_sum _ xs (fun th x => (if weighted then rw_weight x else 1) * row_loss clip (predicted (q th) x) (target (q (theta0 + c * (th - theta0))) x)) (fun x => (if weighted then rw_weight x else 1) * row_gradient clip c (q theta0) dq x)).
  intros x Hx. apply (derivable_pt_lim_scal (fun th => row_loss clip (predicted (q th) x) (target (q (theta0 + c * (th - theta0))) x))). apply row_gradient_deriv. apply H. assumption.
Qed.
End Batch.

(** Averages. *)
Section A.
Context {St : Type}.
Variable m : mdp St.
Variable gamma : R.
Variable final : St.
Variable B : R.
Hypothesis G : 0 <= gamma < 1.
Hypothesis REG : regular m B.
Notation n := (n_actions m).
Notation L := (lookahead m gamma final).
Notation best Q := (fun s' => q_maximum (Q s')).
Lemma objective : forall Q s a, average_loss m gamma final false Q s a = (nth a (Q s) 0 - L (best Q) s a) ^ 2 / 2 + variance m gamma final Q s a / 2.
Proof.
  intros Q s a. unfold average_loss. cbn [row_loss]. unfold predicted, q_evaluate. cbn [outcome_row rw_state rw_action].
  rewrite (mean_square _ o_prob (fun z => target Q (outcome_row gamma final s a z)) (outcomes m s a) (nth a (Q s) 0) (prob_one m B REG s a)).
  change (total_of (fun z => o_prob z * target Q (outcome_row gamma final s a z)) (outcomes m s a)) with (L (best Q) s a). f_equal. unfold variance. 
  unfold Rdiv. rewrite (Rmult_comm (total_of _ _)), <- tot_scale. apply tot_ext. intros. ring.
Qed.
Lemma variance_nonneg : forall Q s a, 0 <= variance m gamma final Q s a.
Proof. intros Q s a. unfold variance. apply tot_nonneg. intros z Hz. apply Rmult_le_pos; [apply (prob_nonneg m B REG s a z Hz)|apply pow2_ge_0]. Qed.
Lemma residual_bound : forall v Q b eps s a, optimal_value m gamma final v -> table m Q -> bounded m b Q -> 0 <= eps ->
  (forall s a, (a < n)%nat -> average_loss m gamma final false Q s a <= eps ^ 2 / 2) -> (a < n)%nat -> Rabs (nth a (Q s) 0 - L v s a) <= eps / (1 - gamma).
Proof.
  intros v Q b eps s a OV TQ BQ He H Ha. destruct OV as [[c VB] OV].
  assert (R1 : forall s a, (a < n)%nat -> Rabs (nth a (Q s) 0 - L (best Q) s a) <= eps).
  { intros s0 a0 Ha0. specialize (H s0 a0 Ha0). rewrite objective in H. pose proof (variance_nonneg Q s0 a0). set (x := nth a0 (Q s0) 0 - L (best Q) s0 a0) in *. apply abs_in. cbn [pow] in H. rewrite !Rmult_1_r in H. split; nra. }
  apply (settle (fun d => forall s a, (a < n)%nat -> Rabs (nth a (Q s) 0 - L v s a) <= d) gamma eps (b + (B + gamma * c))); [exact G|exact He| | | |].
  - pose proof (BQ s a Ha). pose proof (Rabs_pos (nth a (Q s) 0)). pose proof (look_bounded m gamma final B G REG v c VB s a). pose proof (Rabs_pos (L v s a)). lra.
  - intros s0 a0 Ha0. pose proof (BQ s0 a0 Ha0) as H1. pose proof (look_bounded m gamma final B G REG v c VB s0 a0) as H2. apply abs_out in H1. apply abs_out in H2. apply abs_in. lra.
  - intros d Hd HD s0 a0 Ha0. replace (nth a0 (Q s0) 0 - L v s0 a0) with ((L (best Q) s0 a0 - L v s0 a0) + (nth a0 (Q s0) 0 - L (best Q) s0 a0)) by ring. eapply Rle_trans; [apply Rabs_triang|]. apply Rplus_le_compat; [|apply R1; assumption].
    apply (look_diff m gamma final B G REG); [assumption|]. intros s1. destruct (row_max m B REG Q s1 TQ) as (a1 & Ha1 & E1 & M1). destruct (OV s1) as [O1 (a2 & Ha2 & E2)].
    pose proof (HD s1 a1 Ha1) as K1. pose proof (HD s1 a2 Ha2) as K2. apply abs_out in K1. apply abs_out in K2. specialize (M1 a2 Ha2). specialize (O1 a1 Ha1). apply abs_in. lra.
  - intros d HD. apply HD. assumption.
Qed.
Lemma zero_loss : forall v Q b, deterministic m -> optimal_value m gamma final v -> table m Q -> bounded m b Q ->
  ((forall s a, (a < n)%nat -> average_loss m gamma final false Q s a = 0) <-> (forall s a, (a < n)%nat -> nth a (Q s) 0 = L v s a)).
Proof.
  intros v Q b DT OV TQ BQ. split; intros H s a Ha.
  - pose proof (residual_bound v Q b 0 s a OV TQ BQ (Rle_refl 0)) as K. assert (Rabs (nth a (Q s) 0 - L v s a) <= 0 / (1 - gamma)) as K' by (apply K; [intros; rewrite H by assumption; lra|assumption]).
    unfold Rdiv in K'. rewrite Rmult_0_l in K'. apply abs_out in K'. lra.
  - assert (V : forall s, q_maximum (Q s) = v s).
    { intros s0. destruct (row_max m B REG Q s0 TQ) as (a1 & Ha1 & E1 & M1). destruct (proj2 OV s0) as [O1 (a2 & Ha2 & E2)]. specialize (M1 a2 Ha2). specialize (O1 a1 Ha1). rewrite <- (H s0 a1 Ha1) in O1. rewrite <- (H s0 a2 Ha2) in E2. lra. }
    rewrite objective. assert (E : L (best Q) s a = L v s a) by (unfold lookahead; apply tot_ext; intros z _; rewrite V; reflexivity). rewrite (H s a Ha), <- E. 
    unfold variance. destruct (DT s a) as (z & EZ). pose proof (prob_one m B REG s a) as P1. unfold lookahead. rewrite EZ in *. cbn [total_of fold_right map] in *. unfold total_of in *. cbn in *. unfold target. cbn.
    assert (P : o_prob z = 1) by lra. rewrite P. field.
Qed.
Lemma slope_average : forall Q dQ s a, (a < n)%nat -> nth a (Q s) 0 = L (best Q) s a -> average_gradient m gamma final false 0 Q dQ s a = 0.
Proof.
  intros Q dQ s a Ha E. unfold average_gradient, row_gradient, target_backward. cbn [loss_slope scale_grad_backward map]. unfold fsum. cbn [fold_right]. unfold predicted, q_evaluate. cbn [outcome_row rw_state rw_action rw_next rw_discount rw_terminal].
  rewrite (tot_ext _ (fun z => nth a (dQ s) 0 * (nth a (Q s) 0 * o_prob z - o_prob z * target Q (outcome_row gamma final s a z)))) by (intros; ring). rewrite tot_scale, tot_sub, tot_scale, (prob_one m B REG s a).
  change (total_of (fun z => o_prob z * target Q (outcome_row gamma final s a z)) (outcomes m s a)) with (L (best Q) s a). rewrite <- E. ring.
Qed.
Lemma clipped_average : forall Q dQ s a, (a < n)%nat -> nth a (Q s) 0 = L (best Q) s a -> (forall z, In z (outcomes m s a) -> Rabs (nth a (Q s) 0 - target Q (outcome_row gamma final s a z)) <= 1) ->
  average_gradient m gamma final true 0 Q dQ s a = 0.
Proof.
  intros Q dQ s a Ha E H. eapply eq_trans; [|exact (slope_average Q dQ s a Ha E)]. unfold average_gradient. apply tot_ext. intros z Hz. f_equal. unfold row_gradient. cbv zeta.
  assert (SL : loss_slope true (predicted Q (outcome_row gamma final s a z)) (target Q (outcome_row gamma final s a z)) = loss_slope false (predicted Q (outcome_row gamma final s a z)) (target Q (outcome_row gamma final s a z))).
  { unfold predicted, q_evaluate. cbn [loss_slope outcome_row rw_state rw_action]. specialize (H z Hz). apply abs_out in H. unfold outcome_row in *. rewrite Rmin_right, Rmax_right by lra. reflexivity. }
  rewrite SL. reflexivity.
Qed.
End A.
Lemma single_max : forall x, q_maximum [x] = x. Proof. reflexivity. Qed.
Lemma single_greedy : forall x : R, q_greedy [x] = 0%nat. Proof. reflexivity. Qed.
Lemma chance : forall gamma, 0 < gamma < 1 -> let Qs := chance_values (gamma / 2) 1 0 in
  regular chance_mdp 1 /\ table chance_mdp Qs /\ (forall s, backup chance_mdp gamma 0%nat (fun _ => q_maximum) Qs s = Qs s) /\
  (exists Q, table chance_mdp Q /\ sum_below 3 (fun s => average_loss chance_mdp gamma 0%nat false Q s 0) < sum_below 3 (fun s => average_loss chance_mdp gamma 0%nat false Qs s 0)) /\
  forall c, c <> 0 -> sum_below 3 (fun s => average_gradient chance_mdp gamma 0%nat false c Qs (chance_values 0 1 0) s 0) <> 0.
Proof.
  intros gamma G Qs. split; [|split; [|split; [|split]]].
  - split; [intros [|[|s]] a; cbn; unfold o_prob; cbn; lra|split; [cbn; lia|]].
    intros [|[|s]] a z Hz; cbn in Hz; repeat (destruct Hz as [<-|Hz]); try contradiction; unfold o_prob, o_reward; cbn; rewrite ?Rabs_R0, ?Rabs_R1; lra.
  - intros [|[|s]]; reflexivity.
  - intros [|[|s]]; unfold backup, lookahead, Qs; cbn; unfold o_prob, o_reward, td_row; cbn; rewrite ?single_max; f_equal; unfold q_maximum, q_evaluate; cbn; field.
  - exists (chance_values (gamma / 2) (1 - gamma ^ 2 / 4) (gamma ^ 2 / 4)). split; [intros [|[|s]]; reflexivity|].
    unfold average_loss, Qs, predicted, target, td_row. cbn. unfold o_prob, o_reward, q_maximum, q_evaluate. cbn. assert (0 < gamma * gamma < 1) by nra. nra.
  - intros c Hc. unfold average_gradient, row_gradient, Qs, target_backward, predicted, target, td_row, fsum. cbn. unfold o_prob, o_reward, q_maximum, q_evaluate. cbn. unfold fsum. cbn.
    match goal with |- ?x <> 0 => replace x with (c * (gamma * gamma) / 4) by field end. intros E. assert (Z : c * (gamma * gamma) = 0) by lra. apply Rmult_integral in Z. destruct Z as [Z|Z]; [contradiction|]. nra.
Qed.
Lemma lottery : let Qs := fun _ : nat => [1] in
  regular lottery_mdp 4 /\ table lottery_mdp Qs /\ (forall s, backup lottery_mdp (1 / 2) 0%nat (fun _ => q_maximum) Qs s = Qs s) /\
  forall s, average_gradient lottery_mdp (1 / 2) 0%nat true 0 Qs (fun _ => [1]) s 0 = 1 / 2.
Proof.
  intros Qs. split; [|split; [|split]].
  - split; [intros s a; cbn; unfold o_prob; cbn; lra|split; [cbn; lia|]]. intros s a z Hz; cbn in Hz; repeat (destruct Hz as [<-|Hz]); try contradiction; unfold o_prob, o_reward; cbn; rewrite ?Rabs_R0, ?(Rabs_pos_eq 4) by lra; lra.
  - intros s; reflexivity.
  - intros s. unfold backup, lookahead, Qs. cbn. unfold o_prob, o_reward, td_row. cbn. f_equal. unfold q_maximum, q_evaluate. cbn. field.
  - intros s. unfold average_gradient, row_gradient, Qs, target_backward, predicted, target, td_row, fsum. cbn. unfold o_prob, o_reward, q_maximum, q_evaluate. cbn.
    rewrite (Rmin_left 1), (Rmin_right 1), (Rmax_right (-1) 1), (Rmax_left (-1)) by lra. lra.
Qed.
