(** Proofs about TRPO's natural gradient step. *)
From Coq Require Import Reals List Arith Lia Lra.
From Verif Require Import Model.Distributions Model.PPOLoss Model.ConjugateGradient Model.Surrogate Model.NaturalGradient Spec.SumSpec Spec.LinearSpec Spec.NaturalSpec
  Proofs.RSumFacts Proofs.DistributionProofs Proofs.GradientProofs Proofs.PPOLossProofs Proofs.PolicyGradientProofs Proofs.SurrogateProofs Proofs.CGProofs.
Import ListNotations.
Local Open Scope R_scope.

(** *** Vectors *)
Lemma vadd_zero : forall th v, length v = length th -> vadd th (vscale 0 v) = th.
Proof. unfold vadd, vscale. induction th as [|x th IH]; intros [|y v] H; cbn in *; try discriminate; [reflexivity|]. f_equal; [ring|]. apply IH. congruence. Qed.
Lemma line_line : forall th v t u, length v = length th -> vadd (vadd th (vscale t v)) (vscale u v) = vadd th (vscale (t + u) v).
Proof. unfold vadd, vscale. induction th as [|x th IH]; intros [|y v] t u H; cbn in *; try discriminate; [reflexivity|]. f_equal; [ring|]. apply IH. congruence. Qed.
Lemma line_len : forall th t v, length v = length th -> length (vadd th (vscale t v)) = length th.
Proof. intros. apply vadd_len; [reflexivity|]. rewrite vscale_len. assumption. Qed.
Lemma scale_scale : forall a b v, vscale a (vscale b v) = vscale (a * b) v.
Proof. intros. unfold vscale. rewrite map_map. apply map_ext. intros. ring. Qed.
Lemma scale_one : forall v, vscale 1 v = v.
Proof. unfold vscale. induction v as [|x v IH]; cbn; [reflexivity|]. rewrite IH. f_equal. ring. Qed.
Lemma zero_eq : forall u v, length u = length v -> (forall x, In x (vsub u v) -> x = 0) -> u = v.
Proof.
  unfold vsub. induction u as [|x u IH]; intros [|y v] L H; cbn in *; try lia; [reflexivity|].
  pose proof (H (x - y) (or_introl eq_refl)). f_equal; [lra|]. apply IH; [lia|]. intros; apply H; right; assumption.
Qed.
Lemma dot_zero_eq : forall u v, length u = length v -> dot (vsub u v) (vsub u v) = 0 -> u = v.
Proof. intros u v L H. apply zero_eq; [exact L|]. apply dot_zero, H. Qed.
Lemma same_products : forall n g h, length g = n -> length h = n -> (forall v, length v = n -> dot g v = dot h v) -> g = h.
Proof.
  intros n g h Hg Hh H. apply dot_zero_eq; [congruence|]. rewrite (dot_sub_l n) by assumption. rewrite (H (vsub g h)); [ring|]. apply vsub_len; assumption.
Qed.
Lemma gradient_unique : forall f th g h, is_gradient f th g -> is_gradient f th h -> g = h.
Proof.
  intros f th g h [L1 H1] [L2 H2]. apply (same_products (length th)); auto. intros v Hv. eapply uniqueness_limite; [apply H1; exact Hv|apply H2; exact Hv].
Qed.
(** The derivative further along a line. *)
Lemma along : forall f th v t g, length v = length th -> is_gradient f (vadd th (vscale t v)) g -> derivable_pt_lim (fun u => f (vadd th (vscale u v))) t (dot g v).
Proof.
  intros f th v t g L [_ H]. specialize (H v). rewrite line_len in H by exact L. specialize (H L). intros eps He. destruct (H eps He) as (del & HD). exists del. intros h H1 H2.
  specialize (HD h H1 H2). cbv beta in HD. rewrite !line_line in HD by exact L. rewrite Rplus_0_r in HD. rewrite Rplus_0_l in HD. exact HD.
Qed.

Lemma t_ext : forall X (f g : X -> R) l, (forall x, f x = g x) -> total_of f l = total_of g l.
Proof. intros. apply tot_ext. auto. Qed.
Lemma t_scale : forall X c (f : X -> R) l, total_of (fun x => c * f x) l = c * total_of f l.
Proof. intros. apply tot_scale. Qed.
Lemma t_add : forall X (f g : X -> R) l, total_of (fun x => f x + g x) l = total_of f l + total_of g l.
Proof. intros. apply tot_add. Qed.
Lemma b_zero : forall m, sum_below m (fun _ => 0) = 0.
Proof. induction m as [|m IH]; cbn [sum_below]; [reflexivity|]. rewrite IH. ring. Qed.
Lemma mean_zero : forall X (f : X -> R) l, (forall x, f x = 0) -> fmean f l = 0.
Proof. intros X f l H. rewrite fmean_total. rewrite (t_ext _ f (fun _ => 0 * 0)) by (intros; rewrite H; ring). rewrite t_scale. unfold Rdiv. ring. Qed.

(** *** Averages of vectors *)
Section Weighted.
Context {St : Type}.
Variables (n n_act : nat) (states : list St).
Lemma dot_seq : forall (f : nat -> R) k m v, length v = m -> dot (map f (seq k m)) v = sum_below m (fun i => f (k + i)%nat * nth i v 0).
Proof.
  intros f k m v. revert k m. induction v as [|x v IH]; intros k [|m] L; cbn [length] in L; try discriminate; [reflexivity|].
  cbn [seq map dot]. rewrite (IH (S k) m) by congruence. rewrite below_S. rewrite Nat.add_0_r. cbn [nth]. f_equal. apply below_ext. intros i _. replace (k + S i)%nat with (S k + i)%nat by lia. reflexivity.
Qed.
Lemma mean_ext : forall (f g : St -> R), (forall s, f s = g s) -> fmean f states = fmean g states.
Proof. intros f g H. unfold fmean. f_equal. f_equal. apply map_ext, H. Qed.
Lemma below_swap_mean : forall m (f : nat -> St -> R), sum_below m (fun i => fmean (f i) states) = fmean (fun s => sum_below m (fun i => f i s)) states.
Proof.
  induction m as [|m IH]; intros f; cbn [sum_below].
  - symmetry. apply mean_zero. reflexivity.
  - rewrite IH. rewrite !fmean_total. rewrite <- Rdiv_plus_distr. f_equal. rewrite <- t_add. reflexivity.
Qed.
Lemma weighted_dot : forall c (x : St -> nat -> vec) v, (forall s a, length (x s a) = n) -> length v = n ->
  dot (weighted n n_act states c x) v = fmean (fun s => sum_below n_act (fun a => c s a * dot (x s a) v)) states.
Proof.
  intros c x v Hx Hv. unfold weighted. rewrite dot_seq by exact Hv. cbn [Nat.add].
  rewrite (below_ext _ _ (fun i => fmean (fun s => nth i v 0 * sum_below n_act (fun a => c s a * nth i (x s a) 0)) states)).
  2:{ intros i _. rewrite !fmean_total. rewrite t_scale. unfold Rdiv. ring. }
  rewrite below_swap_mean. apply mean_ext. intros s.
  rewrite (below_ext n _ (fun i => sum_below n_act (fun a => c s a * (nth i (x s a) 0 * nth i v 0)))).
  2:{ intros i _. rewrite <- below_scale. apply below_ext. intros a _. ring. }
  rewrite vsum_swap. apply below_ext. intros a _. rewrite below_scale. f_equal. rewrite dot_nth by (rewrite Hx, Hv; reflexivity). rewrite Hx. reflexivity.
Qed.
Lemma weighted_len : forall c x, length (weighted n n_act states c x) = n.
Proof. intros. unfold weighted. rewrite map_length, seq_length. reflexivity. Qed.
End Weighted.

(** *** The Fisher information *)
Section Fisher.
Context {St : Type}.
Variables (n n_act : nat) (pi : vec -> St -> nat -> R) (th0 : vec) (d : vec -> St -> nat -> vec) (dd : St -> nat -> vec -> vec) (states : list St).
Hypothesis SM : smooth n n_act pi th0 d dd.
Notation F := (fisher n n_act pi d th0 states).
Notation kl := (policy_kl n_act pi th0 states).

Lemma d_len : forall th s a, length th = n -> length (d th s a) = n.
Proof. intros th s a L. destruct (sm_first _ _ _ _ _ _ SM th s a L) as [H _]. congruence. Qed.
Lemma score_len : forall s a, length (score pi d th0 s a) = n.
Proof. intros. unfold score. rewrite vscale_len. apply d_len. apply (sm_dim _ _ _ _ _ _ SM). Qed.
Lemma fisher_form : forall u v, length u = n -> length v = n ->
  dot u (F v) = fmean (fun s => sum_below n_act (fun a => pi th0 s a * (dot (score pi d th0 s a) u * dot (score pi d th0 s a) v))) states.
Proof.
  intros u v Hu Hv. rewrite dot_comm. unfold fisher. rewrite weighted_dot by (auto using score_len). apply mean_ext. intros s. apply below_ext. intros a _. ring.
Qed.
Lemma mean_nonneg : forall (f : St -> R), (forall s, 0 <= f s) -> 0 <= fmean f states.
Proof.
  intros f H. rewrite fmean_total. assert (0 <= total_of f states) as HT by (apply tot_nonneg; auto).
  destruct states as [|s l]; [cbn; unfold Rdiv; rewrite Rmult_0_l; lra|]. apply Rmult_le_pos; [exact HT|]. apply Rlt_le, Rinv_0_lt_compat, len_inr. discriminate.
Qed.
Lemma fisher_psd : psd n F.
Proof.
  pose proof (sm_dim _ _ _ _ _ _ SM) as HD. constructor.
  - intros u _. apply weighted_len.
  - intros u v Hu Hv. apply (same_products n); [apply weighted_len|apply vadd_len; apply weighted_len|]. intros w Hw. rewrite (dot_add_l n) by apply weighted_len.
    rewrite !(dot_comm _ w). rewrite !fisher_form by (auto using vadd_len). 
    rewrite !fmean_total. rewrite <- Rdiv_plus_distr. f_equal. rewrite <- t_add. apply t_ext. intros s. rewrite <- below_add. apply below_ext. intros a _. rewrite (dot_add_r n) by assumption. ring.
  - intros c u Hu. apply (same_products n); [apply weighted_len|rewrite vscale_len; apply weighted_len|]. intros w Hw. rewrite dot_scale_l.
    rewrite !(dot_comm _ w). rewrite !fisher_form by (auto; rewrite vscale_len; auto).
    rewrite !fmean_total. unfold Rdiv. rewrite <- Rmult_assoc. f_equal. rewrite <- t_scale. apply t_ext. intros s. rewrite <- below_scale. apply below_ext. intros a _. rewrite dot_scale_r. ring.
  - intros u v Hu Hv. rewrite (dot_comm (F u)). rewrite !fisher_form by assumption. apply mean_ext. intros s. apply below_ext. intros a _. ring.
  - intros u Hu. rewrite fisher_form by assumption. apply mean_nonneg. intros s. rewrite <- (b_zero n_act). apply below_le. intros a _.
    pose proof (sm_pos _ _ _ _ _ _ SM th0 s a HD). apply Rmult_le_pos; [lra|]. apply Rle_0_sqr.
Qed.

(** The gradient of the divergence. *)
Definition kl_grad (th : vec) : vec := weighted n n_act states (fun s a => - (pi th0 s a / pi th s a)) (d th).
Lemma line_n : forall t v, length v = n -> length (vadd th0 (vscale t v)) = n.
Proof. intros t v H. pose proof (sm_dim _ _ _ _ _ _ SM) as HD. rewrite line_len; congruence. Qed.
Lemma kl_gradient : forall th, length th = n -> is_gradient kl th (kl_grad th).
Proof.
  intros th L. split; [unfold kl_grad; rewrite weighted_len; congruence|]. intros v Hv. rewrite L in Hv. unfold kl_grad. rewrite weighted_dot by (auto using d_len). unfold policy_kl.
  apply (deriv_mean St (fun t s => categorical_kl n_act (pi th0 s) (pi (vadd th (vscale t v)) s))). intros s.
  apply (deriv_ext _ (fun t => sum_below n_act (fun a => pi th0 s a * (ln (pi th0 s a) - ln (pi (vadd th (vscale t v)) s a))))); [intros; apply kl_below|].
  apply (deriv_below n_act (fun t a => pi th0 s a * (ln (pi th0 s a) - ln (pi (vadd th (vscale t v)) s a)))). intros a.
  pose proof (sm_pos _ _ _ _ _ _ SM th s a L) as PP. replace (- (pi th0 s a / pi th s a) * dot (d th s a) v) with (pi th0 s a * (0 - / pi th s a * dot (d th s a) v)) by (field; lra).
  apply (derivable_pt_lim_scal (fun t => ln (pi th0 s a) - ln (pi (vadd th (vscale t v)) s a))).
  apply (derivable_pt_lim_minus (fun _ => ln (pi th0 s a)) (fun t => ln (pi (vadd th (vscale t v)) s a))); [apply derivable_pt_lim_const|].
  apply (derivable_pt_lim_comp (fun t => pi (vadd th (vscale t v)) s a) ln).
  - destruct (sm_first _ _ _ _ _ _ SM th s a L) as [_ H]. apply H. congruence.
  - rewrite vadd_zero by congruence. apply derivable_pt_lim_ln. exact PP.
Qed.
(** The probabilities add up to 1, so their derivatives to 0, and so do the second ones. *)
Lemma first_zero_sum : forall th s v, length th = n -> length v = n -> sum_below n_act (fun a => dot (d th s a) v) = 0.
Proof.
  intros th s v L Hv. apply (uniqueness_limite (fun t => sum_below n_act (pi (vadd th (vscale t v)) s)) 0).
  - apply (deriv_below n_act (fun t a => pi (vadd th (vscale t v)) s a)). intros a. destruct (sm_first _ _ _ _ _ _ SM th s a L) as [_ H]. apply H. congruence.
  - apply (deriv_ext _ (fun _ => 1)); [|apply derivable_pt_lim_const]. intros t. apply (sm_one _ _ _ _ _ _ SM). rewrite line_len; congruence.
Qed.
Lemma second_zero_sum : forall s v w, length v = n -> length w = n -> sum_below n_act (fun a => dot (dd s a v) w) = 0.
Proof.
  intros s v w Hv Hw. pose proof (sm_dim _ _ _ _ _ _ SM) as HD. apply (uniqueness_limite (fun t => sum_below n_act (fun a => dot (d (vadd th0 (vscale t w)) s a) v)) 0).
  - apply (deriv_below n_act (fun t a => dot (d (vadd th0 (vscale t w)) s a) v)). intros a. destruct (sm_second _ _ _ _ _ _ SM s a v Hv) as [_ H]. apply (H w). congruence.
  - apply (deriv_ext _ (fun _ => 0)); [|apply derivable_pt_lim_const]. intros t. apply first_zero_sum; [apply line_n, Hw|exact Hv].
Qed.
Lemma hessian : forall v, length v = n -> is_gradient (fun th => dot (kl_grad th) v) th0 (F v).
Proof.
  intros v Hv. pose proof (sm_dim _ _ _ _ _ _ SM) as HD. split; [unfold fisher; rewrite weighted_len; congruence|]. intros w Hw. rewrite HD in Hw.
  rewrite dot_comm, fisher_form by assumption.
  apply (deriv_ext _ (fun t => fmean (fun s => sum_below n_act (fun a => - pi th0 s a * (dot (d (vadd th0 (vscale t w)) s a) v / pi (vadd th0 (vscale t w)) s a))) states)).
  { intros t. unfold kl_grad. rewrite weighted_dot; [|intros; apply d_len, line_n, Hw|exact Hv]. apply mean_ext. intros s. apply below_ext. intros a _. unfold Rdiv. ring. }
  apply (deriv_mean St (fun t s => sum_below n_act (fun a => - pi th0 s a * (dot (d (vadd th0 (vscale t w)) s a) v / pi (vadd th0 (vscale t w)) s a)))). intros s.
  set (D := fun a => - pi th0 s a * ((dot (dd s a v) w * pi th0 s a - dot (d th0 s a) w * dot (d th0 s a) v) / Rsqr (pi th0 s a))).
  assert (sum_below n_act (fun a => pi th0 s a * (dot (score pi d th0 s a) w * dot (score pi d th0 s a) v)) = sum_below n_act D) as ->.
  { rewrite (below_ext _ D (fun a => pi th0 s a * (dot (score pi d th0 s a) w * dot (score pi d th0 s a) v) + -1 * dot (dd s a v) w)).
    - rewrite below_add, below_scale, second_zero_sum by assumption. ring.
    - intros a _. unfold D, score. rewrite !dot_scale_l. pose proof (sm_pos _ _ _ _ _ _ SM th0 s a HD). unfold Rsqr. field. lra. }
  apply (deriv_below n_act (fun t a => - pi th0 s a * (dot (d (vadd th0 (vscale t w)) s a) v / pi (vadd th0 (vscale t w)) s a)) D). intros a. unfold D.
  apply (derivable_pt_lim_scal (fun t => dot (d (vadd th0 (vscale t w)) s a) v / pi (vadd th0 (vscale t w)) s a)).
  pose proof (sm_pos _ _ _ _ _ _ SM th0 s a HD) as PP. destruct (sm_first _ _ _ _ _ _ SM th0 s a HD) as [_ H1]. destruct (sm_second _ _ _ _ _ _ SM s a v Hv) as [_ H2].
  pose proof (derivable_pt_lim_div (fun t => dot (d (vadd th0 (vscale t w)) s a) v) (fun t => pi (vadd th0 (vscale t w)) s a) 0 _ _ (H2 w ltac:(congruence)) (H1 w ltac:(congruence))) as W.
  cbv beta in W. rewrite vadd_zero in W by congruence. apply W. lra.
Qed.
Lemma fisher_hvp : forall v, length v = n -> is_hvp kl th0 v (F v) /\ forall h, is_hvp kl th0 v h -> h = F v.
Proof.
  intros v Hv. pose proof (sm_dim _ _ _ _ _ _ SM) as HD. split.
  - exists kl_grad. split; [intros th L; apply kl_gradient; congruence|apply hessian, Hv].
  - intros h (fg & H1 & H2). apply (gradient_unique (grads_times fg v) th0); [exact H2|]. destruct (hessian v Hv) as [L H]. split; [exact L|]. intros w Hw.
    apply (deriv_ext _ (fun t => dot (kl_grad (vadd th0 (vscale t w))) v)); [|apply H, Hw]. intros t. unfold grads_times. f_equal.
    eapply gradient_unique; [apply H1; apply line_len; exact Hw|]. apply kl_gradient. apply line_n. congruence.
Qed.

(** *** Second-order behaviour along a line *)
Lemma kl_self : kl th0 = 0.
Proof.
  unfold policy_kl. apply mean_zero. intros s. rewrite kl_below.
  rewrite (below_ext _ _ (fun _ => 0 * 0)) by (intros; ring). rewrite below_scale. ring.
Qed.
Lemma kl_grad_self : forall v, length v = n -> dot (kl_grad th0) v = 0.
Proof.
  intros v Hv. pose proof (sm_dim _ _ _ _ _ _ SM) as HD. unfold kl_grad. rewrite weighted_dot by (auto using d_len). apply mean_zero. intros s.
  rewrite (below_ext _ _ (fun a => -1 * dot (d th0 s a) v)); [rewrite below_scale, first_zero_sum by assumption; ring|]. intros a _. pose proof (sm_pos _ _ _ _ _ _ SM th0 s a HD). field. lra.
Qed.
End Fisher.

Lemma taylor : forall (f f' : R -> R) c, (forall t, derivable_pt_lim f t (f' t)) -> derivable_pt_lim f' 0 c -> f 0 = 0 -> f' 0 = 0 ->
  forall eps, 0 < eps -> exists del, 0 < del /\ forall t, 0 <= t < del -> Rabs (f t - c / 2 * t ^ 2) <= eps * t ^ 2.
Proof.
  intros f f' c H1 H2 Z1 Z2 eps He. destruct (H2 eps He) as (del & HD). exists del. split; [apply cond_pos|]. intros t [T0 T1]. destruct T0 as [T0|T0].
  2:{ subst t. rewrite Z1. replace (0 - c / 2 * 0 ^ 2) with 0 by ring. rewrite Rabs_R0. lra. }
  destruct (MVT_cor2 (fun x => f x - c / 2 * x ^ 2) (fun x => f' x - c / 2 * (INR 2 * x ^ 1)) 0 t T0) as (x & E & X1 & X2).
  { intros x _. apply (derivable_pt_lim_minus f (fun x => c / 2 * x ^ 2)); [apply H1|]. apply (derivable_pt_lim_scal (fun x => x ^ 2)). apply (derivable_pt_lim_pow x 2). }
  cbv beta in E. rewrite Z1 in E. replace (INR 2) with 2 in E by (cbn; ring). replace (f t - c / 2 * t ^ 2) with ((f' x - c * x) * t) by lra.
  assert (Rabs (f' x - c * x) <= eps * x) as HB.
  { assert (x <> 0) as NX by lra. specialize (HD x NX). rewrite Rabs_pos_eq in HD by lra. specialize (HD ltac:(lra)). rewrite Rplus_0_l, Z2 in HD.
    replace (f' x - c * x) with (((f' x - 0) / x - c) * x) by (field; exact NX). rewrite Rabs_mult, (Rabs_pos_eq x) by lra. apply Rmult_le_compat_r; lra. }
  rewrite Rabs_mult, (Rabs_pos_eq t) by lra. replace (eps * t ^ 2) with (eps * t * t) by ring. apply Rmult_le_compat_r; [lra|]. assert (eps * x <= eps * t) by (apply Rmult_le_compat_l; lra). lra.
Qed.

Section Accept.
Context {St : Type}.
Variables (n n_act : nat) (pi : vec -> St -> nat -> R) (th0 : vec) (d : vec -> St -> nat -> vec) (dd : St -> nat -> vec -> vec) (states : list St).
Hypothesis SM : smooth n n_act pi th0 d dd.
Notation F := (fisher n n_act pi d th0 states).
Notation kl := (policy_kl n_act pi th0 states).
Lemma kl_quadratic : forall v, length v = n -> forall eps, 0 < eps -> exists del, 0 < del /\ forall t, 0 <= t < del ->
  Rabs (kl (vadd th0 (vscale t v)) - t ^ 2 * (dot v (F v) / 2)) <= eps * t ^ 2.
Proof.
  intros v Hv eps He. pose proof (sm_dim _ _ _ _ _ _ SM) as HD.
  destruct (taylor (fun t => kl (vadd th0 (vscale t v))) (fun t => dot (kl_grad n n_act pi th0 d states (vadd th0 (vscale t v))) v) (dot v (F v))) with (eps := eps) as (del & H1 & H2); auto.
  - intros t. apply along; [congruence|]. apply (kl_gradient n n_act pi th0 d dd states SM). apply (line_n _ _ _ _ _ _ SM), Hv.
  - destruct (hessian n n_act pi th0 d dd states SM v Hv) as [_ H]. rewrite (dot_comm v). apply H. congruence.
  - rewrite vadd_zero by congruence. apply kl_self.
  - rewrite vadd_zero by congruence. apply (kl_grad_self _ _ _ _ _ _ _ SM), Hv.
  - exists del. split; [exact H1|]. intros t Ht. specialize (H2 t Ht). replace (t ^ 2 * (dot v (F v) / 2)) with (dot v (F v) / 2 * t ^ 2) by ring. exact H2.
Qed.
Variables (gain : vec -> R) (g : vec).
Hypothesis HG : is_gradient gain th0 g.
(** A short enough step in an uphill direction is accepted. *)
Lemma near : forall x B, length x = n -> 0 < dot g x -> dot x (F x) < B -> exists del, 0 < del /\ forall t, 0 < t < del ->
  gain th0 < gain (vadd th0 (vscale t x)) /\ kl (vadd th0 (vscale t x)) <= B / 2 * t ^ 2.
Proof.
  intros x B L P HB. pose proof (sm_dim _ _ _ _ _ _ SM) as HD. destruct (kl_quadratic x L ((B - dot x (F x)) / 2)) as (d1 & D1 & H1); [lra|].
  destruct HG as [_ HG']. destruct (HG' x ltac:(congruence) (dot g x / 2) ltac:(lra)) as (d2 & H2).
  exists (Rmin d1 d2). split; [apply Rmin_pos; [exact D1|apply cond_pos]|]. intros t [T1 T2]. pose proof (Rmin_l d1 d2). pose proof (Rmin_r d1 d2). split.
  - specialize (H2 t ltac:(lra)). rewrite Rabs_pos_eq in H2 by lra. specialize (H2 ltac:(lra)). cbv beta in H2. rewrite Rplus_0_l, vadd_zero in H2 by congruence.
    apply Rabs_def2 in H2. destruct H2 as [_ H2]. assert (0 < (gain (vadd th0 (vscale t x)) - gain th0) / t) as Q by lra.
    apply (Rmult_lt_compat_r t) in Q; [|lra]. replace ((gain (vadd th0 (vscale t x)) - gain th0) / t * t) with (gain (vadd th0 (vscale t x)) - gain th0) in Q by (field; lra). lra.
  - specialize (H1 t ltac:(lra)). pose proof (Rle_trans _ _ _ (Rle_abs _) H1) as H1'. clear H1. rename H1' into H1. replace (B / 2 * t ^ 2) with (t ^ 2 * (dot x (F x) / 2) + (B - dot x (F x)) / 2 * t ^ 2) by field. lra.
Qed.
Lemma half_small : forall del, 0 < del -> exists K, forall k, (K <= k)%nat -> 0 < (/ 2) ^ k < del.
Proof.
  intros del Hd. destruct (pow_lt_1_zero (/ 2)) with (y := del) as (K & HK); [rewrite Rabs_pos_eq; lra|exact Hd|]. exists K. intros k Hk. specialize (HK k Hk). assert (0 < (/ 2) ^ k) by (apply pow_lt; lra).
  rewrite Rabs_pos_eq in HK by lra. lra.
Qed.
Lemma search_succeeds : forall damping max_kl tol max_iter, nonzero g -> 0 < damping -> 0 < max_kl -> 0 < tol -> (0 < max_iter)%nat ->
  exists s K, kl_constrained_step F damping max_kl tol max_iter g = Some s /\ forall k, (K <= k)%nat -> accepted gain kl max_kl th0 (trial th0 s k) /\ gain th0 < gain (trial th0 s k).
Proof.
  intros dmp mk tol mi N Hd Hk Ht Hm. pose proof (sm_dim _ _ _ _ _ _ SM) as HD. destruct HG as [LG _].
  destruct (step_in_region n F dmp mk tol mi g (fisher_psd _ _ _ _ _ _ states SM) Hd Hk Ht ltac:(congruence) N) as (s & E & L & Q & P). specialize (P Hm).
  pose proof (psd_pos _ _ (fisher_psd _ _ _ _ _ _ states SM) s L) as Q0.
  destruct (near s (dot s (F s) + 1) L P) as (del & D1 & H1); [lra|]. set (B := dot s (F s) + 1) in *.
  destruct (half_small (Rmin (Rmin del 1) (2 * mk / B))) as (K & HK). { apply Rmin_pos; [apply Rmin_pos; lra|]. apply Rdiv_lt_0_compat; unfold B; lra. }
  exists s, K. split; [exact E|]. intros k Hk'. specialize (HK k Hk'). destruct HK as [K1 K2].
  pose proof (Rmin_l (Rmin del 1) (2 * mk / B)). pose proof (Rmin_r (Rmin del 1) (2 * mk / B)). pose proof (Rmin_l del 1). pose proof (Rmin_r del 1).
  unfold trial. set (t := (/ 2) ^ k) in *. destruct (H1 t ltac:(lra)) as [G1 G2]. split; [|exact G1]. split; [lra|]. apply Rle_not_gt. eapply Rle_trans; [exact G2|].
  assert (B / 2 * t ^ 2 <= B / 2 * t). { apply Rmult_le_compat_l; [unfold B; lra|]. replace t with (1 * t) at 2 by ring. replace (t ^ 2) with (t * t) by ring. apply Rmult_le_compat_r; lra. }
  assert (B / 2 * t <= B / 2 * (2 * mk / B)). { apply Rmult_le_compat_l; [unfold B; lra|lra]. } replace (B / 2 * (2 * mk / B)) with mk in * by (field; unfold B; lra). lra.
Qed.
Lemma first_accepted : forall damping tol max_iter, nonzero g -> 0 < damping -> 0 < tol -> (0 < max_iter)%nat ->
  exists bound, 0 < bound /\ forall max_kl, 0 < max_kl < bound -> exists s, kl_constrained_step F damping max_kl tol max_iter g = Some s /\
  accepted gain kl max_kl th0 (trial th0 s 0) /\ gain th0 < gain (trial th0 s 0).
Proof.
  intros dmp tol mi N Hd Ht Hm. pose proof (sm_dim _ _ _ _ _ _ SM) as HD. destruct HG as [LG _]. pose proof (fisher_psd _ _ _ _ _ _ states SM) as HF.
  destruct (cg_runs n _ (damped n F dmp HF Hd) g ltac:(congruence) tol mi Ht N) as (x & E & L & Eb & P & _). specialize (P Hm).
  set (q := dot x (vadd (F x) (vscale dmp x))) in *. assert (q = dot x (F x) + dmp * dot x x) as Eq.
  { unfold q. rewrite (dot_add_r n), dot_scale_r; [reflexivity|apply (psd_dim _ _ HF), L|rewrite vscale_len; exact L]. }
  pose proof (dot_nonneg x) as P2. pose proof (psd_pos _ _ HF x L) as P3. assert (0 < q) as Q0 by lra.
  destruct (near x (q + / 100000000) L P) as (del & D1 & H1). { assert (0 <= dmp * dot x x) by (apply Rmult_le_pos; lra). lra. }
  exists (del * del * (q + / 100000000) / 2). split; [apply Rmult_lt_0_compat; [apply Rmult_lt_0_compat; [apply Rmult_lt_0_compat; assumption|lra]|lra]|].
  intros mk [K1 K2]. unfold kl_constrained_step. rewrite E. fold q. eexists. split; [reflexivity|]. set (sc := sqrt (2 * mk / (q + / 100000000))).
  assert (0 < 2 * mk / (q + / 100000000)) as SP by (apply Rdiv_lt_0_compat; lra). assert (0 < sc) as S0 by (apply sqrt_lt_R0, SP).
  assert (sc * sc = 2 * mk / (q + / 100000000)) as SS by (apply sqrt_sqrt; lra).
  assert (sc < del) as SD.
  { apply Rnot_le_lt. intros C. assert (del * del <= sc * sc) as C2 by (apply Rmult_le_compat; lra). rewrite SS in C2.
    apply (Rmult_le_compat_r (q + / 100000000)) in C2; [|lra]. replace (2 * mk / (q + / 100000000) * (q + / 100000000)) with (2 * mk) in C2 by (field; lra). lra. }
  unfold trial. rewrite pow_O, scale_scale, Rmult_1_l. destruct (H1 sc ltac:(lra)) as [G1 G2]. split; [|exact G1]. split; [lra|]. apply Rle_not_gt. eapply Rle_trans; [exact G2|].
  replace (sc ^ 2) with (sc * sc) by ring. rewrite SS. right. field. lra.
Qed.
End Accept.

(** *** The best direction *)
Lemma form_split : forall n F c s, psd n F -> length s = n -> damped_form F c s = dot s (vadd (F s) (vscale c s)).
Proof. intros n F c s HF L. unfold damped_form. rewrite (dot_add_r n), dot_scale_r; [reflexivity|apply (psd_dim _ _ HF), L|rewrite vscale_len; exact L]. Qed.
Lemma form_sub : forall n A u v, spd n A -> length u = n -> length v = n -> dot (vsub u v) (A (vsub u v)) = dot u (A u) - 2 * dot u (A v) + dot v (A v).
Proof.
  intros n A u v HA Hu Hv. assert (vsub u v = vadd u (vscale (-1) v)) as ->.
  { unfold vsub, vadd, vscale. revert v n HA Hu Hv. induction u as [|x u IH]; intros [|y v] n HA Hu Hv; cbn in *; try congruence. f_equal; [ring|]. clear HA. revert v IH Hu Hv. clear. intros v IH Hu Hv.
    assert (length v = length u) by congruence. clear IH Hu Hv. revert v H. induction u as [|z u IH]; intros [|w v] H; cbn in *; try congruence. f_equal; [ring|]. apply IH. congruence. }
  rewrite (spd_add _ _ HA) by (try rewrite vscale_len; assumption). rewrite (spd_scale _ _ HA) by assumption.
  assert (length (A u) = n) by (apply (spd_dim _ _ HA); assumption). assert (length (A v) = n) by (apply (spd_dim _ _ HA); assumption).
  rewrite (dot_add_l n) by (try rewrite vscale_len; assumption). rewrite !(dot_add_r n) by (try rewrite vscale_len; assumption). rewrite !dot_scale_l, !dot_scale_r.
  rewrite (spd_sym _ _ HA v u) by assumption. rewrite (dot_comm (A v) u). ring.
Qed.
Lemma spd_nonneg : forall n A u, spd n A -> length u = n -> 0 <= dot u (A u).
Proof.
  intros n A u HA Hu. destruct (nonzero_dec u) as [N|Z]; [apply Rlt_le, (spd_pos _ _ HA); assumption|]. rewrite (zeros u Z). rewrite dot_zeros_l. lra.
Qed.
Lemma spd_zero : forall n A u, spd n A -> length u = n -> dot u (A u) <= 0 -> forall x, In x u -> x = 0.
Proof. intros n A u HA Hu H. destruct (nonzero_dec u) as [N|Z]; [pose proof (spd_pos _ _ HA u Hu N); lra|exact Z]. Qed.
Lemma cauchy : forall n A u v, spd n A -> length u = n -> length v = n -> dot u (A v) * dot u (A v) <= dot u (A u) * dot v (A v).
Proof.
  intros n A u v HA Hu Hv. destruct (nonzero_dec v) as [N|Z].
  - pose proof (spd_pos _ _ HA v Hv N) as P. set (t := dot u (A v) / dot v (A v)).
    pose proof (spd_nonneg n A (vsub u (vscale t v)) HA ltac:(apply vsub_len; [exact Hu|rewrite vscale_len; exact Hv])) as Q.
    rewrite (form_sub n) in Q by (try rewrite vscale_len; assumption). rewrite (spd_scale _ _ HA) in Q by assumption. rewrite !dot_scale_l, !dot_scale_r in Q.
    assert (t * dot v (A v) = dot u (A v)) as T by (unfold t; field; lra).
    replace (t * (t * dot v (A v))) with (t * dot u (A v)) in Q by (rewrite T; reflexivity). 
    assert (t * dot u (A v) <= dot u (A u)) as Q2 by lra. apply (Rmult_le_compat_r (dot v (A v))) in Q2; [|lra]. replace (t * dot u (A v) * dot v (A v)) with (t * dot v (A v) * dot u (A v)) in Q2 by ring. rewrite T in Q2. exact Q2.
  - assert (v = map (fun _ => 0) v) as EV by (apply zeros, Z). assert (dot v (A v) = 0) as E1 by (rewrite EV at 1; apply dot_zeros_l).
    assert (dot u (A v) = 0) as E2 by (rewrite (spd_sym _ _ HA) by assumption; rewrite EV; apply dot_zeros_r). rewrite E1, E2. lra.
Qed.
Lemma step_facts : forall n F damping max_kl tol max_iter g, psd n F -> 0 < damping -> 0 < max_kl -> 0 < tol -> length g = n -> nonzero g -> (0 < max_iter)%nat ->
  exists x sc, kl_constrained_step F damping max_kl tol max_iter g = Some (vscale sc x) /\ conjugate_gradient (fun v => vadd (F v) (vscale damping v)) g tol max_iter = Some x /\ length x = n /\ 0 < sc /\
    dot g x = damped_form F damping x /\ 0 < dot g x /\ sc * sc = 2 * max_kl / (damped_form F damping x + / 100000000).
Proof.
  intros n F c mk tol mi g HF Hc Hk Ht Hg N Hm. destruct (cg_runs n _ (damped n F c HF Hc) g Hg tol mi Ht N) as (x & E & L & Eb & P & _). specialize (P Hm).
  rewrite <- (form_split n) in Eb by assumption. exists x, (sqrt (2 * mk / (damped_form F c x + / 100000000))). split; [unfold kl_constrained_step; rewrite E; rewrite (form_split n) by assumption; reflexivity|].
  assert (0 < 2 * mk / (damped_form F c x + / 100000000)) as SP by (apply Rdiv_lt_0_compat; lra).
  split; [exact E|]. split; [exact L|]. split; [apply sqrt_lt_R0, SP|]. split; [exact Eb|]. split; [exact P|]. apply sqrt_sqrt. lra.
Qed.
Lemma form_scale : forall n F c t x, psd n F -> length x = n -> damped_form F c (vscale t x) = t * t * damped_form F c x.
Proof. intros n F c t x HF L. unfold damped_form. rewrite (psd_scale _ _ HF) by assumption. rewrite !dot_scale_l, !dot_scale_r. ring. Qed.
Lemma squares_le : forall a b, 0 <= b -> a * a <= b * b -> a <= b.
Proof. intros a b Hb H. apply Rnot_lt_le. intros C. assert (b * b < a * a) by (apply Rmult_le_0_lt_compat; lra). lra. Qed.
Lemma natural_best : forall n F damping g, psd n F -> 0 < damping -> length g = n -> nonzero g ->
  exists tol0, 0 < tol0 /\ forall max_kl tol max_iter, 0 < max_kl -> 0 < tol < tol0 -> (n <= max_iter)%nat -> (0 < max_iter)%nat ->
  exists x s, vadd (F x) (vscale damping x) = g /\ length x = n /\ 0 < dot g x /\ kl_constrained_step F damping max_kl tol max_iter g = Some s /\
  (forall s', length s' = n -> damped_form F damping s' <= damped_form F damping s -> dot g s' <= dot g s /\ (dot g s' = dot g s -> s' = s)) /\
  forall s', length s' = n -> damped_form F damping s' / 2 <= max_kl -> dot g s' <= dot g s * sqrt (1 + / 100000000 / dot g x).
Proof.
  intros n F c g HF Hc Hg N. pose proof (damped n F c HF Hc) as HA. destruct (cg_solves n _ HA g Hg N) as (tol0 & T0 & HS). exists tol0. split; [exact T0|].
  intros mk tol mi Hk Ht Hm Hm0. destruct (HS tol mi Ht Hm) as (x & E & Sx). destruct (step_facts n F c mk tol mi g HF Hc Hk (proj1 Ht) Hg N Hm0) as (x' & sc & E' & Ex & L & S0 & Q & P & SS).
  assert (x' = x) by congruence. subst x'. exists x, (vscale sc x). split; [exact Sx|]. split; [exact L|]. split; [exact P|]. split; [exact E'|].
  set (A := fun v => vadd (F v) (vscale c v)) in *. assert (forall s', length s' = n -> dot x (A s') = dot g s') as XG.
  { intros s' L'. rewrite (spd_sym _ _ HA) by assumption. f_equal. exact Sx. }
  split.
  - intros s' L' H. rewrite (form_scale n) in H by assumption. rewrite <- Q in H. rewrite (form_split n) in H by assumption. fold (A s') in H.
    assert (length (vscale sc x) = n) as LS by (rewrite vscale_len; exact L).
    pose proof (form_sub n A (vscale sc x) s' HA LS L') as FS. rewrite (spd_scale _ _ HA) in FS by assumption. rewrite !dot_scale_l, !dot_scale_r in FS. rewrite (XG s' L'), (XG x L) in FS.
    pose proof (spd_nonneg n A (vsub (vscale sc x) s') HA (vsub_len _ _ _ LS L')) as NN. rewrite dot_scale_r.
    assert (sc * dot g s' <= sc * (sc * dot g x)) as HH by lra. split; [apply Rmult_le_reg_l with sc; assumption|].
    intros EQ. symmetry. apply zero_eq; [congruence|]. apply (spd_zero n A); [exact HA|apply vsub_len; assumption|]. rewrite FS, EQ. lra.
  - intros s' L' H. rewrite (form_split n) in H by assumption. fold (A s') in H. pose proof (cauchy n A x s' HA L L') as CS. rewrite (XG s' L'), (XG x L) in CS.
    apply squares_le; [apply Rmult_le_pos; [rewrite dot_scale_r; apply Rmult_le_pos; lra|apply sqrt_pos]|].
    assert (0 < / 100000000 / dot g x) as EP by (apply Rdiv_lt_0_compat; lra).
    replace (dot g (vscale sc x) * sqrt (1 + / 100000000 / dot g x) * (dot g (vscale sc x) * sqrt (1 + / 100000000 / dot g x))) with (dot g (vscale sc x) * dot g (vscale sc x) * (sqrt (1 + / 100000000 / dot g x) * sqrt (1 + / 100000000 / dot g x))) by ring.
    rewrite sqrt_sqrt by lra. rewrite dot_scale_r. replace (sc * dot g x * (sc * dot g x) * (1 + / 100000000 / dot g x)) with (sc * sc * dot g x * (dot g x + / 100000000)) by (field; lra).
    rewrite SS, <- Q. replace (2 * mk / (dot g x + / 100000000) * dot g x * (dot g x + / 100000000)) with (dot g x * (2 * mk)) by (field; lra).
    eapply Rle_trans; [exact CS|]. apply Rmult_le_compat_l; lra.
Qed.
(** However few the iterations, no worse than the gradient itself. *)
Lemma beats_gradient : forall n F damping max_kl tol max_iter g, psd n F -> 0 < damping -> 0 < max_kl -> 0 < tol -> length g = n -> nonzero g -> (0 < max_iter)%nat ->
  exists s, kl_constrained_step F damping max_kl tol max_iter g = Some s /\ forall c, damped_form F damping (vscale c g) <= damped_form F damping s -> dot g (vscale c g) <= dot g s.
Proof.
  intros n F dm mk tol mi g HF Hc Hk Ht Hg N Hm. pose proof (damped n F dm HF Hc) as HA. destruct (step_facts n F dm mk tol mi g HF Hc Hk Ht Hg N Hm) as (x & sc & E & Ex & L & S0 & Q & P & SS).
  exists (vscale sc x). split; [exact E|]. intros c H. pose proof (cg_first n _ HA g Hg tol mi Ht N Hm x Ex) as O. rewrite !(form_scale n) in H by assumption. rewrite <- Q in H.
  pose proof (cauchy n _ g x HA Hg L) as CS. cbv beta in CS. rewrite (dot_comm g (vadd (F x) (vscale dm x))) in CS. rewrite O in CS. rewrite <- !(form_split n) in CS by assumption. rewrite <- Q in CS.
  rewrite !dot_scale_r. apply squares_le; [apply Rmult_le_pos; lra|]. set (gg := dot g g) in *. set (qg := damped_form F dm g) in *. set (b := dot g x) in *.
  replace (c * gg * (c * gg)) with (c * c * (gg * gg)) by ring. apply Rle_trans with (c * c * (qg * b)); [apply Rmult_le_compat_l; [apply Rle_0_sqr|exact CS]|].
  replace (c * c * (qg * b)) with (c * c * qg * b) by ring. replace (sc * b * (sc * b)) with (sc * sc * b * b) by ring. apply Rmult_le_compat_r; lra.
Qed.

(** *** Other parameters for the same policy *)
Lemma undamped : forall n F, spd n F -> spd n (fun v => vadd (F v) (vscale 0 v)).
Proof.
  intros n F HF. assert (forall u, length u = n -> vadd (F u) (vscale 0 u) = F u) as E.
  { intros u Hu. apply vadd_zero. rewrite (spd_dim _ _ HF) by exact Hu. exact Hu. }
  constructor; intros.
  - rewrite E by assumption. apply (spd_dim _ _ HF); assumption.
  - rewrite !E by (auto using vadd_len). apply (spd_add _ _ HF); assumption.
  - rewrite !E by (try rewrite vscale_len; auto). apply (spd_scale _ _ HF); assumption.
  - rewrite !E by auto. apply (spd_sym _ _ HF); assumption.
  - rewrite !E by auto. apply (spd_pos _ _ HF); assumption.
Qed.
Lemma undamped_step : forall n F g, spd n F -> length g = n -> nonzero g -> exists tol0, 0 < tol0 /\ forall max_kl tol max_iter, 0 < tol < tol0 -> (n <= max_iter)%nat ->
  exists x, length x = n /\ F x = g /\ kl_constrained_step F 0 max_kl tol max_iter g = Some (vscale (sqrt (2 * max_kl / (dot x (F x) + / 100000000))) x).
Proof.
  intros n F g HF Hg N. pose proof (undamped n F HF) as HA. destruct (cg_solves n _ HA g Hg N) as (tol0 & T0 & HS). exists tol0. split; [exact T0|]. intros mk tol mi Ht Hm.
  destruct (HS tol mi Ht Hm) as (x & E & Sx). destruct (cg_runs n _ HA g Hg tol mi (proj1 Ht) N) as (x' & E' & L & _). assert (x' = x) by congruence. subst x'. exists x. split; [exact L|].
  assert (vadd (F x) (vscale 0 x) = F x) as EF by (apply vadd_zero; rewrite (spd_dim _ _ HF) by exact L; exact L). split; [congruence|].
  unfold kl_constrained_step. rewrite E, EF. reflexivity.
Qed.
Lemma reparametrize : forall n F M Mt g, spd n F -> change_of_parameters n M Mt -> spd n (fun v => Mt (F (M v))) -> length g = n -> nonzero g ->
  exists tol0, 0 < tol0 /\ forall max_kl tol max_iter, 0 < tol < tol0 -> (n <= max_iter)%nat ->
  exists s s', kl_constrained_step F 0 max_kl tol max_iter g = Some s /\ kl_constrained_step (fun v => Mt (F (M v))) 0 max_kl tol max_iter (Mt g) = Some s' /\ M s' = s.
Proof.
  intros n F M Mt g HF [C1 C2 C3 C4 C5] HM Hg N. destruct (undamped_step n F g HF Hg N) as (t1 & T1 & H1).
  assert (nonzero (Mt g)) as N'.
  { destruct (nonzero_dec (Mt g)) as [N'|Z]; [exact N'|]. exfalso. set (z := map (fun _ => 0) g). assert (length z = n) as Lz by (unfold z; rewrite map_length; exact Hg).
    assert (g = z) as E. { apply C5; auto. apply (same_products n); auto. intros v Hv. rewrite !(dot_comm _ v). rewrite <- !C4 by assumption. unfold z at 1. rewrite dot_zeros_r.
      rewrite C4 by assumption. rewrite (zeros _ Z). apply dot_zeros_r. }
    destruct N as (x & I & NX). rewrite E in I. unfold z in I. apply in_map_iff in I. destruct I as (y & EY & _). congruence. }
  destruct (undamped_step n _ (Mt g) HM (C2 g Hg) N') as (t2 & T2 & H2). exists (Rmin t1 t2). split; [apply Rmin_pos; assumption|]. intros mk tol mi [Ta Tb] Hm.
  pose proof (Rmin_l t1 t2). pose proof (Rmin_r t1 t2). destruct (H1 mk tol mi ltac:(lra) Hm) as (x & Lx & Ex & Sx). destruct (H2 mk tol mi ltac:(lra) Hm) as (y & Ly & Ey & Sy). cbv beta in Ey, Sy.
  assert (F (M y) = g) as EM. { apply C5; auto. apply (spd_dim _ _ HF). auto. }
  assert (M y = x) as EX. { apply zero_eq; [rewrite C1; congruence|]. assert (length (vsub (M y) x) = n) as Lv by (apply vsub_len; auto). apply (spd_zero n F); [exact HF|exact Lv|].
    rewrite (form_sub n) by auto. pose proof (spd_sym _ _ HF (M y) x (C1 y Ly) Lx) as K. rewrite EM, Ex in *. rewrite (dot_comm g x) in K. lra. }
  exists (vscale (sqrt (2 * mk / (dot x (F x) + / 100000000))) x), (vscale (sqrt (2 * mk / (dot y (Mt (F (M y))) + / 100000000))) y). split; [exact Sx|]. split; [exact Sy|].
  rewrite C3 by exact Ly. rewrite <- C4 by (auto; apply (spd_dim _ _ HF); auto). rewrite EX. reflexivity.
Qed.
(** Damping breaks this. *)
Definition line_change (v : vec) : vec := vscale 2 v.
Lemma one_dim : forall a, 0 < a -> spd 1 (vscale a).
Proof.
  intros a Ha. constructor.
  - intros. rewrite vscale_len. assumption.
  - intros [|x [|? ?]] [|y [|? ?]] H H'; try discriminate. cbn. f_equal. ring.
  - intros c [|x [|? ?]] H; try discriminate. cbn. f_equal. ring.
  - intros [|x [|? ?]] [|y [|? ?]] H H'; try discriminate. cbn. ring.
  - intros [|x [|? ?]] H (y & I & N); try discriminate. destruct I as [<-|[]]. cbn. assert (0 < x * x) by (destruct (Rtotal_order x 0) as [|[|]]; [nra|congruence|nra]). nra.
Qed.
Lemma one_dim_step : forall a c mk tol mi g, 0 < a -> 0 < c -> 0 < mk -> 0 < tol -> g <> 0 -> (0 < mi)%nat ->
  kl_constrained_step (vscale a) c mk tol mi [g] = Some [sqrt (2 * mk / (g * g / (a + c) + / 100000000)) * (g / (a + c))].
Proof.
  intros a c mk tol mi g Ha Hc Hk Ht Hg Hm. unfold kl_constrained_step, conjugate_gradient. destruct mi as [|mi]; [lia|]. cbn.
  assert (0 < g * g) as GG by (destruct (Rtotal_order g 0) as [|[|]]; [nra|congruence|nra]).
  unfold fdiv. set (D := (a * (g - (a * 0 + c * 0)) + c * (g - (a * 0 + c * 0))) * (g - (a * 0 + c * 0)) + 0).
  assert (D = (a + c) * (g * g)) as ED by (unfold D; ring). assert (0 < D) as PD by (rewrite ED; apply Rmult_lt_0_compat; lra).
  destruct (Req_EM_T D 0) as [Z|_]; [lra|].
  assert (((g - (a * 0 + c * 0)) * (g - (a * 0 + c * 0)) + 0) / D = / (a + c)) as EA by (rewrite ED; field; split; lra). rewrite EA.
  set (r := g - (a * 0 + c * 0) - / (a + c) * (a * (g - (a * 0 + c * 0)) + c * (g - (a * 0 + c * 0)))). assert (r = 0) as ER by (unfold r; field; lra).
  destruct (Rlt_dec (norm [r]) tol) as [_|C].
  2:{ exfalso. apply C. unfold norm. cbn. rewrite ER. replace (0 * 0 + 0) with 0 by ring. rewrite sqrt_0. exact Ht. }
  f_equal. f_equal. replace (0 + / (a + c) * (g - (a * 0 + c * 0))) with (g / (a + c)) by (field; lra).
  cbn [dot vadd vscale map zip_vec]. unfold vadd. cbn [dot zip_vec vscale map]. replace (g / (a + c) * (a * (g / (a + c)) + c * (g / (a + c))) + 0) with (g * g / (a + c)) by (field; lra). reflexivity.
Qed.
Lemma reparametrize_damped : forall mk tol mi, 0 < mk -> 0 < tol -> (0 < mi)%nat -> exists F M Mt g s s', spd 1 F /\ change_of_parameters 1 M Mt /\ spd 1 (fun v => Mt (F (M v))) /\ nonzero g /\
  kl_constrained_step F 1 mk tol mi g = Some s /\ kl_constrained_step (fun v => Mt (F (M v))) 1 mk tol mi (Mt g) = Some s' /\ M s' <> s.
Proof.
  intros mk tol mi Hk Ht Hm. exists (vscale 1), line_change, line_change, [1]. do 2 eexists. split; [apply one_dim; lra|]. split.
  { unfold line_change. constructor; intros; rewrite ?vscale_len; auto.
    - rewrite !scale_scale. f_equal. ring.
    - rewrite dot_scale_l, dot_scale_r. reflexivity.
    - assert (vscale (/ 2) (vscale 2 u) = vscale (/ 2) (vscale 2 v)) as E by congruence. rewrite !scale_scale in E. replace (/ 2 * 2) with 1 in E by field. rewrite !scale_one in E. exact E. }
  assert (forall v, line_change (vscale 1 (line_change v)) = vscale 4 v) as E4 by (intros v; unfold line_change; rewrite !scale_scale; f_equal; ring).
  split; [constructor; intros; rewrite ?E4; apply (one_dim 4 ltac:(lra)); auto|]. split; [exists 1; split; [left; reflexivity|lra]|].
  split; [apply one_dim_step; auto; lra|].
  assert (kl_constrained_step (fun v => line_change (vscale 1 (line_change v))) 1 mk tol mi (line_change [1]) = kl_constrained_step (vscale 4) 1 mk tol mi [2]) as ES.
  { replace (line_change [1]) with [2] by (unfold line_change; cbn; f_equal; ring). f_equal. apply FunctionalExtensionality.functional_extensionality. exact E4. }
  split; [rewrite ES; apply one_dim_step; auto; lra|]. unfold line_change. cbn. intros C. injection C as C.
  set (e := / 100000000) in *. assert (0 < e < / 1000) as HE by (unfold e; split; lra).
  apply (f_equal (fun z => z * z)) in C. 
  set (A1 := 2 * mk / (2 * 2 / (4 + 1) + e)) in *. set (A2 := 2 * mk / (1 * 1 / (1 + 1) + e)) in *.
  assert (0 < A1) as P1 by (apply Rdiv_lt_0_compat; lra). assert (0 < A2) as P2 by (apply Rdiv_lt_0_compat; lra).
  replace (2 * (sqrt A1 * (2 / (4 + 1))) * (2 * (sqrt A1 * (2 / (4 + 1))))) with (sqrt A1 * sqrt A1 * (16 / 25)) in C by field.
  replace (sqrt A2 * (1 / (1 + 1)) * (sqrt A2 * (1 / (1 + 1)))) with (sqrt A2 * sqrt A2 * (1 / 4)) in C by field. rewrite !sqrt_sqrt in C by lra.
  assert (A1 * (4 / 5 + e) = 2 * mk) as Q1 by (unfold A1; field; lra). assert (A2 * (1 / 2 + e) = 2 * mk) as Q2 by (unfold A2; field; lra).
  assert (A2 = A1 * (64 / 25)) as QA by lra. rewrite QA in Q2. assert (A1 * (64 / 25 * (1 / 2 + e) - (4 / 5 + e)) = 0) as Z by lra.
  apply Rmult_integral in Z. destruct Z as [Z|Z]; lra.
Qed.

(** *** A policy that is smooth: two actions, linear in any features *)
Lemma sig_range : forall x, 0 < sig x < 1.
Proof.
  intros x. unfold sig. pose proof (exp_pos (- x)). split; [apply Rinv_0_lt_compat; lra|]. rewrite <- Rinv_1. apply Rinv_lt_contravar; lra.
Qed.
Lemma sig_deriv : forall x, derivable_pt_lim sig x (sig x * (1 - sig x)).
Proof.
  intros x. pose proof (exp_pos (- x)) as P. 
  assert (derivable_pt_lim (fun x => 1 + exp (- x)) x (0 + exp (- x) * -1)) as D.
  { apply (derivable_pt_lim_plus (fun _ => 1) (fun x => exp (- x))); [apply derivable_pt_lim_const|]. apply (derivable_pt_lim_comp (fun x => - x) exp); [|apply derivable_pt_lim_exp].
    apply (derivable_pt_lim_opp (fun x => x)). apply derivable_pt_lim_id. }
  pose proof (derivable_pt_lim_div (fun _ => 1) (fun x => 1 + exp (- x)) x 0 _ (derivable_pt_lim_const 1 x) D ltac:(lra)) as W.
  apply (deriv_ext _ (fun x => 1 / (1 + exp (- x)))); [intros; unfold sig; field; pose proof (exp_pos (- t)); lra|].
  replace (sig x * (1 - sig x)) with ((0 * (1 + exp (- x)) - (0 + exp (- x) * -1) * 1) / Rsqr (1 + exp (- x))); [exact W|]. unfold sig, Rsqr. field. lra.
Qed.
Lemma line_deriv : forall (h : R -> R) c v, derivable_pt_lim (fun t => c + t * v) 0 v /\ forall l, derivable_pt_lim h c l -> derivable_pt_lim (fun t => h (c + t * v)) 0 (l * v).
Proof.
  intros h c v. assert (derivable_pt_lim (fun t => c + t * v) 0 v) as D.
  { intros eps He. exists (mkposreal 1 ltac:(lra)). intros e N _. replace ((c + (0 + e) * v - (c + 0 * v)) / e - v) with 0 by (field; exact N). rewrite Rabs_R0. exact He. }
  split; [exact D|]. intros l H. apply (derivable_pt_lim_comp (fun t => c + t * v) h); [exact D|]. replace (c + 0 * v) with c by ring. exact H.
Qed.
Lemma chain : forall (h h' : R -> R) (f : vec) th, length f = length th -> (forall x, derivable_pt_lim h x (h' x)) -> is_gradient (fun th => h (dot f th)) th (vscale (h' (dot f th)) f).
Proof.
  intros h h' f th L H. split; [rewrite vscale_len; exact L|]. intros v Hv. rewrite dot_scale_l.
  apply (deriv_ext _ (fun t => h (dot f th + t * dot f v))).
  - intros t. rewrite (dot_add_r (length th)), dot_scale_r by (try rewrite vscale_len; auto). reflexivity.
  - apply (line_deriv h (dot f th) (dot f v)). apply H.
Qed.
Lemma sig_deriv2 : forall x, derivable_pt_lim (fun x => sig x * (1 - sig x)) x (sig x * (1 - sig x) * (1 - 2 * sig x)).
Proof.
  intros x. pose proof (sig_deriv x) as D. pose proof (derivable_pt_lim_mult sig (fun x => 1 - sig x) x _ _ D (derivable_pt_lim_minus (fun _ => 1) sig x 0 _ (derivable_pt_lim_const 1 x) D)) as W. cbv beta in W.
  replace (sig x * (1 - sig x) * (1 - 2 * sig x)) with (sig x * (1 - sig x) * (1 - sig x) + sig x * (0 - sig x * (1 - sig x))) by ring. exact W.
Qed.
Lemma logistic_smooth : forall n feat th0, length th0 = n -> (forall s, length (feat s) = n) -> smooth n 2 (logistic feat) th0 (logistic_d feat) (logistic_dd feat th0).
Proof.
  intros n feat th0 L HF. constructor.
  - exact L.
  - intros th s [|a] _; cbn; pose proof (sig_range (dot (feat s) th)); lra.
  - intros th s _. cbn. ring.
  - intros th s [|a] LT; unfold logistic_d, logistic.
    + apply (chain sig (fun x => sig x * (1 - sig x))); [congruence|apply sig_deriv].
    + apply (chain (fun x => 1 - sig x) (fun x => - (sig x * (1 - sig x)))); [congruence|]. intros x. rewrite <- Rminus_0_l. apply (derivable_pt_lim_minus (fun _ => 1) sig); [apply derivable_pt_lim_const|apply sig_deriv].
  - intros s a v Hv. assert (forall k (h h' : R -> R), (forall x, derivable_pt_lim h x (h' x)) -> (forall th, dot (vscale (h (dot (feat s) th)) (feat s)) v = k th) -> is_gradient k th0 (vscale (h' (dot (feat s) th0) * dot (feat s) v) (feat s))) as G.
    { intros k h h' H E. destruct (chain (fun x => h x * dot (feat s) v) (fun x => h' x * dot (feat s) v) (feat s) th0) as [G1 G2]; [rewrite HF; congruence| |].
      - intros x. pose proof (derivable_pt_lim_mult h (fun _ => dot (feat s) v) x _ _ (H x) (derivable_pt_lim_const _ x)) as W. cbv beta in W. replace (h' x * dot (feat s) v) with (h' x * dot (feat s) v + h x * 0) by ring. exact W.
      - split; [exact G1|]. intros w Hw. eapply deriv_ext; [|apply G2, Hw]. intros t. rewrite <- E. rewrite dot_scale_l. reflexivity. }
    unfold logistic_dd, logistic_d. destruct a as [|a].
    + apply (G _ (fun x => sig x * (1 - sig x)) (fun x => sig x * (1 - sig x) * (1 - 2 * sig x))); [apply sig_deriv2|reflexivity].
    + apply (G _ (fun x => - (sig x * (1 - sig x))) (fun x => - (sig x * (1 - sig x) * (1 - 2 * sig x)))); [|reflexivity]. intros x. apply (derivable_pt_lim_opp (fun x => sig x * (1 - sig x))). apply sig_deriv2.
Qed.
