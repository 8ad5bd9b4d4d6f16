From Coq Require Import Reals List Arith Bool Lia Lra.
From Verif Require Import Base.PyBase Model.Distributions Model.PPOLoss Model.PolicyGradient Model.Surrogate Spec.SumSpec Spec.PolicyGradientSpec Spec.SurrogateSpec Proofs.RSumFacts Proofs.DistributionProofs Proofs.PPOLossProofs Proofs.PolicyGradientProofs.
Import ListNotations.
Local Open Scope R_scope.

(** The advantages, one transition at a time. *)
Lemma gae_right : forall St gamma lambd (ep : list (evaluated St)), gae gamma lambd ep = snd (fold_right (fun y st => gae_iter gamma lambd st y) (0, []) ep).
Proof. intros. unfold gae. rewrite <- fold_left_rev_right. rewrite rev_involutive. reflexivity. Qed.
Lemma gae_len : forall St gamma lambd (ep : list (evaluated St)), length (gae gamma lambd ep) = length ep.
Proof.
  intros. rewrite gae_right. induction ep as [|y ep IH]; [reflexivity|]. cbn [fold_right]. destruct (fold_right _ _ ep) as [adv out]. cbn in *. congruence.
Qed.
Lemma dataset_len : forall St (pi : R -> St -> nat -> R) value gamma lambd theta0 eps, length (dataset pi value gamma lambd theta0 eps) = length (concat eps).
Proof.
  intros. unfold dataset. induction eps as [|ep eps IH]; [reflexivity|]. cbn [flat_map concat]. rewrite !app_length, IH, gae_len, map_length. reflexivity.
Qed.

(** The objectives are averages: times the number of transitions, they are sums over the episodes. *)
Lemma size_mean : forall X (f : X -> R) l, INR (length l) * fmean f l = total_of f l.
Proof.
  intros. rewrite fmean_total. destruct l as [|x l]; [cbn; unfold Rdiv; ring|]. field. apply not_0_INR. cbn. lia.
Qed.
Lemma mean_map : forall X Y (h : X -> Y) (f : Y -> R) l, fmean f (map h l) = fmean (fun x => f (h x)) l.
Proof. intros. unfold fmean. rewrite map_map, map_length. reflexivity. Qed.

Section S.
Context {St : Type}.
Variable pi : R -> St -> nat -> R.
Variable entropy value : R -> St -> R.
Definition ppo_term (eps_clip c_e t : R) (z : evaluated St * R * R) : R :=
  let s := sample_at pi entropy value t z in clipped_gain eps_clip (s_adv s) (s_logp s) (s_logp_old s) + c_e * s_entropy s.
Definition trpo_term (c_e t : R) (z : evaluated St * R * R) : R :=
  let s := sample_at pi entropy value t z in prob_ratio (s_logp s) (s_logp_old s) * s_adv s + c_e * s_entropy s.
Lemma ppo_sum : forall eps_clip c_e gamma lambd theta0 eps t,
  size eps * ppo_objective pi entropy value eps_clip c_e gamma lambd theta0 eps t = - total_of (ppo_term eps_clip c_e t) (dataset pi value gamma lambd theta0 eps).
Proof.
  intros. unfold size. rewrite <- (dataset_len St pi value gamma lambd theta0 eps). unfold ppo_objective, loss_policy, loss_entropy. rewrite !mean_map.
  unfold ppo_term. rewrite tot_add, tot_scale. rewrite <- !size_mean. ring.
Qed.
Lemma trpo_sum : forall c_e gamma lambd theta0 eps t,
  size eps * trpo_objective pi entropy value c_e gamma lambd theta0 eps t = total_of (trpo_term c_e t) (dataset pi value gamma lambd theta0 eps).
Proof.
  intros. unfold size. rewrite <- (dataset_len St pi value gamma lambd theta0 eps). unfold trpo_objective, trpo_gain. rewrite !mean_map.
  unfold trpo_term. rewrite tot_add, tot_scale. rewrite <- !size_mean. ring.
Qed.
Lemma by_episode : forall (f : evaluated St * R * R -> R) gamma lambd theta0 eps,
  total_of f (dataset pi value gamma lambd theta0 eps) = total_of (fun ep => total_of f (dataset pi value gamma lambd theta0 [ep])) eps.
Proof.
  intros. unfold dataset. rewrite tot_flat. apply tot_ext. intros ep _. cbn [flat_map]. rewrite app_nil_r. reflexivity.
Qed.
Lemma objectives_by_episode : forall eps_clip c_e gamma lambd theta0 eps t,
  size eps * ppo_objective pi entropy value eps_clip c_e gamma lambd theta0 eps t = total_of (fun ep => size [ep] * ppo_objective pi entropy value eps_clip c_e gamma lambd theta0 [ep] t) eps /\
  size eps * trpo_objective pi entropy value c_e gamma lambd theta0 eps t = total_of (fun ep => size [ep] * trpo_objective pi entropy value c_e gamma lambd theta0 [ep] t) eps.
Proof.
  intros. split.
  - rewrite ppo_sum, by_episode. rewrite <- tot_opp. apply tot_ext. intros ep _. rewrite ppo_sum. reflexivity.
  - rewrite trpo_sum, by_episode. apply tot_ext. intros ep _. rewrite trpo_sum. reflexivity.
Qed.

(** At the old parameters the ratio is 1, inside the clipping range. *)
Variable m : mdp St.
Variable theta0 : R.
Variable dpi : St -> nat -> R.
Hypothesis PI : is_policy m pi.
Hypothesis D : has_derivative pi theta0 dpi.
Variable dent : St -> R.
Hypothesis DE : forall s, derivable_pt_lim (fun t => entropy t s) theta0 (dent s).
Notation p0 := (pi theta0).
Notation E := (over_episodes m).
Lemma ratio_one : forall x, prob_ratio x x = 1.
Proof. intros. unfold prob_ratio. rewrite Rminus_diag_eq by reflexivity. apply exp_0. Qed.
Lemma gain_at_old : forall eps_clip A lp, 0 < eps_clip -> derivable_pt_lim (fun x => clipped_gain eps_clip A x lp) lp A.
Proof.
  intros eps_clip A lp He. destruct (gain_derivative eps_clip A lp lp ltac:(lra)) as [_ H]. rewrite ratio_one, Rmult_1_l in H.
  destruct (Rtotal_order A 0) as [L|[->|L]].
  - apply H. right. lra.
  - apply (deriv_local _ (fun _ => 0) _ _ 1); [lra| |apply derivable_pt_lim_const].
    intros y _. unfold clipped_gain. cbv zeta. rewrite !Rmult_0_r. apply Rmin_left. lra.
  - apply H. left. lra.
Qed.
Lemma trpo_at_old : forall A lp, derivable_pt_lim (fun x => prob_ratio x lp * A) lp A.
Proof. intros. pose proof (ratio_deriv A lp lp) as H. rewrite ratio_one, Rmult_1_l in H. exact H. Qed.
Lemma logp_deriv : forall s a, derivable_pt_lim (fun t => ln (pi t s a)) theta0 (dpi s a / p0 s a).
Proof. intros. apply (ln_deriv m); assumption. Qed.
Definition slope (c : R) (s : St) (a : nat) (A : R) : R := A * (dpi s a / p0 s a) + c * dent s.
Lemma compose : forall (f : R -> R) s a A c, derivable_pt_lim f (ln (p0 s a)) A ->
  derivable_pt_lim (fun t => f (ln (pi t s a)) + c * entropy t s) theta0 (slope c s a A).
Proof.
  intros f s a A c H. unfold slope. apply (derivable_pt_lim_plus (fun t => f (ln (pi t s a))) (fun t => c * entropy t s)).
  - apply (derivable_pt_lim_comp (fun t => ln (pi t s a)) f); [apply logp_deriv|exact H].
  - apply (derivable_pt_lim_scal (fun t => entropy t s)). apply DE.
Qed.

(** The advantages of an episode. *)
Definition next_v (v : St -> R) (l : list (St * nat * R)) (o : option St) : R :=
  match l with [] => match o with None => 0 | Some s => v s end | x :: _ => v (fst (fst x)) end.
Fixpoint adv_of (gamma lambd : R) (v : St -> R) (l : list (St * nat * R)) (o : option St) : R :=
  match l with [] => 0 | x :: l' => snd x + gamma * next_v v l' o - v (fst (fst x)) + gamma * lambd * adv_of gamma lambd v l' o end.
Fixpoint slope_of (c gamma lambd : R) (v : St -> R) (l : list (St * nat * R)) (o : option St) : R :=
  match l with [] => 0 | x :: l' => slope c (fst (fst x)) (snd (fst x)) (adv_of gamma lambd v l o) + slope_of c gamma lambd v l' o end.
Lemma episode_slope : forall c gamma lambd final (h : R -> evaluated St * R * R -> R),
  (forall x nv A T, derivable_pt_lim (fun t => h t (mk_evaluated x (ln (p0 (x_state x) (x_action x))) (value theta0 (x_state x)) nv, A, T)) theta0 (slope c (x_state x) (x_action x) A)) ->
  forall l o, let st := fold_right (fun y st => gae_iter gamma lambd st y) (0, []) (map (evaluate pi value theta0) (logged_steps final l o)) in
  fst st = adv_of gamma lambd (value theta0) l o /\ derivable_pt_lim (fun t => total_of (h t) (snd st)) theta0 (slope_of c gamma lambd (value theta0) l o).
Proof.
  intros c gamma lambd final h H. induction l as [|[[s a] r] l IH]; intros o; [split; [reflexivity|apply derivable_pt_lim_const]|].
  cbn [logged_steps map fold_right]. specialize (IH o). cbv zeta in IH |- *. destruct (fold_right _ _ (map _ (logged_steps final l o))) as [adv out]. cbn [fst snd] in IH. destruct IH as [E1 E2].
  set (tr := match l, o with (s', _, _) :: _, _ => _ | [], Some s' => _ | [], None => _ end).
  assert (F : x_state tr = s /\ x_action tr = a /\ x_reward tr = r /\ (if x_nonterminal tr then 1 else 0) * value theta0 (x_next tr) = next_v (value theta0) l o).
  { subst tr. destruct l as [|[[s' a'] r'] l]; [destruct o|]; cbn; repeat split; ring. }
  destruct F as (F1 & F2 & F3 & F4). unfold gae_iter. cbn [evaluate y_tr y_v y_next_v fst snd].
  assert (EA : x_reward tr + gamma * (if x_nonterminal tr then 1 else 0) * value theta0 (x_next tr) - value theta0 (x_state tr) + gamma * lambd * adv = adv_of gamma lambd (value theta0) ((s, a, r) :: l) o).
  { cbn [adv_of fst snd]. rewrite <- F4, F1, F3, E1. ring. }
  split; [exact EA|]. cbn [slope_of fst snd]. rewrite EA.
  apply (derivable_pt_lim_plus (fun t => h t _) (fun t => total_of (h t) out)); [|exact E2].
  specialize (H tr (value theta0 (x_next tr)) (adv_of gamma lambd (value theta0) ((s, a, r) :: l) o) (adv_of gamma lambd (value theta0) ((s, a, r) :: l) o + value theta0 (x_state tr))).
  unfold evaluate. rewrite F1, F2 in *. exact H.
Qed.
Lemma episode_deriv : forall c gamma lambd final (h : R -> evaluated St * R * R -> R),
  (forall x nv A T, derivable_pt_lim (fun t => h t (mk_evaluated x (ln (p0 (x_state x) (x_action x))) (value theta0 (x_state x)) nv, A, T)) theta0 (slope c (x_state x) (x_action x) A)) ->
  forall e, derivable_pt_lim (fun t => total_of (h t) (dataset pi value gamma lambd theta0 [logged final e])) theta0 (slope_of c gamma lambd (value theta0) (e_steps e) (e_last e)).
Proof.
  intros c gamma lambd final h H e. unfold dataset. cbn [flat_map]. rewrite app_nil_r, gae_right. apply (episode_slope c gamma lambd final h H).
Qed.
Lemma ppo_deriv : forall eps_clip c gamma lambd final e, 0 < eps_clip ->
  derivable_pt_lim (fun t => size [logged final e] * ppo_objective pi entropy value eps_clip c gamma lambd theta0 [logged final e] t) theta0 (- slope_of c gamma lambd (value theta0) (e_steps e) (e_last e)).
Proof.
  intros eps_clip c gamma lambd final e He. apply (deriv_local _ (fun t => - total_of (ppo_term eps_clip c t) (dataset pi value gamma lambd theta0 [logged final e])) _ _ 1); [lra|intros; apply ppo_sum|].
  apply (derivable_pt_lim_opp (fun t => total_of (ppo_term eps_clip c t) _)). apply episode_deriv. intros x nv A T. unfold ppo_term. cbn [sample_at y_tr y_logp s_adv s_logp s_logp_old s_entropy].
  apply (compose (fun y => clipped_gain eps_clip A y _)). apply gain_at_old. assumption.
Qed.
Lemma trpo_deriv : forall c gamma lambd final e,
  derivable_pt_lim (fun t => size [logged final e] * trpo_objective pi entropy value c gamma lambd theta0 [logged final e] t) theta0 (slope_of c gamma lambd (value theta0) (e_steps e) (e_last e)).
Proof.
  intros c gamma lambd final e. apply (deriv_local _ (fun t => total_of (trpo_term c t) (dataset pi value gamma lambd theta0 [logged final e])) _ _ 1); [lra|intros; apply trpo_sum|].
  apply episode_deriv. intros x nv A T. unfold trpo_term. cbn [sample_at y_tr y_logp s_adv s_logp s_logp_old s_entropy].
  apply (compose (fun y => prob_ratio y _ * A)). apply trpo_at_old.
Qed.

(** The average, first with lambda = 1. *)
Hypothesis P : proper m.
Lemma adv_one : forall gamma v l o, adv_of gamma 1 v l o = ret_of gamma v l o - next_v v l o.
Proof. induction l as [|x l IH]; intros o; cbn [adv_of ret_of next_v]; [ring|]. rewrite IH. ring. Qed.
Lemma slope_one : forall c gamma v l o, slope_of c gamma 1 v l o = - g_of pi theta0 dpi c dent gamma v v l o.
Proof. induction l as [|x l IH]; intros o; [cbn; ring|]. cbn [slope_of g_of]. rewrite IH, adv_one. unfold slope. cbn [next_v]. ring. Qed.
Lemma over_slope_one : forall c gamma v n s, E p0 n s (fun e => slope_of c gamma 1 v (e_steps e) (e_last e)) =
  local_gradient m gamma v p0 dpi n s + c * E p0 n s (entropy_gradient dent).
Proof.
  intros. rewrite (over_ext m _ _ _ _ (fun e => -1 * g pi theta0 dpi c dent gamma v v e)) by (intros e; rewrite slope_one; unfold g; ring).
  rewrite over_scale, over_g by assumption. ring.
Qed.

(** Then with values that satisfy the Bellman equation. *)
Lemma over_ext_in : forall p n s f g, (forall e, In e (all_episodes m p n s) -> f e = g e) -> E p n s f = E p n s g.
Proof. intros. unfold over_episodes. apply tot_ext. intros e He. rewrite H by assumption. reflexivity. Qed.
Lemma starts : forall v p n s e, In e (all_episodes m p n s) -> next_v v (e_steps e) (e_last e) = v s.
Proof.
  intros v p n s e He. destruct n as [|n]; cbn [all_episodes] in He; [destruct He as [<-|[]]; reflexivity|].
  apply in_flat_map in He. destruct He as (a & _ & He). apply in_flat_map in He. destruct He as (z & _ & He). apply in_map_iff in He. destruct He as (e' & <- & _). reflexivity.
Qed.
Lemma rest_next : forall v p n o, (forall s, sum_below (n_actions m) (p s) = 1) -> rest m p n o (fun e => next_v v (e_steps e) (e_last e)) = match o with None => 0 | Some s => v s end.
Proof.
  intros v p n o Hp. destruct o as [s|]; [|reflexivity]. cbn [rest]. rewrite (over_ext_in _ _ _ _ (fun _ => v s * 1)) by (intros e He; rewrite (starts v p n s) by assumption; ring).
  rewrite over_scale, over_one by assumption. ring.
Qed.
Lemma bellman_return : forall gamma v p n s, bellman m gamma p v -> expected_return m gamma v p n s = v s.
Proof.
  intros gamma v p n s B. revert s. induction n as [|n IH]; intros s; [reflexivity|]. cbn [expected_return]. rewrite (B s). apply below_ext. intros a _. f_equal. apply tot_ext. intros z _. f_equal. f_equal. f_equal.
  destruct (snd z); [apply IH|reflexivity].
Qed.
Lemma over_adv : forall gamma lambd v n s, bellman m gamma p0 v -> E p0 n s (fun e => adv_of gamma lambd v (e_steps e) (e_last e)) = 0.
Proof.
  intros gamma lambd v n s B. pose proof (sums m pi theta0 PI) as HS. revert s. induction n as [|n IH]; intros s; [rewrite over_O; reflexivity|].
  rewrite over_S by (intros ? ? ? ?; reflexivity).
  rewrite (below_ext _ _ (fun a => p0 s a * total_of (fun z => o_prob z * (o_reward z + gamma * match snd z with None => 0 | Some s' => v s' end)) (outcomes m s a) - v s * p0 s a)).
  { rewrite below_sub, below_scale, HS, <- (B s). ring. }
  intros a _. rewrite <- (Rmult_1_l (v s)). rewrite <- (P s a) at 1.
  transitivity (p0 s a * (total_of (fun z => o_prob z * (o_reward z + gamma * match snd z with None => 0 | Some s' => v s' end)) (outcomes m s a) + - v s * total_of o_prob (outcomes m s a))); [|ring].
  f_equal. rewrite <- tot_scale, <- tot_add. apply tot_ext. intros z _.
  rewrite (rest_ext m _ _ _ _ (fun e => (o_reward z - v s) + (gamma * next_v v (e_steps e) (e_last e) + (gamma * lambd) * adv_of gamma lambd v (e_steps e) (e_last e)))) by (intros e; unfold prepend; cbn [e_steps e_last adv_of fst snd]; ring).
  rewrite rest_add, rest_add, !rest_scale, rest_const, rest_next by assumption.
  replace (rest m p0 n (snd z) (fun e => adv_of gamma lambd v (e_steps e) (e_last e))) with 0; [ring|]. destruct (snd z); cbn [rest]; [symmetry; apply IH|reflexivity].
Qed.
Lemma slope_split : forall c gamma lambd v l o, slope_of c gamma lambd v l o = slope_of 0 gamma lambd v l o + c * total_of (fun z => dent (fst (fst z))) l.
Proof. intros c gamma lambd v l o. induction l as [|x l IH]; [cbn; ring|]. cbn [slope_of]. rewrite tot_cons, IH. unfold slope. ring. Qed.
Lemma over_slope_bellman : forall c gamma lambd v n s, bellman m gamma p0 v -> E p0 n s (fun e => slope_of c gamma lambd v (e_steps e) (e_last e)) =
  local_gradient m gamma v p0 dpi n s + c * E p0 n s (entropy_gradient dent).
Proof.
  intros c gamma lambd v n s B. pose proof (sums m pi theta0 PI) as HS.
  rewrite (over_ext m _ _ _ _ (fun e => slope_of 0 gamma lambd v (e_steps e) (e_last e) + c * entropy_gradient dent e)) by (intros e; apply slope_split).
  rewrite over_add, over_scale. f_equal. revert s. induction n as [|n IH]; intros s; [rewrite over_O; reflexivity|].
  rewrite over_S by (intros ? ? ? ?; reflexivity). cbn [local_gradient].
  set (Q := fun a => total_of (fun z => o_prob z * (o_reward z + gamma * match snd z with None => 0 | Some s' => expected_return m gamma v p0 n s' end)) (outcomes m s a)).
  set (V := fun a => total_of (fun z => o_prob z * match snd z with None => 0 | Some s' => local_gradient m gamma v p0 dpi n s' end) (outcomes m s a)).
  rewrite (below_ext _ _ (fun a => (dpi s a * Q a + p0 s a * V a) + - v s * dpi s a)).
  { rewrite (below_add _ (fun a => dpi s a * Q a + p0 s a * V a)), below_scale, (dpi_zero m pi theta0 dpi PI D). unfold Q, V. ring. }
  intros a _.
  transitivity (p0 s a * (dpi s a / p0 s a * Q a + (V a + - (dpi s a / p0 s a) * v s * total_of o_prob (outcomes m s a)))).
  2:{ rewrite P. destruct (PI theta0 s) as [PP _]. specialize (PP a). field. lra. }
  f_equal. unfold Q, V. rewrite <- !tot_scale, <- !tot_add. apply tot_ext. intros z _.
  rewrite (rest_ext m _ _ _ _ (fun e => dpi s a / p0 s a * (o_reward z - v s) + ((dpi s a / p0 s a * gamma) * next_v v (e_steps e) (e_last e) +
     ((dpi s a / p0 s a * (gamma * lambd)) * adv_of gamma lambd v (e_steps e) (e_last e) + slope_of 0 gamma lambd v (e_steps e) (e_last e))))).
  2:{ intros e. unfold prepend. cbn [e_steps e_last slope_of adv_of fst snd]. unfold slope. ring. }
  rewrite rest_add, rest_add, rest_add, !rest_scale, rest_const, rest_next by assumption.
  replace (rest m p0 n (snd z) (fun e => adv_of gamma lambd v (e_steps e) (e_last e))) with 0 by (destruct (snd z); cbn [rest]; [symmetry; apply over_adv; assumption|reflexivity]).
  replace (rest m p0 n (snd z) (fun e => slope_of 0 gamma lambd v (e_steps e) (e_last e))) with (match snd z with None => 0 | Some s' => local_gradient m gamma v p0 dpi n s' end) by (destruct (snd z); cbn [rest]; [symmetry; apply IH|reflexivity]).
  destruct (snd z); [rewrite bellman_return by assumption|]; ring.
Qed.
Definition good_values (gamma lambd : R) : Prop := lambd = 1 \/ bellman m gamma p0 (value theta0).
Lemma over_slope : forall c gamma lambd n s, good_values gamma lambd -> E p0 n s (fun e => slope_of c gamma lambd (value theta0) (e_steps e) (e_last e)) =
  local_gradient m gamma (value theta0) p0 dpi n s + c * E p0 n s (entropy_gradient dent).
Proof. intros c gamma lambd n s [->|B]; [apply over_slope_one|apply over_slope_bellman; assumption]. Qed.

Lemma ppo_gradient : forall eps_clip c gamma lambd final n s grad, 0 < eps_clip -> lambd = 1 \/ bellman m gamma p0 (value theta0) ->
  (forall e, In e (all_episodes m p0 n s) -> derivable_pt_lim (fun t => size [logged final e] * ppo_objective pi entropy value eps_clip c gamma lambd theta0 [logged final e] t) theta0 (grad e)) ->
  E p0 n s grad = - (local_gradient m gamma (value theta0) p0 dpi n s + c * E p0 n s (entropy_gradient dent)) /\
  (gamma = 1 -> derivable_pt_lim (fun t => expected_return m 1 (value theta0) (pi t) n s) theta0 (- (E p0 n s grad + c * E p0 n s (entropy_gradient dent)))).
Proof.
  intros eps_clip c gamma lambd final n s grad He G H.
  assert (Q : E p0 n s grad = - (local_gradient m gamma (value theta0) p0 dpi n s + c * E p0 n s (entropy_gradient dent))).
  { rewrite (deriv_unique_over m pi theta0 n s (fun e t => size [logged final e] * ppo_objective pi entropy value eps_clip c gamma lambd theta0 [logged final e] t) grad (fun e => - slope_of c gamma lambd (value theta0) (e_steps e) (e_last e))); [|assumption|intros; apply ppo_deriv; assumption].
    rewrite (over_ext m _ _ _ _ (fun e => -1 * slope_of c gamma lambd (value theta0) (e_steps e) (e_last e))) by (intros; ring). rewrite over_scale, over_slope by assumption. ring. }
  split; [exact Q|]. intros ->. rewrite Q. rewrite (visited_one m pi theta0 dpi). match goal with |- derivable_pt_lim _ _ ?x => replace x with (d_return m pi theta0 dpi 1 (value theta0) n s) by ring end. apply d_return_ok. assumption.
Qed.
Lemma trpo_gradient : forall c gamma lambd final n s grad, lambd = 1 \/ bellman m gamma p0 (value theta0) ->
  (forall e, In e (all_episodes m p0 n s) -> derivable_pt_lim (fun t => size [logged final e] * trpo_objective pi entropy value c gamma lambd theta0 [logged final e] t) theta0 (grad e)) ->
  E p0 n s grad = local_gradient m gamma (value theta0) p0 dpi n s + c * E p0 n s (entropy_gradient dent) /\
  (gamma = 1 -> derivable_pt_lim (fun t => expected_return m 1 (value theta0) (pi t) n s) theta0 (E p0 n s grad - c * E p0 n s (entropy_gradient dent))).
Proof.
  intros c gamma lambd final n s grad G H.
  assert (Q : E p0 n s grad = local_gradient m gamma (value theta0) p0 dpi n s + c * E p0 n s (entropy_gradient dent)).
  { rewrite (deriv_unique_over m pi theta0 n s (fun e t => size [logged final e] * trpo_objective pi entropy value c gamma lambd theta0 [logged final e] t) grad (fun e => slope_of c gamma lambd (value theta0) (e_steps e) (e_last e))); [|assumption|intros; apply trpo_deriv; assumption].
    rewrite over_slope by assumption. reflexivity. }
  split; [exact Q|]. intros ->. rewrite Q. rewrite (visited_one m pi theta0 dpi). match goal with |- derivable_pt_lim _ _ ?x => replace x with (d_return m pi theta0 dpi 1 (value theta0) n s) by ring end. apply d_return_ok. assumption.
Qed.
End S.

(** The divergence that limits TRPO's step. *)
Lemma kl_below : forall n p q, categorical_kl n p q = sum_below n (fun a => p a * (ln (p a) - ln (q a))).
Proof. intros. unfold categorical_kl. rewrite fsum_map. apply tot_seq. Qed.
Lemma below_le : forall n f g, (forall i, (i < n)%nat -> f i <= g i) -> sum_below n f <= sum_below n g.
Proof. induction n as [|n IH]; intros f g H; cbn [sum_below]; [lra|]. apply Rplus_le_compat; [apply IH; intros; apply H; lia|apply H; lia]. Qed.
Lemma below_le_eq : forall n f g, (forall i, (i < n)%nat -> f i <= g i) -> sum_below n f = sum_below n g -> forall i, (i < n)%nat -> f i = g i.
Proof.
  induction n as [|n IH]; intros f g H E i Hi; [lia|]. cbn [sum_below] in E.
  pose proof (below_le n f g ltac:(intros; apply H; lia)) as L. pose proof (H n ltac:(lia)) as Ln.
  destruct (Nat.eq_dec i n) as [->|]; [lra|]. apply IH; [intros; apply H; lia|lra|lia].
Qed.
Lemma kl_nonneg : forall n p q, (forall a, 0 < p a) -> (forall a, 0 < q a) -> sum_below n p = 1 -> sum_below n q = 1 ->
  0 <= categorical_kl n p q /\ (categorical_kl n p q = 0 -> forall a, (a < n)%nat -> p a = q a).
Proof.
  intros n p q Hp Hq Sp Sq. rewrite kl_below.
  assert (T : forall a, p a - q a <= p a * (ln (p a) - ln (q a))) by (intros; apply gibbs_term; [apply Rlt_le, Hp|apply Hq]).
  assert (Z : sum_below n (fun a => p a - q a) = 0) by (rewrite below_sub, Sp, Sq; ring). split.
  - rewrite <- Z. apply below_le. auto.
  - intros E a Ha. apply gibbs_strict; [apply Rlt_le, Hp|apply Hq|]. symmetry. apply (below_le_eq n (fun a => p a - q a) (fun a => p a * (ln (p a) - ln (q a)))); [auto|congruence|assumption].
Qed.
Lemma kl_self : forall n p, categorical_kl n p p = 0.
Proof. intros. rewrite kl_below. induction n as [|n IH]; cbn [sum_below]; [reflexivity|]. rewrite IH. ring. Qed.
Lemma mean_zero : forall X (f : X -> R) l, l <> [] -> (forall x, In x l -> 0 <= f x) -> 0 <= fmean f l /\ (fmean f l = 0 <-> forall x, In x l -> f x = 0).
Proof.
  intros X f l N H. rewrite fmean_total. pose proof (len_inr X l N) as L. assert (Z : 0 <= total_of f l) by (apply tot_nonneg; assumption). split; [apply Rmult_le_pos; [assumption|apply Rlt_le, Rinv_0_lt_compat; assumption]|].
  assert (EZ : total_of f l / INR (length l) = 0 <-> total_of f l = 0).
  { split; intros E; [|rewrite E; unfold Rdiv; ring]. apply (f_equal (fun x => x * INR (length l))) in E. rewrite Rmult_0_l in E. replace (total_of f l / INR (length l) * INR (length l)) with (total_of f l) in E by (field; lra). exact E. }
  rewrite EZ. clear -H. induction l as [|x l IH]; [split; [intros _ ? []|reflexivity]|]. rewrite tot_cons.
  pose proof (H x (or_introl eq_refl)) as Hx. assert (Hl : forall y, In y l -> 0 <= f y) by (intros; apply H; right; assumption). specialize (IH Hl). assert (T : 0 <= total_of f l) by (apply tot_nonneg; exact Hl). split.
  - intros E y [<-|I]; [lra|]. apply IH; [lra|assumption].
  - intros A. rewrite (A x) by (left; reflexivity). rewrite (proj2 IH) by (intros; apply A; right; assumption). ring.
Qed.
Lemma trpo_kl_zero : forall St (m : mdp St) pi theta0 states theta, is_policy m pi -> states <> [] ->
  0 <= trpo_kl (n_actions m) pi theta0 states theta /\
  (trpo_kl (n_actions m) pi theta0 states theta = 0 <-> forall s a, In s states -> (a < n_actions m)%nat -> pi theta s a = pi theta0 s a).
Proof.
  intros St m pi theta0 states theta PI N. unfold trpo_kl.
  assert (K : forall s, 0 <= categorical_kl (n_actions m) (pi theta0 s) (pi theta s) /\ (categorical_kl (n_actions m) (pi theta0 s) (pi theta s) = 0 -> forall a, (a < n_actions m)%nat -> pi theta0 s a = pi theta s a)).
  { intros s. destruct (PI theta0 s), (PI theta s). apply kl_nonneg; assumption. }
  destruct (mean_zero _ (fun s => categorical_kl (n_actions m) (pi theta0 s) (pi theta s)) states N ltac:(intros; apply K)) as [A B]. split; [exact A|]. rewrite B. split.
  - intros H s a Hs Ha. symmetry. apply K; auto.
  - intros H s Hs. rewrite kl_below. rewrite (below_ext _ _ (fun _ => 0 * 1)); [rewrite below_scale; ring|].
    intros a Ha. rewrite (H s a) by assumption. ring.
Qed.
Lemma deriv_mean : forall X (f : R -> X -> R) d l x, (forall i, derivable_pt_lim (fun t => f t i) x (d i)) -> derivable_pt_lim (fun t => fmean (f t) l) x (fmean d l).
Proof.
  intros X f d l x H. rewrite fmean_total. apply (deriv_local _ (fun t => total_of (f t) l * / INR (length l)) _ _ 1); [lra|intros; apply fmean_total|].
  replace (total_of d l / INR (length l)) with (total_of d l * / INR (length l) + total_of (f x) l * 0) by (unfold Rdiv; ring).
  apply (derivable_pt_lim_mult (fun t => total_of (f t) l) (fun _ => / INR (length l))); [apply deriv_tot; assumption|apply derivable_pt_lim_const].
Qed.
Lemma kl_deriv : forall St (m : mdp St) pi theta0 dpi states theta, is_policy m pi -> has_derivative pi theta dpi ->
  derivable_pt_lim (trpo_kl (n_actions m) pi theta0 states) theta (fmean (fun s => - sum_below (n_actions m) (fun a => pi theta0 s a * (dpi s a / pi theta s a))) states).
Proof.
  intros St m pi theta0 dpi states theta PI D. unfold trpo_kl.
  apply (deriv_mean St (fun t s => categorical_kl (n_actions m) (pi theta0 s) (pi t s))). intros s.
  apply (deriv_local _ (fun t => sum_below (n_actions m) (fun a => pi theta0 s a * (ln (pi theta0 s a) - ln (pi t s a)))) _ _ 1); [lra|intros; apply kl_below|].
  replace (- sum_below (n_actions m) (fun a => pi theta0 s a * (dpi s a / pi theta s a))) with (sum_below (n_actions m) (fun a => pi theta0 s a * (0 - dpi s a / pi theta s a))).
  2:{ rewrite (below_ext _ _ (fun a => -1 * (pi theta0 s a * (dpi s a / pi theta s a)))) by (intros; ring). rewrite below_scale. ring. }
  apply (deriv_below (n_actions m) (fun t a => pi theta0 s a * (ln (pi theta0 s a) - ln (pi t s a)))). intros a.
  apply (derivable_pt_lim_scal (fun t => ln (pi theta0 s a) - ln (pi t s a))).
  apply (derivable_pt_lim_minus (fun _ => ln (pi theta0 s a)) (fun t => ln (pi t s a))); [apply derivable_pt_lim_const|]. apply (ln_deriv m); assumption.
Qed.
Lemma kl_stationary : forall St (m : mdp St) pi theta0 dpi states, is_policy m pi -> has_derivative pi theta0 dpi -> derivable_pt_lim (trpo_kl (n_actions m) pi theta0 states) theta0 0.
Proof.
  intros St m pi theta0 dpi states PI D. pose proof (kl_deriv St m pi theta0 dpi states theta0 PI D) as H.
  replace 0 with (fmean (fun s => - sum_below (n_actions m) (fun a => pi theta0 s a * (dpi s a / pi theta0 s a))) states); [exact H|].
  rewrite (fmean_ext _ _ (fun _ => 0)); [rewrite fmean_total, tot_const; unfold Rdiv; ring|]. intros s _.
  rewrite (below_ext _ _ (dpi s)); [rewrite (dpi_zero m pi theta0 dpi PI D); ring|]. intros a _. destruct (PI theta0 s) as [PP _]. specialize (PP a). field. lra.
Qed.
(** Its curvature is the Fisher information. *)
Lemma kl_fisher : forall St (m : mdp St) pi theta0 (dpi : R -> St -> nat -> R) ddpi states, is_policy m pi -> (forall theta, has_derivative pi theta (dpi theta)) -> has_derivative dpi theta0 ddpi ->
  exists slope, (forall theta, derivable_pt_lim (trpo_kl (n_actions m) pi theta0 states) theta (slope theta)) /\
  derivable_pt_lim slope theta0 (fmean (fun s => sum_below (n_actions m) (fun a => pi theta0 s a * (dpi theta0 s a / pi theta0 s a) ^ 2)) states).
Proof.
  intros St m pi theta0 dpi ddpi states PI D DD.
  exists (fun theta => fmean (fun s => - sum_below (n_actions m) (fun a => pi theta0 s a * (dpi theta s a / pi theta s a))) states).
  split; [intros; apply kl_deriv; [assumption|apply D]|].
  assert (ZZ : forall s, sum_below (n_actions m) (ddpi s) = 0).
  { intros s. apply (uniqueness_limite (fun t => sum_below (n_actions m) (dpi t s)) theta0).
    - apply (deriv_below (n_actions m) (fun t => dpi t s)). intros. apply DD.
    - apply (deriv_local _ (fun _ => 0) _ _ 1); [lra|intros y _; apply (dpi_zero m pi y); [assumption|apply D]|apply derivable_pt_lim_const]. }
  apply (deriv_mean St (fun theta s => - sum_below (n_actions m) (fun a => pi theta0 s a * (dpi theta s a / pi theta s a)))). intros s.
  replace (sum_below (n_actions m) (fun a => pi theta0 s a * (dpi theta0 s a / pi theta0 s a) ^ 2)) with
    (- sum_below (n_actions m) (fun a => pi theta0 s a * ((ddpi s a * pi theta0 s a - dpi theta0 s a * dpi theta0 s a) / Rsqr (pi theta0 s a)))).
  2:{ rewrite (below_ext _ _ (fun a => ddpi s a + -1 * (pi theta0 s a * (dpi theta0 s a / pi theta0 s a) ^ 2))).
      - rewrite below_add, below_scale, ZZ. ring.
      - intros a _. destruct (PI theta0 s) as [PP _]. specialize (PP a). unfold Rsqr. field. lra. }
  apply (derivable_pt_lim_opp (fun t => sum_below (n_actions m) (fun a => pi theta0 s a * (dpi t s a / pi t s a)))).
  apply (deriv_below (n_actions m) (fun t a => pi theta0 s a * (dpi t s a / pi t s a))). intros a.
  apply (derivable_pt_lim_scal (fun t => dpi t s a / pi t s a)).
  destruct (PI theta0 s) as [PP _]. specialize (PP a).
  apply (derivable_pt_lim_div (fun t => dpi t s a) (fun t => pi t s a)); [apply DD|apply D|lra].
Qed.

(** Importance weights. *)
Lemma importance : forall n (p q A : nat -> R), (forall a, 0 < p a) -> (forall a, 0 < q a) ->
  sum_below n (fun a => p a * (prob_ratio (ln (q a)) (ln (p a)) * A a)) = sum_below n (fun a => q a * A a).
Proof.
  intros n p q A Hp Hq. apply below_ext. intros a _. unfold prob_ratio. specialize (Hp a). specialize (Hq a).
  replace (ln (q a) - ln (p a)) with (ln (q a) + - ln (p a)) by ring. rewrite exp_plus, exp_Ropp, !exp_ln by assumption. field. lra.
Qed.

(** Other values and other lambdas give another direction. *)
Lemma gate_proper : proper gate_mdp.
Proof. intros [|s] [|a]; cbn; unfold o_prob; cbn; ring. Qed.
Lemma biased : forall lambd, lambd <> 1 -> exists (m : mdp nat) pi dpi grad slope, proper m /\ is_policy m pi /\ has_derivative pi 0 dpi /\
  (forall eps_clip final e, 0 < eps_clip -> derivable_pt_lim (fun t => size [logged final e] * ppo_objective pi (fun _ _ => 0) (fun _ _ => 0) eps_clip 0 1 lambd 0 [logged final e] t) 0 (grad e)) /\
  derivable_pt_lim (fun t => expected_return m 1 (fun _ => 0) (pi t) 2 0%nat) 0 slope /\ slope = 1 / 4 /\ over_episodes m (pi 0) 2 0%nat grad = - (lambd / 4).
Proof.
  intros lambd N. exists gate_mdp, sigmoid_policy, sigmoid_slope, (fun e => - slope_of sigmoid_policy 0 sigmoid_slope (fun _ => 0) 0 1 lambd (fun _ => 0) (e_steps e) (e_last e)), (d_return gate_mdp sigmoid_policy 0 sigmoid_slope 1 (fun _ => 0) 2 0%nat).
  split; [exact gate_proper|]. split; [exact sigmoid_ok|]. split; [exact sigmoid_deriv|].
  split; [intros; apply (ppo_deriv sigmoid_policy (fun _ _ => 0) (fun _ _ => 0) gate_mdp); [exact sigmoid_ok|exact sigmoid_deriv|intros; apply derivable_pt_lim_const|assumption]|].
  split; [apply d_return_ok; exact sigmoid_deriv|]. split.
  - cbn. unfold o_prob, o_reward. cbn. rewrite exp_0. field.
  - unfold over_episodes, all_episodes. cbn. unfold o_prob, o_reward, slope. cbn. rewrite exp_0. field.
Qed.
Lemma biased_direction : forall lambd, lambd <> 1 -> exists (m : mdp nat) pi dpi grad slope, proper m /\ is_policy m pi /\ has_derivative pi 0 dpi /\
  (forall eps_clip final e, 0 < eps_clip -> derivable_pt_lim (fun t => size [logged final e] * ppo_objective pi (fun _ _ => 0) (fun _ _ => 0) eps_clip 0 1 lambd 0 [logged final e] t) 0 (grad e)) /\
  derivable_pt_lim (fun t => expected_return m 1 (fun _ => 0) (pi t) 2 0%nat) 0 slope /\ over_episodes m (pi 0) 2 0%nat grad <> - slope.
Proof.
  intros lambd N. destruct (biased lambd N) as (m & pi & dpi & grad & slope & A1 & A2 & A3 & A4 & A5 & A6 & A7). exists m, pi, dpi, grad, slope. split; [assumption|]. split; [assumption|]. split; [assumption|].
  split; [exact A4|]. split; [exact A5|]. rewrite A6, A7. intros X. apply N. lra.
Qed.
Lemma differentiable : forall St (pi : R -> St -> nat -> R) entropy value (m : mdp St) theta0 dpi dent eps_clip c_e gamma lambd final e, is_policy m pi -> has_derivative pi theta0 dpi ->
  (forall s, derivable_pt_lim (fun t => entropy t s) theta0 (dent s)) -> 0 < eps_clip ->
  exists d, derivable_pt_lim (fun t => size [logged final e] * ppo_objective pi entropy value eps_clip c_e gamma lambd theta0 [logged final e] t) theta0 (- d) /\
    derivable_pt_lim (fun t => size [logged final e] * trpo_objective pi entropy value c_e gamma lambd theta0 [logged final e] t) theta0 d.
Proof.
  intros. exists (slope_of pi theta0 dpi dent c_e gamma lambd (value theta0) (e_steps e) (e_last e)). split; [apply (ppo_deriv pi entropy value m); assumption|apply (trpo_deriv pi entropy value m); assumption].
Qed.

Theorem gae_closed : forall St gamma lambd (ep : list (evaluated St)) k y, nth_error ep k = Some y ->
  exists adv, nth_error (gae gamma lambd ep) k = Some (y, adv, y_v y + adv) /\
    adv = sum_below (length ep - k) (fun i => (gamma * lambd) ^ i * match nth_error ep (k + i) with Some z => td_error gamma z | None => 0 end).
Proof.
  intros St gamma lambd ep. rewrite gae_right.
  assert (H : fst (fold_right (fun y st => gae_iter gamma lambd st y) (0, []) ep) = sum_below (length ep) (fun i => (gamma * lambd) ^ i * match nth_error ep i with Some z => td_error gamma z | None => 0 end) /\
    forall k y, nth_error ep k = Some y -> exists adv, nth_error (snd (fold_right (fun y st => gae_iter gamma lambd st y) (0, []) ep)) k = Some (y, adv, y_v y + adv) /\
    adv = sum_below (length ep - k) (fun i => (gamma * lambd) ^ i * match nth_error ep (k + i) with Some z => td_error gamma z | None => 0 end)).
  { induction ep as [|x ep [A B]]; [split; [reflexivity|intros [|k] y E; discriminate E]|].
    cbn [fold_right]. destruct (fold_right (fun y st => gae_iter gamma lambd st y) (0, []) ep) as [adv out]. cbn [fst snd gae_iter] in *.
    assert (E : x_reward (y_tr x) + gamma * (if x_nonterminal (y_tr x) then 1 else 0) * y_next_v x - y_v x + gamma * lambd * adv =
            sum_below (length (x :: ep)) (fun i => (gamma * lambd) ^ i * match nth_error (x :: ep) i with Some z => td_error gamma z | None => 0 end)).
    { cbn [length]. rewrite below_S. cbn [nth_error pow]. rewrite A. rewrite <- below_scale. rewrite Rmult_1_l. f_equal; [unfold td_error; destruct (x_nonterminal (y_tr x)); ring|].
      apply below_ext. intros i _. ring. }
    split; [exact E|]. intros [|k] y Hy.
    - cbn [nth_error] in Hy. injection Hy as <-. eexists. split; [cbn [nth_error]; rewrite (Rplus_comm (y_v x)); reflexivity|]. rewrite Nat.sub_0_r. exact E.
    - exact (B k y Hy). }
  exact (proj2 H).
Qed.
