From Coq Require Import Reals List Arith Bool Lia Lra FunctionalExtensionality.
From Verif Require Import Base.PyBase Model.PolicyGradient Spec.SumSpec Spec.PolicyGradientSpec Proofs.RSumFacts.
Import ListNotations.
Local Open Scope R_scope.

Lemma tot_flat : forall X Y (f : Y -> R) (g : X -> list Y) l, total_of f (flat_map g l) = total_of (fun x => total_of f (g x)) l.
Proof. induction l as [|x l IH]; cbn [flat_map]; [reflexivity|]. rewrite tot_app, tot_cons, IH. reflexivity. Qed.
Lemma tot_seq : forall (f : nat -> R) n, total_of f (seq 0 n) = sum_below n f.
Proof. intros f. induction n as [|n IH]; [reflexivity|]. rewrite seq_S, tot_app, IH. cbn. ring. Qed.
Lemma below_sub : forall n f g, sum_below n (fun i => f i - g i) = sum_below n f - sum_below n g.
Proof. induction n as [|n IH]; intros; cbn [sum_below]; [ring|]. rewrite IH. ring. Qed.
Lemma below_add : forall n f g, sum_below n (fun i => f i + g i) = sum_below n f + sum_below n g.
Proof. induction n as [|n IH]; intros; cbn [sum_below]; [ring|]. rewrite IH. ring. Qed.

Section M.
Context {St : Type}.
Variable m : mdp St.
Notation E := (over_episodes m).

(** Expectations one step at a time. *)
Definition rest (p : St -> nat -> R) (n : nat) (o : option St) (f : episode St -> R) : R :=
  match o with None => f (mk_episode 1 [] None) | Some s' => E p n s' f end.
Definition prepend (x : St * nat * R) (f : episode St -> R) : episode St -> R := fun e => f (mk_episode (e_prob e) (x :: e_steps e) (e_last e)).
Definition blind (f : episode St -> R) : Prop := forall p q l o, f (mk_episode p l o) = f (mk_episode q l o).
Lemma over_S : forall p n s f, blind f -> E p (S n) s f =
  sum_below (n_actions m) (fun a => p s a * total_of (fun z => o_prob z * rest p n (snd z) (prepend (s, a, o_reward z) f)) (outcomes m s a)).
Proof.
  intros p n s f B. unfold over_episodes. cbn [all_episodes]. rewrite tot_flat, tot_seq. apply below_ext. intros a _. rewrite tot_flat, <- tot_scale.
  apply tot_ext. intros z _. rewrite tot_map. cbn [e_prob].
  rewrite (tot_ext _ (fun e => p s a * o_prob z * (e_prob e * prepend (s, a, o_reward z) f e))).
  - rewrite tot_scale. destruct (snd z) as [s'|]; cbn [rest]; [unfold over_episodes; ring|]. cbn. unfold prepend. cbn [e_prob e_steps e_last]. ring.
  - intros e _. unfold prepend. rewrite (B _ (e_prob e)). ring.
Qed.
Lemma over_O : forall p s f, E p 0 s f = f (mk_episode 1 [] (Some s)).
Proof. intros. unfold over_episodes. cbn. ring. Qed.
Lemma over_ext : forall p n s f g, (forall e, f e = g e) -> E p n s f = E p n s g.
Proof. intros. unfold over_episodes. apply tot_ext. intros. rewrite H. reflexivity. Qed.
Lemma over_add : forall p n s f g, E p n s (fun e => f e + g e) = E p n s f + E p n s g.
Proof. intros. unfold over_episodes. rewrite <- tot_add. apply tot_ext. intros. ring. Qed.
Lemma over_scale : forall p n s c f, E p n s (fun e => c * f e) = c * E p n s f.
Proof. intros. unfold over_episodes. rewrite <- tot_scale. apply tot_ext. intros. ring. Qed.
Lemma rest_ext : forall p n o f g, (forall e, f e = g e) -> rest p n o f = rest p n o g.
Proof. intros. destruct o; cbn; [apply over_ext; assumption|apply H]. Qed.
Lemma rest_add : forall p n o f g, rest p n o (fun e => f e + g e) = rest p n o f + rest p n o g.
Proof. intros. destruct o; cbn; [apply over_add|reflexivity]. Qed.
Lemma rest_scale : forall p n o c f, rest p n o (fun e => c * f e) = c * rest p n o f.
Proof. intros. destruct o; cbn; [apply over_scale|reflexivity]. Qed.

Hypothesis P : proper m.
Lemma over_one : forall p n s, (forall s, sum_below (n_actions m) (p s) = 1) -> E p n s (fun _ => 1) = 1.
Proof.
  intros p n s HP. revert s. induction n as [|n IH]; intros s; [apply over_O|]. rewrite over_S by (intros ? ? ? ?; reflexivity).
  rewrite (below_ext _ _ (p s)); [apply HP|]. intros a _. rewrite (tot_ext _ o_prob); [rewrite P; ring|]. intros z _.
  replace (rest p n (snd z) _) with 1; [ring|]. destruct (snd z); cbn; [symmetry; apply IH|reflexivity].
Qed.
Lemma rest_one : forall p n o, (forall s, sum_below (n_actions m) (p s) = 1) -> rest p n o (fun _ => 1) = 1.
Proof. intros. destruct o; cbn; [apply over_one; assumption|reflexivity]. Qed.
Lemma rest_const : forall p n o c, (forall s, sum_below (n_actions m) (p s) = 1) -> rest p n o (fun _ => c) = c.
Proof. intros. rewrite (rest_ext _ _ _ _ (fun _ => c * 1)) by (intros; ring). rewrite rest_scale, rest_one by assumption. ring. Qed.

(** The return of an episode. *)
Fixpoint ret_of (gamma : R) (v : St -> R) (l : list (St * nat * R)) (o : option St) : R :=
  match l with [] => match o with None => 0 | Some s => v s end | x :: l => snd x + gamma * ret_of gamma v l o end.
Definition ret (gamma : R) (v : St -> R) (e : episode St) : R := ret_of gamma v (e_steps e) (e_last e).
Lemma over_ret : forall gamma v p n s, (forall s, sum_below (n_actions m) (p s) = 1) -> E p n s (ret gamma v) = expected_return m gamma v p n s.
Proof.
  intros gamma v p n s HP. revert s. induction n as [|n IH]; intros s; [apply over_O|]. rewrite over_S by (intros ? ? ? ?; reflexivity). cbn [expected_return].
  apply below_ext. intros a _. f_equal. apply tot_ext. intros z _. f_equal.
  rewrite (rest_ext _ _ _ _ (fun e => o_reward z + gamma * ret gamma v e)) by (intros; reflexivity). rewrite rest_add, rest_scale, rest_const by assumption. f_equal. f_equal.
  destruct (snd z); cbn; [apply IH|reflexivity].
Qed.

(** Derivatives. *)
Variable pi : R -> St -> nat -> R.
Variable theta0 : R.
Variable dpi : St -> nat -> R.
Hypothesis PI : is_policy m pi.
Hypothesis D : has_derivative pi theta0 dpi.
Notation p0 := (pi theta0).
Lemma sums : forall s, sum_below (n_actions m) (p0 s) = 1.
Proof. intros. apply PI. Qed.
Lemma deriv_below : forall n (f : R -> nat -> R) (d : nat -> R) x, (forall i, derivable_pt_lim (fun t => f t i) x (d i)) -> derivable_pt_lim (fun t => sum_below n (f t)) x (sum_below n d).
Proof.
  induction n as [|n IH]; intros f d x H; cbn [sum_below]; [apply derivable_pt_lim_const|].
  apply (derivable_pt_lim_plus (fun t => sum_below n (f t)) (fun t => f t n)); [apply IH; assumption|apply H].
Qed.
Lemma deriv_tot : forall X (l : list X) (f : R -> X -> R) (d : X -> R) x, (forall i, derivable_pt_lim (fun t => f t i) x (d i)) -> derivable_pt_lim (fun t => total_of (f t) l) x (total_of d l).
Proof.
  induction l as [|y l IH]; intros f d x H; [apply derivable_pt_lim_const|].
  apply (derivable_pt_lim_plus (fun t => f t y) (fun t => total_of (f t) l)); [apply H|apply IH; assumption].
Qed.
Lemma dpi_zero : forall s, sum_below (n_actions m) (dpi s) = 0.
Proof.
  intros s. apply (uniqueness_limite (fun t => sum_below (n_actions m) (pi t s)) theta0).
  - apply deriv_below. intros. apply D.
  - intros eps He. exists (mkposreal 1 Rlt_0_1). intros h Hh _. destruct (PI (theta0 + h) s) as [_ ->]. destruct (PI theta0 s) as [_ ->].
    replace ((1 - 1) / h - 0) with 0 by (unfold Rdiv; ring). rewrite Rabs_R0. assumption.
Qed.
(** The derivative of the expected return. *)
Fixpoint d_return (gamma : R) (v : St -> R) (n : nat) (s : St) : R :=
  match n with
  | O => 0
  | S n => sum_below (n_actions m) (fun a =>
      dpi s a * total_of (fun z => o_prob z * (o_reward z + gamma * match snd z with None => 0 | Some s' => expected_return m gamma v p0 n s' end)) (outcomes m s a) +
      p0 s a * total_of (fun z => o_prob z * (gamma * match snd z with None => 0 | Some s' => d_return gamma v n s' end)) (outcomes m s a))
  end.
Lemma d_return_ok : forall gamma v n s, derivable_pt_lim (fun t => expected_return m gamma v (pi t) n s) theta0 (d_return gamma v n s).
Proof.
  intros gamma v. induction n as [|n IH]; intros s; cbn [expected_return d_return]; [apply derivable_pt_lim_const|].
  apply deriv_below. intros a. apply (derivable_pt_lim_mult (fun t => pi t s a) (fun t => total_of _ (outcomes m s a))); [apply D|].
  apply deriv_tot. intros z. apply (derivable_pt_lim_scal (fun t => o_reward z + gamma * _) (o_prob z)).
  replace (gamma * _) with (0 + gamma * match snd z with None => 0 | Some s' => d_return gamma v n s' end) by ring.
  apply (derivable_pt_lim_plus (fun _ => o_reward z) (fun t => gamma * _)); [apply derivable_pt_lim_const|]. apply (derivable_pt_lim_scal (fun t => _) gamma). destruct (snd z); [apply IH|apply derivable_pt_lim_const].
Qed.

(** The derivative of the loss of an episode, with returns [ret], baseline [b] and the derivatives [dent] of the
    entropies. *)
Variable beta : R.
Variable dent : St -> R.
Fixpoint g_of (gamma : R) (v b : St -> R) (l : list (St * nat * R)) (o : option St) : R :=
  match l with
  | [] => 0
  | x :: l' => - (dpi (fst (fst x)) (snd (fst x)) / p0 (fst (fst x)) (snd (fst x))) * (ret_of gamma v l o - b (fst (fst x))) - beta * dent (fst (fst x)) + g_of gamma v b l' o
  end.
Definition g (gamma : R) (v b : St -> R) (e : episode St) : R := g_of gamma v b (e_steps e) (e_last e).

(** The expectation, as a recursion over the visited states. *)
Notation visited_gradient gamma v n s := (local_gradient m gamma v p0 dpi n s).
Lemma visited_one : forall v n s, visited_gradient 1 v n s = d_return 1 v n s.
Proof.
  intros v. induction n as [|n IH]; intros s; [reflexivity|]. cbn [local_gradient d_return]. apply below_ext. intros a _. f_equal. f_equal. apply tot_ext. intros z _. f_equal.
  destruct (snd z); [rewrite IH|]; ring.
Qed.
Lemma over_g : forall gamma v b n s, E p0 n s (g gamma v b) = - visited_gradient gamma v n s - beta * E p0 n s (entropy_gradient dent).
Proof.
  intros gamma v b. induction n as [|n IH]; intros s; [rewrite !over_O; cbn; unfold entropy_gradient; cbn; ring|].
  rewrite !over_S by (intros ? ? ? ?; reflexivity). cbn [local_gradient].
  set (Q := fun a => total_of (fun z => o_prob z * (o_reward z + gamma * match snd z with None => 0 | Some s' => expected_return m gamma v p0 n s' end)) (outcomes m s a)).
  set (V := fun a => total_of (fun z => o_prob z * match snd z with None => 0 | Some s' => visited_gradient gamma v n s' end) (outcomes m s a)).
  set (H := fun a => total_of (fun z => o_prob z * match snd z with None => 0 | Some s' => E p0 n s' (entropy_gradient dent) end) (outcomes m s a)).
  assert (EH : forall a, total_of (fun z => o_prob z * rest p0 n (snd z) (prepend (s, a, o_reward z) (entropy_gradient dent))) (outcomes m s a) = dent s + H a).
  { intros a. unfold H. rewrite <- (Rmult_1_r (dent s)), <- (P s a), <- tot_scale, <- tot_add. apply tot_ext. intros z _.
    rewrite (rest_ext _ _ _ _ (fun e => dent s + entropy_gradient dent e)) by (intros e; unfold prepend, entropy_gradient; cbn [e_steps]; rewrite tot_cons; reflexivity).
    rewrite rest_add, rest_const by apply sums. destruct (snd z); cbn; [ring|]. unfold entropy_gradient. cbn. ring. }
  assert (EG : forall a, total_of (fun z => o_prob z * rest p0 n (snd z) (prepend (s, a, o_reward z) (g gamma v b))) (outcomes m s a) =
     - (dpi s a / p0 s a) * (Q a - b s) - beta * (dent s + H a) - V a).
  { intros a. transitivity (total_of (fun z => - (dpi s a / p0 s a) * (o_prob z * (o_reward z + gamma * match snd z with None => 0 | Some s' => expected_return m gamma v p0 n s' end)) + (dpi s a / p0 s a * b s - beta * dent s) * o_prob z
       + (- beta * (o_prob z * match snd z with None => 0 | Some s' => E p0 n s' (entropy_gradient dent) end) + -1 * (o_prob z * match snd z with None => 0 | Some s' => visited_gradient gamma v n s' end))) (outcomes m s a)).
    2:{ rewrite !tot_add, !tot_scale, P. fold (Q a) (H a) (V a). ring. }
    apply tot_ext. intros z _.
    rewrite (rest_ext _ _ _ _ (fun e => (- (dpi s a / p0 s a) * (o_reward z - b s) - beta * dent s) + ((- (dpi s a / p0 s a) * gamma) * ret gamma v e + g gamma v b e))).
    2:{ intros e. unfold prepend, g, ret. cbn [e_steps e_last g_of ret_of fst snd]. ring. }
    rewrite rest_add, rest_add, rest_scale, rest_const by apply sums. destruct (snd z) as [s'|]; cbn [rest].
    - rewrite over_ret, IH by apply sums. ring.
    - unfold ret, g. cbn. ring. }
  rewrite (below_ext _ _ (fun a => (b s * dpi s a + -1 * (dpi s a * Q a + p0 s a * V a)) + - beta * (p0 s a * (dent s + H a)))).
  2:{ intros a _. rewrite EG. destruct (PI theta0 s) as [PP _]. specialize (PP a). field. lra. }
  rewrite !below_add, !below_scale, dpi_zero. rewrite (below_ext _ (fun a => p0 s a * total_of (fun z => o_prob z * rest p0 n (snd z) (prepend (s, a, o_reward z) (entropy_gradient dent))) (outcomes m s a)) (fun a => p0 s a * (dent s + H a))) by (intros a _; rewrite EH; reflexivity).
  rewrite (below_add _ (fun i => dpi s i * Q i)). unfold Q, V. ring.
Qed.

(** The losses of the agents. *)
Lemma ln_deriv : forall s a, derivable_pt_lim (fun t => ln (pi t s a)) theta0 (dpi s a / p0 s a).
Proof.
  intros s a. destruct (PI theta0 s) as [PP _]. replace (dpi s a / p0 s a) with (/ p0 s a * dpi s a) by (unfold Rdiv; ring).
  apply (derivable_pt_lim_comp (fun t => pi t s a) ln); [apply D|]. apply derivable_pt_lim_ln. apply PP.
Qed.
Variable entropy : R -> St -> R.
Hypothesis DE : forall s, derivable_pt_lim (fun t => entropy t s) theta0 (dent s).

Lemma cumsum_len : forall l a, length (np_cumsum a l) = length l.
Proof. induction l; intros; cbn; auto. Qed.
Lemma cumsum_snoc : forall l a x, np_cumsum a (l ++ [x]) = np_cumsum a l ++ [a + fold_right Rplus 0 l + x].
Proof. induction l as [|y l IH]; intros a x; cbn; [f_equal; ring|]. rewrite IH. f_equal. f_equal. f_equal. ring. Qed.
Lemma future_cons : forall x l, future_rewards (x :: l) = (x + fold_right Rplus 0 l) :: future_rewards l.
Proof.
  intros. unfold future_rewards. cbn [rev]. rewrite cumsum_snoc, rev_app_distr. cbn. f_equal.
  assert (G : forall l : list R, fold_right Rplus 0 (rev l) = fold_right Rplus 0 l).
  { clear. induction l as [|y l IH]; [reflexivity|]. cbn [rev]. assert (A : forall l2 l1, fold_right Rplus 0 (l1 ++ l2) = fold_right Rplus 0 l1 + fold_right Rplus 0 l2) by (clear; intros l2; induction l1 as [|z l1 IH]; cbn; [ring|rewrite IH; ring]). rewrite A, IH. cbn. ring. }
  rewrite G. ring.
Qed.
Lemma sum_ret : forall l o, fold_right Rplus 0 (map snd l) = ret_of 1 (fun _ => 0) l o.
Proof. induction l as [|x l IH]; intros o; cbn; [destruct o; reflexivity|]. rewrite (IH o). ring. Qed.
Lemma reinforce_deriv : forall e, derivable_pt_lim (reinforce_episode beta (episode_rewards e) (episode_actions pi entropy e)) theta0 (g 1 (fun _ => 0) (fun _ => 0) e).
Proof.
  intros [pr l o]. unfold g, episode_rewards, episode_actions. cbn [e_steps e_last]. unfold reinforce_episode. induction l as [|[[s a] r] l IH]; cbn [map]; [apply derivable_pt_lim_const|].
  rewrite future_cons. cbn [combine map fold_right fst snd k_log_prob k_entropy g_of]. rewrite (sum_ret l o).
  apply (derivable_pt_lim_plus (fun t => - (snd (s, a, r) + ret_of 1 (fun _ => 0) l o) * ln (pi t s a) - beta * entropy t s)); [|exact IH].
  apply (derivable_pt_lim_minus (fun t => - (r + ret_of 1 (fun _ => 0) l o) * ln (pi t s a)) (fun t => beta * entropy t s)).
  - cbn [ret_of fst snd]. replace (- (dpi s a / p0 s a) * (r + 1 * ret_of 1 (fun _ => 0) l o - 0)) with (- (r + ret_of 1 (fun _ => 0) l o) * (dpi s a / p0 s a)) by ring.
    apply (derivable_pt_lim_scal (fun t => ln (pi t s a))). apply ln_deriv.
  - apply (derivable_pt_lim_scal (fun t => entropy t s)). apply DE.
Qed.
Lemma deriv_unique_over : forall n s (L : episode St -> R -> R) g1 g2, (forall e, In e (all_episodes m p0 n s) -> derivable_pt_lim (L e) theta0 (g1 e)) -> (forall e, derivable_pt_lim (L e) theta0 (g2 e)) -> E p0 n s g1 = E p0 n s g2.
Proof. intros n s L g1 g2 H1 H2. unfold over_episodes. apply tot_ext. intros e He. f_equal. eapply uniqueness_limite; [apply H1, He|apply H2]. Qed.
Lemma reinforce_gradient : forall n s grad, (forall e, In e (all_episodes m p0 n s) -> derivable_pt_lim (reinforce_episode beta (episode_rewards e) (episode_actions pi entropy e)) theta0 (grad e)) ->
  derivable_pt_lim (fun t => expected_return m 1 (fun _ => 0) (pi t) n s) theta0 (- (E p0 n s grad + beta * E p0 n s (entropy_gradient dent))).
Proof.
  intros n s grad H. rewrite (deriv_unique_over n s _ grad _ H (fun e => reinforce_deriv e)). rewrite over_g, visited_one.
  replace (- _) with (d_return 1 (fun _ => 0) n s) by ring. apply d_return_ok.
Qed.

(** A3C. *)
Variable value : R -> St -> R.
Lemma a3c_deriv : forall c e, ac_beta c = beta -> let '(R, pl, vl) := a3c_losses c theta0 (bootstrap value theta0 e) (episode_history pi entropy value e) in
  R = ret (ac_gamma c) (value theta0) e /\ derivable_pt_lim pl theta0 (g (ac_gamma c) (value theta0) (value theta0) e).
Proof.
  intros c [pr l o] B. unfold g, ret, episode_history, bootstrap. cbn [e_steps e_last]. unfold a3c_losses. induction l as [|[[s a] r] l IH]; cbn [map fold_right].
  - cbn [ret_of g_of]. split; [reflexivity|apply derivable_pt_lim_const].
  - match type of IH with context [fold_right ?f ?a ?l'] => destruct (fold_right f a l') as [[R pl] vl] end. destruct IH as [IR IP].
    unfold a3c_loop. cbn [h_reward h_value h_log_prob h_entropy ret_of g_of fst snd]. rewrite IR, B. split; [ring|].
    set (adv := ret_of (ac_gamma c) (value theta0) l o * ac_gamma c + r - value theta0 s).
    replace (- (dpi s a / p0 s a) * (r + ac_gamma c * ret_of (ac_gamma c) (value theta0) l o - value theta0 s) - beta * dent s + g_of (ac_gamma c) (value theta0) (value theta0) l o)
      with (g_of (ac_gamma c) (value theta0) (value theta0) l o - adv * (dpi s a / p0 s a) - beta * dent s) by (unfold adv; ring).
    apply (derivable_pt_lim_minus (fun t => pl t - ln (pi t s a) * adv) (fun t => beta * entropy t s)); [|apply (derivable_pt_lim_scal (fun t => entropy t s)); apply DE].
    apply (derivable_pt_lim_minus pl (fun t => ln (pi t s a) * adv)); [exact IP|].
    replace (fun t => ln (pi t s a) * adv) with (fun t => adv * ln (pi t s a)) by (apply functional_extensionality; intros; ring).
    apply (derivable_pt_lim_scal (fun t => ln (pi t s a))). apply ln_deriv.
Qed.
Notation a3c_pi c e := (a3c_policy_loss pi entropy value theta0 c e).
Lemma a3c_gradient : forall c n s grad, ac_beta c = beta -> ac_gamma c = 1 -> (forall e, In e (all_episodes m p0 n s) -> derivable_pt_lim (a3c_pi c e) theta0 (grad e)) ->
  derivable_pt_lim (fun t => expected_return m 1 (value theta0) (pi t) n s) theta0 (- (E p0 n s grad + beta * E p0 n s (entropy_gradient dent))).
Proof.
  intros c n s grad B G H. rewrite (deriv_unique_over n s _ grad (g 1 (value theta0) (value theta0)) H).
  - rewrite over_g, visited_one. replace (- _) with (d_return 1 (value theta0) n s) by ring. apply d_return_ok.
  - intros e. pose proof (a3c_deriv c e B) as A. unfold a3c_policy_loss. destruct (a3c_losses _ _ _ _) as [[R pl] vl]. cbn [fst snd]. rewrite G in A. apply A.
Qed.
Lemma a3c_local : forall c n s grad, ac_beta c = beta -> (forall e, In e (all_episodes m p0 n s) -> derivable_pt_lim (a3c_pi c e) theta0 (grad e)) ->
  E p0 n s grad = - (visited_gradient (ac_gamma c) (value theta0) n s + beta * E p0 n s (entropy_gradient dent)).
Proof.
  intros c n s grad B H. rewrite (deriv_unique_over n s _ grad (g (ac_gamma c) (value theta0) (value theta0)) H).
  - rewrite over_g. ring.
  - intros e. pose proof (a3c_deriv c e B) as A. unfold a3c_policy_loss. destruct (a3c_losses _ _ _ _) as [[R pl] vl]. cbn [fst snd]. apply A.
Qed.
End M.

Lemma mean_square : forall X (w f : X -> R) l c, total_of w l = 1 -> total_of (fun x => w x * ((c - f x) ^ 2 / 2)) l = (c - total_of (fun x => w x * f x) l) ^ 2 / 2 + total_of (fun x => w x * ((f x - total_of (fun x => w x * f x) l) ^ 2 / 2)) l.
Proof.
  intros X w f l c W. set (mu := total_of (fun x => w x * f x) l).
  assert (A : forall k, total_of (fun x => w x * ((k - f x) ^ 2 / 2)) l = k ^ 2 / 2 - k * mu + total_of (fun x => w x * (f x ^ 2 / 2)) l).
  { intros k. rewrite (tot_ext _ (fun x => (k ^ 2 / 2 * w x - k * (w x * f x)) + w x * (f x ^ 2 / 2))) by (intros; field). rewrite tot_add, tot_sub, !tot_scale, W. fold mu. ring. }
  rewrite A, (tot_ext (fun x => w x * ((f x - mu) ^ 2 / 2)) (fun x => w x * ((mu - f x) ^ 2 / 2))) by (intros; field). rewrite A. field.
Qed.
Lemma value_regression : forall St (m : mdp St) pi entropy value theta0 c n s (p : St -> nat -> R) x, proper m -> (forall s, sum_below (n_actions m) (p s) = 1) ->
  let goal := expected_return m (ac_gamma c) (value theta0) p n s in
  let loss y := over_episodes m p n s (fun e => (y - a3c_return pi entropy value theta0 c e) ^ 2 / 2) in
  loss goal <= loss x /\ (loss x = loss goal <-> x = goal).
Proof.
  intros St m pi entropy value theta0 c n s p x P S1. cbv beta zeta.
  assert (RT : forall e : episode St, a3c_return pi entropy value theta0 c e = ret (ac_gamma c) (value theta0) e).
  { intros [pr l o]. unfold a3c_return, a3c_losses, episode_history, bootstrap, ret. cbn [e_steps e_last]. induction l as [|[[s' a] r] l IH]; [reflexivity|]. cbn [map fold_right ret_of snd].
    match type of IH with context [fold_right ?f ?a ?l'] => destruct (fold_right f a l') as [[R pl] vl] end. cbn in IH |- *. rewrite IH. ring. }
  set (mu := expected_return m (ac_gamma c) (value theta0) p n s).
  assert (A : forall y, over_episodes m p n s (fun e => (y - a3c_return pi entropy value theta0 c e) ^ 2 / 2) = (y - mu) ^ 2 / 2 + over_episodes m p n s (fun e => (ret (ac_gamma c) (value theta0) e - mu) ^ 2 / 2)).
  { intros y. unfold over_episodes. rewrite (tot_ext _ (fun e => e_prob e * ((y - ret (ac_gamma c) (value theta0) e) ^ 2 / 2))) by (intros; rewrite RT; reflexivity). rewrite mean_square.
    - change (total_of (fun x0 => e_prob x0 * ret (ac_gamma c) (value theta0) x0) (all_episodes m p n s)) with (over_episodes m p n s (ret (ac_gamma c) (value theta0))). rewrite (over_ret m P) by assumption. reflexivity.
    - pose proof (over_one m P p n s S1) as O. unfold over_episodes in O. rewrite <- O. apply tot_ext. intros. ring. }
  rewrite !A. pose proof (pow2_ge_0 (x - mu)). split; [nra|]. split; [|intros ->; reflexivity]. intros H1. assert ((x - mu) ^ 2 = 0) by nra. nra.
Qed.

Lemma scale_ok : forall c theta0 b steps theta, steps <> [] -> (length steps <= ac_t_max c)%nat ->
  let '(_, pl, vl) := a3c_losses c theta0 b steps in
  let k := (if ac_keep_scale c then INR (ac_t_max c) / INR (length steps) else 1) * (if ac_normalize c then / INR (length steps) else 1) in
  0 < k /\ a3c_total c theta0 b steps theta = k * (ac_pi_coef c * pl theta + ac_v_coef c * vl theta).
Proof.
  intros c theta0 b steps theta NE L. unfold a3c_total. destruct (a3c_losses c theta0 b steps) as [[R pl] vl]. cbv zeta.
  assert (PN : 0 < INR (length steps)) by (apply lt_0_INR; destruct steps; [congruence|cbn; lia]).
  assert (PT : 0 < INR (ac_t_max c)) by (apply lt_0_INR; destruct steps; [congruence|cbn in L; lia]).
  split.
  - apply Rmult_lt_0_compat; [destruct (ac_keep_scale c); [apply Rdiv_lt_0_compat; assumption|lra]|destruct (ac_normalize c); [apply Rinv_0_lt_compat; assumption|lra]].
  - unfold a3c_scale. destruct (ac_keep_scale c); cbn [andb]; [|destruct (ac_normalize c); field; lra]. destruct (Nat.ltb_spec (length steps) (ac_t_max c)) as [H|H].
    + destruct (ac_normalize c); field; lra.
    + replace (ac_t_max c) with (length steps) by lia. destruct (ac_normalize c); field; lra.
Qed.
Lemma batch_deriv : forall beta theta (eps : list (list R * list taken)) gs, eps <> [] -> Forall2 (fun e g => derivable_pt_lim (reinforce_episode beta (fst e) (snd e)) theta g) eps gs ->
  derivable_pt_lim (reinforce_loss beta (length eps) eps) theta (fold_right Rplus 0 gs / INR (length gs)).
Proof.
  intros beta theta eps gs NE H. assert (L : length gs = length eps) by (clear NE; induction H; cbn; congruence). rewrite L. unfold reinforce_loss.
  assert (G : derivable_pt_lim (fun t => fold_right Rplus 0 (map (fun e => reinforce_episode beta (fst e) (snd e) t) eps)) theta (fold_right Rplus 0 gs)).
  { clear NE L. induction H as [|e g eps gs He H IH]; cbn [map fold_right]; [apply derivable_pt_lim_const|]. apply (derivable_pt_lim_plus (reinforce_episode beta (fst e) (snd e))); assumption. }
  replace (fun theta0 => _) with (fun t => / INR (length eps) * fold_right Rplus 0 (map (fun e => reinforce_episode beta (fst e) (snd e) t) eps)) by (apply functional_extensionality; intros; unfold Rdiv; ring).
  replace (fold_right Rplus 0 gs / INR (length eps)) with (/ INR (length eps) * fold_right Rplus 0 gs) by (unfold Rdiv; ring). apply (derivable_pt_lim_scal (fun t => fold_right Rplus 0 _)). exact G.
Qed.
Lemma ascent : forall f x d, derivable_pt_lim f x d -> d <> 0 -> exists r, 0 < r /\ forall h, 0 < h < r -> f x < f (x + h * d).
Proof.
  intros f x d H NZ. assert (PD : 0 < Rabs d) by (apply Rabs_pos_lt; assumption). destruct (H (Rabs d / 2) ltac:(lra)) as (del & Hd). exists (del / Rabs d). split; [apply Rdiv_lt_0_compat; [apply cond_pos|assumption]|].
  intros h [H1 H2]. assert (NZH : h * d <> 0) by (apply Rmult_integral_contrapositive; split; lra).
  assert (AB : Rabs (h * d) < del). { rewrite Rabs_mult, (Rabs_right h) by lra. apply (Rmult_lt_compat_r (Rabs d)) in H2; [|assumption]. replace (del / Rabs d * Rabs d) with (del : R) in H2 by (field; lra). exact H2. }
  specialize (Hd (h * d) NZH AB). set (q := (f (x + h * d) - f x) / (h * d)) in *. assert (E : f (x + h * d) - f x = q * (h * d)) by (unfold q; field; split; lra).
  assert (0 < q * d). { apply Rabs_def2 in Hd. destruct (Rcase_abs d) as [N|N]; [rewrite Rabs_left in * by assumption|rewrite Rabs_right in * by assumption]; nra. }
  assert (0 < h * (q * d)) by (apply Rmult_lt_0_compat; lra). lra.
Qed.

(** The discount is missing: two steps, of which only the second matters. *)
Lemma late_proper : proper late_mdp.
Proof. intros [|s] a; cbn; unfold o_prob; cbn; ring. Qed.
Lemma sigmoid_ok : is_policy late_mdp sigmoid_policy.
Proof.
  intros t s. pose proof (exp_pos t) as P. assert (F : 0 < exp t / (exp t + 1) < 1).
  { split; [apply Rdiv_lt_0_compat; lra|]. apply (Rmult_lt_reg_r (exp t + 1)); [lra|]. replace (exp t / (exp t + 1) * (exp t + 1)) with (exp t) by (field; lra). lra. }
  split; [intros [|a]; cbn; lra|cbn; lra].
Qed.
Lemma sigmoid_deriv : has_derivative sigmoid_policy 0 sigmoid_slope.
Proof.
  assert (G : derivable_pt_lim (fun t => exp t / (exp t + 1)) 0 (1 / 4)).
  { replace (1 / 4) with ((exp 0 * (exp 0 + 1) - (exp 0 + 0) * exp 0) / (exp 0 + 1)²) by (rewrite exp_0; unfold Rsqr; field).
    apply (derivable_pt_lim_div exp (fun t => exp t + 1)); [apply derivable_pt_lim_exp| |rewrite exp_0; lra].
    apply (derivable_pt_lim_plus exp (fun _ => 1)); [apply derivable_pt_lim_exp|apply derivable_pt_lim_const]. }
  intros s [|a]; cbn; [exact G|]. replace (- (1 / 4)) with (0 - 1 / 4) by ring. apply (derivable_pt_lim_minus (fun _ => 1) (fun t => exp t / (exp t + 1))); [apply derivable_pt_lim_const|exact G].
Qed.
Lemma discount_missing : forall gamma, gamma <> 1 -> exists (m : mdp nat) pi dpi c grad, proper m /\ is_policy m pi /\ has_derivative pi 0 dpi /\ ac_gamma c = gamma /\ ac_beta c = 0 /\
  (forall e, derivable_pt_lim (a3c_policy_loss pi (fun _ _ => 0) (fun _ _ => 0) 0 c e) 0 (grad e)) /\
  derivable_pt_lim (fun t => expected_return m gamma (fun _ => 0) (pi t) 2 0%nat) 0 (gamma / 4) /\ over_episodes m (pi 0) 2 0%nat grad = - (1 / 4).
Proof.
  intros gamma _. set (c := mk_a3c_conf gamma 0 1 1 2 false false).
  exists late_mdp, sigmoid_policy, sigmoid_slope, c, (g sigmoid_policy 0 sigmoid_slope 0 (fun _ => 0) gamma (fun _ => 0) (fun _ => 0)).
  split; [exact late_proper|]. split; [exact sigmoid_ok|]. split; [exact sigmoid_deriv|]. split; [reflexivity|]. split; [reflexivity|].
  assert (S0 : exp 0 / (exp 0 + 1) = 1 / 2) by (rewrite exp_0; field).
  split; [|split].
  - intros e. pose proof (a3c_deriv late_mdp sigmoid_policy 0 sigmoid_slope sigmoid_ok sigmoid_deriv 0 (fun _ => 0) (fun _ _ => 0) (fun s => derivable_pt_lim_const 0 0) (fun _ _ => 0) c e eq_refl) as A.
    unfold a3c_policy_loss. destruct (a3c_losses _ _ _ _) as [[R pl] vl]. exact (proj2 A).
  - pose proof (d_return_ok late_mdp sigmoid_policy 0 sigmoid_slope sigmoid_deriv gamma (fun _ => 0) 2 0%nat) as H.
    replace (gamma / 4) with (d_return late_mdp sigmoid_policy 0 sigmoid_slope gamma (fun _ => 0) 2 0%nat); [exact H|]. cbn. unfold o_prob, o_reward. cbn. rewrite S0. field.
  - rewrite (over_g late_mdp late_proper sigmoid_policy 0 sigmoid_slope sigmoid_ok sigmoid_deriv). cbn. unfold o_prob, o_reward. cbn. rewrite S0. field.
Qed.
Lemma discount_refuted : forall gamma, gamma <> 1 -> exists (m : mdp nat) pi dpi c grad slope, proper m /\ is_policy m pi /\ has_derivative pi 0 dpi /\ ac_gamma c = gamma /\ ac_beta c = 0 /\
  (forall e, derivable_pt_lim (a3c_policy_loss pi (fun _ _ => 0) (fun _ _ => 0) 0 c e) 0 (grad e)) /\
  derivable_pt_lim (fun t => expected_return m gamma (fun _ => 0) (pi t) 2 0%nat) 0 slope /\ over_episodes m (pi 0) 2 0%nat grad <> - slope.
Proof.
  intros gamma NE. destruct (discount_missing gamma NE) as (m & pi & dpi & c & grad & A1 & A2 & A3 & A4 & A5 & A6 & A7 & A8). exists m, pi, dpi, c, grad, (gamma / 4). repeat split; auto; try apply A2.
  rewrite A8. intros X. apply NE. lra.
Qed.
Lemma discounted_cons : forall gamma r l b, discounted gamma (r :: l) b = r + gamma * discounted gamma l b.
Proof.
  intros. unfold discounted. cbn [length]. rewrite below_S. rewrite Rmult_plus_distr_l, <- below_scale. cbn [nth pow].
  rewrite (below_ext (length l) (fun i => gamma * gamma ^ i * nth i l 0) (fun i => gamma * (gamma ^ i * nth i l 0))) by (intros; ring). ring.
Qed.
Lemma a3c_closed : forall c theta0 b steps, let '(R, pl, vl) := a3c_losses c theta0 b steps in
  R = discounted (ac_gamma c) (map h_reward steps) b /\
  (forall theta, pl theta = - sum_below (length steps) (fun k => match nth_error steps k with None => 0 | Some x =>
       h_log_prob x theta * (discounted (ac_gamma c) (map h_reward (skipn k steps)) b - h_value x theta0) + ac_beta c * h_entropy x theta end)) /\
  (forall theta, vl theta = sum_below (length steps) (fun k => match nth_error steps k with None => 0 | Some x =>
       (h_value x theta - discounted (ac_gamma c) (map h_reward (skipn k steps)) b) ^ 2 / 2 end)).
Proof.
  intros c theta0 b. induction steps as [|x steps IH].
  - cbn. unfold discounted. cbn. repeat split; intros; lra.
  - unfold a3c_losses in *. cbn [fold_right]. destruct (fold_right _ _ steps) as [[R pl] vl]. destruct IH as (I1 & I2 & I3). unfold a3c_loop. cbn [map]. rewrite discounted_cons.
    split; [rewrite I1; ring|]. split; intros theta; cbn [length]; rewrite below_S; cbn [nth_error skipn map]; rewrite discounted_cons, <- I1.
    + rewrite (I2 theta). ring.
    + rewrite (I3 theta). field.
Qed.
Lemma losses_differentiable : forall St (m : mdp St) pi theta0 dpi entropy dent value c e beta, is_policy m pi -> has_derivative pi theta0 dpi -> (forall s, derivable_pt_lim (fun t => entropy t s) theta0 (dent s)) ->
  (exists d, derivable_pt_lim (a3c_policy_loss pi entropy value theta0 c e) theta0 d) /\ (exists d, derivable_pt_lim (reinforce_episode beta (episode_rewards e) (episode_actions pi entropy e)) theta0 d).
Proof.
  intros St m pi theta0 dpi entropy dent value c e beta PI D DE. split.
  - pose proof (a3c_deriv m pi theta0 dpi PI D (ac_beta c) dent entropy DE value c e eq_refl) as A. unfold a3c_policy_loss. destruct (a3c_losses _ _ _ _) as [[R pl] vl]. eexists. exact (proj2 A).
  - eexists. exact (reinforce_deriv m pi theta0 dpi PI D beta dent entropy DE e).
Qed.
Lemma expected_ascent : forall St (m : mdp St) pi theta0 dpi entropy value c n s grad, proper m -> is_policy m pi -> has_derivative pi theta0 dpi ->
  ac_beta c = 0 -> ac_gamma c = 1 -> (forall e, In e (all_episodes m (pi theta0) n s) -> derivable_pt_lim (a3c_policy_loss pi entropy value theta0 c e) theta0 (grad e)) ->
  over_episodes m (pi theta0) n s grad <> 0 ->
  exists r, 0 < r /\ forall lr, 0 < lr < r -> expected_return m 1 (value theta0) (pi theta0) n s < expected_return m 1 (value theta0) (pi (theta0 - lr * over_episodes m (pi theta0) n s grad)) n s.
Proof.
  intros St m pi theta0 dpi entropy value c n s grad P PI D B G H NZ.
  set (ent0 := fun (t : R) (s : St) => 0 : R).
  assert (EQ : forall e t, a3c_policy_loss pi entropy value theta0 c e t = a3c_policy_loss pi ent0 value theta0 c e t).
  { intros e t. unfold a3c_policy_loss.
    pose proof (a3c_closed c theta0 (bootstrap value theta0 e) (episode_history pi entropy value e)) as A. pose proof (a3c_closed c theta0 (bootstrap value theta0 e) (episode_history pi ent0 value e)) as A'.
    destruct (a3c_losses c theta0 _ (episode_history pi entropy value e)) as [[R1 p1] v1]. destruct (a3c_losses c theta0 _ (episode_history pi ent0 value e)) as [[R2 p2] v2]. cbn [fst snd].
    rewrite (proj1 (proj2 A)), (proj1 (proj2 A')). f_equal. unfold episode_history. rewrite !map_length. apply below_ext. intros i _. rewrite !nth_error_map. destruct (nth_error (e_steps e) i); [|reflexivity]. cbn [option_map h_log_prob h_value h_entropy].
    rewrite !skipn_map, !map_map. cbn [h_reward]. rewrite B. ring. }
  assert (H2 : forall e, In e (all_episodes m (pi theta0) n s) -> derivable_pt_lim (a3c_policy_loss pi ent0 value theta0 c e) theta0 (grad e)).
  { intros e IN eps HE. destruct (H e IN eps HE) as [del Hd]. exists del. intros h h0 hl. rewrite <- !EQ. exact (Hd h h0 hl). }
  pose proof (a3c_gradient m P pi theta0 dpi PI D 0 (fun _ => 0) ent0 (fun s => derivable_pt_lim_const 0 theta0) value c n s grad B G H2) as K.
  destruct (ascent _ _ _ K) as (r & r0 & Hr); [rewrite Rmult_0_l, Rplus_0_r; intros X; apply NZ; lra|].
  exists r. split; [exact r0|]. intros lr L. pose proof (Hr lr L) as X. rewrite Rmult_0_l, Rplus_0_r in X. replace (theta0 - lr * over_episodes m (pi theta0) n s grad) with (theta0 + lr * - over_episodes m (pi theta0) n s grad) by ring. exact X.
Qed.
