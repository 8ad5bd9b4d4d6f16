(** Proofs about PGT. *)
From Coq Require Import Reals List Arith Bool Lia Lra.
From Verif Require Import Base.PyBase Model.Distributions Model.ReplayUpdater Model.Targets Model.PGT Spec.SumSpec Spec.PolicyGradientSpec Spec.BellmanSpec Spec.SoftSpec Spec.PGTSpec.
From Verif Require Import Proofs.RSumFacts Proofs.GradientProofs Proofs.PPOLossProofs Proofs.PolicyGradientProofs Proofs.SurrogateProofs Proofs.BellmanProofs Proofs.SoftProofs Proofs.NStepLearningProofs.
Import ListNotations.
Local Open Scope R_scope.

(** Averages over samples. *)
Section Samples.
Context {S' : Type}.
Variable n : nat.
Variable p : S' -> nat -> R.
Hypothesis P1 : forall s, sum_below n (p s) = 1.
Lemma samples_ext : forall states f g, (forall l, f l = g l) -> over_samples n p states f = over_samples n p states g.
Proof. induction states as [|s states IH]; intros f g H; cbn [over_samples]; [apply H|]. apply below_ext. intros a _. f_equal. apply IH. intros l. apply H. Qed.
Lemma samples_add : forall states c f, over_samples n p states (fun l => c + f l) = c + over_samples n p states f.
Proof.
  induction states as [|s states IH]; intros c f; cbn [over_samples]; [reflexivity|].
  rewrite (below_ext n _ (fun a => c * p s a + p s a * over_samples n p states (fun l => f (a :: l)))) by (intros a _; rewrite IH; ring). rewrite below_add, below_scale, P1. ring.
Qed.
Lemma samples_scale : forall states c f, over_samples n p states (fun l => c * f l) = c * over_samples n p states f.
Proof.
  induction states as [|s states IH]; intros c f; cbn [over_samples]; [reflexivity|]. rewrite <- below_scale. apply below_ext. intros a _. rewrite IH. ring.
Qed.
Lemma samples_sum : forall states (g : S' * nat -> R), over_samples n p states (fun l => fsum (map g (combine states l))) = total_of (fun s => sum_below n (fun a => p s a * g (s, a))) states.
Proof.
  induction states as [|s states IH]; intros g; cbn [over_samples]; [reflexivity|]. rewrite tot_cons.
  transitivity (sum_below n (fun a => p s a * g (s, a) + total_of (fun s => sum_below n (fun a => p s a * g (s, a))) states * p s a)).
  - apply below_ext. intros a _. rewrite <- IH. rewrite (samples_ext states (fun l => fsum (map g (combine (s :: states) (a :: l)))) (fun l => g (s, a) + fsum (map g (combine states l)))) by reflexivity.
    rewrite samples_add. ring.
  - rewrite below_add, below_scale, P1. ring.
Qed.
End Samples.

(** The actor. *)
Lemma ln_deriv : forall (f : R -> R) x d, 0 < f x -> derivable_pt_lim f x d -> derivable_pt_lim (fun t => ln (f t)) x (d / f x).
Proof. intros f x d P D. pose proof (derivable_pt_lim_comp f ln x d (/ f x) D (derivable_pt_lim_ln _ P)) as W. unfold Rdiv. rewrite Rmult_comm. exact W. Qed.
Section Actor.
Context {S' : Type}.
Variable n : nat.
Variables beta theta0 : R.
Variable p : R -> S' -> nat -> R.
Variable dp : S' -> nat -> R.
Variable q : S' -> nat -> R.
Variable mode : S' -> nat.
Hypothesis P0 : forall theta s a, 0 < p theta s a.
Hypothesis P1 : forall theta s, sum_below n (p theta s) = 1.
Hypothesis D : forall s a, derivable_pt_lim (fun theta => p theta s a) theta0 (dp s a).
Lemma dp_zero : forall s, sum_below n (dp s) = 0.
Proof.
  intros s. pose proof (deriv_below n (fun th a => p th s a) (dp s) theta0 (D s)) as W.
  assert (C : derivable_pt_lim (fun th => sum_below n (fun a => p th s a)) theta0 0). { apply (deriv_ext _ (fun _ => 1)); [intros; apply P1|apply derivable_pt_lim_const]. }
  exact (uniqueness_limite _ _ _ _ W C).
Qed.
Definition slope (s : S') : R := sum_below n (fun a => dp s a * (q s a - beta * ln (p theta0 s a))).
Lemma entropy_deriv : forall s, derivable_pt_lim (fun th => finite_entropy n (p th s)) theta0 (- sum_below n (fun a => dp s a * ln (p theta0 s a))).
Proof.
  intros s. unfold finite_entropy.
  pose proof (deriv_below n (fun th a => p th s a * ln (p th s a)) (fun a => dp s a * ln (p theta0 s a) + p theta0 s a * (dp s a / p theta0 s a)) theta0) as W.
  assert (W' : derivable_pt_lim (fun th => sum_below n (fun a => p th s a * ln (p th s a))) theta0 (sum_below n (fun a => dp s a * ln (p theta0 s a) + p theta0 s a * (dp s a / p theta0 s a)))).
  { apply W. intros a. apply (derivable_pt_lim_mult (fun th => p th s a) (fun th => ln (p th s a))); [apply D|]. apply (ln_deriv (fun th => p th s a)); [apply P0|apply D]. }
  apply derivable_pt_lim_opp in W'. 
  assert (E : sum_below n (fun a => dp s a * ln (p theta0 s a) + p theta0 s a * (dp s a / p theta0 s a)) = sum_below n (fun a => dp s a * ln (p theta0 s a))).
  { rewrite below_add, (below_ext n (fun a => p theta0 s a * (dp s a / p theta0 s a)) (dp s)), dp_zero, Rplus_0_r; [reflexivity|]. intros a _. field. specialize (P0 theta0 s a). lra. }
  rewrite E in W'. exact W'.
Qed.
Lemma improvement_deriv : forall s, derivable_pt_lim (fun th => regularized_value n beta (p th s) (q s)) theta0 (slope s).
Proof.
  intros s. unfold regularized_value, slope.
  replace (sum_below n _) with (sum_below n (fun a => dp s a * q s a) + beta * - sum_below n (fun a => dp s a * ln (p theta0 s a))).
  - apply (derivable_pt_lim_plus (fun th => sum_below n (fun a => p th s a * q s a)) (fun th => beta * finite_entropy n (p th s))).
    + apply (deriv_below n (fun th a => p th s a * q s a) (fun a => dp s a * q s a)). intros a. replace (dp s a * q s a) with (q s a * dp s a) by ring.
      apply (deriv_ext _ (fun th => q s a * p th s a)); [intros; ring|]. apply (derivable_pt_lim_scal (fun th => p th s a)). apply D.
    + apply (derivable_pt_lim_scal (fun th => finite_entropy n (p th s))). apply entropy_deriv.
  - rewrite (below_ext n (fun a => dp s a * (q s a - beta * ln (p theta0 s a))) (fun a => dp s a * q s a - beta * (dp s a * ln (p theta0 s a)))) by (intros; ring). rewrite below_sub, below_scale. ring.
Qed.
Lemma row_average : forall s, derivable_pt_lim (fun th => sum_below n (fun a => p theta0 s a * ((q s a - q s (mode s)) * ln (p th s a) + beta * finite_entropy n (p th s)))) theta0 (slope s).
Proof.
  intros s. apply (deriv_ext _ (fun th => sum_below n (fun a => p theta0 s a * (q s a - q s (mode s)) * ln (p th s a)) + beta * finite_entropy n (p th s))).
  - intros th. rewrite (below_ext n _ (fun a => p theta0 s a * (q s a - q s (mode s)) * ln (p th s a) + beta * finite_entropy n (p th s) * p theta0 s a)) by (intros; ring). rewrite below_add, below_scale, P1. ring.
  - replace (slope s) with (sum_below n (fun a => (q s a - q s (mode s)) * dp s a) + beta * - sum_below n (fun a => dp s a * ln (p theta0 s a))).
    + apply (derivable_pt_lim_plus (fun th => sum_below n (fun a => p theta0 s a * (q s a - q s (mode s)) * ln (p th s a))) (fun th => beta * finite_entropy n (p th s))).
      * apply (deriv_below n (fun th a => p theta0 s a * (q s a - q s (mode s)) * ln (p th s a)) (fun a => (q s a - q s (mode s)) * dp s a)). intros a.
        replace ((q s a - q s (mode s)) * dp s a) with (p theta0 s a * (q s a - q s (mode s)) * (dp s a / p theta0 s a)) by (field; specialize (P0 theta0 s a); lra).
        apply (derivable_pt_lim_scal (fun th => ln (p th s a))). apply (ln_deriv (fun th => p th s a)); [apply P0|apply D].
      * apply (derivable_pt_lim_scal (fun th => finite_entropy n (p th s))). apply entropy_deriv.
    + unfold slope. rewrite (below_ext n (fun a => (q s a - q s (mode s)) * dp s a) (fun a => dp s a * q s a - q s (mode s) * dp s a)) by (intros; ring).
      rewrite (below_ext n (fun a => dp s a * (q s a - beta * ln (p theta0 s a))) (fun a => dp s a * q s a - beta * (dp s a * ln (p theta0 s a)))) by (intros; ring). rewrite !below_sub, !below_scale, dp_zero. ring.
Qed.
Lemma actor_gradient : forall states,
  derivable_pt_lim (fun th => over_samples n (p theta0) states (pgt_actor_loss beta q (finite_policy n (p theta0) mode) (finite_policy n (p th) mode) states)) theta0 (- (total_of slope states / INR (length states))).
Proof.
  intros states. apply (deriv_ext _ (fun th => - / INR (length states) * total_of (fun s => sum_below n (fun a => p theta0 s a * ((q s a - q s (mode s)) * ln (p th s a) + beta * finite_entropy n (p th s)))) states)).
  - intros th. pose proof (samples_sum n (p theta0) (P1 theta0) states (fun sa => (q (fst sa) (snd sa) - q (fst sa) (mode (fst sa))) * ln (p th (fst sa) (snd sa)) + beta * finite_entropy n (p th (fst sa)))) as W. cbn [fst snd] in W. rewrite <- W.
    rewrite <- samples_scale. apply samples_ext. intros l. unfold pgt_actor_loss, pgt_advantage, finite_policy. cbn [po_most_probable po_log_prob po_entropy]. unfold Rdiv. ring.
  - replace (- (total_of slope states / INR (length states))) with (- / INR (length states) * total_of slope states) by (unfold Rdiv; ring).
    apply (derivable_pt_lim_scal (fun th => total_of (fun s => sum_below n (fun a => p theta0 s a * ((q s a - q s (mode s)) * ln (p th s a) + beta * finite_entropy n (p th s)))) states)).
    apply (deriv_tot _ states (fun th s => sum_below n (fun a => p theta0 s a * ((q s a - q s (mode s)) * ln (p th s a) + beta * finite_entropy n (p th s)))) slope). apply row_average.
Qed.
End Actor.

(** Logits. *)
Lemma exps_pos : forall n (f : nat -> R), (0 < n)%nat -> 0 < sum_below n (fun a => exp (f a)).
Proof.
  intros n f N. destruct n as [|k]; [lia|]. clear N. induction k as [|k IH]; cbn [sum_below] in *; [pose proof (exp_pos (f 0%nat)); lra|]. pose proof (exp_pos (f (S k))). lra.
Qed.
Lemma softmax_one : forall n l, (0 < n)%nat -> sum_below n (softmax_of n l) = 1.
Proof.
  intros n l N. pose proof (exps_pos n l N). unfold softmax_of. rewrite (below_ext n _ (fun a => / sum_below n (fun b => exp (l b)) * exp (l a))) by (intros; unfold Rdiv; ring). rewrite below_scale. field. lra.
Qed.
Lemma softmax_positive : forall n l a, (0 < n)%nat -> 0 < softmax_of n l a.
Proof. intros n l a N. apply Rdiv_lt_0_compat; [apply exp_pos|apply exps_pos; assumption]. Qed.
Lemma below_pick : forall n k f, (k < n)%nat -> sum_below n (fun a => if Nat.eqb a k then f a else 0) = f k.
Proof.
  induction n as [|n IH]; intros k f H; [lia|]. cbn [sum_below]. destruct (Nat.eq_dec k n) as [->|N].
  - rewrite Nat.eqb_refl. rewrite (below_ext n _ (fun _ => 0)); [rewrite below_zero0; ring|]. intros a Ha. destruct (Nat.eqb_spec a n); [lia|reflexivity].
  - rewrite IH by lia. destruct (Nat.eqb_spec n k); [lia|ring].
Qed.
Lemma exp_bump : forall l k a t0, derivable_pt_lim (fun t => exp (bump l k t a)) t0 (if Nat.eqb a k then exp (bump l k t0 a) else 0).
Proof.
  intros l k a t0. unfold bump. destruct (Nat.eqb a k); [|apply derivable_pt_lim_const].
  assert (I : derivable_pt_lim (fun t => l a + t) t0 1). { pose proof (derivable_pt_lim_plus (fun _ => l a) id t0 0 1 (derivable_pt_lim_const _ _) (derivable_pt_lim_id _)) as W. rewrite Rplus_0_l in W. exact W. }
  pose proof (derivable_pt_lim_comp (fun t => l a + t) exp t0 1 (exp (l a + t0)) I (derivable_pt_lim_exp _)) as W. rewrite Rmult_1_r in W. exact W.
Qed.
Lemma softmax_deriv : forall n l k a, (k < n)%nat -> derivable_pt_lim (fun t => softmax_of n (bump l k t) a) 0 (softmax_of n l a * ((if Nat.eqb a k then 1 else 0) - softmax_of n l k)).
Proof.
  intros n l k a K. pose proof (exps_pos n l ltac:(lia)) as Z.
  assert (B0 : forall b, bump l k 0 b = l b) by (intros b; unfold bump; destruct (Nat.eqb b k); [ring|reflexivity]).
  assert (S0 : sum_below n (fun b => exp (bump l k 0 b)) = sum_below n (fun b => exp (l b))) by (apply below_ext; intros; rewrite B0; reflexivity).
  pose proof (deriv_below n (fun t b => exp (bump l k t b)) (fun b => if Nat.eqb b k then exp (bump l k 0 b) else 0) 0 (fun b => exp_bump l k b 0)) as DZ. rewrite (below_pick n k (fun b => exp (bump l k 0 b)) K), B0 in DZ.
  pose proof (derivable_pt_lim_div (fun t => exp (bump l k t a)) (fun t => sum_below n (fun b => exp (bump l k t b))) 0 _ _ (exp_bump l k a 0) DZ) as W. cbv beta in W. rewrite S0, B0 in W.
  specialize (W ltac:(lra)). unfold softmax_of. 
  match type of W with derivable_pt_lim _ _ ?e => match goal with |- derivable_pt_lim _ _ ?e' => assert (EE : e' = e) end end; [|rewrite EE; exact W].
  unfold Rsqr. destruct (Nat.eqb a k); field; lra.
Qed.
Lemma logit_slope : forall n beta l q k, (k < n)%nat -> let p := softmax_of n l in
  derivable_pt_lim (fun t => regularized_value n beta (softmax_of n (bump l k t)) q) 0 (p k * ((q k - beta * ln (p k)) - sum_below n (fun a => p a * (q a - beta * ln (p a))))).
Proof.
  intros n beta l q k K p. assert (N : (0 < n)%nat) by lia.
  assert (B0 : forall a, softmax_of n (bump l k 0) a = p a).
  { assert (BB : forall b, bump l k 0 b = l b) by (intros b; unfold bump; destruct (Nat.eqb b k); [ring|reflexivity]). intros a. unfold p, softmax_of. rewrite BB. f_equal. apply below_ext. intros. rewrite BB. reflexivity. }
  pose proof (improvement_deriv (S' := unit) n beta 0 (fun t _ => softmax_of n (bump l k t)) (fun _ a => p a * ((if Nat.eqb a k then 1 else 0) - p k)) (fun _ => q)) as W.
  specialize (W (fun t _ a => softmax_positive n _ a N) (fun t _ => softmax_one n _ N) (fun _ a => softmax_deriv n l k a K) tt). cbv beta in W. unfold slope in W.
  match type of W with derivable_pt_lim _ _ ?e => match goal with |- derivable_pt_lim _ _ ?e' => assert (EE : e' = e) end end; [|rewrite EE; exact W].
  rewrite (below_ext n (fun a => p a * ((if Nat.eqb a k then 1 else 0) - p k) * _) (fun a => (if Nat.eqb a k then p a * (q a - beta * ln (p a)) else 0) - p k * (p a * (q a - beta * ln (p a))))).
  - rewrite below_sub, below_scale, (below_pick n k (fun a => p a * (q a - beta * ln (p a))) K). ring.
  - intros a _. rewrite B0. destruct (Nat.eqb a k); ring.
Qed.
Lemma rests : forall n beta l q, (0 < n)%nat -> let p := softmax_of n l in
  (forall k, (k < n)%nat -> derivable_pt_lim (fun t => regularized_value n beta (softmax_of n (bump l k t)) q) 0 0) <-> exists c, forall a, (a < n)%nat -> q a - beta * ln (p a) = c.
Proof.
  intros n beta l q N p. split.
  - intros H. exists (sum_below n (fun a => p a * (q a - beta * ln (p a)))). intros a Ha. pose proof (uniqueness_limite _ _ _ _ (logit_slope n beta l q a Ha) (H a Ha)) as E. fold p in E.
    apply Rmult_integral in E. pose proof (softmax_positive n l a N). fold p in H0. destruct E; lra.
  - intros [c H] k K. pose proof (logit_slope n beta l q k K) as W. fold p in W. cbv zeta in W.
    assert (ES : sum_below n (fun a => p a * (q a - beta * ln (p a))) = c).
    { rewrite (below_ext n _ (fun a => c * p a)) by (intros a Ha; rewrite (H a Ha); ring). rewrite below_scale. unfold p. rewrite softmax_one by assumption. ring. }
    rewrite ES, (H k K) in W. replace (p k * (c - c)) with 0 in W by ring. exact W.
Qed.
Lemma rests_boltzmann : forall n beta l q, (0 < n)%nat -> 0 < beta ->
  (forall k, (k < n)%nat -> derivable_pt_lim (fun t => regularized_value n beta (softmax_of n (bump l k t)) q) 0 0) <-> (forall a, (a < n)%nat -> softmax_of n l a = softmax_of n (fun b => q b / beta) a).
Proof.
  intros n beta l q N Hb. rewrite rests by assumption. split.
  - intros [c H] a Ha. assert (E : forall b, (b < n)%nat -> exp (q b / beta) = exp (c / beta) * softmax_of n l b).
    { intros b Hbn. rewrite <- (exp_ln (softmax_of n l b)) by (apply softmax_positive; assumption). rewrite <- exp_plus. f_equal. specialize (H b Hbn). apply (Rmult_eq_reg_l beta); [|lra]. field_simplify; lra. }
    unfold softmax_of at 2. rewrite (below_ext n (fun b => exp (q b / beta)) (fun b => exp (c / beta) * softmax_of n l b)) by exact E. rewrite below_scale, softmax_one, E by assumption. field. pose proof (exp_pos (c / beta)). lra.
  - intros H. exists (beta * ln (sum_below n (fun b => exp (q b / beta)))). intros a Ha. rewrite (H a Ha). unfold softmax_of. pose proof (exps_pos n (fun b => q b / beta) N). unfold Rdiv at 1. rewrite ln_mult, ln_exp, ln_Rinv; [field; lra|lra|apply exp_pos|apply Rinv_0_lt_compat; lra].
Qed.
Lemma rests_flat : forall n l q, (0 < n)%nat ->
  (forall k, (k < n)%nat -> derivable_pt_lim (fun t => regularized_value n 0 (softmax_of n (bump l k t)) q) 0 0) <-> (forall a b, (a < n)%nat -> (b < n)%nat -> q a = q b).
Proof.
  intros n l q N. rewrite rests by assumption. split.
  - intros [c H] a b Ha Hb. pose proof (H a Ha). pose proof (H b Hb). lra.
  - intros H. exists (q 0%nat). intros a Ha. rewrite (H a 0%nat Ha N). ring.
Qed.

(** The best policy. *)
Definition one_state (n : nat) : mdp unit := mk_mdp n (fun _ _ => [(1, 0, None)]).
Lemma one_regular : forall n, (0 < n)%nat -> regular (one_state n) 0.
Proof. intros n N. split; [intros s a; cbn; unfold o_prob; cbn; lra|split; [exact N|]]. intros s a z [<-|[]]; unfold o_prob, o_reward; cbn; rewrite Rabs_R0; lra. Qed.
Lemma improvement_soft : forall n beta p q, regularized_value n beta p q = soft_average (one_state n) beta p q.
Proof.
  intros n beta p q. unfold regularized_value, finite_entropy, soft_average. cbn [one_state n_actions]. rewrite (below_ext n (fun a => p a * (q a - beta * ln (p a))) (fun a => p a * q a - beta * (p a * ln (p a)))) by (intros; ring). rewrite below_sub, below_scale. ring.
Qed.
Lemma best : forall n beta p q, (0 < n)%nat -> 0 < beta -> (forall a, 0 <= p a) -> sum_below n p = 1 ->
  regularized_value n beta p q <= regularized_value n beta (softmax_of n (fun b => q b / beta)) q /\
  (regularized_value n beta p q = regularized_value n beta (softmax_of n (fun b => q b / beta)) q -> forall a, (a < n)%nat -> p a = softmax_of n (fun b => q b / beta) a).
Proof.
  intros n beta p q N Hb P1 P2. rewrite !improvement_soft. pose proof (one_regular n N) as REG.
  assert (BE : forall a, boltz (one_state n) beta q a = softmax_of n (fun b => q b / beta) a) by (intros a; rewrite (boltz_eq (one_state n) beta 0 Hb REG q a); reflexivity).
  assert (BA : soft_average (one_state n) beta (softmax_of n (fun b => q b / beta)) q = soft_max (one_state n) beta q).
  { rewrite <- (boltz_avg (one_state n) beta 0 Hb REG q). unfold soft_average. apply below_ext. intros a _. rewrite BE. reflexivity. }
  rewrite BA. destruct (gibbs_soft (one_state n) beta 0 Hb REG p q P1 P2) as [G1 G2]. split; [exact G1|]. intros E a Ha. rewrite <- BE. apply G2; assumption.
Qed.
Lemma entropy_bound : forall n p, (0 < n)%nat -> (forall a, 0 <= p a) -> sum_below n p = 1 -> finite_entropy n p <= ln (INR n).
Proof.
  intros n p N P1 P2. destruct (best n 1 p (fun _ => 0) N Rlt_0_1 P1 P2) as [H _]. unfold regularized_value in H. 
  rewrite (below_ext n (fun a => p a * 0) (fun _ => 0)), (below_ext n (fun a => softmax_of n (fun _ => 0 / 1) a * 0) (fun _ => 0)), below_zero0 in H by (intros; ring).
  assert (E : finite_entropy n (softmax_of n (fun _ => 0 / 1)) = ln (INR n)).
  { assert (I : 0 < INR n) by (apply lt_0_INR; exact N). unfold finite_entropy. rewrite (below_ext n _ (fun _ => - / INR n * ln (INR n) * 1)).
    - rewrite below_scale, below_ones. field. lra.
    - intros a _. unfold softmax_of. replace (0 / 1) with 0 by field. rewrite exp_0, below_ones. unfold Rdiv. rewrite Rmult_1_l, ln_Rinv by exact I. ring. }
  rewrite E in H. lra.
Qed.
Lemma softmax_loses : forall n beta q a, 0 < beta -> (a < n)%nat -> q a - beta * ln (INR n) <= sum_below n (fun b => softmax_of n (fun c => q c / beta) b * q b).
Proof.
  intros n beta q a Hb Ha. assert (N : (0 < n)%nat) by lia. set (p := softmax_of n (fun c => q c / beta)).
  pose proof (entropy_bound n p N (fun a => Rlt_le _ _ (softmax_positive n _ a N)) (softmax_one n _ N)) as H.
  set (d := fun b => if Nat.eqb b a then 1 else 0).
  destruct (best n beta d q N Hb) as [K _]; [intros b; unfold d; destruct (Nat.eqb b a); lra|unfold d; apply (below_pick n a (fun _ => 1)); assumption|]. fold p in K. unfold regularized_value in K.
  rewrite (below_ext n (fun b => d b * q b) (fun b => if Nat.eqb b a then q b else 0)) in K by (intros b _; unfold d; destruct (Nat.eqb b a); ring). rewrite (below_pick n a q Ha) in K.
  assert (E0 : finite_entropy n d = 0). { unfold finite_entropy. rewrite (below_ext n _ (fun _ => 0)); [rewrite below_zero0; ring|]. intros b _. unfold d. destruct (Nat.eqb b a); [rewrite ln_1|]; ring. }
  rewrite E0 in K. nra.
Qed.

(** Critic and actor together. *)
Section Both.
Context {St : Type}.
Variable m : mdp St.
Variable gamma : R.
Variable final : St.
Variable B : R.
Hypothesis G : 0 <= gamma < 1.
Hypothesis REG : regular m B.
Notation n := (n_actions m).
Notation L := (lookahead m gamma final).
Lemma critic : forall p q s a, (forall s, sum_below n (p s) = 1) -> pgt_backup m gamma final p q s a = L (fun s' => sum_below n (fun a' => p s' a' * q s' a')) s a.
Proof.
  intros p q s a P2. unfold pgt_backup, lookahead. apply tot_ext. intros z _. f_equal. unfold pgt_targets, td_targets. cbn. unfold td_row. set (s' := arrives final z).
  rewrite (below_ext n _ (fun a' => o_reward z * p s' a' + gamma * (1 - terminal_flag (ended z)) * (p s' a' * q s' a'))) by (intros; ring). rewrite below_add, !below_scale, P2. ring.
Qed.
Definition value (p q : St -> nat -> R) (s : St) : R := sum_below n (fun a => p s a * q s a).
Lemma value_bounded : forall p q b, (forall s a, 0 <= p s a) -> (forall s, sum_below n (p s) = 1) -> (forall s a, (a < n)%nat -> Rabs (q s a) <= b) -> forall s, Rabs (value p q s) <= b.
Proof.
  intros p q b P1 P2 H s. apply abs_in. unfold value. split.
  - eapply Rle_trans; [apply (sum_le n _ (fun a => b * p s a))|rewrite below_scale, P2; lra]. intros a Ha. specialize (H s a Ha). apply abs_out in H. specialize (P1 s a). nra.
  - eapply Rle_trans; [|apply (sum_le n (fun a => - b * p s a))]; [rewrite below_scale, P2; lra|]. intros a Ha. specialize (H s a Ha). apply abs_out in H. specialize (P1 s a). nra.
Qed.
Lemma value_return : forall p q s, (forall s, sum_below n (p s) = 1) -> (forall s a, (a < n)%nat -> q s a = pgt_backup m gamma final p q s a) ->
  forall k, expected_return m gamma (value p q) p k s = value p q s.
Proof.
  intros p q s P2 F k. revert s. induction k as [|k IH]; intros s; [reflexivity|]. rewrite (return_look m gamma final). unfold value at 2. apply below_ext. intros a Ha. f_equal.
  rewrite (F s a Ha), critic by assumption. unfold lookahead. apply tot_ext. intros z _. rewrite IH. reflexivity.
Qed.
Lemma pair_optimal : forall v beta p q b s, optimal_value m gamma final v -> 0 < beta -> (forall s a, (a < n)%nat -> Rabs (q s a) <= b) ->
  (forall s a, p s a = softmax_of n (fun c => q s c / beta) a) -> (forall s a, (a < n)%nat -> q s a = pgt_backup m gamma final p q s a) ->
  v s - beta * ln (INR n) / (1 - gamma) <= value p q s <= v s.
Proof.
  intros v beta p q b s OV Hb BQ EP F. pose proof (n_pos' m B REG) as N.
  assert (P1 : forall s a, 0 <= p s a) by (intros; rewrite EP; apply Rlt_le, softmax_positive; exact N).
  assert (P2 : forall s, sum_below n (p s) = 1) by (intros s0; rewrite (below_ext n _ (softmax_of n (fun c => q s0 c / beta))) by (intros; apply EP); apply softmax_one; exact N).
  destruct OV as [[c VB] OV]. pose proof (value_bounded p q b P1 P2 BQ) as VQ.
  assert (C0 : 0 <= c) by (specialize (VB s); pose proof (Rabs_pos (v s)); lra). assert (B0 : 0 <= b) by (specialize (VQ s); pose proof (Rabs_pos (value p q s)); lra).
  assert (Ln : 0 <= ln (INR n)). { destruct (Nat.eq_dec n 1) as [E1|]; [rewrite E1; cbn [INR]; rewrite ln_1; lra|]. rewrite <- ln_1. apply Rlt_le, ln_increasing; [lra|]. apply (lt_INR 1). lia. }
  assert (QL : forall s a, (a < n)%nat -> q s a = L (value p q) s a) by (intros s0 a Ha; rewrite (F s0 a Ha), critic by assumption; reflexivity).
  assert (VE : forall s, value p q s = sum_below n (fun a => p s a * L (value p q) s a)) by (intros s0; unfold value at 1; apply below_ext; intros a Ha; rewrite (QL s0 a Ha); reflexivity).
  split.
  - assert (K : v s - value p q s <= beta * ln (INR n) / (1 - gamma)); [|lra].
    apply (settle (fun d => forall s, v s - value p q s <= d) gamma (beta * ln (INR n)) (c + b)); [exact G|nra|lra| | |].
    + intros s0. pose proof (VB s0) as H1. pose proof (VQ s0) as H2. apply abs_out in H1. apply abs_out in H2. lra.
    + intros d Hd HD s0. destruct (OV s0) as [_ (a & Ha & E)]. pose proof (softmax_loses n beta (q s0) a Hb Ha) as H1.
      rewrite (below_ext n _ (fun b => p s0 b * q s0 b)) in H1 by (intros; rewrite EP; reflexivity). fold (value p q s0) in H1.
      pose proof (look_mono m gamma final B G REG v (value p q) d s0 a Hd ltac:(intros s1; specialize (HD s1); lra)) as H2. rewrite (QL s0 a Ha) in H1. lra.
    + intros d HD. apply HD.
  - assert (K : value p q s - v s <= 0 / (1 - gamma)); [|unfold Rdiv in K; lra].
    apply (settle (fun d => forall s, value p q s - v s <= d) gamma 0 (c + b)); [exact G|lra|lra| | |].
    + intros s0. pose proof (VB s0) as H1. pose proof (VQ s0) as H2. apply abs_out in H1. apply abs_out in H2. lra.
    + intros d Hd HD s0. enough (value p q s0 <= v s0 + gamma * d) by lra. rewrite VE. replace (v s0 + gamma * d) with (sum_below n (fun a => (v s0 + gamma * d) * p s0 a)) by (rewrite below_scale, P2; ring).
      apply sum_le. intros a Ha. pose proof (look_mono m gamma final B G REG (value p q) v d s0 a Hd ltac:(intros s1; specialize (HD s1); lra)) as H2. pose proof (proj1 (OV s0) a Ha). specialize (P1 s0 a). nra.
    + intros d HD. apply HD.
Qed.
End Both.
Lemma pay : forall gamma beta, 0 <= gamma < 1 -> 0 < beta -> let q := fun (_ : unit) a => match a with O => 1 | _ => 0 end in let p := fun s : unit => softmax_of 2 (fun c => q s c / beta) in
  regular pay_mdp 1 /\ optimal_value pay_mdp gamma tt (fun _ => 1) /\ (forall s a, (a < 2)%nat -> q s a = pgt_backup pay_mdp gamma tt p q s a) /\ sum_below 2 (fun a => p tt a * q tt a) < 1.
Proof.
  intros gamma beta G Hb q p. assert (REG : regular pay_mdp 1).
  { split; [intros s [|a]; cbn; unfold o_prob; cbn; lra|split; [cbn; lia|]]. intros s [|a] z [<-|[]]; unfold o_prob, o_reward; cbn; rewrite ?Rabs_R0, ?Rabs_R1; lra. }
  assert (LK : forall v s a, lookahead pay_mdp gamma tt v s a = match a with O => 1 | _ => 0 end) by (intros v s [|a]; unfold lookahead; cbn; unfold o_prob, o_reward, td_row; cbn; ring).
  split; [exact REG|split; [|split]].
  - split; [exists 1; intros; rewrite Rabs_R1; lra|]. intros s. split; [intros a _; rewrite LK; destruct a; lra|exists 0%nat; split; [cbn; lia|rewrite LK; reflexivity]].
  - intros s a Ha. rewrite (critic pay_mdp gamma tt p q s a). { rewrite LK. reflexivity. } intros s0. apply (softmax_one 2). lia.
  - cbn [sum_below]. unfold q. rewrite !Rmult_0_r, Rmult_1_r, Rplus_0_r, Rplus_0_l. pose proof (softmax_one 2 (fun c => q tt c / beta) ltac:(lia)) as S1. cbn [sum_below] in S1. pose proof (softmax_positive 2 (fun c => q tt c / beta) 1 ltac:(lia)). fold (p tt) in S1, H. lra.
Qed.
