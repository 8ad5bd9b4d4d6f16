From Coq Require Import Reals List Arith Bool Lia Lra FunctionalExtensionality.
From Verif Require Import Base.PyBase Model.Acer Model.Targets Spec.SumSpec Spec.PolicyGradientSpec Spec.BellmanSpec Spec.SoftSpec Spec.RetraceSpec
  Proofs.RSumFacts Proofs.PolicyGradientProofs Proofs.SurrogateProofs Proofs.BellmanProofs Proofs.SoftProofs.
Import ListNotations.
Local Open Scope R_scope.

Lemma below_abs : forall n (w f : nat -> R) d, (forall a, (a < n)%nat -> 0 <= w a) -> (forall a, (a < n)%nat -> Rabs (f a) <= d) -> Rabs (sum_below n (fun a => w a * f a)) <= sum_below n w * d.
Proof.
  induction n as [|n IH]; intros w f d W F; cbn [sum_below]; [rewrite Rabs_R0; lra|]. eapply Rle_trans; [apply Rabs_triang|].
  pose proof (IH w f d ltac:(intros; apply W; lia) ltac:(intros; apply F; lia)). rewrite Rabs_mult, (Rabs_pos_eq (w n)) by (apply W; lia).
  pose proof (Rmult_le_compat_l (w n) _ _ (W n ltac:(lia)) (F n ltac:(lia))). lra.
Qed.
Lemma min_weight : forall mu p, 0 <= mu -> 0 <= p -> 0 <= mu * Rmin 1 (p / mu) <= p.
Proof.
  intros mu p [M|<-] P; [|rewrite Rmult_0_l; lra]. assert (0 <= p / mu) by (apply Rmult_le_pos; [assumption|left; apply Rinv_0_lt_compat; assumption]). split.
  - apply Rmult_le_pos; [lra|]. apply Rmin_glb; lra.
  - apply Rle_trans with (mu * (p / mu)); [apply Rmult_le_compat_l; [lra|apply Rmin_r]|]. right. field. lra.
Qed.

Section R.
Context {St : Type}.
Variable m : mdp St.
Variable gamma : R.
Variable final : St.
Variable B : R.
Hypothesis G : 0 <= gamma < 1.
Hypothesis REG : regular m B.
Notation n := (n_actions m).
Notation L := (lookahead m gamma final).
Notation V := (state_value m).

(** What is left after the loop. *)
Definition left_over (p mu q : St -> nat -> R) (e : episode St) : R * R := snd (acer_returns gamma true 1 (after_steps m p q e) (replayed m p mu q e)).
Definition X (p mu q : St -> nat -> R) (sel : R * R -> R) (k : nat) (s : St) : R := over_episodes m mu k s (fun e => sel (left_over p mu q e)).
Definition coef (sel_ret : bool) (p mu : R) : R := if sel_ret then Rmin 1 (p / mu) else 1.
Definition sel (b : bool) (x : R * R) : R := if b then fst x else snd x.
Definition T (b : bool) p mu q k s a := if b then retrace m gamma p mu q k s a else untruncated m gamma p mu q k s a.

Lemma left_cons : forall b p mu q pr s a r l o, sel b (left_over p mu q (mk_episode pr ((s, a, r) :: l) o)) =
  coef b (p s a) (mu s a) * (r + gamma * sel b (left_over p mu q (mk_episode pr l o)) - q s a) + V p q s.
Proof.
  intros. unfold left_over, replayed, after_steps. cbn [e_steps e_last map acer_returns]. destruct (acer_returns gamma true 1 _ _) as [out [x y]].
  destruct b; cbn; [reflexivity|ring].
Qed.
Lemma both_cons : forall b p mu q pr s a r l o, sel b (both_targets m gamma p mu q (mk_episode pr ((s, a, r) :: l) o)) = r + gamma * sel b (left_over p mu q (mk_episode pr l o)).
Proof.
  intros. unfold both_targets, left_over, replayed, after_steps. cbn [e_steps e_last map acer_returns]. destruct (acer_returns gamma true 1 _ _) as [out [x y]]. destruct b; reflexivity.
Qed.
Lemma T_sel : forall b p mu q k s a, T b p mu q k s a = total_of (fun e => e_prob e * sel b (both_targets m gamma p mu q e)) (episodes_from m mu k s a).
Proof. intros. destruct b; reflexivity. Qed.
Lemma T_eq : forall b p mu q k s a, distribution m mu -> T b p mu q k s a = L (X p mu q (sel b) k) s a.
Proof.
  intros b p mu q k s a D. rewrite T_sel. unfold episodes_from. rewrite tot_flat. unfold lookahead. apply tot_ext. intros z _. rewrite tot_map. cbn [e_prob].
  rewrite (tot_ext _ (fun e => o_prob z * (e_prob e * (o_reward z + gamma * sel b (left_over p mu q e))))).
  2:{ intros e _. rewrite both_cons. destruct e as [pe l o]. cbn [e_prob e_steps e_last]. unfold left_over, replayed, after_steps. cbn [e_steps e_last]. ring. }
  rewrite tot_scale. f_equal. unfold td_row, ended, arrives. destruct (snd z) as [s'|]; cbn [terminal_flag].
  - unfold X. change (total_of (fun e => e_prob e * (o_reward z + gamma * sel b (left_over p mu q e))) (all_episodes m mu k s')) with (over_episodes m mu k s' (fun e => o_reward z + gamma * sel b (left_over p mu q e))).
    rewrite over_add, over_scale. change (over_episodes m mu k s' (fun _ => o_reward z)) with (rest m mu k (Some s') (fun _ => o_reward z)). rewrite rest_const; [ring|apply REG|intros; apply D].
  - cbn. unfold left_over. cbn. destruct b; cbn; ring.
Qed.
Lemma X_O : forall b p mu q s, X p mu q (sel b) 0 s = V p q s.
Proof. intros. unfold X. rewrite over_O. destruct b; reflexivity. Qed.
Lemma X_S : forall b p mu q k s, distribution m mu -> X p mu q (sel b) (S k) s = V p q s + sum_below n (fun a => mu s a * coef b (p s a) (mu s a) * (T b p mu q k s a - q s a)).
Proof.
  intros b p mu q k s D. unfold X at 1. rewrite over_S by (intros ? ? ? ?; reflexivity).
  assert (S1 : V p q s = sum_below n (fun a => mu s a * V p q s)).
  { rewrite (below_ext _ _ (fun a => V p q s * mu s a)) by (intros; ring). rewrite below_scale, (proj2 (D s)). ring. }
  rewrite S1 at 1. rewrite <- below_add. apply below_ext. intros a _. rewrite Rmult_assoc, <- Rmult_plus_distr_l. f_equal. rewrite T_eq by assumption. unfold lookahead.
  set (c := coef b (p s a) (mu s a)).
  rewrite (tot_ext _ (fun z => c * (o_prob z * td_row (o_reward z) gamma (ended z) (X p mu q (sel b) k (arrives final z))) + (V p q s - c * q s a) * o_prob z)).
  - rewrite tot_add, !tot_scale. rewrite (proj1 REG). ring.
  - intros z _. rewrite (rest_ext m mu k (snd z) _ (fun e => c * (gamma * sel b (left_over p mu q e)) + (c * (o_reward z - q s a) + V p q s))).
    2:{ intros e. unfold prepend. rewrite left_cons. destruct e as [pe l o]. cbn [e_prob e_steps e_last]. fold c. ring. }
    rewrite rest_add, !rest_scale, rest_const; [|apply REG|intros; apply D].
    unfold td_row, ended, arrives. destruct (snd z) as [s'|]; cbn [rest terminal_flag]; [unfold X; ring|]. unfold left_over. cbn. destruct b; cbn; ring.
Qed.

Lemma main : forall p mu q qp d, distribution m p -> distribution m mu -> action_values m gamma final p qp -> apart m d q qp -> forall k,
  (forall s, Rabs (X p mu q (sel true) k s - V p qp s) <= d) /\ (forall s a, (a < n)%nat -> Rabs (retrace m gamma p mu q k s a - qp s a) <= gamma * d).
Proof.
  intros p mu q qp d P M [_ F] W. assert (D0 : forall s : St, 0 <= d).
  { intros s. pose proof (W s 0%nat (proj1 (proj2 REG))). pose proof (Rabs_pos (q s 0%nat - qp s 0%nat)). lra. }
  assert (step : forall k, (forall s, Rabs (X p mu q (sel true) k s - V p qp s) <= d) -> forall s a, (a < n)%nat -> Rabs (retrace m gamma p mu q k s a - qp s a) <= gamma * d).
  { intros k H s a Ha. rewrite (F s a Ha). change (retrace m gamma p mu q k s a) with (T true p mu q k s a). rewrite T_eq by assumption.
    apply (look_diff m gamma final B G REG); [exact (D0 s)|exact H]. }
  induction k as [|k [_ IH]].
  - assert (H : forall s, Rabs (X p mu q (sel true) 0 s - V p qp s) <= d).
    { intros s. rewrite X_O. unfold state_value. rewrite <- below_sub. rewrite (below_ext _ _ (fun a => p s a * (q s a - qp s a))) by (intros; ring).
      eapply Rle_trans; [apply below_abs with (d := d); [intros; apply P|intros; apply W; assumption]|]. rewrite (proj2 (P s)). lra. }
    split; [exact H|apply step; exact H].
  - assert (H : forall s, Rabs (X p mu q (sel true) (S k) s - V p qp s) <= d).
    { intros s. rewrite X_S by assumption. cbn [coef]. set (w := fun a => mu s a * Rmin 1 (p s a / mu s a)).
      assert (Wp : forall a, 0 <= w a <= p s a) by (intros a; apply min_weight; [apply M|apply P]).
      replace (_ - V p qp s) with (sum_below n (fun a => (p s a - w a) * (q s a - qp s a)) + sum_below n (fun a => w a * (retrace m gamma p mu q k s a - qp s a))).
      2:{ unfold state_value. rewrite <- below_add. match goal with |- _ = ?a + ?b - ?c => transitivity (a - c + b); [|ring] end. rewrite <- below_sub, <- below_add. apply below_ext. intros a _. unfold w, T. ring. }
      eapply Rle_trans; [apply Rabs_triang|].
      pose proof (below_abs n (fun a => p s a - w a) (fun a => q s a - qp s a) d ltac:(intros a _; pose proof (Wp a); lra) ltac:(intros; apply W; assumption)) as E1.
      assert (GD : gamma * d <= d) by (pose proof (D0 s); pose proof (Rmult_le_compat_r d gamma 1 ltac:(assumption) ltac:(lra)); lra).
      pose proof (below_abs n w (fun a => retrace m gamma p mu q k s a - qp s a) d ltac:(intros a _; apply Wp) ltac:(intros a Ha; eapply Rle_trans; [apply IH; exact Ha|exact GD])) as E2.
      cbn beta in E1, E2. rewrite below_sub, (proj2 (P s)) in E1. lra. }
    split; [exact H|apply step; exact H].
Qed.
Lemma contracts : forall p mu q qp d k, distribution m p -> distribution m mu -> action_values m gamma final p qp -> apart m d q qp -> apart m (gamma * d) (retrace m gamma p mu q k) qp.
Proof. intros p mu q qp d k P M A W s a Ha. apply (main p mu q qp d); assumption. Qed.
Lemma fixed : forall p mu qp k s a, distribution m p -> distribution m mu -> action_values m gamma final p qp -> (a < n)%nat ->
  retrace m gamma p mu qp k s a = qp s a /\ untruncated m gamma p mu qp k s a = qp s a.
Proof.
  intros p mu qp k s a P M A Ha.
  assert (K : forall b k, (forall s, X p mu qp (sel b) k s = V p qp s) /\ forall s a, (a < n)%nat -> T b p mu qp k s a = qp s a).
  { intros b. assert (step : forall k, (forall s, X p mu qp (sel b) k s = V p qp s) -> forall s a, (a < n)%nat -> T b p mu qp k s a = qp s a).
    { intros k0 H s0 a0 H0. rewrite T_eq by assumption. rewrite (proj2 A s0 a0 H0). f_equal. apply functional_extensionality. exact H. }
    induction k0 as [|k0 [_ IH]]; (split; [|apply step]).
    - intros; apply X_O.
    - intros; apply X_O.
    - intros s0. rewrite X_S by assumption. rewrite (below_ext _ _ (fun _ => 0)), below_zero0; [ring|]. intros a0 H0. rewrite IH by assumption. ring.
    - intros s0. rewrite X_S by assumption. rewrite (below_ext _ _ (fun _ => 0)), below_zero0; [ring|]. intros a0 H0. rewrite IH by assumption. ring. }
  split; [apply (K true k)|apply (K false k)]; assumption.
Qed.
Lemma fitted_rate : forall p qp rounds q d, distribution m p -> action_values m gamma final p qp -> (forall mu k, In (mu, k) rounds -> distribution m mu) -> apart m d q qp ->
  apart m (gamma ^ length rounds * d) (fitted m gamma p rounds q) qp.
Proof.
  intros p qp. induction rounds as [|[mu k] rounds IH]; intros q d P A M W; cbn [fitted length pow]; [rewrite Rmult_1_l; exact W|].
  replace (gamma * gamma ^ length rounds * d) with (gamma ^ length rounds * (gamma * d)) by ring. apply IH; try assumption; [intros mu' k' H; apply (M mu' k'); right; exact H|].
  apply contracts; try assumption. apply (M mu k). left. reflexivity.
Qed.
(** The values exist, are unique and are those of the returns. *)
Lemma values_exist : forall p, distribution m p -> exists qp, action_values m gamma final p qp.
Proof.
  intros p P. destruct (fixpoint_exists m gamma final B G REG (fun s => policy_average (p s)) 0) as (Q & b & TQ & BQ & F).
  - intros s. apply average_nonexpansive; [intros; apply P|apply P].
  - intros s. unfold policy_average. rewrite (below_ext _ _ (fun _ => 0)), below_zero0; [rewrite Rabs_R0; lra|]. intros a _. rewrite nth_repeat. ring.
  - exists (fun s a => nth a (Q s) 0). split; [exists b; intros; apply BQ; assumption|]. intros s a Ha. rewrite <- (F s) at 1. rewrite backup_nth by assumption. f_equal. apply functional_extensionality. intros s'. unfold policy_average, state_value. rewrite TQ. reflexivity.
Qed.
Lemma values_unique : forall p q q', distribution m p -> action_values m gamma final p q -> action_values m gamma final p q' -> forall s a, (a < n)%nat -> q s a = q' s a.
Proof.
  intros p q q' P [[b Hb] A] A' s a Ha. destruct A' as [[b' Hb'] A'].
  assert (K : forall k, apart m (gamma ^ k * (b + b')) q q').
  { induction k as [|k IH]; intros s0 a0 H0.
    - cbn [pow]. rewrite Rmult_1_l. eapply Rle_trans; [apply Rabs_triang|]. rewrite Rabs_Ropp. pose proof (Hb s0 a0 H0). pose proof (Hb' s0 a0 H0). lra.
    - assert (D0 : 0 <= gamma ^ k * (b + b')) by (eapply Rle_trans; [apply Rabs_pos|apply (IH s0 a0 H0)]).
      rewrite (A s0 a0 H0), (A' s0 a0 H0). cbn [pow]. rewrite Rmult_assoc. apply (look_diff m gamma final B G REG); [exact D0|]. intros s1. unfold state_value. rewrite <- below_sub.
      rewrite (below_ext _ _ (fun a => p s1 a * (q s1 a - q' s1 a))) by (intros; ring).
      eapply Rle_trans; [apply below_abs with (d := gamma ^ k * (b + b')); [intros; apply P|intros; apply IH; assumption]|]. rewrite (proj2 (P s1)). lra. }
  pose proof (geo_zero gamma (b + b') (Rabs (q s a - q' s a)) G (fun k => K k s a Ha)) as Z. apply abs_out in Z. lra.
Qed.
Lemma values_return : forall p qp w d k s, distribution m p -> action_values m gamma final p qp -> (forall s, Rabs (w s - V p qp s) <= d) -> Rabs (expected_return m gamma w p k s - V p qp s) <= gamma ^ k * d.
Proof.
  intros p qp w d k s P A H. revert s. induction k as [|k IH]; intros s; [cbn; rewrite Rmult_1_l; apply H|].
  assert (D0 : 0 <= gamma ^ k * d) by (eapply Rle_trans; [apply Rabs_pos|apply (IH s)]).
  rewrite (return_look m gamma final). unfold state_value. rewrite <- below_sub.
  rewrite (below_ext _ _ (fun a => p s a * (L (expected_return m gamma w p k) s a - L (V p qp) s a))).
  2:{ intros a Ha. rewrite (proj2 A s a Ha) at 1. ring. }
  eapply Rle_trans; [apply below_abs with (d := gamma * (gamma ^ k * d)); [intros; apply P|]|rewrite (proj2 (P s)); cbn [pow]; lra].
  intros a _. apply (look_diff m gamma final B G REG); [exact D0|exact IH].
Qed.
Lemma episodes_one : forall mu k s a, distribution m mu -> total_of e_prob (episodes_from m mu k s a) = 1.
Proof.
  intros mu k s a M. unfold episodes_from. rewrite tot_flat. transitivity (total_of o_prob (outcomes m s a)); [|apply REG]. apply tot_ext. intros z _. rewrite tot_map. cbn [e_prob]. rewrite tot_scale.
  transitivity (o_prob z * rest m mu k (snd z) (fun _ => 1)); [|rewrite rest_one; [ring|apply REG|intros; apply M]]. f_equal.
  destruct (snd z) as [s'|]; cbn [rest]; [|cbn; ring]. unfold over_episodes. apply tot_ext. intros; ring.
Qed.
End R.

(** Without truncation an error can grow. *)
Lemma loop_regular : regular loop_mdp 0.
Proof.
  split; [intros s a; cbn; ring|]. split; [cbn; lia|]. intros s a z [<-|[]]. cbn. split; [lra|]. unfold o_reward. cbn. rewrite Rabs_R0. lra.
Qed.
Lemma always_distribution : forall a, (a < 2)%nat -> distribution loop_mdp (always a).
Proof.
  intros a H s. split; [intros b; unfold always; destruct (Nat.eqb a b); lra|]. destruct a as [|[|a]]; [| |lia]; unfold always; cbn; ring.
Qed.
Lemma loop_zero : forall gamma p, action_values loop_mdp gamma tt p (fun _ _ => 0).
Proof.
  intros gamma p. split; [exists 0; intros; rewrite Rabs_R0; lra|]. intros s a _. unfold lookahead, td_row, state_value, o_prob, o_reward. cbn. ring.
Qed.
Lemma untruncated_grows : forall gamma, 1 / 2 <= gamma < 1 -> exists (m : mdp unit) p mu q qp k s a, regular m 0 /\ distribution m p /\ distribution m mu /\ action_values m gamma tt p qp /\ apart m 1 q qp /\
  (a < n_actions m)%nat /\ 1 < Rabs (untruncated m gamma p mu q k s a - qp s a).
Proof.
  intros gamma G. exists loop_mdp, (always 0), (always 1), (fun _ a => match a with O => -1 | _ => 1 end), (fun _ _ => 0), 1%nat, tt, 0%nat.
  split; [exact loop_regular|]. split; [apply always_distribution; lia|]. split; [apply always_distribution; lia|]. split; [apply loop_zero|]. split; [|split; [cbn; lia|]].
  - intros s a _. rewrite Rminus_0_r. destruct a; unfold Rabs; destruct (Rcase_abs _); lra.
  - rewrite Rminus_0_r. change (1 < Rabs (T loop_mdp gamma false (always 0) (always 1) (fun _ a => match a with O => -1 | _ => 1 end) 1 tt 0)).
    assert (G1 : 0 <= gamma < 1) by lra.
    rewrite (T_eq loop_mdp gamma tt 0 loop_regular) by (apply always_distribution; lia). unfold lookahead. cbn [outcomes loop_mdp]. unfold total_of. cbn [map fold_right].
    unfold td_row, ended, arrives, o_prob, o_reward. cbn [fst snd terminal_flag].
    rewrite (X_S loop_mdp gamma tt 0 loop_regular) by (apply always_distribution; lia).
    cbn [sum_below loop_mdp n_actions coef]. rewrite !(T_eq loop_mdp gamma tt 0 loop_regular) by (apply always_distribution; lia).
    unfold lookahead, total_of. cbn [outcomes loop_mdp map fold_right]. unfold td_row, ended, arrives, o_prob, o_reward. cbn [fst snd terminal_flag]. rewrite !X_O.
    unfold state_value, always. cbn. rewrite Rabs_left1; nra.
Qed.
