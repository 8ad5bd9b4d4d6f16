(** Proofs about n-step targets. *)
From Coq Require Import Reals List Arith Bool Lia Lra.
From Verif Require Import Base.PyBase Model.Distributions Model.ReplayUpdater Model.Targets Spec.SumSpec Spec.TargetSpec Spec.PolicyGradientSpec Spec.BellmanSpec Spec.NStepLearningSpec.
From Verif Require Import Proofs.RSumFacts Proofs.TargetProofs Proofs.PolicyGradientProofs Proofs.BellmanProofs.
Import ListNotations.
Local Open Scope R_scope.

Lemma sum_le : forall n f g, (forall i, (i < n)%nat -> f i <= g i) -> sum_below n f <= sum_below n g.
Proof. induction n as [|n IH]; intros f g H; cbn [sum_below]; [lra|]. apply Rplus_le_compat; [apply IH; intros; apply H; lia|apply H; lia]. Qed.
Lemma pow_small : forall g k, 0 <= g < 1 -> 0 <= g ^ S k < 1.
Proof. intros g k H. split; [apply pow_le; lra|]. induction k as [|k IH]; [cbn; lra|]. cbn [pow] in *. assert (0 <= g * g ^ k) by (apply Rmult_le_pos; [lra|apply pow_le; lra]). nra. Qed.

Lemma geo_nonneg : forall g k, 0 <= g -> 0 <= sum_below k (fun i => g ^ i).
Proof. intros g k H. induction k as [|k IH]; cbn [sum_below]; [lra|]. pose proof (pow_le g k H). lra. Qed.

Section W.
Context {St : Type}.
Variable m : mdp St.
Variable gamma : R.
Variable final : St.
Variable p : St -> nat -> R.
Notation trs := (transitions_of final).

(** The transitions of a window. *)
Lemma trs_length : forall l o, length (trs l o) = length l.
Proof. induction l as [|[[s a] r] l IH]; intros o; [reflexivity|]. cbn. f_equal. apply IH. Qed.
Lemma trs_rewards : forall l o, map (@t_reward St nat) (trs l o) = map snd l.
Proof. induction l as [|[[s a] r] l IH]; intros o; [reflexivity|]. cbn. f_equal. apply IH. Qed.
Lemma trs_terminal : forall l o, l <> [] -> existsb (@t_terminal St nat) (trs l o) = match o with None => true | Some _ => false end.
Proof.
  induction l as [|[[s a] r] l IH]; intros o H; [contradiction|]. cbn [transitions_of existsb t_terminal]. destruct l as [|y l]; [cbn; destruct o; reflexivity|].
  rewrite IH by discriminate. reflexivity.
Qed.
Lemma trs_last : forall l o d, l <> [] -> t_next_state (last (trs l o) d) = match o with None => final | Some s => s end.
Proof.
  induction l as [|[[s a] r] l IH]; intros o d H; [contradiction|]. cbn [transitions_of]. destruct l as [|[[s1 a1] r1] l]; [reflexivity|]. rewrite <- (IH o d) by discriminate. reflexivity.
Qed.
Lemma sum_discounted : forall rs, ReturnSpec.discounted gamma rs = sum_below (length rs) (fun i => gamma ^ i * nth i rs 0).
Proof.
  induction rs as [|r rs IH]; [reflexivity|]. cbn [ReturnSpec.discounted length]. rewrite below_S. cbn [nth pow]. rewrite IH, <- below_scale. rewrite Rmult_1_l. f_equal. apply below_ext. intros. ring.
Qed.

(** What can happen. *)
Lemma episodes_shape : forall k s e, In e (all_episodes m p k s) -> e_last e = None \/ length (e_steps e) = k.
Proof.
  induction k as [|k IH]; intros s e H; cbn [all_episodes] in H; [destruct H as [<-|[]]; right; reflexivity|].
  apply in_flat_map in H. destruct H as (a & _ & H). apply in_flat_map in H. destruct H as (z & _ & H). apply in_map_iff in H. destruct H as (e' & <- & H). cbn.
  destruct (snd z) as [s'|]; [destruct (IH s' e' H); [left; assumption|right; lia]|]. destruct H as [<-|[]]. left. reflexivity.
Qed.
Lemma steps_shape : forall k s a e, In e (first_steps m p k s a) -> e_steps e <> [] /\ (e_last e = None \/ length (e_steps e) = S k).
Proof.
  intros k s a e H. unfold first_steps in H. apply in_flat_map in H. destruct H as (z & _ & H). apply in_map_iff in H. destruct H as (e' & <- & H). cbn. split; [discriminate|].
  destruct (snd z) as [s'|]; [destruct (episodes_shape k s' e' H); [left; assumption|right; lia]|]. destruct H as [<-|[]]. left. reflexivity.
Qed.
Notation triple e := (e_prob e, window_reward gamma e, e_last e).
Lemma window_batch : forall k s a e, In e (first_steps m p k s a) -> exists b, batch_experiences (fun s => s) gamma [window final e] = Ok b /\
  forall v, td_targets v b = [td_row (window_reward gamma e) (gamma ^ S k) (ended (triple e)) (v (arrives final (triple e)))].
Proof.
  intros k s a e H. destruct (steps_shape k s a e H) as [NE SH]. set (d := mk_tr s a 0 s None false : transition St nat).
  destruct (td_nstep (fun s : St => s) gamma [window final e] d) as (b & E & T & _).
  - intros w [<-|[]] Z. apply (f_equal (@length _)) in Z. unfold window in Z. rewrite trs_length in Z. destruct (e_steps e); [contradiction|discriminate].
  - exists b. split; [exact E|]. intros v. rewrite T. cbn [map]. f_equal. unfold nstep_target, window. rewrite trs_rewards, trs_terminal, trs_length, trs_last by assumption. rewrite sum_discounted, map_length.
    unfold window_reward, td_row, ended, arrives. cbn [snd]. destruct SH as [->| ->]; [cbn [terminal_flag]; ring|]. destruct (e_last e); cbn [terminal_flag]; ring.
Qed.
Lemma target_row : forall k s a e v, In e (first_steps m p k s a) -> window_target gamma final v e = td_row (window_reward gamma e) (gamma ^ S k) (ended (triple e)) (v (arrives final (triple e))).
Proof. intros k s a e v H. destruct (window_batch k s a e H) as (b & E & T). unfold window_target. rewrite E, T. reflexivity. Qed.
(** One step of the n-step process. *)
Lemma as_process : forall value k Q s, n_step_backup m gamma final p value k Q s = backup (n_step_process m gamma p k) (gamma ^ S k) final value Q s.
Proof.
  intros value k Q s. unfold n_step_backup, backup, lookahead. cbn [n_actions n_step_process outcomes]. apply map_ext. intros a. rewrite tot_map. apply tot_ext. intros e He.
  rewrite (target_row k s a e _ He). reflexivity.
Qed.
Lemma process_table : forall k Q, table (n_step_process m gamma p k) Q <-> table m Q.
Proof. intros. unfold table. reflexivity. Qed.

(** The returns of windows. *)
Lemma ret_row : forall (l : list (St * nat * R)) o v, ret_of gamma v l o = ReturnSpec.discounted gamma (map snd l) + match o with None => 0 | Some s => gamma ^ length l * v s end.
Proof. induction l as [|x l IH]; intros o v; cbn [ret_of map ReturnSpec.discounted length]; [destruct o; cbn; ring|]. rewrite IH. destruct o; cbn [pow]; ring. Qed.
Lemma target_ret : forall k s a e v, In e (first_steps m p k s a) -> window_target gamma final v e = ret gamma v e.
Proof.
  intros k s a e v H. rewrite (target_row k s a e v H). destruct (steps_shape k s a e H) as [_ SH]. unfold ret. rewrite ret_row, sum_discounted, map_length. unfold window_reward, td_row, ended, arrives. cbn [snd].
  destruct (e_last e) as [s'|]; cbn [terminal_flag]; [|ring]. destruct SH as [SH|SH]; [discriminate|]. rewrite SH. ring.
Qed.
Hypothesis P : proper m.
Hypothesis PC : is_choice m p.
Lemma first_over : forall k s a f, blind f -> total_of (fun e => e_prob e * f e) (first_steps m p k s a) = total_of (fun z => o_prob z * rest m p k (snd z) (prepend (s, a, o_reward z) f)) (outcomes m s a).
Proof.
  intros k s a f BL. unfold first_steps. rewrite tot_flat. apply tot_ext. intros z _. rewrite tot_map. cbn [e_prob].
  rewrite (tot_ext _ (fun e => o_prob z * (e_prob e * prepend (s, a, o_reward z) f e))).
  - rewrite tot_scale. destruct (snd z) as [s'|]; cbn [rest]; [reflexivity|]. cbn. unfold prepend. cbn [e_prob e_steps e_last]. ring.
  - intros e _. unfold prepend. rewrite (BL _ (e_prob e)). ring.
Qed.
Lemma average : forall k v s a, total_of (fun e => e_prob e * window_target gamma final v e) (first_steps m p k s a) = lookahead m gamma final (expected_return m gamma v p k) s a.
Proof.
  intros k v s a. rewrite (tot_ext _ (fun e => e_prob e * ret gamma v e)) by (intros e He; rewrite (target_ret k s a e v He); reflexivity).
  rewrite first_over by (intros ? ? ? ?; reflexivity). unfold lookahead. apply tot_ext. intros z _. f_equal.
  rewrite (rest_ext m _ _ _ _ (fun e => o_reward z + gamma * ret gamma v e)) by (intros; reflexivity). rewrite rest_add, rest_scale, rest_const by (exact P || exact (proj2 PC)).
  unfold td_row, ended, arrives. destruct (snd z) as [s'|]; cbn [rest terminal_flag]; [rewrite (over_ret m P) by exact (proj2 PC); ring|]. cbn. ring.
Qed.
Lemma backup_row : forall value k Q s a, (a < n_actions m)%nat -> nth a (n_step_backup m gamma final p value k Q s) 0 = lookahead m gamma final (expected_return m gamma (fun s' => value s' (Q s')) p k) s a.
Proof. intros value k Q s a Ha. unfold n_step_backup. rewrite nth_map_seq by assumption. apply average. Qed.

(** The n-step process is a process. *)
Variable B : R.
Hypothesis G : 0 <= gamma < 1.
Hypothesis REG : regular m B.
Definition tame (e : episode St) : Prop := 0 <= e_prob e /\ Forall (fun r => Rabs r <= B) (map snd (e_steps e)).
Lemma episodes_tame : forall k s e, In e (all_episodes m p k s) -> tame e /\ (length (e_steps e) <= k)%nat.
Proof.
  induction k as [|k IH]; intros s e H; cbn [all_episodes] in H; [destruct H as [<-|[]]; split; [split; [cbn; lra|constructor]|cbn; lia]|].
  apply in_flat_map in H. destruct H as (a & _ & H). apply in_flat_map in H. destruct H as (z & Hz & H). apply in_map_iff in H. destruct H as (e' & <- & H).
  destruct (proj2 (proj2 REG) _ _ _ Hz) as [Z1 Z2]. assert (T : tame e' /\ (length (e_steps e') <= k)%nat).
  { destruct (snd z) as [s'|]; [apply (IH s' e' H)|]. destruct H as [<-|[]]. split; [split; [cbn; lra|constructor]|cbn; lia]. }
  destruct T as [[T1 T2] T3]. split; [split; cbn|cbn; lia].
  - apply Rmult_le_pos; [apply Rmult_le_pos; [apply (proj1 PC)|assumption]|assumption].
  - constructor; assumption.
Qed.
Lemma steps_tame : forall k s a e, In e (first_steps m p k s a) -> tame e /\ (length (e_steps e) <= S k)%nat.
Proof.
  intros k s a e H. unfold first_steps in H. apply in_flat_map in H. destruct H as (z & Hz & H). apply in_map_iff in H. destruct H as (e' & <- & H).
  destruct (proj2 (proj2 REG) _ _ _ Hz) as [Z1 Z2]. assert (T : tame e' /\ (length (e_steps e') <= k)%nat).
  { destruct (snd z) as [s'|]; [apply (episodes_tame k s' e' H)|]. destruct H as [<-|[]]. split; [split; [cbn; lra|constructor]|cbn; lia]. }
  destruct T as [[T1 T2] T3]. split; [split; cbn|cbn; lia].
  - apply Rmult_le_pos; assumption.
  - constructor; assumption.
Qed.
Lemma discounted_tame : forall rs, 0 <= B -> Forall (fun r => Rabs r <= B) rs -> Rabs (ReturnSpec.discounted gamma rs) <= INR (length rs) * B.
Proof.
  intros rs HB F. induction F as [|r rs Hr F IH]; [cbn; rewrite Rabs_R0; lra|]. cbn [ReturnSpec.discounted]. cbn [length]. rewrite S_INR. eapply Rle_trans; [apply Rabs_triang|]. rewrite Rabs_mult, (Rabs_pos_eq gamma) by lra.
  pose proof (Rabs_pos (ReturnSpec.discounted gamma rs)). nra.
Qed.
Lemma process_regular : forall k, regular (n_step_process m gamma p k) (INR (S k) * B).
Proof.
  intros k. split; [|split].
  - intros s a. cbn [outcomes n_step_process]. rewrite tot_map. unfold o_prob at 1. cbn [fst]. rewrite (tot_ext _ (fun e => e_prob e * 1)) by (intros; ring). rewrite first_over by (intros ? ? ? ?; reflexivity).
    rewrite (tot_ext _ o_prob); [apply P|]. intros z _. unfold prepend. rewrite (rest_const m P) by exact (proj2 PC). ring.
  - cbn. apply REG.
  - intros s a z Hz. cbn [outcomes n_step_process] in Hz. apply in_map_iff in Hz. destruct Hz as (e & <- & He). destruct (steps_tame k s a e He) as [[T1 T2] T3]. unfold o_prob, o_reward. cbn [fst snd]. split; [assumption|].
    assert (HB : 0 <= B) by exact (B_nonneg m B REG s). unfold window_reward. rewrite <- (map_length snd (e_steps e)), <- sum_discounted. eapply Rle_trans; [apply discounted_tame; assumption|].
    rewrite map_length. apply Rmult_le_compat_r; [assumption|]. apply le_INR. assumption.
Qed.

(** Returns of the policy, from values to values. *)
Notation L := (lookahead m gamma final).
Notation ER w k := (expected_return m gamma w p k).
Lemma return_mono : forall w w' d k s, 0 <= d -> (forall s, w s <= w' s + d) -> ER w k s <= ER w' k s + gamma ^ k * d.
Proof.
  intros w w' d k s Hd H. revert s. induction k as [|k IH]; intros s; [cbn; rewrite Rmult_1_l; apply H|]. rewrite !(return_look m gamma final). cbn [pow]. rewrite Rmult_assoc.
  rewrite <- (Rmult_1_r (gamma * _)), <- (proj2 PC s), <- below_scale, <- below_add. apply sum_le. intros a _.
  pose proof (look_mono m gamma final B G REG (ER w k) (ER w' k) (gamma ^ k * d) s a ltac:(apply Rmult_le_pos; [apply pow_le; lra|assumption]) IH) as LM.
  apply (Rmult_le_compat_l (p s a)) in LM; [|apply (proj1 PC)]. lra.
Qed.
Lemma return_losing : forall v eps k s, 0 <= eps -> (forall s, v s - eps <= sum_below (n_actions m) (fun a => p s a * L v s a)) -> v s - eps * sum_below k (fun i => gamma ^ i) <= ER v k s.
Proof.
  intros v eps k s He H. revert s. induction k as [|k IH]; intros s; [cbn; lra|]. rewrite (return_look m gamma final). 
  assert (S0 : 0 <= sum_below k (fun i => gamma ^ i)) by (apply geo_nonneg; apply G).
  set (x := sum_below k (fun i => gamma ^ i)) in *. assert (XS : sum_below (S k) (fun i => gamma ^ i) = 1 + gamma * x) by (unfold x; rewrite below_S, <- below_scale; reflexivity). rewrite XS. clear XS.
  assert (LM : forall a, L v s a - gamma * (eps * x) <= L (ER v k) s a).
  { intros a. pose proof (look_mono m gamma final B G REG v (ER v k) (eps * x) s a ltac:(apply Rmult_le_pos; assumption) ltac:(intros s0; specialize (IH s0); lra)). lra. }
  assert (Y : sum_below (n_actions m) (fun a => p s a * L v s a - gamma * (eps * x) * p s a) <= sum_below (n_actions m) (fun a => p s a * L (ER v k) s a)).
  { apply sum_le. intros a _. pose proof (Rmult_le_compat_l (p s a) _ _ (proj1 PC s a) (LM a)). lra. }
  rewrite below_sub, below_scale, (proj2 PC) in Y. specialize (H s). cbn [pow]. lra.
Qed.

(** The process with n-step targets. *)
Notation T value k := (n_step_backup m gamma final p value k).
Notation n := (n_actions m).
Lemma n_contraction : forall value k Q Q' d, (forall s, nonexpansive n (value s)) -> table m Q -> table m Q' -> within m d Q Q' -> within m (gamma ^ S k * d) (T value k Q) (T value k Q').
Proof.
  intros value k Q Q' d NE TQ TQ' W s a Ha. rewrite !as_process. pose proof (contraction (n_step_process m gamma p k) (gamma ^ S k) final _ (pow_small gamma k G) (process_regular k) value Q Q' d NE TQ TQ' W s a Ha) as C. exact C.
Qed.
Lemma n_exists : forall value k c, (forall s, nonexpansive n (value s)) -> (forall s, Rabs (value s (repeat 0 n)) <= c) -> exists Q b, table m Q /\ bounded m b Q /\ forall s, T value k Q s = Q s.
Proof.
  intros value k c NE C. destruct (fixpoint_exists (n_step_process m gamma p k) (gamma ^ S k) final _ (pow_small gamma k G) (process_regular k) value c NE C) as (Q & b & T1 & T2 & T3).
  exists Q, b. split; [exact T1|]. split; [exact T2|]. intros s. rewrite as_process. apply T3.
Qed.
Lemma n_unique : forall value k Q Q' d, (forall s, nonexpansive n (value s)) -> table m Q -> table m Q' -> (forall s, T value k Q s = Q s) -> (forall s, T value k Q' s = Q' s) -> within m d Q Q' -> forall s, Q s = Q' s.
Proof.
  intros value k Q Q' d NE TQ TQ' F F' W. apply (fixpoint_unique (n_step_process m gamma p k) (gamma ^ S k) final _ (pow_small gamma k G) (process_regular k) value Q Q' d NE TQ TQ'); [| |exact W]; intros s; rewrite <- as_process; auto.
Qed.
Lemma iterate_process : forall value k j Q s, iterate (T value k) j Q s = iterate (backup (n_step_process m gamma p k) (gamma ^ S k) final value) j Q s.
Proof.
  intros value k j Q. induction j as [|j IH]; intros s; [reflexivity|]. cbn [iterate]. rewrite as_process. unfold backup. apply map_ext. intros a. unfold lookahead. apply tot_ext. intros z _. rewrite IH. reflexivity.
Qed.
Lemma n_converges : forall value k Q Qs d j, (forall s, nonexpansive n (value s)) -> table m Q -> table m Qs -> (forall s, T value k Qs s = Qs s) -> within m d Q Qs -> within m ((gamma ^ S k) ^ j * d) (iterate (T value k) j Q) Qs.
Proof.
  intros value k Q Qs d j NE TQ TQs F W s a Ha. rewrite iterate_process.
  pose proof (to_fixpoint (n_step_process m gamma p k) (gamma ^ S k) final _ (pow_small gamma k G) (process_regular k) value Q Qs d j NE TQ TQs ltac:(intros s0; rewrite <- as_process; apply F) W s a Ha) as C. exact C.
Qed.

(** Where the fixed point is. *)
Lemma row_max : forall Q s, table m Q -> exists a, (a < n)%nat /\ nth a (Q s) 0 = q_maximum (Q s) /\ forall a', (a' < n)%nat -> nth a' (Q s) 0 <= q_maximum (Q s).
Proof.
  intros Q s TQ. pose proof (TQ s) as E. pose proof (proj1 (proj2 REG)). assert (Q s <> []) as NE by (intros Z; rewrite Z in E; cbn in E; lia). destruct (greedy_row _ NE) as (G1 & G2 & G3). rewrite E in *. eauto.
Qed.
Lemma look_bounded : forall v c, (forall s, Rabs (v s) <= c) -> forall s a, Rabs (L v s a) <= B + gamma * c.
Proof. intros v c H s a. apply (look_bound m gamma final B G REG); [pose proof (H s); pose proof (Rabs_pos (v s)); lra|assumption]. Qed.
(** [g] contracts, so a difference that is [g] times itself plus [c] is at most [c / (1 - g)]. *)
Lemma settle : forall (D : R -> Prop) g c d0 x, 0 <= g < 1 -> 0 <= c -> 0 <= d0 -> D d0 -> (forall d, 0 <= d -> D d -> D (g * d + c)) -> (forall d, D d -> x <= d) -> x <= c / (1 - g).
Proof.
  intros D g c d0 x Hg Hc Hd H0 HS HX. assert (K : forall j, exists d, D d /\ 0 <= d /\ d <= c / (1 - g) + g ^ j * d0).
  { assert (C : 0 <= c / (1 - g)) by (unfold Rdiv; apply Rmult_le_pos; [assumption|apply Rlt_le, Rinv_0_lt_compat; lra]).
    induction j as [|j (d & K1 & K2 & K3)]; [exists d0; cbn; repeat split; try assumption; lra|]. exists (g * d + c). split; [apply HS; assumption|]. split; [nra|].
    cbn [pow]. replace (c / (1 - g)) with (g * (c / (1 - g)) + c) by (field; lra). nra. }
  assert (Z : x - c / (1 - g) <= 0); [|lra]. apply (geo_zero g d0); [assumption|]. intros j. destruct (K j) as (d & K1 & _ & K3). specialize (HX d K1). lra.
Qed.
Lemma below_optimal : forall v Q b k s a, optimal_value m gamma final v -> table m Q -> bounded m b Q -> (forall s, T (fun _ => q_maximum) k Q s = Q s) -> (a < n)%nat -> nth a (Q s) 0 <= L v s a.
Proof.
  intros v Q b k s a OV TQ BQ F Ha. destruct OV as [[c VB] OV].
  pose proof (settle (fun d => forall s a, (a < n)%nat -> nth a (Q s) 0 <= L v s a + d) (gamma ^ S k) 0 (b + (B + gamma * c)) (nth a (Q s) 0 - L v s a) (pow_small gamma k G) (Rle_refl 0)) as K.
  replace (0 / (1 - gamma ^ S k)) with 0 in K by (unfold Rdiv; ring). assert (nth a (Q s) 0 - L v s a <= 0); [|lra]. apply K; clear K.
  - pose proof (BQ s a Ha) as H1. pose proof (Rabs_pos (nth a (Q s) 0)). pose proof (look_bounded v c VB s a) as H2. pose proof (Rabs_pos (L v s a)). lra.
  - intros s' a' Ha'. pose proof (BQ s' a' Ha') as H1. pose proof (look_bounded v c VB s' a') as H2. apply abs_out in H1. apply abs_out in H2. lra.
  - intros d Hd H s' a' Ha'. rewrite <- (F s'). rewrite backup_row by assumption. rewrite Rplus_0_r. cbn [pow]. rewrite Rmult_assoc.
    apply (look_mono m gamma final B G REG); [apply Rmult_le_pos; [apply pow_le; lra|assumption]|]. intros s0.
    apply (policy_below m gamma final B G REG); [split; [exists c; exact VB|exact OV]|apply PC|apply PC| |assumption].
    intros s1. destruct (row_max Q s1 TQ) as (a1 & Ha1 & E1 & _). rewrite <- E1. eapply Rle_trans; [apply H; assumption|]. apply Rplus_le_compat_r. apply OV. assumption.
  - intros d H. specialize (H s a Ha). lra.
Qed.
Lemma near_optimal : forall v Q b k eps s a, optimal_value m gamma final v -> table m Q -> bounded m b Q -> (forall s, T (fun _ => q_maximum) k Q s = Q s) -> 0 <= eps ->
  (forall s, v s - eps <= sum_below n (fun a => p s a * L v s a)) -> (a < n)%nat -> L v s a - eps * later gamma k / (1 - gamma ^ S k) <= nth a (Q s) 0.
Proof.
  intros v Q b k eps s a OV TQ BQ F He PE Ha. destruct OV as [[c VB] OV]. assert (S0 : 0 <= sum_below k (fun i => gamma ^ i)) by (apply geo_nonneg; apply G).
  assert (LK : later gamma k = gamma * sum_below k (fun i => gamma ^ i)) by (unfold later; rewrite <- below_scale; apply below_ext; intros; reflexivity).
  assert (L0 : 0 <= eps * later gamma k) by (rewrite LK; apply Rmult_le_pos; [assumption|apply Rmult_le_pos; lra]).
  pose proof (settle (fun d => forall s a, (a < n)%nat -> L v s a <= nth a (Q s) 0 + d) (gamma ^ S k) (eps * later gamma k) (b + (B + gamma * c)) (L v s a - nth a (Q s) 0) (pow_small gamma k G) L0) as K.
  assert (L v s a - nth a (Q s) 0 <= eps * later gamma k / (1 - gamma ^ S k)); [|lra]. apply K; clear K.
  - pose proof (BQ s a Ha) as H1. pose proof (Rabs_pos (nth a (Q s) 0)). pose proof (look_bounded v c VB s a) as H2. pose proof (Rabs_pos (L v s a)). lra.
  - intros s' a' Ha'. pose proof (BQ s' a' Ha') as H1. pose proof (look_bounded v c VB s' a') as H2. apply abs_out in H1. apply abs_out in H2. lra.
  - intros d Hd H s' a' Ha'. pose proof (F s') as F'. rewrite <- F'. clear F'. rewrite backup_row by assumption. cbn [pow]. rewrite LK.
    replace (gamma * gamma ^ k * d + eps * (gamma * sum_below k (fun i => gamma ^ i))) with (gamma * (gamma ^ k * d + eps * sum_below k (fun i => gamma ^ i))) by ring.
    assert (0 <= gamma ^ k * d) by (apply Rmult_le_pos; [apply pow_le; lra|assumption]). assert (0 <= eps * sum_below k (fun i => gamma ^ i)) by (apply Rmult_le_pos; assumption).
    apply (look_mono m gamma final B G REG); [lra|]. intros s0.
    pose proof (return_losing v eps k s0 He PE) as RL. pose proof (return_mono v (fun s => q_maximum (Q s)) d k s0 Hd) as RM.
    assert (VQ : forall s1, v s1 <= q_maximum (Q s1) + d); [|specialize (RM VQ); lra]. intros s1. destruct (proj2 (OV s1)) as (a1 & Ha1 & E1). rewrite E1. destruct (row_max Q s1 TQ) as (_ & _ & _ & M). specialize (M a1 Ha1). specialize (H s1 a1 Ha1). lra.
  - intros d H. specialize (H s a Ha). lra.
Qed.
Lemma policy_fixed : forall Q b k s, table m Q -> bounded m b Q -> (forall s, backup m gamma final (fun s => policy_average (p s)) Q s = Q s) -> ER (fun s => policy_average (p s) (Q s)) k s = policy_average (p s) (Q s).
Proof.
  intros Q b k s TQ BQ F. pose proof (sarsa_value m gamma final B G REG Q b p (fun s => policy_average (p s) (Q s)) 0 k s TQ BQ (proj1 PC) (proj2 PC) F) as S0.
  assert (forall s0, Rabs (policy_average (p s0) (Q s0) - policy_average (p s0) (Q s0)) <= 0) as Z by (intros s0; rewrite Rminus_diag_eq, Rabs_R0 by reflexivity; lra). specialize (S0 Z). apply abs_out in S0. lra.
Qed.
Lemma above_policy : forall Qp bp Q b k s a, table m Qp -> bounded m bp Qp -> (forall s, backup m gamma final (fun s => policy_average (p s)) Qp s = Qp s) ->
  table m Q -> bounded m b Q -> (forall s, T (fun _ => q_maximum) k Q s = Q s) -> (a < n)%nat -> nth a (Qp s) 0 <= nth a (Q s) 0.
Proof.
  intros Qp bp Q b k s a TP BP FP TQ BQ F Ha.
  pose proof (settle (fun d => forall s a, (a < n)%nat -> nth a (Qp s) 0 <= nth a (Q s) 0 + d) (gamma ^ S k) 0 (b + bp) (nth a (Qp s) 0 - nth a (Q s) 0) (pow_small gamma k G) (Rle_refl 0)) as K.
  replace (0 / (1 - gamma ^ S k)) with 0 in K by (unfold Rdiv; ring). assert (nth a (Qp s) 0 - nth a (Q s) 0 <= 0); [|lra]. apply K; clear K.
  - pose proof (BQ s a Ha) as H1. pose proof (Rabs_pos (nth a (Q s) 0)). pose proof (BP s a Ha) as H2. pose proof (Rabs_pos (nth a (Qp s) 0)). lra.
  - intros s' a' Ha'. pose proof (BQ s' a' Ha') as H1. pose proof (BP s' a' Ha') as H2. apply abs_out in H1. apply abs_out in H2. lra.
  - intros d Hd H s' a' Ha'. rewrite <- (F s'), <- (FP s'). rewrite backup_row by assumption. rewrite backup_nth by assumption. rewrite Rplus_0_r. cbn [pow]. rewrite Rmult_assoc.
    apply (look_mono m gamma final B G REG); [apply Rmult_le_pos; [apply pow_le; lra|assumption]|]. intros s0. rewrite <- (policy_fixed Qp bp k s0 TP BP FP).
    apply return_mono; [assumption|]. intros s1. unfold policy_average. rewrite (TP s1). rewrite <- (Rmult_1_r (q_maximum (Q s1) + d)), <- (proj2 PC s1), <- below_scale. apply sum_le. intros a1 Ha1.
    rewrite (Rmult_comm (_ + d)). apply Rmult_le_compat_l; [apply (proj1 PC)|]. destruct (row_max Q s1 TQ) as (_ & _ & _ & M). specialize (M a1 Ha1). specialize (H s1 a1 Ha1). lra.
  - intros d H. specialize (H s a Ha). lra.
Qed.
Lemma sarsa_fixed : forall Q b k, table m Q -> bounded m b Q -> ((forall s, T (fun s => policy_average (p s)) k Q s = Q s) <-> (forall s, backup m gamma final (fun s => policy_average (p s)) Q s = Q s)).
Proof.
  intros Q b k TQ BQ. assert (NE : forall s, nonexpansive n (policy_average (p s))) by (intros s; apply average_nonexpansive; apply PC).
  assert (FW : forall Qp bp, table m Qp -> bounded m bp Qp -> (forall s, backup m gamma final (fun s => policy_average (p s)) Qp s = Qp s) -> forall s, T (fun s => policy_average (p s)) k Qp s = Qp s).
  { intros Qp bp TP BP FP s. apply (nth_ext _ _ 0 0); [unfold n_step_backup; rewrite map_length, seq_length; symmetry; apply TP|]. intros a Ha. unfold n_step_backup in Ha. rewrite map_length, seq_length in Ha.
    rewrite backup_row by assumption. rewrite <- (FP s), backup_nth by assumption. unfold lookahead. apply tot_ext. intros z _. rewrite (policy_fixed Qp bp k _ TP BP FP). reflexivity. }
  split; [|apply (FW Q b TQ BQ)]. intros F. 
  destruct (fixpoint_exists m gamma final B G REG (fun s => policy_average (p s)) 0 NE) as (Qp & bp & TP & BP & FP).
  { intros s. unfold policy_average. rewrite (below_ext _ _ (fun _ => 0 * 0)) by (intros i Hi; rewrite nth_repeat; ring). rewrite below_scale, Rmult_0_l, Rabs_R0. lra. }
  assert (E : forall s, Q s = Qp s).
  { apply (n_unique (fun s => policy_average (p s)) k Q Qp (b + bp) NE TQ TP F (FW Qp bp TP BP FP)). intros s a Ha. specialize (BQ s a Ha). specialize (BP s a Ha). apply abs_out in BQ. apply abs_out in BP. apply abs_in. lra. }
  intros s. rewrite E, <- (FP s). unfold backup. apply map_ext. intros a. unfold lookahead. apply tot_ext. intros z _. rewrite E. reflexivity.
Qed.
End W.

Lemma optimal_policy : forall St (m : mdp St) gamma final p B, 0 <= gamma < 1 -> regular m B -> is_choice m p -> forall v Q b k s a, optimal_value m gamma final v -> table m Q -> bounded m b Q ->
  (forall s, n_step_backup m gamma final p (fun _ => q_maximum) k Q s = Q s) -> (k = 0%nat \/ forall s, v s = sum_below (n_actions m) (fun a => p s a * lookahead m gamma final v s a)) -> (a < n_actions m)%nat -> nth a (Q s) 0 = lookahead m gamma final v s a.
Proof.
  intros St m gamma final p B G REG PC v Q b k s a OV TQ BQ F PO Ha. pose proof (below_optimal m gamma final p (proj1 REG) PC B G REG v Q b k s a OV TQ BQ F Ha) as U. apply Rle_antisym; [exact U|].
  destruct PO as [->|PO].
  - destruct (OV) as [[c VB] _]. pose proof (near_optimal m gamma final p (proj1 REG) PC B G REG v Q b 0 (B + gamma * c + c) s a OV TQ BQ F) as N.
    unfold later in N. cbn [sum_below] in N. replace (_ * 0 / (1 - gamma ^ 1)) with 0 in N by (unfold Rdiv; ring). rewrite Rminus_0_r in N. apply N; [| |exact Ha].
    + pose proof (VB s) as H. pose proof (Rabs_pos (v s)). pose proof (B_nonneg m B REG s). assert (0 <= gamma * c) by (apply Rmult_le_pos; lra). lra.
    + intros s0. pose proof (VB s0) as H. apply abs_out in H. assert (- (B + gamma * c) <= sum_below (n_actions m) (fun a0 => p s0 a0 * lookahead m gamma final v s0 a0)); [|lra].
      rewrite <- (Rmult_1_r (- _)), <- (proj2 PC s0), <- below_scale. apply sum_le. intros i _. rewrite Rmult_comm. apply Rmult_le_compat_l; [apply (proj1 PC)|].
      pose proof (look_bounded m gamma final B G REG v c VB s0 i) as LB. apply abs_out in LB. lra.
  - pose proof (near_optimal m gamma final p (proj1 REG) PC B G REG v Q b k 0 s a OV TQ BQ F (Rle_refl 0)) as N. rewrite Rmult_0_l in N. unfold Rdiv in N. rewrite Rmult_0_l, Rminus_0_r in N. apply N; [|exact Ha]. intros s0. rewrite <- (PO s0). lra.
Qed.
Lemma bounded_within : forall St (m : mdp St) b b' Q Q', bounded m b Q -> bounded m b' Q' -> within m (b + b') Q Q'.
Proof. intros St m b b' Q Q' H H' s a Ha. specialize (H s a Ha). specialize (H' s a Ha). apply abs_out in H. apply abs_out in H'. apply abs_in. lra. Qed.
Arguments bounded_within {St}.

Lemma spoilt_regular : regular spoilt_mdp 1.
Proof.
  split; [intros [|s] [|a]; cbn; unfold o_prob; cbn; ring|split; [cbn; lia|]].
  intros [|s] [|a] z Hz; cbn in Hz; destruct Hz as [<-|[]]; unfold o_prob, o_reward; cbn; rewrite ?Rabs_R0, ?Rabs_R1, ?(Rabs_pos_eq (3 / 8)) by lra; lra.
Qed.
Lemma even_choice : is_choice spoilt_mdp even_policy.
Proof. split; [intros; unfold even_policy; lra|intros; cbn; unfold even_policy; lra]. Qed.
Lemma spoilt : exists v, regular spoilt_mdp 1 /\ is_choice spoilt_mdp even_policy /\ optimal_value spoilt_mdp (1 / 2) 0%nat v /\
  (forall s a, 0 < even_policy s a) /\
  forall Q, table spoilt_mdp Q -> (forall s, n_step_backup spoilt_mdp (1 / 2) 0%nat even_policy (fun _ => q_maximum) 1 Q s = Q s) ->
  q_greedy (Q 0%nat) = 1%nat /\ lookahead spoilt_mdp (1 / 2) 0%nat v 0%nat 1%nat < v 0%nat /\ v 0%nat = lookahead spoilt_mdp (1 / 2) 0%nat v 0%nat 0%nat.
Proof.
  exists (fun s => match s with O => 1 / 2 | _ => 1 end). split; [apply spoilt_regular|]. split; [apply even_choice|]. split; [split|split].
  - exists 1. intros [|s]; rewrite Rabs_pos_eq; lra.
  - intros [|s]; (split; [intros [|a] _|exists 0%nat; split; [cbn; lia|]]); unfold lookahead; cbn; unfold o_prob, o_reward, td_row; cbn; lra.
  - intros. unfold even_policy. lra.
  - intros Q TQ F. split; [|split; unfold lookahead; cbn; unfold o_prob, o_reward, td_row; cbn; lra].
    pose proof (TQ 0%nat) as T0. cbn in T0. destruct (Q 0%nat) as [|x [|y [|]]] eqn:E; try discriminate.
    pose proof (backup_row spoilt_mdp (1 / 2) 0%nat even_policy (proj1 spoilt_regular) even_choice (fun _ => q_maximum) 1 Q 0%nat) as BR. rewrite F, E in BR.
    pose proof (BR 0%nat ltac:(cbn; lia)) as B0. pose proof (BR 1%nat ltac:(cbn; lia)) as B1. clear BR. cbn [nth] in B0, B1. unfold lookahead in B0, B1. cbn in B0, B1. unfold o_prob, o_reward, td_row, even_policy in B0, B1. cbn in B0, B1.
    assert (NE : [x; y] <> []) by discriminate. destruct (greedy_row [x; y] NE) as (G1 & G2 & G3). pose proof (G3 1%nat ltac:(cbn; lia)) as G4. cbn [nth] in G4. rewrite <- G2 in G4. cbn [length] in G1.
    destruct (q_greedy [x; y]) as [|[|g]]; [cbn [nth] in G4; lra|reflexivity|lia].
Qed.
