(** Proofs about PPO's losses. *)
From Coq Require Import Reals List Arith Lia Lra.
From Verif Require Import Base.PyBase Model.Distributions Model.PPOLoss Spec.SumSpec Spec.PPOLossSpec.
From Verif Require Import Proofs.RSumFacts Proofs.DistributionProofs Proofs.GradientProofs.
Import ListNotations.
Local Open Scope R_scope.

Ltac mm := unfold Rmin, Rmax in *; repeat match goal with |- context [Rle_dec ?a ?b] => destruct (Rle_dec a b) | H : context [Rle_dec ?a ?b] |- _ => destruct (Rle_dec a b) end.

(** ** The clipped gain *)
Lemma ratio_pos : forall a b, 0 < prob_ratio a b.
Proof. intros. apply exp_pos. Qed.
Theorem gain_cases : forall eps adv lp lpo, 0 <= eps -> clipped_gain eps adv lp lpo = capped_gain eps adv (prob_ratio lp lpo).
Proof.
  intros eps adv lp lpo E. unfold clipped_gain, capped_gain. set (r := prob_ratio lp lpo). unfold clip.
  destruct (Rle_dec 0 adv) as [A|A].
  - mm; try nra.
  - mm; try nra.
Qed.
Theorem gain_bounds : forall eps adv lp lpo, 0 <= eps ->
  clipped_gain eps adv lp lpo <= prob_ratio lp lpo * adv /\
  (1 - eps <= prob_ratio lp lpo <= 1 + eps -> clipped_gain eps adv lp lpo = prob_ratio lp lpo * adv) /\
  (0 <= adv -> clipped_gain eps adv lp lpo <= (1 + eps) * adv) /\ (adv <= 0 -> clipped_gain eps adv lp lpo <= (1 - eps) * adv).
Proof.
  intros eps adv lp lpo E. rewrite gain_cases by exact E. unfold capped_gain. set (r := prob_ratio lp lpo).
  destruct (Rle_dec 0 adv) as [A|A]; (split; [|split; [|split]]); intros; mm; try nra.
Qed.

(** ** Local derivatives *)
Lemma deriv_local : forall f g x l d, 0 < d -> (forall y, Rabs (y - x) < d -> f y = g y) -> derivable_pt_lim g x l -> derivable_pt_lim f x l.
Proof.
  intros f g x l d P E D eps He. destruct (D eps He) as (del & H). assert (M : 0 < Rmin d del) by (apply Rmin_pos; [exact P|apply cond_pos]).
  exists (mkposreal _ M). cbn. intros h H1 H2. rewrite !E.
  - apply H; [exact H1|]. eapply Rlt_le_trans; [exact H2|apply Rmin_r].
  - replace (x - x) with 0 by ring. rewrite Rabs_R0. exact P.
  - replace (x + h - x) with h by ring. eapply Rlt_le_trans; [exact H2|apply Rmin_l].
Qed.
Lemma ratio_deriv : forall adv lpo lp, derivable_pt_lim (fun x => prob_ratio x lpo * adv) lp (prob_ratio lp lpo * adv).
Proof.
  intros adv lpo lp. unfold prob_ratio.
  assert (D1 : derivable_pt_lim (fun x => x - lpo) lp (1 - 0)) by (apply (derivable_pt_lim_minus (fun x => x) (fun _ => lpo)); [apply derivable_pt_lim_id|apply derivable_pt_lim_const]).
  pose proof (derivable_pt_lim_comp _ exp lp _ _ D1 (derivable_pt_lim_exp (lp - lpo))) as C.
  pose proof (derivable_pt_lim_mult _ (fun _ => adv) lp _ _ C (derivable_pt_lim_const adv lp)) as K.
  replace (exp (lp - lpo) * adv) with (exp (lp - lpo) * (1 - 0) * adv + comp exp (fun x => x - lpo) lp * 0) by (unfold comp; ring). exact K.
Qed.
Lemma ratio_gt : forall lp lpo c, 0 < c -> c < prob_ratio lp lpo -> exists d, 0 < d /\ forall y, Rabs (y - lp) < d -> c < prob_ratio y lpo.
Proof.
  intros lp lpo c P H. unfold prob_ratio in *. exists (lp - lpo - ln c). split.
  - apply ln_increasing in H; [|exact P]. rewrite ln_exp in H. lra.
  - intros y Hy. apply Rabs_def2 in Hy. rewrite <- (exp_ln c P) at 1. apply exp_increasing. lra.
Qed.
Lemma ratio_lt : forall lp lpo c, prob_ratio lp lpo < c -> exists d, 0 < d /\ forall y, Rabs (y - lp) < d -> prob_ratio y lpo < c.
Proof.
  intros lp lpo c H. pose proof (ratio_pos lp lpo) as P0. assert (P : 0 < c) by lra. unfold prob_ratio in *. exists (ln c - (lp - lpo)). split.
  - apply ln_increasing in H; [|exact P0]. rewrite ln_exp in H. lra.
  - intros y Hy. apply Rabs_def2 in Hy. rewrite <- (exp_ln c P). apply exp_increasing. lra.
Qed.
Theorem gain_derivative : forall eps adv lp lpo, 0 <= eps ->
  ((0 < adv /\ 1 + eps < prob_ratio lp lpo) \/ (adv < 0 /\ prob_ratio lp lpo < 1 - eps) ->
     derivable_pt_lim (fun x => clipped_gain eps adv x lpo) lp 0) /\
  ((0 < adv /\ prob_ratio lp lpo < 1 + eps) \/ (adv < 0 /\ 1 - eps < prob_ratio lp lpo) ->
     derivable_pt_lim (fun x => clipped_gain eps adv x lpo) lp (prob_ratio lp lpo * adv)).
Proof.
  intros eps adv lp lpo E. split.
  - intros [(A & H)|(A & H)].
    + destruct (ratio_gt lp lpo (1 + eps) ltac:(lra) H) as (d & P & L). apply (deriv_local _ (fun _ => (1 + eps) * adv) lp 0 d P); [|apply derivable_pt_lim_const].
      intros y Hy. specialize (L y Hy). rewrite gain_cases by exact E. unfold capped_gain. destruct (Rle_dec 0 adv); [|lra]. rewrite Rmin_right by lra. reflexivity.
    + destruct (ratio_lt lp lpo (1 - eps) H) as (d & P & L). apply (deriv_local _ (fun _ => (1 - eps) * adv) lp 0 d P); [|apply derivable_pt_lim_const].
      intros y Hy. specialize (L y Hy). rewrite gain_cases by exact E. unfold capped_gain. destruct (Rle_dec 0 adv); [lra|]. rewrite Rmax_right by lra. reflexivity.
  - intros [(A & H)|(A & H)].
    + destruct (ratio_lt lp lpo (1 + eps) H) as (d & P & L). apply (deriv_local _ (fun x => prob_ratio x lpo * adv) lp _ d P); [|apply ratio_deriv].
      intros y Hy. specialize (L y Hy). rewrite gain_cases by exact E. unfold capped_gain. destruct (Rle_dec 0 adv); [|lra]. rewrite Rmin_left by lra. reflexivity.
    + destruct (Rlt_dec 0 (1 - eps)) as [Q|Q].
      * destruct (ratio_gt lp lpo (1 - eps) Q H) as (d & P & L). apply (deriv_local _ (fun x => prob_ratio x lpo * adv) lp _ d P); [|apply ratio_deriv].
        intros y Hy. specialize (L y Hy). rewrite gain_cases by exact E. unfold capped_gain. destruct (Rle_dec 0 adv); [lra|]. rewrite Rmax_left by lra. reflexivity.
      * apply (deriv_local _ (fun x => prob_ratio x lpo * adv) lp _ 1 ltac:(lra)); [|apply ratio_deriv].
        intros y Hy. rewrite gain_cases by exact E. unfold capped_gain. destruct (Rle_dec 0 adv); [lra|]. pose proof (ratio_pos y lpo). rewrite Rmax_left by lra. reflexivity.
Qed.

(** ** Means *)
Lemma fmean_total : forall X (f : X -> R) l, fmean f l = total_of f l / INR (length l).
Proof. intros. unfold fmean. rewrite fsum_map. reflexivity. Qed.
Lemma len_inr : forall X (l : list X), l <> [] -> 0 < INR (length l).
Proof. intros X [|x l] H; [congruence|]. apply lt_0_INR. cbn. lia. Qed.
Lemma fmean_le : forall X (f g : X -> R) l, l <> [] -> (forall x, In x l -> f x <= g x) -> fmean f l <= fmean g l.
Proof.
  intros X f g l NE H. rewrite !fmean_total. pose proof (len_inr _ _ NE) as P. apply Rmult_le_compat_r; [apply Rlt_le, Rinv_0_lt_compat, P|]. apply tot_le, H.
Qed.
Lemma fmean_ext : forall X (f g : X -> R) l, (forall x, In x l -> f x = g x) -> fmean f l = fmean g l.
Proof. intros X f g l H. rewrite !fmean_total. rewrite (tot_ext f g) by exact H. reflexivity. Qed.

Theorem policy_loss : forall eps l, 0 <= eps -> l <> [] ->
  loss_policy eps l = - average (fun s => capped_gain eps (s_adv s) (prob_ratio (s_logp s) (s_logp_old s))) l /\
  - average (fun s => prob_ratio (s_logp s) (s_logp_old s) * s_adv s) l <= loss_policy eps l /\
  ((forall s, In s l -> 1 - eps <= prob_ratio (s_logp s) (s_logp_old s) <= 1 + eps) ->
     loss_policy eps l = - average (fun s => prob_ratio (s_logp s) (s_logp_old s) * s_adv s) l) /\
  ((forall s, In s l -> s_logp s = s_logp_old s) -> loss_policy eps l = - average s_adv l).
Proof.
  intros eps l E NE. unfold loss_policy, average. rewrite <- !fmean_total. split; [|split; [|split]].
  - f_equal. apply fmean_ext. intros. apply gain_cases, E.
  - apply Ropp_le_contravar, fmean_le; [exact NE|]. intros s _. exact (proj1 (gain_bounds eps (s_adv s) (s_logp s) (s_logp_old s) E)).
  - intros H. f_equal. apply fmean_ext. intros s I. exact (proj1 (proj2 (gain_bounds eps (s_adv s) (s_logp s) (s_logp_old s) E)) (H s I)).
  - intros H. f_equal. apply fmean_ext. intros s I.
    assert (R1 : prob_ratio (s_logp s) (s_logp_old s) = 1) by (unfold prob_ratio; rewrite (H s I), Rminus_diag_eq, exp_0 by reflexivity; reflexivity).
    rewrite (proj1 (proj2 (gain_bounds eps (s_adv s) (s_logp s) (s_logp_old s) E))); rewrite R1; lra.
Qed.

(** ** The value loss *)
Lemma clip_range : forall x lo hi, lo <= hi -> lo <= clip x lo hi <= hi /\ (lo <= x <= hi -> clip x lo hi = x).
Proof. intros. unfold clip. mm; split; intros; lra. Qed.
Theorem value_loss : forall e l, 0 <= e -> l <> [] ->
  loss_value None l = average (fun s => (s_v s - s_teacher s) ^ 2) l /\
  loss_value None l <= loss_value (Some e) l /\
  ((forall s, In s l -> Rabs (s_v s - s_v_old s) <= e) -> loss_value (Some e) l = loss_value None l).
Proof.
  intros e l E NE. unfold loss_value, average. split; [apply fmean_total|]. split.
  - apply fmean_le; [exact NE|]. intros s _. cbn [value_term]. apply Rmax_l.
  - intros H. apply fmean_ext. intros s I. cbn [value_term]. specialize (H s I). rewrite (proj2 (clip_range (s_v s) (s_v_old s - e) (s_v_old s + e) ltac:(lra))).
    + apply Rmax_left. lra.
    + unfold Rabs in H. destruct (Rcase_abs (s_v s - s_v_old s)); lra.
Qed.
(** Outside the interval, on the side where moving further would only reduce the error
    below the clipped one, the term is constant. *)
Theorem value_flat : forall e s, 0 <= e ->
  (s_v_old s + e < s_v s /\ (s_v s - s_teacher s) ^ 2 < (s_v_old s + e - s_teacher s) ^ 2) \/
  (s_v s < s_v_old s - e /\ (s_v s - s_teacher s) ^ 2 < (s_v_old s - e - s_teacher s) ^ 2) ->
  derivable_pt_lim (fun x => value_term (Some e) (mk_sample (s_entropy s) x (s_logp s) (s_v_old s) (s_logp_old s) (s_adv s) (s_teacher s))) (s_v s) 0.
Proof.
  intros e s E H. set (t := s_teacher s). set (v := s_v s). set (o := s_v_old s) in *. fold t v in H.
  assert (C : continuity_pt (fun x => (x - t) ^ 2) v).
  { apply derivable_continuous_pt. exists (2 * (v - t)). unfold derivable_pt_abs. replace (2 * (v - t)) with ((1 - 0) * (v - t) + (v - t) * (1 - 0)) by ring.
    eapply deriv_ext; [intros x; cbn; rewrite Rmult_1_r; reflexivity|].
    apply (derivable_pt_lim_mult (fun x => x - t) (fun x => x - t)); apply (derivable_pt_lim_minus (fun x => x) (fun _ => t)); try apply derivable_pt_lim_id; apply derivable_pt_lim_const. }
  assert (L : forall c, (v - t) ^ 2 < c -> exists d, 0 < d /\ forall y, Rabs (y - v) < d -> (y - t) ^ 2 < c).
  { intros c Hc. destruct (C (c - (v - t) ^ 2) ltac:(lra)) as (d & D & K). exists d. split; [exact D|]. intros y Hy.
    destruct (Req_dec y v) as [->|N]; [exact Hc|]. specialize (K y). unfold dist, R_met, R_dist, D_x, no_cond in K. specialize (K (conj (conj Logic.I (not_eq_sym N)) Hy)).
    apply Rabs_def2 in K. lra. }
  destruct H as [(A & B)|(A & B)]; destruct (L _ B) as (d & D & K).
  - apply (deriv_local _ (fun _ => (o + e - t) ^ 2) v 0 (Rmin d (v - (o + e))) ltac:(apply Rmin_pos; lra)); [|apply derivable_pt_lim_const].
    intros y Hy. cbn [value_term s_v s_teacher s_v_old]. fold t o. pose proof (Rmin_l d (v - (o + e))). pose proof (Rmin_r d (v - (o + e))).
    assert (Y : o + e < y) by (apply Rabs_def2 in Hy; lra). specialize (K y ltac:(lra)).
    replace (clip y (o - e) (o + e)) with (o + e) by (unfold clip; mm; lra). apply Rmax_right. lra.
  - apply (deriv_local _ (fun _ => (o - e - t) ^ 2) v 0 (Rmin d (o - e - v)) ltac:(apply Rmin_pos; lra)); [|apply derivable_pt_lim_const].
    intros y Hy. cbn [value_term s_v s_teacher s_v_old]. fold t o. pose proof (Rmin_l d (o - e - v)). pose proof (Rmin_r d (o - e - v)).
    assert (Y : y < o - e) by (apply Rabs_def2 in Hy; lra). specialize (K y ltac:(lra)).
    replace (clip y (o - e) (o + e)) with (o - e) by (unfold clip; mm; lra). apply Rmax_right. lra.
Qed.

(** ** Statistics *)
Lemma var_nonneg : forall l, l <> [] -> 0 <= np_var l.
Proof.
  intros l NE. unfold np_var. rewrite fmean_total. apply Rmult_le_pos; [apply tot_nonneg; intros; apply pow2_ge_0|]. apply Rlt_le, Rinv_0_lt_compat, len_inr, NE.
Qed.
Lemma mean_const : forall l c, l <> [] -> (forall x, In x l -> x = c) -> np_mean l = c.
Proof.
  intros l c NE H. unfold np_mean. rewrite fmean_total, (tot_ext _ (fun _ => c)) by exact H. rewrite tot_const. pose proof (len_inr _ _ NE). field. lra.
Qed.
Lemma var_zero : forall l, l <> [] -> (np_var l = 0 <-> all_equal l).
Proof.
  intros l NE. pose proof (len_inr _ _ NE) as P. unfold all_equal. split.
  - intros Z x y I J. unfold np_var in Z. rewrite fmean_total in Z.
    assert (T : total_of (fun x => (x - np_mean l) ^ 2) l = 0).
    { apply (Rmult_eq_reg_r (/ INR (length l))); [|apply Rinv_neq_0_compat; lra]. unfold Rdiv in Z. lra. }
    pose proof (tot_zero _ _ (fun z _ => pow2_ge_0 (z - np_mean l)) T) as A.
    assert (B : forall z, In z l -> z = np_mean l). { intros z Iz. specialize (A z Iz). cbv beta in A. destruct (Req_dec (z - np_mean l) 0) as [E|E]; [lra|]. exfalso. exact (pow_nonzero _ 2 E A). }
    rewrite (B x I), (B y J). reflexivity.
  - intros H. destruct l as [|c l]; [congruence|]. assert (M : np_mean (c :: l) = c) by (apply mean_const; [exact NE|]; intros x I; apply H; [exact I|left; reflexivity]).
    unfold np_var. rewrite M. rewrite (fmean_ext _ _ (fun _ => 0)).
    + rewrite fmean_total, tot_const. unfold Rdiv. ring.
    + intros x I. rewrite (H x c I (or_introl eq_refl)). ring.
Qed.
Lemma std_zero : forall l, l <> [] -> (np_std l = 0 <-> all_equal l).
Proof.
  intros l NE. unfold np_std. rewrite <- (var_zero l NE). pose proof (var_nonneg l NE) as V. split.
  - intros H. apply sqrt_eq_0 in H; assumption.
  - intros ->. apply sqrt_0.
Qed.
Lemma std_eps_pos : 0 < std_eps.
Proof. unfold std_eps. apply Rinv_0_lt_compat, pow_lt. lra. Qed.
Lemma std_nonneg : forall l, 0 <= np_std l.
Proof. intros. apply sqrt_pos. Qed.
Lemma std_sq : forall l, l <> [] -> np_std l * np_std l = np_var l.
Proof. intros l NE. apply sqrt_sqrt, var_nonneg, NE. Qed.
Lemma mean_affine : forall l a b, l <> [] -> np_mean (map (fun x => (x - a) / b) l) = (np_mean l - a) / b.
Proof.
  intros l a b NE. unfold np_mean. rewrite !fmean_total, map_length, tot_map. pose proof (len_inr _ _ NE) as P. unfold Rdiv.
  rewrite (tot_ext _ (fun x => / b * (x - a))) by (intros; ring). rewrite tot_scale, (tot_sub (fun x => x) (fun _ => a)), tot_const.
  set (T := total_of (fun x => x) l). set (n := INR (length l)) in *. rewrite (Rmult_comm _ (/ b)).
  transitivity (/ b * ((T - n * a) * / n)); [ring|]. f_equal. field. lra.
Qed.
Theorem standardized : forall all, all <> [] ->
  length (standardize all all) = length all /\ np_mean (standardize all all) = 0 /\
  np_std (standardize all all) = np_std all / (np_std all + std_eps) /\ 0 <= np_std (standardize all all) < 1 /\
  (forall i j a b, nth_error all i = Some a -> nth_error all j = Some b -> a < b ->
     exists a' b', nth_error (standardize all all) i = Some a' /\ nth_error (standardize all all) j = Some b' /\ a' < b') /\
  (all_equal all -> forall x, In x (standardize all all) -> x = 0).
Proof.
  intros all NE. pose proof std_eps_pos as EP. pose proof (std_nonneg all) as SN. set (sd := np_std all) in *. set (D := sd + std_eps).
  assert (DP : 0 < D) by (unfold D; lra). assert (M0 : np_mean (standardize all all) = 0).
  { unfold standardize. fold sd. fold D. rewrite mean_affine by exact NE. unfold Rdiv. ring. }
  assert (V : np_var (standardize all all) = (sd / D) * (sd / D)).
  { unfold np_var at 1. rewrite M0. unfold standardize. fold sd. fold D. rewrite fmean_total, map_length, tot_map.
    rewrite (tot_ext _ (fun x => / (D * D) * (x - np_mean all) ^ 2)) by (intros; field; lra). rewrite tot_scale.
    transitivity (/ (D * D) * np_var all).
    - unfold np_var at 1. rewrite fmean_total. unfold Rdiv. ring.
    - rewrite <- (std_sq all NE). fold sd. field. lra. }
  assert (Q : 0 <= sd / D) by (apply Rmult_le_pos; [exact SN|apply Rlt_le, Rinv_0_lt_compat, DP]).
  assert (S1 : np_std (standardize all all) = sd / D) by (unfold np_std; rewrite V; apply sqrt_square, Q).
  split; [apply map_length|]. split; [exact M0|]. split; [exact S1|]. split; [|split].
  - rewrite S1. split; [exact Q|]. apply (Rmult_lt_reg_r D); [exact DP|]. unfold Rdiv. rewrite Rmult_assoc, Rinv_l by lra. unfold D. lra.
  - intros i j a b Hi Hj L. exists ((a - np_mean all) / D), ((b - np_mean all) / D). unfold standardize. fold sd. fold D.
    rewrite !nth_error_map, Hi, Hj. split; [reflexivity|]. split; [reflexivity|]. apply Rmult_lt_compat_r; [apply Rinv_0_lt_compat, DP|lra].
  - intros H x I. unfold standardize in I. apply in_map_iff in I. destruct I as (y & <- & I). rewrite (mean_const all y NE) by (intros z Iz; apply H; assumption). unfold Rdiv. ring.
Qed.
Theorem recurrent_raises : forall all advs, all <> [] ->
  (standardize_recurrent all advs = Raise AssertionError <-> all_equal all) /\
  (~ all_equal all -> standardize_recurrent all advs = Ok (standardize all advs)).
Proof.
  intros all advs NE. unfold standardize_recurrent. pose proof (std_zero all NE) as Z. pose proof (std_nonneg all) as S. destruct (Rlt_dec 0 (np_std all)) as [P|P]; split.
  - split; [discriminate|]. intros H. apply Z in H. lra.
  - reflexivity.
  - split; [|reflexivity]. intros _. apply Z. lra.
  - intros H. exfalso. apply H, Z. lra.
Qed.

Lemma map_ne : forall X Y (f : X -> Y) l, l <> [] -> map f l <> [].
Proof. intros X Y f [|x l] H; [congruence|discriminate]. Qed.
Theorem explained : forall trs, trs <> [] ->
  (explained_variance trs = None <-> all_equal (map fst trs)) /\
  (forall v, explained_variance trs = Some v -> v <= 1 /\ (v = 1 <-> all_equal (map (fun p => fst p - snd p) trs)) /\
     (all_equal (map snd trs) -> v = 0)).
Proof.
  intros trs NE. unfold explained_variance. pose proof (map_ne _ _ fst trs NE) as N1. pose proof (map_ne _ _ (fun p : R * R => fst p - snd p) trs NE) as N2.
  split; [destruct (Req_EM_T (np_var (map fst trs)) 0) as [Z|Z]; split|].
  - intros _. apply (var_zero _ N1), Z.
  - reflexivity.
  - discriminate.
  - intros H. exfalso. apply Z, (var_zero _ N1), H.
  - intros v H. destruct (Req_EM_T (np_var (map fst trs)) 0) as [Z|Z]; [discriminate|]. injection H as <-.
    pose proof (var_nonneg _ N1) as V1. pose proof (var_nonneg _ N2) as V2. assert (P : 0 < np_var (map fst trs)) by lra. split; [|split].
    + assert (0 <= np_var (map (fun p => fst p - snd p) trs) / np_var (map fst trs)) by (apply Rmult_le_pos; [exact V2|apply Rlt_le, Rinv_0_lt_compat, P]). lra.
    + rewrite <- (var_zero _ N2). split.
      * intros E. apply (Rmult_eq_reg_r (/ np_var (map fst trs))); [|apply Rinv_neq_0_compat; lra]. unfold Rdiv in E. lra.
      * intros ->. field. lra.
    + intros H. destruct trs as [|[t0 c] trs0]; [congruence|]. set (trs := (t0, c) :: trs0) in *.
      assert (A : forall p, In p trs -> snd p = c). { intros p I. apply H; [apply in_map, I|left; reflexivity]. }
      assert (M : np_mean (map (fun p => fst p - snd p) trs) = np_mean (map fst trs) - c).
      { unfold np_mean. rewrite !fmean_total, !map_length, !tot_map. rewrite (tot_ext _ (fun p => fst p - c)) by (intros p I; rewrite (A p I); reflexivity).
        rewrite (tot_sub (fun p => fst p) (fun _ => c)), tot_const. pose proof (len_inr _ _ NE). field. lra. }
      assert (V : np_var (map (fun p => fst p - snd p) trs) = np_var (map fst trs)).
      { unfold np_var. rewrite M. rewrite !fmean_total, !map_length, !tot_map. f_equal. apply tot_ext. intros p I. rewrite (A p I). ring. }
      rewrite V. field. lra.
Qed.

Theorem trpo_at_old : forall c_e l, l <> [] ->
  (forall eps, 0 <= eps -> - loss_policy eps l <= trpo_gain c_e l - c_e * average s_entropy l) /\
  ((forall s, In s l -> s_logp s = s_logp_old s) -> trpo_gain c_e l = average s_adv l + c_e * average s_entropy l).
Proof.
  intros c_e l NE. unfold trpo_gain, average. rewrite <- !fmean_total. split.
  - intros eps E. pose proof (proj1 (proj2 (policy_loss eps l E NE))) as H. unfold average in H. rewrite <- fmean_total in H. lra.
  - intros H. f_equal. apply fmean_ext. intros s I. unfold prob_ratio. rewrite (H s I), Rminus_diag_eq, exp_0 by reflexivity. ring.
Qed.

Lemma whole_loss : forall eps evf c_v c_e l, 0 <= eps -> l <> [] ->
  ppo_loss eps evf c_v c_e l =
    - average (fun s => capped_gain eps (s_adv s) (prob_ratio (s_logp s) (s_logp_old s))) l
    + c_v * loss_value evf l - c_e * average s_entropy l.
Proof.
  intros eps evf c_v c_e l He Hl. unfold ppo_loss. rewrite (proj1 (policy_loss eps l He Hl)). unfold loss_entropy. rewrite fmean_total.
  unfold average at 3. ring.
Qed.
Lemma minibatch_standardized : forall all idx, (forall i, In i idx -> (i < length all)%nat) ->
  standardize all (map (fun i => nth i all 0) idx) = map (fun i => nth i (standardize all all) 0) idx.
Proof.
  intros all idx H. unfold standardize. rewrite map_map. apply map_ext_in. intros i Hi.
  set (f := fun a => (a - np_mean all) / (np_std all + std_eps)). rewrite (nth_indep (map f all) 0 (f 0)) by (rewrite map_length; apply H, Hi).
  rewrite (map_nth f). reflexivity.
Qed.
