(** Proofs about distributions and mellowmax. *)
From Coq Require Import Reals List Lia Lra.
From Verif Require Import Base.PyBase Model.Distributions Spec.SumSpec Spec.DistributionSpec Proofs.RSumFacts Proofs.ActionMapsProofs.
Import ListNotations.
Local Open Scope R_scope.

Lemma fsum_total : forall l, fsum l = total_of (fun x => x) l.
Proof. induction l as [|x l IH]; [reflexivity|]. unfold fsum in *. cbn. rewrite IH. reflexivity. Qed.
Lemma fsum_map : forall X (f : X -> R) l, fsum (map f l) = total_of f l.
Proof. intros. rewrite fsum_total, tot_map. reflexivity. Qed.
Lemma zipr_total : forall f a b, fsum (zipr f a b) = total_of (fun z => f (fst z) (snd z)) (combine a b).
Proof. induction a as [|x a IH]; intros [|y b]; try reflexivity. cbn [zipr combine]. rewrite tot_cons, <- IH. reflexivity. Qed.
Lemma combine_map_r : forall X Y Z (g : Y -> Z) (a : list X) b, combine a (map g b) = map (fun z => (fst z, g (snd z))) (combine a b).
Proof. induction a as [|x a IH]; intros [|y b]; try reflexivity. cbn. rewrite IH. reflexivity. Qed.
Lemma combine_map_l : forall X Y Z (g : X -> Z) (a : list X) (b : list Y), combine (map g a) b = map (fun z => (g (fst z), snd z)) (combine a b).
Proof. induction a as [|x a IH]; intros [|y b]; try reflexivity. cbn. rewrite IH. reflexivity. Qed.
Lemma combine_self : forall X (a : list X), combine a a = map (fun x => (x, x)) a.
Proof. induction a as [|x a IH]; [reflexivity|]. cbn. rewrite IH. reflexivity. Qed.

Lemma ln_le_lin : forall t, 0 < t -> ln t <= t - 1.
Proof. intros t H. pose proof (exp_ineq1_le (ln t)) as E. rewrite exp_ln in E by exact H. lra. Qed.
Lemma ln_lt_lin : forall t, 0 < t -> t <> 1 -> ln t < t - 1.
Proof.
  intros t H N. assert (ln t <> 0) by (intros E; apply N; rewrite <- (exp_ln t H), E; apply exp_0).
  pose proof (exp_ineq1 (ln t) ltac:(assumption)) as E. rewrite exp_ln in E by exact H. lra.
Qed.
Lemma ln_div : forall a b, 0 < a -> 0 < b -> ln (a / b) = ln a - ln b.
Proof. intros. unfold Rdiv. rewrite ln_mult, ln_Rinv by (auto; apply Rinv_0_lt_compat; assumption). ring. Qed.
Lemma ln_mono : forall a b, 0 < a -> a <= b -> ln a <= ln b.
Proof. intros a b H [L| ->]; [apply Rlt_le, ln_increasing; assumption|apply Rle_refl]. Qed.

(** Gibbs' inequality, termwise. *)
Lemma gibbs_term : forall p q, 0 <= p -> 0 < q -> p - q <= p * (ln p - ln q).
Proof.
  intros p q [Hp| <-] Hq; [|lra]. pose proof (ln_le_lin (q / p) ltac:(apply Rdiv_lt_0_compat; assumption)) as E.
  rewrite ln_div in E by assumption. apply (Rmult_le_compat_l p) in E; [|lra]. replace (p * (q / p - 1)) with (q - p) in E by (field; lra). lra.
Qed.
Lemma gibbs_strict : forall p q, 0 <= p -> 0 < q -> p * (ln p - ln q) = p - q -> p = q.
Proof.
  intros p q [Hp| <-] Hq E; [|lra]. destruct (Req_dec p q) as [|N]; [assumption|]. exfalso.
  assert (q / p <> 1) by (intros E1; apply N; apply (f_equal (Rmult p)) in E1; field_simplify in E1; lra).
  pose proof (ln_lt_lin (q / p) ltac:(apply Rdiv_lt_0_compat; assumption) ltac:(assumption)) as L.
  rewrite ln_div in L by assumption. apply (Rmult_lt_compat_l p) in L; [|lra]. replace (p * (q / p - 1)) with (q - p) in L by (field; lra). lra.
Qed.

Lemma total_combine : forall (p q : list R), length p = length q ->
  total_of (fun z => fst z - snd z) (combine p q) = total_of (fun x => x) p - total_of (fun x => x) q.
Proof. induction p as [|x p IH]; intros [|y q] H; cbn in H; try lia; [unfold total_of; cbn; ring|]. cbn [combine]. rewrite !tot_cons, IH by lia. cbn. ring. Qed.

Theorem gibbs : forall p q, length p = length q -> probability p -> probability q -> (forall x, In x q -> 0 < x) ->
  0 <= relative_entropy p q /\ (relative_entropy p q = 0 <-> p = q).
Proof.
  intros p q L [P1 P2] [Q1 Q2] Qp. unfold relative_entropy.
  assert (T : forall z, In z (combine p q) -> fst z - snd z <= fst z * (ln (fst z) - ln (snd z))).
  { intros [x y] I. cbn. apply gibbs_term; [apply P1; exact (in_combine_l _ _ _ _ I)|apply Qp; exact (in_combine_r _ _ _ _ I)]. }
  assert (S : total_of (fun z => fst z - snd z) (combine p q) = 0) by (rewrite total_combine by exact L; lra).
  split; [rewrite <- S; apply tot_le, T|]. split.
  - intros E.
    assert (Z : forall z, In z (combine p q) -> fst z * (ln (fst z) - ln (snd z)) - (fst z - snd z) = 0).
    { apply (tot_zero (fun z : R * R => fst z * (ln (fst z) - ln (snd z)) - (fst z - snd z))).
      - intros z I. specialize (T z I). cbv beta. lra.
      - rewrite tot_sub, E, S. ring. }
    clear -L P1 Qp Z. revert q L P1 Qp Z. induction p as [|x p IH]; intros [|y q] L P1 Qp Z; cbn in L; try lia; [reflexivity|].
    pose proof (Z (x, y) (or_introl eq_refl)) as E. cbn in E. f_equal.
    + apply gibbs_strict; [apply P1; left; reflexivity|apply Qp; left; reflexivity|lra].
    + apply IH; [lia|intros; apply P1; right; assumption|intros; apply Qp; right; assumption|intros; apply Z; right; assumption].
  - intros ->. rewrite combine_self, tot_map. rewrite (tot_ext _ (fun _ => 0)) by (intros; cbn; ring). rewrite tot_const. ring.
Qed.

(** ** Softmax *)
Section Softmax.
  Variable l : list R.
  Hypothesis NE : l <> [].
  Let z := fsum (map exp l).
  Lemma z_pos : 0 < z.
  Proof. unfold z. rewrite fsum_map. apply tot_pos; [exact NE|]. intros. apply exp_pos. Qed.
  Lemma softmax_pos : forall x, In x (softmax l) -> 0 < x.
  Proof. intros x H. apply in_map_iff in H. destruct H as (y & <- & _). apply Rdiv_lt_0_compat; [apply exp_pos|apply z_pos]. Qed.
  Lemma softmax_sum : total_of (fun x => x) (softmax l) = 1.
  Proof.
    unfold softmax. rewrite tot_map. rewrite (tot_ext _ (fun x => / z * exp x)) by (intros; unfold Rdiv, z; ring).
    rewrite tot_scale, <- fsum_map. fold z. apply Rinv_l. pose proof z_pos. lra.
  Qed.
  Lemma softmax_prob : probability (softmax l).
  Proof. split; [intros; apply Rlt_le, softmax_pos; assumption|apply softmax_sum]. Qed.
  Lemma log_softmax_ln : log_softmax l = map ln (softmax l).
  Proof.
    unfold log_softmax, softmax. rewrite map_map. apply map_ext. intros x. fold z. rewrite ln_div by (try apply exp_pos; apply z_pos).
    rewrite ln_exp. reflexivity.
  Qed.
End Softmax.
Lemma softmax_len : forall l, length (softmax l) = length l.
Proof. intros. apply map_length. Qed.

Lemma softmax_distribution : forall logits beta min_prob d, logits <> [] -> SoftmaxDistribution logits beta min_prob = Ok d ->
  length (all_prob d) = length logits /\ probability (all_prob d) /\ (forall x, In x (all_prob d) -> 0 < x /\ min_prob <= x) /\ all_log_prob d = map ln (all_prob d).
Proof.
  intros logits beta mp d NE. unfold SoftmaxDistribution. set (l := map (Rmult beta) logits).
  assert (NE' : l <> []) by (unfold l; destruct logits; [congruence|discriminate]).
  assert (Ll : length l = length logits) by apply map_length.
  destruct (Rle_dec _ 1) as [B|]; [|discriminate]. destruct (Rlt_dec 0 mp) as [Hp|Hp]; intros E; injection E as <-; cbn [all_prob all_log_prob].
  - set (c := 1 - mp * INR (length logits)) in *. assert (Hc : 0 <= c) by (unfold c; lra).
    assert (G : forall x, In x (map (fun x => x * c + mp) (softmax l)) -> 0 < x /\ mp <= x).
    { intros x H. apply in_map_iff in H. destruct H as (y & <- & I). pose proof (softmax_pos l NE' y I). nra. }
    split; [rewrite map_length, softmax_len; exact Ll|]. split; [|split; [exact G|reflexivity]].
    split; [intros x H; apply G in H; lra|]. rewrite tot_map, tot_add, tot_const, softmax_len, Ll.
    rewrite (tot_ext _ (fun x => c * x)) by (intros; ring). rewrite tot_scale, softmax_sum by exact NE'. unfold c. ring.
  - split; [rewrite softmax_len; exact Ll|]. split; [apply softmax_prob, NE'|]. split; [|apply log_softmax_ln, NE'].
    intros x H. pose proof (softmax_pos l NE' x H). lra.
Qed.

Lemma softmax_accepts : forall logits beta min_prob, min_prob * INR (length logits) <= 1 <-> exists d, SoftmaxDistribution logits beta min_prob = Ok d.
Proof.
  intros. unfold SoftmaxDistribution. destruct (Rle_dec _ 1) as [B|B]; split; intros H; try assumption.
  - destruct (Rlt_dec 0 min_prob); eexists; reflexivity.
  - contradiction.
  - destruct H as [d H]. discriminate.
Qed.

Lemma cat_entropy_shannon : forall d, proper d -> cat_entropy d = shannon (all_prob d).
Proof.
  intros d (_ & _ & E). unfold cat_entropy, shannon. rewrite zipr_total, E, combine_map_r, tot_map, combine_self, tot_map. reflexivity.
Qed.
Lemma shannon_bounds : forall p, p <> [] -> probability p -> 0 <= shannon p <= ln (INR (length p)).
Proof.
  intros p NE [P1 P2]. unfold shannon. split.
  - rewrite <- tot_opp. apply tot_nonneg. intros x I. pose proof (P1 x I). pose proof (tot_ge_one (fun x => x) p x P1 I) as L. cbv beta in L. rewrite P2 in L.
    destruct (Req_dec x 0) as [->|N]; [lra|]. pose proof (ln_le_lin x ltac:(lra)). nra.
  - set (n := INR (length p)). assert (Hn : 0 < n) by (unfold n; apply lt_0_INR; destruct p; [congruence|cbn; lia]).
    assert (G : total_of (fun x => x - / n) p <= total_of (fun x => x * (ln x - ln (/ n))) p).
    { apply tot_le. intros x I. apply gibbs_term; [apply P1, I|apply Rinv_0_lt_compat, Hn]. }
    rewrite tot_sub, tot_const, P2 in G. fold n in G. rewrite Rinv_r, Rminus_diag_eq in G by lra.
    rewrite (tot_ext _ (fun x => x * ln x + ln n * x)) in G by (intros; rewrite ln_Rinv by exact Hn; ring).
    rewrite tot_add, tot_scale, P2 in G. lra.
Qed.
Lemma cat_kl_relative : forall p q, proper p -> proper q -> length (all_prob p) = length (all_prob q) -> cat_kl p q = relative_entropy (all_prob p) (all_prob q).
Proof.
  intros p q (_ & _ & Ep) (_ & _ & Eq) L. unfold cat_kl, relative_entropy. rewrite Ep, Eq. clear Ep Eq.
  revert L. generalize (all_prob p) (all_prob q). induction l as [|x l IH]; intros [|y l0] L; cbn in L; try lia; [reflexivity|].
  cbn [map zipr combine]. rewrite tot_cons, <- IH by lia. reflexivity.
Qed.

Lemma argmax_from_spec : forall l pre best m, nth_error pre best = Some m -> (forall x, In x pre -> x <= m) ->
  exists m', nth_error (pre ++ l) (argmax_from (length pre) best m l) = Some m' /\ forall x, In x (pre ++ l) -> x <= m'.
Proof.
  induction l as [|y l IH]; intros pre best m B H; [rewrite app_nil_r; exists m; auto|]. cbn [argmax_from].
  assert (Lp : (best < length pre)%nat) by (apply nth_error_Some; congruence).
  replace (pre ++ y :: l) with ((pre ++ [y]) ++ l) by (rewrite <- app_assoc; reflexivity).
  replace (S (length pre)) with (length (pre ++ [y])) by (rewrite app_length; cbn; lia).
  destruct (Rlt_dec m y) as [L|L]; apply IH.
  - rewrite nth_error_app2, Nat.sub_diag by lia. reflexivity.
  - intros x I. apply in_app_iff in I. destruct I as [I|[<-|[]]]; [specialize (H x I); lra|lra].
  - rewrite nth_error_app1 by exact Lp. exact B.
  - intros x I. apply in_app_iff in I. destruct I as [I|[<-|[]]]; [apply H, I|lra].
Qed.
Lemma most_probable_spec : forall d, all_prob d <> [] -> exists i m, most_probable d = Ok i /\ nth_error (all_prob d) i = Some m /\ forall x, In x (all_prob d) -> x <= m.
Proof.
  intros d NE. unfold most_probable. destruct (all_prob d) as [|y l] eqn:E; [congruence|].
  destruct (argmax_from_spec l [y] 0 y eq_refl) as (m & H1 & H2); [intros x [<-|[]]; lra|]. eexists _, m. split; [reflexivity|]. split; assumption.
Qed.

(** ** Gaussians *)
Lemma gauss_term : forall v m v' m', 0 < v -> 0 < v' -> 0 <= ln v' - ln v + (v + (m - m') ^ 2) / v' - 1 /\
  (ln v' - ln v + (v + (m - m') ^ 2) / v' - 1 = 0 <-> v = v' /\ m = m').
Proof.
  intros v m v' m' H H'. pose proof (ln_le_lin (v / v') ltac:(apply Rdiv_lt_0_compat; assumption)) as E. rewrite ln_div in E by assumption.
  assert (S : (v + (m - m') ^ 2) / v' = v / v' + (m - m') ^ 2 / v') by (field; lra).
  assert (Q : 0 <= (m - m') ^ 2 / v').
  { unfold Rdiv. apply Rmult_le_pos; [apply pow2_ge_0|]. apply Rlt_le, Rinv_0_lt_compat, H'. }
  rewrite S. split; [lra|]. split.
  - intros Z. assert (Z1 : ln v - ln v' = v / v' - 1) by lra. assert (Z2 : (m - m') ^ 2 / v' = 0) by lra.
    assert (V : v / v' = 1).
    { destruct (Req_dec (v / v') 1) as [|N]; [assumption|]. exfalso.
      pose proof (ln_lt_lin (v / v') ltac:(apply Rdiv_lt_0_compat; assumption) N) as L. rewrite ln_div in L by assumption. lra. }
    split; [apply (Rmult_eq_reg_r (/ v')); [|apply Rinv_neq_0_compat; lra]; rewrite Rinv_r by lra; exact V|].
    assert ((m - m') ^ 2 = 0).
    { apply (Rmult_eq_reg_r (/ v')); [|apply Rinv_neq_0_compat; lra]. rewrite Rmult_0_l. exact Z2. }
    assert (m - m' = 0) by (destruct (Req_dec (m - m') 0) as [|N]; [assumption|exfalso; apply (pow_nonzero _ 2 N); assumption]). lra.
  - intros [-> ->]. field. lra.
Qed.

Theorem gauss_kl_spec : forall p q, same_dim p q -> positive p -> positive q -> 0 <= gauss_kl p q /\ (gauss_kl p q = 0 <-> p = q).
Proof.
  intros [pm pv] [qm qv] (L1 & L2 & L3) Pp Pq. unfold gauss_kl, positive in *. cbn [g_mean g_var] in *.
  assert (G : 0 <= fsum (kl_terms pm pv qm qv) /\ (fsum (kl_terms pm pv qm qv) = 0 <-> pm = qm /\ pv = qv)).
  { revert pv qm qv L1 L2 L3 Pp Pq. induction pm as [|m pm IH]; intros [|v pv] [|m' qm] [|v' qv] L1 L2 L3 Pp Pq; cbn in L1, L2, L3; try lia.
    - cbn. split; [lra|]. split; auto.
    - destruct (IH pv qm qv) as [I1 I2]; [lia|lia|lia|intros; apply Pp; right; assumption|intros; apply Pq; right; assumption|].
      destruct (gauss_term v m v' m' (Pp v (or_introl eq_refl)) (Pq v' (or_introl eq_refl))) as [T1 T2].
      unfold fsum in *. cbn [kl_terms fold_right]. split; [lra|]. split.
      + intros E. destruct T2 as [T2 _]. destruct I2 as [I2 _]. destruct T2 as [-> ->]; [lra|]. destruct I2 as [-> ->]; [lra|]. auto.
      + intros [E1 E2]. injection E1 as -> ->. injection E2 as -> ->. destruct T2 as [_ T2]. destruct I2 as [_ I2].
        rewrite T2, I2 by auto. ring. }
  destruct G as [G1 G2]. split; [lra|]. split.
  - intros E. assert (E' : fsum (kl_terms pm pv qm qv) = 0) by lra. apply G2 in E'. destruct E' as [-> ->]. reflexivity.
  - intros E. injection E as -> ->. destruct G2 as [_ G2]. rewrite G2 by auto. ring.
Qed.

Theorem gauss_mode : forall d x, positive d -> length (g_mean d) = length (g_var d) -> length x = length (g_mean d) -> gauss_log_prob d x <= gauss_log_prob d (g_mean d).
Proof.
  intros [m v] x P L1 L2. unfold gauss_log_prob, positive in *. cbn [g_mean g_var] in *. revert v x P L1 L2.
  induction m as [|a m IH]; intros [|b v] [|c x] P L1 L2; cbn in L1, L2; try lia; [cbn; lra|]. unfold fsum in *. cbn [zip3 fold_right].
  assert (H : 0 < b) by (apply P; left; reflexivity). pose proof (IH v x ltac:(intros; apply P; right; assumption) ltac:(lia) ltac:(lia)) as I.
  apply Rplus_le_compat; [|exact I]. unfold gaussian_ll. assert (0 <= (c - a) ^ 2 / (2 * b)).
  { unfold Rdiv. apply Rmult_le_pos; [apply pow2_ge_0|]. apply Rlt_le, Rinv_0_lt_compat. lra. }
  replace ((a - a) ^ 2 / (2 * b)) with 0 by (field; lra). lra.
Qed.

(** ** tanh *)
Lemma cosh_pos : forall x, 0 < cosh x.
Proof. intros. unfold cosh. pose proof (exp_pos x). pose proof (exp_pos (- x)). lra. Qed.
Lemma tanh_sq : forall x, 1 - tanh x ^ 2 = / (cosh x ^ 2).
Proof.
  intros x. unfold tanh. pose proof (cosh_pos x) as H. assert (E : cosh x ^ 2 - sinh x ^ 2 = 1).
  { unfold cosh, sinh. assert (exp x * exp (- x) = 1) by (rewrite <- exp_plus, Rplus_opp_r; apply exp_0). nra. }
  apply (Rmult_eq_reg_r (cosh x ^ 2)); [|nra]. rewrite Rinv_l by nra. transitivity (cosh x ^ 2 - sinh x ^ 2); [field; lra|exact E].
Qed.
Theorem tanh_log_det_spec : forall x, tanh_log_det x = ln (1 - tanh x ^ 2) /\ derivable_pt_lim tanh x (exp (tanh_log_det x)).
Proof.
  intros x. assert (E : tanh_log_det x = ln (1 - tanh x ^ 2)).
  { rewrite tanh_sq, ln_Rinv by (pose proof (cosh_pos x); nra). replace (cosh x ^ 2) with (cosh x * cosh x) by ring.
    rewrite ln_mult by apply cosh_pos. unfold tanh_log_det, softplus.
    assert (C : 2 * cosh x = exp x * (1 + exp (- 2 * x))).
    { unfold cosh. assert (exp x * exp (- 2 * x) = exp (- x)) by (rewrite <- exp_plus; f_equal; ring). lra. }
    assert (P : 0 < 1 + exp (- 2 * x)) by (pose proof (exp_pos (- 2 * x)); lra).
    assert (D : ln 2 + ln (cosh x) = x + ln (1 + exp (- 2 * x))).
    { rewrite <- ln_mult by (try apply cosh_pos; lra). rewrite C, ln_mult, ln_exp by (auto; apply exp_pos). reflexivity. }
    lra. }
  split; [exact E|]. rewrite E, exp_ln.
  - rewrite tanh_sq. pose proof (cosh_pos x) as H.
    replace (/ cosh x ^ 2) with ((cosh x * cosh x - sinh x * sinh x) / Rsqr (cosh x)).
    + apply (derivable_pt_lim_div sinh cosh); [apply derivable_pt_lim_sinh|apply derivable_pt_lim_cosh|lra].
    + unfold Rsqr. assert (cosh x ^ 2 - sinh x ^ 2 = 1).
      { unfold cosh, sinh. assert (exp x * exp (- x) = 1) by (rewrite <- exp_plus, Rplus_opp_r; apply exp_0). nra. }
      replace (cosh x * cosh x - sinh x * sinh x) with 1 by lra. field. lra.
  - rewrite tanh_sq. apply Rinv_0_lt_compat. pose proof (cosh_pos x). nra.
Qed.
Lemma arctanh_tanh : forall x, arctanh (tanh x) = x.
Proof.
  intros x. unfold arctanh. rewrite tanh_exp. pose proof (exp_pos (2 * x)) as P.
  replace ((1 + (1 - 2 / (exp (2 * x) + 1))) / (1 - (1 - 2 / (exp (2 * x) + 1)))) with (exp (2 * x)) by (field; lra). rewrite ln_exp. field.
Qed.
Theorem squashed_consistent : forall d x, squashed_log_prob d (fst (squashed_sample d x)) = snd (squashed_sample d x) /\
  forall y, In y (fst (squashed_sample d x)) -> -1 < y < 1.
Proof.
  intros d x. split.
  - unfold squashed_log_prob, squashed_sample. cbn [fst snd]. rewrite map_map. rewrite (map_ext _ (fun x => x)) by apply arctanh_tanh. rewrite map_id. reflexivity.
  - intros y I. apply in_map_iff in I. destruct I as (z & <- & _). apply tanh_bounds.
Qed.

(** ** Mellowmax *)
Lemma lse_total : forall w l, logsumexp (map (Rmult w) l) = ln (total_of (fun x => exp (w * x)) l).
Proof. intros. unfold logsumexp. rewrite map_map, fsum_map. reflexivity. Qed.
Lemma exp_total_pos : forall w l, l <> [] -> 0 < total_of (fun x => exp (w * x)) l.
Proof. intros. apply tot_pos; [assumption|]. intros. apply exp_pos. Qed.
Lemma len_pos : forall (l : list R), l <> [] -> 0 < INR (length l).
Proof. intros l H. apply lt_0_INR. destruct l; [congruence|cbn; lia]. Qed.

Section MM.
  Variable w : R.
  Hypothesis W : 0 < w.

  Lemma mm_le_of : forall l c, l <> [] -> total_of (fun x => exp (w * x)) l <= INR (length l) * exp (w * c) -> mellowmax w l <= c.
  Proof.
    intros l c NE H. unfold mellowmax. rewrite lse_total. pose proof (len_pos l NE) as N. pose proof (exp_total_pos w l NE) as P.
    apply Rmult_le_reg_r with w; [exact W|]. unfold Rdiv. rewrite Rmult_assoc, Rinv_l, Rmult_1_r by lra.
    apply ln_mono in H; [|exact P]. rewrite ln_mult, ln_exp in H by (auto; apply exp_pos). lra.
  Qed.
  Lemma mm_ge_of : forall l c, l <> [] -> INR (length l) * exp (w * c) <= total_of (fun x => exp (w * x)) l -> c <= mellowmax w l.
  Proof.
    intros l c NE H. unfold mellowmax. rewrite lse_total. pose proof (len_pos l NE) as N. pose proof (exp_total_pos w l NE) as P.
    apply Rmult_le_reg_r with w; [exact W|]. unfold Rdiv. rewrite Rmult_assoc, Rinv_l, Rmult_1_r by lra.
    apply ln_mono in H; [|apply Rmult_lt_0_compat; [exact N|apply exp_pos]]. rewrite ln_mult, ln_exp in H by (auto; apply exp_pos). lra.
  Qed.
  Lemma mm_eq : forall l, l <> [] -> total_of (fun x => exp (w * x)) l = INR (length l) * exp (w * mellowmax w l).
  Proof.
    intros l NE. unfold mellowmax. rewrite lse_total. pose proof (len_pos l NE) as N. pose proof (exp_total_pos w l NE) as P.
    replace (w * ((ln (total_of (fun x => exp (w * x)) l) - ln (INR (length l))) / w)) with (ln (total_of (fun x => exp (w * x)) l) + - ln (INR (length l))) by (field; lra).
    rewrite exp_plus, exp_Ropp, !exp_ln by assumption. field. lra.
  Qed.

  Lemma exp_mono : forall a b, a <= b -> exp (w * a) <= exp (w * b).
  Proof. intros a b [H| ->]; [|apply Rle_refl]. apply Rlt_le, exp_increasing. nra. Qed.

  Theorem mm_bounds : forall l c, l <> [] -> ((forall x, In x l -> x <= c) -> mellowmax w l <= c) /\ ((forall x, In x l -> c <= x) -> c <= mellowmax w l).
  Proof.
    intros l c NE. split; intros H.
    - apply mm_le_of; [exact NE|]. rewrite <- (tot_const (exp (w * c)) l). apply tot_le. intros x I. apply exp_mono, H, I.
    - apply mm_ge_of; [exact NE|]. rewrite <- (tot_const (exp (w * c)) l). apply tot_le. intros x I. apply exp_mono, H, I.
  Qed.
  Theorem mm_mean : forall l, l <> [] -> mean l <= mellowmax w l.
  Proof.
    intros l NE. pose proof (len_pos l NE) as N. apply mm_ge_of; [exact NE|]. set (m := mean l).
    assert (H : total_of (fun x => exp (w * m) * (1 + w * (x - m))) l <= total_of (fun x => exp (w * x)) l).
    { apply tot_le. intros x _. replace (w * x) with (w * m + w * (x - m)) by ring. rewrite exp_plus.
      apply Rmult_le_compat_l; [apply Rlt_le, exp_pos|apply exp_ineq1_le]. }
    eapply Rle_trans; [|exact H]. rewrite tot_scale, tot_add, tot_const, tot_scale, tot_sub, tot_const.
    replace (total_of (fun x => x) l) with (INR (length l) * m) by (unfold m, mean; field; lra). apply Req_le. ring.
  Qed.
  Lemma mm_mono : forall l l', l <> [] -> Forall2 Rle l l' -> mellowmax w l <= mellowmax w l'.
  Proof.
    intros l l' NE F. assert (NE' : l' <> []) by (destruct F; congruence). apply mm_le_of; [exact NE|].
    replace (INR (length l)) with (INR (length l')) by (f_equal; clear -F; induction F; [reflexivity|]; cbn; congruence).
    rewrite <- mm_eq by exact NE'. clear NE NE'. induction F as [|x y l l' H F IH]; [apply Rle_refl|]. rewrite !tot_cons. apply Rplus_le_compat; [apply exp_mono, H|exact IH].
  Qed.
  Lemma mm_shift : forall l d, l <> [] -> mellowmax w (map (fun x => x + d) l) = mellowmax w l + d.
  Proof.
    intros l d NE. assert (NE' : map (fun x => x + d) l <> []) by (destruct l; [congruence|discriminate]).
    assert (E : total_of (fun x => exp (w * x)) (map (fun x => x + d) l) = INR (length (map (fun x => x + d) l)) * exp (w * (mellowmax w l + d))).
    { rewrite tot_map, map_length. rewrite (tot_ext _ (fun x => exp (w * d) * exp (w * x))) by (intros; rewrite <- exp_plus; f_equal; ring).
      rewrite tot_scale, (mm_eq l NE). replace (w * (mellowmax w l + d)) with (w * d + w * mellowmax w l) by ring. rewrite exp_plus. ring. }
    apply Rle_antisym; [apply mm_le_of|apply mm_ge_of]; auto; rewrite E; apply Rle_refl.
  Qed.
  Theorem mm_nonexpansion : forall l l' d, l <> [] -> Forall2 (fun x y => Rabs (x - y) <= d) l l' -> Rabs (mellowmax w l - mellowmax w l') <= d.
  Proof.
    intros l l' d NE F. assert (NE' : l' <> []) by (destruct F; congruence).
    assert (A : mellowmax w l <= mellowmax w l' + d).
    { rewrite <- mm_shift by exact NE'. apply mm_mono; [exact NE|]. clear -F. induction F as [|x y l l' H F IH]; [constructor|]. cbn. constructor; [|exact IH].
      pose proof (Rle_abs (x - y)). lra. }
    assert (B : mellowmax w l' <= mellowmax w l + d).
    { rewrite <- mm_shift by exact NE. apply mm_mono; [exact NE'|]. clear -F. induction F as [|x y l l' H F IH]; [constructor|]. cbn. constructor; [|exact IH].
      pose proof (Rle_abs (- (x - y))). rewrite Rabs_Ropp in *. lra. }
    apply Rabs_le. lra.
  Qed.
End MM.

(** ** The maximum entropy policy *)
Lemma root_mono : forall adv y y', y <= y' -> root_function adv y <= root_function adv y'.
Proof.
  intros adv y y' H. unfold root_function. rewrite !fsum_map. apply tot_le. intros a _.
  destruct (Rle_dec 0 a) as [P|P].
  - apply Rmult_le_compat_r; [exact P|]. assert (L : y * a <= y' * a) by nra. destruct L as [L| ->]; [apply Rlt_le, exp_increasing, L|apply Rle_refl].
  - assert (L : y' * a <= y * a) by nra. assert (exp (y' * a) <= exp (y * a)) by (destruct L as [L| ->]; [apply Rlt_le, exp_increasing, L|apply Rle_refl]). nra.
Qed.
Notation advs values := (map (fun v => v - mellowmax 1 values) values).

Lemma root_at_0 : forall values, values <> [] -> root_function (advs values) 0 <= 0.
Proof.
  intros values NE. unfold root_function. rewrite fsum_map, tot_map. pose proof (len_pos values NE) as N.
  rewrite (tot_ext _ (fun v => v - mellowmax 1 values)) by (intros; rewrite Rmult_0_l, exp_0; ring).
  rewrite tot_sub, tot_const. pose proof (mm_mean 1 ltac:(lra) values NE) as M. unfold mean in M.
  apply (Rmult_le_compat_l (INR (length values))) in M; [|lra]. replace (INR (length values) * (total_of (fun x => x) values / INR (length values))) with (total_of (fun x => x) values) in M by (field; lra). lra.
Qed.
Lemma root_at_1 : forall values, values <> [] -> 0 <= root_function (advs values) 1.
Proof.
  intros values NE. unfold root_function. rewrite fsum_map, tot_map. pose proof (len_pos values NE) as N.
  assert (H : total_of (fun v => exp (1 * (v - mellowmax 1 values)) - 1) values <= total_of (fun v => exp (1 * (v - mellowmax 1 values)) * (v - mellowmax 1 values)) values).
  { apply tot_le. intros v _. set (a := v - mellowmax 1 values). rewrite Rmult_1_l. pose proof (exp_ineq1_le (- a)) as E. pose proof (exp_pos a) as P.
    assert (exp a * exp (- a) = 1) by (rewrite <- exp_plus, Rplus_opp_r; apply exp_0). nra. }
  eapply Rle_trans; [|exact H]. rewrite tot_sub, tot_const.
  rewrite (tot_ext _ (fun v => exp (- mellowmax 1 values) * exp (1 * v))) by (intros; rewrite <- exp_plus; f_equal; ring).
  rewrite tot_scale, (mm_eq 1 ltac:(lra) values NE). rewrite Rmult_1_l.
  replace (exp (- mellowmax 1 values) * (INR (length values) * exp (mellowmax 1 values))) with (INR (length values) * (exp (- mellowmax 1 values) * exp (mellowmax 1 values))) by ring.
  rewrite <- exp_plus, Rplus_opp_l, exp_0. lra.
Qed.
Theorem root_bracketed : forall values beta_min beta_max, values <> [] -> beta_min <= 0 -> 1 <= beta_max ->
  root_function (advs values) beta_min * root_function (advs values) beta_max <= 0.
Proof.
  intros values a b NE Ha Hb. pose proof (root_at_0 values NE). pose proof (root_at_1 values NE).
  pose proof (root_mono (advs values) a 0 Ha). pose proof (root_mono (advs values) 1 b Hb). nra.
Qed.

Lemma expectation_softmax : forall b values, expectation (softmax (map (Rmult b) values)) values =
  total_of (fun v => exp (b * v) * v) values / total_of (fun v => exp (b * v)) values.
Proof.
  intros b values. unfold expectation, softmax. rewrite map_map, combine_map_l, tot_map, combine_self, tot_map. cbn [fst snd].
  rewrite map_map, fsum_map. unfold Rdiv at 2. rewrite Rmult_comm, <- tot_scale. apply tot_ext. intros. unfold Rdiv. ring.
Qed.

Theorem max_ent_spec : forall brentq omega beta_min beta_max values, values <> [] -> beta_min <= 0 -> 1 <= beta_max ->
  finds_root brentq (root_function (advs values)) beta_min beta_max ->
  let p := maximum_entropy_mellowmax brentq omega beta_min beta_max values in
  length p = length values /\ probability p /\ expectation p values = mellowmax 1 values /\
  forall p', length p' = length values -> probability p' -> expectation p' values = mellowmax 1 values -> shannon p' <= shannon p.
Proof.
  intros brentq omega a b values NE Ha Hb F p. destruct (F (root_bracketed values a b NE Ha Hb)) as (y & E & _ & Z).
  unfold p, maximum_entropy_mellowmax, max_ent_beta. rewrite E. clear p. set (q := softmax (map (Rmult y) values)).
  assert (NEm : map (Rmult y) values <> []) by (destruct values; [congruence|discriminate]).
  assert (Lq : length q = length values) by (unfold q; rewrite softmax_len, map_length; reflexivity).
  pose proof (softmax_prob _ NEm) as Pq. fold q in Pq.
  assert (Zp : 0 < total_of (fun v => exp (y * v)) values) by (apply exp_total_pos, NE).
  assert (Ex : expectation q values = mellowmax 1 values).
  { unfold q. rewrite expectation_softmax. unfold root_function in Z. rewrite fsum_map, tot_map in Z.
    set (mm := mellowmax 1 values) in *.
    rewrite (tot_ext _ (fun v => exp (- (y * mm)) * (exp (y * v) * v - mm * exp (y * v)))) in Z.
    2:{ intros v _. replace (y * (v - mm)) with (- (y * mm) + y * v) by ring. rewrite exp_plus. ring. }
    rewrite tot_scale, tot_sub, tot_scale in Z. pose proof (exp_pos (- (y * mm))).
    assert (Z' : total_of (fun v => exp (y * v) * v) values = mm * total_of (fun v => exp (y * v)) values) by nra.
    rewrite Z'. field. lra. }
  split; [exact Lq|]. split; [exact Pq|]. split; [exact Ex|]. intros p' Lp Pp Ep.
  destruct (gibbs p' q ltac:(congruence) Pp Pq) as [G _]; [apply softmax_pos, NEm|].
  (* cross entropies agree: ln q = y v - ln Z *)
  assert (C : forall r, length r = length values -> total_of (fun x => x) r = 1 ->
    total_of (fun z => fst z * ln (snd z)) (combine r q) = y * expectation r values - ln (total_of (fun v => exp (y * v)) values)).
  { intros r Lr Sr. unfold q, softmax. rewrite map_map, combine_map_r, tot_map. cbn [fst snd]. rewrite map_map, fsum_map.
    set (Zt := total_of (fun v => exp (y * v)) values) in *.
    rewrite (tot_ext _ (fun z => y * (fst z * snd z) - ln Zt * fst z)).
    2:{ intros z _. rewrite ln_div, ln_exp by (auto; apply exp_pos). ring. }
    rewrite tot_sub, !tot_scale. fold (expectation r values).
    replace (total_of fst (combine r values)) with 1; [ring|]. rewrite <- Sr. clear -Lr. revert values Lr.
    induction r as [|x r IH]; intros [|v values] Lr; cbn in Lr; try lia; [reflexivity|]. cbn [combine]. rewrite !tot_cons, IH with values by lia. reflexivity. }
  assert (Sp : shannon p' = - total_of (fun z => fst z * ln (fst z)) (combine p' q)).
  { unfold shannon. f_equal. assert (L : length p' = length q) by congruence. clear -L. clearbody q. revert q L. induction p' as [|x r IH]; intros [|v q] L; cbn in L; try lia; [reflexivity|].
    cbn [combine]. rewrite !tot_cons, <- IH by lia. reflexivity. }
  assert (Sq : shannon q = - total_of (fun z => fst z * ln (snd z)) (combine q q)).
  { unfold shannon. rewrite combine_self, tot_map. reflexivity. }
  unfold relative_entropy in G. rewrite (tot_ext _ (fun z => fst z * ln (fst z) - fst z * ln (snd z))) in G by (intros; ring). rewrite tot_sub in G.
  rewrite (C p' Lp (proj2 Pp)) in G. rewrite Sp, Sq, (C q Lq (proj2 Pq)). rewrite Ep in G. rewrite Ex. lra.
Qed.

(** Two values: mellowmax depends on omega. *)
Lemma mm_01 : mellowmax 1 [0; 1] < mellowmax 8 [0; 1].
Proof.
  set (a := mellowmax 1 [0; 1]). set (b := mellowmax 8 [0; 1]).
  assert (Ea : 1 + exp 1 = 2 * exp a).
  { pose proof (mm_eq 1 ltac:(lra) [0; 1] ltac:(discriminate)) as E. unfold total_of in E. cbn [fold_right length] in E.
    replace (1 * 0) with 0 in E by ring. replace (1 * 1) with 1 in E by ring. rewrite exp_0 in E. replace (INR 2) with 2 in E by (cbn; ring).
    rewrite Rmult_1_l in E. fold a in E. lra. }
  assert (Eb : 1 + exp 8 = 2 * exp (8 * b)).
  { pose proof (mm_eq 8 ltac:(lra) [0; 1] ltac:(discriminate)) as E. unfold total_of in E. cbn [fold_right length] in E.
    replace (8 * 0) with 0 in E by ring. replace (8 * 1) with 8 in E by ring. rewrite exp_0 in E. replace (INR 2) with 2 in E by (cbn; ring). fold b in E. lra. }
  assert (P2 : forall t, exp (2 * t) = exp t * exp t) by (intros; rewrite <- exp_plus; f_equal; ring).
  assert (E1 : exp 8 = (exp 4) * exp 4) by (rewrite <- P2; f_equal; ring).
  assert (E2 : exp 4 = (exp 2) * exp 2) by (rewrite <- P2; f_equal; ring).
  assert (E3 : exp 2 = (exp 1) * exp 1) by (rewrite <- P2; f_equal; ring).
  assert (A1 : exp (8 * a) = exp (4 * a) * exp (4 * a)) by (rewrite <- P2; f_equal; ring).
  assert (A2 : exp (4 * a) = exp (2 * a) * exp (2 * a)) by (rewrite <- P2; f_equal; ring).
  assert (A3 : exp (2 * a) = exp a * exp a) by apply P2.
  assert (G1 : 1 < exp 1) by (pose proof (exp_ineq1_le 1); lra).
  assert (S1 : exp (2 * a) < (1 + exp 2) / 2) by nra.
  assert (Q1 : 0 < exp (2 * a)) by apply exp_pos. assert (Q2 : 0 < exp (4 * a)) by apply exp_pos.
  assert (S2 : exp (4 * a) < (1 + exp 4) / 2).
  { rewrite A2, E2. assert (exp (2 * a) * exp (2 * a) < (1 + exp 2) / 2 * ((1 + exp 2) / 2)) by nra. pose proof (Rle_0_sqr (exp 2 - 1)) as Z. unfold Rsqr in Z. lra. }
  assert (S3 : exp (8 * a) < (1 + exp 8) / 2).
  { rewrite A1, E1. assert (exp (4 * a) * exp (4 * a) < (1 + exp 4) / 2 * ((1 + exp 4) / 2)) by nra. pose proof (Rle_0_sqr (exp 4 - 1)) as Z. unfold Rsqr in Z. lra. }
  assert (L : exp (8 * a) < exp (8 * b)) by lra. apply exp_lt_inv in L. lra.
Qed.

Theorem omega_ignored : forall brentq, finds_root brentq (root_function (advs [0; 1])) (-10) 10 ->
  expectation (all_prob (MellowmaxDistribution brentq 8 [0; 1])) [0; 1] < mellowmax 8 [0; 1].
Proof.
  intros brentq F. destruct (max_ent_spec brentq 1 (-10) 10 [0; 1] ltac:(discriminate) ltac:(lra) ltac:(lra) F) as (_ & _ & E & _).
  unfold MellowmaxDistribution. cbn [all_prob]. rewrite E. exact mm_01.
Qed.

(** ** Closed forms from the first two moments *)
Lemma gauss_moments : forall E m v m' v', 0 < v -> 0 < v' -> averages E m v ->
  E (fun x => - gauss_log_prob (mk_gaussian [m] [v]) [x]) = gauss_entropy (mk_gaussian [m] [v]) /\
  E (fun x => gauss_log_prob (mk_gaussian [m] [v]) [x] - gauss_log_prob (mk_gaussian [m'] [v']) [x]) =
  gauss_kl (mk_gaussian [m] [v]) (mk_gaussian [m'] [v']).
Proof.
  intros E m v m' v' H H' (EQ & L & M1 & M2). pose proof PI_RGT_0.
  assert (Ln : ln (2 * PI) = ln 2 + ln PI) by (apply ln_mult; lra).
  unfold gauss_log_prob, gauss_entropy, gauss_kl, fsum, gaussian_ll. cbn [g_mean g_var zip3 fold_right map length kl_terms]. split.
  - rewrite (EQ _ (fun x => (1 / 2 * ln (2 * PI) + 1 / 2 * ln v) + 0 * (x - m) + / (2 * v) * (x - m) ^ 2)) by (intros; field; lra).
    rewrite L, M1, M2. cbn [INR]. field. lra.
  - rewrite (EQ _ (fun x => (1 / 2 * (ln v' - ln v) + (m - m') ^ 2 / (2 * v')) + ((m - m') / v') * (x - m) + (/ (2 * v') - / (2 * v)) * (x - m) ^ 2)) by (intros; field; lra).
    rewrite L, M1, M2. field. lra.
Qed.
