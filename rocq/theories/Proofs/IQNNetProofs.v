From Coq Require Import Reals List Arith Lia Lra.
From Verif Require Import Base.PyBase Model.Categorical Model.Distributions Model.Targets Model.ActionValue Model.IQNNet Spec.SumSpec Spec.ActionValueSpec Spec.IQNNetSpec Proofs.ActionValueProofs.
Import ListNotations.
Local Open Scope R_scope.

Lemma split_concat : forall X Y (f : X -> Y) n l, rows_of n l -> split_rows (length l) n (map f (concat l)) = map (map f) l.
Proof.
  intros X Y f n l W. induction W as [|r l L W IH]; [reflexivity|]. cbn [length split_rows concat map]. rewrite map_app. rewrite firstn_app, skipn_app, map_length, L, Nat.sub_diag.
  rewrite (firstn_all2 (map f r)) by (rewrite map_length; lia). rewrite (skipn_all2 (map f r)) by (rewrite map_length; lia). cbn. rewrite app_nil_r, IH. reflexivity.
Qed.
Lemma shape1_rows : forall X n (a : list (list X)), rows_of n a -> a <> [] -> shape1 a = n.
Proof. intros X n [|r a] W NE; [congruence|]. inversion W; subst. reflexivity. Qed.
Lemma cosine_embedding : forall n tau, cosine_basis n tau = embedding n tau.
Proof. intros n tau. unfold cosine_basis, embedding. rewrite <- seq_shift, map_map. apply map_ext. intros i. f_equal. ring. Qed.
Lemma zipr_times : forall a b, zipr Rmult a b = times a b.
Proof. induction a as [|x a IH]; intros [|y b]; cbn; rewrite ?IH; reflexivity. Qed.
Lemma rows_map : forall X Y (f : X -> Y) n l, rows_of n l -> rows_of n (map (map f) l).
Proof. intros X Y f n l W. apply Forall_map. eapply Forall_impl; [|exact W]. intros r L. cbn. rewrite map_length. exact L. Qed.
Lemma cosine_linear_rows : forall nb lin taus n, rows_of n taus -> cosine_linear nb lin taus = map (map (fun t => lin (embedding nb t))) taus.
Proof.
  intros nb lin taus n W. unfold cosine_linear. destruct taus as [|t0 taus0] eqn:E; [reflexivity|]. rewrite <- E in *. assert (NE : taus <> []) by (subst; discriminate).
  rewrite (shape1_rows _ n taus W NE). replace (length taus) with (length (map (map (cosine_basis nb)) taus)) by apply map_length.
  rewrite split_concat by (apply rows_map; exact W). rewrite map_map. apply map_ext. intros r. rewrite map_map. apply map_ext. intros t. rewrite cosine_embedding. reflexivity.
Qed.
Lemma concat_rows_length : forall X n (l : list (list X)), rows_of n l -> length (concat l) = (length l * n)%nat.
Proof. intros X n l W. induction W as [|r l L W IH]; [reflexivity|]. cbn. rewrite app_length, IH, L. reflexivity. Qed.
Theorem network_alone : forall nb lin f psi_x taus n hidden, length taus = length psi_x -> rows_of hidden psi_x -> rows_of n taus -> (forall h, length (lin h) = hidden) ->
  evaluate_taus (cosine_linear nb lin) f psi_x taus = Ok (map (fun z => map (alone nb lin f (fst z)) (snd z)) (combine psi_x taus)).
Proof.
  intros nb lin f psi_x taus n hidden LN WP WT HL. destruct taus as [|t0 taus0] eqn:ET.
  { destruct psi_x; [|discriminate]. reflexivity. }
  rewrite <- ET in *. assert (NT : taus <> []) by (subst; discriminate). assert (NP : psi_x <> []) by (intros ->; subst; discriminate). clear ET t0 taus0.
  unfold evaluate_taus. rewrite (shape1_rows _ n taus WT NT), (shape1_rows _ hidden psi_x WP NP), (cosine_linear_rows nb lin taus n WT). rewrite (proj2 (Nat.eqb_eq _ _) LN). cbn [bind].
  set (P := map (map (fun t => lin (embedding nb t))) taus). assert (LP : length P = length psi_x) by (unfold P; rewrite map_length; exact LN).
  assert (CK : ((length P =? length psi_x)%nat && forallb (fun m => (length m =? n)%nat && forallb (fun r => (length r =? hidden)%nat) m) P)%bool = true).
  { rewrite (proj2 (Nat.eqb_eq _ _) LP). cbn. apply forallb_forall. intros m I. unfold P in I. apply in_map_iff in I. destruct I as (ts & <- & I).
    unfold rows_of in WT. rewrite Forall_forall in WT. rewrite map_length, (WT ts I), Nat.eqb_refl. cbn. apply forallb_forall. intros r J. apply in_map_iff in J. destruct J as (t & <- & _).
    rewrite HL. apply Nat.eqb_refl. }
  rewrite CK. cbn [bind]. set (h := map (fun z => map (zipr Rmult (fst z)) (snd z)) (combine psi_x P)).
  assert (WH : rows_of n h).
  { apply Forall_forall. intros r I. unfold h in I. apply in_map_iff in I. destruct I as ([x m] & <- & I). cbn. rewrite map_length. apply in_combine_r in I. unfold P in I. apply in_map_iff in I.
    destruct I as (ts & <- & I). rewrite map_length. unfold rows_of in WT. rewrite Forall_forall in WT. apply WT, I. }
  assert (LH : length h = length psi_x) by (unfold h; rewrite map_length, combine_length, LP; apply Nat.min_id).
  rewrite (concat_rows_length _ n h WH), LH, Nat.eqb_refl. cbn [bind]. f_equal. rewrite <- LH, split_concat by exact WH. unfold h, P. clear. revert taus.
  induction psi_x as [|x psi_x IH]; intros [|ts taus]; [reflexivity|reflexivity|reflexivity|]. cbn [combine map fst snd]. rewrite IH. f_equal. rewrite !map_map. apply map_ext. intros t. unfold alone.
  rewrite zipr_times. reflexivity.
Qed.

Lemma fsum_total : forall l, fsum l = total l.
Proof. induction l as [|x l IH]; [reflexivity|]. cbn. fold (fsum l). rewrite IH. reflexivity. Qed.
Lemma fsum_zipr : forall a b, length a = length b -> fsum (zipr Rplus a b) = fsum a + fsum b.
Proof. induction a as [|x a IH]; intros [|y b] L; try discriminate; cbn; [lra|]. fold (fsum a) (fsum b) (fsum (zipr Rplus a b)). rewrite IH by (injection L as L; exact L). lra. Qed.
Lemma fsum_row_sum : forall n rows, rows_of n rows -> fsum (row_sum n rows) = fsum (map fsum rows) /\ length (row_sum n rows) = n.
Proof.
  intros n rows W. induction W as [|r rows L W (IH & IL)]; cbn [row_sum fold_right map].
  - split; [|apply repeat_length]. cbn. clear. induction n as [|n IH]; cbn; [reflexivity|]. fold (fsum (repeat 0 n)). rewrite IH. lra.
  - fold (row_sum n rows). rewrite fsum_zipr by congruence. rewrite IH. split; [reflexivity|]. rewrite zipr_len; congruence.
Qed.
Lemma fsum_div : forall l c, fsum (map (fun s => s / c) l) = fsum l / c.
Proof. intros l c. induction l as [|x l IH]; cbn; [unfold Rdiv; ring|]. fold (fsum l) (fsum (map (fun s => s / c) l)). rewrite IH. unfold Rdiv. ring. Qed.
Lemma map_rows_div : forall k (m : list (list R)), rows_of k m -> fsum (map amean m) = fsum (map fsum m) / INR k.
Proof. intros k m W. rewrite <- fsum_div, map_map. f_equal. apply map_ext_in. intros r I. unfold rows_of in W. rewrite Forall_forall in W. unfold amean. rewrite (W r I). reflexivity. Qed.

Theorem loss_samples : forall y t taus N N', y <> [] -> (0 < N)%nat -> (0 < N')%nat -> length taus = length y -> length t = length y -> rows_of N y -> rows_of N taus -> rows_of N' t ->
  exists e, eltwise_loss y t taus = Ok e /\
    iqn_value_loss e Sum = total (samples y taus t) /\ iqn_value_loss e Mean = average (samples y taus t) /\
    (forall w, iqn_weighted_value_loss e w Sum = total (times (samples y taus t) w) /\ iqn_weighted_value_loss e w Mean = total (times (samples y taus t) w) / INR (length y)) /\
    iqn_errors e = map (fun s => s / INR N) (samples y taus t).
Proof.
  intros y t taus N N' NE HN HN' L1 L2 WY WU WT. unfold eltwise_loss.
  assert (CK : ((length y =? length taus)%nat && forallb (fun z => (length (fst z) =? length (snd z))%nat) (combine y taus))%bool = true).
  { rewrite (proj2 (Nat.eqb_eq _ _) (eq_sym L1)). cbn. apply forallb_forall. intros [a b] I. cbn. unfold rows_of in *. rewrite Forall_forall in *.
    rewrite (WY a (in_combine_l _ _ _ _ I)), (WU b (in_combine_r _ _ _ _ I)). apply Nat.eqb_refl. }
  rewrite CK. cbn [bind]. eexists. split; [reflexivity|].
  set (e := map _ (combine (combine y taus) t)).
  assert (LE : length e = length y) by (unfold e; rewrite map_length, !combine_length, L1, L2, !Nat.min_id; reflexivity).
  assert (WE : rows_of N e /\ Forall (rows_of N') e).
  { split; apply Forall_forall; intros m I; unfold e in I; apply in_map_iff in I; destruct I as ([[a b] c] & <- & I); pose proof (in_combine_l _ _ _ _ I) as J; pose proof (in_combine_r _ _ _ _ I) as J3;
    pose proof (in_combine_l _ _ _ _ J) as J1; pose proof (in_combine_r _ _ _ _ J) as J2; unfold rows_of in *; rewrite Forall_forall in *.
    - rewrite map_length, combine_length, (WY a J1), (WU b J2). apply Nat.min_id.
    - intros r K. apply in_map_iff in K. destruct K as (w & <- & _). rewrite map_length. apply WT, J3. }
  assert (SM : map fsum (map (map amean) e) = samples y taus t).
  { unfold e, samples. rewrite !map_map. apply map_ext. intros [[a b] c]. unfold sample_loss. cbn [fst snd]. rewrite fsum_total, map_map. reflexivity. }
  assert (SD : map (fun s => s / INR N') (map fsum (map (map fsum) e)) = samples y taus t).
  { rewrite <- SM, !map_map. apply map_ext_in. intros m I. destruct WE as [_ WE]. rewrite Forall_forall in WE. symmetry. apply map_rows_div, WE, I. }
  destruct WE as [W1 W2]. assert (NEe : e <> []) by (intros Z; rewrite Z in LE; destruct y; [congruence|discriminate]).
  assert (HB : INR (length y) <> 0) by (apply not_0_INR; destruct y; [congruence|discriminate]). assert (HN'0 : INR N' <> 0) by (apply not_0_INR; lia). assert (HN0 : INR N <> 0) by (apply not_0_INR; lia).
  split; [|split; [|split]].
  - cbn. rewrite SM. apply fsum_total.
  - unfold iqn_value_loss, mean_0_2. rewrite (shape1_rows _ N e W1 NEe), fsum_div. destruct (fsum_row_sum N (map (map fsum) e)) as [FS _]; [apply rows_map; exact W1|]. rewrite FS.
    assert (K : match e with [] => 0%nat | m :: _ => shape1 m end = N').
    { destruct e as [|m e']; [congruence|]. inversion W1; subst. inversion W2; subst. apply shape1_rows; [assumption|]. intros ->. cbn in *. lia. }
    rewrite K, LE, mult_INR. unfold average. change (total (samples y taus t)) with (fsum (samples y taus t)). rewrite <- SD, fsum_div. replace (length (map (fun s => s / INR N') (map fsum (map (map fsum) e)))) with (length y) by (rewrite !map_length; congruence).
    field. split; assumption.
  - intros w. unfold iqn_weighted_value_loss. rewrite SM, zipr_times, fsum_total, LE. split; reflexivity.
  - unfold iqn_errors. rewrite <- SD, !map_map. apply map_ext_in. intros m I. unfold rows_of in W1. rewrite Forall_forall in W1, W2. rewrite (W1 m I).
    assert (S1 : shape1 m = N') by (apply shape1_rows; [apply W2, I|]; intros ->; specialize (W1 [] I); cbn in W1; lia). rewrite S1, mult_INR. field. split; assumption.
Qed.

(** Thresholds are told apart. *)
Lemma embedding_spec : forall n tau, length (embedding n tau) = n /\ Forall (fun c => -1 <= c <= 1) (embedding n tau).
Proof. intros n tau. unfold embedding. rewrite map_length, seq_length. split; [reflexivity|]. apply Forall_map, Forall_forall. intros i _. apply COS_bound. Qed.
Lemma embedding_inj : forall n a b, (0 < n)%nat -> 0 <= a <= 1 -> 0 <= b <= 1 -> cosine_basis n a = cosine_basis n b -> a = b.
Proof.
  intros [|n] a b HN HA HB E; [lia|]. unfold cosine_basis in E. cbn [seq map] in E. injection E as E _. change (INR 1) with 1 in E. rewrite Rmult_1_l in E. pose proof PI_RGT_0 as PP.
  assert (RA : 0 <= a * PI <= PI) by nra. assert (RB : 0 <= b * PI <= PI) by nra.
  assert (X : a * PI = b * PI).
  { destruct (Rtotal_order (a * PI) (b * PI)) as [L|[L|L]]; [|exact L|].
    - pose proof (cos_decreasing_1 (a * PI) (b * PI)). lra.
    - pose proof (cos_decreasing_1 (b * PI) (a * PI)). lra. }
  apply Rmult_eq_reg_r in X; lra.
Qed.

(** Deterministic evaluation. *)
Lemma total_rev : forall l, total (rev l) = total l.
Proof.
  assert (A : forall a b, total (a ++ b) = total a + total b) by (induction a as [|x a IH]; intros b; cbn; [lra|rewrite IH; lra]).
  induction l as [|x l IH]; [reflexivity|]. cbn. rewrite A, IH. cbn. lra.
Qed.
Lemma rev_seq : forall K, rev (seq 0 K) = map (fun i => (K - 1 - i)%nat) (seq 0 K).
Proof.
  intros K. apply nth_ext with (d := 0%nat) (d' := (K - 1 - 0)%nat); [rewrite rev_length, map_length; reflexivity|]. intros i Hi. rewrite rev_length, seq_length in Hi.
  rewrite (map_nth (fun i => (K - 1 - i)%nat)), rev_nth by (rewrite seq_length; exact Hi). rewrite !seq_nth, seq_length by (rewrite ?seq_length; lia). lia.
Qed.
Lemma linspace_rev : forall K, (2 <= K)%nat -> rev (linspace01 K) = map (fun x => 1 - x) (linspace01 K).
Proof.
  intros K HK. assert (E : linspace01 K = map (fun i => INR i / INR (K - 1)) (seq 0 K)) by (destruct K as [|[|K]]; [lia|lia|reflexivity]). rewrite E, <- map_rev, rev_seq, !map_map.
  assert (H0 : INR (K - 1) <> 0) by (apply not_0_INR; lia). apply map_ext_in. intros i I. apply in_seq in I. rewrite (minus_INR (K - 1) i) by lia. field. exact H0.
Qed.
Lemma linspace_range : forall K, Forall (fun x => 0 <= x <= 1) (linspace01 K) /\ length (linspace01 K) = K.
Proof.
  intros [|[|K]]; [split; [constructor|reflexivity]|split; [repeat constructor; lra|reflexivity]|]. cbn [linspace01]. rewrite map_length, seq_length. split; [|reflexivity].
  apply Forall_map, Forall_forall. intros i I. apply in_seq in I. assert (0 < INR (S (S K) - 1)) by (apply lt_0_INR; lia). assert (INR i <= INR (S (S K) - 1)) by (apply le_INR; lia). pose proof (pos_INR i).
  split; [apply Rmult_le_pos; [assumption|left; apply Rinv_0_lt_compat; assumption]|]. apply Rmult_le_reg_r with (INR (S (S K) - 1)); [assumption|]. unfold Rdiv. rewrite Rmult_assoc, Rinv_l by lra. lra.
Qed.
Lemma symmetric_mean : forall (q : R -> R) m K, (2 <= K)%nat -> (forall x, 0 <= x <= 1 -> q x + q (1 - x) = 2 * m) -> total (map q (linspace01 K)) = INR K * m.
Proof.
  intros q m K HK S. destruct (linspace_range K) as [RG LN].
  assert (A : total (map q (linspace01 K)) + total (map q (map (fun x => 1 - x) (linspace01 K))) = 2 * (INR K * m)).
  { rewrite <- LN at 3. clear LN HK. induction RG as [|x l Hx RG IH]; cbn [map total length]; [cbn; lra|]. rewrite S_INR. specialize (S x Hx) as Sx. lra. }
  rewrite <- (linspace_rev K HK), map_rev, total_rev in A. lra.
Qed.
Lemma total_of_map : forall X (f : X -> R) l, total_of f l = total (map f l).
Proof. intros X f l. unfold total_of. induction l as [|x l IH]; cbn; [reflexivity|rewrite IH; reflexivity]. Qed.
Theorem symmetric_values : forall K A qs ms, (2 <= K)%nat -> Forall2 symmetric qs ms -> rows_of A ms -> quant_qvalues A (map (fun q => map q (linspace01 K)) qs) = ms.
Proof.
  intros K A qs ms HK F2. induction F2 as [|q m qs ms S F2 IH]; intros W; [reflexivity|]. inversion W as [|? ? LM W2]; subst. unfold quant_qvalues in *. cbn [map]. f_equal; [|apply IH, W2]. clear IH F2 W W2.
  destruct (linspace_range K) as [RG LN]. rewrite map_length, LN.
  assert (WD : wide (length m) (map q (linspace01 K))).
  { intros r I. apply in_map_iff in I. destruct I as (x & <- & I). rewrite Forall_forall in RG. apply S, RG, I. }
  apply nth_ext with (d := 0 / INR K) (d' := 0); [rewrite map_length; apply row_sum_len; exact WD|]. intros a Ha. rewrite map_length, (row_sum_len _ _ WD) in Ha.
  rewrite (map_nth (fun s => s / INR K)). destruct (row_sum_nth (length m) (map q (linspace01 K)) a WD Ha) as [_ NT]. rewrite (nth_error_nth _ _ 0 NT), total_of_map, map_map.
  rewrite (symmetric_mean (fun x => nth a (q x) 0) (nth a m 0) K HK); [field; apply not_0_INR; lia|]. intros x Hx. apply S, Hx.
Qed.
Lemma combine_repeat : forall X Y Z (g : X -> Y -> Z) (l : list X) (y : Y), map (fun z => g (fst z) (snd z)) (combine l (repeat y (length l))) = map (fun x => g x y) l.
Proof. intros X Y Z g l y. induction l as [|x l IH]; [reflexivity|]. cbn. rewrite IH. reflexivity. Qed.
Theorem deterministic_values : forall nb lin f psi_x hidden K A ms, (2 <= K)%nat -> rows_of hidden psi_x -> (forall h, length (lin h) = hidden) ->
  Forall2 (fun x m => symmetric (alone nb lin f x) m) psi_x ms -> rows_of A ms ->
  exists out, evaluate_taus (cosine_linear nb lin) f psi_x (deterministic_taus K (length psi_x)) = Ok out /\ quant_qvalues A out = ms.
Proof.
  intros nb lin f psi_x hidden K A ms HK WP HL F2 W. destruct (linspace_range K) as [_ LN].
  rewrite (network_alone nb lin f psi_x (deterministic_taus K (length psi_x)) K hidden); [|apply repeat_length|exact WP|apply Forall_forall; intros r I; apply repeat_spec in I; subst; exact LN|exact HL].
  eexists. split; [reflexivity|]. unfold deterministic_taus. rewrite (combine_repeat _ _ _ (fun x ts => map (alone nb lin f x) ts)).
  rewrite <- (symmetric_values K A (map (alone nb lin f) psi_x) ms HK); [rewrite map_map; reflexivity| |exact W]. clear - F2. induction F2; cbn; constructor; assumption.
Qed.
Theorem one_threshold : exists q m, symmetric q m /\ quant_qvalues 1 [map q (linspace01 1)] <> [m].
Proof.
  exists (fun x => [x]), [/ 2]. split.
  - intros x Hx. split; [reflexivity|]. intros [|[|a]]; cbn; lra.
  - cbn. intros E. injection E as E. lra.
Qed.
