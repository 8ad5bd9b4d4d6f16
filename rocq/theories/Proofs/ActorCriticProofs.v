From Coq Require Import Reals List Arith ZArith Bool Lia Lra.
From Verif Require Import Base.PyBase Model.Distributions Model.ReplayUpdater Model.ActorCritic Spec.SumSpec Spec.DistributionSpec Spec.ActorCriticSpec Proofs.RSumFacts Proofs.DistributionProofs.
Import ListNotations.
Local Open Scope nat_scope.
Local Open Scope R_scope.

Lemma sum_rows_spec : forall X (f : nat -> X -> R) l k, sum_rows f k l = total_of (fun z => f (fst z) (snd z)) (combine (seq k (length l)) l).
Proof. induction l as [|x l IH]; intros k; [reflexivity|]. cbn [sum_rows length seq combine]. rewrite IH, tot_cons. reflexivity. Qed.
Lemma mean_rows_spec : forall X (f : nat -> X -> R) l, mean_rows f l = mean (map (fun z => f (fst z) (snd z)) (numbered l)).
Proof.
  intros. unfold mean_rows, mean, numbered. rewrite sum_rows_spec, tot_map, map_length, combine_length, seq_length, Nat.min_id. reflexivity.
Qed.
Lemma sum_rows_ext : forall X (f g : nat -> X -> R) l k, (forall i x, f i x = g i x) -> sum_rows f k l = sum_rows g k l.
Proof. induction l as [|x l IH]; intros k H; cbn; [reflexivity|]. rewrite H, (IH (S k)) by exact H. reflexivity. Qed.

(** A list of targets for a function of numbered rows. *)
Lemma sq_rows : forall X (t : nat -> X -> R) (v : X -> R) l k,
  sum_rows (fun i x => (t i x - v x) ^ 2) k l = total_of (fun x => x) (map (fun z => (fst z - snd z) ^ 2) (combine (map (fun z => t (fst z) (snd z)) (combine (seq k (length l)) l)) (map v l))).
Proof. induction l as [|x l IH]; intros k; [reflexivity|]. cbn [sum_rows length seq combine map]. rewrite IH, tot_cons. reflexivity. Qed.
Lemma mse_rows : forall X (t : nat -> X -> R) (v : X -> R) l,
  mean_rows (fun i x => (t i x - v x) ^ 2) l = mean_squared_error (map (fun z => t (fst z) (snd z)) (numbered l)) (map v l).
Proof.
  intros. unfold mean_rows, mean_squared_error, mean, numbered. rewrite sq_rows. f_equal. f_equal.
  rewrite map_length, combine_length, !map_length, combine_length, seq_length, !Nat.min_id. reflexivity.
Qed.
Lemma numbered_nth : forall X (l : list X) k x, nth_error l k = Some x -> nth_error (numbered l) k = Some (k, x).
Proof.
  intros X l. unfold numbered. assert (G : forall l j k (x : X), nth_error l k = Some x -> nth_error (combine (seq j (length l)) l) k = Some ((j + k)%nat, x)).
  { clear l. induction l as [|y l IH]; intros j k x H; [destruct k; discriminate|]. destruct k as [|k]; cbn in *.
    - injection H as ->. rewrite Nat.add_0_r. reflexivity.
    - rewrite (IH (S j) k x H). f_equal. f_equal. lia. }
  intros k x H. apply (G l 0%nat k x H).
Qed.

Lemma mse_ok : forall ys vs, ys <> [] -> length ys = length vs -> 0 <= mean_squared_error ys vs /\ (mean_squared_error ys vs = 0 <-> ys = vs).
Proof.
  intros ys vs NE L. unfold mean_squared_error, mean. rewrite tot_map, map_length.
  assert (P : 0 < INR (length (combine ys vs))) by (apply lt_0_INR; rewrite combine_length, <- L, Nat.min_id; destruct ys; [congruence|cbn; lia]).
  assert (Hn : 0 <= total_of (fun z : R * R => (fst z - snd z) ^ 2) (combine ys vs)) by (apply tot_nonneg; intros; apply pow2_ge_0).
  assert (E : total_of (fun z : R * R => (fst z - snd z) ^ 2) (combine ys vs) = 0 <-> ys = vs).
  { split.
    - intros H. pose proof (tot_zero _ _ (fun z (_ : In z (combine ys vs)) => pow2_ge_0 (fst z - snd z)) H) as Z. clear - L Z. revert vs L Z.
      induction ys as [|y ys IH]; intros [|v vs] L Z; cbn in L; try lia; [reflexivity|]. cbn [combine In] in Z. f_equal.
      + specialize (Z (y, v) (or_introl eq_refl)). cbn in Z. nra.
      + apply IH; [lia|]. intros. apply Z. right. assumption.
    - intros <-. clear. induction ys as [|y ys IH]; cbn [combine]; [reflexivity|]. rewrite tot_cons, IH. cbn. ring. }
  split.
  - apply Rmult_le_pos; [assumption|]. left. apply Rinv_0_lt_compat. assumption.
  - rewrite <- E. split; intros H; [|rewrite H; unfold Rdiv; ring]. apply Rmult_integral in H. destruct H as [H|H]; [assumption|]. pose proof (Rinv_0_lt_compat _ P). lra.
Qed.

Lemma ma_S : forall tau x n v, moving_average tau x (S n) v = (1 - tau) * moving_average tau x n v + tau * v n.
Proof.
  intros. unfold moving_average. cbn [sum_below pow]. replace (S n - 1 - n)%nat with 0%nat by lia. cbn [pow].
  rewrite Rmult_plus_distr_l, <- below_scale. rewrite (below_ext n (fun k => tau * (1 - tau) ^ (S n - 1 - k) * v k) (fun i => (1 - tau) * (tau * (1 - tau) ^ (n - 1 - i) * v i))).
  - ring.
  - intros i Hi. replace (S n - 1 - i)%nat with (S (n - 1 - i)) by lia. cbn [pow]. ring.
Qed.
Lemma ma_ext : forall tau x n v w, (forall k, (k < n)%nat -> v k = w k) -> moving_average tau x n v = moving_average tau x n w.
Proof. intros. unfold moving_average. f_equal. apply below_ext. intros i Hi. rewrite H by assumption. reflexivity. Qed.
Lemma ma_range : forall tau x n v lo hi, 0 <= tau <= 1 -> lo <= x <= hi -> (forall k, (k < n)%nat -> lo <= v k <= hi) -> lo <= moving_average tau x n v <= hi.
Proof.
  induction n as [|n IH]; intros v lo hi T X V; [unfold moving_average; cbn; lra|]. rewrite ma_S. specialize (IH v lo hi T X ltac:(intros; apply V; lia)). specialize (V n ltac:(lia)).
  assert (0 <= tau * (v n - lo)) by (apply Rmult_le_pos; lra). assert (0 <= tau * (hi - v n)) by (apply Rmult_le_pos; lra).
  assert (0 <= (1 - tau) * (moving_average tau x n v - lo)) by (apply Rmult_le_pos; lra). assert (0 <= (1 - tau) * (hi - moving_average tau x n v)) by (apply Rmult_le_pos; lra). lra.
Qed.
Lemma temperature_start : forall c q1 q2 pol, 0 < sc_initial c -> temperature c (sac_init c q1 q2 pol) = sc_initial c.
Proof. intros. unfold temperature. destruct (sc_entropy_target c); [|reflexivity]. cbn. apply exp_ln. assumption. Qed.

Section P.
Context {St Ac No : Type}.
Notation row := (row St Ac).
Variable q : params -> St -> Ac -> R.
Variable policy : params -> St -> No -> Ac * R.
Notation upd_sac := (sac_update q policy).
Notation rows := (@b_rows St Ac No).

Lemma boot : forall (x : row) v, r_reward x + r_discount x * (1 - terminal_value (r_terminal x)) * v = bootstrapped x v.
Proof. intros. unfold bootstrapped, terminal_value. destruct (r_terminal x); ring. Qed.

Lemma sac_update_ok : forall c s b, exists ys l1 l2 lp, let s' := upd_sac c s b in
  length ys = length (rows b) /\
  (forall k x, nth_error (rows b) k = Some x -> let '(a, logp) := policy (s_pol s) (r_next x) (b_next_noise b k) in
     nth_error ys k = Some (bootstrapped x (pessimistic q (s_t1 s) (s_t2 s) (r_next x) a - temperature c s * logp))) /\
  (s_q1 s' = sc_opt1 c (s_h1 s) (s_q1 s) l1 /\ s_h1 s' = l1 :: s_h1 s /\ forall p, l1 p = mean_squared_error ys (predictions q p (rows b)) / 2) /\
  (s_q2 s' = sc_opt2 c (s_h2 s) (s_q2 s) l2 /\ s_h2 s' = l2 :: s_h2 s /\ forall p, l2 p = mean_squared_error ys (predictions q p (rows b)) / 2) /\
  (s_pol s' = sc_optp c (s_hp s) (s_pol s) lp /\ s_hp s' = lp :: s_hp s /\
   forall p, lp p = mean (map (fun z => let '(a, logp) := policy p (r_state (snd z)) (b_noise b (fst z)) in temperature c s * logp - pessimistic q (s_q1 s') (s_q2 s') (r_state (snd z)) a) (numbered (rows b)))) /\
  (forall i, s_t1 s' i = (1 - sc_tau c) * s_t1 s i + sc_tau c * s_q1 s' i) /\ (forall i, s_t2 s' i = (1 - sc_tau c) * s_t2 s i + sc_tau c * s_q2 s' i).
Proof.
  intros c s b.
  exists (map (fun z => sac_target q policy c s (b_next_noise b) (fst z) (snd z)) (numbered (rows b))).
  exists (sac_q_loss q (sac_target q policy c s (b_next_noise b)) (rows b)), (sac_q_loss q (sac_target q policy c s (b_next_noise b)) (rows b)).
  exists (sac_policy_loss q policy c (b_noise b) (rows b) (sac_update_q q policy c (b_next_noise b) (rows b) s)).
  cbv zeta. split; [unfold numbered; rewrite map_length, combine_length, seq_length; apply Nat.min_id|]. split.
  { intros k x H. destruct (policy (s_pol s) (r_next x) (b_next_noise b k)) as [a lp] eqn:EP.
    erewrite map_nth_error by (apply numbered_nth; exact H). cbn [fst snd]. unfold sac_target. rewrite EP, boot. reflexivity. }
  assert (L : forall p, sac_q_loss q (sac_target q policy c s (b_next_noise b)) (rows b) p = mean_squared_error (map (fun z => sac_target q policy c s (b_next_noise b) (fst z) (snd z)) (numbered (rows b))) (predictions q p (rows b)) / 2).
  { intros p. unfold sac_q_loss. rewrite mse_rows. unfold predictions, Rdiv. ring. }
  unfold sac_update, sac_sync, sac_update_p. destruct (sc_entropy_target c) as [h|] eqn:EH;
    (cbn [s_q1 s_q2 s_t1 s_t2 s_pol s_h1 s_h2 s_hp sac_update_q]; split; [split; [reflexivity|split; [reflexivity|exact L]]|]; split; [split; [reflexivity|split; [reflexivity|exact L]]|];
     split; [split; [reflexivity|split; [reflexivity|]]|split; intros; unfold soft_copy; ring]; intros p; unfold sac_policy_loss; rewrite mean_rows_spec; unfold temperature; rewrite EH; cbn [s_q1 s_q2 s_log_temp sac_update_q]; reflexivity).
Qed.

(** Temperature. *)
Lemma temp_linear : forall h (lps : nat -> row -> R) l th, l <> [] -> temperature_loss h lps l th = - ((mean (map (fun z => lps (fst z) (snd z)) (numbered l)) + h) * exp th).
Proof.
  intros h lps l th NE. unfold temperature_loss. rewrite mean_rows_spec. f_equal. unfold mean. rewrite !map_length, !tot_map.
  rewrite tot_scale, tot_add, tot_const.
  assert (P : INR (length (numbered l)) <> 0). { unfold numbered. rewrite combine_length, seq_length, Nat.min_id. apply not_0_INR. destruct l; [congruence|discriminate]. }
  field. assumption.
Qed.
Lemma temp_deriv : forall h (lps : nat -> row -> R) l th, l <> [] ->
  derivable_pt_lim (temperature_loss h lps l) th (- ((mean (map (fun z => lps (fst z) (snd z)) (numbered l)) + h) * exp th)).
Proof.
  intros h lps l th NE. set (m := mean (map (fun z => lps (fst z) (snd z)) (numbered l)) + h).
  assert (D : derivable_pt_lim (fun t => - m * exp t) th (- m * exp th)).
  { apply (derivable_pt_lim_scal exp (- m) th (exp th)). apply derivable_pt_lim_exp. }
  replace (- (m * exp th)) with (- m * exp th) by ring.
  intros eps He. destruct (D eps He) as (d & Hd). exists d. intros k K1 K2. rewrite !temp_linear by assumption. fold m.
  replace (- (m * exp (th + k)) - - (m * exp th)) with (- m * exp (th + k) - - m * exp th) by ring. apply Hd; assumption.
Qed.
Lemma temperature_ok : forall c s b h, sc_entropy_target c = Some h -> rows b <> [] ->
  exists l g, let s' := upd_sac c s b in
    s_log_temp s' = sc_optt c (s_ht s) (s_log_temp s) l /\ s_ht s' = l :: s_ht s /\ derivable_pt_lim l (s_log_temp s) g /\
    (g < 0 <-> - mean (drawn_log_probs policy (s_pol s) (b_noise b) (rows b)) < h) /\ (0 < g <-> h < - mean (drawn_log_probs policy (s_pol s) (b_noise b) (rows b))) /\
    ((s_log_temp s' - s_log_temp s) * g < 0 -> (temperature c s < temperature c s' <-> - mean (drawn_log_probs policy (s_pol s) (b_noise b) (rows b)) < h)) /\
    (s_log_temp s' = s_log_temp s -> temperature c s' = temperature c s) /\
    0 < temperature c s'.
Proof.
  intros c s b h EH NE. eexists (temperature_loss h (fun k x => snd (policy (s_pol s) (r_state x) (b_noise b k))) (rows b)), _. cbv zeta.
  assert (ST : s_log_temp (upd_sac c s b) = sc_optt c (s_ht s) (s_log_temp s) (temperature_loss h (fun k x => snd (policy (s_pol s) (r_state x) (b_noise b k))) (rows b)) /\
     s_ht (upd_sac c s b) = temperature_loss h (fun k x => snd (policy (s_pol s) (r_state x) (b_noise b k))) (rows b) :: s_ht s).
  { unfold sac_update, sac_sync, sac_update_p. rewrite EH. split; reflexivity. }
  destruct ST as [ST1 ST2]. split; [exact ST1|]. split; [exact ST2|]. split; [apply temp_deriv; assumption|].
  change (map _ (numbered (rows b))) with (drawn_log_probs policy (s_pol s) (b_noise b) (rows b)). set (m := mean (drawn_log_probs policy (s_pol s) (b_noise b) (rows b))). pose proof (exp_pos (s_log_temp s)) as EP.
  assert (A1 : - ((m + h) * exp (s_log_temp s)) < 0 <-> - m < h) by (split; intros; nra).
  assert (A2 : 0 < - ((m + h) * exp (s_log_temp s)) <-> h < - m) by (split; intros; nra).
  split; [exact A1|]. split; [exact A2|]. unfold temperature. rewrite EH.
  split; [|split; [intros ->; reflexivity|apply exp_pos]].
  intros D. rewrite <- A1. set (g := - ((m + h) * exp (s_log_temp s))) in *. change (mean (map _ _)) with m in D. fold g in D. clearbody g. split; intros H.
  - apply exp_lt_inv in H. destruct (Rlt_le_dec g 0); [assumption|]. assert (0 <= (s_log_temp (upd_sac c s b) - s_log_temp s) * g) by (apply Rmult_le_pos; lra). lra.
  - apply exp_increasing. destruct (Rlt_le_dec (s_log_temp s) (s_log_temp (upd_sac c s b))); [assumption|]. assert (0 <= (s_log_temp s - s_log_temp (upd_sac c s b)) * - g) by (apply Rmult_le_pos; lra). lra.
Qed.
Lemma temperature_fixed : forall c s bs, sc_entropy_target c = None -> temperature c (sac_updates q policy c s bs) = sc_initial c.
Proof. intros. unfold temperature. rewrite H. reflexivity. Qed.

(** Target networks. *)
Lemma updates_snoc : forall c s bs b, sac_updates q policy c s (bs ++ [b]) = upd_sac c (sac_updates q policy c s bs) b.
Proof. intros. unfold sac_updates. rewrite fold_left_app. reflexivity. Qed.
Lemma targets_average : forall c s bs i,
  s_t1 (sac_updates q policy c s bs) i = moving_average (sc_tau c) (s_t1 s i) (length bs) (fun k => s_q1 (sac_updates q policy c s (firstn (S k) bs)) i) /\
  s_t2 (sac_updates q policy c s bs) i = moving_average (sc_tau c) (s_t2 s i) (length bs) (fun k => s_q2 (sac_updates q policy c s (firstn (S k) bs)) i).
Proof.
  intros c s bs i. induction bs as [|b bs IH] using rev_ind.
  - cbn. unfold moving_average. cbn. split; ring.
  - rewrite updates_snoc, app_length, Nat.add_1_r. destruct (sac_update_ok c (sac_updates q policy c s bs) b) as (ys & l1 & l2 & lp & _ & _ & _ & _ & _ & T1 & T2).
    rewrite T1, T2, !ma_S. destruct IH as [IH1 IH2]. rewrite IH1, IH2.
    assert (F : firstn (S (length bs)) (bs ++ [b]) = bs ++ [b]) by (apply firstn_all2; rewrite app_length; cbn; lia).
    rewrite F, updates_snoc. split; (f_equal; f_equal; apply ma_ext; intros k Hk; rewrite firstn_app; replace (S k - length bs)%nat with 0%nat by lia; cbn [firstn]; rewrite app_nil_r; reflexivity).
Qed.

(** Burn-in. *)
Lemma sac_count : forall c bs s, length (s_hp (sac_updates q policy c s bs)) = (length bs + length (s_hp s))%nat.
Proof.
  induction bs as [|b bs IH]; intros s; [reflexivity|]. unfold sac_updates. cbn [fold_left]. change (fold_left (upd_sac c) bs (upd_sac c s b)) with (sac_updates q policy c (upd_sac c s b) bs).
  rewrite IH. unfold sac_update, sac_sync, sac_update_p. destruct (sc_entropy_target c); cbn; lia.
Qed.
Lemma sac_burnin : forall c q1 q2 pol bs, training_chooser true (length (s_hp (sac_updates q policy c (sac_init c q1 q2 pol) bs))) = BurnIn <-> bs = [].
Proof.
  intros. rewrite sac_count. cbn. unfold training_chooser. destruct bs as [|b bs]; cbn; split; intros H; try reflexivity; discriminate.
Qed.

(** TD3. *)
Notation upd_td3 := (td3_update_full q policy).
Lemma td3_ok : forall c s b, (tc_delay c <> 0)%nat -> exists ys l1 l2, let s' := upd_td3 c s b in
  length ys = length (rows b) /\
  (forall k x, nth_error (rows b) k = Some x -> let a := tc_smooth c (b_next_noise b) k (fst (policy (d_tp s) (r_next x) (b_next_noise b k))) in
     nth_error ys k = Some (bootstrapped x (pessimistic q (d_t1 s) (d_t2 s) (r_next x) a))) /\
  (d_q1 s' = tc_opt1 c (d_h1 s) (d_q1 s) l1 /\ d_h1 s' = l1 :: d_h1 s /\ forall p, l1 p = mean_squared_error ys (predictions q p (rows b))) /\
  (d_q2 s' = tc_opt2 c (d_h2 s) (d_q2 s) l2 /\ d_h2 s' = l2 :: d_h2 s /\ forall p, l2 p = mean_squared_error ys (predictions q p (rows b))) /\
  if Nat.eqb (S (length (d_h1 s)) mod tc_delay c) 0 then
    (exists lp, d_pol s' = tc_optp c (d_hp s) (d_pol s) lp /\ d_hp s' = lp :: d_hp s /\
       forall p, lp p = - mean (map (fun z => q (d_q1 s') (r_state (snd z)) (fst (policy p (r_state (snd z)) (b_noise b (fst z))))) (numbered (rows b)))) /\
    (forall i, d_t1 s' i = (1 - tc_tau c) * d_t1 s i + tc_tau c * d_q1 s' i /\ d_t2 s' i = (1 - tc_tau c) * d_t2 s i + tc_tau c * d_q2 s' i /\ d_tp s' i = (1 - tc_tau c) * d_tp s i + tc_tau c * d_pol s' i)
  else d_pol s' = d_pol s /\ d_hp s' = d_hp s /\ d_t1 s' = d_t1 s /\ d_t2 s' = d_t2 s /\ d_tp s' = d_tp s.
Proof.
  intros c s b DZ.
  exists (map (fun z => td3_target q policy c s (b_next_noise b) (fst z) (snd z)) (numbered (rows b))).
  exists (td3_q_loss q (td3_target q policy c s (b_next_noise b)) (rows b)), (td3_q_loss q (td3_target q policy c s (b_next_noise b)) (rows b)).
  cbv zeta. split; [unfold numbered; rewrite map_length, combine_length, seq_length; apply Nat.min_id|]. split.
  { intros k x H. erewrite map_nth_error by (apply numbered_nth; exact H). cbn [fst snd]. unfold td3_target. rewrite boot. reflexivity. }
  assert (L : forall p, td3_q_loss q (td3_target q policy c s (b_next_noise b)) (rows b) p = mean_squared_error (map (fun z => td3_target q policy c s (b_next_noise b) (fst z) (snd z)) (numbered (rows b))) (predictions q p (rows b))).
  { intros p. unfold td3_q_loss. rewrite mse_rows. reflexivity. }
  unfold td3_update_full. cbn [d_h1 td3_update_q length]. apply Nat.eqb_neq in DZ. rewrite DZ. cbn [negb]. rewrite andb_true_r.
  destruct (Nat.eqb (S (length (d_h1 s)) mod tc_delay c) 0).
  - unfold td3_sync, td3_update_p, td3_update_q. cbn [d_q1 d_q2 d_pol d_t1 d_t2 d_tp d_h1 d_h2 d_hp].
    split; [split; [reflexivity|split; [reflexivity|exact L]]|]. split; [split; [reflexivity|split; [reflexivity|exact L]]|].
    split; [|intros; unfold soft_copy; repeat split; ring]. eexists. split; [reflexivity|]. split; [reflexivity|]. intros p. unfold td3_policy_loss. cbn [d_q1]. rewrite mean_rows_spec. reflexivity.
  - unfold td3_update_q. cbn [d_q1 d_q2 d_pol d_t1 d_t2 d_tp d_h1 d_h2 d_hp]. split; [split; [reflexivity|split; [reflexivity|exact L]]|]. split; [split; [reflexivity|split; [reflexivity|exact L]]|]. repeat split.
Qed.
Lemma td3_count : forall c bs q1 q2 pol, (tc_delay c <> 0)%nat -> let s := td3_updates_full q policy c (td3_init q1 q2 pol) bs in
  length (d_h1 s) = length bs /\ length (d_hp s) = (length bs / tc_delay c)%nat.
Proof.
  intros c bs q1 q2 pol DZ. induction bs as [|b bs IH] using rev_ind; cbv zeta.
  - cbn. split; [reflexivity|]. symmetry. apply Nat.div_0_l. assumption.
  - cbv zeta in IH. unfold td3_updates_full in *. rewrite fold_left_app, app_length, Nat.add_1_r. cbn [fold_left].
    set (s := fold_left (td3_update_full q policy c) bs (td3_init q1 q2 pol)) in *. destruct IH as [I1 I2].
    destruct (td3_ok c s b DZ) as (ys & l1 & l2 & _ & _ & (_ & H1 & _) & _ & HB). split; [rewrite H1; cbn; lia|].
    rewrite I1 in HB. set (n := length bs) in *. set (d := tc_delay c) in *.
    pose proof (Nat.div_mod n d DZ) as D1. pose proof (Nat.mod_upper_bound n d DZ) as D2. pose proof (Nat.div_mod (S n) d DZ) as D3. pose proof (Nat.mod_upper_bound (S n) d DZ) as D4.
    destruct (Nat.eqb_spec (S n mod d) 0) as [Z|Z].
    + destruct HB as [(lp & _ & HP & _) _]. rewrite HP. cbn [length]. rewrite I2. rewrite Z in D3.
      destruct (le_lt_dec (S n / d) (n / d)) as [C|C]; [pose proof (Nat.mul_le_mono_l _ _ d C); lia|].
      destruct (le_lt_dec (S (S (n / d))) (S n / d)) as [C'|C']; [pose proof (Nat.mul_le_mono_l _ _ d C'); lia|]. lia.
    + destruct HB as (_ & HP & _). rewrite HP, I2.
      destruct (le_lt_dec (S n / d) (n / d)) as [C|C].
      * destruct (le_lt_dec (S (S n / d)) (n / d)) as [C'|C']; [pose proof (Nat.mul_le_mono_l _ _ d C'); lia|]. lia.
      * pose proof (Nat.mul_le_mono_l _ _ d C); lia.
  Qed.
Lemma td3_burnin : forall c q1 q2 pol bs, (tc_delay c <> 0)%nat ->
  (training_chooser true (length (d_hp (td3_updates_full q policy c (td3_init q1 q2 pol) bs))) = BurnIn <-> (length bs < tc_delay c)%nat).
Proof.
  intros c q1 q2 pol bs DZ. destruct (td3_count c bs q1 q2 pol DZ) as [_ ->]. unfold training_chooser. cbn [andb].
  destruct (Nat.eqb_spec (length bs / tc_delay c) 0) as [Z|Z]; rewrite Nat.div_small_iff in Z by assumption; split; intros H; try assumption; try reflexivity; [discriminate|contradiction].
Qed.
End P.

Lemma chooser_none : forall n, training_chooser false n = Policy.
Proof. reflexivity. Qed.

Lemma np_clip_cases : forall x lo hi, lo <= hi -> (x < lo /\ np_clip x lo hi = lo) \/ (lo <= x <= hi /\ np_clip x lo hi = x) \/ (hi < x /\ np_clip x lo hi = hi).
Proof. intros. unfold np_clip, Rmin, Rmax. destruct (Rle_dec x lo); match goal with |- context [Rle_dec ?u hi] => destruct (Rle_dec u hi) end; lra. Qed.
Lemma np_clip_range : forall x lo hi, lo <= hi -> lo <= np_clip x lo hi <= hi.
Proof. intros x lo hi H. destruct (np_clip_cases x lo hi H) as [H'|[H'|H']]; lra. Qed.
Lemma smoothing_ok : forall a z, -1 <= default_smoothing a z <= 1 /\ (-1 <= a <= 1 -> Rabs (default_smoothing a z - a) <= 1 / 2 /\ Rabs (default_smoothing a z - a) <= Rabs z) /\ (-(1/2) <= z <= 1/2 -> -1 <= a + z <= 1 -> default_smoothing a z = a + z).
Proof.
  intros a z. split; [apply np_clip_range; lra|]. unfold default_smoothing.
  destruct (np_clip_cases z (- (1 / 2)) (1 / 2) ltac:(lra)) as [[C ->]|[[C ->]|[C ->]]];
    match goal with |- context [np_clip ?u (-1) 1] => destruct (np_clip_cases u (-1) 1 ltac:(lra)) as [[D ->]|[[D ->]|[D ->]]] end;
    (split; [intros A; split; unfold Rabs; repeat (match goal with |- context [Rcase_abs ?x] => destruct (Rcase_abs x) end); lra|intros; lra]).
Qed.

(** The policy loss over a finite set of actions. *)
Lemma gibbs_policy : forall (vs p : list R) alpha, 0 < alpha -> vs <> [] -> length p = length vs -> probability p ->
  let best := softmax (map (fun v => v / alpha) vs) in
  expectation p (zipr (fun x v => alpha * ln x - v) p vs) = - alpha * logsumexp (map (fun v => v / alpha) vs) + alpha * relative_entropy p best.
Proof.
  intros vs p alpha HA NE L [_ P]. cbv zeta. unfold softmax. rewrite map_map. set (Z := fsum (map exp (map (fun v => v / alpha) vs))).
  assert (ZP : 0 < Z). { unfold Z. rewrite fsum_total, tot_map. apply tot_pos; [destruct vs; [congruence|discriminate]|]. intros. apply exp_pos. }
  change (logsumexp (map (fun v => v / alpha) vs)) with (ln Z). unfold expectation, relative_entropy. clearbody Z.
  assert (G : forall vs p, length p = length vs -> total_of (fun z : R * R => fst z * snd z) (combine p (zipr (fun x v => alpha * ln x - v) p vs)) =
     alpha * total_of (fun z : R * R => fst z * (ln (fst z) - ln (snd z))) (combine p (map (fun x => exp (x / alpha) / Z) vs)) - alpha * ln Z * total_of (fun x => x) p).
  { clear - HA ZP. induction vs as [|v vs IH]; intros [|x p] L; cbn in L; try lia; [cbn; ring|]. cbn [zipr combine map]. rewrite !tot_cons, IH by lia. cbn [fst snd].
    assert (E : ln (exp (v / alpha) / Z) = v / alpha - ln Z). { unfold Rdiv at 1. rewrite ln_mult by (try apply exp_pos; apply Rinv_0_lt_compat; assumption). rewrite ln_Rinv, ln_exp by assumption. ring. }
    rewrite E. field. lra. }
  rewrite G by assumption. rewrite P. ring.
Qed.

Lemma zipr_seq : forall (g : R -> R -> R) (f : nat -> R) p, zipr g p (map f (seq 0 (length p))) = map (fun j => g (nth j p 0) (f j)) (seq 0 (length p)).
Proof.
  intros g f p. revert f. induction p as [|x p IH]; intros f; [reflexivity|]. cbn [length seq map zipr nth]. f_equal.
  rewrite <- seq_shift, !map_map. rewrite (IH (fun j => f (S j))). reflexivity.
Qed.
Lemma best_policy : forall St Ac (q : params -> St -> Ac -> R) (act : nat -> Ac) c s (x : row St Ac) prm p,
  p <> [] -> probability p -> 0 < temperature c s ->
  let alpha := temperature c s in
  let vs := map (fun j => pessimistic q (s_q1 s) (s_q2 s) (r_state x) (act j) / alpha) (seq 0 (length p)) in
  let e := expected_loss p (fun j => sac_policy_loss q (table_policy act p) c (fun _ => j) [x] s prm) in
  - alpha * logsumexp vs <= e /\ (e = - alpha * logsumexp vs <-> p = softmax vs).
Proof.
  intros St Ac q act c s x prm p NE PP HA. cbv zeta. set (alpha := temperature c s) in *.
  set (f := fun j => pessimistic q (s_q1 s) (s_q2 s) (r_state x) (act j)).
  set (vs := map (fun j => pessimistic q (s_q1 s) (s_q2 s) (r_state x) (act j) / alpha) (seq 0 (length p))).
  assert (E : expected_loss p (fun j => sac_policy_loss q (table_policy act p) c (fun _ => j) [x] s prm) = expectation p (zipr (fun y v => alpha * ln y - v) p (map f (seq 0 (length p))))).
  { unfold expected_loss. rewrite zipr_seq. f_equal. apply map_ext. intros j. unfold sac_policy_loss, mean_rows, table_policy. cbn [sum_rows length INR]. fold alpha. unfold f, pessimistic. field. }
  rewrite E.
  assert (L : length p = length (map f (seq 0 (length p)))) by (rewrite map_length, seq_length; reflexivity).
  assert (NV : map f (seq 0 (length p)) <> []) by (destruct p; [congruence|discriminate]).
  rewrite (gibbs_policy (map f (seq 0 (length p))) p alpha HA NV L PP). rewrite map_map.
  change (map (fun x0 => f x0 / alpha) (seq 0 (length p))) with vs.
  assert (NVS : vs <> []) by (unfold vs; destruct p; [congruence|discriminate]).
  assert (LS : length p = length (softmax vs)) by (rewrite softmax_len; unfold vs; rewrite map_length, seq_length; reflexivity).
  destruct (gibbs p (softmax vs) LS PP (softmax_prob vs NVS) (fun y Hy => softmax_pos vs NVS y Hy)) as [G1 G2].
  assert (0 <= alpha * relative_entropy p (softmax vs)) by (apply Rmult_le_pos; lra).
  split; [lra|]. rewrite <- G2. split; intros H'; [|rewrite H'; ring]. assert (Z : alpha * relative_entropy p (softmax vs) = 0) by lra. apply Rmult_integral in Z. destruct Z; [lra|assumption].
Qed.

Lemma td3_times : forall minibatch start times interval u len iteration, td3_updater minibatch start times interval = Ok u -> (start <= len)%nat -> (interval <> 0)%Z -> (iteration mod interval = 0)%Z ->
  update_if_necessary u len 0 iteration = Ok [RqSample minibatch].
Proof.
  intros m st t iv u len it H L I M. unfold td3_updater, upd_init in H. destruct (m <=? st) eqn:E; [|discriminate]. injection H as <-. unfold update_if_necessary. cbn [u_start u_episodic u_interval u_times u_batch andb].
  replace (len <? st)%nat with false by (symmetry; apply Nat.ltb_ge; lia). replace (iv =? 0)%Z with false by (symmetry; apply Z.eqb_neq; lia). rewrite M. reflexivity.
Qed.
