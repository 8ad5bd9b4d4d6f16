(** Proofs for C35. *)
From Coq Require Import Reals Lra Lia.
From Verif Require Import Base.PyBase Model.EmpiricalNormalization Spec.NormalizationSpec.
Set Implicit Arguments.
Local Open Scope R_scope.

Lemma total_app : forall f a b, total f (a ++ b) = total f a + total f b.
Proof. induction a; cbn; intros; [lra|rewrite IHa; lra]. Qed.

Lemma rsum_total : forall l, rsum l = total (fun x => x) l.
Proof. induction l; cbn; [reflexivity|]. unfold rsum in IHl. rewrite IHl. reflexivity. Qed.
Lemma rsum_map : forall f l, rsum (map f l) = total f l.
Proof. induction l; cbn; [reflexivity|]. unfold rsum in IHl. rewrite IHl. reflexivity. Qed.
Lemma np_mean_average : forall l, np_mean l = average l.
Proof. intros. unfold np_mean, average. rewrite rsum_total. reflexivity. Qed.
Lemma total_ext : forall f g l, (forall x, f x = g x) -> total f l = total g l.
Proof. intros f g l H. induction l; cbn; [reflexivity|]. rewrite H, IHl. reflexivity. Qed.
Lemma np_var_variance : forall l, np_var l = variance l.
Proof.
  intros. unfold np_var, variance. rewrite rsum_map, np_mean_average. f_equal. apply total_ext. intros. ring.
Qed.

Lemma total_square : forall c l, total (fun x => (x - c) ^ 2) l =
  total (fun x => x ^ 2) l - 2 * c * total (fun x => x) l + INR (length l) * c ^ 2.
Proof.
  intros c. induction l as [|x l IH].
  - cbn. ring.
  - cbn [total length]. rewrite IH, S_INR. ring.
Qed.

Lemma len_pos : forall (l : list R), l <> [] -> 0 < INR (length l).
Proof. intros [|x l] H; [congruence|]. apply lt_0_INR. cbn. lia. Qed.

Lemma variance_alt : forall l, l <> [] -> variance l = total (fun x => x ^ 2) l / INR (length l) - average l ^ 2.
Proof.
  intros l H. pose proof (len_pos H). unfold variance. rewrite total_square. unfold average. field. lra.
Qed.

Lemma variance_nonneg : forall l, 0 <= variance l.
Proof.
  intros l. unfold variance. assert (0 <= total (fun x => (x - average l) ^ 2) l).
  { generalize (average l). intros c. induction l; cbn [total]; [lra|]. pose proof (pow2_ge_0 (a - c)). lra. }
  destruct l as [|x l].
  - cbn. unfold Rdiv. lra.
  - pose proof (@len_pos (x :: l) ltac:(discriminate)). apply Rmult_le_pos; [assumption|].
    left. apply Rinv_0_lt_compat. assumption.
Qed.

Lemma experience_spec : forall s l x, has_statistics_of s l ->
  has_statistics_of (experience s x)
    (if match n_until s with Some u => (u <=? length l)%nat | None => false end then l else l ++ x).
Proof.
  intros s l x [Hc Hs]. unfold experience. rewrite Hc.
  destruct (match n_until s with Some u => (u <=? length l)%nat | None => false end).
  - split; assumption.
  - destruct x as [|a x].
    + cbn. rewrite app_nil_r. split; assumption.
    + set (b := a :: x) in *. assert (Hb : b <> []) by discriminate.
      replace (length b =? 0)%nat with false by reflexivity.
      split; cbn [n_count n_mean n_var].
      * rewrite app_length. reflexivity.
      * rewrite np_mean_average, np_var_variance. pose proof (len_pos Hb) as Lb.
        destruct l as [|y l].
        -- destruct Hs as [-> ->]. cbn [app length Nat.add]. unfold b at 1. split.
           ++ field. lra.
           ++ field. lra.
        -- set (l0 := y :: l) in *. assert (Hl : l0 <> []) by discriminate. pose proof (len_pos Hl) as Ll.
           assert (HA : average (l0 ++ b) = (total (fun x => x) l0 + total (fun x => x) b) / (INR (length l0) + INR (length b))).
           { unfold average. rewrite total_app, app_length, plus_INR. reflexivity. }

           assert (M : n_mean s + INR (length b) / INR (length l0 + length b) * (average b - n_mean s) = average (l0 ++ b)).
           { destruct Hs as [-> _]. rewrite HA, plus_INR. unfold average. field. lra. }
           assert (V : n_var s + INR (length b) / INR (length l0 + length b) *
             (variance b - n_var s + (average b - n_mean s) * (average b - average (l0 ++ b))) = variance (l0 ++ b)).
           { rewrite (@variance_alt (l0 ++ b)) by discriminate.
             assert (Hv : n_var s = total (fun x => x ^ 2) l0 / INR (length l0) - average l0 ^ 2)
               by (destruct Hs as [_ ->]; apply variance_alt, Hl).
             rewrite Hv, (variance_alt Hb). destruct Hs as [Hmean _]. rewrite Hmean.
             rewrite HA, total_app, app_length, plus_INR. unfold average.
             field. lra. }
           destruct (l0 ++ b) as [|z zs] eqn:E; [destruct l; discriminate|].
           rewrite M. split; [reflexivity|]. exact V.
Qed.

Lemma experience_params : forall s x, n_eps (experience s x) = n_eps s /\ n_until (experience s x) = n_until s /\ n_clip (experience s x) = n_clip s.
Proof.
  intros. unfold experience. destruct (match n_until s with Some u => _ | None => _ end); [auto|].
  destruct (length x =? 0)%nat; auto.
Qed.

Lemma std_stats : forall s l, has_statistics_of s l -> has_statistics_of (snd (std_inverse s)) l.
Proof. intros s l H. unfold std_inverse. destruct (n_cache s); exact H. Qed.
Lemma std_params : forall s, n_eps (snd (std_inverse s)) = n_eps s /\ n_until (snd (std_inverse s)) = n_until s /\ n_clip (snd (std_inverse s)) = n_clip s.
Proof. intros s. unfold std_inverse. destruct (n_cache s); auto. Qed.

Lemma nstep_spec : forall s l o, has_statistics_of s l ->
  has_statistics_of (nstep s o) (learnt (n_until s) l [offered o]) /\
  n_eps (nstep s o) = n_eps s /\ n_until (nstep s o) = n_until s /\ n_clip (nstep s o) = n_clip s.
Proof.
  intros s l o H. destruct o as [x|x u|y]; cbn [nstep offered learnt].
  - split; [apply experience_spec, H|apply experience_params].
  - unfold normalize. destruct (std_inverse s) as [c s1] eqn:E. cbn [snd].
    pose proof (std_stats H) as H1. pose proof (std_params s) as (P1 & P2 & P3). rewrite E in *. cbn [snd] in *.
    destruct u.
    + pose proof (experience_spec x H1) as H2. rewrite P2 in H2. split; [exact H2|].
      destruct (experience_params s1 x) as (Q1 & Q2 & Q3). repeat split; congruence.
    + rewrite app_nil_r. split; [|auto]. destruct (match n_until s with Some u => _ | None => _ end); exact H1.
  - rewrite app_nil_r. split; [|auto]. destruct (match n_until s with Some u => _ | None => _ end); exact H.
Qed.

Theorem population_statistics : forall os s l, has_statistics_of s l ->
  has_statistics_of (nrun s os) (learnt (n_until s) l (map offered os)) /\
  n_eps (nrun s os) = n_eps s /\ n_until (nrun s os) = n_until s /\ n_clip (nrun s os) = n_clip s.
Proof.
  induction os as [|o os IH]; intros s l H.
  - cbn. auto.
  - cbn [nrun fold_left map learnt]. destruct (nstep_spec o H) as (H1 & E1 & E2 & E3). cbn [learnt] in H1.
    destruct (IH _ _ H1) as (H2 & F1 & F2 & F3). unfold nrun in *. rewrite E2 in *. split; [exact H2|].
    repeat split; congruence.
Qed.

Lemma learnt_all : forall bs l, learnt None l bs = l ++ concat bs.
Proof.
  induction bs as [|b bs IH]; intros l; cbn [learnt concat]; [rewrite app_nil_r; reflexivity|].
  rewrite IH, app_assoc. reflexivity.
Qed.

(** The cache, when filled, belongs to the current statistics. *)
Definition cache_valid (s : norm) : Prop :=
  match n_cache s with Some c => c = / sqrt (n_var s + n_eps s) | None => True end.

Lemma experience_cache : forall s x, cache_valid s -> cache_valid (experience s x).
Proof.
  intros s x H. unfold experience. destruct (match n_until s with Some u => _ | None => _ end); [exact H|].
  destruct (length x =? 0)%nat; [exact H|exact I].
Qed.
Lemma std_cache : forall s, cache_valid s -> cache_valid (snd (std_inverse s)) /\ fst (std_inverse s) = / sqrt (n_var s + n_eps s) /\
  n_mean (snd (std_inverse s)) = n_mean s /\ n_var (snd (std_inverse s)) = n_var s /\ n_eps (snd (std_inverse s)) = n_eps s.
Proof.
  intros s H. unfold std_inverse, cache_valid in *. destruct (n_cache s) eqn:E; cbn; rewrite ?E; auto.
Qed.
Lemma nrun_cache : forall os s, cache_valid s -> cache_valid (nrun s os).
Proof.
  induction os as [|o os IH]; intros s H; [exact H|]. cbn [nrun fold_left]. apply IH.
  destruct o as [x|x u|y]; cbn [nstep]; [apply experience_cache, H| |exact H].
  unfold normalize. pose proof (std_cache s H) as (H1 & _). destruct (std_inverse s) as [c s1]. cbn [snd] in *.
  destruct u; [apply experience_cache|]; exact H1.
Qed.

Lemma has_var_nonneg : forall s l, has_statistics_of s l -> 0 <= n_var s.
Proof.
  intros s l [_ H]. destruct l as [|x l]; destruct H as [_ ->]; [lra|apply variance_nonneg].
Qed.

(** Normalising with the statistics of the learnt values. *)
Theorem normalize_spec : forall eps until clip os x,
  let s := nrun (norm_init eps until clip) os in
  fst (normalize s x false) = map (fun v => clip_to clip ((v - n_mean s) / sqrt (n_var s + eps))) x /\
  n_mean (snd (normalize s x false)) = n_mean s /\ n_var (snd (normalize s x false)) = n_var s /\
  n_count (snd (normalize s x false)) = n_count s.
Proof.
  intros eps until clip os x s.
  assert (Hs : cache_valid s) by (apply nrun_cache; exact I).
  assert (H0 : has_statistics_of (norm_init eps until clip) []) by (unfold has_statistics_of; cbn; auto).
  destruct (population_statistics os H0) as (_ & E1 & _ & E3). fold s in E1, E3. cbn in E1, E3.
  unfold normalize. pose proof (std_cache s Hs) as (_ & F & M & V & _).
  assert (C : n_count (snd (std_inverse s)) = n_count s) by (unfold std_inverse; destruct (n_cache s); reflexivity).
  destruct (std_inverse s) as [c s1]. cbn [fst snd] in *.
  split; [|auto]. apply map_ext. intros v. rewrite E3, M, F, E1. reflexivity.
Qed.

Theorem inverse_normalize : forall eps until os x, 0 < eps ->
  let s := nrun (norm_init eps until None) os in
  inverse s (fst (normalize s x false)) = x.
Proof.
  intros eps until os x He s. destruct (normalize_spec eps until None os x) as (E & _). fold s in E. rewrite E.
  unfold inverse. rewrite map_map.
  assert (H0 : has_statistics_of (norm_init eps until None) []) by (unfold has_statistics_of; cbn; auto).
  destruct (population_statistics os H0) as (H & E1 & _ & _). fold s in H, E1. cbn in E1.
  pose proof (has_var_nonneg H) as V. rewrite E1.
  rewrite <- (map_id x) at 2. apply map_ext. intros v. cbn [clip_to]. field.
  apply Rgt_not_eq, sqrt_lt_R0. lra.
Qed.

Theorem clip_bound : forall s x u c v, n_clip s = Some c -> 0 <= c -> In v (fst (normalize s x u)) -> - c <= v <= c.
Proof.
  intros s x u c v Hc H0 Hv. unfold normalize in Hv. destruct (std_inverse s) as [k s1]. cbn [fst] in Hv.
  apply in_map_iff in Hv. destruct Hv as (w & <- & _). rewrite Hc. cbn [clip_to].
  unfold Rmin, Rmax. repeat destruct Rle_dec; lra.
Qed.

(** A normalising call with [update=True] subtracts the updated mean and divides
    by the standard deviation from before the update. *)
Theorem normalize_update_spec : forall eps until os x,
  let s := nrun (norm_init eps until None) os in
  let s' := nrun s [NExperience x] in
  fst (normalize s x true) = map (fun v => (v - n_mean s') / sqrt (n_var s + eps)) x.
Proof.
  intros eps until os x s s'.
  assert (Hs : cache_valid s) by (apply nrun_cache; exact I).
  assert (H0 : has_statistics_of (norm_init eps until None) []) by (unfold has_statistics_of; cbn; auto).
  destruct (population_statistics os H0) as (_ & E1 & _ & E3). fold s in E1, E3. cbn in E1, E3.
  unfold normalize. pose proof (std_cache s Hs) as (_ & F & M & V & _).
  assert (C : n_mean (experience (snd (std_inverse s)) x) = n_mean s').
  { unfold s'. cbn [nrun fold_left nstep]. unfold std_inverse. destruct (n_cache s); [reflexivity|].
    unfold experience. cbn [snd n_until n_count n_mean n_var].
    destruct (match n_until s with Some u => _ | None => _ end); [reflexivity|]. destruct (length x =? 0)%nat; reflexivity. }
  destruct (std_inverse s) as [c s1]. cbn [fst snd] in *. rewrite E3. cbn [clip_to]. rewrite C, F, E1. reflexivity.
Qed.

Lemma init_stats : forall eps until clip, has_statistics_of (norm_init eps until clip) [].
Proof. intros. unfold has_statistics_of. cbn. auto. Qed.

Theorem population_statistics_init : forall eps until clip os,
  has_statistics_of (nrun (norm_init eps until clip) os) (learnt until [] (map offered os)).
Proof. intros. apply (population_statistics os (init_stats eps until clip)). Qed.

Theorem split_independent : forall eps clip os os',
  concat (map offered os) = concat (map offered os') ->
  let s := nrun (norm_init eps None clip) os in
  let s' := nrun (norm_init eps None clip) os' in
  n_count s = n_count s' /\ n_mean s = n_mean s' /\ n_var s = n_var s'.
Proof.
  intros eps clip os os' H s s'.
  pose proof (population_statistics_init eps None clip os) as A.
  pose proof (population_statistics_init eps None clip os') as B.
  rewrite learnt_all in A, B. rewrite H in A. fold s in A. fold s' in B. cbn [app] in A, B.
  destruct A as [A1 A2], B as [B1 B2]. split; [congruence|].
  destruct (concat (map offered os')); destruct A2, B2; split; congruence.
Qed.

Theorem until_frozen : forall s u os, n_until s = Some u -> (u <= n_count s)%nat ->
  let s' := nrun s os in n_count s' = n_count s /\ n_mean s' = n_mean s /\ n_var s' = n_var s.
Proof.
  intros s u os. revert s. induction os as [|o os IH]; intros s Hu Hc; [cbn; auto|].
  cbn [nrun fold_left].
  assert (E : forall s x, n_until s = Some u -> (u <= n_count s)%nat -> experience s x = s).
  { intros s0 x U C. unfold experience. rewrite U. apply Nat.leb_le in C. rewrite C. reflexivity. }
  assert (N : n_until (nstep s o) = Some u /\ n_count (nstep s o) = n_count s /\ n_mean (nstep s o) = n_mean s /\ n_var (nstep s o) = n_var s).
  { destruct o as [x|x b|y]; cbn [nstep]; [rewrite E by assumption; auto| |auto].
    unfold normalize. unfold std_inverse. destruct (n_cache s); cbn [snd]; (destruct b; [rewrite E by assumption|]; auto). }
  destruct N as (N1 & N2 & N3 & N4). pose proof (IH _ N1 ltac:(rewrite N2; exact Hc)) as I. cbn zeta in I.
  unfold nrun in *. destruct I as (I1 & I2 & I3). repeat split; congruence.
Qed.

Theorem update_mixes :
  ~ (forall eps until os x, 0 < eps ->
       let s := nrun (norm_init eps until None) os in
       let s' := nrun s [NExperience x] in
       fst (normalize s x true) = map (fun v => (v - n_mean s) / sqrt (n_var s + eps)) x \/
       fst (normalize s x true) = map (fun v => (v - n_mean s') / sqrt (n_var s' + eps)) x).
Proof.
  intros H. specialize (H 3 None [] [0; 4] ltac:(lra)). cbn zeta in H.
  rewrite normalize_update_spec in H. cbn [nrun fold_left nstep map] in H.
  assert (S4 : sqrt (n_var (norm_init 3 None None) + 3) = 2).
  { cbn. replace (1 + 3) with (2 * 2) by lra. apply sqrt_square. lra. }
  assert (M : n_mean (experience (norm_init 3 None None) [0; 4]) = 2).
  { cbn. unfold np_mean. cbn. field. }
  assert (V : n_var (experience (norm_init 3 None None) [0; 4]) = 4).
  { cbn. unfold np_var, np_mean. cbn. field. }
  rewrite S4, M, V in H. change (n_mean (norm_init 3 None None)) with 0 in H.
  destruct H as [H|H]; injection H as H1 H2.
  - lra.
  - assert (P : 0 < sqrt (4 + 3)) by (apply sqrt_lt_R0; lra).
    assert (Q : sqrt (4 + 3) * sqrt (4 + 3) = 7) by (rewrite sqrt_sqrt; lra).
    assert (E : sqrt (4 + 3) = 2).
    { apply (Rmult_eq_compat_r (sqrt (4 + 3))) in H1. unfold Rdiv in H1. rewrite (Rmult_assoc _ (/ sqrt (4 + 3))) in H1.
      rewrite Rinv_l in H1 by lra. lra. }
    rewrite E in Q. lra.
Qed.

Theorem stale_cache :
  ~ (forall eps os mean var count x, 0 < eps -> 0 <= var ->
       let s := load_stats (nrun (norm_init eps None None) os) mean var count in
       fst (normalize s x false) = map (fun v => (v - mean) / sqrt (var + eps)) x).
Proof.
  intros H. specialize (H 3 [NCall [0] false] 0 6 1%nat [6] ltac:(lra) ltac:(lra)). cbn in H.
  injection H as H. replace (1 + 3) with (2 * 2) in H by lra. replace (6 + 3) with (3 * 3) in H by lra.
  rewrite !sqrt_square in H by lra. lra.
Qed.
