(** Proofs about lower triangular matrices and quadratic action values. *)
From Coq Require Import Reals List Arith Lia Lra.
From Verif Require Import Base.PyBase Model.Quadratic Spec.SumSpec Spec.QuadraticSpec Proofs.RSumFacts.
Import ListNotations.
Local Open Scope R_scope.

Lemma fsum_below_eq : forall n f, fsum_below n f = sum_below n f.
Proof. induction n; intros; cbn; [reflexivity|]. rewrite IHn. reflexivity. Qed.
Lemma below_add : forall n f g, sum_below n (fun i => f i + g i) = sum_below n f + sum_below n g.
Proof. induction n; intros; cbn; [ring|]. rewrite IHn. ring. Qed.
Lemma below_swap : forall n m f, sum_below n (fun i => sum_below m (f i)) = sum_below m (fun j => sum_below n (fun i => f i j)).
Proof.
  induction n as [|n IH]; intros m f; cbn.
  - induction m; cbn; [reflexivity|]. rewrite <- IHm. ring.
  - rewrite IH, <- below_add. reflexivity.
Qed.
Lemma below_scale_r : forall m c f, sum_below m (fun i => f i * c) = sum_below m f * c.
Proof. induction m as [|m IH]; intros; cbn; [ring|]. rewrite IH. ring. Qed.
Lemma below_zero : forall m f, (forall i, (i < m)%nat -> f i = 0) -> sum_below m f = 0.
Proof. induction m as [|m IH]; intros f H; cbn; [reflexivity|]. rewrite IH, H by (intros; try apply H; lia). ring. Qed.
Lemma below_one : forall m f k, (k < m)%nat -> (forall i, (i < m)%nat -> i <> k -> f i = 0) -> sum_below m f = f k.
Proof.
  induction m as [|m IH]; intros f k L H; [lia|]. cbn. destruct (Nat.eq_dec k m) as [->|N].
  - rewrite below_zero; [ring|]. intros i Hi. apply H; lia.
  - rewrite (IH f k), (H m) by (intros; try apply H; lia). ring.
Qed.
Lemma below_nonneg : forall m f, (forall i, (i < m)%nat -> 0 <= f i) -> 0 <= sum_below m f.
Proof. induction m as [|m IH]; intros f H; cbn; [lra|]. pose proof (IH f ltac:(intros; apply H; lia)). pose proof (H m ltac:(lia)). lra. Qed.
Lemma below_all_zero : forall m f, (forall i, (i < m)%nat -> 0 <= f i) -> sum_below m f = 0 -> forall i, (i < m)%nat -> f i = 0.
Proof.
  induction m as [|m IH]; intros f H E i Hi; [lia|]. cbn in E. pose proof (below_nonneg m f ltac:(intros; apply H; lia)). pose proof (H m ltac:(lia)).
  destruct (Nat.eq_dec i m) as [->|N]; [lra|]. apply IH; [intros; apply H; lia|lra|lia].
Qed.
Lemma below_le : forall m f g, (forall i, (i < m)%nat -> f i <= g i) -> sum_below m f <= sum_below m g.
Proof. induction m as [|m IH]; intros f g H; cbn; [lra|]. pose proof (IH f g ltac:(intros; apply H; lia)). pose proof (H m ltac:(lia)). lra. Qed.

(** ** Layout *)
Lemma scatter_miss : forall idx vals y i j, ~ In (i, j) idx ->
  fold_left (fun y z => set_entry y (fst z) (snd z)) (combine idx vals) y i j = y i j.
Proof.
  induction idx as [|[a b] idx IH]; intros [|v vals] y i j N; try reflexivity. cbn [combine fold_left]. rewrite IH by (intros H; apply N; right; exact H).
  unfold set_entry. cbn [fst snd]. destruct (Nat.eqb_spec i a), (Nat.eqb_spec j b); cbn; try reflexivity. subst. exfalso. apply N. left. reflexivity.
Qed.
Lemma scatter_hit : forall idx vals y i j k v, NoDup idx -> nth_error idx k = Some (i, j) -> nth_error vals k = Some v ->
  fold_left (fun y z => set_entry y (fst z) (snd z)) (combine idx vals) y i j = v.
Proof.
  induction idx as [|[a b] idx IH]; intros [|w vals] y i j k v ND E1 E2; destruct k; try discriminate; cbn in E1, E2; inversion ND as [|? ? NI ND']; subst.
  - injection E1 as -> ->. injection E2 as ->. cbn [combine fold_left]. rewrite scatter_miss by exact NI.
    unfold set_entry. cbn. rewrite !Nat.eqb_refl. reflexivity.
  - cbn [combine fold_left]. apply (IH vals _ i j k v); assumption.
Qed.

Lemma tril_S : forall n, tril_indices (S n) = tril_indices n ++ map (fun j => (n, j)) (seq 0 n).
Proof. intros. unfold tril_indices. rewrite seq_S, flat_map_app. cbn. rewrite app_nil_r. reflexivity. Qed.
Lemma tril_len2 : forall n, (2 * length (tril_indices n) = n * (n - 1))%nat.
Proof.
  induction n as [|n IH]; [reflexivity|]. rewrite tril_S, app_length, map_length, seq_length. destruct n; [reflexivity|]. nia.
Qed.
Lemma tril_len : forall n, length (tril_indices n) = (n * (n - 1) / 2)%nat.
Proof. intros. rewrite <- tril_len2. rewrite Nat.mul_comm, Nat.div_mul by lia. reflexivity. Qed.
Lemma tril_in : forall n i j, In (i, j) (tril_indices n) <-> (j < i < n)%nat.
Proof.
  intros. unfold tril_indices. rewrite in_flat_map. split.
  - intros (x & A & B). apply in_map_iff in B. destruct B as (y & E & C). injection E as -> ->. apply in_seq in A, C. lia.
  - intros H. exists i. rewrite in_seq. split; [lia|]. apply in_map_iff. exists j. rewrite in_seq. split; [reflexivity|lia].
Qed.
Lemma NoDup_map_inj : forall A B (f : A -> B) l, (forall x y, f x = f y -> x = y) -> NoDup l -> NoDup (map f l).
Proof.
  intros A B f l H. induction 1 as [|x l N ND IH]; [constructor|]. cbn. constructor; [|exact IH]. intros I. apply in_map_iff in I.
  destruct I as (y & E & I). apply H in E. subst. contradiction.
Qed.
Lemma NoDup_app_intro : forall A (a b : list A), NoDup a -> NoDup b -> (forall x, In x a -> ~ In x b) -> NoDup (a ++ b).
Proof.
  induction 1 as [|x a N ND IH]; intros Hb H; [exact Hb|]. cbn. constructor.
  - rewrite in_app_iff. intros [I|I]; [contradiction|apply (H x (or_introl eq_refl) I)].
  - apply IH; [exact Hb|]. intros y I. apply H. right. exact I.
Qed.
Lemma tril_nodup : forall n, NoDup (tril_indices n).
Proof.
  induction n as [|n IH]; [constructor|]. rewrite tril_S. apply NoDup_app_intro; [exact IH|apply NoDup_map_inj; [congruence|apply seq_NoDup]|].
  intros [i j] I J. apply tril_in in I. apply in_map_iff in J. destruct J as (y & E & _). injection E as -> ->. lia.
Qed.
Lemma tril_nth : forall n i j, (j < i < n)%nat -> nth_error (tril_indices n) (i * (i - 1) / 2 + j) = Some (i, j).
Proof.
  induction n as [|n IH]; intros i j H; [lia|]. rewrite tril_S. rewrite <- tril_len. destruct (Nat.eq_dec i n) as [->|N].
  - rewrite nth_error_app2 by lia. replace (length (tril_indices n) + j - length (tril_indices n))%nat with j by lia.
    rewrite nth_error_map. replace (nth_error (seq 0 n) j) with (Some j); [reflexivity|]. symmetry.
    rewrite nth_error_nth' with (d := 0%nat) by (rewrite seq_length; lia). rewrite seq_nth by lia. reflexivity.
  - rewrite tril_len. pose proof (IH i j ltac:(lia)) as E. rewrite nth_error_app1; [exact E|]. apply nth_error_Some. congruence.
Qed.
Lemma diag_nth : forall n i, (i < n)%nat -> nth_error (diag_indices n) i = Some (i, i).
Proof.
  intros n i H. unfold diag_indices. rewrite nth_error_map, nth_error_nth' with (d := 0%nat) by (rewrite seq_length; lia). rewrite seq_nth by lia. reflexivity.
Qed.
Lemma diag_nodup : forall n, NoDup (diag_indices n).
Proof. intros. apply NoDup_map_inj; [congruence|apply seq_NoDup]. Qed.
Lemma diag_in : forall n i j, In (i, j) (diag_indices n) <-> i = j /\ (i < n)%nat.
Proof.
  intros. unfold diag_indices. rewrite in_map_iff. split.
  - intros (x & E & I). injection E as -> ->. apply in_seq in I. split; [reflexivity|lia].
  - intros [-> H]. exists j. rewrite in_seq. split; [reflexivity|lia].
Qed.

Theorem layout : forall diag nd, length nd = (length diag * (length diag - 1) / 2)%nat ->
  exists y, lower_triangular_matrix diag nd = Ok y /\
  forall i j, (i < length diag)%nat -> (j < length diag)%nat ->
    y i j = if (i =? j)%nat then nth i diag 0 else if (j <? i)%nat then nth (i * (i - 1) / 2 + j) nd 0 else 0.
Proof.
  intros diag nd L. unfold lower_triangular_matrix. set (n := length diag) in *. unfold set_at at 1. rewrite tril_len, L, Nat.eqb_refl. cbn [bind].
  unfold set_at. assert (Ld : length (diag_indices n) = n) by (unfold diag_indices; rewrite map_length, seq_length; reflexivity).
  rewrite Ld. fold n. rewrite Nat.eqb_refl. eexists. split; [reflexivity|]. intros i j Hi Hj. destruct (Nat.eqb_spec i j) as [<-|N].
  - apply scatter_hit with (k := i); [apply diag_nodup|apply diag_nth, Hi|]. apply nth_error_nth'. exact Hi.
  - rewrite scatter_miss by (rewrite diag_in; intros [E _]; contradiction). destruct (Nat.ltb_spec j i) as [B|B].
    + apply scatter_hit with (k := (i * (i - 1) / 2 + j)%nat); [apply tril_nodup|apply tril_nth; lia|]. apply nth_error_nth'.
      rewrite L, <- (tril_len n). apply nth_error_Some. rewrite tril_nth by lia. discriminate.
    + rewrite scatter_miss by (rewrite tril_in; lia). reflexivity.
Qed.

(** ** Positive definiteness *)
Lemma quad_LLT : forall n L x, quad_form n (matmul_transb n L L) x = sum_below n (fun k => sum_below n (fun i => x i * L i k) ^ 2).
Proof.
  intros n L x. unfold quad_form, matmul_transb.
  transitivity (sum_below n (fun i => sum_below n (fun k => sum_below n (fun j => (x i * L i k) * (x j * L j k))))).
  - apply below_ext. intros i _. rewrite below_swap. apply below_ext. intros j _. rewrite fsum_below_eq.
    replace (x i * sum_below n (fun k => L i k * L j k) * x j) with (x i * x j * sum_below n (fun k => L i k * L j k)) by ring.
    rewrite <- below_scale. apply below_ext. intros. ring.
  - rewrite below_swap. apply below_ext. intros k _.
    rewrite (below_ext n _ (fun i => (x i * L i k) * sum_below n (fun j => x j * L j k))) by (intros; apply below_scale).
    rewrite below_scale_r. ring.
Qed.
Theorem LLT_positive : forall n L, (forall i j, (i < n)%nat -> (j < n)%nat -> (i < j)%nat -> L i j = 0) -> (forall i, (i < n)%nat -> L i i <> 0) ->
  positive_definite n (matmul_transb n L L).
Proof.
  intros n L T D. split; intros x; rewrite quad_LLT; [apply below_nonneg; intros; apply pow2_ge_0|]. intros E.
  assert (Sz : forall k, (k < n)%nat -> sum_below n (fun i => x i * L i k) = 0).
  { intros k Hk. pose proof (below_all_zero n _ (fun i _ => pow2_ge_0 (sum_below n (fun j => x j * L j i))) E k Hk) as Z. cbv beta in Z.
    destruct (Req_dec (sum_below n (fun i => x i * L i k)) 0) as [|N]; [assumption|]. exfalso. apply (pow_nonzero _ 2 N Z). }
  assert (G : forall m, (m <= n)%nat -> forall i, (n - m <= i < n)%nat -> x i = 0).
  { induction m as [|m IH]; intros Hm i Hi; [lia|]. destruct (Nat.eq_dec i (n - S m)) as [->|N]; [|apply IH; lia].
    set (k := (n - S m)%nat) in *. pose proof (Sz k ltac:(lia)) as Z. rewrite (below_one n _ k) in Z; [|lia|].
    - apply Rmult_integral in Z. destruct Z as [Z|Z]; [exact Z|]. exfalso. apply (D k ltac:(lia) Z).
    - intros j Hj Nj. destruct (Nat.lt_ge_cases j k); [rewrite T by lia; ring|]. rewrite (IH ltac:(lia) j ltac:(lia)). ring. }
  intros i Hi. apply (G n); lia.
Qed.

Theorem coefficient_positive : forall diag_out nd, length nd = (length diag_out * (length diag_out - 1) / 2)%nat ->
  exists P, coefficient_matrix diag_out (Some nd) = Ok P /\ positive_definite (length diag_out) P /\ symmetric (length diag_out) P.
Proof.
  intros diag nd L. unfold coefficient_matrix. destruct (layout (map exp diag) nd) as (y & E & H); [rewrite map_length; exact L|].
  rewrite map_length in H. rewrite E. cbn [bind]. eexists. split; [reflexivity|]. split.
  - apply LLT_positive.
    + intros i j Hi Hj B. rewrite H by assumption. destruct (Nat.eqb_spec i j); [lia|]. destruct (Nat.ltb_spec j i); [lia|reflexivity].
    + intros i Hi. rewrite H by assumption. rewrite Nat.eqb_refl. rewrite nth_indep with (d' := exp 0) by (rewrite map_length; exact Hi).
      rewrite map_nth. pose proof (exp_pos (nth i diag 0)). lra.
  - intros i j _ _. unfold matmul_transb. rewrite !fsum_below_eq. apply below_ext. intros. ring.
Qed.
Lemma coefficient_positive_1 : forall d, exists P, coefficient_matrix [d] None = Ok P /\ positive_definite 1 P /\ symmetric 1 P.
Proof.
  intros d. eexists. split; [reflexivity|]. pose proof (exp_pos d). split; [|intros i j Hi Hj; assert (i = 0%nat) by lia; assert (j = 0%nat) by lia; subst; reflexivity].
  assert (E : forall x, quad_form 1 (fun i _ => nth i (map exp [d]) 0 ^ 2) x = (x O * exp d) ^ 2) by (intros; unfold quad_form; cbn; ring).
  split; intros x; rewrite E; [apply pow2_ge_0|]. intros Z i Hi. assert (i = 0%nat) by lia. subst.
  destruct (Req_dec (x O * exp d) 0) as [Y|N]; [|exfalso; apply (pow_nonzero _ 2 N Z)]. apply Rmult_integral in Y. destruct Y; [assumption|lra].
Qed.

(** ** The maximum *)
Lemma evaluate_form : forall q u, evaluate_actions q u = q_v q - / 2 * quad_form (q_dim q) (q_mat q) (fun i => u i - q_mu q i).
Proof.
  intros q u. unfold evaluate_actions, quad_form. rewrite fsum_below_eq.
  rewrite (below_ext _ _ (fun j => sum_below (q_dim q) (fun i => (u i - q_mu q i) * q_mat q i j * (u j - q_mu q j)))).
  - rewrite below_swap. field.
  - intros j _. rewrite fsum_below_eq, below_scale_r. reflexivity.
Qed.
Lemma evaluate_le_v : forall q u, positive_definite (q_dim q) (q_mat q) -> evaluate_actions q u <= q_v q /\
  (evaluate_actions q u = q_v q <-> forall i, (i < q_dim q)%nat -> u i = q_mu q i).
Proof.
  intros q u [P1 P2]. rewrite evaluate_form. pose proof (P1 (fun i => u i - q_mu q i)) as H. split; [lra|]. split.
  - intros E i Hi. pose proof (P2 (fun i => u i - q_mu q i) ltac:(lra) i Hi) as Z. cbv beta in Z. lra.
  - intros E. unfold quad_form. rewrite below_zero; [ring|]. intros i Hi. apply below_zero. intros j Hj. rewrite (E i Hi). ring.
Qed.
Lemma evaluate_ext : forall q u w, (forall i, (i < q_dim q)%nat -> u i = w i) -> evaluate_actions q u = evaluate_actions q w.
Proof.
  intros q u w H. rewrite !evaluate_form. unfold quad_form. do 2 f_equal. apply below_ext. intros i Hi. apply below_ext. intros j Hj. rewrite (H i Hi), (H j Hj). reflexivity.
Qed.
Lemma max_is_greedy : forall q, positive_definite (q_dim q) (q_mat q) -> q_max_value q = evaluate_actions q (greedy_actions q).
Proof.
  intros q P. unfold q_max_value. destruct (q_min q) eqn:E1, (q_max q) eqn:E2; try reflexivity. symmetry. apply evaluate_le_v; [exact P|].
  intros i _. unfold greedy_actions. rewrite E1, E2. reflexivity.
Qed.

(** Consistent bounds. *)
Lemma greedy_admissible : forall q, (forall lo hi i, q_min q = Some lo -> q_max q = Some hi -> (i < q_dim q)%nat -> lo i <= hi i) ->
  admissible (q_dim q) (q_min q) (q_max q) (greedy_actions q).
Proof.
  intros q B i Hi. unfold greedy_actions. split; intros b E.
  - rewrite E. destruct (q_max q) as [hi|] eqn:E2; [|apply Rmax_l]. apply Rmin_glb; [apply (B b hi i E eq_refl Hi)|apply Rmax_l].
  - rewrite E. apply Rmin_l.
Qed.
Lemma greedy_inside : forall q i, (i < q_dim q)%nat -> admissible (q_dim q) (q_min q) (q_max q) (q_mu q) -> greedy_actions q i = q_mu q i.
Proof.
  intros q i Hi A. destruct (A i Hi) as [A1 A2]. unfold greedy_actions. destruct (q_min q) as [lo|], (q_max q) as [hi|]; try reflexivity;
    try (specialize (A1 _ eq_refl)); try (specialize (A2 _ eq_refl)).
  - rewrite Rmax_right by exact A1. rewrite Rmin_right by exact A2. reflexivity.
  - rewrite Rmax_right by exact A1. reflexivity.
  - rewrite Rmin_right by exact A2. reflexivity.
Qed.
Theorem max_inside : forall q, positive_definite (q_dim q) (q_mat q) -> admissible (q_dim q) (q_min q) (q_max q) (q_mu q) ->
  q_max_value q = q_v q /\ q_max_value q = evaluate_actions q (greedy_actions q) /\ (forall u, evaluate_actions q u <= q_max_value q) /\
  forall u, evaluate_actions q u = q_max_value q <-> forall i, (i < q_dim q)%nat -> u i = greedy_actions q i.
Proof.
  intros q P A. assert (E : q_max_value q = q_v q).
  { rewrite (max_is_greedy q P). apply evaluate_le_v; [exact P|]. intros i Hi. apply greedy_inside; assumption. }
  split; [exact E|]. split; [apply max_is_greedy, P|]. rewrite E. split; [intros u; apply evaluate_le_v, P|].
  intros u. rewrite (proj2 (evaluate_le_v q u P)). split; intros H i Hi; rewrite (H i Hi); [symmetry|]; apply greedy_inside; assumption.
Qed.

Lemma sq_between : forall m g u, (m <= g <= u \/ u <= g <= m) -> (g - m) ^ 2 <= (u - m) ^ 2.
Proof. intros m g u [H|H]; nra. Qed.
(** Clipping is the projection on an interval. *)
Lemma clip_nearest : forall q i u, (i < q_dim q)%nat ->
  (forall lo hi i, q_min q = Some lo -> q_max q = Some hi -> (i < q_dim q)%nat -> lo i <= hi i) ->
  (forall l, q_min q = Some l -> l i <= u) -> (forall h, q_max q = Some h -> u <= h i) ->
  (greedy_actions q i - q_mu q i) ^ 2 <= (u - q_mu q i) ^ 2.
Proof.
  intros q i u Hi B L H. unfold greedy_actions.
  destruct (q_min q) as [lo|], (q_max q) as [hi|]; try specialize (L _ eq_refl); try specialize (H _ eq_refl); try specialize (B lo hi i eq_refl eq_refl Hi);
    unfold Rmax; try destruct (Rle_dec (lo i) (q_mu q i)); unfold Rmin; repeat match goal with |- context [Rle_dec ?a ?b] => destruct (Rle_dec a b) end;
    apply sq_between; destruct (Rle_dec (q_mu q i) u); first [left; lra|right; lra].
Qed.
Theorem max_diagonal : forall q, positive_definite (q_dim q) (q_mat q) -> (forall i j, (i < q_dim q)%nat -> (j < q_dim q)%nat -> i <> j -> q_mat q i j = 0) ->
  (forall lo hi i, q_min q = Some lo -> q_max q = Some hi -> (i < q_dim q)%nat -> lo i <= hi i) ->
  q_max_value q = evaluate_actions q (greedy_actions q) /\
  forall u, admissible (q_dim q) (q_min q) (q_max q) u -> evaluate_actions q u <= q_max_value q.
Proof.
  intros q P D B. split; [apply max_is_greedy, P|]. intros u A. rewrite (max_is_greedy q P), !evaluate_form.
  assert (G : forall x, quad_form (q_dim q) (q_mat q) x = sum_below (q_dim q) (fun i => q_mat q i i * x i ^ 2)).
  { intros x. unfold quad_form. apply below_ext. intros i Hi. rewrite (below_one _ _ i Hi); [ring|]. intros j Hj N. rewrite D by auto. ring. }
  assert (Pd : forall i, (i < q_dim q)%nat -> 0 <= q_mat q i i).
  { intros i Hi. pose proof (proj1 P (fun j => if (j =? i)%nat then 1 else 0)) as H. rewrite G in H. rewrite (below_one _ _ i Hi) in H.
    - rewrite Nat.eqb_refl in H. lra.
    - intros j _ N. destruct (Nat.eqb_spec j i); [contradiction|]. ring. }
  rewrite !G. assert (S : sum_below (q_dim q) (fun i => q_mat q i i * (greedy_actions q i - q_mu q i) ^ 2) <= sum_below (q_dim q) (fun i => q_mat q i i * (u i - q_mu q i) ^ 2)).
  { apply below_le. intros i Hi. apply Rmult_le_compat_l; [apply Pd, Hi|]. destruct (A i Hi). apply clip_nearest; assumption. }
  lra.
Qed.
