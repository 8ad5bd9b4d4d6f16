From Coq Require Import Reals List String Lia Lra Permutation Sorted.
From Verif Require Import Base.PyBase Model.Distributions Model.EvalStats Spec.EvalStatsSpec.
Import ListNotations.
Local Open Scope R_scope.

(** Sorting. *)
Lemma insert_perm : forall x l, Permutation (insert x l) (x :: l).
Proof. intros x l. induction l as [|y l IH]; cbn; [reflexivity|]. destruct (Rle_dec x y); [reflexivity|]. rewrite IH. apply perm_swap. Qed.
Lemma sort_perm : forall l, Permutation (sort l) l.
Proof. induction l as [|x l IH]; cbn; [reflexivity|]. rewrite insert_perm, IH. reflexivity. Qed.
Lemma insert_sorted : forall x l, StronglySorted Rle l -> StronglySorted Rle (insert x l).
Proof.
  intros x l. induction 1 as [|y l S IH F]; cbn; [repeat constructor|]. destruct (Rle_dec x y) as [L|L].
  - constructor; [constructor; assumption|]. constructor; [exact L|]. rewrite Forall_forall in *. intros z Z. specialize (F z Z). lra.
  - constructor; [exact IH|]. rewrite Forall_forall in *. intros z Z. apply (Permutation_in _ (insert_perm x l)) in Z. destruct Z as [<-|Z]; [lra|exact (F z Z)].
Qed.
Lemma sort_sorted : forall l, StronglySorted Rle (sort l).
Proof. induction l as [|x l IH]; cbn; [constructor|]. apply insert_sorted. exact IH. Qed.
Lemma sort_length : forall l, length (sort l) = length l.
Proof. intros l. apply Permutation_length, sort_perm. Qed.
Lemma insert_comm : forall x y l, insert x (insert y l) = insert y (insert x l).
Proof.
  intros x y l. induction l as [|z l IH]; cbn.
  - destruct (Rle_dec x y), (Rle_dec y x); try reflexivity; [|exfalso; lra]. assert (x = y) as -> by lra. reflexivity.
  - destruct (Rle_dec y z) as [A|A], (Rle_dec x z) as [B|B]; cbn.
    + destruct (Rle_dec x y) as [C|C], (Rle_dec y x) as [D|D]; cbn; try (exfalso; lra).
      * assert (x = y) as -> by lra. reflexivity.
      * destruct (Rle_dec y z); [reflexivity|contradiction].
      * destruct (Rle_dec x z); [reflexivity|contradiction].
    + destruct (Rle_dec x y); [exfalso; lra|]. destruct (Rle_dec x z); [contradiction|]. destruct (Rle_dec y z); [reflexivity|contradiction].
    + destruct (Rle_dec y x); [exfalso; lra|]. destruct (Rle_dec y z); [contradiction|]. destruct (Rle_dec x z); [reflexivity|contradiction].
    + destruct (Rle_dec x z); [contradiction|]. destruct (Rle_dec y z); [contradiction|]. rewrite IH. reflexivity.
Qed.
Lemma sort_unique : forall l m, Permutation l m -> sort l = sort m.
Proof. induction 1 as [|x l m P IH|x y l|l m k P1 IH1 P2 IH2]; cbn; [reflexivity|congruence|apply insert_comm|congruence]. Qed.
Lemma insert_head : forall x l, StronglySorted Rle (x :: l) -> insert x l = x :: l.
Proof. intros x [|y l] S; [reflexivity|]. cbn. inversion S as [|a b S1 F]; subst. inversion F; subst. destruct (Rle_dec x y); [reflexivity|contradiction]. Qed.
Lemma insert_mono : forall l m, Forall2 Rle l m -> StronglySorted Rle l -> StronglySorted Rle m -> forall x y, x <= y -> Forall2 Rle (insert x l) (insert y m).
Proof.
  induction 1 as [|a b l m AB F IH]; intros S1 S2 x y L; [cbn; constructor; [exact L|constructor]|].
  pose proof S1 as T1. pose proof S2 as T2. inversion S1 as [|? ? S3 F1]; subst. inversion S2 as [|? ? S4 F2]; subst. cbn.
  destruct (Rle_dec x a) as [A|A], (Rle_dec y b) as [B|B].
  - constructor; [exact L|]. constructor; [exact AB|exact F].
  - constructor; [lra|]. rewrite <- (insert_head _ _ T1). apply IH; [assumption|assumption|lra].
  - constructor; [lra|]. rewrite <- (insert_head _ _ T2). apply IH; [assumption|assumption|lra].
  - constructor; [lra|]. apply IH; assumption.
Qed.
Lemma sort_mono : forall l m, Forall2 Rle l m -> Forall2 Rle (sort l) (sort m).
Proof. induction 1 as [|x y l m L F IH]; cbn; [constructor|]. apply insert_mono; [exact IH|apply sort_sorted|apply sort_sorted|exact L]. Qed.
Lemma f2_nth : forall l m, Forall2 Rle l m -> forall k, nth k l 0 <= nth k m 0.
Proof. induction 1 as [|x y l m L F IH]; intros [|k]; cbn; try lra. apply IH. Qed.
Lemma f2_length : forall l m, Forall2 Rle l m -> length l = length m.
Proof. induction 1; cbn; congruence. Qed.
Lemma insert_map : forall a b x l, 0 < a -> insert (a * x + b) (map (fun x => a * x + b) l) = map (fun x => a * x + b) (insert x l).
Proof.
  intros a b x l A. induction l as [|y l IH]; cbn; [reflexivity|].
  destruct (Rle_dec (a * x + b) (a * y + b)) as [P|P], (Rle_dec x y) as [Q|Q]; cbn; try reflexivity.
  - exfalso. apply Q. apply Rmult_le_reg_l with a; lra.
  - exfalso. apply P. apply (Rmult_le_compat_l a) in Q; lra.
  - rewrite IH. reflexivity.
Qed.
Lemma sort_map : forall a b l, 0 < a -> sort (map (fun x => a * x + b) l) = map (fun x => a * x + b) (sort l).
Proof. intros a b l A. induction l as [|x l IH]; cbn; [reflexivity|]. rewrite IH. apply insert_map. exact A. Qed.

(** Sums. *)
Lemma fsum_perm : forall l m, Permutation l m -> fsum l = fsum m.
Proof. unfold fsum. induction 1; cbn; lra. Qed.
Lemma fsum_mono : forall l m, Forall2 Rle l m -> fsum l <= fsum m.
Proof. unfold fsum. induction 1; cbn; lra. Qed.
Lemma fsum_affine : forall a b l, fsum (map (fun x => a * x + b) l) = a * fsum l + INR (length l) * b.
Proof. unfold fsum. induction l as [|x l IH]; [cbn; ring|]. cbn [map fold_right length]. rewrite IH, S_INR. ring. Qed.
Lemma len_pos : forall (l : list R), l <> [] -> 0 < INR (length l).
Proof. intros [|x l] N; [congruence|]. apply lt_0_INR. cbn. lia. Qed.
Lemma fsum_within : forall l a b, (forall x, In x l -> a <= x <= b) -> INR (length l) * a <= fsum l <= INR (length l) * b.
Proof.
  unfold fsum. induction l as [|x l IH]; intros a b H; [cbn; lra|]. cbn [length fold_right]. rewrite S_INR.
  pose proof (H x (or_introl eq_refl)). specialize (IH a b (fun y Y => H y (or_intror Y))). lra.
Qed.
Lemma div_between : forall n s a b, 0 < n -> n * a <= s <= n * b -> a <= s / n <= b.
Proof. intros n s a b N [A B]. split; (apply Rmult_le_reg_l with n; [exact N|]); replace (n * (s / n)) with s by (field; lra); lra. Qed.

(** Extremes. *)
Lemma fold_max : forall xs x, is_max (fold_left Rmax xs x) (x :: xs).
Proof.
  induction xs as [|y xs IH]; intros x; cbn; [split; [left; reflexivity|intros z [<-|[]]; lra]|].
  destruct (IH (Rmax x y)) as [A B]. split.
  - destruct A as [E|E]; [|right; right; exact E]. rewrite <- E. unfold Rmax. destruct (Rle_dec x y); [right; left|left]; reflexivity.
  - pose proof (B (Rmax x y) (or_introl eq_refl)) as M. intros z [<-|[<-|Z]]; [pose proof (Rmax_l x y); lra|pose proof (Rmax_r x y); lra|apply B; right; exact Z].
Qed.
Lemma fold_min : forall xs x, is_min (fold_left Rmin xs x) (x :: xs).
Proof.
  induction xs as [|y xs IH]; intros x; cbn; [split; [left; reflexivity|intros z [<-|[]]; lra]|].
  destruct (IH (Rmin x y)) as [A B]. split.
  - destruct A as [E|E]; [|right; right; exact E]. rewrite <- E. unfold Rmin. destruct (Rle_dec x y); [left|right; left]; reflexivity.
  - pose proof (B (Rmin x y) (or_introl eq_refl)) as M. intros z [<-|[<-|Z]]; [pose proof (Rmin_l x y); lra|pose proof (Rmin_r x y); lra|apply B; right; exact Z].
Qed.
Lemma max_unique : forall xs a b, is_max a xs -> is_max b xs -> a = b.
Proof. intros xs a b [A1 A2] [B1 B2]. apply Rle_antisym; auto. Qed.
Lemma min_unique : forall xs a b, is_min a xs -> is_min b xs -> a = b.
Proof. intros xs a b [A1 A2] [B1 B2]. apply Rle_antisym; auto. Qed.

(** Counting in sorted lists. *)
Lemma count_perm : forall (p : R -> Prop) dec l m, Permutation l m -> count p dec l = count p dec m.
Proof. induction 1; cbn; lia. Qed.
Lemma count_app : forall (p : R -> Prop) dec l m, count p dec (l ++ m) = (count p dec l + count p dec m)%nat.
Proof. induction l as [|x l IH]; intros m; cbn; [reflexivity|]. rewrite IH. lia. Qed.
Lemma count_all : forall (p : R -> Prop) dec l, (forall x, In x l -> p x) -> count p dec l = length l.
Proof.
  induction l as [|x l IH]; intros H; cbn; [reflexivity|]. rewrite IH by (intros; apply H; right; assumption).
  destruct (dec x) as [_|N]; [reflexivity|]. exfalso. apply N, H. left. reflexivity.
Qed.
Lemma sorted_nth : forall l, StronglySorted Rle l -> forall i j, (i <= j)%nat -> (j < length l)%nat -> nth i l 0 <= nth j l 0.
Proof.
  induction 1 as [|x l S IH F]; intros i j I J; [cbn in J; lia|]. destruct i as [|i], j as [|j]; cbn in *; try lra; [|lia|apply IH; lia].
  rewrite Forall_forall in F. apply F, nth_In. lia.
Qed.
Lemma low_count : forall xs k m, (k < length xs)%nat -> nth k (sort xs) 0 <= m -> (S k <= at_most m xs)%nat.
Proof.
  intros xs k m K M. unfold at_most. rewrite <- (count_perm _ _ _ _ (sort_perm xs)). rewrite <- (firstn_skipn (S k) (sort xs)), count_app.
  rewrite (count_all _ _ (firstn (S k) (sort xs))).
  - rewrite firstn_length, sort_length. lia.
  - intros x X. apply (In_nth _ _ 0) in X. destruct X as (i & I & <-). rewrite firstn_length, sort_length in I.
    assert (E : nth i (firstn (S k) (sort xs)) 0 = nth i (sort xs) 0).
    { rewrite <- (firstn_skipn (S k) (sort xs)) at 2. rewrite app_nth1; [reflexivity|]. rewrite firstn_length, sort_length. lia. }
    rewrite E. pose proof (sorted_nth _ (sort_sorted xs) i k ltac:(lia) ltac:(rewrite sort_length; lia)). lra.
Qed.
Lemma high_count : forall xs k m, (k < length xs)%nat -> m <= nth k (sort xs) 0 -> (length xs - k <= at_least m xs)%nat.
Proof.
  intros xs k m K M. unfold at_least. rewrite <- (count_perm _ _ _ _ (sort_perm xs)). rewrite <- (firstn_skipn k (sort xs)), count_app.
  rewrite (count_all _ _ (skipn k (sort xs))).
  - rewrite skipn_length, sort_length. lia.
  - intros x X. apply (In_nth _ _ 0) in X. destruct X as (i & I & <-). rewrite skipn_length, sort_length in I.
    assert (E : nth i (skipn k (sort xs)) 0 = nth (k + i) (sort xs) 0).
    { rewrite <- (firstn_skipn k (sort xs)) at 2. rewrite app_nth2; rewrite firstn_length, sort_length; [f_equal; lia|lia]. }
    rewrite E. pose proof (sorted_nth _ (sort_sorted xs) k (k + i)%nat ltac:(lia) ltac:(rewrite sort_length; lia)). lra.
Qed.

Definition middle (xs : list R) : R :=
  let n := length xs in if Nat.eqb (n mod 2) 1 then nth (n / 2) (sort xs) 0 else (nth (n / 2 - 1) (sort xs) 0 + nth (n / 2) (sort xs) 0) / 2.
Lemma median_ok : forall xs, xs <> [] -> st_median xs = Ok (middle xs).
Proof. intros [|x xs] N; [congruence|]. unfold st_median, middle. cbn [length Nat.eqb]. destruct (Nat.eqb _ 1); reflexivity. Qed.
Lemma middle_nth : forall xs, xs <> [] -> exists i j, (i <= j < length xs)%nat /\ (length xs <= 2 * S i)%nat /\ (2 * j <= length xs)%nat /\ nth i (sort xs) 0 <= middle xs <= nth j (sort xs) 0.
Proof.
  intros xs N. assert (P : (0 < length xs)%nat) by (destruct xs; [congruence|cbn; lia]). pose proof (Nat.div_mod (length xs) 2 ltac:(lia)) as D. pose proof (Nat.mod_upper_bound (length xs) 2 ltac:(lia)) as U.
  unfold middle. destruct (Nat.eqb_spec (length xs mod 2) 1) as [E|E].
  - exists (length xs / 2)%nat, (length xs / 2)%nat. repeat split; try lia; lra.
  - exists (length xs / 2 - 1)%nat, (length xs / 2)%nat. repeat split; try lia;
    pose proof (sorted_nth _ (sort_sorted xs) (length xs / 2 - 1)%nat (length xs / 2)%nat ltac:(lia) ltac:(rewrite sort_length; lia)); lra.
Qed.
Lemma middle_median : forall xs, xs <> [] -> is_median (middle xs) xs.
Proof.
  intros xs N. destruct (middle_nth xs N) as (i & j & IJ & I & J & L & H). split.
  - pose proof (low_count xs i _ ltac:(lia) L). lia.
  - pose proof (high_count xs j _ ltac:(lia) H). lia.
Qed.
Lemma middle_within : forall xs a b, xs <> [] -> (forall x, In x xs -> a <= x <= b) -> a <= middle xs <= b.
Proof.
  intros xs a b N H. destruct (middle_nth xs N) as (i & j & IJ & _ & _ & L & U).
  assert (A : forall k, (k < length xs)%nat -> a <= nth k (sort xs) 0 <= b).
  { intros k K. apply H. apply (Permutation_in _ (sort_perm xs)). apply nth_In. rewrite sort_length. exact K. }
  pose proof (A i ltac:(lia)). pose proof (A j ltac:(lia)). lra.
Qed.

(** Standard deviation. *)
Definition mean_of (xs : list R) : R := fsum xs / INR (length xs).
Definition squares (xs : list R) : R := fsum (map (fun x => (x - mean_of xs) * (x - mean_of xs)) xs).
Definition dev (xs : list R) : R := if Nat.leb 2 (length xs) then sqrt (squares xs / (INR (length xs) - 1)) else 0.
Lemma sq_nonneg : forall (f : R -> R) l, 0 <= fsum (map (fun x => f x * f x) l).
Proof. unfold fsum. intros f l. induction l as [|x l IH]; cbn; [lra|]. pose proof (Rle_0_sqr (f x)) as S. unfold Rsqr in S. lra. Qed.
Lemma sq_zero : forall (f : R -> R) l, fsum (map (fun x => f x * f x) l) = 0 -> forall x, In x l -> f x = 0.
Proof.
  intros f l. induction l as [|y l IH]; intros Z x X; [destruct X|]. unfold fsum in *. cbn in Z. pose proof (sq_nonneg f l) as S. unfold fsum in S.
  pose proof (Rle_0_sqr (f y)) as Y. unfold Rsqr in Y. destruct X as [<-|X].
  - apply Rsqr_0_uniq. unfold Rsqr. lra.
  - apply IH; [lra|exact X].
Qed.
Lemma mean_same : forall xs c, xs <> [] -> (forall x, In x xs -> x = c) -> mean_of xs = c.
Proof.
  intros xs c N H. unfold mean_of. pose proof (fsum_within xs c c (fun x X => ltac:(rewrite (H x X); lra))) as W.
  pose proof (div_between _ _ c c (len_pos xs N) W). lra.
Qed.
Lemma same_squares : forall xs, all_same xs -> squares xs = 0.
Proof.
  intros xs A. unfold squares. assert (Z : forall x, In x xs -> x - mean_of xs = 0).
  { intros x X. rewrite (mean_same xs x); [lra|intros ->; destruct X|]. intros y Y. apply A; assumption. }
  revert Z. generalize (mean_of xs). intros c Z. unfold fsum. clear A. induction xs as [|x xs IH]; cbn; [reflexivity|].
  rewrite IH by (intros; apply Z; right; assumption). rewrite (Z x (or_introl eq_refl)). lra.
Qed.
Lemma dev_nonneg : forall xs, 0 <= dev xs.
Proof. intros xs. unfold dev. destruct (Nat.leb 2 (length xs)); [apply sqrt_pos|lra]. Qed.
Lemma dev_zero : forall xs, dev xs = 0 <-> all_same xs.
Proof.
  intros xs. unfold dev. destruct (Nat.leb_spec 2 (length xs)) as [L|L].
  - assert (P : 0 < INR (length xs) - 1) by (apply le_INR in L; cbn in L; lra). split; intros H.
    + apply sqrt_eq_0 in H.
      * assert (Z : squares xs = 0) by (apply (Rmult_eq_compat_r (INR (length xs) - 1)) in H; unfold Rdiv in H; rewrite Rmult_assoc, Rinv_l in H; lra).
        pose proof (sq_zero _ _ Z) as E. intros x y X Y. pose proof (E x X). pose proof (E y Y). cbn beta in *. lra.
      * apply Rmult_le_pos; [apply (sq_nonneg (fun x => x - mean_of xs))|]. left. apply Rinv_0_lt_compat. exact P.
    + rewrite (same_squares xs H). unfold Rdiv. rewrite Rmult_0_l. apply sqrt_0.
  - split; [|reflexivity]. intros _ x y X Y. destruct xs as [|a [|b xs]]; [destruct X| |cbn in L; lia]. destruct X as [<-|[]], Y as [<-|[]]. reflexivity.
Qed.

(** All statistics. *)
Definition top (xs : list R) : R := match xs with [] => 0 | x :: xs => fold_left Rmax xs x end.
Definition bottom (xs : list R) : R := match xs with [] => 0 | x :: xs => fold_left Rmin xs x end.
Lemma stats_ok : forall xs, xs <> [] -> eval_stats xs = Ok (mk_stats (length xs) (mean_of xs) (middle xs) (dev xs) (top xs) (bottom xs)).
Proof.
  intros xs N. unfold eval_stats. rewrite (median_ok xs N). unfold dev, st_stdev, squares, mean_of. destruct xs as [|x xs]; [congruence|]. cbn [st_mean bind np_max np_min].
  rewrite Nat.ltb_antisym. destruct (Nat.leb 2 (length (x :: xs))); reflexivity.
Qed.
Lemma top_max : forall xs, xs <> [] -> is_max (top xs) xs.
Proof. intros [|x xs] N; [congruence|]. apply fold_max. Qed.
Lemma bottom_min : forall xs, xs <> [] -> is_min (bottom xs) xs.
Proof. intros [|x xs] N; [congruence|]. apply fold_min. Qed.
Lemma between : forall xs, xs <> [] -> forall x, In x xs -> bottom xs <= x <= top xs.
Proof. intros xs N x X. split; [apply (bottom_min xs N)|apply (top_max xs N)]; exact X. Qed.
Lemma stats_spec : forall xs, xs <> [] -> exists s, eval_stats xs = Ok s /\
  s_episodes s = length xs /\ s_mean s = fsum xs / INR (length xs) /\ is_median (s_median s) xs /\ is_max (s_max s) xs /\ is_min (s_min s) xs /\
  s_min s <= s_mean s <= s_max s /\ s_min s <= s_median s <= s_max s /\ 0 <= s_stdev s /\ (s_stdev s = 0 <-> all_same xs) /\
  ((2 <= length xs)%nat -> s_stdev s * s_stdev s = fsum (map (fun x => (x - s_mean s) * (x - s_mean s)) xs) / INR (length xs - 1)).
Proof.
  intros xs N. eexists. split; [exact (stats_ok xs N)|]. cbn [s_episodes s_mean s_median s_stdev s_max s_min].
  split; [reflexivity|]. split; [reflexivity|]. split; [exact (middle_median xs N)|]. split; [exact (top_max xs N)|]. split; [exact (bottom_min xs N)|].
  split; [exact (div_between _ _ _ _ (len_pos xs N) (fsum_within xs _ _ (between xs N)))|]. split; [exact (middle_within xs _ _ N (between xs N))|].
  split; [apply dev_nonneg|]. split; [apply dev_zero|]. intros L. unfold dev. destruct (Nat.leb_spec 2 (length xs)) as [_|B]; [|lia].
  assert (P : 0 < INR (length xs) - 1) by (apply le_INR in L; cbn in L; lra).
  rewrite sqrt_sqrt; [rewrite minus_INR by lia; reflexivity|]. apply Rmult_le_pos; [apply (sq_nonneg (fun x => x - mean_of xs))|]. left. apply Rinv_0_lt_compat. exact P.
Qed.
Lemma map_perm_sum : forall (f : R -> R) l m, Permutation l m -> fsum (map f l) = fsum (map f m).
Proof. intros f l m P. apply fsum_perm, Permutation_map, P. Qed.
Lemma stats_perm : forall xs ys, Permutation xs ys -> eval_stats xs = eval_stats ys.
Proof.
  intros xs ys P. assert (C : xs = [] \/ xs <> []) by (destruct xs; [left; reflexivity|right; congruence]). destruct C as [->|N]; [apply Permutation_nil in P; subst; reflexivity|].
  assert (M : ys <> []) by (intros ->; apply Permutation_sym, Permutation_nil in P; congruence).
  rewrite (stats_ok xs N), (stats_ok ys M). pose proof (Permutation_length P) as L. pose proof (fsum_perm _ _ P) as S.
  assert (E : mean_of xs = mean_of ys) by (unfold mean_of; rewrite S, L; reflexivity).
  assert (E2 : middle xs = middle ys) by (unfold middle; rewrite (sort_unique _ _ P), L; reflexivity).
  assert (E3 : dev xs = dev ys) by (unfold dev, squares; rewrite E, L, (map_perm_sum _ _ _ P); reflexivity).
  assert (E4 : top xs = top ys).
  { apply (max_unique ys); [|exact (top_max ys M)]. destruct (top_max xs N) as [A B]. split; [exact (Permutation_in _ P A)|].
    intros x X. apply B. exact (Permutation_in _ (Permutation_sym P) X). }
  assert (E5 : bottom xs = bottom ys).
  { apply (min_unique ys); [|exact (bottom_min ys M)]. destruct (bottom_min xs N) as [A B]. split; [exact (Permutation_in _ P A)|].
    intros x X. apply B. exact (Permutation_in _ (Permutation_sym P) X). }
  rewrite E, E2, E3, E4, E5, L. reflexivity.
Qed.
Lemma f2_in : forall l m, Forall2 Rle l m -> (forall x, In x l -> exists y, In y m /\ x <= y) /\ (forall y, In y m -> exists x, In x l /\ x <= y).
Proof.
  induction 1 as [|a b l m L F [IH1 IH2]]; [split; intros x []|]. split.
  - intros x [<-|X]; [exists b; split; [left; reflexivity|exact L]|]. destruct (IH1 x X) as (y & Y & E). exists y. split; [right; exact Y|exact E].
  - intros y [<-|Y]; [exists a; split; [left; reflexivity|exact L]|]. destruct (IH2 y Y) as (x & X & E). exists x. split; [right; exact X|exact E].
Qed.
Lemma stats_mono : forall xs ys s t, Forall2 Rle xs ys -> eval_stats xs = Ok s -> eval_stats ys = Ok t ->
  s_mean s <= s_mean t /\ s_median s <= s_median t /\ s_max s <= s_max t /\ s_min s <= s_min t.
Proof.
  intros xs ys s t F HS HT. pose proof (f2_length _ _ F) as L.
  assert (N : xs <> []) by (intros ->; discriminate). assert (M : ys <> []) by (intros ->; discriminate).
  rewrite (stats_ok xs N) in HS. rewrite (stats_ok ys M) in HT.
  assert (s = mk_stats (length xs) (mean_of xs) (middle xs) (dev xs) (top xs) (bottom xs)) as -> by congruence.
  assert (t = mk_stats (length ys) (mean_of ys) (middle ys) (dev ys) (top ys) (bottom ys)) as -> by congruence. cbn [s_mean s_median s_max s_min].
  destruct (f2_in _ _ F) as [U D]. split; [|split; [|split]].
  - unfold mean_of. rewrite <- L. apply Rmult_le_compat_r; [left; apply Rinv_0_lt_compat, len_pos, N|apply fsum_mono, F].
  - unfold middle. rewrite <- L. pose proof (f2_nth _ _ (sort_mono _ _ F)) as K.
    pose proof (K (length xs / 2)%nat). pose proof (K (length xs / 2 - 1)%nat). destruct (Nat.eqb _ 1); lra.
  - destruct (top_max xs N) as [A _]. destruct (U _ A) as (y & Y & E). pose proof (proj2 (top_max ys M) y Y). lra.
  - destruct (bottom_min ys M) as [A _]. destruct (D _ A) as (x & X & E). pose proof (proj2 (bottom_min xs N) x X). lra.
Qed.
Lemma stats_affine : forall a b xs s, 0 < a -> eval_stats xs = Ok s ->
  eval_stats (map (fun x => a * x + b) xs) =
  Ok (mk_stats (s_episodes s) (a * s_mean s + b) (a * s_median s + b) (a * s_stdev s) (a * s_max s + b) (a * s_min s + b)).
Proof.
  intros a b xs s A HS. assert (N : xs <> []) by (intros ->; discriminate). rewrite (stats_ok xs N) in HS.
  assert (s = mk_stats (length xs) (mean_of xs) (middle xs) (dev xs) (top xs) (bottom xs)) as -> by congruence. cbn [s_episodes s_mean s_median s_stdev s_max s_min].
  set (f := fun x => a * x + b). assert (M : map f xs <> []) by (destruct xs; cbn; congruence).
  rewrite (stats_ok _ M), map_length. pose proof (len_pos xs N) as P.
  assert (E : mean_of (map f xs) = a * mean_of xs + b) by (unfold mean_of, f; rewrite fsum_affine, map_length; field; lra).
  assert (K : forall k, (k < length xs)%nat -> nth k (sort (map f xs)) 0 = a * nth k (sort xs) 0 + b).
  { intros k H. unfold f. rewrite (sort_map a b xs A). rewrite (nth_indep _ 0 (a * 0 + b)) by (rewrite map_length, sort_length; exact H). exact (map_nth (fun x => a * x + b) (sort xs) 0 k). }
  assert (Q : (0 < length xs)%nat) by (destruct xs; [congruence|cbn; lia]). pose proof (Nat.div_mod (length xs) 2 ltac:(lia)) as DM. pose proof (Nat.mod_upper_bound (length xs) 2 ltac:(lia)) as UB.
  assert (E2 : middle (map f xs) = a * middle xs + b).
  { unfold middle. rewrite map_length, !K by lia. destruct (Nat.eqb _ 1); [reflexivity|field]. }
  assert (E3 : dev (map f xs) = a * dev xs).
  { unfold dev. rewrite map_length. destruct (Nat.leb_spec 2 (length xs)) as [L|L]; [|lra].
    assert (G : squares (map f xs) = a * a * squares xs).
    { unfold squares. rewrite E. generalize (mean_of xs). intros m. rewrite map_map. unfold f, fsum. clear. induction xs as [|x xs IH]; cbn; [ring|]. rewrite IH. ring. }
    rewrite G. assert (P2 : 0 < INR (length xs) - 1) by (apply le_INR in L; cbn in L; lra).
    assert (Z : 0 <= squares xs / (INR (length xs) - 1)) by (apply Rmult_le_pos; [apply (sq_nonneg (fun x => x - mean_of xs))|left; apply Rinv_0_lt_compat; exact P2]).
    replace (a * a * squares xs / (INR (length xs) - 1)) with (a * a * (squares xs / (INR (length xs) - 1))) by (field; lra).
    rewrite sqrt_mult; [|nra|exact Z]. rewrite sqrt_square by lra. reflexivity. }
  assert (E4 : top (map f xs) = a * top xs + b).
  { apply (max_unique (map f xs)); [exact (top_max _ M)|]. destruct (top_max xs N) as [T1 T2]. split; [exact (in_map f _ _ T1)|].
    intros y Y. apply in_map_iff in Y. destruct Y as (x & <- & X). unfold f. pose proof (Rmult_le_compat_l a _ _ (Rlt_le _ _ A) (T2 x X)). lra. }
  assert (E5 : bottom (map f xs) = a * bottom xs + b).
  { apply (min_unique (map f xs)); [exact (bottom_min _ M)|]. destruct (bottom_min xs N) as [T1 T2]. split; [exact (in_map f _ _ T1)|].
    intros y Y. apply in_map_iff in Y. destruct Y as (x & <- & X). unfold f. pose proof (Rmult_le_compat_l a _ _ (Rlt_le _ _ A) (T2 x X)). lra. }
  rewrite E, E2, E3, E4, E5. reflexivity.
Qed.

(** The table. *)
Lemma row_arity : forall t e el s (st0 st1 : list (string * R)), map fst st0 = map fst st1 -> length (row t e el s st1) = length (header st0).
Proof. intros. unfold row, header. rewrite H. rewrite !app_length, !map_length. reflexivity. Qed.

(** Evaluations. *)
From Verif Require Import Base.Effects Model.Evaluator Spec.EvalEpisodesSpec Spec.BatchEvalSpec Proofs.EvalEpisodesProofs Proofs.BatchEvalProofs.
Lemma single_scores : forall (Obs Act : Type) (w : @vworld Obs Act R) b maxlen fuel scores tr, positive b ->
  run_evaluation_episodes 0 Rplus w b maxlen fuel [] = (Ok scores, tr) -> scores <> [].
Proof.
  intros Obs Act w b maxlen fuel scores tr P H. pose proof (run_evaluation_ok 0 Rplus w b maxlen fuel P) as W. rewrite H in W.
  destruct W as (p & _ & _ & gs & part & _ & _ & -> & B & C). destruct gs as [|g gs]; [|cbn; congruence].
  destruct C as [->|(g & -> & _)]; [|cbn; congruence]. destruct b as [n|n]; cbn in B, P; lia.
Qed.
Lemma batch_scores : forall (Obs Act : Type) (w : @wworld Obs Act R) b maxlen N fuel scores tr, (1 <= N)%nat -> positive b ->
  (forall tr xs, ww_step w tr = Ok xs -> length xs = N) ->
  batch_run_evaluation_episodes 0 Rplus w b maxlen N fuel [] = (Ok scores, tr) -> scores <> [].
Proof.
  intros Obs Act w b maxlen N fuel scores tr HN P Hw H.
  assert (P2 : match b with ForSteps n => (1 <= n)%Z | ForEpisodes n => (0 <= n)%Z end) by (destruct b; cbn in P; lia).
  pose proof (batch_eval_ok 0 Rplus maxlen b HN P2 w Hw fuel) as W. rewrite H in W. cbv zeta in W. destruct W as (_ & U & Rp & _).
  destruct b as [n|n]; cbn [reported used_up positive] in *.
  - destruct Rp as [(k & K & (L & _) & _ & _ & ->)|(e & rest & _ & _ & _ & ->)]; [|congruence].
    destruct (started_after maxlen N (firstn (length (answers tr)) (answers tr))) as [|e eps]; [cbn in L; lia|]. destruct k; [lia|]. cbn. congruence.
  - subst scores. destruct U as [L _]. destruct (Z.to_nat n) as [|k] eqn:E; [lia|].
    destruct (started_after maxlen N (firstn (length (answers tr)) (answers tr))) as [|e eps]; [cbn in L; lia|]. cbn. congruence.
Qed.
Lemma cell_in : forall names vals name v, length names = length vals -> NoDup names -> In (name, v) (combine names vals) -> cell name names vals = Some v.
Proof.
  induction names as [|h names IH]; intros [|x vals] name v L D I; cbn in *; try contradiction. inversion D as [|? ? N D2]; subst. destruct I as [E|I].
  - assert (h = name) as -> by congruence. assert (x = v) as -> by congruence. destruct (string_dec name name); [reflexivity|congruence].
  - destruct (string_dec name h) as [->|_]; [|apply IH; [lia|exact D2|exact I]]. exfalso. apply N. exact (in_combine_l _ _ _ _ I).
Qed.
Lemma combine_pairs : forall (st : list (string * R)), combine (map fst st) (map snd st) = st.
Proof. induction st as [|[n v] st IH]; cbn; [reflexivity|]. rewrite IH. reflexivity. Qed.
Lemma combine_two : forall (A B : Type) (a1 a2 : list A) (b1 b2 : list B), length a1 = length b1 -> combine (a1 ++ a2) (b1 ++ b2) = combine a1 b1 ++ combine a2 b2.
Proof. induction a1 as [|x a1 IH]; intros a2 [|y b1] b2 L; cbn in *; try lia; [reflexivity|]. rewrite IH by lia. reflexivity. Qed.
Lemma table : forall t e el s (st0 st1 : list (string * R)), map fst st0 = map fst st1 -> NoDup (header st0) ->
  length (row t e el s st1) = length (header st0) /\
  (forall name v, In (name, v) ([("steps", t); ("episodes", e); ("elapsed", el); ("mean", s_mean s); ("median", s_median s); ("stdev", s_stdev s); ("max", s_max s); ("min", s_min s)]%string ++ st1) ->
     cell name (header st0) (row t e el s st1) = Some v).
Proof.
  intros t e el s st0 st1 E D. pose proof (row_arity t e el s st0 st1 E) as L. split; [exact L|]. intros name v I. apply cell_in; [symmetry; exact L|exact D|].
  unfold header, row in *. rewrite E. rewrite combine_two by reflexivity. rewrite combine_pairs. exact I.
Qed.
