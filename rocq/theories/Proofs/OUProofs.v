From Coq Require Import Reals Lra Lia.
From Verif Require Import Base.PyBase Model.ActionMaps Spec.ActionSpec Proofs.ActionMapsProofs.
Set Implicit Arguments.
Local Open Scope R_scope.

Lemma zipw_nth : forall (f : R -> R -> R) xs ys zs, zipw f xs ys = Ok zs -> length xs = length ys ->
  length zs = length xs /\ forall i, (i < length xs)%nat -> nth i zs 0 = f (nth i xs 0) (nth i ys 0).
Proof.
  intros f xs ys zs H L. destruct (@zipw_ok _ _ _ f xs ys L) as (zs' & E & Lz & N). rewrite E in H. injection H as <-.
  split; [exact Lz|]. intros i Hi.
  destruct (@nth_some _ xs i) as (x & Ex); [exact Hi|]. destruct (@nth_some _ ys i) as (y & Ey); [lia|].
  rewrite (nth_error_nth _ _ 0 (N _ _ _ Ex Ey)), (nth_error_nth _ _ 0 Ex), (nth_error_nth _ _ 0 Ey). reflexivity.
Qed.
Lemma zipw_total : forall (f : R -> R -> R) xs ys, length xs = length ys -> exists zs, zipw f xs ys = Ok zs.
Proof. intros f xs ys L. destruct (@zipw_ok _ _ _ f xs ys L) as (zs & E & _). eauto. Qed.

Lemma nth_const : forall (c : R) (l : list R) i, (i < length l)%nat -> nth i (map (fun _ => c) l) 0 = c.
Proof. intros c. induction l as [|x l IH]; intros [|i] H; cbn in *; try lia; auto. apply IH. lia. Qed.

Section OU.
Variable p : ou.
Notation mu := (ou_mu p).
Notation theta := (ou_theta p).
Notation sigma := (ou_sigma p).


Lemma ou_tail : forall d calls x, Forall (wide d) calls -> length x = d ->
  exists s bs, ou_run p (Some x) calls = Ok (s, bs) /\ length bs = length calls /\
    forall k i, (k < length calls)%nat -> (i < d)%nat ->
      nth i (nth k bs []) 0 = acti calls k i
        + (mu + (1 - theta) ^ (S k) * (nth i x 0 - mu)
           + sum_f_R0 (fun j => (1 - theta) ^ (k - j) * sigma * zi calls j i) k).
Proof.
  intros d calls. induction calls as [|[a z] calls IH]; intros x Hw Hx.
  - exists (Some x), []. split; [reflexivity|]. split; [reflexivity|]. intros k i Hk. cbn in Hk. lia.
  - inversion Hw as [|? ? [Ha Hz] Hw']; subst. cbn [fst snd] in *.
    set (f := fun x z => x + (theta * (mu - x) + sigma * z)).
    destruct (@zipw_total f x z) as (x' & Ex'); [lia|].
    destruct (@zipw_nth f _ _ _ Ex') as [Lx' Nx']; [lia|].
    destruct (@zipw_total Rplus a x') as (b & Eb); [lia|].
    destruct (@zipw_nth Rplus _ _ _ Eb) as [Lb Nb]; [lia|].
    destruct (IH x' Hw' ltac:(lia)) as (s & bs & E & Lbs & Nbs).
    exists s, (b :: bs). cbn [ou_run]. unfold ou_select. fold f. rewrite Ex'. cbn [bind]. rewrite Eb. cbn [bind].
    rewrite E. cbn [bind]. split; [reflexivity|]. split; [cbn; lia|].
    intros [|k] i Hk Hi.
    + cbn [nth]. rewrite Nb by lia. rewrite Nx' by lia. unfold acti, zi, f. cbn [nth fst snd sum_f_R0 Nat.sub pow]. ring.
    + cbn [nth]. cbn [length] in Hk. rewrite Nbs by lia.
      change (acti ((a, z) :: calls) (S k) i) with (acti calls k i). rewrite Nx' by lia.
      rewrite (decomp_sum (fun j => (1 - theta) ^ (S k - j) * sigma * zi ((a, z) :: calls) j i)) by lia.
      cbn [Nat.pred].
      match goal with |- context [_ + sum_f_R0 ?F k] =>
        lazymatch F with context [(_ :: _)] => change (sum_f_R0 F k) with (sum_f_R0 (fun j => (1 - theta) ^ (k - j) * sigma * zi calls j i) k) end end.
      change (zi ((a, z) :: calls) 0 i) with (nth i z 0). unfold f. rewrite Nat.sub_0_r. cbn [pow]. ring.
Qed.

Definition ou_first : R :=
  if ou_start_with_mu p then 0 else sigma / sqrt (2 * theta - theta ^ 2).

Lemma ou_closed_form : forall d calls, Forall (wide d) calls ->
  exists s bs, ou_run p None calls = Ok (s, bs) /\ length bs = length calls /\
    forall k i, (k < length calls)%nat -> (i < d)%nat ->
      nth i (nth k bs []) 0 = acti calls k i + ou_noise mu theta sigma ou_first (fun j => zi calls j i) k.
Proof.
  intros d [|[a z] calls] Hw.
  - exists None, []. split; [reflexivity|]. split; [reflexivity|]. intros k i Hk. cbn in Hk. lia.
  - inversion Hw as [|? ? [Ha Hz] Hw']; subst. cbn [fst snd] in *.
    assert (exists x0, (if ou_start_with_mu p then Ok (map (fun _ => mu) a)
        else zipw (fun _ z => mu + sigma / sqrt (2 * theta - theta ^ 2) * z) a z) = Ok x0 /\ length x0 = length a /\
        forall i, (i < length a)%nat -> nth i x0 0 = mu + ou_first * nth i z 0) as (x0 & E0 & L0 & N0).
    { unfold ou_first. destruct (ou_start_with_mu p).
      - exists (map (fun _ => mu) a). split; [reflexivity|]. split; [apply map_length|]. intros i Hi.
        rewrite nth_const by exact Hi. ring.
      - set (g := fun _ z : R => mu + sigma / sqrt (2 * theta - theta ^ 2) * z).
        destruct (@zipw_total g a z) as (x0 & E); [lia|]. destruct (@zipw_nth g _ _ _ E) as [L N]; [lia|].
        exists x0. split; [exact E|]. split; [exact L|]. intros i Hi. rewrite N by exact Hi. reflexivity. }
    destruct (@zipw_total Rplus a x0) as (b & Eb); [lia|]. destruct (@zipw_nth Rplus _ _ _ Eb) as [Lb Nb]; [lia|].
    destruct (@ou_tail (length a) calls x0 Hw' L0) as (s & bs & E & Lbs & Nbs).
    exists s, (b :: bs). cbn [ou_run]. unfold ou_select. rewrite E0. cbn [bind]. rewrite Eb. cbn [bind]. rewrite E.
    cbn [bind]. split; [reflexivity|]. split; [cbn; lia|].
    intros [|k] i Hk Hi.
    + cbn [nth]. rewrite Nb, N0 by lia. unfold ou_noise, ou_coef, acti, zi. cbn [nth fst snd sum_f_R0 pow]. ring.
    + cbn [nth]. cbn [length] in Hk. rewrite Nbs by lia. rewrite N0 by lia.
      change (acti ((a, z) :: calls) (S k) i) with (acti calls k i). unfold ou_noise.
      rewrite (decomp_sum (fun j => ou_coef theta sigma ou_first (S k) j * zi ((a, z) :: calls) j i)) by lia.
      cbn [Nat.pred].
      rewrite (sum_eq (fun i0 => ou_coef theta sigma ou_first (S k) (S i0) * zi ((a, z) :: calls) (S i0) i)
                      (fun j => (1 - theta) ^ (k - j) * sigma * zi calls j i)).
      2: { intros j Hj. unfold ou_coef. replace (S j <=? S k)%nat with true by (symmetry; apply Nat.leb_le; lia).
           reflexivity. }
      change (zi ((a, z) :: calls) 0 i) with (nth i z 0). unfold ou_coef at 1. ring.
Qed.
End OU.

(** ** Covariances *)
Lemma coef_step : forall theta sigma first k j, (j <= k)%nat ->
  ou_coef theta sigma first (S k) j = (1 - theta) * ou_coef theta sigma first k j.
Proof.
  intros theta sigma first k [|j] Hj; unfold ou_coef; [cbn [pow]; ring|].
  replace (S j <=? S k)%nat with true by (symmetry; apply Nat.leb_le; lia).
  replace (S j <=? k)%nat with true by (symmetry; apply Nat.leb_le; lia).
  replace (S k - S j)%nat with (S (k - S j)) by lia. cbn [pow]. ring.
Qed.
Lemma coef_new : forall theta sigma first k m, ou_coef theta sigma first (S k + m) (S k) = (1 - theta) ^ m * sigma.
Proof.
  intros. unfold ou_coef. replace (S k <=? S k + m)%nat with true by (symmetry; apply Nat.leb_le; lia).
  replace (S k + m - S k)%nat with m by lia. reflexivity.
Qed.

Lemma cov_general : forall theta sigma first m k, 2 * theta - theta ^ 2 <> 0 ->
  ou_cov theta sigma first k (k + m)
  = (1 - theta) ^ m * ((1 - theta) ^ (2 * k) * first ^ 2
     + sigma ^ 2 / (2 * theta - theta ^ 2) * (1 - (1 - theta) ^ (2 * k))).
Proof.
  intros theta sigma first m k H. unfold ou_cov. rewrite Nat.min_l by lia. induction k as [|k IH].
  - cbn [sum_f_R0 Nat.add Nat.mul]. unfold ou_coef. cbn [pow]. field. cbn [pow] in H. rewrite Rmult_1_r in H. exact H.
  - cbn [sum_f_R0].
    rewrite (sum_eq _ (fun j => (ou_coef theta sigma first k j * ou_coef theta sigma first (k + m) j) * ((1 - theta) * (1 - theta)))).
    2: { intros j Hj. rewrite coef_step by lia. change (S k + m)%nat with (S (k + m)). rewrite (@coef_step _ _ _ (k + m)) by lia. ring. }
    rewrite <- scal_sum, IH. rewrite coef_new. replace (ou_coef theta sigma first (S k) (S k)) with sigma.
    2: { pose proof (coef_new theta sigma first k 0) as E. rewrite Nat.add_0_r in E. rewrite E. cbn [pow]. ring. }
    replace (2 * S k)%nat with (S (S (2 * k))) by lia. cbn [pow] in *. rewrite Rmult_1_r in H. field. exact H.
Qed.

Lemma ou_stationary : forall theta sigma k m, 0 < theta < 2 ->
  ou_cov theta sigma (sigma / sqrt (2 * theta - theta ^ 2)) k (k + m)
  = (1 - theta) ^ m * (sigma ^ 2 / (2 * theta - theta ^ 2)).
Proof.
  intros theta sigma k m H. assert (0 < 2 * theta - theta ^ 2) as Hp by (cbn [pow]; nra).
  rewrite cov_general by lra.
  replace ((sigma / sqrt (2 * theta - theta ^ 2)) ^ 2) with (sigma ^ 2 / (2 * theta - theta ^ 2)); [ring|].
  unfold Rdiv. rewrite Rpow_mult_distr, <- Rinv_pow by (apply Rgt_not_eq; apply sqrt_lt_R0; exact Hp).
  rewrite pow2_sqrt by lra. reflexivity.
Qed.
Lemma ou_from_mu : forall theta sigma k, 2 * theta - theta ^ 2 <> 0 ->
  ou_cov theta sigma 0 k k = sigma ^ 2 / (2 * theta - theta ^ 2) * (1 - (1 - theta) ^ (2 * k)).
Proof. intros theta sigma k H. rewrite <- (Nat.add_0_r k) at 2. rewrite cov_general by exact H. cbn [pow]. ring. Qed.
