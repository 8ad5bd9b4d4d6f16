From Coq Require Import Reals List Arith String Bool Lia Lra.
From Verif Require Import Base.PyBase Model.Quadratic Model.Initializers Spec.SumSpec Spec.InitializerSpec Proofs.RSumFacts.
Import ListNotations.
Local Open Scope R_scope.

Lemma below_plus : forall n f g, sum_below n (fun i => f i + g i) = sum_below n f + sum_below n g.
Proof. induction n; intros; cbn; [ring|]. rewrite IHn. ring. Qed.
Lemma below_zero : forall n, sum_below n (fun _ => 0) = 0.
Proof. induction n; cbn; [reflexivity|]. rewrite IHn. ring. Qed.
Lemma below_swap : forall n m f, sum_below n (fun i => sum_below m (fun j => f i j)) = sum_below m (fun j => sum_below n (fun i => f i j)).
Proof. induction n; intros m f; cbn; [rewrite below_zero; reflexivity|]. rewrite IHn, <- below_plus. reflexivity. Qed.
Lemma below_nonneg : forall n f, (forall i, (i < n)%nat -> 0 <= f i) -> 0 <= sum_below n f.
Proof. induction n; intros f H; cbn; [lra|]. pose proof (H n ltac:(lia)). pose proof (IHn f ltac:(intros; apply H; lia)). lra. Qed.
Lemma below_delta : forall n i f, (i < n)%nat -> sum_below n (fun j => delta i j * f j) = f i.
Proof.
  induction n; intros i f H; [lia|]. cbn [sum_below]. unfold delta at 2. destruct (Nat.eqb_spec i n) as [->|N].
  - rewrite (below_ext n _ (fun _ => 0)); [rewrite below_zero; ring|]. intros j Hj. unfold delta. destruct (Nat.eqb_spec n j); [lia|ring].
  - rewrite IHn by lia. ring.
Qed.

Lemma copysign_same : forall s b, copysign s b * copysign s b = s * s.
Proof. intros s b. assert (A : Rabs s * Rabs s = s * s). { rewrite <- Rabs_mult. apply Rabs_right. apply Rle_ge, Rle_0_sqr. } unfold copysign. destruct b; nra. Qed.
Lemma scaled_columns : forall n k q s neg, columns_orthogonal n k 1 q -> columns_orthogonal n k (s * s) (fun i j => q i j * copysign s (neg j)).
Proof.
  intros n k q s neg H i j Hi Hj. rewrite (below_ext n _ (fun r => (copysign s (neg i) * copysign s (neg j)) * (q r i * q r j))) by (intros; ring).
  rewrite below_scale, H by assumption. unfold delta. destruct (Nat.eqb_spec i j) as [->|N]; [rewrite copysign_same; ring|ring].
Qed.
Lemma fold_mul : forall l a, fold_left Nat.mul l a = (a * fold_left Nat.mul l 1)%nat.
Proof. induction l as [|x l IH]; intros a; cbn; [lia|]. rewrite IH, (IH (x + 0)%nat). lia. Qed.
Lemma size_cons : forall n l, size_of_shape (n :: l) = (n * size_of_shape l)%nat.
Proof. intros. unfold size_of_shape. cbn [fold_left]. rewrite fold_mul. lia. Qed.


(** Bessel's inequality. *)
Lemma bessel : forall n k w y, columns_orthogonal n k 1 w -> sum_below k (fun i => sum_below n (fun r => w r i * y r) * sum_below n (fun r => w r i * y r)) <= norm2 n y.
Proof.
  intros n k w y H. set (c := fun i => sum_below n (fun r => w r i * y r)). set (z := fun r => sum_below k (fun i => c i * w r i)).
  assert (P : 0 <= sum_below n (fun r => (y r - z r) * (y r - z r))) by (apply below_nonneg; intros; apply Rle_0_sqr).
  assert (E : sum_below n (fun r => (y r - z r) * (y r - z r)) = norm2 n y + (-2) * sum_below n (fun r => y r * z r) + sum_below n (fun r => z r * z r)).
  { unfold norm2. rewrite <- below_scale, <- !below_plus. apply below_ext. intros. ring. }
  assert (YZ : sum_below n (fun r => y r * z r) = sum_below k (fun i => c i * c i)).
  { unfold z. rewrite (below_ext n _ (fun r => sum_below k (fun i => c i * (w r i * y r)))) by (intros r _; rewrite <- below_scale; apply below_ext; intros; ring).
    rewrite below_swap. apply below_ext. intros i _. rewrite below_scale. reflexivity. }
  assert (ZZ : sum_below n (fun r => z r * z r) = sum_below k (fun i => c i * c i)).
  { rewrite (below_ext n _ (fun r => sum_below k (fun i => sum_below k (fun j => (c i * c j) * (w r i * w r j))))).
    2:{ intros r _. unfold z at 1. rewrite Rmult_comm, <- below_scale. apply below_ext. intros i _. rewrite Rmult_comm. unfold z. rewrite <- below_scale. apply below_ext. intros. ring. }
    rewrite below_swap. apply below_ext. intros i Hi. rewrite below_swap. rewrite (below_ext k _ (fun j => delta i j * (c i * c j))); [rewrite below_delta by exact Hi; reflexivity|].
    intros j Hj. rewrite below_scale, (H i j Hi Hj). ring. }
  rewrite E, YZ, ZZ in P. change (sum_below k (fun i => c i * c i) <= norm2 n y). lra.
Qed.
Lemma below_le_eq : forall n f, (forall i, (i < n)%nat -> f i <= 1) -> sum_below n f = INR n -> forall i, (i < n)%nat -> f i = 1.
Proof.
  assert (B : forall n f, (forall i, (i < n)%nat -> f i <= 1) -> sum_below n f <= INR n).
  { induction n; intros f H; [cbn; lra|]. cbn [sum_below]. rewrite S_INR. pose proof (H n ltac:(lia)). pose proof (IHn f ltac:(intros; apply H; lia)). lra. }
  induction n; intros f H E i Hi; [lia|]. cbn [sum_below] in E. rewrite S_INR in E. pose proof (H n ltac:(lia)). pose proof (B n f ltac:(intros; apply H; lia)).
  destruct (Nat.eq_dec i n) as [->|N]; [lra|]. apply IHn; [intros; apply H; lia|lra|lia].
Qed.
(** A square matrix with orthonormal columns has orthonormal rows. *)
Lemma square : forall n w, columns_orthogonal n n 1 w -> rows_orthogonal n n 1 w.
Proof.
  intros n w H.
  assert (N1 : forall i, (i < n)%nat -> sum_below n (fun r => w i r * w i r) <= 1).
  { intros i Hi. pose proof (bessel n n w (delta i) H) as B. unfold norm2 in B. rewrite (below_delta n i (delta i) Hi) in B. unfold delta at 3 in B. rewrite Nat.eqb_refl in B.
    rewrite (below_ext n _ (fun r => w i r * w i r)) in B; [exact B|]. intros r _. rewrite (below_ext n _ (fun q => delta i q * w q r)) by (intros; ring). rewrite below_delta by exact Hi. reflexivity. }
  assert (TR : sum_below n (fun i => sum_below n (fun r => w i r * w i r)) = INR n).
  { rewrite below_swap. rewrite (below_ext n _ (fun _ => 1)). - clear. induction n; [reflexivity|]. cbn [sum_below]. rewrite IHn, S_INR. reflexivity.
    - intros r Hr. rewrite (H r r Hr Hr). unfold delta. rewrite Nat.eqb_refl. ring. }
  assert (N2 := below_le_eq n _ N1 TR). intros i j Hi Hj. unfold delta. destruct (Nat.eqb_spec i j) as [->|NE]; [rewrite N2 by exact Hj; ring|]. rewrite Rmult_0_r.
  set (d := sum_below n (fun r => w i r * w j r)).
  assert (G : forall t, 2 * t * d <= 0).
  { intros t. pose proof (bessel n n w (fun r => delta i r + t * delta j r) H) as B.
    assert (L : norm2 n (fun r => delta i r + t * delta j r) = 1 + t * t).
    { unfold norm2. rewrite (below_ext n _ (fun r => delta i r * (delta i r + t * delta j r) + t * (delta j r * (delta i r + t * delta j r)))) by (intros; ring).
      rewrite below_plus, below_scale, !below_delta by assumption. unfold delta. rewrite !Nat.eqb_refl. destruct (Nat.eqb_spec i j); [contradiction|]. destruct (Nat.eqb_spec j i); [congruence|]. ring. }
    assert (M : sum_below n (fun i0 => sum_below n (fun r => w r i0 * (delta i r + t * delta j r)) * sum_below n (fun r => w r i0 * (delta i r + t * delta j r))) = 1 + 2 * t * d + t * t).
    { rewrite (below_ext n _ (fun r => w i r * w i r + ((2 * t) * (w i r * w j r) + (t * t) * (w j r * w j r)))).
      - rewrite !below_plus, !below_scale. rewrite !N2 by assumption. fold d. ring.
      - intros q _. rewrite (below_ext n _ (fun r => delta i r * w r q + t * (delta j r * w r q))) by (intros; ring). rewrite below_plus, below_scale, !below_delta by assumption. ring. }
    cbv beta in B. rewrite M, L in B. lra. }
  pose proof (G 1). pose proof (G (-1)). lra.
Qed.
Lemma scaled_rows : forall k n q s neg, columns_orthogonal k k 1 q -> n = k -> rows_orthogonal k n (s * s) (fun i j => q i j * copysign s (neg j)).
Proof.
  intros k n q s neg H -> i j Hi Hj. rewrite (below_ext k _ (fun r => (s * s) * (q i r * q j r))).
  - rewrite below_scale. rewrite (square k q H i j Hi Hj). ring.
  - intros r _. transitivity ((copysign s (neg r) * copysign s (neg r)) * (q i r * q j r)); [ring|rewrite copysign_same; reflexivity].
Qed.
Lemma orthogonal_ok : forall qr coin scale m n rest w, (forall a b, (b <= a)%nat -> columns_orthogonal a b 1 (fst (qr a b))) -> orthogonal qr coin scale m (n :: rest) = Ok w ->
  exists v, w = Rows n (size_of_shape rest) v /\ ((size_of_shape rest <= n)%nat -> columns_orthogonal n (size_of_shape rest) (scale * scale) v) /\ ((n <= size_of_shape rest)%nat -> rows_orthogonal n (size_of_shape rest) (scale * scale) v).
Proof.
  intros qr coin scale m n rest w Q E. unfold orthogonal in E. destruct (Nat.eqb_spec (size_of_shape (n :: rest)) 0); [discriminate|].
  destruct ((Nat.ltb n (size_of_shape rest) && fst (checks m)) || (Nat.ltb (size_of_shape rest) n && snd (checks m)))%bool; [discriminate|].
  destruct (Nat.ltb_spec n (size_of_shape rest)) as [L|L].
  - destruct (qr (size_of_shape rest) n) as [q neg] eqn:K. injection E as <-. eexists. split; [reflexivity|]. split; [lia|]. intros _. pose proof (Q (size_of_shape rest) n ltac:(lia)) as C. rewrite K in C. cbn [fst] in C.
    intros i j Hi Hj. apply (scaled_columns _ _ q scale neg C i j Hi Hj).
  - destruct (qr n (size_of_shape rest)) as [q neg] eqn:K. injection E as <-. eexists. split; [reflexivity|]. pose proof (Q n (size_of_shape rest) L) as C. rewrite K in C. cbn [fst] in C.
    split; [intros _; apply (scaled_columns _ _ q scale neg C)|]. intros G. assert (En : size_of_shape rest = n) by lia. rewrite En in C |- *. apply scaled_rows; [exact C|reflexivity].
Qed.
Lemma accepts : forall qr coin scale m n rest, (exists w, orthogonal qr coin scale m (n :: rest) = Ok w) <->
  (0 < n * size_of_shape rest)%nat /\ match m with Auto => True | Projection => (n <= size_of_shape rest)%nat | Embedding => (size_of_shape rest <= n)%nat | Basis => n = size_of_shape rest end.
Proof.
  intros qr coin scale m n rest. unfold orthogonal. rewrite size_cons. destruct (Nat.eqb_spec (n * size_of_shape rest) 0) as [Z|Z]; [split; [intros [w E]; discriminate|lia]|].
  destruct (Nat.ltb_spec n (size_of_shape rest)) as [L|L], (Nat.ltb_spec (size_of_shape rest) n) as [L'|L'], m; cbn [checks fst snd andb orb];
    try lia; try (split; [intros [w E]; discriminate|lia]); try (split; [intros _; split; [lia|auto; lia]|intros _]; destruct (if _ : bool then _ else _) as [q neg] || idtac; eauto).
  all: try (destruct (qr _ _) as [q neg]; eauto).
Qed.

(** Lengths. *)
Lemma isometry : forall n k c w x, columns_orthogonal n k c w -> norm2 n (mat_vec k w x) = c * norm2 k x.
Proof.
  intros n k c w x H. unfold norm2, mat_vec.
  rewrite (below_ext n _ (fun r => sum_below k (fun i => sum_below k (fun j => (x i * x j) * (w r i * w r j))))).
  - rewrite below_swap, <- below_scale. apply below_ext. intros i Hi. rewrite below_swap. rewrite (below_ext k _ (fun j => delta i j * (c * (x i * x j)))); [rewrite below_delta by exact Hi; ring|].
    intros j Hj. rewrite below_scale, (H i j Hi Hj). ring.
  - intros r _. set (t := sum_below k (fun j => w r j * x j)). transitivity (sum_below k (fun i => t * (w r i * x i))); [rewrite below_scale; reflexivity|]. apply below_ext. intros i _. unfold t. rewrite Rmult_comm, <- below_scale. apply below_ext. intros. ring.
Qed.
Lemma contraction : forall n k c w x, rows_orthogonal k n c w -> 0 < c -> norm2 k (mat_vec n w x) <= c * norm2 n x.
Proof.
  intros n k c w x H Hc. set (s := sqrt c). assert (S : 0 < s) by (apply sqrt_lt_R0, Hc). assert (SS : s * s = c) by (apply sqrt_sqrt; lra).
  assert (U : columns_orthogonal n k 1 (fun r i => w i r / s)).
  { intros i j Hi Hj. rewrite (below_ext n _ (fun r => (/ (s * s)) * (w i r * w j r))) by (intros; field; lra). rewrite below_scale, (H i j Hi Hj), SS. field. lra. }
  pose proof (bessel n k _ x U) as B. unfold norm2 at 1, mat_vec.
  rewrite (below_ext k _ (fun i => c * (sum_below n (fun r => w i r / s * x r) * sum_below n (fun r => w i r / s * x r)))).
  - rewrite below_scale. apply Rmult_le_compat_l; [lra|exact B].
  - intros i _. rewrite (below_ext n (fun r => w i r / s * x r) (fun r => (/ s) * (w i r * x r))) by (intros; field; lra). rewrite below_scale, <- SS. field. lra.
Qed.
(** No direction is stretched by more than the scale. *)
Lemma orthogonal_length : forall qr coin scale m n rest w, (forall a b, (b <= a)%nat -> columns_orthogonal a b 1 (fst (qr a b))) -> scale <> 0 -> orthogonal qr coin scale m (n :: rest) = Ok w ->
  exists v, w = Rows n (size_of_shape rest) v /\ forall x, norm2 n (mat_vec (size_of_shape rest) v x) <= scale * scale * norm2 (size_of_shape rest) x /\
    ((size_of_shape rest <= n)%nat -> norm2 n (mat_vec (size_of_shape rest) v x) = scale * scale * norm2 (size_of_shape rest) x).
Proof.
  intros qr coin scale m n rest w Q Hs E. destruct (orthogonal_ok qr coin scale m n rest w Q E) as (v & -> & C & R). exists v. split; [reflexivity|]. intros x. split; [|intros L; apply isometry, C, L].
  destruct (Nat.le_ge_cases (size_of_shape rest) n) as [L|L]; [right; apply isometry, C, L|]. apply contraction; [apply R, L|nra].
Qed.

(** Constants. *)
Lemma constant_norm : forall scale shape c, scaling_constant scale shape = Ok c -> (forall n, In n shape -> (0 < n)%nat) ->
  let fan_in := match shape with [n] => n | _ :: rest => size_of_shape rest | [] => 0%nat end in sum_below fan_in (fun _ => c * c) = scale * scale.
Proof.
  intros scale shape c E P. assert (PR : forall l, (forall n, In n l -> (0 < n)%nat) -> (0 < size_of_shape l)%nat). { induction l as [|x l IH]; intros H; [cbn; lia|]. rewrite size_cons. pose proof (H x (or_introl eq_refl)). specialize (IH ltac:(intros; apply H; right; assumption)). nia. }
  assert (G : forall k, (0 < k)%nat -> sum_below k (fun _ => scale / sqrt (INR k) * (scale / sqrt (INR k))) = scale * scale).
  { intros k Hk. assert (0 < INR k) by (apply lt_0_INR, Hk). assert (0 < sqrt (INR k)) by (apply sqrt_lt_R0; assumption). assert (SS : sqrt (INR k) * sqrt (INR k) = INR k) by (apply sqrt_sqrt; lra).
    assert (Q : forall m a, sum_below m (fun _ => a) = INR m * a). { induction m; intros a; [cbn; ring|]. cbn [sum_below]. rewrite IHm, S_INR. ring. }
    rewrite Q. replace (scale / sqrt (INR k) * (scale / sqrt (INR k))) with (scale * scale / (sqrt (INR k) * sqrt (INR k))) by (field; lra). rewrite SS. field. lra. }
  destruct shape as [|n [|n' rest]]; cbn [scaling_constant] in E; [discriminate| |]; injection E as <-; cbv zeta; apply G; [apply P; left; reflexivity|]. apply (PR (n' :: rest)). intros k Hk. apply P. right. exact Hk.
Qed.

(** Torch's defaults. *)
Lemma torch_bounds : forall u v l, (forall k, 0 <= u k < 1) -> (forall k, 0 <= v k < 1) ->
  match l with
  | OtherLayer => init_layer u v l = (None, None)
  | LinearLayer _ i b | ConvLayer _ i _ _ b =>
    let fan_in := match l with ConvLayer _ i kh kw _ => (i * kh * kw)%nat | _ => i end in
    (0 < fan_in)%nat -> exists w o, init_layer u v l = (Some w, o) /\ (forall k, w k = (2 * u k - 1) / sqrt (INR fan_in) /\ - (1 / sqrt (INR fan_in)) <= w k < 1 / sqrt (INR fan_in)) /\
      (b = false <-> o = None) /\ forall bias, o = Some bias -> forall k, bias k = (2 * v k - 1) / sqrt (INR fan_in) /\ - (1 / sqrt (INR fan_in)) <= bias k < 1 / sqrt (INR fan_in)
  end.
Proof.
  intros u v l U V. assert (G : forall n, (0 < n)%nat -> forall z, 0 <= z < 1 -> uniform (- (1 / sqrt (INR n))) (1 / sqrt (INR n)) z = (2 * z - 1) / sqrt (INR n) /\ - (1 / sqrt (INR n)) <= uniform (- (1 / sqrt (INR n))) (1 / sqrt (INR n)) z < 1 / sqrt (INR n)).
  { intros n Hn z Hz. unfold uniform. assert (0 < 1 / sqrt (INR n)) by (apply Rdiv_lt_0_compat; [lra|apply sqrt_lt_R0, lt_0_INR, Hn]). split; [unfold Rdiv; ring|nra]. }
  destruct l as [o i b|o i kh kw b|]; [| |reflexivity]; cbv zeta; intros Hn; cbn [init_layer]; eexists _, _; (split; [reflexivity|]); (split; [intros k; apply G; auto|]);
    (split; [destruct b; split; congruence|]); intros bias E; destruct b; try discriminate; injection E as <-; intros k; apply G; auto.
Qed.
(** More rows than columns cannot be orthogonal. *)
Lemma too_many_rows : forall qr coin scale n rest, (forall a b, (b <= a)%nat -> columns_orthogonal a b 1 (fst (qr a b))) -> scale <> 0 -> (0 < size_of_shape rest < n)%nat ->
  exists v, orthogonal qr coin scale Auto (n :: rest) = Ok (Rows n (size_of_shape rest) v) /\ ~ rows_orthogonal n (size_of_shape rest) (scale * scale) v.
Proof.
  intros qr coin scale n rest Q Hs Hn. destruct (proj2 (accepts qr coin scale Auto n rest)) as [w E]; [split; [nia|exact I]|]. destruct (orthogonal_ok qr coin scale Auto n rest w Q E) as (v & -> & C & _).
  exists v. split; [exact E|]. intros R. specialize (C ltac:(lia)). assert (K : forall m f, (forall i, (i < m)%nat -> f i = scale * scale) -> sum_below m f = INR m * (scale * scale)).
  { induction m; intros f H; [cbn; ring|]. cbn [sum_below]. rewrite (H m) by lia. rewrite IHm by (intros; apply H; lia). rewrite S_INR. ring. }
  assert (A : sum_below n (fun i => sum_below (size_of_shape rest) (fun r => v i r * v i r)) = INR n * (scale * scale)) by (apply K; intros i Hi; rewrite (R i i Hi Hi); unfold delta; rewrite Nat.eqb_refl; ring).
  assert (B : sum_below (size_of_shape rest) (fun r => sum_below n (fun i => v i r * v i r)) = INR (size_of_shape rest) * (scale * scale)) by (apply K; intros i Hi; rewrite (C i i Hi Hi); unfold delta; rewrite Nat.eqb_refl; ring).
  rewrite below_swap, B in A. assert (INR (size_of_shape rest) < INR n) by (apply lt_INR; lia). assert (0 < scale * scale) by nra. nra.
Qed.
