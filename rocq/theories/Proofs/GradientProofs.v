(** Proofs about the hand-written gradients. *)
From Coq Require Import Reals List Arith Lia Lra.
From Verif Require Import Base.PyBase Model.Distributions Model.Quadratic Model.GradFunctions Spec.SumSpec Spec.GradientSpec.
From Verif Require Import Proofs.RSumFacts Proofs.ActionMapsProofs Proofs.DistributionProofs Proofs.QuadraticProofs.
Import ListNotations.
Local Open Scope R_scope.

(** ** Derivatives *)
Lemma deriv_ext : forall f g x l, (forall t, f t = g t) -> derivable_pt_lim g x l -> derivable_pt_lim f x l.
Proof. intros f g x l E D eps P. destruct (D eps P) as (d & H). exists d. intros h H1 H2. rewrite !E. apply H; assumption. Qed.
Lemma deriv_quad : forall f a b c, (forall t, f t = a + t * b + t * t * c) -> derivable_pt_lim f 0 b.
Proof.
  intros f a b c E. assert (D : derivable_pt_lim (fun t => (a + t * b) + (t * t) * c) 0 ((0 + (1 * b + 0 * 0)) + ((1 * 0 + 0 * 1) * c + 0 * 0 * 0))).
  { apply (derivable_pt_lim_plus (fun t => a + t * b) (fun t => t * t * c)).
    - apply (derivable_pt_lim_plus (fun _ => a) (fun t => t * b)); [apply derivable_pt_lim_const|].
      apply (derivable_pt_lim_mult (fun t => t) (fun _ => b)); [apply derivable_pt_lim_id|apply derivable_pt_lim_const].
    - apply (derivable_pt_lim_mult (fun t => t * t) (fun _ => c)); [|apply derivable_pt_lim_const].
      apply (derivable_pt_lim_mult (fun t => t) (fun t => t)); apply derivable_pt_lim_id. }
  replace b with ((0 + (1 * b + 0 * 0)) + ((1 * 0 + 0 * 1) * c + 0 * 0 * 0)) at 1 by ring. eapply deriv_ext; [exact E|exact D].
Qed.
Lemma deriv_affine : forall f a b, (forall t, f t = a + t * b) -> derivable_pt_lim f 0 b.
Proof. intros f a b E. apply (deriv_quad f a b 0). intros t. rewrite E. ring. Qed.

(** ** Scalar products *)
Lemma dot_cons : forall x a y b, dot (x :: a) (y :: b) = x * y + dot a b.
Proof. reflexivity. Qed.
Lemma move_cons : forall x a y b t, move (x :: a) (y :: b) t = (x + t * y) :: move a b t.
Proof. reflexivity. Qed.
Lemma dots_cons : forall x a y b, dots (x :: a) (y :: b) = dot x y + dots a b.
Proof. reflexivity. Qed.
Lemma move_len : forall x v t, length x = length v -> length (move x v t) = length x.
Proof. intros. unfold move. rewrite map_length, combine_length. lia. Qed.
Lemma dot_move : forall g x v t, length g = length x -> length x = length v -> dot g (move x v t) = dot g x + t * dot g v.
Proof.
  induction g as [|w g IH]; intros [|a x] [|b v] t L1 L2; try discriminate; [unfold dot; cbn; ring|].
  rewrite move_cons, !dot_cons, IH by (cbn in *; lia). ring.
Qed.
Lemma dots_moves : forall g x v t, same_shapes x g -> same_shapes x v -> dots g (moves x v t) = dots g x + t * dots g v.
Proof.
  intros g x v t G. revert v. induction G as [|a w x g Lg G IH]; intros v V; inversion V as [|? b ? v' Lv V']; subst; [unfold dots; cbn; ring|].
  cbn [moves combine map fst snd]. fold (moves x v' t). rewrite !dots_cons, dot_move, IH by (auto; congruence). ring.
Qed.
Lemma moves_shapes : forall x v t, same_shapes x v -> same_shapes x (moves x v t).
Proof. intros x v t V. induction V as [|a b x v L V IH]; [constructor|]. constructor; [cbn; symmetry; apply move_len, L|exact IH]. Qed.
Lemma dot_nil_r : forall g, dot g [] = 0.
Proof. intros [|x g]; reflexivity. Qed.
Lemma dot_zip_plus : forall g a b, length a = length b -> dot g (zipr Rplus a b) = dot g a + dot g b.
Proof.
  induction g as [|w g IH]; intros [|x a] [|y b] L; try discriminate; try (rewrite ?dot_nil_r; unfold dot; cbn; ring).
  cbn [zipr]. rewrite !dot_cons, IH by (cbn in L; lia). ring.
Qed.
Lemma zipr_length : forall f a b, length a = length b -> length (zipr f a b) = length a.
Proof. intros f a. induction a as [|u a IH]; intros [|w b] L; cbn in *; try discriminate; auto. Qed.
Lemma dot_repeat0 : forall g n, dot g (repeat 0 n) = 0.
Proof. induction g as [|w g IH]; intros [|n]; try reflexivity. cbn [repeat]. rewrite dot_cons, IH. ring. Qed.
Lemma dot_scale_r : forall w g a, dot g (map (Rmult w) a) = w * dot g a.
Proof. induction g as [|x g IH]; intros [|y a]; cbn [map]; try (unfold dot; cbn; ring). rewrite !dot_cons, IH. ring. Qed.
Lemma dot_scale_l : forall w g a, dot (map (Rmult w) g) a = w * dot g a.
Proof. induction g as [|x g IH]; intros [|y a]; cbn [map]; try (unfold dot; cbn; ring). rewrite !dot_cons, IH. ring. Qed.

(** A function with a constant adjoint. *)
Lemma adjoint_gradient : forall f x gy g, same_shapes x g -> (forall x', same_shapes x x' -> dot gy (f x') = dots g x') -> is_gradient f x gy g.
Proof.
  intros f x gy g G A. split; [exact G|]. intros v V. apply (deriv_affine _ (dots g x) (dots g v)). intros t.
  rewrite A by (apply moves_shapes, V). apply dots_moves; assumption.
Qed.

Lemma fold_dot : forall xs n gy acc, length acc = n -> (forall x, In x xs -> length x = n) ->
  dot gy (fold_left (zipr Rplus) xs acc) = dot gy acc + total_of (dot gy) xs.
Proof.
  induction xs as [|x xs IH]; intros n gy acc La W; [cbn; unfold total_of; cbn; ring|]. cbn [fold_left].
  assert (Lx : length x = n) by (apply W; left; reflexivity).
  rewrite (IH n) by (try (intros; apply W; right; assumption); rewrite zipr_length; congruence). rewrite dot_zip_plus by congruence. rewrite tot_cons. ring.
Qed.
Lemma shapes_len : forall n x v, same_shapes x v -> (forall a, In a x -> length a = n) -> forall b, In b v -> length b = n.
Proof.
  intros n x v V. induction V as [|a b x v L V IH]; intros W c I; [destruct I|]. destruct I as [<-|I].
  - rewrite <- L. apply W. left. reflexivity.
  - apply IH; [|exact I]. intros; apply W; right; assumption.
Qed.
Lemma dots_repeat : forall gy xs, dots (repeat gy (length xs)) xs = total_of (dot gy) xs.
Proof. induction xs as [|x xs IH]; [reflexivity|]. cbn [length repeat]. rewrite dots_cons, IH. reflexivity. Qed.

Theorem sum_gradient : forall n inputs gy, (forall x, In x inputs -> length x = n) -> length gy = n ->
  is_gradient (sum_arrays_forward n) inputs gy (sum_arrays_backward inputs gy).
Proof.
  intros n inputs gy W Lg. apply adjoint_gradient.
  - unfold sum_arrays_backward. clear -W Lg. induction inputs as [|x l IH]; [constructor|]. cbn. constructor; [rewrite Lg; apply W; left; reflexivity|]. apply IH. intros; apply W; right; assumption.
  - intros x' V. unfold sum_arrays_forward, sum_arrays_backward. rewrite (fold_dot x' n) by (try apply repeat_length; apply (shapes_len n inputs); assumption).
    rewrite dot_repeat0. assert (E : length inputs = length x') by (clear -V; induction V; cbn; congruence). rewrite E, dots_repeat. ring.
Qed.
Theorem weighted_gradient : forall n weights inputs gy, length weights = length inputs -> (forall x, In x inputs -> length x = n) -> length gy = n ->
  is_gradient (weighted_sum_forward n weights) inputs gy (weighted_sum_backward weights inputs gy).
Proof.
  intros n weights inputs gy Lw W Lg. apply adjoint_gradient.
  - unfold weighted_sum_backward. clear -W Lg Lw. revert weights Lw. induction inputs as [|x l IH]; intros [|w ws] Lw; try discriminate; [constructor|]. cbn. constructor.
    + rewrite map_length, Lg. apply W. left. reflexivity.
    + apply IH; [intros; apply W; right; assumption|cbn in Lw; lia].
  - intros x' V. unfold weighted_sum_forward, weighted_sum_backward.
    pose proof (shapes_len n _ _ V W) as W'. assert (E : length inputs = length x') by (clear -V; induction V; cbn; congruence).
    rewrite (fold_dot _ n); [|apply repeat_length|].
    2: { intros y I. apply in_map_iff in I. destruct I as ((w, a) & <- & I). cbn. rewrite map_length. apply W'. exact (in_combine_r _ _ _ _ I). }
    rewrite dot_repeat0, tot_map, Rplus_0_l. rewrite E in Lw. clear -Lw. revert weights Lw. induction x' as [|a x' IH]; intros [|w ws] Lw; try discriminate; [reflexivity|].
    cbn [combine map]. rewrite tot_cons, dots_cons, (IH ws) by (cbn in Lw; lia). cbn [fst snd]. rewrite dot_scale_l, dot_scale_r. reflexivity.
Qed.

(** ** muladd *)
Lemma muladd_quad : forall x y z vx vy vz gw t n, length x = n -> length y = n -> length z = n -> length vx = n -> length vy = n -> length vz = n -> length gw = n ->
  dot gw (muladd_forward (move x vx t) (move y vy t) (move z vz t)) =
  dot gw (muladd_forward x y z) + t * (dot (zipr Rmult y gw) vx + (dot (zipr Rmult x gw) vy + dot gw vz)) + t * t * dot gw (zipr Rmult vx vy).
Proof.
  induction x as [|x0 x IH]; intros [|y0 y] [|z0 z] [|vx0 vx] [|vy0 vy] [|vz0 vz] [|g gw] t [|n]; try discriminate; intros;
    [unfold dot; cbn; ring|].
  rewrite !move_cons. unfold muladd_forward in *. cbn [zipr]. rewrite !dot_cons. rewrite (IH y z vx vy vz gw t n) by (cbn in *; lia). ring.
Qed.
Theorem muladd_gradient : forall x y z gw n, length x = n -> length y = n -> length z = n -> length gw = n ->
  let '(gx, gy, gz) := muladd_backward x y z gw in is_gradient muladd_tuple [x; y; z] gw [gx; gy; gz].
Proof.
  intros x y z gw n Lx Ly Lz Lg. cbn. split.
  - repeat constructor; rewrite ?zipr_length; congruence.
  - intros v V. inversion V as [|? vx ? v1 L1 V1]; subst. inversion V1 as [|? vy ? v2 L2 V2]; subst. inversion V2 as [|? vz ? v3 L3 V3]; subst. inversion V3; subst.
    eapply deriv_quad. intros t. cbn [moves combine map fst snd muladd_tuple].
    rewrite (muladd_quad x y z vx vy vz gw t (length x)) by congruence. rewrite !dots_cons. unfold dots at 1. cbn [combine]. unfold total_of. cbn. rewrite Rplus_0_r. reflexivity.
Qed.

(** ** arctanh *)
Lemma arctanh_deriv : forall y, -1 < y < 1 -> derivable_pt_lim arctanh y (1 / (1 - y ^ 2)).
Proof.
  intros y H. unfold arctanh.
  assert (D : derivable_pt_lim (fun y => (1 + y) / (1 - y)) y (((0 + 1) * (1 - y) - (0 - 1) * (1 + y)) / Rsqr (1 - y))).
  { apply (derivable_pt_lim_div (fun y => 1 + y) (fun y => 1 - y)).
    - apply (derivable_pt_lim_plus (fun _ => 1) (fun y => y)); [apply derivable_pt_lim_const|apply derivable_pt_lim_id].
    - apply (derivable_pt_lim_minus (fun _ => 1) (fun y => y)); [apply derivable_pt_lim_const|apply derivable_pt_lim_id].
    - lra. }
  assert (P : 0 < (1 + y) / (1 - y)) by (apply Rdiv_lt_0_compat; lra).
  pose proof (derivable_pt_lim_comp _ ln y _ _ D (derivable_pt_lim_ln _ P)) as C.
  pose proof (derivable_pt_lim_scal _ (1 / 2) y _ C) as K. unfold mult_real_fct, comp in K.
  replace (1 / (1 - y ^ 2)) with (1 / 2 * (/ ((1 + y) / (1 - y)) * (((0 + 1) * (1 - y) - (0 - 1) * (1 + y)) / Rsqr (1 - y)))); [exact K|].
  unfold Rsqr. field. repeat split; nra.
Qed.
Lemma tanh_arctanh : forall y, -1 < y < 1 -> tanh (arctanh y) = y.
Proof.
  intros y H. rewrite tanh_exp. unfold arctanh. replace (2 * (1 / 2 * ln ((1 + y) / (1 - y)))) with (ln ((1 + y) / (1 - y))) by field.
  rewrite exp_ln by (apply Rdiv_lt_0_compat; lra). field. lra.
Qed.
Lemma arctanh_dot : forall x gy v, length gy = length x -> length v = length x -> (forall a, In a x -> -1 < a < 1) ->
  derivable_pt_lim (fun t => dot gy (arctanh_forward (move x v t))) 0 (dot (arctanh_backward x gy) v).
Proof.
  induction x as [|a x IH]; intros [|g gy] [|b v] Lg Lv H; try discriminate.
  - apply (deriv_affine _ 0 0). intros t. unfold dot. cbn. ring.
  - assert (Ha : -1 < a < 1) by (apply H; left; reflexivity).
    assert (D : derivable_pt_lim (fun t => g * arctanh (a + t * b)) 0 (1 / (1 - a ^ 2) * g * b)).
    { assert (D1 : derivable_pt_lim (fun t => a + t * b) 0 b) by (apply (deriv_affine _ a b); reflexivity).
      assert (D2 : derivable_pt_lim arctanh (a + 0 * b) (1 / (1 - a ^ 2))) by (replace (a + 0 * b) with a by ring; apply arctanh_deriv, Ha).
      pose proof (derivable_pt_lim_comp _ arctanh 0 _ _ D1 D2) as C. pose proof (derivable_pt_lim_scal _ g 0 _ C) as K.
      replace (1 / (1 - a ^ 2) * g * b) with (g * (1 / (1 - a ^ 2) * b)) by ring. exact K. }
    pose proof (IH gy v ltac:(cbn in *; lia) ltac:(cbn in *; lia) (fun c I => H c (or_intror I))) as R0.
    exact (derivable_pt_lim_plus _ _ 0 _ _ D R0).
Qed.
Theorem arctanh_gradient : forall x gy, length gy = length x -> (forall a, In a x -> -1 < a < 1) ->
  is_gradient arctanh_tuple [x] gy [arctanh_backward x gy] /\
  map tanh (arctanh_forward x) = x.
Proof.
  intros x gy L H. split; [split|].
  - repeat constructor. unfold arctanh_backward. rewrite zipr_length; congruence.
  - intros v V. inversion V as [|? b ? v' Lb V']; subst. inversion V'; subst. cbn [moves combine map fst snd arctanh_tuple].
    replace (dots [arctanh_backward x gy] [b]) with (dot (arctanh_backward x gy) b) by (unfold dots, total_of; cbn [combine fold_right fst snd]; ring).
    apply arctanh_dot; congruence || assumption.
  - unfold arctanh_forward. rewrite map_map. rewrite <- (map_id x) at 2. apply map_ext_in. intros a I. apply tanh_arctanh, H, I.
Qed.

(** ** Lower triangular matrices *)
Lemma below_add : forall m f g, sum_below m (fun i => f i + g i) = sum_below m f + sum_below m g.
Proof. induction m as [|m IH]; intros; cbn; [ring|]. rewrite IH. ring. Qed.
Lemma tot_seq : forall n f, total_of f (seq 0 n) = sum_below n f.
Proof. induction n as [|n IH]; intros f; [reflexivity|]. rewrite seq_S, tot_app, IH. cbn. unfold total_of. cbn. ring. Qed.
Lemma dot_nth : forall (idx : list (nat * nat)) (g : nat * nat -> R) (vals : list R), length idx = length vals ->
  dot (map g idx) vals = total_of (fun p => g (fst p) * snd p) (combine idx vals).
Proof. induction idx as [|i idx IH]; intros g [|v vals] L; try discriminate; [reflexivity|]. cbn [map combine]. rewrite dot_cons, tot_cons, IH by (cbn in L; lia). reflexivity. Qed.
Lemma tot_combine_nth : forall (idx : list (nat * nat)) (vals : list R) (F : nat * nat -> R) g, length idx = length vals ->
  (forall k i v, nth_error idx k = Some i -> nth_error vals k = Some v -> F i = v) ->
  total_of (fun p => g (fst p) * snd p) (combine idx vals) = total_of (fun i => g i * F i) idx.
Proof.
  induction idx as [|i idx IH]; intros [|v vals] F g L H; try discriminate; [reflexivity|]. cbn [combine]. rewrite !tot_cons. cbn [fst snd].
  rewrite (H O i v eq_refl eq_refl), (IH vals F g); [reflexivity|cbn in L; lia|]. intros k. exact (H (S k)).
Qed.
Lemma tot_tril : forall n (F : nat * nat -> R), total_of F (tril_indices n) = sum_below n (fun i => sum_below i (fun j => F (i, j))).
Proof.
  induction n as [|n IH]; intros F; [reflexivity|]. rewrite tril_S, tot_app, IH, tot_map, tot_seq. reflexivity.
Qed.
Lemma below_split : forall n i f, (i < n)%nat -> (forall j, (i < j < n)%nat -> f j = 0) -> sum_below n f = sum_below i f + f i.
Proof.
  induction n as [|n IH]; intros i f H Z; [lia|]. cbn [sum_below]. destruct (Nat.eq_dec i n) as [->|N]; [reflexivity|].
  rewrite (IH i) by (try lia; intros; apply Z; lia). rewrite (Z n) by lia. ring.
Qed.
Lemma lower_adjoint : forall diag nd gy y, length nd = (length diag * (length diag - 1) / 2)%nat -> lower_triangular_matrix diag nd = Ok y ->
  mdot (length diag) gy y = dot (fst (lower_triangular_backward (length diag) gy)) diag + dot (snd (lower_triangular_backward (length diag) gy)) nd.
Proof.
  intros diag nd gy y L E. destruct (layout diag nd L) as (y' & E' & H). assert (y' = y) by congruence. subst y'. clear E'.
  set (n := length diag) in *. unfold lower_triangular_backward. cbn [fst snd].
  assert (Ld : length (diag_indices n) = n) by (unfold diag_indices; rewrite map_length, seq_length; reflexivity).
  rewrite (dot_nth (diag_indices n) (fun ij => gy (fst ij) (snd ij))) by (rewrite Ld; reflexivity).
  rewrite (dot_nth (tril_indices n) (fun ij => gy (fst ij) (snd ij))) by (rewrite tril_len, L; reflexivity).
  rewrite (tot_combine_nth (diag_indices n) diag (fun ij => y (fst ij) (snd ij)) (fun ij => gy (fst ij) (snd ij))); [|rewrite Ld; reflexivity|].
  2: { intros k (i, j) v Hk Hv. pose proof (nth_error_In _ _ Hk) as I. apply diag_in in I. destruct I as (-> & I). cbn [fst snd].
       assert (k = j). { assert (Kn : (k < n)%nat) by (rewrite <- Ld; apply nth_error_Some; congruence). rewrite (diag_nth n k Kn) in Hk. congruence. }
       subst k. rewrite (H j j I I), Nat.eqb_refl. apply nth_error_nth, Hv. }
  rewrite (tot_combine_nth (tril_indices n) nd (fun ij => y (fst ij) (snd ij)) (fun ij => gy (fst ij) (snd ij))); [|rewrite tril_len, L; reflexivity|].
  2: { intros k (i, j) v Hk Hv. pose proof (nth_error_In _ _ Hk) as I. apply tril_in in I. cbn [fst snd].
       rewrite (H i j) by lia. destruct (Nat.eqb_spec i j); [lia|]. destruct (Nat.ltb_spec j i); [|lia]. apply nth_error_nth.
       assert (k = (i * (i - 1) / 2 + j)%nat); [|subst; exact Hv].
       apply (proj1 (NoDup_nth_error (tril_indices n)) (tril_nodup n)); [apply nth_error_Some; congruence|]. rewrite Hk. symmetry. apply tril_nth. lia. }
  rewrite tot_tril. unfold diag_indices. rewrite tot_map, tot_seq. cbn [fst snd]. rewrite <- below_add. unfold mdot. apply below_ext. intros i Hi.
  rewrite (below_split n i _ Hi); [ring|].
  intros j Hj. rewrite (H i j) by lia. destruct (Nat.eqb_spec i j); [lia|]. destruct (Nat.ltb_spec j i); [lia|ring].
Qed.
Theorem lower_gradient : forall diag nd gy, length nd = (length diag * (length diag - 1) / 2)%nat ->
  let '(gdiag, gnd) := lower_triangular_backward (length diag) gy in
  length gdiag = length diag /\ length gnd = length nd /\
  forall vd vn, length vd = length diag -> length vn = length nd ->
  exists Y, (forall t, lower_triangular_matrix (move diag vd t) (move nd vn t) = Ok (Y t)) /\
  derivable_pt_lim (fun t => mdot (length diag) gy (Y t)) 0 (dot gdiag vd + dot gnd vn).
Proof.
  intros diag nd gy L. unfold lower_triangular_backward.
  assert (Ld : length (diag_indices (length diag)) = length diag) by (unfold diag_indices; rewrite map_length, seq_length; reflexivity).
  split; [rewrite map_length; exact Ld|]. split; [rewrite map_length, tril_len, L; reflexivity|]. intros vd vn Lvd Lvn.
  assert (K : forall t, exists y, lower_triangular_matrix (move diag vd t) (move nd vn t) = Ok y /\
    mdot (length diag) gy y = dot (fst (lower_triangular_backward (length diag) gy)) (move diag vd t) + dot (snd (lower_triangular_backward (length diag) gy)) (move nd vn t)).
  { intros t. assert (Lm : length (move diag vd t) = length diag) by (apply move_len; congruence). assert (Ln : length (move nd vn t) = length nd) by (apply move_len; congruence).
    destruct (layout (move diag vd t) (move nd vn t)) as (y & E & _); [rewrite Lm, Ln; exact L|]. exists y. split; [exact E|].
    pose proof (lower_adjoint (move diag vd t) (move nd vn t) gy y) as A. rewrite Lm, Ln in A. exact (A L E). }
  exists (fun t => match lower_triangular_matrix (move diag vd t) (move nd vn t) with Ok y => y | Raise _ => zeros2 end).
  split; [intros t; destruct (K t) as (y & -> & _); reflexivity|].
  eapply deriv_affine. intros t. destruct (K t) as (y & -> & M). rewrite M. unfold lower_triangular_backward. cbn [fst snd].
  rewrite !dot_move by (rewrite ?map_length, ?tril_len; congruence). 
  instantiate (1 := dot (map (fun ij : nat * nat => gy (fst ij) (snd ij)) (diag_indices (length diag))) diag + dot (map (fun ij : nat * nat => gy (fst ij) (snd ij)) (tril_indices (length diag))) nd). ring.
Qed.

(** ** Scaling and inverting *)
Theorem scale_spec : forall scale x gy, scale_grad_forward x = x /\ length (scale_grad_backward scale x gy) = length gy /\
  forall v, dot (scale_grad_backward scale x gy) v = scale * dot gy v.
Proof.
  intros scale x gy. split; [reflexivity|]. split; [apply map_length|]. intros v. unfold scale_grad_backward.
  rewrite (map_ext _ (Rmult scale)) by (intros; ring). apply dot_scale_l.
Qed.

Section Inv.
  Variables (lo hi : R).
  Hypothesis W : lo < hi.
  Notation back := (invert_gradients_backward lo hi).

  Lemma back_neg : forall x gy, gy < 0 -> back x gy = gy * ((hi - x) / (hi - lo)).
  Proof. intros x gy H. unfold invert_gradients_backward. destruct (Rlt_dec gy 0); [|lra]. field. lra. Qed.
  Lemma back_pos : forall x gy, 0 <= gy -> back x gy = gy * ((x - lo) / (hi - lo)).
  Proof. intros x gy H. unfold invert_gradients_backward. destruct (Rlt_dec gy 0); [lra|]. field. lra. Qed.

  Lemma unit_frac : forall a b, 0 < b -> 0 <= a <= b -> 0 <= a / b <= 1.
  Proof. intros a b P H. split; [apply Rmult_le_pos; [lra|]; apply Rlt_le, Rinv_0_lt_compat, P|]. apply (Rmult_le_reg_r b); [exact P|]. unfold Rdiv. rewrite Rmult_assoc, Rinv_l by lra. lra. Qed.

  Theorem invert_stays : forall x gy lr, lo <= x <= hi -> 0 <= lr -> lr * Rabs gy <= hi - lo -> lo <= x - lr * back x gy <= hi.
  Proof.
    intros x gy lr H P S. destruct (Rlt_dec gy 0) as [N|N].
    - rewrite back_neg by exact N. rewrite Rabs_left in S by exact N.
      assert (E : x - lr * (gy * ((hi - x) / (hi - lo))) = x + (lr * (- gy) / (hi - lo)) * (hi - x)) by (field; lra). rewrite E.
      pose proof (unit_frac (lr * - gy) (hi - lo) ltac:(lra) ltac:(split; [nra|exact S])). nra.
    - rewrite back_pos by lra. rewrite Rabs_right in S by lra.
      assert (E : x - lr * (gy * ((x - lo) / (hi - lo))) = x - (lr * gy / (hi - lo)) * (x - lo)) by (field; lra). rewrite E.
      pose proof (unit_frac (lr * gy) (hi - lo) ltac:(lra) ltac:(split; [nra|exact S])). nra.
  Qed.
  Theorem invert_direction : forall x gy,
    (lo <= x <= hi -> exists c, 0 <= c <= 1 /\ back x gy = c * gy) /\
    (hi < x -> 0 < gy * gy -> 0 < back x gy) /\ (x < lo -> 0 < gy * gy -> back x gy < 0).
  Proof.
    intros x gy. split; [|split].
    - intros H. destruct (Rlt_dec gy 0) as [N|N].
      + exists ((hi - x) / (hi - lo)). split; [apply unit_frac; lra|]. rewrite back_neg by exact N. ring.
      + exists ((x - lo) / (hi - lo)). split; [apply unit_frac; lra|]. rewrite back_pos by lra. ring.
    - intros H Z. destruct (Rlt_dec gy 0) as [N|N].
      + rewrite back_neg by exact N. assert (0 < (x - hi) / (hi - lo)) by (apply Rdiv_lt_0_compat; lra).
        replace ((hi - x) / (hi - lo)) with (- ((x - hi) / (hi - lo))) by (field; lra). nra.
      + rewrite back_pos by lra. assert (0 < (x - lo) / (hi - lo)) by (apply Rdiv_lt_0_compat; lra). assert (gy <> 0) by (intros ->; lra). nra.
    - intros H Z. destruct (Rlt_dec gy 0) as [N|N].
      + rewrite back_neg by exact N. assert (0 < (hi - x) / (hi - lo)) by (apply Rdiv_lt_0_compat; lra). nra.
      + rewrite back_pos by lra. assert (0 < (lo - x) / (hi - lo)) by (apply Rdiv_lt_0_compat; lra).
        replace ((x - lo) / (hi - lo)) with (- ((lo - x) / (hi - lo))) by (field; lra). assert (0 < gy) by (destruct (Req_dec gy 0) as [->|]; lra). nra.
  Qed.
  Theorem invert_limit : forall x gy lr, lo < x < hi -> 0 <= lr -> hi - lo < lr * Rabs gy -> ~ (lo <= x - lr * back x gy <= hi).
  Proof.
    intros x gy lr H P S. destruct (Rlt_dec gy 0) as [N|N].
    - rewrite back_neg by exact N. rewrite Rabs_left in S by exact N.
      assert (E : x - lr * (gy * ((hi - x) / (hi - lo))) = x + (lr * (- gy) / (hi - lo)) * (hi - x)) by (field; lra). rewrite E.
      assert (1 < lr * - gy / (hi - lo)) by (apply (Rmult_lt_reg_r (hi - lo)); [lra|]; unfold Rdiv; rewrite Rmult_assoc, Rinv_l by lra; lra). nra.
    - rewrite back_pos by lra. rewrite Rabs_right in S by lra.
      assert (E : x - lr * (gy * ((x - lo) / (hi - lo))) = x - (lr * gy / (hi - lo)) * (x - lo)) by (field; lra). rewrite E.
      assert (1 < lr * gy / (hi - lo)) by (apply (Rmult_lt_reg_r (hi - lo)); [lra|]; unfold Rdiv; rewrite Rmult_assoc, Rinv_l by lra; lra). nra.
  Qed.
End Inv.
