(** Proofs about ACER. *)
From Coq Require Import Reals List Lia Lra.
From Verif Require Import Base.PyBase Model.ConjugateGradient Model.Acer Spec.LinearSpec Spec.SumSpec Spec.AcerSpec Proofs.CGProofs Proofs.RSumFacts.
Import ListNotations.
Local Open Scope R_scope.

(** ** Importance weights *)
Lemma weights : forall huge c p m, 0 <= p -> 0 < m -> 0 <= c ->
  m * Rmin c (p / m) + Rmax (1 - c * full_importance huge m p) 0 * p = p.
Proof.
  intros huge c p m Hp Hm Hc. unfold full_importance. destruct (Req_EM_T p 0) as [->|N].
  - rewrite Rmult_0_r, Rplus_0_r. unfold Rdiv. rewrite Rmult_0_l, Rmin_right by exact Hc. ring.
  - assert (0 < p) by lra. assert (E : p / m * m = p) by (field; lra). assert (E' : m / p * p = m) by (field; lra).
    destruct (Rle_dec c (p / m)) as [L|L].
    + rewrite Rmin_left by exact L. assert (c * m <= p) by nra.
      rewrite Rmax_left; [field_simplify; nra|]. assert (c * (m / p) <= 1); [|lra].
      apply Rmult_le_reg_r with p; [assumption|]. replace (c * (m / p) * p) with (c * m) by (field; lra). lra.
    + rewrite Rmin_right by lra. assert (p < c * m) by nra.
      rewrite Rmax_right; [field; lra|]. assert (1 <= c * (m / p)); [|lra].
      apply Rmult_le_reg_r with p; [assumption|]. replace (c * (m / p) * p) with (c * m) by (field; lra). lra.
Qed.

Theorem unbiased : forall huge c v (acts : list act), 0 <= c -> (forall x, In x acts -> 0 <= a_pi x /\ 0 < a_mu x) -> total_of a_mu acts = 1 ->
  exists loss, (forall x, In x acts -> policy_gradient_loss huge true (Some c) acts v x (a_q x - v) = Ok (loss x)) /\
    total_of (fun x => a_mu x * loss x) acts = - total_of (fun x => a_pi x * a_lp x * (a_q x - v)) acts.
Proof.
  intros huge c v acts Hc H E.
  exists (fun x => 0 - Rmin c (a_pi x / a_mu x) * a_lp x * (a_q x - v) + full_correction huge c v acts). split.
  - intros x I. destruct (H x I). unfold policy_gradient_loss, compute_importance. destruct (Req_EM_T (a_mu x) 0); [lra|]. reflexivity.
  - set (F := full_correction huge c v acts).
    rewrite (tot_ext _ (fun x => - (a_mu x * Rmin c (a_pi x / a_mu x) * a_lp x * (a_q x - v)) + F * a_mu x)) by (intros; ring).
    rewrite tot_add, tot_scale, E, tot_opp. unfold F, full_correction. rewrite tot_fold, Rmult_1_r.
    assert (G : total_of (fun x => a_pi x * a_lp x * (a_q x - v)) acts =
      total_of (fun x => a_mu x * Rmin c (a_pi x / a_mu x) * a_lp x * (a_q x - v)) acts + total_of (fun x => correction_weight huge c x * a_lp x * (a_q x - v)) acts).
    { rewrite <- tot_add. apply tot_ext. intros x I. destruct (H x I) as [H1 H2]. unfold correction_weight.
      rewrite <- (weights huge c (a_pi x) (a_mu x) H1 H2 Hc) at 1. ring. }
    lra.
Qed.

Theorem untruncated : forall huge v (acts : list act), (forall x, In x acts -> 0 < a_mu x) ->
  exists loss, (forall x, In x acts -> policy_gradient_loss huge true None acts v x (a_q x - v) = Ok (loss x)) /\
    total_of (fun x => a_mu x * loss x) acts = - total_of (fun x => a_pi x * a_lp x * (a_q x - v)) acts.
Proof.
  intros huge v acts H. exists (fun x => 0 - a_pi x / a_mu x * a_lp x * (a_q x - v)). split.
  - intros x I. specialize (H x I). unfold policy_gradient_loss, compute_importance. destruct (Req_EM_T (a_mu x) 0); [lra|]. reflexivity.
  - rewrite <- tot_opp. apply tot_ext. intros x I. specialize (H x I). field. lra.
Qed.

(** The sampled correction has the full correction as its expectation. *)
Theorem sampled_correction : forall huge c v (acts : list act), 0 < c -> (forall x, In x acts -> 0 < a_pi x /\ 0 <= a_mu x) ->
  exists corr, (forall x, In x acts -> sample_correction c v x = Ok (corr x)) /\
    total_of (fun x => a_pi x * corr x) acts = full_correction huge c v acts.
Proof.
  intros huge c v acts Hc H. exists (fun x => - (Rmax 0 (1 - c * (a_mu x / a_pi x)) * a_lp x * (a_q x - v))). split.
  - intros x I. destruct (H x I) as [H1 H2]. unfold sample_correction, compute_importance. destruct (Req_EM_T (a_pi x) 0); [lra|]. cbn [bind].
    destruct (Rlt_dec 0 c); [|lra]. assert (Q : 0 <= a_mu x / a_pi x).
    { unfold Rdiv. apply Rmult_le_pos; [exact H2|]. apply Rlt_le, Rinv_0_lt_compat, H1. }
    destruct (Rle_dec (1 / c) (a_mu x / a_pi x)) as [L|L].
    + rewrite Rmax_left; [f_equal; ring|]. assert (1 <= c * (a_mu x / a_pi x)); [|lra].
      replace 1 with (c * (1 / c)) at 1 by (field; lra). apply Rmult_le_compat_l; lra.
    + destruct (Rle_dec (Rmax 0 (1 - c * (a_mu x / a_pi x))) 1) as [W|W]; [reflexivity|]. exfalso. apply W. apply Rmax_lub; [lra|]. nra.
  - unfold full_correction. rewrite tot_fold, <- tot_opp. apply tot_ext. intros x I. destruct (H x I) as [H1 H2].
    unfold correction_weight, full_importance. destruct (Req_EM_T (a_pi x) 0); [lra|]. rewrite Rmax_comm. ring.
Qed.

Theorem weights_bounded : forall huge c x, 0 <= c -> 0 <= huge -> 0 <= a_pi x -> 0 < a_mu x ->
  Rmin c (a_pi x / a_mu x) <= c /\ 0 <= correction_weight huge c x <= a_pi x.
Proof.
  intros huge c x Hc Hh Hp Hm. split; [apply Rmin_l|]. unfold correction_weight.
  assert (Q : 0 <= full_importance huge (a_mu x) (a_pi x)).
  { unfold full_importance. destruct (Req_EM_T (a_pi x) 0); [destruct (Req_EM_T (a_mu x) 0); lra|].
    unfold Rdiv. apply Rmult_le_pos; [lra|]. apply Rlt_le, Rinv_0_lt_compat. lra. }
  assert (0 <= Rmax (1 - c * full_importance huge (a_mu x) (a_pi x)) 0 <= 1) by (split; [apply Rmax_r|apply Rmax_lub; [nra|lra]]). nra.
Qed.

(** ** Trust region *)
Lemma dot_app : forall a b c d, length a = length c -> dot (a ++ b) (c ++ d) = dot a c + dot b d.
Proof. induction a as [|x a IH]; intros b [|y c] d H; cbn in *; try lia; [ring|]. rewrite IH by lia. ring. Qed.
Lemma sum_dots_concat : forall k g, map (@length R) k = map (@length R) g -> sum_dots k g = dot (concat k) (concat g).
Proof.
  induction k as [|x k IH]; intros [|y g] H; cbn in H; try discriminate; [reflexivity|]. injection H as H1 H2. cbn [sum_dots concat].
  rewrite IH, dot_app by assumption. reflexivity.
Qed.
Lemma directions_concat : forall f k g, map (@length R) k = map (@length R) g ->
  concat (directions f g k) = vsub (concat g) (vscale f (concat k)) /\ map (@length R) (directions f g k) = map (@length R) g.
Proof.
  intros f. induction k as [|x k IH]; intros [|y g] H; cbn in H; try discriminate; [split; reflexivity|]. injection H as H1 H2. cbn [directions concat map].
  destruct (IH g H2) as [E1 E2]. rewrite E1, E2. split.
  - unfold vscale. rewrite map_app. clear -H1. unfold vsub. revert y H1. induction x as [|u x IHx]; intros [|w y] H1; cbn in *; try lia; [reflexivity|].
    rewrite IHx by lia. reflexivity.
  - f_equal. unfold vsub, vscale. rewrite zip_len; rewrite map_length; congruence.
Qed.

Lemma closest : forall n k g delta, length k = n -> length g = n -> 0 < dot k k ->
  let f := Rmax 0 ((dot k g - delta) / dot k k) in let z := vsub g (vscale f k) in
  dot k z <= delta /\ (forall y, length y = n -> dot k y <= delta -> dot (vsub z g) (vsub z g) <= dot (vsub y g) (vsub y g)) /\
  (dot k g <= delta -> z = g).
Proof.
  intros n k g delta Hk Hg Hp f z.
  assert (Lf : length (vscale f k) = n) by (rewrite vscale_len; exact Hk).
  assert (Ez : dot k z = dot k g - f * dot k k).
  { unfold z. rewrite (dot_sub_r n), dot_scale_r by assumption. ring. }
  assert (Hf : f * dot k k = Rmax 0 (dot k g - delta)).
  { unfold f. destruct (Rle_dec 0 (dot k g - delta)) as [L|L].
    - rewrite (Rmax_right 0 (dot k g - delta)) by exact L. rewrite Rmax_right; [field; lra|].
      unfold Rdiv. apply Rmult_le_pos; [exact L|]. apply Rlt_le, Rinv_0_lt_compat, Hp.
    - rewrite (Rmax_left 0 (dot k g - delta)) by lra. rewrite Rmax_left; [ring|].
      apply Rmult_le_reg_r with (dot k k); [exact Hp|]. unfold Rdiv. rewrite Rmult_assoc, Rinv_l by lra. lra. }
  assert (f0 : 0 <= f) by apply Rmax_l.
  assert (F1 : f * dot k k >= dot k g - delta) by (rewrite Hf; apply Rle_ge, Rmax_r).
  assert (F2 : f = 0 \/ f * dot k k = dot k g - delta).
  { destruct (Rle_dec 0 (dot k g - delta)) as [L|L]; [right; rewrite Hf; apply Rmax_right; exact L|left].
    rewrite (Rmax_left 0) in Hf by lra. apply Rmult_integral in Hf. destruct Hf; [assumption|lra]. }
  split; [lra|]. split.
  - intros y Hy Hd.
    assert (Zg : forall w, dot (vsub z g) w = - f * dot k w).
    { intros w. unfold z. rewrite (dot_sub_l n), (dot_sub_l n), dot_scale_l by (try apply (vsub_len n); assumption). ring. }
    rewrite Zg. rewrite (dot_comm k), Zg.
    (* |y-g|^2 >= ((k.(y-g))^2)/|k|^2 *)
    assert (CS : dot k (vsub y g) * dot k (vsub y g) <= dot k k * dot (vsub y g) (vsub y g)).
    { assert (L1 : length (vsub y g) = n) by (apply vsub_len; assumption). revert L1. generalize (vsub y g). intros w L1.
      pose proof (dot_nonneg (vsub (vscale (dot k k) w) (vscale (dot k w) k))) as P.
      rewrite (dot_sub_l n), !(dot_sub_r n), !dot_scale_l, !dot_scale_r in P by (rewrite ?vscale_len; assumption).
      rewrite (dot_comm w k) in P. apply Rmult_le_reg_l with (dot k k); [exact Hp|]. lra. }
    rewrite (dot_sub_r n) in CS by assumption.
    destruct F2 as [->|F2]; [pose proof (dot_nonneg (vsub y g)); lra|].
    assert (A1 : f * dot k k <= dot k g - dot k y) by lra.
    assert (A2 : 0 <= f * dot k k) by nra.
    assert (A3 : (f * dot k k) * (f * dot k k) <= dot k k * dot (vsub y g) (vsub y g)) by nra.
    apply Rmult_le_reg_l with (dot k k); [exact Hp|]. lra.
  - intros L. destruct F2 as [E|E].
    + unfold z. rewrite E. clear -Hk Hg. revert n g Hk Hg. unfold vsub, vscale. induction k as [|x k IH]; intros n [|y g] Hk Hg; cbn in *; try lia; [reflexivity|].
      rewrite (IH (pred n)) by lia. f_equal. ring.
    + assert (f = 0) by nra. unfold z. rewrite H. clear -Hk Hg. revert n g Hk Hg. unfold vsub, vscale. induction k as [|x k IH]; intros n [|y g] Hk Hg; cbn in *; try lia; [reflexivity|].
      rewrite (IH (pred n)) by lia. f_equal. ring.
Qed.

Theorem trust_region : forall g k delta, map (@length R) k = map (@length R) g ->
  let z := kl_constrained_direction g k delta in
  map (@length R) z = map (@length R) g /\
  (nonzero (concat k) ->
     dot (concat k) (concat z) <= delta /\
     (forall y, length y = length (concat g) -> dot (concat k) y <= delta ->
        dot (vsub (concat z) (concat g)) (vsub (concat z) (concat g)) <= dot (vsub y (concat g)) (vsub y (concat g))) /\
     (dot (concat k) (concat g) <= delta -> concat z = concat g)) /\
  (~ nonzero (concat k) -> concat z = concat g).
Proof.
  intros g k delta H z. unfold z, kl_constrained_direction. destruct (directions_concat (k_factor g k delta) k g H) as [E1 E2].
  assert (L : length (concat k) = length (concat g)).
  { clear -H. revert g H. induction k as [|x k IH]; intros [|y g] H; cbn in H; try discriminate; [reflexivity|]. injection H as H1 H2. cbn. rewrite !app_length, (IH g H2). lia. }
  split; [exact E2|]. rewrite E1. unfold k_factor. rewrite (sum_dots_concat k g H), (sum_dots_concat k k eq_refl). split.
  - intros N. apply dot_pos in N. destruct (Rlt_dec 0 (dot (concat k) (concat k))); [|lra].
    exact (closest (length (concat g)) (concat k) (concat g) delta L eq_refl N).
  - intros N. destruct (nonzero_dec (concat k)) as [N'|Z]; [contradiction|].
    assert (D : dot (concat k) (concat k) = 0) by (rewrite (zeros _ Z); apply dot_zeros_r).
    destruct (Rlt_dec 0 (dot (concat k) (concat k))); [lra|].
    clear -L. revert L. generalize (concat k) (concat g). unfold vsub, vscale. induction l as [|x l IH]; intros [|y l0] L; cbn in *; try lia; [reflexivity|].
    rewrite IH by lia. f_equal. ring.
Qed.

(** ** Returns *)
Section Returns.
  Variables (gamma : R) (discrete : bool) (dim : nat) (last : R).
  Notation returns := (acer_returns gamma discrete dim last).
  Notation c := (trace_coef discrete dim).

  Lemma returns_len : forall h, length (fst (returns h)) = length h.
  Proof. induction h as [|s h IH]; [reflexivity|]. cbn. destruct (returns h) as [out [a b]]. cbn in *. lia. Qed.
  Lemma returns_skip : forall h t, nth_error (fst (returns h)) t = nth_error (fst (returns (skipn t h))) 0.
  Proof.
    induction h as [|s h IH]; intros [|t]; try reflexivity. cbn [skipn]. rewrite <- IH. cbn. destruct (returns h) as [out [a b]]. reflexivity.
  Qed.

  Lemma retrace_skip : forall co h t, retrace gamma last co h t = retrace gamma last co (skipn t h) 0.
  Proof.
    intros co h t.
    assert (Ns : forall i, nth_error (skipn t h) i = nth_error h (t + i)).
    { clear. revert h. induction t as [|t IH]; intros [|s h] i; cbn; try reflexivity; [destruct i; reflexivity|apply IH]. }
    unfold retrace, q_at. rewrite Ns, Nat.add_0_r. f_equal. rewrite skipn_length. rewrite Nat.sub_0_r. apply below_ext. intros j _. f_equal; [f_equal|].
    - apply prod_ext. intros l _. unfold coef. rewrite Ns. f_equal. rewrite Nat.add_assoc. reflexivity.
    - unfold q_error, next_value. rewrite !Ns. cbn [Nat.add]. rewrite Nat.add_succ_r. reflexivity.
  Qed.

  Lemma retrace_cons : forall co s h, retrace gamma last co (s :: h) 0 =
    h_r s + gamma * match h with [] => last | s' :: _ => h_v s' + co (h_rho s') * (retrace gamma last co h 0 - h_q s') end.
  Proof.
    intros co s h. unfold retrace at 1. cbn [length]. rewrite Nat.sub_0_r, below_S. cbn [Nat.add].
    unfold q_at at 1, q_error at 1, next_value at 1. cbn [nth_error].
    destruct h as [|s' h]; [cbn; ring|]. cbn [nth_error length].
    rewrite (below_ext _ _ (fun i => gamma * co (h_rho s') * (gamma ^ i * prod_below i (fun l => coef co (s' :: h) (1 + l)) * q_error gamma last (s' :: h) i))).
    - rewrite below_scale. unfold retrace. cbn [length Nat.add]. rewrite Nat.sub_0_r. unfold q_at. cbn [nth_error pow prod_below]. ring.
    - intros i _. rewrite prod_S. cbn [pow]. change (coef co (s :: s' :: h) (1 + 0)) with (co (h_rho s')).
      change (q_error gamma last (s :: s' :: h) (S i)) with (q_error gamma last (s' :: h) i).
      match goal with |- context [prod_below i ?f] => change (prod_below i f) with (prod_below i (fun l => coef co (s' :: h) (1 + l))) end. change (coef co (s :: s' :: h) 1) with (co (h_rho s')). ring.
  Qed.

  Lemma returns_head : forall h s, exists out a b, returns (s :: h) = ((retrace gamma last c (s :: h) 0, retrace gamma last (fun _ => 1) (s :: h) 0) :: out,
    (a, b)) /\ a = c (h_rho s) * (retrace gamma last c (s :: h) 0 - h_q s) + h_v s /\ b = retrace gamma last (fun _ => 1) (s :: h) 0 - h_q s + h_v s.
  Proof.
    induction h as [|s' h IH]; intros s.
    - rewrite !retrace_cons. cbn. eexists _, _, _. split; [reflexivity|]. split; reflexivity.
    - destruct (IH s') as (out & a & b & E & Ea & Eb). rewrite !(retrace_cons _ s). cbn [acer_returns] in *.
      destruct (returns h) as [o [x y]]. injection E as E1 E2 E3 E4 E5.
      eexists _, _, _. split; [|split; reflexivity].
      f_equal.
      + f_equal. f_equal.
        * f_equal. f_equal. rewrite E1. ring.
        * f_equal. f_equal. rewrite E2. ring.
      + f_equal.
        * f_equal. f_equal. f_equal. f_equal. f_equal. rewrite E1. ring.
        * f_equal. f_equal. f_equal. f_equal. rewrite E2. ring.
  Qed.

  Theorem retrace_returns : forall h t, (t < length h)%nat ->
    nth_error (fst (returns h)) t = Some (retrace gamma last c h t, retrace gamma last (fun _ => 1) h t).
  Proof.
    intros h t L. rewrite returns_skip, !(retrace_skip _ h t).
    destruct (skipn t h) as [|s r] eqn:E; [apply (f_equal (@length hstep)) in E; rewrite skipn_length in E; cbn in E; lia|].
    destruct (returns_head r s) as (out & a & b & E' & _). rewrite E'. reflexivity.
  Qed.
End Returns.

(** The trace coefficients. *)
Lemma trace_coef_discrete : forall dim rho, trace_coef true dim rho = Rmin 1 rho.
Proof. reflexivity. Qed.

Lemma trace_coef_continuous : forall dim rho, (0 < dim)%nat -> 0 <= rho ->
  let c := trace_coef false dim rho in
  0 <= c <= 1 /\ (rho <= 1 -> c ^ dim = rho) /\ (1 <= rho -> c = 1).
Proof.
  intros dim rho Hd Hr c. unfold c, trace_coef. clear c.
  assert (Hn : 0 < INR dim) by (apply lt_0_INR; exact Hd).
  destruct (Req_EM_T rho 0) as [->|N].
  - rewrite Rmin_right by lra. split; [lra|]. split; [|lra].
    intros _. destruct dim as [|dim]; [inversion Hd|]. cbn [pow]. ring.
  - assert (Hp : 0 < rho) by lra.
    assert (Hi : 0 < 1 / INR dim) by (apply Rdiv_lt_0_compat; lra).
    assert (P : 0 < Rpower rho (1 / INR dim)) by (unfold Rpower; apply exp_pos).
    assert (B : rho <= 1 -> Rpower rho (1 / INR dim) <= 1).
    { intros H. destruct (Req_dec rho 1) as [->|N1].
      - unfold Rpower. rewrite ln_1, Rmult_0_r, exp_0. lra.
      - set (i := 1 / INR dim) in *. unfold Rpower. rewrite <- exp_0.
        apply Rlt_le, exp_increasing.
        assert (ln rho < 0) by (rewrite <- ln_1; apply ln_increasing; lra). nra. }
    assert (B' : 1 <= rho -> 1 <= Rpower rho (1 / INR dim)).
    { intros H. destruct (Req_dec rho 1) as [->|N1].
      - unfold Rpower. rewrite ln_1, Rmult_0_r, exp_0. lra.
      - set (i := 1 / INR dim) in *. unfold Rpower. rewrite <- exp_0.
        apply Rlt_le, exp_increasing.
        assert (0 < ln rho) by (rewrite <- ln_1; apply ln_increasing; lra). nra. }
    split; [|split].
    + split; [|apply Rmin_l]. apply Rmin_glb; lra.
    + intros H. rewrite Rmin_right by (apply B; exact H).
      rewrite <- (Rpower_pow dim _ P), Rpower_mult.
      replace (1 / INR dim * INR dim) with 1 by (field; lra). apply Rpower_1. exact Hp.
    + intros H. rewrite Rmin_left; [reflexivity|apply B'; exact H].
Qed.
