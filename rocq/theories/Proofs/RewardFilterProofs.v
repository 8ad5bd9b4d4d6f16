From Coq Require Import Reals List Arith Lia Lra.
From Verif Require Import Base.PyBase Model.RewardFilter Spec.SumSpec Spec.RewardFilterSpec Proofs.RSumFacts.
Import ListNotations.
Local Open Scope R_scope.

Lemma decayed_snoc : forall tau h r, decayed tau (h ++ [r]) = decayed tau h * (1 - tau) + tau * r.
Proof.
  intros tau h r. unfold decayed. rewrite app_length. cbn [length]. replace (length h + 1)%nat with (S (length h)) by lia. cbn [sum_below].
  rewrite app_nth2, Nat.sub_diag by lia. cbn [nth]. replace (S (length h) - 1 - length h)%nat with 0%nat by lia. cbn [pow].
  rewrite (below_ext (length h) (fun i => tau * (1 - tau) ^ (S (length h) - 1 - i) * nth i (h ++ [r]) 0) (fun i => (1 - tau) * (tau * (1 - tau) ^ (length h - 1 - i) * nth i h 0))).
  - rewrite below_scale. ring.
  - intros i Hi. rewrite app_nth1 by lia. replace (S (length h) - 1 - i)%nat with (S (length h - 1 - i)) by lia. cbn [pow]. ring.
Qed.
Lemma decayed_nil : forall tau, decayed tau [] = 0.
Proof. reflexivity. Qed.
Lemma firstn_snoc : forall (l : list R) i, (i < length l)%nat -> firstn (S i) l = firstn i l ++ [nth i l 0].
Proof. induction l as [|x l IH]; intros i H; cbn in H; [lia|]. destruct i; [reflexivity|]. cbn. f_equal. apply IH. lia. Qed.

Lemma arun_gen : forall tau rs h i, (i < length rs)%nat -> nth i (arun tau (decayed tau h) rs) 0 = nth i rs 0 - decayed tau (h ++ firstn (S i) rs).
Proof.
  intros tau. induction rs as [|r rs IH]; intros h i H; [cbn in H; lia|]. cbn [arun]. unfold acall. rewrite <- decayed_snoc. destruct i as [|i].
  - cbn [nth firstn]. reflexivity.
  - cbn [nth]. rewrite IH by (cbn in H; lia). rewrite <- app_assoc. reflexivity.
Qed.
Lemma arun_ok : forall tau rs i, (i < length rs)%nat -> nth i (arun tau 0 rs) 0 = nth i rs 0 - decayed tau (firstn (S i) rs).
Proof. intros tau rs i H. exact (arun_gen tau rs [] i H). Qed.

Lemma decayed_bounds : forall tau lo hi h, 0 <= tau <= 1 -> (forall r, In r h -> lo <= r <= hi) -> Rmin lo 0 <= decayed tau h <= Rmax hi 0.
Proof.
  intros tau lo hi h T. induction h as [|r h IH] using rev_ind; intros B.
  - rewrite decayed_nil. split; [apply Rmin_r|apply Rmax_r].
  - rewrite decayed_snoc. assert (lo <= r <= hi) by (apply B, in_or_app; right; left; reflexivity). assert (Rmin lo 0 <= decayed tau h <= Rmax hi 0) by (apply IH; intros; apply B, in_or_app; auto).
    pose proof (Rmin_l lo 0). pose proof (Rmax_l hi 0). nra.
Qed.
Lemma decayed_constant : forall tau c n, decayed tau (repeat c n) = c * (1 - (1 - tau) ^ n).
Proof.
  intros tau c. induction n as [|n IH]; [cbn [repeat pow]; rewrite decayed_nil; ring|]. replace (repeat c (S n)) with (repeat c n ++ [c]) by (symmetry; apply repeat_cons).
  rewrite decayed_snoc, IH. cbn [pow]. ring.
Qed.
Lemma constant_ok : forall tau c n i, (i < n)%nat -> nth i (arun tau 0 (repeat c n)) 0 = c * (1 - tau) ^ (S i).
Proof.
  intros tau c n i H. rewrite arun_ok by (rewrite repeat_length; exact H). assert (Q : firstn (S i) (repeat c n) = repeat c (S i)).
  { replace n with (S i + (n - S i))%nat by lia. rewrite repeat_app, firstn_app, repeat_length, Nat.sub_diag, firstn_O, app_nil_r. apply firstn_all2. rewrite repeat_length. lia. }
  rewrite Q, decayed_constant. rewrite (nth_indep _ 0 c) by (rewrite repeat_length; exact H). rewrite nth_repeat. ring.
Qed.

Lemma var_snoc : forall tau h r, decayed_var tau (h ++ [r]) = (1 - tau) * decayed_var tau h + tau * (1 - tau) * ((decayed tau h - r) * (decayed tau h - r)).
Proof. intros. unfold decayed_var. rewrite map_app. cbn [map]. rewrite !decayed_snoc. ring. Qed.
Lemma var_nonneg : forall tau h, 0 <= tau <= 1 -> 0 <= decayed_var tau h.
Proof.
  intros tau h T. induction h as [|r h IH] using rev_ind; [unfold decayed_var; cbn [map]; rewrite decayed_nil; lra|]. rewrite var_snoc.
  apply Rplus_le_le_0_compat; [apply Rmult_le_pos; lra|]. apply Rmult_le_pos; [apply Rmult_le_pos; lra|]. apply Rle_0_sqr.
Qed.
Lemma zero_decayed : forall tau h, Forall (fun r => r = 0) h -> decayed tau h = 0.
Proof.
  intros tau h. induction h as [|r h IH] using rev_ind; intros H; [reflexivity|]. apply Forall_app in H. destruct H as [H1 H2]. inversion H2; subst. rewrite decayed_snoc, IH by exact H1. ring.
Qed.
Lemma var_zero : forall tau h, 0 < tau < 1 -> (decayed_var tau h = 0 <-> Forall (fun r => r = 0) h).
Proof.
  intros tau h T. induction h as [|r h IH] using rev_ind.
  - split; [constructor|intros _; unfold decayed_var; cbn [map]; rewrite decayed_nil; ring].
  - rewrite var_snoc. pose proof (var_nonneg tau h ltac:(lra)) as V. pose proof (Rle_0_sqr (decayed tau h - r)) as S0. unfold Rsqr in S0. split.
    + intros E. assert (P : 0 < tau * (1 - tau)) by nra. assert (V0 : decayed_var tau h = 0) by nra. assert (S1 : (decayed tau h - r) * (decayed tau h - r) = 0) by nra.
      apply IH in V0. apply Forall_app. split; [exact V0|]. constructor; [|constructor]. rewrite (zero_decayed tau h V0) in S1. nra.
    + intros F. apply Forall_app in F. destruct F as [F1 F2]. inversion F2; subst. apply IH in F1 as V0. rewrite V0, (zero_decayed tau h F1). ring.
Qed.

Lemma nrun_gen : forall tau scale eps rs h i, 0 < tau < 1 -> 0 < eps -> (i < length rs)%nat ->
  let g := h ++ firstn (S i) rs in
  (Forall (fun r => r = 0) g -> nth i (nrun tau scale eps (mk_nstate (decayed tau h) (decayed tau (map (fun r => r * r) h))) rs) (Raise OutOfFuel) = Raise ZeroDivisionError) /\
  (~ Forall (fun r => r = 0) g -> nth i (nrun tau scale eps (mk_nstate (decayed tau h) (decayed tau (map (fun r => r * r) h))) rs) (Raise OutOfFuel) =
     Ok (scale * (nth i rs 0 - decayed tau g) / sqrt (Rmin (decayed_var tau g) eps))).
Proof.
  intros tau scale eps. induction rs as [|r rs IH]; intros h i T He H g; [cbn in H; lia|]. cbn [nrun]. unfold ncall. cbn [average_reward average_reward_squared].
  assert (Q : decayed tau (map (fun r => r * r) h) * (1 - tau) + tau * (r * r) = decayed tau (map (fun r => r * r) (h ++ [r]))) by (rewrite map_app; cbn [map]; rewrite decayed_snoc; reflexivity).
  rewrite Q, <- decayed_snoc. destruct i as [|i].
  - cbn [nth]. subst g. cbn [firstn]. fold (decayed_var tau (h ++ [r])). pose proof (var_nonneg tau (h ++ [r]) ltac:(lra)) as V. pose proof (var_zero tau (h ++ [r]) T) as Z.
    set (m := Rmin (decayed_var tau (h ++ [r])) eps). assert (M : 0 <= m) by (unfold m; apply Rmin_glb; lra). destruct (Rlt_dec m 0); [lra|]. split; intros F.
    + apply Z in F. assert (m = 0) by (unfold m; rewrite F; apply Rmin_left; lra). rewrite H0, sqrt_0. destruct (Req_EM_T 0 0); [reflexivity|congruence].
    + destruct (Req_EM_T (sqrt m) 0) as [E|E]; [|reflexivity]. exfalso. apply F, Z. apply sqrt_eq_0 in E; [|exact M]. unfold m, Rmin in E. destruct (Rle_dec (decayed_var tau (h ++ [r])) eps); [exact E|lra].
  - cbn [nth]. destruct (IH (h ++ [r]) i T He ltac:(cbn in H; lia)) as [I1 I2]. assert (G : (h ++ [r]) ++ firstn (S i) rs = g) by (unfold g; rewrite <- app_assoc; reflexivity).
    rewrite G in I1, I2. split; assumption.
Qed.
Lemma nrun_ok : forall tau scale eps rs i, 0 < tau < 1 -> 0 < eps -> (i < length rs)%nat -> let g := firstn (S i) rs in
  0 <= decayed_var tau g /\
  (Forall (fun r => r = 0) g -> nth i (nrun tau scale eps ninit rs) (Raise OutOfFuel) = Raise ZeroDivisionError) /\
  (~ Forall (fun r => r = 0) g -> nth i (nrun tau scale eps ninit rs) (Raise OutOfFuel) = Ok (scale * (nth i rs 0 - decayed tau g) / sqrt (Rmin (decayed_var tau g) eps))).
Proof. intros tau scale eps rs i T He H g. split; [apply var_nonneg; lra|]. apply (nrun_gen tau scale eps rs [] i T He H). Qed.

(** The first reward. *)
Lemma first_small : forall tau scale eps r, 0 < tau < 1 -> 0 < eps -> r <> 0 -> tau * (1 - tau) * (r * r) <= eps ->
  exists y, nrun tau scale eps ninit [r] = [Ok y] /\ y * y = scale * scale * ((1 - tau) / tau).
Proof.
  intros tau scale eps r T He R L. destruct (nrun_ok tau scale eps [r] 0 T He ltac:(cbn; lia)) as (V & _ & O). cbn [firstn] in *.
  assert (D : decayed tau [r] = tau * r) by (change [r] with ([] ++ [r]); rewrite decayed_snoc, decayed_nil; ring).
  assert (DV : decayed_var tau [r] = tau * (1 - tau) * (r * r)) by (change [r] with ([] ++ [r]); rewrite var_snoc; unfold decayed_var; cbn [map]; rewrite decayed_nil; ring).
  assert (P : 0 < tau * (1 - tau)) by nra. assert (RR : 0 < r * r) by nra.
  assert (N : ~ Forall (fun r => r = 0) [r]) by (intros F; inversion F; contradiction). specialize (O N). cbn [nrun] in *. destruct (ncall tau scale eps ninit r) as [s y] eqn:E. cbn [nth] in O. rewrite O.
  eexists. split; [reflexivity|]. rewrite D, DV, Rmin_left by exact L. assert (SP : 0 < sqrt (tau * (1 - tau) * (r * r))) by (apply sqrt_lt_R0; nra).
  assert (SQ : sqrt (tau * (1 - tau) * (r * r)) * sqrt (tau * (1 - tau) * (r * r)) = tau * (1 - tau) * (r * r)) by (apply sqrt_sqrt; nra).
  replace (scale * (r - tau * r) / sqrt (tau * (1 - tau) * (r * r)) * (scale * (r - tau * r) / sqrt (tau * (1 - tau) * (r * r)))) with
    (scale * scale * ((r - tau * r) * (r - tau * r)) / (sqrt (tau * (1 - tau) * (r * r)) * sqrt (tau * (1 - tau) * (r * r)))) by (field; lra).
  rewrite SQ. field. repeat split; lra.
Qed.
Lemma first_big : forall tau scale eps r, 0 < tau < 1 -> 0 < eps -> eps <= tau * (1 - tau) * (r * r) -> nrun tau scale eps ninit [r] = [Ok (scale * ((1 - tau) * r) / sqrt eps)].
Proof.
  intros tau scale eps r T He L. destruct (nrun_ok tau scale eps [r] 0 T He ltac:(cbn; lia)) as (V & _ & O). cbn [firstn] in *.
  assert (D : decayed tau [r] = tau * r) by (change [r] with ([] ++ [r]); rewrite decayed_snoc, decayed_nil; ring).
  assert (DV : decayed_var tau [r] = tau * (1 - tau) * (r * r)) by (change [r] with ([] ++ [r]); rewrite var_snoc; unfold decayed_var; cbn [map]; rewrite decayed_nil; ring).
  assert (N : ~ Forall (fun r => r = 0) [r]) by (intros F; inversion F; subst; nra). specialize (O N). cbn [nrun] in *. destruct (ncall tau scale eps ninit r) as [s y] eqn:E. cbn [nth] in O. rewrite O.
  rewrite D, DV, Rmin_right by exact L. do 3 f_equal. ring.
Qed.
Lemma unbounded : forall tau scale eps M, 0 < tau < 1 -> 0 < eps -> 0 < scale -> exists r y, nrun tau scale eps ninit [r] = [Ok y] /\ M < y.
Proof.
  intros tau scale eps M T He Hs. assert (SE : 0 < sqrt eps) by (apply sqrt_lt_R0; exact He). assert (P : 0 < tau * (1 - tau)) by nra.
  set (k := scale * (1 - tau) / sqrt eps). assert (K : 0 < k) by (unfold k; apply Rdiv_lt_0_compat; [nra|exact SE]).
  set (r := 1 + eps / (tau * (1 - tau)) + Rabs M / k). assert (A1 : 0 < eps / (tau * (1 - tau))) by (apply Rdiv_lt_0_compat; lra). assert (A2 : 0 <= Rabs M / k) by (apply Rmult_le_pos; [apply Rabs_pos|left; apply Rinv_0_lt_compat, K]).
  exists r, (scale * ((1 - tau) * r) / sqrt eps). split.
  - apply first_big; [exact T|exact He|]. assert (E1 : eps = tau * (1 - tau) * (eps / (tau * (1 - tau)))) by (field; repeat split; lra). rewrite E1 at 1. apply Rmult_le_compat_l; [lra|]. unfold r. nra.
  - replace (scale * ((1 - tau) * r) / sqrt eps) with (k * r) by (unfold k; field; lra). apply Rle_lt_trans with (Rabs M); [apply Rle_abs|].
    unfold r. replace (k * (1 + eps / (tau * (1 - tau)) + Rabs M / k)) with (k * (1 + eps / (tau * (1 - tau))) + Rabs M) by (field; repeat split; lra). nra.
Qed.
(** With all the weight on the newest reward the variance is always 0. *)
Lemma tau_one : forall scale eps s r, 0 < eps -> snd (ncall 1 scale eps s r) = Raise ZeroDivisionError.
Proof.
  intros scale eps s r He. unfold ncall. cbn [snd]. replace (average_reward_squared s * (1 - 1) + 1 * (r * r) - (average_reward s * (1 - 1) + 1 * r) * (average_reward s * (1 - 1) + 1 * r)) with 0 by ring.
  rewrite Rmin_left by lra. destruct (Rlt_dec 0 0); [lra|]. rewrite sqrt_0. destruct (Req_EM_T 0 0); [reflexivity|congruence].
Qed.
