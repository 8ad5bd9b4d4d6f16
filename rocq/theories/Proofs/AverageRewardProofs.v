(** Proofs about A3C's average reward. *)
From Coq Require Import Reals List Arith Lia ZArith Lra.
From Verif Require Import Model.AverageReward Spec.AverageRewardSpec.
Import ListNotations.
Local Open Scope R_scope.

Definition loop gamma tau b rho steps := fold_right (average_round gamma tau) (b, rho, []) steps.
Lemma loop_cons : forall gamma tau b rho x steps, loop gamma tau b rho (x :: steps) =
  let '(ret, a, used) := loop gamma tau b rho steps in
  let ret' := ret * gamma + fst x - a in (ret', a + tau * (ret' - snd x), (ret', ret' - snd x) :: used).
Proof. intros. unfold loop. cbn [fold_right]. destruct (fold_right _ _ _) as [[ret a] used]. reflexivity. Qed.

Lemma averages_cons : forall tau rho x l, averages tau rho (x :: l) = (rho + tau * total l) :: averages tau rho l.
Proof. intros. unfold averages. cbn [length seq map]. f_equal. rewrite <- seq_shift, map_map. apply map_ext. intro k. reflexivity. Qed.

Lemma loop_closed : forall gamma tau b rho steps, let '(ret, a, used) := loop gamma tau b rho steps in
  length used = length steps /\
  ret = return_above gamma b (map fst steps) (averages tau rho (map snd used)) /\
  (forall k, (k < length steps)%nat ->
    let ret := return_above gamma b (skipn k (map fst steps)) (skipn k (averages tau rho (map snd used))) in
    nth k used (0, 0) = (ret, ret - snd (nth k steps (0, 0)))) /\
  a = rho + tau * total (map snd used).
Proof.
  intros gamma tau b rho. induction steps as [|x steps IH].
  - cbn. repeat split; try lra. intros k K. exfalso. lia.
  - rewrite loop_cons. destruct (loop gamma tau b rho steps) as [[ret a] used]. destruct IH as (L & E1 & E2 & E3). cbn zeta.
    cbn [map snd]. rewrite averages_cons. cbn [length]. 
    assert (HR : ret * gamma + fst x - a = return_above gamma b (fst x :: map fst steps) ((rho + tau * total (map snd used)) :: averages tau rho (map snd used))).
    { cbn [return_above]. rewrite <- E1, E3. lra. }
    split; [congruence|]. split; [exact HR|]. split.
    + intros [|k] K.
      * cbn [skipn nth]. rewrite <- HR. reflexivity.
      * cbn [skipn nth]. apply E2. lia.
    + cbn [total fold_right]. unfold total in *. rewrite E3. lra.
Qed.

Lemma average_returns : forall gamma tau b rho steps, let '(rho', used) := average_update gamma tau b rho steps in
  let advantages := map snd used in
  length used = length steps /\
  (forall k, (k < length steps)%nat ->
    let ret := return_above gamma b (skipn k (map fst steps)) (skipn k (averages tau rho advantages)) in
    nth k used (0, 0) = (ret, ret - snd (nth k steps (0, 0)))) /\
  rho' = rho + tau * total advantages.
Proof.
  intros. unfold average_update. pose proof (loop_closed gamma tau b rho steps) as H. unfold loop in H.
  destruct (fold_right _ _ _) as [[ret a] used]. cbn zeta. tauto.
Qed.

Definition next_value (b : R) (steps : list (R * R)) := match steps with [] => b | (_, v) :: _ => v end.
Lemma loop_rest : forall tau b rho steps, let '(ret, a, used) := loop 1 tau b rho steps in
  (differential rho b steps <-> Forall (fun p => snd p = 0) used) /\ (differential rho b steps -> a = rho /\ ret = next_value b steps).
Proof.
  intros tau b rho. induction steps as [|[r v] steps IH].
  - cbn. repeat split; auto.
  - rewrite loop_cons. destruct (loop 1 tau b rho steps) as [[ret a] used]. destruct IH as [I1 I2]. cbn [fst snd]. cbn zeta.
    cbn [differential next_value]. change (match steps with [] => b | (_, v') :: _ => v' end) with (next_value b steps). split.
    + split.
      * intros [E D]. destruct (I2 D) as [-> ->]. constructor; [cbn; lra | apply I1, D].
      * intro F. inversion F as [|p q P Q]; subst. apply I1 in Q. destruct (I2 Q) as [-> ->]. cbn in P. split; [lra|exact Q].
    + intros [E D]. destruct (I2 D) as [-> ->]. split; nra.
Qed.
Lemma average_rest : forall tau b rho steps, let '(rho', used) := average_update 1 tau b rho steps in
  (differential rho b steps <-> Forall (fun p => snd p = 0) used) /\ (differential rho b steps -> rho' = rho).
Proof.
  intros. unfold average_update. pose proof (loop_rest tau b rho steps) as H. unfold loop in H.
  destruct (fold_right _ _ _) as [[ret a] used]. tauto.
Qed.
Lemma differential_total : forall rho b steps, differential rho b steps -> total (map fst steps) = INR (length steps) * rho + next_value b steps - b.
Proof.
  induction steps as [|[r v] steps IH]; intro D.
  - cbn. lra.
  - destruct D as [E D]. specialize (IH D). cbn [map fst total fold_right length next_value]. rewrite S_INR. unfold total in IH.
    change (match steps with [] => b | (_, v') :: _ => v' end) with (next_value b steps) in E. lra.
Qed.
Lemma cycle_mean : forall rho r v steps, differential rho v ((r, v) :: steps) ->
  rho = total (map fst ((r, v) :: steps)) / INR (length ((r, v) :: steps)).
Proof.
  intros rho r v steps D. apply differential_total in D. cbn [next_value] in D. rewrite D.
  assert (INR (length ((r, v) :: steps)) <> 0) by (apply not_0_INR; cbn; lia). field. assumption.
Qed.

(** One state: the distance [d] of the average from the reward and the advantage [A] make an oscillator. *)
Fixpoint osc (tau : R) (n : nat) : R * R := match n with O => (0, 1) | S n => let '(A, d) := osc tau n in (A + d, d - tau * (A + d)) end.
Lemma repeat_S_end {X} : forall (x : X) n, repeat x (S n) = x :: repeat x n. Proof. reflexivity. Qed.
Lemma loop_osc : forall tau rho r v n, let '(ret, a, _) := loop 1 tau v rho (repeat (r, v) n) in
  ret - v = fst (osc tau n) * (r - rho) /\ r - a = snd (osc tau n) * (r - rho).
Proof.
  intros tau rho r v. induction n as [|n IH].
  - cbn. split; lra.
  - rewrite repeat_S_end, loop_cons. destruct (loop 1 tau v rho (repeat (r, v) n)) as [[ret a] used]. cbn zeta.
    cbn [osc]. destruct (osc tau n) as [A d]. cbn [fst snd] in *. destruct IH as [I1 I2]. split.
    + replace ((A + d) * (r - rho)) with (A * (r - rho) + d * (r - rho)) by ring. rewrite <- I1, <- I2. ring.
    + replace ((d - tau * (A + d)) * (r - rho)) with (d * (r - rho) - tau * (A * (r - rho) + d * (r - rho))) by ring. rewrite <- I1, <- I2. ring.
Qed.
Lemma update_osc : forall tau rho r v n, r - fst (average_update 1 tau v rho (repeat (r, v) n)) = snd (osc tau n) * (r - rho).
Proof.
  intros. unfold average_update. pose proof (loop_osc tau rho r v n) as H. unfold loop in H.
  destruct (fold_right _ _ _) as [[ret a] used]. apply H.
Qed.
Lemma after_osc : forall tau r v n k rho, r - average_after 1 tau rho (one_state k n r v) = snd (osc tau n) ^ k * (r - rho).
Proof.
  intros tau r v n. unfold average_after, one_state. induction k as [|k IH]; intro rho.
  - cbn. lra.
  - cbn [repeat fold_left]. rewrite IH. cbn [fst snd]. rewrite update_osc. cbn [pow]. ring.
Qed.

Lemma osc_small : forall tau n, 0 < tau -> tau * (INR n * (INR n + 1)) <= 2 -> forall k, (k <= n)%nat ->
  0 <= fst (osc tau k) <= INR k /\ 1 - tau * (INR k * (INR k + 1)) / 2 <= snd (osc tau k) <= 1 /\ ((1 <= k)%nat -> snd (osc tau k) <= 1 - tau).
Proof.
  intros tau n T B. induction k as [|k IH]; intro K.
  - cbn. repeat split; try lra. intro. lia.
  - destruct IH as (I1 & I2 & I3); [lia|]. assert (HK : INR k + 1 <= INR n) by (rewrite <- S_INR; apply le_INR; lia).
    pose proof (pos_INR k) as P. rewrite S_INR. cbn [osc]. destruct (osc tau k) as [A d] eqn:OE. cbn [fst snd] in *.
    assert (D : 0 <= d).
    { assert (tau * (INR k * (INR k + 1)) <= tau * (INR n * (INR n + 1))) by (apply Rmult_le_compat_l; [lra|]; nra). lra. }
    assert (M : tau * (A + d) <= tau * (INR k + 1)) by (apply Rmult_le_compat_l; lra).
    assert (M0 : 0 <= tau * (A + d)) by (apply Rmult_le_pos; lra).
    split; [lra|]. split; [split; [nra|lra]|]. intros _. destruct k as [|k].
    + cbn in OE. injection OE as <- <-. lra.
    + specialize (I3 ltac:(lia)). lra.
Qed.

Lemma average_converges : forall tau r v n rho k, 0 < tau -> (1 <= n)%nat -> tau * (INR n * (INR n + 1)) <= 2 ->
  Rabs (average_after 1 tau rho (one_state k n r v) - r) <= (1 - tau) ^ k * Rabs (rho - r).
Proof.
  intros tau r v n rho k T N B. rewrite Rabs_minus_sym, after_osc, Rabs_mult, (Rabs_minus_sym rho r).
  destruct (osc_small tau n T B n (le_n _)) as (_ & [L _] & U). specialize (U N). apply Rmult_le_compat_r; [apply Rabs_pos|].
  assert (0 <= snd (osc tau n)) by lra. rewrite <- RPow_abs, Rabs_pos_eq by assumption. apply pow_incr. lra.
Qed.

(** The oscillator for tau = 1/100 in integers, scaled by 100 to the number of steps. *)
Fixpoint oscz (n : nat) : Z * Z := match n with O => (0, 1)%Z | S n => let '(A, d) := oscz n in (100 * (A + d), 100 * d - (A + d))%Z end.
Lemma oscz_osc : forall n, fst (osc (1 / 100) n) * 100 ^ n = IZR (fst (oscz n)) /\ snd (osc (1 / 100) n) * 100 ^ n = IZR (snd (oscz n)).
Proof.
  induction n as [|n IH].
  - cbn [osc oscz fst snd pow]. lra.
  - cbn [osc oscz pow]. destruct (osc (1 / 100) n) as [A d], (oscz n) as [Az dz]. cbn [fst snd] in *.
    rewrite minus_IZR, !mult_IZR, plus_IZR. destruct IH as [<- <-]. lra.
Qed.
Lemma osc_31 : snd (osc (1 / 100) 31) < -1.
Proof.
  destruct (oscz_osc 31) as [_ E]. assert (P : 0 < 100 ^ 31) by (apply pow_lt; lra).
  apply Rmult_lt_reg_r with (100 ^ 31); [exact P|]. rewrite E. replace (-1 * 100 ^ 31) with (IZR (- 100 ^ 31)).
  - apply IZR_lt. vm_compute. reflexivity.
  - rewrite opp_IZR. change 31%Z with (Z.of_nat 31). rewrite <- pow_IZR. lra.
Qed.
Lemma average_diverges : forall r v rho, rho <> r -> forall M, exists K, forall k, (K <= k)%nat ->
  M < Rabs (average_after 1 (1 / 100) rho (one_state k 31 r v) - r).
Proof.
  intros r v rho N M. pose proof osc_31 as H. assert (P : 0 < Rabs (r - rho)) by (apply Rabs_pos_lt; lra).
  destruct (Pow_x_infinity (snd (osc (1 / 100) 31))) with (b := (M + 1) / Rabs (r - rho)) as [K HK].
  { rewrite Rabs_left; lra. }
  exists K. intros k Hk. rewrite Rabs_minus_sym, after_osc, Rabs_mult. specialize (HK k Hk). apply Rge_le in HK.
  apply (Rmult_le_compat_r (Rabs (r - rho))) in HK; [|lra].
  replace ((M + 1) / Rabs (r - rho) * Rabs (r - rho)) with (M + 1) in HK by (field; lra). lra.
Qed.
