From Coq Require Import Reals List String Arith Lia Lra.
From Verif Require Import Base.PyBase Model.Distributions Model.Optimizers Spec.SumSpec Spec.OptimizerSpec.
Import ListNotations.
Local Open Scope R_scope.

Lemma zipr_len : forall f a b, List.length a = List.length b -> List.length (zipr f a b) = List.length a.
Proof. induction a; intros [|y b] H; cbn in *; try discriminate; [reflexivity|]. f_equal. apply IHa. lia. Qed.
Lemma zipr_nth : forall f a b j, List.length a = List.length b -> (j < List.length a)%nat -> nth j (zipr f a b) 0 = f (nth j a 0) (nth j b 0).
Proof. induction a; intros [|y b] j H Hj; cbn in *; try discriminate; [lia|]. destruct j; [reflexivity|]. apply IHa; lia. Qed.
Lemma zeros_nth : forall (a : list R) j, nth j (map (fun _ => 0) a) 0 = 0.
Proof. induction a; intros [|j]; cbn; auto. Qed.

(** The invariant: values and mean squares of all the entries. *)
Definition good (s : slot) : Prop := exists a, p_array s = Some a /\ match p_ms s with Some m => List.length m = List.length a | None => True end.
Definition value (s : slot) (j : nat) : R * R := (entry (p_array s) j, entry (p_ms s) j).
Lemma update_ok : forall hp rate s g, good s -> (forall a v, p_array s = Some a -> g = Some v -> List.length v = List.length a) ->
  let s' := update_slot hp rate (mk_slot (p_name s) (p_array s) g (p_ms s)) in
  good s' /\ p_name s' = p_name s /\ (exists a a', p_array s = Some a /\ p_array s' = Some a' /\ List.length a' = List.length a) /\
  forall a j, p_array s = Some a -> (j < List.length a)%nat -> value s' j = rms_step hp (decay_of rate (p_name s)) (value s j) (entry g j).
Proof.
  intros hp rate [nm arr g0 ms] g (a & Ea & Em) F. cbn in Ea, Em. subst arr. cbn [p_name p_array p_ms] in *.
  set (v := match g with Some v => v | None => map (fun _ => 0) a end). assert (Lv : List.length v = List.length a) by (unfold v; destruct g; [apply F; reflexivity|apply map_length]).
  assert (Ev : forall j, nth j v 0 = entry g j) by (intros j; unfold v; destruct g; [reflexivity|apply zeros_nth]).
  set (d := decay_of rate nm).
  set (w := match rate with Some r => if String.eqb nm "b" then v else zipr (fun g p => g + r * p) v a | None => v end).
  assert (Lw : List.length w = List.length a) by (unfold w; destruct rate; [destruct (String.eqb nm "b"); [exact Lv|rewrite zipr_len; exact Lv]|exact Lv]).
  assert (Ew : forall j, (j < List.length a)%nat -> nth j w 0 = entry g j + d * nth j a 0).
  { intros j Hj. unfold w, d, decay_of. destruct rate as [r|]; [|rewrite Ev; ring]. destruct (String.eqb nm "b"); [rewrite Ev; ring|]. rewrite zipr_nth by (rewrite ?Lv; auto). rewrite Ev. reflexivity. }
  set (m := match ms with Some m => m | None => map (fun _ => 0) a end). assert (Lm : List.length m = List.length a) by (unfold m; destruct ms; [exact Em|apply map_length]).
  assert (Emn : forall j, nth j m 0 = entry ms j) by (intros j; unfold m; destruct ms; [reflexivity|apply zeros_nth]).
  set (m' := zipr (fun m g => m * alpha hp + (1 - alpha hp) * g * g) m w). assert (Lm' : List.length m' = List.length a) by (unfold m'; rewrite zipr_len; congruence).
  set (a' := zipr Rminus a (zipr (fun g m => lr hp * g / sqrt (m + eps hp)) w m')). assert (La' : List.length a' = List.length a) by (unfold a'; rewrite zipr_len; [reflexivity|rewrite zipr_len; congruence]).
  assert (E : exists g', update_slot hp rate (mk_slot nm (Some a) g ms) = mk_slot nm (Some a') g' (Some m')).
  { unfold update_slot. assert (E1 : reallocate (mk_slot nm (Some a) g ms) = mk_slot nm (Some a) (Some v) ms) by (unfold reallocate, v; cbn [p_name p_array p_grad p_ms]; destruct g; reflexivity).
    rewrite E1. assert (E2 : match rate with Some r => nonbias_decay r (mk_slot nm (Some a) (Some v) ms) | None => mk_slot nm (Some a) (Some v) ms end = mk_slot nm (Some a) (Some w) ms)
      by (unfold w, nonbias_decay; cbn [p_name p_array p_grad p_ms]; destruct rate; [destruct (String.eqb nm "b")|]; reflexivity).
    rewrite E2. unfold init_state, m', m. cbn [p_name p_array p_grad p_ms]. exists (Some w). destruct ms; reflexivity. }
  destruct E as [g' E]. cbv zeta. rewrite E. split; [exists a'; split; [reflexivity|cbn; congruence]|]. split; [reflexivity|]. split; [exists a, a'; auto|].
  intros a0 j Q Hj. injection Q as <-. unfold value, rms_step. cbn [p_array p_ms entry]. fold d.
  assert (Hm' : nth j m' 0 = alpha hp * entry ms j + (1 - alpha hp) * ((entry g j + d * nth j a 0) * (entry g j + d * nth j a 0))).
  { unfold m'. rewrite zipr_nth by (rewrite ?Lm, ?Lw; auto). rewrite Emn, Ew by exact Hj. ring. }
  f_equal; [|exact Hm']. unfold a'. assert (Lb : List.length (zipr (fun g m => lr hp * g / sqrt (m + eps hp)) w m') = List.length a) by (rewrite zipr_len; congruence).
  rewrite zipr_nth by (rewrite ?Lb; auto). rewrite zipr_nth by (rewrite ?Lw, ?Lm'; auto). rewrite Hm', Ew by exact Hj. reflexivity.
Qed.

Definition same_shape (m m' : list slot) : Prop := Forall2 (fun s s' => p_name s' = p_name s /\ good s /\ good s' /\ exists a a', p_array s = Some a /\ p_array s' = Some a' /\ List.length a' = List.length a) m m'.
Lemma step_ok : forall hp rate model grads, Forall good model -> fits model grads ->
  same_shape model (train_step hp rate model grads) /\
  forall i s a, nth_error model i = Some s -> p_array s = Some a -> exists s', nth_error (train_step hp rate model grads) i = Some s' /\
    forall j, (j < List.length a)%nat -> value s' j = rms_step hp (decay_of rate (p_name s)) (value s j) (entry_of grads i j).
Proof.
  intros hp rate model grads G F. revert G. induction F as [|s g model grads Fs F IH]; intros G.
  - split; [constructor|]. intros [|i] s a E; discriminate.
  - inversion G as [|? ? Gs Gm]; subst. destruct (IH Gm) as [I1 I2]. destruct (update_ok hp rate s g Gs Fs) as (U1 & U2 & U3 & U4). cbn [train_step]. split; [constructor; auto|].
    intros [|i] s0 a E Ea; cbn [nth_error] in *.
    + injection E as <-. eexists. split; [reflexivity|]. intros j Hj. rewrite (U4 a j Ea Hj). reflexivity.
    + apply (I2 i s0 a E Ea).
Qed.
Lemma shape_fits : forall m m' grads, same_shape m m' -> fits m grads -> fits m' grads.
Proof.
  intros m m' grads S. revert grads. induction S as [|s s' m m' (N & G & G' & a & a' & E & E' & L) S IH]; intros grads F; inversion F; subst; constructor; [|apply IH; assumption].
  intros b v Eb Ev. rewrite E' in Eb. injection Eb as <-. rewrite L. eauto.
Qed.
Lemma shape_good : forall m m', same_shape m m' -> Forall good m'.
Proof. induction 1 as [|s s' m m' (N & G & G' & _) S IH]; constructor; auto. Qed.
Lemma shape_nth : forall m m', same_shape m m' -> forall i s, nth_error m i = Some s -> exists s', nth_error m' i = Some s' /\ p_name s' = p_name s /\
  exists a a', p_array s = Some a /\ p_array s' = Some a' /\ List.length a' = List.length a.
Proof.
  induction 1 as [|s s' m m' (N & G & G' & A) S IH]; intros [|i] s0 E; cbn in *; try discriminate; [injection E as <-; eauto|apply IH, E].
Qed.
Lemma train_gen : forall hp rate steps model, Forall good model -> Forall (fits model) steps ->
  forall i s a, nth_error model i = Some s -> p_array s = Some a -> exists s' a', nth_error (train hp rate model steps) i = Some s' /\ p_name s' = p_name s /\ p_array s' = Some a' /\ List.length a' = List.length a /\
    forall j, (j < List.length a)%nat -> value s' j = fold_left (rms_step hp (decay_of rate (p_name s))) (map (fun g => entry_of g i j) steps) (value s j).
Proof.
  intros hp rate. induction steps as [|g steps IH]; intros model G F i s a E Ea.
  - exists s, a. repeat split; auto.
  - inversion F as [|? ? Fg Fs]; subst. destruct (step_ok hp rate model g G Fg) as [S V]. destruct (shape_nth _ _ S i s E) as (s1 & E1 & N1 & b & a1 & Eb & Ea1 & L1). rewrite Ea in Eb. injection Eb as <-.
    destruct (V i s a E Ea) as (s1' & E1' & V1). rewrite E1 in E1'. injection E1' as <-.
    destruct (IH (train_step hp rate model g) (shape_good _ _ S)) with (i := i) (s := s1) (a := a1) as (s' & a' & E' & N' & Ea' & L' & V'); [|exact E1|exact Ea1|].
    { revert Fs. apply Forall_impl. intros h Hh. eapply shape_fits; eassumption. }
    exists s', a'. split; [exact E'|]. split; [congruence|]. split; [exact Ea'|]. split; [congruence|]. intros j Hj. rewrite V' by congruence. rewrite N1. cbn [map fold_left]. rewrite <- V1 by exact Hj. reflexivity.
Qed.
Lemma train_ok : forall hp rate steps model, fresh model -> Forall (fits model) steps ->
  forall i s a, nth_error model i = Some s -> p_array s = Some a -> exists s' a', nth_error (train hp rate model steps) i = Some s' /\ p_name s' = p_name s /\ p_array s' = Some a' /\ List.length a' = List.length a /\
    forall j, (j < List.length a)%nat -> nth j a' 0 = fst (fold_left (rms_step hp (decay_of rate (p_name s))) (map (fun g => entry_of g i j) steps) (nth j a 0, 0)).
Proof.
  intros hp rate steps model Fr F i s a E Ea. destruct (train_gen hp rate steps model) with (i := i) (s := s) (a := a) as (s' & a' & E' & N & A & L & V); auto.
  - revert Fr. apply Forall_impl. intros t [H1 H2]. destruct (p_array t) as [b|] eqn:Q; [|congruence]. exists b. split; [exact Q|]. rewrite H2. exact I.
  - exists s', a'. repeat split; auto. intros j Hj. specialize (V j Hj). unfold value in V. rewrite A, Ea in V. cbn [entry] in V.
    assert (M : p_ms s = None). { unfold fresh in Fr. rewrite Forall_forall in Fr. apply (Fr s). eapply nth_error_In, E. }
    rewrite M in V. cbn [entry] in V. rewrite <- V. reflexivity.
Qed.

(** One step. *)
Lemma mean_square : forall hp decay gs p m, 0 <= alpha hp <= 1 -> 0 <= m -> 0 <= snd (fold_left (rms_step hp decay) gs (p, m)).
Proof.
  intros hp decay. induction gs as [|g gs IH]; intros p m A M; [exact M|]. cbn [fold_left]. unfold rms_step at 2. apply IH; [exact A|]. apply Rplus_le_le_0_compat; apply Rmult_le_pos; try lra. apply Rle_0_sqr.
Qed.
Lemma step_bound : forall hp decay p m g, 0 <= alpha hp < 1 -> 0 < eps hp -> 0 <= lr hp -> 0 <= m -> let p' := fst (rms_step hp decay (p, m) g) in let d := g + decay * p in
  Rabs (p' - p) <= lr hp / sqrt (1 - alpha hp) /\ (p' - p) * d <= 0 /\ (d = 0 -> p' = p) /\ (0 < lr hp -> d <> 0 -> (p' - p) * d < 0).
Proof.
  intros hp decay p m g A E L M. unfold rms_step. cbn [fst]. cbv zeta. set (d := g + decay * p). set (m' := alpha hp * m + (1 - alpha hp) * (d * d)).
  assert (DD : 0 <= d * d) by apply Rle_0_sqr. assert (M' : (1 - alpha hp) * (d * d) <= m') by (unfold m'; nra). assert (P : 0 < m' + eps hp) by nra.
  set (q := sqrt (m' + eps hp)). assert (Q : 0 < q) by (apply sqrt_lt_R0; exact P). assert (S1 : 0 < sqrt (1 - alpha hp)) by (apply sqrt_lt_R0; lra).
  assert (B : Rabs d * sqrt (1 - alpha hp) <= q).
  { unfold q. rewrite <- sqrt_Rsqr_abs, <- sqrt_mult by (try apply Rle_0_sqr; lra). apply sqrt_le_1_alt. unfold Rsqr. lra. }
  assert (K : p - lr hp * d / q - p = - (lr hp * d / q)) by ring. rewrite K. split; [|split; [|split]].
  - rewrite Rabs_Ropp. unfold Rdiv. rewrite !Rabs_mult, (Rabs_right (lr hp)) by lra. rewrite (Rabs_right (/ q)) by (left; apply Rinv_0_lt_compat, Q). rewrite Rmult_assoc. apply Rmult_le_compat_l; [exact L|].
    apply (Rmult_le_reg_r q); [exact Q|]. rewrite Rmult_assoc, Rinv_l by lra. rewrite Rmult_1_r. apply (Rmult_le_reg_r (sqrt (1 - alpha hp))); [exact S1|].
    replace (/ sqrt (1 - alpha hp) * q * sqrt (1 - alpha hp)) with q by (field; lra). exact B.
  - replace (- (lr hp * d / q) * d) with (- (lr hp * (d * d) / q)) by (field; lra). assert (0 <= lr hp * (d * d) / q) by (apply Rmult_le_pos; [nra|left; apply Rinv_0_lt_compat, Q]). lra.
  - intros ->. unfold Rdiv. ring.
  - intros Lp D. replace (- (lr hp * d / q) * d) with (- (lr hp * (d * d) / q)) by (field; lra). assert (0 < d * d) by nra. assert (0 < lr hp * (d * d) / q) by (apply Rdiv_lt_0_compat; nra). lra.
Qed.
(** The decayed gradient is that of the loss with a penalty. *)
Lemma decay_is_penalty : forall loss x g rate, derivable_pt_lim loss x g -> derivable_pt_lim (fun y => loss y + rate / 2 * (y * y)) x (g + rate * x).
Proof.
  intros loss x g rate D. replace (g + rate * x) with (g + rate / 2 * (1 * x + x * 1)) by field.
  apply (derivable_pt_lim_plus loss (fun y => rate / 2 * (y * y))); [exact D|]. apply (derivable_pt_lim_scal (fun y => y * y)). apply (derivable_pt_lim_mult id id); apply derivable_pt_lim_id.
Qed.
(** The position of the constant. *)
Lemma eps_inside : forall hp p g, 0 <= alpha hp <= 1 -> 0 < lr hp -> 0 < eps hp < 1 -> g <> 0 -> let m := (1 - alpha hp) * (g * g) in 2 * sqrt m + eps hp < 1 ->
  Rabs (fst (rms_step hp 0 (p, 0) g) - p) < Rabs (lr hp * g / (sqrt m + eps hp)).
Proof.
  intros hp p g A L E G m Hm. unfold rms_step. cbn [fst]. replace (g + 0 * p) with g by ring. replace (alpha hp * 0 + (1 - alpha hp) * (g * g)) with m by (unfold m; ring).
  replace (p - lr hp * g / sqrt (m + eps hp) - p) with (- (lr hp * g / sqrt (m + eps hp))) by ring. rewrite Rabs_Ropp.
  assert (M : 0 <= m) by (unfold m; apply Rmult_le_pos; [lra|apply Rle_0_sqr]). pose proof (sqrt_pos m) as SM. assert (SS : sqrt m * sqrt m = m) by (apply sqrt_sqrt, M).
  assert (C : sqrt m + eps hp < sqrt (m + eps hp)).
  { rewrite <- (sqrt_Rsqr (sqrt m + eps hp)) by lra. apply sqrt_lt_1_alt. split; [apply Rle_0_sqr|]. unfold Rsqr. nra. }
  unfold Rdiv. rewrite !Rabs_mult. apply Rmult_lt_compat_l.
  - rewrite <- Rabs_mult. apply Rabs_pos_lt. apply Rmult_integral_contrapositive_currified; lra.
  - rewrite !Rabs_right by (apply Rle_ge; left; apply Rinv_0_lt_compat; lra). apply Rinv_lt_contravar; [nra|exact C].
Qed.
Lemma run_step : forall hp decay gs p0 g, 0 <= alpha hp < 1 -> 0 < eps hp -> 0 <= lr hp ->
  let p := fst (fold_left (rms_step hp decay) gs (p0, 0)) in let p' := fst (fold_left (rms_step hp decay) (gs ++ [g]) (p0, 0)) in let d := g + decay * p in
  Rabs (p' - p) <= lr hp / sqrt (1 - alpha hp) /\ (p' - p) * d <= 0 /\ (d = 0 -> p' = p) /\ (0 < lr hp -> d <> 0 -> (p' - p) * d < 0).
Proof.
  intros hp decay gs p0 g A E L. rewrite fold_left_app. cbn [fold_left]. pose proof (mean_square hp decay gs p0 0 ltac:(lra) ltac:(lra)) as M.
  destruct (fold_left (rms_step hp decay) gs (p0, 0)) as [p m]. cbn [fst snd] in *. apply step_bound; assumption.
Qed.
