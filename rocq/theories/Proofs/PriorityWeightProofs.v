From Coq Require Import Reals Lra Lia.
From Verif Require Import Base.PyBase Model.PriorityWeight.
Set Implicit Arguments.
Local Open Scope R_scope.

Lemma Rleb_true a b : Rleb a b = true -> a <= b.
Proof. unfold Rleb. destruct (Rle_dec a b); [auto|discriminate]. Qed.

Lemma pwe_init_inv alpha b0 bs eps nm emin emax w :
  pwe_init alpha b0 bs eps nm emin emax = Ok w ->
  0 <= alpha /\ 0 <= b0 <= 1 /\ w_alpha w = alpha /\ w_beta w = b0 /\ w_eps w = eps /\
  w_min w = emin /\ w_max w = emax /\ w_norm w = match nm with NormTrue => NormBatch | m => m end /\
  w_beta_add w = match bs with None => 0 | Some s => (1 - b0) / s end /\ bs <> Some 0.
Proof.
  unfold pwe_init. destruct (Rleb 0 alpha) eqn:Ea; [|discriminate].
  destruct (Rleb 0 b0 && Rleb b0 1) eqn:Eb; [|discriminate].
  apply andb_prop in Eb as [E1 E2]. apply Rleb_true in Ea, E1, E2.
  destruct bs as [s|].
  - destruct (Req_EM_T s 0); [discriminate|]. cbn. intros [= <-]. cbn. repeat (split; [auto; fail|]). intros [= ->]; auto.
  - cbn. intros [= <-]. cbn. repeat (split; [auto; fail|]). discriminate.
Qed.

Lemma wfp_ok w len probs mp ws w' : weights_from_probabilities w len probs mp = Ok (ws, w') ->
  w_alpha w' = w_alpha w /\ w_beta w' = Rmin 1 (w_beta w + w_beta_add w) /\ w_beta_add w' = w_beta_add w /\
  w_eps w' = w_eps w /\ w_norm w' = w_norm w /\ w_min w' = w_min w /\ w_max w' = w_max w.
Proof.
  unfold weights_from_probabilities. destruct (match w_norm w with NormBatch => _ | _ => _ end); cbn [bind]; [|discriminate].
  intros [= _ <-]. cbn. auto 10.
Qed.

Lemma beta_closed_form calls : forall w r w' b0,
  w_beta w = Rmin 1 b0 -> 0 <= w_beta_add w ->
  weight_calls w calls = Ok (r, w') ->
  w_beta w' = Rmin 1 (b0 + INR (length calls) * w_beta_add w) /\ w_beta_add w' = w_beta_add w.
Proof.
  induction calls as [|[[len probs] mp] t IH]; intros w r w' b0 Hb Ha H.
  - cbn in H. injection H as <- <-. cbn. split; auto. rewrite Hb. f_equal. lra.
  - cbn [weight_calls] in H. destruct (weights_from_probabilities w len probs mp) as [[ws w1]|] eqn:E; [|discriminate].
    cbn [bind] in H. destruct (weight_calls w1 t) as [[r2 w2]|] eqn:E2; [|discriminate]. cbn [bind] in H.
    injection H as <- <-. apply wfp_ok in E as (_ & Eb & Ead & _).
    destruct (IH w1 r2 w2 (b0 + w_beta_add w)) as [H1 H2]; auto; [|lra|].
    + rewrite Eb, Hb. unfold Rmin. repeat destruct (Rle_dec _ _); lra.
    + split; [|congruence]. rewrite H1, Ead. cbn [length]. rewrite S_INR. f_equal. lra.
Qed.

Lemma beta_schedule alpha b0 bs eps nm emin emax w calls r w' :
  pwe_init alpha b0 (Some bs) eps nm emin emax = Ok w -> 0 < bs ->
  weight_calls w calls = Ok (r, w') ->
  w_beta w' = Rmin 1 (b0 + INR (length calls) * ((1 - b0) / bs)) /\
  b0 <= w_beta w' <= 1 /\ (bs <= INR (length calls) -> w_beta w' = 1).
Proof.
  intros Hi Hs H. apply pwe_init_inv in Hi as (_ & Hb0 & _ & Hb & _ & _ & _ & _ & Had & _).
  assert (Hadd : 0 <= w_beta_add w). { rewrite Had. apply Rmult_le_pos; [lra|]. left. now apply Rinv_0_lt_compat. }
  destruct (@beta_closed_form calls w r w' b0) as [E _]; auto.
  { rewrite Hb. rewrite Rmin_right; lra. }
  rewrite Had in *. rewrite E. split; auto.
  pose proof (pos_INR (length calls)) as Hp.
  assert (Hm : 0 <= INR (length calls) * ((1 - b0) / bs)) by (apply Rmult_le_pos; lra).
  split.
  - unfold Rmin. destruct (Rle_dec _ _); lra.
  - intros Hle. rewrite Rmin_left; auto.
    assert (bs * ((1 - b0) / bs) <= INR (length calls) * ((1 - b0) / bs)) by (apply Rmult_le_compat_r; auto).
    replace (bs * ((1 - b0) / bs)) with (1 - b0) in H0 by (field; lra). lra.
Qed.

Lemma beta_constant alpha b0 eps nm emin emax w calls r w' :
  pwe_init alpha b0 None eps nm emin emax = Ok w ->
  weight_calls w calls = Ok (r, w') -> w_beta w' = b0.
Proof.
  intros Hi H. apply pwe_init_inv in Hi as (_ & Hb0 & _ & Hb & _ & _ & _ & _ & Had & _).
  destruct (@beta_closed_form calls w r w' b0) as [E _]; auto.
  { rewrite Hb. rewrite Rmin_right; lra. } { rewrite Had; lra. }
  rewrite E, Had. rewrite Rmult_0_r, Rplus_0_r, Rmin_right; lra.
Qed.

(** Powers. *)
Lemma py_pow_1 y : py_pow 1 y = 1.
Proof. unfold py_pow. destruct (Req_EM_T 1 0); [lra|]. unfold Rpower. rewrite ln_1, Rmult_0_r, exp_0. auto. Qed.
Lemma py_pow_pos x y : 0 < x -> 0 < py_pow x y.
Proof. intros H. unfold py_pow. destruct (Req_EM_T x 0); [lra|]. apply exp_pos. Qed.
Lemma ln_nonneg x : 1 <= x -> 0 <= ln x.
Proof. intros H. rewrite <- ln_1. destruct (Req_dec x 1) as [->|]; [lra|]. left. apply ln_increasing; lra. Qed.
Lemma exp_le a b : a <= b -> exp a <= exp b.
Proof. intros [H| ->]; [left; now apply exp_increasing|lra]. Qed.
Lemma py_pow_neg_le1 x y : 1 <= x -> 0 <= y -> py_pow x (- y) <= 1.
Proof.
  intros Hx Hy. unfold py_pow. destruct (Req_EM_T x 0); [lra|]. unfold Rpower.
  rewrite <- exp_0. apply exp_le. pose proof (ln_nonneg Hx). nra.
Qed.
Lemma py_pow_mono x1 x2 y : 0 <= x1 <= x2 -> 0 <= y -> py_pow x1 y <= py_pow x2 y.
Proof.
  intros Hx Hy. unfold py_pow. destruct (Req_EM_T x1 0) as [->|]; destruct (Req_EM_T x2 0) as [E|].
  - lra.
  - destruct (Req_EM_T y 0) as [->|]; [|left; apply exp_pos]. unfold Rpower. rewrite Rmult_0_l, exp_0. lra.
  - lra.
  - destruct (proj2 Hx) as [H| ->]; [|lra]. unfold Rpower. apply exp_le. apply Rmult_le_compat_l; auto.
    left. apply ln_increasing; lra.
Qed.

(** Minima. *)
Lemma fold_Rmin_le l : forall x y, In y (x :: l) -> fold_left Rmin l x <= y.
Proof.
  induction l as [|a l IH]; intros x y [->|H]; cbn [fold_left]; try lra; try destruct H.
  - apply Rle_trans with (Rmin y a); [apply IH; left; auto|apply Rmin_l].
  - subst. apply Rle_trans with (Rmin x y); [apply IH; left; auto|apply Rmin_r].
  - apply IH. right; auto.
Qed.
Lemma fold_Rmin_in l : forall x, In (fold_left Rmin l x) (x :: l).
Proof.
  induction l as [|a l IH]; intros x; cbn [fold_left]; [left; auto|].
  destruct (IH (Rmin x a)) as [E|H]; [|right; right; auto].
  rewrite <- E. unfold Rmin. destruct (Rle_dec x a); [left|right; left]; auto.
Qed.

Lemma weights_normalised alpha b0 bs eps nm emin emax w0 calls r w len probs mp ws w' :
  pwe_init alpha b0 bs eps nm emin emax = Ok w0 -> match bs with Some s => 0 < s | None => True end ->
  nm <> NormFalse ->
  weight_calls w0 calls = Ok (r, w) ->
  (forall p, In p probs -> 0 < mp <= p) ->
  weights_from_probabilities w len probs mp = Ok (ws, w') ->
  let least := match nm with NormMemory => mp | _ => fold_left Rmin (tl probs) (hd 0 probs) end in
  Forall2 (fun p wt => 0 < wt <= 1 /\ (p = least -> wt = 1) /\
                       wt = Rpower (p / least) (- w_beta w)) probs ws.
Proof.
  intros Hi Hbs Hnm Hc Hp H. 
  assert (Hb : 0 <= w_beta w).
  { destruct bs as [s|].
    - destruct (@beta_schedule _ _ _ _ _ _ _ _ _ _ _ Hi Hbs Hc) as (_ & Hx & _). apply pwe_init_inv in Hi. lra.
    - rewrite (@beta_constant _ _ _ _ _ _ _ _ _ _ Hi Hc). apply pwe_init_inv in Hi. lra. }
  assert (Hn : w_norm w = match nm with NormTrue => NormBatch | m => m end).
  { apply pwe_init_inv in Hi as (_ & _ & _ & _ & _ & _ & _ & <- & _ & _). clear - Hc. revert w0 r Hc.
    induction calls as [|[[len probs] mp] t IH]; intros w0 r H; cbn [weight_calls] in H; [congruence|].
    destruct (weights_from_probabilities w0 len probs mp) as [[ws w1]|] eqn:E; [|discriminate]. cbn [bind] in H.
    destruct (weight_calls w1 t) as [[r2 w2]|] eqn:E2; [|discriminate]. injection H as <- <-.
    apply wfp_ok in E as (_ & _ & _ & _ & Hn & _). rewrite <- Hn. eapply IH; eauto. }
  unfold weights_from_probabilities in H. rewrite Hn in H.
  set (least := match nm with NormMemory => mp | _ => fold_left Rmin (tl probs) (hd 0 probs) end).
  assert (Hw : ws = map (fun p => py_pow (p / least) (- w_beta w)) probs).
  { unfold least. destruct nm; try congruence; unfold list_min in H; destruct probs as [|p t]; cbn [bind] in H;
      try discriminate; injection H as <- <-; reflexivity. }
  assert (Hl : forall p, In p probs -> 0 < least <= p).
  { assert (Hb' : forall p, In p probs -> 0 < fold_left Rmin (tl probs) (hd 0 probs) <= p).
    { clear - Hp. intros p Hin. destruct probs as [|q t]; [destruct Hin|]. cbn [hd tl]. split.
      - apply Rlt_le_trans with mp; apply (Hp (fold_left Rmin t q)), fold_Rmin_in.
      - apply fold_Rmin_le; auto. }
    unfold least. destruct nm; auto. }
  rewrite Hw. clear - Hl Hb. clearbody least. revert Hl. 
  induction probs as [|p t IH]; intros Hl; cbn [map]; constructor.
  - destruct (Hl p (or_introl eq_refl)) as [H1 H2].
    assert (Hq : 1 <= p / least).
    { apply (Rmult_le_reg_r least); auto. unfold Rdiv. rewrite Rmult_assoc, Rinv_l by lra. lra. }
    split; [split|split].
    + apply py_pow_pos. lra.
    + apply py_pow_neg_le1; auto.
    + intros ->. replace (least / least) with 1 by (field; lra). apply py_pow_1.
    + unfold py_pow. destruct (Req_EM_T (p / least) 0); lra.
  - apply IH. intros q Hq. apply Hl. right; auto.
Qed.

(** Priorities. *)
Lemma clip_bounds w d lo : w_min w = Some lo -> (forall hi, w_max w = Some hi -> lo <= hi) ->
  lo <= clip_error w d /\ (forall hi, w_max w = Some hi -> clip_error w d <= hi) /\
  (lo <= d -> (forall hi, w_max w = Some hi -> d <= hi) -> clip_error w d = d).
Proof.
  intros Hm Hh. unfold clip_error. rewrite Hm. destruct (w_max w) as [hi|].
  - specialize (Hh hi eq_refl). unfold Rmax, Rmin. split; [|split].
    + destruct (Rle_dec lo d); destruct (Rle_dec hi _); lra.
    + intros h [= <-]. destruct (Rle_dec lo d); destruct (Rle_dec hi _); lra.
    + intros H1 H2. specialize (H2 hi eq_refl). destruct (Rle_dec lo d); destruct (Rle_dec hi _); lra.
  - unfold Rmax. split; [|split]; [destruct (Rle_dec lo d); lra|discriminate|]. intros; destruct (Rle_dec lo d); lra.
Qed.

Lemma clip_mono w d1 d2 : d1 <= d2 -> clip_error w d1 <= clip_error w d2.
Proof.
  intros H. unfold clip_error. destruct (w_min w), (w_max w); unfold Rmax, Rmin;
    repeat destruct (Rle_dec _ _); lra.
Qed.

Lemma priorities_spec w errors lo : 0 <= w_alpha w -> 0 < w_eps w -> w_min w = Some lo -> 0 <= lo ->
  (forall hi, w_max w = Some hi -> lo <= hi) ->
  Forall2 (fun d p => p = Rpower (clip_error w d + w_eps w) (w_alpha w) /\ 0 < p /\
                      lo <= clip_error w d /\ (forall hi, w_max w = Some hi -> clip_error w d <= hi))
          errors (priority_from_errors w errors) /\
  (forall d1 d2 p1 p2, d1 <= d2 -> priority_from_errors w [d1; d2] = [p1; p2] -> p1 <= p2).
Proof.
  intros Ha He Hm Hlo Hhi. split.
  - induction errors as [|d t IH]; cbn [priority_from_errors map]; constructor; auto.
    destruct (@clip_bounds w d lo Hm Hhi) as (H1 & H2 & _).
    split; [|split; [|split; auto]].
    + unfold py_pow. destruct (Req_EM_T _ 0); lra.
    + apply py_pow_pos. lra.
  - intros d1 d2 p1 p2 Hd. cbn. intros [= <- <-]. apply py_pow_mono; auto.
    destruct (@clip_bounds w d1 lo Hm Hhi) as (H1 & _). pose proof (@clip_mono w _ _ Hd). lra.
Qed.
