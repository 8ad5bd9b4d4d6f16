From Coq Require Import Reals List Arith Bool Lia Lra.
From Verif Require Import Base.PyBase Model.Distributions Model.PolicyGradient Model.A2CUpdate Spec.SumSpec Spec.A2CSpec Proofs.RSumFacts Proofs.PolicyGradientProofs.
Import ListNotations.
Local Open Scope R_scope.

(** ** Columns of arrays *)
Lemma rect_cons : forall X cols (row : list X) m, rectangular cols (row :: m) -> length row = cols /\ rectangular cols m.
Proof. intros X cols row m H. split; [apply H; left; reflexivity|]. intros r Hr. apply H. right. exact Hr. Qed.
Lemma rect_map : forall X Y cols (f : X -> Y) m, rectangular cols m -> rectangular cols (map (map f) m).
Proof. intros X Y cols f m H r Hr. apply in_map_iff in Hr. destruct Hr as (r' & <- & Hr). rewrite map_length. apply H, Hr. Qed.
Lemma fsum_app : forall a b, fsum (a ++ b) = fsum a + fsum b.
Proof. induction a as [|x a IH]; intros b; [symmetry; apply Rplus_0_l|]. change (x + fsum (a ++ b) = x + fsum a + fsum b). rewrite IH. ring. Qed.
Lemma row_sum : forall row, fsum row = sum_below (length row) (fun j => fsum (match nth_error row j with Some x => [x] | None => [] end)).
Proof.
  induction row as [|x row IH]; [reflexivity|]. cbn [length]. rewrite below_S. cbn [nth_error]. cbn [fsum fold_right]. fold (fsum row). rewrite IH. cbn. ring.
Qed.
Lemma below_zero : forall n, sum_below n (fun _ => 0) = 0.
Proof. induction n as [|n IH]; cbn [sum_below]; [reflexivity|]. rewrite IH. ring. Qed.
Lemma col_sum : forall cols m, rectangular cols m -> fsum (concat m) = sum_below cols (fun j => fsum (of_env j m)).
Proof.
  induction m as [|row m IH]; intros H; [cbn; rewrite below_zero; reflexivity|]. apply rect_cons in H. destruct H as [Hl H].
  cbn [concat]. rewrite fsum_app, IH, row_sum, Hl, <- below_add by exact H. apply below_ext. intros j _. cbn [of_env flat_map]. rewrite fsum_app. reflexivity.
Qed.
Lemma nth_some : forall X (l : list X) j, (j < length l)%nat -> exists x, nth_error l j = Some x.
Proof. intros X l j H. destruct (nth_error l j) eqn:E; [eexists; reflexivity|]. apply nth_error_None in E. lia. Qed.
Lemma nth_zip : forall f a b j x y, nth_error a j = Some x -> nth_error b j = Some y -> nth_error (zipr f a b) j = Some (f x y).
Proof. intros f. induction a as [|u a IH]; intros b [|j] x y Ha Hb; destruct b as [|w b]; cbn in *; try discriminate; [congruence|]. apply IH; assumption. Qed.
Lemma zip_len : forall f a b, length a = length b -> length (zipr f a b) = length a.
Proof. intros f. induction a as [|x a IH]; intros [|y b] H; cbn in *; try discriminate; [reflexivity|]. rewrite IH by lia. reflexivity. Qed.
Lemma of_env_cons : forall X j (row : list X) m x, nth_error row j = Some x -> of_env j (row :: m) = x :: of_env j m.
Proof. intros X j row m x H. cbn [of_env flat_map]. rewrite H. reflexivity. Qed.
Lemma of_env_map : forall X Y (f : X -> Y) j m, of_env j (map (map f) m) = map f (of_env j m).
Proof.
  intros X Y f j. induction m as [|row m IH]; [reflexivity|]. cbn [map of_env flat_map]. rewrite map_app, nth_error_map.
  fold (of_env j (map (map f) m)) (of_env j m). rewrite IH. destruct (nth_error row j); reflexivity.
Qed.
Lemma of_env_mat2 : forall f cols j a b, (j < cols)%nat -> rectangular cols a -> rectangular cols b -> of_env j (mat2 f a b) = zipr f (of_env j a) (of_env j b).
Proof.
  intros f cols j a b Hj. revert b. induction a as [|x a IH]; intros [|y b] Ha Hb; try reflexivity.
  - apply rect_cons in Ha. destruct Ha as [Hx Ha]. destruct (nth_some _ x j) as [u Hu]; [lia|]. rewrite (of_env_cons _ _ _ _ _ Hu). reflexivity.
  - apply rect_cons in Ha. apply rect_cons in Hb. destruct Ha as [Hx Ha], Hb as [Hy Hb].
    destruct (nth_some _ x j) as [u Hu]; [lia|]. destruct (nth_some _ y j) as [w Hw]; [lia|].
    rewrite (of_env_cons _ _ _ _ _ Hu), (of_env_cons _ _ _ _ _ Hw). unfold mat2. cbn [combine map fst snd].
    fold (mat2 f a b). rewrite (of_env_cons _ _ _ _ _ (nth_zip f _ _ _ _ _ Hu Hw)), IH by assumption. reflexivity.
Qed.
Lemma rect_mat2 : forall f cols a b, rectangular cols a -> rectangular cols b -> rectangular cols (mat2 f a b).
Proof.
  intros f cols a b Ha Hb r Hr. unfold mat2 in Hr. apply in_map_iff in Hr. destruct Hr as ([u w] & <- & Hi). cbn [fst snd].
  pose proof (in_combine_l _ _ _ _ Hi) as Hu. pose proof (in_combine_r _ _ _ _ Hi) as Hw. apply Ha in Hu. apply Hb in Hw. rewrite zip_len; congruence.
Qed.
(** Cutting a flat array into rows again. *)
Lemma reshape_ok : forall X cols (m : list (list X)), rectangular cols m -> np_reshape (length m) cols (concat m) = m.
Proof.
  intros X cols. induction m as [|row m IH]; intros H; [reflexivity|]. apply rect_cons in H. destruct H as [Hl H].
  unfold np_reshape. cbn [length seq map concat]. rewrite Nat.mul_0_l. cbn [skipn].
  rewrite firstn_app, Hl, Nat.sub_diag, firstn_O, app_nil_r. rewrite <- Hl, firstn_all. f_equal.
  rewrite <- (IH H) at 2. rewrite Hl. unfold np_reshape. rewrite <- seq_shift, map_map. apply map_ext. intros i. f_equal. cbn [Nat.mul].
  rewrite skipn_app, Hl. rewrite skipn_all2 by lia. cbn [app]. f_equal. lia.
Qed.
Lemma concat_len : forall X cols (m : list (list X)), rectangular cols m -> length (concat m) = (length m * cols)%nat.
Proof. intros X cols. induction m as [|row m IH]; intros H; [reflexivity|]. apply rect_cons in H. destruct H as [Hl H]. cbn [concat length]. rewrite app_length, IH by exact H. lia. Qed.
Lemma combine_map : forall X Y Z (f : X -> Y) (g : X -> Z) l, combine (map f l) (map g l) = map (fun x => (f x, g x)) l.
Proof. intros. induction l as [|x l IH]; [reflexivity|]. cbn. rewrite IH. reflexivity. Qed.

(** ** One column *)
Section Column.
  Context {St Act : Type}.
  Variable value : R -> St -> R.
  Variable log_prob : R -> St -> Act -> R.
  Variable entropy : R -> St -> R.
  Notation cells := (list (cell St Act)).
  Definition mask (x : cell St Act) : R := if e_done x then 0 else 1.
  Fixpoint col_plain (gamma last : R) (l : cells) : list R :=
    match l with [] => [] | x :: l => let below := col_plain gamma last l in (e_reward x + gamma * hd last below * mask x) :: below end.
  Fixpoint col_gae (gamma tau theta0 last : R) (l : cells) : R * list R :=
    match l with
    | [] => (0, [])
    | x :: l => let (gae, below) := col_gae gamma tau theta0 last l in
        let v := value theta0 (e_state x) in
        let g := e_reward x + gamma * hd last (map (fun y => value theta0 (e_state y)) l) * mask x - v + gamma * tau * mask x * gae in
        (g, g + v :: below)
    end.
  Definition col_returns (c : a2c_conf) (theta0 last : R) (l : cells) : list R :=
    if a2_use_gae c then snd (col_gae (a2_gamma c) (a2_tau c) theta0 last l) else col_plain (a2_gamma c) last l.

  Lemma plain_col : forall gamma cols next (rounds : list cells) j u, (j < cols)%nat -> rectangular cols rounds -> length next = cols -> nth_error next j = Some u ->
    rectangular cols (plain_returns gamma next (a2_rewards rounds) (a2_masks rounds)) /\
    of_env j (plain_returns gamma next (a2_rewards rounds) (a2_masks rounds)) = col_plain gamma u (of_env j rounds) /\
    nth_error (hd next (plain_returns gamma next (a2_rewards rounds) (a2_masks rounds))) j = Some (hd u (col_plain gamma u (of_env j rounds))).
  Proof.
    intros gamma cols next rounds j u Hj H Hn Hu. induction rounds as [|row rounds IH].
    - cbn. repeat split; [|exact Hu]. intros r [].
    - apply rect_cons in H. destruct H as [Hl H]. specialize (IH H). destruct IH as (Ir & Ic & Ih).
      cbn [a2_rewards a2_masks map plain_returns]. fold (a2_rewards rounds) (a2_masks rounds).
      set (below := plain_returns gamma next (a2_rewards rounds) (a2_masks rounds)) in *.
      destruct (nth_some _ row j) as [x Hx]; [lia|].
      assert (Hlen : length (hd next below) = cols) by (destruct below as [|b0 bs]; [exact Hn|apply Ir; left; reflexivity]).
      assert (Hh : nth_error (zipr Rplus (map e_reward row) (zipr Rmult (map (Rmult gamma) (hd next below)) (map (fun y => if e_done y then 0 else 1) row))) j
                   = Some (e_reward x + gamma * hd u (col_plain gamma u (of_env j rounds)) * mask x)).
      { apply nth_zip; [rewrite nth_error_map, Hx; reflexivity|]. apply nth_zip; [rewrite nth_error_map, Ih; reflexivity|]. rewrite nth_error_map, Hx. reflexivity. }
      rewrite (of_env_cons _ _ _ _ _ Hx). cbn [col_plain hd]. split; [|split].
      + intros r [<-|Hr]; [|apply Ir; exact Hr]. rewrite zip_len; rewrite ?map_length; [exact Hl|]. rewrite zip_len; rewrite ?map_length; lia.
      + rewrite (of_env_cons _ _ _ _ _ Hh), Ic. reflexivity.
      + exact Hh.
  Qed.
  Lemma gae_col : forall gamma tau theta0 cols next (rounds : list cells) j u, (j < cols)%nat -> rectangular cols rounds -> length next = cols -> nth_error next j = Some u ->
    let z := gae_returns gamma tau cols (a2_rewards rounds) (a2_masks rounds) (a2_value_preds value theta0 rounds ++ [next]) in
    let k := col_gae gamma tau theta0 u (of_env j rounds) in
    length (fst z) = cols /\ rectangular cols (snd z) /\ of_env j (snd z) = snd k /\ nth_error (fst z) j = Some (fst k).
  Proof.
    intros gamma tau theta0 cols next rounds j u Hj H Hn Hu. cbv zeta. induction rounds as [|row rounds IH].
    - cbn. repeat split; [apply repeat_length|intros r []|]. rewrite nth_error_repeat by exact Hj. reflexivity.
    - apply rect_cons in H. destruct H as [Hl H]. specialize (IH H). destruct IH as (Il & Ir & Ic & Ih).
      destruct (nth_some _ row j) as [x Hx]; [lia|]. rewrite (of_env_cons _ _ _ _ _ Hx).
      assert (Hv : exists v1 rest, a2_value_preds value theta0 rounds ++ [next] = v1 :: rest /\ length v1 = cols /\
                     nth_error v1 j = Some (hd u (map (fun y => value theta0 (e_state y)) (of_env j rounds)))).
      { destruct rounds as [|row' rounds]; [exists next, []; repeat split; [exact Hn|exact Hu]|].
        apply rect_cons in H. destruct H as [Hl' _]. eexists _, _. split; [reflexivity|]. rewrite map_length. split; [exact Hl'|].
        destruct (nth_some _ row' j) as [y Hy]; [lia|]. rewrite (of_env_cons _ _ _ _ _ Hy), nth_error_map, Hy. reflexivity. }
      destruct Hv as (v1 & rest & Ev & Hv1 & Hv).
      cbn [a2_rewards a2_masks a2_value_preds map app gae_returns]. fold (a2_rewards rounds) (a2_masks rounds) (a2_value_preds value theta0 rounds).
      rewrite Ev in *. cbn [col_gae].
      destruct (gae_returns gamma tau cols (a2_rewards rounds) (a2_masks rounds) (v1 :: rest)) as [g below]. destruct (col_gae gamma tau theta0 u (of_env j rounds)) as [g' below'].
      cbn [fst snd] in *.
      match goal with |- length ?g2 = _ /\ _ => set (G := g2) end.
      assert (HG : length G = cols) by (unfold G; repeat (rewrite zip_len; rewrite ?map_length); lia).
      match goal with |- _ /\ _ /\ _ /\ _ = Some ?t => assert (Hg : nth_error G j = Some t) end.
      { unfold G. repeat first [apply nth_zip | rewrite !nth_error_map, Hx; reflexivity | rewrite nth_error_map, Hv; reflexivity | exact Ih]. }
      split; [exact HG|split; [|split; [|exact Hg]]].
      + intros r [<-|Hr]; [|apply Ir; exact Hr]. rewrite zip_len; [exact HG|]. rewrite map_length. lia.
      + erewrite of_env_cons; [|apply nth_zip; [exact Hg|rewrite nth_error_map, Hx; reflexivity]]. rewrite Ic. reflexivity.
  Qed.
  Lemma returns_col : forall c cols theta0 last (rounds : list cells) j s, (j < cols)%nat -> rectangular cols rounds -> length last = cols -> nth_error last j = Some s ->
    rectangular cols (a2_returns value c cols theta0 rounds last) /\ of_env j (a2_returns value c cols theta0 rounds last) = col_returns c theta0 (value theta0 s) (of_env j rounds).
  Proof.
    intros c cols theta0 last rounds j s Hj H Hn Hs. unfold a2_returns, col_returns. cbv zeta.
    assert (Hn' : length (map (value theta0) last) = cols) by (rewrite map_length; exact Hn).
    assert (Hs' : nth_error (map (value theta0) last) j = Some (value theta0 s)) by (rewrite nth_error_map, Hs; reflexivity).
    destruct (a2_use_gae c).
    - destruct (gae_col (a2_gamma c) (a2_tau c) theta0 cols _ rounds j _ Hj H Hn' Hs') as (_ & A & B & _). split; assumption.
    - destruct (plain_col (a2_gamma c) cols _ rounds j _ Hj H Hn' Hs') as (A & B & _). split; assumption.
  Qed.

  (** The sums of a column. *)
  Definition col_value (theta : R) (rets : list R) (l : cells) : R :=
    let adv := zipr Rminus rets (map (fun x => value theta (e_state x)) l) in fsum (zipr Rmult adv adv).
  Definition col_policy (theta0 theta : R) (rets : list R) (l : cells) : R :=
    fsum (zipr Rmult (zipr Rminus rets (map (fun x => value theta0 (e_state x)) l)) (map (fun x => log_prob theta (e_state x) (e_action x)) l)).
  Definition col_entropy (theta : R) (l : cells) : R := fsum (map (fun x => entropy theta (e_state x)) l).
  Definition col_loss (c : a2c_conf) (theta0 theta last : R) (l : cells) : R :=
    let rets := col_returns c theta0 last l in
    col_value theta rets l * a2_v_coef c - col_policy theta0 theta rets l * a2_pi_coef c - col_entropy theta l * a2_entropy_coef c.

  Lemma hd_nth : forall (f : St -> R) last j s, nth_error last j = Some s -> nth j (map f last) 0 = f s.
  Proof. intros f. induction last as [|a last IH]; intros [|j] s H; cbn in *; try discriminate; [congruence|apply IH; exact H]. Qed.
  Lemma ret_len : forall c cols theta0 (rounds : list cells) last, length (a2_returns value c cols theta0 rounds last) = length rounds.
  Proof.
    intros. unfold a2_returns. cbv zeta. destruct (a2_use_gae c).
    - induction rounds as [|row rounds IH]; [reflexivity|]. cbn [a2_rewards a2_masks a2_value_preds map app gae_returns].
      fold (a2_rewards rounds) (a2_masks rounds) (a2_value_preds value theta0 rounds).
      destruct (a2_value_preds value theta0 rounds ++ [map (value theta0) last]) as [|v1 rest] eqn:E; [destruct (a2_value_preds value theta0 rounds); discriminate E|].
      destruct (gae_returns _ _ _ _ _ (v1 :: rest)) as [g below]. cbn [snd length] in *. rewrite IH. reflexivity.
    - induction rounds as [|row rounds IH]; [reflexivity|]. cbn. fold (a2_rewards rounds) (a2_masks rounds). rewrite IH. reflexivity.
  Qed.
  Lemma mat2_len : forall f a b, length (mat2 f a b) = Nat.min (length a) (length b).
  Proof. intros. unfold mat2. rewrite map_length, combine_length. reflexivity. Qed.

  Theorem loss_columns : forall c cols theta0 (rounds : list cells) last theta, (0 < cols)%nat -> rectangular cols rounds -> length last = cols ->
    a2c_loss value log_prob entropy c cols theta0 rounds last theta =
    sum_below cols (fun j => col_loss c theta0 theta (nth j (map (value theta0) last) 0) (of_env j rounds)) / INR (length rounds * cols).
  Proof.
    intros c cols theta0 rounds last theta Hc H Hn. unfold a2c_loss. cbv zeta. unfold a2_states, a2_actions. rewrite removelast_last, <- !concat_map.
    rewrite combine_map, !map_map. cbn [fst snd].
    assert (Hre : forall f : cell St Act -> R, np_reshape (length rounds) cols (map f (concat rounds)) = map (map f) rounds).
    { intros f. rewrite concat_map. rewrite <- (map_length (map f) rounds). apply reshape_ok, rect_map, H. }
    rewrite !Hre.
    set (RR := a2_returns value c cols theta0 rounds last).
    assert (Rr : rectangular cols RR). { destruct (nth_some _ last 0) as [s0 Hs0]; [lia|]. apply (returns_col c cols theta0 last rounds 0 s0); [exact Hc|exact H|exact Hn|exact Hs0]. }
    assert (HM : forall m : list (list R), rectangular cols m -> length m = length rounds -> np_mean (concat m) = sum_below cols (fun j => fsum (of_env j m)) / INR (length rounds * cols)).
    { intros m Hm Hl. unfold np_mean. rewrite (col_sum cols), (concat_len _ cols), Hl by exact Hm. reflexivity. }
    rewrite concat_map.
    assert (HL : length RR = length rounds) by apply ret_len.
    rewrite !HM; repeat first [apply rect_mat2 | apply rect_map | exact H | exact Rr | rewrite mat2_len | rewrite map_length]; rewrite ?HL; try lia.
    transitivity ((sum_below cols (fun j => a2_v_coef c * fsum (of_env j (mat2 Rmult (mat2 Rminus RR (map (map (fun x => value theta (e_state x))) rounds)) (mat2 Rminus RR (map (map (fun x => value theta (e_state x))) rounds)))))
      - sum_below cols (fun j => a2_pi_coef c * fsum (of_env j (mat2 Rmult (mat2 Rminus RR (map (map (fun x => value theta0 (e_state x))) rounds)) (map (map (fun x => log_prob theta (e_state x) (e_action x))) rounds))))
      - sum_below cols (fun j => a2_entropy_coef c * fsum (of_env j (map (map (fun x => entropy theta (e_state x))) rounds)))) / INR (length rounds * cols)).
    { rewrite !below_scale. unfold Rdiv. ring. }
    f_equal. rewrite <- !below_sub. apply below_ext. intros j Hj. unfold col_loss, col_value, col_policy, col_entropy. cbv zeta.
    destruct (nth_some _ last j) as [s Hs]; [lia|]. rewrite (hd_nth _ _ _ _ Hs).
    destruct (returns_col c cols theta0 last rounds j s Hj H Hn Hs) as [_ <-]. fold RR.
    repeat (rewrite (of_env_mat2 _ cols); [|exact Hj|repeat first [apply rect_mat2 | apply rect_map | exact H | exact Rr] ..]).
    rewrite !of_env_map. ring.
  Qed.

  (** ** A column and the pieces of its episodes *)
  Definition piece_loss (c3 : a3c_conf) (theta0 theta : R) (p : cells * R) : R := a3c_total c3 theta0 (snd p) (map (as_step value log_prob entropy) (fst p)) theta.
  Lemma piece_cons : forall c c3, same_objective c c3 -> forall theta0 theta x p v,
    let ret := fst (fst (a3c_losses c3 theta0 v (map (as_step value log_prob entropy) p))) in
    let r := ret * a2_gamma c + e_reward x in
    fst (fst (a3c_losses c3 theta0 v (map (as_step value log_prob entropy) (x :: p)))) = r /\
    piece_loss c3 theta0 theta (x :: p, v) = piece_loss c3 theta0 theta (p, v)
      + (r - value theta (e_state x)) ^ 2 * a2_v_coef c - (r - value theta0 (e_state x)) * log_prob theta (e_state x) (e_action x) * a2_pi_coef c - entropy theta (e_state x) * a2_entropy_coef c.
  Proof.
    intros c c3 (Hg & Hp & Hv & He & Hk & Hn) theta0 theta x p v. cbv zeta. unfold piece_loss, a3c_total, a3c_losses. cbn [fst snd map fold_right].
    destruct (fold_right (a3c_loop c3 theta0) (v, fun _ : R => 0, fun _ : R => 0) (map (as_step value log_prob entropy) p)) as [[ret pl] vl]. cbn [a3c_loop fst snd].
    cbn [as_step h_reward h_value h_log_prob h_entropy]. rewrite Hg. split; [reflexivity|].
    unfold a3c_scale. rewrite Hk, Hn. cbn [andb]. rewrite <- He, Hp, Hv. field.
  Qed.
  Lemma piece_nil : forall c c3, same_objective c c3 -> forall theta0 theta v, piece_loss c3 theta0 theta ([], v) = 0.
  Proof. intros c c3 (_ & _ & _ & _ & Hk & Hn) theta0 theta v. unfold piece_loss, a3c_total, a3c_losses, a3c_scale. cbn [map fold_right fst snd]. rewrite Hk, Hn. cbn [andb]. ring. Qed.
  Lemma pieces_ok : forall c c3, same_objective c c3 -> a2_use_gae c = false -> forall theta0 theta last (l : cells),
    exists p v rest, pieces l last = (p, v) :: rest /\
      fst (fst (a3c_losses c3 theta0 v (map (as_step value log_prob entropy) p))) = hd last (col_plain (a2_gamma c) last l) /\
      col_loss c theta0 theta last l = total_of (piece_loss c3 theta0 theta) (pieces l last).
  Proof.
    intros c c3 Hs Hg theta0 theta last l. induction l as [|x l IH].
    - exists [], last, []. split; [reflexivity|]. split; [reflexivity|]. cbn [pieces]. rewrite tot_cons. unfold total_of. cbn [fold_right]. rewrite (piece_nil _ _ Hs).
      unfold col_loss, col_returns, col_value, col_policy, col_entropy. rewrite Hg. cbn. ring.
    - destruct IH as (p & v & rest & E & Hr & Hl).
      assert (HL : forall r, r = e_reward x + a2_gamma c * hd last (col_plain (a2_gamma c) last l) * mask x ->
                col_loss c theta0 theta last (x :: l) = col_loss c theta0 theta last l
                 + (r - value theta (e_state x)) ^ 2 * a2_v_coef c - (r - value theta0 (e_state x)) * log_prob theta (e_state x) (e_action x) * a2_pi_coef c - entropy theta (e_state x) * a2_entropy_coef c).
      { intros r ->. unfold col_loss, col_returns, col_value, col_policy, col_entropy. rewrite Hg. cbn [col_plain map zipr fsum fold_right].
        unfold fsum. cbn [fold_right map zipr]. ring. }
      cbn [pieces]. unfold mask in HL. destruct (e_done x) eqn:Ed.
      + destruct (piece_cons c c3 Hs theta0 theta x [] 0) as [A B]. eexists [x], 0, _. split; [reflexivity|]. split.
        * rewrite A. cbn [col_plain hd]. unfold mask. rewrite Ed. cbn. ring.
        * rewrite (HL (e_reward x)) by ring. rewrite tot_cons, B, (piece_nil _ _ Hs), <- Hl. cbn [map a3c_losses fold_right fst]. rewrite Rmult_0_l, Rplus_0_l. ring.
      + rewrite E in *. destruct (piece_cons c c3 Hs theta0 theta x p v) as [A B]. eexists (x :: p), v, rest. split; [reflexivity|]. split.
        * rewrite A, Hr. cbn [col_plain hd]. unfold mask. rewrite Ed. ring.
        * rewrite tot_cons, B, Hr. rewrite tot_cons in Hl. rewrite (HL (hd last (col_plain (a2_gamma c) last l) * a2_gamma c + e_reward x)) by ring. rewrite Hl. ring.
  Qed.

  Theorem a2c_is_a3c : forall c c3 cols theta0 (rounds : list cells) last theta, same_objective c c3 -> a2_use_gae c = false -> (0 < cols)%nat -> rectangular cols rounds -> length last = cols ->
    a2c_loss value log_prob entropy c cols theta0 rounds last theta =
    sum_below cols (fun j => total_of (fun p => a3c_total c3 theta0 (snd p) (map (as_step value log_prob entropy) (fst p)) theta) (pieces (of_env j rounds) (nth j (map (value theta0) last) 0))) / INR (length rounds * cols).
  Proof.
    intros c c3 cols theta0 rounds last theta Hs Hg Hc H Hn. rewrite loss_columns by assumption. f_equal. apply below_ext. intros j _.
    destruct (pieces_ok c c3 Hs Hg theta0 theta (nth j (map (value theta0) last) 0) (of_env j rounds)) as (p & v & rest & _ & _ & E). exact E.
  Qed.

  Lemma single_rect : forall X j (m : list (list X)), rectangular 1 (map (fun x => [x]) (of_env j m)).
  Proof. intros X j m r Hr. apply in_map_iff in Hr. destruct Hr as (x & <- & _). reflexivity. Qed.
  Lemma single_env : forall X (l : list X), of_env 0 (map (fun x => [x]) l) = l.
  Proof. induction l as [|x l IH]; [reflexivity|]. cbn. f_equal. exact IH. Qed.
  Lemma of_env_len : forall X cols j (m : list (list X)), (j < cols)%nat -> rectangular cols m -> length (of_env j m) = length m.
  Proof.
    intros X cols j m Hj. induction m as [|row m IH]; intros H; [reflexivity|]. apply rect_cons in H. destruct H as [Hl H].
    destruct (nth_some _ row j) as [x Hx]; [lia|]. rewrite (of_env_cons _ _ _ _ _ Hx). cbn [length]. rewrite IH by exact H. reflexivity.
  Qed.
  Theorem environments : forall c cols theta0 (rounds : list cells) last theta, (0 < cols)%nat -> rounds <> [] -> rectangular cols rounds -> length last = cols ->
    a2c_loss value log_prob entropy c cols theta0 rounds last theta =
    sum_below cols (fun j => a2c_loss value log_prob entropy c 1 theta0 (map (fun x => [x]) (of_env j rounds)) (of_env j [last]) theta) / INR cols.
  Proof.
    intros c cols theta0 rounds last theta Hc Hr H Hn. rewrite loss_columns by assumption.
    assert (Hnz : INR (length rounds) <> 0) by (apply not_0_INR; destruct rounds; [contradiction|discriminate]).
    assert (Hcz : INR cols <> 0) by (apply not_0_INR; lia).
    rewrite (below_ext _ (fun j => a2c_loss value log_prob entropy c 1 theta0 (map (fun x => [x]) (of_env j rounds)) (of_env j [last]) theta)
      (fun j => / INR (length rounds) * col_loss c theta0 theta (nth j (map (value theta0) last) 0) (of_env j rounds))).
    - rewrite below_scale, mult_INR. field. split; assumption.
    - intros j Hj. destruct (nth_some _ last j) as [s Hs]; [lia|]. cbn [of_env flat_map]. rewrite Hs. cbn [app].
      rewrite loss_columns; [|lia|apply single_rect|reflexivity]. rewrite map_length, (of_env_len _ cols), Nat.mul_1_r by assumption.
      cbn [sum_below map nth]. rewrite single_env, (hd_nth _ _ _ _ Hs). unfold Rdiv. ring.
  Qed.

  (** GAE with tau = 1. *)
  Lemma gae_one : forall gamma theta0 last (l : cells), snd (col_gae gamma 1 theta0 last l) = col_plain gamma last l /\
    fst (col_gae gamma 1 theta0 last l) = hd last (col_plain gamma last l) - hd last (map (fun y => value theta0 (e_state y)) l).
  Proof.
    intros gamma theta0 last l. induction l as [|x l [A B]]; [cbn; split; [reflexivity|ring]|]. cbn [col_gae col_plain map hd].
    destruct (col_gae gamma 1 theta0 last l) as [g below]. cbn [fst snd] in *. subst below g. split; [f_equal|]; ring.
  Qed.
  Theorem gae_tau_one : forall c cols theta0 (rounds : list cells) last theta, (0 < cols)%nat -> rectangular cols rounds -> length last = cols -> a2_tau c = 1 ->
    a2c_loss value log_prob entropy c cols theta0 rounds last theta =
    a2c_loss value log_prob entropy (mk_a2c_conf (a2_gamma c) (a2_tau c) false (a2_pi_coef c) (a2_v_coef c) (a2_entropy_coef c)) cols theta0 rounds last theta.
  Proof.
    intros c cols theta0 rounds last theta Hc H Hn Ht. rewrite !loss_columns by assumption. f_equal. apply below_ext. intros j _.
    unfold col_loss, col_returns. cbn [a2_use_gae a2_gamma a2_tau a2_pi_coef a2_v_coef a2_entropy_coef]. rewrite Ht.
    destruct (a2_use_gae c); [|reflexivity]. rewrite (proj1 (gae_one _ _ _ _)). reflexivity.
  Qed.
End Column.

Theorem pieces_spec : forall St Act (l : list (cell St Act)) last, concat (map fst (pieces l last)) = l /\
  exists done p, pieces l last = done ++ [(p, last)] /\ Forall (fun x => e_done x = false) p /\
    Forall (fun q => snd q = 0 /\ exists q' x, fst q = q' ++ [x] /\ e_done x = true /\ Forall (fun y => e_done y = false) q') done.
Proof.
  intros St Act l last. induction l as [|x l (A & done & p & E & Hp & Hd)].
  - split; [reflexivity|]. exists [], []. repeat split; constructor.
  - cbn [pieces]. destruct (e_done x) eqn:Ex.
    + split; [cbn [map fst concat]; rewrite A; reflexivity|]. exists (([x], 0) :: done), p. split; [cbn [app]; rewrite E; reflexivity|]. split; [exact Hp|].
      constructor; [|exact Hd]. split; [reflexivity|]. exists [], x. repeat split; [exact Ex|constructor].
    + rewrite E in *. destruct done as [|[q w] done]; cbn [app] in *.
      * split; [cbn [map fst concat] in *; cbn [app]; rewrite A; reflexivity|]. exists [], (x :: p). split; [reflexivity|]. split; [constructor; assumption|constructor].
      * split; [cbn [map fst concat app] in *; rewrite A; reflexivity|]. exists ((x :: q, w) :: done), p. split; [reflexivity|]. split; [exact Hp|].
        inversion Hd as [|? ? (Hw & q' & y & Hq & Hy & Hf) Hd']; subst. constructor; [|exact Hd']. split; [exact Hw|]. cbn [fst] in *. exists (x :: q'), y.
        split; [rewrite Hq; reflexivity|]. split; [exact Hy|]. constructor; assumption.
Qed.
Theorem single_refuted : forall T : Type, @a2c_stop_and_train_single T = Raise RuntimeError /\ @a2c_act_and_train_single T <> Raise RuntimeError.
Proof. intros T. split; [reflexivity|]. cbv. discriminate. Qed.
