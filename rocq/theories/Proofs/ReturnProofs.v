(** Proofs for C36. *)
From Coq Require Import QArith Lqa.
From Verif Require Import Base.PyBase Model.Returns Spec.WrapperSpec Spec.NStepSpec Proofs.QSumFacts Proofs.TrainAsyncProofs.
Set Implicit Arguments.
Local Open Scope nat_scope.

Lemma weighted_sum_cons : forall c x l, (weighted_sum c (x :: l) == x + c * weighted_sum c l)%Q.
Proof.
  intros c x l. unfold weighted_sum. cbn [length seq map]. rewrite qsum_cons. cbn [pow nth].
  rewrite <- seq_shift, map_map. cbn [pow nth].
  rewrite <- qsum_scale.
  rewrite (qsum_ext (fun k => c * pow c k * nth k l 0)%Q (fun k => c * (pow c k * nth k l 0))%Q) by (intros; ring). ring.
Qed.
Lemma weighted_sum_nil : forall c, (weighted_sum c [] == 0)%Q.
Proof. reflexivity. Qed.

(** ** PPO *)
Lemma td_code : forall gamma x, (g_reward x + (gamma * q_of_bool (g_nonterminal x) * g_next_v x) - g_v x == td_error gamma x)%Q.
Proof. intros. unfold td_error, q_of_bool. destruct (g_nonterminal x); ring. Qed.

Lemma gae_fold : forall gamma lambd ep,
  let st := fold_right (fun x st => gae_step gamma lambd st x) (0%Q, []) ep in
  (fst st == weighted_sum (gamma * lambd) (map (td_error gamma) ep))%Q /\
  length (snd st) = length ep /\
  forall t x, nth_error ep t = Some x -> exists adv target, nth_error (snd st) t = Some (adv, target) /\
    (adv == weighted_sum (gamma * lambd) (map (td_error gamma) (skipn t ep)))%Q /\ (target == adv + g_v x)%Q.
Proof.
  intros gamma lambd ep. induction ep as [|x ep IH].
  - cbn. split; [reflexivity|]. split; [reflexivity|]. intros [|t] x H; discriminate.
  - cbn [fold_right]. cbn zeta in *. destruct (fold_right _ _ ep) as [adv out]. destruct IH as (I1 & I2 & I3). cbn [fst snd] in *.
    unfold gae_step. cbn [fst snd length map].
    assert (E : (g_reward x + gamma * q_of_bool (g_nonterminal x) * g_next_v x - g_v x + gamma * lambd * adv
                 == weighted_sum (gamma * lambd) (td_error gamma x :: map (td_error gamma) ep))%Q).
    { rewrite weighted_sum_cons, <- I1, <- td_code. ring. }
    split; [exact E|]. split; [lia|].
    intros [|t] y H; cbn [nth_error skipn] in *.
    + injection H as <-. eexists _, _. split; [reflexivity|]. split; [exact E|reflexivity].
    + destruct (I3 t y H) as (a & b & H1 & H2 & H3). exists a, b. auto.
Qed.

Theorem gae : forall gamma lambd ep,
  length (add_advantage gamma lambd ep) = length ep /\
  forall t x, nth_error ep t = Some x -> exists adv target, nth_error (add_advantage gamma lambd ep) t = Some (adv, target) /\
    (adv == weighted_sum (gamma * lambd) (map (td_error gamma) (skipn t ep)))%Q /\ (target == adv + g_v x)%Q.
Proof.
  intros gamma lambd ep. unfold add_advantage. rewrite <- fold_left_rev_right, rev_involutive.
  destruct (gae_fold gamma lambd ep) as (_ & H1 & H2). split; assumption.
Qed.


Lemma end_value_cons : forall x y ep, end_value (x :: y :: ep) = end_value (y :: ep).
Proof.
  intros. unfold end_value. cbn [rev]. destruct (rev ep); reflexivity.
Qed.

Lemma telescopes : forall gamma x ep, consistent (x :: ep) ->
  (weighted_sum gamma (map (td_error gamma) (x :: ep)) + g_v x ==
   weighted_sum gamma (map g_reward (x :: ep)) + pow gamma (length (x :: ep)) * end_value (x :: ep))%Q.
Proof.
  intros gamma x ep. revert x. induction ep as [|y ep IH]; intros x H; cbn [map].
  - rewrite !weighted_sum_cons, !weighted_sum_nil. unfold td_error, end_value. cbn [rev app length pow]. destruct (g_nonterminal x); ring.
  - rewrite weighted_sum_cons, (weighted_sum_cons gamma (g_reward x)).
    destruct (H 0 x y eq_refl eq_refl) as [Hv Hn].
    assert (C : consistent (y :: ep)) by (intros t a b A B; exact (H (S t) a b A B)).
    specialize (IH y C). cbn [map] in IH. rewrite end_value_cons. cbn [length] in *.
    change (pow gamma (S (S (length ep)))) with (gamma * pow gamma (S (length ep)))%Q.
    assert (E : (weighted_sum gamma (td_error gamma y :: map (td_error gamma) ep) ==
      weighted_sum gamma (g_reward y :: map g_reward ep) + pow gamma (S (length ep)) * end_value (y :: ep) - g_v y)%Q) by (rewrite <- IH; ring).
    rewrite E. unfold td_error at 1. rewrite Hn, Hv. ring.
Qed.

Lemma weighted_ext : forall c c' l, (c == c')%Q -> (weighted_sum c l == weighted_sum c' l)%Q.
Proof.
  intros c c' l H. induction l as [|x l IH]; [reflexivity|]. rewrite !weighted_sum_cons, IH, H. reflexivity.
Qed.

Lemma consistent_skip : forall ep t, consistent ep -> consistent (skipn t ep).
Proof.
  intros ep. induction ep as [|x ep IH]; intros [|t] H; try exact H. cbn [skipn]. apply IH.
  intros i a b A B. exact (H (S i) a b A B).
Qed.
Lemma nth_skip : forall X (l : list X) t x, nth_error l t = Some x -> skipn t l = x :: skipn (S t) l.
Proof.
  intros X l. induction l as [|y l IH]; intros [|t] x H; cbn in *; try discriminate.
  - injection H as ->. reflexivity.
  - apply IH, H.
Qed.

Theorem gae_lambda_one : forall gamma ep, consistent ep ->
  forall t x, nth_error ep t = Some x -> exists adv target, nth_error (add_advantage gamma 1 ep) t = Some (adv, target) /\
    (target == weighted_sum gamma (map g_reward (skipn t ep)) + pow gamma (length ep - t) * end_value (skipn t ep))%Q.
Proof.
  intros gamma ep Hc t x H. destruct (gae gamma 1 ep) as [_ G]. destruct (G t x H) as (adv & tg & E & A & T).
  exists adv, tg. split; [exact E|]. rewrite T, A. rewrite (@weighted_ext (gamma * 1) gamma) by ring.
  rewrite <- (skipn_length t ep).
  pose proof (consistent_skip t Hc) as C. rewrite (nth_skip _ _ H) in C |- *. apply telescopes, C.
Qed.

Theorem gae_lambda_zero : forall gamma ep t x, nth_error ep t = Some x ->
  exists adv target, nth_error (add_advantage gamma 0 ep) t = Some (adv, target) /\
    (target == g_reward x + (if g_nonterminal x then gamma * g_next_v x else 0))%Q.
Proof.
  intros gamma ep t x H. destruct (gae gamma 0 ep) as [_ G]. destruct (G t x H) as (adv & tg & E & A & T).
  exists adv, tg. split; [exact E|]. rewrite T, A. rewrite (nth_skip _ _ H). cbn [map]. rewrite weighted_sum_cons.
  unfold td_error at 1. ring.
Qed.

(** ** A2C: the loops *)
Lemma py_get_nat : forall T (l : list T) i x, nth_error l i = Some x -> py_get l (Z.of_nat i) = Ok x.
Proof.
  intros T l i x H. unfold py_get, py_index. assert (i < length l) by (apply nth_error_Some; congruence).
  replace (0 <=? Z.of_nat i)%Z with true by (symmetry; apply Z.leb_le; lia).
  replace (Z.of_nat i <? Z.of_nat (length l))%Z with true by (symmetry; apply Z.ltb_lt; lia).
  rewrite Nat2Z.id, H. reflexivity.
Qed.
Lemma py_get_last : forall T (l : list T) x, nth_error l (length l - 1) = Some x -> py_get l (-1) = Ok x.
Proof.
  intros T l x H. unfold py_get, py_index. assert (length l - 1 < length l) by (apply nth_error_Some; congruence).
  cbn [Z.leb Z.compare]. replace (- Z.of_nat (length l) <=? -1)%Z with true by (symmetry; apply Z.leb_le; lia).
  replace (Z.to_nat (Z.of_nat (length l) + -1)) with (length l - 1) by lia. rewrite H. reflexivity.
Qed.
Lemma py_set_nat : forall T (l : list T) i x, i < length l -> py_set l (Z.of_nat i) x = Ok (upd l i x).
Proof.
  intros T l i x H. unfold py_set, py_index.
  replace (0 <=? Z.of_nat i)%Z with true by (symmetry; apply Z.leb_le; lia).
  replace (Z.of_nat i <? Z.of_nat (length l))%Z with true by (symmetry; apply Z.ltb_lt; lia).
  rewrite Nat2Z.id. reflexivity.
Qed.
Lemma py_set_last : forall T (l : list T) x, l <> [] -> py_set l (-1) x = Ok (upd l (length l - 1) x).
Proof.
  intros T l x H. unfold py_set, py_index. assert (0 < length l) by (destruct l; [congruence|cbn; lia]).
  cbn [Z.leb Z.compare]. replace (- Z.of_nat (length l) <=? -1)%Z with true by (symmetry; apply Z.leb_le; lia).
  replace (Z.to_nat (Z.of_nat (length l) + -1)) with (length l - 1) by lia. reflexivity.
Qed.

Lemma for_down_spec : forall T (P : nat -> T -> Prop) body n st, P n st ->
  (forall i st, i < n -> P (S i) st -> exists st', body i st = Ok st' /\ P i st') ->
  exists st', for_down n body st = Ok st' /\ P 0 st'.
Proof.
  intros T P body n. induction n as [|n IH]; intros st H Hb.
  - exists st. auto.
  - cbn [for_down]. destruct (Hb n st ltac:(lia) H) as (st1 & E & H1). rewrite E. cbn [bind].
    apply IH; [exact H1|]. intros i s Hi. apply Hb. lia.
Qed.

Section A2CP.
  Context {Obs A : Type}.
  Notation round := (@a2c_round Obs A).
  Variables (gamma tau : Q).

  Lemma n_step_cons : forall (x : round) t boot,
    (n_step_return gamma (@r_reward Obs A) (@r_ended Obs A) (x :: t) boot ==
     r_reward x + gamma * n_step_return gamma (@r_reward Obs A) (@r_ended Obs A) t boot * (if r_ended x then 0 else 1))%Q.
  Proof.
    intros x t boot. unfold n_step_return. cbn [until_end existsb map length pow]. rewrite weighted_sum_cons.
    destruct (r_ended x); cbn [orb].
    - cbn [map]. rewrite weighted_sum_nil. ring.
    - destruct (existsb _ t); ring.
  Qed.

  Definition mask_of (x : round) : Q := if r_ended x then 0%Q else 1%Q.

  Lemma returns_plain : forall (l : list round) values returns boot, length returns = length l + 1 ->
    exists rs, compute_returns false gamma tau (length l) (map (@r_reward Obs A) l) values (map mask_of l) returns boot = Ok rs /\
      length rs = length l + 1 /\
      forall j, j <= length l -> exists R, nth_error rs j = Some R /\
        (R == n_step_return gamma (@r_reward Obs A) (@r_ended Obs A) (skipn j l) boot)%Q.
  Proof.
    intros l values returns boot Hl. unfold compute_returns.
    rewrite py_set_last by (destruct returns; [cbn in Hl; lia|discriminate]). cbn [bind].
    set (P := fun i (rs : list Q) => length rs = length l + 1 /\ forall j, i <= j -> j <= length l -> exists R, nth_error rs j = Some R /\
        (R == n_step_return gamma (@r_reward Obs A) (@r_ended Obs A) (skipn j l) boot)%Q).
    destruct (@for_down_spec _ P (a2c_body gamma (map (@r_reward Obs A) l) (map mask_of l)) (length l) (upd returns (length returns - 1) boot)) as (rs & E & H1 & H2).
    - split; [rewrite upd_len; exact Hl|]. intros j A1 A2. assert (j = length l) by lia. subst j.
      exists boot. rewrite upd_nth. replace (length returns - 1) with (length l) by lia. rewrite Nat.eqb_refl.
      destruct (nth_error returns (length l)) eqn:E; [|apply nth_error_None in E; lia].
      split; [reflexivity|]. rewrite skipn_all. unfold n_step_return. cbn. ring.
    - intros i rs Hi (L & H). unfold a2c_body.
      destruct (nth_error l i) as [x|] eqn:Ex; [|apply nth_error_None in Ex; lia].
      rewrite (py_get_nat (map (@r_reward Obs A) l) i (map_nth_error _ i l Ex)). cbn [bind].
      destruct (H (S i) ltac:(lia) ltac:(lia)) as (R & ER & HR).
      replace (Z.of_nat i + 1)%Z with (Z.of_nat (S i)) by lia. rewrite (py_get_nat rs (S i) ER). cbn [bind].
      rewrite (py_get_nat (map mask_of l) i (map_nth_error _ i l Ex)). cbn [bind].
      rewrite py_set_nat by lia. eexists. split; [reflexivity|]. split; [rewrite upd_len; exact L|].
      intros j A1 A2. rewrite upd_nth. destruct (Nat.eqb_spec i j) as [<-|N].
      + destruct (nth_error rs i) eqn:E; [|apply nth_error_None in E; lia]. eexists. split; [reflexivity|].
        rewrite (nth_skip l i Ex), n_step_cons. unfold mask_of. rewrite HR. reflexivity.
      + apply H; lia.
    - exists rs. split; [exact E|]. split; [exact H1|]. intros j Hj. apply H2; lia.
  Qed.

  Variable v : Obs -> Q.
  Definition adv_of (l : list round) : Q := weighted_sum (gamma * tau) (map fst (until_end snd (a2c_deltas v gamma l))).

  Lemma returns_gae : forall (l : list round) values returns, length returns = length l + 1 -> length values = length l + 1 ->
    l <> [] -> firstn (length l) values = map (fun x => v (fst (r_key x))) l ->
    exists rs, compute_returns true gamma tau (length l) (map (@r_reward Obs A) l) values (map mask_of l) returns (bootstrap_value v l) = Ok rs /\
      length rs = length l + 1 /\
      forall j, j < length l -> exists R, nth_error rs j = Some R /\ (R == a2c_gae_return v gamma tau (skipn j l))%Q.
  Proof.
    intros l values returns Hl Hv Hn Hf. unfold compute_returns.
    rewrite py_set_last by (destruct values; [cbn in Hv; lia|discriminate]). cbn [bind].
    set (vals := upd values (length values - 1) (bootstrap_value v l)).
    assert (V : forall i x, nth_error l i = Some x -> nth_error vals i = Some (v (fst (r_key x)))).
    { intros i x H. assert (i < length l) by (apply nth_error_Some; congruence). unfold vals. rewrite upd_nth.
      replace (Nat.eqb (length values - 1) i) with false by (symmetry; apply Nat.eqb_neq; lia).
      replace (nth_error values i) with (nth_error (firstn (length l) values) i).
      - rewrite Hf. erewrite map_nth_error by exact H. reflexivity.
      - rewrite <- (firstn_skipn (length l) values) at 2. rewrite nth_error_app1; [reflexivity|].
        rewrite firstn_length. lia. }
    assert (VN : nth_error vals (length l) = Some (bootstrap_value v l)).
    { unfold vals. rewrite upd_nth. replace (length values - 1) with (length l) by lia. rewrite Nat.eqb_refl.
      destruct (nth_error values (length l)) eqn:E; [reflexivity|apply nth_error_None in E; lia]. }
    clearbody vals.
    set (P := fun i (st : Q * list Q) => length (snd st) = length l + 1 /\
        (fst st == adv_of (skipn i l))%Q /\
        forall j, i <= j -> j < length l -> exists R, nth_error (snd st) j = Some R /\ (R == a2c_gae_return v gamma tau (skipn j l))%Q).
    destruct (@for_down_spec _ P (a2c_gae_body gamma tau (map (@r_reward Obs A) l) vals (map mask_of l)) (length l) (0%Q, returns)) as (rs & E & H1 & _ & H2).
    - split; [exact Hl|]. cbn [fst snd]. rewrite skipn_all. split; [reflexivity|]. intros; lia.
    - intros i [g rs] Hi (L & G & H). cbn [fst snd] in *. unfold a2c_gae_body.
      destruct (nth_error l i) as [x|] eqn:Ex; [|apply nth_error_None in Ex; lia].
      rewrite (py_get_nat (map (@r_reward Obs A) l) i (map_nth_error _ i l Ex)). cbn [bind].
      replace (Z.of_nat i + 1)%Z with (Z.of_nat (S i)) by lia.
      assert (N : exists w, nth_error vals (S i) = Some w /\ w = match skipn (S i) l with y :: _ => v (fst (r_key y)) | [] => v (r_next x) end).
      { destruct (nth_error l (S i)) as [y|] eqn:Ey.
        - exists (v (fst (r_key y))). split; [apply V, Ey|]. rewrite (nth_skip l (S i) Ey). reflexivity.
        - apply nth_error_None in Ey. assert (S i = length l) by lia. exists (bootstrap_value v l).
          split; [rewrite H0; exact VN|]. rewrite H0, skipn_all. unfold bootstrap_value.
          assert (Hr : exists pre, l = pre ++ [x]).
          { exists (firstn i l). rewrite <- (firstn_skipn i l) at 1. rewrite (nth_skip l i Ex). f_equal. f_equal. rewrite H0. apply skipn_all. }
          destruct Hr as [pre ->]. rewrite rev_app_distr. reflexivity. }
      destruct N as (w & Ew & Hw). rewrite (py_get_nat vals (S i) Ew). cbn [bind].
      rewrite (py_get_nat (map mask_of l) i (map_nth_error _ i l Ex)). cbn [bind].
      rewrite (py_get_nat vals i (V i x Ex)). cbn [bind]. rewrite py_set_nat by lia. cbn [bind].
      assert (G' : (r_reward x + gamma * w * mask_of x - v (fst (r_key x)) + gamma * tau * mask_of x * g == adv_of (skipn i l))%Q).
      { rewrite (nth_skip l i Ex). unfold adv_of. cbn [a2c_deltas until_end map fst snd]. rewrite <- Hw. rewrite weighted_sum_cons.
        unfold mask_of. destruct (r_ended x).
        - cbn [map]. rewrite weighted_sum_nil. ring.
        - rewrite G. unfold adv_of. ring. }
      eexists. split; [reflexivity|]. split; [cbn [snd]; rewrite upd_len; exact L|]. cbn [fst snd]. split; [exact G'|].
      intros j A1 A2. rewrite upd_nth. destruct (Nat.eqb_spec i j) as [<-|N].
      + destruct (nth_error rs i) eqn:E; [|apply nth_error_None in E; lia]. eexists. split; [reflexivity|].
        rewrite G'. rewrite (nth_skip l i Ex). unfold adv_of, a2c_gae_return. reflexivity.
      + apply H; lia.
    - rewrite E. cbn [bind]. exists (snd rs). split; [reflexivity|]. split; [exact H1|]. intros j Hj. apply H2; lia.
  Qed.
End A2CP.

(** ** A2C: the agent *)
Lemma firstn_upd_S : forall X (l : list X) j x, j < length l -> firstn (S j) (upd l j x) = firstn j l ++ [x].
Proof.
  intros X l. induction l as [|y l IH]; intros [|j] x H; cbn [length] in H; try lia; [reflexivity|].
  cbn [upd firstn app]. rewrite <- IH by lia. reflexivity.
Qed.
Lemma firstn_upd_ge : forall X (l : list X) i j x, j <= i -> firstn j (upd l i x) = firstn j l.
Proof.
  intros X l. induction l as [|y l IH]; intros [|i] [|j] x H; try reflexivity; try lia.
  cbn [upd firstn]. rewrite IH by lia. reflexivity.
Qed.
Lemma nth_upd_eq : forall X (l : list X) i x, i < length l -> nth_error (upd l i x) i = Some x.
Proof.
  intros. rewrite upd_nth, Nat.eqb_refl. destruct (nth_error l i) eqn:E; [reflexivity|apply nth_error_None in E; lia].
Qed.

Lemma collect_some : forall X (l : list X), collect (map Some l) = Ok l.
Proof. intros X l. induction l as [|x l IH]; [reflexivity|]. cbn. change (fold_right _ _ _) with (collect (map Some l)). rewrite IH. reflexivity. Qed.

Lemma bind_ok : forall X Y (e : res X) (f : X -> res Y) x, e = Ok x -> bind e f = f x.
Proof. intros X Y e f x ->. reflexivity. Qed.

Section Agent.
  Context {Obs A : Type}.
  Variable value : nat -> Obs -> Q.
  Variables (use_gae : bool) (gamma tau : Q) (n : nat).
  Hypothesis n_pos : 0 < n.
  Notation round := (@a2c_round Obs A).
  Notation act := (a2c_act value use_gae gamma tau n).
  Notation step1 := (a2c_step value use_gae gamma tau n).
  Notation run := (a2c_run value use_gae gamma tau n).

  Notation a2c_target := (a2c_target value use_gae gamma tau).

  Record at_block (k : nat) (l : list round) (s : a2c Obs A) : Prop := {
    b_t : a_t s = a_start s + length l;
    b_up : a_updates s = k;
    b_ls : length (a_states s) = n + 1;
    b_la : length (a_actions s) = n;
    b_lr : length (a_rewards s) = n;
    b_lv : length (a_values s) = n + 1;
    b_lm : length (a_masks s) = n;
    b_s : firstn (length l) (a_states s) = map (fun x => Some (fst (r_key x))) l;
    b_a : firstn (length l) (a_actions s) = map (fun x => Some (snd (r_key x))) l;
    b_r : firstn (length l) (a_rewards s) = map (@r_reward Obs A) l;
    b_v : firstn (length l) (a_values s) = map (fun x => value k (fst (r_key x))) l;
    b_m : firstn (length l) (a_masks s) = map mask_of l
  }.

  Lemma init_block : at_block 0 [] (a2c_init n).
  Proof.
    constructor; cbn [a2c_init a_t a_start a_updates a_states a_actions a_rewards a_values a_masks length]; rewrite ?repeat_length; try reflexivity; lia.
  Qed.

  (** The whole block is there. *)
  Lemma update_spec : forall k (l : list round) s x, at_block k l s -> length l = n ->
    nth_error (a_states s) n = Some (Some (r_next x)) -> (exists pre, l = pre ++ [x]) ->
    exists b s', a2c_update value use_gae gamma tau n s = Ok (b, s') /\ trains_on l (@r_key Obs A) (a2c_target k) b /\ at_block (S k) [] s'.
  Proof.
    intros k l s x B Hl Hlast [pre Hpre]. destruct B. unfold a2c_update.
    rewrite (@py_get_last _ (a_states s) (Some (r_next x))) by (rewrite b_ls0; replace (n + 1 - 1) with n by lia; exact Hlast).
    cbn [bind].
    assert (Er : a_rewards s = map (@r_reward Obs A) l) by (rewrite <- b_r0, Hl; symmetry; apply firstn_all2; lia).
    assert (Em : a_masks s = map mask_of l) by (rewrite <- b_m0, Hl; symmetry; apply firstn_all2; lia).
    assert (Ea : a_actions s = map (fun x => Some (snd (r_key x))) l) by (rewrite <- b_a0, Hl; symmetry; apply firstn_all2; lia).
    assert (Boot : value k (r_next x) = bootstrap_value (value k) l) by (unfold bootstrap_value; rewrite Hpre, rev_app_distr; reflexivity).
    assert (R : exists rs, compute_returns use_gae gamma tau n (a_rewards s) (a_values s) (a_masks s) (repeat 0%Q (n + 1)) (value (a_updates s) (r_next x)) = Ok rs /\
       length rs = n + 1 /\ forall j, j < n -> exists R, nth_error rs j = Some R /\ (R == a2c_target k (skipn j l))%Q).
    { rewrite Er, Em, b_up0, Boot, <- Hl. unfold a2c_target. destruct use_gae.
      - apply returns_gae.
        + rewrite repeat_length. reflexivity.
        + lia.
        + destruct l; [cbn in Hl; lia|discriminate].
        + exact b_v0.
      - destruct (@returns_plain Obs A gamma tau l (a_values s) (repeat 0%Q (length l + 1)) (bootstrap_value (value k) l)) as (rs & E & L & H).
        { rewrite repeat_length. reflexivity. }
        exists rs. split; [exact E|]. split; [exact L|]. intros j Hj. destruct (H j ltac:(lia)) as (R & E1 & E2).
        exists R. split; [exact E1|]. rewrite E2. unfold a2c_return.
        replace (bootstrap_value (value k) (skipn j l)) with (bootstrap_value (value k) l); [reflexivity|].
        assert (Hs : exists pre', skipn j l = pre' ++ [x]).
        { rewrite Hpre in Hj |- *. rewrite app_length in Hj. cbn in Hj. exists (skipn j pre). rewrite skipn_app.
          replace (j - length pre) with 0 by lia. reflexivity. }
        destruct Hs as [pre' Hs]. unfold bootstrap_value. rewrite Hs, Hpre, !rev_app_distr. reflexivity. }
    destruct R as (rs & E & Lrs & HR). rewrite (bind_ok _ E).
    replace (length (a_states s) - 1) with (length l) by lia. rewrite b_s0.
    rewrite <- (map_map (fun x => fst (r_key x)) Some), collect_some. cbn [bind].
    rewrite Ea, <- (map_map (fun x => snd (r_key x)) Some), collect_some. cbn [bind].
    change 0%Z with (Z.of_nat 0). rewrite py_set_nat by lia. cbn [bind].
    eexists _, _. split; [reflexivity|]. split.
    - split.
      + rewrite !combine_length, !map_length, firstn_length. lia.
      + intros j y Hy. assert (j < length l) by (apply nth_error_Some; congruence).
        destruct (HR j ltac:(lia)) as (R & E1 & E2). exists R. split; [|exact E2].
        assert (N : nth_error (firstn (length rs - 1) rs) j = Some R).
        { rewrite <- (firstn_skipn (length rs - 1) rs) in E1. rewrite nth_error_app1 in E1; [exact E1|]. rewrite firstn_length. lia. }
        clear -Hy N. revert j N Hy. generalize (firstn (length rs - 1) rs) as out.
        induction l as [|z l IH]; intros [|q out] [|j] N Hy; try discriminate; cbn [map combine nth_error] in *.
        * injection N as ->. injection Hy as ->. destruct y as [[? ?] ?]; reflexivity.
        * apply IH; assumption.
    - constructor; cbn [a_t a_start a_updates a_states a_actions a_rewards a_values a_masks length firstn map]; try reflexivity;
        rewrite ?upd_len, ?map_length; try lia.
      destruct use_gae; rewrite ?upd_len; lia.
  Qed.

  Lemma step_spec : forall k (l : list round) s x, at_block k l s -> length l < n ->
    exists log s', step1 s x = Ok (log, s') /\
      (if Nat.eqb (length l + 1) n
       then exists b, log = [b] /\ trains_on (l ++ [x]) (@r_key Obs A) (a2c_target k) b /\ at_block (S k) [] s'
       else log = [] /\ at_block k (l ++ [x]) s').
  Proof.
    intros k l s x B Hl. pose proof B as B0. destruct B.
    destruct x as [[obs a] [[[obs' r] done] reset]].
    unfold a2c_step, a2c_act. replace (Z.of_nat (a_t s) - Z.of_nat (a_start s))%Z with (Z.of_nat (length l)) by lia.
    rewrite py_set_nat by lia. cbn [bind a_t a_start a_states a_actions a_rewards a_values a_masks a_updates].
    replace (Nat.eqb (a_t s - a_start s) n) with false by (symmetry; apply Nat.eqb_neq; lia).
    cbn [bind a_t a_start a_states a_actions a_rewards a_values a_masks a_updates].
    replace (Z.of_nat (a_t s) - Z.of_nat (a_start s))%Z with (Z.of_nat (length l)) by lia.
    rewrite !py_set_nat by lia. cbn [bind fst snd].
    unfold a2c_observe. cbn [bind a_t a_start a_states a_actions a_rewards a_values a_masks a_updates].
    replace (Z.of_nat (1 + a_t s) - Z.of_nat (a_start s))%Z with (Z.of_nat (S (length l))) by lia.
    replace (Z.of_nat (S (length l)) - 1)%Z with (Z.of_nat (length l)) by lia.
    rewrite !py_set_nat by (rewrite ?upd_len; lia). cbn [bind a_t a_start].
    replace (1 + a_t s - a_start s) with (length l + 1) by lia.
    set (s1 := mk_a2c _ _ _ _ _ _ _ _).
    set (x := (obs, a, (obs', r, done, reset)) : round).
    assert (B1 : at_block k (l ++ [x]) s1).
    { constructor; unfold s1; cbn [a_t a_start a_states a_actions a_rewards a_values a_masks a_updates];
        rewrite ?app_length, ?upd_len, ?map_app; cbn [length map]; try lia;
        replace (length l + 1) with (S (length l)) by lia.
      - rewrite (firstn_upd_ge _ (i := S (length l))) by lia. rewrite firstn_upd_S by lia. rewrite b_s0. reflexivity.
      - rewrite firstn_upd_S by lia. rewrite b_a0. reflexivity.
      - rewrite firstn_upd_S by lia. rewrite b_r0. reflexivity.
      - rewrite firstn_upd_S by lia. rewrite b_v0, b_up0. reflexivity.
      - rewrite firstn_upd_S by lia. rewrite b_m0. reflexivity. }
    destruct (Nat.eqb_spec (length l + 1) n) as [E|E].
    - destruct (@update_spec k (l ++ [x]) s1 x B1) as (b & s' & U & T & B2).
      + rewrite app_length. cbn. lia.
      + unfold s1. cbn [a_states]. replace n with (S (length l)) by lia. rewrite nth_upd_eq by (rewrite upd_len; lia). reflexivity.
      + exists l. reflexivity.
      + rewrite U. cbn [bind fst snd app]. exists [b], s'. split; [reflexivity|]. exists b. auto.
    - cbn [bind fst snd app]. exists [], s1. auto.
  Qed.

  Lemma run_spec : forall xs k (l : list round) s, at_block k l s -> length l < n ->
    exists log s' bl l', run s xs = Ok (log, s') /\ l ++ xs = concat bl ++ l' /\ length l' < n /\
      Forall2 (fun b ib => length b = n /\ trains_on b (@r_key Obs A) (a2c_target (fst ib)) (snd ib)) bl (combine (seq k (length log)) log).
  Proof.
    induction xs as [|x xs IH]; intros k l s B Hl.
    - exists [], s, [], l. cbn. rewrite app_nil_r. auto.
    - destruct (@step_spec k l s x B Hl) as (log & s1 & E & H). cbn [a2c_run]. rewrite E. cbn [bind fst snd].
      destruct (Nat.eqb_spec (length l + 1) n) as [N|N].
      + destruct H as (b & -> & T & B1). destruct (IH (S k) [] s1 B1 ltac:(cbn; lia)) as (log' & s' & bl & l' & E' & C & L & F).
        rewrite E'. cbn [bind fst snd app]. exists (b :: log'), s', ((l ++ [x]) :: bl), l'. split; [reflexivity|].
        cbn [app] in C. split; [cbn [concat]; rewrite <- !app_assoc; cbn [app]; rewrite C; reflexivity|]. split; [exact L|].
        cbn [length seq combine]. constructor; [|exact F]. cbn [fst snd]. rewrite app_length. cbn [length]. split; [lia|exact T].
      + destruct H as (-> & B1). destruct (IH k (l ++ [x]) s1 B1) as (log' & s' & bl & l' & E' & C & L & F).
        { rewrite app_length. cbn. lia. }
        rewrite E'. cbn [bind fst snd app]. exists log', s', bl, l'. split; [reflexivity|]. rewrite <- app_assoc in C. auto.
  Qed.

  Lemma block_concat : forall X (bl : list (list X)) l' i b, Forall (fun b => length b = n) bl -> nth_error bl i = Some b ->
    block n i (concat bl ++ l') = b.
  Proof.
    intros X bl l' i b F. revert i. unfold block. induction F as [|c bl Hc F IH]; intros [|i] H; try discriminate; cbn [nth_error] in H.
    - injection H as ->. cbn [Nat.mul skipn concat]. rewrite <- app_assoc, firstn_app, Hc, Nat.sub_diag. cbn [firstn].
      rewrite app_nil_r. apply firstn_all2. lia.
    - cbn [concat]. rewrite <- app_assoc. replace (S i * n) with (n + i * n) by lia.
      rewrite skipn_app, Hc. replace (n + i * n - n) with (i * n) by lia.
      rewrite (@skipn_all2 _ (n + i * n) c) by lia. cbn [app]. apply IH, H.
  Qed.

  Theorem a2c_trains : forall rounds, exists log s, run (a2c_init n) rounds = Ok (log, s) /\
    length log = length rounds / n /\
    forall k b, nth_error log k = Some b -> trains_on (block n k rounds) (@r_key Obs A) (a2c_target k) b.
  Proof.
    intros rounds. destruct (@run_spec rounds 0 [] (a2c_init n) init_block ltac:(cbn; lia)) as (log & s & bl & l' & E & C & L & F).
    exists log, s. split; [exact E|]. cbn [app] in C. subst rounds.
    assert (F' : Forall (fun b => length b = n) bl) by (clear -F; induction F as [|? ? ? ? [? ?]]; constructor; assumption).
    assert (Lb : length bl = length log).
    { assert (F0 : length bl = length (combine (seq 0 (length log)) log)) by (clear -F; induction F; cbn [length]; congruence).
      rewrite combine_length, seq_length in F0. lia. }
    split.
    - rewrite app_length. replace (length (concat bl)) with (length log * n).
      + rewrite Nat.add_comm, Nat.div_add by lia. rewrite Nat.div_small by exact L. reflexivity.
      + rewrite <- Lb. clear -F'. induction F' as [|c bl Hc _ IH]; [reflexivity|]. cbn [concat length Nat.mul]. rewrite app_length. lia.
    - intros k b H.
      assert (G : exists c, nth_error bl k = Some c /\ trains_on c (@r_key Obs A) (a2c_target k) b).
      { assert (NC : nth_error (combine (seq 0 (length log)) log) k = Some (k, b)).
        { clear -H. assert (G : forall s, nth_error (combine (seq s (length log)) log) k = Some (s + k, b)).
          { revert k H. induction log as [|x log IH]; intros [|k] H s; try discriminate; cbn [nth_error length seq combine] in *.
            - injection H as ->. rewrite Nat.add_0_r. reflexivity.
            - rewrite (IH k H (S s)). f_equal. f_equal. lia. }
          apply G. }
        clear -F NC. revert NC. generalize k at 2 4. intros k'. revert k. induction F as [|c ib bl cs [_ T] F IH]; intros [|k] H; try discriminate; cbn [nth_error] in *.
        - injection H as ->. exists c. split; [reflexivity|exact T].
        - apply IH, H. }
      destruct G as (c & Hc & T). rewrite (block_concat l' k F' Hc). exact T.
  Qed.
End Agent.

(** ** A3C and NSQ *)
Lemma zd_set_same : forall V (d : zdict V) k v, zd_get (zd_set d k v) k = Ok v.
Proof. intros. cbn. rewrite Z.eqb_refl. reflexivity. Qed.
Lemma zd_set_other : forall V (d : zdict V) k k' v, k' <> k -> zd_get (zd_set d k v) k' = zd_get d k'.
Proof. intros. cbn. apply Z.eqb_neq in H. rewrite H. reflexivity. Qed.

Section NSP.
  Context {Obs A : Type}.
  Variable value : nat -> Obs -> Q.
  Variables (gamma : Q) (t_max : nat).
  Hypothesis t_max_pos : 0 < t_max.
  Notation op := (nstep_op Obs A).
  Notation step := (step Obs A).

  (** The recorded steps since the last update are [cur], and [prev] is the
      state-action pair whose consequence is not known yet. *)
  Definition recorded (s : nagent Obs A) (cur : list step) : Prop :=
    forall j x, nth_error cur j = Some x ->
      zd_get (n_past s) (Z.of_nat (n_start s + j)) = Ok (st_key x) /\
      zd_get (n_rewards s) (Z.of_nat (n_start s + j)) = Ok (st_reward x).

  Definition ninv (k : nat) (s : nagent Obs A) (prev : option (Obs * A)) (cur : list step) : Prop :=
    n_updates s = k /\ recorded s cur /\ length cur < t_max /\
    match prev with
    | Some p => n_t s = n_start s + length cur + 1 /\ zd_get (n_past s) (Z.of_nat (n_start s + length cur)) = Ok p
    | None => n_t s = n_start s /\ cur = []
    end.

  Lemma nloop_spec : forall s boot pre post out, recorded s (pre ++ post) ->
    forall R, (R == weighted_sum gamma (map st_reward post) + pow gamma (length post) * boot)%Q ->
    trains_on post st_key (fun l => weighted_sum gamma (map st_reward l) + pow gamma (length l) * boot)%Q out ->
    exists b, nloop gamma s (n_start s) (length pre) R out = Ok b /\
      trains_on (pre ++ post) st_key (fun l => weighted_sum gamma (map st_reward l) + pow gamma (length l) * boot)%Q b.
  Proof.
    intros s boot pre. induction pre as [|x pre IH] using rev_ind; intros post out Hr R HR Ht.
    - exists out. split; [reflexivity|exact Ht].
    - rewrite app_length. cbn [length]. replace (length pre + 1) with (S (length pre)) by lia. cbn [nloop].
      rewrite <- app_assoc in Hr |- *. cbn [app] in Hr |- *.
      destruct (Hr (length pre) x) as (E1 & E2).
      { rewrite nth_error_app2, Nat.sub_diag by lia. reflexivity. }
      rewrite E2. cbn [bind]. rewrite E1. cbn [bind].
      assert (HR' : (R * gamma + st_reward x == weighted_sum gamma (map st_reward (x :: post)) + pow gamma (length (x :: post)) * boot)%Q).
      { cbn [map length pow]. rewrite weighted_sum_cons, HR. ring. }
      apply IH; [exact Hr|exact HR'|].
      destruct Ht as [L T]. split; [cbn [length]; lia|].
      intros [|j] y Hy; cbn [nth_error] in Hy.
      + injection Hy as <-. eexists. split; [reflexivity|]. cbn [skipn]. exact HR'.
      + destruct (T j y Hy) as (R1 & H1 & H2). exists R1. auto.
  Qed.

  (** The bootstrap value of a segment is that of each of its suffixes. *)
  Definition boot_of (k : nat) (l : list step) : Q :=
    match rev l with x :: _ => match st_end x with Some true => 0%Q | _ => value k (st_next x) end | [] => 0%Q end.

  Lemma trains_weaken : forall k (l : list step) b, l <> [] ->
    trains_on l st_key (fun l' => weighted_sum gamma (map st_reward l') + pow gamma (length l') * boot_of k l)%Q b ->
    trains_on l st_key (n_step_target gamma (value k)) b.
  Proof.
    intros k l b Hn [L T]. split; [exact L|]. intros j x Hx. destruct (T j x Hx) as (R & H1 & H2). exists R. split; [exact H1|].
    rewrite H2. unfold n_step_target. apply Qplus_comp; [reflexivity|]. apply Qmult_comp; [reflexivity|].
    destruct (exists_last Hn) as (pre & y & ->).
    assert (Hj : j < length (pre ++ [y])) by (apply nth_error_Some; congruence). rewrite app_length in Hj. cbn in Hj.
    unfold boot_of. rewrite skipn_app. replace (j - length pre) with 0 by lia. cbn [skipn]. rewrite !rev_app_distr. reflexivity.
  Qed.

  Lemma nupdate_spec : forall k s cur sv, recorded s cur -> n_updates s = k -> n_t s = n_start s + length cur -> cur <> [] ->
    (match sv with None => 0%Q | Some x => value k x end = boot_of k cur) ->
    exists b, nupdate value gamma s sv = Ok (b, mk_nagent (n_t s) (n_t s) [] [] (1 + k)) /\
      trains_on cur st_key (n_step_target gamma (value k)) b.
  Proof.
    intros k s cur sv Hr Hk Ht Hn Hb. unfold nupdate.
    assert (0 < length cur) by (destruct cur; [congruence|cbn; lia]).
    replace (Nat.ltb (n_start s) (n_t s)) with true by (symmetry; apply Nat.ltb_lt; lia).
    replace (n_t s - n_start s) with (length cur) by lia.
    rewrite Hk. rewrite Hb.
    destruct (@nloop_spec s (boot_of k cur) cur [] [] ltac:(rewrite app_nil_r; exact Hr) (boot_of k cur)) as (b & E & T).
    - cbn. ring.
    - split; [reflexivity|]. intros [|j] x Hx; discriminate.
    - rewrite E. cbn [bind]. exists b. split; [reflexivity|]. rewrite app_nil_r in T. apply trains_weaken; assumption.
  Qed.

  Lemma recorded_snoc : forall (s : nagent Obs A) cur p r x s', recorded s cur ->
    zd_get (n_past s) (Z.of_nat (n_start s + length cur)) = Ok p ->
    st_key x = p -> st_reward x = r ->
    n_start s' = n_start s -> n_past s' = n_past s ->
    n_rewards s' = zd_set (n_rewards s) (Z.of_nat (n_start s + length cur)) r ->
    recorded s' (cur ++ [x]).
  Proof.
    intros s cur p r x s' H Hp Hk Hr E1 E2 E3 j y Hy. rewrite E1, E2, E3.
    destruct (Nat.lt_ge_cases j (length cur)) as [Hj|Hj].
    - rewrite nth_error_app1 in Hy by exact Hj. destruct (H j y Hy) as [A1 A2]. split; [exact A1|].
      rewrite zd_set_other by lia. exact A2.
    - rewrite nth_error_app2 in Hy by exact Hj.
      destruct (j - length cur) as [|m] eqn:Em; cbn in Hy; [|destruct m; discriminate]. injection Hy as <-.
      assert (j = length cur) by lia. subst j. rewrite Hp, zd_set_same. subst. auto.
  Qed.

  Lemma nruns : forall os k s prev cur, ninv k s prev cur ->
    stops_follow_actions (match prev with Some _ => true | None => false end) os = true ->
    exists log s', nstep_runs value gamma t_max s os = Ok (log, s') /\
      Forall2 (fun seg ib => trains_on seg st_key (n_step_target gamma (value (fst ib))) (snd ib))
              (segments t_max cur (steps_from prev os)) (combine (seq k (length log)) log).
  Proof.
    induction os as [|o os IH]; intros k s prev cur Hinv Hs.
    - exists [], s. split; [reflexivity|]. constructor.
    - destruct Hinv as (Hk & Hr & Hl & Hp). destruct o as [obs r a|obs r d].
      + (* act *)
        cbn [nstep_runs nstep_run1 stops_follow_actions steps_from] in *.
        set (s1 := mk_nagent (n_t s) (n_start s) (n_past s) (zd_set (n_rewards s) (Z.of_nat (n_t s) - 1) r) (n_updates s)).
        destruct prev as [p|].
        * destruct Hp as [Ht Hp]. set (x := mk_step p r obs None).
          assert (Hr1 : recorded s1 (cur ++ [x])).
          { apply (@recorded_snoc s cur p r x s1); try reflexivity; try assumption. cbn [s1 n_rewards]. f_equal. lia. }
          cbn [app segments]. fold x. cbn [st_end orb]. change (st_end x) with (@None bool). cbn [orb].
          change (n_t s1 - n_start s1) with (n_t s - n_start s).
          replace (n_t s - n_start s) with (length (cur ++ [x])) by (rewrite app_length; cbn; lia).
          destruct (Nat.eqb_spec (length (cur ++ [x])) t_max) as [E|E].
          -- destruct (@nupdate_spec k s1 (cur ++ [x]) (Some obs) Hr1 Hk) as (b & U & T).
             ++ cbn [s1 n_t n_start]. rewrite app_length. cbn. lia.
             ++ destruct cur; discriminate.
             ++ unfold boot_of. rewrite rev_app_distr. reflexivity.
             ++ rewrite U. cbn [bind fst snd n_t n_start n_past n_rewards n_updates].
                destruct (IH (S k) (mk_nagent (1 + n_t s1) (n_t s1) (zd_set [] (Z.of_nat (n_t s1)) (obs, a)) [] (1 + k)) (Some (obs, a)) []) as (log & s' & R & F).
                ** split; [reflexivity|]. split; [intros [|j] y Hy; discriminate|]. split; [cbn; lia|]. cbn [n_t n_start length n_past].
                   split; [lia|]. rewrite Nat.add_0_r. apply zd_set_same.
                ** exact Hs.
                ** rewrite R. cbn [bind fst snd app]. exists (b :: log), s'. split; [reflexivity|]. cbn [length seq combine].
                   constructor; [exact T|exact F].
          -- cbn [bind fst snd]. 
             destruct (IH k (mk_nagent (1 + n_t s1) (n_start s1) (zd_set (n_past s1) (Z.of_nat (n_t s1)) (obs, a)) (n_rewards s1) (n_updates s1)) (Some (obs, a)) (cur ++ [x])) as (log & s' & R & F).
             ++ split; [exact Hk|]. split.
                { intros j y Hy. cbn [n_start n_past n_rewards]. destruct (Hr1 j y Hy) as [A1 A2]. split; [|exact A2].
                  assert (j < length (cur ++ [x])) by (apply nth_error_Some; congruence). rewrite app_length in H. cbn in H.
                  rewrite zd_set_other; [exact A1|]. cbn [s1 n_start n_t]. lia. }
                rewrite app_length in *. cbn [length] in *. split; [lia|]. cbn [n_t n_start n_past s1]. split; [lia|].
                replace (n_start s + (length cur + 1)) with (n_t s) by lia. apply zd_set_same.
             ++ exact Hs.
             ++ rewrite R. cbn [bind fst snd app]. exists log, s'. split; [reflexivity|exact F].
        * destruct Hp as [Ht ->]. cbn [app].
          change (n_t s1 - n_start s1) with (n_t s - n_start s).
          replace (Nat.eqb (n_t s - n_start s) t_max) with false by (symmetry; apply Nat.eqb_neq; lia).
          cbn [bind fst snd].
          destruct (IH k (mk_nagent (1 + n_t s1) (n_start s1) (zd_set (n_past s1) (Z.of_nat (n_t s1)) (obs, a)) (n_rewards s1) (n_updates s1)) (Some (obs, a)) []) as (log & s' & R & F).
          -- split; [exact Hk|]. split; [intros [|j] y Hy; discriminate|]. split; [cbn; lia|]. cbn [n_t n_start length n_past s1].
             split; [lia|]. rewrite Nat.add_0_r, <- Ht. apply zd_set_same.
          -- exact Hs.
          -- rewrite R. cbn [bind fst snd app]. exists log, s'. split; [reflexivity|exact F].
      + (* stop *)
        cbn [nstep_runs nstep_run1 stops_follow_actions steps_from] in *.
        destruct prev as [p|]; [|discriminate]. cbn [andb] in Hs. destruct Hp as [Ht Hp].
        set (s1 := mk_nagent (n_t s) (n_start s) (n_past s) (zd_set (n_rewards s) (Z.of_nat (n_t s) - 1) r) (n_updates s)).
        set (x := mk_step p r obs (Some d)).
        assert (Hr1 : recorded s1 (cur ++ [x])).
        { apply (@recorded_snoc s cur p r x s1); try reflexivity; try assumption. cbn [s1 n_rewards]. f_equal. lia. }
        destruct (@nupdate_spec k s1 (cur ++ [x]) (if d then None else Some obs) Hr1 Hk) as (b & U & T).
        -- cbn [s1 n_t n_start]. rewrite app_length. cbn. lia.
        -- destruct cur; discriminate.
        -- unfold boot_of. rewrite rev_app_distr. cbn [rev app st_end x st_next]. destruct d; reflexivity.
        -- rewrite U. cbn [bind fst snd]. cbn [app segments]. fold x. change (st_end x) with (Some d). cbn [orb].
           destruct (IH (S k) (mk_nagent (n_t s1) (n_t s1) [] [] (1 + k)) None []) as (log & s' & R & F).
           ++ split; [reflexivity|]. split; [intros [|j] y Hy; discriminate|]. split; [cbn; lia|]. auto.
           ++ exact Hs.
           ++ rewrite R. cbn [bind fst snd app]. exists (b :: log), s'. split; [reflexivity|]. cbn [length seq combine].
              constructor; [exact T|exact F].
  Qed.

  Theorem nstep_trains : forall os : list op, stops_follow_actions false os = true ->
    exists log s, nstep_runs value gamma t_max nagent_init os = Ok (log, s) /\
      length log = length (segments t_max [] (steps_of os)) /\
      forall k seg b, nth_error (segments t_max [] (steps_of os)) k = Some seg -> nth_error log k = Some b ->
        trains_on seg st_key (n_step_target gamma (value k)) b.
  Proof.
    intros os H. destruct (@nruns os 0 nagent_init None []) as (log & s & R & F).
    - split; [reflexivity|]. split; [intros [|j] y Hy; discriminate|]. split; [cbn; lia|]. auto.
    - exact H.
    - exists log, s. split; [exact R|]. change (steps_from None os) with (steps_of os) in F. revert F.
      generalize (segments t_max [] (steps_of os)) as segs. intros segs F. split.
      + assert (F0 : length segs = length (combine (seq 0 (length log)) log)) by (clear -F; induction F; cbn [length]; congruence).
        rewrite combine_length, seq_length in F0. lia.
      + assert (G : forall q segs k seg b, Forall2 (fun seg ib => trains_on seg st_key (n_step_target gamma (value (fst ib))) (snd ib)) segs (combine (seq q (length log)) log) ->
          nth_error segs k = Some seg -> nth_error log k = Some b -> trains_on seg st_key (n_step_target gamma (value (q + k))) b).
        { clear. induction log as [|c log IH]; intros q segs k seg b F H1 H2; [destruct k; discriminate|].
          cbn [length seq combine] in F. inversion F as [|x y xs ys T F']; subst. destruct k as [|k]; cbn [nth_error] in *.
          - injection H1 as <-. injection H2 as <-. rewrite Nat.add_0_r. exact T.
          - replace (q + S k) with (S q + k) by lia. eapply IH; eassumption. }
        intros k seg b H1 H2. exact (G 0 segs k seg b F H1 H2).
  Qed.
End NSP.

(** Every step is trained on exactly once, in order, in groups of at most [t_max]
    that do not cross the end of an episode. *)
Section Segs.
  Context {Obs A : Type}.
  Notation step := (step Obs A).
  Lemma segments_tile : forall t_max, 0 < t_max -> forall (l cur : list step), length cur < t_max ->
    (forall x, In x cur -> st_end x = None) ->
    exists rest, cur ++ l = concat (segments t_max cur l) ++ rest /\ length rest < t_max /\ (forall x, In x rest -> st_end x = None) /\
    forall seg, In seg (segments t_max cur l) -> 0 < length seg <= t_max /\
      (length seg = t_max \/ exists pre x d, seg = pre ++ [x] /\ st_end x = Some d) /\
      forall i x, nth_error seg i = Some x -> S i < length seg -> st_end x = None.
  Proof.
    intros t_max Ht l. induction l as [|x l IH]; intros cur Hc Hn.
    - exists cur. cbn. rewrite app_nil_r. split; [reflexivity|]. split; [exact Hc|]. split; [exact Hn|]. intros seg [].
    - cbn [segments]. 
      assert (Hmid : forall i y, nth_error (cur ++ [x]) i = Some y -> S i < length (cur ++ [x]) -> st_end y = None).
      { intros i y Hy Hi. rewrite app_length in Hi. cbn in Hi. rewrite nth_error_app1 in Hy by lia.
        apply Hn. eapply nth_error_In, Hy. }
      destruct (match st_end x with Some _ => true | None => false end || Nat.eqb (length (cur ++ [x])) t_max) eqn:E.
      + destruct (IH [] ltac:(cbn; lia) ltac:(intros y [])) as (rest & E1 & E2 & E3 & E4).
        exists rest. cbn [app concat] in *. split; [rewrite <- !app_assoc; cbn [app]; rewrite <- E1; reflexivity|]. split; [exact E2|]. split; [exact E3|].
        intros seg [<-|Hs]; [|exact (E4 seg Hs)].
        split; [rewrite app_length; cbn; lia|]. split; [|exact Hmid].
        destruct (st_end x) as [d|] eqn:Ex.
        * right. exists cur, x, d. auto.
        * left. cbn [orb] in E. apply Nat.eqb_eq, E.
      + apply orb_false_iff in E. destruct E as [Ex El]. apply Nat.eqb_neq in El.
        destruct (IH (cur ++ [x])) as (rest & E1 & E2 & E3 & E4).
        * rewrite app_length in *. cbn in *. lia.
        * intros y Hy. apply in_app_iff in Hy. destruct Hy as [Hy|[<-|[]]]; [apply Hn, Hy|]. destruct (st_end x); [discriminate|reflexivity].
        * exists rest. rewrite <- app_assoc in E1. auto.
  Qed.
End Segs.
