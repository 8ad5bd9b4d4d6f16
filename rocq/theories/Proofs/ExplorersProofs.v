From Coq Require Import QArith Qminmax Lqa Qfield.
From Verif Require Import Base.PyBase Model.Num Model.Explorers Spec.ScheduleSpec.
Set Implicit Arguments.
Local Open Scope Q_scope.

Lemma frac_bounds : forall a b : Z, (0 <= a <= b)%Z -> (0 < b)%Z -> 0 <= inject_Z a / inject_Z b <= 1.
Proof.
  intros a b H Hb. assert (Hq : 0 < inject_Z b) by (unfold inject_Z, Qlt; simpl; lia).
  split.
  - apply Qle_shift_div_l; [exact Hq|]. rewrite Qmult_0_l. unfold inject_Z, Qle; simpl; lia.
  - apply Qle_shift_div_r; [exact Hq|]. rewrite Qmult_1_l. unfold inject_Z, Qle; simpl; lia.
Qed.

Lemma frac_mono : forall a a' b : Z, (a <= a')%Z -> (0 < b)%Z -> inject_Z a / inject_Z b <= inject_Z a' / inject_Z b.
Proof.
  intros a a' b H Hb. apply Qmult_le_compat_r.
  - unfold inject_Z, Qle; simpl; lia.
  - apply Qinv_le_0_compat. unfold inject_Z, Qle; simpl; lia.
Qed.

Lemma line_moves : forall t0 t1 s e, moves s e (line t0 t1 s e).
Proof.
  intros t0 t1 s e.
  assert (Hb : forall t, exists x, 0 <= x <= 1 /\ line t0 t1 s e t == s + (e - s) * x /\
             (forall t', (t <= t')%nat -> exists x', x <= x' /\ 0 <= x' <= 1 /\ line t0 t1 s e t' == s + (e - s) * x')).
  { assert (Hx : forall t, exists x, (x == if Nat.leb t t0 then 0 else if Nat.leb t1 t then 1 else
        inject_Z (Z.of_nat t - Z.of_nat t0) / inject_Z (Z.of_nat t1 - Z.of_nat t0)) /\
        0 <= x <= 1 /\ line t0 t1 s e t == s + (e - s) * x).
    { intro t. unfold line. destruct (Nat.leb_spec t t0).
      - exists 0. split; [reflexivity|]. split; [lra|ring].
      - destruct (Nat.leb_spec t1 t).
        + exists 1. split; [reflexivity|]. split; [lra|ring].
        + eexists. split; [reflexivity|]. split; [|reflexivity]. apply frac_bounds; lia. }
    intro t. destruct (Hx t) as (x & Ex & Hr & El). exists x. split; [exact Hr|]. split; [exact El|].
    intros t' Ht. destruct (Hx t') as (x' & Ex' & Hr' & El'). exists x'. split; [|split; [exact Hr'|exact El']].
    destruct (Nat.leb_spec t t0); [rewrite Ex; lra|].
    destruct (Nat.leb_spec t' t0); [lia|].
    destruct (Nat.leb_spec t1 t'); [rewrite Ex'; lra|].
    destruct (Nat.leb_spec t1 t); [lia|].
    rewrite Ex, Ex'. apply frac_mono; lia. }
  split.
  - intro t. destruct (Hb t) as (x & Hr & El & _). rewrite El.
    destruct (Qlt_le_dec s e).
    + rewrite Q.min_l, Q.max_r by lra. nra.
    + rewrite Q.min_r, Q.max_l by lra. nra.
  - intros t t' Ht. destruct (Hb t) as (x & Hr & El & Hx). destruct (Hx t' Ht) as (x' & Hxx & Hr' & El').
    rewrite El, El'. split; intro; nra.
Qed.

Lemma nofnat_Q : forall n, nofnat QNum n = inject_Z (Z.of_nat n).
Proof. reflexivity. Qed.

Lemma qleb_true : forall a b, nleb QNum a b = true <-> a <= b.
Proof.
  intros. unfold nleb. cbn [nltb QNum]. unfold Qltb. rewrite negb_involutive. apply Qle_bool_iff.
Qed.

Lemma decay_init_ok : forall s e n d, decay_init QNum s e n = Ok d ->
  d = @mk_decay QNum s e n s /\ 0 <= s <= 1 /\ 0 <= e <= 1 /\ (0 <= n)%Z.
Proof.
  intros s e n d H. unfold decay_init in H.
  change (nzero QNum) with 0 in H. change (none_ QNum) with 1 in H.
  destruct (nleb QNum 0 s) eqn:E1; [|discriminate]. destruct (nleb QNum s 1) eqn:E2; [|discriminate].
  destruct (nleb QNum 0 e) eqn:E3; [|discriminate]. destruct (nleb QNum e 1) eqn:E4; [|discriminate].
  cbn [andb] in H. destruct (0 <=? n)%Z eqn:E5; [|discriminate].
  apply qleb_true in E1, E2, E3, E4. inversion H. repeat split; auto. lia.
Qed.

Lemma compute_line : forall s e n x t, (0 < n)%Z ->
  exists v, compute_epsilon (@mk_decay QNum s e n x) t = Ok v /\ v == line 0 (Z.to_nat n) s e t.
Proof.
  intros s e n x t Hn. unfold compute_epsilon. cbn [d_start d_end d_steps].
  destruct (Z.ltb_spec n (Z.of_nat t)).
  - exists e. split; [reflexivity|]. unfold line. destruct (Nat.leb_spec t 0); [lia|].
    destruct (Nat.leb_spec (Z.to_nat n) t); [reflexivity|lia].
  - destruct (Z.eqb_spec n 0); [lia|]. eexists. split; [reflexivity|].
    cbn [nadd nmul ndiv nsub nofnat QNum]. unfold line.
    rewrite Z2Nat.id by lia. replace (Z.of_nat t - Z.of_nat 0)%Z with (Z.of_nat t) by lia.
    replace (n - Z.of_nat 0)%Z with n by lia.
    assert (~ inject_Z n == 0) by (unfold inject_Z, Qeq; simpl; lia).
    destruct (Nat.leb_spec t 0).
    + assert (t = 0%nat) by lia. subst. simpl (Z.of_nat 0). field. auto.
    + destruct (Nat.leb_spec (Z.to_nat n) t).
      * assert (Z.of_nat t = n) by lia. rewrite H3. field. auto.
      * reflexivity.
Qed.

Lemma decay_schedule : forall s e n d, decay_init QNum s e n = Ok d -> (0 < n)%Z ->
  exists f, (forall t, compute_epsilon d t = Ok (f t)) /\
    (forall t, f t == line 0 (Z.to_nat n) s e t) /\ moves s e f /\ (forall t, 0 <= f t <= 1).
Proof.
  intros s e n d H Hn. destruct (@decay_init_ok _ _ _ _ H) as (-> & Hs & He & _).
  exists (fun t => match compute_epsilon (@mk_decay QNum s e n s) t with Ok v => v | Raise _ => 0 end).
  assert (Hl : forall t, match compute_epsilon (@mk_decay QNum s e n s) t with Ok v => v | Raise _ => 0 end
               == line 0 (Z.to_nat n) s e t).
  { intro t. destruct (@compute_line s e n s t Hn) as (v & -> & Hv). exact Hv. }
  destruct (line_moves 0 (Z.to_nat n) s e) as [Hm Hmo].
  split; [|split; [exact Hl|split; [split|]]].
  - intro t. destruct (@compute_line s e n s t Hn) as (v & -> & Hv). reflexivity.
  - intro t. rewrite Hl. apply Hm.
  - intros t t' Ht. rewrite !Hl. apply Hmo, Ht.
  - intro t. rewrite Hl. destruct (Hm t) as [H1 H2]. split.
    + eapply Qle_trans; [|exact H1]. apply Q.min_glb; lra.
    + eapply Qle_trans; [exact H2|]. apply Q.max_lub; lra.
Qed.

Lemma qltb_true : forall a b, nltb QNum a b = true <-> a < b.
Proof.
  intros. cbn [nltb QNum]. unfold Qltb. rewrite negb_true_iff. split; intro H.
  - apply Qnot_le_lt. intro Hle. apply Qle_bool_iff in Hle. congruence.
  - destruct (Qle_bool b a) eqn:E; [|reflexivity]. apply Qle_bool_iff in E. lra.
Qed.

Lemma decay_history : forall (A : Type) s e n d (calls : list (nat * Q * A * A)),
  decay_init QNum s e n = Ok d -> (0 < n)%Z ->
  exists out d', decay_run d calls = Ok (out, d') /\
    Forall2 (fun c o => match c with (t, u, ra, ga) =>
       (u < line 0 (Z.to_nat n) s e t /\ o = (ra, [CallRandom])) \/
       (line 0 (Z.to_nat n) s e t <= u /\ o = (ga, [CallGreedy])) end) calls out.
Proof.
  intros A s e n d calls H Hn. destruct (@decay_init_ok _ _ _ _ H) as (-> & _ & _ & _). clear H.
  assert (G : forall x, exists out d', decay_run (@mk_decay QNum s e n x) calls = Ok (out, d') /\
    Forall2 (fun c o => match c with (t, u, ra, ga) =>
       (u < line 0 (Z.to_nat n) s e t /\ o = (ra, [CallRandom])) \/
       (line 0 (Z.to_nat n) s e t <= u /\ o = (ga, [CallGreedy])) end) calls out).
  2: { apply G. }
  induction calls as [|[[[t u] ra] ga] rest IH]; intro x.
  - exists [], (@mk_decay QNum s e n x). split; [reflexivity|constructor].
  - cbn [decay_run]. unfold decay_select.
    destruct (@compute_line s e n x t Hn) as (v & -> & Hv). cbn [bind d_start d_end d_steps d_epsilon].
    unfold select_epsilon_greedily.
    destruct (IH v) as (out & d' & Hr & Hf).
    destruct (nltb QNum u v) eqn:E.
    + cbn [bind]. rewrite Hr. cbn [bind]. do 2 eexists. split; [reflexivity|]. constructor; [|exact Hf].
      left. split; [|reflexivity]. rewrite <- Hv. apply qltb_true; exact E.
    + cbn [bind]. rewrite Hr. cbn [bind]. do 2 eexists. split; [reflexivity|]. constructor; [|exact Hf].
      right. split; [|reflexivity]. rewrite <- Hv. apply Qnot_lt_le. intro Hlt. apply qltb_true in Hlt. congruence.
Qed.

Lemma constant_choice : forall (A : Type) e eps u (ra ga : A), constant_init QNum e = Ok eps ->
  eps = e /\ 0 <= e <= 1 /\
  ((u < e /\ constant_select QNum eps u ra ga = (ra, [CallRandom])) \/
   (e <= u /\ constant_select QNum eps u ra ga = (ga, [CallGreedy]))).
Proof.
  intros A e eps u ra ga H. unfold constant_init in H.
  change (nzero QNum) with 0 in H. change (none_ QNum) with 1 in H.
  destruct (nleb QNum 0 e) eqn:E1; [|discriminate]. destruct (nleb QNum e 1) eqn:E2; [|discriminate].
  cbn [andb] in H. inversion H. subst eps. apply qleb_true in E1, E2. split; [reflexivity|]. split; [split; assumption|].
  unfold constant_select, select_epsilon_greedily. destruct (nltb QNum u e) eqn:E.
  - left. split; [apply qltb_true; exact E|reflexivity].
  - right. split; [|reflexivity]. apply Qnot_lt_le. intro Hlt. apply qltb_true in Hlt. congruence.
Qed.

Lemma hook_line : forall total s e, (1 <= total)%nat ->
  (forall t, (t <> 1 \/ 1 < total)%nat -> hook_value (@mk_hook QNum total s e) t == line 1 total s e t) /\
  ((total = 1)%nat -> hook_value (@mk_hook QNum total s e) 1 = e) /\
  moves s e (hook_value (@mk_hook QNum total s e)).
Proof.
  intros total s e Ht.
  assert (Hl : forall t, (t <> 1 \/ 1 < total)%nat -> hook_value (@mk_hook QNum total s e) t == line 1 total s e t).
  { intros t H. unfold hook_value, interp2. cbn [h_total h_start h_stop]. unfold line.
    destruct (Nat.ltb_spec t 1).
    - destruct (Nat.leb_spec t 1); [reflexivity|lia].
    - destruct (Nat.leb_spec total t).
      + destruct (Nat.leb_spec t 1); [lia|reflexivity].
      + cbn [nadd nmul ndiv nsub nofnat QNum].
        unfold Qminus at 2 3. rewrite <- !inject_Z_opp, <- !inject_Z_plus.
        change (Z.of_nat 1) with 1%Z.
        replace (Z.of_nat total + -(1))%Z with (Z.of_nat total - 1)%Z by lia.
        replace (Z.of_nat t + -(1))%Z with (Z.of_nat t - 1)%Z by lia.
        assert (~ inject_Z (Z.of_nat total - 1) == 0) by (unfold inject_Z, Qeq; simpl; lia).
        destruct (Nat.leb_spec t 1).
        * assert (t = 1)%nat by lia. subst t. change (Z.of_nat 1 - 1)%Z with 0%Z. field. exact H2.
        * field. exact H2. }
  assert (H1 : (total = 1)%nat -> hook_value (@mk_hook QNum total s e) 1 = e) by (intros ->; reflexivity).
  split; [exact Hl|]. split; [exact H1|].
  destruct (line_moves 1 total s e) as [Hm Hmo].
  assert (Hends : Qmin s e <= e <= Qmax s e) by (split; [apply Q.le_min_r|apply Q.le_max_r]).
  split.
  - intro t. destruct (Nat.eq_dec t 1) as [->|Hne].
    + destruct (Nat.eq_dec total 1) as [E|Hne]; [rewrite H1 by exact E; exact Hends|].
      rewrite Hl by lia. apply Hm.
    + rewrite Hl by (left; exact Hne). apply Hm.
  - destruct (Nat.eq_dec total 1) as [E|Hne].
    + subst total. intros t t' Htt. unfold hook_value, interp2. cbn [h_total h_start h_stop].
      destruct (Nat.ltb_spec t 1), (Nat.ltb_spec t' 1), (Nat.leb_spec 1 t), (Nat.leb_spec 1 t'); try lia;
        split; intro; lra.
    + intros t t' Htt. rewrite !Hl by lia. apply Hmo, Htt.
Qed.
