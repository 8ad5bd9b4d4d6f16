(** Exact-arithmetic instances of the tree queue: totals, minima, picks. *)
From Coq Require Import QArith Lqa.
From Verif Require Import Base.ListFacts Model.Num Model.TreeQueue Spec.PrioritySpec Proofs.TreeQueueProofs.
Set Implicit Arguments.
Open Scope Q_scope.

Lemma sumQ_app a b : sumQ (a ++ b) == sumQ a + sumQ b.
Proof. induction a as [|x a IH]; cbn [sumQ app]; [lra|]. rewrite IH. lra. Qed.

Definition AggSum (l : list Q) (v : Q) : Prop := v == sumQ l.

Lemma AggSum1 v : AggSum [v] v.
Proof. unfold AggSum; cbn [sumQ]; lra. Qed.
Lemma AggSum_op1 l v : AggSum l v -> AggSum l (op_sum QNum [v]).
Proof. unfold AggSum, op_sum; cbn; intros H. lra. Qed.
Lemma AggSum_op2 l1 l2 v1 v2 : AggSum l1 v1 -> AggSum l2 v2 -> AggSum (l1 ++ l2) (op_sum QNum [v1; v2]).
Proof. unfold AggSum, op_sum; cbn; intros H1 H2. rewrite sumQ_app. lra. Qed.

Definition AggMin (l : list Q) (v : Q) : Prop := is_minQ l v.

Lemma AggMin1 v : AggMin [v] v.
Proof. split; [left; auto|]. intros x [->|[]]. lra. Qed.
Lemma AggMin_op1 l v : AggMin l v -> AggMin l (op_min QNum [v]).
Proof. auto. Qed.
Lemma Qltb_spec a b : if Qltb a b then a < b else b <= a.
Proof. unfold Qltb. destruct (Qle_bool b a) eqn:E; cbn [negb].
       - now apply Qle_bool_iff.
       - apply Qnot_le_lt. intros H. apply Qle_bool_iff in H. congruence. Qed.
Lemma AggMin_op2 l1 l2 v1 v2 : AggMin l1 v1 -> AggMin l2 v2 -> AggMin (l1 ++ l2) (op_min QNum [v1; v2]).
Proof.
  intros [I1 M1] [I2 M2]. cbn. pose proof (Qltb_spec v2 v1) as H. destruct (Qltb v2 v1).
  - split; [apply in_or_app; auto|]. intros x Hx. apply in_app_or in Hx as [Hx|Hx]; auto.
    specialize (M1 _ Hx). lra.
  - split; [apply in_or_app; auto|]. intros x Hx. apply in_app_or in Hx as [Hx|Hx]; auto.
    specialize (M2 _ Hx). lra.
Qed.

(** Representation predicates for the two queues. *)
Definition sum_rep (q : tq Q) (l : list Q) : Prop := tq_rep AggSum q l.
Definition min_rep (q : tq Q) (l : list Q) : Prop := tq_rep AggMin q l.

Notation osum := (op_sum QNum).
Notation omin := (op_min QNum).

Lemma sum_append q l v : sum_rep q l -> exists q', @tq_append Q osum q v = Ok q' /\ sum_rep q' (l ++ [v]).
Proof. apply tq_append_spec; auto using AggSum1, AggSum_op1, AggSum_op2. Qed.
Lemma min_append q l v : min_rep q l -> exists q', @tq_append Q omin q v = Ok q' /\ min_rep q' (l ++ [v]).
Proof. apply tq_append_spec; auto using AggMin1, AggMin_op1, AggMin_op2. Qed.
Lemma sum_popleft q x l : sum_rep q (x :: l) -> exists q', @tq_popleft Q osum q = Ok (Some x, q') /\ sum_rep q' l.
Proof. intros H. apply (@tq_popleft_spec _ osum _ AggSum1 AggSum_op1 AggSum_op2 q (x :: l) H). Qed.
Lemma min_popleft q x l : min_rep q (x :: l) -> exists q', @tq_popleft Q omin q = Ok (Some x, q') /\ min_rep q' l.
Proof. intros H. apply (@tq_popleft_spec _ omin _ AggMin1 AggMin_op1 AggMin_op2 q (x :: l) H). Qed.
Lemma sum_write q l i v : sum_rep q l -> (i < length l)%nat ->
  exists q' x, nth_error l i = Some x /\ @tq_write Q osum q (Z.of_nat i) (Some v) = Ok (Some x, q') /\ sum_rep q' (upd l i v).
Proof. apply tq_write_rep; auto using AggSum1, AggSum_op1, AggSum_op2. Qed.

Lemma sum_value q l : sum_rep q l ->
  match l with [] => @tq_value Q q = Ok None | _ => exists v : Q, @tq_value Q q = Ok (Some v) /\ v == sumQ l end.
Proof. intros H. exact (tq_value_spec osum AggSum1 AggSum_op1 AggSum_op2 H). Qed.
Lemma min_value q l : min_rep q l ->
  match l with [] => @tq_value Q q = Ok None | _ => exists v : Q, @tq_value Q q = Ok (Some v) /\ is_minQ l v end.
Proof. intros H. exact (tq_value_spec omin AggMin1 AggMin_op1 AggMin_op2 H). Qed.

Lemma stq_sum_spec q l : sum_rep q l -> exists v, stq_sum QNum q = Ok v /\ v == sumQ l.
Proof.
  intros H. pose proof (sum_value H) as Hv. unfold stq_sum. change (nV QNum) with Q. destruct l as [|x l].
  - rewrite Hv. cbn. exists 0. split; [reflexivity|]. cbn; lra.
  - destruct Hv as (v & -> & Ha). cbn. eauto.
Qed.

(** ** _find *)
Definition oval (o : option Q) : Q := match o with Some v => v | None => 0 end.
Definition sumO (c : list (option Q)) : Q := sumQ (map oval c).

Lemma sumO_somes c : sumO c == sumQ (somes c).
Proof. unfold sumO. induction c as [|[v|] c IH]; cbn [map oval sumQ somes]; [lra| |]; rewrite IH; lra. Qed.

Lemma find_spec d : forall fuel il ir t pos,
  (d < fuel)%nat -> ir = (il + Z.of_nat (2 ^ d))%Z -> wf AggSum d t ->
  0 <= pos -> pos < sumO (cells d t) ->
  exists j, find QNum fuel il ir t pos = Ok (il + Z.of_nat j)%Z /\ (j < 2 ^ d)%nat /\
    sumO (firstn j (cells d t)) <= pos /\ pos < sumO (firstn (S j) (cells d t)).
Proof.
  induction d as [|d IH]; intros [|fuel] il ir t pos Hf Hir Hw H0 H1; try lia; cbn [find].
  - cbn in Hir. destruct (ir - il =? 1)%Z eqn:E; [|lia].
    exists 0%nat. split; [f_equal; lia|]. split; [cbn; lia|]. split; [cbn; lra|].
    rewrite firstn_all2; auto. rewrite cells_length. cbn; lia.
  - destruct (ir - il =? 1)%Z eqn:E; [pose proof (pow_pos d); rewrite Nat.pow_succ_r' in Hir; lia|].
    destruct t as [|v|l r v].
    + exfalso. rewrite sumO_somes, cells_Empty, somes_repeat in H1. cbn in H1. lra.
    + destruct Hw.
    + destruct Hw as (Hwl & Hwr & _ & _). cbn [cells] in *. subst ir. rewrite center.
      match goal with |- context [nltb QNum pos ?x] => set (lv := x : Q) end.
      assert (Hlv : lv == sumO (cells d l)).
      { rewrite sumO_somes. unfold lv. change (nV QNum) with Q.
        destruct (@wf_vals _ AggSum AggSum1 _ _ Hwl) as [[-> ->]|(v1 & -> & Ha & _)]; cbn; [lra|exact Ha]. }
      assert (Hsum : sumO (cells d l ++ cells d r) == sumO (cells d l) + sumO (cells d r)).
      { unfold sumO. now rewrite map_app, sumQ_app. }
      pose proof (cells_length d l) as Hll. pose proof (cells_length d r) as Hlr.
      change (nltb QNum pos lv) with (Qltb pos lv). change (nsub QNum pos lv) with (pos - lv).
      pose proof (Qltb_spec pos lv) as Hlt. destruct (Qltb pos lv).
      * destruct (IH fuel il (il + Z.of_nat (2 ^ d))%Z l pos ltac:(lia) eq_refl Hwl H0 ltac:(lra)) as (j & -> & Hj & Ha & Hb).
        exists j. split; [auto|]. split; [simpl; lia|].
        rewrite !firstn_app, Hll. replace (j - 2 ^ d)%nat with 0%nat by lia.
        replace (S j - 2 ^ d)%nat with 0%nat by lia. cbn [firstn]. rewrite !app_nil_r. auto.
      * destruct (IH fuel (il + Z.of_nat (2 ^ d))%Z (il + Z.of_nat (2 ^ S d))%Z r (pos - lv) ltac:(lia)) as (j & -> & Hj & Ha & Hb); auto.
        { rewrite Nat.pow_succ_r'. lia. } { lra. } { lra. }
        exists (2 ^ d + j)%nat. split; [f_equal; lia|]. split; [simpl; lia|].
        rewrite !firstn_app, Hll. replace (2 ^ d + j - 2 ^ d)%nat with j by lia.
        replace (S (2 ^ d + j) - 2 ^ d)%nat with (S j) by lia.
        rewrite !(firstn_all2 (cells d l)) by lia. unfold sumO in *. rewrite !map_app, !sumQ_app.
        split; lra.
Qed.

Lemma sumO_None_app a c : sumO (repeat None a ++ c) == sumO c.
Proof. unfold sumO. rewrite map_app, sumQ_app.
       assert (sumQ (map oval (repeat None a)) == 0) as ->.
       { induction a; cbn [repeat map sumQ oval]; [lra|]. rewrite IHa. lra. } lra. Qed.
Lemma sumO_Some l : sumO (map Some l) = sumQ l.
Proof. unfold sumO. rewrite map_map. cbn [oval]. now rewrite map_id. Qed.

Lemma repeat_firstn {A} (x : A) n k : firstn k (repeat x n) = repeat x (min k n).
Proof. revert k; induction n; intros [|k]; cbn; auto. now rewrite IHn. Qed.

(** From positions among the cells to positions in the list. *)
Lemma hit_cells l a b j pos : 0 <= pos ->
  let c := repeat None a ++ map Some l ++ repeat None b in
  sumO (firstn j c) <= pos -> pos < sumO (firstn (S j) c) ->
  (a <= j)%nat /\ hit l pos (j - a).
Proof.
  intros H0 c Ha Hb. subst c.
  assert (Hgen : forall k, sumO (firstn k (repeat None a ++ map Some l ++ repeat None b)) == sumQ (firstn (k - a) l)).
  { intros k. rewrite firstn_app, repeat_length, repeat_firstn, sumO_None_app.
    rewrite firstn_app, firstn_map, map_length. rewrite repeat_firstn.
    unfold sumO. rewrite map_app, sumQ_app. fold (sumO (map Some (firstn (k - a) l))).
    rewrite sumO_Some. 
    assert (sumQ (map oval (repeat None (min (k - a - length l) b))) == 0) as ->.
    { generalize (min (k - a - length l) b) as n. induction n; cbn [repeat map sumQ oval]; [lra|]. rewrite IHn. lra. }
    lra. }
  rewrite Hgen in Ha, Hb.
  assert (Haj : (a <= j)%nat).
  { destruct (le_lt_dec a j); auto. exfalso. replace (S j - a)%nat with 0%nat in Hb by lia. cbn in Hb. lra. }
  split; auto. replace (S j - a)%nat with (S (j - a)) in Hb by lia.
  split; [|auto]. destruct (lt_dec (j - a) (length l)) as [|Hge]; auto. exfalso.
  rewrite !firstn_all2 in * by lia. lra.
Qed.

Lemma find_rep q l il ir t pos : sum_rep q l -> tq_body q = Some (il, ir, t) ->
  0 <= pos -> pos < sumQ l ->
  exists i, find QNum (width il ir) il ir t pos = Ok (Z.of_nat i) /\ hit l pos i.
Proof.
  intros [Hlen Hb] Eb H0 H1. rewrite Eb in Hb. destruct Hb as (Hne & d & a & b & Hir & Hil & Hw & Hc).
  assert (Hs : sumO (cells d t) == sumQ l).
  { rewrite Hc, sumO_None_app. unfold sumO. rewrite map_app, sumQ_app.
    fold (sumO (map Some l)). rewrite sumO_Some. fold (sumO (repeat None b)).
    rewrite <- (app_nil_r (repeat None b)), sumO_None_app. cbn. lra. }
  destruct (@find_spec d (width il ir) il ir t pos) as (j & Hf & Hj & Hlo & Hhi); auto.
  { rewrite Hir, width_pow. apply depth_width. } { lra. }
  rewrite Hc in Hlo, Hhi. destruct (@hit_cells l a b j pos H0 Hlo Hhi) as (Haj & Hh).
  exists (j - a)%nat. split; auto. rewrite Hf. f_equal. lia.
Qed.

Lemma firstn_S_sum l i x : nth_error l i = Some x -> sumQ (firstn (S i) l) == sumQ (firstn i l) + x.
Proof.
  revert i; induction l as [|h t IH]; intros [|i] H; cbn in H; try discriminate.
  - injection H as ->. cbn. lra.
  - specialize (IH _ H). change (firstn (S (S i)) (h :: t)) with (h :: firstn (S i) t).
    change (firstn (S i) (h :: t)) with (h :: firstn i t). cbn [sumQ]. lra.
Qed.

Lemma hit_pos l pos i : hit l pos i -> exists x, nth_error l i = Some x /\ 0 < x.
Proof.
  intros (Hi & Ha & Hb). destruct (nth_error l i) as [x|] eqn:E; [|apply nth_error_None in E; lia].
  exists x. split; auto. rewrite (firstn_S_sum _ _ E) in Hb. lra.
Qed.

Lemma firstn_mono l i j : (forall x, In x l -> 0 <= x) -> (i <= j)%nat -> sumQ (firstn i l) <= sumQ (firstn j l).
Proof.
  revert i j; induction l as [|h t IH]; intros i j Hp Hij.
  - rewrite !firstn_nil. lra.
  - destruct i as [|i].
    + destruct j as [|j]; cbn [firstn sumQ]; [lra|].
      specialize (IH 0%nat j ltac:(intros; apply Hp; simpl; auto) ltac:(lia)). cbn in IH.
      specialize (Hp h (or_introl eq_refl)). lra.
    + destruct j as [|j]; [lia|]. cbn [firstn sumQ].
      specialize (IH i j ltac:(intros; apply Hp; simpl; auto) ltac:(lia)). lra.
Qed.

Lemma hit_unique l pos i j : (forall x, In x l -> 0 <= x) -> hit l pos i -> hit l pos j -> i = j.
Proof.
  intros Hp (Hi & Ha & Hb) (Hj & Hc & Hd).
  destruct (lt_eq_lt_dec i j) as [[H|H]|H]; auto; exfalso.
  - pose proof (@firstn_mono l (S i) j Hp ltac:(lia)). lra.
  - pose proof (@firstn_mono l (S j) i Hp ltac:(lia)). lra.
Qed.

(** ** Sampling *)
Lemma sumQ_nonneg l : (forall x, In x l -> 0 <= x) -> 0 <= sumQ l.
Proof. induction l as [|h t IH]; intros H; cbn [sumQ]; [lra|].
       specialize (IH ltac:(intros; apply H; simpl; auto)). specialize (H h (or_introl eq_refl)). lra. Qed.

Lemma positives_sum l : (forall x, In x l -> 0 <= x) -> (0 < positives l)%nat -> 0 < sumQ l.
Proof.
  unfold positives. induction l as [|h t IH]; cbn [filter length sumQ]; intros Hn Hp; [lia|].
  pose proof (sumQ_nonneg t ltac:(intros; apply Hn; simpl; auto)) as Ht.
  pose proof (Hn h (or_introl eq_refl)) as Hh.
  destruct (Qle_bool h 0) eqn:E; cbn [negb] in Hp.
  - specialize (IH ltac:(intros; apply Hn; simpl; auto) Hp). lra.
  - assert (0 < h). { apply Qnot_le_lt. intros C. apply Qle_bool_iff in C. congruence. } lra.
Qed.

Lemma positives_upd l i x : nth_error l i = Some x -> 0 < x -> S (positives (upd l i 0)) = positives l.
Proof.
  unfold positives. revert i; induction l as [|h t IH]; intros [|i] H Hx; cbn in H; try discriminate.
  - injection H as ->. cbn [upd filter].
    replace (Qle_bool 0 0) with true by reflexivity. cbn [negb].
    destruct (Qle_bool x 0) eqn:E; [apply Qle_bool_iff in E; lra|]. reflexivity.
  - cbn [upd filter]. destruct (Qle_bool h 0); cbn [negb length]; rewrite <- (IH _ H Hx); auto.
Qed.

Lemma in_upd {A} (l : list A) i x y : In y (upd l i x) -> y = x \/ In y l.
Proof. revert i; induction l as [|h t IH]; intros [|i]; simpl; intros H; auto.
       - destruct H; auto.
       - destruct H as [H|H]; auto. apply IH in H. tauto. Qed.

Lemma nonneg_upd l i : (forall x, In x l -> 0 <= x) -> forall x, In x (upd l i 0) -> 0 <= x.
Proof. intros H x Hx. apply in_upd in Hx as [->|Hx]; auto. lra. Qed.

Lemma node_vals_root q l il ir t : sum_rep q l -> tq_body q = Some (il, ir, t) -> l <> [] ->
  exists total, node_vals t = [total] /\ total == sumQ l.
Proof.
  intros H Eb Hne. pose proof (sum_value H) as Hv. destruct l as [|x l]; [congruence|].
  destruct Hv as (v & Hv & Ha). unfold tq_value in Hv. rewrite Eb in Hv. destruct H as [Hlen _].
  rewrite Hlen in Hv. cbn [length] in Hv.
  destruct (Z.of_nat (S (length l)) =? 0)%Z eqn:E; [lia|].
  destruct t as [|w|tl tr w]; cbn in *; inversion Hv; subst; eauto.
Qed.

Lemma pick_loop_spec us : forall q l,
  sum_rep q l -> (forall x, In x l -> 0 <= x) -> (length us <= positives l)%nat ->
  (forall u, In u us -> 0 <= u < 1) ->
  exists ixs vals q' l', pick_loop QNum q us = Ok (map Z.of_nat ixs, vals, q') /\
    picks l us ixs l' /\ sum_rep q' l' /\
    vals = map (fun i => @nth_error Q l i) ixs /\ NoDup ixs /\
    (forall i, In i ixs -> exists x, nth_error l i = Some x /\ 0 < x) /\
    l' = zero_at l ixs.
Proof.
  induction us as [|u us IH]; intros q l Hr Hn Hp Hu; cbn [pick_loop]; change (nV QNum) with Q.
  - exists [], [], q, l. repeat split; auto; try constructor; try (simpl; tauto). apply Hr. apply Hr.
  - cbn [length] in Hp. pose proof (@positives_sum l Hn ltac:(lia)) as Hs.
    assert (Hne : l <> []) by (intros ->; cbn in Hs; lra).
    destruct (tq_body q) as [[[il ir] t]|] eqn:Eb.
    2:{ destruct Hr as [_ Hb]. rewrite Eb in Hb. congruence. }
    destruct (node_vals_root Hr Eb Hne) as (total & Hnv & Ht).
    rewrite Hnv.
    assert (Hu0 : 0 <= u < 1) by (apply Hu; left; auto).
    set (pos := uniform0 QNum total u).
    assert (Hpos : pos == u * sumQ l).
    { unfold pos, uniform0; cbn. rewrite <- Ht. lra. }
    assert (Hpos0 : 0 <= pos) by (rewrite Hpos; nra).
    assert (Hpos1 : pos < sumQ l) by (rewrite Hpos; nra).
    destruct (find_rep Hr Eb Hpos0 Hpos1) as (i & -> & Hh). cbn [bind].
    destruct (hit_pos Hh) as (x & Hx & Hx0).
    assert (Hil : (i < length l)%nat) by (apply Hh).
    destruct (@sum_write q l i 0 Hr Hil) as (q1 & x' & Hx' & Hw & Hr1).
    assert (x' = x) by congruence. subst x'.
    change (nzero QNum) with 0. rewrite Hw. cbn [bind].
    destruct (IH q1 (upd l i 0) Hr1 (@nonneg_upd l i Hn)) as (ixs & vals & q2 & l2 & Hpl & Hpk & Hr2 & Hv & Hnd & Hps & Hz).
    { pose proof (positives_upd l i Hx Hx0). lia. }
    { intros; apply Hu; right; auto. }
    rewrite Hpl. cbn [bind].
    assert (Hni : ~ In i ixs).
    { intros C. destruct (Hps i C) as (y & Hy & Hy0). rewrite nth_error_upd_same in Hy by auto.
      injection Hy as <-. lra. }
    exists (i :: ixs), (Some x :: vals), q2, l2. split; [reflexivity|]. split; [|split; [auto|split; [|split; [|split]]]].
    + constructor; auto. destruct Hh as (_ & H1 & H2). rewrite Hpos in H1, H2. split; auto.
    + cbn [map]. rewrite Hx. f_equal. rewrite Hv. apply map_ext_in. intros j Hj.
      apply nth_error_upd_other. intros ->. auto.
    + constructor; auto.
    + intros j [<-|Hj]; [eauto|]. destruct (Hps j Hj) as (y & Hy & Hy0).
      rewrite nth_error_upd_other in Hy by (intros ->; auto). eauto.
    + rewrite Hz. reflexivity.
Qed.

Lemma zero_at_length l ixs : length (zero_at l ixs) = length l.
Proof. unfold zero_at. revert l; induction ixs as [|i t IH]; intros l; cbn [fold_left]; auto.
       rewrite IH. apply upd_length. Qed.

Lemma zero_all_spec ixs : forall q l, sum_rep q l -> NoDup ixs -> (forall i, In i ixs -> (i < length l)%nat) ->
  exists q', zero_all QNum q (map Z.of_nat ixs) = Ok (map (fun i => @nth_error Q l i) ixs, q') /\
    sum_rep q' (zero_at l ixs).
Proof.
  induction ixs as [|i ixs IH]; intros q l Hr Hnd Hi; cbn [map zero_all]; change (nV QNum) with Q.
  - exists q. auto.
  - destruct (@sum_write q l i 0 Hr (Hi i (or_introl eq_refl))) as (q1 & x & Hx & Hw & Hr1).
    change (nzero QNum) with 0. rewrite Hw. cbn [bind]. inversion Hnd as [|? ? Hni Hnd']; subst.
    destruct (IH q1 (upd l i 0) Hr1 Hnd') as (q2 & -> & Hr2).
    { intros j Hj. rewrite upd_length. apply Hi; right; auto. }
    cbn [bind]. exists q2. split; auto. rewrite Hx. f_equal. f_equal. f_equal. apply map_ext_in. intros j Hj.
    apply nth_error_upd_other. intros ->; auto.
Qed.

(** Writing back the collected values restores the list. *)
Lemma zero_at_other l ixs j : ~ In j ixs -> nth_error (zero_at l ixs) j = nth_error l j.
Proof. unfold zero_at. revert l; induction ixs as [|i t IH]; intros l H; cbn [fold_left]; auto.
       rewrite IH by (simpl in H; tauto). apply nth_error_upd_other. simpl in H; intros ->; tauto. Qed.

Lemma zero_at_same l ixs j : In j ixs -> (j < length l)%nat -> nth_error (zero_at l ixs) j = Some 0.
Proof.
  unfold zero_at. revert l; induction ixs as [|i t IH]; intros l H Hj; [destruct H|]. cbn [fold_left].
  destruct (in_dec Nat.eq_dec j t) as [Hin|Hout].
  - apply IH; auto. now rewrite upd_length.
  - destruct H as [->|H]; [|tauto]. fold (zero_at (upd l j 0) t).
    rewrite zero_at_other by auto. now apply nth_error_upd_same.
Qed.

Lemma restore_spec (l0 : list Q) ixs : forall q l, sum_rep q l -> length l = length l0 ->
  (forall i, In i ixs -> (i < length l0)%nat) ->
  exists q' l', restore QNum q (combine (map Z.of_nat ixs) (map (fun i => @nth_error Q l0 i) ixs)) = Ok q' /\
    sum_rep q' l' /\ length l' = length l0 /\
    forall j, nth_error l' j = if in_dec Nat.eq_dec j ixs then nth_error l0 j else nth_error l j.
Proof.
  induction ixs as [|i ixs IH]; intros q l Hr Hl Hi; cbn [map combine restore]; change (nV QNum) with Q.
  - exists q, l. repeat split; auto. apply Hr. apply Hr.
  - destruct (nth_error l0 i) as [x|] eqn:Ex.
    2:{ apply nth_error_None in Ex. specialize (Hi i (or_introl eq_refl)). lia. }
    assert (Hil : (i < length l)%nat) by (rewrite Hl; apply Hi; left; auto).
    destruct (@sum_write q l i x Hr Hil) as (q1 & y & _ & Hw & Hr1). rewrite Hw. cbn [bind].
    destruct (IH q1 (upd l i x) Hr1) as (q2 & l2 & -> & Hr2 & Hl2 & Hj2).
    { now rewrite upd_length. } { intros j Hj; apply Hi; right; auto. }
    exists q2, l2. split; [reflexivity|]. split; [auto|]. split; [auto|]. intros j. rewrite Hj2.
    destruct (in_dec Nat.eq_dec j ixs) as [H1|H1]; destruct (in_dec Nat.eq_dec j (i :: ixs)) as [H2|H2]; auto.
    + simpl in H2; tauto.
    + destruct H2 as [->|H2]; [|tauto]. rewrite nth_error_upd_same; auto.
    + apply nth_error_upd_other. intros ->; apply H2; left; auto.
Qed.

Lemma restore_zeroed q l ixs : sum_rep q (zero_at l ixs) -> (forall i, In i ixs -> (i < length l)%nat) ->
  exists q', restore QNum q (combine (map Z.of_nat ixs) (map (fun i => @nth_error Q l i) ixs)) = Ok q' /\ sum_rep q' l.
Proof.
  intros Hr Hi. destruct (@restore_spec l ixs q (zero_at l ixs) Hr (zero_at_length l ixs) Hi) as (q' & l' & H & Hr' & Hl & Hj).
  exists q'. split; auto. replace l with l'; auto.
  apply nth_error_ext; [auto|]. intros j Hjl. rewrite Hj.
  destruct (in_dec Nat.eq_dec j ixs); auto. now apply zero_at_other.
Qed.

Lemma prioritized_sample_spec q l us remove :
  sum_rep q l -> (forall x, In x l -> 0 <= x) -> (length us <= positives l)%nat ->
  (forall u, In u us -> 0 <= u < 1) ->
  exists ixs q', stq_prioritized_sample QNum q us remove =
      Ok (map Z.of_nat ixs, map (fun i => @nth_error Q l i) ixs, q') /\
    picks l us ixs (zero_at l ixs) /\ length ixs = length us /\ NoDup ixs /\
    (forall i, In i ixs -> exists x, nth_error l i = Some x /\ 0 < x) /\
    sum_rep q' (if remove then zero_at l ixs else l).
Proof.
  intros Hr Hn Hp Hu. unfold stq_prioritized_sample.
  destruct (@pick_loop_spec us q l Hr Hn Hp Hu) as (ixs & vals & q1 & l' & -> & Hpk & Hr1 & -> & Hnd & Hps & ->).
  cbn [bind].
  assert (Hlen : length ixs = length us).
  { clear - Hpk. induction Hpk; cbn; auto. }
  assert (Hi : forall i, In i ixs -> (i < length l)%nat).
  { intros i Hi. destruct (Hps i Hi) as (x & Hx & _). apply nth_error_Some. congruence. }
  destruct remove.
  - exists ixs, q1. auto 10.
  - destruct (restore_zeroed l ixs Hr1 Hi) as (q2 & Hre & Hr2).
    change (nV QNum) with Q in *. rewrite Hre. cbn [bind].
    exists ixs, q2. auto 10.
Qed.

Lemma uniform_sample_spec q l ixs remove :
  sum_rep q l -> NoDup ixs -> (forall i, In i ixs -> (i < length l)%nat) ->
  exists q', stq_uniform_sample QNum q (map Z.of_nat ixs) remove =
      Ok (map Z.of_nat ixs, map (fun i => @nth_error Q l i) ixs, q') /\
    sum_rep q' (if remove then zero_at l ixs else l).
Proof.
  intros Hr Hnd Hi. unfold stq_uniform_sample.
  destruct (zero_all_spec Hr Hnd Hi) as (q1 & -> & Hr1). cbn [bind].
  destruct remove.
  - exists q1. auto.
  - destruct (restore_zeroed l ixs Hr1 Hi) as (q2 & Hre & Hr2).
    change (nV QNum) with Q in *. rewrite Hre. cbn [bind]. exists q2. auto.
Qed.
