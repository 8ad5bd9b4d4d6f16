From Coq Require Import FinFun.
From Verif Require Import Base.ListFacts Model.Random Spec.RandomSpec.
Set Implicit Arguments.

Lemma firstn_upd_out {A} (l : list A) i k x : k <= i -> firstn k (upd l i x) = firstn k l.
Proof. revert i k; induction l as [|h t IH]; intros [|i] [|k]; simpl; intros H; auto; try lia.
       f_equal; apply IH; lia. Qed.

Lemma nth_error_firstn {A} (l : list A) k i : i < k -> nth_error (firstn k l) i = nth_error l i.
Proof. revert k i; induction l as [|h t IH]; intros [|k] [|i]; simpl; intros H; auto; try lia.
       apply IH; lia. Qed.

Lemma firstn_S_snoc {A} (l : list A) i x : nth_error l i = Some x -> firstn (S i) l = firstn i l ++ [x].
Proof. revert i; induction l as [|h t IH]; intros [|i] H; cbn in *; try congruence.
       f_equal. apply IH; auto. Qed.

Section S.
  Variables (n : Z) (k : nat) (blocks : nat -> list Z).
  Hypothesis Hlen : forall b, 0 < b -> length (blocks b) = k.
  Hypothesis Hrange : forall b x, In x (blocks b) -> (0 <= x < n)%Z.

  Definition wf (result : list Z) (j b : nat) : Prop :=
    length result = 2 * k /\ k <= j < 2 * k /\ 0 < b /\ (forall x, In x result -> (0 <= x < n)%Z).

  Lemma upd_in {A} (l : list A) i x y : In y (upd l i x) -> y = x \/ In y l.
  Proof. revert i; induction l as [|h t IH]; intros [|i]; simpl; intros H; auto.
         - destruct H; auto.
         - destruct H as [H|H]; auto. apply IH in H. tauto. Qed.

  Lemma in_firstn {A} (l : list A) i y : In y (firstn i l) -> In y l.
  Proof. revert i; induction l as [|h t IH]; intros [|i]; simpl; intros H; auto; try tauto.
         destruct H as [H|H]; auto. right. eapply IH; eauto. Qed.

  (** One re-draw keeps the array well formed. *)
  Lemma wf_next result i j b y : wf result j b -> i < k -> nth_error result j = Some y ->
    let result' := upd result i y in
    (S j = 2 * k -> wf (firstn k result' ++ blocks b) k (S b) /\
                    firstn i (firstn k result' ++ blocks b) = firstn i result /\
                    nth_error (firstn k result' ++ blocks b) i = Some y) /\
    (S j <> 2 * k -> wf result' (S j) b /\ firstn i result' = firstn i result /\
                     nth_error result' i = Some y).
  Proof.
    intros (Hl & Hj & Hb & Hr) Hi Hy. cbn zeta.
    assert (Hl' : length (firstn k (upd result i y)) = k) by (rewrite firstn_length, upd_length; lia).
    assert (Hr' : forall x, In x (upd result i y) -> (0 <= x < n)%Z).
    { intros x Hx. apply upd_in in Hx as [->|Hx]; auto. apply Hr. eapply nth_error_In; eauto. }
    split; intros Hc.
    - split; [|split].
      + unfold wf. rewrite app_length, Hl', Hlen by lia. split; [lia|]. split; [lia|]. split; [lia|].
        intros x H. apply in_app_or in H as [H|H]; [apply in_firstn in H; apply (Hr' _ H)|apply (Hrange _ _ H)].
      + rewrite firstn_app, Hl'. replace (i - k) with 0 by lia. cbn [firstn]. rewrite app_nil_r.
        rewrite firstn_firstn. replace (min i k) with i by lia. apply firstn_upd_out. lia.
      + rewrite nth_error_app1 by lia. rewrite nth_error_firstn by lia.
        apply nth_error_upd_same. lia.
    - unfold wf. rewrite upd_length. split; [|split].
      + split; [lia|]. split; [lia|]. split; [lia|]. exact Hr'.
      + apply firstn_upd_out. lia.
      + apply nth_error_upd_same. lia.
  Qed.

  Lemma redraw_sound fuel : forall i selected x result j b,
    wf result j b -> i < k -> nth_error result i = Some x ->
    match redraw fuel k blocks i selected x result j b with
    | Ok (x', result', j', b') =>
        wf result' j' b' /\ ~ In x' selected /\ nth_error result' i = Some x' /\
        firstn i result' = firstn i result
    | Raise e => e = OutOfFuel
    end.
  Proof.
    induction fuel as [|f IH]; intros i selected x result j b Hwf Hi Hx; cbn [redraw];
      destruct (in_dec Z.eq_dec x selected) as [Hin|Hin]; auto.
    destruct (nth_error result j) as [y|] eqn:Hy.
    2:{ apply nth_error_None in Hy. destruct Hwf as (Hl & Hj & _). lia. }
    pose proof (@wf_next result i j b y Hwf Hi Hy) as [H1 H2]. cbn zeta in *.
    destruct (S j =? 2 * k) eqn:Ej.
    - apply Nat.eqb_eq in Ej. destruct (H1 Ej) as (Hw & Hf & Hn).
      specialize (IH i selected y _ k (S b) Hw Hi Hn).
      destruct (redraw f k blocks i selected y _ k (S b)) as [[[[x' r'] j'] b']|e]; auto.
      destruct IH as (Ha & Hb & Hc & HF). rewrite HF. auto.
    - apply Nat.eqb_neq in Ej. destruct (H2 Ej) as (Hw & Hf & Hn).
      specialize (IH i selected y _ (S j) b Hw Hi Hn).
      destruct (redraw f k blocks i selected y _ (S j) b) as [[[[x' r'] j'] b']|e]; auto.
      destruct IH as (Ha & Hb & Hc & HF). rewrite HF. auto.
  Qed.

  Definition sel_inv (i : nat) (selected result : list Z) : Prop :=
    NoDup (firstn i result) /\ forall x, In x selected <-> In x (firstn i result).

  Lemma sel_inv_next i selected result result' x :
    sel_inv i selected result -> firstn i result' = firstn i result ->
    nth_error result' i = Some x -> ~ In x selected -> sel_inv (S i) (x :: selected) result'.
  Proof.
    intros [Hnd Hin] Hf Hx Hns. unfold sel_inv. rewrite (firstn_S_snoc _ _ Hx), Hf.
    split.
    - apply NoDup_Add with (a := x) (l := firstn i result).
      + rewrite <- (app_nil_r (firstn i result)) at 1. apply Add_app.
      + split; auto. rewrite <- Hin. auto.
    - intros y. rewrite in_app_iff. simpl. rewrite Hin. tauto.
  Qed.

  Lemma dedup_sound fuel todo : forall i selected result j b,
    wf result j b -> i + todo = k -> sel_inv i selected result ->
    match dedup_loop fuel k blocks todo i selected result j b with
    | Ok r => length r = 2 * k /\ NoDup (firstn k r) /\ (forall x, In x r -> (0 <= x < n)%Z)
    | Raise e => e = OutOfFuel
    end.
  Proof.
    induction todo as [|t IH]; intros i selected result j b Hwf Hi Hs; cbn [dedup_loop].
    - destruct Hwf as (Hl & _ & _ & Hr). replace i with k in * by lia.
      destruct Hs as [Hnd _]. auto.
    - destruct (nth_error result i) as [x|] eqn:Hx.
      2:{ apply nth_error_None in Hx. destruct Hwf as (Hl & Hj & _). lia. }
      pose proof (@redraw_sound fuel i selected x result j b Hwf ltac:(lia) Hx) as Hrd.
      destruct (redraw fuel k blocks i selected x result j b) as [[[[x' r'] j'] b']|e]; auto.
      destruct Hrd as (Hw & Hns & Hn & Hf). cbn [bind].
      apply IH; auto; try lia. eapply sel_inv_next; eauto.
  Qed.

  (** Termination for generators that keep producing every value. *)
  Hypothesis Hfair : forall v b, (0 <= v < n)%Z -> exists b', b <= b' /\ In v (blocks b').
  Hypothesis Hkn : (Z.of_nat k <= n)%Z.

  Lemma fresh_value selected i result : sel_inv i selected result -> i < k -> length result = 2 * k ->
    exists v, (0 <= v < n)%Z /\ ~ In v selected.
  Proof.
    intros [Hnd Hin] Hi Hl.
    set (all := map Z.of_nat (seq 0 (Z.to_nat n))).
    destruct (Exists_dec (fun v => ~ In v selected) all) as [He|Hne].
    { intros v. destruct (in_dec Z.eq_dec v selected); [right|left]; tauto. }
    - apply Exists_exists in He as (v & Hv & Hns). exists v. split; auto.
      apply in_map_iff in Hv as (a & <- & Ha). apply in_seq in Ha. lia.
    - exfalso.
      assert (Hincl : incl all (firstn i result)).
      { intros v Hv. rewrite <- Hin. destruct (in_dec Z.eq_dec v selected) as [H|H]; auto.
        exfalso. apply Hne. apply Exists_exists. exists v; auto. }
      assert (Hndall : NoDup all).
      { apply FinFun.Injective_map_NoDup; [intros a c; lia|apply seq_NoDup]. }
      pose proof (NoDup_incl_length Hndall Hincl) as Hle. unfold all in Hle.
      rewrite map_length, seq_length, firstn_length in Hle. lia.
  Qed.

  Lemma redraw_total v b0 selected i : ~ In v selected -> In v (blocks b0) -> i < k ->
    forall fuel x result j b, wf result j b -> nth_error result i = Some x ->
    (b <= b0 \/ exists j', j <= j' /\ nth_error result j' = Some v) ->
    (b0 + 1 - b) * k + (2 * k - j) < fuel ->
    is_ok (redraw fuel k blocks i selected x result j b) = true.
  Proof.
    intros Hv Hb0 Hi. induction fuel as [|f IH]; intros x result j b Hwf Hx Hc Hf; [inversion Hf|].
    cbn [redraw]. destruct (in_dec Z.eq_dec x selected) as [Hin|Hin]; auto.
    destruct Hwf as (Hl & Hj & Hb & Hr).
    destruct (nth_error result j) as [y|] eqn:Hy.
    2:{ apply nth_error_None in Hy. lia. }
    pose proof (@wf_next result i j b y (conj Hl (conj Hj (conj Hb Hr))) Hi Hy) as [H1 H2]. cbn zeta in *.
    destruct (S j =? 2 * k) eqn:Ej.
    - apply Nat.eqb_eq in Ej. destruct (H1 Ej) as (Hw & Hfi & Hn).
      destruct Hc as [Hc|(j' & Hj' & Hnj)].
      + apply IH; auto.
        * destruct (Nat.eq_dec b b0) as [->|Hne]; [right|left; lia].
          apply In_nth_error in Hb0 as (p & Hp).
          assert (Hlen1 : length (firstn k (upd result i y)) = k) by (rewrite firstn_length, upd_length; lia).
          exists (k + p). split; [lia|]. rewrite nth_error_app2, Hlen1 by lia.
          replace (k + p - k) with p by lia. auto.
        * replace (b0 + 1 - b) with (S (b0 + 1 - S b)) in Hf by lia. cbn [Nat.mul] in Hf. lia.
      + assert (j' = j).
        { assert (j' < length result) by (apply nth_error_Some; congruence). lia. }
        subst j'. assert (y = v) by congruence. subst y.
        destruct f as [|f']; cbn [redraw]; destruct (in_dec Z.eq_dec v selected); auto; tauto.
    - apply Nat.eqb_neq in Ej. destruct (H2 Ej) as (Hw & Hfi & Hn).
      destruct Hc as [Hc|(j' & Hj' & Hnj)].
      + apply IH; auto. lia.
      + destruct (Nat.eq_dec j j') as [<-|Hne].
        * assert (y = v) by congruence. subst y.
          destruct f as [|f']; cbn [redraw]; destruct (in_dec Z.eq_dec v selected); auto; tauto.
        * apply IH; auto; [|lia]. right. exists j'. split; [lia|].
          rewrite nth_error_upd_other by lia. auto.
  Qed.

  Lemma redraw_mono fuel d : forall i selected x result j b r,
    redraw fuel k blocks i selected x result j b = Ok r ->
    redraw (fuel + d) k blocks i selected x result j b = Ok r.
  Proof.
    induction fuel as [|f IH]; intros i selected x result j b r; cbn [redraw Nat.add].
    - destruct (in_dec Z.eq_dec x selected) eqn:E; [discriminate|].
      intros H. destruct d; cbn [redraw]; rewrite E; auto.
    - destruct (in_dec Z.eq_dec x selected); auto.
      destruct (nth_error result j); auto. destruct (S j =? 2 * k); auto.
  Qed.

  Lemma dedup_mono fuel d todo : forall i selected result j b r,
    dedup_loop fuel k blocks todo i selected result j b = Ok r ->
    dedup_loop (fuel + d) k blocks todo i selected result j b = Ok r.
  Proof.
    induction todo as [|t IH]; intros i selected result j b r; cbn [dedup_loop]; auto.
    destruct (nth_error result i) as [x|]; auto.
    destruct (redraw fuel k blocks i selected x result j b) as [[[[x' r'] j'] b']|e] eqn:E; cbn [bind]; [|discriminate].
    rewrite (redraw_mono fuel d _ _ _ _ _ _ E). cbn [bind]. apply IH.
  Qed.

  Lemma dedup_total todo : forall i selected result j b,
    wf result j b -> i + todo = k -> sel_inv i selected result ->
    exists fuel, is_ok (dedup_loop fuel k blocks todo i selected result j b) = true.
  Proof.
    induction todo as [|t IH]; intros i selected result j b Hwf Hi Hs.
    - exists 0. reflexivity.
    - destruct (nth_error result i) as [x|] eqn:Hx.
      2:{ apply nth_error_None in Hx. destruct Hwf as (Hl & Hj & _). lia. }
      destruct (@fresh_value selected i result Hs ltac:(lia) (proj1 Hwf)) as (v & Hv & Hns).
      destruct (Hfair b Hv) as (b0 & Hbb & Hinb).
      set (F := S ((b0 + 1 - b) * k + (2 * k - j))).
      pose proof (@redraw_total v b0 selected i Hns Hinb ltac:(lia) F x result j b Hwf Hx (or_introl Hbb) ltac:(unfold F; lia)) as Hok.
      destruct (redraw F k blocks i selected x result j b) as [[[[x' r'] j'] b']|e] eqn:E; [|discriminate].
      pose proof (@redraw_sound F i selected x result j b Hwf ltac:(lia) Hx) as Hrd. rewrite E in Hrd.
      destruct Hrd as (Hw & Hns' & Hn & Hf).
      destruct (IH (S i) (x' :: selected) r' j' b' Hw ltac:(lia)) as (F2 & H2).
      { eapply sel_inv_next; eauto. }
      exists (F + F2). cbn [dedup_loop]. rewrite Hx, (redraw_mono F F2 _ _ _ _ _ _ E). cbn [bind].
      destruct (dedup_loop F2 k blocks t (S i) (x' :: selected) r' j' b') as [r|] eqn:E2; [|discriminate].
      rewrite Nat.add_comm, (dedup_mono F2 F _ _ _ _ _ _ E2). reflexivity.
  Qed.
End S.

Lemma sample_n_k_sound fuel r n k : rng_ok n k r ->
  match sample_n_k fuel r n k with
  | Ok l => (0 <= k <= n)%Z /\ distinct_in_range n k l
  | Raise ValueError => ~ (0 <= k <= n)%Z
  | Raise e => e = OutOfFuel
  end.
Proof.
  intros (Hnr & Hb0 & Hbl & Hrg). unfold sample_n_k.
  destruct (0 <=? k)%Z eqn:E1; cbn [andb]; [|lia].
  destruct (k <=? n)%Z eqn:E2; [|lia].
  destruct (k =? 0)%Z eqn:E3.
  { split; [lia|]. split; [simpl; lia|]. split; [constructor|simpl; tauto]. }
  destruct (n <=? 3 * k)%Z eqn:E4.
  { split; [lia|auto]. }
  pose proof (@dedup_sound n (Z.to_nat k) (block r)) as H.
  assert (Hwf : wf n (Z.to_nat k) (block r 0) (Z.to_nat k) 1).
  { split; [lia|]. split; [lia|]. split; [lia|]. apply Hrg. }
  specialize (H ltac:(intros b Hb; specialize (Hbl b Hb); lia) Hrg fuel (Z.to_nat k) 0 [] (block r 0) (Z.to_nat k) 1 Hwf ltac:(lia)).
  destruct (dedup_loop fuel _ _ _ _ _ _ _ _) as [l|e]; cbn [bind].
  - destruct H as (Hl & Hnd & Hr).
    { split; [constructor|]. simpl; tauto. }
    split; [lia|]. split; [rewrite firstn_length; lia|]. split; auto.
    intros x Hx. apply Hr. eapply in_firstn; eauto.
  - rewrite H; auto. split; [constructor|]. simpl; tauto.
Qed.

Lemma sample_n_k_total r n k : rng_ok n k r -> rng_fair n r -> (0 <= k <= n)%Z ->
  exists fuel l, sample_n_k fuel r n k = Ok l.
Proof.
  intros (Hnr & Hb0 & Hbl & Hrg) Hfair Hk. unfold sample_n_k.
  destruct (0 <=? k)%Z eqn:E1; cbn [andb]; [|lia].
  destruct (k <=? n)%Z eqn:E2; [|lia].
  destruct (k =? 0)%Z eqn:E3. { exists 0. eauto. }
  destruct (n <=? 3 * k)%Z eqn:E4. { exists 0. eauto. }
  assert (Hwf : wf n (Z.to_nat k) (block r 0) (Z.to_nat k) 1).
  { split; [lia|]. split; [lia|]. split; [lia|]. apply Hrg. }
  destruct (@dedup_total n (Z.to_nat k) (block r)
    ltac:(intros b Hb; specialize (Hbl b Hb); lia) Hrg Hfair ltac:(lia) (Z.to_nat k) 0 [] (block r 0) (Z.to_nat k) 1 Hwf ltac:(lia)) as (F & HF).
  { split; [constructor|]. simpl; tauto. }
  exists F. destruct (dedup_loop F _ _ _ _ _ _ _ _); [|discriminate]. cbn [bind]. eauto.
Qed.
