(** Proofs about the passes over a dataset. *)
From Coq Require Import List Arith Lia Permutation.
From Verif Require Import Base.PyBase Model.DatasetPasses.
Import ListNotations.

Section Facts.
  Variable shuffle : nat -> list nat.
  Variable n b : nat.
  Hypothesis PERM : forall k, Permutation (shuffle k) (seq 0 n).
  Hypothesis B : 0 < b.
  Hypothesis NP : 0 < n.

  Lemma shuffle_len : forall k, length (shuffle k) = n.
  Proof. intros k. rewrite (Permutation_length (PERM k)). apply seq_length. Qed.
  Lemma firstn_skip : forall (l : list nat) p c, firstn p l ++ firstn c (skipn p l) = firstn (p + c) l.
  Proof.
    intros l p. revert l. induction p as [|p IH]; intros l c; [reflexivity|]. destruct l as [|x l]; [cbn; rewrite firstn_nil; reflexivity|].
    cbn. rewrite IH. reflexivity.
  Qed.
  Definition whole (e : nat) := concat (map shuffle (seq 0 e)).
  Lemma whole_S : forall e, whole (S e) = whole e ++ shuffle e.
  Proof. intros e. unfold whole. rewrite seq_S, map_app, concat_app. cbn. rewrite app_nil_r. reflexivity. Qed.
  Lemma next_spec : forall it batch it', iter_next shuffle n b it = (batch, it') ->
    (whole (it_epoch it) ++ firstn (it_pos it) (shuffle (it_epoch it))) ++ batch = whole (it_epoch it') ++ firstn (it_pos it') (shuffle (it_epoch it')) /\
    ((it_epoch it' = S (it_epoch it) /\ it_pos it' = it_pos it + b - n /\ n <= it_pos it + b) \/ (it_epoch it' = it_epoch it /\ it_pos it' = it_pos it + b /\ it_pos it' < n)).
  Proof.
    intros it batch it' H. unfold iter_next in H. destruct (Nat.leb_spec n (it_pos it + b)) as [L|L]; injection H as <- <-; cbn [it_pos it_epoch].
    - split; [|left; lia]. rewrite whole_S, <- !app_assoc. f_equal. rewrite app_assoc. f_equal. rewrite firstn_skip. apply firstn_all2. rewrite shuffle_len. exact L.
    - split; [|right; lia]. rewrite <- !app_assoc. f_equal. apply firstn_skip.
  Qed.
  Lemma next_len : forall it batch it', iter_next shuffle n b it = (batch, it') -> (b <= n -> it_pos it < n) -> length batch <= b /\ 0 < length batch /\ (b <= n -> length batch = b).
  Proof.
    intros it batch it' H P. unfold iter_next in H. destruct (Nat.leb_spec n (it_pos it + b)) as [L|L]; injection H as <- <-;
      rewrite ?app_length, !firstn_length, skipn_length, !shuffle_len; lia.
  Qed.
  Lemma passes_spec : forall epochs fuel it, it_epoch it <= epochs -> (b <= n -> it_pos it < n) -> (epochs - it_epoch it) * n <= fuel + Nat.min (it_pos it) (n - 1) ->
    exists bs extra, passes shuffle fuel n b epochs it = Some bs /\
      (whole (it_epoch it) ++ firstn (it_pos it) (shuffle (it_epoch it))) ++ concat bs = whole epochs ++ firstn extra (shuffle epochs) /\
      it_pos it + length bs * b = (epochs - it_epoch it) * n + extra /\
      (b <= n -> it_epoch it < epochs -> extra < b) /\ (n <= b -> length bs = epochs - it_epoch it) /\
      Forall (fun m => 0 < length m <= b /\ (b <= n -> length m = b)) bs.
  Proof.
    intros epochs. induction fuel as [|fuel IH]; intros it E P F; (destruct (Nat.eq_dec (it_epoch it) epochs) as [Q|Q];
      [exists [], (it_pos it); cbn [passes concat length]; rewrite Q, Nat.ltb_irrefl, app_nil_r; repeat split; try lia; constructor|]).
    - exfalso. assert (1 * n <= (epochs - it_epoch it) * n) by (apply Nat.mul_le_mono_r; lia). lia.
    - cbn [passes]. destruct (Nat.ltb_spec (it_epoch it) epochs) as [L|L]; [|lia]. destruct (iter_next shuffle n b it) as [batch it'] eqn:NX.
      destruct (next_spec _ _ _ NX) as (CC & ST). destruct (next_len _ _ _ NX P) as (L1 & L2 & L3).
      destruct (IH it') as (bs & extra & R & C & LEN & EX & CNT & FA).
      + lia.
      + intros W. specialize (P W). lia.
      + destruct ST as [(S1 & S2 & S3)|(S1 & S2 & S3)]; rewrite S1.
        * replace (epochs - it_epoch it) with (S (epochs - S (it_epoch it))) in F by lia. cbn [Nat.mul] in F. lia.
        * lia.
      + rewrite R. exists (batch :: bs), extra. cbn [option_map concat length]. split; [reflexivity|]. split; [rewrite app_assoc, CC; exact C|].
        destruct ST as [(S1 & S2 & S3)|(S1 & S2 & S3)]; rewrite S1 in *; rewrite S2 in *.
        * replace (epochs - it_epoch it) with (S (epochs - S (it_epoch it))) by lia. split; [cbn [Nat.mul]; lia|]. split; [|split].
          -- intros W _. destruct (Nat.eq_dec (S (it_epoch it)) epochs) as [Z|Z]; [|apply EX; lia]. specialize (P W).
             subst epochs. rewrite Nat.sub_diag in LEN. cbn [Nat.mul] in LEN.
             destruct bs as [|m bs]; [cbn in LEN; lia|]. exfalso. destruct fuel; cbn [passes] in R; rewrite S1, Nat.ltb_irrefl in R; discriminate.
          -- intros W. rewrite CNT by exact W. lia.
          -- constructor; [|exact FA]. split; [lia|]. exact L3.
        * split; [cbn [Nat.mul]; lia|]. split; [|split].
          -- intros W _. apply EX; lia.
          -- intros W. lia.
          -- constructor; [|exact FA]. split; [lia|]. exact L3.
  Qed.
  Lemma count_perm : forall k i, i < n -> count_occ Nat.eq_dec (shuffle k) i = 1.
  Proof.
    intros k i L. rewrite (proj1 (Permutation_count_occ Nat.eq_dec (shuffle k) (seq 0 n)) (PERM k)).
    apply NoDup_count_occ'; [apply seq_NoDup|]. apply in_seq. lia.
  Qed.
  Lemma count_whole : forall e i, i < n -> count_occ Nat.eq_dec (whole e) i = e.
  Proof. induction e as [|e IH]; intros i L; [reflexivity|]. rewrite whole_S, count_occ_app, IH, count_perm by exact L. lia. Qed.
  Lemma count_firstn : forall (l : list nat) m i, count_occ Nat.eq_dec (firstn m l) i <= count_occ Nat.eq_dec l i.
  Proof. intros l m i. rewrite <- (firstn_skipn m l) at 2. rewrite count_occ_app. lia. Qed.

  Theorem passes_ok : forall epochs, exists bs extra, passes shuffle (epochs * n) n b epochs iter0 = Some bs /\
      concat bs = whole epochs ++ firstn extra (shuffle epochs) /\ length bs * b = epochs * n + extra /\
      (b <= n -> 0 < epochs -> extra < b) /\ (n <= b -> length bs = epochs) /\
      Forall (fun m => 0 < length m <= b /\ (b <= n -> length m = b)) bs.
  Proof.
    intros epochs. destruct (passes_spec epochs (epochs * n) iter0) as (bs & extra & H); cbn; try lia. exists bs, extra. cbn in H. rewrite Nat.sub_0_r in H. exact H.
  Qed.
  Theorem passes_count : forall epochs bs, passes shuffle (epochs * n) n b epochs iter0 = Some bs -> forall i, i < n ->
    epochs <= count_occ Nat.eq_dec (concat bs) i <= S epochs.
  Proof.
    intros epochs bs H i L. destruct (passes_ok epochs) as (bs' & extra & H' & C & _). rewrite H in H'. injection H' as <-.
    rewrite C, count_occ_app, count_whole by exact L. pose proof (count_firstn (shuffle epochs) extra i). rewrite count_perm in H0 by exact L. lia.
  Qed.
End Facts.
  Lemma passes_zero : forall shuffle n epochs fuel it, it_epoch it < epochs -> it_pos it < n -> passes shuffle fuel n 0 epochs it = None.
  Proof.
    intros shuffle n epochs. induction fuel as [|fuel IH]; intros it E P; cbn [passes]; (destruct (Nat.ltb_spec (it_epoch it) epochs); [|lia]); [reflexivity|].
    unfold iter_next. destruct (Nat.leb_spec n (it_pos it + 0)); [lia|]. rewrite IH by (cbn; lia). reflexivity.
  Qed.


Lemma map_nth_seq : forall X (ds : list X) d, map (fun i => nth i ds d) (seq 0 (length ds)) = ds.
Proof.
  intros X ds d. apply (nth_ext _ _ d d); [rewrite map_length, seq_length; reflexivity|]. intros i L. rewrite map_length, seq_length in L.
  rewrite (nth_indep _ d (nth 0 ds d)) by (rewrite map_length, seq_length; exact L).
  rewrite (map_nth (fun i => nth i ds d)), seq_nth by exact L. reflexivity.
Qed.
Theorem update_passes : forall X (shuffle : nat -> list nat) (ds : list X) b epochs, 0 < b -> ds <> [] ->
  (forall k, Permutation (shuffle k) (seq 0 (length ds))) ->
  exists bs rest rest', update_batches shuffle (epochs * length ds) b epochs ds = Ok bs /\
    Permutation (concat bs) (concat (repeat ds epochs) ++ rest) /\ Permutation ds (rest ++ rest') /\
    Forall (fun m => 0 < length m <= b /\ (b <= length ds -> length m = b)) bs /\
    (b <= length ds -> epochs * length ds <= length bs * b < epochs * length ds + b) /\ (length ds <= b -> length bs = epochs).
Proof.
  intros X shuffle ds b epochs B NE PERM. destruct ds as [|d ds0]; [congruence|]. set (ds := d :: ds0) in *.
  assert (NP : 0 < length ds) by (unfold ds; cbn; lia).
  destruct (passes_ok shuffle (length ds) b PERM B NP epochs) as (bs & extra & H & C & LEN & EX & CNT & FA).
  set (pick := fun i => nth i ds d). exists (map (map pick) bs), (map pick (firstn extra (shuffle epochs))), (map pick (skipn extra (shuffle epochs))).
  assert (PK : forall k, Permutation (map pick (shuffle k)) ds).
  { intros k. eapply Permutation_trans; [apply Permutation_map, PERM|]. unfold pick. rewrite map_nth_seq. apply Permutation_refl. }
  split; [|split; [|split; [|split; [|split]]]].
  - unfold update_batches. change (d :: ds0) with ds. cbv iota beta. unfold ds at 1. cbv iota beta. fold ds. rewrite H. reflexivity.
  - rewrite <- concat_map, C, map_app. apply Permutation_app; [|apply Permutation_refl]. unfold whole. clear - PK. induction epochs as [|e IH]; [apply Permutation_refl|].
    rewrite seq_S, map_app, concat_app, map_app. cbn [map concat Nat.add]. rewrite app_nil_r.
    replace (concat (repeat ds (S e))) with (concat (repeat ds e) ++ ds).
    + apply Permutation_app; [exact IH|apply PK].
    + clear. replace (S e) with (e + 1) by lia. rewrite repeat_app, concat_app. cbn [repeat concat]. rewrite app_nil_r. reflexivity.
  - rewrite <- map_app, firstn_skipn. apply Permutation_sym, PK.
  - rewrite Forall_map. eapply Forall_impl; [|exact FA]. cbn beta. intros m Hm. rewrite map_length. exact Hm.
  - rewrite map_length. intros W. destruct epochs as [|e].
    + cbn in H. injection H as <-. cbn. lia.
    + specialize (EX W ltac:(lia)). lia.
  - rewrite map_length. exact CNT.
Qed.
Theorem zero_minibatch : forall X (shuffle : nat -> list nat) (ds : list X) epochs fuel, ds <> [] -> 0 < epochs ->
  update_batches shuffle fuel 0 epochs ds = Raise OutOfFuel.
Proof.
  intros X shuffle [|d ds] epochs fuel NE E; [congruence|]. unfold update_batches. rewrite passes_zero; [reflexivity|exact E|cbn; lia].
Qed.

Lemma empty_dataset : forall X (shuffle : nat -> list nat) fuel b epochs, update_batches shuffle fuel b epochs (@nil X) = Raise IndexError.
Proof. reflexivity. Qed.
