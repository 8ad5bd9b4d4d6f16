(** Refinement of the two-stack queue to the bounded list. *)
From Verif Require Import Base.ListFacts Model.RandomAccessQueue Spec.BoundedList.
Set Implicit Arguments.

Section P.
  Context {A : Type}.
  Implicit Types (q : raq A) (l : list A).

  Lemma py_index_lt n i k : py_index n i = Some k -> k < n.
  Proof. unfold py_index. destruct (0 <=? i)%Z eqn:E1;
         [destruct (i <? Z.of_nat n)%Z eqn:E2|destruct (- Z.of_nat n <=? i)%Z eqn:E2];
         intros H; inversion H; lia. Qed.

  Lemma py_get_ok l k : k < length l -> forall i, py_index (length l) i = Some k ->
    exists x, nth_error l k = Some x /\ py_get l i = Ok x.
  Proof.
    intros Hk i Hi. destruct (nth_error l k) eqn:E.
    - exists a. split; auto. unfold py_get. now rewrite Hi, E.
    - apply nth_error_None in E. lia.
  Qed.

  Lemma py_index_pos n i : (0 <= i < Z.of_nat n)%Z -> py_index n i = Some (Z.to_nat i).
  Proof. unfold py_index. intros H. destruct (0 <=? i)%Z eqn:E1; [|lia].
         destruct (i <? Z.of_nat n)%Z eqn:E2; [auto|lia]. Qed.
  Lemma py_index_neg n i : (- Z.of_nat n <= i < 0)%Z -> py_index n i = Some (Z.to_nat (Z.of_nat n + i)).
  Proof. unfold py_index. intros H. destruct (0 <=? i)%Z eqn:E1; [lia|].
         destruct (- Z.of_nat n <=? i)%Z eqn:E2; [auto|lia]. Qed.
  Lemma py_index_out n i : (i < - Z.of_nat n \/ Z.of_nat n <= i)%Z -> py_index n i = None.
  Proof. unfold py_index. intros H. destruct (0 <=? i)%Z eqn:E1.
         - destruct (i <? Z.of_nat n)%Z eqn:E2; [lia|auto].
         - destruct (- Z.of_nat n <=? i)%Z eqn:E2; [lia|auto]. Qed.

  Lemma raq_len_iter q : raq_len q = length (raq_iter q).
  Proof. unfold raq_len, raq_iter. now rewrite app_length, rev_length. Qed.

  (** [__getitem__] looks up the abstract position. *)
  Lemma raq_get_spec q i :
    raq_get q i = match py_index (length (raq_iter q)) i with
                  | Some k => match nth_error (raq_iter q) k with
                              | Some x => Ok x | None => Raise IndexError end
                  | None => Raise IndexError
                  end.
  Proof.
    rewrite <- raq_len_iter. unfold raq_get, raq_len, raq_iter, py_get, py_inv.
    set (nf := length (front q)). set (nb := length (back q)).
    destruct (0 <=? i)%Z eqn:E1.
    - destruct (i <? Z.of_nat nf)%Z eqn:E2.
      + rewrite py_index_neg by (fold nf; lia). rewrite py_index_pos by lia.
        rewrite nth_error_app1 by (rewrite rev_length; fold nf; lia).
        rewrite nth_error_rev by (fold nf; lia).
        fold nf. replace (Z.to_nat (Z.of_nat nf + (- i - 1))) with (nf - 1 - Z.to_nat i) by lia. reflexivity.
      + destruct (i - Z.of_nat nf <? Z.of_nat nb)%Z eqn:E3.
        * rewrite !py_index_pos by (fold nb; lia).
          rewrite nth_error_app2 by (rewrite rev_length; fold nf; lia).
          rewrite rev_length. fold nf.
          replace (Z.to_nat (i - Z.of_nat nf)) with (Z.to_nat i - nf) by lia. reflexivity.
        * rewrite py_index_out by lia. reflexivity.
    - destruct (- Z.of_nat nb <=? i)%Z eqn:E2.
      + rewrite !py_index_neg by (fold nb; lia).
        rewrite nth_error_app2 by (rewrite rev_length; fold nf nb; lia).
        rewrite rev_length. fold nf nb.
        replace (Z.to_nat (Z.of_nat (nf + nb) + i) - nf) with (Z.to_nat (Z.of_nat nb + i)) by lia. reflexivity.
      + destruct (- Z.of_nat nf <=? i + Z.of_nat nb)%Z eqn:E3.
        * rewrite py_index_pos by (fold nf; lia). rewrite py_index_neg by lia.
          rewrite nth_error_app1 by (rewrite rev_length; fold nf; lia).
          rewrite nth_error_rev by (fold nf; lia). fold nf.
          replace (nf - 1 - Z.to_nat (Z.of_nat (nf + nb) + i)) with (Z.to_nat (- (i + Z.of_nat nb) - 1)) by lia.
          reflexivity.
        * rewrite py_index_out by lia. reflexivity.
  Qed.

  Lemma upd_firstn_skipn l k x : k < length l -> upd l k x = firstn k l ++ x :: skipn (S k) l.
  Proof. revert k; induction l as [|h t IH]; intros [|k]; simpl; intros H; try lia; auto.
         f_equal. apply IH. lia. Qed.

  Lemma raq_set_spec q i x :
    match py_index (length (raq_iter q)) i with
    | Some k => exists q', raq_set q i x = Ok q' /\ maxlen q' = maxlen q /\
                           raq_iter q' = upd (raq_iter q) k x
    | None => raq_set q i x = Raise IndexError
    end.
  Proof.
    rewrite <- raq_len_iter. unfold raq_set, raq_len, raq_iter, py_set, py_inv.
    set (nf := length (front q)). set (nb := length (back q)).
    destruct (0 <=? i)%Z eqn:E1.
    - destruct (i <? Z.of_nat nf)%Z eqn:E2.
      + rewrite (@py_index_pos (nf + nb)) by lia. rewrite (@py_index_neg nf) by lia. cbn [bind].
        eexists; split; [reflexivity|]; split; [reflexivity|]. cbn [front back].
        rewrite upd_app_l by (rewrite rev_length; fold nf; lia). f_equal.
        rewrite upd_rev by (fold nf; lia). f_equal. f_equal. fold nf. lia.
      + destruct (i - Z.of_nat nf <? Z.of_nat nb)%Z eqn:E3.
        * rewrite !py_index_pos by lia. cbn [bind].
          eexists; split; [reflexivity|]; split; [reflexivity|]. cbn [front back].
          rewrite upd_app_r by (rewrite rev_length; fold nf; lia). f_equal.
          rewrite rev_length. f_equal. fold nf. lia.
        * rewrite py_index_out by lia. reflexivity.
    - destruct (- Z.of_nat nb <=? i)%Z eqn:E2.
      + rewrite !py_index_neg by lia. cbn [bind].
        eexists; split; [reflexivity|]; split; [reflexivity|]. cbn [front back].
        rewrite upd_app_r by (rewrite rev_length; fold nf nb; lia). f_equal.
        rewrite rev_length. f_equal. fold nf nb. lia.
      + destruct (- Z.of_nat nf <=? i + Z.of_nat nb)%Z eqn:E3.
        * rewrite (@py_index_neg (nf + nb)) by lia. rewrite py_index_pos by lia. cbn [bind].
          eexists; split; [reflexivity|]; split; [reflexivity|]. cbn [front back].
          rewrite upd_app_l by (rewrite rev_length; fold nf; lia). f_equal.
          rewrite upd_rev by (fold nf; lia). f_equal. f_equal. fold nf. lia.
        * rewrite py_index_out by lia. reflexivity.
  Qed.

  Lemma py_pop_snoc l x : py_pop (l ++ [x]) = Ok (x, l).
  Proof. unfold py_pop. rewrite rev_app_distr. simpl. now rewrite rev_involutive. Qed.

  Lemma raq_popleft_spec q :
    match raq_iter q with
    | [] => raq_popleft q = Raise IndexError
    | x :: t => exists q', raq_popleft q = Ok (x, q') /\ maxlen q' = maxlen q /\ raq_iter q' = t
    end.
  Proof.
    destruct q as [f b m]. unfold raq_iter, raq_popleft; cbn [front back maxlen].
    destruct f as [|f0 f1] using rev_ind.
    - destruct b as [|b0 b1]; cbn [rev app]; [reflexivity|].
      cbn [bind front back maxlen rev]. rewrite py_pop_snoc. cbn [bind].
      eexists; repeat split; cbn [front back]. now rewrite app_nil_r, rev_involutive.
    - clear IHf1. rewrite rev_app_distr. cbn [rev app].
      replace (match f1 ++ [f0] with [] => match b with [] => Raise IndexError | _ :: _ =>
         Ok (mk_raq (rev b) [] m) end | _ :: _ => Ok (mk_raq (f1 ++ [f0]) b m) end)
        with (Ok (mk_raq (f1 ++ [f0]) b m)) by (destruct f1; reflexivity).
      cbn [bind front back maxlen]. rewrite py_pop_snoc. cbn [bind].
      eexists; repeat split.
  Qed.

  Lemma apply_maxlen_loop_spec fuel m q :
    length (raq_iter q) - m <= fuel ->
    exists q', apply_maxlen_loop fuel m q = Ok q' /\ maxlen q' = maxlen q /\
               raq_iter q' = skipn (length (raq_iter q) - m) (raq_iter q).
  Proof.
    revert q; induction fuel as [|f IH]; intros q Hf; cbn [apply_maxlen_loop]; rewrite raq_len_iter;
      destruct (m <? length (raq_iter q)) eqn:E.
    - apply Nat.ltb_lt in E. lia.
    - apply Nat.ltb_ge in E. exists q. repeat split. replace (length (raq_iter q) - m) with 0 by lia. reflexivity.
    - apply Nat.ltb_lt in E. pose proof (raq_popleft_spec q) as Hp.
      revert Hp E Hf. destruct (raq_iter q) as [|x t] eqn:Eq; intros Hp E Hf; [simpl in E; lia|].
      destruct Hp as (q1 & -> & Hm & Hi). cbn [bind].
      destruct (IH q1) as (q2 & H2 & Hm2 & Hi2).
      { rewrite Hi. cbn [length] in Hf, E. lia. }
      exists q2. repeat split; auto; [congruence|].
      rewrite Hi2, Hi. cbn [length] in E |- *.
      replace (S (length t) - m) with (S (length t - m)) by lia. reflexivity.
    - apply Nat.ltb_ge in E. exists q. repeat split. replace (length (raq_iter q) - m) with 0 by lia. reflexivity.
  Qed.

  Lemma apply_maxlen_spec q :
    exists q', apply_maxlen q = Ok q' /\ maxlen q' = maxlen q /\ raq_iter q' = trim (maxlen q) (raq_iter q).
  Proof.
    unfold apply_maxlen, trim. destruct (maxlen q) as [m|] eqn:Em.
    - destruct (@apply_maxlen_loop_spec (raq_len q) m q) as (q' & H1 & H2 & H3).
      { rewrite raq_len_iter. lia. }
      exists q'. repeat split; auto. congruence.
    - exists q. auto.
  Qed.

  Lemma raq_init_spec m xs :
    exists q, raq_init m xs = Ok q /\ maxlen q = m /\ raq_iter q = trim m xs.
  Proof. destruct (apply_maxlen_spec (mk_raq [] xs m)) as (q & H1 & H2 & H3). exists q. auto. Qed.

  Lemma raq_append_spec q x :
    length (trim (maxlen q) (raq_iter q)) = length (raq_iter q) ->
    exists q', raq_append q x = Ok q' /\ maxlen q' = maxlen q /\
               raq_iter q' = trim (maxlen q) (raq_iter q ++ [x]).
  Proof.
    intros Hinv. unfold raq_append; cbn [maxlen].
    set (q1 := mk_raq (front q) (back q ++ [x]) (maxlen q)).
    assert (Hi1 : raq_iter q1 = raq_iter q ++ [x]) by (unfold raq_iter, q1; simpl; now rewrite app_assoc).
    destruct (maxlen q) as [m|] eqn:Em; cbn [trim] in *.
    - rewrite raq_len_iter, Hi1, app_length. simpl length.
      rewrite skipn_length in Hinv.
      destruct (m <? length (raq_iter q) + 1) eqn:E.
      + apply Nat.ltb_lt in E.
        pose proof (raq_popleft_spec q1) as Hp. rewrite Hi1 in Hp.
        revert Hp. destruct (raq_iter q ++ [x]) as [|y t] eqn:Eq; intros Hp.
        { apply (f_equal (@length A)) in Eq. rewrite app_length in Eq. simpl in Eq. lia. }
        destruct Hp as (q2 & -> & Hm & Hi). cbn [bind]. exists q2. repeat split; auto.
        rewrite Hi. replace (length (raq_iter q) + 1 - m) with 1 by lia. reflexivity.
      + apply Nat.ltb_ge in E. exists q1. repeat split; auto.
        replace (length (raq_iter q) + 1 - m) with 0 by lia. rewrite Hi1. reflexivity.
    - exists q1. auto.
  Qed.

  Lemma raq_extend_spec q xs :
    exists q', raq_extend q xs = Ok q' /\ maxlen q' = maxlen q /\
               raq_iter q' = trim (maxlen q) (raq_iter q ++ xs).
  Proof.
    destruct (apply_maxlen_spec (mk_raq (front q) (back q ++ xs) (maxlen q))) as (q' & H1 & H2 & H3).
    exists q'. repeat split; auto. rewrite H3. unfold raq_iter; simpl. now rewrite app_assoc.
  Qed.

  Definition bounded (m : option nat) (l : list A) : Prop :=
    match m with None => True | Some m => length l <= m end.

  Lemma trim_bounded m l : bounded m (trim m l).
  Proof. destruct m as [m|]; simpl; auto. rewrite skipn_length. lia. Qed.
  Lemma bounded_trim m l : bounded m l -> trim m l = l.
  Proof. destruct m as [m|]; simpl; auto. intros H. now replace (length l - m) with 0 by lia. Qed.

  Lemma raq_step_spec q o : bounded (maxlen q) (raq_iter q) ->
    exists q', raq_step q o = (fst (bl_step (maxlen q) (raq_iter q) o), q') /\
               maxlen q' = maxlen q /\
               raq_iter q' = snd (bl_step (maxlen q) (raq_iter q) o) /\
               bounded (maxlen q) (raq_iter q').
  Proof.
    intros Hb. destruct o as [| |i|i x|x|xs|]; cbn [raq_step bl_step fst snd].
    - exists q. rewrite raq_len_iter. auto.
    - exists q. auto.
    - exists q. rewrite raq_get_spec.
      destruct (py_index _ _) as [k|]; [destruct (nth_error _ _)|]; auto.
    - pose proof (raq_set_spec q i x) as Hs.
      destruct (py_index (length (raq_iter q)) i) as [k|] eqn:Ek.
      + destruct Hs as (q' & -> & Hm & Hi). exists q'. cbn [fst snd]. repeat split; auto.
        * rewrite Hi. apply upd_firstn_skipn. eapply py_index_lt; eauto.
        * rewrite Hi. destruct (maxlen q); simpl in *; auto. now rewrite upd_length.
      + rewrite Hs. exists q. auto.
    - destruct (@raq_append_spec q x) as (q' & -> & Hm & Hi).
      { now rewrite bounded_trim. }
      exists q'. repeat split; auto. rewrite Hi. apply trim_bounded.
    - destruct (@raq_extend_spec q xs) as (q' & -> & Hm & Hi).
      exists q'. repeat split; auto. rewrite Hi. apply trim_bounded.
    - pose proof (raq_popleft_spec q) as Hp. revert Hp Hb.
      destruct (raq_iter q) as [|x t] eqn:Eq; intros Hp Hb.
      + rewrite Hp. exists q. rewrite Eq. auto.
      + destruct Hp as (q' & -> & Hm & Hi). exists q'. cbn [fst snd]. repeat split; auto.
        rewrite Hi. destruct (maxlen q); simpl in *; auto. lia.
  Qed.

  Lemma raq_run_spec ops q : bounded (maxlen q) (raq_iter q) ->
    exists q', raq_run q ops = (fst (bl_run (maxlen q) (raq_iter q) ops), q') /\
               maxlen q' = maxlen q /\
               raq_iter q' = snd (bl_run (maxlen q) (raq_iter q) ops) /\
               bounded (maxlen q) (raq_iter q').
  Proof.
    revert q; induction ops as [|o ops IH]; intros q Hb; cbn [raq_run bl_run].
    - exists q. auto.
    - destruct (@raq_step_spec q o Hb) as (q1 & Hs & Hm & Hi & Hb1). rewrite Hs.
      destruct (bl_step (maxlen q) (raq_iter q) o) as [r l1]. cbn [fst snd] in *.
      destruct (IH q1) as (q2 & Hr & Hm2 & Hi2 & Hb2).
      { now rewrite Hm. }
      rewrite Hr, Hm, Hi in *. destruct (bl_run (maxlen q) l1 ops) as [rs l2]. cbn [fst snd] in *.
      exists q2. auto.
  Qed.

  Lemma raq_refines m xs ops :
    exists q0 q1, raq_init m xs = Ok q0 /\
      raq_run q0 ops = (fst (bl_run m (trim m xs) ops), q1) /\
      raq_iter q1 = snd (bl_run m (trim m xs) ops) /\
      match m with None => True | Some b => raq_len q1 <= b end.
  Proof.
    destruct (raq_init_spec m xs) as (q0 & H0 & Hm & Hi).
    destruct (@raq_run_spec ops q0) as (q1 & H1 & Hm1 & Hi1 & Hb).
    { rewrite Hm, Hi. apply trim_bounded. }
    rewrite Hm, Hi in *. exists q0, q1. repeat split; auto.
    destruct m; simpl in *; auto. now rewrite raq_len_iter.
  Qed.

  (** [sample] on the queue reads exactly the requested positions. *)
  Lemma raq_gets_spec q ixs :
    (forall i, In i ixs -> 0 <= i < Z.of_nat (length (raq_iter q)))%Z ->
    exists xs, raq_gets q ixs = Ok xs /\
      Forall2 (fun i x => nth_error (raq_iter q) (Z.to_nat i) = Some x) ixs xs.
  Proof.
    induction ixs as [|i t IH]; intros H; cbn [raq_gets].
    - exists []. auto.
    - rewrite raq_get_spec. rewrite py_index_pos by (apply H; simpl; auto).
      destruct (nth_error (raq_iter q) (Z.to_nat i)) as [x|] eqn:E.
      + destruct IH as (xs & -> & HF). { intros j Hj; apply H; simpl; auto. }
        cbn [bind]. exists (x :: xs). auto.
      + apply nth_error_None in E. specialize (H i (or_introl eq_refl)). lia.
  Qed.
End P.
