From Coq Require Import QArith.
From Verif Require Import Base.PyBase Base.ListFacts Model.Num Model.Random Model.TreeQueue Model.PrioritizedBuffer
     Model.RandomAccessQueue Model.ReplayBuffer Model.PrioritizedReplayBuffer Spec.PrioritizedBufferSpec Spec.PrioritizedReplaySpec
     Proofs.ReplayBufferProofs Proofs.PrioritizedBufferProofs.
Set Implicit Arguments.
Local Open Scope nat_scope.

Section P.
  Context {T W : Type}.
  Variable pri_of : W -> list Q -> list Q.
  Variable weights_of : W -> nat -> list Q -> Q -> res (list Q * W).
  Notation buffer := (prb QNum T W).

  Lemma Forall2_len {A B} (R : A -> B -> Prop) l l' : Forall2 R l l' -> length l = length l'.
  Proof. induction 1; cbn; auto. Qed.

  Definition good (cap : option nat) (b : buffer) (l : list (list T * Q)) (m : Q) : Prop :=
    settled cap (nr_mem (pr_core b)) l m /\ pb_wait (nr_mem (pr_core b)) = true.

  Lemma push_good cap (mem mem' : pb QNum (list T)) l m w : settled cap mem l m -> pb_wait mem = true -> cap <> Some 0 ->
    prb_push mem w = Ok mem' -> exists l', settled cap mem' l' m /\ pb_wait mem' = true.
  Proof.
    intros Hs Hw Hc H. destruct (@exec_step _ cap mem l m (UAppend w None) Hs (conj I Hc) Hw) as (o & b' & l' & m' & He & Hst & Hs' & Hw').
    cbn [use_exec] in He. unfold prb_push in H. change (nV QNum) with Q in *. rewrite H in He. cbn [bind] in He. injection He as _ <-. inversion Hst; subst. eauto.
  Qed.
  Lemma flush_good cap ws : forall (mem mem' : pb QNum (list T)) l m, settled cap mem l m -> pb_wait mem = true -> cap <> Some 0 ->
    flush (@prb_push QNum T) mem ws = Ok mem' -> exists l', settled cap mem' l' m /\ pb_wait mem' = true.
  Proof.
    induction ws as [|w ws IH]; intros mem mem' l m Hs Hw Hc H; cbn [flush] in H; [injection H as <-; eauto|].
    destruct (prb_push mem (w :: ws)) as [m1|] eqn:E; [|discriminate]. cbn [bind] in H.
    destruct (@push_good cap mem m1 l m (w :: ws) Hs Hw Hc E) as (l1 & Hs1 & Hw1). eauto.
  Qed.

  Lemma op_good cap (b b' : buffer) l m o : good cap b l m -> cap <> Some 0 ->
    prb_step (N := QNum) pri_of weights_of b (BOp QNum o) = Ok b' -> exists l', good cap b' l' m.
  Proof.
    intros [Hs Hw] Hc H. destruct b as [[n mem last] w]. unfold good in *. cbn [pr_core nr_mem prb_step] in *.
    destruct o as [e x tm|e]; cbn [nrb_step] in H.
    - unfold nrb_append in H. cbn [nr_n nr_mem nr_last] in H. destruct tm.
      + destruct (flush _ _ _) as [m1|] eqn:E; [|discriminate]. cbn [bind] in H. injection H as <-. cbn. eapply flush_good; eauto.
      + destruct (_ =? n) in H.
        * destruct (prb_push _ _) as [m1|] eqn:E; [|discriminate]. cbn [bind] in H. injection H as <-. cbn. eapply push_good; eauto.
        * cbn [bind] in H. injection H as <-. cbn. eauto.
    - unfold nrb_stop in H. cbn [nr_n nr_mem nr_last] in H.
      assert (Hm : exists m1, (if (0 <? length (last e)) && (length (last e) <? n) then prb_push mem (last e) else Ok mem) = Ok m1 /\
                exists l1, settled cap m1 l1 m /\ pb_wait m1 = true).
      { destruct (_ && _) in *; [|eauto]. destruct (prb_push mem (last e)) as [m1|] eqn:E; [|discriminate].
        exists m1. split; [auto|]. eapply push_good; eauto. }
      destruct Hm as (m1 & E1 & l1 & Hs1 & Hw1). rewrite E1 in H. cbn [bind] in H.
      destruct (flush _ m1 _) as [m2|] eqn:E; [|discriminate]. cbn [bind] in H. injection H as <-. cbn. eapply flush_good; eauto.
  Qed.

  (** One round. *)
  Lemma round_ok cap (b : buffer) l m n d es ws w1 :
    good cap b l m -> l <> [] -> draws_ok (length l) n 0 d ->
    (forall xs probs mp mem', pb_sample (nr_mem (pr_core b)) n 0%Q d = Ok (xs, probs, mp, mem') ->
       weights_of (pr_w b) (length l) probs mp = Ok (ws, w1)) ->
    errors_ok pri_of w1 n es ->
    exists xs probs mp b1 b2 l' m', pb_sample (nr_mem (pr_core b)) n 0%Q d = Ok (xs, probs, mp, nr_mem (pr_core b1)) /\
      prb_sample (N := QNum) weights_of b n d = Ok (xs, ws, b1) /\ pr_w b1 = w1 /\ prb_update (N := QNum) pri_of b1 es = Ok b2 /\
      weights_of (pr_w b) (length l) probs mp = Ok (ws, w1) /\
      use_step cap (l, m) (UUpdate n 0 d (pri_of w1 es)) (OSampled xs probs mp) (l', m') /\ good cap b2 l' m' /\ pr_w b2 = w1.
  Proof.
    intros [Hs Hw] Hne Hd Hwt [He1 He2].
    destruct (@exec_step _ cap (nr_mem (pr_core b)) l m (UUpdate n 0 d (pri_of w1 es)) Hs (conj Hne (conj Hd (conj He1 He2))) Hw)
      as (o & mem2 & l' & m' & He & Hst & Hs' & Hw').
    cbn [use_exec] in He. destruct (pb_sample (nr_mem (pr_core b)) n 0%Q d) as [[[[xs probs] mp] mem1]|] eqn:E; [|discriminate].
    cbn [bind] in He. destruct (pb_set_last mem1 (pri_of w1 es)) as [mem2'|] eqn:E2; [|discriminate]. cbn [bind] in He.
    injection He as <- <-. specialize (Hwt _ _ _ _ eq_refl).
    assert (Hlen : length (pb_data (nr_mem (pr_core b))) = length l).
    { destruct Hs as ((Hx & _) & _). rewrite Hx. apply map_length. }
    assert (Hdata : pb_data mem1 = pb_data (nr_mem (pr_core b))).
    { clear - E. unfold pb_sample in E. destruct (_ || _); [|discriminate].
      destruct (pb_sample_indices _ n _ d) as [[[[ixs p] q] s]|]; [|discriminate]. cbn [bind] in E.
      destruct (gets _ ixs); [|discriminate]. cbn [bind] in E. injection E as _ _ _ <-. auto. }
    exists xs, probs, mp, (mk_prb (mk_nrb (nr_n (pr_core b)) mem1 (nr_last (pr_core b))) w1),
      (mk_prb (mk_nrb (nr_n (pr_core b)) mem2' (nr_last (pr_core b))) w1), l', m'.
    unfold prb_sample, prb_update. cbn [pr_core nr_mem pr_w nr_n nr_last].
    destruct Hd as (_ & _ & Hn & _). rewrite Hlen. destruct (Nat.leb_spec n (length l)); [|lia].
    change (nzero QNum) with 0%Q. rewrite E. cbn [bind]. rewrite Hdata, Hlen. change (nV QNum) with Q in *. rewrite Hwt. cbn [bind].
    cbn [pr_core nr_mem pr_w nr_n nr_last]. rewrite E2. cbn [bind]. unfold good. cbn [pr_core nr_mem pr_w]. repeat (split; auto).
  Qed.

  Lemma reached_good cap n w (b0 b : buffer) : cap <> Some 0 -> prb_init QNum cap n w = Ok b0 -> reached pri_of weights_of b0 b ->
    exists l m, good cap b l m.
  Proof.
    intros Hc H0 Hr. induction Hr as [|b b' o Hr IH Ho|b b1 b2 k d es xs ws Hr IH Hne Hd Hs He Hu].
    - unfold prb_init, nrb_init in H0. destruct (0 <? n) eqn:En; [|discriminate]. cbn [bind] in H0. injection H0 as <-.
      exists [], 1%Q. split; cbn [pr_core nr_mem]; auto. apply settled_init. reflexivity.
    - destruct IH as (l & m & Hg). destruct (@op_good cap b b' l m o Hg Hc Ho) as (l' & Hg'). eauto.
    - destruct IH as (l & m & Hg).
      assert (Hlen : length (held b) = length l). { destruct Hg as [((Hx & _) & _) _]. unfold held. rewrite Hx. apply map_length. }
      assert (Hl : l <> []). { intros ->. destruct (held b); [auto|discriminate]. }
      rewrite Hlen in Hd.
      assert (Hlen' : length (pb_data (nr_mem (pr_core b))) = length l) by exact Hlen.
      edestruct round_ok with (ws := ws) (w1 := pr_w b1) as (xs' & probs & mp & b1' & b2' & l' & m' & _ & Hs' & _ & Hu' & _ & _ & Hg' & _); eauto.
      { intros ys probs mp mem' E. pose proof Hs as Hs2. unfold prb_sample in Hs2. destruct (_ <=? _) in Hs2; [|discriminate].
        change (nzero QNum) with 0%Q in Hs2. rewrite E in Hs2. cbn [bind] in Hs2.
        assert (Hdata : pb_data mem' = pb_data (nr_mem (pr_core b))).
        { clear - E. unfold pb_sample in E. destruct (_ || _); [|discriminate].
          destruct (pb_sample_indices _ _ _ d) as [[[[ixs p] q] s]|]; [|discriminate]. cbn [bind] in E.
          destruct (gets _ ixs); [|discriminate]. cbn [bind] in E. injection E as _ _ _ <-. auto. }
        rewrite Hdata, Hlen' in Hs2. change (nV QNum) with Q in *.
        destruct (weights_of (pr_w b) (length l) probs mp) as [[ws2 w2]|]; [|discriminate]. cbn [bind] in Hs2.
        injection Hs2 as _ <- <-. reflexivity. }
      rewrite Hs in Hs'. injection Hs' as _ <-. rewrite Hu in Hu'. injection Hu' as <-. eauto.
  Qed.

  Lemma prb_rounds cap n w (b0 b : buffer) : cap <> Some 0 -> prb_init QNum cap n w = Ok b0 -> reached pri_of weights_of b0 b ->
    exists l m, stores (nr_mem (pr_core b)) l m /\
      forall k d, l <> [] -> draws_ok (length l) k 0 d ->
        (forall probs mp, length probs = k -> exists ws w1, weights_of (pr_w b) (length l) probs mp = Ok (ws, w1)) ->
        exists xs probs mp ws b1,
          prb_sample (N := QNum) weights_of b k d = Ok (xs, ws, b1) /\
          weights_of (pr_w b) (length l) probs mp = Ok (ws, pr_w b1) /\
          forall es, errors_ok pri_of (pr_w b1) k es ->
          exists b2 l' m',
            prb_update (N := QNum) pri_of b1 es = Ok b2 /\
            use_step cap (l, m) (UUpdate k 0 d (pri_of (pr_w b1) es)) (OSampled xs probs mp) (l', m') /\
            stores (nr_mem (pr_core b2)) l' m' /\ pr_w b2 = pr_w b1.
  Proof.
    intros Hc H0 Hr. destruct (@reached_good cap n w b0 b Hc H0 Hr) as (l & m & Hg). exists l, m.
    split; [eapply settled_stores; apply Hg|]. intros k d Hl Hd Hw.
    assert (Hone : length (repeat 1%Q k) = k /\ forall p, In p (repeat 1%Q k) -> (0 < p)%Q).
    { split; [apply repeat_length|]. intros p Hp. apply repeat_spec in Hp. subst. reflexivity. }
    destruct (@exec_step _ cap (nr_mem (pr_core b)) l m (UUpdate k 0 d (repeat 1%Q k)) (proj1 Hg) (conj Hl (conj Hd Hone)) (proj2 Hg))
      as (o & mem2 & l1 & m1 & He & Hst & _).
    cbn [use_exec] in He. destruct (pb_sample (nr_mem (pr_core b)) k 0%Q d) as [[[[xs probs] mp] mem1]|] eqn:E; [|discriminate].
    cbn [bind] in He. destruct (pb_set_last mem1 _) as [mem2'|] eqn:E2; [|discriminate]. cbn [bind] in He. injection He as <- _.
    assert (Hlp : length probs = k).
    { inversion Hst; subst. symmetry. eapply Forall2_len. eassumption. }
    destruct (Hw probs mp Hlp) as (ws & w1 & Hw1).
    assert (Hw2 : forall xs' probs' mp' mem', pb_sample (nr_mem (pr_core b)) k 0%Q d = Ok (xs', probs', mp', mem') ->
           weights_of (pr_w b) (length l) probs' mp' = Ok (ws, w1)).
    { intros xs' probs' mp' mem' E'. rewrite E in E'. injection E' as <- <- <- <-. exact Hw1. }
    assert (Hlen : length (pb_data (nr_mem (pr_core b))) = length l).
    { destruct Hg as [((Hx & _) & _) _]. rewrite Hx. apply map_length. }
    assert (Hdata : pb_data mem1 = pb_data (nr_mem (pr_core b))).
    { clear - E. unfold pb_sample in E. destruct (_ || _); [|discriminate].
      destruct (pb_sample_indices _ _ _ d) as [[[[ixs p] q] s]|]; [|discriminate]. cbn [bind] in E.
      destruct (gets _ ixs); [|discriminate]. cbn [bind] in E. injection E as _ _ _ <-. auto. }
    set (b1 := mk_prb (mk_nrb (nr_n (pr_core b)) mem1 (nr_last (pr_core b))) w1).
    assert (Hb1 : prb_sample (N := QNum) weights_of b k d = Ok (xs, ws, b1)).
    { unfold prb_sample. destruct Hd as (_ & _ & Hn & _). rewrite Hlen. destruct (Nat.leb_spec k (length l)); [|lia].
      change (nzero QNum) with 0%Q. rewrite E. cbn [bind]. rewrite Hdata, Hlen. change (nV QNum) with Q in *. rewrite Hw1. reflexivity. }
    exists xs, probs, mp, ws, b1. split; [auto|]. split; [auto|]. intros es Hes.
    destruct (@round_ok cap b l m k d es ws w1 Hg Hl Hd Hw2 Hes) as (xs' & probs' & mp' & b1' & b2 & l' & m' & Hq & H1 & H2 & H3 & H4 & H5 & H6 & H7).
    rewrite Hb1 in H1. injection H1 as <- <-.
    exists b2, l', m'. split; [auto|]. split; [|split; [eapply settled_stores; apply H6|auto]].
    rewrite E in Hq. injection Hq as <- <-. exact H5.
  Qed.

  Lemma reached_ops os : forall b0 b b' : buffer, reached pri_of weights_of b0 b ->
    prb_run (N := QNum) pri_of weights_of b (map (BOp QNum) os) = Ok b' -> reached pri_of weights_of b0 b'.
  Proof.
    induction os as [|o os IH]; intros b0 b b' Hr H; cbn [map prb_run] in H; [congruence|].
    destruct (prb_step _ _ b _) as [b1|] eqn:E; [|discriminate]. cbn [bind] in H. eapply IH; [|eauto]. eapply re_op; eauto.
  Qed.
End P.
