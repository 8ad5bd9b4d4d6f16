From Verif Require Import Base.PyBase Base.ListFacts Model.Num Model.Random Model.TreeQueue Model.PrioritizedBuffer
     Model.RandomAccessQueue Model.ReplayBuffer Model.PrioritizedReplayBuffer
     Spec.BoundedList Spec.WindowSpec Spec.PrioritizedBufferHistory
     Proofs.PrioritizedBufferHistoryProofs Proofs.ReplayBufferProofs.
Set Implicit Arguments.

Section P.
  Variable N : num.
  Context {T W : Type}.
  Variable pri_of : W -> list (nV N) -> list (nV N).
  Variable weights_of : W -> nat -> list (nV N) -> nV N -> res (list (nV N) * W).
  Notation push := (@prb_push N T).
  Notation run := (prb_run pri_of weights_of).

  Definition within (m : pb N (list T)) : Prop :=
    match pb_cap m with Some c => length (pb_data m) <= c | None => True end.

  Lemma trim_within cap {A} (l : list A) : match cap with Some c => length (trim cap l) <= c | None => True end.
  Proof. destruct cap; cbn [trim]; auto. rewrite skipn_length. lia. Qed.

  Lemma pushes_pb ws : forall m m' l, pushes push m ws = Ok m' -> pb_data m = trim (pb_cap m) l ->
    pb_cap m' = pb_cap m /\ pb_data m' = trim (pb_cap m) (l ++ ws).
  Proof.
    induction ws as [|w ws IH]; intros m m' l H Hl; cbn [pushes] in H.
    - injection H as <-. rewrite app_nil_r. auto.
    - unfold prb_push in H at 1. destruct (pb_append m w None) as [m1|] eqn:E; [|discriminate]. cbn [bind] in H.
      apply pb_append_data in E as (Hd & Hc & _); [|rewrite Hl; apply trim_within].
      destruct (IH m1 m' (l ++ [w]) H) as [H1 H2].
      + rewrite Hd, Hc, Hl. apply trim_trim_snoc.
      + rewrite Hc in *. rewrite <- app_assoc in H2. auto.
  Qed.

  Lemma prb_run_spec os : forall (b b' : prb N T W) curs l,
    0 < nr_n (pr_core b) -> (forall e, nr_last (pr_core b) e = last_k (nr_n (pr_core b)) (curs e)) ->
    pb_data (nr_mem (pr_core b)) = trim (pb_cap (nr_mem (pr_core b))) l ->
    run b os = Ok b' ->
    pb_cap (nr_mem (pr_core b')) = pb_cap (nr_mem (pr_core b)) /\
    pb_data (nr_mem (pr_core b')) =
      trim (pb_cap (nr_mem (pr_core b))) (l ++ map snd (log_of (nr_n (pr_core b)) curs (core_ops os))).
  Proof.
    induction os as [|o os IH]; intros b b' curs l Hn Hcur Hl H; cbn [prb_run] in H.
    - injection H as <-. cbn. rewrite app_nil_r. auto.
    - destruct (prb_step pri_of weights_of b o) as [b1|] eqn:E; [|discriminate]. cbn [bind] in H.
      destruct b as [[n m last] w]. cbn [pr_core nr_n nr_mem nr_last] in *.
      destruct o as [o|k d|es]; cbn [prb_step core_ops log_of] in *.
      + cbn [pr_core] in E. destruct (step_pushes push (mk_nrb n m last) o curs Hn Hcur) as (last' & Es & Hl').
        rewrite Es in E. cbn [nr_n nr_mem] in *.
        destruct (pushes push m (emit n (curs (op_env o)) o)) as [m1|] eqn:Ep; [|discriminate]. cbn [bind] in E.
        injection E as <-. apply pushes_pb with (l := l) in Ep as [Hc Hd]; auto.
        eapply IH in H; cbn [pr_core nr_n nr_mem nr_last]; eauto; [|rewrite Hd, Hc; reflexivity].
        cbn [pr_core nr_n nr_mem nr_last] in H. rewrite Hc in H. destruct H as [H1 H2]. split; auto.
        rewrite map_app, map_snd_pair, app_assoc. auto.
      + unfold prb_sample in E. cbn [pr_core nr_mem pr_w nr_n nr_last] in E. destruct (k <=? length (pb_data m)); [|discriminate].
        destruct (pb_sample m k (nzero N) d) as [[[[xs probs] mp] m']|] eqn:Es; [|discriminate]. cbn [bind] in E.
        destruct (weights_of w (length (pb_data m')) probs mp) as [[ws w']|]; [|discriminate]. cbn [bind] in E.
        injection E as <-.
        assert (Hd : pb_data m' = pb_data m /\ pb_cap m' = pb_cap m).
        { clear - Es. unfold pb_sample in Es. destruct (_ || _); [|discriminate].
          destruct (pb_sample_indices m k (nzero N) d) as [[[[ixs p] q] s]|]; [|discriminate]. cbn [bind] in Es.
          destruct (gets _ ixs); [|discriminate]. cbn [bind] in Es. injection Es as _ _ _ <-. auto. }
        destruct Hd as [Hd Hc]. eapply IH in H; cbn [pr_core nr_n nr_mem nr_last]; eauto; [|rewrite Hd, Hc; eassumption].
        cbn [pr_core nr_n nr_mem nr_last] in H. rewrite Hc in H. auto.
      + unfold prb_update in E. cbn [pr_core nr_mem pr_w nr_n nr_last] in E.
        destruct (pb_set_last m (pri_of w es)) as [m'|] eqn:Es; [|discriminate]. cbn [bind] in E. injection E as <-.
        assert (Hd : pb_data m' = pb_data m /\ pb_cap m' = pb_cap m).
        { clear - Es. unfold pb_set_last in Es. destruct (_ || _); [|discriminate]. destruct (forallb _ _); [|discriminate].
          destruct (pb_sampled m) as [ixs|]; [|discriminate]. destruct (_ =? _); [|discriminate].
          destruct (set_loop m _) as [m1|] eqn:E1; [|discriminate]. cbn [bind] in Es. injection Es as <-.
          apply set_loop_data in E1 as (H1 & H2 & _). auto. }
        destruct Hd as [Hd Hc]. eapply IH in H; cbn [pr_core nr_n nr_mem nr_last]; eauto; [|rewrite Hd, Hc; eassumption].
        cbn [pr_core nr_n nr_mem nr_last] in H. rewrite Hc in H. auto.
  Qed.

  Lemma prb_windows (cap : option nat) n w (os : list (prb_op N T)) b0 b : 0 < n ->
    prb_init N cap n w = Ok b0 -> run b0 os = Ok b ->
    exists log, exact_log n (core_ops os) log /\
      pb_data (nr_mem (pr_core b)) = trim cap (map snd log) /\
      match cap with Some c => length (pb_data (nr_mem (pr_core b))) <= c | None => True end.
  Proof.
    intros Hn Hi H. exists (log_of n (fun _ => []) (core_ops os)). split.
    - intros e. pose proof (log_exact push (core_ops os) Hn (fun _ => []) e) as Hx. unfold open_windows in Hx at 1.
      cbn [length] in Hx. replace (0 + 1 - n) with 0 in Hx by lia. exact Hx.
    - unfold prb_init, nrb_init in Hi. replace (0 <? n) with true in Hi by lia. cbn [bind] in Hi. injection Hi as <-.
      apply prb_run_spec with (curs := fun _ => []) (l := []) in H as [H1 H2]; auto.
      + split; [apply H2|]. rewrite H2. apply trim_within.
      + cbn. destruct cap; reflexivity.
  Qed.
End P.
