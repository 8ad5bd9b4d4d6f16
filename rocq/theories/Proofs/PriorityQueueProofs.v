(** The tree queues refine plain lists of priorities, for every history. *)
From Coq Require Import QArith Lqa.
From Verif Require Import Base.PyBase Base.ListFacts Model.Num Model.TreeQueue
     Spec.PrioritySpec Spec.PriorityQueueSpec Spec.PrioritizedBufferSpec
     Proofs.TreeQueueProofs Proofs.PriorityProofs Proofs.PrioritizedBufferProofs.
Set Implicit Arguments.
Open Scope Q_scope.

Lemma upd_split {A} (l : list A) i x : (i < length l)%nat -> upd l i x = firstn i l ++ x :: skipn (S i) l.
Proof. revert i; induction l as [|h t IH]; intros [|i] H; cbn [length] in H; cbn; auto; try lia.
       f_equal. apply IH. lia. Qed.

Lemma all_some_map l ixs : (forall i, In i ixs -> (i < length l)%nat) ->
  exists vs, all_some (map (fun i => @nth_error Q l i) ixs) = Some vs /\
    Forall2 (fun i v => nth_error l i = Some v) ixs vs.
Proof.
  induction ixs as [|i t IH]; intros H; cbn [map].
  - exists []. split; auto.
  - destruct IH as (vs & E & HF). { intros; apply H; right; auto. }
    destruct (nth_error l i) as [x|] eqn:Ex.
    + exists (x :: vs). cbn. unfold all_some in E. rewrite E. auto.
    + apply nth_error_None in Ex. specialize (H i (or_introl eq_refl)). lia.
Qed.

Lemma map_to_of ixs : map Z.to_nat (map Z.of_nat ixs) = ixs.
Proof. rewrite map_map. rewrite <- (map_id ixs) at 2. apply map_ext. intros; apply Nat2Z.id. Qed.

Section G.
  Variables (op : list Q -> Q) (Agg : list Q -> Q -> Prop).
  Hypothesis A1 : forall v, Agg [v] v.
  Hypothesis Aop1 : forall l v, Agg l v -> Agg l (op [v]).
  Hypothesis Aop2 : forall l1 l2 v1 v2, Agg l1 v1 -> Agg l2 v2 -> Agg (l1 ++ l2) (op [v1; v2]).
  Notation rep := (tq_rep Agg).

  Lemma basic_step q l o : no_sampling o -> rep q l ->
    exists l', lq_step Agg l o (fst (lq_exec op q o)) l' /\ rep (snd (lq_exec op q o)) l'.
  Proof.
    intros Hn Hr. destruct o as [v| |i v| |us rm|ixs rm]; try destruct Hn; cbn [lq_exec].
    - destruct (tq_append_spec op A1 Aop1 Aop2 v Hr) as (q' & -> & Hr'). cbn [fst snd]. eexists; split; [constructor|auto].
    - pose proof (tq_popleft_spec op A1 Aop1 Aop2 Hr) as H. destruct l as [|x l].
      + rewrite H. cbn [fst snd]. exists []. split; [constructor|auto].
      + destruct H as (q' & -> & Hr'). cbn [fst snd]. exists l. split; [constructor|auto].
    - pose proof (tq_set_spec op A1 Aop1 Aop2 i v Hr) as H.
      destruct ((0 <=? i)%Z && (i <? Z.of_nat (length l))%Z) eqn:E.
      + destruct H as (q' & -> & Hr'). cbn [fst snd]. rewrite upd_split in Hr' by lia.
        eexists; split; [apply ls_set; lia|auto].
      + rewrite H. cbn [fst snd]. exists l. split; [apply ls_set_err; lia|auto].
    - pose proof (tq_value_spec op A1 Aop1 Aop2 Hr) as H. destruct l as [|x l].
      + rewrite H. exists []. split; [constructor|auto].
      + destruct H as (v & -> & Hv). exists (x :: l). split; [constructor; auto; discriminate|auto].
  Qed.

  Lemma basic_run os : forall q l, Forall no_sampling os -> rep q l ->
    exists l', lq_steps Agg l os (fst (lq_run op q os)) l' /\ rep (snd (lq_run op q os)) l'.
  Proof.
    induction os as [|o os IH]; intros q l HF Hr; cbn [lq_run fst snd].
    - exists l. split; [constructor|auto].
    - inversion HF; subst. destruct (@basic_step q l o H1 Hr) as (l1 & Hs & Hr1).
      destruct (lq_exec op q o) as [r q1]. cbn [fst snd] in *.
      destruct (IH q1 l1 H2 Hr1) as (l2 & Hs2 & Hr2). destruct (lq_run op q1 os) as [rs q2]. cbn [fst snd] in *.
      exists l2. split; auto. econstructor; eauto.
  Qed.
End G.

Definition is_sumQ (l : list Q) (v : Q) : Prop := v == sumQ l.

Lemma sum_step q l o : lq_pre l o -> sum_rep q l ->
  exists l', lq_step is_sumQ l o (fst (lq_exec osum q o)) l' /\ sum_rep (snd (lq_exec osum q o)) l'.
Proof.
  intros Hp Hr. destruct o as [v| |i v| |us rm|ixs rm];
    try (apply (@basic_step osum is_sumQ AggSum1 AggSum_op1 AggSum_op2 q l); [exact I|exact Hr]).
  - destruct Hp as (Hn & Hl & Hu).
    destruct (@prioritized_sample_spec q l us rm Hr Hn Hl Hu) as (ixs & q' & E & Hpk & Hlen & Hnd & Hpos & Hr').
    cbn [lq_exec]. change (nV QNum) with Q in *. rewrite E.
    destruct (@all_some_map l ixs) as (vs & -> & HF).
    { intros i Hi. destruct (Hpos i Hi) as (x & Hx & _). apply nth_error_Some. congruence. }
    cbn [fst snd]. rewrite map_to_of. eexists; split; [|exact Hr'].
    eapply ls_pick; eauto.
    clear - HF Hpos. induction HF as [|i v ixs vs Hiv HF IH]; constructor.
    + split; auto. destruct (Hpos i (or_introl eq_refl)) as (x & Hx & H0). congruence.
    + apply IH. intros; apply Hpos; right; auto.
  - destruct Hp as (Hnd & Hi).
    destruct (@uniform_sample_spec q l ixs rm Hr Hnd Hi) as (q' & E & Hr').
    cbn [lq_exec]. change (nV QNum) with Q in *. rewrite E.
    destruct (@all_some_map l ixs Hi) as (vs & -> & HF).
    cbn [fst snd]. rewrite map_to_of. eexists; split; [|exact Hr']. constructor; auto.
Qed.

Lemma sum_run os : forall q l, lq_safe is_sumQ l os -> sum_rep q l ->
  exists l', lq_steps is_sumQ l os (fst (lq_run osum q os)) l' /\ sum_rep (snd (lq_run osum q os)) l'.
Proof.
  induction os as [|o os IH]; intros q l HS Hr; cbn [lq_run fst snd].
  - exists l. split; [constructor|auto].
  - inversion HS as [|? ? ? Hpre Hnext]; subst. destruct (@sum_step q l o Hpre Hr) as (l1 & Hs & Hr1).
    destruct (lq_exec osum q o) as [r q1]. cbn [fst snd] in *.
    destruct (IH q1 l1 (Hnext _ _ Hs) Hr1) as (l2 & Hs2 & Hr2). destruct (lq_run osum q1 os) as [rs q2]. cbn [fst snd] in *.
    exists l2. split; auto. econstructor; eauto.
Qed.

Lemma sum_queue_refines os : lq_safe is_sumQ [] os ->
  exists l, lq_steps is_sumQ [] os (fst (lq_run (op_sum QNum) tq_init os)) l /\
    drain (op_sum QNum) (length l) (snd (lq_run (op_sum QNum) tq_init os)) = map Some l /\
    tq_len (snd (lq_run (op_sum QNum) tq_init os)) = Z.of_nat (length l).
Proof.
  intros HS. destruct (@sum_run os tq_init [] HS) as (l & H1 & H2). { split; reflexivity. }
  exists l. split; [exact H1|]. split; [exact (drain_sum H2)|apply H2].
Qed.

Lemma min_queue_refines os : Forall no_sampling os ->
  exists l, lq_steps is_minQ [] os (fst (lq_run (op_min QNum) tq_init os)) l /\
    drain (op_min QNum) (length l) (snd (lq_run (op_min QNum) tq_init os)) = map Some l /\
    tq_len (snd (lq_run (op_min QNum) tq_init os)) = Z.of_nat (length l).
Proof.
  intros HF. destruct (@basic_run omin is_minQ AggMin1 AggMin_op1 AggMin_op2 os tq_init [] HF) as (l & H1 & H2).
  { split; reflexivity. }
  exists l. split; [exact H1|]. split; [exact (drain_min H2)|apply H2].
Qed.

(** "The queue [q] currently holds the priorities [l], oldest first." *)
Definition holds (q : tq Q) (l : list Q) : Prop :=
  tq_len q = Z.of_nat (length l) /\ drain (op_sum QNum) (length l) q = map Some l.

Lemma sum_run_init os : lq_safe is_sumQ [] os ->
  exists l, lq_steps is_sumQ [] os (fst (lq_run osum tq_init os)) l /\ sum_rep (snd (lq_run osum tq_init os)) l.
Proof. intros HS. apply sum_run; auto. split; reflexivity. Qed.

Lemma sum_rep_holds q l : sum_rep q l -> holds q l.
Proof. intros H. split; [apply H|exact (drain_sum H)]. Qed.

Lemma find_reachable os : lq_safe is_sumQ [] os ->
  let q := snd (lq_run (op_sum QNum) tq_init os) in
  exists l, lq_steps is_sumQ [] os (fst (lq_run (op_sum QNum) tq_init os)) l /\ holds q l /\
    forall u, (forall x, In x l -> 0 <= x) -> 0 <= u < sumQ l ->
      exists il ir t i p, tq_body q = Some (il, ir, t) /\
        find QNum (width il ir) il ir t u = Ok (Z.of_nat i) /\
        nth_error l i = Some p /\ 0 < p /\
        sumQ (firstn i l) <= u < sumQ (firstn i l) + p /\
        (forall j r, nth_error l j = Some r -> sumQ (firstn j l) <= u < sumQ (firstn j l) + r -> j = i).
Proof.
  intros HS q. destruct (sum_run_init HS) as (l & H1 & H2). fold q in H2.
  exists l. split; [exact H1|]. split; [exact (sum_rep_holds H2)|].
  intros u Hn [Hu0 Hu1]. destruct (tq_body q) as [[[il ir] t]|] eqn:Eb.
  2:{ destruct H2 as [_ H2]. rewrite Eb in H2. subst l. cbn in Hu1. lra. }
  destruct (find_rep H2 Eb Hu0 Hu1) as (i & Hf & Hi).
  destruct (hit_pos Hi) as (p & Hp & Hp0).
  exists il, ir, t, i, p. split; [auto|]. split; [exact Hf|]. split; [auto|]. split; [auto|].
  pose proof Hi as (_ & Ha & Hb). rewrite (firstn_S_sum _ _ Hp) in Hb.
  split; [lra|]. intros j r Hj [Hc Hd]. apply (@hit_unique l u); auto. split.
  - apply nth_error_Some. congruence.
  - rewrite (firstn_S_sum _ _ Hj). auto.
Qed.

Lemma Forall2_len {A B} (P : A -> B -> Prop) l l' : Forall2 P l l' -> length l = length l'.
Proof. induction 1; cbn; auto. Qed.

Lemma picks_len w us ixs w' : picks w us ixs w' -> length ixs = length us.
Proof. induction 1; cbn; auto. Qed.

Lemma pick_reachable os us remove : lq_safe is_sumQ [] os ->
  let q := snd (lq_run (op_sum QNum) tq_init os) in
  exists l, holds q l /\
    ((forall x, In x l -> 0 <= x) -> (length us <= positives l)%nat -> (forall u, In u us -> 0 <= u < 1) ->
     exists ixs vals q' l', lq_exec (op_sum QNum) q (LPick us remove) = (LSampled ixs vals, q') /\
       length ixs = length us /\ NoDup ixs /\
       Forall2 (fun i v => nth_error l i = Some v /\ 0 < v) ixs vals /\
       holds q' l' /\ length l' = length l /\
       forall j, nth_error l' j = (if remove then (if in_dec Nat.eq_dec j ixs then Some 0 else nth_error l j)
                                  else nth_error l j)).
Proof.
  intros HS q. destruct (sum_run_init HS) as (l & H1 & H2). fold q in H2.
  exists l. split; [exact (sum_rep_holds H2)|]. intros Hn Hl Hu.
  destruct (@sum_step q l (LPick us remove)) as (l' & Hs & Hr'); [repeat split; auto; apply Hu; auto|auto|].
  change osum with (op_sum QNum) in *. change (nV QNum) with Q in *.
  destruct (@lq_exec (op_sum QNum) q (LPick us remove)) as [r q']. cbn [fst snd] in *.
  inversion Hs; subst.
  match goal with H : Forall2 _ ixs vals |- _ => rename H into HF end.
  assert (Hir : forall i, In i ixs -> (i < length l)%nat).
  { intros i Hi. clear - HF Hi. induction HF as [|a b ? ? [Hab _] HF IH]; [destruct Hi|destruct Hi as [->|Hi]; auto].
    apply nth_error_Some. congruence. }
  do 4 eexists. split; [reflexivity|]. split; [eapply picks_len; eauto|]. split; [auto|]. split; [auto|].
  split; [exact (sum_rep_holds Hr')|]. destruct remove.
  - split; [apply zero_at_length|]. intros j. destruct (in_dec Nat.eq_dec j ixs).
    + apply zero_at_same; auto.
    + apply zero_at_other; auto.
  - auto.
Qed.

Lemma uniform_reachable os ixs remove : lq_safe is_sumQ [] os ->
  let q := snd (lq_run (op_sum QNum) tq_init os) in
  exists l, holds q l /\
    (NoDup ixs -> (forall i, In i ixs -> (i < length l)%nat) ->
     exists vals q' l', lq_exec (op_sum QNum) q (LUniform ixs remove) = (LSampled ixs vals, q') /\
       Forall2 (fun i v => nth_error l i = Some v) ixs vals /\
       holds q' l' /\ length l' = length l /\
       forall j, nth_error l' j = (if remove then (if in_dec Nat.eq_dec j ixs then Some 0 else nth_error l j)
                                  else nth_error l j)).
Proof.
  intros HS q. destruct (sum_run_init HS) as (l & H1 & H2). fold q in H2.
  exists l. split; [exact (sum_rep_holds H2)|]. intros Hnd Hir.
  destruct (@sum_step q l (LUniform ixs remove)) as (l' & Hs & Hr'); [split; auto|auto|].
  change osum with (op_sum QNum) in *. change (nV QNum) with Q in *.
  destruct (@lq_exec (op_sum QNum) q (LUniform ixs remove)) as [r q']. cbn [fst snd] in *.
  inversion Hs; subst.
  do 3 eexists. split; [reflexivity|]. split; [eauto|]. split; [exact (sum_rep_holds Hr')|]. destruct remove.
  - split; [apply zero_at_length|]. intros j. destruct (in_dec Nat.eq_dec j ixs).
    + apply zero_at_same; auto.
    + apply zero_at_other; auto.
  - auto.
Qed.
