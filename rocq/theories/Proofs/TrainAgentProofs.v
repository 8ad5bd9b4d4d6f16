From Verif Require Import Base.PyBase Base.Effects Model.TrainAgent Spec.TrainProtocol.
Set Implicit Arguments.

Section Runs.
  Context {Ev : Type}.
  (** [m] extends every trace [tr] by a segment satisfying [Q]. *)
  Lemma call_cases {A} (o : list Ev -> res A) (lg : A -> Ev) tr :
    (exists a, call o lg tr = (Ok a, tr ++ [lg a])) \/ (exists e, o tr = Raise e /\ call o lg tr = (Raise e, tr)).
  Proof. unfold call. destruct (o tr); [left|right]; eauto. Qed.
End Runs.

Section T.
  Context {Obs Act Rw : Type}.
  Variable rzero : Rw.
  Notation ev := (@ev Obs Act Rw).
  Variable w : @world Obs Act Rw.
  Variable c : config.
  Notation ppath := (@ppath Obs Act Rw rzero c).
  Notation pstep := (@pstep Obs Act Rw rzero c).
  Notation phase := (@phase Obs Act Rw).

  Lemma ppath_app p l p' l' p'' : ppath p l p' -> ppath p' l' p'' -> ppath p (l ++ l') p''.
  Proof. induction 1; cbn; auto. intros. econstructor; eauto. Qed.
  Lemma core_app (a b : list ev) : core (a ++ b) = core a ++ core b.
  Proof. apply filter_app. Qed.
  Lemma nsteps_app (a b : list ev) : nsteps (a ++ b) = (nsteps a + nsteps b)%Z.
  Proof. unfold nsteps. rewrite filter_app, app_length. lia. Qed.
  Lemma nfs_app (a b : list ev) : no_final_save a -> no_final_save b -> no_final_save (a ++ b).
  Proof. intros Ha Hb e He. apply in_app_or in He as [?|?]; auto. Qed.
  Lemma checkpoints_app (a b : list ev) : checkpoints (a ++ b) = checkpoints a ++ checkpoints b.
  Proof. induction a as [|[] a IH]; cbn; auto. destruct s; cbn; now rewrite ?IH. Qed.

  Lemma ns_app (a b : list ev) : no_success a -> no_success b -> no_success (a ++ b).
  Proof. intros Ha Hb t k He. apply in_app_or in He as [?|?]; [eapply Ha|eapply Hb]; eauto. Qed.

  Ltac nfs := clear; let e := fresh in let H := fresh in intros e H; cbn in H; intuition (subst; reflexivity).
  Ltac nsu := let H := fresh in intros ? ? H; cbn in H; clear - H; intuition discriminate.

  Ltac blame := unfold from_world; eexists; intuition eauto.

  (** Quiet segments: hooks only. *)
  Definition hooks_seg (i k : nat) (t : Z) : list ev := map (fun j => EHook j t) (seq i k).

  Lemma hooks_runs k : forall i t tr, 
    exists out j, e_hooks w i k t tr = (out, tr ++ hooks_seg i j t) /\ j <= k /\ match out with Ok _ => j = k | Raise e => from_world w e end.
  Proof.
    induction k as [|k IH]; intros i t tr; cbn [e_hooks].
    - exists (Ok tt), 0. unfold ret, hooks_seg. cbn. rewrite app_nil_r. auto.
    - unfold ebind. destruct (call_cases (w_hook w) (fun _ => EHook i t) tr) as [(a & ->)|(e & Hraise & ->)].
      + destruct (IH (S i) t (tr ++ [EHook i t])) as (out & j & -> & Hj & Ho).
        exists out, (S j). rewrite <- app_assoc. split; [reflexivity|]. split; [lia|]. destruct out; auto.
      + exists (Raise e), 0. unfold hooks_seg. cbn. rewrite app_nil_r. split; [auto|]. split; [lia|blame].
  Qed.

  Lemma hooks_path i k o r d n t len : i + k <= c_hooks c ->
    ppath (PSeen i o r d n t len) (core (hooks_seg i k t)) (PSeen (i + k) o r d n t len).
  Proof.
    revert i. induction k as [|k IH]; intros i Hk; cbn.
    - rewrite Nat.add_0_r. constructor.
    - econstructor; [apply p_hook; lia|]. replace (i + S k) with (S i + k) by lia. apply IH. lia.
  Qed.
  Lemma hooks_nsteps i k t : nsteps (hooks_seg i k t) = 0%Z.
  Proof. unfold nsteps, hooks_seg. revert i. induction k as [|k IH]; intros i; cbn; auto. Qed.
  Lemma hooks_nfs i k t : no_final_save (hooks_seg i k t).
  Proof. intros e He. apply in_map_iff in He as (j & <- & _). auto. Qed.
  Lemma hooks_ns i k t : no_success (hooks_seg i k t).
  Proof. intros t' k' He. apply in_map_iff in He as (j & He & _). discriminate. Qed.
  Lemma hooks_ckpt i k t : checkpoints (hooks_seg i k t) = [].
  Proof. unfold hooks_seg. revert i. induction k as [|k IH]; intros i; cbn; auto. Qed.

  (** Ready to act on (o, r). *)
  Definition ready (p : phase) (o : Obs) (r : Rw) (t len : Z) : Prop :=
    p = PAct o r t len \/ exists d n, p = PSeen (c_hooks c) o r d n t len /\ ~ over c d n t len.

  Definition due1 (t : Z) : list Z := if due c t then [t] else [].

  (** A checkpoint, if due. *)
  Lemma ckpt_runs t tr : exists out seg, e_checkpoint w c t tr = (out, tr ++ seg) /\
    core seg = [] /\ nsteps seg = 0%Z /\ no_final_save seg /\ no_success seg /\
    match out with Ok _ => checkpoints seg = due1 t | Raise e => seg = [] /\ from_world w e end.
  Proof.
    unfold e_checkpoint, due1, due. destruct (c_freq c) as [f|].
    - destruct (f =? 0)%Z; cbn [negb andb].
      + exists (Ok tt), []. rewrite app_nil_r. split; [auto|]. split; [auto|]. split; [auto|]. split; [nfs|]. split; [nsu|auto].
      + destruct (t mod f =? 0)%Z.
        * unfold e_save. destruct (call_cases (w_save w) (fun _ => @ESave Obs Act Rw SCheckpoint t) tr) as [(a & ->)|(e & Hraise & ->)].
          -- exists (Ok a), [ESave SCheckpoint t]. split; [auto|]. split; [auto|]. split; [auto|]. split; [nfs|]. split; [nsu|auto].
          -- exists (Raise e), []. rewrite app_nil_r. split; [auto|]. split; [auto|]. split; [auto|]. split; [nfs|]. split; [nsu|]. split; [auto|blame].
        * exists (Ok tt), []. rewrite app_nil_r. split; [auto|]. split; [auto|]. split; [auto|]. split; [nfs|]. split; [nsu|auto].
    - exists (Ok tt), []. rewrite app_nil_r. split; [auto|]. split; [auto|]. split; [auto|]. split; [nfs|]. split; [nsu|auto].
  Qed.

  (** What a body segment, started after the step, looks like. *)
  Definition body_ok (t : Z) o r d n (len : Z) (idx : nat) (out : res (option (Obs * Rw * nat * Z))) (seg : list ev) : Prop :=
    nsteps seg = 0%Z /\ no_final_save seg /\
    exists p, ppath (PSeen 0 o r d n t len) (core seg) p /\
    match out with
    | Ok None => checkpoints seg = [] /\ p = PClosed t /\
        ((t = c_steps c /\ no_success seg) \/ exists seg1, seg = seg1 ++ [EEval t (idx + 1) true] /\ no_success seg1)
    | Ok (Some (o', r', idx', len')) => t <> c_steps c /\ checkpoints seg = due1 t /\ no_success seg /\ ready p o' r' t len'
    | Raise e => no_success seg /\ checkpoints seg = [] /\ from_world w e
    end.

  Lemma over_spec d n t len : d || (eqb_opt len (c_maxlen c) || n) || (t =? c_steps c)%Z = true <-> over c d n t len.
  Proof.
    unfold over, eqb_opt. rewrite !orb_true_iff, Z.eqb_eq. destruct (c_maxlen c) as [m|].
    - rewrite Z.eqb_eq. split; intros; intuition (subst; auto); try congruence.
    - intuition discriminate.
  Qed.

  Lemma body_runs t o r d n idx len tr : exists out seg,
    body_after rzero w c t o r d n idx len tr = (out, tr ++ seg) /\ body_ok t o r d n (len + 1) idx out seg.
  Proof.
    unfold body_after, ebind at 1.
    destruct (hooks_runs (c_hooks c) 0 t tr) as (out0 & j & -> & Hj & Hj2).
    set (hs := hooks_seg 0 j t) in *.
    pose proof (@hooks_path 0 j o r d n t (len + 1)%Z Hj) as Hp0. fold hs in Hp0. cbn [plus] in Hp0.
    pose proof (hooks_nsteps 0 j t) as Hn0. pose proof (@hooks_nfs 0 j t) as Hf0. pose proof (@hooks_ns 0 j t) as Hs0.
    pose proof (hooks_ckpt 0 j t) as Hc0. fold hs in Hn0, Hf0, Hs0, Hc0.
    destruct out0 as [[]|e0].
    2: { exists (Raise e0), hs. split; [auto|]. split; [auto|]. split; [auto|]. exists (PSeen j o r d n t (len+1)%Z). auto. }
    subst j.
    destruct (d || (eqb_opt (len + 1) (c_maxlen c) || n) || (t =? c_steps c)%Z) eqn:Eov.
    - apply over_spec in Eov. unfold ebind at 1, e_stop.
      destruct (call_cases (w_stop w) (fun _ => EStop o r d) (tr ++ hs)) as [([] & ->)|(e & Hraise & ->)].
      2: { exists (Raise e), hs. split; [auto|]. split; [auto|]. split; [auto|]. eexists. split; [eauto|]. split; [auto|]. split; [auto|]. blame. }
      rewrite <- app_assoc.
      set (s1 := hs ++ [EStop o r d]).
      assert (Hp1 : ppath (PSeen 0 o r d n t (len+1)%Z) (core s1) (PClosed t)).
      { unfold s1. rewrite core_app. eapply ppath_app; [exact Hp0|]. cbn. econstructor; [|constructor]. eapply p_stop; eauto. }
      assert (Hn1 : nsteps s1 = 0%Z) by (unfold s1; rewrite nsteps_app, Hn0; reflexivity).
      assert (Hf1 : no_final_save s1) by (apply nfs_app; [auto|nfs]).
      assert (Hs1 : no_success s1) by (apply ns_app; [auto|nsu]).
      assert (Hc1 : checkpoints s1 = []) by (unfold s1; rewrite checkpoints_app, Hc0; reflexivity).
      unfold ebind at 1.
      assert (Hev : exists out seg, (if c_eval c then e_eval w t (idx + 1) else ret false) (tr ++ s1) = (out, (tr ++ s1) ++ seg) /\
                match out with
                | Ok true => seg = [EEval t (idx + 1) true]
                | Ok false => core seg = [] /\ nsteps seg = 0%Z /\ no_final_save seg /\ no_success seg /\ checkpoints seg = []
                | Raise e => seg = [] /\ from_world w e end).
      { destruct (c_eval c).
        - unfold e_eval. destruct (call_cases (w_eval w) (EEval t (idx+1)) (tr ++ s1)) as [([|] & ->)|(e & Hraise & ->)].
          + exists (Ok true), [EEval t (idx + 1) true]. auto.
          + exists (Ok false), [EEval t (idx + 1) false]. split; [auto|]. split; [auto|]. split; [auto|]. split; [nfs|]. split; [nsu|auto].
          + exists (Raise e), []. rewrite app_nil_r. split; [auto|]. split; [auto|blame].
        - exists (Ok false), []. rewrite app_nil_r. split; [auto|]. split; [auto|]. split; [auto|]. split; [nfs|]. split; [nsu|auto]. }
      destruct Hev as (oe & se & -> & Hse). destruct oe as [[|]|e].
      + subst se. unfold ret. exists (Ok None), (s1 ++ [EEval t (idx + 1) true]). rewrite app_assoc. split; [auto|].
        split; [rewrite nsteps_app, Hn1; reflexivity|]. split; [apply nfs_app; [auto|nfs]|].
        exists (PClosed t). split; [rewrite core_app; cbn; now rewrite app_nil_r|].
        split; [rewrite checkpoints_app, Hc1; reflexivity|]. split; [auto|]. right. exists s1. auto.
      + destruct Hse as (He1 & He2 & He3 & He4 & He5). rewrite <- app_assoc.
        set (s2 := s1 ++ se).
        assert (Hp2 : ppath (PSeen 0 o r d n t (len+1)%Z) (core s2) (PClosed t)) by (unfold s2; rewrite core_app, He1, app_nil_r; auto).
        assert (Hn2 : nsteps s2 = 0%Z) by (unfold s2; rewrite nsteps_app; lia).
        assert (Hf2 : no_final_save s2) by (apply nfs_app; auto).
        assert (Hs2 : no_success s2) by (apply ns_app; auto).
        assert (Hc2 : checkpoints s2 = []) by (unfold s2; rewrite checkpoints_app, Hc1, He5; reflexivity).
        destruct (t =? c_steps c)%Z eqn:Et.
        * unfold ret. exists (Ok None), s2. split; [auto|]. split; [auto|]. split; [auto|]. exists (PClosed t).
          split; [auto|]. split; [auto|]. split; [auto|]. left. split; [lia|auto].
        * unfold ebind at 1, e_reset.
          destruct (call_cases (w_reset w) EReset (tr ++ s2)) as [(o2 & ->)|(e & Hraise & ->)].
          2: { exists (Raise e), s2. split; [auto|]. split; [auto|]. split; [auto|]. exists (PClosed t). split; [auto|]. split; [auto|]. split; [auto|blame]. }
          rewrite <- app_assoc. unfold ebind.
          destruct (ckpt_runs t (tr ++ s2 ++ [EReset o2])) as (oc & sc & -> & Hk1 & Hk2 & Hk3 & Hk4 & Hk5).
          assert (Hp3 : ppath (PSeen 0 o r d n t (len+1)%Z) (core (s2 ++ [EReset o2] ++ sc)) (PAct o2 rzero t 0)).
          { rewrite !core_app, Hk1. cbn [core filter is_core app]. eapply ppath_app; [exact Hp2|].
            econstructor; [|constructor]. apply p_reset. lia. }
          assert (Hn3 : nsteps (s2 ++ [EReset o2] ++ sc) = 0%Z) by (rewrite !nsteps_app, Hn2, Hk2; reflexivity).
          assert (Hf3 : no_final_save (s2 ++ [EReset o2] ++ sc)) by (apply nfs_app; [auto|apply nfs_app; [nfs|auto]]).
          assert (Hs3 : no_success (s2 ++ [EReset o2] ++ sc)) by (apply ns_app; [auto|apply ns_app; [nsu|auto]]).
          destruct oc as [u|e].
          -- unfold ret. exists (Ok (Some (o2, rzero, S idx, 0%Z))), (s2 ++ [EReset o2] ++ sc). rewrite <- !app_assoc. split; [auto|].
             split; [auto|]. split; [auto|]. exists (PAct o2 rzero t 0). split; [auto|]. split; [lia|].
             split; [rewrite !checkpoints_app, Hc2, Hk5; reflexivity|]. split; [auto|]. left; auto.
          -- destruct Hk5 as [-> Hw]. exists (Raise e), (s2 ++ [EReset o2]). rewrite app_nil_r in *. split; [auto|].
             split; [auto|]. split; [auto|]. eexists. split; [exact Hp3|]. split; [auto|]. rewrite checkpoints_app, Hc2. auto.
      + destruct Hse as [-> Hw]. rewrite app_nil_r. exists (Raise e), s1. split; [auto|]. split; [auto|]. split; [auto|]. exists (PClosed t). auto.
    - assert (Hno : ~ over c d n t (len + 1)) by (rewrite <- over_spec; congruence).
      unfold ebind. destruct (ckpt_runs t (tr ++ hs)) as (oc & sc & -> & Hk1 & Hk2 & Hk3 & Hk4 & Hk5). rewrite <- app_assoc.
      assert (Hpp : ppath (PSeen 0 o r d n t (len+1)%Z) (core (hs ++ sc)) (PSeen (c_hooks c) o r d n t (len+1)%Z)).
      { rewrite core_app, Hk1, app_nil_r. auto. }
      destruct oc as [u|e].
      + unfold ret. exists (Ok (Some (o, r, idx, (len + 1)%Z))), (hs ++ sc). split; [auto|].
        split; [rewrite nsteps_app; lia|]. split; [apply nfs_app; auto|]. eexists. split; [exact Hpp|].
        split; [intros E; apply Hno; right; right; right; auto|]. split; [rewrite checkpoints_app, Hc0, Hk5; auto|].
        split; [apply ns_app; auto|]. right. exists d, n. auto.
      + destruct Hk5 as [-> Hw]. exists (Raise e), (hs ++ []). split; [auto|]. rewrite app_nil_r in *.
        split; [auto|]. split; [auto|]. eexists. split; [exact Hpp|]. auto.
  Qed.

  (** A whole run of the loop. *)
  Definition loop_ok (tr : list ev) (t : Z) (p : phase) (out : res Z) (seg : list ev) : Prop :=
    (exists p', ppath p (core seg) p') /\
    match out with
    | Ok t' => (t' = t + nsteps seg)%Z /\ no_final_save seg /\ checkpoints seg = due_between c t t' /\
        ((t' = c_steps c /\ no_success seg) \/ ((c_steps c <= t)%Z /\ seg = []) \/
         ((t < t')%Z /\ exists seg1 k, seg = seg1 ++ [EEval t' k true] /\ no_success seg1))
    | Raise e => from_world w e /\ no_success seg /\ exists seg0, no_final_save seg0 /\
        ((seg = seg0 /\ exists e', w_save w (tr ++ seg0) = Raise e') \/ seg = seg0 ++ [ESave SExcept (t + nsteps seg0)%Z]) /\
        (exists rest, due_between c t (t + nsteps seg0 + 1) = checkpoints seg0 ++ rest)
    end.

  Lemma handler_runs t tr : exists out seg, handler w t tr = (out, tr ++ seg) /\
    match out with Ok _ => seg = [ESave SExcept t] | Raise e => seg = [] /\ w_save w tr = Raise e end.
  Proof.
    unfold handler, e_save. destruct (call_cases (w_save w) (fun _ => @ESave Obs Act Rw SExcept t) tr) as [([] & ->)|(e & Hraise & ->)].
    - exists (Ok tt), [ESave SExcept t]. auto.
    - exists (Raise e), []. rewrite app_nil_r. auto.
  Qed.

  Lemma due_between_empty t t' : (t' <= t + 1)%Z -> due_between c t t' = [].
  Proof. intros H. unfold due_between, between. replace (Z.to_nat (t' - t - 1)) with 0 by lia. reflexivity. Qed.

  Lemma due_between_cons t t' : (t + 1 < t')%Z -> due_between c t t' = due1 (t + 1) ++ due_between c (t + 1) t'.
  Proof.
    intros H. unfold due_between, between, due1.
    replace (Z.to_nat (t' - t - 1)) with (S (Z.to_nat (t' - (t + 1) - 1))) by lia. cbn [seq map filter].
    rewrite Z.add_0_r. rewrite <- seq_shift, map_map.
    replace (filter (due c) (map (fun x => (t + 1 + Z.of_nat (S x))%Z) (seq 0 (Z.to_nat (t' - (t + 1) - 1)))))
      with (filter (due c) (map (fun i => (t + 1 + 1 + Z.of_nat i)%Z) (seq 0 (Z.to_nat (t' - (t + 1) - 1))))).
    - destruct (due c (t + 1)); reflexivity.
    - f_equal. apply map_ext. intros. lia.
  Qed.

  Lemma nsteps_nonneg (seg : list ev) : (0 <= nsteps seg)%Z.
  Proof. unfold nsteps. lia. Qed.

  Lemma loop_runs fuel : forall t o r idx len tr p, (c_steps c - t <= Z.of_nat fuel)%Z -> ready p o r t len ->
    exists out seg, loop rzero w c fuel t o r idx len tr = (out, tr ++ seg) /\ loop_ok tr t p out seg.
  Proof.
    induction fuel as [|fuel IH]; intros t o r idx len tr p Hf Hr; cbn [loop].
    { replace (t <? c_steps c)%Z with false by lia. unfold ret. exists (Ok t), []. rewrite app_nil_r. split; [auto|].
      split; [exists p; constructor|]. split; [cbn; lia|]. split; [nfs|]. split; [symmetry; apply due_between_empty; lia|].
      right; left. split; [lia|auto]. }
    destruct (t <? c_steps c)%Z eqn:Et.
    2: { unfold ret. exists (Ok t), []. rewrite app_nil_r. split; [auto|].
      split; [exists p; constructor|]. split; [cbn; lia|]. split; [nfs|]. split; [symmetry; apply due_between_empty; lia|].
      right; left. split; [lia|auto]. }
    assert (Hact : forall a, pstep p (EAct o r a) (PStep a t len)).
    { intros a. destruct Hr as [->|(d & n & -> & Hno)]; [apply p_act; lia|apply p_go_on; [auto|lia]]. }
    unfold ebind at 1, try_reraise at 1, ebind at 1, e_act.
    destruct (call_cases (w_act w) (EAct o r) tr) as [(a & ->)|(e & Hraise & ->)].
    2: { destruct (handler_runs t tr) as ([[]|e'] & sh & -> & Hsh).
         - subst sh. exists (Raise e), [ESave SExcept t]. split; [auto|]. split; [exists p; constructor|]. split; [blame|]. split; [nsu|].
           exists []. split; [nfs|]. split; [right; cbn; f_equal; f_equal; lia|]. eexists. reflexivity.
         - destruct Hsh as [-> Hsv]. exists (Raise e'), []. split; [auto|]. split; [exists p; constructor|]. split; [blame|]. split; [nsu|].
           exists []. split; [nfs|]. split; [rewrite app_nil_r; eauto|]. eexists. reflexivity. }
    unfold e_step.
    destruct (call_cases (w_step w) (fun x => let '(o, r, d, n) := x in EStep a o r d n) (tr ++ [EAct o r a])) as [([[[o2 r2] d] n] & ->)|(e & Hraise & ->)].
    2: { destruct (handler_runs t (tr ++ [EAct o r a])) as ([[]|e'] & sh & -> & Hsh).
         - subst sh; rewrite <- app_assoc. exists (Raise e), [EAct o r a; ESave SExcept t]. split; [auto|].
           split; [exists (PStep a t len); cbn; econstructor; [apply Hact|constructor]|]. split; [blame|]. split; [nsu|].
           exists [EAct o r a]. split; [nfs|]. split; [right; cbn; repeat f_equal; lia|]. eexists. reflexivity.
         - destruct Hsh as [-> Hsv]. rewrite app_nil_r. exists (Raise e'), [EAct o r a]. split; [auto|].
           split; [exists (PStep a t len); cbn; econstructor; [apply Hact|constructor]|]. split; [blame|]. split; [nsu|].
           exists [EAct o r a]. split; [nfs|]. split; [eauto|]. eexists. reflexivity. }
    rewrite <- app_assoc. cbn [app].
    set (s0 := [EAct o r a; EStep a o2 r2 d n]).
    assert (Hp0 : ppath p (core s0) (PSeen 0 o2 r2 d n (t + 1) (len + 1))).
    { cbn. econstructor; [apply Hact|]. econstructor; [apply p_step|]. constructor. }
    assert (Hf0 : no_final_save s0) by nfs. assert (Hs0 : no_success s0) by nsu.
    unfold ebind, try_reraise.
    destruct (body_runs (t + 1) o2 r2 d n idx len (tr ++ s0)) as (ob & sb & -> & Hn & Hfs & pb & Hpb & Hb).
    assert (Hp1 : ppath p (core (s0 ++ sb)) pb) by (rewrite core_app; eapply ppath_app; eauto).
    assert (Hn1 : nsteps (s0 ++ sb) = 1%Z) by (rewrite nsteps_app, Hn; reflexivity).
    assert (Hf1 : no_final_save (s0 ++ sb)) by (apply nfs_app; auto).
    assert (Hc1 : checkpoints (s0 ++ sb) = checkpoints sb) by (rewrite checkpoints_app; reflexivity).
    rewrite <- app_assoc.
    destruct ob as [[[[[o3 r3] idx3] len3]|]|e].
    - destruct Hb as (Ht & Hck & Hns & Hrd).
      destruct (IH (t + 1)%Z o3 r3 idx3 len3 (tr ++ s0 ++ sb) pb) as (out & seg & -> & (p' & Hp') & Hout); [lia|auto|].
      exists out, ((s0 ++ sb) ++ seg). split; [now rewrite <- !app_assoc|].
      split; [exists p'; rewrite core_app; eapply ppath_app; eauto|].
      pose proof (nsteps_nonneg seg).
      destruct out as [t'|e].
      + destruct Hout as (H1 & H2 & H3 & H4). split; [rewrite nsteps_app, Hn1; lia|]. split; [apply nfs_app; auto|]. split.
        * destruct (Z.eq_dec t' (t + 1)) as [->|Hne].
          -- exfalso. destruct H4 as [[H4 _]|[[H4 _]|[H4 _]]]; [congruence|lia|lia].
          -- rewrite due_between_cons by lia. rewrite checkpoints_app, Hc1, Hck, H3. auto.
        * destruct H4 as [[H4 H5]|[[H4 ->]|(H6 & s1 & k & -> & H5)]].
          -- left. split; auto. apply ns_app; [apply ns_app; auto|auto].
          -- exfalso. lia.
          -- right; right. split; [lia|]. exists ((s0 ++ sb) ++ s1), k. split; [now rewrite app_assoc|]. apply ns_app; [apply ns_app; auto|auto].
      + destruct Hout as (H0 & H1 & seg0 & H2 & H3 & rest & H4). split; [exact H0|]. split; [apply ns_app; [apply ns_app; auto|auto]|].
        exists ((s0 ++ sb) ++ seg0). split; [apply nfs_app; auto|].
        assert (Hnn : (t + 1 + nsteps seg0 = t + nsteps ((s0 ++ sb) ++ seg0))%Z) by (rewrite nsteps_app, Hn1; lia).
        split.
        * destruct H3 as [[-> (e' & H3)]| ->]; [left; split; [auto|exists e'; rewrite <- app_assoc in H3; rewrite <- !app_assoc; auto]|right]. rewrite app_assoc. rewrite Hnn. auto.
        * pose proof (nsteps_nonneg seg0). exists rest. rewrite due_between_cons by lia. rewrite <- Hnn, H4.
          rewrite !checkpoints_app, Hck. cbn [checkpoints app s0]. now rewrite app_assoc.
    - destruct Hb as (Hck & -> & Hb). unfold ret. exists (Ok (t + 1)%Z), (s0 ++ sb). split; [auto|].
      split; [exists (PClosed (t + 1)); auto|]. split; [lia|]. split; [auto|]. split; [rewrite Hc1, Hck; symmetry; apply due_between_empty; lia|].
      destruct Hb as [[Hb1 Hb2]|(s1 & -> & Hb2)].
      + left. split; auto. apply ns_app; auto.
      + right; right. split; [lia|]. exists (s0 ++ s1), (idx + 1). rewrite app_assoc. split; auto. apply ns_app; auto.
    - destruct Hb as (Hb1 & Hb2 & Hb3).
      destruct (handler_runs (t + 1) (tr ++ s0 ++ sb)) as ([[]|e'] & sh & -> & Hsh).
      + subst sh. exists (Raise e), ((s0 ++ sb) ++ [ESave SExcept (t + 1)%Z]). rewrite <- !app_assoc. split; [auto|].
        rewrite app_assoc. split; [exists pb; rewrite core_app; cbn; rewrite app_nil_r; auto|].
        split; [auto|]. split; [apply ns_app; [apply ns_app; auto|nsu]|]. exists (s0 ++ sb). split; [auto|].
        split; [right; repeat f_equal; lia|]. rewrite Hc1, Hb2. cbn. eauto.
      + destruct Hsh as [-> Hsv]. exists (Raise e'), (s0 ++ sb). split; [now rewrite app_nil_r|]. split; [eauto|].
        split; [blame|]. split; [apply ns_app; auto|]. exists (s0 ++ sb). split; [auto|]. split; [eauto|]. rewrite Hc1, Hb2. cbn. eauto.
  Qed.

  Lemma train_agent_runs : let (out, tr) := train_agent rzero w c [] in
    (exists p, ppath PInit (core tr) p) /\
    match out with
    | Ok _ => exists tr0 t, tr = tr0 ++ [ESave SFinish t] /\ no_final_save tr0 /\
        t = (c_offset c + nsteps tr0)%Z /\ checkpoints tr = due_between c (c_offset c) t /\
        ((t = c_steps c /\ no_success tr0) \/ ((c_steps c <= c_offset c)%Z /\ nsteps tr0 = 0%Z) \/
         exists tr1 k, tr0 = tr1 ++ [EEval t k true] /\ no_success tr1)
    | Raise e => from_world w e /\
        ((tr = [] /\ w_reset w [] = Raise e) \/ exists tr0, no_final_save tr0 /\
          (tr = tr0 ++ [ESave SExcept (c_offset c + nsteps tr0)%Z] \/ (tr = tr0 /\ exists e', w_save w tr0 = Raise e')) /\
          (exists rest, due_between c (c_offset c) (c_offset c + nsteps tr0 + 1) = checkpoints tr0 ++ rest))
    end.
  Proof.
    unfold train_agent, ebind at 1, e_reset.
    destruct (call_cases (w_reset w) EReset ([] : list ev)) as [(o & ->)|(e & Hraise & ->)].
    2: { split; [exists PInit; constructor|]. split; [blame|]. left; auto. }
    cbn [app]. unfold ebind.
    destruct (@loop_runs (Z.to_nat (c_steps c - c_offset c)) (c_offset c) o rzero 0 0 [EReset o] (PAct o rzero (c_offset c) 0))
      as (out & seg & -> & (p & Hp) & Hout); [lia|left; auto|].
    assert (Hpath : ppath PInit (core ([EReset o] ++ seg)) p).
    { rewrite core_app. cbn. econstructor; [apply p_first|auto]. }
    destruct out as [t|e].
    - destruct Hout as (H1 & H2 & H3 & H4). unfold e_save.
      assert (Hn0 : nsteps ([EReset o] ++ seg) = nsteps seg) by reflexivity.
      assert (Hf : no_final_save ([EReset o] ++ seg)) by (apply nfs_app; [nfs|auto]).
      destruct (call_cases (w_save w) (fun _ => @ESave Obs Act Rw SFinish t) ([EReset o] ++ seg)) as [([] & ->)|(e & Hraise & ->)].
      + split; [exists p; rewrite core_app; cbn [core filter is_core]; rewrite app_nil_r; auto|].
        exists ([EReset o] ++ seg), t. split; [auto|]. split; [auto|]. split; [rewrite Hn0; auto|].
        split; [rewrite checkpoints_app; cbn [checkpoints app]; rewrite app_nil_r; auto|].
        destruct H4 as [[H4 H5]|[[H4 ->]|(H4 & s1 & k & -> & H5)]].
        * left. split; [auto|]. apply ns_app; [nsu|auto].
        * right; left. auto.
        * right; right. exists ([EReset o] ++ s1), k. split; [now rewrite app_assoc|]. apply ns_app; [nsu|auto].
      + split; [exists p; auto|]. split; [blame|]. right. exists ([EReset o] ++ seg). split; [auto|].
        split; [right; eauto|]. rewrite Hn0, <- H1. cbn [app checkpoints]. rewrite H3.
        assert (Ht : (c_offset c <= t)%Z) by (pose proof (nsteps_nonneg seg); lia).
        clear - Ht. unfold due_between, between. exists (filter (due c) (map (fun i => (c_offset c + 1 + Z.of_nat i)%Z) (seq (Z.to_nat (t - c_offset c - 1)) (Z.to_nat (t + 1 - c_offset c - 1) - Z.to_nat (t - c_offset c - 1))))).
        rewrite <- filter_app, <- map_app, <- seq_app. repeat f_equal. lia.
    - destruct Hout as (H0 & H1 & seg0 & H2 & H3 & rest & H4). split; [exists p; auto|]. split; [auto|]. right.
      exists ([EReset o] ++ seg0). split; [apply nfs_app; [nfs|auto]|].
      replace (nsteps ([EReset o] ++ seg0)) with (nsteps seg0) by reflexivity.
      split; [|exists rest; auto].
      destruct H3 as [[-> He]| ->]; [right|left]; auto.
  Qed.
End T.

Lemma train_agent_protocol (Obs Act Rw : Type) (rzero : Rw) (w : @world Obs Act Rw) (c : config) :
  let (out, tr) := train_agent rzero w c [] in
  (exists p, ppath rzero c PInit (core tr) p) /\
  match out with
  | Ok _ => exists tr0 t, tr = tr0 ++ [ESave SFinish t] /\ no_final_save tr0 /\
      t = (c_offset c + nsteps tr0)%Z /\
      ((t = c_steps c /\ no_success tr0) \/ ((c_steps c <= c_offset c)%Z /\ nsteps tr0 = 0%Z) \/
       exists tr1 k, tr0 = tr1 ++ [EEval t k true] /\ no_success tr1)
  | Raise e => from_world w e /\
      ((tr = [] /\ w_reset w [] = Raise e) \/ exists tr0, no_final_save tr0 /\
        (tr = tr0 ++ [ESave SExcept (c_offset c + nsteps tr0)%Z] \/ (tr = tr0 /\ exists e', w_save w tr0 = Raise e')))
  end.
Proof.
  pose proof (train_agent_runs rzero w c) as H. destruct (train_agent rzero w c []) as [[u|e] tr]; destruct H as [Hp H]; split; auto.
  - destruct H as (tr0 & t & H1 & H2 & H3 & _ & H4). exists tr0, t. auto.
  - destruct H as [He [H|(tr0 & H1 & H2 & _)]]; split; auto. right. exists tr0. auto.
Qed.

Lemma train_agent_checkpoints (Obs Act Rw : Type) (rzero : Rw) (w : @world Obs Act Rw) (c : config) :
  let (out, tr) := train_agent rzero w c [] in
  match out with
  | Ok _ => checkpoints tr = due_between c (c_offset c) (c_offset c + nsteps tr)
  | Raise _ => exists rest, due_between c (c_offset c) (c_offset c + nsteps tr + 1) = checkpoints tr ++ rest
  end.
Proof.
  pose proof (train_agent_runs rzero w c) as H. destruct (train_agent rzero w c []) as [[u|e] tr]; destruct H as [Hp H].
  - destruct H as (tr0 & t & -> & H2 & H3 & H4 & _). rewrite H4, nsteps_app, H3. f_equal. unfold nsteps at 3. cbn. lia.
  - destruct H as [He [(-> & H)|(tr0 & H1 & H2 & rest & H3)]].
    + exists (due_between c (c_offset c) (c_offset c + nsteps (@nil (@ev Obs Act Rw)) + 1)). reflexivity.
    + exists rest. destruct H2 as [->|[-> _]]; auto. rewrite nsteps_app, checkpoints_app. cbn [checkpoints]. rewrite app_nil_r, <- H3.
      f_equal. unfold nsteps at 2. cbn. lia.
Qed.
