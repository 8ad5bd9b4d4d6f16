(** Training end to end: Model/TrainAgent.v with Model/OffPolicyAgent.v and
    Model/ReplayBuffer.v. *)
From Coq Require Import QArith.
From Verif Require Import Base.PyBase Base.Effects Model.TrainAgent Model.TrainAgentBatch Model.RandomAccessQueue Model.ReplayBuffer
  Model.OffPolicyAgent Spec.BoundedList Spec.WindowSpec Spec.TransitionSpec Spec.EndToEndSpec
  Proofs.TrainAgentProofs Proofs.OffPolicyProofs Proofs.ReplayBufferProofs.
Set Implicit Arguments.
Local Open Scope nat_scope.

Section P.
  Context {Obs Act Rw : Type}.
  Variable rzero : Rw.
  Notation tev := (@TrainAgent.ev Obs Act Rw).
  Notation env_step := (@EndToEndSpec.env_step Obs Act Rw).
  Variable w : @world Obs Act Rw.
  Variable c : config.

  (** The calls of train_agent with evaluations: they happen between episodes. *)
  Inductive xph := XInit | XAct (o : Obs) (r : Rw) | XStep (o : Obs) (a : Act) | XSeen (o : Obs) (r : Rw) (d : bool) | XClosed.
  Inductive xstep : xph -> tev -> xph -> Prop :=
  | x_first o : xstep XInit (EReset o) (XAct o rzero)
  | x_act o r a : xstep (XAct o r) (TrainAgent.EAct o r a) (XStep o a)
  | x_step s a o r d n : xstep (XStep s a) (EStep a o r d n) (XSeen o r d)
  | x_go o r a : xstep (XSeen o r false) (TrainAgent.EAct o r a) (XStep o a)
  | x_stop o r d : xstep (XSeen o r d) (EStop o r d) XClosed
  | x_eval t k s : xstep XClosed (EEval t k s) XClosed
  | x_reset o : xstep XClosed (EReset o) (XAct o rzero)
  | x_save p s t : xstep p (ESave s t) p
  | x_hook p k t : xstep p (EHook k t) p.
  Inductive xpath : xph -> list tev -> xph -> Prop :=
  | xp_nil p : xpath p [] p
  | xp_cons p e p' l p'' : xstep p e p' -> xpath p' l p'' -> xpath p (e :: l) p''.

  Lemma xpath_app : forall p l p' l' p'', xpath p l p' -> xpath p' l' p'' -> xpath p (l ++ l') p''.
  Proof. intros p l p' l' p'' H. revert l' p''. induction H; cbn; intros; auto. econstructor; eauto. Qed.
  Lemma xpath_one : forall p e p', xstep p e p' -> xpath p [e] p'.
  Proof. intros. econstructor; [eassumption | constructor]. Qed.

  Lemma x_hooks : forall k i t tr out tr' p, e_hooks w i k t tr = (out, tr') -> exists l, tr' = tr ++ l /\ xpath p l p.
  Proof.
    induction k as [|k IH]; intros i t tr out tr' p H; cbn [e_hooks] in H.
    - unfold ret in H. injection H as <- <-. exists []. rewrite app_nil_r. split; [reflexivity | constructor].
    - unfold ebind, call in H. destruct (w_hook w tr) as [u|e].
      + destruct (IH (S i) t (tr ++ [EHook i t]) out tr' p H) as [l [-> Hl]].
        exists (EHook i t :: l). rewrite <- app_assoc. split; [reflexivity|]. econstructor; [constructor | exact Hl].
      + injection H as <- <-. exists []. rewrite app_nil_r. split; [reflexivity | constructor].
  Qed.
  Lemma x_saves : forall s t tr out tr' p, e_save w s t tr = (out, tr') -> exists l, tr' = tr ++ l /\ xpath p l p.
  Proof.
    intros s t tr out tr' p H. unfold e_save, call in H. destruct (w_save w tr).
    - injection H as <- <-. eexists. split; [reflexivity|]. apply xpath_one. constructor.
    - injection H as <- <-. exists []. rewrite app_nil_r. split; [reflexivity | constructor].
  Qed.
  Lemma x_ckpt : forall t tr out tr' p, e_checkpoint w c t tr = (out, tr') -> exists l, tr' = tr ++ l /\ xpath p l p.
  Proof.
    intros t tr out tr' p H. unfold e_checkpoint in H.
    assert (R : forall (x : unit), (Ok x, tr) = (out, tr') -> exists l, tr' = tr ++ l /\ xpath p l p).
    { intros x E. injection E as <- <-. exists []. rewrite app_nil_r. split; [reflexivity | constructor]. }
    destruct (c_freq c) as [f|]; [|exact (R tt H)]. destruct (f =? 0)%Z; [exact (R tt H)|].
    destruct (t mod f =? 0)%Z; [eapply x_saves, H | exact (R tt H)].
  Qed.

  Lemma x_body : forall t o r d n idx len tr out tr', body_after rzero w c t o r d n idx len tr = (out, tr') ->
    exists l p, tr' = tr ++ l /\ xpath (XSeen o r d) l p /\
      match out with
      | Ok None => p = XClosed
      | Ok (Some (o', r', _, _)) => (p = XAct o' r' \/ p = XSeen o' r' false) /\ t <> c_steps c
      | Raise _ => True
      end.
  Proof.
    intros t o r d n idx len tr out tr' H. unfold body_after in H. unfold ebind at 1 in H.
    destruct (e_hooks w 0 (c_hooks c) t tr) as [o1 tr1] eqn:E1.
    destruct (@x_hooks _ _ _ _ _ _ (XSeen o r d) E1) as [l1 [-> H1]].
    destruct o1 as [u|e]; [|injection H as <- <-; exists l1, (XSeen o r d); auto].
    cbv zeta in H.
    destruct (d || (eqb_opt (len + 1) (c_maxlen c) || n) || (t =? c_steps c)%Z) eqn:Eo.
    - unfold ebind at 1 in H. unfold e_stop, call in H. destruct (w_stop w (tr ++ l1)) as [u'|e];
        [|injection H as <- <-; exists l1, (XSeen o r d); auto].
      rewrite <- app_assoc in H.
      assert (H2 : xpath (XSeen o r d) (l1 ++ [EStop o r d]) XClosed) by (eapply xpath_app; [exact H1|]; apply xpath_one; constructor).
      revert H2 H. generalize (l1 ++ [EStop o r d]). clear l1 H1 E1. intros l1 H1 H. unfold ebind at 1 in H.
      assert (H3 : exists (q : res bool) l2, (if c_eval c then e_eval w t (idx + 1) else ret false) (tr ++ l1) = (q, tr ++ l1 ++ l2) /\
                   xpath (XSeen o r d) (l1 ++ l2) XClosed).
      { destruct (c_eval c).
        - unfold e_eval, call. destruct (w_eval w (tr ++ l1)) as [b|e].
          + eexists _, [EEval t (idx + 1) b]. rewrite <- app_assoc. split; [reflexivity|].
            eapply xpath_app; [exact H1|]. apply xpath_one. constructor.
          + eexists _, []. rewrite app_nil_r. split; [reflexivity | exact H1].
        - eexists _, []. rewrite app_nil_r. split; [reflexivity | exact H1]. }
      destruct H3 as [q [l2 [E3 H3]]]. rewrite E3 in H. clear E3.
      destruct q as [[|]|e]; [injection H as <- <-; exists (l1 ++ l2), XClosed; auto | |injection H as <- <-; exists (l1 ++ l2), XClosed; auto].
      destruct (Z.eqb_spec t (c_steps c)) as [Et|Et]; [injection H as <- <-; exists (l1 ++ l2), XClosed; auto|].
      unfold ebind at 1 in H. unfold e_reset, call in H. destruct (w_reset w (tr ++ l1 ++ l2)) as [o'|e];
        [|injection H as <- <-; exists (l1 ++ l2), XClosed; auto].
      assert (H4 : xpath (XSeen o r d) ((l1 ++ l2) ++ [EReset o']) (XAct o' rzero)) by (eapply xpath_app; [exact H3|]; apply xpath_one; constructor).
      rewrite <- app_assoc in H. revert H4 H. generalize ((l1 ++ l2) ++ [EReset o']). clear l1 l2 H1 H3. intros l1 H1 H.
      unfold ebind in H. destruct (e_checkpoint w c t (tr ++ l1)) as [o2 tr2] eqn:E2.
      destruct (@x_ckpt _ _ _ _ (XAct o' rzero) E2) as [l2 [-> H2]].
      exists (l1 ++ l2), (XAct o' rzero). rewrite <- app_assoc in H.
      destruct o2; [unfold ret in H|]; injection H as <- <-; split; try reflexivity; split; try (eapply xpath_app; eassumption); auto.
    - assert (Ed : d = false) by (destruct d; [discriminate | reflexivity]). subst d.
      assert (Et : t <> c_steps c) by (intros ->; rewrite Z.eqb_refl, orb_true_r in Eo; discriminate).
      unfold ebind in H. destruct (e_checkpoint w c t (tr ++ l1)) as [o2 tr2] eqn:E2.
      destruct (@x_ckpt _ _ _ _ (XSeen o r false) E2) as [l2 [-> H2]].
      exists (l1 ++ l2), (XSeen o r false). rewrite <- app_assoc in H.
      destruct o2; [unfold ret in H|]; injection H as <- <-; split; try reflexivity; split; try (eapply xpath_app; eassumption); auto.
  Qed.

  Lemma x_try : forall A (m : eff tev A) t tr out tr' p,
    (forall out tr', m tr = (out, tr') -> exists l q, tr' = tr ++ l /\ xpath p l q) ->
    try_reraise m (handler w t) tr = (out, tr') -> match out with Ok a => m tr = (Ok a, tr') | Raise _ => exists l q, tr' = tr ++ l /\ xpath p l q end.
  Proof.
    intros A m t tr out tr' p Hm H. unfold try_reraise in H. destruct (m tr) as [[a|e] tr1] eqn:E; [injection H as <- <-; reflexivity|].
    destruct (Hm _ _ eq_refl) as [l [q [-> H1]]].
    destruct (handler w t (tr ++ l)) as [o2 tr2] eqn:E2. destruct (@x_saves _ _ _ _ _ q E2) as [l2 [-> H2]].
    assert (G : exists l' q', (tr ++ l) ++ l2 = tr ++ l' /\ xpath p l' q') by (exists (l ++ l2), q; rewrite app_assoc; split; [reflexivity | eapply xpath_app; eassumption]).
    destruct o2; injection H as <- <-; exact G.
  Qed.

  Lemma x_loop : forall fuel t o r idx len tr out tr' p, p = XAct o r \/ p = XSeen o r false ->
    loop rzero w c fuel t o r idx len tr = (out, tr') ->
    exists l q, tr' = tr ++ l /\ xpath p l q /\ match out with Ok _ => q = XClosed \/ (l = [] /\ q = p /\ (c_steps c <= t)%Z) | Raise _ => True end.
  Proof.
    induction fuel as [|fuel IH]; intros t o r idx len tr out tr' p Hp H; cbn [loop] in H;
      (destruct (Z.ltb_spec t (c_steps c)) as [Ht|Ht];
       [|unfold ret in H; injection H as <- <-; exists [], p; rewrite app_nil_r; split; [reflexivity|]; split; [constructor|]; right; auto]).
    { unfold raise in H. injection H as <- <-. exists [], p. rewrite app_nil_r. split; [reflexivity|]. split; [constructor | exact I]. }
    unfold ebind at 1 in H.
    destruct (try_reraise (do a <- e_act w o r;; e_step w a) (handler w t) tr) as [o1 tr1] eqn:E1.
    assert (Hm : forall out tr', (do a <- e_act w o r;; e_step w a) tr = (out, tr') -> exists l q, tr' = tr ++ l /\ xpath p l q /\
      match out with Ok (o', r', d, _) => q = XSeen o' r' d | Raise _ => True end).
    { clear -Hp. intros out tr' H. unfold ebind, e_act, e_step, call in H.
      destruct (w_act w tr) as [a|e]; [|injection H as <- <-; exists [], p; rewrite app_nil_r; split; [reflexivity|]; split; [constructor | exact I]].
      assert (H1 : xpath p [TrainAgent.EAct o r a] (XStep o a)) by (apply xpath_one; destruct Hp as [->| ->]; constructor).
      destruct (w_step w (tr ++ [TrainAgent.EAct o r a])) as [[[[o' r'] d] n]|e]; injection H as <- <-.
      - exists [TrainAgent.EAct o r a; EStep a o' r' d n], (XSeen o' r' d). rewrite <- app_assoc. split; [reflexivity|]. split; [|reflexivity].
        change [TrainAgent.EAct o r a; EStep a o' r' d n] with ([TrainAgent.EAct o r a] ++ [EStep a o' r' d n]).
        eapply xpath_app; [exact H1|]. apply xpath_one. constructor.
      - exists [TrainAgent.EAct o r a], (XStep o a). split; [reflexivity|]. split; [exact H1 | exact I]. }
    assert (H1 := @x_try _ _ t tr o1 tr1 p (fun out tr' E => match Hm out tr' E with ex_intro _ l (ex_intro _ q (conj A (conj B _))) => ex_intro _ l (ex_intro _ q (conj A B)) end) E1).
    destruct o1 as [[[[o' r'] d] n]|e].
    2:{ injection H as <- <-. destruct H1 as [l [q [-> H1]]]. exists l, q. auto. }
    destruct (Hm _ _ H1) as [l1 [q1 [-> [P1 ->]]]]. clear Hm H1 E1.
    unfold ebind at 1 in H.
    destruct (try_reraise (body_after rzero w c (t + 1) o' r' d n idx len) (handler w (t + 1)) (tr ++ l1)) as [o2 tr2] eqn:E2.
    assert (Hm := fun out tr' E => @x_body (t + 1)%Z o' r' d n idx len (tr ++ l1) out tr' E).
    assert (H2 := @x_try _ _ (t + 1)%Z (tr ++ l1) o2 tr2 (XSeen o' r' d) (fun out tr' E => match Hm out tr' E with ex_intro _ l (ex_intro _ q (conj A (conj B _))) => ex_intro _ l (ex_intro _ q (conj A B)) end) E2).
    destruct o2 as [x|e].
    2:{ injection H as <- <-. destruct H2 as [l [q [-> H2]]]. exists (l1 ++ l), q. rewrite app_assoc. split; [reflexivity|].
        split; [eapply xpath_app; eassumption | exact I]. }
    destruct (Hm _ _ H2) as [l2 [q2 [-> [P2 Q2]]]]. clear Hm H2 E2.
    destruct x as [[[[o3 r3] i3] n3]|].
    - destruct (IH _ _ _ _ _ _ _ _ _ (proj1 Q2) H) as [l3 [q3 [-> [P3 Q3]]]].
      exists (l1 ++ l2 ++ l3), q3. rewrite !app_assoc. split; [reflexivity|]. rewrite <- !app_assoc.
      split; [eapply xpath_app; [exact P1|]; eapply xpath_app; eassumption|].
      destruct out as [v|]; [|exact I]. destruct Q3 as [->|[-> [-> Q3]]]; [left; reflexivity|].
      destruct Q2 as [_ Q2]. lia.
    - unfold ret in H. injection H as <- <-. exists (l1 ++ l2), q2. rewrite app_assoc. split; [reflexivity|].
      split; [eapply xpath_app; eassumption | left; exact Q2].
  Qed.

  Lemma x_train : forall out tr, train_agent rzero w c [] = (out, tr) ->
    exists q, xpath XInit tr q /\ match out with Ok _ => q = XClosed \/ exists o, q = XAct o rzero | Raise _ => True end.
  Proof.
    intros out tr H. unfold train_agent, ebind at 1 in H. unfold e_reset, call in H.
    destruct (w_reset w []) as [o|e]; [|injection H as <- <-; exists XInit; split; [constructor | exact I]].
    unfold ebind in H. cbn [app] in H.
    destruct (loop rzero w c (Z.to_nat (c_steps c - c_offset c)) (c_offset c) o rzero 0 0 [EReset o]) as [o1 tr1] eqn:E1.
    destruct (@x_loop _ _ _ _ _ _ _ _ _ (XAct o rzero) (or_introl eq_refl) E1) as [l [q [-> [P Q]]]].
    assert (P' : xpath XInit ([EReset o] ++ l) q) by (eapply xpath_app; [apply xpath_one; constructor | exact P]).
    destruct o1 as [t|e]; [|injection H as <- <-; exists q; split; [exact P' | exact I]].
    destruct (@x_saves _ _ _ _ _ q H) as [l2 [-> H2]]. exists q. split; [eapply xpath_app; eassumption|].
    destruct out; [|exact I]. destruct Q as [->|[_ [-> _]]]; [left; reflexivity | right; exists o; reflexivity].
  Qed.

  Notation call := (op Obs Rw * out Act)%type.
  Notation tr_ := (transition Obs Act Rw).
  Definition split_eps (acc : list tr_) (ops : list (rb_op tr_)) : list (list env_step) :=
    let (eps, ep) := episodes_from 0 acc ops in flat_map close (map (map step_of) (eps ++ [ep])).

  Lemma split_nil : forall acc, split_eps acc [] = close (map step_of acc).
  Proof. intros acc. unfold split_eps. cbn. apply app_nil_r. Qed.
  Lemma split_go : forall acc x ops, split_eps acc (RAppend 0 x false :: ops) = split_eps (acc ++ [x]) ops.
  Proof. reflexivity. Qed.
  Lemma split_end : forall acc x ops, split_eps acc (RAppend 0 x true :: ops) = close (map step_of (acc ++ [x])) ++ split_eps [] ops.
  Proof. intros acc x ops. unfold split_eps. cbn. destruct (episodes_from 0 [] ops) as [eps ep]. reflexivity. Qed.
  Lemma split_stop : forall acc ops, split_eps acc (RStop 0 :: ops) = close (map step_of acc) ++ split_eps [] ops.
  Proof. intros acc ops. unfold split_eps. cbn. destruct (episodes_from 0 [] ops) as [eps ep]. reflexivity. Qed.

  Definition no_act (prev : option call) : Prop := match prev with Some (OAct _ _, RAct _) => False | _ => True end.
  Definition xinv (p : xph) (prev : option call) (acc : list tr_) (cur : option Obs) (ep : list env_step) : Prop :=
    match p with
    | XInit => no_act prev /\ acc = [] /\ ep = []
    | XAct o _ => no_act prev /\ acc = [] /\ ep = [] /\ cur = Some o
    | XStep o a => (exists r0, prev = Some (OAct o r0, RAct a)) /\ ep = map step_of acc /\ cur = Some o
    | XSeen o r d => (exists s r0 a, prev = Some (OAct s r0, RAct a) /\ ep = map step_of acc ++ [(s, a, r, o, d)]) /\ cur = Some o
    | XClosed => no_act prev /\ acc = []
    end.
  Definition xpre (p : xph) (ep : list env_step) : list (list env_step) := match p with XClosed => close ep | _ => [] end.
  Definition closed (p : xph) : Prop := match p with XInit | XAct _ _ | XClosed => True | _ => False end.
  Definition is_seen (p : xph) : Prop := match p with XSeen _ _ _ => True | _ => False end.

  Variable k : kind.
  Variable evals : Z -> nat.
  Notation stored_of prev tr := (stored_from k prev (filter (training_call k) (agent_calls evals tr))).

  Lemma no_act_step : forall prev o r a, no_act prev -> step_between k prev (OAct o r, RAct a) = [].
  Proof. intros prev o r a H. destruct prev as [[[| | | |] []]|]; try reflexivity. contradiction. Qed.

  Lemma x_stored : forall tr p q, xpath p tr q -> forall prev acc cur ep, xinv p prev acc cur ep ->
    exists pend, length pend <= 1 /\ (~ is_seen q -> pend = []) /\
      xpre p ep ++ split_eps acc (stored_of prev tr ++ appends 0 pend) = env_from cur ep tr.
  Proof.
    induction 1 as [p|p e p' l q Hs Hp IH]; intros prev acc cur ep Hi.
    - destruct p as [|o r|o a|o r d|]; cbn [xinv xpre] in *.
      + destruct Hi as [_ [-> ->]]. exists []. auto.
      + destruct Hi as [_ [-> [-> _]]]. exists []. auto.
      + destruct Hi as [_ [-> _]]. exists []. cbn [app appends map stored_from filter agent_calls flat_map]. rewrite split_nil. auto.
      + destruct Hi as [[s [r0 [a [_ ->]]]] _]. exists [mk_tr s a r o None d]. split; [cbn; lia|]. split; [cbn; tauto|].
        cbn [app appends map stored_from filter agent_calls flat_map x_terminal env_from].
        destruct d; [rewrite split_end | rewrite split_go]; rewrite split_nil; [rewrite app_nil_r|]; rewrite map_app; reflexivity.
      + destruct Hi as [_ ->]. exists []. cbn. rewrite app_nil_r. auto.
    - destruct Hs; cbn [xinv xpre] in Hi.
      + (* first reset *) destruct Hi as [Hn [-> ->]]. apply (IH prev [] (Some o) []). cbn. auto.
      + destruct Hi as [Hn [-> [-> ->]]].
        destruct (IH (Some (OAct o r, RAct a)) [] (Some o) []) as [pend [L [Q E]]]; [cbn; split; [exists r; reflexivity | auto]|].
        exists pend. split; [exact L|]. split; [exact Q|].
        cbn [agent_calls flat_map agent_call app filter]. replace (training_call k (OAct o r, RAct a)) with true by (destruct k; reflexivity).
        cbn [stored_from]. rewrite (@no_act_step prev o r a Hn). exact E.
      + destruct Hi as [[r0 ->] [-> ->]].
        destruct (IH (Some (OAct s r0, RAct a)) acc (Some o) (map step_of acc ++ [(s, a, r, o, d)])) as [pend [L [Q E]]]; [cbn; split; [exists s, r0, a; auto | auto]|].
        exists pend. split; [exact L|]. split; [exact Q|]. exact E.
      + destruct Hi as [[s [r0 [a0 [-> ->]]]] ->].
        set (x := mk_tr s a0 r o (match k with KDQN => None | _ => Some a end) false).
        destruct (IH (Some (OAct o r, RAct a)) (acc ++ [x]) (Some o) (map step_of acc ++ [(s, a0, r, o, false)])) as [pend [L [Q E]]].
        { cbn. split; [exists r; reflexivity|]. split; [rewrite map_app; reflexivity | reflexivity]. }
        exists pend. split; [exact L|]. split; [exact Q|].
        cbn [agent_calls flat_map agent_call app filter]. replace (training_call k (OAct o r, RAct a)) with true by (destruct k; reflexivity).
        cbn [stored_from step_between app xpre]. rewrite split_go. exact E.
      + destruct Hi as [[s [r0 [a0 [-> ->]]]] ->].
        destruct (IH (Some (OStop o r d, RNone)) [] (Some o) (map step_of acc ++ [(s, a0, r, o, d)])) as [pend [L [Q E]]]; [cbn; auto|].
        exists pend. split; [exact L|]. split; [exact Q|].
        cbn [agent_calls flat_map agent_call app filter]. replace (training_call k (OStop o r d, RNone)) with true by (destruct k; reflexivity).
        cbn [stored_from step_between app xpre env_from]. rewrite <- E. cbn [xpre].
        destruct d; [rewrite split_end, split_stop | rewrite split_go, split_stop]; rewrite map_app; reflexivity.
      + destruct Hi as [Hn ->]. cbn [agent_calls flat_map agent_call env_from].
        assert (G : forall prev', no_act prev' -> exists pend, length pend <= 1 /\ (~ is_seen q -> pend = []) /\
           xpre XClosed ep ++ split_eps [] (stored_of prev' l ++ appends 0 pend) = env_from cur ep l) by (intros prev' H'; apply IH; cbn; auto).
        fold (@agent_calls Obs Act Rw evals l).
        assert (W : forall n prev, no_act prev -> exists pend, length pend <= 1 /\ (~ is_seen q -> pend = []) /\
           xpre XClosed ep ++ split_eps [] (stored_from k prev (filter (training_call k) (repeat (OStopEp, RNone) n ++ agent_calls evals l)) ++ appends 0 pend) = env_from cur ep l).
        { clear -G. induction n as [|n IHn]; intros prev Hn; [apply G, Hn|]. cbn [repeat app filter].
          destruct (training_call k (OStopEp, RNone)); [|apply IHn, Hn].
          destruct (IHn (Some (OStopEp, RNone)) I) as [pend [L [Q E]]]. exists pend. split; [exact L|]. split; [exact Q|]. rewrite <- E.
          cbn [stored_from]. assert (Es : step_between k prev (OStopEp, RNone) = [RStop 0]) by (destruct prev as [[[| | | |] []]|]; reflexivity).
          rewrite Es. cbn [app]. rewrite split_stop. reflexivity. }
        apply W, Hn.
      + destruct Hi as [Hn ->].
        destruct (IH prev [] (Some o) []) as [pend [L [Q E]]]; [cbn; auto|]. exists pend. split; [exact L|]. split; [exact Q|].
        cbn [agent_calls flat_map agent_call app env_from xpre]. cbn [xpre app] in E. f_equal. exact E.
      + apply (IH prev acc cur ep). exact Hi.
      + apply (IH prev acc cur ep). exact Hi.
  Qed.

  Lemma open_end : forall (acc : list tr_) x ops, snd (episodes_from 0 acc (RAppend 0 x true :: ops)) = snd (episodes_from 0 [] ops).
  Proof. intros acc x ops. cbn. destruct (episodes_from 0 [] ops). reflexivity. Qed.
  Lemma open_stop : forall (acc : list tr_) ops, snd (episodes_from 0 acc (RStop 0 :: ops)) = snd (episodes_from 0 [] ops).
  Proof. intros acc ops. cbn. destruct (episodes_from 0 [] ops). reflexivity. Qed.

  Lemma x_open : forall tr p q, xpath p tr q -> closed q -> forall prev acc cur ep, xinv p prev acc cur ep ->
    snd (episodes_from 0 acc (stored_of prev tr)) = [].
  Proof.
    induction 1 as [p|p e p' l q Hs Hp IH]; intros Hc prev acc cur ep Hi.
    - destruct p as [|o r|o a|o r d|]; cbn [xinv closed] in *; try contradiction; cbn; tauto.
    - specialize (IH Hc). destruct Hs; cbn [xinv] in Hi.
      + destruct Hi as [Hn [-> ->]]. apply (IH prev [] (Some o) []). cbn. auto.
      + destruct Hi as [Hn [-> [-> ->]]].
        assert (E := IH (Some (OAct o r, RAct a)) [] (Some o) []).
        cbn [agent_calls flat_map agent_call app filter]. replace (training_call k (OAct o r, RAct a)) with true by (destruct k; reflexivity).
        cbn [stored_from]. rewrite (@no_act_step prev o r a Hn). apply E. cbn. split; [exists r; reflexivity | auto].
      + destruct Hi as [[r0 ->] [-> ->]].
        apply (IH (Some (OAct s r0, RAct a)) acc (Some o) (map step_of acc ++ [(s, a, r, o, d)])). cbn. split; [exists s, r0, a; auto | auto].
      + destruct Hi as [[s [r0 [a0 [-> ->]]]] ->].
        set (x := mk_tr s a0 r o (match k with KDQN => None | _ => Some a end) false).
        assert (E := IH (Some (OAct o r, RAct a)) (acc ++ [x]) (Some o) (map step_of acc ++ [(s, a0, r, o, false)])).
        cbn [agent_calls flat_map agent_call app filter]. replace (training_call k (OAct o r, RAct a)) with true by (destruct k; reflexivity).
        apply E. cbn. split; [exists r; reflexivity|]. split; [rewrite map_app; reflexivity | reflexivity].
      + destruct Hi as [[s [r0 [a0 [-> ->]]]] ->].
        assert (E := IH (Some (OStop o r d, RNone)) [] (Some o) (map step_of acc ++ [(s, a0, r, o, d)])).
        cbn [agent_calls flat_map agent_call app filter]. replace (training_call k (OStop o r d, RNone)) with true by (destruct k; reflexivity).
        cbn [stored_from step_between app].
        destruct d; [rewrite open_end, open_stop | cbn [episodes_from Nat.eqb]; rewrite <- (open_stop (acc ++ [mk_tr s a0 r o (Some a0) false])) in E]; apply E; cbn; auto.
      + destruct Hi as [Hn ->]. cbn [agent_calls flat_map agent_call]. fold (@agent_calls Obs Act Rw evals l).
        assert (W : forall n prev, no_act prev ->
           snd (episodes_from 0 [] (stored_from k prev (filter (training_call k) (repeat (OStopEp, RNone) n ++ agent_calls evals l)))) = []).
        { clear - IH. induction n as [|n IHn]; intros prev Hn; [apply (IH prev [] None []); cbn; auto|]. cbn [repeat app filter].
          destruct (training_call k (OStopEp, RNone)); [|apply IHn, Hn].
          cbn [stored_from]. assert (Es : step_between k prev (OStopEp, RNone) = [RStop 0]) by (destruct prev as [[[| | | |] []]|]; reflexivity).
          rewrite Es. cbn [app]. rewrite open_stop. apply IHn. exact I. }
        apply W, Hn.
      + destruct Hi as [Hn ->]. apply (IH prev [] (Some o) []). cbn. auto.
      + apply (IH prev acc cur ep). exact Hi.
      + apply (IH prev acc cur ep). exact Hi.
  Qed.

  Lemma x_well_formed : forall tr p q, xpath p tr q -> forall open, (open = true -> ~ (p = XClosed)) -> 
    match p with XStep _ _ | XSeen _ _ _ => open = true | _ => True end ->
    well_formed k open (map fst (agent_calls evals tr)) = true.
  Proof.
    induction 1 as [p|p e p' l q Hs Hp IH]; intros open Ho Hi; [reflexivity|].
    destruct Hs; cbn [agent_calls flat_map agent_call map app fst well_formed]; fold (@agent_calls Obs Act Rw evals l).
    - apply IH; [discriminate | exact I].
    - apply IH; [discriminate | reflexivity].
    - apply IH; [discriminate | exact Hi].
    - apply IH; [discriminate | reflexivity].
    - rewrite Hi. apply IH; [discriminate | exact I].
    - assert (W : forall n o, o = false -> well_formed k o (map fst (repeat (@OStopEp Obs Rw, @RNone Act) n ++ agent_calls evals l)) = true).
      { induction n as [|n IHn]; intros o ->; [apply IH; [discriminate | exact I]|]. cbn. apply IHn. destruct k; reflexivity. }
      apply W. destruct open; [exfalso; apply (Ho eq_refl); reflexivity | reflexivity].
    - apply IH; [discriminate | exact I].
    - apply IH; assumption.
    - apply IH; assumption.
  Qed.
  Lemma calls_single : forall tr, forallb single_op (map fst (@agent_calls Obs Act Rw evals tr)) = true.
  Proof.
    induction tr as [|e tr IH]; [reflexivity|]. cbn [agent_calls flat_map]. fold (@agent_calls Obs Act Rw evals tr).
    rewrite map_app, forallb_app, IH, andb_true_r. destruct e; try reflexivity. cbn. induction (evals t); [reflexivity | exact IHn].
  Qed.
  Lemma stored_env0 : forall (h : list call) prev x, In x (stored_from k prev h) -> match x with RAppend e _ _ | RStop e => e = 0 end.
  Proof.
    induction h as [|q h IH]; intros prev x H; [contradiction|]. cbn [stored_from] in H. apply in_app_or in H. destruct H as [H|H]; [|eapply IH, H].
    destruct prev as [[[| | | |] []]|]; destruct q as [[| | | |] []]; cbn in H; intuition (subst; reflexivity).
  Qed.
End P.

Section Main.
  Context {Obs Act Rw : Type}.
  Variable rzero : Rw.
  Notation tr_ := (transition Obs Act Rw).

  Lemma train_stores : forall (w : @world Obs Act Rw) c k interval (choose : list (ev Obs Act Rw) -> Obs -> res Act) t0 evals out tr g evs,
    train_agent rzero w c [] = (out, tr) ->
    run k interval choose (resumed t0) (map fst (agent_calls evals tr)) [] = (Ok (g, agent_calls evals tr), evs) ->
    exists last, length last <= 1 /\ match out with Ok _ => last = [] | Raise _ => True end /\
      env_episodes tr = stored_episodes 0 (buffer_ops evs ++ appends 0 last).
  Proof.
    intros w c k interval choose t0 evals out tr g evs H Hr.
    destruct (x_train _ _ _ H) as [q [Hp Hq]].
    destruct (@run_single _ _ _ interval choose k _ (resumed t0) None [] _ _ _ (calls_single evals tr) eq_refl Hr) as (l & -> & _ & Hb & _ & _).
    cbn [app]. rewrite Hb.
    destruct (@x_stored _ _ _ rzero k evals tr XInit q Hp None [] None []) as [pend [L [Q E]]]; [cbn; auto|].
    exists pend. split; [exact L|]. split; [|symmetry; exact E].
    destruct out; [|exact I]. apply Q. destruct Hq as [->|[o ->]]; intros [].
  Qed.

  Lemma train_never_fails : forall (w : @world Obs Act Rw) c k interval (choose : list (ev Obs Act Rw) -> Obs -> res Act) t0 evals out tr,
    0 < interval -> (forall h o, exists a, choose h o = Ok a) -> train_agent rzero w c [] = (out, tr) ->
    exists g hist evs, run k interval choose (resumed t0) (map fst (agent_calls evals tr)) [] = (Ok (g, hist), evs).
  Proof.
    intros w c k interval choose t0 evals out tr Hi Hc H. destruct (x_train _ _ _ H) as [q [Hp _]].
    apply (@run_single_total Obs Act Rw interval choose k _ (resumed t0) []); auto; [cbn; tauto|].
    cbn. eapply x_well_formed; [exact Hp | discriminate | exact I].
  Qed.

  Lemma map_trim : forall A B (f : A -> B) cap l, map f (trim cap l) = trim cap (map f l).
  Proof. intros A B f [m|] l; [|reflexivity]. cbn. rewrite map_length. symmetry. apply skipn_map. Qed.
  Lemma map_windows : forall A B (f : A -> B) n ep, map (map f) (windows n ep) = windows n (map f ep).
  Proof.
    intros A B f n ep. unfold windows. rewrite map_map, map_length. apply map_ext. intros i. unfold window.
    rewrite <- firstn_map, <- skipn_map. reflexivity.
  Qed.
  Lemma windows_close : forall n (eps : list (list (@env_step Obs Act Rw))),
    concat (map (windows n) (flat_map close eps)) = concat (map (windows n) eps).
  Proof.
    intros n. induction eps as [|[|x ep] eps IH]; [reflexivity | exact IH|].
    cbn [flat_map]. unfold close at 1. cbn [app map concat]. rewrite IH. reflexivity.
  Qed.
  Lemma episodes_none : forall e (ops : list (rb_op tr_)), (forall x, In x ops -> match x with RAppend e' _ _ | RStop e' => e' = 0 end) -> e <> 0 ->
    forall cur, episodes_from e cur ops = ([], cur).
  Proof.
    intros e. induction ops as [|x ops IH]; intros H He cur; [reflexivity|].
    assert (H1 := H x (or_introl eq_refl)). cbn. destruct x as [e' x t|e']; subst e'; destruct e; try congruence; apply IH; auto; intros y Hy; apply H; right; exact Hy.
  Qed.
  Lemma log_env0 : forall (log : list (nat * list tr_)), (forall e, e <> 0 -> map snd (filter (fun p => fst p =? e) log) = []) ->
    filter (fun p => fst p =? 0) log = log.
  Proof.
    intros log H. induction log as [|[e x] log IH]; [reflexivity|]. cbn [filter fst].
    destruct (Nat.eqb_spec e 0) as [->|He].
    - f_equal. apply IH. intros e He. assert (H' := H e He). cbn [filter fst] in H'. destruct (0 =? e) eqn:E; [apply Nat.eqb_eq in E; congruence | exact H'].
    - exfalso. assert (H' := H e He). cbn [filter fst] in H'. rewrite Nat.eqb_refl in H'. discriminate.
  Qed.

  Lemma train_buffer : forall (w : @world Obs Act Rw) c k interval (choose : list (ev Obs Act Rw) -> Obs -> res Act) t0 evals u tr g evs cap n, 0 < n ->
    train_agent rzero w c [] = (Ok u, tr) ->
    run k interval choose (resumed t0) (map fst (agent_calls evals tr)) [] = (Ok (g, agent_calls evals tr), evs) ->
    exists b0 b, rb_init cap n = Ok b0 /\ nrb_run (@raq_append _) b0 (buffer_ops evs) = Ok b /\
      map (map step_of) (raq_iter (nr_mem b)) = trim cap (concat (map (windows n) (env_episodes tr))).
  Proof.
    intros w c k interval choose t0 evals u tr g evs cap n Hn H Hr.
    destruct (@buffer_after_resumed _ _ _ cap n k interval choose _ _ _ _ _ Hn (calls_single evals tr) Hr) as [b0 [b [log [E1 [E2 [E3 E4]]]]]].
    exists b0, b. split; [exact E1|]. split; [exact E2|]. rewrite E4, map_trim. f_equal.
    destruct (x_train _ _ _ H) as [q [Hp Hq]].
    assert (Hc : closed q) by (destruct Hq as [->|[o ->]]; exact I).
    destruct (@x_stored _ _ _ rzero k evals tr XInit q Hp None [] None []) as [pend [L [Q E]]]; [cbn; auto|].
    assert (Ep : pend = []) by (apply Q; destruct q; cbn in Hc |- *; tauto). subst pend. cbn [appends map xpre app] in E. rewrite app_nil_r in E.
    assert (O := @x_open _ _ _ rzero k evals tr XInit q Hp Hc None [] None [] (conj I (conj eq_refl eq_refl))).
    unfold env_episodes. rewrite <- E. unfold split_eps. fold (stored k (agent_calls evals tr)) in *.
    assert (C := E3 0). rewrite log_env0 in C.
    - rewrite C. unfold contributed, episodes. destruct (episodes_from 0 [] (stored k (agent_calls evals tr))) as [eps ep]. cbn [snd] in O. subst ep.
      unfold open_windows. replace (length (@nil tr_) + 1 - n) with 0 by (cbn [length]; lia). cbn [seq map]. rewrite app_nil_r.
      rewrite windows_close, map_app, map_app, concat_app. cbn [map concat windows length seq]. rewrite !app_nil_r.
      rewrite concat_map, !map_map. f_equal. apply map_ext. intros a. apply map_windows.
    - intros e He. rewrite (E3 e). unfold contributed, episodes, stored.
      rewrite (@episodes_none e _ (@stored_env0 _ _ _ k _ None) He []). unfold open_windows. replace (length (@nil tr_) + 1 - n) with 0 by (cbn [length]; lia). reflexivity.
  Qed.
End Main.
