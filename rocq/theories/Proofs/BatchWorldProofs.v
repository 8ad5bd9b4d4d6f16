(** Training episodes are unbroken when evaluations use another env:
    Model/BatchWorld.v. *)
From Coq Require Import QArith.
From Verif Require Import Base.PyBase Base.Effects Model.GymEnv Model.VectorEnv Model.TrainAgent Model.TrainAgentBatch
  Model.BatchWorld Spec.TrainBatchProtocol Spec.EndToEndSpec Spec.BatchWorldSpec Proofs.TrainBatchProofs Proofs.BatchEndToEndProofs.
Set Implicit Arguments.
Local Open Scope nat_scope.

Section Chain.
  Context {Obs Act Rw : Type}.
  Notation env_step := (@EndToEndSpec.env_step Obs Act Rw).
  Definition ends_at (ep : list env_step) (cur : option Obs) : Prop :=
    forall s a r o d, nth_error ep (length ep - 1) = Some (s, a, r, o, d) -> cur = Some o.
  Lemma chained_nil : chained (@nil env_step).
  Proof. intros j; intros. destruct j; discriminate. Qed.
  Lemma ends_nil : forall cur, ends_at [] cur.
  Proof. intros cur s a r o d H. discriminate. Qed.
  Lemma ends_snoc : forall ep s a r o d, ends_at (ep ++ [(s, a, r, o, d)]) (Some o).
  Proof.
    intros ep s a r o d s' a' r' o' d' H. rewrite app_length in H. cbn [length] in H.
    replace (length ep + 1 - 1) with (length ep + 0) in H by lia. rewrite nth_error_app2 in H by lia. replace (length ep + 0 - length ep) with 0 in H by lia. cbn in H. congruence.
  Qed.
  Lemma chained_snoc : forall ep s a r o d, chained ep -> ends_at ep (Some s) -> chained (ep ++ [(s, a, r, o, d)]).
  Proof.
    intros ep s a r o d Hc He j s1 a1 r1 o1 d1 s2 a2 r2 o2 d2 H1 H2.
    destruct (Nat.lt_ge_cases (S j) (length ep)) as [Hj|Hj].
    - rewrite nth_error_app1 in H1 by lia. rewrite nth_error_app1 in H2 by lia. eapply Hc; eassumption.
    - assert (Hl : S j < length (ep ++ [(s, a, r, o, d)])) by (apply nth_error_Some; rewrite H2; discriminate).
      rewrite app_length in Hl. cbn [length] in Hl. assert (Ej : S j = length ep) by lia.
      rewrite nth_error_app1 in H1 by lia. rewrite nth_error_app2 in H2 by lia. rewrite Ej, Nat.sub_diag in H2. cbn in H2.
      injection H2 as <- <- <- <- <-. unfold ends_at in He. replace (length ep - 1) with j in He by lia. specialize (He _ _ _ _ _ H1). congruence.
  Qed.
  Lemma close_chained : forall ep, chained ep -> Forall (@chained Obs Act Rw) (close ep).
  Proof. intros [|x ep] H; [constructor|]. constructor; [exact H | constructor]. Qed.
End Chain.

Lemma nth_in : forall A (l : list A) j n, length l = n -> j < n -> exists x, nth_error l j = Some x.
Proof. intros A l j n H Hj. destruct (nth_error l j) eqn:E; [eauto|]. apply nth_error_None in E. lia. Qed.

Section P.
  Context {A O X : Type}.
  Notation bev := (@bev O A Q).
  Variable V : venv A O X.
  Variable v0 : vst V.
  Variable eval_calls : Z -> list (vop A).
  Variables (act : list bev -> res (list A)) (observe hook : list bev -> res unit)
      (eval : list bev -> res (option Q * Q)) (save close_ : list bev -> res unit).
  Notation w := (env_world V v0 false eval_calls act observe hook eval save close_).
  Variable c : bconfig.
  Notation N := (b_envs c).
  Hypothesis HN : 1 <= N.
  Hypothesis Hsize : sized V N.
  Hypothesis Hkeeps : keeps V.

  (** The answers recorded in a trace are those of the env. *)
  Inductive answered : list bev -> Prop :=
  | an_nil : answered []
  | an_reset tr m o : answered tr -> env_reset V v0 false eval_calls tr = Ok o -> answered (tr ++ [BReset m o])
  | an_step tr a x : answered tr -> env_step_answer V v0 false eval_calls tr = Ok x -> answered (tr ++ [BStep a x])
  | an_act tr o a : answered tr -> answered (tr ++ [BAct o a])
  | an_observe tr o r d e : answered tr -> answered (tr ++ [BObserve o r d e]).

  Lemma calls_core : forall tr : list bev, flat_map (env_call false eval_calls) (b_core tr) = flat_map (env_call false eval_calls) tr.
  Proof. induction tr as [|e tr IH]; [reflexivity|]. destruct e; cbn [b_core filter flat_map env_call app]; fold (@b_core O A Q tr); rewrite ?IH; auto. destruct score; auto. Qed.
  Lemma mask_core : forall tr m, fold_left (fun m (e : bev) => match e with BObserve _ _ dones resets => Some (map negb (map2 orb resets dones)) | _ => m end) (b_core tr) m =
    fold_left (fun m (e : bev) => match e with BObserve _ _ dones resets => Some (map negb (map2 orb resets dones)) | _ => m end) tr m.
  Proof. induction tr as [|e tr IH]; intros m; [reflexivity|]. destruct e; cbn [b_core filter fold_left]; fold (@b_core O A Q tr); auto. Qed.
  Lemma acts_core : forall tr m, fold_left (fun m (e : bev) => match e with BAct _ acts => acts | _ => m end) (b_core tr) m =
    fold_left (fun m (e : bev) => match e with BAct _ acts => acts | _ => m end) tr m.
  Proof. induction tr as [|e tr IH]; intros m; [reflexivity|]. destruct e; cbn [b_core filter fold_left]; fold (@b_core O A Q tr); auto. Qed.
  Lemma reset_core : forall tr, env_reset V v0 false eval_calls (b_core tr) = env_reset V v0 false eval_calls tr.
  Proof. intros tr. unfold env_reset, env_state, next_mask. rewrite calls_core, mask_core. reflexivity. Qed.
  Lemma step_core : forall tr, env_step_answer V v0 false eval_calls (b_core tr) = env_step_answer V v0 false eval_calls tr.
  Proof. intros tr. unfold env_step_answer, env_state, next_acts. rewrite calls_core, acts_core. reflexivity. Qed.

  Lemma core_answered : forall fuel out tr, train_agent_batch w c fuel [] = (out, tr) -> answered (b_core tr).
  Proof.
    intros fuel out tr H. assert (E : every (fun tr => answered (b_core tr)) (train_agent_batch w c fuel)).
    { apply every_event; intros; unfold b_core in *; rewrite filter_app; cbn [filter];
        try (rewrite app_nil_r; assumption); fold (@b_core O A Q tr0) in *.
      - constructor; [assumption|]. rewrite reset_core. assumption.
      - constructor; assumption.
      - constructor; [assumption|]. rewrite step_core. assumption.
      - constructor; assumption. }
    specialize (E [] an_nil). rewrite H in E. exact E.
  Qed.

  Lemma answered_inv : forall pre e l, answered (pre ++ e :: l) ->
    match e with
    | BReset _ o => env_reset V v0 false eval_calls pre = Ok o
    | BStep _ x => env_step_answer V v0 false eval_calls pre = Ok x
    | _ => True
    end.
  Proof.
    intros pre e l. revert pre e. induction l as [|y l IH] using rev_ind; intros pre e H.
    - inversion H as [E|tr m o H1 H2 E|tr a x H1 H2 E|tr o a H1 E|tr o r d f H1 E]; [destruct pre; discriminate| | | |];
        apply app_inj_tail in E; destruct E as [-> <-]; auto.
    - apply IH. rewrite app_comm_cons, app_assoc in H.
      inversion H as [E|tr m o H1 H2 E|tr a x H1 H2 E|tr o a H1 E|tr o r d f H1 E]; [destruct pre; discriminate| | | |];
        apply app_inj_tail in E; destruct E as [-> _]; exact H1.
  Qed.

  Lemma vrun_snoc : forall ops v o v1 l1, vrun V v ops = Ok (v1, l1) ->
    forall v2 x, vexec V v1 o = Ok (v2, x) -> vrun V v (ops ++ [o]) = Ok (v2, l1 ++ [x]).
  Proof.
    induction ops as [|p ops IH]; intros v o v1 l1 H v2 x Hx.
    - cbn in H. injection H as <- <-. cbn [app vrun]. rewrite Hx. reflexivity.
    - cbn [app vrun] in *. destruct (vexec V v p) as [[v3 y]|]; [|discriminate]. cbn [bind] in *.
      destruct (vrun V v3 ops) as [[v4 ys]|] eqn:E; [|discriminate]. cbn [bind] in *. injection H as <- <-.
      rewrite (IH _ o _ _ E _ _ Hx). reflexivity.
  Qed.

  Variable i : nat.
  Hypothesis Hi : i < N.

  (** The env has just made a step whose answers are [xs]. *)
  Definition stepped (pre : list bev) (xs : list (@TrainAgentBatch.answer O Q)) : Prop :=
    exists vp acts v ss, v_step V vp acts = Ok (v, ss) /\ env_state V v0 false eval_calls pre = Ok v /\ xs = map (@env_answer O X) ss.
  Definition winv (p : @bphase O A Q) (pre : list bev) (cur : option O) (ep : list (@env_step O A Q)) : Prop :=
    match p with
    | BPInit => ep = []
    | BPAct os lens _ => length os = N /\ length lens = N /\ cur = nth_error os i /\ chained ep /\ ends_at ep cur
    | BPStep acts lens _ => length lens = N /\ length acts = N /\ next_acts pre = acts /\ (exists s, cur = Some s) /\ chained ep /\ ends_at ep cur
    | BPObserve xs lens _ => length lens = N /\ length xs = N /\ stepped pre xs /\ cur = option_map a_obs (nth_error xs i) /\ chained ep /\ ends_at ep cur
    | BPSeen lens ends _ => length lens = N /\ exists xs mask e, length xs = N /\ stepped pre xs /\ cur = option_map a_obs (nth_error xs i) /\ chained ep /\ ends_at ep cur /\
        next_mask pre = Some mask /\ nth_error ends i = Some e /\ nth_error mask i = Some (negb e)
    end.

  Lemma w_state_skip : forall pre e, match e with BAct _ _ | BObserve _ _ _ _ => True | _ => False end ->
    env_state V v0 false eval_calls (pre ++ [e]) = env_state V v0 false eval_calls pre.
  Proof. intros pre e H. unfold env_state. rewrite flat_map_app. destruct e; try contradiction; cbn [flat_map env_call app]; rewrite app_nil_r; reflexivity. Qed.

  Lemma map2_nth : forall (a b : list bool) j x y, nth_error a j = Some x -> nth_error b j = Some y -> nth_error (map2 orb a b) j = Some (x || y).
  Proof. induction a as [|p a IH]; intros [|q b] [|j] x y H1 H2; try discriminate; cbn in *; [congruence | apply IH; assumption]. Qed.

  Lemma w_chained : forall l p q, bppath c p l q ->
    Forall (fun e => match e with BAct o a => length a = length o | _ => True end) l ->
    forall pre cur ep, answered (pre ++ l) -> winv p pre cur ep ->
    Forall (@chained O A Q) (benv_from i cur ep l).
  Proof.
    induction 1 as [p|p e p' l q Hs Hp IH]; intros Hf pre cur ep Ha Hv.
    - cbn. apply close_chained. destruct p; cbn [winv] in Hv.
      + subst ep. apply chained_nil.
      + tauto.
      + tauto.
      + tauto.
      + destruct Hv as (_ & xs & mask & e & Hv). tauto.
    - inversion Hf as [|? ? Hlen Hf']; subst. specialize (IH Hf').
      assert (Ha' : answered ((pre ++ [e]) ++ l)) by (rewrite <- app_assoc; exact Ha).
      assert (Hans := answered_inv _ _ _ Ha). destruct Hs; cbn [winv] in Hv.
      + subst ep. cbn [benv_from]. apply Forall_app. split; [constructor|]. apply (IH (pre ++ [BReset None obss])); [exact Ha' |].
        cbn. split.
        { unfold env_reset in Hans. destruct (env_state V v0 false eval_calls pre) as [v|]; [|discriminate]. cbn [bind] in Hans.
          destruct (v_reset V v (next_mask pre)) as [[v' o]|] eqn:E; [|discriminate]. cbn in Hans. injection Hans as <-. destruct Hsize as [_ Hz]. eapply Hz, E. }
        split; [apply repeat_length|]. split; [reflexivity|]. split; [apply chained_nil | apply ends_nil].
      + destruct Hv as (Ho & Hl & Hc & Hch & He). cbn [benv_from]. apply (IH (pre ++ [BAct obss acts])); [exact Ha' |].
        cbn. split; [exact Hl|]. split; [congruence|]. split; [unfold next_acts; rewrite fold_left_app; reflexivity|].
        split; [|auto]. subst cur. apply (@nth_in _ _ i N Ho Hi).
      + destruct Hv as (Hl & Hla & Hac & [s ->] & Hch & He).
        assert (Hx2 := Hans). unfold env_step_answer in Hx2. destruct (env_state V v0 false eval_calls pre) as [v|] eqn:Es; [|discriminate]. cbn [bind] in Hx2.
        destruct (v_step V v (next_acts pre)) as [[v' ss]|] eqn:Ev; [|discriminate]. cbn in Hx2. injection Hx2 as Hx2. subst xs.
        destruct (@nth_in _ _ i N H Hi) as [[[[o r] d] n] Ex]. destruct (@nth_in _ _ i N Hla Hi) as [a Ea].
        assert (W : stepped (pre ++ [BStep acts (map (@env_answer O X) ss)]) (map (@env_answer O X) ss)).
        { exists v, (next_acts pre), v', ss. split; [exact Ev|]. split; [|reflexivity].
          unfold env_state in *. rewrite flat_map_app. cbn [flat_map env_call app].
          destruct (vrun V v0 (flat_map (env_call false eval_calls) pre)) as [[v1 l1]|] eqn:Er; [|discriminate]. cbn in Es. injection Es as ->.
          assert (Ex1 : vexec V v (VStep acts) = Ok (v', VOStep ss)) by (cbn; rewrite <- Hac, Ev; reflexivity).
          rewrite (@vrun_snoc _ _ _ _ _ Er _ _ Ex1). reflexivity. }
        cbn [benv_from]. rewrite Ex, Ea.
        apply (IH (pre ++ [BStep acts (map (@env_answer O X) ss)])); [exact Ha' |].
        cbn [winv]. split; [rewrite map_length; exact Hl|]. split; [exact H|]. split; [exact W|]. split; [rewrite Ex; reflexivity|].
        split; [apply chained_snoc; assumption | apply ends_snoc].
      + destruct Hv as (Hl & Hlx & W & Hc & Hch & He). cbn [benv_from].
        destruct H as [H1 H2], H0 as [H3 H4]. destruct (@nth_in _ _ i N Hl Hi) as [len El]. destruct (@nth_in _ _ i N Hlx Hi) as [x Ex].
        destruct (H2 i _ _ Ex El) as [rf [Er Hr]]. destruct (H4 i _ _ Ex El) as [ef [Ee He']].
        assert (Eef : ef = rf || a_done x) by (destruct ef, (a_done x), rf; cbn; auto; exfalso; intuition congruence).
        apply (IH (pre ++ [BObserve (map a_obs xs) (map a_rew xs) (map a_done xs) resets])); [exact Ha' |].
        cbn [winv]. split; [exact Hl|]. exists xs, (map negb (map2 orb resets (map a_done xs))), ef.
        split; [exact Hlx|]. split.
        { destruct W as (vp & acts & v & ss & E1 & E2 & E3). exists vp, acts, v, ss. split; [exact E1|]. split; [|exact E3]. rewrite w_state_skip; [exact E2 | exact I]. }
        split; [exact Hc|]. split; [exact Hch|]. split; [exact He|]. split; [unfold next_mask; rewrite fold_left_app; reflexivity|].
        split; [exact Ee|]. rewrite nth_error_map. rewrite (@map2_nth resets (map a_done xs) i rf (a_done x)); [|exact Er | rewrite nth_error_map, Ex; reflexivity].
        cbn. rewrite Eef. reflexivity.
      + destruct Hv as (Hl & xs & mask & e & Hlx & (vp & acts & v & ss & E1 & E2 & E3) & Hc & Hch & He & Hm & Ee & Em).
        destruct H0 as [H1 H2]. assert (Hr := Hans). unfold env_reset in Hr. rewrite E2 in Hr. cbn [bind] in Hr. rewrite Hm in Hr.
        destruct (v_reset V v (Some mask)) as [[v' o]|] eqn:Ev; [|discriminate]. cbn in Hr. injection Hr as ->.
        assert (Lo : length obss = N) by (destruct Hsize as [_ Hz]; eapply Hz, Ev).
        cbn [benv_from]. rewrite nth_error_map, Ee. cbn [option_map]. destruct e; cbn [negb].
        * apply Forall_app. split; [apply close_chained, Hch|]. apply (IH (pre ++ [BReset (Some (map negb ends)) obss])); [exact Ha'|].
          cbn [winv]. split; [exact Lo|]. split; [exact H1|]. split; [reflexivity|]. split; [apply chained_nil | apply ends_nil].
        * assert (K := Hkeeps _ _ _ i E1 Ev Em).
          apply (IH (pre ++ [BReset (Some (map negb ends)) obss])); [exact Ha'|].
          cbn [winv]. split; [exact Lo|]. split; [exact H1|]. split; [reflexivity|]. split; [exact Hch|].
          rewrite K. subst cur xs. rewrite nth_error_map in He. destruct (nth_error ss i); exact He.
  Qed.

  Lemma world_chained : forall fuel out tr, train_agent_batch w c fuel [] = (out, tr) ->
    (forall o a, In (BAct o a) tr -> length a = length o) ->
    Forall (@chained O A Q) (benv_episodes i tr).
  Proof.
    intros fuel out tr H HA.
    assert (Hst : forall tr xs, bw_step w tr = Ok xs -> length xs = N).
    { intros tr0 xs Hx. cbn in Hx. unfold env_step_answer in Hx. destruct (env_state V v0 false eval_calls tr0) as [v|]; [|discriminate]. cbn [bind] in Hx.
      destruct (v_step V v (next_acts tr0)) as [[v' ss]|] eqn:E; [|discriminate]. cbn in Hx. injection Hx as <-. rewrite map_length. destruct Hsize as [Hz _]. eapply Hz, E. }
    pose proof (@train_batch_ok _ _ _ w c Hst HN fuel) as C. rewrite H in C. destruct C as [[q Hp] _].
    unfold benv_episodes. rewrite <- (@benv_core O A Q i).
    apply (@w_chained _ _ _ Hp) with (pre := []).
    - apply Forall_forall. intros e He. apply filter_In in He. destruct He as [He _]. destruct e; auto.
    - apply (core_answered _ H).
    - reflexivity.
  Qed.
End P.

(** SerialVectorEnv is such an env. *)
Section Serial.
  Context {A O X : Type}.
  Variable E : env A O X.
  Notation seed := (fun (e : est E) (_ : option Z) => Ok (e, tt)).

  Lemma steps_length : forall es acts es' ss, ser_steps E es acts = Ok (es', ss) -> length es' = length es /\ length ss = min (length es) (length acts).
  Proof.
    induction es as [|e es IH]; intros acts es' ss H; [cbn in H; injection H as <- <-; auto|].
    destruct acts as [|a acts]; [cbn in H; injection H as <- <-; auto|]. cbn [ser_steps] in H.
    destruct (estep E e a) as [[e' s]|]; [|discriminate]. cbn [bind] in H. destruct (ser_steps E es acts) as [[es1 ss1]|] eqn:E1; [|discriminate].
    cbn [bind] in H. injection H as <- <-. destruct (IH _ _ _ E1) as [L1 L2]. cbn. lia.
  Qed.
  Lemma resets_length : forall mask es last es' obs, ser_resets E mask es last = Ok (es', obs) ->
    length es' = length es /\ length obs = min (length mask) (min (length es) (length last)).
  Proof.
    induction mask as [|m mask IH]; intros es last es' obs H; [cbn in H; injection H as <- <-; auto|].
    destruct es as [|e es]; [cbn in H; injection H as <- <-; cbn; lia|]. destruct last as [|o last]; [cbn in H; injection H as <- <-; cbn; lia|].
    cbn [ser_resets] in H. destruct (if m then Ok (e, o) else let! (e0, ob) := ereset E e in Ok (e0, Some ob)) as [[e' o']|]; [|discriminate].
    cbn [bind] in H. destruct (ser_resets E mask es last) as [[es1 os1]|] eqn:E1; [|discriminate]. cbn [bind] in H. injection H as <- <-.
    destruct (IH _ _ _ _ E1) as [L1 L2]. cbn. lia.
  Qed.
  Lemma resets_kept : forall mask es last es' obs j, length last <= length es -> ser_resets E mask es last = Ok (es', obs) ->
    nth_error mask j = Some true -> nth_error obs j = nth_error last j.
  Proof.
    induction mask as [|m mask IH]; intros es last es' obs j Hl H Hm; [destruct j; discriminate|].
    destruct es as [|e es]; [cbn in H; injection H as <- <-; destruct last; [destruct j; reflexivity | cbn in Hl; lia]|].
    destruct last as [|o last]; [cbn in H; injection H as <- <-; destruct j; reflexivity|].
    cbn [ser_resets] in H. destruct (if m then Ok (e, o) else let! (e0, ob) := ereset E e in Ok (e0, Some ob)) as [[e' o']|] eqn:E0; [|discriminate].
    cbn [bind] in H. destruct (ser_resets E mask es last) as [[es1 os1]|] eqn:E1; [|discriminate]. cbn [bind] in H. injection H as <- <-.
    destruct j as [|j]; cbn [nth_error] in *.
    - injection Hm as ->. injection E0 as <- <-. reflexivity.
    - apply (IH es last es1 os1); auto. cbn in Hl. lia.
  Qed.

  Variable n : nat.
  Lemma has_n_ok : forall s k, negb (@has_n A O X E n s k) = false -> length (fst s) = n /\ length (snd s) = n /\ k = n.
  Proof.
    intros s k H. apply negb_false_iff in H. unfold has_n in H. apply andb_true_iff in H. destruct H as [H H3]. apply andb_true_iff in H. destruct H as [H1 H2].
    apply Nat.eqb_eq in H1, H2, H3. auto.
  Qed.
  Lemma serial_step_ok : forall s acts s' ss, @serial_step A O X E n s acts = Ok (s', ss) ->
    length ss = n /\ length (fst s') = n /\ snd s' = map (@so_obs (option O) X) ss.
  Proof.
    intros s acts s' ss H. unfold serial_step in H. destruct (negb (@has_n A O X E n s (length acts))) eqn:Hn; [discriminate|].
    apply has_n_ok in Hn. destruct s as [es last]. cbn [fst snd] in Hn. destruct Hn as (L1 & L2 & L3). cbn [ser_call] in H.
    destruct (ser_steps E es acts) as [[es1 ss1]|] eqn:E1; [|discriminate]. cbn [bind] in H. destruct (steps_length _ _ E1) as [M1 M2].
    destruct ss1 as [|x ss1]; [discriminate|]. cbn [bind] in H. injection H as <- <-. cbn [fst snd length map so_obs] in *.
    rewrite !map_length, map_map. cbn [so_obs]. split; [lia|]. split; [lia | reflexivity].
  Qed.
  Lemma serial_sized : sized (serial_venv E n) n.
  Proof.
    split; [intros v acts v' ss H; apply (serial_step_ok _ _ H)|].
    intros v m v' obs H. cbn in H. unfold serial_reset in H. destruct (negb (@has_n A O X E n v _)) eqn:Hn; [discriminate|].
    apply has_n_ok in Hn. destruct v as [es last]. cbn [fst snd] in Hn. destruct Hn as (L1 & L2 & L3). cbn [ser_call] in H.
    destruct (ser_resets E _ es last) as [[es1 os]|] eqn:E1; [|discriminate]. cbn [bind] in H. injection H as <- <-.
    destruct (resets_length _ _ _ E1) as [M1 M2]. destruct m as [m|]; [|rewrite repeat_length in M2]; lia.
  Qed.
  Lemma serial_keeps : keeps (serial_venv E n).
  Proof.
    intros v acts v1 ss mask v2 obs j H1 H2 Hm. destruct (serial_step_ok _ _ H1) as (L1 & L2 & L3). cbn in H2. unfold serial_reset in H2.
    destruct (negb (@has_n A O X E n v1 (length mask))) eqn:Hn; [discriminate|]. apply has_n_ok in Hn. destruct v1 as [es last]. cbn [fst snd] in *. destruct Hn as (K1 & K2 & K3).
    cbn [ser_call] in H2. destruct (ser_resets E mask es last) as [[es1 os]|] eqn:E1; [|discriminate]. cbn [bind] in H2. injection H2 as <- <-.
    rewrite <- nth_error_map, <- L3. eapply resets_kept; [|exact E1 | exact Hm]. lia.
  Qed.
End Serial.
