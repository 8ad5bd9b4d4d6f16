From Coq Require Import Reals List Bool Arith Lia Lra.
From Verif Require Import Base.PyBase Model.Monitor Spec.SumSpec Spec.MonitorSpec.
Import ListNotations.
Local Open Scope R_scope.

Fixpoint bad_after (bad : bool) (l : list event) : bool :=
  match l with [] => bad | Began :: l => bad_after false l | Failed :: l => bad_after true l | Got _ _ :: l => bad_after bad l end.
Lemma rr_app : forall l b l2, resets_repeated b (l ++ l2) = resets_repeated b l && resets_repeated (bad_after b l) l2.
Proof. induction l as [|e l IH]; intros b l2; cbn; [reflexivity|]. destruct e; rewrite ?IH; rewrite ?andb_assoc; reflexivity. Qed.
Lemma may_app : forall l b l2, may_step b (l ++ l2) = may_step (may_step b l) l2.
Proof. induction l as [|e l IH]; intros b l2; cbn; [reflexivity|]. destruct e; apply IH. Qed.
Lemma eps_ne : forall l c, episodes_from c l <> [].
Proof. induction l as [|e l IH]; intros c; cbn; [discriminate|]. destruct e; [discriminate|apply IH|apply IH]. Qed.
Lemma eps_app : forall l c0 past c, episodes_from c0 l = past ++ [c] -> forall l2, episodes_from c0 (l ++ l2) = past ++ episodes_from c l2.
Proof.
  induction l as [|e l IH]; intros c0 past c H l2; cbn in *.
  - destruct past as [|p past]; cbn in H; [injection H as ->; reflexivity|]. destruct past; discriminate.
  - destruct e.
    + destruct past as [|p past]; cbn in H; injection H as H1 H2; [destruct (eps_ne _ _ H2)|]. subst p. cbn. f_equal. apply IH; assumption.
    + apply IH; assumption.
    + apply IH; assumption.
Qed.
Lemma eps_split : forall l c0, exists past c, episodes_from c0 l = past ++ [c].
Proof.
  induction l as [|e l IH]; intros c0; cbn.
  - exists [], c0; reflexivity.
  - destruct e; try apply IH. destruct (IH []) as (p & c & E). exists (c0 :: p), c. rewrite E. reflexivity.
Qed.
Lemma steps_app : forall l l2, steps_made (l ++ l2) = (steps_made l + steps_made l2)%nat.
Proof. intros. unfold steps_made. rewrite filter_app, app_length. reflexivity. Qed.
Lemma total_snoc : forall l r, total_of (fun r => r) (l ++ [r]) = total_of (fun r => r) l + r.
Proof. unfold total_of. induction l as [|x l IH]; intros r; cbn; [lra|]. rewrite IH. lra. Qed.
Lemma summary_snoc : forall l r, summary (l ++ [r]) = (S (length l), total_of (fun r => r) l + r).
Proof. intros. unfold summary. rewrite app_length, total_snoc, Nat.add_1_r. reflexivity. Qed.
Lemma ne_snoc : forall {T} (l : list T) x, non_empty (l ++ [x]) = true.
Proof. destruct l; reflexivity. Qed.

Notation sums l := (map summary (filter non_empty l)).
Definition core (s : recorder) (l : list event) (past : list (list R)) (c : list R) : Prop :=
  (cur s = None /\ past = [] /\ c = [] /\ saved s = true /\ records s = [] /\ last_done s <> Some true /\ may_step false l = false /\ running l = false) \/
  (cur s = Some (summary c) /\
   ((last_done s = Some false /\ saved s = false /\ non_empty c = true /\ records s = sums past /\ running l = true /\ may_step false l = true) \/
    (last_done s = Some false /\ saved s = true /\ c = [] /\ records s = sums past /\ running l = false /\ may_step false l = true) \/
    (last_done s = Some true /\ saved s = true /\ non_empty c = true /\ records s = sums (past ++ [c]) /\ running l = false /\ may_step false l = false) \/
    (last_done s = Some false /\ saved s = true /\ non_empty c = true /\ records s = sums (past ++ [c]) /\ running l = false /\ bad_after false l = true))).
Definition opened (s : recorder) (l : list event) : Prop :=
  closed s = false /\ file s = None /\ total_steps s = steps_made l /\ exists past c, episodes_from [] l = past ++ [c] /\ core s l past c.
Definition shut (s : recorder) (l : list event) : Prop :=
  closed s = true /\ saved s = true /\ file s = Some (records s) /\ total_steps s = steps_made l /\ records s = map summary (all_episodes l).

Lemma sums_snoc : forall past c, non_empty c = true -> sums (past ++ [c]) = sums past ++ [summary c].
Proof. intros. rewrite filter_app, map_app. cbn. rewrite H. reflexivity. Qed.
Lemma sums_nil : forall past, sums (past ++ [[]]) = sums past.
Proof. intros. rewrite filter_app, map_app. cbn. apply app_nil_r. Qed.
Lemma run_last : forall l e, running (l ++ [e]) = match e with Got _ false => true | _ => false end.
Proof. intros. unfold running. rewrite last_last. reflexivity. Qed.
Lemma bad_app : forall l b l2, bad_after b (l ++ l2) = bad_after (bad_after b l) l2.
Proof. induction l as [|e l IH]; intros; cbn; [reflexivity|]. destruct e; apply IH. Qed.

Lemma opened_fresh : opened fresh [].
Proof. split; [reflexivity|]. split; [reflexivity|]. split; [reflexivity|]. exists [], []. split; [reflexivity|]. left. cbn. repeat split; discriminate. Qed.

Lemma opened_close : forall s l, opened s l -> shut (close s) l.
Proof.
  intros s l (Hc & Hf & Ht & past & c & E & HC). unfold close, save_complete, shut, all_episodes. rewrite E.
  destruct HC as [(Hcur & -> & -> & Hs & Hr & _) | (Hcur & [(_ & Hs & Hn & Hr & _) | [(_ & Hs & -> & Hr & _) | [(_ & Hs & Hn & Hr & _) | (_ & Hs & Hn & Hr & _)]]])];
    rewrite Hs; cbn; rewrite Hc; cbn; rewrite ?Hs, ?Hcur, ?Hr; repeat (split; [first [reflexivity|assumption]|]).
  - reflexivity.
  - rewrite sums_snoc by assumption. reflexivity.
  - rewrite sums_nil. reflexivity.
  - reflexivity.
  - reflexivity.
Qed.

Lemma opened_step : forall s l c s' o, opened s l -> c <> CClose -> monitor_call s c = (s', o) ->
  resets_repeated false (l ++ event_of c o) = true -> opened s' (l ++ event_of c o).
Proof.
  intros s l c s' o (Hc & Hf & Ht & past & ep & E & HC) NC H RR.
  destruct c as [ok|out|]; [| |congruence]; clear NC.
  - unfold monitor_call, before_reset in H. rewrite Hc in H. cbn [negb] in H.
    assert (SV : forall t, t = (match last_done s, cur s with Some false, Some (S _, _) => save_complete s | _, _ => s end) ->
       cur t = cur s /\ closed t = false /\ file t = None /\ total_steps t = total_steps s /\ saved t = true /\ records t = sums (past ++ [ep])).
    { intros t ->.
      destruct HC as [(Hcur & -> & -> & Hs & Hr & _) | (Hcur & [(Hd & Hs & Hn & Hr & _) | [(Hd & Hs & -> & Hr & _) | [(Hd & Hs & Hn & Hr & _) | (Hd & Hs & Hn & Hr & _)]]])]; rewrite Hcur.
      - destruct (last_done s) as [[]|]; cbn; repeat split; assumption.
      - rewrite Hd. destruct ep as [|r ep]; [discriminate|]. change (match Some (summary (r :: ep)) with Some (S _, _) => save_complete s | _ => s end) with (save_complete s).
        unfold save_complete. rewrite Hs. cbn [cur closed file total_steps saved records]. rewrite Hcur. repeat split; try assumption.
        rewrite (sums_snoc past (r :: ep) Hn), Hr. reflexivity.
      - rewrite Hd. cbn. repeat split; try assumption. rewrite sums_nil. assumption.
      - rewrite Hd. repeat split; assumption.
      - rewrite Hd. destruct ep as [|r ep]; [discriminate|]. change (match Some (summary (r :: ep)) with Some (S _, _) => save_complete s | _ => s end) with (save_complete s).
        unfold save_complete. rewrite Hs. repeat split; assumption. }
    set (t := match last_done s, cur s with Some false, Some (S _, _) => save_complete s | _, _ => s end) in *.
    destruct (SV t eq_refl) as (T1 & T2 & T3 & T4 & T5 & T6). clear SV.
    destruct ok; injection H as <- <-; cbn [event_of] in *.
    + unfold opened, after_reset. cbn. rewrite T2, T3, T4, T5, T6, Ht, steps_app. cbn. rewrite Nat.add_0_r. repeat (split; [reflexivity|]).
      exists (past ++ [ep]), []. split; [rewrite (eps_app _ _ _ _ E); cbn; rewrite <- app_assoc; reflexivity|].
      right. cbn. split; [reflexivity|]. right; left. repeat (split; [reflexivity|]). rewrite run_last, may_app. split; reflexivity.
    + unfold opened. cbn. rewrite T2, T3, T4, Ht, steps_app. cbn. rewrite Nat.add_0_r. repeat (split; [reflexivity|]).
      exists past, ep. split; [rewrite (eps_app _ _ _ _ E); reflexivity|]. unfold core. cbn. rewrite T1, T5, T6, run_last, may_app, bad_app. cbn.
      destruct HC as [(Hcur & -> & -> & Hs & Hr & Hd & Hm & _) | (Hcur & [(Hd & Hs & Hn & Hr & _) | [(Hd & Hs & -> & Hr & _ & Hm) | [(Hd & Hs & Hn & Hr & _) | (Hd & Hs & Hn & Hr & _)]]])].
      * left. repeat (split; [first [assumption|reflexivity|discriminate]|]). reflexivity.
      * right. split; [assumption|]. right; right; right. repeat (split; [first [assumption|reflexivity]|]). reflexivity.
      * right. split; [assumption|]. right; left. rewrite sums_nil. repeat (split; [first [assumption|reflexivity]|]). assumption.
      * right. split; [assumption|]. right; right; right. repeat (split; [first [assumption|reflexivity]|]). reflexivity.
      * right. split; [assumption|]. right; right; right. repeat (split; [first [assumption|reflexivity]|]). reflexivity.
  - assert (KEEP : forall e, o = Raise e -> s' = s -> opened s' (l ++ event_of (CStep out) o)).
    { intros e -> ->. replace (event_of (CStep out) (Raise e)) with (@nil event) by (destruct out as [[]|]; reflexivity). rewrite app_nil_r.
      split; [assumption|]. split; [assumption|]. split; [assumption|]. exists past, ep. split; assumption. }
    unfold monitor_call, before_step in H. rewrite Hc in H. cbn [negb] in H.
    destruct out as [[r d]|].
    2:{ destruct (last_done s) as [[]|], (cur s) as [p|]; injection H as <- <-; eapply KEEP; reflexivity. }
    destruct HC as [(Hcur & -> & -> & Hs & Hr & Hd & Hm & _) | (Hcur & HC)].
    { rewrite Hcur in H. destruct (last_done s) as [[]|]; injection H as <- <-; eapply KEEP; reflexivity. }
    rewrite Hcur in H.
    assert (GO : forall b, (b = true -> saved s = true) -> records s = sums past -> last_done s = Some false -> opened (after_step s r d) (l ++ [Got r d])).
    { intros _ _ Hr Hd. unfold opened, after_step. rewrite Hcur. unfold summary at 1.
      destruct d; unfold save_complete; cbn; rewrite Hc, Hf, Ht, steps_app; cbn; rewrite Nat.add_1_r; repeat (split; [reflexivity|]);
        (exists past, (ep ++ [r]); split; [rewrite (eps_app _ _ _ _ E); reflexivity|]; right; cbn; rewrite summary_snoc; split; [reflexivity|]; rewrite run_last, may_app).
      - right; right; left. cbn. rewrite (sums_snoc past (ep ++ [r]) (ne_snoc ep r)), summary_snoc, ne_snoc, Hr. repeat split.
      - left. cbn. rewrite ne_snoc. repeat split. assumption. }
    destruct HC as [(Hd & Hs & Hn & Hr & _ & Hm) | [(Hd & Hs & -> & Hr & _ & Hm) | [(Hd & Hs & Hn & Hr & _) | (Hd & Hs & Hn & Hr & _ & Hb)]]]; rewrite Hd in H; injection H as <- <-.
    + cbn. apply (GO false); [discriminate|assumption|assumption].
    + cbn. apply (GO true); [intros; assumption|assumption|assumption].
    + eapply KEEP; reflexivity.
    + exfalso. cbn in RR. rewrite rr_app, Hb in RR. cbn in RR. rewrite andb_false_r in RR. discriminate.
Qed.

Lemma shut_step : forall s l c s' o, shut s l -> monitor_call s c = (s', o) -> s' = s /\ event_of c o = [] /\ (c <> CClose -> o = Raise AssertionError).
Proof.
  intros s l c s' o (Hc & Hs & _) H. destruct c as [ok|out|]; cbn in H; unfold before_reset, before_step in H; rewrite ?Hc in H; cbn in H.
  - injection H as <- <-. destruct ok; cbn; auto.
  - injection H as <- <-. destruct out as [[]|]; cbn; auto.
  - injection H as <- <-. unfold close, save_complete. rewrite Hs, Hc. cbn. repeat split. congruence.
Qed.
Lemma shut_run : forall cs s l s' os, shut s l -> monitor_run s cs = (s', os) -> s' = s /\ events cs os = [] /\ Forall2 (fun c o => c <> CClose -> o = Raise AssertionError) cs os.
Proof.
  induction cs as [|c cs IH]; intros s l s' os HS H; cbn in H.
  - injection H as <- <-. repeat split; constructor.
  - destruct (monitor_call s c) as [s1 o] eqn:E1. destruct (monitor_run s1 cs) as [s2 os2] eqn:E2. injection H as <- <-.
    destruct (shut_step _ _ _ _ _ HS E1) as (-> & Ev & Ho). destruct (IH _ _ _ _ HS E2) as (-> & Ev2 & Hos). cbn. rewrite Ev, Ev2. repeat split. constructor; assumption.
Qed.
Lemma opened_run : forall cs s l s' os, opened s l -> ~ In CClose cs -> monitor_run s cs = (s', os) ->
  resets_repeated false (l ++ events cs os) = true -> opened s' (l ++ events cs os).
Proof.
  induction cs as [|c cs IH]; intros s l s' os HO NI H RR; cbn in H.
  - injection H as <- <-. cbn. rewrite app_nil_r. assumption.
  - destruct (monitor_call s c) as [s1 o] eqn:E1. destruct (monitor_run s1 cs) as [s2 os2] eqn:E2. injection H as <- <-.
    cbn in *. rewrite app_assoc in *. apply (IH s1); [|tauto|assumption|assumption].
    apply (opened_step s l c s1 o HO); [intros ->; tauto|assumption|]. rewrite rr_app in RR. apply andb_prop in RR. tauto.
Qed.
Lemma run_app : forall cs1 cs2 s, monitor_run s (cs1 ++ cs2) =
  let '(s1, o1) := monitor_run s cs1 in let '(s2, o2) := monitor_run s1 cs2 in (s2, o1 ++ o2).
Proof.
  induction cs1 as [|c cs1 IH]; intros; cbn.
  - destruct (monitor_run s cs2). reflexivity.
  - destruct (monitor_call s c). rewrite IH. destruct (monitor_run r cs1). destruct (monitor_run r1 cs2). reflexivity.
Qed.
Lemma run_len : forall cs s s' os, monitor_run s cs = (s', os) -> length os = length cs.
Proof. induction cs; intros s s' os H; cbn in H; [injection H as <- <-; reflexivity|]. destruct (monitor_call s a). destruct (monitor_run r cs) eqn:E. injection H as <- <-. cbn. f_equal. eapply IHcs; eassumption. Qed.
Lemma events_app : forall c1 o1 c2 o2, length o1 = length c1 -> events (c1 ++ c2) (o1 ++ o2) = events c1 o1 ++ events c2 o2.
Proof. induction c1; intros [|o o1] c2 o2 H; cbn in *; try discriminate; [reflexivity|]. rewrite IHc1 by lia. apply app_assoc. Qed.

Lemma split_close : forall cs, In CClose cs -> exists c1 c2, cs = c1 ++ CClose :: c2 /\ ~ In CClose c1.
Proof.
  induction cs as [|c cs IH]; intros H; [destruct H|]. destruct c as [b|out|].
  - destruct IH as (c1 & c2 & -> & N); [destruct H; [discriminate|assumption]|]. exists (CReset b :: c1), c2. split; [reflexivity|]. intros [|]; [discriminate|tauto].
  - destruct IH as (c1 & c2 & -> & N); [destruct H; [discriminate|assumption]|]. exists (CStep out :: c1), c2. split; [reflexivity|]. intros [|]; [discriminate|tauto].
  - exists [], cs. split; [reflexivity|intros []].
Qed.
Lemma eps_count : forall l c, fold_right plus 0%nat (map (@length R) (filter non_empty (episodes_from c l))) = (length c + steps_made l)%nat.
Proof.
  induction l as [|e l IH]; intros c; cbn [episodes_from].
  - destruct c; cbn; lia.
  - change (e :: l) with ([e] ++ l). rewrite steps_app. destruct e; cbn [steps_made filter length Nat.add].
    + cbn [filter]. destruct c; cbn; rewrite IH; cbn; lia.
    + apply IH.
    + rewrite IH, app_length. unfold steps_made. cbn. lia.
Qed.

Lemma closed_ok : forall cs s os, monitor_run fresh cs = (s, os) -> In CClose cs -> resets_repeated false (events cs os) = true ->
  records s = map summary (all_episodes (events cs os)) /\ file s = Some (records s) /\ total_steps s = steps_made (events cs os) /\ fold_right plus 0%nat (map fst (records s)) = total_steps s.
Proof.
  intros cs s os H HI RR. destruct (split_close cs HI) as (c1 & c2 & -> & N).
  rewrite run_app in H. destruct (monitor_run fresh c1) as [s1 o1] eqn:E1. cbn [monitor_run monitor_call] in H.
  destruct (monitor_run (close s1) c2) as [s2 o2] eqn:E2. injection H as <- <-.
  rewrite events_app in * by (eapply run_len; eassumption). cbn [events event_of app] in *.
  assert (O1 : opened s1 (events c1 o1)).
  { apply (opened_run c1 fresh [] s1 o1 opened_fresh N E1). rewrite rr_app in RR. apply andb_prop in RR. tauto. }
  pose proof (opened_close _ _ O1) as HS. destruct (shut_run _ _ _ _ _ HS E2) as (-> & Ev & _). rewrite Ev, app_nil_r.
  destruct HS as (_ & _ & Hf & Ht & Hr). repeat split; try assumption. rewrite Ht, Hr, map_map. unfold summary, all_episodes. cbn [fst].
  exact (eps_count (events c1 o1) []).
Qed.
Lemma open_ok : forall cs s os, monitor_run fresh cs = (s, os) -> ~ In CClose cs -> resets_repeated false (events cs os) = true ->
  records s = map summary (finished_episodes (events cs os)) /\ file s = None /\ total_steps s = steps_made (events cs os).
Proof.
  intros cs s os H N RR. destruct (opened_run cs fresh [] s os opened_fresh N H RR) as (_ & Hf & Ht & past & c & E & HC). cbn [app] in *.
  split; [|split; assumption]. unfold finished_episodes, all_episodes. rewrite E.
  destruct HC as [(_ & -> & -> & _ & Hr & _ & _ & Hrun) | (_ & [(_ & _ & Hn & Hr & Hrun & _) | [(_ & _ & -> & Hr & Hrun & _) | [(_ & _ & Hn & Hr & Hrun & _) | (_ & _ & Hn & Hr & Hrun & _)]]])]; rewrite Hrun, Hr.
  - reflexivity.
  - rewrite filter_app. cbn. rewrite Hn, removelast_last. reflexivity.
  - symmetry. apply sums_nil.
  - reflexivity.
  - reflexivity.
Qed.
Lemma step_ok : forall cs s os r d, monitor_run fresh cs = (s, os) -> ~ In CClose cs -> resets_repeated false (events cs os ++ [Got r d]) = true ->
  snd (monitor_call s (CStep (Some (r, d)))) = if may_step false (events cs os) then Ok tt else Raise RuntimeError.
Proof.
  intros cs s os r d H N RR. assert (R1 := RR). rewrite rr_app in R1. apply andb_prop in R1. destruct R1 as [R1 R2]. cbn in R2. rewrite andb_true_r in R2.
  destruct (opened_run cs fresh [] s os opened_fresh N H R1) as (Hc & _ & _ & past & c & E & HC). cbn [app] in *.
  unfold monitor_call, before_step. rewrite Hc. cbn [negb].
  destruct HC as [(Hcur & -> & -> & _ & Hr & Hd & Hm & Hrun) | (Hcur & [(Hd & _ & Hn & Hr & Hrun & Hm) | [(Hd & _ & -> & Hr & Hrun & Hm) | [(Hd & _ & Hn & Hr & Hrun & Hm) | (Hd & _ & Hn & Hr & Hrun & Hb)]]])].
  - rewrite Hcur, Hm. destruct (last_done s) as [[]|]; reflexivity.
  - rewrite Hcur, Hm, Hd. reflexivity.
  - rewrite Hcur, Hm, Hd. reflexivity.
  - rewrite Hcur, Hm, Hd. reflexivity.
  - rewrite Hb in R2. discriminate.
Qed.
Lemma reset_never_refused : forall cs s os ok, monitor_run fresh cs = (s, os) -> ~ In CClose cs -> snd (monitor_call s (CReset ok)) = if ok then Ok tt else Raise ValueError.
Proof.
  intros cs s os ok H N. assert (C : closed s = false).
  { revert s os H N. assert (G : forall cs s0 s os, closed s0 = false -> monitor_run s0 cs = (s, os) -> ~ In CClose cs -> closed s = false).
    { clear. induction cs as [|c cs IH]; intros s0 s os C H N; cbn in H; [injection H as <- <-; assumption|].
      destruct (monitor_call s0 c) as [s1 o] eqn:E1. destruct (monitor_run s1 cs) as [s2 os2] eqn:E2. injection H as <- <-.
      apply (IH s1 s2 os2); [|assumption|cbn in N; tauto].
      destruct c as [b|out|]; cbn in E1; [| |exfalso; apply N; left; reflexivity].
      - unfold before_reset in E1. rewrite C in E1. cbn in E1.
        assert (C2 : closed (match last_done s0, cur s0 with Some false, Some (S _, _) => save_complete s0 | _, _ => s0 end) = false).
        { destruct (last_done s0) as [[]|], (cur s0) as [[[|n] r]|]; try assumption. unfold save_complete. destruct (saved s0); assumption. }
        destruct b; injection E1 as <- <-; exact C2.
      - unfold before_step in E1. rewrite C in E1. cbn in E1.
        destruct (match last_done s0 with Some true => _ | _ => _ end) eqn:B; [|injection E1 as <- <-; assumption].
        destruct out as [[r d]|]; injection E1 as <- <-; [|assumption]. unfold after_step. destruct d; unfold save_complete; cbn; assumption. }
    intros s os H N. exact (G cs fresh s os eq_refl H N). }
  unfold monitor_call, before_reset. rewrite C. cbn. destruct ok; reflexivity.
Qed.
Lemma after_close_ok : forall cs1 cs2 s os, monitor_run fresh (cs1 ++ CClose :: cs2) = (s, os) ->
  ~ In CClose cs1 -> resets_repeated false (events (cs1 ++ CClose :: cs2) os) = true ->
  exists o1 o2, os = o1 ++ Ok tt :: o2 /\ length o1 = length cs1 /\ monitor_run fresh (cs1 ++ [CClose]) = (s, o1 ++ [Ok tt]) /\ Forall2 (fun c o => c <> CClose -> o = Raise AssertionError) cs2 o2.
Proof.
  intros c1 c2 s os H N RR. rewrite run_app in H. destruct (monitor_run fresh c1) as [s1 o1] eqn:E1. cbn [monitor_run monitor_call] in H.
  destruct (monitor_run (close s1) c2) as [s2 o2] eqn:E2. injection H as <- <-.
  rewrite events_app in RR by (eapply run_len; eassumption). cbn [events event_of app] in RR.
  assert (O1 : opened s1 (events c1 o1)).
  { apply (opened_run c1 fresh [] s1 o1 opened_fresh N E1). rewrite rr_app in RR. apply andb_prop in RR. tauto. }
  pose proof (opened_close _ _ O1) as HS. destruct (shut_run _ _ _ _ _ HS E2) as (-> & Ev & F).
  exists o1, o2. repeat split; [eapply run_len; eassumption| |assumption]. rewrite run_app, E1. reflexivity.
Qed.
Lemma idle_types : forall n, let cs := repeat (CReset true) n ++ [CClose] in exists s os, monitor_run fresh cs = (s, os) /\ types s = n /\ records s = [].
Proof.
  assert (G : forall n k c, c = None \/ c = Some (0%nat, 0) -> forall d, d = None \/ d = Some false -> exists s os, monitor_run (mk_recorder c d false true [] k 0 None) (repeat (CReset true) n ++ [CClose]) = (s, os) /\ types s = (k + n)%nat /\ records s = []).
  { induction n as [|n IH]; intros k c Hc d Hd.
    - cbn. eexists _, _. split; [reflexivity|]. cbn. split; [lia|reflexivity].
    - destruct (IH (S k) (Some (0%nat, 0)) (or_intror eq_refl) (Some false) (or_intror eq_refl)) as (s & os & E & Ht & Hr).
      cbn [repeat app monitor_run monitor_call]. unfold before_reset. cbn [closed negb last_done cur].
      replace (match d with Some false => match c with Some (S _, _) => save_complete (mk_recorder c d false true [] k 0 None) | _ => mk_recorder c d false true [] k 0 None end | _ => mk_recorder c d false true [] k 0 None end)
        with (mk_recorder c d false true [] k 0 None) by (destruct Hc as [-> | ->], Hd as [-> | ->]; reflexivity).
      unfold after_reset. cbn [cur last_done closed saved records types total_steps file]. rewrite E. eexists _, _. split; [reflexivity|]. split; [lia|assumption]. }
  intros n cs. destruct (G n 0%nat None (or_introl eq_refl) None (or_introl eq_refl)) as (s & os & E & Ht & Hr). exists s, os. repeat split; assumption.
Qed.
