(** Vectorised training end to end: Model/TrainAgentBatch.v with
    Model/OffPolicyAgent.v. *)
From Coq Require Import QArith.
From Verif Require Import Base.PyBase Base.Effects Model.TrainAgent Model.TrainAgentBatch Model.RandomAccessQueue Model.ReplayBuffer
  Model.OffPolicyAgent Spec.BoundedList Spec.WindowSpec Spec.TransitionSpec Spec.TrainBatchProtocol Spec.EndToEndSpec
  Proofs.TrainBatchProofs Proofs.OffPolicyProofs.
Set Implicit Arguments.
Local Open Scope nat_scope.

(** What every trace of a computation satisfies. *)
Section Every.
  Context {Ev : Type}.
  Variable J : list Ev -> Prop.
  Definition every {A} (m : eff Ev A) : Prop := forall h, J h -> J (snd (m h)).
  Lemma every_ret : forall A (a : A), every (ret a).
  Proof. intros A a h H. exact H. Qed.
  Lemma every_raise : forall A e, every (raise e : eff Ev A).
  Proof. intros A e h H. exact H. Qed.
  Lemma every_bind : forall A B (m : eff Ev A) (f : A -> eff Ev B), every m -> (forall a, every (f a)) -> every (ebind m f).
  Proof. intros A B m f Hm Hf h H. unfold ebind. specialize (Hm h H). destruct (m h) as [[a|e] h']; cbn in *; [apply Hf, Hm | exact Hm]. Qed.
  Lemma every_call : forall A (o : list Ev -> res A) log, (forall h a, J h -> o h = Ok a -> J (h ++ [log a])) -> every (call o log).
  Proof. intros A o log Hc h H. unfold call. destruct (o h) as [a|e] eqn:E; cbn; [|exact H]. eapply Hc; eassumption. Qed.
  Lemma every_try : forall A (m : eff Ev A) h, every m -> every h -> every (try_reraise m h).
  Proof.
    intros A m h Hm Hh tr H. unfold try_reraise. specialize (Hm tr H). destruct (m tr) as [[a|e] tr']; cbn in *; [exact Hm|].
    specialize (Hh tr' Hm). destruct (h tr') as [[u|e'] tr'']; exact Hh.
  Qed.
End Every.

Section P.
  Context {Obs Act Rw : Type}.
  Notation bev := (@bev Obs Act Rw).
  Notation env_step := (@EndToEndSpec.env_step Obs Act Rw).
  Notation tr_ := (transition Obs Act Rw).
  Notation answer := (@TrainAgentBatch.answer Obs Rw).
  Variable w : @bworld Obs Act Rw.
  Variable c : bconfig.
  Notation N := (b_envs c).

  Lemma every_event : forall (P : list bev -> Prop),
    (forall tr m o, P tr -> bw_reset w tr = Ok o -> P (tr ++ [BReset m o])) ->
    (forall tr o a, P tr -> P (tr ++ [BAct o a])) -> (forall tr a x, P tr -> bw_step w tr = Ok x -> P (tr ++ [BStep a x])) ->
    (forall tr o r d e, P tr -> P (tr ++ [BObserve o r d e])) -> (forall tr k t, P tr -> P (tr ++ [BHook k t])) ->
    (forall tr t k s b, P tr -> P (tr ++ [BEval t k s b])) ->
    (forall tr s t, P tr -> P (tr ++ [BSave s t])) -> (forall tr x, P tr -> P (tr ++ [BClose x])) ->
    forall fuel, every P (train_agent_batch w c fuel).
  Proof.
    intros P H1 H2 H3 H4 H5 H6 H7 H8.
    assert (Hsave : forall s t, every P (b_save w s t)) by (intros; apply every_call; auto).
    assert (Hclose : forall x, every P (b_close w x)) by (intros; apply every_call; auto).
    assert (Hhand : forall t, every P (b_handler w c t)).
    { intros t. unfold b_handler. apply every_bind; [auto|]. intros _. apply every_bind; [auto|]. intros _. destruct (b_eval c); [auto | apply every_ret]. }
    assert (Hhook : forall k i t, every P (b_hook_calls w i k t)).
    { induction k as [|k IH]; intros i t; [apply every_ret|]. cbn [b_hook_calls]. apply every_bind; [apply every_call; auto | auto]. }
    assert (Hck : forall t, every P (b_checkpoint w c t)).
    { intros t. unfold b_checkpoint. destruct (b_freq c) as [f|]; [|apply every_ret]. destruct (f =? 0)%Z; [apply every_ret|]. destruct (t mod f =? 0)%Z; [auto | apply every_ret]. }
    assert (Htick : forall k t, every P (b_ticks w c k t)).
    { induction k as [|k IH]; intros t; [apply every_ret|]. cbn [b_ticks]. apply every_bind; [|auto]. apply every_try; [|auto]. apply every_bind; auto. }
    assert (Hloop : forall fuel t o l i, every P (b_loop w c fuel t o l i)).
    { induction fuel as [|fuel IH]; intros t o l i; [apply every_raise|]. cbn [b_loop]. apply every_bind.
      - apply every_try; [|auto]. apply every_bind; [apply every_call; auto|]. intros acts. apply every_bind; [apply every_call; auto|]. intros xs.
        apply every_bind; [apply every_call; auto|]. intros _. apply every_ret.
      - intros [[xs l'] ends]. apply every_bind; [auto|]. intros t'. apply every_bind.
        + apply every_try; [|auto]. apply every_bind.
          * destruct (b_eval c); [|apply every_ret]. apply every_bind; [apply every_call; auto|]. intros s. apply every_ret.
          * intros [|]; [apply every_ret|]. destruct (b_steps c <=? t')%Z; [apply every_ret|].
            apply every_bind; [apply every_call; eauto|]. intros o'. apply every_ret.
        + intros [[o' l'']|]; [apply IH | apply every_ret]. }
    intros fuel. unfold train_agent_batch. apply every_bind; [apply every_call; eauto|]. intros o. apply every_bind; [auto|]. auto.
  Qed.

  (** A run that ends normally has observed every step. *)
  Fixpoint balance (tr : list bev) : Z :=
    match tr with [] => 0 | BStep _ _ :: tr => 1 + balance tr | BObserve _ _ _ _ :: tr => -1 + balance tr | _ :: tr => balance tr end%Z.
  Lemma balance_app : forall a b, balance (a ++ b) = (balance a + balance b)%Z.
  Proof. induction a as [|e a IH]; intros b; [reflexivity|]. cbn [app]. destruct e; cbn [balance]; rewrite IH; lia. Qed.
  Definition even {A} (m : eff bev A) : Prop := forall h a h', m h = (Ok a, h') -> balance h' = balance h.
  Lemma even_ret : forall A (a : A), even (ret a).
  Proof. intros A a h x h' H. injection H as _ <-. reflexivity. Qed.
  Lemma even_bind : forall A B (m : eff bev A) (f : A -> eff bev B), even m -> (forall a, even (f a)) -> even (ebind m f).
  Proof. intros A B m f Hm Hf h x h' H. unfold ebind in H. destruct (m h) as [[a|e] h1] eqn:E; [|discriminate]. rewrite (Hf _ _ _ _ H). eapply Hm, E. Qed.
  Lemma even_call : forall A (o : list bev -> res A) log, (forall a, balance [log a] = 0%Z) -> even (call o log).
  Proof. intros A o log Hc h x h' H. unfold call in H. destruct (o h); [|discriminate]. injection H as <- <-. rewrite balance_app, Hc. lia. Qed.
  Lemma even_try : forall A (m : eff bev A) h, even m -> even (try_reraise m h).
  Proof.
    intros A m h Hm tr x tr' H. unfold try_reraise in H. destruct (m tr) as [[a|e] tr1] eqn:E; [injection H as <- <-; eapply Hm, E|].
    destruct (h tr1) as [[u|e'] tr2]; discriminate.
  Qed.
  Lemma even_train : forall fuel, even (train_agent_batch w c fuel).
  Proof.
    assert (Hsave : forall s t, even (b_save w s t)) by (intros; apply even_call; reflexivity).
    assert (Hhook : forall k i t, even (b_hook_calls w i k t)).
    { induction k as [|k IH]; intros i t; [apply even_ret|]. cbn [b_hook_calls]. apply even_bind; [apply even_call; reflexivity | auto]. }
    assert (Hck : forall t, even (b_checkpoint w c t)).
    { intros t. unfold b_checkpoint. destruct (b_freq c) as [f|]; [|apply even_ret]. destruct (f =? 0)%Z; [apply even_ret|]. destruct (t mod f =? 0)%Z; [auto | apply even_ret]. }
    assert (Htick : forall k t, even (b_ticks w c k t)).
    { induction k as [|k IH]; intros t; [apply even_ret|]. cbn [b_ticks]. apply even_bind; [|auto]. apply even_try. apply even_bind; auto. }
    assert (Hloop : forall fuel t o l i, even (b_loop w c fuel t o l i)).
    { induction fuel as [|fuel IH]; intros t o l i; [intros h a h' H; discriminate|]. cbn [b_loop]. apply even_bind.
      - apply even_try. apply even_bind; [apply even_call; reflexivity|]. intros acts h x h' H.
        unfold ebind at 1, call at 1 in H. destruct (bw_step w h) as [xs|]; [|discriminate].
        unfold ebind, call in H. destruct (bw_observe w _); [|discriminate]. injection H as <- <-. rewrite !balance_app. cbn [balance]. lia.
      - intros [[xs l'] ends]. apply even_bind; [auto|]. intros t'. apply even_bind.
        + apply even_try. apply even_bind.
          * destruct (b_eval c); [|apply even_ret]. apply even_bind; [apply even_call; reflexivity|]. intros s. apply even_ret.
          * intros [|]; [apply even_ret|]. destruct (b_steps c <=? t')%Z; [apply even_ret|].
            apply even_bind; [apply even_call; reflexivity|]. intros o'. apply even_ret.
        + intros [[o' l'']|]; [apply IH | apply even_ret]. }
    intros fuel. unfold train_agent_batch. apply even_bind; [apply even_call; reflexivity|]. intros o. apply even_bind; [auto|]. auto.
  Qed.

  (** The ops given to the replay buffer by a vectorised interaction. *)
  Fixpoint bops (prev : option (list Obs * list Act)) (h : list (op Obs Rw * out Act)) : list (rb_op tr_) :=
    match h with
    | [] => []
    | (OBAct os, RActs acts) :: h => bops (Some (os, acts)) h
    | (OBObs xs, _) :: h => match prev with Some (os, acts) => round_ops 0 os acts xs | None => [] end ++ bops None h
    | _ :: h => bops prev h
    end.

  Variable evals : Z -> nat.
  Variable k : kind.
  Variable interval : nat.
  Variable choose : list (ev Obs Act Rw) -> Obs -> res Act.
  Hypothesis Hk : k = KDQN \/ forall t, evals t = 0.

  (** The calls alternate, and every observation has a row for each env. *)
  Fixpoint alternating (prev : option (list Obs)) (ops : list (op Obs Rw)) : Prop :=
    match ops with
    | [] => True
    | OBAct os :: ops => prev = None /\ alternating (Some os) ops
    | OBObs xs :: ops => match prev with Some os => length os = length xs | None => False end /\ alternating None ops
    | OStopEp :: ops => k = KDQN /\ alternating prev ops
    | _ => False
    end.
  Definition gives (g : agent Obs Act) (prev : option (list Obs * list Act)) : Prop :=
    match prev with Some (os, acts) => length acts = length os /\ g_batch g = Some (map Some os, map Some acts) | None => True end.

  Lemma run_bops : forall ops g prev h g' hist h', alternating (option_map fst prev) ops -> gives g prev ->
    run k interval choose g ops h = (Ok (g', hist), h') ->
    exists l, h' = h ++ l /\ buffer_ops l = bops prev hist.
  Proof.
    induction ops as [|o ops IH]; intros g prev h g' hist h' Ha Hg H.
    - cbn in H. inv H. injection H as <- <-. exists []. rewrite app_nil_r. auto.
    - cbn [run] in H. apply ebind_ok in H. destruct H as ([g1 out1] & h1 & H1 & H).
      apply ebind_ok in H. destruct H as ([g2 l2] & h2 & H2 & H). apply ret_ok in H. destruct H as [H ->]. injection H as <- <-.
      destruct o as [o r|o r d| |os|xs]; cbn [alternating] in Ha; try contradiction.
      + destruct Ha as [-> Ha]. cbn [do_op stop_episode] in H1. apply ebind_ok in H1. destruct H1 as (g1' & h3 & H1 & H3).
        apply ret_ok in H3. destruct H3 as [H3 ->]. injection H3 as -> <-. apply ret_ok in H1. destruct H1 as [-> ->].
        destruct (IH _ prev _ _ _ _ Ha Hg H2) as (l & -> & E). exists l. split; [reflexivity | exact E].
      + destruct Ha as [Hn Ha]. destruct prev; [discriminate|].
        cbn [do_op] in H1. apply ebind_ok in H1. destruct H1 as ([g1' acts] & h3 & H1 & H3).
        apply ret_ok in H3. destruct H3 as [H3 ->]. injection H3 as -> <-.
        unfold batch_act_and_train in H1. apply ebind_ok in H1. destruct H1 as (acts' & h4 & H1 & H3).
        apply ret_ok in H3. destruct H3 as [H3 ->]. injection H3 as <- ->.
        destruct (select_all_ok _ _ _ H1) as (La & e & -> & Be & Ce).
        pose proof (fun Hg' => IH _ (Some (os, acts)) _ _ _ _ Ha Hg' H2) as OB. destruct (OB (conj La eq_refl)) as (l & -> & E).
        exists (e ++ l). split; [rewrite app_assoc; reflexivity|]. rewrite buffer_ops_app, Be, E. reflexivity.
      + destruct Ha as [Hl Ha]. destruct prev as [[os acts]|]; [|contradiction]. cbn [option_map fst] in Hl. destruct Hg as [La Hb].
        cbn [do_op] in H1. apply ebind_ok in H1. destruct H1 as (g4 & h5 & H4 & H5).
        apply ret_ok in H5. destruct H5 as [H5 ->]. injection H5 as -> <-.
        destruct (@observe_ok _ _ _ interval choose k xs _ 0 _ _ os acts _ _ _ Hb eq_refl eq_refl Hl (eq_trans La Hl) H4) as (lo & -> & Bo & _ & _).
        destruct (IH _ None _ _ _ _ Ha I H2) as (l & -> & E).
        exists (lo ++ l). split; [rewrite app_assoc; reflexivity|]. rewrite buffer_ops_app, Bo, E. reflexivity.
  Qed.

  Lemma observe_total : forall (xs : list (row Obs Rw)) (g : agent Obs Act) j obss al os acts h, 0 < interval ->
    g_batch g = Some (obss, al) -> skipn j obss = map Some os -> skipn j al = map Some acts ->
    length os = length xs -> length acts = length xs -> exists g' h', observe_from k interval g j xs h = (Ok g', h').
  Proof.
    induction xs as [|[[[o' r] d] rs] xs IH]; intros g j obss al os acts h Hpos Hb Ho Ha L1 L2; [do 2 eexists; reflexivity|].
    destruct os as [|s os]; [discriminate|]. destruct acts as [|a acts]; [discriminate|]. cbn [map] in Ho, Ha.
    destruct (nth_error_skip _ _ Ho) as [No So]. destruct (nth_error_skip _ _ Ha) as [Na Sa].
    assert (Sy : exists h1, @sync_if Obs Act Rw k interval (g_t g + 1) h = (Ok tt, h1)).
    { unfold sync_if. destruct k; try (eexists; reflexivity); (destruct (interval =? 0) eqn:E0; [apply Nat.eqb_eq in E0; lia|]);
        destruct ((g_t g + 1) mod interval =? 0); eexists; reflexivity. }
    destruct Sy as [h1 Sy].
    assert (S1 : exists g1 obss1 al1 h2, observe_one k interval g j (o', r, d, rs) h = (Ok g1, h2) /\ g_batch g1 = Some (obss1, al1) /\
      skipn (S j) obss1 = map Some os /\ skipn (S j) al1 = map Some acts).
    { unfold observe_one. unfold ebind at 1. rewrite Sy. rewrite Hb, No, Na. destruct (rs || d).
      - do 4 eexists. split; [reflexivity|]. split; [reflexivity|]. split; [rewrite skipn_upd; exact So|].
        clear - Sa. destruct k; [etransitivity; [apply skipn_upd|exact Sa]|exact Sa|exact Sa].
      - do 4 eexists. split; [reflexivity|]. split; [reflexivity|]. auto. }
    destruct S1 as (g1 & obss1 & al1 & h2 & E1 & B1 & O1 & A1). injection L1 as L1. injection L2 as L2.
    destruct (IH g1 (S j) obss1 al1 os acts h2 Hpos B1 O1 A1 L1 L2) as (g2 & h3 & E2).
    exists g2, h3. cbn [observe_from]. unfold ebind at 1. rewrite E1. exact E2.
  Qed.
  Lemma select_all_total : (forall h o, exists a, choose h o = Ok a) -> forall os h, exists l h', select_all choose os h = (Ok l, h').
  Proof.
    intros Hc. induction os as [|o os IH]; intros h; [do 2 eexists; reflexivity|]. cbn [select_all]. destruct (Hc h o) as [a E].
    destruct (IH (h ++ [EAct o a])) as (l & h' & E'). exists (a :: l), h'. unfold ebind at 1, select, call. rewrite E. unfold ebind. rewrite E'. reflexivity.
  Qed.
  Lemma run_bops_total : 0 < interval -> (forall h o, exists a, choose h o = Ok a) ->
    forall ops g prev h, alternating (option_map fst prev) ops -> gives g prev ->
    exists g' hist h', run k interval choose g ops h = (Ok (g', hist), h').
  Proof.
    intros Hpos Hc. induction ops as [|o ops IH]; intros g prev h Ha Hg; [do 3 eexists; reflexivity|].
    assert (D : exists g1 out1 h1 prev1, do_op k interval choose g o h = (Ok (g1, out1), h1) /\ gives g1 prev1 /\ alternating (option_map fst prev1) ops).
    { destruct o as [o r|o r d| |os|xs]; cbn [alternating] in Ha; try contradiction.
      - destruct Ha as [-> Ha]. exists g, RNone, h, prev. split; [reflexivity|]. auto.
      - destruct Ha as [_ Ha]. destruct (select_all_total Hc os h) as (acts & h1 & E). destruct (select_all_ok _ _ _ E) as (La & _).
        do 3 eexists. exists (Some (os, acts)). split; [cbn [do_op]; unfold batch_act_and_train, ebind; rewrite E; reflexivity|]. split; [split; [exact La | reflexivity] | exact Ha].
      - destruct Ha as [Hl Ha]. destruct prev as [[os acts]|]; [|contradiction]. cbn [option_map fst] in Hl. destruct Hg as [La Hb].
        destruct (@observe_total xs g 0 _ _ os acts h Hpos Hb eq_refl eq_refl Hl (eq_trans La Hl)) as (g1 & h1 & E).
        exists g1, RNone, h1, None. split; [cbn [do_op]; unfold batch_observe_and_train, ebind; rewrite E; reflexivity|]. split; [exact I | exact Ha]. }
    destruct D as (g1 & out1 & h1 & prev1 & E1 & Hg1 & Ha1). destruct (IH g1 prev1 h1 Ha1 Hg1) as (g2 & hist & h2 & E2).
    do 3 eexists. cbn [run]. unfold ebind at 1. rewrite E1. unfold ebind at 1. rewrite E2. reflexivity.
  Qed.

  Lemma run_acts : forall ops g h g' hist h' os acts, run k interval choose g ops h = (Ok (g', hist), h') ->
    In (OBAct os, RActs acts) hist -> length acts = length os.
  Proof.
    induction ops as [|o ops IH]; intros g h g' hist h' os acts H Hin.
    - cbn in H. inv H. injection H as <- <-. contradiction.
    - cbn [run] in H. apply ebind_ok in H. destruct H as ([g1 out1] & h1 & H1 & H).
      apply ebind_ok in H. destruct H as ([g2 l2] & h2 & H2 & H). apply ret_ok in H. destruct H as [H ->]. injection H as <- <-.
      destruct Hin as [E|Hin]; [|eapply IH; eassumption]. injection E as -> ->.
      cbn [do_op] in H1. apply ebind_ok in H1. destruct H1 as ([g1' acts'] & h3 & H1 & H3).
      apply ret_ok in H3. destruct H3 as [H3 ->]. injection H3 as -> <-.
      unfold batch_act_and_train in H1. apply ebind_ok in H1. destruct H1 as (acts'' & h4 & H1 & H3).
      apply ret_ok in H3. destruct H3 as [H3 ->]. injection H3 as <- ->.
      destruct (select_all_ok _ _ _ H1) as (La & _). exact La.
  Qed.

  (** Episodes of env [i] cut out of a sequence of buffer ops. *)
  Variable i : nat.
  Hypothesis Hi : i < N.
  Definition bsplit (acc : list tr_) (ops : list (rb_op tr_)) : list (list env_step) :=
    let (eps, ep) := episodes_from i acc ops in flat_map close (map (map step_of) (eps ++ [ep])).
  Lemma bsplit_nil : forall acc, bsplit acc [] = close (map step_of acc).
  Proof. intros acc. unfold bsplit. cbn. apply app_nil_r. Qed.
  Lemma bsplit_append : forall acc x t ops, bsplit acc (RAppend i x t :: ops) =
    if t then close (map step_of (acc ++ [x])) ++ bsplit [] ops else bsplit (acc ++ [x]) ops.
  Proof.
    intros acc x t ops. unfold bsplit. cbn [episodes_from]. rewrite Nat.eqb_refl. destruct t; [|reflexivity].
    destruct (episodes_from i [] ops) as [eps ep]. reflexivity.
  Qed.
  Lemma bsplit_stop : forall acc ops, bsplit acc (RStop i :: ops) = close (map step_of acc) ++ bsplit [] ops.
  Proof. intros acc ops. unfold bsplit. cbn [episodes_from]. rewrite Nat.eqb_refl. destruct (episodes_from i [] ops) as [eps ep]. reflexivity. Qed.
  Lemma bsplit_other : forall acc j x t ops, j <> i -> bsplit acc (RAppend j x t :: ops) = bsplit acc ops.
  Proof. intros acc j x t ops H. unfold bsplit. cbn [episodes_from]. apply Nat.eqb_neq in H. rewrite H. reflexivity. Qed.
  Lemma bsplit_other_stop : forall acc j ops, j <> i -> bsplit acc (RStop j :: ops) = bsplit acc ops.
  Proof. intros acc j ops H. unfold bsplit. cbn [episodes_from]. apply Nat.eqb_neq in H. rewrite H. reflexivity. Qed.

  Lemma bsplit_after : forall os acts xs j acc rest, i < j -> bsplit acc (round_ops j os acts xs ++ rest) = bsplit acc rest.
  Proof.
    induction os as [|s os IH]; intros acts xs j acc rest Hj; [reflexivity|].
    destruct acts as [|a acts]; [reflexivity|]. destruct xs as [|[[[o r] d] e] xs]; [reflexivity|].
    cbn [round_ops app]. rewrite bsplit_other by lia. rewrite <- app_assoc.
    destruct (d || e); cbn [app]; [rewrite bsplit_other_stop by lia|]; apply IH; lia.
  Qed.
  Lemma bsplit_round : forall os acts xs j acc rest s a o r d e, j <= i ->
    nth_error os (i - j) = Some s -> nth_error acts (i - j) = Some a -> nth_error xs (i - j) = Some (o, r, d, e) ->
    bsplit acc (round_ops j os acts xs ++ rest) =
    if d || e then close (map step_of acc ++ [(s, a, r, o, d)]) ++ bsplit [] rest
    else bsplit (acc ++ [mk_tr s a r o None d]) rest.
  Proof.
    induction os as [|s0 os IH]; intros acts xs j acc rest s a o r d e Hj Hs Ha Hx; [destruct (i - j); discriminate|].
    destruct acts as [|a0 acts]; [destruct (i - j); discriminate|]. destruct xs as [|[[[o0 r0] d0] e0] xs]; [destruct (i - j); discriminate|].
    cbn [round_ops app]. destruct (Nat.eq_dec j i) as [->|Hn].
    - rewrite Nat.sub_diag in Hs, Ha, Hx. injection Hs as ->. injection Ha as ->. injection Hx as -> -> -> ->.
      rewrite bsplit_append. rewrite <- app_assoc. destruct d; cbn [orb app].
      + rewrite bsplit_stop. cbn [map close app]. rewrite bsplit_after by lia. rewrite map_app. reflexivity.
      + destruct e; cbn [app]; [rewrite bsplit_stop|]; rewrite bsplit_after by lia; [rewrite map_app|]; reflexivity.
    - rewrite bsplit_other by lia. rewrite <- app_assoc.
      replace (i - j) with (S (i - S j)) in Hs, Ha, Hx by lia. cbn [nth_error] in Hs, Ha, Hx.
      destruct (d0 || e0); cbn [app]; [rewrite bsplit_other_stop by lia|]; eapply IH; eauto; lia.
  Qed.

  Lemma rows_nth : forall (xs : list answer) resets j x e, nth_error xs j = Some x -> nth_error resets j = Some e ->
    nth_error (rows (map a_obs xs) (map a_rew xs) (map a_done xs) resets) j = Some (a_obs x, a_rew x, a_done x, e).
  Proof.
    induction xs as [|y xs IH]; intros resets j x e Hx He; [destruct j; discriminate|].
    destruct resets as [|f resets]; [destruct j; discriminate|]. destruct j as [|j]; [injection Hx as ->; injection He as ->; reflexivity | apply IH; assumption].
  Qed.
  Lemma rows_length : forall (xs : list answer) resets, length resets = length xs ->
    length (rows (map a_obs xs) (map a_rew xs) (map a_done xs) resets) = length xs.
  Proof. induction xs as [|y xs IH]; intros [|f resets] H; try discriminate; [reflexivity|]. cbn. f_equal. apply IH. injection H as H. exact H. Qed.

  Definition binv (p : @bphase Obs Act Rw) (prev : option (list Obs * list Act)) (acc : list tr_) (cur : option Obs) (ep : list env_step) : Prop :=
    match p with
    | BPInit => prev = None /\ acc = [] /\ ep = []
    | BPAct os lens _ => prev = None /\ length os = N /\ length lens = N /\ cur = nth_error os i /\ ep = map step_of acc
    | BPStep acts lens _ => exists os, prev = Some (os, acts) /\ length os = N /\ length acts = N /\ length lens = N /\
        cur = nth_error os i /\ ep = map step_of acc
    | BPObserve xs lens _ => exists os acts s a o r d n, prev = Some (os, acts) /\ length os = N /\ length acts = N /\ length lens = N /\
        length xs = N /\ nth_error os i = Some s /\ nth_error acts i = Some a /\ nth_error xs i = Some (o, r, d, n) /\
        ep = map step_of acc ++ [(s, a, r, o, d)]
    | BPSeen lens ends _ => prev = None /\ length lens = N /\ exists e, nth_error ends i = Some e /\ if e then acc = [] else ep = map step_of acc
    end.
  Definition bpre (p : @bphase Obs Act Rw) (ep : list env_step) : list (list env_step) :=
    match p with BPSeen _ ends _ => match nth_error ends i with Some true => close ep | _ => [] end | _ => [] end.
  Definition pending (p : @bphase Obs Act Rw) : Prop := match p with BPObserve _ _ _ => True | _ => False end.

  Notation calls tr := (@bagent_calls Obs Act Rw evals tr).

  Lemma nth_some : forall A (l : list A) j n, length l = n -> j < n -> exists x, nth_error l j = Some x.
  Proof. intros A l j n H Hj. destruct (nth_error l j) eqn:E; [eauto|]. apply nth_error_None in E. lia. Qed.

  Lemma b_stored : forall l p q, bppath c p l q ->
    Forall (fun e => match e with BReset _ o => length o = N | BAct o a => length a = length o | _ => True end) l ->
    forall prev acc cur ep, binv p prev acc cur ep ->
    alternating (option_map fst prev) (map fst (calls l)) /\
    exists last, length last <= 1 /\ (~ pending q -> last = []) /\
      bpre p ep ++ bsplit acc (bops prev (calls l) ++ appends i last) = benv_from i cur ep l.
  Proof.
    induction 1 as [p|p e p' l q Hs Hp IH]; intros Hf prev acc cur ep Hv.
    - split; [exact I|]. destruct p as [|os lens t|acts lens t|xs lens t|lens ends t]; cbn [binv bpre] in *.
      + destruct Hv as [_ [-> ->]]. exists []. auto.
      + destruct Hv as (_ & _ & _ & _ & ->). exists []. cbn [app appends map bops bagent_calls flat_map]. rewrite bsplit_nil. auto.
      + destruct Hv as (os & _ & _ & _ & _ & _ & ->). exists []. cbn [app appends map bops bagent_calls flat_map]. rewrite bsplit_nil. auto.
      + destruct Hv as (os & acts & s & a & o & r & d & n & _ & _ & _ & _ & _ & _ & _ & _ & ->). exists [mk_tr s a r o None d].
        split; [cbn; lia|]. split; [cbn; tauto|]. cbn [app appends map bops bagent_calls flat_map x_terminal benv_from].
        rewrite bsplit_append, !bsplit_nil. destruct d; rewrite map_app; cbn [map close]; [rewrite app_nil_r|]; reflexivity.
      + destruct Hv as (_ & _ & e & -> & He). exists []. split; [cbn; lia|]. split; [auto|].
        cbn [app appends map bops bagent_calls flat_map benv_from]. rewrite bsplit_nil. destruct e; subst; [cbn; apply app_nil_r | reflexivity].
    - inversion Hf as [|? ? He Hf']; subst. specialize (IH Hf'). destruct Hs; cbn [binv] in Hv.
      + (* first reset *) destruct Hv as [-> [-> ->]].
        apply (IH None [] (nth_error obss i) []). cbn. split; [reflexivity|]. split; [exact He|]. split; [apply repeat_length|]. auto.
      + destruct Hv as (-> & Ho & Hl & -> & ->).
        destruct (IH (Some (obss, acts)) acc (nth_error obss i) (map step_of acc)) as [A [last [L [Q E]]]].
        { cbn. exists obss. repeat split; auto. rewrite He. exact Ho. }
        split; [cbn; split; [reflexivity | exact A]|]. exists last. split; [exact L|]. split; [exact Q|]. exact E.
      + destruct Hv as (os & -> & Ho & Ha & Hl & -> & ->).
        destruct (nth_some _ Ho Hi) as [s Es]. destruct (nth_some _ Ha Hi) as [a Ea]. destruct (nth_some _ H Hi) as [[[[o r] d] n] Ex].
        destruct (IH (Some (os, acts)) acc (Some o) (map step_of acc ++ [(s, a, r, o, d)])) as [A [last [L [Q E]]]].
        { cbn. exists os, acts, s, a, o, r, d, n. repeat split; auto. rewrite map_length. exact Hl. }
        split; [exact A|]. exists last. split; [exact L|]. split; [exact Q|]. cbn [benv_from]. rewrite Es, Ea, Ex. exact E.
      + destruct Hv as (os & acts & s & a & o & r & d & n & -> & Ho & Ha & Hl & Hx & Es & Ea & Ex & ->).
        destruct H as [H1 H2], H0 as [H3 H4]. destruct (nth_some _ Hl Hi) as [len El].
        destruct (H2 i _ _ Ex El) as [rf [Er Hr]]. destruct (H4 i _ _ Ex El) as [ef [Ee He']].
        cbn [a_done a_needs fst snd] in Hr, He'.
        assert (Eef : ef = d || rf).
        { destruct ef, d, rf; cbn; auto; exfalso; intuition congruence. }
        pose (x := mk_tr s a r o None d : tr_).
        destruct (IH None (if ef then [] else acc ++ [x]) cur (map step_of acc ++ [(s, a, r, o, d)])) as [A [last [L [Q E]]]].
        { cbn. split; [reflexivity|]. split; [exact Hl|]. exists ef. split; [exact Ee|]. destruct ef; [reflexivity|]. rewrite map_app. reflexivity. }
        cbn [bagent_calls flat_map bagent_call map app fst]. fold (@bagent_calls Obs Act Rw evals l).
        split; [cbn [alternating option_map fst]; split; [rewrite rows_length by congruence; congruence | exact A]|].
        exists last. split; [exact L|]. split; [exact Q|]. cbn [bops benv_from]. rewrite <- E. cbn [bpre app]. rewrite Ee.
        rewrite <- app_assoc.
        rewrite (@bsplit_round os acts _ 0 acc _ s a o r d rf); [| lia | rewrite Nat.sub_0_r; assumption | rewrite Nat.sub_0_r; assumption
          | rewrite Nat.sub_0_r; exact (@rows_nth xs resets i _ rf Ex Er) ].
        rewrite <- Eef. destruct ef; reflexivity.
      + destruct Hv as (-> & Hl & e & Ee & Hacc). destruct H0 as [H1 H2].
        cbn [benv_from bpre]. rewrite nth_error_map, Ee. cbn [option_map negb].
        destruct e.
        * subst acc. destruct (IH None [] (nth_error obss i) []) as [A [last [L [Q E]]]]; [cbn; auto 10|].
          split; [exact A|]. exists last. split; [exact L|]. split; [exact Q|]. cbn [negb]. f_equal. exact E.
        * subst ep. destruct (IH None acc (nth_error obss i) (map step_of acc)) as [A [last [L [Q E]]]]; [cbn; auto 10|].
          split; [exact A|]. exists last. split; [exact L|]. split; [exact Q|]. exact E.
  Qed.

  (** Events that concern neither the agent nor the training env. *)
  Lemma benv_core : forall tr cur ep, benv_from i cur ep (b_core tr) = @benv_from Obs Act Rw i cur ep tr.
  Proof.
    induction tr as [|e tr IH]; intros cur ep; [reflexivity|].
    destruct e; cbn [b_core filter benv_from]; fold (b_core tr); auto; [rewrite !IH; reflexivity|].
    destruct cur as [s|]; [|apply IH]. destruct (nth_error acts i) as [a|]; [|apply IH]. destruct (nth_error xs i) as [[[[o r] d] n]|]; apply IH.
  Qed.

  Lemma skip_stops : forall n prev h, bops prev (repeat (OStopEp, RNone) n ++ h) = bops prev h.
  Proof. induction n; intros; [reflexivity|]. cbn. apply IHn. Qed.
  Lemma alt_stops : forall n prev ops, (k = KDQN \/ n = 0) -> alternating prev ops ->
    alternating prev (map fst (repeat (@OStopEp Obs Rw, @RNone Act) n) ++ ops).
  Proof. induction n; intros prev ops H Ha; [exact Ha|]. cbn. destruct H as [->|]; [|discriminate]. split; [reflexivity|]. apply IHn; auto. Qed.

  Lemma bops_core : forall tr prev, bops prev (calls (b_core tr)) = bops prev (calls tr).
  Proof.
    induction tr as [|e tr IH]; intros prev; [reflexivity|].
    destruct e; cbn [b_core filter bagent_calls flat_map bagent_call app]; fold (b_core tr); fold (@bagent_calls Obs Act Rw evals tr);
      fold (@bagent_calls Obs Act Rw evals (b_core tr)); try apply IH.
    - cbn [bops]. f_equal. apply IH.
    - rewrite skip_stops. apply IH.
  Qed.
  Lemma alt_core : forall tr prev, alternating prev (map fst (calls (b_core tr))) -> alternating prev (map fst (calls tr)).
  Proof.
    induction tr as [|e tr IH]; intros prev H; [exact I|].
    destruct e; cbn [b_core filter bagent_calls flat_map bagent_call app] in *; fold (@b_core Obs Act Rw tr) in *; fold (@bagent_calls Obs Act Rw evals tr) in *;
      fold (@bagent_calls Obs Act Rw evals (b_core tr)) in *; try (apply IH; exact H).
    - cbn in *. destruct H as [H1 H2]. split; [exact H1 | apply IH, H2].
    - cbn in *. destruct H as [H1 H2]. split; [exact H1 | apply IH, H2].
    - rewrite map_app. apply alt_stops; [|apply IH, H]. destruct Hk as [->|Hz]; [left; reflexivity | right; apply Hz].
  Qed.

  Lemma balance_core : forall tr, balance (b_core tr) = balance tr.
  Proof. induction tr as [|e tr IH]; [reflexivity|]. destruct e; cbn [b_core filter balance]; fold (@b_core Obs Act Rw tr); rewrite ?IH; auto. Qed.
  Lemma balance_path : forall l p q, bppath c p l q -> pending q -> balance l = (if match p with BPObserve _ _ _ => true | _ => false end then 0 else 1)%Z.
  Proof.
    induction 1 as [p|p e p' l q Hs Hp IH]; intros Hq; [destruct p; try contradiction; reflexivity|].
    specialize (IH Hq). destruct Hs; cbn [balance]; rewrite IH; reflexivity.
  Qed.

  Hypothesis Hreset : forall tr os, bw_reset w tr = Ok os -> length os = N.
  Hypothesis Hstep : forall tr xs, bw_step w tr = Ok xs -> length xs = N.

  Lemma batch_stores : forall t0 fuel out tr g evs,
    train_agent_batch w c fuel [] = (out, tr) ->
    run k interval choose (resumed t0) (map fst (calls tr)) [] = (Ok (g, calls tr), evs) ->
    exists last, length last <= 1 /\ match out with Ok _ => last = [] | Raise _ => True end /\
      benv_episodes i tr = stored_episodes i (buffer_ops evs ++ appends i last).
  Proof.
    intros t0 fuel out tr g evs H Hr.
    assert (HN : 1 <= N) by lia.
    pose proof (@train_batch_ok _ _ _ w c Hstep HN fuel) as C. rewrite H in C. destruct C as [[q Hp] _].
    assert (F : Forall (fun e : bev => match e with BReset _ o => length o = N | BAct o a => length a = length o | _ => True end) (b_core tr)).
    { apply Forall_forall. intros e He. apply filter_In in He. destruct He as [He _]. destruct e; try exact I.
      - assert (E : every (Forall (fun e : bev => match e with BReset _ o => length o = N | _ => True end)) (train_agent_batch w c fuel)).
        { apply every_event; intros; apply Forall_app; (split; [assumption|]); repeat constructor. eapply Hreset; eassumption. }
        specialize (E [] (Forall_nil _)). rewrite H in E. rewrite Forall_forall in E. exact (E _ He).
      - refine (run_acts _ _ _ _ _ Hr _). apply in_flat_map. eexists. split; [exact He|]. left. reflexivity. }
    destruct (@b_stored _ _ _ Hp F None [] None []) as [A [last [L [Q E]]]]; [cbn; auto|].
    exists last. split; [exact L|]. split.
    { destruct out as [u|]; [|exact I]. apply Q. intros Hq. pose proof (balance_path Hp Hq) as B. rewrite balance_core in B.
      rewrite (@even_train fuel [] u tr H) in B. discriminate B. }
    destruct (@run_bops _ (resumed t0) None [] _ _ _ (alt_core _ _ A) I Hr) as [l [-> Eb]]. cbn [app].
    unfold benv_episodes. rewrite <- benv_core. rewrite <- E. cbn [bpre app]. rewrite bops_core. rewrite Eb. reflexivity.
  Qed.

  (** The agent never raises, if the trace's actions are one per observation. *)
  Lemma batch_never_fails : forall t0 fuel out tr, 0 < interval -> (forall h o, exists a, choose h o = Ok a) ->
    train_agent_batch w c fuel [] = (out, tr) -> (forall o a, In (BAct o a) tr -> length a = length o) ->
    exists g hist evs, run k interval choose (resumed t0) (map fst (calls tr)) [] = (Ok (g, hist), evs).
  Proof.
    intros t0 fuel out tr Hpos Hc H Hacts.
    assert (HN : 1 <= N) by lia.
    pose proof (@train_batch_ok _ _ _ w c Hstep HN fuel) as C. rewrite H in C. destruct C as [[q Hp] _].
    assert (F : Forall (fun e : bev => match e with BReset _ o => length o = N | BAct o a => length a = length o | _ => True end) (b_core tr)).
    { apply Forall_forall. intros e He. apply filter_In in He. destruct He as [He _]. destruct e; try exact I; [|apply Hacts, He].
      assert (E : every (Forall (fun e : bev => match e with BReset _ o => length o = N | _ => True end)) (train_agent_batch w c fuel)).
      { apply every_event; intros; apply Forall_app; (split; [assumption|]); repeat constructor. eapply Hreset; eassumption. }
      specialize (E [] (Forall_nil _)). rewrite H in E. rewrite Forall_forall in E. exact (E _ He). }
    destruct (@b_stored _ _ _ Hp F None [] None []) as [A _]; [cbn; auto|].
    apply (@run_bops_total Hpos Hc _ (resumed t0) None [] (alt_core _ _ A) I).
  Qed.
End P.
