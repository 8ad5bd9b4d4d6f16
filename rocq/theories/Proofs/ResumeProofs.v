From Coq Require Import QArith.
From Verif Require Import Base.PyBase Base.Effects Model.TrainAgent Model.OffPolicyAgent Model.Returns Model.Resume
  Spec.TransitionSpec Spec.TrainProtocol Spec.EndToEndSpec Proofs.TrainAgentProofs Proofs.OffPolicyProofs Proofs.EndToEndProofs.
Set Implicit Arguments.
Local Open Scope nat_scope.

Section Clock.
  Context {Obs Act Rw : Type}.
  Variable rzero : Rw.
  Notation tev := (@TrainAgent.ev Obs Act Rw).

  Definition acting (p : @xph Obs Act Rw) : nat := match p with XStep _ _ => 1 | _ => 0 end.
  Lemma path_acts : forall evals (tr : list tev) p q, xpath rzero p tr q ->
    (Z.of_nat (acts (map fst (agent_calls evals tr)) + acting p) = nsteps tr + Z.of_nat (acting q))%Z.
  Proof.
    intros evals tr p q H. induction H as [p|p e p' l p'' Hs Hp IH]; [unfold nsteps; cbn; lia|].
    assert (R : forall m, filter (fun o : op Obs Rw => match o with OAct _ _ => true | _ => false end) (map fst (repeat (OStopEp, @RNone Act) m)) = []).
    { induction m; cbn; auto. }
    unfold agent_calls, acts, nsteps in *. inversion Hs; subst; cbn [flat_map agent_call app map fst filter acting length is_step] in *;
      rewrite ?map_app, ?filter_app, ?R; cbn [app is_step length] in *; lia.
  Qed.

  Lemma resumed_clock : forall (w : @world Obs Act Rw) c k interval (choose : list (ev Obs Act Rw) -> Obs -> res Act) t0 evals out tr g hist evs,
    train_agent rzero w c [] = (out, tr) ->
    run k interval choose (resumed t0) (map fst (agent_calls evals tr)) [] = (Ok (g, hist), evs) ->
    exists m, clock evs = flat_map (tick k interval) (seq (match k with KDQN => t0 | _ => t0 + 1 end) m) /\ g_t g = t0 + m /\
      match out with Ok _ => Z.of_nat m = nsteps tr | Raise _ => (nsteps tr <= Z.of_nat m <= nsteps tr + 1)%Z end.
  Proof.
    intros w c k interval choose t0 evals out tr g hist evs H Hr.
    destruct (@run_single _ _ _ interval choose k _ (resumed t0) None [] _ _ _ (calls_single evals tr) eq_refl Hr) as (l & -> & _ & _ & Hc & Hg).
    exists (acts (map fst (agent_calls evals tr))). split; [exact Hc|]. split; [exact Hg|].
    destruct (x_train _ _ _ H) as [q [Hp Hq]]. pose proof (path_acts evals Hp) as E. cbn [acting] in E. rewrite Nat.add_0_r in E.
    destruct out; [destruct Hq as [->|[o ->]]; cbn [acting] in E; lia | destruct q; cbn [acting] in E; lia].
  Qed.
End Clock.

Section NStep.
  Context {Obs A : Type}.
  Variable value : nat -> Obs -> Q.
  Variables (gamma : Q) (t_max : nat).

  Lemma zd_get_cases : forall V (d : zdict V) j, (exists v, zd_get d j = Ok v) \/ zd_get d j = Raise KeyError.
  Proof. induction d as [|[k v] d IH]; intros j; cbn; [auto|]. destruct (j =? k)%Z; eauto. Qed.

  Lemma nloop_missing : forall (s : nagent Obs A) k i R out, i < k -> zd_get (n_past s) (Z.of_nat i) = Raise KeyError ->
    nloop gamma s 0 k R out = Raise KeyError.
  Proof.
    intros s k. induction k as [|k IH]; intros i R out Hi Hp; [lia|]. cbn [nloop plus].
    destruct (zd_get_cases (n_rewards s) (Z.of_nat k)) as [[r ->]| ->]; [|reflexivity]. cbn [bind].
    destruct (Nat.eq_dec i k) as [->|Hne]; [rewrite Hp; reflexivity|].
    destruct (zd_get_cases (n_past s) (Z.of_nat k)) as [[x ->]| ->]; [|reflexivity]. cbn [bind].
    apply IH with i; [lia | exact Hp].
  Qed.

  Lemma nstep_resumed : forall (acts : list (Obs * Q * A)) (s : nagent Obs A) i last r done, i < n_t s -> n_start s = 0 ->
    zd_get (n_past s) (Z.of_nat i) = Raise KeyError ->
    nstep_runs value gamma t_max s (map (fun '(o, r, a) => NAct o r a) acts ++ [NStop last r done]) = Raise KeyError.
  Proof.
    assert (U : forall (s : nagent Obs A) i sv, i < n_t s -> n_start s = 0 -> zd_get (n_past s) (Z.of_nat i) = Raise KeyError ->
              nupdate value gamma s sv = Raise KeyError).
    { intros s i sv Hi H0 Hp. unfold nupdate. rewrite H0. rewrite (proj2 (Nat.ltb_lt 0 (n_t s))) by lia. cbn [bind].
      rewrite (@nloop_missing s _ i); [reflexivity | lia | exact Hp]. }
    induction acts as [|[[o r0] a] acts IH]; intros s i last r done Hi H0 Hp; cbn [map app nstep_runs nstep_run1].
    - rewrite (U _ i) by assumption. reflexivity.
    - destruct (Nat.eqb _ t_max) eqn:E; cbn [n_t n_start] in *.
      + rewrite (U _ i) by assumption. reflexivity.
      + cbn [bind n_t n_start n_past n_rewards n_updates snd].
        rewrite (IH _ i); cbn [n_t n_start n_past]; [reflexivity | lia | assumption|].
        unfold zd_set. cbn [zd_get]. destruct (Z.eqb_spec (Z.of_nat i) (Z.of_nat (n_t s))); [lia | exact Hp].
  Qed.

  Lemma nstep_resume_raises : forall offset acts last r done, 0 < offset ->
    nstep_runs value gamma t_max (nagent_resumed offset) (map (fun '(o, r, a) => NAct o r a) acts ++ [NStop (A:=A) last r done]) = Raise KeyError.
  Proof. intros. apply nstep_resumed with 0; cbn; auto. Qed.
End NStep.

Section A2C.
  Context {Obs A : Type}.
  Variable value : nat -> Obs -> Q.
  Variables (use_gae : bool) (gamma tau : Q) (n : nat).

  Lemma a2c_resume_raises : forall offset x (xs : list (a2c_round (Obs:=Obs) (A:=A))), 0 < offset ->
    a2c_rounds value use_gae gamma tau n (Fresh offset) (x :: xs) = Raise AttributeError.
  Proof.
    intros offset [[o a] [[[o' r] d] e]] xs H. cbn [a2c_rounds]. unfold a2c_act_and_train.
    destruct offset; [lia | reflexivity].
  Qed.

  (** A new agent allocates its arrays once, in its first round. *)
  Lemma a2c_act_t : forall (s : a2c Obs A) o a u, a2c_act value use_gae gamma tau n s o a = Ok u -> a_t (snd u) = S (a_t s).
  Proof.
    intros s o a u H. unfold a2c_act in H.
    destruct (py_set (a_states s) _ _) as [st|]; [|discriminate]. cbn [bind] in H.
    match type of H with bind ?x _ = _ => destruct x as [[lg s']|] eqn:E; [|discriminate] end. cbn [bind] in H.
    assert (Et : a_t s' = a_t s).
    { destruct (Nat.eqb _ n) in E; [|injection E as <- <-; reflexivity].
      match type of E with bind ?x _ = _ => destruct x as [p|] eqn:Eu; [|discriminate] end. cbn [bind] in E. injection E as <- <-.
      unfold a2c_update in Eu. cbn [a_t a_states a_rewards a_values a_masks a_updates a_actions] in Eu. destruct (py_get st (-1)) as [[l|]|]; try discriminate. cbn [bind] in Eu.
      destruct (compute_returns _ _ _ _ _ _ _ _ _); [|discriminate]. cbn [bind] in Eu.
      destruct (collect (firstn _ _)); [|discriminate]. cbn [bind] in Eu. destruct (collect (a_actions s)); [|discriminate]. cbn [bind] in Eu.
      destruct (py_set st 0 _); [|discriminate]. cbn [bind] in Eu. injection Eu as <-. reflexivity. }
    destruct (py_set (a_actions s') _ _); [|discriminate]. cbn [bind] in H.
    destruct (py_set (a_values s') _ _); [|discriminate]. cbn [bind] in H. injection H as <-. cbn. rewrite Et. reflexivity.
  Qed.
  Lemma a2c_observe_t : forall (s : a2c Obs A) o r d e u, a2c_observe value use_gae gamma tau n s o r d e = Ok u -> a_t (snd u) = a_t s.
  Proof.
    intros s o r d e u H. unfold a2c_observe in H.
    destruct (py_set (a_masks s) _ _); [|discriminate]. cbn [bind] in H.
    destruct (py_set (a_rewards s) _ _); [|discriminate]. cbn [bind] in H.
    destruct (py_set (a_states s) _ _) as [st|]; [|discriminate]. cbn [bind] in H.
    destruct (Nat.eqb _ n) in H; [|injection H as <-; reflexivity].
    match type of H with bind ?x _ = _ => destruct x as [p|] eqn:Eu; [|discriminate] end. cbn [bind] in H. injection H as <-.
    unfold a2c_update in Eu. cbn [a_t a_states a_rewards a_values a_masks a_updates a_actions] in Eu. destruct (py_get st (-1)) as [[l'|]|]; try discriminate. cbn [bind] in Eu.
    destruct (compute_returns _ _ _ _ _ _ _ _ _); [|discriminate]. cbn [bind] in Eu.
    destruct (collect (firstn _ _)); [|discriminate]. cbn [bind] in Eu. destruct (collect (a_actions s)); [|discriminate]. cbn [bind] in Eu.
    destruct (py_set st 0 _); [|discriminate]. cbn [bind] in Eu. injection Eu as <-. reflexivity.
  Qed.
  Lemma a2c_rounds_running : forall xs (s : a2c Obs A), 0 < a_t s ->
    a2c_rounds value use_gae gamma tau n (Running s) xs =
    (let! u := a2c_run value use_gae gamma tau n s xs in Ok (fst u, Running (snd u))).
  Proof.
    induction xs as [|[[o a] [[[o' r] d] e]] xs IH]; intros s Hs; [reflexivity|].
    cbn [a2c_rounds a2c_run a2c_step]. unfold a2c_act_and_train.
    replace (a_t s =? 0) with false by (symmetry; apply Nat.eqb_neq; lia). cbn [bind].
    destruct (a2c_act _ _ _ _ _ s o a) as [u|] eqn:E1; [|reflexivity]. cbn [bind].
    destruct (a2c_observe _ _ _ _ _ (snd u) o' r d e) as [u'|] eqn:E2; [|reflexivity]. cbn [bind fst snd].
    rewrite IH by (rewrite (a2c_observe_t _ _ _ _ _ E2), (a2c_act_t _ _ _ E1); lia).
    destruct (a2c_run value use_gae gamma tau n (snd u') xs); [|reflexivity]. cbn [bind fst snd]. rewrite app_assoc. reflexivity.
  Qed.
  Lemma a2c_rounds_fresh : forall x (xs : list (a2c_round (Obs:=Obs) (A:=A))),
    a2c_rounds value use_gae gamma tau n (Fresh 0) (x :: xs) =
    (let! u := a2c_run value use_gae gamma tau n (a2c_init n) (x :: xs) in Ok (fst u, Running (snd u))).
  Proof.
    intros [[o a] [[[o' r] d] e]] xs. cbn [a2c_rounds a2c_run a2c_step]. unfold a2c_act_and_train. cbn [Nat.eqb bind].
    destruct (a2c_act _ _ _ _ _ (a2c_init n) o a) as [u|] eqn:E1; [|reflexivity]. cbn [bind].
    destruct (a2c_observe _ _ _ _ _ (snd u) o' r d e) as [u'|] eqn:E2; [|reflexivity]. cbn [bind fst snd].
    rewrite a2c_rounds_running by (rewrite (a2c_observe_t _ _ _ _ _ E2), (a2c_act_t _ _ _ E1); lia).
    destruct (a2c_run value use_gae gamma tau n (snd u') xs); [|reflexivity]. cbn [bind fst snd]. rewrite app_assoc. reflexivity.
  Qed.
End A2C.
