(** C34, C47, C57: target synchronisation, stored transitions and TD3's delayed
    updates. *)
From Coq Require Import QArith.
From Verif Require Import Base.PyBase Base.Effects Model.CopyParam Model.RandomAccessQueue Model.ReplayBuffer Model.OffPolicyAgent
     Spec.SyncSpec Spec.BoundedList Spec.WindowSpec Spec.TransitionSpec Proofs.CopyParamProofs Proofs.OffPolicyProofs.
Local Open Scope nat_scope.

(** C34: a hard synchronisation makes every parameter and batch-normalisation
    statistic of the target equal to the source's and touches nothing else. *)
Theorem C34_hard_sync : forall dst src tau, matches dst src ->
  exists dst', synchronize_parameters src dst Hard tau = Ok dst' /\ matches dst' src /\
    (forall p, shared_place src p -> at_link dst' p = at_source src p) /\
    (forall p, ~ shared_place src p -> at_link dst' p = at_link dst p).
Proof. exact hard_sync. Qed.
Print Assumptions C34_hard_sync.

(** C34: [n] soft synchronisations with an unchanged source. *)
Theorem C34_soft_sync : forall src tau n dst, matches dst src ->
  exists dst', sync_times n src dst Soft tau = Ok dst' /\ matches dst' src /\
    (forall p, shared_place src p ->
       match at_link dst p, at_source src p with
       | Some t, Some s => exists v, at_link dst' p = Some v /\ (v == mixture tau n t s)%Q /\
                                     (0 <= tau -> tau <= 1 -> between t v s)%Q
       | None, None => at_link dst' p = None
       | _, _ => False
       end) /\
    (forall p, ~ shared_place src p -> at_link dst' p = at_link dst p).
Proof. exact soft_sync. Qed.
Print Assumptions C34_soft_sync.

(** C34: a synchronisation that returns has found an initialised counterpart of
    the right size for everything in the source. *)
Theorem C34_sync_never_silent : forall dst src m tau dst',
  NoDup (map fst (s_params src)) -> NoDup (map fst (s_bns src)) ->
  synchronize_parameters src dst m tau = Ok dst' -> matches dst src /\ m <> OtherMethod.
Proof. exact sync_never_silent. Qed.
Print Assumptions C34_sync_never_silent.

(** copy_grad (used by the asynchronous agents) copies every gradient,
    including absent ones. *)
Theorem C34_copy_grad : forall src dst, NoDup (map fst src) ->
  (forall k g, In (k, g) src -> exists d, lookup dst k = Some d /\
     match d, g with Some d, Some g => length d = length g | _, _ => True end) ->
  exists dst', copy_grad dst src = Ok dst' /\
    (forall k, In k (map fst src) -> lookup dst' k = lookup src k) /\
    (forall k, ~ In k (map fst src) -> lookup dst' k = lookup dst k).
Proof. exact copy_grad_spec. Qed.
Print Assumptions C34_copy_grad.

Definition ex_src := mk_source [(0, [8; 4]%Q); (3, [1]%Q)] [(5, ([2]%Q, [3]%Q))].
Definition ex_dst := mk_link [(3, Some [5]%Q); (0, Some [0; 0]%Q); (7, None)] [(5, ([0]%Q, [1]%Q))].
Example C34_example_matches : matches ex_dst ex_src.
Proof.
  split; [repeat constructor; cbn; intuition discriminate|]. split; [repeat constructor; cbn; intuition|].
  split; intros k s H; cbn in H; repeat destruct H as [H|H]; try contradiction; injection H as <- <-; eexists; cbn; eauto.
Qed.
Example C34_example_soft : exists l, sync_times 2 ex_src ex_dst Soft (1#2)%Q = Ok l /\
  exists v, at_link l (InParam 0 0) = Some v /\ (v == 6)%Q.
Proof. eexists. split; [vm_compute; reflexivity|]. eexists. split; [vm_compute; reflexivity|reflexivity]. Qed.
Example C34_example_missing : synchronize_parameters (mk_source [(9, [1]%Q)] []) ex_dst Hard 0%Q = Raise KeyError /\
  synchronize_parameters (mk_source [(7, [1]%Q)] []) ex_dst Hard 0%Q = Raise TypeError.
Proof. split; reflexivity. Qed.

(** C34 and C47, one environment: whatever calls are made, the replay buffer
    receives exactly the transitions between successive calls, the updater is
    called once per step, and the target is synchronised at the steps whose
    number (counted from 0 for DQN, from 1 for DDPG) is a multiple of the
    interval. *)
Theorem C47_single_mode : forall (Obs Act Rew : Type) (interval : nat) (choose : list (ev Obs Act Rew) -> Obs -> res Act)
    (k : kind) (ops : list (op Obs Rew)) g' hist evs,
  forallb single_op ops = true ->
  run k interval choose agent_init ops [] = (Ok (g', hist), evs) ->
  map fst hist = ops /\ buffer_ops evs = stored k hist /\
  clock evs = flat_map (tick k interval) (seq (match k with KDQN => 0 | _ => 1 end) (acts ops)).
Proof.
  intros Obs Act Rew interval choose k ops g' hist evs Hs H.
  destruct (@run_single Obs Act Rew interval choose k ops agent_init None [] g' hist evs Hs eq_refl H)
    as (l & -> & H1 & H2 & H3 & _).
  split; [exact H1|]. split; [exact H2|]. destruct k; exact H3.
Qed.
Print Assumptions C47_single_mode.

(** ... and such a history never raises if the action selection does not. *)
Theorem C47_single_mode_runs : forall (Obs Act Rew : Type) (interval : nat) (choose : list (ev Obs Act Rew) -> Obs -> res Act)
    (k : kind) (ops : list (op Obs Rew)),
  0 < interval -> (forall h o, exists a, choose h o = Ok a) -> well_formed k false ops = true ->
  exists g' hist evs, run k interval choose agent_init ops [] = (Ok (g', hist), evs).
Proof.
  intros Obs Act Rew interval choose k ops Hi Hc Hw.
  apply (@run_single_total Obs Act Rew interval choose k ops agent_init []); auto. cbn. tauto.
Qed.
Print Assumptions C47_single_mode_runs.

(** C47 and C34, vectorised: every environment contributes its own transition
    in every round; the target is synchronised whenever the number of observed
    transitions reaches a multiple of the interval. *)
Theorem C47_batch_mode : forall (Obs Act Rew : Type) (interval : nat) (choose : list (ev Obs Act Rew) -> Obs -> res Act)
    (k : kind) (rounds : list (list Obs * list (row Obs Rew))) g' hist evs,
  Forall (fun rd => length (fst rd) = length (snd rd)) rounds ->
  run k interval choose agent_init (flat_map (fun rd => [OBAct (fst rd); OBObs (snd rd)]) rounds) [] = (Ok (g', hist), evs) ->
  exists rs, hist = calls_of_rounds rs /\ map (fun '(os, _, xs) => (os, xs)) rs = rounds /\
    Forall (fun '(os, acts, _) => length acts = length os) rs /\
    buffer_ops evs = stored_rounds rs /\
    clock evs = flat_map (tick k interval) (seq 1 (length (concat (map snd rounds)))).
Proof.
  intros Obs Act Rew interval choose k rounds g' hist evs Hf H.
  destruct (@run_rounds Obs Act Rew interval choose k rounds agent_init [] g' hist evs Hf H) as (rs & l & -> & H1 & H2 & H3 & H4 & H5). exists rs. auto.
Qed.
Print Assumptions C47_batch_mode.

(** C47 together with C11: after any interaction, the n-step replay buffer holds
    exactly the newest windows of the experienced episodes. *)
Theorem C47_buffer_after_interaction : forall (Obs Act Rew : Type) (cap : option nat) (n : nat) (k : kind) (interval : nat)
    (choose : list (ev Obs Act Rew) -> Obs -> res Act) (ops : list (op Obs Rew)) g' hist evs,
  0 < n -> forallb single_op ops = true ->
  run k interval choose agent_init ops [] = (Ok (g', hist), evs) ->
  exists b0 b log, rb_init cap n = Ok b0 /\ nrb_run (@raq_append _) b0 (buffer_ops evs) = Ok b /\
    exact_log n (stored k hist) log /\ raq_iter (nr_mem b) = trim cap (map snd log).
Proof. exact buffer_after_interaction. Qed.
Print Assumptions C47_buffer_after_interaction.

(** An episode of three steps that is terminal, then one cut off after one step. *)
Definition ex_choose : list (ev nat nat nat) -> nat -> res nat := fun _ o => Ok (o * 10).
Definition ex_ops : list (op nat nat) :=
  [OAct 1 0; OAct 2 100; OStopEp; OAct 3 200; OStop 4 300 true; OAct 5 0; OStop 6 400 false].
Example C47_example : exists g hist evs, run KDQN 2 ex_choose agent_init ex_ops [] = (Ok (g, hist), evs) /\
  buffer_ops evs =
    [RAppend 0 (mk_tr 1 10 100 2 None false) false; RAppend 0 (mk_tr 2 20 200 3 None false) false;
     RAppend 0 (mk_tr 3 30 300 4 (Some 30) true) true; RStop 0;
     RAppend 0 (mk_tr 5 50 400 6 (Some 50) false) false; RStop 0] /\
  clock evs = [CSync; CUpdate 0; CUpdate 1; CSync; CUpdate 2; CUpdate 3] /\
  well_formed KDQN false ex_ops = true.
Proof. do 3 eexists. split; [vm_compute; reflexivity|]. split; [vm_compute; reflexivity|]. split; vm_compute; reflexivity. Qed.
Example C47_example_batch : exists g hist evs,
  run KDDPG 3 ex_choose agent_init
    [OBAct [1; 2]; OBObs [(3, 7, false, true); (4, 8, true, false)]; OBAct [5; 6]; OBObs [(7, 9, false, false); (8, 9, false, false)]] []
    = (Ok (g, hist), evs) /\
  buffer_ops evs =
    [RAppend 0 (mk_tr 1 10 7 3 None false) false; RStop 0; RAppend 1 (mk_tr 2 20 8 4 None true) true; RStop 1;
     RAppend 0 (mk_tr 5 50 9 7 None false) false; RAppend 1 (mk_tr 6 60 9 8 None false) false] /\
  clock evs = [CUpdate 1; CUpdate 2; CSync; CUpdate 3; CUpdate 4].
Proof. do 3 eexists. split; [vm_compute; reflexivity|]. split; vm_compute; reflexivity. Qed.

(** C34, "exactly at the multiples of the interval": the same two steps of DQN
    synchronise the target in single mode (at step 0) and not in batch mode. *)
Theorem C34_single_batch_schedule_refuted : exists g1 h1 e1 g2 h2 e2,
  run KDQN 3 ex_choose agent_init [OAct 1 0; OAct 2 7; OStop 3 7 false] [] = (Ok (g1, h1), e1) /\
  run KDQN 3 ex_choose agent_init [OBAct [1]; OBObs [(2, 7, false, false)]; OBAct [2]; OBObs [(3, 7, false, true)]] [] = (Ok (g2, h2), e2) /\
  In CSync (clock e1) /\ ~ In CSync (clock e2).
Proof.
  do 6 eexists. split; [vm_compute; reflexivity|]. split; [vm_compute; reflexivity|].
  split; [vm_compute; left; reflexivity|]. vm_compute. intuition discriminate.
Qed.
Print Assumptions C34_single_batch_schedule_refuted.

(** C57: TD3 updates its critics every time and its policy and targets at every
    [delay]-th update. *)
Theorem C57_td3_delayed_updates : forall delay n, 0 < delay -> exists q_t,
  td3_updates delay n 0 = Ok (flat_map (fun i => UQ :: if i mod delay =? 0 then [UPolicy; USoftSync] else []) (seq 1 n), q_t) /\ q_t = n.
Proof. exact td3_schedule. Qed.
Print Assumptions C57_td3_delayed_updates.
Example C57_example : td3_updates 2 3 0 = Ok ([UQ; UQ; UPolicy; USoftSync; UQ], 3).
Proof. reflexivity. Qed.
