From Coq Require Import QArith.
From Verif Require Import Base.PyBase Base.Effects Model.TrainAgent Model.TrainAgentBatch Spec.TrainBatchProtocol Proofs.TrainAgentProofs.
Set Implicit Arguments.
Local Open Scope nat_scope.

Lemma map2_length {A B C} (f : A -> B -> C) l m : length l = length m -> length (map2 f l m) = length m.
Proof. revert m; induction l; intros [|]; cbn; intros; try lia. f_equal. apply IHl. lia. Qed.
Lemma map2_nth {A B C} (f : A -> B -> C) l m j : nth_error (map2 f l m) j =
  match nth_error l j, nth_error m j with Some a, Some b => Some (f a b) | _, _ => None end.
Proof. revert m j; induction l as [|a l IH]; intros [|b m] [|j]; cbn; auto. now destruct (nth_error l j). Qed.

Section T.
  Context {Obs Act Rw : Type}.
  Variable w : @bworld Obs Act Rw.
  Variable c : bconfig.
  Notation bev := (@bev Obs Act Rw).
  Notation bppath := (@bppath Obs Act Rw c).
  Notation bpstep := (@bpstep Obs Act Rw c).
  Notation bphase := (@bphase Obs Act Rw).
  Notation N := (b_envs c).
  Hypothesis Hw : forall tr xs, bw_step w tr = Ok xs -> length xs = N.
  Hypothesis HN : 1 <= N.

  Lemma bppath_app p l p' l' p'' : bppath p l p' -> bppath p' l' p'' -> bppath p (l ++ l') p''.
  Proof. induction 1; cbn; auto. intros. econstructor; eauto. Qed.
  Lemma b_core_app (a b : list bev) : b_core (a ++ b) = b_core a ++ b_core b.
  Proof. apply filter_app. Qed.
  Lemma b_nsteps_app (a b : list bev) : b_nsteps (a ++ b) = b_nsteps a + b_nsteps b.
  Proof. unfold b_nsteps. rewrite filter_app, app_length. lia. Qed.
  Lemma b_nf_app (a b : list bev) : b_no_final a -> b_no_final b -> b_no_final (a ++ b).
  Proof. intros Ha Hb e He. apply in_app_or in He as [?|?]; auto. Qed.
  Lemma b_ns_app (a b : list bev) : no_stop c a -> no_stop c b -> no_stop c (a ++ b).
  Proof. intros Ha Hb e He. apply in_app_or in He as [?|?]; auto. Qed.
  Lemma b_ck_app (a b : list bev) : b_checkpoints (a ++ b) = b_checkpoints a ++ b_checkpoints b.
  Proof. induction a as [|[] a IH]; cbn; auto. destruct s; cbn; now rewrite ?IH. Qed.

  Ltac nf := let e := fresh in let H := fresh in intros e H; cbn in H; clear - H; intuition (subst; reflexivity).
  Ltac ns := let e := fresh in let H := fresh in intros e H; cbn in H; clear - H; intuition (subst; cbn in *; tauto).
  Ltac blame := unfold from_bworld; eexists; intuition eauto 10.

  (** Segments without protocol events, final saves or stopping evaluations. *)
  Definition quiet (seg : list bev) : Prop := b_core seg = [] /\ b_nsteps seg = 0 /\ b_no_final seg /\ no_stop c seg.
  Lemma quiet_nil : quiet [].
  Proof. split; [auto|]. split; [auto|]. split; [nf|ns]. Qed.
  Lemma quiet_app a b : quiet a -> quiet b -> quiet (a ++ b).
  Proof.
    intros (A1 & A2 & A3 & A4) (B1 & B2 & B3 & B4). split; [now rewrite b_core_app, A1, B1|]. split; [rewrite b_nsteps_app; lia|].
    split; [apply b_nf_app; auto|apply b_ns_app; auto].
  Qed.

  Definition bdue1 (t : Z) : list Z := if b_due c t then [t] else [].

  Lemma bhooks_runs k : forall i t tr, exists out seg, b_hook_calls w i k t tr = (out, tr ++ seg) /\ quiet seg /\ b_checkpoints seg = [] /\
    match out with Ok _ => True | Raise e => from_bworld w e end.
  Proof.
    induction k as [|k IH]; intros i t tr; cbn [b_hook_calls].
    - exists (Ok tt), []. rewrite app_nil_r. split; [auto|]. split; [apply quiet_nil|auto].
    - unfold ebind. destruct (call_cases (bw_hook w) (fun _ => @BHook Obs Act Rw i t) tr) as [(a & ->)|(e & Hraise & ->)].
      + destruct (IH (S i) t (tr ++ [BHook i t])) as (out & seg & -> & H1 & H2 & H3). exists out, (BHook i t :: seg). rewrite <- app_assoc.
        split; [auto|]. split; [|auto]. apply (@quiet_app [_]); auto. split; [auto|]. split; [auto|]. split; [nf|ns].
      + exists (Raise e), []. rewrite app_nil_r. split; [auto|]. split; [apply quiet_nil|]. split; [auto|blame].
  Qed.

  Lemma bckpt_runs t tr : exists out seg, b_checkpoint w c t tr = (out, tr ++ seg) /\ quiet seg /\
    match out with Ok _ => b_checkpoints seg = bdue1 t | Raise e => seg = [] /\ from_bworld w e end.
  Proof.
    assert (Hno : b_due c t = false -> exists out seg, (Ok tt, tr) = (out, tr ++ seg) /\ quiet seg /\
      match out with Ok _ => b_checkpoints seg = bdue1 t | Raise e => seg = [] /\ from_bworld w e end).
    { intros Hd. exists (Ok tt), []. rewrite app_nil_r. split; [auto|]. split; [apply quiet_nil|]. unfold bdue1. rewrite Hd. auto. }
    unfold b_checkpoint, ret. unfold b_due in Hno. destruct (b_freq c) as [f|] eqn:Ef; [|auto].
    destruct (f =? 0)%Z eqn:E0; cbn [negb andb] in Hno; [auto|]. destruct (t mod f =? 0)%Z eqn:Em; [|auto].
    unfold b_save. destruct (call_cases (bw_save w) (fun _ => @BSave Obs Act Rw SCheckpoint t) tr) as [([] & ->)|(e & Hraise & ->)].
    - exists (Ok tt), [BSave SCheckpoint t]. split; [auto|]. split; [split; [auto|]; split; [auto|]; split; [nf|ns]|].
      unfold bdue1, b_due. rewrite Ef, E0, Em. auto.
    - exists (Raise e), []. rewrite app_nil_r. split; [auto|]. split; [apply quiet_nil|]. split; [auto|blame].
  Qed.

  Lemma handler_runs t tr : exists out seg, b_handler w c t tr = (out, tr ++ seg) /\
    (exists rest, handler_events c t = seg ++ rest) /\ b_core seg = [] /\
    match out with
    | Ok _ => seg = handler_events c t
    | Raise e => (exists tr', bw_save w tr' = Raise e \/ bw_close w tr' = Raise e)
    end.
  Proof.
    unfold b_handler, b_save, b_close, ebind, handler_events.
    destruct (call_cases (bw_save w) (fun _ => @BSave Obs Act Rw SExcept t) tr) as [([] & ->)|(e & Hraise & ->)].
    2: { exists (Raise e), []. rewrite app_nil_r. split; [auto|]. split; [eexists; reflexivity|]. split; [auto|]. eauto. }
    destruct (call_cases (bw_close w) (fun _ => @BClose Obs Act Rw false) (tr ++ [BSave SExcept t])) as [([] & ->)|(e & Hraise & ->)].
    2: { exists (Raise e), [BSave SExcept t]. split; [auto|]. split; [eexists; reflexivity|]. split; [auto|]. eauto. }
    destruct (b_eval c).
    - destruct (call_cases (bw_close w) (fun _ => @BClose Obs Act Rw true) ((tr ++ [BSave SExcept t]) ++ [BClose false])) as [([] & ->)|(e & Hraise & ->)].
      + exists (Ok tt), [BSave SExcept t; BClose false; BClose true]. rewrite <- !app_assoc. split; [auto|]. split; [exists []; auto|]. auto.
      + exists (Raise e), [BSave SExcept t; BClose false]. rewrite <- !app_assoc. split; [auto|]. split; [eexists; reflexivity|]. split; [auto|]. eauto.
    - exists (Ok tt), [BSave SExcept t; BClose false]. rewrite <- !app_assoc. split; [auto|]. split; [exists []; auto|]. auto.
  Qed.

  (** The shape of a segment that ended with an exception whose handler ran at step [t]. *)
  Definition raised (lo hi : Z) (seg : list bev) : Prop :=
    exists seg0 seg1 t, seg = seg0 ++ seg1 /\ b_no_final seg0 /\ (lo <= t <= hi)%Z /\
      (exists rest, handler_events c t = seg1 ++ rest) /\
      (seg1 = handler_events c t \/ exists e' tr', bw_save w tr' = Raise e' \/ bw_close w tr' = Raise e').

  Lemma upto_S t k : upto t (S k) = (t + 1)%Z :: upto (t + 1) k.
  Proof.
    unfold upto. cbn [seq map]. f_equal; [lia|]. rewrite <- seq_shift, map_map. apply map_ext. intros. lia.
  Qed.
  Lemma upto_app t a b : upto t (a + b) = upto t a ++ upto (t + Z.of_nat a) b.
  Proof.
    revert t. induction a as [|a IH]; intros t; cbn [plus]; [cbn; now rewrite Z.add_0_r|].
    rewrite !upto_S, IH. cbn [app]. replace (t + Z.of_nat (S a))%Z with (t + 1 + Z.of_nat a)%Z by lia. reflexivity.
  Qed.

  (** A block under [try] whose exception is handled at [t]. *)
  Lemma try_runs {A} (m : eff bev A) t tr out seg : m tr = (out, tr ++ seg) -> b_no_final seg -> b_core seg = b_core seg ->
    match out with Ok _ => True | Raise e => from_bworld w e end ->
    exists out' seg', try_reraise m (b_handler w c t) tr = (out', tr ++ seg') /\
      match out with
      | Ok a => out' = Ok a /\ seg' = seg
      | Raise _ => exists e, out' = Raise e /\ from_bworld w e /\ b_core seg' = b_core seg /\ raised t t seg' /\
                     b_nsteps seg' = b_nsteps seg
      end.
  Proof.
    intros Hm Hnf _ Hout. unfold try_reraise. rewrite Hm. destruct out as [a|e].
    - exists (Ok a), seg. auto.
    - destruct (handler_runs t (tr ++ seg)) as (oh & sh & -> & Hr & Hc & Hh).
      assert (Hns : b_nsteps sh = 0).
      { destruct Hr as (rest & Hr). unfold handler_events in Hr. 
        assert (Hz : b_nsteps (sh ++ rest) = 0) by (rewrite <- Hr; destruct (b_eval c); reflexivity).
        rewrite b_nsteps_app in Hz. lia. }
      destruct oh as [[]|e'].
      + exists (Raise e), (seg ++ sh). rewrite app_assoc. split; [auto|]. exists e. split; [auto|]. split; [auto|].
        split; [rewrite b_core_app, Hc, app_nil_r; auto|]. split; [|rewrite b_nsteps_app; lia].
        exists seg, sh, t. split; [auto|]. split; [auto|]. split; [lia|]. auto.
      + exists (Raise e'), (seg ++ sh). rewrite app_assoc. split; [auto|]. exists e'. split; [auto|].
        split; [destruct Hh as (tr' & Hh); blame|].
        split; [rewrite b_core_app, Hc, app_nil_r; auto|]. split; [|rewrite b_nsteps_app; lia].
        exists seg, sh, t. split; [auto|]. split; [auto|]. split; [lia|]. split; [auto|]. right. destruct Hh as (tr' & Hh). eauto.
  Qed.

  Lemma ticks_runs k : forall t tr, exists out seg, b_ticks w c k t tr = (out, tr ++ seg) /\ b_core seg = [] /\ b_nsteps seg = 0 /\
    match out with
    | Ok t' => t' = (t + Z.of_nat k)%Z /\ quiet seg /\ b_checkpoints seg = filter (b_due c) (upto t k)
    | Raise e => from_bworld w e /\ raised t (t + Z.of_nat k) seg
    end.
  Proof.
    induction k as [|k IH]; intros t tr; cbn [b_ticks].
    - exists (Ok t), []. unfold ret. rewrite app_nil_r. split; [auto|]. split; [auto|]. split; [auto|]. split; [lia|]. split; [apply quiet_nil|auto].
    - unfold ebind at 1.
      assert (Hm : exists out seg, (b_checkpoint w c (t + 1);;; b_hook_calls w 0 (b_hooks c) (t + 1)) tr = (out, tr ++ seg) /\ quiet seg /\
         match out with Ok _ => b_checkpoints seg = bdue1 (t + 1) | Raise e => from_bworld w e end).
      { unfold ebind. destruct (bckpt_runs (t + 1) tr) as (oc & sc & -> & Hq & Hc). destruct oc as [[]|e].
        - destruct (bhooks_runs (b_hooks c) 0 (t + 1) (tr ++ sc)) as (oh & sh & -> & Hq2 & Hc2 & Hh).
          exists oh, (sc ++ sh). rewrite app_assoc. split; [auto|]. split; [apply quiet_app; auto|].
          destruct oh; [|auto]. rewrite b_ck_app, Hc, Hc2, app_nil_r. auto.
        - destruct Hc as [-> Hc]. exists (Raise e), []. auto. }
      destruct Hm as (om & sm & Hm & (Q1 & Q2 & Q3 & Q4) & Hc).
      destruct (@try_runs _ _ (t + 1)%Z tr om sm Hm Q3 eq_refl ltac:(destruct om; auto)) as (o' & s' & -> & Ht).
      destruct om as [[]|e].
      + destruct Ht as [-> ->]. destruct (IH (t + 1)%Z (tr ++ sm)) as (out & seg & -> & Hcore & Hn & Hout).
        exists out, (sm ++ seg). rewrite app_assoc. split; [auto|]. split; [rewrite b_core_app, Q1, Hcore; auto|].
        split; [rewrite b_nsteps_app; lia|].
        destruct out as [t'|e].
        * destruct Hout as (-> & Hq & Hck). split; [lia|]. split; [apply quiet_app; auto; repeat (split; auto)|].
          rewrite b_ck_app, Hc, Hck, upto_S. cbn [filter]. unfold bdue1. destruct (b_due c (t + 1)); reflexivity.
        * destruct Hout as (He & s0 & s1 & t0 & -> & H1 & H2 & H3). split; [auto|].
          exists (sm ++ s0), s1, t0. rewrite app_assoc. split; [auto|]. split; [apply b_nf_app; auto|]. split; [lia|auto].
      + destruct Ht as (e' & -> & He' & Hcore & Hr & Hn). exists (Raise e'), s'. split; [auto|]. split; [congruence|]. split; [lia|].
        split; [auto|]. destruct Hr as (s0 & s1 & t0 & -> & H1 & H2 & H3). exists s0, s1, t0. split; [auto|]. split; [auto|]. split; [lia|auto].
  Qed.

  Lemma flags_ok lens (xs : list (@answer Obs Rw)) : length lens = N -> length xs = N ->
    reset_flags c lens xs (map2 (b_reset_flag c) lens xs) /\
    end_flags c lens xs (map2 orb (map2 (b_reset_flag c) lens xs) (map a_done xs)).
  Proof.
    intros Hl Hx. assert (Hr : forall (x : @answer Obs Rw) l, b_reset_flag c l x = true <-> a_needs x = true \/ b_maxlen c = Some l).
    { intros x l. unfold b_reset_flag, eqb_opt. rewrite orb_true_iff. destruct (b_maxlen c) as [m|].
      - rewrite Z.eqb_eq. intuition (subst; auto); try congruence.
      - intuition discriminate. }
    split.
    - split; [rewrite map2_length; lia|]. intros j x l Hj Hjl. rewrite map2_nth, Hj, Hjl. eexists. split; [reflexivity|apply Hr].
    - split; [rewrite map2_length; rewrite ?map_length, ?map2_length; lia|]. intros j x l Hj Hjl.
      rewrite map2_nth, map2_nth, nth_error_map, Hj, Hjl. cbn. eexists. split; [reflexivity|]. rewrite orb_true_iff, Hr. tauto.
  Qed.
  Lemma lens_ok lens ends : length lens = N -> length ends = N ->
    lens_after c lens ends (map2 (fun (e : bool) l => if e then 0%Z else l) ends lens).
  Proof.
    intros Hl He. split; [rewrite map2_length; lia|]. intros j l e Hj Hje. rewrite map2_nth, Hj, Hje. reflexivity.
  Qed.

  Definition loop_post (fuel : nat) (p : bphase) (t : Z) (out : res Z) (seg : list bev) : Prop :=
    (exists p', bppath p (b_core seg) p') /\
    match out with
    | Ok t' => b_no_final seg /\ 1 <= b_nsteps seg /\ t' = (t + Z.of_nat (N * b_nsteps seg))%Z /\
        b_checkpoints seg = filter (b_due c) (upto t (N * b_nsteps seg)) /\
        (b_nsteps seg = 1 \/ (t + Z.of_nat (N * (b_nsteps seg - 1)) < b_steps c)%Z) /\
        (((b_steps c <= t')%Z /\ no_stop c seg) \/
         exists seg0 k s best, seg = seg0 ++ [BEval t' k (Some s) best] /\ stops c (@BEval Obs Act Rw t' k (Some s) best) /\ no_stop c seg0)
    | Raise e => (from_bworld w e /\ raised (t + Z.of_nat (N * (b_nsteps seg - 1))) (t + Z.of_nat (N * b_nsteps seg)) seg) \/
        (e = OutOfFuel /\ (fuel = 0 \/ (t + Z.of_nat (N * fuel) < b_steps c)%Z))
    end.

  Lemma truthy_stops t k s best : truthy s && match b_success c with None => false | Some q => Qle_bool q best end = true <->
    stops c (@BEval Obs Act Rw t k s best).
  Proof.
    unfold stops, truthy. destruct s as [s|]; [|cbn; intuition discriminate]. rewrite andb_true_iff, negb_true_iff.
    split.
    - intros [H1 H2]. split; [intros E; apply Qeq_bool_iff in E; congruence|]. destruct (b_success c) as [q|]; [|discriminate].
      exists q. split; [auto|]. now apply Qle_bool_iff.
    - intros [H1 (q & -> & H2)]. split; [|now apply Qle_bool_iff]. destruct (Qeq_bool s 0) eqn:E; [|auto]. apply Qeq_bool_iff in E. contradiction.
  Qed.

  Lemma loop_runs fuel : forall t obss lens idx tr, length lens = N ->
    exists out seg, b_loop w c fuel t obss lens idx tr = (out, tr ++ seg) /\ loop_post fuel (BPAct obss lens t) t out seg.
  Proof.
    induction fuel as [|fuel IH]; intros t obss lens idx tr Hlen; cbn [b_loop].
    { exists (Raise OutOfFuel), []. unfold raise. rewrite app_nil_r. split; [auto|]. split; [eexists; constructor|auto]. }
    (* first block *)
    unfold ebind at 1.
    set (lens1 := map (fun l => l + 1)%Z lens).
    set (blk := ebind (call (bw_act w) (BAct obss)) _).
    assert (Hblk : exists out seg p', blk tr = (out, tr ++ seg) /\ quiet (filter (fun e => negb (match e with BAct _ _ | BStep _ _ | BObserve _ _ _ _ => true | _ => false end)) seg) /\
       b_no_final seg /\ no_stop c seg /\ b_checkpoints seg = [] /\ bppath (BPAct obss lens t) (b_core seg) p' /\
       match out with
       | Ok (xs, l, ends) => l = lens1 /\ length xs = N /\ b_nsteps seg = 1 /\ length ends = N /\ p' = BPSeen lens1 ends (t + Z.of_nat N)
       | Raise e => from_bworld w e /\ b_nsteps seg <= 1 end).
    { unfold blk. unfold ebind at 1.
      destruct (call_cases (bw_act w) (BAct obss) tr) as [(acts & ->)|(e & Hraise & ->)].
      2: { exists (Raise e), [], (BPAct obss lens t). rewrite app_nil_r. split; [auto|]. split; [apply quiet_nil|]. split; [nf|]. split; [ns|].
           split; [auto|]. split; [constructor|]. split; [blame|cbn; lia]. }
      unfold ebind at 1.
      destruct (call_cases (bw_step w) (BStep acts) (tr ++ [BAct obss acts])) as [(xs & Hcall)|(e & Hraise & ->)].
      2: { exists (Raise e), [BAct obss acts], (BPStep acts lens t). split; [auto|]. split; [apply quiet_nil|]. split; [nf|]. split; [ns|].
           split; [auto|]. split; [econstructor; [apply bp_act|constructor]|]. split; [blame|cbn; lia]. }
      assert (Hlx : length xs = N).
      { unfold call in Hcall. destruct (bw_step w (tr ++ [BAct obss acts])) as [xs'|] eqn:Ew; [|discriminate].
        injection Hcall as <- _. eauto. }
      rewrite Hcall. clear Hcall. rewrite <- app_assoc. cbn [app]. unfold ebind. fold lens1.
      set (resets := map2 (b_reset_flag c) lens1 xs).
      destruct (@flags_ok lens1 xs) as [Hfl1 Hfl2]; [unfold lens1; rewrite map_length; auto|auto|]. fold resets in Hfl1, Hfl2.
      set (ob := BObserve (map a_obs xs) (map a_rew xs) (map a_done xs) resets).
      destruct (call_cases (bw_observe w) (fun _ => ob) (tr ++ [BAct obss acts; BStep acts xs])) as [([] & ->)|(e & Hraise & ->)].
      - exists (Ok (xs, lens1, map2 orb resets (map a_done xs))), [BAct obss acts; BStep acts xs; ob],
          (BPSeen lens1 (map2 orb resets (map a_done xs)) (t + Z.of_nat N)). rewrite <- app_assoc. split; [auto|].
        split; [apply quiet_nil|]. split; [nf|]. split; [ns|]. split; [auto|].
        split; [cbn; econstructor; [apply bp_act|]; econstructor; [apply bp_step; auto|]; econstructor; [exact (bp_observe t Hfl1 Hfl2)|constructor]|].
        split; [auto|].
        split; [auto|]. split; [auto|]. split; [exact (proj1 Hfl2)|auto].
      - exists (Raise e), [BAct obss acts; BStep acts xs], (BPObserve xs lens1 t). split; [auto|]. split; [apply quiet_nil|]. split; [nf|]. split; [ns|].
        split; [auto|]. split; [cbn; econstructor; [apply bp_act|]; econstructor; [apply bp_step; auto|constructor]|]. split; [blame|cbn; lia]. }
    destruct Hblk as (o1 & s1 & p1 & Hblk & _ & Hnf1 & Hns1 & Hck1 & Hp1 & Ho1).
    destruct (@try_runs _ blk t tr o1 s1 Hblk Hnf1 eq_refl ltac:(destruct o1; tauto)) as (o1' & s1' & -> & Ht1).
    destruct o1 as [[[xs l] ends]|e].
    2: { destruct Ht1 as (e' & -> & He' & Hc & Hr & Hn). exists (Raise e'), s1'. split; [auto|].
         split; [exists p1; congruence|]. left. split; [auto|]. destruct Hr as (s0 & sr & t0 & Hseg & H1 & H2 & H3). exists s0, sr, t0.
         split; [auto|]. split; [auto|]. split; [|auto]. destruct Ho1 as [_ Ho1]. rewrite Hn.
         replace (b_nsteps s1 - 1) with 0 by lia. nia. }
    destruct Ht1 as [-> ->]. destruct Ho1 as (-> & Hlx & Hn1 & Hle & ->).
    (* ticks *)
    unfold ebind at 1. destruct (ticks_runs N t (tr ++ s1)) as (o2 & s2 & -> & Hc2 & Hn2 & Ho2).
    assert (Hp2 : bppath (BPAct obss lens t) (b_core (s1 ++ s2)) (BPSeen lens1 ends (t + Z.of_nat N))).
    { rewrite b_core_app, Hc2, app_nil_r. auto. }
    destruct o2 as [t'|e].
    2: { exists (Raise e), (s1 ++ s2). rewrite app_assoc. destruct Ho2 as [He Hr]. split; [auto|].
         split; [eauto|]. left. split; [auto|]. destruct Hr as (s0 & sr & t0 & -> & H1 & H2 & H3). exists (s1 ++ s0), sr, t0.
         split; [now rewrite app_assoc|]. split; [apply b_nf_app; auto|]. split; [|auto].
         rewrite b_nsteps_app, Hn1, Hn2. cbn [plus Nat.sub]. rewrite Nat.mul_0_r, Nat.mul_1_r. lia. }
    destruct Ho2 as (-> & (_ & _ & Hnf2 & Hns2) & Hck2).
    set (t1 := (t + Z.of_nat N)%Z) in *.
    rewrite <- app_assoc.
    set (idx1 := idx + length (filter (fun b => b) ends)).
    (* last block *)
    unfold ebind at 1.
    set (blk2 := ebind (if b_eval c then _ else _) _).
    assert (Hblk2 : exists out seg p', blk2 (tr ++ s1 ++ s2) = (out, (tr ++ s1 ++ s2) ++ seg) /\ b_no_final seg /\ b_checkpoints seg = [] /\ b_nsteps seg = 0 /\
       bppath (BPSeen lens1 ends t1) (b_core seg) p' /\
       match out with
       | Ok None => ((b_steps c <= t1)%Z /\ no_stop c seg) \/ exists s best, seg = [BEval t1 idx1 (Some s) best] /\ stops c (@BEval Obs Act Rw t1 idx1 (Some s) best)
       | Ok (Some (obss', lens')) => no_stop c seg /\ (t1 < b_steps c)%Z /\ p' = BPAct obss' lens' t1 /\ length lens' = N
       | Raise e => from_bworld w e end).
    { unfold blk2. unfold ebind at 1.
      assert (Hev : exists out seg, (if b_eval c then
                       do s <- call (bw_eval w) (fun s => BEval t1 idx1 (fst s) (snd s));;
                       ret (truthy (fst s) && match b_success c with None => false | Some q => Qle_bool q (snd s) end)
                     else ret false) (tr ++ s1 ++ s2) = (out, (tr ++ s1 ++ s2) ++ seg) /\
                b_core seg = [] /\ b_no_final seg /\ b_checkpoints seg = [] /\ b_nsteps seg = 0 /\
                match out with
                | Ok true => exists s best, seg = [BEval t1 idx1 (Some s) best] /\ stops c (@BEval Obs Act Rw t1 idx1 (Some s) best)
                | Ok false => no_stop c seg
                | Raise e => from_bworld w e end).
      { destruct (b_eval c).
        - unfold ebind. destruct (call_cases (bw_eval w) (fun s => @BEval Obs Act Rw t1 idx1 (fst s) (snd s)) (tr ++ s1 ++ s2)) as [([s best] & ->)|(e & Hraise & ->)].
          + cbn [fst snd]. unfold ret. pose proof (truthy_stops t1 idx1 s best) as Hts.
            destruct (truthy s && match b_success c with None => false | Some q => Qle_bool q best end).
            * exists (Ok true), [BEval t1 idx1 s best]. split; [auto|]. split; [auto|]. split; [nf|]. split; [auto|]. split; [auto|].
              assert (Hst : stops c (@BEval Obs Act Rw t1 idx1 s best)) by (apply Hts; auto).
              destruct s as [s|]; [|destruct Hst]. eauto.
            * exists (Ok false), [BEval t1 idx1 s best]. split; [auto|]. split; [auto|]. split; [nf|]. split; [auto|]. split; [auto|].
              intros e [<-|[]] Hst. apply Hts in Hst. discriminate.
          + exists (Raise e), []. rewrite app_nil_r. split; [auto|]. split; [auto|]. split; [nf|]. split; [auto|]. split; [auto|]. blame.
        - exists (Ok false), []. rewrite app_nil_r. split; [auto|]. split; [auto|]. split; [nf|]. split; [auto|]. split; [auto|]. ns. }
      destruct Hev as (oe & se & -> & Hce & Hnfe & Hcke & Hne & Hse). destruct oe as [[|]|e].
      - unfold ret. exists (Ok None), se, (BPSeen lens1 ends t1). split; [auto|]. split; [auto|]. split; [auto|]. split; [auto|]. split; [rewrite Hce; constructor|]. right. auto.
      - destruct (b_steps c <=? t1)%Z eqn:Est.
        + unfold ret. exists (Ok None), se, (BPSeen lens1 ends t1). split; [auto|]. split; [auto|]. split; [auto|]. split; [auto|]. split; [rewrite Hce; constructor|]. left. split; [lia|auto].
        + unfold ebind. destruct (call_cases (bw_reset w) (BReset (Some (map negb ends))) ((tr ++ s1 ++ s2) ++ se)) as [(obss' & ->)|(e & Hraise & ->)].
          * unfold ret. exists (Ok (Some (obss', map2 (fun (e : bool) l => if e then 0%Z else l) ends lens1))), (se ++ [BReset (Some (map negb ends)) obss']),
              (BPAct obss' (map2 (fun (e : bool) l => if e then 0%Z else l) ends lens1) t1).
            assert (Hl1 : length lens1 = N) by (unfold lens1; now rewrite map_length).
            split; [now rewrite !app_assoc|]. split; [apply b_nf_app; [auto|nf]|]. split; [rewrite b_ck_app, Hcke; auto|].
            split; [rewrite b_nsteps_app, Hne; auto|].
            split; [rewrite b_core_app, Hce; cbn; econstructor; [apply bp_reset; [lia|apply lens_ok; auto]|constructor]|].
            split; [apply b_ns_app; [auto|ns]|]. split; [lia|]. split; [auto|]. rewrite map2_length; lia.
          * exists (Raise e), se, (BPSeen lens1 ends t1). split; [auto|]. split; [auto|]. split; [auto|]. split; [auto|]. split; [rewrite Hce; constructor|]. blame.
      - exists (Raise e), se, (BPSeen lens1 ends t1). split; [auto|]. split; [auto|]. split; [auto|]. split; [auto|]. split; [rewrite Hce; constructor|]. auto. }
    destruct Hblk2 as (o3 & s3 & p3 & Hblk2 & Hnf3 & Hck3 & Hn3 & Hp3 & Ho3).
    destruct (@try_runs _ blk2 t1 (tr ++ s1 ++ s2) o3 s3 Hblk2 Hnf3 eq_refl ltac:(destruct o3 as [[[]|]|]; tauto)) as (o3' & s3' & -> & Ht3).
    set (sa := (s1 ++ s2) ++ s3).
    assert (Hpa : bppath (BPAct obss lens t) (b_core sa) p3) by (unfold sa; rewrite b_core_app; eapply bppath_app; eauto).
    assert (Hnfa : b_no_final sa) by (apply b_nf_app; [apply b_nf_app; auto|auto]).
    assert (Hna : b_nsteps sa = 1) by (unfold sa; rewrite !b_nsteps_app; lia).
    assert (Hcka : b_checkpoints sa = filter (b_due c) (upto t N)) by (unfold sa; rewrite !b_ck_app, Hck1, Hck2, Hck3, app_nil_r; auto).
    destruct o3 as [[[obss' lens']|]|e].
    - (* go on *)
      destruct Ht3 as [-> ->]. destruct Ho3 as (Hns3 & Hlt & -> & Hll).
      assert (Hnsa : no_stop c sa) by (apply b_ns_app; [apply b_ns_app; auto|auto]).
      replace ((tr ++ s1 ++ s2) ++ s3) with (tr ++ sa) by (unfold sa; now rewrite !app_assoc).
      destruct (IH t1 obss' lens' idx1 (tr ++ sa) Hll) as (out & seg & -> & ((p' & Hp') & Hout)).
      exists out, (sa ++ seg). rewrite app_assoc. split; [auto|].
      split; [exists p'; rewrite b_core_app; eapply bppath_app; eauto|].
        destruct out as [t'|e].
        * destruct Hout as (H1 & H2 & H3 & H4 & H5 & H6). rewrite b_nsteps_app, Hna.
          split; [apply b_nf_app; auto|]. split; [lia|]. split; [unfold t1 in *; nia|].
          split. { rewrite b_ck_app, Hcka, H4. replace (N * (1 + b_nsteps seg)) with (N + N * b_nsteps seg) by nia. rewrite upto_app, filter_app. auto. }
          split. { right. replace (1 + b_nsteps seg - 1) with (b_nsteps seg) by lia. destruct H5 as [H5|H5].
            - rewrite H5, Nat.mul_1_r. exact Hlt.
            - unfold t1 in H5. nia. }
          destruct H6 as [[H6 H7]|(s0 & k & sc & best & -> & H7 & H8)]; [left|right].
          -- split; [auto|]. apply b_ns_app; auto.
          -- exists (sa ++ s0), k, sc, best. split; [now rewrite app_assoc|]. split; [auto|]. apply b_ns_app; auto.
        * destruct Hout as [[He Hr]|[-> Hr]]; [left|right; split; [auto|right; unfold t1 in *; destruct Hr as [->|Hr]; [rewrite Nat.mul_1_r; auto|nia]]]. split; [auto|].
          destruct Hr as (s0 & sr & t0 & -> & H1 & H2 & H3). exists (sa ++ s0), sr, t0. split; [now rewrite app_assoc|].
          split; [apply b_nf_app; auto|]. split; [|auto]. rewrite (b_nsteps_app sa), Hna. unfold t1 in H2.
          destruct (b_nsteps (s0 ++ sr)) as [|q]; nia.
    - destruct Ht3 as [-> ->]. unfold ret. exists (Ok t1), sa. split; [unfold sa; now rewrite !app_assoc|].
      split; [eauto|]. rewrite Hna, Nat.mul_1_r. split; [auto|]. split; [lia|]. split; [auto|]. split; [auto|]. split; [auto|].
      destruct Ho3 as [[H1 H2]|(s & best & -> & H2)]; [left|right].
      + split; [auto|]. apply b_ns_app; [apply b_ns_app; auto|auto].
      + exists (s1 ++ s2), idx1, s, best. split; [auto|]. split; [auto|]. apply b_ns_app; auto.
    - destruct Ht3 as (e' & -> & He' & Hc & Hr & Hn). exists (Raise e'), ((s1 ++ s2) ++ s3'). rewrite <- !app_assoc. split; [auto|].
      rewrite !app_assoc.
      split; [exists p3; rewrite b_core_app, Hc; eapply bppath_app; eauto|]. left. split; [auto|].
      destruct Hr as (s0 & sr & t0 & -> & H1 & H2 & H3). exists ((s1 ++ s2) ++ s0), sr, t0. split; [now rewrite !app_assoc|].
      split; [apply b_nf_app; [apply b_nf_app; auto|auto]|]. split; [|auto].
      rewrite !b_nsteps_app in *. rewrite Hn1, Hn2. replace (1 + 0 + (b_nsteps s0 + b_nsteps sr)) with 1 by lia.
      cbn [Nat.sub]. rewrite Nat.mul_0_r, Nat.mul_1_r. unfold t1 in H2. lia.
  Qed.

  Lemma train_batch_ok fuel : let (out, tr) := train_agent_batch w c fuel [] in
    (exists p, bppath BPInit (b_core tr) p) /\
    match out with
    | Ok _ => exists tr0 t, tr = tr0 ++ [BSave SFinish t] /\ b_no_final tr0 /\
        t = (b_offset c + Z.of_nat (N * b_nsteps tr))%Z /\ 1 <= b_nsteps tr /\
        b_checkpoints tr = filter (b_due c) (upto (b_offset c) (N * b_nsteps tr)) /\
        (b_nsteps tr = 1 \/ (t - Z.of_nat N < b_steps c)%Z) /\
        (((b_steps c <= t)%Z /\ no_stop c tr) \/
         exists tr1 k s best, tr0 = tr1 ++ [BEval t k (Some s) best] /\ stops c (@BEval Obs Act Rw t k (Some s) best) /\ no_stop c tr1)
    | Raise e =>
        (from_bworld w e /\ exists tr0 tr1 t, tr = tr0 ++ tr1 /\ b_no_final tr0 /\
          (b_offset c + Z.of_nat (N * (b_nsteps tr - 1)) <= t <= b_offset c + Z.of_nat (N * b_nsteps tr))%Z /\
          (exists rest, handler_events c t = tr1 ++ rest) /\
          (tr1 = handler_events c t \/ bw_reset w [] = Raise e \/ exists e' tr', bw_save w tr' = Raise e' \/ bw_close w tr' = Raise e')) \/
        (e = OutOfFuel /\ ~ b_enough c fuel)
    end.
  Proof.
    unfold train_agent_batch, ebind at 1.
    destruct (call_cases (bw_reset w) (BReset None) ([] : list bev)) as [(obss & ->)|(e & Hraise & ->)].
    2: { split; [exists BPInit; constructor|]. left. split; [blame|]. exists [], [], (b_offset c). split; [auto|]. split; [nf|]. split; [change (b_nsteps (@nil bev)) with 0; cbn [Nat.sub]; lia|].
         split; [eexists; reflexivity|auto]. }
    cbn [app]. unfold ebind.
    destruct (@loop_runs fuel (b_offset c) obss (repeat 0%Z N) 0 [BReset None obss]) as (out & seg & -> & ((p & Hp) & Hout));
      [now rewrite repeat_length|].
    assert (Hpath : bppath BPInit (b_core ([BReset None obss] ++ seg)) p).
    { rewrite b_core_app. cbn. econstructor; [apply bp_first|auto]. }
    assert (Hn : b_nsteps ([BReset None obss] ++ seg) = b_nsteps seg) by reflexivity.
    destruct out as [t|e].
    - destruct Hout as (H1 & H2 & H3 & H4 & H5 & H6). unfold b_save.
      assert (Hf : b_no_final ([BReset None obss] ++ seg)) by (apply b_nf_app; [nf|auto]).
      destruct (call_cases (bw_save w) (fun _ => @BSave Obs Act Rw SFinish t) ([BReset None obss] ++ seg)) as [([] & ->)|(e & Hraise & ->)].
      + split; [exists p; rewrite b_core_app; cbn [b_core filter]; rewrite app_nil_r; auto|].
        exists ([BReset None obss] ++ seg), t. rewrite b_nsteps_app, Hn. change (b_nsteps [BSave SFinish t]) with 0. rewrite Nat.add_0_r.
        split; [auto|]. split; [auto|]. split; [auto|]. split; [auto|].
        split; [rewrite b_ck_app; cbn [b_checkpoints app]; rewrite app_nil_r; auto|].
        split. { destruct H5 as [H5|H5]; [auto|right]. rewrite H3. destruct (b_nsteps seg) as [|q]; [lia|]. cbn [Nat.sub] in H5. rewrite Nat.sub_0_r in H5. nia. }
        destruct H6 as [[H6 H7]|(s1 & k & s & best & -> & H7 & H8)]; [left|right].
        * split; [auto|]. apply b_ns_app; [apply b_ns_app; [ns|auto]|ns].
        * exists ([BReset None obss] ++ s1), k, s, best. split; [now rewrite app_assoc|]. split; [auto|]. apply b_ns_app; [ns|auto].
      + split; [exists p; auto|]. left. split; [blame|]. exists ([BReset None obss] ++ seg), [], t. rewrite app_nil_r. split; [auto|].
        split; [auto|]. split; [rewrite Hn; rewrite H3; nia|]. split; [eexists; reflexivity|]. right; right. eauto.
    - split; [exists p; auto|].
      destruct Hout as [[He Hr]|[-> Hr]]; [left|right].
      + split; [auto|]. destruct Hr as (s0 & sr & t0 & -> & H1 & H2 & H3 & H4). exists ([BReset None obss] ++ s0), sr, t0.
        split; [now rewrite app_assoc|]. split; [apply b_nf_app; [nf|auto]|]. split; [rewrite app_assoc, !b_nsteps_app in *; exact H2|]. split; [auto|]. tauto.
      + split; [auto|]. unfold b_enough. intros [E1 E2]. destruct Hr as [->|Hr]; lia.
  Qed.
End T.
