(** Proofs about the life of a vector env. *)
From Verif Require Import Base.PyBase Model.GymEnv Model.VectorEnv Model.VectorLifecycle Spec.LifecycleSpec.
Set Implicit Arguments.
Local Open Scope nat_scope.

Section Life.
Context {A O X SR SP SC : Type}.
Variable E : env A O X.
Variable eseed : est E -> option Z -> res (est E * SR).
Variable espaces : est E -> SP * SP.
Variable espec : est E -> SC.
Notation lworker := (@lworker A O X SR SP SC E).
Notation lstate := (@lstate A O X SR SP SC E).
Notation wstep := (lworker_step eseed espaces espec).
Notation step := (lstep eseed espaces espec).
Notation run := (lrun eseed espaces espec).

Lemma nth_upd_same : forall T (l : list T) k x y, nth_error l k = Some y -> nth_error (upd l k x) k = Some x.
Proof. induction l; intros [|k] x y H; cbn in *; try discriminate; [reflexivity|]. eapply IHl; eauto. Qed.
Lemma nth_upd_other : forall T (l : list T) k j x, j <> k -> nth_error (upd l k x) j = nth_error l j.
Proof. induction l; intros [|k] [|j] x H; cbn; try reflexivity; try congruence. apply IHl. congruence. Qed.
Lemma upd_length : forall T (l : list T) k x, length (upd l k x) = length l.
Proof. induction l; intros [|k] x; cbn; auto. Qed.
Lemma Forall2_length : forall T U (R : T -> U -> Prop) l l', Forall2 R l l' -> length l = length l'.
Proof. induction 1; cbn; congruence. Qed.
Lemma forall2_nth : forall T U (R : T -> U -> Prop) l l', Forall2 R l l' -> forall i x', nth_error l' i = Some x' -> exists x, nth_error l i = Some x /\ R x x'.
Proof. induction 1; intros [|i] z Hz; cbn in *; try discriminate; [inversion Hz; subst; eauto|eauto]. Qed.
Lemma forall2_upd : forall T U (R : T -> U -> Prop) l l', Forall2 R l l' -> forall i x x', nth_error l i = Some x -> R x x' -> Forall2 R l (upd l' i x').
Proof. induction 1; intros [|i] z z' Hz HR; cbn in *; try discriminate; [inversion Hz; subst; constructor; auto|constructor; eauto]. Qed.

(** *** Workers *)
Definition weight (w : lworker) : nat := match l_proc w with Starting _ => 2 + length (l_in w) | Running _ => 1 + length (l_in w) | Ended _ => 0 end.
Fixpoint weights (ws : list lworker) : nat := match ws with [] => 0 | w :: ws => weight w + weights ws end.
Lemma weights_upd : forall ws i w w', nth_error ws i = Some w -> weights (upd ws i w') + weight w = weights ws + weight w'.
Proof. induction ws; intros [|i] w w' H; cbn in *; try discriminate; [inversion H; subst; lia|]. specialize (IHws _ _ w' H). lia. Qed.
Lemma weights_pending : forall ws, weights ws <= pending ws.
Proof. induction ws as [|w ws IH]; cbn; [lia|]. unfold weight. destruct (l_proc w); lia. Qed.

(** What a worker's step keeps, and that it costs something. *)
Lemma wstep_ok : forall eof w w', wstep eof w = Some w' -> closed_in_time w ->
  closed_in_time w' /\ has_env w' = has_env w /\ weight w' < weight w /\ is_ended w = false.
Proof.
  intros eof [li lo lp lc] w' H HC. unfold lworker_step, leave, closed_in_time, has_env, is_ended, weight in *. cbn in *.
  destruct lp as [[e|x]|e|b]; try discriminate.
  - inversion H; subst; cbn. repeat split; lia.
  - inversion H; subst; cbn. repeat split; lia.
  - destruct li as [|[c| | |] cs].
    + destruct eof; inversion H; subst; cbn. repeat split; lia.
    + destruct (serve E eseed e c) as [[e' r]|x]; inversion H; subst; cbn; repeat split; lia.
    + inversion H; subst; cbn. repeat split; lia.
    + inversion H; subst; cbn. repeat split; lia.
    + inversion H; subst; cbn. repeat split; lia.
Qed.
Lemma wstep_runs : forall eof w, is_ended w = false -> l_in w <> [] \/ eof = true \/ (exists f, l_proc w = Starting f) -> exists w', wstep eof w = Some w'.
Proof.
  intros eof [li lo lp lc] H HI. unfold lworker_step, is_ended in *. cbn in *. destruct lp as [[e|x]|e|b]; eauto; try discriminate.
  destruct li as [|[c| | |] cs]; eauto.
  - destruct HI as [HI|[HI|[f HI]]]; [congruence| |discriminate]. subst eof. eauto.
  - destruct (serve E eseed e c) as [[e' r]|x]; eauto.
Qed.
(** A close message stays until the worker ends. *)
Definition told (w : lworker) : Prop := is_ended w = true \/ In LClose (l_in w).
Lemma wstep_told : forall eof w w', wstep eof w = Some w' -> told w -> told w'.
Proof.
  intros eof [li lo lp lc] w' H HT. unfold lworker_step, leave, told, is_ended in *. cbn in *.
  destruct lp as [[e|x]|e|b]; try discriminate.
  - inversion H; subst; cbn. destruct HT; [discriminate|auto].
  - inversion H; subst; cbn. auto.
  - destruct HT as [HT|HT]; [discriminate|]. destruct li as [|[c| | |] cs].
    + destruct HT.
    + destruct HT as [HT|HT]; [discriminate|]. destruct (serve E eseed e c) as [[e' r]|x]; inversion H; subst; cbn; auto.
    + destruct HT as [HT|HT]; [discriminate|]. inversion H; subst; cbn; auto.
    + destruct HT as [HT|HT]; [discriminate|]. inversion H; subst; cbn; auto.
    + inversion H; subst; cbn; auto.
Qed.

(** Invariants of whole runs. *)
Lemma run_keeps : forall (I : lstate -> Prop) (mu : lstate -> nat) inh,
  (forall s p s', I s -> step inh s p = Some s' -> I s' /\ mu s' < mu s) ->
  forall sched s s', I s -> run inh s sched = Some s' -> I s' /\ length sched + mu s' <= mu s.
Proof.
  intros I mu inh HS. induction sched as [|p sched IH]; intros s s' HI H; cbn [lrun] in H.
  - inversion H; subst. cbn. split; [assumption|lia].
  - destruct (step inh s p) as [s1|] eqn:E1; [|discriminate]. destruct (HS s p s1 HI E1) as [H1 H2]. destruct (IH s1 s' H1 H) as [H3 H4]. split; [assumption|]. cbn [length]. lia.
Qed.

(** *** Closing *)
Definition kept (w w' : lworker) : Prop := closed_in_time w' /\ has_env w' = has_env w.
Definition parent_cost (n : nat) (ph : @lphase O X SR SP SC) : nat :=
  match ph with PClosing i => 2 * (n - i) + n + 2 | PJoining i => n - i + 1 | PAsk _ => 3 | PWait _ => 1 | PGot _ | PClosed | PDead => 0 end.
Definition mu (s : lstate) : nat := weights (l_workers s) + parent_cost (length (l_workers s)) (l_parent s).
Definition told_below (i : nat) (ws : list lworker) : Prop := forall j w, j < i -> nth_error ws j = Some w -> told w.
Definition ended_below (i : nat) (ws : list lworker) : Prop := forall j w, j < i -> nth_error ws j = Some w -> is_ended w = true.
Definition closing_inv (ws0 : list lworker) (s : lstate) : Prop :=
  Forall2 kept ws0 (l_workers s) /\
  match l_parent s with
  | PClosing i => i <= length ws0 /\ told_below i (l_workers s)
  | PJoining i => i <= length ws0 /\ told_below (length ws0) (l_workers s) /\ ended_below i (l_workers s)
  | PClosed => ended_below (length ws0) (l_workers s)
  | _ => False
  end.
Lemma below_upd : forall (P : lworker -> Prop) i ws k w w', nth_error ws k = Some w -> (P w -> P w') ->
  (forall j v, j < i -> nth_error ws j = Some v -> P v) -> forall j v, j < i -> nth_error (upd ws k w') j = Some v -> P v.
Proof.
  intros P i ws k w w' HK HW H j v Hj Hv. destruct (Nat.eq_dec j k) as [->|N].
  - rewrite (nth_upd_same ws k w' HK) in Hv. inversion Hv; subst. apply HW. eapply H; eauto.
  - rewrite nth_upd_other in Hv by exact N. eapply H; eauto.
Qed.
Lemma closing_step : forall ws0 inh s p s', closing_inv ws0 s -> step inh s p = Some s' -> closing_inv ws0 s' /\ mu s' < mu s.
Proof.
  intros ws0 inh [ws ph] p s' [HK HP] H. pose proof (Forall2_length HK) as HL. cbn [l_workers l_parent] in *. destruct p as [|k]; cbn [lstep l_workers l_parent] in H.
  - unfold lparent_step in H. cbn [l_workers l_parent] in H. destruct ph as [q|q|r|i|i| |]; try contradiction; try discriminate.
    + destruct (nth_error ws i) as [w|] eqn:EN.
      * inversion H; subst s'; clear H. assert (i < length ws) as Hi by (apply nth_error_Some; congruence). destruct (forall2_nth HK i EN) as (w0 & HN0 & HC & HE). split.
        -- split; cbn [l_workers l_parent].
           ++ eapply forall2_upd; eauto. split; [exact HC|exact HE].
           ++ split; [lia|]. intros j v Hj Hv. destruct (Nat.eq_dec j i) as [->|N].
              ** rewrite (nth_upd_same ws i _ EN) in Hv. inversion Hv; subst. right. cbn. apply in_app_iff. right. left. reflexivity.
              ** rewrite nth_upd_other in Hv by exact N. destruct HP as [_ HP]. apply (HP j v); [lia|exact Hv].
        -- unfold mu. cbn [l_workers l_parent parent_cost]. rewrite upd_length. pose proof (weights_upd ws i (lsend w LClose) EN) as HW.
           assert (weight (lsend w LClose) <= S (weight w)) by (unfold weight, lsend; cbn; destruct (l_proc w); rewrite ?app_length; cbn; lia). lia.
      * inversion H; subst s'; clear H. apply nth_error_None in EN. split.
        -- split; [exact HK|]. cbn [l_workers l_parent]. split; [lia|]. destruct HP as [HP1 HP2]. split; [intros j v Hj Hv; apply (HP2 j v); [lia|exact Hv]|intros j v Hj; lia].
        -- unfold mu. cbn [l_workers l_parent parent_cost]. lia.
    + destruct HP as (HP1 & HP2 & HP3). destruct (nth_error ws i) as [w|] eqn:EN.
      * assert (i < length ws) as Hi by (apply nth_error_Some; congruence). destruct (is_ended w) eqn:EW; [|discriminate]. inversion H; subst s'; clear H. split.
        -- split; [exact HK|]. cbn [l_workers l_parent]. split; [lia|]. split; [exact HP2|]. intros j v Hj Hv. destruct (Nat.eq_dec j i) as [->|N]; [congruence|]. apply (HP3 j v); [lia|exact Hv].
        -- unfold mu. cbn [l_workers l_parent parent_cost]. lia.
      * inversion H; subst s'; clear H. apply nth_error_None in EN. split.
        -- split; [exact HK|]. cbn [l_workers l_parent]. intros j v Hj Hv. apply (HP3 j v); [lia|exact Hv].
        -- unfold mu. cbn [l_workers l_parent parent_cost]. lia.
  - destruct (nth_error ws k) as [w|] eqn:EN; [|discriminate]. destruct (wstep (eof_for inh (mk_lstate ws ph)) w) as [w'|] eqn:EW; cbn [option_map] in H; [|discriminate]. inversion H; subst s'; clear H.
    destruct (forall2_nth HK k EN) as (w0 & HN0 & HC & HE). destruct (wstep_ok _ EW HC) as (H1 & H2 & H3 & H4). split.
    + split; cbn [l_workers l_parent].
      * eapply forall2_upd; eauto. split; [exact H1|congruence].
      * destruct ph as [q|q|r|i|i| |]; try contradiction.
        -- destruct HP as [HP1 HP2]. split; [exact HP1|]. unfold told_below. eapply below_upd; eauto. apply (wstep_told _ EW).
        -- destruct HP as (HP1 & HP2 & HP3). split; [exact HP1|]. split; [unfold told_below; eapply below_upd; eauto; apply (wstep_told _ EW)|]. unfold ended_below. eapply below_upd; eauto. congruence.
        -- unfold ended_below. eapply below_upd; eauto. congruence.
    + unfold mu. cbn [l_workers l_parent]. rewrite upd_length. pose proof (weights_upd ws k w' EN). lia.
Qed.
Lemma closing_moves : forall ws0 inh s, closing_inv ws0 s -> l_parent s <> PClosed -> exists p s', step inh s p = Some s'.
Proof.
  intros ws0 inh [ws ph] [HK HP] HN. pose proof (Forall2_length HK) as HL. cbn [l_workers l_parent] in *. destruct ph as [q|q|r|i|i| |]; try contradiction; try congruence.
  - exists Parent. cbn [lstep]. unfold lparent_step. cbn [l_workers l_parent]. destruct (nth_error ws i); eauto.
  - destruct HP as (HP1 & HP2 & HP3). destruct (nth_error ws i) as [w|] eqn:EN.
    + destruct (is_ended w) eqn:EW.
      * exists Parent. cbn [lstep]. unfold lparent_step. cbn [l_workers l_parent]. rewrite EN, EW. eauto.
      * exists (Worker i). cbn [lstep l_workers l_parent]. rewrite EN. destruct (@wstep_runs (eof_for inh (mk_lstate ws (PJoining i))) w EW) as [w' HW].
        { left. assert (i < length ws) by (apply nth_error_Some; congruence). destruct (HP2 i w) as [HT|HT]; [lia|exact EN|congruence|]. intro HI. rewrite HI in HT. destruct HT. }
        rewrite HW. cbn. eauto.
    + exists Parent. cbn [lstep]. unfold lparent_step. cbn [l_workers l_parent]. rewrite EN. eauto.
Qed.
Lemma forall_kept : forall ws, Forall closed_in_time ws -> Forall2 kept ws ws.
Proof. induction 1; constructor; auto. split; auto. Qed.
Lemma kept_clean : forall ws ws', Forall2 kept ws ws' -> (forall j w, j < length ws -> nth_error ws' j = Some w -> is_ended w = true) -> Forall2 ended_cleanly ws ws'.
Proof.
  induction 1 as [|w w' ws ws' [HC HE] HF IH]; intros HB; constructor.
  - assert (is_ended w' = true) as HD by (apply (HB 0 w'); [cbn; lia|reflexivity]). split; [exact HD|]. unfold closed_in_time in HC. rewrite HD, HE in HC. exact HC.
  - apply IH. intros j v Hj Hv. apply (HB (S j) v); [cbn; lia|exact Hv].
Qed.
Lemma close_ok : forall inh ws, Forall closed_in_time ws -> forall sched s, run inh (mk_lstate ws (PClosing 0)) sched = Some s ->
  length sched <= pending ws + 3 * length ws + 2 /\
  (l_parent s = PClosed -> Forall2 ended_cleanly ws (l_workers s)) /\
  (l_parent s <> PClosed -> exists p s', step inh s p = Some s').
Proof.
  intros inh ws HW sched s H. assert (closing_inv ws (mk_lstate ws (PClosing 0))) as HI.
  { split; cbn [l_workers l_parent]; [apply forall_kept, HW|]. split; [lia|]. intros j v Hj. lia. }
  destruct (run_keeps (closing_inv ws) mu inh (fun s p s' => @closing_step ws inh s p s') sched _ HI H) as [HS HM]. split; [|split].
  - unfold mu in HM. cbn [l_workers l_parent parent_cost] in HM. pose proof (weights_pending ws). lia.
  - intros HP. destruct HS as [HK HB]. rewrite HP in HB. apply kept_clean; [exact HK|exact HB].
  - intros HP. apply (closing_moves inh HS HP).
Qed.

(** *** Asking worker 0 *)
Definition asking_inv (q : lquery) (e : est E) (s : lstate) : Prop :=
  Forall closed_in_time (l_workers s) /\ exists w ws, l_workers s = w :: ws /\ (l_proc w = Running e \/ l_proc w = Starting (Ok e)) /\
  match l_parent s with
  | PAsk q' => q' = q /\ l_in w = [] /\ l_out w = []
  | PWait q' => q' = q /\ ((l_in w = [query_cmd q] /\ l_out w = []) \/ (l_in w = [] /\ l_out w = [right_answer espaces espec q e] /\ l_proc w = Running e))
  | PGot r => r = right_answer espaces espec q e /\ l_in w = [] /\ l_out w = []
  | _ => False
  end.
Lemma forall_upd : forall T (P : T -> Prop) l i x, Forall P l -> P x -> Forall P (upd l i x).
Proof. induction l; intros [|i] x H HP; cbn; inversion H; subst; constructor; auto. Qed.
Lemma forall_nth : forall T (P : T -> Prop) l i x, Forall P l -> nth_error l i = Some x -> P x.
Proof. intros T P l i x H HN. rewrite Forall_forall in H. apply H. eapply nth_error_In; eauto. Qed.
Lemma asking_step : forall q e inh s p s', asking_inv q e s -> step inh s p = Some s' -> asking_inv q e s' /\ mu s' < mu s.
Proof.
  intros q e inh [ws ph] p s' [HC (w & wr & HW & HPR & HP)] H. cbn [l_workers l_parent] in *. subst ws. destruct p as [|k]; cbn [lstep l_workers l_parent] in H.
  - unfold lparent_step in H. cbn [l_workers l_parent nth_error upd] in H. inversion HC as [|? ? HC1 HC2]; subst. destruct ph as [q'|q'|r|i|i| |]; try contradiction; try discriminate.
    + destruct HP as (-> & HI & HO). inversion H; subst s'; clear H. split.
      * split; cbn [l_workers l_parent]; [constructor; [exact HC1|exact HC2]|]. do 2 eexists. split; [reflexivity|]. split; [exact HPR|]. split; [reflexivity|]. left. cbn. rewrite HI. auto.
      * unfold mu. cbn [l_workers l_parent parent_cost weights]. unfold weight, lsend. cbn. destruct HPR as [->| ->]; rewrite HI; cbn; lia.
    + destruct HP as (-> & [[HI HO]|(HI & HO & HR)]).
      * rewrite HO in H. discriminate.
      * rewrite HO in H. inversion H; subst s'; clear H. split.
        -- split; cbn [l_workers l_parent]; [constructor; [exact HC1|exact HC2]|]. do 2 eexists. split; [reflexivity|]. split; [exact HPR|]. auto.
        -- unfold mu. cbn [l_workers l_parent parent_cost weights]. unfold weight. cbn. lia.
  - destruct (nth_error (w :: wr) k) as [v|] eqn:EN; [|discriminate]. destruct (wstep (eof_for inh (mk_lstate (w :: wr) ph)) v) as [v'|] eqn:EW; cbn [option_map] in H; [|discriminate]. assert (s' = mk_lstate (upd (w :: wr) k v') ph) as -> by congruence. clear H.
    destruct (wstep_ok _ EW (forall_nth k HC EN)) as (H1 & H2 & H3 & H4). split.
    + split; cbn [l_workers l_parent]; [exact (forall_upd k _ HC H1)|]. destruct k as [|k]; cbn [upd].
      * cbn in EN. inversion EN; subst v. do 2 eexists. split; [reflexivity|]. assert (eof_for inh (mk_lstate (w :: wr) ph) = false) as EF by (destruct ph; try contradiction; reflexivity).
        rewrite EF in EW. unfold lworker_step in EW. destruct HPR as [HR|HR]; rewrite HR in EW.
        -- destruct ph as [q'|q'|r|i|i| |]; try contradiction.
           ++ destruct HP as (-> & HI & HO). rewrite HI in EW. discriminate.
           ++ destruct HP as (-> & [[HI HO]|(HI & HO & _)]); rewrite HI in EW; [|discriminate].
              destruct q; cbn [query_cmd] in EW; inversion EW; subst v'; cbn; (split; [auto|]); (split; [reflexivity|]); right; rewrite HO; cbn; auto.
           ++ destruct HP as (_ & HI & HO). rewrite HI in EW. discriminate.
        -- inversion EW; subst v'; cbn. split; [auto|]. destruct ph as [q'|q'|r|i|i| |]; try contradiction; try exact HP.
           destruct HP as (-> & [HP|(HI & HO & HX)]); split; auto.
      * do 2 eexists. split; [reflexivity|]. split; [exact HPR|exact HP].
    + unfold mu. cbn [l_workers l_parent]. rewrite upd_length. pose proof (weights_upd _ k v' EN). lia.
Qed.
Lemma asking_moves : forall q e inh s, asking_inv q e s -> (exists r, l_parent s = PGot r) \/ exists p s', step inh s p = Some s'.
Proof.
  intros q e inh [ws ph] [HC (w & wr & HW & HPR & HP)]. cbn [l_workers l_parent] in *. subst ws. destruct ph as [q'|q'|r|i|i| |]; try contradiction.
  - right. exists Parent. cbn. eauto.
  - right. destruct HP as (-> & [[HI HO]|(HI & HO & HR)]).
    + exists (Worker 0). cbn [lstep l_workers nth_error]. destruct (@wstep_runs (eof_for inh (mk_lstate (w :: wr) (PWait q))) w) as [w' HW].
      * unfold is_ended. destruct HPR as [->| ->]; reflexivity.
      * left. rewrite HI. discriminate.
      * rewrite HW. cbn. eauto.
    + exists Parent. cbn. rewrite HO. eauto.
  - left. eauto.
Qed.
Lemma ask_ok : forall inh q e w ws, idle_with e w -> Forall closed_in_time (w :: ws) -> forall sched s, run inh (mk_lstate (w :: ws) (PAsk q)) sched = Some s ->
  length sched <= pending (w :: ws) + 3 /\ (forall r, l_parent s = PGot r -> r = right_answer espaces espec q e /\ (exists w' ws', l_workers s = w' :: ws' /\ idle_with e w') /\ Forall closed_in_time (l_workers s)) /\
  ((forall r, l_parent s <> PGot r) -> exists p s', step inh s p = Some s').
Proof.
  intros inh q e w ws (HI & HO & HP) HC sched s H. assert (asking_inv q e (mk_lstate (w :: ws) (PAsk q))) as HA.
  { split; cbn [l_workers l_parent]; [exact HC|]. do 2 eexists. split; [reflexivity|]. split; [exact HP|]. auto. }
  destruct (run_keeps (asking_inv q e) mu inh (fun s p s' => @asking_step q e inh s p s') sched _ HA H) as [HS HM]. split; [|split].
  - unfold mu in HM. cbn [l_workers l_parent parent_cost] in HM. pose proof (weights_pending (w :: ws)). lia.
  - intros r HR. destruct HS as [HC' (w' & ws' & HW & HPR & HX)]. rewrite HR in HX. destruct HX as (HX1 & HX2 & HX3). split; [exact HX1|]. split; [|exact HC']. exists w', ws'. split; [exact HW|]. split; auto.
  - intros HR. destruct (asking_moves inh HS) as [[r Hr]|HM']; [congruence|exact HM'].
Qed.
(** *** The first env_fn raises *)
Definition broken_inv (s : lstate) : Prop :=
  exists w ws, l_workers s = w :: ws /\ Forall closed_in_time (l_workers s) /\ l_out w = [] /\ (exists f, (l_proc w = Starting (Raise f)) \/ l_proc w = Ended false) /\ (l_parent s = PAsk QSpaces \/ l_parent s = PWait QSpaces).
Lemma broken_step : forall inh s p s', broken_inv s -> step inh s p = Some s' -> broken_inv s' /\ mu s' < mu s.
Proof.
  intros inh [ws ph] p s' (w & wr & HW & HC & HO & [f HF] & HP) H. cbn [l_workers l_parent] in *. subst ws. destruct p as [|k]; cbn [lstep l_workers l_parent] in H.
  - unfold lparent_step in H. cbn [l_workers l_parent nth_error upd] in H. destruct HP as [->| ->].
    + inversion H; subst s'; clear H. inversion HC; subst. split.
      * do 2 eexists. split; [reflexivity|]. split; [constructor; auto|]. split; [exact HO|]. split; [exists f; exact HF|]. right. reflexivity.
      * unfold mu. cbn [l_workers l_parent parent_cost weights]. unfold weight, lsend. cbn. destruct HF as [->| ->]; rewrite ?app_length; cbn; lia.
    + rewrite HO in H. discriminate.
  - destruct (nth_error (w :: wr) k) as [v|] eqn:EN; [|discriminate]. destruct (wstep (eof_for inh (mk_lstate (w :: wr) ph)) v) as [v'|] eqn:EW; cbn [option_map] in H; [|discriminate]. assert (s' = mk_lstate (upd (w :: wr) k v') ph) as -> by congruence. clear H.
    destruct (wstep_ok _ EW (forall_nth k HC EN)) as (H1 & H2 & H3 & H4). split.
    + destruct k as [|k].
      * cbn in EN. inversion EN; subst v. unfold lworker_step in EW. destruct HF as [HF|HF]; rewrite HF in EW; [|discriminate]. inversion EW; subst v'. cbn [upd].
        do 2 eexists. split; [reflexivity|]. split; [inversion HC; subst; constructor; [exact H1|assumption]|]. split; [exact HO|]. split; [exists f; right; reflexivity|exact HP].
      * do 2 eexists. split; [reflexivity|]. split; [exact (forall_upd (S k) _ HC H1)|]. split; [exact HO|]. split; [exists f; exact HF|exact HP].
    + unfold mu. cbn [l_workers l_parent]. rewrite upd_length. pose proof (weights_upd _ k v' EN). lia.
Qed.
Lemma init_times : forall fns : list (res (est E)), Forall closed_in_time (map (fun f => @mk_lworker A O X SR SP SC E [] [] (Starting f) 0) fns).
Proof. induction fns as [|[e|x] fns IH]; cbn [map]; constructor; auto; reflexivity. Qed.
Lemma init_pending : forall fns : list (res (est E)), pending (map (fun f => @mk_lworker A O X SR SP SC E [] [] (Starting f) 0) fns) = 2 * length fns.
Proof. induction fns as [|f fns IH]; cbn [map pending l_in length]; lia. Qed.
Lemma constructor_ok : forall inh e rest s0, linit E (Ok e :: rest) = Ok s0 -> forall sched s, run inh s0 sched = Some s ->
  length sched <= 2 * S (length rest) + 3 /\
  (forall r, l_parent s = PGot r -> r = LSpacesAre (espaces e) /\ (exists w ws, l_workers s = w :: ws /\ idle_with e w) /\ Forall closed_in_time (l_workers s)) /\
  ((forall r, l_parent s <> PGot r) -> exists p s', step inh s p = Some s').
Proof.
  intros inh e rest s0 H0 sched s H. inversion H0; subst s0; clear H0.
  assert (idle_with e (@mk_lworker A O X SR SP SC E [] [] (Starting (Ok e)) 0)) as HI by (split; [reflexivity|split; [reflexivity|right; reflexivity]]).
  pose proof (init_times (Ok e :: rest)) as HT. cbn [map] in HT. destruct (ask_ok inh QSpaces HI HT sched H) as (H1 & H2 & H3). split; [|split; [exact H2|exact H3]].
  pose proof (init_pending (Ok e :: rest)) as HP. cbn [map] in HP. rewrite HP in H1. exact H1.
Qed.
Lemma broken_forever : forall inh x rest s0, linit E (Raise x :: rest) = Ok s0 -> forall sched s, run inh s0 sched = Some s ->
  length sched <= 2 * S (length rest) + 3 /\ (l_parent s = PAsk QSpaces \/ l_parent s = PWait QSpaces).
Proof.
  intros inh x rest s0 H0 sched s H. inversion H0; subst s0; clear H0. 
  assert (broken_inv (mk_lstate (map (fun f => @mk_lworker A O X SR SP SC E [] [] (Starting f) 0) (Raise x :: rest)) (PAsk QSpaces))) as HB.
  { do 2 eexists. split; [reflexivity|]. split; [apply init_times|]. split; [reflexivity|]. split; [exists x; left; reflexivity|]. left. reflexivity. }
  destruct (run_keeps broken_inv mu inh (fun s p s' => @broken_step inh s p s') sched _ HB H) as [(w & ws & HW & _ & _ & _ & HP) HM]. split; [|exact HP].
  unfold mu in HM at 2. cbn [l_workers l_parent parent_cost] in HM. pose proof (weights_pending (map (fun f => @mk_lworker A O X SR SP SC E [] [] (Starting f) 0) (Raise x :: rest))) as HQ.
  rewrite init_pending in HQ. cbn [length] in HQ. lia.
Qed.

(** *** The parent is killed *)
Lemma not_all_ended : forall (ws : list lworker) i w, nth_error ws i = Some w -> is_ended w = false -> forallb is_ended ws = false.
Proof. induction ws as [|v ws IH]; intros [|i] w H HE; cbn in *; try discriminate; [inversion H; subst; rewrite HE; reflexivity|]. rewrite (IH _ _ H HE). apply andb_false_r. Qed.
Lemma orphan_stays : forall i w, l_in w = [] -> (exists e, l_proc w = Running e) ->
  forall sched ws s, nth_error ws i = Some w -> run true (mk_lstate ws PDead) sched = Some s -> nth_error (l_workers s) i = Some w.
Proof.
  intros i w HI [e HE]. induction sched as [|p sched IH]; intros ws s HN H; cbn [lrun] in H; [inversion H; subst; exact HN|].
  destruct (step true (mk_lstate ws PDead) p) as [s1|] eqn:ES; [|discriminate]. destruct p as [|k]; [discriminate|]. cbn [lstep l_workers l_parent] in ES.
  destruct (nth_error ws k) as [v|] eqn:EK; [|discriminate]. 
  assert (eof_for true (mk_lstate ws (@PDead O X SR SP SC)) = false) as EF.
  { unfold eof_for. cbn [l_parent l_workers negb orb]. apply (not_all_ended ws i HN). unfold is_ended. rewrite HE. reflexivity. }
  rewrite EF in ES. destruct (wstep false v) as [v'|] eqn:EV; cbn [option_map] in ES; [|discriminate]. inversion ES; subst s1; clear ES.
  apply (IH (upd ws k v')); [|exact H]. destruct (Nat.eq_dec i k) as [->|N].
  - assert (v = w) by congruence. subst v. unfold lworker_step in EV. rewrite HE, HI in EV. discriminate.
  - rewrite nth_upd_other by exact N. exact HN.
Qed.
Definition dead_inv (ws0 : list lworker) (s : lstate) : Prop := Forall2 kept ws0 (l_workers s) /\ l_parent s = PDead.
Lemma dead_step : forall ws0 inh s p s', dead_inv ws0 s -> step inh s p = Some s' -> dead_inv ws0 s' /\ mu s' < mu s.
Proof.
  intros ws0 inh [ws ph] p s' [HK HP] H. cbn [l_workers l_parent] in *. subst ph. destruct p as [|k]; cbn [lstep l_workers l_parent] in H; [discriminate|].
  destruct (nth_error ws k) as [v|] eqn:EN; [|discriminate]. destruct (wstep (eof_for inh (mk_lstate ws PDead)) v) as [v'|] eqn:EW; cbn [option_map] in H; [|discriminate]. inversion H; subst s'; clear H.
  destruct (forall2_nth HK k EN) as (w0 & HN0 & HC & HE). destruct (wstep_ok _ EW HC) as (H1 & H2 & H3 & H4). split.
  - split; cbn [l_workers l_parent]; [|reflexivity]. eapply forall2_upd; eauto. split; [exact H1|congruence].
  - unfold mu. cbn [l_workers l_parent]. rewrite upd_length. pose proof (weights_upd ws k v' EN). lia.
Qed.
Lemma orphans_leave : forall ws, Forall closed_in_time ws -> forall sched s, run false (mk_lstate ws PDead) sched = Some s ->
  length sched <= pending ws /\ ((forall p, step false s p = None) -> Forall2 ended_cleanly ws (l_workers s)).
Proof.
  intros ws HW sched s H. assert (dead_inv ws (mk_lstate ws PDead)) as HI by (split; [apply forall_kept, HW|reflexivity]).
  destruct (run_keeps (dead_inv ws) mu false (fun s p s' => @dead_step ws false s p s') sched _ HI H) as [[HK HP] HM]. split.
  - unfold mu in HM. cbn [l_workers l_parent parent_cost] in HM. pose proof (weights_pending ws). lia.
  - intros HS. apply kept_clean; [exact HK|]. intros j v _ Hv. destruct (is_ended v) eqn:EV; [reflexivity|]. exfalso.
    specialize (HS (Worker j)). cbn [lstep] in HS. rewrite Hv in HS. destruct (@wstep_runs (eof_for false s) v EV) as [v' HV].
    + right. left. unfold eof_for. rewrite HP. reflexivity.
    + rewrite HV in HS. discriminate.
Qed.
End Life.

(** *** Histories of calls *)
Section Users.
Context {A : Type}.
Lemma existsb_snoc : forall T (f : T -> bool) l x, existsb f (l ++ [x]) = existsb f l || f x.
Proof. intros. rewrite existsb_app. cbn. rewrite orb_false_r. reflexivity. Qed.
Lemma known_snoc : forall (us : list (@ucall A)) u, spec_known (us ++ [u]) = spec_known us || (negb (existsb ends us) && is_spec u).
Proof. induction us as [|v us IH]; intros u; cbn; [destruct u; reflexivity|]. destruct (ends v) eqn:E1; cbn; [reflexivity|]. destruct (is_spec v); cbn; [reflexivity|]. apply IH. Qed.
Definition state_after (us : list (@ucall A)) : mp_state := mk_mp (existsb ends us) (spec_known us) (if existsb ends us then 1 else 0).
Lemma user_step : forall us u, mp_user (state_after us) u = (state_after (us ++ [u]), expected us u).
Proof.
  intros us u. unfold state_after, expected. rewrite existsb_snoc, known_snoc. unfold mp_user. cbn [mp_closed mp_cached mp_closes].
  destruct u; cbn [ends is_spec]; destruct (existsb ends us); destruct (spec_known us); reflexivity.
Qed.
Lemma users_from : forall us before, users (@mp_user A) (state_after before) us = (state_after (before ++ us), map (fun i => expected (before ++ firstn i us) (nth i us UDel)) (seq 0 (length us))).
Proof.
  induction us as [|u us IH]; intros before; cbn [users].
  - rewrite app_nil_r. reflexivity.
  - rewrite user_step, IH. rewrite <- app_assoc. cbn [app]. f_equal. cbn [length seq map]. f_equal; [cbn; rewrite app_nil_r; reflexivity|].
    rewrite <- seq_shift, map_map. apply map_ext. intros i. cbn [firstn nth]. rewrite <- app_assoc. reflexivity.
Qed.
Lemma users_ok : forall us s xs, users (@mp_user A) mp_init us = (s, xs) -> length xs = length us /\
  mp_closes s = (if existsb ends us then 1 else 0) /\ forall i u, nth_error us i = Some u -> nth_error xs i = Some (expected (firstn i us) u).
Proof.
  intros us s xs H. pose proof (users_from us []) as HU. change (state_after []) with mp_init in HU. rewrite HU in H. inversion H; subst. split; [rewrite map_length, seq_length; reflexivity|]. split; [reflexivity|].
  intros i u Hu. assert (i < length us) as Hi by (apply nth_error_Some; congruence). 
  rewrite nth_error_map. rewrite (nth_error_nth' _ 0) by (rewrite seq_length; exact Hi). rewrite seq_nth by exact Hi. cbn. rewrite (nth_error_nth us i UDel Hu). reflexivity.
Qed.
Lemma serial_users : forall us n, exists m, users (@ser_user A) n us = (m, repeat None (length us)) /\ m = n + length (filter (fun u => match u with UClose => true | _ => false end) us).
Proof.
  induction us as [|u us IH]; intros n; cbn [users].
  - exists n. cbn. split; [reflexivity|lia].
  - destruct (IH (fst (ser_user n u))) as (m & H1 & H2). exists m. destruct u; cbn in *; rewrite H1; split; try reflexivity; lia.
Qed.
End Users.

Lemma workers_of_fns : forall (A O X SR SP SC : Type) (E : env A O X) (fns : list (res (est E))),
  match linit E fns : res (@lstate A O X SR SP SC E) with
  | Ok s => fns <> [] /\ length (l_workers s) = length fns
  | Raise x => fns = [] /\ x = ValueError
  end.
Proof. intros A O X SR SP SC E [|f fns]; cbn; [split; reflexivity|]. split; [discriminate|]. rewrite map_length. reflexivity. Qed.
