(** Proofs for C34 (schedule) and C47 (stored transitions). *)
From Verif Require Import Proofs.ReplayBufferProofs.
From Verif Require Import Base.PyBase Base.Effects Model.RandomAccessQueue Model.ReplayBuffer Model.OffPolicyAgent Spec.TransitionSpec
     Spec.BoundedList Spec.WindowSpec.
Set Implicit Arguments.

Lemma ebind_ok : forall (Ev A B : Type) (m : eff Ev A) (f : A -> eff Ev B) h b h',
  ebind m f h = (Ok b, h') -> exists a h1, m h = (Ok a, h1) /\ f a h1 = (Ok b, h').
Proof.
  unfold ebind. intros. destruct (m h) as [[a|e] h1]; [eauto|discriminate].
Qed.

Section P.
  Context {Obs Act Rew : Type}.
  Variable k : kind.
  Variable interval : nat.
  Variable choose : list (ev Obs Act Rew) -> Obs -> res Act.
  Notation agent := (agent Obs Act).
  Notation call := (op Obs Rew * out Act)%type.

  Lemma buffer_ops_app : forall a b : list (ev Obs Act Rew), buffer_ops (a ++ b) = buffer_ops a ++ buffer_ops b.
  Proof. intros. apply flat_map_app. Qed.
  Lemma clock_app : forall a b : list (ev Obs Act Rew), clock (a ++ b) = clock a ++ clock b.
  Proof. intros. apply flat_map_app. Qed.

  Lemma emit_ok : forall (e : ev Obs Act Rew) h u h', emit e h = (Ok u, h') -> h' = h ++ [e].
  Proof. unfold emit. intros. congruence. Qed.
  Lemma select_ok : forall o h a h', select choose o h = (Ok a, h') -> h' = h ++ [EAct o a].
  Proof. unfold select, Effects.call. intros o h a h' H. destruct (choose h o); congruence. Qed.
  Lemma ret_ok : forall A (a b : A) (h h' : list (ev Obs Act Rew)), ret a h = (Ok b, h') -> a = b /\ h' = h.
  Proof. unfold ret. intros. split; congruence. Qed.

  Definition sync_evs (t : nat) : list (ev Obs Act Rew) :=
    match k with KTD3 => [] | _ => if t mod interval =? 0 then [ESync] else [] end.

  Lemma sync_if_ok : forall t h u h', sync_if k interval t h = (Ok u, h') -> h' = h ++ sync_evs t.
  Proof.
    unfold sync_if, sync_evs. intros t h u h' H. destruct k; cbn in H.
    - destruct (interval =? 0); [discriminate|]. destruct (_ =? 0); [apply emit_ok in H; exact H|].
      apply ret_ok in H. rewrite app_nil_r. apply H.
    - destruct (interval =? 0); [discriminate|]. destruct (_ =? 0); [apply emit_ok in H; exact H|].
      apply ret_ok in H. rewrite app_nil_r. apply H.
    - apply ret_ok in H. rewrite app_nil_r. apply H.
  Qed.

  Lemma clock_sync : forall t, clock (sync_evs t) ++ [CUpdate t] = tick k interval t.
  Proof. intros t. unfold sync_evs, tick. destruct k; cbn; try destruct (t mod interval =? 0); reflexivity. Qed.
  Lemma buffer_sync : forall t, buffer_ops (sync_evs t) = [].
  Proof. intros t. unfold sync_evs. destruct k; cbn; try destruct (t mod interval =? 0); reflexivity. Qed.

  Definition last_evs (g : agent) (r : Rew) (o : Obs) (next : option Act) : list (ev Obs Act Rew) :=
    match g_last_state g, g_last_action g with
    | Some s, Some a => [EAppend 0 (mk_tr s a r o next false)]
    | _, _ => []
    end.
  Lemma record_ok : forall (g : agent) r o next h u h', record_last g r o next h = (Ok u, h') ->
    h' = h ++ last_evs g r o next.
  Proof.
    unfold record_last, last_evs. intros g r o next h u h' H.
    destruct (g_last_state g); [|apply ret_ok in H; rewrite app_nil_r; apply H].
    destruct (g_last_action g); [|discriminate]. apply emit_ok in H. exact H.
  Qed.
  Lemma clock_last : forall g r o n, clock (last_evs g r o n) = [].
  Proof. intros. unfold last_evs. destruct (g_last_state g), (g_last_action g); reflexivity. Qed.

End P.

Ltac inv H :=
  lazymatch type of H with
  | ebind _ _ _ = (Ok _, _) =>
    let a := fresh "v" in let h := fresh "h" in let H1 := fresh "E" in
    apply ebind_ok in H; destruct H as (a & h & H1 & H); inv H1; inv H
  | emit _ _ = _ => apply emit_ok in H; subst
  | select _ _ _ = _ => apply select_ok in H; subst
  | sync_if _ _ _ _ = _ => apply sync_if_ok in H; subst
  | record_last _ _ _ _ _ = _ => apply record_ok in H; subst
  | ret _ _ = _ => apply ret_ok in H; destruct H as [H ?]; subst
  | _ => idtac
  end.

Section Q.
  Context {Obs Act Rew : Type}.
  Variable interval : nat.
  Variable choose : list (ev Obs Act Rew) -> Obs -> res Act.
  Notation agent := (agent Obs Act).
  Notation call := (op Obs Rew * out Act)%type.

  Definition next_of (k : kind) (a : Act) : option Act := match k with KDQN => None | _ => Some a end.
  Definition tick_of (k : kind) (t : nat) : nat := match k with KDQN => t | _ => t + 1 end.

  (** Effect of one call of act_and_train. *)
  Lemma act_ok : forall k g o r h g' a h', act_and_train k interval choose g o r h = (Ok (g', a), h') ->
    exists l, h' = h ++ l /\ g' = mk_ag (g_t g + 1) (Some o) (Some a) (g_batch g) /\
      buffer_ops l = buffer_ops (last_evs g r o (next_of k a)) /\
      clock l = tick k interval (tick_of k (g_t g)).
  Proof.
    unfold act_and_train. intros k g o r h g' a h' H.
    destruct k; inv H;
      match goal with E : (_, _) = (_, _) |- _ => injection E as <- <- end;
      (eexists; split; [rewrite <- !app_assoc; reflexivity|]; split; [reflexivity|]; split;
      [rewrite !buffer_ops_app, buffer_sync; cbn [buffer_ops flat_map buffer_op app next_of]; rewrite ?app_nil_r; reflexivity
      |rewrite !clock_app, clock_last, <- (@clock_sync Obs Act Rew); cbn [clock flat_map clock_ev app tick_of]; rewrite ?app_nil_r; reflexivity]).
  Qed.

  Lemma stop_ok : forall (g : agent) o (r : Rew) d h g' h', stop_episode_and_train g o r d h = (Ok g', h') ->
    exists s a, g_last_state g = Some s /\ g_last_action g = Some a /\
      g' = mk_ag (g_t g) None None (g_batch g) /\
      h' = h ++ [EAppend 0 (mk_tr s a r o (Some a) d); EEnd 0].
  Proof.
    unfold stop_episode_and_train. intros g o r d h g' h' H.
    destruct (g_last_state g) as [s|]; [|discriminate]. destruct (g_last_action g) as [a|]; [|discriminate].
    inv H. exists s, a. rewrite <- app_assoc. auto.
  Qed.

  Lemma stop_ep_ok : forall k (g : agent) (h : list (ev Obs Act Rew)) g' h', stop_episode k g h = (Ok g', h') ->
    match k with
    | KDQN => g' = g /\ h' = h
    | _ => g' = mk_ag (g_t g) None None (g_batch g) /\ h' = h ++ [EEnd 0]
    end.
  Proof.
    unfold stop_episode. intros k g h g' h' H. destruct k; inv H; auto.
  Qed.

  (** The agent remembers exactly the last training call. *)
  Definition remembers (g : agent) (prev : option call) : Prop :=
    match prev with
    | Some (OAct s _, RAct a) => g_last_state g = Some s /\ g_last_action g = Some a
    | _ => g_last_state g = None
    end.

  Theorem run_single : forall k ops g prev h g' hist h',
    forallb single_op ops = true -> remembers g prev ->
    run k interval choose g ops h = (Ok (g', hist), h') ->
    exists l, h' = h ++ l /\ map fst hist = ops /\
      buffer_ops l = stored_from k prev (filter (training_call k) hist) /\
      clock l = flat_map (tick k interval) (seq (tick_of k (g_t g)) (acts ops)) /\
      g_t g' = g_t g + acts ops.
  Proof.
    intros k ops. induction ops as [|o ops IH]; intros g prev h g' hist h' Hs Hr H.
    - cbn [run] in H. inv H. injection H as <- <-. exists []. rewrite app_nil_r. cbn. repeat split; auto.
    - cbn [forallb] in Hs. apply andb_true_iff in Hs. destruct Hs as [Ho Hs].
      cbn [run] in H. apply ebind_ok in H. destruct H as ([g1 out1] & h1 & H1 & H).
      apply ebind_ok in H. destruct H as ([g2 l2] & h2 & H2 & H). apply ret_ok in H. destruct H as [H ->].
      injection H as <- <-.
      pose proof (fun g prev h g' hist h' E R => IH g prev h g' hist h' Hs R E) as IH'. clear IH. rename IH' into IH.
      destruct o as [o r|o r d| | |]; try discriminate Ho; cbn [do_op] in H1;
        apply ebind_ok in H1; destruct H1 as (v & h3 & H1 & H3).
      + destruct v as [g3 a]. apply ret_ok in H3. destruct H3 as [H3 ->]. injection H3 as -> <-.
        destruct (act_ok _ _ _ _ _ H1) as (l & -> & -> & Hb & Hc).
        destruct (IH _ (Some (OAct o r, RAct a)) _ _ _ _ H2 (conj eq_refl eq_refl)) as (l' & -> & Hf & Hb' & Hc' & Ht).
        exists (l ++ l'). split; [rewrite app_assoc; reflexivity|]. split; [cbn; f_equal; exact Hf|].
        assert (Hk : training_call k (OAct o r, RAct a) = true) by (destruct k; reflexivity).
        split; [|split].
        * rewrite buffer_ops_app, Hb, Hb'. cbn [filter]. rewrite Hk. cbn [stored_from]. f_equal.
          unfold last_evs. destruct prev as [[[s r'|? ? ?| | |] [a'| |]]|]; cbn [remembers] in Hr;
            try (destruct (g_last_state g); [discriminate|]; reflexivity).
          destruct Hr as [-> ->]. destruct k; reflexivity.
        * rewrite clock_app, Hc, Hc'. cbn [g_t]. unfold acts. cbn [filter length seq flat_map]. 
          replace (S (tick_of k (g_t g))) with (tick_of k (g_t g + 1)); [reflexivity|]. unfold tick_of; destruct k; lia.
        * rewrite Ht. cbn [g_t]. unfold acts. cbn [filter length]. lia.
      + apply ret_ok in H3. destruct H3 as [H3 ->]. injection H3 as -> <-.
        destruct (stop_ok _ _ _ _ _ H1) as (s & a & Es & Ea & -> & ->).
        destruct (IH _ (Some (OStop o r d, RNone)) _ _ _ _ H2 eq_refl) as (l' & -> & Hf & Hb' & Hc' & Ht).
        eexists. split; [rewrite <- app_assoc; reflexivity|]. split; [cbn; f_equal; exact Hf|].
        assert (Hk : training_call k (@OStop Obs Rew o r d, @RNone Act) = true) by (destruct k; reflexivity).
        split; [|split].
        * rewrite buffer_ops_app, Hb'. cbn [filter]. rewrite Hk. cbn [stored_from]. f_equal.
          destruct prev as [[[s' r'|? ? ?| | |] [a'| |]]|]; cbn [remembers] in Hr; try congruence.
          destruct Hr as [Es' Ea']. rewrite Es in Es'. rewrite Ea in Ea'. injection Es' as <-. injection Ea' as <-. reflexivity.
        * rewrite clock_app. cbn [clock flat_map clock_ev app]. exact Hc'.
        * exact Ht.
      + apply ret_ok in H3. destruct H3 as [H3 ->]. injection H3 as -> <-.
        apply stop_ep_ok in H1. destruct k eqn:Ek.
        * destruct H1 as [-> ->]. destruct (IH _ prev _ _ _ _ H2 Hr) as (l' & -> & Hf & Hb' & Hc' & Ht).
          exists l'. split; [reflexivity|]. split; [cbn; f_equal; exact Hf|]. split; [exact Hb'|]. split; [exact Hc'|exact Ht].
        * destruct H1 as [-> ->]. destruct (IH _ (Some (OStopEp, RNone)) _ _ _ _ H2 eq_refl) as (l' & -> & Hf & Hb' & Hc' & Ht).
          eexists. split; [rewrite <- app_assoc; reflexivity|]. split; [cbn; f_equal; exact Hf|]. split; [|split; [exact Hc'|exact Ht]].
          rewrite buffer_ops_app, Hb'. cbn [filter training_call fst stored_from]. f_equal.
          destruct prev as [[[s' r'|? ? ?| | |] [a'| |]]|]; reflexivity.
        * destruct H1 as [-> ->]. destruct (IH _ (Some (OStopEp, RNone)) _ _ _ _ H2 eq_refl) as (l' & -> & Hf & Hb' & Hc' & Ht).
          eexists. split; [rewrite <- app_assoc; reflexivity|]. split; [cbn; f_equal; exact Hf|]. split; [|split; [exact Hc'|exact Ht]].
          rewrite buffer_ops_app, Hb'. cbn [filter training_call fst stored_from]. f_equal.
          destruct prev as [[[s' r'|? ? ?| | |] [a'| |]]|]; reflexivity.
  Qed.

  (** Without exceptions of the action selection, a well-formed history runs. *)
  Theorem run_single_total : forall k ops g h,
    0 < interval -> (forall h o, exists a, choose h o = Ok a) ->
    (g_last_state g = None <-> g_last_action g = None) ->
    well_formed k (match g_last_state g with Some _ => true | None => false end) ops = true ->
    exists g' hist h', run k interval choose g ops h = (Ok (g', hist), h').
  Proof.
    intros k ops. induction ops as [|o ops IH]; intros g h Hi Hc Hg Hw.
    - do 3 eexists. reflexivity.
    - assert (Sy : forall t (h : list (ev Obs Act Rew)), exists h', sync_if k interval t h = (Ok tt, h')).
      { intros t h0. unfold sync_if. destruct k; try (destruct (interval =? 0) eqn:E; [apply Nat.eqb_eq in E; lia|]);
          try destruct (t mod interval =? 0); eexists; reflexivity. }
      assert (Se : forall o h, exists a h', select choose o h = (Ok a, h')).
      { intros o0 h0. unfold select, Effects.call. destruct (Hc h0 o0) as (a & ->). eauto. }
      assert (Re : forall r o n h, exists h', record_last (Rew := Rew) g r o n h = (Ok tt, h')).
      { intros r o0 n h0. unfold record_last. destruct (g_last_state g); [|eexists; reflexivity].
        destruct (g_last_action g); [eexists; reflexivity|]. destruct Hg as [_ Hg]. discriminate (Hg eq_refl). }
      assert (D : exists g1 out1 h1, do_op k interval choose g o h = (Ok (g1, out1), h1) /\
        (g_last_state g1 = None <-> g_last_action g1 = None) /\
        well_formed k (match g_last_state g1 with Some _ => true | None => false end) ops = true).
      { destruct o as [o r|o r d| | |]; cbn [well_formed] in Hw; try discriminate Hw; cbn [do_op].
        - unfold act_and_train. destruct k.
          + destruct (Re r o None h) as (h1 & E1). destruct (Sy (g_t g) h1) as (h2 & E2).
            destruct (Se o (h2 ++ [EUpdate (g_t g)])) as (a & h3 & E3).
            do 3 eexists. split; [unfold ebind; rewrite E1, E2; cbn [emit]; unfold emit; rewrite E3; reflexivity|].
            split; [cbn; split; discriminate|exact Hw].
          + destruct (Se o h) as (a & h1 & E1). destruct (Sy (g_t g + 1) h1) as (h2 & E2).
            destruct (Re r o (Some a) h2) as (h3 & E3).
            do 3 eexists. split; [unfold ebind; rewrite E1, E2, E3; reflexivity|]. split; [cbn; split; discriminate|exact Hw].
          + destruct (Se o h) as (a & h1 & E1). destruct (Sy (g_t g + 1) h1) as (h2 & E2).
            destruct (Re r o (Some a) h2) as (h3 & E3).
            do 3 eexists. split; [unfold ebind; rewrite E1, E2, E3; reflexivity|]. split; [cbn; split; discriminate|exact Hw].
        - apply andb_true_iff in Hw. destruct Hw as [Ho Hw]. unfold stop_episode_and_train.
          destruct (g_last_state g); [|discriminate]. destruct (g_last_action g); [|destruct Hg as [_ Hg]; discriminate (Hg eq_refl)].
          do 3 eexists. split; [reflexivity|]. split; [cbn; tauto|exact Hw].
        - unfold stop_episode. destruct k; do 3 eexists; (split; [reflexivity|]; split; [first [exact Hg|cbn; tauto]|exact Hw]). }
      destruct D as (g1 & out1 & h1 & E & Hg1 & Hw1). destruct (IH g1 h1 Hi Hc Hg1 Hw1) as (g2 & hist & h2 & E2).
      do 3 eexists. cbn [run]. unfold ebind at 1. rewrite E. unfold ebind at 1. rewrite E2. reflexivity.
  Qed.

  Lemma select_all_ok : forall os h l h', select_all choose os h = (Ok l, h') ->
    length l = length os /\ exists e, h' = h ++ e /\ buffer_ops e = [] /\ clock e = [].
  Proof.
    induction os as [|o os IH]; cbn [select_all]; intros h l h' H.
    - inv H. split; [reflexivity|]. exists []. rewrite app_nil_r. auto.
    - apply ebind_ok in H. destruct H as (a & h1 & H1 & H). apply select_ok in H1.
      apply ebind_ok in H. destruct H as (l' & h2 & H2 & H). apply ret_ok in H. destruct H as [<- ->].
      destruct (IH _ _ _ H2) as (Hl & e & -> & Hb & Hc). split; [cbn; f_equal; exact Hl|].
      exists (EAct o a :: e). subst h1. split; [rewrite <- app_assoc; reflexivity|]. cbn. auto.
  Qed.

  Lemma upd_app : forall A (l : list A) n x, upd l n x = firstn n l ++ match skipn n l with [] => [] | _ :: t => x :: t end.
  Proof.
    induction l as [|y l IH]; destruct n; cbn; intros; auto. f_equal. apply IH.
  Qed.

  Lemma nth_error_skip : forall A (l : list A) n x t, skipn n l = x :: t -> nth_error l n = Some x /\ skipn (S n) l = t.
  Proof.
    induction l as [|y l IH]; destruct n; intros x t H; try discriminate.
    - injection H as -> ->. auto.
    - apply (IH n); exact H.
  Qed.

  Lemma skipn_upd : forall A (l : list A) n x, skipn (S n) (upd l n x) = skipn (S n) l.
  Proof.
    induction l as [|y l IH]; destruct n; intros; try reflexivity. cbn [upd]. apply (IH n).
  Qed.

  Lemma observe_ok : forall k (xs : list (row Obs Rew)) (g : agent) i obss al os acts (h : list (ev Obs Act Rew)) g' h',
    g_batch g = Some (obss, al) -> skipn i obss = map Some os -> skipn i al = map Some acts ->
    length os = length xs -> length acts = length xs ->
    observe_from k interval g i xs h = (Ok g', h') ->
    exists l, h' = h ++ l /\ buffer_ops l = round_ops i os acts xs /\
      clock l = flat_map (tick k interval) (seq (g_t g + 1) (length xs)) /\ g_t g' = g_t g + length xs.
  Proof.
    intros k xs. induction xs as [|[[[o' r] d] rs] xs IH]; intros g i obss al os acts h g' h' Hb Ho Ha L1 L2 H.
    - cbn [observe_from] in H. inv H. exists []. rewrite app_nil_r. destruct os; [|discriminate].
      split; [reflexivity|]. split; [reflexivity|]. split; [reflexivity|]. cbn. lia.
    - destruct os as [|s os]; [discriminate|]. destruct acts as [|a acts]; [discriminate|].
      cbn [map] in Ho, Ha. destruct (nth_error_skip _ _ Ho) as [No So]. destruct (nth_error_skip _ _ Ha) as [Na Sa].
      cbn [observe_from] in H. apply ebind_ok in H. destruct H as (g1 & h1 & H1 & H).
      assert (E1 : exists l obss1 al1, h1 = h ++ l /\ g_batch g1 = Some (obss1, al1) /\ g_t g1 = g_t g + 1 /\
         skipn (S i) obss1 = map Some os /\ skipn (S i) al1 = map Some acts /\
         buffer_ops l = RAppend i (mk_tr s a r o' None d) d :: (if d || rs then [RStop i] else []) /\
         clock l = tick k interval (g_t g + 1)).
      { unfold observe_one in H1. cbn iota beta in H1. rewrite Hb, No, Na in H1.
        apply ebind_ok in H1. destruct H1 as (u & h2 & H2 & H1). apply sync_if_ok in H2. subst h2.
        apply ebind_ok in H1. destruct H1 as (u2 & h3 & H3 & H1). apply emit_ok in H3. subst h3.
        rewrite orb_comm in H1. destruct (d || rs) eqn:Ed.
        - inv H1.
          eexists. eexists. eexists. split; [rewrite <- !app_assoc; reflexivity|]. split; [reflexivity|]. split; [reflexivity|].
          split; [rewrite skipn_upd; exact So|]. split; [clear - Sa; destruct k; [etransitivity; [apply skipn_upd|exact Sa]|exact Sa|exact Sa]|]. split.
          + rewrite !buffer_ops_app, buffer_sync. reflexivity.
          + rewrite !clock_app, <- (@clock_sync Obs Act Rew). reflexivity.
        - inv H1. 
          eexists. exists obss, al. split; [rewrite <- !app_assoc; reflexivity|]. split; [reflexivity|]. split; [reflexivity|].
          split; [exact So|]. split; [exact Sa|]. split.
          + rewrite !buffer_ops_app, buffer_sync. reflexivity.
          + rewrite !clock_app, <- (@clock_sync Obs Act Rew). reflexivity. }
      destruct E1 as (l & obss1 & al1 & -> & Hb1 & Ht1 & So1 & Sa1 & Hl & Hc).
      injection L1 as L1. injection L2 as L2.
      destruct (IH _ _ _ _ _ _ _ _ _ Hb1 So1 Sa1 L1 L2 H) as (l' & -> & Hl' & Hc' & Ht').
      exists (l ++ l'). split; [rewrite app_assoc; reflexivity|]. split; [|split].
      + rewrite buffer_ops_app, Hl, Hl'. cbn [round_ops app]. reflexivity.
      + rewrite clock_app, Hc, Hc', Ht1. cbn [length seq flat_map]. do 3 f_equal. lia.
      + cbn [length]. lia.
  Qed.

  (** The calls of a vectorised interaction: act on all observations, then
      observe one row for each. *)
  Theorem run_rounds : forall k rounds g h g' hist h',
    Forall (fun rd => length (fst rd) = length (snd rd)) rounds ->
    run k interval choose g (flat_map (fun rd => [OBAct (fst rd); OBObs (snd rd)]) rounds) h = (Ok (g', hist), h') ->
    exists rs l, h' = h ++ l /\ hist = calls_of_rounds rs /\
      map (fun '(os, _, xs) => (os, xs)) rs = rounds /\ Forall (fun '(os, acts, _) => length acts = length os) rs /\
      buffer_ops l = stored_rounds rs /\
      clock l = flat_map (tick k interval) (seq (g_t g + 1) (length (concat (map snd rounds)))).
  Proof.
    intros k rounds. induction rounds as [|[os xs] rounds IH]; intros g h g' hist h' Hf H.
    - cbn in H. inv H. injection H as <- <-. exists [], []. rewrite app_nil_r. cbn. repeat split; auto.
    - inversion Hf as [|? ? HL Hf']; subst. cbn [fst snd] in HL.
      cbn [flat_map app fst snd run] in H.
      apply ebind_ok in H. destruct H as ([g1 out1] & h1 & H1 & H).
      cbn [do_op] in H1. apply ebind_ok in H1. destruct H1 as ([g1' acts] & h2 & H1 & H3).
      apply ret_ok in H3. destruct H3 as [H3 ->]. injection H3 as -> <-.
      unfold batch_act_and_train in H1. apply ebind_ok in H1. destruct H1 as (acts' & h3 & H1 & H3).
      apply ret_ok in H3. destruct H3 as [H3 ->]. injection H3 as <- ->.
      destruct (select_all_ok _ _ H1) as (La & e & -> & Be & Ce). 
      apply ebind_ok in H. destruct H as ([g2 l2] & h2 & H2 & H). apply ret_ok in H. destruct H as [H ->].
      injection H as <- <-.
      apply ebind_ok in H2. destruct H2 as ([g3 out3] & h4 & H4 & H2).
      cbn [do_op] in H4. apply ebind_ok in H4. destruct H4 as (g4 & h5 & H4 & H5).
      apply ret_ok in H5. destruct H5 as [H5 ->]. injection H5 as -> <-.
      apply ebind_ok in H2. destruct H2 as ([g5 l5] & h6 & H2 & H6). apply ret_ok in H6. destruct H6 as [H6 ->].
      injection H6 as <- <-.
      pose proof (fun pf => @observe_ok k xs _ 0 (map Some os) (map Some acts) os acts _ _ _ pf eq_refl eq_refl HL (eq_trans La HL) H4) as OB. destruct (OB eq_refl)
        as (lo & -> & Bo & Co & To).
      destruct (IH _ _ _ _ _ Hf' H2) as (rs & l & -> & -> & Hm & Hfa & Hb & Hc).
      exists ((os, acts, xs) :: rs), (e ++ lo ++ l). split; [rewrite !app_assoc; reflexivity|].
      split; [reflexivity|]. split; [cbn; f_equal; exact Hm|]. split; [constructor; auto|]. split.
      + rewrite !buffer_ops_app, Be, Bo, Hb. reflexivity.
      + rewrite !clock_app, Ce, Co, Hc, To. cbn [app map snd concat g_t]. rewrite app_length, seq_app, flat_map_app.
        do 3 f_equal. lia.
  Qed.
End Q.

(** The whole pipeline: agent and n-step replay buffer. *)
Theorem buffer_after_resumed : forall (Obs Act Rew : Type) (cap : option nat) (n : nat) (k : kind) (interval : nat)
    (choose : list (ev Obs Act Rew) -> Obs -> res Act) (ops : list (op Obs Rew)) t0 g' hist evs,
  0 < n -> forallb single_op ops = true ->
  run k interval choose (resumed t0) ops [] = (Ok (g', hist), evs) ->
  exists b0 b log, rb_init cap n = Ok b0 /\ nrb_run (@raq_append _) b0 (buffer_ops evs) = Ok b /\
    exact_log n (stored k hist) log /\ raq_iter (nr_mem b) = trim cap (map snd log).
Proof.
  intros Obs Act Rew cap n k interval choose ops t0 g' hist evs Hn Hs H.
  destruct (@run_single _ _ _ interval choose k ops (resumed t0) None [] _ _ _ Hs eq_refl H) as (l & -> & _ & Hb & _ & _).
  cbn [app]. fold (stored k hist) in Hb. rewrite Hb.
  destruct (rb_windows cap (stored k hist) Hn) as (b0 & b & log & E1 & E2 & E3 & E4 & _).
  exists b0, b, log. auto.
Qed.

Theorem buffer_after_interaction : forall (Obs Act Rew : Type) (cap : option nat) (n : nat) (k : kind) (interval : nat)
    (choose : list (ev Obs Act Rew) -> Obs -> res Act) (ops : list (op Obs Rew)) g' hist evs,
  0 < n -> forallb single_op ops = true ->
  run k interval choose agent_init ops [] = (Ok (g', hist), evs) ->
  exists b0 b log, rb_init cap n = Ok b0 /\ nrb_run (@raq_append _) b0 (buffer_ops evs) = Ok b /\
    exact_log n (stored k hist) log /\ raq_iter (nr_mem b) = trim cap (map snd log).
Proof. intros. eapply buffer_after_resumed with (t0 := 0); eassumption. Qed.

Theorem td3_schedule : forall delay n, 0 < delay -> exists q_t,
  td3_updates delay n 0 = Ok (flat_map (fun i => UQ :: if i mod delay =? 0 then [UPolicy; USoftSync] else []) (seq 1 n), q_t) /\ q_t = n.
Proof.
  intros delay n Hd.
  assert (G : forall n q, td3_updates delay n q =
    Ok (flat_map (fun i => UQ :: if i mod delay =? 0 then [UPolicy; USoftSync] else []) (seq (q + 1) n), q + n)).
  { intros m. induction m as [|m IH]; intros q; cbn [td3_updates].
    - rewrite Nat.add_0_r. reflexivity.
    - unfold td3_update. destruct (delay =? 0) eqn:E; [apply Nat.eqb_eq in E; lia|]. cbn [bind].
      rewrite IH. cbn [bind seq flat_map]. replace (S (q + 1)) with (q + 1 + 1) by lia.
      replace (q + 1 + m) with (q + S m) by lia. reflexivity. }
  exists n. rewrite G. auto.
Qed.

