From Verif Require Import Base.PyBase Base.ListFacts Model.Num Model.Random Model.TreeQueue Model.RandomAccessQueue
     Model.PrioritizedBuffer Model.ReplayBuffer Model.EpisodicReplayBuffer
     Spec.BoundedList Spec.RandomSpec Spec.EpisodeSpec
     Proofs.RandomProofs Proofs.RandomAccessQueueProofs Proofs.PrioritizedBufferHistoryProofs Proofs.ReplayBufferProofs.
Set Implicit Arguments.

(** random_subseq *)
Lemma random_subseq_spec {A} (seq : list A) L i : i < length seq - L + 1 ->
  (length seq <= L -> random_subseq seq L i = seq) /\
  (L < length seq -> exists pre post, seq = pre ++ random_subseq seq L i ++ post /\
      length pre = i /\ length (random_subseq seq L i) = L).
Proof.
  intros Hi. unfold random_subseq. split.
  - intros H. replace (length seq <=? L) with true by lia. auto.
  - intros H. replace (length seq <=? L) with false by lia.
    exists (firstn i seq), (skipn L (skipn i seq)). rewrite firstn_skipn, firstn_skipn.
    split; [auto|]. rewrite !firstn_length, skipn_length. lia.
Qed.

Lemma random_subseq_all {A} (seq pre post mid : list A) : seq = pre ++ mid ++ post -> length mid < length seq ->
  length pre < length seq - length mid + 1 /\ random_subseq seq (length mid) (length pre) = mid.
Proof.
  intros -> H. rewrite !app_length in *. split; [lia|]. unfold random_subseq. rewrite !app_length.
  replace (_ <=? _) with false by lia. rewrite skipn_app, skipn_all, Nat.sub_diag. cbn [app skipn].
  rewrite firstn_app, firstn_all, Nat.sub_diag. cbn. apply app_nil_r.
Qed.

Section Evict.
  Context {T : Type}.
  Fixpoint evict (cap : nat) (l : list (list T)) : list (list T) :=
    if cap <? total l then match l with [] => [] | _ :: t => evict cap t end else l.

  Lemma total_cons (x : list T) l : total (x :: l) = length x + total l.
  Proof. unfold total. cbn. now rewrite app_length. Qed.
  Lemma total_app (a b : list (list T)) : total (a ++ b) = total a + total b.
  Proof. unfold total. now rewrite concat_app, app_length. Qed.

  Lemma evict_spec cap l : exists d, l = d ++ evict cap l /\ total (evict cap l) <= cap /\
    (d = [] \/ exists d' x, d = d' ++ [x] /\ cap < total (x :: evict cap l)).
  Proof.
    induction l as [|x l IH]; cbn [evict].
    - exists []. cbn. replace (cap <? 0) with false by lia. cbn. auto with arith.
    - destruct (cap <? total (x :: l)) eqn:E; [|exists []; split; [auto|split; [lia|auto]]].
      destruct IH as (d & Hl & Ht & Hd). exists (x :: d). split; [cbn; congruence|]. split; [auto|].
      right. destruct Hd as [->|(d' & y & -> & Hy)].
      + exists [], x. split; [auto|]. cbn in Hl. rewrite <- Hl. lia.
      + exists (x :: d'), y. auto.
  Qed.

  Lemma newest_snoc cap log kept (ep : list T) : newest_within (Some cap) log kept ->
    newest_within (Some cap) (log ++ [ep]) (evict cap (kept ++ [ep])).
  Proof.
    intros (old & -> & Ht & Ho). destruct (evict_spec cap (kept ++ [ep])) as (d & Hd & Ht' & Hx).
    exists (old ++ d). split; [|split; [auto|]].
    - rewrite <- !app_assoc. f_equal. auto.
    - destruct Hx as [->|(d' & x & -> & Hx)].
      + rewrite app_nil_r. destruct Ho as [->|(o' & x & -> & Hx)]; auto. right. exists o', x. split; auto.
        cbn [app] in Hd. rewrite <- Hd. rewrite total_cons in *. rewrite total_app. lia.
      + right. exists (old ++ d'), x. rewrite app_assoc. auto.
  Qed.
End Evict.

Section E.
  Context {T : Type}.

  Lemma append_all_spec ep : forall mem : raq (entry T), maxlen mem = None ->
    exists mem', append_all mem ep = Ok mem' /\ maxlen mem' = None /\
                 raq_iter mem' = raq_iter mem ++ map (fun t => Win [t]) ep.
  Proof.
    induction ep as [|t ep IH]; intros mem Hm; cbn [append_all map].
    - exists mem. rewrite app_nil_r. auto.
    - destruct (@raq_append_spec _ mem (Win [t])) as (m1 & -> & H1 & H2); [now rewrite Hm|]. cbn [bind].
      destruct (IH m1) as (m2 & E & H3 & H4); [congruence|].
      exists m2. split; [auto|]. split; [auto|]. rewrite H4, H2, Hm. cbn [trim]. now rewrite <- app_assoc.
  Qed.

  Lemma pop_n_spec {A} n : forall q : raq A, n <= length (raq_iter q) ->
    exists q', pop_n n q = Ok q' /\ maxlen q' = maxlen q /\ raq_iter q' = skipn n (raq_iter q).
  Proof.
    induction n as [|n IH]; intros q Hn; cbn [pop_n skipn]; [eauto|].
    pose proof (raq_popleft_spec q) as Hp. destruct (raq_iter q) as [|x l] eqn:Ei; [cbn in Hn; lia|].
    destruct Hp as (q1 & -> & H1 & H2). cbn [bind]. destruct (IH q1) as (q' & E & H3 & H4).
    { rewrite H2. cbn in Hn. lia. }
    exists q'. rewrite H4, H2. split; [auto|]. split; congruence.
  Qed.

  Definition flat (l : list (list T)) : list (entry T) := map (fun t => Win [t]) (concat l).
  Lemma flat_length l : length (flat l) = total l.
  Proof. unfold flat, total. now rewrite map_length. Qed.

  Lemma erb_evict_spec cap fuel : forall (eps : raq (list T)) mem, length (raq_iter eps) <= fuel ->
    raq_iter mem = flat (raq_iter eps) ->
    exists eps' mem', erb_evict fuel cap eps mem = Ok (eps', mem') /\
      maxlen eps' = maxlen eps /\ maxlen mem' = maxlen mem /\
      raq_iter eps' = evict cap (raq_iter eps) /\ raq_iter mem' = flat (raq_iter eps').
  Proof.
    induction fuel as [|fuel IH]; intros eps mem Hf Hm; cbn [erb_evict].
    - destruct (raq_iter eps) as [|] eqn:Ei; [|cbn in Hf; lia]. rewrite raq_len_iter, Hm, flat_length.
      replace (cap <? total (@nil (list T))) with false by (unfold total; cbn; lia). exists eps, mem. rewrite Ei. cbn [evict].
      replace (cap <? total (@nil (list T))) with false by (unfold total; cbn; lia). auto 6.
    - rewrite raq_len_iter, Hm, flat_length.
      pose proof (raq_popleft_spec eps) as Hp. destruct (raq_iter eps) as [|x l] eqn:Ei; cbn [evict].
      + replace (cap <? total (@nil (list T))) with false by (unfold total; cbn; lia). exists eps, mem. rewrite Ei. auto 6.
      + destruct (cap <? total (x :: l)) eqn:E; [|exists eps, mem; rewrite Ei; auto 6].
        destruct Hp as (e1 & -> & H1 & H2). cbn [bind].
        destruct (@pop_n_spec _ (length x) mem) as (m1 & -> & H3 & H4).
        { rewrite Hm, flat_length, total_cons. lia. }
        cbn [bind]. destruct (IH e1 m1) as (e2 & m2 & Er & H5 & H6 & H7 & H8).
        { rewrite H2. cbn in Hf. lia. }
        { rewrite H4, Hm, H2. unfold flat. cbn [concat]. rewrite map_app, skipn_app, skipn_all2, map_length, Nat.sub_diag; [reflexivity|].
          rewrite map_length. lia. }
        exists e2, m2. split; [auto|]. rewrite H7, H8, H2 in *. split; [congruence|]. split; [congruence|]. auto.
  Qed.

  Record einv (cap : option nat) (log : list (list T)) (open : nat -> list T) (b : erb T) : Prop := {
    ei_cap : er_cap b = cap; ei_m1 : maxlen (er_eps b) = None; ei_m2 : maxlen (er_mem b) = None;
    ei_cur : forall e, er_cur b e = open e;
    ei_flat : raq_iter (er_mem b) = flat (raq_iter (er_eps b));
    ei_new : newest_within cap log (raq_iter (er_eps b)) }.

  Lemma erb_stop_spec cap log open b e : einv cap log open b ->
    exists b', erb_stop b e = Ok b' /\
      match open e with
      | [] => b' = b
      | ep => einv cap (log ++ [ep]) (fun e' => if e' =? e then [] else open e') b'
      end.
  Proof.
    intros [Hc Hm1 Hm2 Hcur Hf Hn]. unfold erb_stop. rewrite (Hcur e). destruct (open e) as [|x0 ep0] eqn:Eo; [eauto|].
    set (ep := x0 :: ep0) in *.
    destruct (@raq_append_spec _ (er_eps b) ep) as (eps & -> & H1 & H2); [now rewrite Hm1|]. cbn [bind].
    destruct (@append_all_spec ep (er_mem b) Hm2) as (mem & -> & H3 & H4). cbn [bind].
    rewrite Hm1 in *. cbn [trim] in H2.
    assert (Hmem : raq_iter mem = flat (raq_iter eps)).
    { rewrite H4, Hf, H2. unfold flat. rewrite concat_app, map_app. cbn [concat]. now rewrite app_nil_r. }
    assert (Hcur' : forall e', set_last (er_cur b) e [] e' = (if e' =? e then [] else open e')).
    { intros e'. unfold set_last. destruct (e' =? e); auto. }
    rewrite Hc. destruct cap as [c|].
    - destruct (@erb_evict_spec c (raq_len eps) eps mem) as (e2 & m2 & -> & H5 & H6 & H7 & H8); auto.
      { now rewrite raq_len_iter. }
      cbn [bind]. eexists. split; [reflexivity|]. constructor; cbn [er_cur er_eps er_mem er_cap]; auto; try congruence.
      rewrite H7, H2. apply newest_snoc. auto.
    - cbn [bind]. eexists. split; [reflexivity|]. constructor; cbn [er_cur er_eps er_mem er_cap]; auto.
      cbn [newest_within] in *. rewrite H2. congruence.
  Qed.

  Lemma ended_from_ext os : forall f g : nat -> list T, (forall e, f e = g e) -> ended_from f os = ended_from g os.
  Proof.
    induction os as [|[e x [|]|e] os IH]; intros f g H; cbn [ended_from]; auto.
    - rewrite H. f_equal. apply IH. intros e'. now rewrite H.
    - rewrite H. apply IH. intros e'. now rewrite H.
    - rewrite H. destruct (g e); [auto|]. f_equal. apply IH. intros e'. now rewrite H.
  Qed.

  Lemma erb_run_spec cap os : forall log open b, einv cap log open b ->
    exists b' open', erb_run b os = Ok b' /\ einv cap (log ++ ended_from open os) open' b'.
  Proof.
    induction os as [|o os IH]; intros log open b Hi; cbn [erb_run].
    - exists b, open. cbn [ended_from]. rewrite app_nil_r. auto.
    - destruct o as [e x t|e]; cbn [erb_step ended_from].
      + unfold erb_append. set (b1 := mk_erb _ _ _ _).
        assert (H1 : einv cap log (fun e' => if e' =? e then open e ++ [x] else open e') b1).
        { destruct Hi as [Hc Hm1 Hm2 Hcur Hf Hn]. constructor; cbn; auto. intros e'. unfold set_last. rewrite !Hcur. reflexivity. }
        destruct t.
        * destruct (erb_stop_spec e H1) as (b2 & -> & H2). cbn [bind]. rewrite Nat.eqb_refl in H2.
          destruct (open e ++ [x]) as [|y l] eqn:El; [apply app_eq_nil in El as [_ El]; discriminate|].
          destruct (IH _ _ _ H2) as (b3 & o3 & -> & H3). exists b3, o3. split; auto.
          rewrite <- app_assoc in H3. cbn [app] in H3.
          erewrite ended_from_ext; [exact H3|]. intros e'. cbn beta. destruct (e' =? e) eqn:Ee; rewrite ?Ee; auto.
        * cbn [bind]. destruct (IH _ _ _ H1) as (b3 & o3 & -> & H3). eauto.
      + destruct (erb_stop_spec e Hi) as (b2 & -> & H2). cbn [bind].
        destruct (open e) as [|y l] eqn:El.
        * subst b2. destruct (IH _ _ _ Hi) as (b3 & o3 & -> & H3). eauto.
        * destruct (IH _ _ _ H2) as (b3 & o3 & -> & H3). exists b3, o3. split; auto.
          rewrite <- app_assoc in H3. exact H3.
  Qed.

  Lemma erb_init_inv cap : exists b, erb_init cap = Ok b /\ einv cap [] (fun _ => []) b.
  Proof.
    unfold erb_init. destruct (raq_init_spec None (@nil (list T))) as (e & -> & H1 & H2). cbn [bind].
    destruct (raq_init_spec None (@nil (entry T))) as (m & -> & H3 & H4). cbn [bind].
    eexists. split; [reflexivity|]. constructor; cbn; auto.
    - rewrite H2, H4. reflexivity.
    - rewrite H2. cbn [trim]. destruct cap; cbn [newest_within]; auto. exists []. cbn. auto with arith.
  Qed.

  Lemma erb_history cap (os : list (rb_op T)) : exists b0 b, erb_init cap = Ok b0 /\ erb_run b0 os = Ok b /\
    newest_within cap (ended os) (raq_iter (er_eps b)) /\
    raq_iter (er_mem b) = map (fun t => Win [t]) (concat (raq_iter (er_eps b))) /\
    erb_n_episodes b = length (raq_iter (er_eps b)) /\
    match cap with Some c => erb_len b <= c | None => True end.
  Proof.
    destruct (erb_init_inv cap) as (b0 & -> & Hi). destruct (erb_run_spec os Hi) as (b & o & E & Hb).
    exists b0, b. split; [auto|]. split; [auto|]. destruct Hb as [Hc Hm1 Hm2 Hcur Hf Hn].
    split; [auto|]. split; [auto|]. split; [apply raq_len_iter|].
    destruct cap as [c|]; auto. destruct Hn as (old & _ & Ht & _).
    unfold erb_len. rewrite raq_len_iter, Hf, flat_length. auto.
  Qed.

  Lemma newest_keeps_last cap log kept (ep : list T) : newest_within (Some cap) (log ++ [ep]) kept -> length ep <= cap ->
    exists kept', kept = kept' ++ [ep].
  Proof.
    intros (old & E & Ht & Ho) Hl. destruct (@exists_last _ kept) as (k' & y & Hk).
    - intros ->. rewrite app_nil_r in E. destruct Ho as [->|(o' & x & -> & Hx)].
      + destruct log; discriminate.
      + apply app_inj_tail in E as [_ <-]. rewrite total_cons in Hx. unfold total in Hx. cbn in Hx. lia.
    - subst kept. rewrite app_assoc in E. apply app_inj_tail in E as [_ ->]. eauto.
  Qed.
End E.

Section PE.
  Variable N : num.
  Context {T : Type}.
  Variable dpf : option (list T -> nV N).
  Variable ur : nV N.
  Variable pri_of : list (nV N) -> list (nV N).

  Lemma perb_evict_spec cap fuel : forall (eps eps' : pb N (list T)) left left',
    perb_evict fuel eps left = Ok (eps', left') -> pb_cap eps = None ->
    (left = Z.of_nat cap - Z.of_nat (total (pb_data eps)))%Z ->
    pb_cap eps' = None /\ pb_data eps' = evict cap (pb_data eps) /\
    (left' = Z.of_nat cap - Z.of_nat (total (pb_data eps')))%Z.
  Proof.
    induction fuel as [|fuel IH]; intros eps eps' left left' H Hc Hl; cbn [perb_evict] in H.
    - destruct (left <? 0)%Z eqn:E; [discriminate|]. injection H as <- <-. split; [auto|]. split; [|auto].
      destruct (pb_data eps); cbn [evict]; replace (cap <? _) with false by lia; auto.
    - destruct (left <? 0)%Z eqn:E.
      + destruct (pb_popleft eps) as [[ep e1]|] eqn:Ep; [|discriminate]. cbn [bind] in H.
        apply pb_popleft_data in Ep as (Hd & Hc1 & _). apply IH in H as (H1 & H2 & H3); [|congruence|].
        * split; [auto|]. split; [|auto]. rewrite H2, Hd in *. cbn [evict]. replace (cap <? _) with true by lia. auto.
        * rewrite Hl, Hd, total_cons. lia.
      + injection H as <- <-. split; [auto|]. split; [|auto].
        destruct (pb_data eps); cbn [evict]; replace (cap <? _) with false by lia; auto.
  Qed.

  Lemma trim_trim_app {A} m (l xs : list A) : trim m (trim m l ++ xs) = trim m (l ++ xs).
  Proof.
    revert l. induction xs as [|x xs IH]; intros l.
    - rewrite !app_nil_r. apply bounded_trim, trim_bounded.
    - replace (trim m l ++ x :: xs) with ((trim m l ++ [x]) ++ xs) by (now rewrite <- app_assoc).
      rewrite <- IH, trim_trim_snoc, IH, <- app_assoc. reflexivity.
  Qed.

  Record pinv (cap : option nat) (log : list (list T)) (open : nat -> list T) (b : perb N T) : Prop := {
    pi_pcap : pb_cap (pe_eps b) = None;
    pi_cur : forall e, pe_cur b e = open e;
    pi_left : pe_left b = option_map (fun c => Z.of_nat c - Z.of_nat (total (pb_data (pe_eps b))))%Z cap;
    pi_new : newest_within cap log (pb_data (pe_eps b));
    pi_mlen : maxlen (pe_mem b) = cap;
    pi_mem : raq_iter (pe_mem b) = trim cap (concat log) }.

  Lemma perb_stop_spec cap log open b b' e : pinv cap log open b -> perb_stop dpf b e = Ok b' ->
      match open e with
      | [] => b' = b
      | ep => pinv cap (log ++ [ep]) (fun e' => if e' =? e then [] else open e') b'
      end.
  Proof.
    intros [Hpc Hcur Hl Hn Hml Hm] H. unfold perb_stop in H. rewrite (Hcur e) in H.
    destruct (open e) as [|x0 ep0] eqn:Eo; [congruence|]. set (ep := x0 :: ep0) in *.
    destruct (raq_extend_spec (pe_mem b) ep) as (mem & E & H1 & H2). rewrite E in H. cbn [bind] in H. clear E.
    destruct (pb_append (pe_eps b) ep _) as [eps|] eqn:Ea; [|discriminate]. cbn [bind] in H.
    apply pb_append_data in Ea as (Hd & Hc & _); [|rewrite Hpc; auto]. rewrite Hpc in *. cbn [trim] in Hd.
    assert (Hmem : raq_iter mem = trim cap (concat (log ++ [ep]))).
    { rewrite H2, Hml, Hm, concat_app. cbn [concat]. rewrite app_nil_r. apply trim_trim_app. }
    assert (Hcur' : forall e', set_last (pe_cur b) e [] e' = (if e' =? e then [] else open e')).
    { intros e'. unfold set_last. destruct (e' =? e); auto. }
    rewrite Hl in H. destruct cap as [c|]; cbn [option_map] in H.
    - destruct (perb_evict _ eps _) as [[e2 l2]|] eqn:Ee; [|discriminate]. cbn [bind] in H. injection H as <-.
      apply perb_evict_spec with (cap := c) in Ee as (H5 & H6 & H7); auto.
      + constructor; cbn [pe_cur pe_eps pe_mem pe_left]; auto.
        * cbn. now rewrite H7.
        * rewrite H6, Hd. apply newest_snoc. auto.
        * congruence.
      + rewrite Hd, total_app, total_cons. unfold total at 3. cbn [concat length]. lia.
    - injection H as <-. constructor; cbn [pe_cur pe_eps pe_mem pe_left]; auto; [|congruence].
      cbn [newest_within] in *. congruence.
  Qed.

  Lemma perb_run_spec cap os : forall log open b b', pinv cap log open b ->
    perb_run dpf ur pri_of b os = Ok b' -> exists open', pinv cap (log ++ ended_from open (episode_ops os)) open' b'.
  Proof.
    induction os as [|o os IH]; intros log open b b' Hi H; cbn [perb_run] in H.
    - injection H as <-. exists open. cbn. rewrite app_nil_r. auto.
    - destruct (perb_step dpf ur pri_of b o) as [b2|] eqn:E; [|discriminate]. cbn [bind] in H.
      destruct o as [[e x t|e]|n d|es]; cbn [perb_step episode_ops ended_from] in *.
      + unfold perb_append in E. set (b1 := mk_perb _ _ _ _) in E.
        assert (H1 : pinv cap log (fun e' => if e' =? e then open e ++ [x] else open e') b1).
        { destruct Hi as [Hpc Hcur Hl Hn Hml Hm]. constructor; cbn; auto. intros e'. unfold set_last. rewrite !Hcur. reflexivity. }
        destruct t.
        * apply (perb_stop_spec e H1) in E. rewrite Nat.eqb_refl in E.
          destruct (open e ++ [x]) as [|y l] eqn:El; [apply app_eq_nil in El as [_ El]; discriminate|].
          destruct (IH _ _ _ _ E H) as (o3 & H3). exists o3.
          rewrite <- app_assoc in H3. cbn [app] in H3.
          erewrite ended_from_ext; [exact H3|]. intros e'. cbn beta. destruct (e' =? e) eqn:Ee; rewrite ?Ee; auto.
        * injection E as <-. destruct (IH _ _ _ _ H1 H) as (o3 & H3). eauto.
      + apply (perb_stop_spec e Hi) in E. destruct (open e) as [|y l] eqn:El.
        * subst b2. eapply IH; eauto.
        * destruct (IH _ _ _ _ E H) as (o3 & H3). exists o3. rewrite <- app_assoc in H3. exact H3.
      + unfold perb_sample_episodes in E. destruct (n <=? _); [|discriminate].
        destruct (pb_sample (pe_eps b) n ur d) as [[[[xs pr] mp] m']|] eqn:Es; [|discriminate]. cbn [bind] in E. injection E as <-.
        assert (Hd : pb_data m' = pb_data (pe_eps b) /\ pb_cap m' = pb_cap (pe_eps b)).
        { clear - Es. unfold pb_sample in Es. destruct (_ || _); [|discriminate].
          destruct (pb_sample_indices (pe_eps b) n ur d) as [[[[ixs p] q] s]|]; [|discriminate]. cbn [bind] in Es.
          destruct (gets _ ixs); [|discriminate]. cbn [bind] in Es. injection Es as _ _ _ <-. auto. }
        destruct Hd as [Hd Hc]. eapply IH; [|exact H]. destruct Hi as [Hpc Hcur Hl Hn Hml Hm]. constructor; cbn; rewrite ?Hd; auto. congruence.
      + unfold perb_update in E. destruct (pb_set_last (pe_eps b) (pri_of es)) as [m'|] eqn:Es; [|discriminate]. cbn [bind] in E. injection E as <-.
        assert (Hd : pb_data m' = pb_data (pe_eps b) /\ pb_cap m' = pb_cap (pe_eps b)).
        { clear - Es. unfold pb_set_last in Es. destruct (_ || _); [|discriminate]. destruct (forallb _ _); [|discriminate].
          destruct (pb_sampled _) as [ixs|]; [|discriminate]. destruct (_ =? _); [|discriminate].
          destruct (set_loop _ _) as [m1|] eqn:E1; [|discriminate]. cbn [bind] in Es. injection Es as <-.
          apply set_loop_data in E1 as (H1 & H2 & _). auto. }
        destruct Hd as [Hd Hc]. eapply IH; [|exact H]. destruct Hi as [Hpc Hcur Hl Hn Hml Hm]. constructor; cbn; rewrite ?Hd; auto. congruence.
  Qed.

  Lemma perb_history cap wait os b0 b : perb_init N (T := T) cap wait = Ok b0 ->
    perb_run dpf ur pri_of b0 os = Ok b ->
    newest_within cap (ended (episode_ops os)) (pb_data (pe_eps b)) /\
    pe_left b = option_map (fun c => Z.of_nat c - Z.of_nat (total (pb_data (pe_eps b))))%Z cap /\
    (match cap with Some c => total (pb_data (pe_eps b)) <= c | None => True end) /\
    raq_iter (pe_mem b) = trim cap (concat (ended (episode_ops os))) /\
    (exists older, raq_iter (pe_mem b) = older ++ concat (pb_data (pe_eps b))).
  Proof.
    intros Hi H. unfold perb_init in Hi. destruct (raq_init_spec cap (@nil T)) as (m & E & H1 & H2). rewrite E in Hi.
    cbn [bind] in Hi. injection Hi as <-.
    eapply (@perb_run_spec cap os [] (fun _ => [])) in H as (o & [Hpc Hcur Hl Hn Hml Hm]).
    2: { constructor; cbn; auto.
      - destruct cap; cbn; auto. f_equal. unfold total. cbn. lia.
      - destruct cap; cbn [newest_within]; auto. exists []. cbn. auto with arith. }
    cbn [app] in *. split; [auto|]. split; [auto|]. split.
    { destruct cap; auto. destruct Hn as (? & _ & Ht & _). auto. }
    split; [exact Hm|]. rewrite Hm. change (ended_from (fun _ => []) (episode_ops os)) with (ended (episode_ops os)) in *.
    destruct cap as [c|]; cbn [trim newest_within] in *.
    - destruct Hn as (old & El & Ht & _). rewrite El, concat_app. rewrite app_length. fold (total (pb_data (pe_eps b))).
      exists (skipn (length (concat old) + total (pb_data (pe_eps b)) - c) (concat old)).
      rewrite skipn_app. f_equal.
      replace (length (concat old) + total (pb_data (pe_eps b)) - c - length (concat old)) with 0 by lia. auto.
    - exists []. cbn. congruence.
  Qed.
End PE.

Section V02.
  Context {T : Type}.
  Variable terminal : T -> bool.

  Lemma recover_spec ts : forall episode (eps : raq (list T)), maxlen eps = None -> (forall t, In t episode -> terminal t = false) ->
    exists eps' new rest, recover terminal ts episode eps = Ok eps' /\ raq_iter eps' = raq_iter eps ++ new /\ splits terminal (episode ++ ts) new rest.
  Proof.
    induction ts as [|t ts IH]; intros episode eps Hm Hep; cbn [recover].
    - exists eps, [], episode. split; [auto|]. rewrite !app_nil_r. split; [auto|]. split; [auto|]. split; [auto|]. intros ep [].
    - destruct (terminal t) eqn:Et.
      + destruct (raq_append_spec eps (episode ++ [t])) as (q & Ha & Hmq & Hq); [rewrite Hm; reflexivity|]. rewrite Ha. cbn [bind].
        rewrite Hm in Hmq, Hq. cbn [trim] in Hq.
        destruct (IH [] q Hmq) as (eps' & new & rest & H1 & H2 & H3 & H4 & H5); [intros ? []|].
        exists eps', ((episode ++ [t]) :: new), rest. split; [auto|]. split; [rewrite H2, Hq, <- app_assoc; reflexivity|].
        split; [cbn [app concat] in *; rewrite H3, <- !app_assoc; reflexivity|]. split; [auto|].
        intros ep [<-|Hin]; [exists episode, t; auto|auto].
      + destruct (IH (episode ++ [t]) eps Hm) as (eps' & new & rest & H1 & H2 & H3).
        { intros x Hx. apply in_app_or in Hx as [Hx|[<-|[]]]; auto. }
        exists eps', new, rest. split; [auto|]. split; [auto|]. rewrite <- app_assoc in H3. exact H3.
  Qed.

  Lemma load_v02 (b : erb T) ts : exists b' rest, erb_load terminal b (EOld ts) = Ok b' /\ splits terminal ts (raq_iter (er_eps b')) rest /\
    raq_iter (er_mem b') = map (@Bare T) ts /\ er_cap b' = er_cap b.
  Proof.
    unfold erb_load. destruct (raq_init None (map (@Bare T) ts)) as [mem|] eqn:Em; [|cbn in Em; discriminate]. cbn [bind].
    destruct (@raq_init (list T) None []) as [e0|] eqn:Ee; [|cbn in Ee; discriminate]. cbn [bind].
    cbn in Em, Ee. injection Em as <-. injection Ee as <-.
    destruct (recover_spec ts [] (mk_raq [] [] None) eq_refl) as (eps' & new & rest & H1 & H2 & H3); [intros ? []|]. rewrite H1. cbn [bind].
    eexists. exists rest. split; [reflexivity|]. cbn [er_eps er_mem er_cap]. rewrite H2. cbn. auto.
  Qed.
End V02.
