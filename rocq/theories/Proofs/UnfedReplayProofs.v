(** Proofs about replaying episodes without reporting errors. *)
From Coq Require Import QArith Lqa.
From Verif Require Import Base.PyBase Base.ListFacts Model.Num Model.Random Model.TreeQueue Model.RandomAccessQueue Model.PrioritizedBuffer Model.ReplayBuffer
     Model.EpisodicReplayBuffer Spec.RandomSpec Spec.PrioritySpec Spec.PrioritizedBufferSpec Spec.UnfedReplaySpec
     Proofs.RandomProofs Proofs.TreeQueueProofs Proofs.PriorityProofs Proofs.PrioritizedBufferProofs Proofs.PrioritizedBufferHistoryProofs.
Set Implicit Arguments.
Local Open Scope nat_scope.

(** ** Waiting for priorities *)
Section W.
  Variable N : num.
  Context {T : Type}.
  Variable dpf : option (list T -> nV N).
  Variable ur : nV N.
  Variable pri_of : list (nV N) -> list (nV N).
  Definition mode (b : perb N T) := (pb_wait (pe_eps b), pb_flag (pe_eps b)).

  Lemma popleft_mode {X} (b b' : pb N X) x : pb_popleft b = Ok (x, b') -> (pb_wait b', pb_flag b') = (pb_wait b, pb_flag b).
  Proof. unfold pb_popleft. destruct (pb_data b); [discriminate|]. intros H. inv_bind H. destruct a. inv_bind H. destruct a. injection H as <- <-. reflexivity. Qed.
  Lemma append_mode {X} (b b' : pb N X) x p : pb_append b x p = Ok b' -> (pb_wait b', pb_flag b') = (pb_wait b, pb_flag b).
  Proof.
    unfold pb_append. intros H. inv_bind H. inv_bind H. inv_bind H. injection H as <-. cbn.
    destruct (pb_cap b) as [c|]; [|injection E as <-; reflexivity]. destruct (_ =? c); [|injection E as <-; reflexivity].
    inv_bind E. destruct a2 as [y b2]. injection E as <-. now apply popleft_mode in E2.
  Qed.
  Lemma evict_mode fuel : forall (e e' : pb N (list T)) l l', perb_evict fuel e l = Ok (e', l') -> (pb_wait e', pb_flag e') = (pb_wait e, pb_flag e).
  Proof.
    induction fuel as [|fuel IH]; intros e e' l l' H; cbn [perb_evict] in H; destruct (l <? 0)%Z; try discriminate; try (injection H as <- <-; reflexivity).
    inv_bind H. destruct a as [ep e1]. apply IH in H. apply popleft_mode in E. congruence.
  Qed.
  Lemma stop_mode (b b' : perb N T) e : perb_stop dpf b e = Ok b' -> mode b' = mode b.
  Proof.
    unfold perb_stop, mode. destruct (pe_cur b e) as [|x ep]; [intros [= <-]; reflexivity|]. intros H. inv_bind H. inv_bind H.
    apply append_mode in E0. destruct (pe_left b) as [l|]; [|injection H as <-; exact E0].
    inv_bind H. destruct a1 as [e2 l2]. injection H as <-. apply evict_mode in E1. cbn. congruence.
  Qed.
  Lemma add_mode (b b' : perb N T) o : perb_step dpf ur pri_of b (EOp N o) = Ok b' -> mode b' = mode b.
  Proof.
    destruct o as [e x t|e]; cbn [perb_step]; [|apply stop_mode]. unfold perb_append. intro H.
    destruct t; [apply stop_mode in H; rewrite H; reflexivity | injection H as <-; reflexivity].
  Qed.
  Lemma sample_mode (b b' : perb N T) n d : perb_step dpf ur pri_of b (ESample n d) = Ok b' -> mode b' = (fst (mode b), true).
  Proof.
    cbn [perb_step]. intros H. inv_bind H. destruct a as [[[xs pr] mp] b1]. injection H as <-. unfold perb_sample_episodes in E.
    destruct (n <=? _); [|discriminate]. inv_bind E. destruct a as [[[eps pr1] mp1] m]. injection E as <- <- <- <-.
    unfold pb_sample in E0. destruct (_ || _); [|discriminate]. inv_bind E0. destruct a as [[[i1 p1] m1] s]. inv_bind E0.
    injection E0 as <- <- <- <-. reflexivity.
  Qed.
  Lemma run_mode os : forall b b' : perb N T, Forall reports_nothing os -> mode b = (true, true) -> perb_run dpf ur pri_of b os = Ok b' -> mode b' = (true, true).
  Proof.
    induction os as [|o os IH]; intros b b' F M H; cbn [perb_run] in H; [injection H as <-; exact M|].
    inversion F; subst. inv_bind H. apply (IH a b'); auto. destruct o as [o|n d|es].
    - apply add_mode in E. congruence.
    - apply sample_mode in E. rewrite E, M. reflexivity.
    - contradiction.
  Qed.
  Lemma set_loop_wait {X} ips : forall b b' : pb N X, set_loop b ips = Ok b' -> pb_wait b' = pb_wait b.
  Proof.
    induction ips as [|[i p] ips IH]; intros b b' E; cbn [set_loop] in E; [injection E as <-; reflexivity|].
    inv_bind E. inv_bind E. apply IH in E. exact E.
  Qed.
  Lemma run_wait os : forall b b' : perb N T, pb_wait (pe_eps b) = true -> perb_run dpf ur pri_of b os = Ok b' -> pb_wait (pe_eps b') = true.
  Proof.
    induction os as [|o os IH]; intros b b' M H; cbn [perb_run] in H; [injection H as <-; exact M|].
    inv_bind H. apply (IH a b'); auto. destruct o as [o|n d|es].
    - apply add_mode in E. unfold mode in E. congruence.
    - apply sample_mode in E. unfold mode in E. cbn in E. congruence.
    - cbn [perb_step] in E. unfold perb_update in E. inv_bind E. injection E as <-. cbn. unfold pb_set_last in E0.
      destruct (_ || _); [|discriminate]. destruct (forallb _ _); [|discriminate]. destruct (pb_sampled _); [|discriminate].
      destruct (_ =? _); [|discriminate]. inv_bind E0. injection E0 as <-. cbn. apply set_loop_wait in E. congruence.
  Qed.
  Lemma run_app os1 os2 : forall b b' : perb N T, perb_run dpf ur pri_of b (os1 ++ os2) = Ok b' ->
    exists b1, perb_run dpf ur pri_of b os1 = Ok b1 /\ perb_run dpf ur pri_of b1 os2 = Ok b'.
  Proof.
    induction os1 as [|o os1 IH]; intros b b' H; cbn [app perb_run] in *; [eauto|]. inv_bind H. cbn [bind]. apply IH. exact H.
  Qed.
  Lemma second_replay cap (b0 b : perb N T) os1 n d os2 : perb_init N cap true = Ok b0 ->
    perb_run dpf ur pri_of b0 (os1 ++ ESample n d :: os2) = Ok b -> Forall reports_nothing os2 ->
    forall n' d' max_len draw, perb_sample_episodes ur b n' d' max_len draw = Raise AssertionError.
  Proof.
    intros I H F n' d' ml draw. apply run_app in H as (b1 & H1 & H2). cbn [perb_run] in H2. inv_bind H2.
    assert (W1 : pb_wait (pe_eps b1) = true).
    { apply (run_wait os1 b0); auto. unfold perb_init in I. inv_bind I. injection I as <-. reflexivity. }
    apply sample_mode in E. unfold mode in E at 2. rewrite W1 in E. apply run_mode in H2; auto. unfold mode in H2. injection H2 as Hw Hf.
    unfold perb_sample_episodes. destruct (n' <=? _); [|reflexivity]. unfold pb_sample. rewrite Hw, Hf. reflexivity.
  Qed.
End W.

(** ** Not waiting *)
Local Open Scope Q_scope.
Section U.
  Context {T : Type}.
  Variable dpf : option (list T -> Q).
  Variable ur : Q.
  Hypothesis dpf_pos : match dpf with Some f => forall ep, 0 < f ep | None => True end.
  Lemma given_pos ep : 0 < given dpf ep.
  Proof. unfold given. destruct dpf; auto. lra. Qed.
  Definition ok (e : pb QNum (list T)) : Prop :=
    rep e (pb_data e) (map (given dpf) (pb_data e)) (map (given dpf) (pb_data e)) /\ pb_wait e = false /\ pb_cap e = None /\ pb_max e = 1.

  Lemma popleft_ok e ep e' : ok e -> pb_popleft e = Ok (ep, e') -> ok e'.
  Proof.
    intros (R & W & C & M) H. destruct (pb_data e) as [|x xs] eqn:D.
    - unfold pb_popleft in H. rewrite D in H. discriminate.
    - cbn [map] in R. destruct (pb_popleft_rep R) as (e1 & E1 & R1 & C1 & M1 & W1 & _). rewrite E1 in H. injection H as <- <-.
      pose proof R1 as (D1 & _). unfold ok. rewrite D1. split; [exact R1|]. repeat split; congruence.
  Qed.
  Lemma append_ok e ep e' : ok e -> pb_append e ep (match dpf with Some f => Some (f ep) | None => None end) = Ok e' -> ok e'.
  Proof.
    intros (R & W & C & M) H.
    destruct (pb_append_rep ep (match dpf with Some f => Some (f ep) | None => None end) R) as (e1 & E1 & R1 & C1 & M1 & W1 & _); [congruence|].
    change (nV QNum) with Q in *. rewrite E1 in H. injection H as <-. rewrite C in R1.
    pose proof R1 as (D1 & _). unfold ok. rewrite D1. rewrite map_app. cbn [map].
    replace (given dpf ep) with (match match dpf with Some f => Some (f ep) | None => None end with Some p => p | None => pb_max e end) by (unfold given; destruct dpf; congruence).
    split; [exact R1|]. repeat split; congruence.
  Qed.
  Lemma evict_ok fuel : forall e e' l l', ok e -> perb_evict fuel e l = Ok (e', l') -> ok e'.
  Proof.
    induction fuel as [|fuel IH]; intros e e' l l' K H; cbn [perb_evict] in H; destruct (l <? 0)%Z; try discriminate; try (injection H as <- <-; exact K).
    inv_bind H. destruct a as [ep e1]. eapply IH; [|exact H]. eapply popleft_ok; eauto.
  Qed.
  Lemma stop_ok (b b' : perb QNum T) e : ok (pe_eps b) -> perb_stop (N := QNum) dpf b e = Ok b' -> ok (pe_eps b').
  Proof.
    intros K. unfold perb_stop. destruct (pe_cur b e) as [|x ep]; [intros [= <-]; exact K|]. intros H. inv_bind H. inv_bind H.
    apply append_ok in E0; [|exact K]. destruct (pe_left b) as [l|]; [|injection H as <-; exact E0].
    inv_bind H. destruct a1 as [e2 l2]. injection H as <-. cbn. eapply evict_ok; eauto.
  Qed.
  Lemma add_ok (b b' : perb QNum T) o : ok (pe_eps b) -> perb_step (N := QNum) dpf ur (fun es => es) b (EOp QNum o) = Ok b' -> ok (pe_eps b').
  Proof.
    intros K. destruct o as [e x t|e]; cbn [perb_step]; [|apply stop_ok, K]. unfold perb_append. intro H.
    destruct t; [eapply stop_ok; [|exact H]; exact K | injection H as <-; exact K].
  Qed.

  Lemma hit_pos w pos i : hit w pos i -> exists x, nth_error w i = Some x /\ 0 < x.
  Proof.
    intros (L & A & B). destruct (nth_error w i) as [x|] eqn:E; [|apply nth_error_None in E; lia]. exists x. split; [reflexivity|].
    assert (S : sumQ (firstn (S i) w) == sumQ (firstn i w) + x).
    { clear - E. revert i E. induction w as [|y w IH]; intros [|i] E; cbn in E; try discriminate.
      - injection E as <-. cbn. lra.
      - cbn [firstn sumQ] in *. rewrite (IH i E). lra. }
    rewrite S in B. lra.
  Qed.
  Lemma picks_distinct w us ixs w' : picks w us ixs w' -> NoDup ixs /\ forall i, In i ixs -> exists x, nth_error w i = Some x /\ 0 < x.
  Proof.
    induction 1 as [w|w u us i ixs w' HH HP [ND HX]]; [split; [constructor|intros i []]|].
    assert (NI : forall j, In j ixs -> j <> i).
    { intros j J ->. destruct (HX i J) as (x & E & X). rewrite nth_error_upd_same in E by apply HH. injection E as <-. lra. }
    split.
    - constructor; [|exact ND]. intro C. exact (NI i C eq_refl).
    - intros j [<-|J]; [eapply hit_pos; eauto|]. destruct (HX j J) as (x & E & X). exists x. split; [|exact X].
      rewrite nth_error_upd_other in E; auto. intro C. exact (NI j J (eq_sym C)).
  Qed.

  Lemma sample_ok (b : perb QNum T) n d ml draw : ok (pe_eps b) -> pb_data (pe_eps b) <> [] -> draws_ok (length (pb_data (pe_eps b))) n ur d ->
    let pris := map (given dpf) (pb_data (pe_eps b)) in
    exists ixs eps probs mp b', perb_sample_episodes (N := QNum) ur b n d ml draw = Ok (subseqs eps ml draw, probs, mp, b') /\
      length ixs = n /\ (ur == 0 -> NoDup ixs) /\
      Forall2 (fun i ep => nth_error (pb_data (pe_eps b)) i = Some ep) ixs eps /\
      Forall2 (fun ep pr => pr == sel_prob ur pris (given dpf ep)) eps probs /\
      (exists m, is_minQ pris m /\ mp == sel_prob ur pris m) /\
      ok (pe_eps b') /\ pb_data (pe_eps b') = pb_data (pe_eps b) /\ pe_cur b' = pe_cur b.
  Proof.
    intros (R & W & C & M) NE D pris. unfold perb_sample_episodes.
    assert (PP : forall p, In p pris -> 0 < p) by (intros p P; apply in_map_iff in P as (ep & <- & _); apply given_pos).
    destruct (@pb_sample_rep _ (pe_eps b) _ _ n ur d R NE PP D) as (ixs & ys & probs & mp & e' & w' & E & L & _ & _ & _ & P & F1 & F2 & MN & R' & C' & M' & W' & _); [congruence|].
    destruct D as (D1 & D2 & D3 & D4 & _).
    replace (n <=? length (pb_data (pe_eps b)))%nat with true by (symmetry; apply Nat.leb_le; exact D3).
    change (nV QNum) with Q in *. rewrite E. cbn [bind]. exists ixs, ys, probs, mp. eexists. split; [reflexivity|]. cbn [pe_eps pe_cur].
    split; [exact L|]. split.
    { intro U. replace (Qltb 0 ur) with false in P by (symmetry; pose proof (Qltb_spec 0 ur) as S; destruct (Qltb 0 ur); [exfalso; lra|reflexivity]).
      cbn [skipn] in P. apply picks_distinct in P. tauto. }
    split; [exact F1|]. split.
    { clear - F1 F2. revert ys probs F1 F2. induction ixs as [|i ixs IH]; intros ys probs F1 F2; inversion F1; inversion F2; subst; constructor; [|apply IH; auto].
      destruct H6 as (p & E & Q). rewrite nth_error_map, H1 in E. injection E as <-. exact Q. }
    split; [exact MN|]. rewrite W in R'. pose proof R' as (DD & _). split; [|auto]. unfold ok. rewrite DD.
    split; [exact R'|]. repeat split; congruence.
  Qed.

  Lemma unfed_ok os : forall b b' : perb QNum T, ok (pe_eps b) -> unfed dpf ur b os b' -> ok (pe_eps b').
  Proof.
    intros b b' K H. induction H as [b|b o b' os b'' E _ IH|b n d b' os b'' D E _ IH]; auto.
    - apply IH. eapply add_ok; eauto.
    - apply IH. cbn [perb_step] in E. destruct (pb_data (pe_eps b)) as [|x xs] eqn:ED.
      + exfalso. inv_bind E. destruct a as [[[xs pr] mp] b1]. injection E as <-. unfold perb_sample_episodes in E0.
        destruct (n <=? _)%nat; [|discriminate]. inv_bind E0. destruct a as [[[eps pr1] mp1] m].
        unfold pb_sample in E. destruct (_ || _); [|discriminate]. inv_bind E. unfold pb_sample_indices in E1.
        destruct K as (R & _). rewrite ED in R. cbn [map] in R. destruct R as (_ & RM & RS & _).
        destruct (stq_sum_spec RS) as (total & Ht & HE). change (nV QNum) with Q in *. rewrite Ht in E1. cbn [bind] in E1.
        inv_bind E1. cbn in HE. replace (nis0 QNum total) with true in E1; [discriminate|]. symmetry. cbn. apply Qeq_bool_iff. exact HE.
      + assert (NE : pb_data (pe_eps b) <> []) by congruence. rewrite <- ED in D.
        destruct (@sample_ok b n d None (fun _ => 0%nat) K NE D) as (ixs & eps & probs & mp & b1 & E1 & _ & _ & _ & _ & _ & K1 & _).
        change (nV QNum) with Q in *. rewrite E1 in E. cbn [bind] in E. injection E as <-. exact K1.
  Qed.
  Lemma init_ok cap b0 : perb_init QNum (T := T) cap false = Ok b0 -> ok (pe_eps b0).
  Proof.
    unfold perb_init. intros I. inv_bind I. injection I as <-. cbn. unfold ok. cbn. split; [|auto].
    unfold rep. cbn. repeat split; auto.
  Qed.
  Lemma ok_keeps b : ok (pe_eps b) -> keeps dpf b.
  Proof.
    intros (R & _). unfold keeps. rewrite (rep_priorities R), (rep_weights R), !map_map. auto.
  Qed.
  Lemma unfed_replays cap b0 os b : perb_init QNum cap false = Ok b0 -> unfed dpf ur b0 os b ->
    keeps dpf b /\
    forall n d ml draw, pb_data (pe_eps b) <> [] -> draws_ok (length (pb_data (pe_eps b))) n ur d ->
    let pris := map (given dpf) (pb_data (pe_eps b)) in
    exists ixs eps probs mp b', perb_sample_episodes (N := QNum) ur b n d ml draw = Ok (subseqs eps ml draw, probs, mp, b') /\
      length ixs = n /\ (ur == 0 -> NoDup ixs) /\
      Forall2 (fun i ep => nth_error (pb_data (pe_eps b)) i = Some ep) ixs eps /\
      Forall2 (fun ep pr => pr == sel_prob ur pris (given dpf ep)) eps probs /\
      (exists m, is_minQ pris m /\ mp == sel_prob ur pris m) /\
      keeps dpf b' /\ pb_data (pe_eps b') = pb_data (pe_eps b) /\ pe_cur b' = pe_cur b.
  Proof.
    intros I H. apply init_ok in I. pose proof (unfed_ok I H) as K. split; [apply ok_keeps, K|].
    intros n d ml draw NE D pris. destruct (@sample_ok b n d ml draw K NE D) as (ixs & eps & probs & mp & b' & E & L & ND & F1 & F2 & MN & K' & DD & CC).
    exists ixs, eps, probs, mp, b'. repeat (split; [assumption|]). split; [apply ok_keeps, K'|]. auto.
  Qed.
End U.

Lemma sum_ones {X} (l : list X) : sumQ (map (fun _ => 1) l) == inject_Z (Z.of_nat (length l)).
Proof.
  induction l as [|x l IH]; [reflexivity|]. cbn [map sumQ length]. rewrite IH, Nat2Z.inj_succ. unfold Z.succ. rewrite inject_Z_plus. change (inject_Z 1) with 1. ring.
Qed.
Lemma uniform_for_ever {T} (ur : Q) (data : list (list T)) : data <> [] ->
  forall ep : list T, sel_prob ur (map (given None) data) (given None ep) == 1 / inject_Z (Z.of_nat (length data)).
Proof.
  intros NE ep. unfold sel_prob, given. rewrite sum_ones, map_length.
  assert (~ inject_Z (Z.of_nat (length data)) == 0).
  { intro E. unfold Qeq in E. cbn in E. destruct data; [congruence|]. cbn [length] in E. lia. }
  field. assumption.
Qed.
