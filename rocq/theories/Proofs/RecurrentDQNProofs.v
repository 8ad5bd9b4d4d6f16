From Verif Require Import Base.PyBase Model.Categorical Model.StatelessRecurrent Spec.StatelessRecurrentSpec
  Model.RecurrentDQN Spec.RecurrentDQNSpec Proofs.StatelessRecurrentProofs.
Set Implicit Arguments.

Section P.
Variables U V : Type.
Notation link := (link U V).
Notation rstate := (rstate V).
Notation sst := (sst V).
Notation rop := (rop U V).

(** * Structure does not depend on the parameters. *)
Record agree (l m : link) : Prop := {
  ag_rec : is_recurrent m = is_recurrent l;
  ag_zero : zero_state m = zero_state l;
  ag_filled : forall s, filled m s = filled l s;
  ag_shaped : forall s, shaped m s <-> shaped l s;
  ag_batched : forall opt n rs, batched opt m n rs <-> batched opt l n rs;
  ag_get : forall rs i, get_at m rs i = get_at l rs i;
  ag_mask : forall rs idx, mask_at m rs idx = mask_at l rs idx }.

Definition same_for (l : link) : Prop := forall m, same_layers l m -> agree l m.

Lemma all2_agree : forall ls, Forall same_for ls -> forall ms, all2 (@same_layers U V) ls ms -> Forall2 agree ls ms.
Proof.
  intros ls F. induction F as [|l ls H F IH]; intros [|m ms] A; cbn in A; try contradiction; constructor.
  - apply H, A.
  - apply IH, A.
Qed.

Lemma agree_n_rec : forall ls ms, Forall2 agree ls ms -> n_rec ms = n_rec ls.
Proof.
  intros ls ms F. induction F as [|l m ls ms A F IH]; [reflexivity|].
  unfold n_rec in *. cbn. rewrite (ag_rec A). destruct (is_recurrent l); cbn; congruence.
Qed.

Lemma agree_each : forall ls ms, Forall2 agree ls ms -> each_rec (@zero_state U V) ms = each_rec (@zero_state U V) ls.
Proof.
  intros ls ms F. induction F as [|l m ls ms A F IH]; [reflexivity|].
  cbn. rewrite (ag_rec A), (ag_zero A). cbn in IH. rewrite IH. reflexivity.
Qed.

Lemma agree_zip : forall ls ms, Forall2 agree ls ms -> forall ss,
  zip_rec (@filled U V) ms ss = zip_rec (@filled U V) ls ss.
Proof.
  intros ls ms F. induction F as [|l m ls ms A F IH]; [reflexivity|]. intros ss.
  cbn. rewrite (ag_rec A). destruct (is_recurrent l); [|apply IH]. destruct ss as [|s ss]; [reflexivity|].
  rewrite (ag_filled A). f_equal. apply IH.
Qed.

Lemma agree_all : forall X (P : link -> X -> Prop) ls ms, Forall2 agree ls ms ->
  (forall l m, agree l m -> forall x, P m x <-> P l x) -> forall xs, all_rec P ms xs <-> all_rec P ls xs.
Proof.
  intros X P ls ms F HP. induction F as [|l m ls ms A F IH]; [reflexivity|]. intros xs.
  cbn. rewrite (ag_rec A). destruct (is_recurrent l); [|apply IH]. destruct xs as [|x xs]; [reflexivity|].
  rewrite (HP _ _ A x). specialize (IH xs). cbn in IH. tauto.
Qed.

Lemma agree_over : forall X Y (f : link -> X -> res Y) ls ms, Forall2 agree ls ms ->
  (forall l m, agree l m -> forall x, f m x = f l x) -> forall xs, over_children f ms xs = over_children f ls xs.
Proof.
  intros X Y f ls ms F Hf. induction F as [|l m ls ms A F IH]; [reflexivity|]. intros xs.
  cbn. rewrite (ag_rec A). destruct (is_recurrent l); [|apply IH]. destruct xs as [|x xs]; [reflexivity|].
  rewrite (Hf _ _ A x). destruct (f l x); cbn; [|reflexivity]. specialize (IH xs). cbn in IH. rewrite IH. reflexivity.
Qed.

Lemma same_agree : forall l, same_for l.
Proof.
  assert (HS : forall ls ms (k : list link -> link), k = @LSeq U V \/ k = @LBranch U V -> Forall2 agree ls ms -> agree (k ls) (k ms)).
  { intros ls ms k Hk F.
    assert (E : forall opt n rs, match rs with
                | RNone => opt = true | RLstm _ _ | RGru _ => False
                | RTup rss => all_rec (fun l r => batched opt l n r) ms rss end <->
              match rs with
                | RNone => opt = true | RLstm _ _ | RGru _ => False
                | RTup rss => all_rec (fun l r => batched opt l n r) ls rss end).
    { intros opt n rs. destruct rs; try reflexivity. apply agree_all; [exact F|].
      intros l m A x. apply (ag_batched A). }
    split.
    - destruct Hk as [-> | ->]; reflexivity.
    - destruct Hk as [-> | ->]; cbn; f_equal; apply agree_each, F.
    - intros s. destruct Hk as [-> | ->]; destruct s; cbn; try reflexivity; f_equal;
        solve [apply agree_each, F | apply agree_zip, F].
    - intros s. destruct Hk as [-> | ->]; destruct s; cbn; try reflexivity;
        (apply agree_all; [exact F|]; intros l m A x; apply (ag_shaped A)).
    - intros opt n rs. destruct Hk as [-> | ->]; exact (E opt n rs).
    - intros rs i. destruct Hk as [-> | ->]; destruct rs as [| | |rss]; cbn; try reflexivity;
        rewrite (agree_n_rec F); try reflexivity; destruct (length rss =? n_rec ls); try reflexivity;
        (rewrite (@agree_over _ _ (fun l r => match r with RNone => Ok SNone | _ => get_at l r i end) _ _ F);
         [reflexivity|]; intros l m A x; rewrite (ag_get A); reflexivity).
    - intros rs idx. destruct Hk as [-> | ->]; destruct rs as [| | |rss]; cbn; try reflexivity;
        rewrite (agree_n_rec F); destruct (length rss =? n_rec ls); try reflexivity;
        (rewrite (@agree_over _ _ (fun l r => mask_at l r idx) _ _ F);
         [reflexivity|]; intros l m A x; apply (ag_mask A)). }
  apply link_ind2.
  - intros p [q| | | | |] H; cbn in H; try contradiction. split; try reflexivity.
    + cbn. rewrite H. reflexivity.
    + intros [| | |]; cbn; try reflexivity. rewrite H. reflexivity.
    + intros [| | |]; cbn; try reflexivity. rewrite H. reflexivity.
  - intros p [|q| | | |] H; cbn in H; try contradiction. split; try reflexivity.
    + cbn. rewrite H. reflexivity.
    + intros [| | |]; cbn; try reflexivity. rewrite H. reflexivity.
    + intros [| | |]; cbn; try reflexivity. rewrite H. reflexivity.
  - intros f [| |g| | |] H; cbn in H; try contradiction. split; try reflexivity.
  - intros f [| | |g| |] H; cbn in H; try contradiction. split; try reflexivity.
  - intros ls F [| | | |ms|] H; cbn in H; try contradiction. apply HS; [left; reflexivity|]. apply all2_agree; assumption.
  - intros ls F [| | | | |ms] H; cbn in H; try contradiction. apply HS; [right; reflexivity|]. apply all2_agree; assumption.
Qed.

(** * Representation of episodes by a batched state. *)
Section Rep.
Variable m0 : link.

Definition rep (n : nat) (rs : rstate) (hs : nat -> episode U V) : Prop :=
  batched true m0 n rs /\
  forall j s, j < n -> get_at m0 rs j = Ok s -> filled m0 s = filled m0 (state_after (hs j)).

Notation episode_ok := (episode_ok m0).

Lemma model_typed : forall m : link, out_ty m <> None -> exists t, out_ty m = Some t.
Proof. intros m H. destruct (out_ty m); [eauto | contradiction]. Qed.

Lemma batched_weak : forall (l : link) n rs, batched false l n rs -> batched true l n rs.
Proof.
  apply (@link_ind2 U V (fun l => forall n rs, batched false l n rs -> batched true l n rs)).
  1-4: intros f n [|h c|h|rss] H; cbn in *; try contradiction; try reflexivity; auto.
  - intros ls F n [|h c|h|rss] H; cbn in *; try contradiction; try reflexivity.
    apply all_rec_char in H. destruct H as [L H]. apply all_rec_char. split; [exact L|].
    intros i l x Hl Hx. rewrite Forall_forall in F. apply F; [apply (recs_in _ _ Hl) | eapply H; eassumption].
  - intros ls F n [|h c|h|rss] H; cbn in *; try contradiction; try reflexivity.
    apply all_rec_char in H. destruct H as [L H]. apply all_rec_char. split; [exact L|].
    intros i l x Hl Hx. rewrite Forall_forall in F. apply F; [apply (recs_in _ _ Hl) | eapply H; eassumption].
Qed.

Lemma batched_none : forall (l : link) n, batched true l n RNone.
Proof. intros [] n; reflexivity. Qed.

Lemma get_none : forall (l : link) i s, get_at l RNone i = Ok s -> filled l s = zero_state l.
Proof.
  intros [] i s H; cbn in H; injection H as <-; cbn; try reflexivity; f_equal; apply filled_none.
Qed.

Lemma filled_snone : forall l : link, filled l SNone = zero_state l.
Proof. intros []; reflexivity. Qed.

Lemma shaped_snone : forall l : link, shaped l SNone.
Proof. intros []; exact I. Qed.

Lemma rep_none : forall n hs, (forall j, j < n -> hs j = []) -> rep n RNone hs.
Proof.
  intros n hs H. split; [apply batched_none|]. intros j s Hj G. rewrite (H j Hj). cbn [state_after fold_left].
  rewrite filled_snone. apply (get_none _ _ G).
Qed.

Lemma rep_ext : forall n rs hs hs', (forall j, j < n -> hs j = hs' j) -> rep n rs hs -> rep n rs hs'.
Proof.
  intros n rs hs hs' E [B H]. split; [exact B|]. intros j s Hj G. rewrite <- (E j Hj). apply H; assumption.
Qed.

Lemma run1_shaped : forall (m : link) xs s, is_recurrent m = true -> out_ty m <> None -> shaped m s ->
  shaped m (snd (run1 m xs s)).
Proof.
  intros m xs s Hr Ht Hs. destruct (model_typed _ Ht) as [t Ht'].
  destruct (@cat_get U V m [s] Hr) as [rs [E [B G]]]; [discriminate | intros s' [<-|[]]; exact Hs |].
  destruct (@fwd_ok U V m Hr t Ht' [xs] rs) as [rs' [vs [v [E1 [E2 [E3 [B' [T H]]]]]]]];
    [discriminate | apply batched_weak, B|].
  destruct (H 0 xs (filled m s) eq_refl (G 0 s eq_refl)) as [w [s' [N [R G']]]].
  rewrite (@run1_filled U V m Hr t Ht' xs s Hs) in R. rewrite R. cbn [snd].
  destruct (@get_ok U V m false 1 rs' 0 B' ltac:(lia) Hr) as [s2 [G2 S2]]. congruence.
Qed.

Lemma state_shaped : forall h, episode_ok h -> shaped m0 (state_after h).
Proof.
  intros h. induction h as [|[m x] h IH] using rev_ind; intros H.
  - apply shaped_snone.
  - apply Forall_app in H. destruct H as [H1 H2]. inversion H2 as [|a b [R [T A]] _]; subst. cbn [fst] in *.
    unfold state_after. rewrite fold_left_app. cbn [fold_left fst snd]. fold (state_after h).
    apply (ag_shaped (@same_agree m0 _ A)). apply run1_shaped; [exact R | exact T |].
    apply (ag_shaped (@same_agree m0 _ A)). apply IH, H1.
Qed.

Lemma state_snoc : forall (h : episode U V) m x, state_after (h ++ [(m, x)]) = snd (run1 m [x] (state_after h)).
Proof. intros h m x. unfold state_after. rewrite fold_left_app. reflexivity. Qed.

Lemma rep_run : forall m x (s : sst) h, model_ok m0 m -> episode_ok h -> shaped m0 s ->
  filled m0 s = filled m0 (state_after h) -> run1 m [x] s = run1 m [x] (state_after h).
Proof.
  intros m x s h [R [T A]] Hh Hs E. destruct (model_typed _ T) as [t Ht]. pose proof (@same_agree m0 _ A) as G.
  rewrite <- (@run1_filled U V m R t Ht [x] s) by (apply (ag_shaped G), Hs).
  rewrite <- (@run1_filled U V m R t Ht [x] (state_after h)) by (apply (ag_shaped G), state_shaped, Hh).
  rewrite !(ag_filled G), E. reflexivity.
Qed.

Lemma rep_get : forall n rs hs m j, model_ok m0 m -> rep n rs hs -> j < n ->
  exists s, get_at m rs j = Ok s /\ stands m0 s (state_after (hs j)).
Proof.
  intros n rs hs m j [R [T A]] [B H] Hj. pose proof (@same_agree m0 _ A) as G.
  rewrite (ag_rec G) in R. destruct (@get_ok U V m0 true n rs j B Hj R) as [s [E S']].
  exists s. rewrite (ag_get G). split; [exact E|]. split; [exact S' | apply H; assumption].
Qed.

Lemma rep_mask : forall n rs hs m idx, model_ok m0 m -> rep n rs hs -> (forall i, In i idx -> i < n) ->
  exists rs', mask_at m rs idx = Ok rs' /\
    rep n rs' (fun j => if existsb (Nat.eqb j) idx then [] else hs j).
Proof.
  intros n rs hs m idx [R [T A]] [B H] Hi. pose proof (@same_agree m0 _ A) as G.
  rewrite (ag_rec G) in R. destruct (@mask_ok U V m0 true n rs idx R B Hi) as [rs' [E [B' H']]].
  exists rs'. rewrite (ag_mask G). split; [exact E|]. split; [exact B'|].
  intros j s Hj Gs. destruct (@get_ok U V m0 true n rs j B Hj R) as [s0 [G0 _]].
  rewrite (H' j s0 s G0 Gs Hj). destruct (existsb (Nat.eqb j) idx).
  - cbn [state_after fold_left]. rewrite filled_snone. reflexivity.
  - apply H; assumption.
Qed.

Lemma rep_call : forall n rs hs m os, model_ok m0 m -> rep n rs hs -> length os = n -> os <> [] ->
  (forall j, j < n -> episode_ok (hs j)) ->
  exists out rs', call_one_step m os rs = Ok (out, rs') /\ good_eval m os hs out /\
    rep n rs' (fun j => match nth_error os j with Some o => hs j ++ [(m, o)] | None => hs j end).
Proof.
  intros n rs hs m os Hm [B H] L Hne Hh. destruct Hm as [R [T A]]. pose proof (@same_agree m0 _ A) as G.
  destruct (model_typed _ T) as [t Ht].
  destruct (@call_ok U V m t os rs R Ht Hne) as [vs [v [rs' [E [B' [C [Lv P]]]]]]].
  { rewrite L. apply (ag_batched G), B. }
  assert (Q : forall j o, nth_error os j = Some o ->
            nth_error vs j = Some (fst (run1 m [o] (state_after (hs j)))) /\
            get_at m rs' j = Ok (state_after (hs j ++ [(m, o)]))).
  { intros j o Ho. assert (Hj : j < n) by (apply nth_lt in Ho; lia).
    destruct (@rep_get n rs hs m j (conj R (conj T A)) (conj B H) Hj) as [s [Es [Ss Fs]]].
    destruct (P j o s Ho Es) as [w [s' [Nw [Rw Gw]]]].
    rewrite (@rep_run m o s (hs j) (conj R (conj T A)) (Hh j Hj) Ss Fs) in Rw.
    rewrite state_snoc, Rw. split; assumption. }
  exists (OConcat v), rs'. split; [exact E|]. split.
  - exists vs, v. split; [reflexivity|]. split; [exact C|]. split; [exact Lv|]. intros j o Ho. apply Q, Ho.
  - rewrite L in B'. split; [apply batched_weak, (ag_batched G), B'|].
    intros j s Hj Gs. destruct (@nth_is_some _ os j ltac:(lia)) as [o Ho]. rewrite Ho.
    rewrite <- (ag_get G) in Gs. destruct (Q j o Ho) as [_ Q2]. rewrite Q2 in Gs. injection Gs as <-. reflexivity.
Qed.

Lemma ended_in : forall ended j, existsb (Nat.eqb j) (ended_indices ended) = match nth_error ended j with Some b => b | None => false end.
Proof.
  intros ended. unfold ended_indices.
  assert (H : forall a j, existsb (Nat.eqb (a + j)) (map fst (filter (fun q => snd q) (combine (seq a (length ended)) ended)))
             = match nth_error ended j with Some b => b | None => false end).
  2: { exact (H 0). }
  assert (Z : forall ended a i, In i (map fst (filter (fun q : nat * bool => snd q) (combine (seq a (length ended)) ended))) -> a <= i).
  { clear ended. induction ended as [|b ended IH]; intros a i; cbn; [intros []|]. destruct b; cbn.
    - intros [<-|Hi]; [lia|]. apply IH in Hi. lia.
    - intros Hi. apply IH in Hi. lia. }
  induction ended as [|b ended IH]; intros a j; cbn; [destruct j; reflexivity|].
  destruct j as [|j]; cbn.
  - rewrite Nat.add_0_r. destruct b; cbn; [rewrite Nat.eqb_refl; reflexivity|].
    apply not_true_is_false. intros Hx. apply existsb_exists in Hx. destruct Hx as [i [Hi E]].
    apply Nat.eqb_eq in E. apply Z in Hi. lia.
  - rewrite <- (IH (S a) j). replace (a + S j) with (S a + j) by lia. destruct b; cbn [existsb map filter snd fst]; [|reflexivity].
    replace (S a + j =? a) with false; [reflexivity|]. symmetry. apply Nat.eqb_neq. lia.
Qed.

Lemma ended_lt : forall ended i, In i (ended_indices ended) -> i < length ended.
Proof.
  intros ended i H. unfold ended_indices in H. apply in_map_iff in H. destruct H as [[a b] [<- H]].
  apply filter_In in H. destruct H as [H _]. apply in_combine_l in H. apply in_seq in H. cbn. lia.
Qed.

Lemma rep_reset : forall n rs hs m ended, model_ok m0 m -> rep n rs hs -> length ended = n ->
  exists rs', reset_ended m ended rs = Ok rs' /\
    rep n rs' (fun j => match nth_error ended j with Some true => [] | _ => hs j end).
Proof.
  intros n rs hs m ended Hm R L. unfold reset_ended.
  assert (X : forall j, existsb (Nat.eqb j) (ended_indices ended) = match nth_error ended j with Some b => b | None => false end)
    by (apply ended_in).
  assert (Y : forall i, In i (ended_indices ended) -> i < n) by (intros i Hi; apply ended_lt in Hi; lia).
  destruct (ended_indices ended) as [|i idx] eqn:E.
  - exists rs. split; [reflexivity|]. apply rep_ext with (hs := hs); [|exact R].
    intros j _. specialize (X j). cbn in X. destruct (nth_error ended j) as [[|]|]; congruence.
  - destruct (@rep_mask n rs hs m (i :: idx) Hm R Y) as [rs' [E' R']].
    exists rs'. split; [exact E'|]. eapply rep_ext; [|exact R'].
    intros j _. cbn beta. rewrite (X j). destruct (nth_error ended j) as [[|]|]; reflexivity.
Qed.

Lemma reset_none : forall (m : link) ended, reset_ended m ended RNone = Ok RNone.
Proof.
  intros m ended. unfold reset_ended. destruct (ended_indices ended); [reflexivity|]. destruct m; reflexivity.
Qed.

(** * Episodes. *)
Lemma train_snoc : forall j (ops : list rop) op, train_episode j (ops ++ [op]) = train_step j (train_episode j ops) op.
Proof. intros j ops op. unfold train_episode. rewrite fold_left_app. reflexivity. Qed.
Lemma test_snoc : forall j (ops : list rop) op, test_episode j (ops ++ [op]) = test_step j (test_episode j ops) op.
Proof. intros j ops op. unfold test_episode. rewrite fold_left_app. reflexivity. Qed.

Lemma snoc_ok : forall h m x, episode_ok h -> model_ok m0 m -> episode_ok (h ++ [(m, x)]).
Proof. intros h m x H Hm. apply Forall_app. split; [exact H|]. constructor; [exact Hm | constructor]. Qed.

Lemma train_ok : forall j ops, models_ok m0 ops -> episode_ok (train_episode j ops).
Proof.
  intros j ops. induction ops as [|op ops IH] using rev_ind; intros H; [constructor|].
  assert (H1 : models_ok m0 ops) by (intros o Ho; apply H, in_or_app; left; exact Ho).
  assert (Hin : In op (ops ++ [op])) by (apply in_or_app; right; left; reflexivity). assert (H2 := H op Hin). specialize (IH H1).
  rewrite train_snoc. destruct op; cbn [train_step]; cbn beta iota in H2; try exact IH.
  - apply snoc_ok; assumption.
  - constructor.
  - destruct (nth_error os j); [apply snoc_ok; assumption | exact IH].
  - destruct (nth_error rows j) as [[o [|]]|]; [constructor | exact IH | exact IH].
Qed.
Lemma test_ok : forall j ops, models_ok m0 ops -> episode_ok (test_episode j ops).
Proof.
  intros j ops. induction ops as [|op ops IH] using rev_ind; intros H; [constructor|].
  assert (H1 : models_ok m0 ops) by (intros o Ho; apply H, in_or_app; left; exact Ho).
  assert (Hin : In op (ops ++ [op])) by (apply in_or_app; right; left; reflexivity). assert (H2 := H op Hin). specialize (IH H1).
  rewrite test_snoc. destruct op; cbn [test_step]; cbn beta iota in H2; try exact IH.
  - destruct (nth_error os j); [apply snoc_ok; assumption | exact IH].
  - destruct (nth_error ended j) as [[|]|]; [constructor | exact IH | exact IH].
  - constructor.
Qed.

(** * The invariant. *)
Inductive tmode := Single (inside : bool) | Batch (n : nat) (acted : bool).
Definition tok (mode : tmode) (ops : list rop) : Prop :=
  match mode with Single b => single_ok b ops | Batch n a => 0 < n /\ batch_ok n a ops end.

Definition TI (mode : tmode) (pre : list rop) (s : rdqn U V) : Prop :=
  match mode with
  | Single inside =>
      rep 1 (train s) (fun j => train_episode j pre) /\
      if inside then exists h' m x, train_episode 0 pre = h' ++ [(m, x)] /\ last s = Some x /\ rep 1 (prev s) (fun _ => h')
      else train_episode 0 pre = [] /\ last s = None
  | Batch n acted =>
      rep n (train s) (fun j => train_episode j pre) /\
      if acted then exists hs' m os, length os = n /\ blast s = Some (map Some os) /\ rep n (prev s) hs' /\
        forall j o, nth_error os j = Some o -> train_episode j pre = hs' j ++ [(m, o)]
      else True
  end.
Definition EI (k : option nat) (pre : list rop) (s : rdqn U V) : Prop :=
  match k with
  | None => test s = RNone /\ forall j, test_episode j pre = []
  | Some n => rep n (test s) (fun j => test_episode j pre)
  end.

Lemma TI_same : forall mode pre s pre' s', (forall j, train_episode j pre' = train_episode j pre) ->
  train s' = train s -> prev s' = prev s -> last s' = last s -> blast s' = blast s ->
  TI mode pre s -> TI mode pre' s'.
Proof.
  intros mode pre s pre' s' E1 E2 E3 E4 E5 H. destruct mode as [b|n a]; cbn in *; rewrite E2, ?E3, ?E4, ?E5.
  - destruct H as [H1 H2]. split; [eapply rep_ext; [|exact H1]; intros j _; symmetry; apply E1|].
    rewrite E1. exact H2.
  - destruct H as [H1 H2]. split; [eapply rep_ext; [|exact H1]; intros j _; symmetry; apply E1|].
    destruct a; [|exact I]. destruct H2 as [hs' [m [os [A [B [C D]]]]]]. exists hs', m, os.
    repeat (split; [assumption|]). intros j o Ho. rewrite E1. apply D, Ho.
Qed.

Lemma EI_same : forall k pre s pre' s', (forall j, test_episode j pre' = test_episode j pre) ->
  test s' = test s -> EI k pre s -> EI k pre' s'.
Proof.
  intros k pre s pre' s' E1 E2 H. destruct k as [n|]; cbn in *; rewrite E2.
  - eapply rep_ext; [|exact H]. intros j _; symmetry; apply E1.
  - split; [apply H|]. intros j. rewrite E1. apply H.
Qed.

Lemma store_ok : forall n hs hs' m i x o mx (s : rdqn U V), model_ok m0 m -> rep n (prev s) hs' -> rep n (train s) hs ->
  i < n -> hs i = hs' i ++ [(mx, x)] -> exists t, store m i x o s = Ok t /\ good_trans m0 i (hs i) o t.
Proof.
  intros n hs hs' m i x o mx s Hm Rp Rt Hi E. unfold store.
  destruct (@rep_get n (prev s) hs' m i Hm Rp Hi) as [r [-> Sr]].
  destruct (@rep_get n (train s) hs m i Hm Rt Hi) as [r' [-> Sr']]. cbn.
  eexists. split; [reflexivity|]. exists (hs' i), mx, x. cbn [rt_env rt_state rt_next rt_rec rt_nrec]. auto 10.
Qed.

Lemma observe_ok : forall n hs hs' m mx (s : rdqn U V), model_ok m0 m -> rep n (prev s) hs' -> rep n (train s) hs ->
  forall rows os i, length rows = length os -> i + length os = n ->
  (forall j o, nth_error os j = Some o -> hs (i + j) = hs' (i + j) ++ [(mx, o)]) ->
  exists bl ts, observe_loop m s i rows (map Some os) = Ok (bl, map (@Stored U V) ts) /\ length ts = length rows /\
    forall j t row, nth_error ts j = Some t -> nth_error rows j = Some row -> good_trans m0 (i + j) (hs (i + j)) (fst row) t.
Proof.
  intros n hs hs' m mx s Hm Rp Rt. induction rows as [|[o e] rows IH]; intros [|x os] i L1 L2 H; cbn in L1, L2; try discriminate.
  - exists [], []. cbn. split; [reflexivity|]. split; [reflexivity|]. intros [|j]; discriminate.
  - cbn [map observe_loop].
    pose proof (H 0 x eq_refl) as H0. rewrite Nat.add_0_r in H0.
    destruct (@store_ok n hs hs' m i x o mx s Hm Rp Rt ltac:(lia) H0) as [t [-> Gt]]. cbn [bind].
    destruct (IH os (S i)) as [bl [ts [-> [Lt Ht]]]]; [lia | lia | |].
    { intros j o' Ho. specialize (H (S j) o' Ho). replace (S i + j) with (i + S j) by lia. exact H. }
    cbn [bind fst snd]. eexists _, (t :: ts). split; [reflexivity|]. split; [cbn; lia|].
    intros [|j] t' row; cbn; intros E1 E2.
    + injection E1 as <-. injection E2 as <-. rewrite Nat.add_0_r. exact Gt.
    + replace (i + S j) with (S i + j) by lia. apply Ht; assumption.
Qed.

Lemma step_ok : forall mode k op ops pre s, models_ok m0 pre -> models_ok m0 [op] ->
  tok mode (op :: ops) -> tests_ok k (op :: ops) -> TI mode pre s -> EI k pre s ->
  exists s' evs mode' k', rstep op s = Ok (s', evs) /\ happens m0 (fun j => test_episode j pre) pre op evs /\
    TI mode' (pre ++ [op]) s' /\ EI k' (pre ++ [op]) s' /\ tok mode' ops /\ tests_ok k' ops.
Proof.
  intros mode k op ops pre s Hpre Hop Ho Hk T E.
  assert (Hm := Hop op (or_introl eq_refl)).
  assert (Htr : forall j, episode_ok (train_episode j pre)) by (intros j; apply train_ok, Hpre).
  assert (Hte : forall j, episode_ok (test_episode j pre)) by (intros j; apply test_ok, Hpre).
  destruct op as [m o|m o|m os|m rows|m os|m ended|]; cbn beta iota in Hm.
  - (* act_and_train *)
    destruct mode as [b|n a]; [|destruct Ho as [_ []]]. cbn in Ho, Hk. destruct T as [Rt Tb].
    destruct (@rep_call 1 (train s) (fun j => train_episode j pre) m [o] Hm Rt eq_refl ltac:(discriminate) (fun j _ => Htr j))
      as [out [rs' [Ec [Ge Rs']]]].
    assert (TI' : forall s' : rdqn U V, train s' = rs' -> prev s' = train s -> last s' = Some o ->
              TI (Single true) (pre ++ [ActTrain m o]) s').
    { intros s' E1 E2 E3. cbn. rewrite E1, E2, E3. split.
      - eapply rep_ext; [|exact Rs']. intros j Hj. cbn beta. rewrite train_snoc. destruct j; [reflexivity | lia].
      - exists (train_episode 0 pre), m, o. split; [apply train_snoc|]. split; [reflexivity|].
        eapply rep_ext; [|exact Rt]. intros j Hj. cbn beta. replace j with 0 by lia. reflexivity. }
    assert (EI' : forall s' : rdqn U V, test s' = test s -> EI k (pre ++ [ActTrain m o]) s').
    { intros s' Es. eapply EI_same; [|exact Es|exact E]. intros j. rewrite test_snoc. reflexivity. }
    cbn [rstep]. unfold act_train. destruct b.
    + destruct Tb as [h' [mx [x [Eh [El Rp]]]]].
      destruct (@store_ok 1 (fun j => train_episode j pre) (fun _ => h') m 0 x o mx s Hm Rp Rt ltac:(lia) Eh) as [t [Et Gt]].
      rewrite El, Et. cbn [bind fst snd]. unfold eval_train. cbn [train]. rewrite Ec. cbn [bind fst snd train prev test last blast app].
      eexists _, _, (Single true), k. split; [reflexivity|]. split.
      { cbn [happens]. exists out. split; [exact Ge|]. rewrite Eh in Gt |- *. destruct (h' ++ [(mx, x)]) eqn:Ea; [destruct h'; discriminate Ea|].
        exists t. split; [reflexivity | exact Gt]. }
      split; [apply TI'; reflexivity|]. split; [apply EI'; reflexivity|]. split; assumption.
    + destruct Tb as [Eh El]. rewrite El. cbn [bind fst snd]. unfold eval_train. rewrite Ec.
      cbn [bind fst snd train prev test last blast app].
      eexists _, _, (Single true), k. split; [reflexivity|]. split.
      { cbn [happens]. exists out. split; [exact Ge|]. rewrite Eh. reflexivity. }
      split; [apply TI'; reflexivity|]. split; [apply EI'; reflexivity|]. split; assumption.
  - (* stop_episode_and_train *)
    destruct mode as [b|n a]; [|destruct Ho as [_ []]]. cbn in Ho, Hk. destruct Ho as [-> Ho]. destruct T as [Rt [h' [mx [x [Eh [El Rp]]]]]].
    destruct (@store_ok 1 (fun j => train_episode j pre) (fun _ => h') m 0 x o mx s Hm Rp Rt ltac:(lia) Eh) as [t [Et Gt]].
    cbn [rstep]. unfold stop_train. rewrite El, Et. cbn [bind].
    eexists _, _, (Single false), k. split; [reflexivity|]. split; [exists t; split; [reflexivity | exact Gt]|].
    split.
    { cbn. split; [apply rep_none; intros j _; apply train_snoc|]. split; [apply train_snoc | reflexivity]. }
    split; [|split; assumption]. eapply EI_same; [| |exact E]; [intros j; rewrite test_snoc; reflexivity | reflexivity].
  - (* batch_act_and_train *)
    destruct mode as [b|n a]; [destruct Ho|]. cbn in Ho, Hk. destruct Ho as [Hn [-> [L Ho]]]. destruct T as [Rt _].
    destruct (@rep_call n (train s) (fun j => train_episode j pre) m os Hm Rt L ltac:(intros ->; cbn in L; lia) (fun j _ => Htr j))
      as [out [rs' [Ec [Ge Rs']]]].
    cbn [rstep]. unfold batch_act_train, eval_train. rewrite Ec. cbn [bind fst snd train prev test last blast].
    eexists _, _, (Batch n true), k. split; [reflexivity|]. split; [exists out; split; [reflexivity | exact Ge]|]. split.
    { cbn [TI train prev last blast]. split.
      - eapply rep_ext; [|exact Rs']. intros j _. cbn beta. rewrite train_snoc. reflexivity.
      - exists (fun j => train_episode j pre), m, os. split; [exact L|]. split; [reflexivity|]. split; [exact Rt|].
        intros j o Hj. rewrite train_snoc. cbn [train_step]. rewrite Hj. reflexivity. }
    split; [|split; [split|]; assumption]. eapply EI_same; [| |exact E]; [intros j; rewrite test_snoc; reflexivity | reflexivity].
  - (* batch_observe_and_train *)
    destruct mode as [b|n a]; [destruct Ho|]. cbn in Ho, Hk. destruct Ho as [Hn [-> [L Ho]]].
    destruct T as [Rt [hs' [mx [os [Lo [Eb [Rp D]]]]]]].
    destruct (@observe_ok n (fun j => train_episode j pre) hs' m mx s Hm Rp Rt rows os 0 ltac:(lia) Lo D) as [bl [ts [Eo [Lt Ht]]]].
    destruct (@rep_reset n (train s) (fun j => train_episode j pre) m (map snd rows) Hm Rt ltac:(rewrite map_length; exact L)) as [rs' [Er Rs']].
    cbn [rstep]. unfold batch_observe_train. rewrite Eb, Eo. cbn [bind fst snd]. rewrite Er. cbn [bind].
    eexists _, _, (Batch n false), k. split; [reflexivity|]. split.
    { exists ts. split; [reflexivity|]. split; [exact Lt|]. intros i t row H1 H2. exact (Ht i t row H1 H2). }
    split.
    { cbn [TI train]. split; [|exact I]. eapply rep_ext; [|exact Rs']. intros j _. cbn beta.
      rewrite train_snoc. cbn [train_step]. rewrite nth_map. destruct (nth_error rows j) as [[o [|]]|]; reflexivity. }
    split; [|split; [split|]; assumption]. eapply EI_same; [| |exact E]; [intros j; rewrite test_snoc; reflexivity | reflexivity].
  - (* act *)
    assert (Ho' : tok mode ops) by (destruct mode; exact Ho). cbn in Hk. destruct Hk as [Hne [Hk1 Hk2]].
    assert (R : rep (length os) (test s) (fun j => test_episode j pre)).
    { destruct k as [k|]; cbn in E; [rewrite Hk1; exact E|]. destruct E as [-> E]. apply rep_none. intros j _. apply E. }
    destruct (@rep_call (length os) (test s) (fun j => test_episode j pre) m os Hm R eq_refl Hne (fun j _ => Hte j))
      as [out [rs' [Ec [Ge Rs']]]].
    cbn [rstep]. unfold eval_test. rewrite Ec. cbn [bind fst snd].
    eexists _, _, mode, (Some (length os)). split; [reflexivity|]. split; [exists out; split; [reflexivity | exact Ge]|].
    split; [eapply TI_same; [| | | | |exact T]; try reflexivity; intros j; rewrite train_snoc; reflexivity|].
    split; [|split; assumption]. cbn [EI test]. eapply rep_ext; [|exact Rs']. intros j _. cbn beta. rewrite test_snoc. reflexivity.
  - (* observe *)
    assert (Ho' : tok mode ops) by (destruct mode; exact Ho). cbn in Hk. destruct Hk as [Hk1 Hk2].
    assert (R : exists rs', reset_ended m ended (test s) = Ok rs' /\ forall s' : rdqn U V, test s' = rs' -> EI k (pre ++ [Observe m ended]) s').
    { destruct k as [k|]; cbn in E.
      - destruct (@rep_reset k (test s) (fun j => test_episode j pre) m ended Hm E Hk1) as [rs' [Er Rs']].
        exists rs'. split; [exact Er|]. intros s' Es. cbn [EI]. rewrite Es. eapply rep_ext; [|exact Rs']. intros j _. cbn beta. rewrite test_snoc. reflexivity.
      - destruct E as [-> E]. exists RNone. split; [apply reset_none|]. intros s' Es. split; [exact Es|].
        intros j. rewrite test_snoc. cbn [test_step]. rewrite E. destruct (nth_error ended j) as [[|]|]; reflexivity. }
    destruct R as [rs' [Er R]]. cbn [rstep]. rewrite Er. cbn [bind].
    eexists _, _, mode, k. split; [reflexivity|]. split; [reflexivity|].
    split; [eapply TI_same; [| | | | |exact T]; try reflexivity; intros j; rewrite train_snoc; reflexivity|].
    split; [apply R; reflexivity | split; assumption].
  - (* stop_episode *)
    assert (Ho' : tok mode ops) by (destruct mode; exact Ho). cbn in Hk.
    cbn [rstep]. eexists _, _, mode, None. split; [reflexivity|]. split; [reflexivity|].
    split; [eapply TI_same; [| | | | |exact T]; try reflexivity; intros j; rewrite train_snoc; reflexivity|].
    split; [|split; assumption]. split; [reflexivity|]. intros j. apply test_snoc.
Qed.

Lemma run_ok : forall ops mode k pre s, models_ok m0 pre -> models_ok m0 ops ->
  tok mode ops -> tests_ok k ops -> TI mode pre s -> EI k pre s ->
  exists s' logs, rrun ops s = Ok (s', logs) /\ length logs = length ops /\
    forall p op, nth_error ops p = Some op ->
      exists evs, nth_error logs p = Some evs /\ happens m0 (fun j => test_episode j (pre ++ firstn p ops)) (pre ++ firstn p ops) op evs.
Proof.
  induction ops as [|op ops IH]; intros mode k pre s Hpre Hops Ho Hk T E.
  - exists s, []. split; [reflexivity|]. split; [reflexivity|]. intros [|p]; discriminate.
  - assert (H1 : models_ok m0 [op]) by (intros o [<-|[]]; apply Hops; left; reflexivity).
    assert (H2 : models_ok m0 ops) by (intros o Hi; apply Hops; right; exact Hi).
    destruct (@step_ok mode k op ops pre s Hpre H1 Ho Hk T E) as [s1 [evs [mode' [k' [Es [Hh [T' [E' [Ho' Hk']]]]]]]]].
    destruct (IH mode' k' (pre ++ [op]) s1) as [s' [logs [Er [Ll Hl]]]]; try assumption.
    { intros o Hi. apply in_app_or in Hi. destruct Hi as [Hi|Hi]; [apply Hpre, Hi | apply H1, Hi]. }
    exists s', (evs :: logs). cbn [rrun]. rewrite Es. cbn [bind fst snd]. rewrite Er. cbn [bind fst snd].
    split; [reflexivity|]. split; [cbn; lia|]. intros [|p] op' Hp; cbn in Hp.
    + injection Hp as <-. exists evs. split; [reflexivity|]. cbn [firstn]. rewrite app_nil_r. exact Hh.
    + destruct (Hl p op' Hp) as [e [He Hh']]. exists e. split; [exact He|]. cbn [firstn]. rewrite <- app_assoc in Hh'. exact Hh'.
Qed.

Lemma dqn_states : forall ops, models_ok m0 ops -> (single_ok false ops \/ exists n, 0 < n /\ batch_ok n false ops) ->
  tests_ok None ops ->
  exists s logs, rrun ops (rdqn_init U V) = Ok (s, logs) /\ length logs = length ops /\
    forall p op, nth_error ops p = Some op ->
      exists evs, nth_error logs p = Some evs /\ happens m0 (fun j => test_episode j (firstn p ops)) (firstn p ops) op evs.
Proof.
  intros ops Hm Ho Hk.
  assert (M : exists mode, tok mode ops /\ TI mode [] (rdqn_init U V)).
  { destruct Ho as [Ho|[n [Hn Ho]]].
    - exists (Single false). split; [exact Ho|]. cbn. split; [apply rep_none; reflexivity | split; reflexivity].
    - exists (Batch n false). split; [split; assumption|]. cbn. split; [apply rep_none; reflexivity | exact I]. }
  destruct M as [mode [M1 M2]].
  apply (@run_ok ops mode None [] (rdqn_init U V)); try assumption.
  - intros o [].
  - split; [reflexivity|]. intros j. reflexivity.
Qed.
End Rep.

(** * Training and evaluation do not interfere. *)
Definition same_train (s s' : rdqn U V) : Prop :=
  train s = train s' /\ prev s = prev s' /\ last s = last s' /\ blast s = blast s'.

Lemma store_ext : forall (m : link) i x o (s s' : rdqn U V), train s = train s' -> prev s = prev s' -> store m i x o s = store m i x o s'.
Proof. intros m i x o s s' E1 E2. unfold store. rewrite E1, E2. reflexivity. Qed.
Lemma observe_ext : forall (m : link) (s s' : rdqn U V), train s = train s' -> prev s = prev s' ->
  forall rows i bl, observe_loop m s i rows bl = observe_loop m s' i rows bl.
Proof.
  intros m s s' E1 E2. induction rows as [|[o e] rows IH]; intros i bl; [reflexivity|]. cbn.
  destruct bl as [|[x|] bl]; [reflexivity | |rewrite IH; reflexivity].
  rewrite (@store_ext m i x o s s' E1 E2), IH. reflexivity.
Qed.

Lemma train_ext : forall op (s s' : rdqn U V) s1 evs, is_training op = true -> same_train s s' -> rstep op s = Ok (s1, evs) ->
  exists s1', rstep op s' = Ok (s1', evs) /\ same_train s1 s1'.
Proof.
  intros op [t p e l b] [t' p' e' l' b'] s1 evs Ho [E1 [E2 [E3 E4]]]. cbn in E1, E2, E3, E4. subst t' p' l' b'.
  destruct op as [m o|m o|m os|m rows|m os|m ended|]; try discriminate; cbn [rstep].
  - unfold act_train, store, eval_train. cbn [train prev test last blast]. destruct l as [x|]; cbn [bind fst snd train prev test last blast].
    + destruct (get_at m p 0); cbn [bind]; [|discriminate]. destruct (get_at m t 0); cbn [bind fst snd train prev test last blast]; [|discriminate].
      destruct (call_one_step m [o] t) as [[v r]|]; cbn [bind fst snd train prev test last blast]; [|discriminate].
      intros H. injection H as <- <-. eexists. split; [reflexivity|]. repeat (split; [reflexivity|]). reflexivity.
    + destruct (call_one_step m [o] t) as [[v r]|]; cbn [bind fst snd train prev test last blast]; [|discriminate].
      intros H. injection H as <- <-. eexists. split; [reflexivity|]. repeat (split; [reflexivity|]). reflexivity.
  - unfold stop_train, store. cbn [train prev test last blast]. destruct l as [x|]; [|discriminate].
    destruct (get_at m p 0); cbn [bind]; [|discriminate]. destruct (get_at m t 0); cbn [bind]; [|discriminate].
    intros H. injection H as <- <-. eexists. split; [reflexivity|]. repeat (split; [reflexivity|]). reflexivity.
  - unfold batch_act_train, eval_train. cbn [train prev test last blast].
    destruct (call_one_step m os t) as [[v r]|]; cbn [bind fst snd train prev test last blast]; [|discriminate].
    intros H. injection H as <- <-. eexists. split; [reflexivity|]. repeat (split; [reflexivity|]). reflexivity.
  - unfold batch_observe_train. cbn [train prev test last blast].
    destruct b as [bl|].
    + rewrite (@observe_ext m {| train := t; prev := p; test := e; last := l; blast := Some bl |} {| train := t; prev := p; test := e'; last := l; blast := Some bl |} eq_refl eq_refl).
      destruct (observe_loop m _ 0 rows bl) as [q|]; cbn [bind fst snd]; [|discriminate].
      destruct (reset_ended m (map snd rows) t) as [r|]; cbn [bind]; [|discriminate].
      intros H. injection H as <- <-. eexists. split; [reflexivity|]. repeat (split; [reflexivity|]). reflexivity.
    + destruct rows; cbn [bind fst snd]; [|discriminate].
      destruct (reset_ended m _ t) as [r|]; cbn [bind]; [|discriminate].
      intros H. injection H as <- <-. eexists. split; [reflexivity|]. repeat (split; [reflexivity|]). reflexivity.
Qed.

Lemma train_keeps_test : forall op (s : rdqn U V) s1 evs, is_training op = true -> rstep op s = Ok (s1, evs) -> test s1 = test s.
Proof.
  intros op [t p e l b] s1 evs Ho.
  destruct op as [m o|m o|m os|m rows|m os|m ended|]; try discriminate; cbn [rstep].
  - unfold act_train, store, eval_train. cbn [train prev test last blast]. destruct l as [x|]; cbn [bind fst snd train prev test last blast].
    + destruct (get_at m p 0); cbn [bind]; [|discriminate]. destruct (get_at m t 0); cbn [bind fst snd train prev test last blast]; [|discriminate].
      destruct (call_one_step m [o] t) as [[v r]|]; cbn [bind fst snd train prev test last blast]; [|discriminate].
      intros H. injection H as <- <-. reflexivity.
    + destruct (call_one_step m [o] t) as [[v r]|]; cbn [bind fst snd train prev test last blast]; [|discriminate].
      intros H. injection H as <- <-. reflexivity.
  - unfold stop_train, store. cbn [train prev test last blast]. destruct l as [x|]; [|discriminate].
    destruct (get_at m p 0); cbn [bind]; [|discriminate]. destruct (get_at m t 0); cbn [bind]; [|discriminate].
    intros H. injection H as <- <-. reflexivity.
  - unfold batch_act_train, eval_train. cbn [train prev test last blast].
    destruct (call_one_step m os t) as [[v r]|]; cbn [bind fst snd train prev test last blast]; [|discriminate].
    intros H. injection H as <- <-. reflexivity.
  - unfold batch_observe_train. cbn [train prev test last blast].
    match goal with |- bind ?X _ = _ -> _ => destruct X as [q|]; cbn [bind]; [|discriminate] end.
    destruct (reset_ended m _ t) as [r|]; cbn [bind]; [|discriminate].
    intros H. injection H as <- <-. reflexivity.
Qed.

Lemma test_ext : forall op (s s' : rdqn U V) s1 evs, is_training op = false -> test s = test s' -> rstep op s = Ok (s1, evs) ->
  exists s1', rstep op s' = Ok (s1', evs) /\ test s1 = test s1'.
Proof.
  intros op s s' s1 evs Ho E. destruct op as [m o|m o|m os|m rows|m os|m ended|]; try discriminate; cbn [rstep].
  - unfold eval_test. rewrite E. destruct (call_one_step m os (test s')) as [[v r]|]; cbn [bind fst snd]; [|discriminate].
    intros H. injection H as <- <-. eexists. split; reflexivity.
  - rewrite E. destruct (reset_ended m ended (test s')) as [r|]; cbn [bind]; [|discriminate].
    intros H. injection H as <- <-. eexists. split; reflexivity.
  - intros H. injection H as <- <-. eexists. split; reflexivity.
Qed.

Lemma test_keeps_train : forall op (s : rdqn U V) s1 evs, is_training op = false -> rstep op s = Ok (s1, evs) -> same_train s1 s.
Proof.
  intros op s s1 evs Ho. destruct op as [m o|m o|m os|m rows|m os|m ended|]; try discriminate; cbn [rstep].
  - unfold eval_test. destruct (call_one_step m os (test s)) as [[v r]|]; cbn [bind fst snd]; [|discriminate].
    intros H. injection H as <- <-. repeat (split; [reflexivity|]). reflexivity.
  - destruct (reset_ended m ended (test s)) as [r|]; cbn [bind]; [|discriminate].
    intros H. injection H as <- <-. repeat (split; [reflexivity|]). reflexivity.
  - intros H. injection H as <- <-. repeat (split; [reflexivity|]). reflexivity.
Qed.

Lemma separate : forall ops (s s1 s2 : rdqn U V) s' logs, rrun ops s = Ok (s', logs) ->
  same_train s s1 -> test s = test s2 ->
  (exists s1', rrun (filter (@is_training U V) ops) s1 = Ok (s1', done_by (@is_training U V) ops logs)) /\
  (exists s2', rrun (filter (fun op => negb (is_training op)) ops) s2 = Ok (s2', done_by (fun op => negb (is_training op)) ops logs)).
Proof.
  induction ops as [|op ops IH]; intros s s1 s2 s' logs H E1 E2.
  - cbn in H. injection H as <- <-. cbn. split; eexists; reflexivity.
  - cbn [rrun] in H. destruct (rstep op s) as [[sa evs]|] eqn:Es; cbn [bind fst snd] in H; [|discriminate].
    destruct (rrun ops sa) as [[sb lg]|] eqn:Er; cbn [bind fst snd] in H; [|discriminate]. injection H as <- <-.
    unfold done_by. cbn [combine filter fst]. destruct (is_training op) eqn:Eo; cbn [negb map snd].
    + destruct (@train_ext op s s1 sa evs Eo E1 Es) as [s1' [Es1 E1']].
      assert (E2' : test sa = test s2) by (rewrite (@train_keeps_test op s sa evs Eo Es); exact E2).
      destruct (IH sa s1' s2 sb lg Er E1' E2') as [[a Ha] [b Hb]]. split; [|exists b; exact Hb].
      exists a. cbn [rrun]. rewrite Es1. cbn [bind fst snd]. rewrite Ha. reflexivity.
    + destruct (@test_ext op s s2 sa evs Eo E2 Es) as [s2' [Es2 E2']].
      assert (E1' : same_train sa s1).
      { destruct (@test_keeps_train op s sa evs Eo Es) as [A [B [C D]]]. destruct E1 as [A1 [B1 [C1 D1]]].
        repeat (split; [congruence|]). congruence. }
      destruct (IH sa s1 s2' sb lg Er E1' E2') as [[a Ha] [b Hb]]. split; [exists a; exact Ha|].
      exists b. cbn [rrun]. rewrite Es2. cbn [bind fst snd]. rewrite Hb. reflexivity.
Qed.

Lemma not_interfering : forall ops s logs, rrun ops (rdqn_init U V) = Ok (s, logs) ->
  (exists s1, rrun (filter (@is_training U V) ops) (rdqn_init U V) = Ok (s1, done_by (@is_training U V) ops logs)) /\
  (exists s2, rrun (filter (fun op => negb (is_training op)) ops) (rdqn_init U V) = Ok (s2, done_by (fun op => negb (is_training op)) ops logs)).
Proof.
  intros ops s logs H. apply (@separate ops _ _ _ s logs H); [repeat (split; [reflexivity|]); reflexivity | reflexivity].
Qed.
End P.
