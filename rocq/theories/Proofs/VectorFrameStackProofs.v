From Verif Require Import Base.PyBase Model.GymEnv Model.Wrappers Model.VectorEnv Spec.WrapperSpec Spec.VectorSpec
     Proofs.WrappersProofs.
Set Implicit Arguments.

Section Proofs.
Context {A O X : Type}.
Variable V : venv A O X.
Variable k : nat.
Hypothesis Hans : answers_all V.
Hypothesis Hn : 0 < v_num V.

Lemma push_reset_nth : forall mask (frames : list (list O)) obs i m q o,
  nth_error mask i = Some m -> nth_error frames i = Some q -> nth_error obs i = Some o ->
  nth_error (vfs_push_reset k mask frames obs) i =
  Some (if m then q else Nat.iter k (fun q => deque_push k q o) q).
Proof.
  induction mask as [|m0 ms IH]; intros frames obs i m q o H1 H2 H3; [destruct i; discriminate|].
  destruct frames as [|q0 qs]; [destruct i; discriminate|]. destruct obs as [|o0 os]; [destruct i; discriminate|].
  destruct i as [|i]; cbn [nth_error vfs_push_reset] in *.
  - inversion H1; inversion H2; inversion H3; subst; reflexivity.
  - apply IH; assumption.
Qed.

Lemma push_reset_len : forall mask (frames : list (list O)) obs,
  length (vfs_push_reset k mask frames obs) = length frames.
Proof. induction mask; intros [|q qs] [|o os]; cbn; auto. Qed.

Lemma push_step_nth : forall (frames : list (list O)) obs i q o,
  nth_error frames i = Some q -> nth_error obs i = Some o ->
  nth_error (vfs_push_step k frames obs) i = Some (deque_push k q o).
Proof.
  induction frames as [|q0 qs IH]; intros obs i q o H1 H2; [destruct i; discriminate|].
  destruct obs as [|o0 os]; [destruct i; discriminate|].
  destruct i as [|i]; cbn [nth_error vfs_push_step] in *; [inversion H1; inversion H2; subst; reflexivity|]. apply IH; assumption.
Qed.

Lemma push_step_len : forall (frames : list (list O)) obs, length (vfs_push_step k frames obs) = length frames.
Proof. induction frames; intros [|o os]; cbn; auto. Qed.

Lemma nth_error_ex : forall (T : Type) (l : list T) i, i < length l -> exists x, nth_error l i = Some x.
Proof. intros T l i H. destruct (nth_error l i) eqn:E; [eauto|]. apply nth_error_None in E. lia. Qed.

Definition next_vep (p : vop A * vout O X) (ep : nat -> list O) (i : nat) : list O :=
  if masked (fst p) i then ep i else
  match item (snd p) i with Some (OReset o) => [o] | Some (OStep s) => ep i ++ [so_obs s] | None => ep i end.

Definition frames_ok (frames : list (list O)) (ep : nat -> list O) : Prop :=
  length frames = v_num V /\ forall i, i < v_num V -> nth_error frames i = Some (window k (ep i)).

Lemma get_ob_ok : forall frames ep, frames_ok frames ep -> ep 0 <> [] ->
  vfs_get_ob V k frames = Ok frames.
Proof.
  intros frames ep [Hl Hf] He. unfold vfs_get_ob. rewrite Hl, Nat.eqb_refl.
  pose proof (Hf 0 Hn) as H0. destruct frames as [|q qs]; [discriminate|].
  cbn in H0. inversion H0; subst. rewrite window_length by assumption. rewrite Nat.eqb_refl. reflexivity.
Qed.

Lemma window_short : forall (T : Type) (ep : list T), length (window k ep) <= k.
Proof.
  intros T [|x ep]; [cbn; lia|]. rewrite window_length by discriminate. lia.
Qed.

Lemma nth_combine : forall (T U : Type) (l : list T) (m : list U) i x y,
  nth_error l i = Some x -> nth_error m i = Some y -> nth_error (combine l m) i = Some (x, y).
Proof.
  induction l as [|a l IH]; intros m i x y H1 H2; [destruct i; discriminate|].
  destruct m as [|b m]; [destruct i; discriminate|]. destruct i; cbn in *; [congruence|]. apply IH; assumption.
Qed.

Lemma vfs_exec : forall frames ep v o v' x,
  frames_ok frames ep -> op_fits (v_num V) o ->
  (resets_all o \/ forall i, i < v_num V -> ep i <> []) ->
  vexec V v o = Ok (v', x) ->
  exists frames' y, vexec (vector_frame_stack V k) (frames, v) o = Ok ((frames', v'), y) /\
    frames_ok frames' (next_vep (o, x) ep) /\
    (forall i, i < v_num V -> next_vep (o, x) ep i <> []) /\
    width_ y = v_num V /\
    (forall i xi, item x i = Some xi -> item y i = Some (with_obs (window k (next_vep (o, x) ep i)) xi)).
Proof.
  intros frames ep v o v' x HI Hfit Hne Hex.
  pose proof (Hans _ _ Hex) as Hw. destruct HI as [Hl Hf].
  assert (Hi0 : forall i, i < v_num V -> exists xi, item x i = Some xi).
  { intros i Hi. destruct x as [obs|ss]; cbn [item width_] in *.
    - destruct (nth_error_ex obs (i := i)) as [a ->]; [lia|]. eexists; reflexivity.
    - destruct (nth_error_ex ss (i := i)) as [a ->]; [lia|]. eexists; reflexivity. }
  destruct o as [mask|acts]; cbn [vexec] in Hex; apply bind_ok in Hex.
  - destruct Hex as ((v1 & obs) & Hr & H). inversion H; subst v1 x. clear H. cbn [width_] in Hw.
    set (m := match mask with Some m => m | None => repeat false (v_num V) end).
    assert (Hml : length m = v_num V) by (subst m; destruct mask; [exact Hfit|apply repeat_length]).
    assert (Hmi : forall i, i < v_num V -> nth_error m i = Some (masked (VReset (A := A) mask) i)).
    { intros i Hi. destruct (nth_error_ex m (i := i) ltac:(lia)) as [b Hb]. rewrite Hb. f_equal.
      subst m. destruct mask as [l|]; cbn [masked].
      - symmetry. apply nth_error_nth with (d := false) in Hb. exact Hb.
      - apply nth_error_In in Hb. apply repeat_spec in Hb. exact Hb. }
    set (frames' := vfs_push_reset k m frames obs).
    assert (HI' : frames_ok frames' (next_vep (VReset mask, VOReset obs) ep)).
    { split; [unfold frames'; rewrite push_reset_len; exact Hl|]. intros i Hi. unfold frames'.
      destruct (nth_error_ex obs (i := i) ltac:(lia)) as [o Ho].
      rewrite (push_reset_nth m frames obs i (Hmi i Hi) (Hf i Hi) Ho). unfold next_vep. cbn [fst snd item].
      destruct (masked (VReset mask) i); [reflexivity|]. rewrite Ho. cbn [option_map]. f_equal.
      apply window_reset, window_short. }
    assert (Hne' : forall i, i < v_num V -> next_vep (VReset mask, VOReset obs) ep i <> []).
    { intros i Hi. unfold next_vep. cbn [fst snd]. destruct (masked (VReset mask) i) eqn:Em.
      - destruct Hne as [Hra|Hne]; [|apply Hne; exact Hi]. exfalso. cbn [masked resets_all] in *.
        destruct mask as [l|]; [|discriminate]. rewrite Forall_forall in Hra.
        destruct (nth_in_or_default i l false) as [Hin|Hd]; [rewrite (Hra _ Hin) in Em; discriminate|congruence].
      - destruct (nth_error_ex obs (i := i) ltac:(lia)) as [o Ho]. cbn [item]. rewrite Ho. discriminate. }
    exists frames', (VOReset frames'). split.
    + cbn [vexec vector_frame_stack v_reset vst]. unfold vfs_reset. cbn [fst snd]. rewrite Hr. cbn [bind].
      fold m. fold frames'. rewrite (get_ob_ok HI' (Hne' 0 Hn)). reflexivity.
    + split; [exact HI'|]. split; [exact Hne'|]. destruct HI' as [HL' HF']. split; [exact HL'|].
      intros i xi Hx. cbn [item] in *. destruct (nth_error obs i) as [o|] eqn:Ho; [|discriminate].
      inversion Hx; subst xi. rewrite HF'; [reflexivity|]. rewrite <- Hw. apply nth_error_Some. congruence.
  - destruct Hex as ((v1 & ss) & Hr & H). inversion H; subst v1 x. clear H. cbn [width_] in Hw.
    destruct Hne as [[]|Hne].
    set (frames' := vfs_push_step k frames (map (@so_obs O X) ss)).
    assert (HI' : frames_ok frames' (next_vep (VStep acts, VOStep ss) ep)).
    { split; [unfold frames'; rewrite push_step_len; exact Hl|]. intros i Hi. unfold frames'.
      destruct (nth_error_ex ss (i := i) ltac:(lia)) as [s Hs].
      assert (Ho : nth_error (map (@so_obs O X) ss) i = Some (so_obs s)) by (apply map_nth_error; exact Hs).
      rewrite (push_step_nth frames _ i (Hf i Hi) Ho). unfold next_vep. cbn [fst snd item masked]. rewrite Hs.
      cbn [option_map]. f_equal. apply window_push, Hne, Hi. }
    assert (Hne' : forall i, i < v_num V -> next_vep (VStep acts, VOStep ss) ep i <> []).
    { intros i Hi. unfold next_vep. cbn [fst snd masked item].
      destruct (nth_error_ex ss (i := i) ltac:(lia)) as [s Hs]. rewrite Hs. cbn. destruct (ep i); discriminate. }
    eexists frames', _. split.
    + cbn [vexec vector_frame_stack v_step vst]. unfold vfs_step. cbn [fst snd]. rewrite Hr. cbn [bind].
      fold frames'. rewrite (get_ob_ok HI' (Hne' 0 Hn)). cbn [bind]. reflexivity.
    + split; [exact HI'|]. split; [exact Hne'|]. destruct HI' as [HL' HF'].
      split; [cbn [width_]; rewrite map_length, combine_length; lia|].
      intros i xi Hx. cbn [item] in *. destruct (nth_error ss i) as [s|] eqn:Hs; [|discriminate].
      inversion Hx; subst xi.
      assert (Hi : i < v_num V) by (rewrite <- Hw; apply nth_error_Some; congruence).
      erewrite map_nth_error; [|apply nth_combine; [apply HF', Hi|exact Hs]]. reflexivity.
Qed.

Lemma fold_vep : forall i h ep,
  fold_left (fun ep p => if masked (fst p) i then ep else
                         match item (snd p) i with
                         | Some (OReset o) => [o]
                         | Some (OStep s) => ep ++ [so_obs s]
                         | None => ep
                         end) h (ep i) = (fold_left (fun (ep : nat -> list O) (p : vop A * vout O X) => next_vep p ep) h ep) i.
Proof. intros i. induction h as [|p h IH]; intro ep; [reflexivity|]. cbn [fold_left]. rewrite <- IH. reflexivity. Qed.

Lemma vfs_run : forall ops frames ep v v' xs,
  frames_ok frames ep -> Forall (op_fits (v_num V)) ops ->
  (match ops with [] => True | o :: _ => resets_all o end \/ forall i, i < v_num V -> ep i <> []) ->
  vrun V v ops = Ok (v', xs) ->
  exists frames' ys, vrun (vector_frame_stack V k) (frames, v) ops = Ok ((frames', v'), ys) /\
    length ys = length xs /\
    forall t x, nth_error xs t = Some x -> exists y, nth_error ys t = Some y /\ width_ y = v_num V /\
      forall i xi, item x i = Some xi ->
        item y i = Some (with_obs (window k (fold_left (fun ep p => next_vep p ep)
                                               (firstn (S t) (combine ops xs)) ep i)) xi).
Proof.
  induction ops as [|o ops IH]; intros frames ep v v' xs HI Hfit Hne H.
  - cbn in H. inversion H; subst. exists frames, []. split; [reflexivity|]. split; [reflexivity|].
    intros [|t] x Hx; discriminate.
  - cbn [vrun] in H. apply bind_ok in H. destruct H as ((v1 & x) & Hex & H).
    apply bind_ok in H. destruct H as ((v2 & xs1) & Hrun & H). inversion H; subst. clear H.
    inversion Hfit as [|? ? Hf1 Hf2]; subst.
    destruct (@vfs_exec frames ep v o v1 x HI Hf1 Hne Hex) as (fr1 & y & Hy & HI1 & Hne1 & Hw & Hit).
    destruct (IH fr1 (next_vep (o, x) ep) v1 v' xs1 HI1 Hf2 (or_intror Hne1) Hrun) as (fr2 & ys & Hys & Hlen & Hall).
    exists fr2, (y :: ys). cbn [vrun]. rewrite Hy. cbn [bind]. rewrite Hys. split; [reflexivity|].
    split; [cbn; lia|]. intros [|t] x' Hx.
    + cbn in Hx. inversion Hx; subst x'. exists y. split; [reflexivity|]. split; [exact Hw|]. exact Hit.
    + cbn [nth_error] in Hx. destruct (Hall t x' Hx) as (y' & H1 & H2 & H3). exists y'. auto.
Qed.

Lemma vector_frame_stack_windows : forall o ops v v' xs,
  resets_all o -> Forall (op_fits (v_num V)) (o :: ops) ->
  vrun V v (o :: ops) = Ok (v', xs) ->
  exists frames ys, vrun (vector_frame_stack V k) (vfs_init V, v) (o :: ops) = Ok ((frames, v'), ys) /\
    length ys = length xs /\
    forall t x, nth_error xs t = Some x -> exists y, nth_error ys t = Some y /\ width_ y = v_num V /\
      forall i xi, item x i = Some xi ->
        item y i = Some (with_obs (window k (vepisode i (firstn (S t) (combine (o :: ops) xs)))) xi).
Proof.
  intros o ops v v' xs Hr Hf H.
  destruct (@vfs_run (o :: ops) (vfs_init V) (fun _ => []) v v' xs) as (fr & ys & Hy & Hl & Hall); auto.
  - split; [apply repeat_length|]. intros i Hi. unfold vfs_init. cbn [window]. rewrite nth_error_repeat; auto.
  - exists fr, ys. split; [exact Hy|]. split; [exact Hl|]. intros t x Hx. destruct (Hall t x Hx) as (y & H1 & H2 & H3).
    exists y. split; [exact H1|]. split; [exact H2|]. intros i xi Hi. rewrite (H3 i xi Hi). unfold vepisode.
    rewrite (fold_vep i (firstn (S t) (combine (o :: ops) xs)) (fun _ => [])). reflexivity.
Qed.
End Proofs.
