From Coq Require Import Reals Lra.
From Verif Require Import Base.PyBase Base.ListFacts Model.ReplayUpdater Spec.ReturnSpec Proofs.RandomAccessQueueProofs.
Set Implicit Arguments.

Section S.
  Context {S A S' : Type}.
  Variable phi : S -> S'.
  Notation tr := (transition S A).

  Lemma discounted_snoc g l x : discounted g (l ++ [x]) = (discounted g l + g ^ length l * x)%R.
  Proof. induction l as [|y l IH]; cbn [app discounted length pow]; [ring|]. rewrite IH. ring. Qed.

  Lemma mapM_ok {X Y} (f : X -> res Y) (g : X -> Y) l : (forall x, In x l -> f x = Ok (g x)) -> mapM f l = Ok (map g l).
  Proof.
    induction l as [|x l IH]; intros H; cbn [mapM map]; auto.
    rewrite H by (left; auto). cbn [bind]. rewrite IH by (intros; apply H; right; auto). auto.
  Qed.

  Lemma py_get_nat {X} (l : list X) i x : nth_error l i = Some x -> py_get l (Z.of_nat i) = Ok x.
  Proof.
    intros H. assert (i < length l) by (apply nth_error_Some; congruence). unfold py_get.
    rewrite py_index_pos by lia. rewrite Nat2Z.id, H. auto.
  Qed.

  Lemma sum_discounted g (e : list tr) n : n <= length e ->
    py_sum n (fun i => let! t := py_get e (Z.of_nat i) in Ok (g ^ i * t_reward t)%R) =
    Ok (discounted g (map (@t_reward S A) (firstn n e))).
  Proof.
    induction n as [|n IH]; intros Hn; cbn [py_sum]; auto.
    rewrite IH by lia. cbn [bind].
    destruct (nth_error e n) as [t|] eqn:E; [|apply nth_error_None in E; lia].
    rewrite (py_get_nat _ _ E). cbn [bind]. f_equal.
    assert (Hf : firstn (Datatypes.S n) e = firstn n e ++ [t]).
    { clear - E. revert e E. induction n as [|n IH]; intros [|y e] E; cbn in E |- *; try discriminate; [congruence|].
      f_equal. apply (IH e E). }
    rewrite Hf, map_app. cbn [map]. rewrite discounted_snoc, map_length, firstn_length_le by lia. auto.
  Qed.

  Lemma batch_ok g (exps : list (list tr)) (d : tr) : (forall e, In e exps -> e <> []) ->
    exists b, batch_experiences phi g exps = Ok b /\
      b_state b = map (fun e => phi (t_state (hd d e))) exps /\
      b_action b = map (fun e => t_action (hd d e)) exps /\
      b_next_state b = map (fun e => phi (t_next_state (last e d))) exps /\
      b_reward b = map (fun e => discounted g (map (@t_reward S A) e)) exps /\
      b_discount b = map (fun e => g ^ length e)%R exps /\
      Forall2 (fun e b => b = true <-> exists t, In t e /\ t_terminal t = true) exps (b_terminal b) /\
      match b_next_action b with
      | Some l => map (fun e => t_next_action (last e d)) exps = map Some l
      | None => exists e, In e exps /\ t_next_action (last e d) = None
      end.
  Proof.
    intros Hne. unfold batch_experiences.
    rewrite (@mapM_ok _ _ (@first_of S A) (fun e => hd d e)).
    2: { intros e He. specialize (Hne e He). destruct e; [congruence|]. reflexivity. }
    cbn [bind]. rewrite (@mapM_ok _ _ _ (fun e => discounted g (map (@t_reward S A) e))).
    2: { intros e _. rewrite sum_discounted by auto. now rewrite firstn_all. }
    cbn [bind]. rewrite (@mapM_ok _ _ (@last_of S A) (fun e => last e d)).
    2: { intros e He. specialize (Hne e He). destruct (exists_last Hne) as (l & x & ->). unfold last_of, py_get.
         rewrite py_index_neg by (rewrite app_length; cbn; lia). rewrite app_length. cbn [length].
         replace (Z.to_nat _) with (length l) by lia. rewrite nth_error_app2, Nat.sub_diag by lia. cbn. now rewrite last_last. }
    cbn [bind]. eexists. split; [reflexivity|]. cbn. rewrite !map_map.
    split; [auto|]. split; [auto|]. split; [auto|]. split; [auto|]. split; [auto|]. split.
    - clear. induction exps as [|e t IH]; cbn; constructor; auto. apply existsb_exists.
    - clear. induction exps as [|e t IH]; cbn; auto.
      destruct (t_next_action (last e d)) as [a|] eqn:Ea.
      + destruct (all_some _) as [r|]; [cbn; congruence|]. destruct IH as (e' & H1 & H2). eauto.
      + exists e. auto.
  Qed.
End S.

Lemma updater_schedule batch episodic times start interval len_opt u len n_eps it :
  upd_init batch episodic times start interval len_opt = Ok u -> interval <> 0%Z ->
  exists reqs, update_if_necessary u len n_eps it = Ok reqs /\
    (reqs <> [] -> (interval | it)%Z /\ start <= len /\ (episodic = true -> batch <= n_eps)) /\
    ((interval | it)%Z -> start <= len -> (episodic = true -> batch <= n_eps) -> length reqs = times) /\
    (forall r, In r reqs -> match r with
       | RqSample n => episodic = false /\ n = batch /\ n <= len
       | RqEpisodes n l => episodic = true /\ n = batch /\ l = len_opt /\ n <= n_eps
       end).
Proof.
  unfold upd_init. destruct (batch <=? start) eqn:Eb; [|discriminate]. intros [= <-] Hi.
  unfold update_if_necessary. cbn [u_start u_episodic u_batch u_interval u_times u_len].
  destruct (len <? start) eqn:El.
  { exists []. split; [auto|]. split; [congruence|]. split; [intros; lia|]. intros r []. }
  destruct (episodic && (n_eps <? batch)) eqn:Ee.
  { exists []. split; [auto|]. split; [congruence|]. split; [|intros r []]. intros _ _ H.
    apply andb_prop in Ee as [-> E2]. specialize (H eq_refl). lia. }
  replace (interval =? 0)%Z with false by lia.
  destruct (it mod interval =? 0)%Z eqn:Em; cbn [negb].
  - eexists. split; [reflexivity|]. split; [|split].
    + intros _. split; [apply Z.mod_divide; lia|]. split; [lia|]. intros ->. cbn [andb] in Ee. lia.
    + intros. apply repeat_length.
    + intros r Hr. apply repeat_spec in Hr. subst r. destruct episodic; cbn [andb] in Ee; repeat split; auto; lia.
  - exists []. split; [auto|]. split; [congruence|]. split; [|intros r []]. intros H _ _.
    apply Z.mod_divide in H; lia.
Qed.
