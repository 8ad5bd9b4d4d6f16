(** Proofs for C34: parameter synchronisation. *)
From Coq Require Import QArith Qpower Lqa.
From Verif Require Import Base.PyBase Model.CopyParam Spec.SyncSpec.
Set Implicit Arguments.
Local Open Scope nat_scope.

Section Named.
  Context {A : Type}.

  Lemma lookup_store_same : forall (l : named A) k x y, lookup l k = Some y -> lookup (store l k x) k = Some x.
  Proof.
    induction l as [|[k' z] l IH]; cbn; intros k x y H; [discriminate|].
    destruct (k' =? k) eqn:E; cbn; rewrite E; [reflexivity|eauto].
  Qed.

  Lemma lookup_store_other : forall (l : named A) k k' x, k <> k' -> lookup (store l k x) k' = lookup l k'.
  Proof.
    induction l as [|[c z] l IH]; cbn; intros k k' x H; [reflexivity|].
    destruct (c =? k) eqn:E; cbn; destruct (c =? k') eqn:E'; auto.
    apply Nat.eqb_eq in E, E'. congruence.
  Qed.

  Lemma lookup_in : forall (l : named A) k x, lookup l k = Some x -> In (k, x) l.
  Proof.
    induction l as [|[c z] l IH]; cbn; intros k x H; [discriminate|].
    destruct (c =? k) eqn:E; [|auto]. apply Nat.eqb_eq in E. left. congruence.
  Qed.

  Lemma in_lookup : forall (l : named A) k x, NoDup (map fst l) -> In (k, x) l -> lookup l k = Some x.
  Proof.
    induction l as [|[c z] l IH]; cbn; intros k x ND H; [contradiction|].
    inversion ND as [|? ? Hn ND']; subst. destruct H as [H|H].
    - injection H as -> ->. rewrite Nat.eqb_refl. reflexivity.
    - destruct (c =? k) eqn:E; [|auto]. apply Nat.eqb_eq in E. subst. exfalso. apply Hn.
      change k with (fst (k, x)). apply in_map, H.
  Qed.

  Lemma lookup_key : forall (l : named A) k, In k (map fst l) -> exists x, lookup l k = Some x.
  Proof.
    induction l as [|[c z] l IH]; cbn; intros k H; [contradiction|].
    destruct (c =? k) eqn:E; [eauto|]. apply Nat.eqb_neq in E. destruct H; [contradiction|auto].
  Qed.

  Lemma lookup_nokey : forall (l : named A) k, ~ In k (map fst l) -> lookup l k = None.
  Proof.
    intros l k H. destruct (lookup l k) as [x|] eqn:E; [|reflexivity].
    exfalso. apply H. apply lookup_in in E. change k with (fst (k, x)). apply in_map, E.
  Qed.
End Named.

(** An element-wise array operation. *)
Definition elementwise (f : list Q -> list Q -> res (list Q)) (g : Q -> Q -> Q) : Prop :=
  (forall d s, length d = length s -> exists r, f d s = Ok r /\ length r = length d /\
     forall j x y, nth_error d j = Some x -> nth_error s j = Some y -> nth_error r j = Some (g x y)) /\
  (forall d s r, f d s = Ok r -> length d = length s /\ length r = length d).

Lemma assign_ew : elementwise assign (fun _ y => y).
Proof.
  split; intros d s; unfold assign.
  - intros H. rewrite H, Nat.eqb_refl. exists s. repeat split; auto.
  - intros r H. destruct (length d =? length s) eqn:E; [|discriminate]. injection H as <-.
    apply Nat.eqb_eq in E. auto.
Qed.

Lemma zip2_len : forall f a b, length a = length b -> length (zip2 f a b) = length a.
Proof. induction a; destruct b; cbn; intros H; try discriminate; [reflexivity|f_equal; auto]. Qed.

Lemma zip2_nth : forall f a b j x y, nth_error a j = Some x -> nth_error b j = Some y ->
  nth_error (zip2 f a b) j = Some (f x y).
Proof.
  induction a as [|u a IH]; destruct b as [|v b], j; cbn; intros x y H1 H2; try discriminate.
  - congruence.
  - eauto.
Qed.

Lemma blend_ew : forall tau, elementwise (blend tau) (fun x y => x * (1 - tau) + tau * y)%Q.
Proof.
  intros tau. split; intros d s; unfold blend.
  - intros H. rewrite H, Nat.eqb_refl. eexists. split; [reflexivity|]. split.
    + rewrite zip2_len; rewrite !map_length; auto.
    + intros j x y Hx Hy. apply zip2_nth; [rewrite nth_error_map, Hx|rewrite nth_error_map, Hy]; reflexivity.
  - intros r H. destruct (length d =? length s) eqn:E; [|discriminate]. injection H as <-.
    apply Nat.eqb_eq in E. rewrite zip2_len; rewrite !map_length; auto.
Qed.

Section Sync.
  Variables (f : list Q -> list Q -> res (list Q)) (g : Q -> Q -> Q).
  Hypothesis Hf : elementwise f g.

  Lemma sync_params_spec : forall src dst, NoDup (map fst src) ->
    (forall k s, In (k, s) src -> exists d, lookup dst k = Some (Some d) /\ length d = length s) ->
    exists dst', sync_params f dst src = Ok dst' /\
      (forall k s d, In (k, s) src -> lookup dst k = Some (Some d) ->
         exists r, f d s = Ok r /\ lookup dst' k = Some (Some r)) /\
      (forall k, ~ In k (map fst src) -> lookup dst' k = lookup dst k).
  Proof.
    induction src as [|[k s] src IH]; cbn [map fst sync_params]; intros dst ND M.
    - exists dst. split; [reflexivity|]. split; [contradiction|auto].
    - inversion ND as [|? ? Hn ND']; subst.
      destruct (M k s (or_introl eq_refl)) as (d & Hd & Hl). rewrite Hd.
      destruct (proj1 Hf d s Hl) as (r & Hr & Hlr & _). rewrite Hr. cbn [bind].
      assert (Hoth : forall k', k' <> k -> lookup (store dst k (Some r)) k' = lookup dst k')
        by (intros; apply lookup_store_other; auto).
      assert (Hin : forall k' s', In (k', s') src -> k' <> k).
      { intros k' s' Hi ->. apply Hn. change k with (fst (k, s')). apply in_map, Hi. }
      destruct (IH (store dst k (Some r)) ND') as (dst' & E & H1 & H2).
      { intros k' s' Hi. rewrite Hoth by (eapply Hin; eassumption). apply M. right; exact Hi. }
      exists dst'. split; [exact E|]. split.
      + intros k' s' d' [Hi|Hi] Hd'.
        * injection Hi as <- <-. rewrite Hd in Hd'. injection Hd' as <-. exists r. split; [exact Hr|].
          rewrite H2 by exact Hn. eapply lookup_store_same; eauto.
        * apply H1; [exact Hi|]. rewrite Hoth by (eapply Hin; eassumption). exact Hd'.
      + intros k' Hk'. cbn [In] in Hk'. rewrite H2 by (intros ?; apply Hk'; auto). apply Hoth. intros ->. apply Hk'; auto.
  Qed.

  Lemma sync_params_inv : forall src dst dst', NoDup (map fst src) -> sync_params f dst src = Ok dst' ->
    forall k s, In (k, s) src -> exists d, lookup dst k = Some (Some d) /\ length d = length s.
  Proof.
    induction src as [|[k s] src IH]; cbn [map fst sync_params]; intros dst dst' ND E k' s' Hi; [contradiction|].
    inversion ND as [|? ? Hn ND']; subst.
    destruct (lookup dst k) as [[d|]|] eqn:Hd; try discriminate.
    destruct (f d s) as [r|] eqn:Hr; cbn [bind] in E; [|discriminate].
    destruct Hi as [Hi|Hi].
    - injection Hi as <- <-. exists d. split; [exact Hd|]. apply (proj2 Hf _ _ _ Hr).
    - destruct (IH _ _ ND' E k' s' Hi) as (d' & H1 & H2). exists d'. split; [|exact H2].
      rewrite lookup_store_other in H1; [exact H1|]. intros <-. apply Hn.
      change k with (fst (k, s')). apply in_map, Hi.
  Qed.

  Lemma sync_bns_spec : forall src dst, NoDup (map fst src) ->
    (forall k s, In (k, s) src -> exists d, lookup dst k = Some d /\ length (fst d) = length (fst s) /\ length (snd d) = length (snd s)) ->
    exists dst', sync_bns f dst src = Ok dst' /\
      (forall k s d, In (k, s) src -> lookup dst k = Some d ->
         exists r, f (fst d) (fst s) = Ok (fst r) /\ f (snd d) (snd s) = Ok (snd r) /\ lookup dst' k = Some r) /\
      (forall k, ~ In k (map fst src) -> lookup dst' k = lookup dst k).
  Proof.
    induction src as [|[k [sm sv]] src IH]; cbn [map fst sync_bns]; intros dst ND M.
    - exists dst. split; [reflexivity|]. split; [contradiction|auto].
    - inversion ND as [|? ? Hn ND']; subst.
      destruct (M k (sm, sv) (or_introl eq_refl)) as ([m v] & Hd & Hl1 & Hl2). cbn [fst snd] in *. rewrite Hd.
      destruct (proj1 Hf m sm Hl1) as (r1 & Hr1 & Hlr1 & _). rewrite Hr1. cbn [bind].
      destruct (proj1 Hf v sv Hl2) as (r2 & Hr2 & Hlr2 & _). rewrite Hr2. cbn [bind].
      assert (Hoth : forall k', k' <> k -> lookup (store dst k (r1, r2)) k' = lookup dst k')
        by (intros; apply lookup_store_other; auto).
      assert (Hin : forall k' s', In (k', s') src -> k' <> k).
      { intros k' s' Hi ->. apply Hn. change k with (fst (k, s')). apply in_map, Hi. }
      destruct (IH (store dst k (r1, r2)) ND') as (dst' & E & H1 & H2).
      { intros k' s' Hi. rewrite Hoth by (eapply Hin; eassumption). apply M. right; exact Hi. }
      exists dst'. split; [exact E|]. split.
      + intros k' s' d' [Hi|Hi] Hd'.
        * injection Hi as <- <-. rewrite Hd in Hd'. injection Hd' as <-. exists (r1, r2). cbn [fst snd].
          split; [exact Hr1|]. split; [exact Hr2|].
          rewrite H2 by exact Hn. eapply lookup_store_same; eauto.
        * apply H1; [exact Hi|]. rewrite Hoth by (eapply Hin; eassumption). exact Hd'.
      + intros k' Hk'. cbn [In] in Hk'. rewrite H2 by (intros ?; apply Hk'; auto). apply Hoth. intros ->. apply Hk'; auto.
  Qed.

  Lemma sync_bns_inv : forall src dst dst', NoDup (map fst src) -> sync_bns f dst src = Ok dst' ->
    forall k s, In (k, s) src -> exists d, lookup dst k = Some d /\ length (fst d) = length (fst s) /\ length (snd d) = length (snd s).
  Proof.
    induction src as [|[k [sm sv]] src IH]; cbn [map fst sync_bns]; intros dst dst' ND E k' s' Hi; [contradiction|].
    inversion ND as [|? ? Hn ND']; subst.
    destruct (lookup dst k) as [[m v]|] eqn:Hd; try discriminate.
    destruct (f m sm) as [r1|] eqn:Hr1; cbn [bind] in E; [|discriminate].
    destruct (f v sv) as [r2|] eqn:Hr2; cbn [bind] in E; [|discriminate].
    destruct Hi as [Hi|Hi].
    - injection Hi as <- <-. exists (m, v). split; [exact Hd|]. split; [apply (proj2 Hf _ _ _ Hr1)|apply (proj2 Hf _ _ _ Hr2)].
    - destruct (IH _ _ ND' E k' s' Hi) as (d' & H1 & H2). exists d'. split; [|exact H2].
      rewrite lookup_store_other in H1; [exact H1|]. intros <-. apply Hn.
      change k with (fst (k, s')). apply in_map, Hi.
  Qed.

  Definition sync_with (dst : link) (src : source) : res link :=
    let! p := sync_params f (l_params dst) (s_params src) in
    let! b := sync_bns f (l_bns dst) (s_bns src) in
    Ok (mk_link p b).

  Lemma nth_same_len : forall (a b : list Q) j x, length a = length b -> nth_error a j = Some x ->
    exists y, nth_error b j = Some y.
  Proof.
    intros a b j x Hl Hx. destruct (nth_error b j) eqn:E; [eauto|].
    apply nth_error_None in E. assert (nth_error a j <> None) as N by congruence. apply nth_error_Some in N. lia.
  Qed.

  Lemma sync_with_spec : forall dst src, matches dst src ->
    exists dst', sync_with dst src = Ok dst' /\ matches dst' src /\
      (forall p, shared_place src p ->
         match at_link dst p, at_source src p with
         | Some x, Some y => at_link dst' p = Some (g x y)
         | None, None => at_link dst' p = None
         | _, _ => False
         end) /\
      (forall p, ~ shared_place src p -> at_link dst' p = at_link dst p).
  Proof.
    intros dst src (ND1 & ND2 & M1 & M2).
    destruct (sync_params_spec _ _ ND1 M1) as (p' & E1 & P1 & P2).
    destruct (sync_bns_spec _ _ ND2 M2) as (b' & E2 & B1 & B2).
    exists (mk_link p' b'). unfold sync_with. rewrite E1. cbn [bind]. rewrite E2. cbn [bind].
    split; [reflexivity|]. split; [|split].
    - split; [exact ND1|]. split; [exact ND2|]. split; intros k s Hi; cbn [l_params l_bns].
      + destruct (M1 k s Hi) as (d & Hd & Hl). destruct (P1 k s d Hi Hd) as (r & Hr & H).
        exists r. split; [exact H|]. destruct (proj2 Hf _ _ _ Hr). lia.
      + destruct (M2 k s Hi) as (d & Hd & Hl1 & Hl2). destruct (B1 k s d Hi Hd) as (r & Hr1 & Hr2 & H).
        exists r. split; [exact H|]. destruct (proj2 Hf _ _ _ Hr1). destruct (proj2 Hf _ _ _ Hr2). lia.
    - intros p Hs.
      assert (L : forall d s r j, length d = length s -> f d s = Ok r ->
        match nth_error d j, nth_error s j with
        | Some x, Some y => nth_error r j = Some (g x y)
        | None, None => nth_error r j = None | _, _ => False end).
      { intros d s r j Hl Hr. destruct (proj1 Hf d s Hl) as (r' & Hr' & Hl' & Hj).
        rewrite Hr in Hr'. injection Hr' as <-.
        destruct (nth_error d j) as [x|] eqn:Ex.
        - destruct (nth_same_len _ _ _ Hl Ex) as (y & Ey). rewrite Ey. auto.
        - destruct (nth_error s j) as [y|] eqn:Ey.
          + destruct (nth_same_len _ _ _ (eq_sym Hl) Ey) as (x & Ex'). congruence.
          + apply nth_error_None. apply nth_error_None in Ex. lia. }
      destruct p as [k j|k j|k j]; cbn [shared_place at_link at_source l_params l_bns] in *;
        destruct (lookup_key _ _ Hs) as (s & Hls); pose proof (lookup_in _ _ Hls) as Hi; rewrite Hls.
      + destruct (M1 k s Hi) as (d & Hd & Hl). destruct (P1 k s d Hi Hd) as (r & Hr & H).
        rewrite Hd, H. apply L; auto.
      + destruct (M2 k s Hi) as (d & Hd & Hl1 & Hl2). destruct (B1 k s d Hi Hd) as (r & Hr1 & Hr2 & H).
        rewrite Hd, H. apply L; auto.
      + destruct (M2 k s Hi) as (d & Hd & Hl1 & Hl2). destruct (B1 k s d Hi Hd) as (r & Hr1 & Hr2 & H).
        rewrite Hd, H. apply L; auto.
    - intros [k j|k j|k j] Hs; cbn [shared_place at_link l_params l_bns] in *;
        [rewrite (P2 k Hs)|rewrite (B2 k Hs)|rewrite (B2 k Hs)]; reflexivity.
  Qed.

  Lemma sync_with_inv : forall dst src dst', NoDup (map fst (s_params src)) -> NoDup (map fst (s_bns src)) ->
    sync_with dst src = Ok dst' -> matches dst src.
  Proof.
    unfold sync_with. intros dst src dst' N1 N2 E.
    destruct (sync_params f (l_params dst) (s_params src)) as [p|] eqn:E1; cbn [bind] in E; [|discriminate].
    destruct (sync_bns f (l_bns dst) (s_bns src)) as [b|] eqn:E2; cbn [bind] in E; [|discriminate].
    split; [exact N1|]. split; [exact N2|]. split.
    - eapply sync_params_inv; eauto.
    - eapply sync_bns_inv; eauto.
  Qed.
End Sync.

Theorem hard_sync : forall dst src tau, matches dst src ->
  exists dst', synchronize_parameters src dst Hard tau = Ok dst' /\ matches dst' src /\
    (forall p, shared_place src p -> at_link dst' p = at_source src p) /\
    (forall p, ~ shared_place src p -> at_link dst' p = at_link dst p).
Proof.
  intros dst src tau M. destruct (sync_with_spec assign_ew M) as (dst' & E & M' & H1 & H2).
  exists dst'. split; [exact E|]. split; [exact M'|]. split; [|exact H2].
  intros p Hp. specialize (H1 p Hp).
  destruct (at_link dst p), (at_source src p); try contradiction; exact H1.
Qed.

Lemma pow_succ : forall (a : Q) n, (a ^ Z.of_nat (S n) == a ^ Z.of_nat n * a)%Q.
Proof.
  intros. rewrite Nat2Z.inj_succ. unfold Z.succ. rewrite Qpower_plus' by lia.
  change (a ^ 1)%Q with a. reflexivity.
Qed.

Lemma mixture_succ : forall tau n t s, (mixture tau n (t * (1 - tau) + tau * s) s == mixture tau (S n) t s)%Q.
Proof.
  intros. unfold mixture. rewrite pow_succ. ring.
Qed.

Lemma pow_unit : forall (a : Q) n, (0 <= a)%Q -> (a <= 1)%Q -> (0 <= a ^ Z.of_nat n)%Q /\ (a ^ Z.of_nat n <= 1)%Q.
Proof.
  intros a n H0 H1. induction n as [|n IH].
  - cbn. lra.
  - rewrite pow_succ. nra.
Qed.

Lemma mixture_between : forall tau n t s, (0 <= tau -> tau <= 1 -> between t (mixture tau n t s) s)%Q.
Proof.
  intros tau n t s H0 H1. destruct (@pow_unit (1 - tau) n) as [P0 P1]; try lra.
  unfold between, mixture. set (a := ((1 - tau) ^ Z.of_nat n)%Q) in *.
  destruct (Qlt_le_dec t s); [left|right]; split; nra.
Qed.

Theorem soft_sync : forall src tau n dst, matches dst src ->
  exists dst', sync_times n src dst Soft tau = Ok dst' /\ matches dst' src /\
    (forall p, shared_place src p ->
       match at_link dst p, at_source src p with
       | Some t, Some s => exists v, at_link dst' p = Some v /\ (v == mixture tau n t s)%Q /\
                                     (0 <= tau -> tau <= 1 -> between t v s)%Q
       | None, None => at_link dst' p = None
       | _, _ => False
       end) /\
    (forall p, ~ shared_place src p -> at_link dst' p = at_link dst p).
Proof.
  intros src tau n. induction n as [|n IH]; intros dst M.
  - exists dst. cbn [sync_times]. split; [reflexivity|]. split; [exact M|]. split; [|reflexivity].
    intros p Hp. destruct (sync_with_spec assign_ew M) as (dst' & E & M' & H1 & H2).
    specialize (H1 p Hp). destruct (at_link dst p) as [t|], (at_source src p) as [s|]; try contradiction; try reflexivity.
    exists t. split; [reflexivity|]. split.
    + unfold mixture. cbn. ring.
    + intros. unfold between. destruct (Qlt_le_dec t s); [left|right]; split; lra.
  - destruct (sync_with_spec (blend_ew tau) M) as (dst1 & E & M1 & H1 & H2).
    destruct (IH dst1 M1) as (dst' & E' & M' & H1' & H2').
    exists dst'. cbn [sync_times synchronize_parameters].
    change (soft_copy_param dst src tau) with (sync_with (blend tau) dst src). rewrite E. cbn [bind].
    split; [exact E'|]. split; [exact M'|]. split.
    + intros p Hp. specialize (H1 p Hp). specialize (H1' p Hp).
      destruct (at_link dst p) as [t|], (at_source src p) as [s|]; try contradiction.
      * rewrite H1 in H1'. destruct H1' as (v & Hv & Hm & Hb). exists v. split; [exact Hv|].
        assert (Hv' : (v == mixture tau (S n) t s)%Q) by (rewrite Hm; apply mixture_succ).
        split; [exact Hv'|]. intros T0 T1. pose proof (mixture_between (S n) t s T0 T1) as B.
        unfold between in *. rewrite Hv'. exact B.
      * rewrite H1 in H1'. exact H1'.
    + intros p Hp. rewrite H2', H2; auto.
Qed.

Theorem sync_never_silent : forall dst src m tau dst', NoDup (map fst (s_params src)) -> NoDup (map fst (s_bns src)) ->
  synchronize_parameters src dst m tau = Ok dst' -> matches dst src /\ m <> OtherMethod.
Proof.
  intros dst src m tau dst' N1 N2 E. destruct m; cbn in E; [| |discriminate]; split; try discriminate.
  - eapply (sync_with_inv assign_ew); eauto.
  - eapply (sync_with_inv (blend_ew tau)); eauto.
Qed.

Theorem copy_grad_spec : forall src dst, NoDup (map fst src) ->
  (forall k g, In (k, g) src -> exists d, lookup dst k = Some d /\
     match d, g with Some d, Some g => length d = length g | _, _ => True end) ->
  exists dst', copy_grad dst src = Ok dst' /\
    (forall k, In k (map fst src) -> lookup dst' k = lookup src k) /\
    (forall k, ~ In k (map fst src) -> lookup dst' k = lookup dst k).
Proof.
  induction src as [|[k g] src IH]; cbn [map fst copy_grad]; intros dst ND M.
  - exists dst. split; [reflexivity|]. split; [contradiction|auto].
  - inversion ND as [|? ? Hn ND']; subst.
    destruct (M k g (or_introl eq_refl)) as (d & Hd & Hl). rewrite Hd.
    assert (G : exists dst1, lookup dst1 k = Some g /\ (forall k', k' <> k -> lookup dst1 k' = lookup dst k') /\
      match d with
      | None => copy_grad (match g with None => dst | Some g => store dst k (Some g) end) src
      | Some d => match g with None => copy_grad (store dst k None) src
                  | Some g => let! d' := assign d g in copy_grad (store dst k (Some d')) src end
      end = copy_grad dst1 src).
    { destruct d as [d|], g as [g|].
      - unfold assign. rewrite Hl, Nat.eqb_refl. cbn [bind]. exists (store dst k (Some g)).
        split; [eapply lookup_store_same; eauto|]. split; [intros; apply lookup_store_other; auto|reflexivity].
      - exists (store dst k None).
        split; [eapply lookup_store_same; eauto|]. split; [intros; apply lookup_store_other; auto|reflexivity].
      - exists (store dst k (Some g)).
        split; [eapply lookup_store_same; eauto|]. split; [intros; apply lookup_store_other; auto|reflexivity].
      - exists dst. auto. }
    destruct G as (dst1 & G1 & G2 & G3). 
    destruct (IH dst1 ND') as (dst' & E & H1 & H2).
    { intros k' g' Hi. assert (k' <> k).
      { intros ->. apply Hn. change k with (fst (k, g')). apply in_map, Hi. }
      rewrite G2 by auto. apply M. right; exact Hi. }
    exists dst'. rewrite <- E, <- G3. split; [destruct d, g; reflexivity|]. split.
    + intros k' [<-|Hk']; cbn [lookup].
      * rewrite Nat.eqb_refl, H2 by exact Hn. exact G1.
      * destruct (k =? k') eqn:Ek; [apply Nat.eqb_eq in Ek; subst; contradiction|]. apply H1, Hk'.
    + intros k' Hk'. cbn [In] in Hk'. rewrite H2 by (intros ?; apply Hk'; auto). apply G2. intros ->. apply Hk'; auto.
Qed.
