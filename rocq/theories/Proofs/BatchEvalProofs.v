From Verif Require Import Base.PyBase Base.ListFacts Base.Effects Model.TrainAgent Model.Evaluator
  Spec.EvalEpisodesSpec Spec.BatchEvalSpec Proofs.TrainAgentProofs Proofs.EvalEpisodesProofs.
Set Implicit Arguments.
Local Open Scope nat_scope.

Section B.
  Context {Obs Act Rw : Type}.
  Variable rzero : Rw.
  Variable radd : Rw -> Rw -> Rw.
  Variable maxlen : option Z.
  Notation started := (@started Rw).
  Notation ret_of := (return_of rzero radd).
  Notation slot := (@slot Rw).
  Notation banswer := (@banswer Obs Rw).
  Notation feed := (@feed Rw maxlen).
  Notation feed_all := (@feed_all Obs Rw maxlen).
  Notation grow := (@grow Rw maxlen).

  Lemma ends_b_spec k (x : Rw * bool * bool) : ends_b maxlen k x = true <-> ends_at maxlen k x.
  Proof.
    unfold ends_b, ends_at. rewrite !orb_true_iff. destruct maxlen as [m|].
    - rewrite Z.eqb_eq. intuition (subst; auto); try congruence.
    - intuition discriminate.
  Qed.

  (** [T j]: number of steps env j made. *)
  Definition env_steps (j : nat) (eps : list started) : nat :=
    length (concat (map (@s_steps Rw) (filter (fun e => Nat.eqb j (s_env e)) eps))).

  Definition INV (slots : list slot) (next : nat) (fin : nat -> option (Rw * Z)) (eps : list started) : Prop :=
    length eps = next /\
    (forall j i r l, nth_error slots j = Some (i, r, l) -> exists g, nth_error eps i = Some (j, g, false) /\ r = ret_of g /\ l = Z.of_nat (length g)) /\
    (forall i j g, nth_error eps i = Some (j, g, false) -> (exists r l, nth_error slots j = Some (i, r, l)) /\ fin i = None /\ running maxlen g) /\
    (forall i j g, nth_error eps i = Some (j, g, true) -> fin i = Some (ret_of g, Z.of_nat (length g)) /\ complete maxlen g) /\
    (forall i, length eps <= i -> fin i = None).

  Lemma nth_error_upd {A} (pre : list A) x y post j :
    nth_error (pre ++ y :: post) j = if Nat.eqb j (length pre) then Some y else nth_error (pre ++ x :: post) j.
  Proof.
    destruct (Nat.eqb_spec j (length pre)) as [->|Hne].
    - rewrite nth_error_app2, Nat.sub_diag by lia. reflexivity.
    - destruct (Nat.lt_ge_cases j (length pre)).
      + now rewrite !nth_error_app1 by lia.
      + rewrite !nth_error_app2 by lia. destruct (j - length pre) eqn:E; [lia|reflexivity].
  Qed.

  Lemma grow_other j x (e : started) : runs_in j e = false -> grow j x e = e.
  Proof. destruct e as [[j' g] fin]. unfold runs_in, BatchEvalSpec.grow, s_env, s_fin. cbn. now intros ->. Qed.

  (** One env. *)
  Lemma slot_step pre post i r l x next fin eps (y : Rw * bool * bool) :
    INV (pre ++ (i, r, l) :: post) next fin eps -> y = (ba_rew x, ba_done x, @ba_needs Obs Rw x) ->
    let ended := eqb_opt (l + 1) maxlen || ba_needs x || ba_done x in
    let '(s, next', fin') := if ended then ((next, rzero, 0%Z), S next, upd_fin fin i (radd r (ba_rew x), (l + 1)%Z))
                             else ((i, radd r (ba_rew x), (l + 1)%Z), next, fin) in
    INV (pre ++ s :: post) next' fin' (feed eps (length pre) y).
  Proof.
    intros (Hn & H1 & H2 & H3 & H4) Hy ended.
    set (j := length pre).
    assert (Hslot : nth_error (pre ++ (i, r, l) :: post) j = Some (i, r, l)).
    { unfold j. rewrite nth_error_app2, Nat.sub_diag by lia. reflexivity. }
    destruct (H1 _ _ _ _ Hslot) as (g & Hg & -> & ->).
    destruct (H2 _ _ _ Hg) as (_ & Hfi & Hrun).
    assert (Hended : ended = ends_b maxlen (S (length g)) y).
    { unfold ended, ends_b, eqb_opt. rewrite Hy. cbn [fst snd]. destruct maxlen as [m|].
      - replace (Z.of_nat (length g) + 1 =? m)%Z with (m =? Z.of_nat (S (length g)))%Z; [|lia].
        destruct (m =? Z.of_nat (S (length g)))%Z, (ba_needs x), (ba_done x); reflexivity.
      - destruct (ba_needs x), (ba_done x); reflexivity. }
    assert (Hret : radd (ret_of g) (ba_rew x) = ret_of (g ++ [y])) by (rewrite Hy, return_snoc; auto).
    assert (Hlen : (Z.of_nat (length g) + 1)%Z = Z.of_nat (length (g ++ [y]))) by (rewrite app_length; cbn; lia).
    (* the grown list *)
    assert (Hgrow : forall k e, nth_error eps k = Some e -> nth_error (map (grow j y) eps) k = Some (if Nat.eqb k i then (j, g ++ [y], ends_b maxlen (S (length g)) y) else e)).
    { intros k e Hk. rewrite nth_error_map, Hk. cbn. f_equal. destruct (Nat.eqb_spec k i) as [->|Hne].
      - rewrite Hg in Hk. injection Hk as <-. unfold BatchEvalSpec.grow. now rewrite Nat.eqb_refl.
      - apply grow_other. destruct e as [[j' g'] fn]. unfold runs_in, s_env, s_fin. cbn. destruct fn; [apply andb_false_r|].
        destruct (Nat.eqb_spec j j') as [<-|]; [|auto]. exfalso. apply Hne.
        destruct (H2 _ _ _ Hk) as ((r' & l' & Hs) & _). pose proof (eq_trans (eq_sym Hslot) Hs) as E9; injection E9; intros; subst; congruence. }
    assert (Hgrow' : forall k e, nth_error (map (grow j y) eps) k = Some e ->
              (k = i /\ e = (j, g ++ [y], ends_b maxlen (S (length g)) y)) \/ (k <> i /\ nth_error eps k = Some e)).
    { intros k e Hk. destruct (nth_error eps k) as [e0|] eqn:E0.
      - rewrite (Hgrow _ _ E0) in Hk. destruct (Nat.eqb_spec k i); [left|right]; split; auto; congruence.
      - apply nth_error_None in E0. assert (Hl : k < length (map (grow j y) eps)) by (apply nth_error_Some; congruence).
        rewrite map_length in Hl. lia. }
    assert (Hi : i < length eps) by (apply nth_error_Some; congruence).
    assert (Hold : forall i' g', i' <> i -> nth_error eps i' <> Some (j, g', false)).
    { intros i' g' Hne Hk. destruct (H2 _ _ _ Hk) as ((r' & l' & Hs) & _). pose proof (eq_trans (eq_sym Hslot) Hs) as E9; injection E9; intros; subst; congruence. }
    assert (Hcomplete : ended = true -> complete maxlen (g ++ [y])).
    { intros E. exists g, y. split; [auto|]. split; [auto|]. rewrite app_length. cbn. replace (length g + 1) with (S (length g)) by lia.
      apply ends_b_spec. congruence. }
    assert (Hrunning : ended = false -> running maxlen (g ++ [y])).
    { intros E. apply running_snoc; auto. rewrite <- ends_b_spec. congruence. }
    (* does j still run? *)
    assert (Hex : existsb (runs_in j) (map (grow j y) eps) = negb ended).
    { destruct ended eqn:Ee; cbn.
      - apply not_true_iff_false. intros Hx. apply existsb_exists in Hx as (e & He & Hr).
        apply In_nth_error in He as (k & Hk). unfold runs_in in Hr. apply andb_true_iff in Hr as [Hr1 Hr2].
        apply Nat.eqb_eq in Hr1. destruct (Hgrow' _ _ Hk) as [[_ ->]|[Hne Hk']].
        + unfold s_fin in Hr2. cbn in Hr2. rewrite <- Hended in Hr2. discriminate.
        + destruct e as [[j' g'] fn]. unfold s_env, s_fin in *. cbn in Hr1, Hr2. subst j'. destruct fn; [discriminate|].
          eapply Hold; eauto.
      - apply existsb_exists. exists (j, g ++ [y], false). split.
        + apply nth_error_In with i. rewrite (Hgrow _ _ Hg), Nat.eqb_refl, <- Hended. reflexivity.
        + unfold runs_in, s_env, s_fin. cbn. now rewrite Nat.eqb_refl. }
    unfold BatchEvalSpec.feed. fold grow. rewrite Hex.
    set (eps' := map (grow j y) eps) in *.
    assert (Hl' : length eps' = length eps) by apply map_length.
    destruct ended eqn:Ee; cbn [negb].
    - (* ended *)
      assert (Happ : forall k e, nth_error (eps' ++ [(j, [], false)]) k = Some e ->
                (k = length eps /\ e = (j, [], false)) \/ (k < length eps /\ nth_error eps' k = Some e)).
      { intros k e Hk. destruct (Nat.lt_ge_cases k (length eps')) as [Hlt|Hge].
        - rewrite nth_error_app1 in Hk by auto. right. split; [lia|auto].
        - rewrite nth_error_app2 in Hk by auto. destruct (k - length eps') as [|q] eqn:Eq; cbn in Hk.
          + left. split; [lia|congruence].
          + destruct q; discriminate. }
      split; [rewrite app_length; cbn; lia|]. split; [|split; [|split]].
      + intros j' i' r' l' Hs. rewrite (nth_error_upd pre (i, ret_of g, Z.of_nat (length g))) in Hs.
        destruct (Nat.eqb_spec j' (length pre)) as [->|Hne].
        * injection Hs as <- <- <-. exists []. rewrite nth_error_app2 by lia. replace (next - length eps') with 0 by lia.
          cbn. fold j. auto.
        * destruct (H1 _ _ _ _ Hs) as (g' & Hg' & Hr' & Hl2). exists g'. split; [|auto].
          assert (Hii : i' <> i) by (intros ->; rewrite Hg in Hg'; unfold j in *; congruence).
          assert (i' < length eps) by (apply nth_error_Some; congruence).
          rewrite nth_error_app1 by lia. rewrite (Hgrow _ _ Hg').
          destruct (Nat.eqb_spec i' i); [contradiction|auto].
      + intros i' j' g' Hk. destruct (Happ _ _ Hk) as [[-> E]|[Hlt Hk2]].
        * injection E as -> ->. split.
          -- exists rzero, 0%Z. rewrite (nth_error_upd pre (i, ret_of g, Z.of_nat (length g))). fold j. rewrite Nat.eqb_refl. congruence.
          -- split; [|intros q z Hq; destruct q; discriminate].
             unfold upd_fin. destruct (Nat.eqb_spec (length eps) i); [lia|]. apply H4; lia.
        * destruct (Hgrow' _ _ Hk2) as [[-> E]|[Hne Hk3]]; [rewrite <- Hended in E; congruence|].
          destruct (H2 _ _ _ Hk3) as ((r' & l' & Hs) & Hf & Hr). split; [|split; [|auto]].
          -- exists r', l'. rewrite (nth_error_upd pre (i, ret_of g, Z.of_nat (length g))).
             destruct (Nat.eqb_spec j' (length pre)) as [->|]; [|auto]. exfalso. eapply Hold; eauto.
          -- unfold upd_fin. destruct (Nat.eqb_spec i' i); [contradiction|auto].
      + intros i' j' g' Hk. destruct (Happ _ _ Hk) as [[-> E]|[Hlt Hk2]]; [congruence|].
        destruct (Hgrow' _ _ Hk2) as [[-> E]|[Hne Hk3]].
        * injection E as -> -> _. unfold upd_fin. rewrite Nat.eqb_refl, Hret, Hlen. auto.
        * unfold upd_fin. destruct (Nat.eqb_spec i' i); [contradiction|]. eauto.
      + intros i' Hge. rewrite app_length in Hge. cbn in Hge. unfold upd_fin. destruct (Nat.eqb_spec i' i); [lia|]. apply H4. lia.
    - split; [lia|]. split; [|split; [|split]].
      + intros j' i' r' l' Hs. rewrite (nth_error_upd pre (i, ret_of g, Z.of_nat (length g))) in Hs.
        destruct (Nat.eqb_spec j' (length pre)) as [->|Hne].
        * injection Hs as <- <- <-. exists (g ++ [y]). rewrite (Hgrow _ _ Hg), Nat.eqb_refl, <- Hended. fold j. auto.
        * destruct (H1 _ _ _ _ Hs) as (g' & Hg' & Hr' & Hl2). exists g'. split; [|auto].
          assert (Hii : i' <> i) by (intros ->; rewrite Hg in Hg'; unfold j in *; congruence).
          rewrite (Hgrow _ _ Hg'). destruct (Nat.eqb_spec i' i); [contradiction|auto].
      + intros i' j' g' Hk. destruct (Hgrow' _ _ Hk) as [[-> E]|[Hne Hk3]].
        * injection E as -> -> _. split; [|auto]. exists (radd (ret_of g) (ba_rew x)), (Z.of_nat (length g) + 1)%Z.
          rewrite (nth_error_upd pre (i, ret_of g, Z.of_nat (length g))). fold j. now rewrite Nat.eqb_refl.
        * destruct (H2 _ _ _ Hk3) as ((r' & l' & Hs) & Hf & Hr). split; [|auto].
          exists r', l'. rewrite (nth_error_upd pre (i, ret_of g, Z.of_nat (length g))).
          destruct (Nat.eqb_spec j' (length pre)) as [->|]; [|auto]. exfalso. eapply Hold; eauto.
      + intros i' j' g' Hk. destruct (Hgrow' _ _ Hk) as [[-> E]|[Hne Hk3]]; [rewrite <- Hended in E; congruence|eauto].
      + intros i' Hge. apply H4. lia.
  Qed.

  Lemma slots_step : forall xs slots pre next fin eps, length slots = length xs ->
    INV (pre ++ slots) next fin eps ->
    let '(slots', next', fin', resets, ends) := e_step_slots rzero radd maxlen slots xs next fin in
    INV (pre ++ slots') next' fin' (feed_all eps (length pre) xs) /\ length slots' = length xs /\ length resets = length xs.
  Proof.
    induction xs as [|x xs IH]; intros [|[[i r] l] slots] pre next fin eps Hlen Hinv; try discriminate Hlen.
    - cbn. auto.
    - cbn [e_step_slots].
      pose proof (@slot_step pre slots i r l x next fin eps _ Hinv eq_refl) as Hs. cbn zeta in Hs.
      set (ended := eqb_opt (l + 1) maxlen || ba_needs x || ba_done x) in *.
      set (z := if ended then _ else _) in *. destruct z as [[s next'] fin'].
      cbn [length] in Hlen.
      specialize (IH slots (pre ++ [s]) next' fin' (feed eps (length pre) (ba_rew x, ba_done x, ba_needs x)) ltac:(lia)).
      rewrite <- app_assoc in IH. specialize (IH Hs).
      destruct (e_step_slots rzero radd maxlen slots xs next' fin') as [[[[slots' next''] fin''] resets] ends].
      destruct IH as (IH1 & IH2 & IH3). rewrite app_length in IH1. cbn [length] in IH1. rewrite Nat.add_1_r in IH1.
      rewrite <- app_assoc in IH1. cbn [BatchEvalSpec.feed_all]. cbn [length]. split; [exact IH1|]. split; lia.
  Qed.

  (** env_steps *)
  Lemma env_steps_cons j (e : started) eps : env_steps j (e :: eps) = (if Nat.eqb j (s_env e) then length (s_steps e) else 0) + env_steps j eps.
  Proof. unfold env_steps. cbn [filter]. destruct (Nat.eqb j (s_env e)); cbn [map concat]; [now rewrite app_length|reflexivity]. Qed.

  Lemma env_steps_grow j x eps : (exists i g, nth_error eps i = Some (j, g, false)) ->
    (forall i i' g g', nth_error eps i = Some (j, g, false) -> nth_error eps i' = Some (j, g', false) -> i = i') ->
    env_steps j (map (grow j x) eps) = S (env_steps j eps).
  Proof.
    induction eps as [|[[j' g] fn] eps IH]; intros (i & g0 & Hi) Hu.
    { destruct i; discriminate. }
    assert (Hrest : (exists i g, nth_error eps i = Some (j, g, false)) \/ (forall i g, nth_error eps i <> Some (j, g, false))).
    { destruct i as [|i].
      - right. intros i' g' Hi'. specialize (Hu 0 (S i') _ _ Hi Hi'). discriminate.
      - left. exists i, g0. exact Hi. }
    assert (Hu' : forall i i' g g', nth_error eps i = Some (j, g, false) -> nth_error eps i' = Some (j, g', false) -> i = i').
    { intros a b' ga gb Ha Hb. specialize (Hu (S a) (S b') _ _ Ha Hb). lia. }
    assert (Hnone : (forall i g, nth_error eps i <> Some (j, g, false)) -> map (grow j x) eps = eps).
    { clear. intros Hn. induction eps as [|e eps IH]; cbn; auto. f_equal.
      - apply grow_other. destruct e as [[j' g] fn]. unfold runs_in, s_env, s_fin. cbn. destruct fn; [apply andb_false_r|].
        destruct (Nat.eqb_spec j j') as [<-|]; auto. exfalso. apply (Hn 0 g). reflexivity.
      - apply IH. intros i g. apply (Hn (S i) g). }
    cbn [map]. rewrite !env_steps_cons. 
    assert (Hg1 : grow j x (j', g, fn) = if Nat.eqb j j' && negb fn then (j', g ++ [x], ends_b maxlen (S (length g)) x) else (j', g, fn)) by reflexivity.
    rewrite Hg1. clear Hg1. unfold s_env, s_steps. cbn [fst snd].
    destruct (Nat.eqb_spec j j') as [<-|Hne]; cbn [andb].
    - destruct fn; cbn [negb fst snd]; rewrite Nat.eqb_refl.
      + destruct i as [|i]; [discriminate|]. rewrite IH; [lia| |auto]. exists i, g0. exact Hi.
      + rewrite Hnone; [rewrite !app_length; cbn; lia|].
        intros i' g' Hi'. specialize (Hu 0 (S i') g g' eq_refl Hi'). discriminate.
    - cbn [fst snd]. destruct (Nat.eqb_spec j j'); [contradiction|].
      destruct i as [|i]; [cbn in Hi; congruence|]. rewrite IH; [lia| |auto]. exists i, g0. exact Hi.
  Qed.

  Lemma env_steps_grow_other j j' x eps : j <> j' -> env_steps j' (map (grow j x) eps) = env_steps j' eps.
  Proof.
    intros Hne. induction eps as [|[[k g] fn] eps IH]; cbn [map]; auto. rewrite !env_steps_cons, IH. f_equal.
    unfold BatchEvalSpec.grow, s_env, s_steps. cbn [fst snd]. destruct (Nat.eqb_spec j k) as [->|]; cbn [andb]; [|reflexivity].
    destruct (negb fn); cbn [fst snd]; destruct (Nat.eqb_spec j' k); congruence.
  Qed.

  Lemma env_steps_feed slots next fin eps j x : INV slots next fin eps -> j < length slots ->
    env_steps j (feed eps j x) = S (env_steps j eps) /\ forall j', j' <> j -> env_steps j' (feed eps j x) = env_steps j' eps.
  Proof.
    intros (Hn & H1 & H2 & H3 & H4) Hj.
    assert (Happ : forall k e, env_steps k (e ++ [(j, [], false)]) = env_steps k e).
    { intros k e. induction e as [|a e IH]; cbn [app].
      - rewrite env_steps_cons. unfold s_steps. cbn [fst snd length]. destruct (Nat.eqb _ _); reflexivity.
      - rewrite !env_steps_cons, IH. reflexivity. }
    destruct (nth_error slots j) as [[[i r] l]|] eqn:Es; [|apply nth_error_None in Es; lia].
    destruct (H1 _ _ _ _ Es) as (g & Hg & _).
    assert (Hgrow : env_steps j (map (grow j x) eps) = S (env_steps j eps)).
    { apply env_steps_grow; [eauto|]. intros a b' ga gb Ha Hb.
      destruct (H2 _ _ _ Ha) as ((ra & la & Hsa) & _). destruct (H2 _ _ _ Hb) as ((rb & lb & Hsb) & _). congruence. }
    unfold BatchEvalSpec.feed. fold grow. split.
    - destruct (existsb _ _); [auto|]. rewrite Happ. auto.
    - intros j' Hne. destruct (existsb _ _); [|rewrite Happ]; apply env_steps_grow_other; auto.
  Qed.

  Lemma env_steps_feed_all : forall xs slots pre next fin eps, length slots = length xs ->
    INV (pre ++ slots) next fin eps ->
    forall j, j < length pre + length slots ->
      env_steps j (feed_all eps (length pre) xs) = env_steps j eps + (if length pre <=? j then 1 else 0).
  Proof.
    induction xs as [|x xs IH]; intros [|[[i r] l] slots] pre next fin eps Hlen Hinv j Hj; try discriminate Hlen.
    - cbn [BatchEvalSpec.feed_all length] in Hj |- *. destruct (Nat.leb_spec (length pre) j); lia.
    - pose proof (@slot_step pre slots i r l x next fin eps _ Hinv eq_refl) as Hs. cbn zeta in Hs.
      set (ended := eqb_opt (l + 1) maxlen || ba_needs x || ba_done x) in *.
      set (z := if ended then _ else _) in *. destruct z as [[s next'] fin'].
      cbn [length] in Hlen, Hj. cbn [BatchEvalSpec.feed_all].
      specialize (IH slots (pre ++ [s]) next' fin' (feed eps (length pre) (ba_rew x, ba_done x, ba_needs x)) ltac:(lia)).
      rewrite <- app_assoc in IH. specialize (IH Hs j). rewrite app_length in IH. cbn [length] in IH. rewrite Nat.add_1_r in IH.
      rewrite IH by lia.
      destruct (@env_steps_feed _ _ _ _ (length pre) (ba_rew x, ba_done x, ba_needs x) Hinv) as [Hf1 Hf2]; [rewrite app_length; cbn; lia|].
      destruct (Nat.eq_dec j (length pre)) as [->|Hne].
      + rewrite Hf1. destruct (Nat.leb_spec (S (length pre)) (length pre)); destruct (Nat.leb_spec (length pre) (length pre)); lia.
      + rewrite Hf2 by auto. destruct (Nat.leb_spec (S (length pre)) j); destruct (Nat.leb_spec (length pre) j); lia.
  Qed.

  (** Running episodes are the latest of their env. *)
  Definition ORD (eps : list started) : Prop := forall i j g i' e,
    nth_error eps i = Some (j, g, false) -> i < i' -> nth_error eps i' = Some e -> s_env e <> j.

  Lemma grow_env j x e : s_env (grow j x e) = s_env e.
  Proof. destruct e as [[j' g] fn]. unfold BatchEvalSpec.grow. destruct (_ && _); reflexivity. Qed.
  Lemma grow_fin j x e : s_fin (grow j x e) = false -> s_fin e = false.
  Proof.
    destruct e as [[j' g] fn]. unfold BatchEvalSpec.grow. destruct fn; [|auto]. rewrite andb_false_r. auto.
  Qed.

  Lemma feed_ord eps j x : ORD eps -> ORD (feed eps j x).
  Proof.
    intros Ho. unfold BatchEvalSpec.feed. fold grow.
    assert (Hm : ORD (map (grow j x) eps)).
    { intros i k g i' e Hi Hlt Hi'. rewrite nth_error_map in Hi, Hi'.
      destruct (nth_error eps i) as [e1|] eqn:E1; [|discriminate]. destruct (nth_error eps i') as [e2|] eqn:E2; [|discriminate].
      cbn in Hi, Hi'. injection Hi as Hi. injection Hi' as <-. rewrite grow_env.
      assert (He : s_env e1 = k) by (rewrite <- (grow_env j x), Hi; reflexivity).
      assert (Hf : s_fin e1 = false) by (apply (grow_fin j x); rewrite Hi; reflexivity).
      destruct e1 as [[k1 g1] f1]. unfold s_env, s_fin in He, Hf. cbn in He, Hf. subst. eapply Ho; eauto. }
    destruct (existsb _ _) eqn:Ex; [auto|].
    intros i k g i' e Hi Hlt Hi'.
    assert (Hl : length (map (grow j x) eps) = length eps) by apply map_length.
    destruct (Nat.lt_ge_cases i' (length eps)) as [Hl'|Hl'].
    - rewrite nth_error_app1 in Hi, Hi' by lia. eapply Hm; eauto.
    - rewrite nth_error_app2 in Hi' by lia. destruct (i' - length (map (grow j x) eps)) as [|q] eqn:Eq; [|destruct q; discriminate].
      cbn in Hi'. injection Hi' as <-. unfold s_env. cbn. intros <-. rewrite nth_error_app1 in Hi by lia.
      apply not_true_iff_false in Ex. apply Ex. apply existsb_exists. exists (j, g, false). split; [eapply nth_error_In; eauto|].
      unfold runs_in, s_env, s_fin. cbn. now rewrite Nat.eqb_refl.
  Qed.
  Lemma feed_all_ord xs : forall eps j, ORD eps -> ORD (feed_all eps j xs).
  Proof. induction xs; cbn; auto using feed_ord. Qed.

  (** ** The check. *)
  Lemma lengths_app (a c : list started) : lengths (a ++ c) = lengths a + lengths c.
  Proof. unfold lengths. now rewrite map_app, concat_app, app_length. Qed.

  Lemma firstn_S_nth {A} (l : list A) k x : nth_error l k = Some x -> firstn (S k) l = firstn k l ++ [x].
  Proof. revert k; induction l as [|y l IH]; intros [|k] H; try discriminate; cbn in *; [congruence|]. f_equal. auto. Qed.

  Lemma nth_error_firstn_lt {A} (l : list A) k i : i < k -> nth_error (firstn k l) i = nth_error l i.
  Proof. revert k i; induction l as [|y l IH]; intros [|k] [|i] H; cbn; auto; try lia. apply IH. lia. Qed.
  Lemma skipn_nth_cons {A} (l : list A) k x : nth_error l k = Some x -> skipn k l = x :: skipn (S k) l.
  Proof. revert k; induction l as [|y l IH]; intros [|k] H; try discriminate; cbn in *; [congruence|]. apply IH, H. Qed.

  Lemma lengths_mono (eps : list started) k k' : k <= k' -> lengths (firstn k eps) <= lengths (firstn k' eps).
  Proof.
    intros H. replace k' with (k + (k' - k)) by lia. rewrite <- (firstn_skipn k (firstn (k + (k' - k)) eps)).
    rewrite firstn_firstn, Nat.min_l by lia. rewrite lengths_app. lia.
  Qed.

  Lemma env_steps_le_lengths j (eps : list started) : env_steps j eps <= lengths eps.
  Proof.
    induction eps as [|e eps IH]; [reflexivity|]. rewrite env_steps_cons. change (e :: eps) with ([e] ++ eps). rewrite lengths_app.
    assert (lengths [e] = length (s_steps e)) by (unfold lengths; cbn; now rewrite app_nil_r). destruct (Nat.eqb _ _); lia.
  Qed.

  Lemma finished_cons k (e : started) eps : finished_upto (S k) (e :: eps) <-> s_fin e = true /\ finished_upto k eps.
  Proof.
    unfold finished_upto. cbn. split.
    - intros [H1 H2]. split; [apply H2; auto|]. split; [lia|]. intros; apply H2; auto.
    - intros [H1 [H2 H3]]. split; [lia|]. intros e' [<-|He]; auto.
  Qed.

  Lemma finished_snoc k (e : started) eps : finished_upto k eps -> nth_error eps k = Some e -> s_fin e = true -> finished_upto (S k) eps.
  Proof.
    intros [H1 H2] Hk Hf. split; [apply nth_error_Some; congruence|]. intros e' He'. rewrite (firstn_S_nth _ _ Hk) in He'.
    apply in_app_or in He' as [?|[<-|[]]]; auto.
  Qed.

  Lemma finished_nth k (eps : list started) i e : finished_upto k eps -> i < k -> nth_error eps i = Some e -> s_fin e = true.
  Proof.
    intros [_ H] Hi He. apply H. apply nth_error_In with i. rewrite nth_error_firstn_lt; auto.
  Qed.

  Section Chk.
    Variables (slots : list slot) (next : nat) (fin : nat -> option (Rw * Z)) (eps : list started).
    Hypothesis Hinv : INV slots next fin eps.

    Lemma fin_spec i e : nth_error eps i = Some e -> fin i = if s_fin e then Some (ret_of (s_steps e), Z.of_nat (length (s_steps e))) else None.
    Proof.
      destruct Hinv as (Hn & H1 & H2 & H3 & H4). destruct e as [[j g] [|]]; intros H; cbn.
      - apply (H3 _ _ _ H).
      - apply (H2 _ _ _ H).
    Qed.

    Lemma first_unf : forall fuel i, fuel + i = next -> finished_upto i eps ->
      let f := first_unfinished fuel i fin in finished_upto f eps /\
        (f = next \/ exists e, nth_error eps f = Some e /\ s_fin e = false).
    Proof.
      induction fuel as [|fuel IH]; intros i Hf Hi; cbn.
      - split; [auto|]. left. lia.
      - destruct (nth_error eps i) as [e|] eqn:Ee.
        2: { apply nth_error_None in Ee. destruct Hinv as (Hn & _). lia. }
        rewrite (fin_spec _ Ee). destruct (s_fin e) eqn:Efin.
        + apply IH; [lia|]. eapply finished_snoc; eauto.
        + split; [auto|]. right. eauto.
    Qed.

    Lemma gather_spec : forall k i, finished_upto (i + k) eps ->
      gather k i fin = map (fun e => ret_of (s_steps e)) (firstn k (skipn i eps)).
    Proof.
      induction k as [|k IH]; intros i Hk; cbn [gather]; [reflexivity|].
      destruct (nth_error eps i) as [e|] eqn:Ee.
      2: { apply nth_error_None in Ee. destruct Hk. lia. }
      rewrite (fin_spec _ Ee), (@finished_nth (i + S k) eps i e Hk ltac:(lia) Ee).
      rewrite (skipn_nth_cons _ _ Ee). cbn [firstn map]. f_equal. apply IH. now replace (S i + k) with (i + S k) by lia.
    Qed.

    Lemma fit_spec n : forall k i total, finished_upto (i + k) eps -> (total <= n)%Z ->
      exists m, m <= k /\ fst (fit k i fin n total) = map (fun e => ret_of (s_steps e)) (firstn m (skipn i eps)) /\
        (total + Z.of_nat (lengths (firstn m (skipn i eps))) <= n)%Z /\
        ((m = k /\ snd (fit k i fin n total) = (total + Z.of_nat (lengths (firstn k (skipn i eps))))%Z) \/
         (m < k /\ (n < snd (fit k i fin n total))%Z /\ snd (fit k i fin n total) = (total + Z.of_nat (lengths (firstn (S m) (skipn i eps))))%Z)).
    Proof.
      induction k as [|k IH]; intros i total Hk Ht; cbn [fit].
      - exists 0. cbn [fst snd firstn map]. change (lengths (@nil started)) with 0. split; [lia|]. split; [auto|]. split; [lia|]. left. split; [auto|lia].
      - destruct (nth_error eps i) as [e|] eqn:Ee.
        2: { apply nth_error_None in Ee. destruct Hk. lia. }
        rewrite (fin_spec _ Ee), (@finished_nth (i + S k) eps i e Hk ltac:(lia) Ee).
        rewrite (skipn_nth_cons _ _ Ee).
        assert (Hl1 : forall l, lengths (e :: l) = length (s_steps e) + lengths l).
        { intros l. change (e :: l) with ([e] ++ l). rewrite lengths_app. f_equal. unfold lengths. cbn. now rewrite app_nil_r. }
        destruct (n <? total + Z.of_nat (length (s_steps e)))%Z eqn:El.
        + exists 0. cbn [fst snd firstn map]. split; [lia|]. split; [auto|].
          split; [change (lengths (@nil started)) with 0; lia|]. right. split; [lia|]. split; [lia|]. rewrite Hl1. change (lengths (@nil started)) with 0. lia.
        + destruct (IH (S i) (total + Z.of_nat (length (s_steps e)))%Z) as (m & H1 & H2 & H3 & H4);
            [now replace (S i + k) with (i + S k) by lia|lia|].
          destruct (fit k (S i) fin n (total + Z.of_nat (length (s_steps e)))%Z) as [rs tot]. cbn [fst snd] in *.
          exists (S m). split; [lia|]. cbn [firstn map]. split; [congruence|]. rewrite Hl1. split; [lia|].
          destruct H4 as [[-> H4]|[H4 [H5 H6]]]; [left|right].
          * split; [auto|]. rewrite Hl1. lia.
          * split; [lia|]. split; [auto|]. cbn [firstn] in H6 |- *. rewrite H6. rewrite Hl1. lia.
    Qed.

    Variable b : budget.
    Hypothesis Hpos : match b with ForSteps n => (1 <= n)%Z | ForEpisodes n => (0 <= n)%Z end.
    Hypothesis Hrunning : exists e, In e eps /\ s_fin e = false.
    (** ForSteps: the first episode has not overrun. *)
    Hypothesis Hfirst : match b with
      | ForSteps n => forall e, nth_error eps 0 = Some e -> (Z.of_nat (length (s_steps e)) <= n)%Z
      | _ => True end.

    Lemma finished_max k f e : finished_upto k eps -> nth_error eps f = Some e -> s_fin e = false -> k <= f.
    Proof.
      intros Hk He Hf. apply Nat.nlt_ge. intros Hlt. rewrite (@finished_nth _ _ _ _ Hk Hlt He) in Hf. discriminate.
    Qed.

    Lemma check_spec : let '(stop, rs) := e_check b (mk_estate slots next fin) in
      (stop = true <-> used_up b eps) /\ (stop = true -> reported ret_of b eps rs).
    Proof.
      unfold e_check. cbn [e_next e_finished e_slots].
      destruct (@first_unf next 0 ltac:(lia)) as [Hff Hfe]; [split; [lia|intros e []]|].
      set (f := first_unfinished next 0 fin) in *.
      assert (Hfe' : exists e, nth_error eps f = Some e /\ s_fin e = false).
      { destruct Hfe as [Hfe|Hfe]; [|auto]. destruct Hrunning as (e & He & Hef). exfalso. destruct Hff as [_ Hff].
        rewrite Hff in Hef; [discriminate|]. rewrite Hfe. destruct Hinv as (<- & _). now rewrite firstn_all. }
      clear Hfe. destruct Hfe' as (e & He & Hef).
      destruct b as [n|n].
      - (* steps *)
        destruct (@fit_spec n f 0 0%Z Hff ltac:(lia)) as (m & Hm & Hrs & Hle & Htot).
        cbn [skipn] in *. destruct (fit f 0 fin n 0) as [rs tot]. cbn [fst snd] in *.
        assert (Hm1 : 1 <= f -> 1 <= m).
        { intros Hf1. destruct (Nat.eq_dec m 0) as [->|]; [|lia]. exfalso. destruct Htot as [[Hx _]|[_ [H5 H6]]]; [lia|].
          destruct (nth_error eps 0) as [e0|] eqn:E0; [|apply nth_error_None in E0; destruct Hff; lia].
          specialize (Hfirst e0 eq_refl). rewrite (firstn_S_nth _ _ E0), lengths_app in H6. cbn [firstn] in H6.
          replace (lengths [e0]) with (length (s_steps e0)) in H6 by (unfold lengths; cbn; now rewrite app_nil_r).
          change (lengths (@nil started)) with 0 in H6. lia. }
        destruct (n <=? tot)%Z eqn:Ent.
        + (* reached *)
          assert (Hf1 : 1 <= f).
          { destruct (Nat.eq_dec f 0) as [Hf0|]; [|lia]. rewrite Hf0 in *. destruct Htot as [[_ Htot]|[Hx _]]; [|lia].
            cbn [firstn] in Htot. change (lengths (@nil started)) with 0 in Htot. lia. }
          assert (Hfm : finished_upto m eps).
          { split; [destruct Hff; lia|]. intros e' He'. destruct Hff as [_ Hff]. apply Hff.
            rewrite <- (firstn_skipn m (firstn f eps)), firstn_firstn, Nat.min_l by lia. apply in_or_app; auto. }
          split.
          * split; [|auto]. intros _. unfold used_up. destruct Htot as [[-> Htot]|[Hlt [H5 H6]]].
            -- exists f. split; [auto|]. pose proof (lengths_mono eps (k := f) (k' := S f) ltac:(lia)). lia.
            -- exists m. split; [auto|lia].
          * intros _. left. exists m. split; [auto|]. split; [auto|]. split; [lia|]. split; [|auto].
            intros HS. destruct Htot as [[-> Htot]|[Hlt [H5 H6]]]; [|lia].
            pose proof (@finished_max _ _ _ HS He Hef). lia.
        + assert (Htm : m = f /\ tot = Z.of_nat (lengths (firstn f eps))) by (destruct Htot as [[? ?]|[? [? ?]]]; [split; lia|lia]).
          destruct Htm as [-> ->].
          (* the running slot *)
          destruct e as [[j g] fn]. unfold s_fin in Hef. cbn in Hef. subst fn.
          assert (Hfs : exists r, find_slot slots f = Some (f, r, Z.of_nat (length g)) /\ r = ret_of g).
          { destruct Hinv as (_ & H1 & H2 & _). destruct (H2 _ _ _ He) as ((r & l & Hs) & _).
            destruct (H1 _ _ _ _ Hs) as (g' & Hg' & -> & ->). rewrite He in Hg'. injection Hg' as <-.
            exists (ret_of g). split; [|auto]. unfold find_slot.
            destruct (find (fun s => Nat.eqb (fst (fst s)) f) slots) as [[[i' r'] l']|] eqn:Ef.
            - apply find_some in Ef as [Hin Heq]. cbn in Heq. apply Nat.eqb_eq in Heq. subst i'.
              apply In_nth_error in Hin as (j' & Hj'). destruct (H1 _ _ _ _ Hj') as (g'' & Hg'' & -> & ->). congruence.
            - exfalso. apply nth_error_In in Hs. apply (find_none _ _ Ef) in Hs. cbn in Hs. rewrite Nat.eqb_refl in Hs. discriminate. }
          destruct Hfs as (r & -> & ->).
          assert (HSf : lengths (firstn (S f) eps) = lengths (firstn f eps) + length g).
          { rewrite (firstn_S_nth _ _ He), lengths_app. f_equal. unfold lengths. cbn. now rewrite app_nil_r. }
          assert (Hiff : (n <= Z.of_nat (lengths (firstn f eps)) + Z.of_nat (length g))%Z <-> used_up (ForSteps n) eps).
          { unfold used_up. split.
            - intros H. exists f. split; [auto|lia].
            - intros (k & Hk & Hl). pose proof (@finished_max _ _ _ Hk He eq_refl) as Hkf.
              pose proof (lengths_mono eps (k := S k) (k' := S f) ltac:(lia)). lia. }
          destruct (n <=? Z.of_nat (lengths (firstn f eps)) + Z.of_nat (length g))%Z eqn:Enl.
          * split; [rewrite <- Hiff; split; [lia|auto]|]. intros _. destruct (Nat.eqb_spec f 0) as [Hf0|Hf0].
            -- right. rewrite Hf0 in *. destruct eps as [|e0 rest]; [discriminate|]. cbn in He. injection He as ->.
               exists (j, g, false), rest. split; [auto|]. split; [auto|]. cbn [s_steps fst snd].
               specialize (Hfirst _ eq_refl). unfold s_steps in Hfirst. cbn in Hfirst.
               cbn [firstn] in Enl. change (lengths (@nil started)) with 0 in Enl. split; [unfold s_steps; cbn; lia|]. rewrite Hrs. reflexivity.
            -- left. exists f. split; [lia|]. split; [auto|]. split; [lia|]. split; [|auto].
               intros HS. pose proof (@finished_max _ _ _ HS He eq_refl). lia.
          * split; [rewrite <- Hiff; split; [discriminate|lia]|discriminate].
      - (* episodes *)
        assert (Hiff : (n <= Z.of_nat f)%Z <-> used_up (ForEpisodes n) eps).
        { unfold used_up. split.
          - intros H. split; [destruct Hff; lia|]. intros e' He'. destruct Hff as [_ Hff]. apply Hff.
            rewrite <- (firstn_skipn (Z.to_nat n) (firstn f eps)), firstn_firstn, Nat.min_l by lia. apply in_or_app; auto.
          - intros H. pose proof (@finished_max _ _ _ H He Hef). lia. }
        destruct (n <=? Z.of_nat f)%Z eqn:Enf.
        + assert (Hu : used_up (ForEpisodes n) eps) by (apply Hiff; lia). split; [split; auto|]. intros _. cbn.
          rewrite gather_spec by exact Hu. reflexivity.
        + split; [rewrite <- Hiff; split; [discriminate|lia]|discriminate].
    Qed.
  End Chk.

  Lemma feed_first eps j x e : nth_error eps 0 = Some e -> nth_error (feed eps j x) 0 = Some (grow j x e).
  Proof.
    destruct eps as [|e' eps]; [discriminate|]. cbn. intros [= ->]. unfold BatchEvalSpec.feed. fold grow.
    destruct (existsb _ _); reflexivity.
  Qed.
  Lemma feed_all_first : forall xs eps j e, nth_error eps 0 = Some e ->
    exists e', nth_error (feed_all eps j xs) 0 = Some e' /\ s_env e' = s_env e /\ (s_fin e = true -> e' = e) /\
      length (s_steps e') <= length (s_steps e) + (if j <=? s_env e then 1 else 0).
  Proof.
    induction xs as [|x xs IH]; intros eps j e He; cbn [BatchEvalSpec.feed_all].
    - exists e. split; [auto|]. split; [auto|]. split; [auto|lia].
    - set (y := (ba_rew x, ba_done x, ba_needs x)).
      destruct (IH (feed eps j y) (S j) (grow j y e)) as (e' & H1 & H2 & H3 & H4); [apply feed_first; auto|].
      exists e'. split; [auto|]. rewrite grow_env in H2, H4. split; [auto|]. split.
      + intros Hf. assert (Hg : grow j y e = e).
        { apply grow_other. unfold runs_in. rewrite Hf. apply andb_false_r. }
        rewrite Hg in H3. auto.
      + assert (Hg : length (s_steps (grow j y e)) <= length (s_steps e) + (if Nat.eqb j (s_env e) then 1 else 0)).
        { destruct e as [[k g] fn]. unfold BatchEvalSpec.grow, s_env, s_steps. cbn [fst snd]. destruct (Nat.eqb j k); cbn [andb].
          - destruct (negb fn); cbn [fst snd]; rewrite ?app_length; cbn; lia.
          - cbn. lia. }
        destruct (Nat.eqb_spec j (s_env e)), (Nat.leb_spec (S j) (s_env e)), (Nat.leb_spec j (s_env e)); lia.
  Qed.

  Variable b : budget.
  Variable N : nat.
  Hypothesis HN : 1 <= N.
  Hypothesis Hpos : match b with ForSteps n => (1 <= n)%Z | ForEpisodes n => (0 <= n)%Z end.

  Definition BINV (st : estate) (eps : list started) (T : nat) : Prop :=
    INV (e_slots st) (e_next st) (e_finished st) eps /\ length (e_slots st) = N /\ ORD eps /\
    (forall j, j < N -> env_steps j eps = T).

  Definition safe (eps : list started) : Prop :=
    match b with
    | ForSteps n => exists e, nth_error eps 0 = Some e /\
        (Z.of_nat (length (s_steps e)) <= n)%Z /\ (s_fin e = false -> (Z.of_nat (length (s_steps e)) < n)%Z)
    | _ => True
    end.

  Lemma BINV_running st eps T : BINV st eps T -> exists e, In e eps /\ s_fin e = false.
  Proof.
    intros (Hinv & Hl & _). destruct (e_slots st) as [|[[i r] l] slots] eqn:E; [cbn in Hl; lia|].
    destruct Hinv as (_ & H1 & _). destruct (H1 0 i r l eq_refl) as (g & Hg & _). exists (0, g, false).
    split; [eapply nth_error_In; eauto|auto].
  Qed.

  Lemma firstn_ORD_env eps f j g : ORD eps -> nth_error eps f = Some (j, g, false) -> env_steps j eps = env_steps j (firstn (S f) eps).
  Proof.
    intros Ho Hf. rewrite <- (firstn_skipn (S f) eps) at 1.
    assert (Hz : forall l, (forall e, In e l -> s_env e <> j) -> forall a : list started, env_steps j (a ++ l) = env_steps j a).
    { intros l Hl a. induction a as [|x a IH]; cbn [app].
      - induction l as [|y l IHl]; [reflexivity|]. rewrite env_steps_cons, IHl by (intros; apply Hl; right; auto).
        destruct (Nat.eqb_spec j (s_env y)) as [E|]; [|reflexivity]. exfalso. apply (Hl y); [left; auto|auto].
      - rewrite !env_steps_cons, IH. reflexivity. }
    apply Hz. intros e He. apply In_nth_error in He as (k & Hk).
    assert (Hk' : nth_error eps (S f + k) = Some e).
    { rewrite <- (firstn_skipn (S f) eps). rewrite nth_error_app2.
      - rewrite firstn_length_le; [replace (S f + k - S f) with k by lia; auto|]. apply nth_error_Some. congruence.
      - rewrite firstn_length_le; [lia|]. apply nth_error_Some. congruence. }
    eapply Ho; [exact Hf| |exact Hk']. lia.
  Qed.

  Lemma enough_used_up st eps T : BINV st eps T -> enough maxlen b T -> used_up b eps.
  Proof.
    intros HB Hen. pose proof (BINV_running HB) as Hrun. destruct HB as (Hinv & Hl & Ho & HT).
    destruct (@first_unf _ _ _ _ Hinv (e_next st) 0 ltac:(lia)) as [Hff Hfe]; [split; [lia|intros e []]|].
    set (f := first_unfinished (e_next st) 0 (e_finished st)) in *.
    assert (Hfe' : exists e, nth_error eps f = Some e /\ s_fin e = false).
    { destruct Hfe as [Hfe|Hfe]; [|auto]. destruct Hrun as (e & He & Hef). exfalso. destruct Hff as [_ Hff].
      rewrite Hff in Hef; [discriminate|]. rewrite Hfe. destruct Hinv as (<- & _). now rewrite firstn_all. }
    destruct Hfe' as ([[j g] fn] & He & Hef). unfold s_fin in Hef. cbn in Hef. subst fn.
    pose proof Hinv as (_ & H1 & H2 & H3 & _). destruct (H2 _ _ _ He) as ((r & l & Hs) & _ & Hrg).
    assert (Hj : j < N) by (rewrite <- Hl; apply nth_error_Some; congruence).
    assert (Hle : T <= lengths (firstn (S f) eps)).
    { rewrite <- (HT j Hj), (firstn_ORD_env _ Ho He). apply env_steps_le_lengths. }
    unfold enough in Hen. destruct b as [n|n]; cbn [used_up].
    - exists f. split; [auto|lia].
    - destruct Hen as (m & Hm & Hm1 & Hf).
      assert (Hfn : (n <= Z.of_nat f)%Z).
      { apply Z.nlt_ge. intros Hlt.
        assert (Hb : lengths (firstn f eps) <= f * m).
        { destruct Hff as [Hff1 Hff2]. revert Hff1 Hff2. generalize f. clear - H3 Hm Hm1. induction f as [|f IH]; intros Hf1 Hf2; [cbn; lia|].
          destruct (nth_error eps f) as [e|] eqn:Ee; [|apply nth_error_None in Ee; lia].
          rewrite (firstn_S_nth _ _ Ee), lengths_app.
          assert (Hfe : s_fin e = true) by (apply Hf2; rewrite (firstn_S_nth _ _ Ee); apply in_or_app; right; left; auto).
          assert (Hb : lengths (firstn f eps) <= f * m).
          { apply IH; [lia|]. intros e' He'. apply Hf2. rewrite (firstn_S_nth _ _ Ee). apply in_or_app; auto. }
          destruct e as [[j g] fn]. unfold s_fin in Hfe. cbn in Hfe. subst fn. destruct (H3 _ _ _ Ee) as [_ Hc].
          assert (length g <= m) by (eapply complete_length; eauto). unfold lengths at 2. cbn. rewrite app_nil_r. unfold s_steps. cbn. lia. }
        rewrite (firstn_S_nth _ _ He), lengths_app in Hle. unfold lengths at 2 in Hle. cbn in Hle. rewrite app_nil_r in Hle.
        unfold s_steps in Hle. cbn in Hle. assert (length g < m) by (eapply running_length; eauto). nia. }
      split; [destruct Hff; lia|]. intros e' He'. destruct Hff as [_ Hff]. apply Hff.
      rewrite <- (firstn_skipn (Z.to_nat n) (firstn f eps)), firstn_firstn, Nat.min_l by lia. apply in_or_app; auto.
  Qed.

  Lemma step_state st eps T (xs : list banswer) : BINV st eps T -> safe eps -> length xs = N ->
    let '(slots, next, fin, resets, ends) := e_step_slots rzero radd maxlen (e_slots st) xs (e_next st) (e_finished st) in
    let st' := mk_estate slots next fin in
    let eps' := feed_all eps 0 xs in
    BINV st' eps' (S T) /\ length resets = N /\
    let '(stop, rs) := e_check b st' in
    (stop = true <-> used_up b eps') /\ (stop = true -> reported ret_of b eps' rs) /\ (stop = false -> safe eps').
  Proof.
    intros (Hinv & Hl & Ho & HT) Hsafe Hx.
    pose proof (@slots_step xs (e_slots st) [] (e_next st) (e_finished st) eps ltac:(lia) Hinv) as Hs.
    pose proof (@env_steps_feed_all xs (e_slots st) [] (e_next st) (e_finished st) eps ltac:(lia) Hinv) as He.
    destruct (e_step_slots rzero radd maxlen (e_slots st) xs (e_next st) (e_finished st)) as [[[[slots next] fin] resets] ends].
    cbn [app length] in *. destruct Hs as (Hs1 & Hs2 & Hs3).
    assert (HB : BINV (mk_estate slots next fin) (feed_all eps 0 xs) (S T)).
    { split; [exact Hs1|]. split; [cbn; lia|]. split; [apply feed_all_ord; auto|].
      intros j Hj. rewrite He by lia. rewrite HT by auto. cbn. lia. }
    split; [exact HB|]. split; [lia|].
    assert (Hfirst : match b with
      | ForSteps n => forall e, nth_error (feed_all eps 0 xs) 0 = Some e -> (Z.of_nat (length (s_steps e)) <= n)%Z
      | _ => True end).
    { unfold safe in Hsafe. destruct b as [n|n]; auto. destruct Hsafe as (e & H0 & H1 & H2).
      destruct (@feed_all_first xs eps 0 e H0) as (e' & H3 & H4 & H5 & H6). intros e'' He''. rewrite H3 in He''. injection He'' as <-.
      destruct (s_fin e) eqn:Ef; [rewrite H5 by auto; auto|]. specialize (H2 eq_refl). cbn [Nat.leb] in H6. lia. }
    pose proof (@check_spec slots next fin _ Hs1 b Hpos (BINV_running HB) Hfirst) as Hc.
    destruct (e_check b (mk_estate slots next fin)) as [stop rs]. destruct Hc as [Hc1 Hc2]. split; [auto|]. split; [auto|].
    intros ->. unfold safe in *. destruct b as [n|n]; auto. destruct Hsafe as (e & H0 & H1 & H2).
    destruct (@feed_all_first xs eps 0 e H0) as (e' & H3 & H4 & H5 & H6). exists e'. split; [auto|]. split; [auto|].
    intros Hf. apply Z.nle_gt. intros Hle. assert (false = true); [|discriminate]. apply Hc1. exists 0.
    split; [split; [lia|intros ? []]|]. rewrite (firstn_S_nth _ _ H3), lengths_app. unfold lengths at 2. cbn. rewrite app_nil_r. lia.
  Qed.

  Variable w : @wworld Obs Act Rw.
  Hypothesis Hw : forall tr xs, ww_step w tr = Ok xs -> length xs = N.
  Ltac blame := unfold from_wworld; eexists; intuition eauto.

  Lemma answers_app (a c : list (@wev Obs Act Rw)) : answers (a ++ c) = answers a ++ answers c.
  Proof. induction a as [|[] a IH]; cbn; auto. now rewrite IH. Qed.
  Lemma started_snoc n steps xs : started_after maxlen n (steps ++ [xs]) = feed_all (started_after maxlen n steps) 0 xs.
  Proof. unfold started_after. now rewrite fold_left_app. Qed.

  Lemma map_const {A B} (c : B) (l : list A) : map (fun _ => c) l = repeat c (length l).
  Proof. induction l; cbn; congruence. Qed.

  Lemma batch_loop_ok fuel : forall obss st tr, let ans := answers tr in
    BINV st (started_after maxlen N ans) (length ans) -> safe (started_after maxlen N ans) ->
    exists out seg, batch_loop rzero radd w b maxlen fuel obss st tr = (out, tr ++ seg) /\
      let ans' := answers (tr ++ seg) in
      (forall k, length ans < k < length ans' -> ~ used_up b (started_after maxlen N (firstn k ans'))) /\
      match out with
      | Ok rs => used_up b (started_after maxlen N ans') /\ reported ret_of b (started_after maxlen N ans') rs /\ 
          length ans < length ans' /\ last_observe N (tr ++ seg)
      | Raise e => from_wworld w e \/ (e = OutOfFuel /\ length ans' = length ans + fuel /\
          exists st', BINV st' (started_after maxlen N ans') (length ans') /\ (fuel = 0 \/ ~ used_up b (started_after maxlen N ans')))
      end.
  Proof.
    induction fuel as [|fuel IH]; intros obss st tr ans HB Hs; cbn [batch_loop].
    { exists (Raise OutOfFuel), []. rewrite app_nil_r. fold ans. split; [reflexivity|]. split; [lia|].
      right. split; [auto|]. split; [lia|]. exists st. auto. }
    unfold ebind at 1.
    destruct (call_cases (ww_act w) (WAct obss) tr) as [(acts & ->)|(e & Hraise & ->)].
    2: { exists (Raise e), []. rewrite app_nil_r. fold ans. split; [reflexivity|]. split; [lia|]. left; blame. }
    unfold ebind at 1.
    destruct (call_cases (ww_step w) (WStep acts) (tr ++ [WAct obss acts])) as [(xs & Hcall)|(e & Hraise & ->)].
    2: { exists (Raise e), [WAct obss acts]. rewrite answers_app. cbn [answers]. rewrite app_nil_r. fold ans.
         split; [reflexivity|]. split; [lia|]. left; blame. }
    assert (Hlx : length xs = N).
    { unfold call in Hcall. destruct (ww_step w (tr ++ [WAct obss acts])) as [xs'|] eqn:Ew; [|discriminate].
      injection Hcall as <- _. eauto. }
    rewrite Hcall. clear Hcall. rewrite <- app_assoc. cbn [app].
    pose proof (step_state xs HB Hs Hlx) as Hst.
    destruct (e_step_slots rzero radd maxlen (e_slots st) xs (e_next st) (e_finished st)) as [[[[slots next] fin] resets] ends].
    destruct Hst as (HB' & Hrl & Hst). destruct (e_check b (mk_estate slots next fin)) as [stop rs].
    destruct Hst as (Hst1 & Hst2 & Hst3).
    set (s1 := [WAct obss acts; WStep acts xs]).
    assert (Ha1 : answers (tr ++ s1) = ans ++ [xs]) by (rewrite answers_app; reflexivity).
    rewrite <- (started_snoc N ans xs) in *.
    assert (Hla : length (ans ++ [xs]) = S (length ans)) by (rewrite app_length; cbn; lia).
    unfold ebind at 1.
    set (ob := WObserve _ _ _ _).
    destruct (call_cases (ww_observe w) (fun _ => ob) (tr ++ s1)) as [([] & ->)|(e & Hraise & ->)].
    2: { exists (Raise e), s1. rewrite Ha1, Hla. split; [reflexivity|]. split; [lia|]. left; blame. }
    assert (Ha2 : answers ((tr ++ s1) ++ [ob]) = ans ++ [xs]) by (rewrite answers_app, Ha1; apply app_nil_r).
    destruct stop.
    - unfold ret. exists (Ok rs), (s1 ++ [ob]). rewrite app_assoc, Ha2, Hla. split; [reflexivity|]. split; [lia|].
      split; [apply Hst1; auto|]. split; [auto|]. split; [lia|].
      exists (tr ++ s1). unfold ob. rewrite map_const, Hrl. eauto.
    - unfold ebind.
      destruct (call_cases (ww_reset w) (WReset (Some (map negb ends))) ((tr ++ s1) ++ [ob])) as [(obss2 & ->)|(e & Hraise & ->)].
      2: { exists (Raise e), (s1 ++ [ob]). rewrite app_assoc, Ha2, Hla. split; [reflexivity|]. split; [lia|]. left; blame. }
      set (s2 := (s1 ++ [ob]) ++ [WReset (Some (map negb ends)) obss2]).
      assert (Ha3 : answers (tr ++ s2) = ans ++ [xs]) by (unfold s2; rewrite !app_assoc, answers_app, Ha2; apply app_nil_r).
      replace (((tr ++ s1) ++ [ob]) ++ [WReset (Some (map negb ends)) obss2]) with (tr ++ s2) by (unfold s2; now rewrite !app_assoc).
      specialize (IH obss2 (mk_estate slots next fin) (tr ++ s2)). cbv zeta in IH. rewrite Ha3, Hla in IH.
      destruct (IH HB' (Hst3 eq_refl)) as (out & seg & -> & Hk & Hout).
      exists out, (s2 ++ seg). rewrite app_assoc. split; [reflexivity|]. 
      assert (Hpre : answers ((tr ++ s2) ++ seg) = (ans ++ [xs]) ++ answers seg) by (rewrite answers_app, Ha3; auto).
      split.
      + intros k Hkk. destruct (Nat.eq_dec k (S (length ans))) as [->|Hne]; [|apply Hk; lia].
        rewrite Hpre, <- Hla, firstn_app, Nat.sub_diag, firstn_all, app_nil_r. intros Hu. apply Hst1 in Hu. discriminate.
      + destruct out as [rs'|e].
        * destruct Hout as (H1 & H2 & H3 & H4). split; [auto|]. split; [auto|]. split; [lia|auto].
        * destruct Hout as [Hout|(-> & H1 & st' & H2 & H3)]; [auto|]. right. split; [auto|]. split; [lia|].
          exists st'. split; [auto|]. right. destruct H3 as [->|H3]; [|auto].
          rewrite Nat.add_0_r in H1. 
          assert (Hnil : answers seg = []).
          { rewrite Hpre, app_length, Hla in H1. destruct (answers seg); [auto|cbn in H1; lia]. }
          rewrite Hpre, Hnil, app_nil_r. intros Hu. apply Hst1 in Hu. discriminate.
  Qed.

  Lemma init_BINV : BINV (estate0 rzero N) (started0 N) 0 /\ safe (started0 N).
  Proof.
    assert (Hnth : forall k, nth_error (started0 N : list started) k = if k <? N then Some (k, [], false) else None).
    { intros k. unfold started0. rewrite nth_error_map. destruct (Nat.ltb_spec k N).
      - rewrite (nth_error_nth' _ 0) by (rewrite seq_length; lia). cbn. rewrite seq_nth by lia. reflexivity.
      - replace (nth_error (seq 0 N) k) with (@None nat); [reflexivity|]. symmetry. apply nth_error_None. rewrite seq_length. lia. }
    assert (Hsl : forall k, nth_error (e_slots (estate0 rzero N)) k = if k <? N then Some (k, rzero, 0%Z) else None).
    { intros k. unfold estate0. cbn [e_slots]. rewrite nth_error_map. destruct (Nat.ltb_spec k N).
      - rewrite (nth_error_nth' _ 0) by (rewrite seq_length; lia). cbn. rewrite seq_nth by lia. reflexivity.
      - replace (nth_error (seq 0 N) k) with (@None nat); [reflexivity|]. symmetry. apply nth_error_None. rewrite seq_length. lia. }
    split.
    - split; [|split; [|split]].
      + split; [unfold started0; rewrite map_length, seq_length; reflexivity|]. split; [|split; [|split]].
        * intros j i r l H. rewrite Hsl in H. destruct (Nat.ltb_spec j N); [|discriminate]. injection H as <- <- <-.
          exists []. rewrite Hnth. destruct (Nat.ltb_spec j N); [|lia]. auto.
        * intros i j g H. rewrite Hnth in H. destruct (Nat.ltb_spec i N); [|discriminate]. injection H as <- <-.
          split; [|split; [reflexivity|intros q z Hq; destruct q; discriminate]].
          exists rzero, 0%Z. rewrite Hsl. destruct (Nat.ltb_spec i N); [auto|lia].
        * intros i j g H. rewrite Hnth in H. destruct (i <? N); discriminate.
        * reflexivity.
      + cbn. now rewrite map_length, seq_length.
      + intros i j g i' e H Hlt H'. rewrite Hnth in H, H'. destruct (i <? N), (i' <? N); try discriminate.
        injection H as <- <-. injection H' as <-. unfold s_env. cbn. lia.
      + intros j _. unfold started0. generalize (seq 0 N). induction l as [|k l IH]; [reflexivity|]. cbn [map]. rewrite env_steps_cons, IH.
        unfold s_steps. cbn. destruct (Nat.eqb _ _); reflexivity.
    - unfold safe. destruct b as [n|n]; auto. exists (0, [], false). rewrite Hnth. destruct (Nat.ltb_spec 0 N); [|lia].
      split; [auto|]. unfold s_steps. cbn. lia.
  Qed.

  Lemma batch_eval_ok fuel : let (out, tr) := batch_run_evaluation_episodes rzero radd w b maxlen N fuel [] in
    let eps k := started_after maxlen N (firstn k (answers tr)) in
    (forall k, 0 < k < length (answers tr) -> ~ used_up b (eps k)) /\
    match out with
    | Ok rs => used_up b (eps (length (answers tr))) /\ reported ret_of b (eps (length (answers tr))) rs /\ last_observe N tr
    | Raise e => from_wworld w e \/ (e = OutOfFuel /\ ~ (1 <= fuel /\ enough maxlen b fuel))
    end.
  Proof.
    unfold batch_run_evaluation_episodes, ebind.
    destruct (call_cases (ww_reset w) (WReset None) ([] : list (@wev Obs Act Rw))) as [(obss & ->)|(e & Hraise & ->)].
    2: { cbn. split; [lia|]. left; blame. }
    destruct init_BINV as [HB Hs]. cbn [app].
    destruct (@batch_loop_ok fuel obss (estate0 rzero N) [WReset None obss] HB Hs) as (out & seg & -> & Hk & Hout).
    cbn [answers length] in Hk, Hout. set (ans := answers ([WReset None obss] ++ seg)) in *.
    split; [exact Hk|]. rewrite firstn_all.
    destruct out as [rs|e].
    - destruct Hout as (H1 & H2 & _ & H4). auto.
    - destruct Hout as [Hout|(-> & H1 & st' & HB' & H3)]; [auto|]. right. split; [auto|]. intros [Hf Hen].
      cbn [plus] in H1. rewrite H1 in HB'. pose proof (enough_used_up HB' Hen). destruct H3 as [H3|H3]; [lia|auto].
  Qed.
End B.
