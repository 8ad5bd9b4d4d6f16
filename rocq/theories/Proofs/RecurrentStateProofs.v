From Verif Require Import Base.PyBase Model.RecurrentState Spec.RecurrentStateSpec.
Set Implicit Arguments.

Section LInd.
  Variable P : link -> Prop.
  Hypothesis HL : forall i, P (Lstm i).
  Hypothesis HC : forall i, P (Custom i).
  Hypothesis HP : P Plain.
  Hypothesis HCh : forall ls, Forall P ls -> P (Chain ls).
  Hypothesis HR : forall ls, Forall P ls -> P (RChain ls).
  Fixpoint rlink_ind (l : link) : P l :=
    let fix go (ls : list link) : Forall P ls :=
      match ls with [] => Forall_nil P | l :: ls => Forall_cons l (rlink_ind l) (go ls) end in
    match l with
    | Lstm i => HL i
    | Custom i => HC i
    | Plain => HP
    | Chain ls => HCh (go ls)
    | RChain ls => HR (go ls)
    end.
End LInd.

Section R.
Variables V W : Type.
Variable w0 : W.
Notation store := (store V W).
Notation world := (world V W).
Notation prog := (prog V W).

Lemma existsb_app2 : forall i a b, existsb (Nat.eqb i) (a ++ b) = existsb (Nat.eqb i) a || existsb (Nat.eqb i) b.
Proof. intros. apply existsb_app. Qed.

Definition set_for (l : link) : Prop := forall (m0 m : store),
  exists m', set_state m l (get_state m0 l) = Ok m' /\ restored l m0 m m'.

Lemma set_get : forall l, set_for l.
Proof.
  assert (HL : forall ls, Forall set_for ls -> forall m0 m, exists m',
    set_all (@set_state V W) m ls (map (get_state m0) ls) = Ok m' /\ restored (Chain ls) m0 m m').
  { induction ls as [|l ls IH]; intros F m0 m.
    - exists m. split; [reflexivity|]. split; intros i; reflexivity.
    - inversion F as [|? ? Fl Fls]; subst. destruct (Fl m0 m) as [m1 [E1 [A1 A2]]].
      destruct (IH Fls m0 m1) as [m2 [E2 [B1 B2]]]. exists m2. cbn. rewrite E1. cbn. split; [exact E2|].
      cbn in B1, B2. split; intros i; cbn; rewrite existsb_app2.
      + rewrite B1, A1. destruct (existsb _ (lstm_ids l)), (existsb _ (flat_map lstm_ids ls)); cbn; try reflexivity.
        destruct (lstms m0 i); reflexivity.
      + rewrite B2, A2. destruct (existsb _ (custom_ids l)), (existsb _ (flat_map custom_ids ls)); reflexivity. }
  apply rlink_ind.
  - intros i m0 m. cbn. destruct (lstms m0 i) as [v|] eqn:E.
    + eexists; split; [reflexivity|]. split; intros j; cbn; rewrite ?orb_false_r; [|reflexivity].
      destruct (j =? i) eqn:Ej; [|reflexivity]. apply Nat.eqb_eq in Ej. subst. rewrite E. reflexivity.
    + exists m. split; [reflexivity|]. split; intros j; cbn; rewrite ?orb_false_r; [|reflexivity].
      destruct (j =? i) eqn:Ej; [|reflexivity]. apply Nat.eqb_eq in Ej. subst. rewrite E. reflexivity.
  - intros i m0 m. cbn. eexists; split; [reflexivity|]. split; intros j; cbn; rewrite ?orb_false_r; [reflexivity|].
    destruct (j =? i) eqn:Ej; [|reflexivity]. apply Nat.eqb_eq in Ej. subst. reflexivity.
  - intros m0 m. exists m. split; [reflexivity|]. split; intros j; reflexivity.
  - exact HL.
  - exact HL.
Qed.

Lemma reset_ok : forall l (m : store), reset_of w0 l m (reset_state w0 m l).
Proof.
  assert (HL : forall ls, Forall (fun l => forall m : store, reset_of w0 l m (reset_state w0 m l)) ls ->
    forall m : store, reset_of w0 (Chain ls) m (fold_left (reset_state w0) ls m)).
  { induction ls as [|l ls IH]; intros F m.
    - split; intros i; reflexivity.
    - inversion F as [|? ? Fl Fls]; subst. destruct (Fl m) as [A1 A2]. destruct (IH Fls (reset_state w0 m l)) as [B1 B2].
      cbn in B1, B2. split; intros i; cbn; rewrite existsb_app2.
      + rewrite B1, A1. destruct (existsb _ (lstm_ids l)), (existsb _ (flat_map lstm_ids ls)); reflexivity.
      + rewrite B2, A2. destruct (existsb _ (custom_ids l)), (existsb _ (flat_map custom_ids ls)); reflexivity. }
  induction l as [i|i| |ls IH|ls IH] using rlink_ind; intros m.
  - split; intros j; cbn; rewrite ?orb_false_r; reflexivity.
  - split; intros j; cbn; rewrite ?orb_false_r; reflexivity.
  - split; intros j; reflexivity.
  - apply HL; exact IH.
  - apply HL; exact IH.
Qed.

Lemma restored_warm : forall l (m0 m m' : store), restored l m0 m m' -> warm m0 l -> get_state m' l = get_state m0 l.
Proof.
  intros l m0 m m' [R1 R2] Hw.
  assert (H1 : forall i, In i (lstm_ids l) -> lstms m' i = lstms m0 i).
  { intros i Hi. rewrite R1. replace (existsb (Nat.eqb i) (lstm_ids l)) with true
      by (symmetry; apply existsb_exists; exists i; split; [exact Hi | apply Nat.eqb_refl]).
    specialize (Hw i Hi). destruct (lstms m0 i); [reflexivity | congruence]. }
  assert (H2 : forall i, In i (custom_ids l) -> customs m' i = customs m0 i).
  { intros i Hi. rewrite R2. replace (existsb (Nat.eqb i) (custom_ids l)) with true
      by (symmetry; apply existsb_exists; exists i; split; [exact Hi | apply Nat.eqb_refl]). reflexivity. }
  clear Hw R1 R2 m. revert H1 H2.
  assert (HL : forall ls, Forall (fun l => (forall i, In i (lstm_ids l) -> lstms m' i = lstms m0 i) ->
       (forall i, In i (custom_ids l) -> customs m' i = customs m0 i) -> get_state m' l = get_state m0 l) ls ->
     (forall i, In i (flat_map lstm_ids ls) -> lstms m' i = lstms m0 i) ->
     (forall i, In i (flat_map custom_ids ls) -> customs m' i = customs m0 i) ->
     SList (map (get_state m') ls) = SList (map (get_state m0) ls)).
  { intros ls F H1 H2. f_equal. apply map_ext_in. intros l0 Hl. rewrite Forall_forall in F. apply (F l0 Hl).
    - intros i Hi. apply H1. apply in_flat_map. eauto.
    - intros i Hi. apply H2. apply in_flat_map. eauto. }
  induction l as [i|i| |ls IH|ls IH] using rlink_ind; intros H1 H2; cbn in *.
  - f_equal. apply H1. auto.
  - f_equal. apply H2. auto.
  - reflexivity.
  - apply HL; assumption.
  - apply HL; assumption.
Qed.

(** The stack is balanced, and the outcome does not depend on it. *)
Lemma exec_stack : forall (p : prog) (w : world), try_free p ->
  fst (exec w0 p w) = Ok tt -> stack (snd (exec w0 p w)) = stack w.
Proof.
  induction p as [f|e|p IHp q IHq|p IHp q IHq|l p IHp|l p IHp]; intros w T E; cbn in *; try contradiction; try reflexivity.
  - destruct T as [T1 T2]. specialize (IHp w T1). destruct (exec w0 p w) as [[[]|e] w1]; cbn in *; [|discriminate].
    rewrite (IHq w1 T2 E). apply IHp. reflexivity.
  - destruct (is_recurrent l); [|apply IHp; assumption]. specialize (IHp (push_and_keep w l) T).
    destruct (exec w0 p (push_and_keep w l)) as [[[]|e] w1]; cbn in *; [|discriminate].
    specialize (IHp eq_refl). unfold pop in *. rewrite IHp in *. cbn [stack push_and_keep] in *.
    destruct (set_state (mem w1) l (get_state (mem w) l)); [reflexivity | discriminate].
  - destruct (is_recurrent l); [|apply IHp; assumption]. specialize (IHp (push w0 w l) T).
    destruct (exec w0 p (push w0 w l)) as [[[]|e] w1]; cbn in *; [|discriminate].
    specialize (IHp eq_refl). unfold pop in *. rewrite IHp in *. cbn [stack push] in *.
    destruct (set_state (mem w1) l (get_state (mem w) l)); [reflexivity | discriminate].
Qed.

Lemma exec_indep : forall (p : prog) (w1 w2 : world), try_free p -> mem w1 = mem w2 ->
  fst (exec w0 p w1) = fst (exec w0 p w2) /\ mem (snd (exec w0 p w1)) = mem (snd (exec w0 p w2)).
Proof.
  induction p as [f|e|p IHp q IHq|p IHp q IHq|l p IHp|l p IHp]; intros w1 w2 T E; cbn in *; try contradiction.
  - rewrite E. auto.
  - auto.
  - destruct T as [T1 T2]. destruct (IHp w1 w2 T1 E) as [E1 E2].
    destruct (exec w0 p w1) as [[[]|e1] v1], (exec w0 p w2) as [[[]|e2] v2]; cbn in *; try discriminate; auto.
  - destruct (is_recurrent l); [|apply IHp; assumption].
    destruct (IHp (push_and_keep w1 l) (push_and_keep w2 l) T E) as [E1 E2].
    pose proof (exec_stack p (push_and_keep w1 l) T) as K1. pose proof (exec_stack p (push_and_keep w2 l) T) as K2.
    destruct (exec w0 p (push_and_keep w1 l)) as [[[]|e1] v1], (exec w0 p (push_and_keep w2 l)) as [[[]|e2] v2]; cbn in *; try discriminate; auto.
    specialize (K1 eq_refl). specialize (K2 eq_refl). unfold pop. rewrite K1, K2. rewrite E, E2.
    destruct (set_state (mem v2) l (get_state (mem w2) l)); cbn; auto.
  - destruct (is_recurrent l); [|apply IHp; assumption].
    destruct (IHp (push w0 w1 l) (push w0 w2 l) T) as [E1 E2]; [cbn; rewrite E; reflexivity|].
    pose proof (exec_stack p (push w0 w1 l) T) as K1. pose proof (exec_stack p (push w0 w2 l) T) as K2.
    destruct (exec w0 p (push w0 w1 l)) as [[[]|e1] v1], (exec w0 p (push w0 w2 l)) as [[[]|e2] v2]; cbn in *; try discriminate; auto.
    specialize (K1 eq_refl). specialize (K2 eq_refl). unfold pop. rewrite K1, K2. rewrite E, E2.
    destruct (set_state (mem v2) l (get_state (mem w2) l)); cbn; auto.
Qed.

Lemma pop_restores : forall l (w : world) m0 stk, stack w = get_state m0 l :: stk ->
  exists w', pop w l = (Ok tt, w') /\ stack w' = stk /\ restored l m0 (mem w) (mem w').
Proof.
  intros l w m0 stk E. unfold pop. rewrite E. destruct (set_get l m0 (mem w)) as [m' [E1 R]]. rewrite E1.
  eexists; split; [reflexivity|]. auto.
Qed.

Lemma kept_ok : forall l (p : prog) w wb, is_recurrent l = true -> try_free p -> exec w0 p w = (Ok tt, wb) ->
  exists w', exec w0 (WithKept l p) w = (Ok tt, w') /\ stack w' = stack w /\ restored l (mem w) (mem wb) (mem w').
Proof.
  intros l p w wb Hr T E. cbn. rewrite Hr.
  destruct (exec_indep p (push_and_keep w l) w T eq_refl) as [E1 E2].
  pose proof (exec_stack p (push_and_keep w l) T) as K.
  destruct (exec w0 p (push_and_keep w l)) as [r v]. cbn in E1, E2, K. rewrite E in E1, E2. cbn in E1, E2. subst r.
  specialize (K eq_refl). destruct (pop_restores _ _ _ K) as [w' [P1 [P2 P3]]].
  exists w'. split; [exact P1|]. split; [exact P2|]. rewrite <- E2. exact P3.
Qed.

Lemma reset_ctx_ok : forall l (p : prog) w wb, is_recurrent l = true -> try_free p ->
  exec w0 p {| mem := reset_state w0 (mem w) l; stack := stack w |} = (Ok tt, wb) ->
  exists w', exec w0 (WithReset l p) w = (Ok tt, w') /\ stack w' = stack w /\ restored l (mem w) (mem wb) (mem w').
Proof.
  intros l p w wb Hr T E. cbn. rewrite Hr.
  destruct (exec_indep p (push w0 w l) {| mem := reset_state w0 (mem w) l; stack := stack w |} T eq_refl) as [E1 E2].
  pose proof (exec_stack p (push w0 w l) T) as K.
  destruct (exec w0 p (push w0 w l)) as [r v]. cbn in E1, E2, K. rewrite E in E1, E2. cbn in E1, E2. subst r.
  specialize (K eq_refl). destruct (pop_restores _ _ _ K) as [w' [P1 [P2 P3]]].
  exists w'. split; [exact P1|]. split; [exact P2|]. rewrite <- E2. exact P3.
Qed.

Lemma reset_ctx_full : forall l (p : prog) (w : world), is_recurrent l = true -> try_free p ->
  exists m, reset_of w0 l (mem w) m /\
  forall wb, exec w0 p {| mem := m; stack := stack w |} = (Ok tt, wb) ->
  exists w', exec w0 (WithReset l p) w = (Ok tt, w') /\ stack w' = stack w /\ restored l (mem w) (mem wb) (mem w').
Proof.
  intros l p w Hr T. exists (reset_state w0 (mem w) l). split; [apply reset_ok|].
  intros wb E. eapply reset_ctx_ok; eauto.
Qed.

Lemma kept_warm : forall l (p : prog) w wb, is_recurrent l = true -> try_free p -> warm (mem w) l ->
  exec w0 p w = (Ok tt, wb) ->
  exists w', exec w0 (WithKept l p) w = (Ok tt, w') /\ get_state (mem w') l = get_state (mem w) l.
Proof.
  intros l p w wb Hr T Hw E. destruct (kept_ok _ _ _ Hr T E) as [w' [E1 [_ R]]]. exists w'. split; [exact E1|].
  eapply restored_warm; eauto.
Qed.
Lemma reset_warm : forall l (p : prog) (w : world), is_recurrent l = true -> try_free p -> warm (mem w) l ->
  exists m, reset_of w0 l (mem w) m /\
  forall wb, exec w0 p {| mem := m; stack := stack w |} = (Ok tt, wb) ->
  exists w', exec w0 (WithReset l p) w = (Ok tt, w') /\ get_state (mem w') l = get_state (mem w) l.
Proof.
  intros l p w Hr T Hw. destruct (reset_ctx_full l p w Hr T) as [m [R1 H]]. exists m. split; [exact R1|].
  intros wb E. destruct (H wb E) as [w' [E1 [_ R]]]. exists w'. split; [exact E1|].
  eapply restored_warm; eauto.
Qed.

(** An exception of the body comes out unchanged. *)
Lemma kept_raises : forall l (p : prog) w e w', try_free p -> exec w0 p w = (Raise e, w') ->
  exists w'', exec w0 (WithKept l p) w = (Raise e, w'') /\ mem w'' = mem w'.
Proof.
  intros l p w e w' T E. cbn. destruct (is_recurrent l); [|eauto].
  destruct (exec_indep p (push_and_keep w l) w T eq_refl) as [E1 E2].
  destruct (exec w0 p (push_and_keep w l)) as [r v]. rewrite E in E1, E2. cbn in E1, E2. subst r. eauto.
Qed.
End R.
