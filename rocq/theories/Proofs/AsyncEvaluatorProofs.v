From Coq Require Import QArith Qround Lqa Permutation.
From Verif Require Import Base.PyBase Base.ListFacts Model.AsyncEvaluator Spec.EvaluatorSpec Spec.AsyncEvalSpec Proofs.TrainAsyncProofs.
Local Open Scope nat_scope.

Definition nstarts (l : list vlog) : nat := length (filter (fun e => match e with LStart _ _ => true | _ => false end) l).
Lemma nstarts_app a b : nstarts (a ++ b) = nstarts a + nstarts b.
Proof. unfold nstarts. now rewrite filter_app, app_length. Qed.
Lemma log_records_app a b : log_records (a ++ b) = log_records a ++ log_records b.
Proof. induction a as [|[] a IH]; cbn; auto. now rewrite IH. Qed.
Lemma recorded_app a b : scores_recorded (a ++ b) = scores_recorded a ++ scores_recorded b.
Proof. induction a as [|[] a IH]; cbn; auto. now rewrite IH. Qed.
Lemma counted_app a b : scores_counted (a ++ b) = scores_counted a ++ scores_counted b.
Proof. induction a as [|[] a IH]; cbn; auto. now rewrite IH. Qed.
Lemma on_time_app base k n a b : on_time base k n a -> on_time base k (n + nstarts a) b -> on_time base k n (a ++ b).
Proof.
  induction 1; cbn [app]; intros Hb.
  - cbn in Hb. now rewrite Nat.add_0_r in Hb.
  - apply ot_start; auto. apply IHon_time. replace (S n + nstarts l) with (n + nstarts (LStart i t :: l)); [auto|]. unfold nstarts. cbn. lia.
  - apply ot_skip; auto.
  - apply ot_other; auto. apply IHon_time. destruct e; auto. destruct (H i t). congruence.
Qed.

Section V.
  Variable rnd : Q -> Q.
  Variable interval : Z.
  Variable sb : bool.
  Variable m0 : Q.
  Variable offset : Z.
  Notation base := (offset - offset mod interval)%Z.
  Hypothesis rnd_mono : forall x y, (x <= y)%Q -> (rnd x <= rnd y)%Q.
  Hypothesis rnd_idem : forall x, (rnd (rnd x) == rnd x)%Q.
  Hypothesis rnd_m0 : (rnd m0 == m0)%Q.

  Definition busy (pc : vpc) : bool := match pc with VPerf _ _ | VRec _ _ _ | VMax _ _ => true | _ => false end.
  Definition pend (pc : vpc) : list Q := match pc with VMax _ m => [m] | _ => [] end.

  Record VINV (s : vstate) : Prop := mk_VINV {
    v_prev : vs_prev s = (base + Z.of_nat (nstarts (vs_log s)) * interval)%Z;
    v_time : on_time base interval 0 (vs_log s);
    v_lock : forall i t ep, nth_error (vs_procs s) i = Some (VFlag t ep) -> vs_lock s = Some i /\ vs_flag s = false;
    v_unlock : vs_lock s <> None -> vs_flag s = false;
    v_busy : vs_flag s = false -> forall pc, In pc (vs_procs s) -> busy pc = false;
    v_file : if vs_flag s then vs_file s = FHeader :: log_records (vs_log s)
             else (vs_file s = [] \/ vs_file s = [FHeader]) /\ log_records (vs_log s) = [];
    v_header : vs_lock s <> None -> vs_file s = [FHeader];
    v_max : is_max m0 (map rnd (scores_counted (vs_log s))) (vs_max s);
    v_fix : (rnd (vs_max s) == vs_max s)%Q;
    v_best : if sb then rrecords rnd m0 (scores_counted (vs_log s)) (vs_best s) else vs_best s = [];
    v_perm : no_failure (vs_log s) -> Permutation (scores_recorded (vs_log s)) (scores_counted (vs_log s) ++ flat_map pend (vs_procs s)) }.

  Lemma flat_upd l : forall i pc pc', nth_error l i = Some pc ->
    Permutation (pend pc ++ flat_map pend (upd l i pc')) (pend pc' ++ flat_map pend l).
  Proof.
    induction l as [|a l IH]; intros [|i] pc pc' H; cbn in *; try discriminate.
    - injection H as ->. rewrite !app_assoc. apply Permutation_app_tail. apply Permutation_app_comm.
    - specialize (IH i pc pc' H). rewrite (Permutation_app_comm (pend a)), app_assoc, IH, <- app_assoc.
      apply Permutation_app_head. apply Permutation_app_comm.
  Qed.

  Lemma init_VINV n : VINV (vinit interval m0 offset n).
  Proof.
    constructor; cbn; auto.
    - rewrite Z.add_0_r. reflexivity.
    - constructor.
    - intros i t ep H. apply nth_error_In, repeat_spec in H. discriminate.
    - intros _ pc H. apply repeat_spec in H. subst. auto.
    - intros H. congruence.
    - split; [left; auto|]. intros x [<-|[]]. apply Qle_refl.
    - destruct sb; constructor.
    - intros _. replace (flat_map pend (repeat VIdle n)) with (@nil Q); [constructor|]. induction n; auto.
  Qed.

  (** Changing only the program counter and the log. *)
  Lemma no_failure_app a b : no_failure (a ++ b) -> no_failure a.
  Proof. intros H i Hi. apply (H i). apply in_or_app. auto. Qed.

  Lemma step_VINV s x s' : VINV s -> vstep rnd interval sb s x = Some s' -> VINV s'.
  Proof.
    intros [I1 I2 I3 I4 I5 I6 I7 I8 I9 I10 I11] H. destruct x as [i ch]. unfold vstep in H.
    destruct (nth_error (vs_procs s) i) as [pc|] eqn:Epc; [|discriminate].
    pose proof (nth_error_In _ _ Epc) as Hin.
    assert (Hflag : forall pc', (forall t ep, pc' <> VFlag t ep) -> forall lk fl, lk = vs_lock s -> fl = vs_flag s ->
       forall j t ep, nth_error (upd (vs_procs s) i pc') j = Some (VFlag t ep) -> lk = Some j /\ fl = false).
    { intros pc' Hpc' lk fl -> -> j t ep Hj. rewrite upd_nth in Hj. destruct (Nat.eqb i j) eqn:E.
      - destruct (nth_error (vs_procs s) j); [|discriminate]. injection Hj as Hj. exfalso. eapply Hpc'; eauto.
      - eapply I3; eauto. }
    assert (Hbusy : forall pc', busy pc' = false -> vs_flag s = false -> forall q, In q (upd (vs_procs s) i pc') -> busy q = false).
    { intros pc' Hb Hf q Hq. apply in_upd in Hq as [->|Hq]; auto. }
    assert (Hbusy' : busy pc = true -> vs_flag s = true).
    { intros Hb. destruct (vs_flag s) eqn:Ef; auto. rewrite (I5 eq_refl pc Hin) in Hb. discriminate. }
    assert (Hlocked : forall t ep, pc = VFlag t ep -> vs_lock s = Some i /\ vs_flag s = false).
    { intros t ep ->. eapply I3; eauto. }
    pose proof (fun pc' => flat_upd (vs_procs s) i pc pc' Epc) as Hperm.
    assert (Hp0 : forall pc' es, pend pc = [] -> pend pc' = [] -> scores_recorded es = [] -> scores_counted es = [] ->
       no_failure (vs_log s ++ es) -> Permutation (scores_recorded (vs_log s ++ es)) (scores_counted (vs_log s ++ es) ++ flat_map pend (upd (vs_procs s) i pc'))).
    { intros pc' es E1 E2 E3 E4 Hnf. rewrite recorded_app, counted_app, E3, E4, !app_nil_r. specialize (Hperm pc'). rewrite E1, E2 in Hperm. cbn [app] in Hperm.
      rewrite Hperm. apply I11. eapply no_failure_app; eauto. }
    assert (Hexc : ch = CExc -> pc <> VIdle -> (forall t ep, pc <> VFlag t ep) -> VINV (vset i VIdle [LFail i] s)).
    { intros -> Hne Hnf. constructor; cbn [vset vs_prev vs_flag vs_lock vs_file vs_max vs_best vs_procs vs_log]; auto;
        rewrite ?nstarts_app, ?log_records_app, ?counted_app, ?app_nil_r; cbn [nstarts log_records scores_counted filter length app];
        rewrite ?Nat.add_0_r, ?app_nil_r; auto.
      - apply on_time_app; auto. apply ot_other; [intros; split; discriminate|constructor].
      - eapply Hflag; eauto. discriminate.
      - intros Hf. apply Hbusy; auto.
      - intros Hno. exfalso. apply (Hno i). apply in_or_app. cbn. auto. }
    assert (Hp1 : forall pc', pend pc = [] -> pend pc' = [] -> no_failure (vs_log s) ->
       Permutation (scores_recorded (vs_log s)) (scores_counted (vs_log s) ++ flat_map pend (upd (vs_procs s) i pc'))).
    { intros pc' E1 E2. pose proof (Hp0 pc' [] E1 E2 eq_refl eq_refl) as Hp. rewrite app_nil_r in Hp. exact Hp. }
    assert (Hp2 : forall pc' e, pend pc = [] -> pend pc' = [] -> scores_recorded [e] = [] -> scores_counted [e] = [] -> no_failure (vs_log s ++ [e]) ->
       Permutation (scores_recorded (vs_log s ++ [e])) (scores_counted (vs_log s) ++ flat_map pend (upd (vs_procs s) i pc'))).
    { intros pc' e E1 E2 E3 E4 Hf. pose proof (Hp0 pc' [e] E1 E2 E3 E4 Hf) as Hp. rewrite counted_app, E4, app_nil_r in Hp. exact Hp. }
    assert (Hother : forall e, (forall i t, e <> LStart i t /\ e <> LSkip i t) -> on_time base interval 0 (vs_log s ++ [e])).
    { intros e He. apply on_time_app; auto. apply ot_other; [auto|constructor]. }
    Ltac vs Hf Hb Hp1 Hp2 Ho := cbn [vset vs_prev vs_flag vs_lock vs_file vs_max vs_best vs_procs vs_log];
        rewrite ?nstarts_app, ?log_records_app, ?counted_app, ?app_nil_r;
        change (nstarts []) with 0 in *; cbn [log_records scores_counted app];
        rewrite ?Nat.add_0_r, ?app_nil_r; auto; try discriminate;
           try (solve [eapply Hf; eauto; discriminate]);
           try (solve [apply Hb; auto]);
           try (solve [apply Hp1; auto]);
           try (solve [apply Hp2; auto]);
           try (solve [apply Ho; intros; split; discriminate]).
    destruct pc; destruct ch; try discriminate; try (injection H as <-; apply Hexc; auto; discriminate).
    - (* a call *) injection H as <-. constructor; vs Hflag Hbusy Hp1 Hp2 Hother.
    - (* check *) destruct (vs_prev s + interval <=? t)%Z eqn:E; injection H as <-; constructor; vs Hflag Hbusy Hp1 Hp2 Hother.
      + change (nstarts [LStart i t]) with 1. rewrite I1. lia.
      + apply on_time_app; auto. constructor; [cbn [plus]; lia|constructor].
      + apply on_time_app; auto. apply ot_skip; [cbn [plus]; lia|constructor].
    - (* header *) unfold free in H. destruct (vs_lock s) as [j|] eqn:El; [discriminate|]. destruct (vs_flag s) eqn:Ef; injection H as <-; constructor; vs Hflag Hbusy Hp1 Hp2 Hother; rewrite ?El, ?Ef; auto; try discriminate.
      + intros j t' ep' Hj. rewrite upd_nth in Hj. destruct (Nat.eqb i j) eqn:E; [apply Nat.eqb_eq in E; subst; auto|].
        apply I3 in Hj. destruct Hj. discriminate.
      + destruct I6 as [_ I6]. split; auto.
    - (* flag *) injection H as <-. destruct (Hlocked t ep eq_refl) as [El Ef]. rewrite Ef in *. constructor; vs Hflag Hbusy Hp1 Hp2 Hother.
      + intros j t' ep' Hj. rewrite upd_nth in Hj. destruct (Nat.eqb i j) eqn:E.
        * destruct (nth_error (vs_procs s) j); discriminate.
        * apply I3 in Hj. rewrite El in Hj. destruct Hj as [[= <-] _]. rewrite Nat.eqb_refl in E. discriminate.
      + congruence.
      + destruct I6 as [_ ->]. apply I7. congruence.
    - (* failure with the lock *) injection H as <-. destruct (Hlocked t ep eq_refl) as [El Ef]. rewrite Ef in *. constructor; vs Hflag Hbusy Hp1 Hp2 Hother.
      + intros j t' ep' Hj. rewrite upd_nth in Hj. destruct (Nat.eqb i j) eqn:E.
        * destruct (nth_error (vs_procs s) j); discriminate.
        * apply I3 in Hj. rewrite El in Hj. destruct Hj as [[= <-] _]. rewrite Nat.eqb_refl in E. discriminate.
    - (* score *) injection H as <-. specialize (Hbusy' eq_refl). rewrite Hbusy' in *. constructor; vs Hflag Hbusy Hp1 Hp2 Hother; rewrite ?Hbusy'; auto; try discriminate.
    - (* record *) injection H as <-. specialize (Hbusy' eq_refl). rewrite Hbusy' in *. constructor; vs Hflag Hbusy Hp1 Hp2 Hother; rewrite ?Hbusy'; auto; try discriminate.
      + rewrite I6. reflexivity.
      + intros Hl. specialize (I4 Hl). congruence.
      + intros Hf. rewrite recorded_app. cbn [scores_recorded]. apply no_failure_app in Hf. specialize (Hperm (VMax t m)). cbn [pend app] in Hperm.
        rewrite Hperm, (I11 Hf). rewrite <- app_assoc. apply Permutation_app_head. apply Permutation_app_comm.
    - (* update *) injection H as <-. specialize (Hbusy' eq_refl). rewrite Hbusy' in *.
      assert (Hpm : no_failure (vs_log s ++ [LUpdate i m]) -> Permutation (scores_recorded (vs_log s ++ [LUpdate i m]))
                (scores_counted (vs_log s ++ [LUpdate i m]) ++ flat_map pend (upd (vs_procs s) i VIdle))).
      { intros Hf. rewrite recorded_app, counted_app. cbn [scores_recorded scores_counted]. rewrite app_nil_r. apply no_failure_app in Hf.
        specialize (Hperm VIdle). cbn [pend app] in Hperm. rewrite (I11 Hf), <- app_assoc. apply Permutation_app_head. symmetry. exact Hperm. }
      destruct I8 as [Hmin Hmax].
      destruct (Qle_bool m (vs_max s)) eqn:Em; cbn [negb]; constructor; vs Hflag Hbusy Hp1 Hp2 Hother; rewrite ?Hbusy'; auto; try discriminate.
      + apply Qle_bool_iff in Em. split.
        * rewrite map_app. destruct Hmin as [Hmin|Hmin]; [left; auto|right; apply in_or_app; auto].
        * intros x Hx. rewrite map_app in Hx. change (m0 :: ?a ++ ?b) with ((m0 :: a) ++ b) in Hx. apply in_app_or in Hx as [Hx|[<-|[]]]; [auto|].
          rewrite <- I9. apply rnd_mono. auto.
      + destruct sb; auto. apply rr_old; auto. exists (vs_max s). split; [auto|]. now apply Qle_bool_iff.
      + rewrite counted_app in Hpm. auto.
      + assert (Hlt : (vs_max s < m)%Q) by (apply Qnot_le_lt; intros Hle; apply Qle_bool_iff in Hle; congruence). split.
        * rewrite map_app. right. apply in_or_app. cbn. auto.
        * intros x Hx. rewrite map_app in Hx. change (m0 :: ?a ++ ?b) with ((m0 :: a) ++ b) in Hx. apply in_app_or in Hx as [Hx|[<-|[]]]; [|apply Qle_refl].
          apply Qle_trans with (vs_max s); [auto|]. rewrite <- I9. apply rnd_mono. now apply Qlt_le_weak.
      + destruct sb; auto. apply rr_new; auto. intros y Hy. apply Qle_lt_trans with (vs_max s); [auto|].
        apply Qnot_le_lt; intros Hle; apply Qle_bool_iff in Hle; congruence.
      + rewrite counted_app in Hpm. auto.
  Qed.

  Lemma run_VINV l : forall s s', VINV s -> vrun rnd interval sb s l = Some s' -> VINV s'.
  Proof.
    induction l as [|x l IH]; cbn; intros s s' HI H; [congruence|].
    destruct (vstep rnd interval sb s x) as [s1|] eqn:E; [|discriminate]. eapply IH; [|eauto]. eapply step_VINV; eauto.
  Qed.

  Lemma async_eval_ok n l s : vrun rnd interval sb (vinit interval m0 offset n) l = Some s ->
    on_time base interval 0 (vs_log s) /\
    (vs_file s = [] /\ log_records (vs_log s) = [] \/ vs_file s = FHeader :: log_records (vs_log s)) /\
    is_max m0 (map rnd (scores_counted (vs_log s))) (vs_max s) /\
    (if sb then rrecords rnd m0 (scores_counted (vs_log s)) (vs_best s) else vs_best s = []) /\
    (no_failure (vs_log s) -> all_idle s -> Permutation (scores_recorded (vs_log s)) (scores_counted (vs_log s))).
  Proof.
    intros H. apply run_VINV in H; [|apply init_VINV]. destruct H as [I1 I2 I3 I4 I5 I6 I7 I8 I9 I10 I11].
    split; [auto|]. split. { destruct (vs_flag s); [auto|]. destruct I6 as [[E|E] ->]; rewrite E; auto. }
    split; [auto|]. split; [auto|]. intros Hf Hid. rewrite (I11 Hf).
    replace (flat_map pend (vs_procs s)) with (@nil Q); [now rewrite app_nil_r|].
    unfold all_idle in Hid. clear - Hid. induction (vs_procs s) as [|a r IH]; auto. cbn. rewrite (Hid a (or_introl eq_refl)), <- IH; auto.
    intros. apply Hid. cbn; auto.
  Qed.
End V.

Lemma round24_mono x y : (x <= y)%Q -> (round24 x <= round24 y)%Q.
Proof.
  intros H. unfold round24. apply Qmult_le_compat_r; [|vm_compute; discriminate]. rewrite <- Zle_Qle. apply Qfloor_resp_le.
  apply Qplus_le_compat; [|apply Qle_refl]. apply Qmult_le_compat_r; [auto|vm_compute; discriminate].
Qed.
Lemma round24_idem x : (round24 (round24 x) == round24 x)%Q.
Proof.
  unfold round24 at 1. unfold round24 at 1. set (k := Qfloor (x * inject_Z (2 ^ 24) + (1 # 2))).
  assert (E : Qfloor (inject_Z k / inject_Z (2 ^ 24) * inject_Z (2 ^ 24) + (1 # 2)) = k).
  { assert (Hs : (inject_Z k / inject_Z (2 ^ 24) * inject_Z (2 ^ 24) == inject_Z k)%Q) by (field; vm_compute; discriminate).
    rewrite Hs. pose proof (Qfloor_le (inject_Z k + (1 # 2))) as H1. pose proof (Qlt_floor (inject_Z k + (1 # 2))) as H2.
    set (f := Qfloor (inject_Z k + (1 # 2))) in *.
    assert (f < k + 1)%Z. { rewrite Zlt_Qlt, inject_Z_plus. change (inject_Z 1) with 1%Q. lra. }
    assert (k < f + 1)%Z. { rewrite Zlt_Qlt. lra. }
    lia. }
  rewrite E. fold k. reflexivity.
Qed.
