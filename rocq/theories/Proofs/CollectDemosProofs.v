From Verif Require Import Base.PyBase Base.Effects Model.TrainAgent Model.Evaluator Model.CollectDemos Spec.EvalEpisodesSpec Spec.DemoSpec Proofs.TrainAgentProofs.
Set Implicit Arguments.
Local Open Scope nat_scope.

Section D.
  Context {Obs Act Rw : Type}.
  Variable w : @dworld Obs Act Rw.
  Variable b : budget.
  Variable maxlen : option Z.


  Notation dev := (@dev Obs Act Rw).
  Notation demo := (@demo Obs Act Rw).
  Notation dphase := (@dphase Obs Act Rw).
  Notation dpath := (@DemoSpec.dpath Obs Act Rw (demo_limit maxlen)).
  Notation dpstep := (@DemoSpec.dpstep Obs Act Rw (demo_limit maxlen)).
  Notation running := (@d_running Obs Act Rw (demo_limit maxlen)).
  Notation complete := (@d_complete Obs Act Rw (demo_limit maxlen)).
  Notation ends_at := (@d_ends_at Obs Act Rw (demo_limit maxlen)).

  Lemma dpath_app p l p' l' p'' : dpath p l p' -> dpath p' l' p'' -> dpath p (l ++ l') p''.
  Proof. induction 1; cbn; auto. intros. econstructor; eauto. Qed.
  Lemma d_episodes_app (tr seg : list dev) : d_episodes (tr ++ seg) = fold_left d_add_event seg (d_episodes tr).
  Proof. unfold d_episodes. apply fold_left_app. Qed.
  Lemma d_add_last_snoc (gs : list (list demo)) g x : d_add_last (gs ++ [g]) x = gs ++ [g ++ [x]].
  Proof. unfold d_add_last. rewrite removelast_last, last_last. reflexivity. Qed.
  Lemma dataset_app (a c : list dev) : dataset (a ++ c) = dataset a ++ dataset c.
  Proof. induction a as [|[] a IH]; cbn; auto. now rewrite IH. Qed.

  Lemma d_ends_spec o a r o' d n len : d || eqb_opt (Z.of_nat len) maxlen || n = true <-> ends_at (S len) (o, a, r, o', d, n).
  Proof.
    unfold d_ends_at, eqb_opt, demo_limit, dm_done, dm_needs. cbn [fst snd]. rewrite !orb_true_iff. destruct maxlen as [m|]; cbn [option_map].
    - rewrite Z.eqb_eq. split.
      + intros [[H|H]|H]; auto. right; right. f_equal. lia.
      + intros [H|[H|H]]; auto. injection H as H. left; right. lia.
    - intuition discriminate.
  Qed.

  Lemma d_running_snoc (g : list demo) x : running g -> ~ ends_at (S (length g)) x -> running (g ++ [x]).
  Proof.
    intros Hg Hx i y Hi. destruct (Nat.lt_ge_cases i (length g)) as [Hl|Hl].
    - rewrite nth_error_app1 in Hi by auto. eauto.
    - rewrite nth_error_app2 in Hi by auto. destruct (i - length g) as [|k] eqn:Ek; cbn in Hi.
      + injection Hi as <-. replace i with (length g) by lia. auto.
      + destruct k; discriminate.
  Qed.

  Ltac blame := unfold from_dworld; eexists; intuition eauto.

  Definition d_inv (cur : option (Obs * Z)) (timestep num : Z) (tr : list dev) (p : dphase) : Prop :=
    dataset tr = concat (d_episodes tr) /\ timestep = Z.of_nat (length (dataset tr)) /\
    exists gs, Forall complete gs /\ num = Z.of_nat (length gs) /\
    match cur with
    | None => d_episodes tr = gs /\ p = RReset
    | Some (o, len) => exists g, d_episodes tr = gs ++ [g] /\ running g /\ len = Z.of_nat (length g) /\
        (p = RAct o (length g) \/ p = RSeen o (length g) false)
    end.

  Definition d_post (fuel : nat) (tr : list dev) (p : dphase) (out : res unit) (seg : list dev) : Prop :=
    exists p', dpath p seg p' /\
    match out with
    | Ok _ => (exists seg0, seg = seg0 ++ [DStop]) /\
        exists gs part, d_episodes (tr ++ seg) = gs ++ part /\ Forall complete gs /\
          dataset (tr ++ seg) = concat (gs ++ part) /\
          match b with
          | ForSteps n => Z.of_nat (length (dataset (tr ++ seg))) = n
          | ForEpisodes n => Z.of_nat (length gs) = n /\ part = []
          end /\
          (part = [] \/ exists g, part = [g] /\ g <> [] /\ running g)
    | Raise e => from_dworld w e \/ (e = OutOfFuel /\
        (exists cur ts num p'', d_inv cur ts num (tr ++ seg) p'' /\ d_terminate b ts num = false) /\
        length (dataset (tr ++ seg)) = length (dataset tr) + fuel)
    end.

  Lemma d_loop_runs fuel : forall cur timestep num tr p,
    d_inv cur timestep num tr p -> d_terminate b timestep num = false ->
    exists out seg, collect_loop w b maxlen fuel cur timestep num tr = (out, tr ++ seg) /\ d_post fuel tr p out seg.
  Proof.
    induction fuel as [|fuel IH]; intros cur timestep num tr p Hinv Hterm; cbn [collect_loop].
    { exists (Raise OutOfFuel), []. rewrite app_nil_r. split; [reflexivity|]. exists p. split; [constructor|]. right. split; [auto|].
      rewrite app_nil_r. split; [eauto 6|lia]. }
    unfold ebind at 1.
    assert (Hr : exists out seg, (match cur with
                | None => do o <- call (d_reset w) DReset;; ret (o, 0%Z)
                | Some st => ret st end) tr = (out, tr ++ seg) /\ dataset seg = [] /\
             match out with
             | Ok st => exists p', dpath p seg p' /\ d_inv (Some st) timestep num (tr ++ seg) p'
             | Raise e => seg = [] /\ from_dworld w e end).
    { destruct cur as [st|].
      - exists (Ok st), []. rewrite app_nil_r. split; [auto|]. split; [auto|]. exists p. split; [constructor|auto].
      - destruct Hinv as (Hds & Ht & gs & Hgs & Hsc & He & ->). unfold ebind.
        destruct (call_cases (d_reset w) DReset tr) as [(o & ->)|(e & Hraise & ->)].
        + exists (Ok (o, 0%Z)), [DReset o]. split; [auto|]. split; [auto|]. exists (RAct o 0).
          split; [econstructor; [apply r_reset|constructor]|].
          assert (Hep : d_episodes (tr ++ [DReset o]) = gs ++ [[]]) by (rewrite d_episodes_app, He; reflexivity).
          split; [rewrite dataset_app, Hep, concat_app, Hds, He; reflexivity|].
          split; [rewrite dataset_app, app_nil_r; auto|]. exists gs. split; [auto|]. split; [auto|].
          exists []. split; [auto|]. split; [intros i x Hi; destruct i; discriminate|]. cbn. auto.
        + exists (Raise e), []. rewrite app_nil_r. split; [auto|]. split; [auto|]. split; [auto|blame]. }
    destruct Hr as (ro & rseg & -> & Hrd & Hr). destruct ro as [[o len]|e].
    2: { destruct Hr as [-> Hw]. exists (Raise e), []. split; [auto|]. exists p. split; [constructor|auto]. }
    destruct Hr as (p1 & Hp1 & Hds & Ht & gs & Hgs & Hsc & g & Hep & Hrun & Hlen & Hp).
    set (tr1 := tr ++ rseg) in *.
    unfold ebind at 1.
    destruct (call_cases (d_act w) (DAct o) tr1) as [(a & ->)|(e & Hraise & ->)].
    2: { exists (Raise e), rseg. split; [auto|]. exists p1. split; [auto|left; blame]. }
    assert (Hp2 : dpstep p1 (DAct o a) (RStep o a (length g))) by (destruct Hp as [-> | ->]; constructor).
    unfold ebind at 1.
    destruct (call_cases (d_step w) (fun x => let '(o, r, d, n) := x in DStep a o r d n) (tr1 ++ [DAct o a]))
      as [([[[o2 r] d] n] & ->)|(e & Hraise & ->)].
    2: { exists (Raise e), (rseg ++ [DAct o a]). unfold tr1. rewrite app_assoc. split; [auto|]. exists (RStep o a (length g)).
         split; [eapply dpath_app; [exact Hp1|econstructor; [exact Hp2|constructor]]|left; blame]. }
    rewrite <- app_assoc. cbn [app].
    set (x := (o, a, r, o2, d, n)) in *.
    assert (Hp2' : dpath p (rseg ++ [DAct o a; DStep a o2 r d n]) (RWrite x (length g))).
    { eapply dpath_app; [exact Hp1|]. econstructor; [exact Hp2|]. econstructor; [apply r_step|constructor]. }
    unfold ebind at 1.
    destruct (call_cases (d_write w) (fun _ => DWrite x) (tr1 ++ [DAct o a; DStep a o2 r d n])) as [([] & ->)|(e & Hraise & ->)].
    2: { exists (Raise e), (rseg ++ [DAct o a; DStep a o2 r d n]). unfold tr1. rewrite app_assoc. split; [auto|]. eexists.
         split; [exact Hp2'|left; blame]. }
    rewrite <- app_assoc. cbn [app].
    set (s1 := [DAct o a; DStep a o2 r d n; DWrite x]).
    assert (Hep2 : d_episodes (tr1 ++ s1) = gs ++ [g ++ [x]]).
    { rewrite d_episodes_app, Hep. cbn. apply d_add_last_snoc. }
    assert (Hds2 : dataset (tr1 ++ s1) = dataset tr1 ++ [x]) by (rewrite dataset_app; reflexivity).
    rewrite Hlen.
    pose proof (d_ends_spec o a r o2 d n (length g)) as Hends. fold x in Hends.
    set (reset := d || eqb_opt (Z.of_nat (length g)) maxlen || n) in *.
    assert (Hp3 : dpath p (rseg ++ s1) (RSeen o2 (S (length g)) reset)).
    { change s1 with ([DAct o a; DStep a o2 r d n] ++ [DWrite x]). rewrite app_assoc. eapply dpath_app; [exact Hp2'|].
      econstructor; [apply r_write; exact Hends|constructor]. }
    set (num2 := if reset then (num + 1)%Z else num).
    set (stop := d_terminate b (timestep + 1) num2).
    unfold ebind.
    assert (Hst : exists out seg, (if reset || stop then call (d_stop w) (fun _ => DStop) else ret tt) (tr1 ++ s1) = (out, (tr1 ++ s1) ++ seg) /\
       match out with
       | Ok _ => dpath p ((rseg ++ s1) ++ seg) (if reset then RReset else if stop then RDone else RSeen o2 (S (length g)) false) /\
                 seg = (if reset || stop then [DStop] else [])
       | Raise e => seg = [] /\ from_dworld w e end).
    { destruct (reset || stop) eqn:Ers.
      - destruct (call_cases (d_stop w) (fun _ => @DStop Obs Act Rw) (tr1 ++ s1)) as [([] & ->)|(e & Hraise & ->)].
        + exists (Ok tt), [DStop]. split; [auto|]. split; [|auto]. eapply dpath_app; [exact Hp3|].
          destruct reset; [econstructor; [apply r_stop|constructor]|]. cbn in Ers. rewrite Ers. econstructor; [apply r_quit|constructor].
        + exists (Raise e), []. rewrite app_nil_r. split; [auto|]. split; [auto|blame].
      - apply orb_false_iff in Ers as [Er Es]. rewrite Er, Es. rewrite Er in Hp3. exists (Ok tt), []. rewrite !app_nil_r. auto. }
    destruct Hst as (so & ss & -> & Hst). destruct so as [u|e].
    2: { destruct Hst as [-> Hw]. rewrite app_nil_r. exists (Raise e), (rseg ++ s1). unfold tr1. rewrite <- app_assoc. split; [auto|].
         exists (RSeen o2 (S (length g)) reset). auto. }
    destruct Hst as [Hp4 Hss].
    assert (Hep3 : d_episodes ((tr1 ++ s1) ++ ss) = gs ++ [g ++ [x]]).
    { rewrite Hss. destruct (reset || stop); [|rewrite app_nil_r; auto]. rewrite d_episodes_app, Hep2. reflexivity. }
    assert (Hds3 : dataset ((tr1 ++ s1) ++ ss) = dataset tr1 ++ [x]).
    { rewrite Hss, dataset_app, Hds2. destruct (reset || stop); apply app_nil_r. }
    assert (Hdc : dataset ((tr1 ++ s1) ++ ss) = concat (gs ++ [g ++ [x]])).
    { rewrite Hds3, Hds, Hep, !concat_app. cbn. now rewrite !app_nil_r, app_assoc. }
    assert (Htot : (timestep + 1)%Z = Z.of_nat (length (dataset ((tr1 ++ s1) ++ ss)))).
    { rewrite Hds3, app_length. cbn. lia. }
    assert (Htrseg : (tr1 ++ s1) ++ ss = tr ++ ((rseg ++ s1) ++ ss)) by (unfold tr1; now rewrite !app_assoc).
    assert (Hcomp : reset = true -> Forall complete (gs ++ [g ++ [x]])).
    { intros E. apply Forall_app. split; [auto|]. constructor; [|constructor]. exists g, x. split; [auto|]. split; [auto|].
      rewrite app_length. cbn. replace (length g + 1) with (S (length g)) by lia. apply Hends, E. }
    assert (Hrun2 : reset = false -> running (g ++ [x])).
    { intros E. apply d_running_snoc; auto. rewrite <- Hends. congruence. }
    assert (Hnum : num2 = Z.of_nat (length (if reset then gs ++ [g ++ [x]] else gs))).
    { unfold num2. destruct reset; auto. rewrite app_length. cbn. lia. }
    destruct stop eqn:Estop.
    - unfold ret. exists (Ok tt), ((rseg ++ s1) ++ ss). rewrite Htrseg. split; [auto|].
      exists (if reset then RReset else RDone). split; [destruct reset; auto|].
      split. { exists (rseg ++ s1). rewrite Hss, orb_true_r. auto. }
      rewrite <- Htrseg. unfold stop in Estop.
      destruct reset eqn:Er.
      + exists (gs ++ [g ++ [x]]), []. rewrite app_nil_r.
        split; [auto|]. split; [auto|]. split; [auto|]. split; [|left; auto].
        unfold d_terminate in *. destruct b as [m|m]; [lia|]. split; [|auto]. rewrite app_length in *. cbn [length] in *. lia.
      + assert (Hfs : exists m, b = ForSteps m).
        { unfold d_terminate in *. destruct b as [m|m]; [eauto|]. unfold num2 in Estop. congruence. }
        exists gs, [g ++ [x]]. split; [auto|]. split; [auto|]. split; [auto|].
        split. { destruct Hfs as [m Hm]. rewrite Hm in *. unfold d_terminate in *. lia. }
        right. exists (g ++ [x]). split; [auto|]. split; [intros E; destruct g; discriminate|auto].
    - destruct (IH (if reset then None else Some (o2, (Z.of_nat (length g) + 1)%Z)) (timestep + 1)%Z num2
                  ((tr1 ++ s1) ++ ss) (if reset then RReset else RSeen o2 (S (length g)) false)) as (out & seg & -> & p' & Hp' & Hout).
      + split; [rewrite Hep3; auto|]. split; [auto|]. exists (if reset then gs ++ [g ++ [x]] else gs).
        split; [destruct reset; auto|]. split; [auto|].
        destruct reset; [auto|]. exists (g ++ [x]). split; [auto|]. split; [auto|].
        rewrite app_length. cbn. replace (length g + 1) with (S (length g)) by lia. split; [lia|auto].
      + exact Estop.
      + exists out, (((rseg ++ s1) ++ ss) ++ seg). rewrite Htrseg, <- app_assoc. split; [auto|].
        exists p'. split; [eapply dpath_app; eauto|].
        rewrite Htrseg, <- app_assoc in Hout. 
        destruct out as [u'|e].
        * destruct Hout as ((seg0 & ->) & Hout). split; [|exact Hout]. exists (((rseg ++ s1) ++ ss) ++ seg0). now rewrite app_assoc.
        * destruct Hout as [Hout|(-> & Hex & Htt)]; [auto|]. right. split; [auto|]. split; [exact Hex|].
          rewrite Htt, <- Htrseg, Hds3, app_length. unfold tr1. rewrite dataset_app, Hrd, app_nil_r. cbn. lia.
  Qed.

  Lemma d_complete_length m (g : list demo) : maxlen = Some (Z.of_nat m) -> complete g -> length g <= S m.
  Proof.
    intros Hm (g0 & x & -> & Hrun & _). rewrite app_length. cbn.
    assert (Hlt : length g0 < S m); [|lia]. apply Nat.nle_gt. intros Hle.
    destruct (nth_error g0 m) as [y|] eqn:Ey; [|apply nth_error_None in Ey; lia].
    apply (Hrun _ _ Ey). right; right. unfold demo_limit. rewrite Hm. cbn. f_equal. lia.
  Qed.
  Lemma d_running_length m (g : list demo) : maxlen = Some (Z.of_nat m) -> running g -> length g <= m.
  Proof.
    intros Hm Hrun. apply Nat.nlt_ge. intros Hle.
    destruct (nth_error g m) as [y|] eqn:Ey; [|apply nth_error_None in Ey; lia].
    apply (Hrun _ _ Ey). right; right. unfold demo_limit. rewrite Hm. cbn. f_equal. lia.
  Qed.

  Lemma collect_ok fuel : positive b ->
    let (out, tr) := collect_demonstrations w b maxlen fuel [] in
    exists p, dpath RReset tr p /\
    match out with
    | Ok _ => (exists tr0, tr = tr0 ++ [DStop]) /\
        exists gs part, d_episodes tr = gs ++ part /\ Forall complete gs /\ dataset tr = concat (gs ++ part) /\
          match b with
          | ForSteps n => Z.of_nat (length (dataset tr)) = n
          | ForEpisodes n => Z.of_nat (length gs) = n /\ part = []
          end /\
          (part = [] \/ exists g, part = [g] /\ g <> [] /\ running g) /\
          (forall m g, maxlen = Some (Z.of_nat m) -> In g (gs ++ part) -> length g <= S m)
    | Raise e => from_dworld w e \/ (e = OutOfFuel /\ ~ enough (demo_limit maxlen) b fuel)
    end.
  Proof.
    intros Hpos. unfold collect_demonstrations.
    destruct (@d_loop_runs fuel None 0%Z 0%Z [] RReset) as (out & seg & -> & p & Hp & Hout).
    { split; [reflexivity|]. split; [reflexivity|]. exists []. split; [constructor|]. auto. }
    { unfold positive in Hpos. unfold d_terminate. destruct b; cbn; lia. }
    cbn [app] in *. destruct out as [u|e]; exists p; (split; [auto|]).
    - destruct Hout as (Hs & gs & part & H1 & H2 & H3 & H4 & H5). split; [auto|]. exists gs, part.
      split; [auto|]. split; [auto|]. split; [auto|]. split; [auto|]. split; [auto|].
      intros m g Hm Hg. apply in_app_or in Hg as [Hg|Hg].
      + rewrite Forall_forall in H2. eapply d_complete_length; eauto.
      + destruct H5 as [->|(g' & -> & _ & Hrun)]; [destruct Hg|]. destruct Hg as [<-|[]]. pose proof (@d_running_length _ _ Hm Hrun). lia.
    - destruct Hout as [Hout|(-> & (cur & ts & num & p'' & (Hds & Hts & gs & Hgs & -> & Hcur) & Hterm) & Htot)]; [auto|].
      right. split; [auto|]. intros Hen. unfold enough, positive, d_terminate in *. cbn [dataset length plus] in Htot.
      destruct b as [n|n]; [lia|]. destruct Hen as (m & Hm & Hm1 & Hf).
      assert (Hmx : maxlen = Some (Z.of_nat (m - 1))).
      { unfold demo_limit in Hm. destruct maxlen as [y|]; [|discriminate]. injection Hm as Hm. f_equal. lia. }
      assert (Hgl : length (concat gs) <= length gs * m).
      { clear - Hgs Hmx Hm1. induction Hgs as [|g gs Hg _ IH]; cbn; [lia|]. rewrite app_length.
        pose proof (@d_complete_length _ _ Hmx Hg). lia. }
      rewrite Hds in Htot.
      destruct cur as [[o len]|].
      + destruct Hcur as (g & He & Hrun & _). rewrite He, concat_app, app_length in Htot. cbn in Htot. rewrite app_nil_r in Htot.
        pose proof (@d_running_length _ _ Hmx Hrun). nia.
      + destruct Hcur as [He _]. rewrite He in Htot. nia.
  Qed.
End D.
