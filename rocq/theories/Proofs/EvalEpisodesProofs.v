From Verif Require Import Base.PyBase Base.Effects Model.TrainAgent Model.Evaluator Spec.EvalEpisodesSpec Proofs.TrainAgentProofs.
Set Implicit Arguments.
Local Open Scope nat_scope.

Section E.
  Context {Obs Act Rw : Type}.
  Variable rzero : Rw.
  Variable radd : Rw -> Rw -> Rw.
  Variable w : @vworld Obs Act Rw.
  Variable b : budget.
  Variable maxlen : option Z.
  Notation vev := (@vev Obs Act Rw).
  Notation vpath := (@EvalEpisodesSpec.vpath Obs Act Rw maxlen).
  Notation vpstep := (@vpstep Obs Act Rw maxlen).
  Notation episode := (@episode Rw).
  Notation vphase := (@vphase Obs Act).
  Notation running := (@running Rw maxlen).
  Notation complete := (@complete Rw maxlen).
  Notation ends_at := (@ends_at Rw maxlen).
  Notation ret_of := (return_of rzero radd).

  Lemma vpath_app p l p' l' p'' : vpath p l p' -> vpath p' l' p'' -> vpath p (l ++ l') p''.
  Proof. induction 1; cbn; auto. intros. econstructor; eauto. Qed.

  Lemma episodes_app (tr seg : list vev) : episodes (tr ++ seg) = fold_left add_event seg (episodes tr).
  Proof. unfold episodes. apply fold_left_app. Qed.
  Lemma add_last_snoc (gs : list episode) g x : add_last (gs ++ [g]) x = gs ++ [g ++ [x]].
  Proof. unfold add_last. rewrite removelast_last, last_last. reflexivity. Qed.

  Lemma ends_spec d n r len : d || eqb_opt (Z.of_nat len) maxlen || n = true <-> ends_at len (r, d, n).
  Proof.
    unfold ends_at, eqb_opt. cbn. rewrite !orb_true_iff. destruct maxlen as [m|].
    - rewrite Z.eqb_eq. intuition (subst; auto); try congruence.
    - intuition discriminate.
  Qed.

  Lemma running_snoc (g : episode) x : running g -> ~ ends_at (S (length g)) x -> running (g ++ [x]).
  Proof.
    intros Hg Hx i y Hi. destruct (Nat.lt_ge_cases i (length g)) as [Hl|Hl].
    - rewrite nth_error_app1 in Hi by auto. eauto.
    - rewrite nth_error_app2 in Hi by auto. destruct (i - length g) as [|k] eqn:Ek; cbn in Hi.
      + injection Hi as <-. replace i with (length g) by lia. auto.
      + destruct k; discriminate.
  Qed.

  Lemma return_snoc (g : episode) r d n : ret_of (g ++ [(r, d, n)]) = radd (ret_of g) r.
  Proof. unfold return_of. rewrite fold_left_app. reflexivity. Qed.

  Lemma total_snoc (gs : list episode) g : total_steps (gs ++ [g]) = total_steps gs + length g.
  Proof. unfold total_steps. rewrite concat_app, app_length. cbn. now rewrite app_nil_r. Qed.

  Ltac blame := unfold from_vworld; eexists; intuition eauto.

  (** Loop invariant: what the variables mean for the trace. *)
  Definition loop_inv (cur : option (Obs * Rw * Z)) (timestep : Z) (scores : list Rw) (tr : list vev) (p : vphase) : Prop :=
    timestep = Z.of_nat (total_steps (episodes tr)) /\
    exists gs, Forall complete gs /\ scores = map ret_of gs /\
    match cur with
    | None => episodes tr = gs /\ p = QReset
    | Some (o, test_r, len) => exists g, episodes tr = gs ++ [g] /\ running g /\ test_r = ret_of g /\ len = Z.of_nat (length g) /\
        (p = QAct o (length g) \/ p = QSeen o (length g) false)
    end.

  Definition loop_post (fuel : nat) (tr : list vev) (p : vphase) (out : res (list Rw * Rw)) (seg : list vev) : Prop :=
    (exists p', vpath p seg p' /\
    match out with
    | Ok (scores, test_r) => (exists seg0, seg = seg0 ++ [VStop]) /\
        exists gs part, episodes (tr ++ seg) = gs ++ part /\ Forall complete gs /\ scores = map ret_of gs /\
          test_r = ret_of (last (gs ++ part) []) /\
          v_terminate b (Z.of_nat (total_steps (gs ++ part))) scores = true /\
          match b with
          | ForSteps n => Z.of_nat (total_steps (gs ++ part)) = n
          | ForEpisodes n => Z.of_nat (length gs) = n
          end /\
          ((part = [] /\ p' = QReset) \/
           (p' = QDone /\ (exists n, b = ForSteps n) /\ exists g, part = [g] /\ g <> [] /\ running g))
    | Raise e => from_vworld w e \/ (e = OutOfFuel /\
        (exists cur ts sc p'', loop_inv cur ts sc (tr ++ seg) p'' /\ v_terminate b ts sc = false) /\
        total_steps (episodes (tr ++ seg)) = total_steps (episodes tr) + fuel)
    end).

  Lemma loop_runs fuel : forall cur timestep scores tr p,
    loop_inv cur timestep scores tr p -> v_terminate b timestep scores = false ->
    exists out seg, eval_loop rzero radd w b maxlen fuel cur timestep scores tr = (out, tr ++ seg) /\ loop_post fuel tr p out seg.
  Proof.
    induction fuel as [|fuel IH]; intros cur timestep scores tr p Hinv Hterm; cbn [eval_loop].
    { exists (Raise OutOfFuel), []. rewrite app_nil_r. split; [reflexivity|]. exists p. split; [constructor|]. right. split; [auto|]. rewrite app_nil_r. split; [eauto 6|lia]. }
    (* the reset *)
    unfold ebind at 1.
    assert (Hr : exists out seg, (match cur with
                | None => do o <- call (v_reset w) VReset;; ret (o, rzero, 0%Z)
                | Some st => ret st end) tr = (out, tr ++ seg) /\
             match out with
             | Ok st => exists p', vpath p seg p' /\ loop_inv (Some st) timestep scores (tr ++ seg) p'
             | Raise e => seg = [] /\ from_vworld w e end).
    { destruct cur as [st|].
      - exists (Ok st), []. rewrite app_nil_r. split; [auto|]. exists p. split; [constructor|auto].
      - destruct Hinv as (Ht & gs & Hgs & Hsc & He & ->). unfold ebind.
        destruct (call_cases (v_reset w) VReset tr) as [(o & ->)|(e & Hraise & ->)].
        + exists (Ok (o, rzero, 0%Z)), [VReset o]. split; [auto|]. exists (QAct o 0).
          split; [econstructor; [apply q_reset|constructor]|].
          assert (Hep : episodes (tr ++ [VReset o]) = gs ++ [[]]) by (rewrite episodes_app, He; reflexivity).
          split; [rewrite Hep, total_snoc, Ht, He; cbn; lia|]. exists gs. split; [auto|]. split; [auto|].
          exists []. split; [auto|]. split; [intros i x Hi; destruct i; discriminate|]. cbn. auto.
        + exists (Raise e), []. rewrite app_nil_r. split; [auto|]. split; [auto|blame]. }
    destruct Hr as (ro & rseg & -> & Hr). destruct ro as [[[o test_r] len]|e].
    2: { destruct Hr as [-> Hw]. exists (Raise e), []. split; [auto|]. exists p. split; [constructor|auto]. }
    destruct Hr as (p1 & Hp1 & Ht & gs & Hgs & Hsc & g & Hep & Hrun & Htr & Hlen & Hp).
    set (tr1 := tr ++ rseg) in *.
    (* act *)
    unfold ebind at 1.
    destruct (call_cases (v_act w) (VAct o) tr1) as [(a & ->)|(e & Hraise & ->)].
    2: { exists (Raise e), rseg. split; [auto|]. exists p1. split; [auto|left; blame]. }
    assert (Hp2 : vpstep p1 (VAct o a) (QStep a (length g))) by (destruct Hp as [-> | ->]; constructor).
    unfold ebind at 1.
    destruct (call_cases (v_step w) (fun x => let '(o, r, d, n) := x in VStep a o r d n) (tr1 ++ [VAct o a]))
      as [([[[o2 r] d] n] & ->)|(e & Hraise & ->)].
    2: { exists (Raise e), (rseg ++ [VAct o a]). unfold tr1. rewrite app_assoc. split; [auto|]. exists (QStep a (length g)).
         split; [eapply vpath_app; [exact Hp1|econstructor; [exact Hp2|constructor]]|left; blame]. }
    rewrite <- app_assoc. cbn [app].
    set (s1 := [VAct o a; VStep a o2 r d n]).
    assert (Hep2 : episodes (tr1 ++ s1) = gs ++ [g ++ [(r, d, n)]]).
    { rewrite episodes_app, Hep. cbn. apply add_last_snoc. }
    assert (Hlen2 : (len + 1)%Z = Z.of_nat (S (length g))) by lia.
    rewrite Hlen2.
    pose proof (ends_spec d n r (S (length g))) as Hends.
    set (reset := d || eqb_opt (Z.of_nat (S (length g))) maxlen || n) in *.
    assert (Hp3 : vpath p (rseg ++ s1) (QSeen o2 (S (length g)) reset)).
    { eapply vpath_app; [exact Hp1|]. econstructor; [exact Hp2|]. econstructor; [apply q_step; exact Hends|constructor]. }
    assert (Htest : radd test_r r = ret_of (g ++ [(r, d, n)])) by (rewrite return_snoc, Htr; auto).
    assert (Htot : (timestep + 1)%Z = Z.of_nat (total_steps (gs ++ [g ++ [(r, d, n)]]))).
    { rewrite Ht, Hep, !total_snoc, app_length. cbn. lia. }
    set (scores2 := if reset then scores ++ [radd test_r r] else scores).
    set (stop := v_terminate b (timestep + 1) scores2).
    unfold ebind.
    assert (Hst : exists out seg, (if reset || stop then call (v_stop w) (fun _ => VStop) else ret tt) (tr1 ++ s1) = (out, (tr1 ++ s1) ++ seg) /\
       match out with
       | Ok _ => vpath p ((rseg ++ s1) ++ seg) (if reset then QReset else if stop then QDone else QSeen o2 (S (length g)) false) /\
                 seg = (if reset || stop then [VStop] else [])
       | Raise e => seg = [] /\ from_vworld w e end).
    { destruct (reset || stop) eqn:Ers.
      - destruct (call_cases (v_stop w) (fun _ => @VStop Obs Act Rw) (tr1 ++ s1)) as [([] & ->)|(e & Hraise & ->)].
        + exists (Ok tt), [VStop]. split; [auto|]. split; [|auto]. eapply vpath_app; [exact Hp3|].
          destruct reset; [econstructor; [apply q_stop|constructor]|]. cbn in Ers. rewrite Ers. econstructor; [apply q_quit|constructor].
        + exists (Raise e), []. rewrite app_nil_r. split; [auto|]. split; [auto|blame].
      - apply orb_false_iff in Ers as [Er Es]. rewrite Er, Es. rewrite Er in Hp3. exists (Ok tt), []. rewrite !app_nil_r. auto. }
    destruct Hst as (so & ss & -> & Hst). destruct so as [u|e].
    2: { destruct Hst as [-> Hw]. rewrite app_nil_r. exists (Raise e), (rseg ++ s1). unfold tr1. rewrite <- app_assoc. split; [auto|].
         exists (QSeen o2 (S (length g)) reset). auto. }
    destruct Hst as [Hp4 Hss].
    assert (Hep3 : episodes ((tr1 ++ s1) ++ ss) = gs ++ [g ++ [(r, d, n)]]).
    { rewrite Hss. destruct (reset || stop); [|rewrite app_nil_r; auto]. rewrite episodes_app, Hep2. reflexivity. }
    assert (Htrseg : (tr1 ++ s1) ++ ss = tr ++ ((rseg ++ s1) ++ ss)) by (unfold tr1; now rewrite !app_assoc).
    assert (Hcomp : reset = true -> Forall complete (gs ++ [g ++ [(r, d, n)]])).
    { intros E. apply Forall_app. split; [auto|]. constructor; [|constructor]. exists g, (r, d, n). split; [auto|]. split; [auto|].
      rewrite app_length. cbn. replace (length g + 1) with (S (length g)) by lia. apply Hends, E. }
    assert (Hrun2 : reset = false -> running (g ++ [(r, d, n)])).
    { intros E. apply running_snoc; auto. rewrite <- Hends. congruence. }
    assert (Hscore : scores2 = map ret_of (if reset then gs ++ [g ++ [(r, d, n)]] else gs)).
    { unfold scores2. destruct reset; auto. rewrite map_app, Hsc, Htest. reflexivity. }
    destruct stop eqn:Estop.
    - unfold ret. exists (Ok (scores2, radd test_r r)), ((rseg ++ s1) ++ ss). rewrite Htrseg. split; [auto|].
      exists (if reset then QReset else QDone). split; [destruct reset; auto|].
      split. { exists (rseg ++ s1). rewrite Hss, orb_true_r. auto. }
      rewrite Hss, orb_true_r in Htrseg. 
      assert (Hlast : radd test_r r = ret_of (last (gs ++ [g ++ [(r, d, n)]]) [])) by (rewrite last_last; auto).
      unfold stop in Estop.
      destruct reset eqn:Er.
      + exists (gs ++ [g ++ [(r, d, n)]]), []. rewrite app_nil_r. rewrite <- Hep3, Hss, orb_true_r. rewrite <- Htrseg.
        rewrite <- Hep3, Hss, orb_true_r, Htrseg in Hcomp, Hlast, Hscore, Htot. rewrite Htrseg.
        split; [auto|]. split; [auto|]. split; [auto|]. split; [auto|]. rewrite <- Htot. split; [auto|].
        split; [|left; auto].
        unfold v_terminate in *. rewrite <- Htrseg in *. rewrite Hss, orb_true_r in Hep3. destruct b as [m|m]; [lia|].
        rewrite Hscore, map_length in Estop. rewrite Hsc, map_length in Hterm.
        rewrite Hep3, app_length in *. cbn [length] in *. lia.
      + assert (Hfs : exists m, b = ForSteps m).
        { unfold v_terminate in *. destruct b as [m|m]; [eauto|]. unfold scores2 in Estop. congruence. }
        exists gs, [g ++ [(r, d, n)]]. split; [rewrite Hss, orb_true_r, <- Htrseg; rewrite Hss, orb_true_r in Hep3; auto|].
        split; [auto|]. split; [auto|]. split; [auto|]. rewrite <- Htot. split; [auto|].
        split. { destruct Hfs as [m ->]. unfold v_terminate in *. lia. }
        right. split; [auto|]. split; [auto|]. exists (g ++ [(r, d, n)]). split; [auto|].
        split; [intros E; destruct g; discriminate|auto].
    - destruct (IH (if reset then None else Some (o2, radd test_r r, Z.of_nat (S (length g)))) (timestep + 1)%Z scores2
                  ((tr1 ++ s1) ++ ss) (if reset then QReset else QSeen o2 (S (length g)) false)) as (out & seg & -> & p' & Hp' & Hout).
      + split; [rewrite Hep3; auto|]. exists (if reset then gs ++ [g ++ [(r, d, n)]] else gs).
        split; [destruct reset; auto|]. split; [auto|].
        destruct reset; [auto|]. exists (g ++ [(r, d, n)]). split; [auto|]. split; [auto|]. split; [auto|].
        rewrite app_length. cbn. replace (length g + 1) with (S (length g)) by lia. auto.
      + exact Estop.
      + exists out, (((rseg ++ s1) ++ ss) ++ seg). rewrite Htrseg, <- app_assoc. split; [auto|].
        exists p'. split; [eapply vpath_app; eauto|].
        destruct out as [[sc tr']|e]; [|destruct Hout as [Hout|(-> & Hex & Htt)]; [auto|right; split; [auto|]; rewrite Htrseg, <- app_assoc in Hex, Htt; split; [exact Hex|]]; rewrite Htt, <- Htrseg, Hep3; destruct Hinv as [Hts _]; lia]. destruct Hout as ((seg0 & ->) & Hout). split.
        * exists (((rseg ++ s1) ++ ss) ++ seg0). now rewrite app_assoc.
        * rewrite Htrseg, <- app_assoc in Hout. exact Hout.
  Qed.

  Lemma complete_length m (g : episode) : maxlen = Some (Z.of_nat m) -> 1 <= m -> complete g -> length g <= m.
  Proof.
    intros Hm H1 (g0 & x & -> & Hrun & _). rewrite app_length. cbn.
    assert (Hlt : length g0 < m); [|lia]. apply Nat.nle_gt. intros Hle.
    destruct (nth_error g0 (m - 1)) as [y|] eqn:Ey; [|apply nth_error_None in Ey; lia].
    apply (Hrun _ _ Ey). right; right. rewrite Hm. f_equal. lia.
  Qed.
  Lemma running_length m (g : episode) : maxlen = Some (Z.of_nat m) -> 1 <= m -> running g -> length g < m.
  Proof.
    intros Hm H1 Hrun. apply Nat.nle_gt. intros Hle.
    destruct (nth_error g (m - 1)) as [y|] eqn:Ey; [|apply nth_error_None in Ey; lia].
    apply (Hrun _ _ Ey). right; right. rewrite Hm. f_equal. lia.
  Qed.
  Lemma total_le m (gs : list episode) : (forall g, In g gs -> length g <= m) -> total_steps gs <= length gs * m.
  Proof.
    unfold total_steps. induction gs as [|g gs IH]; intros H; cbn; [lia|]. rewrite app_length.
    pose proof (H g (or_introl eq_refl)). assert (length (concat gs) <= length gs * m) by (apply IH; intros; apply H; right; auto). lia.
  Qed.

  Lemma run_evaluation_ok fuel : positive b ->
    let (out, tr) := run_evaluation_episodes rzero radd w b maxlen fuel [] in
    exists p, vpath QReset tr p /\
    match out with
    | Ok scores => (exists tr0, tr = tr0 ++ [VStop]) /\
        exists gs part, episodes tr = gs ++ part /\ Forall complete gs /\
          scores = map ret_of (match gs with [] => part | _ => gs end) /\
          match b with
          | ForSteps n => Z.of_nat (total_steps (gs ++ part)) = n
          | ForEpisodes n => Z.of_nat (length gs) = n /\ part = []
          end /\
          (part = [] \/ exists g, part = [g] /\ g <> [] /\ running g)
    | Raise e => from_vworld w e \/ (e = OutOfFuel /\ ~ enough maxlen b fuel)
    end.
  Proof.
    intros Hpos. unfold run_evaluation_episodes, ebind.
    destruct (@loop_runs fuel None 0%Z [] [] QReset) as (out & seg & -> & p & Hp & Hout).
    { split; [reflexivity|]. exists []. split; [constructor|]. auto. }
    { unfold positive in Hpos. unfold v_terminate. destruct b; cbn; lia. }
    cbn [app] in *. destruct out as [[scores test_r]|e].
    - unfold ret. exists p. split; [auto|]. destruct Hout as (Hs & gs & part & H1 & H2 & H3 & H4 & H5 & H6 & H7).
      split; [auto|]. exists gs, part. split; [auto|]. split; [auto|]. split.
      + destruct scores as [|x l]; destruct gs as [|g gs]; try discriminate; [|auto].
        destruct H7 as [[-> _]|(_ & _ & g & -> & _)].
        * exfalso. unfold positive in Hpos. unfold v_terminate in H5. cbn in H5, H6. destruct b; lia.
        * rewrite H4. reflexivity.
      + split; [|destruct H7 as [[-> _]|(_ & _ & g & -> & Hg)]; [left; auto|right; exists g; auto]].
        destruct b as [n|n]; [auto|]. split; [auto|]. destruct H7 as [[-> _]|(_ & [m Hm] & _)]; [auto|discriminate].
    - exists p. split; [auto|]. destruct Hout as [Hout|(-> & (cur & ts & sc & p'' & (Hts & gs & Hgs & -> & Hcur) & Hterm) & Htot)]; [auto|].
      right. split; [auto|]. intros Hen. unfold enough, positive, v_terminate in *.
      change (total_steps (episodes (@nil vev))) with 0 in Htot. cbn [plus] in Htot.
      destruct b as [n|n]; [lia|]. destruct Hen as (m & Hm & Hm1 & Hf). rewrite map_length in Hterm.
      assert (Hgl : total_steps gs <= length gs * m).
      { apply total_le. intros g Hg. rewrite Forall_forall in Hgs. eapply complete_length; eauto. }
      destruct cur as [[[o test_r] len]|].
      + destruct Hcur as (g & He & Hrun & _). rewrite He, total_snoc in Htot. pose proof (running_length Hm Hm1 Hrun). nia.
      + destruct Hcur as [He _]. rewrite He in Htot. nia.
  Qed.
End E.
