(** The preprocessed Atari environment without a limit on frames. *)
From Coq Require Import QArith.
From Verif Require Import Base.PyBase Model.GymEnv Model.Wrappers Spec.WrapperSpec Proofs.WrappersProofs Model.AtariStack Spec.AtariStackSpec Proofs.AtariStackProofs.
Set Implicit Arguments.
Local Open Scope nat_scope.

Section Game.
Context {A O X : Type}.
Variable E : env A O X.
Variable e0 : est E.

Definition starts (log : list (op A * out O X)) : Prop := exists o l, log = (Reset, o) :: l.
Definition call_log {O'} (clip life : bool) (acts : list A) (ph : phase) (e : est E) (o : op A) (x : out O' X) (e' : est E) : Prop :=
  exists log, ran E e log e' /\ (ph = Fresh -> starts log) /\
    match o, x with
    | Step a, OStep s => step_unlimited clip life a s log (elives E e) (elives E e')
    | Reset, OReset _ => reset_of_game acts log
    | _, _ => False
    end.
Definition keeps {O'} (B : env A O' X) (raw : est B -> est E) (Inv : phase -> est B -> Prop) clip life acts : Prop :=
  (forall w, elives B w = elives E (raw w)) /\
  forall ph w o w' x, Inv ph w -> allowed ph o -> exec B w o = Ok (w', x) ->
    call_log clip life acts ph (raw w) o x (raw w') /\ Inv (next_phase x) w'.
Definition good {O'} clip life acts (g : live_env A O' X) : Prop :=
  exists raw Inv, keeps (l_env g) raw Inv clip life acts /\ Inv Fresh (l_state g) /\ raw (l_state g) = e0.

Lemma keeps_run : forall O' (B : env A O' X) raw Inv clip life acts, keeps B raw Inv clip life acts ->
  forall ops w w' ys ph, Inv ph w -> run B w ops = Ok (w', ys) -> obeys ph ops ys ->
  exists logs, played_unlimited E clip life acts (raw w) ops ys logs /\ (ph = Fresh -> reset_first (concat logs)).
Proof.
  intros O' B raw Inv clip life acts [HL HK] ops. induction ops as [|o ops IH]; intros w w' ys ph I H OB.
  - cbn in H. assert (ys = []) as -> by congruence. exists []. split; [constructor|]. intros _. exact Logic.I.
  - cbn in H. destruct (exec B w o) as [[w1 y]|ex] eqn:EX; [|discriminate]. cbn in H. destruct (run B w1 ops) as [[w2 ys2]|ex] eqn:RN; [|discriminate]. cbn in H.
    assert (ys = y :: ys2) as -> by congruence. destruct OB as [AL OB].
    destruct (HK _ _ _ _ _ I AL EX) as [(log & R1 & F1 & S1) I1].
    destruct (IH _ _ _ _ I1 RN OB) as (logs & P2 & _). exists (log :: logs). split.
    + econstructor; [exact R1| |exact P2]. destruct o, y; exact S1.
    + intro P. destruct (F1 P) as (o1 & l & ->). exact Logic.I.
Qed.

Variable omax : O -> O -> O.
Variable noop : A.
Definition NR := noop_reset noop E.
Definition M := max_and_skip omax NR 4.
Definition rawM (w : est M) : est E := snd (snd w).

Lemma NR_step : forall d e a w x, estep NR (d, e) a = Ok (w, x) -> exists e', w = (d, e') /\ estep E e a = Ok (e', x).
Proof. intros d e a w x H. unfold NR in H. cbn [estep noop_reset fst snd] in H. apply bind_ok in H. destruct H as ([e' y] & ES & H). injection H as <- <-. exists e'. split; [reflexivity|exact ES]. Qed.

Lemma skip_raw : forall n a i total buf d e t buf' w' x,
  skip_loop NR 4 a n i total buf (d, e) = Ok (t, buf', w', x) ->
  exists ss z e', w' = (d, e') /\ ran E e (map (fun s => (Step a, OStep s)) (ss ++ [z])) e' /\ length ss < n /\
    Forall (fun s => so_done s = false /\ needs_reset (so_info s) = false) ss /\
    (S (length ss) < n -> so_done z = true \/ needs_reset (so_info z) = true) /\
    (t == total + qsum (map (@so_rew O X) (ss ++ [z])))%Q /\ so_done x = so_done z /\ needs_reset (so_info x) = needs_reset (so_info z).
Proof.
  induction n as [|n IH]; intros a i total buf d e t buf' w' x H; [discriminate|].
  cbn [skip_loop] in H. destruct (estep NR (d, e) a) as [[w1 x1]|ex] eqn:ST; [|discriminate]. cbn [bind] in H.
  destruct (@NR_step _ _ _ _ _ ST) as (e1 & -> & ES). set (buf1 := if i + 1 =? 4 then _ else _) in H.
  destruct (terminal x1) eqn:T1.
  - inversion H; subst. exists [], x, e1. split; [reflexivity|]. split; [apply ran_one, exec_E, ES|]. cbn [length]. split; [lia|]. split; [constructor|]. split.
    { intros _. unfold terminal in T1. apply orb_true_iff in T1. exact T1. }
    split; [cbn; ring|]. split; reflexivity.
  - assert (Z1 : so_done x1 = false /\ needs_reset (so_info x1) = false) by (unfold terminal in T1; apply orb_false_iff in T1; exact T1).
    destruct n as [|n].
    + inversion H; subst. exists [], x, e1. split; [reflexivity|]. split; [apply ran_one, exec_E, ES|]. cbn [length]. split; [lia|]. split; [constructor|]. split; [lia|].
      split; [cbn; ring|]. split; reflexivity.
    + destruct (IH a (i + 1) _ _ _ _ _ _ _ _ H) as (ss & z & e' & -> & RN & LS & F & ST2 & Q & D & N).
      exists (x1 :: ss), z, e'. split; [reflexivity|]. split; [cbn; eapply ran_cons; [apply exec_E, ES|exact RN]|]. cbn [length]. split; [lia|].
      split; [constructor; assumption|]. split; [intros G; apply ST2; lia|].
      split; [rewrite Q; unfold qsum; cbn [app map fold_right]; ring|]. split; assumption.
Qed.

Lemma M_step : forall w a w' y, exec M w (Step a) = Ok (w', OStep y) ->
  exists log, ran E (rawM w) log (rawM w') /\ step_unlimited false false a y log (elives E (rawM w)) (elives E (rawM w')).
Proof.
  intros [buf [d e]] a w' y H. apply exec_step in H. destruct H as (y1 & EY & MS).
  unfold M in MS. cbn [estep max_and_skip] in MS. unfold ms_step in MS. cbn [fst snd] in MS.
  apply bind_ok in MS. destruct MS as ([[[t buf'] w2] x] & SL & MS).
  destruct (@skip_raw 4 a 0 _ _ _ _ _ _ _ _ SL) as (ss & z & e' & -> & RN & LS & F & ST & Q & D & N).
  injection EY as ->. injection MS as <- <-. eexists. split; [exact RN|].
  exists ss, z. cbn [so_rew so_done so_info]. split; [reflexivity|]. split; [exact LS|]. split; [exact F|]. split; [intros G; apply ST; lia|].
  split; [rewrite Q; cbn; ring|]. split; [rewrite D, orb_false_r; reflexivity|exact N].
Qed.

Lemma noop_raw : forall n obs e ob w', noop_loop noop E n obs e = Ok (ob, w') -> exists log, ran E e log w' /\ reset_of_game [noop] log.
Proof.
  induction n as [|n IH]; intros obs e ob w' H.
  - cbn in H. inversion H; subst. exists []. split; [apply ran_nil|constructor].
  - cbn [noop_loop] in H. destruct (estep E e noop) as [[e1 x]|ex] eqn:ST; [|discriminate]. cbn [bind] in H. destruct (terminal x) eqn:T.
    + destruct (ereset E e1) as [[e2 o2]|ex] eqn:ER; [|discriminate]. cbn [bind] in H.
      destruct (IH _ _ _ _ H) as (log & RN & RG). exists ((Step noop, OStep x) :: (Reset, OReset o2) :: log).
      split; [eapply ran_cons; [apply exec_E, ST|]; eapply ran_cons; [apply exec_ER, ER|exact RN]|]. constructor; [left; reflexivity|constructor; [exact I|exact RG]].
    + destruct (IH _ _ _ _ H) as (log & RN & RG). exists ((Step noop, OStep x) :: log). split; [eapply ran_cons; [apply exec_E, ST|exact RN]|]. constructor; [left; reflexivity|exact RG].
Qed.
Lemma M_reset : forall w w' y, exec M w Reset = Ok (w', y) -> exists ob log, y = OReset ob /\ ran E (rawM w) log (rawM w') /\ starts log /\ reset_of_game [noop] log.
Proof.
  intros [buf [[draws k] e]] w' y H. apply exec_reset in H. destruct H as (ob0 & EY & H). unfold M in H. cbn [ereset max_and_skip] in H. unfold ms_reset in H.
  apply bind_ok in H. destruct H as ([w1 o0] & H & H0). cbn [fst snd] in H, H0. unfold NR in H. cbn [ereset noop_reset] in H. unfold nr_reset in H.
  apply bind_ok in H. destruct H as ([e1 o1] & ER & H). destruct (0 <? draws k); [|discriminate]. cbn [bind] in H. apply bind_ok in H. destruct H as ([ob w3] & NL & H).
  destruct (@noop_raw (draws k) None e1 _ _ NL) as (log & RN & RG). destruct ob as [o|]; [|discriminate]. injection H as <- <-. injection H0 as <- <-.
  eexists. exists ((Reset, OReset o1) :: log). split; [exact EY|]. split; [eapply ran_cons; [apply exec_ER, ER|exact RN]|]. split; [eexists; eexists; reflexivity|]. constructor; [exact I|exact RG].
Qed.

Lemma good_atari : forall zero draws, good false false [noop] (make_atari omax noop zero (mk_live E e0) None draws).
Proof.
  intros zero draws. unfold make_atari. cbn [l_env l_state]. exists (rawM : est M -> est E), (fun _ _ => True).
  split; [|split; [exact I|reflexivity]]. split; [reflexivity|]. intros ph w o w' x _ AL EX. split; [|exact I]. destruct o as [|a].
  - destruct (@M_reset _ _ _ EX) as (ob & log & -> & R & S & RG). exists log. split; [exact R|]. split; [intros _; exact S|exact RG].
  - pose proof (exec_step _ _ _ EX) as (y & -> & _). destruct (@M_step _ _ _ _ EX) as (log & R & SG). exists log. split; [exact R|]. split; [intros ->; contradiction|exact SG].
Qed.

Lemma good_life : forall zero draws, let g := make_atari omax noop zero (mk_live E e0) None draws in
  good false true [noop] (mk_live (episodic_life noop (l_env g)) (0, true, l_state g)).
Proof.
  intros zero draws. unfold make_atari. cbn [l_env l_state]. change (max_and_skip omax (noop_reset noop E) 4) with M.
  exists (fun w : est (episodic_life noop M) => rawM (snd w)), (fun ph w => match ph with Fresh => snd (fst w) = true | _ => fst (fst w) = elives E (rawM (snd w)) end).
  split; [|split; [reflexivity|reflexivity]]. split; [reflexivity|].
  intros ph [[lives flag] w] o w' x I0 AL EX. cbn [fst snd] in I0. destruct o as [|a].
  - apply exec_reset in EX. destruct EX as (ob & -> & EX). cbn [ereset episodic_life] in EX. unfold el_reset in EX. cbn [fst snd] in EX.
    apply bind_ok in EX. destruct EX as ([w1 o1] & EX & R1). injection R1 as <- <-. cbn [next_phase fst snd]. split; [|reflexivity]. destruct flag.
    + assert (EM : exec M w Reset = Ok (w1, OReset o1)) by (unfold exec; cbn [fst snd] in EX; rewrite EX; reflexivity).
      destruct (@M_reset _ _ _ EM) as (ob & log & _ & R & S & RG). exists log. split; [exact R|]. split; [intros _; exact S|exact RG].
    + apply bind_ok in EX. destruct EX as ([w2 x2] & EX & R1). injection R1 as <- <-.
      assert (EM : exec M w (Step noop) = Ok (w2, OStep x2)) by (unfold exec; cbn [fst snd] in EX; rewrite EX; reflexivity).
      destruct (@M_step _ _ _ _ EM) as (log & R & SG). exists log. split; [exact R|]. split; [intros ->; discriminate|].
      destruct SG as (ss & z & -> & _). unfold reset_of_game. apply Forall_map. apply Forall_forall. intros s _. left. reflexivity.
  - apply exec_step in EX. destruct EX as (y & -> & EX). cbn [estep episodic_life] in EX. unfold el_step in EX. cbn [fst snd] in EX.
    apply bind_ok in EX. destruct EX as ([w1 x1] & EX & R1). injection R1 as <- <-.
    assert (EM : exec M w (Step a) = Ok (w1, OStep x1)) by (unfold exec; cbn [fst snd] in EX; rewrite EX; reflexivity).
    assert (LI : lives = elives E (rawM w)) by (destruct ph; [contradiction|apply I0|apply I0|contradiction]).
    destruct (@M_step _ _ _ _ EM) as (log & R & SG). change (elives M w1) with (elives E (rawM w1)). split.
    + exists log. split; [exact R|]. split; [intros ->; contradiction|].
      destruct SG as (ss & z & SL & LN & F & ST & Q & D & N). exists ss, z. cbn [so_rew so_done so_info snd fst].
      split; [exact SL|]. split; [exact LN|]. split; [exact F|]. split; [exact ST|]. split; [exact Q|]. split; [|exact N].
      rewrite <- LI. rewrite D. cbn [andb]. rewrite orb_false_r. rewrite (andb_comm (0 <? _)).
      change (elives E (snd (snd w1))) with (elives E (rawM w1)).
      destruct ((elives E (rawM w1) <? lives) && (0 <? elives E (rawM w1))); [rewrite orb_true_r; reflexivity|rewrite orb_false_r; reflexivity].
    + cbn [next_phase]. destruct (terminal (mk_sout _ _ _ _)); reflexivity.
Qed.

Lemma call_log_mono : forall O' clip life acts acts' ph e o (x : out O' X) e', incl acts acts' -> call_log clip life acts ph e o x e' -> call_log clip life acts' ph e o x e'.
Proof.
  intros O' clip life acts acts' ph e o x e' I (log & R & C & S). exists log. split; [exact R|]. split; [exact C|].
  destruct o, x; try exact S. unfold reset_of_game in *. eapply Forall_impl; [|exact S]. intros [[|b] y] H; [exact H|]. apply I. exact H.
Qed.
Lemma call_log_seq : forall O' clip life acts ph ph2 e o1 (x1 : out O' X) e1 o2 (x2 : out O' X) e2 ob,
  match o1 with Reset => True | Step a => In a acts end -> match o2 with Reset => True | Step a => In a acts end ->
  call_log clip life acts ph e o1 x1 e1 -> call_log clip life acts ph2 e1 o2 x2 e2 -> call_log clip life acts ph e Reset (OReset ob : out O' X) e2.
Proof.
  intros O' clip life acts ph ph2 e o1 x1 e1 o2 x2 e2 ob A1 A2 (l1 & R1 & W1 & S1) (l2 & R2 & W2 & S2).
  exists (l1 ++ l2). split; [eapply ran_split; eassumption|]. split; [intro P; destruct (W1 P) as (o & l & ->); eexists; eexists; reflexivity|].
  assert (G : forall (o : op A) (x : out O' X) (l : list (op A * out O X)) (ea eb : nat), match o with Reset => True | Step a => In a acts end ->
    match o, x with Step a, OStep s => step_unlimited clip life a s l ea eb | Reset, OReset _ => reset_of_game acts l | _, _ => False end -> reset_of_game acts l).
  { intros [|a] [ob1|s] l ea eb HA HS; try contradiction; [exact HS|]. destruct HS as (ss & z & -> & _). unfold reset_of_game. apply Forall_map, Forall_forall. intros s0 _. exact HA. }
  unfold reset_of_game. apply Forall_app. split; [exact (G _ _ _ _ _ A1 S1)|exact (G _ _ _ _ _ A2 S2)].
Qed.
Lemma call_log_phase : forall O' clip life acts ph ph2 e o (x : out O' X) e', ph <> Fresh -> call_log clip life acts ph2 e o x e' -> call_log clip life acts ph e o x e'.
Proof. intros O' clip life acts ph ph2 e o x e' N (log & R & _ & S). exists log. split; [exact R|]. split; [intro; contradiction|exact S]. Qed.

Lemma good_fire : forall O' clip life acts fire second (g : live_env A O' X), good clip life acts g ->
  good clip life (acts ++ [fire; second]) (mk_live (fire_reset fire second (l_env g)) (l_state g)).
Proof.
  intros O' clip life acts fire second [B w0] (raw & Inv & [HL HK] & I0 & R0). cbn [l_env l_state] in *.
  set (acts' := acts ++ [fire; second]).
  assert (IN : incl acts acts') by (intros b Hb; apply in_or_app; left; exact Hb).
  assert (IF : In fire acts') by (apply in_or_app; right; left; reflexivity).
  assert (IS : In second acts') by (apply in_or_app; right; right; left; reflexivity).
  exists (raw : est (fire_reset fire second B) -> est E), (fun ph w => match ph with JustReset => Inv JustReset w \/ Inv Playing w | _ => Inv ph w end).
  split; [|split; [exact I0|assumption]]. split; [exact HL|].
  intros ph w o w' x I AL EX. destruct o as [|a].
  - apply exec_reset in EX. destruct EX as (ob & -> & EX). cbn [ereset fire_reset] in EX. unfold fr_reset in EX.
    apply bind_ok in EX. destruct EX as ([w1 o1] & X1 & EX). apply bind_ok in EX. destruct EX as ([o2 w2] & X2 & EX).
    apply bind_ok in EX. destruct EX as ([o3 w3] & X3 & EX). injection EX as <- <-.
    assert (I' : Inv ph w /\ @allowed A ph Reset) by (destruct ph; [split; assumption|contradiction|split; assumption|split; assumption]). destruct I' as [I' AL'].
    assert (EM : exec B w Reset = Ok (w1, OReset o1)) by (unfold exec; rewrite X1; reflexivity).
    destruct (HK _ _ _ _ _ I' AL' EM) as [CL1 I1]. cbn [next_phase] in I1.
    assert (FP : forall v a v' o0, In a acts' -> Inv JustReset v \/ Inv Playing v -> fire_part B v a = Ok (o0, v') ->
      exists o1 (x1 : out O' X), match o1 with Reset => True | Step a => In a acts' end /\ call_log clip life acts' Playing (raw v) o1 x1 (raw v') /\ (Inv JustReset v' \/ Inv Playing v')).
    { intros v a v' o0 HA IV FP. unfold fire_part in FP. apply bind_ok in FP. destruct FP as ([v1 x1] & ST & FP).
      assert (EM1 : exec B v (Step a) = Ok (v1, OStep x1)) by (unfold exec; rewrite ST; reflexivity).
      assert (CL : call_log clip life acts Playing (raw v) (Step a) (OStep x1) (raw v1) /\ Inv (next_phase (OStep x1)) v1).
      { destruct IV as [IV|IV]; [|exact (HK Playing _ (Step a) _ _ IV Logic.I EM1)]. destruct (HK JustReset _ (Step a) _ _ IV Logic.I EM1) as [C1 C2].
        split; [|exact C2]. eapply call_log_phase; [discriminate|exact C1]. }
      destruct CL as [CL IV1]. apply (call_log_mono IN) in CL. cbn [next_phase] in IV1. destruct (terminal x1).
      - apply bind_ok in FP. destruct FP as ([v2 o2'] & RS & FP). injection FP as <- <-.
        assert (EM2 : exec B v1 Reset = Ok (v2, OReset o2')) by (unfold exec; rewrite RS; reflexivity).
        destruct (HK Over _ Reset _ _ IV1 Logic.I EM2) as [CL2 IV2]. apply (call_log_mono IN) in CL2.
        exists Reset, (OReset o2'). split; [exact Logic.I|]. split; [|left; exact IV2].
        eapply call_log_seq; [| |exact CL|exact CL2]; [exact HA|exact Logic.I].
      - injection FP as <- <-. exists (Step a), (OStep x1). split; [exact HA|]. split; [exact CL|right; exact IV1]. }
    apply (call_log_mono IN) in CL1.
    destruct (FP _ _ _ _ IF (or_introl I1) X2) as (p1 & y1 & HA1 & CLa & IVa).
    destruct (FP _ _ _ _ IS IVa X3) as (p2 & y2 & HA2 & CLb & IVb).
    split; [|exact IVb].
    eapply (call_log_seq (o1 := Reset)); [exact Logic.I|exact HA2| |exact CLb].
    eapply (@call_log_seq O' clip life acts' ph Playing _ Reset _ _ p1 y1 _ o1); [exact Logic.I|exact HA1|exact CL1|exact CLa].
  - assert (CL : call_log clip life acts ph (raw w) (Step a) x (raw w') /\ Inv (next_phase x) w').
    { destruct ph; [contradiction| |exact (HK _ _ _ _ _ I AL EX)|contradiction]. destruct I as [I|I]; [exact (HK _ _ _ _ _ I AL EX)|].
      destruct (HK Playing _ (Step a) _ _ I Logic.I EX) as [C1 C2]. split; [|exact C2]. eapply call_log_phase; [discriminate|exact C1]. }
    destruct CL as [CL IV]. split; [apply (call_log_mono IN), CL|]. apply exec_step in EX. destruct EX as (y & -> & _). cbn [next_phase] in *. destruct (terminal y); exact IV.
Qed.

Lemma good_like : forall O1 O2 clip clip2 life acts (g : live_env A O1 X) (g2 : live_env A O2 X) (st : est (l_env g2) -> est (l_env g)),
  (forall w, elives (l_env g2) w = elives (l_env g) (st w)) ->
  (forall w o w' x2, exec (l_env g2) w o = Ok (w', x2) -> exists x1, exec (l_env g) (st w) o = Ok (st w', x1) /\ like clip clip2 x1 x2) ->
  st (l_state g2) = l_state g -> good clip life acts g -> good clip2 life acts g2.
Proof.
  intros O1 O2 clip clip2 life acts g g2 st HE HX S0 (raw & Inv & [HL HK] & I0 & R0).
  exists (fun w => raw (st w)), (fun ph w => Inv ph (st w)). rewrite S0. split; [|split; [exact I0|assumption]]. split; [intros w; rewrite HE; apply HL|].
  intros ph w o w' x2 IV AL EX. destruct (HX _ _ _ _ EX) as (x1 & EX1 & LK). destruct (HK _ _ _ _ _ IV AL EX1) as [(log & R & C & S) IV']. split.
  - exists log. split; [exact R|]. split; [exact C|]. destruct o, x1 as [o1|s1], x2 as [o2|s2]; try contradiction; [exact S|].
    destruct LK as (LD & LI & LR). destruct S as (ss & z & SL & LN & F & ST & Q & D & N). exists ss, z.
    split; [exact SL|]. split; [exact LN|]. split; [exact F|]. split; [exact ST|]. split; [|split; [rewrite <- LD; exact D|rewrite <- LI; exact N]].
    cbn zeta in *. destruct clip.
    + destruct LR as [-> LR]. rewrite <- LR. exact Q.
    + destruct clip2; [|rewrite <- LR; exact Q]. rewrite LR. destruct (sign_cases (so_rew s1)) as [[P1 P2]|[[P1 P2]|[P1 P2]]]; [left|right; left|right; right]; (split; [exact P1|]); rewrite <- Q; exact P2.
  - replace (next_phase x2) with (next_phase x1); [exact IV'|]. destruct x1 as [o1|s1], x2 as [o2|s2]; try contradiction; [reflexivity|].
    destruct LK as (LD & LI & _). cbn. unfold terminal. rewrite LD, LI. reflexivity.
Qed.
Lemma good_map_obs : forall O1 O2 clip life acts (f : O1 -> O2) (g : live_env A O1 X), good clip life acts g -> good clip life acts (mk_live (map_obs f (l_env g)) (l_state g)).
Proof.
  intros O1 O2 clip life acts f g G. refine (@good_like O1 _ clip clip life acts g (mk_live (map_obs f (l_env g)) (l_state g)) (fun w => w) _ _ _ G); [reflexivity| |reflexivity].
  cbn [l_env]. intros w o w' x2 EX. destruct o as [|a].
  - apply exec_reset in EX. destruct EX as (ob & -> & EX). apply bind_ok in EX. destruct EX as ([w1 o1] & EX & R1). injection R1 as <- <-.
    exists (OReset o1). split; [unfold exec; rewrite EX; reflexivity|exact I].
  - apply exec_step in EX. destruct EX as (ob & -> & EX). apply bind_ok in EX. destruct EX as ([w1 o1] & EX & R1). injection R1 as <- <-.
    exists (OStep o1). split; [unfold exec; rewrite EX; reflexivity|]. cbn. destruct clip; repeat split.
Qed.
Lemma good_clip : forall O1 life acts (g : live_env A O1 X), good false life acts g -> good true life acts (mk_live (clip_reward (l_env g)) (l_state g)).
Proof.
  intros O1 life acts g G. refine (@good_like O1 _ false true life acts g (mk_live (clip_reward (l_env g)) (l_state g)) (fun w => w) _ _ _ G); [reflexivity| |reflexivity].
  cbn [l_env]. intros w o w' x2 EX. destruct o as [|a].
  - apply exec_reset in EX. destruct EX as (ob & -> & EX). exists (OReset ob). split; [unfold exec; cbn [clip_reward map_reward ereset] in EX; rewrite EX; reflexivity|exact I].
  - apply exec_step in EX. destruct EX as (ob & -> & EX). apply bind_ok in EX. destruct EX as ([w1 o1] & EX & R1). injection R1 as <- <-.
    exists (OStep o1). split; [unfold exec; rewrite EX; reflexivity|]. cbn. repeat split.
Qed.
Lemma good_flicker : forall O1 clip life acts blank coins (g : live_env A O1 X), good clip life acts g -> good clip life acts (mk_live (flicker_frame blank (l_env g)) (coins, 0, l_state g)).
Proof.
  intros O1 clip life acts blank coins g G. refine (@good_like O1 _ clip clip life acts g (mk_live (flicker_frame blank (l_env g)) (coins, 0, l_state g)) (fun w => snd w) _ _ _ G); [reflexivity| |reflexivity].
  cbn [l_env]. intros [[cs k] w] o w' x2 EX. destruct o as [|a].
  - apply exec_reset in EX. destruct EX as (ob & -> & EX). apply bind_ok in EX. destruct EX as ([w1 o1] & EX & R1). injection R1 as <- <-.
    exists (OReset o1). split; [unfold exec; cbn [snd]; rewrite EX; reflexivity|exact I].
  - apply exec_step in EX. destruct EX as (ob & -> & EX). apply bind_ok in EX. destruct EX as ([w1 o1] & EX & R1). injection R1 as <- <-.
    exists (OStep o1). split; [unfold exec; cbn [snd]; rewrite EX; reflexivity|]. cbn. destruct clip; repeat split.
Qed.
Lemma good_stack : forall O1 clip life acts k q (g : live_env A O1 X), good clip life acts g -> good clip life acts (mk_live (frame_stack (l_env g) k) (q, l_state g)).
Proof.
  intros O1 clip life acts k q g G. refine (@good_like O1 _ clip clip life acts g (mk_live (frame_stack (l_env g) k) (q, l_state g)) (fun w => snd w) _ _ _ G); [reflexivity| |reflexivity].
  cbn [l_env]. intros [qs w] o w' x2 EX. destruct o as [|a].
  - apply exec_reset in EX. destruct EX as (ob & -> & EX). apply bind_ok in EX. destruct EX as ([w1 o1] & EX & R1). apply bind_ok in R1. destruct R1 as (ob1 & _ & R1). injection R1 as <- <-.
    exists (OReset o1). split; [unfold exec; cbn [snd] in *; rewrite EX; reflexivity|exact I].
  - apply exec_step in EX. destruct EX as (ob & -> & EX). apply bind_ok in EX. destruct EX as ([w1 o1] & EX & R1). apply bind_ok in R1. destruct R1 as (ob1 & _ & R1). injection R1 as <- <-.
    exists (OStep o1). split; [unfold exec; cbn [snd] in *; rewrite EX; reflexivity|]. cbn. destruct clip; repeat split.
Qed.
End Game.

Theorem atari_unlimited : forall A O P X (E : env A O X) (e0 : est E) max_frames (omax : O -> O -> O) (noop fire second : A) zero draws opt (warp : O -> P) scaled blank coins,
  max_frames = None \/ max_frames = Some 0%Z ->
  let acts := noop :: (if with_fire opt then [fire; second] else []) in
  let g := wrap_deepmind noop fire second opt warp scaled blank coins (make_atari omax noop zero (mk_live E e0) max_frames draws) in
  forall ops w ys, run (l_env g) (l_state g) ops = Ok (w, ys) -> obeys Fresh ops ys ->
  exists logs, played_unlimited E (clip_rewards opt) (episode_life opt) acts e0 ops ys logs /\ reset_first (concat logs).
Proof.
  intros A O P X E e0 max_frames omax noop fire second zero draws opt warp scaled blank coins MF acts g.
  assert (G : good E e0 (clip_rewards opt) (episode_life opt) acts g).
  { unfold g, wrap_deepmind, wrap_calls. set (g0 := make_atari _ _ _ _ _ _). clear g.
    set (g1 := if episode_life opt then _ else g0).
    assert (G1 : good E e0 false (episode_life opt) [noop] g1).
    { unfold g1, g0. destruct (episode_life opt); destruct MF as [-> | ->]; [apply good_life|apply good_life|apply good_atari|apply good_atari]. }
    clearbody g1. clear g0. generalize dependent (episode_life opt). intros life G1.
    set (g2 := if with_fire opt then _ else g1). assert (G2 : good E e0 false life acts g2).
    { unfold g2, acts. destruct (with_fire opt); [apply (good_fire (acts := [noop])); exact G1|exact G1]. } clearbody g2.
    apply (good_map_obs warp) in G2. set (g3 := mk_live (map_obs warp (l_env g2)) (l_state g2)) in *. clearbody g3.
    set (g4 := if scale opt then _ else g3). assert (G4 : good E e0 false life acts g4) by (unfold g4; destruct (scale opt); [apply good_map_obs; exact G2|exact G2]). clearbody g4.
    set (g5 := if clip_rewards opt then _ else g4). assert (G5 : good E e0 (clip_rewards opt) life acts g5) by (unfold g5; destruct (clip_rewards opt); [apply good_clip; exact G4|exact G4]). clearbody g5.
    set (g6 := if flicker opt then _ else g5). assert (G6 : good E e0 (clip_rewards opt) life acts g6) by (unfold g6; destruct (flicker opt); [apply good_flicker; exact G5|exact G5]). clearbody g6.
    destruct (stack_frames opt); [apply good_stack; exact G6|apply good_map_obs; exact G6]. }
  intros ops w ys RN OB. destruct G as (raw & Inv & KP & I0 & R0).
  destruct (keeps_run KP ops _ Fresh I0 RN OB) as (logs & P1 & W1). rewrite R0 in P1. exists logs. split; [exact P1|apply W1; reflexivity].
Qed.
